(** C74: why a mail domain is found bad is noted and logged, truthfully. *)
From Verif Require Import PropsParse.
From Verif Require Import Bytes Outcome Lexer Ast GoNet Parser World Dns Eval Sem EvalProofs DecideProofs Decisions RuleLoad ConnCfg PropsConn CipherNames Message Session SessProofs Conv PropsEval DemoSession PropsSession PropsReply PropsHits.
From Coq Require Import Lia.

(** ** Specification *)

(** What can be wrong with a host, and how it is said. *)
Inductive HostFault (W : world) (n : bytes) : bytes -> Prop :=
| Hf_lookup i e : w_ip W i n = inr e -> HostFault W n (de_text e)
| Hf_none i : w_ip W i n = inl [] -> HostFault W n (n ++ B ": no IPs")
| Hf_global i l a : w_ip W i n = inl l -> In a l -> is_global_unicast a = false ->
    HostFault W n (B "host " ++ n ++ B " IP " ++ w_ipstr W a ++ B " not global unicast")
| Hf_private i l a net : w_ip W i n = inl l -> In a l -> In net private_nets -> net_contains net (Some a) = true ->
    HostFault W n (B "host " ++ n ++ B " IP " ++ w_ipstr W a ++ B " is in bad address space").

(** What can be wrong with a mail domain. *)
Inductive DomainFault (W : world) (d : bytes) : bytes -> Prop :=
| Fa_tempfail i e : w_mx W i (d ++ B ".") = inr e -> isTemporary e = true -> DomainFault W d (B "MX tempfail: " ++ de_text e)
| Fa_itself i e why : w_mx W i (d ++ B ".") = inr e -> isTemporary e = false -> HostFault W (d ++ B ".") why -> DomainFault W d why
| Fa_null i l m : w_mx W i (d ++ B ".") = inl l -> In m l -> mx_host m = B "." -> mx_pref m = 0 ->
    DomainFault W d (d ++ B ": RFC 7505 null MX")
| Fa_bogus i l m : w_mx W i (d ++ B ".") = inl l -> In m l -> In (to_lower (w_uni W) (mx_host m)) [B "."; B "localhost."] ->
    DomainFault W d (B "rejecting bogus MX " ++ itoa (mx_pref m) ++ B " " ++ mx_host m)
| Fa_host i l m why : w_mx W i (d ++ B ".") = inl l -> In m l -> HostFault W (mx_host m) why -> DomainFault W d why.

(** ** Texts *)

Lemma checkAddrs_fault W n i all l e : w_ip W i n = inl all -> incl l all -> checkAddrs W n l = Some e -> HostFault W n e.
Proof.
  intros Hw. induction l as [|a l IH]; intros Hi; cbn [checkAddrs]; [discriminate|].
  assert (Ha : In a all) by (apply Hi; now left).
  destruct (is_global_unicast a) eqn:Eg; cbn [negb]; [|intros [= <-]; eapply Hf_global; eauto].
  destruct (existsb _ private_nets) eqn:Ep; [|apply IH; intros x Hx; apply Hi; now right].
  apply existsb_exists in Ep as (net & Hn & Hc). intros [= <-]. eapply Hf_private; eauto.
Qed.
Lemma checkIP_fault W n tr v tr' : checkIP W n tr = (v, tr') -> fails v -> exists why, snd v = Some why /\ HostFault W n why.
Proof.
  unfold checkIP, lookup_ip, ask, xbind, xret. intros H Hf. injection H as <- _.
  destruct (w_ip W (length tr) n) as [l|e] eqn:Ew.
  - destruct l as [|a l]; [eexists; split; [reflexivity|eapply Hf_none; eauto]|].
    destruct (checkAddrs W n (a :: l)) as [e|] eqn:Ec; [|destruct Hf; discriminate].
    exists e. split; auto. eapply checkAddrs_fault; eauto. apply incl_refl.
  - destruct (isTemporary e); eexists; (split; [reflexivity|eapply Hf_lookup; eauto]).
Qed.
Lemma checkMXs_fault W d i all : w_mx W i (d ++ B ".") = inl all ->
  forall l, incl l all -> forall v e tr r tr', (fails (v, e) -> exists why, e = Some why /\ DomainFault W d why) ->
  checkMXs W d l v e tr = (r, tr') -> fails r -> exists why, snd r = Some why /\ DomainFault W d why.
Proof.
  intros Hw. induction l as [|m l IH]; intros Hi v e tr r tr' H0; cbn [checkMXs].
  - intros [= <- _] Hf. apply H0. exact Hf.
  - assert (Hm : In m all) by (apply Hi; now left). assert (Hi' : incl l all) by (intros x Hx; apply Hi; now right).
    destruct (beqb_spec (mx_host m) (B ".")) as [Eh|Eh]; cbn [andb].
    + destruct (Nat.eqb_spec (mx_pref m) 0) as [Ep|Ep].
      * intros [= <- _] _. eexists. split; [reflexivity|]. eapply Fa_null; eauto.
      * destruct (_ || _) eqn:Eb.
        -- intros [= <- _] _. eexists. split; [reflexivity|]. eapply Fa_bogus; eauto. apply Bool.orb_true_iff in Eb as [Eb|Eb]; apply beqb_eq in Eb; rewrite Eb; cbn; auto.
        -- unfold xbind. destruct (checkIP W (mx_host m) tr) as [v' tr1] eqn:Ec. intros H Hf.
           assert (Hv : fails v' -> exists why, snd v' = Some why /\ DomainFault W d why).
           { intros Hv. destruct (checkIP_fault _ _ _ _ _ Ec Hv) as (why & Ew & Hh). exists why. split; auto. eapply Fa_host; eauto. }
           destruct (dgtb _ _); (eapply IH; [exact Hi'| |exact H|exact Hf]); auto.
    + destruct (_ || _) eqn:Eb.
      * intros [= <- _] _. eexists. split; [reflexivity|]. eapply Fa_bogus; eauto. apply Bool.orb_true_iff in Eb as [Eb|Eb]; apply beqb_eq in Eb; rewrite Eb; cbn; auto.
      * unfold xbind. destruct (checkIP W (mx_host m) tr) as [v' tr1] eqn:Ec. intros H Hf.
        assert (Hv : fails v' -> exists why, snd v' = Some why /\ DomainFault W d why).
        { intros Hv. destruct (checkIP_fault _ _ _ _ _ Ec Hv) as (why & Ew & Hh). exists why. split; auto. eapply Fa_host; eauto. }
        destruct (dgtb _ _); (eapply IH; [exact Hi'| |exact H|exact Hf]); auto.
Qed.
Lemma ValidDomain_fault W d tr r tr' : ValidDomain W d tr = (r, tr') -> fails r -> exists why, snd r = Some why /\ DomainFault W d why.
Proof.
  unfold ValidDomain, lookup_mx, ask, xbind. destruct (w_mx W (length tr) (d ++ B ".")) as [l|e] eqn:Ew.
  - intros H Hf. eapply (checkMXs_fault W d _ l Ew l (incl_refl l)); [|exact H|exact Hf]. intros [H0|H0]; discriminate.
  - destruct (isTemporary e) eqn:Et.
    + intros [= <- _] _. eexists. split; [reflexivity|]. eapply Fa_tempfail; eauto.
    + intros H Hf. destruct (checkIP_fault _ _ _ _ _ H Hf) as (why & Es & Hh). exists why. split; auto. eapply Fa_itself; eauto.
Qed.

(** ** Noting *)

(** a computation that notes the domains it newly finds bad *)
Definition found (c c' : ctx) : Prop :=
  (forall d v, mget (c_domvalid c') d = Some v -> fails v -> mget (c_domvalid c) d = None -> c_domerr c' <> None) /\
  (c_domerr c <> None -> c_domerr c' <> None) /\
  (forall d v, mget (c_domvalid c) d = Some v -> mget (c_domvalid c') d = Some v).
Lemma found_refl c : found c c.
Proof. split; [congruence|auto]. Qed.
Lemma found_trans a b c : found a b -> found b c -> found a c.
Proof.
  intros (H1 & H2 & H3) (H4 & H5 & H6). split; [|split; auto]. intros d v Hc Hf Ha.
  destruct (mget (c_domvalid b) d) as [v'|] eqn:Eb; [|eapply H4; eauto].
  pose proof (H6 _ _ Eb) as E6. assert (v' = v) by congruence. subst v'. apply H5. eapply H1; eauto.
Qed.
Lemma found_same c c' : c_domvalid c' = c_domvalid c -> c_domerr c' = c_domerr c -> found c c'.
Proof. intros E1 E2. unfold found. rewrite E1, E2. split; [congruence|auto]. Qed.
Lemma found_steps W c c' : Sem.steps W c c' -> found c c'.
Proof.
  induction 1 as [c|c d e H _ IH]; [apply found_refl|]. eapply found_trans; [|exact IH]. clear e IH.
  destruct H as [n er c H1 H2|f c H1 H2|c H1|n ips c H1 H2|p dm c H1|dm r new c H1 H2 H3|dm v c H1|c]; try (apply found_same; reflexivity).
  - destruct (bmem dm (c_dnsblhit c)); [apply found_refl|apply found_same; reflexivity].
  - split; [|split]; cbn [set_domerr set_domvalid set_trace c_domvalid c_domerr].
    + intros d v. rewrite mget_mset. destruct (beqb_spec d dm) as [->|Hn]; [|congruence]. intros [= <-] Hf _. rewrite (noted_fails dm r (c_domerr c) Hf). discriminate.
    + intros Hc. destruct (noted_cases dm r (c_domerr c)) as [E|[Hf E]]; rewrite E; [exact Hc|discriminate].
    + intros d v Hd. rewrite mget_mset. destruct (beqb_spec d dm) as [->|Hn]; [congruence|exact Hd].
  - split; [|split]; cbn [set_domerr c_domvalid c_domerr]; auto; [congruence|].
    intros Hc. destruct (noted_cases dm v (c_domerr c)) as [E|[Hf E]]; rewrite E; [exact Hc|discriminate].
Qed.
Definition finds {A} (m : M A) : Prop := forall c a c', m c = Ok (a, c') -> found c c'.
Lemma finds_bind {A B} (m : M A) (f : A -> M B) : finds m -> (forall a, finds (f a)) -> finds (mbind m f).
Proof.
  intros Hm Hf c x c'. unfold mbind. destruct (m c) as [[a c1]| |] eqn:E; intros H; try discriminate.
  eapply found_trans; [eapply Hm; eauto|eapply Hf; eauto].
Qed.
Lemma finds_ret {A} (a : A) : finds (ret a).
Proof. intros c x c' [= <- <-]. apply found_refl. Qed.
Lemma finds_get {A} (f : ctx -> A) : finds (get f).
Proof. intros c x c' [= <- <-]. apply found_refl. Qed.
Lemma finds_upd f : (forall c, c_domvalid (f c) = c_domvalid c /\ c_domerr (f c) = c_domerr c) -> finds (upd f).
Proof. intros Hf c x c' [= <- <-]. destruct (Hf c). apply found_same; auto. Qed.
Lemma finds_eval W T e : finds (eval W T e).
Proof. intros c x c' H. eapply found_steps. eapply runs_eval; eauto. Qed.
Ltac finds1 := first [apply finds_ret | apply finds_get | apply finds_eval | apply finds_upd; intros; split; reflexivity | apply finds_bind; [|intros] ].
Lemma finds_clauses W T cs : finds (check_clauses W T cs).
Proof.
  induction cs as [|rc cs IH]; cbn [check_clauses]; [finds1|]. repeat finds1. destruct a0; [finds1|]. destruct a; cbn [negb]; [|exact IH]. repeat finds1.
Qed.
Lemma finds_check W T r : finds (check W T r).
Proof. unfold check. finds1; [finds1|apply finds_clauses]. Qed.
Lemma finds_each W T r l : finds (ruleForEachRcpt W T r l).
Proof.
  induction l as [|a l IH]; cbn [ruleForEachRcpt]; [finds1|]. finds1; [finds1|]. finds1; [apply finds_check|]. destruct a1; [finds1|].
  finds1; [finds1|]. destruct a1; [finds1|exact IH].
Qed.
Lemma finds_rules W T ph rs : finds (run_rules W T ph rs).
Proof.
  induction rs as [|r rs IH]; cbn [run_rules]; [finds1|]. destruct (skipped ph r); [exact IH|]. finds1; [finds1|]. finds1.
  { destruct (_ && _); [apply finds_each|apply finds_check]. }
  finds1; [finds1|]. destruct a1; [exact IH|]. destruct (_ && _); [finds1|exact IH].
Qed.
Lemma Decide_found W T rs ph e c a c' : Decide W T rs ph e c = Ok (a, c') ->
  forall d v, mget (c_domvalid c') d = Some v -> fails v -> mget (c_domvalid c) d = None -> c_domerr c' <> None.
Proof.
  unfold Decide. intros H. unfold mbind at 1, upd at 1 in H.
  set (c0 := set_domerr None (set_withprops [] (set_dnsblhit [] (shadow ph e c)))) in H.
  assert (E0 : c_domvalid c0 = c_domvalid c) by (destruct ph; reflexivity).
  assert (Hf : found c0 c').
  { clear E0. clearbody c0. revert c0 a c' H. change (finds (mbind (get c_defresult) (fun def =>
      if Nat.leb (acode aAccept) (acode def) then mbind (upd (fun c => set_withprops (c_defprops c) (set_dnsblhit (c_defdnsblhit c) c))) (fun _ => ret def)
      else mbind (run_rules W T ph rs) (fun r => mbind (get c_from) (fun from =>
        if peqb ph pMfrom && beqb from [] && agtb r aAccept
        then mbind (upd (fun c => set_withprops [] (set_def (c_dnsblhit c) (c_withprops c) (set_defresult r c)))) (fun _ => ret aAccept) else ret r))))).
    finds1; [finds1|]. destruct (Nat.leb _ _); [repeat finds1|]. finds1; [apply finds_rules|]. finds1; [finds1|]. destruct (_ && _); repeat finds1. }
  destruct Hf as (Hf & _). intros d v H1 H2 H3. rewrite <- E0 in H3. eapply Hf; eauto.
Qed.

Lemma session_traced W rules tr0 h c : session W rules tr0 h c -> traced W tr0 c.
Proof. induction 1; [apply traced_new|]. eapply traced_dsteps; [eapply druns_Decide; eauto|auto]. Qed.
Lemma session_domerr W rules tr0 h c : session W rules tr0 h c -> domerr_ok c.
Proof. induction 1; [intros e; discriminate|]. eapply dsteps_domerr; [eapply druns_Decide; eauto|auto]. Qed.

Lemma suffix_same {A} (a a' : list A) x x' b b' : a ++ x :: b = a' ++ x' :: b' -> length b = length b' -> b = b'.
Proof.
  intros E Hl. assert (Ha : length a = length a') by (apply (f_equal (@length A)) in E; rewrite !app_length in E; cbn in E; lia).
  revert a' E Ha. induction a as [|y a IH]; intros [|y' a'] E Ha; try discriminate; cbn [app] in E.
  - congruence.
  - injection E as _ E. cbn in Ha. eapply IH; eauto.
Qed.

(** ** C74 *)

(** What is noted about a domain in a decision is true: the domain was found
    bad, for the reason given. *)
Theorem C74_true W rules tr0 h c d e : session W rules tr0 h c -> In d h -> d_domerr d = Some e ->
  exists dm why, e = B "domain " ++ dm ++ B ": " ++ why /\ DomainFault W dm why.
Proof.
  intros HS. revert d e. induction HS as [|h c T ph ev a c' HS IH HD]; intros d e Hd He; [destruct Hd|].
  destruct Hd as [<-|Hd]; [|eapply IH; eauto]. cbn [d_domerr] in He.
  assert (HS' : session W rules tr0 (mkDecision T ph ev a (c_withprops c') (c_dnsblhit c') (c_domerr c') :: h) c') by (eapply Se_next; eauto).
  destruct (session_domerr _ _ _ _ _ HS' e He) as (dm & v & Hm & Hf & ->).
  destruct (tr_dom _ _ _ (session_traced _ _ _ _ _ HS') dm v Hm) as (new & old & _ & _ & Ev).
  destruct (ValidDomain W dm old) as [r tr'] eqn:EV. cbn [fst] in Ev. subst v.
  destruct (ValidDomain_fault _ _ _ _ _ EV Hf) as (why & Es & Hw). exists dm, why. split; auto. unfold domain_failure. rewrite Es. reflexivity.
Qed.

(** When a decision looks up a domain and finds it bad, it notes a reason. *)
Theorem C74_noted W rules tr0 h c T ph e a c' dm new pre : session W rules tr0 h c -> Decide W T rules ph e c = Ok (a, c') ->
  c_trace c' = new ++ XMx (dm ++ B ".") :: pre ++ c_trace c -> fails (fst (ValidDomain W dm (pre ++ c_trace c))) ->
  c_domerr c' <> None.
Proof.
  intros HS HD Et Hf.
  assert (HS' : session W rules tr0 (mkDecision T ph e a (c_withprops c') (c_dnsblhit c') (c_domerr c') :: h) c') by (eapply Se_next; eauto).
  pose proof (session_traced _ _ _ _ _ HS) as HT. pose proof (session_traced _ _ _ _ _ HS') as HT'.
  assert (HA : AskedAt tr0 (c_trace c') (XMx (dm ++ B ".")) (length (pre ++ c_trace c))).
  { exists new, (pre ++ c_trace c). split; [exact Et|]. split; auto. pose proof (tr_ext _ _ _ HT). rewrite app_length. lia. }
  destruct (tr_domasked _ _ _ HT' _ _ HA) as (d' & Ed & Hn). apply app_inv_tail in Ed. subst d'.
  destruct (mget (c_domvalid c') dm) as [v|] eqn:Em; [clear Hn|congruence].
  destruct (tr_dom _ _ _ HT' _ _ Em) as (new' & old' & Et' & Hl & Ev).
  assert (HA' : AskedAt tr0 (c_trace c') (XMx (dm ++ B ".")) (length old')) by (exists new', old'; auto).
  pose proof (tr_domonce _ _ _ HT' _ _ _ HA HA') as El.
  assert (Eo : old' = pre ++ c_trace c).
  { rewrite Et in Et'. eapply suffix_same; [symmetry; exact Et'|auto]. }
  subst old'. rewrite <- Ev in Hf. eapply Decide_found; eauto.
  destruct (mget (c_domvalid c) dm) as [v'|] eqn:Ec; auto. exfalso.
  destruct (tr_dom _ _ _ HT _ _ Ec) as (new2 & old2 & Et2 & Hl2 & _).
  assert (HA2 : AskedAt tr0 (c_trace c') (XMx (dm ++ B ".")) (length old2)).
  { rewrite Et. change (new ++ XMx (dm ++ B ".") :: pre ++ c_trace c) with (new ++ [XMx (dm ++ B ".")] ++ pre ++ c_trace c).
    rewrite !app_assoc. apply AskedAt_suffix. exists new2, old2. auto. }
  pose proof (tr_domonce _ _ _ HT' _ _ _ HA HA2) as E2. apply (f_equal (@length call)) in Et2. rewrite !app_length in *. cbn [length] in Et2. lia.
Qed.

Section S.
  Context (K : config) (E : senv) (cn : conn).

  Definition failure_told (e : bytes) : effect := FSmtplog (n_prefix cn ++ B "! " ++ e ++ [ch_nl]).

  Lemma told_noted I s d l e : Told E cn I s d l -> si_log I = true -> d_domerr d = Some e -> In (failure_told e) l \/ In e (failures (s_out s)).
  Proof.
    intros (hits & dns & tls & -> & _ & Hdns & _) Hlog He. inversion Hdns as [H|H|x H1 H2|x H1 H2 H3]; subst dns; try congruence.
    - right. unfold last_failure in H2. destruct (failures (s_out s)) as [|y ys]; [discriminate|]. left. congruence.
    - left. assert (x = e) by congruence. subst x. apply in_or_app. right. left. reflexivity.
  Qed.
  Lemma TurnTold_noted I s s' : TurnTold E cn I s s' -> si_log I = true -> (forall e, In e (failures (s_out s)) -> In (failure_told e) (s_out s)) ->
    forall e, In e (failures (s_out s')) -> In (failure_told e) (s_out s').
  Proof.
    intros [(l & Hl & Eo & _)|(d & pre & told & post & Hp & Hq & HT & Eo & _)] Hlog IH e He; rewrite Eo in *.
    - rewrite failures_app, (nohit_failures l Hl) in He. apply in_or_app. right. apply IH. exact He.
    - change (FDecide d :: pre ++ s_out s) with ([FDecide d] ++ pre ++ s_out s) in He |- *.
      rewrite !failures_app, (nohit_failures _ Hp), (nohit_failures _ Hq), (Told_failures _ _ _ _ _ _ HT) in He. cbn [app] in He.
      assert (Hold : In e (failures (s_out s)) -> In (failure_told e) (post ++ rev told ++ [FDecide d] ++ pre ++ s_out s)).
      { intros H. apply IH in H. repeat (apply in_or_app; right). exact H. }
      apply in_app_or in He as [He|He]; [|exact (Hold He)].
      cbn [failures flat_map app] in He. rewrite app_nil_r in He. destruct (d_domerr d) as [x|] eqn:Ex; [|destruct He]. destruct He as [->|[]].
      destruct (told_noted _ _ _ _ _ HT Hlog Ex) as [H|H]; [|exact (Hold H)].
      apply in_or_app. right. apply in_or_app. left. apply -> in_rev. exact H.
  Qed.

  (** With a log, whatever a decision of the session noted about a domain has
      been logged. *)
  Theorem C74_logged I h s d e : Conv K E cn I h s -> In (FDecide d) (s_out s) -> si_log I = true -> d_domerr d = Some e ->
    In (FSmtplog (n_prefix cn ++ B "! " ++ e ++ [ch_nl])) (s_out s).
  Proof.
    intros HC Hd Hlog He. fold (failure_told e).
    assert (Hf : In e (failures (s_out s))).
    { unfold failures. apply in_flat_map. exists (FDecide d). split; auto. rewrite He. now left. }
    clear Hd He d. revert e Hf. induction HC as [s Hs|h s ev tls s' did HC IH Hst Ha].
    - apply setup_TurnTold in Hs as (I' & HT & HI). assert (I = I') by congruence. subst I'. eapply TurnTold_noted; eauto.
    - destruct (Conv_remembers _ _ _ _ _ _ HC) as (Hh & Hr). eapply TurnTold_noted; [eapply step_TurnTold; eauto|auto|exact IH].
  Qed.
End S.

(** ** Examples *)

Definition bad_rules : list rule := text_rules (B "@from stall from-has baddom
").
(** Two senders at a domain whose address is a loopback address: both are
    stalled, and the reason is logged once. *)
Example C74_example : exists I h t n s s', Turn (demo_cfg bad_rules) listed_env demo_conn I h t n s s' /\
  (si_log I, map (fun u => hit_effects (t_did u)) h, hit_effects (t_did t), map d_domerr (decisions (t_did t)), map d_result (decisions (t_did t))) =
  (true, [[FSmtplog (B "7/1! domain b.c: host b.c. IP 127.0.0.2 not global unicast" ++ [ch_nl])]; []], [],
   [Some (B "domain b.c: host b.c. IP 127.0.0.2 not global unicast")], [aStall]).
Proof.
  apply (turn_example _ _ _ (plain [EvHelo EHLO (B "h"); EvMailFrom (B "a@b.c")]) (EvMailFrom (B "d@b.c")) no_tls
    (fun I h t n s s' => (si_log I, map (fun u => hit_effects (t_did u)) h, hit_effects (t_did t), map d_domerr (decisions (t_did t)), map d_result (decisions (t_did t))))).
  vm_compute. reflexivity.
Qed.
Example C74_fault : DomainFault listed_world (B "b.c") (B "host b.c. IP 127.0.0.2 not global unicast").
Proof.
  eapply (Fa_itself _ _ 0 (mkDnsErr true false (B "no such host") (B "no such host"))); [reflexivity|reflexivity|].
  change (HostFault listed_world (B "b.c" ++ B ".") (B "host " ++ (B "b.c" ++ B ".") ++ B " IP " ++ w_ipstr listed_world (mk_v4 (127 * 2 ^ 24 + 2)) ++ B " not global unicast")).
  apply (Hf_global _ _ 0 [mk_v4 (127 * 2 ^ 24 + 2)]); [reflexivity|left; reflexivity|vm_compute; reflexivity].
Qed.
(** A decision that looks up a bad domain. *)
Definition bad_trans : trans := mkTrans (B "1.2.3.4") (B "5.6.7.8") false no_rdns [].
Example C74_noted_nonvacuous : exists a c',
  Decide listed_world bad_trans bad_rules pMfrom (mkEvt None (B "a@b.c")) (newContext []) = Ok (a, c') /\
  c_trace c' = [XIp (B "b.c.")] ++ XMx (B "b.c" ++ B ".") :: [] ++ c_trace (newContext []) /\
  fails (fst (ValidDomain listed_world (B "b.c") ([] ++ c_trace (newContext [])))) /\
  c_domerr c' = Some (B "domain b.c: host b.c. IP 127.0.0.2 not global unicast").
Proof.
  destruct (Decide listed_world bad_trans bad_rules pMfrom (mkEvt None (B "a@b.c")) (newContext [])) as [[a c']| |] eqn:Ed.
  2-3: exfalso; revert Ed; vm_compute; discriminate.
  exists a, c'. split; auto. revert Ed. vm_compute. intros [= <- <-]. split; auto.
Qed.
