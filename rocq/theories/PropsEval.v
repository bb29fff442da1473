(** Properties of evaluating rule expressions: C26-C29, C32, C36. *)
From Coq Require Import Relations Permutation.
From Verif Require Import PropsParse.
From Verif Require Import Bytes Outcome Lexer Ast Parser Grammar GoNet World Dns Eval PropsMatch PropsAttr Sem EvalProofs DecideProofs Decisions.

(** Any state of a connection: whatever evaluations were made before and
    whatever the commands were.  [tr0] are the outside calls before. *)
Definition connection (W : world) (tr0 : list call) (c : ctx) : Prop := dsteps W (newContext tr0) c.

Lemma connection_new W tr0 : connection W tr0 (newContext tr0).
Proof. apply dsteps_refl. Qed.
Lemma connection_traced W tr0 c : connection W tr0 c -> traced W tr0 c.
Proof. intros H. eapply traced_dsteps; [exact H|apply traced_new]. Qed.
Lemma connection_started W tr0 c : connection W tr0 c -> started tr0 c.
Proof. intros H. eapply dsteps_started; [exact H|]. unfold started. cbn. lia. Qed.
Lemma connection_eval W tr0 T e c b c' : connection W tr0 c -> eval W T e c = Ok (b, c') -> connection W tr0 c'.
Proof. intros H E. eapply dsteps_trans; [exact H|]. eapply druns_eval; eauto. Qed.
Lemma connection_check W tr0 T r c b c' : connection W tr0 c -> check W T r c = Ok (b, c') -> connection W tr0 c'.
Proof. intros H E. eapply dsteps_trans; [exact H|]. eapply druns_check; eauto. Qed.
Lemma connection_session W rules tr0 h c : session W rules tr0 h c -> connection W tr0 c.
Proof.
  induction 1; [apply connection_new|]. eapply dsteps_trans; [eassumption|]. eapply druns_Decide; eauto.
Qed.
Lemma connection_sees W tr0 c v : connection W tr0 c -> Saw W tr0 (c_trace c) v -> sees W tr0 v c.
Proof. intros H. apply traced_sees. apply connection_traced; auto. Qed.

(** A view as in Decisions.v exists for every connection during which no
    blocklist name comes to be listed after a failed lookup of it. *)
Theorem connection_view W tr0 c : connection W tr0 c -> no_late_listing W tr0 (c_trace c) -> exists v, Saw W tr0 (c_trace c) v.
Proof. intros H HL. exists (seen W tr0 c). apply traced_Saw; auto. apply connection_traced; auto. Qed.

(** A DNS that does not change. *)
Definition static_dns (W : world) : Prop :=
  (forall i j n, w_ip W i n = w_ip W j n) /\ (forall i j n, w_mx W i n = w_mx W j n) /\ fair_order W.
Definition static_view (W : world) (f : bytes -> list bytes) : view :=
  mkView f (fun d => fst (fst (ValidDomain W d []))) (fun n => exists ips, w_ip W 0 n = inl ips /\ ips <> []).

Section Static.
  Variable W : world.
  Hypothesis HW : static_dns W.

  Lemma checkIP_any n t t' : fst (checkIP W n t) = fst (checkIP W n t').
  Proof. unfold checkIP, lookup_ip, ask, xbind, xret. cbn [fst]. now rewrite (proj1 HW (length t) (length t')). Qed.
  Lemma checkMXs_any d l : forall v e t t', fst (checkMXs W d l v e t) = fst (checkMXs W d l v e t').
  Proof.
    induction l as [|m l IH]; intros v e t t'; cbn [checkMXs]; auto.
    destruct (_ && _); auto. destruct (_ || _); auto. unfold xbind.
    pose proof (checkIP_any (mx_host m) t t') as H. destruct (checkIP W (mx_host m) t) as [a u], (checkIP W (mx_host m) t') as [a' u'].
    simpl in H. subst a'. destruct (dgtb (fst a) v); apply IH.
  Qed.
  Lemma ValidDomain_any d t t' : fst (ValidDomain W d t) = fst (ValidDomain W d t').
  Proof.
    unfold ValidDomain, lookup_mx, ask, xbind. rewrite (proj1 (proj2 HW) (length t) (length t')).
    destruct (w_mx W (length t') (d ++ B ".")) as [l|e]; [apply checkMXs_any|].
    destruct (isTemporary e); auto. apply checkIP_any.
  Qed.

  (** then the view is the DNS itself *)
  Lemma static_Saw tr0 c : connection W tr0 c ->
    Saw W tr0 (c_trace c) (static_view W (v_file (seen W tr0 c))).
  Proof.
    intros Hc. assert (HL : no_late_listing W tr0 (c_trace c)).
    { intros n i j ips Hi Hj Hij E. destruct (tr_blonce _ _ _ (connection_traced _ _ _ Hc) n i j Hi Hj Hij) as (e & Ee).
      rewrite (proj1 HW i j) in Ee. congruence. }
    destruct (traced_Saw W tr0 c (connection_traced _ _ _ Hc) HL) as [S1 S2 S3 S4].
    constructor; cbn [static_view v_file v_domain v_listed]; auto.
    - intros d new old _ _. now rewrite (ValidDomain_any d old []).
    - intros n i _. now rewrite (proj1 HW 0 i).
  Qed.
End Static.

(** A world for the examples: the entries of bl.example are 4.3.2.1.bl.example
    and evil.org.bl.example; the file /l has an entry, /empty is empty, and the
    contents of /l change after the third outside call. *)
Definition demo_world : world :=
  {| w_uni := plain_unicode;
     w_file := fun i f => if beqb f (B "/l") then FRead (if Nat.ltb i 3 then B "@evil.org" ++ [ch_nl] else []) false
                          else if beqb f (B "/empty") then FRead [] false else FNoent;
     w_ip := fun _ n => if beqb n (B "4.3.2.1.bl.example") || beqb n (B "4.3.2.1.bl.example.") || beqb n (B "evil.org.bl.example") || beqb n (B "mail.good.org.")
                        then inl [mk_v4 (8 * 2 ^ 24)] else inr (mkDnsErr true false (B "no such host") (B "no such host"));
     w_mx := fun _ n => if beqb n (B "good.org.") then inl [mkMx (B "mail.good.org.") 10] else inr (mkDnsErr true false (B "no such host") (B "no such host"));
     w_addr := fun _ _ => inl [];
     w_order := fun _ l => rev l;
     w_ipstr := fun _ => B "8.0.0.0" |}.
Lemma demo_static : static_dns demo_world.
Proof. split; [reflexivity|]. split; [reflexivity|]. intros i l. apply Permutation_sym, Permutation_rev. Qed.
Definition demo_trans : trans := mkTrans (B "1.2.3.4") (B "5.6.7.8") false (mkRdns [B "a.good.org."] [] [B "evil.org."]) [].

(** ** C32 *)

(** Evaluation gives the meaning of Sem.v, in every state of a connection. *)
Theorem C32_evaluation_is_meaning W tr0 fv T e c b c' :
  fair_order W -> connection W tr0 c -> eval W T e c = Ok (b, c') -> Saw W tr0 (c_trace c') fv ->
  (b = true <-> truth (facts_of W fv T c) e).
Proof.
  intros HW Hc E Hf. apply (eval_sound W HW tr0 fv T e c b c' E).
  - eapply connection_started; eauto.
  - eapply connection_sees; eauto. eapply connection_eval; eauto.
Qed.

(** Hence what was asked and remembered before makes no difference. *)
Corollary C32_caching_irrelevant W tr0 fv T e c1 b1 c1' c2 b2 c2' :
  fair_order W -> connection W tr0 c1 -> connection W tr0 c2 ->
  c_helocmd c1 = c_helocmd c2 -> c_heloname c1 = c_heloname c2 -> c_from c1 = c_from c2 -> c_rcptto c1 = c_rcptto c2 ->
  eval W T e c1 = Ok (b1, c1') -> eval W T e c2 = Ok (b2, c2') ->
  Saw W tr0 (c_trace c1') fv -> Saw W tr0 (c_trace c2') fv -> b1 = b2.
Proof.
  intros HW H1 H2 A1 A2 A3 A4 E1 E2 F1 F2.
  pose proof (C32_evaluation_is_meaning W tr0 fv T e c1 b1 c1' HW H1 E1 F1) as M1.
  pose proof (C32_evaluation_is_meaning W tr0 fv T e c2 b2 c2' HW H2 E2 F2) as M2.
  replace (facts_of W fv T c2) with (facts_of W fv T c1) in M2 by (unfold facts_of; congruence).
  destruct b1, b2; auto; exfalso; intuition congruence.
Qed.

(** The connectives. *)
Theorem C32_connectives F :
  (forall l, truth F (EAnd l) <-> forall x, In x l -> truth F x) /\
  (forall a b, truth F (EOr a b) <-> truth F a \/ truth F b) /\
  (forall a, truth F (ENot a) <-> ~ truth F a) /\
  truth F EAll.
Proof.
  split; [intros l; rewrite truth_and, Forall_forall; reflexivity|]. repeat split; intros; auto.
Qed.

Lemma not_file_at x : forall f, ~ FileArg (B "@" ++ x) f.
Proof. intros f H. inversion H. Qed.

(** "source X" is "host X or helo X or from @X". *)
Theorem C32_source F a : all_ascii a = true -> (forall f, ~ FileArg a f) ->
  truth F (ESource a) <->
  truth F (EOr (EMatch MHost a) (EOr (EMatch MHelo a) (EMatch MFrom (B "@" ++ a)))).
Proof.
  intros Ha Hn. set (U := f_uni F). cbn [truth]. unfold IsPattern. fold U.
  assert (HP : forall p, ((exists f, FileArg a f /\ In p (v_file (f_view F) f)) \/ ((forall f, ~ FileArg a f) /\ p = to_lower U a)) <-> p = to_lower U a).
  { intros p. split; [|auto]. intros [(f & Hf & _)|[_ H]]; auto. exfalso. eapply Hn; eauto. }
  assert (HP2 : forall p, ((exists f, FileArg (B "@" ++ a) f /\ In p (v_file (f_view F) f)) \/ ((forall f, ~ FileArg (B "@" ++ a) f) /\ p = to_lower U (B "@" ++ a))) <-> p = B "@" ++ to_lower U a).
  { intros p. assert (E : to_lower U (B "@" ++ a) = B "@" ++ to_lower U a).
    { unfold to_lower. change (all_ascii (B "@" ++ a)) with (all_ascii a). rewrite Ha. reflexivity. }
    rewrite E. pose proof (not_file_at a) as Hnf. split; [|auto]. intros [(f & Hf & _)|[_ H]]; auto. exfalso. eapply Hnf; eauto. }
  setoid_rewrite HP. setoid_rewrite HP2. split.
  - intros (p & -> & [(x & Hx & Hf)|[Hf|Hf]]).
    + left. exists (to_lower U a), x. auto.
    + right. left. exists (to_lower U a), (f_helo F). split; auto. split; auto. left. reflexivity.
    + right. right. exists (B "@" ++ to_lower U a), (f_from F). split; auto. split; auto. left. reflexivity.
  - intros [(p & x & -> & Hx & Hf)|[(p & x & -> & [<-|[]] & Hf)|(p & x & -> & [<-|[]] & Hf)]]; exists (to_lower U a); split; auto.
    left. eauto.
Qed.

(** and for a file, that for one of its entries *)
Theorem C32_source_file F a f : FileArg a f ->
  truth F (ESource a) <->
  exists p, In p (v_file (f_view F) f) /\
    ((exists x, In x (rd_verified (t_rdns (f_trans F))) /\ Fits F MHost x p) \/ Fits F MHelo (f_helo F) p \/
     Fits F MFrom (f_from F) (B "@" ++ p)).
Proof.
  intros Hf. cbn [truth]. unfold IsPattern. split.
  - intros (p & [(g & Hg & Hp)|[Hn _]] & H); [|exfalso; eapply Hn; eauto]. rewrite (FileArg_inj _ _ _ Hf Hg). eauto.
  - intros (p & Hp & H). exists p. split; auto. left. eauto.
Qed.

Example C32_example :
  let e := EAnd [EOr (EDnsbl (B "bl.example")) (EMatch MFrom (B "/l")); ENot (EMatch MHost (B ".evil.org"))] in
  let c := set_from (B "x@evil.org") (newContext []) in
  connection demo_world [] c /\
  (exists c', eval demo_world demo_trans e c = Ok (true, c') /\ c_trace c' = [XBl (B "4.3.2.1.bl.example")]) /\
  fair_order demo_world /\
  (exists fv, Saw demo_world [] [XBl (B "4.3.2.1.bl.example")] fv /\ v_listed fv (B "4.3.2.1.bl.example")) /\
  (forall f, ~ FileArg (B "evil.org") f).
Proof.
  assert (HE : exists c', eval demo_world demo_trans
    (EAnd [EOr (EDnsbl (B "bl.example")) (EMatch MFrom (B "/l")); ENot (EMatch MHost (B ".evil.org"))])
    (set_from (B "x@evil.org") (newContext [])) = Ok (true, c') /\ c_trace c' = [XBl (B "4.3.2.1.bl.example")]).
  { eexists. split; [vm_compute; reflexivity|reflexivity]. }
  assert (HC : connection demo_world [] (set_from (B "x@evil.org") (newContext []))).
  { apply dsteps_field. constructor; auto. }
  split; [exact HC|split; [exact HE|split; [apply demo_static|split]]].
  - destruct HE as (c' & E & <-). eexists. split; [eapply (static_Saw demo_world demo_static [] c'), connection_eval; eauto|].
    cbn [static_view v_listed]. eexists. split; [vm_compute; reflexivity|discriminate].
  - intros f H. inversion H.
Qed.

(** ** C26 *)

(** A rule can match only if all pattern files consulted, by the clause used
    and by the clauses before it, have entries. *)
Theorem C26_match_needs_files W tr0 fv T r c c' :
  fair_order W -> connection W tr0 c -> check W T r c = Ok (true, c') -> Saw W tr0 (c_trace c') fv ->
  exists pre rc post, r_clauses r = pre ++ rc :: post /\
    forall x f, In x (pre ++ [rc]) -> Consults (facts_of W fv T c) (rc_expr x) f -> v_file fv f <> [].
Proof.
  intros HW Hc E Hf.
  destruct (check_sound W HW tr0 fv T r c true c' E (connection_started _ _ _ Hc)
    (connection_sees _ _ _ _ (connection_check _ _ _ _ _ _ _ Hc E) Hf)) as (_ & _ & H & _).
  destruct (H eq_refl) as (rc & (pre & post & El & Hp & H1 & H2) & _). exists pre, rc, post. split; auto.
  intros x f Hx HC Hfv. apply in_app_or in Hx as [Hx|[<-|[]]].
  - rewrite Forall_forall in Hp. destruct (Hp x Hx) as [_ Hm]. apply Hm. exists f. auto.
  - apply H2. exists f. auto.
Qed.

(** If a clause is reached and consults a file without entries, the rule does
    not match: whatever the rest of the clause, and whatever further clauses. *)
Theorem C26_missing_file_no_match W tr0 fv T r c b c' pre rc post f :
  fair_order W -> connection W tr0 c -> check W T r c = Ok (b, c') -> Saw W tr0 (c_trace c') fv ->
  r_clauses r = pre ++ rc :: post -> Forall (fun x => ~ truth (facts_of W fv T c) (rc_expr x)) pre ->
  Consults (facts_of W fv T c) (rc_expr rc) f -> v_file fv f = [] -> b = false.
Proof.
  intros HW Hc E Hf El Hp HC Hfv. destruct b; auto. exfalso.
  destruct (check_sound W HW tr0 fv T r c true c' E (connection_started _ _ _ Hc)
    (connection_sees _ _ _ _ (connection_check _ _ _ _ _ _ _ Hc E) Hf)) as (_ & _ & H & _).
  destruct (H eq_refl) as (rc' & (pre' & post' & El' & Hp' & H1 & H2) & _). clear H. rewrite El in El'.
  revert pre' El' Hp'. induction pre as [|y pre IH]; intros [|y' pre'] El' Hp'; injection El' as -> El'.
  - apply H2. exists f. auto.
  - inversion Hp' as [|? ? [_ Hm] _]; subst. apply Hm. exists f. auto.
  - inversion Hp; subst. contradiction.
  - clear El. inversion Hp; inversion Hp'; subst. clear IH.
    assert (K : forall pre pre', Forall (fun x => ~ truth (facts_of W fv T c) (rc_expr x)) pre ->
      Forall (passed (facts_of W fv T c)) pre' -> pre ++ rc :: post = pre' ++ rc' :: post' -> False).
    { clear -HC Hfv H1 H2. induction pre as [|y pre IH]; intros [|y' pre'] Hp Hp' E; injection E as -> E.
      - apply H2. exists f. auto.
      - inversion Hp' as [|? ? [_ Hm] _]; subst. apply Hm. exists f. auto.
      - inversion Hp; subst. contradiction.
      - inversion Hp; inversion Hp'; subst. eapply IH; eauto. }
    eapply K; eauto.
Qed.

(** A file that is not consulted (the evaluation stops before) has no
    influence: with any other contents of the files that were not read, the
    evaluation is the same. *)
Definition with_filesys (W : world) (g : nat -> bytes -> file_res) : world :=
  {| w_uni := w_uni W; w_file := g; w_ip := w_ip W; w_mx := w_mx W; w_addr := w_addr W;
     w_order := w_order W; w_ipstr := w_ipstr W |}.
Definition same_reads (W : world) (g : nat -> bytes -> file_res) (tr : list call) : Prop :=
  forall f i, AskedAt [] tr (XFile f) i -> g i f = w_file W i f.

Definition local {A} (W : world) (m : world -> M A) : Prop :=
  forall c a c', m W c = Ok (a, c') ->
    (exists new, c_trace c' = new ++ c_trace c) /\
    (forall g, same_reads W g (c_trace c') -> m (with_filesys W g) c = Ok (a, c')).

Lemma same_reads_suffix W g new tr : same_reads W g (new ++ tr) -> same_reads W g tr.
Proof. intros H f i (n & o & -> & H1 & H2). apply H. exists (new ++ n), o. rewrite <- app_assoc. auto. Qed.

Lemma local_bind {A B} W (m : world -> M A) (f : world -> A -> M B) :
  local W m -> (forall a, local W (fun W => f W a)) -> local W (fun W => mbind (m W) (f W)).
Proof.
  intros Hm Hf c b c'. unfold mbind. destruct (m W c) as [[a c1]| |] eqn:E; try discriminate. intros E2.
  destruct (Hm c a c1 E) as [(n1 & N1) G1]. destruct (Hf a c1 b c' E2) as [(n2 & N2) G2]. split.
  - exists (n2 ++ n1). rewrite N2, N1. apply app_assoc.
  - intros g Hg. rewrite G1; [auto|]. rewrite N2 in Hg. eapply same_reads_suffix; eauto.
Qed.
Lemma local_const {A} W (m : M A) : (forall c a c', m c = Ok (a, c') -> c_trace c' = c_trace c) -> local W (fun _ => m).
Proof. intros H c a c' E. split; [exists []; eapply H; eauto|auto]. Qed.
Lemma local_ret {A} W (a : A) : local W (fun _ => ret a).
Proof. apply local_const. intros c x c' [= <- <-]. reflexivity. Qed.
Lemma local_get {A} W (f : ctx -> A) : local W (fun _ => get f).
Proof. apply local_const. intros c x c' [= <- <-]. reflexivity. Qed.
Lemma local_upd W f : (forall c, c_trace (f c) = c_trace c) -> local W (fun _ => upd f).
Proof. intros H. apply local_const. intros c x c' [= <- <-]. auto. Qed.
Lemma local_lift {A} W (o : outcome A) : local W (fun _ => lift o).
Proof. apply local_const. intros c x c'. unfold lift. destruct o; try discriminate. intros [= <- <-]. reflexivity. Qed.

Lemma local_dnsbl W hn : local W (fun W => getDnsblRes W hn).
Proof.
  intros c a c' E. split; [|intros g _; exact E]. unfold getDnsblRes, mbind, get, ext, lookup_bl, ask in E.
  destruct (mget (c_dnsbl c) hn); [injection E as <- <-; exists []; reflexivity|].
  destruct (w_ip W (length (c_trace c)) hn); injection E as <- <-; exists [XBl hn]; reflexivity.
Qed.
Lemma local_hit W d : local W (fun _ => addDnsblHit d).
Proof. apply local_upd. intros c. destruct (bmem _ _); reflexivity. Qed.
Lemma checkIP_files W g d t : checkIP (with_filesys W g) d t = checkIP W d t.
Proof.
  assert (H : forall l, checkAddrs (with_filesys W g) d l = checkAddrs W d l).
  { induction l as [|i l IH]; cbn [checkAddrs]; auto. rewrite IH. reflexivity. }
  unfold checkIP, lookup_ip, ask, xbind, xret. cbn [with_filesys w_ip]. destruct (w_ip W (length t) d) as [[|i l]|e]; auto. now rewrite H.
Qed.
Lemma checkMXs_files W g d l : forall v e t, checkMXs (with_filesys W g) d l v e t = checkMXs W d l v e t.
Proof.
  induction l as [|m l IH]; intros v e t; cbn [checkMXs]; auto. destruct (_ && _); auto. destruct (_ || _); auto.
  unfold xbind. rewrite checkIP_files. destruct (checkIP W (mx_host m) t) as [x t']. destruct (dgtb _ _); apply IH.
Qed.
Lemma ValidDomain_files W g d t : ValidDomain (with_filesys W g) d t = ValidDomain W d t.
Proof.
  unfold ValidDomain, lookup_mx, ask, xbind. cbn [with_filesys w_mx]. destruct (w_mx W (length t) (d ++ B ".")) as [l|e]; [apply checkMXs_files|].
  destruct (isTemporary e); auto. apply checkIP_files.
Qed.
Lemma local_domain W d : local W (fun W => validDomain W d).
Proof.
  intros c a c' E. split; [|intros g _; rewrite <- E; unfold validDomain, mbind, get, ext; destruct (mget (c_domvalid c) d); [reflexivity|now rewrite ValidDomain_files]].
  unfold validDomain, mbind, get, ext in E.
  destruct (mget (c_domvalid c) d); [injection E as <- <-; exists []; reflexivity|].
  destruct (ValidDomain_trace W d (c_trace c)) as (r & new & Ev & Hn). rewrite Ev in E. injection E as <- <-. exists (new ++ [XMx (d ++ B ".")]). rewrite <- app_assoc. reflexivity.
Qed.
Lemma local_matchlist W a : local W (fun W => getMatchList W a).
Proof.
  intros c x c'. unfold getMatchList. destruct a as [|c0 a]; [discriminate|].
  destruct (if _ || _ then _ else _) as [f|]; [|intros [= <- <-]; split; [exists []; reflexivity|auto]].
  unfold mbind, get, ext. destruct (mget (c_files c) f) as [l|] eqn:E; [intros [= <- <-]; split; [exists []; reflexivity|auto]|].
  unfold loadList. destruct f as [|f0 f]; [intros [= <- <-]; split; [exists []; reflexivity|auto]|].
  unfold read_file, ask, xbind, xret, upd, ret. cbn [w_file with_filesys w_uni]. intros H. apply ok_inj in H.
  assert (E1 : fst (x, c') = x) by reflexivity. rewrite <- H in E1. cbn [fst] in E1.
  assert (E2 : snd (x, c') = c') by reflexivity. rewrite <- H in E2. cbn [snd] in E2. clear H. split.
  - exists [XFile (f0 :: f)]. rewrite <- E2. reflexivity.
  - intros g Hg. rewrite (Hg (f0 :: f) (length (c_trace c))); [rewrite <- E1, <- E2; reflexivity|].
    rewrite <- E2. exists [], (c_trace c). cbn. split; auto. split; auto. lia.
Qed.
Lemma local_addropts W a : local W (fun W => getAddrOpts W a).
Proof.
  unfold getAddrOpts. destruct a as [|c0 a]; [apply local_ret|]. destruct (addrText (c0 :: a)) as [o idx].
  destruct (N.eqb _ _); [|apply local_ret]. apply local_bind; [apply local_domain|]. intros [[] v]; cbn [fst snd]; try apply local_ret;
    (apply (local_bind W (fun _ => upd _) (fun _ _ => ret _)); [apply local_upd; reflexivity|intros; apply local_ret]).
Qed.
Lemma local_matchEval W a (m : world -> bytes -> bytes -> outcome bool) g0 : (forall g, m (with_filesys W g) = m W) -> local W (fun W => matchEval W a (m W) g0).
Proof.
  intros Hm. unfold matchEval.
  apply (local_bind W (fun W => getMatchList W a) (fun W plist => match plist with [] => mbind (upd (set_rulemiss true)) (fun _ => ret false) | _ => mbind (get g0) (fun es => lift (any_pat (m W) es plist)) end)); [apply local_matchlist|]. intros [|p l].
  - apply (local_bind W (fun _ => upd _) (fun _ _ => ret _)); [apply local_upd; reflexivity|intros; apply local_ret].
  - apply (local_bind W (fun _ => get _) (fun W es => lift (any_pat (m W) es (p :: l)))); [apply local_get|]. intros es c x c' E. split.
    + unfold lift in E. destruct (any_pat (m W) es (p :: l)); try discriminate. injection E as <- <-. exists []. reflexivity.
    + intros g _. rewrite Hm. exact E.
Qed.
Lemma local_evalDnsbl W T d : local W (fun W => evalDnsbl W T d).
Proof.
  unfold evalDnsbl. destruct (t_rip T) as [|r0 r]; [apply local_ret|].
  destruct (split_byte _ _) as [|s0 [|s1 [|s2 [|s3 [|]]]]]; try apply local_ret.
  apply local_bind; [apply local_dnsbl|]. intros []; [|apply local_ret].
  apply (local_bind W (fun _ => addDnsblHit d) (fun _ _ => ret true)); [apply local_hit|intros; apply local_ret].
Qed.
Lemma local_dbl_loop W d l : forall r, local W (fun W => dbl_loop W d l r).
Proof.
  induction l as [|s l IH]; intros r; cbn [dbl_loop]; [apply local_ret|].
  apply (local_bind W (fun W => getDnsblRes W (s ++ B "." ++ d)) (fun W res => if res then mbind (addDnsblHit d) (fun _ => dbl_loop W d l true) else dbl_loop W d l r));
    [apply local_dnsbl|]. intros []; [|apply IH].
  apply (local_bind W (fun _ => addDnsblHit d) (fun W _ => dbl_loop W d l true)); [apply local_hit|intros; apply IH].
Qed.
Lemma local_eq {A} W (m m' : world -> M A) : (forall W c, m W c = m' W c) -> local W m -> local W m'.
Proof.
  intros He Hm c a c' E. rewrite <- He in E. destruct (Hm c a c' E) as [H1 H2]. split; auto. intros g Hg. rewrite <- He. auto.
Qed.
Lemma local_evalDbl W T s d : local W (fun W => evalDbl W T s d).
Proof.
  set (k1 := fun hn => if ohas s (N.lor oEhlo oHelo) && negb (beqb hn []) then add_key [] hn else []).
  set (k2 := fun hn => if ohas_all s oHost then
               lift (do a <- add_names (k1 hn) (rd_verified (t_rdns T));
                     do b <- add_names a (rd_nofwd (t_rdns T));
                     add_names b (rd_inconsist (t_rdns T)))
             else ret (k1 hn)).
  set (dm := fun from => match index_byte from ch_at with Some i => skipn (S i) from | None => from end).
  set (k3 := fun W k2 from => if ohas_all s oFrom && negb (beqb from []) then
               mbind (getAddrOpts W from) (fun aopt =>
               if ohas aopt (N.lor oDomainValid (N.lor oDomainInvalid oDomainTempfail)) then ret (add_key k2 (dm from)) else ret k2)
             else ret k2).
  set (fin := fun W k3 => match k3 with [] => ret false | _ => mbind (get (fun c => length (c_trace c))) (fun tick => dbl_loop W d (w_order W tick k3) false) end).
  apply (local_eq W (fun W => mbind (get c_heloname) (fun hn => mbind (k2 hn) (fun x => mbind (get c_from) (fun from => mbind (k3 W x from) (fin W)))))); [reflexivity|].
  apply (local_bind W (fun _ => get c_heloname) (fun W hn => mbind (k2 hn) (fun x => mbind (get c_from) (fun from => mbind (k3 W x from) (fin W))))); [apply local_get|]. intros hn.
  apply (local_bind W (fun _ => k2 hn) (fun W x => mbind (get c_from) (fun from => mbind (k3 W x from) (fin W)))).
  { unfold k2. destruct (ohas_all s oHost); [apply local_lift|apply local_ret]. }
  intros x. apply (local_bind W (fun _ => get c_from) (fun W from => mbind (k3 W x from) (fin W))); [apply local_get|]. intros from.
  apply (local_bind W (fun W => k3 W x from) fin).
  { unfold k3. destruct (ohas_all s oFrom && negb (beqb from [])); [|apply local_ret].
    apply (local_bind W (fun W => getAddrOpts W from) (fun _ aopt => if ohas aopt (N.lor oDomainValid (N.lor oDomainInvalid oDomainTempfail)) then ret (add_key x (dm from)) else ret x));
      [apply local_addropts|]. intros o. destruct (ohas o (N.lor oDomainValid (N.lor oDomainInvalid oDomainTempfail))); apply local_ret. }
  unfold fin. intros [|y l]; [apply local_ret|].
  apply (local_bind W (fun _ => get (fun c => length (c_trace c))) (fun W tick => dbl_loop W d (w_order W tick (y :: l)) false)); [apply local_get|].
  intros tick. intros c b c' E. destruct (local_dbl_loop W d (w_order W tick (y :: l)) false c b c' E) as [H1 H2]. split; auto.
Qed.
Lemma local_evalOpt W T k o : local W (fun W => evalOpt W T k o).
Proof.
  set (m := fun W => match k with
            | ODns => ret (dnsGetter T)
            | OHelo => mbind (get c_helocmd) (fun cmd => mbind (get c_heloname) (fun hn => ret (heloGetter T cmd hn)))
            | OFromHas => mbind (get c_from) (fun a => getAddrOpts W a)
            | OToHas => mbind (get c_rcptto) (fun a => getAddrOpts W a)
            end).
  apply (local_bind W m (fun _ x => ret (N.ltb 0 (N.land o x)))); [|intros; apply local_ret].
  unfold m. destruct k; [apply local_ret| | |].
  - apply local_const. intros c x c' E. injection E as <- <-. reflexivity.
  - apply (local_bind W (fun _ => get c_from) (fun W a => getAddrOpts W a)); [apply local_get|]. intros; apply local_addropts.
  - apply (local_bind W (fun _ => get c_rcptto) (fun W a => getAddrOpts W a)); [apply local_get|]. intros; apply local_addropts.
Qed.
Lemma local_eval W T e : local W (fun W => eval W T e).
Proof.
  induction e as [l IH|e IH|a b IHa IHb| | | |k a|a| |] using expr_ind'.
  - induction IH as [|x l Hx _ IH]; [apply local_ret|].
    apply (local_bind W (fun W => eval W T x) (fun W r => if r then eval W T (EAnd l) else ret false)); [exact Hx|].
    intros []; [exact IH|apply local_ret].
  - cbn [eval]. apply (local_bind W (fun W => eval W T e) (fun _ r => ret (negb r))); [exact IH|]. intros; apply local_ret.
  - cbn [eval]. apply (local_bind W (fun W => eval W T a) (fun W r => if r then ret true else eval W T b)); [exact IHa|].
    intros []; [apply local_ret|exact IHb].
  - apply local_ret.
  - apply local_ret.
  - apply local_evalDnsbl.
  - cbn [eval]. unfold evalMatch. apply (local_matchEval W a (fun W => kindMatcher W k)). intros g. destruct k; reflexivity.
  - cbn [eval]. unfold evalMatch.
    apply (local_bind W (fun W => matchEval W a (kindMatcher W MHost) (kindGetter T MHost))
       (fun W r => if r then ret true else mbind (matchEval W a (kindMatcher W MHelo) (kindGetter T MHelo)) (fun r => if r then ret true else matchEval W a (matchFromHost (w_uni W)) (fun c => [c_from c])))).
    { apply (local_matchEval W a (fun W => kindMatcher W MHost)). reflexivity. }
    intros []; [apply local_ret|].
    apply (local_bind W (fun W => matchEval W a (kindMatcher W MHelo) (kindGetter T MHelo)) (fun W r => if r then ret true else matchEval W a (matchFromHost (w_uni W)) (fun c => [c_from c]))).
    { apply (local_matchEval W a (fun W => kindMatcher W MHelo)). reflexivity. }
    intros []; [apply local_ret|]. apply (local_matchEval W a (fun W => matchFromHost (w_uni W))). reflexivity.
  - apply local_evalDbl.
  - apply local_evalOpt.
Qed.

Theorem C26_unread_files_irrelevant W T e c b c' g :
  eval W T e c = Ok (b, c') -> (forall f i, AskedAt [] (c_trace c') (XFile f) i -> g i f = w_file W i f) ->
  eval (with_filesys W g) T e c = Ok (b, c').
Proof. intros E H. apply (local_eval W T e c b c' E). exact H. Qed.

(** and the files read are the consulted ones that were not read before *)
Theorem C26_files_read W tr0 fv T e c b c' f :
  fair_order W -> connection W tr0 c -> eval W T e c = Ok (b, c') -> Saw W tr0 (c_trace c') fv ->
  f <> [] -> (exists i, AskedAt tr0 (c_trace c') (XFile f) i) <->
             (exists i, AskedAt tr0 (c_trace c) (XFile f) i) \/ Consults (facts_of W fv T c) e f.
Proof.
  intros HW Hc E Hf Hne.
  assert (Hc' : connection W tr0 c') by (eapply connection_eval; eauto).
  assert (K : forall c, connection W tr0 c -> (exists i, AskedAt tr0 (c_trace c) (XFile f) i) <-> mget (c_files c) f <> None).
  { intros x Hx. apply connection_traced in Hx. split.
    - intros (i & Hi). eapply tr_read; eauto.
    - destruct (mget (c_files x) f) as [l|] eqn:El; [intros _|congruence].
      destruct (tr_cached _ _ _ Hx f l El) as [[-> _]|(i & Hi & _)]; [congruence|eauto]. }
  rewrite (K c Hc), (K c' Hc'). apply (eval_sound W HW tr0 fv T e c b c' E).
  - eapply connection_started; eauto.
  - eapply connection_sees; eauto.
Qed.

(** "not from /empty" does not match though "from /empty" is false; in
    "all or from /empty" the file is not reached *)
Example C26_example :
  let run e := match check demo_world demo_trans (mkRule [mkClause e []] aReject pMfrom pAny) (newContext []) with
               | Ok (b, c') => Some (b, c_trace c') | _ => None end in
  run (ENot (EMatch MFrom (B "/empty"))) = Some (false, [XFile (B "/empty")]) /\
  run (EOr EAll (EMatch MFrom (B "/empty"))) = Some (true, []).
Proof. vm_compute. auto. Qed.

(** ** C27 *)

Theorem C27_each_file_read_once W tr0 rules h c f i j :
  session W rules tr0 h c -> AskedAt tr0 (c_trace c) (XFile f) i -> AskedAt tr0 (c_trace c) (XFile f) j -> i = j.
Proof. intros Hs. apply (tr_once _ _ _ (session_traced _ _ _ _ _ Hs)). Qed.

(** All decisions of a connection are those for one and the same state of the
    files and the DNS: for each file what the (only) read of it gave, for each
    mail domain what the (only) lookup of it gave, and for each blocklist name
    what its successful lookup gave. *)
Theorem C27_one_value_per_connection W rules tr0 h c :
  fair_order W -> Forall from_file rules -> session W rules tr0 h c -> no_late_listing W tr0 (c_trace c) ->
  exists v, Saw W tr0 (c_trace c) v /\
    forall later d earlier, h = later ++ d :: earlier ->
      exists ws, Outcome W v rules d earlier (d_result d) ws /\
                 (forall k x, mget (d_withs d) k = Some x <-> Setting ws k x).
Proof.
  intros HW HR Hs HL. exists (seen W tr0 c).
  assert (HS : Saw W tr0 (c_trace c) (seen W tr0 c)) by (apply traced_Saw; auto; eapply session_traced; eauto).
  split; auto. intros later d earlier E. eapply session_sound; eauto.
Qed.

Definition text_rules (t : bytes) : list rule :=
  match parse 0 {| rf_read := fun _ _ => inr [] |} t with PRules rs => rs | _ => [] end.
Lemma text_rules_from t : Forall from_file (text_rules t).
Proof.
  unfold text_rules. destruct (parse _ _ _) as [rs| |] eqn:E; try constructor. apply Forall_forall. intros r Hr.
  unfold from_file. eauto 6.
Qed.

Definition demo_rules : list rule := text_rules (B "reject from /l
stall dnsbl bl.example to bob@ with message ""later""
").
(** two transactions; the second decision does not read the file again *)
Example C27_example :
  exists c, session demo_world demo_rules []
    [mkDecision demo_trans pMfrom (mkEvt None (B "z@ok.org")) aNoresult [] [] None;
     mkDecision demo_trans pMfrom (mkEvt None (B "x@evil.org")) aReject [] [] None] c /\
    c_trace c = [XFile (B "/l")] /\ Forall from_file demo_rules /\ fair_order demo_world /\ no_late_listing demo_world [] (c_trace c) /\
    AskedAt [] (c_trace c) (XFile (B "/l")) 0 /\ length demo_rules = 2.
Proof.
  eexists. split; [|split; [|split; [apply text_rules_from|split; [apply demo_static|split; [|split]]]]].
  - apply (run_session_start demo_world demo_rules [] [(demo_trans, pMfrom, mkEvt None (B "x@evil.org")); (demo_trans, pMfrom, mkEvt None (B "z@ok.org"))]).
    vm_compute. reflexivity.
  - reflexivity.
  - intros n i j ips (new & old & E & _). cbn [c_trace] in E. destruct new as [|x [|y new]]; discriminate.
  - exists [], []. auto.
  - reflexivity.
Qed.

(** Why the hypothesis is needed: a lookup that fails is tried again, so with
    a DNS that recovers, "not dnsbl D dnsbl D" can be true. *)
Definition recovering_world : world :=
  {| w_uni := plain_unicode; w_file := fun _ _ => FNoent;
     w_ip := fun i _ => match i with 0 => inr (mkDnsErr true true (B "timeout") (B "timeout")) | _ => inl [mk_v4 (127 * 2 ^ 24 + 2)] end;
     w_mx := fun _ _ => inl []; w_addr := fun _ _ => inl []; w_order := fun _ l => l; w_ipstr := fun _ => [] |}.
Theorem C27_recovering_dns_refuted :
  exists c', eval recovering_world demo_trans (EAnd [ENot (EDnsbl (B "bl")); EDnsbl (B "bl")]) (newContext []) = Ok (true, c') /\
    fair_order recovering_world /\ ~ no_late_listing recovering_world [] (c_trace c') /\
    (forall F, ~ truth F (EAnd [ENot (EDnsbl (B "bl")); EDnsbl (B "bl")])).
Proof.
  eexists. split; [vm_compute; reflexivity|]. split; [intros i l; reflexivity|]. split.
  - intros HL. specialize (HL (B "4.3.2.1.bl") 0 1 [mk_v4 (127 * 2 ^ 24 + 2)]).
    assert (H : [mk_v4 (127 * 2 ^ 24 + 2)] = []); [|discriminate]. apply HL.
    + exists [XBl (B "4.3.2.1.bl")], []. auto.
    + exists [], [XBl (B "4.3.2.1.bl")]. auto.
    + lia.
    + reflexivity.
  - intros F H. rewrite truth_and in H. inversion H as [|? ? H1 H2]; subst. inversion H2; subst. cbn [truth] in H1. contradiction.
Qed.

(** ** C28 *)

(** what the connection remembers of a blocklist name is what a lookup gave *)
Lemma connection_listed W tr0 c n : connection W tr0 c ->
  mget (c_dnsbl c) n = Some true <-> exists i ips, AskedAt tr0 (c_trace c) (XBl n) i /\ w_ip W i n = inl ips /\ ips <> [].
Proof.
  intros Hc. apply connection_traced in Hc. split.
  - intros E. destruct (tr_bltrue _ _ _ Hc n true E) as (i & ips & Hi & Ei & Hb). exists i, ips. split; auto. split; auto.
    destruct ips; [discriminate|]. discriminate.
  - intros (i & ips & Hi & Ei & Hne). destruct (mget (c_dnsbl c) n) as [b|] eqn:E.
    + destruct (tr_bltrue _ _ _ Hc n b E) as (j & ips' & Hj & Ej & ->).
      assert (Hij : i = j).
      { destruct (Nat.lt_trichotomy i j) as [H|[H|H]]; auto; exfalso.
        - destruct (tr_blonce _ _ _ Hc n i j Hi Hj H). congruence.
        - destruct (tr_blonce _ _ _ Hc n j i Hj Hi H). congruence. }
      subst j. rewrite Ei in Ej. injection Ej as <-. destruct ips; [contradiction|reflexivity].
    + exfalso. destruct (tr_bl _ _ _ Hc n i Hi E). congruence.
Qed.

(** "dnsbl D" is true exactly when the client's address is a dotted quad and
    a lookup, in this connection, of the reversed quad under D gave an
    address.  (In any world: the DNS may change at any time.) *)
Theorem C28_dnsbl W tr0 T d c b c' :
  connection W tr0 c -> eval W T (EDnsbl d) c = Ok (b, c') ->
  (b = true <-> exists s0 s1 s2 s3, t_rip T = s0 ++ B "." ++ s1 ++ B "." ++ s2 ++ B "." ++ s3 /\
     Forall (fun s => ~ In ch_dot s) [s0; s1; s2; s3] /\
     exists i ips, AskedAt tr0 (c_trace c') (XBl (s3 ++ B "." ++ s2 ++ B "." ++ s1 ++ B "." ++ s0 ++ B "." ++ d)) i /\
       w_ip W i (s3 ++ B "." ++ s2 ++ B "." ++ s1 ++ B "." ++ s0 ++ B "." ++ d) = inl ips /\ ips <> []) /\
  (b = true -> In d (c_dnsblhit c')).
Proof.
  intros Hc E. assert (Hc' : connection W tr0 c') by (eapply connection_eval; eauto).
  cbn [eval] in E. unfold evalDnsbl in E.
  assert (HNo : (forall s0 s1 s2 s3, split_byte (t_rip T) ch_dot <> [s0; s1; s2; s3]) -> forall s0 s1 s2 s3,
    t_rip T = s0 ++ B "." ++ s1 ++ B "." ++ s2 ++ B "." ++ s3 -> Forall (fun s => ~ In ch_dot s) [s0; s1; s2; s3] -> False).
  { intros HN s0 s1 s2 s3 H1 H2. eapply HN. apply split4. split; eauto. }
  destruct (t_rip T) as [|r0 r] eqn:Er.
  { injection E as <- <-. split; [|discriminate]. split; [discriminate|]. intros (s0 & s1 & s2 & s3 & H & _).
    apply (f_equal (@length ascii)) in H. rewrite !app_length in H. cbn in H. lia. }
  destruct (split_byte (r0 :: r) ch_dot) as [|s0 [|s1 [|s2 [|s3 [|]]]]] eqn:Es;
    try (injection E as <- <-; split; [|discriminate]; split; [discriminate|]; intros (x0 & x1 & x2 & x3 & H & Hx & _); exfalso;
         eapply HNo; [|exact H|exact Hx]; intros; discriminate).
  assert (HQ := proj1 (split4 _ _ _ _ _) Es). destruct HQ as [HQ1 HQ2].
  unfold mbind in E. destruct (getDnsblRes W _ c) as [[b1 c1]| |] eqn:Eg; try discriminate.
  assert (Hb : b = b1 /\ c_dnsbl c' = c_dnsbl c1 /\ (b = true -> In d (c_dnsblhit c'))).
  { destruct b1; unfold addDnsblHit, upd, ret in E; injection E as <- <-; [|split; [|split]; auto; discriminate]. split; auto.
    destruct (bmem d (c_dnsblhit c1)) eqn:Em; split; auto; intros _; [now apply bmem_In|]. cbn. apply in_or_app. right. left. reflexivity. }
  destruct Hb as (-> & Hd & Hh). split; [|exact Hh].
  assert (Hg : b1 = true <-> mget (c_dnsbl c1) (s3 ++ B "." ++ s2 ++ B "." ++ s1 ++ B "." ++ s0 ++ B "." ++ d) = Some true).
  { clear -Eg. unfold getDnsblRes, mbind, get, ext, lookup_bl, ask in Eg.
    set (n := s3 ++ B "." ++ s2 ++ B "." ++ s1 ++ B "." ++ s0 ++ B "." ++ d) in *. destruct (mget (c_dnsbl c) n) as [r|] eqn:Em.
    - injection Eg as <- <-. rewrite Em. split; congruence.
    - destruct (w_ip W (length (c_trace c)) n) as [ips|e]; injection Eg as <- <-.
      + cbn [set_dnsbl set_trace c_dnsbl]. rewrite mget_mset_same. destruct ips; split; congruence.
      + cbn [set_trace c_dnsbl]. rewrite Em. split; discriminate. }
  rewrite Hg, <- Hd, (connection_listed W tr0 c' _ Hc'). split.
  - intros H. exists s0, s1, s2, s3. auto.
  - intros (x0 & x1 & x2 & x3 & H1 & H2 & H). assert (HX := proj2 (split4 _ _ _ _ _) (conj H1 H2)). rewrite Es in HX.
    injection HX as <- <- <- <-. exact H.
Qed.

(** With a DNS that does not change that is: when the name has an address. *)
Corollary C28_dnsbl_static W tr0 T d c b c' :
  static_dns W -> connection W tr0 c -> eval W T (EDnsbl d) c = Ok (b, c') ->
  (b = true <-> exists s0 s1 s2 s3, t_rip T = s0 ++ B "." ++ s1 ++ B "." ++ s2 ++ B "." ++ s3 /\
     Forall (fun s => ~ In ch_dot s) [s0; s1; s2; s3] /\
     exists ips, w_ip W 0 (s3 ++ B "." ++ s2 ++ B "." ++ s1 ++ B "." ++ s0 ++ B "." ++ d) = inl ips /\ ips <> []).
Proof.
  intros HW Hc E.
  assert (Hc' : connection W tr0 c') by (eapply connection_eval; eauto).
  apply (eval_sound W (proj2 (proj2 HW)) tr0 (static_view W (v_file (seen W tr0 c'))) T (EDnsbl d) c b c' E (connection_started _ _ _ Hc)).
  eapply connection_sees; eauto. apply static_Saw; auto.
Qed.

(** so it is false for clients whose address has no dots (IPv6) or is unknown *)
Corollary C28_no_dots W tr0 T d c b c' :
  connection W tr0 c -> eval W T (EDnsbl d) c = Ok (b, c') -> ~ In ch_dot (t_rip T) -> b = false.
Proof.
  intros Hc E Hn. destruct b; auto. exfalso. destruct (proj1 (proj1 (C28_dnsbl W tr0 T d c true c' Hc E)) eq_refl)
    as (s0 & s1 & s2 & s3 & Er & _). apply Hn. rewrite Er. apply in_or_app. right. left. reflexivity.
Qed.

(** A lookup is repeated only if it failed. *)
Theorem C28_successful_lookup_once W rules tr0 h c n i j :
  session W rules tr0 h c -> AskedAt tr0 (c_trace c) (XBl n) i -> AskedAt tr0 (c_trace c) (XBl n) j -> i < j ->
  exists e, w_ip W i n = inr e.
Proof. intros Hs. apply (tr_blonce _ _ _ (session_traced _ _ _ _ _ Hs)). Qed.

Theorem C28_hits_no_duplicates W rules tr0 h c : session W rules tr0 h c -> forall d, In d h -> NoDup (d_hits d).
Proof.
  intros Hs. assert (K : hits_ok c /\ forall d, In d h -> NoDup (d_hits d)); [|apply K].
  induction Hs as [|h c T ph e a c' Hs [IH1 IH2] E]; [split; [split; split; try constructor; intros d []|intros d []]|].
  assert (H : hits_ok c'). { eapply dsteps_hits; [|exact IH1]. eapply druns_Decide; eauto. }
  split; auto. intros d [<-|Hd]; auto. apply H.
Qed.

(** A list is only reported when a lookup in it gave an address. *)
Theorem C28_hits_listed W rules tr0 h c : session W rules tr0 h c -> forall d l, In d h -> In l (d_hits d) ->
  exists p i ips, AskedAt tr0 (c_trace c) (XBl (p ++ B "." ++ l)) i /\ w_ip W i (p ++ B "." ++ l) = inl ips /\ ips <> [].
Proof.
  intros Hs d l Hd Hl.
  assert (K : hits_ok c /\ forall d, In d h -> listed_in (c_dnsbl c) (d_hits d)).
  { clear d l Hd Hl. induction Hs as [|h c T ph e a c' Hs [IH1 IH2] E]; [split; [split; split; try constructor; intros d []|intros d []]|].
    assert (DS : dsteps W c c') by (eapply druns_Decide; eauto).
    assert (H : hits_ok c') by (eapply dsteps_hits; eauto).
    split; auto. intros d [<-|Hd]; [apply H|]. eapply listed_in_mono; [|apply IH2; exact Hd]. intros n b. apply (dsteps_dnsbl W c c' n b DS). }
  destruct K as [_ K]. destruct (K d Hd l Hl) as (p & Hp).
  destruct (tr_bltrue _ _ _ (session_traced _ _ _ _ _ Hs) _ _ Hp) as (i & ips & Hi & Ei & Hb).
  exists p, i, ips. split; auto. split; auto. destruct ips; discriminate.
Qed.

Example C28_example :
  (exists c, eval demo_world demo_trans (EDnsbl (B "bl.example")) (newContext []) = Ok (true, c) /\ c_dnsblhit c = [B "bl.example"] /\
     (exists c', eval demo_world demo_trans (EDnsbl (B "bl.example")) c = Ok (true, c') /\
        c_trace c' = [XBl (B "4.3.2.1.bl.example")] /\ c_dnsblhit c' = [B "bl.example"])) /\
  (exists c, eval demo_world demo_trans (EDnsbl (B "bl2.example")) (newContext []) = Ok (false, c)) /\
  (exists c, eval demo_world (mkTrans (B "::1") [] false no_rdns []) (EDnsbl (B "bl.example")) (newContext []) = Ok (false, c)).
Proof.
  split; [|split].
  - eexists. split; [vm_compute; reflexivity|]. split; [reflexivity|]. eexists. split; [vm_compute; reflexivity|]. auto.
  - eexists. vm_compute. reflexivity.
  - eexists. vm_compute. reflexivity.
Qed.

(** ** C29 *)

(** "dbl SRC D": some selected name under D has an address.  The names: the
    HELO name, the names of the client without their last dot, and the domain
    of a well formed sender. *)
Theorem C29_dbl W tr0 v T src d c b c' :
  fair_order W -> connection W tr0 c -> eval W T (EDbl src d) c = Ok (b, c') -> Saw W tr0 (c_trace c') v ->
  (b = true <-> exists n,
     ((ohas src (N.lor oEhlo oHelo) = true /\ n = c_heloname c /\ n <> []) \/
      (ohas_all src oHost = true /\ exists x, In (n ++ [x]) (rd_verified (t_rdns T) ++ rd_nofwd (t_rdns T) ++ rd_inconsist (t_rdns T))) \/
      (ohas_all src oFrom = true /\ exists l, c_from c = l ++ B "@" ++ n /\ ~ In ch_at l /\ ~ flawed (c_from c) /\
         v_domain v n <> dnsUndef)) /\
     v_listed v (n ++ B "." ++ d)).
Proof.
  intros HW Hc E HS.
  assert (Hc' : connection W tr0 c') by (eapply connection_eval; eauto).
  rewrite (so_truth _ _ _ _ _ _ _ (eval_sound W HW tr0 v T (EDbl src d) c b c' E (connection_started _ _ _ Hc) (connection_sees _ _ _ _ Hc' HS))).
  cbn [truth]. split.
  - intros (n & Hn & HR). exists n. split; [|exact HR]. destruct Hn as [A1 A2|n z A1 A2|l d' A1 A2 A3 A4 A5].
    + left. auto.
    + right. left. eauto.
    + right. right. split; auto. exists l. auto.
  - intros (n & Hn & HR). exists n. split; [|exact HR]. destruct Hn as [(A1 & -> & A2)|[(A1 & x & A2)|(A1 & l & A2 & A3 & A4 & A5)]].
    + apply (DN_helo (facts_of W v T c) src A1 A2).
    + exact (DN_host (facts_of W v T c) src n x A1 A2).
    + exact (DN_from (facts_of W v T c) src l n A1 A2 A3 A4 A5).
Qed.

(** With a DNS that does not change: *)
Corollary C29_dbl_static W tr0 T src d c b c' :
  static_dns W -> connection W tr0 c -> eval W T (EDbl src d) c = Ok (b, c') ->
  (b = true <-> exists n,
     ((ohas src (N.lor oEhlo oHelo) = true /\ n = c_heloname c /\ n <> []) \/
      (ohas_all src oHost = true /\ exists x, In (n ++ [x]) (rd_verified (t_rdns T) ++ rd_nofwd (t_rdns T) ++ rd_inconsist (t_rdns T))) \/
      (ohas_all src oFrom = true /\ exists l, c_from c = l ++ B "@" ++ n /\ ~ In ch_at l /\ ~ flawed (c_from c) /\
         fst (fst (ValidDomain W n [])) <> dnsUndef)) /\
     exists ips, w_ip W 0 (n ++ B "." ++ d) = inl ips /\ ips <> []).
Proof.
  intros HW Hc E. apply (C29_dbl W tr0 (static_view W (v_file (seen W tr0 c'))) T src d c b c' (proj2 (proj2 HW)) Hc E).
  apply static_Saw; auto. eapply connection_eval; eauto.
Qed.

(** The order in which the names are gone through makes no difference. *)
Definition with_order (W : world) (o : nat -> list bytes -> list bytes) : world :=
  {| w_uni := w_uni W; w_file := w_file W; w_ip := w_ip W; w_mx := w_mx W; w_addr := w_addr W;
     w_order := o; w_ipstr := w_ipstr W |}.
Lemma ValidDomain_order W o d t : ValidDomain (with_order W o) d t = ValidDomain W d t.
Proof.
  assert (HA : forall d l, checkAddrs (with_order W o) d l = checkAddrs W d l).
  { induction l as [|i l IH]; cbn [checkAddrs]; auto. rewrite IH. reflexivity. }
  assert (HI : forall d t, checkIP (with_order W o) d t = checkIP W d t).
  { intros d0 t0. unfold checkIP, lookup_ip, ask, xbind, xret. cbn [with_order w_ip]. destruct (w_ip W (length t0) d0) as [[|i l]|e]; auto. now rewrite HA. }
  assert (HM : forall l v e t, checkMXs (with_order W o) d l v e t = checkMXs W d l v e t).
  { induction l as [|m l IH]; intros v e t0; cbn [checkMXs]; auto. destruct (_ && _); auto. destruct (_ || _); auto.
    unfold xbind. rewrite HI. destruct (checkIP W (mx_host m) t0) as [x t']. destruct (dgtb _ _); apply IH. }
  unfold ValidDomain, lookup_mx, ask, xbind. cbn [with_order w_mx]. destruct (w_mx W (length t) (d ++ B ".")) as [l|e]; [apply HM|].
  destruct (isTemporary e); auto.
Qed.

Theorem C29_order_irrelevant W o tr0 T src d c b c' tr0' c2 b2 c2' :
  static_dns W -> static_dns (with_order W o) ->
  connection W tr0 c -> connection (with_order W o) tr0' c2 -> c_heloname c = c_heloname c2 -> c_from c = c_from c2 ->
  eval W T (EDbl src d) c = Ok (b, c') -> eval (with_order W o) T (EDbl src d) c2 = Ok (b2, c2') -> b = b2.
Proof.
  intros HW HW2 Hc Hc2 E1 E2 E E'.
  pose proof (C29_dbl_static W tr0 T src d c b c' HW Hc E) as H1.
  pose proof (C29_dbl_static (with_order W o) tr0' T src d c2 b2 c2' HW2 Hc2 E') as H2.
  rewrite <- E1, <- E2 in H2. setoid_rewrite ValidDomain_order in H2. cbn [with_order w_ip] in H2. rewrite <- H2 in H1.
  destruct b, b2; auto; exfalso; intuition congruence.
Qed.

Example C29_example :
  let c := set_helo (Some EHLO) (B "nosuch") (newContext []) in
  exists c', eval demo_world demo_trans (EDbl (N.lor oEhlo oHost) (B "bl.example")) c = Ok (true, c') /\
    c_trace c' = [XBl (B "nosuch.bl.example"); XBl (B "a.good.org.bl.example"); XBl (B "evil.org.bl.example")].
Proof. eexists. split; vm_compute; reflexivity. Qed.

(** ** C36 *)

(** A rule that matches does so through its first true clause; only that
    clause's options are set. *)
Theorem C36_first_matching_clause W tr0 fv T r c c' :
  fair_order W -> connection W tr0 c -> check W T r c = Ok (true, c') -> Saw W tr0 (c_trace c') fv ->
  let F := facts_of W fv T c in
  exists pre rc post, r_clauses r = pre ++ rc :: post /\
    Forall (fun x => ~ truth F (rc_expr x)) pre /\ truth F (rc_expr rc) /\
    c_withprops c' = set_all (c_withprops c) (rc_withs rc).
Proof.
  intros HW Hc E Hf F.
  destruct (check_sound W HW tr0 fv T r c true c' E (connection_started _ _ _ Hc)
    (connection_sees _ _ _ _ (connection_check _ _ _ _ _ _ _ Hc E) Hf)) as (_ & _ & H & _).
  destruct (H eq_refl) as (rc & (pre & post & El & Hp & H1 & H2) & HP & _). exists pre, rc, post.
  split; auto. split; [|auto]. eapply Forall_impl; [|exact Hp]. intros x []. auto.
Qed.

(** A rule that does not match sets no option; and if no clause consults a
    file without entries then all clauses are false. *)
Theorem C36_no_match W tr0 fv T r c c' :
  fair_order W -> connection W tr0 c -> check W T r c = Ok (false, c') -> Saw W tr0 (c_trace c') fv ->
  let F := facts_of W fv T c in
  c_withprops c' = c_withprops c /\
  ((forall rc f, In rc (r_clauses r) -> Consults F (rc_expr rc) f -> v_file fv f <> []) ->
   forall rc, In rc (r_clauses r) -> ~ truth F (rc_expr rc)).
Proof.
  intros HW Hc E Hf F.
  destruct (check_sound W HW tr0 fv T r c false c' E (connection_started _ _ _ Hc)
    (connection_sees _ _ _ _ (connection_check _ _ _ _ _ _ _ Hc E) Hf)) as (_ & _ & _ & H).
  destruct (H eq_refl) as (H1 & H2 & _). split; auto. intros HN.
  assert (HM : forall rc, In rc (r_clauses r) -> ~ misses F (rc_expr rc)).
  { intros rc Hrc (f & Hcf & Hf'). eapply HN; eauto. }
  intros rc Hrc. apply in_split in Hrc as (pre & post & El). fold F in H1. clear -H1 El HM. rewrite El in *. clear El.
  assert (K : forall done pre, Forall (passed F) done -> (forall x, In x (done ++ pre ++ rc :: post) -> ~ misses F (rc_expr x)) ->
     (forall rc', ~ Fires F (done ++ pre ++ rc :: post) rc') -> ~ truth F (rc_expr rc)).
  { clear. intros done pre. revert done. induction pre as [|y pre IH]; intros done Hd HM HN Ht.
    - apply (HN rc). exists done, post. split; [reflexivity|]. split; auto. split; auto. apply HM. apply in_or_app. right. left. reflexivity.
    - assert (Hy : passed F y).
      { split; [|apply HM; apply in_or_app; right; left; reflexivity]. intros Hy.
        apply (HN y). exists done, (pre ++ rc :: post). split; [reflexivity|]. split; auto. split; auto. apply HM. apply in_or_app. right. left. reflexivity. }
      apply (IH (done ++ [y])); auto.
      + apply Forall_app. auto.
      + intros x Hx. apply HM. rewrite <- app_assoc in Hx. exact Hx.
      + rewrite <- app_assoc. exact HN. }
  apply (K [] pre); auto.
Qed.

Example C36_example :
  let r := mkRule [mkClause (EMatch MFrom (B "a@")) [(B "note", B "one")]; mkClause (EMatch MFrom (B "@b")) [(B "note", B "two")];
                   mkClause EAll [(B "note", B "three"); (B "savedir", B "d")]] aAccept pMfrom pAny in
  exists c', check demo_world demo_trans r (set_from (B "x@b") (newContext [])) = Ok (true, c') /\ c_withprops c' = [(B "note", B "two")].
Proof. eexists. split; vm_compute; reflexivity. Qed.

(** ** C68 *)

(** The mail servers of a domain are looked up once per connection. *)
Theorem C68_domain_asked_once W tr0 rules h c n i j :
  session W rules tr0 h c -> AskedAt tr0 (c_trace c) (XMx n) i -> AskedAt tr0 (c_trace c) (XMx n) j -> i = j.
Proof. intros Hs. apply (tr_domonce _ _ _ (session_traced _ _ _ _ _ Hs)). Qed.

Lemma getAddrOpts_again W a c o c' c2 : getAddrOpts W a c = Ok (o, c') -> dsteps W c' c2 ->
  exists c2', getAddrOpts W a c2 = Ok (o, c2') /\ c_trace c2' = c_trace c2.
Proof.
  unfold getAddrOpts. intros E Hd. destruct a as [|a0 a]; [injection E as <- <-; eexists; split; reflexivity|].
  destruct (addrText (a0 :: a)) as [o1 idx]. destruct (N.eqb _ _); [|injection E as <- <-; eexists; split; reflexivity].
  set (d := match idx with Some i => skipn (S i) (a0 :: a) | None => a0 :: a end) in *.
  unfold mbind in *. destruct (validDomain W d c) as [[r c1]| |] eqn:Ev; try discriminate.
  assert (H1 : mget (c_domvalid c1) d = Some r).
  { unfold validDomain, mbind, get, ext in Ev. destruct (mget (c_domvalid c) d) as [x|] eqn:Em.
    - injection Ev as <- <-. exact Em.
    - destruct (ValidDomain W d (c_trace c)) as [x t]. injection Ev as <- <-. cbn [set_domvalid c_domvalid]. apply mget_mset_same. }
  assert (H2 : mget (c_domvalid c') d = Some r) by (destruct r as [v e]; cbn [fst snd] in E; destruct v; injection E as <- <-; exact H1).
  assert (H3 : mget (c_domvalid c2) d = Some r).
  { clear -Hd H2. induction Hd as [c|c d0 e H _ IH]; auto. apply IH. destruct H as [c d0 H|c d0 H].
    - eapply steps_domvalid; [apply steps_one|]; eauto.
    - rewrite (sc_domvalid _ _ H). auto. }
  assert (H4 : validDomain W d c2 = Ok (r, c2)) by (unfold validDomain, mbind, get; rewrite H3; reflexivity).
  rewrite H4. destruct r as [v e]. cbn [fst snd] in *. destruct v; injection E as <- _; eexists; split; reflexivity.
Qed.

(** The answer to a question about the sender's address, once given, stays
    the same for the connection, whatever happens to the DNS meanwhile, and
    asking it again causes no lookup. *)
Theorem C68_sender_attributes_stay W T T2 o c b c' c2 :
  eval W T (EOpt OFromHas o) c = Ok (b, c') -> dsteps W c' c2 -> c_from c2 = c_from c ->
  exists c2', eval W T2 (EOpt OFromHas o) c2 = Ok (b, c2') /\ c_trace c2' = c_trace c2.
Proof.
  cbn [eval]. unfold evalOpt, mbind, get. intros E Hd Hf. rewrite Hf.
  destruct (getAddrOpts W (c_from c) c) as [[x c1]| |] eqn:Eg; try discriminate. injection E as <- <-.
  destruct (getAddrOpts_again _ _ _ _ _ _ Eg Hd) as (c2' & -> & Ht). exists c2'. auto.
Qed.
(** and so does that about the recipient's *)
Theorem C68_recipient_attributes_stay W T T2 o c b c' c2 :
  eval W T (EOpt OToHas o) c = Ok (b, c') -> dsteps W c' c2 -> c_rcptto c2 = c_rcptto c ->
  exists c2', eval W T2 (EOpt OToHas o) c2 = Ok (b, c2') /\ c_trace c2' = c_trace c2.
Proof.
  cbn [eval]. unfold evalOpt, mbind, get. intros E Hd Hf. rewrite Hf.
  destruct (getAddrOpts W (c_rcptto c) c) as [[x c1]| |] eqn:Eg; try discriminate. injection E as <- <-.
  destruct (getAddrOpts_again _ _ _ _ _ _ Eg Hd) as (c2' & -> & Ht). exists c2'. auto.
Qed.

(** the domain was found valid before its MX record went away *)
Definition vanishing_world : world :=
  {| w_uni := plain_unicode; w_file := fun _ _ => FNoent;
     w_ip := fun _ _ => inl [mk_v4 (8 * 2 ^ 24)];
     w_mx := fun i _ => match i with 0 => inl [mkMx (B "mail.good.org.") 10] | _ => inr (mkDnsErr true true (B "timeout") (B "timeout")) end;
     w_addr := fun _ _ => inl []; w_order := fun _ l => l; w_ipstr := fun _ => B "8.0.0.0" |}.
Example C68_example :
  let c := set_from (B "x@good.org") (newContext []) in
  (exists c', eval vanishing_world demo_trans (EOpt OFromHas oDomainValid) c = Ok (true, c') /\
     c_trace c' = [XIp (B "mail.good.org."); XMx (B "good.org.")] /\
     (exists c2, eval vanishing_world demo_trans (EOpt OFromHas oDomainValid) c' = Ok (true, c2) /\ c_trace c2 = c_trace c')) /\
  (exists c', eval vanishing_world demo_trans (EOpt OFromHas oDomainValid) (set_trace [XMx (B "x.")] c) = Ok (false, c')).
Proof.
  split.
  - eexists. split; [vm_compute; reflexivity|]. split; [reflexivity|]. eexists. split; vm_compute; reflexivity.
  - eexists. vm_compute. reflexivity.
Qed.
