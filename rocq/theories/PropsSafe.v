(** C39: deferred refusals do not leak; C40: when evaluation can crash. *)
From Coq Require Import Relations Permutation.
From Verif Require Import PropsParse.
From Verif Require Import Bytes Outcome Lexer Ast Parser Grammar GoNet World Dns Eval PropsMatch PropsAttr Sem EvalProofs DecideProofs Decisions PropsEval.

(** ** C39 *)

(** The context [c] with another deferred result. *)
Definition with_deferred (a : action) (hits : list bytes) (props : smap bytes) (c : ctx) : ctx :=
  set_def hits props (set_defresult a c).

(** A computation that neither looks at the deferred result nor changes it. *)
Definition blind_def {A} (m : M A) : Prop := forall a h p c,
  m (with_deferred a h p c) =
  match m c with Ok (x, c') => Ok (x, with_deferred a h p c') | Panic => Panic | NoFuel => NoFuel end.

Section Blind.
  Lemma bd_ret {A} (x : A) : blind_def (ret x).
  Proof. intros a h p c. reflexivity. Qed.
  Lemma bd_crash {A} : blind_def (@crash A).
  Proof. intros a h p c. reflexivity. Qed.
  Lemma bd_lift {A} (o : outcome A) : blind_def (lift o).
  Proof. intros a h p c. unfold lift. destruct o; reflexivity. Qed.
  Lemma bd_get {A} (f : ctx -> A) : (forall a h p c, f (with_deferred a h p c) = f c) -> blind_def (get f).
  Proof. intros H a h p c. unfold get. now rewrite H. Qed.
  Lemma bd_upd f : (forall a h p c, f (with_deferred a h p c) = with_deferred a h p (f c)) -> blind_def (upd f).
  Proof. intros H a h p c. unfold upd. now rewrite H. Qed.
  Lemma bd_ext {A} (x : X A) : blind_def (ext x).
  Proof. intros a h p c. unfold ext. change (c_trace (with_deferred a h p c)) with (c_trace c). destruct (x (c_trace c)). reflexivity. Qed.
  Lemma bd_bind {A B} (m : M A) (f : A -> M B) : blind_def m -> (forall x, blind_def (f x)) -> blind_def (mbind m f).
  Proof.
    intros Hm Hf a h p c. unfold mbind. rewrite Hm. destruct (m c) as [[x c1]| |]; auto. apply Hf.
  Qed.
  Lemma bd_if {A} (b : bool) (m n : M A) : blind_def m -> blind_def n -> blind_def (if b then m else n).
  Proof. destruct b; auto. Qed.
End Blind.

Ltac bd :=
  repeat match goal with
  | |- blind_def (ret _) => apply bd_ret
  | |- blind_def crash => apply bd_crash
  | |- blind_def (lift _) => apply bd_lift
  | |- blind_def (ext _) => apply bd_ext
  | |- blind_def (if _ then _ else _) => apply bd_if
  | |- blind_def (get _) => apply bd_get; reflexivity
  | |- blind_def (upd _) => apply bd_upd; reflexivity
  | |- blind_def (mbind _ _) => apply bd_bind; [|intros ?]
  end.

Lemma bd_dnsbl W n : blind_def (getDnsblRes W n).
Proof. unfold getDnsblRes. bd. destruct (mget _ _); bd. destruct x0; bd. Qed.
Lemma bd_hit d : blind_def (addDnsblHit d).
Proof. apply bd_upd. intros a h p c. change (c_dnsblhit (with_deferred a h p c)) with (c_dnsblhit c). destruct (bmem _ _); reflexivity. Qed.
Lemma bd_domain W d : blind_def (validDomain W d).
Proof. unfold validDomain. bd. destruct (mget _ _); bd. Qed.
Lemma bd_matchlist W a : blind_def (getMatchList W a).
Proof.
  unfold getMatchList. destruct a as [|c0 a]; bd. destruct (if _ || _ then _ else _); bd. destruct (mget _ _); bd.
Qed.
Lemma bd_addropts W a : blind_def (getAddrOpts W a).
Proof.
  unfold getAddrOpts. destruct a as [|c0 a]; bd. destruct (addrText (c0 :: a)). bd; [apply bd_domain|]. destruct (fst x); bd.
Qed.
Lemma bd_match W a m g : (forall x h p c, g (with_deferred x h p c) = g c) -> blind_def (matchEval W a m g).
Proof. intros Hg. unfold matchEval. apply bd_bind; [apply bd_matchlist|]. intros [|]; bd. apply bd_get. auto. Qed.
Lemma bd_evalMatch W T k a : blind_def (evalMatch W T k a).
Proof. apply bd_match. intros. destruct k; reflexivity. Qed.
Lemma bd_dbl_loop W d l : forall r, blind_def (dbl_loop W d l r).
Proof. induction l; intros r; cbn [dbl_loop]; bd; auto using bd_dnsbl, bd_hit. Qed.
Lemma bd_eval W T e : blind_def (eval W T e).
Proof.
  induction e as [l IH|e IH|a b IHa IHb| | | | | | |] using expr_ind'; cbn [eval]; bd; auto using bd_evalMatch.
  - induction IH as [|x l Hx _ IH]; bd; auto.
  - unfold evalDnsbl. destruct (t_rip T); bd. destruct (split_byte _ _) as [|s0 [|s1 [|s2 [|s3 [|]]]]]; bd; auto using bd_dnsbl, bd_hit.
  - apply bd_match. reflexivity.
  - unfold evalDbl. bd; auto using bd_addropts. destruct x2; bd. apply bd_dbl_loop.
  - unfold evalOpt. destruct k; bd; auto using bd_addropts.
Qed.
Lemma bd_clauses W T cs : blind_def (check_clauses W T cs).
Proof. induction cs; cbn [check_clauses]; bd; auto using bd_eval. Qed.
Lemma bd_check W T r : blind_def (check W T r).
Proof. unfold check. bd. apply bd_clauses. Qed.
Lemma bd_each W T r l : blind_def (ruleForEachRcpt W T r l).
Proof. induction l; cbn [ruleForEachRcpt]; bd; auto using bd_check. Qed.
Lemma bd_rules W T ph rs : blind_def (run_rules W T ph rs).
Proof. induction rs; cbn [run_rules]; bd; auto using bd_check, bd_each. Qed.

(** The contexts agree up to the contents of a deferred result that is not
    in effect. *)
Definition same_but_deferred (c1 c2 : ctx) : Prop :=
  c1 = c2 \/ exists h p, c_defresult c1 = aError /\ c2 = with_deferred aError h p c1.

Lemma with_deferred_same c : with_deferred (c_defresult c) (c_defdnsblhit c) (c_defprops c) c = c.
Proof. destruct c. reflexivity. Qed.
Lemma with_deferred_twice a h p a' h' p' c : with_deferred a h p (with_deferred a' h' p' c) = with_deferred a h p c.
Proof. destruct c. reflexivity. Qed.

Lemma def_kept W T ph rs c a c' : run_rules W T ph rs c = Ok (a, c') -> c_defresult c' = c_defresult c.
Proof.
  intros E. pose proof (bd_rules W T ph rs (c_defresult c) (c_defdnsblhit c) (c_defprops c) c) as H.
  rewrite with_deferred_same, E in H. apply ok_inj in H. assert (Hc : c' = with_deferred (c_defresult c) (c_defdnsblhit c) (c_defprops c) c') by congruence.
  rewrite Hc. reflexivity.
Qed.

(** A decision without deferred result in effect. *)
Lemma Decide_same W T rules ph e c1 c2 : same_but_deferred c1 c2 ->
  match Decide W T rules ph e c1, Decide W T rules ph e c2 with
  | Ok (a1, c1'), Ok (a2, c2') => a1 = a2 /\ c_withprops c1' = c_withprops c2' /\ c_dnsblhit c1' = c_dnsblhit c2' /\
      c_trace c1' = c_trace c2' /\ c_domerr c1' = c_domerr c2' /\ same_but_deferred c1' c2'
  | Panic, Panic => True
  | NoFuel, NoFuel => True
  | _, _ => False
  end.
Proof.
  intros [<-|(h & p & Hd & ->)].
  - destruct (Decide W T rules ph e c1) as [[a c']| |]; auto. repeat split; auto. left. reflexivity.
  - unfold Decide, mbind. cbn [upd get].
    set (u := fun c => set_domerr None (set_withprops [] (set_dnsblhit [] (shadow ph e c)))).
    assert (Hu : u (with_deferred aError h p c1) = with_deferred aError h p (u c1)) by (unfold u, with_deferred; destruct c1, ph; reflexivity).
    assert (Hd' : c_defresult (u c1) = aError) by (unfold u; destruct c1, ph; auto).
    unfold u in Hu. cbv beta in Hu. fold u in Hu. change (set_domerr None (set_withprops [] (set_dnsblhit [] (shadow ph e c1)))) with (u c1) in *.
    rewrite Hu. rewrite Hd'. cbn [c_defresult with_deferred set_def set_defresult]. cbn [acode Nat.leb].
    fold (with_deferred aError h p (u c1)). rewrite (bd_rules W T ph rules aError h p (u c1)).
    destruct (run_rules W T ph rules (u c1)) as [[a c']| |] eqn:E; auto. apply def_kept in E. rewrite Hd' in E.
    change (c_from (with_deferred aError h p c')) with (c_from c'). destruct (_ && agtb a aAccept).
    + repeat split. left. destruct c'. reflexivity.
    + repeat split. right. exists h, p. auto.
Qed.

(** What one sees of the decisions. *)
Fixpoint observed (W : world) (rules : list rule) (cmds : list (trans * phase * evt)) (c : ctx)
  : outcome (list (action * smap bytes * list bytes * list call)) :=
  match cmds with
  | [] => Ok []
  | (T, ph, e) :: cmds' =>
      match Decide W T rules ph e c with
      | Ok (a, c') => do l <- observed W rules cmds' c'; Ok ((a, c_withprops c', c_dnsblhit c', c_trace c') :: l)
      | Panic => Panic
      | NoFuel => NoFuel
      end
  end.

Lemma observed_same W rules cmds : forall c1 c2, same_but_deferred c1 c2 -> observed W rules cmds c1 = observed W rules cmds c2.
Proof.
  induction cmds as [|[[T ph] e] cmds IH]; intros c1 c2 H; cbn [observed]; auto.
  pose proof (Decide_same W T rules ph e c1 c2 H) as HD.
  destruct (Decide W T rules ph e c1) as [[a1 c1']| |], (Decide W T rules ph e c2) as [[a2 c2']| |]; try contradiction; auto.
  destruct HD as (<- & -> & -> & -> & _ & HS). now rewrite (IH _ _ HS).
Qed.

(** After MAIL FROM or HELO all decisions are the same, whatever refusal was
    pending before. *)
Theorem C39_no_leak W rules T ph e cmds c a hits props :
  ph = pHelo \/ ph = pMfrom ->
  observed W rules ((T, ph, e) :: cmds) (with_deferred a hits props c) = observed W rules ((T, ph, e) :: cmds) c.
Proof.
  intros Hph. cbn [observed].
  set (c0 := with_deferred aError (c_defdnsblhit c) (c_defprops c) c).
  assert (E1 : forall a' h' p', Decide W T rules ph e (with_deferred a' h' p' c) = Decide W T rules ph e (with_deferred aError h' p' c)).
  { intros. unfold Decide, mbind. cbn [upd].
    assert (Es : shadow ph e (with_deferred a' h' p' c) = shadow ph e (with_deferred aError h' p' c)) by (destruct Hph; subst ph; destruct c; reflexivity).
    now rewrite Es. }
  assert (E2 : Decide W T rules ph e c = Decide W T rules ph e c0).
  { rewrite <- (with_deferred_same c) at 1. apply E1. }
  rewrite E1, E2.
  assert (HS : same_but_deferred c0 (with_deferred aError hits props c)).
  { right. exists hits, props. split; [reflexivity|]. unfold c0. now rewrite with_deferred_twice. }
  pose proof (Decide_same W T rules ph e _ _ HS) as HD.
  destruct (Decide W T rules ph e c0) as [[a1 c1']| |], (Decide W T rules ph e (with_deferred aError hits props c)) as [[a2 c2']| |]; try contradiction; auto.
  destruct HD as (<- & -> & -> & -> & _ & HS'). now rewrite (observed_same W rules cmds _ _ HS').
Qed.

(** a pending stall, which stalls RCPT TO, and is gone after MAIL FROM *)
Example C39_example :
  let rules := text_rules (B "accept from @good.org
") in
  let c := newContext [] in
  let p := with_deferred aStall [B "x"] [(B "note", B "n")] c in
  let cmds := [(demo_trans, pRto, mkEvt None (B "bob@x"))] in
  observed demo_world rules cmds p = Ok [(aStall, [(B "note", B "n")], [B "x"], [])] /\
  observed demo_world rules cmds c = Ok [(aNoresult, [], [], [])] /\
  observed demo_world rules ((demo_trans, pMfrom, mkEvt None (B "a@good.org")) :: cmds) p = Ok [(aAccept, [], [], []); (aAccept, [], [], [])].
Proof. vm_compute. auto. Qed.

(** ** C40 *)

(** An operator with an empty argument crashes the server when evaluated. *)
Theorem C40_empty_argument_refuted : exists input rules,
  parse 5 nofiles input = PRules rules /\
  forall W T e c, c_defresult c = aError -> Decide W T rules pMfrom e c = Panic.
Proof.
  exists (B "reject from """"
"), [mkRule [mkClause (EMatch MFrom []) []] aReject pMfrom pAny].
  split; [vm_compute; reflexivity|]. intros W T e c Hd. reflexivity.
Qed.

(** So does matching the HELO name when the client gave none. *)
Theorem C40_empty_helo_refuted : exists input rules,
  parse 5 nofiles input = PRules rules /\
  forall W T c cmd, Decide W T rules pHelo (mkEvt cmd []) c = Panic.
Proof.
  exists (B "reject helo spammer
"), [mkRule [mkClause (EMatch MHelo (B "spammer")) []] aReject pHelo pAny].
  split; [vm_compute; reflexivity|]. intros W T c cmd.
  unfold Decide, mbind. cbn [upd get shadow c_defresult set_domerr set_withprops set_dnsblhit set_defresult set_helo acode Nat.leb].
  cbn [run_rules skipped r_requires r_deferto pltb pcode Nat.ltb Nat.leb peqb Nat.eqb negb andb orb mbind upd pleb check check_clauses r_clauses eval rc_expr].
  unfold mbind. cbn [upd]. unfold evalMatch, matchEval, mbind. cbn [getMatchList B list_ascii_of_string].
  change (to_lower (w_uni W) (B "spammer")) with (B "spammer"). reflexivity.
Qed.

(** Otherwise there are no crashes. *)

(** the matches of a rule *)
Definition arg_of (o : expr) : option bytes :=
  match o with EMatch _ a | ESource a => Some a | _ => None end.
Definition matches_helo (o : expr) : Prop :=
  match o with EMatch MHelo _ | ESource _ => True | _ => False end.
Definition nonempty_names (T : trans) : Prop :=
  ~ In [] (rd_verified (t_rdns T)) /\ ~ In [] (rd_nofwd (t_rdns T)) /\ ~ In [] (rd_inconsist (t_rdns T)).

Section Safe.
  Variable W : world.
  Hypothesis HU : unicode_ok (w_uni W).
  Variable T : trans.
  Hypothesis HT : nonempty_names T.

  (** cached pattern files have no empty entries; the HELO name *)
  Definition sane (hn : bytes) (c : ctx) : Prop :=
    c_heloname c = hn /\ forall f l, mget (c_files c) f = Some l -> ~ In [] l.

  Definition safe {A} (hn : bytes) (m : M A) (Q : A -> Prop) : Prop :=
    forall c, sane hn c -> exists a c', m c = Ok (a, c') /\ sane hn c' /\ Q a.
  Notation any := (fun _ => True).

  Lemma safe_ret {A} hn (a : A) (Q : A -> Prop) : Q a -> safe hn (ret a) Q.
  Proof. intros H c Hc. exists a, c. auto. Qed.
  Lemma safe_bind {A B} hn (m : M A) (f : A -> M B) (P : A -> Prop) (Q : B -> Prop) :
    safe hn m P -> (forall a, P a -> safe hn (f a) Q) -> safe hn (mbind m f) Q.
  Proof.
    intros Hm Hf c Hc. destruct (Hm c Hc) as (a & c1 & E & Hc1 & Ha). destruct (Hf a Ha c1 Hc1) as (b & c2 & E2 & Hc2 & Hb).
    exists b, c2. unfold mbind. now rewrite E, E2.
  Qed.
  Lemma safe_get {A} hn (f : ctx -> A) : safe hn (get f) (fun a => exists c, sane hn c /\ a = f c).
  Proof. intros c Hc. exists (f c), c. split; [reflexivity|]. eauto. Qed.
  Lemma safe_get_any {A} hn (f : ctx -> A) : safe hn (get f) any.
  Proof. intros c Hc. exists (f c), c. auto. Qed.
  Lemma safe_upd hn f : (forall c, c_heloname (f c) = c_heloname c /\ c_files (f c) = c_files c) -> safe hn (upd f) any.
  Proof.
    intros H c [H1 H2]. exists tt, (f c). split; [reflexivity|]. destruct (H c) as [A1 A2]. split; auto. split; [congruence|]. rewrite A2. auto.
  Qed.
  Lemma safe_lift {A} hn (o : outcome A) (Q : A -> Prop) : (exists a, o = Ok a /\ Q a) -> safe hn (lift o) Q.
  Proof. intros (a & -> & H) c Hc. exists a, c. auto. Qed.
  Lemma safe_ext {A} hn (x : X A) : safe hn (ext x) any.
  Proof. intros c [H1 H2]. unfold ext. destruct (x (c_trace c)) as [a t]. exists a, (set_trace t c). split; auto. split; auto. split; auto. Qed.

  Ltac up := apply safe_upd; intros; split; reflexivity.

  Lemma readList_lines_named ls : ~ In [] (readList_lines (w_uni W) ls).
  Proof.
    induction ls as [|l ls IH]; cbn [readList_lines]; auto. destruct (trim_space (w_uni W) l) as [|c l']; auto.
    destruct (Ascii.eqb c "#"); auto. intros [H|H]; auto. apply (to_lower_nonempty (w_uni W) (c :: l')) in H; auto. discriminate.
  Qed.
  Lemma loadList_named f tr : ~ In [] (fst (loadList W f tr)).
  Proof.
    unfold loadList. destruct f; [auto|]. unfold read_file, ask, xbind, xret. cbn [fst].
    destruct (w_file W _ _) as [| |content []]; cbn; auto. apply readList_lines_named.
  Qed.

  Lemma safe_dnsbl hn n : safe hn (getDnsblRes W n) any.
  Proof.
    unfold getDnsblRes. eapply safe_bind; [apply safe_get_any|]. intros cache _. destruct (mget cache n); [now apply safe_ret|].
    eapply safe_bind; [apply safe_ext|]. intros [ips|] _; [|now apply safe_ret]. eapply safe_bind; [up|]. intros _ _. now apply safe_ret.
  Qed.
  Lemma safe_hit hn d : safe hn (addDnsblHit d) any.
  Proof. apply safe_upd. intros c. destruct (bmem _ _); split; reflexivity. Qed.
  Lemma safe_domain hn d : safe hn (validDomain W d) any.
  Proof.
    unfold validDomain. eapply safe_bind; [apply safe_get_any|]. intros cache _. destruct (mget cache d); [now apply safe_ret|].
    eapply safe_bind; [apply safe_ext|]. intros r _. eapply safe_bind; [up|]. intros _ _. now apply safe_ret.
  Qed.
  Lemma safe_addropts hn a : safe hn (getAddrOpts W a) any.
  Proof.
    unfold getAddrOpts. destruct a as [|c0 a]; [now apply safe_ret|]. destruct (addrText (c0 :: a)) as [o idx].
    destruct (N.eqb _ _); [|now apply safe_ret]. eapply safe_bind; [apply safe_domain|]. intros [[] v] _; cbn [fst snd]; try (now apply safe_ret);
      (eapply safe_bind; [up|intros; now apply safe_ret]).
  Qed.
  Lemma safe_matchlist hn a : a <> [] -> safe hn (getMatchList W a) (fun l => ~ In [] l).
  Proof.
    intros Ha. unfold getMatchList. destruct a as [|c0 a]; [contradiction|].
    destruct (if _ || _ then _ else _) as [f|].
    - intros c [H1 H2]. unfold mbind, get, ext. destruct (mget (c_files c) f) as [l|] eqn:E.
      + exists l, c. split; auto. split; [split; auto|]. eapply H2; eauto.
      + pose proof (loadList_named f (c_trace c)) as HL. destruct (loadList W f (c_trace c)) as [l t]. cbn [fst] in HL. unfold upd, ret.
        eexists; eexists. split; [reflexivity|]. split; [|exact HL]. split; [exact H1|]. cbn [c_files set_files set_trace].
        intros f' l'. rewrite mget_mset. destruct (beqb f' f); [intros [= <-]; auto|apply H2].
    - apply safe_ret. intros [H|[]]. apply (to_lower_nonempty (w_uni W) (c0 :: a)) in H; auto.
  Qed.
  Lemma any_elt_ok f es : (forall e, In e es -> exists b, f e = Ok b) -> exists b, any_elt f es = Ok b.
  Proof.
    induction es as [|e es IH]; intros H; cbn [any_elt]; [eauto|]. destruct (H e (or_introl eq_refl)) as (b & ->). cbn [obind].
    destruct b; eauto. apply IH. intros x Hx. apply H. now right.
  Qed.
  Lemma any_pat_ok m es ps : (forall e p, In e es -> In p ps -> exists b, m e p = Ok b) -> exists b, any_pat m es ps = Ok b.
  Proof.
    induction ps as [|p ps IH]; intros H; cbn [any_pat]; [eauto|].
    destruct (any_elt_ok (fun e => m e p) es) as (b & ->). { intros e He. apply H; auto. now left. }
    cbn [obind]. destruct b; eauto. apply IH. intros e q He Hq. apply H; auto. now right.
  Qed.
  Lemma safe_match hn a m g : a <> [] ->
    (forall c e p, sane hn c -> In e (g c) -> p <> [] -> exists b, m e p = Ok b) -> safe hn (matchEval W a m g) any.
  Proof.
    intros Ha Hm. unfold matchEval. eapply safe_bind; [apply safe_matchlist; auto|]. intros [|p l] Hl.
    - eapply safe_bind; [up|]. intros _ _. now apply safe_ret.
    - eapply safe_bind; [apply safe_get|]. intros es (c & Hc & ->). apply safe_lift.
      destruct (any_pat_ok m (g c) (p :: l)) as (b & ->); [|eauto]. intros e q He Hq. eapply Hm; eauto. intros ->. auto.
  Qed.
  Lemma safe_host x p : x <> [] -> p <> [] -> exists b, matchHost (w_uni W) x p = Ok b.
  Proof. intros Hx Hp. destruct (C18_host_patterns (w_uni W) x p) as (b & -> & _); eauto. now apply to_lower_nonempty. Qed.
  Lemma safe_address x p : exists b, matchAddress (w_uni W) x p = Ok b.
  Proof. destruct (C16_address_patterns (w_uni W) x p) as (b & -> & _). eauto. Qed.
  Lemma safe_evalMatch hn k a : a <> [] -> (k = MHelo -> hn <> []) -> safe hn (evalMatch W T k a) any.
  Proof.
    intros Ha Hk. apply safe_match; auto. intros c e p [Hc _] He Hp. destruct k; cbn [kindMatcher kindGetter] in *; eauto using safe_address.
    - destruct He as [<-|[]]. apply safe_host; auto. rewrite Hc. auto.
    - apply safe_host; auto. intros ->. destruct HT as (H & _). auto.
  Qed.
  Lemma add_names_ok ns : forall l, ~ In [] ns -> exists l', add_names l ns = Ok l'.
  Proof.
    induction ns as [|n ns IH]; intros l H; cbn [add_names]; [eauto|]. destruct n as [|c n]; [exfalso; apply H; now left|].
    apply IH. intros A. apply H. now right.
  Qed.
  Lemma safe_dbl_loop hn d l : forall r, safe hn (dbl_loop W d l r) any.
  Proof.
    induction l as [|s l IH]; intros r; cbn [dbl_loop]; [now apply safe_ret|].
    eapply safe_bind; [apply safe_dnsbl|]. intros [] _; [|apply IH]. eapply safe_bind; [apply safe_hit|]. intros _ _. apply IH.
  Qed.

  Definition op_safe (hn : bytes) (o : expr) : Prop := arg_of o <> Some [] /\ (matches_helo o -> hn <> []).

  Lemma safe_eval hn e : (forall o, In o (operators e) -> op_safe hn o) -> safe hn (eval W T e) any.
  Proof.
    induction e as [l IH|e IH|a b IHa IHb| | | |k a|a|s d|k o] using expr_ind'; intros Ho.
    - induction IH as [|x l Hx _ IH]; [now apply safe_ret|].
      change (eval W T (EAnd (x :: l))) with (mbind (eval W T x) (fun r => if r then eval W T (EAnd l) else ret false)).
      change (operators (EAnd (x :: l))) with (operators x ++ operators (EAnd l)) in Ho.
      eapply safe_bind; [apply Hx; intros o Hin; apply Ho; apply in_or_app; auto|]. intros [] _; [|now apply safe_ret].
      apply IH. intros o Hin. apply Ho. apply in_or_app. auto.
    - cbn [eval]. eapply safe_bind; [apply IH; auto|]. intros; now apply safe_ret.
    - cbn [eval operators] in *. eapply safe_bind; [apply IHa; intros o Hin; apply Ho; apply in_or_app; auto|]. intros [] _; [now apply safe_ret|].
      apply IHb. intros o Hin. apply Ho. apply in_or_app. auto.
    - now apply safe_ret.
    - now apply safe_ret.
    - cbn [eval]. unfold evalDnsbl. destruct (t_rip T) as [|r0 r]; [now apply safe_ret|].
      destruct (split_byte _ _) as [|s0 [|s1 [|s2 [|s3 [|]]]]]; try (now apply safe_ret).
      eapply safe_bind; [apply safe_dnsbl|]. intros [] _; [|now apply safe_ret].
      eapply safe_bind; [apply safe_hit|]. intros; now apply safe_ret.
    - destruct (Ho (EMatch k a) (or_introl eq_refl)) as [H1 H2]. cbn in H1, H2. apply safe_evalMatch; [congruence|].
      intros ->. apply H2. exact I.
    - destruct (Ho (ESource a) (or_introl eq_refl)) as [H1 H2]. cbn in H1, H2. assert (Ha : a <> []) by congruence. specialize (H2 I).
      cbn [eval]. eapply safe_bind; [apply safe_evalMatch; auto; discriminate|]. intros [] _; [now apply safe_ret|].
      eapply safe_bind; [apply safe_evalMatch; auto|]. intros [] _; [now apply safe_ret|].
      apply safe_match; auto. intros. apply safe_address.
    - cbn [eval]. unfold evalDbl. eapply safe_bind; [apply safe_get_any|]. intros hn' _. eapply safe_bind with (P := any).
      { destruct (ohas_all s oHost); [|now apply safe_ret]. apply safe_lift. destruct HT as (N1 & N2 & N3).
        match goal with |- context [add_names ?k _] => destruct (add_names_ok (rd_verified (t_rdns T)) k N1) as (l1 & ->) end. cbn [obind].
        destruct (add_names_ok (rd_nofwd (t_rdns T)) l1 N2) as (l2 & ->). cbn [obind].
        destruct (add_names_ok (rd_inconsist (t_rdns T)) l2 N3) as (l3 & ->). eauto. }
      intros k2 _. eapply safe_bind; [apply safe_get_any|]. intros from _. eapply safe_bind with (P := any).
      { destruct (_ && _); [|now apply safe_ret]. eapply safe_bind; [apply safe_addropts|]. intros o _. destruct (ohas _ _); now apply safe_ret. }
      intros [|k k3] _; [now apply safe_ret|]. eapply safe_bind; [apply safe_get_any|]. intros; apply safe_dbl_loop.
    - cbn [eval]. unfold evalOpt. eapply safe_bind with (P := any); [|intros; now apply safe_ret]. destruct k; [now apply safe_ret| | |];
      (eapply safe_bind; [apply safe_get_any|intros a _]); [eapply safe_bind; [apply safe_get_any|intros; now apply safe_ret]|apply safe_addropts|apply safe_addropts].
  Qed.

  Lemma safe_clauses hn cs : (forall c o, In c cs -> In o (operators (rc_expr c)) -> op_safe hn o) -> safe hn (check_clauses W T cs) any.
  Proof.
    induction cs as [|x cs IH]; intros Ho; cbn [check_clauses]; [now apply safe_ret|].
    eapply safe_bind; [apply safe_eval; intros o; apply Ho; now left|]. intros b _. eapply safe_bind; [apply safe_get_any|]. intros miss _.
    destruct miss; [now apply safe_ret|]. destruct b; cbn [negb].
    - eapply safe_bind; [up|]. intros; now apply safe_ret.
    - apply IH. intros c o Hc. apply Ho. now right.
  Qed.
  Lemma safe_check hn r : (forall o, In o (rule_operators r) -> op_safe hn o) -> safe hn (check W T r) any.
  Proof.
    intros Ho. unfold check. eapply safe_bind; [up|]. intros _ _. apply safe_clauses. intros c o Hc Hin. apply Ho. apply in_flat_map. eauto.
  Qed.
  Lemma safe_each hn r l : (forall o, In o (rule_operators r) -> op_safe hn o) -> safe hn (ruleForEachRcpt W T r l) any.
  Proof.
    intros Ho. induction l as [|x l IH]; cbn [ruleForEachRcpt]; [now apply safe_ret|].
    eapply safe_bind; [up|]. intros _ _. eapply safe_bind; [apply safe_check; auto|]. intros [] _; [now apply safe_ret|].
    eapply safe_bind; [apply safe_get_any|]. intros [] _; [now apply safe_ret|]. apply IH.
  Qed.
  Lemma safe_rules hn ph rs : (forall r o, In r rs -> skipped ph r = false -> In o (rule_operators r) -> op_safe hn o) -> safe hn (run_rules W T ph rs) any.
  Proof.
    induction rs as [|r rs IH]; intros Ho; cbn [run_rules]; [now apply safe_ret|].
    assert (HI : safe hn (run_rules W T ph rs) any) by (apply IH; intros r' o H'; apply Ho; now right).
    destruct (skipped ph r) eqn:Es; auto.
    assert (Hr : forall o, In o (rule_operators r) -> op_safe hn o) by (intros o; apply Ho; auto; now left).
    eapply safe_bind; [up|]. intros _ _. eapply safe_bind with (P := any).
    { destruct (_ && _); [apply safe_each|apply safe_check]; auto. }
    intros b _. eapply safe_bind; [apply safe_get_any|]. intros [] _; auto. destruct (b && _); [now apply safe_ret|auto].
  Qed.
End Safe.

(** The HELO name at a decision. *)
Definition helo_name (ph : phase) (e : evt) (h : list decision) : bytes :=
  if peqb ph pHelo then e_arg e else e_arg (last_command pHelo h).

Lemma helo_rules W T ph rs : forall c a c', run_rules W T ph rs c = Ok (a, c') -> c_heloname c' = c_heloname c.
Proof.
  assert (KC : forall cs c b c', check_clauses W T cs c = Ok (b, c') -> c_heloname c' = c_heloname c).
  { induction cs as [|x cs IH]; intros c b c' E; cbn [check_clauses] in E; [injection E as <- <-; reflexivity|].
    unfold mbind in E. destruct (eval W T (rc_expr x) c) as [[b1 c1]| |] eqn:Ee; try discriminate.
    pose proof (si_helo _ _ (steps_same _ _ _ (runs_eval W T _ _ _ _ Ee))) as Hf. cbn [get] in E.
    destruct (c_rulemiss c1); [injection E as <- <-; exact Hf|]. destruct b1; cbn [negb upd] in E.
    - injection E as <- <-. exact Hf.
    - rewrite <- Hf. eapply IH; eauto. }
  assert (KK : forall r c b c', check W T r c = Ok (b, c') -> c_heloname c' = c_heloname c).
  { intros r c b c' E. unfold check, mbind in E. cbn [upd] in E. apply KC in E. exact E. }
  assert (KE : forall r l c b c', ruleForEachRcpt W T r l c = Ok (b, c') -> c_heloname c' = c_heloname c).
  { induction l as [|x l IH]; intros c b c' E; cbn [ruleForEachRcpt] in E; [injection E as <- <-; reflexivity|].
    unfold mbind in E. cbn [upd] in E. destruct (check W T r (set_rcptto x c)) as [[[] c1]| |] eqn:Ec; try discriminate.
    - injection E as <- <-. apply KK in Ec. exact Ec.
    - apply KK in Ec. cbn [get] in E. destruct (c_rulemiss c1); [injection E as <- <-; exact Ec|]. apply IH in E. rewrite E. exact Ec. }
  induction rs as [|r rs IH]; intros c a c' E; cbn [run_rules] in E; [injection E as <- <-; reflexivity|].
  destruct (skipped ph r); [eauto|]. unfold mbind in E. cbn [upd] in E.
  match type of E with match ?m with _ => _ end = _ => destruct m as [[b c1]| |] eqn:Em; try discriminate end.
  assert (H1 : c_heloname c1 = c_heloname c).
  { destruct (_ && _) in Em; [apply KE in Em|apply KK in Em]; exact Em. }
  cbn [get] in E. destruct (c_rulemiss c1); [rewrite <- H1; eauto|]. destruct (b && _); [injection E as <- <-; auto|].
  rewrite <- H1. eauto.
Qed.

Lemma eval_helo_kept W T ph e rules c a c' : Decide W T rules ph e c = Ok (a, c') ->
  c_heloname c' = if peqb ph pHelo then e_arg e else c_heloname c.
Proof.
  intros E. unfold Decide, mbind in E. cbn [upd get] in E.
  set (c0 := set_domerr None (set_withprops [] (set_dnsblhit [] (shadow ph e c)))) in E.
  assert (H0 : c_heloname c0 = if peqb ph pHelo then e_arg e else c_heloname c) by (unfold c0; destruct ph; reflexivity).
  destruct (Nat.leb _ _); [injection E as <- <-; exact H0|].
  destruct (run_rules W T ph rules c0) as [[a1 c1]| |] eqn:E1; try discriminate.
  assert (H1 : c_heloname c1 = c_heloname c0).
  { eapply helo_rules; eauto. }
  destruct (_ && _); injection E as <- <-; cbn; congruence.
Qed.

Theorem C40_no_crash W rules tr0 h c T ph e :
  unicode_ok (w_uni W) -> Forall from_file rules -> session W rules tr0 h c -> nonempty_names T ->
  (forall r o, In r rules -> In o (rule_operators r) -> arg_of o <> Some []) ->
  (pcode pHelo <= pcode ph -> (exists r o, In r rules /\ In o (rule_operators r) /\ matches_helo o) -> helo_name ph e h <> []) ->
  exists a c', Decide W T rules ph e c = Ok (a, c').
Proof.
  intros HU HR Hs HT Harg Hhelo.
  assert (Hh : c_heloname c = e_arg (last_command pHelo h)).
  { clear -Hs. induction Hs as [|h c T ph e a c' Hs IH E]; [reflexivity|]. rewrite (eval_helo_kept _ _ _ _ _ _ _ _ E). cbn [last_command d_phase d_evt].
    destruct (peqb ph pHelo); auto. }
  unfold Decide, mbind. cbn [upd get].
  set (c0 := set_domerr None (set_withprops [] (set_dnsblhit [] (shadow ph e c)))).
  assert (H0 : sane (helo_name ph e h) c0).
  { split.
    - unfold c0, helo_name. destruct ph; cbn; auto.
    - assert (Hf : c_files c0 = c_files c) by (unfold c0; destruct ph; reflexivity). rewrite Hf. intros f l Hl.
      destruct (tr_cached _ _ _ (session_traced _ _ _ _ _ Hs) f l Hl) as [[_ ->]|(i & _ & ->)]; [auto|].
      unfold entries. destruct (w_file W i f) as [| |content []]; auto. apply (readList_lines_named W HU). }
  destruct (Nat.leb _ _); [unfold ret; eauto|].
  destruct (safe_rules W HU T HT (helo_name ph e h) ph rules) with (c := c0) as (a & c' & E & _); auto.
  { intros r o Hr Hsk Ho. split; [eapply Harg; eauto|]. intros Hm.
    apply Hhelo; [|eauto]. rewrite Forall_forall in HR. destruct (from_file_wf r (HR r Hr)) as [(P1 & _) _]. specialize (P1 o Ho).
    assert (H1 : pcode pHelo <= pcode (operator_phase o)) by (destruct o as [| | | | | |[]| | |]; try contradiction; cbn; lia).
    assert (H2 : pcode (r_requires r) <= pcode ph); [|lia].
    unfold skipped, pltb in Hsk. destruct (Nat.ltb_spec (pcode ph) (pcode (r_requires r))); [discriminate|]. auto. }
  rewrite E. destruct (_ && _); unfold ret; eauto.
Qed.

Example C40_example : exists rules,
  text_rules (B "reject helo spammer
stall from /l
reject source .evil.org
") = rules /\ length rules = 3 /\ nonempty_names demo_trans /\
  (forall r o, In r rules -> In o (rule_operators r) -> arg_of o <> Some []) /\
  exists a c, session demo_world rules [] [a] c /\ helo_name pMfrom (mkEvt None (B "a@b")) [a] <> [] /\
  d_result a = aNoresult.
Proof.
  eexists. split; [vm_compute; reflexivity|]. split; [reflexivity|]. split; [vm_compute; intuition discriminate|]. split.
  - intros r o Hr Ho. destruct Hr as [<-|[<-|[<-|[]]]]; destruct Ho as [<-|[]]; discriminate.
  - do 2 eexists. split; [apply (run_session_start demo_world _ [] [(demo_trans, pHelo, mkEvt (Some EHLO) (B "x.y"))]); vm_compute; reflexivity|].
    split; [discriminate|reflexivity].
Qed.
