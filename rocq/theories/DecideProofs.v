(** Decisions: the meaning of rule lists, and that Decide computes it. *)
From Coq Require Import Relations Permutation.
From Verif Require Import PropsParse.
From Verif Require Import Bytes Outcome Lexer Ast Parser Grammar GoNet World Dns Eval PropsMatch PropsAttr Sem EvalProofs.

(** ** Meaning of rules *)

(** A clause of a rule is used: it is true, it consults no file without
    entries, and the clauses before it are false and consult no such file. *)
Definition passed (F : facts) (rc : rclause) : Prop := ~ truth F (rc_expr rc) /\ ~ misses F (rc_expr rc).
Definition Fires (F : facts) (cs : list rclause) (rc : rclause) : Prop :=
  exists pre post, cs = pre ++ rc :: post /\ Forall (passed F) pre /\ truth F (rc_expr rc) /\ ~ misses F (rc_expr rc).
(** the rule is given up because a file without entries is consulted *)
Definition GivenUp (F : facts) (cs : list rclause) : Prop :=
  exists pre rc post, cs = pre ++ rc :: post /\ Forall (passed F) pre /\ misses F (rc_expr rc).

Definition with_rcpt (F : facts) (a : bytes) : facts :=
  mkFacts (f_uni F) (f_view F) (f_trans F) (f_cmd F) (f_helo F) (f_from F) a.

(** the rule is about recipients, and this is after the recipients were given *)
Definition per_recipient (ph : phase) (r : rule) : Prop :=
  pcode pRto < pcode ph /\ pcode pRto <= pcode (r_requires r).

(** The rule matches in the phase, through the clause [rc]. *)
Definition Matches (F : facts) (ph : phase) (r : rule) (rc : rclause) : Prop :=
  (~ per_recipient ph r /\ Fires F (r_clauses r) rc) \/
  (per_recipient ph r /\ exists pre a post, t_rcptto (f_trans F) = pre ++ a :: post /\
     Forall (fun x => (forall rc', ~ Fires (with_rcpt F x) (r_clauses r) rc') /\
                      ~ GivenUp (with_rcpt F x) (r_clauses r)) pre /\
     Fires (with_rcpt F a) (r_clauses r) rc).

(** The rule is looked at in the phase. *)
Definition eligible (ph : phase) (r : rule) : Prop :=
  pcode (r_requires r) <= pcode ph /\ (r_deferto r = pAny \/ r_deferto r = ph).

(** The rule has an action, other than just setting options. *)
Definition decides (r : rule) : Prop := In (r_result r) [aAccept; aStall; aReject].

(** [Run F ph rs a ws]: going through the rules gives the action [a], and [ws]
    are the with options of the clauses used on the way. *)
Inductive Run (F : facts) (ph : phase) : list rule -> action -> list (smap bytes) -> Prop :=
| Run_none : Run F ph [] aNoresult []
| Run_pass r rs a ws : (eligible ph r -> forall rc, ~ Matches F ph r rc) -> Run F ph rs a ws -> Run F ph (r :: rs) a ws
| Run_set r rc rs a ws : eligible ph r -> Matches F ph r rc -> ~ decides r -> Run F ph rs a ws ->
    Run F ph (r :: rs) a (rc_withs rc :: ws)
| Run_decide r rc rs : eligible ph r -> Matches F ph r rc -> decides r ->
    Run F ph (r :: rs) (r_result r) [rc_withs rc].

(** ** Larger steps *)

Definition hits_ok (c : ctx) : Prop :=
  (NoDup (c_dnsblhit c) /\ NoDup (c_defdnsblhit c)) /\
  listed_in (c_dnsbl c) (c_dnsblhit c) /\ listed_in (c_dnsbl c) (c_defdnsblhit c).

Record same_cache (c c' : ctx) : Prop := mkSC {
  sc_files : c_files c' = c_files c;
  sc_dnsbl : c_dnsbl c' = c_dnsbl c;
  sc_domvalid : c_domvalid c' = c_domvalid c;
  sc_trace : c_trace c' = c_trace c;
  sc_domerr : c_domerr c' = c_domerr c \/ c_domerr c' = None;
  sc_hits : hits_ok c -> hits_ok c'
}.

Inductive dstep (W : world) : ctx -> ctx -> Prop :=
| DS_step c c' : step W c c' -> dstep W c c'
| DS_field c c' : same_cache c c' -> dstep W c c'.
Definition dsteps (W : world) := clos_refl_trans_1n ctx (dstep W).

Lemma dsteps_refl W c : dsteps W c c.
Proof. constructor. Qed.
Lemma dsteps_trans W a b c : dsteps W a b -> dsteps W b c -> dsteps W a c.
Proof.
  intros H1 H2. induction H1; auto. eapply Relation_Operators.rt1n_trans; eauto. apply IHclos_refl_trans_1n. auto.
Qed.
Lemma dsteps_steps W c c' : steps W c c' -> dsteps W c c'.
Proof. induction 1; [constructor|]. eapply Relation_Operators.rt1n_trans; [apply DS_step; eauto|auto]. Qed.
Lemma dsteps_field W c c' : same_cache c c' -> dsteps W c c'.
Proof. intros H. eapply Relation_Operators.rt1n_trans; [apply DS_field; eauto|constructor]. Qed.

Lemma dsteps_files W c c' f l : dsteps W c c' -> mget (c_files c) f = Some l -> mget (c_files c') f = Some l.
Proof.
  induction 1 as [c|c d e H _ IH]; auto. intros Hf. apply IH. destruct H as [c d H|c d H].
  - eapply steps_files; [apply steps_one|]; eauto.
  - rewrite (sc_files _ _ H). auto.
Qed.
Lemma dsteps_dnsbl W c c' f l : dsteps W c c' -> mget (c_dnsbl c) f = Some l -> mget (c_dnsbl c') f = Some l.
Proof.
  induction 1 as [c|c d e H _ IH]; auto. intros Hf. apply IH. destruct H as [c d H|c d H].
  - eapply steps_dnsbl; [apply steps_one|]; eauto.
  - rewrite (sc_dnsbl _ _ H). auto.
Qed.
Lemma sees_same W tr0 v c c' : c_files c' = c_files c -> c_dnsbl c' = c_dnsbl c -> c_domvalid c' = c_domvalid c ->
  c_trace c' = c_trace c -> sees W tr0 v c' -> sees W tr0 v c.
Proof. intros E1 E2 E3 E4 []. constructor; rewrite <- ?E1, <- ?E2, <- ?E3, <- ?E4; auto. Qed.
Lemma dsteps_sees W tr0 v c c' : dsteps W c c' -> sees W tr0 v c' -> sees W tr0 v c.
Proof.
  induction 1 as [c|c d e H _ IH]; auto. intros HD. apply IH in HD. destruct H as [c d H|c d H].
  - eapply steps_sees; [apply steps_one|]; eauto.
  - destruct H. eapply sees_same; eauto.
Qed.
Lemma dsteps_started W tr0 c c' : dsteps W c c' -> started tr0 c -> started tr0 c'.
Proof.
  induction 1 as [c|c d e H _ IH]; auto. intros HD. apply IH. destruct H as [c d H|c d H].
  - eapply steps_started; [apply steps_one|]; eauto.
  - unfold started. rewrite (sc_trace _ _ H). auto.
Qed.
Lemma dsteps_hits W c c' : dsteps W c c' -> hits_ok c -> hits_ok c'.
Proof.
  induction 1 as [c|c d e H _ IH]; auto. intros HD. apply IH. destruct H as [c d H|c d H].
  - destruct HD as [[H1 H2] [H3 H4]]. apply steps_one in H. split; split.
    + eapply steps_hits; eauto.
    + rewrite (si_dhit _ _ (steps_same _ _ _ H)). auto.
    + eapply steps_listed; eauto.
    + rewrite (si_dhit _ _ (steps_same _ _ _ H)). eapply listed_in_mono; [|exact H4]. intros; eapply steps_dnsbl; eauto.
  - apply (sc_hits _ _ H HD).
Qed.

(** a failure noted is one of a domain looked up *)
Definition domerr_ok (c : ctx) : Prop := forall e, c_domerr c = Some e ->
  exists d v, mget (c_domvalid c) d = Some v /\ fails v /\ e = domain_failure d (snd v).
Lemma dsteps_domerr W c c' : dsteps W c c' -> domerr_ok c -> domerr_ok c'.
Proof.
  induction 1 as [c|c d e H _ IH]; auto. intros HD. apply IH. clear e IH. destruct H as [c d H|c d H].
  - destruct H as [n er c H1 H2|f c H1 H2|c H1|n ips c H1 H2|p dm c H1|dm r new c H1 H2 H3|dm v c H1|c]; intros x Hx;
      try (destruct (HD x Hx) as (dd & v & Hm & Hv); exists dd, v; split; [exact Hm|exact Hv]).
    + assert (Hm := HD x). destruct (bmem dm (c_dnsblhit c)); exact (Hm Hx).
    + cbn [c_domerr set_domerr set_domvalid c_domvalid] in *. destruct (noted_cases dm r (c_domerr c)) as [E|[Hf E]]; rewrite E in Hx.
      * destruct (HD x Hx) as (dd & v & Hm & Hv). exists dd, v. split; auto. rewrite mget_mset. destruct (beqb_spec dd dm) as [->|]; [congruence|exact Hm].
      * injection Hx as <-. exists dm, r. split; [apply mget_mset_same|auto].
    + cbn [c_domerr set_domerr c_domvalid] in *. destruct (noted_cases dm v (c_domerr c)) as [E|[Hf E]]; rewrite E in Hx; [apply HD; exact Hx|].
      injection Hx as <-. exists dm, v. auto.
  - intros x Hx. destruct (sc_domerr _ _ H) as [E|E]; rewrite E in Hx; [|discriminate]. rewrite (sc_domvalid _ _ H). auto.
Qed.

(** a larger computation *)
Definition druns {A} (W : world) (m : M A) : Prop := forall c a c', m c = Ok (a, c') -> dsteps W c c'.
Lemma druns_bind {A B} W (m : M A) (f : A -> M B) : druns W m -> (forall a, druns W (f a)) -> druns W (mbind m f).
Proof.
  intros Hm Hf c x c'. unfold mbind. destruct (m c) as [[a c1]| |] eqn:E; intros H; try discriminate.
  eapply dsteps_trans; [eapply Hm; eauto|]. eapply Hf; eauto.
Qed.
Lemma druns_ret {A} W (a : A) : druns W (ret a).
Proof. intros c x c' [= <- <-]. constructor. Qed.
Lemma druns_get {A} W (f : ctx -> A) : druns W (get f).
Proof. intros c x c' [= <- <-]. constructor. Qed.
Lemma druns_upd W f : (forall c, same_cache c (f c)) -> druns W (upd f).
Proof. intros Hf c x c' [= <- <-]. apply dsteps_field. auto. Qed.
Lemma druns_eval W T e : druns W (eval W T e).
Proof. intros c x c' H. apply dsteps_steps. eapply runs_eval; eauto. Qed.

Ltac sc := intros; constructor; try reflexivity; try (left; reflexivity); try (right; reflexivity); unfold hits_ok; cbn; try tauto.

Lemma druns_clauses W T cs : druns W (check_clauses W T cs).
Proof.
  induction cs as [|rc cs IH]; cbn [check_clauses]; [apply druns_ret|].
  apply druns_bind; [apply druns_eval|]. intros b. apply druns_bind; [apply druns_get|]. intros [].
  - apply druns_ret.
  - destruct b; cbn [negb]; [|exact IH]. apply druns_bind; [apply druns_upd; sc|intros; apply druns_ret].
Qed.
Lemma druns_check W T r : druns W (check W T r).
Proof. apply druns_bind; [apply druns_upd; sc|intros; apply druns_clauses]. Qed.
Lemma druns_each W T r l : druns W (ruleForEachRcpt W T r l).
Proof.
  induction l as [|a l IH]; cbn [ruleForEachRcpt]; [apply druns_ret|].
  apply druns_bind; [apply druns_upd; sc|]. intros _. apply druns_bind; [apply druns_check|]. intros []; [apply druns_ret|].
  apply druns_bind; [apply druns_get|]. intros []; [apply druns_ret|exact IH].
Qed.
Lemma druns_rules W T ph rs : druns W (run_rules W T ph rs).
Proof.
  induction rs as [|r rs IH]; cbn [run_rules]; [apply druns_ret|]. destruct (skipped ph r); [exact IH|].
  apply druns_bind; [apply druns_upd; sc|]. intros _. apply druns_bind.
  { destruct (_ && _); [apply druns_each|apply druns_check]. }
  intros b. apply druns_bind; [apply druns_get|]. intros []; [exact IH|]. destruct (_ && _); [apply druns_ret|exact IH].
Qed.
Lemma druns_Decide W T rs ph e : druns W (Decide W T rs ph e).
Proof.
  unfold Decide. apply druns_bind.
  { apply druns_upd. destruct ph; sc; intros [[H1 H2] [H3 H4]]; (split; split); auto; try constructor; intros d [].  }
  intros _. apply druns_bind; [apply druns_get|]. intros d. destruct (Nat.leb _ _).
  - apply druns_bind; [|intros; apply druns_ret]. apply druns_upd. sc.
  - apply druns_bind; [apply druns_rules|]. intros a. apply druns_bind; [apply druns_get|]. intros from.
    destruct (_ && _); [|apply druns_ret]. apply druns_bind; [apply druns_upd; sc|intros; apply druns_ret].
Qed.

(** ** Clauses and rules *)

Lemma Fires_unique F cs rc rc' : Fires F cs rc -> Fires F cs rc' -> rc = rc'.
Proof.
  revert rc rc'. induction cs as [|x cs IH]; intros rc rc' (p & q & E & Hp & H1 & H2) (p' & q' & E' & Hp' & H1' & H2');
    [destruct p; discriminate|].
  destruct p as [|y p], p' as [|y' p']; injection E as -> ->; injection E' as <- E'.
  - reflexivity.
  - inversion Hp'; subst. destruct H3. contradiction.
  - inversion Hp; subst. destruct H3. contradiction.
  - inversion Hp; inversion Hp'; subst. apply IH; [exists p, q|exists p', q']; auto.
Qed.

Lemma Fires_GivenUp F cs rc : Fires F cs rc -> ~ GivenUp F cs.
Proof.
  revert rc. induction cs as [|x cs IH]; intros rc (p & q & E & Hp & H1 & H2) (p' & rc' & q' & E' & Hp' & H1');
    [destruct p; discriminate|].
  destruct p as [|y p], p' as [|y' p']; injection E as -> ->; injection E' as <- E'.
  - contradiction.
  - inversion Hp'; subst. destruct H3. contradiction.
  - inversion Hp; subst. destruct H3. contradiction.
  - inversion Hp; inversion Hp'; subst. apply (IH rc); [exists p, q|exists p', rc', q']; auto.
Qed.

Lemma Fires_cons F x cs rc : Fires F (x :: cs) rc <->
  (truth F (rc_expr x) /\ ~ misses F (rc_expr x) /\ rc = x) \/ (passed F x /\ Fires F cs rc).
Proof.
  split.
  - intros ([|y p] & q & E & Hp & H1 & H2); injection E as -> ->; [left; auto|]. inversion Hp; subst.
    right. split; auto. exists p, q. auto.
  - intros [(H1 & H2 & ->)|(H & p & q & -> & Hp & H1 & H2)]; [exists [], cs; auto|]. exists (x :: p), q. auto.
Qed.
Lemma GivenUp_cons F x cs : GivenUp F (x :: cs) <-> misses F (rc_expr x) \/ (passed F x /\ GivenUp F cs).
Proof.
  split.
  - intros ([|y p] & z & q & E & Hp & H1); injection E as -> ->; [left; auto|]. inversion Hp; subst.
    right. split; auto. exists p, z, q. auto.
  - intros [H|(H & p & z & q & -> & Hp & H1)]; [exists [], x, cs; auto|]. exists (x :: p), z, q. auto.
Qed.

(** the fields that checking a rule does not touch *)
Record keeps (c c' : ctx) : Prop := mkKeeps {
  kp_cmd : c_helocmd c' = c_helocmd c;
  kp_helo : c_heloname c' = c_heloname c;
  kp_from : c_from c' = c_from c;
  kp_def : c_defresult c' = c_defresult c;
  kp_dhit : c_defdnsblhit c' = c_defdnsblhit c;
  kp_dprops : c_defprops c' = c_defprops c
}.
Lemma keeps_refl c : keeps c c.
Proof. constructor; reflexivity. Qed.
Lemma keeps_trans a b c : keeps a b -> keeps b c -> keeps a c.
Proof. intros [] []. constructor; congruence. Qed.
Lemma same_keeps c c' : same_input c c' -> keeps c c'.
Proof. intros []. constructor; auto. Qed.

Section Decide.
  Variable W : world.
  Hypothesis HW : fair_order W.
  Variable tr0 : list call.
  Variable fv : view.
  Variable T : trans.

  Lemma clauses_sound cs : forall c b c', check_clauses W T cs c = Ok (b, c') -> c_rulemiss c = false ->
    started tr0 c -> sees W tr0 fv c' ->
    let F := facts_of W fv T c in
    keeps c c' /\ c_rcptto c' = c_rcptto c /\
    (b = true -> exists rc, Fires F cs rc /\ c_withprops c' = set_all (c_withprops c) (rc_withs rc) /\ c_rulemiss c' = false) /\
    (b = false -> (forall rc, ~ Fires F cs rc) /\ c_withprops c' = c_withprops c /\ (c_rulemiss c' = true <-> GivenUp F cs)).
  Proof.
    induction cs as [|x cs IH]; intros c b c' E Hm HD HF F; cbn [check_clauses] in E.
    - injection E as <- <-. split; [apply keeps_refl|]. split; auto. split; [discriminate|]. intros _.
      split; [intros rc (p & q & E & _); destruct p; discriminate|]. split; auto. rewrite Hm. split; [discriminate|].
      intros (p & z & q & E & _). destruct p; discriminate.
    - unfold mbind at 1 in E. destruct (eval W T (rc_expr x) c) as [[b1 c1]| |] eqn:E1; try discriminate.
      assert (S1 : steps W c c1) by (eapply runs_eval; eauto). pose proof (steps_same _ _ _ S1) as SI.
      unfold mbind at 1 in E. unfold get in E.
      assert (HS : sees W tr0 fv c1 -> (b1 = true <-> truth F (rc_expr x)) /\ (c_rulemiss c1 = true <-> misses F (rc_expr x))).
      { intros HF1. destruct (eval_sound W HW tr0 fv T _ _ _ _ E1 HD HF1) as [A1 A2 A3]. split; auto. rewrite A2, Hm.
        split; [intros [H|H]; [discriminate|exact H]|auto]. }
      destruct (c_rulemiss c1) eqn:Em1.
      + injection E as <- <-. destruct (HS HF) as [A1 A2]. split; [apply same_keeps; auto|].
        split; [apply (si_rcpt _ _ SI)|]. split; [discriminate|]. intros _.
        assert (Hmi : misses F (rc_expr x)) by (now apply A2).
        split; [|split].
        * intros rc H. apply Fires_cons in H as [(_ & H & _)|[[_ H] _]]; contradiction.
        * apply (si_withs _ _ SI).
        * rewrite Em1. split; auto. intros _. apply GivenUp_cons. auto.
      + destruct b1; cbn [negb] in E.
        * unfold mbind, upd, ret in E. injection E as <- <-.
          assert (HF1 : sees W tr0 fv c1) by (eapply sees_same; [| | | |exact HF]; reflexivity). destruct (HS HF1) as [A1 A2].
          split; [destruct (same_keeps _ _ SI); constructor; auto|]. split; [apply (si_rcpt _ _ SI)|]. split; [|discriminate].
          intros _. exists x. split; [|split].
          -- apply Fires_cons. left. split; [now apply A1|]. split; auto. intros H. apply A2 in H. discriminate.
          -- cbn. rewrite (si_withs _ _ SI). reflexivity.
          -- exact Em1.
        * assert (S2 : dsteps W c1 c') by (eapply druns_clauses; eauto).
          destruct (HS (dsteps_sees _ _ _ _ _ S2 HF)) as [A1 A2].
          assert (Hpass : passed F x).
          { split; [intros H; apply A1 in H; discriminate|]. intros H; apply A2 in H; discriminate. }
          destruct (IH c1 b c' E Em1 (steps_started W tr0 _ _ S1 HD) HF) as (K & R & B1 & B2).
          rewrite (facts_same W fv T c c1 SI) in *. fold F in B1, B2.
          split; [eapply keeps_trans; [apply same_keeps; eauto|auto]|].
          split; [rewrite R; apply (si_rcpt _ _ SI)|]. split.
          -- intros Hb. destruct (B1 Hb) as (rc & H1 & H2 & H3). exists rc. split; [|split]; auto.
             ++ apply Fires_cons. auto.
             ++ rewrite H2, (si_withs _ _ SI). reflexivity.
          -- intros Hb. destruct (B2 Hb) as (H1 & H2 & H3). split; [|split].
             ++ intros rc H. apply Fires_cons in H as [(H & _)|[_ H]]; [destruct Hpass; contradiction|]. eapply H1; eauto.
             ++ rewrite H2. apply (si_withs _ _ SI).
             ++ rewrite H3. split; [intros H; apply GivenUp_cons; auto|]. intros H. apply GivenUp_cons in H as [H|[_ H]]; auto.
                destruct Hpass; contradiction.
  Qed.

  Lemma check_sound r c b c' : check W T r c = Ok (b, c') -> started tr0 c -> sees W tr0 fv c' ->
    let F := facts_of W fv T c in
    keeps c c' /\ c_rcptto c' = c_rcptto c /\
    (b = true -> exists rc, Fires F (r_clauses r) rc /\ c_withprops c' = set_all (c_withprops c) (rc_withs rc) /\ c_rulemiss c' = false) /\
    (b = false -> (forall rc, ~ Fires F (r_clauses r) rc) /\ c_withprops c' = c_withprops c /\
                  (c_rulemiss c' = true <-> GivenUp F (r_clauses r))).
  Proof.
    intros E HD HF F. unfold check, mbind, upd in E.
    destruct (clauses_sound _ (set_rulemiss false c) _ _ E eq_refl HD HF) as (K & R & H1 & H2).
    split; [destruct K; constructor; auto|]. split; auto.
  Qed.

  Lemma each_sound r l : forall c b c', ruleForEachRcpt W T r l c = Ok (b, c') -> c_rulemiss c = false -> started tr0 c -> sees W tr0 fv c' ->
    let F := facts_of W fv T c in
    let skip := fun x => (forall rc', ~ Fires (with_rcpt F x) (r_clauses r) rc') /\ ~ GivenUp (with_rcpt F x) (r_clauses r) in
    keeps c c' /\
    (b = true -> c_rulemiss c' = false /\ exists pre a post rc, l = pre ++ a :: post /\ Forall skip pre /\
       Fires (with_rcpt F a) (r_clauses r) rc /\ c_withprops c' = set_all (c_withprops c) (rc_withs rc)) /\
    (b = false -> c_withprops c' = c_withprops c /\
       ((c_rulemiss c' = false /\ Forall skip l) \/
        (c_rulemiss c' = true /\ exists pre a post, l = pre ++ a :: post /\ Forall skip pre /\ GivenUp (with_rcpt F a) (r_clauses r)))).
  Proof.
    induction l as [|a l IH]; intros c b c' E Hm HD HF F skip; cbn [ruleForEachRcpt] in E.
    - injection E as <- <-. split; [apply keeps_refl|]. split; [discriminate|]. intros _. split; auto.
    - unfold mbind at 1, upd in E. unfold mbind at 1 in E.
      destruct (check W T r (set_rcptto a c)) as [[b1 c1]| |] eqn:E1; try discriminate.
      assert (S1 : dsteps W (set_rcptto a c) c1) by (eapply druns_check; eauto).
      assert (HD0 : started tr0 (set_rcptto a c)) by exact HD.
      change (facts_of W fv T (set_rcptto a c)) with (with_rcpt F a) in *.
      destruct b1.
      + injection E as <- <-. destruct (check_sound r _ true c1 E1 HD0 HF) as (K & R & H1 & _).
        split; [destruct K; constructor; auto|]. split; [|discriminate]. intros _.
        destruct (H1 eq_refl) as (rc & A1 & A2 & A3). split; auto. exists [], a, l, rc.
        split; [reflexivity|]. split; [constructor|]. split; [exact A1|exact A2].
      + unfold mbind, get in E. destruct (c_rulemiss c1) eqn:Em.
        * injection E as <- <-. destruct (check_sound r _ false c1 E1 HD0 HF) as (K & R & _ & H2).
          split; [destruct K; constructor; auto|]. split; [discriminate|]. intros _.
          destruct (H2 eq_refl) as (A1 & A2 & A3). split; [exact A2|]. right. split; auto. exists [], a, l.
          split; [reflexivity|]. split; [constructor|]. apply A3. auto.
        * assert (S2 : dsteps W c1 c') by (eapply druns_each; eauto).
          destruct (check_sound r _ false c1 E1 HD0 (dsteps_sees _ _ _ _ _ S2 HF)) as (K & R & _ & H2).
          destruct (H2 eq_refl) as (A1 & A2 & A3).
          destruct (IH c1 b c' E Em (dsteps_started W tr0 _ _ S1 HD0) HF) as (K2 & B1 & B2).
          assert (EF : forall x, with_rcpt (facts_of W fv T c1) x = with_rcpt F x).
          { intros x. destruct K. unfold with_rcpt, facts_of, F. cbn in *. congruence. }
          assert (Hskip : skip a). { split; [exact A1|]. intros H. apply A3 in H. congruence. }
          assert (HFa : forall l0, Forall (fun x => (forall rc', ~ Fires (with_rcpt (facts_of W fv T c1) x) (r_clauses r) rc') /\ ~ GivenUp (with_rcpt (facts_of W fv T c1) x) (r_clauses r)) l0 -> Forall skip l0).
          { intros l0. apply Forall_impl. intros x. rewrite EF. auto. }
          split; [eapply keeps_trans; [|exact K2]; destruct K; constructor; auto|]. split.
          -- intros Hb. destruct (B1 Hb) as (M1 & pre & y & post & rc & -> & Hp & H3 & H4). split; auto.
             exists (a :: pre), y, post, rc. split; [reflexivity|]. split; [constructor; auto|].
             rewrite EF in H3. split; auto. rewrite H4, A2. reflexivity.
          -- intros Hb. destruct (B2 Hb) as (W1 & HC). split; [rewrite W1; exact A2|].
             destruct HC as [(M1 & HC)|(M1 & pre & y & post & -> & Hp & HG)].
             ++ left. split; auto.
             ++ right. split; auto. exists (a :: pre), y, post. split; [reflexivity|]. split; [constructor; auto|].
                rewrite EF in HG. exact HG.
  Qed.

  (** a rule that does not need the recipient does not look at it *)
  Definition blind (e : expr) : Prop := forall o, In o (operators e) -> pcode (operator_phase o) < pcode pRto.

  Lemma blind_truth F a e : blind e -> (truth (with_rcpt F a) e <-> truth F e).
  Proof.
    induction e as [l IH|e IH|x y IHx IHy| | | |k arg|arg|s d|k o] using expr_ind'; intros Hb; try reflexivity.
    - rewrite !truth_and. assert (HA : forall x, In x l -> (truth (with_rcpt F a) x <-> truth F x)).
      { intros x Hx. rewrite Forall_forall in IH. apply IH; auto. intros o Ho. apply Hb.
        clear -Hx Ho. induction l as [|z l IHl]; [destruct Hx|].
        change (operators (EAnd (z :: l))) with (operators z ++ operators (EAnd l)). apply in_or_app.
        destruct Hx as [->|Hx]; auto. }
      split; intros H; rewrite Forall_forall in *; intros x Hx; apply HA; auto.
    - cbn [truth]. rewrite IH; [reflexivity|]. intros o Ho. apply Hb. exact Ho.
    - cbn [truth]. rewrite IHx, IHy; [reflexivity| |]; intros o Ho; apply Hb; cbn [operators]; apply in_or_app; auto.
    - destruct k; try reflexivity. exfalso. specialize (Hb _ (or_introl eq_refl)). cbn in Hb. lia.
    - cbn [truth]. split; intros (n & Hn & HR); exists n; (split; [|exact HR]); destruct Hn as [A1 A2|n z A1 A2|l d' A1 A2 A3 A4 A5].
      + exact (DN_helo F s A1 A2).
      + exact (DN_host F s n z A1 A2).
      + exact (DN_from F s l d' A1 A2 A3 A4 A5).
      + exact (DN_helo (with_rcpt F a) s A1 A2).
      + exact (DN_host (with_rcpt F a) s n z A1 A2).
      + exact (DN_from (with_rcpt F a) s l d' A1 A2 A3 A4 A5).
    - destruct k; try reflexivity. exfalso. specialize (Hb _ (or_introl eq_refl)). cbn in Hb. lia.
  Qed.

  Lemma blind_consults F a e f : blind e -> (Consults (with_rcpt F a) e f <-> Consults F e f).
  Proof.
    induction e as [l IH|e IH|x y IHx IHy| | | |k arg|arg|s d|k o] using expr_ind'; intros Hb; try reflexivity.
    - induction IH as [|x l Hx _ IH]; [reflexivity|].
      change (Consults (with_rcpt F a) (EAnd (x :: l)) f) with (Consults (with_rcpt F a) x f \/ (truth (with_rcpt F a) x /\ Consults (with_rcpt F a) (EAnd l) f)).
      change (Consults F (EAnd (x :: l)) f) with (Consults F x f \/ (truth F x /\ Consults F (EAnd l) f)).
      assert (Hbx : blind x).
      { intros o Ho. apply Hb. change (operators (EAnd (x :: l))) with (operators x ++ operators (EAnd l)). apply in_or_app. auto. }
      rewrite Hx, IH, (blind_truth F a x); auto; [reflexivity|].
      intros o Ho. apply Hb. change (operators (EAnd (x :: l))) with (operators x ++ operators (EAnd l)). apply in_or_app. auto.
    - cbn [Consults]. apply IH. intros o Ho. apply Hb. exact Ho.
    - assert (blind x) by (intros o Ho; apply Hb; cbn [operators]; apply in_or_app; auto).
      assert (blind y) by (intros o Ho; apply Hb; cbn [operators]; apply in_or_app; auto).
      cbn [Consults]. rewrite IHx, IHy, (blind_truth F a x); auto. reflexivity.
  Qed.

  Lemma blind_misses F a e : blind e -> (misses (with_rcpt F a) e <-> misses F e).
  Proof.
    intros Hb. unfold misses. split; intros (f & H1 & H2); exists f; (split; [|exact H2]); [apply (blind_consults F a e f Hb)|apply (blind_consults F a e f Hb)]; auto.
  Qed.

  Lemma blind_passed F a cs : (forall rc, In rc cs -> blind (rc_expr rc)) -> Forall (passed (with_rcpt F a)) cs <-> Forall (passed F) cs.
  Proof.
    intros Hb. rewrite !Forall_forall. split; intros H rc Hrc; specialize (H rc Hrc); unfold passed in *;
      rewrite (blind_truth F a), (blind_misses F a) in *; auto.
  Qed.

  Lemma blind_Fires F a cs rc : (forall rc, In rc cs -> blind (rc_expr rc)) -> Fires (with_rcpt F a) cs rc <-> Fires F cs rc.
  Proof.
    intros Hb. unfold Fires. split; intros (p & q & -> & Hp & H1 & H2); exists p, q; (split; [reflexivity|]);
      (split; [apply (blind_passed F a); auto; intros; apply Hb; apply in_or_app; auto|]);
      (rewrite (blind_truth F a), (blind_misses F a) in *; auto; apply Hb; apply in_elt).
  Qed.

  Lemma blind_GivenUp F a cs : (forall rc, In rc cs -> blind (rc_expr rc)) -> GivenUp (with_rcpt F a) cs <-> GivenUp F cs.
  Proof.
    intros Hb. unfold GivenUp. split; intros (p & z & q & -> & Hp & H2); exists p, z, q; (split; [reflexivity|]);
      (split; [apply (blind_passed F a); auto; intros; apply Hb; apply in_or_app; auto|]);
      (rewrite (blind_misses F a) in *; auto; apply Hb; apply in_elt).
  Qed.

  Lemma skipped_eligible ph r : rule_phase_ok r -> skipped ph r = false <-> eligible ph r.
  Proof.
    intros _. unfold skipped, eligible, pltb. rewrite !orb_false_iff, !andb_false_iff, !Nat.ltb_ge, negb_false_iff.
    split.
    - intros [[H1 H2] H3]. split; auto. destruct H3 as [H3|H3].
      + destruct (peqb_spec (r_deferto r) pAny); [auto|discriminate].
      + right. apply pcode_inj. lia.
    - intros [H1 [H2|H2]]; rewrite H2; (split; [split; [auto|cbn; lia]|]); [left; reflexivity|right; lia].
  Qed.

  Lemma per_recipient_spec ph r : pltb pRto ph && pleb pRto (r_requires r) = true <-> per_recipient ph r.
  Proof. unfold per_recipient, pltb, pleb. rewrite andb_true_iff, Nat.ltb_lt, Nat.leb_le. reflexivity. Qed.

  Lemma decides_spec r : Nat.leb (acode aAccept) (acode (r_result r)) = true <-> decides r.
  Proof. unfold decides. destruct (r_result r); cbn; intuition discriminate. Qed.

  (** the state while going through the rules: only the recipient may be off,
      and only outside RCPT TO *)
  Definition at_facts (F : facts) (ph : phase) (c : ctx) : Prop :=
    facts_of W fv T c = F \/ (ph <> pRto /\ exists a, facts_of W fv T c = with_rcpt F a).

  Lemma at_facts_check F ph r c : at_facts F ph c -> rule_phase_ok r -> eligible ph r -> ~ per_recipient ph r ->
    (forall rc, Fires (facts_of W fv T c) (r_clauses r) rc <-> Fires F (r_clauses r) rc) /\
    (GivenUp (facts_of W fv T c) (r_clauses r) <-> GivenUp F (r_clauses r)).
  Proof.
    intros [->|[Hph (a & ->)]] Hr He Hp; [split; [intros|]; reflexivity|].
    assert (Hb : forall rc, In rc (r_clauses r) -> blind (rc_expr rc)).
    { intros rc Hrc o Ho. destruct Hr as (H1 & _). unfold per_recipient in Hp.
      assert (pcode (operator_phase o) <= pcode (r_requires r)).
      { apply H1. unfold rule_operators. apply in_flat_map. eauto. }
      destruct He as [He _]. assert (pcode ph <> pcode pRto) by (intros E; now apply Hph, pcode_inj). lia. }
    split; [intros rc; apply blind_Fires; auto|apply blind_GivenUp; auto].
  Qed.

  Lemma run_rules_sound F ph rs : Forall rule_phase_ok rs ->
    forall c a c', run_rules W T ph rs c = Ok (a, c') -> at_facts F ph c -> f_trans F = T -> started tr0 c -> sees W tr0 fv c' ->
    keeps c c' /\ exists ws, Run F ph rs a ws /\ c_withprops c' = fold_left set_all ws (c_withprops c).
  Proof.
    intros Hrs. induction Hrs as [|r rs Hr _ IH]; intros c a c' E HA HT HD HF; cbn [run_rules] in E.
    - injection E as <- <-. split; [apply keeps_refl|]. exists []. split; [constructor|reflexivity].
    - destruct (skipped ph r) eqn:Es.
      + destruct (IH c a c' E HA HT HD HF) as (K & ws & H1 & H2). split; auto. exists ws. split; auto.
        apply Run_pass; auto. intros He. apply (skipped_eligible ph r Hr) in He. congruence.
      + apply (skipped_eligible ph r Hr) in Es. unfold mbind at 1, upd in E. unfold mbind at 1 in E.
        set (c0 := set_rulemiss false c) in E.
        assert (HA0 : at_facts F ph c0) by exact HA. assert (HD0 : started tr0 c0) by exact HD.
        match type of E with match ?m c0 with _ => _ end = _ => destruct (m c0) as [[b c1]| |] eqn:E1; try discriminate end.
        assert (S1 : dsteps W c0 c1) by (destruct (_ && _) in E1; [eapply druns_each|eapply druns_check]; eauto).
        assert (HD1 : started tr0 c1) by (eapply dsteps_started; eauto).
        (* what running the rule did *)
        assert (HC : sees W tr0 fv c1 -> keeps c c1 /\ at_facts F ph c1 /\
          (b = true -> c_rulemiss c1 = false /\ exists rc, Matches F ph r rc /\ c_withprops c1 = set_all (c_withprops c) (rc_withs rc)) /\
          (b = false -> c_withprops c1 = c_withprops c /\ forall rc, ~ Matches F ph r rc)).
        { intros HF1. destruct (pltb pRto ph && pleb pRto (r_requires r)) eqn:Ep.
          - apply per_recipient_spec in Ep.
            destruct (each_sound r (t_rcptto T) c0 b c1 E1 eq_refl HD0 HF1) as (K & B1 & B2).
            assert (EF : forall x, with_rcpt (facts_of W fv T c0) x = with_rcpt F x).
            { intros x. destruct HA0 as [<-|[_ (y & ->)]]; reflexivity. }
            split; [destruct K; constructor; auto|]. split.
            { right. split; [intros ->; destruct Ep; lia|]. exists (c_rcptto c1). destruct K.
              destruct HA0 as [<-|[_ (y & HA0)]]; [unfold facts_of, with_rcpt; cbn in *; congruence|].
              unfold facts_of, with_rcpt in *. injection HA0 as ? ? ? ? ? ?. cbn in *. subst. congruence. }
            split.
            + intros Hb. destruct (B1 Hb) as (M1 & pre & x & post & rc & El & Hp & H1 & H2). split; auto.
              exists rc. split; [|exact H2]. right. split; auto. exists pre, x, post. rewrite HT. split; auto.
              rewrite EF in H1. split; auto. eapply Forall_impl; [|exact Hp]. intros z. cbv beta. now rewrite EF.
            + intros Hb. destruct (B2 Hb) as (W1 & HC). split; [exact W1|]. intros rc [[Hn _]|(_ & pre & x & post & El & Hp & HFi)]; [contradiction|].
              rewrite HT in El. destruct HC as [(_ & HC)|(_ & pre' & x' & post' & El' & Hp' & HG)].
              * rewrite El in HC. apply Forall_app in HC as [_ HC]. inversion HC as [|? ? [HC1 _] _]; subst.
                rewrite EF in HC1. eapply HC1; eauto.
              * rewrite El in El'. clear -El' Hp Hp' HG HFi EF. revert pre' El' Hp'. induction pre as [|y pre IHp]; intros [|y' pre'] El' Hp'; injection El' as -> El'.
                -- rewrite EF in HG. eapply Fires_GivenUp; eauto.
                -- inversion Hp' as [|? ? [H1 _] _]; subst. rewrite EF in H1. eapply H1; eauto.
                -- inversion Hp as [|? ? [_ H2] _]; subst. rewrite EF in HG. contradiction.
                -- inversion Hp; inversion Hp'; subst. eapply IHp; eauto.
          - assert (Hp : ~ per_recipient ph r) by (rewrite <- per_recipient_spec, Ep; discriminate).
            destruct (check_sound r c0 b c1 E1 HD0 HF1) as (K & R & B1 & B2).
            destruct (at_facts_check F ph r c0 HA0 Hr Es Hp) as [EF EG].
            split; [destruct K; constructor; auto|]. split.
            { assert (EFa : facts_of W fv T c1 = facts_of W fv T c0) by (destruct K; unfold facts_of; congruence).
              unfold at_facts in *. rewrite EFa. exact HA0. }
            split.
            + intros Hb. destruct (B1 Hb) as (rc & H1 & H2 & H3). split; auto. exists rc. split; [|exact H2].
              left. split; auto. apply EF; auto.
            + intros Hb. destruct (B2 Hb) as (H1 & H2 & H3). split; [exact H2|]. intros rc [[_ H]|[H _]]; [|contradiction].
              eapply H1. apply EF. eauto. }
        unfold mbind, get in E. destruct (c_rulemiss c1) eqn:Em.
        * assert (S2 : dsteps W c1 c') by (eapply druns_rules; eauto).
          destruct (HC (dsteps_sees _ _ _ _ _ S2 HF)) as (K & HA1 & B1 & B2).
          destruct b; [destruct (B1 eq_refl); congruence|]. destruct (B2 eq_refl) as (W1 & HN).
          destruct (IH c1 a c' E HA1 HT HD1 HF) as (K2 & ws & H1 & H2). split; [eapply keeps_trans; eauto|].
          exists ws. split; [apply Run_pass; auto|]. rewrite H2, W1. reflexivity.
        * destruct (b && Nat.leb (acode aAccept) (acode (r_result r))) eqn:Eb.
          -- injection E as <- <-. apply andb_true_iff in Eb as [-> Eb]. apply decides_spec in Eb.
             destruct (HC HF) as (K & HA1 & B1 & B2). split; auto. destruct (B1 eq_refl) as (_ & rc & H1 & H2).
             exists [rc_withs rc]. split; [apply Run_decide; auto|exact H2].
          -- assert (S2 : dsteps W c1 c') by (eapply druns_rules; eauto).
             destruct (HC (dsteps_sees _ _ _ _ _ S2 HF)) as (K & HA1 & B1 & B2).
             destruct (IH c1 a c' E HA1 HT HD1 HF) as (K2 & ws & H1 & H2). split; [eapply keeps_trans; eauto|].
             destruct b; cbn [andb] in Eb.
             ++ destruct (B1 eq_refl) as (_ & rc & H3 & H4). exists (rc_withs rc :: ws). split.
                ** apply Run_set; auto. intros H. apply decides_spec in H. congruence.
                ** cbn [fold_left]. rewrite H2, H4. reflexivity.
             ++ destruct (B2 eq_refl) as (W1 & HN). exists ws. split; [apply Run_pass; auto|]. rewrite H2, W1. reflexivity.
  Qed.
End Decide.
