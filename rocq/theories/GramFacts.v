(** Files built from complete lines: how the reading of a whole file is made
    up from the readings of its parts, and which include lines it follows. *)
From Verif Require Import Bytes Outcome Lexer LexSpec LexProofs Layout Ast GoNet Parser Grammar
  ParseProofs ParseComplete GramStrip.

(** ** No rule ends with an end of line *)
Definition ends_ok (ts : list item) : Prop := exists a e, ts = a ++ [e] /\ i_typ e <> itemEOL.

Lemma ends_ok_app a b : ends_ok b -> ends_ok (a ++ b).
Proof. intros (x & e & -> & H). exists (a ++ x), e. rewrite app_assoc. auto. Qed.
Lemma ends_ok_cons a b : ends_ok b -> ends_ok (a :: b).
Proof. apply (ends_ok_app [a]). Qed.
Lemma ends_ok_one e : i_typ e <> itemEOL -> ends_ok [e].
Proof. exists [], e. auto. Qed.
Lemma ends_ok_snoc a e : ends_ok (a ++ [e]) -> i_typ e <> itemEOL.
Proof. intros (x & e' & H & He). apply app_inj_tail in H as [_ ->]. exact He. Qed.

Lemma is_arg_ends a : is_arg a -> i_typ a <> itemEOL.
Proof. unfold is_arg. tauto. Qed.

Lemma GOpts_ends tbl ts o : (forall t x, In (t, x) tbl -> t <> itemEOL) -> GOpts tbl ts o -> ends_ok ts.
Proof.
  intros Ht. induction 1.
  - apply ends_ok_one. eapply Ht; eauto.
  - do 2 apply ends_ok_cons. auto.
Qed.

Ltac tbl_noeol := let t := fresh in let x := fresh in let H := fresh in
  intros t x H; simpl in H; repeat (destruct H as [H|H]; [injection H as <- <-; discriminate|]); contradiction.

Lemma G_ends :
  (forall ts e, GTerm ts e -> ends_ok ts) /\ (forall ts e, GOrl ts e -> ends_ok ts) /\
  (forall ts es, GSeries ts es -> ends_ok ts) /\ (forall ts e, GAndl ts e -> ends_ok ts).
Proof.
  apply G_mutind; intros; auto using ends_ok_cons, ends_ok_app.
  - apply ends_ok_cons, ends_ok_app, ends_ok_one. congruence.
  - apply ends_ok_one. congruence.
  - apply ends_ok_cons, ends_ok_one. destruct b; congruence.
  - apply ends_ok_cons. eapply GOpts_ends; eauto.
    destruct (i_typ k); try discriminate; simpl in e; injection e as <- <-; tbl_noeol.
  - apply ends_ok_cons, ends_ok_one, is_arg_ends; auto.
  - apply ends_ok_cons, ends_ok_one. destruct i as [E|[E _]]; congruence.
  - apply ends_ok_cons, ends_ok_one. destruct i as [E _]; congruence.
  - apply ends_ok_cons, ends_ok_one, is_arg_ends; auto.
  - apply ends_ok_cons, ends_ok_app, ends_ok_one. destruct i as [E _]; congruence.
Qed.

Lemma GWterm_ends ts kv : GWterm ts kv -> ends_ok ts.
Proof.
  destruct 1; try (apply ends_ok_cons, ends_ok_one, is_arg_ends; assumption).
  apply ends_ok_one. congruence.
Qed.
Lemma GWiths_ends seen ts kvs : GWiths seen ts kvs -> ends_ok ts.
Proof.
  induction 1; [eapply GWterm_ends; eauto|]. apply ends_ok_cons, ends_ok_app; auto.
Qed.
Lemma GClause_ends ts c : GClause ts c -> ends_ok ts.
Proof.
  destruct 1 as [ts e H|ts e w wts kvs H Hw HW]; [apply (proj2 (proj2 (proj2 G_ends))) in H; auto|].
  apply ends_ok_app, ends_ok_cons. eapply GWiths_ends; eauto.
Qed.
Lemma GClauses_ends ts c : GClauses ts c -> ends_ok ts.
Proof.
  induction 1; [eapply GClause_ends; eauto|]. apply ends_ok_app, ends_ok_cons, ends_ok_app; auto.
Qed.
Lemma GRule_ends ts r : GRule ts r -> ends_ok ts.
Proof. destruct 1. apply ends_ok_app, ends_ok_cons. eapply GClauses_ends; eauto. Qed.

(** ** Complete lines *)
Definition lines_complete (a : list item) : Prop :=
  a = [] \/ exists a' nl, a = a' ++ [nl] /\ i_typ nl = itemEOL.

Lemma lines_complete_tail a b : lines_complete (a ++ b) -> lines_complete b.
Proof.
  intros [H|(a' & nl & E & Hn)].
  - apply app_eq_nil in H. left. tauto.
  - destruct b as [|x b]; [left; auto|right].
    destruct (exists_last (l := x :: b)) as (b' & y & E'); [discriminate|]. rewrite E' in *.
    exists b', y. split; auto. rewrite app_assoc in E. apply app_inj_tail in E as [_ ->]. auto.
Qed.

Lemma app_snoc_split {A} (x : list A) y b a e : x ++ y :: b = a ++ [e] -> b <> [] ->
  exists b', b = b' ++ [e] /\ a = x ++ y :: b'.
Proof.
  intros E Hb. destruct (exists_last Hb) as (b' & z & ->).
  change (x ++ y :: b' ++ [z]) with (x ++ ((y :: b') ++ [z])) in E. rewrite app_assoc in E.
  apply app_inj_tail in E as [<- ->]. exists b'. auto.
Qed.

Lemma GFile_nonempty incl t ts rs t' : GFile incl t ts rs t' -> ts <> [].
Proof.
  destruct 1; try discriminate; destruct ts; discriminate.
Qed.

Lemma GFile_app incl ts1 t rs1 t1 :
  GFile incl t ts1 rs1 t1 -> forall a e, ts1 = a ++ [e] -> lines_complete a ->
  forall ts2 rs2 t2, GFile incl t1 ts2 rs2 t2 -> GFile incl t (a ++ ts2) (rs1 ++ rs2) t2.
Proof.
  induction 1 as [e t He|t ts r e rest rs t' Hr He HF IH|t ts r e Hr He
    |t k a e rest rl rs t1 t' Hk Ha He Hi HF IH|t k a e rl t1 Hk Ha He Hi];
    intros a0 e0 E Hnl ts2 rs2 t2 H2.
  - destruct a0 as [|x a0]; [|destruct a0; discriminate]. exact H2.
  - destruct (app_snoc_split _ _ _ _ _ E (GFile_nonempty _ _ _ _ _ HF)) as (b & -> & ->).
    rewrite <- app_assoc. simpl. apply GF_rule; auto.
    apply (IH b e0); auto. apply (lines_complete_tail (ts ++ [e])). rewrite <- app_assoc. exact Hnl.
  - apply app_inj_tail in E. destruct E as [<- <-]. exfalso.
    pose proof (GRule_ends _ _ Hr) as HE. destruct Hnl as [->|(a' & nl & -> & Hnl)].
    + destruct HE as (x & y & E & _). destruct x; discriminate.
    + apply ends_ok_snoc in HE. auto.
  - change (k :: a :: e :: rest) with ([k; a] ++ e :: rest) in E.
    destruct (app_snoc_split _ _ _ _ _ E (GFile_nonempty _ _ _ _ _ HF)) as (b & -> & ->).
    simpl. rewrite <- app_assoc. eapply GF_include; eauto.
    apply (IH b e0); auto. apply (lines_complete_tail [k; a; e]). exact Hnl.
  - exfalso. change [k; a; e] with ([k; a] ++ [e]) in E. apply app_inj_tail in E as [<- <-].
    destruct Hnl as [E|(a' & nl & E & Hn)]; [discriminate|].
    change [k; a] with ([k] ++ [a]) in E. apply app_inj_tail in E as [_ ->]. apply is_arg_ends in Ha. auto.
Qed.

(** Token sequences in which no end marker stands before the end. *)
Definition no_end (a : list item) : Prop := forall i, In i a -> i_typ i <> itemEOF.

(** Where a rule ends is determined by the tokens. *)
Lemma GRule_split ts r e rest ts' r' e' rest' :
  GRule ts r -> GRule ts' r' -> ts ++ e :: rest = ts' ++ e' :: rest' ->
  (i_typ e = itemEOL \/ i_typ e = itemEOF) -> (i_typ e' = itemEOL \/ i_typ e' = itemEOF) ->
  ts = ts' /\ r = r' /\ e = e' /\ rest = rest'.
Proof.
  intros H1 H2 E He He'. set (p := mkPS [] (ts ++ e :: rest) pAny pAny aError [] 0).
  destruct (pRule_complete ts r p e rest H1 eq_refl He) as (p1 & E1 & _ & _ & E2).
  destruct (pRule_complete ts' r' p e' rest' H2 E He') as (p1' & E1' & _ & _ & E2').
  assert (Hp : p1 = p1') by congruence. subst p1'.
  assert (r = r') by congruence. subst r'. rewrite E2 in E2'.
  destruct He as [He|He]; destruct He' as [He'|He']; rewrite He, He' in E2'; simpl in E2'.
  - subst rest'.
    change (ts ++ e :: rest) with (ts ++ ([e] ++ rest)) in E. change (ts' ++ e' :: rest) with (ts' ++ ([e'] ++ rest)) in E.
    rewrite !app_assoc in E. apply app_inv_tail in E. apply app_inj_tail in E as [-> ->]. auto.
  - subst rest. change (ts ++ e :: e' :: rest') with (ts ++ ([e] ++ (e' :: rest'))) in E.
    rewrite app_assoc in E. apply app_inv_tail in E. subst ts'. apply GRule_ends, ends_ok_snoc in H2. contradiction.
  - subst rest'. change (ts' ++ e' :: e :: rest) with (ts' ++ ([e'] ++ (e :: rest))) in E.
    rewrite app_assoc in E. apply app_inv_tail in E. subst ts. apply GRule_ends, ends_ok_snoc in H1. contradiction.
  - injection E2' as -> ->. apply app_inv_tail in E. auto.
Qed.

Lemma GFile_app_inv (incl : nat -> bytes -> list rule -> nat -> Prop) ts1 t rs1 t1 :
  (forall t n r s r' s', incl t n r s -> incl t n r' s' -> r = r' /\ s = s') ->
  GFile incl t ts1 rs1 t1 -> forall a e, ts1 = a ++ [e] -> lines_complete a ->
  forall ts2 rs t2, GFile incl t (a ++ ts2) rs t2 ->
  exists rs2, rs = rs1 ++ rs2 /\ GFile incl t1 ts2 rs2 t2.
Proof.
  intros Hdet.
  induction 1 as [e t He|t ts r e rest rs1 t' Hr He HF IH|t ts r e Hr He
    |t k a e rest rl rs1 t1 t' Hk Ha He Hi HF IH|t k a e rl t1 Hk Ha He Hi];
    intros a0 e0 E Hnl ts2 rs t2 H2.
  - destruct a0 as [|x a0]; [|destruct a0; discriminate]. exists rs. auto.
  - destruct (app_snoc_split _ _ _ _ _ E (GFile_nonempty _ _ _ _ _ HF)) as (b & -> & ->).
    rewrite <- app_assoc in H2. simpl in H2.
    destruct (GRule_start _ _ Hr) as (k & ts' & Ek & Hk & Hk').
    inversion H2 as [e2 t2' He2 E2 E3|t0 ts3 r3 e3 rest3 rs3 t3' HR3 He3 HF3 Et3 E3|t0 ts3 r3 e3 HR3 He3 Et3 E3
      |t0 k3 a3 e3 rest3 rl3 rs3 t3 t3' Hk3 Ha3 He3 Hi3 HF3 Et3 E3|t0 k3 a3 e3 rl3 t3 Hk3 Ha3 He3 Hi3 Et3 E3].
    + exfalso. subst ts. destruct ts'; discriminate.
    + destruct (GRule_split _ _ _ _ _ _ _ _ HR3 Hr E3 (or_introl He3) (or_introl He)) as (-> & -> & -> & ->).
      destruct (IH b e0 eq_refl) with (ts2 := ts2) (rs := rs3) (t2 := t2) as (rs2 & -> & HG2); auto.
      { apply (lines_complete_tail (ts ++ [e])). rewrite <- app_assoc. exact Hnl. }
      exists rs2. auto.
    + destruct (GRule_split _ _ _ _ _ _ _ _ HR3 Hr E3 (or_intror He3) (or_introl He)) as (_ & _ & -> & _). congruence.
    + exfalso. rewrite Ek in E3. injection E3 as -> E3. congruence.
    + exfalso. rewrite Ek in E3. injection E3 as -> E3. congruence.
  - apply app_inj_tail in E. destruct E as [<- <-]. exfalso.
    pose proof (GRule_ends _ _ Hr) as HE. destruct Hnl as [->|(a' & nl & -> & Hnl)].
    + destruct HE as (x & y & E & _). destruct x; discriminate.
    + apply ends_ok_snoc in HE. auto.
  - change (k :: a :: e :: rest) with ([k; a] ++ e :: rest) in E.
    destruct (app_snoc_split _ _ _ _ _ E (GFile_nonempty _ _ _ _ _ HF)) as (b & -> & ->).
    simpl in H2.
    inversion H2 as [e2 t2' He2 E2 E3|t0 ts3 r3 e3 rest3 rs3 t3' HR3 He3 HF3 Et3 E3|t0 ts3 r3 e3 HR3 He3 Et3 E3
      |t0 k3 a3 e3 rest3 rl3 rs3 t3 t3' Hk3 Ha3 He3 Hi3 HF3 Et3 E3|t0 k3 a3 e3 rl3 t3 Hk3 Ha3 He3 Hi3 Et3 E3].
    + exfalso. destruct (GRule_start _ _ HR3) as (k' & ts' & -> & Hk' & _). injection E3 as -> _. auto.
    + exfalso. destruct (GRule_start _ _ HR3) as (k' & ts' & -> & Hk' & _). injection E3 as -> _. auto.
    + subst. destruct (Hdet _ _ _ _ _ _ Hi Hi3) as [-> ->].
      destruct (IH b e0 eq_refl) with (ts2 := ts2) (rs := rs3) (t2 := t2) as (rs2 & -> & HG2); auto.
      { apply (lines_complete_tail [k; a; e]). exact Hnl. }
      exists rs2. rewrite app_assoc. auto.
    + congruence.
  - exfalso. change [k; a; e] with ([k; a] ++ [e]) in E. apply app_inj_tail in E as [<- <-].
    destruct Hnl as [E|(a' & nl & E & Hn)]; [discriminate|].
    change [k; a] with ([k] ++ [a]) in E. apply app_inj_tail in E as [_ ->]. apply is_arg_ends in Ha. auto.
Qed.

(** ** Include lines are followed *)

(** [k a] stands at the start of a line *)
Definition line_start (ts : list item) (k a : item) : Prop :=
  exists pre post, ts = pre ++ k :: a :: post /\ lines_complete pre.

(** inside a rule an end of line is followed by the start of a term *)
Definition eol_cont (ts : list item) : Prop :=
  forall pre e post, ts = pre ++ e :: post -> i_typ e = itemEOL ->
  exists k post', post = k :: post' /\ term_start (i_typ k) = true.

Definition no_eol (ts : list item) : Prop := forall i, In i ts -> i_typ i <> itemEOL.

Lemma no_eol_nil : no_eol [].
Proof. intros i []. Qed.
Lemma no_eol_cons a b : i_typ a <> itemEOL -> no_eol b -> no_eol (a :: b).
Proof. intros H1 H2 i [<-|Hi]; auto. Qed.
Lemma no_eol_app a b : no_eol a -> no_eol b -> no_eol (a ++ b).
Proof. intros H1 H2 i Hi. apply in_app_or in Hi as [Hi|Hi]; auto. Qed.

Ltac noeol := repeat match goal with |- no_eol _ => first [apply no_eol_nil | apply no_eol_cons | apply no_eol_app] end.

Lemma GOpts_noeol tbl ts o : (forall t x, In (t, x) tbl -> t <> itemEOL) -> GOpts tbl ts o -> no_eol ts.
Proof.
  intros Ht. induction 1.
  - apply no_eol_cons; [eapply Ht; eauto|apply no_eol_nil].
  - apply no_eol_cons; [eapply Ht; eauto|]. apply no_eol_cons; auto. congruence.
Qed.

Lemma G_noeol :
  (forall ts e, GTerm ts e -> no_eol ts) /\ (forall ts e, GOrl ts e -> no_eol ts) /\
  (forall ts es, GSeries ts es -> no_eol ts) /\ (forall ts e, GAndl ts e -> no_eol ts).
Proof.
  apply G_mutind; intros; auto using no_eol_app;
    noeol; auto; try congruence.
  all: try (match goal with b : bool |- _ => destruct b; congruence end).
  all: try (apply is_arg_ends; assumption).
  all: try (match goal with i : is_ip_arg _ |- _ => destruct i as [E|[E _]]; congruence end).
  all: try (match goal with i : is_domain _ _ |- _ => destruct i as [E _]; congruence end).
  all: try (eapply GOpts_noeol; eauto; tbl_noeol).
  all: try (match goal with e : option_kind _ = _ |- _ <> _ => intros E; rewrite E in e; discriminate end).
  all: try (match goal with e : match_kind _ = _ |- _ <> _ => intros E; rewrite E in e; discriminate end).
  - eapply GOpts_noeol; eauto.
    destruct (i_typ k); try discriminate; simpl in e; injection e as <- <-; tbl_noeol.
Qed.

Lemma GWterm_noeol ts kv : GWterm ts kv -> no_eol ts.
Proof.
  destruct 1; noeol; auto using is_arg_ends; congruence.
Qed.
Lemma GWiths_noeol seen ts kvs : GWiths seen ts kvs -> no_eol ts.
Proof.
  induction 1; [eapply GWterm_noeol; eauto|].
  change (k :: ts ++ ts') with ((k :: ts) ++ ts'). apply no_eol_app; auto. eapply GWterm_noeol; eauto.
Qed.
Lemma GClause_noeol ts c : GClause ts c -> no_eol ts.
Proof.
  destruct 1 as [ts e H|ts e w wts kvs H Hw HW]; [apply (proj2 (proj2 (proj2 G_noeol))) in H; auto|].
  apply no_eol_app; [apply (proj2 (proj2 (proj2 G_noeol))) in H; auto|].
  apply no_eol_cons; [congruence|]. eapply GWiths_noeol; eauto.
Qed.

Lemma no_eol_cont ts : no_eol ts -> eol_cont ts.
Proof. intros H pre e post -> He. exfalso. apply (H e); auto. apply in_elt. Qed.

Lemma eol_cont_app a b : no_eol a -> eol_cont b -> eol_cont (a ++ b).
Proof.
  intros Ha Hb pre e post E He.
  destruct (app_eq_app _ _ _ _ E) as (l & [[E1 E2]|[E1 E2]]).
  - destruct l as [|x l].
    + simpl in E2. apply (Hb [] e post); auto.
    + exfalso. simpl in E2. injection E2 as <- E2. apply (Ha e); auto. rewrite E1. apply in_elt.
  - apply (Hb l e post); auto.
Qed.

Lemma GClauses_starts ts cs : GClauses ts cs -> exists k ts', ts = k :: ts' /\ term_start (i_typ k) = true.
Proof.
  assert (HC : forall ts c, GClause ts c -> exists k ts', ts = k :: ts' /\ term_start (i_typ k) = true).
  { destruct 1 as [t e [t' es H]|t e w wts kvs [t' es H] Hw HW];
      apply GSeries_start in H as (k & ts' & -> & Hk); simpl; eauto. }
  destruct 1 as [t c H|t c s eol ts' cs H Hs He HCs]; apply HC in H as (k & ts'' & -> & Hk); simpl; eauto.
Qed.

Lemma GClauses_cont ts cs : GClauses ts cs -> eol_cont ts.
Proof.
  induction 1 as [ts c H|ts c s eol ts' cs H Hs He HCs IH].
  - apply no_eol_cont. eapply GClause_noeol; eauto.
  - apply eol_cont_app; [eapply GClause_noeol; eauto|].
    apply (eol_cont_app [s]); [apply no_eol_cons; [congruence|apply no_eol_nil]|].
    destruct He as [->|(e & -> & He)]; [exact IH|].
    intros pre e' post E He'. destruct pre as [|x pre].
    + simpl in E. injection E as <- <-. destruct (GClauses_starts _ _ HCs) as (k & t & -> & Hk). eauto.
    + simpl in E. injection E as <- E. apply (IH pre e' post); auto.
Qed.

Lemma GRule_cont ts r : GRule ts r -> eol_cont ts.
Proof.
  destruct 1 as [pts ph a act ts cs Hp Ha Hc Hsw Hph].
  apply eol_cont_app.
  - destruct Hp; [apply no_eol_nil|]. apply no_eol_cons; [|apply no_eol_nil].
    intros E. rewrite E in H. discriminate.
  - apply (eol_cont_app [a]); [apply no_eol_cons; [|apply no_eol_nil]|eapply GClauses_cont; eauto].
    intros E. rewrite E in Ha. discriminate.
Qed.

Lemma app_in_first {A} (ts : list A) e rest pre k post :
  ts ++ e :: rest = pre ++ k :: post ->
  (exists s, pre = ts ++ e :: s /\ rest = s ++ k :: post) \/
  (pre = ts /\ e = k /\ rest = post) \/
  (exists s, ts = pre ++ k :: s /\ post = s ++ e :: rest).
Proof.
  intros E. destruct (app_eq_app _ _ _ _ E) as (l & [[E1 E2]|[E1 E2]]).
  - destruct l as [|x l].
    + rewrite app_nil_r in E1. simpl in E2. injection E2 as -> ->. right; left. auto.
    + simpl in E2. injection E2 as -> ->. right; right. eauto.
  - destruct l as [|x l].
    + rewrite app_nil_r in E1. simpl in E2. injection E2 as -> ->. right; left. auto.
    + simpl in E2. injection E2 as -> ->. left. eauto.
Qed.

Lemma GFile_includes incl t ts rs t' : GFile incl t ts rs t' ->
  forall k a, line_start ts k a -> i_typ k = itemInclude ->
  exists t1 rl t2, incl t1 (i_val a) rl t2.
Proof.
  induction 1 as [e t He|t ts r e rest rs1 t' Hr He HF IH|t ts r e Hr He
    |t k0 a0 e rest rl rs1 t1 t' Hk Ha He Hi HF IH|t k0 a0 e rl t1 Hk Ha He Hi];
    intros k a (pre & post & E & Hl) Hki.
  - destruct pre as [|x pre]; [discriminate|]. destruct pre; discriminate.
  - destruct (app_in_first _ _ _ _ _ _ E) as [(s & -> & Es)|[(-> & -> & _)|(s & -> & Es)]].
    + apply (IH k a); auto. exists s, post. split; auto.
      apply (lines_complete_tail (ts ++ [e])). rewrite <- app_assoc. exact Hl.
    + congruence.
    + exfalso. destruct Hl as [->|(pre' & nl & -> & Hn)].
      * destruct (GRule_start _ _ Hr) as (k' & ts' & Ek & Hk & _). simpl in Ek. injection Ek as -> _. auto.
      * pose proof (GRule_cont _ _ Hr) as HC. rewrite <- app_assoc in HC. simpl in HC.
        destruct (HC pre' nl (k :: s) eq_refl Hn) as (k' & p' & Ek & Hts). injection Ek as -> _.
        rewrite Hki in Hts. discriminate.
  - destruct (app_in_first _ _ _ _ _ _ E) as [(s & _ & Es)|[(_ & -> & _)|(s & -> & Es)]].
    + destruct s; discriminate.
    + congruence.
    + exfalso. destruct Hl as [->|(pre' & nl & -> & Hn)].
      * destruct (GRule_start _ _ Hr) as (k' & ts' & Ek & Hk & _). simpl in Ek. injection Ek as -> _. auto.
      * pose proof (GRule_cont _ _ Hr) as HC. rewrite <- app_assoc in HC. simpl in HC.
        destruct (HC pre' nl (k :: s) eq_refl Hn) as (k' & p' & Ek & Hts). injection Ek as -> _.
        rewrite Hki in Hts. discriminate.
  - destruct pre as [|x [|y [|z pre]]].
    + simpl in E. injection E as <- <- <-. eauto.
    + exfalso. simpl in E. injection E as <- _ _. destruct Hl as [El|(p' & nl & El & Hn)]; [discriminate|].
      destruct p' as [|? [|]]; try discriminate. injection El as <-. congruence.
    + exfalso. simpl in E. injection E as <- <- _. destruct Hl as [El|(p' & nl & El & Hn)]; [discriminate|].
      destruct p' as [|? [|? [|]]]; try discriminate. simpl in El. injection El as <- <-. apply is_arg_ends in Ha. auto.
    + simpl in E. injection E as <- <- <- ->. apply (IH k a); auto. exists pre, post. split; auto.
      apply (lines_complete_tail [k0; a0; e]). exact Hl.
  - destruct pre as [|x [|y [|z pre]]].
    + simpl in E. injection E as <- <- <-. eauto.
    + exfalso. simpl in E. injection E as <- _ _. destruct Hl as [El|(p' & nl & El & Hn)]; [discriminate|].
      destruct p' as [|? [|]]; try discriminate. injection El as <-. congruence.
    + exfalso. discriminate.
    + exfalso. destruct pre; discriminate.
Qed.
