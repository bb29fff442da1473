(** The grammar looks only at the types and texts of tokens, not at where they
    stand in the file. *)
From Verif Require Import Bytes Outcome Lexer LexSpec LexProofs Layout Ast GoNet Grammar.

Definition sim (a b : item) : Prop := i_typ a = i_typ b /\ i_val a = i_val b.
Notation sims := (Forall2 sim).

Lemma strip_sims a b : strip a = strip b <-> sims a b.
Proof.
  split.
  - revert b; induction a as [|x a IH]; intros [|y b] H; try discriminate; constructor.
    + injection H as H1 H2 H3. split; auto.
    + apply IH. injection H as H1 H2 H3. exact H3.
  - induction 1 as [|x y a b [H1 H2] _ IH]; auto. simpl. rewrite H1, H2, IH. reflexivity.
Qed.

Lemma is_arg_sim a b : sim a b -> is_arg a -> is_arg b.
Proof. intros [H1 H2]. unfold is_arg. rewrite H1. auto. Qed.
Lemma is_ip_arg_sim a b : sim a b -> is_ip_arg a -> is_ip_arg b.
Proof. intros [H1 H2]. unfold is_ip_arg. rewrite H1, H2. auto. Qed.
Lemma is_domain_sim a b d : sim a b -> is_domain a d -> is_domain b d.
Proof. intros [H1 H2]. unfold is_domain. rewrite H1, H2. auto. Qed.

Ltac inv_sims := repeat match goal with
  | H : sims (_ :: _) _ |- _ => inversion H; subst; clear H
  | H : sims [] _ |- _ => inversion H; subst; clear H
  | H : sims (_ ++ _) _ |- _ => apply Forall2_app_inv_l in H; destruct H as (? & ? & ? & ? & ->)
  end.
Ltac sim_types := repeat match goal with
  | H : sim ?a ?b |- _ =>
      let T := fresh "Tt" in let V := fresh "Tv" in
      pose proof (proj1 H) as T; pose proof (proj2 H) as V; generalize H; clear H
  end; intros.

Lemma GOpts_sims tbl ts o : GOpts tbl ts o -> forall ts', sims ts ts' -> GOpts tbl ts' o.
Proof.
  induction 1; intros ts' Hs; inv_sims; sim_types.
  - constructor. congruence.
  - apply GO_more; auto; congruence.
Qed.

Lemma G_sims :
  (forall ts e, GTerm ts e -> forall ts', sims ts ts' -> GTerm ts' e) /\
  (forall ts e, GOrl ts e -> forall ts', sims ts ts' -> GOrl ts' e) /\
  (forall ts es, GSeries ts es -> forall ts', sims ts ts' -> GSeries ts' es) /\
  (forall ts e, GAndl ts e -> forall ts', sims ts ts' -> GAndl ts' e).
Proof.
  apply G_mutind; intros; inv_sims; sim_types.
  - apply GT_not; auto; congruence.
  - apply GT_paren; auto; congruence.
  - apply GT_all; congruence.
  - apply GT_tls; congruence.
  - eapply GT_opts; [|eapply GOpts_sims; eauto]. congruence.
  - match goal with |- GTerm [_; ?y] _ => rewrite Tv end. apply GT_match; [congruence|eapply is_arg_sim; eauto].
  - rewrite Tv. apply GT_ip; [congruence|eapply is_ip_arg_sim; eauto].
  - apply GT_dnsbl; [congruence|eapply is_domain_sim; eauto].
  - rewrite Tv. apply GT_source; [congruence|eapply is_arg_sim; eauto].
  - apply GT_dbl; [congruence|eapply GOpts_sims; eauto|eapply is_domain_sim; eauto].
  - apply GOr_one; auto.
  - apply GOr_or; auto; congruence.
  - apply GS_one; auto.
  - apply GS_more; auto.
  - apply GA; auto.
Qed.

Lemma GWterm_sims ts kv : GWterm ts kv -> forall ts', sims ts ts' -> GWterm ts' kv.
Proof.
  induction 1; intros ts' Hs; inv_sims; sim_types.
  - rewrite Tv, Tv0. apply GW_message; [congruence|eapply is_arg_sim; eauto].
  - rewrite Tv, Tv0. apply GW_savedir; [congruence|eapply is_arg_sim; eauto].
  - rewrite Tv, Tv0. apply GW_note; [congruence|eapply is_arg_sim; eauto|congruence].
  - rewrite Tv, Tv0. apply GW_tlsopt; [congruence|eapply is_arg_sim; eauto|].
    rewrite <- ?Tv, <- ?Tv0. assumption.
  - rewrite Tv. apply GW_yakker. congruence.
Qed.

Lemma GWiths_sims seen ts kvs : GWiths seen ts kvs -> forall ts', sims ts ts' -> GWiths seen ts' kvs.
Proof.
  induction 1; intros ts'' Hs; inv_sims; sim_types.
  - apply GWs_one; [eapply GWterm_sims; eauto|congruence].
  - apply GWs_more; [eapply GWterm_sims; eauto|congruence|auto].
Qed.

Lemma GClause_sims ts c : GClause ts c -> forall ts', sims ts ts' -> GClause ts' c.
Proof.
  pose proof (proj2 (proj2 (proj2 G_sims))) as HA.
  induction 1; intros ts' Hs; inv_sims; sim_types.
  - apply GC_plain; eauto.
  - apply GC_with; eauto; [congruence|eapply GWiths_sims; eauto].
Qed.

Lemma GClauses_sims ts cs : GClauses ts cs -> forall ts', sims ts ts' -> GClauses ts' cs.
Proof.
  induction 1 as [ts c Hc|ts c s eol ts2 cs Hc Hsm He Hcs IH]; intros ts' Hs.
  - apply GCs_one. eapply GClause_sims; eauto.
  - inv_sims. sim_types. apply GCs_more; auto.
    + eapply GClause_sims; eauto.
    + congruence.
    + destruct He as [->|(e & -> & He)]; [left|right]; inv_sims; sim_types; auto.
      eexists; split; eauto. congruence.
Qed.

Lemma GRule_sims ts r : GRule ts r -> forall ts', sims ts ts' -> GRule ts' r.
Proof.
  intros [pts ph a act ts1 cs Hp Ha Hc Hsw Hph] ts' Hs. inv_sims. sim_types.
  apply GR; auto; [|congruence|eapply GClauses_sims; eauto].
  inversion Hp; subst; inv_sims; sim_types; constructor. congruence.
Qed.

Lemma GFile_sims incl t ts rs t' : GFile incl t ts rs t' ->
  forall ts', sims ts ts' -> GFile incl t ts' rs t'.
Proof.
  induction 1; intros tsx Hs; inv_sims; sim_types.
  - apply GF_empty; congruence.
  - apply GF_rule; auto; [eapply GRule_sims; eauto|congruence].
  - apply GF_rule_last; [eapply GRule_sims; eauto|congruence].
  - eapply GF_include; [congruence|eapply is_arg_sim; eauto|congruence| |eauto].
    match goal with H : incl _ ?v _ _ |- incl _ ?v' _ _ => replace v' with v by congruence; exact H end.
  - eapply GF_include_last; [congruence|eapply is_arg_sim; eauto|congruence|].
    match goal with H : incl _ ?v _ _ |- incl _ ?v' _ _ => replace v' with v by congruence; exact H end.
Qed.

Theorem GFile_strip incl t ts ts' rs t' : strip ts = strip ts' ->
  (GFile incl t ts rs t' <-> GFile incl t ts' rs t').
Proof.
  intros H. split; intros G; eapply GFile_sims; eauto; apply strip_sims; auto.
Qed.

