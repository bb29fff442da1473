(** Completeness: whatever the grammar derives, the parser accepts, with the
    same tree.  Since the parser is a function, the grammar is unambiguous. *)
From Verif Require Import Bytes Outcome Lexer LexSpec LexProofs Ast GoNet Parser Grammar ParseProofs.

Definition hdt (ts : list item) : itype := i_typ (hd zero_item ts).

Lemma curtyp_hdt p : curtyp p = hdt (ps_toks p).
Proof. reflexivity. Qed.

Lemma consume_stp p i ts r : i_typ i <> itemEOF -> i_typ i <> itemError ->
  consume (stp p (i :: ts) r) = POk tt (stp p ts r).
Proof. intros. exact (consume_cons (stp p (i :: ts) r) i ts eq_refl H H0). Qed.

Lemma pCommaOpts_complete tbl ts os : tbl_ok tbl -> GOpts tbl ts os ->
  forall fuel acc p rest, length ts <= fuel -> ps_toks p = ts ++ rest -> hdt rest <> itemComma ->
  pCommaOpts fuel tbl acc p = POk (N.lor acc os) (stp p rest (ps_req p)).
Proof.
  intros (T1 & T2 & T3). induction 1 as [t o Hin|t o c ts os Hin Hc HG IH];
    intros fuel acc p rest Hf Et Hr; (destruct fuel as [|n]; [simpl in Hf; lia|]); cbn [pCommaOpts];
    destruct (T1 _ _ Hin) as [Eg Hz]; destruct (T3 _ _ Hin) as [N1 N2];
    simpl in Et; assert (Hct : curtyp p = i_typ t) by (unfold curtyp; now rewrite (cur_of p t _ Et));
    rewrite Hct, Eg;
    (destruct (N.eqb_spec o oZero) as [|_]; [contradiction|]);
    rewrite (consume_cons p t _ Et N1 N2); cbn [pbind].
  - rewrite curtyp_hdt. simpl ps_toks. destruct (ieqb_spec (hdt rest) itemComma); [contradiction|]. reflexivity.
  - rewrite curtyp_hdt. simpl ps_toks. unfold hdt at 1. simpl hd. rewrite Hc. cbn [ieqb icode Nat.eqb].
    rewrite (consume_stp _ c (ts ++ rest) _) by (rewrite Hc; discriminate). cbn [pbind].
    rewrite (IH n (N.lor acc o) _ rest); auto; [|simpl in Hf; lia].
    rewrite N.lor_assoc. reflexivity.
Qed.

Lemma pCommaOpts_stp tbl ts os : tbl_ok tbl -> GOpts tbl ts os ->
  forall fuel acc p rest r, length ts <= fuel -> hdt rest <> itemComma ->
  pCommaOpts fuel tbl acc (stp p (ts ++ rest) r) = POk (N.lor acc os) (stp p rest r).
Proof.
  intros T H fuel acc p rest r Hf Hr.
  exact (pCommaOpts_complete tbl ts os T H fuel acc (stp p (ts ++ rest) r) rest Hf eq_refl Hr).
Qed.

Lemma pArg_complete p a rest : ps_toks p = a :: rest -> is_arg a ->
  pArg p = POk (i_val a) (stp p rest (ps_req p)).
Proof.
  intros Et (A1 & A2 & A3). unfold pArg, curtyp. rewrite (cur_of p a _ Et).
  destruct (Nat.ltb_spec (icode (i_typ a)) (icode itemHasValue)) as [H|H].
  - exfalso. destruct (i_typ a); simpl in H; try lia; congruence.
  - rewrite (consume_cons p a rest Et A1 A3). reflexivity.
Qed.

Lemma pDomain_complete p a d rest : ps_toks p = a :: rest -> is_domain a d ->
  pDomain p = POk d (stp p rest (ps_req p)).
Proof.
  intros Et (Hv & Hin & Hd). unfold pDomain, curtyp. rewrite (cur_of p a _ Et), Hv.
  cbn [ieqb icode Nat.eqb negb].
  destruct (index_byte (i_val a) ch_dot) eqn:Ei.
  2:{ apply index_byte_None in Ei. contradiction. }
  destruct (last_byte (i_val a)) as [c|] eqn:El.
  2:{ apply last_byte_None in El. rewrite El in Hin. destruct Hin. }
  rewrite (consume_cons p a rest Et) by (rewrite Hv; discriminate). cbn [pbind].
  apply last_byte_Some in El as [u Eu].
  destruct Hd as [(u' & Eu' & ->)|[Hn ->]].
  - rewrite Eu in Eu'. apply app_inj_tail in Eu' as [_ ->]. rewrite Ascii.eqb_refl. reflexivity.
  - destruct (Ascii.eqb_spec c ch_dot) as [->|_]; [exfalso; eauto|reflexivity].
Qed.

Lemma pIPArg_complete p a rest : ps_toks p = a :: rest -> is_ip_arg a ->
  pIPArg p = POk (i_val a) (stp p rest (ps_req p)).
Proof.
  intros Et Ha. unfold pIPArg, curtyp. rewrite (cur_of p a _ Et).
  destruct Ha as [Hf|[Hv Ha]].
  - rewrite Hf, (consume_cons p a rest Et) by (rewrite Hf; discriminate). reflexivity.
  - rewrite Hv, (consume_cons p a rest Et) by (rewrite Hv; discriminate). cbn [pbind].
    destruct (parse_cidr (i_val a)), (parse_ip (i_val a)); auto. destruct Ha; congruence.
Qed.

Lemma pOnOff_complete p a (b : bool) rest : ps_toks p = a :: rest ->
  i_typ a = (if b then itemOn else itemOff) -> pOnOff p = POk b (stp p rest (ps_req p)).
Proof.
  intros Et Ha. unfold pOnOff, curtyp. rewrite (cur_of p a _ Et).
  destruct b; rewrite Ha, (consume_cons p a rest Et) by (rewrite Ha; discriminate); reflexivity.
Qed.

Lemma pArg_stp p a rest r : is_arg a -> pArg (stp p (a :: rest) r) = POk (i_val a) (stp p rest r).
Proof. intros H. exact (pArg_complete (stp p (a :: rest) r) a rest eq_refl H). Qed.
Lemma pIPArg_stp p a rest r : is_ip_arg a -> pIPArg (stp p (a :: rest) r) = POk (i_val a) (stp p rest r).
Proof. intros H. exact (pIPArg_complete (stp p (a :: rest) r) a rest eq_refl H). Qed.
Lemma pDomain_stp p a d rest r : is_domain a d -> pDomain (stp p (a :: rest) r) = POk d (stp p rest r).
Proof. intros H. exact (pDomain_complete (stp p (a :: rest) r) a d rest eq_refl H). Qed.

Lemma pTerm_none n p : term_start (curtyp p) = false -> pTerm (S n) p = POk None p.
Proof.
  intros H. cbn [pTerm]. destruct (curtyp p); simpl in H; try discriminate; reflexivity.
Qed.

Lemma pOrl_none n p : term_start (curtyp p) = false -> curtyp p <> itemOr ->
  pOrl (S (S n)) p = POk None p.
Proof.
  intros H Ho. cbn [pOrl]. rewrite (pTerm_none n p H). cbn [pbind].
  destruct (ieqb_spec (curtyp p) itemOr); [contradiction|]. reflexivity.
Qed.

Lemma GTerm_start ts e : GTerm ts e -> exists k ts', ts = k :: ts' /\ term_start (i_typ k) = true.
Proof.
  destruct 1; eexists; eexists; (split; [reflexivity|]);
  try match goal with H : i_typ ?k = _ |- term_start (i_typ ?k) = true => rewrite H; reflexivity end.
  - destruct (i_typ k); simpl in *; (discriminate || reflexivity).
  - destruct (i_typ k); simpl in *; (discriminate || reflexivity).
Qed.

Lemma GOrl_start ts e : GOrl ts e -> exists k ts', ts = k :: ts' /\ term_start (i_typ k) = true.
Proof.
  destruct 1 as [ts e H|ts1 e1 o ts2 e2 H]; apply GTerm_start in H as (k & ts' & -> & Hk); simpl; eauto.
Qed.

Lemma GSeries_start ts e : GSeries ts e -> exists k ts', ts = k :: ts' /\ term_start (i_typ k) = true.
Proof.
  destruct 1 as [ts e H|ts e ts1 es H]; apply GOrl_start in H as (k & ts' & -> & Hk); simpl; eauto.
Qed.

Lemma term_start_not t : term_start t = true -> t <> itemComma /\ t <> itemOr.
Proof. intros H; split; intros ->; discriminate. Qed.

Definition PT (ts : list item) (e : expr) : Prop :=
  forall fuel p rest, 3 * length ts + 1 <= fuel -> ps_toks p = ts ++ rest -> hdt rest <> itemComma ->
  pTerm fuel p = POk (Some e) (stp p rest (pmax (ps_req p) (needs e))).
Definition PO (ts : list item) (e : expr) : Prop :=
  forall fuel p rest, 3 * length ts + 2 <= fuel -> ps_toks p = ts ++ rest ->
  hdt rest <> itemComma -> hdt rest <> itemOr ->
  pOrl fuel p = POk (Some e) (stp p rest (pmax (ps_req p) (needs e))).
Definition PS (ts : list item) (es : list expr) : Prop :=
  forall fuel nodes p rest, 3 * length ts + 3 <= fuel -> ps_toks p = ts ++ rest ->
  hdt rest <> itemComma -> hdt rest <> itemOr -> term_start (hdt rest) = false ->
  pAndl_loop fuel nodes p =
    POk (andl_of (nodes ++ es)) (stp p rest (pmax (ps_req p) (fold_right pmax pAny (map needs es)))).
Definition PA (ts : list item) (e : expr) : Prop :=
  forall fuel p rest, 3 * length ts + 3 <= fuel -> ps_toks p = ts ++ rest ->
  hdt rest <> itemComma -> hdt rest <> itemOr -> term_start (hdt rest) = false ->
  pAndl_loop fuel [] p = POk (Some e) (stp p rest (pmax (ps_req p) (needs e))).

Lemma expr_complete :
  (forall ts e, GTerm ts e -> PT ts e) /\ (forall ts e, GOrl ts e -> PO ts e) /\
  (forall ts es, GSeries ts es -> PS ts es) /\ (forall ts e, GAndl ts e -> PA ts e).
Proof.
  apply (G_mutind (fun ts e _ => PT ts e) (fun ts e _ => PO ts e)
                  (fun ts es _ => PS ts es) (fun ts e _ => PA ts e)).
  - (* not *)
    intros k ts e Hk HG IH [|n] p rest Hf Et Hr; [lia|]. simpl in Et. simpl length in Hf.
    cbn [pTerm]. unfold curtyp. rewrite (cur_of p k _ Et), Hk.
    rewrite (consume_cons p k _ Et) by (rewrite Hk; discriminate). cbn [pbind].
    rewrite (IH n _ rest); auto; lia.
  - (* paren *)
    intros l ts r e Hl Hrp HG IH [|n] p rest Hf Et Hr; [lia|]. simpl in Et. simpl length in Hf.
    rewrite app_length in Hf. simpl in Hf.
    cbn [pTerm]. unfold curtyp at 1. rewrite (cur_of p l _ Et), Hl.
    rewrite (consume_cons p l _ Et) by (rewrite Hl; discriminate). cbn [pbind].
    rewrite (IH n _ (r :: rest)); try (unfold hdt; simpl; rewrite Hrp; (discriminate || reflexivity)); [|lia|].
    2:{ simpl. rewrite <- app_assoc. reflexivity. }
    cbn [pbind]. rewrite curtyp_hdt. unfold hdt. simpl ps_toks. simpl hd. rewrite Hrp.
    cbn [ieqb icode Nat.eqb negb].
    rewrite (consume_stp _ r rest _) by (rewrite Hrp; discriminate). reflexivity.
  - (* all *)
    intros k Hk [|n] p rest Hf Et Hr; [simpl in Hf; lia|]. simpl in Et.
    cbn [pTerm]. unfold curtyp. rewrite (cur_of p k _ Et), Hk.
    rewrite (consume_raise p k rest _ Et) by (rewrite Hk; discriminate). reflexivity.
  - (* tls *)
    intros k a b Hk Ha [|n] p rest Hf Et Hr; [simpl in Hf; lia|]. simpl in Et.
    cbn [pTerm]. unfold curtyp. rewrite (cur_of p k _ Et), Hk.
    rewrite (consume_raise p k _ _ Et) by (rewrite Hk; discriminate). cbn [pbind].
    rewrite (pOnOff_complete _ a b rest); auto.
  - (* options *)
    intros k kd tbl ts o Hk HG [|n] p rest Hf Et Hr; [lia|]. simpl in Et.
    cbn [pTerm]. unfold curtyp. rewrite (cur_of p k _ Et).
    assert (N1 : i_typ k <> itemEOF) by (intros E; rewrite E in Hk; discriminate).
    assert (N2 : i_typ k <> itemError) by (intros E; rewrite E in Hk; discriminate).
    assert (Hfu : length ts <= S (ntoks (stp p (ts ++ rest) (pmax (ps_req p) (minReq (i_typ k)))))).
    { unfold ntoks. simpl. rewrite app_length. lia. }
    destruct (i_typ k) eqn:Ek; simpl in Hk; try discriminate; injection Hk as <- <-;
      rewrite (consume_raise p k _ _ Et) by (rewrite Ek; discriminate); cbn [pbind];
      [pose proof addrMap_ok as T|pose proof addrMap_ok as T|pose proof heloMap_ok as T|pose proof dnsMap_ok as T];
      rewrite (pCommaOpts_stp _ ts o T HG _ oZero p rest _ Hfu Hr);
      rewrite N.lor_0_l; reflexivity.
  - (* match *)
    intros k kd a Hk Ha [|n] p rest Hf Et Hr; [simpl in Hf; lia|]. simpl in Et.
    cbn [pTerm]. unfold curtyp. rewrite (cur_of p k _ Et).
    destruct (i_typ k) eqn:Ek; simpl in Hk; try discriminate; injection Hk as <-;
      rewrite (consume_raise p k _ _ Et) by (rewrite Ek; discriminate); cbn [pbind];
      rewrite (pArg_stp _ a rest _ Ha); reflexivity.
  - (* ip *)
    intros k a Hk Ha [|n] p rest Hf Et Hr; [simpl in Hf; lia|]. simpl in Et.
    cbn [pTerm]. unfold curtyp. rewrite (cur_of p k _ Et), Hk.
    rewrite (consume_raise p k _ _ Et) by (rewrite Hk; discriminate). cbn [pbind].
    rewrite (pIPArg_stp _ a rest _ Ha). reflexivity.
  - (* dnsbl *)
    intros k a d Hk Ha [|n] p rest Hf Et Hr; [simpl in Hf; lia|]. simpl in Et.
    cbn [pTerm]. unfold curtyp. rewrite (cur_of p k _ Et), Hk.
    rewrite (consume_raise p k _ _ Et) by (rewrite Hk; discriminate). cbn [pbind].
    rewrite (pDomain_stp _ a d rest _ Ha). reflexivity.
  - (* source *)
    intros k a Hk Ha [|n] p rest Hf Et Hr; [simpl in Hf; lia|]. simpl in Et.
    cbn [pTerm]. unfold curtyp. rewrite (cur_of p k _ Et), Hk.
    rewrite (consume_raise p k _ _ Et) by (rewrite Hk; discriminate). cbn [pbind].
    rewrite (pArg_stp _ a rest _ Ha). reflexivity.
  - (* dbl *)
    intros k ts o a d Hk HG Ha [|n] p rest Hf Et Hr; [lia|]. simpl in Et. rewrite <- app_assoc in Et. simpl in Et.
    cbn [pTerm]. unfold curtyp. rewrite (cur_of p k _ Et), Hk.
    rewrite (consume_raise p k _ _ Et) by (rewrite Hk; discriminate). cbn [pbind].
    rewrite (pCommaOpts_complete _ ts o dblMap_ok HG _ oZero _ (a :: rest)); auto.
    2:{ unfold ntoks. simpl. rewrite app_length. lia. }
    2:{ unfold hdt. simpl. destruct Ha as [-> _]. discriminate. }
    cbn [pbind]. rewrite (pDomain_stp _ a d rest _ Ha). cbn [pbind].
    rewrite N.lor_0_l, raise_req_eq, (dbl_phase_needs o d). simpl minReq.
    cbn [stp ps_req ps_toks ps_input ps_defer ps_res ps_clauses ps_tick]. rewrite pmax_any_r. reflexivity.
  - (* orl one *)
    intros ts e HG IH [|n] p rest Hf Et Hc Ho; [lia|]. cbn [pOrl].
    rewrite (IH n p rest); auto; [|lia]. cbn [pbind]. rewrite curtyp_hdt. simpl ps_toks.
    destruct (ieqb_spec (hdt rest) itemOr); [contradiction|]. reflexivity.
  - (* orl or *)
    intros ts1 e1 o ts2 e2 HG1 IH1 Hor HG2 IH2 [|n] p rest Hf Et Hc Ho; [lia|]. cbn [pOrl].
    rewrite app_length in Hf. simpl in Hf.
    assert (Et' : ps_toks p = ts1 ++ o :: ts2 ++ rest) by (rewrite Et, <- app_assoc; reflexivity).
    rewrite (IH1 n p (o :: ts2 ++ rest)); auto; [|lia|unfold hdt; simpl; rewrite Hor; discriminate].
    cbn [pbind]. rewrite curtyp_hdt. unfold hdt. simpl ps_toks. simpl hd. rewrite Hor.
    cbn [ieqb icode Nat.eqb negb].
    rewrite (consume_stp _ o (ts2 ++ rest) _) by (rewrite Hor; discriminate). cbn [pbind].
    rewrite (IH2 n _ rest); auto; [|lia]. cbn [pbind needs].
    rewrite !stp_stp. cbn [stp ps_req]. rewrite pmax_assoc. reflexivity.
  - (* series one *)
    intros ts e HG IH [|n] nodes p rest Hf Et Hc Ho Hs; [lia|]. cbn [pAndl_loop].
    rewrite (IH n p rest); auto; [|lia]. cbn [pbind].
    pose proof (GOrl_start _ _ HG) as (k & ts' & -> & _). simpl in Hf.
    destruct n as [|[|[|n]]]; try lia. cbn [pAndl_loop].
    rewrite pOrl_none; [|exact Hs|exact Ho]. cbn [pbind]. simpl. rewrite pmax_any_r. reflexivity.
  - (* series more *)
    intros ts e ts' es HG IH HG' IH' [|n] nodes p rest Hf Et Hc Ho Hs; [lia|]. cbn [pAndl_loop].
    rewrite app_length in Hf.
    assert (Et' : ps_toks p = ts ++ (ts' ++ rest)) by (rewrite Et, app_assoc; reflexivity).
    pose proof (GSeries_start _ _ HG') as (k & ts'' & -> & Hk).
    destruct (term_start_not _ Hk) as [K1 K2].
    pose proof (GOrl_start _ _ HG) as (k0 & ts0 & -> & _). simpl in Hf.
    rewrite (IH n p ((k :: ts'') ++ rest)); auto; [|simpl; lia]. cbn [pbind].
    rewrite (IH' n _ _ rest); auto; [|simpl; lia]. cbn [map fold_right].
    rewrite !stp_stp. cbn [stp ps_req]. rewrite pmax_assoc, <- app_assoc. reflexivity.
  - (* andl *)
    intros ts es HG IH fuel p rest Hf Et Hc Ho Hs.
    rewrite (IH fuel [] p rest); auto. simpl app.
    pose proof (GSeries_ne _ _ HG) as Hne. rewrite (andl_series es Hne), (needs_series es Hne). reflexivity.
Qed.

Lemma pAndl_complete ts e p rest : GAndl ts e -> ps_toks p = ts ++ rest ->
  hdt rest <> itemComma -> hdt rest <> itemOr -> term_start (hdt rest) = false ->
  pAndl p = POk (Some e) (stp p rest (pmax (ps_req p) (needs e))).
Proof.
  intros HG Et Hc Ho Hs. unfold pAndl. eapply expr_complete; eauto.
  unfold expr_fuel, ntoks. rewrite Et, app_length. lia.
Qed.

(** ** With clauses *)
Lemma may_add_ok t k seen w : WInv seen w -> may_add t k seen ->
  match mget w k with Some (_ :: _) => true | _ => false end = false.
Proof.
  intros (A & _ & _) H. destruct (mget w k) as [[|c v]|] eqn:E; auto.
  apply A in E. pose proof (may_add_empty _ _ _ H _ E). discriminate.
Qed.

Lemma may_add_none seen w k : WInv seen w -> (forall v, ~ In (k, v) seen) -> mget w k = None.
Proof.
  intros (A & _ & _) H. destruct (mget w k) as [v|] eqn:E; auto. apply A in E. exfalso; eapply H; eauto.
Qed.

Lemma pWClause_stop n w got p : with_start (curtyp p) = false -> pWClause (S n) w got p = POk (w, got) p.
Proof.
  intros H. cbn [pWClause]. destruct (curtyp p); simpl in H; (discriminate || reflexivity).
Qed.

(** one option *)
Lemma pWClause_one k ts kv seen w n got p rest :
  GWterm (k :: ts) kv -> may_add (i_typ k) (i_val k) seen -> WInv seen w ->
  ps_toks p = k :: ts ++ rest ->
  pWClause (S n) w got p = pWClause n (mset w (fst kv) (snd kv)) true (stp p rest (ps_req p)) /\
  WInv (seen ++ [kv]) (mset w (fst kv) (snd kv)).
Proof.
  intros HG Hm HI Et. cbn [pWClause]. unfold curtyp. rewrite !(cur_of p k _ Et).
  pose proof (may_add_empty _ _ _ Hm) as Hme. pose proof (may_add_ok _ _ _ _ HI Hm) as Hok.
  inversion HG as [k0 a Hk Ha|k0 a Hk Ha|k0 a Hk Ha Hnl|k0 a Hk Ha Hv|k0 Hk]; subst k0 kv; try subst ts;
    simpl app in Et; rewrite Hk in Hm; (split; [|apply WInv_add; assumption]); rewrite Hk; cbn [fst snd].
  - rewrite Hok, (consume_cons p k _ Et) by (rewrite Hk; discriminate). cbn [pbind].
    rewrite (pArg_stp _ a rest _ Ha). reflexivity.
  - rewrite Hok, (consume_cons p k _ Et) by (rewrite Hk; discriminate). cbn [pbind].
    rewrite (pArg_stp _ a rest _ Ha). reflexivity.
  - rewrite Hok, (consume_cons p k _ Et) by (rewrite Hk; discriminate). cbn [pbind].
    rewrite (pArg_stp _ a rest _ Ha). cbn [pbind ieqb icode Nat.eqb andb].
    destruct (mem_byte ch_nl (i_val a)) eqn:E; [apply mem_byte_In in E; contradiction|]. reflexivity.
  - rewrite (may_add_none _ _ _ HI Hm), (consume_cons p k _ Et) by (rewrite Hk; discriminate). cbn [pbind].
    rewrite (pArg_stp _ a rest _ Ha).
    assert (E : beqb (i_val a) (B "off") || beqb (i_val a) (B "no-client") = true).
    { apply orb_true_iff. destruct Hv as [->| ->]; [left|right]; apply beqb_refl. }
    rewrite E. reflexivity.
  - rewrite (may_add_none _ _ _ HI Hm), (consume_cons p k _ Et) by (rewrite Hk; discriminate). reflexivity.
Qed.

Lemma pWClause_complete seen ts kvs : GWiths seen ts kvs ->
  forall fuel w got p rest, length ts < fuel -> WInv seen w -> ps_toks p = ts ++ rest ->
  with_start (hdt rest) = false ->
  pWClause fuel w got p = POk (add_withs w kvs, true) (stp p rest (ps_req p)).
Proof.
  induction 1 as [seen k ts kv HG Hm|seen k ts kv ts' kvs HG Hm HW IH]; intros [|n] w got p rest Hf HI Et Hs; try lia.
  - destruct (pWClause_one k ts kv seen w n got p rest HG Hm HI Et) as [-> _].
    destruct n as [|n]; [simpl in Hf; lia|]. rewrite pWClause_stop; auto.
  - assert (Et' : ps_toks p = k :: ts ++ (ts' ++ rest)) by (rewrite Et; simpl; rewrite <- app_assoc; reflexivity).
    destruct (pWClause_one k ts kv seen w n got p _ HG Hm HI Et') as [-> HI'].
    rewrite (IH n _ true _ rest); auto. simpl in Hf. rewrite app_length in Hf. lia.
Qed.

Lemma pWith_complete ts w p rest : GWithPart ts w -> ps_toks p = ts ++ rest ->
  (hdt rest = itemEOL \/ hdt rest = itemEOF \/ hdt rest = itemSemicolon) ->
  pWith p = POk w (stp p rest (ps_req p)).
Proof.
  intros HW Et Hr. unfold pWith. destruct HW as [|k wts kvs Hk HG].
  - simpl in Et. rewrite curtyp_hdt, Et.
    destruct (ieqb_spec (hdt rest) itemWith) as [E|_]; [rewrite E in Hr; destruct Hr as [|[|]]; discriminate|].
    simpl. rewrite <- Et, stp_self. reflexivity.
  - simpl in Et. unfold curtyp at 1. rewrite (cur_of p k _ Et), Hk. cbn [ieqb icode Nat.eqb negb].
    rewrite (consume_cons p k _ Et) by (rewrite Hk; discriminate). cbn [pbind].
    assert (Hws : with_start (hdt rest) = false) by (destruct Hr as [E|[E|E]]; rewrite E; reflexivity).
    rewrite (pWClause_complete [] wts kvs HG _ [] false _ rest); auto.
    2:{ unfold ntoks. simpl. rewrite app_length. lia. }
    2:{ apply WInv_nil. }
    cbn [pbind fst snd]. 
    assert (HE : isERule (stp p rest (ps_req p)) = true).
    { unfold isERule, isEol. rewrite curtyp_hdt. simpl ps_toks. destruct Hr as [E|[E|E]]; rewrite E; reflexivity. }
    rewrite !stp_stp. cbn [ps_req stp]. rewrite HE. reflexivity.
Qed.

Lemma pWith_stp ts w p rest r : GWithPart ts w ->
  (hdt rest = itemEOL \/ hdt rest = itemEOF \/ hdt rest = itemSemicolon) ->
  pWith (stp p (ts ++ rest) r) = POk w (stp p rest r).
Proof. intros HW H. exact (pWith_complete ts w (stp p (ts ++ rest) r) rest HW eq_refl H). Qed.

(** ** Clauses, rules, files *)
Lemma GClause_split ts c : GClause ts c ->
  exists ts1 ts2 e w, ts = ts1 ++ ts2 /\ c = mkClause e w /\ GAndl ts1 e /\ GWithPart ts2 w.
Proof.
  destruct 1 as [ts e H|ts e w wts kvs H Hw HW].
  - exists ts, [], e, []. rewrite app_nil_r. repeat split; auto; constructor.
  - exists ts, (w :: wts), e, (withs_of kvs). split; auto. split; auto. split; auto. constructor; auto.
Qed.

Lemma GWithPart_hd ts w rest : GWithPart ts w ->
  (hdt rest = itemEOL \/ hdt rest = itemEOF \/ hdt rest = itemSemicolon) ->
  hdt (ts ++ rest) <> itemComma /\ hdt (ts ++ rest) <> itemOr /\ term_start (hdt (ts ++ rest)) = false.
Proof.
  intros H Hr. destruct H as [|k wts kvs Hk HG]; simpl app.
  - destruct Hr as [E|[E|E]]; rewrite E; repeat split; discriminate.
  - unfold hdt; simpl. rewrite Hk. repeat split; discriminate.
Qed.

(** one clause, up to its end *)
Lemma clause_complete ts c p rest : GClause ts c -> ps_toks p = ts ++ rest ->
  (hdt rest = itemEOL \/ hdt rest = itemEOF \/ hdt rest = itemSemicolon) ->
  (ps_res p = aNoresult -> rc_withs c <> []) ->
  forall n, pRClause (S n) p =
   let p3 := stc p rest (pmax (ps_req p) (needs (rc_expr c))) (ps_clauses p ++ [c]) in
   if isEol p3 then POk tt p3
   else dop _, p4 <- consume p3;
        if ieqb (curtyp p4) itemEOL then dop _, p5 <- consume p4; pRClause n p5 else pRClause n p4.
Proof.
  intros HG Et Hr Hsw n. cbn [pRClause].
  apply GClause_split in HG as (ts1 & ts2 & e & w & -> & -> & HA & HW).
  rewrite <- app_assoc in Et.
  destruct (GWithPart_hd ts2 w rest HW Hr) as (H1 & H2 & H3).
  rewrite (pAndl_complete ts1 e p _ HA Et H1 H2 H3). cbn [pbind].
  rewrite (pWith_stp ts2 w _ rest _ HW Hr). cbn [pbind].

  assert (HE : isERule (stp p rest (pmax (ps_req p) (needs e))) = true).
  { unfold isERule, isEol. rewrite curtyp_hdt. simpl ps_toks. destruct Hr as [E|[E|E]]; rewrite E; reflexivity. }
  rewrite HE. cbn [negb rc_expr]. 
  unfold set_clauses, stp. cbn [ps_input ps_toks ps_req ps_defer ps_res ps_clauses ps_tick].
  simpl in Hsw.
  destruct (aeqb_spec (ps_res p) aNoresult) as [Hres|_]; [|reflexivity].
  specialize (Hsw Hres). destruct w; [congruence|reflexivity].
Qed.

Lemma term_start_neq_EOL t : term_start t = true -> t <> itemEOL.
Proof. intros H ->; discriminate. Qed.

Lemma GClauses_start ts cs : GClauses ts cs -> exists k ts', ts = k :: ts' /\ term_start (i_typ k) = true.
Proof.
  assert (HC : forall ts c, GClause ts c -> exists k ts', ts = k :: ts' /\ term_start (i_typ k) = true).
  { destruct 1 as [ts0 e H|ts0 e w wts kvs H Hw HW]; inversion H as [? ? HS]; subst;
      apply GSeries_start in HS as (k & ts' & -> & Hk); simpl; eauto. }
  destruct 1 as [ts c H|ts c s eol ts' cs H]; apply HC in H as (k & tt & -> & Hk); simpl; eauto.
Qed.

Lemma pRClause_complete ts cs : GClauses ts cs ->
  forall fuel p rest, length ts < fuel -> ps_toks p = ts ++ rest ->
  (hdt rest = itemEOL \/ hdt rest = itemEOF) ->
  (ps_res p = aNoresult -> forall c, In c cs -> rc_withs c <> []) ->
  pRClause fuel p = POk tt (stc p rest (pmax (ps_req p) (needs_clauses cs)) (ps_clauses p ++ cs)).
Proof.
  induction 1 as [ts c HG|ts c s eol ts' cs HG Hs He HC IH]; intros [|n] p rest Hf Et Hr Hsw; try lia.
  - rewrite (clause_complete ts c p rest); auto; [|tauto|intros; apply Hsw; simpl; auto].
    cbv zeta. unfold needs_clauses. simpl. rewrite pmax_any_r.
    assert (HE : isEol (stc p rest (pmax (ps_req p) (needs (rc_expr c))) (ps_clauses p ++ [c])) = true).
    { unfold isEol. rewrite curtyp_hdt. simpl ps_toks. destruct Hr as [E|E]; rewrite E; reflexivity. }
    rewrite HE. reflexivity.
  - assert (Et' : ps_toks p = ts ++ (s :: eol ++ ts' ++ rest)).
    { rewrite Et, <- app_assoc. simpl. rewrite <- app_assoc. reflexivity. }
    rewrite (clause_complete ts c p (s :: eol ++ ts' ++ rest) HG Et' (or_intror (or_intror Hs))
      (fun H => Hsw H c (or_introl eq_refl)) n).
    cbv zeta. rewrite app_length in Hf. simpl in Hf. rewrite app_length in Hf.
    set (p3 := stc p (s :: eol ++ ts' ++ rest) (pmax (ps_req p) (needs (rc_expr c))) (ps_clauses p ++ [c])).
    assert (HE : isEol p3 = false).
    { unfold isEol. rewrite curtyp_hdt. unfold hdt. simpl. rewrite Hs. reflexivity. }
    rewrite HE.
    rewrite (consume_cons p3 s (eol ++ ts' ++ rest) eq_refl) by (rewrite Hs; discriminate). cbn [pbind].
    assert (Hfin : forall p5, p5 = stp p3 (ts' ++ rest) (ps_req p3) ->
      pRClause n p5 = POk tt (stc p rest (pmax (ps_req p) (needs_clauses (c :: cs))) (ps_clauses p ++ c :: cs))).
    { intros p5 ->. rewrite (IH n _ rest); auto; try lia.
      - rewrite needs_clauses_cons, pmax_assoc. unfold stc, p3. simpl. rewrite <- app_assoc. reflexivity.
      - intros Hres x Hx. apply Hsw; simpl; auto. }
    destruct He as [->|(e & -> & He)].
    + pose proof (GClauses_start _ _ HC) as (k & ts'' & Ets & Hk).
      match goal with |- context [ieqb ?x itemEOL] => destruct (ieqb_spec x itemEOL) as [E|_] end.
      { exfalso. subst ts'. unfold curtyp, curtok in E. simpl in E. apply term_start_neq_EOL in Hk. contradiction. }
      apply Hfin. reflexivity.
    + rewrite curtyp_hdt. unfold hdt. simpl ps_toks. simpl hd. rewrite He. cbn [ieqb icode Nat.eqb].
      rewrite (consume_stp _ e (ts' ++ rest) _) by (rewrite He; discriminate). cbn [pbind].
      apply Hfin. reflexivity.
Qed.

Lemma action_hd a act ts : action_of (i_typ a) = Some act -> phases (hdt (a :: ts)) = pAny.
Proof.
  intros H. unfold hdt. simpl. pose proof (phases_of (i_typ a)) as Hp.
  apply action_of_ne in H as (_ & _ & _ & E). rewrite E in Hp. exact Hp.
Qed.

Lemma pRule_complete ts r p e rest : GRule ts r -> ps_toks p = ts ++ e :: rest ->
  (i_typ e = itemEOL \/ i_typ e = itemEOF) ->
  exists p', pRule p = POk (Some r) p' /\ ps_input p' = ps_input p /\ ps_tick p' = ps_tick p /\
    ps_toks p' = if ieqb (i_typ e) itemEOF then e :: rest else rest.
Proof.
  intros HR Et He. unfold pRule.
  set (p0 := mkPS (ps_input p) (ps_toks p) pAny pAny aError [] (ps_tick p)).
  inversion HR as [pts ph a act cts cs HP Ha HC Hsw Hlow Ets Er]. subst ts r. clear HR.
  rewrite <- app_assoc in Et. simpl in Et.
  assert (HnE : curtyp p0 <> itemEOF).
  { rewrite curtyp_hdt. simpl ps_toks. rewrite Et. destruct HP as [|t ph Hph]; unfold hdt; simpl.
    - apply action_of_ne in Ha. tauto.
    - apply phase_of_ne in Hph. tauto. }
  destruct (ieqb_spec (curtyp p0) itemEOF) as [|_]; [contradiction|].
  assert (HPh : pPhase p0 = POk tt (set_defer ph (stp p0 (a :: cts ++ e :: rest) pAny))).
  { unfold pPhase. rewrite curtyp_hdt. simpl ps_toks. rewrite Et. destruct HP as [|t ph Hph].
    - simpl app. rewrite (action_hd a act _ Ha). simpl. unfold p0, set_defer, stp. simpl. now rewrite Et.
    - simpl app. unfold hdt; simpl hd. pose proof (phases_of (i_typ t)) as Hp. rewrite Hph in Hp.
      destruct Hp as [-> Hne]. destruct (peqb_spec ph pAny); [contradiction|]. simpl negb. cbv iota.
      apply phase_of_ne in Hph as (N1 & N2 & _).
      assert (E0 : ps_toks (set_defer ph p0) = t :: a :: cts ++ e :: rest) by exact Et.
      rewrite (consume_cons _ t _ E0 N1 N2). reflexivity. }
  rewrite HPh. cbn [pbind].
  set (p1 := set_defer ph (stp p0 (a :: cts ++ e :: rest) pAny)).
  assert (Hca : curtyp p1 = i_typ a) by reflexivity.
  rewrite Hca. pose proof (actions_of (i_typ a)) as Hact. rewrite Ha in Hact. destruct Hact as [-> Hne].
  destruct (aeqb_spec act aError); [contradiction|].
  apply action_of_ne in Ha as (N1 & N2 & _).
  rewrite (consume_cons (set_res act p1) a (cts ++ e :: rest) eq_refl N1 N2). cbn [pbind].
  set (p2 := stp (set_res act p1) (cts ++ e :: rest) (ps_req (set_res act p1))).
  rewrite (pRClause_complete cts cs HC _ p2 (e :: rest)); auto.
  2:{ unfold ntoks, p2. simpl. rewrite app_length. lia. }
  cbn [pbind].
  set (p3 := stc p2 (e :: rest) (pmax (ps_req p2) (needs_clauses cs)) (ps_clauses p2 ++ cs)).
  assert (Hreq : ps_req p3 = needs_clauses cs) by (simpl; apply pmax_any_l).
  assert (Hdef : ps_defer p3 = ph) by reflexivity.
  rewrite Hreq, Hdef.
  assert (Elow : negb (peqb ph pAny) && pltb ph (needs_clauses cs) = false).
  { destruct (peqb_spec ph pAny); auto. simpl. unfold pltb. apply Nat.ltb_ge. auto. }
  rewrite Elow.
  assert (Hcons : exists p4, consume p3 = POk tt p4 /\ ps_input p4 = ps_input p /\ ps_tick p4 = ps_tick p /\
     ps_toks p4 = (if ieqb (i_typ e) itemEOF then e :: rest else rest) /\
     ps_clauses p4 = cs /\ ps_res p4 = act /\ ps_req p4 = needs_clauses cs /\ ps_defer p4 = ph).
  { destruct He as [He|He].
    - rewrite (consume_cons p3 e rest eq_refl) by (rewrite He; discriminate). rewrite He.
      eexists; split; [reflexivity|]. simpl. rewrite pmax_any_l. auto 10.
    - unfold consume. rewrite curtyp_hdt. unfold hdt. simpl ps_toks. simpl hd. rewrite He.
      cbn [ieqb icode Nat.eqb]. eexists; split; [reflexivity|]. simpl. rewrite pmax_any_l. auto 10. }
  destruct Hcons as (p4 & -> & E1 & E2 & E3 & E4 & E5 & E6 & E7). cbn [pbind].
  rewrite E4, E5, E6, E7. eauto.
Qed.

Lemma GRule_start ts r : GRule ts r -> exists k ts', ts = k :: ts' /\ i_typ k <> itemInclude /\ i_typ k <> itemEOF.
Proof.
  destruct 1 as [pts ph a act cts cs HP Ha HC Hsw Hlow]. destruct HP as [|t ph Hph]; simpl; eexists; eexists;
    (split; [reflexivity|]).
  - apply action_of_ne in Ha; tauto.
  - apply phase_of_ne in Hph; tauto.
Qed.

Section Files.
  Variable load : nat -> bytes -> lres * nat.

  Lemma GFile_EOF incl t ts rs t' : GFile incl t ts rs t' -> hdt ts = itemEOF -> rs = [] /\ t' = t.
  Proof.
    destruct 1 as [e0 t0 He0|t0 ts0 r0 e0 rest0 rs0 t1' HR0 He0 HF0|t0 ts0 r0 e0 HR0 He0
      |t0 k0 a0 e0 rest0 rl0 rs0 t1 t1' Hk0 Ha0 He0 Hl0 HF0|t0 k0 a0 e0 rl0 t1 Hk0 Ha0 He0 Hl0]; auto; intros E;
    exfalso.
    - destruct (GRule_start _ _ HR0) as (k0 & ts0' & -> & _ & Hk0). apply Hk0. exact E.
    - destruct (GRule_start _ _ HR0) as (k0 & ts0' & -> & _ & Hk0). apply Hk0. exact E.
    - unfold hdt in E. simpl in E. congruence.
    - unfold hdt in E. simpl in E. congruence.
  Qed.

  Lemma pFile_complete t ts rs t' : GFile (incl_of load) t ts rs t' ->
    forall fuel acc p, length ts < fuel -> ps_toks p = ts -> ps_tick p = t ->
    exists p', pFile load fuel acc p = POk (acc ++ rs) p' /\ ps_tick p' = t'.
  Proof.
    induction 1 as [e t He|t ts r e rest rs t' HR He HF IH|t ts r e HR He
      |t k a e rest rl rs t1 t' Hk Ha He Hl HF IH|t k a e rl t1 Hk Ha He Hl];
      intros [|n] acc p Hf Et Ht; try lia.
    - destruct (pFile_EOF load n acc p e Et He) as (p' & -> & Htk). rewrite app_nil_r. exists p'.
      split; auto. congruence.
    - cbn [pFile]. rewrite app_length in Hf. simpl in Hf.
      destruct (GRule_start _ _ HR) as (k & ts' & Ek & Hk & Hk').
      destruct (pRule_complete ts r p e rest HR Et (or_introl He)) as (p1 & -> & E1 & E2 & E3).
      rewrite He in E3. simpl in E3.
      assert (Hi : curtyp p = i_typ k) by (rewrite curtyp_hdt, Et, Ek; reflexivity).
      destruct (ieqb_spec (curtyp p) itemInclude); [congruence|]. cbn [pbind].
      destruct (ieqb_spec (curtyp p1) itemEOF) as [E|E].
      + rewrite curtyp_hdt, E3 in E.
        assert (Hrs : rs = [] /\ t' = t).
        { eapply GFile_EOF; eauto. }
        destruct Hrs as [-> ->]. exists p1. split; [reflexivity|congruence].
      + destruct (IH n (acc ++ [r]) p1) as (p' & Ep & Et'); auto; [lia|congruence|].
        exists p'. rewrite Ep, <- app_assoc. auto.
    - cbn [pFile].
      destruct (GRule_start _ _ HR) as (k & ts' & Ek & Hk & Hk').
      destruct (pRule_complete ts r p e [] HR Et (or_intror He)) as (p1 & -> & E1 & E2 & E3).
      rewrite He in E3. simpl in E3.
      assert (Hi : curtyp p = i_typ k) by (rewrite curtyp_hdt, Et, Ek; reflexivity).
      destruct (ieqb_spec (curtyp p) itemInclude); [congruence|]. cbn [pbind].
      assert (Hc : curtyp p1 = itemEOF) by (rewrite curtyp_hdt, E3; exact He).
      rewrite Hc. exists p1. split; [reflexivity|congruence].
    - cbn [pFile]. unfold curtyp. rewrite (cur_of p k _ Et), Hk. cbn [ieqb icode Nat.eqb].
      unfold pInclude. rewrite (consume_cons p k _ Et) by (rewrite Hk; discriminate). cbn [pbind].
      rewrite (pArg_stp _ a (e :: rest) _ Ha). cbn [pbind stp ps_tick].
      rewrite Ht, Hl.
      set (p3 := set_tick t1 _).
      assert (HE : isEol p3 = true) by (unfold isEol; rewrite curtyp_hdt; unfold hdt; simpl; rewrite He; reflexivity).
      rewrite HE. cbn [negb]. rewrite (consume_cons p3 e rest eq_refl) by (rewrite He; discriminate). cbn [pbind].
      destruct (IH n (acc ++ rl) (stp p3 rest (ps_req p3))) as (p' & Ep & Et'); auto; [simpl in Hf; lia|].
      exists p'. rewrite Ep, <- app_assoc. auto.
    - cbn [pFile]. unfold curtyp. rewrite (cur_of p k _ Et), Hk. cbn [ieqb icode Nat.eqb].
      unfold pInclude. rewrite (consume_cons p k _ Et) by (rewrite Hk; discriminate). cbn [pbind].
      rewrite (pArg_stp _ a [e] _ Ha). cbn [pbind stp ps_tick].
      rewrite Ht, Hl.
      set (p3 := set_tick t1 _).
      assert (HE : isEol p3 = true) by (unfold isEol; rewrite curtyp_hdt; unfold hdt; simpl; rewrite He; reflexivity).
      rewrite HE. cbn [negb].
      assert (Hco : consume p3 = POk tt p3).
      { unfold consume. rewrite curtyp_hdt. unfold hdt; simpl. rewrite He. reflexivity. }
      rewrite Hco. cbn [pbind]. destruct n as [|n]; [simpl in Hf; lia|].
      destruct (pFile_EOF load n (acc ++ rl) p3 e eq_refl He) as (p' & -> & Htk). eauto.
  Qed.

  Lemma parse_with_complete tick input rs t' :
    GFile (incl_of load) tick (tokens input) rs t' ->
    exists p', parse_with load tick input = POk rs p' /\ ps_tick p' = t'.
  Proof.
    intros H. unfold parse_with. apply (pFile_complete _ _ _ _ H); auto.
  Qed.

  Lemma parse_with_iff tick input rs t' : load_safe load ->
    (GFile (incl_of load) tick (tokens input) rs t' <->
     exists p', parse_with load tick input = POk rs p' /\ ps_tick p' = t').
  Proof.
    intros Hl. split; [apply parse_with_complete|].
    intros (p' & E & <-). pose proof (parse_with_spec load Hl tick input) as H. rewrite E in H. exact H.
  Qed.
End Files.

(** ** Unambiguity *)
Definition end_item : item := mkItem itemEOF [] 0.

Lemma GAndl_det ts e1 e2 : GAndl ts e1 -> GAndl ts e2 -> e1 = e2.
Proof.
  intros H1 H2. set (p := mkPS [] (ts ++ [end_item]) pAny pAny aError [] 0).
  pose proof (pAndl_complete ts e1 p [end_item] H1 eq_refl) as E1.
  pose proof (pAndl_complete ts e2 p [end_item] H2 eq_refl) as E2.
  assert (H : forall A, (hdt [end_item] <> itemComma -> hdt [end_item] <> itemOr ->
     term_start (hdt [end_item]) = false -> A) -> A) by (intros A HA; apply HA; (discriminate || reflexivity)).
  apply H in E1. apply H in E2. congruence.
Qed.

Lemma GRule_det ts r1 r2 : GRule ts r1 -> GRule ts r2 -> r1 = r2.
Proof.
  intros H1 H2. set (p := mkPS [] (ts ++ [end_item]) pAny pAny aError [] 0).
  destruct (pRule_complete ts r1 p end_item [] H1 eq_refl (or_intror eq_refl)) as (p1 & E1 & _).
  destruct (pRule_complete ts r2 p end_item [] H2 eq_refl (or_intror eq_refl)) as (p2 & E2 & _).
  congruence.
Qed.
