(** The parser never panics, never runs out of fuel, and accepts exactly the
    grammar of Grammar.v with exactly its trees. *)
From Verif Require Import Bytes Outcome Lexer LexSpec LexProofs Ast GoNet Parser Grammar.

(** ** Token streams *)
Inductive WfToks : list item -> Prop :=
| wf_last i : i_typ i = itemEOF \/ i_typ i = itemError -> WfToks [i]
| wf_cons i ts : i_typ i <> itemEOF -> i_typ i <> itemError -> WfToks ts -> WfToks (i :: ts).

Lemma word_type_ok w t : word_type w = Some t -> t <> itemEOF /\ t <> itemError /\ t <> itemEOL.
Proof.
  unfold word_type. destruct (mget keywords w) as [k|] eqn:E.
  - intros [= ->]. apply mget_In in E.
    repeat (destruct E as [E|E]; [injection E as <- <-; repeat split; discriminate|]). destruct E.
  - destruct (_ || _); [intros [= <-]; repeat split; discriminate|].
    destruct (has_prefix _ _); [|intros [= <-]; repeat split; discriminate].
    destruct (beqb _ _); [discriminate|intros [= <-]; repeat split; discriminate].
Qed.

Lemma punct_type_ok c t : punct_type c = Some t -> t <> itemEOF /\ t <> itemError /\ t <> itemEOL.
Proof.
  unfold punct_type. destruct (Ascii.eqb c "("); [intros [= <-]; repeat split; discriminate|].
  destruct (Ascii.eqb c ")"); [intros [= <-]; repeat split; discriminate|].
  destruct (Ascii.eqb c ";"); [intros [= <-]; repeat split; discriminate|discriminate].
Qed.

Lemma Lexes_wf m p s ts : Lexes m p s ts ->
  WfToks ts /\ Forall (fun i => p <= i_pos i <= p + length s) ts.
Proof.
  induction 1 as [m p|m p c s ts Hc HL IH|m p s ts HL IH|p s ts HL IH|p com s ts Hcom Hend HL IH
    |p s ts HL IH|m p c t s ts Ht HL IH|m p s ts Hb HL IH|m p s Hb|m p s v r ts Hq HL IH|m p s Hq
    |m p w0 t s ts Hw Hs Hst Ht HL IH|m p w0 s Hw Hs Hst Ht];
    try (destruct IH as [IH1 IH2]).
  - split; [constructor; auto|]. constructor; auto. simpl; lia.
  - split; auto. eapply Forall_impl; [|exact IH2]. simpl; intros; lia.
  - split; auto. eapply Forall_impl; [|exact IH2]. simpl; intros; lia.
  - split; auto. eapply Forall_impl; [|exact IH2]. simpl; intros; lia.
  - split; auto. eapply Forall_impl; [|exact IH2]. simpl; intros; rewrite app_length; lia.
  - split; [constructor; simpl; auto; discriminate|]. constructor; [simpl; lia|].
    eapply Forall_impl; [|exact IH2]. simpl; intros; lia.
  - apply punct_type_ok in Ht as (H1 & H2 & _).
    split; [constructor; simpl; auto|]. constructor; [simpl; lia|].
    eapply Forall_impl; [|exact IH2]. simpl; intros; lia.
  - split; [constructor; simpl; auto; discriminate|]. constructor; [simpl; lia|].
    eapply Forall_impl; [|exact IH2]. simpl; intros; lia.
  - split; [constructor; simpl; try discriminate; constructor; auto|].
    constructor; [simpl; lia|]. constructor; auto. simpl; lia.
  - apply unquote_length in Hq as (q & -> & _).
    split; [constructor; simpl; auto; discriminate|]. constructor; [simpl; lia|].
    eapply Forall_impl; [|exact IH2]. simpl; intros; rewrite app_length in *; lia.
  - split; [constructor; auto|]. constructor; auto. simpl; lia.
  - apply word_type_ok in Ht as (H1 & H2 & _).
    split; [constructor; simpl; auto|]. constructor; [simpl; lia|].
    eapply Forall_impl; [|exact IH2]. simpl; intros; rewrite app_length; lia.
  - split; [constructor; auto|]. constructor; auto. simpl; lia.
Qed.

(** ** Errors point at a token of the stream *)
Definition describe (i : item) : bytes :=
  match i_typ i with
  | itemEOF => B "unexpected end of file"
  | itemEOL => B "unexpected end of line"
  | _ => B "'" ++ i_val i ++ B "'"
  end.

Definition err_at (input : bytes) (i : item) (e : perr) : Prop :=
  match lineInfo input (i_pos i) with
  | Ok (ln, lp) =>
      match e with
      | ErrGen l c _ fnd => l = ln /\ c = lp /\ i_typ i <> itemError /\ fnd = describe i
      | ErrLex l c v => l = ln /\ c = lp /\ i_typ i = itemError /\ v = i_val i
      | ErrLine l _ => l = ln
      | ErrPos l c _ => l = ln /\ c = lp
      end
  | _ => False
  end.

Definition err_in (p : pstate) (e : perr) : Prop :=
  exists i, In i (ps_toks p) /\ err_at (ps_input p) i e.

Definition wfp (p : pstate) : Prop :=
  WfToks (ps_toks p) /\ Forall (fun i => i_pos i <= length (ps_input p)) (ps_toks p).

Definition spec {A} (p : pstate) (r : pres A) (Q : A -> pstate -> Prop) : Prop :=
  match r with POk a p' => Q a p' | PErr e => err_in p e | PPanic => False | PFuel => False end.

Definition sub (p' p : pstate) : Prop :=
  ps_input p' = ps_input p /\ exists ts, ps_toks p = ts ++ ps_toks p'.

Lemma sub_refl p : sub p p.
Proof. split; auto. exists []. reflexivity. Qed.

Lemma sub_trans a b c : sub a b -> sub b c -> sub a c.
Proof.
  intros [H1 [t1 E1]] [H2 [t2 E2]]. split; [congruence|].
  exists (t2 ++ t1). rewrite E2, E1. now rewrite app_assoc.
Qed.

Lemma err_in_sub p' p e : sub p' p -> err_in p' e -> err_in p e.
Proof.
  intros [H [ts E]] (i & Hi & He). exists i. split.
  - rewrite E. apply in_or_app; auto.
  - now rewrite <- H.
Qed.

Lemma spec_sub {A} p' p (r : pres A) Q : sub p' p -> spec p' r Q -> spec p r Q.
Proof. destruct r; simpl; auto. intros. eapply err_in_sub; eauto. Qed.

Lemma spec_bind {A B} p (x : pres A) (f : A -> pstate -> pres B) Q R :
  spec p x Q -> (forall a p', Q a p' -> spec p (f a p') R) -> spec p (pbind x f) R.
Proof. destruct x; simpl; auto. Qed.

Lemma spec_imp {A} p (r : pres A) (Q R : A -> pstate -> Prop) :
  spec p r Q -> (forall a p', Q a p' -> R a p') -> spec p r R.
Proof. destruct r; simpl; auto. Qed.

Lemma wfp_cur p : wfp p -> exists i ts, ps_toks p = i :: ts /\ curtok p = i.
Proof.
  intros [H _]. unfold curtok. inversion H; simpl; eauto.
Qed.

Lemma with_line_ok {A} p f Q : wfp p ->
  (forall ln lp, lineInfo (ps_input p) (i_pos (curtok p)) = Ok (ln, lp) -> err_at (ps_input p) (curtok p) (f ln lp)) ->
  spec p (@with_line A p f) Q.
Proof.
  intros Hw Hf. destruct (wfp_cur p Hw) as (i & ts & Et & Ec).
  unfold with_line. destruct (lineInfo (ps_input p) (i_pos (curtok p))) as [[ln lp]| |] eqn:E.
  - simpl. exists (curtok p). split; [|auto]. rewrite Et, Ec. now left.
  - exfalso. destruct Hw as [_ Hp]. rewrite Et in Hp. inversion Hp; subst.
    unfold lineInfo in E. rewrite slice_ok in E; [discriminate|]. lia.
  - exfalso. destruct Hw as [_ Hp]. rewrite Et in Hp. inversion Hp; subst.
    unfold lineInfo in E. rewrite slice_ok in E; [discriminate|]. lia.
Qed.

Lemma genError_ok {A} msg p Q : wfp p -> spec p (@genError A msg p) Q.
Proof.
  intros Hw. apply with_line_ok; auto. intros ln lp E. unfold err_at. rewrite E.
  unfold curtyp, describe. destruct (i_typ (curtok p)) eqn:Et; rewrite ?Et; repeat split; auto; discriminate.
Qed.

Lemma lineError_ok {A} msg p Q : wfp p -> spec p (@lineError A msg p) Q.
Proof.
  intros Hw. apply with_line_ok; auto. intros ln lp E. unfold err_at. rewrite E. reflexivity.
Qed.

Lemma posError_ok {A} msg p Q : wfp p -> spec p (@posError A msg p) Q.
Proof.
  intros Hw. apply with_line_ok; auto. intros ln lp E. unfold err_at. rewrite E. auto.
Qed.

(** ** Moving forward *)
Lemma pstate_eta p : mkPS (ps_input p) (ps_toks p) (ps_req p) (ps_defer p) (ps_res p) (ps_clauses p) (ps_tick p) = p.
Proof. destruct p; reflexivity. Qed.

(** the state with tokens [rest] left and required phase [r] *)
Definition stp (p : pstate) (rest : list item) (r : phase) : pstate :=
  mkPS (ps_input p) rest r (ps_defer p) (ps_res p) (ps_clauses p) (ps_tick p).

Lemma stp_self p : stp p (ps_toks p) (ps_req p) = p.
Proof. destruct p; reflexivity. Qed.

Lemma wfp_app p ts rest r : wfp p -> ps_toks p = ts ++ rest -> WfToks rest -> wfp (stp p rest r).
Proof.
  intros [H1 H2] E Hr. split; simpl; auto.
  rewrite E in H2. apply Forall_app in H2. tauto.
Qed.

Lemma sub_stp p ts rest r : ps_toks p = ts ++ rest -> sub (stp p rest r) p.
Proof. intros E. split; simpl; auto. exists ts; auto. Qed.

Lemma consume_cons p i ts :
  ps_toks p = i :: ts -> i_typ i <> itemEOF -> i_typ i <> itemError ->
  consume p = POk tt (stp p ts (ps_req p)).
Proof.
  intros E H1 H2. unfold consume, curtyp, curtok. rewrite E. simpl.
  destruct (ieqb_spec (i_typ i) itemEOF); [congruence|].
  destruct (ieqb_spec (i_typ i) itemError); [congruence|].
  unfold set_toks, stp. reflexivity.
Qed.

Lemma wfp_tail p i ts r : wfp p -> ps_toks p = i :: ts -> i_typ i <> itemEOF -> i_typ i <> itemError ->
  wfp (stp p ts r).
Proof.
  intros Hw E H1 H2. eapply (wfp_app p [i]); eauto.
  destruct Hw as [Hw _]. rewrite E in Hw. inversion Hw; subst; auto.
  exfalso. destruct H0; auto.
Qed.

Lemma cur_of p i ts : ps_toks p = i :: ts -> curtok p = i.
Proof. unfold curtok. intros ->. reflexivity. Qed.

(** ** Phases *)
Lemma pcode_pmax a b : pcode (pmax a b) = Nat.max (pcode a) (pcode b).
Proof. destruct a, b; reflexivity. Qed.
Lemma pmax_assoc a b c : pmax a (pmax b c) = pmax (pmax a b) c.
Proof. apply pcode_inj. rewrite !pcode_pmax. lia. Qed.
Lemma pmax_comm a b : pmax a b = pmax b a.
Proof. apply pcode_inj. rewrite !pcode_pmax. lia. Qed.
Lemma pmax_any_l a : pmax pAny a = a.
Proof. destruct a; reflexivity. Qed.
Lemma pmax_any_r a : pmax a pAny = a.
Proof. destruct a; reflexivity. Qed.

Lemma raise_req_eq ph p : raise_req ph p = stp p (ps_toks p) (pmax (ps_req p) ph).
Proof.
  unfold raise_req, pmax, set_req, stp, pltb.
  destruct p as [inp toks req df rs cl tk]; simpl.
  destruct (peqb_spec ph pAny) as [->|H]; simpl.
  - destruct req; reflexivity.
  - destruct (pcode req <? pcode ph); reflexivity.
Qed.

(** ** Option tables *)
Definition tbl_ok (tbl : omap) : Prop :=
  (forall t o, In (t, o) tbl -> omap_get tbl t = o /\ o <> oZero) /\
  (forall t, omap_get tbl t <> oZero -> In (t, omap_get tbl t) tbl) /\
  (forall t o, In (t, o) tbl -> t <> itemEOF /\ t <> itemError).

Lemma tbl_get tbl : forall t, omap_get tbl t <> oZero -> In (t, omap_get tbl t) tbl.
Proof.
  induction tbl as [|[k v] tbl IH]; simpl; intros t H; [congruence|].
  destruct (ieqb_spec t k); [subst; auto|]. right; auto.
Qed.

Ltac tbl_tac :=
  split; [|split; [apply tbl_get|]];
  intros t o H; repeat (destruct H as [H|H]; [injection H as <- <-; split; (reflexivity || discriminate)|]);
  destruct H.

Lemma heloMap_ok : tbl_ok heloMap. Proof. tbl_tac. Qed.
Lemma dnsMap_ok : tbl_ok dnsMap. Proof. tbl_tac. Qed.
Lemma addrMap_ok : tbl_ok addrMap. Proof. tbl_tac. Qed.
Lemma dblMap_ok : tbl_ok dblMap. Proof. tbl_tac. Qed.

Lemma pCommaOpts_spec tbl : tbl_ok tbl -> forall fuel acc p,
  wfp p -> ntoks p < fuel ->
  spec p (pCommaOpts fuel tbl acc p)
   (fun o p' => exists ts rest os, ps_toks p = ts ++ rest /\ GOpts tbl ts os /\ o = N.lor acc os /\
      WfToks rest /\ ts <> [] /\ p' = stp p rest (ps_req p)).
Proof.
  intros (T1 & T2 & T3). induction fuel as [|n IH]; intros acc p Hw Hf; [lia|].
  cbn [pCommaOpts]. destruct (wfp_cur p Hw) as (i & ts & Et & Ec).
  unfold curtyp. rewrite Ec.
  destruct (N.eqb_spec (omap_get tbl (i_typ i)) oZero) as [Hz|Hz]; [apply genError_ok; auto|].
  pose proof (T2 _ Hz) as Hin. destruct (T3 _ _ Hin) as [N1 N2].
  rewrite (consume_cons p i ts Et N1 N2). cbn [pbind].
  pose proof (wfp_tail p i ts (ps_req p) Hw Et N1 N2) as Hw1.
  destruct (wfp_cur _ Hw1) as (j & ts1 & Et1 & Ec1). rewrite Ec1.
  destruct (ieqb_spec (i_typ j) itemComma) as [Hj|Hj].
  - simpl in Et1. subst ts.
    rewrite (consume_cons (stp p (j :: ts1) (ps_req p)) j ts1 eq_refl) by (rewrite Hj; discriminate).
    cbn [pbind].
    assert (Hw2 : wfp (stp p ts1 (ps_req p))).
    { apply (wfp_tail (stp p (j :: ts1) (ps_req p)) j ts1 (ps_req p) Hw1 eq_refl); rewrite Hj; discriminate. }
    change (stp (stp p (j :: ts1) (ps_req p)) ts1 (ps_req (stp p (j :: ts1) (ps_req p)))) with (stp p ts1 (ps_req p)).
    eapply spec_sub; [apply (sub_stp p [i; j] ts1 (ps_req p)); auto|].
    eapply spec_imp.
    + apply IH; auto. unfold ntoks in *. rewrite Et in Hf. simpl in *. lia.
    + intros o p' (ts & rest & os & E & HG & -> & Hr & Hne & ->). simpl in E.
      exists (i :: j :: ts), rest, (N.lor (omap_get tbl (i_typ i)) os).
      split; [rewrite Et, E; reflexivity|]. split; [constructor; auto|].
      split; [now rewrite N.lor_assoc|]. split; auto. split; [discriminate|]. reflexivity.
  - simpl. exists [i], ts, (omap_get tbl (i_typ i)). split; auto.
    split; [constructor; auto|]. split; auto. split; [apply Hw1|]. split; [discriminate|]. reflexivity.
Qed.

(** ** Arguments *)
Lemma pArg_spec p : wfp p ->
  spec p (pArg p) (fun a p' => exists i rest, ps_toks p = i :: rest /\ is_arg i /\ a = i_val i /\
     WfToks rest /\ p' = stp p rest (ps_req p)).
Proof.
  intros Hw. destruct (wfp_cur p Hw) as (i & ts & Et & Ec). unfold pArg, curtyp. rewrite Ec.
  destruct (Nat.ltb_spec (icode (i_typ i)) (icode itemHasValue)) as [Hlt|Hge].
  - apply genError_ok; auto.
  - assert (Ha : is_arg i).
    { unfold is_arg. repeat split; intros E; rewrite E in Hge; simpl in Hge; lia. }
    destruct Ha as (A1 & A2 & A3).
    rewrite (consume_cons p i ts Et A1 A3). simpl.
    exists i, ts. split; auto. split; [split; auto|]. split; [auto|]. split; auto.
    eapply (wfp_tail p i ts (ps_req p)); eauto.
Qed.

Lemma pDomain_spec p : wfp p ->
  spec p (pDomain p) (fun d p' => exists i rest, ps_toks p = i :: rest /\ is_domain i d /\
     WfToks rest /\ p' = stp p rest (ps_req p)).
Proof.
  intros Hw. destruct (wfp_cur p Hw) as (i & ts & Et & Ec). unfold pDomain, curtyp. rewrite Ec.
  destruct (ieqb_spec (i_typ i) itemValue) as [Hv|Hv]; simpl; [|apply genError_ok; auto].
  destruct (index_byte (i_val i) ch_dot) as [k|] eqn:Ek; [|apply posError_ok; auto].
  assert (Hin : In ch_dot (i_val i)).
  { apply index_byte_Some in Ek as (a & b & -> & _). apply in_elt. }
  destruct (last_byte (i_val i)) as [c|] eqn:El.
  2:{ apply last_byte_None in El. rewrite El in Hin. destruct Hin. }
  assert (N1 : i_typ i <> itemEOF) by (rewrite Hv; discriminate).
  assert (N2 : i_typ i <> itemError) by (rewrite Hv; discriminate).
  rewrite (consume_cons p i ts Et N1 N2). simpl.
  exists i, ts. split; auto. split; [|split; [eapply (wfp_tail p i ts (ps_req p)); eauto|reflexivity]].
  split; auto. split; auto. apply last_byte_Some in El as [u Eu].
  destruct (Ascii.eqb_spec c ch_dot) as [->|Hc].
  - left. eauto.
  - right. split; auto. intros [u' Eu']. rewrite Eu in Eu'. apply app_inj_tail in Eu' as [_ ?]. auto.
Qed.

Lemma pIPArg_spec p : wfp p ->
  spec p (pIPArg p) (fun a p' => exists i rest, ps_toks p = i :: rest /\ is_ip_arg i /\ a = i_val i /\
     WfToks rest /\ p' = stp p rest (ps_req p)).
Proof.
  intros Hw. destruct (wfp_cur p Hw) as (i & ts & Et & Ec). unfold pIPArg, curtyp. rewrite Ec.
  destruct (i_typ i) eqn:Ei; try (apply genError_ok; assumption).
  - assert (Hip : parse_cidr (i_val i) = None /\ parse_ip (i_val i) = None \/
       (parse_ip (i_val i) <> None \/ parse_cidr (i_val i) <> None)).
    { destruct (parse_cidr (i_val i)), (parse_ip (i_val i)); auto; right; (left; discriminate) || (right; discriminate). }
    destruct Hip as [[E1 E2]|Hip].
    + rewrite E1, E2. apply genError_ok; auto.
    + assert (E : (match parse_cidr (i_val i) with
        | Some _ => dop _, p' <- consume p; POk (i_val i) p'
        | None => match parse_ip (i_val i) with
                  | Some _ => dop _, p' <- consume p; POk (i_val i) p'
                  | None => genError (B "argument is not a valid IP address or CIDR") p
                  end
        end) = (dop _, p' <- consume p; POk (i_val i) p')).
      { destruct (parse_cidr (i_val i)), (parse_ip (i_val i)); auto. destruct Hip; congruence. }
      rewrite E.
      assert (N1 : i_typ i <> itemEOF) by (rewrite Ei; discriminate).
      assert (N2 : i_typ i <> itemError) by (rewrite Ei; discriminate).
      rewrite (consume_cons p i ts Et N1 N2). simpl.
      exists i, ts. repeat split; auto; [right; auto|]. eapply (wfp_tail p i ts (ps_req p)); eauto.
  - assert (N1 : i_typ i <> itemEOF) by (rewrite Ei; discriminate).
    assert (N2 : i_typ i <> itemError) by (rewrite Ei; discriminate).
    rewrite (consume_cons p i ts Et N1 N2). simpl.
    exists i, ts. repeat split; auto; [left; auto|]. eapply (wfp_tail p i ts (ps_req p)); eauto.
Qed.

Lemma pOnOff_spec p : wfp p ->
  spec p (pOnOff p) (fun b p' => exists i rest, ps_toks p = i :: rest /\
     i_typ i = (if b : bool then itemOn else itemOff) /\ WfToks rest /\ p' = stp p rest (ps_req p)).
Proof.
  intros Hw. destruct (wfp_cur p Hw) as (i & ts & Et & Ec). unfold pOnOff, curtyp. rewrite Ec.
  destruct (i_typ i) eqn:Ei; try (apply posError_ok; assumption).
  - assert (N1 : i_typ i <> itemEOF) by (rewrite Ei; discriminate).
    assert (N2 : i_typ i <> itemError) by (rewrite Ei; discriminate).
    rewrite (consume_cons p i ts Et N1 N2). simpl.
    exists i, ts. repeat split; auto. eapply (wfp_tail p i ts (ps_req p)); eauto.
  - assert (N1 : i_typ i <> itemEOF) by (rewrite Ei; discriminate).
    assert (N2 : i_typ i <> itemError) by (rewrite Ei; discriminate).
    rewrite (consume_cons p i ts Et N1 N2). simpl.
    exists i, ts. repeat split; auto. eapply (wfp_tail p i ts (ps_req p)); eauto.
Qed.

(** ** Expressions: soundness *)
Definition term_start (t : itype) : bool :=
  match t with
  | itemNot | itemLparen | itemFrom | itemTo | itemHelo | itemEhlo | itemHost | itemSource
  | itemIp | itemDnsbl | itemTls | itemAll | itemFromHas | itemToHas | itemDns | itemHeloHas
  | itemDbl => true
  | _ => false
  end.

Lemma land_bit (o k : N) : N.land o (2 ^ k)%N = 0%N \/ N.land o (2 ^ k)%N = (2 ^ k)%N.
Proof.
  destruct (N.testbit o k) eqn:E; [right|left]; apply N.bits_inj; intros j;
    rewrite N.land_spec, ?N.bits_0; destruct (N.eq_dec j k) as [->|Hj].
  - rewrite E. simpl. reflexivity.
  - rewrite N.pow2_bits_false by auto. apply andb_false_r.
  - rewrite E. reflexivity.
  - rewrite N.pow2_bits_false by auto. apply andb_false_r.
Qed.

Lemma ohas_single (o k : N) : ohas_all o (2 ^ k)%N = ohas o (2 ^ k)%N.
Proof.
  unfold ohas_all, ohas. assert (Hp : (2 ^ k <> 0)%N) by (apply N.pow_nonzero; lia).
  destruct (land_bit o k) as [E|E]; rewrite E.
  - destruct (N.eqb_spec 0 (2 ^ k)) as [E'|E']; [congruence|reflexivity].
  - rewrite N.eqb_refl. apply N.eqb_neq in Hp. rewrite Hp. reflexivity.
Qed.

Lemma dbl_phase_needs o d : dbl_phase o = needs (EDbl o d).
Proof.
  unfold dbl_phase. simpl. unfold oFrom, oEhlo. rewrite !ohas_single. reflexivity.
Qed.

Lemma needs_series es : es <> [] -> needs (series es) = fold_right pmax pAny (map needs es).
Proof.
  destruct es as [|e [|e2 es]]; intros H; [congruence| |reflexivity].
  simpl. now rewrite pmax_any_r.
Qed.

Definition TermQ (G : list item -> expr -> Prop) (p : pstate) (r : option expr) (p' : pstate) : Prop :=
  match r with
  | Some e => exists ts rest, ps_toks p = ts ++ rest /\ ts <> [] /\ G ts e /\ WfToks rest /\
                p' = stp p rest (pmax (ps_req p) (needs e))
  | None => p' = p /\ term_start (curtyp p) = false
  end.

Definition SeriesQ (nodes : list expr) (p : pstate) (r : option expr) (p' : pstate) : Prop :=
  exists ts rest es, ps_toks p = ts ++ rest /\ WfToks rest /\
    (ts = [] /\ es = [] \/ GSeries ts es) /\
    r = andl_of (nodes ++ es) /\
    p' = stp p rest (pmax (ps_req p) (fold_right pmax pAny (map needs es))) /\
    term_start (curtyp p') = false.

Lemma andl_series es : es <> [] -> andl_of es = Some (series es).
Proof. destruct es as [|e [|? ?]]; intros; [congruence| |]; reflexivity. Qed.

Lemma GSeries_ne ts es : GSeries ts es -> es <> [].
Proof. destruct 1; discriminate. Qed.

Lemma stp_stp p r1 q1 r2 q2 : stp (stp p r1 q1) r2 q2 = stp p r2 q2.
Proof. reflexivity. Qed.

Lemma ntoks_app p ts rest r : ps_toks p = ts ++ rest -> ntoks p = length ts + ntoks (stp p rest r).
Proof. unfold ntoks. intros ->. rewrite app_length. reflexivity. Qed.

(** one keyword with one argument *)
Lemma consume_raise p i ts ph : ps_toks p = i :: ts -> i_typ i <> itemEOF -> i_typ i <> itemError ->
  consume (raise_req ph p) = POk tt (stp p ts (pmax (ps_req p) ph)).
Proof.
  intros Et N1 N2. rewrite raise_req_eq.
  rewrite (consume_cons (stp p (ps_toks p) (pmax (ps_req p) ph)) i ts Et N1 N2). reflexivity.
Qed.

Ltac kw_start p i ts Et Ei :=
  let N1 := fresh "N1" in let N2 := fresh "N2" in
  assert (N1 : i_typ i <> itemEOF) by (rewrite Ei; discriminate);
  assert (N2 : i_typ i <> itemError) by (rewrite Ei; discriminate);
  rewrite (consume_raise p i ts _ Et N1 N2); cbn [pbind].

Lemma GTerm_ne ts e : GTerm ts e -> ts <> [].
Proof. destruct 1; discriminate. Qed.

Lemma GOrl_ne ts e : GOrl ts e -> ts <> [].
Proof.
  destruct 1 as [ts e H|]; [eapply GTerm_ne; eauto|].
  destruct ts1; discriminate.
Qed.

Lemma match_kind_not_special t k : match_kind t = Some k -> t <> itemNot /\ t <> itemLparen.
Proof. destruct t; try discriminate; split; discriminate. Qed.

Lemma expr_spec : forall fuel,
  (forall p, wfp p -> 3 * ntoks p + 1 <= fuel -> spec p (pTerm fuel p) (TermQ GTerm p)) /\
  (forall p, wfp p -> 3 * ntoks p + 2 <= fuel -> spec p (pOrl fuel p) (TermQ GOrl p)) /\
  (forall p nodes, wfp p -> 3 * ntoks p + 3 <= fuel ->
       spec p (pAndl_loop fuel nodes p) (SeriesQ nodes p)).
Proof.
  induction fuel as [|n (IHt & IHo & IHa)]; [repeat split; intros; lia|].
  split; [|split].
  - (* pTerm *)
    intros p Hw Hf. cbn [pTerm].
    destruct (wfp_cur p Hw) as (i & ts & Et & Ec).
    assert (Hn : ntoks p = S (length ts)) by (unfold ntoks; rewrite Et; reflexivity).
    unfold curtyp at 1. rewrite Ec.
    assert (Hdef : term_start (i_typ i) = false ->
      spec p (POk None (raise_req (minReq (i_typ i)) p)) (TermQ GTerm p)).
    { intros Hts. simpl. rewrite raise_req_eq. unfold curtyp. rewrite Ec.
      assert (E : minReq (i_typ i) = pAny) by (destruct (i_typ i); simpl in *; (reflexivity || discriminate)).
      rewrite E, pmax_any_r, stp_self. auto. }
    destruct (i_typ i) eqn:Ei; try (apply Hdef; reflexivity); clear Hdef.
    + (* ( *)
      assert (N1 : i_typ i <> itemEOF) by (rewrite Ei; discriminate).
      assert (N2 : i_typ i <> itemError) by (rewrite Ei; discriminate).
      rewrite (consume_cons p i ts Et N1 N2). cbn [pbind].
      pose proof (wfp_tail p i ts (ps_req p) Hw Et N1 N2) as Hw1.
      assert (Hs1 : sub (stp p ts (ps_req p)) p) by (apply (sub_stp p [i]); auto).
      eapply spec_bind.
      { eapply spec_sub; [exact Hs1|]. apply IHa; auto. unfold ntoks in *; simpl; lia. }
      intros e p2 (ts2 & rest & es & Et2 & Hr & HG & -> & -> & Hts). simpl in Et2.
      rewrite stp_stp in *. cbn [ps_req stp] in *.
      set (req2 := pmax (ps_req p) (fold_right pmax pAny (map needs es))) in *.
      assert (Hw2 : wfp (stp p rest req2)).
      { apply (wfp_app p (i :: ts2)); auto. rewrite Et, Et2. reflexivity. }
      assert (Hs2 : sub (stp p rest req2) p).
      { apply (sub_stp p (i :: ts2)). rewrite Et, Et2. reflexivity. }
      destruct (ieqb_spec (curtyp (stp p rest req2)) itemRparen) as [Hrp|Hrp]; simpl negb; cbv iota.
      2:{ eapply spec_sub; [exact Hs2|]. apply genError_ok; auto. }
      destruct HG as [[-> ->]|HG].
      { simpl. eapply spec_sub; [exact Hs2|]. apply posError_ok; auto. }
      simpl app. rewrite (andl_series es (GSeries_ne _ _ HG)).
      destruct (wfp_cur _ Hw2) as (j & ts3 & Et3 & Ec3). unfold curtyp in Hrp. rewrite Ec3 in Hrp.
      simpl in Et3.
      rewrite (consume_cons (stp p rest req2) j ts3 Et3) by (rewrite Hrp; discriminate).
      cbn [pbind spec]. rewrite stp_stp. cbn [ps_req stp].
      exists (i :: ts2 ++ [j]), ts3. split.
      { rewrite Et, Et2, Et3. simpl. now rewrite <- app_assoc. }
      split; [discriminate|].
      split; [constructor; auto; constructor; auto|].
      split.
      { eapply (wfp_tail (stp p rest req2) j ts3 req2); auto; rewrite Hrp; discriminate. }
      unfold req2. rewrite (needs_series es (GSeries_ne _ _ HG)). reflexivity.
    + (* not *)
      assert (N1 : i_typ i <> itemEOF) by (rewrite Ei; discriminate).
      assert (N2 : i_typ i <> itemError) by (rewrite Ei; discriminate).
      rewrite (consume_cons p i ts Et N1 N2). cbn [pbind].
      pose proof (wfp_tail p i ts (ps_req p) Hw Et N1 N2) as Hw1.
      assert (Hs1 : sub (stp p ts (ps_req p)) p) by (apply (sub_stp p [i]); auto).
      eapply spec_bind.
      { eapply spec_sub; [exact Hs1|]. apply IHt; auto. unfold ntoks in *; simpl; lia. }
      intros [e|] p2 H.
      * destruct H as (ts2 & rest & Et2 & Hne & HG & Hr & ->). simpl in Et2. rewrite stp_stp. cbn [ps_req stp].
        simpl. exists (i :: ts2), rest. split; [rewrite Et, Et2; reflexivity|].
        split; [discriminate|]. split; [constructor; auto|]. auto.
      * destruct H as [-> _]. eapply spec_sub; [exact Hs1|]. apply genError_ok; auto.
    + (* helo *)
      kw_start p i ts Et Ei.
      eapply spec_bind.
      { eapply spec_sub; [eapply (sub_stp p [i] ts); exact Et|]. apply pArg_spec. eapply wfp_tail; eauto. }
      intros a p2 (j & rest & Ej & Ha & -> & Hr & ->). simpl in Ej. subst ts.
      simpl. exists [i; j], rest. repeat split; auto; [discriminate|].
      constructor; auto. now rewrite Ei.
    + (* all *)
      kw_start p i ts Et Ei. simpl. exists [i], ts. repeat split; auto; [discriminate|constructor; auto|].
      eapply (wfp_tail p i ts (ps_req p)); eauto.
    + (* from *)
      kw_start p i ts Et Ei.
      eapply spec_bind.
      { eapply spec_sub; [eapply (sub_stp p [i] ts); exact Et|]. apply pArg_spec. eapply wfp_tail; eauto. }
      intros a p2 (j & rest & Ej & Ha & -> & Hr & ->). simpl in Ej. subst ts.
      simpl. exists [i; j], rest. repeat split; auto; [discriminate|].
      constructor; auto. now rewrite Ei.
    + (* to *)
      kw_start p i ts Et Ei.
      eapply spec_bind.
      { eapply spec_sub; [eapply (sub_stp p [i] ts); exact Et|]. apply pArg_spec. eapply wfp_tail; eauto. }
      intros a p2 (j & rest & Ej & Ha & -> & Hr & ->). simpl in Ej. subst ts.
      simpl. exists [i; j], rest. repeat split; auto; [discriminate|].
      constructor; auto. now rewrite Ei.
    + (* from-has *)
      kw_start p i ts Et Ei.
      eapply spec_bind.
      { eapply spec_sub; [eapply (sub_stp p [i] ts); exact Et|]. apply pCommaOpts_spec; [apply addrMap_ok|eapply wfp_tail; eauto|lia]. }
      intros o p2 (ts2 & rest & os & E2 & HG & -> & Hr & Hne & ->). simpl in E2. subst ts.
      simpl. exists (i :: ts2), rest. repeat split; auto; [discriminate|].
      eapply GT_opts; eauto. now rewrite Ei.
    + (* to-has *)
      kw_start p i ts Et Ei.
      eapply spec_bind.
      { eapply spec_sub; [eapply (sub_stp p [i] ts); exact Et|]. apply pCommaOpts_spec; [apply addrMap_ok|eapply wfp_tail; eauto|lia]. }
      intros o p2 (ts2 & rest & os & E2 & HG & -> & Hr & Hne & ->). simpl in E2. subst ts.
      simpl. exists (i :: ts2), rest. repeat split; auto; [discriminate|].
      eapply GT_opts; eauto. now rewrite Ei.
    + (* helo-has *)
      kw_start p i ts Et Ei.
      eapply spec_bind.
      { eapply spec_sub; [eapply (sub_stp p [i] ts); exact Et|]. apply pCommaOpts_spec; [apply heloMap_ok|eapply wfp_tail; eauto|lia]. }
      intros o p2 (ts2 & rest & os & E2 & HG & -> & Hr & Hne & ->). simpl in E2. subst ts.
      simpl. exists (i :: ts2), rest. repeat split; auto; [discriminate|].
      eapply GT_opts; eauto. now rewrite Ei.
    + (* tls *)
      kw_start p i ts Et Ei.
      eapply spec_bind.
      { eapply spec_sub; [eapply (sub_stp p [i] ts); exact Et|]. apply pOnOff_spec. eapply wfp_tail; eauto. }
      intros b p2 (j & rest & Ej & Hb & Hr & ->). simpl in Ej. subst ts.
      simpl. exists [i; j], rest. repeat split; auto; [discriminate|]. constructor; auto.
    + (* host *)
      kw_start p i ts Et Ei.
      eapply spec_bind.
      { eapply spec_sub; [eapply (sub_stp p [i] ts); exact Et|]. apply pArg_spec. eapply wfp_tail; eauto. }
      intros a p2 (j & rest & Ej & Ha & -> & Hr & ->). simpl in Ej. subst ts.
      simpl. exists [i; j], rest. repeat split; auto; [discriminate|].
      constructor; auto. now rewrite Ei.
    + (* dns *)
      kw_start p i ts Et Ei.
      eapply spec_bind.
      { eapply spec_sub; [eapply (sub_stp p [i] ts); exact Et|]. apply pCommaOpts_spec; [apply dnsMap_ok|eapply wfp_tail; eauto|lia]. }
      intros o p2 (ts2 & rest & os & E2 & HG & -> & Hr & Hne & ->). simpl in E2. subst ts.
      simpl. exists (i :: ts2), rest. repeat split; auto; [discriminate|].
      eapply GT_opts; eauto. now rewrite Ei.
    + (* ip *)
      kw_start p i ts Et Ei.
      eapply spec_bind.
      { eapply spec_sub; [eapply (sub_stp p [i] ts); exact Et|]. apply pIPArg_spec. eapply wfp_tail; eauto. }
      intros a p2 (j & rest & Ej & Ha & -> & Hr & ->). simpl in Ej. subst ts.
      simpl. exists [i; j], rest. repeat split; auto; [discriminate|].
      apply GT_ip; auto.
    + (* dnsbl *)
      kw_start p i ts Et Ei.
      eapply spec_bind.
      { eapply spec_sub; [eapply (sub_stp p [i] ts); exact Et|]. apply pDomain_spec. eapply wfp_tail; eauto. }
      intros a p2 (j & rest & Ej & Ha & Hr & ->). simpl in Ej. subst ts.
      simpl. exists [i; j], rest. repeat split; auto; [discriminate|].
      apply GT_dnsbl; auto.
    + (* source *)
      kw_start p i ts Et Ei.
      eapply spec_bind.
      { eapply spec_sub; [eapply (sub_stp p [i] ts); exact Et|]. apply pArg_spec. eapply wfp_tail; eauto. }
      intros a p2 (j & rest & Ej & Ha & -> & Hr & ->). simpl in Ej. subst ts.
      simpl. exists [i; j], rest. repeat split; auto; [discriminate|].
      constructor; auto.
    + (* dbl *)
      kw_start p i ts Et Ei.
      eapply spec_bind.
      { eapply spec_sub; [eapply (sub_stp p [i] ts); exact Et|]. apply pCommaOpts_spec; [apply dblMap_ok|eapply wfp_tail; eauto|lia]. }
      intros o p2 (ts2 & rest & os & E2 & HG & -> & Hr & Hne & ->). simpl in E2. subst ts.
      rewrite stp_stp. cbn [ps_req stp].
      assert (Hw2 : wfp (stp p rest (pmax (ps_req p) (minReq itemDbl)))).
      { apply (wfp_app p (i :: ts2)); auto. }
      eapply spec_bind.
      { eapply spec_sub; [eapply (sub_stp p (i :: ts2) rest); exact Et|]. apply pDomain_spec; auto. }
      intros a p3 (j & rest3 & Ej & Ha & Hr3 & ->). simpl in Ej. subst rest.
      cbn [spec]. rewrite raise_req_eq. rewrite !stp_stp. cbn [ps_req stp ps_toks].
      simpl minReq. rewrite pmax_any_r. rewrite (dbl_phase_needs _ a).
      exists (i :: ts2 ++ [j]), rest3. repeat split; auto.
      * rewrite Et. simpl. now rewrite <- app_assoc.
      * discriminate.
      * apply GT_dbl; auto.
    + (* ehlo *)
      kw_start p i ts Et Ei.
      eapply spec_bind.
      { eapply spec_sub; [eapply (sub_stp p [i] ts); exact Et|]. apply pArg_spec. eapply wfp_tail; eauto. }
      intros a p2 (j & rest & Ej & Ha & -> & Hr & ->). simpl in Ej. subst ts.
      simpl. exists [i; j], rest. repeat split; auto; [discriminate|].
      constructor; auto. now rewrite Ei.
  - (* pOrl *)
    intros p Hw Hf. cbn [pOrl].
    eapply spec_bind; [apply IHt; auto; lia|].
    intros [e|] p1 H.
    + destruct H as (ts & rest & Et & Hne & HG & Hr & ->).
      set (req1 := pmax (ps_req p) (needs e)).
      assert (Hw1 : wfp (stp p rest req1)) by (eapply wfp_app; eauto).
      assert (Hs1 : sub (stp p rest req1) p) by (eapply sub_stp; eauto).
      destruct (wfp_cur _ Hw1) as (j & ts1 & Et1 & Ec1). simpl in Et1.
      unfold curtyp at 1. rewrite Ec1.
      destruct (ieqb_spec (i_typ j) itemOr) as [Hor|Hor]; simpl negb; cbv iota.
      2:{ cbn [spec]. exists ts, rest. repeat split; auto. constructor; auto. }
      rewrite (consume_cons (stp p rest req1) j ts1 Et1) by (rewrite Hor; discriminate).
      cbn [pbind]. rewrite stp_stp. cbn [ps_req stp].
      assert (Hw2 : wfp (stp p ts1 req1)).
      { eapply (wfp_tail (stp p rest req1) j ts1); eauto; rewrite Hor; discriminate. }
      assert (Hs2 : sub (stp p ts1 req1) p).
      { apply (sub_stp p (ts ++ [j])). rewrite Et, Et1, <- app_assoc. reflexivity. }
      assert (Hlen : ntoks p = length ts + S (length ts1)).
      { unfold ntoks. rewrite Et, Et1, app_length. reflexivity. }
      eapply spec_bind.
      { eapply spec_sub; [exact Hs2|]. apply IHo; auto.
        unfold ntoks in *; simpl. destruct ts; [congruence|simpl in *; lia]. }
      intros [e2|] p3 H.
      * destruct H as (ts2 & rest2 & Et2 & Hne2 & HG2 & Hr2 & ->). simpl in Et2.
        cbn [spec TermQ]. exists (ts ++ j :: ts2), rest2.
        split; [rewrite Et, Et1, Et2, <- app_assoc; reflexivity|].
        split; [destruct ts; discriminate|].
        split; [apply GOr_or; auto|]. split; auto.
        rewrite stp_stp. cbn [ps_req stp needs]. unfold req1. now rewrite pmax_assoc.
      * destruct H as [-> _]. destruct (_ || _).
        -- eapply spec_sub; [exact Hs2|]. apply posError_ok; auto.
        -- eapply spec_sub; [exact Hs2|]. apply genError_ok; auto.
    + destruct H as [-> Hts].
      destruct (ieqb_spec (curtyp p) itemOr) as [Hor|Hor]; simpl negb; cbv iota.
      * apply posError_ok; auto.
      * simpl. auto.
  - (* pAndl_loop *)
    intros p nodes Hw Hf. cbn [pAndl_loop].
    eapply spec_bind; [apply IHo; auto; lia|].
    intros [e|] p1 H.
    + destruct H as (ts & rest & Et & Hne & HG & Hr & ->).
      set (req1 := pmax (ps_req p) (needs e)).
      assert (Hw1 : wfp (stp p rest req1)) by (eapply wfp_app; eauto).
      assert (Hs1 : sub (stp p rest req1) p) by (eapply sub_stp; eauto).
      assert (Hlen : ntoks p = length ts + length rest).
      { unfold ntoks. rewrite Et, app_length. reflexivity. }
      eapply spec_imp.
      { eapply spec_sub; [exact Hs1|]. apply IHa; auto.
        unfold ntoks in *; simpl. destruct ts; [congruence|simpl in *; lia]. }
      intros r p' (ts2 & rest2 & es & Et2 & Hr2 & HG2 & -> & -> & Hts). simpl in Et2.
      rewrite stp_stp in *. cbn [ps_req stp] in *.
      exists (ts ++ ts2), rest2, (e :: es).
      split; [rewrite Et, Et2, <- app_assoc; reflexivity|]. split; auto.
      split.
      { right. destruct HG2 as [[-> ->]|HG2]; [rewrite app_nil_r; constructor; auto|constructor; auto]. }
      split; [rewrite <- app_assoc; reflexivity|].
      cbn [map fold_right]. unfold req1 in *. rewrite pmax_assoc. auto.
    + destruct H as [-> Hts]. simpl. exists [], (ps_toks p), [].
      split; auto. split; [apply Hw|]. split; [left; auto|].
      split; [now rewrite app_nil_r|]. simpl. rewrite pmax_any_r, stp_self. auto.
Qed.

Lemma pAndl_spec p : wfp p ->
  spec p (pAndl p) (fun r p' =>
    match r with
    | Some e => exists ts rest, ps_toks p = ts ++ rest /\ ts <> [] /\ GAndl ts e /\ WfToks rest /\
                  p' = stp p rest (pmax (ps_req p) (needs e)) /\ term_start (curtyp p') = false
    | None => p' = p /\ term_start (curtyp p) = false
    end).
Proof.
  intros Hw. unfold pAndl. eapply spec_imp.
  { apply (proj2 (proj2 (expr_spec (expr_fuel p)))); auto. unfold expr_fuel. lia. }
  intros r p' (ts & rest & es & Et & Hr & HG & -> & -> & Hts).
  destruct HG as [[-> ->]|HG].
  - simpl in *. rewrite pmax_any_r in *. subst rest. rewrite stp_self in *. auto.
  - simpl app. pose proof (GSeries_ne _ _ HG) as Hne. rewrite (andl_series es Hne).
    exists ts, rest. rewrite (needs_series es Hne).
    split; auto. split; [|split; [constructor; auto|auto]].
    intros ->. inversion HG as [? ? H0|? ? ? ? H0 H1 H2]; subst.
    + now apply GOrl_ne in H0.
    + destruct ts; [now apply GOrl_ne in H0|discriminate].
Qed.

(** ** With clauses: soundness *)
Definition add_withs (w : smap bytes) (kvs : list (bytes * bytes)) : smap bytes :=
  fold_left (fun m kv => mset m (fst kv) (snd kv)) kvs w.

Definition WInv (seen : list (bytes * bytes)) (w : smap bytes) : Prop :=
  (forall k v, mget w k = Some v -> In (k, v) seen) /\
  (forall k, mget w k = None -> forall v, ~ In (k, v) seen) /\
  (forall k v, In (k, v) seen -> v <> [] -> mget w k = Some v).

Lemma WInv_nil : WInv [] [].
Proof. split; [discriminate|split; simpl; auto]. intros k v []. Qed.

Lemma WInv_add seen w k v :
  WInv seen w -> (forall v', In (k, v') seen -> v' = []) -> WInv (seen ++ [(k, v)]) (mset w k v).
Proof.
  intros (A & Bq & C) H. repeat split.
  - intros k' v' E. apply in_or_app. destruct (beqb_spec k' k) as [->|Hk].
    + rewrite mget_mset_same in E. injection E as ->. right; simpl; auto.
    + rewrite mget_mset_other in E by auto. left; auto.
  - intros k' E v' Hin. destruct (beqb_spec k' k) as [->|Hk].
    + rewrite mget_mset_same in E. discriminate.
    + rewrite mget_mset_other in E by auto. apply in_app_or in Hin as [Hin|[Hin|[]]].
      * eapply Bq; eauto.
      * injection Hin as -> ->. congruence.
  - intros k' v' Hin Hne. apply in_app_or in Hin as [Hin|[Hin|[]]].
    + destruct (beqb_spec k' k) as [->|Hk]; [exfalso; auto|].
      rewrite mget_mset_other by auto. auto.
    + injection Hin as <- <-. apply mget_mset_same.
Qed.

Definition with_start (t : itype) : bool :=
  match t with
  | itemMessage | itemNote | itemSavedir | itemTlsOpt | itemMakeYakker => true
  | _ => false
  end.

Lemma may_add_empty t k seen : may_add t k seen -> forall v, In (k, v) seen -> v = [].
Proof.
  unfold may_add. destruct t; auto; intros H v Hin; exfalso; eapply H; eauto.
Qed.

Definition WQ (seen : list (bytes * bytes)) (w : smap bytes) (got : bool) (p : pstate)
  (r : smap bytes * bool) (p' : pstate) : Prop :=
  exists ts rest kvs, ps_toks p = ts ++ rest /\ WfToks rest /\
    (ts = [] /\ kvs = [] \/ GWiths seen ts kvs) /\
    r = (add_withs w kvs, match kvs with [] => got | _ => true end) /\
    p' = stp p rest (ps_req p) /\ with_start (curtyp p') = false.

Lemma GWiths_ne seen ts kvs : GWiths seen ts kvs -> kvs <> [].
Proof. destruct 1; discriminate. Qed.

Lemma GWiths_cons seen k ts kv ts' kvs :
  GWterm (k :: ts) kv -> may_add (i_typ k) (i_val k) seen ->
  (ts' = [] /\ kvs = [] \/ GWiths (seen ++ [kv]) ts' kvs) ->
  GWiths seen (k :: ts ++ ts') (kv :: kvs).
Proof.
  intros H1 H2 [[-> ->]|H3]; [rewrite app_nil_r; constructor; auto|eapply GWs_more; eauto].
Qed.

Lemma pWClause_spec : forall fuel seen w got p,
  wfp p -> ntoks p < fuel -> WInv seen w ->
  spec p (pWClause fuel w got p) (WQ seen w got p).
Proof.
  induction fuel as [|n IH]; intros seen w got p Hw Hf HI; [lia|].
  cbn [pWClause]. destruct (wfp_cur p Hw) as (i & ts & Et & Ec).
  assert (Hn : ntoks p = S (length ts)) by (unfold ntoks; rewrite Et; reflexivity).
  assert (Hstop : with_start (curtyp p) = false -> spec p (POk (w, got) p) (WQ seen w got p)).
  { intros Hs. simpl. exists [], (ps_toks p), []. rewrite stp_self.
    repeat split; auto. apply Hw. }
  unfold curtyp at 1. rewrite !Ec.
  (* one option with an argument *)
  assert (Harg : forall (Q : bytes -> Prop) (bad : bytes -> bool),
    i_typ i <> itemEOF -> i_typ i <> itemError ->
    (forall a, is_arg a -> bad (i_val a) = false -> GWterm [i; a] (i_val i, i_val a)) ->
    may_add (i_typ i) (i_val i) seen ->
    forall msg,
    spec p (dop _, p1 <- consume p;
            dop arg, p2 <- pArg p1;
            if bad arg then posError msg p2
            else pWClause n (mset w (i_val i) arg) true p2) (WQ seen w got p)).
  { intros _ bad N1 N2 Hg Hm msg.
    rewrite (consume_cons p i ts Et N1 N2). cbn [pbind].
    pose proof (wfp_tail p i ts (ps_req p) Hw Et N1 N2) as Hw1.
    eapply spec_bind.
    { eapply spec_sub; [eapply (sub_stp p [i] ts); exact Et|]. apply pArg_spec; auto. }
    intros a p2 (j & rest & Ej & Ha & -> & Hr & ->). simpl in Ej. subst ts.
    rewrite stp_stp. cbn [ps_req stp].
    assert (Hw2 : wfp (stp p rest (ps_req p))) by (eapply (wfp_app p [i; j]); eauto).
    assert (Hs2 : sub (stp p rest (ps_req p)) p) by (eapply (sub_stp p [i; j]); eauto).
    destruct (bad (i_val j)) eqn:Eb.
    - eapply spec_sub; [exact Hs2|]. apply posError_ok; auto.
    - eapply spec_imp.
      { eapply spec_sub; [exact Hs2|]. apply (IH (seen ++ [(i_val i, i_val j)])); auto.
        - unfold ntoks in *; simpl in *; lia.
        - apply WInv_add; auto. eapply may_add_empty; eauto. }
      intros r p' (ts' & rest' & kvs & E' & Hr' & HG & -> & -> & Hst). simpl in E'.
      exists (i :: [j] ++ ts'), rest', ((i_val i, i_val j) :: kvs).
      split; [rewrite Et, E'; reflexivity|]. split; auto.
      split; [right; apply GWiths_cons; auto|].
      split; [destruct kvs; reflexivity|]. auto. }
  assert (Hrep : match mget w (i_val i) with Some (_ :: _) => false | _ => true end = true ->
                 forall v, In (i_val i, v) seen -> v = []).
  { intros Hg v Hin. destruct v as [|c v]; auto. exfalso.
    destruct HI as (_ & _ & C). rewrite (C _ _ Hin) in Hg by discriminate. discriminate. }
  assert (Hrep' : mget w (i_val i) = None -> forall v, ~ In (i_val i, v) seen).
  { apply HI. }
  destruct (i_typ i) eqn:Ei; try (apply Hstop; unfold curtyp; rewrite Ec, Ei; reflexivity); clear Hstop;
    rewrite ?Ec.
  - (* message *)
    destruct (mget w (i_val i)) as [[|c v]|] eqn:Em; cbv iota.
    3:{ apply (Harg (fun _ => True) (fun arg => ieqb (curtyp p) itemNote && mem_byte ch_nl arg)); try discriminate; [|exact (Hrep eq_refl)].
        intros a Ha _. apply GW_message; auto. }
    + apply (Harg (fun _ => True) (fun arg => ieqb (curtyp p) itemNote && mem_byte ch_nl arg)); try discriminate; [|exact (Hrep eq_refl)].
      intros a Ha _. apply GW_message; auto.
    + apply posError_ok; auto.
  - (* note *)
    assert (Hnote : forall a, is_arg a -> ieqb (curtyp p) itemNote && mem_byte ch_nl (i_val a) = false -> GWterm [i; a] (i_val i, i_val a)).
    { intros a Ha Hb. apply GW_note; auto. unfold curtyp in Hb. rewrite Ec, Ei in Hb. simpl in Hb. intros Hin. apply mem_byte_In in Hin. congruence. }
    destruct (mget w (i_val i)) as [[|c v]|] eqn:Em; cbv iota.
    3:{ apply (Harg (fun _ => True) (fun arg => ieqb (curtyp p) itemNote && mem_byte ch_nl arg)); try discriminate; [exact Hnote|exact (Hrep eq_refl)]. }
    + apply (Harg (fun _ => True) (fun arg => ieqb (curtyp p) itemNote && mem_byte ch_nl arg)); try discriminate; [exact Hnote|exact (Hrep eq_refl)].
    + apply posError_ok; auto.
  - (* savedir *)
    destruct (mget w (i_val i)) as [[|c v]|] eqn:Em; cbv iota.
    3:{ apply (Harg (fun _ => True) (fun arg => ieqb (curtyp p) itemNote && mem_byte ch_nl arg)); try discriminate; [|exact (Hrep eq_refl)].
        intros a Ha _. apply GW_savedir; auto. }
    + apply (Harg (fun _ => True) (fun arg => ieqb (curtyp p) itemNote && mem_byte ch_nl arg)); try discriminate; [|exact (Hrep eq_refl)].
      intros a Ha _. apply GW_savedir; auto.
    + apply posError_ok; auto.
  - (* tls-opt *)
    destruct (mget w (i_val i)) eqn:Em; [apply posError_ok; auto|].
    assert (N1 : i_typ i <> itemEOF) by (rewrite Ei; discriminate).
    assert (N2 : i_typ i <> itemError) by (rewrite Ei; discriminate).
    rewrite (consume_cons p i ts Et N1 N2). cbn [pbind].
    pose proof (wfp_tail p i ts (ps_req p) Hw Et N1 N2) as Hw1.
    assert (Hs1 : sub (stp p ts (ps_req p)) p) by (apply (sub_stp p [i]); auto).
    pose proof (pArg_spec _ Hw1) as HA.
    destruct (pArg (stp p ts (ps_req p))) as [arg p2|e| |]; simpl in HA; try contradiction.
    + destruct HA as (j & rest & Ej & Ha & -> & Hr & ->). subst ts.
      rewrite stp_stp. cbn [ps_req stp].
      assert (Hw2 : wfp (stp p rest (ps_req p))) by (eapply (wfp_app p [i; j]); eauto).
      assert (Hs2 : sub (stp p rest (ps_req p)) p) by (eapply (sub_stp p [i; j]); eauto).
      destruct (beqb (i_val j) (B "off") || beqb (i_val j) (B "no-client")) eqn:Eb.
      * eapply spec_imp.
        { eapply spec_sub; [exact Hs2|]. apply (IH (seen ++ [(i_val i, i_val j)])); auto.
          - unfold ntoks in *; simpl in *; lia.
          - apply WInv_add; [exact HI|]. intros v Hin. exfalso. eapply Hrep'; eauto. }
        intros r p' (ts' & rest' & kvs & E' & Hr' & HG & -> & -> & Hst). simpl in E'.
        exists (i :: [j] ++ ts'), rest', ((i_val i, i_val j) :: kvs).
        split; [rewrite Et, E'; reflexivity|]. split; auto.
        split; [right; apply GWiths_cons; [| |exact HG]|].
        { apply GW_tlsopt; auto. apply orb_true_iff in Eb as [Eb|Eb]; apply beqb_eq in Eb; auto. }
        { rewrite Ei. exact (Hrep' eq_refl). }
        split; [destruct kvs; reflexivity|]. auto.
      * eapply spec_sub; [exact Hs2|]. apply posError_ok; auto.
    + eapply spec_sub; [exact Hs1|]. apply posError_ok; auto.
  - (* make-yakker *)
    destruct (mget w (i_val i)) eqn:Em; [apply posError_ok; auto|].
    assert (N1 : i_typ i <> itemEOF) by (rewrite Ei; discriminate).
    assert (N2 : i_typ i <> itemError) by (rewrite Ei; discriminate).
    rewrite (consume_cons p i ts Et N1 N2). cbn [pbind].
    pose proof (wfp_tail p i ts (ps_req p) Hw Et N1 N2) as Hw1.
    assert (Hs1 : sub (stp p ts (ps_req p)) p) by (apply (sub_stp p [i]); auto).
    eapply spec_imp.
    { eapply spec_sub; [exact Hs1|]. apply (IH (seen ++ [(i_val i, [])])); auto.
      - unfold ntoks in *; simpl in *; lia.
      - apply WInv_add; [exact HI|]. intros v Hin. exfalso. eapply Hrep'; eauto. }
    intros r p' (ts' & rest' & kvs & E' & Hr' & HG & -> & -> & Hst). simpl in E'.
    exists (i :: [] ++ ts'), rest', ((i_val i, []) :: kvs).
    split; [rewrite Et, E'; reflexivity|]. split; auto.
    split; [right; apply GWiths_cons; [| |exact HG]|].
    { apply GW_yakker; auto. }
    { rewrite Ei. exact (Hrep' eq_refl). }
    split; [destruct kvs; reflexivity|]. auto.
Qed.

(** [with] and what follows it *)
Inductive GWithPart : list item -> smap bytes -> Prop :=
| GWP_none : GWithPart [] []
| GWP_some w wts kvs : i_typ w = itemWith -> GWiths [] wts kvs -> GWithPart (w :: wts) (withs_of kvs).

Lemma isERule_or p : isERule p = true ->
  curtyp p = itemEOL \/ curtyp p = itemEOF \/ curtyp p = itemSemicolon.
Proof.
  unfold isERule, isEol.
  destruct (ieqb_spec (curtyp p) itemEOL), (ieqb_spec (curtyp p) itemEOF),
    (ieqb_spec (curtyp p) itemSemicolon); simpl; auto; discriminate.
Qed.

Lemma pWith_spec p : wfp p ->
  spec p (pWith p) (fun w p' => exists ts rest, ps_toks p = ts ++ rest /\ GWithPart ts w /\
     WfToks rest /\ p' = stp p rest (ps_req p)).
Proof.
  intros Hw. unfold pWith. destruct (wfp_cur p Hw) as (i & ts & Et & Ec).
  unfold curtyp at 1. rewrite Ec.
  destruct (ieqb_spec (i_typ i) itemWith) as [Ei|Ei]; simpl negb; cbv iota.
  2:{ simpl. exists [], (ps_toks p). rewrite stp_self. split; auto. split; [constructor|]. split; auto. apply Hw. }
  assert (N1 : i_typ i <> itemEOF) by (rewrite Ei; discriminate).
  assert (N2 : i_typ i <> itemError) by (rewrite Ei; discriminate).
  rewrite (consume_cons p i ts Et N1 N2). cbn [pbind].
  pose proof (wfp_tail p i ts (ps_req p) Hw Et N1 N2) as Hw1.
  assert (Hs1 : sub (stp p ts (ps_req p)) p) by (apply (sub_stp p [i]); auto).
  eapply spec_bind.
  { eapply spec_sub; [exact Hs1|]. apply (pWClause_spec _ [] [] false); auto. apply WInv_nil. }
  intros r p2 (ts' & rest & kvs & E' & Hr & HG & -> & -> & Hst). simpl in E'.
  rewrite stp_stp in *. cbn [ps_req stp snd fst] in *.
  assert (Hw2 : wfp (stp p rest (ps_req p))).
  { apply (wfp_app p (i :: ts')); auto. rewrite Et, E'. reflexivity. }
  assert (Hs2 : sub (stp p rest (ps_req p)) p).
  { apply (sub_stp p (i :: ts')). rewrite Et, E'. reflexivity. }
  destruct (isERule (stp p rest (ps_req p))) eqn:Er; simpl.
  - destruct kvs as [|kv kvs]; simpl.
    + eapply (@spec_sub (smap bytes)); [exact Hs2|]. apply posError_ok; auto.
    + exists (i :: ts'), rest. split; [rewrite Et, E'; reflexivity|]. split; [|auto].
      destruct HG as [[_ H]|HG]; [discriminate|].
      apply (GWP_some i ts' (kv :: kvs)); auto.
  - eapply spec_sub; [exact Hs2|]. apply genError_ok; auto.
Qed.

(** ** Clauses, rules, files: soundness *)
Ltac appeq := simpl; repeat (rewrite <- app_assoc; simpl); reflexivity.

Definition stc (p : pstate) (rest : list item) (r : phase) (cs : list rclause) : pstate :=
  mkPS (ps_input p) rest r (ps_defer p) (ps_res p) cs (ps_tick p).

Lemma isEol_or p : isEol p = true -> curtyp p = itemEOL \/ curtyp p = itemEOF.
Proof.
  unfold isEol. destruct (ieqb_spec (curtyp p) itemEOL), (ieqb_spec (curtyp p) itemEOF);
    simpl; auto; discriminate.
Qed.

Lemma wfp_sub p p' : wfp p -> sub p' p -> WfToks (ps_toks p') -> wfp p'.
Proof.
  intros [H1 H2] [Hi [ts E]] Hr. split; auto. rewrite Hi, E in *.
  apply Forall_app in H2. tauto.
Qed.

Lemma needs_clauses_cons c cs : needs_clauses (c :: cs) = pmax (needs (rc_expr c)) (needs_clauses cs).
Proof. reflexivity. Qed.

Lemma GClause_parts ts e wts w : GAndl ts e -> GWithPart wts w -> GClause (ts ++ wts) (mkClause e w).
Proof.
  intros H1 H2. destruct H2; [rewrite app_nil_r; constructor; auto|].
  apply GC_with; auto.
Qed.

Lemma pRClause_spec : forall fuel p, wfp p -> ntoks p < fuel ->
  spec p (pRClause fuel p) (fun _ p' => exists ts rest cs, ps_toks p = ts ++ rest /\
     GClauses ts cs /\ (ps_res p = aNoresult -> forall c, In c cs -> rc_withs c <> []) /\
     WfToks rest /\ p' = stc p rest (pmax (ps_req p) (needs_clauses cs)) (ps_clauses p ++ cs) /\
     isEol p' = true).
Proof.
  induction fuel as [|n IH]; intros p Hw Hf; [lia|]. cbn [pRClause].
  eapply spec_bind; [apply pAndl_spec; auto|]. intros e p1 He.
  assert (H1 : exists ts rest r1, ps_toks p = ts ++ rest /\ WfToks rest /\ p1 = stp p rest r1 /\
     match e with Some e => ts <> [] /\ GAndl ts e /\ r1 = pmax (ps_req p) (needs e) | None => True end).
  { destruct e as [e|].
    - destruct He as (ts & rest & Et & Hne & HG & Hr & -> & _). exists ts, rest, (pmax (ps_req p) (needs e)). auto 10.
    - destruct He as [-> _]. exists [], (ps_toks p), (ps_req p). rewrite stp_self. split; auto. split; [apply Hw|auto]. }
  clear He. destruct H1 as (ts & rest & r1 & Et & Hr & -> & He).
  assert (Hw1 : wfp (stp p rest r1)) by (eapply wfp_app; eauto).
  assert (Hs1 : sub (stp p rest r1) p) by (eapply sub_stp; eauto).
  eapply spec_bind.
  { eapply spec_sub; [exact Hs1|]. apply pWith_spec; auto. }
  intros w p2 (wts & rest2 & Et2 & HW & Hr2 & ->). simpl in Et2. rewrite stp_stp. cbn [ps_req stp].
  assert (Et' : ps_toks p = (ts ++ wts) ++ rest2) by (rewrite Et, Et2, app_assoc; reflexivity).
  assert (Hw2 : wfp (stp p rest2 r1)) by (eapply wfp_app; eauto).
  assert (Hs2 : sub (stp p rest2 r1) p) by (eapply sub_stp; eauto).
  destruct (isERule (stp p rest2 r1)) eqn:Er; simpl negb; cbv iota.
  2:{ eapply spec_sub; [exact Hs2|]. apply genError_ok; auto. }
  destruct e as [e|].
  2:{ eapply spec_sub; [exact Hs2|]. apply lineError_ok; auto. }
  destruct He as (Hne & HG & ->).
  set (c := mkClause e w).
  change (set_clauses (ps_clauses (stp p rest2 (pmax (ps_req p) (needs e))) ++ [c])
            (stp p rest2 (pmax (ps_req p) (needs e))))
    with (stc p rest2 (pmax (ps_req p) (needs e)) (ps_clauses p ++ [c])).
  set (p3 := stc p rest2 (pmax (ps_req p) (needs e)) (ps_clauses p ++ [c])).
  assert (Hw3 : wfp p3) by exact Hw2.
  assert (Hs3 : sub p3 p) by exact Hs2.
  cbn beta zeta.
  destruct (aeqb (ps_res p3) aNoresult && match w with [] => true | _ :: _ => false end) eqn:Esw.
  { eapply spec_sub; [exact Hs3|]. apply lineError_ok; auto. }
  assert (Hc : ps_res p = aNoresult -> rc_withs c <> []).
  { intros Hres Hnil. simpl in Hnil. subst w. change (ps_res p3) with (ps_res p) in Esw.
    rewrite Hres in Esw. discriminate. }
  destruct (isEol p3) eqn:Eol.
  - simpl. exists (ts ++ wts), rest2, [c]. split; auto.
    split; [constructor; apply GClause_parts; auto|].
    split; [intros Hres x [<-|[]]; auto|]. split; [exact Hr2|].
    unfold needs_clauses. simpl. rewrite pmax_any_r. split; [reflexivity|exact Eol].
  - apply isERule_or in Er. 
    assert (Hsc : curtyp p3 = itemSemicolon).
    { change (curtyp (stp p rest2 (pmax (ps_req p) (needs e)))) with (curtyp p3) in Er.
      unfold isEol in Eol. destruct Er as [E|[E|E]]; auto; rewrite E in Eol; discriminate. }
    destruct (wfp_cur p3 Hw3) as (j & ts3 & Et3 & Ec3). unfold curtyp in Hsc. rewrite Ec3 in Hsc.
    assert (N1 : i_typ j <> itemEOF) by (rewrite Hsc; discriminate).
    assert (N2 : i_typ j <> itemError) by (rewrite Hsc; discriminate).
    rewrite (consume_cons p3 j ts3 Et3 N1 N2). cbn [pbind].
    pose proof (wfp_tail p3 j ts3 (ps_req p3) Hw3 Et3 N1 N2) as Hw4.
    set (p4 := stp p3 ts3 (ps_req p3)) in *.
    change (ps_toks p3) with rest2 in Et3.
    assert (Hs4 : sub p4 p).
    { split; auto. exists ((ts ++ wts) ++ [j]). rewrite Et', Et3. appeq. }
    assert (Hlen : ntoks p = length ts + length wts + S (length ts3)).
    { unfold ntoks. rewrite Et', Et3, !app_length. simpl. lia. }
    (* the recursive call, from any later state *)
    assert (Hrec : forall p5 eol, p5 = stp p4 (ps_toks p5) (ps_req p4) -> wfp p5 -> sub p5 p -> ntoks p5 < n ->
       ts3 = eol ++ ps_toks p5 -> (eol = [] \/ exists e, eol = [e] /\ i_typ e = itemEOL) ->
       spec p (pRClause n p5) (fun _ p' => exists ts rest cs, ps_toks p = ts ++ rest /\
         GClauses ts cs /\ (ps_res p = aNoresult -> forall c, In c cs -> rc_withs c <> []) /\
         WfToks rest /\ p' = stc p rest (pmax (ps_req p) (needs_clauses cs)) (ps_clauses p ++ cs) /\
         isEol p' = true)).
    { intros p5 eol E5 Hw5 Hs5 Hn5 Eeol Heol.
      eapply spec_imp; [eapply spec_sub; [exact Hs5|]; apply IH; auto|].
      intros _ p' (ts5 & rest5 & cs & Et5 & HG5 & Hsw5 & Hr5 & E' & Hol).
      rewrite E5 in E'. cbn [stp stc p4 p3 ps_req ps_clauses ps_input ps_defer ps_res ps_tick] in E'.
      exists ((ts ++ wts) ++ j :: eol ++ ts5), rest5, (c :: cs).
      split.
      { rewrite Et', Et3, Eeol, Et5. appeq. }
      split; [apply GCs_more; auto; apply GClause_parts; auto|].
      split.
      { intros Hres x [<-|Hx]; auto. apply Hsw5; auto. rewrite E5. exact Hres. }
      split; auto. split; [|auto].
      rewrite E'. unfold stc. f_equal.
      - rewrite needs_clauses_cons. simpl. now rewrite pmax_assoc.
      - rewrite <- app_assoc. reflexivity. }
    destruct (ieqb_spec (curtyp p4) itemEOL) as [E4|E4].
    + destruct (wfp_cur p4 Hw4) as (k & ts5 & Et5 & Ec5). unfold curtyp in E4. rewrite Ec5 in E4.
      rewrite (consume_cons p4 k ts5 Et5) by (rewrite E4; discriminate). cbn [pbind].
      change (ps_toks p4) with ts3 in Et5.
      apply (Hrec _ [k]); simpl; eauto.
      * apply (wfp_tail p4 k ts5); auto; rewrite E4; discriminate.
      * split; auto. exists ((ts ++ wts) ++ [j; k]). simpl. rewrite Et', Et3, Et5. appeq.
      * unfold ntoks in *. simpl. rewrite Et5 in Hlen. simpl in Hlen. lia.
    + apply (Hrec p4 []); simpl; auto. unfold ntoks in *. simpl. lia.
Qed.

Definition load_safe (load : nat -> bytes -> lres * nat) : Prop :=
  forall t n, fst (load t n) <> LPanic /\ fst (load t n) <> LFuel.

Definition incl_of (load : nat -> bytes -> lres * nat) (t : nat) (n : bytes) (rs : list rule) (t' : nat) : Prop :=
  load t n = (LRules rs, t').

Definition RuleQ (p : pstate) (r : option rule) (p' : pstate) : Prop :=
  ps_input p' = ps_input p /\ ps_tick p' = ps_tick p /\
  match r with
  | None => exists e, ps_toks p = [e] /\ i_typ e = itemEOF /\ ps_toks p' = [e]
  | Some r => exists ts e rest, ps_toks p = ts ++ e :: rest /\ ts <> [] /\ GRule ts r /\
      (i_typ e = itemEOL /\ ps_toks p' = rest /\ WfToks rest \/
       i_typ e = itemEOF /\ rest = [] /\ ps_toks p' = [e])
  end.

Lemma phases_of t : match phase_of t with Some ph => phases t = ph /\ ph <> pAny | None => phases t = pAny end.
Proof. destruct t; simpl; auto; split; (reflexivity || discriminate). Qed.
Lemma actions_of t : match action_of t with Some a => actions t = a /\ a <> aError | None => actions t = aError end.
Proof. destruct t; simpl; auto; split; (reflexivity || discriminate). Qed.
Lemma phase_of_ne t ph : phase_of t = Some ph -> t <> itemEOF /\ t <> itemError /\ t <> itemInclude /\ action_of t = None.
Proof. destruct t; try discriminate; repeat split; discriminate. Qed.
Lemma action_of_ne t a : action_of t = Some a -> t <> itemEOF /\ t <> itemError /\ t <> itemInclude /\ phase_of t = None.
Proof. destruct t; try discriminate; repeat split; discriminate. Qed.

Lemma WfToks_EOF i ts : WfToks (i :: ts) -> i_typ i = itemEOF -> ts = [].
Proof. intros H E. inversion H; subst; auto; congruence. Qed.

Lemma pRule_spec p : wfp p -> spec p (pRule p) (RuleQ p).
Proof.
  intros Hw. unfold pRule.
  set (p0 := mkPS (ps_input p) (ps_toks p) pAny pAny aError [] (ps_tick p)).
  assert (Hw0 : wfp p0) by exact Hw.
  assert (Hs0 : sub p0 p) by (split; auto; exists []; reflexivity).
  destruct (wfp_cur p0 Hw0) as (i & ts & Et & Ec). cbn beta zeta.
  destruct (ieqb_spec (curtyp p0) itemEOF) as [E|E].
  { simpl. split; auto. split; auto. change (ps_toks p0) with (ps_toks p) in *.
    unfold curtyp in E. rewrite Ec in E. exists i.
    assert (ts = []) as ->. { eapply WfToks_EOF; eauto. rewrite <- Et. apply Hw. }
    auto. }
  (* the optional phase *)
  assert (Hph : spec p (pPhase p0) (fun _ p1 => exists pts ph rest, ps_toks p = pts ++ rest /\ GPhase pts ph /\
      WfToks rest /\ p1 = set_defer ph (stp p0 rest pAny))).
  { unfold pPhase. unfold curtyp. rewrite Ec. pose proof (phases_of (i_typ i)) as Hp.
    destruct (phase_of (i_typ i)) as [ph|] eqn:Ep.
    - destruct Hp as [-> Hne]. destruct (peqb_spec ph pAny) as [|_]; [contradiction|]. simpl negb. cbv iota.
      apply phase_of_ne in Ep as Hn. destruct Hn as (N1 & N2 & _).
      rewrite (consume_cons (set_defer ph p0) i ts Et N1 N2). simpl.
      exists [i], ph, ts. split; auto. split; [constructor; auto|]. split; [|reflexivity].
      apply (wfp_tail p0 i ts pAny); auto.
    - rewrite Hp. simpl. exists [], pAny, (ps_toks p). split; auto. split; [constructor|].
      split; [apply Hw|reflexivity]. }
  eapply spec_bind; [exact Hph|]. clear Hph.
  intros _ p1 (pts & ph & rest & Etp & HP & Hr & ->).
  set (p1 := set_defer ph (stp p0 rest pAny)).
  assert (Hs1 : sub p1 p) by (split; auto; exists pts; auto).
  assert (Hw1 : wfp p1) by (apply (wfp_sub p); auto).
  destruct (wfp_cur p1 Hw1) as (a & ts1 & Et1 & Ec1).
  unfold curtyp. rewrite Ec1. pose proof (actions_of (i_typ a)) as Ha.
  destruct (action_of (i_typ a)) as [act|] eqn:Ea.
  2:{ rewrite Ha. simpl. eapply (@spec_sub (option rule)); [exact Hs1|]. apply genError_ok; auto. }
  destruct Ha as [-> Hne]. destruct (aeqb_spec act aError) as [|_]; [contradiction|].
  apply action_of_ne in Ea as Hn. destruct Hn as (N1 & N2 & _).
  rewrite (consume_cons (set_res act p1) a ts1 Et1 N1 N2). cbn [pbind].
  set (p2 := stp (set_res act p1) ts1 (ps_req (set_res act p1))).
  change (ps_toks p1) with rest in Et1.
  assert (Hs2 : sub p2 p).
  { split; auto. exists (pts ++ [a]). rewrite Etp, Et1. appeq. }
  assert (Hw2 : wfp p2).
  { exact (wfp_tail p1 a ts1 pAny Hw1 Et1 N1 N2). }
  eapply spec_bind.
  { eapply spec_sub; [exact Hs2|]. apply pRClause_spec; auto. }
  intros _ p3 (cts & rest3 & cs & Et3 & HG & Hsw & Hr3 & -> & Hol).
  change (ps_toks p2) with ts1 in Et3.
  set (p3 := stc p2 rest3 (pmax (ps_req p2) (needs_clauses cs)) (ps_clauses p2 ++ cs)) in *.
  assert (Etall : ps_toks p = (pts ++ a :: cts) ++ rest3).
  { rewrite Etp, Et1, Et3. appeq. }
  assert (Hs3 : sub p3 p) by (split; auto; exists (pts ++ a :: cts); auto).
  assert (Hw3 : wfp p3) by (apply (wfp_sub p); auto).
  assert (Hreq : ps_req p3 = needs_clauses cs) by (simpl; apply pmax_any_l).
  assert (Hdef : ps_defer p3 = ph) by reflexivity.
  destruct (negb (peqb (ps_defer p3) pAny) && pltb (ps_defer p3) (ps_req p3)) eqn:Epc.
  { eapply spec_sub; [exact Hs3|]. apply lineError_ok; auto. }
  rewrite Hdef, Hreq in Epc.
  assert (HR : GRule (pts ++ a :: cts) (mkRule cs act (needs_clauses cs) ph)).
  { constructor; auto. intros Hp. destruct (peqb_spec ph pAny); [contradiction|].
    simpl in Epc. unfold pltb in Epc. apply Nat.ltb_ge in Epc. exact Epc. }
  destruct (wfp_cur p3 Hw3) as (e & ts4 & Et4 & Ec4).
  apply isEol_or in Hol. unfold curtyp in Hol. rewrite Ec4 in Hol.
  change (ps_toks p3) with rest3 in Et4.
  destruct Hol as [Hol|Hol].
  - rewrite (consume_cons p3 e ts4 Et4) by (rewrite Hol; discriminate). cbn [pbind spec].
    split; auto. split; auto. 
    cbn [stp ps_clauses ps_res ps_req ps_defer ps_toks p3 stc p2 p1 p0 set_res set_defer app].
    rewrite pmax_any_l.
    exists (pts ++ a :: cts), e, ts4. split; [now rewrite Etall, Et4|].
    split; [destruct pts; discriminate|]. split; [exact HR|].
    left. split; auto. split; auto. apply (wfp_tail p3 e ts4 pAny); auto; rewrite Hol; discriminate.
  - assert (ts4 = []) as ->. { eapply WfToks_EOF; eauto. rewrite <- Et4. exact Hr3. }
    unfold consume. unfold curtyp. rewrite Ec4, Hol. simpl ieqb. cbv iota. cbn [pbind spec].
    split; auto. split; auto.
    cbn [stp ps_clauses ps_res ps_req ps_defer ps_toks p3 stc p2 p1 p0 set_res set_defer app].
    rewrite pmax_any_l.
    exists (pts ++ a :: cts), e, []. split; [now rewrite Etall, Et4|].
    split; [destruct pts; discriminate|]. split; [exact HR|].
    right. auto.
Qed.

Section Files.
  Variable load : nat -> bytes -> lres * nat.
  Hypothesis Hload : load_safe load.

  Lemma pInclude_spec p : wfp p -> curtyp p = itemInclude ->
    spec p (pInclude load p) (fun rl p' => exists k a e rest,
      ps_toks p = k :: a :: e :: rest /\ i_typ k = itemInclude /\ is_arg a /\
      ps_input p' = ps_input p /\ load (ps_tick p) (i_val a) = (LRules rl, ps_tick p') /\
      (i_typ e = itemEOL /\ ps_toks p' = rest /\ WfToks rest \/
       i_typ e = itemEOF /\ rest = [] /\ ps_toks p' = [e])).
  Proof.
    intros Hw Hi. destruct (wfp_cur p Hw) as (k & ts & Et & Ec). unfold curtyp in Hi. rewrite Ec in Hi.
    unfold pInclude.
    assert (N1 : i_typ k <> itemEOF) by (rewrite Hi; discriminate).
    assert (N2 : i_typ k <> itemError) by (rewrite Hi; discriminate).
    rewrite (consume_cons p k ts Et N1 N2). cbn [pbind].
    pose proof (wfp_tail p k ts (ps_req p) Hw Et N1 N2) as Hw1.
    eapply spec_bind.
    { eapply spec_sub; [eapply (sub_stp p [k] ts); exact Et|]. apply pArg_spec; auto. }
    intros a p2 (j & rest & Ej & Ha & -> & Hr & ->). simpl in Ej. subst ts.
    rewrite stp_stp. cbn [ps_req ps_tick stp].
    pose proof (Hload (ps_tick p) (i_val j)) as Hl.
    destruct (load (ps_tick p) (i_val j)) as [r t'] eqn:El. simpl in Hl.
    set (p3 := set_tick t' (stp p rest (ps_req p))).
    assert (Hs3 : sub p3 p) by (split; auto; exists [k; j]; auto).
    assert (Hw3 : wfp p3) by (apply (wfp_sub p); auto).
    destruct r as [rl|txt| |]; try (destruct Hl; congruence).
    - destruct (isEol p3) eqn:Eol; simpl negb; cbv iota.
      2:{ eapply spec_sub; [exact Hs3|]. apply genError_ok; auto. }
      destruct (wfp_cur p3 Hw3) as (e & ts4 & Et4 & Ec4).
      apply isEol_or in Eol. unfold curtyp in Eol. rewrite Ec4 in Eol.
      change (ps_toks p3) with rest in Et4.
      destruct Eol as [Hol|Hol].
      + rewrite (consume_cons p3 e ts4 Et4) by (rewrite Hol; discriminate). cbn [pbind spec].
        exists k, j, e, ts4. split; [rewrite Et, Et4; reflexivity|]. split; auto. split; auto.
        split; auto. split; auto. left. split; auto. split; auto.
        apply (wfp_tail p3 e ts4 pAny); auto; rewrite Hol; discriminate.
      + assert (ts4 = []) as ->. { eapply WfToks_EOF; eauto. rewrite <- Et4. exact Hr. }
        unfold consume. unfold curtyp. rewrite Ec4, Hol. simpl ieqb. cbv iota. cbn [pbind spec].
        exists k, j, e, []. split; [rewrite Et, Et4; reflexivity|]. split; auto. split; auto.
        repeat split; auto.
    - eapply spec_sub; [exact Hs3|]. apply lineError_ok; auto.
  Qed.

  Lemma pFile_EOF n acc p e : ps_toks p = [e] -> i_typ e = itemEOF ->
    exists p', pFile load (S n) acc p = POk acc p' /\ ps_tick p' = ps_tick p.
  Proof.
    intros Et He. set (p0 := mkPS (ps_input p) (ps_toks p) pAny pAny aError [] (ps_tick p)).
    assert (Hc : curtyp p = itemEOF) by (unfold curtyp, curtok; rewrite Et; exact He).
    assert (Hc0 : curtyp p0 = itemEOF) by exact Hc.
    cbn [pFile]. rewrite Hc. cbn [ieqb icode Nat.eqb]. unfold pRule. fold p0. rewrite Hc0.
    exists p0. cbn [ieqb icode Nat.eqb pbind]. rewrite Hc0. split; reflexivity.
  Qed.

  Lemma pFile_spec : forall fuel acc p, wfp p -> ntoks p < fuel ->
    spec p (pFile load fuel acc p) (fun rs p' => exists rs', rs = acc ++ rs' /\
      GFile (incl_of load) (ps_tick p) (ps_toks p) rs' (ps_tick p')).
  Proof.
    induction fuel as [|n IH]; intros acc p Hw Hf; [lia|]. cbn [pFile].
    destruct (ieqb_spec (curtyp p) itemInclude) as [Ei|Ei].
    - eapply spec_bind; [apply pInclude_spec; auto|].
      intros rl p1 (k & a & e & rest & Et & Hk & Ha & Hin & Hl & Hend).
      assert (Hlen : ntoks p = S (S (S (length rest)))) by (unfold ntoks; rewrite Et; reflexivity).
      destruct Hend as [(He & Et1 & Hr)|(He & -> & Et1)].
      + assert (Hs1 : sub p1 p) by (split; auto; exists [k; a; e]; rewrite Et, Et1; auto).
        assert (Hw1 : wfp p1) by (apply (wfp_sub p); auto; rewrite Et1; auto).
        eapply spec_imp.
        { eapply spec_sub; [exact Hs1|]. apply IH; auto. unfold ntoks in *; rewrite Et1. lia. }
        intros rs p' (rs' & -> & HG). exists (rl ++ rs'). split; [now rewrite app_assoc|].
        rewrite Et. rewrite Et1 in HG. eapply GF_include; eauto.
      + destruct n as [|n]; [lia|]. destruct (pFile_EOF n (acc ++ rl) p1 e Et1 He) as (p' & -> & Htk).
        simpl. exists rl. split; auto. rewrite Et, Htk. eapply GF_include_last; eauto.
    - eapply spec_bind; [apply pRule_spec; auto|].
      intros r p1 (Hin & Htk & HR). destruct r as [r|].
      + destruct HR as (ts & e & rest & Et & Hne & HR & Hend).
        assert (Hlen : ntoks p = length ts + S (length rest)) by (unfold ntoks; rewrite Et, app_length; reflexivity).
        destruct Hend as [(He & Et1 & Hr)|(He & -> & Et1)].
        * assert (Hs1 : sub p1 p).
          { split; auto. exists (ts ++ [e]). rewrite Et, Et1. appeq. }
          assert (Hw1 : wfp p1) by (apply (wfp_sub p); auto; rewrite Et1; auto).
          destruct (ieqb_spec (curtyp p1) itemEOF) as [E1|E1].
          -- destruct (wfp_cur p1 Hw1) as (e1 & ts1 & Et1' & Ec1). unfold curtyp in E1. rewrite Ec1 in E1.
             simpl. exists [r]. split; auto. rewrite Et, Htk.
             rewrite Et1' in Et1. subst rest.
             assert (ts1 = []) as -> by (eapply WfToks_EOF; eauto).
             apply GF_rule; auto. apply GF_empty; auto.
          -- eapply spec_imp.
             { eapply spec_sub; [exact Hs1|]. apply IH; auto. unfold ntoks in *; rewrite Et1. lia. }
             intros rs p' (rs' & -> & HG). exists (r :: rs'). split; [now rewrite <- app_assoc|].
             rewrite Et. rewrite Et1, Htk in HG. apply GF_rule; auto.
        * assert (curtyp p1 = itemEOF) as Hc by (unfold curtyp, curtok; rewrite Et1; auto).
          rewrite Hc. simpl. exists [r]. split; auto. rewrite Et, Htk. apply GF_rule_last; auto.
      + destruct HR as (e & Et & He & Et1).
        assert (curtyp p1 = itemEOF) as Hc by (unfold curtyp, curtok; rewrite Et1; auto).
        rewrite Hc. simpl. exists []. rewrite app_nil_r. split; auto. rewrite Et, Htk. apply GF_empty; auto.
  Qed.

  Lemma pstart_wf input tick : wfp (pstart input tick).
  Proof.
    pose proof (tokens_Lexes input) as HL. apply Lexes_wf in HL as [H1 H2].
    split; [exact H1|]. eapply Forall_impl; [|exact H2]. simpl. intros; lia.
  Qed.

  Lemma parse_with_spec tick input :
    spec (pstart input tick) (parse_with load tick input) (fun rs p' =>
      GFile (incl_of load) tick (tokens input) rs (ps_tick p')).
  Proof.
    unfold parse_with. eapply spec_imp; [apply pFile_spec; [apply pstart_wf|lia]|].
    intros rs p' (rs' & -> & HG). exact HG.
  Qed.
End Files.

Lemma loadRules_safe fds fs : load_safe (loadRules fds fs).
Proof.
  induction fds as [|n IH]; intros t nm; simpl; [split; discriminate|].
  destruct (rf_read fs t nm) as [c|e]; [|simpl; split; discriminate].
  pose proof (parse_with_spec _ IH (S t) c) as H.
  destruct (parse_with (loadRules n fs) (S t) c); simpl in *; try contradiction; split; discriminate.
Qed.
