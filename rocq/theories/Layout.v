(** Rule text as a sequence of pieces (words, quoted strings, punctuation,
    line ends) with arbitrary layout in between, and what the lexer makes of
    such text. *)
From Verif Require Import Bytes Outcome Lexer LexSpec LexProofs.

Inductive layout :=
| LSpace | LTab
| LCont                    (* backslash newline *)
| LBlankLine               (* a newline at the start of a line *)
| LComment (c : bytes).    (* from # up to the end of the line, not including it *)

Inductive piece :=
| PcWord (w : bytes)
| PcQuoted (raw v : bytes) (* "raw", standing for v *)
| PcPunct (c : ascii)
| PcComma
| PcEOL.

Inductive element := Lay (l : layout) | Pc (p : piece).
Definition source := list element.

Definition layout_text (l : layout) : bytes :=
  match l with
  | LSpace => [ch_space] | LTab => [ch_tab] | LCont => [ch_bslash; ch_nl]
  | LBlankLine => [ch_nl] | LComment c => "#"%char :: c
  end.
Definition piece_text (p : piece) : bytes :=
  match p with
  | PcWord w => w
  | PcQuoted raw _ => ch_quote :: raw ++ [ch_quote]
  | PcPunct c => [c] | PcComma => [","%char] | PcEOL => [ch_nl]
  end.
Definition element_text (e : element) : bytes :=
  match e with Lay l => layout_text l | Pc p => piece_text p end.
Definition render (src : source) : bytes := concat (map element_text src).

(** the pieces without the layout *)
Fixpoint pieces (src : source) : list piece :=
  match src with [] => [] | Lay _ :: s => pieces s | Pc p :: s => p :: pieces s end.

(** type and text of the token of a piece *)
Definition piece_tok (p : piece) : itype * bytes :=
  match p with
  | PcWord w => (match word_type w with Some t => t | None => itemError end, w)
  | PcQuoted _ v => (itemValue, v)
  | PcPunct c => (match punct_type c with Some t => t | None => itemError end, [c])
  | PcComma => (itemComma, [","%char])
  | PcEOL => (itemEOL, [ch_nl])
  end.

(** Where a piece or layout may stand: [m] is SOL when nothing but layout has
    been seen since the start of the line, [rest] is the text after it. *)
Definition element_ok (m : mode) (e : element) (rest : bytes) : Prop :=
  match e with
  | Lay LSpace | Lay LTab | Lay LCont => True
  | Lay LBlankLine => m = SOL
  | Lay (LComment c) => m = SOL /\ ~ In ch_nl c /\ at_line_end rest
  | Pc (PcWord w) =>
      forallb (fun c => negb (ends_word c)) w = true /\ at_word_end rest /\
      word_start_ok m w rest /\ word_type w <> None
  | Pc (PcQuoted raw v) => unquote (raw ++ [ch_quote]) = Some (v, [])
  | Pc (PcPunct c) => punct_type c <> None
  | Pc PcComma => bad_after_comma rest = false
  | Pc PcEOL => m = INL
  end.

Definition mode_after (m : mode) (e : element) : mode :=
  match e with Lay _ => m | Pc PcEOL => SOL | Pc _ => INL end.

Fixpoint mode_end (m : mode) (src : source) : mode :=
  match src with [] => m | e :: s => mode_end (mode_after m e) s end.

(** [k] is the text that follows the source *)
Fixpoint wf_source (m : mode) (src : source) (k : bytes) : Prop :=
  match src with
  | [] => True
  | e :: s => element_ok m e (render s ++ k) /\ wf_source (mode_after m e) s k
  end.

(** types and texts of tokens, without their positions *)
Definition strip (ts : list item) : list (itype * bytes) := map (fun i => (i_typ i, i_val i)) ts.

Lemma unquote_app s : forall v r t, unquote s = Some (v, r) -> unquote (s ++ t) = Some (v, r ++ t).
Proof.
  remember (length s) as n eqn:Hn. revert s Hn.
  induction n as [n IH] using lt_wf_ind; intros s -> v r t H.
  destruct s as [|c [|d s]].
  - discriminate.
  - simpl in H |- *. destruct (Ascii.eqb c ch_quote) eqn:Ec; [|discriminate].
    injection H as <- <-. reflexivity.
  - simpl app. simpl in H |- *. destruct (Ascii.eqb c ch_quote) eqn:Ec.
    { injection H as <- <-. reflexivity. }
    destruct (Ascii.eqb c ch_bslash && (Ascii.eqb d ch_quote || Ascii.eqb d ch_bslash)) eqn:Eb.
    + destruct (unquote s) as [[v' r']|] eqn:E; [|discriminate]. injection H as <- <-.
      rewrite (IH (length s) ltac:(simpl; lia) s eq_refl v' r' t E). reflexivity.
    + change (if Ascii.eqb d ch_quote then Some ([], s) else _) with (unquote (d :: s)) in H.
      destruct (unquote (d :: s)) as [[v' r']|] eqn:E; [|discriminate].
      injection H as <- <-.
      pose proof (IH (length (d :: s)) ltac:(simpl; lia) (d :: s) eq_refl v' r' t E) as E'.
      change (if Ascii.eqb d ch_quote then Some ([], s ++ t) else _) with (unquote ((d :: s) ++ t)).
      rewrite E'. reflexivity.
Qed.

Lemma unquote_split s : forall v r, unquote s = Some (v, r) ->
  exists q, s = q ++ ch_quote :: r /\ unquote (q ++ [ch_quote]) = Some (v, []).
Proof.
  remember (length s) as n eqn:Hn. revert s Hn.
  induction n as [n IH] using lt_wf_ind; intros s -> v r H.
  destruct s as [|c [|d s]].
  - discriminate.
  - simpl in H. destruct (Ascii.eqb_spec c ch_quote) as [->|Ec]; [|discriminate].
    injection H as <- <-. exists []. auto.
  - simpl in H. destruct (Ascii.eqb_spec c ch_quote) as [->|Ec].
    { injection H as <- <-. exists []. auto. }
    destruct (Ascii.eqb c ch_bslash && (Ascii.eqb d ch_quote || Ascii.eqb d ch_bslash)) eqn:Eb.
    + destruct (unquote s) as [[v' r']|] eqn:E; [|discriminate]. injection H as <- <-.
      destruct (IH (length s) ltac:(simpl; lia) s eq_refl v' r' E) as (q & -> & Hq).
      exists (c :: d :: q). split; auto. simpl. apply Ascii.eqb_neq in Ec. rewrite Ec, Eb, Hq. reflexivity.
    + change (if Ascii.eqb d ch_quote then Some ([], s) else _) with (unquote (d :: s)) in H.
      destruct (unquote (d :: s)) as [[v' r']|] eqn:E; [|discriminate].
      injection H as <- <-.
      destruct (IH (length (d :: s)) ltac:(simpl; lia) (d :: s) eq_refl v' r' E) as (q & Eq & Hq).
      exists (c :: q). rewrite Eq. split; auto. apply Ascii.eqb_neq in Ec.
      destruct q as [|d' q].
      * simpl in Eq. injection Eq as -> ->. simpl in Hq. injection Hq as <-.
        cbn [app unquote]. rewrite Ec. rewrite Eb. reflexivity.
      * simpl in Eq. injection Eq as <- ->. simpl app. simpl. rewrite Ec, Eb.
        change (if Ascii.eqb d ch_quote then Some ([], q ++ [ch_quote]) else _)
          with (unquote ((d :: q) ++ [ch_quote])). rewrite Hq. reflexivity.
Qed.

(** Reading a source followed by [k]. *)
Lemma render_Lexes src : forall m p k ks,
  wf_source m src k -> Lexes (mode_end m src) (p + length (render src)) k ks ->
  exists ts, Lexes m p (render src ++ k) (ts ++ ks) /\ strip ts = map piece_tok (pieces src).
Proof.
  induction src as [|e src IH]; intros m p k ks Hwf Hk.
  - simpl in *. rewrite Nat.add_0_r in Hk. exists []. auto.
  - destruct Hwf as [He Hwf]. unfold render in Hk. cbn [map concat mode_end] in Hk. fold (render src) in Hk.
    rewrite app_length in Hk.
    assert (HI : exists ts, Lexes (mode_after m e) (p + length (element_text e)) (render src ++ k) (ts ++ ks) /\
                   strip ts = map piece_tok (pieces src)).
    { apply IH; auto. replace (p + length (element_text e) + length (render src))
        with (p + (length (element_text e) + length (render src))) by lia. exact Hk. }
    destruct HI as (ts & HL & Hs).
    unfold render. cbn [map concat]. fold (render src). rewrite <- app_assoc.
    destruct e as [[| | | |c]|[w|raw v|c| |]]; cbn [element_text layout_text piece_text mode_after] in *.
    + exists ts. split; auto. apply Lx_blank; auto.
    + exists ts. split; auto. apply Lx_blank; auto.
    + exists ts. split; auto. apply Lx_cont; auto.
    + simpl in He. subst m. exists ts. split; auto. apply Lx_blankline; auto.
    + destruct He as (-> & Hc & Hr). exists ts. split; auto. simpl app. apply Lx_comment; auto.
      simpl length in HL. replace (p + 1 + length c) with (p + S (length c)) by lia. exact HL.
    + destruct He as (H1 & H2 & H3 & H4). destruct (word_type w) as [t|] eqn:Et; [|congruence].
      exists (mkItem t w p :: ts). split; [simpl app; apply Lx_word; auto|].
      simpl. rewrite Et, Hs. reflexivity.
    + simpl in He. exists (mkItem itemValue v p :: ts). simpl app. split; [|simpl; rewrite Hs; reflexivity].
      rewrite <- app_assoc. simpl app.
      apply (Lx_quote m p _ v (render src ++ k)).
      { change (ch_quote :: render src ++ k) with ([ch_quote] ++ (render src ++ k)).
        rewrite app_assoc. rewrite (unquote_app _ _ _ (render src ++ k) He). reflexivity. }
      assert (E : p + 1 + (length (raw ++ ch_quote :: render src ++ k) - length (render src ++ k)) =
              p + length (ch_quote :: raw ++ [ch_quote])).
      { cbn [length]. rewrite !app_length. cbn [length]. rewrite !app_length. lia. }
      rewrite E. exact HL.
    + simpl in He. destruct (punct_type c) as [t|] eqn:Et; [|congruence].
      exists (mkItem t [c] p :: ts). simpl app. split; [apply Lx_punct; auto|].
      simpl. rewrite Et, Hs. reflexivity.
    + simpl in He. exists (mkItem itemComma [","%char] p :: ts). simpl app.
      split; [apply Lx_comma; auto|]. simpl. rewrite Hs. reflexivity.
    + simpl in He. subst m. exists (mkItem itemEOL [ch_nl] p :: ts). simpl app.
      split; [apply Lx_eol; auto|]. simpl. rewrite Hs. reflexivity.
Qed.

(** Every text without lexing errors is such a source. *)
Lemma Lexes_source m p s ts : Lexes m p s ts -> (forall i, In i ts -> i_typ i <> itemError) ->
  exists src, wf_source m src [] /\ render src = s.
Proof.
  induction 1 as [m p|m p c s ts Hc HL IH|m p s ts HL IH|p s ts HL IH|p com s ts Hcom Hend HL IH
    |p s ts HL IH|m p c t s ts Ht HL IH|m p s ts Hb HL IH|m p s Hb|m p s v r ts Hq HL IH|m p s Hq
    |m p w0 t s ts Hw Hs Hst Ht HL IH|m p w0 s Hw Hs Hst Ht]; intros Hne;
    try (destruct IH as (src & Hwf & Hr); [intros i Hi; apply Hne; simpl; auto|]).
  - exists []. simpl. auto.
  - unfold is_layout in Hc. simpl in Hc. rewrite orb_false_r in Hc. apply orb_true_iff in Hc.
    destruct Hc as [Hc|Hc]; apply Ascii.eqb_eq in Hc; subst c.
    + exists (Lay LSpace :: src). simpl. split; auto. unfold render; simpl. fold (render src). congruence.
    + exists (Lay LTab :: src). simpl. split; auto. unfold render; simpl. fold (render src). congruence.
  - exists (Lay LCont :: src). simpl. split; auto. unfold render; simpl. fold (render src). congruence.
  - exists (Lay LBlankLine :: src). simpl. split; auto. unfold render; simpl. fold (render src). congruence.
  - exists (Lay (LComment com) :: src). simpl. rewrite app_nil_r, Hr. split; auto.
    unfold render; simpl. fold (render src). congruence.
  - exists (Pc PcEOL :: src). simpl. split; auto. unfold render; simpl. fold (render src). congruence.
  - exists (Pc (PcPunct c) :: src). simpl. split; [split; auto; congruence|].
    unfold render; simpl. fold (render src). congruence.
  - exists (Pc PcComma :: src). simpl. rewrite app_nil_r, Hr. split; auto.
    unfold render; simpl. fold (render src). congruence.
  - exfalso. apply (Hne (mkItem itemError msg_comma (p + 1))); simpl; auto.
  - destruct (unquote_split _ _ _ Hq) as (q & -> & Hq').
    exists (Pc (PcQuoted q v) :: src). simpl. split; auto.
    unfold render; simpl. fold (render src). rewrite Hr, <- app_assoc. reflexivity.
  - exfalso. apply (Hne (mkItem itemError msg_unterm p)); simpl; auto.
  - exists (Pc (PcWord w0) :: src). simpl. rewrite app_nil_r, Hr.
    split; [split; auto; repeat split; auto; congruence|].
    unfold render; simpl. fold (render src). congruence.
  - exfalso. apply (Hne (mkItem itemError msg_nofile p)); simpl; auto.
Qed.

Lemma strip_tokens src : wf_source SOL src [] ->
  strip (tokens (render src)) = map piece_tok (pieces src) ++ [(itemEOF, [])].
Proof.
  intros H.
  destruct (render_Lexes src SOL 0 [] _ H (Lx_eof _ _)) as (ts & HL & Hs).
  rewrite app_nil_r in HL.
  rewrite (Lexes_det _ _ _ _ _ (tokens_Lexes (render src)) HL).
  unfold strip. rewrite map_app. fold (strip ts). rewrite Hs. reflexivity.
Qed.

(** Text [a] that ends at the start of a line can be followed by any text. *)
Lemma Lexes_shift m p s ts d : Lexes m p s ts ->
  Lexes m (p + d) s (map (fun i => mkItem (i_typ i) (i_val i) (i_pos i + d)) ts).
Proof.
  Ltac shift_pos := match goal with
    H : Lexes ?m ?x ?s ?t |- Lexes ?m ?y ?s ?t => replace y with x by lia; exact H end.
  induction 1; simpl.
  - apply Lx_eof.
  - apply Lx_blank; auto. shift_pos.
  - apply Lx_cont; auto. shift_pos.
  - apply Lx_blankline; auto. shift_pos.
  - apply Lx_comment; auto. shift_pos.
  - apply Lx_eol. shift_pos.
  - apply Lx_punct; auto. shift_pos.
  - apply Lx_comma; auto. shift_pos.
  - replace (p + 1 + d) with (p + d + 1) by lia. apply Lx_comma_bad; auto.
  - eapply Lx_quote; eauto. shift_pos.
  - apply Lx_quote_bad; auto.
  - apply Lx_word; auto. shift_pos.
  - apply Lx_word_bad; auto.
Qed.

Lemma strip_app a b : strip (a ++ b) = strip a ++ strip b.
Proof. apply map_app. Qed.

Lemma strip_shift d ts : strip (map (fun i => mkItem (i_typ i) (i_val i) (i_pos i + d)) ts) = strip ts.
Proof. unfold strip. rewrite map_map. reflexivity. Qed.

Lemma tokens_concat src k : wf_source SOL src k -> mode_end SOL src = SOL ->
  strip (tokens (render src ++ k)) = map piece_tok (pieces src) ++ strip (tokens k).
Proof.
  intros H Hm.
  pose proof (Lexes_shift _ _ _ _ (length (render src)) (tokens_Lexes k)) as HK. simpl in HK.
  destruct (render_Lexes src SOL 0 k (map (fun i => mkItem (i_typ i) (i_val i) (i_pos i + length (render src))) (tokens k)) H) as (ts & HL & Hs).
  { rewrite Hm. exact HK. }
  rewrite (Lexes_det _ _ _ _ _ (tokens_Lexes _) HL), strip_app, Hs, strip_shift. reflexivity.
Qed.
