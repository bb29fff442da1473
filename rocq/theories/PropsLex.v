(** Properties of the lexer and of layout: C02, C03, C04, C05. *)
From Verif Require Import Bytes Outcome Lexer LexSpec LexProofs Ast GoNet Parser Grammar
  ParseProofs ParseComplete Layout GramStrip GramFacts.

(** ** C02 *)

(** One item against the text: an ordinary item is the text at its position,
    a quoted one is what the quoted text there stands for. *)
Definition item_ok (input : bytes) (i : item) : Prop :=
  i_pos i <= length input /\
  (i_typ i <> itemError ->
   if match nth_error input (i_pos i) with Some c => Ascii.eqb c ch_quote | None => false end
   then i_typ i = itemValue /\
        exists r, unquote (skipn (S (i_pos i)) input) = Some (i_val i, r)
   else firstn (length (i_val i)) (skipn (i_pos i) input) = i_val i).

Inductive positions_increase : list item -> Prop :=
| pi_one i : positions_increase [i]
| pi_cons i j ts : i_pos i <= i_pos j -> positions_increase (j :: ts) -> positions_increase (i :: j :: ts).

Lemma skipn_pre (pre s : bytes) : skipn (length pre) (pre ++ s) = s.
Proof. rewrite skipn_app, skipn_all, Nat.sub_diag. reflexivity. Qed.

Lemma Lexes_items m p s ts : Lexes m p s ts ->
  forall pre, length pre = p -> Forall (item_ok (pre ++ s)) ts.
Proof.
  assert (Hshift : forall (a s' : bytes) ts, (forall pre, Forall (item_ok (pre ++ s')) ts) ->
    forall pre, Forall (item_ok (pre ++ (a ++ s'))) ts).
  { intros a s' t H pre. rewrite app_assoc. apply H. }
  induction 1 as [m p|m p c s ts Hc HL IH|m p s ts HL IH|p s ts HL IH|p com s ts Hcom Hend HL IH
    |p s ts HL IH|m p c t s ts Ht HL IH|m p s ts Hb HL IH|m p s Hb|m p s v r ts Hq HL IH|m p s Hq
    |m p w0 t s ts Hw Hs Hst Ht HL IH|m p w0 s Hw Hs Hst Ht]; intros pre Hp.
  - constructor; auto. split; simpl; [rewrite app_length; lia|]. intros _.
    rewrite app_nil_r. destruct (nth_error pre p) eqn:E; [|reflexivity].
    exfalso. assert (p < length pre) by (apply nth_error_Some; congruence). lia.
  - change (pre ++ c :: s) with (pre ++ [c] ++ s). rewrite app_assoc. apply IH. rewrite app_length. simpl; lia.
  - change (pre ++ ch_bslash :: ch_nl :: s) with (pre ++ [ch_bslash; ch_nl] ++ s). rewrite app_assoc. apply IH.
    rewrite app_length. simpl; lia.
  - change (pre ++ ch_nl :: s) with (pre ++ [ch_nl] ++ s). rewrite app_assoc. apply IH. rewrite app_length. simpl; lia.
  - change (pre ++ "#"%char :: com ++ s) with (pre ++ ("#"%char :: com) ++ s). rewrite app_assoc. apply IH.
    rewrite app_length. simpl; lia.
  - constructor.
    + split; simpl; [rewrite app_length; lia|]. intros _. subst p.
      rewrite nth_error_mid. simpl. rewrite skipn_pre. reflexivity.
    + change (pre ++ ch_nl :: s) with (pre ++ [ch_nl] ++ s). rewrite app_assoc. apply IH. rewrite app_length. simpl; lia.
  - constructor.
    + split; simpl; [rewrite app_length; lia|]. intros _. subst p.
      rewrite nth_error_mid, skipn_pre.
      assert (Ascii.eqb c ch_quote = false) as ->; [|reflexivity].
      apply Ascii.eqb_neq. intros ->. discriminate.
    + change (pre ++ c :: s) with (pre ++ [c] ++ s). rewrite app_assoc. apply IH. rewrite app_length. simpl; lia.
  - constructor.
    + split; simpl; [rewrite app_length; lia|]. intros _. subst p.
      rewrite nth_error_mid. simpl. rewrite skipn_pre. reflexivity.
    + change (pre ++ ","%char :: s) with (pre ++ [","%char] ++ s). rewrite app_assoc. apply IH. rewrite app_length. simpl; lia.
  - constructor; [|constructor; auto].
    + split; simpl; [rewrite app_length; lia|]. intros _. subst p.
      rewrite nth_error_mid. simpl. rewrite skipn_pre. reflexivity.
    + split; simpl; [rewrite app_length; simpl; lia|]. congruence.
  - destruct (unquote_split _ _ _ Hq) as (q & Es & _).
    constructor.
    + split; [cbn [i_pos]; rewrite app_length; lia|]. intros _. cbn [i_pos i_val i_typ].
      replace (nth_error (pre ++ ch_quote :: s) p) with (Some ch_quote) by (subst p; now rewrite nth_error_mid).
      rewrite Ascii.eqb_refl. split; auto. exists r.
      replace (skipn (S p) (pre ++ ch_quote :: s)) with s; auto.
      change (pre ++ ch_quote :: s) with (pre ++ [ch_quote] ++ s). rewrite app_assoc.
      replace (S p) with (length (pre ++ [ch_quote])) by (rewrite app_length; simpl; lia).
      now rewrite skipn_pre.
    + subst s. rewrite app_length in IH. simpl in IH.
      replace (pre ++ ch_quote :: q ++ ch_quote :: r) with ((pre ++ ch_quote :: q ++ [ch_quote]) ++ r)
        by (rewrite <- app_assoc; simpl; rewrite <- app_assoc; reflexivity).
      apply IH. rewrite app_length. simpl. rewrite app_length. simpl. lia.
  - constructor; auto. split; simpl; [rewrite app_length; lia|]. congruence.
  - constructor.
    + split; [cbn [i_pos]; rewrite !app_length; lia|]. intros _. cbn [i_pos i_val i_typ].
      assert (E : skipn p (pre ++ w0 ++ s) = w0 ++ s) by (subst p; apply skipn_pre).
      rewrite E.
      assert (match nth_error (pre ++ w0 ++ s) p with Some c => Ascii.eqb c ch_quote | None => false end = false) as ->.
      { destruct w0 as [|c w1]; [destruct Hst|]. subst p. simpl. rewrite nth_error_mid.
        apply Ascii.eqb_neq. destruct Hst. auto. }
      rewrite firstn_app, Nat.sub_diag, firstn_all. simpl. apply app_nil_r.
    + rewrite app_assoc. apply IH. rewrite app_length. lia.
  - constructor; auto. split; simpl; [rewrite !app_length; lia|]. congruence.
Qed.

Lemma Lexes_increase m p s ts : Lexes m p s ts ->
  positions_increase ts /\ exists i ts', ts = i :: ts' /\ p <= i_pos i.
Proof.
  induction 1 as [m p|m p c s ts Hc HL IH|m p s ts HL IH|p s ts HL IH|p com s ts Hcom Hend HL IH
    |p s ts HL IH|m p c t s ts Ht HL IH|m p s ts Hb HL IH|m p s Hb|m p s v r ts Hq HL IH|m p s Hq
    |m p w0 t s ts Hw Hs Hst Ht HL IH|m p w0 s Hw Hs Hst Ht];
    try (destruct IH as (IH1 & i & ts' & -> & Hi));
    try (split; [assumption|exists i, ts'; split; [reflexivity|lia]]);
    try (split; [constructor; [simpl; lia|assumption]|eexists; eexists; split; [reflexivity|simpl; lia]]);
    try (split; [constructor|eexists; eexists; split; [reflexivity|simpl; lia]]).
  - simpl; lia.
  - constructor.
Qed.

(** For every text: the lexer stops normally, its last item and no other is an
    end of file or an error, positions never decrease and stay within the
    text, and every item is the text at its position. *)
Theorem C02_token_stream input :
  exists ts last, lex input = Ok (ts ++ [last]) /\
    (i_typ last = itemEOF \/ i_typ last = itemError) /\
    (forall i, In i ts -> i_typ i <> itemEOF /\ i_typ i <> itemError) /\
    positions_increase (ts ++ [last]) /\
    (forall i, In i (ts ++ [last]) -> item_ok input i).
Proof.
  pose proof (tokens_Lexes input) as HL.
  destruct (Lexes_wf _ _ _ _ HL) as [HW _].
  assert (HS : exists ts last, tokens input = ts ++ [last] /\
    (i_typ last = itemEOF \/ i_typ last = itemError) /\
    (forall i, In i ts -> i_typ i <> itemEOF /\ i_typ i <> itemError)).
  { clear HL. induction HW as [i Hi|i ts H1 H2 HW IH].
    - exists [], i. simpl; intuition.
    - destruct IH as (t & l & -> & Hl & Ht). exists (i :: t), l. split; auto. split; auto.
      intros j [<-|Hj]; auto. }
  destruct HS as (ts & l & E & Hl & Ht). exists ts, l. rewrite tokens_ok, E.
  repeat split; auto; try (apply Ht; assumption).
  - rewrite <- E. apply (Lexes_increase _ _ _ _ HL).
  - rewrite <- E in H. pose proof (Lexes_items _ _ _ _ HL [] eq_refl) as HF.
    rewrite Forall_forall in HF. apply (HF _ H).
  - rewrite <- E in H. pose proof (Lexes_items _ _ _ _ HL [] eq_refl) as HF.
    rewrite Forall_forall in HF. apply (HF _ H).
Qed.

Example C02_example :
  map i_typ (tokens (B "reject from ""a b"" with message x, y")) =
  [itemReject; itemFrom; itemValue; itemWith; itemMessage; itemValue; itemComma; itemError].
Proof. reflexivity. Qed.

(** ** C03 *)

(** the bytes to write between the quotes *)
Fixpoint esc (v : bytes) : bytes :=
  match v with
  | [] => []
  | c :: v' =>
      if Ascii.eqb c ch_quote || Ascii.eqb c ch_bslash then ch_bslash :: c :: esc v' else c :: esc v'
  end.
Definition quoted (v : bytes) : bytes := ch_quote :: esc v ++ [ch_quote].

Lemma unquote_esc v r : unquote (esc v ++ ch_quote :: r) = Some (v, r).
Proof.
  induction v as [|c v IH]; [reflexivity|].
  simpl esc. destruct (Ascii.eqb_spec c ch_quote) as [->|Hq].
  - simpl. rewrite IH. reflexivity.
  - destruct (Ascii.eqb_spec c ch_bslash) as [->|Hb].
    + simpl. rewrite IH. reflexivity.
    + simpl. apply Ascii.eqb_neq in Hq, Hb. rewrite Hq.
      destruct (esc v ++ ch_quote :: r) as [|d s] eqn:E; [destruct (esc v); discriminate|].
      rewrite Hb. cbn [andb]. rewrite IH. reflexivity.
Qed.

(** Wherever the lexer stands (start of a line or within one), a quoted byte
    string is read as one value item and lexing goes on right after it. *)
Theorem C03_quoted_any_bytes m p v rest ts :
  Lexes m p (quoted v ++ rest) ts <->
  exists ts', ts = mkItem itemValue v p :: ts' /\ Lexes INL (p + length (quoted v)) rest ts'.
Proof.
  unfold quoted. simpl. rewrite <- app_assoc. simpl.
  assert (E : forall ts', Lexes INL (p + S (length (esc v ++ [ch_quote]))) rest ts' ->
    Lexes m p (ch_quote :: esc v ++ ch_quote :: rest) (mkItem itemValue v p :: ts')).
  { intros ts' H. eapply Lx_quote; [apply unquote_esc|].
    replace (p + 1 + (length (esc v ++ ch_quote :: rest) - length rest))
      with (p + S (length (esc v ++ [ch_quote]))); auto.
    rewrite !app_length. simpl. lia. }
  split.
  - intros H. destruct (Lexes_total INL (p + S (length (esc v ++ [ch_quote]))) rest) as [ts' H'].
    exists ts'. split; auto. apply (Lexes_det _ _ _ _ _ H (E _ H')).
  - intros (ts' & -> & H). auto.
Qed.

(** In particular a whole rule text around it, through the lexer as it runs:
    any laid out text before, any text after. *)
Theorem C03_quoted_in_context src v rest :
  wf_source SOL src (quoted v ++ rest) ->
  exists a b, lex (render src ++ quoted v ++ rest) = Ok (a ++ mkItem itemValue v (length (render src)) :: b) /\
    strip a = map piece_tok (pieces src) /\
    Lexes INL (length (render src) + length (quoted v)) rest b.
Proof.
  intros H. destruct (Lexes_total INL (length (render src) + length (quoted v)) rest) as [b Hb].
  assert (HK : Lexes (mode_end SOL src) (0 + length (render src)) (quoted v ++ rest)
                 (mkItem itemValue v (length (render src)) :: b)).
  { apply C03_quoted_any_bytes. exists b. auto. }
  destruct (render_Lexes src SOL 0 _ _ H HK) as (a & HL & Hs).
  exists a, b. repeat split; auto. apply Lexes_lex. exact HL.
Qed.

Example C03_example :
  let v := B "a""b\c,(d)" ++ [ch_nl] in
  tokens (B "from " ++ quoted v ++ B " x") =
  [mkItem itemFrom (B "from") 0; mkItem itemValue v 5; mkItem itemValue (B "x") 20; mkItem itemEOF [] 21].
Proof. vm_compute. reflexivity. Qed.
Example C03_context_example :
  wf_source SOL [Lay LTab; Pc (PcWord (B "from")); Lay LSpace] (quoted (B "x y") ++ B " ; to z").
Proof.
  simpl. repeat split; try discriminate. intros [H _]. discriminate.
Qed.

(** ** C04 *)

Lemma parse_rules_iff fds fs input rs : parse fds fs input = PRules rs <->
  exists t', GFile (incl_of (loadRules fds fs)) 0 (tokens input) rs t'.
Proof.
  unfold parse. split.
  - destruct (parse_with (loadRules fds fs) 0 input) eqn:E; try discriminate. intros [= <-].
    exists (ps_tick p). apply parse_with_iff; [apply loadRules_safe|]. eauto.
  - intros [t' HG]. apply parse_with_iff in HG; [|apply loadRules_safe].
    destruct HG as (p' & -> & _). reflexivity.
Qed.

Lemma strip_parse input1 input2 : strip (tokens input1) = strip (tokens input2) ->
  forall fds fs rs, parse fds fs input1 = PRules rs <-> parse fds fs input2 = PRules rs.
Proof.
  intros H fds fs rs.
  rewrite !parse_rules_iff.
  split; intros [t' HG]; exists t'; [apply (GFile_strip _ _ _ _ _ _ H)|apply (GFile_strip _ _ _ _ _ _ H)]; auto.
Qed.

(** Two texts with the same pieces, whatever layout is between them, have the
    same items and the same rules. *)
Theorem C04_layout_irrelevant src1 src2 :
  wf_source SOL src1 [] -> wf_source SOL src2 [] ->
  map piece_tok (pieces src1) = map piece_tok (pieces src2) ->
  strip (tokens (render src1)) = strip (tokens (render src2)) /\
  forall fds fs rs, parse fds fs (render src1) = PRules rs <-> parse fds fs (render src2) = PRules rs.
Proof.
  intros H1 H2 E.
  assert (HS : strip (tokens (render src1)) = strip (tokens (render src2))).
  { rewrite !strip_tokens by auto. now rewrite E. }
  split; auto. apply strip_parse. auto.
Qed.

(** Every text that lexes without an error is made of such pieces. *)
Theorem C04_every_text input : (forall i, In i (tokens input) -> i_typ i <> itemError) ->
  exists src, wf_source SOL src [] /\ render src = input /\
    strip (tokens input) = map piece_tok (pieces src) ++ [(itemEOF, [])].
Proof.
  intros H. destruct (Lexes_source _ _ _ _ (tokens_Lexes input) H) as (src & Hw & Hr).
  exists src. repeat split; auto. rewrite <- Hr. apply strip_tokens; auto.
Qed.

(** Layout that may be put between any two elements: blanks, continuations
    after a blank, and at the start of a line comments and blank lines. *)
Definition insertable (m : mode) (ls : list layout) : Prop :=
  match ls with
  | [LSpace] | [LTab] => True
  | [LSpace; LCont] | [LTab; LCont] => True
  | [LBlankLine] => m = SOL
  | [LComment c; LBlankLine] => m = SOL /\ ~ In ch_nl c
  | _ => False
  end.

(** what it may not follow directly: a comma, or a comment (it would become
    part of that) *)
Definition tight (e : element) : Prop :=
  match e with Pc PcComma | Lay (LComment _) => True | _ => False end.
Definition ends_tight (a : source) : Prop := exists a' e, a = a' ++ [e] /\ tight e.

Lemma render_app a b : render (a ++ b) = render a ++ render b.
Proof. unfold render. rewrite map_app, concat_app. reflexivity. Qed.
Lemma render_cons e b : render (e :: b) = element_text e ++ render b.
Proof. reflexivity. Qed.

Lemma mode_end_app m a b : mode_end m (a ++ b) = mode_end (mode_end m a) b.
Proof. revert m; induction a; simpl; auto. Qed.

Lemma wf_source_app m a b k : wf_source m (a ++ b) k <->
  wf_source m a (render b ++ k) /\ wf_source (mode_end m a) b k.
Proof.
  revert m. induction a as [|e a IH]; intros m; simpl; [tauto|].
  rewrite IH, render_app, app_assoc. tauto.
Qed.

Lemma wf_nonempty_text e m rest : element_ok m e rest -> element_text e <> [].
Proof.
  destruct e as [[]|[w| | | |]]; simpl; try discriminate.
  intros (_ & _ & H & _) ->. exact H.
Qed.

(** changing what follows a source whose last element is not tight *)
Lemma wf_source_follow m a k k' : wf_source m a k -> ~ ends_tight a ->
  (mode_end m a = SOL \/ exists c r, k' = c :: r /\ ends_word c = true /\ c <> ch_nl) ->
  wf_source m a k'.
Proof.
  revert m. induction a as [|e a IH]; intros m Hw Ht Hk; [exact I|].
  destruct Hw as [He Hw]. split.
  - destruct a as [|e2 a].
    + simpl. simpl in He.
      destruct e as [[| | | |cc]|[w|raw v|cc| |]]; simpl in *; auto.
      * exfalso. apply Ht. exists [], (Lay (LComment cc)). simpl; auto.
      * destruct Hk as [Hk|(c & r & -> & Hc & Hnl)]; [discriminate|].
        destruct He as (H1 & H2 & H3 & H4). split; [|split; [|split]]; auto.
        destruct w as [|c0 w]; simpl in *; auto. destruct H3 as (A & B0 & C).
        split; [|split]; auto. intros [E (s' & Es)]. injection Es as -> ->. auto.
      * exfalso. apply Ht. exists [], (Pc PcComma). simpl; auto.
    + destruct Hw as [He2 _]. pose proof (wf_nonempty_text _ _ _ He2) as Hne.
      rewrite render_cons in He |- *.
      destruct (element_text e2) as [|c0 r0] eqn:E; [congruence|]. simpl app in *.
      destruct e as [[| | | |cc]|[w|raw v|cc| |]]; simpl in *; auto.
      destruct He as (H1 & H2 & H3 & H4). split; [|split; [|split]]; auto.
      destruct w as [|cw w]; simpl in *; auto. destruct H3 as (A & B0 & C).
      split; [|split]; auto. intros [E1 (s' & Es)]. apply C. split; auto. injection Es as -> _. eauto.
  - apply IH; auto.
    intros (a' & e' & -> & He'). apply Ht. exists (e :: a'), e'. auto.
Qed.

(** Inserting such layout anywhere in a text keeps its rules. *)
Theorem C04_insert_layout a ls b :
  wf_source SOL (a ++ b) [] -> insertable (mode_end SOL a) ls -> ~ ends_tight a ->
  forall fds fs rs,
    parse fds fs (render (a ++ map Lay ls ++ b)) = PRules rs <-> parse fds fs (render (a ++ b)) = PRules rs.
Proof.
  intros Hw Hi Ht. apply C04_layout_irrelevant; auto.
  - apply wf_source_app in Hw as [Ha Hb].
    assert (Hend : mode_end (mode_end SOL a) (map Lay ls) = mode_end SOL a).
    { generalize (mode_end SOL a) as m. clear. induction ls; simpl; auto. }
    apply wf_source_app. split; [|apply wf_source_app; rewrite Hend; split; auto].
    + apply (wf_source_follow _ _ _ _ Ha Ht). rewrite render_app.
      destruct ls as [|[| | | |c] [|[| | | |c2] [|]]]; simpl in Hi; try contradiction; try tauto;
        right; eexists; eexists; (split; [reflexivity|split; [reflexivity|discriminate]]).
    + destruct ls as [|[| | | |c] [|[| | | |c2] [|]]]; simpl in Hi; try contradiction; simpl; tauto.
  - assert (Hp : forall x y, pieces (x ++ y) = pieces x ++ pieces y).
    { induction x as [|[l|p] x IH]; intros y; simpl; auto. now rewrite IH. }
    rewrite !Hp. assert (pieces (map Lay ls) = []) as -> by (clear; induction ls; auto). reflexivity.
Qed.

Definition C04_ex_a : source :=
  [Lay (LComment (B " all of it")); Lay LBlankLine; Pc (PcWord (B "accept")); Lay LSpace].
Definition C04_ex_b : source :=
  [Pc (PcWord (B "to")); Lay LTab; Pc (PcQuoted (B "a\""b") (B "a""b")); Pc PcEOL].
Example C04_example :
  wf_source SOL (C04_ex_a ++ C04_ex_b) [] /\ insertable (mode_end SOL C04_ex_a) [LSpace; LCont] /\
  ~ ends_tight C04_ex_a /\
  (exists r, parse 5 {| rf_read := fun _ _ => inr [] |} (render (C04_ex_a ++ C04_ex_b)) = PRules [r]).
Proof.
  split; [|split; [|split]].
  - simpl. repeat split; try discriminate; try (intros [H _]; discriminate).
    vm_compute. intuition discriminate.
  - exact I.
  - intros (a' & e & E & Ht). change C04_ex_a with ([Lay (LComment (B " all of it")); Lay LBlankLine;
      Pc (PcWord (B "accept"))] ++ [Lay LSpace]) in E. apply app_inj_tail in E as [_ <-]. exact Ht.
  - eexists. vm_compute. reflexivity.
Qed.

(** ** C05 *)

Lemma GFile_ends_EOF incl t ts rs t' : GFile incl t ts rs t' ->
  exists a e, ts = a ++ [e] /\ i_typ e = itemEOF.
Proof.
  induction 1 as [e t He|t ts r e rest rs t' Hr He HF (a & x & -> & Hx)|t ts r e Hr He
    |t k b e rest rl rs t1 t' Hk Ha He Hi HF (a & x & -> & Hx)|t k a e rl t1 Hk Ha He Hi].
  - exists [], e. auto.
  - exists (ts ++ e :: a), x. split; auto. rewrite <- app_assoc. reflexivity.
  - exists ts, e. auto.
  - exists (k :: b :: e :: a), x. auto.
  - exists [k; a], e. auto.
Qed.

Lemma parse_total fds fs input :
  (exists rs, parse fds fs input = PRules rs) \/ (exists e, parse fds fs input = PFail e).
Proof.
  unfold parse. pose proof (parse_with_spec _ (loadRules_safe fds fs) 0 input) as H.
  destruct (parse_with (loadRules fds fs) 0 input); simpl in H; eauto; contradiction.
Qed.

(** A text whose items include an error is refused. *)
Lemma lex_error_refused fds fs input i : In i (tokens input) -> i_typ i = itemError ->
  exists e, parse fds fs input = PFail e.
Proof.
  intros Hi He. destruct (parse_total fds fs input) as [[rs Hp]|H]; auto. exfalso.
  apply parse_rules_iff in Hp as [t' HG].
  destruct (C02_token_stream input) as (ts & l & HL & Hl & Ht & _).
  rewrite tokens_ok in HL. injection HL as HL. rewrite HL in *.
  apply in_app_or in Hi as [Hi|[<-|[]]]; [apply Ht in Hi; tauto|].
  destruct (GFile_ends_EOF _ _ _ _ _ HG) as (a & e & E & Hx).
  apply app_inj_tail in E as [_ ->]. congruence.
Qed.

Lemma comma_item m p s ts : Lexes m p s ts -> forall i, In i ts -> i_typ i = itemComma ->
  forall pre, length pre = p ->
  nth_error (pre ++ s) (i_pos i) = Some ","%char /\
  (bad_after_comma (skipn (S (i_pos i)) (pre ++ s)) = true -> exists j, In j ts /\ i_typ j = itemError).
Proof.
  assert (KW : forall w t, word_type w = Some t -> t <> itemComma).
  { intros w t. unfold word_type. destruct (mget keywords w) as [k|] eqn:E.
    - intros [= ->]. apply mget_In in E.
      repeat (destruct E as [E|E]; [injection E as <- <-; discriminate|]). destruct E.
    - destruct (_ || _); [intros [= <-]; discriminate|].
      destruct (has_prefix _ _); [|intros [= <-]; discriminate].
      destruct (beqb _ _); [discriminate|intros [= <-]; discriminate]. }
  induction 1 as [m p|m p c s ts Hc HL IH|m p s ts HL IH|p s ts HL IH|p com s ts Hcom Hend HL IH
    |p s ts HL IH|m p c t s ts Ht HL IH|m p s ts Hb HL IH|m p s Hb|m p s v r ts Hq HL IH|m p s Hq
    |m p w0 t s ts Hw Hs Hst Ht HL IH|m p w0 s Hw Hs Hst Ht]; intros i Hi Hti pre Hp.
  - destruct Hi as [<-|[]]. discriminate.
  - change (pre ++ c :: s) with (pre ++ [c] ++ s). rewrite app_assoc. apply IH; auto. rewrite app_length. simpl; lia.
  - change (pre ++ ch_bslash :: ch_nl :: s) with (pre ++ [ch_bslash; ch_nl] ++ s). rewrite app_assoc. apply IH; auto.
    rewrite app_length. simpl; lia.
  - change (pre ++ ch_nl :: s) with (pre ++ [ch_nl] ++ s). rewrite app_assoc. apply IH; auto. rewrite app_length. simpl; lia.
  - change (pre ++ "#"%char :: com ++ s) with (pre ++ ("#"%char :: com) ++ s). rewrite app_assoc. apply IH; auto.
    rewrite app_length. simpl; lia.
  - destruct Hi as [<-|Hi]; [discriminate|].
    destruct (IH i Hi Hti (pre ++ [ch_nl])) as [H1 H2]; [rewrite app_length; simpl; lia|].
    rewrite <- app_assoc in H1, H2. split; auto. intros Hb. destruct (H2 Hb) as (j & Hj & He). exists j. simpl; auto.
  - destruct Hi as [<-|Hi].
    { exfalso. simpl in Hti. subst t. unfold punct_type in Ht.
      destruct (Ascii.eqb c "("); [discriminate|]. destruct (Ascii.eqb c ")"); [discriminate|].
      destruct (Ascii.eqb c ";"); discriminate. }
    destruct (IH i Hi Hti (pre ++ [c])) as [H1 H2]; [rewrite app_length; simpl; lia|].
    rewrite <- app_assoc in H1, H2. split; auto. intros Hb. destruct (H2 Hb) as (j & Hj & He). exists j. simpl; auto.
  - destruct Hi as [<-|Hi].
    + cbn [i_pos]. subst p. rewrite nth_error_mid. split; auto. intros Hbb. exfalso.
      replace (skipn (S (length pre)) (pre ++ ","%char :: s)) with s in Hbb; [congruence|].
      change (pre ++ ","%char :: s) with (pre ++ [","%char] ++ s). rewrite app_assoc.
      replace (S (length pre)) with (length (pre ++ [","%char])) by (rewrite app_length; simpl; lia).
      now rewrite skipn_pre.
    + destruct (IH i Hi Hti (pre ++ [","%char])) as [H1 H2]; [rewrite app_length; simpl; lia|].
      rewrite <- app_assoc in H1, H2. split; auto. intros Hbb. destruct (H2 Hbb) as (j & Hj & He). exists j. simpl; auto.
  - destruct Hi as [<-|[<-|[]]]; [|discriminate].
    cbn [i_pos]. subst p. rewrite nth_error_mid. split; auto. intros _.
    exists (mkItem itemError msg_comma (length pre + 1)). simpl; auto.
  - destruct Hi as [<-|Hi]; [discriminate|].
    destruct (unquote_split _ _ _ Hq) as (q & Es & _).
    destruct (IH i Hi Hti (pre ++ ch_quote :: q ++ [ch_quote])) as [H1 H2].
    { subst s. rewrite !app_length. simpl. rewrite !app_length. simpl. lia. }
    assert (E : (pre ++ ch_quote :: q ++ [ch_quote]) ++ r = pre ++ ch_quote :: s).
    { subst s. rewrite <- app_assoc. simpl. rewrite <- app_assoc. reflexivity. }
    rewrite E in *. split; auto. intros Hb. destruct (H2 Hb) as (j & Hj & He). exists j. simpl; auto.
  - destruct Hi as [<-|[]]. discriminate.
  - destruct Hi as [<-|Hi]; [exfalso; eapply KW; eauto|].
    destruct (IH i Hi Hti (pre ++ w0)) as [H1 H2]; [rewrite app_length; lia|].
    rewrite <- app_assoc in H1, H2. split; auto. intros Hb. destruct (H2 Hb) as (j & Hj & He). exists j. simpl; auto.
  - destruct Hi as [<-|[]]. discriminate.
Qed.

(** what may not stand after a comma: nothing, a blank or a line end *)
Definition bad_next (o : option ascii) : Prop :=
  o = None \/ o = Some ch_space \/ o = Some ch_tab \/ o = Some ch_nl.

Lemma bad_next_skipn s n : bad_next (nth_error s n) <-> bad_after_comma (skipn n s) = true.
Proof.
  unfold bad_next.
  assert (E : nth_error s n = match skipn n s with [] => None | c :: _ => Some c end).
  { revert s; induction n as [|n IH]; intros [|c s]; simpl; auto. }
  rewrite E. destruct (skipn n s) as [|c r]; simpl; [tauto|].
  rewrite orb_false_r. rewrite !orb_true_iff, !Ascii.eqb_eq.
  split; [intros [H|[H|[H|H]]]|intros [H|[H|H]]]; try discriminate; try (injection H as ->); subst; auto.
Qed.

(** A comma (one that the lexer sees as such, so not in a quoted string or a
    comment) followed by a blank, a line end or the end of the text makes the
    whole text be refused. *)
Theorem C05_comma_then_blank fds fs input i :
  In i (tokens input) -> i_typ i = itemComma -> bad_next (nth_error input (S (i_pos i))) ->
  exists e, parse fds fs input = PFail e.
Proof.
  intros Hi Ht Hb.
  destruct (comma_item _ _ _ _ (tokens_Lexes input) i Hi Ht [] eq_refl) as [_ H].
  apply bad_next_skipn in Hb. destruct (H Hb) as (j & Hj & He). eapply lex_error_refused; eauto.
Qed.

(** and the commas the lexer sees are all those outside of quotes and
    comments: after any laid out text a comma is one *)
Theorem C05_comma_after_source fds fs src r :
  wf_source SOL src (","%char :: r) -> bad_next (nth_error r 0) ->
  (exists ts, lex (render src ++ ","%char :: r) =
     Ok (ts ++ [mkItem itemComma (B ",") (length (render src));
                mkItem itemError msg_comma (length (render src) + 1)])) /\
  exists e, parse fds fs (render src ++ ","%char :: r) = PFail e.
Proof.
  intros Hw Hb. apply bad_next_skipn in Hb. simpl in Hb.
  destruct (render_Lexes src SOL 0 _ _ Hw (Lx_comma_bad _ _ _ Hb)) as (ts & HL & Hs).
  simpl in HL. split; [exists ts; apply Lexes_lex; exact HL|].
  eapply lex_error_refused; [|].
  - rewrite (Lexes_det _ _ _ _ _ (tokens_Lexes _) HL). apply in_or_app. right. simpl. right. left. reflexivity.
  - reflexivity.
Qed.

Example C05_example :
  wf_source SOL [Pc (PcWord (B "accept")); Lay LSpace; Pc (PcWord (B "dns")); Lay LSpace; Pc (PcWord (B "good"))]
    (B ", noforward") /\
  parse 3 {| rf_read := fun _ _ => inr [] |} (B "accept dns good, noforward") =
    PFail (ErrLex 1 17 msg_comma).
Proof.
  split; [|vm_compute; reflexivity].
  simpl. repeat split; try discriminate; intros [H _]; discriminate.
Qed.

Print Assumptions C02_token_stream.
Print Assumptions C03_quoted_in_context.
Print Assumptions C04_insert_layout.
Print Assumptions C04_every_text.
Print Assumptions C05_comma_then_blank.
Print Assumptions C05_comma_after_source.
