(** The lexer machine of Lexer.v computes exactly the token division of
    LexSpec.v, for every text. *)
From Verif Require Import Bytes Outcome Lexer LexSpec.

Definition fn_of (m : mode) : lexfn := match m with SOL => FLineStart | INL => FLineRunning end.

(** a lexer between tokens *)
Definition lxat (pre s : bytes) (w : nat) (its : list item) : lexer :=
  mkLexer (pre ++ s) (length pre) (length pre) w its.

Lemma nth_error_mid {A} (pre : list A) x s : nth_error (pre ++ x :: s) (length pre) = Some x.
Proof. rewrite nth_error_app2, Nat.sub_diag; auto. Qed.

Lemma nth_error_end {A} (pre : list A) : nth_error (pre ++ []) (length pre) = None.
Proof. apply nth_error_None. rewrite app_nil_r. lia. Qed.

Lemma nth_error_mid' {A} (pre a : list A) x s :
  nth_error (pre ++ a ++ x :: s) (length pre + length a) = Some x.
Proof. rewrite app_assoc, <- app_length. apply nth_error_mid. Qed.

Lemma slice_mid (pre a s : bytes) :
  slice (pre ++ a ++ s) (length pre) (length pre + length a) = Ok a.
Proof.
  rewrite slice_ok; [|rewrite !app_length; lia].
  replace (length pre + length a - length pre) with (length a) by lia.
  rewrite skipn_app, skipn_all, Nat.sub_diag. simpl.
  rewrite firstn_app, firstn_all, Nat.sub_diag. simpl. now rewrite app_nil_r.
Qed.

Lemma slice_from_mid (pre s : bytes) : slice_from (pre ++ s) (length pre) = Ok s.
Proof.
  unfold slice_from. rewrite slice_ok; [|rewrite !app_length; lia].
  rewrite skipn_app, skipn_all, Nat.sub_diag. simpl.
  rewrite app_length. replace (length pre + length s - length pre) with (length s) by lia.
  now rewrite firstn_all.
Qed.

Lemma lxat_shift pre a s w its :
  lxat (pre ++ a) s w its =
  mkLexer (pre ++ a ++ s) (length pre + length a) (length pre + length a) w its.
Proof. unfold lxat. rewrite app_length, app_assoc. reflexivity. Qed.

Lemma next_cons pre c s w its :
  next (lxat pre (c :: s) w its) =
  (Some c, mkLexer (pre ++ c :: s) (length pre + 1) (length pre) 1 its).
Proof. unfold next, lxat; simpl. now rewrite nth_error_mid. Qed.

Lemma next_nil pre w its :
  next (lxat pre [] w its) = (None, lxat pre [] 0 its).
Proof. unfold next, lxat; simpl. now rewrite nth_error_end. Qed.

Lemma peek_lxat pre s w its :
  peek (lxat pre s w its) =
  (match s with [] => None | c :: _ => Some c end,
   lxat pre s (match s with [] => 0 | _ => 1 end) its).
Proof.
  unfold peek. destruct s as [|c s].
  - rewrite next_nil. unfold backup, lxat. simpl. now rewrite Nat.sub_0_r.
  - rewrite next_cons. unfold backup, lxat. simpl. do 2 f_equal. lia.
Qed.

Definition not_blank_start (s : bytes) : bool :=
  match s with [] => true | c :: _ => negb (is_layout c) end.

Lemma is_layout_eq c : is_layout c = is_blank (Some c).
Proof. unfold is_layout, is_blank, mem_byte. simpl. now rewrite orb_false_r. Qed.

Lemma skipWS_skip pre c s w its :
  is_layout c = true ->
  skipWhitespace (lxat pre (c :: s) w its) = skipWhitespace (lxat (pre ++ [c]) s 1 its).
Proof.
  intros H. unfold skipWhitespace.
  assert (HL : forall k n p s1 st1 st2 w1 w2 its', (p <= length (s1 : bytes)) ->
     k >= S (length s1 - p) -> n >= S (length s1 - p) ->
     skipWhitespace_loop k (mkLexer s1 p st1 w1 its') = skipWhitespace_loop n (mkLexer s1 p st2 w2 its')).
  { induction k as [|k IH]; intros n p s1 st1 st2 w1 w2 its' Hp Hk Hn; [lia|].
    destruct n as [|n]; [lia|]. simpl. unfold next. simpl.
    destruct (nth_error s1 p) as [r|] eqn:E; simpl.
    - assert (p < length s1) by (apply nth_error_Some; congruence).
      destruct (_ || _).
      + apply IH; lia.
      + unfold swallow, backup. simpl. reflexivity.
    - reflexivity. }
  set (k := S (length (l_input (lxat pre (c :: s) w its)))).
  assert (E : skipWhitespace_loop k (lxat pre (c :: s) w its) =
     skipWhitespace_loop (length (l_input (lxat pre (c :: s) w its)))
      (mkLexer (pre ++ c :: s) (length pre + 1) (length pre) 1 its)).
  { unfold k. cbn [skipWhitespace_loop]. rewrite next_cons. rewrite <- is_layout_eq, H. reflexivity. }
  rewrite E. rewrite lxat_shift. simpl length. simpl l_input.
  apply HL; rewrite ?app_length; simpl; lia.
Qed.

Lemma skipWS_stop pre s w its :
  not_blank_start s = true ->
  skipWhitespace (lxat pre s w its) = Ok (lxat pre s (match s with [] => 0 | _ => 1 end) its).
Proof.
  intros H. unfold skipWhitespace. cbn [skipWhitespace_loop].
  destruct s as [|c s].
  - rewrite next_nil. simpl. unfold swallow, backup, lxat. simpl. now rewrite Nat.sub_0_r.
  - rewrite next_cons. simpl in H. rewrite <- is_layout_eq. apply negb_true_iff in H. rewrite H.
    unfold swallow, backup, lxat. simpl.
    replace (length pre + 1 - 1) with (length pre) by lia. reflexivity.
Qed.

Lemma lexline_skip m pre c s w its :
  is_layout c = true ->
  lexstep (fn_of m) (lxat pre (c :: s) w its) = lexstep (fn_of m) (lxat (pre ++ [c]) s 1 its).
Proof.
  intros H. destruct m; simpl; unfold lexLineStart, lexLineRunning; now rewrite skipWS_skip.
Qed.

(** ** characters *)
Lemma specials_word c : ends_word c = false -> specials (Some c) = itemError.
Proof.
  unfold ends_word, mem_byte; simpl.
  destruct (Ascii.eqb c ","); simpl; [discriminate|].
  destruct (Ascii.eqb c "("); simpl; [discriminate|].
  destruct (Ascii.eqb c ")"); simpl; [discriminate|].
  destruct (Ascii.eqb c ";"); simpl; [discriminate|].
  destruct (Ascii.eqb c ch_nl); simpl; [discriminate|]. reflexivity.
Qed.

Lemma ends_word_layout c : ends_word c = false -> is_layout c = false.
Proof.
  unfold ends_word, is_layout, mem_byte; simpl.
  destruct (Ascii.eqb c ","), (Ascii.eqb c "("), (Ascii.eqb c ")"), (Ascii.eqb c ";"), (Ascii.eqb c ch_nl); simpl; try discriminate; auto.
Qed.

Lemma ends_word_special c : ends_word c = mem_byte c specialChars.
Proof.
  unfold ends_word, specialChars, mem_byte. simpl.
  destruct (Ascii.eqb c ","), (Ascii.eqb c "("), (Ascii.eqb c ")"), (Ascii.eqb c ";"); reflexivity.
Qed.

Lemma index_any_word w s :
  forallb (fun c => negb (ends_word c)) w = true -> at_word_end s ->
  match index_any (w ++ s) specialChars with Some i => i | None => length (w ++ s) end = length w.
Proof.
  induction w as [|c w IH]; intros Hw Hs.
  - simpl. destruct s as [|c s]; simpl; auto. simpl in Hs. rewrite ends_word_special in Hs.
    simpl in Hs. simpl. rewrite Hs. reflexivity.
  - cbn [forallb] in Hw. apply andb_true_iff in Hw as [Hc Hw].
    apply negb_true_iff in Hc. rewrite ends_word_special in Hc.
    simpl app. cbn [index_any]. rewrite Hc. specialize (IH Hw Hs).
    destruct (index_any (w ++ s) specialChars); simpl in *; lia.
Qed.

Lemma lexWord_word pre w t s wd its :
  forallb (fun c => negb (ends_word c)) w = true -> at_word_end s -> w <> [] ->
  word_type w = Some t ->
  lexWord (lxat pre (w ++ s) wd its) =
  Ok (Some FLineRunning, lxat (pre ++ w) s wd (its ++ [mkItem t w (length pre)])).
Proof.
  intros Hw Hs Hne Ht. rewrite lxat_shift. unfold lexWord, lxat. cbn [l_input l_pos l_start].
  rewrite slice_from_mid. cbn [obind].
  pose proof (index_any_word w s Hw Hs) as Hi.
  replace (length (pre ++ w ++ s) - length pre) with (length (w ++ s)) by (rewrite !app_length; lia).
  rewrite Hi. cbn [l_input l_pos l_start set_pos]. rewrite slice_mid. cbn [obind].
  assert (Hemit : forall ty, emit ty (set_pos (length pre + length w)
     (mkLexer (pre ++ w ++ s) (length pre) (length pre) wd its)) =
     Ok (mkLexer (pre ++ w ++ s) (length pre + length w) (length pre + length w) wd
         (its ++ [mkItem ty w (length pre)]))).
  { intros ty. unfold emit. simpl. rewrite slice_mid. reflexivity. }
  unfold keyword_of. unfold word_type in Ht.
  destruct (mget keywords w) as [k|] eqn:Ek.
  - injection Ht as ->.
    assert (Hk : t <> itemError).
    { intros ->. apply mget_In in Ek. revert Ek. clear. intros H.
      repeat (destruct H as [H|H]; [congruence|]). destruct H. }
    destruct (ieqb_spec t itemError); [congruence|]. simpl negb. cbv iota.
    rewrite Hemit. reflexivity.
  - change (negb (ieqb itemError itemError)) with false. cbv iota.
    destruct w as [|c0 w0]; [congruence|]. cbn [nth_error]. cbn [of_option obind].
    replace (has_prefix (c0 :: w0) (B "/")) with (Ascii.eqb c0 "/") in Ht
      by (simpl; now rewrite andb_true_r).
    destruct (Ascii.eqb c0 "/" || has_prefix (c0 :: w0) (B "./")).
    { injection Ht as <-. rewrite Hemit. reflexivity. }
    destruct (has_prefix (c0 :: w0) (B "file:")) eqn:Ef.
    + destruct (beqb_spec (c0 :: w0) (B "file:")) as [|Hnf]; [discriminate|].
      injection Ht as <-.
      destruct (Nat.leb_spec (length (c0 :: w0)) (length (B "file:"))).
      * exfalso. apply has_prefix_spec in Ef as [t Ef]. destruct t as [|x t].
        -- rewrite app_nil_r in Ef. congruence.
        -- rewrite Ef in H. simpl in H. lia.
      * rewrite Hemit. reflexivity.
    + injection Ht as <-. rewrite Hemit. reflexivity.
Qed.

Lemma lexWord_bad pre w s wd its :
  forallb (fun c => negb (ends_word c)) w = true -> at_word_end s ->
  word_type w = None ->
  exists l, lexWord (lxat pre (w ++ s) wd its) = Ok (None, l) /\
    l_items l = its ++ [mkItem itemError msg_nofile (length pre)].
Proof.
  intros Hw Hs Ht.
  assert (w = B "file:") as ->.
  { unfold word_type in Ht. destruct (mget keywords w); [discriminate|].
    destruct (_ || _); [discriminate|]. destruct (has_prefix _ _); [|discriminate].
    destruct (beqb_spec w (B "file:")); [auto|discriminate]. }
  unfold lexWord, lxat. cbn [l_input l_pos l_start].
  rewrite slice_from_mid. cbn [obind].
  pose proof (index_any_word _ s Hw Hs) as Hi.
  replace (length (pre ++ B "file:" ++ s) - length pre) with (length (B "file:" ++ s)) by (rewrite !app_length; lia).
  rewrite Hi. cbn [l_input l_pos l_start set_pos]. rewrite slice_mid. cbn [obind].
  replace (keyword_of (B "file:")) with itemError by reflexivity.
  eexists. split; reflexivity.
Qed.

(** ** quoted strings *)
Lemma unquote_length s : forall v r, unquote s = Some (v, r) -> exists q, s = q ++ r /\ length q >= 1.
Proof.
  assert (H : forall n s, length s <= n -> forall v r, unquote s = Some (v, r) -> exists q, s = q ++ r /\ length q >= 1).
  { induction n as [|n IH]; intros [|c s1] Hl v r H; simpl in *; try discriminate; try lia.
    destruct (Ascii.eqb c ch_quote).
    { injection H as <- <-. exists [c]. simpl. auto. }
    destruct s1 as [|d s2]; [discriminate|].
    destruct (_ && _).
    - destruct (unquote s2) as [[v' r']|] eqn:E; [|discriminate]. simpl in H. injection H as <- <-.
      apply IH in E as (q & -> & Hq); [|simpl in Hl; lia].
      exists (c :: d :: q). simpl. split; auto; lia.
    - destruct (unquote (d :: s2)) as [[v' r']|] eqn:E; [|discriminate]. cbn [option_map] in H. injection H as <- <-.
      apply IH in E as (q & E & Hq); [|simpl in *; lia].
      exists (c :: q). simpl. split; [congruence|lia]. }
  apply (H (length s)); auto.
Qed.

(** the accumulated text [acc] between l.pos and lookat contains no closing
    quote and no escape *)
Lemma index_any_skip a s cs : (forall c, In c a -> mem_byte c cs = false) ->
  index_any (a ++ s) cs = option_map (fun i => length a + i) (index_any s cs).
Proof.
  induction a as [|c a IH]; intros H; simpl.
  - destruct (index_any s cs); reflexivity.
  - rewrite (H c) by (left; auto). rewrite IH by (intros; apply H; right; auto).
    destruct (index_any s cs); reflexivity.
Qed.

Definition plain_q (c : ascii) : Prop := c <> ch_quote /\ c <> ch_bslash.

Lemma plain_q_mem c : plain_q c -> mem_byte c [ch_bslash; ch_quote] = false.
Proof.
  intros [H1 H2]. unfold mem_byte. simpl.
  destruct (Ascii.eqb_spec c ch_bslash); [congruence|].
  destruct (Ascii.eqb_spec c ch_quote); [congruence|]. reflexivity.
Qed.

Lemma unquote_plain a s : Forall plain_q a -> 
  unquote (a ++ s) = option_map (fun p => (a ++ fst p, snd p)) (unquote s).
Proof.
  induction 1 as [|c a [H1 H2] _ IH]; simpl app.
  - destruct (unquote s) as [[]|]; reflexivity.
  - simpl. destruct (Ascii.eqb_spec c ch_quote); [congruence|].
    destruct (Ascii.eqb_spec c ch_bslash); [congruence|]. simpl.
    rewrite IH. destruct (a ++ s) eqn:E.
    + apply app_eq_nil in E as [-> ->]. reflexivity.
    + destruct (unquote s); reflexivity.
Qed.

(** split a text at its first quote or backslash *)
Lemma split_plain s : exists a b, s = a ++ b /\ Forall plain_q a /\
   (b = [] \/ (exists b', b = ch_quote :: b') \/ (exists b', b = ch_bslash :: b')).
Proof.
  induction s as [|c s (a & b & -> & Ha & Hb)].
  - exists [], []. auto.
  - destruct (ascii_dec c ch_quote) as [->|H1]; [exists [], (ch_quote :: a ++ b); simpl; eauto 6|].
    destruct (ascii_dec c ch_bslash) as [->|H2]; [exists [], (ch_bslash :: a ++ b); simpl; eauto 6|].
    exists (c :: a), b. repeat split; auto. constructor; auto. split; auto.
Qed.

Lemma concat_snoc (q : list bytes) p : concat (q ++ [p]) = concat q ++ p.
Proof. rewrite concat_app. simpl. now rewrite app_nil_r. Qed.

Lemma lexQuote_loop_spec : forall n fuel pre acc s st w its qp,
  length s <= n -> fuel > length s ->
  let l := mkLexer (pre ++ acc ++ s) (length pre) st w its in
  match unquote s with
  | Some (v, r) =>
      lexQuote_loop fuel qp (length pre + length acc) l =
      Ok (Some FLineRunning,
          mkLexer (pre ++ acc ++ s) (length (pre ++ acc ++ s) - length r)
             (length (pre ++ acc ++ s) - length r) w
             (its ++ [mkItem itemValue (concat qp ++ acc ++ v) st]))
  | None => exists l',
      lexQuote_loop fuel qp (length pre + length acc) l = Ok (None, l') /\
      l_items l' = its ++ [mkItem itemError msg_unterm st]
  end.
Proof.
  induction n as [|n IH]; intros fuel pre acc s st w its qp Hn Hf l.
  - destruct s; simpl in Hn; [|lia]. destruct fuel; [lia|]. subst l. cbn [unquote lexQuote_loop l_input].
    rewrite app_nil_r, app_length. rewrite Nat.leb_refl. eexists; split; reflexivity.
  - destruct fuel as [|fuel]; [lia|].
    destruct (split_plain s) as (a & b & -> & Ha & Hb).
    rewrite unquote_plain by auto.
    assert (Hmem : forall c, In c a -> mem_byte c [ch_bslash; ch_quote] = false)
      by (intros c Hc; apply plain_q_mem; revert c Hc; apply Forall_forall; auto).
    cbn [lexQuote_loop]. unfold l. cbn [l_input l_pos].
    destruct (Nat.leb_spec (length (pre ++ acc ++ a ++ b)) (length pre + length acc)) as [Hle|Hlt].
    + rewrite !app_length in Hle. assert (a = [] /\ b = []) as [-> ->].
      { split; apply length_zero_iff_nil; lia. }
      eexists; split; reflexivity.
    + assert (Hs : slice_from (pre ++ acc ++ a ++ b) (length pre + length acc) = Ok (a ++ b))
        by (rewrite app_assoc, <- app_length; apply slice_from_mid).
      rewrite Hs. cbn [obind]. rewrite index_any_skip by auto.
      destruct Hb as [->|[[b' ->]|[b' ->]]].
      * eexists; split; reflexivity.
      * simpl index_any. cbn [option_map].
        assert (Hnth : nth_error (pre ++ acc ++ a ++ ch_quote :: b') (length pre + length acc + (length a + 0)) = Some ch_quote).
        { replace (pre ++ acc ++ a ++ ch_quote :: b') with (pre ++ (acc ++ a) ++ ch_quote :: b') by now rewrite <- !app_assoc.
          replace (length pre + length acc + (length a + 0)) with (length pre + length (acc ++ a)) by (rewrite !app_length; lia).
          apply nth_error_mid'. }
        rewrite Hnth. cbn [of_option obind]. rewrite Ascii.eqb_refl.
        assert (Hsl : slice (pre ++ acc ++ a ++ ch_quote :: b') (length pre) (length pre + length acc + (length a + 0)) = Ok (acc ++ a)).
        { replace (pre ++ acc ++ a ++ ch_quote :: b') with (pre ++ (acc ++ a) ++ ch_quote :: b') by now rewrite <- !app_assoc.
          replace (length pre + length acc + (length a + 0)) with (length pre + length (acc ++ a)) by (rewrite !app_length; lia).
          apply slice_mid. }
        rewrite Hsl. cbn [obind]. simpl unquote. cbn [option_map fst snd].
        unfold emitString, swallow, send, set_pos. cbn [l_input l_pos l_start l_width l_items].
        rewrite concat_snoc, app_nil_r.
        replace (length (pre ++ acc ++ a ++ ch_quote :: b') - length b') with (length pre + length acc + (length a + 0) + 1)
          by (rewrite !app_length; simpl; lia).
        reflexivity.
      * simpl index_any. cbn [option_map].
        assert (Hnth : nth_error (pre ++ acc ++ a ++ ch_bslash :: b') (length pre + length acc + (length a + 0)) = Some ch_bslash).
        { replace (pre ++ acc ++ a ++ ch_bslash :: b') with (pre ++ (acc ++ a) ++ ch_bslash :: b') by now rewrite <- !app_assoc.
          replace (length pre + length acc + (length a + 0)) with (length pre + length (acc ++ a)) by (rewrite !app_length; lia).
          apply nth_error_mid'. }
        rewrite Hnth. cbn [of_option obind].
        change (Ascii.eqb ch_bslash ch_quote) with false. cbv iota.
        assert (Hs2 : slice_from (pre ++ acc ++ a ++ ch_bslash :: b') (length pre + length acc + (length a + 0)) = Ok (ch_bslash :: b')).
        { replace (pre ++ acc ++ a ++ ch_bslash :: b') with ((pre ++ acc ++ a) ++ ch_bslash :: b') by now rewrite <- !app_assoc.
          replace (length pre + length acc + (length a + 0)) with (length (pre ++ acc ++ a)) by (rewrite !app_length; lia).
          apply slice_from_mid. }
        rewrite Hs2. cbn [obind].
        destruct b' as [|d b'].
        { (* trailing backslash *)
          simpl has_prefix. cbn [orb negb].
          specialize (IH fuel pre (acc ++ a ++ [ch_bslash]) [] st w its qp).
          simpl unquote in IH. simpl unquote. cbn [option_map].
          replace (pre ++ (acc ++ a ++ [ch_bslash]) ++ []) with (pre ++ acc ++ a ++ [ch_bslash]) in IH
            by (rewrite app_nil_r; reflexivity).
          replace (length pre + length (acc ++ a ++ [ch_bslash])) with (length pre + length acc + (length a + 0) + 1) in IH
            by (rewrite !app_length; simpl; lia).
          apply IH; simpl; try lia. rewrite !app_length in Hf; simpl in Hf; lia. }
        simpl has_prefix. rewrite !andb_true_r.
        destruct (Ascii.eqb d ch_quote || Ascii.eqb d ch_bslash) eqn:Ed; cbn [negb].
        -- (* a real escape *)
          assert (Eu : unquote (ch_bslash :: d :: b') = option_map (fun p => (d :: fst p, snd p)) (unquote b')).
          { cbn [unquote]. change (Ascii.eqb ch_bslash ch_quote) with false. cbv iota.
            rewrite Ed. reflexivity. }
          rewrite Eu. clear Eu.
          assert (Hsl : slice (pre ++ acc ++ a ++ ch_bslash :: d :: b') (length pre) (length pre + length acc + (length a + 0)) = Ok (acc ++ a)).
          { replace (pre ++ acc ++ a ++ ch_bslash :: d :: b') with (pre ++ (acc ++ a) ++ ch_bslash :: d :: b') by now rewrite <- !app_assoc.
            replace (length pre + length acc + (length a + 0)) with (length pre + length (acc ++ a)) by (rewrite !app_length; lia).
            apply slice_mid. }
          rewrite Hsl. cbn [obind].
          assert (Hsl2 : slice (pre ++ acc ++ a ++ ch_bslash :: d :: b') (length pre + length acc + (length a + 0) + 1)
              (length pre + length acc + (length a + 0) + 2) = Ok [d]).
          { replace (pre ++ acc ++ a ++ ch_bslash :: d :: b') with ((pre ++ acc ++ a ++ [ch_bslash]) ++ [d] ++ b') by (rewrite <- !app_assoc; reflexivity).
            replace (length pre + length acc + (length a + 0) + 1) with (length (pre ++ acc ++ a ++ [ch_bslash])) by (rewrite !app_length; simpl; lia).
            replace (length pre + length acc + (length a + 0) + 2) with (length (pre ++ acc ++ a ++ [ch_bslash]) + length [d]) by (rewrite !app_length; simpl; lia).
            apply slice_mid. }
          rewrite Hsl2. cbn [obind].
          unfold set_pos. cbn [l_input l_pos l_start l_width l_items].
          specialize (IH fuel (pre ++ acc ++ a ++ [ch_bslash; d]) [] b' st w its (qp ++ [acc ++ a; [d]])).
          cbn [app] in IH.
          replace ((pre ++ acc ++ a ++ [ch_bslash; d]) ++ b') with (pre ++ acc ++ a ++ ch_bslash :: d :: b') in IH
            by (rewrite <- !app_assoc; reflexivity).
          simpl length in IH at 2. rewrite Nat.add_0_r in IH.
          replace (length (pre ++ acc ++ a ++ [ch_bslash; d])) with (length pre + length acc + (length a + 0) + 2) in IH
            by (rewrite !app_length; simpl; lia).
          rewrite !app_length in Hn, Hf; simpl in Hn, Hf.
          specialize (IH ltac:(lia) ltac:(lia)). cbv zeta in IH.
          destruct (unquote b') as [[v r]|]; cbn [option_map fst snd].
          ++ rewrite IH. rewrite concat_app. simpl concat. rewrite <- !app_assoc.
             simpl. reflexivity.
          ++ exact IH.
        -- (* a lone backslash *)
          assert (Eu : unquote (ch_bslash :: d :: b') = option_map (fun p => (ch_bslash :: fst p, snd p)) (unquote (d :: b'))).
          { transitivity (if Ascii.eqb ch_bslash ch_bslash && (Ascii.eqb d ch_quote || Ascii.eqb d ch_bslash)
              then option_map (fun p => (d :: fst p, snd p)) (unquote b')
              else option_map (fun p => (ch_bslash :: fst p, snd p)) (unquote (d :: b'))); [reflexivity|].
            rewrite Ed. reflexivity. }
          rewrite Eu. clear Eu.
          specialize (IH fuel pre (acc ++ a ++ [ch_bslash]) (d :: b') st w its qp).
          replace (pre ++ (acc ++ a ++ [ch_bslash]) ++ d :: b') with (pre ++ acc ++ a ++ ch_bslash :: d :: b') in IH
            by (rewrite <- !app_assoc; reflexivity).
          replace (length pre + length (acc ++ a ++ [ch_bslash])) with (length pre + length acc + (length a + 0) + 1) in IH
            by (rewrite !app_length; simpl; lia).
          rewrite !app_length in Hn, Hf; simpl in Hn, Hf.
          specialize (IH ltac:(simpl; lia) ltac:(simpl; lia)). cbv zeta in IH.
          destruct (unquote (d :: b')) as [[v r]|]; cbn [option_map fst snd].
          ++ rewrite IH. rewrite <- !app_assoc. reflexivity.
          ++ exact IH.
Qed.

Lemma lexQuote_spec pre s w its :
  match unquote s with
  | Some (v, r) =>
     exists q, s = q ++ r /\
      lexQuote (lxat pre (ch_quote :: s) w its) =
      Ok (Some FLineRunning, lxat (pre ++ ch_quote :: q) r 1 (its ++ [mkItem itemValue v (length pre)]))
  | None => exists l',
      lexQuote (lxat pre (ch_quote :: s) w its) = Ok (None, l') /\
      l_items l' = its ++ [mkItem itemError msg_unterm (length pre)]
  end.
Proof.
  unfold lexQuote. rewrite next_cons. cbn [l_input l_pos].
  pose proof (lexQuote_loop_spec (length s) (S (length (pre ++ ch_quote :: s))) (pre ++ [ch_quote]) [] s
    (length pre) 1 its [] (le_n _)) as H.
  cbn [app] in H. rewrite <- !app_assoc in H. cbn [app] in H.
  replace (length (pre ++ [ch_quote]) + length []) with (length pre + 1) in H by (rewrite app_length; simpl; lia).
  replace (length (pre ++ [ch_quote])) with (length pre + 1) in H by (rewrite app_length; simpl; lia).
  specialize (H ltac:(rewrite app_length; simpl; lia)). cbv zeta in H.
  destruct (unquote s) as [[v r]|] eqn:E; [|exact H].
  apply unquote_length in E as (q & -> & _). exists q. split; auto.
  rewrite H. unfold lxat. rewrite <- app_assoc. simpl.
  replace (length (pre ++ ch_quote :: q ++ r) - length r) with (length (pre ++ ch_quote :: q)); auto.
  rewrite !app_length; simpl; rewrite app_length; lia.
Qed.

(** ** specials *)
Lemma lexSpecial_char pre c s w its t :
  specials (Some c) = t -> 
  (c <> ","%char \/ bad_after_comma s = false) ->
  lexSpecial (lxat pre (c :: s) w its) =
  Ok (Some (if Ascii.eqb c ch_nl then FLineStart else FLineRunning),
      lxat (pre ++ [c]) s (match s with [] => 0 | _ => 1 end) (its ++ [mkItem t [c] (length pre)])).
Proof.
  intros Ht Hc. unfold lexSpecial. rewrite next_cons. unfold emit. cbn [l_input l_pos l_start].
  change (c :: s) with ([c] ++ s). change (length pre + 1) with (length pre + length [c]).
  rewrite slice_mid. cbn [obind]. rewrite Ht.
  unfold swallow, send. cbn [l_input l_pos l_start l_width l_items].
  rewrite <- (lxat_shift pre [c] s 1). rewrite peek_lxat.
  destruct (Ascii.eqb_spec c ch_nl); auto.
  destruct (Ascii.eqb_spec c ","); auto.
  destruct Hc as [Hc|Hc]; [congruence|].
  destruct s as [|d s]; [discriminate|].
  unfold bad_after_comma, mem_byte in Hc. simpl in Hc.
  apply orb_false_iff in Hc as [H1 Hc]. apply orb_false_iff in Hc as [H2 Hc].
  rewrite orb_false_r in Hc. simpl. rewrite H1, H2, Hc. reflexivity.
Qed.

Lemma lexSpecial_comma_bad pre s w its :
  bad_after_comma s = true ->
  exists l', lexSpecial (lxat pre (","%char :: s) w its) = Ok (None, l') /\
   l_items l' = its ++ [mkItem itemComma [","%char] (length pre); mkItem itemError msg_comma (length pre + 1)].
Proof.
  intros Hb. unfold lexSpecial. rewrite next_cons. unfold emit. cbn [l_input l_pos l_start].
  change (","%char :: s) with ([","%char] ++ s). change (length pre + 1) with (length pre + length [","%char]).
  rewrite slice_mid. cbn [obind].
  unfold swallow, send. cbn [l_input l_pos l_start l_width l_items].
  rewrite <- (lxat_shift pre [","%char] s 1). rewrite peek_lxat.
  change (Ascii.eqb "," ch_nl) with false. change (Ascii.eqb "," ",") with true. cbv iota.
  assert (E : (is_blank match s with [] => None | c :: _ => Some c end
    || match match s with [] => None | c :: _ => Some c end with
       | Some c' => (c' =? ch_nl)%char | None => true end) = true).
  { destruct s as [|c s]; auto. unfold bad_after_comma, mem_byte in Hb. simpl in Hb. simpl.
    rewrite orb_false_r in Hb. rewrite <- orb_assoc. exact Hb. }
  rewrite E. eexists. split; [reflexivity|].
  simpl. rewrite <- app_assoc. simpl. rewrite app_length. reflexivity.
Qed.

Lemma lexSpecial_eof pre w its :
  exists l', lexSpecial (lxat pre [] w its) = Ok (None, l') /\
   l_items l' = its ++ [mkItem itemEOF [] (length pre)].
Proof.
  unfold lexSpecial. rewrite next_nil. unfold emit, lxat. cbn [l_input l_pos l_start].
  pose proof (slice_mid pre [] []) as H. simpl in H. rewrite Nat.add_0_r in H. rewrite H.
  cbn [obind]. destruct (peek _) as [n l3] eqn:E.
  unfold peek, next, swallow, send in E. cbn [l_input l_pos l_start l_items l_width] in E.
  rewrite nth_error_end in E. simpl in E. injection E as <- <-. eauto.
Qed.

Lemma run_step n f l st' l' : lexstep f l = Ok (st', l') -> run (S n) (Some f) l = run n st' l'.
Proof. intros H. simpl. rewrite H. reflexivity. Qed.

Lemma run_none n l : run n None l = Ok l.
Proof. destruct n; reflexivity. Qed.

(** dispatch at a non-blank character *)
Lemma line_stop m pre s w its :
  not_blank_start s = true ->
  lexstep (fn_of m) (lxat pre s w its) =
  let l := lxat pre s (match s with [] => 0 | _ => 1 end) its in
  match m with
  | SOL => 
     match s with
     | [] => Ok (Some FSpecial, l)
     | c :: s' =>
      if negb (Ascii.eqb c ch_nl) && negb (ieqb (specials (Some c)) itemError)
      then Ok (Some FSpecial, l)
      else if Ascii.eqb c ch_quote then Ok (Some FQuote, l)
      else if Ascii.eqb c "#" then Ok (Some FComment, snd (next l))
      else if Ascii.eqb c ch_bslash then
        if has_prefix s [ch_bslash; ch_nl]
        then Ok (Some FLineStart, swallow (set_pos (length pre + 2) l))
        else Ok (Some FWord, l)
      else if Ascii.eqb c ch_nl then Ok (Some FLineStart, swallow (snd (next l)))
      else Ok (Some FWord, l)
     end
  | INL =>
     if has_prefix s [ch_bslash; ch_nl] then Ok (Some FLineRunning, swallow (set_pos (length pre + 2) l))
     else match s with
          | [] => Ok (Some FSpecial, l)
          | c :: _ => if negb (ieqb (specials (Some c)) itemError) then Ok (Some FSpecial, l)
                      else if Ascii.eqb c ch_quote then Ok (Some FQuote, l) else Ok (Some FWord, l)
          end
  end.
Proof.
  intros H. destruct m; cbn [fn_of lexstep]; unfold lexLineStart, lexLineRunning;
    rewrite skipWS_stop by auto; cbn [obind]; rewrite peek_lxat.
  - destruct s as [|c s]; auto. cbv zeta. cbn [l_input l_pos lxat].
    rewrite slice_from_mid. cbn [obind]. unfold lxat. reflexivity.
  - destruct s as [|c s]; auto. cbv zeta. cbn [l_input l_pos lxat].
    rewrite slice_from_mid. cbn [obind].
    destruct (Ascii.eqb c ch_bslash) eqn:Ec; cbn [obind].
    + destruct (has_prefix (c :: s) [ch_bslash; ch_nl]); reflexivity.
    + assert (E : has_prefix (c :: s) [ch_bslash; ch_nl] = false) by (simpl; now rewrite Ec).
      rewrite E. reflexivity.
Qed.

Theorem Lexes_run m p s ts :
  Lexes m p s ts ->
  forall pre w its fuel, p = length pre -> 2 * length s + 2 <= fuel ->
  exists l, run fuel (Some (fn_of m)) (lxat pre s w its) = Ok l /\ l_items l = its ++ ts.
Proof.
  induction 1 as [m p|m p c s ts Hc HL IH|m p s ts HL IH|p s ts HL IH|p com s ts Hcom Hend HL IH
    |p s ts HL IH|m p c t s ts Ht HL IH|m p s ts Hb HL IH|m p s Hb|m p s v r ts Hq HL IH|m p s Hq
    |m p w0 t s ts Hw Hs Hst Ht HL IH|m p w0 s Hw Hs Hst Ht];
    intros pre w its fuel Hp Hf; subst p;
    (destruct fuel as [|[|fuel]]; [lia|lia|]).
  - (* eof *)
    assert (E : lexstep (fn_of m) (lxat pre [] w its) = Ok (Some FSpecial, lxat pre [] 0 its)).
    { rewrite line_stop by auto. destruct m; reflexivity. }
    rewrite (run_step _ _ _ _ _ E).
    destruct (lexSpecial_eof pre 0 its) as (l' & E2 & Hi).
    rewrite (run_step _ FSpecial _ _ _ E2). rewrite run_none. eauto.
  - (* blank *)
    destruct (IH (pre ++ [c]) 1 its (S (S fuel))) as (l & E & Hi); [rewrite app_length; simpl; lia|simpl in Hf; lia|].
    exists l. split; auto. cbn [run]. rewrite lexline_skip by auto. exact E.
  - (* continuation *)
    assert (E : lexstep (fn_of m) (lxat pre (ch_bslash :: ch_nl :: s) w its) =
        Ok (Some (fn_of m), lxat (pre ++ [ch_bslash; ch_nl]) s 1 its)).
    { rewrite line_stop by auto. rewrite lxat_shift. destruct m; reflexivity. }
    rewrite (run_step _ _ _ _ _ E). apply IH; [rewrite app_length; simpl; lia|simpl in Hf; lia].
  - (* blank line *)
    assert (E : lexstep (fn_of SOL) (lxat pre (ch_nl :: s) w its) =
        Ok (Some (fn_of SOL), lxat (pre ++ [ch_nl]) s 1 its)).
    { rewrite line_stop by auto. rewrite lxat_shift. cbv zeta. rewrite next_cons. reflexivity. }
    rewrite (run_step _ _ _ _ _ E). apply (IH (pre ++ [ch_nl]) 1 its); [rewrite app_length; simpl; lia|simpl in Hf; lia].
  - (* comment *)
    assert (E : lexstep (fn_of SOL) (lxat pre ("#"%char :: com ++ s) w its) =
        Ok (Some FComment, mkLexer (pre ++ "#"%char :: com ++ s) (length pre + 1) (length pre) 1 its)).
    { rewrite line_stop by auto. cbv zeta. rewrite next_cons. reflexivity. }
    rewrite (run_step _ _ _ _ _ E).
    assert (E2 : lexstep FComment (mkLexer (pre ++ "#"%char :: com ++ s) (length pre + 1) (length pre) 1 its) =
        Ok (Some (fn_of SOL), lxat (pre ++ "#"%char :: com) s 1 its)).
    { cbn [lexstep]. unfold lexComment. cbn [l_input l_pos].
      replace (pre ++ "#"%char :: com ++ s) with ((pre ++ ["#"%char]) ++ com ++ s) by (rewrite <- app_assoc; reflexivity).
      replace (length pre + 1) with (length (pre ++ ["#"%char])) by (rewrite app_length; simpl; lia).
      rewrite slice_from_mid. cbn [obind].
      assert (Ei : (match index_byte (com ++ s) ch_nl with Some i => i 
         | None => length ((pre ++ ["#"%char]) ++ com ++ s) - length (pre ++ ["#"%char]) end) = length com).
      { destruct s as [|c s]; simpl in Hend.
        - rewrite app_nil_r. apply index_byte_None in Hcom. rewrite Hcom. rewrite !app_length. lia.
        - subst c. rewrite index_byte_app by auto. reflexivity. }
      rewrite Ei. unfold set_pos, swallow, lxat. cbn [l_input l_pos l_start l_width l_items].
      rewrite <- !app_assoc. cbn [app].
      replace (length (pre ++ ["#"%char]) + length com) with (length (pre ++ "#"%char :: com)); auto.
      rewrite !app_length; simpl; lia. }
    rewrite (run_step _ _ _ _ _ E2). apply (IH (pre ++ "#"%char :: com) 1 its).
    + rewrite app_length; simpl; lia.
    + simpl in Hf. rewrite app_length in Hf. lia.
  - (* eol *)
    assert (E : lexstep (fn_of INL) (lxat pre (ch_nl :: s) w its) =
        Ok (Some FSpecial, lxat pre (ch_nl :: s) 1 its)).
    { rewrite line_stop by auto. reflexivity. }
    rewrite (run_step _ _ _ _ _ E).
    pose proof (lexSpecial_char pre ch_nl s 1 its itemEOL eq_refl) as E2.
    rewrite (run_step _ FSpecial _ _ _ (E2 ltac:(left; discriminate))).
    destruct (IH (pre ++ [ch_nl]) (match s with [] => 0 | _ => 1 end)
       (its ++ [mkItem itemEOL [ch_nl] (length pre)]) fuel) as (l & El & Hi);
      [rewrite app_length; simpl; lia|simpl in Hf; lia|].
    exists l. split; [exact El|]. rewrite Hi, <- app_assoc. reflexivity.
  - (* punctuation *)
    assert (Hcs : c = "("%char \/ c = ")"%char \/ c = ";"%char).
    { unfold punct_type in Ht. destruct (Ascii.eqb_spec c "("); [auto|].
      destruct (Ascii.eqb_spec c ")"); [auto|]. destruct (Ascii.eqb_spec c ";"); [auto|discriminate]. }
    assert (Hsp : specials (Some c) = t).
    { destruct Hcs as [->|[->| ->]]; simpl in Ht; injection Ht as <-; reflexivity. }
    assert (E : lexstep (fn_of m) (lxat pre (c :: s) w its) = Ok (Some FSpecial, lxat pre (c :: s) 1 its)).
    { rewrite line_stop; destruct Hcs as [->|[->| ->]]; try reflexivity; destruct m; reflexivity. }
    rewrite (run_step _ _ _ _ _ E).
    assert (Hnc : c <> ","%char) by (destruct Hcs as [->|[->| ->]]; discriminate).
    pose proof (lexSpecial_char pre c s 1 its t Hsp (or_introl Hnc)) as E2.
    rewrite (run_step _ FSpecial _ _ _ E2).
    replace (Ascii.eqb c ch_nl) with false by (destruct Hcs as [->|[->| ->]]; reflexivity).
    destruct (IH (pre ++ [c]) (match s with [] => 0 | _ => 1 end)
       (its ++ [mkItem t [c] (length pre)]) fuel) as (l & El & Hi);
      [rewrite app_length; simpl; lia|simpl in Hf; lia|].
    exists l. split; [exact El|]. rewrite Hi, <- app_assoc. reflexivity.
  - (* comma *)
    assert (E : lexstep (fn_of m) (lxat pre (","%char :: s) w its) = Ok (Some FSpecial, lxat pre (","%char :: s) 1 its)).
    { rewrite line_stop by auto. destruct m; reflexivity. }
    rewrite (run_step _ _ _ _ _ E).
    pose proof (lexSpecial_char pre ","%char s 1 its itemComma eq_refl (or_intror Hb)) as E2.
    rewrite (run_step _ FSpecial _ _ _ E2).
    destruct (IH (pre ++ [","%char]) (match s with [] => 0 | _ => 1 end)
       (its ++ [mkItem itemComma [","%char] (length pre)]) fuel) as (l & El & Hi);
      [rewrite app_length; simpl; lia|simpl in Hf; lia|].
    exists l. split; [exact El|]. rewrite Hi, <- app_assoc. reflexivity.
  - (* bad comma *)
    assert (E : lexstep (fn_of m) (lxat pre (","%char :: s) w its) = Ok (Some FSpecial, lxat pre (","%char :: s) 1 its)).
    { rewrite line_stop by auto. destruct m; reflexivity. }
    rewrite (run_step _ _ _ _ _ E).
    destruct (lexSpecial_comma_bad pre s 1 its Hb) as (l' & E2 & Hi).
    rewrite (run_step _ FSpecial _ _ _ E2). rewrite run_none. eauto.
  - (* quote *)
    assert (E : lexstep (fn_of m) (lxat pre (ch_quote :: s) w its) = Ok (Some FQuote, lxat pre (ch_quote :: s) 1 its)).
    { rewrite line_stop by auto. destruct m; reflexivity. }
    rewrite (run_step _ _ _ _ _ E).
    pose proof (lexQuote_spec pre s 1 its) as E2. rewrite Hq in E2. destruct E2 as (q & -> & E2).
    rewrite (run_step _ FQuote _ _ _ E2).
    destruct (IH (pre ++ ch_quote :: q) 1
       (its ++ [mkItem itemValue v (length pre)]) fuel) as (l & El & Hi).
    { rewrite !app_length; simpl; lia. }
    { simpl in Hf. rewrite app_length in Hf. lia. }
    exists l. split; [exact El|]. rewrite Hi, <- app_assoc. reflexivity.
  - (* bad quote *)
    assert (E : lexstep (fn_of m) (lxat pre (ch_quote :: s) w its) = Ok (Some FQuote, lxat pre (ch_quote :: s) 1 its)).
    { rewrite line_stop by auto. destruct m; reflexivity. }
    rewrite (run_step _ _ _ _ _ E).
    pose proof (lexQuote_spec pre s 1 its) as E2. rewrite Hq in E2. destruct E2 as (l' & E2 & Hi).
    rewrite (run_step _ FQuote _ _ _ E2). rewrite run_none. eauto.
  - (* word *)
    assert (Hne : w0 <> []) by (destruct w0; [destruct Hst|discriminate]).
    assert (E : lexstep (fn_of m) (lxat pre (w0 ++ s) w its) = Ok (Some FWord, lxat pre (w0 ++ s) 1 its)).
    { destruct w0 as [|c w0]; [congruence|]. cbn [app]. destruct Hst as (Hq & Hh & Hcont).
      pose proof Hw as Hw'.
      cbn [forallb] in Hw. apply andb_true_iff in Hw as [Hc Hw]. apply negb_true_iff in Hc.
      rewrite line_stop.
      2:{ simpl. rewrite ends_word_layout; auto. }
      cbv zeta. rewrite (specials_word c Hc). rewrite andb_false_r.
      destruct (Ascii.eqb_spec c ch_quote); [congruence|].
      assert (Hnl : Ascii.eqb c ch_nl = false).
      { apply Ascii.eqb_neq. intros ->. discriminate. }
      assert (Hpfx : has_prefix (c :: w0 ++ s) [ch_bslash; ch_nl] = false).
      { simpl. destruct (Ascii.eqb_spec c ch_bslash); auto. simpl. subst c.
        destruct w0 as [|d w0]; simpl.
        - destruct s as [|d s]; auto. destruct (Ascii.eqb_spec d ch_nl); auto. subst d.
          exfalso. apply Hcont. split; eauto.
        - simpl in Hw'. apply andb_true_iff in Hw' as [Hd _]. apply negb_true_iff in Hd.
          destruct (Ascii.eqb_spec d ch_nl); auto. subst d. discriminate. }
      destruct m.
      - destruct (Ascii.eqb_spec c "#"); [exfalso; apply Hh; auto|].
        rewrite Hpfx, Hnl. destruct (Ascii.eqb c ch_bslash); reflexivity.
      - rewrite Hpfx. reflexivity. }
    rewrite (run_step _ _ _ _ _ E).
    pose proof (lexWord_word pre w0 t s 1 its Hw Hs Hne Ht) as E2.
    rewrite (run_step _ FWord _ _ _ E2).
    destruct (IH (pre ++ w0) 1 (its ++ [mkItem t w0 (length pre)]) fuel) as (l & El & Hi).
    { rewrite app_length; simpl; lia. }
    { rewrite app_length in Hf. destruct w0; [congruence|]. simpl in Hf. lia. }
    exists l. split; [exact El|]. rewrite Hi, <- app_assoc. reflexivity.
  - (* bad word *)
    assert (w0 = B "file:") as ->.
    { unfold word_type in Ht. destruct (mget keywords w0); [discriminate|].
      destruct (_ || _); [discriminate|]. destruct (has_prefix _ _); [|discriminate].
      destruct (beqb_spec w0 (B "file:")); [auto|discriminate]. }
    assert (E : lexstep (fn_of m) (lxat pre (B "file:" ++ s) w its) = Ok (Some FWord, lxat pre (B "file:" ++ s) 1 its)).
    { rewrite line_stop by reflexivity. destruct m; reflexivity. }
    rewrite (run_step _ _ _ _ _ E).
    destruct (lexWord_bad pre (B "file:") s 1 its Hw Hs Ht) as (l' & E2 & Hi).
    rewrite (run_step _ FWord _ _ _ E2). rewrite run_none. eauto.
Qed.

(** ** every text divides into tokens *)
Lemma word_split s : exists w r, s = w ++ r /\
  forallb (fun c => negb (ends_word c)) w = true /\ at_word_end r.
Proof.
  induction s as [|c s (w & r & -> & Hw & Hr)].
  - exists [], []. simpl. auto.
  - destruct (ends_word c) eqn:E.
    + exists [], (c :: w ++ r). simpl. auto.
    + exists (c :: w), r. simpl. rewrite E. auto.
Qed.

Lemma line_split s : exists com r, s = com ++ r /\ ~ In ch_nl com /\ at_line_end r.
Proof.
  induction s as [|c s (w & r & -> & Hw & Hr)].
  - exists [], []. simpl. auto.
  - destruct (ascii_dec c ch_nl) as [->|E].
    + exists [], (ch_nl :: w ++ r). simpl. auto.
    + exists (c :: w), r. simpl. repeat split; auto. intros [H|H]; auto.
Qed.

Lemma Lexes_total m p s : exists ts, Lexes m p s ts.
Proof.
  revert m p. remember (length s) as n eqn:En. assert (Hn : length s <= n) by lia. clear En.
  revert s Hn. induction n as [|n IH]; intros s Hn m p.
  - destruct s; simpl in Hn; [|lia]. eexists; apply Lx_eof.
  - destruct s as [|c s]; [eexists; apply Lx_eof|]. simpl in Hn.
    destruct (is_layout c) eqn:Hl.
    { destruct (IH s ltac:(lia) m (p + 1)) as [ts H]. eexists; apply Lx_blank; eauto. }
    destruct (ends_word c) eqn:Ew.
    + (* a special *)
      destruct (punct_type c) as [t|] eqn:Ep.
      { destruct (IH s ltac:(lia) INL (p + 1)) as [ts H]. eexists; eapply Lx_punct; eauto. }
      assert (Hc : c = ","%char \/ c = ch_nl).
      { unfold ends_word, mem_byte in Ew. unfold punct_type in Ep. unfold is_layout, mem_byte in Hl. simpl in *.
        destruct (Ascii.eqb_spec c ","); [auto|].
        destruct (Ascii.eqb_spec c "("); [discriminate|].
        destruct (Ascii.eqb_spec c ")"); [discriminate|].
        destruct (Ascii.eqb_spec c ";"); [discriminate|].
        destruct (Ascii.eqb_spec c ch_nl); [auto|]. simpl in Ew. congruence. }
      destruct Hc as [->| ->].
      * destruct (bad_after_comma s) eqn:Eb.
        -- eexists; apply Lx_comma_bad; auto.
        -- destruct (IH s ltac:(lia) INL (p + 1)) as [ts H]. eexists; apply Lx_comma; eauto.
      * destruct (IH s ltac:(lia) SOL (p + 1)) as [ts H].
        destruct m; eexists; [apply Lx_blankline | apply Lx_eol]; eauto.
    + destruct (ascii_dec c ch_quote) as [->|Hq].
      { destruct (unquote s) as [[v r]|] eqn:Eq.
        - destruct (unquote_length _ _ _ Eq) as (q & -> & _). rewrite app_length in Hn.
          destruct (IH r ltac:(lia) INL (p + 1 + (length (q ++ r) - length r))) as [ts H].
          eexists; eapply Lx_quote; eauto.
        - eexists; apply Lx_quote_bad; auto. }
      assert (Hcase : (m = SOL /\ c = "#"%char) \/ ~ (m = SOL /\ c = "#"%char)).
      { destruct m; [|right; intros [? ?]; discriminate].
        destruct (ascii_dec c "#"); [left|right]; tauto. }
      destruct Hcase as [[-> ->]|Hh].
      { destruct (line_split s) as (com & r & -> & Hcom & Hr). rewrite app_length in Hn.
        destruct (IH r ltac:(lia) SOL (p + 1 + length com)) as [ts H].
        eexists; apply Lx_comment; eauto. }
      destruct (word_split s) as (w & r & -> & Hw & Hr).
      assert (Hcase : (c = ch_bslash /\ w = [] /\ exists r', r = ch_nl :: r') \/
              ~ (c :: w = [ch_bslash] /\ exists r', r = ch_nl :: r')).
      { destruct (ascii_dec c ch_bslash) as [->|]; [|right; intros [? _]; congruence].
        destruct w; [|right; intros [? _]; congruence].
        destruct r as [|d r]; [right; intros [_ [? ?]]; congruence|].
        destruct (ascii_dec d ch_nl) as [->|]; [left; eauto|].
        right; intros [_ [? ?]]; congruence. }
      destruct Hcase as [(-> & -> & r' & ->)|Hc].
      { simpl in *. destruct (IH r' ltac:(lia) m (p + 2)) as [ts H]. eexists; apply Lx_cont; eauto. }
      rewrite app_comm_cons.
      assert (Hw' : forallb (fun c => negb (ends_word c)) (c :: w) = true) by (simpl; rewrite Ew; auto).
      assert (Hst : word_start_ok m (c :: w) r).
      { repeat split; auto; intros -> ->; auto. }
      destruct (word_type (c :: w)) as [t|] eqn:Et.
      * rewrite app_length in Hn.
        destruct (IH r ltac:(lia) INL (p + length (c :: w))) as [ts H].
        eexists; eapply Lx_word; eauto.
      * eexists; eapply Lx_word_bad; eauto.
Qed.

(** ** summary *)
Theorem lex_Lexes input : exists ts, lex input = Ok ts /\ Lexes SOL 0 input ts.
Proof.
  destruct (Lexes_total SOL 0 input) as [ts H]. exists ts. split; auto.
  unfold lex. destruct (Lexes_run _ _ _ _ H [] 0 [] (lex_fuel input)) as (l & E & Hi); auto.
  - unfold lex_fuel. lia.
  - change (lex_init input) with (lxat [] input 0 []). simpl fn_of in E. rewrite E. simpl.
    now rewrite Hi.
Qed.

Theorem Lexes_lex input ts : Lexes SOL 0 input ts -> lex input = Ok ts.
Proof.
  intros H. unfold lex. destruct (Lexes_run _ _ _ _ H [] 0 [] (lex_fuel input)) as (l & E & Hi); auto.
  - unfold lex_fuel. lia.
  - change (lex_init input) with (lxat [] input 0 []). simpl fn_of in E. rewrite E. simpl.
    now rewrite Hi.
Qed.

Theorem Lexes_det m p s ts1 ts2 : Lexes m p s ts1 -> Lexes m p s ts2 -> ts1 = ts2.
Proof.
  intros H1 H2.
  destruct (Lexes_run _ _ _ _ H1 (repeat ch_nl p) 0 [] (2 * length s + 2)) as (l1 & E1 & I1); auto.
  { now rewrite repeat_length. }
  destruct (Lexes_run _ _ _ _ H2 (repeat ch_nl p) 0 [] (2 * length s + 2)) as (l2 & E2 & I2); auto.
  { now rewrite repeat_length. }
  simpl in *. congruence.
Qed.

(** The token list of a text, as the parser sees it. *)
Definition tokens (input : bytes) : list item :=
  match lex input with Ok ts => ts | _ => [] end.

Lemma tokens_ok input : lex input = Ok (tokens input).
Proof. unfold tokens. destruct (lex_Lexes input) as (ts & E & _). now rewrite E. Qed.

Lemma tokens_Lexes input : Lexes SOL 0 input (tokens input).
Proof. unfold tokens. destruct (lex_Lexes input) as (ts & E & H). now rewrite E. Qed.
