(** What the errors in a rules file say is true (C78).

    C15 says where an error points.  Here each message gets its meaning: a
    table [Wrong] of what has to be the case, at the word complained of, for
    the message to be right, stated with the grammar of Grammar.v and the
    tokens of LexSpec.v only. *)
From Verif Require Import Bytes Outcome Lexer LexSpec LexProofs Ast GoNet Parser Grammar
  ParseProofs PropsParse.

(** ** The table of messages *)

(** How an error is worded around its message: with the line only, with the
    line and the character, or with those and the word found there. *)
Inductive wording := OnLine | AtChar | Found.

Definition report (w : wording) (ln col : nat) (msg : bytes) (i : item) : bytes :=
  match w with
  | OnLine => B "at line " ++ itoa ln ++ B ": " ++ msg
  | AtChar => B "at line " ++ itoa ln ++ B " char " ++ itoa col ++ B ": " ++ msg
  | Found => B "at line " ++ itoa ln ++ B " char " ++ itoa col ++ B ": " ++ msg ++
             B ", found " ++ found_text i
  end.

(** words that take one argument of any kind *)
Definition wants_argument (t : itype) : Prop :=
  In t [itemFrom; itemTo; itemHelo; itemEhlo; itemHost; itemSource;
        itemMessage; itemNote; itemSavedir; itemInclude].

(** words that begin a match operation *)
Definition begins_match (t : itype) : Prop :=
  In t [itemNot; itemLparen; itemFrom; itemTo; itemHelo; itemEhlo; itemHost; itemSource;
        itemIp; itemDnsbl; itemTls; itemAll; itemFromHas; itemToHas; itemDns; itemHeloHas; itemDbl].

(** words that begin an option of a with clause *)
Definition begins_option (t : itype) : Prop :=
  In t [itemMessage; itemNote; itemSavedir; itemTlsOpt; itemMakeYakker].

(** what can follow a clause of a rule *)
Definition ends_clause (t : itype) : Prop := In t [itemSemicolon; itemEOL; itemEOF].

(** words that take options, and which *)
Definition wants_options (t : itype) (tbl : omap) : Prop :=
  In (t, tbl) [(itemDns, dnsMap); (itemHeloHas, heloMap); (itemFromHas, addrMap);
               (itemToHas, addrMap); (itemDbl, dblMap)].

(** a DNS blocklist name comes next *)
Inductive wants_domain : list item -> Prop :=
| wd_dnsbl b k : i_typ k = itemDnsbl -> wants_domain (b ++ [k])
| wd_dbl b k ts o : i_typ k = itemDbl -> GOpts dblMap ts o -> wants_domain (b ++ k :: ts).

(** [clause_at act line]: after [line], a clause of a rule with action [act]
    begins. *)
Inductive clause_at (act : action) : list item -> Prop :=
| ca_first pts ph a :
    GPhase pts ph -> action_of (i_typ a) = Some act -> clause_at act (pts ++ [a])
| ca_next b ts c s eol :
    clause_at act b -> GClause ts c -> i_typ s = itemSemicolon ->
    (eol = [] \/ exists e, eol = [e] /\ i_typ e = itemEOL) ->
    clause_at act (b ++ ts ++ s :: eol).

(** a match operation has to come next *)
Inductive operand_at : list item -> Prop :=
| oa_clause act b : clause_at act b -> operand_at b
| oa_paren b l : i_typ l = itemLparen -> operand_at (b ++ [l])
| oa_or b o : i_typ o = itemOr -> operand_at (b ++ [o]).

(** some options of a with clause, and what they set *)
Definition options_so_far (ws : list item) (kvs : list (bytes * bytes)) : Prop :=
  ws = [] /\ kvs = [] \/ GWiths [] ws kvs.

(** [Wrong fails line i w msg]: [line] are the words of the line before the
    word [i], and [msg], worded [w], is a true complaint about what is found
    there.  [fails f txt]: loading the rules file [f] here fails, and [txt]
    is why. *)
Inductive Wrong (fails : bytes -> bytes -> Prop) : list item -> item -> wording -> bytes -> Prop :=
(* arguments *)
| W_arg b k i :
    wants_argument (i_typ k) -> ~ is_arg i ->
    Wrong fails (b ++ [k]) i Found (B "expected argument")
| W_domain b i :
    wants_domain b -> i_typ i <> itemValue ->
    Wrong fails b i Found (B "expected dnsbl domain")
| W_dotless b i :
    wants_domain b -> i_typ i = itemValue -> ~ In ch_dot (i_val i) ->
    Wrong fails b i AtChar (B "theoretical dnsbl domain contains no '.'")
| W_ip b k i :
    i_typ k = itemIp -> i_typ i <> itemValue -> i_typ i <> itemFilename ->
    Wrong fails (b ++ [k]) i Found (B "expected IP address, CIDR, or filename")
| W_badip b k i :
    i_typ k = itemIp -> i_typ i = itemValue ->
    parse_ip (i_val i) = None -> parse_cidr (i_val i) = None ->
    Wrong fails (b ++ [k]) i Found (B "argument is not a valid IP address or CIDR")
| W_onoff b k i :
    i_typ k = itemTls -> i_typ i <> itemOn -> i_typ i <> itemOff ->
    Wrong fails (b ++ [k]) i AtChar (B "expected on or off")
| W_option b k tbl i :
    wants_options (i_typ k) tbl -> (forall o, ~ In (i_typ i, o) tbl) ->
    Wrong fails (b ++ [k]) i Found (B "expected valid option")
| W_next_option b k tbl ts o c i :
    wants_options (i_typ k) tbl -> GOpts tbl ts o -> i_typ c = itemComma ->
    (forall o, ~ In (i_typ i, o) tbl) ->
    Wrong fails (b ++ k :: ts ++ [c]) i Found (B "expected valid option")
(* expressions *)
| W_not b n i :
    i_typ n = itemNot -> ~ begins_match (i_typ i) ->
    Wrong fails (b ++ [n]) i Found (B "expected something to NOT")
| W_noparen b l ts i :
    i_typ l = itemLparen -> (ts = [] \/ exists es, GSeries ts es) ->
    i_typ i <> itemRparen -> i_typ i <> itemOr -> ~ begins_match (i_typ i) ->
    Wrong fails (b ++ l :: ts) i Found (B "expecting closing ')'")
| W_emptyparen b l i :
    i_typ l = itemLparen -> i_typ i = itemRparen ->
    Wrong fails (b ++ [l]) i AtChar (B "empty parenthesized expression")
| W_noleft b i :
    operand_at b -> i_typ i = itemOr ->
    Wrong fails b i AtChar (B "empty left side of an or")
| W_noright b o i :
    i_typ o = itemOr -> ends_clause (i_typ i) \/ i_typ i = itemRparen ->
    Wrong fails (b ++ [o]) i AtChar (B "empty right side of an OR")
| W_nomatch b o i :
    i_typ o = itemOr -> ~ begins_match (i_typ i) -> i_typ i <> itemOr ->
    ~ ends_clause (i_typ i) -> i_typ i <> itemRparen ->
    Wrong fails (b ++ [o]) i Found (B "expecting match operation")
(* with clauses *)
| W_repeated b w ws kvs i v :
    i_typ w = itemWith -> GWiths [] ws kvs -> begins_option (i_typ i) ->
    In (i_val i, v) kvs -> (v = [] -> i_typ i = itemTlsOpt \/ i_typ i = itemMakeYakker) ->
    Wrong fails (b ++ w :: ws) i AtChar (B "repeated '" ++ i_val i ++ B "' option in with clause")
| W_note b k a i :
    i_typ k = itemNote -> is_arg a -> In ch_nl (i_val a) ->
    Wrong fails (b ++ [k; a]) i AtChar (B "note contains embedded newline")
| W_tlsopt b k a i :
    i_typ k = itemTlsOpt -> is_arg a -> i_val a <> B "off" -> i_val a <> B "no-client" ->
    Wrong fails (b ++ [k; a]) i AtChar (B "illegal tls-opt option '" ++ i_val a ++ B "' in with clause")
| W_notlsopt b k i :
    i_typ k = itemTlsOpt -> ~ is_arg i ->
    Wrong fails (b ++ [k]) i AtChar (B "illegal tls-opt option '' in with clause")
| W_emptywith b w i :
    i_typ w = itemWith -> ends_clause (i_typ i) ->
    Wrong fails (b ++ [w]) i AtChar (B "empty with clause")
| W_badwith b w ws kvs i :
    i_typ w = itemWith -> options_so_far ws kvs ->
    ~ begins_option (i_typ i) -> ~ ends_clause (i_typ i) ->
    Wrong fails (b ++ w :: ws) i Found (B "expecting a with clause")
(* rules *)
| W_badclause act b ts i :
    clause_at act b -> (ts = [] \/ exists e, GAndl ts e) ->
    ~ begins_match (i_typ i) -> i_typ i <> itemOr -> i_typ i <> itemWith -> ~ ends_clause (i_typ i) ->
    Wrong fails (b ++ ts) i Found (B "expecting an operation or 'with'")
| W_nothing act b ws i :
    clause_at act b -> (ws = [] \/ exists w ws' kvs, ws = w :: ws' /\ i_typ w = itemWith /\ GWiths [] ws' kvs) ->
    ends_clause (i_typ i) ->
    Wrong fails (b ++ ws) i OnLine (B "rule needs at least one operation, perhaps 'all'")
| W_setwith b ts e i :
    clause_at aNoresult b -> GAndl ts e -> ends_clause (i_typ i) ->
    Wrong fails (b ++ ts) i OnLine (B "'set-with' rule with no with options")
| W_phase k ph a act ts cs i :
    phase_of (i_typ k) = Some ph -> action_of (i_typ a) = Some act -> GClauses ts cs ->
    pcode ph < pcode (needs_clauses cs) -> i_typ i = itemEOL \/ i_typ i = itemEOF ->
    Wrong fails (k :: a :: ts) i OnLine
      (B "rule specifies a phase lower than its operations require so we cannot satisfy the phase requirement")
| W_action pts ph i :
    GPhase pts ph -> action_of (i_typ i) = None ->
    (pts = [] -> phase_of (i_typ i) = None /\ i_typ i <> itemEOF /\ i_typ i <> itemInclude) ->
    Wrong fails pts i Found (B "expecting an action")
(* include lines *)
| W_include k a i txt :
    i_typ k = itemInclude -> is_arg a -> fails (i_val a) txt ->
    Wrong fails [k; a] i OnLine (B "while including '" ++ i_val a ++ B "': " ++ txt)
| W_noeol k a i :
    i_typ k = itemInclude -> is_arg a -> i_typ i <> itemEOL -> i_typ i <> itemEOF ->
    Wrong fails [k; a] i Found (B "expecting end of line").

(** What the lexer could not read, at a position of the text. *)
Inductive Unreadable (input : bytes) (pos : nat) : bytes -> Prop :=
| U_comma b r :
    input = b ++ ","%char :: r -> pos = length b + 1 ->
    (r = [] \/ exists c s, r = c :: s /\ In c [ch_space; ch_tab; ch_nl]) ->
    Unreadable input pos (B "comma followed by whitespace, EOL, or EOF")
| U_file b r :
    input = b ++ B "file:" ++ r -> pos = length b -> at_word_end r ->
    Unreadable input pos (B "'file:' with no filename")
| U_quote b r :
    input = b ++ ch_quote :: r -> pos = length b -> unquote r = None ->
    Unreadable input pos (B "unterminated quoted value").

(** [Complaint fails incl t input txt]: [txt] is a true complaint about the
    first line of the rules text [input] that has something wrong with it.
    [incl] and [fails] say what its include lines give, [t] counts the files
    read before. *)
Inductive Complaint (incl : nat -> bytes -> list rule -> nat -> Prop)
    (fails : nat -> bytes -> bytes -> Prop) (t : nat) (input txt : bytes) : Prop :=
| Cm lines line i rest rs t' ln col :
    Lexes SOL 0 input (lines ++ line ++ i :: rest) ->
    (forall z, i_typ z = itemEOF -> GFile incl t (lines ++ [z]) rs t') ->
    LineCol input (i_pos i) ln col ->
    ((i_typ i = itemError /\ Unreadable input (i_pos i) (i_val i) /\
      txt = B "at line " ++ itoa ln ++ B " char " ++ itoa col ++ B ": lexing error: " ++ i_val i) \/
     (exists w msg, Wrong (fails t') line i w msg /\ (w = Found -> i_typ i <> itemError) /\
      txt = report w ln col msg i)) ->
    Complaint incl fails t input txt.

(** ** Lexing errors *)
Lemma word_type_None w : word_type w = None -> w = B "file:".
Proof.
  unfold word_type. destruct (mget keywords w); [discriminate|].
  destruct (has_prefix w (B "/") || has_prefix w (B "./")); [discriminate|].
  destruct (has_prefix w (B "file:")); [|discriminate].
  destruct (beqb_spec w (B "file:")); [auto|discriminate].
Qed.

Lemma Unreadable_shift pre s n pos v : n = length pre ->
  Unreadable s pos v -> Unreadable (pre ++ s) (n + pos) v.
Proof.
  intros -> H. destruct H as [b r -> -> H|b r -> -> H|b r -> -> H].
  - apply (U_comma _ _ (pre ++ b) r); auto; [now rewrite <- app_assoc|rewrite app_length; lia].
  - apply (U_file _ _ (pre ++ b) r); auto; [now rewrite <- app_assoc|now rewrite app_length].
  - apply (U_quote _ _ (pre ++ b) r); auto; [now rewrite <- app_assoc|now rewrite app_length].
Qed.

Lemma Lexes_unreadable m p s ts : Lexes m p s ts -> forall i, In i ts -> i_typ i = itemError ->
  exists pos, i_pos i = p + pos /\ Unreadable s pos (i_val i).
Proof.
  assert (Hsh : forall pre s n p i, n = length pre ->
     (exists pos, i_pos i = p + n + pos /\ Unreadable s pos (i_val i)) ->
     exists pos, i_pos i = p + pos /\ Unreadable (pre ++ s) pos (i_val i)).
  { intros pre s0 n q i Hn (pos & E & HU). exists (n + pos). split; [lia|]. apply Unreadable_shift; auto. }
  induction 1 as [m p|m p c s ts Hc HL IH|m p s ts HL IH|p s ts HL IH|p com s ts Hcom Hend HL IH
    |p s ts HL IH|m p c t s ts Ht HL IH|m p s ts Hb HL IH|m p s Hb|m p s v r ts Hq HL IH|m p s Hq
    |m p w0 t s ts Hw Hs Hst Ht HL IH|m p w0 s Hw Hs Hst Ht]; intros i Hin He.
  - destruct Hin as [<-|[]]. discriminate.
  - apply (Hsh [c] s 1); auto.
  - apply (Hsh [ch_bslash; ch_nl] s 2); auto.
  - apply (Hsh [ch_nl] s 1); auto.
  - apply (Hsh ("#"%char :: com) s (S (length com))); auto.
    destruct (IH i Hin He) as (pos & E & HU). exists pos. split; [lia|auto].
  - destruct Hin as [<-|Hin]; [discriminate|]. apply (Hsh [ch_nl] s 1); auto.
  - destruct Hin as [<-|Hin].
    { simpl in He. subst t. apply punct_type_ok in Ht. tauto. }
    apply (Hsh [c] s 1); auto.
  - destruct Hin as [<-|Hin]; [discriminate|]. apply (Hsh [","%char] s 1); auto.
  - destruct Hin as [<-|[<-|[]]]; [discriminate|]. exists 1. split; [reflexivity|].
    apply (U_comma _ _ [] s); auto. unfold bad_after_comma in Hb. destruct s as [|c s]; auto.
    right. exists c, s. split; auto. now apply mem_byte_In.
  - destruct Hin as [<-|Hin]; [discriminate|].
    apply unquote_length in Hq as (q & -> & _).
    apply (Hsh (ch_quote :: q) r (S (length q))); auto.
    destruct (IH i Hin He) as (pos & E & HU). exists pos. split; auto.
    rewrite app_length in E. lia.
  - destruct Hin as [<-|[]]. exists 0. split; [simpl; lia|]. apply (U_quote _ _ [] s); auto.
  - destruct Hin as [<-|Hin].
    { simpl in He. subst t. apply word_type_ok in Ht. tauto. }
    apply (Hsh w0 s (length w0)); auto.
  - destruct Hin as [<-|[]]. exists 0. split; [simpl; lia|].
    apply word_type_None in Ht as ->. apply (U_file _ _ [] s); auto.
Qed.

(** ** Errors of the parser *)
Definition Blame (fails : bytes -> bytes -> Prop) (bef : list item) (p : pstate) (e : perr) : Prop :=
  exists done i rest ln col, ps_toks p = done ++ i :: rest /\
    lineInfo (ps_input p) (i_pos i) = Ok (ln, col) /\
    ((i_typ i = itemError /\ perr_text e =
        B "at line " ++ itoa ln ++ B " char " ++ itoa col ++ B ": lexing error: " ++ i_val i) \/
     (exists w msg, Wrong fails (bef ++ done) i w msg /\ (w = Found -> i_typ i <> itemError) /\
        perr_text e = report w ln col msg i)).

Definition espec {A} (fails : bytes -> bytes -> Prop) (bef : list item) (p : pstate) (r : pres A) : Prop :=
  forall e, r = PErr e -> Blame fails bef p e.

Lemma begins_match_start t : term_start t = false -> ~ begins_match t.
Proof.
  intros H Hb. assert (term_start t = true); [|congruence]. clear H. unfold begins_match in Hb.
  repeat (destruct Hb as [<-|Hb]; [reflexivity|]). destruct Hb.
Qed.
Lemma begins_option_start t : with_start t = false -> ~ begins_option t.
Proof.
  intros H Hb. assert (with_start t = true); [|congruence]. clear H. unfold begins_option in Hb.
  repeat (destruct Hb as [<-|Hb]; [reflexivity|]). destruct Hb.
Qed.
Lemma isERule_ends p : isERule p = true -> ends_clause (curtyp p).
Proof. intros H. apply isERule_or in H. unfold ends_clause. simpl. intuition auto. Qed.
Lemma isERule_ends_not p : isERule p = false -> ~ ends_clause (curtyp p).
Proof.
  unfold isERule, isEol, ends_clause. intros H Hin.
  destruct (ieqb_spec (curtyp p) itemEOL), (ieqb_spec (curtyp p) itemEOF),
    (ieqb_spec (curtyp p) itemSemicolon); try discriminate H.
  simpl in Hin. intuition congruence.
Qed.

Lemma wfp_line p i ts : wfp p -> ps_toks p = i :: ts ->
  exists ln col, lineInfo (ps_input p) (i_pos i) = Ok (ln, col).
Proof.
  intros [_ Hp] E. rewrite E in Hp. inversion Hp; subst.
  unfold lineInfo. rewrite slice_ok by lia. cbn [obind]. do 2 eexists. reflexivity.
Qed.

Section Blame.
  Variable fails : bytes -> bytes -> Prop.

  Lemma espec_gen {A} bef p i ts msg : wfp p -> ps_toks p = i :: ts ->
    (i_typ i <> itemError -> Wrong fails bef i Found msg) -> espec fails bef p (@genError A msg p).
  Proof.
    intros Hw Et HW e H. destruct (wfp_line p i ts Hw Et) as (ln & col & EL).
    unfold genError, with_line, curtyp in H. rewrite (cur_of p i ts Et), EL in H.
    exists [], i, ts, ln, col. split; auto. split; auto. rewrite app_nil_r.
    destruct (ieqb_spec (i_typ i) itemError) as [Ee|Ee].
    - left. split; auto. rewrite Ee in H. injection H as <-. reflexivity.
    - right. exists Found, msg. split; auto. split; auto.
      assert (He : e = ErrGen ln col msg (found_text i)).
      { unfold found_text. destruct (i_typ i) eqn:Ei; try congruence. }
      rewrite He. reflexivity.
  Qed.

  Lemma espec_pos {A} bef p i ts msg : wfp p -> ps_toks p = i :: ts ->
    Wrong fails bef i AtChar msg -> espec fails bef p (@posError A msg p).
  Proof.
    intros Hw Et HW e H. destruct (wfp_line p i ts Hw Et) as (ln & col & EL).
    unfold posError, with_line in H. rewrite (cur_of p i ts Et), EL in H. injection H as <-.
    exists [], i, ts, ln, col. split; auto. split; auto. rewrite app_nil_r.
    right. exists AtChar, msg. split; auto. split; [discriminate|reflexivity].
  Qed.

  Lemma espec_line {A} bef p i ts msg : wfp p -> ps_toks p = i :: ts ->
    Wrong fails bef i OnLine msg -> espec fails bef p (@lineError A msg p).
  Proof.
    intros Hw Et HW e H. destruct (wfp_line p i ts Hw Et) as (ln & col & EL).
    unfold lineError, with_line in H. rewrite (cur_of p i ts Et), EL in H. injection H as <-.
    exists [], i, ts, ln, col. split; auto. split; auto. rewrite app_nil_r.
    right. exists OnLine, msg. split; auto. split; [discriminate|reflexivity].
  Qed.

  Lemma espec_ok {A} bef p (a : A) p' : espec fails bef p (POk a p').
  Proof. intros e H. discriminate. Qed.

  Lemma espec_bind {A B} bef p (x : pres A) (f : A -> pstate -> pres B) Q :
    spec p x Q -> espec fails bef p x -> (forall a p', Q a p' -> espec fails bef p (f a p')) ->
    espec fails bef p (pbind x f).
  Proof.
    intros Hs Hx Hf e H. destruct x as [a p'|e'| |]; simpl in *; try discriminate.
    - eapply Hf; eauto.
    - apply Hx. injection H as ->. reflexivity.
  Qed.

  (** the same, for what starts at a later token *)
  Lemma espec_sub {A} bef ts p' p (r : pres A) : ps_toks p = ts ++ ps_toks p' -> ps_input p' = ps_input p ->
    espec fails (bef ++ ts) p' r -> espec fails bef p r.
  Proof.
    intros Et Ei H e He. destruct (H e He) as (done & i & rest & ln & col & E & EL & HW).
    exists (ts ++ done), i, rest, ln, col. rewrite (app_assoc bef ts done).
    split; [rewrite Et, E, app_assoc; reflexivity|]. split; [rewrite <- Ei; exact EL|exact HW].
  Qed.

  Lemma pArg_err bef k p : wfp p -> wants_argument (i_typ k) -> espec fails (bef ++ [k]) p (pArg p).
  Proof.
    intros Hw Hk. destruct (wfp_cur p Hw) as (i & ts & Et & Ec). unfold pArg, curtyp. rewrite Ec.
    destruct (Nat.ltb_spec (icode (i_typ i)) (icode itemHasValue)) as [Hlt|Hge].
    - eapply espec_gen; eauto. intros _. apply W_arg; auto.
      intros (A1 & A2 & A3). destruct (i_typ i) eqn:Ei; simpl in Hlt; try lia; congruence.
    - intros e H. exfalso. unfold consume, curtyp in H. rewrite Ec in H.
      destruct (ieqb_spec (i_typ i) itemEOF); [discriminate|].
      destruct (ieqb_spec (i_typ i) itemError); discriminate.
  Qed.

  Lemma consume_err bef p : espec fails bef p (consume p).
  Proof.
    intros e H. unfold consume in H.
    destruct (ieqb (curtyp p) itemEOF); [discriminate|]. destruct (ieqb (curtyp p) itemError); discriminate.
  Qed.

  (** reading one token and going on is never the error *)
  Lemma consume_then {A} bef p (f : pstate -> A) : espec fails bef p (dop _, p' <- consume p; POk (f p') p').
  Proof.
    intros e H. pose proof (consume_err bef p). destruct (consume p) as [a p'|e'| |]; simpl in H; try discriminate.
    injection H as ->. auto.
  Qed.

  Lemma pDomain_err bef p : wfp p -> wants_domain bef -> espec fails bef p (pDomain p).
  Proof.
    intros Hw Hk. destruct (wfp_cur p Hw) as (i & ts & Et & Ec). unfold pDomain, curtyp. rewrite Ec.
    destruct (ieqb_spec (i_typ i) itemValue) as [Hv|Hv]; simpl negb; cbv iota.
    2:{ eapply espec_gen; eauto. intros _. apply W_domain; auto. }
    destruct (index_byte (i_val i) ch_dot) as [k|] eqn:Ek.
    - destruct (last_byte (i_val i)); [|intros e H; discriminate].
      apply (consume_then bef p (fun _ => _)).
    - eapply espec_pos; eauto. apply W_dotless; auto.
      now apply index_byte_None.
  Qed.

  Lemma pIPArg_err bef k p : wfp p -> i_typ k = itemIp -> espec fails (bef ++ [k]) p (pIPArg p).
  Proof.
    intros Hw Hk. destruct (wfp_cur p Hw) as (i & ts & Et & Ec). unfold pIPArg, curtyp. rewrite Ec.
    destruct (i_typ i) eqn:Ei;
      try (eapply espec_gen; eauto; intros _; apply W_ip; auto; rewrite Ei; discriminate).
    - destruct (parse_cidr (i_val i)) eqn:E1; [apply (consume_then _ p (fun _ => i_val i))|].
      destruct (parse_ip (i_val i)) eqn:E2; [apply (consume_then _ p (fun _ => i_val i))|].
      eapply espec_gen; eauto. intros _. apply W_badip; auto.
    - apply (consume_then _ p (fun _ => i_val i)).
  Qed.

  Lemma pOnOff_err bef k p : wfp p -> i_typ k = itemTls -> espec fails (bef ++ [k]) p (pOnOff p).
  Proof.
    intros Hw Hk. destruct (wfp_cur p Hw) as (i & ts & Et & Ec). unfold pOnOff, curtyp. rewrite Ec.
    destruct (i_typ i) eqn:Ei;
      try (eapply espec_pos; eauto; apply W_onoff; auto; rewrite Ei; discriminate).
    - apply (consume_then _ p (fun _ => true)).
    - apply (consume_then _ p (fun _ => false)).
  Qed.

  Lemma GOpts_snoc tbl ts o : GOpts tbl ts o -> forall c t o', i_typ c = itemComma -> In (i_typ t, o') tbl ->
    GOpts tbl (ts ++ [c; t]) (N.lor o o').
  Proof.
    induction 1 as [t0 o0 H|t0 o0 c0 ts0 os H Hc HG IH]; intros c t o' Hc' Ht; simpl.
    - apply GO_more; auto. constructor; auto.
    - rewrite <- N.lor_assoc. apply GO_more; auto.
  Qed.

  Lemma pCommaOpts_err tbl k bef : tbl_ok tbl -> wants_options (i_typ k) tbl -> forall fuel acc pre p,
    wfp p -> (pre = [] \/ exists ts o c, GOpts tbl ts o /\ i_typ c = itemComma /\ pre = ts ++ [c]) ->
    espec fails (bef ++ k :: pre) p (pCommaOpts fuel tbl acc p).
  Proof.
    intros (T1 & T2 & T3) Hk. induction fuel as [|n IH]; intros acc pre p Hw Hpre; [intros e H; discriminate|].
    cbn [pCommaOpts]. destruct (wfp_cur p Hw) as (i & ts & Et & Ec).
    unfold curtyp. rewrite Ec.
    destruct (N.eqb_spec (omap_get tbl (i_typ i)) oZero) as [Hz|Hz].
    { eapply espec_gen; eauto. intros _.
      assert (Hno : forall o, ~ In (i_typ i, o) tbl).
      { intros o Hin. apply T1 in Hin as [E Hne]. congruence. }
      destruct Hpre as [->|(ts0 & o & c & HG & Hc & ->)].
      - eapply W_option; eauto.
      - eapply W_next_option; eauto. }
    pose proof (T2 _ Hz) as Hin. destruct (T3 _ _ Hin) as [N1 N2].
    rewrite (consume_cons p i ts Et N1 N2). cbn [pbind].
    pose proof (wfp_tail p i ts (ps_req p) Hw Et N1 N2) as Hw1.
    destruct (wfp_cur _ Hw1) as (j & ts1 & Et1 & Ec1). rewrite Ec1.
    destruct (ieqb_spec (i_typ j) itemComma) as [Hj|Hj]; [|apply espec_ok].
    simpl in Et1. subst ts.
    rewrite (consume_cons (stp p (j :: ts1) (ps_req p)) j ts1 eq_refl) by (rewrite Hj; discriminate).
    cbn [pbind].
    assert (Hw2 : wfp (stp p ts1 (ps_req p))).
    { apply (wfp_tail (stp p (j :: ts1) (ps_req p)) j ts1 (ps_req p) Hw1 eq_refl); rewrite Hj; discriminate. }
    change (stp (stp p (j :: ts1) (ps_req p)) ts1 (ps_req (stp p (j :: ts1) (ps_req p)))) with (stp p ts1 (ps_req p)).
    apply (espec_sub _ [i; j] (stp p ts1 (ps_req p))); auto.
    rewrite <- app_assoc. change ((k :: pre) ++ [i; j]) with (k :: pre ++ [i; j]).
    apply IH; auto. right.
    destruct Hpre as [->|(ts0 & o & c & HG & Hc & ->)].
    - exists [i], (omap_get tbl (i_typ i)), j. split; [constructor; auto|]. auto.
    - exists (ts0 ++ [c; i]), (N.lor o (omap_get tbl (i_typ i))), j.
      split; [apply GOpts_snoc; auto|]. split; auto. rewrite <- !app_assoc. reflexivity.
  Qed.
  Lemma pOrl_not_or n : forall p r p', pOrl n p = POk r p' -> curtyp p' <> itemOr.
  Proof.
    induction n as [|n IH]; intros p r p' H; [discriminate|]. cbn [pOrl] in H.
    destruct (pTerm n p) as [er p1|e| |]; try discriminate. cbn [pbind] in H.
    destruct (ieqb_spec (curtyp p1) itemOr) as [Ho|Ho]; simpl negb in H; cbv iota in H.
    - destruct er as [l|].
      2:{ unfold posError, with_line in H. destruct (lineInfo _ _) as [[? ?]| |]; discriminate. }
      destruct (consume p1) as [u p2|e| |]; try discriminate. cbn [pbind] in H.
      destruct (pOrl n p2) as [er2 p3|e| |] eqn:E; try discriminate. cbn [pbind] in H.
      destruct er2 as [x|].
      + injection H as <- <-. eapply IH; eauto.
      + destruct (isERule p3 || ieqb (curtyp p3) itemRparen); unfold posError, genError, with_line in H;
          destruct (lineInfo _ _) as [[? ?]| |]; discriminate.
    - injection H as <- <-. exact Ho.
  Qed.

  Lemma pAndl_loop_not_or n : forall p nodes r p', pAndl_loop n nodes p = POk r p' -> curtyp p' <> itemOr.
  Proof.
    induction n as [|n IH]; intros p nodes r p' H; [discriminate|]. cbn [pAndl_loop] in H.
    destruct (pOrl n p) as [er p1|e| |] eqn:E; try discriminate. cbn [pbind] in H.
    destruct er as [x|]; [eapply IH; eauto|]. injection H as <- <-. eapply pOrl_not_or; eauto.
  Qed.

  (** an extra fact about success, to use with [espec_bind] *)
  Lemma spec_and {A} p (r : pres A) (Q R : A -> pstate -> Prop) :
    spec p r Q -> (forall a p', r = POk a p' -> R a p') -> spec p r (fun a p' => Q a p' /\ R a p').
  Proof. destruct r; simpl; auto. Qed.

  Definition begin_or_not (bef : list item) (p : pstate) : Prop := operand_at bef \/ curtyp p <> itemOr.

  Ltac in_list := unfold wants_argument, wants_options; simpl; auto 20.

  (** a keyword whose argument is read by [f] *)
  Lemma kw_err {A B} bef p i ts r (x : pres A) (f : A -> B) :
    ps_toks p = i :: ts ->
    espec fails (bef ++ [i]) (stp p ts r) x ->
    espec fails bef p (dop a, p2 <- x; POk (f a) p2).
  Proof.
    intros Et H e He. destruct x as [a p2|e'| |]; simpl in He; try discriminate.
    injection He as ->. eapply (espec_sub bef [i] (stp p ts r)); eauto.
  Qed.

  Lemma expr_err : forall fuel,
    (forall bef p, wfp p -> 3 * ntoks p + 1 <= fuel -> espec fails bef p (pTerm fuel p)) /\
    (forall bef p, wfp p -> 3 * ntoks p + 2 <= fuel -> begin_or_not bef p -> espec fails bef p (pOrl fuel p)) /\
    (forall bef p nodes, wfp p -> 3 * ntoks p + 3 <= fuel -> begin_or_not bef p ->
         espec fails bef p (pAndl_loop fuel nodes p)).
  Proof.
    induction fuel as [|n (IHt & IHo & IHa)]; [repeat split; intros; lia|].
    destruct (expr_spec n) as (St & So & Sa).
    split; [|split].
    - (* pTerm *)
      intros bef p Hw Hf. cbn [pTerm].
      destruct (wfp_cur p Hw) as (i & ts & Et & Ec).
      assert (Hn : ntoks p = S (length ts)) by (unfold ntoks; rewrite Et; reflexivity).
      unfold curtyp at 1. rewrite Ec.
      assert (Hi : i_typ i <> itemEOF -> i_typ i <> itemError -> forall r, wfp (stp p ts r)).
      { intros. eapply wfp_tail; eauto. }
      destruct (i_typ i) eqn:Ei; try (apply espec_ok).
      all: assert (N1 : i_typ i <> itemEOF) by (rewrite Ei; discriminate);
           assert (N2 : i_typ i <> itemError) by (rewrite Ei; discriminate);
           rewrite <- Ei in Hi; specialize (Hi N1 N2).
      all: try (rewrite (consume_raise p i ts _ Et N1 N2); cbn [pbind]).
      + (* ( *)
        rewrite (consume_cons p i ts Et N1 N2). cbn [pbind].
        pose proof (Hi (ps_req p)) as Hw1.
        apply (espec_sub bef [i] (stp p ts (ps_req p))); auto.
        assert (Hop : begin_or_not (bef ++ [i]) (stp p ts (ps_req p))).
        { left. apply oa_paren; auto. }
        eapply espec_bind.
        { apply spec_and with (R := fun _ p' => curtyp p' <> itemOr).
          - apply Sa; auto. unfold ntoks in *; simpl; lia.
          - intros a p' E. eapply pAndl_loop_not_or; eauto. }
        { apply IHa; auto. unfold ntoks in *; simpl; lia. }
        intros e p2 ((ts2 & rest & es & Et2 & Hr & HG & -> & -> & Hts) & Hno). simpl in Et2.
        rewrite stp_stp in *. cbn [ps_req stp] in *.
        set (req2 := pmax (ps_req p) (fold_right pmax pAny (map needs es))) in *.
        assert (Hw2 : wfp (stp p rest req2)).
        { apply (wfp_app p (i :: ts2)); auto. rewrite Et, Et2. reflexivity. }
        apply (espec_sub (bef ++ [i]) ts2 (stp p rest req2)); auto.
        rewrite <- app_assoc. change ([i] ++ ts2) with (i :: ts2).
        destruct (wfp_cur _ Hw2) as (j & ts3 & Et3 & Ec3).
        unfold curtyp in *. rewrite Ec3 in *.
        destruct (ieqb_spec (i_typ j) itemRparen) as [Hrp|Hrp]; simpl negb; cbv iota.
        2:{ eapply espec_gen; eauto. intros _. apply W_noparen; auto.
            - destruct HG as [[-> _]|HG]; [left; auto|right; eauto].
            - apply begins_match_start; auto. }
        destruct HG as [[-> ->]|HG].
        { simpl. eapply espec_pos; eauto. apply W_emptyparen; auto. }
        simpl app. rewrite (andl_series es (GSeries_ne _ _ HG)).
        apply (consume_then _ (stp p rest req2) (fun _ => Some (series es))).
      + (* not *)
        rewrite (consume_cons p i ts Et N1 N2). cbn [pbind].
        pose proof (Hi (ps_req p)) as Hw1.
        apply (espec_sub bef [i] (stp p ts (ps_req p))); auto.
        eapply espec_bind.
        { apply St; auto. unfold ntoks in *; simpl; lia. }
        { apply IHt; auto. unfold ntoks in *; simpl; lia. }
        intros [e|] p2 H; [apply espec_ok|].
        destruct H as [-> Hts]. destruct (wfp_cur _ Hw1) as (j & ts3 & Et3 & Ec3).
        eapply espec_gen; eauto. intros _. apply W_not; auto. unfold curtyp in Hts. rewrite Ec3 in Hts.
        apply begins_match_start; auto.
      + (* helo *) eapply kw_err; eauto. apply pArg_err; auto. rewrite Ei. in_list.
      + (* all *) apply espec_ok.
      + (* from *) eapply kw_err; eauto. apply pArg_err; auto. rewrite Ei. in_list.
      + (* to *) eapply kw_err; eauto. apply pArg_err; auto. rewrite Ei. in_list.
      + (* from-has *) eapply kw_err; eauto.
        apply (pCommaOpts_err addrMap i bef) with (pre := []); auto; [apply addrMap_ok|rewrite Ei; in_list].
      + (* to-has *) eapply kw_err; eauto.
        apply (pCommaOpts_err addrMap i bef) with (pre := []); auto; [apply addrMap_ok|rewrite Ei; in_list].
      + (* helo-has *) eapply kw_err; eauto.
        apply (pCommaOpts_err heloMap i bef) with (pre := []); auto; [apply heloMap_ok|rewrite Ei; in_list].
      + (* tls *) eapply kw_err; eauto. apply pOnOff_err; auto.
      + (* host *) eapply kw_err; eauto. apply pArg_err; auto. rewrite Ei. in_list.
      + (* dns *) eapply kw_err; eauto.
        apply (pCommaOpts_err dnsMap i bef) with (pre := []); auto; [apply dnsMap_ok|rewrite Ei; in_list].
      + (* ip *) eapply kw_err; eauto. apply pIPArg_err; auto.
      + (* dnsbl *) eapply kw_err; eauto. apply pDomain_err; auto. apply wd_dnsbl; auto.
      + (* source *) eapply kw_err; eauto. apply pArg_err; auto. rewrite Ei. in_list.
      + (* dbl *)
        set (r1 := pmax (ps_req p) (minReq itemDbl)).
        apply (espec_sub bef [i] (stp p ts r1)); auto.
        eapply espec_bind.
        { apply pCommaOpts_spec; [apply dblMap_ok|auto|lia]. }
        { apply (pCommaOpts_err dblMap i bef) with (pre := []); auto; [apply dblMap_ok|rewrite Ei; in_list]. }
        intros o p2 (ts2 & rest & os & E2 & HG & -> & Hr & Hne & ->). simpl in E2. subst ts.
        rewrite stp_stp. cbn [ps_req stp].
        assert (Hw2 : wfp (stp p rest r1)) by (apply (wfp_app p (i :: ts2)); auto).
        intros e He. destruct (pDomain (stp p rest r1)) as [a p3|e'| |] eqn:Ed; simpl in He; try discriminate.
        injection He as ->.
        apply (espec_sub (bef ++ [i]) ts2 (stp p rest r1) _ (pDomain (stp p rest r1))); auto.
        apply pDomain_err; auto. rewrite <- app_assoc. eapply wd_dbl; eauto.
      + (* ehlo *) eapply kw_err; eauto. apply pArg_err; auto. rewrite Ei. in_list.
    - (* pOrl *)
      intros bef p Hw Hf Hop. cbn [pOrl].
      eapply espec_bind; [apply St; auto; lia|apply IHt; auto; lia|].
      intros [e|] p1 H.
      + destruct H as (ts & rest & Et & Hne & HG & Hr & ->).
        set (req1 := pmax (ps_req p) (needs e)).
        assert (Hw1 : wfp (stp p rest req1)) by (eapply wfp_app; eauto).
        destruct (wfp_cur _ Hw1) as (j & ts1 & Et1 & Ec1). simpl in Et1.
        unfold curtyp at 1. rewrite Ec1.
        destruct (ieqb_spec (i_typ j) itemOr) as [Hor|Hor]; simpl negb; cbv iota; [|apply espec_ok].
        rewrite (consume_cons (stp p rest req1) j ts1 Et1) by (rewrite Hor; discriminate).
        cbn [pbind]. rewrite stp_stp. cbn [ps_req stp].
        assert (Hw2 : wfp (stp p ts1 req1)).
        { eapply (wfp_tail (stp p rest req1) j ts1); eauto; rewrite Hor; discriminate. }
        assert (Hlen : ntoks p = length ts + S (length ts1)).
        { unfold ntoks. rewrite Et, Et1, app_length. reflexivity. }
        apply (espec_sub bef (ts ++ [j]) (stp p ts1 req1)); auto.
        { rewrite Et, Et1, <- app_assoc. reflexivity. }
        rewrite app_assoc.
        assert (Hfu : 3 * ntoks (stp p ts1 req1) + 2 <= n).
        { unfold ntoks in *; simpl. destruct ts; [congruence|simpl in *; lia]. }
        eapply espec_bind.
        { apply spec_and with (R := fun _ p' => curtyp p' <> itemOr).
          - apply So; auto.
          - intros a p' E. eapply pOrl_not_or; eauto. }
        { apply IHo; auto. left. apply oa_or; auto. }
        intros [e2|] p3 [H Hno]; [apply espec_ok|].
        destruct H as [-> Hts]. destruct (wfp_cur _ Hw2) as (k & ts2 & Et2 & Ec2).
        assert (Ek : curtyp (stp p ts1 req1) = i_typ k) by (unfold curtyp; rewrite Ec2; reflexivity).
        destruct (isERule (stp p ts1 req1)) eqn:Er.
        { cbn [orb]. eapply espec_pos; eauto. apply W_noright; auto. left. rewrite <- Ek. apply isERule_ends; auto. }
        destruct (ieqb_spec (curtyp (stp p ts1 req1)) itemRparen) as [Hrp|Hrp]; cbn [orb].
        * eapply espec_pos; eauto. apply W_noright; auto. right. congruence.
        * eapply espec_gen; eauto. intros _. rewrite Ek in *. apply W_nomatch; auto.
          -- apply begins_match_start; auto.
          -- rewrite <- Ek. apply isERule_ends_not; auto.
      + destruct H as [-> Hts].
        destruct (ieqb_spec (curtyp p) itemOr) as [Hor|Hor]; simpl negb; cbv iota; [|apply espec_ok].
        destruct (wfp_cur _ Hw) as (k & ts2 & Et2 & Ec2).
        eapply espec_pos; eauto. apply W_noleft; [|unfold curtyp in Hor; congruence].
        destruct Hop as [|]; [auto|contradiction].
    - (* pAndl_loop *)
      intros bef p nodes Hw Hf Hop. cbn [pAndl_loop].
      eapply espec_bind.
      { apply spec_and with (R := fun _ p' => curtyp p' <> itemOr).
        - apply So; auto. lia.
        - intros a p' E. eapply pOrl_not_or; eauto. }
      { apply IHo; auto; lia. }
      intros [e|] p1 [H Hno]; [|apply espec_ok].
      destruct H as (ts & rest & Et & Hne & HG & Hr & ->).
      set (req1 := pmax (ps_req p) (needs e)) in *.
      assert (Hw1 : wfp (stp p rest req1)) by (eapply wfp_app; eauto).
      assert (Hlen : ntoks p = length ts + length rest).
      { unfold ntoks. rewrite Et, app_length. reflexivity. }
      apply (espec_sub bef ts (stp p rest req1)); auto. apply IHa; auto.
      + unfold ntoks in *; simpl. destruct ts; [congruence|simpl in *; lia].
      + right. exact Hno.
  Qed.
  Lemma pAndl_err bef p : wfp p -> operand_at bef -> espec fails bef p (pAndl p).
  Proof.
    intros Hw Hop. unfold pAndl. apply (proj2 (proj2 (expr_err _))); auto.
    - unfold expr_fuel. lia.
    - left; auto.
  Qed.

  Lemma pAndl_not_or p r p' : pAndl p = POk r p' -> curtyp p' <> itemOr.
  Proof. apply pAndl_loop_not_or. Qed.

  (** *** With clauses *)
  Lemma GWiths_snoc seen ts kvs : GWiths seen ts kvs -> forall k ts' kv,
    GWterm (k :: ts') kv -> may_add (i_typ k) (i_val k) (seen ++ kvs) ->
    GWiths seen (ts ++ k :: ts') (kvs ++ [kv]).
  Proof.
    induction 1 as [seen k0 ts0 kv0 H1 H2|seen k0 ts0 kv0 ts1 kvs H1 H2 HG IH]; intros k ts' kv Hk Hm.
    - simpl. apply GWs_more; auto. apply GWs_one; auto.
    - simpl. rewrite <- app_assoc. apply GWs_more; auto. apply IH; auto.
      rewrite <- app_assoc. exact Hm.
  Qed.

  Lemma options_snoc ts kvs k ts' kv : options_so_far ts kvs -> GWterm (k :: ts') kv ->
    may_add (i_typ k) (i_val k) kvs -> options_so_far (ts ++ k :: ts') (kvs ++ [kv]).
  Proof.
    intros [[-> ->]|H] Hk Hm; right.
    - apply GWs_one; auto.
    - apply GWiths_snoc; auto.
  Qed.

  Lemma options_ne ts kvs kv : options_so_far ts kvs -> In kv kvs -> GWiths [] ts kvs.
  Proof. intros [[_ ->]|H] Hin; [destruct Hin|auto]. Qed.

  Lemma pWClause_err b wi : i_typ wi = itemWith -> forall fuel pre seen w got p,
    wfp p -> WInv seen w -> options_so_far pre seen ->
    espec fails (b ++ wi :: pre) p (pWClause fuel w got p).
  Proof.
    intros Hwi. induction fuel as [|n IH]; intros pre seen w got p Hw HI Ho; [intros e H; discriminate|].
    cbn [pWClause]. destruct (wfp_cur p Hw) as (i & ts & Et & Ec).
    unfold curtyp at 1. rewrite !Ec.
    (* one option with an argument *)
    assert (Harg : forall bad msg,
      wants_argument (i_typ i) -> i_typ i <> itemEOF -> i_typ i <> itemError ->
      (forall a, is_arg a -> bad (i_val a) = false -> GWterm [i; a] (i_val i, i_val a)) ->
      (forall a j, is_arg a -> bad (i_val a) = true -> forall b', Wrong fails (b' ++ [i; a]) j AtChar msg) ->
      may_add (i_typ i) (i_val i) seen ->
      espec fails (b ++ wi :: pre) p
             (dop _, p1 <- consume p;
              dop arg, p2 <- pArg p1;
              if bad arg then posError msg p2
              else pWClause n (mset w (i_val i) arg) true p2)).
    { intros bad msg Hk N1 N2 Hg Hb Hm.
      rewrite (consume_cons p i ts Et N1 N2). cbn [pbind].
      pose proof (wfp_tail p i ts (ps_req p) Hw Et N1 N2) as Hw1.
      apply (espec_sub (b ++ wi :: pre) [i] (stp p ts (ps_req p))); auto.
      eapply espec_bind; [apply pArg_spec; auto|apply pArg_err; auto|].
      intros a p2 (j & rest & Ej & Ha & -> & Hr & ->). simpl in Ej. subst ts.
      rewrite stp_stp. cbn [ps_req stp].
      assert (Hw2 : wfp (stp p rest (ps_req p))) by (eapply (wfp_app p [i; j]); eauto).
      apply (espec_sub ((b ++ wi :: pre) ++ [i]) [j] (stp p rest (ps_req p))); auto.
      rewrite <- (app_assoc (b ++ wi :: pre) [i] [j]). change ([i] ++ [j]) with [i; j].
      destruct (bad (i_val j)) eqn:Eb.
      - destruct (wfp_cur _ Hw2) as (k & ts2 & Et2 & Ec2). eapply espec_pos; eauto.
      - rewrite <- app_assoc. change ((wi :: pre) ++ [i; j]) with (wi :: pre ++ [i; j]).
        apply (IH _ (seen ++ [(i_val i, i_val j)])); auto.
        + apply WInv_add; auto. eapply may_add_empty; eauto.
        + apply options_snoc; auto. }
    assert (Hmay : match mget w (i_val i) with Some (_ :: _) => false | _ => true end = true ->
                   forall v, In (i_val i, v) seen -> v = []).
    { intros Hg v Hin. destruct v as [|c v]; auto. exfalso.
      destruct HI as (_ & _ & C). rewrite (C _ _ Hin) in Hg by discriminate. discriminate. }
    assert (Hmay' : mget w (i_val i) = None -> forall v, ~ In (i_val i, v) seen) by (apply HI).
    assert (Hrep : forall A v, begins_option (i_typ i) -> mget w (i_val i) = Some v ->
       (v = [] -> i_typ i = itemTlsOpt \/ i_typ i = itemMakeYakker) ->
       espec fails (b ++ wi :: pre) p (@posError A (repeated_msg (i_val i)) p)).
    { intros A v Hb Hg Hv. apply HI in Hg as Hin. eapply espec_pos; eauto. unfold repeated_msg.
      eapply W_repeated; eauto. eapply options_ne; eauto. }
    destruct (i_typ i) eqn:Ei; try apply espec_ok; rewrite ?Ec.
    - (* message *)
      destruct (mget w (i_val i)) as [[|c v]|] eqn:Em; cbv iota.
      2:{ eapply Hrep; eauto; [unfold begins_option; simpl; auto|discriminate]. }
      all: apply (Harg (fun arg => ieqb (curtyp p) itemNote && mem_byte ch_nl arg)); try discriminate;
        [unfold wants_argument; simpl; auto 20| | |exact (Hmay eq_refl)].
      1,3: intros a Ha _; apply GW_message; auto.
      all: intros a j Ha Hb; unfold curtyp in Hb; rewrite Ec, Ei in Hb; discriminate.
    - (* note *)
      assert (Hnote : forall a, is_arg a -> ieqb (curtyp p) itemNote && mem_byte ch_nl (i_val a) = false -> GWterm [i; a] (i_val i, i_val a)).
      { intros a Ha Hb. apply GW_note; auto. unfold curtyp in Hb. rewrite Ec, Ei in Hb. simpl in Hb. intros Hin. apply mem_byte_In in Hin. congruence. }
      destruct (mget w (i_val i)) as [[|c v]|] eqn:Em; cbv iota.
      2:{ eapply Hrep; eauto; [unfold begins_option; simpl; auto|discriminate]. }
      all: apply (Harg (fun arg => ieqb (curtyp p) itemNote && mem_byte ch_nl arg)); try discriminate;
        [unfold wants_argument; simpl; auto 20|exact Hnote| |exact (Hmay eq_refl)].
      all: intros a j Ha Hb b'; unfold curtyp in Hb; rewrite Ec, Ei in Hb; simpl in Hb;
        apply W_note; auto; apply mem_byte_In; auto.
    - (* savedir *)
      destruct (mget w (i_val i)) as [[|c v]|] eqn:Em; cbv iota.
      2:{ eapply Hrep; eauto; [unfold begins_option; simpl; auto|discriminate]. }
      all: apply (Harg (fun arg => ieqb (curtyp p) itemNote && mem_byte ch_nl arg)); try discriminate;
        [unfold wants_argument; simpl; auto 20| | |exact (Hmay eq_refl)].
      1,3: intros a Ha _; apply GW_savedir; auto.
      all: intros a j Ha Hb; unfold curtyp in Hb; rewrite Ec, Ei in Hb; discriminate.
    - (* tls-opt *)
      destruct (mget w (i_val i)) eqn:Em.
      { eapply Hrep; eauto. unfold begins_option; simpl; auto. }
      assert (N1 : i_typ i <> itemEOF) by (rewrite Ei; discriminate).
      assert (N2 : i_typ i <> itemError) by (rewrite Ei; discriminate).
      rewrite (consume_cons p i ts Et N1 N2). cbn [pbind].
      pose proof (wfp_tail p i ts (ps_req p) Hw Et N1 N2) as Hw1.
      apply (espec_sub (b ++ wi :: pre) [i] (stp p ts (ps_req p))); auto.
      pose proof (pArg_spec _ Hw1) as HA.
      destruct (pArg (stp p ts (ps_req p))) as [arg p2|e| |] eqn:EA; simpl in HA; try contradiction.
      + destruct HA as (j & rest & Ej & Ha & -> & Hr & ->). subst ts.
        rewrite stp_stp. cbn [ps_req stp].
        assert (Hw2 : wfp (stp p rest (ps_req p))) by (eapply (wfp_app p [i; j]); eauto).
        apply (espec_sub ((b ++ wi :: pre) ++ [i]) [j] (stp p rest (ps_req p))); auto.
        rewrite <- (app_assoc (b ++ wi :: pre) [i] [j]). change ([i] ++ [j]) with [i; j].
        destruct (beqb (i_val j) (B "off") || beqb (i_val j) (B "no-client")) eqn:Eb.
        * rewrite <- app_assoc. change ((wi :: pre) ++ [i; j]) with (wi :: pre ++ [i; j]).
          apply (IH _ (seen ++ [(i_val i, i_val j)])); auto.
          -- apply WInv_add; [exact HI|]. intros v Hin. exfalso. eapply Hmay'; eauto.
          -- apply options_snoc; auto.
             ++ apply GW_tlsopt; auto. apply orb_true_iff in Eb as [Eb|Eb]; apply beqb_eq in Eb; auto.
             ++ rewrite Ei. exact (Hmay' eq_refl).
        * destruct (wfp_cur _ Hw2) as (k & ts2 & Et2 & Ec2). eapply espec_pos; eauto.
          apply orb_false_iff in Eb as [E1 E2].
          apply W_tlsopt; auto; intros E; rewrite E in *; discriminate.
      + destruct (wfp_cur _ Hw1) as (k & ts2 & Et2 & Ec2). eapply espec_pos; eauto.
        apply W_notlsopt; auto. intros (A1 & A2 & A3). unfold pArg, curtyp in EA. rewrite Ec2 in EA.
        destruct (Nat.ltb_spec (icode (i_typ k)) (icode itemHasValue)) as [Hlt|Hge].
        * destruct (i_typ k); simpl in Hlt; try lia; congruence.
        * rewrite (consume_cons _ k ts2 Et2 A1 A3) in EA. discriminate.
    - (* make-yakker *)
      destruct (mget w (i_val i)) eqn:Em.
      { eapply Hrep; eauto. unfold begins_option; simpl; auto 10. }
      assert (N1 : i_typ i <> itemEOF) by (rewrite Ei; discriminate).
      assert (N2 : i_typ i <> itemError) by (rewrite Ei; discriminate).
      rewrite (consume_cons p i ts Et N1 N2). cbn [pbind].
      pose proof (wfp_tail p i ts (ps_req p) Hw Et N1 N2) as Hw1.
      apply (espec_sub (b ++ wi :: pre) [i] (stp p ts (ps_req p))); auto.
      rewrite <- app_assoc. change ((wi :: pre) ++ [i]) with (wi :: pre ++ [i]).
      apply (IH _ (seen ++ [(i_val i, [])])); auto.
      + apply WInv_add; [exact HI|]. intros v Hin. exfalso. eapply Hmay'; eauto.
      + apply options_snoc; auto.
        * apply GW_yakker; auto.
        * rewrite Ei. exact (Hmay' eq_refl).
  Qed.

  Lemma pWith_err bef p : wfp p -> espec fails bef p (pWith p).
  Proof.
    intros Hw. unfold pWith. destruct (wfp_cur p Hw) as (i & ts & Et & Ec).
    unfold curtyp at 1. rewrite Ec.
    destruct (ieqb_spec (i_typ i) itemWith) as [Ei|Ei]; simpl negb; cbv iota; [|apply espec_ok].
    assert (N1 : i_typ i <> itemEOF) by (rewrite Ei; discriminate).
    assert (N2 : i_typ i <> itemError) by (rewrite Ei; discriminate).
    rewrite (consume_cons p i ts Et N1 N2). cbn [pbind].
    pose proof (wfp_tail p i ts (ps_req p) Hw Et N1 N2) as Hw1.
    apply (espec_sub bef [i] (stp p ts (ps_req p))); auto.
    eapply espec_bind.
    { apply (pWClause_spec _ [] [] false); auto. apply WInv_nil. }
    { apply (pWClause_err bef i Ei _ [] []); auto; [apply WInv_nil|left; auto]. }
    intros r p2 (ts' & rest & kvs & E' & Hr & HG & -> & -> & Hst). simpl in E'.
    rewrite stp_stp in *. cbn [ps_req stp snd fst] in *.
    assert (Hw2 : wfp (stp p rest (ps_req p))).
    { apply (wfp_app p (i :: ts')); auto. rewrite Et, E'. reflexivity. }
    destruct (wfp_cur _ Hw2) as (k & ts2 & Et2 & Ec2).
    assert (Ek : curtyp (stp p rest (ps_req p)) = i_typ k) by (unfold curtyp; rewrite Ec2; reflexivity).
    apply (espec_sub (bef ++ [i]) ts' (stp p rest (ps_req p))); auto.
    rewrite <- app_assoc. change ([i] ++ ts') with (i :: ts').
    destruct (isERule (stp p rest (ps_req p))) eqn:Er; cbn [andb negb].
    - destruct kvs as [|kv kvs]; [|apply espec_ok]. cbn [negb].
      destruct HG as [[-> _]|HG]; [|exfalso; eapply GWiths_ne; eauto].
      eapply espec_pos; eauto. apply W_emptywith; auto. rewrite <- Ek. apply isERule_ends; auto.
    - eapply espec_gen; eauto. intros _. rewrite Ek in Hst. eapply W_badwith; eauto.
      + apply begins_option_start; auto.
      + rewrite <- Ek. apply isERule_ends_not; auto.
  Qed.

  (** *** Rules *)
  Lemma GWithPart_cases ts w : GWithPart ts w ->
    ts = [] /\ w = [] \/ exists k ws kvs, ts = k :: ws /\ i_typ k = itemWith /\ GWiths [] ws kvs.
  Proof. intros [|k ws kvs H1 H2]; [left; auto|right; exists k, ws, kvs; auto]. Qed.

  Lemma pWith_ends p w p' : pWith p = POk w p' ->
    p' = p /\ curtyp p <> itemWith \/ isERule p' = true.
  Proof.
    unfold pWith. destruct (ieqb_spec (curtyp p) itemWith); simpl negb; cbv iota; intros H.
    2:{ injection H as <- <-. auto. }
    right. destruct (consume p) as [u p1|e'| |]; try discriminate. cbn [pbind] in H.
    destruct (pWClause _ _ _ p1) as [wg p2|e'| |]; try discriminate. cbn [pbind] in H.
    destruct (isERule p2) eqn:E.
    - cbn [andb negb] in H. destruct (negb (snd wg)).
      + unfold posError, with_line in H. destruct (lineInfo _ _) as [[? ?]| |]; discriminate.
      + injection H as <- <-. exact E.
    - cbn [andb negb] in H. unfold genError, with_line in H. destruct (lineInfo _ _) as [[? ?]| |]; discriminate.
  Qed.

  Lemma pRClause_err : forall fuel bef p, wfp p -> ntoks p < fuel -> clause_at (ps_res p) bef ->
    espec fails bef p (pRClause fuel p).
  Proof.
    induction fuel as [|n IH]; intros bef p Hw Hf Hca; [lia|]. cbn [pRClause].
    eapply espec_bind.
    { apply spec_and with (R := fun _ p' => curtyp p' <> itemOr).
      - apply pAndl_spec; auto.
      - apply pAndl_not_or. }
    { apply pAndl_err; auto. eapply oa_clause; eauto. }
    intros e p1 [He Hno].
    assert (H1 : exists ts rest r1, ps_toks p = ts ++ rest /\ WfToks rest /\ p1 = stp p rest r1 /\
       term_start (curtyp p1) = false /\
       match e with Some e => GAndl ts e | None => ts = [] end).
    { destruct e as [e|].
      - destruct He as (ts & rest & Et & Hne & HG & Hr & -> & Hts). exists ts, rest, (pmax (ps_req p) (needs e)). auto 10.
      - destruct He as [-> Hts]. exists [], (ps_toks p), (ps_req p). rewrite stp_self. split; auto. split; [apply Hw|auto]. }
    clear He. destruct H1 as (ts & rest & r1 & Et & Hr & -> & Hts & He).
    assert (Hw1 : wfp (stp p rest r1)) by (eapply wfp_app; eauto).
    apply (espec_sub bef ts (stp p rest r1)); auto.
    eapply espec_bind.
    { eapply spec_and; [apply pWith_spec; auto|apply pWith_ends]. }
    { apply pWith_err; auto. }
    intros w p2 [(wts & rest2 & Et2 & HW & Hr2 & ->) Hnw]. simpl in Et2. rewrite stp_stp in *. cbn [ps_req stp] in *.
    assert (Et' : ps_toks p = (ts ++ wts) ++ rest2) by (rewrite Et, Et2, app_assoc; reflexivity).
    assert (Hw2 : wfp (stp p rest2 r1)) by (eapply wfp_app; eauto).
    destruct (wfp_cur _ Hw2) as (k & ts2 & Ek2 & Ec2). simpl in Ek2.
    assert (Ek : curtyp (stp p rest2 r1) = i_typ k) by (unfold curtyp; rewrite Ec2; reflexivity).
    apply (espec_sub (bef ++ ts) wts (stp p rest2 r1)); auto.
    destruct (isERule (stp p rest2 r1)) eqn:Er; simpl negb; cbv iota.
    2:{ destruct Hnw as [[Enw Hnw]|]; [|discriminate].
        injection Enw as Enw. assert (wts = []) as ->.
        { apply (f_equal (@length item)) in Et2. rewrite Enw, app_length in Et2. destruct wts; simpl in Et2; [auto|lia]. }
        simpl in Et2. subst rest2. rewrite app_nil_r.
        eapply espec_gen; eauto. intros _. rewrite Ek in *.
        eapply W_badclause; eauto.
        - destruct e as [e|]; [right; eauto|left; auto].
        - apply begins_match_start; auto.
        - rewrite <- Ek. apply isERule_ends_not; auto. }
    assert (Hends : ends_clause (i_typ k)) by (rewrite <- Ek; apply isERule_ends; auto).
    destruct e as [e|].
    2:{ subst ts. rewrite app_nil_r. eapply espec_line; eauto. eapply W_nothing; eauto.
        destruct (GWithPart_cases _ _ HW) as [[-> _]|(wk & ws & kvs & -> & Hwk & HGw)]; [left; auto|].
        right. exists wk, ws, kvs. auto. }
    set (c := mkClause e w).
    change (set_clauses (ps_clauses (stp p rest2 r1) ++ [c]) (stp p rest2 r1))
      with (stc p rest2 r1 (ps_clauses p ++ [c])).
    set (p3 := stc p rest2 r1 (ps_clauses p ++ [c])).
    assert (Hw3 : wfp p3) by exact Hw2.
    cbn beta zeta.
    destruct (aeqb (ps_res p3) aNoresult && match w with [] => true | _ :: _ => false end) eqn:Esw.
    { apply andb_true_iff in Esw as [E1 E2]. change (ps_res p3) with (ps_res p) in E1.
      destruct (aeqb_spec (ps_res p) aNoresult) as [Ea|]; [|discriminate]. rewrite Ea in Hca.
      assert (wts = []) as ->.
      { destruct HW as [|wk ws kvs Hwk HG]; auto. exfalso.
        destruct (withs_of kvs) eqn:Ew; [|discriminate]. clear -HG Ew.
        destruct kvs as [|kv kvs] using rev_ind; [eapply GWiths_ne; eauto|].
        unfold withs_of in Ew. rewrite fold_left_app in Ew. simpl in Ew.
        pose proof (mget_mset_same (fold_left (fun m kv0 => mset m (fst kv0) (snd kv0)) kvs []) (fst kv) (snd kv)) as H.
        rewrite Ew in H. discriminate. }
      rewrite app_nil_r.
      apply (espec_sub (bef ++ ts) [] p3); auto. rewrite app_nil_r.
      eapply espec_line; eauto. eapply W_setwith; eauto. }
    destruct (isEol p3) eqn:Eol; [apply espec_ok|].
    apply isERule_or in Er.
    assert (Hsc : i_typ k = itemSemicolon).
    { unfold isEol in Eol. change (curtyp p3) with (curtyp (stp p rest2 r1)) in Eol. rewrite Ek in *.
      destruct Er as [E|[E|E]]; auto; rewrite E in Eol; discriminate. }
    assert (N1 : i_typ k <> itemEOF) by (rewrite Hsc; discriminate).
    assert (N2 : i_typ k <> itemError) by (rewrite Hsc; discriminate).
    rewrite (consume_cons p3 k ts2 Ek2 N1 N2). cbn [pbind].
    pose proof (wfp_tail p3 k ts2 (ps_req p3) Hw3 Ek2 N1 N2) as Hw4.
    set (p4 := stp p3 ts2 (ps_req p3)) in *.
    assert (Hlen : ntoks p = length ts + length wts + S (length ts2)).
    { unfold ntoks. rewrite Et', Ek2, !app_length. simpl. lia. }
    assert (Hcl : forall eol, (eol = [] \/ exists e, eol = [e] /\ i_typ e = itemEOL) ->
       clause_at (ps_res p) (((bef ++ ts) ++ wts) ++ k :: eol)).
    { intros eol He'. rewrite <- (app_assoc bef ts wts), <- (app_assoc bef (ts ++ wts)).
      eapply ca_next; eauto. apply GClause_parts; eauto. }
    destruct (ieqb_spec (curtyp p4) itemEOL) as [E4|E4].
    - destruct (wfp_cur p4 Hw4) as (e5 & ts5 & Et5 & Ec5). unfold curtyp in E4. rewrite Ec5 in E4.
      rewrite (consume_cons p4 e5 ts5 Et5) by (rewrite E4; discriminate). cbn [pbind].
      change (ps_toks p4) with ts2 in Et5.
      apply (espec_sub _ [k; e5] (stp p4 ts5 (ps_req p4))); auto.
      { simpl. rewrite Ek2, Et5. reflexivity. }
      apply IH.
      + apply (wfp_tail p4 e5 ts5); auto; rewrite E4; discriminate.
      + unfold ntoks in *. simpl. rewrite Et5 in Hlen. simpl in Hlen. lia.
      + apply (Hcl [e5]). right. eauto.
    - apply (espec_sub _ [k] p4); auto. apply IH; auto.
      + unfold ntoks in *. simpl. lia.
  Qed.

  Lemma pRule_err p : wfp p -> curtyp p <> itemInclude -> espec fails [] p (pRule p).
  Proof.
    intros Hw Hni. unfold pRule.
    set (p0 := mkPS (ps_input p) (ps_toks p) pAny pAny aError [] (ps_tick p)).
    assert (Hw0 : wfp p0) by exact Hw.
    destruct (wfp_cur p0 Hw0) as (i & ts & Et & Ec). cbn beta zeta.
    destruct (ieqb_spec (curtyp p0) itemEOF) as [E|E]; [apply espec_ok|].
    assert (Hph : spec p (pPhase p0) (fun _ p1 => exists pts ph rest, ps_toks p = pts ++ rest /\ GPhase pts ph /\
        WfToks rest /\ p1 = set_defer ph (stp p0 rest pAny) /\ (pts = [] -> phase_of (i_typ i) = None))).
    { unfold pPhase. unfold curtyp. rewrite Ec. pose proof (phases_of (i_typ i)) as Hp.
      destruct (phase_of (i_typ i)) as [ph|] eqn:Ep.
      - destruct Hp as [-> Hne]. destruct (peqb_spec ph pAny) as [|_]; [contradiction|]. simpl negb. cbv iota.
        apply phase_of_ne in Ep as Hn. destruct Hn as (N1 & N2 & _).
        rewrite (consume_cons (set_defer ph p0) i ts Et N1 N2). simpl.
        exists [i], ph, ts. split; auto. split; [constructor; auto|]. split; [|split; [reflexivity|discriminate]].
        apply (wfp_tail p0 i ts pAny); auto.
      - rewrite Hp. simpl. exists [], pAny, (ps_toks p). split; auto. split; [constructor|].
        split; [apply Hw|]. split; [reflexivity|auto]. }
    eapply espec_bind; [exact Hph| |].
    { unfold pPhase. destruct (negb (peqb (phases (curtyp p0)) pAny)); [|apply espec_ok].
      intros e He. apply (consume_err [] (set_defer (phases (curtyp p0)) p0)). exact He. }
    clear Hph. intros _ p1 (pts & ph & rest & Etp & HP & Hr & -> & Hnop).
    set (p1 := set_defer ph (stp p0 rest pAny)).
    assert (Hs1 : sub p1 p) by (split; auto; exists pts; auto).
    assert (Hw1 : wfp p1) by (apply (wfp_sub p); auto).
    destruct (wfp_cur p1 Hw1) as (a & ts1 & Et1 & Ec1).
    apply (espec_sub [] pts p1); auto.
    unfold curtyp. rewrite Ec1. pose proof (actions_of (i_typ a)) as Ha.
    destruct (action_of (i_typ a)) as [act|] eqn:Ea.
    2:{ rewrite Ha. simpl. eapply espec_gen; eauto. intros _. eapply W_action; eauto.
        intros ->. simpl in Etp. change (ps_toks p0) with (ps_toks p) in Et.
        change (ps_toks p1) with rest in Et1. rewrite Et, Et1 in Etp. injection Etp as <- _.
        split; auto. unfold curtyp in E, Hni. rewrite Ec in E. rewrite (cur_of p i ts Et) in Hni. auto. }
    destruct Ha as [-> Hne]. destruct (aeqb_spec act aError) as [|_]; [contradiction|].
    apply action_of_ne in Ea as Hn. destruct Hn as (N1 & N2 & _).
    rewrite (consume_cons (set_res act p1) a ts1 Et1 N1 N2). cbn [pbind].
    set (p2 := stp (set_res act p1) ts1 (ps_req (set_res act p1))).
    change (ps_toks p1) with rest in Et1.
    assert (Hw2 : wfp p2).
    { exact (wfp_tail p1 a ts1 pAny Hw1 Et1 N1 N2). }
    apply (espec_sub _ [a] p2); auto. cbn [app].
    assert (Hca : clause_at act (pts ++ [a])) by (eapply ca_first; eauto).
    eapply espec_bind.
    { apply pRClause_spec; auto. }
    { apply pRClause_err; auto. }
    intros _ p3 (cts & rest3 & cs & Et3 & HG & Hsw & Hr3 & -> & Hol).
    change (ps_toks p2) with ts1 in Et3.
    set (p3 := stc p2 rest3 (pmax (ps_req p2) (needs_clauses cs)) (ps_clauses p2 ++ cs)) in *.
    assert (Hw3 : wfp p3).
    { apply (wfp_sub p2); auto. split; auto. exists cts; auto. }
    assert (Hreq : ps_req p3 = needs_clauses cs) by (simpl; apply pmax_any_l).
    assert (Hdef : ps_defer p3 = ph) by reflexivity.
    destruct (negb (peqb (ps_defer p3) pAny) && pltb (ps_defer p3) (ps_req p3)) eqn:Epc.
    - rewrite Hdef, Hreq in Epc. apply andb_true_iff in Epc as [E1 E2].
      unfold pltb in E2. apply Nat.ltb_lt in E2.
      destruct (wfp_cur p3 Hw3) as (j & ts4 & Et4 & Ec4).
      apply (espec_sub _ cts p3); auto. eapply espec_line; eauto.
      destruct HP as [|t ph Ht]; [discriminate|].
      simpl app. eapply W_phase; eauto. apply isEol_or in Hol. unfold curtyp in Hol. rewrite Ec4 in Hol. exact Hol.
    - intros e He. exfalso. destruct (consume p3) as [u p4|e'| |] eqn:Ec4; simpl in He; try discriminate.
      unfold consume in Ec4. destruct (ieqb (curtyp p3) itemEOF); [discriminate|].
      destruct (ieqb (curtyp p3) itemError); discriminate.
  Qed.
End Blame.

(** *** Files *)
Section BlameFiles.
  Variable load : nat -> bytes -> lres * nat.
  Hypothesis Hload : load_safe load.

  Definition load_fails (t : nat) (f txt : bytes) : Prop := exists t', load t f = (LErr txt, t').

  Lemma pInclude_err p : wfp p -> curtyp p = itemInclude ->
    espec (load_fails (ps_tick p)) [] p (pInclude load p).
  Proof.
    intros Hw Hi. destruct (wfp_cur p Hw) as (k & ts & Et & Ec). unfold curtyp in Hi. rewrite Ec in Hi.
    unfold pInclude.
    assert (N1 : i_typ k <> itemEOF) by (rewrite Hi; discriminate).
    assert (N2 : i_typ k <> itemError) by (rewrite Hi; discriminate).
    rewrite (consume_cons p k ts Et N1 N2). cbn [pbind].
    pose proof (wfp_tail p k ts (ps_req p) Hw Et N1 N2) as Hw1.
    apply (espec_sub _ [] [k] (stp p ts (ps_req p))); auto.
    eapply espec_bind; [apply pArg_spec; auto|apply pArg_err; auto|].
    { unfold wants_argument. rewrite Hi. simpl. auto 20. }
    intros a p2 (j & rest & Ej & Ha & -> & Hr & ->). simpl in Ej. subst ts.
    rewrite stp_stp. cbn [ps_req ps_tick stp].
    pose proof (Hload (ps_tick p) (i_val j)) as Hl.
    destruct (load (ps_tick p) (i_val j)) as [r t'] eqn:El. simpl in Hl.
    set (p3 := set_tick t' (stp p rest (ps_req p))).
    assert (Hw3 : wfp p3).
    { apply (wfp_sub p); auto. split; auto. exists [k; j]; auto. }
    destruct (wfp_cur p3 Hw3) as (e & ts4 & Et4 & Ec4).
    apply (espec_sub _ _ [j] p3); auto. cbn [app].
    destruct r as [rl|txt| |]; try (destruct Hl; congruence).
    - destruct (isEol p3) eqn:Eol; simpl negb; cbv iota.
      + apply (consume_then _ _ p3 (fun _ => rl)).
      + eapply espec_gen; eauto. intros _. unfold isEol, curtyp in Eol. rewrite Ec4 in Eol.
        apply orb_false_iff in Eol as [E1 E2].
        destruct (ieqb_spec (i_typ e) itemEOL), (ieqb_spec (i_typ e) itemEOF); try discriminate.
        apply W_noeol; auto.
    - eapply espec_line; eauto. apply W_include; auto. exists t'. exact El.
  Qed.

  (** the same, after complete lines *)
  Definition FileBlame (p : pstate) (e : perr) : Prop :=
    exists lines line i rest rs t' ln col,
      ps_toks p = lines ++ line ++ i :: rest /\
      (forall z, i_typ z = itemEOF -> GFile (incl_of load) (ps_tick p) (lines ++ [z]) rs t') /\
      lineInfo (ps_input p) (i_pos i) = Ok (ln, col) /\
      ((i_typ i = itemError /\ perr_text e =
          B "at line " ++ itoa ln ++ B " char " ++ itoa col ++ B ": lexing error: " ++ i_val i) \/
       (exists w msg, Wrong (load_fails t') line i w msg /\ (w = Found -> i_typ i <> itemError) /\
          perr_text e = report w ln col msg i)).

  Lemma Blame_File p e : Blame (load_fails (ps_tick p)) [] p e -> FileBlame p e.
  Proof.
    intros (done & i & rest & ln & col & Et & EL & HW).
    exists [], done, i, rest, [], (ps_tick p), ln, col. split; auto. split; [|auto].
    intros z Hz. apply GF_empty; auto.
  Qed.

  Lemma pFile_err : forall fuel acc p e, wfp p -> ntoks p < fuel ->
    pFile load fuel acc p = PErr e -> FileBlame p e.
  Proof.
    induction fuel as [|n IH]; intros acc p e Hw Hf H; [lia|]. cbn [pFile] in H.
    destruct (ieqb_spec (curtyp p) itemInclude) as [Ei|Ei].
    - pose proof (pInclude_spec load Hload p Hw Ei) as HS. pose proof (pInclude_err p Hw Ei) as HE.
      destruct (pInclude load p) as [rl p1|e'| |]; try discriminate.
      2:{ apply Blame_File. apply HE. cbn [pbind] in H. congruence. }
      cbn [pbind] in H. destruct HS as (k & a & ee & rest & Et & Hk & Ha & Hin & Hl & Hend).
      assert (Hlen : ntoks p = S (S (S (length rest)))) by (unfold ntoks; rewrite Et; reflexivity).
      destruct Hend as [(He & Et1 & Hr)|(He & -> & Et1)].
      + assert (Hw1 : wfp p1).
        { apply (wfp_sub p); auto; [|rewrite Et1; auto]. split; auto. exists [k; a; ee]; rewrite Et, Et1; auto. }
        apply IH in H; [|exact Hw1|unfold ntoks in *; rewrite Et1; lia].
        destruct H as (lines & line & i & rest' & rs & t' & ln & col & E1 & HG & EL & HW).
        exists (k :: a :: ee :: lines), line, i, rest', (rl ++ rs), t', ln, col.
        split; [rewrite Et, <- Et1, E1; reflexivity|]. split; [|rewrite <- Hin; auto].
        intros z Hz. simpl. eapply GF_include; eauto.
      + exfalso. destruct n as [|n]; [lia|]. destruct (pFile_EOF load n (acc ++ rl) p1 ee Et1 He) as (p' & Ep & Htk).
        rewrite Ep in H. discriminate.
    - pose proof (pRule_spec p Hw) as HS. pose proof (pRule_err (load_fails (ps_tick p)) p Hw Ei) as HE.
      destruct (pRule p) as [r p1|e'| |]; try discriminate.
      2:{ apply Blame_File. apply HE. cbn [pbind] in H. congruence. }
      cbn [pbind] in H. destruct HS as (Hin & Htk & HR).
      destruct (ieqb_spec (curtyp p1) itemEOF) as [E1|E1]; [discriminate|].
      destruct r as [r|].
      2:{ exfalso. destruct HR as (z & Et & Hz & Et1). apply E1. unfold curtyp, curtok. rewrite Et1. exact Hz. }
      destruct HR as (ts & ee & rest & Et & Hne & HR & Hend).
      destruct Hend as [(He & Et1 & Hr)|(He & -> & Et1)].
      2:{ exfalso. apply E1. unfold curtyp, curtok. rewrite Et1. exact He. }
      assert (Hlen : ntoks p = length ts + S (length rest)) by (unfold ntoks; rewrite Et, app_length; reflexivity).
      assert (Hw1 : wfp p1).
      { apply (wfp_sub p); auto; [|rewrite Et1; auto]. split; auto. exists (ts ++ [ee]). rewrite Et, Et1, <- app_assoc. reflexivity. }
      apply IH in H; [|exact Hw1|unfold ntoks in *; rewrite Et1; lia].
      destruct H as (lines & line & i & rest' & rs & t' & ln & col & E2 & HG & EL & HW).
      exists (ts ++ ee :: lines), line, i, rest', (r :: rs), t', ln, col.
      split; [rewrite Et, <- Et1, E2, <- app_assoc; reflexivity|]. split; [|rewrite <- Hin; auto].
      intros z Hz. rewrite <- app_assoc. simpl. apply GF_rule; auto. rewrite <- Htk. auto.
  Qed.

  Lemma parse_with_complaint t input e : parse_with load t input = PErr e ->
    Complaint (incl_of load) load_fails t input (perr_text e).
  Proof.
    unfold parse_with. intros H. apply pFile_err in H; [|apply pstart_wf|lia].
    destruct H as (lines & line & i & rest & rs & t' & ln & col & Et & HG & EL & HW). simpl in Et, HG, EL.
    pose proof (tokens_Lexes input) as HL. rewrite Et in HL.
    eapply Cm; [exact HL|exact HG|apply lineInfo_LineCol; eauto|].
    destruct HW as [[Hi Ht]|HW]; [left|right; exact HW].
    split; auto. split; auto.
    destruct (Lexes_unreadable _ _ _ _ HL i) as (pos & -> & HU); auto.
    apply in_or_app. right. apply in_elt.
  Qed.
End BlameFiles.

(** ** C78 *)

(** what loading a rules file gives, and with what message it fails *)
Definition file_gives (fds : nat) (fs : rfs) := incl_of (loadRules fds fs).
Definition file_fails (fds : nat) (fs : rfs) := load_fails (loadRules fds fs).

(** Every refusal of [Parse] is a true complaint about the first line that is
    not right: the lines before it are complete and right, and the message is
    right about the word it points at. *)
Theorem C78_error_is_true fds fs input e : parse fds fs input = PFail e ->
  Complaint (file_gives fds fs) (file_fails fds fs) 0 input (perr_text e).
Proof.
  unfold parse. intros H.
  destruct (parse_with (loadRules fds fs) 0 input) as [rs p|e'| |] eqn:E; try discriminate.
  injection H as ->. apply parse_with_complaint; auto. apply loadRules_safe.
Qed.

(** The same for a file that cannot be loaded: it could not be opened, or it
    could not be read, or there is a true complaint about what it holds; what
    that complaint says about included files is again one of these. *)
Theorem C78_load_error_is_true fds fs t name txt t' : loadRules fds fs t name = (LErr txt, t') ->
  match fds with
  | 0 => txt = B "open " ++ name ++ B ": too many open files"
  | S n =>
      rf_read fs t name = inr txt \/
      exists content why, rf_read fs t name = inl content /\
        txt = B "rules parsing error " ++ why /\
        Complaint (file_gives n fs) (file_fails n fs) (S t) content why
  end.
Proof.
  destruct fds as [|n]; cbn [loadRules]; intros H.
  - unfold emfile in H. congruence.
  - destruct (rf_read fs t name) as [content|e]; [right|left; congruence].
    destruct (parse_with (loadRules n fs) (S t) content) as [rs p|e| |] eqn:E; try discriminate.
    exists content, (perr_text e). split; auto. split; [congruence|].
    apply parse_with_complaint; auto. apply loadRules_safe.
Qed.

(** one refusal of each wording, and one by the lexer *)
Example C78_example :
  (exists e, parse 1 no_files (B "accept all" ++ [ch_nl] ++ B "reject from /a or; to b@c") = PFail e /\
     perr_text e = B "at line 2 char 18: empty right side of an OR") /\
  (exists e, parse 1 no_files (B "@helo reject all; from a@b") = PFail e /\
     perr_text e = B "at line 1: rule specifies a phase lower than its operations require so we cannot satisfy the phase requirement") /\
  (exists e, parse 1 no_files (B "reject dns good,from") = PFail e /\
     perr_text e = B "at line 1 char 17: expected valid option, found 'from'") /\
  (exists e, parse 1 no_files (B "stall all with note ""x") = PFail e /\
     perr_text e = B "at line 1 char 21: lexing error: unterminated quoted value").
Proof. repeat split; eexists; split; vm_compute; reflexivity. Qed.

(** a failing include, two files deep *)
Definition bad_files : rfs := {| rf_read := fun _ n =>
  if beqb n (B "a") then inl (B "accept all" ++ [ch_nl] ++ B "include b")
  else if beqb n (B "b") then inl (B "include c d")
  else if beqb n (B "c") then inl (B "set-with all")
  else inr (B "no such file") |}.

Example C78_load_example : exists t',
  loadRules 3 bad_files 0 (B "a") = (LErr
    (B "rules parsing error at line 2: while including 'b': rules parsing error at line 1: " ++
     B "while including 'c': rules parsing error at line 1: 'set-with' rule with no with options"), t').
Proof. eexists. vm_compute. reflexivity. Qed.

Print Assumptions C78_error_is_true.
Print Assumptions C78_load_error_is_true.
