(** Properties of reading rules: C01, C06, C07, C09, C10, C11, C15. *)
From Coq Require Import Relations.
From Verif Require Import Bytes Outcome Lexer LexSpec LexProofs Ast GoNet Parser Grammar
  ParseProofs ParseComplete Layout GramStrip GramFacts PropsLex.

Definition no_files : rfs := {| rf_read := fun _ _ => inr (B "no such file") |}.

(** ** C01 *)

(** Parsing any text, with any contents of the files it includes (which may
    change from one read to the next) and any limit on open files, gives rules
    or an error.  [PCrash] stands for a panic or for not terminating. *)
Theorem C01_parse_terminates fds fs input :
  (exists rs, parse fds fs input = PRules rs) \/ (exists e, parse fds fs input = PFail e).
Proof. apply parse_total. Qed.

(** the same for loading a rules file *)
Theorem C01_load_terminates fds fs tick name :
  (exists rs t, loadRules fds fs tick name = (LRules rs, t)) \/
  (exists e t, loadRules fds fs tick name = (LErr e, t)).
Proof.
  destruct (loadRules_safe fds fs tick name) as [H1 H2].
  destruct (loadRules fds fs tick name) as [[rs|e| |] t]; simpl in *; eauto; congruence.
Qed.

Example C01_example :
  exists r e, parse 2 no_files (B "reject ((not from /x or tls on))) with") = PFail e /\
  parse 2 no_files (B "@from reject not (from /x or tls on) with message ""go (away)""") = PRules [r].
Proof. eexists; eexists; split; vm_compute; reflexivity. Qed.

(** ** C06 *)

(** Loading a file under at most [n] open files, in terms of the grammar:
    the file can be read and its text is derived by the grammar, its include
    lines being loaded with one open file less. *)
Fixpoint Loads (n : nat) (fs : rfs) (t : nat) (name : bytes) (rs : list rule) (t' : nat) : Prop :=
  match n with
  | 0 => False
  | S m => exists text, rf_read fs t name = inl text /\
             GFile (Loads m fs) (S t) (tokens text) rs t'
  end.

Lemma GFile_incl_imp (i1 i2 : nat -> bytes -> list rule -> nat -> Prop) :
  (forall t n rs t', i1 t n rs t' -> i2 t n rs t') ->
  forall t ts rs t', GFile i1 t ts rs t' -> GFile i2 t ts rs t'.
Proof.
  intros H. induction 1.
  - apply GF_empty; auto.
  - apply GF_rule; auto.
  - apply GF_rule_last; auto.
  - eapply GF_include; eauto.
  - eapply GF_include_last; eauto.
Qed.

Lemma Loads_loadRules n fs : forall t name rs t',
  Loads n fs t name rs t' <-> loadRules n fs t name = (LRules rs, t').
Proof.
  induction n as [|n IH]; intros t name rs t'; simpl; [split; [tauto|discriminate]|].
  destruct (rf_read fs t name) as [text|e]; [|split; [intros (x & E & _); discriminate|discriminate]].
  assert (HI : forall ts rs t', GFile (Loads n fs) (S t) ts rs t' <-> GFile (incl_of (loadRules n fs)) (S t) ts rs t').
  { intros. split; apply GFile_incl_imp; intros; apply IH; auto. }
  split.
  - intros (x & [= <-] & HG). apply HI in HG. apply parse_with_iff in HG; [|apply loadRules_safe].
    destruct HG as (p' & -> & <-). reflexivity.
  - intros E. exists text. split; auto. apply HI.
    destruct (parse_with (loadRules n fs) (S t) text) as [rs' p'|e| |] eqn:Ep; try discriminate.
    injection E as <- <-. apply parse_with_iff; [apply loadRules_safe|]. eauto.
Qed.

(** The parser accepts a text exactly when the grammar derives it, with
    exactly the derivation's tree; it refuses every other text. *)
Theorem C06_parser_is_grammar fds fs input rs :
  parse fds fs input = PRules rs <->
  exists t', GFile (Loads fds fs) 0 (tokens input) rs t'.
Proof.
  rewrite parse_rules_iff. split; intros [t' H]; exists t'; revert H; apply GFile_incl_imp;
    intros; apply Loads_loadRules; auto.
Qed.

Theorem C06_refuses_the_rest fds fs input :
  (exists e, parse fds fs input = PFail e) <->
  ~ exists rs t', GFile (Loads fds fs) 0 (tokens input) rs t'.
Proof.
  split.
  - intros [e E] (rs & t' & H).
    assert (parse fds fs input = PRules rs) by (apply C06_parser_is_grammar; eauto). congruence.
  - intros H. destruct (C01_parse_terminates fds fs input) as [[rs E]|He]; auto.
    exfalso. apply H. apply C06_parser_is_grammar in E as [t' HG]. eauto.
Qed.

(** The same for an expression on its own, on every token sequence: the
    parser for a series reads a leading expression and stops where no further
    term can start. *)
Theorem C06_expression_tokens p ts e rest :
  GAndl ts e -> ps_toks p = ts ++ rest ->
  (match rest with [] => True | i :: _ => i_typ i <> itemComma /\ i_typ i <> itemOr /\ term_start (i_typ i) = false end) ->
  pAndl p = POk (Some e) (stp p rest (pmax (ps_req p) (needs e))).
Proof.
  intros HG E Hr. apply (pAndl_complete ts e p rest HG E); destruct rest; simpl in *; try discriminate; tauto.
Qed.

Example C06_example : exists o t',
  GFile (Loads 3 no_files) 0
    (tokens (B "accept from a@b or not tls on;" ++ [ch_nl] ++ B " helo-has none,nodots to x with note hi"))
    [mkRule
      [mkClause (EOr (EMatch MFrom (B "a@b")) (ENot (ETls true))) [];
       mkClause (EAnd [EOpt OHelo o; EMatch MTo (B "x")]) [(B "note", B "hi")]] aAccept pRto pAny] t'.
Proof.
  eexists. apply C06_parser_is_grammar. vm_compute. reflexivity.
Qed.

(** ** C07 *)

Lemma incl_of_det load : forall t n r s r' s',
  incl_of load t n r s -> incl_of load t n r' s' -> r = r' /\ s = s'.
Proof. unfold incl_of. intros. split; congruence. Qed.

(** Every text has at most one reading. *)
Theorem C07_unique_reading fds fs input rs1 t1 rs2 t2 :
  GFile (Loads fds fs) 0 (tokens input) rs1 t1 ->
  GFile (Loads fds fs) 0 (tokens input) rs2 t2 -> rs1 = rs2.
Proof.
  intros H1 H2.
  assert (E1 : parse fds fs input = PRules rs1) by (apply C06_parser_is_grammar; eauto).
  assert (E2 : parse fds fs input = PRules rs2) by (apply C06_parser_is_grammar; eauto).
  congruence.
Qed.

(** pieces that read as a term *)
Definition term_pieces (ps : list piece) (e : expr) : Prop :=
  exists ts, strip ts = map piece_tok ps /\ GTerm ts e.

Lemma piece_item p : exists i, strip [i] = [piece_tok p].
Proof. exists (mkItem (fst (piece_tok p)) (snd (piece_tok p)) 0). simpl. destruct (piece_tok p); reflexivity. Qed.

Lemma needs_clauses_one e w : needs_clauses [mkClause e w] = needs e.
Proof. unfold needs_clauses. simpl. apply pmax_any_r. Qed.

(** A text "accept ..." whose pieces after it read as the series [e]. *)
Lemma parse_accept fds fs src ps ts e :
  wf_source SOL src [] -> pieces src = PcWord (B "accept") :: ps ->
  strip ts = map piece_tok ps -> GAndl ts e ->
  parse fds fs (render src) = PRules [mkRule [mkClause e []] aAccept (needs e) pAny].
Proof.
  intros Hw Ep Hs HG. apply C06_parser_is_grammar. exists 0.
  set (acc := mkItem itemAccept (B "accept") 0). set (eof := mkItem itemEOF [] 0).
  apply (GFile_strip _ _ (acc :: ts ++ [eof])).
  { rewrite strip_tokens, Ep by auto. simpl. rewrite strip_app, Hs. reflexivity. }
  change (acc :: ts ++ [eof]) with ((acc :: ts) ++ [eof]). apply GF_rule_last; [|reflexivity].
  rewrite <- needs_clauses_one with (w := []).
  apply (GR [] pAny acc aAccept ts); auto.
  - constructor.
  - apply GCs_one. apply GC_plain. auto.
  - discriminate.
  - congruence.
Qed.

(** 'a or b c' is '(a or b) c', whatever terms a, b and c are. *)
Theorem C07_or_binds_tighter fds fs src pa pb pc a b c :
  term_pieces pa a -> term_pieces pb b -> term_pieces pc c ->
  wf_source SOL src [] ->
  pieces src = PcWord (B "accept") :: pa ++ PcWord (B "or") :: pb ++ pc ->
  exists ph, parse fds fs (render src) =
    PRules [mkRule [mkClause (EAnd [EOr a b; c]) []] aAccept ph pAny].
Proof.
  intros (ta & Sa & Ga) (tb & Sb & Gb) (tc & Sc & Gc) Hw Ep. eexists.
  eapply (parse_accept fds fs src _ (ta ++ mkItem itemOr (B "or") 0 :: tb ++ tc)); eauto.
  - rewrite !strip_app, map_app. simpl. rewrite strip_app, map_app, Sa, Sb, Sc. reflexivity.
  - apply (GA _ [EOr a b; c]).
    replace (ta ++ mkItem itemOr (B "or") 0 :: tb ++ tc) with ((ta ++ mkItem itemOr (B "or") 0 :: tb) ++ tc)
      by (rewrite <- app_assoc; reflexivity).
    apply GS_more; [apply GOr_or; auto; apply GOr_one; auto|apply GS_one, GOr_one; auto].
Qed.

(** 'c a or b' is 'c (a or b)' *)
Theorem C07_or_binds_tighter_right fds fs src pa pb pc a b c :
  term_pieces pa a -> term_pieces pb b -> term_pieces pc c ->
  wf_source SOL src [] ->
  pieces src = PcWord (B "accept") :: pc ++ pa ++ PcWord (B "or") :: pb ->
  exists ph, parse fds fs (render src) =
    PRules [mkRule [mkClause (EAnd [c; EOr a b]) []] aAccept ph pAny].
Proof.
  intros (ta & Sa & Ga) (tb & Sb & Gb) (tc & Sc & Gc) Hw Ep. eexists.
  eapply (parse_accept fds fs src _ (tc ++ ta ++ mkItem itemOr (B "or") 0 :: tb)); eauto.
  - rewrite !strip_app, !map_app. simpl. rewrite Sa, Sb, Sc. reflexivity.
  - apply (GA _ [c; EOr a b]).
    apply GS_more; [apply GOr_one; auto|apply GS_one, GOr_or; auto; apply GOr_one; auto].
Qed.

(** 'not a or b' is '(not a) or b' *)
Theorem C07_not_binds_tightest fds fs src pa pb a b :
  term_pieces pa a -> term_pieces pb b ->
  wf_source SOL src [] ->
  pieces src = PcWord (B "accept") :: PcWord (B "not") :: pa ++ PcWord (B "or") :: pb ->
  exists ph, parse fds fs (render src) =
    PRules [mkRule [mkClause (EOr (ENot a) b) []] aAccept ph pAny].
Proof.
  intros (ta & Sa & Ga) (tb & Sb & Gb) Hw Ep. eexists.
  eapply (parse_accept fds fs src _ (mkItem itemNot (B "not") 0 :: ta ++ mkItem itemOr (B "or") 0 :: tb)); eauto.
  - simpl. rewrite !strip_app, map_app. simpl. rewrite Sa, Sb. reflexivity.
  - apply (GA _ [EOr (ENot a) b]). apply GS_one.
    change (mkItem itemNot (B "not") 0 :: ta ++ mkItem itemOr (B "or") 0 :: tb)
      with ((mkItem itemNot (B "not") 0 :: ta) ++ mkItem itemOr (B "or") 0 :: tb).
    apply GOr_or; auto; [apply GT_not; auto|apply GOr_one; auto].
Qed.

(** parentheses override both: 'not (a or b)', 'a or (b c)' *)
Theorem C07_parentheses fds fs src pa pb a b :
  term_pieces pa a -> term_pieces pb b ->
  wf_source SOL src [] ->
  pieces src = PcWord (B "accept") :: PcWord (B "not") :: PcPunct "(" :: pa ++ PcWord (B "or") :: pb ++ [PcPunct ")"] ->
  exists ph, parse fds fs (render src) =
    PRules [mkRule [mkClause (ENot (EOr a b)) []] aAccept ph pAny].
Proof.
  intros (ta & Sa & Ga) (tb & Sb & Gb) Hw Ep. eexists.
  set (l := mkItem itemLparen (B "(") 0). set (r := mkItem itemRparen (B ")") 0).
  eapply (parse_accept fds fs src _ (mkItem itemNot (B "not") 0 :: l :: (ta ++ mkItem itemOr (B "or") 0 :: tb) ++ [r])); eauto.
  - simpl. rewrite !strip_app, map_app. simpl. rewrite map_app, Sa, Sb. rewrite <- app_assoc. reflexivity.
  - apply (GA _ [ENot (EOr a b)]). apply GS_one, GOr_one. apply GT_not; [reflexivity|].
    apply GT_paren; auto. apply (GA _ [EOr a b]). apply GS_one, GOr_or; auto. apply GOr_one; auto.
Qed.
Theorem C07_parentheses_series fds fs src pa pb pc a b c :
  term_pieces pa a -> term_pieces pb b -> term_pieces pc c ->
  wf_source SOL src [] ->
  pieces src = PcWord (B "accept") :: pa ++ PcWord (B "or") :: PcPunct "(" :: pb ++ pc ++ [PcPunct ")"] ->
  exists ph, parse fds fs (render src) =
    PRules [mkRule [mkClause (EOr a (EAnd [b; c])) []] aAccept ph pAny].
Proof.
  intros (ta & Sa & Ga) (tb & Sb & Gb) (tc & Sc & Gc) Hw Ep. eexists.
  set (l := mkItem itemLparen (B "(") 0). set (r := mkItem itemRparen (B ")") 0).
  eapply (parse_accept fds fs src _ (ta ++ mkItem itemOr (B "or") 0 :: l :: (tb ++ tc) ++ [r])); eauto.
  - rewrite !strip_app, map_app. simpl. rewrite !strip_app, !map_app, Sa, Sb, Sc. rewrite <- app_assoc. reflexivity.
  - apply (GA _ [EOr a (EAnd [b; c])]). apply GS_one, GOr_or; auto. apply GOr_one.
    apply GT_paren; auto. apply (GA _ [b; c]). apply GS_more; [apply GOr_one; auto|apply GS_one, GOr_one; auto].
Qed.

Example C07_example :
  term_pieces [PcWord (B "not"); PcPunct "("; PcWord (B "from"); PcWord (B "x"); PcPunct ")"] (ENot (EMatch MFrom (B "x"))) /\
  term_pieces [PcWord (B "tls"); PcWord (B "on")] (ETls true) /\
  (exists ph, parse 1 no_files (B "accept not(from x) or tls on all") =
     PRules [mkRule [mkClause (EAnd [EOr (ENot (EMatch MFrom (B "x"))) (ETls true); EAll]) []] aAccept ph pAny]).
Proof.
  split; [|split].
  - exists [mkItem itemNot (B "not") 0; mkItem itemLparen (B "(") 3; mkItem itemFrom (B "from") 4;
            mkItem itemValue (B "x") 9; mkItem itemRparen (B ")") 10]. split; [reflexivity|].
    apply GT_not; [reflexivity|].
    apply (GT_paren (mkItem itemLparen (B "(") 3) [mkItem itemFrom (B "from") 4; mkItem itemValue (B "x") 9]
            (mkItem itemRparen (B ")") 10)); [reflexivity|reflexivity|].
    apply (GA _ [EMatch MFrom (B "x")]). apply GS_one, GOr_one.
    apply (GT_match (mkItem itemFrom (B "from") 4) MFrom (mkItem itemValue (B "x") 9)); [reflexivity|repeat split; discriminate].
  - exists [mkItem itemTls (B "tls") 0; mkItem itemOn (B "on") 4]. split; [reflexivity|].
    apply (GT_tls _ _ true); reflexivity.
  - eexists. vm_compute. reflexivity.
Qed.

(** ** C09 *)

(** the match operators of an expression *)
Fixpoint operators (e : expr) : list expr :=
  match e with
  | EAnd l => (fix go l := match l with [] => [] | x :: l' => operators x ++ go l' end) l
  | ENot e => operators e
  | EOr a b => operators a ++ operators b
  | x => [x]
  end.

(** from the documentation: when the information an operator looks at is there *)
Definition operator_phase (e : expr) : phase :=
  match e with
  | EMatch MFrom _ | EOpt OFromHas _ | ESource _ | ETls _ => pMfrom
  | EMatch MTo _ | EOpt OToHas _ => pRto
  | EMatch MHelo _ | EOpt OHelo _ => pHelo
  | EDbl o _ => if ohas o oFrom then pMfrom else if ohas o oEhlo then pHelo else pAny
  | _ => pAny
  end.

Definition rule_operators (r : rule) : list expr :=
  flat_map (fun c => operators (rc_expr c)) (r_clauses r).

Definition rule_phase_ok (r : rule) : Prop :=
  (forall o, In o (rule_operators r) -> pcode (operator_phase o) <= pcode (r_requires r)) /\
  (r_requires r = pAny \/ exists o, In o (rule_operators r) /\ operator_phase o = r_requires r) /\
  (r_deferto r = pAny \/ pcode (r_requires r) <= pcode (r_deferto r)).

(** [x] is the latest of the phases of [l] *)
Definition latest (x : phase) (l : list phase) : Prop :=
  (forall y, In y l -> pcode y <= pcode x) /\ (x = pAny \/ In x l).

Lemma latest_nil : latest pAny [].
Proof. split; [intros y []|auto]. Qed.
Lemma latest_one x : latest x [x].
Proof. split; [intros y [<-|[]]; auto|simpl; auto]. Qed.
Lemma latest_app x y l m : latest x l -> latest y m -> latest (pmax x y) (l ++ m).
Proof.
  intros [A1 A2] [B1 B2]. split.
  - intros z Hz. rewrite pcode_pmax. apply in_app_or in Hz as [Hz|Hz]; [apply A1 in Hz|apply B1 in Hz]; lia.
  - unfold pmax. destruct (pltb x y); [destruct B2|destruct A2]; auto; right; apply in_or_app; auto.
Qed.

Lemma needs_latest e : latest (needs e) (map operator_phase (operators e)).
Proof.
  induction e as [l IH|e IH|a b IHa IHb| | | |k a| | |k o] using expr_ind'.
  - simpl. induction IH as [|x l Hx Hl IHl]; simpl; [apply latest_nil|].
    rewrite map_app. apply latest_app; auto.
  - exact IH.
  - simpl. rewrite map_app. apply latest_app; auto.
  - apply (latest_one pAny).
  - apply (latest_one pMfrom).
  - apply (latest_one pAny).
  - destruct k; apply latest_one.
  - apply (latest_one pMfrom).
  - apply (latest_one (operator_phase (EDbl s d))).
  - destruct k; apply latest_one.
Qed.

Lemma needs_clauses_latest cs :
  latest (needs_clauses cs) (map operator_phase (flat_map (fun c => operators (rc_expr c)) cs)).
Proof.
  unfold needs_clauses. induction cs as [|c cs IH]; simpl; [apply latest_nil|].
  rewrite map_app. apply latest_app; auto. apply needs_latest.
Qed.

(** Lifting a property of single rules to everything read from a text and the
    files it includes. *)
Lemma GFile_lift (P : rule -> Prop) (Q : item -> Prop) (incl : nat -> bytes -> list rule -> nat -> Prop) :
  (forall ts r, Forall Q ts -> GRule ts r -> P r) ->
  (forall t n rs t', incl t n rs t' -> Forall P rs) ->
  forall t ts rs t', GFile incl t ts rs t' -> Forall Q ts -> Forall P rs.
Proof.
  intros HP HI. induction 1 as [e t0 He|t0 ts r e rest rs t1 Hr He HG IHG|t0 ts r e Hr He
    |t0 k a e rest rl rs t1 t2 Hk Ha He Hi HG IHG|t0 k a e rl t1 Hk Ha He Hi]; intros HF.
  - constructor.
  - apply Forall_app in HF as [H1 H2]. inversion H2; subst. constructor; eauto.
  - apply Forall_app in HF as [H1 H2]. constructor; eauto.
  - inversion HF as [|? ? ? HF1]; subst. inversion HF1 as [|? ? ? HF2]; subst. inversion HF2; subst.
    apply Forall_app. split; eauto.
  - eauto.
Qed.

Lemma Loads_lift (P : rule -> Prop) (Q : item -> Prop) :
  (forall text i, In i (tokens text) -> Q i) ->
  (forall ts r, Forall Q ts -> GRule ts r -> P r) ->
  forall n fs t name rs t', Loads n fs t name rs t' -> Forall P rs.
Proof.
  intros HQ HP. induction n as [|n IH]; intros fs t name rs t' H; simpl in H; [contradiction|].
  destruct H as (text & _ & HG).
  eapply GFile_lift; eauto. apply Forall_forall; apply HQ.
Qed.

Lemma parse_lift (P : rule -> Prop) (Q : item -> Prop) :
  (forall text i, In i (tokens text) -> Q i) ->
  (forall ts r, Forall Q ts -> GRule ts r -> P r) ->
  forall fds fs input rs, parse fds fs input = PRules rs -> forall r, In r rs -> P r.
Proof.
  intros HQ HP fds fs input rs E r Hr. apply C06_parser_is_grammar in E as [t' HG].
  assert (HF : Forall P rs); [|rewrite Forall_forall in HF; auto].
  eapply GFile_lift; eauto; [|apply Forall_forall; apply HQ].
  intros. eapply Loads_lift; eauto.
Qed.

(** In every rule that parses, directly or through included files, the
    required phase is the latest one its operators need, and an explicit phase
    is not earlier than that. *)
Theorem C09_required_phase fds fs input rs r :
  parse fds fs input = PRules rs -> In r rs -> rule_phase_ok r.
Proof.
  intros E Hr. revert r Hr.
  apply (parse_lift rule_phase_ok (fun _ => True)) with (fds := fds) (fs := fs) (input := input); auto.
  intros ts r _ [pts ph a act ts' cs Hp Ha Hc Hsw Hph].
  destruct (needs_clauses_latest cs) as [L1 L2]. unfold rule_phase_ok, rule_operators. simpl.
  split; [|split].
  - intros o Ho. apply L1. apply in_map. exact Ho.
  - destruct L2 as [L2|L2]; [left; exact L2|right]. apply in_map_iff in L2 as (o & Eo & Ho). eauto.
  - destruct (peqb_spec ph pAny); [left|right]; auto.
Qed.

(** Whole lines, ended by a line end (or no line at all). *)
Definition complete_lines (src : source) : Prop :=
  wf_source SOL src [] /\ mode_end SOL src = SOL /\ ~ ends_tight src.

Lemma complete_lines_wf src k : complete_lines src -> wf_source SOL src k.
Proof. intros (H1 & H2 & H3). eapply wf_source_follow; eauto. Qed.

Lemma pieces_app x y : pieces (x ++ y) = pieces x ++ pieces y.
Proof. induction x as [|[l|p] x IH]; simpl; auto. now rewrite IH. Qed.

Lemma mode_end_lines src : mode_end SOL src = SOL ->
  pieces src = [] \/ exists ps, pieces src = ps ++ [PcEOL].
Proof.
  induction src as [|e src IH] using rev_ind; auto.
  rewrite mode_end_app, pieces_app. destruct e as [l|p]; simpl.
  - rewrite app_nil_r. auto.
  - destruct p; try discriminate. right. eauto.
Qed.

(** items for given pieces *)
Definition fake (ps : list piece) : list item :=
  map (fun p => mkItem (fst (piece_tok p)) (snd (piece_tok p)) 0) ps.
Lemma fake_strip ps : strip (fake ps) = map piece_tok ps.
Proof. unfold fake, strip. rewrite map_map. apply map_ext. intros p. simpl. now destruct (piece_tok p). Qed.

Lemma fake_lines src : mode_end SOL src = SOL -> lines_complete (fake (pieces src)).
Proof.
  intros H. destruct (mode_end_lines src H) as [->|(ps & ->)]; [left; reflexivity|right].
  unfold fake. rewrite map_app. eexists; eexists; split; [reflexivity|reflexivity].
Qed.

Lemma Loads_det n fs t name r s r' s' : Loads n fs t name r s -> Loads n fs t name r' s' -> r = r' /\ s = s'.
Proof. rewrite !Loads_loadRules. intros. split; congruence. Qed.

(** Reading complete lines followed by more text. *)
Lemma lines_then (incl : nat -> bytes -> list rule -> nat -> Prop) src k rs1 t1 :
  (forall t n r s r' s', incl t n r s -> incl t n r' s' -> r = r' /\ s = s') ->
  complete_lines src -> forall t, GFile incl t (tokens (render src)) rs1 t1 ->
  forall rs t2, GFile incl t (tokens (render src ++ k)) rs t2 <->
    exists rs2, rs = rs1 ++ rs2 /\ GFile incl t1 (tokens k) rs2 t2.
Proof.
  intros Hdet Hc t G1 rs t2. pose proof Hc as (W & M & T).
  set (eof := mkItem itemEOF [] 0). set (A := fake (pieces src)).
  assert (S1 : strip (tokens (render src)) = strip (A ++ [eof])).
  { unfold A. rewrite strip_tokens, strip_app, fake_strip by auto. reflexivity. }
  assert (S2 : strip (tokens (render src ++ k)) = strip (A ++ tokens k)).
  { unfold A. rewrite tokens_concat, strip_app, fake_strip by (auto using complete_lines_wf). reflexivity. }
  apply (GFile_strip _ _ _ _ _ _ S1) in G1. rewrite (GFile_strip _ _ _ _ _ _ S2). split.
  - intros G. eapply GFile_app_inv; eauto. apply fake_lines; auto.
  - intros (rs2 & -> & G). eapply GFile_app; eauto. apply fake_lines; auto.
Qed.

(** Where the clauses of a rule end is determined by the tokens. *)
Lemma GClauses_split ts cs e rest ts' cs' e' rest' :
  GClauses ts cs -> GClauses ts' cs' -> ts ++ e :: rest = ts' ++ e' :: rest' ->
  (i_typ e = itemEOL \/ i_typ e = itemEOF) -> (i_typ e' = itemEOL \/ i_typ e' = itemEOF) ->
  ts = ts' /\ cs = cs' /\ e = e' /\ rest = rest'.
Proof.
  intros H1 H2 E He He'. set (acc := mkItem itemAccept (B "accept") 0).
  assert (R : forall t c, GClauses t c -> GRule (acc :: t) (mkRule c aAccept (needs_clauses c) pAny)).
  { intros t c H. apply (GR [] pAny acc aAccept t c); auto; [constructor|discriminate|congruence]. }
  destruct (GRule_split _ _ e rest _ _ e' rest' (R _ _ H1) (R _ _ H2)) as (A & C & D & F); auto.
  - simpl. now rewrite E.
  - injection A as A. injection C as C _. auto.
Qed.

(** A rule with an explicit phase too early for one of its operators is a
    parse error, after any complete lines and before anything. *)
Theorem C09_too_early_is_error fds fs src1 rs1 src2 k ph q a act ts cs o :
  complete_lines src1 -> parse fds fs (render src1) = PRules rs1 ->
  wf_source SOL src2 (ch_nl :: k) -> mode_end SOL src2 = INL ->
  map piece_tok (pieces src2) = strip (ph :: a :: ts) ->
  phase_of (i_typ ph) = Some q -> action_of (i_typ a) = Some act -> GClauses ts cs ->
  In o (flat_map (fun c => operators (rc_expr c)) cs) -> pcode q < pcode (operator_phase o) ->
  exists e, parse fds fs (render src1 ++ render src2 ++ ch_nl :: k) = PFail e.
Proof.
  intros C1 E1 W2 M2 Ep Hq Ha Hc Ho Hlt.
  destruct (parse_total fds fs (render src1 ++ render src2 ++ ch_nl :: k)) as [[rs E]|H]; auto. exfalso.
  apply C06_parser_is_grammar in E1 as [t1 G1]. apply C06_parser_is_grammar in E as [t2 G2].
  apply (lines_then _ src1 _ rs1 t1 (Loads_det fds fs) C1 0 G1) in G2 as (rs2 & -> & G2).
  set (eol := mkItem itemEOL [ch_nl] 0).
  assert (S2 : strip (tokens (render src2 ++ ch_nl :: k)) = strip ((ph :: a :: ts) ++ eol :: tokens k)).
  { replace (render src2 ++ ch_nl :: k) with (render (src2 ++ [Pc PcEOL]) ++ k)
      by (rewrite render_app, <- app_assoc; reflexivity).
    rewrite tokens_concat.
    - rewrite pieces_app, map_app, Ep, strip_app. simpl. rewrite <- app_assoc. reflexivity.
    - apply wf_source_app. split; [exact W2|]. rewrite M2. simpl. auto.
    - rewrite mode_end_app, M2. reflexivity. }
  apply (GFile_strip _ _ _ _ _ _ S2) in G2.
  assert (HK : forall ts3 r3 e3 rest3, GRule ts3 r3 -> (i_typ e3 = itemEOL \/ i_typ e3 = itemEOF) ->
    ts3 ++ e3 :: rest3 = (ph :: a :: ts) ++ eol :: tokens k -> False).
  { intros ts3 r3 e3 rest3 [pts ph3 a3 act3 ts4 cs4 Hp Ha3 Hc3 Hsw3 Hph3] He3 E3.
    destruct Hp as [|t ph3 Hp].
    - simpl in E3. injection E3 as -> _. destruct (i_typ ph); discriminate.
    - simpl in E3. injection E3 as -> -> E3.
      destruct (GClauses_split _ _ _ _ _ _ _ _ Hc3 Hc E3 He3 (or_introl eq_refl)) as (-> & -> & _).
      pose proof (needs_clauses_latest cs) as [L1 _].
      assert (pcode (operator_phase o) <= pcode (needs_clauses cs)) by (apply L1; apply in_map; auto).
      assert (ph3 = q) by congruence. subst ph3.
      assert (q <> pAny) by (intros ->; destruct (i_typ ph); discriminate). specialize (Hph3 H0). lia. }
  inversion G2 as [e2 t2' He2 E2 E3|t0 ts3 r3 e3 rest3 rs3 t3' HR3 He3 HF3 Et3 E3|t0 ts3 r3 e3 HR3 He3 Et3 E3
      |t0 k3 a3 e3 rest3 rl3 rs3 t3 t3' Hk3 Ha3 He3 Hi3 HF3 Et3 E3|t0 k3 a3 e3 rl3 t3 Hk3 Ha3 He3 Hi3 Et3 E3].
  - eapply HK; eauto.
  - eapply HK; eauto.
  - subst k3. rewrite Hk3 in Hq. discriminate.
  - subst k3. rewrite Hk3 in Hq. discriminate.
Qed.

Example C09_example : exists r e,
  parse 3 no_files (B "@data reject helo-has none or (not dbl helo,from dbl.example.org to /x)") = PRules [r] /\
  r_requires r = pRto /\ r_deferto r = pData /\
  parse 3 no_files (B "@helo reject helo-has none or (not dbl helo,from dbl.example.org)" ++ [ch_nl]) = PFail e.
Proof. eexists; eexists. vm_compute. repeat split; reflexivity. Qed.

(** ** C10 *)

(** Keyword items carry the keyword's text. *)
Definition keyword_text (i : item) : Prop :=
  (i_typ i = itemMessage -> i_val i = B "message") /\
  (i_typ i = itemNote -> i_val i = B "note") /\
  (i_typ i = itemSavedir -> i_val i = B "savedir") /\
  (i_typ i = itemTlsOpt -> i_val i = B "tls-opt") /\
  (i_typ i = itemMakeYakker -> i_val i = B "make-yakker").

Lemma word_keyword w t p : word_type w = Some t -> keyword_text (mkItem t w p).
Proof.
  unfold word_type. destruct (mget keywords w) as [k|] eqn:E.
  - intros [= ->]. apply mget_In in E. unfold keyword_text. cbn [i_typ i_val].
    repeat (destruct E as [E|E];
      [injection E as <- <-; repeat split; intros H; (discriminate || reflexivity)|]). destruct E.
  - intros H. assert (Ht : t = itemFilename \/ t = itemValue).
    { destruct (_ || _); [injection H as <-; auto|].
      destruct (has_prefix _ _); [|injection H as <-; auto].
      destruct (beqb _ _); [discriminate|injection H as <-; auto]. }
    destruct Ht as [-> | ->]; repeat split; discriminate.
Qed.

Lemma Lexes_keyword m p s ts : Lexes m p s ts -> Forall keyword_text ts.
Proof.
  induction 1; auto; repeat (apply Forall_cons || apply Forall_nil); auto;
    try (apply word_keyword; assumption);
    try (repeat split; cbn [i_typ]; discriminate).
  assert (Ht : t = itemLparen \/ t = itemRparen \/ t = itemSemicolon).
  { unfold punct_type in *.
    repeat match goal with H : (if ?b then _ else _) = _ |- _ => destruct b end;
    try discriminate; match goal with H : Some _ = Some _ |- _ => injection H as <- end; auto. }
  destruct Ht as [-> | [-> | ->]]; repeat split; discriminate.
Qed.

Lemma tokens_keyword text i : In i (tokens text) -> keyword_text i.
Proof.
  intros H. pose proof (Lexes_keyword _ _ _ _ (tokens_Lexes text)) as HF.
  rewrite Forall_forall in HF. auto.
Qed.

(** the options of a clause *)
Definition withs_ok (w : smap bytes) : Prop := forall k v, mget w k = Some v ->
  (k = B "message" \/ k = B "note" \/ k = B "savedir" \/ k = B "tls-opt" \/ k = B "make-yakker") /\
  (k = B "tls-opt" -> v = B "off" \/ v = B "no-client") /\
  (k = B "note" -> ~ In ch_nl v).

Definition rule_withs_ok (r : rule) : Prop := forall c, In c (r_clauses r) ->
  withs_ok (rc_withs c) /\ (r_result r = aNoresult -> rc_withs c <> []).

Definition kv_ok (kv : bytes * bytes) : Prop :=
  (fst kv = B "message" \/ fst kv = B "note" \/ fst kv = B "savedir" \/ fst kv = B "tls-opt" \/
   fst kv = B "make-yakker") /\
  (fst kv = B "tls-opt" -> snd kv = B "off" \/ snd kv = B "no-client") /\
  (fst kv = B "note" -> ~ In ch_nl (snd kv)).

Lemma GWterm_ok ts kv : Forall keyword_text ts -> GWterm ts kv -> kv_ok kv.
Proof.
  intros HF H. destruct H; inversion HF as [|x l (K1 & K2 & K3 & K4 & K5)]; subst; unfold kv_ok; cbn [fst snd].
  - rewrite K1 by auto. split; auto. split; intros E; discriminate.
  - rewrite K3 by auto. split; auto. split; intros E; discriminate.
  - rewrite K2 by auto. split; auto. split; intros E; [discriminate|auto].
  - rewrite K4 by auto. split; [tauto|]. split; intros E; [auto|discriminate].
  - rewrite K5 by auto. split; [tauto|]. split; intros E; discriminate.
Qed.

Lemma GWiths_kv_ok seen ts kvs : GWiths seen ts kvs -> Forall keyword_text ts -> Forall kv_ok kvs.
Proof.
  induction 1 as [seen k ts kv H Hm|seen k ts kv ts' kvs H Hm HW IH]; intros HF.
  - constructor; [exact (GWterm_ok _ _ HF H)|constructor].
  - change (k :: ts ++ ts') with ((k :: ts) ++ ts') in HF. apply Forall_app in HF as [H1 H2].
    constructor; [exact (GWterm_ok _ _ H1 H)|auto].
Qed.

Lemma withs_of_ok kvs : Forall kv_ok kvs -> withs_ok (withs_of kvs).
Proof.
  unfold withs_of. assert (H0 : withs_ok []) by (intros k v H; discriminate).
  revert H0. generalize (@nil (bytes * bytes)). induction kvs as [|[k v] kvs IH]; intros m Hm HF; simpl; auto.
  inversion HF as [|? ? Hkv HF']; subst. apply IH; auto.
  intros k' v' H. simpl in H. destruct (beqb_spec k' k) as [->|Hne].
  - rewrite mget_mset_same in H. injection H as <-. exact Hkv.
  - rewrite mget_mset_other in H by auto. auto.
Qed.

(** In every rule that parses, directly or through included files: only the
    documented options, with the documented values, and at least one of them
    in each clause of a set-with rule. *)
Theorem C10_with_options fds fs input rs r :
  parse fds fs input = PRules rs -> In r rs -> rule_withs_ok r.
Proof.
  intros E Hr. revert r Hr.
  apply (parse_lift rule_withs_ok keyword_text) with (fds := fds) (fs := fs) (input := input); auto.
  { apply tokens_keyword. }
  intros ts r HF HR. revert HF. destruct HR as [pts ph a act ts' cs Hp Ha Hc Hsw Hph]. intros HF c Hin. simpl in *.
  split; [|intros Hact; apply (Hsw Hact c Hin)].
  apply Forall_app in HF as [_ HF]. inversion HF as [|? ? _ HF']; subst. clear - Hc HF' Hin.
  revert HF' Hin. induction Hc as [ts c0 H0|ts c0 s eol ts' cs H0 Hs He Hcs IH]; intros HF Hin.
  - destruct Hin as [<-|[]]. revert HF. destruct H0 as [ts e H|ts e w wts kvs H Hw HW]; simpl; intros HF.
    + intros k v Hk. discriminate.
    + apply Forall_app in HF as [_ HF]. inversion HF; subst. apply withs_of_ok. eapply GWiths_kv_ok; eauto.
  - apply Forall_app in HF as [HF1 HF2]. inversion HF2 as [|? ? _ HF3]; subst. apply Forall_app in HF3 as [_ HF4].
    destruct Hin as [<-|Hin]; [|auto]. revert HF1. clear HF2. destruct H0 as [ts e H|ts e w wts kvs H Hw HW]; simpl; intros HF1.
    + intros k v Hk. discriminate.
    + apply Forall_app in HF1 as [_ HF1]. inversion HF1; subst. apply withs_of_ok. eapply GWiths_kv_ok; eauto.
Qed.

(** The options as written, with no condition on repeats. *)
Inductive reads_withs : list item -> list (bytes * bytes) -> Prop :=
| rw_one ts kv : GWterm ts kv -> reads_withs ts [kv]
| rw_more ts kv ts' kvs : GWterm ts kv -> reads_withs ts' kvs -> reads_withs (ts ++ ts') (kv :: kvs).

(** an option given with a value and given again, or an option that takes no
    free text given twice *)
Definition repeats (kvs : list (bytes * bytes)) : Prop :=
  exists a k v b w c, kvs = a ++ (k, v) :: b ++ (k, w) :: c /\
    (v <> [] \/ k = B "tls-opt" \/ k = B "make-yakker").

Definition single_use (k : bytes) : bool := beqb k (B "tls-opt") || beqb k (B "make-yakker").

Fixpoint allowed (seen kvs : list (bytes * bytes)) : Prop :=
  match kvs with
  | [] => True
  | (k, w) :: r => (forall v, In (k, v) seen -> v = [] /\ single_use k = false) /\ allowed (seen ++ [(k, w)]) r
  end.

Lemma single_use_iff k : single_use k = true <-> k = B "tls-opt" \/ k = B "make-yakker".
Proof. unfold single_use. rewrite orb_true_iff, !beqb_eq. tauto. Qed.

Lemma allowed_spec kvs : forall seen, allowed seen kvs <->
  forall pre k w post, kvs = pre ++ (k, w) :: post ->
  forall v, In (k, v) (seen ++ pre) -> v = [] /\ single_use k = false.
Proof.
  induction kvs as [|[k w] kvs IH]; intros seen; simpl.
  - split; auto. intros _ pre k w post E. destruct pre; discriminate.
  - rewrite IH. split.
    + intros [H1 H2] pre k' w' post E v Hv. destruct pre as [|x pre]; simpl in E.
      * injection E as <- <- <-. rewrite app_nil_r in Hv. auto.
      * injection E as <- E2. eapply H2; eauto. rewrite <- app_assoc. exact Hv.
    + intros H. split.
      * intros v Hv. apply (H [] k w kvs); auto. rewrite app_nil_r. auto.
      * intros pre k' w' post -> v Hv. apply (H ((k, w) :: pre) k' w' post); auto.
        rewrite <- app_assoc in Hv. exact Hv.
Qed.

Lemma allowed_repeats kvs : allowed [] kvs <-> ~ repeats kvs.
Proof.
  rewrite allowed_spec. split.
  - intros H (a & k & v & b & w & c & -> & Hr).
    destruct (H (a ++ (k, v) :: b) k w c) with (v := v) as [H1 H2].
    + rewrite <- app_assoc. reflexivity.
    + simpl. apply in_elt.
    + destruct Hr as [Hr|Hr]; [auto|]. apply single_use_iff in Hr. congruence.
  - intros H pre k w post -> v Hv. simpl in Hv. apply in_split in Hv as (a & b & ->).
    assert (HC : v = [] \/ v <> []) by (destruct v; [left|right]; congruence).
    destruct HC as [->|Hne].
    + split; auto. destruct (single_use k) eqn:Es; auto. exfalso. apply H.
      exists a, k, [], b, w, post. rewrite <- app_assoc. split; auto. right. apply single_use_iff; auto.
    + exfalso. apply H. exists a, k, v, b, w, post. rewrite <- app_assoc. auto.
Qed.

Lemma may_add_iff i ts kv seen : keyword_text i -> GWterm (i :: ts) kv ->
  (may_add (i_typ i) (i_val i) seen <-> forall v, In (fst kv, v) seen -> v = [] /\ single_use (fst kv) = false).
Proof.
  intros (K1 & K2 & K3 & K4 & K5) H. inversion H; subst;
    match goal with E : i_typ i = _ |- _ => rewrite E end; cbn [may_add fst];
    rewrite ?K1, ?K2, ?K3, ?K4, ?K5 by assumption.
  - split; [intros Hm v Hv; split; [eauto|reflexivity]|intros Hm v Hv; apply Hm in Hv; tauto].
  - split; [intros Hm v Hv; split; [eauto|reflexivity]|intros Hm v Hv; apply Hm in Hv; tauto].
  - split; [intros Hm v Hv; split; [eauto|reflexivity]|intros Hm v Hv; apply Hm in Hv; tauto].
  - split; [intros Hm v Hv; exfalso; exact (Hm v Hv)|intros Hm v Hv; apply Hm in Hv as [_ Hv]; discriminate].
  - split; [intros Hm v Hv; exfalso; exact (Hm v Hv)|intros Hm v Hv; apply Hm in Hv as [_ Hv]; discriminate].
Qed.

Lemma GWterm_cons ts kv : GWterm ts kv -> exists i ts', ts = i :: ts'.
Proof. destruct 1; eauto. Qed.

(** What the parser takes as the options of a clause (in the sense of C06) is
    any sequence of options without such repeats. *)
Theorem C10_no_repeats ts kvs : Forall keyword_text ts ->
  (GWiths [] ts kvs <-> reads_withs ts kvs /\ ~ repeats kvs).
Proof.
  rewrite <- allowed_repeats. generalize (@nil (bytes * bytes)) as seen.
  intros seen HF. split.
  - intros H. induction H as [seen k ts kv H Hm|seen k ts kv ts' kvs H Hm HW IH].
    + split; [apply rw_one; auto|]. destruct kv as [kk vv]. simpl. split; auto.
      inversion HF; subst. apply (proj1 (may_add_iff k ts (kk, vv) seen ltac:(assumption) H)); auto.
    + change (k :: ts ++ ts') with ((k :: ts) ++ ts') in *. apply Forall_app in HF as [H1 H2].
      destruct (IH H2) as [IH1 IH2]. split; [apply rw_more; auto|]. destruct kv as [kk vv]. simpl. split; auto.
      inversion H1; subst. apply (proj1 (may_add_iff k ts (kk, vv) seen ltac:(assumption) H)); auto.
  - intros [H HA]. revert seen HA. induction H as [ts [kk vv] H|ts [kk vv] ts' kvs H HR IH]; intros seen [HA1 HA2].
    + destruct (GWterm_cons _ _ H) as (i & ts' & ->). inversion HF; subst. apply GWs_one; auto.
      apply (may_add_iff i ts' (kk, vv)); auto.
    + destruct (GWterm_cons _ _ H) as (i & ts2 & ->). apply Forall_app in HF as [H1 H2]. inversion H1; subst.
      simpl. apply GWs_more; auto. apply (may_add_iff i ts2 (kk, vv)); auto.
Qed.

Lemma GWterm_det t1 k1 t2 k2 r1 r2 : GWterm t1 k1 -> GWterm t2 k2 -> t1 ++ r1 = t2 ++ r2 ->
  t1 = t2 /\ k1 = k2 /\ r1 = r2.
Proof.
  intros H1 H2 E. destruct H1; destruct H2; simpl in E; injection E; intros; subst; try congruence; auto.
Qed.

Lemma reads_start ts kvs : reads_withs ts kvs -> exists i t, ts = i :: t /\ with_start (i_typ i) = true.
Proof.
  assert (H : forall t kv, GWterm t kv -> exists i t', t = i :: t' /\ with_start (i_typ i) = true).
  { destruct 1; eexists; eexists; (split; [reflexivity|]);
      match goal with E : i_typ ?k = _ |- with_start (i_typ ?k) = true => rewrite E; reflexivity end. }
  destruct 1 as [ts kv H1|ts kv ts' kvs H1 _]; destruct (H _ _ H1) as (i & t & -> & Hi); simpl; eauto.
Qed.

Lemma reads_prefix ts kvs1 r1 : reads_withs ts kvs1 -> with_start (hdt r1) = false ->
  forall ts2 kvs2 r2, reads_withs ts2 kvs2 -> with_start (hdt r2) = false -> ts ++ r1 = ts2 ++ r2 ->
  ts = ts2 /\ kvs1 = kvs2 /\ r1 = r2.
Proof.
  intros H Hr1. induction H as [ts kv H|ts kv ts' kvs H HR IH]; intros ts2 kvs2 r2 H2 Hr2 E.
  - inversion H2 as [t2 kv2 H3|t2 kv2 t2' kvs2' H3 HR3]; subst.
    + destruct (GWterm_det _ _ _ _ _ _ H H3 E) as (-> & -> & ->). auto.
    + exfalso. rewrite <- app_assoc in E. destruct (GWterm_det _ _ _ _ _ _ H H3 E) as (_ & _ & ->).
      destruct (reads_start _ _ HR3) as (i & t & -> & Hi). unfold hdt in Hr1. simpl in Hr1. congruence.
  - rewrite <- app_assoc in E. inversion H2 as [t2 kv2 H3|t2 kv2 t2' kvs2' H3 HR3]; subst.
    + exfalso. destruct (GWterm_det _ _ _ _ _ _ H H3 E) as (_ & _ & <-).
      destruct (reads_start _ _ HR) as (i & t & -> & Hi). unfold hdt in Hr2. simpl in Hr2. congruence.
    + rewrite <- app_assoc in E. destruct (GWterm_det _ _ _ _ _ _ H H3 E) as (-> & -> & E').
      destruct (IH _ _ _ HR3 Hr2 E') as (-> & -> & ->). auto.
Qed.

Lemma keyword_sims a b : sims a b -> Forall keyword_text a -> Forall keyword_text b.
Proof.
  induction 1 as [|x y a b [H1 H2] HS IH]; intros HF; constructor; inversion HF; subst; auto.
  unfold keyword_text in *. rewrite <- H1, <- H2. auto.
Qed.

(** A one-clause rule with such a repeat is refused, after any complete lines
    and before anything. *)
Theorem C10_repeat_is_error fds fs src1 rs1 src2 k pts ph a act ets e w wts kvs :
  complete_lines src1 -> parse fds fs (render src1) = PRules rs1 ->
  wf_source SOL src2 (ch_nl :: k) -> mode_end SOL src2 = INL ->
  map piece_tok (pieces src2) = strip (pts ++ a :: ets ++ w :: wts) ->
  GPhase pts ph -> action_of (i_typ a) = Some act -> GAndl ets e -> i_typ w = itemWith ->
  reads_withs wts kvs -> repeats kvs ->
  exists er, parse fds fs (render src1 ++ render src2 ++ ch_nl :: k) = PFail er.
Proof.
  intros C1 E1 W2 M2 Ep Hp Ha HE Hw HR Hrep.
  destruct (parse_total fds fs (render src1 ++ render src2 ++ ch_nl :: k)) as [[rs E]|H]; auto. exfalso.
  apply C06_parser_is_grammar in E1 as [t1 G1]. apply C06_parser_is_grammar in E as [t2 G2].
  apply (lines_then _ src1 _ rs1 t1 (Loads_det fds fs) C1 0 G1) in G2 as (rs2 & -> & G2).
  set (eol := mkItem itemEOL [ch_nl] 0).
  assert (S2 : strip (tokens (render src2 ++ ch_nl :: k)) = strip ((pts ++ a :: ets ++ w :: wts) ++ eol :: tokens k)).
  { replace (render src2 ++ ch_nl :: k) with (render (src2 ++ [Pc PcEOL]) ++ k)
      by (rewrite render_app, <- app_assoc; reflexivity).
    rewrite tokens_concat.
    - rewrite pieces_app, map_app, Ep, (strip_app (pts ++ _)). simpl. rewrite <- !app_assoc. reflexivity.
    - apply wf_source_app. split; [exact W2|]. rewrite M2. simpl. auto.
    - rewrite mode_end_app, M2. reflexivity. }
  assert (HK : Forall keyword_text (wts ++ eol :: tokens k)).
  { pose proof (proj1 (strip_sims _ _) S2) as S3. apply keyword_sims in S3; [|apply Forall_forall; intros i Hi; exact (tokens_keyword _ i Hi)].
    apply Forall_app in S3 as [S4 S5]. apply Forall_app. split; [|exact S5].
    apply Forall_app in S4 as [_ S4]. inversion S4 as [|? ? _ S6]; subst.
    apply Forall_app in S6 as [_ S6]. inversion S6; auto. }
  apply (GFile_strip _ _ _ _ _ _ S2) in G2.
  assert (HC : forall ts3 r3 e3 rest3, GRule ts3 r3 -> (i_typ e3 = itemEOL \/ i_typ e3 = itemEOF) ->
    ts3 ++ e3 :: rest3 = (pts ++ a :: ets ++ w :: wts) ++ eol :: tokens k -> False).
  { intros ts3 r3 e3 rest3 [pts3 ph3 a3 act3 ts4 cs4 Hp3 Ha3 Hc3 Hsw3 Hph3] He3 E3.
    assert (E4 : ts4 ++ e3 :: rest3 = ets ++ w :: wts ++ eol :: tokens k).
    { rewrite <- !app_assoc in E3. simpl in E3. rewrite <- app_assoc in E3. simpl in E3.
      destruct Hp3 as [|q3 ph3 Hq3]; destruct Hp as [|q ph Hq]; simpl in E3; injection E3; intros; subst; auto.
      - match goal with H1 : phase_of (i_typ ?x) = Some _, H2 : action_of (i_typ ?x) = Some _ |- _ =>
          exfalso; revert H1 H2; destruct (i_typ x); discriminate end.
      - match goal with H1 : phase_of (i_typ ?x) = Some _, H2 : action_of (i_typ ?x) = Some _ |- _ =>
          exfalso; revert H1 H2; destruct (i_typ x); discriminate end. }
    assert (HF : exists ts1 rem c, ts4 ++ e3 :: rest3 = ts1 ++ rem /\ GClause ts1 c /\
      (hdt rem = itemEOL \/ hdt rem = itemEOF \/ hdt rem = itemSemicolon)).
    { destruct Hc3 as [t c Hc|t c s' eol' t' cs Hc Hs' He' Hcs].
      - exists t, (e3 :: rest3), c. unfold hdt. simpl. intuition.
      - exists t, (s' :: eol' ++ t' ++ e3 :: rest3), c. rewrite <- app_assoc. simpl. rewrite <- app_assoc.
        unfold hdt. simpl. auto. }
    destruct HF as (ts1 & rem & c & E5 & Hc & Hrem). rewrite E4 in E5.
    apply GClause_split in Hc as (x1 & x2 & e' & w' & -> & _ & HA & HWP).
    rewrite <- app_assoc in E5.
    set (p := mkPS [] (ets ++ w :: wts ++ eol :: tokens k) pAny pAny aError [] 0).
    destruct (GWithPart_hd x2 w' rem HWP Hrem) as (A1 & A2 & A3).
    pose proof (pAndl_complete x1 e' p _ HA E5 A1 A2 A3) as P1.
    assert (P2 := pAndl_complete ets e p (w :: wts ++ eol :: tokens k) HE eq_refl).
    unfold hdt in P2. simpl in P2. rewrite Hw in P2.
    specialize (P2 ltac:(discriminate) ltac:(discriminate) eq_refl).
    rewrite P1 in P2. injection P2 as _ P2 _.
    destruct HWP as [|w2 wts2 kvs2 Hw2 HG2].
    - simpl in P2. rewrite P2 in Hrem. unfold hdt in Hrem. simpl in Hrem. rewrite Hw in Hrem.
      destruct Hrem as [H|[H|H]]; discriminate.
    - simpl in P2. injection P2 as -> P2.
      assert (HK2 : Forall keyword_text wts2).
      { rewrite <- P2 in HK. apply Forall_app in HK as [HK _]. exact HK. }
      destruct (proj1 (C10_no_repeats wts2 kvs2 HK2) HG2) as [HR2 Hn].
      destruct (reads_prefix wts kvs (eol :: tokens k) HR eq_refl wts2 kvs2 rem HR2) as (_ & -> & _); auto.
      destruct Hrem as [H|[H|H]]; rewrite H; reflexivity. }
  inversion G2 as [e2 t2' He2 E2 E3|t0 ts3 r3 e3 rest3 rs3 t3' HR3 He3 HF3 Et3 E3|t0 ts3 r3 e3 HR3 He3 Et3 E3
      |t0 k3 a3 e3 rest3 rl3 rs3 t3 t3' Hk3 Ha3 He3 Hi3 HF3 Et3 E3|t0 k3 a3 e3 rl3 t3 Hk3 Ha3 He3 Hi3 Et3 E3].
  - match goal with H : [e2] = _ |- _ => apply (f_equal (@List.length item)) in H; revert H end.
    rewrite !app_length. simpl. rewrite !app_length. simpl. lia.
  - eapply HC; eauto.
  - eapply HC; eauto.
  - destruct Hp as [|q ph Hq]; simpl in E3; injection E3; intros; subst.
   + rewrite Hk3 in Ha; discriminate.
   + rewrite Hk3 in Hq; discriminate.
  - destruct Hp as [|q ph Hq]; simpl in E3; injection E3; intros; subst.
   + rewrite Hk3 in Ha; discriminate.
   + rewrite Hk3 in Hq; discriminate.
Qed.

Example C10_example : exists r e1 e2 e3,
  parse 3 no_files (B "set-with all with message ""a b"" note x tls-opt off savedir /d make-yakker") = PRules [r] /\
  parse 3 no_files (B "accept all with note a message b note c" ++ [ch_nl]) = PFail e1 /\
  parse 3 no_files (B "set-with all" ++ [ch_nl]) = PFail e2 /\
  parse 3 no_files (B "accept all with tls-opt on" ++ [ch_nl]) = PFail e3.
Proof. do 4 eexists. vm_compute. repeat split; reflexivity. Qed.

Example C10_repeat_example : exists wts kvs,
  strip wts = [(itemNote, B "note"); (itemValue, B "a"); (itemNote, B "note"); (itemValue, B "c")] /\
  reads_withs wts kvs /\ repeats kvs.
Proof.
  exists [mkItem itemNote (B "note") 0; mkItem itemValue (B "a") 0; mkItem itemNote (B "note") 0; mkItem itemValue (B "c") 0].
  exists [(B "note", B "a"); (B "note", B "c")]. split; [reflexivity|split].
  - apply (rw_more [mkItem itemNote (B "note") 0; mkItem itemValue (B "a") 0] _ [mkItem itemNote (B "note") 0; mkItem itemValue (B "c") 0]).
    + apply (GW_note (mkItem itemNote (B "note") 0) (mkItem itemValue (B "a") 0)); [reflexivity|repeat split; discriminate|].
      intros [H|[]]; discriminate.
    + apply rw_one. apply (GW_note (mkItem itemNote (B "note") 0) (mkItem itemValue (B "c") 0)); [reflexivity|repeat split; discriminate|].
      intros [H|[]]; discriminate.
  - exists [], (B "note"), (B "a"), [], (B "c"), []. split; [reflexivity|left; discriminate].
Qed.

(** ** C11 *)

(** The files do not change while they are being read. *)
Definition static (fs : rfs) : Prop := forall t t' name, rf_read fs t name = rf_read fs t' name.

Lemma GFile_any_tick (incl : nat -> bytes -> list rule -> nat -> Prop) :
  (forall t n r t', incl t n r t' -> forall s, exists s', incl s n r s') ->
  forall t ts rs t', GFile incl t ts rs t' -> forall s, exists s', GFile incl s ts rs s'.
Proof.
  intros HI. induction 1 as [e t He|t ts r e rest rs1 t' Hr He HF IH|t ts r e Hr He
    |t k a e rest rl rs1 t1 t' Hk Ha He Hi HF IH|t k a e rl t1 Hk Ha He Hi]; intros s.
  - exists s. apply GF_empty; auto.
  - destruct (IH s) as [s' H]. exists s'. apply GF_rule; auto.
  - exists s. apply GF_rule_last; auto.
  - destruct (HI _ _ _ _ Hi s) as [s1 H1]. destruct (IH s1) as [s' H]. exists s'. eapply GF_include; eauto.
  - destruct (HI _ _ _ _ Hi s) as [s1 H1]. exists s1. eapply GF_include_last; eauto.
Qed.

Lemma Loads_any_tick fs : static fs -> forall n t name rs t', Loads n fs t name rs t' ->
  forall s, exists s', Loads n fs s name rs s'.
Proof.
  intros HS. induction n as [|n IH]; intros t name rs t' H s; simpl in H; [contradiction|].
  destruct H as (text & E & HG). destruct (GFile_any_tick _ IH _ _ _ _ HG (S s)) as [s' H'].
  exists s', text. rewrite (HS s t). auto.
Qed.

(** An include line: after whole lines that parse on their own, the line
    [include name] (the name here in quotes, so any name will do) followed by
    anything gives the rules so far, those of the file, and those of the rest;
    and nothing else makes such a text parse. *)
Theorem C11_include_splices fds fs pre rs1 name rest rs :
  static fs -> complete_lines pre -> parse fds fs (render pre) = PRules rs1 ->
  (parse fds fs (render pre ++ B "include " ++ quoted name ++ ch_nl :: rest) = PRules rs <->
   exists n text rs2 rs3, fds = S n /\ rf_read fs 0 name = inl text /\
     parse n fs text = PRules rs2 /\ parse fds fs rest = PRules rs3 /\ rs = rs1 ++ rs2 ++ rs3).
Proof.
  intros HS HC E1. apply C06_parser_is_grammar in E1 as [t1 G1].
  assert (HD := Loads_det fds fs).
  rewrite C06_parser_is_grammar.
  set (inc := [Pc (PcWord (B "include")); Lay LSpace; Pc (PcQuoted (esc name) name); Pc PcEOL]).
  assert (Ei : B "include " ++ quoted name ++ ch_nl :: rest = render inc ++ rest).
  { unfold inc, render, quoted. simpl. rewrite <- !app_assoc. simpl. reflexivity. }
  set (ik := mkItem itemInclude (B "include") 0). set (ia := mkItem itemValue name 0).
  set (ie := mkItem itemEOL [ch_nl] 0).
  assert (Si : strip (tokens (render inc ++ rest)) = strip (ik :: ia :: ie :: tokens rest)).
  { rewrite tokens_concat; [reflexivity| |reflexivity].
    unfold inc. simpl. repeat split; try discriminate; try (rewrite unquote_esc; reflexivity); auto.
    intros [H _]. discriminate H. }
  assert (Hinc : forall t2 rs23 t3, GFile (Loads fds fs) t2 (tokens (render inc ++ rest)) rs23 t3 <->
    exists rs2 s rs3, rs23 = rs2 ++ rs3 /\ Loads fds fs t2 name rs2 s /\ GFile (Loads fds fs) s (tokens rest) rs3 t3).
  { intros t2 rs23 t3. rewrite (GFile_strip _ _ _ _ _ _ Si). split.
    - intros G. inversion G as [e2 t2' He2 E2 E3|t0 ts3 r3 e3 rest3 rs3 t3' HR3 He3 HF3 Et3 E3|t0 ts3 r3 e3 HR3 He3 Et3 E3
        |t0 k3 a3 e3 rest3 rl3 rs3 t3' t3'' Hk3 Ha3 He3 Hi3 HF3 Et3 E3|t0 k3 a3 e3 rl3 t3' Hk3 Ha3 He3 Hi3 Et3 E3]; subst.
      + destruct HR3 as [pts ph a act ts cs [|q ph' Hq] Ha _ _ _]; simpl in E3; injection E3 as -> _; discriminate.
      + destruct HR3 as [pts ph a act ts cs [|q ph' Hq] Ha _ _ _]; simpl in E3; injection E3 as -> _; discriminate.
      + exists rl3, t3', rs3. auto.
      + discriminate.
    - intros (rs2 & s & rs3 & -> & HL & HG). eapply (GF_include _ _ ik ia ie); eauto; try reflexivity.
      repeat split; discriminate. }
  rewrite Ei. split.
  - intros [t' G]. apply (lines_then _ pre _ rs1 t1 HD HC 0 G1) in G as (rs23 & -> & G).
    apply Hinc in G as (rs2 & s & rs3 & -> & HL & HG).
    destruct fds as [|n]; [contradiction|]. destruct HL as (text & Et & HG2).
    exists n, text, rs2, rs3. rewrite (HS 0 t1). repeat split; auto.
    + apply C06_parser_is_grammar. destruct (GFile_any_tick _ (Loads_any_tick fs HS n) _ _ _ _ HG2 0) as [x Hx]. eauto.
    + apply C06_parser_is_grammar. destruct (GFile_any_tick _ (Loads_any_tick fs HS (S n)) _ _ _ _ HG 0) as [x Hx]. eauto.
  - intros (n & text & rs2 & rs3 & -> & Et & E2 & E3 & ->).
    apply C06_parser_is_grammar in E2 as [t2 G2]. apply C06_parser_is_grammar in E3 as [t3 G3].
    destruct (GFile_any_tick _ (Loads_any_tick fs HS n) _ _ _ _ G2 (S t1)) as [s2 H2].
    destruct (GFile_any_tick _ (Loads_any_tick fs HS (S n)) _ _ _ _ G3 s2) as [s3 H3].
    exists s3. apply (lines_then _ pre _ rs1 t1 HD HC 0 G1). exists (rs2 ++ rs3). split; auto.
    apply Hinc. exists rs2, s2, rs3. repeat split; auto. exists text. rewrite (HS t1 0). auto.
Qed.

(** If the file cannot be read, or its text does not parse, neither does the
    including text. *)
Corollary C11_include_failure fds fs pre rs1 name rest :
  static fs -> complete_lines pre -> parse fds fs (render pre) = PRules rs1 ->
  (forall n text rs2, fds = S n -> rf_read fs 0 name = inl text -> parse n fs text <> PRules rs2) ->
  exists e, parse fds fs (render pre ++ B "include " ++ quoted name ++ ch_nl :: rest) = PFail e.
Proof.
  intros HS HC E1 HN.
  destruct (parse_total fds fs (render pre ++ B "include " ++ quoted name ++ ch_nl :: rest)) as [[rs E]|H]; auto.
  exfalso. apply (C11_include_splices fds fs pre rs1 name rest rs HS HC E1) in E as (n & text & rs2 & rs3 & En & Et & E2 & _).
  exact (HN n text rs2 En Et E2).
Qed.

(** File [a] has an include line naming [b]. *)
Definition includes (fs : rfs) (a b : bytes) : Prop :=
  exists text k x, rf_read fs 0 a = inl text /\ line_start (tokens text) k x /\
    i_typ k = itemInclude /\ i_val x = b.

(** [path fs m a]: [m] includes can be followed, starting in file [a] *)
Fixpoint path (fs : rfs) (m : nat) (a : bytes) : Prop :=
  match m with 0 => True | S m' => exists b, includes fs a b /\ path fs m' b end.

Lemma path_mono fs m : forall k a, k <= m -> path fs m a -> path fs k a.
Proof.
  induction m as [|m IH]; intros [|k] a Hk H; simpl in *; auto; [lia|].
  destruct H as (b & Hb & H). exists b. split; auto. apply IH; auto. lia.
Qed.

Lemma path_trans fs a b m : clos_trans _ (includes fs) a b -> path fs m b -> path fs (S m) a.
Proof.
  intros H. revert m. induction H as [a b H|a b c H1 IH1 H2 IH2]; intros m Hp.
  - exists b. auto.
  - apply (path_mono fs (S (S m))); auto.
Qed.

Lemma path_cycle fs a m : clos_trans _ (includes fs) a a -> path fs m a.
Proof. intros H. induction m as [|m IH]; simpl; auto. apply (path_trans fs a a m H IH). Qed.

Lemma Loads_path fs : static fs -> forall n t a rs t' m, Loads n fs t a rs t' -> path fs m a -> m < n.
Proof.
  intros HS. induction n as [|n IH]; intros t a rs t' m H Hp; simpl in H; [contradiction|].
  destruct m as [|m]; [lia|]. destruct H as (text & E & HG).
  destruct Hp as (b & (text' & k & x & E' & HL & Hk & <-) & Hp).
  rewrite (HS 0 t), E in E'. injection E' as <-.
  destruct (GFile_includes _ _ _ _ _ HG k x HL Hk) as (t2 & rl & t3 & HI).
  specialize (IH _ _ _ _ _ HI Hp). lia.
Qed.

(** A file that includes itself, directly or through others, or that leads to
    such a file, never gives rules: loading it fails, however many files may
    be open at once. *)
Theorem C11_cycle_is_error fs a b :
  static fs -> (a = b \/ clos_trans _ (includes fs) a b) -> clos_trans _ (includes fs) b b ->
  forall fds t, exists e t', loadRules fds fs t a = (LErr e, t').
Proof.
  intros HS Hab Hb fds t.
  destruct (C01_load_terminates fds fs t a) as [(rs & t' & E)|H]; auto. exfalso.
  apply Loads_loadRules in E.
  assert (Hp : path fs fds a).
  { destruct Hab as [->|Hab]; [apply path_cycle; auto|].
    apply (path_mono fs (S fds)); [lia|]. eapply path_trans; eauto. apply path_cycle; auto. }
  pose proof (Loads_path fs HS fds _ _ _ _ _ E Hp). lia.
Qed.

Definition C11_fs : rfs := {| rf_read := fun _ n =>
  if beqb n (B "a") then inl (B "accept all" ++ [ch_nl] ++ B "include b")
  else if beqb n (B "b") then inl (B "include ""c""" ++ [ch_nl] ++ B "reject all")
  else if beqb n (B "c") then inl (B "stall all")
  else if beqb n (B "s") then inl (B "accept all" ++ [ch_nl] ++ B "include t")
  else if beqb n (B "t") then inl (B "include s")
  else inr (B "no such file") |}.

Example C11_example : exists r1 r2 r3 e,
  parse 5 C11_fs (B "include a" ++ [ch_nl] ++ B "stall all") = PRules [r1; r2; r3; r2] /\
  parse 5 C11_fs (B "include s" ++ [ch_nl] ++ B "stall all") = PFail e.
Proof. do 4 eexists. vm_compute. split; reflexivity. Qed.

Example C11_cycle_example : static C11_fs /\ clos_trans _ (includes C11_fs) (B "s") (B "s").
Proof.
  split; [intros t t' n; reflexivity|].
  apply (t_trans _ _ _ (B "t")); apply t_step.
  - exists (B "accept all" ++ [ch_nl] ++ B "include t").
    exists (mkItem itemInclude (B "include") 11), (mkItem itemValue (B "t") 19).
    split; [reflexivity|]. split; [|auto].
    exists [mkItem itemAccept (B "accept") 0; mkItem itemAll (B "all") 7; mkItem itemEOL [ch_nl] 10], [mkItem itemEOF [] 20].
    split; [vm_compute; reflexivity|]. right.
    exists [mkItem itemAccept (B "accept") 0; mkItem itemAll (B "all") 7], (mkItem itemEOL [ch_nl] 10). auto.
  - exists (B "include s").
    exists (mkItem itemInclude (B "include") 0), (mkItem itemValue (B "s") 8).
    split; [reflexivity|]. split; [|auto].
    exists [], [mkItem itemEOF [] 9]. split; [vm_compute; reflexivity|left; reflexivity].
Qed.

(** ** C15 *)

(** [LineCol input pos ln col]: position [pos] of [input] is on line [ln], at
    character [col] of that line, both counted from 1. *)
Inductive LineCol (input : bytes) (pos ln col : nat) : Prop :=
| LC_first b r :                       (* no newline before it *)
    input = b ++ r -> length b = pos -> ~ In ch_nl b ->
    ln = 1 -> col = 1 + length b -> LineCol input pos ln col
| LC_later a b r :                     (* after the last of some newlines *)
    input = a ++ ch_nl :: b ++ r -> length a + 1 + length b = pos -> ~ In ch_nl b ->
    ln = 1 + (1 + count_occ ascii_dec a ch_nl) -> col = 1 + length b -> LineCol input pos ln col.

Lemma count_byte_occ l : count_byte l ch_nl = count_occ ascii_dec l ch_nl.
Proof.
  reflexivity.
Qed.

Lemma line_back_spec pre :
  (~ In ch_nl pre /\ line_back (rev pre) = length pre) \/
  (exists a b, pre = a ++ ch_nl :: b /\ ~ In ch_nl b /\ line_back (rev pre) = length b).
Proof.
  induction pre as [|c pre IH] using rev_ind; [left; auto|].
  rewrite rev_app_distr. simpl. destruct (Ascii.eqb_spec c ch_nl) as [->|Hc].
  - right. exists pre, []. auto.
  - destruct IH as [[H1 H2]|(a & b & -> & H1 & H2)].
    + left. split; [|rewrite H2, app_length; simpl; lia].
      intros H. apply in_app_or in H as [H|[H|[]]]; auto.
    + right. exists a, (b ++ [c]). split; [rewrite <- app_assoc; reflexivity|]. split.
      * intros H. apply in_app_or in H as [H|[H|[]]]; auto.
      * rewrite H2, app_length. simpl. lia.
Qed.

Lemma lineInfo_LineCol input pos ln lp : lineInfo input pos = Ok (ln, lp) -> LineCol input pos ln lp.
Proof.
  unfold lineInfo, slice. intros H.
  destruct (Nat.leb 0 pos && Nat.leb pos (length input)) eqn:E; [|discriminate].
  apply andb_true_iff in E as [_ E]. apply Nat.leb_le in E.
  cbn [obind] in H. injection H as <- <-. rewrite Nat.sub_0_r. cbn [skipn].
  pose proof (firstn_length_le input E) as L. pose proof (firstn_skipn pos input) as S.
  remember (firstn pos input) as pre eqn:Ep. clear Ep. rewrite count_byte_occ.
  destruct (line_back_spec pre) as [[H1 H2]|(a & b & -> & H1 & H2)]; rewrite H2.
  - apply (LC_first _ _ _ _ pre (skipn pos input)); auto.
    f_equal. apply count_occ_not_In; auto.
  - apply (LC_later _ _ _ _ a b (skipn pos input)); auto.
    + rewrite <- S at 1. rewrite <- app_assoc. reflexivity.
    + rewrite app_length in L. simpl in L. lia.
    + rewrite count_occ_app. simpl. destruct (ascii_dec ch_nl ch_nl); [|congruence].
      assert (count_occ ascii_dec b ch_nl = 0) by (apply count_occ_not_In; auto). lia.
Qed.

(** a position is on one line only *)
Lemma LineCol_unique input pos ln col ln' col' :
  LineCol input pos ln col -> LineCol input pos ln' col' -> ln = ln' /\ col = col'.
Proof.
  assert (HA : forall (x y u v : bytes), x ++ u = y ++ v -> length x = length y -> x = y).
  { induction x as [|c x IH]; intros [|d y] u v; simpl; intros H L; auto; try discriminate.
    injection H as -> H. f_equal. eapply IH; eauto. }
  assert (HL : forall (a b a' b' : bytes), a ++ ch_nl :: b = a' ++ ch_nl :: b' -> ~ In ch_nl b -> ~ In ch_nl b' -> a = a' /\ b = b').
  { induction a as [|c a IH]; intros b [|c' a'] b' H Hb Hb'; simpl in H.
    - injection H as ->. auto.
    - injection H as <- ->. exfalso. apply Hb. apply in_elt.
    - injection H as -> <-. exfalso. apply Hb'. apply in_elt.
    - injection H as -> H. destruct (IH _ _ _ H Hb Hb') as [-> ->]. auto. }
  intros [b r -> L1 N1 -> ->|a b r -> L1 N1 -> ->] [b' r' E L2 N2 -> ->|a' b' r' E L2 N2 -> ->].
  - assert (b = b') as -> by (eapply HA; [exact E|lia]). auto.
  - exfalso. assert (X : b = a' ++ ch_nl :: b').
    { eapply HA; [rewrite <- app_assoc; simpl; exact E|rewrite app_length; simpl; lia]. }
    apply N1. rewrite X. apply in_elt.
  - exfalso. assert (X : b' = a ++ ch_nl :: b).
    { eapply HA; [rewrite <- app_assoc; simpl; symmetry; exact E|rewrite app_length; simpl; lia]. }
    apply N2. rewrite X. apply in_elt.
  - assert (X : a ++ ch_nl :: b = a' ++ ch_nl :: b').
    { eapply HA; [rewrite <- !app_assoc; simpl; exact E|rewrite !app_length; simpl; lia]. }
    apply HL in X as [-> ->]; auto.
Qed.

(** what an error says it found *)
Definition found_text (i : item) : bytes :=
  match i_typ i with
  | itemEOF => B "unexpected end of file"
  | itemEOL => B "unexpected end of line"
  | _ => B "'" ++ i_val i ++ B "'"
  end.

(** Every refusal of [Parse] names the line, and where it gives one the
    character, of a token of the text; "found" is that token, and a lexing
    error is placed at the token where lexing stopped, the last one. *)
Theorem C15_error_position fds fs input e : parse fds fs input = PFail e ->
  exists i ln col, In i (tokens input) /\ LineCol input (i_pos i) ln col /\
    match e with
    | ErrGen _ _ msg _ => i_typ i <> itemError /\ perr_text e =
        B "at line " ++ itoa ln ++ B " char " ++ itoa col ++ B ": " ++ msg ++ B ", found " ++ found_text i
    | ErrLex _ _ _ => i_typ i = itemError /\ (exists ts, tokens input = ts ++ [i]) /\ perr_text e =
        B "at line " ++ itoa ln ++ B " char " ++ itoa col ++ B ": lexing error: " ++ i_val i
    | ErrLine _ msg => perr_text e = B "at line " ++ itoa ln ++ B ": " ++ msg
    | ErrPos _ _ msg => perr_text e = B "at line " ++ itoa ln ++ B " char " ++ itoa col ++ B ": " ++ msg
    end.
Proof.
  unfold parse. intros H.
  pose proof (parse_with_spec _ (loadRules_safe fds fs) 0 input) as HP.
  destruct (parse_with (loadRules fds fs) 0 input) as [rs p|e'| |]; try discriminate.
  injection H as ->. simpl in HP. destruct HP as (i & Hi & HE). simpl in Hi.
  unfold err_at in HE. simpl in HE. destruct (lineInfo input (i_pos i)) as [[ln lp]| |] eqn:EL; try contradiction.
  exists i, ln, lp. split; auto. split; [apply lineInfo_LineCol; auto|].
  destruct e; simpl; try (destruct HE as (-> & -> & HE)).
  - destruct HE as [Hn ->]. split; auto.
  - destruct HE as [Ht ->]. split; auto. split; auto.
    pose proof (pstart_wf input 0) as [HW _]. simpl in HW.
    apply in_split in Hi as (a & b & Eb). rewrite Eb in HW. exists a. rewrite Eb.
    clear -HW Ht. induction a as [|x a IH]; simpl in HW; inversion HW; subst; auto; try congruence.
    + destruct a; discriminate.
    + simpl. f_equal. auto.
  - subst. auto.
  - destruct HE as [-> ->]. auto.
Qed.

Example C15_example : exists e,
  parse 1 no_files (B "accept all" ++ [ch_nl; ch_nl] ++ B "reject frob x") = PFail e /\
  perr_text e = B "at line 3 char 8: expecting an operation or 'with', found 'frob'".
Proof. eexists. split; vm_compute; reflexivity. Qed.

Print Assumptions C01_parse_terminates.
Print Assumptions C01_load_terminates.
Print Assumptions C06_parser_is_grammar.
Print Assumptions C06_refuses_the_rest.
Print Assumptions C06_expression_tokens.
Print Assumptions C07_unique_reading.
Print Assumptions C07_or_binds_tighter.
Print Assumptions C07_or_binds_tighter_right.
Print Assumptions C07_not_binds_tightest.
Print Assumptions C07_parentheses.
Print Assumptions C07_parentheses_series.
Print Assumptions C09_required_phase.
Print Assumptions C09_too_early_is_error.
Print Assumptions C10_with_options.
Print Assumptions C10_no_repeats.
Print Assumptions C10_repeat_is_error.
Print Assumptions C11_include_splices.
Print Assumptions C11_include_failure.
Print Assumptions C11_cycle_is_error.
Print Assumptions C15_error_position.
