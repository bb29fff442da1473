(** C12, C14: the rules in force. *)
From Verif Require Import Bytes Outcome Lexer LexSpec LexProofs Ast GoNet Parser Grammar
  ParseProofs ParseComplete Layout GramStrip GramFacts PropsLex PropsParse RuleLoad.

(** ** C12 *)

(** The rule 'stall all'. *)
Definition stall_all : rule := mkRule [mkClause EAll []] aStall pAny pAny.
Lemma stallall_is : stallall = [stall_all].
Proof. vm_compute. reflexivity. Qed.

(** Every file can be read and parsed, and these are the rules of each, in
    order. *)
Inductive LoadsAll (fds : nat) (fs : rfs) : nat -> list bytes -> list (list rule) -> nat -> Prop :=
| LA_nil t : LoadsAll fds fs t [] [] t
| LA_cons t f files rs t1 parts t2 :
    f <> [] -> Loads fds fs t f rs t1 -> LoadsAll fds fs t1 files parts t2 ->
    LoadsAll fds fs t (f :: files) (rs :: parts) t2.

Lemma accumAll_spec fds fs files : Forall (fun f => f <> []) files -> forall t rules,
  (exists parts t', LoadsAll fds fs t files parts t' /\ accumAll fds fs t rules files = (AccOk (rules ++ concat parts), t')) \/
  (exists f e t', In f files /\ accumAll fds fs t rules files = (AccErr f e, t') /\ forall parts t', ~ LoadsAll fds fs t files parts t').
Proof.
  induction 1 as [|f files Hf _ IH]; intros t rules.
  - left. exists [], t. split; [constructor|]. cbn. now rewrite app_nil_r.
  - assert (Ea : accumRules fds fs t rules f = let (r, tick') := loadRules fds fs t f in
      (match r with LRules rs => LRules (rules ++ rs) | _ => r end, tick')) by (destruct f; [congruence|reflexivity]).
    cbn [accumAll]. rewrite Ea. destruct (C01_load_terminates fds fs t f) as [(rs & t1 & E)|(e & t1 & E)]; rewrite E.
    + destruct (IH t1 (rules ++ rs)) as [(parts & t' & H1 & H2)|(f' & e & t' & H1 & H2 & H3)].
      * left. exists (rs :: parts), t'. split; [econstructor; eauto; now apply Loads_loadRules|]. rewrite H2. cbn [concat]. now rewrite app_assoc.
      * right. exists f', e, t'. split; [now right|]. split; auto. intros parts t'' HA. inversion HA as [|? ? ? rs' t1' parts' ? _ HL HA']; subst.
        apply Loads_loadRules in HL. assert (t1' = t1) by congruence. subst. eapply H3; eauto.
    + right. exists f, e, t1. split; [now left|]. split; auto. intros parts t'' HA. inversion HA as [|? ? ? rs' t1' parts' ? _ HL HA']; subst.
      apply Loads_loadRules in HL. congruence.
Qed.

(** The rules in force are the base rules followed by those of all files in
    order, if all can be loaded, and else 'stall all' alone. *)
Theorem C12_all_or_nothing fds fs t base files : Forall (fun f => f <> []) files ->
  exists r, setupRules fds fs t base files = Some r /\
  ((exists parts t', LoadsAll fds fs t files parts t' /\ rr_good r = true /\ rr_rules r = base ++ concat parts) \/
   ((forall parts t', ~ LoadsAll fds fs t files parts t') /\ rr_good r = false /\ rr_rules r = [stall_all] /\
    exists f e, In f files /\ rr_warning r = Some (B "problem loading rules " ++ f ++ B ": " ++ e ++ [ch_nl]))).
Proof.
  intros HF. unfold setupRules. destruct (accumAll_spec fds fs files HF t base) as [(parts & t' & H1 & H2)|(f & e & t' & H1 & H2 & H3)]; rewrite H2; cbn [fst].
  - eexists; split; eauto. left. exists parts, t'. auto.
  - eexists; split; eauto. right. rewrite <- stallall_is. split; auto. split; auto. split; auto. exists f, e. auto.
Qed.
(** A file that could be loaded is not used alone: if one cannot, none is. *)
Corollary C12_no_partial fds fs t base files r : Forall (fun f => f <> []) files ->
  setupRules fds fs t base files = Some r -> rr_good r = false -> rr_rules r = [stall_all].
Proof.
  intros HF E HG. destruct (C12_all_or_nothing fds fs t base files HF) as (r' & E' & [(parts & t' & _ & H & _)|(_ & _ & H & _)]); congruence.
Qed.

Definition demo_fs : rfs := {| rf_read := fun _ n =>
  if beqb n (B "good") then inl (B "accept from @example.org" ++ [ch_nl]) else
  if beqb n (B "bad") then inl (B "accept from") else inr (B "no") |}.
Example C12_example : exists r1 r2 r3,
  setupRules 9 demo_fs 0 [stall_all] [B "good"; B "good"] = Some r1 /\ length (rr_rules r1) = 3 /\ rr_good r1 = true /\
  setupRules 9 demo_fs 0 [stall_all] [B "good"; B "bad"; B "good"] = Some r2 /\ rr_rules r2 = [stall_all] /\ rr_good r2 = false /\
  setupRules 9 demo_fs 0 [stall_all] [B "good"; B "missing"] = Some r3 /\ rr_good r3 = false.
Proof. do 3 eexists. do 7 (split; [vm_compute; reflexivity|]). vm_compute; reflexivity. Qed.

(** ** C14 *)

(** the documented rules (doc.go:752-768) *)
Definition a_rule (ph : phase) (req : phase) (e : expr) : rule := mkRule [mkClause e []] aReject req ph.
Definition std_rules : list rule :=
  [a_rule pAny pMfrom (EOpt OFromHas (N.lor oBad oRoute));      (* reject from-has bad,route *)
   a_rule pAny pRto (EOpt OToHas (N.lor oBad oRoute));          (* reject to-has bad,route *)
   a_rule pAny pHelo (EOpt OHelo oNone)].                       (* reject helo-has none *)
Definition reject_messages : rule := a_rule pMessage pAny EAll. (* @message reject all *)
Definition reject_from (f : bytes) : rule := a_rule pAny pMfrom (EMatch MFrom (B "file:" ++ f)).      (* reject from file:f *)
Definition reject_not_to (f : bytes) : rule := a_rule pAny pRto (ENot (EMatch MTo (B "file:" ++ f))). (* reject not to file:f *)
Definition reject_helo (f : bytes) : rule := a_rule pMfrom pHelo (EMatch MHelo (B "file:" ++ f)).     (* @from reject helo file:f *)

Definition documented (o : rule_opts) : list rule :=
  (if o_stdrules o then std_rules else []) ++
  (if o_failgotdata o then [reject_messages] else []) ++
  (match o_fromreject o with [] => [] | f => [reject_from f] end) ++
  (match o_toaccept o with [] => [] | f => [reject_not_to f] end) ++
  (match o_heloreject o with [] => [] | f => [reject_helo f] end).

(** no whitespace, comma, semicolon or parenthesis *)
Definition ordinary (f : bytes) : Prop := forall c, In c f -> ends_word c = false.

(** A text that parses to [rs] as a number of whole lines. *)
Definition Lines (src : source) (rs : list rule) : Prop :=
  complete_lines src /\ forall (incl : nat -> bytes -> list rule -> nat -> Prop) t, GFile incl t (tokens (render src)) rs t.

Lemma complete_lines_app a b : complete_lines a -> complete_lines b -> complete_lines (a ++ b).
Proof.
  intros Ha (W & M & T). pose proof Ha as (Wa & Ma & Ta). split; [|split].
  - apply wf_source_app. split; [eapply complete_lines_wf; eauto|]. now rewrite Ma.
  - now rewrite mode_end_app, Ma.
  - destruct b as [|x b]; [now rewrite app_nil_r|]. intros HE. apply T.
    unfold ends_tight in *. destruct HE as (u & e & Hu). exists (skipn (length a) u), e.
    destruct Hu as [Hu He]. split; auto.
    destruct (Nat.le_gt_cases (length a) (length u)) as [L|L].
    + apply (f_equal (skipn (length a))) in Hu. rewrite skipn_app, skipn_all, Nat.sub_diag in Hu. cbn [app skipn] in Hu.
      rewrite Hu, skipn_app. replace (length a - length u) with 0 by lia. reflexivity.
    + apply (f_equal (@length _)) in Hu. rewrite !app_length in Hu. cbn in Hu. lia.
Qed.

Lemma Lines_nil : Lines [] [].
Proof.
  split.
  - split; [exact I|]. split; [reflexivity|]. intros (u & e & E & _). destruct u; discriminate.
  - intros incl t. change (tokens (render [])) with [mkItem itemEOF [] 0]. constructor. reflexivity.
Qed.

Lemma Lines_app a b r1 r2 : Lines a r1 -> Lines b r2 -> Lines (a ++ b) (r1 ++ r2).
Proof.
  intros [Ca Ga] [Cb Gb]. split; [now apply complete_lines_app|]. intros incl t.
  pose proof Ca as (W & M & T). pose proof Cb as (Wb & Mb & Tb). rewrite render_app.
  set (eof := mkItem itemEOF [] 0). set (A := fake (pieces a)).
  assert (S1 : strip (tokens (render a)) = strip (A ++ [eof])).
  { unfold A. rewrite strip_tokens, strip_app, fake_strip by auto. reflexivity. }
  assert (S2 : strip (tokens (render a ++ render b)) = strip (A ++ tokens (render b))).
  { unfold A. rewrite tokens_concat, strip_app, fake_strip by (auto using complete_lines_wf). reflexivity. }
  apply (GFile_strip _ _ _ _ _ _ S2). apply (GFile_app incl (A ++ [eof]) t r1 t) with (e := eof); auto.
  - apply (GFile_strip _ _ _ _ _ _ S1). apply Ga.
  - apply fake_lines; auto.
Qed.

Lemma Lines_parse src rs fds fs : Lines src rs -> parse fds fs (render src) = PRules rs.
Proof. intros [_ H]. apply C06_parser_is_grammar. exists 0. apply H. Qed.

(** one rule on one line *)
Lemma Lines_rule src ts r : complete_lines src -> strip ts = map piece_tok (removelast (pieces src)) ->
  (exists ps, pieces src = ps ++ [PcEOL]) -> GRule ts r -> Lines src [r].
Proof.
  intros HC Hs (ps & Ep) HG. split; auto. intros incl t. destruct HC as (W & M & T).
  set (eol := mkItem itemEOL [ch_nl] 0). set (eof := mkItem itemEOF [] 0).
  assert (S1 : strip (tokens (render src)) = strip (ts ++ eol :: [eof])).
  { rewrite strip_tokens, strip_app by auto. rewrite Hs, Ep, removelast_app by discriminate. cbn [removelast]. rewrite app_nil_r, map_app, <- app_assoc. reflexivity. }
  apply (GFile_strip _ _ _ _ _ _ S1). apply GF_rule; auto. constructor. reflexivity.
Qed.

Ltac words := repeat (first [ reflexivity | discriminate | (split; [|]) | (intros [? _]; discriminate) | (intros ?; discriminate) | exact I ]).
Ltac not_tight := let u := fresh in let e := fresh in let E := fresh in let H := fresh in
  intros (u & e & E & H); change (Pc PcEOL :: []) with ([] ++ [Pc PcEOL]) in E;
  repeat rewrite app_comm_cons in E; apply app_inj_tail in E as [_ <-]; exact H.

Local Definition W (s : string) : element := Pc (PcWord (B s)).
Local Definition sp : element := Lay LSpace.
Local Definition nl : element := Pc PcEOL.
Local Definition it (t : itype) (v : bytes) : item := mkItem t v 0.

Lemma word_file f : ordinary f -> f <> [] ->
  forallb (fun c => negb (ends_word c)) (B "file:" ++ f) = true /\ word_type (B "file:" ++ f) = Some itemFilename.
Proof.
  intros HO Hf. split.
  - rewrite forallb_app. apply andb_true_intro. split; [reflexivity|]. apply forallb_forall. intros c Hc. now rewrite (HO c Hc).
  - unfold word_type. assert (E : mget keywords (B "file:" ++ f) = None).
    { apply mget_None. intros HI. vm_compute in HI. repeat (destruct HI as [HI|HI]; [discriminate HI|]). exact HI. }
    rewrite E. destruct f as [|c f]; [congruence|]. reflexivity.
Qed.

Lemma Lines_std : Lines
  [W "reject"; sp; W "from-has"; sp; W "bad"; Pc PcComma; W "route"; nl;
   W "reject"; sp; W "to-has"; sp; W "bad"; Pc PcComma; W "route"; nl;
   W "reject"; sp; W "helo-has"; sp; W "none"; nl] std_rules.
Proof.
  change (Lines ([W "reject"; sp; W "from-has"; sp; W "bad"; Pc PcComma; W "route"; nl] ++
     [W "reject"; sp; W "to-has"; sp; W "bad"; Pc PcComma; W "route"; nl] ++
     [W "reject"; sp; W "helo-has"; sp; W "none"; nl])
    ([a_rule pAny pMfrom (EOpt OFromHas (N.lor oBad oRoute))] ++ [a_rule pAny pRto (EOpt OToHas (N.lor oBad oRoute))] ++ [a_rule pAny pHelo (EOpt OHelo oNone)])).
  assert (HR : forall k v tbl kd ts o req, option_kind k = Some (kd, tbl) -> GOpts tbl ts o -> needs (EOpt kd o) = req ->
    GRule (it itemReject (B "reject") :: it k v :: ts) (a_rule pAny req (EOpt kd o))).
  { intros k v tbl kd ts o req Hk HG <-. unfold a_rule. rewrite <- (needs_clauses_one _ []).
    apply (GR [] pAny (it itemReject (B "reject")) aReject (it k v :: ts)); try discriminate; try reflexivity; [constructor| |congruence].
    apply GCs_one, GC_plain. change (EOpt kd o) with (series [EOpt kd o]). constructor. constructor. constructor. econstructor; eauto. }
  apply Lines_app; [|apply Lines_app].
  - eapply Lines_rule; [| |exists (removelast (pieces [W "reject"; sp; W "from-has"; sp; W "bad"; Pc PcComma; W "route"; nl])); reflexivity|
      apply (HR itemFromHas (B "from-has") addrMap OFromHas [it itemBad (B "bad"); it itemComma (B ","); it itemRoute (B "route")]); [reflexivity| |reflexivity]].
    + split; [cbn; words|]. split; [reflexivity|]. unfold W, nl. not_tight.
    + reflexivity.
    + constructor; [cbn; auto 10|reflexivity|]. constructor. cbn; auto 10.
  - eapply Lines_rule; [| |exists (removelast (pieces [W "reject"; sp; W "to-has"; sp; W "bad"; Pc PcComma; W "route"; nl])); reflexivity|
      apply (HR itemToHas (B "to-has") addrMap OToHas [it itemBad (B "bad"); it itemComma (B ","); it itemRoute (B "route")]); [reflexivity| |reflexivity]].
    + split; [cbn; words|]. split; [reflexivity|]. unfold W, nl. not_tight.
    + reflexivity.
    + constructor; [cbn; auto 10|reflexivity|]. constructor. cbn; auto 10.
  - eapply Lines_rule; [| |exists (removelast (pieces [W "reject"; sp; W "helo-has"; sp; W "none"; nl])); reflexivity|
      apply (HR itemHeloHas (B "helo-has") heloMap OHelo [it itemNone (B "none")]); [reflexivity| |reflexivity]].
    + split; [cbn; words|]. split; [reflexivity|]. unfold W, nl. not_tight.
    + reflexivity.
    + constructor. cbn; auto 10.
Qed.

Lemma Lines_messages : Lines [W "@message"; sp; W "reject"; sp; W "all"; nl] [reject_messages].
Proof.
  apply (Lines_rule _ [it itemAMessage (B "@message"); it itemReject (B "reject"); it itemAll (B "all")]).
  - split; [cbn; words|]. split; [reflexivity|]. unfold W, nl. not_tight.
  - reflexivity.
  - exists (removelast (pieces [W "@message"; sp; W "reject"; sp; W "all"; nl])). reflexivity.
  - unfold reject_messages, a_rule. change pAny with (needs EAll) at 1. rewrite <- (needs_clauses_one _ []).
    apply (GR [it itemAMessage (B "@message")] pMessage (it itemReject (B "reject")) aReject [it itemAll (B "all")]); try discriminate.
    + constructor. reflexivity.
    + reflexivity.
    + apply GCs_one, GC_plain. change EAll with (series [EAll]). constructor. constructor. constructor. constructor. reflexivity.
    + intros _. cbn. lia.
Qed.

Lemma Lines_from f : ordinary f -> f <> [] -> Lines [W "reject"; sp; W "from"; sp; Pc (PcWord (B "file:" ++ f)); nl] [reject_from f].
Proof.
  intros HO Hf. destruct (word_file f HO Hf) as [H1 H2].
  apply (Lines_rule _ [it itemReject (B "reject"); it itemFrom (B "from"); it itemFilename (B "file:" ++ f)]).
  - split; [|split; [reflexivity|unfold W, nl; not_tight]]. cbn [wf_source element_ok W sp nl mode_after]. rewrite H1, H2. cbn; words.
  - cbn [removelast pieces W sp nl strip map piece_tok]. rewrite H2. reflexivity.
  - exists (removelast (pieces [W "reject"; sp; W "from"; sp; Pc (PcWord (B "file:" ++ f)); nl])). reflexivity.
  - unfold reject_from, a_rule. change pMfrom with (needs (EMatch MFrom (B "file:" ++ f))). rewrite <- (needs_clauses_one _ []).
    apply (GR [] pAny (it itemReject (B "reject")) aReject [it itemFrom (B "from"); it itemFilename (B "file:" ++ f)]); try discriminate; try congruence; [constructor|reflexivity|].
    apply GCs_one, GC_plain. change (EMatch MFrom (B "file:" ++ f)) with (series [EMatch MFrom (B "file:" ++ f)]). do 3 constructor.
    apply (GT_match (it itemFrom (B "from")) MFrom (it itemFilename (B "file:" ++ f))); [reflexivity|repeat split; discriminate].
Qed.

Lemma Lines_not_to f : ordinary f -> f <> [] -> Lines [W "reject"; sp; W "not"; sp; W "to"; sp; Pc (PcWord (B "file:" ++ f)); nl] [reject_not_to f].
Proof.
  intros HO Hf. destruct (word_file f HO Hf) as [H1 H2].
  apply (Lines_rule _ [it itemReject (B "reject"); it itemNot (B "not"); it itemTo (B "to"); it itemFilename (B "file:" ++ f)]).
  - split; [|split; [reflexivity|unfold W, nl; not_tight]]. cbn [wf_source element_ok W sp nl mode_after]. rewrite H1, H2. cbn; words.
  - cbn [removelast pieces W sp nl strip map piece_tok]. rewrite H2. reflexivity.
  - exists (removelast (pieces [W "reject"; sp; W "not"; sp; W "to"; sp; Pc (PcWord (B "file:" ++ f)); nl])). reflexivity.
  - unfold reject_not_to, a_rule. change pRto with (needs (ENot (EMatch MTo (B "file:" ++ f)))). rewrite <- (needs_clauses_one _ []).
    apply (GR [] pAny (it itemReject (B "reject")) aReject [it itemNot (B "not"); it itemTo (B "to"); it itemFilename (B "file:" ++ f)]);
      try discriminate; try congruence; [constructor|reflexivity|].
    apply GCs_one, GC_plain. change (ENot (EMatch MTo (B "file:" ++ f))) with (series [ENot (EMatch MTo (B "file:" ++ f))]). do 3 constructor.
    apply GT_not; [reflexivity|].
    apply (GT_match (it itemTo (B "to")) MTo (it itemFilename (B "file:" ++ f))); [reflexivity|repeat split; discriminate].
Qed.

Lemma Lines_helo f : ordinary f -> f <> [] ->
  Lines [W "@from"; sp; W "reject"; sp; W "helo"; sp; Pc (PcWord (B "file:" ++ f)); nl] [reject_helo f].
Proof.
  intros HO Hf. destruct (word_file f HO Hf) as [H1 H2].
  apply (Lines_rule _ [it itemAFrom (B "@from"); it itemReject (B "reject"); it itemHelo (B "helo"); it itemFilename (B "file:" ++ f)]).
  - split; [|split; [reflexivity|unfold W, nl; not_tight]]. cbn [wf_source element_ok W sp nl mode_after]. rewrite H1, H2. cbn; words.
  - cbn [removelast pieces W sp nl strip map piece_tok]. rewrite H2. reflexivity.
  - exists (removelast (pieces [W "@from"; sp; W "reject"; sp; W "helo"; sp; Pc (PcWord (B "file:" ++ f)); nl])). reflexivity.
  - unfold reject_helo, a_rule. change pHelo with (needs (EMatch MHelo (B "file:" ++ f))). rewrite <- (needs_clauses_one _ []).
    apply (GR [it itemAFrom (B "@from")] pMfrom (it itemReject (B "reject")) aReject [it itemHelo (B "helo"); it itemFilename (B "file:" ++ f)]);
      try discriminate; [constructor; reflexivity|reflexivity| |intros _; cbn; lia].
    apply GCs_one, GC_plain. change (EMatch MHelo (B "file:" ++ f)) with (series [EMatch MHelo (B "file:" ++ f)]). do 3 constructor.
    apply (GT_match (it itemHelo (B "helo")) MHelo (it itemFilename (B "file:" ++ f))); [reflexivity|repeat split; discriminate].
Qed.

(** the text of these rules, in pieces *)
Definition option_source (o : rule_opts) : source :=
  (if o_stdrules o then
    [W "reject"; sp; W "from-has"; sp; W "bad"; Pc PcComma; W "route"; nl;
     W "reject"; sp; W "to-has"; sp; W "bad"; Pc PcComma; W "route"; nl;
     W "reject"; sp; W "helo-has"; sp; W "none"; nl] else []) ++
  (if o_failgotdata o then [W "@message"; sp; W "reject"; sp; W "all"; nl] else []) ++
  (match o_fromreject o with [] => [] | f => [W "reject"; sp; W "from"; sp; Pc (PcWord (B "file:" ++ f)); nl] end) ++
  (match o_toaccept o with [] => [] | f => [W "reject"; sp; W "not"; sp; W "to"; sp; Pc (PcWord (B "file:" ++ f)); nl] end) ++
  (match o_heloreject o with [] => [] | f => [W "@from"; sp; W "reject"; sp; W "helo"; sp; Pc (PcWord (B "file:" ++ f)); nl] end).
Lemma option_source_ok o : ordinary (o_fromreject o) -> ordinary (o_toaccept o) -> ordinary (o_heloreject o) ->
  render (option_source o) = buildText o /\ Lines (option_source o) (documented o).
Proof.
  intros H1 H2 H3. unfold option_source. split.
  - rewrite !render_app. unfold buildText. repeat f_equal.
    + destruct (o_stdrules o); reflexivity.
    + destruct (o_failgotdata o); reflexivity.
    + destruct (o_fromreject o) as [|c f]; [reflexivity|]. cbn. rewrite ?app_nil_r. reflexivity.
    + destruct (o_toaccept o) as [|c f]; [reflexivity|]. cbn. rewrite ?app_nil_r. reflexivity.
    + destruct (o_heloreject o) as [|c f]; [reflexivity|]. cbn. rewrite ?app_nil_r. reflexivity.
  - unfold documented. repeat apply Lines_app.
    + destruct (o_stdrules o); [apply Lines_std|apply Lines_nil].
    + destruct (o_failgotdata o); [apply Lines_messages|apply Lines_nil].
    + destruct (o_fromreject o) as [|c f]; [apply Lines_nil|apply Lines_from; [auto|discriminate]].
    + destruct (o_toaccept o) as [|c f]; [apply Lines_nil|apply Lines_not_to; [auto|discriminate]].
    + destruct (o_heloreject o) as [|c f]; [apply Lines_nil|apply Lines_helo; [auto|discriminate]].
Qed.

(** The options become exactly the documented rules, in the documented order,
    whatever files there are. *)
Theorem C14_options_to_rules fds fs o :
  ordinary (o_fromreject o) -> ordinary (o_toaccept o) -> ordinary (o_heloreject o) ->
  buildRules fds fs o = PRules (documented o).
Proof.
  intros H1 H2 H3. unfold buildRules. destruct (option_source_ok o H1 H2 H3) as (<- & HL). now apply Lines_parse.
Qed.

(** With all files loadable, the documented rules come first. *)
Corollary C14_before_rule_files fds fs t o files r :
  ordinary (o_fromreject o) -> ordinary (o_toaccept o) -> ordinary (o_heloreject o) -> Forall (fun f => f <> []) files ->
  forall base, buildRules fds fs o = PRules base -> setupRules fds fs t base files = Some r -> rr_good r = true ->
  exists rest, rr_rules r = documented o ++ rest.
Proof.
  intros H1 H2 H3 HF base Eb Es Hg. rewrite (C14_options_to_rules fds fs o H1 H2 H3) in Eb. injection Eb as <-.
  destruct (C12_all_or_nothing fds fs t (documented o) files HF) as (r' & E' & [(parts & t' & _ & _ & H)|(_ & H & _)]); [|congruence].
  assert (r' = r) by congruence. subst. eauto.
Qed.

Example C14_example : let o := mkRuleOpts true true (B "/etc/from") [] (B "x") in
  ordinary (o_fromreject o) /\ ordinary (o_heloreject o) /\ length (documented o) = 6.
Proof.
  cbn zeta. split; [|split]; [| |reflexivity].
  - intros c Hc. cbn in Hc. repeat (destruct Hc as [<-|Hc]; [reflexivity|]). destruct Hc.
  - intros c Hc. cbn in Hc. repeat (destruct Hc as [<-|Hc]; [reflexivity|]). destruct Hc.
Qed.
(** A name with other characters can become different rules. *)
Example C14_not_ordinary : exists rs,
  buildRules 0 nofs (mkRuleOpts false false (B "a or all") [] []) = PRules rs /\
  rs = [a_rule pAny pMfrom (EOr (EMatch MFrom (B "file:a")) EAll)].
Proof. eexists; split; [vm_compute; reflexivity|reflexivity]. Qed.
