(** C08: printing a rule and parsing it again. *)
From Verif Require Import Bytes Outcome Lexer LexSpec LexProofs Ast GoNet Parser Grammar
  ParseProofs ParseComplete Layout GramStrip GramFacts PropsLex PropsParse PropsLoad.
From Coq Require Import Permutation.

(** ** What can be printed *)

(** A plain word: at least one character, no whitespace, comma, semicolon or
    parenthesis, not starting with a double quote, not a lone backslash and not
    the prefix "file:" on its own. *)
Definition plain (w : bytes) : Prop :=
  w <> [] /\ (forall c, In c w -> ends_word c = false) /\
  (forall r, w <> ch_quote :: r) /\ w <> [ch_bslash] /\ w <> B "file:".

(** A plain word that does not look like a file name. *)
Definition plain_domain (d : bytes) : Prop :=
  plain d /\ (forall r, d <> B "/" ++ r) /\ (forall r, d <> B "./" ++ r) /\ (forall r, d <> B "file:" ++ r).

(** A value that is the same between double quotes: no double quote, no two
    backslashes in a row, no backslash at its end; and not empty. *)
Definition clean_value (v : bytes) : Prop :=
  v <> [] /\ ~ In ch_quote v /\ (forall a b, v <> a ++ [ch_bslash; ch_bslash] ++ b) /\
  (forall a, v <> a ++ [ch_bslash]).

(** the arguments and the DNS blocklist domains in an expression *)
Fixpoint args (e : expr) : list bytes :=
  match e with
  | EAnd l => concat (map args l)
  | ENot e => args e
  | EOr a b => args a ++ args b
  | EMatch _ a | ESource a => [a]
  | _ => []
  end.
Fixpoint domains (e : expr) : list bytes :=
  match e with
  | EAnd l => concat (map domains l)
  | ENot e => domains e
  | EOr a b => domains a ++ domains b
  | EDnsbl d | EDbl _ d => [d]
  | _ => []
  end.

Definition plain_clause (c : rclause) : Prop :=
  (forall a, In a (args (rc_expr c)) -> plain a) /\
  (forall d, In d (domains (rc_expr c)) -> plain_domain d) /\
  (forall k v, mget (rc_withs c) k = Some v -> k <> B "make-yakker" -> clean_value v).
Definition plain_rule (r : rule) : Prop := Forall plain_clause (r_clauses r).

(** Two rules are the same: same phase, action, expressions, and the same
    option values (a Go map has no order). *)
Definition same_clause (c c' : rclause) : Prop :=
  rc_expr c = rc_expr c' /\ forall k, mget (rc_withs c) k = mget (rc_withs c') k.
Definition same_rule (r r' : rule) : Prop :=
  r_result r = r_result r' /\ r_requires r = r_requires r' /\ r_deferto r = r_deferto r' /\
  Forall2 same_clause (r_clauses r) (r_clauses r').

(** ** Words of a printed rule *)

Definition sword (w : bytes) : bool :=
  match w with [] => false | c :: _ => negb (Ascii.eqb c ch_quote) end &&
  forallb (fun c => negb (ends_word c)) w && negb (beqb w [ch_bslash]) &&
  match word_type w with Some _ => true | None => false end.

Lemma plain_sword w : plain w -> sword w = true.
Proof.
  intros (H0 & H1 & H2 & H3 & H4). unfold sword. rewrite !andb_true_iff. repeat split.
  - destruct w as [|c r]; [congruence|]. destruct (Ascii.eqb_spec c ch_quote) as [->|]; auto. exfalso. eapply H2; eauto.
  - apply forallb_forall. intros c Hc. now rewrite (H1 c Hc).
  - destruct (beqb_spec w [ch_bslash]); [congruence|reflexivity].
  - unfold word_type. destruct (mget keywords w); auto. destruct (_ || _); auto.
    destruct (has_prefix w _); auto. destruct (beqb_spec w (B "file:")); [congruence|reflexivity].
Qed.

Definition Frag (src : source) : Prop :=
  mode_end INL src = INL /\ forall k, at_word_end k -> wf_source INL src k.

(** [Prints txt Q]: the text is a piece of a line whose tokens satisfy [Q]. *)
Definition Prints (txt : bytes) (Q : list item -> Prop) : Prop :=
  exists src, render src = txt /\ Frag src /\ Q (fake (pieces src)).

Lemma fake_app a b : fake (a ++ b) = fake a ++ fake b.
Proof. apply map_app. Qed.

Lemma Frag_space a b : Frag a -> Frag b -> Frag (a ++ Lay LSpace :: b).
Proof.
  intros [Ma Wa] [Mb Wb]. split.
  - rewrite mode_end_app, Ma. exact Mb.
  - intros k Hk. apply wf_source_app. rewrite Ma. split.
    + apply Wa. reflexivity.
    + split; [exact I|]. apply Wb. exact Hk.
Qed.

Lemma sword_ok m w rest : sword w = true -> (m = SOL -> forall r, w <> "#"%char :: r) -> at_word_end rest ->
  element_ok m (Pc (PcWord w)) rest.
Proof.
  unfold sword. rewrite !andb_true_iff. intros (((H1 & H2) & H3) & H4) Hm Hr. cbn [element_ok].
  split; auto. split; auto. split.
  - destruct w as [|c r]; [discriminate|]. cbn [word_start_ok]. split.
    + intros ->. discriminate.
    + split.
      * intros E ->. eapply Hm; eauto.
      * intros [E _]. rewrite E in H3. discriminate.
  - destruct (word_type w); [discriminate|]. discriminate H4.
Qed.

Lemma Frag_word w : sword w = true -> Frag [Pc (PcWord w)].
Proof.
  intros H. split; [reflexivity|]. intros k Hk. split; [|exact I]. apply sword_ok; auto. discriminate.
Qed.

Lemma render_word w : render [Pc (PcWord w)] = w.
Proof. unfold render. cbn. apply app_nil_r. Qed.

Definition wtype (w : bytes) : itype := match word_type w with Some t => t | None => itemError end.
Definition witem (w : bytes) : item := mkItem (wtype w) w 0.

Lemma Prints_word w (Q : list item -> Prop) : sword w = true -> Q [witem w] -> Prints w Q.
Proof.
  intros H HQ. exists [Pc (PcWord w)]. split; [apply render_word|]. split; [now apply Frag_word|]. exact HQ.
Qed.

Lemma Prints_space a b (P Q R : list item -> Prop) : Prints a P -> Prints b Q ->
  (forall x y, P x -> Q y -> R (x ++ y)) -> Prints (a ++ B " " ++ b) R.
Proof.
  intros (sa & <- & Fa & Pa) (sb & <- & Fb & Pb) HR. exists (sa ++ Lay LSpace :: sb). split; [|split].
  - rewrite render_app. reflexivity.
  - now apply Frag_space.
  - rewrite pieces_app, fake_app. apply HR; auto.
Qed.

Lemma Prints_imp a (P Q : list item -> Prop) : Prints a P -> (forall x, P x -> Q x) -> Prints a Q.
Proof. intros (s & E & F & H) HI. exists s. auto. Qed.

(** a keyword and something *)
Lemma Prints_kw w b (Q R : list item -> Prop) : sword w = true -> Prints b Q ->
  (forall y, Q y -> R (witem w :: y)) -> Prints (w ++ B " " ++ b) R.
Proof.
  intros H HQ HR. apply (Prints_space w b (fun x => x = [witem w]) Q R); auto.
  - apply Prints_word; auto.
  - intros x y -> Hy. apply HR; auto.
Qed.

Lemma Prints_paren a (P R : list item -> Prop) : Prints a P ->
  (forall x l r, P x -> i_typ l = itemLparen -> i_typ r = itemRparen -> R (l :: x ++ [r])) ->
  Prints (B "( " ++ a ++ B " )") R.
Proof.
  intros (s & <- & [M W] & HP) HR. exists (Pc (PcPunct "(") :: Lay LSpace :: s ++ [Lay LSpace; Pc (PcPunct ")")]).
  split; [|split].
  - rewrite !render_cons, render_app. reflexivity.
  - split.
    + cbn [mode_end mode_after]. rewrite mode_end_app, M. reflexivity.
    + intros k Hk. cbn [wf_source mode_after]. split; [discriminate|]. split; [exact I|].
      apply wf_source_app. rewrite M. split; [apply W; reflexivity|].
      cbn. split; auto. split; auto. discriminate.
  - cbn [pieces]. rewrite pieces_app. cbn [pieces]. unfold fake. cbn [map]. rewrite map_app. cbn [map].
    apply HR; auto.
Qed.

(** ** Option lists *)

Definition opts_names (opts0 : opt) : list bytes :=
  let bad := ohas_all opts0 oBad in
  let opts1 := if bad then (opts0 - oBad)%N else opts0 in
  let ip := ohas_all opts1 oIp in
  let opts2 := if ip then (opts1 - oIp)%N else opts1 in
  let any := ohas_all opts2 oAny in
  let opts3 := if any then (opts2 - oAny)%N else opts2 in
  ssort ((if bad then [B "bad"] else []) ++ (if ip then [B "ip"] else []) ++
         (if any then [B "any"] else []) ++
         map snd (filter (fun kv => ohas_all opts3 (fst kv)) revMap)).
Lemma opts_string_names o : opts_string o = join (B ",") (opts_names o).
Proof. reflexivity. Qed.

Definition memN (x : N) (l : list N) : bool := existsb (N.eqb x) l.
Lemma memN_In x l : memN x l = true -> In x l.
Proof. unfold memN. rewrite existsb_exists. intros (y & Hy & E). apply N.eqb_eq in E. now subst. Qed.

(** every union of entries of a table *)
Fixpoint unions (tbl : omap) : list opt :=
  match tbl with
  | [] => [0%N]
  | (_, v) :: t => let u := unions t in u ++ filter (fun x => negb (memN x u)) (map (N.lor v) u)
  end.

Definition union_closed (tbl : omap) : bool :=
  let u := unions tbl in forallb (fun kv => memN (snd kv) u && forallb (fun x => memN (N.lor (snd kv) x) u) u) tbl.

Lemma GOpts_union tbl ts o : union_closed tbl = true -> GOpts tbl ts o -> In o (unions tbl).
Proof.
  intros HC. unfold union_closed in HC. rewrite forallb_forall in HC. induction 1 as [t o H|t o c ts os H Hc HG IH].
  - apply HC in H. apply andb_true_iff in H as [H _]. now apply memN_In.
  - apply HC in H. apply andb_true_iff in H as [_ H]. rewrite forallb_forall in H. apply memN_In. apply (H os). exact IH.
Qed.

Definition name_opt (tbl : omap) (w : bytes) : opt := omap_get tbl (wtype w).
Definition names_opt (tbl : omap) (ws : list bytes) : opt := fold_right N.lor 0%N (map (name_opt tbl) ws).

(** the names printed for a value are names of the table, for that value *)
Definition opts_ok (tbl : omap) (o : opt) : bool :=
  match opts_names o with [] => false | _ => true end &&
  forallb (fun w => sword w && negb (N.eqb (name_opt tbl w) 0)) (opts_names o) &&
  N.eqb (names_opt tbl (opts_names o)) o.
Definition table_ok (tbl : omap) : bool :=
  union_closed tbl && forallb (fun o => N.eqb o 0 || opts_ok tbl o) (unions tbl) &&
  forallb (fun kv => negb (N.eqb (snd kv) 0)) tbl.

Lemma tables_ok : forallb table_ok [heloMap; dnsMap; addrMap; dblMap] = true.
Proof. vm_compute. reflexivity. Qed.

Lemma table_is_ok tbl : In tbl [heloMap; dnsMap; addrMap; dblMap] -> table_ok tbl = true.
Proof. apply forallb_forall. exact tables_ok. Qed.

Lemma omap_get_In tbl t : omap_get tbl t <> 0%N -> In (t, omap_get tbl t) tbl.
Proof.
  induction tbl as [|[k v] tbl IH]; simpl; [unfold oZero; congruence|]. destruct (ieqb_spec t k) as [->|Hne]; auto.
Qed.

Lemma lor_nonzero a b : a <> 0%N -> N.lor a b <> 0%N.
Proof. intros H E. apply N.lor_eq_0_iff in E. tauto. Qed.

Lemma GOpts_ok tbl ts o : table_ok tbl = true -> GOpts tbl ts o -> opts_ok tbl o = true.
Proof.
  unfold table_ok. rewrite !andb_true_iff, !forallb_forall. intros [[HC HO] HN] HG.
  assert (Hne : o <> 0%N).
  { destruct HG as [t o H|t o c ts os H Hc HG]; apply HN in H; cbn [snd] in H; destruct (N.eqb_spec o 0); try discriminate; auto.
    now apply lor_nonzero. }
  specialize (HO o (GOpts_union _ _ _ HC HG)). apply orb_true_iff in HO as [HO|HO]; auto.
  apply N.eqb_eq in HO. congruence.
Qed.

Lemma Prints_names tbl ws : ws <> [] -> (forall w, In w ws -> sword w = true /\ name_opt tbl w <> 0%N) ->
  Prints (join (B ",") ws) (fun ts => GOpts tbl ts (names_opt tbl ws)).
Proof.
  induction ws as [|w ws IH]; [congruence|]. intros _ H.
  assert (Hw := H w (or_introl eq_refl)). destruct Hw as [Hs Hn].
  assert (Ht : In (i_typ (witem w), name_opt tbl w) tbl) by (apply omap_get_In; exact Hn).
  destruct ws as [|w2 ws].
  - cbn [join]. apply Prints_word; auto. unfold names_opt. cbn. rewrite N.lor_0_r. now apply GO_one.
  - destruct IH as (s & Es & [M W] & HG); [discriminate|intros x Hx; apply H; now right|].
    change (join (B ",") (w :: w2 :: ws)) with (w ++ B "," ++ join (B ",") (w2 :: ws)). rewrite <- Es.
    exists (Pc (PcWord w) :: Pc PcComma :: s). split; [reflexivity|]. split.
    + split; [exact M|]. intros k Hk. cbn [wf_source mode_after]. split; [|split].
      * apply sword_ok; auto; [discriminate|]. rewrite render_cons. reflexivity.
      * cbn [element_ok]. rewrite Es. destruct (H w2) as [Hs2 _]; [now right; left|]. unfold sword in Hs2.
        rewrite !andb_true_iff in Hs2. destruct Hs2 as (((H1 & H2) & _) & _).
        destruct w2 as [|c r]; [discriminate|]. apply andb_true_iff in H2 as [H2 _].
        assert (E : exists z, join (B ",") ((c :: r) :: ws) ++ k = c :: z).
        { destruct ws; cbn [join app]; eauto. }
        destruct E as (z & ->). cbn [bad_after_comma]. apply negb_true_iff in H2.
        unfold ends_word, mem_byte in *. cbn [existsb] in *. apply orb_false_iff in H2 as [_ H2].
        repeat match goal with Hx : _ || _ = false |- _ => apply orb_false_iff in Hx as [? Hx] end.
        repeat (apply orb_false_iff; split); auto.
      * apply W. exact Hk.
    + cbn [pieces]. unfold fake. cbn [map]. apply GO_more; auto.
Qed.

Lemma Prints_opts tbl o : opts_ok tbl o = true -> Prints (opts_string o) (fun ts => GOpts tbl ts o).
Proof.
  unfold opts_ok. rewrite !andb_true_iff, forallb_forall. intros ((H1 & H2) & H3). apply N.eqb_eq in H3.
  rewrite opts_string_names. eapply Prints_imp.
  - apply (Prints_names tbl).
    + intros E. rewrite E in H1. discriminate.
    + intros w Hw. apply H2 in Hw. apply andb_true_iff in Hw as [Hs Hn]. split; auto.
      intros E. rewrite E in Hn. discriminate.
  - cbn beta. intros x. rewrite H3. auto.
Qed.

(** ** Expressions *)

Definition otable (k : okind) : omap :=
  match k with ODns => dnsMap | OHelo => heloMap | OFromHas | OToHas => addrMap end.
Lemma otable_ok k : table_ok (otable k) = true.
Proof.
  apply table_is_ok. destruct k; [right; left|left|right; right; left|right; right; left]; reflexivity.
Qed.
Lemma dbltable_ok : table_ok dblMap = true.
Proof. apply table_is_ok. right; right; right; left; reflexivity. Qed.
Lemma option_kind_table t k tbl : option_kind t = Some (k, tbl) -> tbl = otable k.
Proof. destruct t; try discriminate; intros H; injection H as <- <-; reflexivity. Qed.

(** What the parser can produce. *)
Fixpoint wf (e : expr) : Prop :=
  match e with
  | EAnd l => 2 <= length l /\ (fix all l := match l with [] => True | x :: l' => wf x /\ all l' end) l
  | ENot e => wf e
  | EOr a b => wf a /\ wf b
  | EAll | ETls _ | ESource _ => True
  | EMatch MIp a => wtype a = itemFilename \/ parse_ip a <> None \/ parse_cidr a <> None
  | EMatch _ _ => True
  | EDnsbl d => exists u, d = u ++ [ch_dot]
  | EDbl o d => opts_ok dblMap o = true /\ exists u, d = u ++ [ch_dot]
  | EOpt k o => opts_ok (otable k) o = true
  end.

Lemma wf_and l : wf (EAnd l) <-> 2 <= length l /\ Forall wf l.
Proof.
  cbn [wf]. apply and_iff_compat_l. induction l as [|x l IH]; [split; auto|]. rewrite Forall_cons_iff, IH. tauto.
Qed.

(** a word that the lexer took for a file name *)
Definition file_text (i : item) : Prop := i_typ i = itemFilename -> wtype (i_val i) = itemFilename.

Lemma file_text_Lexes m p s ts : Lexes m p s ts -> Forall file_text ts.
Proof.
  induction 1; auto; repeat (apply Forall_cons || apply Forall_nil); auto; unfold file_text; cbn [i_typ i_val]; try discriminate.
  - unfold punct_type in *.
    repeat match goal with H : (if ?b then _ else _) = _ |- _ => destruct b end;
    try discriminate; match goal with H : Some _ = Some _ |- _ => injection H as <- end; discriminate.
  - intros ->. unfold wtype. match goal with H : word_type _ = _ |- _ => rewrite H end. reflexivity.
Qed.

Lemma G_wf :
  (forall ts e, GTerm ts e -> Forall file_text ts -> wf e) /\
  (forall ts e, GOrl ts e -> Forall file_text ts -> wf e) /\
  (forall ts es, GSeries ts es -> Forall file_text ts -> es <> [] /\ Forall wf es) /\
  (forall ts e, GAndl ts e -> Forall file_text ts -> wf e).
Proof.
  apply G_mutind; intros; repeat match goal with
    | H : Forall _ (_ :: _) |- _ => inversion H; subst; clear H
    | H : Forall _ (_ ++ _) |- _ => apply Forall_app in H as [? ?] end.
  - cbn [wf]. apply H. assumption.
  - apply H. assumption.
  - exact I.
  - exact I.
  - match goal with H : option_kind ?t = _ |- _ => apply option_kind_table in H; rewrite H in * end.
    cbn [wf]. match goal with H : GOpts _ _ _ |- _ => exact (GOpts_ok _ _ _ (otable_ok _) H) end.
  - match goal with H : match_kind ?t = _ |- _ => destruct t; try discriminate H; injection H as <- end; exact I.
  - cbn [wf]. match goal with H : is_ip_arg ?a, F : file_text ?a |- _ => destruct H as [H|[_ H]]; [left; apply F; exact H|right; exact H] end.
  - match goal with H : is_domain _ _ |- _ => destruct H as (_ & _ & [(u & Hu & ->)|[_ ->]]) end; cbn [wf]; eexists; [eassumption|reflexivity].
  - exact I.
  - match goal with H : is_domain _ _ |- _ => destruct H as (_ & _ & [(u & Hu & ->)|[_ ->]]) end; cbn [wf];
      (split; [match goal with H : GOpts _ _ _ |- _ => exact (GOpts_ok _ _ _ dbltable_ok H) end|]); eexists; [eassumption|reflexivity].
  - apply H. assumption.
  - cbn [wf]. split; [apply H|apply H0]; assumption.
  - split; [discriminate|]. constructor; [apply H; assumption|constructor].
  - split; [discriminate|]. constructor; [apply H; assumption|]. apply H0; assumption.
  - destruct H as [H1 H2]; [assumption|]. destruct es as [|e [|e2 es]]; [congruence| |].
    + inversion H2; assumption.
    + apply (proj2 (wf_and _)). split; [cbn [length]; lia|exact H2].
Qed.

Lemma keyword_no_dot : forallb (fun kv => negb (mem_byte ch_dot (fst kv)) &&
  match parse_ip (fst kv), parse_cidr (fst kv) with None, None => true | _, _ => false end) keywords = true.
Proof. vm_compute. reflexivity. Qed.

Lemma keyword_in w t : mget keywords w = Some t ->
  ~ In ch_dot w /\ parse_ip w = None /\ parse_cidr w = None.
Proof.
  intros H. apply mget_In in H. pose proof keyword_no_dot as HK. rewrite forallb_forall in HK. apply HK in H.
  cbn [fst] in H. apply andb_true_iff in H as [H1 H2]. split.
  - intros Hd. apply (proj2 (mem_byte_In _ _)) in Hd. rewrite Hd in H1. discriminate.
  - destruct (parse_ip w), (parse_cidr w); try discriminate H2. auto.
Qed.

Lemma has_prefix_app w p : has_prefix w p = true -> exists r, w = p ++ r.
Proof. apply has_prefix_spec. Qed.

Lemma domain_word d u : plain_domain d -> d = u ++ [ch_dot] -> is_domain (witem d) d.
Proof.
  intros (_ & H1 & H2 & H3) E. unfold is_domain. cbn [witem i_typ i_val].
  assert (Hd : In ch_dot d) by (rewrite E; apply in_or_app; right; left; reflexivity).
  split; [|split; auto].
  - unfold wtype, word_type. destruct (mget keywords d) as [t|] eqn:Ek.
    + apply keyword_in in Ek. tauto.
    + destruct (has_prefix d (B "/")) eqn:P1; [apply has_prefix_app in P1 as (r & P1); exfalso; eapply H1; eauto|].
      destruct (has_prefix d (B "./")) eqn:P2; [apply has_prefix_app in P2 as (r & P2); exfalso; eapply H2; eauto|].
      destruct (has_prefix d (B "file:")) eqn:P3; [apply has_prefix_app in P3 as (r & P3); exfalso; eapply H3; eauto|].
      reflexivity.
  - left. exists u. auto.
Qed.

Lemma wtype_arg w : sword w = true -> is_arg (witem w).
Proof.
  unfold sword. rewrite !andb_true_iff. intros (_ & H). unfold is_arg, witem, wtype. cbn [i_typ].
  destruct (word_type w) as [t|] eqn:E; [|discriminate]. unfold word_type in E.
  destruct (mget keywords w) as [t'|] eqn:Ek.
  - injection E as <-. apply mget_In in Ek.
    assert (HK : forallb (fun kv : bytes * itype => negb (ieqb (snd kv) itemEOF) && negb (ieqb (snd kv) itemEOL) && negb (ieqb (snd kv) itemError)) keywords = true)
      by (vm_compute; reflexivity).
    rewrite forallb_forall in HK. apply HK in Ek. cbn [snd] in Ek. rewrite !andb_true_iff in Ek.
    destruct Ek as ((E1 & E2) & E3). repeat split; intros ->; discriminate.
  - assert (Ht : t = itemFilename \/ t = itemValue).
    { destruct (_ || _); [injection E as <-; auto|]. destruct (has_prefix _ _); [|injection E as <-; auto].
      destruct (beqb _ _); [discriminate|injection E as <-; auto]. }
    destruct Ht as [-> | ->]; repeat split; discriminate.
Qed.

Lemma ip_word a : plain a -> wtype a = itemFilename \/ parse_ip a <> None \/ parse_cidr a <> None -> is_ip_arg (witem a).
Proof.
  intros (_ & _ & _ & _ & Hf) [H|H]; [left; exact H|]. unfold is_ip_arg. cbn [witem i_typ i_val]. unfold wtype, word_type.
  destruct (mget keywords a) as [t|] eqn:Ek.
  - apply keyword_in in Ek. destruct Ek as (_ & E1 & E2). rewrite E1, E2 in H. destruct H; congruence.
  - destruct (_ || _); auto. destruct (has_prefix _ _); auto. destruct (beqb_spec a (B "file:")); [congruence|]. auto.
Qed.

Lemma plain_args_app (P : bytes -> Prop) a b : (forall x, In x (a ++ b) -> P x) <->
  (forall x, In x a -> P x) /\ (forall x, In x b -> P x).
Proof.
  split.
  - intros H. split; intros x Hx; apply H; apply in_or_app; auto.
  - intros [H1 H2] x Hx. apply in_app_or in Hx as [Hx|Hx]; auto.
Qed.

Lemma Prints_series l : l <> [] -> Forall (fun e => Prints (expr_string e) (fun ts => GTerm ts e)) l ->
  Prints (join (B " ") (map expr_string l)) (fun ts => GSeries ts l).
Proof.
  induction l as [|e l IH]; [congruence|]. intros _ HF. inversion HF as [|? ? He Hl]; subst.
  destruct l as [|e2 l].
  - cbn [map join]. eapply Prints_imp; [exact He|]. cbn beta. intros x Hx. apply GS_one, GOr_one. exact Hx.
  - change (join (B " ") (map expr_string (e :: e2 :: l))) with
      (expr_string e ++ B " " ++ join (B " ") (map expr_string (e2 :: l))).
    eapply Prints_space; [exact He|apply IH; [discriminate|exact Hl]|]. cbn beta. intros x y Hx Hy.
    apply GS_more; auto. apply GOr_one. exact Hx.
Qed.

Lemma series_one ts e : GTerm ts e -> GAndl ts e.
Proof. intros H. change e with (series [e]). constructor. apply GS_one, GOr_one. exact H. Qed.

Lemma Prints_expr e : wf e -> (forall a, In a (args e) -> plain a) -> (forall d, In d (domains e) -> plain_domain d) ->
  Prints (expr_string e) (fun ts => GTerm ts e).
Proof.
  induction e as [l IH|e IH|a b IHa IHb| |on|d|k a|a|src d|k o] using expr_ind'; intros Hw Ha Hd.
  - apply wf_and in Hw as [Hl Hw]. cbn [expr_string].
    eapply Prints_paren.
    + apply Prints_series; [destruct l; [cbn in Hl; lia|discriminate]|].
      cbn [args domains] in Ha, Hd. clear Hl. induction l as [|x l IHl]; constructor.
      * inversion IH; inversion Hw; subst. cbn [map concat] in *. apply plain_args_app in Ha as [Ha _]. apply plain_args_app in Hd as [Hd _]. auto.
      * inversion IH; inversion Hw; subst. cbn [map concat] in *. apply plain_args_app in Ha as [_ Ha]. apply plain_args_app in Hd as [_ Hd]. auto.
    + cbn beta. intros x lp rp Hx H1 H2. apply GT_paren; auto. replace (EAnd l) with (series l); [now constructor|].
      destruct l as [|? [|? ?]]; cbn in Hl; try lia. reflexivity.
  - change (expr_string (ENot e)) with (B "not" ++ B " " ++ expr_string e).
    eapply Prints_kw; [reflexivity|apply IH; auto|]. cbn beta. intros y Hy. apply GT_not; auto.
  - destruct Hw as [Hwa Hwb]. cbn [args domains] in Ha, Hd. apply plain_args_app in Ha as [Ha1 Ha2]. apply plain_args_app in Hd as [Hd1 Hd2].
    cbn [expr_string].
    replace (B "( " ++ expr_string a ++ B " or " ++ expr_string b ++ B " )") with
      (B "( " ++ (expr_string a ++ B " " ++ (B "or" ++ B " " ++ expr_string b)) ++ B " )")
      by (rewrite <- !app_assoc; reflexivity).
    apply (Prints_paren _ (fun ts => GOrl ts (EOr a b))).
    + eapply (Prints_space _ _ (fun ts => GTerm ts a)); [apply IHa; auto| |].
      * apply (Prints_kw _ _ (fun ts => GTerm ts b) (fun ts => exists z, ts = witem (B "or") :: z /\ GTerm z b)); [reflexivity|apply IHb; auto|]. intros y Hy. eauto.
      * cbn beta. intros x y Hx (z & -> & Hz). exact (GOr_or _ _ (witem (B "or")) _ _ Hx eq_refl (GOr_one _ _ Hz)).
    + cbn beta. intros x lp rp Hx H1 H2. apply GT_paren; auto. change (EOr a b) with (series [EOr a b]). constructor. now apply GS_one.
  - apply Prints_word; [reflexivity|]. apply GT_all. reflexivity.
  - destruct on.
    + apply (Prints_kw (B "tls") (B "on") (fun ts => ts = [witem (B "on")])); [reflexivity|apply Prints_word; reflexivity|].
      intros y ->. apply GT_tls; reflexivity.
    + apply (Prints_kw (B "tls") (B "off") (fun ts => ts = [witem (B "off")])); [reflexivity|apply Prints_word; reflexivity|].
      intros y ->. apply GT_tls; reflexivity.
  - destruct Hw as (u & Hu). assert (Hp : plain_domain d) by (apply Hd; now left).
    apply (Prints_kw (B "dnsbl") d (fun ts => ts = [witem d])); [reflexivity|apply Prints_word; [apply plain_sword, Hp|reflexivity]|].
    intros y ->. apply GT_dnsbl; [reflexivity|]. eapply domain_word; eauto.
  - assert (Hp : plain a) by (apply Ha; now left). cbn [expr_string].
    apply (Prints_kw (mkind_string k) a (fun ts => ts = [witem a])); [destruct k; reflexivity|apply Prints_word; [now apply plain_sword|reflexivity]|].
    intros y ->. pose proof (wtype_arg a (plain_sword a Hp)) as HA.
    destruct k; try (apply (GT_match _ _ (witem a)); [reflexivity|exact HA]).
    apply (GT_ip _ (witem a)); [reflexivity|]. apply ip_word; auto.
  - assert (Hp : plain a) by (apply Ha; now left).
    apply (Prints_kw (B "source") a (fun ts => ts = [witem a])); [reflexivity|apply Prints_word; [now apply plain_sword|reflexivity]|].
    intros y ->. apply (GT_source _ (witem a)); [reflexivity|]. apply wtype_arg, plain_sword; auto.
  - destruct Hw as (Ho & u & Hu). assert (Hp : plain_domain d) by (apply Hd; now left).
    change (expr_string (EDbl src d)) with (B "dbl" ++ B " " ++ (opts_string src ++ B " " ++ d)).
    apply (Prints_kw _ _ (fun ts => exists z, ts = z ++ [witem d] /\ GOpts dblMap z src)); [reflexivity| |].
    + eapply (Prints_space _ _ _ (fun ts => ts = [witem d])); [apply Prints_opts; exact Ho|apply Prints_word; [apply plain_sword, Hp|reflexivity]|].
      cbn beta. intros x y Hx ->. eauto.
    + cbn beta. intros y (z & -> & Hz). apply GT_dbl; auto. eapply domain_word; eauto.
  - cbn [expr_string]. cbn [wf] in Hw. eapply Prints_kw; [destruct k; reflexivity|apply Prints_opts; exact Hw|].
    cbn beta. intros y Hy. apply (GT_opts (witem (okind_string k)) k (otable k)); auto.
    destruct k; reflexivity.
Qed.

(** ** With options *)

Lemma unquote_clean v : ~ In ch_quote v -> (forall a b, v <> a ++ [ch_bslash; ch_bslash] ++ b) ->
  (forall a, v <> a ++ [ch_bslash]) -> unquote (v ++ [ch_quote]) = Some (v, []).
Proof.
  induction v as [|c v IH]; intros Hq Hb He; [reflexivity|].
  assert (Hc : Ascii.eqb c ch_quote = false) by (apply Ascii.eqb_neq; intros ->; apply Hq; now left).
  assert (HI : unquote (v ++ [ch_quote]) = Some (v, [])).
  { apply IH.
    - intros H. apply Hq. now right.
    - intros a b ->. apply (Hb (c :: a) b). reflexivity.
    - intros a ->. apply (He (c :: a)). reflexivity. }
  destruct v as [|d v].
  - cbn. rewrite Hc. destruct (Ascii.eqb_spec c ch_bslash) as [->|]; [|reflexivity]. exfalso. apply (He []). reflexivity.
  - cbn [app]. cbn [app] in HI. cbn [unquote]. rewrite Hc.
    assert (E : Ascii.eqb c ch_bslash && (Ascii.eqb d ch_quote || Ascii.eqb d ch_bslash) = false).
    { destruct (Ascii.eqb_spec c ch_bslash) as [->|]; [|reflexivity].
      destruct (Ascii.eqb_spec d ch_quote) as [->|]; [exfalso; apply Hq; right; now left|].
      destruct (Ascii.eqb_spec d ch_bslash) as [->|]; [exfalso; apply (Hb [] v); reflexivity|]. reflexivity. }
    rewrite E. change (option_map (fun p => (c :: fst p, snd p)) (unquote (d :: v ++ [ch_quote])) = Some (c :: d :: v, [])).
    rewrite HI. reflexivity.
Qed.

Lemma Prints_quoted v (Q : list item -> Prop) : clean_value v -> Q [mkItem itemValue v 0] ->
  Prints ([ch_quote] ++ v ++ [ch_quote]) Q.
Proof.
  intros (_ & H1 & H2 & H3) HQ. exists [Pc (PcQuoted v v)]. split; [|split].
  - unfold render. cbn [map concat element_text piece_text]. now rewrite app_nil_r.
  - split; [reflexivity|]. intros k _. split; [|exact I]. cbn [element_ok]. now apply unquote_clean.
  - exact HQ.
Qed.

Definition wf_with (k v : bytes) : Prop := kv_ok (k, v) /\ (k = B "make-yakker" -> v = []).
Definition wf_withs (w : smap bytes) : Prop :=
  NoDup (mkeys w) /\ forall k v, mget w k = Some v -> wf_with k v.

(** an option without the space before it *)
Definition wtext (w : smap bytes) (k : bytes) : bytes :=
  k ++ match mget w k with Some (c :: v) => B " " ++ [ch_quote] ++ (c :: v) ++ [ch_quote] | _ => [] end.
Lemma with_string_wtext w k : with_string w k = B " " ++ wtext w k.
Proof.
  unfold with_string, wtext. destruct (mget w k) as [[|c v]|]; rewrite ?app_nil_r, ?app_assoc; reflexivity.
Qed.

Definition wval (w : smap bytes) (k : bytes) : bytes := match mget w k with Some v => v | None => [] end.

Lemma Prints_wterm w k v : mget w k = Some v -> wf_with k v -> (k <> B "make-yakker" -> clean_value v) ->
  Prints (wtext w k) (fun ts => exists i ts', ts = i :: ts' /\ i_val i = k /\ GWterm ts (k, v)).
Proof.
  intros Hg [(Hk & Ht & Hn) Hy] Hc. cbn [fst snd] in *. unfold wtext. rewrite Hg.
  destruct (beqb_spec k (B "make-yakker")) as [->|Hne].
  - rewrite Hy by reflexivity. rewrite app_nil_r. apply Prints_word; [reflexivity|].
    exists (witem (B "make-yakker")), []. split; auto. split; auto. exact (GW_yakker (witem (B "make-yakker")) eq_refl).
  - specialize (Hc Hne). pose proof Hc as (Hne0 & _). destruct v as [|c v]; [congruence|].
    assert (HA : is_arg (mkItem itemValue (c :: v) 0)) by (repeat split; discriminate).
    assert (Hs : sword k = true) by (destruct Hk as [-> |[-> |[-> |[-> | ->]]]]; reflexivity).
    apply (Prints_kw _ _ (fun ts => ts = [mkItem itemValue (c :: v) 0])); [exact Hs|apply Prints_quoted; auto|].
    intros y ->. exists (witem k), [mkItem itemValue (c :: v) 0]. split; auto. split; auto.
    destruct Hk as [-> |[-> |[-> |[-> | ->]]]]; [..|congruence].
    + exact (GW_message (witem (B "message")) _ eq_refl HA).
    + exact (GW_note (witem (B "note")) _ eq_refl HA (Hn eq_refl)).
    + exact (GW_savedir (witem (B "savedir")) _ eq_refl HA).
    + exact (GW_tlsopt (witem (B "tls-opt")) _ eq_refl HA (Ht eq_refl)).
Qed.

Lemma Prints_withs w keys : keys <> [] -> NoDup keys -> (forall k, In k keys -> exists v, mget w k = Some v /\ wf_with k v /\ (k <> B "make-yakker" -> clean_value v)) ->
  forall seen, (forall k v, In k keys -> ~ In (k, v) seen) ->
  Prints (join (B " ") (map (wtext w) keys)) (fun ts => GWiths seen ts (map (fun k => (k, wval w k)) keys)).
Proof.
  induction keys as [|k keys IH]; [congruence|]. intros _ HN H seen Hseen. inversion HN as [|? ? Hk HN']; subst.
  destruct (H k (or_introl eq_refl)) as (v & Hg & Hw & Hc).
  assert (Hm : forall t, may_add t k seen).
  { intros t. unfold may_add. pose proof (fun v => Hseen k v (or_introl eq_refl)) as Hs.
    destruct t; auto; intros v0 Hv; exfalso; eapply Hs; eauto. }
  assert (Ev : wval w k = v) by (unfold wval; now rewrite Hg).
  pose proof (Prints_wterm w k v Hg Hw Hc) as HP.
  destruct keys as [|k2 keys].
  - cbn [map join]. eapply Prints_imp; [exact HP|]. cbn beta. intros x (i & ts' & -> & Hi & HG). rewrite Ev.
    apply GWs_one; auto. rewrite Hi. auto.
  - change (join (B " ") (map (wtext w) (k :: k2 :: keys))) with (wtext w k ++ B " " ++ join (B " ") (map (wtext w) (k2 :: keys))).
    eapply Prints_space; [exact HP|apply (IH ltac:(discriminate) HN') with (seen := seen ++ [(k, v)])|].
    + intros x Hx. apply H. now right.
    + intros x v0 Hx Hin. apply in_app_or in Hin as [Hin|[Hin|[]]].
      * eapply Hseen; [right; exact Hx|exact Hin].
      * apply (f_equal fst) in Hin. cbn [fst] in Hin. subst x. auto.
    + cbn beta. intros x y (i & ts' & -> & Hi & HG) Hy.
      change (map (fun k => (k, wval w k)) (k :: k2 :: keys)) with ((k, wval w k) :: map (fun k => (k, wval w k)) (k2 :: keys)).
      rewrite Ev. apply GWs_more; auto. rewrite Hi. auto.
Qed.

Lemma concat_spaces (f : bytes -> bytes) (keys : list bytes) : keys <> [] ->
  concat (map (fun k => B " " ++ f k) keys) = B " " ++ join (B " ") (map f keys).
Proof.
  induction keys as [|k keys IH]; [congruence|]. intros _. destruct keys as [|k2 keys].
  - cbn [map concat join]. now rewrite app_nil_r.
  - cbn [map concat]. cbn [map concat] in IH. rewrite IH by discriminate. rewrite <- app_assoc. reflexivity.
Qed.

Lemma withs_string_cons w : mkeys w <> [] ->
  withs_string w = B " " ++ B "with" ++ B " " ++ join (B " ") (map (wtext w) (ssort (mkeys w))).
Proof.
  intros H. unfold withs_string. rewrite (map_ext _ _ (with_string_wtext w)), concat_spaces; [reflexivity|].
  intros E. apply H. pose proof (ssort_perm_self (mkeys w)) as HP. rewrite E in HP. now apply Permutation_sym, Permutation_nil in HP.
Qed.

Lemma mget_fold (kvs : list (bytes * bytes)) : NoDup (map fst kvs) -> forall m k,
  mget (fold_left (fun m kv => mset m (fst kv) (snd kv)) kvs m) k =
  match mget kvs k with Some v => Some v | None => mget m k end.
Proof.
  induction kvs as [|[k0 v0] kvs IH]; intros HN m k; [reflexivity|]. inversion HN as [|? ? Hk HN']; subst.
  cbn [fold_left]. rewrite IH by auto. cbn [fst snd mget]. destruct (beqb_spec k k0) as [->|Hne].
  - assert (E : mget kvs k0 = None) by (now apply mget_None). rewrite E. apply mget_mset_same.
  - destruct (mget kvs k); auto. now apply mget_mset_other.
Qed.

Lemma mget_map_keys w keys k : mget (map (fun k => (k, wval w k)) keys) k = if bmem k keys then Some (wval w k) else None.
Proof.
  induction keys as [|k0 keys IH]; [reflexivity|]. cbn [map mget]. unfold bmem in *. cbn [existsb].
  destruct (beqb_spec k k0) as [->|]; auto.
Qed.

Lemma withs_of_same w : NoDup (mkeys w) -> forall k,
  mget w k = mget (withs_of (map (fun k => (k, wval w k)) (ssort (mkeys w)))) k.
Proof.
  intros HN k. pose proof (ssort_perm_self (mkeys w)) as HP. unfold withs_of. rewrite mget_fold.
  - rewrite mget_map_keys. cbn [mget]. destruct (bmem k (ssort (mkeys w))) eqn:E.
    + apply bmem_In in E. apply (Permutation_in _ (Permutation_sym HP)) in E. unfold wval.
      destruct (mget w k) eqn:Eg; auto. apply mget_None in Eg. contradiction.
    + apply mget_None. intros Hin. apply (Permutation_in _ HP) in Hin. apply bmem_In in Hin. congruence.
  - rewrite map_map. cbn [fst]. rewrite map_id. eapply Permutation_NoDup; eauto.
Qed.

(** ** Clauses and rules *)

Definition wf_clause (c : rclause) : Prop := wf (rc_expr c) /\ wf_withs (rc_withs c).

Definition reprint (c : rclause) : rclause :=
  mkClause (rc_expr c) (withs_of (map (fun k => (k, wval (rc_withs c) k)) (ssort (mkeys (rc_withs c))))).

Lemma Prints_clause c : wf_clause c -> plain_clause c ->
  Prints (clause_string c) (fun ts => GClause ts (reprint c)).
Proof.
  destruct c as [e w]. intros [He [HN Hw]] (Ha & Hd & Hv). unfold clause_string, reprint. cbn [rc_expr rc_withs] in *.
  pose proof (Prints_expr e He Ha Hd) as HP.
  destruct (mkeys w) as [|k0 ks] eqn:Ek.
  - assert (w = []) by (destruct w; [reflexivity|discriminate Ek]). subst w. cbn. rewrite app_nil_r.
    eapply Prints_imp; [exact HP|]. cbn beta. intros x Hx. apply GC_plain. now apply series_one.
  - rewrite <- Ek in *. assert (Hne : mkeys w <> []) by (rewrite Ek; discriminate).
    pose proof (ssort_perm_self (mkeys w)) as HPm.
    rewrite withs_string_cons by exact Hne.
    apply (Prints_space _ _ (fun ts => GTerm ts e) (fun ts => exists z, ts = witem (B "with") :: z /\
      GWiths [] z (map (fun k => (k, wval w k)) (ssort (mkeys w))))); [exact HP| |].
    + apply (Prints_kw (B "with") _ (fun ts => GWiths [] ts (map (fun k => (k, wval w k)) (ssort (mkeys w))))); [reflexivity| |].
      * apply Prints_withs.
        -- intros E. rewrite E in HPm. apply Permutation_sym, Permutation_nil in HPm. congruence.
        -- eapply Permutation_NoDup; eauto.
        -- intros k Hk. apply (Permutation_in _ (Permutation_sym HPm)) in Hk.
           destruct (mget w k) as [v|] eqn:Eg; [|apply mget_None in Eg; contradiction].
           exists v. split; auto. split; [now apply Hw|]. intros Hy. eapply Hv; eauto.
        -- intros k v _ [].
      * cbn beta. intros y Hy. eauto.
    + cbn beta. intros x y Hx (z & -> & Hz). apply GC_with; auto. now apply series_one.
Qed.

Lemma reprint_same c : wf_clause c -> same_clause c (reprint c).
Proof. intros [_ [HN _]]. split; [reflexivity|]. cbn [reprint rc_withs]. now apply withs_of_same. Qed.

Lemma Prints_clauses cs : cs <> [] -> Forall wf_clause cs -> Forall plain_clause cs ->
  Prints (join (B "; ") (map clause_string cs)) (fun ts => GClauses ts (map reprint cs)).
Proof.
  induction cs as [|c cs IH]; [congruence|]. intros _ HW HP. inversion HW; inversion HP; subst.
  assert (HC : Prints (clause_string c) (fun ts => GClause ts (reprint c))) by (apply Prints_clause; auto).
  destruct cs as [|c2 cs].
  - cbn [map join]. eapply Prints_imp; [exact HC|]. cbn beta. intros x Hx. now apply GCs_one.
  - change (join (B "; ") (map clause_string (c :: c2 :: cs))) with
      (clause_string c ++ B "; " ++ join (B "; ") (map clause_string (c2 :: cs))).
    destruct HC as (sa & <- & [Ma Wa] & Ga). destruct IH as (sb & <- & [Mb Wb] & Gb); auto; [discriminate|].
    exists (sa ++ Pc (PcPunct ";") :: Lay LSpace :: sb). split; [|split].
    + rewrite render_app. reflexivity.
    + split.
      * rewrite mode_end_app, Ma. exact Mb.
      * intros k Hk. apply wf_source_app. rewrite Ma. split; [apply Wa; reflexivity|].
        cbn [wf_source mode_after]. split; [discriminate|]. split; [exact I|]. apply Wb. exact Hk.
    + rewrite pieces_app, fake_app. cbn [pieces]. unfold fake at 2. cbn [map]. fold (fake (pieces sb)).
      change (map reprint (c :: c2 :: cs)) with (reprint c :: map reprint (c2 :: cs)).
      apply (GCs_more _ _ _ [] (fake (pieces sb))); auto.
Qed.

Definition wf_rule (r : rule) : Prop :=
  Forall wf_clause (r_clauses r) /\ r_clauses r <> [] /\ r_result r <> aError /\
  (r_result r = aNoresult -> forall c, In c (r_clauses r) -> rc_withs c <> []) /\
  r_requires r = needs_clauses (r_clauses r) /\
  (r_deferto r <> pAny -> pcode (needs_clauses (r_clauses r)) <= pcode (r_deferto r)).

Definition reprint_rule (r : rule) : rule :=
  mkRule (map reprint (r_clauses r)) (r_result r) (r_requires r) (r_deferto r).

Lemma needs_reprint cs : needs_clauses (map reprint cs) = needs_clauses cs.
Proof. unfold needs_clauses. rewrite map_map. reflexivity. Qed.

Lemma Prints_rule r : wf_rule r -> plain_rule r ->
  exists src, render src = rule_string r /\ mode_end SOL src = INL /\
    (forall k, at_word_end k -> wf_source SOL src k) /\
    GRule (fake (pieces src)) (reprint_rule r).
Proof.
  destruct r as [cs act req ph]. intros (HW & Hne & Hact & Hsw & Hreq & Hph) HP.
  unfold rule_string, reprint_rule, plain_rule in *. cbn [r_clauses r_result r_requires r_deferto] in *. subst req.
  destruct (Prints_clauses cs Hne HW HP) as (s & <- & [M W] & HG).
  assert (Ha : exists a, word_type (action_string act) = Some a /\ action_of a = Some act /\ sword (action_string act) = true /\
     forall r, action_string act <> "#"%char :: r).
  { destruct act; [congruence| | | |]; eexists; (split; [reflexivity|]); (split; [reflexivity|]); (split; [reflexivity|]); intros r; discriminate. }
  destruct Ha as (a & Hwt & Hao & Hsa & Hha).
  assert (HR : forall pts ph0, GPhase pts ph0 -> ph0 = ph ->
    GRule (pts ++ mkItem a (action_string act) 0 :: fake (pieces s)) (mkRule (map reprint cs) act (needs_clauses cs) ph)).
  { intros pts ph0 HGp ->. rewrite <- needs_reprint. apply GR; auto.
    - intros E c Hc. apply in_map_iff in Hc as (c0 & <- & Hc0). specialize (Hsw E c0 Hc0). cbn [reprint rc_withs].
      rewrite Forall_forall in HW. destruct (HW c0 Hc0) as [_ [HN _]]. intros Hnil.
      destruct (rc_withs c0) as [|[k v] w] eqn:Ew; [congruence|].
      pose proof (withs_of_same _ HN k) as Hs. rewrite Hnil in Hs. cbn [mget] in Hs. rewrite beqb_refl in Hs. discriminate Hs.
    - rewrite needs_reprint. exact Hph. }
  destruct (peqb_spec ph pAny) as [->|Hn].
  - exists (Pc (PcWord (action_string act)) :: Lay LSpace :: s). split; [reflexivity|]. split; [exact M|]. split.
    + intros k Hk. cbn [wf_source mode_after]. split; [|split; [exact I|apply W; exact Hk]].
      apply sword_ok; auto. reflexivity.
    + cbn [pieces]. unfold fake. cbn [map]. fold (fake (pieces s)). unfold piece_tok. rewrite Hwt. cbn [fst snd].
      apply (HR [] pAny); auto. constructor.
  - assert (Hp : exists a, word_type (phase_string ph) = Some a /\ phase_of a = Some ph /\ sword (phase_string ph) = true /\
      forall r, phase_string ph <> "#"%char :: r).
    { destruct ph; [congruence| | | | | |]; eexists; (split; [reflexivity|]); (split; [reflexivity|]); (split; [reflexivity|]); intros r; discriminate. }
    destruct Hp as (p & Hwp & Hpo & Hsp & Hhp).
    exists (Pc (PcWord (phase_string ph)) :: Lay LSpace :: Pc (PcWord (action_string act)) :: Lay LSpace :: s).
    split; [|split; [exact M|split]].
    + rewrite !render_cons. rewrite <- !app_assoc. reflexivity.
    + intros k Hk. cbn [wf_source mode_after]. split; [|split; [exact I|split; [|split; [exact I|apply W; exact Hk]]]].
      * apply sword_ok; auto. reflexivity.
      * apply sword_ok; auto. reflexivity.
    + cbn [pieces]. unfold fake. cbn [map]. fold (fake (pieces s)). unfold piece_tok. rewrite Hwt, Hwp. cbn [fst snd].
      apply (HR [mkItem p (phase_string ph) 0] ph); auto. constructor. exact Hpo.
Qed.

(** ** Rules that come from the parser *)

Definition seen_text (i : item) : Prop := file_text i /\ keyword_text i.

Lemma seen_tokens text i : In i (tokens text) -> seen_text i.
Proof.
  intros H. split; [|eapply tokens_keyword; eauto].
  pose proof (file_text_Lexes _ _ _ _ (tokens_Lexes text)) as HF. rewrite Forall_forall in HF. auto.
Qed.

Lemma GWterm_yak ts kv : Forall keyword_text ts -> GWterm ts kv -> fst kv = B "make-yakker" -> snd kv = [].
Proof.
  intros HF H. destruct H; inversion HF as [|x l (K1 & K2 & K3 & K4 & K5)]; subst; cbn [fst snd]; auto.
  - rewrite K1 by auto. discriminate.
  - rewrite K3 by auto. discriminate.
  - rewrite K2 by auto. discriminate.
  - rewrite K4 by auto. discriminate.
Qed.

Lemma GWiths_wf seen ts kvs : GWiths seen ts kvs -> Forall keyword_text ts -> Forall (fun kv => wf_with (fst kv) (snd kv)) kvs.
Proof.
  assert (H1 : forall ts kv, Forall keyword_text ts -> GWterm ts kv -> wf_with (fst kv) (snd kv)).
  { intros ts0 kv HF H. split; [destruct kv; eapply GWterm_ok; eauto|eapply GWterm_yak; eauto]. }
  induction 1 as [seen k ts kv H Hm|seen k ts kv ts' kvs H Hm HW IH]; intros HF.
  - constructor; [exact (H1 _ _ HF H)|constructor].
  - change (k :: ts ++ ts') with ((k :: ts) ++ ts') in HF. apply Forall_app in HF as [Ha Hb].
    constructor; [exact (H1 _ _ Ha H)|auto].
Qed.

Lemma withs_of_wf kvs : Forall (fun kv => wf_with (fst kv) (snd kv)) kvs -> wf_withs (withs_of kvs).
Proof.
  unfold withs_of. assert (H0 : wf_withs []) by (split; [constructor|intros k v H; discriminate H]).
  revert H0. generalize (@nil (bytes * bytes)). induction kvs as [|[k v] kvs IH]; intros m Hm HF; simpl; auto.
  inversion HF as [|? ? Hkv HF']; subst. apply IH; auto. destruct Hm as [HN Hm]. split.
  - now apply mset_NoDup.
  - intros k' v' H. simpl in H. destruct (beqb_spec k' k) as [->|Hne].
    + rewrite mget_mset_same in H. injection H as <-. exact Hkv.
    + rewrite mget_mset_other in H by auto. auto.
Qed.

Lemma Forall_seen ts : Forall seen_text ts -> Forall file_text ts /\ Forall keyword_text ts.
Proof. intros H. split; (eapply Forall_impl; [|exact H]); intros i [H1 H2]; auto. Qed.

Lemma GClause_wf ts c : GClause ts c -> Forall seen_text ts -> wf_clause c.
Proof.
  destruct G_wf as (_ & _ & _ & HA). intros [ts' e H|ts' e w wts kvs H Hw HW] HF.
  - apply Forall_seen in HF as [HF _]. split; [eapply HA; eauto|]. split; [constructor|intros k v Hk; discriminate Hk].
  - apply Forall_app in HF as [HF1 HF2]. inversion HF2; subst. split.
    + eapply HA; eauto. apply Forall_seen; auto.
    + apply withs_of_wf. eapply GWiths_wf; eauto. apply Forall_seen; auto.
Qed.

Lemma GClauses_wf ts cs : GClauses ts cs -> Forall seen_text ts -> cs <> [] /\ Forall wf_clause cs.
Proof.
  induction 1 as [ts c H|ts c s eol ts' cs H Hs He HC IH]; intros HF.
  - split; [discriminate|]. constructor; [eapply GClause_wf; eauto|constructor].
  - apply Forall_app in HF as [HF1 HF2]. inversion HF2 as [|? ? _ HF3]; subst. apply Forall_app in HF3 as [_ HF4].
    split; [discriminate|]. constructor; [eapply GClause_wf; eauto|]. apply IH; auto.
Qed.

Lemma parsed_wf fds fs input rs r : parse fds fs input = PRules rs -> In r rs -> wf_rule r.
Proof.
  intros E. revert r. apply (parse_lift wf_rule seen_text) with (fds := fds) (fs := fs) (input := input); auto.
  { apply seen_tokens. }
  intros ts r HF HR. revert HF. destruct HR as [pts ph a act ts' cs Hp Ha Hc Hsw Hph]. intros HF.
  apply Forall_app in HF as [_ HF]. inversion HF as [|? ? _ HF']; subst.
  destruct (GClauses_wf _ _ Hc HF') as [H1 H2]. unfold wf_rule. cbn [r_clauses r_result r_requires r_deferto].
  split; auto. split; auto. split; [intros ->; destruct (i_typ a); discriminate Ha|]. auto.
Qed.

Lemma reprint_rule_same r : wf_rule r -> same_rule r (reprint_rule r).
Proof.
  intros (HW & _). unfold same_rule, reprint_rule. cbn [r_clauses r_result r_requires r_deferto]. repeat (split; [reflexivity|]).
  induction HW; cbn [map]; constructor; auto. now apply reprint_same.
Qed.

(** A rule that was parsed from anything and has only plain words as arguments
    and clean values prints as a text that parses as one rule, the same one,
    whatever files there are. *)
Theorem C08_round_trip fds fs input rs r :
  parse fds fs input = PRules rs -> In r rs -> plain_rule r ->
  forall fds' fs', exists r', parse fds' fs' (rule_string r) = PRules [r'] /\ same_rule r r'.
Proof.
  intros E Hin HP fds' fs'. pose proof (parsed_wf _ _ _ _ _ E Hin) as HW.
  exists (reprint_rule r). split; [|now apply reprint_rule_same].
  destruct (Prints_rule r HW HP) as (src & <- & M & W & HG).
  apply C06_parser_is_grammar. exists 0.
  apply (GFile_strip _ _ (fake (pieces src) ++ [mkItem itemEOF [] 0])).
  { rewrite strip_tokens by (apply W; exact I). rewrite strip_app, fake_strip. reflexivity. }
  apply GF_rule_last; [exact HG|reflexivity].
Qed.

(** All the rules of a file, printed one to a line, parse as the same rules in
    the same order. *)
Theorem C08_round_trip_file fds fs input rs :
  parse fds fs input = PRules rs -> Forall plain_rule rs ->
  forall fds' fs', exists rs', parse fds' fs' (concat (map (fun r => rule_string r ++ [ch_nl]) rs)) = PRules rs' /\
    Forall2 same_rule rs rs'.
Proof.
  intros E HP fds' fs'. assert (HW : Forall wf_rule rs) by (apply Forall_forall; intros r Hr; eapply parsed_wf; eauto).
  clear E. exists (map reprint_rule rs).
  assert (HL : exists src, render src = concat (map (fun r => rule_string r ++ [ch_nl]) rs) /\ Lines src (map reprint_rule rs)).
  { induction rs as [|r rs IH].
    - exists []. split; [reflexivity|]. apply Lines_nil.
    - inversion HP; inversion HW; subst. destruct IH as (s2 & E2 & L2); auto.
      destruct (Prints_rule r) as (src & Es & M & W & HG); auto.
      exists ((src ++ [Pc PcEOL]) ++ s2). split.
      + rewrite !render_app, E2, Es. reflexivity.
      + change (map reprint_rule (r :: rs)) with ([reprint_rule r] ++ map reprint_rule rs). apply Lines_app; auto.
        apply (Lines_rule _ (fake (pieces src))).
        * split; [|split].
          -- apply wf_source_app. split; [apply W; reflexivity|]. rewrite M. cbn. auto.
          -- rewrite mode_end_app, M. reflexivity.
          -- intros (u & e & Eu & He). apply app_inj_tail in Eu as [_ <-]. exact He.
        * rewrite pieces_app, removelast_app by discriminate. cbn [pieces removelast]. rewrite app_nil_r. apply fake_strip.
        * exists (pieces src). now rewrite pieces_app.
        * exact HG. }
  destruct HL as (src & <- & HL). split.
  - apply Lines_parse. exact HL.
  - clear - HW. induction HW; cbn [map]; constructor; auto. now apply reprint_rule_same.
Qed.

(** The same rule prints as the same text, so printing, parsing and printing
    again changes nothing. *)
Lemma same_keys (w w' : smap bytes) : NoDup (mkeys w) -> NoDup (mkeys w') -> (forall k, mget w k = mget w' k) ->
  ssort (mkeys w) = ssort (mkeys w').
Proof.
  intros H1 H2 HS. apply ssort_perm. apply NoDup_Permutation; auto. intros k.
  pose proof (mget_None w k) as A1. pose proof (mget_None w' k) as A2. specialize (HS k).
  assert (D : forall (x : smap bytes), mget x k = None \/ mget x k <> None) by (intros x; destruct (mget x k); [right; discriminate|left; reflexivity]).
  assert (N : forall (x : smap bytes), mget x k <> None -> In k (mkeys x)).
  { intros x. clear. induction x as [|[k0 v0] x IH]; cbn; [congruence|]. destruct (beqb_spec k k0) as [->|]; auto. }
  destruct (D w) as [Hw|Hw].
  - assert (Hw' : mget w' k = None) by congruence. apply A1 in Hw. apply A2 in Hw'. tauto.
  - assert (Hw' : mget w' k <> None) by congruence. split; intros _; apply N; assumption.
Qed.

Lemma same_clause_string c c' : wf_clause c -> wf_clause c' -> same_clause c c' -> clause_string c = clause_string c'.
Proof.
  intros [_ [H1 _]] [_ [H2 _]] [HE HS]. unfold clause_string, withs_string. rewrite HE. f_equal.
  rewrite (same_keys _ _ H1 H2 HS).
  rewrite (map_ext (with_string (rc_withs c)) (with_string (rc_withs c'))); [reflexivity|].
  intros k. unfold with_string. now rewrite HS.
Qed.

Theorem C08_canonical fds fs input rs r fds' fs' r' :
  parse fds fs input = PRules rs -> In r rs -> plain_rule r ->
  parse fds' fs' (rule_string r) = PRules [r'] -> rule_string r' = rule_string r.
Proof.
  intros E Hin HP E'. destruct (C08_round_trip _ _ _ _ _ E Hin HP fds' fs') as (r2 & E2 & HS).
  rewrite E' in E2. injection E2 as <-. pose proof (parsed_wf _ _ _ _ _ E Hin) as (HW & _).
  pose proof (parsed_wf _ _ _ _ r' E' (or_introl eq_refl)) as (HW' & _).
  destruct HS as (H1 & _ & H3 & H4). unfold rule_string. rewrite H1, H3. do 4 f_equal.
  clear - HW HW' H4. induction H4; inversion HW; inversion HW'; subst; cbn [map]; f_equal; auto.
  symmetry. now apply same_clause_string.
Qed.

(** ** Exactly which arguments survive *)

(** a word, or one of three punctuation characters *)
Definition survives (A : bytes) : Prop :=
  (A <> [] /\ (forall c, In c A -> ends_word c = false) /\ (forall r, A <> ch_quote :: r) /\ A <> B "file:") \/
  A = B "(" \/ A = B ")" \/ A = B ";".

(** the rule 'ACTION OPERATOR A' *)
Definition one_match (act : action) (k : mkind) (A : bytes) : rule :=
  mkRule [mkClause (EMatch k A) []] act (needs (EMatch k A)) pAny.

(** A token's text is no longer than what it was read from, and only a word, a
    punctuation character or a line end is as long. *)
Lemma Lexes_first m p s ts : Lexes m p s ts -> forall a rest, ts = a :: rest ->
  i_typ a <> itemEOF -> i_typ a <> itemError ->
  length (i_val a) <= length s /\
  (i_val a = s -> i_typ a = itemEOL \/
     (i_typ a = itemComma /\ exists e r, rest = e :: r /\ i_typ e = itemError) \/
     (exists c t, s = [c] /\ punct_type c = Some t) \/
     (forallb (fun c => negb (ends_word c)) s = true /\ word_start_ok m s [] /\ word_type s <> None)).
Proof.
  assert (Hlen : forall (x y : bytes) n, length x <= length y -> x = n ++ y -> n = []).
  { intros x y n H ->. rewrite app_length in H. destruct n; [reflexivity|cbn in H; lia]. }
  induction 1 as [m p|m p c s ts Hc HL IH|m p s ts HL IH|p s ts HL IH|p com s ts Hcom Hend HL IH
    |p s ts HL IH|m p c t s ts Ht HL IH|m p s ts Hb HL IH|m p s Hb|m p s v r ts Hq HL IH|m p s Hq
    |m p w0 t s ts Hw Hs Hst Ht HL IH|m p w0 s Hw Hs Hst Ht]; intros a rest E He Hr.
  - injection E as <- <-. cbn in He. congruence.
  - destruct (IH _ _ E He Hr) as [H1 _]. cbn [length]. split; [lia|]. intros Ev. rewrite Ev in H1. cbn in H1. lia.
  - destruct (IH _ _ E He Hr) as [H1 _]. cbn [length]. split; [lia|]. intros Ev. rewrite Ev in H1. cbn in H1. lia.
  - destruct (IH _ _ E He Hr) as [H1 _]. cbn [length]. split; [lia|]. intros Ev. rewrite Ev in H1. cbn in H1. lia.
  - destruct (IH _ _ E He Hr) as [H1 _]. cbn [length]. rewrite app_length. split; [lia|]. intros Ev. rewrite Ev in H1. cbn in H1. rewrite app_length in H1. lia.
  - injection E as <- <-. cbn [i_val i_typ length]. split; [lia|]. auto.
  - injection E as <- <-. cbn [i_val i_typ length]. split; [lia|]. intros Ev. right. right. left. exists c, t. split; auto.
  - injection E as <- <-. cbn [i_val i_typ length]. split; [lia|]. intros Ev. injection Ev as <-. discriminate Hb.
  - injection E as <- <-. cbn [i_val i_typ length]. split; [lia|]. intros Ev. right. left. split; auto. eauto.
  - injection E as <- <-. cbn [i_val i_typ length].
    assert (HU : length v + length r < length s).
    { clear - Hq. revert v r Hq. remember (length s) as n eqn:Hn. revert s Hn.
      induction n as [n IHn] using lt_wf_ind; intros s -> v r Hq. destruct s as [|c s1]; [discriminate|]. cbn [unquote] in Hq.
      destruct (Ascii.eqb c ch_quote); [injection Hq as <- <-; cbn; lia|].
      destruct s1 as [|d s2]; [discriminate|].
      destruct (Ascii.eqb c ch_bslash && _).
      - destruct (unquote s2) as [[v' r']|] eqn:Eu; [|discriminate]. injection Hq as <- <-.
        pose proof (IHn (length s2) ltac:(cbn; lia) s2 eq_refl _ _ Eu). cbn in *. lia.
      - change (option_map (fun p => (c :: fst p, snd p)) (unquote (d :: s2)) = Some (v, r)) in Hq.
        destruct (unquote (d :: s2)) as [[v' r']|] eqn:Eu; [|discriminate]. injection Hq as <- <-.
        pose proof (IHn (length (d :: s2)) ltac:(cbn; lia) (d :: s2) eq_refl _ _ Eu). cbn in *. lia. }
    split; [lia|]. intros Ev. apply (f_equal (@length _)) in Ev. cbn in Ev. lia.
  - injection E as <- <-. cbn in Hr. congruence.
  - injection E as <- <-. cbn [i_val i_typ]. rewrite app_length. split; [lia|]. intros Ev.
    assert (s = []) by (destruct s; [reflexivity|apply (f_equal (@length _)) in Ev; rewrite app_length in Ev; cbn in Ev; lia]).
    subst s. rewrite app_nil_r in *. right. right. right. split; auto. split; auto. congruence.
  - injection E as <- <-. cbn in Hr. congruence.
Qed.

Lemma GAndl_match ts k A i ts' : GAndl ts (EMatch k A) -> ts = i :: ts' -> i_typ i <> itemLparen ->
  exists a, ts' = [a] /\ is_arg a /\ i_val a = A.
Proof.
  intros HA E Hi. inversion HA as [ts0 es HS E1 E2]; subst.
  assert (HO : GOrl (i :: ts') (EMatch k A)).
  { inversion HS as [ts0 e HO E3 E4|ts0 e ts1 es1 HO HS1 E3 E4]; subst.
    - cbn in E2. congruence.
    - destruct es1; [inversion HS1|]. discriminate E2. }
  assert (HT : GTerm (i :: ts') (EMatch k A)) by (inversion HO; subst; auto).
  inversion HT; subst; auto; try congruence.
  - eauto.
  - eexists. split; [reflexivity|]. split; auto.
    match goal with H : is_ip_arg _ |- _ => destruct H as [H|[H _]]; repeat split; rewrite H; discriminate end.
Qed.

Lemma survives_round_trip act k A fds fs : act <> aError -> act <> aNoresult -> k <> MIp -> survives A ->
  parse fds fs (rule_string (one_match act k A)) = PRules [one_match act k A].
Proof.
  intros Ha1 Ha2 Hk HA.
  assert (HP : exists pc, piece_text pc = A /\ snd (piece_tok pc) = A /\ element_ok INL (Pc pc) [] /\ mode_after INL (Pc pc) = INL /\
    is_arg (mkItem (fst (piece_tok pc)) (snd (piece_tok pc)) 0)).
  { destruct HA as [(H1 & H2 & H3 & H4)|[-> |[-> | ->]]].
    - assert (Hw : word_type A <> None).
      { unfold word_type. destruct (mget keywords A); [discriminate|]. destruct (_ || _); [discriminate|].
        destruct (has_prefix _ _); [|discriminate]. destruct (beqb_spec A (B "file:")); [congruence|discriminate]. }
      exists (PcWord A). split; [reflexivity|]. split; [reflexivity|]. split; [|split; [reflexivity|]].
      + cbn [element_ok]. split; [apply forallb_forall; intros c Hc; now rewrite (H2 c Hc)|]. split; [exact I|]. split; auto.
        destruct A as [|c A]; [congruence|]. cbn. split; [intros ->; eapply H3; reflexivity|]. split; [discriminate|].
        intros [_ (s' & Hs)]. discriminate Hs.
      + destruct (beqb_spec A [ch_bslash]) as [->|Hb]; [repeat split; discriminate|].
        apply (wtype_arg A). apply plain_sword. split; auto.
    - exists (PcPunct "("). cbn. repeat split; discriminate.
    - exists (PcPunct ")"). cbn. repeat split; discriminate.
    - exists (PcPunct ";"). cbn. repeat split; discriminate. }
  destruct HP as (pc & Et & Es & Hok & _ & Harg).
  assert (Ea : rule_string (one_match act k A) = render [Pc (PcWord (action_string act)); Lay LSpace; Pc (PcWord (mkind_string k)); Lay LSpace; Pc pc]).
  { unfold render. cbn [map concat element_text piece_text]. rewrite Et, app_nil_r. unfold rule_string, one_match. cbn. rewrite app_nil_r. reflexivity. }
  rewrite Ea. apply C06_parser_is_grammar. exists 0.
  set (ia := mkItem (wtype (action_string act)) (action_string act) 0).
  set (ik := mkItem (wtype (mkind_string k)) (mkind_string k) 0).
  set (iA := mkItem (fst (piece_tok pc)) (snd (piece_tok pc)) 0).
  apply (GFile_strip _ _ ([ia; ik; iA] ++ [mkItem itemEOF [] 0])).
  { rewrite strip_tokens.
    - cbn [pieces map]. rewrite strip_app. unfold ia, ik, iA. cbn [strip map i_typ i_val]. destruct (piece_tok pc); reflexivity.
    - cbn [wf_source mode_after]. split; [|split; [exact I|split; [|split; [exact I|split; [|exact I]]]]].
      + apply sword_ok; [destruct act; try reflexivity; congruence|destruct act; intros _ r; discriminate|reflexivity].
      + apply sword_ok; [destruct k; reflexivity|destruct k; intros _ r; discriminate|reflexivity].
      + exact Hok. }
  apply GF_rule_last; [|reflexivity]. unfold one_match. rewrite <- (needs_clauses_one _ []).
  apply (GR [] pAny ia act [ik; iA]).
  - constructor.
  - destruct act; try reflexivity; congruence.
  - apply GCs_one, GC_plain. apply series_one. rewrite <- Es. apply (GT_match ik k iA); [destruct k; try reflexivity; congruence|exact Harg].
  - congruence.
  - congruence.
Qed.

(** An argument survives printing and parsing if and only if it is a word. *)
Theorem C08_argument_exact act k A fds fs : act <> aError -> act <> aNoresult -> k <> MIp ->
  (parse fds fs (rule_string (one_match act k A)) = PRules [one_match act k A] <-> survives A).
Proof.
  intros Ha1 Ha2 Hk. split; [|now apply survives_round_trip]. intros E.
  apply C06_parser_is_grammar in E as (t' & HG).
  set (src := [Pc (PcWord (action_string act)); Lay LSpace; Pc (PcWord (mkind_string k)); Lay LSpace]).
  assert (Et : rule_string (one_match act k A) = render src ++ A).
  { unfold src, render. cbn [map concat element_text piece_text]. unfold rule_string, one_match. cbn. rewrite !app_nil_r, <- !app_assoc. cbn [app]. rewrite <- !app_assoc. reflexivity. }
  assert (Hwf : wf_source SOL src A).
  { cbn [src wf_source mode_after]. split; [|split; [exact I|split; [|split; [exact I|exact I]]]].
    - apply sword_ok; [destruct act; try reflexivity; congruence|destruct act; intros _ r; discriminate|reflexivity].
    - apply sword_ok; [destruct k; reflexivity|destruct k; intros _ r; discriminate|reflexivity]. }
  destruct (Lexes_total INL (0 + length (render src)) A) as (tsA & HLA).
  destruct (render_Lexes src SOL 0 A tsA Hwf HLA) as (ts & HL & Hs).
  rewrite Et in HG. rewrite (Lexes_det _ _ _ _ _ (tokens_Lexes _) HL) in HG.
  cbn [src pieces map] in Hs. destruct ts as [|ia [|ik [|? ?]]]; try discriminate Hs.
  assert (Hia : i_typ ia = wtype (action_string act)) by (apply (f_equal (hd (itemEOF, []))) in Hs; apply (f_equal fst) in Hs; exact Hs).
  assert (Hik : i_typ ik = wtype (mkind_string k)) by (apply (f_equal (fun l => hd (itemEOF, []) (tl l))) in Hs; apply (f_equal fst) in Hs; exact Hs).
  clear Hs HL Hwf Et. cbn [app] in HG.
  assert (Hnk : i_typ ik <> itemLparen) by (rewrite Hik; destruct k; discriminate).
  assert (HR : forall tr r, GRule tr r -> r = one_match act k A -> forall z, ia :: ik :: tsA = tr ++ z -> exists a, tsA = a :: z /\ is_arg a /\ i_val a = A).
  { intros tr r HGR Er z Ez. destruct HGR as [pts ph a act' ts' cs Hp Hact Hc Hsw Hph].
    unfold one_match in Er. injection Er as -> -> _ ->.
    assert (pts = []).
    { destruct Hp as [|t ph Ht]; [reflexivity|]. exfalso. cbn in Ez. injection Ez as -> _. rewrite Hia in Ht.
      destruct act; try discriminate Ht; congruence. }
    subst pts. cbn [app] in Ez. injection Ez as <- Ez.
    inversion Hc as [ts0 c HC E1 E2|ts0 c s eol ts1 cs HC _ _ HCs E1 E2]; subst; [|inversion HCs].
    assert (HA : GAndl ts' (EMatch k A)).
    { inversion HC as [ts0 e H E1 E2|ts0 e w wts kvs H Hw HW E1 E2]; subst; auto. exfalso.
      assert (Hne : kvs <> []) by (destruct HW; discriminate).
      destruct kvs as [|[k0 v0] kvs]; [congruence|].
      assert (Hk0 : forall l m x, mget m x <> None -> mget (fold_left (fun m kv => mset m (fst kv) (snd kv)) l m) x <> (None : option bytes)).
      { clear. induction l as [|[a b] l IH]; intros m x Hx; cbn [fold_left]; auto. apply IH. cbn [fst snd].
        rewrite mget_mset. destruct (beqb x a); [discriminate|auto]. }
      apply (Hk0 kvs (mset [] k0 v0) k0); [rewrite mget_mset_same; discriminate|].
      match goal with H : withs_of _ = [] |- _ => unfold withs_of in H; cbn [fold_left fst snd] in H; rewrite H end. reflexivity. }
    destruct ts' as [|i ts']; [inversion HA as [? es HS]; destruct (GSeries_start _ _ HS) as (? & ? & ? & _); discriminate|].
    cbn [app] in Ez. injection Ez as -> Ez.
    destruct (GAndl_match _ _ _ _ _ HA eq_refl Hnk) as (a0 & -> & Harg & Hv). exists a0. auto. }
  assert (HF : exists a z, tsA = a :: z /\ is_arg a /\ i_val a = A /\ (forall e r, z = e :: r -> i_typ e <> itemError)).
  { remember (ia :: ik :: tsA) as T eqn:ET. remember [one_match act k A] as RS eqn:ERS.
    destruct HG as [e t0 He|t0 tr r e rest rs t1 Hr He HG1|t0 tr r e Hr He|t0 kk a e rest rl rs t1 t2 Hkk Ha He Hi HG1|t0 kk a e rl t1 Hkk Ha He Hi].
    - discriminate ERS.
    - apply (f_equal (hd r)) in ERS. cbn [hd] in ERS.
      destruct (HR _ _ Hr ERS _ eq_refl) as (a & E1 & H1 & H2). exists a, (e :: rest). split; auto. split; auto. split; auto.
      intros e0 r0 E0. injection E0 as <- _. rewrite He. discriminate.
    - apply (f_equal (hd r)) in ERS. cbn [hd] in ERS.
      destruct (HR _ _ Hr ERS _ eq_refl) as (a & E1 & H1 & H2). exists a, [e]. split; auto. split; auto. split; auto.
      intros e0 r0 E0. injection E0 as <- _. rewrite He. discriminate.
    - exfalso. injection ET as -> _ _. rewrite Hia in Hkk. destruct act; try discriminate Hkk; congruence.
    - exfalso. injection ET as -> _ _. rewrite Hia in Hkk. destruct act; try discriminate Hkk; congruence. }
  destruct HF as (a & z & -> & (Ha3 & Ha4 & Ha5) & Hv & Hz).
  destruct (Lexes_first _ _ _ _ HLA a z eq_refl Ha3 Ha5) as [_ HX].
  destruct (HX Hv) as [H|[(_ & e & r & -> & He)|[(c & t & -> & Hc)|(H1 & H2 & H3)]]].
  - congruence.
  - exfalso. eapply Hz; eauto.
  - right. unfold punct_type in Hc.
    destruct (Ascii.eqb_spec c "(") as [->|]; [auto|]. destruct (Ascii.eqb_spec c ")") as [->|]; [auto|].
    destruct (Ascii.eqb_spec c ";") as [->|]; [auto|discriminate].
  - left. rewrite forallb_forall in H1. split; [intros ->; exact H2|]. split; [|split].
    + intros c Hc. apply H1 in Hc. now apply negb_true_iff in Hc.
    + intros r ->. cbn in H2. tauto.
    + intros ->. apply H3. reflexivity.
Qed.

(** ** Cases *)

Definition plainb (w : bytes) : bool := sword w && negb (beqb w (B "file:")).
Lemma plainb_plain w : plainb w = true -> plain w.
Proof.
  unfold plainb, sword. rewrite !andb_true_iff. intros ((((H1 & H2) & H3) & _) & H4). rewrite forallb_forall in H2.
  split; [intros ->; discriminate|]. split; [intros c Hc; apply H2 in Hc; now apply negb_true_iff in Hc|].
  split; [intros r ->; discriminate|]. split; intros ->; discriminate.
Qed.
Definition domainb (d : bytes) : bool :=
  plainb d && negb (has_prefix d (B "/")) && negb (has_prefix d (B "./")) && negb (has_prefix d (B "file:")).
Lemma domainb_plain d : domainb d = true -> plain_domain d.
Proof.
  unfold domainb. rewrite !andb_true_iff, !negb_true_iff. intros (((H1 & H2) & H3) & H4).
  split; [now apply plainb_plain|].
  assert (HP : forall p, has_prefix d p = false -> forall r, d <> p ++ r).
  { intros p Hp r ->. assert (has_prefix (p ++ r) p = true) by (apply has_prefix_spec; eauto). congruence. }
  split; [|split]; apply HP; auto.
Qed.
Definition cleanb (v : bytes) : bool :=
  match v with [] => false | _ => true end && negb (mem_byte ch_quote v) && negb (mem_byte ch_bslash v).
Lemma cleanb_clean v : cleanb v = true -> clean_value v.
Proof.
  unfold cleanb. rewrite !andb_true_iff, !negb_true_iff. intros ((H1 & H2) & H3).
  assert (Hq : ~ In ch_quote v) by (intros H; apply mem_byte_In in H; congruence).
  assert (Hb : ~ In ch_bslash v) by (intros H; apply mem_byte_In in H; congruence).
  split; [intros ->; discriminate|]. split; auto. split.
  - intros a b ->. apply Hb. apply in_or_app. right. now left.
  - intros a ->. apply Hb. apply in_or_app. right. now left.
Qed.

(** Values without double quotes and backslashes are clean. *)
Corollary C08_plain_values v : v <> [] -> ~ In ch_quote v -> ~ In ch_bslash v -> clean_value v.
Proof.
  intros H1 H2 H3. apply cleanb_clean. unfold cleanb. destruct v as [|c v]; [congruence|].
  destruct (mem_byte ch_quote (c :: v)) eqn:E1; [apply mem_byte_In in E1; contradiction|].
  destruct (mem_byte ch_bslash (c :: v)) eqn:E2; [apply mem_byte_In in E2; contradiction|]. reflexivity.
Qed.

Definition plain_clauseb (c : rclause) : bool :=
  forallb plainb (args (rc_expr c)) && forallb domainb (domains (rc_expr c)) &&
  forallb (fun kv => beqb (fst kv) (B "make-yakker") || cleanb (snd kv)) (rc_withs c).
Lemma plain_clauseb_ok c : plain_clauseb c = true -> plain_clause c.
Proof.
  unfold plain_clauseb. rewrite !andb_true_iff, !forallb_forall. intros ((H1 & H2) & H3). split; [|split].
  - intros a Ha. apply plainb_plain. auto.
  - intros d Hd. apply domainb_plain. auto.
  - intros k v Hg Hk. apply mget_In in Hg. apply H3 in Hg. cbn [fst snd] in Hg. apply orb_true_iff in Hg as [Hg|Hg].
    + destruct (beqb_spec k (B "make-yakker")); [congruence|discriminate].
    + now apply cleanb_clean.
Qed.

Definition rt_text : bytes :=
  B "@data reject not (from a@b or helo .x.org) to-has garbage,noat,route,unqualified,quoted dbl from,host q.org with savedir ./d message 'x' make-yakker ; ip 10.0.0.0/8 source /etc/f".
Definition rt_rule : rule :=
  match parse 0 no_files rt_text with PRules [r] => r | _ => stall_all end.

Example C08_example :
  parse 0 no_files rt_text = PRules [rt_rule] /\ plain_rule rt_rule /\
  rule_string rt_rule = B "@data reject ( not ( from a@b or helo .x.org ) to-has bad,quoted dbl from,host q.org. ) with make-yakker message " ++
    [ch_quote] ++ B "'x'" ++ [ch_quote] ++ B " savedir " ++ [ch_quote] ++ B "./d" ++ [ch_quote] ++ B "; ( ip 10.0.0.0/8 source /etc/f )".
Proof.
  split; [vm_compute; reflexivity|]. split; [|vm_compute; reflexivity].
  unfold plain_rule. generalize (eq_refl : forallb plain_clauseb (r_clauses rt_rule) = true).
  generalize (r_clauses rt_rule). intros cs H. rewrite forallb_forall in H. apply Forall_forall.
  intros c Hc. apply plain_clauseb_ok. apply H. exact Hc.
Qed.


Lemma not_rules x : (match x with PRules _ => false | _ => true end) = true -> forall rs, x <> PRules rs.
Proof. intros H rs ->. discriminate H. Qed.

Definition quoted_rule (a v b : string) : bytes := B a ++ quoted (B v) ++ B b.

(** A quoted argument with a space in it: the printed rule does not parse. *)
Theorem C08_refuted : exists rs r, parse 0 no_files (quoted_rule "accept from " "a b" "") = PRules rs /\ In r rs /\
  (forall rs', parse 0 no_files (rule_string r) <> PRules rs').
Proof.
  exists [one_match aAccept MFrom (B "a b")], (one_match aAccept MFrom (B "a b")).
  split; [vm_compute; reflexivity|]. split; [now left|].
  apply not_rules. vm_compute. reflexivity.
Qed.

(** A quoted argument can print as a rule that parses but is another rule:
    here 'accept from "a or all"' becomes 'accept from a or all', which accepts
    everything. *)
Theorem C08_other_rule_refuted : exists r r', parse 0 no_files (quoted_rule "accept from " "a or all" "") = PRules [r] /\
  parse 0 no_files (rule_string r) = PRules [r'] /\ ~ same_rule r r' /\
  map rc_expr (r_clauses r') = [EOr (EMatch MFrom (B "a")) EAll].
Proof.
  exists (one_match aAccept MFrom (B "a or all")), (mkRule [mkClause (EOr (EMatch MFrom (B "a")) EAll) []] aAccept pMfrom pAny).
  split; [vm_compute; reflexivity|]. split; [vm_compute; reflexivity|]. split; [|reflexivity].
  intros (_ & _ & _ & H). inversion H as [|? ? ? ? [HE _] _]; subst. discriminate HE.
Qed.

(** Values with a double quote, and empty values, do not survive. *)
Theorem C08_values_refuted :
  (exists r, parse 0 no_files (quoted_rule "accept all with message " "say ""hi""" "") = PRules [r] /\
     forall rs', parse 0 no_files (rule_string r) <> PRules rs') /\
  (exists r, parse 0 no_files (quoted_rule "accept all with message " "" "") = PRules [r] /\
     forall rs', parse 0 no_files (rule_string r) <> PRules rs') /\
  (exists r r', parse 0 no_files (quoted_rule "accept all with message " "a\\b" "") = PRules [r] /\
     parse 0 no_files (rule_string r) = PRules [r'] /\ ~ same_rule r r').
Proof.
  split; [|split].
  - exists (mkRule [mkClause EAll [(B "message", B "say ""hi""")]] aAccept pAny pAny). split; [vm_compute; reflexivity|].
    apply not_rules. vm_compute. reflexivity.
  - exists (mkRule [mkClause EAll [(B "message", [])]] aAccept pAny pAny). split; [vm_compute; reflexivity|].
    apply not_rules. vm_compute. reflexivity.
  - exists (mkRule [mkClause EAll [(B "message", B "a\\b")]] aAccept pAny pAny), (mkRule [mkClause EAll [(B "message", B "a\b")]] aAccept pAny pAny).
    split; [vm_compute; reflexivity|]. split; [vm_compute; reflexivity|].
    intros (_ & _ & _ & H). inversion H as [|? ? ? ? [_ HE] _]; subst. specialize (HE (B "message")). discriminate HE.
Qed.

Example C08_exact_example : survives (B "joe@example.com") /\ survives (B "not") /\ survives (B ";") /\ ~ survives (B "a b") /\
  ~ survives (B "file:") /\ ~ survives [].
Proof.
  assert (HP : forall w, plainb w = true -> survives w).
  { intros w H. apply plainb_plain in H as (H1 & H2 & H3 & _ & H4). left. auto. }
  split; [apply HP; reflexivity|]. split; [apply HP; reflexivity|]. split; [right; auto|].
  split; [|split]; intros [(H1 & H2 & H3 & H4)|[H|[H|H]]]; try discriminate.
  - specialize (H2 " "%char). discriminate H2. cbn. auto.
  - congruence.
  - congruence.
Qed.
