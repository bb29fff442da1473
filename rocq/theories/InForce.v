(** C77: what the rules in force say, and how commands are answered, straight
    from the options and the texts of the rule files. *)
From Verif Require Import PropsParse.
From Verif Require Import Bytes Outcome Lexer LexSpec LexProofs Layout Ast GoNet Grammar GramStrip Parser ParseProofs World Dns Eval PropsMatch PropsAttr Sem EvalProofs DecideProofs Decisions PropsEval PropsDecide.
From Verif Require Import RuleLoad PropsLoad ConnCfg Message Session SessProofs Conv PropsSession PropsSession2 DemoSession Meaning.
From Coq Require Import Lia Permutation.

(** ** Specification *)

(** What the rule files say.  [rd] gives the text of a file; [n] is how many
    files may be open at the same time.  A line is a rule or includes a file. *)
Inductive FileMeans (rd : bytes -> bytes + bytes) : nat -> bytes -> list meaning -> Prop :=
| Fm_file n name src ms : rd name = inl (render src) -> wf_source SOL src [] -> LinesMean rd n (pieces src) ms -> FileMeans rd (S n) name ms
with LinesMean (rd : bytes -> bytes + bytes) : nat -> list piece -> list meaning -> Prop :=
| Lm_nil n : LinesMean rd n [] []
| Lm_rule_last n ps m : RuleSays ps m -> LinesMean rd n ps [m]
| Lm_rule n ps m ps' ms : RuleSays ps m -> LinesMean rd n ps' ms -> LinesMean rd n (ps ++ PcEOL :: ps') (m :: ms)
| Lm_include_last n p name ms : Arg p name -> FileMeans rd n name ms -> LinesMean rd n [PcWord (B "include"); p] ms
| Lm_include n p name ms ps' ms' : Arg p name -> FileMeans rd n name ms -> LinesMean rd n ps' ms' ->
    LinesMean rd n (PcWord (B "include") :: p :: PcEOL :: ps') (ms ++ ms').
Scheme FileMeans_mind := Induction for FileMeans Sort Prop
  with LinesMean_mind := Induction for LinesMean Sort Prop.
Combined Scheme Means_mutind from FileMeans_mind, LinesMean_mind.

(** What the options say. *)
Definition rejects (at_ : option phase) (needs : phase) (when : facts -> Prop) (files : list bytes) : meaning :=
  mkMeaning at_ aReject needs [(when, [])] files.
Definition options_mean (o : rule_opts) : list meaning :=
  (if o_stdrules o then
    [rejects None pMfrom (fun F => f_from F <> [] /\ one_of (addr_meaning F (f_from F)) [B "bad"; B "route"]) [];
     rejects None pRto (fun F => f_rcpt F <> [] /\ one_of (addr_meaning F (f_rcpt F)) [B "bad"; B "route"]) [];
     rejects None pHelo (fun F => one_of (helo_meaning F) [B "none"]) []] else []) ++
  (if o_failgotdata o then [rejects (Some pMessage) pAny (fun _ => True) []] else []) ++
  (match o_fromreject o with [] => [] | f =>
    [rejects None pMfrom (fun F => exists pat, IsPattern F (B "file:" ++ f) pat /\ AddrMatches (to_lower (f_uni F) (f_from F)) pat) [f]] end) ++
  (match o_toaccept o with [] => [] | f =>
    [rejects None pRto (fun F => ~ exists pat, IsPattern F (B "file:" ++ f) pat /\ AddrMatches (to_lower (f_uni F) (f_rcpt F)) pat) [f]] end) ++
  (match o_heloreject o with [] => [] | f =>
    [rejects (Some pMfrom) pHelo (fun F => exists pat, IsPattern F (B "file:" ++ f) pat /\ HostMatches (to_lower (f_uni F) (f_helo F)) pat) [f]] end).

(** How a command is answered.  MAIL FROM:<> is not refused; its refusal is
    kept for the commands after it, up to the next HELO or MAIL FROM. *)
Definition Postponed (W : world) (fv : view) (ms : list meaning) (h : list decision) (a : action) (os : list (bytes * bytes)) : Prop :=
  exists later d0 earlier, h = later ++ d0 :: earlier /\ Forall quiet later /\ null_sender d0 /\
    Gives (situation W fv (d0 :: earlier)) pMfrom ms a os /\ refuses a.
Inductive Answered (W : world) (fv : view) (ms : list meaning) (d : decision) (h : list decision) : action -> list (bytes * bytes) -> Prop :=
| An_postponed a os : quiet d -> Postponed W fv ms h a os -> Answered W fv ms d h a os
| An_null a os : null_sender d -> Gives (situation W fv (d :: h)) pMfrom ms a os -> refuses a -> Answered W fv ms d h aAccept []
| An_rules a os : (quiet d -> forall a' os', ~ Postponed W fv ms h a' os') ->
    Gives (situation W fv (d :: h)) (d_phase d) ms a os -> ~ (null_sender d /\ refuses a) -> Answered W fv ms d h a os.

(** ** The rules of files *)

Lemma Means_load fs : PropsParse.static fs ->
  (forall n name ms, FileMeans (rf_read fs 0) n name ms -> forall t, exists rs t', Loads n fs t name rs t' /\ Forall2 RuleOK rs ms) /\
  (forall n ps ms, LinesMean (rf_read fs 0) n ps ms -> forall t eof, i_typ eof = itemEOF ->
    exists rs t', GFile (Loads n fs) t (items_of ps ++ [eof]) rs t' /\ Forall2 RuleOK rs ms).
Proof.
  intros HS. apply (Means_mutind (rf_read fs 0)
    (fun n name ms _ => forall t, exists rs t', Loads n fs t name rs t' /\ Forall2 RuleOK rs ms)
    (fun n ps ms _ => forall t eof, i_typ eof = itemEOF -> exists rs t', GFile (Loads n fs) t (items_of ps ++ [eof]) rs t' /\ Forall2 RuleOK rs ms)).
  - intros n name src ms Hr Hw _ IH t. destruct (IH (S t) (mkItem itemEOF [] 0) eq_refl) as (rs & t' & HG & H2).
    exists rs, t'. split; [|exact H2]. cbn [Loads]. exists (render src). split; [rewrite (HS t 0); exact Hr|].
    eapply GFile_strip; [|exact HG]. rewrite strip_tokens, strip_app, items_strip by auto. reflexivity.
  - intros n t eof He. exists [], t. split; [now constructor|constructor].
  - intros n ps m H t eof He. destruct (RuleSays_items _ _ H) as (r & HG & HA). exists [r], t. split; [now constructor|]. auto.
  - intros n ps m ps' ms H _ IH t eof He. destruct (RuleSays_items _ _ H) as (r & HG & HA). destruct (IH t eof He) as (rs & t' & HG' & HA').
    exists (r :: rs), t'. split; [|auto]. rewrite items_app, <- app_assoc. cbn [items_of map app]. now constructor.
  - intros n p name ms Ha _ IH t eof He. destruct (IH t) as (rs & t' & HL & HA). destruct (Arg_item _ _ Ha) as (H1 & H2).
    exists rs, t'. split; [|exact HA]. apply GF_include_last; auto. now rewrite H2.
  - intros n p name ms ps' ms' Ha _ IH1 _ IH2 t eof He. destruct (IH1 t) as (rs & t1 & HL & HA). destruct (IH2 t1 eof He) as (rs' & t' & HG & HA').
    destruct (Arg_item _ _ Ha) as (H1 & H2). exists (rs ++ rs'), t'. split; [|now apply Forall2_app].
    change (items_of (PcWord (B "include") :: p :: PcEOL :: ps') ++ [eof]) with
      (item_of (PcWord (B "include")) :: item_of p :: item_of PcEOL :: (items_of ps' ++ [eof])).
    apply (GF_include _ _ _ _ _ _ _ _ t1); auto. now rewrite H2.
Qed.

Lemma FilesMean_load fs n : PropsParse.static fs -> forall files mss, Forall2 (FileMeans (rf_read fs 0) n) files mss -> Forall (fun f => f <> []) files ->
  forall t, exists parts t', LoadsAll n fs t files parts t' /\ Forall2 RuleOK (concat parts) (concat mss).
Proof.
  intros HS. induction 1 as [|f ms files mss H _ IH]; intros HF t.
  - exists [], t. split; constructor.
  - inversion HF; subst. destruct (proj1 (Means_load fs HS) _ _ _ H t) as (rs & t1 & HL & HA). destruct (IH ltac:(auto) t1) as (parts & t' & HLs & HAs).
    exists (rs :: parts), t'. split; [econstructor; eauto|]. cbn [concat]. now apply Forall2_app.
Qed.

(** ** The rules of options *)


(** lines that may be followed by more *)
Definition Front (ps : list piece) (ms : list meaning) : Prop := forall ps' ms', FileSays ps' ms' -> FileSays (ps ++ ps') (ms ++ ms').
Lemma Front_nil : Front [] [].
Proof. intros ps' ms' H. exact H. Qed.
Lemma Front_app a b ma mb : Front a ma -> Front b mb -> Front (a ++ b) (ma ++ mb).
Proof. intros Ha Hb ps' ms' H. rewrite <- !app_assoc. auto. Qed.
Lemma Front_line ps m : RuleSays ps m -> Front (ps ++ [PcEOL]) [m].
Proof. intros H ps' ms' H'. rewrite <- app_assoc. now apply Fs_more. Qed.

Lemma file_files f : files_of (B "file:" ++ f) [f].
Proof. intros g H. inversion H; subst. now left. Qed.
Lemma file_arg f : f <> [] -> Arg (PcWord (B "file:" ++ f)) (B "file:" ++ f).
Proof. intros Hf. constructor. intros E. destruct f; [congruence|]. discriminate E. Qed.

Lemma plain_line ps M ph fl : TermSays ps M ph fl -> ClausesSay ps [(M, [])] ph fl.
Proof. intros H. now apply Cs_one, Cs_plain, Ss_one, Os_one. Qed.
Lemma says_reject ps M ph fl : TermSays ps M ph fl -> RuleSays (PcWord (B "reject") :: ps) (rejects None ph M fl).
Proof. intros H. apply Rs_any; [cbn; auto|now apply plain_line|discriminate]. Qed.
Lemma says_reject_at wd p ps M ph fl : In (wd, p) phase_words -> pcode ph <= pcode p -> TermSays ps M ph fl ->
  RuleSays (PcWord wd :: PcWord (B "reject") :: ps) (rejects (Some p) ph M fl).
Proof. intros Hw Hp H. apply Rs_phase; [auto|cbn; auto|now apply plain_line|discriminate|auto]. Qed.

Lemma options_say o : FileSays (pieces (option_source o)) (options_mean o).
Proof.
  assert (H : Front (pieces (option_source o)) (options_mean o)).
  { unfold option_source, options_mean. rewrite !pieces_app. repeat apply Front_app.
    - destruct (o_stdrules o); [|apply Front_nil].
      apply (Front_app [w "reject"; w "from-has"; w "bad"; PcComma; w "route"; PcEOL] _ [_] [_; _]).
      { apply (Front_line [w "reject"; w "from-has"; w "bad"; PcComma; w "route"]). apply says_reject, Ts_from_has; [repeat constructor|].
        repeat apply Forall_cons; try apply Forall_nil; cbn; auto 12. }
      apply (Front_app [w "reject"; w "to-has"; w "bad"; PcComma; w "route"; PcEOL] _ [_] [_]).
      { apply (Front_line [w "reject"; w "to-has"; w "bad"; PcComma; w "route"]). apply says_reject, Ts_to_has; [repeat constructor|].
        repeat apply Forall_cons; try apply Forall_nil; cbn; auto 12. }
      apply (Front_line [w "reject"; w "helo-has"; w "none"]). apply says_reject, Ts_helo_has; [repeat constructor|].
      repeat apply Forall_cons; try apply Forall_nil; cbn; auto 12.
    - destruct (o_failgotdata o); [|apply Front_nil]. apply (Front_line [w "@message"; w "reject"; w "all"]).
      apply says_reject_at; [cbn; auto 8|cbn; lia|constructor].
    - destruct (o_fromreject o) as [|c f] eqn:E; [apply Front_nil|]. rewrite <- E.
      apply (Front_line [w "reject"; w "from"; PcWord (B "file:" ++ o_fromreject o)]). apply says_reject, Ts_from; [apply file_arg; congruence|apply file_files].
    - destruct (o_toaccept o) as [|c f] eqn:E; [apply Front_nil|]. rewrite <- E.
      apply (Front_line [w "reject"; w "not"; w "to"; PcWord (B "file:" ++ o_toaccept o)]).
      apply says_reject. apply (Ts_not _ _ pRto). apply Ts_to; [apply file_arg; congruence|apply file_files].
    - destruct (o_heloreject o) as [|c f] eqn:E; [apply Front_nil|]. rewrite <- E.
      apply (Front_line [w "@from"; w "reject"; w "helo"; PcWord (B "file:" ++ o_heloreject o)]).
      apply says_reject_at; [cbn; auto 8|cbn; lia|]. apply Ts_helo; [cbn; auto|apply file_arg; congruence|apply file_files]. }
  specialize (H [] [] Fs_nil). now rewrite !app_nil_r in H.
Qed.

Lemma options_read fds fs o : ordinary (o_fromreject o) -> ordinary (o_toaccept o) -> ordinary (o_heloreject o) ->
  exists base, buildRules fds fs o = PRules base /\ Forall2 RuleOK base (options_mean o).
Proof.
  intros H1 H2 H3. destruct (option_source_ok o H1 H2 H3) as (E & (HC & _)). unfold buildRules. rewrite <- E.
  eapply FileSays_parse; [apply complete_lines_wf; exact HC|reflexivity|apply options_say].
Qed.

(** ** The rules in force *)

Lemma in_force fds fs t o files mss base fds0 fs0 :
  ordinary (o_fromreject o) -> ordinary (o_toaccept o) -> ordinary (o_heloreject o) -> buildRules fds0 fs0 o = PRules base ->
  PropsParse.static fs -> Forall (fun f => f <> []) files -> Forall2 (FileMeans (rf_read fs 0) fds) files mss ->
  exists r, setupRules fds fs t base files = Some r /\ rr_good r = true /\ Forall2 RuleOK (rr_rules r) (options_mean o ++ concat mss).
Proof.
  intros H1 H2 H3 Hb HS HF HM. destruct (options_read fds0 fs0 o H1 H2 H3) as (base' & Eb & HB).
  assert (base' = base) as -> by (rewrite Hb in Eb; now injection Eb). clear Hb Eb.
  destruct (FilesMean_load fs fds HS files mss HM HF t) as (parts & t' & HL & HA).
  destruct (C12_all_or_nothing fds fs t base files HF) as (r & Er & [(parts' & t'' & HL' & Hg & E)|(HN & _)]); [|exfalso; eapply HN; eauto].
  exists r. split; auto. split; auto. rewrite E. apply Forall2_app; auto.
  replace parts' with parts; auto. clear -HL HL'. revert parts' HL'. induction HL as [|t f files rs t1 parts t2 Hf HL HLs IH]; intros parts' HL'; inversion HL'; subst; auto.
  match goal with H : Loads _ _ t f _ _ |- _ => destruct (Loads_det _ _ _ _ _ _ _ _ HL H); subst end. f_equal. eauto.
Qed.

Lemma Loads_from_file fs : PropsParse.static fs -> forall n t name rs t', Loads n fs t name rs t' -> Forall from_file rs.
Proof.
  intros HS [|n] t name rs t'; [intros []|]. cbn [Loads]. intros (text & _ & HG). apply Forall_forall. intros r Hr.
  exists n, fs, text, rs. split; [|exact Hr]. apply C06_parser_is_grammar.
  exact (GFile_any_tick _ (Loads_any_tick fs HS n) _ _ _ _ HG 0).
Qed.
Lemma in_force_from fds fs t o files base fds0 fs0 r : buildRules fds0 fs0 o = PRules base -> PropsParse.static fs -> Forall (fun f => f <> []) files ->
  setupRules fds fs t base files = Some r -> rr_good r = true -> Forall from_file (rr_rules r).
Proof.
  intros Hb HS HF Er Hg. destruct (C12_all_or_nothing fds fs t base files HF) as (r' & Er' & [(parts & t' & HL & _ & E)|(_ & Hg' & _)]);
    assert (r' = r) by congruence; subst r'; [|congruence].
  rewrite E. apply Forall_app. split.
  - apply Forall_forall. intros x Hx. exists fds0, fs0, (buildText o), base. auto.
  - clear -HS HL. induction HL as [|t f files rs t1 parts t2 _ HL _ IH]; [constructor|]. cbn [concat]. apply Forall_app. split; auto.
    eapply Loads_from_file; eauto.
Qed.

(** ** Decisions *)

Lemma used_unused F ph m c : RuleUsed F ph m c -> RuleUnused F ph m -> False.
Proof.
  intros [Ht HU] HN. specialize (HN Ht). destruct (about_recipients ph m).
  - destruct HU as (pre & a & post & E & _ & (p & q & E' & _ & H)). rewrite E in HN. apply Forall_app in HN as [_ HN]. inversion HN as [|? ? Hx _]; subst.
    unfold no_clause in Hx. rewrite E' in Hx. apply Forall_app in Hx as [_ Hx]. inversion Hx; auto.
  - destruct HU as (p & q & E' & _ & H). unfold no_clause in HN. rewrite E' in HN. apply Forall_app in HN as [_ HN]. inversion HN; auto.
Qed.
Lemma Gives_det F ph ms a os : Gives F ph ms a os -> forall a' os', Gives F ph ms a' os' -> a = a'.
Proof.
  induction 1 as [|m ms a os H _ IH|m c ms a os HU Ha _ IH|m c ms HU Ha]; intros a' os' H'; inversion H'; subst; eauto; try congruence; exfalso; eapply used_unused; eauto.
Qed.

Definition names_known (d : decision) : Prop := t_rip (d_trans d) <> [] /\ t_lip (d_trans d) <> [].

Lemma decisions_answered W rs ms tr0 h c fv : fair_order W -> Forall from_file rs -> Forall2 RuleOK rs ms ->
  session W rs tr0 h c -> Saw W tr0 (c_trace c) fv -> (forall m f, In m ms -> In f (m_files m) -> v_file fv f <> []) ->
  Forall (fun d => null_sender d -> names_known d) h ->
  forall later d earlier, h = later ++ d :: earlier -> names_known d ->
  exists os, Answered W fv ms d earlier (d_result d) os /\ forall k v, mget (d_withs d) k = Some v <-> last_given os k v.
Proof.
  intros HW HR H2 Hs Hf Hfl Hk later d earlier E Hd.
  assert (HM : forall F, f_view F = fv -> forall r, In r rs -> no_miss F r /\ forall x, no_miss (with_rcpt F x) r).
  { assert (HM : forall r F, In r rs -> f_view F = fv -> no_miss F r).
    { intros r F Hr0 HF rc Hrc (f & Hc & Hv). rewrite HF in Hv.
      assert (exists m, In m ms /\ RuleOK r m) as (m & Hm & HOK).
      { clear -H2 Hr0. induction H2 as [|x y rs ms HOK _ IH]; [destruct Hr0|]. destruct Hr0 as [->|Hr0]; [exists y; split; [now left|auto]|].
        destruct (IH Hr0) as (m & Hm & Hx). exists m. split; [now right|auto]. }
      destruct HOK as (_ & HFl & _). unfold rule_files in HFl. rewrite Forall_forall in HFl. eapply Hfl; [exact Hm|eapply (HFl rc Hrc F f Hc)|exact Hv]. }
    intros F HF r Hr. split; [apply HM; auto|]. intros x. apply HM; auto. }
  assert (HG : forall d0 e0 ph a ws, names_known d0 -> Run (situation W fv (d0 :: e0)) ph rs a ws ->
    exists os, Gives (situation W fv (d0 :: e0)) ph ms a os /\ (forall k v, Setting ws k v <-> last_given os k v)).
  { intros d0 e0 ph a ws Hd0 HRun. destruct (Run_gives _ _ _ _ _ HRun) with (ms := ms) as (os & H1 & H3 & _); [exact Hd0|apply HM; reflexivity|exact H2|]. eauto. }
  assert (HNul : forall l x e, h = l ++ x :: e -> null_sender x -> names_known x).
  { intros l x e Eh. rewrite Forall_forall in Hk. apply Hk. rewrite Eh. apply in_elt. }
  destruct (session_sound W rs tr0 h c fv later d earlier HW HR Hs Hf E) as (ws & HO & HWs).
  remember (d_result d) as res eqn:Er. clear Er.
  destruct HO as [a ws Hq (l0 & d0 & e0 & Ed & Hq0 & Hn0 & HRun & Hre)|a ws Hn HRun Hre|a ws HND HRun Hna].
  - destruct (HG d0 e0 pMfrom a ws) as (os & H1 & H3); auto; [eapply (HNul (later ++ d :: l0)); eauto; rewrite E, Ed, <- app_assoc; reflexivity|].
    exists os. split; [apply An_postponed; auto; exists l0, d0, e0; auto 6|]. intros k v. rewrite HWs. auto.
  - destruct (HG d earlier pMfrom a ws) as (os & H1 & H3); auto. exists []. split; [eapply An_null; eauto|].
    intros k v. rewrite HWs. split; [intros (p & x & q & Ex & _)|intros (p & q & Ex & _)]; destruct p; discriminate.
  - destruct (HG d earlier (d_phase d) a ws) as (os & H1 & H3); auto. exists os. split; [|intros k v; rewrite HWs; auto].
    apply An_rules; auto. intros Hq a' os' (l0 & d0 & e0 & Ed & Hq0 & Hn0 & HGv & Hre).
    assert (Eh : h = (later ++ d :: l0) ++ d0 :: e0) by (rewrite E, Ed, <- app_assoc; reflexivity).
    destruct (session_sound W rs tr0 h c fv _ d0 e0 HW HR Hs Hf Eh) as (ws0 & HO0 & _).
    remember (d_result d0) as res0 eqn:Er0. clear Er0.
    assert (Hk0 : names_known d0) by eauto.
    destruct HO0 as [a0 ws0 Hq1 _|a0 ws0 _ HRun0 Hre0|a0 ws0 _ HRun0 Hna0].
    + destruct Hq1, Hn0. contradiction.
    + eapply (HND Hq a0 ws0). exists l0, d0, e0. auto 6.
    + rewrite (proj1 Hn0) in HRun0. destruct (HG d0 e0 pMfrom a0 ws0 Hk0 HRun0) as (os0 & HG0 & _).
      apply Hna0. split; auto. now rewrite (Gives_det _ _ _ _ _ HG0 _ _ HGv).
Qed.

(** ** Sessions *)

Section S.
  Context (K : config) (E : senv) (cn : conn).

  (** The program was started with the options [o], and the rule files, read
      when the client connects, say [mss]. *)
  Record Configured (o : rule_opts) (mss : list (list meaning)) : Prop := mkConfigured {
    cf_names : ordinary (o_fromreject o) /\ ordinary (o_toaccept o) /\ ordinary (o_heloreject o);
    cf_base : exists fds fs, buildRules fds fs o = PRules (k_base K);
    cf_static : PropsParse.static (v_rfs E);
    cf_files : Forall (fun f => f <> []) (k_rulefiles K);
    cf_mean : Forall2 (FileMeans (rf_read (v_rfs E) 0) (v_fds E)) (k_rulefiles K) mss
  }.

  Lemma Configured_rules o mss : Configured o mss -> exists rr,
    setupRules (v_fds E) (v_rfs E) (v_tick E) (k_base K) (k_rulefiles K) = Some rr /\ rr_good rr = true /\
    Forall2 RuleOK (rr_rules rr) (options_mean o ++ concat mss) /\ Forall from_file (rr_rules rr).
  Proof.
    intros [(H1 & H2 & H3) (fds0 & fs0 & Hb) HS HF HM].
    destruct (in_force (v_fds E) (v_rfs E) (v_tick E) o (k_rulefiles K) mss (k_base K) fds0 fs0) as (rr & Er & Hg & HR); auto.
    exists rr. split; auto. split; auto. split; auto. eapply in_force_from; eauto.
  Qed.

  Lemma Setup_trans o s d : Setup K E cn o s -> In d (decisions (s_out s)) ->
    d_phase d = pConnect /\ t_rip (d_trans d) = n_rip cn /\ t_lip (d_trans d) = n_lip cn.
  Proof.
    intros [rr hit n inf l1 l2 sname tr1 name certs tr2 l3 thit tn l4 rd tr0 refused res c ans s1 l5 Hr Hi _ _ _ H1 H2 H3 H4 H5 HD _] Hd.
    apply Decided_Judged in HD as (t & log & HJ & HA & Hlog & Hs & Ho).
    assert (Hans : ans = []).
    { inversion HA as [r Hg|r Hg Hp|r Hg Hp]; subst; auto; congruence. }
    assert (Idle : forall l, Forall idle l -> decisions l = []).
    { intros l Hl. rewrite <- decisions_vis, (vis_idle _ Hl). auto. }
    subst ans. cbn [add_out s_out] in Hd.
    rewrite decisions_app, (Idle _ H5), Ho in Hd. cbn [app] in Hd. rewrite decisions_app, (chatter_decisions _ Hlog) in Hd.
    cbn [app s_out] in Hd. cbn [decisions flat_map app] in Hd. destruct Hd as [<-|Hd]; [split; [reflexivity|split; reflexivity]|].
    exfalso. change (In d (decisions (l4 ++ FNotls (BLookup (n_rip cn) tlsTimeout thit tn) :: l3 ++ l2 ++ FYak (BLookup (n_rip cn) (k_yakttl K) hit n) :: l1))) in Hd.
    rewrite decisions_app, (Idle _ H4) in Hd. cbn [app decisions flat_map] in Hd. fold (decisions (l3 ++ l2 ++ FYak (BLookup (n_rip cn) (k_yakttl K) hit n) :: l1)) in Hd.
    rewrite !decisions_app, (Idle _ H3), (Idle _ H2) in Hd. cbn [app decisions flat_map] in Hd. fold (decisions l1) in Hd. rewrite (Idle _ H1) in Hd. destruct Hd.
  Qed.

  Lemma Conv_trans I h s : Conv K E cn I h s -> Forall (fun d => t_rip (d_trans d) = n_rip cn /\ t_lip (d_trans d) = n_lip cn) (decisions (s_out s)).
  Proof.
    induction 1 as [s Hs|h s ev tls s' did HC IH Hst Ha].
    - apply Forall_forall. intros d Hd. apply setup_Setup in Hs. eapply Setup_trans; eauto.
    - assert (HT : Turn K E cn I h (mkTurn ev tls did) Go s s') by (repeat split; auto).
      rewrite (Turn_decisions _ _ _ _ _ _ _ _ _ HT). apply Forall_app. split; auto. apply Forall_rev, Forall_forall. intros d Hd.
      destruct (rules_see _ _ _ _ _ _ _ _ _ _ HT Hd) as (H1 & H2 & _). auto.
  Qed.

  (** A command is answered as the options and the rule files say. *)
  Theorem C77_commands_answered o mss I h t n s s' : Configured o mss -> fair_order (v_world E) ->
    Turn K E cn I h t n s s' -> is_command (t_event t) \/ is_helo (t_event t) -> si_stall I = false -> n_rip cn <> [] -> n_lip cn <> [] ->
    (exists d tr0, decisions (t_did t) = [d] /\ About (t_event t) (d_phase d) (d_evt d) /\
       session (v_world E) (si_rules I) tr0 (d :: decisions (s_out s)) (s_ctx s') /\
       (forall fv, Saw (v_world E) tr0 (c_trace (s_ctx s')) fv ->
          (forall m f, In m (options_mean o ++ concat mss) -> In f (m_files m) -> v_file fv f <> []) ->
          exists os, Answered (v_world E) fv (options_mean o ++ concat mss) d (decisions (s_out s)) (d_result d) os /\
            forall k v, mget (d_withs d) k = Some v <-> last_given os k v) /\
       (n = Go -> forall r, replies (t_did t) = [r] -> rclass r = class (d_result d)) /\
       (is_helo (t_event t) -> replies (t_did t) = [] -> class (d_result d) = 2) /\
       (n = Drop -> class (d_result d) = 2 /\ forall r, replies (t_did t) = [r] -> rclass r = 4)) \/
    (n = Go /\ decisions (t_did t) = [] /\ save_failed (t_did t) /\ (exists data, t_event t = EvGotData data) /\
       forall r, replies (t_did t) = [r] -> rclass r = 4).
  Proof.
    intros HC HW HT Hev Hst Hr Hl. destruct (C41_reply_class _ _ _ _ _ _ _ _ _ HT Hev) as [(d & Hd & Hab & _ & Hc & Hh & Hdr & tr0 & Hs)|H]; [left|right; exact H].
    exists d, tr0. split; auto. split; auto. split; auto. split; [|auto].
    intros fv Hf Hfl. destruct (Configured_rules _ _ HC) as (rr & Er & _ & HR & HF).
    assert (HI : si_rules I = rr_rules rr).
    { destruct HT as (HCv & _). apply Conv_info in HCv as (rr' & st & Er' & ->). assert (rr' = rr) by congruence. subst rr'.
      unfold info_of in *. destruct st; [discriminate|reflexivity]. }
    rewrite HI in Hs.
    assert (HN : Forall names_known (d :: decisions (s_out s))).
    { constructor.
      - destruct (rules_see _ _ _ _ _ _ _ _ _ d HT) as (E1 & E2 & _); [rewrite Hd; now left|]. unfold names_known. rewrite E1, E2. auto.
      - destruct HT as (HCv & _). apply Conv_trans in HCv. eapply Forall_impl; [|exact HCv]. intros x [E1 E2]. unfold names_known. rewrite E1, E2. auto. }
    apply (decisions_answered (v_world E) (rr_rules rr) _ tr0 (d :: decisions (s_out s)) (s_ctx s') fv HW HF HR Hs Hf Hfl) with (later := []); auto.
    - eapply Forall_impl; [|exact HN]. auto.
    - now inversion HN.
  Qed.

  (** The same for the connection itself. *)
  Theorem C77_connection_answered o mss oI s : Configured o mss -> fair_order (v_world E) ->
    setup K E cn (sess0 K) = Ok (oI, s) -> (forall I, oI = Some I -> si_stall I = false) -> n_rip cn <> [] -> n_lip cn <> [] ->
    exists d tr0 rs, decisions (s_out s) = [d] /\ d_phase d = pConnect /\ (oI = None <-> d_result d = aReject) /\
      session (v_world E) rs tr0 [d] (s_ctx s) /\
      forall fv, Saw (v_world E) tr0 (c_trace (s_ctx s)) fv ->
        (forall m f, In m (options_mean o ++ concat mss) -> In f (m_files m) -> v_file fv f <> []) ->
        exists os, Gives (situation (v_world E) fv [d]) pConnect (options_mean o ++ concat mss) (d_result d) os.
  Proof.
    intros HC HW Hs Hst Hr Hl. apply setup_Setup in Hs. pose proof (fun d => Setup_trans oI s d Hs) as HT.
    apply Setup_session in Hs as (rr & st & tr0 & c & T & res & Er & Ec & HD & Hd & _ & Eo & _). rewrite Hd in HT |- *.
    set (d := mkDecision T pConnect (mkEvt None []) res (c_withprops c) (c_dnsblhit c) (c_domerr c)) in *.
    assert (Hse : session (v_world E) (si_rules (info_of K rr st)) tr0 [d] (s_ctx s)) by (rewrite Ec; eapply Se_next; [apply Se_start|exact HD]).
    exists d, tr0, (si_rules (info_of K rr st)). split; auto. split; auto. split; [cbn; rewrite Eo; split; [destruct res; auto; discriminate|intros ->; auto]|]. split; auto.
    intros fv Hf Hfl. destruct (Configured_rules _ _ HC) as (rr' & Er' & _ & HR & HF). assert (rr' = rr) by congruence. subst rr'.
    assert (st = false) as ->.
    { destruct st; auto. exfalso. destruct oI as [I|].
      - specialize (Hst I eq_refl). assert (I = info_of K rr true) as -> by (destruct res; congruence). discriminate.
      - change (si_rules (info_of K rr true)) with stallall in Hse. rewrite stallall_is in Hse. apply stall_session in Hse as (_ & HX). inversion HX as [|? ? HX1 _]; subst. cbn in HX1. rewrite HX1 in Eo. clear -Eo. discriminate Eo. }
    change (si_rules (info_of K rr false)) with (rr_rules rr) in Hse.
    assert (Hk : names_known d) by (destruct (HT d (or_introl eq_refl)) as (_ & E1 & E2); unfold names_known; rewrite E1, E2; auto).
    destruct (decisions_answered (v_world E) (rr_rules rr) _ tr0 [d] (s_ctx s) fv HW HF HR Hse Hf Hfl) with (later := @nil decision) (d := d) (earlier := @nil decision) as (os & HA & _); auto.
    exists os. remember (d_result d) as x eqn:Ex. clear Ex. destruct HA as [a os _ (l & d0 & e & Ed & _)|a os [Hn _] _ _|a os _ HG _]; [destruct l; discriminate|discriminate|exact HG].
  Qed.
End S.

(** The rules in force are those of the options and of the rule files in their
    order, with included files in place. *)
Theorem C77_rules_in_force fds fs t o files mss base fds0 fs0 :
  ordinary (o_fromreject o) -> ordinary (o_toaccept o) -> ordinary (o_heloreject o) -> buildRules fds0 fs0 o = PRules base ->
  PropsParse.static fs -> Forall (fun f => f <> []) files -> Forall2 (FileMeans (rf_read fs 0) fds) files mss ->
  exists r, setupRules fds fs t base files = Some r /\ rr_good r = true /\ Forall2 Agrees (rr_rules r) (options_mean o ++ concat mss).
Proof.
  intros H1 H2 H3 Hb HS HF HM. destruct (in_force fds fs t o files mss base fds0 fs0) as (r & Er & Hg & HR); auto.
  exists r. split; auto. split; auto. clear -HR. induction HR as [|x m rs ms (HA & _) _ IH]; constructor; auto.
Qed.

(** ** In a world that stays the same *)

(** what the files and the DNS have *)
Definition world_view (W : world) : view :=
  static_view W (fun f => match f with [] => [] | _ => entries (w_uni W) (w_file W 0 f) end).
Lemma world_Saw W rs tr0 h c : World.static W -> fair_order W -> session W rs tr0 h c -> Saw W tr0 (c_trace c) (world_view W).
Proof.
  intros [H1 H2 H3 H4] HO Hs. apply connection_session in Hs.
  destruct (static_Saw W (conj H2 (conj H3 HO)) tr0 c Hs) as [S1 S2 S3 S4]. constructor; auto.
  intros f i Hi. cbn [world_view static_view v_file]. rewrite (H1 0 i).
  destruct f; [exfalso; eapply (tr_named _ _ _ (connection_traced _ _ _ Hs)); eauto|reflexivity].
Qed.

(** Then the answer to a command follows from the options, the texts of the
    rule files, the pattern files, the DNS and the commands so far. *)
Corollary C77_answers_in_a_fixed_world K E cn o mss I h t n s s' : Configured K E o mss -> World.static (v_world E) -> fair_order (v_world E) ->
  (forall m f, In m (options_mean o ++ concat mss) -> In f (m_files m) -> v_file (world_view (v_world E)) f <> []) ->
  Turn K E cn I h t n s s' -> is_command (t_event t) \/ is_helo (t_event t) -> si_stall I = false -> n_rip cn <> [] -> n_lip cn <> [] ->
  n = Go -> ~ save_failed (t_did t) ->
  exists d a os, decisions (t_did t) = [d] /\ About (t_event t) (d_phase d) (d_evt d) /\
    Answered (v_world E) (world_view (v_world E)) (options_mean o ++ concat mss) d (decisions (s_out s)) a os /\
    (forall r, replies (t_did t) = [r] -> rclass r = class a) /\ (is_helo (t_event t) -> replies (t_did t) = [] -> class a = 2).
Proof.
  intros HC HS HW Hfl HT Hev Hst Hr Hl Hn Hsf.
  destruct (C77_commands_answered K E cn o mss I h t n s s' HC HW HT Hev Hst Hr Hl) as [(d & tr0 & Hd & Ha & Hs & HF & Hg & Hh & _)|(_ & _ & H & _)]; [|contradiction].
  destruct (HF (world_view (v_world E))) as (os & HA & _); auto; [eapply world_Saw; eauto|]. exists d, (d_result d), os. auto 8.
Qed.

(** ** Examples *)

Definition fixed_world : world :=
  {| w_uni := plain_unicode;
     w_file := fun _ f => if beqb f (B "/l") then FRead (B ".evil.org" ++ [ch_nl]) false else FNoent;
     w_ip := fun _ _ => inr (mkDnsErr true false (B "no such host") (B "no such host"));
     w_mx := fun _ _ => inr (mkDnsErr true false (B "no such host") (B "no such host"));
     w_addr := fun _ _ => inl []; w_order := fun _ l => rev l; w_ipstr := fun _ => B "8.0.0.0" |}.
(** main:
      set-with helo-has nodots with note seen
      include "sub"
      @data accept all
    sub:
      reject to bob@
    more:
      stall all *)
Definition main_pieces : list piece :=
  [w "set-with"; w "helo-has"; w "nodots"; w "with"; w "note"; w "seen"; PcEOL; w "include"; PcQuoted (B "sub") (B "sub"); PcEOL; w "@data"; w "accept"; w "all"; PcEOL].
Definition sub_pieces : list piece := [w "reject"; w "to"; w "bob@"].
Definition more_pieces : list piece := [w "stall"; w "to"; w "al@"; PcEOL].
Definition some_fs : rfs := {| rf_read := fun _ n =>
  if beqb n (B "main") then inl (render (spaced main_pieces)) else if beqb n (B "sub") then inl (render (spaced sub_pieces))
  else if beqb n (B "more") then inl (render (spaced more_pieces)) else inr (B "no") |}.
Definition some_opts : rule_opts := mkRuleOpts true false [] [] (B "/l").
Definition some_cfg : config :=
  mkConfig (B "/save") (B "all") (B "helo") 0 100 (B "me") [] false [B "main"; B "more"] (documented some_opts) true false true [B "c"].
Definition some_env : senv :=
  mkEnv fixed_world 3 some_fs 0 (fun _ _ => inr []) (fun _ => (false, 0%Z)) (fun _ => 1%Z) (fun _ => B "2026") (fun _ => B "now")
    (fun _ _ => None) (fun _ _ => OpOk) (fun _ _ => WrOk) (fun _ => None) (fun d => B "H" ++ d) (fun d => MBody d) (fun _ _ _ => None).
Definition some_meanings : list (list meaning) :=
  [[mkMeaning None aNoresult pHelo [(fun F => one_of (helo_meaning F) [B "nodots"], [(B "note", B "seen")])] [];
    mkMeaning None aReject pRto [(fun F => exists pat, IsPattern F (B "bob@") pat /\ AddrMatches (to_lower (f_uni F) (f_rcpt F)) pat, [])] [];
    mkMeaning (Some pData) aAccept pAny [(fun _ => True, [])] []];
   [mkMeaning None aStall pRto [(fun F => exists pat, IsPattern F (B "al@") pat /\ AddrMatches (to_lower (f_uni F) (f_rcpt F)) pat, [])] []]].

Ltac source_ok := cbn; repeat (first [reflexivity | discriminate | (split; [|]) | (intros [? _]; discriminate) | (intros ?; discriminate) | exact Logic.I]).
Lemma some_configured : Configured some_cfg some_env some_opts some_meanings.
Proof.
  constructor.
  - split; [intros c []|]. split; [intros c []|]. intros c Hc. cbn in Hc. repeat (destruct Hc as [<-|Hc]; [reflexivity|]). destruct Hc.
  - exists 0, nofs. vm_compute. reflexivity.
  - intros t t' n. reflexivity.
  - repeat constructor; discriminate.
  - constructor; [|constructor; [|constructor]].
    + apply (Fm_file _ 2 (B "main") (spaced main_pieces)); [reflexivity|source_ok|].
      change (pieces (spaced main_pieces)) with main_pieces.
      apply (Lm_rule _ _ [w "set-with"; w "helo-has"; w "nodots"; w "with"; w "note"; w "seen"]).
      { apply Rs_any; [cbn; auto 6| |intros _; repeat constructor; discriminate]. apply Cs_one, (Cs_with [w "helo-has"; w "nodots"]).
        - apply Ss_one, Os_one, Ts_helo_has; [repeat constructor|repeat apply Forall_cons; try apply Forall_nil; cbn; auto 12].
        - apply Op_one, Op_note; [constructor; discriminate|cbn; intuition discriminate].
        - repeat constructor; intros []. }
      apply (Lm_include _ 2 (PcQuoted (B "sub") (B "sub")) (B "sub") [_]); [constructor| |].
      * apply (Fm_file _ 1 (B "sub") (spaced sub_pieces)); [reflexivity|source_ok|]. apply Lm_rule_last.
        apply Rs_any; [cbn; auto 6| |discriminate]. apply plain_line, Ts_to; [constructor; discriminate|intros f H; inversion H].
      * apply (Lm_rule _ _ [w "@data"; w "accept"; w "all"] _ [] []); [|constructor].
        apply Rs_phase; [cbn; auto 8|cbn; auto 6|apply plain_line, Ts_all|discriminate|cbn; lia].
    + apply (Fm_file _ 2 (B "more") (spaced more_pieces)); [reflexivity|source_ok|].
      apply (Lm_rule _ _ [w "stall"; w "to"; w "al@"] _ [] []); [|constructor].
      apply Rs_any; [cbn; auto 6| |discriminate]. apply plain_line, Ts_to; [constructor; discriminate|intros f H; inversion H].
Qed.
Example C77_example : Configured some_cfg some_env some_opts some_meanings /\ World.static (v_world some_env) /\ fair_order (v_world some_env) /\
  (forall m f, In m (options_mean some_opts ++ concat some_meanings) -> In f (m_files m) -> v_file (world_view (v_world some_env)) f <> []) /\
  n_rip demo_conn <> [] /\ n_lip demo_conn <> [] /\
  exists I h t n s s', Turn some_cfg some_env demo_conn I h t n s s' /\
    (si_stall I, map (fun t => (t_event t, map rclass (replies (t_did t)))) (t :: h), n) =
    (false, [(EvRcptTo (B "bob@x.y"), [5]); (EvRcptTo (B "al@x.y"), [4]); (EvMailFrom (B "a@x.y"), [2]); (EvHelo EHLO (B "h"), [])], Go).
Proof.
  split; [apply some_configured|]. split; [constructor; reflexivity|]. split; [intros i l; apply Permutation_sym, Permutation_rev|].
  split; [|split; [vm_compute; discriminate|split; [vm_compute; discriminate|]]].
  - intros m f Hm Hf. cbn [options_mean some_opts o_stdrules o_failgotdata o_fromreject o_toaccept o_heloreject some_meanings concat app] in Hm.
    repeat (destruct Hm as [<-|Hm]; [cbn [rejects m_files] in Hf; try contradiction; destruct Hf as [<-|[]]; vm_compute; discriminate|]).
    destruct Hm.
  - apply (turn_example _ _ _ (plain [EvHelo EHLO (B "h"); EvMailFrom (B "a@x.y"); EvRcptTo (B "al@x.y")]) (EvRcptTo (B "bob@x.y")) no_tls
      (fun I h t n s s' => (si_stall I, map (fun t => (t_event t, map rclass (replies (t_did t)))) (t :: h), n))).
    vm_compute. reflexivity.
Qed.

