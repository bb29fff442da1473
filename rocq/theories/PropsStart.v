(** C58: what a started server can rely on. *)
From Coq Require Import Lia.
From Verif Require Import PropsParse.
From Verif Require Import Bytes Outcome Lexer Ast GoNet Parser Grammar World Dns Eval Decisions PropsEval PropsSafe RuleLoad PropsLoad ConnCfg Message Session Conv PropsSession Startup Crash DemoSession.

(** The combinations of options that are accepted. *)
Record Proper (O : options) : Prop := mkProper {
  pr_listen : g_args O <> [];
  pr_save : g_d O <> [] \/ g_force O = true \/ g_M O = true;
  pr_hash : In (g_savehash O) [B "msg"; B "full"; B "all"];
  pr_msg : g_savehash O = B "msg" -> g_l O <> [];
  pr_dncount : (0 < g_dncount O)%Z -> g_smtplog O <> [] /\ (1000000000 <= g_dndur O)%Z;
  pr_dnlog : g_dnlog O <> [] -> g_dncount O <> 0%Z;
  pr_cert : g_c O = [] <-> g_k O = [];
  pr_phase : In (g_minphase O) [B "helo"; B "ehlo"; B "from"; B "to"; B "data"; B "message"; B "accepted"]
}.

(** The machine can do what the options ask for. *)
Record Ready (O : options) (H : machine) (certs : list bytes) (base : list rule) : Prop := mkReady {
  rd_certs : if beqb (g_c O) [] then certs = [] else loadCerts (h_keys H) (g_c O) (g_k O) = inl certs;
  rd_logs : forall f, In f [g_smtplog O; g_l O; g_dnlog O] -> f <> [] -> f <> B "-" -> h_log H f = None;
  rd_save : g_d O <> [] -> h_create H (g_d O ++ B "/.wecanmake") = None;
  rd_conncfg : g_conncfg O <> [] -> exists d, fst (loadConnFile (h_world H) (h_keys H) (g_conncfg O) []) = Ok (inl d);
  rd_base : buildRules (h_fds H) (h_rfs H) (opts_of O) = PRules base;
  rd_files : forall f, In f (ruleFiles O) -> h_open H f = None;
  rd_rules : exists rr, setupRules (h_fds H) (h_rfs H) (h_tick H) base (ruleFiles O) = Some rr /\ rr_good rr = true;
  rd_listen : forall n a, nth_error (g_args O) n = Some a -> h_listen H n a = None
}.

(** The settings of the server, from the options. *)
Definition settings (O : options) (certs : list bytes) (base : list rule) : config :=
  mkConfig (g_d O) (g_savehash O) (if beqb (g_minphase O) (B "ehlo") then B "helo" else g_minphase O) (g_dncount O) (g_dndur O)
    (g_helo O) (g_conncfg O) (g_S O) (ruleFiles O) base
    (negb (beqb (g_smtplog O) [])) (negb (beqb (g_dnlog O) [])) (negb (beqb (g_l O) [])) certs.

Lemma unless_serve o k K : unless o k = BServe K <-> o = None /\ k = BServe K.
Proof. destruct o; cbn; split; intros H; [discriminate|destruct H; discriminate|auto|tauto]. Qed.
Local Lemma beqb_nil a : beqb a [] = true <-> a = [].
Proof. split; intros H; [now apply beqb_eq|subst; apply beqb_refl]. Qed.
Local Lemma nbeqb_nil a : negb (beqb a []) = true <-> a <> [].
Proof. rewrite Bool.negb_true_iff. split; intros H; [intros ->; discriminate H|now apply beqb_neq]. Qed.

Local Lemma check_one (b : bool) (m : bytes) (r : option bytes) : (if b then Some m else r) = None <-> b = false /\ r = None.
Proof. destruct b; split; [discriminate|intros [HX _]; discriminate HX|auto|tauto]. Qed.
Lemma checkOptions_spec O : checkOptions O = None <->
  (g_d O <> [] \/ g_force O = true \/ g_M O = true) /\ In (g_savehash O) [B "msg"; B "full"; B "all"] /\ (g_savehash O = B "msg" -> g_l O <> []) /\
  ((0 < g_dncount O)%Z -> g_smtplog O <> [] /\ (1000000000 <= g_dndur O)%Z) /\ (g_dnlog O <> [] -> g_dncount O <> 0%Z).
Proof.
  unfold checkOptions. rewrite !check_one.
  assert (A1 : beqb (g_d O) [] && negb (g_force O || g_M O) = false <-> (g_d O <> [] \/ g_force O = true \/ g_M O = true)).
  { destruct (beqb_spec (g_d O) []), (g_force O), (g_M O); cbn; split; try tauto; try discriminate; intros [HX|[HX|HX]]; congruence. }
  assert (A2 : beqb (g_savehash O) (B "msg") && beqb (g_l O) [] = false <-> (g_savehash O = B "msg" -> g_l O <> [])).
  { destruct (beqb_spec (g_savehash O) (B "msg")), (beqb_spec (g_l O) []); cbn [andb]; split; try tauto; try discriminate. }
  assert (A3 : negb (beqb (g_savehash O) (B "msg") || beqb (g_savehash O) (B "full") || beqb (g_savehash O) (B "all")) = false <-> In (g_savehash O) [B "msg"; B "full"; B "all"]).
  { rewrite Bool.negb_false_iff, !Bool.orb_true_iff. cbn [In]. split.
    - intros [[HX|HX]|HX]; apply beqb_eq in HX; auto.
    - intros [HX|[HX|[HX|[]]]]; rewrite <- HX; auto. }
  assert (A4 : Z.ltb 0 (g_dncount O) && beqb (g_smtplog O) [] = false <-> ((0 < g_dncount O)%Z -> g_smtplog O <> [])).
  { destruct (Z.ltb_spec 0 (g_dncount O)), (beqb_spec (g_smtplog O) []); cbn [andb]; split; try tauto; try discriminate; try lia. }
  assert (A5 : Z.ltb 0 (g_dncount O) && Z.ltb (g_dndur O) 1000000000 = false <-> ((0 < g_dncount O)%Z -> (1000000000 <= g_dndur O)%Z)).
  { destruct (Z.ltb_spec 0 (g_dncount O)), (Z.ltb_spec (g_dndur O) 1000000000); cbn [andb]; split; try tauto; try discriminate; try lia. }
  assert (A6 : negb (beqb (g_dnlog O) []) && Z.eqb (g_dncount O) 0 = false <-> (g_dnlog O <> [] -> g_dncount O <> 0%Z)).
  { destruct (beqb_spec (g_dnlog O) []), (Z.eqb_spec (g_dncount O) 0); cbn [andb negb]; split; try tauto; try discriminate. }
  rewrite A1, A2, A3, A4, A5, A6. clear. split.
  - intros (B1 & B2 & B3 & B4 & B5 & B6 & _). split; [auto|]. split; [auto|]. split; [auto|]. split; [intros HX; split; auto|auto].
  - intros (B1 & B2 & B3 & B4 & B5). split; auto. split; auto. split; auto. split; [intros HX; apply B4; auto|]. split; [intros HX; apply B4; auto|]. auto.
Qed.

Lemma loadServerCerts_spec O H certs : loadServerCerts O H = inl certs <->
  (g_c O = [] <-> g_k O = []) /\ (if beqb (g_c O) [] then certs = [] else loadCerts (h_keys H) (g_c O) (g_k O) = inl certs).
Proof.
  unfold loadServerCerts. destruct (beqb_spec (g_c O) []) as [E1|E1]; destruct (beqb_spec (g_k O) []) as [E2|E2]; cbn [negb andb].
  - split; [intros HX; split; [tauto|congruence]|]. intros [_ ->]. reflexivity.
  - split; [intros HX; discriminate HX|]. intros [A _]. tauto.
  - split; [intros HX; discriminate HX|]. intros [A _]. tauto.
  - destruct (loadCerts _ _ _) as [cs|e]; split.
    + intros HX. split; [tauto|]. congruence.
    + intros [_ HX]. congruence.
    + intros HX; discriminate HX.
    + intros [_ HX]; discriminate HX.
Qed.
Lemma openlogfile_spec H f : openlogfile H f = None <-> (f <> [] -> f <> B "-" -> h_log H f = None).
Proof.
  unfold openlogfile. destruct (beqb_spec f []) as [E1|E1]; [tauto|]. destruct (beqb_spec f (B "-")) as [E2|E2]; [tauto|]. tauto.
Qed.
Lemma openLogs_spec O H : openLogs O H = None <-> forall f, In f [g_smtplog O; g_l O; g_dnlog O] -> f <> [] -> f <> B "-" -> h_log H f = None.
Proof.
  assert (A : openLogs O H = None <-> openlogfile H (g_smtplog O) = None /\ openlogfile H (g_l O) = None /\ openlogfile H (g_dnlog O) = None).
  { unfold openLogs. destruct (openlogfile H (g_smtplog O)); [split; [intros HX; discriminate HX|intros [HX _]; discriminate HX]|].
    destruct (openlogfile H (g_l O)); [split; [intros HX; discriminate HX|intros (_ & HX & _); discriminate HX]|].
    destruct (openlogfile H (g_dnlog O)); [split; [intros HX; discriminate HX|intros (_ & _ & HX); discriminate HX]|]. tauto. }
  rewrite A, !openlogfile_spec. cbn [In]. split; [|intuition].
  intros (A1 & A2 & A3) f [<-|[<-|[<-|[]]]]; auto.
Qed.
Lemma trySavedir_spec O H : trySavedir O H = None <-> (g_d O <> [] -> h_create H (g_d O ++ B "/.wecanmake") = None).
Proof.
  unfold trySavedir. destruct (beqb_spec (g_d O) []) as [E|E]; [tauto|]. destruct (h_create _ _); split; try tauto.
  - intros HX; discriminate HX.
  - intros HX. specialize (HX E). discriminate HX.
Qed.
Lemma tryRuleFiles_spec H fs : tryRuleFiles H fs = None <-> forall f, In f fs -> h_open H f = None.
Proof.
  induction fs as [|f fs IH]; cbn [tryRuleFiles In]; [tauto|]. destruct (h_open H f) eqn:E.
  - split; [intros HX; discriminate HX|]. intros HX. specialize (HX f (or_introl eq_refl)). congruence.
  - rewrite IH. split; intros HX; [intros g [<-|Hg]; auto|auto].
Qed.
Lemma listenAll_spec H l : forall n, listenAll H n l = None <-> forall k a, nth_error l k = Some a -> h_listen H (n + k) a = None.
Proof.
  induction l as [|a l IH]; intros n; cbn [listenAll].
  - split; auto. intros _ [|k] a HX; discriminate HX.
  - destruct (h_listen H n a) eqn:E.
    + split; [intros HX; discriminate HX|]. intros HX. specialize (HX 0 a eq_refl). rewrite Nat.add_0_r in HX. congruence.
    + rewrite IH. split.
      * intros HX [|k] b Hb; cbn in Hb; [injection Hb as <-; now rewrite Nat.add_0_r|]. rewrite Nat.add_succ_r. apply (HX k b Hb).
      * intros HX k b Hb. specialize (HX (S k) b Hb). now rewrite Nat.add_succ_r in HX.
Qed.
Lemma checkMinphase_spec m m' : checkMinphase m = inl m' <->
  In m [B "helo"; B "ehlo"; B "from"; B "to"; B "data"; B "message"; B "accepted"] /\ m' = if beqb m (B "ehlo") then B "helo" else m.
Proof.
  unfold checkMinphase. destruct (beqb_spec m (B "ehlo")) as [->|E].
  - split; [intros HX; split; [cbn [In]; auto|congruence]|]. intros [_ ->]. reflexivity.
  - destruct (bmem m _) eqn:Em.
    + apply bmem_In in Em. split; [|intros [_ ->]; reflexivity]. intros HX. split; [|congruence]. cbn [In] in *. tauto.
    + split; [intros HX; discriminate HX|]. intros [HX _]. exfalso.
      assert (bmem m [B "from"; B "to"; B "data"; B "message"; B "accepted"; B "helo"] = true); [|congruence].
      apply bmem_In. cbn [In] in *. intuition congruence.
Qed.

(** The server starts exactly if the options are proper and the machine is ready,
    and with those settings. *)
Theorem C58_startup O H K : main O H = BServe K <->
  Proper O /\ exists certs base, Ready O H certs base /\ K = settings O certs base.
Proof.
  split.
  - unfold main. intros HM. destruct (g_args O) as [|a args] eqn:Ea; [discriminate HM|].
    apply unless_serve in HM as [H1 HM]. apply checkOptions_spec in H1 as (H1 & H2 & H3 & H4 & H5).
    destruct (loadServerCerts O H) as [certs|e] eqn:Ec; [|discriminate HM]. apply loadServerCerts_spec in Ec as [H6 H7].
    apply unless_serve in HM as [H8 HM]. pose proof (proj1 (openLogs_spec O H) H8) as Hlogs. apply unless_serve in HM as [H9 HM]. pose proof (proj1 (trySavedir_spec O H) H9) as Hsave.
    destruct (tryConnFile O H) as [r| |] eqn:Er; try discriminate HM. apply unless_serve in HM as [-> HM].
    destruct (buildRules _ _ _) as [base| |] eqn:Eb; try discriminate HM.
    apply unless_serve in HM as [H10 HM]. pose proof (proj1 (tryRuleFiles_spec H _) H10) as Hfiles.
    destruct (setupRules _ _ _ _ _) as [rr|] eqn:Es; [|discriminate HM]. destruct (rr_good rr) eqn:Eg; [|discriminate HM]. cbn [negb] in HM.
    destruct (checkMinphase (g_minphase O)) as [m|e] eqn:Em; [|discriminate HM]. apply checkMinphase_spec in Em as [H11 ->].
    apply unless_serve in HM as [H12 HM]. pose proof (proj1 (listenAll_spec H _ 0) H12) as Hlis. 
    split; [constructor; auto; rewrite Ea; discriminate|]. exists certs, base. split.
    + constructor; auto.
      * intros Hne. unfold tryConnFile in Er. apply beqb_neq in Hne. rewrite Hne in Er.
        destruct (fst (loadConnFile _ _ _ _)) as [[d|e]| |]; cbn in Er; try discriminate Er. eauto.
      * eauto.
      * rewrite Ea. exact Hlis.
    + injection HM as <-. reflexivity.
  - intros ([P1 P2 P3 P4 P5 P6 P7 P8] & certs & base & [R1 R2 R3 R4 R5 R6 (rr & R7 & R8) R9] & ->). unfold main.
    destruct (g_args O) as [|a args] eqn:Ea; [congruence|].
    apply unless_serve. split; [apply checkOptions_spec; auto|].
    destruct (loadServerCerts O H) as [certs'|e] eqn:Ec.
    2:{ exfalso. assert (HX : loadServerCerts O H = inl certs) by (apply loadServerCerts_spec; auto). congruence. }
    assert (HX : loadServerCerts O H = inl certs) by (apply loadServerCerts_spec; auto). rewrite HX in Ec. injection Ec as <-.
    apply unless_serve. split; [apply openLogs_spec; auto|]. apply unless_serve. split; [apply trySavedir_spec; auto|].
    replace (tryConnFile O H) with (@Ok (option bytes) None).
    2:{ unfold tryConnFile. destruct (beqb_spec (g_conncfg O) []) as [E|E]; auto. destruct (R4 E) as (d & ->). reflexivity. }
    apply unless_serve. split; auto. rewrite R5. apply unless_serve. split; [apply tryRuleFiles_spec; auto|]. rewrite R7, R8. cbn [negb].
    destruct (checkMinphase (g_minphase O)) as [m|e] eqn:Em.
    2:{ exfalso. assert (HY : checkMinphase (g_minphase O) = inl (if beqb (g_minphase O) (B "ehlo") then B "helo" else g_minphase O)) by (apply checkMinphase_spec; auto). congruence. }
    apply checkMinphase_spec in Em as [_ ->]. apply unless_serve. split; [|reflexivity]. apply (listenAll_spec H _ 0). exact R9.
Qed.

(** What a running server relies on. *)
Theorem C58_guarantees O H K : main O H = BServe K ->
  (k_savedir K <> [] \/ g_force O = true \/ g_M O = true) /\
  In (k_hashtype K) [B "msg"; B "full"; B "all"] /\
  (k_hashtype K = B "msg" -> k_msglog K = true) /\
  In (k_minphase K) [B "helo"; B "from"; B "to"; B "data"; B "message"; B "accepted"] /\
  ((0 < k_yakcount K)%Z -> k_smtplog K = true /\ (1000000000 <= k_yakttl K)%Z) /\
  (k_dnlog K = true -> k_yakcount K <> 0%Z) /\
  (k_certs K <> [] -> g_c O <> [] /\ g_k O <> []).
Proof.
  intros HM. apply C58_startup in HM as ([P1 P2 P3 P4 P5 P6 P7 P8] & certs & base & [R1 R2 R3 R4 R5 R6 R7 R8] & ->).
  cbn [settings k_savedir k_hashtype k_msglog k_minphase k_yakcount k_smtplog k_yakttl k_dnlog k_certs].
  split; auto. split; auto. split; [intros E; apply nbeqb_nil; auto|]. split.
  { destruct (beqb_spec (g_minphase O) (B "ehlo")) as [E|E]; [cbn [In]; auto|]. cbn [In] in *. destruct P8 as [E1|[E1|P8]]; [auto|congruence|auto]. }
  split; [intros E; destruct (P5 E); split; auto; now apply nbeqb_nil|]. split; [intros E; apply P6; now apply nbeqb_nil|].
  intros E. destruct (beqb_spec (g_c O) []) as [Ec|Ec]; [congruence|]. split; auto. intros Ek. apply Ec. now apply P7.
Qed.

(** The command line alone decides whether -M or -d is missing: without a save
    directory, -force-receive or -M the server does not start on any machine. *)
Theorem C58_refuses O H : g_d O = [] -> g_force O = false -> g_M O = false -> forall K, main O H <> BServe K.
Proof. intros H1 H2 H3 K HM. apply C58_startup in HM as (P & _). destruct (pr_save O P) as [A|[A|A]]; congruence. Qed.

(** Starting does not crash (an empty name cannot be opened). *)
Theorem C58_no_crash O H : unicode_ok (w_uni (h_world H)) -> h_open H [] <> None -> main O H <> BCrash.
Proof.
  intros HU Ho HM. unfold main in HM. destruct (g_args O); [discriminate HM|].
  assert (Hun : forall o k, unless o k = BCrash -> o = None /\ k = BCrash) by (intros [e|] k HX; [discriminate HX|auto]).
  apply Hun in HM as [_ HM]. destruct (loadServerCerts O H); [|discriminate HM]. apply Hun in HM as [_ HM]. apply Hun in HM as [_ HM].
  assert (Hc : exists r, tryConnFile O H = Ok r).
  { unfold tryConnFile. destruct (beqb (g_conncfg O) []); [eauto|]. unfold loadConnFile, read_file, ask, xbind, xret. cbn [fst].
    destruct (w_file _ _ _); cbn [obind]; eauto. destruct (conn_lines_ok (w_uni (h_world H)) (h_keys H) (nl_lines [] content) (if err then Some (B "read error") else None) HU 0) as (r & ->).
    cbn. eauto. }
  destruct Hc as (r & Hc). rewrite Hc in HM. apply Hun in HM as [_ HM]. unfold buildRules in HM.
  destruct (C01_parse_terminates (h_fds H) (h_rfs H) (buildText (opts_of O))) as [(base & Hb)|(e & Hb)]; rewrite Hb in HM; [|discriminate HM].
  apply Hun in HM as [Hf HM]. pose proof (proj1 (tryRuleFiles_spec H _) Hf) as Hfiles.
  destruct (C12_all_or_nothing (h_fds H) (h_rfs H) (h_tick H) base (ruleFiles O)) as (rr & Hr & _).
  { apply Forall_forall. intros f Hin ->. apply Hfiles in Hin. auto. }
  rewrite Hr in HM. destruct (negb (rr_good rr)); [discriminate HM|]. destruct (checkMinphase _); [|discriminate HM].
  apply Hun in HM as [_ HM]. discriminate HM.
Qed.

(** The settings of a started server are ones for which sessions cannot crash:
    the panic for unknown hash types is never reached.  What remains to be asked
    concerns the rules and the surroundings of the session. *)
Theorem C58_sessions O H K E cn evs : main O H = BServe K ->
  unicode_ok (w_uni (v_world E)) -> (forall i a names, w_addr (v_world E) i a = inl names -> ~ In [] names) ->
  (forall ev tls, In (ev, tls) evs -> ~ In [] (ts_chains tls)) ->
  (forall rr, setupRules (v_fds E) (v_rfs E) (v_tick E) (k_base K) (k_rulefiles K) = Some rr ->
     Harmless (k_smtplog K) (n_rip cn) evs (rr_rules rr)) ->
  exists done s, process K E cn evs (sess0 K) = Ok (done, s).
Proof.
  intros HM H1 H2 H3 H4. apply C60_no_crash; auto. apply C58_guarantees in HM as (_ & Hh & _). constructor; auto.
Qed.

(** A server run without rule files, its options naming ordinary files, cannot be
    crashed by any client; with -heloreject clients must have said HELO with a
    name. *)
Theorem C58_plain_server O H K E cn evs : main O H = BServe K -> g_r O = [] ->
  ordinary (g_fromreject O) -> ordinary (g_toaccept O) -> ordinary (g_heloreject O) ->
  (g_heloreject O <> [] -> introduced evs) ->
  unicode_ok (w_uni (v_world E)) -> (forall i a names, w_addr (v_world E) i a = inl names -> ~ In [] names) ->
  (forall ev tls, In (ev, tls) evs -> ~ In [] (ts_chains tls)) ->
  exists done s, process K E cn evs (sess0 K) = Ok (done, s).
Proof.
  intros HM Hr H1 H2 H3 Hh U1 U2 U3. eapply C58_sessions; eauto. apply C58_startup in HM as (_ & certs & base & HR & ->).
  destruct HR as [_ _ _ _ Hb _ _ _]. rewrite C14_options_to_rules in Hb by auto. injection Hb as <-.
  cbn [settings k_base k_rulefiles k_smtplog]. unfold ruleFiles. rewrite Hr. cbn [beqb]. intros rr Hrr. injection Hrr as <-. cbn [rr_rules].
  set (L := documented (opts_of O)).
  assert (Hsub : forall r, In r L -> In r std_rules \/ r = reject_messages \/ (r = reject_from (g_fromreject O)) \/ (r = reject_not_to (g_toaccept O)) \/
    (r = reject_helo (g_heloreject O) /\ g_heloreject O <> [])).
  { intros r Hin. unfold L, documented, opts_of in Hin. cbn [o_stdrules o_failgotdata o_fromreject o_toaccept o_heloreject] in Hin.
    rewrite !in_app_iff in Hin. destruct Hin as [Hin|[Hin|[Hin|[Hin|Hin]]]].
    - destruct (negb (g_nostdrules O)); [auto|destruct Hin].
    - destruct (g_M O); [destruct Hin as [<-|[]]; auto|destruct Hin].
    - destruct (g_fromreject O); [destruct Hin|destruct Hin as [<-|[]]; auto].
    - destruct (g_toaccept O); [destruct Hin|destruct Hin as [<-|[]]; auto].
    - destruct (g_heloreject O); [destruct Hin|destruct Hin as [<-|[]]; right; right; right; right; split; auto; discriminate]. }
  constructor.
  - apply Forall_forall. intros r Hin. exists (h_fds H), (h_rfs H), (buildText (opts_of O)), L. split; auto. apply C14_options_to_rules; auto.
  - intros r o Hin Ho. destruct (Hsub r Hin) as [Hs|[->|[->|[->|(-> & _)]]]].
    + destruct Hs as [<-|[<-|[<-|[]]]]; destruct Ho as [<-|[]]; discriminate.
    + destruct Ho as [<-|[]]; discriminate.
    + destruct Ho as [<-|[]]; discriminate.
    + destruct Ho as [<-|[]]; discriminate.
    + destruct Ho as [<-|[]]; discriminate.
  - intros (r & o & Hin & Ho & Hm). apply Hh. destruct (Hsub r Hin) as [Hs|[->|[->|[->|(-> & Hne)]]]]; auto.
    + destruct Hs as [<-|[<-|[<-|[]]]]; destruct Ho as [<-|[]]; destruct Hm.
    + destruct Ho as [<-|[]]; destruct Hm.
    + destruct Ho as [<-|[]]; destruct Hm.
    + destruct Ho as [<-|[]]; destruct Hm.
  - intros _ r cl v Hin Hc Hw. exfalso. destruct (Hsub r Hin) as [Hs|[->|[->|[->|(-> & _)]]]].
    + destruct Hs as [<-|[<-|[<-|[]]]]; destruct Hc as [<-|[]]; destruct Hw.
    + destruct Hc as [<-|[]]; destruct Hw.
    + destruct Hc as [<-|[]]; destruct Hw.
    + destruct Hc as [<-|[]]; destruct Hw.
    + destruct Hc as [<-|[]]; destruct Hw.
  - intros r src Hin Ho. exfalso. destruct (Hsub r Hin) as [Hs|[->|[->|[->|(-> & _)]]]].
    + destruct Hs as [<-|[<-|[<-|[]]]]; destruct Ho as [Ho|[]]; discriminate Ho.
    + destruct Ho as [Ho|[]]; discriminate Ho.
    + destruct Ho as [Ho|[]]; discriminate Ho.
    + destruct Ho as [Ho|[]]; discriminate Ho.
    + destruct Ho as [Ho|[]]; discriminate Ho.
Qed.

Definition demo_options : options :=
  mkOptions false false [] (B "-") [] [] (B "/save") false (B "full") [] [] (B "/bad") [] (B "/badhelo") [] 5 (8 * 3600 * 1000000000) (B "ehlo") false [] [B ":25"].
Definition demo_machine : machine :=
  mkMachine demo_world 10 nofs 0 (fun _ _ => inr []) (fun _ => None) (fun _ => None) (fun f => if beqb f [] then Some (B "open : no such file or directory") else None) (fun _ _ => None).
Example C58_example : exists K, main demo_options demo_machine = BServe K /\ k_minphase K = B "helo" /\ k_base K = documented (opts_of demo_options) /\ length (k_base K) = 5.
Proof. eexists. split; [vm_compute; reflexivity|]. split; [reflexivity|]. split; [vm_compute; reflexivity|reflexivity]. Qed.
