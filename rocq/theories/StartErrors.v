(** What is said when the server does not start, or cannot use a
    configuration file, is true (C79). *)
From Coq Require Import Lia.
From Verif Require Import PropsParse.
From Verif Require Import Bytes Outcome Lexer Ast GoNet Parser Grammar World Dns Eval Decisions PropsEval PropsSafe
  RuleLoad PropsLoad ConnCfg PropsAttr PropsConn Message Session Startup PropsStart Crash DemoSession Errors.

(** ** Certificates *)

(** [CertsFail ld c k e]: the certificates of the comma-separated lists [c]
    and [k] cannot be loaded, and [e] says why.  [ld] loads one pair. *)
Inductive CertsFail (ld : keypair) (c k : bytes) : bytes -> Prop :=
| CF_count cs ks :
    c = join (B ",") cs -> k = join (B ",") ks -> cs <> [] -> ks <> [] ->
    Forall (fun f => ~ In ","%char f) (cs ++ ks) -> length cs <> length ks ->
    CertsFail ld c k (B "Different number of certificates and keys")
| CF_only e :
    ~ In ","%char c -> ~ In ","%char k -> ld c k = inr e -> CertsFail ld c k e
| CF_one cs c1 cs' ks k1 ks' certs e :
    c = join (B ",") (cs ++ c1 :: cs') -> k = join (B ",") (ks ++ k1 :: ks') ->
    Forall (fun f => ~ In ","%char f) ((cs ++ c1 :: cs') ++ (ks ++ k1 :: ks')) ->
    length cs = length ks -> length cs' = length ks' -> cs ++ cs' <> [] ->
    Forall2 (fun ck x => ld (fst ck) (snd ck) = inl x) (combine cs ks) certs ->
    ld c1 k1 = inr e ->
    CertsFail ld c k (B "while loading " ++ c1 ++ B " & " ++ k1 ++ B ": " ++ e).

Lemma loadPairs_fail ld many cs : forall ks e, length cs = length ks -> loadPairs ld many cs ks = inr e ->
  exists cs1 c1 cs2 ks1 k1 ks2 certs e', cs = cs1 ++ c1 :: cs2 /\ ks = ks1 ++ k1 :: ks2 /\
    length cs1 = length ks1 /\ length cs2 = length ks2 /\
    Forall2 (fun ck x => ld (fst ck) (snd ck) = inl x) (combine cs1 ks1) certs /\ ld c1 k1 = inr e' /\
    e = if many then B "while loading " ++ c1 ++ B " & " ++ k1 ++ B ": " ++ e' else e'.
Proof.
  induction cs as [|c cs IH]; intros [|k ks] e Hl; cbn [length loadPairs] in *; try discriminate.
  intros H. destruct (ld c k) as [x|e0] eqn:E.
  - destruct (loadPairs ld many cs ks) as [xs|e1] eqn:E2; [discriminate|]. injection H as <-.
    destruct (IH ks e1) as (cs1 & c1 & cs2 & ks1 & k1 & ks2 & certs & e' & -> & -> & H1 & H2 & H3 & H4 & ->); [lia|auto|].
    exists (c :: cs1), c1, cs2, (k :: ks1), k1, ks2, (x :: certs), e'.
    split; [reflexivity|]. split; [reflexivity|]. split; [simpl; auto|]. split; [auto|].
    split; [cbn [combine]; constructor; auto|]. split; auto.
  - exists [], c, cs, [], k, ks, [], e0. split; auto. split; auto. split; auto. split; [lia|].
    split; [constructor|]. split; auto. congruence.
Qed.

Lemma loadCerts_fail ld c k e : loadCerts ld c k = inr e -> CertsFail ld c k e.
Proof.
  unfold loadCerts.
  assert (Hc : c = join (B ",") (split_byte c ",")) by (symmetry; apply (join_split _ ","%char)).
  assert (Hk : k = join (B ",") (split_byte k ",")) by (symmetry; apply (join_split _ ","%char)).
  assert (HF : Forall (fun f => ~ In ","%char f) (split_byte c "," ++ split_byte k ",")).
  { apply Forall_app. split; apply split_byte_comma. }
  pose proof (split_byte_nonempty c ",") as Nc. pose proof (split_byte_nonempty k ",") as Nk.
  destruct (Nat.eqb_spec (length (split_byte c ",")) (length (split_byte k ","))) as [Hl|Hl]; cbn [negb]; intros H.
  2:{ injection H as <-. eapply CF_count; eauto. }
  apply loadPairs_fail in H; auto.
  destruct H as (cs1 & c1 & cs2 & ks1 & k1 & ks2 & certs & e' & Ec & Ek & H1 & H2 & H3 & H4 & ->).
  rewrite Ec, Ek in *. destruct (Nat.ltb_spec 1 (length (cs1 ++ c1 :: cs2))) as [Hm|Hm].
  - eapply CF_one; eauto. rewrite app_length in Hm. simpl in Hm. destruct cs1, cs2; simpl in *; try discriminate; lia.
  - rewrite app_length in Hm. simpl in Hm.
    destruct cs1; [|simpl in Hm; lia]. destruct cs2; [|simpl in Hm; lia].
    destruct ks1; [|discriminate]. destruct ks2; [|discriminate]. cbn [app join] in *.
    inversion HF as [|? ? F1 F2]; subst. inversion F2; subst. apply CF_only; auto.
Qed.

(** ** The per-connection configuration file *)

(** What is wrong with the line number [n] of the file. *)
Inductive LineWrong (U : unicode) (ld : keypair) (n : nat) (line : bytes) : bytes -> Prop :=
| LW_many local opts :
    fields U line = local :: opts -> 3 < length opts ->
    LineWrong U ld n line (B "too many fields in line " ++ itoa n)
| LW_noeq local opts o :
    fields U line = local :: opts -> In o opts -> ~ In "="%char o ->
    LineWrong U ld n line (B "field has no = in line " ++ itoa n)
| LW_key local opts k v :
    fields U line = local :: opts -> In (k ++ B "=" ++ v) opts -> ~ In "="%char k -> ~ In k option_keys ->
    LineWrong U ld n line (B "unrecognized key '" ++ k ++ B "' in line " ++ itoa n)
| LW_nokey local opts c :
    fields U line = local :: opts -> Value (B "cert") opts c -> c <> [] -> Value (B "key") opts [] ->
    LineWrong U ld n line (B "certificate without key on line " ++ itoa n)
| LW_nocert local opts k :
    fields U line = local :: opts -> Value (B "key") opts k -> k <> [] -> Value (B "cert") opts [] ->
    LineWrong U ld n line (B "key without certificate on line " ++ itoa n)
| LW_certs local opts c k e :
    fields U line = local :: opts -> Value (B "cert") opts c -> Value (B "key") opts k -> c <> [] -> k <> [] ->
    CertsFail ld c k e ->
    LineWrong U ld n line (B "error loading TLS cert(s) and key(s) from line " ++ itoa n ++ B ": " ++ e).

(** The first wrong line of a file; or its lines are right but reading ended
    with the error [e]. *)
Inductive FileWrong (U : unicode) (ld : keypair) (lines : list bytes) (ioerr : option bytes) : bytes -> Prop :=
| FW_line pre l post d msg :
    lines = pre ++ l :: post -> FileFor U ld pre d ->
    trim_space U l <> [] -> (forall t, trim_space U l <> B "#" ++ t) ->
    LineWrong U ld (1 + length pre) (trim_space U l) msg -> FileWrong U ld lines ioerr msg
| FW_read d e : FileFor U ld lines d -> ioerr = Some e -> FileWrong U ld lines ioerr e.

Lemma conn_fields_fail lnum fs : forall v0 e, conn_fields lnum fs v0 = inr e ->
  (exists o, In o fs /\ ~ In "="%char o /\ e = B "field has no = in line " ++ itoa lnum) \/
  (exists k v, In (k ++ B "=" ++ v) fs /\ ~ In "="%char k /\ ~ In k option_keys /\
     e = B "unrecognized key '" ++ k ++ B "' in line " ++ itoa lnum).
Proof.
  induction fs as [|s fs IH]; intros v0 e; cbn [conn_fields]; [discriminate|].
  destruct (split2 s "=") as [k [x|]] eqn:E.
  - apply split2_spec in E as [-> Hn].
    assert (Hrec : forall v, conn_fields lnum fs v = inr e ->
      (exists o, In o ((k ++ "="%char :: x) :: fs) /\ ~ In "="%char o /\ e = B "field has no = in line " ++ itoa lnum) \/
      (exists k0 v0, In (k0 ++ B "=" ++ v0) ((k ++ "="%char :: x) :: fs) /\ ~ In "="%char k0 /\ ~ In k0 option_keys /\
         e = B "unrecognized key '" ++ k0 ++ B "' in line " ++ itoa lnum)).
    { intros v H. apply IH in H as [(o & H1 & H2 & H3)|(k' & v' & H1 & H2)].
      - left. exists o. split; [now right|auto].
      - right. exists k', v'. split; [now right|auto]. }
    destruct (beqb_spec k (B "hostname")) as [->|N1]; [intros H; eapply Hrec; exact H|].
    destruct (beqb_spec k (B "cert")) as [->|N2]; [intros H; eapply Hrec; exact H|].
    destruct (beqb_spec k (B "key")) as [->|N3]; [intros H; eapply Hrec; exact H|].
    intros H. injection H as <-. right. exists k, x. split; [now left|]. split; auto. split; auto.
    intros [A|[A|[A|[]]]]; congruence.
  - intros H. injection H as <-. left. exists s. split; [now left|]. split; auto.
    apply split2_none. rewrite E. reflexivity.
Qed.

Lemma conn_line_fail U ld n line e : conn_line U ld n line = Ok (inr e) -> LineWrong U ld n line e.
Proof.
  unfold conn_line. destruct (fields U line) as [|local opts] eqn:Ef; [discriminate|]. intros H.
  destruct (Nat.ltb_spec 4 (length (local :: opts))) as [Hl|Hl].
  { injection H as <-. apply (LW_many _ _ _ _ local opts); auto. simpl in Hl. lia. }
  destruct (conn_fields n opts (mkCf [] [] [])) as [v|e0] eqn:Ec.
  - apply conn_fields_ok in Ec as (Ho & H1 & H2 & H3). cbn [cf_host cf_cert cf_key] in *.
    rewrite Value0_nil in H1, H2, H3.
    destruct (beqb_spec (cf_cert v) []) as [E1|E1], (beqb_spec (cf_key v) []) as [E2|E2]; cbn [negb andb] in H.
    + discriminate.
    + injection H as <-. rewrite E1 in H2. eapply LW_nocert; eauto.
    + injection H as <-. rewrite E2 in H3. eapply LW_nokey; eauto.
    + destruct (loadCerts ld (cf_cert v) (cf_key v)) as [certs|e1] eqn:El; [discriminate|]. injection H as <-.
      eapply LW_certs; eauto. apply loadCerts_fail; auto.
  - injection H as ->. apply conn_fields_fail in Ec as [(o & H1 & H2 & ->)|(k & x & H1 & H2 & H3 & ->)].
    + eapply LW_noeq; eauto.
    + eapply LW_key; eauto.
Qed.

Lemma conn_lines_fail U ld ioerr lines : unicode_ok U -> forall n e,
  conn_lines U ld n (map (fun l => l ++ [ch_nl]) lines) ioerr = Ok (inr e) ->
  (exists pre l post d, lines = pre ++ l :: post /\ FileFor U ld pre d /\
     trim_space U l <> [] /\ (forall t, trim_space U l <> B "#" ++ t) /\
     LineWrong U ld (n + 1 + length pre) (trim_space U l) e) \/
  (exists d, FileFor U ld lines d /\ ioerr = Some e).
Proof.
  intros HU. induction lines as [|l ls IH]; intros n e; cbn [map conn_lines].
  - intros H. right. exists []. split; [constructor|]. destruct ioerr; [congruence|discriminate].
  - rewrite (trim_space_nl U l HU).
    assert (Hext : forall e f, (forall d, FileFor U ld ls d -> FileFor U ld (l :: ls) (f d)) ->
       (forall pre d, FileFor U ld pre d -> FileFor U ld (l :: pre) (f d)) ->
       conn_lines U ld (S n) (map (fun l => l ++ [ch_nl]) ls) ioerr = Ok (inr e) ->
       (exists pre l0 post d, l :: ls = pre ++ l0 :: post /\ FileFor U ld pre d /\
          trim_space U l0 <> [] /\ (forall t, trim_space U l0 <> B "#" ++ t) /\
          LineWrong U ld (n + 1 + length pre) (trim_space U l0) e) \/
       (exists d, FileFor U ld (l :: ls) d /\ ioerr = Some e)).
    { intros e0 f F1 F2 H. apply IH in H as [(pre & l0 & post & d & -> & H1 & H2 & H3 & H4)|(d & H1 & H2)].
      - left. exists (l :: pre), l0, post, (f d). split; auto. split; auto. split; auto. split; auto.
        replace (n + 1 + length (l :: pre)) with (S n + 1 + length pre) by (simpl; lia). exact H4.
      - right. exists (f d). auto. }
    destruct (trim_space U l) as [|c t] eqn:E.
    + apply (Hext e (fun d => d)); intros; apply FF_blank; auto.
    + destruct (Ascii.eqb_spec c "#") as [->|Hc].
      { apply (Hext e (fun d => d)); intros; apply (FF_comment _ _ _ _ _ t); auto. }
      assert (Hnc : forall t', c :: t <> B "#" ++ t') by (intros t' [= -> _]; auto).
      destruct (conn_line U ld (S n) (c :: t)) as [[pd|e1]| |] eqn:Ep; cbn [obind]; try discriminate.
      * apply conn_line_spec in Ep. intros H.
        destruct (conn_lines U ld (S n) (map (fun l => l ++ [ch_nl]) ls) ioerr) as [[d'|e2]| |] eqn:Er; cbn [obind] in H; try discriminate.
        injection H as ->. apply (Hext e (fun d => pd :: d)); auto; intros; apply FF_line; auto; rewrite E; auto; discriminate.
      * intros H. injection H as ->. left. exists [], l, ls, []. split; auto. split; [constructor|].
        rewrite E. split; [discriminate|]. split; auto. replace (n + 1 + length (@nil bytes)) with (S n) by (simpl; lia).
        apply conn_line_fail; auto.
Qed.

(** The error for a configuration file names its first wrong line and what is
    wrong there. *)
Theorem C79_connection_file U ld lines tail ioerr e : unicode_ok U ->
  Forall (fun l => ~ In ch_nl l) lines -> ~ In ch_nl tail ->
  conn_lines U ld 0 (nl_lines [] (end_lines lines ++ tail)) ioerr = Ok (inr e) ->
  FileWrong U ld lines ioerr e.
Proof.
  intros HU Hl Ht H. rewrite nl_lines_split in H by auto.
  apply conn_lines_fail in H as [(pre & l & post & d & E & H1 & H2 & H3 & H4)|(d & H1 & H2)]; auto.
  - eapply FW_line; eauto.
  - eapply FW_read; eauto.
Qed.

(** A file with such a complaint is indeed not usable. *)
Lemma CertsFail_no ld c k e certs : CertsFail ld c k e -> ~ Certs ld c k certs.
Proof.
  intros HF (cs & ks & Ec & Ek & Hl & Hne & Hnc & Hld). apply Forall_app in Hnc as [Hc Hk].
  assert (Hne' : ks <> []) by (intros ->; destruct cs; [congruence|discriminate]).
  assert (Sc : split_byte c "," = cs) by (rewrite Ec; apply (split_join cs ","%char); auto).
  assert (Sk : split_byte k "," = ks) by (rewrite Ek; apply (split_join ks ","%char); auto).
  destruct HF as [cs' ks' E1 E2 N1 N2 HN Hd|e E1 E2 Hf|cs' c1 cs2 ks' k1 ks2 cc e E1 E2 HN L1 L2 _ _ Hf].
  - apply Forall_app in HN as [HN1 HN2]. rewrite E1 in Sc. rewrite E2 in Sk.
    change (B ",") with [","%char] in Sc, Sk.
    rewrite (split_join cs' ","%char) in Sc by auto. rewrite (split_join ks' ","%char) in Sk by auto. congruence.
  - rewrite split_byte_one in Sc, Sk by auto. subst cs ks. inversion Hld as [|? ? ? ? A]; subst. cbn [fst snd] in A. congruence.
  - apply Forall_app in HN as [HN1 HN2]. rewrite E1 in Sc. rewrite E2 in Sk.
    change (B ",") with [","%char] in Sc, Sk.
    rewrite (split_join (cs' ++ _) ","%char) in Sc by (auto; destruct cs'; discriminate).
    rewrite (split_join (ks' ++ _) ","%char) in Sk by (auto; destruct ks'; discriminate). rewrite <- Sc, <- Sk in Hld. clear - Hld L1 Hf.
    revert ks' certs L1 Hld. induction cs' as [|c' cs' IH]; intros [|k' ks'] certs L1 Hld; try discriminate L1; cbn [app combine] in Hld;
      inversion Hld; subst; cbn [fst snd] in *; [congruence|].
    eapply IH; [|eassumption]. simpl in L1. congruence.
Qed.

Lemma LineWrong_no U ld n line msg pd : LineWrong U ld n line msg -> ~ LineFor U ld line pd.
Proof.
  intros HW HF. destruct HF as [local opts host cert key certs Ef Hl Ho Vh Vc Vk Hcase].
  destruct HW as [l o E H|l o x E H H0|l o k v E H H0 H1|l o c E V1 N1 V2|l o k E V1 N1 V2|l o c k e E V1 V2 N1 N2 HF];
    rewrite Ef in E; injection E as <- <-.
  - lia.
  - rewrite Forall_forall in Ho. destruct (Ho x H) as (k & v & _ & ->). apply H0. apply in_or_app. right. now left.
  - rewrite Forall_forall in Ho. destruct (Ho _ H) as (k' & v' & Hk & E).
    assert (A : split2 (k ++ B "=" ++ v) "=" = (k, Some v)) by (apply split2_spec; auto).
    assert (C : split2 (k ++ B "=" ++ v) "=" = (k', Some v')) by (rewrite E; apply split2_spec; split; auto using key_no_eq). congruence.
  - pose proof (Value_fun _ _ _ _ V1 Vc). pose proof (Value_fun _ _ _ _ V2 Vk). subst. destruct Hcase as [(A & _)|(_ & A & _)]; congruence.
  - pose proof (Value_fun _ _ _ _ V1 Vk). pose proof (Value_fun _ _ _ _ V2 Vc). subst. destruct Hcase as [(_ & A & _)|(A & _)]; congruence.
  - pose proof (Value_fun _ _ _ _ V1 Vc). pose proof (Value_fun _ _ _ _ V2 Vk). subst. destruct Hcase as [(A & _)|(_ & _ & A)]; [congruence|].
    eapply CertsFail_no; eauto.
Qed.

Lemma FileWrong_no U ld lines ioerr e d : FileWrong U ld lines ioerr e -> FileFor U ld lines d -> ioerr <> None.
Proof.
  intros [pre l post d0 msg -> _ N1 N2 HW|d0 e0 _ ->] HF; [|discriminate]. exfalso.
  revert d HF HW. generalize (1 + length pre) as n. induction pre as [|p pre IH]; intros n d HF HW; cbn [app] in HF.
  - inversion HF; subst; [congruence|eapply N2; eauto|eapply LineWrong_no; eauto].
  - inversion HF; subst; eapply IH; eassumption.
Qed.

(** ** Rule files *)

(** The rules file [f] cannot be loaded, after [t] files have been read, and
    [txt] is why: it cannot be opened, or there is a true complaint (C78) about
    its text. *)
Definition Unloadable (fds : nat) (fs : rfs) (t : nat) (f txt : bytes) : Prop :=
  (fds = 0 /\ txt = B "open " ++ f ++ B ": too many open files") \/
  (fds <> 0 /\ rf_read fs t f = inr txt) \/
  (exists n content why, fds = S n /\ rf_read fs t f = inl content /\ txt = B "rules parsing error " ++ why /\
     Complaint (file_gives n fs) (file_fails n fs) (S t) content why).

Lemma loadRules_fail fds fs t f txt t' : loadRules fds fs t f = (LErr txt, t') -> Unloadable fds fs t f txt.
Proof.
  intros H. apply C78_load_error_is_true in H. destruct fds as [|n]; [left; auto|right].
  destruct H as [H|(content & why & H1 & H2 & H3)]; [left; split; [discriminate|auto]|right; exists n, content, why; auto].
Qed.

(** [Blamed fds fs t files f txt]: the files before [f] can be loaded, [f]
    cannot, and [txt] is why. *)
Definition Blamed (fds : nat) (fs : rfs) (t : nat) (files : list bytes) (f txt : bytes) : Prop :=
  exists pre post parts t1, files = pre ++ f :: post /\ LoadsAll fds fs t pre parts t1 /\
    Unloadable fds fs t1 f txt /\ (forall rs t2, ~ Loads fds fs t1 f rs t2).

Lemma accumAll_fail fds fs files : Forall (fun f => f <> []) files -> forall t rules f e t',
  accumAll fds fs t rules files = (AccErr f e, t') -> Blamed fds fs t files f e.
Proof.
  induction 1 as [|g files Hg _ IH]; intros t rules f e t'; cbn [accumAll]; [discriminate|].
  destruct g as [|c g]; [congruence|]. cbn [accumRules].
  destruct (loadRules fds fs t (c :: g)) as [r t1] eqn:E. destruct r as [rs|e0| |]; try discriminate.
  - intros H. apply IH in H as (pre & post & parts & t2 & -> & H1 & H2 & H3).
    exists ((c :: g) :: pre), post, (rs :: parts), t2. split; auto. split; auto.
    econstructor; eauto. now apply Loads_loadRules.
  - intros H. injection H as <- <- <-. exists [], files, [], t. split; auto. split; [constructor|].
    split; [eapply loadRules_fail; eauto|]. intros rs t3 HL. apply Loads_loadRules in HL. congruence.
Qed.

(** The warning about rule files names the first that cannot be loaded and
    why. *)
Theorem C79_rules_warning fds fs t base files r w : Forall (fun f => f <> []) files ->
  setupRules fds fs t base files = Some r -> rr_warning r = Some w ->
  rr_good r = false /\
  exists f txt, w = B "problem loading rules " ++ f ++ B ": " ++ txt ++ [ch_nl] /\ Blamed fds fs t files f txt.
Proof.
  intros HF H Hw. unfold setupRules in H. destruct (accumAll fds fs t base files) as [a t'] eqn:E. cbn [fst] in H.
  destruct a as [rs|f e|]; try discriminate H; injection H as <-; cbn [rr_warning rr_good] in *; [discriminate Hw|].
  split; auto. exists f, e. split; [injection Hw as <-; reflexivity|]. eapply accumAll_fail; eauto.
Qed.

(** ** Starting *)

(** [Reason O H msg]: [msg] is true of the options and the machine, and the
    server should not start because of it. *)
Inductive Reason (O : options) (H : machine) : bytes -> Prop :=
(* options *)
| R_nosave : g_d O = [] -> g_force O = false -> g_M O = false ->
    Reason O H (B "I refuse to accept email without either a -d savedir or --force-receive" ++ [ch_nl])
| R_msglog : g_savehash O = B "msg" -> g_l O = [] ->
    Reason O H (B "-save-hash=msg requires a -l right now" ++ [ch_nl])
| R_hash : ~ In (g_savehash O) [B "msg"; B "full"; B "all"] ->
    Reason O H (B "bad option for -save-hash: '" ++ g_savehash O ++ B "'. Only msg, full, and all are valid." ++ [ch_nl])
| R_dncount : (0 < g_dncount O)%Z -> g_smtplog O = [] ->
    Reason O H (B "-dncount requires -smtplog" ++ [ch_nl])
| R_dndur : (0 < g_dncount O)%Z -> (g_dndur O < 1000000000)%Z ->
    Reason O H (B "-dndur is too small; must be at least one second" ++ [ch_nl])
| R_dnlog : g_dnlog O <> [] -> g_dncount O = 0%Z ->
    Reason O H (B "-dnlog requires -dncount")
| R_minphase :
    ~ In (g_minphase O) [B "helo"; B "ehlo"; B "from"; B "to"; B "data"; B "message"; B "accepted"] ->
    Reason O H (B "invalid -minphase '" ++ g_minphase O ++ B "': must be helo/ehlo, from, to, data, message, or accepted" ++ [ch_nl])
(* certificates *)
| R_nokey : g_c O <> [] -> g_k O = [] ->
    Reason O H (B "certfile specified without keyfile" ++ [ch_nl])
| R_nocert : g_c O = [] -> g_k O <> [] ->
    Reason O H (B "keyfile specified without certfile" ++ [ch_nl])
| R_certs e : g_c O <> [] -> g_k O <> [] -> CertsFail (h_keys H) (g_c O) (g_k O) e ->
    Reason O H (B "error loading TLS cert(s) from " ++ g_c O ++ B " & " ++ g_k O ++ B ": " ++ e ++ [ch_nl])
(* files to write *)
| R_smtplog e : g_smtplog O <> [] -> g_smtplog O <> B "-" -> h_log H (g_smtplog O) = Some e ->
    Reason O H (B "error opening SMTP log file '" ++ g_smtplog O ++ B "': " ++ e ++ [ch_nl])
| R_log e : g_l O <> [] -> g_l O <> B "-" -> h_log H (g_l O) = Some e ->
    Reason O H (B "error opening logfile '" ++ g_l O ++ B "': " ++ e ++ [ch_nl])
| R_dnlogfile e : g_dnlog O <> [] -> g_dnlog O <> B "-" -> h_log H (g_dnlog O) = Some e ->
    Reason O H (B "Error opening do-nothing client log file '" ++ g_dnlog O ++ B "': " ++ e ++ [ch_nl])
| R_savedir e : g_d O <> [] -> h_create H (g_d O ++ B "/.wecanmake") = Some e ->
    Reason O H (B "cannot create test file in savedir '" ++ g_d O ++ B "': " ++ e ++ [ch_nl])
(* configuration of connections *)
| R_connopen : g_conncfg O <> [] -> (forall content err, w_file (h_world H) 0 (g_conncfg O) <> FRead content err) ->
    Reason O H (B "cannot load per-connection config information from '" ++ g_conncfg O ++ B "': open error" ++ [ch_nl])
| R_connfile lines tail err e : g_conncfg O <> [] ->
    w_file (h_world H) 0 (g_conncfg O) = FRead (end_lines lines ++ tail) err ->
    Forall (fun l => ~ In ch_nl l) lines -> ~ In ch_nl tail ->
    FileWrong (w_uni (h_world H)) (h_keys H) lines (if err then Some (B "read error") else None) e ->
    Reason O H (B "cannot load per-connection config information from '" ++ g_conncfg O ++ B "': " ++ e ++ [ch_nl])
(* rules *)
| R_options why :
    Complaint (file_gives (h_fds H) (h_rfs H)) (file_fails (h_fds H) (h_rfs H)) 0 (buildText (opts_of O)) why ->
    (forall rs, buildRules (h_fds H) (h_rfs H) (opts_of O) <> PRules rs) ->
    Reason O H (B "error parsing autogenerated rules:" ++ [ch_nl; ch_tab] ++ why ++ [ch_nl] ++
                B "rules:" ++ [ch_nl] ++ buildText (opts_of O))
| R_norules f e : In f (ruleFiles O) -> h_open H f = Some e ->
    Reason O H (B "cannot open rules file " ++ f ++ B ": " ++ e ++ [ch_nl])
| R_rules f txt : Blamed (h_fds H) (h_rfs H) (h_tick H) (ruleFiles O) f txt ->
    Reason O H (B "not continuing when there are problems in the rules files." ++ [ch_nl])
(* addresses to listen on *)
| R_listen n a e : nth_error (g_args O) n = Some a -> h_listen H n a = Some e ->
    Reason O H (B "error listening to tcp!" ++ a ++ B ": " ++ e ++ [ch_nl]).

Lemma checkOptions_fail O H msg : checkOptions O = Some msg -> Reason O H msg.
Proof.
  unfold checkOptions. intros HX.
  destruct (beqb_spec (g_d O) []) as [E1|E1]; cbn [andb] in HX.
  { destruct (g_force O) eqn:Ef; [|destruct (g_M O) eqn:Em]; cbn [orb negb] in HX.
    3:{ injection HX as <-. apply R_nosave; auto. }
    all: revert HX; generalize E1; clear E1 Ef; try clear Em; intros _ HX.
    all: destruct (beqb_spec (g_savehash O) (B "msg")) as [E2|E2]; cbn [andb orb negb] in HX;
      [destruct (beqb_spec (g_l O) []) as [E3|E3]; [injection HX as <-; apply R_msglog; auto|]
      |destruct (beqb_spec (g_savehash O) (B "full")) as [E3|E3]; cbn [orb negb] in HX;
       [|destruct (beqb_spec (g_savehash O) (B "all")) as [E4|E4]; cbn [orb negb] in HX;
         [|injection HX as <-; apply R_hash; intros [A|[A|[A|[]]]]; auto]]].
    all: destruct (Z.ltb_spec 0 (g_dncount O)) as [A|A]; cbn [andb] in HX;
      [destruct (beqb_spec (g_smtplog O) []) as [D|D]; [injection HX as <-; apply R_dncount; auto|];
       destruct (Z.ltb_spec (g_dndur O) 1000000000) as [F|F]; [injection HX as <-; apply R_dndur; auto|]|];
      destruct (beqb_spec (g_dnlog O) []) as [G|G]; cbn [negb andb] in HX; try discriminate HX;
      destruct (Z.eqb_spec (g_dncount O) 0) as [I|I]; try discriminate HX; injection HX as <-; apply R_dnlog; auto. }
  destruct (beqb_spec (g_savehash O) (B "msg")) as [E2|E2]; cbn [andb orb negb] in HX;
      [destruct (beqb_spec (g_l O) []) as [E3|E3]; [injection HX as <-; apply R_msglog; auto|]
      |destruct (beqb_spec (g_savehash O) (B "full")) as [E3|E3]; cbn [orb negb] in HX;
       [|destruct (beqb_spec (g_savehash O) (B "all")) as [E4|E4]; cbn [orb negb] in HX;
         [|injection HX as <-; apply R_hash; intros [A|[A|[A|[]]]]; auto]]].
  all: destruct (Z.ltb_spec 0 (g_dncount O)) as [A|A]; cbn [andb] in HX;
      [destruct (beqb_spec (g_smtplog O) []) as [D|D]; [injection HX as <-; apply R_dncount; auto|];
       destruct (Z.ltb_spec (g_dndur O) 1000000000) as [F|F]; [injection HX as <-; apply R_dndur; auto|]|];
      destruct (beqb_spec (g_dnlog O) []) as [G|G]; cbn [negb andb] in HX; try discriminate HX;
      destruct (Z.eqb_spec (g_dncount O) 0) as [I|I]; try discriminate HX; injection HX as <-; apply R_dnlog; auto.
Qed.

Lemma loadServerCerts_fail O H msg : loadServerCerts O H = inr msg -> Reason O H msg.
Proof.
  unfold loadServerCerts. intros HX.
  destruct (beqb_spec (g_c O) []) as [E1|E1], (beqb_spec (g_k O) []) as [E2|E2]; cbn [negb andb] in HX; try discriminate HX.
  - injection HX as <-. apply R_nocert; auto.
  - injection HX as <-. apply R_nokey; auto.
  - destruct (loadCerts _ _ _) as [c|e] eqn:E; [discriminate HX|].
    assert (HE : msg = B "error loading TLS cert(s) from " ++ g_c O ++ B " & " ++ g_k O ++ B ": " ++ e ++ [ch_nl]) by congruence.
    rewrite HE. apply R_certs; auto. apply loadCerts_fail; auto.
Qed.

Lemma openlogfile_fail H f e : openlogfile H f = Some e -> f <> [] /\ f <> B "-" /\ h_log H f = Some e.
Proof.
  unfold openlogfile. destruct (beqb_spec f []); [discriminate|]. destruct (beqb_spec f (B "-")); [discriminate|]. auto.
Qed.

Lemma openLogs_fail O H msg : openLogs O H = Some msg -> Reason O H msg.
Proof.
  unfold openLogs. intros HX.
  destruct (openlogfile H (g_smtplog O)) as [e|] eqn:E1.
  { assert (HE : msg = B "error opening SMTP log file '" ++ g_smtplog O ++ B "': " ++ e ++ [ch_nl]) by congruence.
    rewrite HE. apply openlogfile_fail in E1 as (A1 & A2 & A3). apply R_smtplog; auto. }
  destruct (openlogfile H (g_l O)) as [e|] eqn:E2.
  { assert (HE : msg = B "error opening logfile '" ++ g_l O ++ B "': " ++ e ++ [ch_nl]) by congruence.
    rewrite HE. apply openlogfile_fail in E2 as (A1 & A2 & A3). apply R_log; auto. }
  destruct (openlogfile H (g_dnlog O)) as [e|] eqn:E3; [|discriminate HX].
  assert (HE : msg = B "Error opening do-nothing client log file '" ++ g_dnlog O ++ B "': " ++ e ++ [ch_nl]) by congruence.
  rewrite HE. apply openlogfile_fail in E3 as (A1 & A2 & A3). apply R_dnlogfile; auto.
Qed.

Lemma trySavedir_fail O H msg : trySavedir O H = Some msg -> Reason O H msg.
Proof.
  unfold trySavedir. destruct (beqb_spec (g_d O) []) as [E|E]; [discriminate|].
  destruct (h_create H _) as [e|] eqn:E2; [|discriminate]. intros HX.
  assert (HE : msg = B "cannot create test file in savedir '" ++ g_d O ++ B "': " ++ e ++ [ch_nl]) by congruence.
  rewrite HE. apply R_savedir; auto.
Qed.

Lemma tryConnFile_fail O H msg : unicode_ok (w_uni (h_world H)) -> tryConnFile O H = Ok (Some msg) -> Reason O H msg.
Proof.
  unfold tryConnFile. intros HU HX. destruct (beqb_spec (g_conncfg O) []) as [E|E]; [discriminate HX|].
  unfold loadConnFile, read_file, ask, xbind, xret in HX. cbn [fst length] in HX.
  destruct (w_file (h_world H) 0 (g_conncfg O)) as [| |content err] eqn:Ef; cbn [obind fst] in HX.
  1,2: assert (HE : msg = B "cannot load per-connection config information from '" ++ g_conncfg O ++ B "': " ++ B "open error" ++ [ch_nl]) by congruence;
       rewrite HE; apply R_connopen; auto; intros; congruence.
  destruct (conn_lines _ _ _ _ _) as [[d|e]| |] eqn:Ec; cbn [obind] in HX; try discriminate HX.
  assert (HE : msg = B "cannot load per-connection config information from '" ++ g_conncfg O ++ B "': " ++ e ++ [ch_nl]) by congruence.
  rewrite HE. destruct (text_lines content) as (lines & tail & -> & H1 & H2).
  eapply R_connfile; eauto. eapply C79_connection_file; eauto.
Qed.

Lemma tryRuleFiles_fail H fs msg : tryRuleFiles H fs = Some msg ->
  exists f e, In f fs /\ h_open H f = Some e /\ msg = B "cannot open rules file " ++ f ++ B ": " ++ e ++ [ch_nl].
Proof.
  induction fs as [|f fs IH]; cbn [tryRuleFiles]; [discriminate|]. destruct (h_open H f) as [e|] eqn:E; intros HX.
  - exists f, e. split; [now left|]. split; auto. congruence.
  - apply IH in HX as (g & e & H1 & H2). exists g, e. split; [now right|auto].
Qed.

Lemma listenAll_fail H l : forall n msg, listenAll H n l = Some msg ->
  exists k a e, nth_error l k = Some a /\ h_listen H (n + k) a = Some e /\ msg = B "error listening to tcp!" ++ a ++ B ": " ++ e ++ [ch_nl].
Proof.
  induction l as [|a l IH]; intros n msg; cbn [listenAll]; [discriminate|]. destruct (h_listen H n a) as [e|] eqn:E; intros HX.
  - exists 0, a, e. split; auto. rewrite Nat.add_0_r. split; auto. congruence.
  - apply IH in HX as (k & b & e & H1 & H2 & H3). exists (S k), b, e. split; auto. rewrite Nat.add_succ_r. auto.
Qed.

Lemma checkMinphase_fail O H msg : checkMinphase (g_minphase O) = inr msg -> Reason O H msg.
Proof.
  intros HX. assert (Hn : ~ In (g_minphase O) [B "helo"; B "ehlo"; B "from"; B "to"; B "data"; B "message"; B "accepted"]).
  { intros A. assert (HY := proj2 (checkMinphase_spec (g_minphase O) _) (conj A eq_refl)). congruence. }
  unfold checkMinphase in HX. destruct (beqb (g_minphase O) (B "ehlo")); [discriminate HX|]. destruct (bmem _ _); [discriminate HX|].
  assert (HE : msg = B "invalid -minphase '" ++ g_minphase O ++ B "': must be helo/ehlo, from, to, data, message, or accepted" ++ [ch_nl]) by congruence.
  rewrite HE. apply R_minphase; auto.
Qed.

Local Lemma unless_die o k msg : unless o k = BDie msg -> o = Some msg \/ o = None /\ k = BDie msg.
Proof. destruct o; cbn; intros HX; [left; congruence|auto]. Qed.

(** What the server says when it refuses to start is true. *)
Theorem C79_refusal_is_true O H msg : unicode_ok (w_uni (h_world H)) -> h_open H [] <> None ->
  main O H = BDie msg -> Reason O H msg.
Proof.
  intros HU Ho. unfold main. destruct (g_args O) as [|a args] eqn:Ea; [discriminate|]. intros HM.
  apply unless_die in HM as [HM|[_ HM]]; [apply checkOptions_fail; auto|].
  destruct (loadServerCerts O H) as [certs|e] eqn:Ec.
  2:{ injection HM as ->. apply loadServerCerts_fail; auto. }
  apply unless_die in HM as [HM|[_ HM]]; [apply openLogs_fail; auto|].
  apply unless_die in HM as [HM|[_ HM]]; [apply trySavedir_fail; auto|].
  destruct (tryConnFile O H) as [r| |] eqn:Er; try discriminate HM.
  apply unless_die in HM as [HM|[_ HM]]; [subst r; apply tryConnFile_fail; auto|].
  destruct (buildRules (h_fds H) (h_rfs H) (opts_of O)) as [base|e|] eqn:Eb; try discriminate HM.
  2:{ assert (HE : msg = B "error parsing autogenerated rules:" ++ [ch_nl; ch_tab] ++ perr_text e ++ [ch_nl] ++ B "rules:" ++ [ch_nl] ++ buildText (opts_of O)) by (injection HM as <-; reflexivity).
      rewrite HE. apply R_options; [apply C78_error_is_true; exact Eb|intros rs; rewrite Eb; clear; discriminate]. }
  apply unless_die in HM as [HM|[Hf HM]].
  { apply tryRuleFiles_fail in HM as (f & e & H1 & H2 & ->). apply R_norules; auto. }
  assert (HF : Forall (fun f => f <> []) (ruleFiles O)).
  { apply Forall_forall. intros f Hin ->. apply (proj1 (tryRuleFiles_spec H _) Hf) in Hin. auto. }
  destruct (setupRules _ _ _ _ _) as [rr|] eqn:Es; [|discriminate HM].
  destruct (rr_good rr) eqn:Eg; cbn [negb] in HM.
  - destruct (checkMinphase (g_minphase O)) as [m|e] eqn:Em.
    2:{ injection HM as ->. apply checkMinphase_fail; auto. }
    apply unless_die in HM as [HM|[_ HM]]; [|discriminate HM].
    apply (listenAll_fail H _ 0) in HM as (k & b & e & H1 & H2 & ->). eapply R_listen; [rewrite Ea; exact H1|exact H2].
  - destruct (C12_all_or_nothing (h_fds H) (h_rfs H) (h_tick H) base (ruleFiles O) HF) as (r' & E' & [(parts & t' & _ & A & _)|(_ & _ & _ & f & e & Hin & Hw)]).
    + congruence.
    + assert (r' = rr) by congruence. subst r'.
      destruct (C79_rules_warning _ _ _ _ _ rr _ HF Es Hw) as (_ & f' & txt & _ & HB).
      injection HM as <-. eapply R_rules; eauto.
Qed.

Lemma LoadsAll_app fds fs pre : forall t post parts t2, LoadsAll fds fs t (pre ++ post) parts t2 ->
  exists parts1 t1 parts2, LoadsAll fds fs t pre parts1 t1 /\ LoadsAll fds fs t1 post parts2 t2.
Proof.
  induction pre as [|f pre IH]; intros t post parts t2 HX.
  - exists [], t, parts. split; [constructor|auto].
  - cbn [app] in HX. inversion HX as [|? ? ? rs t1 parts' ? Hf HL HA]; subst. apply IH in HA as (p1 & t' & p2 & A & C).
    exists (rs :: p1), t', p2. split; auto. econstructor; eauto.
Qed.
Lemma LoadsAll_fun fds fs files : forall t p1 t1 p2 t2, LoadsAll fds fs t files p1 t1 -> LoadsAll fds fs t files p2 t2 -> t1 = t2.
Proof.
  induction files as [|f files IH]; intros t p1 t1 p2 t2 H1 H2; inversion H1; inversion H2; subst; auto.
  match goal with A : Loads _ _ t f _ _, C : Loads _ _ t f _ _ |- _ => apply Loads_loadRules in A; apply Loads_loadRules in C; rewrite C in A; injection A as -> -> end.
  eapply IH; eauto.
Qed.

(** None of these is a mere pretext: with any of them the server cannot start. *)
Theorem C79_reason_is_good O H msg : unicode_ok (w_uni (h_world H)) -> h_open H [] <> None ->
  Reason O H msg -> forall K, main O H <> BServe K.
Proof.
  intros HU Ho HR K HM. apply C58_startup in HM as ([P1 P2 P3 P4 P5 P6 P7 P8] & certs & base & [R1 R2 R3 R4 R5 R6 (rr & R7 & R8) R9] & _).
  destruct HR.
  - destruct P2 as [A|[A|A]]; congruence.
  - apply P4; auto.
  - auto.
  - destruct (P5 H0) as [A _]. auto.
  - destruct (P5 H0) as [_ A]. lia.
  - apply P6; auto.
  - auto.
  - apply H0. apply P7. auto.
  - apply H1. apply P7. auto.
  - apply beqb_neq in H0. rewrite H0 in R1. apply loadCerts_spec in R1. eapply CertsFail_no; eauto.
  - assert (h_log H (g_smtplog O) = None) by (apply R2; simpl; auto). congruence.
  - assert (h_log H (g_l O) = None) by (apply R2; simpl; auto). congruence.
  - assert (h_log H (g_dnlog O) = None) by (apply R2; simpl; auto). congruence.
  - rewrite R3 in H1; auto. discriminate.
  - destruct (R4 H0) as (d & E). unfold loadConnFile, read_file, ask, xbind, xret in E. cbn [fst length] in E.
    destruct (w_file (h_world H) 0 (g_conncfg O)) as [| |content err] eqn:Ef; try discriminate E. eapply H1; eauto.
  - destruct (R4 H0) as (d & E). unfold loadConnFile, read_file, ask, xbind, xret in E. cbn [fst length] in E. rewrite H1 in E. cbn [fst] in E.
    destruct err.
    + eapply C56_read_error; exact E.
    + apply C56_file in E; auto. eapply FileWrong_no; eauto.
  - apply (H1 base). exact R5.
  - rewrite R6 in H1; auto. discriminate.
  - destruct H0 as (pre & post & parts & t1 & Ef & HA & _ & HN).
    destruct (C12_all_or_nothing (h_fds H) (h_rfs H) (h_tick H) base (ruleFiles O)) as (r' & E' & [(parts' & t' & HL & _)|(_ & A & _)]).
    { apply Forall_forall. intros g Hin ->. apply R6 in Hin. auto. }
    + rewrite Ef in HL. apply LoadsAll_app in HL as (p1 & t3 & p2 & HL1 & HL2). assert (t3 = t1) by (eapply LoadsAll_fun; eauto). subst.
      inversion HL2; subst. eapply HN; eauto.
    + congruence.
  - rewrite (R9 n a H0) in H1. discriminate.
Qed.

(** So the server prints its usage, or runs, or says truthfully why not. *)
Theorem C79_starts_or_says_why O H : unicode_ok (w_uni (h_world H)) -> h_open H [] <> None ->
  (g_args O = [] /\ main O H = BUsage) \/
  (exists certs base, Proper O /\ Ready O H certs base /\ main O H = BServe (settings O certs base)) \/
  (exists msg, main O H = BDie msg /\ Reason O H msg).
Proof.
  intros HU Ho. destruct (main O H) as [|msg| |K] eqn:E.
  - left. split; auto. destruct (g_args O) eqn:Ea; auto. exfalso. unfold main in E. rewrite Ea in E.
    assert (Hun : forall o k, unless o k = BUsage -> k = BUsage) by (intros [e|] k HX; [discriminate HX|auto]).
    apply Hun in E. destruct (loadServerCerts O H); [|discriminate E]. apply Hun in E. apply Hun in E.
    destruct (tryConnFile O H); try discriminate E. apply Hun in E. destruct (buildRules _ _ _); try discriminate E.
    apply Hun in E. destruct (setupRules _ _ _ _ _) as [rr|]; [|discriminate E]. destruct (negb (rr_good rr)); [discriminate E|].
    destruct (checkMinphase _); [|discriminate E]. apply Hun in E. discriminate E.
  - right; right. exists msg. split; auto. eapply C79_refusal_is_true; eauto.
  - exfalso. eapply C58_no_crash; eauto.
  - right; left. apply C58_startup in E as (P & certs & base & R & ->). exists certs, base. auto.
Qed.

(** A machine with a wrong -conncfg file, a rules file with a mistake and a
    port that is taken. *)
Definition poor_machine : machine :=
  mkMachine
    {| w_uni := plain_unicode;
       w_file := fun _ n => if beqb n (B "/conn") then FRead (B "# ours
127.0.0.1 hostname=one
10.0.0.0/8 cert=a,b key=c,d
") false else FNoent;
       w_ip := w_ip demo_world; w_mx := w_mx demo_world; w_addr := w_addr demo_world;
       w_order := w_order demo_world; w_ipstr := w_ipstr demo_world |}
    10 bad_files 0 (fun c k => if beqb c (B "b") then inr (B "no PEM data") else inl c)
    (fun _ => None) (fun _ => None)
    (fun f => if beqb f [] then Some (B "open : no such file or directory") else None)
    (fun n a => if beqb a (B ":26") then Some (B "address already in use") else None).

Definition with_conn (f : bytes) (rules : bytes) (args : list bytes) : options :=
  mkOptions false false [] (B "-") [] [] (B "/save") false (B "full") [] [] (B "/bad") [] (B "/badhelo") rules
    5 (8 * 3600 * 1000000000) (B "ehlo") false f args.

Example C79_example :
  unicode_ok (w_uni (h_world poor_machine)) /\ h_open poor_machine [] <> None /\
  main (with_conn (B "/conn") [] [B ":25"]) poor_machine =
    BDie (B "cannot load per-connection config information from '/conn': error loading TLS cert(s) and key(s) from line 3: while loading b & d: no PEM data" ++ [ch_nl]) /\
  main (with_conn [] (B "c") [B ":25"]) poor_machine =
    BDie (B "not continuing when there are problems in the rules files." ++ [ch_nl]) /\
  main (with_conn [] [] [B ":25"; B ":26"]) poor_machine =
    BDie (B "error listening to tcp!:26: address already in use" ++ [ch_nl]) /\
  exists K, main (with_conn [] [] [B ":25"]) poor_machine = BServe K.
Proof.
  split; [apply plain_unicode_ok|]. split; [discriminate|]. split; [vm_compute; reflexivity|].
  split; [vm_compute; reflexivity|]. split; [vm_compute; reflexivity|]. eexists. vm_compute. reflexivity.
Qed.

Example C79_warning_example : exists r, setupRules 10 bad_files 0 [] [B "c"] = Some r /\
  rr_warning r = Some (B "problem loading rules c: rules parsing error at line 1: 'set-with' rule with no with options" ++ [ch_nl]).
Proof. eexists. split; vm_compute; reflexivity. Qed.

Print Assumptions C79_refusal_is_true.
Print Assumptions C79_starts_or_says_why.
