(** C70: what the log says about a decision, and what is counted. *)
From Verif Require Import PropsParse.
From Verif Require Import Bytes Outcome Lexer Ast GoNet Parser World Dns Eval Sem EvalProofs DecideProofs Decisions RuleLoad ConnCfg PropsConn CipherNames Message Session SessProofs Conv PropsEval DemoSession PropsSession PropsReply.
From Coq Require Import Lia Permutation Sorted.

(** ** Specification *)

(** byte-wise order *)
Inductive le_bytes : bytes -> bytes -> Prop :=
| Le_nil b : le_bytes [] b
| Le_less x y a b : (N_of_ascii x < N_of_ascii y)%N -> le_bytes (x :: a) (y :: b)
| Le_same x a b : le_bytes a b -> le_bytes (x :: a) (x :: b).
Definition Sorts (l l' : list bytes) : Prop := Permutation l l' /\ StronglySorted le_bytes l'.

(** the line about blocklists *)
Definition hit_line (names : list bytes) : bytes := B "! dnsbl hit: " ++ join (B " ") names ++ [ch_nl].

(** A TXT record like https://www.spamhaus.org/sbl/query/SBL123 names a record
    of the SBL. *)
Definition sbl_record (txt r : bytes) : Prop := exists url, txt = url ++ B "/" ++ r /\ r <> [] /\ ~ In "/"%char r.
Inductive sbl_records : list bytes -> list bytes -> Prop :=
| Sr_nil : sbl_records [] []
| Sr_take t r ts rs : sbl_record t r -> sbl_records ts rs -> sbl_records (t :: ts) (r :: rs)
| Sr_skip t ts rs : (forall r, ~ sbl_record t r) -> sbl_records ts rs -> sbl_records (t :: ts) rs.

(** Asking for the records of a client with an IPv4 address and telling them;
    [answer] is the answer to the TXT lookup. *)
Inductive TellsSbl (prefix ip : bytes) (answer : bytes -> option (list bytes) -> Prop) : list effect -> Prop :=
| Ts_sbl s0 s1 s2 s3 rest name txts recs said : split_byte ip ch_dot = s0 :: s1 :: s2 :: s3 :: rest ->
    name = s3 ++ B "." ++ s2 ++ B "." ++ s1 ++ B "." ++ s0 ++ B ".sbl.spamhaus.org." ->
    answer name txts ->
    (txts = None /\ recs = [] \/ exists l rs, txts = Some l /\ sbl_records l rs /\ Sorts rs recs) ->
    said = match recs with
           | [] => []
           | _ => [FSmtplog (prefix ++ B "! SBL records: " ++ join (B " ") recs ++ [ch_nl]); FSbl recs]
           end ->
    TellsSbl prefix ip answer (FTxt name :: said).

(** What is logged and counted for the hits of a decision, when [last] is what
    was logged last in this session. *)
Inductive Tells (prefix ip : bytes) (answer : bytes -> option (list bytes) -> Prop) (log : bool) (last : option (list bytes)) (hits : list bytes) : list effect -> Prop :=
| Tl_no_log : log = false -> Tells prefix ip answer log last hits []
| Tl_no_hits : hits = [] -> Tells prefix ip answer log last hits []
| Tl_same names before : Sorts hits names -> last = Some before -> hit_line names = hit_line before ->
    Tells prefix ip answer log last hits []
| Tl_new names sbl : log = true -> hits <> [] -> Sorts hits names ->
    (forall before, last = Some before -> hit_line names <> hit_line before) ->
    (if bmem (B "sbl.spamhaus.org.") hits then TellsSbl prefix ip answer sbl else sbl = []) ->
    Tells prefix ip answer log last hits (FSmtplog (prefix ++ hit_line names) :: FDbl names :: sbl).

(** The other log line a decision can cause: the text of a DNS failure, unless
    it is the one of the decision before it that had a failure. *)
Inductive dns_failure (prefix : bytes) (log : bool) (last now : option bytes) : list effect -> Prop :=
| Df_no_log : log = false -> dns_failure prefix log last now []
| Df_none : now = None -> dns_failure prefix log last now []
| Df_same e : now = Some e -> last = Some e -> dns_failure prefix log last now []
| Df_new e : log = true -> now = Some e -> last <> Some e -> dns_failure prefix log last now [FSmtplog (prefix ++ B "! " ++ e ++ [ch_nl])].
(** the failures of the decisions, latest first, in a list of effects, latest first *)
Definition failures (l : list effect) : list bytes :=
  flat_map (fun e => match e with FDecide d => match d_domerr d with Some x => [x] | None => [] end | _ => [] end) l.
(** the rule's note *)
Definition note_told (prefix : bytes) (d : decision) : list effect :=
  match option_of d (B "note") with
  | [] => []
  | note => [FSmtplog (prefix ++ B "! rule note: " ++ note ++ [ch_nl])]
  end.
Definition tls_change (l : list effect) : Prop := l = [] \/ l = [FTlsOff] \/ l = [FTlsNoClient].

(** the lists counted, in a list of effects *)
Definition dbls (l : list effect) : list (list bytes) := flat_map (fun e => match e with FDbl n => [n] | _ => [] end) l.
(** effects that have nothing to do with blocklists and rules *)
Definition nohit (e : effect) : Prop :=
  match e with FDbl _ | FSbl _ | FTxt _ | FDecide _ => False | _ => True end.

(** ** Sorting *)

Lemma bytes_leb_le a : forall b, if bytes_leb a b then le_bytes a b else le_bytes b a.
Proof.
  induction a as [|x a IH]; intros [|y b]; cbn [bytes_leb]; try constructor.
  destruct (N.ltb_spec (N_of_ascii x) (N_of_ascii y)); [constructor; auto|].
  destruct (N.ltb_spec (N_of_ascii y) (N_of_ascii x)); [constructor; auto|].
  assert (x = y).
  { rewrite <- (ascii_N_embedding x), <- (ascii_N_embedding y). f_equal. lia. }
  subst y. specialize (IH b). destruct (bytes_leb a b); apply Le_same; auto.
Qed.
Lemma le_trans a : forall b c, le_bytes a b -> le_bytes b c -> le_bytes a c.
Proof.
  induction a as [|x a IH]; intros b c H1 H2; [constructor|].
  inversion H1; subst; inversion H2; subst; try (constructor; auto; lia). apply Le_same. eauto.
Qed.
Lemma insert_perm x l : Permutation (x :: l) (insert x l).
Proof.
  induction l as [|y l IH]; cbn [insert]; auto. destruct (bytes_leb x y); auto.
  eapply perm_trans; [apply perm_swap|]. constructor. exact IH.
Qed.
Lemma insert_sorted x l : StronglySorted le_bytes l -> StronglySorted le_bytes (insert x l).
Proof.
  induction 1 as [|y l Hs IH Hf]; cbn [insert]; [repeat constructor|].
  pose proof (bytes_leb_le x y) as Hl. destruct (bytes_leb x y).
  - constructor; [constructor; auto|]. constructor; auto. eapply Forall_impl; [|exact Hf]. intros z Hz. eapply le_trans; eauto.
  - constructor; auto. apply (Permutation_Forall (insert_perm x l)). constructor; auto.
Qed.
Lemma sort_Sorts l : Sorts l (sort_strings l).
Proof.
  unfold sort_strings. induction l as [|x l [IH1 IH2]]; cbn [fold_right]; [split; constructor|].
  split; [eapply perm_trans; [constructor; exact IH1|apply insert_perm]|apply insert_sorted; auto].
Qed.

Lemma last_index_none txt c : last_index txt c = None <-> ~ In c txt.
Proof.
  unfold last_index. rewrite (in_rev txt). generalize (rev txt) as l. intros l. 
  induction l as [|x l IH]; cbn [index_byte]; [cbn; tauto|].
  destruct (Ascii.eqb_spec x c) as [-> |Hn]; [split; [discriminate|intros H; exfalso; apply H; left; reflexivity]|].
  destruct (index_byte l c); [split; [discriminate|]|].
  - intros H. exfalso. cbn in H. assert (~ In c l) by tauto. apply IH in H0. discriminate.
  - split; auto. intros _ [H|H]; [contradiction|]. now apply IH.
Qed.
Lemma in_last c (l : bytes) : In c l -> exists a b, l = a ++ c :: b /\ ~ In c b.
Proof.
  induction l as [|x l IH]; [intros []|]. intros H. destruct (in_dec Ascii.ascii_dec c l) as [Hi|Hi].
  - destruct (IH Hi) as (a & b & -> & Hb). exists (x :: a), b. auto.
  - destruct H as [-> |H]; [|contradiction]. exists [], l. auto.
Qed.

Lemma sblOf_spec txt : match sblOf txt with Some r => sbl_record txt r | None => forall r, ~ sbl_record txt r end.
Proof.
  unfold sblOf. destruct (last_index txt "/") as [i|] eqn:E.
  - destruct (in_dec Ascii.ascii_dec "/"%char txt) as [Hi|Hi]; [|apply last_index_none in Hi; congruence].
    destruct (in_last _ _ Hi) as (a & b & -> & Hb). rewrite (last_index_app a "/" b Hb) in E. injection E as <-.
    rewrite app_length. cbn [length]. destruct (Nat.eqb_spec (length a) (length a + S (length b) - 1)) as [En|En].
    + intros r (url & Eu & Hr & Hn). destruct b as [|y b]; [|cbn in En; lia].
      apply Hr. change (B "/" ++ r) with ("/"%char :: r) in Eu.
      assert (H1 : last_index (url ++ "/"%char :: r) "/" = Some (length url)) by (apply last_index_app; auto).
      rewrite <- Eu, (last_index_app a "/" [] Hb) in H1. injection H1 as H1.
      apply (f_equal (@length ascii)) in Eu. rewrite !app_length in Eu. cbn [length] in Eu. destruct r; auto. cbn in Eu. lia.
    + exists a. replace (skipn (S (length a)) (a ++ "/"%char :: b)) with b.
      * split; auto. split; auto. intros ->. cbn in En. lia.
      * change (a ++ "/"%char :: b) with (a ++ ["/"%char] ++ b). rewrite app_assoc, skipn_app, app_length. cbn [length].
        rewrite skipn_all2 by (rewrite app_length; cbn; lia). replace (S (length a) - (length a + 1)) with 0 by lia. reflexivity.
  - intros r (url & -> & _). apply last_index_none in E. apply E. apply in_or_app. right. left. reflexivity.
Qed.
Lemma sbls_spec txts : sbl_records txts (flat_map (fun t => match sblOf t with Some x => [x] | None => [] end) txts).
Proof.
  induction txts as [|t ts IH]; cbn [flat_map]; [constructor|]. pose proof (sblOf_spec t) as H. destruct (sblOf t); cbn [app]; constructor; auto.
Qed.

Lemma dbls_app a b : dbls (a ++ b) = dbls a ++ dbls b.
Proof. apply flat_map_app. Qed.
Lemma dbls_rev l : dbls (rev l) = rev (dbls l).
Proof. induction l as [|e l IH]; auto. cbn [rev]. rewrite dbls_app, IH. destruct e; cbn; rewrite ?app_nil_r; reflexivity. Qed.
Lemma nohit_dbls l : Forall nohit l -> dbls l = [].
Proof. induction 1 as [|e l H]; auto. destruct e; simpl in *; tauto. Qed.

Lemma failures_app a b : failures (a ++ b) = failures a ++ failures b.
Proof. apply flat_map_app. Qed.
Lemma nohit_failures l : Forall nohit l -> failures l = [].
Proof. induction 1 as [|e l H]; auto. destruct e; simpl in *; tauto. Qed.
Lemma dns_failure_dbls p log last now l : dns_failure p log last now l -> dbls l = [].
Proof. destruct 1; reflexivity. Qed.
Lemma dns_failure_quiet p log last now l d : dns_failure p log last now l -> ~ In (FDecide d) l.
Proof. destruct 1; cbn; intuition discriminate. Qed.

Section S.
  Context (K : config) (E : senv) (cn : conn).

  (** an answer of the outside to a TXT lookup at some time *)
  Definition answered (name : bytes) (r : option (list bytes)) : Prop := exists i, v_txt E i name = r.

  (** the line logged last about blocklists is remembered *)
  Definition remembers_hits (s : sess) : Prop :=
    x_lastmsg (s_tx s) = match dbls (s_out s) with [] => [] | names :: _ => hit_line names end.
  (** and the one about a domain *)
  Definition remembers_failure (I : sinfo) (s : sess) : Prop := si_log I = true ->
    x_lastamsg (s_tx s) = match failures (s_out s) with [] => [] | e :: _ => B "! " ++ e ++ [ch_nl] end.
  Definition remembers (I : sinfo) (s : sess) : Prop := remembers_hits s /\ remembers_failure I s.
  Definition last_failure (s : sess) : option bytes := match failures (s_out s) with [] => None | e :: _ => Some e end.
  Definition last_told (s : sess) : option (list bytes) := match dbls (s_out s) with [] => None | names :: _ => Some names end.

  Lemma logSbls_none hits : ~ In (B "sbl.spamhaus.org.") hits -> forall s u s', logSbls E cn hits s = Ok (u, s') -> s' = s.
  Proof.
    induction hits as [|h hits IH]; intros Hn s u s' H; cbn [logSbls] in H; [sinv H; auto|].
    destruct (beqb_spec h (B "sbl.spamhaus.org.")) as [-> |Hh]; [exfalso; apply Hn; now left|].
    apply sbind_ok in H as (u1 & s1 & H1 & H). sinv H1. eapply IH; eauto. intros Hi. apply Hn. now right.
  Qed.
  Lemma logSbls_told hits : NoDup hits -> forall s u s', logSbls E cn hits s = Ok (u, s') ->
    exists l, s' = add_out (rev l) s /\ dbls l = [] /\
      if bmem (B "sbl.spamhaus.org.") hits then TellsSbl (n_prefix cn) (n_rip cn) answered l else l = [].
  Proof.
    induction 1 as [|h hits Hn Hd IH]; intros s u s' H; cbn [logSbls] in H.
    - sinv H. exists []. split; [destruct s; reflexivity|]. split; reflexivity.
    - apply sbind_ok in H as (u1 & s1 & H1 & H). unfold bmem. cbn [existsb]. fold (bmem (B "sbl.spamhaus.org.") hits).
      destruct (beqb_spec h (B "sbl.spamhaus.org.")) as [-> |Hh].
      + rewrite beqb_refl. cbn [orb].
        apply logSbls_none in H; auto. subst s'.
        apply sbind_ok in H1 as (sbls & s2 & H2 & H1). unfold getSBLHits in H2.
        destruct (split_byte (n_rip cn) ch_dot) as [|a [|b [|c [|d rest]]]] eqn:Es; try discriminate.
        cbn zeta in H2. set (name := d ++ B "." ++ c ++ B "." ++ b ++ B "." ++ a ++ B ".sbl.spamhaus.org.") in *.
        apply sbind_ok in H2 as (i & sa & H3 & H2). sapp index_ok H3.
        apply sbind_ok in H2 as (u2 & sa & H3 & H2). sapp emit_ok H3. sinv H2.
        set (r := v_txt E (length (s_out s)) name) in *.
        set (sbls := match r with None => _ | Some txts => _ end) in *.
        exists (FTxt name :: match sbls with [] => [] | _ => [FSmtplog (n_prefix cn ++ B "! SBL records: " ++ join (B " ") sbls ++ [ch_nl]); FSbl sbls] end).
        split; [|split].
        * destruct sbls; sinv H1; reflexivity.
        * destruct sbls; reflexivity.
        * apply (Ts_sbl _ _ _ a b c d rest name r sbls); auto.
          -- exists (length (s_out s)). reflexivity.
          -- subst sbls. destruct r as [l|]; [right|left; auto]. eexists l, _. split; auto. split; [apply sbls_spec|apply sort_Sorts].
      + assert (Hb : beqb (B "sbl.spamhaus.org.") h = false) by (destruct (beqb_spec (B "sbl.spamhaus.org.") h); congruence).
        rewrite Hb. cbn [orb]. sinv H1. eapply IH; eauto.
  Qed.

  Lemma logDnsbls_told I s u s' : NoDup (c_dnsblhit (s_ctx s)) -> remembers_hits s -> logDnsbls E cn I s = Ok (u, s') ->
    exists l m, Tells (n_prefix cn) (n_rip cn) answered (si_log I) (last_told s) (c_dnsblhit (s_ctx s)) l /\
      s' = add_out (rev l) (upd_tx (put_lastmsg m) s) /\ remembers_hits s'.
  Proof.
    intros Hd Hm H. unfold logDnsbls in H. apply sbind_ok in H as (hits & sa & H1 & H). sapp @sget_ok H1.
    assert (Hid : s = add_out (rev []) (upd_tx (put_lastmsg (x_lastmsg (s_tx s))) s)).
    { destruct s as [t]. unfold upd_tx, add_out. cbn. f_equal. destruct t; reflexivity. }
    destruct (c_dnsblhit (s_ctx s)) as [|h0 hs] eqn:Eh.
    { sinv H. exists [], (x_lastmsg (s_tx s)). split; [apply Tl_no_hits; auto|]. auto. }
    set (hits := h0 :: hs) in *.
    destruct (si_log I) eqn:Ei; cbn [negb] in H.
    2: { sinv H. exists [], (x_lastmsg (s_tx s)). split; [apply Tl_no_log; auto|]. auto. }
    cbn zeta in H. fold (hit_line (sort_strings hits)) in H.
    apply sbind_ok in H as (last & sa & H1 & H). sapp @gettx_ok H1.
    pose proof (sort_Sorts hits) as HS.
    destruct (beqb_spec (hit_line (sort_strings hits)) (x_lastmsg (s_tx s))) as [El|El].
    - sinv H. exists [], (x_lastmsg (s_tx s)). split; [|auto]. unfold last_told. rewrite Hm in El.
      destruct (dbls (s_out s)) as [|names rest]; [discriminate|]. eapply Tl_same; eauto.
    - apply sbind_ok in H as (u1 & sa & H1 & H). unfold logwrite in H1. sapp emit_ok H1.
      apply sbind_ok in H as (u2 & sa & H1 & H). sapp uptx_ok H1.
      apply sbind_ok in H as (u3 & sa & H1 & H). sapp emit_ok H1.
      assert (Hds : NoDup (sort_strings hits)) by (eapply Permutation_NoDup; [apply HS|exact Hd]).
      apply (logSbls_told _ Hds) in H as (l & -> & Hl0 & Hl).
      exists (FSmtplog (n_prefix cn ++ hit_line (sort_strings hits)) :: FDbl (sort_strings hits) :: l), (hit_line (sort_strings hits)).
      split; [|split].
      + apply Tl_new; auto; [discriminate| |].
        * intros before. unfold last_told. rewrite Hm in El. destruct (dbls (s_out s)); [discriminate|]. intros [= ->]. exact El.
        * replace (bmem (B "sbl.spamhaus.org.") hits) with (bmem (B "sbl.spamhaus.org.") (sort_strings hits)); [exact Hl|].
          destruct HS as [HP _]. destruct (bmem _ hits) eqn:E1; [apply bmem_In; apply bmem_In in E1; eapply Permutation_in; eauto|].
          destruct (bmem _ (sort_strings hits)) eqn:E2; auto. apply bmem_In in E2. symmetry in HP.
          eapply Permutation_in in E2; [|exact HP]. apply bmem_In in E2. congruence.
      + unfold add_out, upd_tx. cbn [s_tx s_ctx s_tls s_got s_counts s_out]. f_equal. cbn [rev]. rewrite <- !app_assoc. reflexivity.
      + unfold remembers_hits, add_out, upd_tx. cbn [s_tx s_out]. rewrite dbls_app, dbls_rev, Hl0. reflexivity.
  Qed.

  Definition failure_line (o : option bytes) : bytes := match o with None => [] | Some e => B "! " ++ e ++ [ch_nl] end.
  Lemma failure_line_inj e o : failure_line (Some e) = failure_line o -> o = Some e.
  Proof. destruct o as [x|]; [|discriminate]. cbn [failure_line]. intros H. apply app_inv_head, app_inv_tail in H. congruence. Qed.
  Lemma remembers_failure_line I s : remembers_failure I s <-> (si_log I = true -> x_lastamsg (s_tx s) = failure_line (last_failure s)).
  Proof. unfold remembers_failure, last_failure. destruct (failures (s_out s)); reflexivity. Qed.

  Lemma logDomerr_told I last s u s' : (si_log I = true -> x_lastamsg (s_tx s) = failure_line last) -> logDomerr cn I s = Ok (u, s') ->
    exists l, dns_failure (n_prefix cn) (si_log I) last (c_domerr (s_ctx s)) l /\ s_out s' = rev l ++ s_out s /\ s_ctx s' = s_ctx s /\ x_lastmsg (s_tx s') = x_lastmsg (s_tx s) /\
      (si_log I = true -> x_lastamsg (s_tx s') = failure_line (match c_domerr (s_ctx s) with Some e => Some e | None => last end)).
  Proof.
    unfold logDomerr. intros Hlast H. apply sbind_ok in H as (de & sa & H1 & H). sapp @sget_ok H1.
    destruct (c_domerr (s_ctx s)) as [e|]; [|sinv H; exists []; repeat split; auto; now apply Df_none].
    destruct (si_log I) eqn:Ei; cbn [negb] in H; [|sinv H; exists []; repeat split; auto; [now apply Df_no_log|discriminate]].
    specialize (Hlast eq_refl).
    cbn zeta in H. apply sbind_ok in H as (lst & sa & H1 & H). sapp @gettx_ok H1.
    change (B "! " ++ e ++ [ch_nl]) with (failure_line (Some e)) in H. rewrite Hlast in H.
    destruct (beqb_spec (failure_line (Some e)) (failure_line last)) as [El|El].
    - sinv H. exists []. repeat split; auto; [|congruence]. apply (Df_same _ _ _ _ e); auto. now apply failure_line_inj.
    - sinv H. eexists [_]. split; [apply (Df_new _ _ _ _ e); auto; congruence|]. repeat split.
  Qed.

  Lemma applyProps_told I s u s' : applyProps cn I s = Ok (u, s') ->
    exists l, tls_change l /\ s_ctx s' = s_ctx s /\ x_lastmsg (s_tx s') = x_lastmsg (s_tx s) /\ x_lastamsg (s_tx s') = x_lastamsg (s_tx s) /\
      s_out s' = rev l ++ rev (match prop_of (s_ctx s) (B "note") with
                               | [] => []
                               | note => [FSmtplog (n_prefix cn ++ B "! rule note: " ++ note ++ [ch_nl])]
                               end) ++ s_out s.
  Proof.
    unfold applyProps. intros H. set (c := s_ctx s).
    apply sbind_ok in H as (sd & sa & H1 & H). unfold withprop in H1. sapp @sget_ok H1. fold c in H. fold (prop_of c (B "savedir")) in H.
    apply sbind_ok in H as (u1 & s1 & H1 & H).
    assert (E1 : s_ctx s1 = c /\ x_lastmsg (s_tx s1) = x_lastmsg (s_tx s) /\ x_lastamsg (s_tx s1) = x_lastamsg (s_tx s) /\ s_out s1 = s_out s).
    { destruct (beqb _ []); cbn [negb when_] in H1; sinv H1; auto. }
    clear H1. destruct E1 as (E1 & E2 & Ea & E3). rewrite <- E2, <- Ea, <- E3. clear E2 Ea E3.
    apply sbind_ok in H as (note & sa & H1 & H). unfold withprop in H1. sapp @sget_ok H1. rewrite E1 in H. fold (prop_of c (B "note")) in H.
    apply sbind_ok in H as (u2 & s2 & H1 & H). set (nl := match prop_of c (B "note") with [] => _ | _ => _ end).
    assert (E2 : s2 = add_out (rev nl) s1).
    { subst nl. destruct (prop_of c (B "note")) as [|n0 note]; cbn [beqb negb when_] in H1.
      - sinv H1. destruct s1; reflexivity.
      - destruct (si_log I); [|discriminate]. sinv H1. reflexivity. }
    clear H1. subst s2.
    apply sbind_ok in H as (topt & sa & H1 & H). unfold withprop in H1. sapp @sget_ok H1.
    destruct (beqb _ (B "off")).
    { sinv H. exists [FTlsOff]. split; [right; left; auto|]. auto. }
    destruct (beqb _ (B "no-client")).
    2: { sinv H. exists []. split; [left; auto|]. auto. }
    apply sbind_ok in H as (cfg & sa & H1 & H). sapp @sget_ok H1. destruct (s_tls _); sinv H.
    - exists [FTlsNoClient]. split; [right; right; auto|]. auto.
    - exists []. split; [left; auto|]. auto.
  Qed.

  (** what one decision adds to the log *)
  Definition Told (I : sinfo) (s : sess) (d : decision) (l : list effect) : Prop :=
    exists hits dns tls, l = hits ++ dns ++ note_told (n_prefix cn) d ++ tls /\
      Tells (n_prefix cn) (n_rip cn) answered (si_log I) (last_told s) (d_hits d) hits /\
      dns_failure (n_prefix cn) (si_log I) (last_failure s) (d_domerr d) dns /\ tls_change tls.

  Lemma Told_quiet I s d l x : Told I s d l -> ~ In (FDecide x) l.
  Proof.
    intros (hits & dns & tls & -> & Ht & Hdns & Htls) Hd. repeat (apply in_app_or in Hd as [Hd|Hd]).
    - inversion Ht as [| | |names sbl _ _ _ _ Hsbl]; subst; try destruct Hd as [Hd|[Hd|Hd]]; try discriminate; try destruct Hd.
      destruct (bmem _ _); [|subst; destruct Hd]. destruct Hsbl as [? ? ? ? ? ? ? recs said ? ? ? ? ->].
      destruct Hd as [Hd|Hd]; [discriminate|]. destruct recs; cbn in Hd; intuition discriminate.
    - eapply dns_failure_quiet; eauto.
    - unfold note_told in Hd. destruct (option_of d (B "note")); cbn in Hd; intuition discriminate.
    - destruct Htls as [-> |[-> | ->]]; cbn in Hd; intuition discriminate.
  Qed.
  Lemma Told_failures I s d l : Told I s d l -> failures (rev l) = [].
  Proof.
    intros HT. assert (Hq : forall x, ~ In (FDecide x) (rev l)) by (intros x Hx; apply in_rev in Hx; eapply Told_quiet; eauto).
    clear HT. induction (rev l) as [|e m IH]; auto. cbn [failures flat_map]. fold (failures m). rewrite IH by (intros x Hx; apply (Hq x); now right).
    destruct e; auto. exfalso. eapply Hq. now left.
  Qed.

  Lemma decider_told I ph e id s b s' : hits_ok (s_ctx s) -> remembers I s -> decider E cn I ph e id s = Ok (b, s') ->
    exists res l ans, Told I s (the_decision cn (s_tx s) ph e res (s_ctx s')) l /\ Forall nohit ans /\
      s_out s' = ans ++ rev l ++ FDecide (the_decision cn (s_tx s) ph e res (s_ctx s')) :: s_out s /\ remembers I s'.
  Proof.
    unfold decider. intros Hh [Hm Hf] H.
    apply sbind_ok in H as (t & sa & H1 & H). sapp @gettx_ok H1.
    apply sbind_ok in H as (res & s1 & H1 & H). apply inctx_ok in H1 as (c & HD & ->).
    assert (Hh' : hits_ok c) by (eapply dsteps_hits; [eapply druns_Decide; exact HD|exact Hh]).
    apply sbind_ok in H as (c' & sa & H1 & H). sapp @sget_ok H1. cbn [s_ctx] in H.
    apply sbind_ok in H as (u & sa & H1 & H). sapp emit_ok H1. fold (the_decision cn (s_tx s) ph e res c) in H.
    set (d := the_decision cn (s_tx s) ph e res c) in *.
    apply sbind_ok in H as (u1 & s2 & H1 & H). apply logDnsbls_told in H1; [|exact (proj1 (proj1 Hh'))|exact Hm].
    destruct H1 as (hits & m & HT & E2 & Hm2).
    apply sbind_ok in H as (u2 & s3 & H1 & H). apply (logDomerr_told I (last_failure s)) in H1; [|rewrite E2; exact (proj1 (remembers_failure_line I s) Hf)].
    destruct H1 as (dns & Hdns & Eo3 & Ec3 & El3 & Ef3). replace (c_domerr (s_ctx s2)) with (d_domerr d) in Hdns, Ef3 by (rewrite E2; reflexivity).
    apply sbind_ok in H as (u3 & s4 & H1 & H). apply applyProps_told in H1 as (tls & Htls & Ec4 & El4 & Ef4 & Eo4).
    assert (Ec : s_ctx s4 = c) by (rewrite Ec4, Ec3, E2; reflexivity).
    assert (Eo : s_out s4 = rev (hits ++ dns ++ note_told (n_prefix cn) d ++ tls) ++ FDecide d :: s_out s).
    { rewrite Eo4, Eo3. replace (s_ctx s3) with c by congruence. rewrite E2. cbn [s_out add_out upd_tx]. unfold note_told, option_of.
      fold (prop_of c (B "note")). change (match mget (d_withs d) (B "note") with Some v => v | None => [] end) with (prop_of c (B "note")).
      rewrite !rev_app_distr, <- !app_assoc. reflexivity. }
    assert (Hdom : dbls dns = []) by (eapply dns_failure_dbls; eauto).
    assert (Hdt : dbls tls = []) by (destruct Htls as [-> |[-> | ->]]; reflexivity).
    assert (Hdn : forall x, dbls (match prop_of x (B "note") with [] => [] | note => [FSmtplog (n_prefix cn ++ B "! rule note: " ++ note ++ [ch_nl])] end) = [])
      by (intros x; destruct (prop_of x (B "note")); reflexivity).
    assert (Hm4 : remembers_hits s4).
    { unfold remembers_hits in *. rewrite El4, El3, Hm2, Eo4, Eo3, !dbls_app, !dbls_rev, Hdom, Hdt, Hdn. reflexivity. }
    assert (Hfin : exists ans, Forall nohit ans /\ s_out s' = ans ++ s_out s4 /\ s_ctx s' = s_ctx s4 /\ x_lastmsg (s_tx s') = x_lastmsg (s_tx s4) /\ x_lastamsg (s_tx s') = x_lastamsg (s_tx s4)).
    { clear -H. destruct (is_good res) eqn:Eg.
      - exists []. destruct res; try discriminate; sinv H; auto.
      - assert (H' : sbind (uptx (put_lastgood false)) (fun _ =>
          if peqb ph pConnect then sret (match res with aReject => true | _ => false end)
          else sbind (withprop (B "message")) (fun msg => sbind (refusal res ph id msg) (fun _ => sret true))) s4 = Ok (b, s'))
        by (destruct res; try discriminate Eg; exact H). clear H. rename H' into H.
        apply sbind_ok in H as (u & sa & H1 & H). sapp uptx_ok H1.
        destruct (peqb ph pConnect) eqn:Ep; [sinv H; exists []; auto|].
        apply sbind_ok in H as (msg & sa & H1 & H). unfold withprop in H1. sapp @sget_ok H1.
        apply sbind_ok in H as (u5 & s5 & H1 & H). sinv H.
        assert (ph <> pConnect) by (intros ->; discriminate).
        apply refusal_spec in H1 as (Hr & ->); auto. eexists [_]. split; [|repeat split]. repeat constructor. }
    destruct Hfin as (ans & Ha & Eo' & Ec' & El' & Ef'). exists res, (hits ++ dns ++ note_told (n_prefix cn) d ++ tls), ans.
    rewrite Ec', Ec. fold d.
    assert (HTold : Told I s d (hits ++ dns ++ note_told (n_prefix cn) d ++ tls)).
    { exists hits, dns, tls. split; [reflexivity|]. split; [|split; auto].
      unfold last_told in HT |- *. cbn [s_out add_out upd_tx s_ctx] in HT. exact HT. }
    split; [exact HTold|split; [exact Ha|split]].
    - rewrite Eo', Eo. reflexivity.
    - split; [unfold remembers_hits in *; rewrite El', Hm4, Eo', dbls_app, (nohit_dbls ans Ha); reflexivity|].
      apply remembers_failure_line. intros Hlog. rewrite Ef', Ef4, (Ef3 Hlog). f_equal. unfold last_failure.
      change (FDecide d :: s_out s) with ([FDecide d] ++ s_out s) in Eo. rewrite Eo', Eo, !failures_app, (nohit_failures ans Ha), (Told_failures _ _ _ _ HTold).
      cbn [app failures flat_map]. destruct (d_domerr d); reflexivity.
  Qed.

  (** ** Around the decision *)

  Definition same_last (s s' : sess) : Prop := x_lastmsg (s_tx s') = x_lastmsg (s_tx s) /\ x_lastamsg (s_tx s') = x_lastamsg (s_tx s).
  Lemma same_last_refl s : same_last s s.
  Proof. split; reflexivity. Qed.
  Lemma same_last_trans a b c : same_last a b -> same_last b c -> same_last a c.
  Proof. intros [] []. split; congruence. Qed.
  Lemma nohit_remembers I l s s' : Forall nohit l -> s_out s' = l ++ s_out s -> same_last s s' -> remembers I s -> remembers I s'.
  Proof.
    intros Hl Eo [E1 E2] [H1 H2]. split; unfold remembers_hits, remembers_failure in *; [rewrite E1, Eo, dbls_app, (nohit_dbls l Hl)|rewrite E2, Eo, failures_app, (nohit_failures l Hl)]; auto.
  Qed.
  Hint Extern 1 (same_last _ _) => (split; reflexivity) : core.
  Definition calm {A} (m : S' A) : Prop := forall s a s', m s = Ok (a, s') ->
    exists l, Forall nohit l /\ s_out s' = l ++ s_out s /\ (hits_ok (s_ctx s) -> hits_ok (s_ctx s')) /\ same_last s s'.
  Lemma calm_ret {A} (a : A) : calm (sret a).
  Proof. intros s x s' H. sinv H. exists []. auto. Qed.
  Lemma calm_get {A} (f : sess -> A) : calm (sget f).
  Proof. intros s x s' H. sapp @sget_ok H. exists []. auto. Qed.
  Lemma calm_gettx {A} (f : tx -> A) : calm (gettx f).
  Proof. intros s x s' H. sapp @gettx_ok H. exists []. auto. Qed.
  Lemma calm_index : calm index.
  Proof. intros s x s' H. sapp index_ok H. exists []. auto. Qed.
  Lemma calm_crash {A} : calm (@scrash A).
  Proof. intros s x s' H. discriminate. Qed.
  Lemma calm_emit e : nohit e -> calm (emit e).
  Proof. intros He s x s' H. sapp emit_ok H. exists [e]. auto. Qed.
  Lemma calm_uptx f : (forall t, x_lastmsg (f t) = x_lastmsg t /\ x_lastamsg (f t) = x_lastamsg t) -> calm (uptx f).
  Proof. intros Hf s x s' H. sapp uptx_ok H. exists []. split; auto. split; auto. split; auto. exact (Hf _). Qed.
  Lemma calm_got : calm put_got.
  Proof. intros s x s' H. sapp put_got_ok H. exists []. auto. Qed.
  Lemma calm_counts b : calm (put_counts b).
  Proof. intros s x s' H. sapp put_counts_ok H. exists []. auto. Qed.
  Lemma calm_bind {A B} (m : S' A) (f : A -> S' B) : calm m -> (forall a, calm (f a)) -> calm (sbind m f).
  Proof.
    intros Hm Hf s b s' H. apply sbind_ok in H as (a & s1 & H1 & H).
    destruct (Hm _ _ _ H1) as (l & Hl & E1 & E2 & E3). destruct (Hf _ _ _ _ H) as (l' & Hl' & E4 & E5 & E6).
    exists (l' ++ l). split; [apply Forall_app; auto|]. rewrite E4, E1, app_assoc. split; auto. split; [auto|eapply same_last_trans; eauto].
  Qed.
  Lemma calm_tlscfg b : calm (put_tlscfg b).
  Proof. intros s x s' H. sapp put_tlscfg_ok H. exists []. auto. Qed.
  Lemma calm_ext {A} (x : X A) : calm (inctx (ext x)).
  Proof.
    intros s a s' H. apply inctx_ok in H as (c & H & ->). exists []. cbn [s_out s_ctx s_tx]. split; auto. split; auto. split; auto.
    unfold ext in H. destruct (x _) as [a' tr]. injection H as <- <-. exact (fun H => H).
  Qed.
  Lemma calm_lift {A} (o : outcome A) : calm (slift o).
  Proof. intros s a s' H. apply slift_ok in H as [_ ->]. exists []. auto. Qed.
  Lemma calm_when b m : calm m -> calm (when_ b m).
  Proof. destruct b; auto. intros _. apply calm_ret. Qed.
  Lemma calm_if {A} (b : bool) (m n : S' A) : calm m -> calm n -> calm (if b then m else n).
  Proof. destruct b; auto. Qed.
  Lemma calm_event n : calm (event n).
  Proof. apply calm_emit. exact Logic.I. Qed.
  Lemma calm_minphase p : calm (minphase K p).
  Proof. apply calm_when, calm_got. Qed.

  Ltac calm1 := first
    [ apply calm_ret | apply calm_get | apply calm_gettx | apply calm_index | apply calm_crash | apply calm_event | apply calm_minphase
    | apply calm_got | apply calm_counts | apply calm_tlscfg | apply calm_ext | apply calm_lift | apply calm_emit; exact Logic.I | apply calm_uptx; intros; split; reflexivity
    | apply calm_when | apply calm_if | apply calm_bind; [|intros] ].

  Lemma calm_writeLog I x : calm (writeLog cn I x).
  Proof. unfold writeLog, logwrite. repeat calm1. Qed.
  Lemma calm_doAccept id : calm (doAccept id).
  Proof. unfold doAccept, withprop. repeat calm1. Qed.
  Lemma calm_verify t : calm (tlsTryVerify E t).
  Proof. unfold tlsTryVerify. destruct (ts_chains t); [|calm1]. destruct (ts_peers t); repeat calm1. Qed.
  Lemma calm_tlslog I t : calm (tlsClientLog E cn I t).
  Proof. unfold tlsClientLog. destruct (ts_peers t); [calm1|]. calm1; [apply calm_verify|apply calm_writeLog]. Qed.
  Lemma calm_yakAdd : calm (yakAdd K E cn).
  Proof. unfold yakAdd. calm1; [calm1|]. cbv zeta. repeat calm1. Qed.
  Lemma calm_notePeer t : calm (notePeer E t).
  Proof.
    unfold notePeer. destruct (ts_chains t) as [|[|]]; [|calm1|calm1]. destruct (ts_peers t); [calm1|]. calm1; [apply calm_verify|calm1].
  Qed.
  Lemma calm_saveFile path m : calm (saveFile E path m).
  Proof.
    unfold saveFile. calm1; [calm1|]. cbv zeta. calm1; [calm1|]. destruct (v_open E _ path); repeat calm1.
    - destruct (v_write E _ path); calm1.
    - destruct (v_close E _); repeat calm1.
  Qed.
  Lemma calm_handleMessage : calm (handleMessage K E cn).
  Proof.
    unfold handleMessage. repeat calm1. destruct (msgDetails _ _ _). destruct (saveName _ _ _ _); [|calm1]. calm1; [apply calm_saveFile|calm1].
  Qed.

  (** A turn: with a decision, or without. *)
  Definition TurnTold (I : sinfo) (s s' : sess) : Prop :=
    (exists l, Forall nohit l /\ s_out s' = l ++ s_out s /\ remembers I s') \/
    (exists d pre told post, Forall nohit pre /\ Forall nohit post /\ Told I s d told /\
       s_out s' = post ++ rev told ++ FDecide d :: pre ++ s_out s /\ remembers I s').

  Lemma calm_TurnTold {A} (m : S' A) I s a s' : calm m -> remembers I s -> m s = Ok (a, s') -> TurnTold I s s'.
  Proof.
    intros Hm Hr H. left. destruct (Hm _ _ _ H) as (l & Hl & Eo & _ & El). exists l. split; auto. split; auto. eapply nohit_remembers; eauto.
  Qed.
  Lemma decider_TurnTold {A B} (m : S' A) I ph e (id : A -> bytes) (f : A -> bool -> S' B) s b s' :
    calm m -> (forall a r, calm (f a r)) -> hits_ok (s_ctx s) -> remembers I s ->
    sbind m (fun a => sbind (decider E cn I ph e (id a)) (f a)) s = Ok (b, s') -> TurnTold I s s'.
  Proof.
    intros Hm Hf Hh Hr H. right. apply sbind_ok in H as (a & s1 & H1 & H). apply sbind_ok in H as (r & s2 & H2 & H).
    destruct (Hm _ _ _ H1) as (pre & Hpre & Eo1 & Ec1 & El1).
    assert (Hr1 : remembers I s1) by (eapply (nohit_remembers I pre); eauto).
    destruct (decider_told _ _ _ _ _ _ _ (Ec1 Hh) Hr1 H2) as (res & told & ans & HT & Ha & Eo2 & Hr2).
    destruct (Hf _ _ _ _ _ H) as (post & Hpost & Eo3 & _ & El3).
    eexists _, pre, told, (post ++ ans). split; [exact Hpre|]. split; [apply Forall_app; auto|]. split; [|split].
    - destruct HT as (hits & dns & tls & El & HT & Hd & Ht). exists hits, dns, tls. split; [exact El|].
      unfold last_told, last_failure in *. rewrite Eo1, dbls_app, (nohit_dbls pre Hpre) in HT. rewrite Eo1, failures_app, (nohit_failures pre Hpre) in Hd. auto.
    - rewrite Eo3, Eo2, Eo1, <- !app_assoc. reflexivity.
    - eapply (nohit_remembers I post); eauto.
  Qed.

  Lemma TurnTold_pre I l s s1 s' : Forall nohit l -> s_out s1 = l ++ s_out s -> TurnTold I s1 s' -> TurnTold I s s'.
  Proof.
    intros Hl Eo [(l' & Hl' & Eo' & Hr)|(d & pre & told & post & H1 & H2 & HT & Eo' & Hr)].
    - left. exists (l' ++ l). split; [apply Forall_app; auto|]. split; auto. rewrite Eo', Eo. apply app_assoc.
    - right. exists d, (pre ++ l), told, post. split; [apply Forall_app; auto|]. split; auto. split; [|split; auto].
      + destruct HT as (hits & dns & tls & El & HT & Hd & Ht). exists hits, dns, tls. split; [exact El|].
        unfold last_told, last_failure in *. rewrite Eo, dbls_app, (nohit_dbls l Hl) in HT. rewrite Eo, failures_app, (nohit_failures l Hl) in Hd. auto.
      + rewrite Eo', Eo, <- !app_assoc. reflexivity.
  Qed.
  Lemma TurnTold_post {A} (m : S' A) I s s1 a s' : calm m -> TurnTold I s s1 -> m s1 = Ok (a, s') -> TurnTold I s s'.
  Proof.
    intros Hm HT H. destruct (Hm _ _ _ H) as (l & Hl & Eo & _ & El).
    assert (Hr : remembers I s1 -> remembers I s') by (eapply nohit_remembers; eauto).
    destruct HT as [(l' & Hl' & Eo' & Hr')|(d & pre & told & post & H1 & H2 & HT & Eo' & Hr')].
    - left. exists (l ++ l'). split; [apply Forall_app; auto|]. split; auto. rewrite Eo, Eo'. apply app_assoc.
    - right. exists d, pre, told, (l ++ post). split; auto. split; [apply Forall_app; auto|]. split; auto. split; auto.
      rewrite Eo, Eo', <- !app_assoc. reflexivity.
  Qed.
  Lemma calm_remembers {A} (m : S' A) I s a s' : calm m -> m s = Ok (a, s') -> remembers I s -> remembers I s'.
  Proof.
    intros Hm H Hr. destruct (Hm _ _ _ H) as (l & Hl & Eo & _ & El). eapply nohit_remembers; eauto.
  Qed.
  (** a calm computation before *)
  Lemma TurnTold_bind {A B} (m : S' A) (f : A -> S' B) I s b s' : calm m -> hits_ok (s_ctx s) -> remembers I s ->
    (forall a s1, hits_ok (s_ctx s1) -> remembers I s1 -> f a s1 = Ok (b, s') -> TurnTold I s1 s') ->
    sbind m f s = Ok (b, s') -> TurnTold I s s'.
  Proof.
    intros Hm Hh Hr Hf H. apply sbind_ok in H as (a & s1 & H1 & H). pose proof (calm_remembers _ I _ _ _ Hm H1 Hr) as Hr1.
    destruct (Hm _ _ _ H1) as (l & Hl & Eo & Ec & El). eapply TurnTold_pre; [exact Hl|exact Eo|]. eapply Hf; eauto.
  Qed.
  Lemma TurnTold_decide {B} I ph e id (f : bool -> S' B) s b s' : (forall r, calm (f r)) -> hits_ok (s_ctx s) -> remembers I s ->
    sbind (decider E cn I ph e id) f s = Ok (b, s') -> TurnTold I s s'.
  Proof.
    intros Hf Hh Hr H. apply (decider_TurnTold (sret tt) I ph e (fun _ => id) (fun _ => f) s b s'); auto. apply calm_ret.
  Qed.

  Lemma step_TurnTold I ev tls s n s' : hits_ok (s_ctx s) -> remembers I s -> step K E cn I (ev, tls) s = Ok (n, s') -> TurnTold I s s'.
  Proof.
    intros Hh Hr H. unfold step in H. destruct ev.
    - unfold onHelo in H. eapply TurnTold_bind; [apply calm_event|auto|auto| |exact H]. intros a s1 Hh1 Hr1 H1. cbv beta in H1.
      eapply TurnTold_decide; [|auto|auto|exact H1]. intros r. repeat calm1. apply calm_tlslog.
    - unfold onMailFrom in H. eapply TurnTold_bind; [apply calm_event|auto|auto| |exact H]. intros a s1 Hh1 Hr1 H1. cbv beta in H1.
      eapply TurnTold_decide; [|auto|auto|exact H1]. intros r. repeat (first [calm1|apply calm_yakAdd|apply calm_doAccept|apply calm_writeLog]).
    - unfold onRcptTo in H. eapply TurnTold_bind; [apply calm_event|auto|auto| |exact H]. intros a s1 Hh1 Hr1 H1. cbv beta in H1.
      eapply TurnTold_decide; [|auto|auto|exact H1]. intros r. repeat (first [calm1|apply calm_doAccept]).
    - unfold onData in H. eapply TurnTold_bind; [apply calm_event|auto|auto| |exact H]. intros a s1 Hh1 Hr1 H1. cbv beta in H1.
      eapply TurnTold_decide; [|auto|auto|exact H1]. intros r. repeat (first [calm1|apply calm_doAccept]).
    - unfold onGotData in H.
      repeat (eapply TurnTold_bind in H; [exact H| |exact Hh|exact Hr|]; [repeat (first [apply calm_notePeer|apply calm_handleMessage|calm1])|];
              clear s Hh Hr H; let a := fresh "x" in intros a s Hh Hr H; cbv beta zeta in H).
      match goal with p : (bytes * option bytes)%type |- _ => destruct p as [transid [err|]] end.
      + eapply calm_TurnTold; [|exact Hr|exact H]. repeat calm1.
      + apply sbind_ok in H as (u & s1 & H1 & H).
        eapply (TurnTold_post (updateTime cn (B "message");; sret Go)); [repeat calm1| |exact H].
        eapply TurnTold_decide; [|auto|auto|exact H1]. intros r. repeat (first [calm1|apply calm_doAccept]).
    - eapply calm_TurnTold; [|exact Hr|exact H]. unfold onTlsError, notlsAdd. repeat calm1.
    - eapply calm_TurnTold; [|exact Hr|exact H]. repeat calm1.
    - eapply calm_TurnTold; [|exact Hr|exact H]. repeat calm1.
    - eapply calm_TurnTold; [|exact Hr|exact H]. repeat calm1.
  Qed.

  Lemma setup_TurnTold o s : setup K E cn (sess0 K) = Ok (o, s) ->
    exists I, TurnTold I (sess0 K) s /\ match o with Some I' => I' = I | None => True end.
  Proof.
    intros H. unfold setup in H.
    assert (Hh : hits_ok (s_ctx (sess0 K))) by (split; split; try constructor; intros d []).
    assert (Hr : forall I, remembers I (sess0 K)) by (intros I; split; [reflexivity|intros _; reflexivity]).
    assert (Hset : calm (setupClient K E cn)).
    { unfold setupClient. calm1; [calm1|]. destruct (setupRules _ _ _ _ _) as [rr|]; [|calm1].
      calm1; [destruct (rr_warning rr); repeat calm1|]. calm1; [calm1|]. calm1; [unfold yakLookup; calm1; [calm1|]; destruct (v_lookup E _); repeat calm1|].
      match goal with p : (bool * Z)%type |- _ => destruct p as [hit cnt] end.
      unfold updateTime, yakLog. repeat calm1. }
    assert (Hloc : calm (localName K E cn)).
    { unfold localName. calm1; [calm1|]. calm1; [calm1|]. destruct a as [[|n ns]|e]; try calm1. destruct (last_byte n); calm1. }
    assert (Hpar : forall x, calm (connParams K E cn x)).
    { intros x. unfold connParams. calm1; [calm1|]. calm1; [calm1|]. calm1; [calm1|]. destruct a0; repeat calm1. }
    assert (Hcon : forall i a b, calm (setupConn K E cn i a b)).
    { intros i a b. unfold setupConn. calm1; [unfold notlsLookup; calm1; [calm1|]; destruct (v_lookup E _); repeat calm1|].
      match goal with p : (bool * Z)%type |- _ => destruct p as [hit cnt] end. cbv zeta. repeat calm1. }
    apply sbind_ok in H as (inf & s1 & H1 & H). exists inf. split.
    - pose proof (calm_remembers _ inf _ _ _ Hset H1 (Hr inf)) as Hr1. destruct (Hset _ _ _ H1) as (l & Hl & Eo & Ec & _).
      eapply TurnTold_pre; [exact Hl|exact Eo|]. specialize (Ec Hh). clear Hh Hr H1 Eo. rename Ec into Hh, Hr1 into Hr.
      repeat (eapply TurnTold_bind in H; [exact H| |exact Hh|exact Hr|];
              [first [apply Hloc|apply Hpar|apply Hcon|calm1]|];
              clear s1 Hh Hr H; let a := fresh "x" in intros a s1 Hh Hr H; cbv beta zeta in H; try (let b := fresh "x" in let c := fresh "x" in destruct a as [b c]; [])).
      eapply TurnTold_decide; [|auto|auto|exact H]. intros rr. repeat (first [apply calm_writeLog|calm1]).
    - destruct o as [I'|]; auto. 
      repeat (let a := fresh "x" in let s2 := fresh "s" in let Ha := fresh "H" in apply sbind_ok in H as (a & s2 & Ha & H); try (let b := fresh "x" in let c := fresh "x" in destruct a as [b c]; [])).
      match type of H with (if ?r then _ else _) _ = _ => destruct r end; [apply sbind_ok in H as (i & s7 & H9 & H); apply sbind_ok in H as (u & s8 & H10 & H); sinv H; discriminate|sinv H; congruence].
  Qed.

  Lemma session_hits_ok W rules tr0 h c : session W rules tr0 h c -> hits_ok c.
  Proof.
    induction 1 as [|h c T ph e a c' Hs IH Hd]; [split; split; try constructor; intros d []|].
    eapply dsteps_hits; [eapply druns_Decide; eauto|exact IH].
  Qed.

  (** ** C70 *)

  Lemma Conv_remembers I h s : Conv K E cn I h s -> hits_ok (s_ctx s) /\ remembers I s.
  Proof.
    intros HC. split; [destruct (Conv_session _ _ _ _ _ _ HC) as (tr0 & Hs); eapply session_hits_ok; eauto|].
    induction HC as [s Hs|h s ev tls s' did HC IH Hst Ha].
    - apply setup_TurnTold in Hs as (I' & [(l & _ & _ & Hr)|(d & pre & told & post & _ & _ & _ & _ & Hr)] & ->); auto.
    - assert (Hh : hits_ok (s_ctx s)) by (destruct (Conv_session _ _ _ _ _ _ HC) as (tr0 & Hs); eapply session_hits_ok; eauto).
      apply (step_TurnTold I ev tls s Go s' Hh IH) in Hst as [(l & _ & _ & Hr)|(d & pre & told & post & _ & _ & _ & _ & Hr)]; auto.
  Qed.

  (** For every command: either the rules were not asked and nothing is said or
      counted about blocklists, or they were asked once and what is said and
      counted is right for that decision and what was said before. *)
  Theorem C70_hits_logged I h t n s s' : Turn K E cn I h t n s s' ->
    Forall nohit (t_did t) \/
    exists d pre told post, t_did t = pre ++ FDecide d :: told ++ post /\ Forall nohit pre /\ Forall nohit post /\ Told I s d told.
  Proof.
    intros (HC & Hst & Ha). destruct (Conv_remembers _ _ _ HC) as (Hh & Hr). unfold after in Ha.
    apply (step_TurnTold I _ _ s n s' Hh Hr) in Hst as [(l & Hl & Eo & _)|(d & pre & told & post & Hp & Hq & Ht & Eo & _)].
    - left. rewrite Eo in Ha. apply app_inv_tail in Ha. rewrite <- (rev_involutive (t_did t)), <- Ha. apply Forall_rev. exact Hl.
    - right. exists d, (rev pre), told, (rev post).
      split; [|split; [apply Forall_rev; auto|split; [apply Forall_rev; auto|exact Ht]]].
      apply (f_equal (@rev effect)) in Ha. rewrite Eo in Ha. change (FDecide d :: pre ++ s_out s) with ([FDecide d] ++ pre ++ s_out s) in Ha.
      rewrite !rev_app_distr, !rev_involutive, <- !app_assoc in Ha. apply app_inv_head in Ha. rewrite <- Ha. reflexivity.
  Qed.
  (** The same for the rules asked when the client connects; nothing was said
      before. *)
  Theorem C70_connect_logged o s : setup K E cn (sess0 K) = Ok (o, s) ->
    exists I d pre told post, rev (s_out s) = pre ++ FDecide d :: told ++ post /\ Forall nohit pre /\ Forall nohit post /\
      (exists hits dns tls, told = hits ++ dns ++ note_told (n_prefix cn) d ++ tls /\
        Tells (n_prefix cn) (n_rip cn) answered (si_log I) None (d_hits d) hits /\ dns_failure (n_prefix cn) (si_log I) None (d_domerr d) dns /\ tls_change tls) /\
      match o with Some I' => I' = I | None => True end.
  Proof.
    intros Hs. pose proof (setup_TurnTold _ _ Hs) as (I & [(l & Hl & Eo & _)|(d & pre & told & post & Hp & Hq & Ht & Eo & _)] & HI).
    - exfalso. apply setup_Setup in Hs. apply Setup_session in Hs as (rr & st & tr0 & c & T & res & _ & _ & _ & Hd & _).
      cbn [s_out sess0] in Eo. rewrite app_nil_r in Eo. rewrite Eo in Hd. clear - Hl Hd.
      assert (decisions l = []) as Hn; [|rewrite Hn in Hd; discriminate].
      clear Hd. induction Hl as [|e l H]; auto. destruct e; simpl in *; tauto.
    - exists I, d, (rev pre), told, (rev post). split; [|split; [apply Forall_rev; auto|split; [apply Forall_rev; auto|split; [exact Ht|exact HI]]]].
      rewrite Eo. cbn [s_out sess0]. rewrite app_nil_r. change (FDecide d :: pre) with ([FDecide d] ++ pre).
      rewrite !rev_app_distr, !rev_involutive, <- !app_assoc. reflexivity.
  Qed.

  (** The same line is never logged and counted twice in a row. *)
  Theorem C70_not_repeated I h s a x y b : Conv K E cn I h s -> dbls (s_out s) = a ++ x :: y :: b -> hit_line x <> hit_line y.
  Proof.
    intros HC. revert a x y b.
    assert (step_ok : forall I s s', TurnTold I s s' ->
      (forall a x y b, dbls (s_out s) = a ++ x :: y :: b -> hit_line x <> hit_line y) ->
      forall a x y b, dbls (s_out s') = a ++ x :: y :: b -> hit_line x <> hit_line y).
    { clear. intros I s s' [(l & Hl & Eo & _)|(d & pre & told & post & Hp & Hq & (hits & dns & tls & -> & Ht & Hdns & Htls) & Eo & _)] IH a x y b E1.
      - rewrite Eo, dbls_app, (nohit_dbls l Hl) in E1. eapply IH; eauto.
      - rewrite Eo, !dbls_app, (nohit_dbls _ Hq) in E1. change (FDecide d :: pre ++ s_out s) with ([FDecide d] ++ pre ++ s_out s) in E1.
        rewrite !dbls_rev, !dbls_app, (nohit_dbls _ Hp) in E1.
        assert (E2 : dbls dns = []) by (eapply dns_failure_dbls; eauto).
        assert (E3 : dbls tls = []) by (destruct Htls as [-> |[-> | ->]]; reflexivity).
        assert (E4 : dbls (note_told (n_prefix cn) d) = []) by (unfold note_told; destruct (option_of d (B "note")); reflexivity).
        rewrite E2, E3, E4 in E1. cbn [app dbls flat_map] in E1. fold (dbls hits) in E1. rewrite app_nil_r in E1.
        inversion Ht as [| | |names sbl Hlog Hne HS Hdiff Hsbl]; subst; cbn [dbls flat_map rev app] in E1; try (eapply IH; eauto; fail).
        assert (E5 : dbls sbl = []).
        { destruct (bmem _ _); [|subst; reflexivity]. destruct Hsbl as [? ? ? ? ? ? ? recs said ? ? ? ? ->]. destruct recs; reflexivity. }
        fold (dbls sbl) in E1. rewrite E5 in E1. cbn [rev app] in E1.
        destruct a as [|a0 a]; cbn [app] in E1; injection E1 as -> E1; [|eapply IH; eauto].
        apply Hdiff. unfold last_told. rewrite E1. reflexivity. }
    assert (H0 : forall a x y b, dbls (s_out (sess0 K)) = a ++ x :: y :: b -> hit_line x <> hit_line y).
    { intros [|? [|? a]]; discriminate. }
    induction HC as [s Hs|h s ev tls s' did HC IH Hst Ha].
    - apply setup_TurnTold in Hs as (I' & HT & _). eapply step_ok; eauto.
    - destruct (Conv_remembers _ _ _ HC) as (Hh & Hr). eapply step_ok; [|exact IH]. eapply step_TurnTold; eauto.
  Qed.

  (** Once the rules have been asked, the line logged last is that of the lists
      with hits. *)
  Theorem C70_up_to_date I h t n s s' d : Turn K E cn I h t n s s' -> In (FDecide d) (t_did t) -> si_log I = true -> d_hits d <> [] ->
    exists names last rest, Sorts (d_hits d) names /\ dbls (s_out s') = last :: rest /\ hit_line last = hit_line names.
  Proof.
    intros HT Hd Hlog Hne. pose proof (C70_hits_logged _ _ _ _ _ _ HT) as [Hn|(d' & pre & told & post & Et & Hp & Hq & HTold)].
    { rewrite Forall_forall in Hn. destruct (Hn _ Hd). }
    assert (d' = d).
    { rewrite Et in Hd. apply in_app_or in Hd as [Hd|[Hd|Hd]]; [rewrite Forall_forall in Hp; destruct (Hp _ Hd)|congruence|].
      exfalso. apply in_app_or in Hd as [Hd|Hd]; [eapply Told_quiet; eauto|].
      rewrite Forall_forall in Hq. destruct (Hq _ Hd). }
    destruct HTold as (hits & dns & tls & -> & Ht & Hdns & Htls).
    subst d'. destruct HT as (_ & _ & Ha). unfold after in Ha. rewrite Ha, Et, dbls_app, dbls_rev.
    change (FDecide d :: ?x) with ([FDecide d] ++ x). rewrite !dbls_app, (nohit_dbls _ Hp), (nohit_dbls _ Hq).
    assert (E2 : dbls dns = []) by (eapply dns_failure_dbls; eauto).
    assert (E3 : dbls tls = []) by (destruct Htls as [-> |[-> | ->]]; reflexivity).
    assert (E4 : dbls (note_told (n_prefix cn) d) = []) by (unfold note_told; destruct (option_of d (B "note")); reflexivity).
    rewrite E2, E3, E4. cbn [app]. rewrite !app_nil_r. change (dbls [FDecide d]) with (@nil (list bytes)). cbn [app].
    inversion Ht as [| |names before HS Hl El|names sbl _ _ HS Hdiff Hsbl]; subst; try congruence.
    - unfold last_told in Hl. destruct (dbls (s_out s)) as [|x rest] eqn:Ed; [discriminate|]. injection Hl as ->.
      exists names, before, rest. split; auto.
    - assert (E5 : dbls sbl = []).
      { destruct (bmem _ _); [|subst; reflexivity]. destruct Hsbl as [? ? ? ? ? ? ? recs said ? ? ? ? ->]. destruct recs; reflexivity. }
      exists names, names, (dbls (s_out s)). split; auto. split; auto. cbn [dbls flat_map]. fold (dbls sbl). rewrite E5. reflexivity.
  Qed.
End S.

(** ** Examples *)

(** Every client is on every blocklist, with two SBL records. *)
Definition listed_world : world :=
  {| w_uni := plain_unicode; w_file := fun _ _ => FNoent; w_ip := fun _ _ => inl [mk_v4 (127 * 2 ^ 24 + 2)];
     w_mx := w_mx demo_world; w_addr := fun _ _ => inl []; w_order := fun _ l => rev l; w_ipstr := fun _ => B "127.0.0.2" |}.
Definition listed_env : senv :=
  mkEnv listed_world 10 nofs 0 (fun _ _ => inr []) (fun _ => (false, 0%Z)) (fun _ => 1%Z) (fun _ => B "2026") (fun _ => B "now")
    (fun _ n => if beqb n (B "7.2.0.192.sbl.spamhaus.org.") then Some [B "https://q/sbl/SBL7"; B "none/"; B "x/SBL5"] else None)
    (fun _ _ => OpOk) (fun _ _ => WrOk) (fun _ => None) (fun d => B "H" ++ d) (fun d => MBody d) (fun _ _ _ => None).
Definition hit_rules : list rule := text_rules (B "@from stall dnsbl b.example
@to reject to spam@ dnsbl sbl.spamhaus.org with note ""spammer""
").
Definition hit_effects (l : list effect) : list effect :=
  filter (fun e => match e with FSmtplog _ | FDbl _ | FSbl _ | FTxt _ => true | _ => false end) l.

(** A client on a list is stalled twice; it is logged and counted once. *)
Example C70_once : exists I h t n s s', Turn (demo_cfg hit_rules) listed_env demo_conn I h t n s s' /\
  (map (fun u => hit_effects (t_did u)) h, hit_effects (t_did t), map d_hits (decisions (t_did t))) =
  ([[FSmtplog (B "7/1! dnsbl hit: b.example." ++ [ch_nl]); FDbl [B "b.example."]]; []], [], [[B "b.example."]]).
Proof.
  apply (turn_example _ _ _ (plain [EvHelo EHLO (B "h"); EvMailFrom (B "a@b.c")]) (EvMailFrom (B "d@e.f")) no_tls
    (fun I h t n s s' => (map (fun u => hit_effects (t_did u)) h, hit_effects (t_did t), map d_hits (decisions (t_did t))))).
  vm_compute. reflexivity.
Qed.
(** Another list then: it and the SBL records are logged in order, and the
    rule's note. *)
Example C70_sbl : exists I h t n s s', Turn (demo_cfg hit_rules) listed_env demo_conn I h t n s s' /\
  (hit_effects (t_did t), dbls (s_out s')) =
  ([FSmtplog (B "7/1! dnsbl hit: sbl.spamhaus.org." ++ [ch_nl]); FDbl [B "sbl.spamhaus.org."];
    FTxt (B "7.2.0.192.sbl.spamhaus.org."); FSmtplog (B "7/1! SBL records: SBL5 SBL7" ++ [ch_nl]); FSbl [B "SBL5"; B "SBL7"];
    FSmtplog (B "7/1! rule note: spammer" ++ [ch_nl])],
   [[B "sbl.spamhaus.org."]; [B "b.example."]]).
Proof.
  apply (turn_example _ _ _ (plain [EvHelo EHLO (B "h"); EvMailFrom (B "a@b.c"); EvRcptTo (B "jim@x.y")]) (EvRcptTo (B "spam@x.y")) no_tls
    (fun I h t n s s' => (hit_effects (t_did t), dbls (s_out s')))).
  vm_compute. reflexivity.
Qed.
