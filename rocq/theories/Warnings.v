(** What a session writes to standard error is true, and nothing that should
    be there is missing (C80). *)
From Coq Require Import Lia.
From Verif Require Import PropsParse.
From Verif Require Import Bytes Outcome Lexer Ast GoNet Parser Grammar World Dns Eval Decisions PropsEval PropsSafe
  RuleLoad PropsLoad ConnCfg PropsAttr PropsConn Message Session SessProofs Conv DemoSession Startup PropsStart Errors StartErrors.

(** ** Specification *)

(** what concerns files and warnings among what a session does *)
Definition is_report (e : effect) : bool :=
  match e with FWarn _ | FOpen _ _ | FWrite _ _ _ | FClose _ _ => true | _ => false end.
Definition reports (l : list effect) : list effect := filter is_report l.

(** Saving a message, with what is said about it. *)
Inductive Save : list effect -> Prop :=
| Sa_exists p : Save [FOpen p OpExists]
| Sa_noopen p e : Save [FOpen p (OpErr e); FWarn (B "error writing message file: " ++ e ++ [ch_nl])]
| Sa_open p m w c : Save ([FOpen p OpOk; FWrite p m w] ++
    match w with WrOk => [] | WrErr _ e => [FWarn (B "error writing message file: " ++ e ++ [ch_nl])] end ++
    [FClose p c] ++
    match c with None => [] | Some e => [FWarn (B "error closing message file: " ++ e ++ [ch_nl])] end).

(** Rule files: either all can be loaded, or there is a warning about the
    first that cannot. *)
Inductive RulesReport (K : config) (E : senv) : list effect -> Prop :=
| RR_good parts t' : LoadsAll (v_fds E) (v_rfs E) (v_tick E) (k_rulefiles K) parts t' -> RulesReport K E []
| RR_bad f txt : Blamed (v_fds E) (v_rfs E) (v_tick E) (k_rulefiles K) f txt ->
    RulesReport K E [FWarn (B "problem loading rules " ++ f ++ B ": " ++ txt ++ [ch_nl])].

(** The -conncfg file: it is not asked for, or every line is right, or there is
    a warning that it cannot be opened or about its first wrong line. *)
Inductive ConnReport (K : config) (E : senv) : list effect -> Prop :=
| CR_none : k_connfile K = [] -> ConnReport K E []
| CR_good i lines tail d : k_connfile K <> [] ->
    w_file (v_world E) i (k_connfile K) = FRead (end_lines lines ++ tail) false ->
    Forall (fun l => ~ In ch_nl l) lines -> ~ In ch_nl tail ->
    FileFor (w_uni (v_world E)) (v_keys E) lines d -> ConnReport K E []
| CR_open i : k_connfile K <> [] ->
    (forall content err, w_file (v_world E) i (k_connfile K) <> FRead content err) ->
    ConnReport K E [FWarn (B "error loading per-connection rules '" ++ k_connfile K ++ B "': open error" ++ [ch_nl])]
| CR_bad i lines tail err e : k_connfile K <> [] ->
    w_file (v_world E) i (k_connfile K) = FRead (end_lines lines ++ tail) err ->
    Forall (fun l => ~ In ch_nl l) lines -> ~ In ch_nl tail ->
    FileWrong (w_uni (v_world E)) (v_keys E) lines (if err then Some (B "read error") else None) e ->
    ConnReport K E [FWarn (B "error loading per-connection rules '" ++ k_connfile K ++ B "': " ++ e ++ [ch_nl])].

(** ** Sessions *)

Lemma reports_app a b : reports (a ++ b) = reports a ++ reports b.
Proof. unfold reports. induction a as [|x a IH]; cbn; auto. destruct (is_report x); cbn; now rewrite IH. Qed.
Lemma reports_rev l : reports (rev l) = rev (reports l).
Proof.
  induction l as [|e l IH]; auto. cbn [rev]. rewrite reports_app, IH. unfold reports. cbn [filter].
  destruct (is_report e); cbn [rev app filter]; auto. apply app_nil_r.
Qed.

Section Warnings.
  Context (K : config) (E : senv) (cn : conn).

  (** [m] only reports saves. *)
  Definition saves {A} (m : S' A) : Prop :=
    forall s a s', m s = Ok (a, s') -> exists ls, Forall Save ls /\ reports (s_out s') = rev (concat ls) ++ reports (s_out s).
  (** [m] reports nothing. *)
  Definition quiet {A} (m : S' A) : Prop :=
    forall s a s', m s = Ok (a, s') -> reports (s_out s') = reports (s_out s).
  Lemma quiet_saves {A} (m : S' A) : quiet m -> saves m.
  Proof. intros H s a s' Hm. exists []. split; [constructor|]. now apply H in Hm. Qed.
  Lemma quiet_same {A} (m : S' A) : (forall s a s', m s = Ok (a, s') -> s_out s' = s_out s) -> quiet m.
  Proof. intros H s a s' Hm. now rewrite (H _ _ _ Hm). Qed.
  Lemma quiet_ret {A} (a : A) : quiet (sret a).
  Proof. apply quiet_same. intros s x s' H. sinv H. reflexivity. Qed.
  Lemma quiet_get {A} (f : sess -> A) : quiet (sget f).
  Proof. apply quiet_same. intros s x s' H. sapp @sget_ok H. reflexivity. Qed.
  Lemma quiet_gettx {A} (f : tx -> A) : quiet (gettx f).
  Proof. apply quiet_same. intros s x s' H. sapp @gettx_ok H. reflexivity. Qed.
  Lemma quiet_index : quiet index.
  Proof. apply quiet_same. intros s x s' H. sapp index_ok H. reflexivity. Qed.
  Lemma quiet_crash {A} : quiet (@scrash A).
  Proof. intros s x s' H. discriminate. Qed.
  Lemma quiet_emit e : is_report e = false -> quiet (emit e).
  Proof. intros He s x s' H. sapp emit_ok H. unfold reports, add_out. cbn [s_out app filter]. now rewrite He. Qed.
  Lemma quiet_uptx f : quiet (uptx f).
  Proof. apply quiet_same. intros s x s' H. sapp uptx_ok H. reflexivity. Qed.
  Lemma quiet_got : quiet put_got.
  Proof. apply quiet_same. intros s x s' H. sapp put_got_ok H. reflexivity. Qed.
  Lemma quiet_counts b : quiet (put_counts b).
  Proof. apply quiet_same. intros s x s' H. sapp put_counts_ok H. reflexivity. Qed.
  Lemma quiet_tlscfg b : quiet (put_tlscfg b).
  Proof. apply quiet_same. intros s x s' H. sapp put_tlscfg_ok H. reflexivity. Qed.
  Lemma quiet_ctx {A} (m : M A) : quiet (inctx m).
  Proof. apply quiet_same. intros s x s' H. apply inctx_ok in H as (c & _ & ->). reflexivity. Qed.
  Lemma quiet_bind {A B} (m : S' A) (f : A -> S' B) : quiet m -> (forall a, quiet (f a)) -> quiet (sbind m f).
  Proof. intros Hm Hf s b s' H. apply sbind_ok in H as (a & s1 & H1 & H). now rewrite (Hf _ _ _ _ H), (Hm _ _ _ H1). Qed.
  Lemma quiet_if {A} (b : bool) (m n : S' A) : quiet m -> quiet n -> quiet (if b then m else n).
  Proof. destruct b; auto. Qed.
  Lemma quiet_when b m : quiet m -> quiet (when_ b m).
  Proof. destruct b; auto. intros _. apply quiet_ret. Qed.
  Lemma saves_bind {A B} (m : S' A) (f : A -> S' B) : saves m -> (forall a, saves (f a)) -> saves (sbind m f).
  Proof.
    intros Hm Hf s b s' H. apply sbind_ok in H as (a & s1 & H1 & H).
    apply Hf in H as (l2 & H2 & E2). apply Hm in H1 as (l1 & H1 & E1). exists (l1 ++ l2). split; [now apply Forall_app|].
    rewrite E2, E1, concat_app, rev_app_distr, app_assoc. reflexivity.
  Qed.

  Ltac quiet1 := lazymatch goal with
    | |- quiet (sret _) => apply quiet_ret
    | |- quiet (sget _) => apply quiet_get
    | |- quiet (gettx _) => apply quiet_gettx
    | |- quiet index => apply quiet_index
    | |- quiet scrash => apply quiet_crash
    | |- quiet put_got => apply quiet_got
    | |- quiet (put_counts _) => apply quiet_counts
    | |- quiet (put_tlscfg _) => apply quiet_tlscfg
    | |- quiet (inctx _) => apply quiet_ctx
    | |- quiet (uptx _) => apply quiet_uptx
    | |- quiet (Session.emit _) => apply quiet_emit; reflexivity
    | |- quiet (when_ _ _) => apply quiet_when
    | |- quiet (if _ then _ else _) => apply quiet_if
    | |- quiet (sbind _ _) => apply quiet_bind; [|intros]
    end.
  Ltac quiet_all := repeat (quiet1; cbv zeta).

  Lemma quiet_sbls hits : quiet (logSbls E cn hits).
  Proof.
    induction hits as [|h hits IH]; cbn [logSbls]; [quiet1|]. quiet1; [|exact IH]. apply quiet_if; [|quiet1]. quiet1.
    - unfold getSBLHits. destruct (split_byte _ _) as [|? [|? [|? [|? ?]]]]; quiet_all.
    - destruct a as [|r rs]; unfold logwrite; quiet_all.
  Qed.
  Lemma quiet_decider I ph e id : quiet (decider E cn I ph e id).
  Proof.
    unfold decider. quiet1; [quiet1|]. quiet1; [quiet1|]. quiet1; [quiet1|]. quiet1; [quiet1|]. quiet1; [|quiet1; [|quiet1; [|]]].
    - unfold logDnsbls, logwrite. quiet1; [quiet1|]. destruct a3 as [|h0 hs]; [quiet1|]. cbv zeta. quiet_all. apply quiet_sbls.
    - unfold logDomerr, logwrite. quiet1; [quiet1|]. destruct a4 as [x|]; quiet_all.
    - unfold applyProps, withprop, logwrite. quiet_all. destruct a10; quiet_all.
    - assert (Href : forall msg, quiet (refusal a0 ph id msg)) by (intros msg; unfold refusal, pluralRecips; destruct a0; quiet_all).
      destruct a0; unfold withprop; repeat (first [apply Href|quiet1]).
  Qed.
  Lemma quiet_doAccept id : quiet (doAccept id).
  Proof. unfold doAccept, withprop. quiet_all. Qed.
  Lemma quiet_writeLog I x : quiet (writeLog cn I x).
  Proof. unfold writeLog, logwrite. quiet_all. Qed.
  Lemma quiet_verify t : quiet (tlsTryVerify E t).
  Proof. unfold tlsTryVerify. destruct (ts_chains t); [|quiet1]. destruct (ts_peers t); quiet_all. Qed.
  Lemma quiet_tlslog I t : quiet (tlsClientLog E cn I t).
  Proof. unfold tlsClientLog. destruct (ts_peers t) as [|c cs]; [quiet1|]. quiet1; [apply quiet_verify|]. apply quiet_writeLog. Qed.
  Lemma quiet_notePeer t : quiet (notePeer E t).
  Proof. unfold notePeer. destruct (ts_chains t) as [|[|]]; [|quiet1|quiet1]. destruct (ts_peers t); [quiet1|]. quiet1; [apply quiet_verify|quiet1]. Qed.
  Lemma quiet_minphase p : quiet (minphase K p).
  Proof. unfold minphase. quiet_all. Qed.
  Lemma quiet_event n : quiet (event n).
  Proof. apply quiet_emit. reflexivity. Qed.
  Lemma quiet_yakAdd : quiet (yakAdd K E cn).
  Proof. unfold yakAdd. quiet_all. Qed.
  Lemma quiet_yakLog what : quiet (yakLog K E cn what).
  Proof. unfold yakLog. quiet_all. Qed.
  Lemma quiet_yakLookup : quiet (yakLookup K E cn).
  Proof. unfold yakLookup. quiet1; [quiet1|]. destruct (v_lookup E a). quiet_all. Qed.
  Lemma quiet_updateTime x : quiet (updateTime cn x).
  Proof. unfold updateTime. quiet_all. Qed.
  Ltac quiet_more := repeat lazymatch goal with
    | |- quiet (decider _ _ _ _ _ _) => apply quiet_decider
    | |- quiet (doAccept _) => apply quiet_doAccept
    | |- quiet (writeLog _ _ _) => apply quiet_writeLog
    | |- quiet (tlsClientLog _ _ _ _) => apply quiet_tlslog
    | |- quiet (notePeer _ _) => apply quiet_notePeer
    | |- quiet (minphase _ _) => apply quiet_minphase
    | |- quiet (event _) => apply quiet_event
    | |- quiet (yakAdd _ _ _) => apply quiet_yakAdd
    | |- quiet (yakLog _ _ _ _) => apply quiet_yakLog
    | |- quiet (yakLookup _ _ _) => apply quiet_yakLookup
    | |- quiet (updateTime _ _) => apply quiet_updateTime
    | |- _ => quiet1; cbv zeta
    end.

  Lemma saves_saveFile path m : saves (saveFile E path m).
  Proof.
    intros s r s' H. unfold saveFile in H. apply sbind_ok in H as (i & sa & H1 & H). sapp index_ok H1. cbn zeta in H.
    apply sbind_ok in H as (u & sa & H1 & H). sapp emit_ok H1.
    destruct (v_open E _ path) as [| |e]; cbn match in H.
    - apply sbind_ok in H as (i & sa & H1 & H). sapp index_ok H1. cbn zeta in H.
      apply sbind_ok in H as (u & sa & H1 & H). sapp emit_ok H1.
      apply sbind_ok in H as (u & s2 & H1 & H).
      destruct (v_write E _ path) as [|n e] eqn:Ew; sinv H1;
      apply sbind_ok in H as (u3 & sa & H1 & H); sapp emit_ok H1;
      apply sbind_ok in H as (i & sa & H1 & H); sapp index_ok H1; cbn zeta in H;
      apply sbind_ok in H as (u4 & sa & H1 & H); sapp emit_ok H1;
      match type of H with match v_close ?E0 ?i0 with _ => _ end _ = _ => destruct (v_close E0 i0) as [e'|]; sinv H end.
      + eexists [_]. split; [constructor; [apply (Sa_open path m WrOk (Some e'))|constructor]|reflexivity].
      + eexists [_]. split; [constructor; [apply (Sa_open path m WrOk None)|constructor]|reflexivity].
      + eexists [_]. split; [constructor; [apply (Sa_open path m (WrErr n e) (Some e'))|constructor]|reflexivity].
      + eexists [_]. split; [constructor; [apply (Sa_open path m (WrErr n e) None)|constructor]|reflexivity].
    - sinv H. eexists [_]. split; [constructor; [apply (Sa_exists path)|constructor]|reflexivity].
    - sinv H. eexists [_]. split; [constructor; [apply (Sa_noopen path e)|constructor]|reflexivity].
  Qed.
  Lemma saves_handle : saves (handleMessage K E cn).
  Proof.
    unfold handleMessage. apply saves_bind; [apply quiet_saves; quiet_more|]. intros t.
    apply saves_bind; [apply quiet_saves; quiet_more|]. intros _.
    destruct (beqb (x_savedir t) []); [apply quiet_saves; quiet_more|].
    destruct (msgDetails _ _ _). destruct (saveName _ _ _ _); [|apply quiet_saves; quiet_more].
    apply saves_bind; [apply saves_saveFile|]. intros err. apply quiet_saves. quiet_more.
  Qed.

  Lemma saves_step I ev : saves (step K E cn I ev).
  Proof.
    unfold step. destruct ev as [[] tls].
    - apply quiet_saves. unfold onHelo. quiet_more.
    - apply quiet_saves. unfold onMailFrom. quiet_more.
    - apply quiet_saves. unfold onRcptTo. quiet_more.
    - apply quiet_saves. unfold onData. quiet_more.
    - unfold onGotData. do 6 (apply saves_bind; [apply quiet_saves; quiet_more|intros]).
      apply saves_bind; [apply saves_handle|]. intros [transid err]. apply quiet_saves. quiet1; [|quiet_more]. destruct err; quiet_more.
    - apply quiet_saves. unfold onTlsError, notlsAdd. quiet_more.
    - apply quiet_saves. quiet_more.
    - apply quiet_saves. quiet_more.
    - apply quiet_saves. quiet_more.
  Qed.
  Lemma saves_loop I evs : saves (loop K E cn I evs).
  Proof.
    induction evs as [|ev evs IH]; cbn [loop]; [apply quiet_saves; quiet_more|].
    apply saves_bind; [apply saves_step|]. intros []; [exact IH|apply quiet_saves; quiet_more..].
  Qed.
  Lemma quiet_finish I : quiet (finish K E cn I).
  Proof.
    unfold finish. quiet_more. unfold yakSet. quiet_more.
  Qed.

  (** [m] reports a list of the kind [P]. *)
  Definition tells {A} (P : list effect -> Prop) (m : S' A) : Prop :=
    forall s a s', m s = Ok (a, s') -> exists l, P l /\ reports (s_out s') = rev l ++ reports (s_out s).
  Lemma tells_quiet {A B} P (m : S' A) (f : A -> S' B) : tells P m -> (forall a, quiet (f a)) -> tells P (sbind m f).
  Proof.
    intros Hm Hf s b s' H. apply sbind_ok in H as (a & s1 & H1 & H). apply Hf in H. apply Hm in H1 as (l & HP & E1).
    exists l. split; auto. congruence.
  Qed.
  Lemma quiet_tells {A B} P (m : S' A) (f : A -> S' B) : quiet m -> (forall a, tells P (f a)) -> tells P (sbind m f).
  Proof.
    intros Hm Hf s b s' H. apply sbind_ok in H as (a & s1 & H1 & H). apply Hm in H1. apply Hf in H as (l & HP & E1).
    exists l. split; auto. congruence.
  Qed.

  Lemma tells_setupClient : Forall (fun f => f <> []) (k_rulefiles K) -> tells (RulesReport K E) (setupClient K E cn).
  Proof.
    intros HF. unfold setupClient. apply quiet_tells; [quiet_more|intros _].
    destruct (C12_all_or_nothing (v_fds E) (v_rfs E) (v_tick E) (k_base K) (k_rulefiles K) HF) as (rr & Er & Hc). rewrite Er.
    apply tells_quiet.
    - destruct Hc as [(parts & t' & HL & Hg & _)|(_ & Hg & _ & f & e & _ & Hw)].
      + assert (Hw : rr_warning rr = None).
        { destruct (rr_warning rr) as [w|] eqn:Ew; auto. destruct (C79_rules_warning _ _ _ _ _ _ _ HF Er Ew) as [Hg' _]. congruence. }
        rewrite Hw. intros s a s' H. sinv H. exists []. split; [econstructor; eauto|reflexivity].
      + destruct (C79_rules_warning _ _ _ _ _ _ _ HF Er Hw) as (_ & f' & txt & Ew & HB). rewrite Hw, Ew.
        intros s a s' H. apply sbind_ok in H as (u & s1 & H1 & H). sapp emit_ok H1. apply quiet_event in H.
        exists [FWarn (B "problem loading rules " ++ f' ++ B ": " ++ txt ++ [ch_nl])]. split; [apply RR_bad; auto|]. rewrite H. reflexivity.
    - intros _. quiet_more. destruct a0 as [hit cnt]. quiet_more.
  Qed.

  Lemma quiet_localName : quiet (localName K E cn).
  Proof. unfold localName. quiet_more. destruct a as [[|n l]|]; quiet_more. destruct (last_byte n); quiet_more. Qed.

  Lemma tells_connParams sname : unicode_ok (w_uni (v_world E)) -> tells (ConnReport K E) (connParams K E cn sname).
  Proof.
    intros HU s a s' H. unfold connParams in H. destruct (beqb_spec (k_connfile K) []) as [Ek|Ek].
    { sinv H. exists []. split; [apply CR_none; auto|reflexivity]. }
    apply sbind_ok in H as (r & s1 & H1 & H). apply inctx_ok in H1 as (c & H1 & ->).
    apply sbind_ok in H as (dm & s2 & H2 & H). apply slift_ok in H2 as [-> ->].
    unfold ext, loadConnFile, read_file, ask, xbind, xret in H1.
    set (i := length (c_trace (s_ctx s))) in H1.
    destruct (w_file (v_world E) i (k_connfile K)) as [| |content err] eqn:Ef.
    1,2: assert (Hd : dm = inr (B "open error")) by congruence; rewrite Hd in H; sinv H;
         eexists [_]; split; [apply (CR_open K E i); auto; intros; congruence|reflexivity].
    destruct (text_lines content) as (lines & tail & -> & Hl & Ht).
    assert (Hc : conn_lines (w_uni (v_world E)) (v_keys E) 0 (nl_lines [] (end_lines lines ++ tail)) (if err then Some (B "read error") else None) = Ok dm) by congruence.
    clear H1. destruct dm as [d|e]; sinv H.
    - exists []. split; [|reflexivity]. destruct err; [exfalso; eapply C56_read_error; exact Hc|].
      apply C56_file in Hc; auto. eapply CR_good; eauto.
    - apply C79_connection_file in Hc; auto. eexists [_]. split; [eapply CR_bad; eauto|reflexivity].
  Qed.

  (** The reports of a session: about rule files, about the -conncfg file, then
      the messages saved.  Nothing else is said, and nothing is left out. *)
  Theorem C80_warnings evs s b s' : Forall (fun f => f <> []) (k_rulefiles K) -> unicode_ok (w_uni (v_world E)) ->
    process K E cn evs s = Ok (b, s') ->
    exists about_rules about_conns about_messages,
      reports (rev (s_out s')) = reports (rev (s_out s)) ++ about_rules ++ about_conns ++ concat about_messages /\
      RulesReport K E about_rules /\ ConnReport K E about_conns /\ Forall Save about_messages.
  Proof.
    intros HF HU H. unfold process in H. apply sbind_ok in H as (oI & s1 & H1 & H). unfold setup in H1.
    apply sbind_ok in H1 as (inf & sa & Ha & H1). apply tells_setupClient in Ha as (l1 & HR & E1); auto.
    apply sbind_ok in H1 as (sname & sb & Hb & H1). apply quiet_localName in Hb.
    apply sbind_ok in H1 as (p & sc & Hc & H1). apply tells_connParams in Hc as (l2 & HC & E2); auto.
    assert (Hq : reports (s_out s1) = reports (s_out sc)).
    { destruct p as [sn certs]. revert H1.
      match goal with |- ?m _ = _ -> _ => assert (Hq : quiet m); [|intros H1; apply Hq in H1; exact H1] end.
      quiet1; [|quiet1; [quiet1|]].
      - unfold setupConn, notlsLookup. quiet1; [quiet1; [quiet1|]; destruct (v_lookup E a); quiet_more|]. destruct a. quiet_more.
      - destruct a0. quiet_more. }
    assert (Hm : exists ls, Forall Save ls /\ reports (s_out s') = rev (concat ls) ++ reports (s_out s1)).
    { revert H. apply (fun X : saves _ => X s1 b s'). destruct oI as [inf'|]; [|apply quiet_saves; quiet_more].
      apply saves_bind; [apply saves_loop|]. intros []; apply quiet_saves; quiet_more. apply quiet_finish. }
    destruct Hm as (ls & HS & E3). exists l1, l2, ls. split; auto.
    rewrite !reports_rev, E3, Hq, E2, Hb, E1, !rev_app_distr, !rev_involutive, !app_assoc. reflexivity.
  Qed.
End Warnings.

(** In particular, every warning is of one of these kinds, and true. *)
Inductive TrueWarning (K : config) (E : senv) (out : list effect) : bytes -> Prop :=
| TW_rules f txt : Blamed (v_fds E) (v_rfs E) (v_tick E) (k_rulefiles K) f txt ->
    TrueWarning K E out (B "problem loading rules " ++ f ++ B ": " ++ txt ++ [ch_nl])
| TW_open p e : In (FOpen p (OpErr e)) out ->
    TrueWarning K E out (B "error writing message file: " ++ e ++ [ch_nl])
| TW_write p m n e : In (FWrite p m (WrErr n e)) out ->
    TrueWarning K E out (B "error writing message file: " ++ e ++ [ch_nl])
| TW_close p e : In (FClose p (Some e)) out ->
    TrueWarning K E out (B "error closing message file: " ++ e ++ [ch_nl])
| TW_conn i e : k_connfile K <> [] ->
    ((forall content err, w_file (v_world E) i (k_connfile K) <> FRead content err) /\ e = B "open error" \/
     exists lines tail err, w_file (v_world E) i (k_connfile K) = FRead (end_lines lines ++ tail) err /\
       Forall (fun l => ~ In ch_nl l) lines /\ ~ In ch_nl tail /\
       FileWrong (w_uni (v_world E)) (v_keys E) lines (if err then Some (B "read error") else None) e) ->
    TrueWarning K E out (B "error loading per-connection rules '" ++ k_connfile K ++ B "': " ++ e ++ [ch_nl]).

Lemma in_reports e l : In e (reports l) <-> In e l /\ is_report e = true.
Proof. apply filter_In. Qed.

Theorem C80_warnings_true K E cn evs b s w : Forall (fun f => f <> []) (k_rulefiles K) -> unicode_ok (w_uni (v_world E)) ->
  process K E cn evs (sess0 K) = Ok (b, s) -> In (FWarn w) (s_out s) -> TrueWarning K E (s_out s) w.
Proof.
  intros HF HU H Hw. destruct (C80_warnings K E cn evs _ _ _ HF HU H) as (l1 & l2 & ls & Eq & HR & HC & HS). cbn [sess0 s_out rev reports filter app] in Eq.
  assert (Hin : forall e, In e (l1 ++ l2 ++ concat ls) -> In e (s_out s)).
  { intros e He. rewrite <- Eq in He. apply in_reports in He as [He _]. now apply in_rev. }
  assert (Hw' : In (FWarn w) (l1 ++ l2 ++ concat ls)).
  { rewrite <- Eq. apply in_reports. split; [now apply -> in_rev|reflexivity]. }
  apply in_app_or in Hw' as [Hw'|Hw']; [|apply in_app_or in Hw' as [Hw'|Hw']].
  - destruct HR; [destruct Hw'|destruct Hw' as [Hw'|[]]]. injection Hw' as <-. eapply TW_rules; eauto.
  - destruct HC; [destruct Hw'|destruct Hw'|destruct Hw' as [Hw'|[]]; injection Hw' as <-..].
    + apply (TW_conn K E _ i (B "open error")); auto.
    + apply (TW_conn K E _ i e); auto. right. exists lines, tail, err. auto.
  - apply in_concat in Hw' as (l & Hl & Hw'). rewrite Forall_forall in HS.
    assert (Hin' : forall e, In e l -> In e (s_out s)).
    { intros e He. apply Hin. apply in_or_app; right. apply in_or_app; right. apply in_concat. eauto. }
    destruct (HS l Hl) as [p|p e|p m wr c].
    + destruct Hw' as [Hw'|[]]; discriminate.
    + destruct Hw' as [Hw'|[Hw'|[]]]; [discriminate|]. injection Hw' as <-. apply (TW_open K E _ p e). apply Hin'. now left.
    + destruct wr as [|n e], c as [e'|]; cbn [app In] in Hw', Hin';
        repeat (destruct Hw' as [Hw'|Hw']; [try discriminate Hw'; injection Hw' as <-|]); try destruct Hw';
        solve [apply (TW_write K E _ p m n); auto 10 | apply (TW_close K E _ p); auto 10].
Qed.

(** And no failure to save a message goes unmentioned. *)
Theorem C80_failures_reported K E cn evs b s : Forall (fun f => f <> []) (k_rulefiles K) -> unicode_ok (w_uni (v_world E)) ->
  process K E cn evs (sess0 K) = Ok (b, s) ->
  (forall p e, In (FOpen p (OpErr e)) (s_out s) -> In (FWarn (B "error writing message file: " ++ e ++ [ch_nl])) (s_out s)) /\
  (forall p m n e, In (FWrite p m (WrErr n e)) (s_out s) -> In (FWarn (B "error writing message file: " ++ e ++ [ch_nl])) (s_out s)) /\
  (forall p e, In (FClose p (Some e)) (s_out s) -> In (FWarn (B "error closing message file: " ++ e ++ [ch_nl])) (s_out s)).
Proof.
  intros HF HU H. destruct (C80_warnings K E cn evs _ _ _ HF HU H) as (l1 & l2 & ls & Eq & HR & HC & HS). cbn [sess0 s_out rev reports filter app] in Eq.
  assert (Hget : forall e, In e (s_out s) -> is_report e = true -> (forall w, e <> FWarn w) -> exists l, Save l /\ In e l /\ forall x, In x l -> In x (s_out s)).
  { intros e He Hr Hn. assert (Hi : In e (l1 ++ l2 ++ concat ls)) by (rewrite <- Eq; apply in_reports; split; auto; now apply -> in_rev).
    apply in_app_or in Hi as [Hi|Hi]; [destruct HR; [destruct Hi|destruct Hi as [Hi|[]]; exfalso; eapply Hn; eauto]|].
    apply in_app_or in Hi as [Hi|Hi]; [destruct HC; [destruct Hi|destruct Hi|destruct Hi as [Hi|[]]; exfalso; eapply Hn; eauto..]|].
    apply in_concat in Hi as (l & Hl & Hi). rewrite Forall_forall in HS. exists l. split; auto. split; auto.
    intros x Hx. apply in_rev. assert (Hx' : In x (reports (rev (s_out s)))); [|apply in_reports in Hx'; tauto].
    rewrite Eq. apply in_or_app; right. apply in_or_app; right. apply in_concat. eauto. }
  split; [|split].
  - intros p e Hi. destruct (Hget _ Hi) as (l & Hl & Hi' & Hall); [reflexivity|discriminate|]. apply Hall.
    destruct Hl as [p'|p' e'|p' m wr c]; cbn [In] in Hi'.
    + destruct Hi' as [Hi'|[]]; discriminate.
    + destruct Hi' as [Hi'|[Hi'|[]]]; [|discriminate]. injection Hi' as <- <-. right; left; reflexivity.
    + destruct wr, c; cbn [app In] in Hi'; repeat (destruct Hi' as [Hi'|Hi']; [discriminate Hi'|]); destruct Hi'.
  - intros p m n e Hi. destruct (Hget _ Hi) as (l & Hl & Hi' & Hall); [reflexivity|discriminate|]. apply Hall.
    destruct Hl as [p'|p' e'|p' m' wr c]; cbn [In] in Hi'.
    + destruct Hi' as [Hi'|[]]; discriminate.
    + destruct Hi' as [Hi'|[Hi'|[]]]; discriminate.
    + destruct wr, c; cbn [app In] in *; repeat (destruct Hi' as [Hi'|Hi']; [try discriminate Hi'; injection Hi' as -> -> -> ->; auto|]); destruct Hi'.
  - intros p e Hi. destruct (Hget _ Hi) as (l & Hl & Hi' & Hall); [reflexivity|discriminate|]. apply Hall.
    destruct Hl as [p'|p' e'|p' m' wr c]; cbn [In] in Hi'.
    + destruct Hi' as [Hi'|[]]; discriminate.
    + destruct Hi' as [Hi'|[Hi'|[]]]; discriminate.
    + destruct wr, c; cbn [app In] in *; repeat (destruct Hi' as [Hi'|Hi']; [try discriminate Hi'; injection Hi' as -> ->; auto 10|]); destruct Hi'.
Qed.

(** A server with a broken rules file and a wrong -conncfg file, whose disk is
    full. *)
Definition poor_env : senv :=
  mkEnv (h_world poor_machine) 10 bad_files 0 (h_keys poor_machine) (fun _ => (false, 0%Z)) (fun _ => 1%Z) (fun _ => B "2026") (fun _ => B "now")
    (fun _ _ => None) (fun _ _ => OpOk) (fun _ _ => WrErr 3 (B "no space left")) (fun _ => Some (B "I/O error")) (fun d => B "H" ++ d) (fun d => MBody d) (fun _ _ _ => None).
Definition poor_cfg : config :=
  mkConfig (B "/save") (B "all") (B "helo") 0 100 (B "me") (B "/conn") false [B "c"] [] true false true [].
Example C80_example : exists b s,
  Forall (fun f => f <> []) (k_rulefiles poor_cfg) /\ unicode_ok (w_uni (v_world poor_env)) /\
  process poor_cfg poor_env demo_conn (plain [EvHelo EHLO (B "h"); EvGotData (B "x")]) (sess0 poor_cfg) = Ok (b, s) /\
  flat_map (fun e => match e with FWarn w => [w] | _ => [] end) (rev (s_out s)) =
    [B "problem loading rules c: rules parsing error at line 1: 'set-with' rule with no with options" ++ [ch_nl];
     B "error loading per-connection rules '/conn': error loading TLS cert(s) and key(s) from line 3: while loading b & d: no PEM data" ++ [ch_nl];
     B "error writing message file: no space left" ++ [ch_nl];
     B "error closing message file: I/O error" ++ [ch_nl]].
Proof.
  eexists _, _. split; [constructor; [discriminate|constructor]|]. split; [apply plain_unicode_ok|]. split; [vm_compute; reflexivity|].
  vm_compute. reflexivity.
Qed.

Print Assumptions C80_warnings.
Print Assumptions C80_warnings_true.
