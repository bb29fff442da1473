(** Properties of sessions: replies, envelope, save directory, dropped connections
    (C13, C41, C42, C47, C48, C57). *)
From Verif Require Import PropsParse.
From Verif Require Import Bytes Outcome Lexer Ast GoNet Parser World Dns Eval Decisions RuleLoad PropsLoad ConnCfg PropsConn CipherNames Message Session SessProofs Conv PropsEval DemoSession.
From Coq Require Import Lia.

(** ** Reading off effects *)

Definition msglogs (l : list effect) : list bytes := flat_map (fun e => match e with FMsglog x => [x] | _ => [] end) l.

Lemma replies_vis l : replies (vis l) = replies l.
Proof. induction l as [|e l IH]; auto. rewrite vis_cons. destruct e; cbn [visible]; try exact IH; cbn; f_equal; exact IH. Qed.
Lemma decisions_vis l : decisions (vis l) = decisions l.
Proof. induction l as [|e l IH]; auto. rewrite vis_cons. destruct e; cbn [visible]; try exact IH; cbn; f_equal; exact IH. Qed.
Lemma msglogs_vis l : msglogs (vis l) = msglogs l.
Proof. induction l as [|e l IH]; auto. rewrite vis_cons. destruct e; cbn [visible]; try exact IH; cbn; f_equal; exact IH. Qed.
Lemma In_vis e l : visible e = true -> In e (vis l) <-> In e l.
Proof. intros H. unfold vis. rewrite filter_In. tauto. Qed.
Lemma decisions_rev l : decisions (rev l) = rev (decisions l).
Proof.
  induction l as [|e l IH]; auto. cbn [rev]. rewrite decisions_app, IH. destruct e; cbn; rewrite ?app_nil_r; auto.
Qed.

Lemma Kept_silent path m r l : Kept path m r l -> replies l = [] /\ decisions l = [].
Proof. intros []; auto. Qed.
Lemma msglog_silent (b : bool) x : replies (if b then [FMsglog x] else []) = [] /\ decisions (if b then [FMsglog x] else []) = [].
Proof. destruct b; auto. Qed.

(** ** The decisions of a session *)

Section S.
  Context (K : config) (E : senv) (cn : conn).

  Lemma Judged_next I t c ph e res c' t' d tr0 h : Judged E cn I t c ph e res c' t' d ->
    session (v_world E) (si_rules I) tr0 h c -> session (v_world E) (si_rules I) tr0 (d :: h) c'.
  Proof. intros [HD _ _ ->] Hs. eapply Se_next; eauto. Qed.

  (** What is decided in a turn is decided by the rules. *)
  Lemma Did_session I s ev tls n l s' tr0 : Did K E cn I s ev tls n l s' ->
    session (v_world E) (si_rules I) tr0 (decisions (s_out s)) (s_ctx s) ->
    session (v_world E) (si_rules I) tr0 (rev (decisions l) ++ decisions (s_out s)) (s_ctx s').
  Proof.
    intros HD Hs.
    destruct HD as [ev tls ph e res c t d s' Hc Hr HJ Hst|cmd arg tls res c t d s' Hr HJ Hst|arg tls res c t d n s' Hr HJ Hy Hn Hst
      |arg tls res c t d l s' Hr HJ Hl Hst|arg tls res c t d s' Hr HJ Hst|arg tls res c t d s' Hr HJ Hst
      |data tls when t name e save s' Hm Hd Hn Hk Hst|data tls when t name save res c t1 d got b r s' Hm Hk HJ Hb Hst|tls n s' Hst|ev tls s' He Hst|tls];
      try (destruct Hst as (_ & -> & _)); cbn [decisions flat_map app rev]; auto; try (eapply Judged_next; eauto).
    - rewrite decisions_app. replace (decisions l) with (@nil decision); [cbn; eapply Judged_next; eauto|].
      destruct (retry s); [destruct Hl as (n & -> & _)|subst l]; reflexivity.
    - rewrite !decisions_app, (proj2 (msglog_silent _ _)), (proj2 (Kept_silent _ _ _ _ Hk)). exact Hs.
    - rewrite !decisions_app, (proj2 (msglog_silent _ _)).
      replace (decisions save) with (@nil decision); [cbn; eapply Judged_next; eauto|].
      destruct Hk as [(_ & _ & ->)|(_ & _ & Hk)]; [reflexivity|]. symmetry. apply (Kept_silent _ _ _ _ Hk).
  Qed.

  Lemma Turn_decisions I h t n s s' : Turn K E cn I h t n s s' ->
    decisions (s_out s') = rev (decisions (t_did t)) ++ decisions (s_out s).
  Proof. intros (_ & _ & Ha). unfold after in Ha. rewrite Ha, decisions_app, decisions_rev. reflexivity. Qed.

  Lemma Setup_session o s : Setup K E cn o s ->
    exists rr st tr0 c T res, setupRules (v_fds E) (v_rfs E) (v_tick E) (k_base K) (k_rulefiles K) = Some rr /\
      s_ctx s = c /\ Decide (v_world E) T (si_rules (info_of K rr st)) pConnect (mkEvt None []) (newContext tr0) = Ok (res, c) /\
      decisions (s_out s) = [mkDecision T pConnect (mkEvt None []) res (c_withprops c) (c_dnsblhit c) (c_domerr c)] /\
      replies (s_out s) = [] /\
      o = (match res with aReject => None | _ => Some (info_of K rr st) end) /\
      x_from (s_tx s) = [] /\ x_rcptto (s_tx s) = [] /\ x_helo (s_tx s) = [] /\ t_rcptto T = [] /\ t_rip T = n_rip cn /\
      x_savedir (s_tx s) = new_savedir c (k_savedir K).
  Proof.
    intros [rr hit n inf l1 l2 sname tr1 name certs tr2 l3 thit tn l4 rd tr0 refused res c ans s1 l5 Hr Hi _ _ _ H1 H2 H3 H4 H5 HD _].
    apply Decided_Judged in HD as (t & log & HJ & HA & Hlog & Hs & Ho).
    exists rr, (stalled K hit n), tr0, c, (theTrans cn (put_rdns (fst rd) (s_tx (sess0 K)))), res.
    destruct HJ as [HD _ Ht _]. cbn [s_tx s_ctx] in HD, Ht. destruct Ht as (m & am & Ht). destruct Hs as (Es & Ec & _). subst inf.
    split; [exact Hr|]. split; [exact Ec|]. split; [exact HD|].
    assert (Hans : ans = [] /\ refused = match res with aReject => true | _ => false end).
    { inversion HA as [r Hg|r Hg Hp|r Hg Hp]; subst; [|auto|congruence]. split; auto. destruct res; auto; discriminate. }
    destruct Hans as [-> ->]. cbn [add_out s_out].
    assert (I5 : decisions l5 = [] /\ replies l5 = []) by (rewrite <- decisions_vis, <- replies_vis, (vis_idle _ H5); auto).
    assert (Idle : forall l, Forall idle l -> decisions l = [] /\ replies l = []).
    { intros l Hl. rewrite <- decisions_vis, <- replies_vis, (vis_idle _ Hl). auto. }
    split; [|split].
    - rewrite decisions_app, (proj1 I5), Ho. cbn [app]. rewrite decisions_app, (chatter_decisions _ Hlog).
      cbn [app s_out]. cbn [decisions flat_map app]. unfold the_decision. f_equal.
      change (decisions (l4 ++ FNotls (BLookup (n_rip cn) tlsTimeout thit tn) :: l3 ++ l2 ++ FYak (BLookup (n_rip cn) (k_yakttl K) hit n) :: l1) = []).
      rewrite decisions_app, (proj1 (Idle _ H4)). cbn [app decisions flat_map]. fold (decisions (l3 ++ l2 ++ FYak (BLookup (n_rip cn) (k_yakttl K) hit n) :: l1)).
      rewrite !decisions_app, (proj1 (Idle _ H3)), (proj1 (Idle _ H2)). apply (Idle _ H1).
    - rewrite replies_app, (proj2 I5), Ho. cbn [app]. rewrite replies_app, (chatter_replies _ Hlog).
      cbn [app s_out]. cbn [replies flat_map app].
      change (replies (l4 ++ FNotls (BLookup (n_rip cn) tlsTimeout thit tn) :: l3 ++ l2 ++ FYak (BLookup (n_rip cn) (k_yakttl K) hit n) :: l1) = []).
      rewrite replies_app, (proj2 (Idle _ H4)). cbn [app replies flat_map]. fold (replies (l3 ++ l2 ++ FYak (BLookup (n_rip cn) (k_yakttl K) hit n) :: l1)).
      rewrite !replies_app, (proj2 (Idle _ H3)), (proj2 (Idle _ H2)). apply (Idle _ H1).
    - split; [destruct res; reflexivity|]. cbn [add_out s_tx]. rewrite Es, Ht. cbn. auto 8.
  Qed.

  (** ** C41 *)

  Theorem Conv_session I h s : Conv K E cn I h s ->
    exists tr0, session (v_world E) (si_rules I) tr0 (decisions (s_out s)) (s_ctx s).
  Proof.
    induction 1 as [s Hs|h s ev tls s' did HC IH Hst Ha].
    - apply setup_Setup in Hs. apply Setup_session in Hs as (rr & st & tr0 & c & T & res & _ & -> & HD & -> & _ & Eo & _).
      exists tr0. replace (si_rules I) with (si_rules (info_of K rr st)) by (destruct res; congruence).
      eapply Se_next; [apply Se_start|exact HD].
    - destruct IH as (tr0 & IH). exists tr0.
      assert (HT : Turn K E cn I h (mkTurn ev tls did) Go s s') by (repeat split; auto).
      rewrite (Turn_decisions _ _ _ _ _ _ HT). cbn [t_did]. rewrite <- decisions_vis.
      eapply Did_session; eauto. apply (Turn_Did _ _ _ _ _ _ _ _ _ HT).
  Qed.

  (** the reply class that goes with a result of the rules *)
  Definition class (a : action) : nat :=
    match a with aNoresult | aAccept => 2 | aStall => 4 | aReject => 5 | aError => 0 end.
  (** what the rules are asked about an event *)
  Inductive About : sevent -> phase -> evt -> Prop :=
  | Ab_helo cmd arg : About (EvHelo cmd arg) pHelo (mkEvt (Some cmd) arg)
  | Ab_mail arg : About (EvMailFrom arg) pMfrom (mkEvt None arg)
  | Ab_rcpt arg : About (EvRcptTo arg) pRto (mkEvt None arg)
  | Ab_data arg : About (EvData arg) pData (mkEvt None arg)
  | Ab_message data : About (EvGotData data) pMessage (mkEvt None data).
  Definition is_command (ev : sevent) : Prop := match ev with EvMailFrom _ | EvRcptTo _ | EvData _ | EvGotData _ => True | _ => False end.
  Definition is_helo (ev : sevent) : Prop := match ev with EvHelo _ _ => True | _ => False end.

  (** One reply to each command and message, at most one to a HELO, none
      otherwise. *)
  Theorem C41_one_reply I h t n s s' : Turn K E cn I h t n s s' ->
    (is_command (t_event t) -> exists r, replies (t_did t) = [r]) /\
    (is_helo (t_event t) -> replies (t_did t) = [] \/ exists r, replies (t_did t) = [r] /\ (rclass r = 4 \/ rclass r = 5)) /\
    (~ is_command (t_event t) -> ~ is_helo (t_event t) -> replies (t_did t) = []).
  Proof.
    intros HT. apply Turn_Did in HT. rewrite <- replies_vis. destruct t as [ev tls did]. cbn [t_event t_tls t_did] in *.
    destruct HT as [ev tls ph e res c t d s' Hc Hr HJ Hst|cmd arg tls res c t d s' Hr HJ Hst|arg tls res c t d n s' Hr HJ Hy Hn Hst
      |arg tls res c t d l s' Hr HJ Hl Hst|arg tls res c t d s' Hr HJ Hst|arg tls res c t d s' Hr HJ Hst
      |data tls when t name e save s' Hm Hd Hn Hk Hst|data tls when t name save res c t1 d got b r s' Hm Hk HJ Hb Hst|tls n s' Hst|ev tls s' He Hst|tls];
      cbn [is_command is_helo replies flat_map app]; try (split; [|split]; intros; tauto || eauto; fail).
    - split; [|split].
      + intros _. eexists. reflexivity.
      + intros Hh. right. eexists. split; [reflexivity|]. rewrite refusal_class. destruct Hr; subst; auto.
      + intros H1 H2. destruct ev; cbn in *; try discriminate; tauto.
    - assert (El : replies l = []) by (destruct (retry s); [destruct Hl as (n & -> & _)|subst l]; reflexivity).
      split; [|split]; intros; try tauto. rewrite replies_app, El. eexists. reflexivity.
    - split; [|split]; intros; try tauto. rewrite !replies_app, (proj1 (msglog_silent _ _)), (proj1 (Kept_silent _ _ _ _ Hk)). eexists; reflexivity.
    - split; [|split]; intros; try tauto. rewrite !replies_app, (proj1 (msglog_silent _ _)).
      destruct Hk as [(_ & _ & ->)|(_ & _ & Hk)]; [|rewrite (proj1 (Kept_silent _ _ _ _ Hk))]; eexists; reflexivity.
    - destruct He; subst; cbn [is_command is_helo]; (split; [|split]); intros; tauto || auto.
  Qed.

  (** a file could not be created or closed *)
  Definition save_failed (l : list effect) : Prop :=
    exists path e, In (FOpen path (OpErr e)) l \/ In (FClose path (Some e)) l.

  (** The reply is the one the rules ask for.  The exceptions: a message that
      could not be saved gets a 4xx without asking the rules, and a client that is
      dropped for too many attempts gets a 4xx. *)
  Theorem C41_reply_class I h t n s s' : Turn K E cn I h t n s s' -> is_command (t_event t) \/ is_helo (t_event t) ->
    (exists d, decisions (t_did t) = [d] /\ About (t_event t) (d_phase d) (d_evt d) /\ class (d_result d) <> 0 /\
       (n = Go -> forall r, replies (t_did t) = [r] -> rclass r = class (d_result d)) /\
       (is_helo (t_event t) -> replies (t_did t) = [] -> class (d_result d) = 2) /\
       (n = Drop -> class (d_result d) = 2 /\ forall r, replies (t_did t) = [r] -> rclass r = 4) /\
       exists tr0, session (v_world E) (si_rules I) tr0 (d :: decisions (s_out s)) (s_ctx s')) \/
    (n = Go /\ decisions (t_did t) = [] /\ save_failed (t_did t) /\ (exists data, t_event t = EvGotData data) /\
       forall r, replies (t_did t) = [r] -> rclass r = 4).
  Proof.
    intros HT Hev. pose proof (Turn_Did _ _ _ _ _ _ _ _ _ HT) as HD.
    assert (Hses : exists tr0, session (v_world E) (si_rules I) tr0 (rev (decisions (t_did t)) ++ decisions (s_out s)) (s_ctx s')).
    { destruct HT as (HC & _). apply Conv_session in HC as (tr0 & Hs). exists tr0. rewrite <- decisions_vis. eapply Did_session; eauto. }
    clear HT. rewrite <- replies_vis, <- decisions_vis in *.
    assert (Hsf : save_failed (vis (t_did t)) -> save_failed (t_did t)).
    { intros (path & e & [Hin|Hin]); exists path, e; [left|right]; (rewrite In_vis in Hin by reflexivity; exact Hin). }
    destruct t as [ev tls did]. cbn [t_event t_tls t_did] in *.
    destruct HD as [ev tls ph e res c t d s' Hc Hr HJ Hst|cmd arg tls res c t d s' Hr HJ Hst|arg tls res c t d n s' Hr HJ Hy Hn Hst
      |arg tls res c t d l s' Hr HJ Hl Hst|arg tls res c t d s' Hr HJ Hst|arg tls res c t d s' Hr HJ Hst
      |data tls when t name e save s' Hm Hd Hn Hk Hst|data tls when t name save res c t1 d got b r s' Hm Hk HJ Hb Hst|tls n s' Hst|ev tls s' He Hst|tls];
      try (exfalso; cbn in Hev; tauto); try (destruct HJ as [_ _ _ ->]).
    - left. eexists. split; [reflexivity|]. split; [destruct ev; inversion Hc; subst; constructor|].
      cbn [d_result the_decision]. split; [destruct Hr; subst; discriminate|].
      split; [intros _ r [= <-]; rewrite refusal_class; destruct Hr; subst; reflexivity|].
      split; [discriminate|]. split; [discriminate|exact Hses].
    - left. eexists. split; [reflexivity|]. split; [constructor|]. cbn [d_result the_decision].
      split; [destruct res; discriminate|]. split; [discriminate|]. split; [intros _ _; destruct res; try discriminate; reflexivity|].
      split; [discriminate|exact Hses].
    - left. eexists. split; [reflexivity|]. split; [constructor|]. cbn [d_result the_decision].
      split; [destruct res; discriminate|]. split; [discriminate|]. split; [intros []|].
      split; [|exact Hses]. intros _. split; [destruct res; try discriminate; reflexivity|]. intros r [= <-]. reflexivity.
    - left. assert (El : replies l = [] /\ decisions l = []) by (destruct (retry s); [destruct Hl as (n & -> & _)|subst l]; auto).
      cbn [decisions flat_map app replies] in *. fold (decisions (l ++ [FReply (accept_reply [] (prop_of c (B "message")))])) in *.
      fold (replies (l ++ [FReply (accept_reply [] (prop_of c (B "message")))])).
      rewrite decisions_app, (proj2 El) in Hses |- *. rewrite replies_app, (proj1 El).
      eexists. split; [reflexivity|]. split; [constructor|]. cbn [d_result the_decision].
      split; [destruct res; discriminate|]. split; [intros _ r [= <-]; rewrite accept_class; destruct res; try discriminate; reflexivity|].
      split; [intros []|]. split; [discriminate|exact Hses].
    - left. eexists. split; [reflexivity|]. split; [constructor|]. cbn [d_result the_decision].
      split; [destruct res; discriminate|]. split; [intros _ r [= <-]; rewrite accept_class; destruct res; try discriminate; reflexivity|].
      split; [intros []|]. split; [discriminate|exact Hses].
    - left. eexists. split; [reflexivity|]. split; [constructor|]. cbn [d_result the_decision].
      split; [destruct res; discriminate|]. split; [intros _ r [= <-]; rewrite accept_class; destruct res; try discriminate; reflexivity|].
      split; [intros []|]. split; [discriminate|exact Hses].
    - right. split; auto. rewrite !decisions_app, !replies_app, (proj1 (msglog_silent _ _)), (proj2 (msglog_silent _ _)).
      rewrite (proj1 (Kept_silent _ _ _ _ Hk)), (proj2 (Kept_silent _ _ _ _ Hk)).
      split; auto. split; [|split; [eauto|intros r [= <-]; reflexivity]].
      apply Hsf. exists (x_savedir t ++ B "/" ++ name), e. inversion Hk as [|e' Ee|r' w Er]; subst.
      + left. apply in_or_app. right. left. reflexivity.
      + right. apply in_or_app. right. do 3 right. left. reflexivity.
    - left. rewrite !decisions_app, !replies_app, (proj1 (msglog_silent _ _)), (proj2 (msglog_silent _ _)) in *.
      assert (Es : replies save = [] /\ decisions save = []).
      { destruct Hk as [(_ & _ & ->)|(_ & _ & Hk)]; [auto|]. eapply Kept_silent; eauto. }
      rewrite (proj1 Es), (proj2 Es) in *.
      eexists. split; [reflexivity|]. split; [constructor|]. cbn [d_result the_decision].
      destruct Hb as [(_ & Hg & -> & _)|(_ & Hg & -> & _)].
      + split; [destruct res; discriminate|]. split; [intros _ r [= <-]; rewrite accept_class; destruct res; try discriminate; reflexivity|].
        split; [intros []|]. split; [discriminate|exact Hses].
      + split; [destruct Hg; subst; discriminate|]. split; [intros _ r [= <-]; rewrite refusal_class; destruct Hg; subst; reflexivity|].
        split; [intros []|]. split; [discriminate|exact Hses].
    - exfalso. destruct He; subst; cbn in Hev; tauto.
  Qed.

  (** ** C42: the envelope *)

  (** whether the command was accepted: a HELO by not being refused *)
  Definition accepted (t : turn) : bool :=
    match t_event t, replies (t_did t) with
    | EvHelo _ _, [] => true
    | EvHelo _ _, _ => false
    | _, [r] => Nat.eqb (rclass r) 2
    | _, _ => false
    end.
  (** The name of the last accepted HELO, the sender of the last accepted MAIL
      FROM since it, and the recipients accepted since that, for a history with
      the latest turn first. *)
  Fixpoint helo_name (h : list turn) : bytes :=
    match h with
    | [] => []
    | t :: h' => match t_event t with
                 | EvHelo _ arg => if accepted t then arg else helo_name h'
                 | _ => helo_name h'
                 end
    end.
  Fixpoint sender (h : list turn) : bytes :=
    match h with
    | [] => []
    | t :: h' => match t_event t with
                 | EvHelo _ _ => if accepted t then [] else sender h'
                 | EvMailFrom arg => if accepted t then arg else sender h'
                 | _ => sender h'
                 end
    end.
  Fixpoint recipients (h : list turn) : list bytes :=
    match h with
    | [] => []
    | t :: h' => match t_event t with
                 | EvHelo _ _ | EvMailFrom _ => if accepted t then [] else recipients h'
                 | EvRcptTo arg => if accepted t then recipients h' ++ [arg] else recipients h'
                 | _ => recipients h'
                 end
    end.

  Lemma accept_is2 id m : Nat.eqb (rclass (accept_reply id m)) 2 = true.
  Proof. rewrite accept_class. reflexivity. Qed.
  Lemma refusal_not2 res ph id m rc : res = aStall \/ res = aReject -> Nat.eqb (rclass (refusal_reply res ph id m rc)) 2 = false.
  Proof. intros H. rewrite refusal_class. destruct H; subst; reflexivity. Qed.

  Lemma message_tx_env tls when data t t' : message_tx E tls when data t t' ->
    x_from t' = x_from t /\ x_rcptto t' = x_rcptto t /\ x_helo t' = x_helo t /\ x_savedir t' = x_savedir t /\
    x_data t' = data /\ x_hash t' = v_sha1 E data /\ x_tlson t' = ts_on tls /\ x_rdns t' = x_rdns t.
  Proof. intros (p & v & _ & ->). unfold getHashes. cbn. auto 8. Qed.

  (** The hash of the body, or what stands for it if there is none. *)
  Definition body_hash (data : bytes) : bytes :=
    match v_mail E data with
    | MBody body => v_sha1 E body
    | MNoParse => B "<cannot-parse-message>"
    | MNoBody => B "<cannot-read-body?>"
    end.
  Lemma message_tx_rest tls when data t t' : message_tx E tls when data t t' ->
    x_bodyhash t' = body_hash data /\ x_cipher t' = ts_cipher tls /\ x_version t' = ts_version tls /\ exists i, x_when t' = v_now E i.
  Proof. intros (p & v & ((i & H1) & H2) & ->). unfold getHashes. cbn. repeat split; auto. exists i. exact H1. Qed.

  Theorem Conv_envelope I h s : Conv K E cn I h s ->
    x_from (s_tx s) = sender h /\ x_rcptto (s_tx s) = recipients h /\ x_helo (s_tx s) = helo_name h.
  Proof.
    induction 1 as [s Hs|h s ev tls s' did HC IH Hst Ha].
    - apply setup_Setup in Hs. apply Setup_session in Hs as (rr & st & tr0 & c & T & res & _ & _ & _ & _ & _ & _ & H1 & H2 & H3 & _). auto.
    - assert (HT : Turn K E cn I h (mkTurn ev tls did) Go s s') by (repeat split; auto).
      apply Turn_Did in HT. cbn [t_event t_tls t_did] in HT. destruct IH as (IH1 & IH2 & IH3).
      remember Go as n eqn:En. remember (vis did) as l eqn:El.
      destruct HT as [ev tls ph e res c t d s' Hc Hr HJ Hs|cmd arg tls res c t d s' Hr HJ Hs|arg tls res c t d n s' Hr HJ Hy Hn Hs
        |arg tls res c t d l s' Hr HJ Hl Hs|arg tls res c t d s' Hr HJ Hs|arg tls res c t d s' Hr HJ Hs
        |data tls when t name e save s' Hm Hd Hn Hk Hs|data tls when t name save res c t1 d got b r s' Hm Hk HJ Hb Hs|tls n s' Hs|ev tls s' He Hs|tls];
        try discriminate; try (destruct Hs as (Et & _)); cbn [sender recipients helo_name t_event]; unfold accepted; cbn [t_event t_did];
        try rewrite <- (replies_vis did), <- El; try (pose proof (Judged_from _ _ _ _ _ _ _ _ _ _ _ HJ) as (J1 & J2 & J3 & _)); rewrite ?Et; cbn;
        try (pose proof (message_tx_env _ _ _ _ _ Hm) as (M1 & M2 & M3 & _)).
      + rewrite (refusal_not2 _ _ _ _ _ Hr), J1, J2, J3. destruct ev; cbn; auto.
      + auto.
      + fold (replies (l ++ [FReply (accept_reply [] (prop_of c (B "message")))])). rewrite replies_app.
        replace (replies l) with (@nil reply) by (destruct (retry s); [destruct Hl as (n & -> & _)|subst l]; reflexivity).
        cbn [app replies flat_map]. rewrite accept_is2. rewrite <- IH3, <- J3. auto.
      + rewrite accept_is2, J1, J2, J3, IH2. auto.
      + rewrite J1, J2, J3. auto.
      + rewrite M1, M2, M3. auto.
      + rewrite J1, J2, J3, M1, M2, M3. auto.
      + auto.
      + auto.
  Qed.

  (** The line of a message in the message log. *)
  Definition log_line (when id raddr from : bytes) (rcpts : list bytes) (size : nat) (hash bodyhash laddr helo tls : bytes) : bytes :=
    when ++ B " [" ++ id ++ B "] from " ++ raddr ++ B " / <" ++ from ++ B "> to" ++
    concat (map (fun a => B " <" ++ a ++ B ">") rcpts) ++ B ": message " ++ itoa size ++ B " bytes hash " ++ hash ++
    B " body " ++ bodyhash ++ B " | local " ++ laddr ++ B " helo '" ++ helo ++ B "'" ++ tls ++ [ch_nl].

  (** A received message is logged with the accepted envelope, once, if there is
      a message log. *)
  Theorem C42_logged_envelope I h data tls did n s s' : Turn K E cn I h (mkTurn (EvGotData data) tls did) n s s' ->
    if k_msglog K then
      exists i, msglogs did =
        [log_line (v_now E i) (n_prefix cn) (n_raddr cn) (sender h) (recipients h) (length data) (v_sha1 E data) (body_hash data) (n_laddr cn) (helo_name h)
           (if ts_on tls then B " tls:cipher 0x" ++ hex4 (ts_cipher tls) ++ B " tls:proto 0x" ++ hex4 (ts_version tls) else [])]
    else msglogs did = [].
  Proof.
    intros HT. pose proof (Turn_Did _ _ _ _ _ _ _ _ _ HT) as HD. destruct HT as (HC & _).
    apply Conv_envelope in HC as (E1 & E2 & E3). cbn [t_event t_tls t_did] in HD. rewrite <- msglogs_vis.
    remember (vis did) as l eqn:El. clear El.
    assert (Hgen : forall when t, message_tx E tls when data (s_tx s) t ->
      exists i, logText cn t =
        log_line (v_now E i) (n_prefix cn) (n_raddr cn) (sender h) (recipients h) (length data) (v_sha1 E data) (body_hash data) (n_laddr cn) (helo_name h)
           (if ts_on tls then B " tls:cipher 0x" ++ hex4 (ts_cipher tls) ++ B " tls:proto 0x" ++ hex4 (ts_version tls) else [])).
    { intros when t Hm. pose proof (message_tx_rest _ _ _ _ _ Hm) as (R1 & R2 & R3 & i & R4). apply message_tx_env in Hm as (M1 & M2 & M3 & _ & M5 & M6 & M7 & _).
      exists i. unfold logText, log_line. rewrite M1, M2, M3, M5, M6, M7, E1, E2, E3, R1, R2, R3, R4. rewrite (app_assoc (B " / ")). reflexivity. }
    inversion HD as [? ? ph e res c t d ? Hc| | | | | |? ? when t name e save ? Hm Hd Hn Hk Hs|? ? when t name save res c t1 d got b r ? Hm Hk HJ Hb Hs| |? ? ? He|]; subst; try discriminate.
    - assert (Hsm : msglogs save = []) by (destruct Hk; reflexivity). unfold msglogs in *. rewrite !flat_map_app, Hsm.
      destruct (k_msglog K); [|reflexivity]. destruct (Hgen _ _ Hm) as (i & ->). exists i. reflexivity.
    - assert (Hsm : msglogs save = []) by (destruct Hk as [(_ & _ & ->)|(_ & _ & [])]; reflexivity). unfold msglogs in *. rewrite !flat_map_app, Hsm.
      destruct (k_msglog K); [|reflexivity]. destruct (Hgen _ _ Hm) as (i & ->). exists i. reflexivity.
    - destruct He; discriminate.
  Qed.

  (** Whatever is written to a file is the record of the message with the
      accepted envelope; only received messages write to files. *)
  Theorem C42_recorded_envelope I h t n s s' path m w : Turn K E cn I h t n s s' -> In (FWrite path m w) (t_did t) ->
    exists data header, t_event t = EvGotData data /\
      m = header ++ B "from <" ++ sender h ++ B ">" ++ [ch_nl] ++
          concat (map (fun a => B "to <" ++ a ++ B ">" ++ [ch_nl]) (recipients h)) ++
          B "hash " ++ v_sha1 E data ++ B " bytes " ++ itoa (length data) ++ [ch_nl] ++
          B "bodyhash " ++ body_hash data ++ [ch_nl] ++ B "body" ++ [ch_nl] ++ data.
  Proof.
    intros HT Hin. pose proof (Turn_Did _ _ _ _ _ _ _ _ _ HT) as HD. destruct HT as (HC & _).
    apply Conv_envelope in HC as (E1 & E2 & E3). rewrite <- In_vis in Hin by reflexivity.
    assert (Hgen : forall when t0 data tls, message_tx E tls when data (s_tx s) t0 -> t_event t = EvGotData data ->
      m = record_of E cn t0 -> exists data header, t_event t = EvGotData data /\
      m = header ++ B "from <" ++ sender h ++ B ">" ++ [ch_nl] ++
          concat (map (fun a => B "to <" ++ a ++ B ">" ++ [ch_nl]) (recipients h)) ++
          B "hash " ++ v_sha1 E data ++ B " bytes " ++ itoa (length data) ++ [ch_nl] ++
          B "bodyhash " ++ body_hash data ++ [ch_nl] ++ B "body" ++ [ch_nl] ++ data).
    { intros when t0 data tls Hm Hev ->. pose proof (message_tx_rest _ _ _ _ _ Hm) as (R1 & _). apply message_tx_env in Hm as (M1 & M2 & M3 & _ & M5 & M6 & M7 & _).
      exists data, (idLine cn t0 ++ (B "remote " ++ (if beqb (n_rip cn) [] then n_raddr cn else n_rip cn) ++ B " to " ++ n_laddr cn ++
        B " with helo '" ++ x_helo t0 ++ B "'" ++ [ch_nl]) ++ writeDNSList (B "remote-dns") (rd_verified (x_rdns t0)) ++
        writeDNSList (B "remote-dns-nofwd") (rd_nofwd (x_rdns t0)) ++ writeDNSList (B "remote-dns-inconsist") (rd_inconsist (x_rdns t0)) ++
        tlsLine t0). split; auto.
      unfold record_of, msgDetails, metaText. cbn [fst]. rewrite M1, M2, M5, M6, E1, E2, R1.
      rewrite <- !app_assoc. reflexivity. }
    destruct t as [ev tls did]. cbn [t_event t_tls t_did] in *. remember (vis did) as l0 eqn:El. clear El.
    assert (Hsave : forall path' m' r save, Kept path' m' r save -> In (FWrite path m w) save -> m = m').
    { intros path' m' r save Hk Hi. destruct Hk; cbn in Hi; intuition congruence. }
    destruct HD as [ev tls ph e res c t d s' Hc Hr HJ Hst|cmd arg tls res c t d s' Hr HJ Hst|arg tls res c t d n s' Hr HJ Hy Hn Hst
      |arg tls res c t d l s' Hr HJ Hl Hst|arg tls res c t d s' Hr HJ Hst|arg tls res c t d s' Hr HJ Hst
      |data tls when t name e save s' Hm Hd Hn Hk Hst|data tls when t name save res c t1 d got b r s' Hm Hk HJ Hb Hst|tls n s' Hst|ev tls s' He Hst|tls];
      try (exfalso; cbn in Hin; intuition discriminate).
    - exfalso. destruct Hin as [Hin|Hin]; [discriminate|]. apply in_app_or in Hin as [Hin|Hin]; [|cbn in Hin; intuition discriminate].
      destruct (retry s); [destruct Hl as (n & -> & _)|subst l]; cbn in Hin; intuition discriminate.
    - apply in_app_or in Hin as [Hin|Hin]; [destruct (k_msglog K); cbn in Hin; intuition discriminate|].
      apply in_app_or in Hin as [Hin|Hin]; [|cbn in Hin; intuition discriminate]. eauto.
    - apply in_app_or in Hin as [Hin|Hin]; [destruct (k_msglog K); cbn in Hin; intuition discriminate|].
      apply in_app_or in Hin as [Hin|Hin]; [|cbn in Hin; intuition discriminate].
      destruct Hk as [(_ & _ & ->)|(_ & _ & Hk)]; [destruct Hin|]. eauto.
  Qed.

  Lemma rules_see I h t n s s' d : Turn K E cn I h t n s s' -> In d (decisions (t_did t)) ->
    t_rip (d_trans d) = n_rip cn /\ t_lip (d_trans d) = n_lip cn /\ t_rcptto (d_trans d) = recipients h.
  Proof.
    intros HT Hin. pose proof (Turn_Did _ _ _ _ _ _ _ _ _ HT) as HD. destruct HT as (HC & _).
    apply Conv_envelope in HC as (E1 & E2 & E3). rewrite <- decisions_vis in Hin.
    destruct t as [ev tls did]. cbn [t_event t_tls t_did] in *. remember (vis did) as l0 eqn:El. clear El.
    assert (Hj : forall I t0 c ph e res c' t' d0, Judged E cn I t0 c ph e res c' t' d0 -> x_rcptto t0 = x_rcptto (s_tx s) -> d = d0 ->
      t_rip (d_trans d) = n_rip cn /\ t_lip (d_trans d) = n_lip cn /\ t_rcptto (d_trans d) = recipients h).
    { intros I0 t0 c ph e res c' t' d0 [_ _ _ ->] Et ->. cbn. rewrite <- E2, Et. auto. }
    destruct HD as [ev tls ph e res c t d0 s' Hc Hr HJ Hst|cmd arg tls res c t d0 s' Hr HJ Hst|arg tls res c t d0 n s' Hr HJ Hy Hn Hst
      |arg tls res c t d0 l s' Hr HJ Hl Hst|arg tls res c t d0 s' Hr HJ Hst|arg tls res c t d0 s' Hr HJ Hst
      |data tls when t name e save s' Hm Hd Hn Hk Hst|data tls when t name save res c t1 d0 got b r s' Hm Hk HJ Hb Hst|tls n s' Hst|ev tls s' He Hst|tls];
      try (cbn in Hin; destruct Hin as [<-|[]]; eapply Hj; eauto; fail); try (destruct Hin; fail).
    - cbn [decisions flat_map app] in Hin. fold (decisions (l ++ [FReply (accept_reply [] (prop_of c (B "message")))])) in Hin.
      rewrite decisions_app in Hin. replace (decisions l) with (@nil decision) in Hin by (destruct (retry s); [destruct Hl as (n & -> & _)|subst l]; reflexivity).
      cbn in Hin; destruct Hin as [<-|[]]; eapply Hj; eauto.
    - rewrite !decisions_app, (proj2 (msglog_silent _ _)), (proj2 (Kept_silent _ _ _ _ Hk)) in Hin. destruct Hin.
    - rewrite !decisions_app, (proj2 (msglog_silent _ _)) in Hin.
      replace (decisions save) with (@nil decision) in Hin.
      + cbn in Hin. destruct Hin as [<-|[]]. eapply Hj; eauto. apply (message_tx_env _ _ _ _ _ Hm).
      + destruct Hk as [(_ & _ & ->)|(_ & _ & Hk)]; [reflexivity|]. symmetry. apply (Kept_silent _ _ _ _ Hk).
  Qed.

  (** The rules see the client's and the server's address and the accepted
      recipients. *)
  Theorem C42_rules_see I h t n s s' d rip rport lip lport : Turn K E cn I h t n s s' -> In d (decisions (t_did t)) ->
    AddrText rip rport (n_raddr cn) -> AddrText lip lport (n_laddr cn) ->
    t_rip (d_trans d) = rip /\ t_lip (d_trans d) = lip /\ t_rcptto (d_trans d) = recipients h.
  Proof.
    intros HT Hd Hr Hl. destruct (rules_see _ _ _ _ _ _ _ HT Hd) as (-> & -> & ->). unfold n_rip, n_lip.
    rewrite (host_of_text _ _ _ Hr), (host_of_text _ _ _ Hl). auto.
  Qed.
End S.

(** ** Examples: sessions that meet the hypotheses *)

(** The rejected sender is answered 5xx and the stalled recipient 4xx. *)
Example C41_refused : exists I h t n s s', Turn (demo_cfg demo_rules) demo_env demo_conn I h t n s s' /\
  (t_event t, n, replies (t_did t), map d_result (decisions (t_did t))) = (EvMailFrom (B "evil@x.y"), Go, [RpReject], [aReject]).
Proof.
  apply (turn_example _ _ _ (plain [EvHelo EHLO (B "h")]) (EvMailFrom (B "evil@x.y")) no_tls
    (fun I h t n s s' => (t_event t, n, replies (t_did t), map d_result (decisions (t_did t))))).
  vm_compute. reflexivity.
Qed.
Example C41_stalled : exists I h t n s s', Turn (demo_cfg demo_rules) demo_env demo_conn I h t n s s' /\
  (t_event t, n, replies (t_did t), map d_result (decisions (t_did t))) = (EvRcptTo (B "bob@x.y"), Go, [RpTempfail], [aStall]).
Proof.
  apply (turn_example _ _ _ (plain (firstn 3 demo_mail)) (EvRcptTo (B "bob@x.y")) no_tls
    (fun I h t n s s' => (t_event t, n, replies (t_did t), map d_result (decisions (t_did t))))).
  vm_compute. reflexivity.
Qed.
(** A message whose file cannot be created. *)
Example C41_unsaved : exists I h t n s s', Turn (demo_cfg demo_rules) (demo_files (OpErr (B "full")) WrOk None) demo_conn I h t n s s' /\
  (t_event t, n, replies (t_did t), decisions (t_did t)) = (EvGotData (B "Hello"), Go, [RpTempfail], []).
Proof.
  apply (turn_example _ _ _ (plain demo_mail) (EvGotData (B "Hello")) no_tls
    (fun I h t n s s' => (t_event t, n, replies (t_did t), decisions (t_did t)))).
  vm_compute. reflexivity.
Qed.
(** A client that is dropped for trying again and again. *)
Example C41_dropped :
  let K := mkConfig (B "/save") (B "all") (B "to") 3 100 (B "me") [] false [] demo_rules true false true [B "c"] in
  exists I h t n s s', Turn K (demo_black true 2 4) demo_conn I h t n s s' /\
  (t_event t, n, map rclass (replies (t_did t)), map d_result (decisions (t_did t))) = (EvMailFrom (B "b@x.y"), Drop, [4], [aNoresult]).
Proof.
  cbv zeta. apply (turn_example _ _ _ (plain [EvHelo EHLO (B "h"); EvMailFrom []; EvMailFrom (B "a@x.y")]) (EvMailFrom (B "b@x.y")) no_tls
    (fun I h t n s s' => (t_event t, n, map rclass (replies (t_did t)), map d_result (decisions (t_did t))))).
  vm_compute. reflexivity.
Qed.

(** The refused sender and recipient are not recorded. *)
Example C42_example : exists I h t n s s', Turn (demo_cfg demo_rules) demo_env demo_conn I h t n s s' /\
  (t_event t, n, sender h, recipients h, helo_name h, msglogs (t_did t)) =
  (EvGotData (B "Hello"), Go, B "a@x.y", [B "jim@x.y"; B "joe@x.y"], B "h",
   [B "2026 [7/1] from 192.0.2.7:5678 / <a@x.y> to <jim@x.y> <joe@x.y>: message 5 bytes hash HHello body HHello | local 192.0.2.1:25 helo 'h'" ++ [ch_nl]]).
Proof.
  apply (turn_example _ _ _ (plain demo_mail) (EvGotData (B "Hello")) no_tls
    (fun I h t n s s' => (t_event t, n, sender h, recipients h, helo_name h, msglogs (t_did t)))).
  vm_compute. reflexivity.
Qed.
Example C42_addresses : AddrText (B "192.0.2.7") (B "5678") (n_raddr demo_conn) /\ AddrText (B "192.0.2.1") (B "25") (n_laddr demo_conn).
Proof.
  split; [apply (AT_plain (B "192.0.2.7") (B "5678"))|apply (AT_plain (B "192.0.2.1") (B "25"))];
    intros c Hc Hd; revert Hc Hd; cbn; intuition (subst; discriminate).
Qed.
