(** Properties of sessions: stalled and refused clients, saving, -M
    (C13, C43, C47, C48, C57). *)
From Verif Require Import PropsParse.
From Verif Require Import Bytes Outcome Lexer Ast GoNet Parser World Dns Eval Decisions RuleLoad PropsLoad ConnCfg CipherNames Message Session SessProofs Conv PropsEval PropsSafe PropsSession DemoSession.
From Coq Require Import Lia.

Section S.
  Context (K : config) (E : senv) (cn : conn).

  (** ** C13 *)

  (** With the rules 'stall all' the answer is a stall, except to MAIL FROM:<>,
      for which it is put off. *)
  Lemma stall_run W T ph c : run_rules W T ph [stall_all] c =
    Ok (aStall, set_withprops (set_all (c_withprops c) []) (set_rulemiss false (set_rulemiss false c))).
  Proof. destruct ph; reflexivity. Qed.
  Lemma stall_decide W T ph e c a c' : Decide W T [stall_all] ph e c = Ok (a, c') ->
    c_defresult c = aError \/ c_defresult c = aStall ->
    (c_defresult c' = aError \/ c_defresult c' = aStall) /\
    a = (if peqb ph pMfrom && beqb (e_arg e) [] then aAccept else aStall).
  Proof.
    intros H Hd. unfold Decide, mbind, upd, get, ret in H.
    set (c1 := set_domerr _ _) in H.
    assert (Hd1 : c_defresult c1 = aError \/ (c_defresult c1 = aStall /\ ph <> pMfrom)).
    { subst c1. destruct ph; cbn; auto; destruct Hd; auto; right; split; auto; discriminate. }
    assert (Hf : ph = pMfrom -> c_from c1 = e_arg e) by (intros ->; reflexivity).
    clearbody c1. destruct Hd1 as [Hd1|[Hd1 Hp]]; rewrite Hd1 in H; cbn [acode Nat.leb] in H.
    - rewrite stall_run in H. set (c2 := set_withprops _ _) in H.
      assert (Hd2 : c_defresult c2 = aError) by (subst c2; exact Hd1).
      assert (Hf2 : c_from c2 = c_from c1) by reflexivity. clearbody c2. rewrite Hf2 in H.
      destruct (peqb ph pMfrom) eqn:Ep; cbn [andb] in H |- *.
      + rewrite Hf in H by (destruct ph; auto; discriminate).
        destruct (beqb (e_arg e) []); cbn in H; injection H as <- <-; cbn; auto.
      + injection H as <- <-. auto.
    - injection H as <- <-. split; [right; exact Hd1|]. destruct ph; auto. congruence.
  Qed.
  Lemma stall_session W tr0 h c : session W [stall_all] tr0 h c ->
    (c_defresult c = aError \/ c_defresult c = aStall) /\
    Forall (fun d => d_result d = if peqb (d_phase d) pMfrom && beqb (e_arg (d_evt d)) [] then aAccept else aStall) h.
  Proof.
    induction 1 as [|h c T ph e a c' Hs [IH1 IH2] HD]; [split; [left; reflexivity|constructor]|].
    apply stall_decide in HD as (H1 & H2); auto.
  Qed.

  Lemma About_is ev ph e : About ev ph e ->
    match ev with
    | EvHelo cmd arg => ph = pHelo /\ e = mkEvt (Some cmd) arg
    | EvMailFrom arg => ph = pMfrom /\ e = mkEvt None arg
    | EvRcptTo arg => ph = pRto /\ e = mkEvt None arg
    | EvData arg => ph = pData /\ e = mkEvt None arg
    | EvGotData data => ph = pMessage /\ e = mkEvt None data
    | _ => False
    end.
  Proof. intros []; auto. Qed.

  Lemma stall_sender I h s : Conv K E cn I h s -> si_rules I = [stall_all] -> sender h = [].
  Proof.
    intros HC HR. induction HC as [s Hs|h s ev tls s' did HC IH Hst Ha]; [reflexivity|].
    assert (HT : Turn K E cn I h (mkTurn ev tls did) Go s s') by (repeat split; auto).
    cbn [sender t_event]. destruct ev as [cmd arg|arg| | | | | | |]; auto.
    - destruct (accepted _); auto.
    - destruct (accepted (mkTurn (EvMailFrom arg) tls did)) eqn:Ea; auto.
      destruct (C41_reply_class _ _ _ _ _ _ _ _ _ HT) as [(d & Hd & Hab & _ & Hc & _ & _ & tr0 & Hs)|(_ & _ & _ & (? & ?) & _)]; [left; exact Logic.I| |discriminate].
      rewrite HR in Hs. apply stall_session in Hs as (_ & Hs). inversion Hs as [|x y Hx _]; subst.
      cbn [t_event] in Hab. apply About_is in Hab as [E1 E2]. rewrite E1, E2 in Hx. cbn in Hx.
      unfold accepted in Ea. cbn [t_event t_did] in Ea, Hc. destruct (replies did) as [|r [|? ?]]; try discriminate.
      specialize (Hc eq_refl r eq_refl). rewrite Hx in Hc. destruct arg; auto. cbn in Hc. rewrite Hc in Ea. discriminate.
  Qed.

  (** With the rules 'stall all' everything gets a 4xx, except MAIL FROM:<>. *)
  Theorem C13_stalled I h t n s s' : Turn K E cn I h t n s s' -> si_rules I = [stall_all] ->
    match t_event t with
    | EvMailFrom [] => exists r, replies (t_did t) = [r] /\ rclass r = 2
    | EvHelo _ _ | EvMailFrom _ | EvRcptTo _ | EvData _ | EvGotData _ => exists r, replies (t_did t) = [r] /\ rclass r = 4
    | _ => replies (t_did t) = []
    end.
  Proof.
    intros HT HR.
    assert (Hn : n <> Drop).
    { intros ->. pose proof (Turn_Did _ _ _ _ _ _ _ _ _ HT) as HD. destruct HT as (HC & _).
      inversion HD as [| |? ? res c t0 d ? ? Hg HJ Hy| | | | | | | |]; subst. unfold retry in Hy.
      destruct (Conv_envelope _ _ _ _ _ _ HC) as (Ef & _). rewrite Ef, (stall_sender _ _ _ HC HR) in Hy. discriminate. }
    destruct (C41_one_reply _ _ _ _ _ _ _ _ _ HT) as (H1 & H2 & H3).
    destruct (t_event t) as [cmd arg|arg|arg|arg|data| | | |] eqn:Ev; try (apply H3; cbn; tauto).
    all: assert (Hev : is_command (t_event t) \/ is_helo (t_event t)) by (rewrite Ev; cbn; tauto).
    all: destruct (C41_reply_class _ _ _ _ _ _ _ _ _ HT Hev) as [(d & Hd & Hab & _ & Hc & Hc0 & Hdr & tr0 & Hs)|(_ & _ & _ & (dd & Edd) & Hc)];
      try congruence.
    all: try (rewrite HR in Hs; apply stall_session in Hs as (_ & Hs); inversion Hs as [|x y Hx _]; subst; clear Hs).
    all: try (assert (Hgo : n = Go) by (destruct n; auto; [congruence|];
       pose proof (Turn_Did _ _ _ _ _ _ _ _ _ HT) as HD; inversion HD as [| | | | | | | | |? ? ? [He|He]|]; congruence); specialize (Hc Hgo)).
    all: try (rewrite Ev in Hab; apply About_is in Hab as [E1 E2]; rewrite E1, E2 in Hx; cbn in Hx).
    - destruct (H2 Logic.I) as [Hr|(r & Hr & _)].
      + rewrite Ev in Hc0. specialize (Hc0 Logic.I Hr). rewrite Hx in Hc0. discriminate.
      + exists r. split; auto. rewrite (Hc r Hr), Hx. reflexivity.
    - destruct (H1 Logic.I) as (r & Hr). destruct arg; exists r; split; auto; rewrite (Hc r Hr), Hx; reflexivity.
    - destruct (H1 Logic.I) as (r & Hr). exists r; split; auto; rewrite (Hc r Hr), Hx; reflexivity.
    - destruct (H1 Logic.I) as (r & Hr). exists r; split; auto; rewrite (Hc r Hr), Hx; reflexivity.
    - destruct (H1 Logic.I) as (r & Hr). exists r; split; auto; rewrite (Hc r Hr), Hx; reflexivity.
    - destruct (H1 Logic.I) as (r & Hr). exists r; split; auto.
  Qed.

  Lemma Conv_info I h s : Conv K E cn I h s -> exists rr st,
    setupRules (v_fds E) (v_rfs E) (v_tick E) (k_base K) (k_rulefiles K) = Some rr /\ I = info_of K rr st.
  Proof.
    induction 1 as [s Hs|]; auto. apply setup_Setup in Hs.
    apply Setup_session in Hs as (rr & st & tr0 & c & T & res & Hr & _ & _ & _ & _ & Eo & _).
    exists rr, st. split; auto. destruct res; congruence.
  Qed.

  (** The rules are 'stall all' if a rule file cannot be loaded when the client
      connects. *)
  Theorem C13_broken_rules I h s : Conv K E cn I h s -> Forall (fun f => f <> []) (k_rulefiles K) ->
    (forall parts t', ~ LoadsAll (v_fds E) (v_rfs E) (v_tick E) (k_rulefiles K) parts t') -> si_rules I = [stall_all].
  Proof.
    intros HC HF HN. apply Conv_info in HC as (rr & st & Hr & ->).
    destruct (C12_all_or_nothing (v_fds E) (v_rfs E) (v_tick E) (k_base K) (k_rulefiles K) HF) as (r' & E' & [(parts & t' & H & _)|(_ & _ & H & _)]).
    - exfalso. eapply HN; eauto.
    - assert (r' = rr) by congruence. subst r'. unfold info_of. destruct st; cbn [si_rules]; [apply stallall_is|auto].
  Qed.

  (** ** C43 and C47 *)

  Definition opens (l : list effect) : list (bytes * open_res) := flat_map (fun e => match e with FOpen p r => [(p, r)] | _ => [] end) l.
  Definition file_op (e : effect) : Prop := match e with FOpen _ _ | FWrite _ _ _ | FSync _ | FClose _ _ => True | _ => False end.

  (** the last nonempty savedir option of the decisions (latest first), or the
      directory of the command line *)
  Fixpoint last_savedir (d0 : bytes) (ds : list decision) : bytes :=
    match ds with
    | [] => d0
    | d :: ds' => match mget (d_withs d) (B "savedir") with
                  | Some (x :: v) => x :: v
                  | _ => last_savedir d0 ds'
                  end
    end.

  Lemma new_savedir_last c d0 ds d : d_withs d = c_withprops c -> new_savedir c (last_savedir d0 ds) = last_savedir d0 (d :: ds).
  Proof.
    intros H. unfold new_savedir, prop_of. cbn [last_savedir]. rewrite H. destruct (mget _ _) as [[|x v]|]; reflexivity.
  Qed.

  Theorem Conv_savedir I h s : Conv K E cn I h s -> x_savedir (s_tx s) = last_savedir (k_savedir K) (decisions (s_out s)).
  Proof.
    induction 1 as [s Hs|h s ev tls s' did HC IH Hst Ha].
    - apply setup_Setup in Hs. apply Setup_session in Hs as (rr & st & tr0 & c & T & res & _ & _ & _ & Ed & _ & _ & _ & _ & _ & _ & _ & H).
      rewrite H, Ed. rewrite <- (new_savedir_last c); reflexivity.
    - assert (HT : Turn K E cn I h (mkTurn ev tls did) Go s s') by (repeat split; auto).
      rewrite (Turn_decisions _ _ _ _ _ _ _ _ _ HT). cbn [t_did]. rewrite <- decisions_vis.
      apply Turn_Did in HT. cbn [t_event t_tls t_did] in HT. remember (vis did) as l0 eqn:El. clear El.
      assert (Hj : forall I0 t0 c ph e res c' t' d0, Judged E cn I0 t0 c ph e res c' t' d0 -> x_savedir t0 = x_savedir (s_tx s) ->
        x_savedir t' = last_savedir (k_savedir K) (d0 :: decisions (s_out s))).
      { intros I0 t0 c ph e res c' t' d0 HJ Et. pose proof (Judged_from _ _ _ _ _ _ _ _ _ _ _ HJ) as (_ & _ & _ & _ & J & _).
        destruct HJ as [_ _ _ ->]. rewrite J, Et, IH. apply new_savedir_last. reflexivity. }
      destruct HT as [ev tls ph e res c t d0 s' Hc Hr HJ Hs|cmd arg tls res c t d0 s' Hr HJ Hs|arg tls res c t d0 n s' Hr HJ Hy Hn Hs
        |arg tls res c t d0 l s' Hr HJ Hl Hs|arg tls res c t d0 s' Hr HJ Hs|arg tls res c t d0 s' Hr HJ Hs
        |data tls when t name e save s' Hm Hd Hn Hk Hs|data tls when t name save res c t1 d0 got b r s' Hm Hk HJ Hb Hs|tls n s' Hs|ev tls s' He Hs|tls];
        try (destruct Hs as (-> & _)); cbn; try (eapply Hj; eauto; fail); auto.
      + fold (decisions (l ++ [FReply (accept_reply [] (prop_of c (B "message")))])).
        rewrite decisions_app. replace (decisions l) with (@nil decision) by (destruct (retry s); [destruct Hl as (n & -> & _)|subst l]; reflexivity).
        cbn. eapply Hj; eauto.
      + rewrite !decisions_app, (proj2 (msglog_silent _ _)), (proj2 (Kept_silent _ _ _ _ Hk)). cbn.
        rewrite <- IH. apply (message_tx_env _ _ _ _ _ _ Hm).
      + rewrite !decisions_app, (proj2 (msglog_silent _ _)).
        replace (decisions save) with (@nil decision).
        * cbn. eapply Hj; eauto. apply (message_tx_env _ _ _ _ _ _ Hm).
        * destruct Hk as [(_ & _ & ->)|(_ & _ & Hk)]; [reflexivity|]. symmetry. apply (Kept_silent _ _ _ _ Hk).
  Qed.

  Lemma opens_vis l : opens (vis l) = opens l.
  Proof. induction l as [|e l IH]; auto. rewrite vis_cons. destruct e; cbn [visible]; try exact IH; cbn; f_equal; exact IH. Qed.
  Lemma opens_app a b : opens (a ++ b) = opens a ++ opens b.
  Proof. apply flat_map_app. Qed.
  Lemma file_op_visible e : file_op e -> visible e = true.
  Proof. destruct e; simpl; tauto. Qed.

  (** A message goes to the directory of the last savedir option so far, or to
      that of the command line; nothing is saved if that is empty, and nothing but
      messages is saved. *)
  Theorem C47_savedir I h t n s s' : Turn K E cn I h t n s s' ->
    let dir := last_savedir (k_savedir K) (decisions (s_out s)) in
    ((exists data, t_event t = EvGotData data) -> dir <> [] -> exists name r, opens (t_did t) = [(dir ++ B "/" ++ name, r)]) /\
    (dir = [] \/ (forall data, t_event t <> EvGotData data) -> forall e, In e (t_did t) -> ~ file_op e).
  Proof.
    intros HT dir. pose proof (Turn_Did _ _ _ _ _ _ _ _ _ HT) as HD. destruct HT as (HC & _).
    apply Conv_savedir in HC. fold dir in HC. clearbody dir. rewrite <- opens_vis.
    assert (Hvis : (forall e, In e (vis (t_did t)) -> ~ file_op e) -> forall e, In e (t_did t) -> ~ file_op e).
    { intros H e Hin Hf. apply (H e); auto. apply In_vis; auto. apply file_op_visible; auto. }
    destruct t as [ev tls did]. cbn [t_event t_tls t_did] in *. remember (vis did) as l0 eqn:El. clear El.
    assert (Hmsg : forall (b : bool) x e, In e (if b then [FMsglog x] else []) -> ~ file_op e).
    { intros [] x e; cbn; [intros [<-|[]]|]; cbn; tauto. }
    assert (Hmo : forall (b : bool) x, opens (if b then [FMsglog x] else []) = []) by (intros []; reflexivity).
    assert (Hko : forall path m r save, Kept path m r save -> exists o, opens save = [(path, o)]).
    { intros path m r save []; eexists; reflexivity. }
    destruct HD as [ev tls ph e res c t d0 s' Hc Hr HJ Hs|cmd arg tls res c t d0 s' Hr HJ Hs|arg tls res c t d0 n s' Hr HJ Hy Hn Hs
        |arg tls res c t d0 l s' Hr HJ Hl Hs|arg tls res c t d0 s' Hr HJ Hs|arg tls res c t d0 s' Hr HJ Hs
        |data tls when t name e save s' Hm Hd Hn Hk Hs|data tls when t name save res c t1 d0 got b r s' Hm Hk HJ Hb Hs|tls n s' Hs|ev tls s' He Hs|tls];
      try (split; [intros (data & Ed); discriminate|intros _; apply Hvis; intros x Hx; cbn in Hx; intuition (subst; cbn in *; tauto)]; fail).
    - split; [intros (data & ->); discriminate|]. intros _; apply Hvis; intros x Hx; cbn in Hx; intuition (subst; cbn in *; tauto).
    - split; [intros (data & Ed); discriminate|]. intros _. apply Hvis. intros x Hx.
      assert (Hl' : forall x, In x l -> ~ file_op x).
      { destruct (retry s); [destruct Hl as (n & -> & _)|subst l]; intros y Hy; cbn in Hy; intuition (subst; cbn in *; tauto). }
      destruct Hx as [<-|Hx]; [cbn; tauto|]. apply in_app_or in Hx as [Hx|Hx]; [auto|]. cbn in Hx. intuition (subst; cbn in *; tauto).
    - pose proof (message_tx_env _ _ _ _ _ _ Hm) as (_ & _ & _ & Es & _). rewrite Es, HC in *.
      split; [|intros [H|H]; [congruence|exfalso; eapply H; reflexivity]].
      intros _ _. rewrite !opens_app, Hmo. destruct (Hko _ _ _ _ Hk) as (o & ->). eexists _, _. reflexivity.
    - pose proof (message_tx_env _ _ _ _ _ _ Hm) as (_ & _ & _ & Es & _). rewrite Es, HC in *.
      destruct Hk as [(Ed & _ & ->)|(Ed & _ & Hk)].
      + split; [congruence|]. intros _. apply Hvis. intros x Hx. apply in_app_or in Hx as [Hx|Hx]; [eauto|].
        cbn in Hx. intuition (subst; cbn in *; tauto).
      + split; [|intros [H|H]; [congruence|exfalso; eapply H; reflexivity]].
        intros _ _. rewrite !opens_app, Hmo. destruct (Hko _ _ _ _ Hk) as (o & ->). eexists _, _. reflexivity.
    - split; [intros (data & ->); destruct He; discriminate|]. intros _. apply Hvis. intros x [].
  Qed.

  (** the file operations and replies among the effects *)
  Definition saving (e : effect) : bool := match e with FOpen _ _ | FWrite _ _ _ | FSync _ | FClose _ _ | FReply _ => true | _ => false end.

  Lemma saving_vis l : filter saving (vis l) = filter saving l.
  Proof. induction l as [|e l IH]; auto. rewrite vis_cons. destruct e; cbn [visible filter saving]; rewrite ?IH; auto. Qed.

  (** The name of the file for the message [data] with the record [m]: the hash
      of the message, of the record without its first line, or of the record. *)
  Definition named (data m name : bytes) : Prop :=
    (k_hashtype K = B "msg" /\ name = v_sha1 E data) \/
    (k_hashtype K = B "full" /\ exists when rest,
       m = B "id " ++ n_prefix cn ++ B " " ++ n_raddr cn ++ B " " ++ when ++ [ch_nl] ++ rest /\ name = v_sha1 E rest) \/
    (k_hashtype K = B "all" /\ name = v_sha1 E m).
  Lemma saveName_named t when data tls t0 name : message_tx E tls when data t0 t -> saveName (v_sha1 E) (k_hashtype K) cn t = Some name ->
    named data (record_of E cn t) name.
  Proof.
    intros Hm H. apply message_tx_env in Hm as (_ & _ & _ & _ & _ & Hh & _).
    unfold saveName, msgDetails in H. unfold named, record_of, msgDetails. cbn [fst].
    destruct (beqb_spec (k_hashtype K) (B "msg")) as [->|_]; [injection H as <-; left; auto|right].
    destruct (beqb_spec (k_hashtype K) (B "full")) as [->|_]; [injection H as <-; left|right].
    - split; auto. exists (x_when t), (metaText cn t). split; auto. unfold idLine. rewrite <- !app_assoc. reflexivity.
    - destruct (beqb_spec (k_hashtype K) (B "all")) as [->|_]; [injection H as <-; auto|discriminate].
  Qed.

  (** What is done to save a message, in order, with the answer. *)
  Theorem C43_saving_sequence I h data tls did n s s' : Turn K E cn I h (mkTurn (EvGotData data) tls did) n s s' ->
    let dir := last_savedir (k_savedir K) (decisions (s_out s)) in
    dir <> [] -> exists name m r, let path := dir ++ B "/" ++ name in named data m name /\
      ((filter saving did = [FOpen path OpExists; FReply r]) \/
       (exists e, filter saving did = [FOpen path (OpErr e); FReply r] /\ rclass r = 4) \/
       (exists w, filter saving did = [FOpen path OpOk; FWrite path m w; FSync path; FClose path None; FReply r]) \/
       (exists w e, filter saving did = [FOpen path OpOk; FWrite path m w; FSync path; FClose path (Some e); FReply r] /\ rclass r = 4)).
  Proof.
    intros HT dir Hd. pose proof (Turn_Did _ _ _ _ _ _ _ _ _ HT) as HD. destruct HT as (HC & _).
    apply Conv_savedir in HC. fold dir in HC. clearbody dir. rewrite <- saving_vis.
    cbn [t_event t_tls t_did] in *. remember (vis did) as l0 eqn:El. clear El.
    assert (Hm : forall (b : bool) x, filter saving (if b then [FMsglog x] else []) = []) by (intros []; reflexivity).
    inversion HD as [? ? ph e res c t d ? Hc| | | | | |? ? when t name e save ? Hmt Hdd Hn Hk Hs|? ? when t name save res c t1 d got b r ? Hmt Hk HJ Hb Hs| |? ? ? He|]; subst; try discriminate;
      [| |destruct He; discriminate].
    - pose proof (message_tx_env _ _ _ _ _ _ Hmt) as (_ & _ & _ & Es & _). rewrite Es in Hk.
      exists name, (record_of E cn t), RpTempfail. cbn zeta. split; [eapply saveName_named; eauto|]. rewrite !filter_app, Hm. inversion Hk; subst; cbn.
      + right. left. eauto.
      + right. right. right. eauto.
    - pose proof (message_tx_env _ _ _ _ _ _ Hmt) as (_ & _ & _ & Es & _). rewrite Es in Hk.
      destruct Hk as [(? & _)|(_ & Hn & Hk)]; [congruence|].
      exists name, (record_of E cn t), r. cbn zeta. split; [eapply saveName_named; eauto|]. rewrite !filter_app, Hm. inversion Hk; subst; cbn; [auto|].
      right. right. left. eauto.
  Qed.

  (** An accepted message was found saved or was saved before the reply, if no
      write fails. *)
  Theorem C43_accepted_saved I h data tls did n s s' r : Turn K E cn I h (mkTurn (EvGotData data) tls did) n s s' ->
    let dir := last_savedir (k_savedir K) (decisions (s_out s)) in
    dir <> [] -> replies did = [r] -> rclass r = 2 ->
    (forall path m k e, ~ In (FWrite path m (WrErr k e)) did) ->
    exists name m, let path := dir ++ B "/" ++ name in named data m name /\
      (filter saving did = [FOpen path OpExists; FReply r] \/
       filter saving did = [FOpen path OpOk; FWrite path m WrOk; FSync path; FClose path None; FReply r]).
  Proof.
    intros HT dir Hd Hr Hc Hw. destruct (C43_saving_sequence _ _ _ _ _ _ _ _ HT Hd) as (name & m & r' & Hn & H).
    exists name, m. cbn zeta in *. fold dir in H. clearbody dir. split; auto.
    assert (Hrep : replies (filter saving did) = replies did).
    { clear. induction did as [|e l IH]; auto. cbn [filter]. destruct e; cbn [saving]; try exact IH; cbn; f_equal; exact IH. }
    assert (Er : r' = r).
    { rewrite Hr in Hrep. destruct H as [H|[(e & H & _)|[(w & H)|(w & e & H & _)]]]; rewrite H in Hrep; cbn in Hrep; congruence. }
    subst r'. destruct H as [H|[(e & H & H2)|[(w & H)|(w & e & H & H2)]]]; try congruence; [auto|].
    right. destruct w as [|k e]; auto. exfalso. apply (Hw (dir ++ B "/" ++ name) m k e).
    assert (Hin : In (FWrite (dir ++ B "/" ++ name) m (WrErr k e)) (filter saving did)) by (rewrite H; cbn; auto).
    apply filter_In in Hin. tauto.
  Qed.

  (** ** C48 *)

  Lemma message_rejected W T pre rest c a c' : Forall (fun r => r_result r = aReject) pre ->
    run_rules W T pMessage (pre ++ reject_messages :: rest) c = Ok (a, c') -> a = aReject.
  Proof.
    intros HF. revert c. induction HF as [|r pre Hr HF IH]; intros c H; cbn [app] in H.
    - unfold run_rules, mbind, upd, get, ret in H. cbn in H. congruence.
    - cbn [run_rules] in H. destruct (skipped pMessage r); [eauto|].
      unfold mbind, upd, get, ret in H.
      match type of H with match ?x with _ => _ end = _ => destruct x as [[b c1]| |]; try discriminate end.
      destruct (c_rulemiss c1); [eauto|]. rewrite Hr in H. destruct b; [|eauto]. cbn in H. congruence.
  Qed.

  Lemma deferred_refuses W rules tr0 h c : session W rules tr0 h c ->
    c_defresult c = aError \/ c_defresult c = aStall \/ c_defresult c = aReject.
  Proof.
    induction 1 as [|h c T ph e a c' Hs IH HD]; [left; reflexivity|].
    unfold Decide, mbind, upd, get, ret in HD. set (c1 := set_domerr _ _) in HD.
    assert (H1 : c_defresult c1 = aError \/ c_defresult c1 = aStall \/ c_defresult c1 = aReject).
    { subst c1. destruct ph; cbn; auto. }
    clearbody c1. destruct (Nat.leb _ _); [injection HD as <- <-; exact H1|].
    destruct (run_rules W T ph rules c1) as [[r c2]| |] eqn:Er; try discriminate.
    apply def_kept in Er. rewrite <- Er in H1.
    destruct (peqb ph pMfrom && beqb (c_from c2) [] && agtb r aAccept) eqn:Eb; injection HD as <- <-; [|exact H1].
    apply andb_true_iff in Eb as [_ Eb]. destruct r; try discriminate; cbn; auto.
  Qed.

  (** With -M a message is never accepted, whatever the rule files say. *)
  Theorem C48_never_accepted o I h data tls did n s s' r : Turn K E cn I h (mkTurn (EvGotData data) tls did) n s s' ->
    k_base K = documented o -> o_failgotdata o = true -> Forall (fun f => f <> []) (k_rulefiles K) ->
    replies did = [r] -> rclass r = 4 \/ rclass r = 5.
  Proof.
    intros HT HB HM HF Hr. assert (HI : si_rules I = [stall_all] \/ exists pre rest, si_rules I = pre ++ reject_messages :: rest /\ Forall (fun r => r_result r = aReject) pre).
    { destruct HT as (HC & _). apply Conv_info in HC as (rr & st & Hrr & ->). unfold info_of. destruct st; cbn [si_rules]; [left; apply stallall_is|].
      destruct (C12_all_or_nothing (v_fds E) (v_rfs E) (v_tick E) (k_base K) (k_rulefiles K) HF) as (r' & E' & [(parts & t' & _ & _ & H)|(_ & _ & H & _)]);
        assert (r' = rr) by congruence; subst r'; [right|left; auto].
      rewrite H, HB. unfold documented. rewrite HM.
      exists (if o_stdrules o then std_rules else []). eexists. split; [rewrite <- !app_assoc; cbn [app]; reflexivity|].
      destruct (o_stdrules o); repeat constructor. }
    destruct HI as [HI|(pre & rest & HI & HP)].
    { destruct (C13_stalled _ _ _ _ _ _ HT HI) as (r' & Hr' & Hc). cbn [t_did] in Hr'. left. congruence. }
    assert (Hev : is_command (EvGotData data) \/ is_helo (EvGotData data)) by (cbn; auto).
    destruct (C41_reply_class _ _ _ _ _ _ _ _ _ HT Hev) as [(d & Hd & Hab & _ & Hc & _ & Hdr & tr0 & Hs)|(_ & _ & _ & _ & Hc)]; [|left; auto].
    cbn [t_event t_did] in *.
    assert (Hgo : n = Go).
    { pose proof (Turn_Did _ _ _ _ _ _ _ _ _ HT) as HD. cbn in HD. inversion HD as [| | | | | | | | |? ? ? [He|He]|]; auto; discriminate. }
    specialize (Hc Hgo r Hr). apply About_is in Hab as [E1 E2].
    inversion Hs as [|h0 c0 T ph e a c' Hs0 HD E3 E4]; subst. cbn [d_phase d_evt d_result class] in *. subst ph e.
    apply deferred_refuses in Hs0. unfold Decide, mbind, upd, get, ret in HD. cbn [shadow] in HD. set (c1 := set_domerr _ _) in HD.
    assert (H1 : c_defresult c1 = c_defresult c0) by reflexivity. clearbody c1. rewrite H1 in HD.
    destruct Hs0 as [Hs0|[Hs0|Hs0]]; rewrite Hs0 in HD; cbn [acode Nat.leb] in HD.
    - rewrite HI in HD. destruct (run_rules _ _ _ _ c1) as [[x c2]| |] eqn:Er; try discriminate. cbn in HD.
      injection HD as -> _. apply message_rejected in Er; auto. subst a. right. exact Hc.
    - injection HD as <- _. left. exact Hc.
    - injection HD as <- _. right. exact Hc.
  Qed.

  (** ** C57 *)

  (** A reject at connect ends the session without a reply and whatever the
      client would send; otherwise the session goes on. *)
  Theorem C57_connect o s : setup K E cn (sess0 K) = Ok (o, s) ->
    exists d, decisions (s_out s) = [d] /\ d_phase d = pConnect /\ replies (s_out s) = [] /\
      (d_result d = aReject -> o = None /\ forall evs, process K E cn evs (sess0 K) = Ok (true, add_out [FHangup] s)) /\
      (d_result d <> aReject -> exists I, o = Some I /\ Conv K E cn I [] s).
  Proof.
    intros H. pose proof (Setup_session _ _ _ _ _ (setup_Setup _ _ _ _ _ H)) as (rr & st & tr0 & c & T & res & _ & _ & _ & Hd & Hr & Ho & _).
    eexists. split; [exact Hd|]. cbn [d_phase d_result]. split; auto. split; auto. split.
    - intros ->. split; [exact Ho|]. intros evs. unfold process, sbind. rewrite H, Ho. reflexivity.
    - intros Hn. exists (info_of K rr st). assert (Eo : o = Some (info_of K rr st)) by (destruct res; congruence).
      split; auto. constructor. rewrite <- Eo. exact H.
  Qed.
End S.

(** ** Examples *)

(** A stalled client: the rule file is missing. *)
Definition broken_cfg : config :=
  mkConfig (B "/save") (B "all") (B "helo") 0 100 (B "me") [] false [B "rules"] demo_rules true false true [B "c"].
Example C13_example : exists I h t n s s', Turn broken_cfg demo_env demo_conn I h t n s s' /\
  (si_rules I, t_event t, map (fun t => (t_event t, map rclass (replies (t_did t)))) h, map rclass (replies (t_did t))) =
  ([stall_all], EvRcptTo (B "jim@x.y"), [(EvMailFrom [], [2]); (EvMailFrom (B "a@x.y"), [4]); (EvHelo EHLO (B "h"), [4])], [4]).
Proof.
  apply (turn_example _ _ _ (plain [EvHelo EHLO (B "h"); EvMailFrom (B "a@x.y"); EvMailFrom []]) (EvRcptTo (B "jim@x.y")) no_tls
    (fun I h t n s s' => (si_rules I, t_event t, map (fun t => (t_event t, map rclass (replies (t_did t)))) h, map rclass (replies (t_did t))))).
  vm_compute. reflexivity.
Qed.
Example C13_broken_example : forall parts t', ~ LoadsAll (v_fds demo_env) (v_rfs demo_env) (v_tick demo_env) (k_rulefiles broken_cfg) parts t'.
Proof.
  intros parts t' H.
  destruct (C12_all_or_nothing (v_fds demo_env) (v_rfs demo_env) (v_tick demo_env) (k_base broken_cfg) (k_rulefiles broken_cfg)) as (r & Er & [(p & t1 & _ & Hg & _)|(Hn & _)]).
  - repeat constructor. discriminate.
  - vm_compute in Er. injection Er as <-. discriminate Hg.
  - eapply Hn; eauto.
Qed.

(** The code does accept a message that was not saved: the error of Write is
    lost when Close succeeds.  Here nothing at all was written. *)
Theorem C43_refuted : exists K E cn I h t n s s', Turn K E cn I h t n s s' /\
  exists data path m e, t_event t = EvGotData data /\ m <> [] /\ map rclass (replies (t_did t)) = [2] /\
    filter saving (t_did t) = [FOpen path OpOk; FWrite path m (WrErr 0 e); FSync path; FClose path None; FReply (RpAcceptData (B "X"))].
Proof.
  set (E := mkEnv demo_world 10 nofs 0 (fun _ _ => inr []) (fun _ => (false, 0%Z)) (fun _ => 1%Z) (fun _ => B "2026") (fun _ => B "now")
    (fun _ _ => None) (fun _ _ => OpOk) (fun _ _ => WrErr 0 (B "disk full")) (fun _ => None) (fun d => B "X") (fun d => MBody d) (fun _ _ _ => None)).
  exists (demo_cfg demo_rules), E, demo_conn.
  destruct (turn_example (demo_cfg demo_rules) E demo_conn (plain demo_mail) (EvGotData (B "Hello")) no_tls
    (fun I h t n s s' => (t_event t, map rclass (replies (t_did t)), filter saving (t_did t),
       match filter saving (t_did t) with _ :: FWrite _ m _ :: _ => m | _ => [] end))
    (match run_turn (demo_cfg demo_rules) E demo_conn (plain demo_mail) (EvGotData (B "Hello")) no_tls with
     | Some (_, _, t, _, _, _) => (t_event t, map rclass (replies (t_did t)), filter saving (t_did t),
       match filter saving (t_did t) with _ :: FWrite _ m _ :: _ => m | _ => [] end) | None => (EvOther, [], [], []) end))
    as (I & h & t & n & s & s' & HT & Ht); [vm_compute; reflexivity|].
  exists I, h, t, n, s, s'. split; auto. vm_compute in Ht. injection Ht as E1 E2 E3 E4.
  eexists _, _, _, _. split; [exact E1|]. split; [|split; [exact E2|exact E3]]. discriminate.
Qed.

(** A message that is saved; the record is that of C45. *)
Example C43_example : exists I h t n s s', Turn (demo_cfg demo_rules) demo_env demo_conn I h t n s s' /\
  (t_event t, map rclass (replies (t_did t)), length (filter saving (t_did t)), last_savedir (B "/save") (decisions (s_out s))) =
  (EvGotData (B "Hello"), [2], 5, B "/save").
Proof.
  apply (turn_example _ _ _ (plain demo_mail) (EvGotData (B "Hello")) no_tls
    (fun I h t n s s' => (t_event t, map rclass (replies (t_did t)), length (filter saving (t_did t)), last_savedir (B "/save") (decisions (s_out s))))).
  vm_compute. reflexivity.
Qed.
(** A savedir set at an earlier MAIL FROM is still in force for the next
    transaction. *)
Example C47_example : exists I h t n s s', Turn (demo_cfg demo_rules) demo_env demo_conn I h t n s s' /\
  (t_event t, sender h, last_savedir (B "/save") (decisions (s_out s)), map (fun x => firstn 5 (fst x)) (opens (t_did t))) =
  (EvGotData (B "Hello"), B "a@x.y", B "/dan", [B "/dan/"]).
Proof.
  apply (turn_example _ _ _ (plain (EvHelo EHLO (B "g") :: EvMailFrom (B "dan@x.y") :: demo_mail)) (EvGotData (B "Hello")) no_tls
    (fun I h t n s s' => (t_event t, sender h, last_savedir (B "/save") (decisions (s_out s)), map (fun x => firstn 5 (fst x)) (opens (t_did t))))).
  vm_compute. reflexivity.
Qed.

(** -M: the rule file accepts everything, the message is rejected, after it
    was logged and saved. *)
Definition M_opts : rule_opts := mkRuleOpts false true [] [] [].
Definition M_cfg : config :=
  mkConfig (B "/save") (B "all") (B "helo") 0 100 (B "me") [] false [B "rules"] (documented M_opts) true false true [B "c"].
Definition M_env : senv :=
  mkEnv demo_world 10 {| rf_read := fun _ _ => inl (B "accept all" ++ [ch_nl]) |} 0 (fun _ _ => inr []) (fun _ => (false, 0%Z)) (fun _ => 1%Z) (fun _ => B "2026") (fun _ => B "now")
    (fun _ _ => None) (fun _ _ => OpOk) (fun _ _ => WrOk) (fun _ => None) (fun d => B "H" ++ d) (fun d => MBody d) (fun _ _ _ => None).
Example C48_example : exists I h t n s s', Turn M_cfg M_env demo_conn I h t n s s' /\
  (length (si_rules I), t_event t, map (fun t => map rclass (replies (t_did t))) h, map rclass (replies (t_did t)), length (msglogs (t_did t)), length (filter saving (t_did t))) =
  (2, EvGotData (B "Hello"), [[2]; [2]; [2]; [2]; [2]; [2]; []], [5], 1, 5).
Proof.
  apply (turn_example _ _ _ (plain demo_mail) (EvGotData (B "Hello")) no_tls
    (fun I h t n s s' => (length (si_rules I), t_event t, map (fun t => map rclass (replies (t_did t))) h, map rclass (replies (t_did t)), length (msglogs (t_did t)), length (filter saving (t_did t))))).
  vm_compute. reflexivity.
Qed.

(** A client that is rejected when it connects, and one that is stalled. *)
Local Definition connect_result (r : list rule) : option (bool * list action) :=
  match setup (demo_cfg r) demo_env demo_conn (sess0 (demo_cfg r)) with
  | Ok (o, s) => Some (match o with None => true | Some _ => false end, map d_result (decisions (s_out s)))
  | _ => None
  end.
Example C57_example :
  connect_result (text_rules (B "@connect reject ip 192.0.2.0/24
")) = Some (true, [aReject]) /\
  connect_result (text_rules (B "@connect stall ip 192.0.2.0/24
")) = Some (false, [aStall]).
Proof. split; vm_compute; reflexivity. Qed.
