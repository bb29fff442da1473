(** Do-nothing clients and TLS failures in a session (C52, C53, C54, C56). *)
From Verif Require Import PropsParse.
From Verif Require Import Bytes Outcome Lexer Ast GoNet Parser World Dns Eval Decisions RuleLoad PropsLoad ConnCfg PropsConn CipherNames Message Session SessProofs Conv PropsEval PropsSession DemoSession.
From Coq Require Import Lia.

(** The operations on the two blacklists among some effects. *)
Definition yaks (l : list effect) : list bop := flat_map (fun e => match e with FYak o => [o] | _ => [] end) l.
Definition notlss (l : list effect) : list bop := flat_map (fun e => match e with FNotls o => [o] | _ => [] end) l.
Lemma yaks_app a b : yaks (a ++ b) = yaks a ++ yaks b.
Proof. apply flat_map_app. Qed.
Lemma notlss_app a b : notlss (a ++ b) = notlss a ++ notlss b.
Proof. apply flat_map_app. Qed.
Lemma yaks_rev l : yaks (rev l) = rev (yaks l).
Proof.
  induction l as [|e l IH]; auto. cbn [rev]. rewrite yaks_app, IH. destruct e; cbn; rewrite ?app_nil_r; reflexivity.
Qed.
Lemma notlss_rev l : notlss (rev l) = rev (notlss l).
Proof.
  induction l as [|e l IH]; auto. cbn [rev]. rewrite notlss_app, IH. destruct e; cbn; rewrite ?app_nil_r; reflexivity.
Qed.
Lemma yaks_vis l : yaks (vis l) = yaks l.
Proof. induction l as [|e l IH]; auto. rewrite vis_cons. destruct e; cbn [visible]; try exact IH; cbn; f_equal; exact IH. Qed.
Lemma notlss_vis l : notlss (vis l) = notlss l.
Proof. induction l as [|e l IH]; auto. rewrite vis_cons. destruct e; cbn [visible]; try exact IH; cbn; f_equal; exact IH. Qed.
Lemma yaks_idle l : Forall idle l -> yaks l = [].
Proof. intros H. rewrite <- yaks_vis, (vis_idle _ H). reflexivity. Qed.
Lemma notlss_idle l : Forall idle l -> notlss l = [].
Proof. intros H. rewrite <- notlss_vis, (vis_idle _ H). reflexivity. Qed.

Section S.
  Context (K : config) (E : senv) (cn : conn).

  (** ** The end of a session *)

  Definition has_opt (ws : smap bytes) (k : bytes) : bool := match mget ws k with Some _ => true | None => false end.

  (** lines in the SMTP log and in the log of do-nothing clients *)
  Definition smtplog_line (I : sinfo) (text : bytes) : list effect := if si_log I then [FSmtplog (n_prefix cn ++ text)] else [].
  Definition dn_line (when what : bytes) : list effect :=
    if k_dnlog K then [FDnlog (when ++ B " [" ++ n_prefix cn ++ B "] " ++ what ++ B " " ++ n_rip cn ++ B " -> " ++ n_laddr cn ++ [ch_nl])] else [].

  (** What is done about do-nothing clients at the end, earliest first. *)
  Inductive Ending (I : sinfo) (force got counts : bool) : list effect -> Prop :=
  | En_force n when : force = true ->
      Ending I force got counts (FYak (BSet (n_rip cn) (k_yakttl K) (k_yakcount K) n) ::
        if Z.eqb n (k_yakcount K) then []
        else smtplog_line I (B "! " ++ n_rip cn ++ B " forced to be a yakker" ++ [ch_nl]) ++ [FEvent (B "yakads"); FEvent (B "yakforces")] ++
             dn_line when (B "force-set"))
  | En_nothing n when : force = false -> got = false -> counts = true ->
      Ending I force got counts (FYak (BAdd (n_rip cn) (k_yakttl K) n) ::
        if Z.eqb n (k_yakcount K)
        then smtplog_line I (B "! " ++ n_rip cn ++ B " added as a yakker at hit " ++ itoa (Z.to_nat n) ++ [ch_nl]) ++ [FEvent (B "yakads")] ++
             dn_line when (B "added")
        else [])
  | En_clear : force = false -> got = true -> (0 < k_yakcount K)%Z -> Ending I force got counts [FYak (BDel (n_rip cn))]
  | En_none : force = false -> (if got then (k_yakcount K <= 0)%Z else counts = false) -> Ending I force got counts [].

  Definition statistics (e : effect) : Prop :=
    match e with FTime _ _ => True | FEvent x => x = B "abandons" \/ x = B "refuseds" | _ => False end.

  Lemma writeLog_exact I text s u s' : writeLog cn I text s = Ok (u, s') -> s' = add_out (smtplog_line I text) s.
  Proof.
    unfold writeLog, when_, smtplog_line. destruct (si_log I); intros H.
    - unfold logwrite in H. sapp emit_ok H. reflexivity.
    - sinv H. destruct s; reflexivity.
  Qed.
  Lemma yakLog_exact what s u s' : yakLog K E cn what s = Ok (u, s') -> exists when, s' = add_out (dn_line when what) s.
  Proof.
    unfold yakLog, when_, dn_line. destruct (k_dnlog K); intros H.
    - apply sbind_ok in H as (i & sa & H1 & H). sapp index_ok H1. sapp emit_ok H. eexists. reflexivity.
    - sinv H. exists []. destruct s; reflexivity.
  Qed.
  Lemma add_out_app a b s : add_out a (add_out b s) = add_out (a ++ b) s.
  Proof. unfold add_out. cbn. rewrite app_assoc. reflexivity. Qed.
  Lemma rev_smtplog I text : rev (smtplog_line I text) = smtplog_line I text.
  Proof. unfold smtplog_line. destruct (si_log I); reflexivity. Qed.
  Lemma rev_dn when what : rev (dn_line when what) = dn_line when what.
  Proof. unfold dn_line. destruct (k_dnlog K); reflexivity. Qed.

  (** The counter for how the session went. *)
  Definition outcome_of (I : sinfo) (counts good : bool) : list effect :=
    if si_good I && (counts || Z.eqb (k_yakcount K) 0) then [FEvent (if good then B "abandons" else B "refuseds")] else [].
  Definition minphase_time (got : bool) : list effect :=
    if got && negb (beqb (k_minphase K) (B "message")) then [FTime (B "reached_minphase") (n_laddr cn)] else [].

  Lemma finish_exact I s s' : finish K E cn I s = Ok (tt, s') ->
    exists l1, after (l1 ++ minphase_time (s_got s) ++ outcome_of I (s_counts s) (x_lastgood (s_tx s))) s s' /\
      Ending I (has_opt (c_withprops (s_ctx s)) (B "make-yakker")) (s_got s) (s_counts s) l1.
  Proof.
    unfold finish. intros H. apply sbind_ok in H as (force & sa & H1 & H). sapp @sget_ok H1.
    apply sbind_ok in H as (got & sa & H1 & H). sapp @sget_ok H1.
    apply sbind_ok in H as (counts & sa & H1 & H). sapp @sget_ok H1.
    fold (has_opt (c_withprops (s_ctx s)) (B "make-yakker")) in H.
    set (force := has_opt _ _) in *. clearbody force.
    apply sbind_ok in H as (u & s1 & H1 & H).
    assert (HA : exists l1, s1 = add_out (rev l1) s /\ Ending I force (s_got s) (s_counts s) l1).
    { clear H. destruct force eqn:Ef.
      - apply sbind_ok in H1 as (cnt & s2 & H2 & H1). unfold yakSet in H2. apply sbind_ok in H2 as (i & sa & H3 & H2). sapp index_ok H3.
        cbn zeta in H2. apply sbind_ok in H2 as (u1 & sa & H3 & H2). sapp emit_ok H3. sapp @sret_ok H2. 
        destruct (Z.eqb (v_count E (length (s_out s))) (k_yakcount K)) eqn:En; cbn [negb when_] in H1.
        + sapp @sret_ok H1. eexists. split; [|apply (En_force _ _ _ _ (v_count E (length (s_out s))) []); auto]. rewrite En. reflexivity.
        + apply sbind_ok in H1 as (u2 & sa & H3 & H1). apply writeLog_exact in H3 as ->.
          apply sbind_ok in H1 as (u3 & sa & H3 & H1). unfold event in H3. sapp emit_ok H3.
          apply sbind_ok in H1 as (u4 & sa & H3 & H1). unfold event in H3. sapp emit_ok H3.
          apply yakLog_exact in H1 as (when & ->).
          eexists. split; [|apply (En_force _ _ _ _ (v_count E (length (s_out s))) when); auto]. rewrite En.
          rewrite !add_out_app. cbn [rev app]. rewrite !rev_app_distr, rev_smtplog. cbn [rev app]. rewrite rev_dn, <- !app_assoc. reflexivity.
      - destruct (s_got s) eqn:Eg; cbn [negb andb] in H1; [|destruct (s_counts s) eqn:Ec].
        + rewrite andb_true_r in H1. destruct (Z.ltb_spec 0 (k_yakcount K)) as [Hy|Hy]; cbn [when_] in H1.
          * sapp emit_ok H1. exists [FYak (BDel (n_rip cn))]. split; [reflexivity|]. apply En_clear; auto.
          * sapp @sret_ok H1. exists []. split; [destruct s; reflexivity|]. apply En_none; auto.
        + apply sbind_ok in H1 as (cnt & s2 & H2 & H1). unfold yakAdd in H2. apply sbind_ok in H2 as (i & sa & H3 & H2). sapp index_ok H3.
          cbn zeta in H2. apply sbind_ok in H2 as (u1 & sa & H3 & H2). sapp emit_ok H3. sapp @sret_ok H2.
          destruct (Z.eqb (v_count E (length (s_out s))) (k_yakcount K)) eqn:En; cbn [negb when_] in H1.
          * apply sbind_ok in H1 as (u2 & sa & H3 & H1). apply writeLog_exact in H3 as ->.
            apply sbind_ok in H1 as (u3 & sa & H3 & H1). unfold event in H3. sapp emit_ok H3.
            apply yakLog_exact in H1 as (when & ->).
            eexists. split; [|apply (En_nothing _ _ _ _ (v_count E (length (s_out s))) when); auto]. rewrite En.
            rewrite !add_out_app. cbn [rev app]. rewrite !rev_app_distr, rev_smtplog. cbn [rev app]. rewrite rev_dn, <- !app_assoc. reflexivity.
          * sapp @sret_ok H1. eexists. split; [|apply (En_nothing _ _ _ _ (v_count E (length (s_out s))) []); auto]. rewrite En. reflexivity.
        + rewrite andb_false_r in H1. sapp @sret_ok H1. exists []. split; [destruct s; reflexivity|]. apply En_none; auto. }
    destruct HA as (l1 & -> & HE). exists l1.
    apply sbind_ok in H as (u1 & s2 & H2 & H).
    assert (HB : s2 = add_out (rev (minphase_time (s_got s))) (add_out (rev l1) s)).
    { unfold when_ in H2. unfold minphase_time. destruct (s_got s && _).
      - unfold updateTime in H2. sapp emit_ok H2. reflexivity.
      - sapp @sret_ok H2. destruct s; reflexivity. }
    subst s2. clear H2.
    apply sbind_ok in H as (good & sa & H3 & H). sapp @gettx_ok H3. cbn [add_out s_tx] in H.
    assert (HC : s' = add_out (rev (outcome_of I (s_counts s) (x_lastgood (s_tx s)))) (add_out (rev (minphase_time (s_got s))) (add_out (rev l1) s))).
    { unfold when_ in H. unfold outcome_of. destruct (si_good I && _).
      - unfold event in H. sapp emit_ok H. reflexivity.
      - sapp @sret_ok H. destruct s; reflexivity. }
    subst s'. split; [|exact HE].
    unfold after. rewrite !add_out_app. cbn [s_out add_out]. rewrite !rev_app_distr, <- !app_assoc. reflexivity.
  Qed.

  Lemma finish_spec I s s' : finish K E cn I s = Ok (tt, s') ->
    exists l1 l2, after (l1 ++ l2) s s' /\ Forall statistics l2 /\
      Ending I (has_opt (c_withprops (s_ctx s)) (B "make-yakker")) (s_got s) (s_counts s) l1.
  Proof.
    intros H. apply finish_exact in H as (l1 & Ha & HE). exists l1. eexists. split; [exact Ha|]. split; [|exact HE].
    unfold minphase_time, outcome_of. apply Forall_app. split.
    - destruct (s_got s && _); repeat constructor.
    - destruct (si_good I && _); constructor; [destruct (x_lastgood _); cbn; auto|constructor].
  Qed.

  Lemma statistics_silent l : Forall statistics l -> yaks l = [] /\ notlss l = [].
  Proof. induction 1 as [|e l H _ [IH1 IH2]]; auto. destruct e; simpl in *; try tauto. Qed.

  (** ** C53: how far a session got, and whether it counts *)

  (** A turn makes the progress asked for with the setting [m] of -minphase. *)
  Definition progress (m : bytes) (t : turn) : bool :=
    match t_event t with
    | EvHelo _ _ => accepted t && beqb m (B "helo")
    | EvMailFrom _ => accepted t && beqb m (B "from")
    | EvRcptTo _ => accepted t && beqb m (B "to")
    | EvData _ => accepted t && beqb m (B "data")
    | EvGotData _ => beqb m (B "message") || (accepted t && beqb m (B "accepted"))
    | _ => false
    end.
  (** A message could not be saved. *)
  Definition failed_op (e : effect) : bool := match e with FOpen _ (OpErr _) | FClose _ (Some _) => true | _ => false end.
  Definition unsaved (t : turn) : bool := match t_event t with EvGotData _ => existsb failed_op (t_did t) | _ => false end.
  Definition tls_failure (t : turn) : bool := match t_event t with EvTlsError => true | _ => false end.
  (** The session got far enough. *)
  Definition got_far (h : list turn) : bool := existsb (fun t => progress (k_minphase K) t || unsaved t) h.

  Lemma failed_vis l : existsb failed_op (vis l) = existsb failed_op l.
  Proof. induction l as [|e l IH]; auto. rewrite vis_cons. destruct e; cbn [visible existsb failed_op]; rewrite ?IH; auto. Qed.
  Lemma Kept_failed path m r l : Kept path m r l -> existsb failed_op l = match r with Some _ => true | None => false end.
  Proof. intros [ | |r0 w]; auto. destruct r0; reflexivity. Qed.
  Lemma msglog_failed (b : bool) x : existsb failed_op (if b then [FMsglog x] else []) = false.
  Proof. destruct b; reflexivity. Qed.

  Lemma replies_mail d l r : replies l = [] -> replies (FDecide d :: l ++ [FReply r]) = [r].
  Proof. intros H. change (replies (FDecide d :: l ++ [FReply r])) with (replies (l ++ [FReply r])). rewrite replies_app, H. reflexivity. Qed.

  Theorem Conv_got I h s : Conv K E cn I h s -> s_got s = got_far h.
  Proof.
    induction 1 as [s Hs|h s ev tls s' did HC IH Hst Ha].
    - apply setup_Setup in Hs. destruct Hs as [rr hit n inf l1 l2 sname tr1 name certs tr2 l3 thit tn l4 rd tr0 refused res c ans s1 l5 Hr Hi _ _ _ H1 H2 H3 H4 H5 HD _].
      apply Decided_Judged in HD as (t & log & HJ & HA & Hlog & Hs & Ho). destruct Hs as (_ & _ & _ & Eg & _). exact Eg.
    - assert (HT : Turn K E cn I h (mkTurn ev tls did) Go s s') by (repeat split; auto).
      apply Turn_Did in HT. cbn [t_event t_tls t_did] in HT.
      unfold got_far in *. cbn [existsb]. unfold progress, unsaved, accepted. cbn [t_event t_did].
      rewrite <- (failed_vis did). rewrite <- (replies_vis did).
      remember Go as n eqn:En. remember (vis did) as l eqn:El.
      destruct HT as [ev tls ph e res c t d s' Hc Hr HJ Hs|cmd arg tls res c t d s' Hr HJ Hs|arg tls res c t d n s' Hr HJ Hy Hn Hs
        |arg tls res c t d l s' Hr HJ Hl Hs|arg tls res c t d s' Hr HJ Hs|arg tls res c t d s' Hr HJ Hs
        |data tls when t name e save s' Hm Hd Hn Hk Hs|data tls when t name save res c t1 d got b r s' Hm Hk HJ Hb Hs|tls n s' Hs|ev tls s' He Hs|tls];
        try discriminate; try (destruct Hs as (_ & _ & _ & Eg & _); rewrite Eg, ?IH); unfold reaches; rewrite ?replies_app, ?existsb_app.
      + cbn [replies flat_map app existsb failed_op orb]. rewrite (refusal_not2 _ _ _ _ _ Hr). destruct ev; try discriminate; reflexivity.
      + cbn [replies flat_map app existsb failed_op andb orb]. rewrite orb_false_r. apply orb_comm.
      + rewrite (replies_mail d l) by (destruct (retry s); [destruct Hl as (n & -> & _)|subst l]; reflexivity).
        rewrite accept_is2. cbn [andb orb]. rewrite orb_false_r. apply orb_comm.
      + cbn [replies flat_map app existsb failed_op orb]. rewrite accept_is2. cbn [andb]. rewrite orb_false_r. apply orb_comm.
      + cbn [replies flat_map app existsb failed_op orb]. rewrite accept_is2. cbn [andb]. rewrite orb_false_r. apply orb_comm.
      + rewrite (Kept_failed _ _ _ _ Hk). cbn. rewrite !orb_true_r. reflexivity.
      + cbn [replies flat_map app existsb failed_op orb]. rewrite msglog_failed.
        assert (Hsr : replies save = [] /\ existsb failed_op save = false).
        { destruct Hk as [(_ & _ & ->)|(_ & _ & Hk)]; [auto|]. split; [apply (Kept_silent _ _ _ _ Hk)|]. rewrite (Kept_failed _ _ _ _ Hk). reflexivity. }
        destruct Hsr as [Hs1 Hs2]. rewrite Hs2, (proj1 (msglog_silent _ _)), Hs1. cbn [app orb].
        rewrite orb_false_r. rewrite <- orb_assoc, orb_comm. f_equal. f_equal.
        destruct Hb as [(-> & _ & -> & ->)|(-> & Hr & -> & ->)]; [rewrite accept_is2|rewrite (refusal_not2 _ _ _ _ _ Hr)]; reflexivity.
      + reflexivity.
      + exact IH.
  Qed.

  Lemma Setup_counts o s : Setup K E cn o s -> exists rr hit n l,
    setupRules (v_fds E) (v_rfs E) (v_tick E) (k_base K) (k_rulefiles K) = Some rr /\
    (forall I, o = Some I -> I = info_of K rr (stalled K hit n)) /\
    s_counts s = rr_good rr && Z.ltb 0 (k_yakcount K) && negb (stalled K hit n) /\
    yaks (s_out s) = [BLookup (n_rip cn) (k_yakttl K) hit n] /\ notlss (s_out s) = l.
  Proof.
    intros [rr hit n inf l1 l2 sname tr1 name certs tr2 l3 thit tn l4 rd tr0 refused res c ans s1 l5 Hr Hi _ _ _ H1 H2 H3 H4 H5 HD _].
    apply Decided_Judged in HD as (t & log & HJ & HA & Hlog & Hs & Ho).
    exists rr, hit, n. eexists. split; auto. split; [destruct refused; congruence|]. destruct Hs as (_ & _ & _ & _ & Ec). split; [exact Ec|]. split; [|reflexivity].
    assert (Hans : yaks ans = []) by (inversion HA; reflexivity).
    assert (Hlg : yaks log = []) by (rewrite <- yaks_vis, (vis_chatter _ Hlog); reflexivity).
    cbn [add_out s_out]. rewrite yaks_app, (yaks_idle _ H5), Ho, !yaks_app, Hans, Hlg. cbn [app].
    change (yaks (l4 ++ FNotls (BLookup (n_rip cn) tlsTimeout thit tn) :: l3 ++ l2 ++ FYak (BLookup (n_rip cn) (k_yakttl K) hit n) :: l1) =
      [BLookup (n_rip cn) (k_yakttl K) hit n]).
    rewrite yaks_app, (yaks_idle _ H4). change (yaks (l3 ++ l2 ++ FYak (BLookup (n_rip cn) (k_yakttl K) hit n) :: l1) =
      [BLookup (n_rip cn) (k_yakttl K) hit n]). rewrite !yaks_app, (yaks_idle _ H3), (yaks_idle _ H2).
    change (BLookup (n_rip cn) (k_yakttl K) hit n :: yaks l1 = [BLookup (n_rip cn) (k_yakttl K) hit n]). rewrite (yaks_idle _ H1). reflexivity.
  Qed.

  Theorem Conv_counts I h s : Conv K E cn I h s ->
    s_counts s = si_good I && Z.ltb 0 (k_yakcount K) && negb (si_stall I) && negb (existsb tls_failure h).
  Proof.
    induction 1 as [s Hs|h s ev tls s' did HC IH Hst Ha].
    - apply setup_Setup in Hs. apply Setup_counts in Hs as (rr & hit & n & l & _ & Hi & -> & _).
      rewrite (Hi _ eq_refl). unfold info_of. destruct (stalled K hit n); cbn [si_good si_stall existsb negb]; rewrite ?andb_true_r; reflexivity.
    - assert (HT : Turn K E cn I h (mkTurn ev tls did) Go s s') by (repeat split; auto).
      apply Turn_Did in HT. cbn [t_event t_tls t_did] in HT. cbn [existsb]. unfold tls_failure at 1. cbn [t_event].
      remember Go as n eqn:En. remember (vis did) as l eqn:El.
      destruct HT as [ev tls ph e res c t d s' Hc Hr HJ Hs|cmd arg tls res c t d s' Hr HJ Hs|arg tls res c t d n s' Hr HJ Hy Hn Hs
        |arg tls res c t d l s' Hr HJ Hl Hs|arg tls res c t d s' Hr HJ Hs|arg tls res c t d s' Hr HJ Hs
        |data tls when t name e save s' Hm Hd Hn Hk Hs|data tls when t name save res c t1 d got b r s' Hm Hk HJ Hb Hs|tls n s' Hs|ev tls s' He Hs|tls];
        try discriminate; try (destruct Hs as (_ & _ & _ & _ & Ec); rewrite Ec, ?IH); cbn [orb negb]; rewrite ?andb_false_r; auto.
      destruct ev; try discriminate; reflexivity.
  Qed.

  (** ** What a session does to the list of do-nothing clients *)

  (** The options of the last decision. *)
  Definition last_withs (ds : list decision) : smap bytes := match ds with d :: _ => d_withs d | [] => [] end.

  Lemma Conv_withs I h s : Conv K E cn I h s -> c_withprops (s_ctx s) = last_withs (decisions (s_out s)).
  Proof.
    intros HC. apply Conv_session in HC as (tr0 & HS). inversion HS as [|h0 c T ph e a c' Hs HD E1 E2]; [|reflexivity].
    reflexivity.
  Qed.

  (** C53: what the end of a session does. *)
  Theorem C53_end I h t s s1 s' : Turn K E cn I h t Finish s s1 -> finish K E cn I s1 = Ok (tt, s') ->
    exists did n, after did s1 s' /\ yaks did =
      if has_opt (last_withs (decisions (s_out s1))) (B "make-yakker") then [BSet (n_rip cn) (k_yakttl K) (k_yakcount K) n]
      else if got_far h then (if Z.ltb 0 (k_yakcount K) then [BDel (n_rip cn)] else [])
      else if si_good I && Z.ltb 0 (k_yakcount K) && negb (si_stall I) && negb (existsb tls_failure h) then [BAdd (n_rip cn) (k_yakttl K) n]
      else [].
  Proof.
    intros HT HF. pose proof (Turn_Did _ _ _ _ _ _ _ _ _ HT) as HD. pose proof (Turn_decisions _ _ _ _ _ _ _ _ _ HT) as Hdec.
    destruct HT as (HC & _). rewrite <- (Conv_counts _ _ _ HC), <- (Conv_got _ _ _ HC).
    pose proof (Conv_withs _ _ _ HC) as Hw.
    remember Finish as n0 eqn:En0. remember (vis (t_did t)) as l0 eqn:El0.
    assert (Hs1 : c_withprops (s_ctx s1) = last_withs (decisions (s_out s1)) /\ s_got s1 = s_got s /\ s_counts s1 = s_counts s).
    { rewrite Hdec, <- decisions_vis. destruct HD; try discriminate. rewrite <- El0. destruct H0 as (_ & -> & _ & -> & ->). cbn. auto. }
    destruct Hs1 as (<- & <- & <-). apply finish_spec in HF as (l1 & l2 & Ha & Hl2 & HE).
    exists (l1 ++ l2). rewrite yaks_app, (proj1 (statistics_silent _ Hl2)), app_nil_r.
    assert (Hlog : forall I text, yaks (smtplog_line I text) = []) by (intros; unfold smtplog_line; destruct (si_log _); reflexivity).
    assert (Hdn : forall when text, yaks (dn_line when text) = []) by (intros; unfold dn_line; destruct (k_dnlog K); reflexivity).
    destruct HE as [n when Hf|n when Hf Hg Hc|Hf Hg Hy|Hf Hg]; rewrite Hf.
    - exists n. split; auto. destruct (Z.eqb n _); [reflexivity|]. 
      change (BSet (n_rip cn) (k_yakttl K) (k_yakcount K) n :: yaks (smtplog_line I (B "! " ++ n_rip cn ++ B " forced to be a yakker" ++ [ch_nl]) ++
        [FEvent (B "yakads"); FEvent (B "yakforces")] ++ dn_line when (B "force-set")) = [BSet (n_rip cn) (k_yakttl K) (k_yakcount K) n]).
      rewrite !yaks_app, Hlog, Hdn. reflexivity.
    - exists n. split; auto. rewrite Hg, Hc. destruct (Z.eqb n _); [|reflexivity].
      change (BAdd (n_rip cn) (k_yakttl K) n :: yaks (smtplog_line I (B "! " ++ n_rip cn ++ B " added as a yakker at hit " ++ itoa (Z.to_nat n) ++ [ch_nl]) ++
        [FEvent (B "yakads")] ++ dn_line when (B "added")) = [BAdd (n_rip cn) (k_yakttl K) n]).
      rewrite !yaks_app, Hlog, Hdn. reflexivity.
    - exists 0%Z. split; auto. rewrite Hg. apply Z.ltb_lt in Hy. rewrite Hy. reflexivity.
    - exists 0%Z. split; auto. destruct (s_got s1); [apply Z.ltb_ge in Hg|]; rewrite Hg; reflexivity.
  Qed.

  (** Before the end, only repeated attempts of a client that has not got far are
      noted: a MAIL FROM that the rules accept, after one that was accepted.  If
      there are too many the client is dropped. *)
  Theorem C53_attempt I h t n s s' : Turn K E cn I h t n s s' ->
    (yaks (t_did t) = [] /\ n <> Drop /\
     (forall arg, t_event t = EvMailFrom arg -> accepted t = true -> sender h <> [] -> got_far h = false ->
        si_good I && Z.ltb 0 (k_yakcount K) && negb (si_stall I) && negb (existsb tls_failure h) = true -> False)) \/
    exists arg k, t_event t = EvMailFrom arg /\ sender h <> [] /\ got_far h = false /\ existsb tls_failure h = false /\
      si_good I = true /\ (0 < k_yakcount K)%Z /\ si_stall I = false /\
      yaks (t_did t) = [BAdd (n_rip cn) (k_yakttl K) k] /\
      if Z.ltb (k_yakcount K) k then n = Drop /\ map rclass (replies (t_did t)) = [4] else n = Go /\ accepted t = true.
  Proof.
    intros HT. pose proof (Turn_Did _ _ _ _ _ _ _ _ _ HT) as HD. destruct HT as (HC & _).
    pose proof (Conv_counts _ _ _ HC) as Hc. pose proof (Conv_got _ _ _ HC) as Hg. apply Conv_envelope in HC as (Hf & _ & _).
    unfold accepted. rewrite <- (replies_vis (t_did t)), <- (yaks_vis (t_did t)). destruct t as [ev tls did]. cbn [t_event t_tls t_did] in *.
    remember (vis did) as l eqn:El. clear El.
    assert (Hretry : retry s = true -> sender h <> [] /\ got_far h = false /\ existsb tls_failure h = false /\
      si_good I = true /\ (0 < k_yakcount K)%Z /\ si_stall I = false).
    { unfold retry. rewrite Hf, Hg, Hc. intros Hr. apply andb_true_iff in Hr as [Hr H3]. apply andb_true_iff in Hr as [H1 H2].
      repeat (apply andb_true_iff in H3 as [H3 ?]). repeat match goal with H : negb _ = true |- _ => apply negb_true_iff in H end.
      split; [intros Es; rewrite Es in H1; discriminate|]. split; auto. split; auto. split; auto. split; auto. apply Z.ltb_lt; auto. }
    destruct HD as [ev tls ph e res c t d s' Hcm Hr HJ Hs|cmd arg tls res c t d s' Hr HJ Hs|arg tls res c t d n s' Hr HJ Hy Hn Hs
        |arg tls res c t d l s' Hr HJ Hl Hs|arg tls res c t d s' Hr HJ Hs|arg tls res c t d s' Hr HJ Hs
        |data tls when t name e save s' Hm Hd Hn Hk Hs|data tls when t name save res c t1 d got b r s' Hm Hk HJ Hb Hs|tls n s' Hs|ev tls s' He Hs|tls];
      try (left; cbn; repeat split; try discriminate; fail).
    - left. cbn. repeat split; try discriminate. intros arg -> Ha. rewrite (refusal_not2 _ _ _ _ _ Hr) in Ha. discriminate.
    - right. exists arg, n. destruct (Hretry Hy) as (H1 & H2 & H3 & H4 & H5 & H6). repeat (split; auto).
      apply Z.ltb_lt in Hn. rewrite Hn. auto.
    - destruct (retry s) eqn:Er.
      + destruct Hl as (k & -> & Hk). right. exists arg, k. destruct (Hretry eq_refl) as (H1 & H2 & H3 & H4 & H5 & H6). repeat (split; auto).
        apply Z.ltb_ge in Hk. rewrite Hk. cbn. rewrite accept_is2. auto.
      + subst l. left. cbn. repeat split; try discriminate. intros arg' [= <-] _ Hsd Hgf Hcnt.
        unfold retry in Er. rewrite Hf, Hg, Hc, Hgf, Hcnt in Er. cbn in Er. rewrite !andb_true_r in Er.
        apply negb_false_iff in Er. apply beqb_eq in Er. auto.
    - left. rewrite !yaks_app. assert (Hk' : yaks save = []) by (inversion Hk; reflexivity). rewrite Hk'.
      split; [destruct (k_msglog K); reflexivity|]. split; [discriminate|]. intros; discriminate.
    - left. rewrite !yaks_app. assert (Hk' : yaks save = []) by (destruct Hk as [(_ & _ & ->)|(_ & _ & Hk)]; [|inversion Hk]; reflexivity). rewrite Hk'.
      split; [destruct (k_msglog K); reflexivity|]. split; [discriminate|]. intros; discriminate.
    - left. cbn. repeat split; try discriminate. intros arg ->. destruct He; discriminate.
  Qed.

  (** The rules are good exactly if all rule files could be loaded. *)
  Theorem C53_good_rules I h s : Conv K E cn I h s -> Forall (fun f => f <> []) (k_rulefiles K) ->
    (si_good I = true <-> exists parts t', LoadsAll (v_fds E) (v_rfs E) (v_tick E) (k_rulefiles K) parts t').
  Proof.
    intros HC HF. assert (Hi : exists rr, setupRules (v_fds E) (v_rfs E) (v_tick E) (k_base K) (k_rulefiles K) = Some rr /\ si_good I = rr_good rr).
    { clear HF. induction HC as [s Hs|]; auto. apply setup_Setup in Hs. apply Setup_counts in Hs as (rr & hit & n & l & Hr & Hi & _).
      exists rr. split; auto. rewrite (Hi _ eq_refl). unfold info_of. destruct (stalled K hit n); reflexivity. }
    destruct Hi as (rr & Hr & ->).
    destruct (C12_all_or_nothing (v_fds E) (v_rfs E) (v_tick E) (k_base K) (k_rulefiles K) HF) as (r' & E' & [(parts & t' & H & H1 & _)|(H & H1 & _)]);
      assert (r' = rr) by congruence; subst r'; rewrite H1; split; auto; try discriminate.
    - eauto.
    - intros (p & t' & Hp). exfalso. eapply H; eauto.
  Qed.

  (** ** C52 *)

  Lemma yaks_after did s s' : after did s s' -> yaks (s_out s') = rev (yaks did) ++ yaks (s_out s).
  Proof. unfold after. intros ->. rewrite yaks_app, yaks_rev. reflexivity. Qed.

  Lemma Conv_noset I h s : Conv K E cn I h s -> forall ip ttl c n, ~ In (BSet ip ttl c n) (yaks (s_out s)).
  Proof.
    induction 1 as [s Hs|h s ev tls s' did HC IH Hst Ha]; intros ip ttl c n Hin.
    - apply setup_Setup in Hs. apply Setup_counts in Hs as (rr & hit & k & l & _ & _ & _ & Hy & _). rewrite Hy in Hin.
      cbn in Hin. destruct Hin as [Hin|[]]. discriminate.
    - assert (HT : Turn K E cn I h (mkTurn ev tls did) Go s s') by (repeat split; auto).
      rewrite (yaks_after _ _ _ Ha) in Hin. apply in_app_or in Hin as [Hin|Hin]; [|eapply IH; eauto].
      destruct (C53_attempt _ _ _ _ _ _ HT) as [(Hy & _)|(arg & k & _ & _ & _ & _ & _ & _ & _ & Hy & _)]; cbn [t_did] in Hy; rewrite Hy in Hin; cbn in Hin; [tauto|].
      destruct Hin as [Hin|[]]. discriminate.
  Qed.

  (** A client is made a do-nothing client by force exactly if the session ends
      with QUIT or with the connection and the last decision of the session has
      the option make-yakker. *)
  Theorem C52_exact evs b s' : process K E cn evs (sess0 K) = Ok (b, s') ->
    (exists ip ttl c n, In (BSet ip ttl c n) (yaks (s_out s'))) <->
    (exists I h t s s1 s2 rest, Turn K E cn I h t Finish s s1 /\ heard (t :: h) ++ rest = evs /\
       finish K E cn I s1 = Ok (tt, s2) /\ b = true /\ s' = add_out [FHangup] s2 /\
       has_opt (last_withs (decisions (s_out s'))) (B "make-yakker") = true).
  Proof.
    intros H. pose proof (process_went _ _ _ _ _ _ H) as HW.
    assert (Hend : forall did s1 s2, after did s1 s2 -> (exists l1 l2, did = l1 ++ l2 /\ Forall statistics l2 /\
      exists I f g c, Ending I f g c l1) -> decisions (s_out s2) = decisions (s_out s1)).
    { intros did s1 s2 Ha (l1 & l2 & -> & Hl2 & I & f & g & c & HE). unfold after in Ha. rewrite Ha, decisions_app, decisions_rev, decisions_app.
      replace (decisions l2) with (@nil decision) by (clear -Hl2; induction Hl2 as [|e l He _ IH]; auto; destruct e; simpl in *; tauto).
      replace (decisions l1) with (@nil decision); [reflexivity|].
      destruct HE as [n when Hf|n when Hf Hg Hc|Hf Hg Hy|Hf Hg]; auto; destruct (Z.eqb n _); auto; unfold smtplog_line, dn_line;
        destruct (si_log I), (k_dnlog K); reflexivity. }
    split.
    - intros (ip & ttl & c & n & Hin). destruct HW as [s Hs|I h s HC Hh|I h s t rest s' HT Hh|I h s t rest s1 s' HT Hh HF].
      + exfalso. apply setup_Setup in Hs. apply Setup_counts in Hs as (rr & hit & k & l & _ & _ & _ & Hy & _). cbn [add_out s_out] in Hin. cbn in Hin. fold (yaks (s_out s)) in Hin. rewrite Hy in Hin.
        cbn in Hin. destruct Hin as [Hin|[]]. discriminate.
      + exfalso. eapply Conv_noset; eauto.
      + exfalso. pose proof HT as (HC & _ & Ha). cbn in Hin. fold (yaks (s_out s')) in Hin. rewrite (yaks_after _ _ _ Ha) in Hin.
        apply in_app_or in Hin as [Hin|Hin]; [|eapply Conv_noset; eauto].
        destruct (C53_attempt _ _ _ _ _ _ HT) as [(Hy & _)|(arg & k & _ & _ & _ & _ & _ & _ & _ & Hy & _)]; rewrite Hy in Hin; cbn in Hin; [tauto|].
        destruct Hin as [Hin|[]]. discriminate.
      + exists I, h, t, s, s1, s', rest. repeat (split; [solve [auto]|]).
        cbn in Hin. fold (yaks (s_out s')) in Hin. cbn [add_out s_out]. change (decisions ([FHangup] ++ s_out s')) with (decisions (s_out s')).
        destruct (finish_spec _ _ _ HF) as (l1 & l2 & Ha & Hl2 & HE). rewrite (Hend _ _ _ Ha) by (exists l1, l2; eauto 10).
        destruct (C53_end _ _ _ _ _ _ HT HF) as (did & k & Ha' & Hy). rewrite (yaks_after _ _ _ Ha') in Hin.
        apply in_app_or in Hin as [Hin|Hin].
        * rewrite <- in_rev, Hy in Hin. destruct (has_opt _ _); auto. exfalso. destruct (got_far h); [destruct (Z.ltb _ _)|destruct (_ && _)];
            cbn in Hin; intuition discriminate.
        * exfalso. pose proof HT as (HC & _ & Hat). rewrite (yaks_after _ _ _ Hat) in Hin. apply in_app_or in Hin as [Hin|Hin]; [|eapply Conv_noset; eauto].
          destruct (C53_attempt _ _ _ _ _ _ HT) as [(Hy' & _)|(arg & k' & _ & _ & _ & _ & _ & _ & _ & Hy' & _)]; rewrite Hy' in Hin; cbn in Hin; [tauto|].
          destruct Hin as [Hin|[]]. discriminate.
    - intros (I & h & t & s & s1 & s2 & rest & HT & Hev & HF & -> & -> & Hop).
        destruct (C53_end _ _ _ _ _ _ HT HF) as (did & k & Ha' & Hy).
        destruct (finish_spec _ _ _ HF) as (l1 & l2 & Ha & Hl2 & HE).
        cbn [add_out s_out] in Hop |- *. change (decisions ([FHangup] ++ s_out s2)) with (decisions (s_out s2)) in Hop.
        rewrite (Hend _ _ _ Ha) in Hop by (exists l1, l2; eauto 10). rewrite Hop in Hy.
        eexists _, _, _, _. cbn. fold (yaks (s_out s2)). rewrite (yaks_after _ _ _ Ha'). apply in_or_app. left. rewrite <- in_rev, Hy. left. reflexivity.
  Qed.

  (** ** C54 and C56: the parameters of a connection *)

  (** the parameters given to the SMTP package *)
  Definition conns (l : list effect) : list (bytes * bool * option (list bytes * bool)) :=
    flat_map (fun e => match e with FConn name slow tls => [(name, slow, tls)] | _ => [] end) l.
  Lemma conns_app a b : conns (a ++ b) = conns a ++ conns b.
  Proof. apply flat_map_app. Qed.
  Lemma conns_rev l : conns (rev l) = rev (conns l).
  Proof. induction l as [|e l IH]; auto. cbn [rev]. rewrite conns_app, IH. destruct e; cbn; rewrite ?app_nil_r; reflexivity. Qed.
  Lemma conns_vis l : conns (vis l) = conns l.
  Proof. induction l as [|e l IH]; auto. rewrite vis_cons. destruct e; cbn [visible]; try exact IH; cbn; f_equal; exact IH. Qed.
  Lemma conns_idle l : Forall idle l -> conns l = [].
  Proof. intros H. rewrite <- conns_vis, (vis_idle _ H). reflexivity. Qed.
  Lemma chatter_silent l : Forall chatter l -> yaks l = [] /\ notlss l = [] /\ conns l = [].
  Proof. induction 1 as [|e l H _ (IH1 & IH2 & IH3)]; auto. destruct e; simpl in *; try tauto. Qed.

  (** A line of the configuration, or none, gives name and certificates. *)
  Inductive Chosen (d : list perDest) (addr h sname : bytes) (cs : list bytes) : bytes -> list bytes -> Prop :=
  | Ch_line before pd after : d = before ++ pd :: after -> Covers addr h (pd_local pd) ->
      Forall (fun e => ~ Covers addr h (pd_local e)) before ->
      Chosen d addr h sname cs (if beqb (pd_myname pd) [] then sname else pd_myname pd) (pd_certs pd)
  | Ch_none : Forall (fun e => ~ Covers addr h (pd_local e)) d -> Chosen d addr h sname cs sname cs.

  (** The parameters of a connection, from the two lookups made for it. *)
  Definition Parameters (yak tls : bool * Z) (name : bytes) (slow : bool) (offer : option (list bytes * bool)) : Prop :=
    exists sname tr certs, plain_name K E cn sname /\ params K E cn tr sname name certs /\
      slow = (k_goslow K || (k_smtplog K && Z.ltb 0 (k_yakcount K) && fst yak && Z.leb (k_yakcount K) (snd yak))) /\
      (offer = None <-> certs = [] \/ fst tls = true /\ (2 <= snd tls)%Z) /\
      (forall cs ask, offer = Some (cs, ask) -> cs = certs /\ (ask = true <-> snd tls = 0%Z)).

  Definition tls_errors (evs : list (sevent * tlsstate)) : nat :=
    length (filter (fun e => match fst e with EvTlsError => true | _ => false end) evs).

  Lemma setup_conns o s : setup K E cn (sess0 K) = Ok (o, s) ->
    exists name slow offer yak tls, conns (s_out s) = [(name, slow, offer)] /\ Parameters yak tls name slow offer /\
      yaks (s_out s) = [BLookup (n_rip cn) (k_yakttl K) (fst yak) (snd yak)] /\
      notlss (s_out s) = [BLookup (n_rip cn) (72 * 3600 * 1000000000)%Z (fst tls) (snd tls)] /\
      (s_tls s <> None <-> offer <> None /\ prop_of (s_ctx s) (B "tls-opt") <> B "off").
  Proof.
    intros H. apply setup_Setup in H.
    destruct H as [rr hit n inf l1 l2 sname tr1 name certs tr2 l3 thit tn l4 rd tr0 refused res c ans s1 l5 Hr Hi Hp Hc _ H1 H2 H3 H4 H5 HD _].
    apply Decided_Judged in HD as (t & log & HJ & HA & Hlog & Hs & Ho).
    destruct (chatter_silent _ Hlog) as (Hg1 & Hg2 & Hg3).
    exists name, (k_goslow K || si_stall inf), (option_map (fun ask => (certs, ask)) (tls_offer certs thit tn)), (hit, n), (thit, tn).
    assert (Hans : yaks ans = [] /\ notlss ans = [] /\ conns ans = []) by (inversion HA; subst; auto).
    destruct Hans as (Ha1 & Ha2 & Ha3). cbn [add_out s_out] in *. rewrite Ho.
    split; [|split; [|split; [|split]]].
    - rewrite !conns_app, (conns_idle l5), Ha3, Hg3 by auto. cbn. fold (conns (l4 ++ FNotls (BLookup (n_rip cn) tlsTimeout thit tn) :: l3 ++ l2 ++ FYak (BLookup (n_rip cn) (k_yakttl K) hit n) :: l1)).
      rewrite conns_app, (conns_idle l4) by auto. cbn. fold (conns (l3 ++ l2 ++ FYak (BLookup (n_rip cn) (k_yakttl K) hit n) :: l1)).
      rewrite !conns_app, (conns_idle l3), (conns_idle l2) by auto. cbn. fold (conns l1). rewrite (conns_idle l1); auto.
    - exists sname, tr1, certs. split; auto. split; auto. split.
      { subst inf. unfold info_of, stalled. destruct (_ && _ && _ && _) eqn:Est; cbn [si_stall fst snd]; f_equal.
        - repeat (apply andb_true_iff in Est as [Est ?]). rewrite Est, H, H0, H6. reflexivity.
        - rewrite <- Est. destruct (k_smtplog K), (Z.ltb 0 (k_yakcount K)), hit, (Z.leb (k_yakcount K) n); reflexivity. }
      unfold tls_offer. cbn [fst snd]. destruct certs as [|c0 certs]; [split; [cbn; tauto|discriminate]|].
      destruct (thit && Z.leb 2 tn) eqn:Eb; cbn [option_map].
      + apply andb_true_iff in Eb as [-> Eb%Z.leb_le]. split; [tauto|discriminate].
      + split; [split; [discriminate|]|].
        * intros [Hn|[-> Hn]]; [discriminate|]. apply Z.leb_le in Hn. rewrite Hn in Eb. discriminate.
        * intros cs ask [= <- <-]. split; auto. apply Z.eqb_eq.
    - rewrite !yaks_app, (yaks_idle l5), Ha1, Hg1 by auto. cbn. fold (yaks (l4 ++ FNotls (BLookup (n_rip cn) tlsTimeout thit tn) :: l3 ++ l2 ++ FYak (BLookup (n_rip cn) (k_yakttl K) hit n) :: l1)).
      rewrite yaks_app, (yaks_idle l4) by auto. cbn. fold (yaks (l3 ++ l2 ++ FYak (BLookup (n_rip cn) (k_yakttl K) hit n) :: l1)).
      rewrite !yaks_app, (yaks_idle l3), (yaks_idle l2) by auto. cbn. fold (yaks l1). rewrite (yaks_idle l1); auto.
    - rewrite !notlss_app, (notlss_idle l5), Ha2, Hg2 by auto. cbn [app notlss flat_map]. fold (notlss (l4 ++ FNotls (BLookup (n_rip cn) tlsTimeout thit tn) :: l3 ++ l2 ++ FYak (BLookup (n_rip cn) (k_yakttl K) hit n) :: l1)).
      rewrite notlss_app, (notlss_idle l4) by auto. cbn [app notlss flat_map]. fold (notlss (l3 ++ l2 ++ FYak (BLookup (n_rip cn) (k_yakttl K) hit n) :: l1)).
      rewrite !notlss_app, (notlss_idle l3), (notlss_idle l2) by auto. cbn [app notlss flat_map]. fold (notlss l1). rewrite (notlss_idle l1); auto.
    - destruct Hs as (_ & Ec & Et & _). cbn [s_tls s_ctx add_out]. rewrite Ec, Et. cbn [s_tls]. unfold new_tls.
      destruct (beqb_spec (prop_of c (B "tls-opt")) (B "off")) as [->|Hne]; [tauto|].
      destruct (beqb _ (B "no-client")); destruct (tls_offer certs thit tn); cbn; split; intuition congruence.
  Qed.

  Lemma Did_conns I s ev tls n l s' : Did K E cn I s ev tls n l s' ->
    conns l = [] /\ exists ns, notlss l = map (fun n => BAdd (n_rip cn) (72 * 3600 * 1000000000)%Z n) ns /\
      length ns = match ev with EvTlsError => 1 | _ => 0 end.
  Proof.
    intros [ev' tls' ph e res c t d s1 Hcm Hr HJ Hs|cmd arg tls' res c t d s1 Hr HJ Hs|arg tls' res c t d k s1 Hr HJ Hy Hn Hs
        |arg tls' res c t d l' s1 Hr HJ Hl Hs|arg tls' res c t d s1 Hr HJ Hs|arg tls' res c t d s1 Hr HJ Hs
        |data tls' when t name e save s1 Hm Hd Hn Hk Hs|data tls' when t name save res c t1 d got b r s1 Hm Hk HJ Hb Hs|tls' k s1 Hs|ev' tls' s1 He Hs|tls'];
      try (split; [reflexivity|]; exists []; split; reflexivity).
    - split; [reflexivity|]. exists []. split; [reflexivity|]. destruct ev'; try reflexivity; discriminate.
    - assert (Hl' : conns l' = [] /\ notlss l' = []) by (destruct (retry s); [destruct Hl as (k & -> & _)|subst]; auto).
      cbn. fold (conns (l' ++ [FReply (accept_reply [] (prop_of c (B "message")))])).
      fold (notlss (l' ++ [FReply (accept_reply [] (prop_of c (B "message")))])).
      rewrite conns_app, notlss_app. destruct Hl' as [-> ->]. split; auto. exists []. auto.
    - rewrite !conns_app, !notlss_app. assert (Hk' : conns save = [] /\ notlss save = []) by (inversion Hk; auto). destruct Hk' as [-> ->].
      destruct (k_msglog K); (split; [reflexivity|]; exists []; split; reflexivity).
    - rewrite !conns_app, !notlss_app.
      assert (Hk' : conns save = [] /\ notlss save = []) by (destruct Hk as [(_ & _ & ->)|(_ & _ & Hk)]; [|inversion Hk]; auto). destruct Hk' as [-> ->].
      destruct (k_msglog K); (split; [reflexivity|]; exists []; split; reflexivity).
    - split; [reflexivity|]. exists [k]. split; reflexivity.
    - split; [reflexivity|]. exists []. split; [reflexivity|]. destruct He as [-> | ->]; reflexivity.
  Qed.

  (** What the effects show: the parameters, the lookups, and the TLS errors. *)
  Definition Shown (out : list effect) (used : list (sevent * tlsstate)) : Prop :=
    exists name slow offer yak tls ns more, conns out = [(name, slow, offer)] /\ Parameters yak tls name slow offer /\
      rev (yaks out) = BLookup (n_rip cn) (k_yakttl K) (fst yak) (snd yak) :: more /\
      rev (notlss out) = BLookup (n_rip cn) (72 * 3600 * 1000000000)%Z (fst tls) (snd tls) ::
        map (fun n => BAdd (n_rip cn) (72 * 3600 * 1000000000)%Z n) ns /\
      length ns = tls_errors used.

  Lemma Shown_turn I h t n s s' used : Turn K E cn I h t n s s' -> Shown (s_out s) used -> Shown (s_out s') (used ++ [(t_event t, t_tls t)]).
  Proof.
    intros HT (name & slow & offer & yak & tls & ns & more & H1 & H2 & H3 & H4 & H5).
    pose proof (Turn_Did _ _ _ _ _ _ _ _ _ HT) as HD. destruct HT as (_ & _ & Ha). unfold after in Ha.
    apply Did_conns in HD as (Hc & ns' & Hn & Hlen). rewrite conns_vis in Hc. rewrite notlss_vis in Hn.
    exists name, slow, offer, yak, tls, (ns ++ ns'), (more ++ yaks (t_did t)). rewrite Ha, conns_app, conns_rev, Hc. split; [exact H1|]. split; auto.
    rewrite yaks_app, notlss_app, yaks_rev, notlss_rev, !rev_app_distr, !rev_involutive, H3, H4, Hn, map_app.
    split; [reflexivity|]. split; [reflexivity|]. unfold tls_errors in *. rewrite filter_app, !app_length, H5, Hlen. f_equal.
    cbn. destruct (t_event t); reflexivity.
  Qed.
  Lemma Shown_conv I h s : Conv K E cn I h s -> Shown (s_out s) (heard h).
  Proof.
    induction 1 as [s Hs|h s ev tls s' did HC IH Hst Ha].
    - apply setup_conns in Hs as (name & slow & offer & yak & tls & H1 & H2 & H3 & H4 & _). 
      exists name, slow, offer, yak, tls, [], []. rewrite H3, H4. repeat (split; auto).
    - rewrite heard_cons. apply (Shown_turn I h (mkTurn ev tls did) Go s s'); auto. repeat split; auto.
  Qed.
  Lemma Shown_more did s s' used : after did s s' -> conns did = [] -> notlss did = [] -> Shown (s_out s) used -> Shown (s_out s') used.
  Proof.
    intros Ha Hc Hn (name & slow & offer & yak & tls & ns & more & H1 & H2 & H3 & H4 & H5). unfold after in Ha.
    exists name, slow, offer, yak, tls, ns, (more ++ yaks did). rewrite Ha, conns_app, conns_rev, Hc. split; [exact H1|]. split; auto.
    rewrite yaks_app, notlss_app, yaks_rev, notlss_rev, !rev_app_distr, !rev_involutive, H3, H4, Hn, app_nil_r. auto.
  Qed.

  (** C54: TLS is offered exactly if there are certificates and the lookup among
      the clients with TLS failures did not find two or more; a certificate is
      asked for exactly if it found none; and each TLS failure of the session is
      noted there.  C56: the name and the certificates are those of [params]. *)
  Theorem C54_session evs b s' : process K E cn evs (sess0 K) = Ok (b, s') ->
    exists used rest, evs = used ++ rest /\ Shown (s_out s') used.
  Proof.
    intros H. apply process_went in H. assert (Hup : forall s used, Shown (s_out s) used -> Shown (s_out (add_out [FHangup] s)) used).
    { intros s used. apply (Shown_more [FHangup]); reflexivity. }
    destruct H as [s Hs|I h s HC Hh|I h s t rest s' HT Hh|I h s t rest s1 s' HT Hh HF].
    - exists [], evs. split; auto. apply Hup. apply setup_conns in Hs as (name & slow & offer & yak & tls & H1 & H2 & H3 & H4 & _).
      exists name, slow, offer, yak, tls, [], []. rewrite H3, H4. repeat (split; auto).
    - exists (heard h), []. rewrite app_nil_r. split; auto. eapply Shown_conv; eauto.
    - exists (heard (t :: h)), rest. split; auto. apply Hup. rewrite heard_cons. eapply Shown_turn; eauto. eapply Shown_conv. apply HT.
    - exists (heard (t :: h)), rest. split; auto. apply Hup. rewrite heard_cons.
      apply finish_spec in HF as (l1 & l2 & Ha & Hl2 & HE).
      assert (Hq : conns (l1 ++ l2) = [] /\ notlss (l1 ++ l2) = []).
      { rewrite conns_app, notlss_app, (proj2 (statistics_silent _ Hl2)).
        replace (conns l2) with (@nil (bytes * bool * option (list bytes * bool)))
          by (clear -Hl2; induction Hl2 as [|e l He _ IH]; auto; destruct e; simpl in *; tauto).
        rewrite !app_nil_r.
        destruct HE as [n when Hf|n when Hf Hg Hc|Hf Hg Hy|Hf Hg]; auto; destruct (Z.eqb n _); auto; unfold smtplog_line, dn_line;
          destruct (si_log I), (k_dnlog K); auto. }
      eapply Shown_more; [exact Ha|apply Hq|apply Hq|]. eapply Shown_turn; eauto. eapply Shown_conv. apply HT.
  Qed.

  (** With a rule with tls-opt off at the beginning, TLS is not offered after all. *)
  Theorem C54_tls_off o s : setup K E cn (sess0 K) = Ok (o, s) -> exists name slow offer, conns (s_out s) = [(name, slow, offer)] /\
    (s_tls s <> None <-> offer <> None /\ prop_of (s_ctx s) (B "tls-opt") <> B "off").
  Proof. intros H. apply setup_conns in H as (name & slow & offer & yak & tls & H1 & _ & _ & _ & H2). eauto. Qed.

  (** C56: the parameters in terms of the lines of the file. *)
  Theorem C56_parameters h p x yak tls name slow offer : AddrText h p (n_laddr cn) -> parse_ip h = Some x ->
    Parameters yak tls name slow offer ->
    exists sname certs, plain_name K E cn sname /\
      (certs = [] -> offer = None) /\ (forall cs ask, offer = Some (cs, ask) -> cs = certs) /\
      if beqb (k_connfile K) [] then name = sname /\ certs = k_certs K
      else exists tr, match fst (loadConnFile (v_world E) (v_keys E) (k_connfile K) tr) with
           | Ok (inl d) => Chosen d (n_laddr cn) h sname (k_certs K) name certs
           | Ok (inr _) => name = sname /\ certs = k_certs K
           | _ => False
           end.
  Proof.
    intros Ha Hx (sname & tr & certs & H1 & H2 & _ & H3 & H4). exists sname, certs. split; auto. split; [tauto|]. split; [intros cs ask Ho; apply (H4 cs ask Ho)|].
    unfold params in H2. destruct (beqb (k_connfile K) []); auto. exists tr.
    destruct (fst (loadConnFile _ _ _ tr)) as [[d|e]| |]; auto.
    destruct (dm_find (Some d) (n_laddr cn)) as [pd|] eqn:Ed.
    - apply (C56_first_line d (n_laddr cn) h p x pd Ha Hx) in Ed as (bf & af & -> & Hc & Hf). destruct H2 as [-> ->]. eapply Ch_line; eauto.
    - apply (C56_no_line d (n_laddr cn) h p x Ha Hx) in Ed. destruct H2 as [-> ->]. apply Ch_none; auto.
  Qed.
End S.

(** ** Examples *)

(** A server with -dncount 3 and -minphase to. *)
Definition yak_cfg (rules : list rule) : config :=
  mkConfig (B "/save") (B "all") (B "to") 3 100 (B "me") [] false [] rules true true true [B "c"].

Lemma process_example K E cn evs {A} (f : bool -> sess -> A) (v : A) :
  match process K E cn evs (sess0 K) with Ok (b, s') => Some (f b s') | _ => None end = Some v ->
  exists b s', process K E cn evs (sess0 K) = Ok (b, s') /\ f b s' = v.
Proof.
  intros H. destruct (process K E cn evs (sess0 K)) as [[b s']| |]; try discriminate. exists b, s'. split; auto. congruence.
Qed.

(** what a whole session does to the list of do-nothing clients, earliest first *)
Definition session_yaks (K : config) (E : senv) (cn : conn) (evs : list (sevent * tlsstate)) : option (bool * list bop) :=
  match process K E cn evs (sess0 K) with Ok (b, s') => Some (b, rev (yaks (s_out s'))) | _ => None end.

Example C53_example :
  session_yaks (yak_cfg []) demo_env demo_conn (plain [EvHelo EHLO (B "h"); EvMailFrom (B "a@x.y"); EvDone]) =
    Some (true, [BLookup (B "192.0.2.7") 100 false 0; BAdd (B "192.0.2.7") 100 1]) /\
  session_yaks (yak_cfg []) demo_env demo_conn (plain [EvHelo EHLO (B "h"); EvMailFrom (B "a@x.y"); EvRcptTo (B "b@x.y"); EvAbort]) =
    Some (true, [BLookup (B "192.0.2.7") 100 false 0; BDel (B "192.0.2.7")]) /\
  session_yaks (yak_cfg []) demo_env demo_conn (plain [EvTlsError; EvAbort]) =
    Some (true, [BLookup (B "192.0.2.7") 100 false 0]).
Proof. repeat split; vm_compute; reflexivity. Qed.
Example C53_attempt_example : exists I h t n s s', Turn (yak_cfg []) (demo_black false 0 4) demo_conn I h t n s s' /\
  (n, t_event t, yaks (t_did t), map rclass (replies (t_did t))) =
  (Drop, EvMailFrom (B "b@x.y"), [BAdd (B "192.0.2.7") 100 4], [4]).
Proof.
  apply (turn_example _ _ _ (plain [EvHelo EHLO (B "h"); EvMailFrom (B "a@x.y")]) (EvMailFrom (B "b@x.y")) no_tls
    (fun I h t n s s' => (n, t_event t, yaks (t_did t), map rclass (replies (t_did t))))).
  vm_compute. reflexivity.
Qed.
Example C53_end_example : exists I h t n s s', Turn (yak_cfg []) demo_env demo_conn I h t n s s' /\
  (n, si_good I, got_far (yak_cfg []) h, match finish (yak_cfg []) demo_env demo_conn I s' with Ok (_, s2) => Some (yaks (added s' s2)) | _ => None end) =
  (Finish, true, true, Some [BDel (B "192.0.2.7")]).
Proof.
  apply (turn_example _ _ _ (plain demo_mail) EvDone no_tls (fun I h t n s s' =>
    (n, si_good I, got_far (yak_cfg []) h, match finish (yak_cfg []) demo_env demo_conn I s' with Ok (_, s2) => Some (yaks (added s' s2)) | _ => None end))).
  vm_compute. reflexivity.
Qed.

(** The documentation says that make-yakker marks the client whatever it does
    later.  Here a rule with make-yakker matches the sender, the session goes on
    and ends with QUIT, and the client is not marked. *)
Definition marks : list rule := text_rules (B "@from set-with from a@ with make-yakker
").
Theorem C52_refuted : exists K E cn evs s', process K E cn evs (sess0 K) = Ok (true, s') /\
  (exists d, In d (decisions (s_out s')) /\ mget (d_withs d) (B "make-yakker") <> None) /\
  (exists before, map fst evs = before ++ [EvDone]) /\
  (forall ip ttl c n, ~ In (BSet ip ttl c n) (yaks (s_out s'))).
Proof.
  set (evs := plain [EvHelo EHLO (B "h"); EvMailFrom (B "a@x.y"); EvRcptTo (B "b@x.y"); EvDone]).
  destruct (process_example (yak_cfg marks) demo_env demo_conn evs
    (fun b s' => (b, map (fun d => mget (d_withs d) (B "make-yakker")) (decisions (s_out s')), yaks (s_out s')))
    (true, [None; Some []; None; None], [BDel (B "192.0.2.7"); BLookup (B "192.0.2.7") 100 false 0])) as (b & s' & Ep & H); [vm_compute; reflexivity|].
  assert (b = true) as -> by congruence. assert (Hd : map (fun d => mget (d_withs d) (B "make-yakker")) (decisions (s_out s')) = [None; Some []; None; None]) by congruence.
  assert (Hy : yaks (s_out s') = [BDel (B "192.0.2.7"); BLookup (B "192.0.2.7") 100 false 0]) by congruence. clear H.
  exists (yak_cfg marks), demo_env, demo_conn, evs, s'. split; [exact Ep|]. split; [|split].
  - destruct (decisions (s_out s')) as [|d1 [|d2 l]]; try discriminate Hd. injection Hd as _ Hd _. exists d2.
    split; [right; left; reflexivity|]. intros Hn. pose proof (eq_trans (eq_sym Hn) Hd) as H. discriminate H.
  - exists [EvHelo EHLO (B "h"); EvMailFrom (B "a@x.y"); EvRcptTo (B "b@x.y")]. reflexivity.
  - intros ip ttl c n Hin. rewrite Hy in Hin. cbn in Hin. intuition discriminate.
Qed.
(** It is marked if the last decision has the option. *)
Example C52_example :
  session_yaks (yak_cfg marks) demo_env demo_conn (plain [EvHelo EHLO (B "h"); EvMailFrom (B "a@x.y"); EvDone]) =
    Some (true, [BLookup (B "192.0.2.7") 100 false 0; BSet (B "192.0.2.7") 100 3 1]).
Proof. vm_compute. reflexivity. Qed.

(** A client with one TLS failure, and one with two. *)
Definition session_conns (K : config) (E : senv) (cn : conn) (evs : list (sevent * tlsstate)) :=
  match process K E cn evs (sess0 K) with Ok (b, s') => Some (conns (s_out s'), rev (notlss (s_out s'))) | _ => None end.
Example C54_example :
  session_conns (yak_cfg []) demo_env demo_conn (plain [EvTlsError; EvTlsError; EvAbort]) =
    Some ([(B "me", false, Some ([B "c"], true))], [BLookup (B "192.0.2.7") tlsTimeout false 0; BAdd (B "192.0.2.7") tlsTimeout 1; BAdd (B "192.0.2.7") tlsTimeout 1]) /\
  session_conns (yak_cfg []) (demo_black true 1 1) demo_conn [] =
    Some ([(B "me", false, Some ([B "c"], false))], [BLookup (B "192.0.2.7") tlsTimeout true 1]) /\
  session_conns (yak_cfg []) (demo_black true 2 1) demo_conn [] =
    Some ([(B "me", false, None)], [BLookup (B "192.0.2.7") tlsTimeout true 2]).
Proof. repeat split; vm_compute; reflexivity. Qed.
Example C56_example : AddrText (B "192.0.2.1") (B "25") (n_laddr demo_conn) /\ exists x, parse_ip (B "192.0.2.1") = Some x.
Proof.
  split; [|eexists; vm_compute; reflexivity]. apply (AT_plain (B "192.0.2.1") (B "25")); intros c Hc Hd;
    repeat (destruct Hc as [<-|Hc]; [cbn in Hd; intuition discriminate|]); destruct Hc.
Qed.
