(** The event counters of the statistics (C66). *)
From Verif Require Import PropsParse.
From Verif Require Import Bytes Outcome Lexer Ast GoNet Parser World Dns Eval Decisions RuleLoad PropsLoad ConnCfg PropsConn CipherNames Message Session SessProofs Conv PropsEval PropsSession DemoSession PropsYak.
From Coq Require Import Lia.

Lemma tallies_rev l : tallies (rev l) = rev (tallies l).
Proof. induction l as [|e l IH]; auto. cbn [rev]. rewrite tallies_app, IH. destruct e; cbn; rewrite ?app_nil_r; reflexivity. Qed.

Section T.
  Context (K : config) (E : senv) (cn : conn).

  (** Whether TLS has been noted as on: by an accepted HELO, or by a message. *)
  Fixpoint tls_noted (h : list turn) : bool :=
    match h with
    | [] => false
    | t :: h' => match t_event t with
                 | EvHelo _ _ => if accepted t then tls_noted h' || ts_on (t_tls t) else tls_noted h'
                 | EvGotData _ => ts_on (t_tls t)
                 | _ => tls_noted h'
                 end
    end.

  (** The counters a turn increases. *)
  Definition counted (h : list turn) (t : turn) : list bytes :=
    match t_event t with
    | EvHelo _ _ => B "ehlo" ::
        if accepted t then B "ehloAccept" :: (if ts_on (t_tls t) && negb (tls_noted h) then [B "tlson"; B "starttls"] else []) else []
    | EvMailFrom _ => B "mailfrom" :: match yaks (t_did t) with [] => [] | _ => [B "rsets"] end ++
        if accepted t then [B "mailfromAccept"]
        else match yaks (t_did t) with [] => [] | _ => [B "yakads"; B "rsetdrops"] end
    | EvRcptTo _ => B "rcptto" :: if accepted t then [B "rcpttoAccept"] else []
    | EvData _ => B "data" :: if accepted t then [B "dataAccept"] else []
    | EvGotData _ => [B "messages"]
    | EvTlsError => [B "tlserrs"; B "starttls"]
    | EvDone => [B "quits"]
    | EvAbort => [B "aborts"]
    | EvOther => []
    end.

  Lemma Conv_tlson I h s : Conv K E cn I h s -> x_tlson (s_tx s) = tls_noted h.
  Proof.
    induction 1 as [s Hs|h s ev tls s' did HC IH Hst Ha].
    - apply setup_Setup in Hs. destruct Hs as [rr hit n inf l1 l2 sname tr1 name certs tr2 l3 thit tn l4 rd tr0 refused res c ans s1 l5 Hr Hi Hp Hc _ _ _ _ _ _ HD _].
      apply Decided_Judged in HD as (t & log & HJ & _ & _ & Hs & _). destruct Hs as (Ht & _). cbn [add_out s_tx]. rewrite Ht.
      apply Judged_from in HJ as (_ & _ & _ & -> & _). reflexivity.
    - assert (HT : Turn K E cn I h (mkTurn ev tls did) Go s s') by (repeat split; auto).
      apply Turn_Did in HT. cbn [tls_noted t_event t_tls]. unfold accepted. cbn [t_event t_did] in *. rewrite <- (replies_vis did).
      remember (vis did) as l eqn:El. clear El. cbn [t_event t_tls] in HT.
      destruct HT as [ev tls ph e res c t d s' Hcm Hr HJ Hs|cmd arg tls res c t d s' Hr HJ Hs|arg tls res c t d n s' Hr HJ Hy Hn Hs
        |arg tls res c t d l s' Hr HJ Hl Hs|arg tls res c t d s' Hr HJ Hs|arg tls res c t d s' Hr HJ Hs
        |data tls when t name e save s' Hm Hd Hn Hk Hs|data tls when t name save res c t1 d got b r s' Hm Hk HJ Hb Hs|tls n s' Hs|ev tls s' He Hs|tls];
      try (destruct Hs as (Ht & _)); try (apply Judged_from in HJ as (_ & _ & _ & HJ & _)); rewrite ?Ht; cbn [put_rcptto put_data put_from put_tlson put_helo put_hashes x_tlson];
      rewrite ?HJ; auto.
      + destruct ev; try discriminate Hcm; auto.
      + rewrite IH. reflexivity.
      + destruct Hm as (peer & ver & _ & ->). destruct (getHashes _ _ _). reflexivity.
      + destruct Hm as (peer & ver & _ & ->). destruct (getHashes _ _ _). reflexivity.
      + destruct He as [-> | ->]; auto.
  Qed.

  Lemma replies_chatter l : Forall chatter l -> replies l = [].
  Proof. induction 1 as [|e l H _ IH]; auto. destruct e; simpl in *; tauto. Qed.
  Lemma replies_idle l : Forall idle l -> replies l = [].
  Proof. induction 1 as [|e l H _ IH]; auto. destruct e; simpl in *; tauto. Qed.
  Lemma replies_rev l : replies (rev l) = rev (replies l).
  Proof. induction l as [|e l IH]; auto. cbn [rev]. rewrite replies_app, IH. destruct e; cbn; rewrite ?app_nil_r; reflexivity. Qed.

  Lemma Decided_tallies I ph e id s b res c ans s1 : Decided E cn I ph e id s b res c ans s1 ->
    tallies (s_out s1) = tallies (s_out s) /\ replies (s_out s1) = replies ans ++ replies (s_out s) /\ yaks (s_out s1) = yaks (s_out s) /\
    x_tlson (s_tx s1) = x_tlson (s_tx s).
  Proof.
    intros HD. pose proof HD as HD'. apply Decided_Judged in HD as (t & log & HJ & HA & Hlog & Hs & ->).
    assert (Ha : tallies ans = [] /\ yaks ans = []) by (inversion HA; auto). destruct Ha as [Ha1 Ha2].
    destruct (chatter_silent _ Hlog) as (Hy & _). 
    rewrite !tallies_app, !replies_app, !yaks_app, Ha1, Ha2, Hy, (tallies_chatter _ Hlog), (replies_chatter _ Hlog). cbn.
    repeat split; auto. destruct Hs as (-> & _). apply Judged_from in HJ. apply HJ.
  Qed.

  (** what is added, of the counters, of the replies and of the list of do-nothing clients *)
  Lemma of_after did s s' ts rs ys : after did s s' ->
    tallies (s_out s') = rev ts ++ tallies (s_out s) -> replies (s_out s') = rev rs ++ replies (s_out s) -> yaks (s_out s') = rev ys ++ yaks (s_out s) ->
    tallies did = ts /\ replies did = rs /\ yaks did = ys.
  Proof.
    unfold after. intros ->. rewrite tallies_app, replies_app, yaks_app, tallies_rev, replies_rev, yaks_rev. intros H1 H2 H3.
    apply app_inv_tail in H1, H2, H3. rewrite <- (rev_involutive (tallies did)), <- (rev_involutive (replies did)), <- (rev_involutive (yaks did)), H1, H2, H3, !rev_involutive. auto.
  Qed.

  Lemma Saved_silent path m r l : Saved path m r l -> tallies l = [] /\ replies l = [] /\ yaks l = [].
  Proof.
    assert (Hw : forall r l, (forall e : bytes, r = Some e -> exists w, l = [FWarn w]) -> (r = None -> l = []) -> tallies l = [] /\ replies l = [] /\ yaks l = []).
    { intros [e|] l0 H1 H2; [destruct (H1 e eq_refl) as (w & ->)|rewrite H2]; auto. }
    intros [|e w|r' l0 H1 H2|r' l0 n e w H1 H2]; auto; destruct (Hw _ _ H1 H2) as (E1 & E2 & E3); rewrite tallies_app, replies_app, yaks_app, E1, E2, E3; auto.
  Qed.
  Lemma Received_silent s tls data name err l s1 : Received K E cn s tls data name err l s1 ->
    tallies (s_out s1) = B "messages" :: tallies (s_out s) /\ replies (s_out s1) = replies (s_out s) /\ yaks (s_out s1) = yaks (s_out s).
  Proof.
    intros [when t name' err' l' Hm Hs]. cbn [s_out].
    assert (Hl : tallies l' = [] /\ replies l' = [] /\ yaks l' = []).
    { destruct Hs as [(_ & _ & _ & ->)|(_ & _ & Hk)]; auto. eapply Saved_silent; eauto. }
    destruct Hl as (E1 & E2 & E3). rewrite !tallies_app, !replies_app, !yaks_app, E1, E2, E3. destruct (k_msglog K); auto.
  Qed.

  Theorem C66_turn I h t n s s' : Turn K E cn I h t n s s' -> tallies (t_did t) = counted h t.
  Proof.
    intros (HC & HS & Ha). pose proof (Conv_tlson _ _ _ HC) as Ht. apply step_Step in HS. destruct t as [ev tls did]. cbn [t_event t_tls t_did] in *.
    unfold counted, accepted. cbn [t_event t_tls t_did].
    destruct HS as [ev tls ph e res c ans s1 Hc HD|cmd arg tls res c ans s1 l HD Hl Hta|arg tls res c ans s1 l n HD Hr Hn Hl Hta
        |arg tls res c ans s1 l HD Hl|arg tls res c ans s1 HD|arg tls res c ans s1 HD
        |data tls name e l s1 HR|data tls name l s1 res c ans s2 HR HD|data tls name l s1 res c ans s2 HR HD|tls n|tls|tls|tls];
      try (apply Received_silent in HR as (R1 & R2 & R3));
      try (pose proof (Decided_tallies _ _ _ _ _ _ _ _ _ _ HD) as (D1 & D2 & D3 & D4);
           apply Decided_Judged in HD as (t & log & HJ & HA & _)).
    - assert (Hp : ph <> pConnect) by (destruct ev; inversion Hc; discriminate).
      apply Answer_yes in HA as (Hr & ->); auto.
      set (rr := refusal_reply _ _ _ _ _) in *. assert (Hrr : Nat.eqb (rclass rr) 2 = false) by (destruct Hr as [-> | ->]; apply refusal_not2; auto).
      destruct (of_after did s s1 [tally_of ev] [rr] [] Ha) as (T1 & T2 & T3).
      + rewrite D1. reflexivity.
      + rewrite D2. reflexivity.
      + rewrite D3. reflexivity.
      + rewrite T1, ?T2, ?T3. destruct ev; try discriminate Hc; rewrite ?Hrr; reflexivity.
    - apply Answer_no in HA as (Hr & ->); [|discriminate].
      destruct (of_after did s _ (B "ehlo" :: tallies (rev l)) [] [] Ha) as (T1 & T2 & T3).
      + cbn [s_out]. rewrite tallies_app, D1, tallies_rev. cbn [rev]. rewrite rev_involutive, <- app_assoc. reflexivity.
      + cbn [s_out]. rewrite replies_app, D2, (replies_idle _ Hl). reflexivity.
      + cbn [s_out]. rewrite yaks_app, D3, (yaks_idle _ Hl). reflexivity.
      + rewrite T1, ?T2, ?T3, Hta, D4. cbn [add_out s_tx]. rewrite Ht. reflexivity.
    - apply Answer_no in HA as (Hr' & ->); [|discriminate].
      destruct (of_after did s _ (B "mailfrom" :: B "rsets" :: tallies (rev l)) [RpTempfailMsg (B "Too many unsuccessful delivery attempts")] [BAdd (n_rip cn) (k_yakttl K) n] Ha) as (T1 & T2 & T3).
      + cbn [s_out add_out app]. change (FReply ?r :: ?x) with ([FReply r] ++ x). rewrite !tallies_app, D1, tallies_rev. cbn [rev]. rewrite rev_involutive, <- !app_assoc. reflexivity.
      + cbn [s_out add_out]. change (FReply ?r :: ?x) with ([FReply r] ++ x). rewrite !replies_app, D2, (replies_idle _ Hl). reflexivity.
      + cbn [s_out add_out]. change (FReply ?r :: ?x) with ([FReply r] ++ x). rewrite !yaks_app, D3, (yaks_idle _ Hl). reflexivity.
      + rewrite T1, ?T2, ?T3, Hta. reflexivity.
    - apply Answer_no in HA as (Hr' & ->); [|discriminate].
      assert (Hc2 := accept_is2 [] (prop_of (s_ctx s1) (B "message"))). set (ar := accept_reply _ _) in *. clearbody ar.
      destruct (retry s1).
      + destruct Hl as (n & -> & Hn).
        destruct (of_after did s _ [B "mailfrom"; B "rsets"; B "mailfromAccept"] [ar] [BAdd (n_rip cn) (k_yakttl K) n] Ha) as (T1 & T2 & T3);
          try (cbn; fold (tallies (s_out s1)) (replies (s_out s1)) (yaks (s_out s1)); rewrite ?D1, ?D2, ?D3; reflexivity).
        rewrite T1, ?T2, ?T3.
        rewrite Hc2. reflexivity.
      + subst l. destruct (of_after did s _ [B "mailfrom"; B "mailfromAccept"] [ar] [] Ha) as (T1 & T2 & T3);
          try (cbn; fold (tallies (s_out s1)) (replies (s_out s1)) (yaks (s_out s1)); rewrite ?D1, ?D2, ?D3; reflexivity).
        rewrite T1, ?T2, ?T3.
        rewrite Hc2. reflexivity.
    - apply Answer_no in HA as (Hr' & ->); [|discriminate].
      assert (Hc2 := accept_is2 [] (prop_of (s_ctx s1) (B "message"))). set (ar := accept_reply _ _) in *. clearbody ar.
      destruct (of_after did s _ [B "rcptto"; B "rcpttoAccept"] [ar] [] Ha) as (T1 & T2 & T3);
          try (cbn; fold (tallies (s_out s1)) (replies (s_out s1)) (yaks (s_out s1)); rewrite ?D1, ?D2, ?D3; reflexivity).
        rewrite T1, ?T2, ?T3.
      rewrite Hc2. reflexivity.
    - apply Answer_no in HA as (Hr' & ->); [|discriminate].
      assert (Hc2 := accept_is2 [] (prop_of (s_ctx s1) (B "message"))). set (ar := accept_reply _ _) in *. clearbody ar.
      destruct (of_after did s _ [B "data"; B "dataAccept"] [ar] [] Ha) as (T1 & T2 & T3);
          try (cbn; fold (tallies (s_out s1)) (replies (s_out s1)) (yaks (s_out s1)); rewrite ?D1, ?D2, ?D3; reflexivity).
        rewrite T1, ?T2, ?T3.
      rewrite Hc2. reflexivity.
    - apply (of_after did s _ [B "messages"] [RpTempfail] [] Ha);
        cbn; fold (tallies (s_out s1)) (replies (s_out s1)) (yaks (s_out s1)); rewrite ?R1, ?R2, ?R3; reflexivity.
    - apply Answer_yes in HA as (Hr & ->); [|discriminate].
      eapply (of_after did s _ [B "messages"] [_] [] Ha);
        cbn; fold (tallies (s_out s2)) (replies (s_out s2)) (yaks (s_out s2)); rewrite ?D1, ?D2, ?D3, ?R1, ?R2, ?R3; reflexivity.
    - apply Answer_no in HA as (Hr & ->); [|discriminate].
      eapply (of_after did s _ [B "messages"] [_] [] Ha);
        cbn; fold (tallies (s_out s2)) (replies (s_out s2)) (yaks (s_out s2)); rewrite ?D1, ?D2, ?D3, ?R1, ?R2, ?R3; reflexivity.
    - apply (of_after did s _ [B "tlserrs"; B "starttls"] [] [] Ha); reflexivity.
    - apply (of_after did s _ [B "quits"] [] [] Ha); reflexivity.
    - apply (of_after did s _ [B "aborts"] [] [] Ha); reflexivity.
    - apply (of_after did s _ [] [] [] Ha); reflexivity.
  Qed.

  Lemma setupClient_tallies s inf s' : setupClient K E cn s = Ok (inf, s') ->
    exists hit n, yaks (s_out s') = BLookup (n_rip cn) (k_yakttl K) hit n :: yaks (s_out s) /\ notlss (s_out s') = notlss (s_out s) /\
      si_stall inf = stalled K hit n /\
      tallies (s_out s') = (if stalled K hit n then [B "yakkers"] else []) ++ (if si_good inf then [] else [B "ruleserr"]) ++ tallies (s_out s).
  Proof.
    unfold setupClient. intros H. apply sbind_ok in H as (u & sa & H1 & H). sapp emit_ok H1.
    destruct (setupRules _ _ _ _ _) as [rr|] eqn:Er; [|discriminate].
    assert (Hw : rr_warning rr = None <-> rr_good rr = true).
    { unfold setupRules in Er. destruct (fst _); try discriminate; injection Er as <-; cbn; split; congruence. }
    apply sbind_ok in H as (u1 & s1 & H1 & H).
    assert (Hs1 : yaks (s_out s1) = yaks (s_out s) /\ notlss (s_out s1) = notlss (s_out s) /\ tallies (s_out s1) = (if rr_good rr then [] else [B "ruleserr"]) ++ tallies (s_out s)).
    { destruct (rr_warning rr).
      - apply sbind_ok in H1 as (u2 & sa & H2 & H1). sapp emit_ok H2. unfold event in H1. sapp emit_ok H1.
        destruct (rr_good rr); [discriminate (proj2 Hw eq_refl)|]. repeat split; reflexivity.
      - sinv H1. rewrite (proj1 Hw eq_refl). repeat split; reflexivity. }
    clear H1. destruct Hs1 as (Y & N & T).
    apply sbind_ok in H as (u2 & sa & H1 & H). sapp put_counts_ok H1.
    apply sbind_ok in H as ([hit n] & s2 & H1 & H). unfold yakLookup in H1.
    apply sbind_ok in H1 as (i & sa & H2 & H1). sapp index_ok H2. destruct (v_lookup E _) as [hit' n'].
    apply sbind_ok in H1 as (u3 & sa & H2 & H1). sapp emit_ok H2. apply sret_ok in H1 as [[= -> ->] ->].
    exists hit', n'. fold (stalled K hit' n') in H. destruct (stalled K hit' n').
    - apply sbind_ok in H as (u4 & sa & H1 & H). sapp put_counts_ok H1.
      apply sbind_ok in H as (u5 & sa & H1 & H). unfold event in H1. sapp emit_ok H1.
      apply sbind_ok in H as (u6 & sa & H1 & H). unfold updateTime in H1. sapp emit_ok H1.
      apply sbind_ok in H as (u7 & sa & H1 & H). apply yakLog_exact in H1 as (when & ->). sinv H.
      cbn [s_out add_out si_stall si_good]. unfold dn_line. destruct (k_dnlog K); cbn; fold (yaks (s_out s1)) (notlss (s_out s1)) (tallies (s_out s1)); rewrite Y, N, T; auto.
    - apply sbind_ok in H as (u6 & sa & H1 & H). unfold updateTime in H1. sapp emit_ok H1. sinv H.
      cbn. fold (yaks (s_out s1)) (notlss (s_out s1)) (tallies (s_out s1)). rewrite Y, N, T. auto.
  Qed.

  (** The counters increased before the first command. *)
  Theorem C66_setup o s : setup K E cn (sess0 K) = Ok (o, s) ->
    exists I hit n thit tn, (forall I', o = Some I' -> I' = I) /\
      yaks (s_out s) = [BLookup (n_rip cn) (k_yakttl K) hit n] /\ notlss (s_out s) = [BLookup (n_rip cn) tlsTimeout thit tn] /\
      si_stall I = stalled K hit n /\
      rev (tallies (s_out s)) = (if si_good I then [] else [B "ruleserr"]) ++ (if si_stall I then [B "yakkers"] else []) ++
        (if thit && Z.leb 2 tn then [B "notlscnt"] else []).
  Proof.
    unfold setup. intros H. apply sbind_ok in H as (inf & s1 & H1 & H).
    apply setupClient_tallies in H1 as (hit & n & Y & N & S & T). exists inf, hit, n. cbn [sess0 s_out] in Y, N, T. change (notlss []) with (@nil bop) in N. change (yaks []) with (@nil bop) in Y.
    change (tallies []) with (@nil bytes) in T. rewrite app_nil_r in T.
    apply sbind_ok in H as (sname & s2 & H1 & H).
    assert (H2 : s_out s2 = s_out s1).
    { unfold localName in H1. destruct (negb _); [sinv H1; auto|]. apply sbind_ok in H1 as (r & s3 & H2 & H1). apply inctx_ok in H2 as (c & _ & ->).
      destruct r as [[|nm l]|]; try (sinv H1; reflexivity). destruct (last_byte nm); sinv H1; reflexivity. }
    apply sbind_ok in H as ([name certs] & s3 & H3 & H).
    assert (H4 : yaks (s_out s3) = yaks (s_out s2) /\ notlss (s_out s3) = notlss (s_out s2) /\ tallies (s_out s3) = tallies (s_out s2)).
    { unfold connParams in H3. destruct (beqb _ _); [sinv H3; auto|]. apply sbind_ok in H3 as (o1 & s4 & H5 & H3). apply inctx_ok in H5 as (c & _ & ->).
      apply sbind_ok in H3 as (dm & s5 & H5 & H3). apply slift_ok in H5 as [-> ->]. destruct dm; sinv H3; auto. }
    rewrite H2, Y, N, T in H4. clear H1 H2 H3 Y N T. destruct H4 as (Y & N & T).
    apply sbind_ok in H as (u & s4 & H1 & H). unfold setupConn in H1. apply sbind_ok in H1 as ([thit tn] & s5 & H2 & H1). unfold notlsLookup in H2.
    apply sbind_ok in H2 as (i & sa & H3 & H2). sapp index_ok H3. destruct (v_lookup E _) as [hit' n'].
    apply sbind_ok in H2 as (u3 & sa & H3 & H2). sapp emit_ok H3. apply sret_ok in H2 as [[= -> ->] ->]. exists hit', n'.
    apply sbind_ok in H1 as (u4 & sa & H2 & H1). sapp put_tlscfg_ok H2.
    apply sbind_ok in H1 as (u5 & s5 & H2 & H1). sapp emit_ok H1.
    assert (H4 : yaks (s_out s5) = yaks (s_out s3) /\ notlss (s_out s5) = [BLookup (n_rip cn) tlsTimeout hit' n'] /\ tallies (s_out s5) = (if hit' && Z.leb 2 n' then [B "notlscnt"] else []) ++ tallies (s_out s3)).
    { unfold when_ in H2. destruct (hit' && Z.leb 2 n'); sinv H2; cbn [s_out add_out app yaks notlss tallies flat_map]; fold (yaks (s_out s3)) (notlss (s_out s3)) (tallies (s_out s3)); rewrite N; auto. }
    destruct H4 as (Y' & N' & T'). rewrite Y in Y'. rewrite T in T'. clear H2 Y N T.
    apply sbind_ok in H as ([rd rb] & s6 & H1 & H). apply inctx_ok in H1 as (c & H1 & ->).
    apply sbind_ok in H as (u6 & sa & H2 & H). sapp uptx_ok H2.
    apply sbind_ok in H as (refused & s7 & H2 & H). apply decider_Decided in H2 as (res & c' & ans & HD).
    assert (Hl : exists l, s = add_out l s7 /\ Forall chatter l /\ forall I', o = Some I' -> I' = inf).
    { destruct refused.
      - apply sbind_ok in H as (i & sa & H2 & H). sapp index_ok H2. apply sbind_ok in H as (u8 & sa & H2 & H). apply sret_ok in H as [-> ->].
        unfold when_ in H2. destruct (negb (si_stall inf)).
        + apply writeLog_exact in H2 as ->. eexists. split; [reflexivity|]. split; [|discriminate]. unfold smtplog_line. destruct (si_log inf); repeat constructor.
        + sinv H2. exists []. split; [destruct s7; reflexivity|]. split; [constructor|discriminate].
      - apply sret_ok in H as [-> ->]. exists []. split; [destruct s7; reflexivity|]. split; [constructor|congruence]. }
    destruct Hl as (l & -> & Hl & Hi). clear H. pose proof (Decided_tallies _ _ _ _ _ _ _ _ _ _ HD) as (D1 & _ & D3 & _).
    apply Decided_Judged in HD as (t & log & HJ & HA & Hlog & Hs & Ho). split; [exact Hi|].
    destruct (chatter_silent _ Hl) as (L1 & L2 & _). cbn [s_out add_out upd_tx] in *. split; [rewrite yaks_app, L1, D3; exact Y'|]. split.
    - rewrite notlss_app, L2, Ho, !notlss_app. assert (Ha : notlss ans = []) by (inversion HA; auto). rewrite Ha. 
      destruct (chatter_silent _ Hlog) as (_ & -> & _). exact N'.
    - split; [exact S|]. rewrite tallies_app, (tallies_chatter _ Hl), D1. cbn. fold (tallies (s_out s5)). rewrite T', S. 
      destruct (hit' && Z.leb 2 n'), (stalled K hit n), (si_good inf); reflexivity.
  Qed.

  (** Over a session, each of these counters has been increased once for each of
      these commands. *)
  Definition is_helo (t : turn) := match t_event t with EvHelo _ _ => true | _ => false end.
  Definition is_mail (t : turn) := match t_event t with EvMailFrom _ => true | _ => false end.
  Definition is_rcpt (t : turn) := match t_event t with EvRcptTo _ => true | _ => false end.
  Definition is_data (t : turn) := match t_event t with EvData _ => true | _ => false end.
  Definition is_message (t : turn) := match t_event t with EvGotData _ => true | _ => false end.
  Definition counters : list (bytes * (turn -> bool)) :=
    [ (B "ehlo", is_helo); (B "mailfrom", is_mail); (B "rcptto", is_rcpt); (B "data", is_data);
      (B "ehloAccept", fun t => is_helo t && accepted t); (B "mailfromAccept", fun t => is_mail t && accepted t);
      (B "rcpttoAccept", fun t => is_rcpt t && accepted t); (B "dataAccept", fun t => is_data t && accepted t);
      (B "messages", is_message); (B "tlserrs", tls_failure) ].
  Definition times (x : bytes) (l : list bytes) : nat := length (filter (beqb x) l).

  Lemma times_app x a b : times x (a ++ b) = times x a + times x b.
  Proof. unfold times. rewrite filter_app, app_length. reflexivity. Qed.
  Lemma times_rev x l : times x (rev l) = times x l.
  Proof. induction l as [|y l IH]; auto. cbn [rev]. rewrite times_app, IH. unfold times. cbn. destruct (beqb x y); cbn; lia. Qed.

  Lemma counted_times h t x p : In (x, p) counters -> times x (counted h t) = if p t then 1 else 0.
  Proof.
    unfold counters, counted, is_helo, is_mail, is_rcpt, is_data, is_message, tls_failure.
    intros H. repeat (destruct H as [[= <- <-]|H]; [destruct (t_event t); destruct (accepted t); try reflexivity;
      try (destruct (ts_on (t_tls t) && negb (tls_noted h)); reflexivity); try (destruct (yaks (t_did t)); reflexivity)|]). destruct H.
  Qed.

  Theorem C66_counters I h s x p : Conv K E cn I h s -> In (x, p) counters ->
    times x (tallies (s_out s)) = length (filter p h).
  Proof.
    intros HC Hin. induction HC as [s Hs|h s ev tls s' did HC IH Hst Ha].
    - apply C66_setup in Hs as (I0 & hit & n & thit & tn & _ & _ & _ & _ & Ht). rewrite <- times_rev, Ht.
      destruct (si_good I0), (si_stall I0), (thit && Z.leb 2 tn);
        repeat (destruct Hin as [[= <- _]|Hin]; [reflexivity|]); destruct Hin.
    - assert (HT : Turn K E cn I h (mkTurn ev tls did) Go s s') by (repeat split; auto).
      pose proof (C66_turn _ _ _ _ _ _ HT) as Hc. cbn [t_did] in Hc. unfold after in Ha.
      rewrite Ha, tallies_app, times_app, IH, tallies_rev, times_rev, Hc, (counted_times _ _ _ _ Hin). cbn [filter].
      destruct (p (mkTurn ev tls did)); reflexivity.
  Qed.
End T.

(** The statistics show the counter of messages among those of what was
    accepted (sinksmtp.go:1413-1419), but it also counts refused messages. *)
Theorem C66_messages_refuted : exists K E cn I h t n s s', Turn K E cn I h t n s s' /\
  is_message t = true /\ map rclass (replies (t_did t)) = [5] /\ tallies (t_did t) = [B "messages"].
Proof.
  destruct (turn_example (demo_cfg demo_rules) demo_env demo_conn (plain [EvHelo EHLO (B "h"); EvMailFrom (B "a@x.y"); EvRcptTo (B "spam@x.y")]) (EvGotData (B "Hi")) no_tls
    (fun I h t n s s' => (is_message t, map rclass (replies (t_did t)), tallies (t_did t))) (true, [5], [B "messages"]))
    as (I & h & t & n & s & s' & HT & Hv); [vm_compute; reflexivity|].
  injection Hv as H1 H2 H3. exists (demo_cfg demo_rules), demo_env, demo_conn, I, h, t, n, s, s'. auto.
Qed.
Example C66_example : exists I h t n s s', Turn (yak_cfg demo_rules) (demo_black false 0 2) demo_conn I h t n s s' /\
  (rev (tallies (s_out s')), tallies (t_did t)) =
  ([B "ehlo"; B "ehloAccept"; B "mailfrom"; B "mailfrom"; B "mailfromAccept"; B "mailfrom"; B "rsets"; B "mailfromAccept"; B "rcptto"; B "rcptto"; B "rcpttoAccept"],
   [B "rcptto"; B "rcpttoAccept"]).
Proof.
  apply (turn_example _ _ _ (plain [EvHelo EHLO (B "h"); EvMailFrom (B "evil@x.y"); EvMailFrom (B "a@x.y"); EvMailFrom (B "a@x.y"); EvRcptTo (B "bob@x.y")]) (EvRcptTo (B "jim@x.y")) no_tls
    (fun I h t n s s' => (rev (tallies (s_out s')), tallies (t_did t)))).
  vm_compute. reflexivity.
Qed.
