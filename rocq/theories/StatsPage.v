(** The event counters as the statistics page shows them (C72). *)
From Verif Require Import PropsParse.
From Verif Require Import Bytes Outcome Lexer Ast GoNet Parser World Dns Eval Decisions RuleLoad PropsLoad ConnCfg PropsConn CipherNames Message Session SessProofs Conv PropsEval PropsSession DemoSession PropsYak Tallies Shared PropsShared Server.
From Coq Require Import Lia.

(** ** The end of a session *)

Section E.
  Context (K : config) (E : senv) (cn : conn).

  (** Whether the last decision of the rules was not a refusal. *)
  Definition last_good (ds : list decision) : bool := match ds with d :: _ => is_good (d_result d) | [] => false end.

  Lemma Conv_lastgood I h s : Conv K E cn I h s -> x_lastgood (s_tx s) = last_good (decisions (s_out s)).
  Proof.
    induction 1 as [s Hs|h s ev tls s' did HC IH Hst Ha].
    - apply setup_Setup in Hs. destruct Hs as [rr hit n inf l1 l2 sname tr1 name certs tr2 l3 thit tn l4 rd tr0 refused res c ans s1 l5 Hr Hi _ _ _ H1 H2 H3 H4 H5 HD _].
      apply Decided_Judged in HD as (t & log & HJ & HA & Hlog & Hs & Ho). destruct Hs as (Ht & _). cbn [add_out s_tx s_out]. rewrite Ht, Ho.
      apply Judged_from in HJ as (_ & _ & _ & _ & _ & -> & _).
      assert (Hans : decisions ans = []) by (inversion HA; reflexivity).
      assert (H5' : decisions l5 = []) by (rewrite <- decisions_vis, (vis_idle _ H5); reflexivity).
      assert (Hlg : decisions log = []) by (rewrite <- decisions_vis, (vis_chatter _ Hlog); reflexivity).
      rewrite !decisions_app, Hans, H5', Hlg. reflexivity.
    - assert (HT : Turn K E cn I h (mkTurn ev tls did) Go s s') by (repeat split; auto).
      rewrite (Turn_decisions _ _ _ _ _ _ _ _ _ HT), <- decisions_vis. cbn [t_did]. apply Turn_Did in HT. cbn [t_event t_tls t_did] in HT.
      remember Go as n eqn:En. remember (vis did) as l eqn:El. clear El.
      destruct HT as [ev tls ph e res c t d s' Hc Hr HJ Hs|cmd arg tls res c t d s' Hr HJ Hs|arg tls res c t d n s' Hr HJ Hy Hn Hs
        |arg tls res c t d l s' Hr HJ Hl Hs|arg tls res c t d s' Hr HJ Hs|arg tls res c t d s' Hr HJ Hs
        |data tls when t name e save s' Hm Hd Hn Hk Hs|data tls when t name save res c t1 d got b r s' Hm Hk HJ Hb Hs|tls n s' Hs|ev tls s' He Hs|tls];
        try discriminate; try (destruct Hs as (Ht & _); rewrite Ht);
        try (pose proof HJ as HJ'; apply Judged_from in HJ' as (_ & _ & _ & _ & _ & Hg & _); destruct HJ as [_ _ _ ->]);
        cbn [put_rcptto put_data put_from put_tlson put_helo put_hashes x_lastgood]; rewrite ?Hg; try reflexivity; auto.
      + destruct (retry s); [destruct Hl as (n & -> & _)|subst l]; reflexivity.
      + assert (Hd' : decisions ((if k_msglog K then [FMsglog (logText cn t)] else []) ++ save ++ [FReply RpTempfail]) = []).
        { rewrite !decisions_app, (proj2 (msglog_silent _ _)), (proj2 (Kept_silent _ _ _ _ Hk)). reflexivity. }
        rewrite Hd'. cbn [rev app]. rewrite <- IH. destruct Hm as (peer & ver & _ & ->). destruct (getHashes _ _ _). reflexivity.
      + rewrite !decisions_app, (proj2 (msglog_silent _ _)).
        assert (Hsr : decisions save = []) by (destruct Hk as [(_ & _ & ->)|(_ & _ & Hk)]; [auto|]; apply (Kept_silent _ _ _ _ Hk)).
        rewrite Hsr. reflexivity.
  Qed.

  Lemma ending_tallies I force got counts l : Ending K cn I force got counts l ->
    tallies l = [] \/ (force = true /\ tallies l = [B "yakads"; B "yakforces"]) \/ (force = false /\ got = false /\ counts = true /\ tallies l = [B "yakads"]).
  Proof.
    assert (Hlog : forall I text, tallies (smtplog_line cn I text) = []) by (intros; unfold smtplog_line; destruct (si_log _); reflexivity).
    assert (Hdn : forall when text, tallies (dn_line K cn when text) = []) by (intros; unfold dn_line; destruct (k_dnlog K); reflexivity).
    intros [n when Hf|n when Hf Hg Hc|Hf Hg Hy|Hf Hg]; auto.
    - destruct (Z.eqb n _); auto. right. left. split; auto.
      match goal with |- tallies (FYak ?o :: ?l) = _ => change (tallies l = [B "yakads"; B "yakforces"]) end.
      rewrite !tallies_app, Hlog, Hdn. reflexivity.
    - destruct (Z.eqb n _); auto. right. right. repeat (split; auto).
      match goal with |- tallies (FYak ?o :: ?l) = _ => change (tallies l = [B "yakads"]) end.
      rewrite !tallies_app, Hlog, Hdn. reflexivity.
  Qed.

  Lemma minphase_tallies got : tallies (minphase_time K cn got) = [].
  Proof. unfold minphase_time. destruct (_ && _); reflexivity. Qed.

  (** C72: a session that the client ended is counted as abandoned or as refused
      if it had good rules, was not stalled and had no TLS failure (or do-nothing
      clients are not looked for at all): as refused if the last decision of the
      rules was a refusal, and else as abandoned, even if a message was accepted.
      Other sessions are not counted.  Before that comes what is counted about
      do-nothing clients. *)
  Theorem C72_end I h t s s1 s' : Turn K E cn I h t Finish s s1 -> finish K E cn I s1 = Ok (tt, s') ->
    exists did yak, after did s1 s' /\ tallies did = yak ++
      (if si_good I && (Z.eqb (k_yakcount K) 0 || (Z.ltb 0 (k_yakcount K) && negb (si_stall I) && negb (existsb tls_failure h)))
       then [if last_good (decisions (s_out s1)) then B "abandons" else B "refuseds"] else []) /\
      (yak = [] \/ (has_opt (last_withs (decisions (s_out s1))) (B "make-yakker") = true /\ yak = [B "yakads"; B "yakforces"]) \/
       (has_opt (last_withs (decisions (s_out s1))) (B "make-yakker") = false /\ got_far K h = false /\ yak = [B "yakads"])).
  Proof.
    intros HT HF. pose proof (Turn_Did _ _ _ _ _ _ _ _ _ HT) as HD. pose proof (Turn_decisions _ _ _ _ _ _ _ _ _ HT) as Hdec.
    destruct HT as (HC & _). pose proof (Conv_counts _ _ _ _ _ _ HC) as Hcn. pose proof (Conv_got _ _ _ _ _ _ HC) as Hgt.
    pose proof (Conv_withs _ _ _ _ _ _ HC) as Hw. pose proof (Conv_lastgood _ _ _ HC) as Hlg.
    remember Finish as n0 eqn:En0. remember (vis (t_did t)) as l0 eqn:El0.
    assert (Hs1 : c_withprops (s_ctx s1) = last_withs (decisions (s_out s1)) /\ s_got s1 = s_got s /\ s_counts s1 = s_counts s /\
      x_lastgood (s_tx s1) = last_good (decisions (s_out s1))).
    { rewrite Hdec, <- decisions_vis. destruct HD; try discriminate. rewrite <- El0. destruct H0 as (-> & -> & _ & -> & ->). cbn. auto. }
    destruct Hs1 as (H1 & H2 & H3 & H4). apply finish_exact in HF as (l1 & Ha & HE).
    rewrite H1, H2, H3, Hgt in HE. rewrite H3, H4, Hcn in Ha. eexists. exists (tallies l1). split; [exact Ha|]. split.
    - rewrite !tallies_app, minphase_tallies. cbn [app]. f_equal. unfold outcome_of.
      destruct (si_good I); [|reflexivity]. cbn [andb]. rewrite orb_comm. destruct (_ || _); [|reflexivity].
      destruct (last_good _); reflexivity.
    - apply ending_tallies in HE as [->|[(Hf & ->)|(Hf & Hg & _ & ->)]]; auto 10.
  Qed.
End E.

(** ** The counters of a server *)

(** sinksmtp.go:35-43 and 1711-1717: [G] are the additions to the counters in the
    order in which they were made (expvar.Int.Add is atomic), latest first, each
    with who made it: the main loop (None), which counts a connection and then
    starts a session, or a session, by its number. *)
Definition ticks := list (option nat * bytes).
Definition its (i : nat) (x : option nat * bytes) : bool := match fst x with Some j => Nat.eqb j i | None => false end.
(** what session [i] counted, earliest first *)
Definition ticks_of (i : nat) (G : ticks) : list bytes := map snd (filter (its i) (rev G)).
(** the value of a counter, and of a sum of counters *)
Definition value (x : bytes) (G : ticks) : nat := length (filter (fun p => beqb x (snd p)) G).
Definition total (xs : list bytes) (G : ticks) : nat := fold_right (fun x n => value x G + n) 0 xs.

Record Counted (K : config) (vs : list visit) (G : ticks) : Prop := mkCounted {
  ct_main : forall x, In (None, x) G -> x = B "connections";
  ct_visit : forall i v, nth_error vs i = Some v ->
    process K (vi_env v) (vi_conn v) (vi_events v) (sess0 K) = Ok (vi_done v, vi_state v) /\
    exists more, rev (tallies (s_out (vi_state v))) = ticks_of i G ++ more;
  ct_start : forall i later x earlier, G = later ++ (Some i, x) :: earlier -> i < length vs /\ i < value (B "connections") earlier
}.

(** Which sums of counters never exceed which. *)
Definition bounds : list (list bytes * list bytes) :=
  [ ([B "ehloAccept"], [B "ehlo"]); ([B "mailfromAccept"], [B "mailfrom"]);
    ([B "rcpttoAccept"], [B "rcptto"]); ([B "dataAccept"], [B "data"]);
    ([B "tlson"], [B "ehloAccept"]); ([B "starttls"], [B "tlserrs"; B "tlson"]);
    ([B "rsets"], [B "mailfrom"]); ([B "rsetdrops"], [B "rsets"]); ([B "rsetdrops"; B "yakforces"], [B "yakads"]);
    ([B "abandons"; B "refuseds"], [B "quits"; B "aborts"]) ].
(** Which are counted at most once in a session. *)
Definition onces : list (list bytes) := [ [B "quits"; B "aborts"]; [B "ruleserr"]; [B "yakkers"]; [B "notlscnt"] ].

(** *** Counting in a list *)

Definition many (xs : list bytes) (l : list bytes) : nat := length (filter (fun x => bmem x xs) l).
Lemma many_app xs a b : many xs (a ++ b) = many xs a + many xs b.
Proof. unfold many. rewrite filter_app, app_length. reflexivity. Qed.

(** In every beginning of [l] there are no more of [xs] than of [ys], if [n] of
    [ys] come before. *)
Fixpoint covered (xs ys : list bytes) (n : nat) (l : list bytes) : bool :=
  match l with
  | [] => true
  | x :: l' => let n' := if bmem x ys then S n else n in
      if bmem x xs then match n' with O => false | S m => covered xs ys m l' end else covered xs ys n' l'
  end.
Lemma covered_more xs ys l : forall n m, n <= m -> covered xs ys n l = true -> covered xs ys m l = true.
Proof.
  induction l as [|x l IH]; intros n m Hle H; auto. cbn [covered] in *. destruct (bmem x xs).
  - destruct (bmem x ys); [apply IH with n; auto; lia|]. destruct n; [discriminate|]. destruct m; [lia|]. apply IH with n; auto. lia.
  - destruct (bmem x ys); eapply IH; try eassumption; lia.
Qed.
Lemma covered_app xs ys b : covered xs ys 0 b = true -> forall a n, covered xs ys n a = true -> covered xs ys n (a ++ b) = true.
Proof.
  intros Hb. induction a as [|x a IH]; intros n H.
  - apply covered_more with 0; auto. lia.
  - cbn [covered app] in *. destruct (bmem x xs); [|apply IH; auto].
    destruct (if bmem x ys then S n else n); [discriminate|]. apply IH; auto.
Qed.
Lemma covered_le xs ys b : forall a n, covered xs ys n (a ++ b) = true -> many xs a <= n + many ys a.
Proof.
  unfold many. induction a as [|x a IH]; intros n H; cbn [app covered filter length] in *; [lia|].
  destruct (bmem x xs) eqn:Ex, (bmem x ys) eqn:Ey; cbn [length].
  - apply IH in H. lia.
  - destruct n; [discriminate|]. apply IH in H. lia.
  - apply IH in H. lia.
  - apply IH in H. lia.
Qed.

(** *** One session *)

Section V.
  Context (K : config) (E : senv) (cn : conn).

  (** The turns of a session, latest first, and how it ended. *)
  Inductive turns (evs : list (sevent * tlsstate)) : bool -> sess -> list turn -> Prop :=
  | Tn_refused s : setup K E cn (sess0 K) = Ok (None, s) -> turns evs true (add_out [FHangup] s) []
  | Tn_running I h s : Conv K E cn I h s -> heard h = evs -> turns evs false s h
  | Tn_dropped I h s t rest s' : Turn K E cn I h t Drop s s' -> heard (t :: h) ++ rest = evs -> turns evs true (add_out [FHangup] s') (t :: h)
  | Tn_finished I h s t rest s1 s' : Turn K E cn I h t Finish s s1 -> heard (t :: h) ++ rest = evs ->
      finish K E cn I s1 = Ok (tt, s') -> turns evs true (add_out [FHangup] s') (t :: h).

  Lemma process_turns evs b s : process K E cn evs (sess0 K) = Ok (b, s) -> exists ts, turns evs b s ts.
  Proof.
    intros H. apply process_went in H. destruct H as [s Hs|I h s HC Hh|I h s t rest s' HT Hh|I h s t rest s1 s' HT Hh HF]; eexists.
    - apply Tn_refused; auto.
    - eapply Tn_running; eauto.
    - eapply Tn_dropped; eauto.
    - eapply Tn_finished; eauto.
  Qed.

  Definition ends (t : turn) : bool := match t_event t with EvDone | EvAbort => true | _ => false end.
  Lemma Turn_ends I h t n s s' : Turn K E cn I h t n s s' -> (ends t = true <-> n = Finish).
  Proof.
    intros HT. apply Turn_Did in HT. destruct t as [ev tls did]. cbn [t_event t_tls t_did] in HT. unfold ends. cbn [t_event].
    destruct HT as [ev tls ph e res c t d s' Hc Hr HJ Hs|cmd arg tls res c t d s' Hr HJ Hs|arg tls res c t d n s' Hr HJ Hy Hn Hs
        |arg tls res c t d l s' Hr HJ Hl Hs|arg tls res c t d s' Hr HJ Hs|arg tls res c t d s' Hr HJ Hs
        |data tls when t name e save s' Hm Hd Hn Hk Hs|data tls when t name save res c t1 d got b r s' Hm Hk HJ Hb Hs|tls n s' Hs|ev tls s' He Hs|tls];
      try (split; discriminate).
    - destruct ev; try discriminate Hc; split; discriminate.
    - destruct He as [-> | ->]; split; auto.
  Qed.

  (** what is counted in a session satisfies a property closed under appending *)
  Definition ctrs (s : sess) : list bytes := rev (tallies (s_out s)).
  Lemma ctrs_after did s s' : after did s s' -> ctrs s' = ctrs s ++ tallies did.
  Proof. unfold after, ctrs. intros ->. rewrite tallies_app, tallies_rev, rev_app_distr, rev_involutive. reflexivity. Qed.

  Section Closed.
    Variable P : list bytes -> Prop.
    Hypothesis Papp : forall a b, P a -> P b -> P (a ++ b).
    Hypothesis Psetup : forall a b c : bool, P ((if a then [] else [B "ruleserr"]) ++ (if b then [B "yakkers"] else []) ++ (if c then [B "notlscnt"] else [])).
    Hypothesis Pturn : forall I h t n s s', Turn K E cn I h t n s s' -> ends t = false -> P (counted h t).
    Hypothesis Pend : forall I h t s s1 s' did, Turn K E cn I h t Finish s s1 -> finish K E cn I s1 = Ok (tt, s') ->
      after did s1 s' -> P (counted h t ++ tallies did).

    Lemma closed_setup o s : setup K E cn (sess0 K) = Ok (o, s) -> P (ctrs s).
    Proof. intros H. apply C66_setup in H as (I & hit & n & thit & tn & _ & _ & _ & _ & Ht). unfold ctrs. rewrite Ht. apply Psetup. Qed.
    Lemma closed_conv I h s : Conv K E cn I h s -> P (ctrs s).
    Proof.
      induction 1 as [s Hs|h s ev tls s' did HC IH Hst Ha].
      - eapply closed_setup; eauto.
      - assert (HT : Turn K E cn I h (mkTurn ev tls did) Go s s') by (repeat split; auto).
        rewrite (ctrs_after _ _ _ Ha). apply Papp; auto.
        change did with (t_did (mkTurn ev tls did)). rewrite (C66_turn _ _ _ _ _ _ _ _ _ HT). eapply Pturn; [exact HT|].
        destruct (ends _) eqn:He; auto. apply (Turn_ends _ _ _ _ _ _ HT) in He. discriminate.
    Qed.
    Lemma closed_turns evs b s ts : turns evs b s ts -> P (ctrs s).
    Proof.
      intros [s0 Hs|I h s0 HC Hh|I h s0 t rest s' HT Hh|I h s0 t rest s1 s' HT Hh HF].
      - unfold ctrs. cbn [s_out add_out app tallies flat_map]. fold (tallies (s_out s0)). eapply closed_setup; eauto.
      - eapply closed_conv; eauto.
      - unfold ctrs. cbn [s_out add_out app tallies flat_map]. fold (tallies (s_out s')). fold (ctrs s').
        pose proof HT as (HC & _ & Ha). rewrite (ctrs_after _ _ _ Ha), (C66_turn _ _ _ _ _ _ _ _ _ HT).
        apply Papp; [eapply closed_conv; eauto|]. eapply Pturn; [exact HT|]. destruct (ends t) eqn:He; auto. apply (Turn_ends _ _ _ _ _ _ HT) in He. discriminate.
      - unfold ctrs. cbn [s_out add_out app tallies flat_map]. fold (tallies (s_out s')). fold (ctrs s').
        pose proof HT as (HC & _ & Ha). destruct (finish_exact _ _ _ _ _ _ HF) as (l1 & Ha' & _).
        rewrite (ctrs_after _ _ _ Ha'), (ctrs_after _ _ _ Ha), (C66_turn _ _ _ _ _ _ _ _ _ HT), <- app_assoc.
        apply Papp; [eapply closed_conv; eauto|]. eapply Pend; eauto.
    Qed.
  End Closed.

  Lemma after_fun d1 d2 s s' : after d1 s s' -> after d2 s s' -> d1 = d2.
  Proof. unfold after. intros -> H. apply app_inv_tail in H. rewrite <- (rev_involutive d1), H. apply rev_involutive. Qed.

  Lemma end_tallies I h t s s1 s' did : Turn K E cn I h t Finish s s1 -> finish K E cn I s1 = Ok (tt, s') -> after did s1 s' ->
    In (tallies did) (flat_map (fun y => [y; y ++ [B "abandons"]; y ++ [B "refuseds"]]) [[]; [B "yakads"; B "yakforces"]; [B "yakads"]]).
  Proof.
    intros HT HF Ha. destruct (C72_end _ _ _ _ _ _ _ _ _ HT HF) as (d' & yak & Ha' & Ht & Hy). rewrite (after_fun _ _ _ _ Ha Ha'), Ht.
    assert (In yak [[]; [B "yakads"; B "yakforces"]; [B "yakads"]]) as Hin by (destruct Hy as [->|[(_ & ->)|(_ & _ & ->)]]; cbn; auto).
    apply in_flat_map. exists yak. split; auto. destruct (_ && _); [destruct (last_good _)|rewrite app_nil_r]; cbn; auto.
  Qed.
  Lemma Turn_last I h t s s' : Turn K E cn I h t Finish s s' -> counted h t = [B "quits"] \/ counted h t = [B "aborts"].
  Proof. intros HT. assert (He : ends t = true) by (apply (Turn_ends _ _ _ _ _ _ HT); auto). unfold ends in He. unfold counted. destruct (t_event t); try discriminate; auto. Qed.

  Lemma turns_covered evs b s ts xs ys : turns evs b s ts -> In (xs, ys) bounds -> covered xs ys 0 (ctrs s) = true.
  Proof.
    intros HT Hin. assert (H : forallb (fun b => covered (fst b) (snd b) 0 (ctrs s)) bounds = true).
    { revert HT. apply (closed_turns (fun l => forallb (fun b => covered (fst b) (snd b) 0 l) bounds = true)).
      - intros a c Ha Hc. rewrite forallb_forall in *. intros x Hx. apply covered_app; auto.
      - intros [] [] []; reflexivity.
      - intros I h t n s0 s' _ He. unfold counted. unfold ends in He. destruct (t_event t); try discriminate He;
          destruct (accepted t); try reflexivity; try (destruct (ts_on _ && _); reflexivity); destruct (yaks _); reflexivity.
      - intros I h t s0 s1 s' did HT HF Ha. pose proof (end_tallies _ _ _ _ _ _ _ HT HF Ha) as He.
        destruct (Turn_last _ _ _ _ _ HT) as [-> | ->]; cbn [flat_map] in He;
          repeat (destruct He as [<-|He]; [reflexivity|]); destruct He. }
    rewrite forallb_forall in H. exact (H _ Hin).
  Qed.

  Lemma turns_once evs b s ts xs : turns evs b s ts -> In xs onces -> many xs (ctrs s) <= 1.
  Proof.
    intros HT Hin.
    assert (Hturn : forall h t, ends t = false -> many xs (counted h t) = 0).
    { intros h t He. unfold counted. unfold ends in He.
      repeat (destruct Hin as [<-|Hin]; [destruct (t_event t); try discriminate He;
          destruct (accepted t); try reflexivity; try (destruct (ts_on _ && _); reflexivity); destruct (yaks _); reflexivity|]). destruct Hin. }
    assert (Hend : forall I h t s0 s1 s' did, Turn K E cn I h t Finish s0 s1 -> finish K E cn I s1 = Ok (tt, s') -> after did s1 s' ->
      many xs (counted h t ++ tallies did) = if bmem (B "quits") xs then 1 else 0).
    { intros I h t s0 s1 s' did HT' HF Ha. pose proof (end_tallies _ _ _ _ _ _ _ HT' HF Ha) as He. cbn [flat_map] in He.
      repeat (destruct Hin as [<-|Hin]; [destruct (Turn_last _ _ _ _ _ HT') as [-> | ->]; repeat (destruct He as [<-|He]; [reflexivity|]); destruct He|]). destruct Hin. }
    assert (Hset : forall o s0, setup K E cn (sess0 K) = Ok (o, s0) -> many xs (ctrs s0) <= if bmem (B "quits") xs then 0 else 1).
    { intros o s0 H. apply C66_setup in H as (I & hit & n & thit & tn & _ & _ & _ & _ & Ht). unfold ctrs. rewrite Ht.
      repeat (destruct Hin as [<-|Hin]; [destruct (si_good I), (si_stall I), (thit && _); vm_compute; lia|]). destruct Hin. }
    assert (Hconv : forall I h s0, Conv K E cn I h s0 -> many xs (ctrs s0) <= if bmem (B "quits") xs then 0 else 1).
    { intros I h s0. induction 1 as [s0 Hs|h s0 ev tls s' did HC IH Hst Ha]; [eauto|].
      assert (HT' : Turn K E cn I h (mkTurn ev tls did) Go s0 s') by (repeat split; auto).
      rewrite (ctrs_after _ _ _ Ha), many_app. change did with (t_did (mkTurn ev tls did)). rewrite (C66_turn _ _ _ _ _ _ _ _ _ HT').
      rewrite Hturn; [lia|]. destruct (ends _) eqn:He; auto. apply (Turn_ends _ _ _ _ _ _ HT') in He. discriminate. }
    assert (Hbound : (if bmem (B "quits") xs then 0 else 1) <= 1) by (destruct (bmem _ _); lia).
    destruct HT as [s0 Hs|I h s0 HC Hh|I h s0 t rest s' HT Hh|I h s0 t rest s1 s' HT Hh HF].
    - unfold ctrs. cbn [s_out add_out app tallies flat_map]. fold (tallies (s_out s0)). fold (ctrs s0). specialize (Hset _ _ Hs). lia.
    - specialize (Hconv _ _ _ HC). lia.
    - unfold ctrs. cbn [s_out add_out app tallies flat_map]. fold (tallies (s_out s')). fold (ctrs s').
      pose proof HT as (HC & _ & Ha). rewrite (ctrs_after _ _ _ Ha), (C66_turn _ _ _ _ _ _ _ _ _ HT), many_app, Hturn; [specialize (Hconv _ _ _ HC); lia|].
      destruct (ends t) eqn:He; auto. apply (Turn_ends _ _ _ _ _ _ HT) in He. discriminate.
    - unfold ctrs. cbn [s_out add_out app tallies flat_map]. fold (tallies (s_out s')). fold (ctrs s').
      pose proof HT as (HC & _ & Ha). destruct (finish_exact _ _ _ _ _ _ HF) as (l1 & Ha' & _).
      rewrite (ctrs_after _ _ _ Ha'), (ctrs_after _ _ _ Ha), (C66_turn _ _ _ _ _ _ _ _ _ HT), <- app_assoc, many_app, (Hend _ _ _ _ _ _ _ HT HF Ha').
      specialize (Hconv _ _ _ HC). destruct (bmem _ _); lia.
  Qed.

  (** each of these counters has been increased once for each such turn *)
  Definition is_quit (t : turn) := match t_event t with EvDone => true | _ => false end.
  Definition is_abort (t : turn) := match t_event t with EvAbort => true | _ => false end.
  Definition all_counters : list (bytes * (turn -> bool)) := counters ++ [(B "quits", is_quit); (B "aborts", is_abort)].
  Lemma all_counted h t x p : In (x, p) all_counters -> times x (counted h t) = if p t then 1 else 0.
  Proof.
    unfold all_counters. intros H. apply in_app_iff in H as [H|H]; [apply counted_times; auto|].
    unfold counted, is_quit, is_abort in *.
    repeat (destruct H as [[= <- <-]|H]; [destruct (t_event t); destruct (accepted t); try reflexivity;
      try (destruct (ts_on (t_tls t) && negb (tls_noted h)); reflexivity); try (destruct (yaks (t_did t)); reflexivity)|]). destruct H.
  Qed.
  Lemma turns_counted evs b s ts x p : turns evs b s ts -> In (x, p) all_counters -> times x (ctrs s) = length (filter p ts).
  Proof.
    intros HT Hin.
    assert (Hset : forall o s0, setup K E cn (sess0 K) = Ok (o, s0) -> times x (ctrs s0) = 0).
    { intros o s0 H. apply C66_setup in H as (I & hit & n & thit & tn & _ & _ & _ & _ & Ht). unfold ctrs. rewrite Ht.
      unfold all_counters in Hin. cbn [counters app] in Hin.
      repeat (destruct Hin as [[= <- <-]|Hin]; [destruct (si_good I), (si_stall I), (thit && _); reflexivity|]). destruct Hin. }
    assert (Hconv : forall I h s0, Conv K E cn I h s0 -> times x (ctrs s0) = length (filter p h)).
    { intros I h s0. induction 1 as [s0 Hs|h s0 ev tls s' did HC IH Hst Ha]; [eauto|].
      assert (HT' : Turn K E cn I h (mkTurn ev tls did) Go s0 s') by (repeat split; auto).
      rewrite (ctrs_after _ _ _ Ha), times_app. change did with (t_did (mkTurn ev tls did)) at 1. rewrite (C66_turn _ _ _ _ _ _ _ _ _ HT').
      rewrite (all_counted _ _ _ _ Hin), IH. cbn [filter]. destruct (p _); cbn [length]; lia. }
    destruct HT as [s0 Hs|I h s0 HC Hh|I h s0 t rest s' HT Hh|I h s0 t rest s1 s' HT Hh HF].
    - unfold ctrs. cbn [s_out add_out app tallies flat_map]. fold (tallies (s_out s0)). fold (ctrs s0). cbn. eauto.
    - eauto.
    - unfold ctrs. cbn [s_out add_out app tallies flat_map]. fold (tallies (s_out s')). fold (ctrs s').
      pose proof HT as (HC & _ & Ha). rewrite (ctrs_after _ _ _ Ha), (C66_turn _ _ _ _ _ _ _ _ _ HT), times_app, (Hconv _ _ _ HC), (all_counted _ _ _ _ Hin).
      cbn [filter]. destruct (p t); cbn [length]; lia.
    - unfold ctrs. cbn [s_out add_out app tallies flat_map]. fold (tallies (s_out s')). fold (ctrs s').
      pose proof HT as (HC & _ & Ha). destruct (finish_exact _ _ _ _ _ _ HF) as (l1 & Ha' & _).
      rewrite (ctrs_after _ _ _ Ha'), (ctrs_after _ _ _ Ha), (C66_turn _ _ _ _ _ _ _ _ _ HT), !times_app, (Hconv _ _ _ HC), (all_counted _ _ _ _ Hin).
      assert (Hz : times x (tallies (l1 ++ minphase_time K cn (s_got s1) ++ outcome_of K I (s_counts s1) (x_lastgood (s_tx s1)))) = 0).
      { pose proof (end_tallies _ _ _ _ _ _ _ HT HF Ha') as He. cbn [flat_map app] in He. unfold all_counters in Hin. cbn [counters app] in Hin.
        repeat (destruct He as [<-|He]; [repeat (destruct Hin as [[= <- _]|Hin]; [reflexivity|]); destruct Hin|]). destruct He. }
      rewrite Hz. cbn [filter]. destruct (p t); cbn [length]; lia.
  Qed.
End V.

(** *** All sessions *)

Lemma many_rev xs l : many xs (rev l) = many xs l.
Proof. induction l as [|x l IH]; auto. cbn [rev]. rewrite many_app, IH. unfold many. cbn. destruct (bmem x xs); cbn; lia. Qed.
Lemma value_many x G : value x G = many [x] (map snd G).
Proof.
  unfold value, many. induction G as [|[o y] G IH]; auto. cbn [filter map snd]. 
  replace (bmem y [x]) with (beqb x y) by (cbn [bmem existsb]; rewrite orb_false_r, beqb_sym; reflexivity).
  destruct (beqb x y); cbn [length]; rewrite IH; reflexivity.
Qed.
Lemma many_cons x xs l : ~ In x xs -> many (x :: xs) l = many [x] l + many xs l.
Proof.
  intros Hn. unfold many. induction l as [|y l IH]; auto. cbn [filter bmem existsb] in *. rewrite orb_false_r in *.
  destruct (beqb y x) eqn:Ey; cbn [orb].
  - apply beqb_eq in Ey. subst y. change (existsb (beqb x) xs) with (bmem x xs). destruct (bmem x xs) eqn:Em; [apply bmem_In in Em; contradiction|].
    cbn [length]. rewrite IH. lia.
  - change (existsb (beqb y) xs) with (bmem y xs). destruct (bmem y xs); cbn [length]; rewrite IH; lia.
Qed.
Lemma total_many xs G : NoDup xs -> total xs G = many xs (map snd G).
Proof.
  induction 1 as [|x xs Hn _ IH].
  - unfold many. cbn. induction (map snd G); auto.
  - cbn [total fold_right]. fold (total xs G). rewrite IH, value_many, (many_cons x xs _ Hn). reflexivity.
Qed.
Lemma many_in xs ys l : (forall x, In x xs -> In x ys -> False) -> (forall x, In x l -> In x ys) -> many xs l = 0.
Proof.
  intros Hd Hl. unfold many. induction l as [|x l IH]; auto. cbn [filter]. destruct (bmem x xs) eqn:E.
  - exfalso. apply (Hd x); [apply bmem_In; auto|apply Hl; left; auto].
  - apply IH. intros y Hy. apply Hl. right; auto.
Qed.

(** what the main loop counted *)
Definition mains (G : ticks) : list bytes := flat_map (fun p => match fst p with None => [snd p] | Some _ => [] end) G.
Definition sum (n : nat) (f : nat -> nat) : nat := list_sum (map f (seq 0 n)).
Lemma sum_S n f : sum (S n) f = sum n f + f n.
Proof. unfold sum. rewrite seq_S, map_app, list_sum_app. cbn. lia. Qed.
Lemma sum_le n f g : (forall i, i < n -> f i <= g i) -> sum n f <= sum n g.
Proof. induction n as [|n IH]; intros H; [reflexivity|]. rewrite !sum_S. specialize (IH (fun i Hi => H i (Nat.lt_lt_succ_r _ _ Hi))). specialize (H n (Nat.lt_succ_diag_r n)). lia. Qed.
Lemma sum_ext n f g : (forall i, i < n -> f i = g i) -> sum n f = sum n g.
Proof. induction n as [|n IH]; intros H; [reflexivity|]. rewrite !sum_S, IH, (H n) by auto. reflexivity. Qed.
Lemma sum_1 n : sum n (fun _ => 1) = n.
Proof. induction n as [|n IH]; [reflexivity|]. rewrite sum_S, IH. lia. Qed.
Lemma sum_0 n : sum n (fun _ => 0) = 0.
Proof. induction n as [|n IH]; [reflexivity|]. rewrite sum_S, IH. lia. Qed.
Lemma sum_at n j k f : j < n -> sum n (fun i => (if Nat.eqb j i then k else 0) + f i) = k + sum n f.
Proof.
  intros H. induction n as [|n IH]; [lia|]. rewrite !sum_S. destruct (Nat.eqb_spec j n) as [->|Hn].
  - replace (sum n (fun i => (if Nat.eqb n i then k else 0) + f i)) with (sum n f); [lia|].
    apply sum_ext. intros i Hi. destruct (Nat.eqb_spec n i); [lia|reflexivity].
  - rewrite IH by lia. lia.
Qed.

Lemma ticks_cons i p G : ticks_of i (p :: G) = ticks_of i G ++ (if its i p then [snd p] else []).
Proof. unfold ticks_of. cbn [rev]. rewrite filter_app, map_app. cbn [filter]. destruct (its i p); reflexivity. Qed.
Lemma total_split xs n G : (forall i x, In (Some i, x) G -> i < n) ->
  many xs (map snd G) = many xs (mains G) + sum n (fun i => many xs (ticks_of i G)).
Proof.
  induction G as [|[[j|] x] G IH]; intros H.
  - cbn. rewrite sum_0. reflexivity.
  - cbn [map snd mains flat_map fst app]. fold (mains G). change (x :: map snd G) with ([x] ++ map snd G). rewrite many_app, IH by (intros; eapply H; right; eauto).
    rewrite (sum_ext n (fun i => many xs (ticks_of i ((Some j, x) :: G))) (fun i => (if Nat.eqb j i then many xs [x] else 0) + many xs (ticks_of i G))).
    + rewrite sum_at by (apply (H j x); left; auto). lia.
    + intros i Hi. rewrite ticks_cons, many_app. unfold its. cbn [fst snd]. destruct (Nat.eqb j i); [lia|]. change (many xs []) with 0. lia.
  - cbn [map snd mains flat_map fst app]. fold (mains G). change (x :: map snd G) with ([x] ++ map snd G). change (x :: mains G) with ([x] ++ mains G).
    rewrite !many_app, IH by (intros; eapply H; right; eauto).
    rewrite (sum_ext n (fun i => many xs (ticks_of i ((None, x) :: G))) (fun i => many xs (ticks_of i G))); [lia|].
    intros i Hi. rewrite ticks_cons. cbn. rewrite app_nil_r. reflexivity.
Qed.

Lemma F2_length {A B} (R : A -> B -> Prop) l l' : Forall2 R l l' -> length l = length l'.
Proof. induction 1; cbn; auto. Qed.

Section G.
  Context (K : config) (vs : list visit).

  Lemma Counted_earlier G l : Counted K vs (l ++ G) -> Counted K vs G.
  Proof.
    intros [Hm Hv Hs]. constructor.
    - intros x Hx. apply Hm. apply in_or_app. auto.
    - intros i v Hi. destruct (Hv i v Hi) as (Hp & more & Hmore). split; auto. unfold ticks_of in Hmore. rewrite rev_app_distr, filter_app, map_app, <- app_assoc in Hmore. eauto.
    - intros i later x earlier ->. apply (Hs i (l ++ later) x). rewrite <- app_assoc. reflexivity.
  Qed.
  Lemma value_app x a b : value x (a ++ b) = value x a + value x b.
  Proof. unfold value. rewrite filter_app, app_length. reflexivity. Qed.
  Lemma Counted_ids G i x : Counted K vs G -> In (Some i, x) G -> i < length vs /\ i < value (B "connections") G.
  Proof.
    intros [_ _ Hs] Hin. apply in_split in Hin as (later & earlier & ->). destruct (Hs _ _ _ _ eq_refl) as (H1 & H2). split; auto.
    change (later ++ (Some i, x) :: earlier) with (later ++ [(Some i, x)] ++ earlier). rewrite !value_app. lia.
  Qed.
  Lemma Counted_session G i : Counted K vs G -> i < length vs -> exists v ts more, nth_error vs i = Some v /\
    turns K (vi_env v) (vi_conn v) (vi_events v) (vi_done v) (vi_state v) ts /\ ctrs (vi_state v) = ticks_of i G ++ more.
  Proof.
    intros [_ Hv _] Hi. destruct (nth_error vs i) as [v|] eqn:Ev; [|apply nth_error_None in Ev; lia].
    destruct (Hv i v Ev) as (Hp & more & Hm). apply process_turns in Hp as (ts & Ht). exists v, ts, more. auto.
  Qed.
  Lemma mains_many G xs : Counted K vs G -> ~ In (B "connections") xs -> many xs (mains G) = 0.
  Proof.
    intros [Hm _ _] Hn. apply (many_in xs [B "connections"]).
    - intros x Hx [<-|[]]. contradiction.
    - intros x Hx. unfold mains in Hx. apply in_flat_map in Hx as ([[j|] y] & H1 & H2); [destruct H2|]. cbn in H2. destruct H2 as [->|[]].
      rewrite (Hm _ H1). left. auto.
  Qed.

  (** C72: at every moment, whatever sessions run and however their steps are
      mixed: no more commands have been counted as accepted than arrived, ... *)
  Theorem C72_moment G xs ys : Counted K vs G -> In (xs, ys) bounds -> total xs G <= total ys G.
  Proof.
    intros HC Hin.
    assert (Hnd : NoDup xs /\ NoDup ys /\ ~ In (B "connections") xs /\ ~ In (B "connections") ys).
    { unfold bounds in Hin. repeat (destruct Hin as [[= <- <-]|Hin];
        [repeat split; try (repeat constructor; cbn; intuition discriminate); cbn; intuition discriminate|]). destruct Hin. }
    destruct Hnd as (N1 & N2 & N3 & N4). rewrite !total_many by auto.
    assert (Hid : forall i x, In (Some i, x) G -> i < length vs) by (intros i x Hi; apply (Counted_ids _ _ _ HC Hi)).
    rewrite !(total_split _ _ _ Hid), !mains_many by auto. cbn [plus]. apply sum_le. intros i Hi.
    destruct (Counted_session _ _ HC Hi) as (v & ts & more & _ & Ht & Hm).
    pose proof (turns_covered _ _ _ _ _ _ _ _ _ Ht Hin) as Hc. rewrite Hm in Hc. apply covered_le in Hc. exact Hc.
  Qed.

  (** ... and no more ends of sessions, rule file errors, stalled clients and
      connections without TLS than connections. *)
  Theorem C72_connections G xs : Counted K vs G -> In xs onces -> total xs G <= value (B "connections") G.
  Proof.
    intros HC Hin.
    assert (Hnd : NoDup xs /\ ~ In (B "connections") xs).
    { unfold onces in Hin. repeat (destruct Hin as [<-|Hin]; [split; [repeat constructor; cbn; intuition discriminate|cbn; intuition discriminate]|]). destruct Hin. }
    destruct Hnd as (N1 & N2). rewrite total_many by auto. set (n := value (B "connections") G).
    assert (Hid : forall i x, In (Some i, x) G -> i < n) by (intros i x Hi; apply (Counted_ids _ _ _ HC Hi)).
    rewrite (total_split _ n _ Hid), mains_many by auto. cbn [plus]. rewrite <- (sum_1 n) at 2. apply sum_le. intros i Hi.
    destruct (Nat.ltb_spec i (length vs)) as [Hlt|Hge].
    - destruct (Counted_session _ _ HC Hlt) as (v & ts & more & _ & Ht & Hm). pose proof (turns_once _ _ _ _ _ _ _ _ Ht Hin) as Ho.
      rewrite Hm, many_app in Ho. lia.
    - assert (He : ticks_of i G = []); [|rewrite He; cbn; lia].
      unfold ticks_of. destruct (filter (its i) (rev G)) as [|[[j|] x] l] eqn:Ef; auto.
      + assert (Hf : In (Some j, x) (filter (its i) (rev G))) by (rewrite Ef; left; auto). apply filter_In in Hf as (Hf & He). cbn in He. apply Nat.eqb_eq in He. subst j.
        rewrite <- in_rev in Hf. apply (Counted_ids _ _ _ HC) in Hf. lia.
      + assert (Hf : In (None, x) (filter (its i) (rev G))) by (rewrite Ef; left; auto). apply filter_In in Hf as (_ & He). discriminate He.
  Qed.

  (** C72: when all that the sessions did so far has been counted, the counters
      are the numbers of these commands and ends in all sessions. *)
  Definition settled (G : ticks) : Prop := forall i v, nth_error vs i = Some v -> ctrs (vi_state v) = ticks_of i G.
  Definition session (v : visit) (ts : list turn) : Prop := turns K (vi_env v) (vi_conn v) (vi_events v) (vi_done v) (vi_state v) ts.

  Theorem C72_settled G tss x p : Counted K vs G -> settled G -> Forall2 session vs tss -> In (x, p) all_counters ->
    value x G = length (filter p (concat tss)).
  Proof.
    intros HC Hset Hss Hin. rewrite value_many.
    assert (Hid : forall i y, In (Some i, y) G -> i < length vs) by (intros i y Hi; apply (Counted_ids _ _ _ HC Hi)).
    assert (Hx : x <> B "connections").
    { unfold all_counters in Hin. cbn [counters app] in Hin. repeat (destruct Hin as [[= <- _]|Hin]; [discriminate|]). destruct Hin. }
    rewrite (total_split _ _ _ Hid), mains_many; [|auto|intros [Hc|[]]; auto]. cbn [plus].
    assert (Hone : forall l, many [x] l = times x l).
    { intros l. unfold many, times. f_equal. apply filter_ext. intros y. cbn. rewrite orb_false_r. apply beqb_sym. }
    assert (Hsum : forall n, n <= length vs -> sum n (fun i => many [x] (ticks_of i G)) = length (filter p (concat (firstn n tss)))).
    { pose proof (F2_length _ _ _ Hss) as Hlen. induction n as [|n IH]; intros Hn; [reflexivity|].
      rewrite sum_S, IH by lia.
      destruct (nth_error vs n) as [v|] eqn:Ev; [|apply nth_error_None in Ev; lia].
      destruct (nth_error tss n) as [ts|] eqn:Et; [|apply nth_error_None in Et; lia].
      assert (Hs : session v ts).
      { clear - Hss Ev Et. revert n Ev Et. induction Hss as [|v0 t0 l l' H0 _ IH]; intros [|n] Ev Et; cbn in *; try discriminate; [congruence|eauto]. }
      rewrite Hone, <- (Hset _ _ Ev), (turns_counted _ _ _ _ _ _ _ _ _ Hs Hin).
      assert (Hf : firstn (S n) tss = firstn n tss ++ [ts]).
      { clear - Et. revert n Et. induction tss as [|t0 l IH]; intros [|n] Et; cbn in *; try discriminate; [congruence|]. f_equal. apply IH. exact Et. }
      rewrite Hf, concat_app, filter_app, app_length. cbn. rewrite app_nil_r. reflexivity. }
    rewrite Hsum by auto. rewrite (F2_length _ _ _ Hss), firstn_all. reflexivity.
  Qed.

  (** The number of TLS sessions is put together from two others. *)
  Theorem C72_starttls G : Counted K vs G -> settled G -> value (B "starttls") G = value (B "tlserrs") G + value (B "tlson") G.
  Proof.
    intros HC Hset.
    assert (Hid : forall i y, In (Some i, y) G -> i < length vs) by (intros i y Hi; apply (Counted_ids _ _ _ HC Hi)).
    rewrite !value_many, !(total_split _ _ _ Hid), !mains_many by (auto; cbn; intuition discriminate). cbn [plus].
    assert (Hadd : forall n f g, sum n f + sum n g = sum n (fun i => f i + g i)) by (intros n f g; induction n; [reflexivity|]; rewrite !sum_S; lia).
    rewrite Hadd. apply sum_ext. intros i Hi.
    destruct (Counted_session _ _ HC Hi) as (v & ts & more & Ev & Ht & Hm). rewrite <- (Hset _ _ Ev).
    revert Ht. apply (closed_turns K (vi_env v) (vi_conn v) (fun l => many [B "starttls"] l = many [B "tlserrs"] l + many [B "tlson"] l)).
    - intros a b Ha Hb. rewrite !many_app. lia.
    - intros [] [] []; reflexivity.
    - intros I h t n s0 s' _ He. unfold counted. unfold ends in He. destruct (t_event t); try discriminate He;
        destruct (accepted t); try reflexivity; try (destruct (ts_on _ && _); reflexivity); destruct (yaks _); reflexivity.
    - intros I h t s0 s1 s' did HT HF Ha. pose proof (end_tallies _ _ _ _ _ _ _ _ _ _ HT HF Ha) as He.
      destruct (Turn_last _ _ _ _ _ _ _ _ HT) as [-> | ->]; cbn [flat_map] in He;
        repeat (destruct He as [<-|He]; [reflexivity|]); destruct He.
  Qed.
End G.

(** ** The page *)

(** sinksmtp.go:1383-1425, in the order of the code: the names under which the
    counters appear, from the outside in, and the counters.  The other things on
    the page are left out here: sizes, the counts of DNSBL hits (see counts_add)
    and of local addresses, times, the process. *)
Definition page : list (list bytes * bytes) :=
  [ ([B "events"; B "connections"], B "connections");
    ([B "events"; B "tls_errors"], B "tlserrs");
    ([B "events"; B "yakkers"], B "yakkers");
    ([B "events"; B "notls_conns"], B "notlscnt");
    ([B "events"; B "rules_errors"], B "ruleserr");
    ([B "events"; B "yakker_adds"], B "yakads");
    ([B "events"; B "yakker_forces"], B "yakforces");
    ([B "events"; B "rsetdrops"], B "rsetdrops");
    ([B "events"; B "abandons"], B "abandons");
    ([B "events"; B "refuseds"], B "refuseds");
    ([B "smtpcounts"; B "commands"; B "ehlo"], B "ehlo");
    ([B "smtpcounts"; B "commands"; B "mailfrom"], B "mailfrom");
    ([B "smtpcounts"; B "commands"; B "rcptto"], B "rcptto");
    ([B "smtpcounts"; B "commands"; B "data"], B "data");
    ([B "smtpcounts"; B "commands"; B "starttls"], B "starttls");
    ([B "smtpcounts"; B "accepted"; B "ehlo"], B "ehloAccept");
    ([B "smtpcounts"; B "accepted"; B "mailfrom"], B "mailfromAccept");
    ([B "smtpcounts"; B "accepted"; B "rcptto"], B "rcpttoAccept");
    ([B "smtpcounts"; B "accepted"; B "data"], B "dataAccept");
    ([B "smtpcounts"; B "accepted"; B "messages"], B "messages");
    ([B "smtpcounts"; B "ehlo_tlson"], B "tlson");
    ([B "smtpcounts"; B "quits"], B "quits");
    ([B "smtpcounts"; B "aborts"], B "aborts");
    ([B "smtpcounts"; B "rsets"], B "rsets") ].

(** expvar.Map shows its keys in order, and maps in it in their place. *)
Fixpoint path_leb (a b : list bytes) : bool :=
  match a, b with
  | [], _ => true
  | _, [] => false
  | x :: a', y :: b' => if beqb x y then path_leb a' b' else bytes_leb x y
  end.
Fixpoint path_insert (p : list bytes * bytes) (l : list (list bytes * bytes)) : list (list bytes * bytes) :=
  match l with
  | [] => [p]
  | q :: l' => if path_leb (fst p) (fst q) then p :: l else q :: path_insert p l'
  end.
Definition in_order (l : list (list bytes * bytes)) : list (list bytes * bytes) := fold_right path_insert [] l.

(** Someone fetches the page: the counters are read one after the other, while
    the sessions go on; [G] is the history at the first read and [G'] a later
    one. *)
Inductive Shown (G' : ticks) : list (list bytes * bytes) -> ticks -> list (list bytes * nat) -> Prop :=
| Sh_done G l : G' = l ++ G -> Shown G' [] G []
| Sh_read p x rest l G vals : Shown G' rest (l ++ G) vals -> Shown G' ((p, x) :: rest) G ((p, value x G) :: vals).

Fixpoint path_eqb (a b : list bytes) : bool :=
  match a, b with [], [] => true | x :: a', y :: b' => beqb x y && path_eqb a' b' | _, _ => false end.
(** the number shown under a name *)
Fixpoint showing (p : list bytes) (vals : list (list bytes * nat)) : option nat :=
  match vals with [] => None | (q, n) :: vals' => if path_eqb p q then Some n else showing p vals' end.
Fixpoint find_path (p : list bytes) (l : list (list bytes * bytes)) : option bytes :=
  match l with [] => None | (q, x) :: l' => if path_eqb p q then Some x else find_path p l' end.
(** [p] is found no later than [q]. *)
Fixpoint before (p q : list bytes) (l : list (list bytes * bytes)) : bool :=
  match l with [] => false | (r, _) :: l' => path_eqb p r || (negb (path_eqb q r) && before p q l') end.

Lemma Shown_later G' l G vals : Shown G' l G vals -> exists d, G' = d ++ G.
Proof. induction 1 as [G l ->|p x rest l G vals _ (d & ->)]; [eauto|]. exists (d ++ l). rewrite <- app_assoc. reflexivity. Qed.
Lemma Shown_one G' l G vals p a : Shown G' l G vals -> showing p vals = Some a ->
  exists x G1 d d', find_path p l = Some x /\ a = value x G1 /\ G1 = d ++ G /\ G' = d' ++ G1.
Proof.
  induction 1 as [G l ->|q x rest l G vals HS IH]; cbn [showing find_path]; [discriminate|]. destruct (path_eqb p q).
  - intros [= <-]. destruct (Shown_later _ _ _ _ HS) as (d & ->). exists x, G, [], (d ++ l). rewrite <- app_assoc. auto.
  - intros H. destruct (IH H) as (y & G1 & d & d' & H1 & H2 & H3 & H4). exists y, G1, (d ++ l), d'. rewrite <- app_assoc. auto.
Qed.
Lemma Shown_two G' l G vals p q a b : Shown G' l G vals -> before p q l = true -> showing p vals = Some a -> showing q vals = Some b ->
  exists x y G1 G2 d d', find_path p l = Some x /\ find_path q l = Some y /\ a = value x G1 /\ b = value y G2 /\ G2 = d ++ G1 /\ G' = d' ++ G2.
Proof.
  intros HS. revert a b. induction HS as [G l ->|r x rest l G vals HS IH]; intros a b Hb Ha Hq; [discriminate|].
  pose proof (Sh_read G' r x rest l G vals HS) as HS'. cbn [showing find_path before] in *. destruct (path_eqb p r) eqn:Ep.
  - injection Ha as <-. destruct (Shown_one _ _ _ _ q b HS' Hq) as (y & G2 & d & d' & H1 & H2 & H3 & H4).
    exists x, y, G, G2, d, d'. cbn [find_path] in H1. auto 10.
  - cbn [orb] in Hb. destruct (path_eqb q r) eqn:Eq; [discriminate|]. cbn [negb andb] in Hb. eauto.
Qed.

(** C72: on every page, even one put together while sessions run: *)
Definition page_bounds : list (list bytes * list bytes) :=
  [ ([B "smtpcounts"; B "accepted"; B "ehlo"], [B "smtpcounts"; B "commands"; B "ehlo"]);
    ([B "smtpcounts"; B "accepted"; B "mailfrom"], [B "smtpcounts"; B "commands"; B "mailfrom"]);
    ([B "smtpcounts"; B "accepted"; B "rcptto"], [B "smtpcounts"; B "commands"; B "rcptto"]);
    ([B "smtpcounts"; B "accepted"; B "data"], [B "smtpcounts"; B "commands"; B "data"]);
    ([B "events"; B "rsetdrops"], [B "smtpcounts"; B "rsets"]);
    ([B "events"; B "rsetdrops"], [B "events"; B "yakker_adds"]);
    ([B "events"; B "abandons"], [B "events"; B "connections"]) ].

Theorem C72_page K vs G G' vals p q a b : Shown G' (in_order page) G vals -> Counted K vs G' -> In (p, q) page_bounds ->
  showing p vals = Some a -> showing q vals = Some b -> a <= b.
Proof.
  intros HS HC Hin Ha Hb.
  assert (Hbef : before p q (in_order page) = true).
  { unfold page_bounds in Hin. repeat (destruct Hin as [[= <- <-]|Hin]; [vm_compute; reflexivity|]). destruct Hin. }
  destruct (Shown_two _ _ _ _ _ _ _ _ HS Hbef Ha Hb) as (x & y & G1 & G2 & d & d' & Hx & Hy & -> & -> & E2 & E3).
  subst G' G2. apply Counted_earlier in HC. apply Counted_earlier in HC.
  assert (Hmon : value y G1 <= value y (d ++ G1)) by (rewrite value_app; lia).
  cut (value x G1 <= value y G1); [lia|]. clear Hmon HS Ha Hb Hbef.
  assert (Hone : forall x y, In ([x], [y]) bounds -> value x G1 <= value y G1).
  { intros x' y' Hi. pose proof (C72_moment _ _ _ _ _ HC Hi) as H. cbn [total fold_right] in H. lia. }
  unfold page_bounds in Hin. repeat (destruct Hin as [[= <- <-]|Hin]; [vm_compute in Hx, Hy; injection Hx as <-; injection Hy as <-|]); [..|destruct Hin].
  1-5: apply Hone; cbn; auto 20.
  - pose proof (C72_moment K vs G1 [B "rsetdrops"; B "yakforces"] [B "yakads"] HC) as H. cbn [total fold_right] in H.
    assert (Hb : In ([B "rsetdrops"; B "yakforces"], [B "yakads"]) bounds) by (cbn; auto 20). apply H in Hb. 
    change (value (B "rsetdrops") G1 <= value (B "yakads") G1). lia.
  - pose proof (C72_moment K vs G1 [B "abandons"; B "refuseds"] [B "quits"; B "aborts"] HC) as H.
    pose proof (C72_connections K vs G1 [B "quits"; B "aborts"] HC) as H'. cbn [total fold_right] in H, H'.
    assert (Hb : In ([B "abandons"; B "refuseds"], [B "quits"; B "aborts"]) bounds) by (cbn; auto 20). apply H in Hb.
    assert (Hb' : In [B "quits"; B "aborts"] onces) by (cbn; auto 20). apply H' in Hb'. 
    change (value (B "abandons") G1 <= value (B "connections") G1). lia.
Qed.

(** C72: on a page shown when all that the sessions did has been counted and
    nothing goes on, the numbers are these. *)
Definition page_means : list (list bytes * (turn -> bool)) :=
  [ ([B "smtpcounts"; B "commands"; B "ehlo"], is_helo); ([B "smtpcounts"; B "commands"; B "mailfrom"], is_mail);
    ([B "smtpcounts"; B "commands"; B "rcptto"], is_rcpt); ([B "smtpcounts"; B "commands"; B "data"], is_data);
    ([B "smtpcounts"; B "accepted"; B "ehlo"], fun t => is_helo t && accepted t);
    ([B "smtpcounts"; B "accepted"; B "mailfrom"], fun t => is_mail t && accepted t);
    ([B "smtpcounts"; B "accepted"; B "rcptto"], fun t => is_rcpt t && accepted t);
    ([B "smtpcounts"; B "accepted"; B "data"], fun t => is_data t && accepted t);
    ([B "smtpcounts"; B "accepted"; B "messages"], is_message);
    ([B "events"; B "tls_errors"], tls_failure);
    ([B "smtpcounts"; B "quits"], is_quit); ([B "smtpcounts"; B "aborts"], is_abort) ].
Theorem C72_shown K vs G vals tss p f : Shown G (in_order page) G vals -> Counted K vs G -> settled vs G -> Forall2 (session K) vs tss ->
  In (p, f) page_means -> showing p vals = Some (length (filter f (concat tss))).
Proof.
  intros HS HC Hset Hss Hin.
  assert (Hsome : showing p vals <> None).
  { assert (Hk : map fst vals = map fst (in_order page)).
    { clear - HS. induction HS; cbn [map fst]; congruence. }
    assert (Hnone : forall vals : list (list bytes * nat), showing p vals = None -> existsb (path_eqb p) (map fst vals) = false).
    { induction vals0 as [|[q n] l IH]; auto. cbn. destruct (path_eqb p q); [discriminate|]. exact IH. }
    intros Hn. apply Hnone in Hn. rewrite Hk in Hn. clear - Hin Hn.
    unfold page_means in Hin. repeat (destruct Hin as [[= <- _]|Hin]; [vm_compute in Hn; discriminate Hn|]). destruct Hin. }
  destruct (showing p vals) as [n|] eqn:Es; [|congruence]. f_equal. clear Hsome.
  destruct (Shown_one _ _ _ _ _ _ HS Es) as (x & G1 & d & d' & Hx & -> & -> & E).
  assert (d = []) as -> by (apply (f_equal (@length _)) in E; rewrite !app_length in E; destruct d; [reflexivity|cbn in E; lia]).
  cbn [app]. apply (C72_settled K vs G tss x f HC Hset Hss). clear - Hin Hx.
  unfold page_means in Hin. repeat (destruct Hin as [[= <- <-]|Hin]; [vm_compute in Hx; injection Hx as <-; vm_compute; auto 20|]). destruct Hin.
Qed.

(** ** Examples *)

(** the connections first, and then what the sessions count *)
Lemma Counted_schedule K vs G0 :
  forallb (fun p => match fst p with Some i => Nat.ltb i (length vs) | None => false end) G0 = true ->
  (forall i v, nth_error vs i = Some v ->
     process K (vi_env v) (vi_conn v) (vi_events v) (sess0 K) = Ok (vi_done v, vi_state v) /\ ctrs (vi_state v) = ticks_of i G0) ->
  Counted K vs (G0 ++ repeat (None, B "connections") (length vs)) /\ settled vs (G0 ++ repeat (None, B "connections") (length vs)).
Proof.
  intros Hids Hv. rewrite forallb_forall in Hids. set (n := length vs) in *.
  assert (Hrep : forall i, filter (its i) (rev (repeat (@None nat, B "connections") n)) = []).
  { intros i. destruct (filter _ _) as [|p l] eqn:E; auto. assert (Hp : In p (filter (its i) (rev (repeat (@None nat, B "connections") n)))) by (rewrite E; left; auto).
    apply filter_In in Hp as (Hp & Hi). rewrite <- in_rev in Hp. apply repeat_spec in Hp. subst p. discriminate. }
  assert (Ht : forall i, ticks_of i (G0 ++ repeat (None, B "connections") n) = ticks_of i G0).
  { intros i. unfold ticks_of. rewrite rev_app_distr, filter_app, Hrep. reflexivity. }
  assert (Hc : value (B "connections") (repeat (None, B "connections") n) = n).
  { clear. induction n as [|n IH]; auto. cbn [repeat]. change (?a :: ?b) with ([a] ++ b). rewrite value_app, IH. reflexivity. }
  split.
  - constructor.
    + intros x Hx. apply in_app_iff in Hx as [Hx|Hx]; [apply Hids in Hx; discriminate Hx|]. apply repeat_spec in Hx. congruence.
    + intros i v Hi. destruct (Hv i v Hi) as (Hp & Hs). split; auto. exists []. rewrite Ht, app_nil_r. exact Hs.
    + intros i later x earlier E. assert (Hin : In (Some i, x) (G0 ++ repeat (None, B "connections") n)) by (rewrite E; apply in_or_app; right; left; auto).
      apply in_app_iff in Hin as [Hin|Hin]; [|apply repeat_spec in Hin; discriminate].
      apply Hids in Hin. cbn in Hin. apply Nat.ltb_lt in Hin. split; auto.
      assert (Hearlier : exists d, earlier = d ++ repeat (None, B "connections") n).
      { clear - E. revert later E. induction G0 as [|p G0 IH]; intros later E.
        - exfalso. assert (Hin : In (Some i, x) (repeat (None, B "connections") n)) by (cbn [app] in E; rewrite E; apply in_or_app; right; left; auto).
          apply repeat_spec in Hin. discriminate.
        - destruct later as [|q later]; cbn [app] in E; injection E as E1 E2; [exists G0; auto|eauto]. }
      destruct Hearlier as (d & ->). rewrite value_app, Hc. lia.
  - intros i v Hi. rewrite Ht. apply (Hv i v Hi).
Qed.

Definition visit_of (K : config) (E : senv) (cn : conn) (evs : list (sevent * tlsstate)) : option visit :=
  match process K E cn evs (sess0 K) with Ok (b, s) => Some (mkVisit E cn evs b s) | _ => None end.
Lemma visit_of_ok K E cn evs v : visit_of K E cn evs = Some v -> process K (vi_env v) (vi_conn v) (vi_events v) (sess0 K) = Ok (vi_done v, vi_state v).
Proof. unfold visit_of. destruct (process K E cn evs (sess0 K)) as [[b s]| |] eqn:Ep; try discriminate. intros [= <-]. exact Ep. Qed.

Lemma visit_example K E cn evs l : option_map (fun v => ctrs (vi_state v)) (visit_of K E cn evs) = Some l ->
  exists v, process K (vi_env v) (vi_conn v) (vi_events v) (sess0 K) = Ok (vi_done v, vi_state v) /\ ctrs (vi_state v) = l.
Proof.
  destruct (visit_of K E cn evs) as [v|] eqn:Ev; [|discriminate]. cbn [option_map]. intros H. exists v. split; [eapply visit_of_ok; eauto|congruence].
Qed.

(** [G] so far, latest first; what is left to count of each session; the order *)
Fixpoint mix (G : ticks) (left : list (list bytes)) (order : list nat) : ticks :=
  match order with
  | [] => G
  | i :: order' => match nth i left [] with
                   | [] => mix G left order'
                   | x :: r => mix ((Some i, x) :: G) (firstn i left ++ r :: skipn (S i) left) order'
                   end
  end.
Fixpoint show (G : ticks) (l : list (list bytes * bytes)) : list (list bytes * nat) :=
  match l with [] => [] | (p, x) :: l' => (p, value x G) :: show G l' end.
Lemma show_Shown G l : Shown G l G (show G l).
Proof. induction l as [|[p x] l IH]; cbn [show]; [apply (Sh_done G G []); reflexivity|]. apply (Sh_read G p x l []). exact IH. Qed.

(** Two sessions at once, one with mail, one with a TLS failure: what they count
    alone, and mixed. *)
Definition demo_first : list bytes :=
  [B "ehlo"; B "ehloAccept"; B "mailfrom"; B "mailfrom"; B "mailfromAccept"; B "rcptto"; B "rcptto"; B "rcpttoAccept"; B "rcptto"; B "rcpttoAccept";
   B "data"; B "dataAccept"; B "messages"; B "quits"; B "abandons"].
Definition demo_second : list bytes := [B "tlserrs"; B "starttls"; B "ehlo"; B "ehloAccept"; B "mailfrom"; B "aborts"; B "refuseds"].
Definition demo_mixed : ticks := mix [] [demo_first; demo_second] [0; 1; 1; 0; 0; 1; 1; 0; 1; 1; 0; 0; 0; 0; 0; 1; 0; 0; 0; 0; 0; 0].

Example C72_two : exists vs G vals, Counted (demo_cfg demo_rules) vs G /\ settled vs G /\ Shown G (in_order page) G vals /\
  map (fun p => (map (fun q => concat (map (fun w => w ++ B "/") q)) [fst p], snd p)) (filter (fun p => negb (Nat.eqb (snd p) 0)) vals) =
  [ ([B "events/abandons/"], 1); ([B "events/connections/"], 2); ([B "events/refuseds/"], 1); ([B "events/tls_errors/"], 1);
    ([B "smtpcounts/aborts/"], 1);
    ([B "smtpcounts/accepted/data/"], 1); ([B "smtpcounts/accepted/ehlo/"], 2); ([B "smtpcounts/accepted/mailfrom/"], 1);
    ([B "smtpcounts/accepted/messages/"], 1); ([B "smtpcounts/accepted/rcptto/"], 2);
    ([B "smtpcounts/commands/data/"], 1); ([B "smtpcounts/commands/ehlo/"], 2); ([B "smtpcounts/commands/mailfrom/"], 3);
    ([B "smtpcounts/commands/rcptto/"], 3); ([B "smtpcounts/commands/starttls/"], 1);
    ([B "smtpcounts/quits/"], 1) ].
Proof.
  destruct (visit_example (demo_cfg demo_rules) demo_env demo_conn (plain (demo_mail ++ [EvGotData (B "Hi"); EvDone])) demo_first) as (v0 & P0 & H0); [vm_compute; reflexivity|].
  destruct (visit_example (demo_cfg demo_rules) demo_env (mkConn 8 2 (B "192.0.2.8:5678") (B "192.0.2.1:25"))
    (plain [EvTlsError; EvHelo HELO (B "x"); EvMailFrom (B "evil@x.y"); EvAbort]) demo_second) as (v1 & P1 & H1); [vm_compute; reflexivity|].
  destruct (Counted_schedule (demo_cfg demo_rules) [v0; v1] demo_mixed) as (HC & HS).
  - vm_compute. reflexivity.
  - intros [|[|i]] v Hi; [..|destruct i; discriminate Hi]; injection Hi as <-; (split; [assumption|]); [rewrite H0|rewrite H1]; vm_compute; reflexivity.
  - exists [v0; v1]. eexists. eexists. split; [exact HC|]. split; [exact HS|]. split; [apply show_Shown|]. vm_compute. reflexivity.
Qed.

(** The page can show more ends of sessions than connections: the number of
    connections is read first. *)
Theorem C72_page_refuted : exists K vs G G' vals c q, Shown G' (in_order page) G vals /\ Counted K vs G' /\
  showing [B "events"; B "connections"] vals = Some c /\ showing [B "smtpcounts"; B "quits"] vals = Some q /\ c < q.
Proof.
  destruct (visit_example (demo_cfg demo_rules) demo_env demo_conn (plain [EvDone]) [B "quits"; B "abandons"]) as (v & Ev & Hl); [vm_compute; reflexivity|].
  set (G' := [(Some 0, B "abandons"); (Some 0, B "quits")] ++ repeat (None, B "connections") 1).
  exists (demo_cfg demo_rules), [v], [], G', (map (fun r => (fst r, 0)) (firstn 2 (in_order page)) ++ show G' (skipn 2 (in_order page))), 0, 1.
  split; [|split; [|split; [|split]]].
  - replace (in_order page) with (firstn 2 (in_order page) ++ skipn 2 (in_order page)) at 1 by apply firstn_skipn.
    assert (E2 : firstn 2 (in_order page) = [([B "events"; B "abandons"], B "abandons"); ([B "events"; B "connections"], B "connections")]) by (vm_compute; reflexivity).
    rewrite E2. cbn [app map fst]. apply (Sh_read G' _ (B "abandons") _ [] []). apply (Sh_read G' _ (B "connections") _ G' []). rewrite app_nil_r. apply show_Shown.
  - apply (Counted_schedule _ [v] [(Some 0, B "abandons"); (Some 0, B "quits")]); [reflexivity|].
    intros [|i] v' Hi; [|destruct i; discriminate Hi]. injection Hi as <-. split; auto.
  - vm_compute. reflexivity.
  - vm_compute. reflexivity.
  - lia.
Qed.
