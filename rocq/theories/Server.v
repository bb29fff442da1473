(** Several sessions of one server, which share the two blacklists (C49, C51,
    C54). *)
From Verif Require Import PropsParse.
From Verif Require Import Bytes Outcome Lexer Ast GoNet Parser World Dns Eval Decisions RuleLoad PropsLoad ConnCfg PropsConn CipherNames Message Session SessProofs Conv PropsEval PropsSession DemoSession PropsYak Tallies Shared PropsShared.
From Coq Require Import Lia.

(** A session: its surroundings, its connection, the events so far, whether it
    has ended, and the state reached. *)
Record visit := mkVisit { vi_env : senv; vi_conn : conn; vi_events : list (sevent * tlsstate); vi_done : bool; vi_state : sess }.

(** An operation on a blacklist and its result, as it appears in a session. *)
Definition bop_of (x : ipop * ipres) : option bop :=
  match x with
  | (OAdd ip ttl _ _, RCount n) => Some (BAdd ip ttl n)
  | (OSet ip ttl _ _ c, RCount n) => Some (BSet ip ttl c n)
  | (ODel ip, RNone) => Some (BDel ip)
  | (OLookup ip ttl _, RFound hit n) => Some (BLookup ip ttl hit n)
  | _ => None
  end.
(** What session [i] did, earliest first, in a history with the latest first. *)
Definition of_visit (i : nat) (G : list (nat * (ipop * ipres))) : list (option bop) :=
  map (fun x => bop_of (snd x)) (filter (fun x => Nat.eqb (fst x) i) (rev G)).

(** sinksmtp.go:1711-1717 and 1290-1296: the sessions [vs] of one server run at
    the same time and share the list of do-nothing clients and the one of clients
    with TLS failures.  [Gy] and [Gn] are the operations on them in the order in
    which they took the lock, latest first, each with the number of its session.
    A session may still have operations to do that are not in the history.  The
    only other user is the statistics page. *)
Record Served (K : config) (vs : list visit) (Gy Gn : list (nat * (ipop * ipres))) : Prop := mkServed {
  sv_yak : exists m, ip_hist (map snd Gy) m;
  sv_tls : exists m, ip_hist (map snd Gn) m;
  sv_visit : forall i v, nth_error vs i = Some v ->
    process K (vi_env v) (vi_conn v) (vi_events v) (sess0 K) = Ok (vi_done v, vi_state v) /\
    (exists more, map Some (rev (yaks (s_out (vi_state v)))) = of_visit i Gy ++ more) /\
    (exists more, map Some (rev (notlss (s_out (vi_state v)))) = of_visit i Gn ++ more);
  sv_other : forall i x, In (i, x) Gy \/ In (i, x) Gn -> nth_error vs i = None -> fst x = OStats
}.

Section S.
  Context (K : config) (E : senv) (cn : conn).

  (** After the lookup at its start, a session only adds, sets and deletes. *)
  Definition later_op (o : bop) : Prop :=
    match o with
    | BAdd ip ttl _ => ip = n_rip cn /\ ttl = k_yakttl K
    | BSet ip ttl c _ => ip = n_rip cn /\ ttl = k_yakttl K /\ c = k_yakcount K
    | BDel ip => ip = n_rip cn
    | BLookup _ _ _ _ => False
    end.

  Lemma turn_ops I h t n s s' : Turn K E cn I h t n s s' -> Forall later_op (yaks (t_did t)).
  Proof.
    intros HT. destruct (C53_attempt _ _ _ _ _ _ _ _ _ HT) as [(-> & _)|(arg & k & _ & _ & _ & _ & _ & _ & _ & -> & _)]; constructor; [split; auto|constructor].
  Qed.

  Lemma Conv_from_setup I h s : Conv K E cn I h s -> exists s0 did, setup K E cn (sess0 K) = Ok (Some I, s0) /\ after did s0 s /\ Forall later_op (yaks did).
  Proof.
    induction 1 as [s Hs|h s ev tls s' did HC (s0 & d0 & H0 & Ha0 & Ho) Hst Ha].
    - exists s, []. split; auto. split; [reflexivity|constructor].
    - exists s0, (d0 ++ did). split; auto. split.
      + unfold after in *. rewrite Ha, Ha0, rev_app_distr, <- app_assoc. reflexivity.
      + rewrite yaks_app. apply Forall_app. split; auto.
        apply (turn_ops I h (mkTurn ev tls did) Go s s'). repeat split; auto.
  Qed.

  Lemma process_from_setup evs b s' : process K E cn evs (sess0 K) = Ok (b, s') ->
    exists o s0 did, setup K E cn (sess0 K) = Ok (o, s0) /\ after did s0 s' /\ Forall later_op (yaks did).
  Proof.
    intros H. apply process_went in H.
    assert (Hup : forall o s, (exists s0 did, setup K E cn (sess0 K) = Ok (o, s0) /\ after did s0 s /\ Forall later_op (yaks did)) ->
      exists o s0 did, setup K E cn (sess0 K) = Ok (o, s0) /\ after did s0 (add_out [FHangup] s) /\ Forall later_op (yaks did)).
    { intros o s (s0 & did & H1 & H2 & H3). exists o, s0, (did ++ [FHangup]). split; auto. split.
      - unfold after in *. cbn. rewrite H2, rev_app_distr. reflexivity.
      - rewrite yaks_app. apply Forall_app. split; auto. constructor. }
    assert (Ht : forall I h t n s s', Turn K E cn I h t n s s' ->
      exists s0 did, setup K E cn (sess0 K) = Ok (Some I, s0) /\ after did s0 s' /\ Forall later_op (yaks did)).
    { intros I h t n s s2 HT. pose proof (turn_ops _ _ _ _ _ _ HT) as Ho. destruct HT as (HC & _ & Ha). apply Conv_from_setup in HC as (s0 & did & H1 & H2 & H3).
      exists s0, (did ++ t_did t). split; auto. split.
      - unfold after in *. rewrite Ha, H2, rev_app_distr, <- app_assoc. reflexivity.
      - rewrite yaks_app. apply Forall_app. auto. }
    destruct H as [s Hs|I h s HC Hh|I h s t rest s' HT Hh|I h s t rest s1 s' HT Hh HF].
    - apply (Hup None). exists s, []. split; auto. split; [reflexivity|constructor].
    - exists (Some I). apply Conv_from_setup in HC. auto.
    - eapply Hup. eapply Ht. exact HT.
    - apply (Hup (Some I)). destruct (Ht _ _ _ _ _ _ HT) as (s0 & did & H1 & H2 & H3).
      destruct (C53_end _ _ _ _ _ _ _ _ _ HT HF) as (d2 & n & H4 & H5).
      exists s0, (did ++ d2). split; auto. split.
      + unfold after in *. rewrite H4, H2, rev_app_distr, <- app_assoc. reflexivity.
      + rewrite yaks_app. apply Forall_app. split; auto. rewrite H5.
        destruct (has_opt _ _); [repeat constructor|]. destruct (got_far K h); [destruct (Z.ltb _ _); repeat constructor|].
        destruct (_ && _); repeat constructor.
  Qed.

  (** The first operation of a session decides on stalling. *)
  Lemma process_lookup evs b s' : process K E cn evs (sess0 K) = Ok (b, s') -> exists o s0 hit n rest,
    setup K E cn (sess0 K) = Ok (o, s0) /\ rev (yaks (s_out s')) = BLookup (n_rip cn) (k_yakttl K) hit n :: rest /\ Forall later_op rest /\
    (forall I, o = Some I -> exists rr, setupRules (v_fds E) (v_rfs E) (v_tick E) (k_base K) (k_rulefiles K) = Some rr /\ I = info_of K rr (stalled K hit n)).
  Proof.
    intros H. apply process_from_setup in H as (o & s0 & did & H1 & H2 & H3).
    pose proof H1 as HS. apply setup_Setup in HS. apply Setup_counts in HS as (rr & hit & n & l & Hr & Hi & _ & Hy & _).
    exists o, s0, hit, n, (yaks did). split; auto. split; [|split; eauto].
    unfold after in H2. rewrite H2, yaks_app, yaks_rev, rev_app_distr, rev_involutive, Hy. reflexivity.
  Qed.
End S.

(** A tagged operation in the history is one of its session. *)
Lemma of_visit_split i G later x earlier : G = later ++ (i, x) :: earlier ->
  of_visit i G = of_visit i earlier ++ bop_of x :: of_visit i later.
Proof.
  intros ->. unfold of_visit. rewrite rev_app_distr. cbn [rev]. rewrite <- app_assoc, !filter_app, !map_app. cbn [app filter fst].
  rewrite Nat.eqb_refl. reflexivity.
Qed.

Lemma hist_at (G : list (nat * (ipop * ipres))) m later x earlier : ip_hist (map snd G) m -> G = later ++ x :: earlier -> exists m', ip_hist (snd x :: map snd earlier) m'.
Proof. intros H ->. rewrite map_app in H. apply hist_app in H. exact H. Qed.

(** C49: a session is stalled exactly if, at its start, its client stands on the
    list with a count of at least -dncount, put there less than -dndur ago (and
    there is an SMTP log). *)
Theorem C49_stalled K vs Gy Gn i v later ip ttl t hit n earlier : Served K vs Gy Gn -> nth_error vs i = Some v ->
  Gy = later ++ (i, (OLookup ip ttl t, RFound hit n)) :: earlier ->
  ip = n_rip (vi_conn v) /\ ttl = k_yakttl K /\
  forall I s0, setup K (vi_env v) (vi_conn v) (sess0 K) = Ok (Some I, s0) ->
    (si_stall I = true <-> k_smtplog K = true /\ (0 < k_yakcount K)%Z /\
       exists c w, Standing (map snd earlier) ip c w /\ (t - w < k_yakttl K)%Z /\ (k_yakcount K <= c)%Z) /\
    (if si_stall I then si_rules I = [stall_all] /\ si_log I = false
     else exists rr, setupRules (v_fds (vi_env v)) (v_rfs (vi_env v)) (v_tick (vi_env v)) (k_base K) (k_rulefiles K) = Some rr /\
            si_rules I = rr_rules rr /\ si_log I = k_smtplog K).
Proof.
  intros HS Hv HG. destruct (sv_visit _ _ _ _ HS i v Hv) as (Hp & (more & Hm) & _).
  apply process_lookup in Hp as (o & s0 & hit0 & n0 & rest & H1 & H2 & H3 & H4).
  rewrite H2, (of_visit_split _ _ _ _ _ HG), <- app_assoc in Hm. cbn [bop_of app] in Hm.
  assert (Hfirst : of_visit i earlier = [] /\ BLookup (n_rip (vi_conn v)) (k_yakttl K) hit0 n0 = BLookup ip ttl hit n).
  { destruct (of_visit i earlier) as [|y l]; cbn [map app] in Hm; [split; auto; congruence|]. exfalso.
    injection Hm as _ Hm. assert (Hin : In (Some (BLookup ip ttl hit n)) (map Some rest)) by (rewrite Hm; apply in_or_app; right; left; reflexivity).
    apply in_map_iff in Hin as (y' & [= ->] & Hin). rewrite Forall_forall in H3. exact (H3 _ Hin). }
  destruct Hfirst as (_ & [= <- <- <- <-]). split; auto. split; auto.
  intros I s0' Hs. assert (o = Some I) by congruence. destruct (H4 I H) as (rr & Hr & ->). clear H H4 Hs.
  destruct (sv_yak _ _ _ _ HS) as (m & Hm'). destruct (hist_at _ _ _ _ _ Hm' HG) as (m' & Hh). cbn [snd] in Hh.
  destruct (C49_lookup _ _ _ _ _ _ _ Hh) as (L1 & L2).
  assert (Hst : stalled K hit0 n0 = true <-> k_smtplog K = true /\ (0 < k_yakcount K)%Z /\
       exists c w, Standing (map snd earlier) (n_rip (vi_conn v)) c w /\ (t - w < k_yakttl K)%Z /\ (k_yakcount K <= c)%Z).
  { unfold stalled. rewrite !andb_true_iff, Z.ltb_lt, Z.leb_le. split.
    - intros (((Hy & Hh') & Hn) & Hl). split; auto. split; auto. apply L1 in Hh' as (w & Hw & Ht). eauto.
    - intros (Hl & Hy & c & w & Hw & Ht & Hc). inversion Hh as [|? m0 ? ? ? Hh0 Hd]; subst.
      cbn [ip_do] in Hd. unfold ip_lookup in Hd. pose proof (proj2 (standing_inv _ _ Hh0 _ _ _) Hw) as Eg. rewrite Eg in Hd. cbn [ie_when ie_count] in Hd.
      apply Z.ltb_lt in Ht. rewrite Ht in Hd. injection Hd as <- <- _. auto. }
  split.
  - rewrite <- Hst. unfold info_of. destruct (stalled K hit0 n0); cbn; tauto.
  - unfold info_of. destruct (stalled K hit0 n0); cbn [si_stall si_rules si_log].
    + split; auto.
    + eauto.
Qed.

(** ** C51 *)

Definition mails (evs : list (sevent * tlsstate)) : nat :=
  length (filter (fun e => match fst e with EvMailFrom _ => true | _ => false end) evs).
Lemma mails_app a b : mails (a ++ b) = mails a + mails b.
Proof. unfold mails. rewrite filter_app, app_length. reflexivity. Qed.

Section R.
  Context (K : config) (E : senv) (cn : conn).

  Lemma sender_mail h : sender h <> [] -> 1 <= mails (heard h).
  Proof.
    induction h as [|t h IH]; [intros H; destruct (H eq_refl)|]. rewrite heard_cons, mails_app. cbn [sender].
    destruct (t_event t) eqn:Ev; try (intros H; specialize (IH H); lia).
    - destruct (accepted t); [intros H; destruct (H eq_refl)|intros H; specialize (IH H); lia].
    - cbn [mails filter fst]. intros _. unfold mails. cbn. lia.
  Qed.

  Lemma counted_quiet h t : yaks (t_did t) = [] -> times (B "yakads") (counted h t) = 0.
  Proof.
    intros H. unfold counted. rewrite H. destruct (t_event t); try reflexivity; destruct (accepted t); try reflexivity.
    destruct (ts_on (t_tls t) && negb (tls_noted h)); reflexivity.
  Qed.

  Lemma turn_quiet I h t n s s' : Turn K E cn I h t n s s' -> mails (heard (t :: h)) <= 1 ->
    yaks (t_did t) = [] /\ n <> Drop /\ times (B "yakads") (tallies (t_did t)) = 0.
  Proof.
    intros HT Hm. rewrite (C66_turn _ _ _ _ _ _ _ _ _ HT).
    destruct (C53_attempt _ _ _ _ _ _ _ _ _ HT) as [(Hy & Hd & _)|(arg & k & Ev & Hs & _)].
    - split; auto. split; auto. apply counted_quiet. exact Hy.
    - exfalso. apply sender_mail in Hs. rewrite heard_cons, mails_app, Ev in Hm. unfold mails at 2 in Hm. cbn in Hm. lia.
  Qed.

  Lemma setup_quiet o s : setup K E cn (sess0 K) = Ok (o, s) ->
    (exists hit n, yaks (s_out s) = [BLookup (n_rip cn) (k_yakttl K) hit n]) /\ times (B "yakads") (tallies (s_out s)) = 0.
  Proof.
    intros H. apply C66_setup in H as (I & hit & n & thit & tn & _ & Hy & _ & _ & Ht). split; [eauto|].
    rewrite <- times_rev, Ht. destruct (si_good I), (si_stall I), (thit && Z.leb 2 tn); reflexivity.
  Qed.

  Lemma conv_quiet I h s : Conv K E cn I h s -> mails (heard h) <= 1 ->
    (exists hit n, yaks (s_out s) = [BLookup (n_rip cn) (k_yakttl K) hit n]) /\ times (B "yakads") (tallies (s_out s)) = 0.
  Proof.
    induction 1 as [s Hs|h s ev tls s' did HC IH Hst Ha]; intros Hm.
    - eapply setup_quiet; eauto.
    - assert (HT : Turn K E cn I h (mkTurn ev tls did) Go s s') by (repeat split; auto).
      destruct (turn_quiet _ _ _ _ _ _ HT Hm) as (Hy & _ & Ht). cbn [t_did] in Hy, Ht.
      rewrite heard_cons, mails_app in Hm. destruct IH as ((hit & n & IH1) & IH2); [lia|].
      unfold after in Ha. rewrite Ha, yaks_app, tallies_app, times_app, yaks_rev, tallies_rev, times_rev, Hy, Ht, IH1, IH2. split; [exists hit, n; reflexivity|reflexivity].
  Qed.

  (** Whether an operation is to be reported: a count that has just reached
      -dncount, or a forced entry which had another count. *)
  Definition reporting (o : bop) : bool :=
    match o with
    | BAdd _ _ n => Z.eqb n (k_yakcount K)
    | BSet _ _ _ n => negb (Z.eqb n (k_yakcount K))
    | _ => false
    end.

  Lemma stat_quiet l : Forall statistics l -> times (B "yakads") (tallies l) = 0.
  Proof.
    induction 1 as [|e l H _ IH]; auto. destruct e; simpl in H; try tauto; auto.
    match goal with |- times _ (tallies (FEvent ?x :: l)) = 0 => change (tallies (FEvent x :: l)) with ([x] ++ tallies l) end. rewrite times_app, IH. destruct H as [-> | ->]; reflexivity.
  Qed.
  Lemma ending_reports I f g c l : Ending K cn I f g c l ->
    times (B "yakads") (tallies l) = length (filter reporting (yaks l)) /\ length (yaks l) <= 1.
  Proof.
    intros [n when _|n when _ _ _|_ _ _|_ _]; try (cbn; auto; fail).
    - change (FYak ?x :: ?y) with ([FYak x] ++ y). rewrite tallies_app, yaks_app, filter_app. cbn [yaks tallies flat_map app filter reporting].
      unfold smtplog_line, dn_line. destruct (Z.eqb n (k_yakcount K)); [cbn; auto|]. destruct (si_log I), (k_dnlog K); cbn; auto.
    - change (FYak ?x :: ?y) with ([FYak x] ++ y). rewrite tallies_app, yaks_app, filter_app. cbn [yaks tallies flat_map app filter reporting].
      unfold smtplog_line, dn_line. destruct (Z.eqb n (k_yakcount K)); [|cbn; auto]. destruct (si_log I), (k_dnlog K); cbn; auto.
  Qed.

  (** A session with at most one MAIL FROM does at most one operation after the
      lookup, and reports it if it is to be reported. *)
  Theorem C51_session evs b s' : process K E cn evs (sess0 K) = Ok (b, s') -> mails evs <= 1 ->
    exists hit n rest, rev (yaks (s_out s')) = BLookup (n_rip cn) (k_yakttl K) hit n :: rest /\ length rest <= 1 /\
      times (B "yakads") (tallies (s_out s')) = length (filter reporting rest).
  Proof.
    intros H Hm. apply process_went in H.
    assert (Hq : forall s : sess, (exists hit n, yaks (s_out s) = [BLookup (n_rip cn) (k_yakttl K) hit n]) /\ times (B "yakads") (tallies (s_out s)) = 0 ->
      forall l, exists hit n, rev (yaks (l ++ s_out s)) = BLookup (n_rip cn) (k_yakttl K) hit n :: rev (yaks l) /\
        times (B "yakads") (tallies (l ++ s_out s)) = times (B "yakads") (tallies l)).
    { intros s ((hit & n & H1) & H2) l. exists hit, n. rewrite yaks_app, rev_app_distr, H1, tallies_app, times_app, H2. split; auto. }
    assert (Ht : forall I h t n s s1 rest, Turn K E cn I h t n s s1 -> heard (t :: h) ++ rest = evs -> n <> Drop /\
      (exists hit n, yaks (s_out s1) = [BLookup (n_rip cn) (k_yakttl K) hit n]) /\ times (B "yakads") (tallies (s_out s1)) = 0).
    { intros I h t n s s1 rest HT Hh. subst evs. rewrite mails_app in Hm. assert (Hm1 : mails (heard (t :: h)) <= 1) by lia.
      destruct (turn_quiet _ _ _ _ _ _ HT Hm1) as (Hy & Hd & Htt). split; auto. destruct HT as (HC & _ & Ha). unfold after in Ha.
      rewrite heard_cons, mails_app in Hm1. destruct (conv_quiet _ _ _ HC) as ((hit & k & C1) & C2); [lia|].
      rewrite Ha, yaks_app, tallies_app, times_app, yaks_rev, tallies_rev, times_rev, Hy, Htt, C1, C2. split; [exists hit, k; reflexivity|reflexivity]. }
    destruct H as [s Hs|I h s HC Hh|I h s t rest s' HT Hh|I h s t rest s1 s' HT Hh HF].
    - apply setup_quiet in Hs. destruct (Hq _ Hs [FHangup]) as (hit & n & H1 & H2). exists hit, n, []. cbn [add_out s_out]. split; [exact H1|]. split; [cbn; lia|exact H2].
    - subst evs. apply conv_quiet in HC; auto. destruct (Hq _ HC []) as (hit & n & H1 & H2). exists hit, n, []. split; [exact H1|]. split; [cbn; lia|exact H2].
    - destruct (Ht _ _ _ _ _ _ _ HT Hh) as (Hd & _). congruence.
    - destruct (Ht _ _ _ _ _ _ _ HT Hh) as (_ & Hs).
      apply finish_spec in HF as (l1 & l2 & Ha & Hl & HE). unfold after in Ha. apply ending_reports in HE as (E1 & E2).
      destruct (Hq _ Hs (FHangup :: rev (l1 ++ l2))) as (hit' & n' & H3 & H4).
      destruct (statistics_silent _ Hl) as (Y & _).
      assert (R : rev (yaks (FHangup :: rev (l1 ++ l2))) = yaks l1).
      { change (yaks (FHangup :: rev (l1 ++ l2))) with (yaks (rev (l1 ++ l2))). rewrite yaks_rev, rev_involutive, yaks_app, Y, app_nil_r. reflexivity. }
      assert (T : times (B "yakads") (tallies (FHangup :: rev (l1 ++ l2))) = times (B "yakads") (tallies l1)).
      { change (tallies (FHangup :: rev (l1 ++ l2))) with (tallies (rev (l1 ++ l2))). rewrite tallies_rev, times_rev, tallies_app, times_app, (stat_quiet _ Hl). lia. }
      exists hit', n', (yaks l1). cbn [add_out s_out app]. rewrite Ha. rewrite R in H3. rewrite T, E1 in H4. split; [exact H3|]. split; auto.
  Qed.
  (** In general: attempts counted at a MAIL FROM are not reported up to -dncount,
      and reported above it, where they end the session; what is done at the end
      is reported as above. *)
  Theorem C51_exact evs b s' : process K E cn evs (sess0 K) = Ok (b, s') ->
    exists hit n attempts final,
      rev (yaks (s_out s')) = BLookup (n_rip cn) (k_yakttl K) hit n :: attempts ++ final /\
      Forall (fun o => exists k, o = BAdd (n_rip cn) (k_yakttl K) k /\ (k <= k_yakcount K)%Z) attempts /\
      ((exists k, final = [BAdd (n_rip cn) (k_yakttl K) k] /\ (k_yakcount K < k)%Z /\ b = true /\ times (B "yakads") (tallies (s_out s')) = 1) \/
       (length final <= 1 /\ (b = false -> final = []) /\ times (B "yakads") (tallies (s_out s')) = length (filter reporting final))).
  Proof.
    intros H. apply process_went in H.
    set (ok := fun o => exists k, o = BAdd (n_rip cn) (k_yakttl K) k /\ (k <= k_yakcount K)%Z).
    set (still := fun s : sess => exists hit n attempts, rev (yaks (s_out s)) = BLookup (n_rip cn) (k_yakttl K) hit n :: attempts /\ Forall ok attempts /\ times (B "yakads") (tallies (s_out s)) = 0).
    assert (Hsetup : forall o s, setup K E cn (sess0 K) = Ok (o, s) -> still s).
    { intros o s Hs. apply setup_quiet in Hs as ((hit & n & H1) & H2). exists hit, n, []. rewrite H1. auto. }
    assert (Hturn : forall I h t n s s1, Turn K E cn I h t n s s1 -> still s ->
      (n <> Drop -> still s1) /\ (n = Drop -> exists hit m attempts k, rev (yaks (s_out s1)) = BLookup (n_rip cn) (k_yakttl K) hit m :: attempts ++ [BAdd (n_rip cn) (k_yakttl K) k] /\
        Forall ok attempts /\ (k_yakcount K < k)%Z /\ times (B "yakads") (tallies (s_out s1)) = 1)).
    { intros I h t n s s1 HT (hit & m & at' & Y & F & T). pose proof (C66_turn _ _ _ _ _ _ _ _ _ HT) as HC.
      pose proof (C53_attempt _ _ _ _ _ _ _ _ _ HT) as HA. destruct HT as (_ & _ & Ha). unfold after in Ha.
      assert (Y1 : rev (yaks (s_out s1)) = BLookup (n_rip cn) (k_yakttl K) hit m :: at' ++ yaks (t_did t)).
      { rewrite Ha, yaks_app, yaks_rev, rev_app_distr, rev_involutive, Y. reflexivity. }
      assert (T1 : times (B "yakads") (tallies (s_out s1)) = times (B "yakads") (counted h t)).
      { rewrite Ha, tallies_app, times_app, T, tallies_rev, times_rev, HC. lia. }
      destruct HA as [(Hy & Hd & _)|(arg & k & Ev & _ & _ & _ & _ & _ & _ & Hy & Hk)].
      - split; [|congruence]. intros _. exists hit, m, at'. rewrite Y1, Hy, app_nil_r, T1, (counted_quiet _ _ Hy). auto.
      - unfold counted in T1. rewrite Ev, Hy in T1; rewrite Hy in Y1. destruct (Z.ltb_spec (k_yakcount K) k) as [Hlt|Hge].
        + destruct Hk as (-> & Hr). split; [congruence|]. intros _. exists hit, m, at', k. split; [exact Y1|]. split; auto. split; auto.
          rewrite T1. assert (Hacc : accepted t = false). { unfold accepted. rewrite Ev. destruct (replies (t_did t)) as [|r [|]]; try discriminate Hr. cbn in Hr. injection Hr as Hr. cbn. rewrite Hr. reflexivity. }
          rewrite Hacc. reflexivity.
        + destruct Hk as (-> & Hacc). split; [|congruence]. intros _. exists hit, m, (at' ++ [BAdd (n_rip cn) (k_yakttl K) k]). split; [exact Y1|].
          split; [apply Forall_app; split; auto; constructor; [exists k; auto|constructor]|]. rewrite T1, Hacc. reflexivity. }
    assert (Hconv : forall I h s, Conv K E cn I h s -> still s).
    { intros I h s HC. induction HC as [s Hs|h s ev tls s1 did HC IH Hst Ha]; [eauto|].
      apply (Hturn I h (mkTurn ev tls did) Go s s1); [repeat split; auto|auto|discriminate]. }
    destruct H as [s Hs|I h s HC Hh|I h s t rest s' HT Hh|I h s t rest s1 s' HT Hh HF].
    - destruct (Hsetup _ _ Hs) as (hit & n & at' & Y & F & T). exists hit, n, at', []. rewrite app_nil_r. split; [exact Y|]. split; [exact F|].
      right. split; [cbn; lia|]. split; auto.
    - destruct (Hconv _ _ _ HC) as (hit & n & at' & Y & F & T). exists hit, n, at', []. rewrite app_nil_r. split; [exact Y|]. split; [exact F|].
      right. split; [cbn; lia|]. split; auto.
    - assert (HC : Conv K E cn I h s) by (destruct HT; auto).
      destruct (Hturn _ _ _ _ _ _ HT (Hconv _ _ _ HC)) as (_ & Hd). destruct (Hd eq_refl) as (hit & n & at' & k & Y & F & Hk & T).
      exists hit, n, at', [BAdd (n_rip cn) (k_yakttl K) k]. split; [exact Y|]. split; [exact F|]. left. exists k. repeat (split; auto).
    - assert (HC : Conv K E cn I h s) by (destruct HT; auto).
      destruct (Hturn _ _ _ _ _ _ HT (Hconv _ _ _ HC)) as (Hn & _). destruct Hn as (hit & n & at' & Y & F & T); [discriminate|].
      apply finish_spec in HF as (l1 & l2 & Ha & Hl & HE). unfold after in Ha. apply ending_reports in HE as (E1 & E2). destruct (statistics_silent _ Hl) as (Y2 & _).
      exists hit, n, at', (yaks l1). split; [|split; auto; right; split; [auto|]; split; [discriminate|]].
      + cbn [add_out s_out app]. change (yaks (FHangup :: s_out s')) with (yaks (s_out s')).
        rewrite Ha, yaks_app, yaks_rev, rev_app_distr, rev_involutive, yaks_app, Y2, app_nil_r, Y. reflexivity.
      + cbn [add_out s_out app]. change (tallies (FHangup :: s_out s')) with (tallies (s_out s')).
        rewrite Ha, tallies_app, times_app, T, tallies_rev, times_rev, tallies_app, times_app, (stat_quiet _ Hl), E1. lia.
  Qed.
End R.

(** An addition in the history was made by a session. *)
Lemma added_by K vs Gy Gn i ip ttl t1 t2 r : Served K vs Gy Gn -> In (i, (OAdd ip ttl t1 t2, r)) Gy ->
  exists v n, nth_error vs i = Some v /\ r = RCount n /\ In (BAdd ip ttl n) (yaks (s_out (vi_state v))).
Proof.
  intros HS Hin. destruct (nth_error vs i) as [v|] eqn:Ev.
  2:{ pose proof (sv_other _ _ _ _ HS i _ (or_introl Hin) Ev) as H. discriminate H. }
  apply in_split in Hin as (later & earlier & HG).
  destruct (sv_yak _ _ _ _ HS) as (m & Hm). destruct (hist_at _ _ _ _ _ Hm HG) as (m' & Hh). cbn [snd] in Hh.
  destruct (add_result _ _ _ _ _ _ _ Hh) as (n & ->). exists v, n. split; auto. split; auto.
  destruct (sv_visit _ _ _ _ HS i v Ev) as (_ & (more & Hmore) & _).
  rewrite (of_visit_split _ _ _ _ _ HG), <- app_assoc in Hmore. cbn [bop_of app] in Hmore.
  assert (H : In (Some (BAdd ip ttl n)) (map Some (rev (yaks (s_out (vi_state v)))))) by (rewrite Hmore; apply in_or_app; right; left; reflexivity).
  apply in_map_iff in H as (o & [= ->] & H). apply in_rev. exact H.
Qed.

(** How often the session with a number has reported that its client was added. *)
Definition reports (vs : list visit) (i : nat) : nat :=
  match nth_error vs i with Some v => times (B "yakads") (tallies (s_out (vi_state v))) | None => 0 end.

(** C51: if no session sends a second MAIL FROM, then in a series of do-nothing
    sessions of a client that reaches -dncount exactly one session reports. *)
Theorem C51_once K vs Gy Gn ip seg old : Served K vs Gy Gn -> (forall v, In v vs -> mails (vi_events v) <= 1) ->
  ip <> [] -> Gy = seg ++ old -> Series ip (map snd seg) -> Afresh ip (map snd seg) (map snd old) ->
  map (fun x => reports vs (fst x)) (filter (fun x => adds ip (snd x)) (rev seg)) =
  map (fun k => if Z.eqb (Z.of_nat k) (k_yakcount K) then 1 else 0) (seq 1 (length (filter (fun x => adds ip (snd x)) seg))).
Proof.
  intros HS Hone Hip HG Hser Haf. destruct (sv_yak _ _ _ _ HS) as (m & Hm).
  assert (Hm' : ip_hist (map snd seg ++ map snd old) m) by (rewrite <- map_app, <- HG; exact Hm).
  pose proof (C49_series_counts ip _ _ _ Hip Hm' Hser Haf) as Hc.
  assert (Hl : forall l : list (nat * (ipop * ipres)), filter (adds ip) (map snd l) = map snd (filter (fun x => adds ip (snd x)) l)).
  { induction l as [|x l IH]; auto. cbn [map filter]. rewrite IH. destruct (adds ip (snd x)); reflexivity. }
  assert (Hr : forall l : list (nat * (ipop * ipres)), filter (fun x => adds ip (snd x)) (rev l) = rev (filter (fun x => adds ip (snd x)) l)).
  { induction l as [|x l IH]; auto. cbn [rev filter]. rewrite filter_app, IH. cbn. destruct (adds ip (snd x)); cbn; rewrite ?app_nil_r; reflexivity. }
  rewrite Hl, map_length, <- map_rev, map_map in Hc. rewrite Hr.
  assert (He : forall x, In x (rev (filter (fun x => adds ip (snd x)) seg)) ->
    reports vs (fst x) = if Z.eqb (count_of (snd x)) (k_yakcount K) then 1 else 0).
  { intros [i [o r]] Hin. apply in_rev in Hin. apply filter_In in Hin as (Hin & Ha). cbn [snd adds] in Ha. destruct o; try discriminate.
    destruct (beqb_spec ip0 ip) as [->|]; [|discriminate].
    assert (Hin' : In (i, (OAdd ip ttl t1 t2, r)) Gy) by (rewrite HG; apply in_or_app; auto).
    destruct (added_by _ _ _ _ _ _ _ _ _ _ HS Hin') as (v & n & Ev & -> & Hy). cbn [fst snd count_of]. unfold reports. rewrite Ev.
    destruct (sv_visit _ _ _ _ HS i v Ev) as (Hp & _). 
    destruct (C51_session _ _ _ _ _ _ Hp (Hone v (nth_error_In _ _ Ev))) as (hit & k & rest & H1 & H2 & ->).
    apply in_rev in Hy. rewrite H1 in Hy. destruct Hy as [Hy|Hy]; [discriminate|].
    destruct rest as [|o [|o2 rest]]; cbn in H2; [destruct Hy| |lia]. destruct Hy as [->|[]]. cbn. destruct (Z.eqb n (k_yakcount K)); reflexivity. }
  rewrite (map_ext_in _ _ _ He).
  rewrite <- (map_map (fun x => count_of (snd x)) (fun z => if Z.eqb z (k_yakcount K) then 1 else 0)), Hc, map_map. reflexivity.
Qed.

(** ** C54 *)

(** Without forced entries counts are positive. *)
Lemma Standing_pos h m : ip_hist h m -> (forall ip ttl a b c r, ~ In (OSet ip ttl a b c, r) h) ->
  forall ip n w, Standing h ip n w -> (1 <= n)%Z.
Proof.
  remember (length h) as len eqn:El. revert h m El. induction len as [len IH] using lt_wf_ind. intros h m El Hh Hno ip n w (later & x & earlier & -> & Hput & _).
  destruct Hput as (Hip & [(ttl & t1 & ->)|(ttl & t1 & r & ->)]).
  2:{ destruct (Hno ip ttl t1 w n r). apply in_or_app. right. left. reflexivity. }
  apply hist_app in Hh as (m1 & Hh). destruct (C49_add _ _ _ _ _ _ _ Hh Hip) as [(k & w' & Hst & _ & ->)|(_ & ->)]; [|lia].
  inversion Hh as [|? m0 ? ? ? Hh0 _]; subst.
  assert (1 <= k)%Z; [|lia]. eapply (IH (length earlier)); [| reflexivity|exact Hh0| |exact Hst].
  - rewrite app_length. cbn. lia.
  - intros ip' ttl' a b c r Hin. apply (Hno ip' ttl' a b c r). apply in_or_app. right. right. exact Hin.
Qed.

Lemma tls_noset K vs Gy Gn : Served K vs Gy Gn -> forall ip ttl a b c r, ~ In (OSet ip ttl a b c, r) (map snd Gn).
Proof.
  intros HS ip ttl a b c r Hin. apply in_map_iff in Hin as ([i x] & Ex & Hin). cbn [snd] in Ex. subst x.
  destruct (nth_error vs i) as [v|] eqn:Ev.
  2:{ pose proof (sv_other _ _ _ _ HS i _ (or_intror Hin) Ev) as H. discriminate H. }
  apply in_split in Hin as (later & earlier & HG).
  destruct (sv_visit _ _ _ _ HS i v Ev) as (Hp & _ & (more & Hmore)).
  rewrite (of_visit_split _ _ _ _ _ HG), <- app_assoc in Hmore. cbn [app] in Hmore.
  assert (H : In (bop_of (OSet ip ttl a b c, r)) (map Some (rev (notlss (s_out (vi_state v)))))) by (rewrite Hmore; apply in_or_app; right; left; reflexivity).
  apply C54_session in Hp as (used & rest & _ & name & slow & offer & yak & tls & ns & mo & _ & _ & _ & Hn & _). rewrite Hn in H.
  apply in_map_iff in H as (o & Ho & H). destruct r; cbn [bop_of] in Ho; try discriminate Ho. injection Ho as ->. destruct H as [H|H]; [discriminate H|].
  apply in_map_iff in H as (k & H & _). discriminate H.
Qed.

(** C54: the offer of TLS is refused exactly to clients standing on the list with
    two failures or more, the last less than three days ago; client certificates
    are requested only from those without any failure in that time. *)
Theorem C54_offered K vs Gy Gn i v later ip ttl t hit n earlier : Served K vs Gy Gn -> nth_error vs i = Some v ->
  Gn = later ++ (i, (OLookup ip ttl t, RFound hit n)) :: earlier ->
  let limit := (72 * 3600 * 1000000000)%Z in
  ip = n_rip (vi_conn v) /\ ttl = limit /\
  exists name slow offer sname tr certs, conns (s_out (vi_state v)) = [(name, slow, offer)] /\
    plain_name K (vi_env v) (vi_conn v) sname /\ params K (vi_env v) (vi_conn v) tr sname name certs /\
    (offer = None <-> certs = [] \/ exists c w, Standing (map snd earlier) ip c w /\ (t - w < limit)%Z /\ (2 <= c)%Z) /\
    (forall cs ask, offer = Some (cs, ask) ->
       cs = certs /\ (ask = true <-> forall c w, Standing (map snd earlier) ip c w -> (limit <= t - w)%Z)).
Proof.
  intros HS Hv HG limit. destruct (sv_visit _ _ _ _ HS i v Hv) as (Hp & _ & (more & Hm)).
  apply C54_session in Hp as (used & rest & _ & name & slow & offer & yak & tls & ns & mo & Hc & (sname & tr & certs & P1 & P2 & _ & P3 & P4) & _ & Hn & _).
  rewrite Hn, (of_visit_split _ _ _ _ _ HG), <- app_assoc in Hm. cbn [bop_of app] in Hm.
  assert (Hfirst : BLookup (n_rip (vi_conn v)) limit (fst tls) (snd tls) = BLookup ip ttl hit n).
  { assert (Hsome : forall (x y : bop) l1 l2, Some x :: l1 = Some y :: l2 -> x = y) by (intros x y l1 l2 H; congruence).
    destruct (of_visit i earlier) as [|y l]; cbn [map app] in Hm; [exact (Hsome _ _ _ _ Hm)|]. exfalso.
    injection Hm as _ Hm. match type of Hm with ?a = _ => assert (Hin : In (Some (BLookup ip ttl hit n)) a) end.
    { rewrite Hm. apply in_or_app. right. left. reflexivity. }
    apply in_map_iff in Hin as (y' & [= ->] & Hin). apply in_map_iff in Hin as (k & Hin & _). discriminate Hin. }
  injection Hfirst as <- <- E1 E2. split; auto. split; auto.
  exists name, slow, offer, sname, tr, certs. split; [exact Hc|]. split; [exact P1|]. split; [exact P2|].
  destruct (sv_tls _ _ _ _ HS) as (m & Hm'). destruct (hist_at _ _ _ _ _ Hm' HG) as (m' & Hh). cbn [snd] in Hh.
  destruct (C49_lookup _ _ _ _ _ _ _ Hh) as (L1 & L2).
  assert (Hfound : forall c w, Standing (map snd earlier) (n_rip (vi_conn v)) c w -> (t - w < limit)%Z -> hit = true /\ n = c).
  { intros c w Hw Ht. inversion Hh as [|? m0 ? ? ? Hh0 Hd]; subst.
    cbn [ip_do] in Hd. unfold ip_lookup in Hd. pose proof (proj2 (standing_inv _ _ Hh0 _ _ _) Hw) as Eg. rewrite Eg in Hd. cbn [ie_when ie_count] in Hd.
    apply Z.ltb_lt in Ht. rewrite Ht in Hd. injection Hd as -> -> _. auto. }
  assert (Hpos : forall c w, Standing (map snd earlier) (n_rip (vi_conn v)) c w -> (1 <= c)%Z).
  { intros c w. inversion Hh as [|? m0 ? ? ? Hh0 Hd]; subst. apply (Standing_pos _ _ Hh0). intros ip' ttl' a b c' r Hin.
    apply (tls_noset _ _ _ _ HS ip' ttl' a b c' r). rewrite map_app. apply in_or_app. right. right. exact Hin. }
  rewrite E1, E2 in *. split.
  - rewrite P3. split; (intros [H|H]; [left; exact H|right]).
    + destruct H as (H1 & H2). apply L1 in H1 as (w & Hw & Ht). eauto.
    + destruct H as (c & w & Hw & Ht & H2). destruct (Hfound _ _ Hw Ht) as (-> & ->). auto.
  - intros cs ask Ho. destruct (P4 _ _ Ho) as (-> & Ha). split; auto. rewrite Ha. split.
    + intros H0 c w Hw. destruct (Z.lt_ge_cases (t - w) limit) as [Ht|Ht]; auto. exfalso. destruct (Hfound _ _ Hw Ht) as (_ & Hn'). pose proof (Hpos _ _ Hw). lia.
    + intros Hall. destruct hit; [|auto]. exfalso. destruct (proj1 L1 eq_refl) as (w & Hw & Ht). specialize (Hall _ _ Hw). lia.
Qed.

(** ** Examples *)

Lemma visit_example K E cn evs l1 l2 ts b : match process K E cn evs (sess0 K) with
    Ok (b', s') => Some (b', rev (yaks (s_out s')), rev (notlss (s_out s')), tallies (s_out s')) | _ => None end = Some (b, l1, l2, ts) ->
  exists s', process K E cn evs (sess0 K) = Ok (b, s') /\ rev (yaks (s_out s')) = l1 /\ rev (notlss (s_out s')) = l2 /\ tallies (s_out s') = ts.
Proof.
  intros H. destruct (process K E cn evs (sess0 K)) as [[b' s']| |]; try discriminate H. injection H as -> <- <- <-. exists s'. auto.
Qed.

Definition dn_cfg (count : Z) : config :=
  mkConfig [] (B "all") (B "to") count 100 (B "me") [] false [] [] true false false [B "c"].
(** the answers of the two lists, by the number of effects before *)
Definition list_env (look : nat -> bool * Z) (cnt : nat -> Z) : senv :=
  mkEnv demo_world 10 nofs 0 (fun _ _ => inr []) look cnt (fun _ => B "2026") (fun _ => B "now")
    (fun _ _ => None) (fun _ _ => OpOk) (fun _ _ => WrOk) (fun _ => None) (fun d => B "H" ++ d) (fun d => MBody d) (fun _ _ _ => None).
Local Definition ip7 := B "192.0.2.7".
Local Definition days := (72 * 3600 * 1000000000)%Z.


Lemma ran os (G : list (nat * (ipop * ipres))) : map snd G = fst (run_ops os [] ipmap0) -> exists m, ip_hist (map snd G) m.
Proof. intros ->. eexists. apply run_ops_hist. constructor. Qed.

(** C51 is false in general.  With -dncount 1, a client that sends MAIL FROM
    twice and then QUIT makes two attempts.  The first one, which reaches 1, is
    counted at the second MAIL FROM, where only larger counts are reported; at the
    end the count is 2.  No session reports the client. *)
Theorem C51_refuted : exists K vs seg old Gn ip, Served K vs (seg ++ old) Gn /\ ip <> [] /\
  Series ip (map snd seg) /\ Afresh ip (map snd seg) (map snd old) /\
  k_yakcount K = 1%Z /\ length (filter (fun x => adds ip (snd x)) seg) = 2 /\ length vs = 1 /\ reports vs 0 = 0.
Proof.
  set (K := dn_cfg 1). set (E := list_env (fun _ => (false, 0%Z)) (fun i => if Nat.leb i 16 then 1%Z else 2%Z)).
  set (evs := plain [EvHelo EHLO (B "h"); EvMailFrom (B "a@x.y"); EvMailFrom (B "b@x.y"); EvDone]).
  assert (Hx : exists ts, match process K E demo_conn evs (sess0 K) with
     Ok (b', s') => Some (b', rev (yaks (s_out s')), rev (notlss (s_out s')), tallies (s_out s')) | _ => None end =
     Some (true, [BLookup ip7 100 false 0; BAdd ip7 100 1; BAdd ip7 100 2], [BLookup ip7 days false 0], ts) /\ times (B "yakads") ts = 0).
  { eexists. split; vm_compute; reflexivity. }
  destruct Hx as (ts & Hx & Hts). apply visit_example in Hx as (s' & Hp & Hy & Hn & Ht).
  set (v := mkVisit E demo_conn evs true s').
  set (seg := [(0, (OAdd ip7 100 3 3, RCount 2)); (0, (OAdd ip7 100 2 2, RCount 1))]).
  set (old := [(0, (OLookup ip7 100 1, RFound false 0%Z))]).
  exists K, [v], seg, old, [(0, (OLookup ip7 days 1, RFound false 0%Z))], ip7.
  split.
  { constructor.
    - apply (ran [OLookup ip7 100 1; OAdd ip7 100 2 2; OAdd ip7 100 3 3]). vm_compute. reflexivity.
    - apply (ran [OLookup ip7 days 1]). vm_compute. reflexivity.
    - intros [|[|i]] v' Hv; cbn in Hv; try discriminate Hv. injection Hv as <-. cbn [vi_env vi_conn vi_events vi_done vi_state v].
      split; [exact Hp|]. rewrite Hy, Hn. split; exists []; reflexivity.
    - intros i x Hin Hi. destruct i as [|i]; [discriminate Hi|]. cbn in Hin.
      destruct Hin as [Hin|Hin]; repeat (destruct Hin as [Hin|Hin]; [discriminate Hin|]); destruct Hin. }
  split; [discriminate|]. split.
  { constructor.
    - intros x Hx. cbn in Hx. repeat (destruct Hx as [<-|Hx]; [split; [intros [(?&Ez)|(?&?&?&Ez)]; discriminate Ez|intros; discriminate]|]). destruct Hx.
    - intros s1 ttl t1 t2 r s2 ttl' t1' t2' r' s3 Es Hs2. change (map snd seg) with [(OAdd ip7 100 3 3, RCount 2); (OAdd ip7 100 2 2, RCount 1)] in Es.
      repeat match type of Es with
      | [] = ?l ++ _ => destruct l; discriminate Es
      | [] = _ => discriminate Es
      | _ :: _ = ?l ++ _ => let y := fresh in destruct l as [|y l]; cbn [app] in Es
      | _ :: _ = ?y :: _ =>
          first [ is_var y; injection Es as <- Es; try (specialize (Hs2 _ (or_introl eq_refl)); discriminate Hs2)
                | discriminate Es
                | injection Es as <- <- <- <- Es; try lia ]
      end. }
  split.
  { exists [(OAdd ip7 100 3 3, RCount 2)], 100%Z, 2%Z, 2%Z, (RCount 1). split; [reflexivity|].
    intros k w (later & x & earlier & El & Hput & _). destruct later as [|y [|]]; try discriminate El. injection El as <- <-.
    destruct Hput as (_ & [(?&?&Ez)|(?&?&?&Ez)]); discriminate Ez. }
  repeat (split; [reflexivity|]). unfold reports. cbn [nth_error vi_state v]. rewrite Ht. exact Hts.
Qed.

(** Four sessions of one client.  Two have TLS failures, so that the others get
    no TLS; the third does nothing, is reported, and makes the fourth be stalled. *)
Local Definition two (yak tls : bool * Z) (cnt : Z) : senv := list_env (fun i => if Nat.leb i 1 then yak else tls) (fun _ => cnt).
Local Definition bad_tls := plain [EvTlsError; EvAbort].
Local Definition nothing := plain [EvHelo EHLO (B "h"); EvDone].
Local Definition demo_yak : list (nat * (ipop * ipres)) := rev
  [(0, (OLookup ip7 100 1, RFound false 0%Z)); (1, (OLookup ip7 100 2, RFound false 0%Z)); (2, (OLookup ip7 100 3, RFound false 0%Z));
   (2, (OAdd ip7 100 4 4, RCount 1)); (9, (OStats, RStats (mkStats 1 1 1 0 0 0 3 0 0))); (3, (OLookup ip7 100 50, RFound true 1%Z))].
Local Definition demo_tls : list (nat * (ipop * ipres)) := rev
  [(0, (OLookup ip7 days 1, RFound false 0%Z)); (0, (OAdd ip7 days 2 2, RCount 1)); (1, (OLookup ip7 days 3, RFound true 1%Z));
   (1, (OAdd ip7 days 4 4, RCount 2)); (2, (OLookup ip7 days 5, RFound true 2%Z)); (3, (OLookup ip7 days 51, RFound true 2%Z))].

Example served_example : exists vs, Served (dn_cfg 1) vs demo_yak demo_tls /\ (forall v, In v vs -> mails (vi_events v) <= 1) /\
  map (reports vs) (seq 0 4) = [0; 0; 1; 0] /\
  map (fun v => map (fun c => (snd (fst c), snd c)) (conns (s_out (vi_state v)))) vs =
    [[(false, Some ([B "c"], true))]; [(false, Some ([B "c"], false))]; [(false, None)]; [(true, None)]].
Proof.
  assert (Hx : forall E evs l1 l2 ts cs, match process (dn_cfg 1) E demo_conn evs (sess0 (dn_cfg 1)) with
     Ok (b', s') => Some (b', rev (yaks (s_out s')), rev (notlss (s_out s')), times (B "yakads") (tallies (s_out s')), map (fun c => (snd (fst c), snd c)) (conns (s_out s'))) | _ => None end =
     Some (true, l1, l2, ts, cs) -> exists s', process (dn_cfg 1) E demo_conn evs (sess0 (dn_cfg 1)) = Ok (true, s') /\
       rev (yaks (s_out s')) = l1 /\ rev (notlss (s_out s')) = l2 /\ times (B "yakads") (tallies (s_out s')) = ts /\
       map (fun c => (snd (fst c), snd c)) (conns (s_out s')) = cs).
  { intros E evs l1 l2 ts cs H. destruct (process (dn_cfg 1) E demo_conn evs (sess0 (dn_cfg 1))) as [[b' s']| |]; try discriminate H.
    injection H as -> <- <- <- <-. exists s'. auto. }
  set (E0 := two (false, 0%Z) (false, 0%Z) 1). set (E1 := two (false, 0%Z) (true, 1%Z) 2).
  set (E2 := two (false, 0%Z) (true, 2%Z) 1). set (E3 := two (true, 1%Z) (true, 2%Z) 1).
  destruct (Hx E0 bad_tls [BLookup ip7 100 false 0] [BLookup ip7 days false 0; BAdd ip7 days 1] 0 [(false, Some ([B "c"], true))]) as (s0 & P0 & Y0 & N0 & T0 & C0); [vm_compute; reflexivity|].
  destruct (Hx E1 bad_tls [BLookup ip7 100 false 0] [BLookup ip7 days true 1; BAdd ip7 days 2] 0 [(false, Some ([B "c"], false))]) as (s1 & P1 & Y1 & N1 & T1 & C1); [vm_compute; reflexivity|].
  destruct (Hx E2 nothing [BLookup ip7 100 false 0; BAdd ip7 100 1] [BLookup ip7 days true 2] 1 [(false, None)]) as (s2 & P2 & Y2 & N2 & T2 & C2); [vm_compute; reflexivity|].
  destruct (Hx E3 nothing [BLookup ip7 100 true 1] [BLookup ip7 days true 2] 0 [(true, None)]) as (s3 & P3 & Y3 & N3 & T3 & C3); [vm_compute; reflexivity|].
  clear Hx. clearbody E0 E1 E2 E3.
  exists [mkVisit E0 demo_conn bad_tls true s0; mkVisit E1 demo_conn bad_tls true s1; mkVisit E2 demo_conn nothing true s2; mkVisit E3 demo_conn nothing true s3].
  split; [constructor|split; [|split]].
  - apply (ran [OLookup ip7 100 1; OLookup ip7 100 2; OLookup ip7 100 3; OAdd ip7 100 4 4; OStats; OLookup ip7 100 50]). vm_compute. reflexivity.
  - apply (ran [OLookup ip7 days 1; OAdd ip7 days 2 2; OLookup ip7 days 3; OAdd ip7 days 4 4; OLookup ip7 days 5; OLookup ip7 days 51]). vm_compute. reflexivity.
  - intros [|[|[|[|i]]]] v Hv; cbn in Hv; [..|destruct i; discriminate Hv]; injection Hv as <-; cbn [vi_env vi_conn vi_events vi_done vi_state];
      (split; [assumption|]); [rewrite Y0, N0|rewrite Y1, N1|rewrite Y2, N2|rewrite Y3, N3]; split; exists []; reflexivity.
  - intros i x Hin Hi. destruct i as [|[|[|[|i]]]]; try discriminate Hi. cbn in Hin.
    destruct Hin as [Hin|Hin]; repeat (destruct Hin as [Hin|Hin]; [try discriminate Hin; injection Hin as _ <-; reflexivity|]); destruct Hin.
  - intros v Hv. cbn in Hv. repeat (destruct Hv as [<-|Hv]; [vm_compute; lia|]). destruct Hv.
  - unfold reports. cbn [map seq nth_error vi_state]. rewrite T0, T1, T2, T3. reflexivity.
  - cbn [map vi_state]. rewrite C0, C1, C2, C3. reflexivity.
Qed.

(** in that history, the operations from the first addition on are a series *)
Example C51_example : demo_yak = firstn 3 demo_yak ++ skipn 3 demo_yak /\ Series ip7 (map snd (firstn 3 demo_yak)) /\
  Afresh ip7 (map snd (firstn 3 demo_yak)) (map snd (skipn 3 demo_yak)) /\ length (filter (fun x => adds ip7 (snd x)) (firstn 3 demo_yak)) = 1.
Proof.
  split; [reflexivity|]. split; [constructor|split; [|reflexivity]].
  - intros x Hx. cbn in Hx. repeat (destruct Hx as [<-|Hx]; [split; [intros [(?&Ez)|(?&?&?&Ez)]; discriminate Ez|intros; discriminate]|]). destruct Hx.
  - intros s1 ttl t1 t2 r s2 ttl' t1' t2' r' s3 Es Hs2.
    set (l := map snd (firstn 3 demo_yak)) in Es. vm_compute in l. subst l.
    destruct s1 as [|? [|? [|? s1]]]; try discriminate Es; try (injection Es; intros; match goal with H : [] = ?l ++ _ |- _ => destruct l; discriminate H end).
  - exists (map snd (firstn 2 demo_yak)), 100%Z, 4%Z, 4%Z, (RCount 1). split; [reflexivity|].
    intros k w (later & x & earlier & El & (_ & Hput) & _).
    assert (Hin : In x (map snd (skipn 3 demo_yak))) by (rewrite El; apply in_or_app; right; left; reflexivity).
    cbn in Hin. destruct Hput as [(?&?&->)|(?&?&?&->)]; repeat (destruct Hin as [Hin|Hin]; [discriminate Hin|]); destruct Hin.
Qed.
