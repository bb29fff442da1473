(** Conversations: a session as its setting up, its turns and its end. *)
From Verif Require Import PropsParse.
From Verif Require Import Bytes Outcome Lexer Ast GoNet Parser World Dns Eval Decisions RuleLoad ConnCfg CipherNames Message Session SessProofs.
From Coq Require Import Lia.

(** What happened for one event: the event, the TLS state with it and the
    effects, earliest first. *)
Record turn := mkTurn { t_event : sevent; t_tls : tlsstate; t_did : list effect }.

Definition after (l : list effect) (s s' : sess) : Prop := s_out s' = rev l ++ s_out s.

Section Conv.
  Context (K : config) (E : senv) (cn : conn).

  (** The turns of a session so far, latest first. *)
  Inductive Conv (I : sinfo) : list turn -> sess -> Prop :=
  | Cv_start s : setup K E cn (sess0 K) = Ok (Some I, s) -> Conv I [] s
  | Cv_turn h s ev tls s' did : Conv I h s -> step K E cn I (ev, tls) s = Ok (Go, s') -> after did s s' ->
      Conv I (mkTurn ev tls did :: h) s'.

  (** The session [h] goes on with the turn [t]. *)
  Definition Turn (I : sinfo) (h : list turn) (t : turn) (n : next) (s s' : sess) : Prop :=
    Conv I h s /\ step K E cn I (t_event t, t_tls t) s = Ok (n, s') /\ after (t_did t) s s'.

  (** ** Effects are only added *)

  Lemma Decided_out I ph e id s b res c ans s1 : Decided E cn I ph e id s b res c ans s1 ->
    exists log, Forall chatter log /\
      s_out s1 = ans ++ log ++ FDecide (the_decision cn (s_tx s) ph e res c) :: s_out s.
  Proof. intros [b' res' c' log ans' m am]. exists log. split; auto. cbn. rewrite <- !app_assoc. reflexivity. Qed.

  Definition grows (o x : list effect) : Prop := exists l, x = l ++ o.
  Lemma grows_refl o : grows o o.
  Proof. exists []. reflexivity. Qed.
  Lemma grows_cons o e x : grows o x -> grows o (e :: x).
  Proof. intros (l & ->). exists (e :: l). reflexivity. Qed.
  Lemma grows_app o l x : grows o x -> grows o (l ++ x).
  Proof. intros (l' & ->). exists (l ++ l'). apply app_assoc. Qed.
  Ltac grow := repeat first [apply grows_refl | apply grows_cons | apply grows_app].

  Lemma step_grows I ev tls s n s' : step K E cn I (ev, tls) s = Ok (n, s') -> grows (s_out s) (s_out s').
  Proof.
    intros H. apply step_Step in H.
    destruct H as [? ? ? ? ? ? ? ? _ HD|? ? ? ? ? ? ? l HD|? ? ? ? ? ? l ? HD|? ? ? ? ? ? l HD|? ? ? ? ? ? HD|? ? ? ? ? ? HD
        |? ? ? ? l ? HR|? ? ? l ? ? ? ? ? HR HD|? ? ? l ? ? ? ? ? HR HD|? ?|?|?|?];
      try (apply Decided_out in HD as (log & _ & HD)); try (destruct HR as [? ? ? ? ? _ _]);
      cbn [s_out add_out] in *; rewrite ?HD; grow.
  Qed.

  Lemma step_after I ev tls s n s' : step K E cn I (ev, tls) s = Ok (n, s') -> exists l, after l s s'.
  Proof. intros H. apply step_grows in H as (l & H). exists (rev l). unfold after. rewrite rev_involutive. exact H. Qed.

  (** ** A run is a conversation and its end *)

  Definition heard (h : list turn) : list (sevent * tlsstate) := map (fun t => (t_event t, t_tls t)) (rev h).
  Lemma heard_cons t h : heard (t :: h) = heard h ++ [(t_event t, t_tls t)].
  Proof. unfold heard. simpl. rewrite map_app. reflexivity. Qed.

  Lemma loop_conv I evs : forall h s n s', Conv I h s -> loop K E cn I evs s = Ok (n, s') ->
    match n with
    | Go => exists h', Conv I h' s' /\ heard h' = heard h ++ evs
    | _ => exists h' s1 t rest, Turn I h' t n s1 s' /\ heard (t :: h') ++ rest = heard h ++ evs
    end.
  Proof.
    induction evs as [|[ev tls] evs IH]; intros h s n s' HC H; cbn [loop] in H.
    - sinv H. exists h. rewrite app_nil_r. auto.
    - apply sbind_ok in H as (n1 & s1 & H1 & H). destruct (step_after _ _ _ _ _ _ H1) as (did & Hd).
      destruct n1.
      + assert (HC' : Conv I (mkTurn ev tls did :: h) s1) by (econstructor; eauto).
        specialize (IH _ _ _ _ HC' H). destruct n.
        * destruct IH as (h' & ? & Eh). exists h'. split; auto. rewrite Eh, heard_cons, <- app_assoc. reflexivity.
        * destruct IH as (h' & s2 & t & rest & ? & Eh). exists h', s2, t, rest. split; auto. rewrite Eh, heard_cons, <- app_assoc. reflexivity.
        * destruct IH as (h' & s2 & t & rest & ? & Eh). exists h', s2, t, rest. split; auto. rewrite Eh, heard_cons, <- app_assoc. reflexivity.
      + sinv H. exists h, s, (mkTurn ev tls did), evs. split; [split; auto|]. rewrite heard_cons, <- app_assoc. reflexivity.
      + sinv H. exists h, s, (mkTurn ev tls did), evs. split; [split; auto|]. rewrite heard_cons, <- app_assoc. reflexivity.
  Qed.

  (** How a session can go. *)
  Inductive Went (evs : list (sevent * tlsstate)) : bool -> sess -> Prop :=
  | Wn_refused s : setup K E cn (sess0 K) = Ok (None, s) -> Went evs true (add_out [FHangup] s)
  | Wn_running I h s : Conv I h s -> heard h = evs -> Went evs false s
  | Wn_dropped I h s t rest s' : Turn I h t Drop s s' -> heard (t :: h) ++ rest = evs -> Went evs true (add_out [FHangup] s')
  | Wn_finished I h s t rest s1 s' : Turn I h t Finish s s1 -> heard (t :: h) ++ rest = evs ->
      finish K E cn I s1 = Ok (tt, s') -> Went evs true (add_out [FHangup] s').

  Theorem process_went evs b s' : process K E cn evs (sess0 K) = Ok (b, s') -> Went evs b s'.
  Proof.
    unfold process. intros H. apply sbind_ok in H as (oI & s & H1 & H). destruct oI as [inf|].
    - apply sbind_ok in H as (n & s1 & H2 & H).
      apply (loop_conv inf evs [] s) in H2; [|constructor; auto]. cbn [heard rev map app] in H2. destruct n.
      + sinv H. destruct H2 as (h & HC & Eh). eapply Wn_running; eauto.
      + sinv H. destruct H2 as (h & s2 & t & rest & HT & Eh). eapply Wn_dropped; eauto.
      + destruct H2 as (h & s2 & t & rest & HT & Eh). apply sbind_ok in H as ([] & s3 & H2 & H). sinv H.
        eapply Wn_finished; eauto.
    - sinv H. apply Wn_refused; auto.
  Qed.

  (** ** Setting up *)

  Definition with_trace (tr : list call) (s : sess) : sess :=
    mkSess (s_tx s) (set_trace tr (s_ctx s)) (s_tls s) (s_got s) (s_counts s) (s_out s).

  (** whether the client is stalled for doing nothing *)
  Definition stalled (hit : bool) (n : Z) : bool :=
    Z.ltb 0 (k_yakcount K) && hit && Z.leb (k_yakcount K) n && k_smtplog K.
  Definition info_of (rr : rules_res) (st : bool) : sinfo :=
    if st then mkInfo stallall (rr_good rr) true false else mkInfo (rr_rules rr) (rr_good rr) false (k_smtplog K).

  Lemma yakLog_idle what s u s' : yakLog K E cn what s = Ok (u, s') -> exists l, Forall idle l /\ s' = add_out l s.
  Proof.
    unfold yakLog, when_. destruct (k_dnlog K); intros H; sinv H.
    - eexists [_]. split; [|reflexivity]. repeat constructor.
    - exists []. split; auto. destruct s; reflexivity.
  Qed.

  Lemma setupClient_spec s inf s' : setupClient K E cn s = Ok (inf, s') ->
    exists rr hit n l1 l2, setupRules (v_fds E) (v_rfs E) (v_tick E) (k_base K) (k_rulefiles K) = Some rr /\
      Forall idle l1 /\ Forall idle l2 /\ inf = info_of rr (stalled hit n) /\
      s' = mkSess (s_tx s) (s_ctx s) (s_tls s) (s_got s) (rr_good rr && Z.ltb 0 (k_yakcount K) && negb (stalled hit n))
             (l2 ++ FYak (BLookup (n_rip cn) (k_yakttl K) hit n) :: l1 ++ s_out s).
  Proof.
    unfold setupClient. intros H. apply sbind_ok in H as (u & sa & H1 & H). sapp emit_ok H1.
    destruct (setupRules _ _ _ _ _) as [rr|]; [|discriminate]. exists rr.
    apply sbind_ok in H as (u1 & s1 & H1 & H).
    assert (Hw : exists l, Forall idle l /\ s1 = add_out l s).
    { destruct (rr_warning rr); sinv H1.
      - eexists [_; _; _]. split; [|reflexivity]. repeat constructor.
      - eexists [_]. split; [|reflexivity]. repeat constructor. }
    clear H1. destruct Hw as (l1 & Hl1 & ->).
    apply sbind_ok in H as (u2 & sa & H1 & H). sapp put_counts_ok H1.
    apply sbind_ok in H as ([hit n] & s1 & H1 & H). unfold yakLookup in H1.
    apply sbind_ok in H1 as (i & sa & H2 & H1). sapp index_ok H2. destruct (v_lookup E _) as [hit' n'].
    apply sbind_ok in H1 as (u3 & sa & H2 & H1). sapp emit_ok H2. apply sret_ok in H1 as [[= -> ->] ->].
    exists hit', n', l1. fold (stalled hit' n') in H. unfold info_of. destruct (stalled hit' n').
    - apply sbind_ok in H as (u4 & sa & H1 & H). sapp put_counts_ok H1.
      apply sbind_ok in H as (u5 & sa & H1 & H). unfold event in H1. sapp emit_ok H1.
      apply sbind_ok in H as (u6 & sa & H1 & H). unfold updateTime in H1. sapp emit_ok H1.
      apply sbind_ok in H as (u7 & sa & H1 & H). apply yakLog_idle in H1 as (l & Hl & ->). sinv H.
      exists (l ++ [FTime (B "yakker") (n_laddr cn); FEvent (B "yakkers")]). split; auto. split; auto. split; [apply Forall_app; split; auto; repeat constructor|].
      split; auto. unfold add_out. cbn [s_tx s_ctx s_tls s_got s_counts s_out app].
      rewrite andb_false_r. rewrite <- app_assoc. reflexivity.
    - apply sbind_ok in H as (u6 & sa & H1 & H). unfold updateTime in H1. sapp emit_ok H1. sinv H.
      exists [FTime (B "regular") (n_laddr cn)]. split; auto. split; auto. split; [repeat constructor|]. split; auto.
      unfold add_out. cbn [s_tx s_ctx s_tls s_got s_counts s_out app]. rewrite andb_true_r. reflexivity.
  Qed.

  (** the name the server uses without a configuration file *)
  Definition plain_name (name : bytes) : Prop :=
    (k_srvname K <> [] /\ name = k_srvname K) \/
    (k_srvname K = [] /\
      match fst (lookup_addr (v_world E) (n_lip cn) []) with
      | inl (n :: _) => last_byte n <> None /\ name = (if beqb (skipn (length n - 1) n) [ch_dot] then drop_last n else n)
      | _ => name = n_laddr cn
      end).

  Lemma last_skipn n c : last_byte n = Some c -> skipn (length n - 1) n = [c].
  Proof.
    destruct n as [|x n] using rev_ind; [discriminate|]. unfold last_byte. 
    rewrite rev_app_distr. simpl. intros [= ->]. rewrite app_length. simpl.
    replace (length n + 1 - 1) with (length n) by lia. rewrite skipn_app, skipn_all, Nat.sub_diag. reflexivity.
  Qed.

  Lemma localName_spec s name s' : c_trace (s_ctx s) = [] -> localName K E cn s = Ok (name, s') ->
    plain_name name /\ exists tr, s' = with_trace tr s.
  Proof.
    intros Ht H. unfold localName in H. unfold plain_name. destruct (beqb_spec (k_srvname K) []) as [Es|Es]; cbn [negb] in H.
    - apply sbind_ok in H as (r & s1 & H1 & H). apply inctx_ok in H1 as (c & H1 & ->).
      unfold ext in H1. rewrite Ht in H1. destruct (lookup_addr (v_world E) (n_lip cn) []) as [r' tr] eqn:El.
      injection H1 as <- <-. cbn [fst].
      destruct r' as [[|n ns]|e].
      + sinv H. split; [right; auto|]. exists tr. reflexivity.
      + destruct (last_byte n) as [ch|] eqn:Eb; [|discriminate]. sinv H. split; [|exists tr; reflexivity].
        right. split; auto. split; [discriminate|]. rewrite (last_skipn _ _ Eb). cbn [beqb].
        rewrite andb_true_r. reflexivity.
      + sinv H. split; [right; auto|]. exists tr. reflexivity.
    - sinv H. split; [left; auto|]. exists []. unfold with_trace. destruct s; cbn in *. f_equal. rewrite <- Ht. destruct s_ctx; reflexivity.
  Qed.

  (** the name and the certificates with the configuration file *)
  Definition params (tr : list call) (sname name : bytes) (certs : list bytes) : Prop :=
    if beqb (k_connfile K) [] then name = sname /\ certs = k_certs K
    else match fst (loadConnFile (v_world E) (v_keys E) (k_connfile K) tr) with
         | Ok (inl d) =>
             match dm_find (Some d) (n_laddr cn) with
             | None => name = sname /\ certs = k_certs K
             | Some pd => name = (if beqb (pd_myname pd) [] then sname else pd_myname pd) /\ certs = pd_certs pd
             end
         | Ok (inr _) => name = sname /\ certs = k_certs K
         | _ => False
         end.

  Lemma set_trace_id c : set_trace (c_trace c) c = c.
  Proof. destruct c; reflexivity. Qed.

  Lemma connParams_spec sname s r s' : connParams K E cn sname s = Ok (r, s') ->
    params (c_trace (s_ctx s)) sname (fst r) (snd r) /\
    exists tr l, Forall idle l /\ s' = add_out l (with_trace tr s).
  Proof.
    unfold connParams, params. destruct (beqb (k_connfile K) []); intros H.
    - sinv H. split; auto. exists (c_trace (s_ctx s)), []. split; auto. unfold with_trace, add_out. cbn. rewrite set_trace_id. destruct s; reflexivity.
    - apply sbind_ok in H as (o & s1 & H1 & H). apply inctx_ok in H1 as (c & H1 & ->). unfold ext in H1.
      destruct (loadConnFile _ _ _ _) as [o' tr] eqn:El. injection H1 as <- <-. cbn [fst].
      apply sbind_ok in H as (dm & s1 & H1 & H). apply slift_ok in H1 as [-> ->].
      destruct dm as [d|e].
      + sinv H. split; [|exists tr, []; split; auto].
        destruct (dm_find _ _); auto.
      + sinv H. split; auto. exists tr. eexists [_]. split; [|reflexivity]. repeat constructor.
  Qed.

  (** whether TLS is offered, and whether with a request for a certificate *)
  Definition tls_offer (certs : list bytes) (hit : bool) (n : Z) : option bool :=
    match certs with
    | [] => None
    | _ => if hit && Z.leb 2 n then None else Some (Z.eqb n 0)
    end.

  Lemma setupConn_spec inf name certs s u s' : setupConn K E cn inf name certs s = Ok (u, s') ->
    exists hit n l, Forall idle l /\
      s' = mkSess (s_tx s) (s_ctx s) (tls_offer certs hit n) (s_got s) (s_counts s)
             (FConn name (k_goslow K || si_stall inf) (option_map (fun ask => (certs, ask)) (tls_offer certs hit n)) :: l ++ FNotls (BLookup (n_rip cn) tlsTimeout hit n) :: s_out s).
  Proof.
    unfold setupConn. intros H. apply sbind_ok in H as ([hit n] & s1 & H1 & H). unfold notlsLookup in H1.
    apply sbind_ok in H1 as (i & sa & H2 & H1). sapp index_ok H2. destruct (v_lookup E _) as [hit' n'].
    apply sbind_ok in H1 as (u3 & sa & H2 & H1). sapp emit_ok H2. apply sret_ok in H1 as [[= -> ->] ->].
    cbn zeta in H. fold (tls_offer certs hit' n') in H. exists hit', n'.
    apply sbind_ok in H as (u4 & sa & H1 & H). sapp put_tlscfg_ok H1.
    apply sbind_ok in H as (u5 & sa & H1 & H). unfold when_ in H1.
    destruct (hit' && (2 <=? n')%Z); sinv H1; sinv H.
    - exists [FEvent (B "notlscnt")]. split; [repeat constructor|]. reflexivity.
    - exists []. split; auto.
  Qed.

  (** Everything before the first command. *)
  Inductive Setup : option sinfo -> sess -> Prop :=
  | Su rr hit n inf l1 l2 sname tr1 name certs tr2 l3 thit tn l4 rd tr0 refused res c ans s1 l5 :
      setupRules (v_fds E) (v_rfs E) (v_tick E) (k_base K) (k_rulefiles K) = Some rr ->
      inf = info_of rr (stalled hit n) ->
      plain_name sname -> params tr1 sname name certs ->
      LookupAddrVerified (v_world E) (n_rip cn) tr2 = (rd, tr0) ->
      Forall idle l1 -> Forall idle l2 -> Forall idle l3 -> Forall idle l4 -> Forall idle l5 ->
      Decided E cn inf pConnect (mkEvt None []) []
        (mkSess (put_rdns (fst rd) (s_tx (sess0 K))) (newContext tr0) (tls_offer certs thit tn) false
           (rr_good rr && Z.ltb 0 (k_yakcount K) && negb (stalled hit n))
           (FConn name (k_goslow K || si_stall inf) (option_map (fun ask => (certs, ask)) (tls_offer certs thit tn)) ::
              l4 ++ FNotls (BLookup (n_rip cn) tlsTimeout thit tn) ::
              l3 ++ l2 ++ FYak (BLookup (n_rip cn) (k_yakttl K) hit n) :: l1))
        refused res c ans s1 ->
      (refused = false -> l5 = []) ->
      Setup (if refused then None else Some inf) (add_out l5 s1).

  Lemma setup_Setup o s : setup K E cn (sess0 K) = Ok (o, s) -> Setup o s.
  Proof.
    unfold setup. intros H. apply sbind_ok in H as (inf & s1 & H1 & H).
    apply setupClient_spec in H1 as (rr & hit & n & l1 & l2 & Hr & Hl1 & Hl2 & Hi & ->).
    apply sbind_ok in H as (sname & s1 & H1 & H). apply localName_spec in H1 as (Hp & tr1 & ->); [|reflexivity].
    apply sbind_ok in H as ([name certs] & s1 & H1 & H). apply connParams_spec in H1 as (Hc & tr2 & l3 & Hl3 & ->).
    apply sbind_ok in H as (u & s1 & H1 & H). apply setupConn_spec in H1 as (thit & tn & l4 & Hl4 & ->).
    apply sbind_ok in H as ([rd rb] & s1 & H1 & H). apply inctx_ok in H1 as (c & H1 & ->). unfold ext in H1.
    destruct (LookupAddrVerified _ _ _) as [rd' tr0] eqn:El. injection H1 as -> <-.
    apply sbind_ok in H as (u1 & sa & H1 & H). sapp uptx_ok H1.
    apply sbind_ok in H as (refused & s1 & H1 & H). apply decider_Decided in H1 as (res & c & ans & HD).
    cbn in Hc, El. unfold upd_tx in HD. cbn in HD. rewrite app_nil_r in HD.
    assert (Hf : exists l5, Forall idle l5 /\ (refused = false -> l5 = []) /\ o = (if refused then None else Some inf) /\ s = add_out l5 s1).
    { destruct refused.
      - apply sbind_ok in H as (i & sa & H1 & H). sapp index_ok H1. apply sbind_ok in H as (u2 & s2 & H1 & H). sinv H.
        unfold when_ in H1. destruct (negb (si_stall inf)).
        + apply writeLog_idle in H1 as (l & Hl & ->). exists l. split; auto. split; [discriminate|auto].
        + sinv H1. exists []. split; auto. split; auto. split; auto. destruct s1; reflexivity.
      - sinv H. exists []. split; auto. split; auto. split; auto. destruct s1; reflexivity. }
    destruct Hf as (l5 & Hl5 & Hn & -> & ->).
    apply (Su rr hit n inf l1 l2 sname tr1 name certs tr2 l3 thit tn l4 (rd, rb) tr0 refused res c ans s1 l5); auto.
  Qed.

  (** ** What one turn does, without the log lines and counters *)

  Definition visible (e : effect) : bool :=
    match e with
    | FDecide _ | FReply _ | FYak _ | FNotls _ | FMsglog _ | FConn _ _ _ | FOpen _ _ | FWrite _ _ _ | FSync _ | FClose _ _
    | FHangup => true
    | _ => false
    end.
  Definition vis (l : list effect) : list effect := filter visible l.
  Lemma vis_app a b : vis (a ++ b) = vis a ++ vis b.
  Proof. apply filter_app. Qed.
  Lemma vis_rev l : vis (rev l) = rev (vis l).
  Proof.
    induction l as [|e l IH]; auto. cbn [rev]. rewrite vis_app, IH. cbn [vis filter]. destruct (visible e); cbn [rev]; auto.
    rewrite app_nil_r. reflexivity.
  Qed.
  Lemma vis_idle l : Forall idle l -> vis l = [].
  Proof. induction 1 as [|e l H]; auto. destruct e; simpl in *; tauto. Qed.
  Lemma vis_chatter l : Forall chatter l -> vis l = [].
  Proof. induction 1 as [|e l H]; auto. destruct e; simpl in *; tauto. Qed.

  Definition state (t : tx) (c : ctx) (tls : option bool) (got counts : bool) (s : sess) : Prop :=
    s_tx s = t /\ s_ctx s = c /\ s_tls s = tls /\ s_got s = got /\ s_counts s = counts.

  (** The rules are asked: the result, the context after, the transaction after
      and the decision as it is remembered. *)
  Record Judged (I : sinfo) (t : tx) (c : ctx) (ph : phase) (e : evt) (res : action) (c' : ctx) (t' : tx) (d : decision) : Prop :=
    mkJudged {
      j_decide : Decide (v_world E) (theTrans cn t) (si_rules I) ph e c = Ok (res, c');
      j_note : prop_of c' (B "note") <> [] -> si_log I = true;
      j_tx : exists m am, t' = put_lastgood (is_good res) (put_savedir (new_savedir c' (x_savedir t)) (put_lastmsg m (put_lastamsg am t)));
      j_dec : d = the_decision cn t ph e res c'
    }.

  (** Saving a message, earliest first. *)
  Inductive Kept (path m : bytes) : option bytes -> list effect -> Prop :=
  | Kp_exists : Kept path m None [FOpen path OpExists]
  | Kp_noopen e : Kept path m (Some e) [FOpen path (OpErr e)]
  | Kp_written r w : Kept path m r [FOpen path OpOk; FWrite path m w; FSync path; FClose path r].
  Lemma Saved_Kept path m r l : Saved path m r l -> Kept path m r (vis (rev l)).
  Proof.
    assert (Ha : forall r l0, (forall e : bytes, r = Some e -> exists w, l0 = [FWarn w]) -> (r = None -> l0 = []) -> vis l0 = []).
    { intros r0 l0 H1 H2. destruct r0 as [e|]; [|rewrite H2; auto]. destruct (H1 e eq_refl) as (w & ->). reflexivity. }
    rewrite vis_rev. intros []; rewrite ?vis_app, ?(Ha _ _ H H0); constructor.
  Qed.

  Inductive Did (I : sinfo) (s : sess) : sevent -> tlsstate -> next -> list effect -> sess -> Prop :=
  | Di_refused ev tls ph e res c t d s' : command ev = Some (ph, e) -> res = aStall \/ res = aReject ->
      Judged I (s_tx s) (s_ctx s) ph e res c t d ->
      state t c (new_tls c (s_tls s)) (s_got s) (s_counts s) s' ->
      Did I s ev tls Go [FDecide d; FReply (refusal_reply res ph [] (prop_of c (B "message")) (x_rcptto (s_tx s)))] s'
  | Di_helo cmd arg tls res c t d s' : is_good res = true ->
      Judged I (s_tx s) (s_ctx s) pHelo (mkEvt (Some cmd) arg) res c t d ->
      state (put_tlson (x_tlson t || ts_on tls) (put_rcptto [] (put_hashes [] [] (put_data [] (put_from [] (put_helo arg t))))))
        c (new_tls c (s_tls s)) (s_got s || reaches K (B "helo")) (s_counts s) s' ->
      Did I s (EvHelo cmd arg) tls Go [FDecide d] s'
  | Di_rset arg tls res c t d n s' : is_good res = true ->
      Judged I (s_tx s) (s_ctx s) pMfrom (mkEvt None arg) res c t d ->
      retry s = true -> (k_yakcount K < n)%Z ->
      state t c (new_tls c (s_tls s)) (s_got s) (s_counts s) s' ->
      Did I s (EvMailFrom arg) tls Drop [FDecide d; FYak (BAdd (n_rip cn) (k_yakttl K) n);
        FReply (RpTempfailMsg (B "Too many unsuccessful delivery attempts"))] s'
  | Di_mail arg tls res c t d l s' : is_good res = true ->
      Judged I (s_tx s) (s_ctx s) pMfrom (mkEvt None arg) res c t d ->
      (if retry s then exists n, l = [FYak (BAdd (n_rip cn) (k_yakttl K) n)] /\ (n <= k_yakcount K)%Z else l = []) ->
      state (put_rcptto [] (put_data [] (put_from arg t))) c (new_tls c (s_tls s)) (s_got s || reaches K (B "from")) (s_counts s) s' ->
      Did I s (EvMailFrom arg) tls Go (FDecide d :: l ++ [FReply (accept_reply [] (prop_of c (B "message")))]) s'
  | Di_rcpt arg tls res c t d s' : is_good res = true ->
      Judged I (s_tx s) (s_ctx s) pRto (mkEvt None arg) res c t d ->
      state (put_rcptto (x_rcptto t ++ [arg]) t) c (new_tls c (s_tls s)) (s_got s || reaches K (B "to")) (s_counts s) s' ->
      Did I s (EvRcptTo arg) tls Go [FDecide d; FReply (accept_reply [] (prop_of c (B "message")))] s'
  | Di_data arg tls res c t d s' : is_good res = true ->
      Judged I (s_tx s) (s_ctx s) pData (mkEvt None arg) res c t d ->
      state t c (new_tls c (s_tls s)) (s_got s || reaches K (B "data")) (s_counts s) s' ->
      Did I s (EvData arg) tls Go [FDecide d; FReply (accept_reply [] (prop_of c (B "message")))] s'
  | Di_unsaved data tls when t name e save s' :
      message_tx E tls when data (s_tx s) t -> x_savedir t <> [] -> saveName (v_sha1 E) (k_hashtype K) cn t = Some name ->
      Kept (x_savedir t ++ B "/" ++ name) (record_of E cn t) (Some e) save ->
      state t (s_ctx s) (s_tls s) true (s_counts s) s' ->
      Did I s (EvGotData data) tls Go
        ((if k_msglog K then [FMsglog (logText cn t)] else []) ++ save ++ [FReply RpTempfail]) s'
  | Di_message data tls when t name save res c t1 d got b r s' :
      message_tx E tls when data (s_tx s) t ->
      (x_savedir t = [] /\ name = x_hash t /\ save = [] \/
       x_savedir t <> [] /\ saveName (v_sha1 E) (k_hashtype K) cn t = Some name /\
       Kept (x_savedir t ++ B "/" ++ name) (record_of E cn t) None save) ->
      Judged I t (s_ctx s) pMessage (mkEvt None data) res c t1 d ->
      (b = true /\ is_good res = true /\ r = accept_reply name (prop_of c (B "message")) /\ got = reaches K (B "accepted") \/
       b = false /\ (res = aStall \/ res = aReject) /\ r = refusal_reply res pMessage name (prop_of c (B "message")) (x_rcptto t) /\ got = false) ->
      state t1 c (new_tls c (s_tls s)) (s_got s || reaches K (B "message") || got) (s_counts s) s' ->
      Did I s (EvGotData data) tls Go
        ((if k_msglog K then [FMsglog (logText cn t)] else []) ++ save ++ [FDecide d; FReply r]) s'
  | Di_tlserror tls n s' : state (s_tx s) (s_ctx s) (s_tls s) (s_got s) false s' ->
      Did I s EvTlsError tls Go [FNotls (BAdd (n_rip cn) tlsTimeout n)] s'
  | Di_end ev tls s' : ev = EvDone \/ ev = EvAbort -> state (s_tx s) (s_ctx s) (s_tls s) (s_got s) (s_counts s) s' ->
      Did I s ev tls Finish [] s'
  | Di_other tls : Did I s EvOther tls Go [] s.

  Lemma vis_after did s s' l : after did s s' -> vis (s_out s') = rev l ++ vis (s_out s) -> vis did = l.
  Proof.
    unfold after. intros -> H. rewrite vis_app, vis_rev in H. apply app_inv_tail in H.
    rewrite <- (rev_involutive (vis did)), H. apply rev_involutive.
  Qed.

  Lemma Decided_Judged I ph e id s b res c ans s1 : Decided E cn I ph e id s b res c ans s1 ->
    exists t log, Judged I (s_tx s) (s_ctx s) ph e res c t (the_decision cn (s_tx s) ph e res c) /\
      Answer ph id (x_rcptto (s_tx s)) c res b ans /\ Forall chatter log /\
      state t c (new_tls c (s_tls s)) (s_got s) (s_counts s) s1 /\
      s_out s1 = ans ++ log ++ FDecide (the_decision cn (s_tx s) ph e res c) :: s_out s.
  Proof.
    intros [b' res' c' log ans' m am HD Hl Hn HA]. eexists _, log. split; [split; [exact HD|intros Hx; apply Hn; exact Hx|eexists _, _; reflexivity|reflexivity]|].
    split; auto. split; auto. split; [repeat split|]. cbn. rewrite <- !app_assoc. reflexivity.
  Qed.

  Lemma Answer_no ph id rcpts c res ans : Answer ph id rcpts c res false ans -> ph <> pConnect -> is_good res = true /\ ans = [].
  Proof. intros H Hp. inversion H; subst; [auto|congruence]. Qed.
  Lemma Answer_yes ph id rcpts c res ans : Answer ph id rcpts c res true ans -> ph <> pConnect ->
    (res = aStall \/ res = aReject) /\ ans = [FReply (refusal_reply res ph id (prop_of c (B "message")) rcpts)].
  Proof. intros H Hp. inversion H; subst; [congruence|auto]. Qed.

  Lemma retry_same s s1 t c tls : state t c tls (s_got s) (s_counts s) s1 -> x_from t = x_from (s_tx s) -> retry s1 = retry s.
  Proof. intros (H1 & _ & _ & H2 & H3) H4. unfold retry. rewrite H1, H2, H3, H4. reflexivity. Qed.
  Lemma Judged_from I t c ph e res c' t' d : Judged I t c ph e res c' t' d ->
    x_from t' = x_from t /\ x_rcptto t' = x_rcptto t /\ x_helo t' = x_helo t /\ x_tlson t' = x_tlson t /\
    x_savedir t' = new_savedir c' (x_savedir t) /\ x_lastgood t' = is_good res /\ x_rdns t' = x_rdns t.
  Proof. intros [_ _ (m & am & ->) _]. repeat split. Qed.

  Lemma vis_cons e l : vis (e :: l) = if visible e then e :: vis l else vis l.
  Proof. reflexivity. Qed.
  Lemma vis_msglog (b : bool) x : vis (if b then [FMsglog x] else []) = if b then [FMsglog x] else [].
  Proof. destruct b; reflexivity. Qed.
  Lemma rev_msglog (b : bool) x : rev (if b then [FMsglog x] else []) = if b then [FMsglog x] else [].
  Proof. destruct b; reflexivity. Qed.
  Ltac visn := cbn [s_out add_out rev app]; repeat (rewrite ?vis_app, ?vis_cons, ?vis_msglog; cbn [visible app]).

  Lemma Received_kept s tls data name err l s1 : Received K E cn s tls data name err l s1 ->
    exists when t save, message_tx E tls when data (s_tx s) t /\
      (x_savedir t = [] /\ name = x_hash t /\ err = None /\ save = [] \/
       x_savedir t <> [] /\ saveName (v_sha1 E) (k_hashtype K) cn t = Some name /\
       Kept (x_savedir t ++ B "/" ++ name) (record_of E cn t) err save) /\
      state t (s_ctx s) (s_tls s) (s_got s || reaches K (B "message")) (s_counts s) s1 /\
      vis (s_out s1) = rev save ++ (if k_msglog K then [FMsglog (logText cn t)] else []) ++ vis (s_out s).
  Proof.
    intros [when t name' err' l' Hm Hs]. exists when, t, (vis (rev l')). split; auto.
    split; [|split; [repeat split|]].
    - destruct Hs as [(? & ? & ? & ->)|(? & ? & Hk)]; [left; auto|right]. split; auto. split; auto. apply Saved_Kept; auto.
    - visn. rewrite vis_rev, rev_involutive. reflexivity.
  Qed.

  Theorem Step_Did I s ev tls n s' did : Step K E cn I s ev tls n s' -> after did s s' -> Did I s ev tls n (vis did) s'.
  Proof.
    intros HS Ha.
    destruct HS as [ev tls ph e res c ans s1 Hc HD|cmd arg tls res c ans s1 l HD Hl _|arg tls res c ans s1 l n HD Hr Hn Hl _
        |arg tls res c ans s1 l HD Hl|arg tls res c ans s1 HD|arg tls res c ans s1 HD
        |data tls name e l s1 HR|data tls name l s1 res c ans s2 HR HD|data tls name l s1 res c ans s2 HR HD|tls n|tls|tls|tls];
      try (apply Decided_Judged in HD as (t & log & HJ & HA & Hlog & Hs & Ho);
           pose proof (vis_chatter _ Hlog) as Hlogv; cbn [add_out s_tx s_ctx s_tls s_got s_counts] in HJ, HA, Hs).
    - assert (Hp : ph <> pConnect) by (destruct ev; inversion Hc; discriminate).
      apply Answer_yes in HA as (Hr & ->); auto.
      erewrite (vis_after did s s1 [_; _]); [|eassumption|visn; rewrite Ho; visn; rewrite Hlogv; reflexivity].
      eapply Di_refused; eauto.
    - apply Answer_no in HA as (Hr & ->); [|discriminate].
      erewrite (vis_after did s _ [_]); [|eassumption|visn; rewrite Ho; visn; rewrite (vis_idle _ Hl), Hlogv; reflexivity].
      destruct Hs as (-> & -> & -> & -> & ->). eapply Di_helo; eauto. repeat split.
    - apply Answer_no in HA as (Hg & ->); [|discriminate].
      erewrite (vis_after did s _ [_; _; _]); [|eassumption|visn; rewrite Ho; visn; rewrite (vis_idle _ Hl), Hlogv; reflexivity].
      eapply Di_rset; eauto.
      rewrite <- Hr. symmetry. eapply retry_same; eauto. apply (Judged_from _ _ _ _ _ _ _ _ _ HJ).
    - apply Answer_no in HA as (Hg & ->); [|discriminate].
      rewrite (retry_same s s1 _ _ _ Hs) in Hl by apply (Judged_from _ _ _ _ _ _ _ _ _ HJ).
      rewrite (vis_after did s _ (FDecide (the_decision cn (s_tx s) pMfrom (mkEvt None arg) res c) :: rev (vis l) ++
        [FReply (accept_reply [] (prop_of (s_ctx s1) (B "message")))]) Ha).
      2: { visn. rewrite Ho. visn. rewrite Hlogv. rewrite rev_app_distr, rev_involutive. cbn [app rev].
           rewrite <- app_assoc. reflexivity. }
      destruct Hs as (-> & -> & -> & -> & ->). eapply Di_mail; eauto; [|repeat split].
      destruct (retry s); [|subst l; reflexivity]. destruct Hl as (n & -> & Hn). exists n. split; auto.
    - apply Answer_no in HA as (Hg & ->); [|discriminate].
      erewrite (vis_after did s _ [_; _]); [|eassumption|visn; rewrite Ho; visn; rewrite Hlogv; reflexivity].
      destruct Hs as (-> & -> & -> & -> & ->). eapply Di_rcpt; eauto. repeat split.
    - apply Answer_no in HA as (Hg & ->); [|discriminate].
      erewrite (vis_after did s _ [_; _]); [|eassumption|visn; rewrite Ho; visn; rewrite Hlogv; reflexivity].
      destruct Hs as (-> & -> & -> & -> & ->). eapply Di_data; eauto. repeat split.
    - apply Received_kept in HR as (when & t & save & Hm & Hk & Hs & Ho).
      destruct Hk as [(_ & _ & ? & _)|(Hd & Hn & Hk)]; [discriminate|].
      rewrite (vis_after did s _ ((if k_msglog K then [FMsglog (logText cn t)] else []) ++ save ++ [FReply RpTempfail]) Ha).
      2: { visn. rewrite Ho. rewrite !rev_app_distr. cbn [rev app].
           rewrite <- app_assoc, rev_msglog. reflexivity. }
      eapply Di_unsaved; eauto. destruct Hs as (-> & -> & -> & _ & ->). repeat split.
    - apply Received_kept in HR as (when & t0 & save & Hm & Hk & Hs1 & Ho1).
      apply Answer_yes in HA as (Hr & ->); [|discriminate].
      destruct Hs1 as (E1 & E2 & E3 & E4 & E5). rewrite E1, E2, E3, E4, E5 in *.
      rewrite (vis_after did s _ ((if k_msglog K then [FMsglog (logText cn t0)] else []) ++ save ++
        [FDecide (the_decision cn t0 pMessage (mkEvt None data) res c); FReply (refusal_reply res pMessage name (prop_of c (B "message")) (x_rcptto t0))]) Ha).
      2: { visn. rewrite Ho. visn. rewrite Hlogv, Ho1. rewrite !rev_app_distr. cbn [rev app].
           rewrite <- app_assoc, rev_msglog. reflexivity. }
      eapply (Di_message I s data tls when t0 name save res c t _ false false); [exact Hm|destruct Hk as [(? & ? & _ & ?)|(? & ? & ?)]; [left|right]; auto|exact HJ|right; auto|].
      rewrite orb_false_r. exact Hs.
    - apply Received_kept in HR as (when & t0 & save & Hm & Hk & Hs1 & Ho1).
      apply Answer_no in HA as (Hr & ->); [|discriminate].
      destruct Hs1 as (E1 & E2 & E3 & E4 & E5). rewrite E1, E2, E3, E4, E5 in *.
      rewrite (vis_after did s _ ((if k_msglog K then [FMsglog (logText cn t0)] else []) ++ save ++
        [FDecide (the_decision cn t0 pMessage (mkEvt None data) res c); FReply (accept_reply name (prop_of (s_ctx s2) (B "message")))]) Ha).
      2: { visn. rewrite Ho. visn. rewrite Hlogv, Ho1. rewrite !rev_app_distr. cbn [rev app].
           rewrite <- app_assoc, rev_msglog. reflexivity. }
      destruct Hs as (Et & -> & E6 & E7 & E8).
      eapply (Di_message I s data tls when t0 name save res c t _ (reaches K (B "accepted")) true); [exact Hm|destruct Hk as [(? & ? & _ & ?)|(? & ? & ?)]; [left|right]; auto|exact HJ|left; auto|].
      unfold state. cbn [s_tx s_ctx s_tls s_got s_counts]. rewrite Et, E6, E7, E8. repeat split.
    - rewrite (vis_after did s _ [FNotls (BAdd (n_rip cn) tlsTimeout n)] Ha); [|reflexivity]. apply Di_tlserror. repeat split.
    - rewrite (vis_after did s _ [] Ha); [|reflexivity]. apply Di_end; auto. repeat split.
    - rewrite (vis_after did s _ [] Ha); [|reflexivity]. apply Di_end; auto. repeat split.
    - rewrite (vis_after did s _ [] Ha); [|reflexivity]. apply Di_other.
  Qed.

  Theorem Turn_Did I h t n s s' : Turn I h t n s s' -> Did I s (t_event t) (t_tls t) n (vis (t_did t)) s'.
  Proof. intros (_ & H & Ha). eapply Step_Did; eauto. eapply step_Step; eauto. Qed.
End Conv.
