(** How a session runs: inversion lemmas, what decider does, conversations. *)
From Verif Require Import PropsParse.
From Verif Require Import Bytes Outcome Lexer Ast GoNet Parser World Dns Eval Decisions RuleLoad ConnCfg CipherNames Message Session.

(** ** Inversion *)

Lemma sbind_ok {A B} (m : S' A) (f : A -> S' B) s b s' :
  sbind m f s = Ok (b, s') <-> exists a s1, m s = Ok (a, s1) /\ f a s1 = Ok (b, s').
Proof.
  unfold sbind. split.
  - destruct (m s) as [[a s1]| |]; try discriminate. eauto.
  - intros (a & s1 & -> & H). exact H.
Qed.
Lemma sret_ok {A} (a : A) s b s' : sret a s = Ok (b, s') <-> b = a /\ s' = s.
Proof. unfold sret. split; [intros [= -> ->]; auto|intros [-> ->]; auto]. Qed.
Lemma sget_ok {A} (f : sess -> A) s b s' : sget f s = Ok (b, s') <-> b = f s /\ s' = s.
Proof. unfold sget. split; [intros [= -> ->]; auto|intros [-> ->]; auto]. Qed.
Lemma gettx_ok {A} (f : tx -> A) s b s' : gettx f s = Ok (b, s') <-> b = f (s_tx s) /\ s' = s.
Proof. apply (sget_ok (fun s => f (s_tx s))). Qed.
Lemma index_ok s b s' : index s = Ok (b, s') <-> b = length (s_out s) /\ s' = s.
Proof. apply (sget_ok (fun s => length (s_out s))). Qed.
Definition add_out (l : list effect) (s : sess) : sess :=
  mkSess (s_tx s) (s_ctx s) (s_tls s) (s_got s) (s_counts s) (l ++ s_out s).
Definition upd_tx (f : tx -> tx) (s : sess) : sess :=
  mkSess (f (s_tx s)) (s_ctx s) (s_tls s) (s_got s) (s_counts s) (s_out s).
Lemma emit_ok e s b s' : emit e s = Ok (b, s') <-> b = tt /\ s' = add_out [e] s.
Proof. unfold emit, add_out. destruct b; split; [intros H; injection H as <-; auto|intros [_ ->]; auto]. Qed.
Lemma uptx_ok f s b s' : uptx f s = Ok (b, s') <-> b = tt /\ s' = upd_tx f s.
Proof. unfold uptx, upd_tx. destruct b; split; [intros H; injection H as <-; auto|intros [_ ->]; auto]. Qed.
Lemma put_got_ok s b s' : put_got s = Ok (b, s') <->
  b = tt /\ s' = mkSess (s_tx s) (s_ctx s) (s_tls s) true (s_counts s) (s_out s).
Proof. unfold put_got. destruct b; split; [intros H; injection H as <-; auto|intros [_ ->]; auto]. Qed.
Lemma put_counts_ok v s b s' : put_counts v s = Ok (b, s') <->
  b = tt /\ s' = mkSess (s_tx s) (s_ctx s) (s_tls s) (s_got s) v (s_out s).
Proof. unfold put_counts. destruct b; split; [intros H; injection H as <-; auto|intros [_ ->]; auto]. Qed.
Lemma put_tlscfg_ok v s b s' : put_tlscfg v s = Ok (b, s') <->
  b = tt /\ s' = mkSess (s_tx s) (s_ctx s) v (s_got s) (s_counts s) (s_out s).
Proof. unfold put_tlscfg. destruct b; split; [intros H; injection H as <-; auto|intros [_ ->]; auto]. Qed.
Lemma scrash_ok {A} s b s' : @scrash A s = Ok (b, s') <-> False.
Proof. split; [discriminate|tauto]. Qed.
Lemma slift_ok {A} (o : outcome A) s b s' : slift o s = Ok (b, s') <-> o = Ok b /\ s' = s.
Proof. unfold slift. destruct o; split; try discriminate; try (intros [= -> ->]; auto); intros [[= ->] ->]; auto. Qed.
Lemma inctx_ok {A} (m : M A) s b s' : inctx m s = Ok (b, s') <->
  exists c, m (s_ctx s) = Ok (b, c) /\ s' = mkSess (s_tx s) c (s_tls s) (s_got s) (s_counts s) (s_out s).
Proof.
  unfold inctx. split.
  - destruct (m (s_ctx s)) as [[a c]| |]; try discriminate. intros [= -> <-]. eauto.
  - intros (c & -> & ->). reflexivity.
Qed.

Ltac sub1 H := lazymatch type of H with ?x = _ => first [is_var x; subst x | idtac] end.
Ltac sapp L H := let Ha := fresh "Ea" in let Hb := fresh "Eb" in apply L in H as [Ha Hb]; sub1 Ha; sub1 Hb.
Ltac sinv1 H :=
  lazymatch type of H with
  | sbind _ _ _ = Ok _ => let H1 := fresh "H" in let a := fresh "a" in let s1 := fresh "s" in
      apply sbind_ok in H as (a & s1 & H1 & H); sinv1 H1; sinv1 H
  | sret _ _ = Ok _ => sapp sret_ok H
  | sget _ _ = Ok _ => sapp sget_ok H
  | gettx _ _ = Ok _ => sapp gettx_ok H
  | index _ = Ok _ => sapp index_ok H
  | emit _ _ = Ok _ => sapp emit_ok H
  | uptx _ _ = Ok _ => sapp uptx_ok H
  | put_got _ = Ok _ => sapp put_got_ok H
  | put_counts _ _ = Ok _ => sapp put_counts_ok H
  | put_tlscfg _ _ = Ok _ => sapp put_tlscfg_ok H
  | scrash _ = Ok _ => discriminate H
  | logwrite _ _ _ = Ok _ => unfold logwrite in H; sinv1 H
  | event _ _ = Ok _ => unfold event in H; sinv1 H
  | updateTime _ _ _ = Ok _ => unfold updateTime in H; sinv1 H
  | _ => idtac
  end.
Ltac sinv H := cbv beta in H; sinv1 H.

(** ** Kinds of effects *)

(** the effects decider can have besides replies: decisions and log lines *)
Definition chatter (e : effect) : Prop :=
  match e with
  | FSmtplog _ | FDbl _ | FSbl _ | FTxt _ | FTlsOff | FTlsNoClient => True
  | _ => False
  end.
(** effects that only concern logs, counters and statistics *)
Definition idle (e : effect) : Prop :=
  match e with
  | FEvent _ | FTime _ _ | FWarn _ | FDnlog _ | FLoc _ => True
  | _ => chatter e
  end.
(** the replies in a list of effects, latest first *)
Definition replies (l : list effect) : list reply :=
  flat_map (fun e => match e with FReply r => [r] | _ => [] end) l.
Definition decisions (l : list effect) : list decision :=
  flat_map (fun e => match e with FDecide d => [d] | _ => [] end) l.

Lemma replies_app a b : replies (a ++ b) = replies a ++ replies b.
Proof. apply flat_map_app. Qed.
Lemma decisions_app a b : decisions (a ++ b) = decisions a ++ decisions b.
Proof. apply flat_map_app. Qed.
Lemma chatter_replies l : Forall chatter l -> replies l = [].
Proof. induction 1 as [|e l H]; auto. destruct e; simpl in *; tauto. Qed.
Lemma chatter_decisions l : Forall chatter l -> decisions l = [].
Proof. induction 1 as [|e l H]; auto. destruct e; simpl in *; tauto. Qed.

(** the class of a reply: 2, 4 or 5 *)
Definition rclass (r : reply) : nat :=
  match r with
  | RpAccept | RpAcceptMsg _ | RpAcceptData _ => 2
  | RpTempfail | RpTempfailMsg _ => 4
  | RpReject | RpRejectMsg _ => 5
  end.

(** the message is the same up to bookkeeping of the decisions *)
Definition same_mail (t t' : tx) : Prop :=
  exists sd m am g, t' = put_savedir sd (put_lastmsg m (put_lastamsg am (put_lastgood g t))).

Definition prop_of (c : ctx) (k : bytes) : bytes := match mget (c_withprops c) k with Some v => v | None => [] end.

Section Proofs.
  Context (K : config) (E : senv) (cn : conn).

  (** only log lines and the remembered log lines change *)
  Definition logs (s s' : sess) : Prop :=
    exists l m am, Forall chatter l /\
      s' = mkSess (put_lastmsg m (put_lastamsg am (s_tx s))) (s_ctx s) (s_tls s) (s_got s) (s_counts s) (l ++ s_out s).

  Lemma put_last_id t : put_lastmsg (x_lastmsg t) (put_lastamsg (x_lastamsg t) t) = t.
  Proof. destruct t; reflexivity. Qed.
  Lemma logs_refl s : logs s s.
  Proof. exists [], (x_lastmsg (s_tx s)), (x_lastamsg (s_tx s)). split; auto. rewrite put_last_id. destruct s; reflexivity. Qed.
  Lemma logs_trans s1 s2 s3 : logs s1 s2 -> logs s2 s3 -> logs s1 s3.
  Proof.
    intros (l & m & am & Hl & ->) (l' & m' & am' & Hl' & ->). exists (l' ++ l), m', am'. split; [apply Forall_app; auto|].
    cbn. rewrite app_assoc. reflexivity.
  Qed.
  Lemma logs_emit e s : chatter e -> logs s (add_out [e] s).
  Proof.
    intros H. exists [e], (x_lastmsg (s_tx s)), (x_lastamsg (s_tx s)). split; auto. rewrite put_last_id. reflexivity.
  Qed.

  Lemma logs_lastmsg m s : logs s (upd_tx (put_lastmsg m) s).
  Proof. exists [], m, (x_lastamsg (s_tx s)). split; [constructor|reflexivity]. Qed.
  Lemma logs_lastamsg m s : logs s (upd_tx (put_lastamsg m) s).
  Proof. exists [], (x_lastmsg (s_tx s)), m. split; [constructor|reflexivity]. Qed.

  Lemma getSBLHits_logs s r s' : getSBLHits E cn s = Ok (r, s') -> logs s s'.
  Proof.
    unfold getSBLHits. destruct (split_byte (n_rip cn) ch_dot) as [|? [|? [|? [|? ?]]]]; try discriminate.
    intros H. sinv H. apply logs_emit. exact I.
  Qed.
  Lemma logSbls_logs hits : forall s r s', logSbls E cn hits s = Ok (r, s') -> logs s s'.
  Proof.
    induction hits as [|h hits IH]; intros s r s' H; cbn [logSbls] in H; sinv H; [apply logs_refl|].
    eapply logs_trans; [|eapply IH; eauto]. destruct (beqb h _); [|sinv H0; apply logs_refl].
    sinv H0. eapply logs_trans; [eapply getSBLHits_logs; eauto|].
    destruct a0; sinv H0; [apply logs_refl|]. 
    eapply logs_trans; apply logs_emit; exact I.
  Qed.
  Lemma logDnsbls_logs I s r s' : logDnsbls E cn I s = Ok (r, s') -> logs s s'.
  Proof.
    unfold logDnsbls. intros H. sinv H. destruct (c_dnsblhit (s_ctx s)) as [|h hs] eqn:Eh; [sinv H; apply logs_refl|].
    destruct (negb (si_log I)); [sinv H; apply logs_refl|]. cbn zeta in H. sinv H.
    destruct (beqb _ _); [sinv H; apply logs_refl|]. sinv H. 
    eapply logs_trans; [|eapply logSbls_logs; eauto].
    eapply logs_trans; [|apply logs_emit; exact Logic.I].
    eapply logs_trans; [|apply logs_lastmsg]. apply logs_emit. exact Logic.I.
  Qed.
  Lemma logDomerr_logs I s r s' : logDomerr cn I s = Ok (r, s') -> logs s s'.
  Proof.
    unfold logDomerr. intros H. sinv H. destruct (c_domerr (s_ctx s)); [|sinv H; apply logs_refl].
    destruct (negb (si_log I)); [sinv H; apply logs_refl|]. cbn zeta in H. sinv H.
    destruct (beqb _ _); [sinv H; apply logs_refl|]. sinv H. 
    eapply logs_trans; [|apply logs_lastamsg]. apply logs_emit. exact Logic.I.
  Qed.

  (** what the options savedir and tls-opt of a decision do *)
  Definition new_savedir (c : ctx) (old : bytes) : bytes :=
    if beqb (prop_of c (B "savedir")) [] then old else prop_of c (B "savedir").
  Definition new_tls (c : ctx) (old : option bool) : option bool :=
    if beqb (prop_of c (B "tls-opt")) (B "off") then None
    else if beqb (prop_of c (B "tls-opt")) (B "no-client") then option_map (fun _ => false) old
    else old.

  (** sinksmtp.go:786 *)
  Definition note_line (note : bytes) : bytes := B "! rule note: " ++ note ++ [ch_nl].

  Lemma applyProps_spec I s r s' : applyProps cn I s = Ok (r, s') ->
    exists l, Forall chatter l /\
      (prop_of (s_ctx s) (B "note") <> [] -> si_log I = true /\ In (FSmtplog (n_prefix cn ++ note_line (prop_of (s_ctx s) (B "note")))) l) /\
      s' = mkSess (put_savedir (new_savedir (s_ctx s) (x_savedir (s_tx s))) (s_tx s)) (s_ctx s)
             (new_tls (s_ctx s) (s_tls s)) (s_got s) (s_counts s) (l ++ s_out s).
  Proof.
    unfold applyProps. intros H. set (c := s_ctx s).
    apply sbind_ok in H as (sd & sa & H1 & H). unfold withprop in H1. sapp @sget_ok H1. fold c in H. fold (prop_of c (B "savedir")) in H.
    apply sbind_ok in H as (u & s1 & H1 & H).
    assert (E1 : s1 = upd_tx (put_savedir (new_savedir c (x_savedir (s_tx s)))) s).
    { clear -H1. unfold new_savedir. destruct (beqb _ []); cbn [negb when_] in H1; sinv H1; auto.
      unfold upd_tx. destruct s as [t]; cbn. f_equal. destruct t; reflexivity. }
    clear H1. apply sbind_ok in H as (note & sa & H1 & H). unfold withprop in H1. sapp @sget_ok H1.
    replace (s_ctx s1) with c in H by (subst s1; reflexivity). fold (prop_of c (B "note")) in H.
    apply sbind_ok in H as (u2 & s2 & H1 & H).
    assert (Hn : exists l, Forall chatter l /\ (prop_of c (B "note") <> [] -> si_log I = true /\ In (FSmtplog (n_prefix cn ++ note_line (prop_of c (B "note")))) l) /\ s2 = add_out l s1).
    { clear -H1. destruct (beqb_spec (prop_of c (B "note")) []) as [En|En]; cbn [negb when_] in H1.
      - sinv H1. exists []. split; auto. split; [congruence|]. destruct s1; reflexivity.
      - destruct (si_log I); [|discriminate]. sinv H1.
        eexists [_]. split; [|split; [|reflexivity]]; [repeat constructor|]. intros _. split; auto. left. reflexivity. }
    destruct Hn as (l & Hl & Hn & ->). clear H1.
    apply sbind_ok in H as (topt & sa & H1 & H). unfold withprop in H1. sapp @sget_ok H1.
    replace (s_ctx (add_out l s1)) with c in H by (subst s1; reflexivity). fold (prop_of c (B "tls-opt")) in H.
    unfold new_tls. destruct (beqb (prop_of c (B "tls-opt")) (B "off")).
    { sinv H. exists (FTlsOff :: l). split; [constructor; simpl; auto|]. split; [intros Hx; destruct (Hn Hx); split; auto; now right|]. subst s1. reflexivity. }
    destruct (beqb (prop_of c (B "tls-opt")) (B "no-client")).
    2: { sinv H. exists l. split; auto. split; auto. subst s1. reflexivity. }
    apply sbind_ok in H as (cfg & sa & H1 & H). sapp @sget_ok H1.
    replace (s_tls (add_out l s1)) with (s_tls s) in H by (subst s1; reflexivity).
    destruct (s_tls s) eqn:Et; sinv H.
    - exists (FTlsNoClient :: l). split; [constructor; simpl; auto|]. split; [intros Hx; destruct (Hn Hx); split; auto; now right|]. subst s1. reflexivity.
    - exists l. split; auto. split; auto. subst s1. unfold add_out, upd_tx. cbn. rewrite Et. reflexivity.
  Qed.

  (** ** decider *)

  Definition is_good (res : action) : bool := match res with aNoresult | aAccept => true | _ => false end.

  (** the reply to a refusal *)
  Definition refusal_reply (res : action) (ph : phase) (id msg : bytes) (rcpts : list bytes) : reply :=
    let those := if Nat.ltb 1 (length rcpts) then B "those addresses" else B "that address" in
    match res with
    | aReject =>
        if negb (beqb msg []) then RpRejectMsg (msg ++ (if beqb id [] then [] else [ch_nl] ++ B "Rejected with ID " ++ id))
        else match ph with
             | pMessage => RpRejectMsg (B "We do not consent to you emailing " ++ those ++
                                        (if beqb id [] then [] else [ch_nl] ++ B "Rejected with ID " ++ id))
             | pData => RpRejectMsg (B "We do not consent to you emailing " ++ those)
             | pRto => RpRejectMsg (B "We do not consent to you emailing that address")
             | _ => RpReject
             end
    | _ => if beqb msg [] then RpTempfail else RpTempfailMsg msg
    end.

  (** what decider answers and returns for a result of the rules *)
  Inductive Answer (ph : phase) (id : bytes) (rcpts : list bytes) (c : ctx) : action -> bool -> list effect -> Prop :=
  | An_good res : is_good res = true -> Answer ph id rcpts c res false []
  | An_connect res : is_good res = false -> ph = pConnect ->
      Answer ph id rcpts c res (match res with aReject => true | _ => false end) []
  | An_refuse res : res = aStall \/ res = aReject -> ph <> pConnect ->
      Answer ph id rcpts c res true [FReply (refusal_reply res ph id (prop_of c (B "message")) rcpts)].

  Lemma refusal_spec res ph id msg s u s' : is_good res = false -> ph <> pConnect -> refusal res ph id msg s = Ok (u, s') ->
    (res = aStall \/ res = aReject) /\ s' = add_out [FReply (refusal_reply res ph id msg (x_rcptto (s_tx s)))] s.
  Proof.
    intros Hg Hp H. unfold refusal in H. destruct res; try discriminate.
    - sinv H. auto.
    - split; auto. unfold refusal_reply. destruct (negb (beqb msg [])); [sinv H; reflexivity|].
      destruct (negb (beqb id []) && peqb ph pMessage) eqn:E1.
      + apply andb_true_iff in E1 as [E1 E2]. destruct ph; try discriminate. unfold pluralRecips in H. sinv H.
        destruct (beqb id []); [discriminate|]. reflexivity.
      + destruct (peqb ph pMessage || peqb ph pData) eqn:E2.
        * unfold pluralRecips in H. sinv H. destruct ph; try discriminate; [reflexivity|].
          destruct (beqb id []); [|discriminate]. rewrite app_nil_r. reflexivity.
        * destruct (peqb ph pRto) eqn:E3; sinv H; destruct ph; try discriminate; reflexivity.
  Qed.

  Definition the_decision (t : tx) (ph : phase) (e : evt) (res : action) (c : ctx) : decision :=
    mkDecision (theTrans cn t) ph e res (c_withprops c) (c_dnsblhit c) (c_domerr c).

  Lemma decider_spec I ph e id s b s' : decider E cn I ph e id s = Ok (b, s') ->
    exists res c log ans m am,
      Decide (v_world E) (theTrans cn (s_tx s)) (si_rules I) ph e (s_ctx s) = Ok (res, c) /\
      Forall chatter log /\ (prop_of c (B "note") <> [] -> si_log I = true /\ In (FSmtplog (n_prefix cn ++ note_line (prop_of c (B "note")))) log) /\
      Answer ph id (x_rcptto (s_tx s)) c res b ans /\
      s' = mkSess (put_lastgood (is_good res) (put_savedir (new_savedir c (x_savedir (s_tx s)))
                     (put_lastmsg m (put_lastamsg am (s_tx s)))))
             c (new_tls c (s_tls s)) (s_got s) (s_counts s)
             (ans ++ log ++ FDecide (the_decision (s_tx s) ph e res c) :: s_out s).
  Proof.
    unfold decider. intros H.
    apply sbind_ok in H as (t & sa & H1 & H). sapp @gettx_ok H1.
    apply sbind_ok in H as (res & s1 & H1 & H). apply inctx_ok in H1 as (c & HD & ->).
    apply sbind_ok in H as (c' & sa & H1 & H). sapp @sget_ok H1. cbn [s_ctx] in H.
    apply sbind_ok in H as (u & sa & H1 & H). sapp emit_ok H1.
    apply sbind_ok in H as (u1 & s2 & H1 & H). apply logDnsbls_logs in H1.
    apply sbind_ok in H as (u2 & s3 & H2 & H). apply logDomerr_logs in H2.
    destruct (logs_trans _ _ _ H1 H2) as (l & m & am & Hl & E3). clear H1 H2 s2 u1 u2.
    apply sbind_ok in H as (u3 & s4 & H1 & H). apply applyProps_spec in H1 as (l2 & Hl2 & Hn & E4).
    subst s3. unfold add_out in *. cbn [s_tx s_ctx s_tls s_got s_counts s_out app] in *.
    exists res, c, (l2 ++ l).
    assert (Hl3 : Forall chatter (l2 ++ l)) by (apply Forall_app; auto).
    assert (Hn3 : prop_of c (B "note") <> [] -> si_log I = true /\ In (FSmtplog (n_prefix cn ++ note_line (prop_of c (B "note")))) (l2 ++ l))
      by (intros Hx; destruct (Hn Hx); split; auto; apply in_or_app; auto).
    remember s4 as s4' eqn:E4' in H. rewrite E4 in E4'. clear E4 s4.
    destruct (is_good res) eqn:Eg.
    - subst s4'. exists [], m, am. split; auto. split; auto. split; auto. destruct res; try discriminate;
        sinv H; (split; [apply An_good; reflexivity|]); cbn; rewrite <- app_assoc; reflexivity.
    - assert (H' : sbind (uptx (put_lastgood false)) (fun _ =>
          if peqb ph pConnect then sret (match res with aReject => true | _ => false end)
          else sbind (withprop (B "message")) (fun msg => sbind (refusal res ph id msg) (fun _ => sret true))) s4' = Ok (b, s'))
        by (destruct res; try discriminate Eg; exact H). clear H. rename H' into H.
      subst s4'. apply sbind_ok in H as (u & sa & H1 & H). sapp uptx_ok H1.
      destruct (peqb ph pConnect) eqn:Ep.
      + sinv H. exists [], m, am. split; auto. split; auto. split; auto.
        split; [apply An_connect; auto; destruct ph; try discriminate; reflexivity|].
        cbn. rewrite <- app_assoc. reflexivity.
      + apply sbind_ok in H as (msg & sa & H1 & H). unfold withprop in H1. sapp @sget_ok H1.
        apply sbind_ok in H as (u5 & s5 & H1 & H). sinv H.
        assert (ph <> pConnect) by (intros ->; discriminate).
        apply refusal_spec in H1 as (Hr & ->); auto.
        eexists _, m, am. split; auto. split; auto. split; auto.
        split; [apply An_refuse; auto|]. cbn. rewrite <- app_assoc. reflexivity.
  Qed.

  Definition accept_reply (id msg : bytes) : reply :=
    if negb (beqb msg []) then RpAcceptMsg (msg ++ (if beqb id [] then [] else [ch_nl] ++ B "Accepted with ID " ++ id))
    else if beqb id [] then RpAccept else RpAcceptData id.
  Lemma doAccept_spec id s u s' : doAccept id s = Ok (u, s') ->
    s' = add_out [FReply (accept_reply id (prop_of (s_ctx s) (B "message")))] s.
  Proof.
    unfold doAccept, accept_reply. intros H. apply sbind_ok in H as (msg & sa & H1 & H). unfold withprop in H1. sapp @sget_ok H1.
    fold (prop_of (s_ctx s) (B "message")) in *. destruct (negb (beqb _ [])); [sinv H; reflexivity|].
    destruct (beqb id []); cbn [negb] in H; sinv H; reflexivity.
  Qed.

  Lemma accept_class id msg : rclass (accept_reply id msg) = 2.
  Proof. unfold accept_reply. destruct (negb _); auto. destruct (beqb _ _); auto. Qed.
  Lemma refusal_class res ph id msg r : rclass (refusal_reply res ph id msg r) = match res with aReject => 5 | _ => 4 end.
  Proof.
    unfold refusal_reply. destruct res; try (destruct (beqb msg []); reflexivity). destruct (negb _); auto. destruct ph; auto.
  Qed.

  (** ** handleMessage *)

  (** creating and writing a file: the error returned, and the effects *)
  Inductive Saved (path m : bytes) : option bytes -> list effect -> Prop :=
  | Sv_exists : Saved path m None [FOpen path OpExists]
  | Sv_noopen e w : Saved path m (Some e) [FWarn w; FOpen path (OpErr e)]
  | Sv_written r l : (forall e, r = Some e -> exists w, l = [FWarn w]) -> (r = None -> l = []) ->
      Saved path m r (l ++ [FClose path r; FSync path; FWrite path m WrOk; FOpen path OpOk])
  | Sv_lost r l n e w : (forall e, r = Some e -> exists w, l = [FWarn w]) -> (r = None -> l = []) ->
      Saved path m r (l ++ [FClose path r; FSync path; FWarn w; FWrite path m (WrErr n e); FOpen path OpOk]).

  Lemma saveFile_spec path m s r s' : saveFile E path m s = Ok (r, s') ->
    exists l, Saved path m r l /\ s' = add_out l s.
  Proof.
    unfold saveFile. intros H. apply sbind_ok in H as (i & sa & H1 & H). sapp index_ok H1. cbn zeta in H.
    apply sbind_ok in H as (u & sa & H1 & H). sapp emit_ok H1.
    destruct (v_open E _ path) as [| |e]; cbn match in H.
    - apply sbind_ok in H as (i & sa & H1 & H). sapp index_ok H1. cbn zeta in H.
      apply sbind_ok in H as (u & sa & H1 & H). sapp emit_ok H1.
      apply sbind_ok in H as (u & s2 & H1 & H).
      assert (Hw : exists l, s2 = add_out l s /\ (l = [FWrite path m WrOk; FOpen path OpOk] \/
                     exists n e w, l = [FWarn w; FWrite path m (WrErr n e); FOpen path OpOk])).
      { destruct (v_write E _ path) as [|n e]; sinv H1.
        - eexists [_; _]. split; [reflexivity|]. left. reflexivity.
        - eexists [_; _; _]. split; [reflexivity|]. right. eauto. }
      clear H1. destruct Hw as (l & -> & Hl).
      apply sbind_ok in H as (u3 & sa & H1 & H). sapp emit_ok H1.
      apply sbind_ok in H as (i & sa & H1 & H). sapp index_ok H1. cbn zeta in H.
      apply sbind_ok in H as (u4 & sa & H1 & H). sapp emit_ok H1.
      destruct (v_close E _) as [e|]; sinv H.
      + exists ([FWarn (B "error closing message file: " ++ e ++ [ch_nl])] ++ [FClose path (Some e); FSync path] ++ l).
        split; [|reflexivity]. destruct Hl as [->|(n & e2 & w & ->)]; cbn [app].
        * apply (Sv_written path m (Some e) [_]); [eauto|discriminate].
        * apply (Sv_lost path m (Some e) [_]); [eauto|discriminate].
      + exists ([FClose path None; FSync path] ++ l).
        split; [|reflexivity]. destruct Hl as [->|(n & e2 & w & ->)]; cbn [app].
        * apply (Sv_written path m None []); [discriminate|auto].
        * apply (Sv_lost path m None []); [discriminate|auto].
    - sinv H. eexists [_]. split; [constructor|reflexivity].
    - sinv H. eexists [_; _]. split; [constructor|reflexivity].
  Qed.

  Definition record_of (t : tx) : bytes := fst (msgDetails (v_sha1 E) cn t).

  Lemma handleMessage_spec s r s' : handleMessage K E cn s = Ok (r, s') ->
    exists name err l, r = (name, err) /\
      s' = add_out (l ++ (if k_msglog K then [FMsglog (logText cn (s_tx s))] else [])) s /\
      ((x_savedir (s_tx s) = [] /\ name = x_hash (s_tx s) /\ err = None /\ l = []) \/
       (x_savedir (s_tx s) <> [] /\ saveName (v_sha1 E) (k_hashtype K) cn (s_tx s) = Some name /\
        Saved (x_savedir (s_tx s) ++ B "/" ++ name) (record_of (s_tx s)) err l)).
  Proof.
    unfold handleMessage. intros H. apply sbind_ok in H as (t & sa & H1 & H). sapp @gettx_ok H1.
    apply sbind_ok in H as (u & s1 & H1 & H).
    assert (E1 : s1 = add_out (if k_msglog K then [FMsglog (logText cn (s_tx s))] else []) s).
    { destruct (k_msglog K); cbn [when_] in H1; sinv H1; [reflexivity|]. destruct s; reflexivity. }
    clear H1. subst s1. destruct (beqb_spec (x_savedir (s_tx s)) []) as [Es|Es].
    - sinv H. eexists _, _, []. split; [reflexivity|]. split; [reflexivity|]. left. auto.
    - unfold record_of. destruct (msgDetails (v_sha1 E) cn (s_tx s)) as [m mh].
      destruct (saveName _ _ _ _) as [hash|]; [|discriminate].
      apply sbind_ok in H as (err & s2 & H1 & H). sinv H. apply saveFile_spec in H1 as (l & Hl & ->).
      eexists _, _, l. split; [reflexivity|]. split; [|right; auto].
      unfold add_out. cbn. rewrite app_assoc. reflexivity.
  Qed.

  (** ** One turn of the loop *)

  (** the state after a decision *)
  Definition after_decision (s : sess) (good : bool) (c : ctx) (m am : bytes) (new : list effect) : sess :=
    mkSess (put_lastgood good (put_savedir (new_savedir c (x_savedir (s_tx s))) (put_lastmsg m (put_lastamsg am (s_tx s)))))
           c (new_tls c (s_tls s)) (s_got s) (s_counts s) (new ++ s_out s).

  Inductive Decided (I : sinfo) (ph : phase) (e : evt) (id : bytes) (s : sess) :
    bool -> action -> ctx -> list effect -> sess -> Prop :=
  | DD b res c log ans m am :
      Decide (v_world E) (theTrans cn (s_tx s)) (si_rules I) ph e (s_ctx s) = Ok (res, c) ->
      Forall chatter log -> (prop_of c (B "note") <> [] -> si_log I = true /\ In (FSmtplog (n_prefix cn ++ note_line (prop_of c (B "note")))) log) ->
      Answer ph id (x_rcptto (s_tx s)) c res b ans ->
      Decided I ph e id s b res c ans
        (after_decision s (is_good res) c m am (ans ++ log ++ [FDecide (the_decision (s_tx s) ph e res c)])).

  Lemma decider_Decided I ph e id s b s' : decider E cn I ph e id s = Ok (b, s') ->
    exists res c ans, Decided I ph e id s b res c ans s'.
  Proof.
    intros H. apply decider_spec in H as (res & c & log & ans & m & am & HD & Hl & Hn & HA & ->).
    exists res, c, ans.
    replace (ans ++ log ++ FDecide (the_decision (s_tx s) ph e res c) :: s_out s)
      with ((ans ++ log ++ [FDecide (the_decision (s_tx s) ph e res c)]) ++ s_out s)
      by (rewrite <- !app_assoc; reflexivity).
    apply DD; auto.
  Qed.

  (** the commands that are decided on when they arrive *)
  Definition command (ev : sevent) : option (phase * evt) :=
    match ev with
    | EvHelo cmd arg => Some (pHelo, mkEvt (Some cmd) arg)
    | EvMailFrom arg => Some (pMfrom, mkEvt None arg)
    | EvRcptTo arg => Some (pRto, mkEvt None arg)
    | EvData arg => Some (pData, mkEvt None arg)
    | _ => None
    end.

  Definition reaches (p : bytes) : bool := beqb (k_minphase K) p.
  Lemma minphase_ok p s u s' : minphase K p s = Ok (u, s') <->
    u = tt /\ s' = mkSess (s_tx s) (s_ctx s) (s_tls s) (s_got s || reaches p) (s_counts s) (s_out s).
  Proof.
    unfold minphase, when_, reaches. destruct (beqb (k_minphase K) p).
    - rewrite put_got_ok, orb_true_r. reflexivity.
    - rewrite sret_ok, orb_false_r. destruct u. split; intros [_ ->]; split; auto; destruct s; reflexivity.
  Qed.

  (** when a MAIL FROM counts as another attempt of a do-nothing client *)
  Definition retry (s : sess) : bool := negb (beqb (x_from (s_tx s)) []) && negb (s_got s) && s_counts s.

  (** the certificate of the client: the first one of a verified chain, or the
      first one presented *)
  Definition peer_cert (tls : tlsstate) : option cert :=
    match ts_chains tls with
    | (c :: _) :: _ => Some c
    | _ :: _ => None
    | [] => match ts_peers tls with c :: _ => Some c | [] => None end
    end.
  (** whether the certificate is found good: the library did, or it does now *)
  Definition cert_good (tls : tlsstate) (ver : bool) : Prop :=
    match ts_chains tls, ts_peers tls with
    | [] :: _, _ => False
    | _ :: _, _ => ver = true
    | [], c :: cs => exists i, ver = match v_verify E i c cs with None => true | Some _ => false end
    | [], [] => True
    end.
  (** what the message data is noted with *)
  Definition message_tx (tls : tlsstate) (when : bytes) (data : bytes) (t t' : tx) : Prop :=
    exists peer ver,
      ((exists i, when = v_now E i) /\
       peer = match peer_cert tls with Some c => tlsName c | None => x_peer t end /\
       (ts_chains tls <> [] -> ver = true) /\ (peer_cert tls = None -> ver = x_verified t) /\ cert_good tls ver) /\
      t' = (let (h, bh) := getHashes (v_sha1 E) (v_mail E) data in
            put_hashes h bh (put_peer peer ver (put_tls (ts_cipher tls) (ts_version tls) (ts_server tls)
              (put_tlson (ts_on tls) (put_when when (put_data data t)))))).

  (** receiving, logging and saving a message *)
  Inductive Received (s : sess) (tls : tlsstate) (data : bytes) : bytes -> option bytes -> list effect -> sess -> Prop :=
  | Rec when t name err l :
      message_tx tls when data (s_tx s) t ->
      (x_savedir t = [] /\ name = x_hash t /\ err = None /\ l = [] \/
       x_savedir t <> [] /\ saveName (v_sha1 E) (k_hashtype K) cn t = Some name /\
       Saved (x_savedir t ++ B "/" ++ name) (record_of t) err l) ->
      Received s tls data name err l
        (mkSess t (s_ctx s) (s_tls s) (s_got s || reaches (B "message")) (s_counts s)
           (l ++ (if k_msglog K then [FMsglog (logText cn t)] else []) ++ FEvent (B "messages") :: s_out s)).

  (** the counters increased, and the one for a command that arrives *)
  Definition tallies (l : list effect) : list bytes := flat_map (fun e => match e with FEvent x => [x] | _ => [] end) l.
  Definition tally_of (ev : sevent) : bytes :=
    match ev with
    | EvHelo _ _ => B "ehlo"
    | EvMailFrom _ => B "mailfrom"
    | EvRcptTo _ => B "rcptto"
    | EvData _ => B "data"
    | _ => []
    end.
  Lemma tallies_app a b : tallies (a ++ b) = tallies a ++ tallies b.
  Proof. apply flat_map_app. Qed.
  Lemma tallies_chatter l : Forall chatter l -> tallies l = [].
  Proof. induction 1 as [|e l H _ IH]; auto. destruct e; simpl in *; tauto. Qed.

  Inductive Step (I : sinfo) (s : sess) : sevent -> tlsstate -> next -> sess -> Prop :=
  | St_refused ev tls ph e res c ans s1 : command ev = Some (ph, e) ->
      Decided I ph e [] (add_out [FEvent (tally_of ev)] s) true res c ans s1 -> Step I s ev tls Go s1
  | St_helo cmd arg tls res c ans s1 l :
      Decided I pHelo (mkEvt (Some cmd) arg) [] (add_out [FEvent (B "ehlo")] s) false res c ans s1 -> Forall idle l ->
      tallies (rev l) = B "ehloAccept" :: (if ts_on tls && negb (x_tlson (s_tx s1)) then [B "tlson"; B "starttls"] else []) ->
      Step I s (EvHelo cmd arg) tls Go
        (mkSess (put_tlson (x_tlson (s_tx s1) || ts_on tls) (put_rcptto [] (put_hashes [] [] (put_data [] (put_from [] (put_helo arg (s_tx s1)))))))
           (s_ctx s1) (s_tls s1) (s_got s1 || reaches (B "helo")) (s_counts s1) (l ++ s_out s1))
  | St_rset arg tls res c ans s1 l n :
      Decided I pMfrom (mkEvt None arg) [] (add_out [FEvent (B "mailfrom")] s) false res c ans s1 -> retry s1 = true ->
      (k_yakcount K < n)%Z -> Forall idle l -> tallies (rev l) = [B "yakads"; B "rsetdrops"] ->
      Step I s (EvMailFrom arg) tls Drop
        (add_out (FReply (RpTempfailMsg (B "Too many unsuccessful delivery attempts")) :: l ++
                  [FYak (BAdd (n_rip cn) (k_yakttl K) n); FEvent (B "rsets")]) s1)
  | St_mail arg tls res c ans s1 l :
      Decided I pMfrom (mkEvt None arg) [] (add_out [FEvent (B "mailfrom")] s) false res c ans s1 ->
      (if retry s1 then exists n, l = [FYak (BAdd (n_rip cn) (k_yakttl K) n); FEvent (B "rsets")] /\ (n <= k_yakcount K)%Z
       else l = []) ->
      Step I s (EvMailFrom arg) tls Go
        (mkSess (put_rcptto [] (put_data [] (put_from arg (s_tx s1)))) (s_ctx s1) (s_tls s1)
           (s_got s1 || reaches (B "from")) (s_counts s1)
           (FEvent (B "mailfromAccept") :: FReply (accept_reply [] (prop_of (s_ctx s1) (B "message"))) :: l ++ s_out s1))
  | St_rcpt arg tls res c ans s1 :
      Decided I pRto (mkEvt None arg) [] (add_out [FEvent (B "rcptto")] s) false res c ans s1 ->
      Step I s (EvRcptTo arg) tls Go
        (mkSess (put_rcptto (x_rcptto (s_tx s1) ++ [arg]) (s_tx s1)) (s_ctx s1) (s_tls s1)
           (s_got s1 || reaches (B "to")) (s_counts s1)
           (FEvent (B "rcpttoAccept") :: FReply (accept_reply [] (prop_of (s_ctx s1) (B "message"))) :: s_out s1))
  | St_data arg tls res c ans s1 :
      Decided I pData (mkEvt None arg) [] (add_out [FEvent (B "data")] s) false res c ans s1 ->
      Step I s (EvData arg) tls Go
        (mkSess (s_tx s1) (s_ctx s1) (s_tls s1)
           (s_got s1 || reaches (B "data")) (s_counts s1)
           (FEvent (B "dataAccept") :: FReply (accept_reply [] (prop_of (s_ctx s1) (B "message"))) :: s_out s1))
  | St_unsaved data tls name e l s1 :
      Received s tls data name (Some e) l s1 ->
      Step I s (EvGotData data) tls Go
        (mkSess (s_tx s1) (s_ctx s1) (s_tls s1) true (s_counts s1)
           (FTime (B "message") (n_laddr cn) :: FReply RpTempfail :: s_out s1))
  | St_msgrefused data tls name l s1 res c ans s2 :
      Received s tls data name None l s1 ->
      Decided I pMessage (mkEvt None data) name s1 true res c ans s2 ->
      Step I s (EvGotData data) tls Go (add_out [FTime (B "message") (n_laddr cn)] s2)
  | St_message data tls name l s1 res c ans s2 :
      Received s tls data name None l s1 ->
      Decided I pMessage (mkEvt None data) name s1 false res c ans s2 ->
      Step I s (EvGotData data) tls Go
        (mkSess (s_tx s2) (s_ctx s2) (s_tls s2) (s_got s2 || reaches (B "accepted")) (s_counts s2)
           (FTime (B "message") (n_laddr cn) :: FReply (accept_reply name (prop_of (s_ctx s2) (B "message"))) :: s_out s2))
  | St_tlserror tls n :
      Step I s EvTlsError tls Go
        (mkSess (s_tx s) (s_ctx s) (s_tls s) (s_got s) false
           (FEvent (B "starttls") :: FEvent (B "tlserrs") :: FNotls (BAdd (n_rip cn) tlsTimeout n) :: s_out s))
  | St_done tls : Step I s EvDone tls Finish (add_out [FEvent (B "quits")] s)
  | St_abort tls : Step I s EvAbort tls Finish (add_out [FEvent (B "aborts")] s)
  | St_other tls : Step I s EvOther tls Go s.

  Lemma Decided_ctx I ph e id s b res c ans s1 : Decided I ph e id s b res c ans s1 -> s_ctx s1 = c.
  Proof. intros []. reflexivity. Qed.

  Lemma tlsTryVerify_same t s r s' : tlsTryVerify E t s = Ok (r, s') -> s' = s.
  Proof.
    unfold tlsTryVerify. destruct (ts_chains t); [destruct (ts_peers t)|]; intros H; sinv H; auto.
  Qed.
  Lemma writeLog_idle I text s u s' : writeLog cn I text s = Ok (u, s') -> exists l, Forall idle l /\ s' = add_out l s.
  Proof.
    unfold writeLog, when_. destruct (si_log I); intros H; sinv H.
    - eexists [_]. split; [|reflexivity]. repeat constructor.
    - exists []. split; auto. destruct s; reflexivity.
  Qed.
  Lemma writeLog_chatter I text s u s' : writeLog cn I text s = Ok (u, s') -> exists l, Forall chatter l /\ s' = add_out l s.
  Proof.
    unfold writeLog, when_. destruct (si_log I); intros H; sinv H.
    - eexists [_]. split; [|reflexivity]. repeat constructor.
    - exists []. split; auto. destruct s; reflexivity.
  Qed.
  Lemma chatter_idle l : Forall chatter l -> Forall idle l.
  Proof. apply Forall_impl. intros []; simpl; tauto. Qed.
  Lemma tlsClientLog_chatter I t s u s' : tlsClientLog E cn I t s = Ok (u, s') -> exists l, Forall chatter l /\ s' = add_out l s.
  Proof.
    unfold tlsClientLog. destruct (ts_peers t); intros H.
    - sinv H. exists []. split; auto. destruct s; reflexivity.
    - apply sbind_ok in H as (err & s1 & H1 & H). apply tlsTryVerify_same in H1 as ->. eapply writeLog_chatter; eauto.
  Qed.
  Lemma tlsClientLog_idle I t s u s' : tlsClientLog E cn I t s = Ok (u, s') -> exists l, Forall idle l /\ s' = add_out l s.
  Proof.
    unfold tlsClientLog. destruct (ts_peers t); intros H.
    - sinv H. exists []. split; auto. destruct s; reflexivity.
    - apply sbind_ok in H as (err & s1 & H1 & H). apply tlsTryVerify_same in H1 as ->. eapply writeLog_idle; eauto.
  Qed.
  Lemma notePeer_spec tls s u s' : notePeer E tls s = Ok (u, s') ->
    exists p v, (p = match peer_cert tls with Some c => tlsName c | None => x_peer (s_tx s) end /\
        (ts_chains tls <> [] -> v = true) /\ (peer_cert tls = None -> v = x_verified (s_tx s)) /\ cert_good tls v) /\
      s' = upd_tx (put_peer p v) s.
  Proof.
    unfold notePeer, peer_cert, cert_good, tlsTryVerify. destruct (ts_chains tls) as [|[|c cs] ch] eqn:Ec; intros H.
    - destruct (ts_peers tls) as [|c cs] eqn:Ep.
      + sinv H. exists (x_peer (s_tx s)), (x_verified (s_tx s)). split; [split; [|split; [|split]]; auto; congruence|]. destruct s as [t]; unfold upd_tx. cbn. f_equal. destruct t; reflexivity.
      + apply sbind_ok in H as (err & s1 & H1 & H). apply sbind_ok in H1 as (i & s2 & H2 & H1). sapp index_ok H2. sinv H1. sinv H.
        eexists _, _. split; [|reflexivity]. split; [|split; [|split]]; try congruence. eexists. reflexivity.
    - discriminate.
    - sinv H. eexists _, _. split; [|reflexivity]. split; [|split; [|split]]; auto. discriminate.
  Qed.

  Lemma step_Step I ev tls s n s' : step K E cn I (ev, tls) s = Ok (n, s') -> Step I s ev tls n s'.
  Proof.
    unfold step. destruct ev as [cmd arg|arg|arg|arg|arg| | | |]; intros H.
    - (* HELO *)
      unfold onHelo in H. apply sbind_ok in H as (u & sa & H1 & H). unfold event in H1. sapp emit_ok H1.
      apply sbind_ok in H as (b & s1 & H1 & H). apply decider_Decided in H1 as (res & c & ans & HD).
      destruct b; [sinv H; eapply St_refused; [reflexivity|eassumption]|].
      apply sbind_ok in H as (u1 & sa & H1 & H). sapp uptx_ok H1.
      apply sbind_ok in H as (u1 & sa & H1 & H). sapp minphase_ok H1.
      apply sbind_ok in H as (u1 & sa & H1 & H). unfold event in H1. sapp emit_ok H1.
      apply sbind_ok in H as (on & sa & H1 & H). sapp @gettx_ok H1.
      apply sbind_ok in H as (u1 & s2 & H1 & H). sinv H.
      assert (Hl : exists l, Forall idle l /\
        tallies (rev l) = B "ehloAccept" :: (if ts_on tls && negb (x_tlson (s_tx s1)) then [B "tlson"; B "starttls"] else []) /\ s2 =
        (mkSess (put_tlson (x_tlson (s_tx s1) || ts_on tls) (put_rcptto [] (put_hashes [] [] (put_data [] (put_from [] (put_helo arg (s_tx s1)))))))
           (s_ctx s1) (s_tls s1) (s_got s1 || reaches (B "helo")) (s_counts s1) (l ++ s_out s1))).
      { cbn in H1. destruct (ts_on tls) eqn:Eon; [destruct (x_tlson (s_tx s1)) eqn:Et|]; cbn [andb negb orb when_] in *.
        - sinv H1. exists [FEvent (B "ehloAccept")]. split; [repeat constructor|]. split; [reflexivity|]. unfold add_out, upd_tx. cbn. f_equal.
          unfold put_tlson, put_rcptto. cbn. rewrite Et. reflexivity.
        - apply sbind_ok in H1 as (u & sa & H2 & H1). unfold event in H2. sapp emit_ok H2.
          apply sbind_ok in H1 as (u & sa & H2 & H1). unfold event in H2. sapp emit_ok H2.
          apply sbind_ok in H1 as (u & sa & H2 & H1). sapp uptx_ok H2.
          apply tlsClientLog_chatter in H1 as (l & Hl & ->). exists (l ++ [FEvent (B "starttls"); FEvent (B "tlson"); FEvent (B "ehloAccept")]).
          split; [apply Forall_app; split; [apply chatter_idle; auto|]; repeat constructor|].
          split; [rewrite rev_app_distr, tallies_app, (tallies_chatter (rev l)) by (apply Forall_rev; auto); reflexivity|]. unfold add_out, upd_tx. cbn. rewrite <- app_assoc. reflexivity.
        - sinv H1. exists [FEvent (B "ehloAccept")]. split; [repeat constructor|]. split; [reflexivity|]. unfold add_out, upd_tx. cbn. f_equal.
          unfold put_tlson, put_rcptto. cbn. rewrite orb_false_r. reflexivity. }
      clear H1. destruct Hl as (l & Hl & Htl & ->). eapply St_helo; eauto.
    - (* MAIL FROM *)
      unfold onMailFrom in H. apply sbind_ok in H as (u & sa & H1 & H). unfold event in H1. sapp emit_ok H1.
      apply sbind_ok in H as (b & s1 & H1 & H). apply decider_Decided in H1 as (res & c & ans & HD).
      destruct b; [sinv H; eapply St_refused; [reflexivity|eassumption]|].
      apply sbind_ok in H as (from & sa & H1 & H). sapp @gettx_ok H1.
      apply sbind_ok in H as (got & sa & H1 & H). sapp @sget_ok H1.
      apply sbind_ok in H as (counts & sa & H1 & H). sapp @sget_ok H1.
      apply sbind_ok in H as (drop & s2 & H1 & H).
      fold (retry s1) in H1.
      assert (Hd : if drop : bool then exists l n, retry s1 = true /\ (k_yakcount K < n)%Z /\ Forall idle l /\ tallies (rev l) = [B "yakads"; B "rsetdrops"] /\
                       s2 = add_out (FReply (RpTempfailMsg (B "Too many unsuccessful delivery attempts")) :: l ++
                  [FYak (BAdd (n_rip cn) (k_yakttl K) n); FEvent (B "rsets")]) s1
                   else exists l, s2 = add_out l s1 /\
                     if retry s1 then exists n, l = [FYak (BAdd (n_rip cn) (k_yakttl K) n); FEvent (B "rsets")] /\ (n <= k_yakcount K)%Z else l = []).
      { clear H HD. destruct (retry s1).
        - apply sbind_ok in H1 as (u & sa & H2 & H1). unfold event in H2. sapp emit_ok H2.
          apply sbind_ok in H1 as (cnt & sa & H2 & H1). unfold yakAdd in H2. cbn zeta in H2. sinv H2.
          set (k := v_count E _) in *. clearbody k. destruct (Z.ltb_spec (k_yakcount K) k) as [Hn|Hn].
          + apply sbind_ok in H1 as (u & sa & H2 & H1). unfold event in H2. sapp emit_ok H2.
            apply sbind_ok in H1 as (u & sa & H2 & H1). unfold event in H2. sapp emit_ok H2.
            apply sbind_ok in H1 as (u & sa & H2 & H1). apply writeLog_chatter in H2 as (l & Hl & ->).
            sinv H1. exists (l ++ [FEvent (B "rsetdrops"); FEvent (B "yakads")]), k. split; auto. split; auto.
            split; [apply Forall_app; split; [apply chatter_idle; auto|]; repeat constructor|].
            split; [rewrite rev_app_distr, tallies_app, (tallies_chatter (rev l)) by (apply Forall_rev; auto); reflexivity|].
            unfold add_out. cbn. rewrite <- !app_assoc. reflexivity.
          + sinv H1. eexists [_; _]. split; [reflexivity|]. eexists. split; [reflexivity|auto].
        - sinv H1. exists []. split; auto. destruct s1; reflexivity. }
      clear H1. destruct drop.
      + destruct Hd as (l & n' & Hr & Hn & Hl & Htl & ->). sinv H. eapply St_rset; eauto.
      + destruct Hd as (l & -> & Hl).
        apply sbind_ok in H as (u1 & sa & H1 & H). sapp uptx_ok H1.
        apply sbind_ok in H as (u1 & sa & H1 & H). sapp minphase_ok H1.
        apply sbind_ok in H as (u1 & sa & H1 & H). apply doAccept_spec in H1. sub1 H1.
        sinv H. exact (St_mail _ _ _ _ _ _ _ _ _ HD Hl).
    - (* RCPT TO *)
      unfold onRcptTo in H. apply sbind_ok in H as (u & sa & H1 & H). unfold event in H1. sapp emit_ok H1.
      apply sbind_ok in H as (b & s1 & H1 & H). apply decider_Decided in H1 as (res & c & ans & HD).
      destruct b; [sinv H; eapply St_refused; [reflexivity|eassumption]|].
      apply sbind_ok in H as (u1 & sa & H1 & H). sapp uptx_ok H1.
      apply sbind_ok in H as (u1 & sa & H1 & H). sapp minphase_ok H1.
      apply sbind_ok in H as (u1 & sa & H1 & H). apply doAccept_spec in H1. sub1 H1.
      sinv H. exact (St_rcpt _ _ _ _ _ _ _ _ HD).
    - (* DATA *)
      unfold onData in H. apply sbind_ok in H as (u & sa & H1 & H). unfold event in H1. sapp emit_ok H1.
      apply sbind_ok in H as (b & s1 & H1 & H). apply decider_Decided in H1 as (res & c & ans & HD).
      destruct b; [sinv H; eapply St_refused; [reflexivity|eassumption]|].
      apply sbind_ok in H as (u1 & sa & H1 & H). sapp minphase_ok H1.
      apply sbind_ok in H as (u1 & sa & H1 & H). apply doAccept_spec in H1. sub1 H1.
      sinv H. exact (St_data _ _ _ _ _ _ _ _ HD).
    - (* GOTDATA *)
      unfold onGotData in H. apply sbind_ok in H as (u & sa & H1 & H). unfold event in H1. sapp emit_ok H1.
      apply sbind_ok in H as (u1 & sa & H1 & H). sapp minphase_ok H1.
      apply sbind_ok in H as (i & sa & H1 & H). sapp index_ok H1.
      apply sbind_ok in H as (u1 & sa & H1 & H). sapp uptx_ok H1.
      apply sbind_ok in H as (u1 & sa & H1 & H). apply notePeer_spec in H1 as (p & v & Hpv & ->).
      apply sbind_ok in H as (u2 & sa & H1 & H). sapp uptx_ok H1.
      apply sbind_ok in H as ([name err] & s1 & H1 & H). apply handleMessage_spec in H1 as (name' & err' & l & [= <- <-] & -> & Hs).
      match type of Hs with (x_savedir (s_tx ?st) = [] /\ _) \/ _ => set (s1 := st) in *; set (t := s_tx s1) in * end.
      assert (Ht : message_tx tls (v_now E (S (length (s_out s)))) arg (s_tx s) t).
      { exists p, v. split; auto. split; [eexists; reflexivity|exact Hpv]. }
      assert (HR : Received s tls arg name err l
        (mkSess t (s_ctx s) (s_tls s) (s_got s || reaches (B "message")) (s_counts s)
           (l ++ (if k_msglog K then [FMsglog (logText cn t)] else []) ++ FEvent (B "messages") :: s_out s))).
      { eapply Rec; eauto. }
      assert (E1 : add_out (l ++ (if k_msglog K then [FMsglog (logText cn t)] else [])) s1 = mkSess t (s_ctx s) (s_tls s) (s_got s || reaches (B "message")) (s_counts s)
           (l ++ (if k_msglog K then [FMsglog (logText cn t)] else []) ++ FEvent (B "messages") :: s_out s)).
      { unfold s1, add_out, upd_tx. cbn [s_tx s_ctx s_tls s_got s_counts s_out]. rewrite <- app_assoc. reflexivity. }
      rewrite <- E1 in HR. clear E1 Ht Hs Hpv. clearbody t. clearbody s1. set (s4 := add_out _ s1) in *. clearbody s4.
      apply sbind_ok in H as (u3 & s2 & H1 & H). sinv H.
      destruct err as [e|].
      + sinv H1. exact (St_unsaved _ _ _ _ _ _ _ _ HR).
      + apply sbind_ok in H1 as (b & s3 & H2 & H1). apply decider_Decided in H2 as (res & c & ans & HD).
        destruct b.
        * sinv H1. exact (St_msgrefused _ _ _ _ _ _ _ _ _ _ _ HR HD).
        * apply sbind_ok in H1 as (u9 & sa & H2 & H1). sapp minphase_ok H2.
          apply doAccept_spec in H1. subst s2. exact (St_message _ _ _ _ _ _ _ _ _ _ _ HR HD).
    - unfold onTlsError, notlsAdd in H. sinv H. exact (St_tlserror _ _ _ _).
    - sinv H. apply St_done.
    - sinv H. apply St_abort.
    - sinv H. apply St_other.
  Qed.
End Proofs.
