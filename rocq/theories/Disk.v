(** Concurrent sessions saving messages on one disk, and crashes (C44, C67). *)
From Verif Require Import PropsParse.
From Verif Require Import Bytes Outcome Lexer Ast GoNet Parser World Dns Eval Decisions RuleLoad PropsLoad ConnCfg PropsConn Message Session SessProofs Conv PropsEval PropsSession PropsSession2 DemoSession PropsYak Records.
From Coq Require Import Lia.

(** ** The disk *)

(** What happens to files, byte by byte.  A file is created only if there is
    none of that name (O_CREATE|O_EXCL, sinksmtp.go:661); nothing but the server
    changes the files. *)
Inductive mop := MCreate (p : bytes) | MSeen (p : bytes) | MByte (p : bytes) (b : ascii).
Definition disk := smap bytes.
Definition dstep (d : disk) (o : mop) : option disk :=
  match o, mget d (match o with MCreate p | MSeen p | MByte p _ => p end) with
  | MCreate p, None => Some (mset d p [])
  | MSeen _, Some _ => Some d
  | MByte p b, Some c => Some (mset d p (c ++ [b]))
  | _, _ => None
  end.
Fixpoint drun (d : disk) (l : list mop) : option disk :=
  match l with
  | [] => Some d
  | o :: l' => match dstep d o with Some d' => drun d' l' | None => None end
  end.

(** The file operations of a session (sinksmtp.go:661-680), in small steps.  A
    failing write has written some part of its data. *)
Definition micro (e : effect) : list mop :=
  match e with
  | FOpen p OpOk => [MCreate p]
  | FOpen p OpExists => [MSeen p]
  | FWrite p m WrOk => map (MByte p) m
  | FWrite p m (WrErr k _) => map (MByte p) (firstn k m)
  | _ => []
  end.
Definition micros (l : list effect) : list mop := flat_map micro l.

(** ** What a session has done so far, earliest first *)
Inductive Sofar (K : config) (E : senv) (cn : conn) : list effect -> Prop :=
| So_process evs b s : process K E cn evs (sess0 K) = Ok (b, s) -> Sofar K E cn (rev (s_out s))
  (* also when a decision about a message panics after it was saved *)
| So_message I h s tls data name err l s1 : Conv K E cn I h s -> Received K E cn s tls data name err l s1 -> Sofar K E cn (rev (s_out s1)).

(** Sessions interleave; at any moment of it, also that of a crash, each has
    done some first part of what it will do. *)
Record Interleaved (sessions : list (list effect)) (G : list (nat * mop)) : Prop := mkInterleaved {
  il_part : forall i l, nth_error sessions i = Some l -> exists later, map snd (filter (fun x => Nat.eqb (fst x) i) G) ++ later = micros l;
  il_who : forall x, In x G -> fst x < length sessions
}.
Definition server_sessions (K : config) (sessions : list (list effect)) : Prop := Forall (fun l => exists E cn, Sofar K E cn l) sessions.

(** ** Sessions write only what they have created *)

Definition isfile (e : effect) : bool := match e with FOpen _ _ | FWrite _ _ _ | FSync _ | FClose _ _ => true | _ => false end.
Inductive Blocks : list effect -> Prop :=
| Bl_nil : Blocks []
| Bl_exists p l : Blocks l -> Blocks (FOpen p OpExists :: l)
| Bl_err p e l : Blocks l -> Blocks (FOpen p (OpErr e) :: l)
| Bl_written p m w e l : Blocks l -> Blocks (FOpen p OpOk :: FWrite p m w :: FSync p :: FClose p e :: l).
Lemma Blocks_app a b : Blocks a -> Blocks b -> Blocks (a ++ b).
Proof. induction 1; cbn [app]; intros; auto; constructor; auto. Qed.

Lemma isfile_vis l : filter isfile (vis l) = filter isfile l.
Proof. induction l as [|e l IH]; auto. rewrite vis_cons. destruct e; cbn [visible filter isfile]; rewrite ?IH; auto. Qed.
Lemma isfile_idle l : Forall idle l -> filter isfile l = [].
Proof. intros H. rewrite <- isfile_vis, vis_idle by exact H. reflexivity. Qed.
Lemma isfile_chatter l : Forall chatter l -> filter isfile l = [].
Proof. intros H. rewrite <- isfile_vis, vis_chatter by exact H. reflexivity. Qed.
Lemma isfile_rev l : filter isfile (rev l) = rev (filter isfile l).
Proof. induction l as [|e l IH]; auto. cbn [rev]. rewrite filter_app, IH. cbn [filter]. destruct (isfile e); cbn [rev]; auto. apply app_nil_r. Qed.

Section S.
  Context (K : config) (E : senv) (cn : conn).

  Lemma Kept_blocks path m r l : Kept path m r l -> Blocks (filter isfile l).
  Proof. intros []; cbn; repeat constructor. Qed.

  Lemma setup_files o s : setup K E cn (sess0 K) = Ok (o, s) -> filter isfile (s_out s) = [].
  Proof.
    intros Hs. apply setup_Setup in Hs. destruct Hs as [rr hit n inf l1 l2 sname tr1 name certs tr2 l3 thit tn l4 rd tr0 refused res c ans s1 l5 _ _ _ _ _ L1 L2 L3 L4 L5 HD _].
    apply Decided_Judged in HD as (t & log & _ & HA & Hlog & _ & Ho). cbn [add_out s_out]. rewrite Ho, !filter_app, (isfile_idle _ L5), (isfile_chatter _ Hlog).
    assert (Ha : filter isfile ans = []) by (inversion HA; reflexivity). rewrite Ha. cbn [filter isfile app s_out].
    rewrite !filter_app, (isfile_idle _ L4). cbn [filter isfile app]. rewrite !filter_app, (isfile_idle _ L3), (isfile_idle _ L2). cbn [filter isfile app]. rewrite (isfile_idle _ L1). reflexivity.
  Qed.

  Lemma turn_files I h t n s s' : Turn K E cn I h t n s s' -> Blocks (filter isfile (t_did t)).
  Proof.
    intros HT. apply Turn_Did in HT. rewrite <- isfile_vis. destruct t as [ev tls did]. cbn [t_event t_tls t_did] in *. remember (vis did) as l0 eqn:El. clear El.
    destruct HT as [ev tls ph e res c t d s' Hc Hr HJ Hst|cmd arg tls res c t d s' Hr HJ Hst|arg tls res c t d n s' Hr HJ Hy Hn Hst
      |arg tls res c t d l s' Hr HJ Hl Hst|arg tls res c t d s' Hr HJ Hst|arg tls res c t d s' Hr HJ Hst
      |data tls when t name e save s' Hm Hd Hn Hk Hst|data tls when t name save res c t1 d got b r s' Hm Hk HJ Hb Hst|tls n s' Hst|ev tls s' He Hst|tls];
      try (cbn; constructor).
    - cbn [filter isfile]. rewrite filter_app. destruct (retry s); [destruct Hl as (n & -> & _)|subst l]; cbn; constructor.
    - rewrite !filter_app. apply Blocks_app; [destruct (k_msglog K); constructor|]. apply Blocks_app; [eapply Kept_blocks; eauto|constructor].
    - rewrite !filter_app. apply Blocks_app; [destruct (k_msglog K); constructor|]. apply Blocks_app; [|constructor].
      destruct Hk as [(_ & _ & ->)|(_ & _ & Hk)]; [constructor|eapply Kept_blocks; eauto].
  Qed.

  Lemma after_files did s s' : after did s s' -> filter isfile (rev (s_out s')) = filter isfile (rev (s_out s)) ++ filter isfile did.
  Proof. unfold after. intros ->. rewrite rev_app_distr, rev_involutive, filter_app. reflexivity. Qed.

  Lemma Conv_files I h s : Conv K E cn I h s -> Blocks (filter isfile (rev (s_out s))).
  Proof.
    induction 1 as [s Hs|h s ev tls s' did HC IH Hst Ha].
    - rewrite isfile_rev, (setup_files _ _ Hs). constructor.
    - rewrite (after_files _ _ _ Ha). apply Blocks_app; auto. apply (turn_files I h (mkTurn ev tls did) Go s s'). repeat split; auto.
  Qed.

  Lemma finish_files I s s' : finish K E cn I s = Ok (tt, s') -> filter isfile (rev (s_out s')) = filter isfile (rev (s_out s)).
  Proof.
    intros H. apply finish_spec in H as (l1 & l2 & Ha & Hl2 & HE). rewrite (after_files _ _ _ Ha), filter_app.
    assert (H2 : filter isfile l2 = []).
    { clear - Hl2. induction Hl2 as [|e l He _ IH]; auto. cbn [filter]. destruct e; cbn in He |- *; try destruct He; auto. }
    assert (Hlog : forall I x, filter isfile (smtplog_line cn I x) = []) by (intros J x; unfold smtplog_line; destruct (si_log J); reflexivity).
    assert (Hdn : forall x y, filter isfile (dn_line K cn x y) = []) by (intros x y; unfold dn_line; destruct (k_dnlog K); reflexivity).
    assert (H1 : filter isfile l1 = []).
    { destruct HE; cbn [filter isfile]; auto; match goal with |- context [if ?b then _ else _] => destruct b end; auto;
        rewrite !filter_app, Hlog, Hdn; reflexivity. }
    rewrite H1, H2. apply app_nil_r.
  Qed.

  Lemma Sofar_files l : Sofar K E cn l -> Blocks (filter isfile l).
  Proof.
    intros [evs b s H|I h s tls data name err l' s1 HC HR].
    - apply process_went in H.
      assert (Hh : forall s0, Blocks (filter isfile (rev (s_out s0))) -> Blocks (filter isfile (rev (s_out (add_out [FHangup] s0))))).
      { intros s0 H0. cbn [add_out s_out app rev]. rewrite filter_app. apply Blocks_app; auto. constructor. }
      assert (Ht : forall I h t n s s', Turn K E cn I h t n s s' -> Blocks (filter isfile (rev (s_out s')))).
      { intros I h t n s0 s1 HT. pose proof (turn_files _ _ _ _ _ _ HT) as Hf. destruct HT as (HC & _ & Ha). rewrite (after_files _ _ _ Ha).
        apply Blocks_app; auto. eapply Conv_files; eauto. }
      destruct H as [s Hs|I h s HC Hh'|I h s t rest s' HT Hh'|I h s t rest s1 s' HT Hh' HF].
      + apply Hh. rewrite isfile_rev, (setup_files _ _ Hs). constructor.
      + eapply Conv_files; eauto.
      + apply Hh. eapply Ht; eauto.
      + apply Hh. rewrite (finish_files _ _ _ HF). eapply Ht; eauto.
    - destruct HR as [when t name err l0 Hm Hk]. cbn [s_out]. rewrite !rev_app_distr. cbn [rev]. rewrite !filter_app, !isfile_rev.
      pose proof (Conv_files _ _ _ HC) as Hc. rewrite isfile_rev in Hc. rewrite <- app_assoc.
      cbn [filter isfile]. rewrite app_nil_r. apply Blocks_app; [exact Hc|].
      replace (filter isfile (if k_msglog K then [FMsglog (logText cn t)] else [])) with (@nil effect) by (destruct (k_msglog K); reflexivity). cbn [rev app].
      destruct Hk as [(_ & _ & _ & ->)|(_ & _ & Hk)]; [constructor|]. apply Saved_Kept in Hk. apply Kept_blocks in Hk. rewrite <- isfile_rev, <- isfile_vis. exact Hk.
  Qed.
End S.

(** ** Files *)

Definition prefix (a b : bytes) : Prop := exists c, a ++ c = b.
Definition creates (p : bytes) (l : list mop) : nat := length (filter (fun o => match o with MCreate q => beqb q p | _ => false end) l).
Definition written (p : bytes) (l : list mop) : bytes := flat_map (fun o => match o with MByte q b => if beqb q p then [b] else [] | _ => [] end) l.

Lemma creates_app p a b : creates p (a ++ b) = creates p a + creates p b.
Proof. unfold creates. rewrite filter_app, app_length. reflexivity. Qed.
Lemma written_app p a b : written p (a ++ b) = written p a ++ written p b.
Proof. apply flat_map_app. Qed.
Lemma micros_files l : micros (filter isfile l) = micros l.
Proof. induction l as [|e l IH]; auto. unfold micros in *. cbn [filter]. destruct e; cbn [isfile flat_map micro]; rewrite ?IH; auto. Qed.
Lemma written_bytes p q x : written p (map (MByte q) x) = if beqb q p then x else [].
Proof. unfold written. induction x as [|b x IH]; cbn [map flat_map]; [destruct (beqb q p); auto|]. rewrite IH. destruct (beqb q p); auto. Qed.
Lemma creates_bytes p q x : creates p (map (MByte q) x) = 0.
Proof. unfold creates. induction x; cbn; auto. Qed.

Lemma creates_one p q : creates p [MCreate q] = if beqb q p then 1 else 0.
Proof. unfold creates. cbn [filter]. destruct (beqb q p); reflexivity. Qed.
Lemma part_app {A} (x later a b : list A) : x ++ later = a ++ b -> (exists c, x ++ c = a /\ later = c ++ b) \/ exists y, x = a ++ y /\ y ++ later = b.
Proof.
  revert a. induction x as [|e x IH]; intros a H; [left; exists a; auto|].
  destruct a as [|f a]; [right; exists (e :: x); auto|]. cbn in H. injection H as <- H. apply IH in H as [(c & <- & ->)|(y & -> & H)]; [left; exists c; auto|right; exists y; auto].
Qed.
Lemma part_map {A B} (f : A -> B) x c (l : list A) : x ++ c = map f l -> exists a b, x = map f a /\ l = a ++ b.
Proof.
  revert l. induction x as [|e x IH]; intros l H; [exists [], l; auto|]. destruct l as [|y l]; [discriminate|]. cbn in H. injection H as -> H.
  apply IH in H as (a & b & -> & ->). exists (y :: a), b. auto.
Qed.

(** What a first part of a session's operations writes to a file. *)
Lemma Blocks_part l p : Blocks l -> forall x later, x ++ later = micros l ->
  (creates p x = 0 -> written p x = []) /\
  (creates p x = 1 -> exists m w, In (FWrite p m w) l /\ prefix (written p x) m /\ (later = [] -> w = WrOk -> written p x = m)).
Proof.
  assert (Hsingle : forall o l, (forall b, o <> MByte p b) -> (o <> MCreate p) ->
    (forall x later, x ++ later = micros l ->
       (creates p x = 0 -> written p x = []) /\
       (creates p x = 1 -> exists m w, In (FWrite p m w) l /\ prefix (written p x) m /\ (later = [] -> w = WrOk -> written p x = m))) ->
    forall x later, x ++ later = o :: micros l ->
       (creates p x = 0 -> written p x = []) /\
       (creates p x = 1 -> exists m w, In (FWrite p m w) l /\ prefix (written p x) m /\ (later = [] -> w = WrOk -> written p x = m))).
  { intros o l0 Hb Hc IH x later Hx. destruct x as [|o' x]; [split; [auto|discriminate]|]. cbn in Hx. injection Hx as -> Hx.
    destruct (IH _ _ Hx) as (H0 & H1). change (o :: x) with ([o] ++ x). rewrite creates_app, written_app.
    assert (Hco : creates p [o] = 0) by (destruct o; cbn; auto; destruct (beqb_spec p0 p); [congruence|reflexivity]).
    assert (Hwo : written p [o] = []) by (destruct o; cbn; auto; destruct (beqb_spec p0 p) as [->|]; [destruct (Hb b); reflexivity|reflexivity]).
    rewrite Hco, Hwo. auto. }
  induction 1 as [|q l HB IH|q e l HB IH|q m w e l HB IH]; intros x later Hx.
  - destruct x; [|discriminate]. split; [auto|discriminate].
  - cbn in Hx. apply (Hsingle (MSeen q) l) in Hx; [|discriminate|discriminate|exact IH]. destruct Hx as (H0 & H1). split; auto.
    intros H. destruct (H1 H) as (m & w & Hi & Hr). exists m, w. split; [right; exact Hi|exact Hr].
  - cbn in Hx. destruct (IH _ _ Hx) as (H0 & H1). split; auto. intros H. destruct (H1 H) as (m & w & Hi & Hr). exists m, w. split; [right; exact Hi|exact Hr].
  - set (m' := match w with WrOk => m | WrErr k _ => firstn k m end).
    assert (Hm : micros (FOpen q OpOk :: FWrite q m w :: FSync q :: FClose q e :: l) = MCreate q :: map (MByte q) m' ++ micros l) by (subst m'; destruct w; reflexivity).
    assert (Hpre : prefix m' m) by (subst m'; destruct w; [exists []; apply app_nil_r|exists (skipn n m); apply firstn_skipn]).
    assert (Hok : w = WrOk -> m' = m) by (intros ->; reflexivity).
    rewrite Hm in Hx. clear Hm. clearbody m'. destruct x as [|o x]; [split; [auto|discriminate]|]. cbn [app] in Hx. injection Hx as -> Hx.
    change (MCreate q :: x) with ([MCreate q] ++ x). rewrite creates_app, written_app. change (written p [MCreate q]) with (@nil ascii). cbn [app].
    apply part_app in Hx as [(c & Hx & Hl)|(y & -> & Hx)].
    + destruct (part_map _ _ _ _ Hx) as (a & b & -> & Em). rewrite creates_bytes, written_bytes. rewrite creates_one.
      destruct (beqb_spec q p) as [->|Hne]; cbn [plus].
      * split; [discriminate|]. intros _. exists m, w. split; [right; left; reflexivity|]. split.
        -- destruct Hpre as (r & <-). exists (b ++ r). rewrite app_assoc, <- Em. reflexivity.
        -- intros -> Hw. destruct c; [|discriminate Hl]. rewrite app_nil_r in Hx. rewrite <- (Hok Hw). apply (f_equal (written p)) in Hx. rewrite !written_bytes, beqb_refl in Hx. exact Hx.
      * split; [auto|discriminate].
    + rewrite creates_app, written_app, creates_bytes, written_bytes. destruct (IH _ _ Hx) as (H0 & H1). rewrite creates_one.
      destruct (beqb_spec q p) as [->|Hne]; cbn [plus].
      * split; [discriminate|]. intros Hc. rewrite H0 by (injection Hc; auto). rewrite app_nil_r. exists m, w. split; [right; left; reflexivity|]. auto.
      * split; auto. intros Hc. destruct (H1 Hc) as (m2 & w2 & Hi & Hr). exists m2, w2. split; [right; right; right; right; exact Hi|exact Hr].
Qed.

(** What running does to the number of creations and the contents. *)
Lemma drun_file l p : forall d d', drun d l = Some d' ->
  match mget d p with
  | Some c => creates p l = 0 /\ mget d' p = Some (c ++ written p l)
  | None => (creates p l = 0 /\ written p l = [] /\ mget d' p = None) \/ (creates p l = 1 /\ mget d' p = Some (written p l))
  end.
Proof.
  induction l as [|o l IH]; intros d d' H.
  - injection H as <-. destruct (mget d p); [rewrite app_nil_r; auto|left; auto].
  - cbn [drun] in H. destruct (dstep d o) as [d1|] eqn:E; [|discriminate]. specialize (IH _ _ H).
    change (o :: l) with ([o] ++ l). rewrite creates_app, written_app. unfold dstep in E. destruct o as [q|q|q b].
    + destruct (mget d q) eqn:Eq; [discriminate|]. injection E as <-. rewrite creates_one. change (written p [MCreate q]) with (@nil ascii). cbn [app].
      destruct (beqb_spec q p) as [->|Hne].
      * rewrite mget_mset_same in IH. rewrite Eq. destruct IH as (-> & ->). right. auto.
      * rewrite mget_mset_other in IH by congruence. exact IH.
    + destruct (mget d q) eqn:Eq; [|discriminate]. injection E as <-. exact IH.
    + destruct (mget d q) as [c|] eqn:Eq; [|discriminate]. injection E as <-. change (creates p [MByte q b]) with 0.
      change (written p [MByte q b]) with (written p (map (MByte q) [b])). rewrite written_bytes. cbn [plus].
      destruct (beqb_spec q p) as [->|Hne].
      * rewrite mget_mset_same in IH. rewrite Eq. destruct IH as (-> & ->). rewrite <- app_assoc. auto.
      * rewrite mget_mset_other in IH by congruence. exact IH.
Qed.

(** ** Many sessions *)

Definition of (i : nat) (G : list (nat * mop)) : list mop := map snd (filter (fun x => Nat.eqb (fst x) i) G).
Lemma of_app i a b : of i (a ++ b) = of i a ++ of i b.
Proof. unfold of. rewrite filter_app, map_app. reflexivity. Qed.
Lemma creates_of i p G : creates p (of i G) <= creates p (map snd G).
Proof.
  induction G as [|[j o] G IH]; [cbn; auto|]. change ((j, o) :: G) with ([(j, o)] ++ G). rewrite of_app, map_app, !creates_app.
  unfold of at 1. cbn [filter fst]. destruct (Nat.eqb j i); cbn [map snd]; [lia|]. cbn. lia.
Qed.
Lemma creates_none p G : creates p G = 0 <-> ~ In (MCreate p) G.
Proof.
  unfold creates. induction G as [|o G IH]; [cbn; tauto|]. cbn [filter In]. destruct o; try (rewrite IH; intuition discriminate).
  destruct (beqb_spec p0 p) as [->|Hne]; cbn [length]; [split; [discriminate|tauto]|rewrite IH; intuition congruence].
Qed.
Lemma creates_some p G : creates p G <> 0 -> In (MCreate p) G.
Proof.
  unfold creates. destruct (filter _ G) as [|o l] eqn:E; [cbn; congruence|]. intros _.
  assert (Hin : In o (filter (fun o => match o with MCreate q => beqb q p | _ => false end) G)) by (rewrite E; left; reflexivity).
  apply filter_In in Hin as (Hin & Ho). destruct o; try discriminate. apply beqb_eq in Ho. subst. exact Hin.
Qed.
Lemma written_nil p G : written p G = [] <-> forall b, ~ In (MByte p b) G.
Proof.
  unfold written. induction G as [|o G IH]; [cbn; tauto|]. cbn [flat_map In]. destruct o; cbn [app]; try (rewrite IH; split; [intros H b' [?|H2]; [discriminate|eapply H; eauto]|intros H b' H2; eapply H; right; eauto]).
  destruct (beqb_spec p0 p) as [->|Hne]; cbn [app].
  - split; [discriminate|]. intros H. destruct (H b). auto.
  - rewrite IH. split; [intros H b' [?|H2]; [congruence|eapply H; eauto]|intros H b' H2; eapply H; right; eauto].
Qed.
Lemma In_of i o G : In (i, o) G -> In o (of i G).
Proof. intros H. unfold of. apply in_map_iff. exists (i, o). split; auto. apply filter_In. split; auto. apply Nat.eqb_refl. Qed.
Lemma of_In i o G : In o (of i G) -> In (i, o) G.
Proof. unfold of. intros H. apply in_map_iff in H as ([j o'] & <- & H). apply filter_In in H as (H & E). cbn in E. apply Nat.eqb_eq in E. subst. exact H. Qed.
Lemma written_of i p G : (forall j b, In (j, MByte p b) G -> j = i) -> written p (map snd G) = written p (of i G).
Proof.
  induction G as [|[j o] G IH]; intros H; auto. change ((j, o) :: G) with ([(j, o)] ++ G). rewrite of_app, map_app, !written_app, IH; [|intros; eapply H; right; eauto].
  f_equal. unfold of. cbn [filter fst map snd]. destruct (Nat.eqb_spec j i) as [->|Hne]; [reflexivity|]. cbn [map].
  destruct o; cbn; auto. destruct (beqb_spec p0 p) as [->|]; [|reflexivity]. destruct Hne. eapply H. left. reflexivity.
Qed.

Section Server.
  Context (K : config) (sessions : list (list effect)) (G : list (nat * mop)) (d0 d : disk).
  Hypothesis (HS : server_sessions K sessions) (HI : Interleaved sessions G) (HR : drun d0 (map snd G) = Some d).

  Lemma session_part i o : In (i, o) G -> exists l later, nth_error sessions i = Some l /\ Blocks (filter isfile l) /\ of i G ++ later = micros (filter isfile l).
  Proof.
    intros Hin. pose proof (il_who _ _ HI _ Hin) as Hi. cbn in Hi. destruct (nth_error sessions i) as [l|] eqn:El; [|apply nth_error_None in El; lia].
    destruct (il_part _ _ HI _ _ El) as (later & Hl). exists l, later. split; auto. unfold server_sessions in HS. rewrite Forall_forall in HS.
    destruct (HS l) as (E & cn & Hs); [eapply nth_error_In; eauto|]. split; [eapply Sofar_files; eauto|]. rewrite micros_files. exact Hl.
  Qed.
  (** writes are to files the same session has created *)
  Lemma writer_created i p b : In (i, MByte p b) G -> 1 <= creates p (of i G).
  Proof.
    intros Hin. destruct (session_part _ _ Hin) as (l & later & _ & HB & Hl). destruct (Blocks_part _ p HB _ _ Hl) as (H0 & _).
    destruct (creates p (of i G)); [|lia]. specialize (H0 eq_refl). rewrite written_nil in H0. destruct (H0 b). apply In_of. exact Hin.
  Qed.

  (** A file that was there is never changed. *)
  Theorem C44_unchanged p c : mget d0 p = Some c -> mget d p = Some c.
  Proof.
    intros Hp. pose proof (drun_file _ p _ _ HR) as H. rewrite Hp in H. destruct H as (Hc & ->). f_equal.
    replace (written p (map snd G)) with (@nil ascii); [apply app_nil_r|]. symmetry. apply written_nil. intros b Hb.
    apply in_map_iff in Hb as ([i o] & Ho & Hin). cbn in Ho. subst o. pose proof (writer_created _ _ _ Hin). pose proof (creates_of i p G). lia.
  Qed.

  (** A new file holds a first part of a record some session writes to it, and
      all of it once that session is done with what it does. *)
  Theorem C44_prefix p c : mget d0 p = None -> mget d p = Some c ->
    exists i l m w, nth_error sessions i = Some l /\ In (FWrite p m w) l /\ prefix c m /\
      (of i G = micros l -> w = WrOk -> c = m).
  Proof.
    intros Hp Hd. pose proof (drun_file _ p _ _ HR) as H. rewrite Hp in H. destruct H as [(_ & _ & H)|(Hc & H)]; [congruence|].
    rewrite Hd in H. injection H as ->.
    assert (Hcr : exists i, In (i, MCreate p) G).
    { assert (Hin : In (MCreate p) (map snd G)) by (apply creates_some; rewrite Hc; discriminate).
      apply in_map_iff in Hin as ([i o] & Ho & Hin). cbn in Ho. subst. eauto. }
    destruct Hcr as (i & Hcr). destruct (session_part _ _ Hcr) as (l & later & Hl & HB & Hpart).
    assert (Hci : creates p (of i G) = 1).
    { pose proof (creates_of i p G). assert (creates p (of i G) <> 0); [|lia]. rewrite creates_none. intros Hn. apply Hn. apply In_of. exact Hcr. }
    destruct (Blocks_part _ p HB _ _ Hpart) as (_ & H1). destruct (H1 Hci) as (m & w & Hw & Hpre & Hall).
    assert (Hof : written p (map snd G) = written p (of i G)).
    { apply written_of. intros j b Hj. pose proof (writer_created _ _ _ Hj) as Hcj. destruct (Nat.eq_dec j i) as [|Hne]; auto. exfalso.
      assert (Hsum : forall H, creates p (of i H) + creates p (of j H) <= creates p (map snd H)).
      { induction H as [|[k o] H IHH]; [cbn; auto|]. change ((k, o) :: H) with ([(k, o)] ++ H). rewrite !of_app, map_app, !creates_app.
        assert (Ho : creates p (of i [(k, o)]) + creates p (of j [(k, o)]) <= creates p (map snd [(k, o)])); [|lia].
        unfold of. cbn [filter fst]. destruct (Nat.eqb_spec k i) as [Ei|], (Nat.eqb_spec k j) as [Ej|]; cbn [map snd]; try congruence; cbn; lia. }
      specialize (Hsum G). lia. }
    exists i, l, m, w. split; auto. split; [apply filter_In in Hw; tauto|]. rewrite Hof. split; auto. intros Ho Hwr. apply Hall; auto.
    rewrite micros_files, <- Ho in Hpart. rewrite <- (app_nil_r (of i G)) in Hpart at 2. apply app_inv_head in Hpart. exact Hpart.
  Qed.
End Server.

(** ** What the records are *)

Definition Recorded (K : config) (E : senv) (cn : conn) (m : bytes) : Prop :=
  exists I h s tls when data t, Conv K E cn I h s /\ message_tx E tls when data (s_tx s) t /\ m = record_of E cn t.

Lemma turn_recorded K E cn I h t n s s' path m w : Turn K E cn I h t n s s' -> In (FWrite path m w) (t_did t) -> Recorded K E cn m.
Proof.
  intros HT Hin. pose proof (Turn_Did _ _ _ _ _ _ _ _ _ HT) as HD. destruct HT as (HC & _). rewrite <- In_vis in Hin by reflexivity.
  assert (Hsave : forall path' m' r save, Kept path' m' r save -> In (FWrite path m w) save -> m = m').
  { intros path' m' r save Hk Hi. destruct Hk; cbn in Hi; intuition congruence. }
  destruct t as [ev tls did]. cbn [t_event t_tls t_did] in *. remember (vis did) as l0 eqn:El. clear El.
  destruct HD as [ev tls ph e res c t d s' Hc Hr HJ Hst|cmd arg tls res c t d s' Hr HJ Hst|arg tls res c t d n s' Hr HJ Hy Hn Hst
    |arg tls res c t d l s' Hr HJ Hl Hst|arg tls res c t d s' Hr HJ Hst|arg tls res c t d s' Hr HJ Hst
    |data tls when t name e save s' Hm Hd Hn Hk Hst|data tls when t name save res c t1 d got b r s' Hm Hk HJ Hb Hst|tls n s' Hst|ev tls s' He Hst|tls];
    try (exfalso; cbn in Hin; intuition discriminate).
  - exfalso. destruct Hin as [Hin|Hin]; [discriminate|]. apply in_app_or in Hin as [Hin|Hin]; [|cbn in Hin; intuition discriminate].
    destruct (retry s); [destruct Hl as (n & -> & _)|subst l]; cbn in Hin; intuition discriminate.
  - apply in_app_or in Hin as [Hin|Hin]; [destruct (k_msglog K); cbn in Hin; intuition discriminate|].
    apply in_app_or in Hin as [Hin|Hin]; [|cbn in Hin; intuition discriminate]. exists I, h, s, tls, when, data, t. eauto.
  - apply in_app_or in Hin as [Hin|Hin]; [destruct (k_msglog K); cbn in Hin; intuition discriminate|].
    apply in_app_or in Hin as [Hin|Hin]; [|cbn in Hin; intuition discriminate].
    destruct Hk as [(_ & _ & ->)|(_ & _ & Hk)]; [destruct Hin|]. exists I, h, s, tls, when, data, t. eauto.
Qed.
Lemma Conv_recorded K E cn I h s path m w : Conv K E cn I h s -> In (FWrite path m w) (s_out s) -> Recorded K E cn m.
Proof.
  induction 1 as [s Hs|h s ev tls s' did HC IH Hst Ha]; intros Hin.
  - exfalso. assert (Hf : In (FWrite path m w) (filter isfile (s_out s))) by (apply filter_In; auto). rewrite (setup_files _ _ _ _ _ Hs) in Hf. destruct Hf.
  - unfold after in Ha. rewrite Ha in Hin. apply in_app_or in Hin as [Hin|Hin]; auto. rewrite <- in_rev in Hin.
    apply (turn_recorded K E cn I h (mkTurn ev tls did) Go s s' path m w); auto. repeat split; auto.
Qed.
Lemma Sofar_recorded K E cn l path m w : Sofar K E cn l -> In (FWrite path m w) l -> Recorded K E cn m.
Proof.
  intros [evs b s H|I h s tls data name err l' s1 HC HR] Hin; rewrite <- in_rev in Hin.
  - apply process_went in H.
    assert (Ht : forall I h t n s s', Turn K E cn I h t n s s' -> In (FWrite path m w) (s_out s') -> Recorded K E cn m).
    { intros I h t n s0 s1 HT Hi. pose proof HT as (HC & _ & Ha). unfold after in Ha. rewrite Ha in Hi. apply in_app_or in Hi as [Hi|Hi].
      - rewrite <- in_rev in Hi. eapply turn_recorded; eauto.
      - eapply Conv_recorded; eauto. }
    destruct H as [s Hs|I h s HC Hh'|I h s t rest s' HT Hh'|I h s t rest s1 s' HT Hh' HF].
    + exfalso. destruct Hin as [Hin|Hin]; [discriminate|]. assert (Hf : In (FWrite path m w) (filter isfile (s_out s))) by (apply filter_In; auto).
      rewrite (setup_files _ _ _ _ _ Hs) in Hf. destruct Hf.
    + eapply Conv_recorded; eauto.
    + destruct Hin as [Hin|Hin]; [discriminate|]. eapply Ht; eauto.
    + destruct Hin as [Hin|Hin]; [discriminate|]. eapply Ht; [exact HT|].
      assert (Hf : In (FWrite path m w) (filter isfile (rev (s_out s')))) by (apply filter_In; split; auto; rewrite <- in_rev; exact Hin).
      rewrite (finish_files _ _ _ _ _ _ HF) in Hf. apply filter_In in Hf as (Hf & _). rewrite <- in_rev in Hf. exact Hf.
  - destruct HR as [when t name err l0 Hm Hk]. cbn [s_out] in Hin. apply in_app_or in Hin as [Hin|Hin].
    + destruct Hk as [(_ & _ & _ & ->)|(_ & _ & Hk)]; [destruct Hin|]. apply Saved_Kept in Hk.
      assert (Hv : In (FWrite path m w) (vis (rev l0))) by (apply In_vis; [reflexivity|]; rewrite <- in_rev; exact Hin).
      exists I, h, s, tls, when, data, t. split; auto. split; auto.
      assert (Hsave : forall path' m' r save, Kept path' m' r save -> In (FWrite path m w) save -> m = m').
      { intros path' m' r save Hk' Hi. destruct Hk'; cbn in Hi; intuition congruence. }
      eapply Hsave; eauto.
    + apply in_app_or in Hin as [Hin|Hin]; [destruct (k_msglog K); cbn in Hin; intuition discriminate|].
      destruct Hin as [Hin|Hin]; [discriminate|]. eapply Conv_recorded; eauto.
Qed.
(** A record names the accepted sender and recipients and ends with the message. *)
Theorem C44_record K E cn m : Recorded K E cn m -> exists I h s data header hash bodyhash, Conv K E cn I h s /\
  m = header ++ B "from <" ++ sender h ++ B ">" ++ [ch_nl] ++
      concat (map (fun a => B "to <" ++ a ++ B ">" ++ [ch_nl]) (recipients h)) ++
      B "hash " ++ hash ++ B " bytes " ++ itoa (length data) ++ [ch_nl] ++
      B "bodyhash " ++ bodyhash ++ [ch_nl] ++ B "body" ++ [ch_nl] ++ data.
Proof.
  intros (I & h & s & tls & when & data & t & HC & Hm & ->). pose proof (Conv_envelope _ _ _ _ _ _ HC) as (E1 & E2 & _).
  apply message_tx_env in Hm as (M1 & M2 & _ & _ & M5 & _).
  exists I, h, s, data, (idLine cn t ++ (B "remote " ++ (if beqb (n_rip cn) [] then n_raddr cn else n_rip cn) ++ B " to " ++ n_laddr cn ++
        B " with helo '" ++ x_helo t ++ B "'" ++ [ch_nl]) ++ writeDNSList (B "remote-dns") (rd_verified (x_rdns t)) ++
        writeDNSList (B "remote-dns-nofwd") (rd_nofwd (x_rdns t)) ++ writeDNSList (B "remote-dns-inconsist") (rd_inconsist (x_rdns t)) ++
        tlsLine t), (x_hash t), (x_bodyhash t). split; auto.
  unfold record_of, msgDetails, metaText. cbn [fst]. rewrite M1, M2, M5, E1, E2. rewrite <- !app_assoc. reflexivity.
Qed.

(** C44: at every moment of every interleaving, files that were there are
    unchanged and new ones hold a first part of the record of a message. *)
Theorem C44_disk K sessions G d0 d p : server_sessions K sessions -> Interleaved sessions G -> drun d0 (map snd G) = Some d ->
  match mget d0 p with
  | Some c => mget d p = Some c
  | None => forall c, mget d p = Some c -> exists E cn m, Recorded K E cn m /\ prefix c m
  end.
Proof.
  intros HS HI HR. destruct (mget d0 p) as [c|] eqn:E0; [eapply C44_unchanged; eauto|].
  intros c Hc. destruct (C44_prefix _ _ _ _ _ HS HI HR _ _ E0 Hc) as (i & l & m & w & Hl & Hw & Hp & _).
  unfold server_sessions in HS. rewrite Forall_forall in HS. destruct (HS l) as (E & cn & Hso); [eapply nth_error_In; eauto|].
  exists E, cn, m. split; auto. eapply Sofar_recorded; eauto.
Qed.

(** ** Accepted messages are on disk *)

Lemma dstep_present d o d' p : dstep d o = Some d' -> mget d p <> None -> mget d' p <> None.
Proof.
  unfold dstep. destruct o as [q|q|q b]; destruct (mget d q) eqn:E; intros H; try discriminate; injection H as <-; auto; rewrite mget_mset; destruct (beqb p q); auto; discriminate.
Qed.
Lemma drun_present l p : forall d d', drun d l = Some d' -> mget d p <> None \/ In (MCreate p) l \/ In (MSeen p) l -> mget d' p <> None.
Proof.
  induction l as [|o l IH]; intros d d' H Hp; cbn [drun In] in *.
  - injection H as <-. tauto.
  - destruct (dstep d o) as [d1|] eqn:E; [|discriminate]. apply (IH _ _ H). destruct Hp as [Hp|[[->|Hp]|[->|Hp]]]; auto; left.
    + eapply dstep_present; eauto.
    + unfold dstep in E. destruct (mget d p); [discriminate|]. injection E as <-. rewrite mget_mset_same. discriminate.
    + unfold dstep in E. destruct (mget d p) eqn:Ep; [|discriminate]. injection E as <-. congruence.
Qed.

(** If no write has failed, then when all sessions have done what they do,
    every file that a session created or found holds what was there before or
    all of the record some session wrote to it.  (Not proved: that it is
    so when the reply is given, or with failing writes, which is false.) *)
Theorem C67_without_faults K sessions G d0 d i l p r : server_sessions K sessions -> Interleaved sessions G -> drun d0 (map snd G) = Some d ->
  (forall j k, nth_error sessions j = Some k -> of j G = micros k) ->
  (forall k q m n e, In k sessions -> ~ In (FWrite q m (WrErr n e)) k) ->
  nth_error sessions i = Some l -> In (FOpen p r) l -> r = OpOk \/ r = OpExists ->
  (exists c, mget d0 p = Some c /\ mget d p = Some c) \/
  (exists j k m, nth_error sessions j = Some k /\ In (FWrite p m WrOk) k /\ mget d p = Some m).
Proof.
  intros HS HI HR Hall Hok Hi Hin Hr.
  assert (Hp : mget d p <> None).
  { eapply drun_present; [exact HR|]. right.
    assert (Ho : forall o, In o (micro (FOpen p r)) -> In o (map snd G)).
    { intros o Ho. assert (Hm : In o (of i G)) by (rewrite (Hall _ _ Hi); apply in_flat_map; eauto). apply of_In in Hm. apply in_map_iff. exists (i, o). auto. }
    destruct Hr as [->| ->]; [left|right]; apply Ho; left; reflexivity. }
  destruct (mget d p) as [c|] eqn:Ed; [|congruence]. destruct (mget d0 p) as [c0|] eqn:E0.
  - left. exists c0. split; auto. rewrite <- Ed. eapply C44_unchanged; eauto.
  - right. destruct (C44_prefix _ _ _ _ _ HS HI HR _ _ E0 Ed) as (j & k & m & w & Hk & Hw & _ & Hc). exists j, k, m.
    assert (w = WrOk) by (destruct w; auto; edestruct Hok; eauto using nth_error_In). subst w. rewrite <- (Hc (Hall _ _ Hk) eq_refl). rewrite (Hc (Hall _ _ Hk) eq_refl). auto.
Qed.

(** ** Examples *)

Lemma session_example K E cn evs {A} (f : list effect -> A) (v : A) :
  match process K E cn evs (sess0 K) with Ok (_, s) => Some (f (rev (s_out s))) | _ => None end = Some v -> exists l, Sofar K E cn l /\ f l = v.
Proof.
  intros H. destruct (process K E cn evs (sess0 K)) as [[b s]| |] eqn:Ep; try discriminate H. exists (rev (s_out s)). split; [eapply So_process; eauto|congruence].
Qed.
Local Definition msg_cfg : config := mkConfig (B "/save") (B "msg") (B "helo") 0 100 (B "me") [] false [] demo_rules true false true [B "c"].
Local Definition hello : list (sevent * tlsstate) := plain (demo_mail ++ [EvGotData (B "Hello")]).
Local Definition record1 : list mop := map (MByte (B "/save/HHello")) (B "id 7/1 192.").

(** While one session has written a few bytes another finds the file; an older
    file is there. *)
Example C44_example : exists sessions G d, server_sessions msg_cfg sessions /\ Interleaved sessions G /\
  drun [(B "/save/old", B "old")] (map snd G) = Some d /\ map fst G = [0; 0; 1; 0] /\
  d = [(B "/save/old", B "old"); (B "/save/HHello", B "id")].
Proof.
  destruct (session_example msg_cfg (demo_files OpOk WrOk None) demo_conn hello (fun l => firstn 3 (micros l)) (MCreate (B "/save/HHello") :: map (MByte (B "/save/HHello")) (B "id")))
    as (l1 & S1 & M1); [vm_compute; reflexivity|].
  destruct (session_example msg_cfg (demo_files OpExists WrOk None) demo_conn hello micros [MSeen (B "/save/HHello")]) as (l2 & S2 & M2); [vm_compute; reflexivity|].
  exists [l1; l2], [(0, MCreate (B "/save/HHello")); (0, MByte (B "/save/HHello") "i"); (1, MSeen (B "/save/HHello")); (0, MByte (B "/save/HHello") "d")],
    [(B "/save/old", B "old"); (B "/save/HHello", B "id")].
  split; [repeat constructor; eauto|]. split; [constructor|].
  - intros [|[|[|i]]] l H; cbn in H; try discriminate; injection H as <-.
    + exists (skipn 3 (micros l1)). rewrite <- (firstn_skipn 3 (micros l1)) at 2. rewrite M1. reflexivity.
    + exists []. rewrite M2. reflexivity.
  - intros x H. cbn in H. repeat (destruct H as [<-|H]; [cbn; lia|]). destruct H.
  - repeat split; vm_compute; reflexivity.
Qed.

(** Saving fails half-way (the disk is full) and the client is told to come
    back; when it does, the file that is there counts as the message saved and
    the message is accepted, though the file does not even reach the message. *)
Theorem C67_refuted : exists K sessions G d l0 l p c r, server_sessions K sessions /\ Interleaved sessions G /\
  (forall j k, nth_error sessions j = Some k -> of j G = micros k) /\ drun [] (map snd G) = Some d /\
  nth_error sessions 0 = Some l0 /\ rclass (last (replies l0) RpReject) = 4 /\
  nth_error sessions 1 = Some l /\ In (FOpen p OpExists) l /\ last (replies l) RpReject = r /\ rclass r = 2 /\
  mget d p = Some c /\ read_record c = None.
Proof.
  destruct (session_example msg_cfg (demo_files OpOk (WrErr 11 (B "full")) (Some (B "full"))) demo_conn hello (fun l => (micros l, rclass (last (replies l) RpReject)))
    (MCreate (B "/save/HHello") :: record1, 4)) as (l1 & S1 & M1); [vm_compute; reflexivity|].
  destruct (session_example msg_cfg (demo_files OpExists WrOk None) demo_conn hello
    (fun l => (micros l, last (replies l) RpReject, flat_map (fun e => match e with FOpen p r => [(p, r)] | _ => [] end) l))
    ([MSeen (B "/save/HHello")], RpAcceptData (B "HHello"), [(B "/save/HHello", OpExists)])) as (l2 & S2 & M2); [vm_compute; reflexivity|].
  pose proof (f_equal fst M1) as A1. pose proof (f_equal snd M1) as A0. pose proof (f_equal (fun x => fst (fst x)) M2) as A2. pose proof (f_equal (fun x => snd (fst x)) M2) as A3. pose proof (f_equal snd M2) as A4.
  cbn [fst snd] in A0, A1, A2, A3, A4. clear M1 M2.
  exists msg_cfg, [l1; l2], (map (pair 0) (MCreate (B "/save/HHello") :: record1) ++ [(1, MSeen (B "/save/HHello"))]), [(B "/save/HHello", B "id 7/1 192.")], l1, l2, (B "/save/HHello"), (B "id 7/1 192."), (RpAcceptData (B "HHello")).
  assert (Hof : forall j k, nth_error [l1; l2] j = Some k -> of j (map (pair 0) (MCreate (B "/save/HHello") :: record1) ++ [(1, MSeen (B "/save/HHello"))]) = micros k).
  { intros [|[|[|j]]] k H; cbn in H; try discriminate; injection H as <-; rewrite ?A1, ?A2; vm_compute; reflexivity. }
  split; [repeat constructor; eauto|]. split; [constructor|].
  - intros i k H. exists []. rewrite app_nil_r. apply Hof. exact H.
  - intros x H. apply in_app_or in H as [H|[<-|[]]]; [|cbn; lia]. apply in_map_iff in H as (o & <- & _). cbn. lia.
  - split; [exact Hof|]. split; [vm_compute; reflexivity|]. split; [reflexivity|]. split; [exact A0|]. split; [reflexivity|]. split.
    { assert (Hin : In (B "/save/HHello", OpExists) (flat_map (fun e => match e with FOpen p r => [(p, r)] | _ => [] end) l2)) by (rewrite A4; left; reflexivity).
      apply in_flat_map in Hin as (e & He & Hin). destruct e; try (destruct Hin; fail). destruct Hin as [Hin|[]]. pose proof (f_equal fst Hin) as F1. pose proof (f_equal snd Hin) as F2. cbn [fst snd] in F1, F2. rewrite <- F1, <- F2. exact He. }
    split; [exact A3|]. repeat split; vm_compute; reflexivity.
Qed.
