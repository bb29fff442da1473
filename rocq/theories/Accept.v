(** C63: listeners, the main loop and the ids of connections
    (/repo/sinksmtp.go:1239-1246, 1696-1718). *)
From Coq Require Import Lia ZArith.
From Verif Require Import Bytes Message.

(** An accepted connection: which one it is (the how-manieth of the process) and
    its two addresses. *)
Record socket := mkSocket { a_serial : nat; a_raddr : bytes; a_laddr : bytes }.

(** Go's int on a 64-bit machine. *)
Definition wrap64 (z : Z) : Z := ((z + 2 ^ 63) mod 2 ^ 64 - 2 ^ 63)%Z.

(** All connections accepted so far (latest first); for every listener the
    connection it is about to send on listenc (sinksmtp.go:1243), if any; the
    variable cid of main; the sessions started (latest first), each with the cid
    given to process (sinksmtp.go:1715). *)
Record gate := mkGate { g_all : list socket; g_held : nat -> option socket; g_cid : Z; g_started : list (Z * socket) }.

Definition hold (f : nat -> option socket) (i : nat) (o : option socket) : nat -> option socket :=
  fun j => if Nat.eqb j i then o else f j.

(** sinksmtp.go:1710 *)
Definition gate0 : gate := mkGate [] (fun _ => None) 1 [].

(** One step of a process with [n] listeners.  The goroutines run in any order;
    the channel is unbuffered, so a listener is stuck with its connection until
    main takes it. *)
Inductive gstep (n : nat) (g : gate) : gate -> Prop :=
| GAccept i ra la : i < n -> g_held g i = None ->
    (* sinksmtp.go:1241-1243 *)
    gstep n g (mkGate (mkSocket (length (g_all g)) ra la :: g_all g)
                 (hold (g_held g) i (Some (mkSocket (length (g_all g)) ra la))) (g_cid g) (g_started g))
| GFail i : i < n -> g_held g i = None ->
    (* sinksmtp.go:1242: an error is ignored *)
    gstep n g g
| GStart i a : i < n -> g_held g i = Some a ->
    (* sinksmtp.go:1712-1716 *)
    gstep n g (mkGate (g_all g) (hold (g_held g) i None) (wrap64 (g_cid g + 1)) ((g_cid g, a) :: g_started g)).

Inductive gates (n : nat) : gate -> Prop :=
| Gs_start : gates n gate0
| Gs_step g g' : gates n g -> gstep n g g' -> gates n g'.

(** the connection that process works on (sinksmtp.go:871-886) *)
Definition conn_of (pid : nat) (x : Z * socket) : conn := mkConn pid (Z.to_nat (fst x)) (a_raddr (snd x)) (a_laddr (snd x)).

Lemma wrap64_small z : (- 2 ^ 63 <= z < 2 ^ 63)%Z -> wrap64 z = z.
Proof. intros H. unfold wrap64. rewrite Z.mod_small; lia. Qed.

Definition numbers (l : list (Z * socket)) : list Z := map fst (rev l).

Lemma gates_cids n g : gates n g -> (Z.of_nat (length (g_started g)) < 2 ^ 63 - 1)%Z ->
  numbers (g_started g) = map (fun k => Z.of_nat (S k)) (seq 0 (length (g_started g))) /\ g_cid g = Z.of_nat (S (length (g_started g))).
Proof.
  induction 1 as [|g g' HG IH HS]; intros Hlen; [split; reflexivity|]. destruct HS as [i ra la Hi Hh|i Hi Hh|i a Hi Hh]; cbn [g_started g_cid] in *; auto.
  cbn [length] in Hlen. destruct IH as [I1 I2]; [lia|]. split.
  - unfold numbers in *. cbn [rev length]. rewrite map_app, I1. cbn [map fst]. rewrite seq_S, map_app. cbn [map]. rewrite I2. reflexivity.
  - rewrite I2, wrap64_small; cbn [length]; lia.
Qed.

(** The connections of a process get the ids PID/1, PID/2, ... in the order in
    which their sessions are started. *)
Theorem C63_numbered n g pid : gates n g -> (Z.of_nat (length (g_started g)) < 2 ^ 63 - 1)%Z ->
  map (fun x => n_prefix (conn_of pid x)) (rev (g_started g)) = map (fun k => itoa pid ++ B "/" ++ itoa (S k)) (seq 0 (length (g_started g))).
Proof.
  intros HG Hl. destruct (gates_cids n g HG Hl) as [H _]. unfold numbers in H.
  transitivity (map (fun z => itoa pid ++ B "/" ++ itoa (Z.to_nat z)) (map fst (rev (g_started g)))); [rewrite map_map; reflexivity|].
  rewrite H, map_map. apply map_ext. intros k. rewrite Nat2Z.id. reflexivity.
Qed.

Lemma itoa_slash_inj pid a b : itoa pid ++ B "/" ++ itoa a = itoa pid ++ B "/" ++ itoa b -> a = b.
Proof. intros H. apply app_inv_head in H. apply app_inv_head in H. now apply itoa_inj. Qed.

(** No two connections of a process have the same id, whatever the number of
    listeners and the order of arrival. *)
Theorem C63_unique n g pid : gates n g -> (Z.of_nat (length (g_started g)) < 2 ^ 63 - 1)%Z ->
  NoDup (map (fun x => n_prefix (conn_of pid x)) (g_started g)).
Proof.
  intros HG Hl. rewrite <- (rev_involutive (map _ (g_started g))). apply NoDup_rev. rewrite <- map_rev, (C63_numbered n) by auto.
  generalize (length (g_started g)) at 1. intros k. generalize 0. induction k as [|k IH]; intros m; [constructor|]. cbn [seq map]. constructor; auto.
  rewrite in_map_iff. intros (j & Hj & Hin). apply itoa_slash_inj in Hj. apply in_seq in Hin. lia.
Qed.

(** Every accepted connection gets exactly one session, or is still with exactly
    one listener. *)
Definition held_by (g : gate) (i : nat) (a : socket) : Prop := g_held g i = Some a.
Theorem C63_each_once n g : gates n g ->
  NoDup (map snd (g_started g)) /\
  (forall a, In a (map snd (g_started g)) -> In a (g_all g) /\ forall i, ~ held_by g i a) /\
  (forall a, In a (g_all g) -> In a (map snd (g_started g)) \/ exists i, i < n /\ held_by g i a) /\
  (forall i j a, held_by g i a -> held_by g j a -> i = j) /\
  (forall i a, held_by g i a -> In a (g_all g)) /\ (forall a, In a (g_all g) -> a_serial a < length (g_all g)).
Proof.
  unfold held_by. induction 1 as [|g g' HG (I1 & I2 & I3 & I4 & I5 & I6) HS].
  { cbn. repeat split; try constructor; try contradiction; intros; discriminate. }
  destruct HS as [i ra la Hi Hh|i Hi Hh|i a Hi Hh]; cbn [g_started g_all g_held]; auto; unfold hold.
  - set (new := mkSocket (length (g_all g)) ra la).
    assert (Hnew : ~ In new (g_all g)) by (intros Hin; apply I6 in Hin; cbn in Hin; lia).
    assert (Hheld : forall j, g_held g j <> Some new) by (intros j Hj; apply Hnew; eauto).
    split; auto. split; [|split; [|split; [|split]]].
    + intros a Ha. destruct (I2 a Ha) as [A1 A2]. split; [now right|]. intros j Hj. destruct (Nat.eqb_spec j i); [injection Hj as <-; auto|]. eapply A2; eauto.
    + intros a [<-|Ha]; [right; exists i; rewrite Nat.eqb_refl; auto|]. destruct (I3 a Ha) as [A|(j & A1 & A2)]; [auto|].
      right. exists j. split; auto. destruct (Nat.eqb_spec j i); [congruence|auto].
    + intros j k a. destruct (Nat.eqb_spec j i) as [->|Ej], (Nat.eqb_spec k i) as [->|Ek]; intros A1 A2; auto.
      * injection A1 as <-. exfalso. eapply Hheld; eauto.
      * injection A2 as <-. exfalso. eapply Hheld; eauto.
      * eapply I4; eauto.
    + intros j a. destruct (Nat.eqb_spec j i); intros A; [injection A as <-; now left|right; eauto].
    + intros a [<-|Ha]; cbn [length]; [cbn; lia|]. apply I6 in Ha. lia.
  - repeat (split; auto).
  - split; [|split; [|split; [|split; [|split; auto]]]].
    + cbn [map snd]. constructor; auto. intros Hin. destruct (I2 a Hin) as [_ A]. eapply A; eauto.
    + cbn [map snd In]. intros b [<-|Hb].
      * split; [eauto|]. intros j. destruct (Nat.eqb_spec j i); [discriminate|]. intros Hj. apply n0. eapply I4; eauto.
      * destruct (I2 b Hb) as [A1 A2]. split; auto. intros j. destruct (Nat.eqb_spec j i); [discriminate|apply A2].
    + intros b Hb. cbn [map snd In]. destruct (I3 b Hb) as [A|(j & A1 & A2)]; [auto|]. destruct (Nat.eq_dec j i) as [->|E].
      * left. left. congruence.
      * right. exists j. split; auto. destruct (Nat.eqb_spec j i); [congruence|auto].
    + intros j k b. destruct (Nat.eqb_spec j i); [discriminate|]. destruct (Nat.eqb_spec k i); [discriminate|]. apply I4.
    + intros j b. destruct (Nat.eqb_spec j i); [discriminate|]. apply I5.
Qed.

(** Two listeners; the second connection is started first. *)
Example C63_example : exists g, gates 2 g /\ length (g_started g) = 2 /\
  map (fun x => (n_prefix (conn_of 7 x), a_raddr (snd x))) (rev (g_started g)) = [(B "7/1", B "192.0.2.2:1"); (B "7/2", B "192.0.2.1:1")].
Proof.
  eexists. split.
  - eapply Gs_step; [eapply Gs_step; [eapply Gs_step; [eapply Gs_step; [apply Gs_start|]|]|]|].
    + apply (GAccept 2 gate0 0 (B "192.0.2.1:1") (B "192.0.2.9:25")); [lia|reflexivity].
    + apply (GAccept 2 _ 1 (B "192.0.2.2:1") (B "192.0.2.9:26")); [lia|reflexivity].
    + eapply (GStart 2 _ 1); [lia|reflexivity].
    + eapply (GStart 2 _ 0); [lia|reflexivity].
  - split; reflexivity.
Qed.
