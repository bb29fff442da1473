(** C49-C51, C55, C65: the shared state. *)
From Coq Require Import Relations Sorted.
From Verif Require Import Bytes Shared.
Local Open Scope Z_scope.

(** ** C50 *)

(** the number of operations of some kind *)
Definition num (p : ipop * ipres -> bool) (h : list (ipop * ipres)) : nat := length (filter p h).
Definition is_add (x : ipop * ipres) : bool := match x with (OAdd (_ :: _) _ _ _, _) => true | _ => false end.
Definition is_set (x : ipop * ipres) : bool := match x with (OSet (_ :: _) _ _ _ _, _) => true | _ => false end.
Definition is_lookup (x : ipop * ipres) : bool := match x with (OLookup _ _ _, _) => true | _ => false end.
Definition is_hit (x : ipop * ipres) : bool := match x with (OLookup _ _ _, RFound true _) => true | _ => false end.

Record stats_le (a b : ipstats) : Prop := mkLe {
  le_adds : (s_adds a <= s_adds b)%nat; le_new : (s_addsnew a <= s_addsnew b)%nat;
  le_exp : (s_addsexpired a <= s_addsexpired b)%nat; le_dels : (s_dels a <= s_dels b)%nat;
  le_sets : (s_sets a <= s_sets b)%nat; le_look : (s_lookup a <= s_lookup b)%nat;
  le_hit : (s_lookuphit a <= s_lookuphit b)%nat; le_lexp : (s_lookupexpired a <= s_lookupexpired b)%nat
}.

Lemma mset_length {V} (m : smap V) k v : length (mset m k v) = match mget m k with None => S (length m) | Some _ => length m end.
Proof.
  induction m as [|[k' v'] m IH]; cbn [mset mget]; auto. destruct (beqb k k'); cbn [length]; auto. rewrite IH. destruct (mget m k); auto.
Qed.
Lemma mdel_none {V} (m : smap V) k : ~ In k (mkeys m) -> mdel m k = m.
Proof.
  induction m as [|[k' v'] m IH]; cbn [mdel mkeys map fst]; auto. intros H. destruct (beqb_spec k k') as [->|N].
  - exfalso. apply H. now left.
  - f_equal. apply IH. intros A. apply H. now right.
Qed.
Lemma mdel_length {V} (m : smap V) k v : NoDup (mkeys m) -> mget m k = Some v -> S (length (mdel m k)) = length m.
Proof.
  induction m as [|[k' v'] m IH]; cbn [mdel mget mkeys map fst]; [discriminate|]. intros H E. inversion H; subst.
  destruct (beqb_spec k k') as [->|N]; cbn [length]; [|rewrite IH; auto]. now rewrite mdel_none.
Qed.

Record ip_inv (h : list (ipop * ipres)) (m : ipmap) : Prop := mkInv {
  ii_nodup : NoDup (mkeys (im_ips m));
  ii_noname : mget (im_ips m) [] = None;
  ii_size : (length (im_ips m) + s_dels (im_stats m) + s_lookupexpired (im_stats m) = s_addsnew (im_stats m))%nat;
  ii_adds : s_adds (im_stats m) = num is_add h;
  ii_sets : s_sets (im_stats m) = num is_set h;
  ii_look : s_lookup (im_stats m) = num is_lookup h;
  ii_hit : s_lookuphit (im_stats m) = num is_hit h
}.

Lemma ip_entry_new ips ip ttl t1 cnt new exp : ip_entry ips ip ttl t1 = (cnt, new, exp) ->
  new = match mget ips ip with None => 1%nat | Some _ => 0%nat end.
Proof. unfold ip_entry. destruct (mget ips ip); [destruct (Z.leb _ _)|]; intros E; injection E; auto. Qed.

Lemma ip_inv_hist h m : ip_hist h m -> ip_inv h m.
Proof.
  induction 1 as [|h m o r m' _ IH E]; [constructor; try reflexivity; constructor|].
  destruct IH as [I1 I2 I3 I4 I5 I6 I7], m as [ips s]. cbn [im_ips im_stats] in *.
  destruct o as [[|c ip] ttl t1 t2|[|c ip] ttl t1 t2 cnt|[|c ip]|ip ttl t|]; cbn [ip_do ip_add ip_set ip_del] in E.
  - injection E as <- <-. constructor; auto.
  - unfold im_ips, im_stats in E. destruct (ip_entry ips (c :: ip) ttl t1) as [[k new] exp] eqn:Ee.
    pose proof (ip_entry_new _ _ _ _ _ _ _ Ee) as Hn. injection E as <- <-.
    constructor; cbn [im_ips im_stats s_dels s_lookupexpired s_addsnew s_adds s_sets s_lookup s_lookuphit]; auto.
    + now apply mset_NoDup.
    + now rewrite mget_mset_other.
    + rewrite mset_length. destruct (mget ips (c :: ip)); lia.
    + unfold num. cbn. unfold num in I4. lia.
  - injection E as <- <-. constructor; auto.
  - unfold im_ips, im_stats in E. destruct (ip_entry ips (c :: ip) ttl t1) as [[k new] exp] eqn:Ee.
    pose proof (ip_entry_new _ _ _ _ _ _ _ Ee) as Hn. injection E as <- <-.
    constructor; cbn [im_ips im_stats s_dels s_lookupexpired s_addsnew s_adds s_sets s_lookup s_lookuphit]; auto.
    + now apply mset_NoDup.
    + now rewrite mget_mset_other.
    + rewrite mset_length. destruct (mget ips (c :: ip)); lia.
    + unfold num. cbn. unfold num in I5. lia.
  - injection E as <- <-. constructor; auto.
  - cbn [im_ips im_stats] in E. destruct (mget ips (c :: ip)) as [e|] eqn:Eg; injection E as <- <-; [|constructor; auto].
    constructor; cbn [im_ips im_stats s_dels s_lookupexpired s_addsnew s_adds s_sets s_lookup s_lookuphit]; auto.
    + now apply mdel_NoDup.
    + rewrite mget_mdel. destruct (beqb [] (c :: ip)); auto.
    + pose proof (mdel_length ips (c :: ip) e I1 Eg). lia.
  - unfold ip_lookup in E. cbn [im_ips im_stats] in E. destruct (mget ips ip) as [e|] eqn:Eg; [destruct (Z.ltb _ _)|]; injection E as <- <-;
      constructor; cbn [im_ips im_stats s_dels s_lookupexpired s_addsnew s_adds s_sets s_lookup s_lookuphit]; auto;
      try (unfold num; cbn; unfold num in I6, I7; lia).
    + now apply mdel_NoDup.
    + rewrite mget_mdel. destruct (beqb [] ip); auto.
    + pose proof (mdel_length ips ip e I1 Eg). lia.
  - injection E as <- <-. constructor; auto.
Qed.

(** The number of entries is that of the additions of new ones less deletions
    and expired lookups, and that of the counters which count operations is
    right. *)
Theorem C50_bookkeeping h m : ip_hist h m ->
  NoDup (mkeys (im_ips m)) /\
  (length (mkeys (im_ips m)) + s_dels (im_stats m) + s_lookupexpired (im_stats m) = s_addsnew (im_stats m))%nat /\
  s_adds (im_stats m) = num is_add h /\ s_sets (im_stats m) = num is_set h /\
  s_lookup (im_stats m) = num is_lookup h /\ s_lookuphit (im_stats m) = num is_hit h.
Proof. intros H. destruct (ip_inv_hist h m H). unfold mkeys. rewrite map_length. auto 10. Qed.

(** The size reported is the number of entries. *)
Theorem C50_reported_size h m s : ip_hist ((OStats, RStats s) :: h) m ->
  s_size s = length (mkeys (im_ips m)) /\ s = im_stats m.
Proof.
  intros H. inversion H as [|? ? ? ? ? _ E]; subst. cbn in E. injection E as <- <-. unfold mkeys. rewrite map_length. auto.
Qed.

(** An empty address is never stored. *)
Theorem C50_no_empty_address h m : ip_hist h m -> ~ In [] (mkeys (im_ips m)).
Proof. intros H. apply mget_None. apply (ii_noname _ _ (ip_inv_hist h m H)). Qed.

(** Adding or setting it has no effect and gives 0. *)
Theorem C50_empty_ignored h m r ttl t1 t2 c : ip_hist ((OAdd [] ttl t1 t2, r) :: h) m \/ ip_hist ((OSet [] ttl t1 t2 c, r) :: h) m ->
  r = RCount 0 /\ ip_hist h m.
Proof. intros [H|H]; inversion H as [|? m0 ? ? ? Hh E]; subst; cbn in E; injection E as <- <-; auto. Qed.

(** Counters never go backwards. *)
Theorem C50_monotone h1 h2 m1 m2 : ip_hist h1 m1 -> ip_hist (h2 ++ h1) m2 -> stats_le (im_stats m1) (im_stats m2).
Proof.
  intros H1. revert m2. induction h2 as [|x h2 IH]; intros m2 H2.
  - assert (E : forall h m, ip_hist h m -> forall m', ip_hist h m' -> m' = m).
    { clear. induction 1 as [|h m o r m' H IH E]; intros m3 H3; inversion H3 as [|? m4 ? ? ? H4 E4]; subst; auto. rewrite (IH _ H4) in E4. congruence. }
    rewrite (E _ _ H1 _ H2). constructor; auto.
  - cbn [app] in H2. inversion H2 as [|? m ? ? ? Hh E]; subst. specialize (IH m Hh).
    assert (HS : stats_le (im_stats m) (im_stats m2)).
    { clear -E. destruct m as [ips s]. destruct o as [[|c ip] ttl t1 t2|[|c ip] ttl t1 t2 cnt|[|c ip]|ip ttl t|]; cbn [ip_do ip_add ip_set ip_del] in E.
      - injection E as <- <-. constructor; auto.
      - destruct (ip_entry _ (c :: ip) ttl t1) as [[k new] exp]. injection E as <- <-. constructor; cbn; lia.
      - injection E as <- <-. constructor; auto.
      - destruct (ip_entry _ (c :: ip) ttl t1) as [[k new] exp]. injection E as <- <-. constructor; cbn; lia.
      - injection E as <- <-. constructor; auto.
      - destruct (mget _ _); injection E as <- <-; constructor; cbn; lia.
      - unfold ip_lookup in E. destruct (mget _ _); [destruct (Z.ltb _ _)|]; injection E as <- <-; constructor; cbn; lia.
      - injection E as <- <-. constructor; cbn; lia. }
    destruct IH, HS. constructor; lia.
Qed.

(** ** C49 *)

(** The operation [x] puts the count of [ip] to [n] at time [w]. *)
Definition puts (ip : bytes) (x : ipop * ipres) (n w : Z) : Prop :=
  ip <> [] /\
  ((exists ttl t1, x = (OAdd ip ttl t1 w, RCount n)) \/ (exists ttl t1 r, x = (OSet ip ttl t1 w n, r))).
(** It takes the address off the list: success, or found to be expired. *)
Definition clears (ip : bytes) (x : ipop * ipres) : Prop :=
  (exists r, x = (ODel ip, r)) \/ (exists ttl t n, x = (OLookup ip ttl t, RFound false n)).
Definition changes (ip : bytes) (x : ipop * ipres) : Prop := (exists n w, puts ip x n w) \/ clears ip x.

(** After [h], [ip] is on the list, with the count [n] put at time [w]. *)
Definition Standing (h : list (ipop * ipres)) (ip : bytes) (n w : Z) : Prop :=
  exists later x earlier, h = later ++ x :: earlier /\ puts ip x n w /\ forall y, In y later -> ~ changes ip y.

Lemma Standing_put x h ip n w n' w' : puts ip x n w -> (Standing (x :: h) ip n' w' <-> n' = n /\ w' = w).
Proof.
  intros Hp. split.
  - intros ([|y later] & z & earlier & E & Hz & Hn); injection E as <- E.
    + destruct Hp as [_ [(?&?&->)|(?&?&?&->)]], Hz as [_ [(?&?&Ez)|(?&?&?&Ez)]]; inversion Ez; subst; auto.
    + exfalso. apply (Hn x (or_introl eq_refl)). left. eauto.
  - intros [-> ->]. exists [], x, h. repeat split; try apply Hp. intros y [].
Qed.
Lemma Standing_clear x h ip n w : clears ip x -> ~ Standing (x :: h) ip n w.
Proof.
  intros Hc ([|y later] & z & earlier & E & Hz & Hn); injection E as <- E.
  - destruct Hc as [(?&->)|(?&?&?&->)], Hz as [_ [(?&?&Ez)|(?&?&?&Ez)]]; inversion Ez.
  - apply (Hn x (or_introl eq_refl)). now right.
Qed.
Lemma Standing_other x h ip n w : ~ changes ip x -> (Standing (x :: h) ip n w <-> Standing h ip n w).
Proof.
  intros Hc. split.
  - intros ([|y later] & z & earlier & E & Hz & Hn); injection E as <- E.
    + exfalso. apply Hc. left. eauto.
    + exists later, z, earlier. split; auto. split; auto. intros y Hy. apply Hn. now right.
  - intros (later & z & earlier & -> & Hz & Hn). exists (x :: later), z, earlier. split; auto. split; auto. intros y [<-|Hy]; auto.
Qed.

Lemma not_changes ip x : (forall n w, ~ puts ip x n w) -> ~ clears ip x -> ~ changes ip x.
Proof. intros H1 H2 [(n & w & H)|H]; [eapply H1; eauto|auto]. Qed.

Lemma standing_inv h m : ip_hist h m -> forall ip n w, mget (im_ips m) ip = Some (mkEnt w n) <-> Standing h ip n w.
Proof.
  induction 1 as [|h m o r m' Hh IH E]; intros ip n w.
  - split; [discriminate|]. intros (later & x & earlier & E & _). destruct later; discriminate.
  - assert (HO : forall ip', (forall n w, ~ puts ip' (o, r) n w) -> ~ clears ip' (o, r) -> im_ips m' = im_ips m ->
      (mget (im_ips m') ip' = Some (mkEnt w n) <-> Standing ((o, r) :: h) ip' n w)).
    { intros ip' A1 A2 A3. rewrite A3, Standing_other; [apply IH|]. now apply not_changes. }
    destruct o as [[|c ip1] ttl t1 t2|[|c ip1] ttl t1 t2 cnt|[|c ip1]|ip1 ttl t|]; cbn [ip_do ip_add ip_set ip_del] in E.
    + injection E as <- <-. apply HO; auto.
      * intros n' w' [A [(?&?&Ez)|(?&?&?&Ez)]]; inversion Ez; subst; auto.
      * intros [(?&Ez)|(?&?&?&Ez)]; inversion Ez.
    + destruct (ip_entry _ (c :: ip1) ttl t1) as [[k new] exp] eqn:Ee. injection E as <- <-. cbn [im_ips].
      rewrite mget_mset. destruct (beqb_spec ip (c :: ip1)) as [->|N].
      * rewrite (Standing_put _ _ _ (k + 1) t2); [|split; [discriminate|left; eauto]].
        split; [intros Ez; injection Ez; auto|intros [-> ->]; reflexivity].
      * rewrite Standing_other; [apply IH|]. apply not_changes.
        -- intros n' w' [A [(?&?&Ez)|(?&?&?&Ez)]]; inversion Ez; subst; auto.
        -- intros [(?&Ez)|(?&?&?&Ez)]; inversion Ez.
    + injection E as <- <-. apply HO; auto.
      * intros n' w' [A [(?&?&Ez)|(?&?&?&Ez)]]; inversion Ez; subst; auto.
      * intros [(?&Ez)|(?&?&?&Ez)]; inversion Ez.
    + destruct (ip_entry _ (c :: ip1) ttl t1) as [[k new] exp] eqn:Ee. injection E as <- <-. cbn [im_ips].
      rewrite mget_mset. destruct (beqb_spec ip (c :: ip1)) as [->|N].
      * rewrite (Standing_put _ _ _ cnt t2); [|split; [discriminate|right; eauto]].
        split; [intros Ez; injection Ez; auto|intros [-> ->]; reflexivity].
      * rewrite Standing_other; [apply IH|]. apply not_changes.
        -- intros n' w' [A [(?&?&Ez)|(?&?&?&Ez)]]; inversion Ez; subst; auto.
        -- intros [(?&Ez)|(?&?&?&Ez)]; inversion Ez.
    + injection E as <- <-. destruct ip as [|c ip].
      * split; [intros A; rewrite (ii_noname _ _ (ip_inv_hist _ _ Hh)) in A; discriminate|].
        intros A. exfalso. eapply Standing_clear; [|exact A]. left. eauto.
      * apply HO; auto.
        -- intros n' w' [A [(?&?&Ez)|(?&?&?&Ez)]]; inversion Ez.
        -- intros [(?&Ez)|(?&?&?&Ez)]; inversion Ez.
    + assert (Em : r = RNone /\ im_ips m' = mdel (im_ips m) (c :: ip1)).
      { destruct (mget (im_ips m) (c :: ip1)) eqn:Eg; injection E as <- <-; split; auto. rewrite mdel_none; auto. now apply mget_None. }
      destruct Em as [-> ->]. rewrite mget_mdel. destruct (beqb_spec ip (c :: ip1)) as [->|N].
      * split; [discriminate|]. intros A. exfalso. eapply Standing_clear; [|exact A]. left. eauto.
      * rewrite Standing_other; [apply IH|]. apply not_changes.
        -- intros n' w' [A [(?&?&Ez)|(?&?&?&Ez)]]; inversion Ez.
        -- intros [(?&Ez)|(?&?&?&Ez)]; inversion Ez; subst; auto.
    + unfold ip_lookup in E. destruct (mget (im_ips m) ip1) as [e|] eqn:Eg; [destruct (Z.ltb _ _) eqn:El|]; injection E as <- <-; cbn [im_ips].
      * apply HO; auto.
        -- intros n' w' [A [(?&?&Ez)|(?&?&?&Ez)]]; inversion Ez.
        -- intros [(?&Ez)|(?&?&?&Ez)]; inversion Ez.
      * rewrite mget_mdel. destruct (beqb_spec ip ip1) as [->|N].
        -- split; [discriminate|]. intros A. exfalso. eapply Standing_clear; [|exact A]. right. eauto.
        -- rewrite Standing_other; [apply IH|]. apply not_changes.
           ++ intros n' w' [A [(?&?&Ez)|(?&?&?&Ez)]]; inversion Ez.
           ++ intros [(?&Ez)|(?&?&?&Ez)]; inversion Ez; subst; auto.
      * destruct (beqb_spec ip ip1) as [->|N].
        -- split; [rewrite Eg; discriminate|]. intros A. exfalso. eapply Standing_clear; [|exact A]. right. eauto.
        -- rewrite Standing_other; [apply IH|]. apply not_changes.
           ++ intros n' w' [A [(?&?&Ez)|(?&?&?&Ez)]]; inversion Ez.
           ++ intros [(?&Ez)|(?&?&?&Ez)]; inversion Ez; subst; auto.
    + injection E as <- <-. apply HO; auto.
      * intros n' w' [A [(?&?&Ez)|(?&?&?&Ez)]]; inversion Ez.
      * intros [(?&Ez)|(?&?&?&Ez)]; inversion Ez.
Qed.

Lemma Standing_unique h m ip n w n' w' : ip_hist h m -> Standing h ip n w -> Standing h ip n' w' -> n' = n /\ w' = w.
Proof.
  intros H A1 A2. apply (standing_inv h m H) in A1, A2. rewrite A1 in A2. injection A2. auto.
Qed.

(** An address is found exactly if it is on the list, put there less than the
    given time ago. *)
Theorem C49_lookup h m ip ttl t b n : ip_hist ((OLookup ip ttl t, RFound b n) :: h) m ->
  (b = true <-> exists w, Standing h ip n w /\ t - w < ttl) /\ (b = false -> n = 0).
Proof.
  intros H. inversion H as [|? m0 ? ? ? Hh E]; subst. cbn [ip_do] in E. unfold ip_lookup in E.
  pose proof (standing_inv h m0 Hh ip) as HS.
  destruct (mget (im_ips m0) ip) as [[w0 n0]|]; [cbn [ie_when ie_count] in E; destruct (Z.ltb_spec (t - w0) ttl)|]; injection E as <- <- <-; split; try discriminate; auto.
  - split; auto. intros _. exists w0. split; auto. now apply HS.
  - split; [discriminate|]. intros (w & A & L). apply HS in A. injection A as -> ->. cbn [ie_when] in *. lia.
  - split; [discriminate|]. intros (w & A & L). apply HS in A. discriminate.
Qed.

(** The count becomes one more than the standing one, if that is less than the
    given time old, else one. *)
Theorem C49_add h m ip ttl t1 t2 n : ip_hist ((OAdd ip ttl t1 t2, RCount n) :: h) m -> ip <> [] ->
  (exists k w, Standing h ip k w /\ t1 - w < ttl /\ n = k + 1) \/
  ((forall k w, Standing h ip k w -> ttl <= t1 - w) /\ n = 1).
Proof.
  intros H Hip. inversion H as [|? m0 ? ? ? Hh E]; subst. destruct ip as [|c ip]; [congruence|]. cbn [ip_do ip_add] in E. unfold ip_entry in E.
  pose proof (standing_inv h m0 Hh (c :: ip)) as HS.
  destruct (mget (im_ips m0) (c :: ip)) as [[w0 n0]|]; [destruct (Z.leb_spec ttl (t1 - ie_when {| ie_when := w0; ie_count := n0 |}))|]; injection E as <- <-;
    cbn [ie_when ie_count] in *.
  - right. split; [|lia]. intros k w A. apply HS in A. injection A as -> ->. auto.
  - left. exists n0, w0. split; [now apply HS|]. split; auto.
  - right. split; [|lia]. intros k w A. apply HS in A. discriminate.
Qed.

(** Setting an address gives the standing count before, if that is less than the
    given time old, else 0. *)
Theorem C49_set h m ip ttl t1 t2 c n : ip_hist ((OSet ip ttl t1 t2 c, RCount n) :: h) m -> ip <> [] ->
  (exists w, Standing h ip n w /\ t1 - w < ttl) \/ ((forall k w, Standing h ip k w -> ttl <= t1 - w) /\ n = 0).
Proof.
  intros H Hip. inversion H as [|? m0 ? ? ? Hh E]; subst. destruct ip as [|x ip]; [congruence|]. cbn [ip_do ip_set] in E. unfold ip_entry in E.
  pose proof (standing_inv h m0 Hh (x :: ip)) as HS.
  destruct (mget (im_ips m0) (x :: ip)) as [[w0 n0]|]; [destruct (Z.leb_spec ttl (t1 - ie_when {| ie_when := w0; ie_count := n0 |}))|]; injection E as <- <-;
    cbn [ie_when ie_count] in *.
  - right. split; [|lia]. intros k w A. apply HS in A. injection A as -> ->. auto.
  - left. exists w0. split; [now apply HS|]. auto.
  - right. split; [|lia]. intros k w A. apply HS in A. discriminate.
Qed.

(** [seg] (latest first) is an unbroken series of do-nothing sessions of [ip]:
    it starts with one; the address is not taken off the list or put on it by
    force; and the time between two sessions is less than the limit. *)
Definition adds (ip : bytes) (x : ipop * ipres) : bool :=
  match x with (OAdd ip' _ _ _, _) => beqb ip' ip | _ => false end.
Record Series (ip : bytes) (seg : list (ipop * ipres)) : Prop := mkSeries {
  se_quiet : forall x, In x seg -> ~ clears ip x /\ (forall ttl t1 t2 c r, x <> (OSet ip ttl t1 t2 c, r));
  se_close : forall s1 ttl t1 t2 r s2 ttl' t1' t2' r' s3,
    seg = s1 ++ (OAdd ip ttl t1 t2, r) :: s2 ++ (OAdd ip ttl' t1' t2', r') :: s3 ->
    (forall x, In x s2 -> adds ip x = false) -> t1 - t2' < ttl
}.
(** It starts afresh: the count standing before, if any, is too old. *)
Definition Afresh (ip : bytes) (seg old : list (ipop * ipres)) : Prop :=
  exists s ttl t1 t2 r, seg = s ++ [(OAdd ip ttl t1 t2, r)] /\ forall k w, Standing old ip k w -> ttl <= t1 - w.

Lemma hist_app h2 h1 m : ip_hist (h2 ++ h1) m -> exists m1, ip_hist h1 m1.
Proof. revert m. induction h2 as [|x h2 IH]; intros m H; [eauto|]. inversion H; subst. eauto. Qed.

Definition count_of (x : ipop * ipres) : Z := match snd x with RCount n => n | _ => 0 end.

(** the last addition of a series stands *)
Lemma Series_standing ip seg old m : ip <> [] -> ip_hist (seg ++ old) m -> Series ip seg ->
  forall s1 ttl t1 t2 n s2, seg = s1 ++ (OAdd ip ttl t1 t2, RCount n) :: s2 -> (forall x, In x s1 -> adds ip x = false) ->
  Standing (seg ++ old) ip n t2.
Proof.
  intros Hip _ [HQ _] s1 ttl t1 t2 n s2 E Hs. exists s1, (OAdd ip ttl t1 t2, RCount n), (s2 ++ old).
  split; [rewrite E, <- app_assoc; reflexivity|]. split; [split; eauto|]. intros y Hy.
  destruct (HQ y) as [Q1 Q2]; [rewrite E; apply in_or_app; auto|].
  apply not_changes; auto. intros n' w' [_ [(a&b&->)|(a&b&r&->)]]; [|eapply Q2; reflexivity].
  specialize (Hs _ Hy). cbn in Hs. rewrite beqb_refl in Hs. discriminate.
Qed.

Lemma Series_tail ip x seg : Series ip (x :: seg) -> Series ip seg.
Proof.
  intros [H1 H2]. constructor.
  - intros y Hy. apply H1. now right.
  - intros s1 ttl t1 t2 r s2 ttl' t1' t2' r' s3 E. apply (H2 (x :: s1) ttl t1 t2 r s2 ttl' t1' t2' r' s3). now rewrite E.
Qed.

Lemma some_inj {A} (a b : A) : Some a = Some b -> a = b.
Proof. congruence. Qed.

(** the latest addition in a list *)
Lemma latest_add ip l : (exists s1 ttl t1 t2 r s2, l = s1 ++ (OAdd ip ttl t1 t2, r) :: s2 /\ forall x, In x s1 -> adds ip x = false) \/
  (forall x, In x l -> adds ip x = false).
Proof.
  induction l as [|x l IH]; [right; intros ? []|]. destruct (adds ip x) eqn:E.
  - left. destruct x as [[ip' ttl t1 t2| | | |] r]; try discriminate. cbn in E. apply beqb_eq in E as ->. exists [], ttl, t1, t2, r, l. split; auto. intros ? [].
  - destruct IH as [(s1 & ttl & t1 & t2 & r & s2 & -> & H)|H].
    + left. exists (x :: s1), ttl, t1, t2, r, s2. split; auto. intros y [<-|Hy]; auto.
    + right. intros y [<-|Hy]; auto.
Qed.

Lemma add_result h m ip ttl t1 t2 r : ip_hist ((OAdd ip ttl t1 t2, r) :: h) m -> exists n, r = RCount n.
Proof. intros H. inversion H as [|? m0 ? ? ? Hh E]; subst. cbn [ip_do] in E. destruct (ip_add _ _ _ _ _). injection E as <- <-. eauto. Qed.

(** The results of the additions of a series that starts afresh are 1, 2, 3, ... *)
Theorem C49_series_counts ip seg old m : ip <> [] -> ip_hist (seg ++ old) m -> Series ip seg -> Afresh ip seg old ->
  map count_of (rev (filter (adds ip) seg)) = map Z.of_nat (seq 1 (length (filter (adds ip) seg))).
Proof.
  intros Hip. revert m. induction seg as [|x seg IH]; intros m H HS HA.
  { destruct HA as (s & ? & ? & ? & ? & E & _). destruct s; discriminate. }
  cbn [app] in H. inversion H as [|? m0 o r ? Hh E]; subst.
  destruct HA as ([|y s] & ttl & t1 & t2 & r0 & Es & HF); cbn [app] in Es.
  - (* the first *) injection Es as -> -> ->. cbn [filter app] in *. unfold adds. rewrite beqb_refl. cbn [rev map app length seq].
    destruct (add_result _ _ _ _ _ _ _ H) as (n & ->). cbn. destruct (C49_add _ _ _ _ _ _ _ H Hip) as [(k & w & A1 & A2 & A3)|[_ ->]]; auto.
    specialize (HF _ _ A1). lia.
  - injection Es as <- Es. assert (HA : Afresh ip seg old) by (exists s, ttl, t1, t2, r0; auto).
    pose proof (Series_tail _ _ _ HS) as HS'. specialize (IH m0 Hh HS' HA). cbn [filter].
    destruct (adds ip (o, r)) eqn:Ea; [|exact IH].
    destruct o as [ip' ttl' t1' t2'| | | |]; try discriminate. cbn in Ea. apply beqb_eq in Ea as ->.
    destruct (add_result _ _ _ _ _ _ _ H) as (n & ->). cbn [rev length]. rewrite map_app, IH, seq_S, map_app. f_equal. cbn [map count_of snd]. f_equal.
    (* the one before *)
    destruct (latest_add ip seg) as [(s1 & ttl2 & t12 & t22 & r2 & s2 & El & Hl)|Hl].
    2: { exfalso. assert (HI : In (OAdd ip ttl t1 t2, r0) seg) by (rewrite Es; apply in_or_app; right; now left).
         specialize (Hl _ HI). cbn in Hl. rewrite beqb_refl in Hl. discriminate. }
    assert (Hr2 : exists n2, r2 = RCount n2).
    { assert (Hx : exists mx, ip_hist ((OAdd ip ttl2 t12 t22, r2) :: s2 ++ old) mx).
      { apply (hist_app s1 _ m0). rewrite El in Hh. rewrite <- app_assoc in Hh. exact Hh. }
      destruct Hx as (mx & Hx). eapply add_result; eauto. }
    destruct Hr2 as (n2 & ->).
    pose proof (Series_standing ip seg old m0 Hip Hh HS' _ _ _ _ _ _ El Hl) as HSt.
    assert (Hgap : t1' - t22 < ttl').
    { apply (se_close _ _ HS [] ttl' t1' t2' (RCount n) s1 ttl2 t12 t22 (RCount n2) s2); auto. cbn [app]. now rewrite El. }
    assert (Hn2 : n2 = Z.of_nat (length (filter (adds ip) seg))).
    { assert (Ef : filter (adds ip) seg = (OAdd ip ttl2 t12 t22, RCount n2) :: filter (adds ip) s2).
      { rewrite El, filter_app. cbn [filter]. unfold adds at 2. rewrite beqb_refl.
        assert (E1 : filter (adds ip) s1 = []). { clear -Hl. induction s1 as [|z s1 IH]; auto. cbn [filter]. rewrite (Hl z (or_introl eq_refl)). apply IH. intros y Hy. apply Hl. now right. }
        now rewrite E1. }
      rewrite Ef in IH |- *. cbn [rev length] in *. rewrite seq_S, !map_app in IH. apply app_inj_tail in IH as [_ IH]. cbn in IH. lia. }
    destruct (C49_add _ _ _ _ _ _ _ H Hip) as [(k & w & A1 & A2 & A3)|[A1 _]].
    + destruct (Standing_unique _ _ _ _ _ _ _ Hh HSt A1) as [-> _]. lia.
    + specialize (A1 _ _ HSt). lia.
Qed.

(** Hence the count returned for a do-nothing session is the number of
    sessions in the unbroken series it ends. *)
Corollary C49_count_is_series_length ip seg ttl t1 t2 n old m : ip <> [] ->
  ip_hist ((OAdd ip ttl t1 t2, RCount n) :: seg ++ old) m ->
  Series ip ((OAdd ip ttl t1 t2, RCount n) :: seg) -> Afresh ip ((OAdd ip ttl t1 t2, RCount n) :: seg) old ->
  n = Z.of_nat (length (filter (adds ip) ((OAdd ip ttl t1 t2, RCount n) :: seg))).
Proof.
  intros Hip H HS HA. pose proof (C49_series_counts ip (_ :: seg) old m Hip H HS HA) as E.
  assert (Ea : adds ip (OAdd ip ttl t1 t2, RCount n) = true) by (cbn; apply beqb_refl).
  cbn [filter] in *. rewrite Ea in *. cbn [rev length] in *. rewrite seq_S, !map_app in E. apply app_inj_tail in E as [_ E]. cbn in E. lia.
Qed.

(** Every do-nothing session without forced entries of its address ends such a
    series. *)
Theorem C49_series_exists ip ttl t1 t2 r h m : ip <> [] -> ip_hist ((OAdd ip ttl t1 t2, r) :: h) m ->
  (forall ttl' a b c r', ~ In (OSet ip ttl' a b c, r') h) ->
  exists seg old, (OAdd ip ttl t1 t2, r) :: h = seg ++ old /\ Series ip seg /\ Afresh ip seg old.
Proof.
  intros Hip. revert ttl t1 t2 r m. remember (length h) as len eqn:El. revert h El.
  induction len as [len IH] using lt_wf_ind. intros h El ttl t1 t2 r m H HN. subst len.
  inversion H as [|? m0 ? ? ? Hh _]; subst.
  destruct (add_result _ _ _ _ _ _ _ H) as (n & ->).
  destruct (C49_add _ _ _ _ _ _ _ H Hip) as [(k & w & (later & x & earlier & E & [_ Hx] & Hl) & A2 & A3)|[A1 _]].
  - destruct Hx as [(ttl' & t1' & ->)|(ttl' & t1' & r' & ->)].
    2: { exfalso. eapply HN. rewrite E. apply in_or_app. right. left. reflexivity. }
    assert (Hx : exists mx, ip_hist ((OAdd ip ttl' t1' w, RCount k) :: earlier) mx) by (apply (hist_app later _ m0); rewrite <- E; exact Hh).
    destruct Hx as (mx & Hx).
    destruct (IH (length earlier)) with (h := earlier) (ttl := ttl') (t1 := t1') (t2 := w) (r := RCount k) (m := mx) as (seg & old & E2 & HS & HA); auto.
    { rewrite E, app_length. cbn. lia. }
    { intros ttl2 a b c r' HI. eapply HN. rewrite E. apply in_or_app. right. right. exact HI. }
    exists ((OAdd ip ttl t1 t2, RCount n) :: later ++ seg), old. split; [rewrite E, E2; cbn [app]; now rewrite <- app_assoc|].
    assert (Hseg : exists seg', seg = (OAdd ip ttl' t1' w, RCount k) :: seg').
    { destruct seg as [|y seg']; [|injection E2 as <- _; eauto]. destruct HA as (s & ? & ? & ? & ? & Es & _). destruct s; discriminate. }
    destruct Hseg as (seg' & ->). split.
    + constructor.
      * intros y Hy. assert (Hy' : y = (OAdd ip ttl t1 t2, RCount n) \/ In y later \/ In y ((OAdd ip ttl' t1' w, RCount k) :: seg')).
        { destruct Hy as [<-|Hy]; auto. apply in_app_or in Hy. tauto. }
        destruct Hy' as [->|[Hy'|Hy']].
        -- split; [intros [(?&Ez)|(?&?&?&Ez)]; inversion Ez|]. intros. discriminate.
        -- split; [intros A; apply (Hl y Hy'); now right|]. intros ttl2 a b c r' ->. eapply HN. rewrite E. apply in_or_app. left. exact Hy'.
        -- apply (se_quiet _ _ HS). auto.
      * assert (Hla : forall y, In y later -> adds ip y = false).
        { intros y Hy. destruct (adds ip y) eqn:Ey; auto. exfalso. apply (Hl y Hy). left.
          destruct y as [[ip' a b c| | | |] ry]; try discriminate. cbn in Ey. apply beqb_eq in Ey as ->.
          apply in_split in Hy as (l1 & l2 & ->).
          assert (Hy : exists my, ip_hist ((OAdd ip a b c, ry) :: l2 ++ (OAdd ip ttl' t1' w, RCount k) :: earlier) my).
          { apply (hist_app l1 _ m0). rewrite E in Hh. rewrite <- app_assoc in Hh. exact Hh. }
          destruct Hy as (my & Hy). destruct (add_result _ _ _ _ _ _ _ Hy) as (ny & ->). exists ny, c. split; eauto. }
        intros s1 ttlb t1b t2b rb s2 ttla t1a t2a ra s3 Es Hs2.
        destruct s1 as [|y s1]; cbn [app] in Es.
        -- injection Es as <- <- <- <- Es. assert (Ea : (OAdd ip ttla t1a t2a, ra) = (OAdd ip ttl' t1' w, RCount k)).
           { clear -Es Hs2 Hla. revert s2 Es Hs2. induction later as [|z later IH]; intros [|u s2] Es Hs2; cbn [app] in Es; pose proof (f_equal (@tl _) Es) as E2; pose proof (f_equal (hd_error (A:=_)) Es) as E1; cbn [tl hd_error] in E1, E2; apply some_inj in E1.
             - auto.
             - exfalso. specialize (Hs2 u (or_introl eq_refl)). subst u. cbn in Hs2. rewrite beqb_refl in Hs2. discriminate.
             - exfalso. specialize (Hla z (or_introl eq_refl)). subst z. cbn in Hla. rewrite beqb_refl in Hla. discriminate.
             - eapply IH; eauto; intros y Hy; [apply Hla|apply Hs2]; now right. }
           inversion Ea; subst. exact A2.
        -- injection Es as _ Es. assert (Hs : exists s1', (OAdd ip ttl' t1' w, RCount k) :: seg' = s1' ++ (OAdd ip ttlb t1b t2b, rb) :: s2 ++ (OAdd ip ttla t1a t2a, ra) :: s3).
           { clear -Es Hla. revert s1 Es. induction later as [|z later IH]; intros s1 Es; cbn [app] in Es; [eauto|].
             destruct s1 as [|u s1]; cbn [app] in Es; pose proof (f_equal (@tl _) Es) as E2; pose proof (f_equal (hd_error (A:=_)) Es) as E1; cbn [tl hd_error] in E1, E2; apply some_inj in E1.
             - exfalso. specialize (Hla z (or_introl eq_refl)). subst z. cbn in Hla. rewrite beqb_refl in Hla. discriminate.
             - eapply IH; eauto. intros y Hy. apply Hla. now right. }
           destruct Hs as (s1' & Hs). eapply (se_close _ _ HS); eauto.
    + destruct HA as (s & ttl3 & t13 & t23 & r3 & Es & HF).
      exists ((OAdd ip ttl t1 t2, RCount n) :: later ++ s), ttl3, t13, t23, r3. split; auto. rewrite Es. cbn [app]. now rewrite <- app_assoc.
  - exists [(OAdd ip ttl t1 t2, RCount n)], h. split; auto. split.
    + constructor.
      * intros x [<-|[]]. split; [intros [(?&Ez)|(?&?&?&Ez)]; inversion Ez|]. intros. discriminate.
      * intros s1 ttlb t1b t2b rb s2 ttla t1a t2a ra s3 Es _. exfalso. apply (f_equal (@length _)) in Es. rewrite app_length in Es. cbn in Es. rewrite app_length in Es. cbn in Es. lia.
    + exists [], ttl, t1, t2, (RCount n). auto.
Qed.

(** Of the sessions of such a series exactly one brings the count to [c], for
    each [c] from 1 to their number, and none brings it to another number. *)
Theorem C51_reported_once ip seg old m c : ip <> [] -> ip_hist (seg ++ old) m -> Series ip seg -> Afresh ip seg old ->
  length (filter (fun x => adds ip x && Z.eqb (count_of x) c) seg) =
  if (Z.leb 1 c && Z.leb c (Z.of_nat (length (filter (adds ip) seg))))%bool then 1%nat else 0%nat.
Proof.
  intros Hip H HS HA. pose proof (C49_series_counts ip seg old m Hip H HS HA) as E.
  assert (E1 : length (filter (fun x => adds ip x && Z.eqb (count_of x) c) seg) =
    length (filter (fun n => Z.eqb n c) (map count_of (rev (filter (adds ip) seg))))).
  { clear. induction seg as [|x seg IH]; auto. cbn [filter]. destruct (adds ip x); cbn [andb rev]; auto.
    rewrite map_app, filter_app, app_length, <- IH. cbn [map filter]. destruct (Z.eqb (count_of x) c); cbn [length]; lia. }
  rewrite E1, E. clear. generalize (length (filter (adds ip) seg)) as k. induction k as [|k IH].
  - cbn. destruct (Z.leb_spec 1 c), (Z.leb_spec c 0); cbn; auto; lia.
  - rewrite seq_S, map_app, filter_app, app_length, IH. cbn [map filter].
    destruct (Z.leb_spec 1 c), (Z.leb_spec c (Z.of_nat k)), (Z.leb_spec c (Z.of_nat (S k))), (Z.eqb_spec (Z.of_nat (1 + k)) c); cbn [andb length]; auto; lia.
Qed.

(** A success, expired entry or deadline in between: two series of an address,
    with sessions of another one in between. *)
Definition demo_ops : list ipop :=
  [OAdd (B "192.0.2.1") 100 1 1; OAdd (B "192.0.2.9") 100 5 5; OAdd (B "192.0.2.1") 100 50 51; OLookup (B "192.0.2.1") 100 60;
   OAdd (B "192.0.2.1") 100 150 150; OLookup (B "192.0.2.1") 100 400; OAdd (B "192.0.2.1") 100 500 500; ODel (B "192.0.2.9"); OStats].
Fixpoint run_ops (os : list ipop) (h : list (ipop * ipres)) (m : ipmap) : list (ipop * ipres) * ipmap :=
  match os with
  | [] => (h, m)
  | o :: os => let (r, m') := ip_do o m in run_ops os ((o, r) :: h) m'
  end.
Lemma run_ops_hist os : forall h m, ip_hist h m -> ip_hist (fst (run_ops os h m)) (snd (run_ops os h m)).
Proof.
  induction os as [|o os IH]; intros h m H; auto. cbn [run_ops]. destruct (ip_do o m) as [r m'] eqn:E. apply IH. econstructor; eauto.
Qed.

Example C49_example :
  map snd (rev (fst (run_ops demo_ops [] ipmap0))) =
  [RCount 1; RCount 1; RCount 2; RFound true 2; RCount 3; RFound false 0; RCount 1; RNone;
   RStats (mkStats 1 5 3 0 1 0 2 1 1)].
Proof. reflexivity. Qed.
(** the first three sessions of 192.0.2.1 are a series that starts afresh *)
Example C49_series_example : exists m,
  ip_hist (fst (run_ops (firstn 5 demo_ops) [] ipmap0) ++ []) m /\
  Series (B "192.0.2.1") (fst (run_ops (firstn 5 demo_ops) [] ipmap0)) /\
  Afresh (B "192.0.2.1") (fst (run_ops (firstn 5 demo_ops) [] ipmap0)) [] /\
  length (filter (adds (B "192.0.2.1")) (fst (run_ops (firstn 5 demo_ops) [] ipmap0))) = 3%nat.
Proof.
  exists (snd (run_ops (firstn 5 demo_ops) [] ipmap0)). split; [rewrite app_nil_r; apply run_ops_hist; constructor|].
  split; [|split; [|reflexivity]].
  - set (l := fst _). vm_compute in l. subst l. constructor.
    + intros x Hx. repeat (destruct Hx as [<-|Hx]; [split; [intros [(?&Ez)|(?&?&?&Ez)]; inversion Ez|intros; discriminate]|]). destruct Hx.
    + intros s1 ttl t1 t2 r s2 ttl' t1' t2' r' s3 E Hs2.
      repeat match type of E with
      | [] = ?l ++ _ => destruct l; discriminate E
      | [] = _ => discriminate E
      | _ :: _ = ?l ++ _ => let y := fresh in destruct l as [|y l]; cbn [app] in E
      | _ :: _ = ?y :: _ =>
          first [ is_var y; injection E as <- E; try (specialize (Hs2 _ (or_introl eq_refl)); discriminate Hs2)
                | discriminate E
                | injection E as <- <- <- <- E; try lia ]
      end.
      specialize (Hs2 _ (or_intror (or_introl eq_refl))). discriminate Hs2.
  - set (l := fst _). vm_compute in l. subst l. eexists [_; _; _; _], _, _, _, _. split; [reflexivity|].
    intros k w ([|? ?] & ? & ? & E & _); discriminate.
Qed.

(** ** C65 *)

(** The connections' reports, in the order they get the lock. *)
Theorem C65_counters_add_up calls d :
  match mget (fold_left counts_add calls []) d with Some n => n | None => 0%N end =
  (N.of_nat (count_occ (list_eq_dec ascii_dec) (concat calls) d) mod 2 ^ 64)%N.
Proof.
  assert (E : forall calls m, fold_left counts_add calls m = fold_left count_one (concat calls) m).
  { clear. induction calls as [|c calls IH]; intros m; auto. cbn [fold_left concat]. rewrite fold_left_app. apply IH. }
  rewrite E. generalize (concat calls) as l. clear.
  induction l as [|x l IH] using rev_ind; [reflexivity|].
  rewrite fold_left_app, count_occ_app. cbn [fold_left count_occ]. unfold count_one at 1. rewrite mget_mset.
  destruct (list_eq_dec ascii_dec x d) as [->|Nx].
  - rewrite beqb_refl, IH. unfold u64. rewrite N.add_mod_idemp_l by (intros H; discriminate H). f_equal. lia.
  - destruct (beqb_spec d x) as [->|_]; [congruence|]. rewrite IH. f_equal. f_equal. lia.
Qed.
(** a counter starts at its first report; no other name is listed *)
Theorem C65_listed calls d : mget (fold_left counts_add calls []) d <> None <-> In d (concat calls).
Proof.
  assert (E : forall calls m, fold_left counts_add calls m = fold_left count_one (concat calls) m).
  { clear. induction calls as [|c calls IH]; intros m; auto. cbn [fold_left concat]. rewrite fold_left_app. apply IH. }
  rewrite E. generalize (concat calls) as l. clear.
  induction l as [|x l IH] using rev_ind; [cbn; tauto|].
  rewrite fold_left_app, in_app_iff. cbn [fold_left]. unfold count_one at 1. rewrite mget_mset.
  destruct (beqb_spec d x) as [->|N]; [split; [cbn; auto|discriminate]|]. rewrite IH. cbn. split; [auto|]. intros [H|[H|[]]]; auto. congruence.
Qed.
Example C65_example :
  fold_left counts_add [[B "a.example."; B "b.example."]; []; [B "a.example."]] [] = [(B "a.example.", 2%N); (B "b.example.", 1%N)].
Proof. reflexivity. Qed.

(** ** C55 *)

(** The [i]th message received is not empty and not a repetition of the one
    before. *)
Definition not_repeated (l : list bytes) (i : nat) : bool :=
  negb (beqb (nth i l []) []) && (Nat.eqb i 0 || negb (beqb (nth i l []) (nth (i - 1) l []))).

Lemma not_repeated_app l x i : (i < length l)%nat -> not_repeated (l ++ [x]) i = not_repeated l i.
Proof. intros H. unfold not_repeated. rewrite !app_nth1; auto. lia. Qed.

Lemma warn_reach todo s : clos_refl_trans _ warn_step (warn_start todo) s ->
  (forall i, map snd (filter (fun x => Nat.eqb (fst x) i) (wn_got s)) ++ nth i (wn_todo s) [] = nth i todo []) /\
  wn_last s = last (map snd (wn_got s)) [] /\
  wn_out s = map (fun i => B "sinksmtp: " ++ nth i (map snd (wn_got s)) []) (filter (not_repeated (map snd (wn_got s))) (seq 0 (length (wn_got s)))).
Proof.
  intros H. apply clos_rt_rtn1 in H. induction H as [|s s' Hs _ (I1 & I2 & I3)]; [cbn; auto|].
  destruct Hs as [todo1 msg rest todo2 lst got out lst' w E]. cbn [wn_got wn_todo wn_last wn_out] in *. split; [|split].
  - intros i. rewrite <- I1, filter_app, map_app. cbn [filter fst]. destruct (Nat.eqb_spec (length todo1) i) as [<-|N].
    + cbn [map snd]. rewrite <- app_assoc. rewrite !app_nth2, Nat.sub_diag by lia. reflexivity.
    + cbn [map]. rewrite app_nil_r. f_equal. destruct (Nat.lt_ge_cases i (length todo1)) as [L|L]; [now rewrite !app_nth1|].
      rewrite !app_nth2 by lia. destruct (i - length todo1)%nat eqn:Ei; [lia|reflexivity].
  - rewrite map_app. cbn [map snd]. rewrite last_last. unfold warn_one in E. destruct (beqb_spec msg lst) as [->|N]; injection E as <- <-; auto.
  - rewrite app_length, map_app. cbn [length map snd]. rewrite Nat.add_1_r, seq_S, filter_app, map_app. cbn [Nat.add filter].
    set (l := map snd got) in *. assert (Hlen : length l = length got) by (unfold l; apply map_length).
    rewrite I3. f_equal.
    + rewrite (filter_ext_in (not_repeated (l ++ [msg])) (not_repeated l)).
      2: { intros i Hi. apply in_seq in Hi. apply not_repeated_app. lia. }
      apply map_ext_in. intros i Hi. apply filter_In in Hi as [Hi _]. apply in_seq in Hi. rewrite app_nth1; auto. lia.
    + assert (Hnr : not_repeated (l ++ [msg]) (length got) = (negb (beqb msg []) && negb (beqb msg lst))%bool).
      { unfold not_repeated. rewrite <- Hlen. rewrite (app_nth2 l [msg] []) by lia. rewrite Nat.sub_diag. cbn [nth].
        destruct (Nat.eqb_spec (length l) 0) as [E0|E0].
        - destruct l; [|discriminate]. cbn in I2. subst lst. destruct (beqb msg []); reflexivity.
        - cbn [orb]. rewrite app_nth1 by lia. do 3 f_equal. rewrite I2. destruct l as [|a l]; [cbn in E0; lia|].
          clear. revert a. induction l as [|b l IH]; intros a; [reflexivity|]. specialize (IH b). cbn [length nth] in *.
          replace (S (S (length l)) - 1)%nat with (S (length l)) by lia. replace (S (length l) - 1)%nat with (length l) in IH by lia. exact IH. }
      rewrite Hnr. unfold warn_one in E. destruct (beqb_spec msg lst) as [->|N]; injection E as <- <-; [now rewrite andb_false_r|].
      rewrite andb_true_r. destruct (beqb msg []); cbn [negb]; auto. cbn [map]. rewrite app_nth2 by lia. rewrite Hlen, Nat.sub_diag. reflexivity.
Qed.

(** What has been printed is the messages received which are not empty and not
    repetitions, in order; and the messages received are those the senders
    sent, each sender's in order. *)
Theorem C55_repeated_warnings todo s : clos_refl_trans _ warn_step (warn_start todo) s ->
  wn_out s = map (fun i => B "sinksmtp: " ++ nth i (map snd (wn_got s)) [])
               (filter (not_repeated (map snd (wn_got s))) (seq 0 (length (wn_got s)))) /\
  (forall i, map snd (filter (fun x => Nat.eqb (fst x) i) (wn_got s)) ++ nth i (wn_todo s) [] = nth i todo []).
Proof. intros H. destruct (warn_reach todo s H) as (A & _ & C). auto. Qed.

(** No sender is ever blocked for good: as long as there is something to send,
    it can be sent. *)
Theorem C55_never_blocks s i m rest : nth i (wn_todo s) [] = m :: rest ->
  exists s', warn_step s s' /\ nth i (wn_todo s') [] = rest.
Proof.
  intros H. destruct s as [todo lst got out]. cbn [wn_todo] in H.
  assert (Hi : (i < length todo)%nat).
  { destruct (Nat.lt_ge_cases i (length todo)); auto. rewrite nth_overflow in H; [discriminate|auto]. }
  destruct (nth_split todo [] Hi) as (l1 & l2 & E & El). rewrite H in E. subst todo. destruct (warn_one lst m) as [lst' w] eqn:Ew.
  eexists. split; [apply (Warn_step _ _ _ _ _ _ _ _ _ Ew)|]. cbn [wn_todo]. rewrite app_nth2, El, Nat.sub_diag by lia. reflexivity.
Qed.

(** two senders; the middle repetition is dropped, the later one printed *)
Example C55_example : exists s,
  clos_refl_trans _ warn_step (warn_start [[B "x"; B "y"; B "x"]; [B "x"]]) s /\
  wn_todo s = [[]; []] /\ wn_out s = [B "sinksmtp: x"; B "sinksmtp: y"; B "sinksmtp: x"].
Proof.
  eexists. split; [|split].
  - eapply rt_trans; [apply rt_step; apply (Warn_step [] (B "x") [B "y"; B "x"] [[B "x"]]); reflexivity|].
    eapply rt_trans; [apply rt_step; apply (Warn_step [[B "y"; B "x"]] (B "x") [] []); reflexivity|].
    eapply rt_trans; [apply rt_step; apply (Warn_step [] (B "y") [B "x"] [[]]); reflexivity|].
    apply rt_step; apply (Warn_step [] (B "x") [] [[]]); reflexivity.
  - reflexivity.
  - reflexivity.
Qed.
