(** Properties of the DNS checks: C30, C31. *)
From Coq Require Import Permutation Sorting.Sorted.
From Verif Require Import Bytes Outcome GoNet Ast World Dns Eval PropsMatch.

(** ** C30 *)

(** 10/8, 172.16/12, 192.168/16, fc00::/7, fec0::/10; IPv4 prefix lengths
    count from bit 96 *)
Definition private_ip (x : ip) : Prop :=
  (InBlock x (mk_v4 (10 * 2 ^ 24)) 104 \/ InBlock x (mk_v4 (172 * 2 ^ 24 + 16 * 2 ^ 16)) 108 \/
   InBlock x (mk_v4 (192 * 2 ^ 24 + 168 * 2 ^ 16)) 112 \/
   InBlock x (252 * 2 ^ 120) 7 \/ InBlock x (254 * 2 ^ 120 + 192 * 2 ^ 112) 10)%N.

(** 255.255.255.255, 0.0.0.0, 127/8, 224/4, 169.254/16, ::, ::1, ff00::/8, fe80::/10 *)
Definition special_ip (x : ip) : Prop :=
  (InBlock x (mk_v4 (2 ^ 32 - 1)) 128 \/ InBlock x (mk_v4 0) 128 \/ InBlock x (mk_v4 (127 * 2 ^ 24)) 104 \/
   InBlock x (mk_v4 (224 * 2 ^ 24)) 100 \/ InBlock x (mk_v4 (169 * 2 ^ 24 + 254 * 2 ^ 16)) 112 \/
   InBlock x 0 128 \/ InBlock x 1 128 \/ InBlock x (255 * 2 ^ 120) 8 \/ InBlock x (254 * 2 ^ 120 + 128 * 2 ^ 112) 10)%N.

(** an address that mail could be delivered to *)
Definition usable (x : ip) : Prop := ~ special_ip x /\ ~ private_ip x.

(** a temporary failure, as opposed to "does not exist" *)
Definition temporary (e : dnserr) : Prop :=
  de_dns e = true /\ (de_temporary e = true \/ de_err e = B "server misbehaving").

(** What a lookup of the addresses of a host means. *)
Inductive HostVerdict : list ip + dnserr -> dnsresult -> Prop :=
| HV_temp e : temporary e -> HostVerdict (inr e) dnsTempfail
| HV_error e : ~ temporary e -> HostVerdict (inr e) dnsBad
| HV_none : HostVerdict (inl []) dnsBad
| HV_unusable l x : In x l -> ~ usable x -> HostVerdict (inl l) dnsBad
| HV_good l : l <> [] -> (forall x, In x l -> usable x) -> HostVerdict (inl l) dnsGood.

(** MX hosts that mean "no mail here" *)
Definition bogus_mx (U : unicode) (m : mx) : Prop :=
  to_lower U (mx_host m) = B "." \/ to_lower U (mx_host m) = B "localhost.".

(** What the answers of a name service that does not change mean for a domain;
    [ips n] is the answer for the addresses of [n]. *)
Inductive DomainVerdict (U : unicode) (ips : bytes -> list ip + dnserr) (domain : bytes)
  : list mx + dnserr -> dnsresult -> Prop :=
| DV_temp e : temporary e -> DomainVerdict U ips domain (inr e) dnsTempfail
| DV_host e v : ~ temporary e -> HostVerdict (ips (domain ++ B ".")) v -> DomainVerdict U ips domain (inr e) v
| DV_bogus l m : In m l -> bogus_mx U m -> DomainVerdict U ips domain (inl l) dnsBad
| DV_good l m : (forall m, In m l -> ~ bogus_mx U m) -> In m l -> HostVerdict (ips (mx_host m)) dnsGood ->
    DomainVerdict U ips domain (inl l) dnsGood
| DV_tempfail l m : (forall m, In m l -> ~ bogus_mx U m) -> In m l -> HostVerdict (ips (mx_host m)) dnsTempfail ->
    (forall m, In m l -> ~ HostVerdict (ips (mx_host m)) dnsGood) -> DomainVerdict U ips domain (inl l) dnsTempfail
| DV_bad l : l <> [] -> (forall m, In m l -> ~ bogus_mx U m) ->
    (forall m, In m l -> HostVerdict (ips (mx_host m)) dnsBad) -> DomainVerdict U ips domain (inl l) dnsBad
| DV_no_mx : DomainVerdict U ips domain (inl []) dnsUndef.

Lemma isTemporary_spec e : isTemporary e = true <-> temporary e.
Proof.
  unfold isTemporary, temporary. rewrite andb_true_iff, orb_true_iff, beqb_eq. reflexivity.
Qed.

Lemma net_v4_spec v n net len x : (x < 2 ^ 128)%N -> (v <? 2 ^ 32)%N = true -> (n <=? 32)%N = true -> len = (96 + n)%N ->
  net = mkNet 32 (N.shiftl (N.shiftr v (32 - n)) (32 - n)) n ->
  net_contains net (Some x) = true <-> InBlock x (mk_v4 v) len.
Proof. intros Hx Hv Hn -> ->. apply contains_v4; auto; [now apply N.ltb_lt|now apply N.leb_le]. Qed.

Lemma net_v6_spec v n net x : (x < 2 ^ 128)%N -> (v <? 2 ^ 128)%N = true -> (n <=? 128)%N = true ->
  net = mkNet 128 (N.shiftl (N.shiftr v (128 - n)) (128 - n)) n ->
  net_contains net (Some x) = true <-> InBlock x v n.
Proof. intros Hx Hv Hn ->. apply contains_v6; auto; [now apply N.ltb_lt|now apply N.leb_le]. Qed.

Lemma private_nets_spec x : (x < 2 ^ 128)%N ->
  existsb (fun n => net_contains n (Some x)) private_nets = true <-> private_ip x.
Proof.
  intros Hx. unfold private_ip, private_nets. cbn [existsb].
  pose proof (net_v4_spec (10 * 2 ^ 24) 8 net10 104 x Hx ltac:(vm_compute; reflexivity) ltac:(vm_compute; reflexivity) ltac:(vm_compute; reflexivity) ltac:(vm_compute; reflexivity)) as H1.
  pose proof (net_v4_spec (172 * 2 ^ 24 + 16 * 2 ^ 16) 12 net172 108 x Hx ltac:(vm_compute; reflexivity) ltac:(vm_compute; reflexivity) ltac:(vm_compute; reflexivity) ltac:(vm_compute; reflexivity)) as H2.
  pose proof (net_v4_spec (192 * 2 ^ 24 + 168 * 2 ^ 16) 16 net192 112 x Hx ltac:(vm_compute; reflexivity) ltac:(vm_compute; reflexivity) ltac:(vm_compute; reflexivity) ltac:(vm_compute; reflexivity)) as H3.
  pose proof (net_v6_spec (252 * 2 ^ 120) 7 ipv6private x Hx ltac:(vm_compute; reflexivity) ltac:(vm_compute; reflexivity) ltac:(vm_compute; reflexivity)) as H4.
  pose proof (net_v6_spec (254 * 2 ^ 120 + 192 * 2 ^ 112) 10 ipv6siteloc x Hx ltac:(vm_compute; reflexivity) ltac:(vm_compute; reflexivity) ltac:(vm_compute; reflexivity)) as H5.
  rewrite !orb_true_iff, H1, H2, H3, H4, H5.
  assert (HF : false = true <-> False) by (split; [discriminate|tauto]). rewrite HF. clear.
  repeat match goal with |- context [InBlock x ?a ?b] => generalize (InBlock x a b); intro end. tauto.
Qed.

Lemma global_spec x : (x < 2 ^ 128)%N -> is_global_unicast x = true <-> ~ special_ip x.
Proof.
  intros Hx. unfold special_ip.
  pose proof (net_v4_spec (2 ^ 32 - 1) 32 (mkNet 32 (N.shiftl (N.shiftr (2 ^ 32 - 1) (32 - 32)) (32 - 32)) 32) 128 x Hx ltac:(vm_compute; reflexivity) ltac:(vm_compute; reflexivity) ltac:(vm_compute; reflexivity) ltac:(vm_compute; reflexivity)) as H1.
  pose proof (net_v4_spec (0) 32 (mkNet 32 (N.shiftl (N.shiftr (0) (32 - 32)) (32 - 32)) 32) 128 x Hx ltac:(vm_compute; reflexivity) ltac:(vm_compute; reflexivity) ltac:(vm_compute; reflexivity) ltac:(vm_compute; reflexivity)) as H2.
  pose proof (net_v4_spec (127 * 2 ^ 24) 8 (mkNet 32 (N.shiftl (N.shiftr (127 * 2 ^ 24) (32 - 8)) (32 - 8)) 8) 104 x Hx ltac:(vm_compute; reflexivity) ltac:(vm_compute; reflexivity) ltac:(vm_compute; reflexivity) ltac:(vm_compute; reflexivity)) as H3.
  pose proof (net_v4_spec (224 * 2 ^ 24) 4 (mkNet 32 (N.shiftl (N.shiftr (224 * 2 ^ 24) (32 - 4)) (32 - 4)) 4) 100 x Hx ltac:(vm_compute; reflexivity) ltac:(vm_compute; reflexivity) ltac:(vm_compute; reflexivity) ltac:(vm_compute; reflexivity)) as H4.
  pose proof (net_v4_spec (169 * 2 ^ 24 + 254 * 2 ^ 16) 16 (mkNet 32 (N.shiftl (N.shiftr (169 * 2 ^ 24 + 254 * 2 ^ 16) (32 - 16)) (32 - 16)) 16) 112 x Hx ltac:(vm_compute; reflexivity) ltac:(vm_compute; reflexivity) ltac:(vm_compute; reflexivity) ltac:(vm_compute; reflexivity)) as H5.
  pose proof (net_v6_spec (0) 128 (mkNet 128 (N.shiftl (N.shiftr (0) (128 - 128)) (128 - 128)) 128) x Hx ltac:(vm_compute; reflexivity) ltac:(vm_compute; reflexivity) ltac:(vm_compute; reflexivity)) as H6.
  pose proof (net_v6_spec (1) 128 (mkNet 128 (N.shiftl (N.shiftr (1) (128 - 128)) (128 - 128)) 128) x Hx ltac:(vm_compute; reflexivity) ltac:(vm_compute; reflexivity) ltac:(vm_compute; reflexivity)) as H7.
  pose proof (net_v6_spec (255 * 2 ^ 120) 8 (mkNet 128 (N.shiftl (N.shiftr (255 * 2 ^ 120) (128 - 8)) (128 - 8)) 8) x Hx ltac:(vm_compute; reflexivity) ltac:(vm_compute; reflexivity) ltac:(vm_compute; reflexivity)) as H8.
  pose proof (net_v6_spec (254 * 2 ^ 120 + 128 * 2 ^ 112) 10 (mkNet 128 (N.shiftl (N.shiftr (254 * 2 ^ 120 + 128 * 2 ^ 112) (128 - 10)) (128 - 10)) 10) x Hx ltac:(vm_compute; reflexivity) ltac:(vm_compute; reflexivity) ltac:(vm_compute; reflexivity)) as H9.
  match type of H1 with net_contains ?n _ = true <-> _ => let m := eval vm_compute in n in change n with m in H1 end.
  match type of H2 with net_contains ?n _ = true <-> _ => let m := eval vm_compute in n in change n with m in H2 end.
  match type of H3 with net_contains ?n _ = true <-> _ => let m := eval vm_compute in n in change n with m in H3 end.
  match type of H4 with net_contains ?n _ = true <-> _ => let m := eval vm_compute in n in change n with m in H4 end.
  match type of H5 with net_contains ?n _ = true <-> _ => let m := eval vm_compute in n in change n with m in H5 end.
  match type of H6 with net_contains ?n _ = true <-> _ => let m := eval vm_compute in n in change n with m in H6 end.
  match type of H7 with net_contains ?n _ = true <-> _ => let m := eval vm_compute in n in change n with m in H7 end.
  match type of H8 with net_contains ?n _ = true <-> _ => let m := eval vm_compute in n in change n with m in H8 end.
  match type of H9 with net_contains ?n _ = true <-> _ => let m := eval vm_compute in n in change n with m in H9 end.
  rewrite <- H1, <- H2, <- H3, <- H4, <- H5, <- H6, <- H7, <- H8, <- H9. clear H1 H2 H3 H4 H5 H6 H7 H8 H9.
  unfold is_global_unicast, net_contains. destruct (to4 x) as [v|].
  all: repeat match goal with |- context [net_norm ?n] => let m := eval vm_compute in (net_norm n) in change (net_norm n) with m end.
  all: cbn [n_bits n_ip n_len].
  all: repeat match goal with |- context [N.sub ?a ?b] => let m := eval vm_compute in (N.sub a b) in change (N.sub a b) with m end.
  all: repeat match goal with |- context [N.shiftr (Npos ?a) ?b] => let m := eval vm_compute in (N.shiftr (Npos a) b) in change (N.shiftr (Npos a) b) with m end.
  all: change (N.eqb 32 128) with false; change (N.eqb 128 32) with false; change (N.eqb 32 32) with true; change (N.eqb 128 128) with true.
  all: cbn [andb]; rewrite ?N.shiftr_0_r; change (N.shiftr 0 0) with 0%N; change (N.ones 32) with 4294967295%N.
  - repeat match goal with |- context [N.eqb ?a ?b] => destruct (N.eqb a b) end; cbn [negb andb]; intuition discriminate.
  - repeat match goal with |- context [N.eqb ?a ?b] => destruct (N.eqb a b) end; cbn [negb andb]; intuition discriminate.
Qed.

(** addresses are 128-bit numbers *)
Definition ips_ok (r : list ip + dnserr) : Prop :=
  match r with inl l => Forall (fun x => x < 2 ^ 128)%N l | inr _ => True end.

Lemma checkAddrs_spec W d l : Forall (fun x => x < 2 ^ 128)%N l ->
  match checkAddrs W d l with
  | None => forall x, In x l -> usable x
  | Some _ => exists x, In x l /\ ~ usable x
  end.
Proof.
  induction 1 as [|x l Hx _ IH]; [simpl; tauto|]. cbn [checkAddrs]. pose proof (global_spec x Hx) as HG.
  destruct (is_global_unicast x) eqn:Eg; cbn [negb].
  - pose proof (private_nets_spec x Hx) as HP. destruct (existsb _ private_nets).
    + exists x. split; [now left|]. intros [_ H]. apply H. apply HP. auto.
    + assert (Hu : usable x) by (split; [now apply HG|intros H; apply HP in H; discriminate]).
      destruct (checkAddrs W d l).
      * destruct IH as (y & Hy & Hn). exists y. split; [now right|auto].
      * intros y [->|Hy]; auto.
  - exists x. split; [now left|]. intros [H _]. apply HG in H. congruence.
Qed.

Lemma checkIP_spec W n tr : ips_ok (w_ip W (length tr) n) ->
  exists v e, checkIP W n tr = ((v, e), XIp n :: tr) /\ HostVerdict (w_ip W (length tr) n) v.
Proof.
  intros Hok. unfold checkIP, lookup_ip, ask, xbind, xret.
  destruct (w_ip W (length tr) n) as [l|e].
  - destruct l as [|x l]; [eexists; eexists; split; [reflexivity|constructor]|].
    pose proof (checkAddrs_spec W n (x :: l) Hok) as H. destruct (checkAddrs W n (x :: l)).
    + destruct H as (y & Hy & Hn). eexists; eexists; split; [reflexivity|]. eapply HV_unusable; eauto.
    + eexists; eexists; split; [reflexivity|]. apply HV_good; auto. discriminate.
  - destruct (isTemporary e) eqn:Et.
    + eexists; eexists; split; [reflexivity|]. apply HV_temp. apply isTemporary_spec. auto.
    + eexists; eexists; split; [reflexivity|]. apply HV_error. rewrite <- isTemporary_spec. congruence.
Qed.

Lemma HostVerdict_det r v v' : HostVerdict r v -> HostVerdict r v' -> v = v'.
Proof.
  intros H H'. destruct H; inversion H'; subst; auto; try tauto; try congruence; exfalso; auto.
Qed.

Lemma HostVerdict_cases r v : HostVerdict r v -> v = dnsGood \/ v = dnsTempfail \/ v = dnsBad.
Proof. destruct 1; auto. Qed.

Definition dmax (a b : dnsresult) : dnsresult := if dgtb b a then b else a.

Section Domain.
  Variable W : world.
  Hypothesis HW : static W.
  Hypothesis Hok : forall n, ips_ok (w_ip W 0 n).
  Let ips := w_ip W 0.

  Lemma checkIP_static n tr : exists v e, checkIP W n tr = ((v, e), XIp n :: tr) /\ HostVerdict (ips n) v.
  Proof.
    unfold ips. rewrite (st_ip W HW 0 (length tr)). apply checkIP_spec. rewrite (st_ip W HW (length tr) 0). apply Hok.
  Qed.

  Lemma bogus_dec m : {bogus_mx (w_uni W) m} + {~ bogus_mx (w_uni W) m}.
  Proof.
    unfold bogus_mx. destruct (bytes_dec (to_lower (w_uni W) (mx_host m)) (B ".")); [left; auto|].
    destruct (bytes_dec (to_lower (w_uni W) (mx_host m)) (B "localhost.")); [left; auto|right; tauto].
  Qed.

  Lemma checkMXs_spec d l : forall valid e tr,
    exists v e' tr', checkMXs W d l valid e tr = ((v, e'), tr') /\
      ((exists m, In m l /\ bogus_mx (w_uni W) m) /\ v = dnsBad \/
       (forall m, In m l -> ~ bogus_mx (w_uni W) m) /\
       exists vs, Forall2 (fun m v => HostVerdict (ips (mx_host m)) v) l vs /\ v = fold_left dmax vs valid).
  Proof.
    induction l as [|m l IH]; intros valid e tr.
    - exists valid, e, tr. split; [reflexivity|]. right. split; [simpl; tauto|]. exists []. split; [constructor|reflexivity].
    - cbn [checkMXs].
      destruct (beqb (mx_host m) (B ".") && Nat.eqb (mx_pref m) 0) eqn:E0.
      { apply andb_true_iff in E0 as [E0 _]. apply beqb_eq in E0. do 3 eexists. split; [reflexivity|].
        left. split; auto. exists m. split; [now left|]. left. rewrite E0. reflexivity. }
      destruct (beqb (to_lower (w_uni W) (mx_host m)) (B ".") || beqb (to_lower (w_uni W) (mx_host m)) (B "localhost.")) eqn:E1.
      { apply orb_true_iff in E1. rewrite !beqb_eq in E1. do 3 eexists. split; [reflexivity|].
        left. split; auto. exists m. split; [now left|]. exact E1. }
      assert (Hm : ~ bogus_mx (w_uni W) m).
      { unfold bogus_mx. rewrite <- !beqb_eq, <- orb_true_iff, E1. discriminate. }
      destruct (checkIP_static (mx_host m) tr) as (v1 & e1 & Ec & Hv1). unfold xbind. rewrite Ec. cbn [fst snd].
      destruct (dgtb v1 valid) eqn:Eg.
      + destruct (IH v1 e1 (XIp (mx_host m) :: tr)) as (v & e'' & tr' & E & H). exists v, e'', tr'. split; auto.
        destruct H as [[(m' & H1 & H2) ->]|[H1 (vs & H2 & ->)]].
        * left. split; auto. exists m'. split; auto. now right.
        * right. split; [intros m' [<-|H]; auto|]. exists (v1 :: vs). split; [constructor; auto|].
          cbn [fold_left]. unfold dmax at 3. rewrite Eg. reflexivity.
      + destruct (IH valid e (XIp (mx_host m) :: tr)) as (v & e'' & tr' & E & H). exists v, e'', tr'. split; auto.
        destruct H as [[(m' & H1 & H2) ->]|[H1 (vs & H2 & ->)]].
        * left. split; auto. exists m'. split; auto. now right.
        * right. split; [intros m' [<-|H]; auto|]. exists (v1 :: vs). split; [constructor; auto|].
          cbn [fold_left]. unfold dmax at 3. rewrite Eg. reflexivity.
  Qed.

  Lemma fold_dmax vs : forall v0, let v := fold_left dmax vs v0 in
    In v (v0 :: vs) /\ forall x, In x (v0 :: vs) -> dcode x <= dcode v.
  Proof.
    induction vs as [|x vs IH]; intros v0; cbn [fold_left].
    - split; [now left|]. intros x [->|[]]. lia.
    - destruct (IH (dmax v0 x)) as [H1 H2]. set (v := fold_left dmax vs (dmax v0 x)) in *. split.
      + destruct H1 as [<-|H1]; [|now right; right]. unfold dmax. destruct (dgtb x v0); [right; left|left]; auto.
      + assert (dcode v0 <= dcode (dmax v0 x) /\ dcode x <= dcode (dmax v0 x)).
        { unfold dmax, dgtb. destruct (Nat.ltb_spec (dcode v0) (dcode x)); lia. }
        assert (dcode (dmax v0 x) <= dcode v) by (apply H2; now left).
        intros y [->|[->|Hy]]; try lia. apply H2. now right.
  Qed.

  (** Every check of a domain gives the documented verdict. *)
  Theorem C30_domain_verdict d tr : exists v e tr',
    ValidDomain W d tr = ((v, e), tr') /\ DomainVerdict (w_uni W) ips d (w_mx W 0 (d ++ B ".")) v.
  Proof.
    unfold ValidDomain, lookup_mx, ask, xbind at 1. rewrite (st_mx W HW (length tr) 0).
    destruct (w_mx W 0 (d ++ B ".")) as [l|e].
    - destruct (checkMXs_spec d l dnsUndef None (XMx (d ++ B ".") :: tr)) as (v & e' & tr' & E & H).
      exists v, e', tr'. split; auto. destruct H as [[(m & H1 & H2) ->]|[H1 (vs & H2 & ->)]].
      + eapply DV_bogus; eauto.
      + destruct l as [|m l]; [inversion H2; apply DV_no_mx|].
        destruct (fold_dmax vs dnsUndef) as [I M]. set (v := fold_left dmax vs dnsUndef) in *.
        assert (Hin : forall x, In x vs -> exists m', In m' (m :: l) /\ HostVerdict (ips (mx_host m')) x).
        { intros x Hx. clear -H2 Hx. induction H2 as [|a b la lb Hab _ IH]; [destruct Hx|].
          destruct Hx as [->|Hx]; [exists a; split; [now left|auto]|]. destruct (IH Hx) as (m' & A & Bx). exists m'. split; [now right|auto]. }
        assert (Hin2 : forall m', In m' (m :: l) -> exists x, In x vs /\ HostVerdict (ips (mx_host m')) x).
        { intros x Hx. clear -H2 Hx. induction H2 as [|a b la lb Hab _ IH]; [destruct Hx|].
          destruct Hx as [->|Hx]; [exists b; split; [now left|auto]|]. destruct (IH Hx) as (m' & A & Bx). exists m'. split; [now right|auto]. }
        assert (Hv : In v vs).
        { destruct I as [Ev|I]; auto. exfalso. destruct (Hin2 m (or_introl eq_refl)) as (x & Hx & Hh).
          assert (dcode x <= dcode v) by (apply M; now right). rewrite <- Ev in H.
          destruct (HostVerdict_cases _ _ Hh) as [->|[->| ->]]; simpl in H; lia. }
        destruct (Hin v Hv) as (m' & Hm' & Hh). destruct (HostVerdict_cases _ _ Hh) as [Ev|[Ev|Ev]]; rewrite Ev in *.
        * eapply DV_good; eauto.
        * eapply DV_tempfail; eauto. intros m'' Hm'' HG. destruct (Hin2 m'' Hm'') as (x & Hx & Hx').
          assert (x = dnsGood) as -> by (eapply HostVerdict_det; eauto).
          assert (dcode dnsGood <= dcode dnsTempfail) by (apply M; now right). simpl in *. lia.
        * apply DV_bad; auto; [discriminate|]. intros m'' Hm''. destruct (Hin2 m'' Hm'') as (x & Hx & Hx').
          assert (dcode x <= dcode dnsBad) by (apply M; now right).
          destruct (HostVerdict_cases _ _ Hx') as [->|[->| ->]]; simpl in *; auto; lia.
    - destruct (isTemporary e) eqn:Et.
      + do 3 eexists. split; [reflexivity|]. apply DV_temp. apply isTemporary_spec. auto.
      + destruct (checkIP_static (d ++ B ".") (XMx (d ++ B ".") :: tr)) as (v & e' & E & H).
        do 3 eexists. split; [exact E|]. apply DV_host; auto. rewrite <- isTemporary_spec. congruence.
  Qed.
End Domain.

(** The verdict is determined by the answers, and the order of the MX entries
    is irrelevant. *)
Theorem C30_order_irrelevant U ips d l l' v v' : Permutation l l' ->
  DomainVerdict U ips d (inl l) v -> DomainVerdict U ips d (inl l') v' -> v = v'.
Proof.
  intros HP H H'.
  assert (HI : forall m, In m l <-> In m l') by (intros m; split; apply Permutation_in; auto; now apply Permutation_sym).
  assert (HN : l = [] <-> l' = []).
  { split; intros ->; [apply Permutation_nil|apply Permutation_nil; apply Permutation_sym]; auto. }
  inversion H as [| |l0 m Hm Hb E|l0 m Hn Hm Hh E|l0 m Hn Hm Hh Hg E|l0 Hl Hn Hb E|E]; subst;
  inversion H' as [| |l1 m' Hm' Hb' E'|l1 m' Hn' Hm' Hh' E'|l1 m' Hn' Hm' Hh' Hg' E'|l1 Hl' Hn' Hb' E'|E']; subst; auto; exfalso.
  all: try (apply Hl; now apply HN). all: try (apply Hl'; now apply HN).
  all: try match goal with H1 : In ?x ?l, H2 : Permutation [] ?l |- _ => apply HI in H1; destruct H1 end.
  all: try match goal with H1 : In ?x ?l, H2 : Permutation ?l [] |- _ => apply HI in H1; destruct H1 end.
  all: try (exact (Hn' m (proj1 (HI m) Hm) Hb)). all: try (exact (Hn m' (proj2 (HI m') Hm') Hb')).
  all: try (exact (Hg' m (proj1 (HI m) Hm) Hh)). all: try (exact (Hg m' (proj2 (HI m') Hm') Hh')).
  all: try (pose proof (HostVerdict_det _ _ _ Hh (Hb' m (proj1 (HI m) Hm))); discriminate).
  all: try (pose proof (HostVerdict_det _ _ _ Hh' (Hb m' (proj2 (HI m') Hm'))); discriminate).
Qed.

Lemma ex_world_static : static ex_world.
Proof. split; reflexivity. Qed.
Lemma ex_world_ips n : ips_ok (w_ip ex_world 0 n).
Proof. cbn. destruct (_ || _); [|exact I]. repeat constructor. Qed.

Example C30_example :
  fst (fst (ValidDomain ex_world (B "nosuch.org") [])) = dnsBad /\
  fst (fst (ValidDomain ex_world (B "good.org") [])) = dnsBad /\
  usable (mk_v4 (128 * 2 ^ 24 + 100)) /\ private_ip (mk_v4 (10 * 2 ^ 24 + 5)).
Proof.
  split; [vm_compute; reflexivity|]. split; [vm_compute; reflexivity|]. split.
  - split; [now apply global_spec|]. rewrite <- private_nets_spec by (vm_compute; reflexivity). vm_compute. discriminate.
  - rewrite <- private_nets_spec by (vm_compute; reflexivity). vm_compute. reflexivity.
Qed.

(** ** C31 *)

Inductive nclass := NVerified | NNofwd | NInconsist.

(** What a forward lookup says about a name claimed by the address [addr]. *)
Inductive NameClass (addr : bytes) : list ip + dnserr -> nclass -> Prop :=
| NC_nofwd e : NameClass addr (inr e) NNofwd
| NC_verified l x : parse_ip addr = Some x -> In x l -> NameClass addr (inl l) NVerified
| NC_inconsist l : (forall x, parse_ip addr = Some x -> ~ In x l) -> NameClass addr (inl l) NInconsist.

Definition names_of (k : nclass) (l : list (bytes * nclass)) : list bytes :=
  map fst (filter (fun p => match snd p, k with
                            | NVerified, NVerified | NNofwd, NNofwd | NInconsist, NInconsist => true
                            | _, _ => false end) l).

Lemma names_of_app k a b : names_of k (a ++ b) = names_of k a ++ names_of k b.
Proof. unfold names_of. now rewrite filter_app, map_app. Qed.

Lemma verifyNames_spec W addr names : forall r tr, exists cls,
  verifyNames W (parse_ip addr) names r tr =
    (mkRdns (rd_verified r ++ names_of NVerified cls) (rd_nofwd r ++ names_of NNofwd cls)
            (rd_inconsist r ++ names_of NInconsist cls), rev (map XIp names) ++ tr) /\
  map fst cls = names /\
  forall i n k, nth_error cls i = Some (n, k) -> NameClass addr (w_ip W (length tr + i) n) k.
Proof.
  induction names as [|n ns IH]; intros r tr.
  - exists []. split; [|split; auto; intros [|i] ? ?; discriminate]. cbn. rewrite !app_nil_r. destruct r. reflexivity.
  - cbn [verifyNames]. unfold lookup_ip, ask, xbind at 1.
    assert (HS : forall r' k, NameClass addr (w_ip W (length tr) n) k ->
      r' = mkRdns (rd_verified r ++ names_of NVerified [(n, k)]) (rd_nofwd r ++ names_of NNofwd [(n, k)])
                  (rd_inconsist r ++ names_of NInconsist [(n, k)]) ->
      exists cls, verifyNames W (parse_ip addr) ns r' (XIp n :: tr) =
    (mkRdns (rd_verified r ++ names_of NVerified cls) (rd_nofwd r ++ names_of NNofwd cls)
            (rd_inconsist r ++ names_of NInconsist cls), rev (map XIp (n :: ns)) ++ tr) /\
      map fst cls = n :: ns /\
      forall i n k, nth_error cls i = Some (n, k) -> NameClass addr (w_ip W (length tr + i) n) k).
    { intros r' k Hk ->. destruct (IH (mkRdns (rd_verified r ++ names_of NVerified [(n, k)]) (rd_nofwd r ++ names_of NNofwd [(n, k)])
                  (rd_inconsist r ++ names_of NInconsist [(n, k)])) (XIp n :: tr)) as (cls & E & M & C).
      exists ((n, k) :: cls). split; [|split].
      - rewrite E. cbn [rd_verified rd_nofwd rd_inconsist map rev]. rewrite <- !app_assoc, <- !names_of_app. reflexivity.
      - cbn [map fst]. now rewrite M.
      - intros [|i] n' k' Hn.
        + injection Hn as <- <-. rewrite Nat.add_0_r. auto.
        + apply C in Hn. cbn [length] in Hn. rewrite <- plus_n_Sm. exact Hn. }
    destruct (w_ip W (length tr) n) as [l|e].
    + destruct (existsb (fun x => ip_equal (Some x) (parse_ip addr)) l) eqn:Ee.
      * apply existsb_exists in Ee as (x & Hx & He). destruct (parse_ip addr) as [y|] eqn:Ep; [|discriminate].
        apply N.eqb_eq in He. subst y. apply (HS _ NVerified).
        -- eapply NC_verified; eauto.
        -- cbn. rewrite !app_nil_r. reflexivity.
      * apply (HS _ NInconsist).
        -- apply NC_inconsist. intros x Ex Hx.
           assert (existsb (fun x => ip_equal (Some x) (parse_ip addr)) l = true); [|congruence].
           apply existsb_exists. exists x. split; auto. rewrite Ex. apply N.eqb_refl.
        -- cbn. rewrite !app_nil_r. reflexivity.
    + apply (HS _ NNofwd); [constructor|]. cbn. rewrite !app_nil_r. reflexivity.
Qed.

(** Every name found for an address is classified once, by its own forward
    lookup, and the classes list the names in sorted order.  The names are
    looked up one after the other, so name number i gets the answer of the
    (i+1)-th call after the reverse lookup. *)
Theorem C31_every_name_classified W addr names tr : addr <> [] ->
  w_addr W (length tr) addr = inl names ->
  exists r tr' cls, LookupAddrVerified W addr tr = ((r, false), tr') /\
    Permutation (map fst cls) names /\ StronglySorted (fun a b => blt b a = false) (map fst cls) /\
    (forall i n k, nth_error cls i = Some (n, k) -> NameClass addr (w_ip W (length tr + 1 + i) n) k) /\
    rd_verified r = names_of NVerified cls /\ rd_nofwd r = names_of NNofwd cls /\
    rd_inconsist r = names_of NInconsist cls.
Proof.
  intros Ha E. unfold LookupAddrVerified. destruct addr as [|c addr']; [congruence|].
  set (addr := c :: addr') in *. unfold lookup_addr, ask, xbind at 1. rewrite E.
  destruct (verifyNames_spec W addr (ssort names) no_rdns (XAddr addr :: tr)) as (cls & Ev & M & C).
  unfold xbind. rewrite Ev. do 2 eexists. exists cls. split; [reflexivity|]. rewrite M. split; [|split; [|split]].
  - apply Permutation_sym. apply ssort_perm_self.
  - apply ssort_sorted.
  - intros i n k Hn. apply C in Hn. cbn [length] in Hn. replace (length tr + 1 + i) with (S (length tr) + i) by lia. exact Hn.
  - cbn. auto.
Qed.

(** Without an address, or if the reverse lookup fails, there are no names. *)
Theorem C31_no_names W addr tr :
  (addr = [] \/ exists e, w_addr W (length tr) addr = inr e) -> fst (fst (LookupAddrVerified W addr tr)) = no_rdns.
Proof.
  intros [->|(e & E)]; [reflexivity|]. unfold LookupAddrVerified. destruct addr; [reflexivity|].
  unfold lookup_addr, ask, xbind. rewrite E. reflexivity.
Qed.

Example C31_example :
  let W := {| w_uni := plain_unicode; w_file := fun _ _ => FNoent;
              w_ip := fun _ n => if beqb n (B "b.org.") then inl [mk_v4 5; mk_v4 16909060] else
                                 if beqb n (B "a.org.") then inl [mk_v4 5] else inr (mkDnsErr true false [] []);
              w_mx := fun _ _ => inl [];
              w_addr := fun _ _ => inl [B "c.org."; B "b.org."; B "a.org."];
              w_order := fun _ l => l; w_ipstr := fun _ => [] |} in
  fst (fst (LookupAddrVerified W (B "1.2.3.4") [])) = mkRdns [B "b.org."] [B "c.org."] [B "a.org."].
Proof. vm_compute. reflexivity. Qed.
