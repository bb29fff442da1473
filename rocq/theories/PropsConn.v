(** Properties of the per-destination configuration: the parts of C56 about
    the file and the choice of its line.  PropsSession.v has what a session
    does with the line. *)
From Verif Require Import Bytes Outcome GoNet PropsParse World Eval PropsMatch PropsAttr ConnCfg.

(** ** The choice of a line *)

Lemma last_index_app a c b : ~ In c b -> last_index (a ++ c :: b) c = Some (length a).
Proof.
  intros Hb. unfold last_index. rewrite rev_app_distr. cbn [rev]. rewrite <- app_assoc. cbn [app].
  rewrite index_byte_app by (rewrite <- in_rev; auto). rewrite rev_length, app_length. cbn [length]. f_equal. lia.
Qed.

Lemma mem_byte_false c s : ~ In c s -> mem_byte c s = false.
Proof. intros H. destruct (mem_byte c s) eqn:E; auto. apply mem_byte_In in E. tauto. Qed.

Lemma skipn_app2 {A} (a : list A) x b : skipn (S (length a)) (a ++ x :: b) = b.
Proof. induction a; simpl; auto. Qed.
Lemma firstn_app2 {A} (a : list A) b : firstn (length a) (a ++ b) = a.
Proof. induction a; simpl; congruence. Qed.

(** The text of an address: HOST:PORT, or [HOST]:PORT when the host has a colon. *)
Inductive AddrText : bytes -> bytes -> bytes -> Prop :=
| AT_plain h p : (forall c, In c h -> ~ In c (B ":[]")) -> (forall c, In c p -> ~ In c (B ":[]")) ->
    AddrText h p (h ++ B ":" ++ p)
| AT_brack h p : (forall c, In c h -> ~ In c (B "[]")) -> (forall c, In c p -> ~ In c (B ":[]")) ->
    AddrText h p (B "[" ++ h ++ B "]:" ++ p).

Lemma host_of_text h p s : AddrText h p s -> host_of s = h.
Proof.
  unfold host_of, split_host_port. intros [h' p' Hh Hp|h' p' Hh Hp].
  - assert (Hpc : forall c, In c (B ":[]") -> ~ In c p') by (intros c Hc Hi; apply (Hp c); auto).
    assert (Hhc : forall c, In c (B ":[]") -> ~ In c h') by (intros c Hc Hi; apply (Hh c); auto).
    change (B ":" ++ p') with (":"%char :: p'). rewrite last_index_app by (apply Hpc; simpl; auto).
    rewrite firstn_app2, skipn_app2.
    assert (E : forall c, c = "["%char \/ c = "]"%char -> mem_byte c (h' ++ ":"%char :: p') = false).
    { intros c Hc. apply mem_byte_false. rewrite in_app_iff. intros [Hi|[Hi|Hi]].
      - revert Hi. apply Hhc. destruct Hc; subst; simpl; auto.
      - destruct Hc; subst; discriminate.
      - revert Hi. apply Hpc. destruct Hc; subst; simpl; auto. }
    rewrite !E by auto. rewrite (mem_byte_false ch_colon h') by (apply Hhc; simpl; auto).
    destruct h' as [|c h']; [reflexivity|]. cbn [app].
    destruct (Ascii.eqb_spec c "[") as [->|Hc]; [exfalso; eapply Hhc; [|now left]; simpl; auto|].
    destruct c as [[] [] [] [] [] [] [] []]; try reflexivity. congruence.
  - assert (Hpc : forall c, In c (B ":[]") -> ~ In c p') by (intros c Hc Hi; apply (Hp c); auto).
    assert (Hhc : forall c, In c (B "[]") -> ~ In c h') by (intros c Hc Hi; apply (Hh c); auto).
    replace (B "[" ++ h' ++ B "]:" ++ p') with ((B "[" ++ h' ++ B "]") ++ ":"%char :: p')
      by (rewrite <- !app_assoc; reflexivity).
    rewrite last_index_app by (apply Hpc; simpl; auto).
    rewrite skipn_app2. rewrite <- !app_assoc. cbn [app B list_ascii_of_string].
    replace (index_byte ("["%char :: h' ++ "]"%char :: ":"%char :: p') "]") with (Some (S (length h'))).
    2: { symmetry. apply (index_byte_app ("["%char :: h')). intros [Hi|Hi]; [discriminate|]. revert Hi. apply Hhc. simpl; auto. }
    cbn [length skipn]. rewrite !app_length. cbn [length].
    destruct (Nat.eqb_spec (S (length h') + 1) (S (length h' + S (S (length p'))))); [lia|].
    destruct (Nat.eqb_spec (S (length h') + 1) (S (length h' + 1))); [|lia].
    assert (E1 : mem_byte "[" (h' ++ "]"%char :: ":"%char :: p') = false).
    { apply mem_byte_false. rewrite in_app_iff. intros [Hi|[Hi|[Hi|Hi]]]; try discriminate; revert Hi; [apply Hhc|apply Hpc]; simpl; auto. }
    assert (E2 : mem_byte "]" (skipn (S (length h') + 1) ("["%char :: h' ++ "]"%char :: ":"%char :: p')) = false).
    { rewrite Nat.add_1_r. change (skipn (S (S (length h'))) ("["%char :: h' ++ "]"%char :: ":"%char :: p'))
        with (skipn (S (length h')) (h' ++ "]"%char :: ":"%char :: p')).
      rewrite skipn_app2. apply mem_byte_false. intros [Hi|Hi]; [discriminate|]. revert Hi. apply Hpc. simpl; auto. }
    rewrite E1, E2. cbn [orb]. rewrite Nat.sub_succ, Nat.sub_0_r. apply firstn_app2.
Qed.

(** The LOCAL of a line covers connections to [addr], whose host is [h]. *)
Definition Covers (addr h : bytes) (local : bytes) : Prop :=
  local = B "*" \/ local = addr \/
  exists x, parse_ip h = Some x /\
    (parse_ip local = Some x \/ exists base len, CidrText local base len /\ InBlock x base len).

Lemma de_matches_matchIp las local :
  de_matches las (parse_ip (host_of las)) local =
  beqb local (B "*") || beqb local las || matchIp (host_of las) local.
Proof.
  unfold de_matches, matchIp.
  destruct (beqb local (B "*") || beqb local las); auto.
Qed.

Lemma de_matches_covers addr h p x local : AddrText h p addr -> parse_ip h = Some x ->
  de_matches addr (parse_ip (host_of addr)) local = true <-> Covers addr h local.
Proof.
  intros Ha Hx. rewrite de_matches_matchIp, !orb_true_iff, !beqb_eq, (host_of_text _ _ _ Ha), (C20_ip_matches _ x) by auto.
  unfold Covers. split.
  - intros [[H|H]|H]; auto. right. right. exists x. auto.
  - intros [H|[H|(x' & E & H)]]; auto. assert (x' = x) as -> by congruence. auto.
Qed.

(** The line used is the first one that covers the local address. *)
Theorem C56_first_line d addr h p x pd : AddrText h p addr -> parse_ip h = Some x ->
  dm_find (Some d) addr = Some pd <->
  exists before after, d = before ++ pd :: after /\ Covers addr h (pd_local pd) /\
    Forall (fun e => ~ Covers addr h (pd_local e)) before.
Proof.
  intros Ha Hx. unfold dm_find. split.
  - induction d as [|e d IH]; [discriminate|]. cbn [find].
    destruct (de_matches addr (parse_ip (host_of addr)) (pd_local e)) eqn:E.
    + intros [= <-]. exists [], d. split; [reflexivity|]. split; [|constructor].
      eapply de_matches_covers; eauto.
    + intros H. apply IH in H as (bf & af & -> & Hc & Hf). exists (e :: bf), af.
      split; [reflexivity|]. split; auto. constructor; auto.
      rewrite <- (de_matches_covers addr h p x) by auto. congruence.
  - intros (bf & af & -> & Hc & Hf). induction Hf as [|e bf He Hf IH]; cbn [app find].
    + apply (de_matches_covers addr h p x) in Hc; auto. rewrite Hc. reflexivity.
    + destruct (de_matches addr (parse_ip (host_of addr)) (pd_local e)) eqn:E; auto.
      exfalso. apply He. eapply de_matches_covers; eauto.
Qed.
Theorem C56_no_line d addr h p x : AddrText h p addr -> parse_ip h = Some x ->
  dm_find (Some d) addr = None <-> Forall (fun e => ~ Covers addr h (pd_local e)) d.
Proof.
  intros Ha Hx. unfold dm_find. induction d as [|e d IH]; cbn [find]; [split; auto|].
  destruct (de_matches addr (parse_ip (host_of addr)) (pd_local e)) eqn:E.
  - split; [discriminate|]. intros H. inversion_clear H. exfalso. apply H0. eapply de_matches_covers; eauto.
  - rewrite IH. split; [|intros H; inversion H; auto]. intros H. constructor; auto.
    rewrite <- (de_matches_covers addr h p x) by auto. congruence.
Qed.
Theorem C56_no_file addr : dm_find None addr = None.
Proof. reflexivity. Qed.

(** With a zone in the local address (or any other text that is not a plain
    IP address) a line covers it though it is for another network. *)
Theorem C56_zone_refuted : exists d addr h p pd,
  AddrText h p addr /\ dm_find (Some d) addr = Some pd /\ ~ Covers addr h (pd_local pd).
Proof.
  exists [mkPerDest (B "10.0.0.0/8") (B "ten.example.com") []], (B "[fe80::1%eth0]:25"), (B "fe80::1%eth0"), (B "25").
  eexists. split; [|split; [vm_compute; reflexivity|]].
  - apply (AT_brack (B "fe80::1%eth0") (B "25")); intros c H H'; revert H H'; cbn; intuition (subst; discriminate).
  - intros [H|[H|(x & H & _)]]; vm_compute in H; discriminate H.
Qed.

Example C56_find_example :
  let d := [mkPerDest (B "127.0.0.2:25") (B "two") []; mkPerDest (B "127.0.0.0/8") (B "net") [B "c"];
            mkPerDest (B "*") (B "any") []] in
  AddrText (B "127.0.0.1") (B "25") (B "127.0.0.1:25") /\ parse_ip (B "127.0.0.1") <> None /\
  option_map pd_myname (dm_find (Some d) (B "127.0.0.1:25")) = Some (B "net") /\
  option_map pd_myname (dm_find (Some d) (B "127.0.0.2:25")) = Some (B "two") /\
  option_map pd_myname (dm_find (Some d) (B "[::1]:25")) = Some (B "any").
Proof.
  split; [|split; [discriminate|vm_compute; auto]].
  apply (AT_plain (B "127.0.0.1") (B "25")); intros c H H'; revert H H'; cbn; intuition (subst; discriminate).
Qed.

(** ** The lines of the file *)

(** [key=value] options: the value of the last one with this key, empty when
    there is none. *)
Inductive Value (key : bytes) : list bytes -> bytes -> Prop :=
| V_none opts : (forall o v, In o opts -> o <> key ++ B "=" ++ v) -> Value key opts []
| V_last pre v post : (forall o v', In o post -> o <> key ++ B "=" ++ v') ->
    Value key (pre ++ (key ++ B "=" ++ v) :: post) v.

Definition option_keys : list bytes := [B "hostname"; B "cert"; B "key"].

(** The certificates of comma-separated lists of equal length of certificate
    and key files *)
Definition Certs (ld : keypair) (c k : bytes) (certs : list bytes) : Prop :=
  exists cs ks, c = join (B ",") cs /\ k = join (B ",") ks /\ length cs = length ks /\ cs <> [] /\
    Forall (fun f => ~ In ","%char f) (cs ++ ks) /\
    Forall2 (fun ck x => ld (fst ck) (snd ck) = inl x) (combine cs ks) certs.

(** LOCAL [hostname=NAME] [cert=FILES key=FILES] *)
Inductive LineFor (U : unicode) (ld : keypair) (line : bytes) : perDest -> Prop :=
| LF local opts host cert key certs :
    fields U line = local :: opts -> (length opts <= 3)%nat ->
    Forall (fun o => exists k v, In k option_keys /\ o = k ++ B "=" ++ v) opts ->
    Value (B "hostname") opts host -> Value (B "cert") opts cert -> Value (B "key") opts key ->
    (cert = [] /\ key = [] /\ certs = [] \/ cert <> [] /\ key <> [] /\ Certs ld cert key certs) ->
    LineFor U ld line (mkPerDest local host certs).

(** The lines of a file, in order; blank lines and comments are skipped. *)
Inductive FileFor (U : unicode) (ld : keypair) : list bytes -> destMap -> Prop :=
| FF_nil : FileFor U ld [] []
| FF_blank l ls d : trim_space U l = [] -> FileFor U ld ls d -> FileFor U ld (l :: ls) d
| FF_comment l ls d t : trim_space U l = B "#" ++ t -> FileFor U ld ls d -> FileFor U ld (l :: ls) d
| FF_line l ls d pd : trim_space U l <> [] -> (forall t, trim_space U l <> B "#" ++ t) ->
    LineFor U ld (trim_space U l) pd -> FileFor U ld ls d -> FileFor U ld (l :: ls) (pd :: d).

Lemma split2_spec s c a b : split2 s c = (a, Some b) <-> s = a ++ c :: b /\ ~ In c a.
Proof.
  unfold split2. split.
  - destruct (index_byte s c) as [i|] eqn:E; [|discriminate]. apply index_byte_Some in E as (x & y & -> & <- & Hn).
    rewrite firstn_app2, skipn_app2. intros [= <- <-]. auto.
  - intros [-> Hn]. rewrite index_byte_app by auto. rewrite firstn_app2, skipn_app2. reflexivity.
Qed.
Lemma split2_none s c : snd (split2 s c) = None <-> ~ In c s.
Proof.
  unfold split2. destruct (index_byte s c) eqn:E.
  - apply index_byte_Some in E as (x & y & -> & _ & _). split; [discriminate|]. intros H. exfalso. apply H. apply in_elt.
  - apply index_byte_None in E. split; auto.
Qed.

Lemma split_byte_comma s c : Forall (fun f => ~ In c f) (split_byte s c).
Proof.
  induction s as [|x s IH]; simpl; [constructor; auto|]. destruct (Ascii.eqb_spec x c) as [->|Hx].
  - constructor; auto.
  - destruct (split_byte s c); [constructor; auto; intros [|[]]; auto|]. inversion_clear IH.
    constructor; auto. intros [|]; auto.
Qed.
Lemma split_byte_one w c : ~ In c w -> split_byte w c = [w].
Proof.
  induction w as [|x w IH]; simpl; auto. intros H. destruct (Ascii.eqb_spec x c) as [->|]; [exfalso; auto|].
  rewrite IH; auto.
Qed.
Lemma split_byte_app w c s : ~ In c w -> split_byte (w ++ c :: s) c = w :: split_byte s c.
Proof.
  induction w as [|x w IH]; simpl; intros H; [now rewrite Ascii.eqb_refl|].
  destruct (Ascii.eqb_spec x c) as [->|]; [exfalso; auto|]. rewrite IH; auto.
Qed.
Lemma split_join ws c : ws <> [] -> Forall (fun f => ~ In c f) ws -> split_byte (join [c] ws) c = ws.
Proof.
  intros Hne H. induction H as [|w ws Hw H IH]; [congruence|]. destruct ws as [|w2 ws].
  - apply split_byte_one; auto.
  - cbn [join app] in *. rewrite split_byte_app by auto. f_equal. apply IH. discriminate.
Qed.

Lemma loadPairs_spec ld many cs : forall ks certs, length cs = length ks ->
  loadPairs ld many cs ks = inl certs <-> Forall2 (fun ck x => ld (fst ck) (snd ck) = inl x) (combine cs ks) certs.
Proof.
  induction cs as [|c cs IH]; intros [|k ks] certs; cbn [length loadPairs combine]; try discriminate; intros Hl.
  - split; [intros [= <-]; constructor|intros H; inversion H; auto].
  - destruct (ld c k) as [x|e] eqn:E.
    + split.
      * destruct (loadPairs ld many cs ks) as [xs|] eqn:E2; [|discriminate]. intros [= <-]. constructor; auto.
        apply IH; auto.
      * intros H. inversion_clear H. simpl in H0. assert (y = x) as -> by congruence.
        apply IH in H1; auto. rewrite H1. auto.
    + split; [discriminate|]. intros H. inversion_clear H. simpl in H0. congruence.
Qed.

Lemma loadCerts_spec ld c k certs : loadCerts ld c k = inl certs <-> Certs ld c k certs.
Proof.
  unfold loadCerts, Certs. split.
  - destruct (Nat.eqb_spec (length (split_byte c ",")) (length (split_byte k ","))) as [Hl|]; [|discriminate].
    cbn [negb]. intros H. apply loadPairs_spec in H; auto.
    exists (split_byte c ","), (split_byte k ","). rewrite !(join_split _ ","%char).
    split; auto. split; auto. split; auto. split; [apply split_byte_nonempty|]. split; auto.
    apply Forall_app. split; apply split_byte_comma.
  - intros (cs & ks & -> & -> & Hl & Hn & Hf & H2). apply Forall_app in Hf as [Hf1 Hf2].
    assert (ks <> []) by (destruct cs, ks; simpl in *; congruence).
    change (B ",") with [","%char]. rewrite !split_join by auto. rewrite Hl, Nat.eqb_refl. cbn [negb].
    apply loadPairs_spec; auto.
Qed.

Local Lemma some_inj {A} (x y : A) : Some x = Some y -> x = y.
Proof. congruence. Qed.
Lemma Value_fun key opts v v' : Value key opts v -> Value key opts v' -> v = v'.
Proof.
  intros H H'. remember opts as opts' eqn:E in H'. revert E.
  destruct H as [o H|pre x post H], H' as [o2 H2|pre2 x2 post2 H2]; intros E; auto.
  - exfalso. eapply H; [rewrite <- E; apply in_elt|reflexivity].
  - exfalso. eapply H2; [rewrite E; apply in_elt|reflexivity].
  - revert pre2 E. induction pre as [|o pre IH]; intros [|o2 pre2] E; cbn [app] in E.
    + apply (f_equal (@hd_error _)) in E. apply some_inj in E. apply app_inv_head in E. apply (app_inv_head (B "=")) in E. congruence.
    + apply (f_equal (@tl _)) in E. cbn [tl] in E. exfalso. eapply H; [rewrite <- E; apply in_elt|reflexivity].
    + apply (f_equal (@tl _)) in E. cbn [tl] in E. exfalso. eapply H2; [rewrite E; apply in_elt|reflexivity].
    + apply (f_equal (@tl _)) in E. cbn [tl] in E. eauto.
Qed.

Lemma key_no_eq k : In k option_keys -> ~ In "="%char k.
Proof. intros [<-|[<-|[<-|[]]]] H; apply mem_byte_In in H; discriminate. Qed.

Lemma key_eq_inj k k' v v' : ~ In "="%char k -> ~ In "="%char k' -> k ++ B "=" ++ v = k' ++ B "=" ++ v' -> k = k' /\ v = v'.
Proof.
  intros H H' E. assert (S1 : split2 (k ++ B "=" ++ v) "=" = (k, Some v)) by (apply split2_spec; auto).
  assert (S2 : split2 (k' ++ B "=" ++ v') "=" = (k', Some v')) by (apply split2_spec; auto).
  rewrite E in S1. rewrite S1 in S2. injection S2 as <- <-. auto.
Qed.

(** the value an option list gives to a key, when the value before is [v0] *)
Definition Value0 (key : bytes) (v0 : bytes) (opts : list bytes) (v : bytes) : Prop :=
  (exists x, In (key ++ B "=" ++ x) opts) /\ Value key opts v \/
  (forall x, ~ In (key ++ B "=" ++ x) opts) /\ v = v0.

Lemma Value0_cons_same key v0 x opts v : Value0 key x opts v -> Value0 key v0 ((key ++ B "=" ++ x) :: opts) v.
Proof.
  intros [[(y & Hy) H]|[H ->]]; left; (split; [eexists; now left || (right; eauto)|]).
  - destruct H as [o Ho|pre w post Hp]; [exfalso; eapply Ho; eauto|]. apply (V_last key (_ :: pre)). auto.
  - apply (V_last key []). intros o v' Hi ->. eapply H; eauto.
Qed.
Lemma Value0_cons_other key k v0 x opts v : ~ In "="%char k -> ~ In "="%char key -> k <> key ->
  Value0 key v0 opts v -> Value0 key v0 ((k ++ B "=" ++ x) :: opts) v.
Proof.
  intros Hk Hkey Hne [[(y & Hy) H]|[H ->]].
  - left. split; [exists y; now right|]. destruct H as [o Ho|pre w post Hp]; [exfalso; eapply Ho; eauto|].
    apply (V_last key (_ :: pre)). auto.
  - right. split; auto. intros y [E|Hi]; [|eapply H; eauto]. apply key_eq_inj in E as [-> _]; auto.
Qed.
Lemma Value0_nil key opts v : Value0 key [] opts v <-> Value key opts v.
Proof.
  split.
  - intros [[_ H]|[H ->]]; auto. constructor. intros o x Hi ->. eapply H; eauto.
  - intros [o H|pre x post H].
    + right. split; auto. intros x Hi. eapply H; eauto.
    + left. split; [eexists; apply in_elt|]. constructor. auto.
Qed.

Definition opt_ok (o : bytes) : Prop := exists k v, In k option_keys /\ o = k ++ B "=" ++ v.

Lemma conn_fields_ok lnum fs : forall v0 v, conn_fields lnum fs v0 = inl v ->
  Forall opt_ok fs /\ Value0 (B "hostname") (cf_host v0) fs (cf_host v) /\
  Value0 (B "cert") (cf_cert v0) fs (cf_cert v) /\ Value0 (B "key") (cf_key v0) fs (cf_key v).
Proof.
  induction fs as [|s fs IH]; intros v0 v; cbn [conn_fields].
  - intros [= <-]. split; [constructor|]. unfold Value0. auto 8.
  - destruct (split2 s "=") as [k [x|]] eqn:E; [|discriminate]. apply split2_spec in E as [-> Hn].
    assert (K : forall a, In a option_keys -> ~ In "="%char a) by apply key_no_eq.
    destruct (beqb_spec k (B "hostname")) as [->|N1]; [|destruct (beqb_spec k (B "cert")) as [->|N2]; [|destruct (beqb_spec k (B "key")) as [->|N3]; [|discriminate]]];
      intros H; apply IH in H as (F & H1 & H2 & H3); cbn [cf_host cf_cert cf_key] in *;
      (split; [constructor; auto; eexists; eexists; split; [|reflexivity]; simpl; auto|]).
    + split; [apply Value0_cons_same; auto|].
      split; apply (Value0_cons_other _ (B "hostname")); auto; try discriminate; apply K; simpl; auto.
    + split; [|split; [apply Value0_cons_same; auto|]];
      apply (Value0_cons_other _ (B "cert")); auto; try discriminate; apply K; simpl; auto.
    + split; [|split; [|apply Value0_cons_same; auto]];
      apply (Value0_cons_other _ (B "key")); auto; try discriminate; apply K; simpl; auto.
Qed.

Lemma conn_fields_total lnum fs v0 : Forall opt_ok fs -> exists v, conn_fields lnum fs v0 = inl v.
Proof.
  intros H. revert v0. induction H as [|o fs (k & x & Hk & ->) H IH]; intros v0; cbn [conn_fields]; [eauto|].
  assert (E : split2 (k ++ B "=" ++ x) "=" = (k, Some x)) by (apply split2_spec; split; auto using key_no_eq).
  rewrite E. destruct Hk as [<-|[<-|[<-|[]]]]; cbn; apply IH.
Qed.

Lemma conn_line_spec U ld lnum line pd :
  conn_line U ld lnum line = Ok (inl pd) <-> LineFor U ld line pd.
Proof.
  unfold conn_line. destruct (fields U line) as [|local opts] eqn:Ef.
  { split; [discriminate|]. intros H. inversion H; congruence. }
  split.
  - intros H. assert (H' : exists v, length opts <= 3 /\ conn_fields lnum opts (mkCf [] [] []) = inl v /\
      (if negb (beqb (cf_cert v) []) && negb (beqb (cf_key v) []) then
         exists certs, loadCerts ld (cf_cert v) (cf_key v) = inl certs /\ pd = mkPerDest local (cf_host v) certs
       else cf_cert v = [] /\ cf_key v = [] /\ pd = mkPerDest local (cf_host v) [])).
    { destruct (Nat.ltb_spec 4 (length (local :: opts))) as [|Hl]; [discriminate|]. simpl in Hl.
      destruct (conn_fields _ _ _) as [v|]; [|discriminate]. exists v. split; [lia|]. split; auto.
      destruct (beqb_spec (cf_cert v) []) as [E1|E1], (beqb_spec (cf_key v) []) as [E2|E2]; cbn [negb andb] in *; try discriminate.
      - injection H as <-. auto.
      - destruct (loadCerts _ _ _); [|discriminate]. injection H as <-. eauto. }
    clear H. destruct H' as (v & Hl & Hf & H). apply conn_fields_ok in Hf as (Ho & H1 & H2 & H3).
    cbn [cf_host cf_cert cf_key] in *. rewrite Value0_nil in H1, H2, H3.
    destruct (beqb_spec (cf_cert v) []) as [E1|E1], (beqb_spec (cf_key v) []) as [E2|E2]; cbn [negb andb] in H.
    1,2,3: destruct H as (E3 & E4 & ->); eapply LF; eauto; auto.
    destruct H as (certs & Hc & ->). apply loadCerts_spec in Hc. eapply LF; eauto.
  - intros H. inversion H as [local' opts' host cert key certs Ef' Hl Ho H1 H2 H3 Hc]; subst. rewrite Ef in Ef'. injection Ef' as <- <-.
    destruct (Nat.ltb_spec 4 (length (local :: opts))) as [Hl'|]; [simpl in Hl'; lia|].
    destruct (conn_fields_total lnum opts (mkCf [] [] []) Ho) as (v & E). rewrite E.
    apply conn_fields_ok in E as (_ & G1 & G2 & G3). cbn [cf_host cf_cert cf_key] in *. rewrite Value0_nil in G1, G2, G3.
    rewrite (Value_fun _ _ _ _ G1 H1), (Value_fun _ _ _ _ G2 H2), (Value_fun _ _ _ _ G3 H3).
    destruct Hc as [(-> & -> & ->)|(Hc & Hk & Hce)]; [reflexivity|].
    apply loadCerts_spec in Hce. rewrite Hce.
    destruct (beqb_spec cert []); [congruence|]. destruct (beqb_spec key []); [congruence|]. reflexivity.
Qed.

Lemma conn_line_ok U ld lnum line : fields U line <> [] -> exists r, conn_line U ld lnum line = Ok r.
Proof. unfold conn_line. destruct (fields U line); [congruence|eauto]. Qed.

(** Reading a file without a read error gives exactly its lines, in order, or
    an error when some line is not of the right form; it never crashes.  What
    follows the last newline is ignored. *)
Theorem C56_file U ld lines tail : unicode_ok U ->
  Forall (fun l => ~ In ch_nl l) lines -> ~ In ch_nl tail ->
  (forall d, conn_lines U ld 0 (nl_lines [] (end_lines lines ++ tail)) None = Ok (inl d) <-> FileFor U ld lines d) /\
  exists r, conn_lines U ld 0 (nl_lines [] (end_lines lines ++ tail)) None = Ok r.
Proof.
  intros HU Hl Ht. rewrite nl_lines_split by auto. clear Hl Ht. generalize 0 as n.
  induction lines as [|l ls IH]; intros n; cbn [map conn_lines].
  - split; [|eauto]. intros d. split; [intros [= <-]; constructor|intros H; inversion H; auto].
  - specialize (IH (S n)). destruct IH as [IH [r Hr]]. rewrite (trim_space_nl U l HU).
    pose proof (trim_space_fields U l HU) as Hf. destruct (trim_space U l) as [|c t] eqn:E.
    + rewrite Hr. split; [|eauto]. intros d. rewrite <- Hr, IH. split; [apply FF_blank; auto|].
      intros H. inversion H as [|? ? ? E'|? ? ? t' E'|? ls' d' pd' Hn Hn' HL HF]; subst; auto; try congruence.
    + destruct (Ascii.eqb_spec c "#") as [->|Hc].
      * rewrite Hr. split; [|eauto]. intros d. rewrite <- Hr, IH. split; [intros; apply (FF_comment _ _ _ _ _ t); auto|].
        intros H. inversion H as [|? ? ? E'|? ? ? t' E'|? ls' d' pd' Hn Hn' HL HF]; subst; auto. exfalso. eapply Hn'. rewrite E. reflexivity.
      * destruct (conn_line_ok U ld (S n) (c :: t)) as [p Hp]; [apply Hf; discriminate|].
        rewrite Hp. cbn [obind]. destruct p as [pd|e].
        -- rewrite Hr. cbn [obind]. split; [|eauto]. intros d.
           apply conn_line_spec in Hp. split.
           ++ destruct r as [d'|]; [|discriminate]. intros [= <-]. apply FF_line; rewrite ?E; auto; try discriminate.
              ** intros t' [= -> _]. auto.
              ** apply IH; auto.
           ++ intros H. inversion H as [|? ? ? E'|? ? ? t' E'|? ls' d' pd' Hn Hn' HL HF]; subst; try congruence.
              ** rewrite E in E'. injection E' as -> _. congruence.
              ** rewrite E in HL. apply IH in HF. rewrite Hr in HF. injection HF as ->.
                 apply (conn_line_spec U ld 0) in HL. apply (conn_line_spec U ld 0) in Hp. assert (pd = pd') as -> by congruence. reflexivity.
        -- split; [|eauto]. intros d. split; [discriminate|]. intros H.
           inversion H as [|? ? ? E'|? ? ? t' E'|? ls' d' pd' Hn Hn' HL HF]; subst; try congruence.
           ++ rewrite E in E'. injection E' as -> _. congruence.
           ++ rewrite E in HL. apply (conn_line_spec U ld (S n)) in HL. congruence.
Qed.

(** A read error is an error. *)
Theorem C56_read_error U ld lines e d : conn_lines U ld 0 lines (Some e) <> Ok (inl d).
Proof.
  generalize 0 as n. revert d. induction lines as [|l ls IH]; intros d n; cbn [conn_lines]; [discriminate|].
  destruct (match trim_space U l with [] => true | c :: _ => Ascii.eqb c "#" end); auto.
  destruct (conn_line U ld (S n) (trim_space U l)) as [[pd|]| |]; cbn [obind]; try discriminate.
  specialize (fun d => IH d (S n)). destruct (conn_lines U ld (S n) ls (Some e)) as [[d'|]| |]; cbn [obind]; try discriminate.
  exfalso. eapply IH. reflexivity.
Qed.

Local Definition ex_ld : keypair := fun c k => if beqb c (B "bad.crt") then inr (B "bad") else inl (c ++ B "+" ++ k).
Example C56_file_example : unicode_ok plain_unicode /\
  conn_lines plain_unicode ex_ld 0 (nl_lines [] (B "# comment

127.0.0.1:25 hostname=one cert=a.crt,b.crt key=a.key,b.key
10.0.0.0/8 hostname=ten
unterminated")) None =
  Ok (inl [mkPerDest (B "127.0.0.1:25") (B "one") [B "a.crt+a.key"; B "b.crt+b.key"]; mkPerDest (B "10.0.0.0/8") (B "ten") []]) /\
  conn_lines plain_unicode ex_ld 0 (nl_lines [] (B "* cert=a.crt
")) None = Ok (inr (B "certificate without key on line 1")).
Proof. split; [apply plain_unicode_ok|]. vm_compute. auto. Qed.
