(** The decisions of a connection: what each of them is, in terms of the
    commands so far and of what the DNS lookups and the pattern files gave. *)
From Coq Require Import Relations Permutation.
From Verif Require Import PropsParse.
From Verif Require Import Bytes Outcome Lexer Ast Parser Grammar GoNet World Dns Eval PropsMatch PropsAttr Sem EvalProofs DecideProofs.

(** ** Specification *)

(** Rules as they are in force: each comes from some rules file. *)
Definition from_file (r : rule) : Prop :=
  exists fds fs input rs, parse fds fs input = PRules rs /\ In r rs.

(** One decision: the transaction, the phase and the command it was made for,
    the resulting action, with options, blocklist hits, and the domain that
    could not be looked up. *)
Record decision := mkDecision {
  d_trans : trans;
  d_phase : phase;
  d_evt : evt;
  d_result : action;
  d_withs : smap bytes;
  d_hits : list bytes;
  d_domerr : option bytes
}.

(** The decisions of a connection, latest first.  [tr0] are the outside calls
    before the first of them. *)
Inductive session (W : world) (rules : list rule) (tr0 : list call) : list decision -> ctx -> Prop :=
| Se_start : session W rules tr0 [] (newContext tr0)
| Se_next h c T ph e a c' : session W rules tr0 h c -> Decide W T rules ph e c = Ok (a, c') ->
    session W rules tr0 (mkDecision T ph e a (c_withprops c') (c_dnsblhit c') (c_domerr c') :: h) c'.

(** The HELO command, the sender and the recipient at the latest decision. *)
Fixpoint last_command (ph : phase) (h : list decision) : evt :=
  match h with
  | [] => mkEvt None []
  | d :: h' => if peqb (d_phase d) ph then d_evt d else last_command ph h'
  end.
Definition situation (W : world) (fv : view) (h : list decision) : facts :=
  match h with
  | [] => mkFacts (w_uni W) fv (mkTrans [] [] false (mkRdns [] [] []) []) None [] [] []
  | d :: _ => mkFacts (w_uni W) fv (d_trans d) (e_cmd (last_command pHelo h)) (e_arg (last_command pHelo h))
                (e_arg (last_command pMfrom h))
                (if peqb (d_phase d) pRto then e_arg (d_evt d) else [])
  end.

Definition refuses (a : action) : Prop := a = aStall \/ a = aReject.
(** neither MAIL FROM nor HELO *)
Definition quiet (d : decision) : Prop := d_phase d <> pHelo /\ d_phase d <> pMfrom.
Definition null_sender (d : decision) : Prop := d_phase d = pMfrom /\ e_arg (d_evt d) = [].

(** After [h] a refusal of MAIL FROM:<> is pending. *)
Definition Deferred (W : world) (fv : view) (rules : list rule) (h : list decision)
  (a : action) (ws : list (smap bytes)) : Prop :=
  exists later d0 earlier, h = later ++ d0 :: earlier /\ Forall quiet later /\ null_sender d0 /\
    Run (situation W fv (d0 :: earlier)) pMfrom rules a ws /\ refuses a.

(** What the latest decision has to be: its action, and the with options of
    the clauses used. *)
Inductive Outcome (W : world) (fv : view) (rules : list rule) (d : decision) (h : list decision) :
  action -> list (smap bytes) -> Prop :=
| O_deferred a ws : quiet d -> Deferred W fv rules h a ws -> Outcome W fv rules d h a ws
| O_null a ws : null_sender d -> Run (situation W fv (d :: h)) pMfrom rules a ws -> refuses a ->
    Outcome W fv rules d h aAccept []
| O_rules a ws : (quiet d -> forall a' ws', ~ Deferred W fv rules h a' ws') ->
    Run (situation W fv (d :: h)) (d_phase d) rules a ws -> ~ (null_sender d /\ refuses a) ->
    Outcome W fv rules d h a ws.

(** the option [k] is set to [v], by the last of the clauses setting it *)
Definition Setting (ws : list (smap bytes)) (k v : bytes) : Prop :=
  exists pre w post, ws = pre ++ w :: post /\ mget w k = Some v /\ Forall (fun w' => mget w' k = None) post.

(** [v] is what the connection saw of the outside world: the entries of every
    pattern file it read; for every mail domain it asked the DNS about, what
    the lookups then gave; and for every blocklist name whether it is listed,
    each time it was asked (a failed lookup is as good as one without
    addresses, but is repeated when the name is needed again).  Nothing is said
    about what it did not ask for. *)
Record Saw (W : world) (tr0 tr : list call) (v : view) : Prop := mkSaw {
  saw_noname : v_file v [] = [];
  saw_file : forall f i, AskedAt tr0 tr (XFile f) i -> v_file v f = entries (w_uni W) (w_file W i f);
  saw_domain : forall d new old, tr = new ++ XMx (d ++ B ".") :: old -> length tr0 <= length old ->
    v_domain v d = fst (fst (ValidDomain W d old));
  saw_listed : forall n i, AskedAt tr0 tr (XBl n) i -> (v_listed v n <-> exists ips, w_ip W i n = inl ips /\ ips <> [])
}.

(** ** Traces *)

Lemma AskedAt_cons tr0 tr k k' i :
  AskedAt tr0 (k' :: tr) k i <-> (k = k' /\ i = length tr /\ length tr0 <= i) \/ AskedAt tr0 tr k i.
Proof.
  split.
  - intros ([|x new] & old & E & H1 & H2); injection E as -> ->; [left; auto|]. right. exists new, old. auto.
  - intros [(-> & -> & H)|(new & old & -> & H1 & H2)]; [exists [], tr; auto|]. exists (k' :: new), old. auto.
Qed.
Lemma AskedAt_lt tr0 tr k i : AskedAt tr0 tr k i -> i < length tr.
Proof. intros (new & old & -> & H1 & H2). rewrite app_length. cbn. lia. Qed.
Lemma AskedAt_ip tr0 new tr k i : Forall ip_call new -> ~ ip_call k ->
  AskedAt tr0 (new ++ tr) k i <-> AskedAt tr0 tr k i.
Proof.
  intros Hn Hk. induction Hn as [|x new Hx _ IH]; [reflexivity|]. cbn [app]. rewrite AskedAt_cons, IH.
  split; auto. intros [(-> & _)|H]; [contradiction|auto].
Qed.

Record traced (W : world) (tr0 : list call) (c : ctx) : Prop := mkTraced {
  tr_ext : length tr0 <= length (c_trace c);
  tr_cached : forall f l, mget (c_files c) f = Some l ->
    (f = [] /\ l = []) \/ exists i, AskedAt tr0 (c_trace c) (XFile f) i /\ l = entries (w_uni W) (w_file W i f);
  tr_read : forall f i, AskedAt tr0 (c_trace c) (XFile f) i -> mget (c_files c) f <> None;
  tr_named : forall f i, AskedAt tr0 (c_trace c) (XFile f) i -> f <> [];
  tr_once : forall f i j, AskedAt tr0 (c_trace c) (XFile f) i -> AskedAt tr0 (c_trace c) (XFile f) j -> i = j;
  tr_bl : forall n i, AskedAt tr0 (c_trace c) (XBl n) i -> mget (c_dnsbl c) n = None -> exists e, w_ip W i n = inr e;
  tr_blonce : forall n i j, AskedAt tr0 (c_trace c) (XBl n) i -> AskedAt tr0 (c_trace c) (XBl n) j -> i < j ->
    exists e, w_ip W i n = inr e;
  tr_bltrue : forall n b, mget (c_dnsbl c) n = Some b -> exists i ips, AskedAt tr0 (c_trace c) (XBl n) i /\
    w_ip W i n = inl ips /\ b = match ips with [] => false | _ => true end;
  tr_dom : forall d r, mget (c_domvalid c) d = Some r -> exists new old, c_trace c = new ++ XMx (d ++ B ".") :: old /\
    length tr0 <= length old /\ r = fst (ValidDomain W d old);
  tr_domasked : forall n i, AskedAt tr0 (c_trace c) (XMx n) i -> exists d, n = d ++ B "." /\ mget (c_domvalid c) d <> None;
  tr_domonce : forall n i j, AskedAt tr0 (c_trace c) (XMx n) i -> AskedAt tr0 (c_trace c) (XMx n) j -> i = j
}.

Lemma traced_same W tr0 c c' : c_files c' = c_files c -> c_dnsbl c' = c_dnsbl c -> c_domvalid c' = c_domvalid c -> c_trace c' = c_trace c ->
  traced W tr0 c -> traced W tr0 c'.
Proof. intros E1 E2 E3 E4 []. constructor; rewrite ?E1, ?E2, ?E3, ?E4; auto. Qed.

Lemma traced_step W tr0 c c' : step W c c' -> traced W tr0 c -> traced W tr0 c'.
Proof.
  intros H HT. destruct H.
  - (* failed lookup *) destruct HT as [X0 X1 X2 X6 X3 X4 X5 X7 X8 X9 X10].
    constructor; cbn [set_trace c_trace c_files c_dnsbl].
    + cbn. lia.
    + intros f l Hf. destruct (X1 f l Hf) as [?|(i & Hi & ?)]; auto. right. exists i. rewrite AskedAt_cons. auto.
    + intros f i. rewrite AskedAt_cons. intros [(? & _)|?]; [discriminate|eauto].
    + intros f i. rewrite AskedAt_cons. intros [(? & _)|?]; [discriminate|eauto].
    + intros f i j. rewrite !AskedAt_cons. intros [(? & _)|?] [(? & _)|?]; try discriminate. eauto.
    + intros m i. rewrite AskedAt_cons. intros [(E & -> & _)|?]; [injection E as ->; eauto|eauto].
    + intros m i j. rewrite !AskedAt_cons. intros [(E & -> & _)|Hi] [(E' & -> & _)|Hj] Hij; try lia.
      * apply AskedAt_lt in Hj. lia.
      * injection E' as ->. eauto.
      * eauto.
    + intros m b Hm. destruct (X7 m b Hm) as (i & ips & Hi & Hr). exists i, ips. rewrite AskedAt_cons. auto.
    + intros d r Hd. destruct (X8 d r Hd) as (nw & old & Et & Hl & Hr). eexists (_ :: nw), old. rewrite Et. split; [reflexivity|auto].
    + intros m i. rewrite AskedAt_cons. intros [(? & _)|?]; [discriminate|eauto].
    + intros m i j. rewrite !AskedAt_cons. intros [(? & _)|?] [(? & _)|?]; try discriminate. eauto.
  - (* read *) destruct HT as [X0 X1 X2 X6 X3 X4 X5 X7 X8 X9 X10].
    constructor; cbn [set_trace set_files c_trace c_files c_dnsbl].
    + cbn. lia.
    + intros g l. rewrite mget_mset. destruct (beqb_spec g f) as [->|Hn].
      * intros [= <-]. right. exists (length (c_trace c)). split; auto. apply AskedAt_cons. left. auto.
      * intros Hg. destruct (X1 g l Hg) as [?|(i & Hi & ?)]; auto. right. exists i. rewrite AskedAt_cons. auto.
    + intros g i. rewrite AskedAt_cons, mget_mset. destruct (beqb_spec g f) as [->|Hn]; [discriminate|].
      intros [(E & _)|?]; [congruence|eauto].
    + intros g i. rewrite AskedAt_cons. intros [(E & _)|?]; [congruence|eauto].
    + intros g i j. rewrite !AskedAt_cons. intros [(E & -> & _)|Hi] [(E' & -> & _)|Hj]; auto.
      * injection E as ->. exfalso. eapply X2; eauto.
      * injection E' as ->. exfalso. eapply X2; eauto.
      * eauto.
    + intros m i. rewrite AskedAt_cons. intros [(E & _)|?]; [discriminate|eauto].
    + intros m i j. rewrite !AskedAt_cons. intros [(E & _)|Hi] [(E' & _)|Hj]; try discriminate. eauto.
    + intros m b Hm. destruct (X7 m b Hm) as (i & ips & Hi & Hr). exists i, ips. rewrite AskedAt_cons. auto.
    + intros d r Hd. destruct (X8 d r Hd) as (nw & old & Et & Hl & Hr). eexists (_ :: nw), old. rewrite Et. split; [reflexivity|auto].
    + intros m i. rewrite AskedAt_cons. intros [(? & _)|?]; [discriminate|eauto].
    + intros m i j. rewrite !AskedAt_cons. intros [(? & _)|?] [(? & _)|?]; try discriminate. eauto.
  - (* no name *) destruct HT as [X0 X1 X2 X6 X3 X4 X5 X7 X8 X9 X10].
    constructor; cbn [set_trace set_files c_trace c_files c_dnsbl]; auto.
    + intros g l. rewrite mget_mset. destruct (beqb_spec g []) as [->|Hn]; [|auto]. intros [= <-]. auto.
    + intros g i Hg. rewrite mget_mset. destruct (beqb_spec g []) as [->|Hn]; [discriminate|eauto].
  - (* dnsbl *) destruct HT as [X0 X1 X2 X6 X3 X4 X5 X7 X8 X9 X10].
    constructor; cbn [set_trace set_dnsbl c_trace c_files c_dnsbl].
    + cbn. lia.
    + intros f l Hf. destruct (X1 f l Hf) as [?|(i & Hi & ?)]; auto. right. exists i. rewrite AskedAt_cons. auto.
    + intros f i. rewrite AskedAt_cons. intros [(? & _)|?]; [discriminate|eauto].
    + intros f i. rewrite AskedAt_cons. intros [(? & _)|?]; [discriminate|eauto].
    + intros f i j. rewrite !AskedAt_cons. intros [(? & _)|?] [(? & _)|?]; try discriminate. eauto.
    + intros m i. rewrite AskedAt_cons, mget_mset. destruct (beqb_spec m n) as [->|Hn]; [discriminate|].
      intros [(E & _)|?]; [congruence|eauto].
    + intros m i j. rewrite !AskedAt_cons. intros [(E & -> & _)|Hi] [(E' & -> & _)|Hj] Hij; try lia.
      * apply AskedAt_lt in Hj. lia.
      * injection E' as ->. eauto.
      * eauto.
    + intros m b. rewrite mget_mset. destruct (beqb_spec m n) as [->|Hn].
      * intros [= <-]. exists (length (c_trace c)), ips. rewrite AskedAt_cons. split; [left; auto|auto].
      * intros Hm. destruct (X7 m b Hm) as (i & ips' & Hi & Hr). exists i, ips'. rewrite AskedAt_cons. auto.
    + intros d r Hd. destruct (X8 d r Hd) as (nw & old & Et & Hl & Hr). eexists (_ :: nw), old. rewrite Et. split; [reflexivity|auto].
    + intros m i. rewrite AskedAt_cons. intros [(? & _)|?]; [discriminate|eauto].
    + intros m i j. rewrite !AskedAt_cons. intros [(? & _)|?] [(? & _)|?]; try discriminate. eauto.
  - destruct (bmem _ _); auto. eapply traced_same; [| | | |exact HT]; reflexivity.
  - (* domain *) destruct HT as [X0 X1 X2 X6 X3 X4 X5 X7 X8 X9 X10].
    assert (HA : forall k i, ~ ip_call k -> AskedAt tr0 (new ++ XMx (d ++ B ".") :: c_trace c) k i <->
      (k = XMx (d ++ B ".") /\ i = length (c_trace c) /\ length tr0 <= i) \/ AskedAt tr0 (c_trace c) k i).
    { intros k i Hk. rewrite AskedAt_ip by auto. apply AskedAt_cons. }
    assert (HO : forall k i, match k with XMx _ | XIp _ => False | _ => True end ->
      AskedAt tr0 (new ++ XMx (d ++ B ".") :: c_trace c) k i <-> AskedAt tr0 (c_trace c) k i).
    { intros k i Hk. rewrite HA by (destruct k; auto). split; auto. intros [(-> & _)|?]; [contradiction|auto]. }
    constructor; cbn [set_trace set_domvalid set_domerr c_trace c_files c_dnsbl c_domvalid].
    + rewrite app_length. cbn. lia.
    + intros f l Hf. destruct (X1 f l Hf) as [?|(i & Hi & ?)]; auto. right. exists i. rewrite HO; auto.
    + intros f i. rewrite HO by exact Logic.I; eauto.
    + intros f i. rewrite HO by exact Logic.I; eauto.
    + intros f i j. rewrite !HO by exact Logic.I; eauto.
    + intros f i. rewrite HO by exact Logic.I; eauto.
    + intros f i j. rewrite !HO by exact Logic.I; eauto.
    + intros m b Hm. destruct (X7 m b Hm) as (i & ips & Hi & Hr). exists i, ips. rewrite HO by exact Logic.I. auto.
    + intros x y. rewrite mget_mset. destruct (beqb_spec x d) as [->|Hn].
      * intros [= <-]. exists new, (c_trace c). rewrite H0. auto.
      * intros Hx. destruct (X8 x y Hx) as (nw & old & Et & Hl & Hr). exists (new ++ XMx (d ++ B ".") :: nw), old.
        rewrite Et, <- app_assoc. auto.
    + intros n i. rewrite HA by auto. intros [(E & _)|Hi].
      * injection E as ->. exists d. rewrite mget_mset_same. split; [reflexivity|discriminate].
      * destruct (X9 n i Hi) as (d' & -> & Hd'). exists d'. split; auto. rewrite mget_mset. destruct (beqb d' d); [discriminate|auto].
    + assert (HN : forall i, ~ AskedAt tr0 (c_trace c) (XMx (d ++ B ".")) i).
      { intros i Hi. destruct (X9 _ i Hi) as (d' & E & Hd'). apply app_inv_tail in E. subst d'. contradiction. }
      intros n i j. rewrite !HA by auto. intros [(E & -> & _)|Hi] [(E' & -> & _)|Hj]; auto.
      * injection E as ->. exfalso. eapply HN; eauto.
      * injection E' as ->. exfalso. eapply HN; eauto.
      * eauto.
  - eapply traced_same; [| | | |exact HT]; reflexivity.
  - eapply traced_same; [| | | |exact HT]; reflexivity.
Qed.

Lemma traced_dsteps W tr0 c c' : dsteps W c c' -> traced W tr0 c -> traced W tr0 c'.
Proof.
  induction 1 as [c|c d e H _ IH]; auto. intros HT. apply IH. destruct H as [c d H|c d H].
  - eapply traced_step; eauto.
  - eapply traced_same; [apply (sc_files _ _ H)|apply (sc_dnsbl _ _ H)|apply (sc_domvalid _ _ H)|apply (sc_trace _ _ H)|auto].
Qed.

Lemma traced_new W tr0 : traced W tr0 (newContext tr0).
Proof.
  assert (HN : forall k i, ~ AskedAt tr0 tr0 k i). { intros k i H. pose proof (AskedAt_lt _ _ _ _ H). destruct H as (? & ? & _ & _ & ?). lia. }
  constructor; cbn; auto.
  - intros f l H. discriminate.
  - intros f i H. exfalso. eapply HN; eauto.
  - intros f i H. exfalso. eapply HN; eauto.
  - intros f i j H. exfalso. eapply HN; eauto.
  - intros n i H. exfalso. eapply HN; eauto.
  - intros n i j H. exfalso. eapply HN; eauto.
  - intros n b H. discriminate.
  - intros d r H. discriminate.
  - intros n i H. exfalso. eapply HN; eauto.
  - intros n i j H. exfalso. eapply HN; eauto.
Qed.

Lemma session_traced W rules tr0 h c : session W rules tr0 h c -> traced W tr0 c.
Proof.
  induction 1; [apply traced_new|]. eapply traced_dsteps; [|eassumption]. eapply druns_Decide; eauto.
Qed.

Lemma traced_sees W tr0 c v : traced W tr0 c -> Saw W tr0 (c_trace c) v -> sees W tr0 v c.
Proof.
  intros HT [H0 H1 H2 H3]. constructor.
  - intros f l Hf. destruct (tr_cached _ _ _ HT f l Hf) as [[-> ->]|(i & Hi & ->)]; auto.
  - intros d r Hd. destruct (tr_dom _ _ _ HT d r Hd) as (new & old & E & Hl & ->). eauto.
  - intros n b Hn. destruct (tr_bltrue _ _ _ HT n b Hn) as (i & ips & Hi & Ei & ->). rewrite (H3 n i Hi). split.
    + intros Hb. exists ips. split; auto. destruct ips; [discriminate|]. discriminate.
    + intros (ips' & E' & Hne). rewrite Ei in E'. injection E' as <-. destruct ips; [contradiction|reflexivity].
  - intros n i e Hi Ei. rewrite (H3 n i Hi). intros (ips & E & _). congruence.
Qed.

(** No blocklist name comes to be listed during the connection: one that is
    asked again, because its lookup failed, is not listed then.  (Files and
    mail domains are asked for once only, whatever the outside world does.) *)
Definition no_late_listing (W : world) (tr0 tr : list call) : Prop :=
  forall n i j ips, AskedAt tr0 tr (XBl n) i -> AskedAt tr0 tr (XBl n) j -> i < j -> w_ip W j n = inl ips -> ips = [].

(** What a connection sees. *)
Definition seen (W : world) (tr0 : list call) (c : ctx) : view := mkView
  (fun f => match mget (c_files c) f with Some l => l | None => [] end)
  (fun d => match mget (c_domvalid c) d with Some r => fst r | None => dnsUndef end)
  (fun n => exists i ips, AskedAt tr0 (c_trace c) (XBl n) i /\ w_ip W i n = inl ips /\ ips <> []).

Lemma traced_Saw W tr0 c : traced W tr0 c -> no_late_listing W tr0 (c_trace c) -> Saw W tr0 (c_trace c) (seen W tr0 c).
Proof.
  intros HT HL. constructor; cbn [seen v_file v_domain v_listed].
  - destruct (mget (c_files c) []) as [l|] eqn:E; auto. destruct (tr_cached _ _ _ HT [] l E) as [[_ ->]|(i & Hi & _)]; auto.
    exfalso. eapply (tr_named _ _ _ HT); eauto.
  - intros f i Hi. destruct (mget (c_files c) f) as [l|] eqn:E; [|exfalso; eapply (tr_read _ _ _ HT); eauto].
    destruct (tr_cached _ _ _ HT f l E) as [[-> _]|(j & Hj & ->)]; [exfalso; eapply (tr_named _ _ _ HT); eauto|].
    now rewrite (tr_once _ _ _ HT f i j Hi Hj).
  - intros d new old Et Hl. assert (Hi : AskedAt tr0 (c_trace c) (XMx (d ++ B ".")) (length old)) by (exists new, old; auto).
    destruct (tr_domasked _ _ _ HT _ _ Hi) as (d' & E & Hd). apply app_inv_tail in E. subst d'.
    destruct (mget (c_domvalid c) d) as [r|] eqn:E; [|contradiction].
    destruct (tr_dom _ _ _ HT d r E) as (new' & old' & Et' & Hl' & ->).
    assert (Hj : AskedAt tr0 (c_trace c) (XMx (d ++ B ".")) (length old')) by (exists new', old'; auto).
    pose proof (tr_domonce _ _ _ HT _ _ _ Hi Hj) as Hij. rewrite Et in Et'.
    assert (HO : old = old'). { clear -Et' Hij. revert new' Et'. induction new as [|x new IH]; intros [|x' new'] Et'; cbn [app] in Et'.
      - congruence.
      - injection Et' as _ Et'. apply (f_equal (@length call)) in Et'. rewrite app_length in Et'. cbn in Et'. lia.
      - injection Et' as _ Et'. apply (f_equal (@length call)) in Et'. rewrite app_length in Et'. cbn in Et'. lia.
      - injection Et' as _ Et'. eauto. }
    now rewrite HO.
  - intros n i Hi. split; [|intros (ips & E & Hne); eauto]. intros (j & ips & Hj & E & Hne).
    destruct (Nat.lt_trichotomy i j) as [Hij|[<-|Hij]]; [|eauto|].
    + exfalso. apply Hne. exact (HL n i j ips Hi Hj Hij E).
    + destruct (tr_blonce _ _ _ HT n j i Hj Hi Hij) as (e & E'). congruence.
Qed.

(** ** Determinism *)

Lemma Matches_unique F ph r rc rc' : Matches F ph r rc -> Matches F ph r rc' -> rc = rc'.
Proof.
  intros [[H1 H2]|(H1 & pre & a & post & E & Hp & Hf)] [[H1' H2']|(H1' & pre' & a' & post' & E' & Hp' & Hf')]; try contradiction.
  - eapply Fires_unique; eauto.
  - rewrite E in E'. clear E. revert pre' E' Hp'. induction pre as [|y pre IH]; intros [|y' pre'] E' Hp'; injection E' as -> E'.
    + eapply Fires_unique; eauto.
    + inversion Hp' as [|? ? [H _] _]; subst. exfalso. eapply H; eauto.
    + inversion Hp as [|? ? [H _] _]; subst. exfalso. eapply H; eauto.
    + inversion Hp; inversion Hp'; subst. eapply IH; eauto.
Qed.

Lemma Run_det F ph rs a ws : Run F ph rs a ws -> forall a' ws', Run F ph rs a' ws' -> a = a' /\ ws = ws'.
Proof.
  induction 1 as [|r rs a ws H _ IH|r rc rs a ws He Hm Hd _ IH|r rc rs He Hm Hd]; intros a' ws' H'; inversion H'; subst; auto;
    try (exfalso; eapply H; eauto; fail); try contradiction;
    try (match goal with H2 : eligible ph r -> forall rc, ~ Matches F ph r rc |- _ => exfalso; eapply H2; eauto; fail end);
    try (match goal with H2 : Matches F ph r ?x, H3 : Matches F ph r ?y |- _ => pose proof (Matches_unique _ _ _ _ _ H2 H3); subst end).
  - match goal with H2 : Run F ph rs a' _ |- _ => destruct (IH _ _ H2); subst end. auto.
  - auto.
Qed.

Lemma Run_action F ph rs a ws : Run F ph rs a ws -> a = aNoresult \/ In a [aAccept; aStall; aReject].
Proof. induction 1; auto. Qed.

(** ** With options *)

Lemma set_all_get w : NoDup (mkeys w) -> forall m k,
  mget (set_all m w) k = match mget w k with Some v => Some v | None => mget m k end.
Proof.
  unfold set_all. induction w as [|[k0 v0] w IH]; intros HN m k; cbn [fold_left]; auto.
  cbn [mkeys map fst] in HN. inversion HN as [|? ? Hk0 HN']; subst. cbn [fst snd]. rewrite IH; auto. cbn [mget].
  rewrite mget_mset. destruct (beqb_spec k k0) as [->|Hn].
  - rewrite (proj2 (mget_None w k0)); auto.
  - reflexivity.
Qed.

Lemma set_all_setting ws : Forall (fun w => NoDup (mkeys w)) ws ->
  forall m k v, mget (fold_left set_all ws m) k = Some v <->
    Setting ws k v \/ (Forall (fun w => mget w k = None) ws /\ mget m k = Some v).
Proof.
  intros HN. induction HN as [|w ws Hw _ IH]; intros m k v; cbn [fold_left].
  - split; [auto|]. intros [(p & w & q & E & _)|[_ H]]; auto. destruct p; discriminate.
  - rewrite IH, set_all_get; auto. split.
    + intros [(p & x & q & -> & H1 & H2)|[H1 H2]]; [left; exists (w :: p), x, q; auto|].
      destruct (mget w k) as [v'|] eqn:E; [|right; auto]. injection H2 as ->. left. exists [], w, ws. auto.
    + intros [([|y p] & x & q & E & H1 & H2)|[H1 H2]].
      * injection E as <- <-. right. rewrite H1. auto.
      * injection E as <- ->. left. exists p, x, q. auto.
      * inversion H1; subst. right. split; auto. rewrite H3. auto.
Qed.

(** ** Rules from files are well formed *)

Definition rule_wf (r : rule) : Prop :=
  rule_phase_ok r /\ (forall c, In c (r_clauses r) -> NoDup (mkeys (rc_withs c))).

Lemma withs_of_NoDup kvs : NoDup (mkeys (withs_of kvs)).
Proof.
  unfold withs_of. assert (H : NoDup (mkeys (@nil (bytes * bytes)))) by constructor. revert H. generalize (@nil (bytes * bytes)).
  induction kvs as [|kv kvs IH]; intros m Hm; cbn [fold_left]; auto. apply IH. apply mset_NoDup. auto.
Qed.

Lemma GClauses_NoDup ts cs : GClauses ts cs -> forall c, In c cs -> NoDup (mkeys (rc_withs c)).
Proof.
  induction 1 as [ts c0 H0|ts c0 s eol ts' cs H0 Hs He Hcs IH]; intros c [<-|Hc]; try contradiction; auto;
    destruct H0 as [ts e H|ts e w wts kvs H Hw HW]; cbn [rc_withs]; try constructor; apply withs_of_NoDup.
Qed.

Lemma from_file_wf r : from_file r -> rule_wf r.
Proof.
  intros (fds & fs & input & rs & E & Hr). split; [eapply C09_required_phase; eauto|].
  revert r Hr. apply (parse_lift (fun r => forall c, In c (r_clauses r) -> NoDup (mkeys (rc_withs c))) (fun _ => True)) with (fds := fds) (fs := fs) (input := input); auto.
  intros ts r _ [pts ph a act ts' cs Hp Ha Hc Hsw Hph]. cbn [r_clauses]. eapply GClauses_NoDup; eauto.
Qed.

Lemma Run_withs_NoDup F ph rs a ws : Forall rule_wf rs -> Run F ph rs a ws -> Forall (fun w => NoDup (mkeys w)) ws.
Proof.
  assert (HM : forall r rc, rule_wf r -> Matches F ph r rc -> NoDup (mkeys (rc_withs rc))).
  { intros r rc [_ Hr] [[_ (p & q & E & _)]|(_ & _ & x & _ & _ & _ & p & q & E & _)]; apply Hr; rewrite E; apply in_elt. }
  intros HF HR. induction HR; inversion HF; subst; auto.
  - constructor; auto. eapply HM; eauto.
  - constructor; auto. eapply HM; eauto.
Qed.

(** ** Every decision is as specified *)

Section History.
  Variable W : world.
  Hypothesis HW : fair_order W.
  Variable rules : list rule.
  Hypothesis HR : Forall rule_wf rules.
  Variable tr0 : list call.
  Variable fv : view.

  Lemma rules_phase : Forall rule_phase_ok rules.
  Proof. eapply Forall_impl; [|exact HR]. intros r []. auto. Qed.

  Definition def_inv (h : list decision) (c : ctx) : Prop :=
    (c_defresult c = aError /\ forall a ws, ~ Deferred W fv rules h a ws) \/
    (exists ws, Deferred W fv rules h (c_defresult c) ws /\ c_defprops c = fold_left set_all ws []).

  Record hist_inv (h : list decision) (c : ctx) : Prop := mkHI {
    hi_cmd : c_helocmd c = e_cmd (last_command pHelo h);
    hi_helo : c_heloname c = e_arg (last_command pHelo h);
    hi_from : c_from c = e_arg (last_command pMfrom h);
    hi_def : def_inv h c;
    hi_start : started tr0 c
  }.

  Lemma Deferred_cons_quiet d h a ws : quiet d -> Deferred W fv rules (d :: h) a ws <-> Deferred W fv rules h a ws.
  Proof.
    intros Hq. split.
    - intros (later & d0 & earlier & E & Hl & Hn & H). destruct later as [|x later]; injection E as -> ->.
      + destruct Hq, Hn. contradiction.
      + inversion Hl; subst. exists later, d0, earlier. auto.
    - intros (later & d0 & earlier & -> & Hl & Hn & H). exists (d :: later), d0, earlier. auto.
  Qed.
  Lemma Deferred_cons_loud d h a ws : ~ quiet d ->
    Deferred W fv rules (d :: h) a ws <-> null_sender d /\ Run (situation W fv (d :: h)) pMfrom rules a ws /\ refuses a.
  Proof.
    intros Hq. split.
    - intros (later & d0 & earlier & E & Hl & Hn & H). destruct later as [|x later]; injection E as -> ->; auto.
      inversion Hl; subst. contradiction.
    - intros (Hn & H). exists [], d, h. auto.
  Qed.

  Lemma agtb_refuses a : agtb a aAccept = true <-> refuses a.
  Proof. unfold refuses. destruct a; cbn; intuition discriminate. Qed.

  Lemma Decide_sound h c T ph e a c' :
    hist_inv h c -> Decide W T rules ph e c = Ok (a, c') -> sees W tr0 fv c' ->
    let d := mkDecision T ph e a (c_withprops c') (c_dnsblhit c') (c_domerr c') in
    hist_inv (d :: h) c' /\
    exists ws, Outcome W fv rules d h a ws /\ c_withprops c' = fold_left set_all ws [].
  Proof.
    intros [I1 I2 I3 I4 I5] E HF d.
    assert (DS : dsteps W c c') by (eapply druns_Decide; eauto).
    assert (HD' : started tr0 c') by (eapply dsteps_started; eauto).
    unfold Decide in E. unfold mbind at 1, upd at 1 in E. unfold mbind at 1, get at 1 in E.
    set (c0 := set_domerr None (set_withprops [] (set_dnsblhit [] (shadow ph e c)))) in E.
    (* the state before the rules *)
    assert (J1 : c_helocmd c0 = e_cmd (last_command pHelo (d :: h))) by (destruct ph; auto).
    assert (J2 : c_heloname c0 = e_arg (last_command pHelo (d :: h))) by (destruct ph; auto).
    assert (J3 : c_from c0 = e_arg (last_command pMfrom (d :: h))) by (destruct ph; auto).
    assert (J0 : started tr0 c0) by (destruct ph; exact I5).
    assert (JQ : (quiet d /\ c_defresult c0 = c_defresult c /\ c_defprops c0 = c_defprops c) \/
                 (~ quiet d /\ c_defresult c0 = aError /\ (ph = pHelo \/ ph = pMfrom))).
    { unfold quiet. subst d c0. cbn [d_phase].
      destruct ph; first [left; split; [split; discriminate|]; split; reflexivity|right; split; [intros [H1 H2]; congruence|split; [reflexivity|auto]]]. }
    assert (JF : at_facts W fv T (situation W fv (d :: h)) ph c0).
    { unfold at_facts, situation. subst d. cbn [d_phase d_trans d_evt].
      destruct (peqb_spec ph pRto) as [->|Hn].
      - left. unfold facts_of. rewrite J1, J2, J3. reflexivity.
      - right. split; auto. exists (c_rcptto c0). unfold facts_of, with_rcpt. rewrite J1, J2, J3. reflexivity. }
    assert (JW : c_withprops c0 = []) by reflexivity.
    clearbody c0.
    destruct (Nat.leb (acode aAccept) (acode (c_defresult c0))) eqn:Ed.
    - (* a pending refusal *)
      apply Nat.leb_le in Ed. unfold mbind, upd, ret in E. apply ok_inj in E.
      assert (E1 : c_defresult c0 = a) by congruence.
      assert (E2 : c' = set_withprops (c_defprops c0) (set_dnsblhit (c_defdnsblhit c0) c0)) by congruence. clear E.
      destruct JQ as [(Hq & Q1 & Q2)|(_ & Q & _)]; [|rewrite Q in Ed; cbn in Ed; lia].
      destruct I4 as [[I4 _]|(ws & HDf & Hp)]; [rewrite Q1, I4 in Ed; cbn in Ed; lia|].
      split.
      + constructor; try (rewrite E2; cbn; assumption). right. exists ws. rewrite E2. cbn [c_defresult c_defprops set_withprops set_dnsblhit].
        rewrite Q1, Q2. split; [apply Deferred_cons_quiet; auto|exact Hp].
      + exists ws. split; [apply O_deferred; auto; rewrite <- E1, Q1; auto|]. rewrite E2. cbn [c_withprops set_withprops]. rewrite Q2. auto.
    - apply Nat.leb_gt in Ed. unfold mbind at 1 in E.
      destruct (run_rules W T ph rules c0) as [[a1 c1]| |] eqn:E1; try discriminate.
      assert (HND : quiet d -> forall a' ws', ~ Deferred W fv rules h a' ws').
      { intros Hq. destruct JQ as [(_ & Q1 & _)|(Q & _)]; [|contradiction].
        destruct I4 as [[_ I4]|(ws & (later & d0 & earlier & _ & _ & _ & _ & Hr) & Hp)]; auto.
        rewrite Q1 in Ed. destruct Hr as [Hr|Hr]; rewrite Hr in Ed; cbn in Ed; lia. }
      assert (Hdef0 : c_defresult c0 = aError).
      { destruct JQ as [(_ & Q1 & _)|(_ & Q & _)]; auto. rewrite Q1. destruct I4 as [[I4 _]|(ws & (later & d0 & earlier & _ & _ & _ & _ & Hr) & Hp)]; auto.
        rewrite Q1 in Ed. destruct Hr as [Hr|Hr]; rewrite Hr in Ed; cbn in Ed; lia. }
      unfold mbind, get in E.
      assert (HF1 : sees W tr0 fv c1). { destruct (peqb ph pMfrom && beqb (c_from c1) [] && agtb a1 aAccept); unfold upd, ret in E; injection E as <- <-; (eapply sees_same; [| | | |exact HF]; reflexivity). }
      destruct (run_rules_sound W HW tr0 fv T (situation W fv (d :: h)) ph rules rules_phase c0 a1 c1 E1 JF eq_refl J0 HF1)
        as ([K1 K2 K3 K4 K5 K6] & ws & HRun & HP).
      assert (HP' : c_withprops c1 = fold_left set_all ws []) by (rewrite HP, JW; reflexivity).
      destruct (peqb ph pMfrom && beqb (c_from c1) [] && agtb a1 aAccept) eqn:Eb.
      + (* refused null sender *)
        unfold upd, ret in E. apply ok_inj in E.
        assert (EA : aAccept = a) by congruence.
        assert (E2 : c' = set_withprops [] (set_def (c_dnsblhit c1) (c_withprops c1) (set_defresult a1 c1))) by congruence. clear E.
        apply andb_true_iff in Eb as [Eb Er]. apply andb_true_iff in Eb as [Ep Ef].
        destruct (peqb_spec ph pMfrom) as [Eph|]; [|discriminate]. apply beqb_eq in Ef. apply agtb_refuses in Er.
        assert (HN : null_sender d).
        { split; [exact Eph|]. rewrite K3, J3 in Ef. unfold d in Ef. cbn [last_command d_phase d_evt] in Ef. rewrite Eph in Ef. exact Ef. }
        assert (HRun' : Run (situation W fv (d :: h)) pMfrom rules a1 ws) by (rewrite <- Eph; exact HRun).
        split.
        * constructor; [rewrite E2; exact (eq_trans K1 J1)|rewrite E2; exact (eq_trans K2 J2)|rewrite E2; exact (eq_trans K3 J3)| |exact HD'].
          right. exists ws. rewrite E2. cbn. split; [|exact HP']. apply Deferred_cons_loud; [|auto].
          intros [_ Hq]. destruct HN. contradiction.
        * exists []. rewrite <- EA. split; [eapply O_null; eauto|]. rewrite E2. reflexivity.
      + unfold ret in E. injection E as <- <-.
        assert (HNR : ~ (null_sender d /\ refuses a1)).
        { intros [[N1 N2] Hr]. apply agtb_refuses in Hr. cbn in N1, N2. subst ph. rewrite Hr in Eb.
          assert (Ef : c_from c1 = []). { rewrite K3, J3. cbn. exact N2. } rewrite Ef in Eb. discriminate. }
        split.
        * constructor; try congruence. left. split; [congruence|].
          intros a' ws' HDf. destruct JQ as [(Hq & _)|(Hq & _ & Hph)].
          -- apply (Deferred_cons_quiet d h) in HDf; auto. eapply HND; eauto.
          -- apply (Deferred_cons_loud d h) in HDf as (N & HR' & Hr'); auto. destruct N as [N1 N2].
             assert (HRun' : Run (situation W fv (d :: h)) pMfrom rules a1 ws) by (rewrite <- N1; exact HRun).
             destruct (Run_det _ _ _ _ _ HRun' _ _ HR'). subst a' ws'. apply HNR. split; [split|]; auto.
        * exists ws. split; [apply O_rules; auto|exact HP'].
  Qed.

  Lemma session_inv h c : session W rules tr0 h c -> sees W tr0 fv c ->
    hist_inv h c /\ forall later d earlier, h = later ++ d :: earlier ->
      exists ws, Outcome W fv rules d earlier (d_result d) ws /\ (forall k v, mget (d_withs d) k = Some v <-> Setting ws k v).
  Proof.
    induction 1 as [|h c T ph e a c' Hs IH E]; intros HF.
    - split; [|intros later d earlier EE; destruct later; discriminate]. constructor; try reflexivity.
      + left. split; [reflexivity|]. intros a ws (later & d0 & earlier & EE & _). destruct later; discriminate.
      + unfold started. cbn. lia.
    - assert (DS : dsteps W c c') by (eapply druns_Decide; eauto).
      destruct IH as [IH1 IH2]; [eapply dsteps_sees; eauto|].
      destruct (Decide_sound h c T ph e a c' IH1 E HF) as (HI & ws & HO & HP). split; auto.
      intros later d earlier EE. destruct later as [|x later]; cbn [app] in EE.
      + assert (E1 : mkDecision T ph e a (c_withprops c') (c_dnsblhit c') (c_domerr c') = d) by congruence.
        assert (E2 : h = earlier) by congruence. subst earlier. subst d. exists ws. cbn [d_result d_withs].
        split; [exact HO|]. intros k v. rewrite HP.
        assert (HND : Forall (fun w => NoDup (mkeys w)) ws).
        { destruct HO as [a0 ws0 _ (? & ? & ? & _ & _ & _ & HR' & _)|a0 ws0 _ HR' _|a0 ws0 _ HR' _]; auto; eapply Run_withs_NoDup; eauto. }
        rewrite set_all_setting; auto. split; auto. intros [H|[_ H]]; auto. discriminate.
      + injection EE as _ EE. eauto.
  Qed.
End History.

(** Every decision of a connection is the specified one, for what the
    connection saw of the pattern files and the DNS. *)
Theorem session_sound W rules tr0 h c fv later d earlier :
  fair_order W -> Forall from_file rules -> session W rules tr0 h c -> Saw W tr0 (c_trace c) fv ->
  h = later ++ d :: earlier ->
  exists ws, Outcome W fv rules d earlier (d_result d) ws /\ (forall k v, mget (d_withs d) k = Some v <-> Setting ws k v).
Proof.
  intros HW HR Hs Hf E. eapply session_inv; eauto.
  - eapply Forall_impl; [|exact HR]. apply from_file_wf.
  - eapply traced_sees; eauto. eapply session_traced; eauto.
Qed.

(** Running a list of commands, for the examples. *)
Fixpoint run_session (W : world) (rules : list rule) (cmds : list (trans * phase * evt)) (h : list decision) (c : ctx)
  : option (list decision * ctx) :=
  match cmds with
  | [] => Some (h, c)
  | (T, ph, e) :: cmds' =>
      match Decide W T rules ph e c with
      | Ok (a, c') => run_session W rules cmds' (mkDecision T ph e a (c_withprops c') (c_dnsblhit c') (c_domerr c') :: h) c'
      | _ => None
      end
  end.
Lemma run_session_ok W rules tr0 cmds : forall h c h' c', session W rules tr0 h c ->
  run_session W rules cmds h c = Some (h', c') -> session W rules tr0 h' c'.
Proof.
  induction cmds as [|[[T ph] e] cmds IH]; intros h c h' c' Hs E; cbn [run_session] in E.
  - injection E as <- <-. auto.
  - destruct (Decide W T rules ph e c) as [[a c1]| |] eqn:E1; try discriminate. eapply IH; [|exact E]. eapply Se_next; eauto.
Qed.
Lemma run_session_start W rules tr0 cmds h c :
  run_session W rules cmds [] (newContext tr0) = Some (h, c) -> session W rules tr0 h c.
Proof. apply run_session_ok. constructor. Qed.
