(** C60, C61: which sessions crash the server. *)
From Coq Require Import Lia Permutation.
From Verif Require Import PropsParse.
From Verif Require Import Bytes Outcome Lexer Ast Parser Grammar ParseProofs GoNet World Dns Eval PropsMatch PropsAttr PropsDns Sem EvalProofs DecideProofs Decisions PropsEval PropsSafe
  RuleLoad PropsLoad ConnCfg PropsConn CipherNames Message Session SessProofs Conv PropsSession Records DemoSession PropsYak.

(** ** Where DNS blocklist hits and with options come from *)

Section From.
  Variable W : world.
  Variable T : trans.
  (** what the hits and the options satisfy *)
  Variable P : bytes -> Prop.
  Variable Q : bytes -> bytes -> Prop.

  Definition opts_ok (m : smap bytes) : Prop := forall k v, mget m k = Some v -> Q k v.
  Definition ctx_ok (c : ctx) : Prop :=
    Forall P (c_dnsblhit c) /\ Forall P (c_defdnsblhit c) /\ opts_ok (c_withprops c) /\ opts_ok (c_defprops c).
  Definition keeps {A} (m : M A) : Prop := forall c a c', m c = Ok (a, c') -> ctx_ok c -> ctx_ok c'.

  Lemma keeps_ret {A} (a : A) : keeps (ret a).
  Proof. intros c b c' [= _ <-]. auto. Qed.
  Lemma keeps_bind {A B} (m : M A) (f : A -> M B) : keeps m -> (forall a, keeps (f a)) -> keeps (mbind m f).
  Proof.
    intros Hm Hf c b c' H Hc. unfold mbind in H. destruct (m c) as [[a c1]| |] eqn:E; try discriminate.
    eapply Hf; eauto.
  Qed.
  Lemma keeps_get {A} (f : ctx -> A) : keeps (get f).
  Proof. intros c b c' [= _ <-]. auto. Qed.
  Lemma keeps_upd f : (forall c, ctx_ok c -> ctx_ok (f c)) -> keeps (upd f).
  Proof. intros H c b c' [= _ <-]. auto. Qed.
  Lemma keeps_lift {A} (o : outcome A) : keeps (lift o).
  Proof. intros c b c' H. unfold lift in H. destruct o; try discriminate. injection H as _ <-. auto. Qed.
  Lemma keeps_ext {A} (x : X A) : keeps (ext x).
  Proof. intros c b c' H. unfold ext in H. destruct (x (c_trace c)) as [a t]. injection H as _ <-. auto. Qed.
  Lemma keeps_if {A} (b : bool) (m n : M A) : keeps m -> keeps n -> keeps (if b then m else n).
  Proof. destruct b; auto. Qed.

  Ltac up := apply keeps_upd; intros ? ?; assumption.

  Lemma keeps_dnsbl n : keeps (getDnsblRes W n).
  Proof.
    unfold getDnsblRes. apply keeps_bind; [apply keeps_get|]. intros cache. destruct (mget cache n); [apply keeps_ret|].
    apply keeps_bind; [apply keeps_ext|]. intros [ips|]; [|apply keeps_ret]. apply keeps_bind; [up|]. intros _. apply keeps_ret.
  Qed.
  Lemma keeps_hit d : P d -> keeps (addDnsblHit d).
  Proof.
    intros Hd. apply keeps_upd. intros c (H1 & H). destruct (bmem _ _); split; auto. cbn. apply Forall_app. auto.
  Qed.
  Lemma keeps_addropts a : keeps (getAddrOpts W a).
  Proof.
    unfold getAddrOpts. destruct a as [|c0 a]; [apply keeps_ret|]. destruct (addrText (c0 :: a)) as [o idx].
    destruct (N.eqb _ _); [|apply keeps_ret]. apply keeps_bind.
    - unfold validDomain. apply keeps_bind; [apply keeps_get|]. intros cache. destruct (mget cache _); [apply keeps_ret|].
      apply keeps_bind; [apply keeps_ext|]. intros r. apply keeps_bind; [up|]. intros _. apply keeps_ret.
    - intros [[] v]; cbn [fst snd]; try apply keeps_ret; (apply keeps_bind; [up|intros; apply keeps_ret]).
  Qed.
  Lemma keeps_match a m g : keeps (matchEval W a m g).
  Proof.
    unfold matchEval. apply keeps_bind.
    - unfold getMatchList. destruct a as [|c0 a]; [intros c b c' H; discriminate H|].
      destruct (if _ || _ then _ else _) as [f|]; [|apply keeps_ret].
      apply keeps_bind; [apply keeps_get|]. intros files. destruct (mget files f); [apply keeps_ret|].
      apply keeps_bind; [apply keeps_ext|]. intros l. apply keeps_bind; [up|]. intros; apply keeps_ret.
    - intros [|p l]; [apply keeps_bind; [up|intros; apply keeps_ret]|].
      apply keeps_bind; [apply keeps_get|]. intros es. apply keeps_lift.
  Qed.
  Lemma keeps_dbl_loop d l : P d -> forall r, keeps (dbl_loop W d l r).
  Proof.
    intros Hd. induction l as [|s l IH]; intros r; cbn [dbl_loop]; [apply keeps_ret|].
    apply keeps_bind; [apply keeps_dnsbl|]. intros []; [|apply IH]. apply keeps_bind; [now apply keeps_hit|]. intros _. apply IH.
  Qed.

  (** the blocklists an operator may note as hit *)
  Definition op_hits (o : expr) : Prop :=
    match o with
    | EDnsbl d => (exists s0 s1 s2 s3, split_byte (t_rip T) ch_dot = [s0; s1; s2; s3]) -> P d
    | EDbl _ d => P d
    | _ => True
    end.

  Lemma keeps_eval e : (forall o, In o (operators e) -> op_hits o) -> keeps (eval W T e).
  Proof.
    induction e as [l IH|e IH|a b IHa IHb| | | |k a|a|s d|k o] using expr_ind'; intros Ho.
    - induction IH as [|x l Hx _ IH]; [apply keeps_ret|].
      change (eval W T (EAnd (x :: l))) with (mbind (eval W T x) (fun r => if r then eval W T (EAnd l) else ret false)).
      change (operators (EAnd (x :: l))) with (operators x ++ operators (EAnd l)) in Ho.
      apply keeps_bind; [apply Hx; intros o Hin; apply Ho; apply in_or_app; auto|]. intros []; [|apply keeps_ret].
      apply IH. intros o Hin. apply Ho. apply in_or_app. auto.
    - cbn [eval]. apply keeps_bind; [apply IH; auto|]. intros; apply keeps_ret.
    - cbn [eval operators] in *. apply keeps_bind; [apply IHa; intros o Hin; apply Ho; apply in_or_app; auto|]. intros []; [apply keeps_ret|].
      apply IHb. intros o Hin. apply Ho. apply in_or_app. auto.
    - apply keeps_ret.
    - apply keeps_ret.
    - specialize (Ho _ (or_introl eq_refl)). cbn [eval op_hits] in *. unfold evalDnsbl. destruct (t_rip T) as [|r0 r]; [apply keeps_ret|].
      destruct (split_byte _ _) as [|s0 [|s1 [|s2 [|s3 [|]]]]]; try apply keeps_ret.
      apply keeps_bind; [apply keeps_dnsbl|]. intros []; [|apply keeps_ret].
      apply keeps_bind; [apply keeps_hit; apply Ho; eauto|]. intros; apply keeps_ret.
    - apply keeps_match.
    - cbn [eval]. apply keeps_bind; [apply keeps_match|]. intros []; [apply keeps_ret|].
      apply keeps_bind; [apply keeps_match|]. intros []; [apply keeps_ret|apply keeps_match].
    - specialize (Ho _ (or_introl eq_refl)). cbn [eval op_hits] in *. unfold evalDbl. apply keeps_bind; [apply keeps_get|]. intros hn'. apply keeps_bind.
      { apply keeps_if; [apply keeps_lift|apply keeps_ret]. }
      intros k2. apply keeps_bind; [apply keeps_get|]. intros from. apply keeps_bind.
      { apply keeps_if; [|apply keeps_ret]. apply keeps_bind; [apply keeps_addropts|]. intros o. apply keeps_if; apply keeps_ret. }
      intros [|k k3]; [apply keeps_ret|]. apply keeps_bind; [apply keeps_get|]. intros; now apply keeps_dbl_loop.
    - cbn [eval]. unfold evalOpt. apply keeps_bind; [|intros; apply keeps_ret]. destruct k; [apply keeps_ret| | |];
      (apply keeps_bind; [apply keeps_get|intros a]); [apply keeps_bind; [apply keeps_get|intros; apply keeps_ret]|apply keeps_addropts|apply keeps_addropts].
  Qed.

  Definition rule_from (r : rule) : Prop :=
    (forall o, In o (rule_operators r) -> op_hits o) /\
    (forall cl k v, In cl (r_clauses r) -> In (k, v) (rc_withs cl) -> Q k v).

  Lemma opts_set w : (forall k v, In (k, v) w -> Q k v) -> forall m, opts_ok m -> opts_ok (set_all m w).
  Proof.
    induction w as [|[k v] w IH]; intros Hw m Hm; [exact Hm|]. unfold set_all in *. cbn [fold_left fst snd]. apply IH; [intros; apply Hw; now right|].
    intros k' v'. rewrite mget_mset. destruct (beqb_spec k' k) as [->|]; [|apply Hm]. intros [= <-]. apply Hw. now left.
  Qed.
  Lemma keeps_check r : rule_from r -> keeps (check W T r).
  Proof.
    intros [H1 H2]. unfold check. apply keeps_bind; [up|]. intros _. unfold rule_operators in H1.
    induction (r_clauses r) as [|x cs IH]; cbn [check_clauses]; [apply keeps_ret|].
    apply keeps_bind; [apply keeps_eval; intros o Ho; apply H1; cbn [flat_map]; apply in_or_app; auto|].
    intros b. apply keeps_bind; [apply keeps_get|]. intros miss. apply keeps_if; [apply keeps_ret|]. apply keeps_if.
    - apply IH; [intros o Ho; apply H1; cbn [flat_map]; apply in_or_app; auto|]. intros cl k v Hc. apply H2. now right.
    - apply keeps_bind; [|intros; apply keeps_ret]. apply keeps_upd. intros c (A1 & A2 & A3 & A4). split; auto. split; auto. split; auto.
      apply opts_set; auto. intros k v. apply (H2 x). now left.
  Qed.
  Lemma keeps_rules ph rs : Forall rule_from rs -> keeps (run_rules W T ph rs).
  Proof.
    induction 1 as [|r rs Hr _ IH]; cbn [run_rules]; [apply keeps_ret|]. apply keeps_if; auto.
    apply keeps_bind; [up|]. intros _. apply keeps_bind.
    { apply keeps_if; [|now apply keeps_check]. induction (t_rcptto T) as [|a l IHl]; cbn [ruleForEachRcpt]; [apply keeps_ret|].
      apply keeps_bind; [up|]. intros _. apply keeps_bind; [now apply keeps_check|]. intros b. apply keeps_if; [apply keeps_ret|].
      apply keeps_bind; [apply keeps_get|]. intros miss. apply keeps_if; [apply keeps_ret|exact IHl]. }
    intros b. apply keeps_bind; [apply keeps_get|]. intros miss. apply keeps_if; auto. apply keeps_if; [apply keeps_ret|auto].
  Qed.
  Lemma keeps_Decide rules ph e : Forall rule_from rules -> keeps (Decide W T rules ph e).
  Proof.
    intros HR. unfold Decide. apply keeps_bind.
    { apply keeps_upd. intros c (A1 & A2 & A3 & A4). split; [constructor|]. split; [destruct ph; exact A2|]. split; [intros k v; discriminate|].
      destruct ph; exact A4. }
    intros _. apply keeps_bind; [apply keeps_get|]. intros def. apply keeps_if.
    { apply keeps_bind; [|intros; apply keeps_ret]. apply keeps_upd. intros c (A1 & A2 & A3 & A4). repeat split; auto. }
    apply keeps_bind; [now apply keeps_rules|]. intros r. apply keeps_bind; [apply keeps_get|]. intros from. apply keeps_if; [|apply keeps_ret].
    apply keeps_bind; [|intros; apply keeps_ret]. apply keeps_upd. intros c (A1 & A2 & A3 & A4). repeat split; auto. intros k v; discriminate.
  Qed.
End From.

(** ** Sessions that cannot crash the server *)

(** the address has (at least) four parts separated by dots *)
Definition dotted (ip : bytes) : Prop :=
  exists a b c d, ip = a ++ B "." ++ b ++ B "." ++ c ++ B "." ++ d.
(** Clients say HELO, with a name, before anything else. *)
Definition introduced (evs : list (sevent * tlsstate)) : Prop :=
  (forall cmd arg tls, In (EvHelo cmd arg, tls) evs -> arg <> []) /\
  (forall pre ev tls post, evs = pre ++ (ev, tls) :: post -> is_command ev -> exists cmd arg tls', In (EvHelo cmd arg, tls') pre).

(** The rules of the session: they come from files or options; no operator has
    an empty argument; if they look at HELO names there are some; there are
    notes only if there is a logger; and if they look up names in
    sbl.spamhaus.org, the client's address is an IPv4 address. *)
Record Harmless (logger : bool) (rip : bytes) (evs : list (sevent * tlsstate)) (rules : list rule) : Prop := mkHarmless {
  hm_file : Forall from_file rules;
  hm_args : forall r o, In r rules -> In o (rule_operators r) -> arg_of o <> Some [];
  hm_helo : (exists r o, In r rules /\ In o (rule_operators r) /\ matches_helo o) -> introduced evs;
  hm_note : logger = false -> forall r cl v, In r rules -> In cl (r_clauses r) -> In (B "note", v) (rc_withs cl) -> v = [];
  hm_sbl : forall r src, In r rules -> In (EDbl src (B "sbl.spamhaus.org.")) (rule_operators r) -> dotted rip
}.
(** The surroundings: the reverse DNS has no empty names, the hash type is one
    that exists, and verified certificate chains are not empty. *)
Record Benign (K : config) (E : senv) (evs : list (sevent * tlsstate)) : Prop := mkBenign {
  bn_uni : unicode_ok (w_uni (v_world E));
  bn_dns : forall i a names, w_addr (v_world E) i a = inl names -> ~ In [] names;
  bn_hash : In (k_hashtype K) [B "msg"; B "full"; B "all"];
  bn_tls : forall ev tls, In (ev, tls) evs -> ~ In [] (ts_chains tls)
}.

Lemma split_length s c : length (split_byte s c) = S (count_occ Ascii.ascii_dec s c).
Proof.
  induction s as [|x s IH]; [reflexivity|]. cbn [split_byte count_occ]. destruct (Ascii.eqb_spec x c) as [->|H].
  - destruct (Ascii.ascii_dec c c); [|congruence]. cbn. now rewrite IH.
  - destruct (Ascii.ascii_dec x c); [congruence|]. destruct (split_byte s c) as [|w ws] eqn:Ew; [now apply split_byte_nonempty in Ew|]. exact IH.
Qed.
Lemma dotted_split ip : dotted ip -> exists a b c d rest, split_byte ip ch_dot = a :: b :: c :: d :: rest.
Proof.
  intros (a & b & c & d & ->). match goal with |- context [split_byte ?s _] => pose proof (split_length s ch_dot) as H end.
  rewrite !count_occ_app in H. change (count_occ Ascii.ascii_dec (B ".") ch_dot) with 1 in H.
  match goal with |- context [split_byte ?s _] => destruct (split_byte s ch_dot) as [|x0 [|x1 [|x2 [|x3 r]]]] end; cbn in H; try lia.
  eauto 8.
Qed.

Definition goes {A} (m : S' A) (s : sess) : Prop := exists a s', m s = Ok (a, s').
Lemma goes_bind {A B} (m : S' A) (f : A -> S' B) s : goes m s -> (forall a s', m s = Ok (a, s') -> goes (f a) s') -> goes (sbind m f) s.
Proof. intros (a & s1 & E1) H. destruct (H a s1 E1) as (b & s2 & E2). exists b, s2. unfold sbind. now rewrite E1. Qed.
Lemma goes_ret {A} (a : A) s : goes (sret a) s.
Proof. eexists. eexists. reflexivity. Qed.
Lemma goes_get {A} (f : sess -> A) s : goes (sget f) s.
Proof. eexists. eexists. reflexivity. Qed.
Lemma goes_gettx {A} (f : tx -> A) s : goes (gettx f) s.
Proof. eexists. eexists. reflexivity. Qed.
Lemma goes_index s : goes index s.
Proof. eexists. eexists. reflexivity. Qed.
Lemma goes_emit e s : goes (emit e) s.
Proof. eexists. eexists. reflexivity. Qed.
Lemma goes_uptx f s : goes (uptx f) s.
Proof. eexists. eexists. reflexivity. Qed.
Lemma goes_got s : goes put_got s.
Proof. eexists. eexists. reflexivity. Qed.
Lemma goes_counts b s : goes (put_counts b) s.
Proof. eexists. eexists. reflexivity. Qed.
Lemma goes_tlscfg b s : goes (put_tlscfg b) s.
Proof. eexists. eexists. reflexivity. Qed.
Lemma goes_withprop k s : goes (withprop k) s.
Proof. eexists. eexists. reflexivity. Qed.
Lemma goes_ext {A} (x : X A) s : goes (inctx (ext x)) s.
Proof. unfold goes, inctx, ext. destruct (x _) as [a t]. eexists. eexists. reflexivity. Qed.
Lemma goes_if {A} (b : bool) (m n : S' A) s : goes m s -> goes n s -> goes (if b then m else n) s.
Proof. destruct b; auto. Qed.
Lemma goes_when b m s : (b = true -> goes m s) -> goes (when_ b m) s.
Proof. destruct b; cbn [when_]; auto. intros _. apply goes_ret. Qed.

(** the steps that always go on *)
Ltac go :=
  lazymatch goal with
  | |- goes (sbind _ _) _ => apply goes_bind; [go|intros ? ? ?; go]
  | |- goes (sret _) _ => apply goes_ret
  | |- goes (sget _) _ => apply goes_get
  | |- goes (gettx _) _ => apply goes_gettx
  | |- goes index _ => apply goes_index
  | |- goes (emit _) _ => apply goes_emit
  | |- goes (uptx _) _ => apply goes_uptx
  | |- goes put_got _ => apply goes_got
  | |- goes (put_counts _) _ => apply goes_counts
  | |- goes (put_tlscfg _) _ => apply goes_tlscfg
  | |- goes (withprop _) _ => apply goes_withprop
  | |- goes (inctx (ext _)) _ => apply goes_ext
  | |- goes (when_ _ _) _ => apply goes_when; intros _; go
  | |- goes (match ?x with _ => _ end) _ => destruct x eqn:?; go
  | |- goes (logwrite _ _) _ => apply goes_emit
  | |- goes (event _) _ => apply goes_emit
  | |- goes (updateTime _ _) _ => apply goes_emit
  | |- goes (minphase _ _) _ => unfold minphase; go
  | |- goes (writeLog _ _ _) _ => unfold writeLog; go
  | |- goes (yakLog _ _ _ _) _ => unfold yakLog; go
  | |- goes (doAccept _) _ => unfold doAccept; go
  | |- goes pluralRecips _ => unfold pluralRecips; go
  | |- goes (yakAdd _ _ _) _ => unfold yakAdd; cbv zeta; go
  | |- goes (yakSet _ _ _ _) _ => unfold yakSet; cbv zeta; go
  | |- goes (yakLookup _ _ _) _ => unfold yakLookup; cbv zeta; go
  | |- goes (notlsAdd _ _) _ => unfold notlsAdd; cbv zeta; go
  | |- goes (notlsLookup _ _) _ => unfold notlsLookup; cbv zeta; go
  | |- _ => idtac
  end.

Section Progress.
  Context (K : config) (E : senv) (cn : conn).
  Variable evs : list (sevent * tlsstate).
  Hypothesis HB : Benign K E evs.

  Definition okay_hit (d : bytes) : Prop := d = B "sbl.spamhaus.org." -> dotted (n_rip cn).
  Definition okay_with (logger : bool) (k v : bytes) : Prop := logger = false -> k = B "note" -> v = [].

  Lemma Harmless_from logger rules T : Harmless logger (n_rip cn) evs rules -> t_rip T = n_rip cn ->
    Forall (rule_from T okay_hit (okay_with logger)) rules.
  Proof.
    intros HH Ht. apply Forall_forall. intros r Hr. split.
    - intros o Ho. unfold op_hits. destruct o; auto; intros Hd.
      + intros ->. rewrite Ht in Hd. destruct Hd as (s0 & s1 & s2 & s3 & Hd). exists s0, s1, s2, s3.
        rewrite <- (join_split (n_rip cn) ch_dot), Hd. reflexivity.
      + subst. eapply (hm_sbl _ _ _ _ HH); eauto.
    - intros cl k v Hc Hw Hl ->. eapply (hm_note _ _ _ _ HH); eauto.
  Qed.

  Section Inf.
    Variable inf : sinfo.
    Hypothesis HH : Harmless (si_log inf) (n_rip cn) evs (si_rules inf).

    Definition here (h : list decision) : Prop := Forall (fun d => t_rip (d_trans d) = n_rip cn) h.

    Lemma session_ok tr0 h c : session (v_world E) (si_rules inf) tr0 h c -> here h -> ctx_ok okay_hit (okay_with (si_log inf)) c.
    Proof.
      induction 1 as [|h c T ph e a c' Hs IH ED].
      - intros _. repeat split; try constructor; intros k v; discriminate.
      - intros Hh. inversion Hh as [|? ? Ht Hh']; subst. cbn [d_trans] in Ht.
        eapply keeps_Decide; [apply (Harmless_from _ _ T HH Ht)|exact ED|auto].
    Qed.

    Lemma sort_In x l : In x (sort_strings l) -> In x l.
    Proof.
      assert (HI : forall y l0, In x (insert y l0) -> x = y \/ In x l0).
      { intros y l0. induction l0 as [|z l' IH]; cbn [insert]; [intros [<-|[]]; auto|]. destruct (bytes_leb y z).
        - intros [<-|H]; auto.
        - intros [<-|H]; [right; now left|]. destruct (IH H); auto. right. now right. }
      induction l as [|y l' IH]; [auto|]. cbn [sort_strings fold_right]. intros H. destruct (HI _ _ H) as [->|H']; [now left|right; auto].
    Qed.

    Lemma run_rules_action W T ph rs c a c' : run_rules W T ph rs c = Ok (a, c') -> a = aNoresult \/ 2 <= acode a.
    Proof.
      revert c. induction rs as [|r rs IH]; intros c H; cbn [run_rules] in H; [injection H as <- _; auto|].
      destruct (skipped ph r); [eauto|]. unfold mbind in H. cbn [upd] in H.
      match type of H with match ?m with _ => _ end = _ => destruct m as [[b c1]| |]; try discriminate H end. cbn [get] in H.
      destruct (c_rulemiss c1); [eauto|]. destruct (b && _) eqn:Eb; [|eauto]. injection H as <- _.
      apply andb_true_iff in Eb as [_ Eb]. apply Nat.leb_le in Eb. auto.
    Qed.

    Lemma Decide_action W T rs ph e c a c' : Decide W T rs ph e c = Ok (a, c') -> a = aNoresult \/ 2 <= acode a.
    Proof.
      intros H. unfold Decide, mbind in H. cbn [upd get] in H.
      destruct (Nat.leb _ _) eqn:El in H; [injection H as <- _; apply Nat.leb_le in El; auto|].
      match type of H with match ?m with _ => _ end = _ => destruct m as [[r c1]| |] eqn:Er; try discriminate H end.
      destruct (_ && _) in H; injection H as <- _; [right; cbn; lia|]. eapply run_rules_action; eauto.
    Qed.

    Lemma decider_goes ph e id s tr0 h :
      session (v_world E) (si_rules inf) tr0 h (s_ctx s) -> here h -> nonempty_names (theTrans cn (s_tx s)) ->
      (pcode pHelo <= pcode ph -> (exists r o, In r (si_rules inf) /\ In o (rule_operators r) /\ matches_helo o) -> PropsSafe.helo_name ph e h <> []) ->
      goes (decider E cn inf ph e id) s.
    Proof.
      intros Hs Hh Hn Hp. set (T := theTrans cn (s_tx s)) in *.
      destruct (C40_no_crash _ _ _ _ _ T ph e (bn_uni _ _ _ HB) (hm_file _ _ _ _ HH) Hs Hn (hm_args _ _ _ _ HH) Hp) as (a & c' & ED).
      assert (HD : session (v_world E) (si_rules inf) tr0 (mkDecision T ph e a (c_withprops c') (c_dnsblhit c') (c_domerr c') :: h) c') by (eapply Se_next; eauto).
      assert (Hok : ctx_ok okay_hit (okay_with (si_log inf)) c') by (eapply session_ok; [exact HD|constructor; auto]).
      destruct Hok as (Hhit & _ & Hopt & _).
      assert (Ha : a <> aError).
      { intros ->. apply Decide_action in ED as [ED|ED]; [discriminate ED|cbn in ED; lia]. }
      unfold decider. apply goes_bind; [go|]. intros t sa H1. sapp @gettx_ok H1.
      apply goes_bind. { unfold goes, inctx. fold T. rewrite ED. eexists; eexists; reflexivity. }
      intros res s1 H1. unfold inctx in H1. fold T in H1. rewrite ED in H1. injection H1 as <- <-.
      apply goes_bind; [go|]. intros c1 sa H1. sapp @sget_ok H1. cbn [s_ctx].
      apply goes_bind; [go|]. intros u sa H1. sapp emit_ok H1.
      apply goes_bind.
      { unfold logDnsbls. apply goes_bind; [go|]. intros hits sa H1. sapp @sget_ok H1. unfold add_out at 1. cbn [s_ctx].
        assert (Hsb : forall l, Forall okay_hit l -> forall s, goes (logSbls E cn l) s).
        { clear. induction 1 as [|d l Hd _ IH]; intros s; cbn [logSbls]; [go|]. apply goes_bind; [|intros; apply IH].
          destruct (beqb_spec d (B "sbl.spamhaus.org.")) as [Hb|]; [|go]. apply goes_bind; [|intros; go].
          unfold getSBLHits. destruct (dotted_split _ (Hd Hb)) as (x & y & z & w & rest & ->). cbv zeta. go. }
        destruct (c_dnsblhit c') as [|d l] eqn:Ehit; [go|]. apply goes_if; [go|]. cbv zeta. apply goes_bind; [go|]. intros last sa H1.
        apply goes_if; [go|]. apply goes_bind; [go|]. intros. apply goes_bind; [go|]. intros. apply goes_bind; [go|]. intros. apply Hsb.
        apply Forall_forall. intros x Hx. apply sort_In in Hx. cbn [add_out s_ctx] in Hx. rewrite Ehit in Hx. rewrite Forall_forall in Hhit. auto. }
      intros u1 s2 H2. apply logDnsbls_logs in H2.
      apply goes_bind; [unfold logDomerr; go|]. intros u2 s3 H3. apply logDomerr_logs in H3.
      destruct (logs_trans _ _ _ H2 H3) as (l & m & am & Hl & E3).
      assert (Ec : s_ctx s3 = c') by (rewrite E3; reflexivity).
      apply goes_bind.
      { unfold applyProps. apply goes_bind; [go|]. intros sd sa H1. unfold withprop in H1. sapp @sget_ok H1.
        apply goes_bind; [go|]. intros u4 s4 H4. assert (Ec4 : s_ctx s4 = c').
        { unfold when_ in H4. destruct (negb _) in H4; sinv H4; exact Ec. }
        apply goes_bind; [go|]. intros note sa H1. unfold withprop in H1. sapp @sget_ok H1.
        apply goes_bind; [|intros; go]. apply goes_when. intros Hnn. destruct (si_log inf) eqn:El; [go|]. exfalso.
        rewrite Ec4 in Hnn. destruct (mget (c_withprops c') (B "note")) as [v|] eqn:Ev; [|discriminate Hnn].
        rewrite (Hopt _ _ Ev eq_refl eq_refl) in Hnn. discriminate Hnn. }
      intros u5 s5 H5. destruct a; [congruence|go|go| |]; (apply goes_bind; [go|]; intros; apply goes_if; [go|]; apply goes_bind; [go|]; intros msg sa Hm;
        apply goes_bind; [unfold refusal; go|intros; go]).
    Qed.

    (** what a turn decides *)
    Lemma Turn_about I h t n s s' : Turn K E cn I h t n s s' ->
      (decisions (t_did t) = [] /\ ~ is_helo (t_event t)) \/
      exists d, decisions (t_did t) = [d] /\ About (t_event t) (d_phase d) (d_evt d) /\ t_rip (d_trans d) = n_rip cn.
    Proof.
      intros HT. rewrite <- decisions_vis. apply Turn_Did in HT. destruct t as [ev tls did]. cbn [t_event t_tls t_did] in *.
      assert (HJ : forall t c ph e res c' t' d, Judged E cn I t c ph e res c' t' d -> d_phase d = ph /\ d_evt d = e /\ t_rip (d_trans d) = n_rip cn)
        by (intros ? ? ? ? ? ? ? ? [_ _ _ ->]; auto).
      destruct HT as [ev tls ph e res c t d s' Hc Hr HJ' Hs|cmd arg tls res c t d s' Hr HJ' Hs|arg tls res c t d n s' Hr HJ' Hy Hn Hs
        |arg tls res c t d l s' Hr HJ' Hl Hs|arg tls res c t d s' Hr HJ' Hs|arg tls res c t d s' Hr HJ' Hs
        |data tls when t name e save s' Hm Hd Hn Hk Hs|data tls when t name save res c t1 d got b r s' Hm Hk HJ' Hb Hs|tls n s' Hs|ev tls s' He Hs|tls];
        cbn [decisions flat_map app rev]; try (apply HJ in HJ' as (E1 & E2 & E3)); try (right; exists d; rewrite E1, E2; split; [reflexivity|split; [constructor|assumption]]);
        try (left; split; [reflexivity|intros []]).
      - right. exists d. rewrite E1, E2. split; [reflexivity|split; [|assumption]]. destruct ev; inversion Hc; subst; constructor.
      - right. exists d. rewrite E1, E2. split; [|split; [constructor|assumption]].
        fold (decisions (l ++ [FReply (accept_reply [] (prop_of c (B "message")))])). rewrite decisions_app.
        replace (decisions l) with (@nil decision); [reflexivity|].
        destruct (retry s); [destruct Hl as (n & -> & _)|subst l]; reflexivity.
      - left. split; [|intros []]. rewrite !decisions_app, (proj2 (msglog_silent _ _)), (proj2 (Kept_silent _ _ _ _ Hk)). reflexivity.
      - right. exists d. rewrite E1, E2. split; [|split; [constructor|assumption]]. rewrite !decisions_app, (proj2 (msglog_silent _ _)).
        replace (decisions save) with (@nil decision); [reflexivity|].
        destruct Hk as [(_ & _ & ->)|(_ & _ & Hk)]; [reflexivity|]. symmetry. apply (Kept_silent _ _ _ _ Hk).
      - left. split; [reflexivity|]. destruct He; subst; intros [].
    Qed.

    Lemma Conv_here I h s : Conv K E cn I h s -> here (decisions (s_out s)).
    Proof.
      induction 1 as [s Hs|h s ev tls s' did HC IH Hst Ha].
      - apply setup_Setup in Hs. apply Setup_session in Hs as (rr & st & tr0 & c & T & res & _ & _ & _ & -> & _ & _ & _ & _ & _ & _ & Ht & _).
        constructor; auto.
      - assert (HT : Turn K E cn I h (mkTurn ev tls did) Go s s') by (repeat split; auto).
        rewrite (Turn_decisions _ _ _ _ _ _ _ _ _ HT). apply Forall_app. split; auto.
        apply Turn_about in HT as [(-> & _)|(d & -> & _ & Hd)]; repeat constructor. exact Hd.
    Qed.

    (** After a HELO the name of the last one is not empty. *)
    Lemma Conv_helo I h s : Conv K E cn I h s -> (forall cmd arg tls, In (EvHelo cmd arg, tls) (heard h) -> arg <> []) ->
      (exists cmd arg tls, In (EvHelo cmd arg, tls) (heard h)) -> e_arg (last_command pHelo (decisions (s_out s))) <> [].
    Proof.
      induction 1 as [s Hs|h s ev tls s' did HC IH Hst Ha]; intros Hall Hex.
      - destruct Hex as (? & ? & ? & []).
      - assert (HT : Turn K E cn I h (mkTurn ev tls did) Go s s') by (repeat split; auto).
        rewrite (Turn_decisions _ _ _ _ _ _ _ _ _ HT). rewrite heard_cons in Hall, Hex. cbn [t_event t_tls t_did] in *.
        assert (Hold : ~ is_helo ev -> e_arg (last_command pHelo (decisions (s_out s))) <> []).
        { intros Hnh. apply IH; [intros cmd arg tls' Hin; eapply Hall; apply in_or_app; eauto|].
          destruct Hex as (cmd & arg & tls' & Hin). apply in_app_or in Hin as [Hin|[[= -> ->]|[]]]; [eauto|]. destruct Hnh. exact Logic.I. }
        apply Turn_about in HT. cbn [t_event t_did] in HT. destruct HT as [(-> & Hnh)|(d & -> & HA & _)]; [now apply Hold|]. cbn [rev app last_command].
        destruct (peqb (d_phase d) pHelo) eqn:Ep.
        + inversion HA as [cmd arg E1 E2 E3|arg E1 E2 E3|arg E1 E2 E3|arg E1 E2 E3|arg E1 E2 E3]; rewrite <- E2 in Ep; try discriminate Ep.
          cbn [e_arg]. eapply (Hall cmd arg tls). apply in_or_app. right. left. now rewrite E1.
        + apply Hold. intros Hh. destruct HA; cbn in *; try contradiction. discriminate Ep.
    Qed.

    Lemma names_nonempty tr rd b tr' : LookupAddrVerified (v_world E) (n_rip cn) tr = ((rd, b), tr') ->
      ~ In [] (rd_verified rd) /\ ~ In [] (rd_nofwd rd) /\ ~ In [] (rd_inconsist rd).
    Proof.
      intros HL. assert (HF : Forall (fun n => n <> []) (rd_verified rd ++ rd_nofwd rd ++ rd_inconsist rd)).
      { eapply rdns_names; [|exact HL]. intros i a names Hw. apply (bn_dns _ _ _ HB) in Hw. apply Forall_forall. intros x Hx ->. auto. }
      apply Forall_app in HF as [F1 HF]. apply Forall_app in HF as [F2 F3]. rewrite Forall_forall in F1, F2, F3.
      split; [|split]; intros Hin; [apply F1 in Hin|apply F2 in Hin|apply F3 in Hin]; congruence.
    Qed.
    Lemma Conv_rdns h s : Conv K E cn inf h s -> nonempty_names (theTrans cn (s_tx s)).
    Proof.
      intros HC. destruct (Conv_names K E cn (fun _ => True) _ _ _ HC Logic.I) as ((tr & b & tr' & HL) & _).
      - apply Forall_forall. intros e _. destruct (peer_cert _); exact Logic.I.
      - eapply names_nonempty; eauto.
    Qed.

    Lemma step_goes h s ev tls rest : Conv K E cn inf h s -> heard h ++ (ev, tls) :: rest = evs -> goes (step K E cn inf (ev, tls)) s.
    Proof.
      intros HC Hev.
      destruct (Conv_session _ _ _ _ _ _ HC) as (tr0 & Hs). pose proof (Conv_here _ _ _ HC) as Hh. pose proof (Conv_rdns _ _ HC) as Hn.
      assert (Hdec : forall ph e id s1, s_ctx s1 = s_ctx s -> x_rdns (s_tx s1) = x_rdns (s_tx s) -> About ev ph e -> goes (decider E cn inf ph e id) s1).
      { intros ph e id s1 Ec Er HA. apply (decider_goes ph e id s1 tr0 (decisions (s_out s))); auto.
        - now rewrite Ec.
        - unfold nonempty_names, theTrans. cbn [t_rdns]. rewrite Er. exact Hn.
        - intros Hp Hm. apply (hm_helo _ _ _ _ HH) in Hm as [Hi1 Hi2]. unfold PropsSafe.helo_name. destruct (peqb ph pHelo) eqn:Ep.
          + destruct HA; try discriminate Ep. cbn [e_arg]. apply (Hi1 cmd arg tls). rewrite <- Hev. apply in_or_app. right. now left.
          + apply (Conv_helo _ _ _ HC).
            * intros cmd arg tls' Hin. apply (Hi1 cmd arg tls'). rewrite <- Hev. apply in_or_app. now left.
            * apply (Hi2 _ ev tls rest); [now rewrite Hev|]. destruct HA; try exact Logic.I. discriminate Ep. }
      assert (Hcl : ~ In [] (ts_chains tls)).
      { apply (bn_tls _ _ _ HB ev). rewrite <- Hev. apply in_or_app. right. now left. }
      assert (Hver : ts_peers tls <> [] -> forall s, goes (tlsTryVerify E tls) s).
      { intros Hp s1. unfold tlsTryVerify. destruct (ts_chains tls); [|go]. destruct (ts_peers tls); [congruence|go]. }
      assert (Hlog : forall s, goes (tlsClientLog E cn inf tls) s).
      { intros s1. unfold tlsClientLog. destruct (ts_peers tls) eqn:Ep; [go|]. apply goes_bind; [apply Hver; discriminate|]. intros. go. }
      destruct ev as [cmd arg|arg|arg|arg|data| | | |]; cbn [step].
      - unfold onHelo. apply goes_bind; [go|]. intros u s1 H1. unfold event in H1. sapp emit_ok H1. apply goes_bind; [apply Hdec; auto; constructor|].
        intros b s2 _. apply goes_if; [go|]. apply goes_bind; [go|]. intros. apply goes_bind; [go|]. intros. apply goes_bind; [go|]. intros.
        apply goes_bind; [go|]. intros. apply goes_bind; [|intros; go]. apply goes_when. intros _. apply goes_bind; [go|]. intros. apply goes_bind; [go|]. intros.
        apply goes_bind; [go|]. intros. apply Hlog.
      - unfold onMailFrom. apply goes_bind; [go|]. intros u s1 H1. unfold event in H1. sapp emit_ok H1. apply goes_bind; [apply Hdec; auto; constructor|].
        intros b s2 _. apply goes_if; [go|]. go.
      - unfold onRcptTo. apply goes_bind; [go|]. intros u s1 H1. unfold event in H1. sapp emit_ok H1. apply goes_bind; [apply Hdec; auto; constructor|].
        intros b s2 _. apply goes_if; [go|]. go.
      - unfold onData. apply goes_bind; [go|]. intros u s1 H1. unfold event in H1. sapp emit_ok H1. apply goes_bind; [apply Hdec; auto; constructor|].
        intros b s2 _. apply goes_if; [go|]. go.
      - unfold onGotData. apply goes_bind; [go|]. intros u s1 H1. unfold event in H1. sapp emit_ok H1.
        apply goes_bind; [go|]. intros u1 s1 H1. apply minphase_ok in H1 as (_ & ->).
        apply goes_bind; [go|]. intros i s1 H1. sapp index_ok H1.
        apply goes_bind; [go|]. intros u2 s1 H1. sapp uptx_ok H1.
        apply goes_bind.
        { unfold notePeer. destruct (ts_chains tls) as [|[|c0 cs] rest'] eqn:Ec; [|exfalso; apply Hcl; now left|go].
          destruct (ts_peers tls) eqn:Ep; [go|]. apply goes_bind; [apply Hver; discriminate|]. intros. go. }
        intros u3 s1 H1. apply notePeer_spec in H1.
        assert (E1 : s_ctx s1 = s_ctx s /\ x_rdns (s_tx s1) = x_rdns (s_tx s)).
        { destruct H1 as (p & v & _ & ->). split; reflexivity. }
        apply goes_bind; [go|]. intros u4 s2 H2. sapp uptx_ok H2.
        apply goes_bind.
        { unfold handleMessage. apply goes_bind; [go|]. intros t sa H2. apply goes_bind; [go|]. intros. apply goes_if; [go|].
          unfold saveName. destruct (msgDetails _ _ _) as [m mh].
          assert (Hsave : forall name s, goes (sbind (saveFile E (x_savedir t ++ B "/" ++ name) m) (fun err => sret (name, err))) s).
          { intros name s3. apply goes_bind; [|intros; go]. unfold saveFile. cbv zeta. go. }
          destruct (beqb_spec (k_hashtype K) (B "msg")); [apply Hsave|]. destruct (beqb_spec (k_hashtype K) (B "full")); [apply Hsave|].
          destruct (beqb_spec (k_hashtype K) (B "all")); [apply Hsave|]. exfalso. destruct (bn_hash _ _ _ HB) as [Hk|[Hk|[Hk|[]]]]; congruence. }
        intros [transid err] s2 H2. apply handleMessage_spec in H2 as (name & err' & l & [= -> ->] & -> & _).
        apply goes_bind; [|intros; go]. destruct err'; [go|]. apply goes_bind; [|intros; go].
        apply Hdec; [exact (proj1 E1)| |constructor]. cbn [add_out upd_tx s_tx]. unfold getHashes. cbn. exact (proj2 E1).
      - unfold onTlsError. go.
      - go.
      - go.
      - go.
    Qed.

    Lemma loop_goes rest : forall h s, Conv K E cn inf h s -> heard h ++ rest = evs -> goes (loop K E cn inf rest) s.
    Proof.
      induction rest as [|[ev tls] rest IH]; intros h s HC Hev; cbn [loop]; [go|].
      apply goes_bind; [eapply step_goes; eauto|]. intros n s' Hs. destruct n; [|go|go].
      destruct (step_after _ _ _ _ _ _ _ _ _ Hs) as (did & Hd). eapply (IH (mkTurn ev tls did :: h)).
      - econstructor; eauto.
      - rewrite heard_cons, <- app_assoc. exact Hev.
    Qed.
  End Inf.

  (** setting up *)
  Lemma setupRules_some fds fs tick base files : exists rr, setupRules fds fs tick base files = Some rr.
  Proof.
    unfold setupRules. revert tick base. induction files as [|f files IH]; intros tick base; cbn [accumAll]; [eexists; reflexivity|].
    destruct (accumRules fds fs tick base f) as [r t'] eqn:Ea. destruct r as [rs|e| |]; [apply IH|eexists; reflexivity| |]; exfalso; unfold accumRules in Ea;
      (destruct f as [|c0 f]; [discriminate Ea|]); destruct (C01_load_terminates fds fs tick (c0 :: f)) as [(rs & t & El)|(e & t & El)]; rewrite El in Ea; discriminate Ea.
  Qed.
  Lemma conn_lines_ok U ld lines ioerr : unicode_ok U -> forall n, exists r, conn_lines U ld n lines ioerr = Ok r.
  Proof.
    intros HU. induction lines as [|l ls IH]; intros n; cbn [conn_lines]; [eauto|]. cbv zeta.
    pose proof (trim_space_fields U l HU) as Hf. destruct (trim_space U l) as [|c t]; [apply IH|].
    destruct (Ascii.eqb c "#"); [apply IH|]. destruct (conn_line_ok U ld (S n) (c :: t)) as [p ->]; [apply Hf; discriminate|]. cbn [obind].
    destruct p as [pd|e]; [|eauto]. destruct (IH (S n)) as (r & ->). cbn [obind]. eauto.
  Qed.
  Lemma stallall_harmless logger : Harmless logger (n_rip cn) evs stallall.
  Proof.
    assert (Hf : Forall from_file stallall).
    { apply Forall_forall. intros r Hr. exists 0, nofs, (B "stall all"), [stall_all]. split; [vm_compute; reflexivity|]. rewrite <- stallall_is. exact Hr. }
    rewrite stallall_is in *. constructor; auto.
    - intros r o [<-|[]] [<-|[]]. discriminate.
    - intros (r & o & [<-|[]] & [<-|[]] & []).
    - intros _ r cl v [<-|[]] [<-|[]] [].
    - intros r src [<-|[]] [H|[]]. discriminate H.
  Qed.

  Hypothesis HH : forall rr, setupRules (v_fds E) (v_rfs E) (v_tick E) (k_base K) (k_rulefiles K) = Some rr ->
    Harmless (k_smtplog K) (n_rip cn) evs (rr_rules rr).

  Lemma info_harmless rr st : setupRules (v_fds E) (v_rfs E) (v_tick E) (k_base K) (k_rulefiles K) = Some rr ->
    Harmless (si_log (info_of K rr st)) (n_rip cn) evs (si_rules (info_of K rr st)).
  Proof. intros H. destruct st; [apply stallall_harmless|apply HH; exact H]. Qed.

  Lemma setup_goes : goes (setup K E cn) (sess0 K).
  Proof.
    unfold setup. apply goes_bind.
    { unfold setupClient. apply goes_bind; [go|]. intros. destruct (setupRules_some (v_fds E) (v_rfs E) (v_tick E) (k_base K) (k_rulefiles K)) as (rr & ->). go. }
    intros inf s1 H1. apply setupClient_spec in H1 as (rr & hit & n & l1 & l2 & Hr & Hl1 & Hl2 & Hi & ->).
    apply goes_bind.
    { unfold localName. apply goes_if; [go|]. apply goes_bind; [go|]. intros r s1 H1. apply inctx_ok in H1 as (c & H1 & ->). unfold ext, lookup_addr, ask in H1.
      injection H1 as <- _. destruct (w_addr _ _ _) as [[|name names]|] eqn:Ew; try go.
      apply (bn_dns _ _ _ HB) in Ew. unfold last_byte in *. destruct (rev name) as [|x y] eqn:Er; [|discriminate].
      apply (f_equal (@rev ascii)) in Er. rewrite rev_involutive in Er. subst name. exfalso. apply Ew. now left. }
    intros sname s1 H1. apply localName_spec in H1 as (Hp & tr1 & ->); [|reflexivity].
    apply goes_bind.
    { unfold connParams. apply goes_if; [go|]. apply goes_bind; [go|]. intros r s1 H1. apply inctx_ok in H1 as (c & H1 & ->).
      unfold ext in H1. destruct (loadConnFile _ _ _ _) as [o tr] eqn:El. injection H1 as <- _.
      assert (Ho : exists d, o = Ok d).
      { unfold loadConnFile, read_file, ask, xbind, xret in El. apply (f_equal fst) in El. cbn [fst] in El. subst o.
        destruct (w_file _ _ _); eauto. apply conn_lines_ok. apply (bn_uni _ _ _ HB). }
      destruct Ho as (d & ->). apply goes_bind; [unfold goes; cbn; eauto|]. intros. go. }
    intros [name certs] s1 H1. apply connParams_spec in H1 as (Hc & tr2 & l3 & Hl3 & ->).
    apply goes_bind. { unfold setupConn. cbv zeta. go. }
    intros u s1 H1. apply setupConn_spec in H1 as (thit & tn & l4 & Hl4 & ->).
    apply goes_bind; [go|]. intros [rd rb] s1 H1. apply inctx_ok in H1 as (c & H1 & ->). unfold ext in H1.
    destruct (LookupAddrVerified _ _ _) as [rd' tr0] eqn:El. injection H1 as -> <-.
    apply goes_bind; [go|]. intros u1 s1 H1. sapp uptx_ok H1.
    apply goes_bind; [|intros [] s1 _; go].
    rewrite Hi. eapply (decider_goes (info_of K rr (stalled K hit n)) (info_harmless _ _ Hr) pConnect (mkEvt None []) [] _ tr0 []).
    - cbn. apply Se_start.
    - constructor.
    - unfold nonempty_names. cbn. eapply names_nonempty; eauto.
    - cbn. lia.
  Qed.

  Lemma process_goes : goes (process K E cn evs) (sess0 K).
  Proof.
    unfold process. apply goes_bind; [apply setup_goes|]. intros [inf|] s Hs; [|go].
    assert (Hi : exists rr st, setupRules (v_fds E) (v_rfs E) (v_tick E) (k_base K) (k_rulefiles K) = Some rr /\ inf = info_of K rr st).
    { pose proof (setup_Setup _ _ _ _ _ Hs) as H. apply Setup_session in H as (rr & st & tr0 & c & T & res & Hr & _ & _ & _ & _ & Eo & _).
      exists rr, st. split; auto. destruct res; congruence. }
    destruct Hi as (rr & st & Hr & ->). apply goes_bind.
    - eapply (loop_goes _ (info_harmless _ st Hr) evs [] s); [constructor; auto|reflexivity].
    - intros n s1 H1. destruct n; [go|go|]. apply goes_bind; [|intros; go]. unfold finish. go.
  Qed.
End Progress.

(** A session whose rules are harmless, in benign surroundings, never crashes
    the server, whatever the client sends and however the disk, the DNS and the
    blacklists answer.  (Rules that make a stalled do-nothing client wait are
    always harmless.) *)
Theorem C60_no_crash K E cn evs : Benign K E evs ->
  (forall rr, setupRules (v_fds E) (v_rfs E) (v_tick E) (k_base K) (k_rulefiles K) = Some rr ->
     Harmless (k_smtplog K) (n_rip cn) evs (rr_rules rr)) ->
  exists done s, process K E cn evs (sess0 K) = Ok (done, s).
Proof. intros HB HH. exact (process_goes K E cn evs HB HH). Qed.

(** ** Notes *)

Section Notes.
  Context (K : config) (E : senv) (cn : conn).

  (** Every decision with a note is followed, before the next decision, by the
      note in the SMTP log; effects are listed latest first. *)
  Definition Noted (out : list effect) : Prop :=
    forall later d earlier n, out = later ++ FDecide d :: earlier -> mget (d_withs d) (B "note") = Some n -> n <> [] ->
      exists l1 l2, later = l1 ++ FSmtplog (n_prefix cn ++ B "! rule note: " ++ n ++ [ch_nl]) :: l2 /\ decisions l2 = [].

  Lemma Noted_quiet l o : decisions l = [] -> Noted o -> Noted (l ++ o).
  Proof.
    intros Hl Ho later d earlier n Heq Hn Hne. revert l Hl Heq. induction later as [|e later IH]; intros l Hl Heq.
    - destruct l as [|x l]; [apply (Ho [] d earlier n Heq Hn Hne)|]. injection Heq as -> _. discriminate Hl.
    - destruct l as [|x l]; [apply (Ho (e :: later) d earlier n Heq Hn Hne)|].
      pose proof (f_equal (hd e) Heq) as E1. pose proof (f_equal (@tl effect) Heq) as E2. cbn [hd tl app] in E1, E2. subst x.
      assert (Hl' : decisions l = []) by (destruct e; cbn in Hl; auto; discriminate Hl).
      destruct (IH l Hl' E2) as (l1 & l2 & -> & H2). exists (e :: l1), l2. auto.
  Qed.
  Lemma Noted_decided I ph e id s b res c ans s1 : Decided E cn I ph e id s b res c ans s1 -> Noted (s_out s) -> Noted (s_out s1).
  Proof.
    intros [b' res' c' log ans' m am HD Hl Hn HA] Ho. cbn [after_decision s_out]. rewrite <- !app_assoc. apply Noted_quiet.
    { destruct HA; reflexivity. }
    intros later d earlier n Heq Hw Hne. cbn [app] in Heq.
    assert (Hcase : forall log, Forall chatter log -> log ++ FDecide (the_decision cn (s_tx s) ph e res' c') :: s_out s = later ++ FDecide d :: earlier ->
       (later = log /\ d = the_decision cn (s_tx s) ph e res' c') \/ exists mid, later = log ++ FDecide (the_decision cn (s_tx s) ph e res' c') :: mid /\ s_out s = mid ++ FDecide d :: earlier).
    { clear. induction later as [|x later IH]; intros log Hl Heq.
      - destruct log as [|y log]; [left; split; auto; pose proof (f_equal (hd FHangup) Heq) as E1; cbn in E1; congruence|].
        pose proof (f_equal (hd FHangup) Heq) as E1. cbn [hd app] in E1. subst y. inversion Hl as [|? ? Hc]. destruct Hc.
      - destruct log as [|y log].
        + right. exists later. pose proof (f_equal (hd FHangup) Heq) as E1. pose proof (f_equal (@tl effect) Heq) as E2. cbn [hd tl app] in E1, E2. subst x. auto.
        + pose proof (f_equal (hd FHangup) Heq) as E1. pose proof (f_equal (@tl effect) Heq) as E2. cbn [hd tl app] in E1, E2. subst y.
          inversion Hl as [|? ? Hc Hl']; subst. destruct (IH _ Hl' E2) as [(-> & ->)|(mid & -> & Hm)]; [auto|right; exists mid; auto]. }
    destruct (Hcase log Hl Heq) as [(-> & ->)|(mid & -> & Hm)].
    - cbn [d_withs the_decision] in Hw. unfold prop_of in Hn. rewrite Hw in Hn. destruct (Hn Hne) as (_ & Hin).
      apply in_split in Hin as (l1 & l2 & Eq). exists l1, l2. split; [exact Eq|].
      assert (Hd : decisions log = []) by (apply chatter_decisions; exact Hl). rewrite Eq, decisions_app in Hd. apply app_eq_nil in Hd as [_ Hd]. exact Hd.
    - destruct (Ho mid d earlier n Hm Hw Hne) as (l1 & l2 & -> & H2). exists (log ++ FDecide (the_decision cn (s_tx s) ph e res' c') :: l1), l2.
      split; auto. rewrite <- app_assoc. reflexivity.
  Qed.

  Lemma idle_decisions l : Forall idle l -> decisions l = [].
  Proof. intros H. rewrite <- decisions_vis, (vis_idle _ H). reflexivity. Qed.
  Lemma Noted_step I s ev tls n s' : Step K E cn I s ev tls n s' -> Noted (s_out s) -> Noted (s_out s').
  Proof.
    assert (Hrec : forall tls data name err l s1, Received K E cn s tls data name err l s1 -> Noted (s_out s) -> Noted (s_out s1)).
    { intros tls' data name err l s1 [when t name' err' l' Hm Hk] Ho. cbn [s_out]. rewrite app_assoc. apply Noted_quiet; [|apply (Noted_quiet [_]); auto].
      rewrite decisions_app, (proj2 (msglog_silent _ _)), app_nil_r. destruct Hk as [(_ & _ & _ & ->)|(_ & _ & Hk)]; [reflexivity|].
      apply Saved_Kept in Hk. apply Kept_silent in Hk as [_ Hk]. rewrite decisions_vis in Hk. apply (f_equal (@rev decision)) in Hk.
      rewrite <- decisions_rev, rev_involutive in Hk. exact Hk. }
    assert (Hd : forall I ph e id ev res c b ans s1, Decided E cn I ph e id (add_out [FEvent (tally_of ev)] s) b res c ans s1 -> Noted (s_out s) -> Noted (s_out s1)).
    { intros ? ? ? ? ? ? ? ? ? ? HD Ho. eapply Noted_decided; [exact HD|]. apply (Noted_quiet [_]); auto. }
    assert (Hd' : forall I ph e id name res c b ans s1, Decided E cn I ph e id (add_out [FEvent name] s) b res c ans s1 -> Noted (s_out s) -> Noted (s_out s1)).
    { intros ? ? ? ? ? ? ? ? ? ? HD Ho. eapply Noted_decided; [exact HD|]. apply (Noted_quiet [_]); auto. }
    intros HS Ho.
    destruct HS as [ev tls ph e res c ans s1 Hc HD|cmd arg tls res c ans s1 l HD Hl Ht|arg tls res c ans s1 l n HD Hr Hn Hl Ht|arg tls res c ans s1 l HD Hl
      |arg tls res c ans s1 HD|arg tls res c ans s1 HD|data tls name e l s1 HR|data tls name l s1 res c ans s2 HR HD|data tls name l s1 res c ans s2 HR HD|tls n|tls|tls|tls];
      cbn [s_out add_out app].
    - eauto.
    - apply Noted_quiet; [now apply idle_decisions|]. eauto.
    - apply (Noted_quiet (FReply _ :: l ++ [_; _])); [|eauto]. cbn [decisions flat_map app]. fold (decisions (l ++ [FYak (BAdd (n_rip cn) (k_yakttl K) n); FEvent (B "rsets")])).
      rewrite decisions_app, (idle_decisions _ Hl). reflexivity.
    - apply (Noted_quiet (FEvent _ :: FReply _ :: l)); [|eauto]. destruct (retry s1); [destruct Hl as (n & -> & _)|subst l]; reflexivity.
    - apply (Noted_quiet [_; _]); [reflexivity|eauto].
    - apply (Noted_quiet [_; _]); [reflexivity|eauto].
    - apply (Noted_quiet [_; _]); [reflexivity|eauto].
    - apply (Noted_quiet [_]); [reflexivity|]. eapply Noted_decided; eauto.
    - apply (Noted_quiet [_; _]); [reflexivity|]. eapply Noted_decided; eauto.
    - apply (Noted_quiet [_; _; _]); [reflexivity|auto].
    - apply (Noted_quiet [_]); [reflexivity|auto].
    - apply (Noted_quiet [_]); [reflexivity|auto].
    - auto.
  Qed.

  Lemma Noted_setup o s : Setup K E cn o s -> Noted (s_out s).
  Proof.
    intros [rr hit n inf l1 l2 sname tr1 name certs tr2 l3 thit tn l4 rd tr0 refused res c ans s1 l5 Hr Hi _ _ _ H1 H2 H3 H4 H5 HD _].
    cbn [add_out s_out]. apply Noted_quiet; [now apply idle_decisions|]. eapply Noted_decided; [exact HD|]. cbn [s_out].
    assert (H0 : Noted []) by (intros [] ? ? ? HX; discriminate HX). rewrite <- (app_nil_r (_ :: _)). apply Noted_quiet; [|exact H0].
    change (decisions (l4 ++ FNotls (BLookup (n_rip cn) tlsTimeout thit tn) :: l3 ++ l2 ++ FYak (BLookup (n_rip cn) (k_yakttl K) hit n) :: l1) = []).
    rewrite decisions_app, (idle_decisions _ H4). change (decisions (l3 ++ l2 ++ FYak (BLookup (n_rip cn) (k_yakttl K) hit n) :: l1) = []).
    rewrite !decisions_app, (idle_decisions _ H3), (idle_decisions _ H2). apply (idle_decisions _ H1).
  Qed.

  Lemma Noted_conv I h s : Conv K E cn I h s -> Noted (s_out s).
  Proof.
    induction 1 as [s Hs|h s ev tls s' did HC IH Hst Ha].
    - eapply Noted_setup. eapply setup_Setup; eauto.
    - eapply Noted_step; [eapply step_Step; eauto|exact IH].
  Qed.
  Lemma finish_quiet I s s' : finish K E cn I s = Ok (tt, s') -> exists l, decisions l = [] /\ s_out s' = l ++ s_out s.
  Proof.
    intros H. destruct (finish_spec K E cn I s s' H) as (l1 & l2 & Ha & H2 & H1). exists (rev (l1 ++ l2)). split; [|exact Ha].
    rewrite decisions_rev, decisions_app. replace (decisions l2) with (@nil decision).
    2:{ clear -H2. induction H2 as [|e l He _ IH]; [reflexivity|]. destruct e; try contradiction; exact IH. }
    replace (decisions l1) with (@nil decision); [reflexivity|].
    destruct H1 as [n w|n w| |]; try reflexivity; cbn [decisions flat_map app]; destruct (Z.eqb n (k_yakcount K)); try reflexivity;
      unfold smtplog_line, dn_line; destruct (si_log I), (k_dnlog K); reflexivity.
  Qed.

  (** In every session, whatever its configuration, a rule's note is in the SMTP
      log. *)
  Theorem C60_notes_logged evs done s : process K E cn evs (sess0 K) = Ok (done, s) -> Noted (s_out s).
  Proof.
    intros H. apply process_went in H. destruct H as [s Hs|I h s HC _|I h s t rest s' HT _|I h s t rest s1 s' HT _ Hf].
    - apply (Noted_quiet [_]); [reflexivity|]. eapply Noted_setup, setup_Setup; eauto.
    - eapply Noted_conv; eauto.
    - apply (Noted_quiet [_]); [reflexivity|]. destruct HT as (HC & Hs & _). eapply Noted_step; [eapply step_Step; eauto|eapply Noted_conv; eauto].
    - apply (Noted_quiet [_]); [reflexivity|]. destruct HT as (HC & Hs & _). apply finish_quiet in Hf as (l & Hl & ->). apply Noted_quiet; auto.
      eapply Noted_step; [eapply step_Step; eauto|eapply Noted_conv; eauto].
  Qed.
End Notes.

(** ** Sessions that do crash *)

(** checking the conditions on rules that contain no HELO matches *)
Local Definition plain_rule (logger v4 : bool) (r : rule) : bool :=
  forallb (fun o => match arg_of o with Some [] => false | _ => true end &&
                    match o with EMatch MHelo _ | ESource _ => false | EDbl _ d => v4 || negb (beqb d (B "sbl.spamhaus.org.")) | _ => true end) (rule_operators r) &&
  (logger || forallb (fun cl => forallb (fun w => negb (beqb (fst w) (B "note")) || beqb (snd w) []) (rc_withs cl)) (r_clauses r)).
Local Lemma plain_harmless logger v4 rip evs text : forallb (plain_rule logger v4) (text_rules text) = true -> (v4 = true -> dotted rip) ->
  Harmless logger rip evs (text_rules text).
Proof.
  intros H Hd. pose proof (proj1 (forallb_forall _ _) H) as Hr. clear H.
  assert (Ho : forall r o, In r (text_rules text) -> In o (rule_operators r) ->
    match arg_of o with Some [] => false | _ => true end && match o with EMatch MHelo _ | ESource _ => false | EDbl _ d => v4 || negb (beqb d (B "sbl.spamhaus.org.")) | _ => true end = true).
  { intros r o Hin Hin'. apply Hr in Hin. apply andb_prop in Hin as [Hin _]. apply (proj1 (forallb_forall _ _) Hin _ Hin'). }
  split.
  - apply text_rules_from.
  - intros r o Hin Hin' E. specialize (Ho r o Hin Hin'). rewrite E in Ho. discriminate Ho.
  - intros (r & o & Hin & Hin' & Hm). specialize (Ho r o Hin Hin'). apply andb_prop in Ho as [_ Ho]. destruct o as [| | | | | |[]| | |]; try contradiction; discriminate Ho.
  - intros -> r cl v Hin Hin' Hw. apply Hr in Hin. apply andb_prop in Hin as [_ Hin]. pose proof (proj1 (forallb_forall _ _) (proj1 (forallb_forall _ _) Hin _ Hin') _ Hw) as Hv.
    cbn [fst snd] in Hv. rewrite beqb_refl in Hv. cbn in Hv. now apply beqb_eq in Hv.
  - intros r src Hin Hin'. specialize (Ho _ _ Hin Hin'). apply andb_prop in Ho as [_ Ho]. destruct v4; auto; rewrite beqb_refl in Ho; discriminate Ho.
Qed.
Local Lemma demo_benign ht rules logger E evs : In ht [B "msg"; B "full"; B "all"] -> w_uni (v_world E) = plain_unicode -> (forall i a, w_addr (v_world E) i a = inl []) ->
  Forall (fun x => snd x = no_tls) evs ->
  Benign (mkConfig (B "/save") ht (B "helo") 0 100 (B "me") [] false [] rules logger false true [B "c"]) E evs.
Proof.
  intros Hh Hu Ha Ht. split; auto.
  - rewrite Hu. apply plain_unicode_ok.
  - intros i a names H. rewrite Ha in H. injection H as <-. auto.
  - intros ev tls Hin. rewrite Forall_forall in Ht. apply Ht in Hin. cbn in Hin. subst tls. auto.
Qed.

Local Lemma setup_base fds fs tick rules : setupRules fds fs tick rules [] = Some (mkRulesRes rules true None).
Proof. reflexivity. Qed.
Definition noted_text : bytes := B "reject from evil@x.y with note bad
".
Definition quiet_cfg (logger : bool) (rules : list rule) : config :=
  mkConfig (B "/save") (B "all") (B "helo") 0 100 (B "me") [] false [] rules logger false true [B "c"].
Definition evil_mail : list (sevent * tlsstate) := plain [EvHelo EHLO (B "h"); EvMailFrom (B "evil@x.y")].

Lemma evil_benign E logger rules : w_uni (v_world E) = plain_unicode -> (forall i a, w_addr (v_world E) i a = inl []) -> Benign (quiet_cfg logger rules) E evil_mail.
Proof. intros H1 H2. apply demo_benign; auto; [cbn; auto|]. repeat constructor. Qed.

(** A note crashes a server without an SMTP log: the rules are harmless but for
    the missing logger. *)
Theorem C60_refuted : exists K E cn evs rr, Benign K E evs /\ k_smtplog K = false /\
  setupRules (v_fds E) (v_rfs E) (v_tick E) (k_base K) (k_rulefiles K) = Some rr /\
  Harmless true (n_rip cn) evs (rr_rules rr) /\
  process K E cn evs (sess0 K) = Panic.
Proof.
  exists (quiet_cfg false (text_rules noted_text)), demo_env, demo_conn, evil_mail. eexists.
  split; [apply evil_benign; reflexivity|]. split; [reflexivity|]. split; [apply setup_base|].
  split; [apply (plain_harmless true false); [vm_compute; reflexivity|discriminate]|]. vm_compute. reflexivity.
Qed.

(** With the log it is there, and the conditions of [C60_no_crash] hold. *)
Example C60_example : exists rr done s,
  Benign (quiet_cfg true (text_rules noted_text)) demo_env evil_mail /\
  setupRules (v_fds demo_env) (v_rfs demo_env) (v_tick demo_env) (text_rules noted_text) [] = Some rr /\ Harmless true (n_rip demo_conn) evil_mail (rr_rules rr) /\
  process (quiet_cfg true (text_rules noted_text)) demo_env demo_conn evil_mail (sess0 (quiet_cfg true (text_rules noted_text))) = Ok (done, s) /\
  In (FSmtplog (n_prefix demo_conn ++ B "! rule note: bad" ++ [ch_nl])) (s_out s).
Proof.
  eexists. eexists. eexists. split; [apply evil_benign; reflexivity|]. split; [apply setup_base|].
  split; [apply (plain_harmless true false); [vm_compute; reflexivity|discriminate]|]. split; [vm_compute; reflexivity|]. cbn; auto 20.
Qed.

(** the world where every name is listed in sbl.spamhaus.org *)
Definition sbl_world : world :=
  {| w_uni := plain_unicode; w_file := fun _ _ => FNoent;
     w_ip := fun _ n => if beqb n (B "x.y.sbl.spamhaus.org.") then inl [mk_v4 (127 * 2 ^ 24 + 2)] else inr (mkDnsErr true false (B "no such host") (B "no such host"));
     w_mx := fun _ _ => inr (mkDnsErr true false (B "no such host") (B "no such host")); w_addr := fun _ _ => inl []; w_order := fun _ l => l; w_ipstr := fun _ => B "127.0.0.2" |}.
Definition sbl_env : senv :=
  mkEnv sbl_world 10 nofs 0 (fun _ _ => inr []) (fun _ => (false, 0%Z)) (fun _ => 1%Z) (fun _ => B "2026") (fun _ => B "now")
    (fun _ _ => None) (fun _ _ => OpOk) (fun _ _ => WrOk) (fun _ => None) (fun d => B "H" ++ d) (fun d => MBody d) (fun _ _ _ => None).
Definition sbl_text : bytes := B "reject dbl from sbl.spamhaus.org
".
Definition v6_conn : conn := mkConn 7 1 (B "[2001:db8::7]:5678") (B "[2001:db8::1]:25").

(** A name that is listed in sbl.spamhaus.org crashes the server if the client's
    address is an IPv6 address; from an IPv4 address the same session is fine. *)
Theorem C61_refuted : exists K E evs rr, Benign K E evs /\
  setupRules (v_fds E) (v_rfs E) (v_tick E) (k_base K) (k_rulefiles K) = Some rr /\
  (exists cn done s, dotted (n_rip cn) /\ Harmless (k_smtplog K) (n_rip cn) evs (rr_rules rr) /\ process K E cn evs (sess0 K) = Ok (done, s)) /\
  (exists cn, n_rip cn = B "2001:db8::7" /\ process K E cn evs (sess0 K) = Panic).
Proof.
  exists (quiet_cfg true (text_rules sbl_text)), sbl_env, evil_mail. eexists.
  split; [apply evil_benign; reflexivity|]. split; [apply setup_base|]. split.
  - exists demo_conn. eexists. eexists. assert (Hd : dotted (n_rip demo_conn)) by (exists (B "192"), (B "0"), (B "2"), (B "7"); vm_compute; reflexivity).
    split; [exact Hd|]. split; [apply (plain_harmless true true); [vm_compute; reflexivity|auto]|]. vm_compute. reflexivity.
  - exists v6_conn. split; vm_compute; reflexivity.
Qed.
