(** C73: the times of the latest events on the statistics page
    (/repo/sinksmtp.go:29-33, 1427-1473, 1711-1717). *)
From Coq Require Import Lia.
From Verif Require Import PropsParse.
From Verif Require Import Bytes Outcome Ast World Dns Eval RuleLoad Message Session SessProofs Conv DemoSession PropsYak.

(** ** The calls a session makes *)

(** the calls of updateTimeOf in a list of effects *)
Definition times (l : list effect) : list (bytes * bytes) :=
  flat_map (fun e => match e with FTime w a => [(w, a)] | _ => [] end) l.
Lemma times_app a b : times (a ++ b) = times a ++ times b.
Proof. apply flat_map_app. Qed.
Lemma times_rev l : times (rev l) = rev (times l).
Proof. induction l as [|e l IH]; auto. cbn [rev]. rewrite times_app, IH. destruct e; cbn; rewrite ?app_nil_r; reflexivity. Qed.

Definition is_mail (t : turn) : bool := match t_event t with EvGotData _ => true | _ => false end.

Section Calls.
  Context (K : config) (E : senv) (cn : conn).

  (** [m] calls updateTimeOf for [ts], in this order. *)
  Definition adds {A} (ts : list (bytes * bytes)) (m : S' A) : Prop :=
    forall s a s', m s = Ok (a, s') -> times (s_out s') = rev ts ++ times (s_out s).
  Lemma adds_same {A} (m : S' A) : (forall s a s', m s = Ok (a, s') -> s_out s' = s_out s) -> adds [] m.
  Proof. intros H s a s' Hm. rewrite (H _ _ _ Hm). reflexivity. Qed.
  Lemma adds_ret {A} (a : A) : adds [] (sret a).
  Proof. apply adds_same. intros s x s' H. sinv H. reflexivity. Qed.
  Lemma adds_get {A} (f : sess -> A) : adds [] (sget f).
  Proof. apply adds_same. intros s x s' H. sapp @sget_ok H. reflexivity. Qed.
  Lemma adds_gettx {A} (f : tx -> A) : adds [] (gettx f).
  Proof. apply adds_same. intros s x s' H. sapp @gettx_ok H. reflexivity. Qed.
  Lemma adds_index : adds [] index.
  Proof. apply adds_same. intros s x s' H. sapp index_ok H. reflexivity. Qed.
  Lemma adds_crash {A} ts : adds ts (@scrash A).
  Proof. intros s x s' H. discriminate. Qed.
  Lemma adds_emit e : adds (times [e]) (emit e).
  Proof. intros s x s' H. sapp emit_ok H. destruct e; reflexivity. Qed.
  Lemma adds_uptx f : adds [] (uptx f).
  Proof. apply adds_same. intros s x s' H. sapp uptx_ok H. reflexivity. Qed.
  Lemma adds_got : adds [] put_got.
  Proof. apply adds_same. intros s x s' H. sapp put_got_ok H. reflexivity. Qed.
  Lemma adds_counts b : adds [] (put_counts b).
  Proof. apply adds_same. intros s x s' H. sapp put_counts_ok H. reflexivity. Qed.
  Lemma adds_tlscfg b : adds [] (put_tlscfg b).
  Proof. apply adds_same. intros s x s' H. sapp put_tlscfg_ok H. reflexivity. Qed.
  Lemma adds_ctx {A} (m : M A) : adds [] (inctx m).
  Proof. apply adds_same. intros s x s' H. apply inctx_ok in H as (c & _ & ->). reflexivity. Qed.
  Lemma adds_lift {A} (o : outcome A) : adds [] (slift o).
  Proof. apply adds_same. intros s a s' H. apply slift_ok in H as [_ ->]. reflexivity. Qed.
  Lemma adds_bind {A B} (m : S' A) (f : A -> S' B) ts us : adds ts m -> (forall a, adds us (f a)) -> adds (ts ++ us) (sbind m f).
  Proof.
    intros Hm Hf s b s' H. apply sbind_ok in H as (a & s1 & H1 & H). rewrite (Hf _ _ _ _ H), (Hm _ _ _ H1), rev_app_distr, app_assoc. reflexivity.
  Qed.
  Lemma adds_bind0 {A B} (m : S' A) (f : A -> S' B) us : adds [] m -> (forall a, adds us (f a)) -> adds us (sbind m f).
  Proof. apply (adds_bind m f [] us). Qed.
  Lemma adds_if {A} ts (b : bool) (m n : S' A) : adds ts m -> adds ts n -> adds ts (if b then m else n).
  Proof. destruct b; auto. Qed.
  Lemma adds_when b m : adds [] m -> adds [] (when_ b m).
  Proof. destruct b; auto. intros _. apply adds_ret. Qed.

  Ltac adds1 := lazymatch goal with
    | |- adds _ (sret _) => apply adds_ret
    | |- adds _ (sget _) => apply adds_get
    | |- adds _ (gettx _) => apply adds_gettx
    | |- adds _ index => apply adds_index
    | |- adds _ scrash => apply adds_crash
    | |- adds _ put_got => apply adds_got
    | |- adds _ (put_counts _) => apply adds_counts
    | |- adds _ (put_tlscfg _) => apply adds_tlscfg
    | |- adds _ (inctx _) => apply adds_ctx
    | |- adds _ (slift _) => apply adds_lift
    | |- adds _ (uptx _) => apply adds_uptx
    | |- adds _ (Session.emit _) => exact (adds_emit _)
    | |- adds _ (when_ _ _) => apply adds_when
    | |- adds _ (if _ then _ else _) => apply adds_if
    | |- adds _ (sbind _ _) => apply adds_bind0; [|intros]
    end.
  Ltac adds_all := repeat (adds1; cbv zeta).

  Lemma adds_sbls hits : adds [] (logSbls E cn hits).
  Proof.
    induction hits as [|h hits IH]; cbn [logSbls]; [adds1|]. adds1; [|exact IH]. apply adds_if; [|adds1]. adds1.
    - unfold getSBLHits. destruct (split_byte _ _) as [|? [|? [|? [|? ?]]]]; adds_all.
    - destruct a as [|r rs]; unfold logwrite; adds_all.
  Qed.
  Lemma adds_decider I ph e id : adds [] (decider E cn I ph e id).
  Proof.
    unfold decider. adds1; [adds1|]. adds1; [adds1|]. adds1; [adds1|]. adds1; [adds1|]. adds1; [|adds1; [|adds1; [|]]].
    - unfold logDnsbls, logwrite. adds1; [adds1|]. destruct a3 as [|h0 hs]; [adds1|]. cbv zeta. adds_all. apply adds_sbls.
    - unfold logDomerr, logwrite. adds1; [adds1|]. destruct a4 as [x|]; adds_all.
    - unfold applyProps, withprop, logwrite. adds_all. destruct a10; adds_all.
    - assert (Href : forall msg, adds [] (refusal a0 ph id msg)) by (intros msg; unfold refusal, pluralRecips; destruct a0; adds_all).
      destruct a0; unfold withprop; repeat (first [apply Href|adds1]).
  Qed.
  Lemma adds_doAccept id : adds [] (doAccept id).
  Proof. unfold doAccept, withprop. adds_all. Qed.
  Lemma adds_writeLog I x : adds [] (writeLog cn I x).
  Proof. unfold writeLog, logwrite. adds_all. Qed.
  Lemma adds_verify t : adds [] (tlsTryVerify E t).
  Proof. unfold tlsTryVerify. destruct (ts_chains t); [|adds1]. destruct (ts_peers t); adds_all. Qed.
  Lemma adds_tlslog I t : adds [] (tlsClientLog E cn I t).
  Proof. unfold tlsClientLog. destruct (ts_peers t) as [|c cs]; [adds1|]. adds1; [apply adds_verify|]. apply adds_writeLog. Qed.
  Lemma adds_notePeer t : adds [] (notePeer E t).
  Proof. unfold notePeer. destruct (ts_chains t) as [|[|]]; [|adds1|adds1]. destruct (ts_peers t); [adds1|]. adds1; [apply adds_verify|adds1]. Qed.
  Lemma adds_minphase p : adds [] (minphase K p).
  Proof. unfold minphase. adds_all. Qed.
  Lemma adds_event n : adds [] (event n).
  Proof. exact (adds_emit _). Qed.
  Lemma adds_save path m : adds [] (saveFile E path m).
  Proof.
    unfold saveFile. adds1; [adds1|]. cbv zeta. adds1; [adds1|]. destruct (v_open E a path); adds_all.
    - destruct (v_write E _ path); adds_all.
    - destruct (v_close E _); adds_all.
  Qed.
  Lemma adds_handle : adds [] (handleMessage K E cn).
  Proof.
    unfold handleMessage. adds_all. destruct (msgDetails _ _ _). destruct (saveName _ _ _ _); [|adds1]. adds1; [apply adds_save|adds1].
  Qed.
  Ltac adds_more := repeat lazymatch goal with
    | |- adds _ (decider _ _ _ _ _ _) => apply adds_decider
    | |- adds _ (doAccept _) => apply adds_doAccept
    | |- adds _ (writeLog _ _ _) => apply adds_writeLog
    | |- adds _ (tlsClientLog _ _ _ _) => apply adds_tlslog
    | |- adds _ (notePeer _ _) => apply adds_notePeer
    | |- adds _ (minphase _ _) => apply adds_minphase
    | |- adds _ (event _) => apply adds_event
    | |- _ => adds1; cbv zeta
    end.

  Lemma adds_yakAdd : adds [] (yakAdd K E cn).
  Proof. unfold yakAdd. adds_all. Qed.

  Lemma adds_step I ev tls : adds (match ev with EvGotData _ => [(B "message", n_laddr cn)] | _ => [] end) (step K E cn I (ev, tls)).
  Proof.
    unfold step. destruct ev.
    - unfold onHelo. adds_more.
    - unfold onMailFrom. adds_more. apply adds_yakAdd.
    - unfold onRcptTo. adds_more.
    - unfold onData. adds_more.
    - unfold onGotData. adds_more; [apply adds_handle|]. match goal with x : (_ * option _)%type |- _ => destruct x as [transid err] end. adds1.
      + destruct err; adds_more.
      + apply (adds_bind _ _ [(B "message", n_laddr cn)] []); [exact (adds_emit _)|]. intros. adds1.
    - unfold onTlsError, notlsAdd. adds_more.
    - adds_more.
    - adds_more.
    - adds1.
  Qed.

  (** the call with which a session begins *)
  Definition first_call (I : sinfo) : bytes * bytes := (if si_stall I then B "yakker" else B "regular", n_laddr cn).

  Lemma yakLog_times what : adds [] (yakLog K E cn what).
  Proof. unfold yakLog. adds_all. Qed.

  Lemma setupClient_times s inf s' : setupClient K E cn s = Ok (inf, s') -> times (s_out s') = first_call inf :: times (s_out s).
  Proof.
    unfold setupClient. intros H. apply sbind_ok in H as (u & sa & H1 & H). sapp emit_ok H1.
    destruct (setupRules _ _ _ _ _) as [rr|]; [|discriminate].
    apply sbind_ok in H as (u1 & s1 & H1 & H).
    assert (T1 : times (s_out s1) = times (s_out s)).
    { destruct (rr_warning rr) as [w|].
      - assert (Ha : adds [] (Session.emit (FWarn w);; event (B "ruleserr"))) by adds_more. apply Ha in H1. exact H1.
      - sinv H1. reflexivity. }
    apply sbind_ok in H as (u2 & s2 & H2 & H). apply adds_counts in H2. apply sbind_ok in H as ([hit n] & s3 & H3 & H).
    assert (Ha : adds [] (yakLookup K E cn)).
    { unfold yakLookup. adds1; [adds1|]. destruct (v_lookup E a). adds_all. }
    apply Ha in H3. cbn [rev app] in H2, H3. rewrite H2 in H3. rewrite T1 in H3.
    destruct (_ && k_smtplog K).
    - apply sbind_ok in H as (u4 & s4 & H4 & H). apply adds_counts in H4.
      apply sbind_ok in H as (u5 & s5 & H5 & H). apply adds_event in H5.
      apply sbind_ok in H as (u6 & s6 & H6 & H). unfold updateTime in H6. apply adds_emit in H6.
      apply sbind_ok in H as (u7 & s7 & H7 & H). apply yakLog_times in H7. sinv H.
      cbn [rev app] in *. unfold first_call. cbn [si_stall]. rewrite H7, H6, H5, H4, H3. reflexivity.
    - apply sbind_ok in H as (u4 & s4 & H4 & H). unfold updateTime in H4. apply adds_emit in H4. sinv H.
      cbn [rev app] in *. unfold first_call. cbn [si_stall]. rewrite H4, H3. reflexivity.
  Qed.
  Lemma setup_times s r s' : setup K E cn s = Ok (r, s') ->
    exists I, (r = Some I \/ r = None) /\ times (s_out s') = first_call I :: times (s_out s).
  Proof.
    unfold setup. intros H. apply sbind_ok in H as (inf & s1 & H1 & H). apply setupClient_times in H1. exists inf.
    assert (Ha : adds [] (dos sname <- localName K E cn; dos (sname, certs) <- connParams K E cn sname; setupConn K E cn inf sname certs;;
       dos (rdns, _) <- inctx (ext (LookupAddrVerified (v_world E) (n_rip cn))); uptx (put_rdns rdns);;
       dos refused <- decider E cn inf pConnect (mkEvt None []) [];
       if refused : bool then dos i <- index; when_ (negb (si_stall inf))
        (writeLog cn inf (B "! " ++ n_rip cn ++ B " dropped on connect due to rule at " ++ v_nowsmtp E i ++ [ch_nl]));; sret None
       else sret (Some inf))).
    { adds1.
      - unfold localName. adds_all. destruct a as [[|n l]|]; [adds1| |adds1]. destruct (last_byte n); adds_all.
      - adds1.
        + unfold connParams. adds1; [adds1|]. adds1; [adds1|]. adds1; [adds1|]. destruct a1; adds_all.
        + destruct a0 as [sn certs]. adds1.
          * unfold setupConn, notlsLookup. adds1; [adds1; [adds1|]; destruct (v_lookup E a0); adds_all|]. destruct a0. adds_more.
          * adds1; [adds1|]. destruct a1. adds_more. }
    split.
    - revert H. clear. intros H. repeat (apply sbind_ok in H as (? & ? & _ & H); repeat match goal with x : _ * _ |- _ => destruct x end).
      match type of H with (if ?b then _ else _) _ = _ => destruct b end.
      + right. repeat (apply sbind_ok in H as (? & ? & _ & H)). now sinv H.
      + left. now sinv H.
    - apply Ha in H. cbn [rev app] in H. rewrite H. exact H1.
  Qed.

  (** A session calls updateTimeOf once when it begins, and once for every
      message it was sent. *)
  Theorem C73_session I h s : Conv K E cn I h s ->
    times (rev (s_out s)) = first_call I :: repeat (B "message", n_laddr cn) (length (filter is_mail h)).
  Proof.
    induction 1 as [s Hs|h s ev tls s' did HC IH Hst Ha].
    - pose proof Hs as H. apply setup_times in H as (I' & Hr & Ht). rewrite times_rev, Ht. cbn. destruct Hr as [Hr|Hr]; [|discriminate]. injection Hr as ->. reflexivity.
    - apply adds_step in Hst. rewrite times_rev in *. rewrite Hst, rev_app_distr, rev_involutive, IH. cbn [filter is_mail t_event].
      destruct ev; rewrite ?app_nil_r; try reflexivity. cbn [length repeat app]. f_equal. symmetry. apply repeat_cons.
  Qed.
  Lemma ending_times I force got counts l : Ending K cn I force got counts l -> times l = [].
  Proof.
    assert (Hlog : forall I text, times (smtplog_line cn I text) = []) by (intros; unfold smtplog_line; destruct (si_log _); reflexivity).
    assert (Hdn : forall when text, times (dn_line K cn when text) = []) by (intros; unfold dn_line; destruct (k_dnlog K); reflexivity).
    intros [n when Hf|n when Hf Hg Hc|Hf Hg Hy|Hf Hg]; auto; destruct (Z.eqb n _); auto;
      match goal with |- times (FYak ?o :: ?l) = _ => change (times l = []) end; rewrite !times_app, Hlog, Hdn; reflexivity.
  Qed.
  (** ... and once more at its end, if the client got as far as -minphase asks. *)
  Theorem C73_session_end I h t s s1 s' did : Turn K E cn I h t Finish s s1 -> finish K E cn I s1 = Ok (tt, s') -> after did s s' ->
    times did = if got_far K h && negb (beqb (k_minphase K) (B "message")) then [(B "reached_minphase", n_laddr cn)] else [].
  Proof.
    intros HT HF Hdid. pose proof (Turn_Did _ _ _ _ _ _ _ _ _ HT) as HD. destruct HT as (HC & Hst & Ha). pose proof (Conv_got _ _ _ _ _ _ HC) as Hgt.
    remember Finish as n0 eqn:En0.
    assert (Hs1 : s_got s1 = s_got s /\ is_mail t = false).
    { unfold is_mail. destruct HD; try discriminate. destruct H0 as (_ & _ & _ & -> & _). split; auto. destruct H as [-> | ->]; reflexivity. }
    destruct Hs1 as [Hg Hm]. apply adds_step in Hst. apply finish_exact in HF as (l1 & Ha' & HE). unfold after in *.
    unfold is_mail in Hm. assert (Hst' : times (s_out s1) = times (s_out s)) by (rewrite Hst; destruct (t_event t); try discriminate Hm; reflexivity).
    assert (H : rev (times did) ++ times (s_out s) = rev (times (minphase_time K cn (s_got s1))) ++ times (s_out s)).
    { rewrite <- times_rev, <- times_app, <- Hdid, Ha', times_app, times_rev, !times_app, (ending_times _ _ _ _ _ HE), Hst'. cbn [app]. f_equal. f_equal.
      unfold outcome_of. destruct (_ && _); cbn; rewrite app_nil_r; reflexivity. }
    apply app_inv_tail in H. rewrite <- (rev_involutive (times did)), H, rev_involutive, Hg, Hgt. unfold minphase_time. destruct (_ && _); reflexivity.
  Qed.
End Calls.

(** ** updateTimeOf in all sessions at once *)

(** A call of updateTimeOf: its arguments, the time when it began and the time
    when it returned, if it has. *)
Record call := mkCall { cl_what : bytes; cl_addr : bytes; cl_start : nat; cl_end : option nat }.
(** An expvar.String: the text it has, as the time it shows and the number of
    the call that put it there; [None] is the empty text.  For the proofs: the
    map and key it was made for. *)
Record cell := mkCell { ce_map : nat; ce_key : bytes; ce_val : option (nat * nat) }.
(** The clock, the maps (the first one is times, sinksmtp.go:31; the others are
    those of local addresses), iptimes (sinksmtp.go:32), the strings, and all
    calls so far, earliest first. *)
Record store := mkStore { o_now : nat; o_maps : list (smap nat); o_ips : smap nat; o_cells : list cell; o_calls : list call }.

Fixpoint put_nth {A} (n : nat) (x : A) (l : list A) : list A :=
  match l, n with
  | [], _ => []
  | _ :: l, 0 => x :: l
  | y :: l, S n => y :: put_nth n x l
  end.

(** What a single operation does: the clock goes on; a call begins;
    expvar.String.Set; expvar.Map.Set of a new string; Map.Set of a new map in
    iptimes; a call returns. *)
Definition p_tick (n : nat) (o : store) : store := mkStore (o_now o + n) (o_maps o) (o_ips o) (o_cells o) (o_calls o).
Definition p_call (what addr : bytes) (o : store) : store :=
  mkStore (o_now o) (o_maps o) (o_ips o) (o_cells o) (o_calls o ++ [mkCall what addr (o_now o) None]).
Definition p_set (x t c : nat) (o : store) : store :=
  match nth_error (o_cells o) x with
  | None => o
  | Some ce => mkStore (o_now o) (o_maps o) (o_ips o) (put_nth x (mkCell (ce_map ce) (ce_key ce) (Some (t, c))) (o_cells o)) (o_calls o)
  end.
Definition the_map (o : store) (mp : nat) : smap nat := nth mp (o_maps o) [].
Definition p_new (mp : nat) (what : bytes) (t c : nat) (o : store) : store :=
  mkStore (o_now o) (put_nth mp (mset (the_map o mp) what (length (o_cells o))) (o_maps o)) (o_ips o)
    (o_cells o ++ [mkCell mp what (Some (t, c))]) (o_calls o).
Definition p_make (addr : bytes) (o : store) : store :=
  mkStore (o_now o) (o_maps o ++ [[]]) (mset (o_ips o) addr (length (o_maps o))) (o_cells o) (o_calls o).
Definition p_end (c : nat) (o : store) : store :=
  match nth_error (o_calls o) c with
  | None => o
  | Some cl => mkStore (o_now o) (o_maps o) (o_ips o) (o_cells o) (put_nth c (mkCall (cl_what cl) (cl_addr cl) (cl_start cl) (Some (o_now o))) (o_calls o))
  end.

(** Where a call is.  updateOneTime (sinksmtp.go:1441-1453) on the map [mp]:
    before time.Now, before mp.Get, before e.Set, before mp.Set; updateTimeOf
    (1454-1473): before iptimes.Get, before iptimes.Set, before the second
    iptimes.Get. *)
Inductive pc :=
| PNow (mp : nat) | PGet (mp t : nat) | PSet (mp t x : nat) | PNew (mp t : nat)
| PFind | PMake | PAgain.

(** The main loop is number 0 and the sessions are 1, 2, ...; [b_addrs] are the
    local addresses of the sessions begun. *)
Record board := mkBoard { b_store : store; b_busy : nat -> option (nat * pc); b_addrs : list bytes }.
Definition set_busy (f : nat -> option (nat * pc)) (i : nat) (v : option (nat * pc)) : nat -> option (nat * pc) :=
  fun j => if Nat.eqb j i then v else f j.

Section Machine.
  (** manyIps, sinksmtp.go:33 *)
  Context (many : bool).

  (** sinksmtp.go:1460 *)
  Definition also (addr : bytes) : bool := many && negb (beqb addr []).

  (** A call returns; after its call the main loop starts the session
      (sinksmtp.go:1714-1715). *)
  Definition return_ (i c : nat) (cl : call) (o : store) (b : board) : board :=
    mkBoard (p_end c o) (set_busy (b_busy b) i None) (if Nat.eqb i 0 then b_addrs b ++ [cl_addr cl] else b_addrs b).
  Definition goto (i c : nat) (p : pc) (o : store) (b : board) : board := mkBoard o (set_busy (b_busy b) i (Some (c, p))) (b_addrs b).
  (** after updateOneTime: sinksmtp.go:1459-1463, 1473 *)
  Definition then_ (i c : nat) (cl : call) (mp : nat) (o : store) (b : board) : board :=
    if Nat.eqb mp 0 && also (cl_addr cl) then goto i c PFind o b else return_ i c cl o b.

  (** The next operation of the call [c], which [i] makes. *)
  Definition advance (i c : nat) (cl : call) (p : pc) (b : board) : board :=
    let o := b_store b in
    match p with
    | PNow mp => goto i c (PGet mp (o_now o)) o b
    | PGet mp t => goto i c (match mget (the_map o mp) (cl_what cl) with Some x => PSet mp t x | None => PNew mp t end) o b
    | PSet mp t x => then_ i c cl mp (p_set x t c o) b
    | PNew mp t => then_ i c cl mp (p_new mp (cl_what cl) t c o) b
    | PFind => goto i c (match mget (o_ips o) (cl_addr cl) with Some mp => PNow mp | None => PMake end) o b
    | PMake => goto i c PAgain (p_make (cl_addr cl) o) b
    | PAgain => match mget (o_ips o) (cl_addr cl) with Some mp => goto i c (PNow mp) o b | None => return_ i c cl o b end
    end.

  (** What can happen next: time passes; the main loop gets a connection to
      [addr] (sinksmtp.go:1712-1714); session number [k] (from 0) calls
      updateTimeOf; the main loop or a session goes on in its call. *)
  Inductive act := ATick (n : nat) | AConn (addr : bytes) | ACall (k : nat) (what : bytes) | AStep (i : nat).
  Definition do_act (a : act) (b : board) : option board :=
    match a with
    | ATick n => Some (mkBoard (p_tick n (b_store b)) (b_busy b) (b_addrs b))
    | AConn addr =>
        match b_busy b 0 with
        | Some _ => None
        | None => Some (goto 0 (length (o_calls (b_store b))) (PNow 0) (p_call (B "connection") addr (b_store b)) b)
        end
    | ACall k what =>
        match nth_error (b_addrs b) k, b_busy b (S k) with
        | Some addr, None =>
            if beqb what (B "connection") then None
            else Some (goto (S k) (length (o_calls (b_store b))) (PNow 0) (p_call what addr (b_store b)) b)
        | _, _ => None
        end
    | AStep i =>
        match b_busy b i with
        | None => None
        | Some (c, p) => option_map (fun cl => advance i c cl p b) (nth_error (o_calls (b_store b)) c)
        end
    end.

  (** sinksmtp.go:1427-1436, before the main loop *)
  Definition board0 : board :=
    mkBoard (mkStore 0 [[(B "connection", 0)]] [] [mkCell 0 (B "connection") None] []) (fun _ => None) [].

  Fixpoint acts (l : list act) (b : board) : option board :=
    match l with
    | [] => Some b
    | a :: l' => match do_act a b with Some b' => acts l' b' | None => None end
    end.
  (** the states the server can get into *)
  Definition Running (b : board) : Prop := exists l, acts l board0 = Some b.

  (** ** Specification *)

  (** What the page shows under last and lasts_to: the time and the call that
      put it there. *)
  Definition shown (o : store) (mp : nat) (what : bytes) : option (nat * nat) :=
    match mget (the_map o mp) what with
    | None => None
    | Some x => match nth_error (o_cells o) x with Some ce => ce_val ce | None => None end
    end.
  Definition last_time (b : board) (what : bytes) : option (nat * nat) := shown (b_store b) 0 what.
  Definition lasts_to (b : board) (addr what : bytes) : option (nat * nat) :=
    match mget (o_ips (b_store b)) addr with Some mp => shown (b_store b) mp what | None => None end.
  Definition the_call (b : board) (c : nat) (cl : call) : Prop := nth_error (o_calls (b_store b)) c = Some cl.
  (** [t] is a time during the call *)
  Definition during (b : board) (cl : call) (t : nat) : Prop :=
    cl_start cl <= t <= match cl_end cl with Some e => e | None => o_now (b_store b) end.
  (** the call had not returned when the other one began *)
  Definition not_before (cl other : call) : Prop := match cl_end cl with Some e => cl_start other <= e | None => True end.

  (** ** Proofs *)

  Lemma nth_put {A} n (x : A) l m : nth_error (put_nth n x l) m = if Nat.eqb m n then (if Nat.ltb n (length l) then Some x else None) else nth_error l m.
  Proof.
    revert n m. induction l as [|y l IH]; intros [|n] [|m]; try reflexivity.
    - cbn [put_nth nth_error Nat.eqb length]. destruct (Nat.eqb m n); reflexivity.
    - cbn [put_nth nth_error Nat.eqb length]. rewrite IH. reflexivity.
  Qed.
  Lemma nth_put_d {A} n (x d : A) l m : n < length l -> nth m (put_nth n x l) d = if Nat.eqb m n then x else nth m l d.
  Proof.
    revert n m. induction l as [|y l IH]; intros [|n] [|m] H; cbn in *; try lia; auto. apply IH. lia.
  Qed.
  Lemma put_length {A} n (x : A) l : length (put_nth n x l) = length l.
  Proof. revert n. induction l as [|y l IH]; intros [|n]; cbn; auto. Qed.
  Lemma nth_snoc {A} (l : list A) x m y : nth_error (l ++ [x]) m = Some y -> nth_error l m = Some y \/ (m = length l /\ y = x).
  Proof.
    intros H. destruct (Nat.lt_ge_cases m (length l)) as [Hl|Hl].
    - rewrite nth_error_app1 in H; auto.
    - rewrite nth_error_app2 in H by auto. right. destruct (m - length l) as [|k] eqn:Ek.
      + cbn in H. split; [lia|congruence].
      + destruct k; discriminate H.
  Qed.
  Lemma nth_left {A} (l k : list A) m y : nth_error l m = Some y -> nth_error (l ++ k) m = Some y.
  Proof. intros H. rewrite nth_error_app1; auto. apply nth_error_Some. congruence. Qed.
  Lemma nth_new {A} (l : list A) x : nth_error (l ++ [x]) (length l) = Some x.
  Proof. rewrite nth_error_app2, Nat.sub_diag by auto. reflexivity. Qed.

  Definition cur (o : store) (mp : nat) (w : bytes) : option nat := mget (the_map o mp) w.
  Definition Fresh (o : store) (mp : nat) (w : bytes) (st : nat) : Prop :=
    exists x ce t c cl, cur o mp w = Some x /\ nth_error (o_cells o) x = Some ce /\ ce_val ce = Some (t, c) /\
      nth_error (o_calls o) c = Some cl /\ match cl_end cl with Some e => st <= e | None => True end.

  (** the store is in order *)
  Record Fine (o : store) : Prop := {
    f_cur : forall mp w x, cur o mp w = Some x -> exists ce, nth_error (o_cells o) x = Some ce /\ ce_map ce = mp /\ ce_key ce = w;
    f_val : forall x ce t c, nth_error (o_cells o) x = Some ce -> ce_val ce = Some (t, c) ->
      exists cl, nth_error (o_calls o) c = Some cl /\ cl_what cl = ce_key ce /\
        cl_start cl <= t <= match cl_end cl with Some e => e | None => o_now o end /\
        (ce_map ce = 0 \/ mget (o_ips o) (cl_addr cl) = Some (ce_map ce));
    f_ips : forall a mp, mget (o_ips o) a = Some mp -> 0 < mp < length (o_maps o);
    f_inj : forall a a' mp, mget (o_ips o) a = Some mp -> mget (o_ips o) a' = Some mp -> a = a';
    f_call : forall c cl, nth_error (o_calls o) c = Some cl -> cl_start cl <= o_now o /\ match cl_end cl with Some e => cl_start cl <= e <= o_now o | None => True end;
    f_maps : 0 < length (o_maps o)
  }.

  Definition live (o : store) (c : nat) (cl : call) : Prop := nth_error (o_calls o) c = Some cl /\ cl_end cl = None.
  (** what those in other calls than [c0] may rely on *)
  Record Ext (c0 : nat) (o o' : store) : Prop := {
    e_now : o_now o <= o_now o';
    e_ips : forall a mp, mget (o_ips o) a = Some mp -> mget (o_ips o') a = Some mp;
    e_cell : forall x ce, nth_error (o_cells o) x = Some ce -> exists ce', nth_error (o_cells o') x = Some ce' /\ ce_map ce' = ce_map ce /\ ce_key ce' = ce_key ce;
    e_cur : forall mp w x, cur o mp w = Some x -> cur o' mp w = Some x \/ forall st, st <= o_now o -> Fresh o' mp w st;
    e_fresh : forall mp w st, st <= o_now o -> Fresh o mp w st -> Fresh o' mp w st;
    e_live : forall c cl, c <> c0 -> live o c cl -> live o' c cl;
    e_done : forall c cl e, c <> c0 -> nth_error (o_calls o') c = Some cl -> cl_end cl = Some e -> nth_error (o_calls o) c = Some cl
  }.
  Lemma Ext_refl c0 o : Ext c0 o o.
  Proof. split; eauto. Qed.
  Lemma Ext_trans c0 o1 o2 o3 : Ext c0 o1 o2 -> Ext c0 o2 o3 -> Ext c0 o1 o3.
  Proof.
    intros [A1 A2 A3 A4 A5 A6 A7] [B1 B2 B3 B4 B5 B6 B7]. split; eauto.
    - lia.
    - intros x ce H. apply A3 in H as (ce1 & H & E1 & E2). apply B3 in H as (ce2 & H & E3 & E4). exists ce2. repeat split; auto; congruence.
    - intros mp w x H. destruct (A4 _ _ _ H) as [H'|H'].
      + destruct (B4 _ _ _ H') as [H2|H2]; auto. right. intros st Hst. apply H2. lia.
      + right. intros st Hst. apply B5; [lia|auto].
    - intros mp w st Hst H. apply B5; [lia|auto].
  Qed.

  Lemma tick_fine z n o : Fine o -> Fine (p_tick n o) /\ Ext z o (p_tick n o).
  Proof.
    intros [F1 F2 F3 F4 F5 F6]. split.
    - split; cbn [p_tick o_now o_maps o_ips o_cells o_calls]; auto.
      + intros x ce t c Hx Hv. destruct (F2 _ _ _ _ Hx Hv) as (cl & H1 & H2 & H3 & H4). exists cl. repeat split; auto; try apply H3.
        destruct (cl_end cl); [apply H3|]. lia.
      + intros c cl H. destruct (F5 _ _ H) as [H1 H2]. split; [lia|]. destruct (cl_end cl); auto. lia.
    - split; cbn [p_tick o_now o_maps o_ips o_cells o_calls]; eauto. lia.
  Qed.
  Lemma call_fine z what addr o : Fine o -> Fine (p_call what addr o) /\ Ext z o (p_call what addr o).
  Proof.
    intros [F1 F2 F3 F4 F5 F6]. split.
    - split; cbn [p_call o_now o_maps o_ips o_cells o_calls]; auto.
      + intros x ce t c Hx Hv. destruct (F2 _ _ _ _ Hx Hv) as (cl & H1 & H2). exists cl. split; auto. now apply nth_left.
      + intros c cl H. apply nth_snoc in H as [H|[_ ->]]; [eauto|]. cbn. auto.
    - split; cbn [p_call o_now o_maps o_ips o_cells o_calls]; eauto.
      intros mp w st _ (x & ce & t & c & cl & H1 & H2 & H3 & H4 & H5). exists x, ce, t, c, cl. repeat split; auto. now apply nth_left.
      + intros c cl _ [H1 H2]. split; auto. cbn [p_call o_calls]. now apply nth_left.
      + intros c cl e _ H He. apply nth_snoc in H as [H|[_ ->]]; auto. discriminate He.
  Qed.
  Lemma set_fine z x ce t c cl o : Fine o -> nth_error (o_cells o) x = Some ce -> live o c cl -> cl_what cl = ce_key ce ->
    cl_start cl <= t <= o_now o -> (ce_map ce = 0 \/ mget (o_ips o) (cl_addr cl) = Some (ce_map ce)) ->
    Fine (p_set x t c o) /\ Ext z o (p_set x t c o) /\
    (cur o (ce_map ce) (ce_key ce) = Some x -> forall st, Fresh (p_set x t c o) (ce_map ce) (ce_key ce) st).
  Proof.
    intros [F1 F2 F3 F4 F5 F6] Hx [Hc He] Hw Ht Hm.
    assert (Hlen : x < length (o_cells o)) by (apply nth_error_Some; congruence). apply Nat.ltb_lt in Hlen.
    unfold p_set. rewrite Hx. set (ce' := mkCell _ _ _).
    assert (Hn : forall y, nth_error (put_nth x ce' (o_cells o)) y = if Nat.eqb y x then Some ce' else nth_error (o_cells o) y).
    { intros y. rewrite nth_put, Hlen. reflexivity. }
    split; [|split].
    - split; cbn [o_now o_maps o_ips o_cells o_calls]; auto.
      + intros mp w y Hy. destruct (F1 mp w y Hy) as (ce0 & H1 & H2 & H3). rewrite Hn. destruct (Nat.eqb_spec y x) as [->|Hne]; [|eauto].
        exists ce'. rewrite Hx in H1. injection H1 as <-. auto.
      + intros y ce0 t0 c0 Hy Hv. rewrite Hn in Hy. destruct (Nat.eqb_spec y x) as [->|Hne]; [|eauto].
        injection Hy as <-. injection Hv as <- <-. exists cl. rewrite He. auto.
    - split; cbn [o_now o_maps o_ips o_cells o_calls]; auto.
      + intros y ce0 Hy. rewrite Hn. destruct (Nat.eqb_spec y x) as [->|Hne]; [|eauto].
        exists ce'. rewrite Hx in Hy. injection Hy as <-. auto.
      + intros mp w st _ (y & ce0 & t0 & c0 & cl0 & H1 & H2 & H3 & H4 & H5). destruct (Nat.eqb_spec y x) as [->|Hne].
        * exists x, ce', t, c, cl. cbn [o_cells o_calls]. rewrite Hn, Nat.eqb_refl, He. repeat split; auto.
        * exists y, ce0, t0, c0, cl0. cbn [o_cells o_calls]. rewrite Hn. apply Nat.eqb_neq in Hne. rewrite Hne. repeat split; auto.
    - intros Hcur st. exists x, ce', t, c, cl. cbn [o_cells o_calls]. rewrite Hn, Nat.eqb_refl, He. repeat split; auto.
  Qed.
  Lemma new_cur mp w t c o mp' w' : mp < length (o_maps o) ->
    cur (p_new mp w t c o) mp' w' = if Nat.eqb mp' mp && beqb w' w then Some (length (o_cells o)) else cur o mp' w'.
  Proof.
    intros Hm. unfold cur, the_map, p_new. cbn [o_maps]. rewrite nth_put_d by auto. destruct (Nat.eqb_spec mp' mp) as [->|Hne]; cbn [andb]; auto.
    destruct (beqb w' w) eqn:Ew.
    - apply beqb_eq in Ew as ->. now rewrite mget_mset_same.
    - assert (w' <> w) by (intros ->; rewrite beqb_refl in Ew; discriminate). rewrite mget_mset_other by auto. reflexivity.
  Qed.
  Lemma new_fine z mp t c cl o : Fine o -> live o c cl -> mp < length (o_maps o) ->
    cl_start cl <= t <= o_now o -> (mp = 0 \/ mget (o_ips o) (cl_addr cl) = Some mp) ->
    Fine (p_new mp (cl_what cl) t c o) /\ Ext z o (p_new mp (cl_what cl) t c o) /\ forall st, Fresh (p_new mp (cl_what cl) t c o) mp (cl_what cl) st.
  Proof.
    intros [F1 F2 F3 F4 F5 F6] [Hc He] Hlen Ht Hm. set (w := cl_what cl) in *. set (ce' := mkCell mp w (Some (t, c))).
    assert (Hf : forall st, Fresh (p_new mp w t c o) mp w st).
    { intros st. exists (length (o_cells o)), ce', t, c, cl. rewrite new_cur by auto. rewrite Nat.eqb_refl, beqb_refl. cbn [p_new o_cells o_calls].
      rewrite He. repeat split; auto. apply nth_new. }
    split; [|split; [|exact Hf]].
    - split; auto.
      + intros mp' w' x Hx. rewrite new_cur in Hx by auto. cbn [p_new o_cells]. destruct (Nat.eqb_spec mp' mp) as [->|Hne]; cbn [andb] in Hx.
        * destruct (beqb w' w) eqn:Ew.
          -- apply beqb_eq in Ew as ->. injection Hx as <-. exists ce'. split; [apply nth_new|auto].
          -- destruct (F1 _ _ _ Hx) as (ce0 & H1 & H2). exists ce0. split; auto. now apply nth_left.
        * destruct (F1 _ _ _ Hx) as (ce0 & H1 & H2). exists ce0. split; auto. now apply nth_left.
      + cbn [p_new o_cells o_calls o_ips o_now]. intros x ce0 t0 c0 Hx Hv. apply nth_snoc in Hx as [Hx|[_ ->]]; [eauto|].
        injection Hv as <- <-. exists cl. rewrite He. auto.
      + cbn [p_new o_ips o_maps]. rewrite put_length. auto.
      + cbn [p_new o_maps]. rewrite put_length. auto.
    - split; cbn [p_new o_now o_ips o_cells o_calls]; auto.
      + intros x ce0 Hx. exists ce0. split; auto. now apply nth_left.
      + intros mp' w' x Hx. rewrite new_cur by auto. destruct (Nat.eqb_spec mp' mp) as [->|Hne]; cbn [andb]; auto.
        destruct (beqb w' w) eqn:Ew; auto. apply beqb_eq in Ew as ->. auto.
      + intros mp' w' st _ (x & ce0 & t0 & c0 & cl0 & H1 & H2 & H3 & H4 & H5).
        destruct (Nat.eqb mp' mp && beqb w' w) eqn:Ew.
        * apply andb_prop in Ew as [E1 E2]. apply Nat.eqb_eq in E1 as ->. apply beqb_eq in E2 as ->. apply Hf.
        * exists x, ce0, t0, c0, cl0. rewrite new_cur, Ew by auto. cbn [p_new o_cells o_calls]. repeat split; auto. now apply nth_left.
  Qed.
  Lemma make_cur a o mp w : cur (p_make a o) mp w = cur o mp w.
  Proof.
    unfold cur, the_map, p_make. cbn [o_maps]. destruct (Nat.lt_ge_cases mp (length (o_maps o))) as [H|H].
    - now rewrite app_nth1.
    - rewrite app_nth2 by auto. rewrite (nth_overflow (o_maps o)) by auto. destruct (mp - length (o_maps o)) as [|[|k]]; reflexivity.
  Qed.
  Lemma make_fine z a o : Fine o -> mget (o_ips o) a = None -> Fine (p_make a o) /\ Ext z o (p_make a o).
  Proof.
    intros [F1 F2 F3 F4 F5 F6] Ha.
    assert (Hget : forall a', mget (o_ips (p_make a o)) a' = if beqb a' a then Some (length (o_maps o)) else mget (o_ips o) a').
    { intros a'. cbn [p_make o_ips]. destruct (beqb a' a) eqn:E1.
      - apply beqb_eq in E1 as ->. apply mget_mset_same.
      - apply mget_mset_other. intros ->. rewrite beqb_refl in E1. discriminate. }
    assert (Hmono : forall a' mp, mget (o_ips o) a' = Some mp -> mget (o_ips (p_make a o)) a' = Some mp).
    { intros a' mp H. rewrite Hget. destruct (beqb a' a) eqn:E1; auto. apply beqb_eq in E1 as ->. congruence. }
    split.
    - split.
      + intros mp w x Hx. rewrite make_cur in Hx. apply F1 in Hx. exact Hx.
      + intros x ce t c Hx Hv. destruct (F2 _ _ _ _ Hx Hv) as (cl & H1 & H2 & H3 & H4). exists cl. repeat split; auto; try apply H3.
        destruct H4; auto.
      + intros a' mp H. rewrite Hget in H. cbn [p_make o_maps]. rewrite app_length. cbn [length]. destruct (beqb a' a).
        * injection H as <-. lia.
        * apply F3 in H. lia.
      + intros a1 a2 mp H1 H2. rewrite Hget in H1, H2. destruct (beqb a1 a) eqn:E1, (beqb a2 a) eqn:E2.
        * apply beqb_eq in E1, E2. congruence.
        * injection H1 as <-. apply F3 in H2. lia.
        * injection H2 as <-. apply F3 in H1. lia.
        * eauto.
      + exact F5.
      + cbn [p_make o_maps]. rewrite app_length. lia.
    - split; auto.
      + intros x ce Hx. exists ce. auto.
      + intros mp w x Hx. rewrite make_cur. auto.
      + intros mp w st _ (x & ce0 & t0 & c0 & cl0 & H1 & H2). exists x, ce0, t0, c0, cl0. rewrite make_cur. auto.
  Qed.
  Lemma end_calls c cl o : nth_error (o_calls o) c = Some cl ->
    forall c', nth_error (o_calls (p_end c o)) c' = if Nat.eqb c' c then Some (mkCall (cl_what cl) (cl_addr cl) (cl_start cl) (Some (o_now o))) else nth_error (o_calls o) c'.
  Proof.
    intros H c'. unfold p_end. rewrite H. cbn [o_calls]. rewrite nth_put. assert (Hl : c < length (o_calls o)) by (apply nth_error_Some; congruence).
    apply Nat.ltb_lt in Hl. now rewrite Hl.
  Qed.
  Lemma end_rest c o : o_now (p_end c o) = o_now o /\ o_maps (p_end c o) = o_maps o /\ o_ips (p_end c o) = o_ips o /\ o_cells (p_end c o) = o_cells o.
  Proof. unfold p_end. destruct (nth_error _ c); auto. Qed.
  Lemma end_cur c o mp w : cur (p_end c o) mp w = cur o mp w.
  Proof. unfold cur, the_map. destruct (end_rest c o) as (_ & -> & _). reflexivity. Qed.
  Lemma end_fine c cl o : Fine o -> live o c cl -> Fine (p_end c o) /\ Ext c o (p_end c o).
  Proof.
    intros [F1 F2 F3 F4 F5 F6] [Hc He]. pose proof (end_calls _ _ _ Hc) as Hcalls. destruct (end_rest c o) as (E1 & E2 & E3 & E4). split.
    - split; rewrite ?E1, ?E2, ?E3, ?E4; auto.
      + intros mp w x. rewrite end_cur. auto.
      + intros x ce t c0 Hx Hv. destruct (F2 _ _ _ _ Hx Hv) as (cl0 & H1 & H2 & H3 & H4). rewrite Hcalls. destruct (Nat.eqb_spec c0 c) as [->|Hne]; [|eauto].
        rewrite Hc in H1. injection H1 as <-. eexists. split; [reflexivity|]. cbn [cl_what cl_start cl_end cl_addr]. rewrite He in H3. auto.
      + intros c0 cl0 H. rewrite Hcalls in H. destruct (Nat.eqb_spec c0 c) as [->|Hne]; [|eauto]. injection H as <-. cbn [cl_start cl_end].
        destruct (F5 _ _ Hc) as [H1 _]. lia.
    - split; rewrite ?E1, ?E2, ?E3, ?E4; eauto.
      + intros mp w x. rewrite end_cur. auto.
      + intros mp w st Hst (x & ce0 & t0 & c0 & cl0 & H1 & H2 & H3 & H4 & H5). unfold Fresh. setoid_rewrite Hcalls. rewrite E4.
        exists x, ce0, t0, c0. rewrite end_cur. destruct (Nat.eqb_spec c0 c) as [->|Hne].
        * eexists. repeat split; eauto.
        * exists cl0. auto.
      + intros c' cl' Hne [H1 H2]. split; auto. rewrite Hcalls. apply Nat.eqb_neq in Hne. now rewrite Hne.
      + intros c' cl' e Hne. rewrite Hcalls. apply Nat.eqb_neq in Hne. now rewrite Hne.
  Qed.

  (** where the call may work on the map [mp] *)
  Definition place (o : store) (cl : call) (mp : nat) : Prop :=
    mp = 0 \/ (mget (o_ips o) (cl_addr cl) = Some mp /\ Fresh o 0 (cl_what cl) (cl_start cl) /\ also (cl_addr cl) = true).
  Definition pc_ok (o : store) (i : nat) (cl : call) (p : pc) : Prop :=
    match p with
    | PNow mp => place o cl mp
    | PGet mp t | PNew mp t => place o cl mp /\ cl_start cl <= t <= o_now o
    | PSet mp t x => place o cl mp /\ cl_start cl <= t <= o_now o /\
        (exists ce, nth_error (o_cells o) x = Some ce /\ ce_map ce = mp /\ ce_key ce = cl_what cl) /\
        (cur o mp (cl_what cl) = Some x \/ Fresh o mp (cl_what cl) (cl_start cl))
    | PFind => Fresh o 0 (cl_what cl) (cl_start cl) /\ also (cl_addr cl) = true
    | PMake => i = 0 /\ mget (o_ips o) (cl_addr cl) = None /\ Fresh o 0 (cl_what cl) (cl_start cl) /\ also (cl_addr cl) = true
    | PAgain => (exists mp, mget (o_ips o) (cl_addr cl) = Some mp) /\ Fresh o 0 (cl_what cl) (cl_start cl) /\ also (cl_addr cl) = true
    end.
  (** the page shows what a call that has returned should have left *)
  Definition left_ (o : store) (cl : call) : Prop :=
    Fresh o 0 (cl_what cl) (cl_start cl) /\
    (also (cl_addr cl) = true -> exists mp, mget (o_ips o) (cl_addr cl) = Some mp /\ Fresh o mp (cl_what cl) (cl_start cl)).
  Definition at_home (addrs : list bytes) (i : nat) (cl : call) : Prop :=
    match i with S k => nth_error addrs k = Some (cl_addr cl) | 0 => True end.
  Record BInv (b : board) : Prop := {
    v_fine : Fine (b_store b);
    v_busy : forall i c p, b_busy b i = Some (c, p) -> exists cl, live (b_store b) c cl /\ pc_ok (b_store b) i cl p /\ at_home (b_addrs b) i cl;
    v_uniq : forall i j c p q, b_busy b i = Some (c, p) -> b_busy b j = Some (c, q) -> i = j;
    v_addr : forall a, In a (b_addrs b) -> also a = true -> exists mp, mget (o_ips (b_store b)) a = Some mp;
    v_done : forall c cl e, nth_error (o_calls (b_store b)) c = Some cl -> cl_end cl = Some e -> left_ (b_store b) cl
  }.

  Lemma place_keep z o o' c cl mp : Fine o -> live o c cl -> Ext z o o' -> place o cl mp -> place o' cl mp.
  Proof.
    intros F [Hc _] [E1 E2 E3 E4 E5 _ _] [H|(H1 & H2 & H3)]; [left; auto|right]. repeat split; auto. apply E5; auto. apply (f_call _ F _ _ Hc).
  Qed.
  Lemma pc_keep z o o' i c cl p : Fine o -> live o c cl -> Ext z o o' -> (o_ips o' = o_ips o \/ i <> 0) -> pc_ok o i cl p -> pc_ok o' i cl p.
  Proof.
    intros F Hl HE Hi H. pose proof (place_keep z o o' c cl) as HP. destruct HE as [E1 E2 E3 E4 E5 E6 E7].
    assert (Hs : cl_start cl <= o_now o) by (destruct Hl as [Hc _]; apply (f_call _ F _ _ Hc)).
    destruct p; cbn [pc_ok] in *.
    - apply HP; auto. split; auto.
    - destruct H as [H1 H2]. split; [|lia]. apply HP; auto. split; auto.
    - destruct H as (H1 & H2 & (ce & H3 & H4 & H5) & H6). split; [apply HP; auto; split; auto|]. split; [lia|]. split.
      + apply E3 in H3 as (ce' & H3 & H7 & H8). exists ce'. repeat split; auto; congruence.
      + destruct H6 as [H6|H6]; [|right; auto]. apply E4 in H6 as [H6|H6]; auto.
    - destruct H as [H1 H2]. split; [|lia]. apply HP; auto. split; auto.
    - destruct H as [H1 H2]. auto.
    - destruct H as (-> & H2 & H3 & H4). destruct Hi as [Hi|Hi]; [|lia]. rewrite Hi. auto.
    - destruct H as ((mp & H1) & H2 & H3). split; [exists mp; auto|auto].
  Qed.
  Lemma left_keep z o o' c cl : Fine o -> nth_error (o_calls o) c = Some cl -> Ext z o o' -> left_ o cl -> left_ o' cl.
  Proof.
    intros F Hc [E1 E2 E3 E4 E5 E6 E7] [H1 H2]. assert (Hs : cl_start cl <= o_now o) by apply (f_call _ F _ _ Hc). split; auto.
    intros Ha. destruct (H2 Ha) as (mp & H3 & H4). exists mp. auto.
  Qed.

  Lemma keep b o' i v addrs c : BInv b -> Fine o' -> Ext c (b_store b) o' -> (o_ips o' = o_ips (b_store b) \/ i = 0) ->
    (forall j p, b_busy b j = Some (c, p) -> j = i) ->
    (forall c' p, v = Some (c', p) -> c' = c /\ exists cl, live o' c cl /\ pc_ok o' i cl p /\ at_home addrs i cl) ->
    (forall k a, nth_error (b_addrs b) k = Some a -> nth_error addrs k = Some a) ->
    (forall a, In a addrs -> In a (b_addrs b) \/ (also a = true -> exists mp, mget (o_ips o') a = Some mp)) ->
    (forall cl e, nth_error (o_calls o') c = Some cl -> cl_end cl = Some e -> left_ o' cl) ->
    BInv (mkBoard o' (set_busy (b_busy b) i v) addrs).
  Proof.
    intros [V1 V2 V3 V4 V5] F HE Hips Hc Hv Ha1 Ha2 Hd. pose proof HE as [E1 E2 E3 E4 E5 E6 E7]. split; cbn [b_store b_busy b_addrs]; auto.
    - intros j c' p Hj. unfold set_busy in Hj. destruct (Nat.eqb_spec j i) as [->|Hne].
      + destruct (Hv _ _ Hj) as (-> & cl & H). eauto.
      + destruct (V2 _ _ _ Hj) as (cl & H1 & H2 & H3). exists cl. split; [|split].
        * apply E6; auto. intros ->. apply Hc in Hj. auto.
        * apply (pc_keep c (b_store b) o' j c'); auto. destruct Hips as [Hips|Hips]; auto. right. lia.
        * destruct j; cbn [at_home] in *; auto.
    - intros j k c' p q Hj Hk. unfold set_busy in Hj, Hk. destruct (Nat.eqb_spec j i) as [->|Hj'], (Nat.eqb_spec k i) as [->|Hk']; auto.
      + destruct (Hv _ _ Hj) as (-> & _). symmetry. eauto.
      + destruct (Hv _ _ Hk) as (-> & _). eauto.
      + eauto.
    - intros a Hin Hal. destruct (Ha2 _ Hin) as [Hin'|H]; auto. destruct (V4 _ Hin' Hal) as (mp & Hmp). exists mp. auto.
    - intros c' cl e Hcl He. destruct (Nat.eq_dec c' c) as [->|Hne]; [eauto|]. pose proof (E7 _ _ _ Hne Hcl He) as H. apply (left_keep c (b_store b) o' c'); eauto.
  Qed.

  Lemma board0_inv : BInv board0.
  Proof.
    split; cbn [board0 b_store b_busy b_addrs]; try discriminate; try contradiction.
    - split; cbn [o_now o_maps o_ips o_cells o_calls length]; try discriminate; auto.
      + intros mp w x. unfold cur, the_map. cbn [o_maps]. destruct mp as [|[|mp]]; try discriminate. cbn [nth]. intros H. cbn [mget] in H.
        destruct (beqb w (B "connection")) eqn:Ew; [|discriminate]. injection H as <-. apply beqb_eq in Ew as ->. eexists. split; [reflexivity|auto].
      + intros [|[|x]] ce t c H Hv; try discriminate. injection H as <-. discriminate.
      + intros [|c] cl H; discriminate.
    - intros [|c] cl e H; discriminate.
  Qed.

  Lemma BInv_unique b i c p : BInv b -> b_busy b i = Some (c, p) -> forall j q, b_busy b j = Some (c, q) -> j = i.
  Proof. intros [_ _ V3 _ _] Hi j q Hj. eauto. Qed.

  (** going on in a call, without anything changed *)
  Lemma goto_inv b i c cl p q : BInv b -> b_busy b i = Some (c, p) -> live (b_store b) c cl -> at_home (b_addrs b) i cl ->
    pc_ok (b_store b) i cl q -> BInv (goto i c q (b_store b) b).
  Proof.
    intros HB Hi Hl Hh Hq. apply (keep b _ i _ _ c); auto.
    - apply HB.
    - apply Ext_refl.
    - intros j q' Hj. eapply BInv_unique; eauto.
    - intros c' q' Hv. injection Hv as <- <-. eauto.
    - intros cl' e Hcl He. destruct Hl as [Hl Hn]. congruence.
  Qed.
  (** after updateOneTime *)
  Lemma then_inv b i c cl p mp o' : BInv b -> b_busy b i = Some (c, p) -> live (b_store b) c cl -> at_home (b_addrs b) i cl ->
    place (b_store b) cl mp -> Fine o' -> Ext c (b_store b) o' -> o_ips o' = o_ips (b_store b) -> o_calls o' = o_calls (b_store b) -> o_now o' = o_now (b_store b) ->
    Fresh o' mp (cl_what cl) (cl_start cl) -> BInv (then_ i c cl mp o' b).
  Proof.
    intros HB Hi Hl Hh Hp F HE Hips Hcalls Hnow Hf. unfold then_.
    assert (Hl' : live o' c cl) by (unfold live; rewrite Hcalls; exact Hl).
    destruct (Nat.eqb_spec mp 0) as [->|Hmp]; [destruct (also (cl_addr cl)) eqn:Eal|]; cbn [andb].
    - apply (keep b _ i _ _ c); auto.
      + intros j q' Hj. eapply BInv_unique; eauto.
      + intros c' q' Hv. injection Hv as <- <-. split; auto. exists cl. cbn [pc_ok]. auto.
      + intros cl' e Hcl He. destruct Hl' as [Hl' Hn]. congruence.
    - unfold return_. destruct (end_fine c cl o' F Hl') as [F2 HE2]. destruct (end_rest c o') as (N1 & N2 & N3 & N4). apply (keep b _ i _ _ c); auto.
      + eapply Ext_trans; eauto.
      + left. congruence.
      + intros j q' Hj. eapply BInv_unique; eauto.
      + discriminate.
      + intros k a Hk. destruct (Nat.eqb i 0); auto. now apply nth_left.
      + intros a Ha. destruct (Nat.eqb i 0); auto. apply in_app_or in Ha as [Ha|[<-|[]]]; auto. right. congruence.
      + intros cl' e Hcl He. rewrite (end_calls _ _ _ (proj1 Hl')), Nat.eqb_refl in Hcl. injection Hcl as <-. split; cbn [cl_what cl_start cl_addr].
        * apply (e_fresh _ _ _ HE2); auto. apply (f_call _ F _ _ (proj1 Hl')).
        * congruence.
    - destruct Hp as [Hp|(Hp1 & Hp2 & Hp3)]; [contradiction|]. unfold return_. destruct (end_fine c cl o' F Hl') as [F2 HE2].
      destruct (end_rest c o') as (N1 & N2 & N3 & N4). assert (Hs : cl_start cl <= o_now (b_store b)) by (rewrite <- Hnow; apply (f_call _ F _ _ (proj1 Hl'))).
      apply (keep b _ i _ _ c); auto.
      + eapply Ext_trans; eauto.
      + left. congruence.
      + intros j q' Hj. eapply BInv_unique; eauto.
      + discriminate.
      + intros k a Hk. destruct (Nat.eqb i 0); auto. now apply nth_left.
      + intros a Ha. destruct (Nat.eqb i 0); auto. apply in_app_or in Ha as [Ha|[<-|[]]]; auto. right. intros _. exists mp. congruence.
      + intros cl' e Hcl He. rewrite (end_calls _ _ _ (proj1 Hl')), Nat.eqb_refl in Hcl. injection Hcl as <-. split; cbn [cl_what cl_start cl_addr].
        * apply (e_fresh _ _ _ HE2); [lia|]. apply (e_fresh _ _ _ HE); auto.
        * intros _. exists mp. split; [congruence|]. apply (e_fresh _ _ _ HE2); auto. lia.
  Qed.

  Lemma place_small o cl mp : Fine o -> place o cl mp -> mp < length (o_maps o).
  Proof. intros F [->|(H & _)]; [apply F|]. apply (f_ips _ F) in H. lia. Qed.
  Lemma place_map o cl mp : place o cl mp -> mp = 0 \/ mget (o_ips o) (cl_addr cl) = Some mp.
  Proof. intros [->|(H & _)]; auto. Qed.

  Lemma advance_inv b i c p cl : BInv b -> b_busy b i = Some (c, p) -> nth_error (o_calls (b_store b)) c = Some cl -> BInv (advance i c cl p b).
  Proof.
    intros HB Hi Hc. pose proof HB as [V1 V2 V3 V4 V5]. destruct (V2 _ _ _ Hi) as (cl' & Hl & Hp & Hh).
    assert (cl' = cl) by (destruct Hl; congruence). subst cl'. pose proof (f_call _ V1 _ _ Hc) as [Hst _].
    destruct p as [mp|mp t|mp t x|mp t| | |]; cbn [advance pc_ok] in *.
    - eapply goto_inv; eauto. cbn [pc_ok]. split; auto.
    - eapply goto_inv; eauto. destruct Hp as [Hp Ht]. fold (cur (b_store b) mp (cl_what cl)). destruct (cur _ _ _) as [x|] eqn:Ex; cbn [pc_ok]; auto.
      split; auto. split; auto. split; auto. destruct (f_cur _ V1 _ _ _ Ex) as (ce & H1 & H2 & H3). eauto.
    - destruct Hp as (Hp & Ht & (ce & H1 & H2 & H3) & H4). pose proof (place_map _ _ _ Hp) as Hm.
      destruct (set_fine c x ce t c cl (b_store b) V1 H1 Hl) as (F & HE & HF); auto; [subst mp; exact Hm|].
      eapply then_inv; eauto; try (unfold p_set; rewrite H1; reflexivity).
      destruct H4 as [H4|H4].
      + subst mp. rewrite <- H3 in *. apply HF. exact H4.
      + apply (e_fresh _ _ _ HE); auto.
    - destruct Hp as (Hp & Ht). pose proof (place_map _ _ _ Hp) as Hm.
      destruct (new_fine c mp t c cl (b_store b) V1 Hl (place_small _ _ _ V1 Hp) Ht Hm) as (F & HE & HF). eapply then_inv; eauto.
    - destruct Hp as (Hf & Ha). eapply goto_inv; eauto. destruct (mget _ _) as [mp|] eqn:Em; cbn [pc_ok].
      + right. auto.
      + repeat split; auto. destruct i as [|k]; auto. cbn [at_home] in Hh. apply nth_error_In in Hh. destruct (V4 _ Hh Ha) as (mp & Hmp). congruence.
    - destruct Hp as (-> & Hn & Hf & Ha). destruct (make_fine c (cl_addr cl) (b_store b) V1 Hn) as [F HE]. apply (keep b _ 0 _ _ c); auto.
      + intros j q' Hj. eapply BInv_unique; eauto.
      + intros c' q' Hv. injection Hv as <- <-. split; auto. exists cl. split; [exact Hl|]. split; auto. cbn [pc_ok]. split; [|split; auto].
        * exists (length (o_maps (b_store b))). cbn [p_make o_ips]. apply mget_mset_same.
        * apply (e_fresh _ _ _ HE); auto.
      + intros cl' e Hcl He. destruct Hl as [Hl Hn']. cbn [p_make o_calls] in Hcl. congruence.
    - destruct Hp as ((mp & Hmp) & Hf & Ha). rewrite Hmp. eapply goto_inv; eauto. cbn [pc_ok]. right. auto.
  Qed.

  Lemma begin_inv b i what addr : BInv b -> b_busy b i = None -> match i with S k => nth_error (b_addrs b) k = Some addr | 0 => True end ->
    BInv (goto i (length (o_calls (b_store b))) (PNow 0) (p_call what addr (b_store b)) b).
  Proof.
    intros HB Hi Ha. pose proof HB as [V1 V2 V3 V4 V5]. destruct (call_fine (length (o_calls (b_store b))) what addr _ V1) as [F HE].
    apply (keep b _ i _ _ (length (o_calls (b_store b)))); auto.
    - intros j p Hj. destruct (V2 _ _ _ Hj) as (cl & [Hl _] & _). assert (H : length (o_calls (b_store b)) < length (o_calls (b_store b))) by (apply nth_error_Some; congruence). lia.
    - intros c' p Hv. injection Hv as <- <-. split; auto. exists (mkCall what addr (o_now (b_store b)) None). split; [|split].
      + split; auto. cbn [p_call o_calls]. apply nth_new.
      + left. reflexivity.
      + destruct i; auto.
    - intros cl e Hcl He. cbn [p_call o_calls] in Hcl. rewrite nth_new in Hcl. injection Hcl as <-. discriminate.
  Qed.
  Lemma act_inv a b b' : BInv b -> do_act a b = Some b' -> BInv b'.
  Proof.
    intros HB H. destruct a as [n|addr|k what|i]; cbn [do_act] in H.
    - injection H as <-. pose proof HB as [V1 V2 V3 V4 V5]. set (z := length (o_calls (b_store b))).
      destruct (tick_fine z n _ V1) as [F HE].
      assert (Hz : forall c p i, b_busy b i = Some (c, p) -> c <> z).
      { intros c p i Hi ->. destruct (V2 _ _ _ Hi) as (cl & [Hl _] & _). assert (H : z < length (o_calls (b_store b))) by (apply nth_error_Some; congruence). unfold z in H. lia. }
      split; cbn [b_store b_busy b_addrs]; auto.
      + intros i c p Hi. destruct (V2 _ _ _ Hi) as (cl & H1 & H2 & H3). exists cl. split; [exact H1|]. split; auto. apply (pc_keep z (b_store b) _ i c); auto.
    - destruct (b_busy b 0) eqn:E0; [discriminate|]. injection H as <-. apply begin_inv; auto.
    - destruct (nth_error (b_addrs b) k) as [addr|] eqn:Ek; [|discriminate]. destruct (b_busy b (S k)) eqn:E0; [discriminate|].
      destruct (beqb what (B "connection")); [discriminate|]. injection H as <-. apply begin_inv; auto.
    - destruct (b_busy b i) as [[c p]|] eqn:Ei; [|discriminate]. destruct (nth_error (o_calls (b_store b)) c) as [cl|] eqn:Ec; [|discriminate].
      injection H as <-. apply advance_inv; auto.
  Qed.
  Lemma running_inv b : Running b -> BInv b.
  Proof.
    intros [l Hl]. assert (H : forall l b0, BInv b0 -> acts l b0 = Some b -> BInv b).
    { clear l Hl. induction l as [|a l IH]; cbn [acts]; intros b0 HB H; [congruence|]. destruct (do_act a b0) as [b1|] eqn:Ea; [|discriminate].
      eapply IH; [|exact H]. eapply act_inv; eauto. }
    eapply H; [apply board0_inv|exact Hl].
  Qed.

  (** ** C73 *)

  (** What is shown is true: a time during a call for that event, and for that
      address where the page says so. *)
  Theorem C73_true b what : Running b ->
    (forall t c, last_time b what = Some (t, c) -> exists cl, the_call b c cl /\ cl_what cl = what /\ during b cl t) /\
    (forall addr t c, lasts_to b addr what = Some (t, c) ->
      exists cl, the_call b c cl /\ cl_what cl = what /\ cl_addr cl = addr /\ during b cl t).
  Proof.
    intros HR. apply running_inv in HR as [F _ _ _ _].
    assert (H : forall mp t c, shown (b_store b) mp what = Some (t, c) -> exists cl, the_call b c cl /\ cl_what cl = what /\ during b cl t /\
      (mp = 0 \/ mget (o_ips (b_store b)) (cl_addr cl) = Some mp)).
    { intros mp t c H. unfold shown in H. destruct (mget _ _) as [x|] eqn:Ex; [|discriminate]. destruct (f_cur _ F _ _ _ Ex) as (ce & H1 & H2 & H3).
      rewrite H1 in H. destruct (f_val _ F _ _ _ _ H1 H) as (cl & H4 & H5 & H6 & H7). exists cl. repeat split; auto; try congruence; try apply H6. }
    split.
    - intros t c Hs. destruct (H _ _ _ Hs) as (cl & H1 & H2 & H3 & _). eauto.
    - intros addr t c Hs. unfold lasts_to in Hs. destruct (mget (o_ips (b_store b)) addr) as [mp|] eqn:Em; [|discriminate].
      destruct (H _ _ _ Hs) as (cl & H1 & H2 & H3 & [->|H4]).
      + apply (f_ips _ F) in Em. lia.
      + exists cl. repeat split; auto; try apply H3. eapply (f_inj _ F); eauto.
  Qed.

  Lemma Fresh_shown o mp w cl0 : Fresh o mp w (cl_start cl0) -> exists t c cl, shown o mp w = Some (t, c) /\ nth_error (o_calls o) c = Some cl /\ not_before cl cl0.
  Proof.
    intros (x & ce & t & c & cl & H1 & H2 & H3 & H4 & H5). exists t, c, cl. unfold shown. unfold cur in H1. rewrite H1, H2. auto.
  Qed.
  (** Nothing is lost: once a call has returned the page shows the event, with
      a time from this call or from one which had not returned when this call
      began; so also for the address, if asked for and known. *)
  Theorem C73_shown b c cl e : Running b -> the_call b c cl -> cl_end cl = Some e ->
    (exists t c' cl', last_time b (cl_what cl) = Some (t, c') /\ the_call b c' cl' /\ not_before cl' cl) /\
    (many = true -> cl_addr cl <> [] ->
     exists t c' cl', lasts_to b (cl_addr cl) (cl_what cl) = Some (t, c') /\ the_call b c' cl' /\ not_before cl' cl).
  Proof.
    intros HR Hc He. apply running_inv in HR as [_ _ _ _ V5]. destruct (V5 _ _ _ Hc He) as [H1 H2]. split; [now apply Fresh_shown|].
    intros Hm Ha. destruct H2 as (mp & Hmp & Hf).
    - unfold also. rewrite Hm. cbn [andb]. destruct (beqb (cl_addr cl) []) eqn:E0; auto. apply beqb_eq in E0. contradiction.
    - unfold lasts_to. rewrite Hmp. now apply Fresh_shown.
  Qed.
  (** So the time shown is not much behind: if calls take at most [D], then the
      time shown is at most [D] earlier than the beginning of any call for that
      event that has returned. *)
  Theorem C73_lag b D c cl e : Running b ->
    (forall c' cl' e', the_call b c' cl' -> cl_end cl' = Some e' -> e' <= cl_start cl' + D) ->
    (forall c' cl', the_call b c' cl' -> cl_end cl' = None -> o_now (b_store b) <= cl_start cl' + D) ->
    the_call b c cl -> cl_end cl = Some e ->
    (exists t c', last_time b (cl_what cl) = Some (t, c') /\ cl_start cl <= t + D) /\
    (many = true -> cl_addr cl <> [] -> exists t c', lasts_to b (cl_addr cl) (cl_what cl) = Some (t, c') /\ cl_start cl <= t + D).
  Proof.
    intros HR HD1 HD2 Hc He. destruct (C73_true b (cl_what cl) HR) as [T1 T2]. destruct (C73_shown b c cl e HR Hc He) as [S1 S2].
    pose proof (f_call _ (v_fine _ (running_inv _ HR)) _ _ Hc) as [Hst _].
    assert (H : forall c' cl' t, the_call b c' cl' -> during b cl' t -> not_before cl' cl -> cl_start cl <= t + D).
    { intros c' cl' t H1 H2 H3. unfold during, not_before in *. destruct (cl_end cl') as [e'|] eqn:Ee.
      - pose proof (HD1 _ _ _ H1 Ee). lia.
      - pose proof (HD2 _ _ H1 Ee). lia. }
    split.
    - destruct S1 as (t & c' & cl' & H1 & H2 & H3). exists t, c'. split; auto. destruct (T1 _ _ H1) as (cl2 & H4 & _ & H5). unfold the_call in *.
      assert (cl2 = cl') by congruence. subst. eapply H; eauto.
    - intros Hm Ha. destruct (S2 Hm Ha) as (t & c' & cl' & H1 & H2 & H3). exists t, c'. split; auto. destruct (T2 _ _ _ H1) as (cl2 & H4 & _ & _ & H5). unfold the_call in *.
      assert (cl2 = cl') by congruence. subst. eapply H; eauto.
  Qed.
  (** A call with no other call for the event at the same time or later leaves
      its own time. *)
  Theorem C73_alone b c cl e : Running b -> the_call b c cl -> cl_end cl = Some e ->
    (forall c' cl', the_call b c' cl' -> cl_what cl' = cl_what cl -> c' <> c -> exists e', cl_end cl' = Some e' /\ e' < cl_start cl) ->
    (exists t, last_time b (cl_what cl) = Some (t, c) /\ cl_start cl <= t <= e) /\
    (many = true -> cl_addr cl <> [] -> exists t, lasts_to b (cl_addr cl) (cl_what cl) = Some (t, c) /\ cl_start cl <= t <= e).
  Proof.
    intros HR Hc He Hothers. destruct (C73_true b (cl_what cl) HR) as [T1 T2]. destruct (C73_shown b c cl e HR Hc He) as [S1 S2].
    assert (H : forall c' cl' t, the_call b c' cl' -> cl_what cl' = cl_what cl -> during b cl' t -> not_before cl' cl -> c' = c /\ cl_start cl <= t <= e).
    { intros c' cl' t H1 H2 H3 H4. destruct (Nat.eq_dec c' c) as [->|Hne].
      - unfold the_call in *. assert (cl' = cl) by congruence. subst. unfold during in H3. rewrite He in H3. auto.
      - destruct (Hothers _ _ H1 H2 Hne) as (e' & H5 & H6). unfold not_before in H4. rewrite H5 in H4. lia. }
    split.
    - destruct S1 as (t & c' & cl' & H1 & H2 & H3). destruct (T1 _ _ H1) as (cl2 & H4 & H6 & H5). unfold the_call in *.
      assert (cl2 = cl') by congruence. subst. destruct (H _ _ _ H2 H6 H5 H3) as [-> H7]. eauto.
    - intros Hm Ha. destruct (S2 Hm Ha) as (t & c' & cl' & H1 & H2 & H3). destruct (T2 _ _ _ H1) as (cl2 & H4 & H6 & _ & H5). unfold the_call in *.
      assert (cl2 = cl') by congruence. subst. destruct (H _ _ _ H2 H6 H5 H3) as [-> H7]. eauto.
  Qed.
  Lemma ips_also b : Running b -> forall a mp, mget (o_ips (b_store b)) a = Some mp -> also a = true.
  Proof.
    intros [l Hl]. assert (H : forall l b0, BInv b0 -> (forall a mp, mget (o_ips (b_store b0)) a = Some mp -> also a = true) ->
      acts l b0 = Some b -> forall a mp, mget (o_ips (b_store b)) a = Some mp -> also a = true).
    { clear l Hl. induction l as [|x l IH]; cbn [acts]; intros b0 HB Ho H; [injection H as <-; exact Ho|]. destruct (do_act x b0) as [b1|] eqn:Ea; [|discriminate].
      apply (IH b1); auto; [eapply act_inv; eauto|]. clear IH H. destruct x as [n|addr|k what|i]; cbn [do_act] in Ea.
      - injection Ea as <-. exact Ho.
      - destruct (b_busy b0 0); [discriminate|]. injection Ea as <-. exact Ho.
      - destruct (nth_error (b_addrs b0) k); [|discriminate]. destruct (b_busy b0 (S k)); [discriminate|]. destruct (beqb what (B "connection")); [discriminate|].
        injection Ea as <-. exact Ho.
      - destruct (b_busy b0 i) as [[c p]|] eqn:Ei; [|discriminate]. destruct (nth_error (o_calls (b_store b0)) c) as [cl|] eqn:Ec; [|discriminate].
        injection Ea as <-. destruct (v_busy _ HB _ _ _ Ei) as (cl' & [Hl _] & Hp & _). assert (cl' = cl) by congruence. subst cl'.
        assert (Hthen : forall mp o, o_ips o = o_ips (b_store b0) -> forall a m, mget (o_ips (b_store (then_ i c cl mp o b0))) a = Some m -> also a = true).
        { intros mp o Heq a m. unfold then_, goto, return_. destruct (_ && _); cbn [b_store]; [rewrite Heq; apply Ho|].
          destruct (end_rest c o) as (_ & _ & -> & _). rewrite Heq. apply Ho. }
        destruct p as [mp|mp t|mp t x|mp t| | |]; cbn [advance].
        + exact Ho.
        + exact Ho.
        + apply Hthen. unfold p_set. destruct (nth_error _ x); reflexivity.
        + apply Hthen. reflexivity.
        + exact Ho.
        + intros a mp. cbn [goto b_store p_make o_ips]. rewrite mget_mset. destruct (beqb _ _) eqn:Eb; [|apply Ho].
          intros _. apply beqb_eq in Eb. destruct Hp as (_ & _ & _ & Hal). congruence.
        + destruct (mget (o_ips (b_store b0)) (cl_addr cl)) as [mp|]; [exact Ho|]. cbn [return_ b_store]. destruct (end_rest c (b_store b0)) as (_ & _ & -> & _). exact Ho. }
    eapply H; [apply board0_inv| |exact Hl]. discriminate.
  Qed.
  (** Without -statsperip, or for an empty address, nothing is shown by address. *)
  Theorem C73_off b addr what : Running b -> many = false \/ addr = [] -> lasts_to b addr what = None.
  Proof.
    intros HR H. unfold lasts_to. destruct (mget (o_ips (b_store b)) addr) as [mp|] eqn:Em; auto. apply (ips_also b HR) in Em. unfold also in Em.
    destruct H as [-> | ->]; [discriminate|]. destruct many; discriminate.
  Qed.
End Machine.

(** ** Examples *)

(** Two connections to one address.  Session 1 takes its time at 5 and is then
    held up; session 2 takes its time at 7 and shows it; then session 1 shows
    its own. *)
Definition one_conn : list act := AConn (B "[10.0.0.1]:25") :: map AStep [0;0;0;0;0;0;0;0;0].
Definition next_conn : list act := AConn (B "[10.0.0.1]:25") :: map AStep [0;0;0;0;0;0;0].
Definition race : list act :=
  one_conn ++ next_conn ++ [ATick 5; ACall 0 (B "message"); AStep 1; AStep 1; ATick 2; ACall 1 (B "message"); AStep 2; AStep 2; AStep 2].

(** The time shown can go backwards, so it need not be the latest one: 7 is
    shown for messages, and after session 1 goes on, 5. *)
Theorem C73_backwards_refuted : exists l1 l2 b1 b2 t1 c1 t2 c2,
  acts true l1 board0 = Some b1 /\ acts true l2 b1 = Some b2 /\
  last_time b1 (B "message") = Some (t1, c1) /\ last_time b2 (B "message") = Some (t2, c2) /\ t2 < t1.
Proof.
  destruct (acts true race board0) as [b1|] eqn:E1; [|vm_compute in E1; discriminate E1].
  destruct (acts true [AStep 1] b1) as [b2|] eqn:E2; [|vm_compute in E1; injection E1 as <-; vm_compute in E2; discriminate E2].
  exists race, [AStep 1], b1, b2, 7, 3, 5, 2.
  split; [exact E1|]. split; [exact E2|]. vm_compute in E1. injection E1 as <-. vm_compute in E2. injection E2 as <-.
  split; [vm_compute; reflexivity|]. split; [vm_compute; reflexivity|]. lia.
Qed.

(** All calls of that run return: both are shown, for the event and for the
    address. *)
Definition race_calls : list act := race ++ ATick 1 :: map AStep [1;1;1;1;1;2;2;2;2].
Example C73_run_nonvacuous : exists b, acts true race_calls board0 = Some b /\ Running true b /\
  the_call b 2 (mkCall (B "message") (B "[10.0.0.1]:25") 5 (Some 8)) /\
  the_call b 3 (mkCall (B "message") (B "[10.0.0.1]:25") 7 (Some 8)) /\
  last_time b (B "message") = Some (5, 2) /\ lasts_to b (B "[10.0.0.1]:25") (B "message") = Some (8, 3) /\
  last_time b (B "connection") = Some (0, 1).
Proof.
  destruct (acts true race_calls board0) as [b|] eqn:Eb; [|vm_compute in Eb; discriminate Eb].
  exists b. split; [reflexivity|]. split; [exists race_calls; exact Eb|]. vm_compute in Eb. injection Eb as <-.
  repeat split; vm_compute; reflexivity.
Qed.
(** A call alone: the second connection *)
Example C73_alone_nonvacuous : exists b, acts true (one_conn ++ ATick 1 :: next_conn) board0 = Some b /\ Running true b /\
  (exists cl e, the_call b 1 cl /\ cl_end cl = Some e /\
    forall c' cl', the_call b c' cl' -> cl_what cl' = cl_what cl -> c' <> 1 -> exists e', cl_end cl' = Some e' /\ e' < cl_start cl) /\
  last_time b (B "connection") = Some (1, 1).
Proof.
  destruct (acts true (one_conn ++ ATick 1 :: next_conn) board0) as [b|] eqn:Eb; [|vm_compute in Eb; discriminate Eb].
  exists b. split; [reflexivity|]. split; [eexists; exact Eb|]. vm_compute in Eb. injection Eb as <-. split.
  - exists (mkCall (B "connection") (B "[10.0.0.1]:25") 1 (Some 1)), 1. split; [vm_compute; reflexivity|]. split; [reflexivity|].
    intros [|[|[|c']]] cl' H _ Hne; unfold the_call in H; cbn in H; try discriminate H; [|contradiction]. injection H as <-. exists 0. cbn. auto.
  - vm_compute. reflexivity.
Qed.

(** A session that sent a message, and QUIT. *)
Example C73_session_nonvacuous : exists I h t n s s', Turn (demo_cfg demo_rules) demo_env demo_conn I h t n s s' /\
  (map fst (times (rev (s_out s))), n, got_far (demo_cfg demo_rules) h) = ([B "regular"; B "message"], Finish, true).
Proof.
  apply (turn_example _ _ _ (plain (demo_mail ++ [EvGotData (B "Hello")])) EvDone no_tls
    (fun I h t n s s' => (map fst (times (rev (s_out s))), n, got_far (demo_cfg demo_rules) h))).
  vm_compute. reflexivity.
Qed.
