(** C71: the SMTP log shared by all sessions
    (/repo/sinksmtp.go:358-392, 928-934). *)
From Coq Require Import Lia.
From Verif Require Import PropsParse.
From Verif Require Import Bytes Outcome Ast World Dns Eval RuleLoad Message Session SessProofs Conv DemoSession Accept Records.

(** ** The logger *)

(** A computation that writes to the log file: [Raw d k] is one Write of [d] on
    the *os.File, which writes everything ([None]) or fails after the first
    bytes ([Some n]).  [Stuck] is a loop that does not end. *)
Inductive prog (A : Type) := Done (a : A) | Raw (data : bytes) (k : option nat -> prog A) | Stuck.
Arguments Done {A} a. Arguments Raw {A} data k. Arguments Stuck {A}.
Fixpoint pbind {A B} (p : prog A) (f : A -> prog B) : prog B :=
  match p with
  | Done a => f a
  | Raw d k => Raw d (fun r => pbind (k r) f)
  | Stuck => Stuck
  end.

(** bufio.Writer of the Go library: what is in the buffer, and whether a write
    has failed; the error stays for ever. *)
Record bw := mkBw { bw_buf : bytes; bw_bad : bool }.
(** sinksmtp.go:931 *)
Definition logsize : nat := 8 * 1024.
Definition avail (w : bw) : nat := logsize - length (bw_buf w).

(** bufio.Writer.Flush *)
Definition flush (w : bw) : prog bw :=
  if bw_bad w then Done w
  else match bw_buf w with
       | [] => Done w
       | d => Raw d (fun r => match r with
                              | None => Done (mkBw [] false)
                              | Some n => Done (mkBw (skipn n d) true)
                              end)
       end.
(** bufio.Writer.Write: the loop is left when what remains fits.  The fuel
    bounds the number of turns; [Stuck] is proved not to happen. *)
Fixpoint bwrite (fuel : nat) (p : bytes) (w : bw) : prog bw :=
  if bw_bad w then Done w
  else if Nat.leb (length p) (avail w) then Done (mkBw (bw_buf w ++ p) false)
  else match fuel with
       | 0 => Stuck
       | S fuel' =>
           match bw_buf w with
           | [] => Raw p (fun r => match r with
                                   | None => bwrite fuel' [] w
                                   | Some n => Done (mkBw [] true)
                                   end)
           | _ => pbind (flush (mkBw (bw_buf w ++ firstn (avail w) p) false)) (bwrite fuel' (skipn (avail w) p))
           end
       end.
(** sinksmtp.go:369-392 smtpLogger.Write.  Its result is not used by anyone in
    this program. *)
Definition logger_write (prefix b : bytes) (w : bw) : prog bw :=
  let buf := prefix ++ b in
  pbind (bwrite (S (length buf)) buf w) (fun w' => if bw_bad w' then Done w' else flush w').

(** ** Sessions writing to one file *)

(** Every session is idle or inside a call of Write. *)
Inductive lstate := Idle (w : bw) | Busy (p : prog bw).
(** The file as a list of what the writes appended and by which session
    (earliest first), the states, the calls made (earliest first), and the
    sessions that had a failing write. *)
Record logs := mkLogs { g_file : list (nat * bytes); g_sess : nat -> lstate; g_calls : list (nat * bytes); g_bad : nat -> bool }.
Definition put {A} (f : nat -> A) (i : nat) (x : A) : nat -> A := fun j => if Nat.eqb j i then x else f j.

(** the prefix of a session's entries: sinksmtp.go:886, 930 *)
Definition id_of (pid cid : nat) : bytes := itoa pid ++ B "/" ++ itoa cid.

(** In any order the sessions call Write, a write on the file is made or fails,
    and Write returns.  Writes on the file are atomic: *os.File has a lock. *)
Inductive lstep (pid : nat) (g : logs) : logs -> Prop :=
| LCall i b w : g_sess g i = Idle w ->
    lstep pid g (mkLogs (g_file g) (put (g_sess g) i (Busy (logger_write (id_of pid i) b w))) (g_calls g ++ [(i, b)]) (g_bad g))
| LWrite i d k : g_sess g i = Busy (Raw d k) ->
    lstep pid g (mkLogs (g_file g ++ [(i, d)]) (put (g_sess g) i (Busy (k None))) (g_calls g) (g_bad g))
| LFail i d k n : g_sess g i = Busy (Raw d k) -> n < length d ->
    lstep pid g (mkLogs (g_file g ++ [(i, firstn n d)]) (put (g_sess g) i (Busy (k (Some n)))) (g_calls g) (put (g_bad g) i true))
| LReturn i w : g_sess g i = Busy (Done w) ->
    lstep pid g (mkLogs (g_file g) (put (g_sess g) i (Idle w)) (g_calls g) (g_bad g)).
(** sinksmtp.go:928-934: sessions start with an empty buffer *)
Definition logs0 : logs := mkLogs [] (fun _ => Idle (mkBw [] false)) [] (fun _ => false).
Inductive Logs (pid : nat) : logs -> Prop :=
| Ls_start : Logs pid logs0
| Ls_step g g' : Logs pid g -> lstep pid g g' -> Logs pid g'.

(** ** Specification *)

(** what session [i] did, in order *)
Definition of_session (i : nat) (l : list (nat * bytes)) : list bytes :=
  flat_map (fun e => if Nat.eqb (fst e) i then [snd e] else []) l.
Definition content (g : logs) : bytes := concat (map snd (g_file g)).
Definition busy (g : logs) (i : nat) : Prop := exists p, g_sess g i = Busy p.

(** ** Proofs *)

(** One Write of an entry makes one write of the whole entry, and no other. *)
Lemma entry_ne pid i b : exists c r, id_of pid i ++ b = c :: r.
Proof.
  unfold id_of. destruct (itoa pid) as [|c r] eqn:E; [destruct (itoa_nonempty pid E)|]. cbn. eauto.
Qed.

Inductive whole (e : bytes) : prog bw -> Prop :=
| Wh k : k None = Done (mkBw [] false) -> (forall n, exists w, k (Some n) = Done w /\ bw_bad w = true) -> whole e (Raw e k).

Lemma logger_whole pid i b : whole (id_of pid i ++ b) (logger_write (id_of pid i) b (mkBw [] false)).
Proof.
  destruct (entry_ne pid i b) as (c & r & E). unfold logger_write. rewrite E. cbn [bwrite length bw_bad bw_buf].
  destruct (Nat.leb _ _) eqn:El.
  - cbn [pbind bw_bad]. unfold flush. cbn [bw_bad bw_buf app]. apply Wh; [reflexivity|]. intros n. eexists. split; reflexivity.
  - cbn [pbind]. apply Wh.
    + cbn [bwrite length bw_bad bw_buf avail Nat.leb pbind app]. reflexivity.
    + intros n. eexists. split; reflexivity.
Qed.
Lemma logger_bad prefix b w : bw_bad w = true -> logger_write prefix b w = Done w.
Proof.
  intros H. unfold logger_write. cbn [bwrite]. rewrite H. cbn [pbind]. rewrite H. reflexivity.
Qed.

Lemma put_same {A} (f : nat -> A) i x : put f i x i = x.
Proof. unfold put. now rewrite Nat.eqb_refl. Qed.
Lemma put_other {A} (f : nat -> A) i j x : j <> i -> put f i x j = f j.
Proof. unfold put. intros H. apply Nat.eqb_neq in H. now rewrite H. Qed.
Lemma of_app i a b : of_session i (a ++ b) = of_session i a ++ of_session i b.
Proof. apply flat_map_app. Qed.
Lemma of_same i b : of_session i [(i, b)] = [b].
Proof. unfold of_session. cbn. now rewrite Nat.eqb_refl. Qed.
Lemma of_other i j b : j <> i -> of_session j [(i, b)] = [].
Proof. intros H. unfold of_session. cbn. destruct (Nat.eqb_spec i j); [congruence|reflexivity]. Qed.

(** A session without failures: idle with everything written, or inside the
    call for its latest entry, before or after the write. *)
Inductive fine (id : bytes) (st : lstate) (calls pieces : list bytes) : Prop :=
| Fi_idle : st = Idle (mkBw [] false) -> pieces = map (app id) calls -> fine id st calls pieces
| Fi_before p l b : st = Busy p -> whole (id ++ b) p -> calls = l ++ [b] -> pieces = map (app id) l -> fine id st calls pieces
| Fi_after : st = Busy (Done (mkBw [] false)) -> pieces = map (app id) calls -> fine id st calls pieces.
(** A session with a failure: the first bytes of an entry, and nothing later. *)
Inductive spoilt (id : bytes) (st : lstate) (calls pieces : list bytes) : Prop :=
| Sp w l b later n : (st = Idle w \/ st = Busy (Done w)) -> bw_bad w = true -> calls = l ++ b :: later -> n < length (id ++ b) ->
    pieces = map (app id) l ++ [firstn n (id ++ b)] -> spoilt id st calls pieces.

Lemma Logs_inv pid g : Logs pid g -> forall i,
  (if g_bad g i then spoilt else fine) (id_of pid i) (g_sess g i) (of_session i (g_calls g)) (of_session i (g_file g)).
Proof.
  induction 1 as [|g g' HG IH HS]; intros j; [apply Fi_idle; reflexivity|].
  specialize (IH j). destruct HS as [i b w Hi|i d k Hi|i d k n Hi Hn|i w Hi]; cbn [g_file g_sess g_calls g_bad];
    (destruct (Nat.eq_dec j i) as [-> |Hj]; [rewrite ?put_same|rewrite ?put_other, ?of_app, ?of_other, ?app_nil_r by auto; exact IH]).
  - rewrite of_app, of_same. destruct (g_bad g i).
    + destruct IH as [w' l b' later n [Hs|Hs] Hb Hc Hn Hp]; [|congruence]. rewrite Hs in Hi. injection Hi as ->.
      apply (Sp _ _ _ _ w l b' (later ++ [b]) n); auto; [right; now rewrite logger_bad|]. rewrite Hc, <- app_assoc. reflexivity.
    + destruct IH as [Hs Hp|p l b' Hs _ _ _|Hs Hp]; try congruence. rewrite Hs in Hi. injection Hi as <-.
      eapply Fi_before; [reflexivity|apply logger_whole|reflexivity|exact Hp].
  - rewrite of_app, of_same. destruct (g_bad g i).
    + destruct IH as [w' l b' later n [Hs|Hs] _ _ _ _]; congruence.
    + destruct IH as [Hs Hp|p l b' Hs Hw Hc Hp|Hs Hp]; try congruence. rewrite Hs in Hi. injection Hi as ->.
      inversion Hw as [k' H1 H2]; subst. apply Fi_after; [now rewrite H1|]. rewrite Hp, Hc, map_app. reflexivity.
  - rewrite of_app, of_same. destruct (g_bad g i).
    + destruct IH as [w' l b' later n' [Hs|Hs] _ _ _ _]; congruence.
    + destruct IH as [Hs Hp|p l b' Hs Hw Hc Hp|Hs Hp]; try congruence. rewrite Hs in Hi. injection Hi as ->.
      inversion Hw as [k' H1 H2]; subst. destruct (H2 n) as (w & Hw' & Hb). apply (Sp _ _ _ _ w l b' [] n); auto; [right; now rewrite Hw'|]. rewrite Hp. reflexivity.
  - destruct (g_bad g i).
    + destruct IH as [w' l b' later n [Hs|Hs] Hb Hc Hn Hp]; [congruence|]. rewrite Hs in Hi. injection Hi as ->.
      apply (Sp _ _ _ _ w l b' later n); auto.
    + destruct IH as [Hs Hp|p l b' Hs Hw Hc Hp|Hs Hp]; try congruence.
      * rewrite Hs in Hi. injection Hi as ->. inversion Hw.
      * rewrite Hs in Hi. injection Hi as <-. apply Fi_idle; auto.
Qed.

(** ** C71 *)

(** As long as its writes do not fail, what a session has in the file are its
    entries, each written at once, with its id in front, in the order of its
    calls; at most the entry of the call it is in is missing. *)
Theorem C71_whole pid g i : Logs pid g -> g_bad g i = false ->
  exists l rest, of_session i (g_calls g) = l ++ rest /\ of_session i (g_file g) = map (app (id_of pid i)) l /\
    length rest <= 1 /\ (rest <> [] -> busy g i).
Proof.
  intros HG Hb. pose proof (Logs_inv pid g HG i) as H. rewrite Hb in H. destruct H as [Hs Hp|p l b Hs Hw Hc Hp|Hs Hp].
  - exists (of_session i (g_calls g)), []. rewrite app_nil_r. repeat split; auto; try congruence. 
  - exists l, [b]. repeat split; auto. intros _. exists p. exact Hs.
  - exists (of_session i (g_calls g)), []. rewrite app_nil_r. repeat split; auto; try congruence.
Qed.

(** After a write that failed, the session writes nothing any more: the log ends
    with the first part of the entry that failed, whatever is logged later and
    even if writing works again. *)
Theorem C71_after_failure pid g i : Logs pid g -> g_bad g i = true ->
  exists l b later n, of_session i (g_calls g) = l ++ b :: later /\ n < length (id_of pid i ++ b) /\
    of_session i (g_file g) = map (app (id_of pid i)) l ++ [firstn n (id_of pid i ++ b)].
Proof.
  intros HG Hb. pose proof (Logs_inv pid g HG i) as H. rewrite Hb in H. destruct H as [w l b later n Hs Hw Hc Hn Hp].
  exists l, b, later, n. auto.
Qed.

(** Write always returns, after at most one write. *)
Theorem C71_returns pid g i p : Logs pid g -> g_sess g i = Busy p ->
  (exists w, p = Done w) \/ exists d k, p = Raw d k /\ forall r, exists w, k r = Done w.
Proof.
  intros HG Hs. pose proof (Logs_inv pid g HG i) as H. destruct (g_bad g i).
  - destruct H as [w l b later n [H|H] _ _ _ _]; [congruence|]. left. exists w. congruence.
  - destruct H as [H _|p' l b H Hw _ _|H _]; [congruence| |rewrite Hs in H; injection H as ->; left; eauto].
    right. rewrite Hs in H. injection H as <-. destruct Hw as [k H1 H2]. eexists _, k. split; auto.
    intros [n|]; [destruct (H2 n) as (w & Hw & _); eauto|eauto].
Qed.

(** *** Reading the log *)

Definition Lines (s : bytes) (ls : list bytes) : Prop := s = concat (map (fun l => l ++ [ch_nl]) ls) /\ Forall oneline ls.
(** an entry of one line that does not begin with a digit *)
Definition line_entry (b : bytes) : Prop := exists c t, b = c :: t ++ [ch_nl] /\ oneline (c :: t) /\ is_digit c = false.
(** the line begins with this id and then something that is not a digit *)
Definition has_id (id l : bytes) : bool :=
  has_prefix l id && match skipn (length id) l with c :: _ => negb (is_digit c) | [] => false end.

Lemma id_chars pid i c : In c (id_of pid i) -> is_digit c = true \/ c = "/"%char.
Proof.
  unfold id_of. rewrite !in_app_iff. intros [H|[H|H]].
  - left. pose proof (itoa_digits pid) as Hd. rewrite Forall_forall in Hd. apply Hd. exact H.
  - right. destruct H as [<-|[]]. reflexivity.
  - left. pose proof (itoa_digits i) as Hd. rewrite Forall_forall in Hd. apply Hd. exact H.
Qed.
Lemma digits_then a : forall b c d x y, Forall digit_char a -> Forall digit_char b -> is_digit c = false -> is_digit d = false ->
  a ++ c :: x = b ++ d :: y -> a = b /\ c = d /\ x = y.
Proof.
  induction a as [|p a IH]; intros [|q b] c d x y Ha Hb Hc Hd H; cbn in H; inversion H; subst; auto.
  - inversion Hb; subst. unfold digit_char in *. congruence.
  - inversion Ha; subst. unfold digit_char in *. congruence.
  - inversion Ha; inversion Hb; subst. destruct (IH b c d x y) as (-> & -> & ->); auto.
Qed.
Lemma id_unique pid i j c d x y : is_digit c = false -> is_digit d = false ->
  id_of pid i ++ c :: x = id_of pid j ++ d :: y -> i = j.
Proof.
  intros Hc Hd H. unfold id_of in H. rewrite <- !app_assoc in H. apply app_inv_head in H. apply app_inv_head in H.
  apply digits_then in H as (H & _); auto using itoa_digits. now apply itoa_inj.
Qed.
Lemma has_id_spec id l : has_id id l = true <-> exists c t, l = id ++ c :: t /\ is_digit c = false.
Proof.
  unfold has_id. rewrite andb_true_iff, has_prefix_spec. split.
  - intros ((t & ->) & H). rewrite skipn_app, skipn_all, Nat.sub_diag in H. cbn [app skipn] in H.
    destruct t as [|c t]; [discriminate|]. exists c, t. split; auto. now apply negb_true_iff.
  - intros (c & t & -> & H). split; [eauto|]. rewrite skipn_app, skipn_all, Nat.sub_diag. cbn [app skipn]. now rewrite H.
Qed.

(** When all entries are lines and no write has failed, and no session is inside
    a call, the lines of the file with a session's id are its entries, in order. *)
Theorem C71_by_id pid g : Logs pid g -> (forall i, g_bad g i = false) -> (forall i, ~ busy g i) ->
  (forall i b, In (i, b) (g_calls g) -> line_entry b) ->
  exists ls, Lines (content g) ls /\
    forall i, map (fun l => l ++ [ch_nl]) (filter (has_id (id_of pid i)) ls) = map (app (id_of pid i)) (of_session i (g_calls g)).
Proof.
  intros HG Hbad Hbusy Hline.
  assert (Hp : forall i, of_session i (g_file g) = map (app (id_of pid i)) (of_session i (g_calls g))).
  { intros i. destruct (C71_whole pid g i HG (Hbad i)) as (l & rest & E1 & E2 & _ & Hr). destruct rest as [|x rest].
    - rewrite app_nil_r in E1. congruence.
    - destruct (Hbusy i). apply Hr. discriminate. }
  assert (Hf : forall i d, In (i, d) (g_file g) -> exists c t, d = (id_of pid i ++ c :: t) ++ [ch_nl] /\ oneline (c :: t) /\ is_digit c = false).
  { intros i d Hin. assert (Hi : In d (of_session i (g_file g))).
    { apply in_flat_map. exists (i, d). split; auto. cbn. rewrite Nat.eqb_refl. left. reflexivity. }
    rewrite Hp, in_map_iff in Hi. destruct Hi as (b & <- & Hb). apply in_flat_map in Hb as ([j b'] & Hc & Hb). cbn in Hb.
    destruct (Nat.eqb_spec j i) as [-> |]; [|destruct Hb]. destruct Hb as [<-|[]].
    destruct (Hline _ _ Hc) as (c & t & -> & Ho & Hd). exists c, t. rewrite <- app_assoc. auto. }
  assert (Hall : exists ls, Lines (content g) ls /\
    forall i, map (fun l => l ++ [ch_nl]) (filter (has_id (id_of pid i)) ls) = of_session i (g_file g)).
  { unfold content. clear -Hf. induction (g_file g) as [|[j d] f IH]; [exists []; split; [split; constructor|reflexivity]|].
    destruct IH as (ls & (E1 & E2) & E3); [intros i x Hx; apply Hf; right; exact Hx|].
    destruct (Hf j d (or_introl eq_refl)) as (c & t & -> & Ho & Hd). exists ((id_of pid j ++ c :: t) :: ls). split; [split|].
    - cbn [map concat fst snd]. rewrite E1. reflexivity.
    - constructor; auto. apply oneline_app. split; auto. intros Hn. apply id_chars in Hn as [Hn|Hn]; discriminate.
    - intros i. cbn [filter of_session flat_map fst snd]. specialize (E3 i).
      destruct (Nat.eqb_spec j i) as [-> |Hji].
      + assert (Hi : has_id (id_of pid i) (id_of pid i ++ c :: t) = true) by (apply has_id_spec; eauto).
        rewrite Hi. cbn [map app]. rewrite E3. reflexivity.
      + destruct (has_id (id_of pid i) (id_of pid j ++ c :: t)) eqn:Eh; [|exact E3].
        apply has_id_spec in Eh as (c' & t' & Eq & Hd'). apply id_unique in Eq; auto. congruence. }
  destruct Hall as (ls & H1 & H2). exists ls. split; auto. intros i. rewrite H2. apply Hp.
Qed.

(** *** The lines of a session *)

(** What this program itself logs, besides the commands and replies that smtpd
    logs, is marked: a line beginning with "! ". *)
Definition marked (x : bytes) : Prop := exists t, x = B "! " ++ t ++ [ch_nl].

Section S.
  Context (K : config) (E : senv) (cn : conn).

  Definition ok_log (e : effect) : Prop := match e with FSmtplog x => exists t, x = id_of (n_pid cn) (n_cid cn) ++ B "! " ++ t ++ [ch_nl] | _ => True end.
  Definition says {A} (m : S' A) : Prop := forall s a s', m s = Ok (a, s') -> exists l, Forall ok_log l /\ s_out s' = l ++ s_out s.

  Lemma says_same {A} (m : S' A) : (forall s a s', m s = Ok (a, s') -> s_out s' = s_out s) -> says m.
  Proof. intros H s a s' Hm. exists []. split; [constructor|]. eapply H; eauto. Qed.
  Lemma says_ret {A} (a : A) : says (sret a).
  Proof. apply says_same. intros s x s' H. sinv H. reflexivity. Qed.
  Lemma says_get {A} (f : sess -> A) : says (sget f).
  Proof. apply says_same. intros s x s' H. sapp @sget_ok H. reflexivity. Qed.
  Lemma says_gettx {A} (f : tx -> A) : says (gettx f).
  Proof. apply says_same. intros s x s' H. sapp @gettx_ok H. reflexivity. Qed.
  Lemma says_index : says index.
  Proof. apply says_same. intros s x s' H. sapp index_ok H. reflexivity. Qed.
  Lemma says_crash {A} : says (@scrash A).
  Proof. intros s x s' H. discriminate. Qed.
  Lemma says_emit e : ok_log e -> says (emit e).
  Proof. intros He s x s' H. sapp emit_ok H. exists [e]. auto. Qed.
  Lemma says_uptx f : says (uptx f).
  Proof. apply says_same. intros s x s' H. sapp uptx_ok H. reflexivity. Qed.
  Lemma says_got : says put_got.
  Proof. apply says_same. intros s x s' H. sapp put_got_ok H. reflexivity. Qed.
  Lemma says_counts b : says (put_counts b).
  Proof. apply says_same. intros s x s' H. sapp put_counts_ok H. reflexivity. Qed.
  Lemma says_tlscfg b : says (put_tlscfg b).
  Proof. apply says_same. intros s x s' H. sapp put_tlscfg_ok H. reflexivity. Qed.
  Lemma says_ctx {A} (m : M A) : says (inctx m).
  Proof. apply says_same. intros s x s' H. apply inctx_ok in H as (c & _ & ->). reflexivity. Qed.
  Lemma says_lift {A} (o : outcome A) : says (slift o).
  Proof. apply says_same. intros s a s' H. apply slift_ok in H as [_ ->]. reflexivity. Qed.
  Lemma says_bind {A B} (m : S' A) (f : A -> S' B) : says m -> (forall a, says (f a)) -> says (sbind m f).
  Proof.
    intros Hm Hf s b s' H. apply sbind_ok in H as (a & s1 & H1 & H).
    destruct (Hm _ _ _ H1) as (l & Hl & E1). destruct (Hf _ _ _ _ H) as (l' & Hl' & E4).
    exists (l' ++ l). split; [apply Forall_app; auto|]. rewrite E4, E1, app_assoc. reflexivity.
  Qed.
  Lemma says_when b m : says m -> says (when_ b m).
  Proof. destruct b; auto. intros _. apply says_ret. Qed.
  Lemma says_if {A} (b : bool) (m n : S' A) : says m -> says n -> says (if b then m else n).
  Proof. destruct b; auto. Qed.
  Lemma says_logwrite x : marked x -> says (logwrite cn x).
  Proof. intros (t & ->). apply says_emit. exists t. reflexivity. Qed.

  Lemma marked_intro x : has_prefix x (B "! ") = true -> (exists t, x = t ++ [ch_nl]) -> marked x.
  Proof.
    intros H (t & Ht). apply has_prefix_spec in H as (u & ->). destruct u as [|y u _] using rev_ind.
    - rewrite app_nil_r in Ht. change (B "! ") with ([ "!"%char ] ++ [" "%char]) in Ht. apply app_inj_tail in Ht as [_ Ht]. discriminate.
    - rewrite app_assoc in Ht. apply app_inj_tail in Ht as [_ ->]. exists u. reflexivity.
  Qed.
  Ltac mark := apply marked_intro; [reflexivity|]; eexists; rewrite ?app_assoc; reflexivity.
  Ltac says1 := first
    [ apply says_ret | apply says_get | apply says_gettx | apply says_index | apply says_crash
    | apply says_got | apply says_counts | apply says_tlscfg | apply says_ctx | apply says_lift | apply says_uptx
    | apply says_emit; exact Logic.I | apply says_logwrite
    | apply says_when | apply says_if | apply says_bind; [|intros] ].
  Ltac says_all := repeat (says1; cbv zeta).

  Lemma says_writeLog I x : marked x -> says (writeLog cn I x).
  Proof. intros H. unfold writeLog. says1. now apply says_logwrite. Qed.

  Lemma says_sbls hits : says (logSbls E cn hits).
  Proof.
    induction hits as [|h hits IH]; cbn [logSbls]; [says1|]. says1; [|exact IH]. apply says_if; [|says1]. says1.
    - unfold getSBLHits. destruct (split_byte _ _) as [|? [|? [|? [|? ?]]]]; says_all.
    - destruct a as [|r rs]; [says1|]. says1; [|says1; exact Logic.I]. says1. mark.
  Qed.
  Lemma says_decider I ph e id : says (decider E cn I ph e id).
  Proof.
    unfold decider. says1; [says1|]. says1; [says1|]. says1; [says1|]. says1; [says1|]. says1; [|says1; [|says1; [|]]].
    - unfold logDnsbls. says1; [says1|]. destruct a3 as [|h0 hs]; [says1|]. cbv zeta. says1; [says1|]. says1; [says1|]. says1; [says1|].
      says1; [says1; mark|]. says_all. apply says_sbls.
    - unfold logDomerr. says1; [says1|]. destruct a4 as [x|]; [|says1]. says_all. mark.
    - unfold applyProps, withprop. says_all.
      + mark.
      + destruct a10; says_all.
    - assert (Hr : says (refusal a0 ph id (match mget (c_withprops a1) (B "message") with Some v => v | None => [] end)) -> True) by auto.
      assert (Href : forall msg, says (refusal a0 ph id msg)) by (intros msg; unfold refusal, pluralRecips; destruct a0; says_all).
      destruct a0; unfold withprop; repeat (first [apply Href|says1]).
  Qed.
  Lemma says_doAccept id : says (doAccept id).
  Proof. unfold doAccept, withprop. says_all. Qed.
  Lemma says_verify t : says (tlsTryVerify E t).
  Proof. unfold tlsTryVerify. destruct (ts_chains t); [|says1]. destruct (ts_peers t); says_all. Qed.
  Lemma says_tlslog I t : says (tlsClientLog E cn I t).
  Proof.
    unfold tlsClientLog. destruct (ts_peers t) as [|c cs]; [says1|]. says1; [apply says_verify|]. apply says_writeLog.
    destruct a as [e|].
    - mark.
    - mark.
  Qed.
  Lemma says_notePeer t : says (notePeer E t).
  Proof.
    unfold notePeer. destruct (ts_chains t) as [|[|]]; [|says1|says1]. destruct (ts_peers t); [says1|]. says1; [apply says_verify|says1].
  Qed.
  Lemma says_handleMessage : says (handleMessage K E cn).
  Proof.
    unfold handleMessage. says_all. destruct (msgDetails _ _ _). destruct (saveName _ _ _ _); [|says1]. says1; [|says1].
    unfold saveFile. says_all. destruct (v_open E _ _); says_all.
    - destruct (v_write E _ _); says1; exact Logic.I.
    - destruct (v_close E _); says_all.
  Qed.
  Lemma says_step I ev : says (step K E cn I ev).
  Proof.
    destruct ev as [ev tls]. unfold step, onHelo, onMailFrom, onRcptTo, onData, onGotData, onTlsError, minphase, event, updateTime, yakAdd, notlsAdd.
    destruct ev; cbv zeta; repeat (first [apply says_decider|apply says_doAccept|apply says_tlslog|apply says_notePeer|apply says_handleMessage|apply says_writeLog|says1]; cbv zeta).
    - mark.
    - destruct a5 as [transid [err|]]; repeat (first [apply says_decider|apply says_doAccept|says1]).
  Qed.
  Lemma says_setup : says (setup K E cn).
  Proof.
    unfold setup. says1; [|says1; [|says1; [|destruct a1; says1; [|]]]].
    - unfold setupClient, yakLookup, updateTime, yakLog, event. says1; [says1; exact Logic.I|]. destruct (setupRules _ _ _ _ _) as [rr|]; [|says1].
      says1; [destruct (rr_warning rr); says_all|]. says1; [says1|]. says1; [says1; [says1|]; destruct (v_lookup E _); says_all|].
      match goal with p : (bool * Z)%type |- _ => destruct p as [hit cnt] end. says_all.
    - unfold localName. says1; [says1|]. says1; [says1|]. destruct a0 as [[|n ns]|e]; try says1. destruct (last_byte n); says1.
    - unfold connParams. says1; [says1|]. says1; [says1|]. says1; [says1|]. destruct a2; says_all.
    - unfold setupConn, notlsLookup, event. says1; [says1; [says1|]; destruct (v_lookup E _); says_all|].
      match goal with p : (bool * Z)%type |- _ => destruct p as [hit cnt] end. cbv zeta. says_all.
    - says1; [says1|]. match goal with p : (rdns * bool)%type |- _ => destruct p end. says1; [says1|]. says1; [apply says_decider|]. says1; [|says1].
      says1; [says1|]. says1; [|says1]. says1. apply says_writeLog.
      mark.
  Qed.
  Lemma says_finish I : says (finish K E cn I).
  Proof.
    unfold finish, yakSet, yakAdd, updateTime, yakLog, event. cbv zeta. repeat (first [apply says_writeLog|says1]; cbv zeta).
    - mark.
    - mark.
  Qed.
  Lemma says_loop I evs : says (loop K E cn I evs).
  Proof. induction evs as [|ev evs IH]; cbn [loop]; [says1|]. says1; [apply says_step|]. destruct a; [exact IH|says1|says1]. Qed.

  (** Everything a session logs itself is one marked entry per call, with the
      session's id in front. *)
  Theorem C71_session_entries evs b s x : process K E cn evs (sess0 K) = Ok (b, s) -> In (FSmtplog x) (s_out s) ->
    exists t, x = id_of (n_pid cn) (n_cid cn) ++ B "! " ++ t ++ [ch_nl].
  Proof.
    intros H Hin. assert (HP : says (process K E cn evs)).
    { unfold process. says1; [apply says_setup|]. destruct a as [inf|]; [|says_all]. says1; [apply says_loop|].
      destruct a; repeat (first [apply says_finish|says1]). }
    destruct (HP _ _ _ H) as (l & Hl & Eo). cbn [s_out sess0] in Eo. rewrite app_nil_r in Eo. rewrite Eo in Hin.
    rewrite Forall_forall in Hl. exact (Hl _ Hin).
  Qed.
End S.

(** ** Examples *)

(** a schedule *)
Inductive act := ACall (i : nat) (b : bytes) | AWrite (i : nat) | AFail (i n : nat) | AReturn (i : nat).
Definition do1 (pid : nat) (a : act) (g : logs) : option logs :=
  match a with
  | ACall i b =>
      match g_sess g i with
      | Idle w => Some (mkLogs (g_file g) (put (g_sess g) i (Busy (logger_write (id_of pid i) b w))) (g_calls g ++ [(i, b)]) (g_bad g))
      | _ => None
      end
  | AWrite i =>
      match g_sess g i with
      | Busy (Raw d k) => Some (mkLogs (g_file g ++ [(i, d)]) (put (g_sess g) i (Busy (k None))) (g_calls g) (g_bad g))
      | _ => None
      end
  | AFail i n =>
      match g_sess g i with
      | Busy (Raw d k) =>
          if Nat.ltb n (length d)
          then Some (mkLogs (g_file g ++ [(i, firstn n d)]) (put (g_sess g) i (Busy (k (Some n)))) (g_calls g) (put (g_bad g) i true))
          else None
      | _ => None
      end
  | AReturn i =>
      match g_sess g i with
      | Busy (Done w) => Some (mkLogs (g_file g) (put (g_sess g) i (Idle w)) (g_calls g) (g_bad g))
      | _ => None
      end
  end.
Fixpoint do_all (pid : nat) (l : list act) (g : logs) : option logs :=
  match l with [] => Some g | a :: l' => match do1 pid a g with Some g' => do_all pid l' g' | None => None end end.
Lemma do_all_ok pid l : forall g g', Logs pid g -> do_all pid l g = Some g' -> Logs pid g'.
Proof.
  induction l as [|a l IH]; intros g g' HG H; cbn [do_all] in H; [congruence|].
  destruct (do1 pid a g) as [g1|] eqn:E1; [|discriminate]. eapply IH; [|exact H]. eapply Ls_step; [exact HG|].
  destruct a as [i b|i|i n|i]; cbn [do1] in E1; destruct (g_sess g i) as [w|[w|d k|]] eqn:Es; try discriminate.
  - injection E1 as <-. eapply LCall; eauto.
  - injection E1 as <-. eapply LWrite; eauto.
  - destruct (Nat.ltb_spec n (length d)); [|discriminate]. injection E1 as <-. eapply LFail; eauto.
  - injection E1 as <-. eapply LReturn; eauto.
Qed.
Lemma log_example pid l {A} (f : logs -> A) v :
  match do_all pid l logs0 with Some g => Some (f g) | None => None end = Some v -> exists g, Logs pid g /\ f g = v.
Proof.
  intros H. destruct (do_all pid l logs0) as [g|] eqn:E; [|discriminate]. injection H as <-. exists g. split; auto.
  eapply do_all_ok; [apply Ls_start|exact E].
Qed.

Definition nl_text (t : bytes) : bytes := t ++ [ch_nl].
(** Three calls of sessions 1 and 12, interleaved; nothing fails and nobody is
    inside a call at the end. *)
Example C71_two : exists g, Logs 7 g /\
  (content g, of_session 1 (g_calls g), map (g_bad g) [1; 12], map (fun i => match g_sess g i with Idle _ => true | _ => false end) [1; 12]) =
  (nl_text (B "7/12! b") ++ nl_text (B "7/1! a") ++ nl_text (B "7/1! c"), [nl_text (B "! a"); nl_text (B "! c")], [false; false], [true; true]).
Proof.
  apply (log_example 7 [ACall 1 (nl_text (B "! a")); ACall 12 (nl_text (B "! b")); AWrite 12; AWrite 1; AReturn 1; AReturn 12;
                        ACall 1 (nl_text (B "! c")); AWrite 1; AReturn 1]
    (fun g => (content g, of_session 1 (g_calls g), map (g_bad g) [1; 12], map (fun i => match g_sess g i with Idle _ => true | _ => false end) [1; 12]))).
  vm_compute. reflexivity.
Qed.
Example C71_line : line_entry (nl_text (B "! a")).
Proof. exists "!"%char, (B " a"). repeat split. intros H. cbn in H. intuition discriminate. Qed.
(** A write fails after three bytes; the line of another session follows it
    directly, and the session's next entry is lost although writing works. *)
Example C71_lost : exists g, Logs 7 g /\
  (content g, of_session 1 (g_calls g), g_bad g 1) =
  (B "7/1" ++ nl_text (B "7/2! b"), [nl_text (B "! a"); nl_text (B "! c")], true).
Proof.
  apply (log_example 7 [ACall 1 (nl_text (B "! a")); AFail 1 3; AReturn 1; ACall 2 (nl_text (B "! b")); AWrite 2; ACall 1 (nl_text (B "! c")); AReturn 1]
    (fun g => (content g, of_session 1 (g_calls g), g_bad g 1))).
  vm_compute. reflexivity.
Qed.
