(** C59: the slices behind the rules of connections
    (/repo/sinksmtp.go:153-189; /repo/rparse.go:680-688). *)
From Coq Require Import Lia.
From Verif Require Import PropsParse.
From Verif Require Import Bytes Outcome Lexer Ast GoNet Parser RuleLoad PropsLoad PropsEval.

(** ** Go's slices *)

(** The arrays allocated so far.  The elements are pointers to rules, which do
    not change after parsing, so the rules themselves stand for them; [None] is
    nil. *)
Definition array := list (option rule).
Definition heap := list array.
(** A slice that starts at the beginning of its array, as all slices here do; it
    reaches to the end of its array.  The nil slice has an array of length 0. *)
Record slice := mkSlice { sl_arr : nat; sl_len : nat }.

Definition arr (h : heap) (a : nat) : array := nth a h [].
Definition cap (h : heap) (s : slice) : nat := length (arr h (sl_arr s)).
(** the elements of the slice *)
Definition view (h : heap) (s : slice) : array := firstn (sl_len s) (arr h (sl_arr s)).

Fixpoint set_nth {A} (n : nat) (x : A) (l : list A) : list A :=
  match l, n with
  | [], _ => []
  | _ :: l, 0 => x :: l
  | y :: l, S n => y :: set_nth n x l
  end.
Definition overwrite (a : array) (off : nat) (xs : array) : array := firstn off a ++ xs ++ skipn (off + length xs) a.

(** append(s, xs...): in place if the array is long enough, otherwise in a new
    one.  [grow c n] is the length of the new array when [n] elements did not fit
    into [c]; it depends on the version of Go. *)
Definition append (grow : nat -> nat -> nat) (h : heap) (s : slice) (xs : list rule) : heap * slice :=
  let need := sl_len s + length xs in
  if Nat.leb need (cap h s) then
    (set_nth (sl_arr s) (overwrite (arr h (sl_arr s)) (sl_len s) (map Some xs)) h, mkSlice (sl_arr s) need)
  else
    (h ++ [view h s ++ map Some xs ++ repeat None (grow (cap h s) need - need)], mkSlice (length h) need).

(** ** Connections loading their rules *)

(** A connection in setupRules or after it: the rules of the files loaded so
    far, the slice they are in, and whether a file failed to load (the rules are
    then those of the slice stallall, which is never appended to). *)
Record cstate := mkC { c_parts : list (list rule); c_slice : slice; c_failed : bool }.
Record rstate := mkR { r_heap : heap; r_conn : nat -> option cstate }.

Definition upd_conn (f : nat -> option cstate) (i : nat) (c : cstate) : nat -> option cstate :=
  fun j => if Nat.eqb j i then Some c else f j.

Section Load.
  Variable grow : nat -> nat -> nat.
  (** baserules: its slice, in the heap at the start *)
  Variable h0 : heap.
  Variable base : slice.
  (** how many rule files there are, and what the k-th may load as *)
  Variable nfiles : nat.
  Variable allowed : nat -> list rule -> Prop.

  (** The steps: a connection begins (sinksmtp.go:171), loads the next file and
      appends (153-159), or fails to.  An append is taken to be one step. *)
  Inductive rstep (g : rstate) : rstate -> Prop :=
  | RBegin i : r_conn g i = None ->
      rstep g (mkR (r_heap g) (upd_conn (r_conn g) i (mkC [] base false)))
  | RLoad i c rs h s : r_conn g i = Some c -> c_failed c = false -> length (c_parts c) < nfiles -> allowed (length (c_parts c)) rs ->
      append grow (r_heap g) (c_slice c) rs = (h, s) ->
      rstep g (mkR h (upd_conn (r_conn g) i (mkC (c_parts c ++ [rs]) s false)))
  | RFail i c : r_conn g i = Some c -> c_failed c = false -> length (c_parts c) < nfiles ->
      rstep g (mkR (r_heap g) (upd_conn (r_conn g) i (mkC (c_parts c) (c_slice c) true))).

  Inductive rruns : rstate -> Prop :=
  | Rr_start : rruns (mkR h0 (fun _ => None))
  | Rr_step g g' : rruns g -> rstep g g' -> rruns g'.

  (** The rules in force for a connection that has loaded all files are the base
      rules and those it loaded. *)
  Definition Right (brules : list rule) (g : rstate) : Prop :=
    forall i c, r_conn g i = Some c -> length (c_parts c) = nfiles -> c_failed c = false ->
      view (r_heap g) (c_slice c) = map Some (brules ++ concat (c_parts c)).
End Load.

(** ** When it is right *)

Lemma set_nth_length {A} n (x : A) l : length (set_nth n x l) = length l.
Proof. revert n. induction l as [|y l IH]; intros [|n]; cbn; auto. Qed.
Lemma nth_set_nth {A} n (x d : A) l : forall m, n < length l -> nth m (set_nth n x l) d = if Nat.eqb m n then x else nth m l d.
Proof.
  revert n. induction l as [|y l IH]; intros [|n] m Hn; cbn in *; try lia.
  - destruct m; reflexivity.
  - destruct m; [reflexivity|]. cbn. apply IH. lia.
Qed.
Lemma nth_error_overwrite a off xs i : off + length xs <= length a ->
  nth_error (overwrite a off xs) i = if Nat.leb off i && Nat.ltb i (off + length xs) then nth_error xs (i - off) else nth_error a i.
Proof.
  intros Hl. unfold overwrite. assert (Hf : length (firstn off a) = off) by (rewrite firstn_length; lia).
  destruct (Nat.leb_spec off i) as [H1|H1]; cbn [andb].
  - rewrite nth_error_app2 by lia. rewrite Hf. destruct (Nat.ltb_spec i (off + length xs)) as [H2|H2].
    + rewrite nth_error_app1 by lia. reflexivity.
    + rewrite nth_error_app2 by lia. rewrite <- (firstn_skipn (off + length xs) a) at 2.
      assert (Hg : length (firstn (off + length xs) a) = off + length xs) by (rewrite firstn_length; lia).
      rewrite (nth_error_app2 (firstn _ a)) by lia. rewrite Hg. f_equal. lia.
  - rewrite nth_error_app1 by lia. rewrite <- (firstn_skipn off a) at 2. rewrite nth_error_app1 by lia. reflexivity.
Qed.
Lemma overwrite_length a off xs : off + length xs <= length a -> length (overwrite a off xs) = length a.
Proof. intros H. unfold overwrite. rewrite !app_length, firstn_length, skipn_length. lia. Qed.
Lemma nth_error_firstn {A} (l : list A) n i : nth_error (firstn n l) i = if Nat.ltb i n then nth_error l i else None.
Proof.
  revert n i. induction l as [|x l IH]; intros n i.
  - rewrite firstn_nil. destruct i; destruct (Nat.ltb _ _); reflexivity.
  - destruct n, i; cbn; auto. rewrite IH. reflexivity.
Qed.
Lemma firstn_ext {A} (l l' : list A) n : (forall i, i < n -> nth_error l i = nth_error l' i) -> firstn n l = firstn n l'.
Proof.
  revert l l'. induction n as [|n IH]; intros l l' H; [reflexivity|].
  destruct l as [|x l], l' as [|y l']; try reflexivity; try (specialize (H 0); cbn in H; specialize (H ltac:(lia)); discriminate H).
  pose proof (H 0 ltac:(lia)) as H0. cbn in H0. injection H0 as ->. cbn. f_equal. apply IH. intros i Hi. apply (H (S i)). lia.
Qed.

Section Safe.
  Variable grow : nat -> nat -> nat.
  Variable h0 : heap.
  Variable base : slice.
  Variable nfiles : nat.
  Variable allowed : nat -> list rule -> Prop.
  Variable brules : list rule.
  Hypothesis Hbase : view h0 base = map Some brules.
  Hypothesis Hlen : sl_len base = length brules.
  Hypothesis Hin : sl_arr base < length h0.
  Hypothesis Hcap : sl_len base <= cap h0 base.

  Definition chosen (ps : list (list rule)) : Prop := forall k rs, nth_error ps k = Some rs -> allowed k rs.
  Definition upto (l Q : array) : Prop := firstn (length l) Q = l.

  (** What may be written behind the base rules is part of one sequence [Q]. *)
  Variable Q : array.
  Hypothesis HQ0 : upto (map Some brules) Q.
  Hypothesis HQ : forall ps rs, chosen (ps ++ [rs]) -> upto (map Some (brules ++ concat ps)) Q ->
    length (brules ++ concat ps ++ rs) <= cap h0 base -> upto (map Some (brules ++ concat ps ++ rs)) Q.

  Record Inv (g : rstate) : Prop := mkInv {
    iv_heap : length h0 <= length (r_heap g);
    iv_cap : length (arr (r_heap g) (sl_arr base)) = cap h0 base;
    iv_base : view (r_heap g) base = map Some brules;
    iv_conn : forall i c, r_conn g i = Some c ->
      chosen (c_parts c) /\ sl_arr (c_slice c) < length (r_heap g) /\ sl_len (c_slice c) = length (brules ++ concat (c_parts c)) /\
      sl_len (c_slice c) <= cap (r_heap g) (c_slice c) /\
      view (r_heap g) (c_slice c) = map Some (brules ++ concat (c_parts c)) /\
      (sl_arr (c_slice c) = sl_arr base -> upto (map Some (brules ++ concat (c_parts c))) Q) /\
      (sl_arr (c_slice c) <> sl_arr base -> length h0 <= sl_arr (c_slice c));
    iv_own : forall i j c d, r_conn g i = Some c -> r_conn g j = Some d -> i <> j -> sl_arr (c_slice c) = sl_arr (c_slice d) -> sl_arr (c_slice c) = sl_arr base
  }.

  Lemma arr_app h x a : a < length h -> arr (h ++ x) a = arr h a.
  Proof. intros H. unfold arr. now rewrite app_nth1. Qed.

  Lemma inv_step g g' : Inv g -> rstep grow base nfiles allowed g g' -> Inv g'.
  Proof.
    intros [V1 V2 V3 V4 V5] HS. destruct HS as [i Hi|i c rs h s Hi Hf Hn Ha Hap|i c Hi Hf Hn].
    - (* begin *)
      split; cbn [r_heap r_conn]; auto.
      + intros j c. unfold upd_conn. destruct (Nat.eqb_spec j i) as [->|E]; [|apply V4]. intros HX. injection HX as <-. cbn [c_parts c_slice].
        cbn [concat]. rewrite app_nil_r. split; [intros [|k] rs HX; discriminate HX|]. split; [lia|]. split; auto. split; [unfold cap in *; lia|]. split; auto. split; [auto|congruence].
      + intros j k c d. unfold upd_conn. destruct (Nat.eqb_spec j i) as [->|Ej], (Nat.eqb_spec k i) as [->|Ek]; intros H1 H2 H3 H4; try congruence; try (injection H1 as <-; reflexivity).
        * injection H2 as <-. exact H4.
        * eapply V5; eauto.
    - (* load *)
      destruct (V4 i c Hi) as (C1 & C2 & C3 & C4 & C5 & C6 & C7).
      assert (Hch : chosen (c_parts c ++ [rs])).
      { intros k r Hk. destruct (Nat.lt_ge_cases k (length (c_parts c))) as [L|L].
        - rewrite nth_error_app1 in Hk by auto. auto.
        - rewrite nth_error_app2 in Hk by auto. destruct (k - length (c_parts c)) as [|m] eqn:Ek; [|destruct m; discriminate Hk].
          injection Hk as <-. replace k with (length (c_parts c)) by lia. exact Ha. }
      assert (Hcc : concat (c_parts c ++ [rs]) = concat (c_parts c) ++ rs) by (rewrite concat_app; cbn; now rewrite app_nil_r).
      assert (Hl' : sl_len (c_slice c) + length rs = length (brules ++ concat (c_parts c ++ [rs]))).
      { rewrite Hcc, C3, !app_length. lia. }
      unfold append in Hap. cbv zeta in Hap. destruct (Nat.leb_spec (sl_len (c_slice c) + length rs) (cap (r_heap g) (c_slice c))) as [Hfit|Hfit].
      + (* in place *)
        apply (f_equal fst) in Hap as Hh. apply (f_equal snd) in Hap as Hs. cbn [fst snd] in Hh, Hs. subst h s.
        set (A := arr (r_heap g) (sl_arr (c_slice c))) in *.
        set (A' := overwrite A (sl_len (c_slice c)) (map Some rs)).
        assert (HA' : length A' = length A) by (apply overwrite_length; rewrite map_length; exact Hfit).
        assert (Harr : forall a, arr (set_nth (sl_arr (c_slice c)) A' (r_heap g)) a = if Nat.eqb a (sl_arr (c_slice c)) then A' else arr (r_heap g) a).
        { intros a. unfold arr. apply nth_set_nth. exact C2. }
        assert (Hnew : firstn (sl_len (c_slice c) + length rs) A' = map Some (brules ++ concat (c_parts c ++ [rs]))).
        { unfold A', overwrite. rewrite Hcc, (app_assoc brules), map_app, <- C5. unfold view. fold A.
          rewrite app_assoc. rewrite firstn_app.
          assert (L : length (firstn (sl_len (c_slice c)) A ++ map Some rs) = sl_len (c_slice c) + length rs).
          { rewrite app_length, firstn_length, map_length. change (length A) with (cap (r_heap g) (c_slice c)). lia. }
          rewrite L, Nat.sub_diag. rewrite firstn_O, app_nil_r. rewrite <- L. apply firstn_all. }
        (* other slices of the same array keep their elements *)
        assert (Hother : forall n R, firstn n A = map Some R -> length R = n -> sl_arr (c_slice c) = sl_arr base -> upto (map Some R) Q -> firstn n A' = map Some R).
        { intros n R HR Hn' Hb HRQ. rewrite <- HR. apply firstn_ext. intros p Hp. unfold A'. rewrite nth_error_overwrite by (rewrite map_length; exact Hfit).
          destruct (Nat.leb_spec (sl_len (c_slice c)) p) as [L1|L1]; cbn [andb]; [|reflexivity].
          rewrite map_length. destruct (Nat.ltb_spec p (sl_len (c_slice c) + length rs)) as [L2|L2]; [|reflexivity].
          assert (HQp : upto (map Some (brules ++ concat (c_parts c) ++ rs)) Q).
          { apply HQ; auto. rewrite app_assoc, app_length, <- C3. rewrite <- V2, <- Hb. exact Hfit. }
          unfold upto in HQp, HRQ. rewrite map_length in HQp, HRQ.
          transitivity (nth_error Q p).
          - replace (nth_error (map Some rs) (p - sl_len (c_slice c))) with (nth_error (map Some (brules ++ concat (c_parts c) ++ rs)) p).
            + rewrite <- HQp, nth_error_firstn. rewrite app_assoc, app_length, <- C3. destruct (Nat.ltb_spec p (sl_len (c_slice c) + length rs)); [reflexivity|lia].
            + rewrite app_assoc, map_app, nth_error_app2; rewrite map_length, <- C3; auto.
          - assert (HX : nth_error (firstn n A) p = nth_error Q p).
            { rewrite HR. rewrite <- HRQ, nth_error_firstn. destruct (Nat.ltb_spec p (length R)); [reflexivity|lia]. }
            rewrite nth_error_firstn in HX. destruct (Nat.ltb_spec p n); [symmetry; exact HX|lia]. }
        split; cbn [r_heap r_conn].
        * rewrite set_nth_length. exact V1.
        * rewrite Harr. destruct (Nat.eqb_spec (sl_arr base) (sl_arr (c_slice c))) as [E|E]; [|exact V2]. rewrite HA'. unfold A. rewrite <- E. exact V2.
        * unfold view. rewrite Harr. destruct (Nat.eqb_spec (sl_arr base) (sl_arr (c_slice c))) as [E|E]; [|exact V3].
          apply (Hother (sl_len base) brules); auto. unfold A. rewrite <- E. exact V3.
        * intros j d. unfold upd_conn. destruct (Nat.eqb_spec j i) as [->|Ej].
          -- intros HX. injection HX as <-. cbn [c_parts c_slice sl_arr sl_len]. split; auto. split; [rewrite set_nth_length; exact C2|]. split; auto.
             split; [unfold cap; cbn [sl_arr]; rewrite Harr, Nat.eqb_refl, HA'; exact Hfit|].
             split; [unfold view; cbn [sl_arr sl_len]; rewrite Harr, Nat.eqb_refl; exact Hnew|]. split; auto.
             intros Hb. rewrite Hcc. apply HQ; auto. rewrite app_assoc, app_length, <- C3. rewrite <- V2, <- Hb. exact Hfit.
          -- intros Hj. destruct (V4 j d Hj) as (D1 & D2 & D3 & D4 & D5 & D6 & D7). split; auto. split; [rewrite set_nth_length; exact D2|]. split; auto.
             assert (Hc' : sl_len (c_slice d) <= length (arr (set_nth (sl_arr (c_slice c)) A' (r_heap g)) (sl_arr (c_slice d)))).
             { rewrite Harr. destruct (Nat.eqb_spec (sl_arr (c_slice d)) (sl_arr (c_slice c))) as [E|E]; [|exact D4]. rewrite HA'. unfold A. rewrite <- E. exact D4. }
             split; [exact Hc'|]. split; auto.
             unfold view. rewrite Harr. destruct (Nat.eqb_spec (sl_arr (c_slice d)) (sl_arr (c_slice c))) as [E|E]; [|exact D5].
             pose proof (V5 j i d c Hj Hi Ej E) as Hb. apply (Hother _ (brules ++ concat (c_parts d))); auto; [|congruence]. unfold A. rewrite <- E. exact D5.
        * intros j k d e. unfold upd_conn. destruct (Nat.eqb_spec j i) as [->|Ej], (Nat.eqb_spec k i) as [->|Ek]; intros H1 H2 H3 H4; try congruence.
          -- injection H1 as <-. cbn [c_slice sl_arr] in *. eapply (V5 i k c e); eauto.
          -- injection H2 as <-. cbn [c_slice sl_arr] in *. eapply (V5 j i d c); eauto.
          -- eapply V5; eauto.
      + (* a new array *)
        apply (f_equal fst) in Hap as Hh. apply (f_equal snd) in Hap as Hs. cbn [fst snd] in Hh, Hs. subst h s.
        set (N := view _ _ ++ _ ++ _).
        assert (HN : firstn (sl_len (c_slice c) + length rs) N = map Some (brules ++ concat (c_parts c ++ [rs]))).
        { unfold N. rewrite Hcc, (app_assoc brules), C5, app_assoc, <- map_app.
          assert (L : length (map Some ((brules ++ concat (c_parts c)) ++ rs)) = sl_len (c_slice c) + length rs) by (rewrite map_length, app_length; lia).
          rewrite firstn_app, L, Nat.sub_diag, firstn_O, app_nil_r, <- L. apply firstn_all. }
        assert (HNl : sl_len (c_slice c) + length rs <= length N).
        { apply (f_equal (@length _)) in HN. rewrite firstn_length, map_length, <- Hl' in HN. lia. }
        assert (Hat : arr (r_heap g ++ [N]) (length (r_heap g)) = N) by (unfold arr; rewrite app_nth2, Nat.sub_diag; auto).
        split; cbn [r_heap r_conn].
        * rewrite app_length. lia.
        * rewrite arr_app by lia. exact V2.
        * unfold view. rewrite arr_app by lia. exact V3.
        * intros j d. unfold upd_conn. destruct (Nat.eqb_spec j i) as [->|Ej].
          -- intros HX. injection HX as <-. cbn [c_parts c_slice sl_arr sl_len]. split; auto. split; [rewrite app_length; cbn; lia|]. split; auto.
             split; [unfold cap; cbn [sl_arr]; rewrite Hat; exact HNl|].
             split; [unfold view; cbn [sl_arr sl_len]; rewrite Hat; exact HN|]. split; [intros HX; exfalso; lia|intros _; exact V1].
          -- intros Hj. destruct (V4 j d Hj) as (D1 & D2 & D3 & D4 & D5 & D6 & D7). split; auto. split; [rewrite app_length; lia|]. split; auto.
             split; [unfold cap; rewrite arr_app by auto; exact D4|]. split; [unfold view; rewrite arr_app by auto; exact D5|]. auto.
        * intros j k d e. unfold upd_conn. destruct (Nat.eqb_spec j i) as [->|Ej], (Nat.eqb_spec k i) as [->|Ek]; intros H1 H2 H3 H4; try congruence.
          -- injection H1 as <-. cbn [c_slice sl_arr] in *. destruct (V4 k e H2) as (_ & D2 & _). lia.
          -- injection H2 as <-. cbn [c_slice sl_arr] in *. destruct (V4 j d H1) as (_ & D2 & _). lia.
          -- eapply V5; eauto.
    - (* fail *)
      split; cbn [r_heap r_conn]; auto.
      + intros j d. unfold upd_conn. destruct (Nat.eqb_spec j i) as [->|E]; [|apply V4]. intros HX. injection HX as <-. cbn [c_parts c_slice]. apply (V4 i c Hi).
      + intros j k d e. unfold upd_conn. destruct (Nat.eqb_spec j i) as [->|Ej], (Nat.eqb_spec k i) as [->|Ek]; intros H1 H2 H3 H4; try congruence.
        * injection H1 as <-. cbn [c_slice] in *. eapply (V5 i k c e); eauto.
        * injection H2 as <-. cbn [c_slice] in *. eapply (V5 j i d c); eauto.
        * eapply V5; eauto.
  Qed.

  Lemma runs_inv g : rruns grow h0 base nfiles allowed g -> Inv g.
  Proof.
    induction 1 as [|g g' _ IH HS]; [|eapply inv_step; eauto]. split; cbn; auto; intros; discriminate.
  Qed.
  Lemma runs_right g : rruns grow h0 base nfiles allowed g -> Right nfiles brules g.
  Proof. intros H i c Hi _ _. apply runs_inv in H. apply (iv_conn g H i c Hi). Qed.
End Safe.

(** baserules as Parse makes it (rparse.go:661-690): the rules appended one by
    one to a nil slice.  (Rules of an included file would be appended together;
    the options make no includes if they name ordinary files.) *)
Definition built (grow : nat -> nat -> nat) (rs : list rule) : heap * slice :=
  fold_left (fun hs r => append grow (fst hs) (snd hs) [r]) rs ([[]], mkSlice 0 0).

Lemma append_ok grow h s xs rs h' s' : append grow h s xs = (h', s') ->
  sl_arr s < length h -> sl_len s <= cap h s -> view h s = map Some rs -> sl_len s = length rs ->
  sl_arr s' < length h' /\ sl_len s' <= cap h' s' /\ view h' s' = map Some (rs ++ xs) /\ sl_len s' = length (rs ++ xs).
Proof.
  intros HA H1 H2 H3 H4. unfold append in HA. cbv zeta in HA.
  assert (L : length (map Some (rs ++ xs)) = sl_len s + length xs) by (rewrite map_length, app_length; lia).
  destruct (Nat.leb_spec (sl_len s + length xs) (cap h s)) as [Hfit|Hfit]; apply (f_equal fst) in HA as Hh; apply (f_equal snd) in HA as Hs; cbn [fst snd] in Hh, Hs; subst h' s'; cbn [sl_arr sl_len].
  - unfold cap, view, arr. cbn [sl_arr sl_len]. rewrite set_nth_length, nth_set_nth, Nat.eqb_refl by auto. fold (arr h (sl_arr s)).
    split; auto. rewrite overwrite_length by (rewrite map_length; exact Hfit). split; [exact Hfit|]. split; [|now rewrite <- L, map_length].
    unfold overwrite. fold (view h s). rewrite H3, app_assoc, <- map_app, firstn_app, L, Nat.sub_diag, firstn_O, app_nil_r, <- L. apply firstn_all.
  - unfold cap, view, arr. cbn [sl_arr sl_len]. rewrite app_length, app_nth2, Nat.sub_diag by auto. cbn [nth length]. fold (arr h (sl_arr s)). fold (view h s).
    rewrite H3, app_assoc, <- map_app. split; [lia|]. split; [rewrite app_length, L; lia|]. split; [|now rewrite <- L, map_length].
    rewrite firstn_app, L, Nat.sub_diag, firstn_O, app_nil_r, <- L. apply firstn_all.
Qed.
Lemma built_ok grow rs : let (h, s) := built grow rs in
  sl_arr s < length h /\ sl_len s <= cap h s /\ view h s = map Some rs /\ sl_len s = length rs.
Proof.
  unfold built. assert (G : forall rs done hs, sl_arr (snd hs) < length (fst hs) /\ sl_len (snd hs) <= cap (fst hs) (snd hs) /\ view (fst hs) (snd hs) = map Some done /\ sl_len (snd hs) = length done ->
    let (h, s) := fold_left (fun hs r => append grow (fst hs) (snd hs) [r]) rs hs in
    sl_arr s < length h /\ sl_len s <= cap h s /\ view h s = map Some (done ++ rs) /\ sl_len s = length (done ++ rs)).
  { clear rs. induction rs as [|r rs IH]; intros done [h s] (A1 & A2 & A3 & A4); cbn [fold_left]; [rewrite app_nil_r; auto|].
    cbn [fst snd] in *. destruct (append grow h s [r]) as [h' s'] eqn:Ea. apply (append_ok _ _ _ _ done) in Ea as (B1 & B2 & B3 & B4); auto.
    specialize (IH (done ++ [r]) (h', s')). rewrite <- app_assoc in IH. cbn [app] in IH. apply IH. cbn [fst snd]. auto. }
  apply (G rs [] ([[]], mkSlice 0 0)). cbn. repeat split; auto.
Qed.

Lemma upto_app l m : upto l (l ++ m).
Proof. unfold upto. rewrite firstn_app, Nat.sub_diag, firstn_O, app_nil_r. apply firstn_all. Qed.

Section Theorems.
  Variable grow : nat -> nat -> nat.
  Variable brules : list rule.
  Variable nfiles : nat.
  Let h0 := fst (built grow brules).
  Let base := snd (built grow brules).

  (** If the array of the base rules is full, the rules of every connection are
      the base rules and what it loaded, under every interleaving of connections
      and whatever the files contain at any time. *)
  Theorem C59_full_base g : cap h0 base = length brules -> rruns grow h0 base nfiles (fun _ _ => True) g -> Right nfiles brules g.
  Proof.
    intros Hc. pose proof (built_ok grow brules) as Hb. unfold h0, base in *. clear h0 base. destruct (built grow brules) as [h s]. cbn [fst snd] in *.
    destruct Hb as (B1 & B2 & B3 & B4). apply (runs_right grow h s nfiles _ brules B3 B4 B1 B2 (map Some brules)).
    - apply firstn_all.
    - intros ps rs _ Hu Hl. rewrite !app_length in Hl. assert (E1 : concat ps = []) by (apply length_zero_iff_nil; lia). assert (E2 : rs = []) by (apply length_zero_iff_nil; lia).
      rewrite E1, E2, app_nil_r. apply firstn_all.
  Qed.

  (** If the files do not change (the k-th always loads as [nth k parts], or
      fails), they are too. *)
  Theorem C59_unchanged_files parts g : rruns grow h0 base nfiles (fun k rs => nth_error parts k = Some rs) g -> Right nfiles brules g.
  Proof.
    pose proof (built_ok grow brules) as Hb. unfold h0, base in *. clear h0 base. destruct (built grow brules) as [h s]. cbn [fst snd] in *.
    destruct Hb as (B1 & B2 & B3 & B4). apply (runs_right grow h s nfiles _ brules B3 B4 B1 B2 (map Some (brules ++ concat parts))).
    - unfold upto. rewrite map_app, firstn_app, Nat.sub_diag, firstn_O, app_nil_r. apply firstn_all.
    - intros ps rs Hch _ _. assert (Hp : exists more, parts = (ps ++ [rs]) ++ more).
      { clear -Hch. unfold chosen in Hch. revert Hch. generalize (ps ++ [rs]) as l. clear. intros l. revert parts. induction l as [|x l IH]; intros parts H; [exists parts; reflexivity|].
        pose proof (H 0 x eq_refl) as H0. destruct parts as [|y parts]; [discriminate H0|]. cbn in H0. injection H0 as ->.
        destruct (IH parts) as (more & ->); [intros k r Hk; apply (H (S k) r Hk)|]. exists more. reflexivity. }
      destruct Hp as (more & ->). rewrite !concat_app. cbn [concat]. rewrite app_nil_r.
      replace (brules ++ (concat ps ++ rs) ++ concat more) with ((brules ++ concat ps ++ rs) ++ concat more) by (rewrite <- !app_assoc; reflexivity).
      rewrite (map_app Some _ (concat more)). apply upto_app.
  Qed.
End Theorems.

(** ** When it is wrong *)

(** Go for short slices: the length doubles, or is what is needed if that is more. *)
Definition go_grow (c n : nat) : nat := Nat.max n (2 * c).

(** The three standard rules are in an array of length four. *)
Lemma std_spare : cap (fst (built go_grow std_rules)) (snd (built go_grow std_rules)) = 4.
Proof. reflexivity. Qed.
(** With -M there are four rules and no room. *)
Lemma std_M_full : let rs := documented (mkRuleOpts true true [] [] []) in cap (fst (built go_grow rs)) (snd (built go_grow rs)) = length rs.
Proof. reflexivity. Qed.

(** two contents of a rule file *)
Definition strict : list rule := [mkRule [mkClause (EMatch MFrom (B "evil@x.y")) []] aReject pMfrom pAny].
Definition lax : list rule := [mkRule [mkClause EAll []] aAccept pAny pAny].
Lemma strict_text : parse 5 nofs (B "reject from evil@x.y
") = PRules strict.
Proof. vm_compute. reflexivity. Qed.
Lemma lax_text : parse 5 nofs (B "accept all
") = PRules lax.
Proof. vm_compute. reflexivity. Qed.

(** A connection is started with the standard rules and one rule file; then the
    file is changed and another connection is started.  The first connection's
    rules are now those of the changed file. *)
Theorem C59_refuted : exists g c, let hs := built go_grow (documented (mkRuleOpts true false [] [] [])) in
  rruns go_grow (fst hs) (snd hs) 1 (fun _ rs => rs = strict \/ rs = lax) g /\
  r_conn g 0 = Some c /\ c_parts c = [strict] /\ c_failed c = false /\
  view (r_heap g) (c_slice c) = map Some (std_rules ++ lax) /\
  ~ Right 1 (documented (mkRuleOpts true false [] [] [])) g.
Proof.
  eexists. eexists. cbv zeta. split; [|split; [|split; [|split; [|split]]]].
  - eapply Rr_step; [eapply Rr_step; [eapply Rr_step; [eapply Rr_step; [apply Rr_start|]|]|]|].
    + apply (RBegin _ _ _ _ _ 0). reflexivity.
    + eapply (RLoad _ _ _ _ _ 0 _ strict); [reflexivity|reflexivity|cbn; lia|auto|reflexivity].
    + apply (RBegin _ _ _ _ _ 1). reflexivity.
    + eapply (RLoad _ _ _ _ _ 1 _ lax); [reflexivity|reflexivity|cbn; lia|auto|reflexivity].
  - reflexivity.
  - reflexivity.
  - reflexivity.
  - vm_compute. reflexivity.
  - intros HR. specialize (HR 0 _ eq_refl eq_refl eq_refl). vm_compute in HR. discriminate HR.
Qed.

(** the same with -M: every connection has its own rules *)
Example C59_example : exists g c, let rs := documented (mkRuleOpts true true [] [] []) in let hs := built go_grow rs in
  cap (fst hs) (snd hs) = length rs /\ rruns go_grow (fst hs) (snd hs) 1 (fun _ _ => True) g /\
  r_conn g 0 = Some c /\ c_parts c = [strict] /\ view (r_heap g) (c_slice c) = map Some (rs ++ strict).
Proof.
  eexists. eexists. cbv zeta. split; [reflexivity|]. split; [|split; [|split]].
  - eapply Rr_step; [eapply Rr_step; [eapply Rr_step; [eapply Rr_step; [apply Rr_start|]|]|]|].
    + apply (RBegin _ _ _ _ _ 0). reflexivity.
    + eapply (RLoad _ _ _ _ _ 0 _ strict); [reflexivity|reflexivity|cbn; lia|auto|reflexivity].
    + apply (RBegin _ _ _ _ _ 1). reflexivity.
    + eapply (RLoad _ _ _ _ _ 1 _ lax); [reflexivity|reflexivity|cbn; lia|auto|reflexivity].
  - reflexivity.
  - reflexivity.
  - vm_compute. reflexivity.
Qed.
