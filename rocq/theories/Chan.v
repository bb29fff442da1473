(** C62: the lexer goroutine, the parser and the channel between them
    (/repo/rlex.go:305-371, /repo/rparse.go:699-711). *)
From Coq Require Import Lia.
From Verif Require Import Bytes Outcome Lexer LexSpec LexProofs Ast GoNet Parser PropsLex PropsParse.

(** ** Readers *)

(** A program that receives items, as the parser does: it is done with a result,
    or it receives an item and goes on in a way that may depend on it. *)
Inductive reader (R : Type) := Done (r : R) | Recv (k : item -> reader R).
Arguments Done {R} r.
Arguments Recv {R} k.

(** What Go receives from a closed channel. *)
Definition zero : item := mkItem itemError [] 0.

(** A reader run by itself on the items of a channel that is then closed: its
    result and the items it has not received. *)
Fixpoint read {R} (p : reader R) (ts : list item) : R * list item :=
  match p with
  | Done r => (r, ts)
  | Recv k => match ts with
              | i :: ts' => read (k i) ts'
              | [] => read (k zero) []
              end
  end.

(** ** The two goroutines *)

(** rlex.go:325-330.  The lexer goroutine: the state function it runs next and
    the lexer after the ones before, which has [sent] items sent and waits to
    send the others; or it has closed the channel and ended.  (A state function
    that goes on after sending is taken to have done so already; it looks at
    nothing the parser could change.) *)
Inductive lexing := LRun (st : option lexfn) (l : lexer) (sent : nat) | LEnded.
(** rparse.go:705-710.  Parse: in pFile, in drain, or returned. *)
Inductive parsing (R : Type) := PRun (p : reader R) | PDrain (r : R) | PReturned (r : R).
Arguments PRun {R} p.
Arguments PDrain {R} r.
Arguments PReturned {R} r.

(** [y_got] is what the parser received and [y_dropped] what drain threw away. *)
Record system (R : Type) := mkSystem { y_lex : lexing; y_parse : parsing R; y_got : list item; y_dropped : list item }.
Arguments mkSystem {R}.
Arguments y_lex {R}.
Arguments y_parse {R}.
Arguments y_got {R}.
Arguments y_dropped {R}.

Section System.
  Context {R : Type}.

  (** The channel is unbuffered (rlex.go:367): sending and receiving happen
      together. *)
  Inductive move : system R -> system R -> Prop :=
  | M_lex f l sent st' l' q g d : length (l_items l) = sent -> lexstep f l = Ok (st', l') ->
      move (mkSystem (LRun (Some f) l sent) q g d) (mkSystem (LRun st' l' sent) q g d)
  | M_close l sent q g d : length (l_items l) = sent ->
      move (mkSystem (LRun None l sent) q g d) (mkSystem LEnded q g d)
  | M_pass st l sent i k g d : nth_error (l_items l) sent = Some i ->
      move (mkSystem (LRun st l sent) (PRun (Recv k)) g d) (mkSystem (LRun st l (S sent)) (PRun (k i)) (g ++ [i]) d)
  | M_closed k g d :
      move (mkSystem LEnded (PRun (Recv k)) g d) (mkSystem LEnded (PRun (k zero)) g d)
  | M_done x r g d :
      move (mkSystem x (PRun (Done r)) g d) (mkSystem x (PDrain r) g d)
  | M_drop st l sent i r g d : nth_error (l_items l) sent = Some i ->
      move (mkSystem (LRun st l sent) (PDrain r) g d) (mkSystem (LRun st l (S sent)) (PDrain r) g (d ++ [i]))
  | M_return r g d :
      move (mkSystem LEnded (PDrain r) g d) (mkSystem LEnded (PReturned r) g d).

  (** rlex.go:364-371, rparse.go:699-705 *)
  Definition start (input : bytes) (p : reader R) : system R :=
    mkSystem (LRun (Some FLineStart) (lex_init input) 0) (PRun p) [] [].

  Inductive moves (input : bytes) (p : reader R) : system R -> Prop :=
  | Ms_start : moves input p (start input p)
  | Ms_move y y' : moves input p y -> move y y' -> moves input p y'.

  (** The lexer, [n] state functions before its end. *)
  Definition lex_ok (ts : list item) (n : nat) (x : lexing) (passed : list item) : Prop :=
    match x with
    | LRun st l sent => (exists lf, run n st l = Ok lf /\ l_items lf = ts) /\ sent <= length (l_items l) /\
        (exists more, ts = l_items l ++ more) /\ passed = firstn sent (l_items l)
    | LEnded => passed = ts
    end.

  Definition from_parse (p0 : reader R) (q : parsing R) (got dropped ts : list item) : Prop :=
    match q with
    | PRun p => read p0 ts = read p (skipn (length got) ts) /\ dropped = []
    | PDrain r | PReturned r => fst (read p0 ts) = r
    end.

  Lemma lexstep_items f l st' l' : lexstep f l = Ok (st', l') -> exists new, l_items l' = l_items l ++ new.
  Proof.
    assert (Hn : forall l, l_items (snd (next l)) = l_items l) by (intros x; unfold next; destruct (nth_error _ _); reflexivity).
    assert (Hp : forall l, l_items (snd (peek l)) = l_items l) by (intros x; unfold peek; destruct (next x) as [r x'] eqn:E; cbn; specialize (Hn x); rewrite E in Hn; exact Hn).
    assert (He : forall t l l', emit t l = Ok l' -> exists new, l_items l' = l_items l ++ new).
    { intros t x x' H. unfold emit in H. destruct (slice _ _ _); cbn in H; try discriminate H. injection H as <-. cbn. eauto. }
    assert (Hw : forall l l', skipWhitespace l = Ok l' -> l_items l' = l_items l).
    { intros x x'. unfold skipWhitespace. generalize (S (length (l_input x))) as n. intros n. revert x x'. induction n as [|n IH]; intros x x' H; [discriminate H|].
      cbn [skipWhitespace_loop] in H. destruct (next x) as [r x1] eqn:E. specialize (Hn x). rewrite E in Hn. cbn [snd] in Hn.
      destruct (is_blank r); [apply IH in H; congruence|]. injection H as <-. exact Hn. }
    destruct f; cbn [lexstep]; intros H.
    - unfold lexLineStart in H. destruct (skipWhitespace l) as [l1| |] eqn:E1; cbn [obind] in H; try discriminate H. apply Hw in E1.
      destruct (peek l1) as [r l2] eqn:E2. specialize (Hp l1). rewrite E2 in Hp. cbn [snd] in Hp. exists []. rewrite app_nil_r, <- E1, <- Hp.
      destruct r as [c|]; [|injection H as _ <-; reflexivity].
      destruct (_ && _) in H; [injection H as _ <-; reflexivity|]. destruct (Ascii.eqb c ch_quote); [injection H as _ <-; reflexivity|].
      destruct (Ascii.eqb c "#"); [injection H as _ <-; apply Hn|].
      destruct (Ascii.eqb c ch_bslash).
      + destruct (slice_from _ _) as [s| |]; cbn [obind] in H; try discriminate H. destruct (has_prefix _ _); injection H as _ <-; reflexivity.
      + destruct (Ascii.eqb c ch_nl); injection H as _ <-; [apply Hn|reflexivity].
    - unfold lexLineRunning in H. destruct (skipWhitespace l) as [l1| |] eqn:E1; cbn [obind] in H; try discriminate H. apply Hw in E1.
      destruct (peek l1) as [r l2] eqn:E2. specialize (Hp l1). rewrite E2 in Hp. cbn [snd] in Hp. exists []. rewrite app_nil_r, <- E1, <- Hp.
      match type of H with obind ?m _ = _ => destruct m as [cont| |] end; cbn [obind] in H; try discriminate H.
      destruct cont; [injection H as _ <-; reflexivity|]. destruct (negb _) in H; [injection H as _ <-; reflexivity|].
      destruct r as [c|]; [destruct (Ascii.eqb c ch_quote)|]; injection H as _ <-; reflexivity.
    - unfold lexSpecial in H. destruct (next l) as [r l1] eqn:E1. specialize (Hn l). rewrite E1 in Hn. cbn [snd] in Hn.
      destruct (emit _ _) as [l2| |] eqn:E2; cbn [obind] in H; try discriminate H. apply He in E2 as (new & E2). rewrite Hn in E2.
      destruct (peek l2) as [n l3] eqn:E3. specialize (Hp l2). rewrite E3 in Hp. cbn [snd] in Hp.
      destruct r as [c|]; [|injection H as _ <-; exists new; congruence].
      destruct (Ascii.eqb c ch_nl); [injection H as _ <-; exists new; congruence|].
      destruct (Ascii.eqb c ","); [|injection H as _ <-; exists new; congruence].
      destruct (_ || _) in H; injection H as _ <-; [|exists new; congruence].
      cbn. rewrite Hp, E2. eexists. rewrite <- app_assoc. reflexivity.
    - unfold lexWord in H. destruct (slice_from _ _) as [s| |]; cbn [obind] in H; try discriminate H. cbv zeta in H.
      set (l1 := set_pos _ l) in H. assert (E1 : l_items l1 = l_items l) by reflexivity. clearbody l1. rewrite <- E1. clear E1.
      destruct (slice _ _ _) as [v| |]; cbn [obind] in H; try discriminate H.
      destruct (negb _) in H.
      + destruct (emit _ _) as [l2| |] eqn:E2; cbn [obind] in H; try discriminate H. injection H as _ <-. eapply He; eauto.
      + destruct (of_option _) as [c0| |]; cbn [obind] in H; try discriminate H. destruct (_ || _) in H.
        * destruct (emit _ _) as [l2| |] eqn:E2; cbn [obind] in H; try discriminate H. injection H as _ <-. eapply He; eauto.
        * destruct (has_prefix _ _); [destruct (Nat.leb _ _)|].
          -- injection H as _ <-. cbn. eauto.
          -- destruct (emit _ _) as [l2| |] eqn:E2; cbn [obind] in H; try discriminate H. injection H as _ <-. eapply He; eauto.
          -- destruct (emit _ _) as [l2| |] eqn:E2; cbn [obind] in H; try discriminate H. injection H as _ <-. eapply He; eauto.
    - unfold lexQuote in H. destruct (next l) as [r l1] eqn:E1. specialize (Hn l). rewrite E1 in Hn. cbn [snd] in Hn. rewrite <- Hn. clear -H.
      revert H. generalize (S (length (l_input l1))) (@nil bytes) (l_pos l1). intros n. revert l1. induction n as [|n IH]; intros l qp la H; [discriminate H|].
      cbn [lexQuote_loop] in H. destruct (Nat.leb _ _); [injection H as _ <-; cbn; eauto|].
      destruct (slice_from _ _) as [s| |]; cbn [obind] in H; try discriminate H.
      destruct (index_any _ _) as [idx|]; [|injection H as _ <-; cbn; eauto]. cbv zeta in H.
      destruct (of_option _) as [c| |]; cbn [obind] in H; try discriminate H. destruct (Ascii.eqb c ch_quote).
      + destruct (slice _ _ _) as [p| |]; cbn [obind] in H; try discriminate H. injection H as _ <-. cbn. eauto.
      + destruct (slice_from _ _) as [t| |]; cbn [obind] in H; try discriminate H. destruct (negb _) in H; [apply IH in H; exact H|].
        destruct (slice _ _ _) as [p1| |]; cbn [obind] in H; try discriminate H. destruct (slice _ _ _) as [p2| |]; cbn [obind] in H; try discriminate H.
        apply IH in H. exact H.
    - unfold lexComment in H. destruct (slice_from _ _) as [s| |]; cbn [obind] in H; try discriminate H. injection H as _ <-. exists []. cbn. now rewrite app_nil_r.
  Qed.
  Lemma run_items n : forall st l lf, run n st l = Ok lf -> exists more, l_items lf = l_items l ++ more.
  Proof.
    induction n as [|n IH]; intros [f|] l lf H; cbn [run] in H; try discriminate H; try (injection H as <-; exists []; now rewrite app_nil_r).
    destruct (lexstep f l) as [[st' l']| |] eqn:E; cbn [obind] in H; try discriminate H. cbn [fst snd] in H.
    apply lexstep_items in E as (new & E). apply IH in H as (more & ->). rewrite E, <- app_assoc. eauto.
  Qed.

  (** ** Every schedule *)

  Definition sound (input : bytes) (p0 : reader R) (n : nat) (y : system R) : Prop :=
    lex_ok (tokens input) n (y_lex y) (y_got y ++ y_dropped y) /\
    from_parse p0 (y_parse y) (y_got y) (y_dropped y) (tokens input) /\
    (forall r, y_parse y = PReturned r -> y_lex y = LEnded).

  Lemma firstn_next {A} (l : list A) n x : nth_error l n = Some x -> firstn (S n) l = firstn n l ++ [x].
  Proof.
    revert n. induction l as [|y l IH]; intros [|n] H; cbn in H; try discriminate H.
    - injection H as ->. reflexivity.
    - cbn [firstn app]. f_equal. now apply IH.
  Qed.
  Lemma skipn_next {A} (l : list A) n x : nth_error l n = Some x -> skipn n l = x :: skipn (S n) l.
  Proof.
    revert n. induction l as [|y l IH]; intros [|n] H; cbn in H; try discriminate H.
    - injection H as ->. reflexivity.
    - cbn [skipn]. now apply IH.
  Qed.

  Definition left_to_do (ts : list item) (n : nat) (x : lexing) : nat :=
    match x with LRun _ _ sent => S (n + (length ts - sent)) | LEnded => 0 end.
  (** the parser alone went on *)
  Inductive goes_on : parsing R -> parsing R -> Prop :=
  | Go_recv k i : goes_on (PRun (k i)) (PRun (Recv k))
  | Go_done r : goes_on (PDrain r) (PRun (Done r))
  | Go_ret r : goes_on (PReturned r) (PDrain r).

  (** A move leaves the lexer less to do, or only the parser goes on. *)
  Lemma move_sound input p0 n y y' : sound input p0 n y -> move y y' -> exists n', sound input p0 n' y' /\
    (left_to_do (tokens input) n' (y_lex y') < left_to_do (tokens input) n (y_lex y) \/
     (left_to_do (tokens input) n' (y_lex y') = left_to_do (tokens input) n (y_lex y) /\ goes_on (y_parse y') (y_parse y))).
  Proof.
    assert (Hlt : forall sent (l : lexer) i more, nth_error (l_items l) sent = Some i -> tokens input = l_items l ++ more -> sent < length (tokens input)).
    { intros sent l i more Hi Hm. rewrite Hm, app_length. assert (sent < length (l_items l)) by (apply nth_error_Some; congruence). lia. }
    intros (HL & HP & HR) HM. destruct HM as [f l sent st' l' q g d Hs Hst|l sent q g d Hs|st l sent i k g d Hi|k g d|x r g d|st l sent i r g d Hi|r g d];
      cbn [y_lex y_parse y_got y_dropped] in *.
    - destruct HL as ((lf & Hrun & Hlf) & _ & _ & Hp). destruct n as [|n]; [discriminate Hrun|]. exists n.
      rewrite (run_step n f l st' l' Hst) in Hrun. split; [|left; cbn [left_to_do]; lia].
      split; [|split; [exact HP|intros r Hr; specialize (HR r Hr); discriminate HR]].
      cbn [y_lex y_got y_dropped lex_ok]. split; [eauto|]. pose proof (lexstep_items _ _ _ _ Hst) as (new & Hnew). pose proof (run_items _ _ _ _ Hrun) as (more & Hmore).
      split; [rewrite Hnew, app_length; lia|]. split; [exists more; congruence|]. rewrite Hnew, firstn_app, <- Hs, Nat.sub_diag, firstn_O, app_nil_r.
      rewrite Hp, <- Hs. reflexivity.
    - destruct HL as ((lf & Hrun & Hlf) & _ & _ & Hp). rewrite run_none in Hrun. injection Hrun as ->. exists 0. split; [|left; cbn [left_to_do]; lia].
      split; [|split; [exact HP|reflexivity]]. cbn [y_lex y_got y_dropped lex_ok]. rewrite Hp, <- Hs, firstn_all. exact Hlf.
    - destruct HL as (Hrun & Hs & (more & Hmore) & Hp). destruct HP as [HP ->]. rewrite app_nil_r in *. exists n.
      pose proof (Hlt _ _ _ _ Hi Hmore) as Hl. split; [|left; cbn [left_to_do]; lia]. split; [|split].
      + cbn [y_lex y_got y_dropped lex_ok]. rewrite app_nil_r. split; auto. split; [apply nth_error_Some; congruence|]. split; [eauto|]. rewrite (firstn_next _ _ _ Hi), Hp. reflexivity.
      + cbn [y_parse y_got y_dropped from_parse]. split; auto. rewrite HP. assert (Hlen : length g = sent) by (rewrite Hp, firstn_length; lia).
        rewrite app_length, Nat.add_1_r, Hlen. rewrite (skipn_next (tokens input) sent i); [reflexivity|]. rewrite Hmore, nth_error_app1; auto. apply nth_error_Some. congruence.
      + discriminate.
    - destruct HP as [HP ->]. rewrite app_nil_r in *. exists n. cbn in HL. split; [|right; split; [reflexivity|constructor]].
      split; [cbn; now rewrite app_nil_r|]. split; [|reflexivity].
      cbn [y_parse y_got y_dropped from_parse]. split; auto. rewrite HP, HL, skipn_all. reflexivity.
    - destruct HP as [HP ->]. exists n. split; [|right; split; [reflexivity|constructor]]. split; [exact HL|]. split; [|discriminate]. cbn [y_parse from_parse]. rewrite HP. reflexivity.
    - destruct HL as (Hrun & Hs & (more & Hmore) & Hp). exists n.
      pose proof (Hlt _ _ _ _ Hi Hmore) as Hl. split; [|left; cbn [left_to_do]; lia]. split; [|split; [exact HP|discriminate]].
      cbn [y_lex y_got y_dropped lex_ok]. split; auto. split; [apply nth_error_Some; congruence|]. split; [eauto|]. rewrite (firstn_next _ _ _ Hi), app_assoc, Hp. reflexivity.
    - exists n. split; [|right; split; [reflexivity|constructor]]. split; [exact HL|]. split; [exact HP|reflexivity].
  Qed.

  Lemma start_sound input p0 : exists n, sound input p0 n (start input p0).
  Proof.
    pose proof (tokens_ok input) as H. unfold lex in H. destruct (run (lex_fuel input) (Some FLineStart) (lex_init input)) as [lf| |] eqn:E; cbn [obind] in H; try discriminate H.
    injection H as H. exists (lex_fuel input). split; [|split; [|discriminate]].
    - cbn [start y_lex y_got y_dropped lex_ok]. split; [eauto|]. split; [cbn; lia|]. split; [exists (tokens input); reflexivity|reflexivity].
    - cbn. split; reflexivity.
  Qed.
  Lemma moves_sound input p0 y : moves input p0 y -> exists n, sound input p0 n y.
  Proof. induction 1 as [|y y' _ (n & IH) HM]; [apply start_sound|]. destruct (move_sound _ _ _ _ _ IH HM) as (n' & HS & _). eauto. Qed.

  (** When Parse returns, the lexer goroutine has ended; the items the parser
      received and those that were thrown away are together the tokens of the
      text, in order; and the result is that of the parser by itself on them. *)
  Theorem C62_outcome input p y r : moves input p y -> y_parse y = PReturned r ->
    y_lex y = LEnded /\ y_got y ++ y_dropped y = tokens input /\ r = fst (read p (tokens input)).
  Proof.
    intros HM Hr. apply moves_sound in HM as (n & HL & HP & HR). pose proof (HR r Hr) as Hl. split; auto. rewrite Hl in HL. rewrite Hr in HP. split; [exact HL|]. symmetry. exact HP.
  Qed.

  (** No deadlock: until Parse has returned something can move. *)
  Theorem C62_no_deadlock input p y : moves input p y -> (exists r, y_parse y = PReturned r) \/ exists y', move y y'.
  Proof.
    intros HM. apply moves_sound in HM as (n & HL & _ & _). destruct y as [x q g d]; cbn [y_lex y_parse y_got y_dropped] in *.
    assert (HX : (exists y', move (mkSystem x q g d) y') \/ x = LEnded \/ exists st l sent i, x = LRun st l sent /\ nth_error (l_items l) sent = Some i).
    { destruct x as [st l sent|]; [|auto]. destruct HL as ((lf & Hrun & _) & Hs & _ & _). destruct (nth_error (l_items l) sent) as [i|] eqn:Ei; [right; right; exists st, l, sent, i; auto|].
      apply nth_error_None in Ei. left. assert (Hlen : length (l_items l) = sent) by lia. destruct st as [f|].
      - destruct n as [|n]; [discriminate Hrun|]. cbn [run] in Hrun. destruct (lexstep f l) as [[st' l']| |] eqn:E; try discriminate Hrun. eexists. eapply M_lex; eauto.
      - eexists. apply M_close. auto. }
    destruct q as [[r|k]|r|r]; [right; eexists; apply M_done| | |left; eauto].
    - right. destruct HX as [HX|[->|(st & l & sent & i & -> & Hi)]]; auto; eexists; [apply M_closed|apply M_pass; eauto].
    - right. destruct HX as [HX|[->|(st & l & sent & i & -> & Hi)]]; auto; eexists; [apply M_return|apply M_drop; eauto].
  Qed.

  Lemma goes_on_wf q : Acc goes_on q.
  Proof.
    assert (H1 : forall r, Acc goes_on (PReturned r)) by (intros r; constructor; intros q' H; inversion H).
    assert (H2 : forall r, Acc goes_on (PDrain r)) by (intros r; constructor; intros q' H; inversion H; subst; auto).
    destruct q as [p|r|r]; auto. induction p as [r|k IH]; constructor; intros q' H; inversion H; subst; auto.
  Qed.

  (** No schedule goes on for ever. *)
  Theorem C62_terminates input p y : moves input p y -> Acc (fun a b => move b a) y.
  Proof.
    intros HM. apply moves_sound in HM as (n & HS). remember (left_to_do (tokens input) n (y_lex y)) as m eqn:Em. revert n y Em HS.
    induction m as [m IHm] using (well_founded_induction lt_wf). intros n y Em HS.
    remember (y_parse y) as q eqn:Eq. revert n y Em HS Eq. induction (goes_on_wf q) as [q _ IHq]. intros n y -> HS ->.
    constructor. intros y' HM. destruct (move_sound _ _ _ _ _ HS HM) as (n' & HS' & [Hlt|[Heq Hgo]]).
    - eapply IHm; eauto.
    - eapply IHq; eauto.
  Qed.
End System.

(** ** Parse *)

(** The parser's result depends on the tokens alone, so it is that of a reader;
    here one that receives all items up to the last and then computes.  (The
    theorems above hold for every reader, so for the one that receives an item
    whenever Go's parser does, too.) *)
Fixpoint upto_last {R} (f : list item -> R) (n : nat) (got : list item) : reader R :=
  match n with
  | 0 => Done (f got)
  | S n => Recv (fun i => if ieqb (i_typ i) itemEOF || ieqb (i_typ i) itemError then Done (f (got ++ [i])) else upto_last f n (got ++ [i]))
  end.

Lemma upto_last_read {R} (f : list item -> R) ts last : (forall i, In i ts -> i_typ i <> itemEOF /\ i_typ i <> itemError) -> (i_typ last = itemEOF \/ i_typ last = itemError) ->
  forall n got, length ts < n -> read (upto_last f n got) (ts ++ [last]) = (f (got ++ ts ++ [last]), []).
Proof.
  intros Hts Hl. induction ts as [|i ts IH]; intros n got Hn; destruct n as [|n]; cbn in Hn; try lia; cbn [upto_last app read].
  - destruct (ieqb_spec (i_typ last) itemEOF), (ieqb_spec (i_typ last) itemError); cbn [orb]; try reflexivity. destruct Hl; contradiction.
  - destruct (Hts i (or_introl eq_refl)) as [H1 H2].
    destruct (ieqb_spec (i_typ i) itemEOF); [contradiction|]. destruct (ieqb_spec (i_typ i) itemError); [contradiction|]. cbn [orb].
    rewrite IH; [|intros j Hj; apply Hts; now right|lia]. rewrite <- app_assoc. reflexivity.
Qed.

(** Parse with the tokens given *)
Definition parse_tokens (fds : nat) (fs : rfs) (input : bytes) (ts : list item) : parse_result :=
  match pFile (loadRules fds fs) (S (length ts)) [] (mkPS input ts pAny pAny aError [] 0) with
  | POk rs _ => PRules rs
  | PErr e => PFail e
  | PPanic => PCrash
  | PFuel => PCrash
  end.
Lemma parse_tokens_ok fds fs input : parse_tokens fds fs input (tokens input) = parse fds fs input.
Proof. reflexivity. Qed.

(** From every state some moves lead to one where Parse has returned (and all
    do, by [C62_terminates] and [C62_no_deadlock]). *)
Theorem C62_returns {R} input (p : reader R) y : moves input p y -> exists y' r, moves input p y' /\ y_parse y' = PReturned r.
Proof.
  intros HM. pose proof (C62_terminates input p y HM) as HA. induction HA as [y _ IH].
  destruct (C62_no_deadlock input p y HM) as [(r & Hr)|(y' & Hy)]; [eauto|]. apply (IH y' Hy). econstructor; eauto.
Qed.

(** Parse returns the rules or the error of the model, with the lexer goroutine
    gone, under every schedule. *)
Theorem C62_parse fds fs input y r :
  moves input (upto_last (parse_tokens fds fs input) (S (length (tokens input))) []) y -> y_parse y = PReturned r ->
  r = parse fds fs input /\ y_lex y = LEnded /\ y_got y ++ y_dropped y = tokens input.
Proof.
  intros HM Hr. destruct (C62_outcome _ _ _ _ HM Hr) as (H1 & H2 & H3). split; [|auto]. rewrite H3.
  destruct (C02_token_stream input) as (ts & last & Hl & Hlast & Hts & _). rewrite tokens_ok in Hl. injection Hl as Hl.
  rewrite Hl at 2. rewrite (upto_last_read _ ts last Hts Hlast) by (rewrite Hl, app_length; cbn; lia). cbn [fst app]. rewrite <- Hl. apply parse_tokens_ok.
Qed.

(** One of the schedules, for the example: the lexer first. *)
Definition advance {R} (y : system R) : option (system R) :=
  match y_lex y with
  | LRun st l sent =>
      match nth_error (l_items l) sent with
      | Some i =>
          match y_parse y with
          | PRun (Recv k) => Some (mkSystem (LRun st l (S sent)) (PRun (k i)) (y_got y ++ [i]) (y_dropped y))
          | PRun (Done r) => Some (mkSystem (y_lex y) (PDrain r) (y_got y) (y_dropped y))
          | PDrain r => Some (mkSystem (LRun st l (S sent)) (PDrain r) (y_got y) (y_dropped y ++ [i]))
          | PReturned r => None
          end
      | None =>
          if Nat.eqb (length (l_items l)) sent then
            match st with
            | Some f => match lexstep f l with Ok (st', l') => Some (mkSystem (LRun st' l' sent) (y_parse y) (y_got y) (y_dropped y)) | _ => None end
            | None => Some (mkSystem LEnded (y_parse y) (y_got y) (y_dropped y))
            end
          else None
      end
  | LEnded =>
      match y_parse y with
      | PRun (Recv k) => Some (mkSystem LEnded (PRun (k zero)) (y_got y) (y_dropped y))
      | PRun (Done r) => Some (mkSystem LEnded (PDrain r) (y_got y) (y_dropped y))
      | PDrain r => Some (mkSystem LEnded (PReturned r) (y_got y) (y_dropped y))
      | PReturned r => None
      end
  end.
Lemma advance_move {R} (y y' : system R) : advance y = Some y' -> move y y'.
Proof.
  destruct y as [[st l sent|] q g d]; unfold advance; cbn [y_lex y_parse y_got y_dropped]; intros H.
  - destruct (nth_error (l_items l) sent) as [i|] eqn:Ei.
    + destruct q as [[r|k]|r|r]; try discriminate H; injection H as <-; constructor; auto.
    + destruct (Nat.eqb_spec (length (l_items l)) sent) as [E|E]; [|discriminate H]. destruct st as [f|].
      * destruct (lexstep f l) as [[st' l']| |] eqn:El; try discriminate H. injection H as <-. now constructor.
      * injection H as <-. now constructor.
  - destruct q as [[r|k]|r|r]; try discriminate H; injection H as <-; constructor.
Qed.
Fixpoint advances {R} (n : nat) (y : system R) : system R :=
  match n with 0 => y | S n => match advance y with Some y' => advances n y' | None => y end end.
Lemma advances_moves {R} input (p : reader R) n : forall y, moves input p y -> moves input p (advances n y).
Proof.
  induction n as [|n IH]; intros y H; [exact H|]. cbn [advances]. destruct (advance y) as [y'|] eqn:E; [|exact H]. apply IH. econstructor; [exact H|]. now apply advance_move.
Qed.

(** A reader that stops at the second token, as the parser does at an error: the
    rest is thrown away. *)
Example C62_example : exists y, moves (B "reject reject from") (Recv (fun a => Recv (fun b => Done (i_val b)))) y /\
  y_parse y = PReturned (B "reject") /\ map i_val (y_got y) = [B "reject"; B "reject"] /\ map i_val (y_dropped y) = [B "from"; []].
Proof.
  exists (advances 40 (start (B "reject reject from") (Recv (fun a => Recv (fun b => Done (i_val b)))))).
  split; [apply advances_moves, Ms_start|]. split; [vm_compute; reflexivity|]. split; vm_compute; reflexivity.
Qed.
