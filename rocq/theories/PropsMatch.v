(** Properties of matching: C16, C17, C18, C19, C20. *)
From Verif Require Import Bytes Outcome GoNet Ast World Dns Eval.

(** ** Iterating over the dots of a name *)

Lemma skipn_app_len {A} (x y : list A) n : length x = n -> skipn n (x ++ y) = y.
Proof. intros <-. rewrite skipn_app, skipn_all, Nat.sub_diag. reflexivity. Qed.

Lemma firstn_app_len {A} (x y : list A) n : length x = n -> firstn n (x ++ y) = x.
Proof. intros <-. rewrite firstn_app, firstn_all, Nat.sub_diag, app_nil_r. reflexivity. Qed.

(** a dot in [s] further than position [p], and what follows it *)
Definition dot_after (s : bytes) (p : nat) (y : bytes) : Prop :=
  exists x, s = x ++ ch_dot :: y /\ p < length x.

Lemma sdot_next_spec s p :
  match sdot_next s p with
  | (p', []) => forall y, ~ dot_after s p y
  | (p', h) => exists y, h = ch_dot :: y /\ p < p' < length s /\ dot_after s p y /\
                 forall z, dot_after s p z <-> (z = y \/ dot_after s p' z)
  end.
Proof.
  unfold sdot_next. destruct (Nat.leb_spec (length s) p) as [H|H].
  - intros y (x & -> & Hx). rewrite app_length in H. simpl in H. lia.
  - destruct (index_byte (skipn (p + 1) s) ch_dot) as [i|] eqn:E.
    + apply index_byte_Some in E as (a & b & E & <- & Hn).
      assert (Hl : length (firstn (p + 1) s) = p + 1) by (apply firstn_length_le; lia).
      remember (firstn (p + 1) s) as q eqn:Eq.
      assert (Hs : s = (q ++ a) ++ ch_dot :: b).
      { rewrite <- app_assoc, <- E, Eq. symmetry. apply firstn_skipn. }
      clear Eq E. subst s.
      replace (p + length a + 1) with (length (q ++ a)) by (rewrite app_length; lia).
      rewrite skipn_app_len by reflexivity.
      exists b. split; auto. split; [|split].
      * rewrite !app_length in *. simpl in *. lia.
      * exists (q ++ a). split; auto. rewrite app_length. lia.
      * intros z. split.
        -- intros (x & Ex & Hx). destruct (Nat.le_gt_cases (length x) (length (q ++ a))) as [L|L].
           ++ left. rewrite <- app_assoc in Ex.
              assert (Hx' : exists x', x = q ++ x').
              { exists (skipn (p + 1) x). rewrite <- (firstn_skipn (p + 1) x) at 1. f_equal.
                apply (f_equal (firstn (p + 1))) in Ex. rewrite (firstn_app_len _ _ _ Hl) in Ex.
                rewrite firstn_app in Ex. replace (p + 1 - length x) with 0 in Ex by lia.
                simpl in Ex. rewrite app_nil_r in Ex. auto. }
              destruct Hx' as (x' & ->). rewrite <- app_assoc in Ex. apply app_inv_head in Ex.
              destruct (Nat.eq_dec (length x') (length a)) as [El|El].
              ** assert (a = x') as <-.
                 { apply (f_equal (firstn (length a))) in Ex. rewrite firstn_app_len in Ex by auto.
                   rewrite firstn_app_len in Ex; auto. }
                 apply app_inv_head in Ex. injection Ex as ->. reflexivity.
              ** exfalso. rewrite !app_length in L. apply Hn.
                 assert (Ha : a = x' ++ ch_dot :: firstn (length a - length x' - 1) z).
                 { apply (f_equal (firstn (length a))) in Ex. rewrite firstn_app_len in Ex by auto.
                   rewrite Ex at 1. rewrite firstn_app, firstn_all2 by lia. f_equal.
                   destruct (length a - length x') as [|k] eqn:Ek; [lia|]. simpl. f_equal. f_equal. lia. }
                 rewrite Ha. apply in_elt.
           ++ right. exists x. auto.
        -- intros [->|(x & Ex & Hx)].
           ++ exists (q ++ a). split; auto. rewrite app_length. lia.
           ++ exists x. split; auto. rewrite app_length in Hx. lia.
    + apply index_byte_None in E. intros y (x & -> & Hx). apply E.
      assert (exists x', skipn (p + 1) (x ++ ch_dot :: y) = x' ++ ch_dot :: y) as (x' & ->).
      { exists (skipn (p + 1) x). rewrite skipn_app. replace (p + 1 - length x) with 0 by lia. reflexivity. }
      apply in_elt.
Qed.

Lemma matchAddress_loop_spec d pat : forall fuel p, length d - p < fuel ->
  exists b, matchAddress_loop fuel d p pat = Ok b /\
    (b = true <-> pat = B "@" \/ exists y, dot_after d p y /\ pat = B "@." ++ y).
Proof.
  induction fuel as [|fuel IH]; intros p Hf; [lia|]. cbn [matchAddress_loop].
  pose proof (sdot_next_spec d p) as HS. destruct (sdot_next d p) as [p' h].
  destruct h as [|c h].
  - destruct (beqb_spec [ch_at] pat) as [<-|Hn].
    + exists true. split; auto. split; auto.
    + exists false. split; [reflexivity|]. split; [discriminate|].
      intros [->|(y & Hy & _)]; [exfalso; apply Hn; reflexivity|exfalso; eapply HS; eauto].
  - destruct HS as (y & E & Hp & Hy & Hz). rewrite E.
    destruct (beqb_spec (ch_at :: ch_dot :: y) pat) as [<-|Hn].
    + exists true. split; auto. split; auto. intros _. right. exists y. auto.
    + replace (beqb (ch_at :: ch_dot :: y) (B "@")) with false by reflexivity.
      destruct (IH p') as (b & -> & Hb); [lia|]. exists b. split; auto.
      rewrite Hb. split.
      * intros [->|(z & Hz1 & ->)]; auto. right. exists z. split; auto. apply Hz. auto.
      * intros [->|(z & Hz1 & ->)]; auto. right. apply Hz in Hz1 as [->|Hz1]; eauto.
        exfalso. apply Hn. reflexivity.
Qed.

(** ** C16 *)

(** The documented patterns (doc.go), for a lower-cased address [a]. *)
Inductive AddrMatches : bytes -> bytes -> Prop :=
| AM_same a : AddrMatches a a
| AM_null : AddrMatches [] (B "<>")
| AM_bare l : l <> [] -> ~ In ch_at l -> AddrMatches l (l ++ B "@")
| AM_local l d : l <> [] -> ~ In ch_at l -> d <> [] -> AddrMatches (l ++ B "@" ++ d) (l ++ B "@")
| AM_domain l d : l <> [] -> ~ In ch_at l -> d <> [] -> AddrMatches (l ++ B "@" ++ d) (B "@" ++ d)
| AM_any l d : l <> [] -> ~ In ch_at l -> d <> [] -> AddrMatches (l ++ B "@" ++ d) (B "@")
| AM_under l d e : l <> [] -> ~ In ch_at l -> d <> [] ->
    (d = e \/ exists x, d = x ++ B "." ++ e) -> AddrMatches (l ++ B "@" ++ d) (B "@." ++ e).

Lemma at_split (l l' d d' : bytes) : l ++ B "@" ++ d = l' ++ B "@" ++ d' -> ~ In ch_at l -> ~ In ch_at l' ->
  l = l' /\ d = d'.
Proof.
  revert l'. induction l as [|c l IH]; intros [|c' l'] E H H'; simpl in E.
  - injection E as ->. auto.
  - injection E as <- _. exfalso. apply H'. now left.
  - injection E as -> _. exfalso. apply H. now left.
  - injection E as -> E. destruct (IH _ E) as [-> ->]; auto; simpl in *; tauto.
Qed.

Lemma AddrMatches_inv a p : AddrMatches a p ->
  a = p \/ (a = [] /\ p = B "<>") \/ (a <> [] /\ ~ In ch_at a /\ p = a ++ B "@") \/
  exists l d, a = l ++ B "@" ++ d /\ l <> [] /\ ~ In ch_at l /\ d <> [] /\
    (p = l ++ B "@" \/ p = B "@" ++ d \/ p = B "@" \/
     exists e, p = B "@." ++ e /\ (d = e \/ exists x, d = x ++ B "." ++ e)).
Proof.
  intros H. destruct H as [a| |l H1 H2|l d H1 H2 H3|l d H1 H2 H3|l d H1 H2 H3|l d e H1 H2 H3 H4];
    [auto|auto|auto 6| | | |]; do 3 right; exists l, d; repeat (split; [solve [auto]|]); auto.
  do 3 right. exists e. auto.
Qed.

Theorem C16_address_patterns U addr pat : exists b, matchAddress U addr pat = Ok b /\
  (b = true <-> AddrMatches (to_lower U addr) pat).
Proof.
  unfold matchAddress. set (a := to_lower U addr). clearbody a. clear addr.
  destruct ((beqb a [] && beqb pat (B "<>")) || beqb a pat) eqn:E1.
  { exists true. split; auto. split; auto. intros _. apply orb_true_iff in E1 as [E1|E1].
    - apply andb_true_iff in E1 as [E1 E2]. apply beqb_eq in E1, E2. subst. apply AM_null.
    - apply beqb_eq in E1. subst. apply AM_same. }
  apply orb_false_iff in E1 as [E1 E2]. apply beqb_neq in E2.
  assert (E1' : ~ (a = [] /\ pat = B "<>")).
  { intros [-> ->]. simpl in E1. discriminate. }
  clear E1. rename E1' into E1.
  destruct (beqb_spec a []) as [Ha|Ha].
  { exists false. split; auto. split; [discriminate|]. intros H.
    apply AddrMatches_inv in H as [H|[H|[(H & _)|(l & d & H & Hl & _)]]]; try congruence; try tauto.
    rewrite Ha in H. destruct l; discriminate. }
  simpl orb.
  destruct (index_byte a ch_at) as [i|] eqn:Ei.
  - apply index_byte_Some in Ei as (l & d & Ea & Hi & Hl). subst i.
    change (l ++ ch_at :: d) with (l ++ B "@" ++ d) in *.
    assert (Hinv : AddrMatches a pat -> l <> [] /\ d <> [] /\
      (pat = l ++ B "@" \/ pat = B "@" ++ d \/ pat = B "@" \/
       exists e, pat = B "@." ++ e /\ (d = e \/ exists x, d = x ++ B "." ++ e))).
    { intros H. apply AddrMatches_inv in H as [H|[H|[(_ & H & _)|(l' & d' & H & Hl' & Hn' & Hd' & H')]]]; try congruence; try tauto.
      - exfalso. apply H. rewrite Ea. apply in_elt.
      - rewrite Ea in H. apply at_split in H as [-> ->]; auto. }
    destruct (Nat.eqb_spec (length l) 0) as [El|El].
    { exists false. split; auto. split; [discriminate|]. intros H. apply Hinv in H as [H _].
      destruct l; [congruence|discriminate]. }
    assert (Hln : l <> []) by (intros ->; apply El; reflexivity).
    destruct (Nat.eqb_spec (length l) (length a - 1)) as [Ed|Ed].
    { exists false. split; auto. split; [discriminate|]. intros H. apply Hinv in H as (_ & H & _).
      rewrite Ea, !app_length in Ed. simpl in Ed. destruct d; [congruence|]. simpl in Ed. lia. }
    assert (Hd : d <> []) by (intros ->; apply Ed; rewrite Ea, !app_length; simpl; lia).
    simpl orb. subst a.
    replace (firstn (length l + 1) (l ++ B "@" ++ d)) with (l ++ B "@")
      by (rewrite app_assoc, firstn_app_len; [reflexivity|rewrite app_length; reflexivity]).
    rewrite (skipn_app_len l (B "@" ++ d) (length l) eq_refl).
    destruct (beqb_spec (l ++ B "@") pat) as [P1|P1].
    { subst pat. exists true. split; auto. split; auto. intros _. apply AM_local; auto. }
    destruct (beqb_spec (B "@" ++ d) pat) as [P2|P2].
    { subst pat. exists true. split; auto. split; auto. intros _. apply AM_domain; auto. }
    cbn [orb]. change (tl (B "@" ++ d)) with d.
    destruct (matchAddress_loop_spec d pat (S (length (l ++ B "@" ++ d))) 0) as (b & Eb & Hb).
    { rewrite !app_length. lia. }
    rewrite Eb. cbn [obind]. destruct b.
    { exists true. split; auto. split; auto. intros _. destruct (proj1 Hb eq_refl) as [->|(y & (x & -> & _) & ->)].
      - apply AM_any; auto.
      - apply AM_under; auto. right. exists x. reflexivity. }
    exists (beqb (B "@." ++ d) pat). split; auto. rewrite beqb_eq. split.
    + intros <-. apply AM_under; auto.
    + intros H. apply Hinv in H as (_ & _ & [H|[H|[H|(e & -> & [->|(x & Ex)])]]]); try congruence.
      * assert (false = true) by (apply Hb; auto). discriminate.
      * destruct x as [|c x].
        -- exfalso. apply P2. rewrite Ex. reflexivity.
        -- assert (false = true); [|discriminate]. apply Hb. right. exists e. split; auto.
           exists (c :: x). split; auto. simpl. lia.
  - apply index_byte_None in Ei. exists (beqb (a ++ B "@") pat). split; auto. rewrite beqb_eq. split.
    + intros <-. apply AM_bare; auto.
    + intros H. apply AddrMatches_inv in H as [H|[H|[(_ & _ & H)|(l & d & H & _)]]]; try congruence; try tauto.
      exfalso. apply Ei. rewrite H. apply in_elt.
Qed.

Example C16_example : matchAddress plain_unicode (B "Joe@Mail.Example.com") (B "@.example.com") = Ok true /\
  matchAddress plain_unicode (B "Joe@Mail.Example.com") (B "joe@") = Ok true /\
  matchAddress plain_unicode (B "joe@badexample.com") (B "@.example.com") = Ok false.
Proof. repeat split; vm_compute; reflexivity. Qed.

(** ** C17 *)

(** An address that starts or ends with '@' matches nothing but itself.  (The
    documentation says it matches nothing at all.) *)
Theorem C17_at_the_edge U addr pat b :
  (exists x, to_lower U addr = B "@" ++ x) \/ (exists x, to_lower U addr = x ++ B "@" /\ ~ In ch_at x) ->
  matchAddress U addr pat = Ok b -> (b = true <-> pat = to_lower U addr).
Proof.
  intros HA E. destruct (C16_address_patterns U addr pat) as (b' & E' & Hb).
  rewrite E in E'. injection E' as <-. rewrite Hb. clear E Hb b.
  set (a := to_lower U addr) in *. clearbody a. clear addr. split; [|intros ->; apply AM_same].
  intros H. apply AddrMatches_inv in H as [H|[(H & H')|[(H & H' & _)|(l & d & H & H1 & H2 & H3 & _)]]]; auto; exfalso.
  - destruct HA as [(x & Hx)|(x & Hx & _)]; rewrite H in Hx; [discriminate|destruct x; discriminate].
  - destruct HA as [(x & Hx)|(x & Hx & _)]; apply H'; rewrite Hx; [left; reflexivity|apply in_elt].
  - destruct HA as [(x & Hx)|(x & Hx & Hn)].
    + rewrite H in Hx. destruct l as [|c l]; [congruence|]. injection Hx as Hx _. apply H2. left. exact Hx.
    + change (x ++ B "@") with (x ++ B "@" ++ []) in Hx. rewrite H in Hx. apply at_split in Hx as [_ Hx]; auto.
Qed.

(** The documentation's sentence is false of the code. *)
Theorem C17_matches_nothing_refuted :
  exists addr pat, (exists x, addr = B "@" ++ x) /\ matchAddress plain_unicode addr pat = Ok true.
Proof. exists (B "@x"), (B "@x"). split; [exists (B "x"); reflexivity|vm_compute; reflexivity]. Qed.

Example C17_example : matchAddress plain_unicode (B "@a,@b:x@y.com") (B "@y.com") = Ok false /\
  matchAddress plain_unicode (B "foo@") (B "foo@") = Ok true /\ matchAddress plain_unicode (B "foo@") (B "@") = Ok false.
Proof. repeat split; vm_compute; reflexivity. Qed.

(** ** C18 *)

Lemma matchHost_loop_spec h pat : forall fuel p, length h - p < fuel ->
  exists b, matchHost_loop fuel h p pat = Ok b /\
    (b = true <-> exists y, dot_after h p y /\ pat = ch_dot :: y).
Proof.
  induction fuel as [|fuel IH]; intros p Hf; [lia|]. cbn [matchHost_loop].
  pose proof (sdot_next_spec h p) as HS. destruct (sdot_next h p) as [p' g].
  destruct g as [|c g].
  - exists false. split; auto. split; [discriminate|]. intros (y & Hy & _). exfalso. eapply HS; eauto.
  - destruct HS as (y & E & Hp & Hy & Hz). rewrite E. clear E.
    destruct (beqb_spec (ch_dot :: y) pat) as [<-|Hn].
    + exists true. split; auto. split; eauto.
    + destruct (IH p') as (b & -> & Hb); [lia|]. exists b. split; auto. rewrite Hb. split.
      * intros (z & Hz1 & ->). exists z. split; auto. apply Hz. auto.
      * intros (z & Hz1 & ->). apply Hz in Hz1 as [->|Hz1]; eauto. congruence.
Qed.

Definition ends_in_dot (s : bytes) : Prop := exists u, s = u ++ B ".".

(** The documented patterns for a lower-cased host name: [name] is the host
    name without its final dot, unless the pattern has one too. *)
Definition HostMatches (host pat : bytes) : Prop :=
  exists name,
    ((ends_in_dot host /\ ~ ends_in_dot pat /\ host = name ++ B ".") \/
     ((~ ends_in_dot host \/ ends_in_dot pat) /\ name = host)) /\
    (pat = name \/ exists d, pat = B "." ++ d /\ (name = d \/ exists x, name = x ++ B "." ++ d)).

Theorem C18_host_patterns U host pat :
  to_lower U host <> [] -> pat <> [] ->
  exists b, matchHost U host pat = Ok b /\ (b = true <-> HostMatches (to_lower U host) pat).
Proof.
  unfold matchHost. set (h := to_lower U host). clearbody h. clear host. intros Hh Hp.
  assert (HM : forall name,
    ((ends_in_dot h /\ ~ ends_in_dot pat /\ h = name ++ B ".") \/
     ((~ ends_in_dot h \/ ends_in_dot pat) /\ name = h)) ->
    exists b, (if beqb name pat || beqb (ch_dot :: name) pat then Ok true
      else matchHost_loop (S (length name)) name 0 pat) = Ok b /\ (b = true <-> HostMatches h pat)).
  { intros name Hname.
    assert (Huniq : HostMatches h pat <-> (pat = name \/ exists d, pat = B "." ++ d /\ (name = d \/ exists x, name = x ++ B "." ++ d))).
    { split.
      - intros (n' & Hn' & HM). replace name with n'; auto.
        destruct Hname as [(A1 & A2 & A3)|(A1 & A2)], Hn' as [(B1 & B2 & B3)|(B1 & B2)]; try tauto; try congruence.
        rewrite A3 in B3. apply app_inj_tail in B3. symmetry. tauto.
      - intros HM. exists name. auto. }
    setoid_rewrite Huniq. clear Huniq Hname.
    destruct (beqb_spec name pat) as [->|N1]; [exists true; split; auto; split; auto|].
    destruct (beqb_spec (ch_dot :: name) pat) as [<-|N2]; [exists true; split; auto; split; auto; intros _; right; exists name; auto|].
    simpl orb. destruct (matchHost_loop_spec name pat (S (length name)) 0) as (b & -> & Hb); [lia|].
    exists b. split; auto. rewrite Hb. split.
    - intros (y & (x & -> & _) & ->). right. exists y. split; auto. right. exists x. reflexivity.
    - intros [E|(d & -> & [E|([|c x] & ->)])].
      + congruence.
      + subst. exfalso. apply N2. reflexivity.
      + exfalso. apply N1. reflexivity.
      + exists d. split; auto. exists (c :: x). split; auto. simpl. lia. }
  destruct (last_byte h) as [c|] eqn:El; [|apply last_byte_None in El; congruence].
  apply last_byte_Some in El as (u & Eu). simpl. destruct (Ascii.eqb_spec c ch_dot) as [->|Hc].
  - destruct (last_byte pat) as [c2|] eqn:Ep; [|apply last_byte_None in Ep; congruence].
    apply last_byte_Some in Ep as (u2 & Eu2). simpl. destruct (Ascii.eqb_spec c2 ch_dot) as [->|Hc2].
    + apply HM. right. split; auto. right. exists u2. auto.
    + rewrite Eu. unfold drop_last. rewrite removelast_last. rewrite Eu in HM. apply HM. left. split; [exists u; auto|].
      split; auto. intros (u3 & E3). rewrite E3 in Eu2. apply app_inj_tail in Eu2 as [_ E]. apply Hc2. symmetry. exact E.
  - apply HM. right. split; auto. left. intros (u3 & E3). rewrite E3 in Eu. apply app_inj_tail in Eu as [_ E]. apply Hc. symmetry. exact E.
Qed.

Example C18_example : matchHost plain_unicode (B "Mail.Example.COM.") (B ".example.com") = Ok true /\
  matchHost plain_unicode (B "example.com.") (B "example.com.") = Ok true /\
  matchHost plain_unicode (B "example.com") (B "example.com.") = Ok false /\
  matchHost plain_unicode (B "badexample.com") (B ".example.com") = Ok false.
Proof. repeat split; vm_compute; reflexivity. Qed.

(** ** C19 *)

(** equal up to the case of ASCII letters *)
Definition same_case (a b : bytes) : Prop := ascii_lower a = ascii_lower b.

Lemma to_lower_same U a b : unicode_ok U -> same_case a b -> to_lower U a = to_lower U b.
Proof. intros HU H. rewrite <- (to_lower_case U a HU), <- (to_lower_case U b HU). now rewrite H. Qed.

Lemma matchAddress_same U a b p : unicode_ok U -> same_case a b -> matchAddress U a p = matchAddress U b p.
Proof. intros HU H. unfold matchAddress. now rewrite (to_lower_same U a b HU H). Qed.
Lemma matchHost_same U a b p : unicode_ok U -> same_case a b -> matchHost U a p = matchHost U b p.
Proof. intros HU H. unfold matchHost. now rewrite (to_lower_same U a b HU H). Qed.

(** what a computation returns, without the new context *)
Definition result {A} (o : outcome (A * ctx)) : outcome A :=
  match o with Ok (a, _) => Ok a | Panic => Panic | NoFuel => NoFuel end.

(** an argument that is a pattern, not the name of a file of patterns *)
Definition literal (a : bytes) : Prop :=
  (exists c a', a = c :: a' /\ c <> "/"%char) /\ has_prefix a (B "./") = false /\ has_prefix a (B "file:") = false.

Lemma getMatchList_literal W a c : literal a -> getMatchList W a c = Ok ([to_lower (w_uni W) a], c).
Proof.
  intros ((x & a' & -> & Hx) & H1 & H2). unfold getMatchList. rewrite H1, H2.
  destruct (Ascii.eqb_spec x "/"); [congruence|reflexivity].
Qed.

Lemma any_elt_same (f g : bytes -> outcome bool) es es' :
  Forall2 (fun e e' => f e = g e') es es' -> any_elt f es = any_elt g es'.
Proof. induction 1 as [|e e' es es' He _ IH]; simpl; auto. rewrite He, IH. reflexivity. Qed.

Lemma matchEval_literal W a m g c : literal a ->
  matchEval W a m g c = match any_elt (fun e => m e (to_lower (w_uni W) a)) (g c) with
                        | Ok b => Ok (b, c) | Panic => Panic | NoFuel => NoFuel end.
Proof.
  intros H. unfold matchEval, mbind. rewrite getMatchList_literal by auto. unfold get, lift.
  cbn [any_pat]. destruct (any_elt _ _) as [[]| |]; reflexivity.
Qed.

(** Changing the case of letters in the HELO name, the envelope addresses, the
    verified reverse DNS names or a literal pattern does not change whether a
    helo, host, from, to or source term matches. *)
Theorem C19_case_insensitive W T T' a a' c c' k :
  unicode_ok (w_uni W) -> k <> MIp ->
  literal a -> literal a' -> same_case a a' ->
  same_case (c_heloname c) (c_heloname c') -> same_case (c_from c) (c_from c') ->
  same_case (c_rcptto c) (c_rcptto c') ->
  Forall2 same_case (rd_verified (t_rdns T)) (rd_verified (t_rdns T')) ->
  result (eval W T (EMatch k a) c) = result (eval W T' (EMatch k a') c') /\
  result (eval W T (ESource a) c) = result (eval W T' (ESource a') c').
Proof.
  intros HU Hk Ha Ha' Hs Hh Hf Hr Hd.
  assert (Hlow : to_lower (w_uni W) a = to_lower (w_uni W) a') by (apply to_lower_same; auto).
  assert (HK : forall k, k <> MIp ->
    any_elt (fun e => kindMatcher W k e (to_lower (w_uni W) a)) (kindGetter T k c) =
    any_elt (fun e => kindMatcher W k e (to_lower (w_uni W) a')) (kindGetter T' k c')).
  { intros k0 Hk0. rewrite Hlow. apply any_elt_same. destruct k0; simpl; try congruence.
    - constructor; [apply matchHost_same; auto|constructor].
    - clear -HU Hd. induction Hd; constructor; auto. apply matchHost_same; auto.
    - constructor; [apply matchAddress_same; auto|constructor].
    - constructor; [apply matchAddress_same; auto|constructor]. }
  split.
  - cbn [eval]. unfold evalMatch. rewrite !matchEval_literal by auto. rewrite (HK k Hk).
    destruct (any_elt _ _); reflexivity.
  - cbn [eval]. unfold mbind, evalMatch, ret. rewrite !matchEval_literal by auto.
    rewrite (HK MHost) by discriminate. destruct (any_elt _ _) as [[]| |]; try reflexivity.
    rewrite !matchEval_literal by auto.
    rewrite (HK MHelo) by discriminate. destruct (any_elt _ _) as [[]| |]; try reflexivity.
    rewrite !matchEval_literal by auto. unfold matchFromHost. rewrite Hlow.
    rewrite (any_elt_same _ (fun e => matchAddress (w_uni W) e (ch_at :: to_lower (w_uni W) a')) [c_from c] [c_from c']).
    + destruct (any_elt _ _); reflexivity.
    + constructor; [apply matchAddress_same; auto|constructor].
Qed.

Lemma lower_char_space c : is_space (lower_char c) = is_space c.
Proof. destruct c as [[] [] [] [] [] [] [] []]; reflexivity. Qed.
Lemma trim_left_lower s : trim_left (ascii_lower s) = ascii_lower (trim_left s).
Proof. induction s as [|c s IH]; simpl; auto. rewrite lower_char_space. destruct (is_space c); auto. Qed.
Lemma ascii_lower_rev s : ascii_lower (rev s) = rev (ascii_lower s).
Proof. apply map_rev. Qed.
Lemma ascii_trim_lower s : ascii_trim (ascii_lower s) = ascii_lower (ascii_trim s).
Proof. unfold ascii_trim. now rewrite trim_left_lower, <- ascii_lower_rev, trim_left_lower, <- ascii_lower_rev. Qed.
Lemma lower_char_nl c : Ascii.eqb (lower_char c) ch_nl = Ascii.eqb c ch_nl.
Proof. destruct c as [[] [] [] [] [] [] [] []]; reflexivity. Qed.
Lemma lower_char_hash c : Ascii.eqb (lower_char c) "#" = Ascii.eqb c "#".
Proof. destruct c as [[] [] [] [] [] [] [] []]; reflexivity. Qed.

Lemma nl_lines_lower s : forall cur, nl_lines (ascii_lower cur) (ascii_lower s) = map ascii_lower (nl_lines cur s).
Proof.
  induction s as [|c s IH]; intros cur; auto. change (ascii_lower (c :: s)) with (lower_char c :: ascii_lower s).
  cbn [nl_lines]. rewrite lower_char_nl. destruct (Ascii.eqb c ch_nl).
  - cbn [map]. rewrite ascii_lower_rev. f_equal. apply (IH []).
  - apply (IH (c :: cur)).
Qed.

Lemma all_ascii_app a b : all_ascii (a ++ b) = all_ascii a && all_ascii b.
Proof. apply forallb_app. Qed.
Lemma all_ascii_rev a : all_ascii (rev a) = all_ascii a.
Proof. induction a as [|c a IH]; auto. simpl. rewrite all_ascii_app, IH. simpl. rewrite andb_true_r. apply andb_comm. Qed.
Lemma nl_lines_ascii s : forall cur, all_ascii cur = true -> all_ascii s = true ->
  Forall (fun l => all_ascii l = true) (nl_lines cur s).
Proof.
  induction s as [|c s IH]; intros cur Hc Hs; simpl; auto.
  simpl in Hs. apply andb_true_iff in Hs as [H1 H2]. destruct (Ascii.eqb c ch_nl).
  - constructor; [|apply IH; auto]. change (all_ascii (rev (c :: cur)) = true). rewrite all_ascii_rev. simpl. rewrite H1. auto.
  - apply IH; auto. simpl. rewrite H1. auto.
Qed.

Lemma readList_lines_lower U ls : unicode_ok U -> Forall (fun l => all_ascii l = true) ls ->
  readList_lines U (map ascii_lower ls) = readList_lines U ls.
Proof.
  intros HU. induction 1 as [|l ls Hl _ IH]; auto. cbn [map readList_lines].
  unfold trim_space. rewrite all_ascii_lower, Hl, ascii_trim_lower.
  destruct (ascii_trim l) as [|c t]; [apply IH|]. change (ascii_lower (c :: t)) with (lower_char c :: ascii_lower t).
  cbn iota. rewrite lower_char_hash. destruct (Ascii.eqb c "#"); auto. f_equal; auto.
  change (lower_char c :: ascii_lower t) with (ascii_lower (c :: t)). apply to_lower_case. auto.
Qed.

(** ... nor does changing the case of a pattern file. *)
Theorem C19_files_case_insensitive U s s' : unicode_ok U -> all_ascii s = true -> all_ascii s' = true ->
  same_case s s' -> readList U s = readList U s'.
Proof.
  intros HU H H' E. unfold readList.
  rewrite <- (readList_lines_lower U (nl_lines [] s)), <- (readList_lines_lower U (nl_lines [] s')); auto;
    try (apply nl_lines_ascii; auto).
  rewrite <- !nl_lines_lower, E. reflexivity.
Qed.

Definition ex_world : world := {|
  w_uni := plain_unicode;
  w_file := fun _ n => if beqb n (B "/p") then FRead (B "@Spam.Example
# comment
 joe@x.ORG
last") false else FNoent;
  w_ip := fun _ n => if beqb n (B "4.3.2.1.bl.example") || beqb n (B "bad.org.dbl.example")
                     then inl [mk_v4 2130706434%N] else inr (mkDnsErr true false (B "no such host") (B "lookup: no such host"));
  w_mx := fun _ n => if beqb n (B "good.org.") then inl [mkMx (B "mx.good.org.") 10]
                     else inr (mkDnsErr true false (B "no such host") (B "lookup: no such host"));
  w_addr := fun _ _ => inr (mkDnsErr true false (B "no such host") (B "lookup: no such host"));
  w_order := fun _ l => l;
  w_ipstr := fun _ => B "ip"
|}.
Definition ex_trans : trans := mkTrans (B "1.2.3.4") (B "5.6.7.8") false (mkRdns [B "Mail.bad.org."] [] []) [].

Example C19_example :
  result (eval ex_world ex_trans (EMatch MHost (B ".Bad.Org")) (newContext [])) = Ok true /\
  result (eval ex_world ex_trans (EMatch MFrom (B "/p")) (set_from (B "JOE@X.org") (newContext []))) = Ok true /\
  literal (B ".Bad.Org").
Proof. repeat split; try (vm_compute; reflexivity). exists "."%char, (B "Bad.Org"). split; [reflexivity|discriminate]. Qed.

(** ** C20 *)

(** [x] is in the block of addresses that share the first [len] of 128 bits
    with [base]; an IPv4 address (::ffff:a.b.c.d) is only in IPv4 blocks,
    those of length at least 96. *)
Definition InBlock (x base len : N) : Prop :=
  (x / 2 ^ (128 - len) = base / 2 ^ (128 - len) /\ (x / 2 ^ 32 = 65535 -> 96 <= len))%N.

(** [s] is the text ADDR/LEN; lengths of IPv4 blocks count from bit 96. *)
Definition CidrText (s : bytes) (base len : N) : Prop :=
  exists addr mask n, s = addr ++ B "/" ++ mask /\ ~ In "/"%char addr /\ parse_dec mask = Some n /\
    ((exists v, parse_v4 addr = Some v /\ base = mk_v4 v /\ len = 96 + n /\ n <= 32) \/
     (parse_v4 addr = None /\ parse_v6 addr = Some base /\ len = n /\ n <= 128))%N.

Lemma parse_dec_bound s n : parse_octet s = Some n -> (n < 256)%N.
Proof.
  unfold parse_octet. destruct (parse_dec s) as [m|]; [|discriminate].
  destruct (N.leb_spec m 255); simpl; [|discriminate]. destruct (match s with [] => _ | _ => _ end); simpl; [discriminate|].
  intros [= <-]. lia.
Qed.
Lemma parse_v4_bound s v : parse_v4 s = Some v -> (v < 2 ^ 32)%N.
Proof.
  unfold parse_v4. destruct (split_byte s ch_dot) as [|a [|b [|c [|d [|]]]]]; try discriminate.
  destruct (parse_octet a) eqn:Ea; [|discriminate]. destruct (parse_octet b) eqn:Eb; [|discriminate].
  destruct (parse_octet c) eqn:Ec; [|discriminate]. destruct (parse_octet d) eqn:Ed; [|discriminate].
  apply parse_dec_bound in Ea, Eb, Ec, Ed. intros [= <-]. change (2 ^ 32)%N with 4294967296%N. lia.
Qed.

Lemma take_hex_bound s : forall acc cnt n c r, take_hex acc cnt s = (n, c, r) ->
  (acc < 16 ^ N.of_nat cnt)%N -> (n < 16 ^ N.of_nat c)%N.
Proof.
  induction s as [|x s IH]; simpl; intros acc cnt n c r H Ha.
  - injection H as <- <- <-. auto.
  - destruct (hex_val x) as [v|] eqn:Ev.
    + eapply IH; [exact H|]. assert (v < 16)%N.
      { unfold hex_val in Ev. destruct (_ && _)%bool eqn:E1 in Ev; [injection Ev as <-; apply andb_true_iff in E1 as [A B]; apply N.leb_le in A, B; lia|].
        destruct (_ && _)%bool eqn:E2 in Ev; [injection Ev as <-; apply andb_true_iff in E2 as [A B]; apply N.leb_le in A, B; lia|].
        destruct (_ && _)%bool eqn:E3 in Ev; [injection Ev as <-; apply andb_true_iff in E3 as [A B]; apply N.leb_le in A, B; lia|discriminate]. }
      rewrite Nat2N.inj_succ, N.pow_succ_r'. lia.
    + injection H as <- <- <-. auto.
Qed.

Lemma some_pair {A B} (a a' : A) (b b' : B) : Some (a, b) = Some (a', b') -> a' = a /\ b' = b.
Proof. intros H. inversion H. auto. Qed.

Lemma p6_bound room : forall s g ell g' ell', p6 room s g ell = Some (g', ell') ->
  Forall (fun n => (n < 65536)%N) g -> length g + room = 8 ->
  Forall (fun n => (n < 65536)%N) g' /\ length g' <= 8.
Proof.
  induction room as [|room IH]; intros s g ell g' ell' H Hg Hr; cbn [p6] in H.
  - destruct s; [|discriminate]. apply some_pair in H as [-> _]. split; auto. lia.
  - destruct (take_hex 0 0 s) as [[n c] rest] eqn:Et. destruct (Nat.eqb c 0 || Nat.ltb 4 c) eqn:Ec; [discriminate|].
    apply orb_false_iff in Ec as [_ Ec]. apply Nat.ltb_ge in Ec.
    assert (Hn : (n < 65536)%N).
    { apply take_hex_bound in Et; [|simpl; lia]. change 65536%N with (16 ^ 4)%N.
      eapply N.lt_le_trans; [exact Et|]. apply N.pow_le_mono_r; lia. }
    assert (Hgn : Forall (fun n => (n < 65536)%N) (g ++ [n])) by (apply Forall_app; auto).
    assert (Hrn : length (g ++ [n]) + room = 8) by (rewrite app_length; simpl; lia).
    destruct rest as [|x r]; [apply some_pair in H as [-> _]; split; auto; lia|].
    destruct (Ascii.eqb x ch_dot).
    + destruct (match ell with Some _ => _ | None => _ end); [discriminate|].
      destruct (Nat.ltb_spec 8 (length g + 2)); [discriminate|].
      destruct (parse_v4 s) as [v|] eqn:Ev; [|discriminate]. apply some_pair in H as [-> _].
      apply parse_v4_bound in Ev. split; [|rewrite app_length; simpl; lia]. apply Forall_app. split; auto. constructor; [|constructor; auto].
      * rewrite N.shiftr_div_pow2. apply N.div_lt_upper_bound; [discriminate|]. exact Ev.
      * rewrite N.land_ones. apply N.mod_lt. discriminate.
    + destruct (Ascii.eqb x ch_colon); [|discriminate]. destruct r as [|y r2]; [discriminate|].
      destruct (Ascii.eqb y ch_colon).
      * destruct ell; [discriminate|]. destruct r2; [apply some_pair in H as [-> _]; split; auto; lia|]. eapply IH; eauto.
      * eapply IH; eauto.
Qed.

Lemma groups_value_bound g : Forall (fun n => (n < 65536)%N) g -> length g <= 8 -> (groups_value g < 2 ^ 128)%N.
Proof.
  assert (H : forall g acc k, Forall (fun n => (n < 65536)%N) g -> (acc < 65536 ^ N.of_nat k)%N ->
    (fold_left (fun acc n => acc * 65536 + n) g acc < 65536 ^ N.of_nat (k + length g))%N).
  { clear. induction g as [|n g IH]; intros acc k Hg Ha; simpl fold_left.
    - rewrite Nat.add_0_r. auto.
    - inversion Hg; subst. replace (k + length (n :: g)) with (S k + length g) by (simpl; lia). apply IH; auto.
      rewrite Nat2N.inj_succ, N.pow_succ_r'. lia. }
  intros Hg Hl. eapply N.lt_le_trans; [apply (H g 0%N 0 Hg); reflexivity|].
  change (2 ^ 128)%N with (65536 ^ 8)%N. apply N.pow_le_mono_r; lia.
Qed.

Lemma some_inj {A} (a a' : A) : Some a = Some a' -> a' = a.
Proof. intros H. inversion H. auto. Qed.

Lemma expand6_bound g ell v : expand6 (g, ell) = Some v -> Forall (fun n => (n < 65536)%N) g -> length g <= 8 -> (v < 2 ^ 128)%N.
Proof.
  unfold expand6. intros H Hg Hl. destruct (Nat.ltb_spec (length g) 8).
  - destruct ell as [k|]; [|discriminate]. apply some_inj in H. subst v. apply groups_value_bound.
    + rewrite <- (firstn_skipn k g) in Hg. apply Forall_app in Hg as [H1 H2].
      apply Forall_app. split; auto. apply Forall_app. split; auto.
      apply Forall_forall. intros x Hx. apply repeat_spec in Hx. subst. reflexivity.
    + rewrite !app_length, repeat_length. pose proof (firstn_skipn k g) as E. apply (f_equal (@length N)) in E.
      rewrite app_length in E. lia.
  - destruct ell; [discriminate|]. injection H as <-. apply groups_value_bound; auto.
Qed.

Lemma parse_v6_bound s v : parse_v6 s = Some v -> (v < 2 ^ 128)%N.
Proof.
  unfold parse_v6. destruct s as [|c1 [|c2 r]]; try discriminate.
  destruct (Ascii.eqb c1 ch_colon && Ascii.eqb c2 ch_colon).
  - destruct r; [intros [= <-]; reflexivity|].
    destruct (p6 8 _ [] (Some 0)) as [[g e]|] eqn:E; [|discriminate]. intros H.
    apply p6_bound in E as [E1 E2]; auto. eapply expand6_bound; eauto.
  - destruct (p6 8 _ [] None) as [[g e]|] eqn:E; [|discriminate]. intros H.
    apply p6_bound in E as [E1 E2]; auto. eapply expand6_bound; eauto.
Qed.

Lemma mk_v4_div v k : (k <= 32)%N -> (v < 2 ^ 32)%N -> (mk_v4 v / 2 ^ k = 65535 * 2 ^ (32 - k) + v / 2 ^ k)%N.
Proof.
  intros Hk Hv. unfold mk_v4, v4prefix. rewrite N.shiftl_mul_pow2.
  replace (2 ^ 32)%N with (2 ^ (32 - k) * 2 ^ k)%N by (rewrite <- N.pow_add_r; f_equal; lia).
  rewrite N.mul_assoc, N.div_add_l by (apply N.pow_nonzero; discriminate). reflexivity.
Qed.

Lemma to4_Some x v : to4 x = Some v <-> (v < 2 ^ 32 /\ x = mk_v4 v)%N.
Proof.
  unfold to4, mk_v4, v4prefix. rewrite N.shiftr_div_pow2, N.land_ones, N.shiftl_mul_pow2.
  pose proof (N.div_mod x (2 ^ 32) ltac:(discriminate)) as E.
  pose proof (N.mod_lt x (2 ^ 32) ltac:(discriminate)) as L.
  destruct (N.eqb_spec (x / 2 ^ 32) 65535) as [H|H].
  - split.
    + intros [= <-]. split; auto. rewrite H in E. rewrite E at 1. rewrite (N.mul_comm 65535). reflexivity.
    + intros [Hv ->]. f_equal. rewrite N.add_comm, N.mod_add by discriminate. apply N.mod_small. auto.
  - split; [discriminate|]. intros [Hv ->]. exfalso. apply H.
    rewrite N.div_add_l by discriminate. rewrite N.div_small; auto.
Qed.
Lemma to4_None x : to4 x = None <-> (x / 2 ^ 32 <> 65535)%N.
Proof.
  unfold to4, v4prefix. rewrite N.shiftr_div_pow2. destruct (N.eqb_spec (x / 2 ^ 32) 65535); split; congruence.
Qed.

Lemma shiftlr v k : (N.shiftl (N.shiftr v k) k = v / 2 ^ k * 2 ^ k)%N.
Proof. now rewrite N.shiftl_mul_pow2, N.shiftr_div_pow2. Qed.

(** membership in a network as parsed, in terms of [InBlock] *)
Lemma contains_v4 v n x : (v < 2 ^ 32)%N -> (n <= 32)%N -> (x < 2 ^ 128)%N ->
  net_contains (mkNet 32 (N.shiftl (N.shiftr v (32 - n)) (32 - n)) n) (Some x) = true <-> InBlock x (mk_v4 v) (96 + n).
Proof.
  intros Hv Hn Hx. unfold net_contains, net_norm. cbn [n_bits n_ip n_len]. change (N.eqb 32 32) with true. cbv iota.
  cbn [n_bits n_ip n_len].
  unfold InBlock. replace (128 - (96 + n))%N with (32 - n)%N by lia.
  rewrite (mk_v4_div v (32 - n)) by (auto; lia).
  assert (Hp : (2 ^ (32 - n) <> 0)%N) by (apply N.pow_nonzero; discriminate).
  destruct (to4 x) as [u|] eqn:Et.
  - apply to4_Some in Et as [Hu ->]. rewrite (mk_v4_div u (32 - n)) by (auto; lia).
    change (N.eqb 32 32) with true. cbn [andb]. rewrite N.eqb_eq, shiftlr, !N.shiftr_div_pow2.
    rewrite N.div_mul by auto. split; [intros H; split; [lia|intros _; lia]|intros [H _]; lia].
  - apply to4_None in Et. change (N.eqb 128 32) with false. cbn [andb]. split; [discriminate|].
    intros [H _]. exfalso. apply Et.
    replace (2 ^ 32)%N with (2 ^ (32 - n) * 2 ^ n)%N by (rewrite <- N.pow_add_r; f_equal; lia).
    rewrite <- N.div_div; auto using N.pow_nonzero; try (apply N.pow_nonzero; discriminate).
    rewrite H. replace (32 - (32 - n))%N with n by lia.
    rewrite N.div_add_l by (apply N.pow_nonzero; discriminate).
    rewrite N.div_div by (auto; apply N.pow_nonzero; discriminate).
    rewrite <- N.pow_add_r. replace (32 - n + n)%N with 32%N by lia. rewrite N.div_small; auto.
Qed.

Lemma contains_v6 v n x : (v < 2 ^ 128)%N -> (n <= 128)%N -> (x < 2 ^ 128)%N ->
  net_contains (mkNet 128 (N.shiftl (N.shiftr v (128 - n)) (128 - n)) n) (Some x) = true <-> InBlock x v n.
Proof.
  intros Hv Hn Hx. set (k := (128 - n)%N).
  assert (Hp : (2 ^ k <> 0)%N) by (apply N.pow_nonzero; discriminate).
  unfold net_contains, net_norm. cbn [n_bits n_ip n_len]. change (N.eqb 128 32) with false. cbv iota.
  rewrite shiftlr. unfold InBlock. fold k. destruct (to4 (v / 2 ^ k * 2 ^ k)%N) as [u|] eqn:Eu.
  - (* the network is an IPv4 one *)
    apply to4_Some in Eu as [Hu Eu]. cbn [n_bits n_ip n_len].
    assert (Hn96 : (96 <= n)%N).
    { destruct (N.le_gt_cases 96 n) as [|L]; auto. exfalso.
      assert (E : (v / 2 ^ k * 2 ^ k / 2 ^ 32 = 65535)%N).
      { rewrite Eu. unfold mk_v4, v4prefix.
        rewrite N.shiftl_mul_pow2, N.div_add_l, N.div_small by (auto; discriminate). reflexivity. }
      replace (2 ^ k)%N with (2 ^ (k - 32 - 1) * 2 * 2 ^ 32)%N in E.
      2:{ rewrite <- (N.pow_1_r 2) at 2. rewrite <- !N.pow_add_r. f_equal. unfold k. lia. }
      rewrite !N.mul_assoc, N.div_mul in E by discriminate.
      assert (N.even 65535 = true); [|discriminate]. rewrite <- E, N.even_mul. apply orb_true_r. }
    assert (Hk : (k <= 32)%N) by (unfold k; lia).
    assert (Ek : (32 - (n - 96) = k)%N) by (unfold k; lia).
    destruct (to4 x) as [w|] eqn:Ex.
    + apply to4_Some in Ex as [Hw ->]. change (N.eqb 32 32) with true. cbn [andb].
      rewrite Ek, N.eqb_eq, !N.shiftr_div_pow2.
      assert (Ev : (v / 2 ^ k = mk_v4 u / 2 ^ k)%N) by (rewrite <- Eu, N.div_mul; auto).
      rewrite Ev, !mk_v4_div by auto. split; [intros ->; auto|intros [H _]; lia].
    + change (N.eqb 128 32) with false. cbn [andb]. split; [discriminate|]. intros [H _]. exfalso.
      apply to4_None in Ex. apply Ex.
      replace (2 ^ 32)%N with (2 ^ k * 2 ^ (32 - k))%N by (rewrite <- N.pow_add_r; f_equal; lia).
      rewrite <- N.div_div by (auto; apply N.pow_nonzero; discriminate). rewrite H.
      assert (Ev : (v / 2 ^ k = mk_v4 u / 2 ^ k)%N) by (rewrite <- Eu, N.div_mul; auto).
      rewrite Ev, N.div_div by (auto; apply N.pow_nonzero; discriminate). rewrite <- N.pow_add_r.
      replace (k + (32 - k))%N with 32%N by lia.
      unfold mk_v4, v4prefix. rewrite N.shiftl_mul_pow2, N.div_add_l, N.div_small by (auto; discriminate). reflexivity.
  - apply to4_None in Eu. cbn [n_bits n_ip n_len].
    destruct (to4 x) as [w|] eqn:Ex.
    + apply to4_Some in Ex as [Hw Ex]. change (N.eqb 32 128) with false. cbn [andb]. split; [discriminate|].
      intros [H1 H2]. exfalso.
      assert (E32 : (x / 2 ^ 32 = 65535)%N).
      { rewrite Ex. unfold mk_v4, v4prefix. rewrite N.shiftl_mul_pow2, N.div_add_l, N.div_small by (auto; discriminate). reflexivity. }
      specialize (H2 E32). assert (Hk : (k <= 32)%N) by (unfold k; lia). apply Eu.
      replace (2 ^ 32)%N with (2 ^ k * 2 ^ (32 - k))%N by (rewrite <- N.pow_add_r; f_equal; lia).
      rewrite <- N.div_div by (auto; apply N.pow_nonzero; discriminate). rewrite N.div_mul by auto.
      rewrite <- H1. rewrite N.div_div by (auto; apply N.pow_nonzero; discriminate). rewrite <- N.pow_add_r.
      replace (k + (32 - k))%N with 32%N by lia. auto.
    + apply to4_None in Ex. change (N.eqb 128 128) with true. cbn [andb]. fold k.
      rewrite N.eqb_eq, !N.shiftr_div_pow2, N.div_mul by auto. split; [intros ->; split; auto; congruence|intros [H _]; auto].
Qed.

Lemma parse_ip_bound s x : parse_ip s = Some x -> (x < 2 ^ 128)%N.
Proof.
  unfold parse_ip. destruct (first_sep s) as [c|]; [|discriminate]. destruct (Ascii.eqb c ch_dot).
  - destruct (parse_v4 s) as [v|] eqn:E; [|discriminate]. intros [= <-]. apply parse_v4_bound in E.
    unfold mk_v4, v4prefix. rewrite N.shiftl_mul_pow2. change (2 ^ 128)%N with 340282366920938463463374607431768211456%N.
    change (2 ^ 32)%N with 4294967296%N in *. lia.
  - apply parse_v6_bound.
Qed.

Lemma parse_cidr_text s x : (x < 2 ^ 128)%N ->
  (exists n, parse_cidr s = Some n /\ net_contains n (Some x) = true) <->
  (exists base len, CidrText s base len /\ InBlock x base len).
Proof.
  intros Hx. unfold parse_cidr, split2. destruct (index_byte s "/") as [i|] eqn:Ei.
  - apply index_byte_Some in Ei as (addr & mask & -> & <- & Hna).
    rewrite (firstn_app_len addr _ _ eq_refl).
    replace (skipn (S (length addr)) (addr ++ "/"%char :: mask)) with mask
      by (change ("/"%char :: mask) with (["/"%char] ++ mask); rewrite app_assoc, skipn_app_len; [reflexivity|rewrite app_length; simpl; lia]).
    assert (Huniq : forall a m, addr ++ "/"%char :: mask = a ++ B "/" ++ m -> ~ In "/"%char a -> addr = a /\ mask = m).
    { clear -Hna. revert Hna. induction addr as [|c l IH]; intros Hna [|c' a] m E Ha; simpl in E.
      - injection E as ->. auto.
      - injection E as <- _. exfalso. apply Ha. now left.
      - injection E as -> _. exfalso. apply Hna. now left.
      - injection E as -> E. apply IH in E as [-> ->]; auto; simpl in *; tauto. }
    split.
    + intros (n & E & Hc). destruct (parse_v4 addr) as [v|] eqn:E4.
      * destruct (parse_dec mask) as [d|] eqn:Ed; [|discriminate]. destruct (N.leb_spec d 32); [|discriminate].
        injection E as <-. pose proof (parse_v4_bound _ _ E4). apply contains_v4 in Hc; auto.
        exists (mk_v4 v), (96 + d)%N. split; auto. exists addr, mask, d. repeat (split; [solve [auto]|]). left. exists v. auto.
      * destruct (parse_v6 addr) as [v|] eqn:E6; [|discriminate]. cbn [option_map] in E.
        destruct (parse_dec mask) as [d|] eqn:Ed; [|discriminate]. destruct (N.leb_spec d 128); [|discriminate].
        injection E as <-. pose proof (parse_v6_bound _ _ E6). apply contains_v6 in Hc; auto.
        exists v, d. split; auto. exists addr, mask, d. repeat (split; [solve [auto]|]). right. auto.
    + intros (base & len & (a & m & n & E & Ha & Hm & HE) & Hin).
      apply Huniq in E as [<- <-]; auto. rewrite Hm. destruct HE as [(v & E4 & -> & -> & Hn)|(E4 & E6 & -> & Hn)].
      * rewrite E4. destruct (N.leb_spec n 32); [|lia]. eexists. split; [reflexivity|].
        apply contains_v4; auto. eapply parse_v4_bound; eauto.
      * rewrite E4, E6. cbn [option_map]. destruct (N.leb_spec n 128); [|lia]. eexists. split; [reflexivity|].
        apply contains_v6; auto. eapply parse_v6_bound; eauto.
  - apply index_byte_None in Ei. split; [intros (n & E & _); discriminate|].
    intros (base & len & (a & m & n & -> & _) & _). exfalso. apply Ei. apply in_elt.
Qed.

(** For a client with a plain IP address. *)
Theorem C20_ip_matches rip x pat : parse_ip rip = Some x ->
  matchIp rip pat = true <->
  (parse_ip pat = Some x \/ exists base len, CidrText pat base len /\ InBlock x base len).
Proof.
  intros H. pose proof (parse_ip_bound _ _ H) as Hx. unfold matchIp. rewrite H.
  destruct (parse_ip pat) as [y|] eqn:Ep; cbn [ip_equal].
  - destruct (N.eqb_spec x y) as [<-|Hn]; [tauto|].
    rewrite <- parse_cidr_text by auto. destruct (parse_cidr pat) as [n|].
    + split; [intros Hc; right; exists n; auto|]. intros [E|(n' & E & Hc)]; [congruence|]. injection E as <-. auto.
    + split; [discriminate|]. intros [E|(n' & E & _)]; congruence.
  - rewrite <- parse_cidr_text by auto. destruct (parse_cidr pat) as [n|].
    + split; [intros Hc; right; exists n; auto|]. intros [E|(n' & E & Hc)]; [congruence|]. injection E as <-. auto.
    + split; [discriminate|]. intros [E|(n' & E & _)]; congruence.
Qed.

(** For a client whose address text is not a plain IP (an IPv6 address with a
    zone) everything that is not a plain IP address matches. *)
Theorem C20_not_plain_ip rip pat : parse_ip rip = None ->
  matchIp rip pat = true <-> parse_ip pat = None.
Proof.
  intros H. unfold matchIp. rewrite H. destruct (parse_ip pat) as [y|]; cbn [ip_equal]; [|tauto].
  split; [|discriminate]. destruct (parse_cidr pat); simpl; discriminate.
Qed.

Lemma mem_byte_nIn c s : mem_byte c s = false -> ~ In c s.
Proof. intros H Hi. apply mem_byte_In in Hi. congruence. Qed.

Example C20_example :
  matchIp (B "127.10.3.4") (B "127.10.0.0/16") = true /\ matchIp (B "127.11.3.4") (B "127.10.0.0/16") = false /\
  matchIp (B "fe80::1%eth0") (B "10.0.0.0/8") = true /\ parse_ip (B "fe80::1%eth0") = None /\
  CidrText (B "127.10.0.0/16") (mk_v4 2131361792) 112.
Proof.
  do 4 (split; [vm_compute; reflexivity|]). exists (B "127.10.0.0"), (B "16"), 16%N.
  split; [reflexivity|]. split; [apply mem_byte_nIn; reflexivity|]. split; [vm_compute; reflexivity|].
  left. exists 2131361792%N. split; [vm_compute; reflexivity|]. split; [reflexivity|]. split; [reflexivity|discriminate].
Qed.
