(** Rules and expressions: the data types of /repo/rnodes.go and their
    printed form. *)
From Verif Require Import Bytes Outcome Lexer.
From Coq Require Import Permutation Sorted.

(** rnodes.go:14-25 *)
Inductive phase := pAny | pConnect | pHelo | pMfrom | pRto | pData | pMessage.
Definition pcode (p : phase) : nat :=
  match p with
  | pAny => 0 | pConnect => 1 | pHelo => 2 | pMfrom => 3 | pRto => 4
  | pData => 5 | pMessage => 6
  end.
(** Go's comparison operators on Phase *)
Definition pltb (a b : phase) : bool := Nat.ltb (pcode a) (pcode b).
Definition pleb (a b : phase) : bool := Nat.leb (pcode a) (pcode b).
Definition peqb (a b : phase) : bool := Nat.eqb (pcode a) (pcode b).

Lemma pcode_inj a b : pcode a = pcode b -> a = b.
Proof. destruct a, b; (reflexivity || discriminate). Qed.
Lemma peqb_spec a b : reflect (a = b) (peqb a b).
Proof.
  unfold peqb. destruct (Nat.eqb_spec (pcode a) (pcode b)); constructor.
  - now apply pcode_inj.
  - congruence.
Qed.

(** rnodes.go:27-35 *)
Definition phase_string (p : phase) : bytes :=
  match p with
  | pAny => B "@any" | pConnect => B "@connect" | pHelo => B "@helo"
  | pMfrom => B "@from" | pRto => B "@to" | pData => B "@data"
  | pMessage => B "@message"
  end.

(** rnodes.go:39-48 *)
Inductive action := aError | aNoresult | aAccept | aStall | aReject.
Definition acode (a : action) : nat :=
  match a with aError => 0 | aNoresult => 1 | aAccept => 2 | aStall => 3 | aReject => 4 end.
Definition aeqb (a b : action) : bool := Nat.eqb (acode a) (acode b).
Definition agtb (a b : action) : bool := Nat.ltb (acode b) (acode a).

Lemma acode_inj a b : acode a = acode b -> a = b.
Proof. destruct a, b; (reflexivity || discriminate). Qed.
Lemma aeqb_spec a b : reflect (a = b) (aeqb a b).
Proof.
  unfold aeqb. destruct (Nat.eqb_spec (acode a) (acode b)); constructor.
  - now apply acode_inj.
  - congruence.
Qed.

(** rnodes.go:50-57 *)
Definition action_string (a : action) : bytes :=
  match a with
  | aError => B "ERROR" | aNoresult => B "set-with" | aAccept => B "accept"
  | aStall => B "stall" | aReject => B "reject"
  end.

(** rnodes.go:61-103: option bitmaps.  [1 << iota] starts at iota = 1. *)
Definition opt := N.
Definition oZero : opt := 0%N.
Definition oHelo : opt := (2 ^ 1)%N.
Definition oEhlo : opt := (2 ^ 2)%N.
Definition oNone : opt := (2 ^ 3)%N.
Definition oBogus : opt := (2 ^ 4)%N.
Definition oNodots : opt := (2 ^ 5)%N.
Definition oBareip : opt := (2 ^ 6)%N.
Definition oProperip : opt := (2 ^ 7)%N.
Definition oMyip : opt := (2 ^ 8)%N.
Definition oRemip : opt := (2 ^ 9)%N.
Definition oOtherip : opt := (2 ^ 10)%N.
Definition oNodns : opt := (2 ^ 11)%N.
Definition oInconsist : opt := (2 ^ 12)%N.
Definition oNofwd : opt := (2 ^ 13)%N.
Definition oGood : opt := (2 ^ 14)%N.
Definition oExists : opt := (2 ^ 15)%N.
Definition oUnqualified : opt := (2 ^ 16)%N.
Definition oRoute : opt := (2 ^ 17)%N.
Definition oQuoted : opt := (2 ^ 18)%N.
Definition oNoat : opt := (2 ^ 19)%N.
Definition oGarbage : opt := (2 ^ 20)%N.
Definition oDomainValid : opt := (2 ^ 21)%N.
Definition oDomainInvalid : opt := (2 ^ 22)%N.
Definition oDomainTempfail : opt := (2 ^ 23)%N.
Definition oHost : opt := (2 ^ 24)%N.
Definition oFrom : opt := (2 ^ 25)%N.
Definition oBad : opt := N.lor (N.lor oUnqualified oRoute) (N.lor oNoat oGarbage).
Definition oIp : opt := N.lor oBareip oProperip.
Definition oAny : opt := N.lor (N.lor oHost oEhlo) oFrom.

Definition ohas (o bits : opt) : bool := negb (N.eqb (N.land o bits) 0).
Definition ohas_all (o bits : opt) : bool := N.eqb (N.land o bits) bits.

(** The option maps of rparse.go:247-281 *)
Definition omap := list (itype * opt).
Definition heloMap : omap :=
  [(itemHelo, oHelo); (itemEhlo, oEhlo); (itemNone, oNone); (itemNodots, oNodots);
   (itemBareip, oBareip); (itemProperip, oProperip); (itemMyip, oMyip);
   (itemRemip, oRemip); (itemOtherip, oOtherip); (itemIp, oIp); (itemBogus, oBogus)].
Definition dnsMap : omap :=
  [(itemNodns, oNodns); (itemInconsistent, oInconsist); (itemNoforward, oNofwd);
   (itemGood, oGood); (itemExists, oExists)].
Definition addrMap : omap :=
  [(itemUnqualified, oUnqualified); (itemRoute, oRoute); (itemQuoted, oQuoted);
   (itemNoat, oNoat); (itemGarbage, oGarbage); (itemBad, oBad);
   (itemDomainValid, oDomainValid); (itemDomainInvalid, oDomainInvalid);
   (itemDomainTempfail, oDomainTempfail)].
Definition dblMap : omap :=
  [(itemHost, oHost); (itemEhlo, oEhlo); (itemHelo, oEhlo); (itemFrom, oFrom);
   (itemAny, oAny)].

Fixpoint omap_get (m : omap) (t : itype) : opt :=
  match m with
  | [] => oZero
  | (k, v) :: m' => if ieqb t k then v else omap_get m' t
  end.

(** Which data source and matcher a MatchN node uses (rnodes.go:352-390). *)
Inductive mkind := MHelo | MHost | MFrom | MTo | MIp.
(** Which getter an OptionN node uses (rnodes.go:568-588). *)
Inductive okind := ODns | OHelo | OFromHas | OToHas.

(** rnodes.go:201-588: the expression nodes. *)
Inductive expr : Type :=
| EAnd (l : list expr)                (* AndL *)
| ENot (e : expr)                     (* NotN *)
| EOr (a b : expr)                    (* OrN *)
| EAll                                (* AllN *)
| ETls (on : bool)                    (* TlsN *)
| EDnsbl (dom : bytes)                (* DNSblN *)
| EMatch (k : mkind) (arg : bytes)    (* MatchN *)
| ESource (arg : bytes)               (* matchSource *)
| EDbl (src : opt) (dom : bytes)      (* DblNode *)
| EOpt (k : okind) (opts : opt).      (* OptionN *)

Section ExprInd.
  Variable P : expr -> Prop.
  Hypothesis HAnd : forall l, Forall P l -> P (EAnd l).
  Hypothesis HNot : forall e, P e -> P (ENot e).
  Hypothesis HOr : forall a b, P a -> P b -> P (EOr a b).
  Hypothesis HAll : P EAll.
  Hypothesis HTls : forall b, P (ETls b).
  Hypothesis HDnsbl : forall d, P (EDnsbl d).
  Hypothesis HMatch : forall k a, P (EMatch k a).
  Hypothesis HSource : forall a, P (ESource a).
  Hypothesis HDbl : forall s d, P (EDbl s d).
  Hypothesis HOpt : forall k o, P (EOpt k o).
  Fixpoint expr_ind' (e : expr) : P e :=
    match e with
    | EAnd l => HAnd l ((fix go l := match l return Forall P l with
                                     | [] => Forall_nil _
                                     | x :: l' => Forall_cons _ (expr_ind' x) (go l')
                                     end) l)
    | ENot e => HNot e (expr_ind' e)
    | EOr a b => HOr a b (expr_ind' a) (expr_ind' b)
    | EAll => HAll
    | ETls b => HTls b
    | EDnsbl d => HDnsbl d
    | EMatch k a => HMatch k a
    | ESource a => HSource a
    | EDbl s d => HDbl s d
    | EOpt k o => HOpt k o
    end.
End ExprInd.

(** rnodes.go:110-113 *)
Record rclause := mkClause { rc_expr : expr; rc_withs : smap bytes }.

(** rnodes.go:117-127 *)
Record rule := mkRule {
  r_clauses : list rclause;
  r_result : action;
  r_requires : phase;
  r_deferto : phase
}.

(** ** Printing *)

(** Go's string comparison *)
Fixpoint blt (a b : bytes) : bool :=
  match a, b with
  | _, [] => false
  | [], _ :: _ => true
  | x :: a', y :: b' =>
      N.ltb (N_of_ascii x) (N_of_ascii y) ||
      (N.eqb (N_of_ascii x) (N_of_ascii y) && blt a' b')
  end.

(** sort.Strings *)
Fixpoint sinsert (x : bytes) (l : list bytes) : list bytes :=
  match l with
  | [] => [x]
  | y :: l' => if blt y x then y :: sinsert x l' else x :: l
  end.
Fixpoint ssort (l : list bytes) : list bytes :=
  match l with [] => [] | x :: l' => sinsert x (ssort l') end.

(** rnodes.go:547-565: the inverse option map.  The keys are the same as the
    union of the values of the option maps; oHelo and oEhlo are set by hand. *)
Definition revMap : list (opt * bytes) :=
  [(oHelo, B "helo"); (oEhlo, B "ehlo"); (oNone, B "none"); (oNodots, B "nodots");
   (oBareip, B "bareip"); (oProperip, B "properip"); (oMyip, B "myip");
   (oRemip, B "remip"); (oOtherip, B "otherip"); (oIp, B "ip"); (oBogus, B "bogus");
   (oNodns, B "nodns"); (oInconsist, B "inconsistent"); (oNofwd, B "noforward");
   (oGood, B "good"); (oExists, B "exists");
   (oUnqualified, B "unqualified"); (oRoute, B "route"); (oQuoted, B "quoted");
   (oNoat, B "noat"); (oGarbage, B "garbage"); (oBad, B "bad");
   (oDomainValid, B "resolves"); (oDomainInvalid, B "baddom");
   (oDomainTempfail, B "unknown");
   (oHost, B "host"); (oFrom, B "from"); (oAny, B "any")].

(** rnodes.go:514-538.  Go visits revMap in a random order and then sorts;
    [ssort_perm] below shows the order does not matter. *)
Definition opts_string (opts0 : opt) : bytes :=
  let bad := ohas_all opts0 oBad in
  let opts1 := if bad then (opts0 - oBad)%N else opts0 in
  let ip := ohas_all opts1 oIp in
  let opts2 := if ip then (opts1 - oIp)%N else opts1 in
  let any := ohas_all opts2 oAny in
  let opts3 := if any then (opts2 - oAny)%N else opts2 in
  let l := (if bad then [B "bad"] else []) ++ (if ip then [B "ip"] else []) ++
           (if any then [B "any"] else []) ++
           map snd (filter (fun kv => ohas_all opts3 (fst kv)) revMap) in
  join (B ",") (ssort l).

Definition mkind_string (k : mkind) : bytes :=
  match k with
  | MHelo => B "helo" | MHost => B "host" | MFrom => B "from" | MTo => B "to" | MIp => B "ip"
  end.
Definition okind_string (k : okind) : bytes :=
  match k with
  | ODns => B "dns" | OHelo => B "helo-has" | OFromHas => B "from-has" | OToHas => B "to-has"
  end.

(** the String() methods of rnodes.go:222-556 *)
Fixpoint expr_string (e : expr) : bytes :=
  match e with
  | EAnd l => B "( " ++ join (B " ") (map expr_string l) ++ B " )"
  | ENot e => B "not " ++ expr_string e
  | EOr a b => B "( " ++ expr_string a ++ B " or " ++ expr_string b ++ B " )"
  | EAll => B "all"
  | ETls b => if b then B "tls on" else B "tls off"
  | EDnsbl d => B "dnsbl " ++ d
  | EMatch k a => mkind_string k ++ B " " ++ a
  | ESource a => B "source " ++ a
  | EDbl s d => B "dbl " ++ opts_string s ++ B " " ++ d
  | EOpt k o => okind_string k ++ B " " ++ opts_string o
  end.

(** rnodes.go:164-182 *)
Definition with_string (w : smap bytes) (k : bytes) : bytes :=
  match mget w k with
  | Some (c :: v) => B " " ++ k ++ B " " ++ [ch_quote] ++ (c :: v) ++ [ch_quote]
  | _ => B " " ++ k
  end.
Definition withs_string (w : smap bytes) : bytes :=
  let s := concat (map (with_string w) (ssort (mkeys w))) in
  match s with [] => [] | _ => B " with" ++ s end.
Definition clause_string (rc : rclause) : bytes :=
  expr_string (rc_expr rc) ++ withs_string (rc_withs rc).

(** rnodes.go:187-197 *)
Definition rule_string (r : rule) : bytes :=
  (if peqb (r_deferto r) pAny then [] else phase_string (r_deferto r) ++ B " ") ++
  action_string (r_result r) ++ B " " ++
  join (B "; ") (map clause_string (r_clauses r)).

(** ** Sorting facts *)
Lemma blt_irrefl a : blt a a = false.
Proof.
  induction a as [|x a IH]; simpl; auto. rewrite N.ltb_irrefl, IH, andb_false_r. reflexivity.
Qed.

Lemma N_of_ascii_inj a b : N_of_ascii a = N_of_ascii b -> a = b.
Proof. intros H. rewrite <- (ascii_N_embedding a), H. apply ascii_N_embedding. Qed.

Lemma blt_total a b : blt a b = false -> blt b a = false -> a = b.
Proof.
  revert b; induction a as [|x a IH]; intros [|y b]; simpl; try discriminate; auto.
  intros H1 H2. apply orb_false_iff in H1 as [H1 H1'], H2 as [H2 H2'].
  apply N.ltb_ge in H1, H2. assert (E : N_of_ascii x = N_of_ascii y) by lia.
  rewrite E, N.eqb_refl in H1'. rewrite E, N.eqb_refl in H2'. simpl in *.
  f_equal; [now apply N_of_ascii_inj|]. apply IH; auto.
Qed.

Lemma blt_trans a b c : blt a b = true -> blt b c = true -> blt a c = true.
Proof.
  revert b c; induction a as [|x a IH]; intros [|y b] [|z c]; simpl; try discriminate; auto.
  intros H1 H2. apply orb_true_iff in H1, H2. apply orb_true_iff.
  destruct H1 as [H1|H1], H2 as [H2|H2].
  - left. apply N.ltb_lt in H1, H2. apply N.ltb_lt. lia.
  - left. apply andb_true_iff in H2 as [H2 _]. apply N.eqb_eq in H2. now rewrite <- H2.
  - left. apply andb_true_iff in H1 as [H1 _]. apply N.eqb_eq in H1. now rewrite H1.
  - right. apply andb_true_iff in H1 as [H1 H1'], H2 as [H2 H2'].
    apply N.eqb_eq in H1, H2. rewrite H1, H2, N.eqb_refl. simpl. eauto.
Qed.

Lemma sinsert_perm x l : Permutation (x :: l) (sinsert x l).
Proof.
  induction l as [|y l IH]; simpl; auto. destruct (blt y x); auto.
  rewrite <- IH. apply perm_swap.
Qed.

Lemma ssort_perm_self l : Permutation l (ssort l).
Proof. induction l; simpl; auto. rewrite <- sinsert_perm. auto. Qed.

Definition ble (a b : bytes) : Prop := blt b a = false.

Lemma ble_trans a b c : ble a b -> ble b c -> ble a c.
Proof.
  unfold ble. intros H1 H2. destruct (blt c a) eqn:E; auto.
  destruct (blt a b) eqn:E2.
  - rewrite (blt_trans _ _ _ E E2) in H2. discriminate.
  - assert (a = b) by (apply blt_total; auto). subst. congruence.
Qed.

Lemma sinsert_sorted x l : StronglySorted ble l -> StronglySorted ble (sinsert x l).
Proof.
  induction 1 as [|y l Hs IH Hf]; simpl.
  - repeat constructor.
  - destruct (blt y x) eqn:E.
    + constructor; auto.
      apply (Permutation_Forall (sinsert_perm x l)). constructor; auto.
      unfold ble. destruct (blt x y) eqn:E2; auto.
      pose proof (blt_trans _ _ _ E E2) as H. rewrite blt_irrefl in H. discriminate.
    + constructor; [constructor; auto|]. constructor; auto.
      eapply Forall_impl; [|exact Hf]. intros z Hz. eapply ble_trans; eauto.
Qed.

Lemma ssort_sorted l : StronglySorted ble (ssort l).
Proof. induction l; simpl; [constructor|]. now apply sinsert_sorted. Qed.

Lemma sorted_perm_eq l1 l2 :
  StronglySorted ble l1 -> StronglySorted ble l2 -> Permutation l1 l2 -> l1 = l2.
Proof.
  revert l2; induction l1 as [|x l1 IH]; intros l2 H1 H2 HP.
  - apply Permutation_nil in HP. auto.
  - destruct l2 as [|y l2]; [apply Permutation_sym, Permutation_nil in HP; discriminate|].
    inversion H1 as [|? ? S1 F1]; inversion H2 as [|? ? S2 F2]; subst.
    assert (x = y).
    { assert (Hx : In x (y :: l2)) by (eapply Permutation_in; [exact HP|now left]).
      assert (Hy : In y (x :: l1)) by (eapply Permutation_in; [symmetry; exact HP|now left]).
      destruct Hx as [|Hx]; auto. destruct Hy as [|Hy]; auto.
      rewrite Forall_forall in F1, F2. apply blt_total; [apply F2|apply F1]; auto. }
    subst y. f_equal. apply IH; auto. eapply Permutation_cons_inv; eauto.
Qed.

Theorem ssort_perm l1 l2 : Permutation l1 l2 -> ssort l1 = ssort l2.
Proof.
  intros H. apply sorted_perm_eq; try apply ssort_sorted.
  rewrite <- !ssort_perm_self. auto.
Qed.
