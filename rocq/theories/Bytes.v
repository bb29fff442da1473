(** Byte strings and the parts of Go's [strings] package that sinksmtp uses.

    A Go [string] is an immutable sequence of bytes; we use [list ascii].
    Nothing in this file models code of /repo itself; the definitions model
    the Go standard library functions that /repo calls, cited at each use. *)

From Coq Require Export Ascii String.
From Coq Require Export List Bool Arith Lia ZArith NArith.
From Coq Require DecimalString DecimalNat.
Export ListNotations.
Open Scope list_scope.

Notation byte := ascii (only parsing).
Notation bytes := (list ascii) (only parsing).

(** A literal. *)
Definition B (s : string) : bytes := list_ascii_of_string s.
Arguments B s%string.

Definition ch_nl : ascii := "010"%char.
Definition ch_tab : ascii := "009"%char.
Definition ch_quote : ascii := """"%char.
Definition ch_bslash : ascii := "\"%char.
Definition ch_space : ascii := " "%char.
Definition ch_at : ascii := "@"%char.
Definition ch_dot : ascii := "."%char.

(** ** Equality *)

Fixpoint beqb (a b : bytes) : bool :=
  match a, b with
  | [], [] => true
  | x :: a', y :: b' => Ascii.eqb x y && beqb a' b'
  | _, _ => false
  end.

Lemma beqb_eq a b : beqb a b = true <-> a = b.
Proof.
  revert b; induction a as [|x a IH]; intros [|y b]; simpl; split; intros H; try congruence; auto.
  - apply andb_true_iff in H as [H1 H2]. apply Ascii.eqb_eq in H1. apply IH in H2. congruence.
  - injection H as -> ->. rewrite Ascii.eqb_refl. simpl. apply IH; reflexivity.
Qed.

Lemma beqb_refl a : beqb a a = true.
Proof. apply beqb_eq; reflexivity. Qed.

Lemma beqb_neq a b : beqb a b = false <-> a <> b.
Proof.
  split.
  - intros H E. subst. rewrite beqb_refl in H. discriminate.
  - intros H. destruct (beqb a b) eqn:E; auto. apply beqb_eq in E. contradiction.
Qed.

Lemma beqb_spec a b : reflect (a = b) (beqb a b).
Proof. destruct (beqb a b) eqn:E; constructor; [apply beqb_eq | apply beqb_neq]; auto. Qed.

Lemma beqb_sym a b : beqb a b = beqb b a.
Proof.
  destruct (beqb_spec a b) as [->|H]; [symmetry; apply beqb_refl|].
  symmetry; apply beqb_neq; congruence.
Qed.

Definition bytes_dec (a b : bytes) : {a = b} + {a <> b} := list_eq_dec ascii_dec a b.

Definition bmem (a : bytes) (l : list bytes) : bool := existsb (beqb a) l.

Lemma bmem_In a l : bmem a l = true <-> In a l.
Proof.
  unfold bmem. rewrite existsb_exists. split.
  - intros [x [H1 H2]]. apply beqb_eq in H2. subst; auto.
  - intros H. exists a. split; auto. apply beqb_refl.
Qed.

Lemma bmem_nIn a l : bmem a l = false <-> ~ In a l.
Proof. rewrite <- bmem_In. destruct (bmem a l); split; congruence. Qed.

(** ** Searching *)

(** strings.IndexByte; [None] is Go's -1. *)
Fixpoint index_byte (s : bytes) (c : ascii) : option nat :=
  match s with
  | [] => None
  | x :: s' => if Ascii.eqb x c then Some 0 else option_map S (index_byte s' c)
  end.

Definition mem_byte (c : ascii) (s : bytes) : bool := existsb (Ascii.eqb c) s.

(** strings.IndexAny for an ASCII character set. *)
Fixpoint index_any (s : bytes) (cs : bytes) : option nat :=
  match s with
  | [] => None
  | x :: s' => if mem_byte x cs then Some 0 else option_map S (index_any s' cs)
  end.

(** strings.HasPrefix *)
Fixpoint has_prefix (s p : bytes) {struct p} : bool :=
  match p, s with
  | [], _ => true
  | y :: p', x :: s' => Ascii.eqb x y && has_prefix s' p'
  | _ :: _, [] => false
  end.

(** strings.Contains *)
Fixpoint contains (s sub : bytes) : bool :=
  has_prefix s sub ||
  match s with [] => false | _ :: s' => contains s' sub end.

(** The last byte of a non-empty string: Go's [s[len(s)-1]]; [None] is the
    index-out-of-range panic. *)
Definition last_byte (s : bytes) : option ascii :=
  match rev s with [] => None | c :: _ => Some c end.

(** Go's [s[:len(s)-1]] on a nonempty string. *)
Definition drop_last (s : bytes) : bytes := removelast s.

(** strings.Count for a single byte *)
Definition count_byte (s : bytes) (c : ascii) : nat := count_occ ascii_dec s c.

(** strings.Split with a one byte separator. *)
Fixpoint split_byte (s : bytes) (c : ascii) : list bytes :=
  match s with
  | [] => [[]]
  | x :: s' =>
      if Ascii.eqb x c then [] :: split_byte s' c
      else match split_byte s' c with
           | [] => [[x]]       (* impossible: split_byte is never empty *)
           | w :: ws => (x :: w) :: ws
           end
  end.

(** strings.SplitN(s, sep, 2) with a one byte separator: [(a, Some b)] when
    the separator occurs, [(s, None)] when not. *)
Definition split2 (s : bytes) (c : ascii) : bytes * option bytes :=
  match index_byte s c with
  | None => (s, None)
  | Some i => (firstn i s, Some (skipn (S i) s))
  end.

(** strings.Join *)
Fixpoint join (sep : bytes) (l : list bytes) : bytes :=
  match l with
  | [] => []
  | [x] => x
  | x :: l' => x ++ sep ++ join sep l'
  end.

(** ** ASCII classes *)

Definition ascii_code (c : ascii) : nat := nat_of_ascii c.
Definition is_ascii (c : ascii) : bool := N.ltb (N_of_ascii c) 128.
Definition all_ascii (s : bytes) : bool := forallb is_ascii s.

Definition is_upper (c : ascii) : bool :=
  (N.leb 65 (N_of_ascii c) && N.leb (N_of_ascii c) 90)%N.
Definition lower_char (c : ascii) : ascii :=
  if is_upper c then ascii_of_N (N_of_ascii c + 32) else c.
Definition ascii_lower (s : bytes) : bytes := map lower_char s.

(** Go's asciiSpace table: \t \n \v \f \r and space. *)
Definition is_space (c : ascii) : bool :=
  let n := N_of_ascii c in ((N.leb 9 n && N.leb n 13) || N.eqb n 32)%N.

Definition is_digit (c : ascii) : bool :=
  (N.leb 48 (N_of_ascii c) && N.leb (N_of_ascii c) 57)%N.

Fixpoint trim_left (s : bytes) : bytes :=
  match s with
  | [] => []
  | c :: s' => if is_space c then trim_left s' else s
  end.
Definition ascii_trim (s : bytes) : bytes := rev (trim_left (rev (trim_left s))).

(** ASCII strings.Fields: maximal runs of non-space bytes. *)
Fixpoint ascii_fields_aux (cur : bytes) (s : bytes) : list bytes :=
  match s with
  | [] => match cur with [] => [] | _ => [rev cur] end
  | c :: s' =>
      if is_space c then
        match cur with [] => ascii_fields_aux [] s' | _ => rev cur :: ascii_fields_aux [] s' end
      else ascii_fields_aux (c :: cur) s'
  end.
Definition ascii_fields (s : bytes) : list bytes := ascii_fields_aux [] s.

(** ** Unicode oracle

    strings.ToLower, strings.TrimSpace and strings.Fields work byte-wise on
    ASCII strings (that is Go's own fast path); on strings with bytes >= 0x80
    they consult the Unicode tables, which are an oracle here.  Theorems
    quantify over all oracles; the few facts about them that some theorems
    need are collected in [unicode_ok]. *)
Record unicode := {
  uni_lower : bytes -> bytes;
  uni_trim : bytes -> bytes;
  uni_fields : bytes -> list bytes
}.

Definition to_lower (U : unicode) (s : bytes) : bytes :=
  if all_ascii s then ascii_lower s else uni_lower U s.
Definition trim_space (U : unicode) (s : bytes) : bytes :=
  if all_ascii s then ascii_trim s else uni_trim U s.
Definition fields (U : unicode) (s : bytes) : list bytes :=
  if all_ascii s then ascii_fields s else uni_fields U s.

Record unicode_ok (U : unicode) : Prop := {
  (** lowering never produces the empty string from a nonempty one *)
  uni_lower_nonempty : forall s, s <> [] -> all_ascii s = false -> uni_lower U s <> [];
  (** Unicode lowering does not look at the case of ASCII letters *)
  uni_lower_ascii_case : forall s, all_ascii s = false -> uni_lower U (ascii_lower s) = uni_lower U s;
  (** a newline at the end is white space *)
  uni_trim_nl : forall s, all_ascii s = false -> uni_trim U (s ++ [ch_nl]) = uni_trim U s;
  (** trimming and splitting into fields agree on what white space is *)
  uni_trim_fields : forall s, all_ascii s = false -> uni_trim U s <> [] -> fields U (uni_trim U s) <> []
}.

(** A concrete oracle for examples: leave non-ASCII bytes alone. *)
Definition plain_unicode : unicode :=
  {| uni_lower := ascii_lower; uni_trim := ascii_trim; uni_fields := ascii_fields |}.

(** ** Decimal and hexadecimal numbers (fmt %d, %x, %04x) *)
Definition itoa (n : nat) : bytes := B (DecimalString.NilEmpty.string_of_uint (Nat.to_uint n)).

Definition hex_digit (n : N) : ascii :=
  match n with
  | 0%N => "0" | 1%N => "1" | 2%N => "2" | 3%N => "3" | 4%N => "4" | 5%N => "5"
  | 6%N => "6" | 7%N => "7" | 8%N => "8" | 9%N => "9" | 10%N => "a" | 11%N => "b"
  | 12%N => "c" | 13%N => "d" | 14%N => "e" | _ => "f"
  end%char.
(** %04x of a uint16 *)
Definition hex4 (n : N) : bytes :=
  map (fun k => hex_digit (N.modulo (N.shiftr n k) 16)) [12%N; 8%N; 4%N; 0%N].

(** ** Finite maps keyed by byte strings (Go map[string]V) *)

Section Map.
  Context {V : Type}.
  Definition smap := list (bytes * V).
  Fixpoint mget (m : smap) (k : bytes) : option V :=
    match m with
    | [] => None
    | (k', v) :: m' => if beqb k k' then Some v else mget m' k
    end.
  Fixpoint mset (m : smap) (k : bytes) (v : V) : smap :=
    match m with
    | [] => [(k, v)]
    | (k', v') :: m' => if beqb k k' then (k, v) :: m' else (k', v') :: mset m' k v
    end.
  Fixpoint mdel (m : smap) (k : bytes) : smap :=
    match m with
    | [] => []
    | (k', v') :: m' => if beqb k k' then mdel m' k else (k', v') :: mdel m' k
    end.
  Definition mkeys (m : smap) : list bytes := map fst m.

  Lemma mget_mset_same m k v : mget (mset m k v) k = Some v.
  Proof.
    induction m as [|[k' v'] m IH]; simpl.
    - now rewrite beqb_refl.
    - destruct (beqb_spec k k') as [->|H]; simpl; [now rewrite beqb_refl|].
      apply beqb_neq in H; now rewrite H.
  Qed.

  Lemma mget_mset_other m k k2 v : k2 <> k -> mget (mset m k v) k2 = mget m k2.
  Proof.
    intros Hn. induction m as [|[k' v'] m IH]; simpl.
    - apply beqb_neq in Hn. now rewrite Hn.
    - destruct (beqb_spec k k') as [->|H]; simpl.
      + apply beqb_neq in Hn. now rewrite Hn.
      + destruct (beqb k2 k'); auto.
  Qed.

  Lemma mget_mset m k k2 v : mget (mset m k v) k2 = if beqb k2 k then Some v else mget m k2.
  Proof.
    destruct (beqb_spec k2 k) as [->|H]; [apply mget_mset_same | now apply mget_mset_other].
  Qed.

  Lemma mget_mdel m k k2 : mget (mdel m k) k2 = if beqb k2 k then None else mget m k2.
  Proof.
    induction m as [|[k' v'] m IH]; simpl.
    - now destruct (beqb k2 k).
    - destruct (beqb_spec k k') as [->|H]; simpl; rewrite IH.
      + destruct (beqb k2 k'); auto.
      + destruct (beqb_spec k2 k') as [->|H2]; auto.
        destruct (beqb_spec k' k) as [E|]; auto. congruence.
  Qed.

  Lemma mget_None m k : mget m k = None <-> ~ In k (mkeys m).
  Proof.
    induction m as [|[k' v'] m IH]; simpl; [tauto|].
    destruct (beqb_spec k k') as [->|H]; [split; [discriminate|tauto]|].
    rewrite IH. split; [intros H1 [H2|H2]; [congruence|tauto] | tauto].
  Qed.

  Lemma mget_In m k v : mget m k = Some v -> In (k, v) m.
  Proof.
    induction m as [|[k' v'] m IH]; simpl; [discriminate|].
    destruct (beqb_spec k k') as [->|H]; [intros [= ->]; now left | intros; right; auto].
  Qed.

  Lemma mkeys_mset m k v : mkeys (mset m k v) = if bmem k (mkeys m) then mkeys m else mkeys m ++ [k].
  Proof.
    induction m as [|[k' v'] m IH]; simpl; auto.
    destruct (beqb_spec k k') as [->|H]; simpl; auto.
    fold (mkeys (mset m k v)). rewrite IH. unfold bmem. destruct (existsb (beqb k) (mkeys m)); auto.
  Qed.


  Lemma mset_NoDup m k v : NoDup (mkeys m) -> NoDup (mkeys (mset m k v)).
  Proof.
    rewrite mkeys_mset. intros H. destruct (bmem k (mkeys m)) eqn:E; auto.
    apply bmem_nIn in E. clear -H E.
    induction (mkeys m) as [|a l IH]; simpl.
    - constructor; auto.
    - inversion H; subst. constructor.
      + rewrite in_app_iff. simpl in *. intros [H1|[H1|[]]]; [tauto|]. subst; tauto.
      + apply IH; auto. simpl in E; tauto.
  Qed.

  Lemma mkeys_mdel_In m k x : In x (mkeys (mdel m k)) <-> x <> k /\ In x (mkeys m).
  Proof.
    induction m as [|[k' v'] m IH]; simpl; [tauto|].
    destruct (beqb_spec k k') as [->|H]; simpl.
    - rewrite IH. split; [tauto|]. intros [H1 [H2|H2]]; [congruence|tauto].
    - rewrite IH. split; [intros [H1|H1]; [subst; split; [congruence|auto]|tauto] | tauto].
  Qed.

  Lemma mdel_NoDup m k : NoDup (mkeys m) -> NoDup (mkeys (mdel m k)).
  Proof.
    induction m as [|[k' v'] m IH]; simpl; auto. intros H; inversion H; subst.
    destruct (beqb_spec k k') as [->|Hn]; auto. simpl. constructor; auto.
    fold (mkeys (mdel m k)). rewrite mkeys_mdel_In. tauto.
  Qed.
End Map.
Arguments smap V : clear implicits.

(** ** Lemmas on the string helpers *)

Lemma mem_byte_In c s : mem_byte c s = true <-> In c s.
Proof.
  unfold mem_byte. rewrite existsb_exists. split.
  - intros [x [H1 H2]]. apply Ascii.eqb_eq in H2. subst; auto.
  - intros H. exists c. split; auto. apply Ascii.eqb_refl.
Qed.

Lemma index_byte_Some s c i :
  index_byte s c = Some i -> exists a b, s = a ++ c :: b /\ List.length a = i /\ ~ In c a.
Proof.
  revert i; induction s as [|x s IH]; simpl; intros i H; [discriminate|].
  destruct (Ascii.eqb_spec x c) as [->|Hn].
  - injection H as <-. exists [], s. simpl. auto.
  - destruct (index_byte s c) as [j|] eqn:E; simpl in H; [|discriminate].
    injection H as <-. destruct (IH j eq_refl) as (a & b & -> & Hl & Hni).
    exists (x :: a), b. simpl. repeat split; auto. intros [H|H]; [congruence|tauto].
Qed.

Lemma index_byte_app a c b : ~ In c a -> index_byte (a ++ c :: b) c = Some (List.length a).
Proof.
  induction a as [|x a IH]; simpl; intros H.
  - now rewrite Ascii.eqb_refl.
  - destruct (Ascii.eqb_spec x c) as [->|Hn]; [tauto|]. rewrite IH; auto.
Qed.

Lemma index_byte_None s c : index_byte s c = None <-> ~ In c s.
Proof.
  split.
  - intros H Hin. apply in_split in Hin. 
    induction s as [|x s IH]; simpl in *.
    + destruct Hin as ([|] & ? & ?); discriminate.
    + destruct (Ascii.eqb_spec x c) as [->|Hn]; [discriminate|].
      destruct (index_byte s c); [discriminate|]. apply IH; auto.
      destruct Hin as ([|y a] & b & E); simpl in E; injection E as -> ->; [congruence|eauto].
  - intros H. destruct (index_byte s c) eqn:E; auto.
    apply index_byte_Some in E as (a & b & -> & _). exfalso. apply H. apply in_elt.
Qed.

Lemma has_prefix_spec s p : has_prefix s p = true <-> exists t, s = p ++ t.
Proof.
  revert s; induction p as [|y p IH]; intros s; simpl.
  - split; [intros _; exists s|]; auto.
  - destruct s as [|x s]; [split; [discriminate|intros [t H]; discriminate]|].
    rewrite andb_true_iff, Ascii.eqb_eq, IH. split.
    + intros [-> [t ->]]. eauto.
    + intros [t [= -> ->]]. eauto.
Qed.

Lemma contains_spec s sub : contains s sub = true <-> exists a b, s = a ++ sub ++ b.
Proof.
  induction s as [|x s IH]; simpl.
  - rewrite orb_false_r, has_prefix_spec. split.
    + intros [t H]. exists [], t. auto.
    + intros (a & b & H). destruct a; [|discriminate]. eauto.
  - rewrite orb_true_iff, has_prefix_spec, IH. split.
    + intros [[t H]|(a & b & ->)]; [exists [], t; auto| exists (x :: a), b; auto].
    + intros ([|y a] & b & H); simpl in H; [left; eauto|].
      injection H as -> ->. right. eauto.
Qed.

Lemma last_byte_app s c : last_byte (s ++ [c]) = Some c.
Proof. unfold last_byte. rewrite rev_app_distr. reflexivity. Qed.

Lemma last_byte_None s : last_byte s = None <-> s = [].
Proof.
  unfold last_byte. destruct (rev s) eqn:E.
  - apply (f_equal (@rev _)) in E. rewrite rev_involutive in E. simpl in E. subst; split; auto.
  - split; [discriminate|]. intros ->. discriminate.
Qed.

Lemma last_byte_Some s c : last_byte s = Some c <-> exists a, s = a ++ [c].
Proof.
  split.
  - unfold last_byte. destruct (rev s) eqn:E; [discriminate|]. intros [= ->].
    apply (f_equal (@rev _)) in E. rewrite rev_involutive in E. simpl in E. eauto.
  - intros [a ->]. apply last_byte_app.
Qed.

Lemma index_any_None s cs : index_any s cs = None <-> forall c, In c cs -> ~ In c s.
Proof.
  induction s as [|x s IH]; simpl; [split; auto|].
  destruct (mem_byte x cs) eqn:E.
  - apply mem_byte_In in E. split; [discriminate|]. intros H. exfalso. apply (H x); auto.
  - assert (~ In x cs) by (rewrite <- mem_byte_In; congruence).
    destruct (index_any s cs) eqn:E2; simpl.
    + split; [discriminate|]. intros H2. assert (Some n = None); [|discriminate].
      apply IH. intros c Hc Hs. apply (H2 c); auto.
    + split; auto. intros _ c Hc [->|Hs]; [tauto|].
      destruct IH as [IH _]. apply (IH eq_refl c); auto.
Qed.

Lemma lower_char_idem c : lower_char (lower_char c) = lower_char c.
Proof. destruct c as [[] [] [] [] [] [] [] []]; reflexivity. Qed.

Lemma ascii_lower_idem s : ascii_lower (ascii_lower s) = ascii_lower s.
Proof. unfold ascii_lower. rewrite map_map. apply map_ext. apply lower_char_idem. Qed.

Lemma is_ascii_lower c : is_ascii (lower_char c) = is_ascii c.
Proof. destruct c as [[] [] [] [] [] [] [] []]; reflexivity. Qed.

Lemma all_ascii_lower s : all_ascii (ascii_lower s) = all_ascii s.
Proof.
  unfold all_ascii, ascii_lower. induction s; simpl; auto. now rewrite is_ascii_lower, IHs.
Qed.

Lemma ascii_lower_app a b : ascii_lower (a ++ b) = ascii_lower a ++ ascii_lower b.
Proof. apply map_app. Qed.

Lemma ascii_lower_length a : List.length (ascii_lower a) = List.length a.
Proof. apply map_length. Qed.

Lemma to_lower_nonempty U s : unicode_ok U -> s <> [] -> to_lower U s <> [].
Proof.
  intros HU Hs. unfold to_lower. destruct (all_ascii s) eqn:E.
  - destruct s; simpl; congruence.
  - apply uni_lower_nonempty; auto.
Qed.

Lemma to_lower_case U s : unicode_ok U -> to_lower U (ascii_lower s) = to_lower U s.
Proof.
  intros HU. unfold to_lower. rewrite all_ascii_lower. destruct (all_ascii s) eqn:E.
  - apply ascii_lower_idem.
  - apply uni_lower_ascii_case; auto.
Qed.

Lemma ascii_trim_nl s : ascii_trim (s ++ [ch_nl]) = ascii_trim s.
Proof.
  unfold ascii_trim. assert (H : trim_left (s ++ [ch_nl]) = trim_left s ++ [ch_nl] \/
    (trim_left s = [] /\ trim_left (s ++ [ch_nl]) = [])).
  { induction s as [|c s IH]; simpl; auto. destruct (is_space c); auto. }
  destruct H as [H|[H1 H2]].
  - rewrite H, rev_app_distr. reflexivity.
  - rewrite H1, H2. reflexivity.
Qed.

Lemma all_ascii_nl s : all_ascii (s ++ [ch_nl]) = all_ascii s.
Proof. unfold all_ascii. rewrite forallb_app. apply andb_true_r. Qed.

Lemma trim_space_nl U s : unicode_ok U -> trim_space U (s ++ [ch_nl]) = trim_space U s.
Proof.
  intros HU. unfold trim_space. rewrite all_ascii_nl. destruct (all_ascii s) eqn:E.
  - apply ascii_trim_nl.
  - apply uni_trim_nl; auto.
Qed.

Lemma ascii_fields_cur cur s : cur <> [] -> ascii_fields_aux cur s <> [].
Proof.
  revert cur. induction s as [|c s IH]; intros cur Hc; simpl.
  - destruct cur; congruence.
  - destruct (is_space c); [|apply IH; discriminate]. destruct cur; [congruence|discriminate].
Qed.
Lemma ascii_fields_nonspace s : (exists c, In c s /\ is_space c = false) -> ascii_fields_aux [] s <> [].
Proof.
  induction s as [|x s IH]; intros (c & Hi & Hc); [destruct Hi|]. simpl. destruct (is_space x) eqn:Ex.
  - apply IH. exists c. destruct Hi as [->|Hi]; [congruence|auto].
  - apply ascii_fields_cur. discriminate.
Qed.
Lemma trim_left_nonspace s : trim_left s <> [] -> exists c t, trim_left s = c :: t /\ is_space c = false.
Proof.
  induction s as [|c s IH]; simpl; [congruence|]. destruct (is_space c) eqn:E; auto. eauto.
Qed.
Lemma ascii_trim_fields s : ascii_trim s <> [] -> ascii_fields (ascii_trim s) <> [].
Proof.
  unfold ascii_trim, ascii_fields. intros H. apply ascii_fields_nonspace.
  destruct (trim_left_nonspace (rev (trim_left s))) as (c & t & E & Hc).
  { intros E. rewrite E in H. apply H. reflexivity. }
  exists c. split; auto. rewrite <- in_rev, E. now left.
Qed.
Lemma all_ascii_incl s t : (forall c, In c t -> In c s) -> all_ascii s = true -> all_ascii t = true.
Proof. unfold all_ascii. rewrite !forallb_forall. auto. Qed.
Lemma trim_left_incl s c : In c (trim_left s) -> In c s.
Proof. induction s as [|x s IH]; simpl; auto. destruct (is_space x); simpl; auto. Qed.
Lemma ascii_trim_incl s c : In c (ascii_trim s) -> In c s.
Proof.
  unfold ascii_trim. rewrite <- in_rev. intros H. apply trim_left_incl in H. rewrite <- in_rev in H.
  apply trim_left_incl in H. exact H.
Qed.
(** a line that is not blank has at least one field *)
Lemma trim_space_fields U s : unicode_ok U -> trim_space U s <> [] -> fields U (trim_space U s) <> [].
Proof.
  intros HU. unfold trim_space. destruct (all_ascii s) eqn:E; [|intros; apply uni_trim_fields; auto].
  intros H. unfold fields. rewrite (all_ascii_incl s); auto using ascii_trim_incl, ascii_trim_fields.
Qed.

Lemma plain_unicode_ok : unicode_ok plain_unicode.
Proof.
  split; simpl; intros s.
  - intros Hs _. destruct s; simpl; congruence.
  - intros _. apply ascii_lower_idem.
  - intros _. apply ascii_trim_nl.
  - intros _ H. unfold fields. simpl. destruct (all_ascii _); apply ascii_trim_fields; auto.
Qed.

Lemma B_inj s1 s2 : B s1 = B s2 -> s1 = s2.
Proof.
  unfold B. intros H. rewrite <- (string_of_list_ascii_of_string s1), H.
  apply string_of_list_ascii_of_string.
Qed.

Lemma itoa_inj n m : itoa n = itoa m -> n = m.
Proof.
  unfold itoa. intros H. apply B_inj in H.
  apply (f_equal DecimalString.NilEmpty.uint_of_string) in H.
  rewrite !DecimalString.NilEmpty.usu in H. injection H as H.
  apply DecimalNat.Unsigned.to_uint_inj in H. exact H.
Qed.

Definition digit_char (c : ascii) : Prop := is_digit c = true.

Lemma itoa_digits n : Forall digit_char (itoa n).
Proof.
  unfold itoa, B. induction (Nat.to_uint n); simpl; constructor; auto; reflexivity.
Qed.

Lemma itoa_nonempty n : itoa n <> [].
Proof.
  unfold itoa. pose proof (DecimalNat.Unsigned.of_to n) as H.
  destruct n; [discriminate|].
  destruct (Nat.to_uint (S n)); simpl; try discriminate.
Qed.

Lemma split_byte_nonempty s c : split_byte s c <> [].
Proof. induction s; simpl; [discriminate|]. destruct (Ascii.eqb a c); [discriminate|]. destruct (split_byte s c); discriminate. Qed.

Lemma join_split s c : join [c] (split_byte s c) = s.
Proof.
  induction s as [|x s IH]; simpl; auto.
  destruct (Ascii.eqb_spec x c) as [->|H].
  - pose proof (split_byte_nonempty s c). destruct (split_byte s c) as [|w ws] eqn:E; [congruence|].
    change (join [c] ([] :: w :: ws)) with ([] ++ [c] ++ join [c] (w :: ws)). rewrite IH. reflexivity.
  - destruct (split_byte s c) as [|w ws] eqn:E; [pose proof (split_byte_nonempty s c); congruence|].
    rewrite <- IH. destruct ws; reflexivity.
Qed.
