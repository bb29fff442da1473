(** Outcomes of Go code: a result, a run-time panic, or - only for loops the
    model runs on fuel - running out of fuel.  Theorems exclude the last one. *)
From Verif Require Import Bytes.

Inductive outcome (A : Type) : Type :=
| Ok (a : A)
| Panic
| NoFuel.
Arguments Ok {A} a.
Arguments Panic {A}.
Arguments NoFuel {A}.

Definition obind {A B} (x : outcome A) (f : A -> outcome B) : outcome B :=
  match x with Ok a => f a | Panic => Panic | NoFuel => NoFuel end.

Notation "'do' x <- a ; b" := (obind a (fun x => b))
  (at level 200, x pattern, a at level 100, b at level 200, right associativity).

Definition of_option {A} (x : option A) : outcome A :=
  match x with Some a => Ok a | None => Panic end.

(** Go's [s[a:b]]: panics unless a <= b <= len(s). *)
Definition slice (s : bytes) (a b : nat) : outcome bytes :=
  if Nat.leb a b && Nat.leb b (List.length s)
  then Ok (firstn (b - a) (skipn a s)) else Panic.

Lemma slice_ok s a b : a <= b <= List.length s -> slice s a b = Ok (firstn (b - a) (skipn a s)).
Proof.
  intros [H1 H2]. unfold slice. apply Nat.leb_le in H1, H2. now rewrite H1, H2.
Qed.
