(** The outside world as the code sees it: files, DNS, and the trace of calls
    made to it.  Every answer may depend on the number of calls made before
    (the first argument of the oracles), so files and DNS may change at any
    time; a [static] world does not change. *)
From Verif Require Import Bytes Outcome GoNet.

(** A net.Error as far as mxresolve.go:56-63 looks at it. *)
Record dnserr := mkDnsErr {
  de_dns : bool;          (* is it a *net.DNSError? *)
  de_temporary : bool;    (* its Temporary() *)
  de_err : bytes;         (* its Err field *)
  de_text : bytes         (* its Error() *)
}.

(** net.MX *)
Record mx := mkMx { mx_host : bytes; mx_pref : nat }.

(** Opening and reading a text file: the file does not exist, cannot be
    opened, or gives [content] and then end of file or (flag set) an error. *)
Inductive file_res :=
| FNoent
| FOpenErr
| FRead (content : bytes) (err : bool).

Record world := {
  w_uni : unicode;
  w_file : nat -> bytes -> file_res;                   (* os.Open and reading *)
  w_ip : nat -> bytes -> list ip + dnserr;             (* net.LookupIP *)
  w_mx : nat -> bytes -> list mx + dnserr;             (* net.LookupMX *)
  w_addr : nat -> bytes -> list bytes + dnserr;        (* net.LookupAddr *)
  w_order : nat -> list bytes -> list bytes;           (* map iteration order *)
  w_ipstr : ip -> bytes                                (* IP.String *)
}.

(** What was asked; [XBl] is the address lookup of a blocklist entry. *)
Inductive call := XFile (name : bytes) | XIp (name : bytes) | XMx (name : bytes) | XAddr (name : bytes) | XBl (name : bytes).

(** Computations that ask the world: the trace, latest call first, is threaded. *)
Definition X (A : Type) := list call -> A * list call.
Definition xret {A} (a : A) : X A := fun t => (a, t).
Definition xbind {A B} (m : X A) (f : A -> X B) : X B := fun t => let (a, t') := m t in f a t'.
Definition ask {A} (f : nat -> bytes -> A) (k : bytes -> call) (n : bytes) : X A :=
  fun t => (f (length t) n, k n :: t).

Definition lookup_ip (W : world) (n : bytes) : X (list ip + dnserr) := ask (w_ip W) XIp n.
Definition lookup_bl (W : world) (n : bytes) : X (list ip + dnserr) := ask (w_ip W) XBl n.
Definition lookup_mx (W : world) (n : bytes) : X (list mx + dnserr) := ask (w_mx W) XMx n.
Definition lookup_addr (W : world) (n : bytes) : X (list bytes + dnserr) := ask (w_addr W) XAddr n.
Definition read_file (W : world) (n : bytes) : X file_res := ask (w_file W) XFile n.

Notation "'dox' x <- a ; b" := (xbind a (fun x => b))
  (at level 200, x pattern, a at level 100, b at level 200, right associativity).

(** Nothing changes over time. *)
Record static (W : world) : Prop := {
  st_file : forall i j n, w_file W i n = w_file W j n;
  st_ip : forall i j n, w_ip W i n = w_ip W j n;
  st_mx : forall i j n, w_mx W i n = w_mx W j n;
  st_addr : forall i j n, w_addr W i n = w_addr W j n
}.
