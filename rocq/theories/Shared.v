(** Model of the state shared by all connections: the address blacklists, the
    hit counters, and the suppression of repeated warnings
    (/repo/sinksmtp.go:57-82, 191-356).  Every operation runs under a mutex, so
    concurrent connections perform some sequence of whole operations. *)
From Coq Require Export ZArith.
From Verif Require Import Bytes.

(** ** Address blacklists *)

(** sinksmtp.go:210-213.  Times are in nanoseconds; [count] is a Go int, here
    unbounded. *)
Record ipent := mkEnt { ie_when : Z; ie_count : Z }.

(** sinksmtp.go:214-224: the counters, unbounded *)
Record ipstats := mkStats {
  s_size : nat; s_adds : nat; s_addsnew : nat; s_addsexpired : nat; s_dels : nat; s_sets : nat;
  s_lookup : nat; s_lookuphit : nat; s_lookupexpired : nat
}.
Record ipmap := mkIpmap { im_ips : smap ipent; im_stats : ipstats }.

(** sinksmtp.go:226-227 *)
Definition ipmap0 : ipmap := mkIpmap [] (mkStats 0 0 0 0 0 0 0 0 0).

(** What Add and Set do first (sinksmtp.go:239-248, 264-274): the entry for the
    address, created or its count annulled if stale, and the counters AddsNew
    and AddsExpired.  [t1] is the time read by time.Since. *)
Definition ip_entry (ips : smap ipent) (ip : bytes) (ttl t1 : Z) : Z * nat * nat :=
  match mget ips ip with
  | None => (0%Z, 1, 0)
  | Some e => if Z.leb ttl (t1 - ie_when e) then (0%Z, 0, 1) else (ie_count e, 0, 0)
  end.

(** sinksmtp.go:233-254; [t2] is the time read by time.Now *)
Definition ip_add (ip : bytes) (ttl t1 t2 : Z) (m : ipmap) : Z * ipmap :=
  match ip with
  | [] => (0%Z, m)
  | _ =>
      let '(cnt, new, expired) := ip_entry (im_ips m) ip ttl t1 in
      let s := im_stats m in
      ((cnt + 1)%Z,
       mkIpmap (mset (im_ips m) ip (mkEnt t2 (cnt + 1)))
         (mkStats (s_size s) (S (s_adds s)) (new + s_addsnew s) (expired + s_addsexpired s) (s_dels s) (s_sets s)
            (s_lookup s) (s_lookuphit s) (s_lookupexpired s)))
  end.

(** sinksmtp.go:258-280 *)
Definition ip_set (ip : bytes) (ttl t1 t2 cnt' : Z) (m : ipmap) : Z * ipmap :=
  match ip with
  | [] => (0%Z, m)
  | _ =>
      let '(cnt, new, expired) := ip_entry (im_ips m) ip ttl t1 in
      let s := im_stats m in
      (cnt,
       mkIpmap (mset (im_ips m) ip (mkEnt t2 cnt'))
         (mkStats (s_size s) (s_adds s) (new + s_addsnew s) (expired + s_addsexpired s) (s_dels s) (S (s_sets s))
            (s_lookup s) (s_lookuphit s) (s_lookupexpired s)))
  end.

(** sinksmtp.go:282-294 *)
Definition ip_del (ip : bytes) (m : ipmap) : ipmap :=
  match ip with
  | [] => m
  | _ =>
      match mget (im_ips m) ip with
      | None => m
      | Some _ =>
          let s := im_stats m in
          mkIpmap (mdel (im_ips m) ip)
            (mkStats (s_size s) (s_adds s) (s_addsnew s) (s_addsexpired s) (S (s_dels s)) (s_sets s)
               (s_lookup s) (s_lookuphit s) (s_lookupexpired s))
      end
  end.

(** sinksmtp.go:295-315 *)
Definition ip_lookup (ip : bytes) (ttl t : Z) (m : ipmap) : (bool * Z) * ipmap :=
  let s := im_stats m in
  let st hit expired :=
    mkStats (s_size s) (s_adds s) (s_addsnew s) (s_addsexpired s) (s_dels s) (s_sets s)
      (S (s_lookup s)) (hit + s_lookuphit s) (expired + s_lookupexpired s) in
  match mget (im_ips m) ip with
  | None => ((false, 0%Z), mkIpmap (im_ips m) (st 0 0))
  | Some e =>
      if Z.ltb (t - ie_when e) ttl then ((true, ie_count e), mkIpmap (im_ips m) (st 1 0))
      else ((false, 0%Z), mkIpmap (mdel (im_ips m) ip) (st 0 1))
  end.

(** sinksmtp.go:318-323 *)
Definition ip_stats (m : ipmap) : ipstats * ipmap :=
  let s := im_stats m in
  let s' := mkStats (length (im_ips m)) (s_adds s) (s_addsnew s) (s_addsexpired s) (s_dels s) (s_sets s)
              (s_lookup s) (s_lookuphit s) (s_lookupexpired s) in
  (s', mkIpmap (im_ips m) s').

(** The operations with their arguments and clock readings, and what they
    return. *)
Inductive ipop :=
| OAdd (ip : bytes) (ttl t1 t2 : Z)
| OSet (ip : bytes) (ttl t1 t2 cnt : Z)
| ODel (ip : bytes)
| OLookup (ip : bytes) (ttl t : Z)
| OStats.
Inductive ipres := RCount (n : Z) | RNone | RFound (hit : bool) (n : Z) | RStats (s : ipstats).

Definition ip_do (o : ipop) (m : ipmap) : ipres * ipmap :=
  match o with
  | OAdd ip ttl t1 t2 => let (n, m') := ip_add ip ttl t1 t2 m in (RCount n, m')
  | OSet ip ttl t1 t2 cnt => let (n, m') := ip_set ip ttl t1 t2 cnt m in (RCount n, m')
  | ODel ip => (RNone, ip_del ip m)
  | OLookup ip ttl t => let '(b, n, m') := ip_lookup ip ttl t m in (RFound b n, m')
  | OStats => let (s, m') := ip_stats m in (RStats s, m')
  end.

(** What happened to a blacklist since the server was started, latest first. *)
Inductive ip_hist : list (ipop * ipres) -> ipmap -> Prop :=
| H_start : ip_hist [] ipmap0
| H_next h m o r m' : ip_hist h m -> ip_do o m = (r, m') -> ip_hist ((o, r) :: h) m'.

(** ** Hit counters *)

(** Go's uint64 *)
Definition u64 (n : N) : N := (n mod 2 ^ 64)%N.

(** sinksmtp.go:335-346 *)
Definition count_one (m : smap N) (d : bytes) : smap N :=
  mset m d (u64 (match mget m d with Some t => t | None => 0%N end + 1)).
Definition counts_add (m : smap N) (dbls : list bytes) : smap N := fold_left count_one dbls m.

(** ** Repeated warnings *)

(** sinksmtp.go:71-82: one turn of the loop of warnbackend; the new [lastmsg]
    and what is written *)
Definition warn_one (lastmsg nmsg : bytes) : bytes * option bytes :=
  if beqb nmsg lastmsg then (lastmsg, None)
  else (nmsg, if beqb nmsg [] then None else Some (B "sinksmtp: " ++ nmsg)).

(** The goroutines calling warnonce (sinksmtp.go:61-64), each with the messages
    it has still to send, and the backend: its lastmsg, what it has received
    (with the sender) and written so far.  The channel has no buffer, so sending
    and receiving are one step. *)
Record warn_state := mkWarn {
  wn_todo : list (list bytes);
  wn_last : bytes;
  wn_got : list (nat * bytes);
  wn_out : list bytes
}.
Inductive warn_step : warn_state -> warn_state -> Prop :=
| Warn_step todo1 msg rest todo2 last got out last' w :
    warn_one last msg = (last', w) ->
    warn_step (mkWarn (todo1 ++ (msg :: rest) :: todo2) last got out)
      (mkWarn (todo1 ++ rest :: todo2) last' (got ++ [(length todo1, msg)])
         (out ++ match w with Some x => [x] | None => [] end)).
Definition warn_start (todo : list (list bytes)) : warn_state := mkWarn todo [] [] [].
