(** Model of /repo/mxresolve.go and /repo/rdns.go. *)
From Verif Require Import Bytes Outcome GoNet Ast World.

(** mxresolve.go:18-26 *)
Inductive dnsresult := dnsUndef | dnsBad | dnsTempfail | dnsGood.
Definition dcode (d : dnsresult) : nat :=
  match d with dnsUndef => 0 | dnsBad => 1 | dnsTempfail => 2 | dnsGood => 3 end.
Definition dgtb (a b : dnsresult) : bool := Nat.ltb (dcode b) (dcode a).

(** mxresolve.go:50-63 *)
Definition serverrstr : bytes := B "server misbehaving".
Definition isTemporary (e : dnserr) : bool :=
  de_dns e && (de_temporary e || beqb (de_err e) serverrstr).

(** mxresolve.go:67-71 *)
Definition must_cidr (s : bytes) : ipnet :=
  match parse_cidr s with Some n => n | None => mkNet 0 0 0 end.
Definition net10 : ipnet := must_cidr (B "10.0.0.0/8").
Definition net172 : ipnet := must_cidr (B "172.16.0.0/12").
Definition net192 : ipnet := must_cidr (B "192.168.0.0/16").
Definition ipv6private : ipnet := must_cidr (B "FC00::/7").
Definition ipv6siteloc : ipnet := must_cidr (B "FEC0::/10").
Definition private_nets : list ipnet := [net10; net172; net192; ipv6private; ipv6siteloc].

(** mxresolve.go:90-98: the loop over the addresses; [None] is "no complaint" *)
Fixpoint checkAddrs (W : world) (domain : bytes) (addrs : list ip) : option bytes :=
  match addrs with
  | [] => None
  | i :: r =>
      if negb (is_global_unicast i)
      then Some (B "host " ++ domain ++ B " IP " ++ w_ipstr W i ++ B " not global unicast")
      else if existsb (fun n => net_contains n (Some i)) private_nets
      then Some (B "host " ++ domain ++ B " IP " ++ w_ipstr W i ++ B " is in bad address space")
      else checkAddrs W domain r
  end.

(** mxresolve.go:77-100; the error's text, [None] for nil *)
Definition checkIP (W : world) (domain : bytes) : X (dnsresult * option bytes) :=
  dox r <- lookup_ip W domain;
  xret (match r with
        | inr e => if isTemporary e then (dnsTempfail, Some (de_text e)) else (dnsBad, Some (de_text e))
        | inl [] => (dnsBad, Some (domain ++ B ": no IPs"))
        | inl addrs =>
            match checkAddrs W domain addrs with
            | Some e => (dnsBad, Some e)
            | None => (dnsGood, None)
            end
        end).

(** mxresolve.go:134-165: the loop over the MX entries *)
Fixpoint checkMXs (W : world) (domain : bytes) (mxs : list mx) (valid : dnsresult) (verr : option bytes)
  : X (dnsresult * option bytes) :=
  match mxs with
  | [] => xret (valid, verr)
  | m :: r =>
      if beqb (mx_host m) (B ".") && Nat.eqb (mx_pref m) 0
      then xret (dnsBad, Some (domain ++ B ": RFC 7505 null MX"))
      else
        let lc := to_lower (w_uni W) (mx_host m) in
        if beqb lc (B ".") || beqb lc (B "localhost.")
        then xret (dnsBad, Some (B "rejecting bogus MX " ++ itoa (mx_pref m) ++ B " " ++ mx_host m))
        else
          dox v <- checkIP W (mx_host m);
          if dgtb (fst v) valid then checkMXs W domain r (fst v) (snd v)
          else checkMXs W domain r valid verr
  end.

(** mxresolve.go:116-166 *)
Definition ValidDomain (W : world) (domain : bytes) : X (dnsresult * option bytes) :=
  dox r <- lookup_mx W (domain ++ B ".");
  match r with
  | inr e =>
      if isTemporary e then xret (dnsTempfail, Some (B "MX tempfail: " ++ de_text e))
      else checkIP W (domain ++ B ".")
  | inl mxs => checkMXs W domain mxs dnsUndef None
  end.

(** rdns.go:11-15 *)
Record rdns := mkRdns { rd_verified : list bytes; rd_nofwd : list bytes; rd_inconsist : list bytes }.
Definition no_rdns : rdns := mkRdns [] [] [].

(** rdns.go:31-48: the loop over the names.  [addr.Equal(eip)] with eip nil is
    false for the nonempty addresses LookupIP returns. *)
Fixpoint verifyNames (W : world) (eip : option ip) (names : list bytes) (r : rdns) : X rdns :=
  match names with
  | [] => xret r
  | n :: ns =>
      dox a <- lookup_ip W n;
      match a with
      | inr _ => verifyNames W eip ns (mkRdns (rd_verified r) (rd_nofwd r ++ [n]) (rd_inconsist r))
      | inl addrs =>
          if existsb (fun x => ip_equal (Some x) eip) addrs
          then verifyNames W eip ns (mkRdns (rd_verified r ++ [n]) (rd_nofwd r) (rd_inconsist r))
          else verifyNames W eip ns (mkRdns (rd_verified r) (rd_nofwd r) (rd_inconsist r ++ [n]))
      end
  end.

(** rdns.go:20-50; the flag is "err != nil" *)
Definition LookupAddrVerified (W : world) (addr : bytes) : X (rdns * bool) :=
  match addr with
  | [] => xret (no_rdns, false)
  | _ =>
      dox r <- lookup_addr W addr;
      match r with
      | inr _ => xret (no_rdns, true)
      | inl names =>
          dox r <- verifyNames W (parse_ip addr) (ssort names) no_rdns;
          xret (r, false)
      end
  end.
