(** The parts of Go's [net] package whose exact behaviour matters:
    ParseIP, ParseCIDR, IP.Equal, IPNet.Contains, IP.IsGlobalUnicast and
    SplitHostPort.  These are models of the Go standard library (Go 1.17 and
    later: no leading zeros in IPv4 octets; at most four hex digits in an
    IPv6 group), not of code in /repo. *)
From Verif Require Import Bytes Outcome.

(** A parsed address: Go's 16-byte form as a 128-bit number; [None] is nil. *)
Definition ip := N.

Definition v4prefix : N := 65535%N.  (* 0xffff in bits 32..47 *)
Definition mk_v4 (n : N) : ip := (N.shiftl v4prefix 32 + n)%N.
(** IP.To4 *)
Definition to4 (a : ip) : option N :=
  if N.eqb (N.shiftr a 32) v4prefix then Some (N.land a (N.ones 32)) else None.

Definition digit_val (c : ascii) : N := (N_of_ascii c - 48)%N.

Definition dec_value (s : bytes) : N :=
  fold_left (fun acc c => (acc * 10 + digit_val c)%N) s 0%N.

(** dtoi applied to the whole string: digits only, at least one. *)
Definition parse_dec (s : bytes) : option N :=
  match s with
  | [] => None
  | _ => if forallb is_digit s then Some (dec_value s) else None
  end.

(** one dotted octet *)
Definition parse_octet (s : bytes) : option N :=
  match parse_dec s with
  | Some n =>
      if N.leb n 255 &&
         negb (match s with c :: _ :: _ => Ascii.eqb c "0" | _ => false end)
      then Some n else None
  | None => None
  end.

(** parseIPv4: exactly four octets *)
Definition parse_v4 (s : bytes) : option N :=
  match split_byte s ch_dot with
  | [a; b; c; d] =>
      match parse_octet a, parse_octet b, parse_octet c, parse_octet d with
      | Some a, Some b, Some c, Some d => Some (((a * 256 + b) * 256 + c) * 256 + d)%N
      | _, _, _, _ => None
      end
  | _ => None
  end.

Definition hex_val (c : ascii) : option N :=
  let n := N_of_ascii c in
  if (N.leb 48 n && N.leb n 57)%N then Some (n - 48)%N
  else if (N.leb 97 n && N.leb n 102)%N then Some (n - 87)%N
  else if (N.leb 65 n && N.leb n 70)%N then Some (n - 55)%N
  else None.

(** the leading hex digits of a string: value, count, rest *)
Fixpoint take_hex (acc : N) (cnt : nat) (s : bytes) : N * nat * bytes :=
  match s with
  | [] => (acc, cnt, [])
  | c :: s' =>
      match hex_val c with
      | Some v => take_hex (acc * 16 + v)%N (S cnt) s'
      | None => (acc, cnt, s)
      end
  end.

Definition ch_colon : ascii := ":"%char.

(** parseIPv6's loop; [room] is the number of 16-bit groups still free,
    [groups] the groups so far, [ell] the position of the "::". *)
Fixpoint p6 (room : nat) (s : bytes) (groups : list N) (ell : option nat)
  : option (list N * option nat) :=
  match room with
  | 0 => match s with [] => Some (groups, ell) | _ => None end
  | S room' =>
      let '(n, c, rest) := take_hex 0 0 s in
      if Nat.eqb c 0 || Nat.ltb 4 c then None
      else
        match rest with
        | [] => Some (groups ++ [n], ell)
        | x :: r =>
            if Ascii.eqb x ch_dot then
              if match ell with None => negb (Nat.eqb (length groups) 6) | Some _ => false end then None
              else if Nat.ltb 8 (length groups + 2) then None
              else match parse_v4 s with
                   | Some v => Some (groups ++ [N.shiftr v 16; N.land v (N.ones 16)], ell)
                   | None => None
                   end
            else if Ascii.eqb x ch_colon then
              match r with
              | [] => None
              | y :: r2 =>
                  if Ascii.eqb y ch_colon then
                    match ell with
                    | Some _ => None
                    | None =>
                        match r2 with
                        | [] => Some (groups ++ [n], Some (length groups + 1))
                        | _ => p6 room' r2 (groups ++ [n]) (Some (length groups + 1))
                        end
                    end
                  else p6 room' r (groups ++ [n]) ell
              end
            else None
        end
  end.

Definition groups_value (g : list N) : N := fold_left (fun acc n => (acc * 65536 + n)%N) g 0%N.

Definition expand6 (x : list N * option nat) : option N :=
  let (groups, ell) := x in
  if Nat.ltb (length groups) 8 then
    match ell with
    | None => None
    | Some k => Some (groups_value (firstn k groups ++ repeat 0%N (8 - length groups) ++ skipn k groups))
    end
  else match ell with Some _ => None | None => Some (groups_value groups) end.

Definition parse_v6 (s : bytes) : option N :=
  match s with
  | c1 :: c2 :: r =>
      if Ascii.eqb c1 ch_colon && Ascii.eqb c2 ch_colon then
        match r with
        | [] => Some 0%N
        | _ => match p6 8 r [] (Some 0) with Some x => expand6 x | None => None end
        end
      else match p6 8 s [] None with Some x => expand6 x | None => None end
  | _ => None
  end.

(** net.ParseIP: the first '.' or ':' decides the form *)
Fixpoint first_sep (s : bytes) : option ascii :=
  match s with
  | [] => None
  | c :: s' => if Ascii.eqb c ch_dot || Ascii.eqb c ch_colon then Some c else first_sep s'
  end.
Definition parse_ip (s : bytes) : option ip :=
  match first_sep s with
  | None => None
  | Some c => if Ascii.eqb c ch_dot then option_map mk_v4 (parse_v4 s) else parse_v6 s
  end.

(** IP.Equal on results of ParseIP; nil equals nil. *)
Definition ip_equal (a b : option ip) : bool :=
  match a, b with
  | None, None => true
  | Some x, Some y => N.eqb x y
  | _, _ => false
  end.

(** IPNet: [n_bits] is 32 or 128, [n_ip] the masked address of that width. *)
Record ipnet := mkNet { n_bits : N; n_ip : N; n_len : N }.

(** net.ParseCIDR *)
Definition parse_cidr (s : bytes) : option ipnet :=
  match split2 s "/" with
  | (_, None) => None
  | (addr, Some mask) =>
      let r := match parse_v4 addr with
               | Some v => Some (32%N, v)
               | None => option_map (fun v => (128%N, v)) (parse_v6 addr)
               end in
      match r, parse_dec mask with
      | Some (w, v), Some n =>
          if N.leb n w
          then Some (mkNet w (N.shiftl (N.shiftr v (w - n)) (w - n)) n)
          else None
      | _, _ => None
      end
  end.

(** networkNumberAndMask: an IPv4-mapped network is used in its IPv4 form *)
Definition net_norm (n : ipnet) : ipnet :=
  if N.eqb (n_bits n) 32 then n
  else match to4 (n_ip n) with
       | Some v => mkNet 32 v (n_len n - 96)
       | None => n
       end.

(** IPNet.Contains; a nil address is in no network. *)
Definition net_contains (n0 : ipnet) (a : option ip) : bool :=
  match a with
  | None => false
  | Some x =>
      let n := net_norm n0 in
      let (w, v) := match to4 x with Some v => (32%N, v) | None => (128%N, x) end in
      N.eqb w (n_bits n) &&
      N.eqb (N.shiftr v (w - n_len n)) (N.shiftr (n_ip n) (w - n_len n))
  end.

(** IP.IsGlobalUnicast: not broadcast, unspecified, loopback, multicast or
    link-local unicast. *)
Definition is_global_unicast (x : ip) : bool :=
  match to4 x with
  | Some v =>
      negb (N.eqb v (N.ones 32)) && negb (N.eqb v 0) &&
      negb (N.eqb (N.shiftr v 24) 127) &&
      negb (N.eqb (N.shiftr v 28) 14) &&
      negb (N.eqb (N.shiftr v 16) 43518)         (* 169.254 *)
  | None =>
      negb (N.eqb x 0) && negb (N.eqb x 1) &&
      negb (N.eqb (N.shiftr x 120) 255) &&
      negb (N.eqb (N.shiftr x 118) 1018)         (* fe80::/10 *)
  end.

(** ** SplitHostPort; [None] is an error (host and port both empty). *)
Definition last_index (s : bytes) (c : ascii) : option nat :=
  match index_byte (rev s) c with
  | Some i => Some (length s - 1 - i)
  | None => None
  end.

Definition split_host_port (hp : bytes) : option (bytes * bytes) :=
  match last_index hp ch_colon with
  | None => None
  | Some i =>
      let port := skipn (S i) hp in
      match hp with
      | "["%char :: _ =>
          match index_byte hp "]" with
          | None => None
          | Some e =>
              if Nat.eqb (e + 1) (length hp) then None
              else if Nat.eqb (e + 1) i then
                let host := firstn (e - 1) (skipn 1 hp) in
                if mem_byte "[" (skipn 1 hp) || mem_byte "]" (skipn (e + 1) hp) then None
                else Some (host, port)
              else None
          end
      | _ =>
          let host := firstn i hp in
          if mem_byte ch_colon host || mem_byte "[" hp || mem_byte "]" hp then None
          else Some (host, port)
      end
  end.

(** host part, empty on error, as [h, _, _ := net.SplitHostPort(..)] gives *)
Definition host_of (hp : bytes) : bytes :=
  match split_host_port hp with Some (h, _) => h | None => [] end.

Example ip_ex1 : parse_ip (B "192.168.10.3") = Some (mk_v4 3232238083%N).
Proof. vm_compute. reflexivity. Qed.
Example ip_ex2 : parse_ip (B "1.2.3.04") = None.
Proof. vm_compute. reflexivity. Qed.
Example ip_ex3 : parse_ip (B "::ffff:1.2.3.4") = parse_ip (B "1.2.3.4").
Proof. vm_compute. reflexivity. Qed.
Example ip_ex4 : parse_ip (B "2001:db8::1") = Some 42540766411282592856903984951653826561%N.
Proof. vm_compute. reflexivity. Qed.
Example ip_ex5 : parse_ip (B "fe80::1%eth0") = None.
Proof. vm_compute. reflexivity. Qed.
Example ip_ex6 : parse_ip (B "1:2:3:4:5:6:7:8") = parse_ip (B "1:2:3:4:5:6:0.7.0.8").
Proof. vm_compute. reflexivity. Qed.
Example ip_ex7 : parse_ip (B "1:2:3:4:5:6:7::8") = None.
Proof. vm_compute. reflexivity. Qed.
Example cidr_ex1 :
  option_map (fun n => net_contains n (parse_ip (B "10.1.2.3"))) (parse_cidr (B "10.0.0.0/8")) = Some true.
Proof. vm_compute. reflexivity. Qed.
Example cidr_ex2 :
  option_map (fun n => net_contains n (parse_ip (B "11.1.2.3"))) (parse_cidr (B "10.0.0.0/8")) = Some false.
Proof. vm_compute. reflexivity. Qed.
Example cidr_ex3 :
  option_map (fun n => net_contains n (parse_ip (B "11.1.2.3"))) (parse_cidr (B "::/0")) = Some false.
Proof. vm_compute. reflexivity. Qed.
Example hp_ex1 : split_host_port (B "[::1]:25") = Some (B "::1", B "25").
Proof. vm_compute. reflexivity. Qed.
Example hp_ex2 : split_host_port (B "1.2.3.4:25") = Some (B "1.2.3.4", B "25").
Proof. vm_compute. reflexivity. Qed.
