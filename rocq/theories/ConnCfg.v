(** Model of /repo/conncfg.go and of loadCerts (/repo/sinksmtp.go:1248-1270). *)
From Verif Require Import Bytes Outcome GoNet World Eval.

(** A certificate with its key, as loaded by tls.LoadX509KeyPair from the two
    named files, or the text of the error.  The contents do not matter here. *)
Definition keypair := bytes -> bytes -> bytes + bytes.

(** sinksmtp.go:1259-1268 *)
Fixpoint loadPairs (ld : keypair) (many : bool) (cs ks : list bytes) : list bytes + bytes :=
  match cs, ks with
  | c :: cs', k :: ks' =>
      match ld c k with
      | inr e => inr (if many then B "while loading " ++ c ++ B " & " ++ k ++ B ": " ++ e else e)
      | inl x => match loadPairs ld many cs' ks' with
                 | inl xs => inl (x :: xs)
                 | inr e => inr e
                 end
      end
  | _, _ => inl []
  end.

(** sinksmtp.go:1248-1270 *)
Definition loadCerts (ld : keypair) (certs keys : bytes) : list bytes + bytes :=
  let clist := split_byte certs "," in
  let klist := split_byte keys "," in
  if negb (Nat.eqb (length clist) (length klist)) then inr (B "Different number of certificates and keys")
  else loadPairs ld (Nat.ltb 1 (length clist)) clist klist.

(** conncfg.go:17-25 *)
Record perDest := mkPerDest { pd_local : bytes; pd_myname : bytes; pd_certs : list bytes }.
Definition destMap := list perDest.

(** conncfg.go:36-47, for one entry *)
Definition de_matches (las : bytes) (ip : option ip) (local : bytes) : bool :=
  beqb local (B "*") || beqb local las || ip_equal ip (parse_ip local) ||
  match parse_cidr local with None => false | Some n => net_contains n ip end.

(** conncfg.go:27-49; [las] is the text of the local address, [d] is [None]
    for a nil map *)
Definition dm_find (d : option destMap) (las : bytes) : option perDest :=
  match d with
  | None => None
  | Some d => find (fun de => de_matches las (parse_ip (host_of las)) (pd_local de)) d
  end.

(** conncfg.go:86-101: the key=value fields, with the values so far *)
Record cfields := mkCf { cf_host : bytes; cf_cert : bytes; cf_key : bytes }.
Fixpoint conn_fields (lnum : nat) (fs : list bytes) (v : cfields) : cfields + bytes :=
  match fs with
  | [] => inl v
  | s :: fs' =>
      match split2 s "=" with
      | (_, None) => inr (B "field has no = in line " ++ itoa lnum)
      | (k, Some x) =>
          if beqb k (B "hostname") then conn_fields lnum fs' (mkCf x (cf_cert v) (cf_key v))
          else if beqb k (B "cert") then conn_fields lnum fs' (mkCf (cf_host v) x (cf_key v))
          else if beqb k (B "key") then conn_fields lnum fs' (mkCf (cf_host v) (cf_cert v) x)
          else inr (B "unrecognized key '" ++ k ++ B "' in line " ++ itoa lnum)
      end
  end.

(** conncfg.go:78-117: a line that is not skipped.  It has at least one field;
    were there none (no such line exists for strings.TrimSpace and
    strings.Fields) Go's ls[0] would panic. *)
Definition conn_line (U : unicode) (ld : keypair) (lnum : nat) (line : bytes) : outcome (perDest + bytes) :=
  match fields U line with
  | [] => Panic
  | local :: rest =>
      Ok (if Nat.ltb 4 (length (local :: rest)) then inr (B "too many fields in line " ++ itoa lnum)
          else
            match conn_fields lnum rest (mkCf [] [] []) with
            | inr e => inr e
            | inl v =>
                if negb (beqb (cf_cert v) []) && negb (beqb (cf_key v) []) then
                  match loadCerts ld (cf_cert v) (cf_key v) with
                  | inl certs => inl (mkPerDest local (cf_host v) certs)
                  | inr e => inr (B "error loading TLS cert(s) and key(s) from line " ++ itoa lnum ++ B ": " ++ e)
                  end
                else if negb (beqb (cf_cert v) []) then inr (B "certificate without key on line " ++ itoa lnum)
                else if negb (beqb (cf_key v) []) then inr (B "key without certificate on line " ++ itoa lnum)
                else inl (mkPerDest local (cf_host v) [])
            end)
  end.

(** conncfg.go:59-119 over the newline-terminated lines: an unterminated last
    line comes with io.EOF and is not looked at.  [ioerr] is the error of the
    reader other than EOF, if any. *)
Fixpoint conn_lines (U : unicode) (ld : keypair) (lnum : nat) (lines : list bytes) (ioerr : option bytes) : outcome (destMap + bytes) :=
  match lines with
  | [] => Ok (match ioerr with None => inl [] | Some e => inr e end)
  | l :: ls =>
      let line := trim_space U l in
      let skip := match line with [] => true | c :: _ => Ascii.eqb c "#" end in
      if skip then conn_lines U ld (S lnum) ls ioerr
      else
        do pd <- conn_line U ld (S lnum) line;
        match pd with
        | inr e => Ok (inr e)
        | inl pd =>
            do r <- conn_lines U ld (S lnum) ls ioerr;
            Ok (match r with inl d => inl (pd :: d) | inr e => inr e end)
        end
  end.

(** conncfg.go:55-120, 122-129.  The texts of errors of the operating system
    are not modelled. *)
Definition loadConnFile (W : world) (ld : keypair) (fname : bytes) : X (outcome (destMap + bytes)) :=
  dox f <- read_file W fname;
  xret (match f with
        | FRead content err => conn_lines (w_uni W) ld 0 (nl_lines [] content) (if err then Some (B "read error") else None)
        | _ => Ok (inr (B "open error"))
        end).
