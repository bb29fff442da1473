(** Model of what is recorded about a message: hashes, the save file, the
    message log line (/repo/sinksmtp.go:395-433, 435-624). *)
From Verif Require Import Bytes Outcome GoNet World Dns CipherNames.

(** The connection: its number, the server's process id, and the texts of the
    two addresses (net.Addr.String). *)
Record conn := mkConn { n_pid : nat; n_cid : nat; n_raddr : bytes; n_laddr : bytes }.
(** sinksmtp.go:887-888: host parts, empty if there is none *)
Definition n_rip (cn : conn) : bytes := host_of (n_raddr cn).
Definition n_lip (cn : conn) : bytes := host_of (n_laddr cn).
(** sinksmtp.go:886 *)
Definition n_prefix (cn : conn) : bytes := itoa (n_pid cn) ++ B "/" ++ itoa (n_cid cn).

(** sinksmtp.go:395-433, without the addresses ([conn]) and the logger.
    [x_when] is the formatted time. *)
Record tx := mkTx {
  x_rdns : rdns;
  x_helo : bytes;
  x_from : bytes;
  x_rcptto : list bytes;
  x_data : bytes;
  x_hash : bytes;
  x_bodyhash : bytes;
  x_when : bytes;
  x_savedir : bytes;
  x_tlson : bool;
  x_cipher : N;
  x_version : N;
  x_server : bytes;
  x_peer : bytes;
  x_verified : bool;
  x_lastmsg : bytes;
  x_lastamsg : bytes;
  x_lastgood : bool
}.

(** net/mail.ReadMessage and reading the body, a function of the message *)
Inductive mail_res := MNoParse | MNoBody | MBody (body : bytes).

(** sinksmtp.go:437-458.  [sha1] is the SHA-1 hash in hexadecimal. *)
Definition getHashes (sha1 : bytes -> bytes) (mail : bytes -> mail_res) (data : bytes) : bytes * bytes :=
  (sha1 data,
   match mail data with
   | MNoParse => B "<cannot-parse-message>"
   | MNoBody => B "<cannot-read-body?>"
   | MBody body => sha1 body
   end).

(** sinksmtp.go:460-469 *)
Definition writeDNSList (pref : bytes) (dlist : list bytes) : bytes :=
  match dlist with
  | [] => []
  | _ => pref ++ concat (map (fun e => B " " ++ e) dlist) ++ [ch_nl]
  end.

(** sinksmtp.go:479-495 *)
Definition tlsProtoVersion (ver : N) : bytes :=
  if N.eqb ver 768 then B "SSLv3"
  else if N.eqb ver 769 then B "TLSv1.0"
  else if N.eqb ver 770 then B "TLSv1.1"
  else if N.eqb ver 771 then B "TLSv1.2"
  else if N.eqb ver 772 then B "TLSv1.3"
  else B "tls-0x" ++ hex4 ver.

(** sinksmtp.go:554-555: the id line *)
Definition idLine (cn : conn) (t : tx) : bytes :=
  B "id " ++ n_prefix cn ++ B " " ++ n_raddr cn ++ B " " ++ x_when t ++ [ch_nl].

(** sinksmtp.go:565-582: the tls line *)
Definition tlsLine (t : tx) : bytes :=
  if x_tlson t then
    B "tls on cipher 0x" ++ hex4 (x_cipher t) ++
    (if beqb (cipherNames (x_cipher t)) [] then [] else B " name " ++ cipherNames (x_cipher t)) ++
    B " proto " ++ tlsProtoVersion (x_version t) ++
    (if beqb (x_server t) [] then [] else B " server-name '" ++ x_server t ++ B "'") ++
    (if beqb (x_peer t) [] then [] else B " client-name '" ++ x_peer t ++ B "'") ++
    (if x_verified t then B " client-name-verified" else []) ++ [ch_nl]
  else [].

(** sinksmtp.go:556-590: what follows the id line *)
Definition metaText (cn : conn) (t : tx) : bytes :=
  (B "remote " ++ (if beqb (n_rip cn) [] then n_raddr cn else n_rip cn) ++ B " to " ++ n_laddr cn ++
   B " with helo '" ++ x_helo t ++ B "'" ++ [ch_nl]) ++
  writeDNSList (B "remote-dns") (rd_verified (x_rdns t)) ++
  writeDNSList (B "remote-dns-nofwd") (rd_nofwd (x_rdns t)) ++
  writeDNSList (B "remote-dns-inconsist") (rd_inconsist (x_rdns t)) ++
  tlsLine t ++
  (B "from <" ++ x_from t ++ B ">" ++ [ch_nl]) ++
  concat (map (fun a => B "to <" ++ a ++ B ">" ++ [ch_nl]) (x_rcptto t)) ++
  (B "hash " ++ x_hash t ++ B " bytes " ++ itoa (length (x_data t)) ++ [ch_nl]) ++
  (B "bodyhash " ++ x_bodyhash t ++ [ch_nl]) ++
  (B "body" ++ [ch_nl]) ++ x_data t.

(** sinksmtp.go:550-595 *)
Definition msgDetails (sha1 : bytes -> bytes) (cn : conn) (t : tx) : bytes * bytes :=
  (idLine cn t ++ metaText cn t, sha1 (metaText cn t)).

(** sinksmtp.go:600-622: the text written to the message log *)
Definition logText (cn : conn) (t : tx) : bytes :=
  x_when t ++ B " [" ++ n_prefix cn ++ B "] from " ++ n_raddr cn ++ B " / " ++
  B "<" ++ x_from t ++ B "> to" ++ concat (map (fun a => B " <" ++ a ++ B ">") (x_rcptto t)) ++
  B ": message " ++ itoa (length (x_data t)) ++ B " bytes hash " ++ x_hash t ++ B " body " ++ x_bodyhash t ++
  B " | local " ++ n_laddr cn ++ B " helo '" ++ x_helo t ++ B "'" ++
  (if x_tlson t then B " tls:cipher 0x" ++ hex4 (x_cipher t) ++ B " tls:proto 0x" ++ hex4 (x_version t) else []) ++
  [ch_nl].

(** sinksmtp.go:649-658: the name of the save file; [None] is the panic on an
    unknown hash type *)
Definition saveName (sha1 : bytes -> bytes) (hashtype : bytes) (cn : conn) (t : tx) : option bytes :=
  let (m, mhash) := msgDetails sha1 cn t in
  if beqb hashtype (B "msg") then Some (x_hash t)
  else if beqb hashtype (B "full") then Some mhash
  else if beqb hashtype (B "all") then Some (sha1 m)
  else None.
