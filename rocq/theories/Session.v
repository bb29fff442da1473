(** Model of one connection: decider and process, with handleMessage and the
    logging around them (/repo/sinksmtp.go:498-544, 624-1235).

    The smtpd package is the environment: it delivers any sequence of events,
    each with the TLS state of the connection, and takes replies.  Everything
    the session does that others can see is an [effect]. *)
From Coq Require Export ZArith.
From Verif Require Import Bytes Outcome Lexer Ast GoNet Parser World Dns Eval Decisions RuleLoad ConnCfg CipherNames Message.

(** ** What the session sees and does *)

(** A certificate as far as tlsName looks at it *)
Record cert := mkCert { cert_cn : bytes; cert_dns : list bytes }.
(** convo.TLSOn and convo.TLSState *)
Record tlsstate := mkTls {
  ts_on : bool; ts_cipher : N; ts_version : N; ts_server : bytes;
  ts_chains : list (list cert); ts_peers : list cert
}.
Definition no_tls : tlsstate := mkTls false 0 0 [] [] [].

(** smtpd.EventInfo.  [EvOther] stands for every other command or event. *)
Inductive sevent :=
| EvHelo (cmd : helocmd) (arg : bytes)
| EvMailFrom (arg : bytes)
| EvRcptTo (arg : bytes)
| EvData (arg : bytes)
| EvGotData (arg : bytes)
| EvTlsError
| EvDone
| EvAbort
| EvOther.

(** The replies a session can give to smtpd *)
Inductive reply :=
| RpAccept | RpAcceptMsg (m : bytes) | RpAcceptData (id : bytes)
| RpReject | RpRejectMsg (m : bytes)
| RpTempfail | RpTempfailMsg (m : bytes).

(** Operations on a shared blacklist, with their results *)
Inductive bop :=
| BAdd (ip : bytes) (ttl : Z) (res : Z)
| BSet (ip : bytes) (ttl : Z) (cnt : Z) (res : Z)
| BDel (ip : bytes)
| BLookup (ip : bytes) (ttl : Z) (hit : bool) (n : Z).

Inductive open_res := OpOk | OpExists | OpErr (e : bytes).
(** an error after [n] bytes were written *)
Inductive write_res := WrOk | WrErr (n : nat) (e : bytes).

Inductive effect :=
| FDecide (d : decision)                         (* the rules were consulted; not visible outside, for specifications *)
| FLoc (laddr : bytes)                           (* loccounts.Add *)
| FYak (o : bop)                                 (* an operation on yakkers *)
| FNotls (o : bop)                               (* an operation on notls *)
| FEvent (name : bytes)                          (* an event counter *)
| FTime (what laddr : bytes)                     (* updateTimeOf *)
| FSmtplog (text : bytes)
| FDnlog (text : bytes)
| FMsglog (text : bytes)
| FWarn (text : bytes)                           (* warnf and warnonce, after "sinksmtp: " *)
| FDbl (names : list bytes) | FSbl (names : list bytes)
| FTxt (name : bytes)                            (* a TXT lookup *)
| FConn (name : bytes) (slow : bool) (tls : option (list bytes * bool))
    (* smtpd.NewConn; if TLS is offered: the certificates shown, and whether a client certificate is asked for *)
| FTlsOff | FTlsNoClient                         (* changes of the TLS configuration *)
| FReply (r : reply)
| FOpen (path : bytes) (r : open_res)
| FWrite (path data : bytes) (r : write_res)
| FSync (path : bytes)
| FClose (path : bytes) (e : option bytes)
| FHangup.                                       (* process returns: nc.Close *)

(** ** Settings and environment *)

(** The global settings (sinksmtp.go:1272-1289) and the arguments of process
    that are the same for all connections *)
Record config := mkConfig {
  k_savedir : bytes; k_hashtype : bytes; k_minphase : bytes;
  k_yakcount : Z; k_yakttl : Z;
  k_srvname : bytes; k_connfile : bytes; k_goslow : bool;
  k_rulefiles : list bytes; k_base : list rule;
  k_smtplog : bool; k_dnlog : bool; k_msglog : bool;
  k_certs : list bytes
}.

(** sinksmtp.go:204, in nanoseconds *)
Definition tlsTimeout : Z := (72 * 3600 * 1000000000)%Z.

(** The rest of the world.  The first argument of the oracles is the number of
    effects of the session so far, so answers may change at any time. *)
Record senv := mkEnv {
  v_world : world;                                  (* pattern files, DNS *)
  v_fds : nat; v_rfs : rfs; v_tick : nat;           (* rule files *)
  v_keys : keypair;                                 (* certificate files *)
  v_lookup : nat -> bool * Z;                       (* ipMap.Lookup *)
  v_count : nat -> Z;                               (* ipMap.Add and Set *)
  v_now : nat -> bytes;                             (* time.Now formatted with TimeNZ *)
  v_nowsmtp : nat -> bytes;                         (* time.Now formatted with smtpd.TimeFmt *)
  v_txt : nat -> bytes -> option (list bytes);      (* net.LookupTXT *)
  v_open : nat -> bytes -> open_res;                (* os.OpenFile with O_CREATE|O_EXCL *)
  v_write : nat -> bytes -> write_res;
  v_close : nat -> option bytes;
  v_sha1 : bytes -> bytes;
  v_mail : bytes -> mail_res;
  v_verify : nat -> cert -> list cert -> option bytes   (* x509 Verify; the error's text *)
}.

(** ** The state of a session *)

(** What is fixed once the connection is set up: the rules in force, whether
    they are good, whether this is a stalled do-nothing client, whether there
    is an SMTP logger. *)
Record sinfo := mkInfo { si_rules : list rule; si_good : bool; si_stall : bool; si_log : bool }.

Record sess := mkSess {
  s_tx : tx;
  s_ctx : ctx;
  s_tls : option bool;          (* convo.Config.TLSConfig: nil, or whether a client certificate is asked for *)
  s_got : bool;                 (* gotsomewhere *)
  s_counts : bool;              (* sesscounts *)
  s_out : list effect           (* latest first *)
}.

Definition put_rdns (v : rdns) (t : tx) : tx :=
  mkTx v (x_helo t) (x_from t) (x_rcptto t) (x_data t) (x_hash t) (x_bodyhash t) (x_when t) (x_savedir t) (x_tlson t) (x_cipher t) (x_version t) (x_server t) (x_peer t) (x_verified t) (x_lastmsg t) (x_lastamsg t) (x_lastgood t).
Definition put_helo (v : bytes) (t : tx) : tx :=
  mkTx (x_rdns t) v (x_from t) (x_rcptto t) (x_data t) (x_hash t) (x_bodyhash t) (x_when t) (x_savedir t) (x_tlson t) (x_cipher t) (x_version t) (x_server t) (x_peer t) (x_verified t) (x_lastmsg t) (x_lastamsg t) (x_lastgood t).
Definition put_from (v : bytes) (t : tx) : tx :=
  mkTx (x_rdns t) (x_helo t) v (x_rcptto t) (x_data t) (x_hash t) (x_bodyhash t) (x_when t) (x_savedir t) (x_tlson t) (x_cipher t) (x_version t) (x_server t) (x_peer t) (x_verified t) (x_lastmsg t) (x_lastamsg t) (x_lastgood t).
Definition put_rcptto (v : list bytes) (t : tx) : tx :=
  mkTx (x_rdns t) (x_helo t) (x_from t) v (x_data t) (x_hash t) (x_bodyhash t) (x_when t) (x_savedir t) (x_tlson t) (x_cipher t) (x_version t) (x_server t) (x_peer t) (x_verified t) (x_lastmsg t) (x_lastamsg t) (x_lastgood t).
Definition put_data (v : bytes) (t : tx) : tx :=
  mkTx (x_rdns t) (x_helo t) (x_from t) (x_rcptto t) v (x_hash t) (x_bodyhash t) (x_when t) (x_savedir t) (x_tlson t) (x_cipher t) (x_version t) (x_server t) (x_peer t) (x_verified t) (x_lastmsg t) (x_lastamsg t) (x_lastgood t).
Definition put_when (v : bytes) (t : tx) : tx :=
  mkTx (x_rdns t) (x_helo t) (x_from t) (x_rcptto t) (x_data t) (x_hash t) (x_bodyhash t) v (x_savedir t) (x_tlson t) (x_cipher t) (x_version t) (x_server t) (x_peer t) (x_verified t) (x_lastmsg t) (x_lastamsg t) (x_lastgood t).
Definition put_savedir (v : bytes) (t : tx) : tx :=
  mkTx (x_rdns t) (x_helo t) (x_from t) (x_rcptto t) (x_data t) (x_hash t) (x_bodyhash t) (x_when t) v (x_tlson t) (x_cipher t) (x_version t) (x_server t) (x_peer t) (x_verified t) (x_lastmsg t) (x_lastamsg t) (x_lastgood t).
Definition put_tlson (v : bool) (t : tx) : tx :=
  mkTx (x_rdns t) (x_helo t) (x_from t) (x_rcptto t) (x_data t) (x_hash t) (x_bodyhash t) (x_when t) (x_savedir t) v (x_cipher t) (x_version t) (x_server t) (x_peer t) (x_verified t) (x_lastmsg t) (x_lastamsg t) (x_lastgood t).
Definition put_lastmsg (v : bytes) (t : tx) : tx :=
  mkTx (x_rdns t) (x_helo t) (x_from t) (x_rcptto t) (x_data t) (x_hash t) (x_bodyhash t) (x_when t) (x_savedir t) (x_tlson t) (x_cipher t) (x_version t) (x_server t) (x_peer t) (x_verified t) v (x_lastamsg t) (x_lastgood t).
Definition put_lastamsg (v : bytes) (t : tx) : tx :=
  mkTx (x_rdns t) (x_helo t) (x_from t) (x_rcptto t) (x_data t) (x_hash t) (x_bodyhash t) (x_when t) (x_savedir t) (x_tlson t) (x_cipher t) (x_version t) (x_server t) (x_peer t) (x_verified t) (x_lastmsg t) v (x_lastgood t).
Definition put_lastgood (v : bool) (t : tx) : tx :=
  mkTx (x_rdns t) (x_helo t) (x_from t) (x_rcptto t) (x_data t) (x_hash t) (x_bodyhash t) (x_when t) (x_savedir t) (x_tlson t) (x_cipher t) (x_version t) (x_server t) (x_peer t) (x_verified t) (x_lastmsg t) (x_lastamsg t) v.
Definition put_hashes (h bh : bytes) (t : tx) : tx :=
  mkTx (x_rdns t) (x_helo t) (x_from t) (x_rcptto t) (x_data t) h bh (x_when t) (x_savedir t) (x_tlson t) (x_cipher t) (x_version t) (x_server t) (x_peer t) (x_verified t) (x_lastmsg t) (x_lastamsg t) (x_lastgood t).
Definition put_tls (c : N) (ver : N) (srv : bytes) (t : tx) : tx :=
  mkTx (x_rdns t) (x_helo t) (x_from t) (x_rcptto t) (x_data t) (x_hash t) (x_bodyhash t) (x_when t) (x_savedir t) (x_tlson t) c ver srv (x_peer t) (x_verified t) (x_lastmsg t) (x_lastamsg t) (x_lastgood t).
Definition put_peer (p : bytes) (v : bool) (t : tx) : tx :=
  mkTx (x_rdns t) (x_helo t) (x_from t) (x_rcptto t) (x_data t) (x_hash t) (x_bodyhash t) (x_when t) (x_savedir t) (x_tlson t) (x_cipher t) (x_version t) (x_server t) p v (x_lastmsg t) (x_lastamsg t) (x_lastgood t).

(** Computations of a session; a panic ends the whole server. *)
Definition S' (A : Type) := sess -> outcome (A * sess).
Definition sret {A} (a : A) : S' A := fun s => Ok (a, s).
Definition sbind {A B} (m : S' A) (f : A -> S' B) : S' B :=
  fun s => match m s with Ok (a, s') => f a s' | Panic => Panic | NoFuel => NoFuel end.
Notation "'dos' x <- a ; b" := (sbind a (fun x => b))
  (at level 200, x pattern, a at level 100, b at level 200, right associativity).
Notation "a ;; b" := (sbind a (fun _ => b)) (at level 199, b at level 200, right associativity).
Definition sget {A} (f : sess -> A) : S' A := fun s => Ok (f s, s).
Definition gettx {A} (f : tx -> A) : S' A := sget (fun s => f (s_tx s)).
Definition index : S' nat := sget (fun s => length (s_out s)).
Definition scrash {A} : S' A := fun _ => Panic.
Definition slift {A} (o : outcome A) : S' A :=
  fun s => match o with Ok a => Ok (a, s) | Panic => Panic | NoFuel => NoFuel end.
Definition emit (e : effect) : S' unit :=
  fun s => Ok (tt, mkSess (s_tx s) (s_ctx s) (s_tls s) (s_got s) (s_counts s) (e :: s_out s)).
Definition uptx (f : tx -> tx) : S' unit :=
  fun s => Ok (tt, mkSess (f (s_tx s)) (s_ctx s) (s_tls s) (s_got s) (s_counts s) (s_out s)).
Definition put_got : S' unit :=
  fun s => Ok (tt, mkSess (s_tx s) (s_ctx s) (s_tls s) true (s_counts s) (s_out s)).
Definition put_counts (b : bool) : S' unit :=
  fun s => Ok (tt, mkSess (s_tx s) (s_ctx s) (s_tls s) (s_got s) b (s_out s)).
Definition put_tlscfg (b : option bool) : S' unit :=
  fun s => Ok (tt, mkSess (s_tx s) (s_ctx s) b (s_got s) (s_counts s) (s_out s)).
(** a computation on the rule context *)
Definition inctx {A} (m : M A) : S' A :=
  fun s => match m (s_ctx s) with
           | Ok (a, c) => Ok (a, mkSess (s_tx s) c (s_tls s) (s_got s) (s_counts s) (s_out s))
           | Panic => Panic
           | NoFuel => NoFuel
           end.
Definition when_ (b : bool) (m : S' unit) : S' unit := if b then m else sret tt.

(** ** Small things *)

(** byte-wise order and sort.Strings *)
Fixpoint bytes_leb (a b : bytes) : bool :=
  match a, b with
  | [], _ => true
  | _, [] => false
  | x :: a', y :: b' =>
      if N.ltb (N_of_ascii x) (N_of_ascii y) then true
      else if N.ltb (N_of_ascii y) (N_of_ascii x) then false
      else bytes_leb a' b'
  end.
Fixpoint insert (x : bytes) (l : list bytes) : list bytes :=
  match l with
  | [] => [x]
  | y :: l' => if bytes_leb x y then x :: l else y :: insert x l'
  end.
Definition sort_strings (l : list bytes) : list bytes := fold_right insert [] l.

(** sinksmtp.go:497-508 *)
Definition tlsName (c : cert) : bytes :=
  if negb (beqb (cert_cn c) []) then cert_cn c
  else match cert_dns c with d :: _ => d | [] => B "<no CN or DNS Names>" end.

Section Session.
  Context (K : config) (E : senv) (cn : conn).

  (** sinksmtp.go:375-388: a logged line carries the prefix.  Errors writing
      logs are not modelled here; see Smtplog.v. *)
  Definition logwrite (text : bytes) : S' unit := emit (FSmtplog (n_prefix cn ++ text)).
  (** sinksmtp.go:854-860 *)
  Definition writeLog (I : sinfo) (text : bytes) : S' unit := when_ (si_log I) (logwrite text).
  (** sinksmtp.go:862-868 *)
  Definition yakLog (what : bytes) : S' unit :=
    when_ (k_dnlog K)
      (dos i <- index;
       emit (FDnlog (v_now E i ++ B " [" ++ n_prefix cn ++ B "] " ++ what ++ B " " ++ n_rip cn ++ B " -> " ++ n_laddr cn ++ [ch_nl]))).
  (** a counter of sinksmtp.go:34-42 and updateTimeOf (1454-1485), which only
      feed the statistics *)
  Definition event (name : bytes) : S' unit := emit (FEvent name).
  Definition updateTime (what : bytes) : S' unit := emit (FTime what (n_laddr cn)).

  (** The operations on the shared blacklists *)
  Definition yakAdd : S' Z :=
    dos i <- index; let r := v_count E i in emit (FYak (BAdd (n_rip cn) (k_yakttl K) r));; sret r.
  Definition yakSet (cnt : Z) : S' Z :=
    dos i <- index; let r := v_count E i in emit (FYak (BSet (n_rip cn) (k_yakttl K) cnt r));; sret r.
  Definition yakLookup : S' (bool * Z) :=
    dos i <- index; let (hit, n) := v_lookup E i in emit (FYak (BLookup (n_rip cn) (k_yakttl K) hit n));; sret (hit, n).
  Definition notlsAdd : S' unit :=
    dos i <- index; emit (FNotls (BAdd (n_rip cn) tlsTimeout (v_count E i))).
  Definition notlsLookup : S' (bool * Z) :=
    dos i <- index; let (hit, n) := v_lookup E i in emit (FNotls (BLookup (n_rip cn) tlsTimeout hit n));; sret (hit, n).

  (** sinksmtp.go:510-529.  PeerCertificates[1:] panics when there are none. *)
  Definition tlsTryVerify (t : tlsstate) : S' (option bytes) :=
    match ts_chains t with
    | _ :: _ => sret None
    | [] => match ts_peers t with
            | [] => scrash
            | c :: cs => dos i <- index; sret (v_verify E i c cs)
            end
    end.
  (** sinksmtp.go:531-544 *)
  Definition tlsClientLog (I : sinfo) (t : tlsstate) : S' unit :=
    match ts_peers t with
    | [] => sret tt
    | c :: _ =>
        dos err <- tlsTryVerify t;
        writeLog I (B "! TLS client certificate for '" ++ tlsName c ++
          match err with
          | None => B "' verifies." ++ [ch_nl]
          | Some e => B "' doesn't verify: " ++ e ++ [ch_nl]
          end)
    end.

  (** ** decider *)

  (** sinksmtp.go:693-699: one TXT record *)
  Definition sblOf (txt : bytes) : option bytes :=
    match last_index txt "/" with
    | None => None
    | Some i => if Nat.eqb i (length txt - 1) then None else Some (skipn (S i) txt)
    end.
  (** sinksmtp.go:684-702; the address must have four parts *)
  Definition getSBLHits : S' (list bytes) :=
    match split_byte (n_rip cn) ch_dot with
    | a :: b :: c :: d :: _ =>
        let ln := d ++ B "." ++ c ++ B "." ++ b ++ B "." ++ a ++ B ".sbl.spamhaus.org." in
        dos i <- index;
        let r := v_txt E i ln in
        emit (FTxt ln);;
        sret (match r with
              | None => []
              | Some txts => sort_strings (flat_map (fun t => match sblOf t with Some x => [x] | None => [] end) txts)
              end)
    | _ => scrash
    end.

  (** sinksmtp.go:724-735 *)
  Fixpoint logSbls (hits : list bytes) : S' unit :=
    match hits with
    | [] => sret tt
    | h :: hits' =>
        (if beqb h (B "sbl.spamhaus.org.") then
           dos sbls <- getSBLHits;
           match sbls with
           | [] => sret tt
           | _ => logwrite (B "! SBL records: " ++ join (B " ") sbls ++ [ch_nl]);; emit (FSbl sbls)
           end
         else sret tt);;
        logSbls hits'
    end.

  (** sinksmtp.go:707-736.  sort.Strings sorts the context's list in place; the
      order of that list shows nowhere else, so the context keeps its list here. *)
  Definition logDnsbls (I : sinfo) : S' unit :=
    dos hits <- sget (fun s => c_dnsblhit (s_ctx s));
    match hits with
    | [] => sret tt
    | _ =>
        if negb (si_log I) then sret tt else
        let sorted := sort_strings hits in
        let lmsg := B "! dnsbl hit: " ++ join (B " ") sorted ++ [ch_nl] in
        dos last <- gettx x_lastmsg;
        if beqb lmsg last then sret tt else
        logwrite lmsg;;
        uptx (put_lastmsg lmsg);;
        emit (FDbl sorted);;
        logSbls sorted
    end.

  (** sinksmtp.go:772-779 *)
  Definition logDomerr (I : sinfo) : S' unit :=
    dos de <- sget (fun s => c_domerr (s_ctx s));
    match de with
    | None => sret tt
    | Some e =>
        if negb (si_log I) then sret tt else
        let lmsg := B "! " ++ e ++ [ch_nl] in
        dos last <- gettx x_lastamsg;
        if beqb lmsg last then sret tt else
        logwrite lmsg;; uptx (put_lastamsg lmsg)
    end.

  (** the value of a with option of the last decision, empty when not set *)
  Definition withprop (k : bytes) : S' bytes :=
    sget (fun s => match mget (c_withprops (s_ctx s)) k with Some v => v | None => [] end).

  (** sinksmtp.go:780-802: savedir, note, tls-opt.  Without a logger the note
      is written through a nil pointer. *)
  Definition applyProps (I : sinfo) : S' unit :=
    dos sd <- withprop (B "savedir");
    when_ (negb (beqb sd [])) (uptx (put_savedir sd));;
    dos note <- withprop (B "note");
    when_ (negb (beqb note []))
      (if si_log I then logwrite (B "! rule note: " ++ note ++ [ch_nl]) else scrash);;
    dos topt <- withprop (B "tls-opt");
    if beqb topt (B "off") then emit FTlsOff;; put_tlscfg None
    else if beqb topt (B "no-client") then
      dos cfg <- sget s_tls;
      match cfg with
      | None => sret tt
      | Some _ => emit FTlsNoClient;; put_tlscfg (Some false)
      end
    else sret tt.

  (** sinksmtp.go:739-744 *)
  Definition pluralRecips : S' bytes :=
    dos r <- gettx x_rcptto; sret (if Nat.ltb 1 (length r) then B "those addresses" else B "that address").

  Definition theTrans (t : tx) : trans := mkTrans (n_rip cn) (n_lip cn) (x_tlson t) (x_rdns t) (x_rcptto t).

  (** sinksmtp.go:818-850: the reply to a refusal.  [msg]
      is the message option. *)
  Definition refusal (res : action) (ph : phase) (id msg : bytes) : S' unit :=
    match res with
    | aReject =>
        if negb (beqb msg []) then
          emit (FReply (RpRejectMsg (msg ++ (if beqb id [] then [] else [ch_nl] ++ B "Rejected with ID " ++ id))))
        else if negb (beqb id []) && peqb ph pMessage then
          dos p <- pluralRecips;
          emit (FReply (RpRejectMsg (B "We do not consent to you emailing " ++ p ++ [ch_nl] ++ B "Rejected with ID " ++ id)))
        else if peqb ph pMessage || peqb ph pData then
          dos p <- pluralRecips;
          emit (FReply (RpRejectMsg (B "We do not consent to you emailing " ++ p)))
        else if peqb ph pRto then
          emit (FReply (RpRejectMsg (B "We do not consent to you emailing that address")))
        else emit (FReply RpReject)
    | aStall =>
        emit (FReply (if beqb msg [] then RpTempfail else RpTempfailMsg msg))
    | _ => scrash
    end.

  (** sinksmtp.go:768-852 *)
  Definition decider (I : sinfo) (ph : phase) (e : evt) (id : bytes) : S' bool :=
    dos t <- gettx (fun t => t);
    dos res <- inctx (Decide (v_world E) (theTrans t) (si_rules I) ph e);
    dos c <- sget s_ctx;
    emit (FDecide (mkDecision (theTrans t) ph e res (c_withprops c) (c_dnsblhit c) (c_domerr c)));;
    logDnsbls I;;
    logDomerr I;;
    applyProps I;;
    match res with
    | aNoresult | aAccept => uptx (put_lastgood true);; sret false
    | _ =>
        uptx (put_lastgood false);;
        if peqb ph pConnect then sret (match res with aReject => true | _ => false end)
        else
          dos msg <- withprop (B "message");
          refusal res ph id msg;;
          sret true
    end.

  (** sinksmtp.go:746-759 *)
  Definition doAccept (transid : bytes) : S' unit :=
    dos msg <- withprop (B "message");
    if negb (beqb msg []) then
      emit (FReply (RpAcceptMsg (msg ++ (if beqb transid [] then [] else [ch_nl] ++ B "Accepted with ID " ++ transid))))
    else if negb (beqb transid []) then emit (FReply (RpAcceptData transid))
    else emit (FReply RpAccept).

  (** ** handleMessage *)

  (** sinksmtp.go:661-680: create and write the file; the result is the error
      returned.  An error of Write is reported but replaced by that of Close. *)
  Definition saveFile (path m : bytes) : S' (option bytes) :=
    dos i <- index;
    let r := v_open E i path in
    emit (FOpen path r);;
    match r with
    | OpExists => sret None
    | OpErr e => emit (FWarn (B "error writing message file: " ++ e ++ [ch_nl]));; sret (Some e)
    | OpOk =>
        dos i <- index;
        let w := v_write E i path in
        emit (FWrite path m w);;
        match w with
        | WrOk => sret tt
        | WrErr _ e => emit (FWarn (B "error writing message file: " ++ e ++ [ch_nl]))
        end;;
        emit (FSync path);;
        dos i <- index;
        let c := v_close E i in
        emit (FClose path c);;
        match c with
        | None => sret None
        | Some e => emit (FWarn (B "error closing message file: " ++ e ++ [ch_nl]));; sret (Some e)
        end
    end.

  (** sinksmtp.go:624-681 *)
  Definition handleMessage : S' (bytes * option bytes) :=
    dos t <- gettx (fun t => t);
    when_ (k_msglog K) (emit (FMsglog (logText cn t)));;
    if beqb (x_savedir t) [] then sret (x_hash t, None)
    else
      let (m, _) := msgDetails (v_sha1 E) cn t in
      match saveName (v_sha1 E) (k_hashtype K) cn t with
      | None => scrash
      | Some hash =>
          dos err <- saveFile (x_savedir t ++ B "/" ++ hash) m;
          sret (hash, err)
      end.

  (** ** The events *)

  Inductive next := Go | Drop | Finish.

  Definition minphase (p : bytes) : S' unit := when_ (beqb (k_minphase K) p) put_got.

  (** sinksmtp.go:1047-1067 *)
  Definition onHelo (I : sinfo) (tls : tlsstate) (cmd : helocmd) (arg : bytes) : S' next :=
    event (B "ehlo");;
    dos refused <- decider I pHelo (mkEvt (Some cmd) arg) [];
    if refused : bool then sret Go else
    uptx (fun t => put_rcptto [] (put_hashes [] [] (put_data [] (put_from [] (put_helo arg t)))));;
    minphase (B "helo");;
    event (B "ehloAccept");;
    dos on <- gettx x_tlson;
    when_ (ts_on tls && negb on)
      (event (B "tlson");; event (B "starttls");; uptx (put_tlson (ts_on tls));; tlsClientLog I tls);;
    sret Go.

  (** sinksmtp.go:1068-1103 *)
  Definition onMailFrom (I : sinfo) (arg : bytes) : S' next :=
    event (B "mailfrom");;
    dos refused <- decider I pMfrom (mkEvt None arg) [];
    if refused : bool then sret Go else
    dos from <- gettx x_from;
    dos got <- sget s_got;
    dos counts <- sget s_counts;
    dos drop <-
      (if negb (beqb from []) && negb got && counts then
         event (B "rsets");;
         dos cnt <- yakAdd;
         if Z.ltb (k_yakcount K) cnt then
           event (B "yakads");; event (B "rsetdrops");;
           writeLog I (B "! " ++ n_rip cn ++ B " added as a yakker at hit " ++ itoa (Z.to_nat cnt) ++ B " due to RSET" ++ [ch_nl]);;
           emit (FReply (RpTempfailMsg (B "Too many unsuccessful delivery attempts")));;
           sret true
         else sret false
       else sret false);
    if drop : bool then sret Drop else
    uptx (fun t => put_rcptto [] (put_data [] (put_from arg t)));;
    minphase (B "from");;
    doAccept [];;
    event (B "mailfromAccept");;
    sret Go.

  (** sinksmtp.go:1104-1114 *)
  Definition onRcptTo (I : sinfo) (arg : bytes) : S' next :=
    event (B "rcptto");;
    dos refused <- decider I pRto (mkEvt None arg) [];
    if refused : bool then sret Go else
    uptx (fun t => put_rcptto (x_rcptto t ++ [arg]) t);;
    minphase (B "to");;
    doAccept [];;
    event (B "rcpttoAccept");;
    sret Go.

  (** sinksmtp.go:1115-1124 *)
  Definition onData (I : sinfo) (arg : bytes) : S' next :=
    event (B "data");;
    dos refused <- decider I pData (mkEvt None arg) [];
    if refused : bool then sret Go else
    minphase (B "data");;
    doAccept [];;
    event (B "dataAccept");;
    sret Go.

  (** sinksmtp.go:1142-1149.  An empty verified chain would panic. *)
  Definition notePeer (tls : tlsstate) : S' unit :=
    match ts_chains tls with
    | (c :: _) :: _ => uptx (put_peer (tlsName c) true)
    | [] :: _ => scrash
    | [] =>
        match ts_peers tls with
        | [] => sret tt
        | c :: _ => dos err <- tlsTryVerify tls;
                    uptx (put_peer (tlsName c) (match err with None => true | _ => false end))
        end
    end.

  (** sinksmtp.go:1126-1167 *)
  Definition onGotData (I : sinfo) (tls : tlsstate) (arg : bytes) : S' next :=
    event (B "messages");;
    minphase (B "message");;
    dos i <- index;
    uptx (fun t => put_tls (ts_cipher tls) (ts_version tls) (ts_server tls)
                     (put_tlson (ts_on tls) (put_when (v_now E i) (put_data arg t))));;
    notePeer tls;;
    uptx (fun t => let (h, bh) := getHashes (v_sha1 E) (v_mail E) (x_data t) in put_hashes h bh t);;
    dos (transid, err) <- handleMessage;
    match err with
    | Some _ => emit (FReply RpTempfail);; put_got
    | None =>
        dos refused <- decider I pMessage (mkEvt None arg) transid;
        if refused : bool then sret tt
        else minphase (B "accepted");; doAccept transid
    end;;
    updateTime (B "message");;
    sret Go.

  (** sinksmtp.go:1168-1174 *)
  Definition onTlsError : S' next :=
    notlsAdd;; put_counts false;; event (B "tlserrs");; event (B "starttls");; sret Go.

  (** sinksmtp.go:1042-1184: one turn of the loop *)
  Definition step (I : sinfo) (ev : sevent * tlsstate) : S' next :=
    let (e, tls) := ev in
    match e with
    | EvHelo cmd arg => onHelo I tls cmd arg
    | EvMailFrom arg => onMailFrom I arg
    | EvRcptTo arg => onRcptTo I arg
    | EvData arg => onData I arg
    | EvGotData arg => onGotData I tls arg
    | EvTlsError => onTlsError
    | EvDone => event (B "quits");; sret Finish
    | EvAbort => event (B "aborts");; sret Finish
    | EvOther => sret Go
    end.

  (** sinksmtp.go:1185-1234 *)
  Definition finish (I : sinfo) : S' unit :=
    dos force <- sget (fun s => match mget (c_withprops (s_ctx s)) (B "make-yakker") with Some _ => true | None => false end);
    dos got <- sget s_got;
    dos counts <- sget s_counts;
    (if force : bool then
       dos cnt <- yakSet (k_yakcount K);
       when_ (negb (Z.eqb cnt (k_yakcount K)))
         (writeLog I (B "! " ++ n_rip cn ++ B " forced to be a yakker" ++ [ch_nl]);;
          event (B "yakads");; event (B "yakforces");; yakLog (B "force-set"))
     else if negb got && counts then
       dos cnt <- yakAdd;
       when_ (Z.eqb cnt (k_yakcount K))
         (writeLog I (B "! " ++ n_rip cn ++ B " added as a yakker at hit " ++ itoa (Z.to_nat cnt) ++ [ch_nl]);;
          event (B "yakads");; yakLog (B "added"))
     else when_ (Z.ltb 0 (k_yakcount K) && got) (emit (FYak (BDel (n_rip cn)))));;
    when_ (got && negb (beqb (k_minphase K) (B "message"))) (updateTime (B "reached_minphase"));;
    dos good <- gettx x_lastgood;
    when_ (si_good I && (counts || Z.eqb (k_yakcount K) 0))
      (event (if good : bool then B "abandons" else B "refuseds")).

  (** ** Setting up *)

  (** sinksmtp.go:890-934: rules, do-nothing clients, logger *)
  Definition setupClient : S' sinfo :=
    emit (FLoc (n_laddr cn));;
    match setupRules (v_fds E) (v_rfs E) (v_tick E) (k_base K) (k_rulefiles K) with
    | None => scrash
    | Some rr =>
        match rr_warning rr with Some w => emit (FWarn w);; event (B "ruleserr") | None => sret tt end;;
        put_counts (rr_good rr && Z.ltb 0 (k_yakcount K));;
        dos (hit, cnt) <- yakLookup;
        if Z.ltb 0 (k_yakcount K) && hit && Z.leb (k_yakcount K) cnt && k_smtplog K then
          put_counts false;;
          event (B "yakkers");;
          updateTime (B "yakker");;
          yakLog (B "connection");;
          sret (mkInfo stallall (rr_good rr) true false)
        else
          updateTime (B "regular");;
          sret (mkInfo (rr_rules rr) (rr_good rr) false (k_smtplog K))
    end.

  (** sinksmtp.go:936-951.  An empty name from the reverse lookup would panic. *)
  Definition localName : S' bytes :=
    if negb (beqb (k_srvname K) []) then sret (k_srvname K)
    else
      dos r <- inctx (ext (lookup_addr (v_world E) (n_lip cn)));
      match r with
      | inl (n :: _) =>
          match last_byte n with
          | None => scrash
          | Some c => sret (if Ascii.eqb c ch_dot then drop_last n else n)
          end
      | _ => sret (n_laddr cn)
      end.

  (** sinksmtp.go:953-966: name and certificates after the conncfg file *)
  Definition connParams (sname : bytes) : S' (bytes * list bytes) :=
    if beqb (k_connfile K) [] then sret (sname, k_certs K)
    else
      dos r <- inctx (ext (loadConnFile (v_world E) (v_keys E) (k_connfile K)));
      dos dm <- slift r;
      match dm with
      | inr e =>
          emit (FWarn (B "error loading per-connection rules '" ++ k_connfile K ++ B "': " ++ e ++ [ch_nl]));;
          sret (sname, k_certs K)
      | inl d =>
          sret (match dm_find (Some d) (n_laddr cn) with
                | None => (sname, k_certs K)
                | Some pd => (if beqb (pd_myname pd) [] then sname else pd_myname pd, pd_certs pd)
                end)
      end.

  (** sinksmtp.go:968-1019 *)
  Definition setupConn (I : sinfo) (sname : bytes) (certs : list bytes) : S' unit :=
    dos (blocktls, blcount) <- notlsLookup;
    let blocked := blocktls && Z.leb 2 blcount in
    let tls := match certs with
               | [] => None
               | _ => if blocked then None else Some (Z.eqb blcount 0)
               end in
    put_tlscfg tls;;
    when_ blocked (event (B "notlscnt"));;
    emit (FConn sname (k_goslow K || si_stall I) (option_map (fun ask => (certs, ask)) tls)).

  (** sinksmtp.go:871-1038: everything before the first command; [None] when
      the connection is dropped *)
  Definition setup : S' (option sinfo) :=
    dos inf <- setupClient;
    dos sname <- localName;
    dos (sname, certs) <- connParams sname;
    setupConn inf sname certs;;
    dos (rdns, _) <- inctx (ext (LookupAddrVerified (v_world E) (n_rip cn)));
    uptx (put_rdns rdns);;
    dos refused <- decider inf pConnect (mkEvt None []) [];
    if refused : bool then
      dos i <- index;
      when_ (negb (si_stall inf))
        (writeLog inf (B "! " ++ n_rip cn ++ B " dropped on connect due to rule at " ++ v_nowsmtp E i ++ [ch_nl]));;
      sret None
    else sret (Some inf).

  (** the loop *)
  Fixpoint loop (I : sinfo) (evs : list (sevent * tlsstate)) : S' next :=
    match evs with
    | [] => sret Go
    | ev :: evs' =>
        dos n <- step I ev;
        match n with Go => loop I evs' | _ => sret n end
    end.

  (** sinksmtp.go:871-1235 process, over the events that smtpd delivers.  The
      result tells whether process has returned. *)
  Definition process (evs : list (sevent * tlsstate)) : S' bool :=
    dos oI <- setup;
    match oI with
    | None => emit FHangup;; sret true
    | Some inf =>
        dos n <- loop inf evs;
        match n with
        | Go => sret false
        | Drop => emit FHangup;; sret true
        | Finish => finish inf;; emit FHangup;; sret true
        end
    end.

  (** sinksmtp.go:881-888: the state process starts in *)
  Definition sess0 : sess :=
    mkSess (mkTx no_rdns [] [] [] [] [] [] [] (k_savedir K) false 0 0 [] [] false [] [] false)
           (newContext []) None false false [].
End Session.
