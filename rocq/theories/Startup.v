(** Model of starting the server: main (/repo/sinksmtp.go:1527-1703). *)
From Verif Require Import PropsParse.
From Verif Require Import Bytes Outcome Lexer Ast GoNet Parser World Dns Eval RuleLoad ConnCfg Message Session.
From Coq Require Import Lia.

(** The command line (sinksmtp.go:1528-1558 and the globals at 1271-1289).  Left
    out are -pprof and -statsperip, which concern only the statistics page.
    [g_dndur] is in nanoseconds. *)
Record options := mkOptions {
  g_M : bool; g_S : bool; g_helo : bytes; g_smtplog : bytes; g_dnlog : bytes; g_l : bytes;
  g_d : bytes; g_force : bool; g_savehash : bytes; g_c : bytes; g_k : bytes;
  g_fromreject : bytes; g_toaccept : bytes; g_heloreject : bytes; g_r : bytes;
  g_dncount : Z; g_dndur : Z; g_minphase : bytes; g_nostdrules : bool; g_conncfg : bytes;
  g_args : list bytes
}.

(** The machine it is started on; an error is the text of one. *)
Record machine := mkMachine {
  h_world : world;                                  (* reading the -conncfg file *)
  h_fds : nat; h_rfs : rfs; h_tick : nat;           (* loading rules *)
  h_keys : keypair;                                 (* tls.LoadX509KeyPair *)
  h_log : bytes -> option bytes;                    (* os.OpenFile for appending *)
  h_create : bytes -> option bytes;                 (* os.Create *)
  h_open : bytes -> option bytes;                   (* os.Open *)
  h_listen : nat -> bytes -> option bytes           (* net.Listen for the n-th address *)
}.

(** How starting ends: with a usage message, with [die], in a crash, or with a
    server with these settings (and the file descriptors of main). *)
Inductive boot := BUsage | BDie (msg : bytes) | BCrash | BServe (K : config).

(** sinksmtp.go:1290-1299: the error, if any.  Without a name there is no log. *)
Definition openlogfile (H : machine) (fname : bytes) : option bytes :=
  if beqb fname [] then None
  else if beqb fname (B "-") then None
  else h_log H fname.

(** sinksmtp.go:1590-1602: the certificates, or what main dies of *)
Definition loadServerCerts (O : options) (H : machine) : list bytes + bytes :=
  if negb (beqb (g_c O) []) && negb (beqb (g_k O) []) then
    match loadCerts (h_keys H) (g_c O) (g_k O) with
    | inl certs => inl certs
    | inr e => inr (B "error loading TLS cert(s) from " ++ g_c O ++ B " & " ++ g_k O ++ B ": " ++ e ++ [ch_nl])
    end
  else if negb (beqb (g_c O) []) then inr (B "certfile specified without keyfile" ++ [ch_nl])
  else if negb (beqb (g_k O) []) then inr (B "keyfile specified without certfile" ++ [ch_nl])
  else inl [].

(** sinksmtp.go:1567-1588: the checks of the options alone *)
Definition checkOptions (O : options) : option bytes :=
  if beqb (g_d O) [] && negb (g_force O || g_M O) then
    Some (B "I refuse to accept email without either a -d savedir or --force-receive" ++ [ch_nl])
  else if beqb (g_savehash O) (B "msg") && beqb (g_l O) [] then
    Some (B "-save-hash=msg requires a -l right now" ++ [ch_nl])
  else if negb (beqb (g_savehash O) (B "msg") || beqb (g_savehash O) (B "full") || beqb (g_savehash O) (B "all")) then
    Some (B "bad option for -save-hash: '" ++ g_savehash O ++ B "'. Only msg, full, and all are valid." ++ [ch_nl])
  else if Z.ltb 0 (g_dncount O) && beqb (g_smtplog O) [] then
    Some (B "-dncount requires -smtplog" ++ [ch_nl])
  else if Z.ltb 0 (g_dncount O) && Z.ltb (g_dndur O) 1000000000 then
    Some (B "-dndur is too small; must be at least one second" ++ [ch_nl])
  else if negb (beqb (g_dnlog O) []) && Z.eqb (g_dncount O) 0 then
    Some (B "-dnlog requires -dncount")
  else None.

(** sinksmtp.go:1604-1615 *)
Definition openLogs (O : options) (H : machine) : option bytes :=
  match openlogfile H (g_smtplog O) with
  | Some e => Some (B "error opening SMTP log file '" ++ g_smtplog O ++ B "': " ++ e ++ [ch_nl])
  | None =>
      match openlogfile H (g_l O) with
      | Some e => Some (B "error opening logfile '" ++ g_l O ++ B "': " ++ e ++ [ch_nl])
      | None =>
          match openlogfile H (g_dnlog O) with
          | Some e => Some (B "Error opening do-nothing client log file '" ++ g_dnlog O ++ B "': " ++ e ++ [ch_nl])
          | None => None
          end
      end
  end.

(** sinksmtp.go:1617-1627.  That the test file is created and removed is not
    modelled. *)
Definition trySavedir (O : options) (H : machine) : option bytes :=
  if beqb (g_d O) [] then None
  else match h_create H (g_d O ++ B "/.wecanmake") with
       | Some e => Some (B "cannot create test file in savedir '" ++ g_d O ++ B "': " ++ e ++ [ch_nl])
       | None => None
       end.

(** sinksmtp.go:1629-1634 *)
Definition tryConnFile (O : options) (H : machine) : outcome (option bytes) :=
  if beqb (g_conncfg O) [] then Ok None
  else do r <- fst (loadConnFile (h_world H) (h_keys H) (g_conncfg O) []);
       Ok (match r with
           | inl _ => None
           | inr e => Some (B "cannot load per-connection config information from '" ++ g_conncfg O ++ B "': " ++ e ++ [ch_nl])
           end).

(** sinksmtp.go:1646-1655 *)
Definition ruleFiles (O : options) : list bytes := if beqb (g_r O) [] then [] else split_byte (g_r O) ",".
Fixpoint tryRuleFiles (H : machine) (files : list bytes) : option bytes :=
  match files with
  | [] => None
  | f :: fs => match h_open H f with
               | Some e => Some (B "cannot open rules file " ++ f ++ B ": " ++ e ++ [ch_nl])
               | None => tryRuleFiles H fs
               end
  end.

(** sinksmtp.go:1668-1676 *)
Definition checkMinphase (m : bytes) : bytes + bytes :=
  if beqb m (B "ehlo") then inl (B "helo")
  else if bmem m [B "from"; B "to"; B "data"; B "message"; B "accepted"; B "helo"] then inl m
  else inr (B "invalid -minphase '" ++ m ++ B "': must be helo/ehlo, from, to, data, message, or accepted" ++ [ch_nl]).

(** sinksmtp.go:1696-1703 *)
Fixpoint listenAll (H : machine) (n : nat) (args : list bytes) : option bytes :=
  match args with
  | [] => None
  | a :: l => match h_listen H n a with
              | Some e => Some (B "error listening to tcp!" ++ a ++ B ": " ++ e ++ [ch_nl])
              | None => listenAll H (S n) l
              end
  end.

Definition unless (o : option bytes) (k : boot) : boot := match o with Some e => BDie e | None => k end.

(** sinksmtp.go:1301: the options that become rules *)
Definition opts_of (O : options) : rule_opts :=
  mkRuleOpts (negb (g_nostdrules O)) (g_M O) (g_fromreject O) (g_toaccept O) (g_heloreject O).

(** sinksmtp.go:1562-1703.  buildRules dies with a text of its own if the rules
    made from options do not parse; genStallRules always succeeds (PropsLoad.v,
    [stallall_is]). *)
Definition main (O : options) (H : machine) : boot :=
  match g_args O with
  | [] => BUsage
  | _ =>
    unless (checkOptions O) (
    match loadServerCerts O H with
    | inr e => BDie e
    | inl certs =>
      unless (openLogs O H) (
      unless (trySavedir O H) (
      match tryConnFile O H with
      | Panic | NoFuel => BCrash
      | Ok r =>
        unless r (
        match buildRules (h_fds H) (h_rfs H) (opts_of O) with
        | PCrash => BCrash
        | PFail e => BDie (B "error parsing autogenerated rules:" ++ [ch_nl; ch_tab] ++ perr_text e ++ [ch_nl] ++ B "rules:" ++ [ch_nl] ++ buildText (opts_of O))
        | PRules base =>
          unless (tryRuleFiles H (ruleFiles O)) (
          match setupRules (h_fds H) (h_rfs H) (h_tick H) base (ruleFiles O) with
          | None => BCrash
          | Some rr =>
            if negb (rr_good rr) then BDie (B "not continuing when there are problems in the rules files." ++ [ch_nl])
            else
              match checkMinphase (g_minphase O) with
              | inr e => BDie e
              | inl m =>
                unless (listenAll H 0 (g_args O)) (
                BServe (mkConfig (g_d O) (g_savehash O) m (g_dncount O) (g_dndur O) (g_helo O) (g_conncfg O) (g_S O)
                  (ruleFiles O) base (negb (beqb (g_smtplog O) [])) (negb (beqb (g_dnlog O) [])) (negb (beqb (g_l O) [])) certs))
              end
          end)
        end)
      end))
    end)
  end.
