(** Model of /repo/rparse.go, function by function, and of loadRules
    (/repo/sinksmtp.go:135-150).

    Parsing functions take the parser state and return a result, an error, a
    run-time panic, or (for the recursion, which runs on fuel) [PFuel];
    ParseProofs.v shows that the last two never happen. *)
From Verif Require Import Bytes Outcome Lexer LexSpec LexProofs Ast GoNet.

(** Errors, kept structured: rparse.go:87-116.  [perr_text] is the text. *)
Inductive perr :=
| ErrGen (ln lp : nat) (msg fnd : bytes)     (* genError, ordinary token *)
| ErrLex (ln lp : nat) (val : bytes)         (* genError on a lexing error *)
| ErrLine (ln : nat) (msg : bytes)           (* lineError *)
| ErrPos (ln lp : nat) (msg : bytes).        (* posError *)

Definition perr_text (e : perr) : bytes :=
  match e with
  | ErrGen ln lp msg fnd =>
      B "at line " ++ itoa ln ++ B " char " ++ itoa lp ++ B ": " ++ msg ++ B ", found " ++ fnd
  | ErrLex ln lp val =>
      B "at line " ++ itoa ln ++ B " char " ++ itoa lp ++ B ": lexing error: " ++ val
  | ErrLine ln msg => B "at line " ++ itoa ln ++ B ": " ++ msg
  | ErrPos ln lp msg =>
      B "at line " ++ itoa ln ++ B " char " ++ itoa lp ++ B ": " ++ msg
  end.

(** rparse.go:53-57.  [ps_toks] is the current token followed by everything
    the lexer has still to deliver; [ps_req], [ps_defer], [ps_res] and
    [ps_clauses] are the fields of p.currule; [ps_tick] counts file reads. *)
Record pstate := mkPS {
  ps_input : bytes;
  ps_toks : list item;
  ps_req : phase;
  ps_defer : phase;
  ps_res : action;
  ps_clauses : list rclause;
  ps_tick : nat
}.

Definition set_toks (ts : list item) (p : pstate) : pstate :=
  mkPS (ps_input p) ts (ps_req p) (ps_defer p) (ps_res p) (ps_clauses p) (ps_tick p).
Definition set_req (r : phase) (p : pstate) : pstate :=
  mkPS (ps_input p) (ps_toks p) r (ps_defer p) (ps_res p) (ps_clauses p) (ps_tick p).
Definition set_defer (r : phase) (p : pstate) : pstate :=
  mkPS (ps_input p) (ps_toks p) (ps_req p) r (ps_res p) (ps_clauses p) (ps_tick p).
Definition set_res (r : action) (p : pstate) : pstate :=
  mkPS (ps_input p) (ps_toks p) (ps_req p) (ps_defer p) r (ps_clauses p) (ps_tick p).
Definition set_clauses (c : list rclause) (p : pstate) : pstate :=
  mkPS (ps_input p) (ps_toks p) (ps_req p) (ps_defer p) (ps_res p) c (ps_tick p).
Definition set_tick (t : nat) (p : pstate) : pstate :=
  mkPS (ps_input p) (ps_toks p) (ps_req p) (ps_defer p) (ps_res p) (ps_clauses p) t.

Inductive pres (A : Type) :=
| POk (a : A) (p : pstate)
| PErr (e : perr)
| PPanic
| PFuel.
Arguments POk {A} a p.
Arguments PErr {A} e.
Arguments PPanic {A}.
Arguments PFuel {A}.

Definition pbind {A B} (x : pres A) (f : A -> pstate -> pres B) : pres B :=
  match x with
  | POk a p => f a p
  | PErr e => PErr e
  | PPanic => PPanic
  | PFuel => PFuel
  end.

Notation "'dop' a , p <- x ; b" := (pbind x (fun a p => b))
  (at level 200, a pattern, p pattern, x at level 100, b at level 200, right associativity).

(** The item Go reads from a closed channel: the zero value. *)
Definition zero_item : item := mkItem itemError [] 0.

Definition curtok (p : pstate) : item := hd zero_item (ps_toks p).
Definition curtyp (p : pstate) : itype := i_typ (curtok p).

(** rparse.go:60-72 *)
Definition consume (p : pstate) : pres unit :=
  if ieqb (curtyp p) itemEOF then POk tt p
  else if ieqb (curtyp p) itemError then PPanic
  else POk tt (set_toks (tl (ps_toks p)) p).

(** rparse.go:75-82 *)
Definition isEol (p : pstate) : bool :=
  ieqb (curtyp p) itemEOL || ieqb (curtyp p) itemEOF.
Definition isERule (p : pstate) : bool := isEol p || ieqb (curtyp p) itemSemicolon.

(** lineInfo panics only for a position outside the input *)
Definition with_line {A} (p : pstate) (f : nat -> nat -> perr) : pres A :=
  match lineInfo (ps_input p) (i_pos (curtok p)) with
  | Ok (ln, lp) => PErr (f ln lp)
  | _ => PPanic
  end.

(** rparse.go:87-106 *)
Definition genError {A} (msg : bytes) (p : pstate) : pres A :=
  with_line p (fun ln lp =>
    match curtyp p with
    | itemEOF => ErrGen ln lp msg (B "unexpected end of file")
    | itemEOL => ErrGen ln lp msg (B "unexpected end of line")
    | itemError => ErrLex ln lp (i_val (curtok p))
    | _ => ErrGen ln lp msg (B "'" ++ i_val (curtok p) ++ B "'")
    end).
(** rparse.go:107-111 *)
Definition lineError {A} (msg : bytes) (p : pstate) : pres A :=
  with_line p (fun ln _ => ErrLine ln msg).
(** rparse.go:112-116 *)
Definition posError {A} (msg : bytes) (p : pstate) : pres A :=
  with_line p (fun ln lp => ErrPos ln lp msg).

(** rparse.go:151-158; [typ < itemHasValue] is on the iota values *)
Definition pArg (p : pstate) : pres bytes :=
  if Nat.ltb (icode (curtyp p)) (icode itemHasValue)
  then genError (B "expected argument") p
  else dop _, p' <- consume p; POk (i_val (curtok p)) p'.

(** rparse.go:163-177 *)
Definition pDomain (p : pstate) : pres bytes :=
  if negb (ieqb (curtyp p) itemValue) then genError (B "expected dnsbl domain") p
  else
    let arg := i_val (curtok p) in
    match index_byte arg ch_dot with
    | None => posError (B "theoretical dnsbl domain contains no '.'") p
    | Some _ =>
        match last_byte arg with
        | None => PPanic
        | Some c =>
            let arg' := if Ascii.eqb c ch_dot then arg else arg ++ [ch_dot] in
            dop _, p' <- consume p; POk arg' p'
        end
    end.

(** rparse.go:183-200 *)
Definition pIPArg (p : pstate) : pres bytes :=
  let arg := i_val (curtok p) in
  match curtyp p with
  | itemFilename => dop _, p' <- consume p; POk arg p'
  | itemValue =>
      match parse_cidr arg, parse_ip arg with
      | None, None => genError (B "argument is not a valid IP address or CIDR") p
      | _, _ => dop _, p' <- consume p; POk arg p'
      end
  | _ => genError (B "expected IP address, CIDR, or filename") p
  end.

(** rparse.go:203-214 *)
Definition pOnOff (p : pstate) : pres bool :=
  match curtyp p with
  | itemOn => dop _, p' <- consume p; POk true p'
  | itemOff => dop _, p' <- consume p; POk false p'
  | _ => posError (B "expected on or off") p
  end.

(** rparse.go:231-243; a missing key gives pAny *)
Definition minReq (t : itype) : phase :=
  match t with
  | itemFrom => pMfrom | itemHelo => pHelo | itemEhlo => pHelo | itemTo => pRto
  | itemFromHas => pMfrom | itemToHas => pRto | itemHeloHas => pHelo
  | itemSource => pMfrom | itemTls => pMfrom
  | _ => pAny
  end.

(** rparse.go:286-301; the loop consumes two tokens each time round *)
Fixpoint pCommaOpts (fuel : nat) (m : omap) (o : opt) (p : pstate) : pres opt :=
  match fuel with
  | 0 => PFuel
  | S n =>
      let v := omap_get m (curtyp p) in
      if N.eqb v oZero then genError (B "expected valid option") p
      else
        dop _, p1 <- consume p;
        if ieqb (curtyp p1) itemComma then
          dop _, p2 <- consume p1; pCommaOpts n m (N.lor o v) p2
        else POk (N.lor o v) p1
  end.

(** rparse.go:315-317 and 402-404: raise the rule's required phase *)
Definition raise_req (ph : phase) (p : pstate) : pstate :=
  if negb (peqb ph pAny) && pltb (ps_req p) ph then set_req ph p else p.

(** rparse.go:393-401 *)
Definition dbl_phase (o : opt) : phase :=
  if ohas_all o oFrom then pMfrom
  else if ohas_all o oEhlo then pHelo
  else pAny.

Definition ntoks (p : pstate) : nat := length (ps_toks p).

(** rparse.go:305-411 pTerm, 119-130 pNot, 133-147 pParen, 414-444 pOrl,
    448-475 pAndl.  [None] is Go's nil Expr.  pAndl's loop is
    [pAndl_loop], with the nodes collected so far. *)
Definition andl_of (nodes : list expr) : option expr :=
  match nodes with
  | [] => None
  | [e] => Some e
  | _ => Some (EAnd nodes)
  end.

Fixpoint pTerm (fuel : nat) (p : pstate) {struct fuel} : pres (option expr) :=
  match fuel with
  | 0 => PFuel
  | S n =>
      match curtyp p with
      | itemNot =>
          dop _, p1 <- consume p;
          dop e, p2 <- pTerm n p1;
          match e with
          | None => genError (B "expected something to NOT") p2
          | Some e => POk (Some (ENot e)) p2
          end
      | itemLparen =>
          dop _, p1 <- consume p;
          dop e, p2 <- pAndl_loop n [] p1;
          if negb (ieqb (curtyp p2) itemRparen) then genError (B "expecting closing ')'") p2
          else match e with
               | None => posError (B "empty parenthesized expression") p2
               | Some e => dop _, p3 <- consume p2; POk (Some e) p3
               end
      | ct =>
          let p0 := raise_req (minReq ct) p in
          match ct with
          | itemFrom | itemTo | itemHelo | itemEhlo | itemHost | itemSource =>
              dop _, p1 <- consume p0;
              dop arg, p2 <- pArg p1;
              POk (Some (match ct with
                         | itemFrom => EMatch MFrom arg
                         | itemTo => EMatch MTo arg
                         | itemHost => EMatch MHost arg
                         | itemSource => ESource arg
                         | _ => EMatch MHelo arg
                         end)) p2
          | itemIp =>
              dop _, p1 <- consume p0;
              dop arg, p2 <- pIPArg p1;
              POk (Some (EMatch MIp arg)) p2
          | itemDnsbl =>
              dop _, p1 <- consume p0;
              dop arg, p2 <- pDomain p1;
              POk (Some (EDnsbl arg)) p2
          | itemTls =>
              dop _, p1 <- consume p0;
              dop on, p2 <- pOnOff p1;
              POk (Some (ETls on)) p2
          | itemAll =>
              dop _, p1 <- consume p0; POk (Some EAll) p1
          | itemFromHas =>
              dop _, p1 <- consume p0;
              dop o, p2 <- pCommaOpts (S (ntoks p1)) addrMap oZero p1;
              POk (Some (EOpt OFromHas o)) p2
          | itemToHas =>
              dop _, p1 <- consume p0;
              dop o, p2 <- pCommaOpts (S (ntoks p1)) addrMap oZero p1;
              POk (Some (EOpt OToHas o)) p2
          | itemDns =>
              dop _, p1 <- consume p0;
              dop o, p2 <- pCommaOpts (S (ntoks p1)) dnsMap oZero p1;
              POk (Some (EOpt ODns o)) p2
          | itemHeloHas =>
              dop _, p1 <- consume p0;
              dop o, p2 <- pCommaOpts (S (ntoks p1)) heloMap oZero p1;
              POk (Some (EOpt OHelo o)) p2
          | itemDbl =>
              (* pDblArgs, rparse.go:218-225 *)
              dop _, p1 <- consume p0;
              dop o, p2 <- pCommaOpts (S (ntoks p1)) dblMap oZero p1;
              dop arg, p3 <- pDomain p2;
              POk (Some (EDbl o arg)) (raise_req (dbl_phase o) p3)
          | _ => POk None p0
          end
      end
  end
with pOrl (fuel : nat) (p : pstate) {struct fuel} : pres (option expr) :=
  match fuel with
  | 0 => PFuel
  | S n =>
      dop er, p1 <- pTerm n p;
      if negb (ieqb (curtyp p1) itemOr) then POk er p1
      else
        match er with
        | None => posError (B "empty left side of an or") p1
        | Some l =>
            dop _, p2 <- consume p1;
            dop er2, p3 <- pOrl n p2;
            match er2 with
            | None =>
                if isERule p3 || ieqb (curtyp p3) itemRparen
                then posError (B "empty right side of an OR") p3
                else genError (B "expecting match operation") p3
            | Some r => POk (Some (EOr l r)) p3
            end
        end
  end
with pAndl_loop (fuel : nat) (nodes : list expr) (p : pstate) {struct fuel} : pres (option expr) :=
  match fuel with
  | 0 => PFuel
  | S n =>
      dop er, p1 <- pOrl n p;
      match er with
      | None => POk (andl_of nodes) p1
      | Some e => pAndl_loop n (nodes ++ [e]) p1
      end
  end.

Definition expr_fuel (p : pstate) : nat := 3 * ntoks p + 4.
Definition pAndl (p : pstate) : pres (option expr) := pAndl_loop (expr_fuel p) [] p.

(** rparse.go:480-525.  The clause's withs map is threaded as [w]; [got] is
    gotone.  The repeat check for message, note and savedir looks at the
    value, that for tls-opt and make-yakker at the presence of the key. *)
Definition repeated_msg (cv : bytes) : bytes := B "repeated '" ++ cv ++ B "' option in with clause".

Fixpoint pWClause (fuel : nat) (w : smap bytes) (got : bool) (p : pstate)
  : pres (smap bytes * bool) :=
  match fuel with
  | 0 => PFuel
  | S n =>
      let cv := i_val (curtok p) in
      match curtyp p with
      | itemMessage | itemNote | itemSavedir =>
          if match mget w cv with Some (_ :: _) => true | _ => false end
          then posError (repeated_msg cv) p
          else
            dop _, p1 <- consume p;
            dop arg, p2 <- pArg p1;
            if ieqb (curtyp p) itemNote && mem_byte ch_nl arg
            then posError (B "note contains embedded newline") p2
            else pWClause n (mset w cv arg) true p2
      | itemTlsOpt =>
          match mget w cv with
          | Some _ => posError (repeated_msg cv) p
          | None =>
              dop _, p1 <- consume p;
              (* Go looks at arg before err; on a pArg error arg is "" and the
                 parser has not moved. *)
              match pArg p1 with
              | POk arg p2 =>
                  if beqb arg (B "off") || beqb arg (B "no-client")
                  then pWClause n (mset w cv arg) true p2
                  else posError (B "illegal tls-opt option '" ++ arg ++ B "' in with clause") p2
              | PErr _ => posError (B "illegal tls-opt option '' in with clause") p1
              | PPanic => PPanic
              | PFuel => PFuel
              end
          end
      | itemMakeYakker =>
          match mget w cv with
          | Some _ => posError (repeated_msg cv) p
          | None =>
              dop _, p1 <- consume p;
              pWClause n (mset w cv []) true p1
          end
      | _ => POk (w, got) p
      end
  end.

(** rparse.go:528-544 *)
Definition pWith (p : pstate) : pres (smap bytes) :=
  if negb (ieqb (curtyp p) itemWith) then POk [] p
  else
    dop _, p1 <- consume p;
    dop wg, p2 <- pWClause (S (ntoks p1)) [] false p1;
    if isERule p2 && negb (snd wg) then posError (B "empty with clause") p2
    else if negb (isERule p2) then genError (B "expecting a with clause") p2
    else POk (fst wg) p2.

(** rparse.go:547-551 *)
Definition phases (t : itype) : phase :=
  match t with
  | itemAConnect => pConnect | itemAHelo => pHelo | itemAFrom => pMfrom
  | itemATo => pRto | itemAData => pData | itemAMessage => pMessage
  | _ => pAny
  end.

(** rparse.go:553-559 *)
Definition pPhase (p : pstate) : pres unit :=
  let ph := phases (curtyp p) in
  if negb (peqb ph pAny) then consume (set_defer ph p) else POk tt p.

(** rparse.go:563-605 *)
Fixpoint pRClause (fuel : nat) (p : pstate) : pres unit :=
  match fuel with
  | 0 => PFuel
  | S n =>
      dop e, p1 <- pAndl p;
      dop w, p2 <- pWith p1;
      if negb (isERule p2) then genError (B "expecting an operation or 'with'") p2
      else
        match e with
        | None => lineError (B "rule needs at least one operation, perhaps 'all'") p2
        | Some e =>
            let p3 := set_clauses (ps_clauses p2 ++ [mkClause e w]) p2 in
            if aeqb (ps_res p3) aNoresult && match w with [] => true | _ => false end
            then lineError (B "'set-with' rule with no with options") p3
            else if isEol p3 then POk tt p3
            else
              dop _, p4 <- consume p3;
              if ieqb (curtyp p4) itemEOL then
                dop _, p5 <- consume p4; pRClause n p5
              else pRClause n p4
        end
  end.

(** rparse.go:611-614 *)
Definition actions (t : itype) : action :=
  match t with
  | itemAccept => aAccept | itemReject => aReject | itemStall => aStall
  | itemSetWith => aNoresult | _ => aError
  end.

Definition phase_msg : bytes :=
  B "rule specifies a phase lower than its operations require so we cannot satisfy the phase requirement".

(** rparse.go:616-650 *)
Definition pRule (p : pstate) : pres (option rule) :=
  let p0 := mkPS (ps_input p) (ps_toks p) pAny pAny aError [] (ps_tick p) in
  if ieqb (curtyp p0) itemEOF then POk None p0
  else
    dop _, p1 <- pPhase p0;
    let a := actions (curtyp p1) in
    if aeqb a aError then genError (B "expecting an action") p1
    else
      dop _, p2 <- consume (set_res a p1);
      dop _, p3 <- pRClause (S (ntoks p2)) p2;
      if negb (peqb (ps_defer p3) pAny) && pltb (ps_defer p3) (ps_req p3)
      then lineError phase_msg p3
      else
        dop _, p4 <- consume p3;
        POk (Some (mkRule (ps_clauses p4) (ps_res p4) (ps_req p4) (ps_defer p4))) p4.

(** What loadRules gives its caller: rules or the text of an error. *)
Inductive lres := LRules (rs : list rule) | LErr (txt : bytes) | LPanic | LFuel.

(** rparse.go:655-670.  [load] is loadRules: it takes the number of file
    reads so far and the name, and returns the new count. *)
Definition pInclude (load : nat -> bytes -> lres * nat) (p : pstate) : pres (list rule) :=
  dop _, p1 <- consume p;
  dop fname, p2 <- pArg p1;
  let (r, t) := load (ps_tick p2) fname in
  let p3 := set_tick t p2 in
  match r with
  | LPanic => PPanic
  | LFuel => PFuel
  | LErr txt =>
      lineError (B "while including '" ++ fname ++ B "': " ++ txt) p3
  | LRules rs =>
      if negb (isEol p3) then genError (B "expecting end of line") p3
      else dop _, p4 <- consume p3; POk rs p4
  end.

(** rparse.go:673-695 *)
Fixpoint pFile (load : nat -> bytes -> lres * nat) (fuel : nat) (acc : list rule) (p : pstate)
  : pres (list rule) :=
  match fuel with
  | 0 => PFuel
  | S n =>
      if ieqb (curtyp p) itemInclude then
        dop rl, p1 <- pInclude load p;
        pFile load n (acc ++ rl) p1
      else
        dop r, p1 <- pRule p;
        let acc' := match r with Some r => acc ++ [r] | None => acc end in
        if ieqb (curtyp p1) itemEOF then POk acc' p1
        else pFile load n acc' p1
  end.

Definition pstart (input : bytes) (tick : nat) : pstate :=
  mkPS input (tokens input) pAny pAny aError [] tick.

(** rparse.go:699-711.  [tokens input] is everything the lexer sends;
    LexProofs.tokens_ok says it is the outcome of running the lexer. *)
Definition parse_with (load : nat -> bytes -> lres * nat) (tick : nat) (input : bytes)
  : pres (list rule) :=
  let p := pstart input tick in
  pFile load (S (ntoks p)) [] p.

(** Reading a rules file: the content, or the text of the error.  The first
    argument counts reads, so files may change between two reads. *)
Record rfs := { rf_read : nat -> bytes -> bytes + bytes }.

Definition emfile (fname : bytes) : bytes := B "open " ++ fname ++ B ": too many open files".

(** sinksmtp.go:135-150 loadRules.  The file stays open while it is being
    parsed (defer fp.Close()), so every level of include nesting uses one of
    the [fds] file descriptors the process may still open. *)
Fixpoint loadRules (fds : nat) (fs : rfs) (tick : nat) (fname : bytes) : lres * nat :=
  match fds with
  | 0 => (LErr (emfile fname), S tick)
  | S n =>
      match rf_read fs tick fname with
      | inr e => (LErr e, S tick)
      | inl content =>
          match parse_with (loadRules n fs) (S tick) content with
          | POk rs p => (LRules rs, ps_tick p)
          | PErr e => (LErr (B "rules parsing error " ++ perr_text e), S tick)
          | PPanic => (LPanic, S tick)
          | PFuel => (LFuel, S tick)
          end
      end
  end.

(** rparse.go:699: Parse as the caller sees it. *)
Inductive parse_result := PRules (rs : list rule) | PFail (e : perr) | PCrash.
Definition parse (fds : nat) (fs : rfs) (input : bytes) : parse_result :=
  match parse_with (loadRules fds fs) 0 input with
  | POk rs _ => PRules rs
  | PErr e => PFail e
  | PPanic => PCrash
  | PFuel => PCrash
  end.
