(** Model of /repo/rules.go and of the Eval methods of /repo/rnodes.go. *)
From Verif Require Import Bytes Outcome Lexer Ast GoNet World Dns.

(** smtpd.HELO and smtpd.EHLO; other commands never reach a HELO decision *)
Inductive helocmd := HELO | EHLO.

(** The fields of smtpTransaction (sinksmtp.go:395-433) that rule evaluation
    reads; it never writes them (rules.go:25-27). *)
Record trans := mkTrans {
  t_rip : bytes;            (* remote IP, as text *)
  t_lip : bytes;            (* local IP, as text *)
  t_tlson : bool;
  t_rdns : rdns;
  t_rcptto : list bytes     (* accepted recipients *)
}.

(** rules.go:24-77 Context, without the pointer to the transaction and the
    rule set, which are parameters; [c_trace] records the external calls made
    (latest first).  [c_helocmd] is the zero Command before any HELO: [None].
    The values of the caches are what the Go maps hold. *)
Record ctx := mkCtx {
  c_helocmd : option helocmd;
  c_heloname : bytes;
  c_from : bytes;
  c_rcptto : bytes;
  c_withprops : smap bytes;
  c_defresult : action;
  c_defdnsblhit : list bytes;
  c_defprops : smap bytes;
  c_files : smap (list bytes);
  c_dnsbl : smap bool;
  c_dnsblhit : list bytes;
  c_domvalid : smap (dnsresult * option bytes);
  c_domerr : option bytes;
  c_rulemiss : bool;
  c_trace : list call
}.

Definition set_helo (cmd : option helocmd) (name : bytes) (c : ctx) : ctx :=
  mkCtx cmd name (c_from c) (c_rcptto c) (c_withprops c) (c_defresult c) (c_defdnsblhit c)
        (c_defprops c) (c_files c) (c_dnsbl c) (c_dnsblhit c) (c_domvalid c) (c_domerr c) (c_rulemiss c) (c_trace c).
Definition set_from (x : bytes) (c : ctx) : ctx :=
  mkCtx (c_helocmd c) (c_heloname c) x (c_rcptto c) (c_withprops c) (c_defresult c) (c_defdnsblhit c)
        (c_defprops c) (c_files c) (c_dnsbl c) (c_dnsblhit c) (c_domvalid c) (c_domerr c) (c_rulemiss c) (c_trace c).
Definition set_rcptto (x : bytes) (c : ctx) : ctx :=
  mkCtx (c_helocmd c) (c_heloname c) (c_from c) x (c_withprops c) (c_defresult c) (c_defdnsblhit c)
        (c_defprops c) (c_files c) (c_dnsbl c) (c_dnsblhit c) (c_domvalid c) (c_domerr c) (c_rulemiss c) (c_trace c).
Definition set_withprops (x : smap bytes) (c : ctx) : ctx :=
  mkCtx (c_helocmd c) (c_heloname c) (c_from c) (c_rcptto c) x (c_defresult c) (c_defdnsblhit c)
        (c_defprops c) (c_files c) (c_dnsbl c) (c_dnsblhit c) (c_domvalid c) (c_domerr c) (c_rulemiss c) (c_trace c).
Definition set_defresult (x : action) (c : ctx) : ctx :=
  mkCtx (c_helocmd c) (c_heloname c) (c_from c) (c_rcptto c) (c_withprops c) x (c_defdnsblhit c)
        (c_defprops c) (c_files c) (c_dnsbl c) (c_dnsblhit c) (c_domvalid c) (c_domerr c) (c_rulemiss c) (c_trace c).
Definition set_def (h : list bytes) (x : smap bytes) (c : ctx) : ctx :=
  mkCtx (c_helocmd c) (c_heloname c) (c_from c) (c_rcptto c) (c_withprops c) (c_defresult c) h
        x (c_files c) (c_dnsbl c) (c_dnsblhit c) (c_domvalid c) (c_domerr c) (c_rulemiss c) (c_trace c).
Definition set_files (x : smap (list bytes)) (c : ctx) : ctx :=
  mkCtx (c_helocmd c) (c_heloname c) (c_from c) (c_rcptto c) (c_withprops c) (c_defresult c) (c_defdnsblhit c)
        (c_defprops c) x (c_dnsbl c) (c_dnsblhit c) (c_domvalid c) (c_domerr c) (c_rulemiss c) (c_trace c).
Definition set_dnsbl (x : smap bool) (c : ctx) : ctx :=
  mkCtx (c_helocmd c) (c_heloname c) (c_from c) (c_rcptto c) (c_withprops c) (c_defresult c) (c_defdnsblhit c)
        (c_defprops c) (c_files c) x (c_dnsblhit c) (c_domvalid c) (c_domerr c) (c_rulemiss c) (c_trace c).
Definition set_dnsblhit (x : list bytes) (c : ctx) : ctx :=
  mkCtx (c_helocmd c) (c_heloname c) (c_from c) (c_rcptto c) (c_withprops c) (c_defresult c) (c_defdnsblhit c)
        (c_defprops c) (c_files c) (c_dnsbl c) x (c_domvalid c) (c_domerr c) (c_rulemiss c) (c_trace c).
Definition set_domvalid (x : smap (dnsresult * option bytes)) (c : ctx) : ctx :=
  mkCtx (c_helocmd c) (c_heloname c) (c_from c) (c_rcptto c) (c_withprops c) (c_defresult c) (c_defdnsblhit c)
        (c_defprops c) (c_files c) (c_dnsbl c) (c_dnsblhit c) x (c_domerr c) (c_rulemiss c) (c_trace c).
Definition set_domerr (x : option bytes) (c : ctx) : ctx :=
  mkCtx (c_helocmd c) (c_heloname c) (c_from c) (c_rcptto c) (c_withprops c) (c_defresult c) (c_defdnsblhit c)
        (c_defprops c) (c_files c) (c_dnsbl c) (c_dnsblhit c) (c_domvalid c) x (c_rulemiss c) (c_trace c).
Definition set_rulemiss (x : bool) (c : ctx) : ctx :=
  mkCtx (c_helocmd c) (c_heloname c) (c_from c) (c_rcptto c) (c_withprops c) (c_defresult c) (c_defdnsblhit c)
        (c_defprops c) (c_files c) (c_dnsbl c) (c_dnsblhit c) (c_domvalid c) (c_domerr c) x (c_trace c).
Definition set_trace (x : list call) (c : ctx) : ctx :=
  mkCtx (c_helocmd c) (c_heloname c) (c_from c) (c_rcptto c) (c_withprops c) (c_defresult c) (c_defdnsblhit c)
        (c_defprops c) (c_files c) (c_dnsbl c) (c_dnsblhit c) (c_domvalid c) (c_domerr c) (c_rulemiss c) x.

(** rules.go:123-129; the trace continues that of the connection so far *)
Definition newContext (tr : list call) : ctx :=
  mkCtx None [] [] [] [] aError [] [] [] [] [] [] None false tr.

(** Computations on the context that may panic. *)
Definition M (A : Type) := ctx -> outcome (A * ctx).
Definition ret {A} (a : A) : M A := fun c => Ok (a, c).
Definition mbind {A B} (m : M A) (f : A -> M B) : M B :=
  fun c => match m c with Ok (a, c') => f a c' | Panic => Panic | NoFuel => NoFuel end.
Definition get {A} (f : ctx -> A) : M A := fun c => Ok (f c, c).
Definition upd (f : ctx -> ctx) : M unit := fun c => Ok (tt, f c).
Definition crash {A} : M A := fun _ => Panic.
Definition lift {A} (o : outcome A) : M A :=
  fun c => match o with Ok a => Ok (a, c) | Panic => Panic | NoFuel => NoFuel end.
(** an external computation *)
Definition ext {A} (x : X A) : M A :=
  fun c => let (a, t) := x (c_trace c) in Ok (a, set_trace t c).

Notation "'dom' x <- a ; b" := (mbind a (fun x => b))
  (at level 200, x pattern, a at level 100, b at level 200, right associativity).

(** *** Reading pattern files *)

(** sinksmtp.go:88-107 readList on the lines of a file.  ReadString('\n')
    returns an error together with an unterminated last line, and readList
    then returns without looking at that line. *)
Fixpoint readList_lines (U : unicode) (lines : list bytes) : list bytes :=
  match lines with
  | [] => []
  | l :: ls =>
      match trim_space U l with
      | [] => readList_lines U ls
      | c :: l' => if Ascii.eqb c "#" then readList_lines U ls
                   else to_lower U (c :: l') :: readList_lines U ls
      end
  end.
(** the newline-terminated lines of a text, newline included *)
Fixpoint nl_lines (cur : bytes) (s : bytes) : list bytes :=
  match s with
  | [] => []
  | c :: s' => if Ascii.eqb c ch_nl then rev (c :: cur) :: nl_lines [] s' else nl_lines (c :: cur) s'
  end.
Definition readList (U : unicode) (content : bytes) : list bytes := readList_lines U (nl_lines [] content).

(** sinksmtp.go:109-131 loadList; the warnings are not modelled *)
Definition loadList (W : world) (fname : bytes) : X (list bytes) :=
  match fname with
  | [] => xret []
  | _ =>
      dox f <- read_file W fname;
      xret (match f with
            | FRead content false => readList (w_uni W) content
            | _ => []
            end)
  end.

(** *** Context helpers *)

(** rules.go:81-95 *)
Definition getDnsblRes (W : world) (hn : bytes) : M bool :=
  dom cache <- get c_dnsbl;
  match mget cache hn with
  | Some r => ret r
  | None =>
      dom ips <- ext (lookup_bl W hn);
      match ips with
      | inr _ => ret false
      | inl ips =>
          let res := match ips with [] => false | _ => true end in
          dom _ <- upd (fun c => set_dnsbl (mset (c_dnsbl c) hn res) c);
          ret res
      end
  end.

(** rules.go:99-106 *)
Definition addDnsblHit (domain : bytes) : M unit :=
  upd (fun c => if bmem domain (c_dnsblhit c) then c else set_dnsblhit (c_dnsblhit c ++ [domain]) c).

(** rules.go:110-121; domvalid is never nil outside the tests *)
Definition validDomain (W : world) (domain : bytes) : M (dnsresult * option bytes) :=
  dom cache <- get c_domvalid;
  match mget cache domain with
  | Some r => ret r
  | None =>
      dom r <- ext (ValidDomain W domain);
      dom _ <- upd (fun c => set_domvalid (mset (c_domvalid c) domain r) c);
      ret r
  end.

(** rules.go:132-153.  The cached value of an empty or unreadable file is an
    empty, non-nil slice, so it is cached like any other. *)
Definition getMatchList (W : world) (a : bytes) : M (list bytes) :=
  match a with
  | [] => crash                                        (* a[0] *)
  | c0 :: _ =>
      let fname :=
        if Ascii.eqb c0 "/" || has_prefix a (B "./") then Some a
        else if has_prefix a (B "file:") then Some (skipn 5 a)
        else None in
      match fname with
      | None => ret [to_lower (w_uni W) a]
      | Some fname =>
          dom files <- get c_files;
          match mget files fname with
          | Some l => ret l
          | None =>
              dom l <- ext (loadList W fname);
              dom _ <- upd (fun c => set_files (mset (c_files c) fname l) c);
              ret l
          end
      end
  end.

(** *** Attributes *)

(** rules.go:157-178 *)
Definition dnsGetter (T : trans) : opt :=
  let r := t_rdns T in
  let o1 := match rd_verified r with [] => oNodns | _ => oExists end in
  let o2 := match rd_nofwd r with [] => o1 | _ => N.lor o1 oNofwd end in
  let o3 := match rd_inconsist r with [] => o2 | _ => N.lor o2 oInconsist end in
  if N.eqb o3 oExists then N.lor o3 oGood else o3.

(** rules.go:207: the name is in square brackets *)
Definition bracketed (hn : bytes) : bool :=
  Nat.ltb 2 (length hn) &&
  match hn, last_byte hn with
  | c :: _, Some d => Ascii.eqb c "[" && Ascii.eqb d "]"
  | _, _ => false
  end.

(** rules.go:180-223 *)
Definition heloGetter (T : trans) (cmd : option helocmd) (hn : bytes) : opt :=
  let o := match cmd with Some HELO => oHelo | _ => oEhlo end in
  if beqb hn [] then N.lor o (N.lor oNone oNodots)
  else if beqb hn (B ".") then N.lor o (N.lor oBogus oNodots)
  else
    let o1 := match index_byte hn ch_dot, index_byte hn ch_colon with
              | None, None => N.lor o oNodots
              | _, _ => o
              end in
    let '(o2, hip) := match parse_ip hn with
                      | Some _ => (N.lor o1 oBareip, hn)
                      | None => (o1, [])
                      end in
    let '(o3, hip') :=
      if bracketed hn then
        let t := drop_last (tl hn) in
        match parse_ip t with
        | Some _ => (N.lor o2 oProperip, t)
        | None => (o2, hip)
        end
      else (o2, hip) in
    if beqb hip' (t_rip T) then N.lor o3 oRemip
    else if beqb hip' (t_lip T) then N.lor o3 oMyip
    else if negb (beqb hip' []) then N.lor o3 oOtherip
    else o3.

(** rules.go:231-265: the purely textual part of getAddrOpts, for a nonempty
    address; also the position of the first '@'. *)
Definition addrText (a : bytes) : opt * option nat :=
  let idx := index_byte a ch_at in
  let o1 :=
    match idx with
    | None => oNoat
    | Some i =>
        N.lor (if Nat.eqb i 0
               then match index_byte (tl a) ch_at with None => oGarbage | Some _ => oRoute end
               else oZero)
              (match index_byte (skipn (S i) a) ch_dot with None => oUnqualified | Some _ => oZero end)
    end in
  let lp := length a - 1 in
  let lastc := match last_byte a with Some c => c | None => ch_nl end in
  let o2 :=
    if match a with c :: _ => Ascii.eqb c "<" | [] => false end ||
       Ascii.eqb lastc ">" || Ascii.eqb lastc ch_quote || Ascii.eqb lastc "]" || Ascii.eqb lastc ch_dot ||
       match idx with Some i => Nat.eqb i lp | None => false end
    then N.lor o1 oGarbage else o1 in
  let o3 := if contains a (B "..") || contains a (B "@@") then N.lor o2 oGarbage else o2 in
  let o4 := match index_byte a ch_quote with
            | Some i => if Nat.eqb i lp then o3 else N.lor o3 oQuoted
            | None => o3
            end in
  (o4, idx).

Definition err_text (e : option bytes) : bytes :=
  match e with Some t => t | None => B "%!s(<nil>)" end.

(** rules.go:227-282 *)
Definition getAddrOpts (W : world) (a : bytes) : M opt :=
  match a with
  | [] => ret oZero
  | _ =>
      let (o, idx) := addrText a in
      if N.eqb (N.land o (N.lor (N.lor oNoat oUnqualified) (N.lor oGarbage oRoute))) 0
      then
        (* idx is not -1 here; Go's a[idx+1:] would be all of a if it were *)
        let dom_ := match idx with Some i => skipn (S i) a | None => a end in
        dom v <- validDomain W dom_;
        let note := upd (set_domerr (Some (B "domain " ++ dom_ ++ B ": " ++ err_text (snd v)))) in
        match fst v with
        | dnsGood => ret (N.lor o oDomainValid)
        | dnsBad => dom _ <- note; ret (N.lor o oDomainInvalid)
        | dnsTempfail => dom _ <- note; ret (N.lor o oDomainTempfail)
        | dnsUndef => ret o
        end
      else ret o
  end.

(** *** Matching *)

(** rules.go:288-305 sDotIter.Next: the new position and what is returned *)
Definition sdot_next (s : bytes) (p : nat) : nat * bytes :=
  if Nat.leb (length s) p then (p, [])
  else match index_byte (skipn (p + 1) s) ch_dot with
       | None => (p, [])
       | Some i => (p + i + 1, skipn (p + i + 1) s)
       end.

(** rules.go:335-340: the loop over '@' ++ Next(); [true] is "return true" *)
Fixpoint matchAddress_loop (fuel : nat) (dom_ : bytes) (p : nat) (pat : bytes) : outcome bool :=
  match fuel with
  | 0 => NoFuel
  | S n =>
      let (p', d) := sdot_next dom_ p in
      let ts := ch_at :: d in
      if beqb ts pat then Ok true
      else if beqb ts (B "@") then Ok false
      else matchAddress_loop n dom_ p' pat
  end.

(** rules.go:310-344 *)
Definition matchAddress (U : unicode) (addr0 pat : bytes) : outcome bool :=
  let addr := to_lower U addr0 in
  if (beqb addr [] && beqb pat (B "<>")) || beqb addr pat then Ok true
  else
    let idx := index_byte addr ch_at in
    if beqb addr [] || match idx with
                       | Some i => Nat.eqb i 0 || Nat.eqb i (length addr - 1)
                       | None => false
                       end
    then Ok false
    else
      match idx with
      | None => Ok (beqb (addr ++ B "@") pat)
      | Some i =>
          let domain := skipn i addr in
          if beqb (firstn (i + 1) addr) pat || beqb domain pat then Ok true
          else
            do r <- matchAddress_loop (S (length addr)) (tl domain) 0 pat;
            if r then Ok true else Ok (beqb (B "@." ++ tl domain) pat)
      end.

(** rules.go:359-363 *)
Fixpoint matchHost_loop (fuel : nat) (host : bytes) (p : nat) (pat : bytes) : outcome bool :=
  match fuel with
  | 0 => NoFuel
  | S n =>
      let (p', h) := sdot_next host p in
      match h with
      | [] => Ok false
      | _ => if beqb h pat then Ok true else matchHost_loop n host p' pat
      end
  end.

(** rules.go:350-365 *)
Definition matchHost (U : unicode) (host0 pat : bytes) : outcome bool :=
  let host := to_lower U host0 in
  do lasth <- of_option (last_byte host);
  do host1 <- (if Ascii.eqb lasth ch_dot then
                 do lastp <- of_option (last_byte pat);
                 Ok (if Ascii.eqb lastp ch_dot then host else drop_last host)
               else Ok host);
  if beqb host1 pat || beqb (ch_dot :: host1) pat then Ok true
  else matchHost_loop (S (length host1)) host1 0 pat.

(** rules.go:370-387 *)
Definition matchIp (rip cidr : bytes) : bool :=
  let a := parse_ip rip in
  if ip_equal a (parse_ip cidr) then true
  else match parse_cidr cidr with
       | None => false
       | Some n => net_contains n a
       end.

(** rnodes.go:410-412 *)
Definition matchFromHost (U : unicode) (addr host : bytes) : outcome bool :=
  matchAddress U addr (ch_at :: host).

(** rnodes.go:342-349: the two loops of MatchN.Eval *)
Fixpoint any_elt (f : bytes -> outcome bool) (es : list bytes) : outcome bool :=
  match es with
  | [] => Ok false
  | e :: es' => do b <- f e; if b then Ok true else any_elt f es'
  end.
Fixpoint any_pat (matcher : bytes -> bytes -> outcome bool) (es ps : list bytes) : outcome bool :=
  match ps with
  | [] => Ok false
  | p :: ps' => do b <- any_elt (fun e => matcher e p) es; if b then Ok true else any_pat matcher es ps'
  end.

(** rnodes.go:335-350, with the getter's result *)
Definition matchEval (W : world) (arg : bytes) (matcher : bytes -> bytes -> outcome bool)
  (getter : ctx -> list bytes) : M bool :=
  dom plist <- getMatchList W arg;
  match plist with
  | [] => dom _ <- upd (set_rulemiss true); ret false
  | _ => dom es <- get getter; lift (any_pat matcher es plist)
  end.

(** rnodes.go:352-390 *)
Definition kindMatcher (W : world) (k : mkind) : bytes -> bytes -> outcome bool :=
  match k with
  | MHelo | MHost => matchHost (w_uni W)
  | MFrom | MTo => matchAddress (w_uni W)
  | MIp => fun r p => Ok (matchIp r p)
  end.
Definition kindGetter (T : trans) (k : mkind) (c : ctx) : list bytes :=
  match k with
  | MHelo => [c_heloname c]
  | MHost => rd_verified (t_rdns T)
  | MFrom => [c_from c]
  | MTo => [c_rcptto c]
  | MIp => [t_rip T]
  end.
Definition evalMatch (W : world) (T : trans) (k : mkind) (arg : bytes) : M bool :=
  matchEval W arg (kindMatcher W k) (kindGetter T k).

(** rnodes.go:298-314 *)
Definition evalDnsbl (W : world) (T : trans) (domain : bytes) : M bool :=
  match t_rip T with
  | [] => ret false
  | _ =>
      match split_byte (t_rip T) ch_dot with
      | [s0; s1; s2; s3] =>
          dom res <- getDnsblRes W (s3 ++ B "." ++ s2 ++ B "." ++ s1 ++ B "." ++ s0 ++ B "." ++ domain);
          if res then dom _ <- addDnsblHit domain; ret true else ret false
      | _ => ret false
      end
  end.

(** adding to the Go map [check]: no duplicates *)
Definition add_key (l : list bytes) (k : bytes) : list bytes := if bmem k l then l else l ++ [k].

(** rnodes.go:455-463: s[:len(s)-1], a panic on an empty name *)
Fixpoint add_names (l : list bytes) (names : list bytes) : outcome (list bytes) :=
  match names with
  | [] => Ok l
  | [] :: _ => Panic
  | n :: ns => add_names (add_key l (drop_last n)) ns
  end.

(** rnodes.go:484-491 *)
Fixpoint dbl_loop (W : world) (domain : bytes) (names : list bytes) (r : bool) : M bool :=
  match names with
  | [] => ret r
  | s :: ns =>
      dom res <- getDnsblRes W (s ++ B "." ++ domain);
      if res then dom _ <- addDnsblHit domain; dbl_loop W domain ns true
      else dbl_loop W domain ns r
  end.

(** rnodes.go:446-493; the order of the map iteration is the world's *)
Definition evalDbl (W : world) (T : trans) (src : opt) (domain : bytes) : M bool :=
  dom hn <- get c_heloname;
  let k1 := if ohas src (N.lor oEhlo oHelo) && negb (beqb hn []) then add_key [] hn else [] in
  dom k2 <- (if ohas_all src oHost then
               let r := t_rdns T in
               lift (do a <- add_names k1 (rd_verified r);
                     do b <- add_names a (rd_nofwd r);
                     add_names b (rd_inconsist r))
             else ret k1);
  dom from <- get c_from;
  dom k3 <- (if ohas_all src oFrom && negb (beqb from []) then
               dom aopt <- getAddrOpts W from;
               if ohas aopt (N.lor oDomainValid (N.lor oDomainInvalid oDomainTempfail)) then
                 (* idx is not -1 here *)
                 ret (add_key k2 (match index_byte from ch_at with
                                  | Some i => skipn (S i) from
                                  | None => from
                                  end))
               else ret k2
             else ret k2);
  match k3 with
  | [] => ret false
  | _ => dom tick <- get (fun c => length (c_trace c));
         dbl_loop W domain (w_order W tick k3) false
  end.

(** rnodes.go:510-513 *)
Definition evalOpt (W : world) (T : trans) (k : okind) (opts : opt) : M bool :=
  dom o <- (match k with
            | ODns => ret (dnsGetter T)
            | OHelo => dom cmd <- get c_helocmd; dom hn <- get c_heloname; ret (heloGetter T cmd hn)
            | OFromHas => dom a <- get c_from; getAddrOpts W a
            | OToHas => dom a <- get c_rcptto; getAddrOpts W a
            end);
  ret (N.ltb 0 (N.land opts o)).

(** the Eval methods: rnodes.go:213-256 (structure), 269-314, 335-350,
    403-405 (source), 446-493, 510-513 *)
Fixpoint eval (W : world) (T : trans) (e : expr) : M bool :=
  match e with
  | EAnd l =>
      (fix go l := match l with
                   | [] => ret true
                   | x :: l' => dom r <- eval W T x; if r then go l' else ret false
                   end) l
  | ENot x => dom r <- eval W T x; ret (negb r)
  | EOr a b => dom r <- eval W T a; if r then ret true else eval W T b
  | EAll => ret true
  | ETls on => ret (Bool.eqb on (t_tlson T))
  | EDnsbl d => evalDnsbl W T d
  | EMatch k a => evalMatch W T k a
  | ESource a =>
      dom r <- evalMatch W T MHost a;
      if r then ret true
      else dom r <- evalMatch W T MHelo a;
           if r then ret true
           else matchEval W a (matchFromHost (w_uni W)) (fun c => [c_from c])
  | EDbl s d => evalDbl W T s d
  | EOpt k o => evalOpt W T k o
  end.

(** *** Rules *)

(** rnodes.go:149-151 *)
Definition set_all (m w : smap bytes) : smap bytes :=
  fold_left (fun m kv => mset m (fst kv) (snd kv)) w m.

(** rnodes.go:139-154: the loop over the clauses *)
Fixpoint check_clauses (W : world) (T : trans) (cs : list rclause) : M bool :=
  match cs with
  | [] => ret false
  | rc :: cs' =>
      dom res <- eval W T (rc_expr rc);
      dom miss <- get c_rulemiss;
      if miss : bool then ret false
      else if negb res then check_clauses W T cs'
      else dom _ <- upd (fun c => set_withprops (set_all (c_withprops c) (rc_withs rc)) c);
           ret true
  end.
(** rnodes.go:137-155 *)
Definition check (W : world) (T : trans) (r : rule) : M bool :=
  dom _ <- upd (set_rulemiss false);
  check_clauses W T (r_clauses r).

(** rules.go:395-409 *)
Fixpoint ruleForEachRcpt (W : world) (T : trans) (r : rule) (rcpts : list bytes) : M bool :=
  match rcpts with
  | [] => ret false
  | a :: rest =>
      dom _ <- upd (set_rcptto a);
      dom res <- check W T r;
      if res : bool then ret true
      else dom miss <- get c_rulemiss;
           if miss : bool then ret res else ruleForEachRcpt W T r rest
  end.

(** rules.go:463-485: whether the rule is skipped in this phase *)
Definition skipped (ph : phase) (r : rule) : bool :=
  pltb ph (r_requires r) || pltb ph (r_deferto r) ||
  (negb (peqb (r_deferto r) pAny) && pltb (r_deferto r) ph).

(** rules.go:461-519: the loop over the rules *)
Fixpoint run_rules (W : world) (T : trans) (ph : phase) (rs : list rule) : M action :=
  match rs with
  | [] => ret aNoresult
  | r :: rs' =>
      if skipped ph r then run_rules W T ph rs'
      else
        dom _ <- upd (set_rulemiss false);
        dom res <- (if pltb pRto ph && pleb pRto (r_requires r)
                    then ruleForEachRcpt W T r (t_rcptto T)
                    else check W T r);
        dom miss <- get c_rulemiss;
        if miss : bool then run_rules W T ph rs'
        else if res && Nat.leb (acode aAccept) (acode (r_result r)) then ret (r_result r)
        else run_rules W T ph rs'
  end.

(** The part of an smtpd event that Decide looks at. *)
Record evt := mkEvt { e_cmd : option helocmd; e_arg : bytes }.

(** rules.go:420-434 *)
Definition shadow (ph : phase) (e : evt) (c : ctx) : ctx :=
  match ph with
  | pHelo => set_defresult aError (set_helo (e_cmd e) (e_arg e) c)
  | pMfrom => set_defresult aError (set_from (e_arg e) c)
  | pRto => set_rcptto (e_arg e) c
  | pData | pMessage => set_rcptto [] c
  | pAny | pConnect => c
  end.

(** rules.go:415-536 *)
Definition Decide (W : world) (T : trans) (rules : list rule) (ph : phase) (e : evt) : M action :=
  dom _ <- upd (fun c => set_domerr None (set_withprops [] (set_dnsblhit [] (shadow ph e c))));
  dom def <- get c_defresult;
  if Nat.leb (acode aAccept) (acode def) then
    dom _ <- upd (fun c => set_withprops (c_defprops c) (set_dnsblhit (c_defdnsblhit c) c));
    ret def
  else
    dom r <- run_rules W T ph rules;
    dom from <- get c_from;
    if peqb ph pMfrom && beqb from [] && agtb r aAccept then
      dom _ <- upd (fun c => set_withprops []
                 (set_def (c_dnsblhit c) (c_withprops c) (set_defresult r c)));
      ret aAccept
    else ret r.
