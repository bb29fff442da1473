(** The documented grammar of rule files (doc.go, and the comment at the head
    of rparse.go), as inductive relations between token sequences and rules.
    Nothing here refers to the parsing functions of Parser.v. *)
From Verif Require Import Bytes Outcome Lexer Ast GoNet.

(** anything that is not an end marker or a lexing error can be an argument *)
Definition is_arg (a : item) : Prop :=
  i_typ a <> itemEOF /\ i_typ a <> itemEOL /\ i_typ a <> itemError.

(** IPADDR|CIDR|FILENAME *)
Definition is_ip_arg (a : item) : Prop :=
  i_typ a = itemFilename \/
  (i_typ a = itemValue /\ (parse_ip (i_val a) <> None \/ parse_cidr (i_val a) <> None)).

(** DOMAIN: an ordinary word with a dot in it, taken with a final dot added if
    it has none *)
Definition is_domain (a : item) (d : bytes) : Prop :=
  i_typ a = itemValue /\ In ch_dot (i_val a) /\
  ((exists u, i_val a = u ++ [ch_dot] /\ d = i_val a) \/
   ((~ exists u, i_val a = u ++ [ch_dot]) /\ d = i_val a ++ [ch_dot])).

(** a comma separated list of options out of a table; the result is the union *)
Inductive GOpts (tbl : omap) : list item -> opt -> Prop :=
| GO_one t o : In (i_typ t, o) tbl -> GOpts tbl [t] o
| GO_more t o c ts os :
    In (i_typ t, o) tbl -> i_typ c = itemComma -> GOpts tbl ts os ->
    GOpts tbl (t :: c :: ts) (N.lor o os).

(** FROM|TO|HELO|HOST arg *)
Definition match_kind (t : itype) : option mkind :=
  match t with
  | itemFrom => Some MFrom | itemTo => Some MTo | itemHelo => Some MHelo
  | itemEhlo => Some MHelo | itemHost => Some MHost | _ => None
  end.

(** DNS, HELO-HAS, FROM-HAS, TO-HAS and their option tables *)
Definition option_kind (t : itype) : option (okind * omap) :=
  match t with
  | itemDns => Some (ODns, dnsMap) | itemHeloHas => Some (OHelo, heloMap)
  | itemFromHas => Some (OFromHas, addrMap) | itemToHas => Some (OToHas, addrMap)
  | _ => None
  end.

(** the tree of a series: a single operand stands for itself *)
Definition series (es : list expr) : expr :=
  match es with [e] => e | _ => EAnd es end.

Inductive GTerm : list item -> expr -> Prop :=
| GT_not n ts e :
    i_typ n = itemNot -> GTerm ts e -> GTerm (n :: ts) (ENot e)
| GT_paren l ts r e :
    i_typ l = itemLparen -> i_typ r = itemRparen -> GAndl ts e ->
    GTerm (l :: ts ++ [r]) e
| GT_all k : i_typ k = itemAll -> GTerm [k] EAll
| GT_tls k a b :
    i_typ k = itemTls -> i_typ a = (if b : bool then itemOn else itemOff) -> GTerm [k; a] (ETls b)
| GT_opts k kd tbl ts o :
    option_kind (i_typ k) = Some (kd, tbl) -> GOpts tbl ts o -> GTerm (k :: ts) (EOpt kd o)
| GT_match k kd a :
    match_kind (i_typ k) = Some kd -> is_arg a -> GTerm [k; a] (EMatch kd (i_val a))
| GT_ip k a :
    i_typ k = itemIp -> is_ip_arg a -> GTerm [k; a] (EMatch MIp (i_val a))
| GT_dnsbl k a d :
    i_typ k = itemDnsbl -> is_domain a d -> GTerm [k; a] (EDnsbl d)
| GT_source k a :
    i_typ k = itemSource -> is_arg a -> GTerm [k; a] (ESource (i_val a))
| GT_dbl k ts o a d :
    i_typ k = itemDbl -> GOpts dblMap ts o -> is_domain a d ->
    GTerm (k :: ts ++ [a]) (EDbl o d)
(** orl -> term [OR orl] *)
with GOrl : list item -> expr -> Prop :=
| GOr_one ts e : GTerm ts e -> GOrl ts e
| GOr_or ts1 e1 o ts2 e2 :
    GTerm ts1 e1 -> i_typ o = itemOr -> GOrl ts2 e2 ->
    GOrl (ts1 ++ o :: ts2) (EOr e1 e2)
(** andl -> orl [andl] *)
with GSeries : list item -> list expr -> Prop :=
| GS_one ts e : GOrl ts e -> GSeries ts [e]
| GS_more ts e ts' es : GOrl ts e -> GSeries ts' es -> GSeries (ts ++ ts') (e :: es)
with GAndl : list item -> expr -> Prop :=
| GA ts es : GSeries ts es -> GAndl ts (series es).

Scheme GTerm_mind := Induction for GTerm Sort Prop
  with GOrl_mind := Induction for GOrl Sort Prop
  with GSeries_mind := Induction for GSeries Sort Prop
  with GAndl_mind := Induction for GAndl Sort Prop.
Combined Scheme G_mutind from GTerm_mind, GOrl_mind, GSeries_mind, GAndl_mind.

(** wterm *)
Inductive GWterm : list item -> bytes * bytes -> Prop :=
| GW_message k a : i_typ k = itemMessage -> is_arg a -> GWterm [k; a] (i_val k, i_val a)
| GW_savedir k a : i_typ k = itemSavedir -> is_arg a -> GWterm [k; a] (i_val k, i_val a)
| GW_note k a :
    i_typ k = itemNote -> is_arg a -> ~ In ch_nl (i_val a) -> GWterm [k; a] (i_val k, i_val a)
| GW_tlsopt k a :
    i_typ k = itemTlsOpt -> is_arg a -> (i_val a = B "off" \/ i_val a = B "no-client") ->
    GWterm [k; a] (i_val k, i_val a)
| GW_yakker k : i_typ k = itemMakeYakker -> GWterm [k] (i_val k, []).

(** May the option [k] be given when [seen] is what came before it in the
    clause?  message, note and savedir may follow an earlier empty one. *)
Definition may_add (t : itype) (k : bytes) (seen : list (bytes * bytes)) : Prop :=
  match t with
  | itemTlsOpt | itemMakeYakker => forall v, ~ In (k, v) seen
  | _ => forall v, In (k, v) seen -> v = []
  end.

(** wclause: the options in order; [seen] are the earlier ones *)
Inductive GWiths : list (bytes * bytes) -> list item -> list (bytes * bytes) -> Prop :=
| GWs_one seen k ts kv :
    GWterm (k :: ts) kv -> may_add (i_typ k) (i_val k) seen -> GWiths seen (k :: ts) [kv]
| GWs_more seen k ts kv ts' kvs :
    GWterm (k :: ts) kv -> may_add (i_typ k) (i_val k) seen ->
    GWiths (seen ++ [kv]) ts' kvs -> GWiths seen (k :: ts ++ ts') (kv :: kvs).

(** the options of a clause as a finite map: the last value counts *)
Definition withs_of (kvs : list (bytes * bytes)) : smap bytes :=
  fold_left (fun m kv => mset m (fst kv) (snd kv)) kvs [].

(** one clause: andl [with] *)
Inductive GClause : list item -> rclause -> Prop :=
| GC_plain ts e : GAndl ts e -> GClause ts (mkClause e [])
| GC_with ts e w wts kvs :
    GAndl ts e -> i_typ w = itemWith -> GWiths [] wts kvs ->
    GClause (ts ++ w :: wts) (mkClause e (withs_of kvs)).

(** rclause -> clause [rend rclause],  rend -> ';' EOL | ';' *)
Inductive GClauses : list item -> list rclause -> Prop :=
| GCs_one ts c : GClause ts c -> GClauses ts [c]
| GCs_more ts c s eol ts' cs :
    GClause ts c -> i_typ s = itemSemicolon ->
    (eol = [] \/ exists e, eol = [e] /\ i_typ e = itemEOL) ->
    GClauses ts' cs ->
    GClauses (ts ++ s :: eol ++ ts') (c :: cs).

(** The phase whose information a match operator needs. *)
Definition pmax (a b : phase) : phase := if pltb a b then b else a.
Fixpoint needs (e : expr) : phase :=
  match e with
  | EAnd l => fold_right pmax pAny (map needs l)
  | ENot e => needs e
  | EOr a b => pmax (needs a) (needs b)
  | EAll => pAny
  | ETls _ => pMfrom
  | EDnsbl _ => pAny
  | EMatch MHelo _ => pHelo
  | EMatch MHost _ => pAny
  | EMatch MFrom _ => pMfrom
  | EMatch MTo _ => pRto
  | EMatch MIp _ => pAny
  | ESource _ => pMfrom
  | EDbl o _ => if ohas o oFrom then pMfrom else if ohas o oEhlo then pHelo else pAny
  | EOpt ODns _ => pAny
  | EOpt OHelo _ => pHelo
  | EOpt OFromHas _ => pMfrom
  | EOpt OToHas _ => pRto
  end.
Definition needs_clauses (cs : list rclause) : phase :=
  fold_right pmax pAny (map (fun c => needs (rc_expr c)) cs).

Definition phase_of (t : itype) : option phase :=
  match t with
  | itemAConnect => Some pConnect | itemAHelo => Some pHelo | itemAFrom => Some pMfrom
  | itemATo => Some pRto | itemAData => Some pData | itemAMessage => Some pMessage
  | _ => None
  end.
Definition action_of (t : itype) : option action :=
  match t with
  | itemAccept => Some aAccept | itemReject => Some aReject | itemStall => Some aStall
  | itemSetWith => Some aNoresult | _ => None
  end.

(** the optional phase: pAny stands for "not given" *)
Inductive GPhase : list item -> phase -> Prop :=
| GP_none : GPhase [] pAny
| GP_some t ph : phase_of (i_typ t) = Some ph -> GPhase [t] ph.

(** rule -> [phase] what rclause, up to its end of line *)
Inductive GRule : list item -> rule -> Prop :=
| GR pts ph a act ts cs :
    GPhase pts ph -> action_of (i_typ a) = Some act -> GClauses ts cs ->
    (act = aNoresult -> forall c, In c cs -> rc_withs c <> []) ->
    (ph <> pAny -> pcode (needs_clauses cs) <= pcode ph) ->
    GRule (pts ++ a :: ts) (mkRule cs act (needs_clauses cs) ph).

(** A file: rules and include lines, each ended by an end of line or the end
    of the file.  [incl t name rs t'] says that loading [name], as the [t]th
    file read, gives [rs] and leaves the count of reads at [t']. *)
Inductive GFile (incl : nat -> bytes -> list rule -> nat -> Prop) :
  nat -> list item -> list rule -> nat -> Prop :=
| GF_empty e t : i_typ e = itemEOF -> GFile incl t [e] [] t
| GF_rule t ts r e rest rs t' :
    GRule ts r -> i_typ e = itemEOL -> GFile incl t rest rs t' ->
    GFile incl t (ts ++ e :: rest) (r :: rs) t'
| GF_rule_last t ts r e :
    GRule ts r -> i_typ e = itemEOF -> GFile incl t (ts ++ [e]) [r] t
| GF_include t k a e rest rl rs t1 t' :
    i_typ k = itemInclude -> is_arg a -> i_typ e = itemEOL ->
    incl t (i_val a) rl t1 -> GFile incl t1 rest rs t' ->
    GFile incl t (k :: a :: e :: rest) (rl ++ rs) t'
| GF_include_last t k a e rl t1 :
    i_typ k = itemInclude -> is_arg a -> i_typ e = itemEOF ->
    incl t (i_val a) rl t1 -> GFile incl t [k; a; e] rl t1.
