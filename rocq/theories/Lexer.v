(** Model of /repo/rlex.go, function by function. *)
From Verif Require Import Bytes Outcome.

(** rlex.go:50-155 itemType.  The marker constants itemHasValue, itemKeywords
    and itemMaxItem are constructors too; the lexer never emits them. *)
Inductive itype : Type :=
| itemError | itemEOF | itemEOL
| itemHasValue
| itemComma | itemLparen | itemRparen | itemSemicolon
| itemValue | itemFilename
| itemKeywords
| itemInclude
| itemAConnect | itemAHelo | itemAFrom | itemATo | itemAData | itemAMessage
| itemAccept | itemReject | itemStall | itemSetWith
| itemOr | itemNot
| itemHelo | itemAll | itemFrom | itemTo | itemFromHas | itemToHas | itemHeloHas
| itemTls | itemHost | itemDns | itemIp | itemDnsbl | itemSource | itemDbl
| itemWith | itemMessage | itemNote | itemSavedir | itemTlsOpt | itemMakeYakker
| itemEhlo | itemNone | itemBogus | itemNodots | itemBareip | itemProperip
| itemMyip | itemRemip | itemOtherip
| itemNodns | itemInconsistent | itemNoforward
| itemUnqualified | itemRoute | itemQuoted | itemNoat | itemGarbage
| itemDomainValid | itemDomainInvalid | itemDomainTempfail
| itemBad | itemOn | itemOff | itemGood | itemExists | itemAny
| itemMaxItem.

(** rlex.go:55-155: the iota value of each constant, in declaration order. *)
Definition icode (t : itype) : nat :=
  match t with
  | itemError => 0 | itemEOF => 1 | itemEOL => 2 | itemHasValue => 3
  | itemComma => 4 | itemLparen => 5 | itemRparen => 6 | itemSemicolon => 7
  | itemValue => 8 | itemFilename => 9 | itemKeywords => 10 | itemInclude => 11
  | itemAConnect => 12 | itemAHelo => 13 | itemAFrom => 14 | itemATo => 15
  | itemAData => 16 | itemAMessage => 17
  | itemAccept => 18 | itemReject => 19 | itemStall => 20 | itemSetWith => 21
  | itemOr => 22 | itemNot => 23
  | itemHelo => 24 | itemAll => 25 | itemFrom => 26 | itemTo => 27
  | itemFromHas => 28 | itemToHas => 29 | itemHeloHas => 30
  | itemTls => 31 | itemHost => 32 | itemDns => 33 | itemIp => 34
  | itemDnsbl => 35 | itemSource => 36 | itemDbl => 37
  | itemWith => 38 | itemMessage => 39 | itemNote => 40 | itemSavedir => 41
  | itemTlsOpt => 42 | itemMakeYakker => 43
  | itemEhlo => 44 | itemNone => 45 | itemBogus => 46 | itemNodots => 47
  | itemBareip => 48 | itemProperip => 49 | itemMyip => 50 | itemRemip => 51
  | itemOtherip => 52 | itemNodns => 53 | itemInconsistent => 54
  | itemNoforward => 55 | itemUnqualified => 56 | itemRoute => 57
  | itemQuoted => 58 | itemNoat => 59 | itemGarbage => 60
  | itemDomainValid => 61 | itemDomainInvalid => 62 | itemDomainTempfail => 63
  | itemBad => 64 | itemOn => 65 | itemOff => 66 | itemGood => 67
  | itemExists => 68 | itemAny => 69 | itemMaxItem => 70
  end.

Definition ieqb (a b : itype) : bool := Nat.eqb (icode a) (icode b).

Lemma icode_inj a b : icode a = icode b -> a = b.
Proof. destruct a, b; (reflexivity || discriminate). Qed.

Lemma ieqb_spec a b : reflect (a = b) (ieqb a b).
Proof.
  unfold ieqb. destruct (Nat.eqb_spec (icode a) (icode b)) as [H|H]; constructor.
  - now apply icode_inj.
  - intros E; apply H; now rewrite E.
Qed.

Definition itype_dec (a b : itype) : {a = b} + {a <> b}.
Proof. destruct (ieqb_spec a b); [left|right]; auto. Defined.

(** rlex.go:45-49 *)
Record item := mkItem { i_typ : itype; i_val : bytes; i_pos : nat }.

(** rlex.go:159-231 *)
Definition keywords : list (bytes * itype) := [
  (B "include", itemInclude);
  (B "@connect", itemAConnect); (B "@helo", itemAHelo); (B "@from", itemAFrom);
  (B "@to", itemATo); (B "@data", itemAData); (B "@message", itemAMessage);
  (B "accept", itemAccept); (B "reject", itemReject); (B "stall", itemStall);
  (B "set-with", itemSetWith);
  (B "or", itemOr); (B "not", itemNot);
  (B "all", itemAll); (B "from", itemFrom); (B "to", itemTo); (B "helo", itemHelo);
  (B "host", itemHost); (B "from-has", itemFromHas); (B "to-has", itemToHas);
  (B "helo-has", itemHeloHas); (B "tls", itemTls); (B "dns", itemDns);
  (B "ip", itemIp); (B "dnsbl", itemDnsbl); (B "source", itemSource); (B "dbl", itemDbl);
  (B "with", itemWith); (B "message", itemMessage); (B "note", itemNote);
  (B "savedir", itemSavedir); (B "tls-opt", itemTlsOpt); (B "make-yakker", itemMakeYakker);
  (B "ehlo", itemEhlo); (B "none", itemNone); (B "bogus", itemBogus);
  (B "nodots", itemNodots); (B "bareip", itemBareip); (B "properip", itemProperip);
  (B "myip", itemMyip); (B "remip", itemRemip); (B "otherip", itemOtherip);
  (B "nodns", itemNodns); (B "inconsistent", itemInconsistent);
  (B "noforward", itemNoforward); (B "unqualified", itemUnqualified);
  (B "route", itemRoute); (B "quoted", itemQuoted); (B "noat", itemNoat);
  (B "garbage", itemGarbage); (B "resolves", itemDomainValid);
  (B "baddom", itemDomainInvalid); (B "unknown", itemDomainTempfail);
  (B "bad", itemBad); (B "on", itemOn); (B "off", itemOff); (B "good", itemGood);
  (B "exists", itemExists); (B "any", itemAny) ].

(** Go map index: the zero value itemError for a missing key. *)
Definition keyword_of (v : bytes) : itype :=
  match mget keywords v with Some t => t | None => itemError end.

(** rlex.go:252-259; [None] is the eof pseudo-character (rlex.go:233). *)
Definition specials (r : option ascii) : itype :=
  match r with
  | None => itemEOF
  | Some c =>
      if Ascii.eqb c "," then itemComma
      else if Ascii.eqb c "(" then itemLparen
      else if Ascii.eqb c ")" then itemRparen
      else if Ascii.eqb c ";" then itemSemicolon
      else if Ascii.eqb c ch_nl then itemEOL
      else itemError
  end.

(** rlex.go:261 *)
Definition specialChars : bytes := B "(),;" ++ [ch_nl; ch_space; ch_tab].

(** rlex.go:263: the state functions, by name; [None] is Go's nil. *)
Inductive lexfn := FLineStart | FLineRunning | FSpecial | FWord | FQuote | FComment.

(** rlex.go:265-272.  [items] is the list of everything sent so far on the
    items channel (the interleaving with the reader is modelled in Chan.v). *)
Record lexer := mkLexer {
  l_input : bytes;
  l_pos : nat;
  l_start : nat;
  l_width : nat;
  l_items : list item
}.

(** rlex.go:275-284 *)
Definition next (l : lexer) : option ascii * lexer :=
  match nth_error (l_input l) (l_pos l) with
  | None => (None, mkLexer (l_input l) (l_pos l) (l_start l) 0 (l_items l))
  | Some r => (Some r, mkLexer (l_input l) (l_pos l + 1) (l_start l) 1 (l_items l))
  end.

(** rlex.go:288-290 *)
Definition backup (l : lexer) : lexer :=
  mkLexer (l_input l) (l_pos l - l_width l) (l_start l) (l_width l) (l_items l).

(** rlex.go:293-297 *)
Definition peek (l : lexer) : option ascii * lexer :=
  let (r, l1) := next l in (r, backup l1).

(** rlex.go:300-302 *)
Definition swallow (l : lexer) : lexer :=
  mkLexer (l_input l) (l_pos l) (l_pos l) (l_width l) (l_items l).

(** sending on the channel *)
Definition send (i : item) (l : lexer) : lexer :=
  mkLexer (l_input l) (l_pos l) (l_start l) (l_width l) (l_items l ++ [i]).

(** plain assignment to l.pos *)
Definition set_pos (p : nat) (l : lexer) : lexer :=
  mkLexer (l_input l) p (l_start l) (l_width l) (l_items l).

(** rlex.go:305-308 *)
Definition emit (t : itype) (l : lexer) : outcome lexer :=
  do v <- slice (l_input l) (l_start l) (l_pos l);
  Ok (swallow (send (mkItem t v (l_start l)) l)).

(** rlex.go:312-315 *)
Definition emitString (s : bytes) (l : lexer) : lexer :=
  swallow (send (mkItem itemValue s (l_start l)) l).

(** rlex.go:319-322; every caller passes a constant format. *)
Definition errorf (msg : bytes) (l : lexer) : option lexfn * lexer :=
  (None, send (mkItem itemError msg (l_start l)) l).

(** Go's [s[a:]]: panics when a > len(s). *)
Definition slice_from (s : bytes) (a : nat) : outcome bytes := slice s a (List.length s).

Definition is_blank (r : option ascii) : bool :=
  match r with
  | Some c => Ascii.eqb c ch_space || Ascii.eqb c ch_tab
  | None => false
  end.

(** rlex.go:378-387; the loop advances by one byte each time round. *)
Fixpoint skipWhitespace_loop (fuel : nat) (l : lexer) : outcome lexer :=
  match fuel with
  | 0 => NoFuel
  | S n =>
      let (r, l1) := next l in
      if is_blank r then skipWhitespace_loop n l1
      else Ok (swallow (backup l1))
  end.
Definition skipWhitespace (l : lexer) : outcome lexer :=
  skipWhitespace_loop (S (List.length (l_input l))) l.

(** the literal error texts of rlex.go:421, 449 and 513 *)
Definition msg_comma := B "comma followed by whitespace, EOL, or EOF".
Definition msg_nofile := B "'file:' with no filename".
Definition msg_unterm := B "unterminated quoted value".

(** rlex.go:393-427 *)
Definition lexSpecial (l0 : lexer) : outcome (option lexfn * lexer) :=
  let (r, l1) := next l0 in
  do l2 <- emit (specials r) l1;
  let (n, l3) := peek l2 in
  match r with
  | None => Ok (None, l3)
  | Some c =>
      if Ascii.eqb c ch_nl then Ok (Some FLineStart, l3)
      else if Ascii.eqb c "," then
        if is_blank n || match n with None => true | Some c' => Ascii.eqb c' ch_nl end
        then Ok (errorf msg_comma (backup l3))
        else Ok (Some FLineRunning, l3)
      else Ok (Some FLineRunning, l3)
  end.

(** rlex.go:432-457 *)
Definition lexWord (l0 : lexer) : outcome (option lexfn * lexer) :=
  do s <- slice_from (l_input l0) (l_pos l0);
  let idx := match index_any s specialChars with
             | Some i => i
             | None => List.length (l_input l0) - l_pos l0
             end in
  let l := set_pos (l_pos l0 + idx) l0 in
  do v <- slice (l_input l) (l_start l) (l_pos l);
  if negb (ieqb (keyword_of v) itemError) then
    do l' <- emit (keyword_of v) l; Ok (Some FLineRunning, l')
  else
    do c0 <- of_option (nth_error v 0);
    if Ascii.eqb c0 "/" || has_prefix v (B "./") then
      do l' <- emit itemFilename l; Ok (Some FLineRunning, l')
    else if has_prefix v (B "file:") then
      if Nat.leb (List.length v) (List.length (B "file:")) then
        Ok (errorf msg_nofile l)
      else do l' <- emit itemFilename l; Ok (Some FLineRunning, l')
    else
      do l' <- emit itemValue l; Ok (Some FLineRunning, l').

(** rlex.go:477-510: the loop of lexQuote; [qparts] and [lookat] are its local
    variables.  Every iteration advances [lookat]. *)
Fixpoint lexQuote_loop (fuel : nat) (qparts : list bytes) (lookat : nat) (l : lexer)
  : outcome (option lexfn * lexer) :=
  match fuel with
  | 0 => NoFuel
  | S n =>
      if Nat.leb (List.length (l_input l)) lookat then Ok (errorf msg_unterm l)
      else
        do s <- slice_from (l_input l) lookat;
        match index_any s [ch_bslash; ch_quote] with
        | None => Ok (errorf msg_unterm l)
        | Some idx =>
            let apos := lookat + idx in
            do c <- of_option (nth_error (l_input l) apos);
            if Ascii.eqb c ch_quote then
              do p <- slice (l_input l) (l_pos l) apos;
              Ok (Some FLineRunning,
                   emitString (concat (qparts ++ [p])) (set_pos (apos + 1) l))
            else
              do t <- slice_from (l_input l) apos;
              if negb (has_prefix t [ch_bslash; ch_quote] || has_prefix t [ch_bslash; ch_bslash])
              then lexQuote_loop n qparts (apos + 1) l
              else
                do p1 <- slice (l_input l) (l_pos l) apos;
                do p2 <- slice (l_input l) (apos + 1) (apos + 2);
                lexQuote_loop n (qparts ++ [p1; p2]) (apos + 2) (set_pos (apos + 2) l)
        end
  end.

(** rlex.go:463-515 *)
Definition lexQuote (l0 : lexer) : outcome (option lexfn * lexer) :=
  let (_, l1) := next l0 in
  lexQuote_loop (S (List.length (l_input l1))) [] (l_pos l1) l1.

(** rlex.go:521-536 *)
Definition lexLineRunning (l0 : lexer) : outcome (option lexfn * lexer) :=
  do l1 <- skipWhitespace l0;
  let (r, l) := peek l1 in
  do cont <- (match r with
              | Some c =>
                  if Ascii.eqb c ch_bslash then
                    do s <- slice_from (l_input l) (l_pos l);
                    Ok (has_prefix s [ch_bslash; ch_nl])
                  else Ok false
              | None => Ok false
              end);
  if cont then
    Ok (Some FLineRunning, swallow (set_pos (l_pos l + 2) l))
  else if negb (ieqb (specials r) itemError) then Ok (Some FSpecial, l)
  else match r with
       | Some c => if Ascii.eqb c ch_quote then Ok (Some FQuote, l) else Ok (Some FWord, l)
       | None => Ok (Some FWord, l)
       end.

(** rlex.go:539-547 *)
Definition lexComment (l : lexer) : outcome (option lexfn * lexer) :=
  do s <- slice_from (l_input l) (l_pos l);
  let idx := match index_byte s ch_nl with
             | Some i => i
             | None => List.length (l_input l) - l_pos l
             end in
  Ok (Some FLineStart, swallow (set_pos (l_pos l + idx) l)).

(** rlex.go:556-587 *)
Definition lexLineStart (l0 : lexer) : outcome (option lexfn * lexer) :=
  do l1 <- skipWhitespace l0;
  let (r, l) := peek l1 in
  match r with
  | None => Ok (Some FSpecial, l)
  | Some c =>
      if negb (Ascii.eqb c ch_nl) && negb (ieqb (specials r) itemError)
      then Ok (Some FSpecial, l)
      else if Ascii.eqb c ch_quote then Ok (Some FQuote, l)
      else if Ascii.eqb c "#" then Ok (Some FComment, snd (next l))
      else if Ascii.eqb c ch_bslash then
        do s <- slice_from (l_input l) (l_pos l);
        if has_prefix s [ch_bslash; ch_nl]
        then Ok (Some FLineStart, swallow (set_pos (l_pos l + 2) l))
        else Ok (Some FWord, l)
      else if Ascii.eqb c ch_nl then Ok (Some FLineStart, swallow (snd (next l)))
      else Ok (Some FWord, l)
  end.

Definition lexstep (f : lexfn) (l : lexer) : outcome (option lexfn * lexer) :=
  match f with
  | FLineStart => lexLineStart l
  | FLineRunning => lexLineRunning l
  | FSpecial => lexSpecial l
  | FWord => lexWord l
  | FQuote => lexQuote l
  | FComment => lexComment l
  end.

(** rlex.go:325-330 *)
Fixpoint run (fuel : nat) (st : option lexfn) (l : lexer) : outcome lexer :=
  match st with
  | None => Ok l
  | Some f =>
      match fuel with
      | 0 => NoFuel
      | S n => do p <- lexstep f l; run n (fst p) (snd p)
      end
  end.

(** rlex.go:364-371 *)
Definition lex_init (input : bytes) : lexer := mkLexer input 0 0 0 [].

Definition lex_fuel (input : bytes) : nat := 3 * List.length input + 4.

(** Everything the lexer goroutine sends before it closes the channel. *)
Definition lex (input : bytes) : outcome (list item) :=
  do l <- run (lex_fuel input) (Some FLineStart) (lex_init input); Ok (l_items l).

(** rlex.go:354-360 *)
Fixpoint line_back (rs : bytes) : nat :=
  match rs with
  | [] => 0
  | c :: rs' => if Ascii.eqb c ch_nl then 0 else S (line_back rs')
  end.
Definition lineInfo (input : bytes) (pos : nat) : outcome (nat * nat) :=
  do pre <- slice input 0 pos;
  Ok (1 + count_byte pre ch_nl, 1 + line_back (rev pre)).
