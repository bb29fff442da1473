(** An independent description of how rule text divides into tokens.

    This file does not use the lexer state machine of Lexer.v, only its token
    types and the keyword table.  [Lexes m p s ts] says: the text [s], found
    at byte offset [p] of a rules file, and read at the start of a line
    ([SOL]) or inside a line ([INL]), divides into exactly the tokens [ts]. *)
From Verif Require Import Bytes Outcome Lexer.

Inductive mode := SOL | INL.

(** Bytes that end a word. *)
Definition ends_word (c : ascii) : bool :=
  mem_byte c [","%char; "("%char; ")"%char; ";"%char; ch_nl; ch_space; ch_tab].

Definition is_layout (c : ascii) : bool := mem_byte c [ch_space; ch_tab].

(** What follows a word: the end of the text or a byte that ends a word. *)
Definition at_word_end (s : bytes) : Prop :=
  match s with [] => True | c :: _ => ends_word c = true end.

Definition at_line_end (s : bytes) : Prop :=
  match s with [] => True | c :: _ => c = ch_nl end.

(** The text after an opening quote: [Some (value, rest)] after the closing
    quote, [None] if there is none.  A backslash quotes a quote or a
    backslash and otherwise stands for itself. *)
Fixpoint unquote (s : bytes) : option (bytes * bytes) :=
  match s with
  | [] => None
  | c :: s1 =>
      if Ascii.eqb c ch_quote then Some ([], s1)
      else
        match s1 with
        | d :: s2 =>
            if Ascii.eqb c ch_bslash && (Ascii.eqb d ch_quote || Ascii.eqb d ch_bslash)
            then option_map (fun p => (d :: fst p, snd p)) (unquote s2)
            else option_map (fun p => (c :: fst p, snd p)) (unquote s1)
        | [] => None
        end
  end.

(** The token type of an unquoted word; [None] for a bare "file:". *)
Definition word_type (w : bytes) : option itype :=
  match mget keywords w with
  | Some t => Some t
  | None =>
      if has_prefix w (B "/") || has_prefix w (B "./") then Some itemFilename
      else if has_prefix w (B "file:") then
        if beqb w (B "file:") then None else Some itemFilename
      else Some itemValue
  end.

(** Which words can start here: a word does not start with a quote, at the
    start of a line not with a #, and backslash-newline is a continuation. *)
Definition word_start_ok (m : mode) (w s : bytes) : Prop :=
  match w with
  | [] => False
  | c :: _ =>
      c <> ch_quote /\ (m = SOL -> c <> "#"%char) /\
      ~ (w = [ch_bslash] /\ exists s', s = ch_nl :: s')
  end.

Definition punct_type (c : ascii) : option itype :=
  if Ascii.eqb c "(" then Some itemLparen
  else if Ascii.eqb c ")" then Some itemRparen
  else if Ascii.eqb c ";" then Some itemSemicolon
  else None.

Definition bad_after_comma (s : bytes) : bool :=
  match s with [] => true | c :: _ => mem_byte c [ch_space; ch_tab; ch_nl] end.

Inductive Lexes : mode -> nat -> bytes -> list item -> Prop :=
| Lx_eof m p : Lexes m p [] [mkItem itemEOF [] p]
| Lx_blank m p c s ts :
    is_layout c = true -> Lexes m (p + 1) s ts -> Lexes m p (c :: s) ts
| Lx_cont m p s ts :
    Lexes m (p + 2) s ts -> Lexes m p (ch_bslash :: ch_nl :: s) ts
| Lx_blankline p s ts :
    Lexes SOL (p + 1) s ts -> Lexes SOL p (ch_nl :: s) ts
| Lx_comment p com s ts :
    ~ In ch_nl com -> at_line_end s ->
    Lexes SOL (p + 1 + length com) s ts ->
    Lexes SOL p ("#"%char :: com ++ s) ts
| Lx_eol p s ts :
    Lexes SOL (p + 1) s ts ->
    Lexes INL p (ch_nl :: s) (mkItem itemEOL [ch_nl] p :: ts)
| Lx_punct m p c t s ts :
    punct_type c = Some t -> Lexes INL (p + 1) s ts ->
    Lexes m p (c :: s) (mkItem t [c] p :: ts)
| Lx_comma m p s ts :
    bad_after_comma s = false -> Lexes INL (p + 1) s ts ->
    Lexes m p (","%char :: s) (mkItem itemComma [","%char] p :: ts)
| Lx_comma_bad m p s :
    bad_after_comma s = true ->
    Lexes m p (","%char :: s)
          [mkItem itemComma [","%char] p; mkItem itemError msg_comma (p + 1)]
| Lx_quote m p s v r ts :
    unquote s = Some (v, r) ->
    Lexes INL (p + 1 + (length s - length r)) r ts ->
    Lexes m p (ch_quote :: s) (mkItem itemValue v p :: ts)
| Lx_quote_bad m p s :
    unquote s = None ->
    Lexes m p (ch_quote :: s) [mkItem itemError msg_unterm p]
| Lx_word m p w t s ts :
    forallb (fun c => negb (ends_word c)) w = true -> at_word_end s ->
    word_start_ok m w s -> word_type w = Some t ->
    Lexes INL (p + length w) s ts ->
    Lexes m p (w ++ s) (mkItem t w p :: ts)
| Lx_word_bad m p w s :
    forallb (fun c => negb (ends_word c)) w = true -> at_word_end s ->
    word_start_ok m w s -> word_type w = None ->
    Lexes m p (w ++ s) [mkItem itemError msg_nofile p].
