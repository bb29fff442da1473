(** Properties of attributes: C21, C22, C23, C24, and of pattern files: C25. *)
From Verif Require Import Bytes Outcome Lexer Ast Parser GoNet World Dns Eval PropsMatch.

(** The term "KEYWORD WORD" of a rule, where KEYWORD is from-has, to-has,
    helo-has or dns. *)
Definition kind_word (k : okind) : bytes :=
  match k with ODns => B "dns" | OHelo => B "helo-has" | OFromHas => B "from-has" | OToHas => B "to-has" end.
Definition kind_map (k : okind) : omap :=
  match k with ODns => dnsMap | OHelo => heloMap | OFromHas | OToHas => addrMap end.
Definition attr (k : okind) (word : bytes) : expr := EOpt k (omap_get (kind_map k) (keyword_of word)).

Definition addr_words := [B "route"; B "noat"; B "quoted"; B "unqualified"; B "garbage"; B "resolves"; B "unknown"; B "baddom"; B "bad"].
Definition dns_words := [B "nodns"; B "noforward"; B "inconsistent"; B "exists"; B "good"].
Definition helo_words := [B "none"; B "bogus"; B "helo"; B "ehlo"; B "nodots"; B "bareip"; B "properip"; B "myip"; B "remip"; B "otherip"; B "ip"].

Definition nofiles : rfs := {| rf_read := fun _ _ => inr (B "no such file") |}.

(** [attr] is what the parser makes of such a term. *)
Example attr_is_parsed :
  let ok k w := match parse 4 nofiles (B "accept " ++ kind_word k ++ B " " ++ w ++ B "
") with
    | PRules [r] => match r_clauses r with
                    | [mkClause (EOpt k' o) []] => Some (k', o)
                    | _ => None end
    | _ => None end in
  Forall (fun w => ok OFromHas w = Some (OFromHas, omap_get addrMap (keyword_of w))) addr_words /\
  Forall (fun w => ok OToHas w = Some (OToHas, omap_get addrMap (keyword_of w))) addr_words /\
  Forall (fun w => ok OHelo w = Some (OHelo, omap_get heloMap (keyword_of w))) helo_words /\
  Forall (fun w => ok ODns w = Some (ODns, omap_get dnsMap (keyword_of w))) dns_words.
Proof. repeat split; repeat constructor; vm_compute; reflexivity. Qed.

(** [term_is W T c e P]: evaluating the term gives an answer, and it is "true"
    exactly when P holds. *)
Definition term_is (W : world) (T : trans) (c : ctx) (e : expr) (P : Prop) : Prop :=
  exists b, result (eval W T e c) = Ok b /\ (b = true <-> P).

(** ** Bits *)

Lemma ltb_land p o : N.ltb 0 (N.land (2 ^ p) o) = N.testbit o p.
Proof.
  rewrite N.land_comm. destruct (N.testbit o p) eqn:E.
  - apply N.ltb_lt. assert (N.testbit (N.land o (2 ^ p)) p = true).
    { rewrite N.land_spec, E, N.pow2_bits_true. reflexivity. }
    destruct (N.land o (2 ^ p)); [discriminate|lia].
  - replace (N.land o (2 ^ p)) with 0%N; [reflexivity|]. symmetry. apply N.bits_inj. intros n.
    rewrite N.land_spec, N.pow2_bits_eqb, N.bits_0. destruct (N.eqb_spec p n) as [->|]; [rewrite E|]; auto using andb_false_r.
Qed.

Lemma ltb_land_lor a b o : N.ltb 0 (N.land (N.lor a b) o) = N.ltb 0 (N.land a o) || N.ltb 0 (N.land b o).
Proof.
  rewrite N.land_lor_distr_l. destruct (N.land a o) eqn:Ea, (N.land b o) eqn:Eb; auto.
Qed.

(** ** C21, C22 *)

Definition noat (a : bytes) := ~ In ch_at a.
Definition unqualified (a : bytes) := exists l d, a = l ++ B "@" ++ d /\ ~ In ch_at l /\ ~ In ch_dot d.
Definition route (a : bytes) := exists r, a = B "@" ++ r /\ In ch_at r.
Definition quoted (a : bytes) := exists x y, a = x ++ ch_quote :: y /\ y <> [].
Definition garbage (a : bytes) :=
  (exists r, a = B "@" ++ r /\ ~ In ch_at r) \/                          (* '@something' *)
  (exists r, a = r ++ B "@" /\ ~ In ch_at r) \/                          (* 'something@' *)
  (exists r, a = B "<" ++ r) \/
  (exists r c, a = r ++ [c] /\ In c [">"%char; ch_quote; "]"%char; "."%char]) \/
  (exists x y, a = x ++ B ".." ++ y) \/ (exists x y, a = x ++ B "@@" ++ y).

Lemma addrText_spec a : a <> [] ->
  let o := fst (addrText a) in
  snd (addrText a) = index_byte a ch_at /\
  (N.testbit o 19 = true <-> noat a) /\ (N.testbit o 16 = true <-> unqualified a) /\
  (N.testbit o 17 = true <-> route a) /\ (N.testbit o 20 = true <-> garbage a) /\
  (N.testbit o 18 = true <-> quoted a) /\
  (forall p, (p < 16 \/ 20 < p)%N -> N.testbit o p = false).
Proof.
  intros Ha. 
  (* the conditions as booleans *)
  set (idx := index_byte a ch_at).
  set (bno := match idx with None => true | Some _ => false end).
  set (bat0 := match idx with Some i => Nat.eqb i 0 | None => false end).
  set (bat2 := match index_byte (tl a) ch_at with None => false | Some _ => true end).
  set (bnodot := match idx with Some i => match index_byte (skipn (S i) a) ch_dot with None => true | Some _ => false end | None => false end).
  set (lastc := match last_byte a with Some c => c | None => ch_nl end).
  set (bend := match a with c :: _ => Ascii.eqb c "<" | [] => false end ||
       Ascii.eqb lastc ">" || Ascii.eqb lastc ch_quote || Ascii.eqb lastc "]" || Ascii.eqb lastc ch_dot ||
       match idx with Some i => Nat.eqb i (length a - 1) | None => false end).
  set (bdd := contains a (B "..") || contains a (B "@@")).
  set (bq := match index_byte a ch_quote with Some i => negb (Nat.eqb i (length a - 1)) | None => false end).
  assert (E : addrText a = (
    N.lor (if bno then oNoat else N.lor (if bat0 then (if bat2 then oRoute else oGarbage) else oZero)
                                        (if bnodot then oUnqualified else oZero))
      (N.lor (if bend || bdd then oGarbage else oZero) (if bq then oQuoted else oZero)), idx)).
  { unfold addrText, bno, bat0, bat2, bnodot, bq, bdd. fold idx lastc. fold bend. f_equal.
    destruct (index_byte a ch_quote) as [q|]; [destruct (Nat.eqb q (length a - 1))|];
    (destruct idx as [i|];
     [destruct (Nat.eqb i 0), (index_byte (tl a) ch_at), (index_byte (skipn (S i) a) ch_dot)|]);
    destruct bend, (contains a (B "..")), (contains a (B "@@")); reflexivity. }
  rewrite E. cbn [fst snd]. clear E.
  assert (Hno : bno = true <-> noat a).
  { unfold bno, noat. destruct idx as [i|] eqn:Ei; subst idx.
    - apply index_byte_Some in Ei as (x & y & -> & _). split; [discriminate|]. intros H. exfalso. apply H. apply in_elt.
    - apply index_byte_None in Ei. tauto. }
  assert (Hat0 : bat0 = true <-> exists r, a = B "@" ++ r).
  { unfold bat0. destruct idx as [i|] eqn:Ei; subst idx.
    - apply index_byte_Some in Ei as (x & y & -> & <- & Hx). rewrite Nat.eqb_eq. split.
      + intros H. destruct x; [|discriminate]. exists y. reflexivity.
      + intros (r & Er). destruct x as [|c x]; auto. injection Er as -> _. exfalso. apply Hx. now left.
    - apply index_byte_None in Ei. split; [discriminate|]. intros (r & ->). exfalso. apply Ei. now left. }
  assert (Hat2 : bat2 = true <-> In ch_at (tl a)).
  { unfold bat2. destruct (index_byte (tl a) ch_at) as [i|] eqn:Ei.
    - apply index_byte_Some in Ei as (x & y & -> & _). split; auto. intros _. apply in_elt.
    - apply index_byte_None in Ei. split; [discriminate|tauto]. }
  assert (Hunq : bnodot = true <-> unqualified a).
  { unfold bnodot, unqualified. destruct idx as [i|] eqn:Ei; subst idx.
    - apply index_byte_Some in Ei as (x & y & Ea & <- & Hx).
      replace (skipn (S (length x)) a) with y.
      2:{ rewrite Ea. change (ch_at :: y) with ([ch_at] ++ y). rewrite app_assoc, skipn_app_len; auto. rewrite app_length. simpl. lia. }
      destruct (index_byte y ch_dot) as [j|] eqn:Ej.
      + split; [discriminate|]. intros (l & d & E & Hl & Hd). rewrite Ea in E.
        apply (at_split x l y d) in E as [-> ->]; auto. apply index_byte_Some in Ej as (u & v & -> & _).
        exfalso. apply Hd. apply in_elt.
      + apply index_byte_None in Ej. split; auto. intros _. exists x, y. auto.
    - apply index_byte_None in Ei. split; [discriminate|]. intros (l & d & E & _). exfalso. apply Ei. rewrite E. apply in_elt. }
  assert (Hq : bq = true <-> quoted a).
  { unfold bq, quoted. destruct (index_byte a ch_quote) as [i|] eqn:Ei.
    - apply index_byte_Some in Ei as (x & y & Ea & <- & Hx). rewrite negb_true_iff, Nat.eqb_neq. split.
      + intros H. exists x, y. split; auto. intros ->. apply H. rewrite Ea, app_length. simpl. lia.
      + intros (u & v & E & Hv). rewrite Ea in E |- *. rewrite app_length. simpl. intros H.
        assert (y = []) as -> by (destruct y; auto; simpl in H; lia).
        destruct (exists_last Hv) as (v' & z & ->).
        change (ch_quote :: v' ++ [z]) with ((ch_quote :: v') ++ [z]) in E. rewrite app_assoc in E.
        apply app_inj_tail in E as [-> _]. apply Hx. apply in_elt.
    - apply index_byte_None in Ei. split; [discriminate|]. intros (u & v & E & _). exfalso. apply Ei. rewrite E. apply in_elt. }
  assert (Hend : bend = true <-> (exists r, a = B "<" ++ r) \/
     (exists r c, a = r ++ [c] /\ In c [">"%char; ch_quote; "]"%char; "."%char]) \/ (exists r, a = r ++ B "@" /\ ~ In ch_at r)).
  { unfold bend. rewrite !orb_true_iff, !Ascii.eqb_eq.
    destruct (last_byte a) as [lc|] eqn:El; [|apply last_byte_None in El; congruence].
    apply last_byte_Some in El as (u & Eu). subst lastc.
    assert (H1 : match a with [] => false | c :: _ => Ascii.eqb c "<" end = true <-> exists r, a = B "<" ++ r).
    { destruct a as [|c a']; [congruence|]. rewrite Ascii.eqb_eq. split; [intros ->; exists a'; reflexivity|].
      intros (r & E). injection E as -> _. reflexivity. }
    assert (H2 : match idx with Some i => Nat.eqb i (length a - 1) | None => false end = true <-> exists r, a = r ++ B "@" /\ ~ In ch_at r).
    { destruct idx as [i|] eqn:Ei; subst idx.
      - apply index_byte_Some in Ei as (x & y & Ea & <- & Hx). rewrite Nat.eqb_eq. split.
        + intros H. exists x. split; auto. rewrite Ea in H. rewrite app_length in H. simpl in H.
          destruct y; [exact Ea|simpl in H; lia].
        + intros (r & E & Hr). rewrite Ea in E. change (r ++ B "@") with (r ++ B "@" ++ []) in E.
          apply (at_split x r y []) in E as [-> ->]; auto. rewrite Ea, app_length. simpl. lia.
      - apply index_byte_None in Ei. split; [discriminate|]. intros (r & E & _). exfalso. apply Ei. rewrite E. apply in_elt. }
    rewrite H1, H2. split.
    - intros [[[[[H|H]|H]|H]|H]|H]; auto; right; left; exists u, lc; split; auto; rewrite H; simpl; tauto.
    - intros [H|[(r & c & E & Hc)|H]]; [tauto| |tauto]. rewrite E in Eu. apply app_inj_tail in Eu as [_ Ec]. subst lc.
      simpl in Hc. destruct Hc as [H|[H|[H|[H|[]]]]]; subst c; tauto. }
  assert (Hdd : bdd = true <-> (exists x y, a = x ++ B ".." ++ y) \/ (exists x y, a = x ++ B "@@" ++ y)).
  { unfold bdd. rewrite orb_true_iff, !contains_spec. reflexivity. }
  clearbody bno bat0 bat2 bnodot bend bdd bq. clear lastc.
  assert (Hex : bno = true -> bat0 = false).
  { intros H. destruct bat0; auto. apply Hno in H. destruct (proj1 Hat0 eq_refl) as (r & ->). exfalso. apply H. now left. }
  assert (Hex2 : bno = true -> bnodot = false).
  { intros H. destruct bnodot; auto. apply Hno in H. destruct (proj1 Hunq eq_refl) as (l & d & -> & _). exfalso. apply H. apply in_elt. }
  split; [reflexivity|].
  assert (Hr : route a <-> bat0 && bat2 = true).
  { rewrite andb_true_iff, Hat0, Hat2. unfold route. split.
    - intros (r & -> & Hr). split; eauto.
    - intros [(r & ->) Hr]. eauto. }
  assert (Hg : garbage a <-> bat0 && negb bat2 || bend || bdd = true).
  { rewrite !orb_true_iff, andb_true_iff, Hat0, negb_true_iff, Hend, Hdd. unfold garbage.
    assert (H : ((exists r, a = B "@" ++ r) /\ bat2 = false) <-> exists r, a = B "@" ++ r /\ ~ In ch_at r).
    { split.
      - intros [(r & ->) H]. exists r. split; auto. intros Hi. assert (bat2 = true) by (apply Hat2; auto). congruence.
      - intros (r & -> & Hr'). split; eauto. destruct bat2; auto. exfalso. apply Hr'. apply Hat2. auto. }
    rewrite H. clear. tauto. }
  rewrite <- Hno, <- Hunq, Hr, Hg, <- Hq.
  assert (HP : forall p : N, (p < 16 \/ 20 < p)%N ->
    N.testbit oNoat p = false /\ N.testbit oRoute p = false /\ N.testbit oGarbage p = false /\ N.testbit oZero p = false /\
    N.testbit oUnqualified p = false /\ N.testbit oQuoted p = false).
  { intros p Hp. unfold oNoat, oRoute, oGarbage, oZero, oUnqualified, oQuoted. rewrite !N.pow2_bits_eqb, N.bits_0.
    repeat split; auto; apply N.eqb_neq; lia. }
  clear Hno Hat0 Hat2 Hunq Hq Hend Hdd Hr Hg.
  split; [|split; [|split; [|split; [|split]]]].
  6:{ intros p Hp. destruct (HP p Hp) as (A1 & A2 & A3 & A4 & A5 & A6). rewrite !N.lor_spec.
      destruct bno, bat0, bat2, bnodot, (bend || bdd), bq; cbn iota; rewrite ?N.lor_spec, ?A1, ?A2, ?A3, ?A4, ?A5, ?A6; reflexivity. }
  all: clear HP; destruct bno; [rewrite ?Hex, ?Hex2 by auto; clear Hex Hex2|clear Hex Hex2]; destruct bat0, bat2, bnodot, bend, bdd, bq; vm_compute; split; auto; discriminate.
Qed.

(** The address a from-has or to-has term looks at. *)
Definition addr_of (k : okind) (c : ctx) : bytes :=
  match k with OFromHas => c_from c | _ => c_rcptto c end.
Definition is_addr (k : okind) : Prop := k = OFromHas \/ k = OToHas.

Lemma eval_addr W T c k o : is_addr k ->
  eval W T (EOpt k o) c = match getAddrOpts W (addr_of k c) c with
                          | Ok (x, c') => Ok (N.ltb 0 (N.land o x), c') | Panic => Panic | NoFuel => NoFuel end.
Proof. intros [->| ->]; cbn; unfold evalOpt, mbind, get, ret; destruct (getAddrOpts _ _ _) as [[]| |]; reflexivity. Qed.

(** what the DNS says about a domain: the answer given earlier in the same
    connection, or a new enquiry *)
Definition verdict (W : world) (c : ctx) (d : bytes) : dnsresult :=
  match mget (c_domvalid c) d with
  | Some r => fst r
  | None => fst (fst (ValidDomain W d (c_trace c)))
  end.

Definition flawed (a : bytes) : Prop := noat a \/ unqualified a \/ route a \/ garbage a.

Lemma flawed_bits o :
  N.eqb (N.land o (N.lor (N.lor oNoat oUnqualified) (N.lor oGarbage oRoute))) 0 = false <->
  N.testbit o 19 = true \/ N.testbit o 16 = true \/ N.testbit o 17 = true \/ N.testbit o 20 = true.
Proof.
  set (m := N.lor _ _). assert (H : N.eqb (N.land o m) 0 = negb (N.ltb 0 (N.land m o))).
  { rewrite N.land_comm. destruct (N.land m o); reflexivity. }
  rewrite H, negb_false_iff. subst m. rewrite !ltb_land_lor. unfold oNoat, oUnqualified, oGarbage, oRoute.
  rewrite !ltb_land, !orb_true_iff. tauto.
Qed.

Lemma getAddrOpts_spec W a c : exists o c', getAddrOpts W a c = Ok (o, c') /\
  (a = [] -> o = oZero /\ c' = c) /\
  (a <> [] ->
   (N.testbit o 19 = true <-> noat a) /\ (N.testbit o 16 = true <-> unqualified a) /\
   (N.testbit o 17 = true <-> route a) /\ (N.testbit o 20 = true <-> garbage a) /\
   (N.testbit o 18 = true <-> quoted a) /\
   (flawed a -> N.testbit o 21 = false /\ N.testbit o 22 = false /\ N.testbit o 23 = false /\ c' = c) /\
   (~ flawed a -> exists l d, a = l ++ B "@" ++ d /\ ~ In ch_at l /\
      (N.testbit o 21 = true <-> verdict W c d = dnsGood) /\
      (N.testbit o 22 = true <-> verdict W c d = dnsBad) /\
      (N.testbit o 23 = true <-> verdict W c d = dnsTempfail))).
Proof.
  destruct a as [|x a'].
  { exists oZero, c. split; [reflexivity|]. split; auto. congruence. }
  set (a := x :: a') in *. assert (Ha : a <> []) by discriminate.
  destruct (addrText_spec a Ha) as (Ei & H19 & H16 & H17 & H20 & H18 & Hp).
  unfold getAddrOpts. fold a. change (match a with [] => ret oZero | _ :: _ => ?f end) with f.
  destruct (addrText a) as [o idx] eqn:E. cbn [fst snd] in *. subst idx.
  destruct (N.eqb (N.land o _) 0) eqn:Ef.
  - assert (Hnf : ~ flawed a).
    { unfold flawed. rewrite <- H19, <- H16, <- H17, <- H20, <- flawed_bits, Ef. discriminate. }
    assert (Hat : In ch_at a).
    { destruct (in_dec ascii_dec ch_at a) as [|N]; auto. exfalso. apply Hnf. left. exact N. }
    destruct (index_byte a ch_at) as [i|] eqn:Ei; [|apply index_byte_None in Ei; tauto].
    apply index_byte_Some in Ei as (l & d & Ea & <- & Hl).
    replace (skipn (S (length l)) a) with d.
    2:{ rewrite Ea. change (ch_at :: d) with ([ch_at] ++ d). rewrite app_assoc, skipn_app_len; auto. rewrite app_length. simpl. lia. }
    assert (Hv : exists c1 er, validDomain W d c = Ok ((verdict W c d, er), c1)).
    { unfold validDomain, verdict, mbind, get, ret, ext, upd. destruct (mget (c_domvalid c) d) as [[r e]|]; [eauto|].
      destruct (ValidDomain W d (c_trace c)) as [[r e] t]. cbn. eauto. }
    destruct Hv as (c1 & er & Hv). unfold mbind. rewrite Hv. cbn [fst snd].
    assert (HB : forall p q, (p <> q -> N.testbit (N.lor o (2 ^ q)) p = N.testbit o p)%N).
    { intros p q Hn. rewrite N.lor_spec, N.pow2_bits_eqb. replace (N.eqb q p) with false by (symmetry; apply N.eqb_neq; congruence). apply orb_false_r. }
    assert (HC : forall p, N.testbit (N.lor o (2 ^ p)) p = true).
    { intros p. rewrite N.lor_spec, N.pow2_bits_true. apply orb_true_r. }
    assert (R : forall o' c', (forall p, (p < 21)%N -> N.testbit o' p = N.testbit o p) ->
      (N.testbit o' 21 = true <-> verdict W c d = dnsGood) -> (N.testbit o' 22 = true <-> verdict W c d = dnsBad) ->
      (N.testbit o' 23 = true <-> verdict W c d = dnsTempfail) ->
      exists o0 c0, Ok (o', c') = Ok (o0, c0) /\ (a = [] -> o0 = oZero /\ c0 = c) /\
      (a <> [] -> (N.testbit o0 19 = true <-> noat a) /\ (N.testbit o0 16 = true <-> unqualified a) /\
        (N.testbit o0 17 = true <-> route a) /\ (N.testbit o0 20 = true <-> garbage a) /\
        (N.testbit o0 18 = true <-> quoted a) /\
        (flawed a -> N.testbit o0 21 = false /\ N.testbit o0 22 = false /\ N.testbit o0 23 = false /\ c0 = c) /\
        (~ flawed a -> exists l d, a = l ++ B "@" ++ d /\ ~ In ch_at l /\
          (N.testbit o0 21 = true <-> verdict W c d = dnsGood) /\ (N.testbit o0 22 = true <-> verdict W c d = dnsBad) /\
          (N.testbit o0 23 = true <-> verdict W c d = dnsTempfail)))).
    { intros o' c' Hlow G1 G2 G3. exists o', c'. split; auto. split; [congruence|]. intros _.
      rewrite !Hlow by reflexivity. repeat (split; [assumption|]). split; [tauto|]. intros _. exists l, d. auto. }
    assert (L21 : N.testbit o 21 = false) by (apply Hp; right; reflexivity).
    assert (L22 : N.testbit o 22 = false) by (apply Hp; right; reflexivity).
    assert (L23 : N.testbit o 23 = false) by (apply Hp; right; reflexivity).
    unfold ret, upd, oDomainValid, oDomainInvalid, oDomainTempfail.
    destruct (verdict W c d) eqn:Ev; apply R; intros; rewrite ?HC, ?HB by (try discriminate; lia);
      rewrite ?L21, ?L22, ?L23; auto; split; congruence.
  - exists o, c. split; [reflexivity|]. split; [congruence|]. intros _. repeat (split; [assumption|]). split.
    + intros _. repeat split; auto; apply Hp; right; reflexivity.
    + intros Hn. exfalso. apply Hn. unfold flawed. rewrite <- H19, <- H16, <- H17, <- H20. apply flawed_bits. auto.
Qed.

(** The lexical attributes of a (non-null) address. *)
Theorem C21_lexical_attributes W T c k : is_addr k -> addr_of k c <> [] ->
  let a := addr_of k c in
  term_is W T c (attr k (B "noat")) (noat a) /\
  term_is W T c (attr k (B "unqualified")) (unqualified a) /\
  term_is W T c (attr k (B "route")) (route a) /\
  term_is W T c (attr k (B "garbage")) (garbage a) /\
  term_is W T c (attr k (B "quoted")) (quoted a).
Proof.
  intros Hk Ha a. destruct (getAddrOpts_spec W a c) as (o & c' & E & _ & H). destruct (H Ha) as (H19 & H16 & H17 & H20 & H18 & _).
  assert (HT : forall p w P, omap_get addrMap (keyword_of w) = (2 ^ p)%N -> (N.testbit o p = true <-> P) -> term_is W T c (attr k w) P).
  { intros p w P Ew HP. unfold term_is, attr. rewrite eval_addr by auto. fold a. rewrite E.
    replace (kind_map k) with addrMap by (destruct Hk as [->| ->]; reflexivity). rewrite Ew, ltb_land.
    exists (N.testbit o p). split; auto. }
  repeat split; eapply HT; eauto; reflexivity.
Qed.

(** The null address has no attribute. *)
Theorem C21_null_address W T c k w : is_addr k -> addr_of k c = [] ->
  eval W T (attr k w) c = Ok (false, c).
Proof.
  intros Hk Ha. unfold attr. rewrite eval_addr, Ha by auto. cbn. rewrite N.land_0_r. reflexivity.
Qed.

(** resolves, baddom and unknown follow the verdict on the domain; they hold of
    no flawed address, and for these the DNS is not consulted. *)
Theorem C21_domain_attributes W T c k : is_addr k -> addr_of k c <> [] ->
  let a := addr_of k c in
  (flawed a -> Forall (fun w => eval W T (attr k w) c = Ok (false, c)) [B "resolves"; B "baddom"; B "unknown"]) /\
  (~ flawed a -> exists l d, a = l ++ B "@" ++ d /\ ~ In ch_at l /\
     term_is W T c (attr k (B "resolves")) (verdict W c d = dnsGood) /\
     term_is W T c (attr k (B "baddom")) (verdict W c d = dnsBad) /\
     term_is W T c (attr k (B "unknown")) (verdict W c d = dnsTempfail)).
Proof.
  intros Hk Ha a. destruct (getAddrOpts_spec W a c) as (o & c' & E & _ & H). destruct (H Ha) as (_ & _ & _ & _ & _ & HF & HN).
  assert (HE : forall p w, omap_get addrMap (keyword_of w) = (2 ^ p)%N -> eval W T (attr k w) c = Ok (N.testbit o p, c')).
  { intros p w Ew. unfold attr. rewrite eval_addr by auto. fold a. rewrite E.
    replace (kind_map k) with addrMap by (destruct Hk as [->| ->]; reflexivity). rewrite Ew, ltb_land. reflexivity. }
  split.
  - intros Hf. destruct (HF Hf) as (A & B_ & C & ->).
    constructor; [rewrite (HE 21%N) by reflexivity; rewrite A; auto|].
    constructor; [rewrite (HE 22%N) by reflexivity; rewrite B_; auto|].
    constructor; [rewrite (HE 23%N) by reflexivity; rewrite C; auto|constructor].
  - intros Hf. destruct (HN Hf) as (l & d & Ea & Hl & H1 & H2 & H3). exists l, d. split; auto. split; auto.
    unfold term_is. rewrite (HE 21%N (B "resolves")), (HE 22%N (B "baddom")), (HE 23%N (B "unknown")) by reflexivity.
    repeat split; eexists; split; try reflexivity; assumption.
Qed.

Definition from_ctx (a : string) : ctx := set_from (B a) (newContext []).

Example C21_example :
  unqualified (B "fred@localname") /\ flawed (B "fred@localname") /\
  result (eval ex_world ex_trans (attr OFromHas (B "unqualified")) (from_ctx "fred@localname")) = Ok true /\
  result (eval ex_world ex_trans (attr OFromHas (B "quoted")) (from_ctx """fred@bob""@example.org")) = Ok true /\
  result (eval ex_world ex_trans (attr OFromHas (B "baddom")) (from_ctx "a@nosuch.org")) = Ok true /\
  result (eval ex_world ex_trans (attr OFromHas (B "baddom")) (from_ctx "@a,@b:c@nosuch.org")) = Ok false.
Proof.
  assert (U : unqualified (B "fred@localname")).
  { exists (B "fred"), (B "localname"). repeat split; try apply mem_byte_nIn; reflexivity. }
  split; auto. split; [right; auto|]. repeat split; vm_compute; reflexivity.
Qed.

Theorem C22_bad_composition W T c k : is_addr k -> addr_of k c <> [] ->
  let a := addr_of k c in
  term_is W T c (attr k (B "bad")) (unqualified a \/ route a \/ noat a \/ garbage a).
Proof.
  intros Hk Ha a. destruct (getAddrOpts_spec W a c) as (o & c' & E & _ & H). destruct (H Ha) as (H19 & H16 & H17 & H20 & _).
  unfold term_is, attr. rewrite eval_addr by auto. fold a. rewrite E.
  replace (kind_map k) with addrMap by (destruct Hk as [->| ->]; reflexivity).
  change (omap_get addrMap (keyword_of (B "bad"))) with oBad. unfold oBad. rewrite !ltb_land_lor.
  unfold oUnqualified, oRoute, oNoat, oGarbage. rewrite !ltb_land. eexists. split; [reflexivity|].
  rewrite !orb_true_iff, H16, H17, H19, H20. tauto.
Qed.

(** The documented composition (noat, quoted, unqualified, garbage) is not what
    the code does, in both directions. *)
Theorem C22_documented_bad_refuted :
  exists a b,
    quoted (B a) /\ result (eval ex_world ex_trans (attr OFromHas (B "bad")) (from_ctx a)) = Ok false /\
    (~ noat (B b) /\ ~ quoted (B b) /\ ~ unqualified (B b) /\ ~ garbage (B b)) /\
    result (eval ex_world ex_trans (attr OFromHas (B "bad")) (from_ctx b)) = Ok true.
Proof.
  exists """fred bob""@example.org"%string, "@a.org,@b.org:c@d.org"%string.
  split; [exists [], (B "fred bob""@example.org"); split; [reflexivity|discriminate]|].
  split; [vm_compute; reflexivity|]. split; [|vm_compute; reflexivity].
  assert (Ha : B "@a.org,@b.org:c@d.org" <> []) by discriminate.
  destruct (addrText_spec _ Ha) as (_ & H1 & H2 & _ & H4 & H5 & _).
  rewrite <- H1, <- H2, <- H4, <- H5. repeat split; vm_compute; discriminate.
Qed.

(** ** C23 *)

(** The HELO name is the IP address text [h], bare or in brackets. *)
Definition bare_ip (hn h : bytes) : Prop := h = hn /\ parse_ip h <> None.
Definition bracket_ip (hn h : bytes) : Prop := hn = B "[" ++ h ++ B "]" /\ parse_ip h <> None.
Definition helo_ip (hn h : bytes) : Prop := bare_ip hn h \/ bracket_ip hn h.

Lemma parse_ip_bracket s : parse_ip (B "[" ++ s) = None.
Proof.
  change (B "[" ++ s) with ("["%char :: s). unfold parse_ip. destruct (first_sep _) as [c|]; auto. destruct (Ascii.eqb c ch_dot).
  - unfold parse_v4. cbn [split_byte]. replace (Ascii.eqb "[" ch_dot) with false by reflexivity.
    destruct (split_byte s ch_dot) as [|w [|b [|c' [|d [|]]]]]; auto.
  - unfold parse_v6. destruct s as [|x s]; auto.
Qed.

Lemma parse_ip_nil : parse_ip [] = None.
Proof. reflexivity. Qed.

Lemma helo_ip_unique hn h h' : helo_ip hn h -> helo_ip hn h' -> h = h'.
Proof.
  intros [[-> H]|[E H]] [[-> H']|[E' H']]; auto.
  - rewrite E', parse_ip_bracket in H. congruence.
  - rewrite E, parse_ip_bracket in H'. congruence.
  - rewrite E in E'. apply (f_equal (@tl _)) in E'. simpl in E'. apply app_inj_tail in E'. tauto.
Qed.

Ltac bits := match goal with |- N.testbit ?x ?p = true <-> _ =>
  let v := eval vm_compute in (N.testbit x p) in change (N.testbit x p) with v end.
Ltac finish F :=
  split; intros Hx; try discriminate; try congruence; try exact eq_refl;
  repeat match goal with
  | H : _ /\ _ |- _ => destruct H
  | H : exists _, _ |- _ => destruct H
  | H : helo_ip _ _ |- _ => destruct H
  | H : bare_ip _ ?h |- _ => exfalso; exact (proj1 (F h) H)
  | H : bracket_ip _ ?h |- _ => exfalso; exact (proj2 (F h) H)
  end; try tauto; try (left; simpl; tauto).

Lemma bracketed_intro h : h <> [] -> bracketed (B "[" ++ h ++ B "]") = true.
Proof.
  intros Hh. unfold bracketed. apply andb_true_iff. split.
  - apply Nat.ltb_lt. rewrite !app_length. destruct h; [congruence|]. simpl. lia.
  - assert (E : last_byte (B "[" ++ h ++ B "]") = Some "]"%char) by (rewrite app_assoc; apply last_byte_app).
    change (B "[" ++ h ++ B "]") with ("["%char :: (h ++ B "]")) in *. cbv iota. rewrite E. reflexivity.
Qed.
Lemma bracketed_true hn : bracketed hn = true -> hn = B "[" ++ drop_last (tl hn) ++ B "]".
Proof.
  unfold bracketed. intros H. apply andb_true_iff in H as [H1 H2]. apply Nat.ltb_lt in H1.
  destruct hn as [|c hn']; [discriminate|]. destruct (last_byte (c :: hn')) as [d|] eqn:El; [|discriminate].
  apply andb_true_iff in H2 as [H2 H4]. apply Ascii.eqb_eq in H2, H4. subst c d.
  apply last_byte_Some in El as (u & Eu). destruct u as [|u0 u]; [rewrite Eu in H1; simpl in H1; lia|].
  injection Eu as <- ->. cbn [tl]. unfold drop_last. rewrite removelast_last. reflexivity.
Qed.

(** the value of heloGetter as a function of its conditions *)
Lemma heloGetter_spec T cmd hn : t_rip T <> [] -> t_lip T <> [] ->
  let o := heloGetter T cmd hn in
  (N.testbit o 1 = true <-> cmd = Some HELO) /\ (N.testbit o 2 = true <-> cmd <> Some HELO) /\
  (N.testbit o 3 = true <-> hn = []) /\ (N.testbit o 4 = true <-> hn = B ".") /\
  (N.testbit o 5 = true <-> (~ In "."%char hn /\ ~ In ":"%char hn) \/ hn = B ".") /\
  (N.testbit o 6 = true <-> bare_ip hn hn) /\ (N.testbit o 7 = true <-> exists h, bracket_ip hn h) /\
  (N.testbit o 8 = true <-> helo_ip hn (t_lip T) /\ t_lip T <> t_rip T) /\
  (N.testbit o 9 = true <-> helo_ip hn (t_rip T)) /\
  (N.testbit o 10 = true <-> exists h, helo_ip hn h /\ h <> t_rip T /\ h <> t_lip T).
Proof.
  intros Hr Hl o.
  assert (Hcmd : (match cmd with Some HELO => oHelo | _ => oEhlo end = oHelo /\ cmd = Some HELO) \/
                 (match cmd with Some HELO => oHelo | _ => oEhlo end = oEhlo /\ cmd <> Some HELO)).
  { destruct cmd as [[]|]; [left|right|right]; split; auto; discriminate. }
  assert (NB : forall h, helo_ip [] h -> False).
  { intros h [[-> H]|[H _]]; [rewrite parse_ip_nil in H; congruence|discriminate]. }
  assert (ND : forall h, helo_ip (B ".") h -> False).
  { intros h [[-> H]|[H _]]; [apply H; reflexivity|discriminate]. }
  unfold heloGetter in o. destruct (beqb_spec hn []) as [En|En].
  { subst hn o.
    assert (F : forall h, ~ bare_ip [] h /\ ~ bracket_ip [] h).
    { intros h. split; intros H; apply (NB h); [left|right]; auto. }
    destruct Hcmd as [[-> Hc]|[-> Hc]]; repeat match goal with |- _ /\ _ => split end; bits; finish F. }
  destruct (beqb_spec hn (B ".")) as [Ed|Ed].
  { subst hn o.
    assert (F : forall h, ~ bare_ip (B ".") h /\ ~ bracket_ip (B ".") h).
    { intros h. split; intros H; apply (ND h); [left|right]; auto. }
    destruct Hcmd as [[-> Hc]|[-> Hc]]; repeat match goal with |- _ /\ _ => split end; bits; finish F. }
  (* the conditions *)
  set (bnd := match index_byte hn ch_dot, index_byte hn ch_colon with None, None => true | _, _ => false end).
  assert (Hnd : bnd = true <-> ~ In "."%char hn /\ ~ In ":"%char hn).
  { unfold bnd. destruct (index_byte hn ch_dot) eqn:E1, (index_byte hn ch_colon) eqn:E2;
      try (apply index_byte_None in E1); try (apply index_byte_None in E2);
      try (apply index_byte_Some in E1 as (x1 & y1 & E1 & _)); try (apply index_byte_Some in E2 as (x2 & y2 & E2 & _));
      split; try discriminate; auto; intros [H1 H2]; exfalso;
      solve [apply H1; rewrite E1; apply in_elt | apply H2; rewrite E2; apply in_elt]. }
  set (bbare := match parse_ip hn with Some _ => true | None => false end).
  assert (Hbare : bbare = true <-> bare_ip hn hn).
  { unfold bbare, bare_ip. destruct (parse_ip hn); split; intuition (try congruence). }
  set (bbr := bracketed hn && match parse_ip (drop_last (tl hn)) with Some _ => true | None => false end).
  assert (Hbr : bbr = true <-> bracket_ip hn (drop_last (tl hn))).
  { unfold bbr, bracket_ip. split.
    - intros H. apply andb_true_iff in H as [H H3]. apply bracketed_true in H. split; auto.
      intros E. rewrite E in H3. discriminate.
    - intros [H1 H2].
      assert (Hh : drop_last (tl hn) <> []) by (intros E; rewrite E, parse_ip_nil in H2; congruence).
      apply andb_true_iff. split; [rewrite H1; apply bracketed_intro; auto|].
      destruct (parse_ip (drop_last (tl hn))); congruence. }
  assert (Hbr' : (exists h, bracket_ip hn h) <-> bbr = true).
  { rewrite Hbr. split; [|eauto]. intros (h & Hh). assert (drop_last (tl hn) = h) as ->; auto. destruct Hh as [-> _].
    simpl. unfold drop_last. apply removelast_last. }
  set (hip := if bbr then drop_last (tl hn) else if bbare then hn else []).
  assert (Hhip : forall h, h <> [] -> (helo_ip hn h <-> hip = h)).
  { intros h Hh. unfold hip. split.
    - intros H. destruct bbr; [apply (helo_ip_unique hn); auto; right; apply Hbr; auto|].
      destruct bbare; [apply (helo_ip_unique hn); auto; left; apply Hbare; auto|].
      exfalso. destruct H as [H|H].
      + assert (h = hn) as -> by apply H. apply Hbare in H. discriminate.
      + assert (false = true) by (apply Hbr'; eauto). discriminate.
    - intros <-. destruct bbr; [right; apply Hbr; auto|]. destruct bbare; [left; apply Hbare; auto|congruence]. }
  assert (Ho : o = N.lor (match cmd with Some HELO => oHelo | _ => oEhlo end)
     (N.lor (if bnd then oNodots else oZero) (N.lor (if bbare then oBareip else oZero)
        (N.lor (if bbr then oProperip else oZero)
          (if beqb hip (t_rip T) then oRemip else if beqb hip (t_lip T) then oMyip
           else if negb (beqb hip []) then oOtherip else oZero))))).
  { subst o. unfold hip, bnd, bbare, bbr. clear.
    generalize (bracketed hn) as q.
    generalize (parse_ip (drop_last (tl hn))) as A2. generalize (drop_last (tl hn)) as h2.
    generalize (parse_ip hn) as A1. generalize (index_byte hn ch_dot) as i1. generalize (index_byte hn ch_colon) as i2.
    intros i2 i1 A1 h2 A2 q.
    destruct q, A2; cbn [andb]; destruct A1; cbv beta iota zeta;
      repeat match goal with |- context [beqb ?a ?b] => generalize (beqb a b); intros [] end; cbn [negb]; cbv iota;
      destruct i1, i2, cmd as [[]|]; reflexivity. }
  assert (Hexcl : bbare = true -> bbr = false).
  { intros H. destruct bbr; auto. apply Hbare in H. pose proof (proj1 Hbr eq_refl) as [E _]. destruct H as [_ H].
    rewrite E, parse_ip_bracket in H. congruence. }
  set (brem := beqb hip (t_rip T)) in *. set (bmy := beqb hip (t_lip T)) in *. set (bany := negb (beqb hip [])) in *.
  assert (Hrem : brem = true <-> helo_ip hn (t_rip T)).
  { unfold brem. rewrite beqb_eq, Hhip; auto. reflexivity. }
  assert (Hmy : negb brem && bmy = true <-> helo_ip hn (t_lip T) /\ t_lip T <> t_rip T).
  { unfold bmy, brem. rewrite andb_true_iff, negb_true_iff, beqb_eq, beqb_neq, Hhip by auto. intuition congruence. }
  assert (Hoth : negb brem && negb bmy && bany = true <-> exists h, helo_ip hn h /\ h <> t_rip T /\ h <> t_lip T).
  { unfold bmy, brem, bany. rewrite !andb_true_iff, !negb_true_iff, !beqb_neq. split.
    - intros [[H1 H2] H3]. exists hip. split; auto. apply Hhip; auto.
    - intros (h & H1 & H2 & H3). assert (Hh : h <> []).
      { intros ->. destruct H1 as [[_ H]|[_ H]]; rewrite parse_ip_nil in H; congruence. }
      apply Hhip in H1; auto. rewrite H1. auto. }
  rewrite <- Hrem, <- Hmy, <- Hoth, Hbr', <- Hbare, Ho.
  assert (Hnd' : bnd = true <-> (~ In "."%char hn /\ ~ In ":"%char hn) \/ hn = B ".") by (rewrite Hnd; tauto).
  rewrite <- Hnd'. clear - En Ed.
  clearbody bnd bbare bbr brem bmy bany.
  destruct cmd as [[]|];
  repeat match goal with |- _ /\ _ => split end;
  destruct bnd, bbare, bbr, brem, bmy, bany; bits; cbn [negb andb]; split; intros; congruence.
Qed.

Lemma eval_helo W T c o :
  eval W T (EOpt OHelo o) c = Ok (N.ltb 0 (N.land o (heloGetter T (c_helocmd c) (c_heloname c))), c).
Proof. reflexivity. Qed.

(** For a client and a server address that are known. *)
Theorem C23_helo_attributes W T c : t_rip T <> [] -> t_lip T <> [] ->
  let hn := c_heloname c in
  let is w P := term_is W T c (attr OHelo (B w)) P in
  is "helo"%string (c_helocmd c = Some HELO) /\
  is "ehlo"%string (c_helocmd c <> Some HELO) /\
  is "none"%string (hn = []) /\
  is "bogus"%string (hn = B ".") /\
  is "nodots"%string ((~ In "."%char hn /\ ~ In ":"%char hn) \/ hn = B ".") /\
  is "bareip"%string (parse_ip hn <> None) /\
  is "properip"%string (exists h, hn = B "[" ++ h ++ B "]" /\ parse_ip h <> None) /\
  is "ip"%string (exists h, helo_ip hn h) /\
  is "remip"%string (helo_ip hn (t_rip T)) /\
  is "myip"%string (helo_ip hn (t_lip T) /\ t_lip T <> t_rip T) /\
  is "otherip"%string (exists h, helo_ip hn h /\ h <> t_rip T /\ h <> t_lip T).
Proof.
  intros Hr Hl hn is.
  destruct (heloGetter_spec T (c_helocmd c) hn Hr Hl) as (H1 & H2 & H3 & H4 & H5 & H6 & H7 & H8 & H9 & H10).
  assert (HT : forall p w P, omap_get heloMap (keyword_of (B w)) = (2 ^ p)%N ->
    (N.testbit (heloGetter T (c_helocmd c) hn) p = true <-> P) -> is w P).
  { intros p w P Ew HP. unfold is, term_is, attr. rewrite eval_helo. cbn [kind_map]. rewrite Ew, ltb_land.
    eexists. split; [reflexivity|exact HP]. }
  assert (H6' : N.testbit (heloGetter T (c_helocmd c) hn) 6 = true <-> parse_ip hn <> None).
  { rewrite H6. unfold bare_ip. tauto. }
  repeat match goal with |- _ /\ _ => split end;
    try (eapply HT; [reflexivity|first [exact H1|exact H2|exact H3|exact H4|exact H5|exact H6'|exact H7|exact H8|exact H9|exact H10]]).
  unfold is, term_is, attr. rewrite eval_helo. cbn [kind_map].
  change (omap_get heloMap (keyword_of (B "ip"))) with (N.lor (2 ^ 6) (2 ^ 7))%N. rewrite ltb_land_lor, !ltb_land.
  eexists. split; [reflexivity|]. fold hn. rewrite orb_true_iff, H6, H7. unfold helo_ip. split.
  - intros [H|(h & H)]; eauto.
  - intros (h & [H|H]); [left|right; eauto]. destruct H as [-> H]. split; auto.
Qed.

(** The IP address a name stands for is unique, so of remip, myip and otherip
    at most one holds, and one does exactly when the name is an IP address. *)
Theorem C23_which_ip T hn h : helo_ip hn h ->
  (forall h', helo_ip hn h' -> h' = h) /\
  ((h = t_rip T) \/ (h = t_lip T /\ t_lip T <> t_rip T) \/ (h <> t_rip T /\ h <> t_lip T)).
Proof.
  intros H. split; [intros h' H'; eapply helo_ip_unique; eauto|].
  destruct (bytes_dec h (t_rip T)); auto. destruct (bytes_dec h (t_lip T)); auto.
  right. left. split; congruence.
Qed.

Definition helo_ctx (a : string) : ctx := set_helo (Some EHLO) (B a) (newContext []).
Example C23_example :
  let v w a := result (eval ex_world ex_trans (attr OHelo (B w)) (helo_ctx a)) in
  v "remip"%string "[1.2.3.4]"%string = Ok true /\ v "properip"%string "[1.2.3.4]"%string = Ok true /\
  v "bareip"%string "5.6.7.8"%string = Ok true /\ v "myip"%string "5.6.7.8"%string = Ok true /\
  v "otherip"%string "mail.example.com"%string = Ok false /\ v "nodots"%string "fred"%string = Ok true /\
  t_rip ex_trans <> [] /\ t_lip ex_trans <> [] /\ helo_ip (B "[1.2.3.4]") (B "1.2.3.4").
Proof.
  do 6 (split; [vm_compute; reflexivity|]). split; [discriminate|]. split; [discriminate|].
  right. split; [reflexivity|]. vm_compute. discriminate.
Qed.

(** ** C24 *)

Theorem C24_rdns_attributes W T c :
  let r := t_rdns T in
  let is w P := term_is W T c (attr ODns (B w)) P in
  is "nodns"%string (rd_verified r = []) /\
  is "exists"%string (rd_verified r <> []) /\
  is "noforward"%string (rd_nofwd r <> []) /\
  is "inconsistent"%string (rd_inconsist r <> []) /\
  is "good"%string (rd_verified r <> [] /\ rd_nofwd r = [] /\ rd_inconsist r = []).
Proof.
  intros r is. unfold is, term_is, attr. cbn [kind_map eval]. unfold evalOpt, mbind, ret, dnsGetter. fold r.
  destruct (rd_verified r), (rd_nofwd r), (rd_inconsist r);
    repeat match goal with |- _ /\ _ => split end; eexists;
    (split; [vm_compute; reflexivity|]); intuition (try congruence).
Qed.

Example C24_example :
  result (eval ex_world ex_trans (attr ODns (B "good")) (newContext [])) = Ok true /\
  rd_verified (t_rdns ex_trans) <> [].
Proof. split; [vm_compute; reflexivity|discriminate]. Qed.

(** ** C25 *)

(** What the lines of a pattern file stand for, in order. *)
Inductive Entries (U : unicode) : list bytes -> list bytes -> Prop :=
| Ent_nil : Entries U [] []
| Ent_blank l ls es : trim_space U l = [] -> Entries U ls es -> Entries U (l :: ls) es
| Ent_comment l ls es t : trim_space U l = B "#" ++ t -> Entries U ls es -> Entries U (l :: ls) es
| Ent_entry l ls es t : trim_space U l = t -> t <> [] -> (forall t', t <> B "#" ++ t') ->
    Entries U ls es -> Entries U (l :: ls) (to_lower U t :: es).

Definition end_lines (ls : list bytes) : bytes := concat (map (fun l => l ++ [ch_nl]) ls).

Lemma nl_lines_line l s : forall cur, ~ In ch_nl l ->
  nl_lines cur (l ++ ch_nl :: s) = (rev cur ++ l ++ [ch_nl]) :: nl_lines [] s.
Proof.
  induction l as [|c l IH]; intros cur Hn.
  - cbn [app nl_lines]. rewrite Ascii.eqb_refl. cbn [rev app]. reflexivity.
  - cbn [app nl_lines]. destruct (Ascii.eqb_spec c ch_nl) as [->|]; [exfalso; apply Hn; now left|].
    rewrite IH by (simpl in Hn; tauto). cbn [rev]. rewrite <- app_assoc. reflexivity.
Qed.
Lemma nl_lines_tail l : forall cur, ~ In ch_nl l -> nl_lines cur l = [].
Proof.
  induction l as [|c l IH]; intros cur Hn; auto. cbn [nl_lines].
  destruct (Ascii.eqb_spec c ch_nl) as [->|]; [exfalso; apply Hn; now left|]. apply IH. simpl in Hn. tauto.
Qed.
Lemma nl_lines_split ls tail : Forall (fun l => ~ In ch_nl l) ls -> ~ In ch_nl tail ->
  nl_lines [] (end_lines ls ++ tail) = map (fun l => l ++ [ch_nl]) ls.
Proof.
  intros H Ht. induction H as [|l ls Hl _ IH]; [apply nl_lines_tail; auto|].
  unfold end_lines. cbn [map concat]. rewrite <- !app_assoc. cbn [app]. rewrite nl_lines_line by auto.
  f_equal. exact IH.
Qed.

(** A pattern file is its newline-terminated lines; what follows the last
    newline is ignored. *)
Theorem C25_file_entries U lines tail : unicode_ok U ->
  Forall (fun l => ~ In ch_nl l) lines -> ~ In ch_nl tail ->
  Entries U lines (readList U (end_lines lines ++ tail)).
Proof.
  intros HU Hl Ht. unfold readList. rewrite nl_lines_split by auto. clear Hl Ht.
  induction lines as [|l ls IH]; [constructor|]. cbn [map readList_lines].
  rewrite (trim_space_nl U l HU). destruct (trim_space U l) as [|c t] eqn:E.
  - apply Ent_blank; auto.
  - destruct (Ascii.eqb_spec c "#") as [->|Hc].
    + eapply Ent_comment; [exact E|]. exact IH.
    + apply Ent_entry; auto; try discriminate. intros t' Ht. injection Ht as -> _. congruence.
Qed.

Lemma Entries_det U ls es es' : Entries U ls es -> Entries U ls es' -> es = es'.
Proof.
  intros H. revert es'. induction H; intros es' H'; inversion H'; subst; auto; try congruence;
    try (exfalso; match goal with H : forall t, ?x <> B "#" ++ t, E : ?x = B "#" ++ _ |- _ => apply (H _ E) end).
  f_equal. auto.
Qed.

(** Every text is of that form, in one way. *)
Lemma text_lines s : exists lines tail, s = end_lines lines ++ tail /\
  Forall (fun l => ~ In ch_nl l) lines /\ ~ In ch_nl tail.
Proof.
  remember (length s) as n eqn:En. revert s En. induction n as [n IH] using lt_wf_ind. intros s ->.
  destruct (index_byte s ch_nl) as [i|] eqn:Ei.
  - apply index_byte_Some in Ei as (l & s' & -> & _ & Hl).
    destruct (IH (length s')) with (s := s') as (ls & tail & -> & H1 & H2); auto.
    + rewrite app_length. simpl. lia.
    + exists (l :: ls), tail. split; auto. unfold end_lines. cbn [map concat]. rewrite <- !app_assoc. reflexivity.
  - apply index_byte_None in Ei. exists [], s. auto.
Qed.

(** Loading: a file that cannot be opened, or gives a read error, has no
    entries at all; any other file is read once, completely. *)
Theorem C25_load W fname tr : unicode_ok (w_uni W) -> fname <> [] ->
  exists es, loadList W fname tr = (es, XFile fname :: tr) /\
  match w_file W (length tr) fname with
  | FRead content false => exists lines tail, content = end_lines lines ++ tail /\
      Forall (fun l => ~ In ch_nl l) lines /\ ~ In ch_nl tail /\ Entries (w_uni W) lines es
  | _ => es = []
  end.
Proof.
  intros HU H. unfold loadList. destruct fname as [|c fname]; [congruence|]. eexists. split; [reflexivity|].
  destruct (w_file W (length tr) (c :: fname)) as [| |content [|]]; auto.
  destruct (text_lines content) as (lines & tail & -> & H1 & H2). exists lines, tail.
  repeat (split; [assumption || reflexivity|]). apply C25_file_entries; auto.
Qed.

(** That the entry on the last line counts even without a newline - what one
    would expect - is false. *)
Theorem C25_last_line_refuted : exists content lines es,
  content = join [ch_nl] lines /\ Entries plain_unicode lines es /\ readList plain_unicode content <> es.
Proof.
  exists (B "a
b"), [B "a"; B "b"], [B "a"; B "b"]. split; [reflexivity|]. split.
  - apply (Ent_entry _ (B "a") _ _ (B "a")); try reflexivity; try discriminate; try (intros; discriminate).
    apply (Ent_entry _ (B "b") _ _ (B "b")); try reflexivity; try discriminate; try (intros; discriminate). constructor.
  - vm_compute. discriminate.
Qed.

Example C25_example : readList plain_unicode (B "
# c
  Joe@X.org  
b
c") = [B "joe@x.org"; B "b"].
Proof. vm_compute. reflexivity. Qed.
