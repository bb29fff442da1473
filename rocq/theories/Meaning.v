(** C76: what a rule file says, straight from its text. *)
From Verif Require Import PropsParse.
From Verif Require Import Bytes Outcome Lexer LexSpec LexProofs Layout Ast GoNet Grammar GramStrip Parser ParseProofs World Dns Eval PropsMatch PropsAttr Sem EvalProofs DecideProofs Decisions PropsEval PropsDecide.
From Coq Require Import Lia.

(** ** Specification *)

(** The words for address attributes, and what they say of an address that is
    not empty. *)
Definition in_domain (F : facts) (a : bytes) (v : dnsresult) : Prop :=
  ~ flawed a /\ exists l d, a = l ++ B "@" ++ d /\ ~ In ch_at l /\ domain_verdict F d = v.
Definition addr_meaning (F : facts) (a : bytes) : list (bytes * Prop) :=
  [(B "noat", noat a); (B "unqualified", unqualified a); (B "route", route a); (B "garbage", garbage a); (B "quoted", quoted a);
   (B "bad", unqualified a \/ route a \/ noat a \/ garbage a);
   (B "resolves", in_domain F a dnsGood); (B "baddom", in_domain F a dnsBad); (B "unknown", in_domain F a dnsTempfail)].
Definition helo_meaning (F : facts) : list (bytes * Prop) :=
  let hn := f_helo F in let rip := t_rip (f_trans F) in let lip := t_lip (f_trans F) in
  [(B "helo", f_cmd F = Some HELO); (B "ehlo", f_cmd F <> Some HELO); (B "none", hn = []); (B "bogus", hn = B ".");
   (B "nodots", (~ In "."%char hn /\ ~ In ":"%char hn) \/ hn = B "."); (B "bareip", parse_ip hn <> None);
   (B "properip", exists h, hn = B "[" ++ h ++ B "]" /\ parse_ip h <> None); (B "ip", exists h, helo_ip hn h);
   (B "remip", helo_ip hn rip); (B "myip", helo_ip hn lip /\ lip <> rip); (B "otherip", exists h, helo_ip hn h /\ h <> rip /\ h <> lip)].
Definition dns_meaning (F : facts) : list (bytes * Prop) :=
  let r := t_rdns (f_trans F) in
  [(B "nodns", rd_verified r = []); (B "exists", rd_verified r <> []); (B "noforward", rd_nofwd r <> []); (B "inconsistent", rd_inconsist r <> []);
   (B "good", rd_verified r <> [] /\ rd_nofwd r = [] /\ rd_inconsist r = [])].
(** one of the words holds *)
Definition one_of (table : list (bytes * Prop)) (ws : list bytes) : Prop := exists w P, In w ws /\ In (w, P) table /\ P.

(** the names that a word of "dbl" stands for *)
Inductive DblSays (F : facts) : bytes -> bytes -> Prop :=
| Ds_helo w : In w [B "helo"; B "ehlo"; B "any"] -> f_helo F <> [] -> DblSays F w (f_helo F)
| Ds_host w n c : In w [B "host"; B "any"] ->
    In (n ++ [c]) (rd_verified (t_rdns (f_trans F)) ++ rd_nofwd (t_rdns (f_trans F)) ++ rd_inconsist (t_rdns (f_trans F))) -> DblSays F w n
| Ds_from w l d : In w [B "from"; B "any"] -> f_from F = l ++ B "@" ++ d -> ~ In ch_at l -> ~ flawed (f_from F) ->
    domain_verdict F d <> dnsUndef -> DblSays F w d.
Definition dbl_words : list bytes := [B "host"; B "helo"; B "ehlo"; B "from"; B "any"].
Definition dbl_when (ws : list bytes) (ph : phase) : Prop :=
  (ph = pMfrom /\ (In (B "from") ws \/ In (B "any") ws)) \/
  (ph = pHelo /\ ~ (In (B "from") ws \/ In (B "any") ws) /\ (In (B "helo") ws \/ In (B "ehlo") ws)) \/
  (ph = pAny /\ Forall (eq (B "host")) ws).

(** w,w,... *)
Inductive Words : list bytes -> list piece -> Prop :=
| Ws_one w : Words [w] [PcWord w]
| Ws_more w ws ps : Words ws ps -> Words (w :: ws) (PcWord w :: PcComma :: ps).

(** an argument: a word or a quoted string *)
Inductive Arg : piece -> bytes -> Prop :=
| Arg_word w : w <> B "file:" -> Arg (PcWord w) w
| Arg_quoted raw v : Arg (PcQuoted raw v) v.
(** a DNS domain, written with or without the final dot *)
Inductive Domain : piece -> bytes -> Prop :=
| Do_dot p u : Arg p (u ++ B ".") -> (forall f, ~ FileArg (u ++ B ".") f) -> Domain p (u ++ B ".")
| Do_nodot p v : Arg p v -> (forall f, ~ FileArg v f) -> In ch_dot v -> (forall u, v <> u ++ B ".") -> Domain p (v ++ B ".").
(** the pattern files an argument stands for *)
Definition files_of (a : bytes) (fl : list bytes) : Prop := forall f, FileArg a f -> In f fl.

Definition latest_of (a b : phase) : phase := if Nat.ltb (pcode a) (pcode b) then b else a.

(** What a condition says: when it is true, from which phase on it is known,
    and the pattern files it uses. *)
Inductive TermSays : list piece -> (facts -> Prop) -> phase -> list bytes -> Prop :=
| Ts_not ps M ph fl : TermSays ps M ph fl -> TermSays (PcWord (B "not") :: ps) (fun F => ~ M F) ph fl
| Ts_paren ps M ph fl : SeriesSays ps M ph fl -> TermSays (PcPunct "(" :: ps ++ [PcPunct ")"]) M ph fl
| Ts_all : TermSays [PcWord (B "all")] (fun _ => True) pAny []
| Ts_tls_on : TermSays [PcWord (B "tls"); PcWord (B "on")] (fun F => t_tlson (f_trans F) = true) pMfrom []
| Ts_tls_off : TermSays [PcWord (B "tls"); PcWord (B "off")] (fun F => t_tlson (f_trans F) = false) pMfrom []
| Ts_from p a fl : Arg p a -> files_of a fl ->
    TermSays [PcWord (B "from"); p] (fun F => exists pat, IsPattern F a pat /\ AddrMatches (to_lower (f_uni F) (f_from F)) pat) pMfrom fl
| Ts_to p a fl : Arg p a -> files_of a fl ->
    TermSays [PcWord (B "to"); p] (fun F => exists pat, IsPattern F a pat /\ AddrMatches (to_lower (f_uni F) (f_rcpt F)) pat) pRto fl
| Ts_helo w p a fl : In w [B "helo"; B "ehlo"] -> Arg p a -> files_of a fl ->
    TermSays [PcWord w; p] (fun F => exists pat, IsPattern F a pat /\ HostMatches (to_lower (f_uni F) (f_helo F)) pat) pHelo fl
| Ts_host p a fl : Arg p a -> files_of a fl ->
    TermSays [PcWord (B "host"); p] (fun F => exists pat name, IsPattern F a pat /\ In name (rd_verified (t_rdns (f_trans F))) /\ HostMatches (to_lower (f_uni F) name) pat) pAny fl
| Ts_source p a fl : Arg p a -> files_of a fl ->
    TermSays [PcWord (B "source"); p] (fun F => exists pat, IsPattern F a pat /\
      ((exists name, In name (rd_verified (t_rdns (f_trans F))) /\ HostMatches (to_lower (f_uni F) name) pat) \/
       HostMatches (to_lower (f_uni F) (f_helo F)) pat \/ AddrMatches (to_lower (f_uni F) (f_from F)) (B "@" ++ pat))) pMfrom fl
| Ts_ip w fl : w <> B "file:" -> (exists f, FileArg w f) \/ parse_ip w <> None \/ parse_cidr w <> None -> files_of w fl ->
    TermSays [PcWord (B "ip"); PcWord w] (fun F => exists pat, IsPattern F w pat /\ IpMatches (t_rip (f_trans F)) pat) pAny fl
| Ts_dnsbl p d : Domain p d ->
    TermSays [PcWord (B "dnsbl"); p] (fun F => exists s0 s1 s2 s3, t_rip (f_trans F) = s0 ++ B "." ++ s1 ++ B "." ++ s2 ++ B "." ++ s3 /\
      Forall (fun s => ~ In ch_dot s) [s0; s1; s2; s3] /\ Resolves F (s3 ++ B "." ++ s2 ++ B "." ++ s1 ++ B "." ++ s0 ++ B "." ++ d)) pAny []
| Ts_dbl ws wps p d ph : Words ws wps -> Forall (fun w => In w dbl_words) ws -> Domain p d -> dbl_when ws ph ->
    TermSays (PcWord (B "dbl") :: wps ++ [p]) (fun F => exists w n, In w ws /\ DblSays F w n /\ Resolves F (n ++ B "." ++ d)) ph []
| Ts_from_has ws wps : Words ws wps -> Forall (fun w => In w addr_words) ws ->
    TermSays (PcWord (B "from-has") :: wps) (fun F => f_from F <> [] /\ one_of (addr_meaning F (f_from F)) ws) pMfrom []
| Ts_to_has ws wps : Words ws wps -> Forall (fun w => In w addr_words) ws ->
    TermSays (PcWord (B "to-has") :: wps) (fun F => f_rcpt F <> [] /\ one_of (addr_meaning F (f_rcpt F)) ws) pRto []
| Ts_helo_has ws wps : Words ws wps -> Forall (fun w => In w helo_words) ws ->
    TermSays (PcWord (B "helo-has") :: wps) (fun F => one_of (helo_meaning F) ws) pHelo []
| Ts_dns ws wps : Words ws wps -> Forall (fun w => In w dns_words) ws ->
    TermSays (PcWord (B "dns") :: wps) (fun F => one_of (dns_meaning F) ws) pAny []
with OrSays : list piece -> (facts -> Prop) -> phase -> list bytes -> Prop :=
| Os_one ps M ph fl : TermSays ps M ph fl -> OrSays ps M ph fl
| Os_or ps1 M1 ph1 fl1 ps2 M2 ph2 fl2 : TermSays ps1 M1 ph1 fl1 -> OrSays ps2 M2 ph2 fl2 ->
    OrSays (ps1 ++ PcWord (B "or") :: ps2) (fun F => M1 F \/ M2 F) (latest_of ph1 ph2) (fl1 ++ fl2)
with SeriesSays : list piece -> (facts -> Prop) -> phase -> list bytes -> Prop :=
| Ss_one ps M ph fl : OrSays ps M ph fl -> SeriesSays ps M ph fl
| Ss_more ps1 M1 ph1 fl1 ps2 M2 ph2 fl2 : OrSays ps1 M1 ph1 fl1 -> SeriesSays ps2 M2 ph2 fl2 ->
    SeriesSays (ps1 ++ ps2) (fun F => M1 F /\ M2 F) (latest_of ph1 ph2) (fl1 ++ fl2).
Scheme TermSays_mind := Induction for TermSays Sort Prop
  with OrSays_mind := Induction for OrSays Sort Prop
  with SeriesSays_mind := Induction for SeriesSays Sort Prop.
Combined Scheme Says_mutind from TermSays_mind, OrSays_mind, SeriesSays_mind.

(** With options *)
Inductive OptionSays : list piece -> bytes * bytes -> Prop :=
| Op_message p a : Arg p a -> OptionSays [PcWord (B "message"); p] (B "message", a)
| Op_note p a : Arg p a -> ~ In ch_nl a -> OptionSays [PcWord (B "note"); p] (B "note", a)
| Op_savedir p a : Arg p a -> OptionSays [PcWord (B "savedir"); p] (B "savedir", a)
| Op_tls p a : Arg p a -> In a [B "off"; B "no-client"] -> OptionSays [PcWord (B "tls-opt"); p] (B "tls-opt", a)
| Op_yakker : OptionSays [PcWord (B "make-yakker")] (B "make-yakker", []).
Inductive OptionsSay : list piece -> list (bytes * bytes) -> Prop :=
| Op_one ps kv : OptionSays ps kv -> OptionsSay ps [kv]
| Op_more ps kv ps' kvs : OptionSays ps kv -> OptionsSay ps' kvs -> OptionsSay (ps ++ ps') (kv :: kvs).

(** A rule: its phase if it has one, its action, and its clauses, each with a
    condition and options; and from which phase on all conditions are known. *)
Record meaning := mkMeaning {
  m_phase : option phase;
  m_action : action;
  m_needs : phase;
  m_clauses : list ((facts -> Prop) * list (bytes * bytes));
  m_files : list bytes
}.
Inductive ClauseSays : list piece -> (facts -> Prop) * list (bytes * bytes) -> phase -> list bytes -> Prop :=
| Cs_plain ps M ph fl : SeriesSays ps M ph fl -> ClauseSays ps (M, []) ph fl
| Cs_with ps M ph fl ps' kvs : SeriesSays ps M ph fl -> OptionsSay ps' kvs -> NoDup (map fst kvs) ->
    ClauseSays (ps ++ PcWord (B "with") :: ps') (M, kvs) ph fl.
Inductive ClausesSay : list piece -> list ((facts -> Prop) * list (bytes * bytes)) -> phase -> list bytes -> Prop :=
| Cs_one ps c ph fl : ClauseSays ps c ph fl -> ClausesSay ps [c] ph fl
| Cs_more ps c ph fl eol ps' cs ph' fl' : ClauseSays ps c ph fl -> In eol [[]; [PcEOL]] -> ClausesSay ps' cs ph' fl' ->
    ClausesSay (ps ++ PcPunct ";" :: eol ++ ps') (c :: cs) (latest_of ph ph') (fl ++ fl').
Definition phase_words : list (bytes * phase) :=
  [(B "@connect", pConnect); (B "@helo", pHelo); (B "@from", pMfrom); (B "@to", pRto); (B "@data", pData); (B "@message", pMessage)].
Definition action_words : list (bytes * action) :=
  [(B "accept", aAccept); (B "reject", aReject); (B "stall", aStall); (B "set-with", aNoresult)].
Inductive RuleSays : list piece -> meaning -> Prop :=
| Rs_any a act ps cs ph fl : In (a, act) action_words -> ClausesSay ps cs ph fl -> (act = aNoresult -> Forall (fun c => snd c <> []) cs) ->
    RuleSays (PcWord a :: ps) (mkMeaning None act ph cs fl)
| Rs_phase w p a act ps cs ph fl : In (w, p) phase_words -> In (a, act) action_words -> ClausesSay ps cs ph fl ->
    (act = aNoresult -> Forall (fun c => snd c <> []) cs) -> pcode ph <= pcode p ->
    RuleSays (PcWord w :: PcWord a :: ps) (mkMeaning (Some p) act ph cs fl).
(** A file: one rule per line *)
Inductive FileSays : list piece -> list meaning -> Prop :=
| Fs_nil : FileSays [] []
| Fs_last ps m : RuleSays ps m -> FileSays ps [m]
| Fs_more ps m ps' ms : RuleSays ps m -> FileSays ps' ms -> FileSays (ps ++ PcEOL :: ps') (m :: ms).

(** The addresses of both ends are known. *)
Definition known (F : facts) : Prop := t_rip (f_trans F) <> [] /\ t_lip (f_trans F) <> [].

(** When a rule is looked at: in its phase; or, if it names none, from the phase
    on in which all it needs is known. *)
Definition in_time (ph : phase) (m : meaning) : Prop :=
  match m_phase m with Some p => p = ph | None => pcode (m_needs m) <= pcode ph end.
(** The first true clause is used. *)
Definition first_clause (F : facts) (m : meaning) (c : (facts -> Prop) * list (bytes * bytes)) : Prop :=
  exists pre post, m_clauses m = pre ++ c :: post /\ Forall (fun x => ~ fst x F) pre /\ fst c F.
Definition no_clause (F : facts) (m : meaning) : Prop := Forall (fun x => ~ fst x F) (m_clauses m).
(** After the recipients were given, a rule about recipients is tried for each
    of them. *)
Definition about_recipients (ph : phase) (m : meaning) : bool :=
  match ph, m_needs m with (pData | pMessage), (pRto | pData | pMessage) => true | _, _ => false end.
Definition RuleUsed (F : facts) (ph : phase) (m : meaning) (c : (facts -> Prop) * list (bytes * bytes)) : Prop :=
  in_time ph m /\
  if about_recipients ph m
  then exists pre a post, t_rcptto (f_trans F) = pre ++ a :: post /\ Forall (fun x => no_clause (with_rcpt F x) m) pre /\ first_clause (with_rcpt F a) m c
  else first_clause F m c.
Definition RuleUnused (F : facts) (ph : phase) (m : meaning) : Prop :=
  in_time ph m -> if about_recipients ph m then Forall (fun x => no_clause (with_rcpt F x) m) (t_rcptto (f_trans F)) else no_clause F m.
(** The rules in order: the first one used that has an action decides; the
    options are those of the clauses used up to there. *)
Inductive Gives (F : facts) (ph : phase) : list meaning -> action -> list (bytes * bytes) -> Prop :=
| Gv_none : Gives F ph [] aNoresult []
| Gv_pass m ms a os : RuleUnused F ph m -> Gives F ph ms a os -> Gives F ph (m :: ms) a os
| Gv_set m c ms a os : RuleUsed F ph m c -> m_action m = aNoresult -> Gives F ph ms a os -> Gives F ph (m :: ms) a (snd c ++ os)
| Gv_decide m c ms : RuleUsed F ph m c -> m_action m <> aNoresult -> Gives F ph (m :: ms) (m_action m) (snd c).
(** the last value given counts *)
Definition last_given (os : list (bytes * bytes)) (k v : bytes) : Prop :=
  exists pre post, os = pre ++ (k, v) :: post /\ forall v', ~ In (k, v') post.

(** ** Proofs *)

Definition item_of (p : piece) : item := mkItem (fst (piece_tok p)) (snd (piece_tok p)) 0.
Definition items_of (ps : list piece) : list item := map item_of ps.
Lemma items_strip ps : strip (items_of ps) = map piece_tok ps.
Proof. unfold strip, items_of. rewrite map_map. apply map_ext. intros p. unfold item_of. cbn. destruct (piece_tok p); reflexivity. Qed.
Lemma items_app a b : items_of (a ++ b) = items_of a ++ items_of b.
Proof. apply map_app. Qed.

(** keywords *)
Lemma mget_In {V} (m : smap V) k v : mget m k = Some v -> In (k, v) m.
Proof.
  induction m as [|[k' v'] m IH]; [discriminate|]. cbn [mget]. destruct (beqb_spec k k') as [->|]; [intros [= ->]; now left|]. intros H. right. auto.
Qed.
Definition plain_keyword (kv : bytes * itype) : bool :=
  match snd kv with itemEOF | itemEOL | itemError | itemFilename => false | _ => true end &&
  match parse_ip (fst kv), parse_cidr (fst kv) with None, None => true | _, _ => false end &&
  negb (mem_byte ch_dot (fst kv)) && negb (has_prefix (fst kv) (B "/")) && negb (has_prefix (fst kv) (B "./")) && negb (has_prefix (fst kv) (B "file:")).
Lemma keywords_plain : forallb plain_keyword keywords = true.
Proof. vm_compute. reflexivity. Qed.
Lemma keyword_plain w t : mget keywords w = Some t -> plain_keyword (w, t) = true.
Proof. intros H. apply mget_In in H. pose proof keywords_plain as K. rewrite forallb_forall in K. exact (K _ H). Qed.

Lemma prefix_iff x p : has_prefix x p = true <-> exists y, x = p ++ y.
Proof.
  revert x. induction p as [|c p IH]; intros x; [destruct x; cbn; split; eauto|].
  destruct x as [|d x]; cbn; [split; [discriminate|intros (y & H); discriminate]|].
  rewrite andb_true_iff, Ascii.eqb_eq, IH. split.
  - intros [-> (y & ->)]. eauto.
  - intros (y & [= -> ->]). eauto.
Qed.
Lemma FileArg_iff w : (exists f, FileArg w f) <-> has_prefix w (B "/") || has_prefix w (B "./") || has_prefix w (B "file:") = true.
Proof.
  rewrite !orb_true_iff, !prefix_iff. split.
  - intros (f & [x|x|x]); eauto.
  - intros [[(x & ->)|(x & ->)]|(x & ->)]; eexists; constructor.
Qed.

Lemma word_item w : w <> B "file:" -> is_arg (item_of (PcWord w)) /\ i_val (item_of (PcWord w)) = w /\
  ((exists f, FileArg w f) -> i_typ (item_of (PcWord w)) = itemFilename) /\
  ((forall f, ~ FileArg w f) -> mget keywords w = None -> i_typ (item_of (PcWord w)) = itemValue).
Proof.
  intros Hw. unfold item_of, piece_tok, word_type. cbn [fst snd i_typ i_val].
  destruct (mget keywords w) as [t|] eqn:E.
  - apply keyword_plain in E. unfold plain_keyword in E. cbn [fst snd] in E.
    apply andb_prop in E as (E & E1). apply andb_prop in E as (E & E2). apply andb_prop in E as (E & E3). apply andb_prop in E as (E & _). apply andb_prop in E as (E & _).
    split; [repeat split; cbn [i_typ]; intros H; rewrite H in E; discriminate|]. split; [reflexivity|]. split; [|discriminate].
    intros HF. apply FileArg_iff in HF. apply negb_true_iff in E1, E2, E3. rewrite E1, E2, E3 in HF. discriminate.
  - destruct (has_prefix w (B "/") || has_prefix w (B "./")) eqn:E1.
    + split; [repeat split; discriminate|]. split; auto. split; auto. intros HN. exfalso.
      assert (exists f, FileArg w f) as (f & Hf) by (apply FileArg_iff; rewrite E1; reflexivity). eapply HN; eauto.
    + destruct (has_prefix w (B "file:")) eqn:E2.
      * destruct (beqb_spec w (B "file:")); [contradiction|]. split; [repeat split; discriminate|]. split; auto. split; auto. intros HN. exfalso.
        assert (exists f, FileArg w f) as (f & Hf) by (apply FileArg_iff; rewrite E1, E2; reflexivity). eapply HN; eauto.
      * split; [repeat split; discriminate|]. split; auto. split; auto. intros HF. apply FileArg_iff in HF. rewrite E1, E2 in HF. discriminate.
Qed.

Lemma Arg_item p a : Arg p a -> is_arg (item_of p) /\ i_val (item_of p) = a.
Proof.
  intros [w Hw|raw v]; [destruct (word_item w Hw) as (H1 & H2 & _); auto|].
  split; [repeat split; discriminate|reflexivity].
Qed.
Lemma ip_item w : w <> B "file:" -> (exists f, FileArg w f) \/ parse_ip w <> None \/ parse_cidr w <> None -> is_ip_arg (item_of (PcWord w)).
Proof.
  intros Hw H. destruct (word_item w Hw) as (_ & Hv & Hf & Hn).
  destruct (has_prefix w (B "/") || has_prefix w (B "./") || has_prefix w (B "file:")) eqn:E; [left; apply Hf; now apply FileArg_iff|].
  assert (HN : forall f, ~ FileArg w f). { intros f Hf'. rewrite (proj1 (FileArg_iff w)) in E by eauto. discriminate. }
  destruct H as [(f & H)|H]; [exfalso; eapply HN; eauto|]. right. rewrite Hv. split; auto. apply Hn; auto.
  destruct (mget keywords w) as [t|] eqn:Ek; auto. exfalso. apply keyword_plain in Ek. unfold plain_keyword in Ek. cbn [fst snd] in Ek.
  apply andb_prop in Ek as (Ek & _). apply andb_prop in Ek as (Ek & _). apply andb_prop in Ek as (Ek & _). apply andb_prop in Ek as (Ek & _). apply andb_prop in Ek as (_ & Ek).
  destruct (parse_ip w), (parse_cidr w); try discriminate. destruct H; congruence.
Qed.
Lemma domain_typ p a : Arg p a -> (forall f, ~ FileArg a f) -> In ch_dot a -> i_typ (item_of p) = itemValue.
Proof.
  intros [w Hw|raw v] HN Hd; [|reflexivity]. destruct (word_item w Hw) as (_ & _ & _ & Hn). apply Hn; auto.
  destruct (mget keywords w) as [t|] eqn:Ek; auto. exfalso. apply keyword_plain in Ek. unfold plain_keyword in Ek. cbn [fst snd] in Ek.
  apply andb_prop in Ek as (Ek & _). apply andb_prop in Ek as (Ek & _). apply andb_prop in Ek as (Ek & _). apply andb_prop in Ek as (_ & Ek).
  rewrite (proj2 (mem_byte_In _ _) Hd) in Ek. discriminate.
Qed.
Lemma Domain_item p d : Domain p d -> is_domain (item_of p) d.
Proof.
  intros [p' u Ha HN|p' v Ha HN Hd Hl]; destruct (Arg_item _ _ Ha) as (_ & Hv); unfold is_domain; rewrite Hv.
  - assert (Hd : In ch_dot (u ++ B ".")) by (apply in_or_app; right; now left). split; [eapply domain_typ; eauto|]. split; auto. left. exists u. auto.
  - split; [eapply domain_typ; eauto|]. split; auto. right. split; auto. intros (u & E). eapply Hl; eauto.
Qed.

(** ** Words *)

Definition bit_of (tbl : omap) (w : bytes) : opt := omap_get tbl (i_typ (item_of (PcWord w))).
Lemma Words_items ws ps : Words ws ps -> forall tbl, Forall (fun w => In (i_typ (item_of (PcWord w)), bit_of tbl w) tbl) ws ->
  exists o, GOpts tbl (items_of ps) o /\ forall x, N.land o x <> 0%N <-> Exists (fun w => N.land (bit_of tbl w) x <> 0%N) ws.
Proof.
  induction 1 as [w|w ws ps _ IH]; intros tbl Hf; inversion Hf as [|? ? Hw Hws]; subst.
  - exists (bit_of tbl w). split; [now constructor|]. intros x. split; [now constructor|]. intros H. inversion H as [? ? H1|? ? H1]; subst; auto. inversion H1.
  - destruct (IH tbl Hws) as (o & Ho & Hx). exists (N.lor (bit_of tbl w) o). split.
    { apply (GO_more tbl (item_of (PcWord w)) (bit_of tbl w) (item_of PcComma)); auto. }
    intros x. rewrite N.land_lor_distr_l. rewrite Exists_cons, <- Hx.
    destruct (N.eq_dec (N.land (bit_of tbl w) x) 0) as [E|E].
    + rewrite E, N.lor_0_l. tauto.
    + split; auto. intros _ H. apply N.lor_eq_0_iff in H. tauto.
Qed.
Lemma words_in tbl ws (all : list bytes) : forallb (fun w => existsb (fun e => ieqb (i_typ (item_of (PcWord w))) (fst e) && N.eqb (bit_of tbl w) (snd e)) tbl) all = true ->
  Forall (fun w => In w all) ws -> Forall (fun w => In (i_typ (item_of (PcWord w)), bit_of tbl w) tbl) ws.
Proof.
  intros H Hw. rewrite forallb_forall in H. eapply Forall_impl; [|exact Hw]. intros w Hin. specialize (H w Hin).
  apply existsb_exists in H as ((t & o) & Hi & E). apply andb_prop in E as (E1 & E2). destruct (ieqb_spec (i_typ (item_of (PcWord w))) (fst (t, o))) as [E3|]; [clear E1; rename E3 into E1|discriminate]. apply N.eqb_eq in E2. cbn [fst snd] in *. subst t o. exact Hi.
Qed.

Lemma land_bit p x : N.land (2 ^ p) x <> 0%N <-> N.testbit x p = true.
Proof. rewrite <- ltb_land, N.ltb_lt. lia. Qed.
Lemma land_lor a b x : N.land (N.lor a b) x <> 0%N <-> N.land a x <> 0%N \/ N.land b x <> 0%N.
Proof.
  rewrite N.land_lor_distr_l. destruct (N.eq_dec (N.land a x) 0) as [E|E].
  - rewrite E, N.lor_0_l. tauto.
  - split; auto. intros _ H. apply N.lor_eq_0_iff in H. tauto.
Qed.
Lemma ohas_land o b : ohas o b = true <-> N.land o b <> 0%N.
Proof. unfold ohas. rewrite negb_true_iff, N.eqb_neq. reflexivity. Qed.
Lemma ohas_all_land o p : ohas_all o (2 ^ p)%N = true <-> N.land o (2 ^ p) <> 0%N.
Proof.
  rewrite N.land_comm, land_bit. unfold ohas_all. rewrite N.eqb_eq. split.
  - intros H. assert (HB : N.testbit (N.land o (2 ^ p)) p = true) by (rewrite H; apply N.pow2_bits_true). rewrite N.land_spec in HB. now apply andb_prop in HB.
  - intros H. apply N.bits_inj. intros n. rewrite N.land_spec, N.pow2_bits_eqb. destruct (N.eqb_spec p n) as [->|]; [now rewrite H|apply andb_false_r].
Qed.

Lemma one_of_bits (table : list (bytes * Prop)) tbl x all ws : map fst table = all ->
  Forall (fun wp => N.land (bit_of tbl (fst wp)) x <> 0%N <-> snd wp) table -> Forall (fun w => In w all) ws ->
  (Exists (fun w => N.land (bit_of tbl w) x <> 0%N) ws <-> one_of table ws).
Proof.
  intros <- HT Hws. rewrite Forall_forall in HT, Hws. rewrite Exists_exists. split.
  - intros (w & Hw & Hx). specialize (Hws w Hw). apply in_map_iff in Hws as ((w' & P) & E & Hi). cbn in E. subst w'.
    exists w, P. split; auto. split; auto. apply (HT _ Hi). exact Hx.
  - intros (w & P & Hw & Hi & HP). exists w. split; auto. apply (HT _ Hi). exact HP.
Qed.
Lemma Forall_words_perm (a b ws : list bytes) : incl a b -> Forall (fun w => In w a) ws -> Forall (fun w => In w b) ws.
Proof. intros H Hw. eapply Forall_impl; [|exact Hw]. auto. Qed.

Lemma addr_attrs_spec F a : a <> [] ->
  let o := addr_attrs F a in
  (N.testbit o 19 = true <-> noat a) /\ (N.testbit o 16 = true <-> unqualified a) /\
  (N.testbit o 17 = true <-> route a) /\ (N.testbit o 20 = true <-> garbage a) /\
  (N.testbit o 18 = true <-> quoted a) /\
  (N.testbit o 21 = true <-> in_domain F a dnsGood) /\ (N.testbit o 22 = true <-> in_domain F a dnsBad) /\ (N.testbit o 23 = true <-> in_domain F a dnsTempfail).
Proof.
  intros Ha. destruct (addrText_spec a Ha) as (Ei & H19 & H16 & H17 & H20 & H18 & Hp).
  unfold addr_attrs. destruct a as [|x a']; [congruence|]. set (a := x :: a') in *. clearbody a. cbn zeta.
  destruct (addrText a) as [o idx] eqn:E. cbn [fst snd] in *. subst idx.
  assert (L21 : N.testbit o 21 = false) by (apply Hp; right; reflexivity).
  assert (L22 : N.testbit o 22 = false) by (apply Hp; right; reflexivity).
  assert (L23 : N.testbit o 23 = false) by (apply Hp; right; reflexivity).
  destruct (N.eqb (N.land o _) 0) eqn:Ef.
  - assert (Hnf : ~ flawed a).
    { unfold flawed. rewrite <- H19, <- H16, <- H17, <- H20, <- flawed_bits, Ef. discriminate. }
    assert (Hat : In ch_at a).
    { destruct (in_dec ascii_dec ch_at a) as [|N]; auto. exfalso. apply Hnf. left. exact N. }
    destruct (index_byte a ch_at) as [i|] eqn:Ei; [|apply index_byte_None in Ei; tauto].
    apply index_byte_Some in Ei as (l & d & Ea & <- & Hl).
    replace (skipn (S (length l)) a) with d.
    2:{ rewrite Ea. change (ch_at :: d) with ([ch_at] ++ d). rewrite app_assoc, skipn_app_len; auto. rewrite app_length. simpl. lia. }
    assert (HD : forall v, in_domain F a v <-> domain_verdict F d = v).
    { intros v. split.
      - intros (_ & l' & d' & E' & Hl' & Hv). rewrite Ea in E'. apply (at_split l l' d d') in E' as [-> ->]; auto.
      - intros Hv. split; auto. exists l, d. auto. }
    rewrite !HD.
    assert (HB : forall p q, (p <> q -> N.testbit (N.lor o (2 ^ q)) p = N.testbit o p)%N).
    { intros p q Hn. rewrite N.lor_spec, N.pow2_bits_eqb. replace (N.eqb q p) with false by (symmetry; apply N.eqb_neq; congruence). apply orb_false_r. }
    assert (HC : forall p, N.testbit (N.lor o (2 ^ p)) p = true).
    { intros p. rewrite N.lor_spec, N.pow2_bits_true. apply orb_true_r. }
    unfold oDomainValid, oDomainInvalid, oDomainTempfail.
    destruct (domain_verdict F d); rewrite ?HC, ?HB by (try discriminate; lia); rewrite ?L21, ?L22, ?L23;
      repeat (split; [assumption|]); repeat split; congruence.
  - assert (Hf : flawed a). { unfold flawed. rewrite <- H19, <- H16, <- H17, <- H20. apply flawed_bits. auto. }
    repeat (split; [assumption|]). rewrite L21, L22, L23. repeat split; try discriminate; intros (Hn & _); contradiction.
Qed.

Lemma addr_table F a : a <> [] -> Forall (fun wp => N.land (bit_of addrMap (fst wp)) (addr_attrs F a) <> 0%N <-> snd wp) (addr_meaning F a).
Proof.
  intros Ha. destruct (addr_attrs_spec F a Ha) as (H19 & H16 & H17 & H20 & H18 & H21 & H22 & H23). unfold addr_meaning.
  assert (HB : forall w p P, bit_of addrMap w = (2 ^ p)%N -> (N.testbit (addr_attrs F a) p = true <-> P) ->
    (N.land (bit_of addrMap (fst (w, P))) (addr_attrs F a) <> 0%N <-> snd (w, P))).
  { intros w p P E HP. cbn [fst snd]. rewrite E, land_bit. exact HP. }
  apply Forall_cons; [eapply HB; [|exact H19]; reflexivity|]. apply Forall_cons; [eapply HB; [|exact H16]; reflexivity|].
  apply Forall_cons; [eapply HB; [|exact H17]; reflexivity|]. apply Forall_cons; [eapply HB; [|exact H20]; reflexivity|].
  apply Forall_cons; [eapply HB; [|exact H18]; reflexivity|].
  apply Forall_cons.
  { cbn [fst snd]. change (bit_of addrMap (B "bad")) with (N.lor (N.lor (2 ^ 16) (2 ^ 17)) (N.lor (2 ^ 19) (2 ^ 20)))%N. rewrite !land_lor, !land_bit. tauto. }
  apply Forall_cons; [eapply HB; [|exact H21]; reflexivity|]. apply Forall_cons; [eapply HB; [|exact H22]; reflexivity|].
  apply Forall_cons; [eapply HB; [|exact H23]; reflexivity|]. constructor.
Qed.
Lemma helo_table F : known F -> Forall (fun wp => N.land (bit_of heloMap (fst wp)) (heloGetter (f_trans F) (f_cmd F) (f_helo F)) <> 0%N <-> snd wp) (helo_meaning F).
Proof.
  intros [Hr Hl]. destruct (heloGetter_spec (f_trans F) (f_cmd F) (f_helo F) Hr Hl) as (H1 & H2 & H3 & H4 & H5 & H6 & H7 & H8 & H9 & H10).
  set (o := heloGetter _ _ _) in *. clearbody o. unfold helo_meaning.
  assert (H6' : N.testbit o 6 = true <-> parse_ip (f_helo F) <> None). { rewrite H6. unfold bare_ip. tauto. }
  assert (HB : forall w p P, bit_of heloMap w = (2 ^ p)%N -> (N.testbit o p = true <-> P) ->
    (N.land (bit_of heloMap (fst (w, P))) o <> 0%N <-> snd (w, P))).
  { intros w p P E HP. cbn [fst snd]. rewrite E, land_bit. exact HP. }
  apply Forall_cons; [eapply HB; [|exact H1]; reflexivity|]. apply Forall_cons; [eapply HB; [|exact H2]; reflexivity|].
  apply Forall_cons; [eapply HB; [|exact H3]; reflexivity|]. apply Forall_cons; [eapply HB; [|exact H4]; reflexivity|].
  apply Forall_cons; [eapply HB; [|exact H5]; reflexivity|]. apply Forall_cons; [eapply HB; [|exact H6']; reflexivity|].
  apply Forall_cons; [eapply HB; [|exact H7]; reflexivity|].
  apply Forall_cons.
  { cbn [fst snd]. change (bit_of heloMap (B "ip")) with (N.lor (2 ^ 6) (2 ^ 7))%N. rewrite !land_lor, !land_bit, H6, H7. unfold helo_ip. split.
    - intros [H|(h & H)]; eauto.
    - intros (h & [H|H]); [left|right; eauto]. destruct H as [-> H]. split; auto. }
  apply Forall_cons; [eapply HB; [|exact H9]; reflexivity|]. apply Forall_cons; [eapply HB; [|exact H8]; reflexivity|].
  apply Forall_cons; [eapply HB; [|exact H10]; reflexivity|]. constructor.
Qed.
Lemma dns_table F : Forall (fun wp => N.land (bit_of dnsMap (fst wp)) (dnsGetter (f_trans F)) <> 0%N <-> snd wp) (dns_meaning F).
Proof.
  unfold dns_meaning, dnsGetter. generalize (t_rdns (f_trans F)). intros r.
  destruct (rd_verified r), (rd_nofwd r), (rd_inconsist r); repeat apply Forall_cons; try constructor; cbn [fst snd];
    match goal with |- ?n <> 0%N -> _ => vm_compute | |- _ => idtac end; intuition (try congruence); try discriminate.
Qed.

Lemma latest_pmax a b : latest_of a b = pmax a b.
Proof. reflexivity. Qed.
Lemma truth_series F es : es <> [] -> (truth F (series es) <-> Forall (truth F) es).
Proof.
  intros Hn. destruct es as [|e [|e' es]]; [congruence| |apply truth_and].
  cbn [series]. split; [auto|intros H; now inversion H].
Qed.
Lemma consults_series F es f : Consults F (series es) f -> exists e, In e es /\ Consults F e f.
Proof.
  destruct es as [|e [|e' es]]; [intros []|intros H; exists e; split; [now left|exact H]|].
  intros H. apply consults_and in H as (pre & x & post & E & _ & Hc). exists x. split; auto. rewrite E. apply in_elt.
Qed.

(** a condition, read *)
Definition Reads (ps : list piece) (M : facts -> Prop) (ph : phase) (fl : list bytes) (e : expr) : Prop :=
  (forall F, known F -> (truth F e <-> M F)) /\ needs e = ph /\ (forall F f, Consults F e f -> In f fl).

Lemma dbl_bits ws ph o : dbl_when ws ph -> Forall (fun w => In w dbl_words) ws ->
  (forall x, N.land o x <> 0%N <-> Exists (fun w => N.land (bit_of dblMap w) x <> 0%N) ws) ->
  (if ohas o oFrom then pMfrom else if ohas o oEhlo then pHelo else pAny) = ph.
Proof.
  intros HP Hws Ho.
  assert (HF : ohas o oFrom = true <-> In (B "from") ws \/ In (B "any") ws).
  { rewrite ohas_land, Ho, Exists_exists. rewrite Forall_forall in Hws. split.
    - intros (w & Hw & Hb). destruct (Hws w Hw) as [<-|[<-|[<-|[<-|[<-|[]]]]]]; auto; exfalso; apply Hb; reflexivity.
    - intros [H|H]; eexists; (split; [exact H|]); vm_compute; discriminate. }
  assert (HE : ohas o oEhlo = true <-> In (B "helo") ws \/ In (B "ehlo") ws \/ In (B "any") ws).
  { rewrite ohas_land, Ho, Exists_exists. rewrite Forall_forall in Hws. split.
    - intros (w & Hw & Hb). destruct (Hws w Hw) as [<-|[<-|[<-|[<-|[<-|[]]]]]]; auto; exfalso; apply Hb; reflexivity.
    - intros [H|[H|H]]; eexists; (split; [exact H|]); vm_compute; discriminate. }
  destruct HP as [(-> & H)|[(-> & H1 & H2)|(-> & H)]].
  - apply HF in H. now rewrite H.
  - destruct (ohas o oFrom); [exfalso; apply H1; now apply HF|]. assert (E : ohas o oEhlo = true) by (apply HE; tauto). now rewrite E.
  - rewrite Forall_forall in H.
    destruct (ohas o oFrom). { destruct (proj1 HF eq_refl) as [H0|H0]; apply H in H0; discriminate. }
    destruct (ohas o oEhlo); auto. destruct (proj1 HE eq_refl) as [H0|[H0|H0]]; apply H in H0; discriminate.
Qed.

Lemma dbl_truth F ws o n : Forall (fun w => In w dbl_words) ws ->
  (forall x, N.land o x <> 0%N <-> Exists (fun w => N.land (bit_of dblMap w) x <> 0%N) ws) ->
  (DblName F o n <-> exists w, In w ws /\ DblSays F w n).
Proof.
  intros Hws Ho. rewrite Forall_forall in Hws. split.
  - intros [H1 H2|n' c H1 H2|l d H1 H2 H3 H4 H5].
    + apply ohas_land in H1. apply Ho, Exists_exists in H1 as (w & Hw & Hb). exists w. split; auto. apply Ds_helo; auto.
      destruct (Hws w Hw) as [<-|[<-|[<-|[<-|[<-|[]]]]]]; cbn; auto; exfalso; apply Hb; reflexivity.
    + apply (ohas_all_land o 24) in H1. apply Ho, Exists_exists in H1 as (w & Hw & Hb). exists w. split; auto. eapply Ds_host; eauto.
      destruct (Hws w Hw) as [<-|[<-|[<-|[<-|[<-|[]]]]]]; cbn; auto; exfalso; apply Hb; reflexivity.
    + apply (ohas_all_land o 25) in H1. apply Ho, Exists_exists in H1 as (w & Hw & Hb). exists w. split; auto. eapply Ds_from; eauto.
      destruct (Hws w Hw) as [<-|[<-|[<-|[<-|[<-|[]]]]]]; cbn; auto; exfalso; apply Hb; reflexivity.
  - intros (w & Hw & HD). destruct HD as [w' H1 H2|w' n' c H1 H2|w' l d H1 H2 H3 H4 H5].
    + apply DN_helo; auto. apply ohas_land, Ho, Exists_exists. exists w'. split; auto. destruct H1 as [<-|[<-|[<-|[]]]]; vm_compute; discriminate.
    + eapply DN_host; eauto. apply (ohas_all_land o 24), Ho, Exists_exists. exists w'. split; auto. destruct H1 as [<-|[<-|[]]]; vm_compute; discriminate.
    + eapply DN_from; eauto. apply (ohas_all_land o 25), Ho, Exists_exists. exists w'. split; auto. destruct H1 as [<-|[<-|[]]]; vm_compute; discriminate.
Qed.

Lemma Says_read :
  (forall ps M ph fl, TermSays ps M ph fl -> exists e, GTerm (items_of ps) e /\ Reads ps M ph fl e) /\
  (forall ps M ph fl, OrSays ps M ph fl -> exists e, GOrl (items_of ps) e /\ Reads ps M ph fl e) /\
  (forall ps M ph fl, SeriesSays ps M ph fl -> exists es, GSeries (items_of ps) es /\ es <> [] /\
     (forall F, known F -> (Forall (truth F) es <-> M F)) /\ fold_right pmax pAny (map needs es) = ph /\
     (forall F f e, In e es -> Consults F e f -> In f fl)).
Proof.
  apply Says_mutind.
  - intros ps M ph fl _ (e & HG & H1 & H2 & H3). exists (ENot e). split; [now apply (GT_not (item_of (PcWord (B "not"))))|].
    split; [|split; auto]. intros F HF. cbn [truth]. rewrite (H1 F HF). reflexivity.
  - intros ps M ph fl _ (es & HG & Hn & H1 & H2 & H3). exists (series es). split.
    { cbn [items_of map]. change (map item_of (ps ++ [PcPunct ")"])) with (items_of (ps ++ [PcPunct ")"])). rewrite items_app.
      apply (GT_paren (item_of (PcPunct "(")) (items_of ps) (item_of (PcPunct ")"))); auto. now constructor. }
    split; [intros F HF; rewrite truth_series by auto; auto|]. split; [now rewrite needs_series|].
    intros F f Hc. apply consults_series in Hc as (e & He & Hc). eauto.
  - exists EAll. split; [now apply GT_all|]. split; [reflexivity|]. split; [reflexivity|]. intros F f [].
  - exists (ETls true). split; [now apply GT_tls|]. split; [reflexivity|]. split; [reflexivity|]. intros F f [].
  - exists (ETls false). split; [now apply GT_tls|]. split; [reflexivity|]. split; [reflexivity|]. intros F f [].
  - intros p a fl Ha Hf. destruct (Arg_item _ _ Ha) as (H1 & <-). eexists. split; [apply (GT_match (item_of (PcWord (B "from"))) MFrom); auto|].
    split; [|split; [reflexivity|intros F f; apply Hf]]. intros F _. cbn [truth subjects Fits]. split.
    + intros (pat & x & A1 & [<-|[]] & A3). eauto.
    + intros (pat & A1 & A2). exists pat, (f_from F). split; auto. split; [now left|auto].
  - intros p a fl Ha Hf. destruct (Arg_item _ _ Ha) as (H1 & <-). eexists. split; [apply (GT_match (item_of (PcWord (B "to"))) MTo); auto|].
    split; [|split; [reflexivity|intros F f; apply Hf]]. intros F _. cbn [truth subjects Fits]. split.
    + intros (pat & x & A1 & [<-|[]] & A3). eauto.
    + intros (pat & A1 & A2). exists pat, (f_rcpt F). split; auto. split; [now left|auto].
  - intros w p a fl Hw Ha Hf. destruct (Arg_item _ _ Ha) as (H1 & <-).
    assert (match_kind (i_typ (item_of (PcWord w))) = Some MHelo) as Hk by (destruct Hw as [<-|[<-|[]]]; reflexivity).
    eexists. split; [apply (GT_match (item_of (PcWord w)) MHelo); auto|].
    split; [|split; [reflexivity|intros F f; apply Hf]]. intros F _. cbn [truth subjects Fits]. split.
    + intros (pat & x & A1 & [<-|[]] & A3). eauto.
    + intros (pat & A1 & A2). exists pat, (f_helo F). split; auto. split; [now left|auto].
  - intros p a fl Ha Hf. destruct (Arg_item _ _ Ha) as (H1 & <-). eexists. split; [apply (GT_match (item_of (PcWord (B "host"))) MHost); auto|].
    split; [|split; [reflexivity|intros F f; apply Hf]]. intros F _. reflexivity.
  - intros p a fl Ha Hf. destruct (Arg_item _ _ Ha) as (H1 & <-). eexists. split; [apply (GT_source (item_of (PcWord (B "source")))); auto|].
    split; [|split; [reflexivity|intros F f; apply Hf]]. intros F _. reflexivity.
  - intros w fl Hw Hi Hf. eexists. split; [apply (GT_ip (item_of (PcWord (B "ip"))) (item_of (PcWord w))); auto using ip_item|].
    split; [|split; [reflexivity|intros F f; apply Hf]]. intros F _. cbn [truth subjects Fits]. split.
    + intros (pat & x & A1 & [<-|[]] & A3). eauto.
    + intros (pat & A1 & A2). exists pat, (t_rip (f_trans F)). split; auto. split; [now left|auto].
  - intros p d Hd. eexists. split; [apply (GT_dnsbl (item_of (PcWord (B "dnsbl"))) (item_of p) d); auto using Domain_item|].
    split; [reflexivity|]. split; [reflexivity|intros F f []].
  - intros ws wps p d ph Hw Hws Hd Hp.
    destruct (Words_items _ _ Hw dblMap) as (o & Ho & Hx). { eapply words_in; [|exact Hws]. reflexivity. }
    exists (EDbl o d). split.
    { cbn [items_of map]. change (map item_of (wps ++ [p])) with (items_of (wps ++ [p])). rewrite items_app.
      apply (GT_dbl (item_of (PcWord (B "dbl"))) (items_of wps) o (item_of p)); auto using Domain_item. }
    split; [|split; [eapply dbl_bits; eauto|intros F f []]]. intros F _. cbn [truth]. split.
    + intros (n & A1 & A2). apply (dbl_truth F ws o n Hws Hx) in A1 as (w & B1 & B2). eauto.
    + intros (w & n & A1 & A2 & A3). exists n. split; auto. apply (dbl_truth F ws o n Hws Hx). eauto.
  - intros ws wps Hw Hws. destruct (Words_items _ _ Hw addrMap) as (o & Ho & Hx). { eapply words_in; [|exact Hws]. reflexivity. }
    exists (EOpt OFromHas o). split; [eapply (GT_opts (item_of (PcWord (B "from-has")))); eauto; reflexivity|].
    split; [|split; [reflexivity|intros F f []]]. intros F _. cbn [truth attrs]. destruct (f_from F) as [|c a] eqn:Ea.
    + cbn [addr_attrs]. rewrite N.land_0_r. split; [congruence|intros [H _]; congruence].
    + rewrite Hx, (one_of_bits (addr_meaning F (c :: a))); [|reflexivity|apply addr_table; discriminate|].
      * split; [intros H; split; [discriminate|exact H]|tauto].
      * eapply Forall_words_perm; [|exact Hws]. intros w H. cbn in H |- *. tauto.
  - intros ws wps Hw Hws. destruct (Words_items _ _ Hw addrMap) as (o & Ho & Hx). { eapply words_in; [|exact Hws]. reflexivity. }
    exists (EOpt OToHas o). split; [eapply (GT_opts (item_of (PcWord (B "to-has")))); eauto; reflexivity|].
    split; [|split; [reflexivity|intros F f []]]. intros F _. cbn [truth attrs]. destruct (f_rcpt F) as [|c a] eqn:Ea.
    + cbn [addr_attrs]. rewrite N.land_0_r. split; [congruence|intros [H _]; congruence].
    + rewrite Hx, (one_of_bits (addr_meaning F (c :: a))); [|reflexivity|apply addr_table; discriminate|].
      * split; [intros H; split; [discriminate|exact H]|tauto].
      * eapply Forall_words_perm; [|exact Hws]. intros w H. cbn in H |- *. tauto.
  - intros ws wps Hw Hws. destruct (Words_items _ _ Hw heloMap) as (o & Ho & Hx). { eapply words_in; [|exact Hws]. reflexivity. }
    exists (EOpt OHelo o). split; [eapply (GT_opts (item_of (PcWord (B "helo-has")))); eauto; reflexivity|].
    split; [|split; [reflexivity|intros F f []]]. intros F HF. cbn [truth attrs].
    rewrite Hx, (one_of_bits (helo_meaning F)); [reflexivity|reflexivity|now apply helo_table|].
    eapply Forall_words_perm; [|exact Hws]. intros w H. cbn in H |- *. tauto.
  - intros ws wps Hw Hws. destruct (Words_items _ _ Hw dnsMap) as (o & Ho & Hx). { eapply words_in; [|exact Hws]. reflexivity. }
    exists (EOpt ODns o). split; [eapply (GT_opts (item_of (PcWord (B "dns")))); eauto; reflexivity|].
    split; [|split; [reflexivity|intros F f []]]. intros F _. cbn [truth attrs].
    rewrite Hx, (one_of_bits (dns_meaning F)); [reflexivity|reflexivity|apply dns_table|].
    eapply Forall_words_perm; [|exact Hws]. intros w H. cbn in H |- *. tauto.
  - intros ps M ph fl _ (e & HG & HR). exists e. split; auto. now constructor.
  - intros ps1 M1 ph1 fl1 ps2 M2 ph2 fl2 _ (e1 & G1 & A1 & A2 & A3) _ (e2 & G2 & B1 & B2 & B3). exists (EOr e1 e2). split.
    { rewrite items_app. now apply (GOr_or (items_of ps1) e1 (item_of (PcWord (B "or"))) (items_of ps2)). }
    split; [intros F HF; cbn [truth]; rewrite (A1 F HF), (B1 F HF); reflexivity|]. split; [cbn [needs]; rewrite A2, B2; reflexivity|].
    intros F f [H|[_ H]]; apply in_or_app; [left|right]; eauto.
  - intros ps M ph fl _ (e & HG & H1 & H2 & H3). exists [e]. split; [now constructor|]. split; [discriminate|].
    split; [|split].
    + intros F HF. rewrite <- (H1 F HF). split; [intros H; now inversion H|auto].
    + cbn [map fold_right]. rewrite H2. unfold pmax, pltb. destruct ph; reflexivity.
    + intros F f e' [<-|[]]. apply H3.
  - intros ps1 M1 ph1 fl1 ps2 M2 ph2 fl2 _ (e & G1 & A1 & A2 & A3) _ (es & G2 & Hn & B1 & B2 & B3). exists (e :: es). split.
    { rewrite items_app. now constructor. }
    split; [discriminate|]. split; [|split].
    + intros F HF. rewrite <- (A1 F HF), <- (B1 F HF). split; [intros H; inversion H; auto|intros [? ?]; auto].
    + cbn [map fold_right]. rewrite A2, B2. reflexivity.
    + intros F f e' [<-|He] Hc; apply in_or_app; [left|right]; eauto.
Qed.

Lemma withs_fold (kvs : list (bytes * bytes)) : NoDup (map fst kvs) -> forall (m : smap bytes) k v,
  mget (fold_left (fun m kv => mset m (fst kv) (snd kv)) kvs m) k = Some v <-> In (k, v) kvs \/ (~ In k (map fst kvs) /\ mget m k = Some v).
Proof.
  induction kvs as [|[k0 v0] kvs IH]; intros Hn m k v; cbn [fold_left map In fst snd]; [tauto|].
  cbn [map fst] in Hn. inversion Hn as [|? ? Hk0 Hn']; subst. rewrite (IH Hn'), mget_mset. destruct (beqb_spec k k0) as [->|Hk].
  - split.
    + intros [H|[_ H]]; [left; auto|]. injection H as ->. auto.
    + intros [[H|H]|[H _]]; [injection H as ->; right; auto|left; auto|exfalso; auto].
  - split.
    + intros [H|[H1 H2]]; [auto|]. right. split; auto. intros [->|H]; auto.
    + intros [[H|H]|[H1 H2]]; [injection H as -> ->; congruence|auto|]. right. split; auto.
Qed.
Lemma withs_in kvs k v : NoDup (map fst kvs) -> mget (withs_of kvs) k = Some v <-> In (k, v) kvs.
Proof. intros Hn. unfold withs_of. rewrite (withs_fold kvs Hn). cbn [mget]. split; [intros [H|[_ H]]; [auto|discriminate]|auto]. Qed.

Lemma OptionSays_items ps kv : OptionSays ps kv -> exists k ts, items_of ps = k :: ts /\ GWterm (k :: ts) kv /\ fst kv = i_val k.
Proof.
  intros [p a Ha|p a Ha Hn|p a Ha|p a Ha Hin|]; try (destruct (Arg_item _ _ Ha) as (H1 & <-));
    (eexists; eexists; split; [reflexivity|split; [|reflexivity]]).
  - now apply (GW_message (item_of (PcWord (B "message")))).
  - now apply (GW_note (item_of (PcWord (B "note")))).
  - now apply (GW_savedir (item_of (PcWord (B "savedir")))).
  - apply (GW_tlsopt (item_of (PcWord (B "tls-opt")))); auto. destruct Hin as [->|[->|[]]]; auto.
  - now apply (GW_yakker (item_of (PcWord (B "make-yakker")))).
Qed.
Lemma may_add_fresh t k seen : ~ In k (map fst seen) -> may_add t k seen.
Proof.
  intros H. assert (H' : forall v, ~ In (k, v) seen). { intros v Hv. apply H. apply in_map_iff. exists (k, v). auto. }
  unfold may_add. destruct t; intros v Hv; try (exfalso; eapply H'; exact Hv). 
Qed.
Lemma OptionsSay_items ps kvs : OptionsSay ps kvs -> forall seen, NoDup (map fst (seen ++ kvs)) -> GWiths seen (items_of ps) kvs.
Proof.
  induction 1 as [ps kv H|ps kv ps' kvs H _ IH]; intros seen Hn; destruct (OptionSays_items _ _ H) as (k & ts & E & HG & Hk).
  - rewrite E. constructor; auto. apply may_add_fresh. rewrite map_app in Hn. cbn [map] in Hn. rewrite <- Hk.
    apply NoDup_remove in Hn as [_ Hn]. rewrite app_nil_r in Hn. exact Hn.
  - rewrite items_app, E. cbn [app]. constructor; auto.
    + apply may_add_fresh. rewrite map_app in Hn. cbn [map] in Hn. rewrite <- Hk. apply NoDup_remove in Hn as [_ Hn]. intros Hi. apply Hn. apply in_or_app. auto.
    + apply IH. rewrite <- app_assoc. exact Hn.
Qed.

(** a clause, read *)
Definition ClauseAgrees (rc : rclause) (m : (facts -> Prop) * list (bytes * bytes)) : Prop :=
  (forall F, known F -> (truth F (rc_expr rc) <-> fst m F)) /\ (forall k v, mget (rc_withs rc) k = Some v <-> In (k, v) (snd m)).
Definition clause_files (rc : rclause) (fl : list bytes) : Prop := forall F f, Consults F (rc_expr rc) f -> In f fl.

Lemma ClauseSays_items ps m ph fl : ClauseSays ps m ph fl ->
  exists rc, GClause (items_of ps) rc /\ ClauseAgrees rc m /\ needs (rc_expr rc) = ph /\ clause_files rc fl /\ (snd m <> [] -> rc_withs rc <> []).
Proof.
  intros [ps' M ph' fl' H|ps' M ph' fl' ps2 kvs H HO Hn]; destruct (proj2 (proj2 Says_read) _ _ _ _ H) as (es & HG & Hne & H1 & H2 & H3).
  - exists (mkClause (series es) []). split; [apply GC_plain; now constructor|]. cbn [rc_expr rc_withs fst snd].
    split; [split; [intros F HF; cbn [rc_expr fst]; rewrite truth_series by auto; auto|]|].
    { intros k v. cbn [rc_withs mget snd In]. split; [discriminate|intros []]. }
    split; [now rewrite needs_series|]. split; [|congruence]. intros F f Hc. apply consults_series in Hc as (e & He & Hc). eauto.
  - exists (mkClause (series es) (withs_of kvs)). split.
    { rewrite items_app. apply (GC_with _ _ (item_of (PcWord (B "with"))) (items_of ps2)); [now constructor|reflexivity|].
      apply OptionsSay_items; auto. }
    cbn [rc_expr rc_withs fst snd]. split; [split; [intros F HF; cbn [rc_expr fst]; rewrite truth_series by auto; auto|]|].
    { intros k v. cbn [rc_withs snd]. now apply withs_in. }
    split; [now rewrite needs_series|]. split; [intros F f Hc; apply consults_series in Hc as (e & He & Hc); eauto|].
    intros Hk E. destruct kvs as [|[k v] kvs]; [congruence|]. assert (HI : mget (withs_of ((k, v) :: kvs)) k = Some v) by (apply withs_in; [auto|now left]).
    rewrite E in HI. discriminate.
Qed.
Lemma ClausesSay_items ps ms ph fl : ClausesSay ps ms ph fl ->
  exists rcs, GClauses (items_of ps) rcs /\ Forall2 ClauseAgrees rcs ms /\ needs_clauses rcs = ph /\ Forall (fun rc => clause_files rc fl) rcs /\
    Forall2 (fun rc m => snd m <> [] -> rc_withs rc <> []) rcs ms.
Proof.
  induction 1 as [ps m ph fl H|ps m ph fl eol ps' ms ph' fl' H He _ IH]; destruct (ClauseSays_items _ _ _ _ H) as (rc & HG & HA & HN & HF & HW).
  - exists [rc]. split; [now constructor|]. split; [auto|]. split; [|split; auto].
    unfold needs_clauses. cbn [map fold_right]. rewrite HN. unfold pmax, pltb. destruct ph; reflexivity.
  - destruct IH as (rcs & HG' & HA' & HN' & HF' & HW'). exists (rc :: rcs). split.
    { rewrite items_app. cbn [items_of map]. change (map item_of (eol ++ ps')) with (items_of (eol ++ ps')). rewrite items_app.
      apply (GCs_more _ _ (item_of (PcPunct ";")) (items_of eol)); auto.
      destruct He as [<-|[<-|[]]]; [left; reflexivity|right; eexists; split; reflexivity]. }
    split; [auto|]. split; [|split; [|auto]].
    + unfold needs_clauses in *. cbn [map fold_right]. rewrite HN, HN'. reflexivity.
    + constructor; [intros F f Hc; apply in_or_app; left; eapply HF; exact Hc|]. eapply Forall_impl; [|exact HF']. intros x Hx F f Hc. apply in_or_app. right. eapply Hx; exact Hc.
Qed.

(** a rule, read *)
Definition Agrees (r : rule) (m : meaning) : Prop :=
  r_result r = m_action m /\ r_requires r = m_needs m /\
  r_deferto r = match m_phase m with Some p => p | None => pAny end /\
  Forall2 ClauseAgrees (r_clauses r) (m_clauses m).
Definition rule_files (r : rule) (m : meaning) : Prop := Forall (fun rc => clause_files rc (m_files m)) (r_clauses r).

Lemma RuleSays_items ps m : RuleSays ps m -> exists r, GRule (items_of ps) r /\ Agrees r m /\ rule_files r m /\
  (forall p, m_phase m = Some p -> p <> pAny /\ pcode (m_needs m) <= pcode p) /\ m_action m <> aError.
Proof.
  assert (HA : forall a act, In (a, act) action_words -> action_of (i_typ (item_of (PcWord a))) = Some act /\ act <> aError).
  { intros a act H. repeat (destruct H as [H|H]; [injection H as <- <-; split; [reflexivity|discriminate]|]). destruct H. }
  assert (HP : forall w p, In (w, p) phase_words -> phase_of (i_typ (item_of (PcWord w))) = Some p /\ p <> pAny).
  { intros w p H. repeat (destruct H as [H|H]; [injection H as <- <-; split; [reflexivity|discriminate]|]). destruct H. }
  assert (HW : forall act (cs : list ((facts -> Prop) * list (bytes * bytes))) rcs, Forall2 (fun rc m => snd m <> [] -> rc_withs rc <> []) rcs cs ->
    (act = aNoresult -> Forall (fun c => snd c <> []) cs) -> act = aNoresult -> forall c, In c rcs -> rc_withs c <> []).
  { intros act cs rcs H2 H Ha. specialize (H Ha). clear -H H2. induction H2 as [|rc m rcs cs Hx _ IH]; intros c []; inversion H; subst; auto. }
  intros [a act ps' cs ph fl H1 H2 H3|w p a act ps' cs ph fl H0 H1 H2 H3 H4];
    destruct (ClausesSay_items _ _ _ _ H2) as (rcs & HG & HC & HN & HF & HS); destruct (HA a act H1) as (Ha & Hae).
  - exists (mkRule rcs act (needs_clauses rcs) pAny). split.
    { apply (GR [] pAny (item_of (PcWord a)) act (items_of ps') rcs); auto; [constructor|eapply HW; eauto|congruence]. }
    split; [split; [reflexivity|]; split; [exact HN|]; split; [reflexivity|exact HC]|]. split; [exact HF|]. split; [discriminate|exact Hae].
  - exists (mkRule rcs act (needs_clauses rcs) p). destruct (HP w p H0) as (Hp & Hp2). split.
    { apply (GR [item_of (PcWord w)] p (item_of (PcWord a)) act (items_of ps') rcs); auto; [now constructor|eapply HW; eauto|].
      intros _. rewrite HN. exact H4. }
    split; [split; [reflexivity|]; split; [exact HN|]; split; [reflexivity|exact HC]|]. split; [exact HF|].
    split; [|exact Hae]. cbn [m_phase m_needs]. intros p' [= <-]. auto.
Qed.

Definition RuleOK (r : rule) (m : meaning) : Prop := Agrees r m /\ rule_files r m /\
  (forall p, m_phase m = Some p -> p <> pAny /\ pcode (m_needs m) <= pcode p) /\ m_action m <> aError.
Lemma FileSays_items ps ms incl t eof : FileSays ps ms -> i_typ eof = itemEOF -> exists rs, GFile incl t (items_of ps ++ [eof]) rs t /\ Forall2 RuleOK rs ms.
Proof.
  intros H He. induction H as [|ps m H|ps m ps' ms H _ IH].
  - exists []. split; [now constructor|constructor].
  - destruct (RuleSays_items _ _ H) as (r & HG & HA). exists [r]. split; [now constructor|]. auto.
  - destruct (RuleSays_items _ _ H) as (r & HG & HA). destruct IH as (rs & HG' & HA'). exists (r :: rs). split; [|auto].
    rewrite items_app, <- app_assoc. cbn [items_of map app]. now constructor.
Qed.

Lemma FileSays_parse fds fs src ps ms : wf_source SOL src [] -> pieces src = ps -> FileSays ps ms ->
  exists rs, parse fds fs (render src) = PRules rs /\ Forall2 RuleOK rs ms.
Proof.
  intros Hw <- HS. destruct (FileSays_items _ _ (Loads fds fs) 0 (mkItem itemEOF [] 0) HS eq_refl) as (rs & HG & HA).
  exists rs. split; [|exact HA]. apply C06_parser_is_grammar. exists 0. eapply GFile_strip; [|exact HG].
  rewrite strip_tokens, strip_app, items_strip by auto. reflexivity.
Qed.

(** ** C76 *)

(** A file is read as rules that mean what the text says. *)
Theorem C76_rules_mean_what_the_text_says fds fs src ps ms : wf_source SOL src [] -> pieces src = ps -> FileSays ps ms ->
  exists rs, parse fds fs (render src) = PRules rs /\ Forall2 Agrees rs ms.
Proof.
  intros Hw Hp HS. destruct (FileSays_parse fds fs _ _ _ Hw Hp HS) as (rs & H1 & H2). exists rs. split; auto.
  clear -H2. induction H2 as [|r m rs ms (HA & _) _ IH]; constructor; auto.
Qed.

Lemma RuleOK_eligible r m ph : RuleOK r m -> (eligible ph r <-> in_time ph m).
Proof.
  intros ((_ & E1 & E2 & _) & _ & HP & _). unfold eligible, in_time. rewrite E1, E2. destruct (m_phase m) as [p|].
  - destruct (HP p eq_refl) as (H1 & H2). split; [intros (_ & [H|H]); [contradiction|auto]|intros <-; auto].
  - split; [intros [H _]; auto|auto].
Qed.
Lemma RuleOK_recipients r m ph : RuleOK r m -> (per_recipient ph r <-> about_recipients ph m = true).
Proof.
  intros ((_ & E1 & _) & _). unfold per_recipient, about_recipients. rewrite E1.
  destruct ph; cbn [pcode]; try (split; [intros [H _]; lia|discriminate]); destruct (m_needs m); cbn [pcode]; split; try discriminate; try lia; auto.
Qed.

(** no clause uses an empty file *)
Definition no_miss (F : facts) (r : rule) : Prop := forall rc, In rc (r_clauses r) -> ~ misses F (rc_expr rc).
Lemma no_fire F cs : (forall rc, In rc cs -> ~ misses F (rc_expr rc)) -> (forall rc, ~ Fires F cs rc) -> Forall (fun rc => ~ truth F (rc_expr rc)) cs.
Proof.
  intros HM HN.
  assert (K : forall done todo, cs = done ++ todo -> Forall (passed F) done -> Forall (fun rc => ~ truth F (rc_expr rc)) todo).
  { intros done todo. revert done. induction todo as [|x todo IH]; intros done E Hd; [constructor|].
    assert (Hx : ~ misses F (rc_expr x)) by (apply HM; rewrite E; apply in_elt).
    assert (Ht : ~ truth F (rc_expr x)). { intros Ht. apply (HN x). exists done, todo. auto. }
    constructor; auto. apply (IH (done ++ [x])); [now rewrite <- app_assoc|]. apply Forall_app. split; auto. constructor; [split; auto|constructor]. }
  apply (K [] cs); auto.
Qed.
Lemma not_true F rcs (ms : list ((facts -> Prop) * list (bytes * bytes))) : known F -> Forall2 ClauseAgrees rcs ms -> Forall (fun rc => ~ truth F (rc_expr rc)) rcs -> Forall (fun x => ~ fst x F) ms.
Proof.
  intros HF H2 H. induction H2 as [|rc m rcs ms (HA & _) _ IH]; inversion H; subst; constructor; auto. rewrite <- (HA F HF). auto.
Qed.
Lemma Fires_first F r m rc : known F -> RuleOK r m -> Fires F (r_clauses r) rc -> exists c, ClauseAgrees rc c /\ first_clause F m c.
Proof.
  intros HF ((_ & _ & _ & HC) & _) (pre & post & E & Hp & Ht & _). rewrite E in HC.
  apply Forall2_app_inv_l in HC as (pre' & l' & H1 & H2 & E'). inversion H2 as [|? c ? post' HA H3]; subst.
  exists c. split; auto. exists pre', post'. split; auto. split.
  - eapply not_true; eauto. eapply Forall_impl; [|exact Hp]. intros x [Hx _]. exact Hx.
  - apply (proj1 HA F HF). exact Ht.
Qed.

Lemma Matches_used F ph r m rc : known F -> RuleOK r m -> (forall a, no_miss (with_rcpt F a) r) -> eligible ph r -> Matches F ph r rc ->
  exists c, ClauseAgrees rc c /\ RuleUsed F ph m c.
Proof.
  intros HF HR HM He HMt. pose proof (RuleOK_recipients r m ph HR) as HP. apply (RuleOK_eligible r m ph HR) in He.
  destruct HMt as [(Hn & Hf)|(Hp & pre & a & post & E & Hpre & Hf)].
  - destruct (Fires_first F r m rc HF HR Hf) as (c & HA & Hc). exists c. split; auto. split; auto.
    destruct (about_recipients ph m); [exfalso; apply Hn; now apply HP|exact Hc].
  - destruct (Fires_first (with_rcpt F a) r m rc HF HR Hf) as (c & HA & Hc). exists c. split; auto. split; auto.
    apply HP in Hp. rewrite Hp. exists pre, a, post. split; auto. split; auto.
    eapply Forall_impl; [|exact Hpre]. intros x (Hx & _). eapply (not_true (with_rcpt F x) (r_clauses r)); [exact HF|apply HR|].
    apply no_fire; auto. apply HM.
Qed.
Lemma not_Matches_unused F ph r m : known F -> RuleOK r m -> no_miss F r -> (forall a, no_miss (with_rcpt F a) r) ->
  (eligible ph r -> forall rc, ~ Matches F ph r rc) -> RuleUnused F ph m.
Proof.
  intros HF HR HM0 HM H He. apply (RuleOK_eligible r m ph HR) in He. specialize (H He). pose proof (RuleOK_recipients r m ph HR) as HP.
  destruct (about_recipients ph m).
  - assert (Hp : per_recipient ph r) by now apply HP.
    assert (K : forall done todo, t_rcptto (f_trans F) = done ++ todo ->
      Forall (fun x => (forall rc', ~ Fires (with_rcpt F x) (r_clauses r) rc') /\ ~ GivenUp (with_rcpt F x) (r_clauses r)) done ->
      Forall (fun x => forall rc', ~ Fires (with_rcpt F x) (r_clauses r) rc') todo).
    { intros done todo. revert done. induction todo as [|x todo IH]; intros done E Hd; [constructor|].
      assert (Hx : forall rc', ~ Fires (with_rcpt F x) (r_clauses r) rc').
      { intros rc' Hf. apply (H rc'). right. split; auto. exists done, x, todo. auto. }
      constructor; auto. apply (IH (done ++ [x])); [now rewrite <- app_assoc|]. apply Forall_app. split; auto. constructor; [|constructor]. split; auto.
      intros (pre & rc & post & E' & _ & Hm). eapply (HM x rc); [|exact Hm]. rewrite E'. apply in_elt. }
    specialize (K [] _ eq_refl (Forall_nil _)). eapply Forall_impl; [|exact K]. intros x Hx.
    eapply (not_true (with_rcpt F x) (r_clauses r)); [exact HF|apply HR|]. apply no_fire; auto. apply HM.
  - eapply (not_true F (r_clauses r)); [exact HF|apply HR|]. apply no_fire; auto.
    intros rc Hf. apply (H rc). left. split; auto. intros Hp. apply HP in Hp. discriminate.
Qed.

(** the options of clauses, joined *)
Lemma last_given_cons (a os : list (bytes * bytes)) k v : last_given (a ++ os) k v <-> last_given os k v \/ ((forall v', ~ In (k, v') os) /\ last_given a k v).
Proof.
  split.
  - intros (pre & post & E & Hp). apply app_eq_app in E as (l & [(E1 & E2)|(E1 & E2)]).
    + destruct l as [|x l].
      * cbn [app] in E2. left. exists [], post. split; [symmetry; exact E2|exact Hp].
      * injection E2 as <- ->. right. split; [intros v' H; apply (Hp v'); apply in_or_app; auto|].
        exists pre, l. split; auto. intros v' H. apply (Hp v'). apply in_or_app. auto.
    + left. exists l, post. auto.
  - intros [(pre & post & -> & Hp)|(Hn & pre & post & -> & Hp)].
    + exists (a ++ pre), post. split; [now rewrite <- app_assoc|auto].
    + exists pre, (post ++ os). split; [now rewrite <- app_assoc|]. intros v' H. apply in_app_or in H as [H|H]; [eapply Hp|eapply Hn]; exact H.
Qed.
Lemma last_given_ex (os : list (bytes * bytes)) k v : In (k, v) os -> exists v', last_given os k v'.
Proof.
  revert v. induction os as [|[k0 v0] os IH]; intros v; [intros []|]. intros H.
  assert (HD : (exists v', In (k, v') os) \/ (forall v', ~ In (k, v') os)).
  { clear. induction os as [|[k1 v1] os IH]; [right; intros v' []|]. destruct IH as [(v' & H)|H]; [left; exists v'; right; exact H|].
    destruct (beqb_spec k k1) as [->|Hn]; [left; exists v1; left; reflexivity|]. right. intros v' [E|E]; [injection E as -> ->; congruence|]. eapply H; exact E. }
  destruct HD as [(v' & H')|H'].
  - destruct (IH v' H') as (v2 & pre & post & -> & Hp). exists v2, ((k0, v0) :: pre), post. auto.
  - destruct H as [E|H]; [injection E as -> ->|exfalso; eapply H'; exact H]. exists v, [], os. auto.
Qed.
Lemma agrees_given rc c k v : ClauseAgrees rc c -> (last_given (snd c) k v <-> mget (rc_withs rc) k = Some v).
Proof.
  intros (_ & HW). split.
  - intros (pre & post & E & _). apply HW. rewrite E. apply in_elt.
  - intros H. apply HW in H. destruct (last_given_ex _ _ _ H) as (v' & HL). assert (v' = v) as <-; [|exact HL].
    destruct HL as (pre & post & E & _). assert (HI : In (k, v') (snd c)) by (rewrite E; apply in_elt). apply HW in H, HI. congruence.
Qed.
Lemma agrees_none rc c k : ClauseAgrees rc c -> (mget (rc_withs rc) k = None <-> forall v, ~ In (k, v) (snd c)).
Proof.
  intros (_ & HW). split.
  - intros E v H. apply HW in H. congruence.
  - intros H. destruct (mget (rc_withs rc) k) as [v|] eqn:E; auto. exfalso. apply HW in E. eapply H; exact E.
Qed.
Lemma Setting_cons w ws k v : Setting (w :: ws) k v <-> Setting ws k v \/ (Forall (fun w' => mget w' k = None) ws /\ mget w k = Some v).
Proof.
  split.
  - intros ([|y p] & x & q & E & A1 & A2); injection E as -> ->; [right; auto|]. left. exists p, x, q. auto.
  - intros [(p & x & q & -> & A)|[A1 A2]]; [exists (w :: p), x, q; auto|exists [], w, ws; auto].
Qed.

Lemma Run_gives F ph rs a ws : Run F ph rs a ws -> known F ->
  (forall r, In r rs -> no_miss F r /\ forall x, no_miss (with_rcpt F x) r) -> forall ms, Forall2 RuleOK rs ms ->
  exists os, Gives F ph ms a os /\ (forall k v, Setting ws k v <-> last_given os k v) /\
    (forall k, Forall (fun w => mget w k = None) ws <-> forall v, ~ In (k, v) os).
Proof.
  assert (HNil : forall k v, Setting [] k v <-> last_given [] k v).
  { intros k v. split; [intros (p & w & q & E & _)|intros (p & q & E & _)]; destruct p; discriminate. }
  assert (HNN : forall k, Forall (fun w : smap bytes => mget w k = None) [] <-> forall v : bytes, ~ In (k, v) []).
  { intros k. split; auto. }
  intros HRun HF. induction HRun as [|r rs a ws H _ IH|r rc rs a ws He Hm Hd _ IH|r rc rs He Hm Hd]; intros HM ms H2; inversion H2 as [|? m ? ms' HR H2']; subst.
  - exists []. split; [constructor|auto].
  - destruct (IH (fun r' Hr' => HM r' (or_intror Hr')) ms' H2') as (os & HG & HS & HN). exists os. split; auto.
    destruct (HM r (or_introl eq_refl)) as (HM0 & HM1). constructor; auto. eapply not_Matches_unused; eauto.
  - destruct (IH (fun r' Hr' => HM r' (or_intror Hr')) ms' H2') as (os & HG & HS & HN).
    destruct (HM r (or_introl eq_refl)) as (HM0 & HM1). destruct (Matches_used F ph r m rc HF HR HM1 He Hm) as (c & HA & HU).
    exists (snd c ++ os). split; [|split].
    + apply Gv_set; auto. destruct HR as ((E & _) & _ & _ & Hae). unfold decides in Hd. rewrite E in Hd. destruct (m_action m); auto; try congruence; exfalso; apply Hd; cbn; auto.
    + intros k v. rewrite Setting_cons, last_given_cons, HS, HN, (agrees_given rc c k v HA). reflexivity.
    + intros k. split.
      * intros HX v Hv. inversion HX; subst. apply in_app_or in Hv as [Hv|Hv]; [eapply (proj1 (agrees_none rc c k HA)); eauto|eapply (proj1 (HN k)); eauto].
      * intros HX. constructor; [apply (agrees_none rc c k HA); intros v Hv; apply (HX v); apply in_or_app; auto|]. apply HN. intros v Hv. apply (HX v). apply in_or_app. auto.
  - destruct (HM r (or_introl eq_refl)) as (HM0 & HM1). destruct (Matches_used F ph r m rc HF HR HM1 He Hm) as (c & HA & HU).
    exists (snd c). destruct HR as ((E & _) & _ & _ & Hae). split; [|split].
    + rewrite E. apply Gv_decide; auto. unfold decides in Hd. rewrite E in Hd. intros Ea. rewrite Ea in Hd. destruct Hd as [Hd|[Hd|[Hd|[]]]]; discriminate.
    + intros k v. rewrite Setting_cons, (agrees_given rc c k v HA). split; [intros [HX|[_ HX]]; [exfalso|exact HX]|auto].
      destruct HX as (p & w & q & E' & _). destruct p; discriminate.
    + intros k. rewrite <- (agrees_none rc c k HA). split; [intros HX; now inversion HX|auto].
Qed.

(** The decision on a command, and its options, are what the text of the rules
    gives. *)
Theorem C76_text_decides W fds fs src ps ms rs tr0 h c fv later d earlier :
  wf_source SOL src [] -> pieces src = ps -> FileSays ps ms -> parse fds fs (render src) = PRules rs ->
  fair_order W -> session W rs tr0 h c -> Saw W tr0 (c_trace c) fv ->
  h = later ++ d :: earlier -> Forall (fun x => ~ null_sender x) (d :: earlier) ->
  t_rip (d_trans d) <> [] -> t_lip (d_trans d) <> [] ->
  (forall m f, In m ms -> In f (m_files m) -> v_file fv f <> []) ->
  exists os, Gives (situation W fv (d :: earlier)) (d_phase d) ms (d_result d) os /\
    forall k v, mget (d_withs d) k = Some v <-> last_given os k v.
Proof.
  intros Hw Hp HS HPr HW Hs Hf E Hn Hr Hl Hfl. destruct (FileSays_parse fds fs _ _ _ Hw Hp HS) as (rs' & HPr' & H2).
  assert (rs' = rs) as ->. { rewrite HPr in HPr'. now injection HPr'. }
  assert (HR : Forall from_file rs). { apply Forall_forall. intros r Hr0. exists fds, fs, (render src), rs. auto. }
  generalize dependent (parse fds fs (render src)). intros _ _ _.
  destruct (session_sound W rs tr0 h c fv later d earlier HW HR Hs Hf E) as (ws & HO & HWs).
  assert (Hb : by_rules W fv rs d earlier).
  { inversion Hn as [|? ? Hd Hes]; subst. apply by_rules_simple; auto. intros l d0 bf -> _. apply Forall_app in Hes as [_ Hes]. now inversion Hes. }
  pose proof (by_rules_run _ _ _ _ _ _ _ Hb HO) as HRun.
  destruct (Run_gives _ _ _ _ _ HRun) with (ms := ms) as (os & HG & HSt & _); auto.
  - split; assumption.
  - intros r Hr0. assert (HM : forall F, f_view F = fv -> no_miss F r).
    { intros F HF rc Hrc (f & Hc & Hv). rewrite HF in Hv.
      assert (exists m, In m ms /\ RuleOK r m) as (m & Hm & HOK).
      { clear -H2 Hr0. induction H2 as [|x y rs ms HOK _ IH]; [destruct Hr0|]. destruct Hr0 as [->|Hr0]; [exists y; split; [now left|auto]|].
        destruct (IH Hr0) as (m & Hm & Hx). exists m. split; [now right|auto]. }
      destruct HOK as (_ & HFl & _). unfold rule_files in HFl. rewrite Forall_forall in HFl. eapply Hfl; [exact Hm|eapply (HFl rc Hrc F f Hc)|exact Hv]. }
    split; [apply HM; reflexivity|]. intros x. apply HM. reflexivity.
  - exists os. split; auto. intros k v. rewrite HWs. apply HSt.
Qed.

(** set-with helo-has nodots,bogus or dbl helo,host bl.example with note seen
    reject (from /l from-has bad,baddom) with message "no"; to bob@
    @data accept all *)
Definition w (x : string) : piece := PcWord (B x).
Definition demo_pieces : list piece :=
  [w "set-with"; w "helo-has"; w "nodots"; PcComma; w "bogus"; w "or"; w "dbl"; w "helo"; PcComma; w "host"; w "bl.example"; w "with"; w "note"; w "seen"; PcEOL;
   w "reject"; PcPunct "("; w "from"; w "/l"; w "from-has"; w "bad"; PcComma; w "baddom"; PcPunct ")"; w "with"; w "message"; PcQuoted (B "no") (B "no"); PcPunct ";"; w "to"; w "bob@"; PcEOL;
   w "@data"; w "accept"; w "all"; PcEOL].
Fixpoint spaced (ps : list piece) : source :=
  match ps with
  | [] => []
  | p :: ps' => Pc p :: match p, ps' with PcComma, _ | PcEOL, _ | _, PcComma :: _ | _, PcEOL :: _ => [] | _, _ => [Lay LSpace] end ++ spaced ps'
  end.
Definition demo_source : source := spaced demo_pieces.
Definition demo_meaning : list meaning :=
  [mkMeaning None aNoresult pHelo
     [(fun F => one_of (helo_meaning F) [B "nodots"; B "bogus"] \/
        exists x n, In x [B "helo"; B "host"] /\ DblSays F x n /\ Resolves F (n ++ B "." ++ B "bl.example."), [(B "note", B "seen")])] [];
   mkMeaning None aReject pRto
     [(fun F => (exists pat, IsPattern F (B "/l") pat /\ AddrMatches (to_lower (f_uni F) (f_from F)) pat) /\
                (f_from F <> [] /\ one_of (addr_meaning F (f_from F)) [B "bad"; B "baddom"]), [(B "message", B "no")]);
      (fun F => exists pat, IsPattern F (B "bob@") pat /\ AddrMatches (to_lower (f_uni F) (f_rcpt F)) pat, [])] [B "/l"];
   mkMeaning (Some pData) aAccept pAny [(fun _ => True, [])] []].

Lemma demo_says : FileSays demo_pieces demo_meaning.
Proof.
  apply (Fs_more [w "set-with"; w "helo-has"; w "nodots"; PcComma; w "bogus"; w "or"; w "dbl"; w "helo"; PcComma; w "host"; w "bl.example"; w "with"; w "note"; w "seen"]).
  { apply Rs_any; [cbn; auto 6| |intros _; repeat constructor; discriminate].
    apply Cs_one. apply (Cs_with [w "helo-has"; w "nodots"; PcComma; w "bogus"; w "or"; w "dbl"; w "helo"; PcComma; w "host"; w "bl.example"]);
      [|apply Op_one; apply Op_note; [constructor; discriminate|cbn; intuition discriminate]|repeat constructor; intros []].
    apply Ss_one. apply (Os_or [w "helo-has"; w "nodots"; PcComma; w "bogus"] _ pHelo [] _ _ pHelo []).
    - apply Ts_helo_has; [repeat constructor|repeat apply Forall_cons; try apply Forall_nil; cbn; auto 12].
    - apply Os_one. apply (Ts_dbl [B "helo"; B "host"] [w "helo"; PcComma; w "host"] (w "bl.example") (B "bl.example.")).
      + repeat constructor.
      + repeat apply Forall_cons; try apply Forall_nil; cbn; auto 6.
      + apply (Do_nodot _ (B "bl.example")); [constructor; discriminate|intros f H; inversion H|cbn; auto 4|].
        intros u E. assert (EL : last_byte (B "bl.example") = last_byte (u ++ B ".")) by now rewrite E. change (B ".") with ["."%char] in EL. rewrite last_byte_app in EL. discriminate.
      + right. left. split; auto. split; [cbn; intuition discriminate|cbn; auto]. }
  apply (Fs_more [w "reject"; PcPunct "("; w "from"; w "/l"; w "from-has"; w "bad"; PcComma; w "baddom"; PcPunct ")"; w "with"; w "message"; PcQuoted (B "no") (B "no"); PcPunct ";"; w "to"; w "bob@"]).
  { apply Rs_any; [cbn; auto 6| |discriminate].
    apply (Cs_more [PcPunct "("; w "from"; w "/l"; w "from-has"; w "bad"; PcComma; w "baddom"; PcPunct ")"; w "with"; w "message"; PcQuoted (B "no") (B "no")] _ pMfrom [B "/l"] [] _ _ pRto []).
    - apply (Cs_with [PcPunct "("; w "from"; w "/l"; w "from-has"; w "bad"; PcComma; w "baddom"; PcPunct ")"]);
      [|apply Op_one; apply Op_message; constructor|repeat constructor; intros []].
      apply Ss_one, Os_one. apply (Ts_paren [w "from"; w "/l"; w "from-has"; w "bad"; PcComma; w "baddom"]).
      apply (Ss_more [w "from"; w "/l"] _ pMfrom [B "/l"] _ _ pMfrom []).
      + apply Os_one, Ts_from; [constructor; discriminate|]. intros f H. inversion H; subst. now left.
      + apply Ss_one, Os_one, Ts_from_has; [repeat constructor|repeat apply Forall_cons; try apply Forall_nil; cbn; auto 12].
    - now left.
    - apply Cs_one, Cs_plain, Ss_one, Os_one, Ts_to; [constructor; discriminate|]. intros f H. inversion H. }
  apply (Fs_more [w "@data"; w "accept"; w "all"] _ [] []); [|constructor].
  apply Rs_phase; [cbn; auto 8|cbn; auto 6| |discriminate|cbn; lia]. apply Cs_one, Cs_plain, Ss_one, Os_one, Ts_all.
Qed.

Example C76_example : wf_source SOL demo_source [] /\ pieces demo_source = demo_pieces /\ FileSays demo_pieces demo_meaning /\
  render demo_source = B "set-with helo-has nodots,bogus or dbl helo,host bl.example with note seen
reject ( from /l from-has bad,baddom ) with message ""no"" ; to bob@
@data accept all
" /\
  exists rs c d1 d2 d3 fv, parse 4 nofiles (render demo_source) = PRules rs /\
    session demo_world rs [] [d1; d2; d3] c /\ fair_order demo_world /\ Saw demo_world [] (c_trace c) fv /\
    Forall (fun x => ~ null_sender x) [d1; d2; d3] /\ t_rip (d_trans d1) <> [] /\ t_lip (d_trans d1) <> [] /\
    (forall m f, In m demo_meaning -> In f (m_files m) -> v_file fv f <> []) /\
    d_result d1 = aReject /\ d_withs d1 = [(B "note", B "seen"); (B "message", B "no")].
Proof.
  split; [cbn; repeat (first [reflexivity | discriminate | (split; [|]) | (intros [? _]; discriminate) | (intros ?; discriminate) | exact Logic.I])|].
  split; [vm_compute; reflexivity|]. split; [apply demo_says|]. split; [vm_compute; reflexivity|].
  set (T := demo_trans).
  set (rs := text_rules (render demo_source)).
  assert (HP : parse 4 nofiles (render demo_source) = PRules rs) by (vm_compute; reflexivity).
  assert (HE : exists h c, run_session demo_world rs [(T, pHelo, mkEvt (Some EHLO) (B "fred")); (T, pMfrom, mkEvt None (B "x@evil.org")); (T, pRto, mkEvt None (B "al@x.org"))] [] (newContext []) = Some (h, c)).
  { do 2 eexists. vm_compute. reflexivity. }
  destruct HE as (h & c & E). assert (Hs := run_session_start _ _ _ _ _ _ E).
  assert (HS := static_Saw demo_world demo_static [] c (connection_session _ _ _ _ _ Hs)).
  revert Hs HS. vm_compute in E. injection E as <- <-. intros Hs HS.
  exists rs. do 4 eexists. eexists. split; [exact HP|]. split; [exact Hs|]. split; [apply demo_static|]. split; [exact HS|].
  split; [repeat constructor; intros [_ H]; discriminate|]. split; [discriminate|]. split; [discriminate|].
  split; [|split; reflexivity]. intros m f [<-|[<-|[<-|[]]]] Hf; [destruct Hf|destruct Hf as [<-|[]]; cbn; discriminate|destruct Hf].
Qed.
