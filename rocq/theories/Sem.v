(** What rule expressions mean, without evaluation order, caches or effects;
    and the elementary steps an evaluation consists of. *)
From Coq Require Import Relations Permutation.
From Verif Require Import Bytes Outcome Lexer Ast GoNet World Dns Eval PropsMatch PropsAttr.

(** ** Meaning *)

(** What the outside world has for a connection: the entries of each pattern
    file, the verdict on each mail domain (C30), and which names exist in
    blocklists. *)
Record view := mkView {
  v_file : bytes -> list bytes;
  v_domain : bytes -> dnsresult;
  v_listed : bytes -> Prop
}.

(** The situation a rule is looked at in: the outside world and the
    transaction. *)
Record facts := mkFacts {
  f_uni : unicode;
  f_view : view;
  f_trans : trans;
  f_cmd : option helocmd;
  f_helo : bytes;
  f_from : bytes;
  f_rcpt : bytes
}.

(** the argument names a file of patterns *)
Inductive FileArg : bytes -> bytes -> Prop :=
| FA_slash x : FileArg (B "/" ++ x) (B "/" ++ x)
| FA_dot x : FileArg (B "./" ++ x) (B "./" ++ x)
| FA_file f : FileArg (B "file:" ++ f) f.

(** [p] is one of the patterns an argument stands for *)
Definition IsPattern (F : facts) (a p : bytes) : Prop :=
  (exists f, FileArg a f /\ In p (v_file (f_view F) f)) \/ ((forall f, ~ FileArg a f) /\ p = to_lower (f_uni F) a).

(** an IP address given as text matches an address or a block *)
Definition IpMatches (rip pat : bytes) : Prop :=
  (exists x, parse_ip rip = Some x /\
     (parse_ip pat = Some x \/ exists base len, CidrText pat base len /\ InBlock x base len)) \/
  (parse_ip rip = None /\ parse_ip pat = None).

(** what a kind of match term looks at, and how *)
Definition subjects (F : facts) (k : mkind) : list bytes :=
  match k with
  | MHelo => [f_helo F]
  | MHost => rd_verified (t_rdns (f_trans F))
  | MFrom => [f_from F]
  | MTo => [f_rcpt F]
  | MIp => [t_rip (f_trans F)]
  end.
Definition Fits (F : facts) (k : mkind) (x p : bytes) : Prop :=
  match k with
  | MHelo | MHost => HostMatches (to_lower (f_uni F) x) p
  | MFrom | MTo => AddrMatches (to_lower (f_uni F) x) p
  | MIp => IpMatches x p
  end.

(** a name exists in the DNS *)
Definition Resolves (F : facts) (n : bytes) : Prop := v_listed (f_view F) n.

(** what the DNS says about a mail domain (see C30) *)
Definition domain_verdict (F : facts) (d : bytes) : dnsresult := v_domain (f_view F) d.

(** the names that "dbl SRC" checks *)
Inductive DblName (F : facts) (src : opt) : bytes -> Prop :=
| DN_helo : ohas src (N.lor oEhlo oHelo) = true -> f_helo F <> [] -> DblName F src (f_helo F)
| DN_host n c : ohas_all src oHost = true ->
    In (n ++ [c]) (rd_verified (t_rdns (f_trans F)) ++ rd_nofwd (t_rdns (f_trans F)) ++ rd_inconsist (t_rdns (f_trans F))) ->
    DblName F src n
| DN_from l d : ohas_all src oFrom = true -> f_from F = l ++ B "@" ++ d -> ~ In ch_at l ->
    ~ flawed (f_from F) -> domain_verdict F d <> dnsUndef -> DblName F src d.

(** the attributes of an address *)
Definition addr_attrs (F : facts) (a : bytes) : opt :=
  match a with
  | [] => oZero
  | _ =>
      let (o, idx) := addrText a in
      if N.eqb (N.land o (N.lor (N.lor oNoat oUnqualified) (N.lor oGarbage oRoute))) 0 then
        match domain_verdict F (match idx with Some i => skipn (S i) a | None => a end) with
        | dnsGood => N.lor o oDomainValid
        | dnsBad => N.lor o oDomainInvalid
        | dnsTempfail => N.lor o oDomainTempfail
        | dnsUndef => o
        end
      else o
  end.
Definition attrs (F : facts) (k : okind) : opt :=
  match k with
  | ODns => dnsGetter (f_trans F)
  | OHelo => heloGetter (f_trans F) (f_cmd F) (f_helo F)
  | OFromHas => addr_attrs F (f_from F)
  | OToHas => addr_attrs F (f_rcpt F)
  end.

Fixpoint truth (F : facts) (e : expr) : Prop :=
  match e with
  | EAnd l => (fix all l := match l with [] => True | x :: l' => truth F x /\ all l' end) l
  | ENot x => ~ truth F x
  | EOr a b => truth F a \/ truth F b
  | EAll => True
  | ETls on => t_tlson (f_trans F) = on
  | EDnsbl d => exists s0 s1 s2 s3, t_rip (f_trans F) = s0 ++ B "." ++ s1 ++ B "." ++ s2 ++ B "." ++ s3 /\
      Forall (fun s => ~ In ch_dot s) [s0; s1; s2; s3] /\
      Resolves F (s3 ++ B "." ++ s2 ++ B "." ++ s1 ++ B "." ++ s0 ++ B "." ++ d)
  | EMatch k a => exists p x, IsPattern F a p /\ In x (subjects F k) /\ Fits F k x p
  | ESource a => exists p, IsPattern F a p /\
      ((exists x, In x (subjects F MHost) /\ Fits F MHost x p) \/ Fits F MHelo (f_helo F) p \/
       Fits F MFrom (f_from F) (B "@" ++ p))
  | EDbl s d => exists n, DblName F s n /\ Resolves F (n ++ B "." ++ d)
  | EOpt k o => N.land o (attrs F k) <> 0%N
  end.

(** Which pattern files are consulted, left to right and stopping as soon as
    the value is known. *)
Fixpoint Consults (F : facts) (e : expr) (f : bytes) : Prop :=
  match e with
  | EAnd l => (fix go l := match l with [] => False | x :: l' => Consults F x f \/ (truth F x /\ go l') end) l
  | ENot x => Consults F x f
  | EOr a b => Consults F a f \/ (~ truth F a /\ Consults F b f)
  | EMatch _ a | ESource a => FileArg a f
  | EAll | ETls _ | EDnsbl _ | EDbl _ _ | EOpt _ _ => False
  end.

(** a file without entries (or missing, or unreadable) is consulted *)
Definition misses (F : facts) (e : expr) : Prop := exists f, Consults F e f /\ v_file (f_view F) f = [].

Lemma truth_and F l : truth F (EAnd l) <-> Forall (truth F) l.
Proof.
  induction l as [|x l IH]; [split; constructor|].
  change (truth F (EAnd (x :: l))) with (truth F x /\ truth F (EAnd l)). rewrite IH. split.
  - intros [H1 H2]. auto.
  - intros H. inversion H; auto.
Qed.

Lemma consults_and F l f : Consults F (EAnd l) f <->
  exists pre x post, l = pre ++ x :: post /\ Forall (truth F) pre /\ Consults F x f.
Proof.
  induction l as [|x l IH].
  - split; [intros []|]. intros (pre & y & post & E & _). destruct pre; discriminate.
  - change (Consults F (EAnd (x :: l)) f) with (Consults F x f \/ (truth F x /\ Consults F (EAnd l) f)).
    rewrite IH. split.
    + intros [H|(H & pre & y & post & -> & Hp & Hc)]; [exists [], x, l; auto|].
      exists (x :: pre), y, post. auto.
    + intros ([|z pre] & y & post & E & Hp & Hc); injection E as -> ->; [now left|].
      right. inversion Hp; subst. split; auto. exists pre, y, post. auto.
Qed.

(** ** Elementary steps *)

(** the entries of a pattern file, given what opening and reading it gives *)
Definition entries (U : unicode) (r : file_res) : list bytes :=
  match r with FRead content false => readList U content | _ => [] end.

(** the lookups for the validity of a mail domain, after that of its MX *)
Definition ip_call (k : call) : Prop := match k with XIp _ => True | _ => False end.

(** what is said about a domain that does not exist or cannot be looked up *)
Definition domain_failure (d : bytes) (e : option bytes) : bytes := B "domain " ++ d ++ B ": " ++ err_text e.
Definition fails (r : dnsresult * option bytes) : Prop := fst r = dnsBad \/ fst r = dnsTempfail.
(** what is noted after looking at a domain *)
Definition noted (d : bytes) (r : dnsresult * option bytes) (old : option bytes) : option bytes :=
  match fst r with dnsBad | dnsTempfail => Some (domain_failure d (snd r)) | _ => old end.
Lemma noted_fails d r old : fails r -> noted d r old = Some (domain_failure d (snd r)).
Proof. unfold noted. intros [-> | ->]; reflexivity. Qed.
Lemma noted_cases d r old : noted d r old = old \/ fails r /\ noted d r old = Some (domain_failure d (snd r)).
Proof. unfold noted, fails. destruct (fst r); auto. Qed.

Inductive step (W : world) : ctx -> ctx -> Prop :=
| St_failed n e c : mget (c_dnsbl c) n = None -> w_ip W (length (c_trace c)) n = inr e ->
    step W c (set_trace (XBl n :: c_trace c) c)
| St_read f c : f <> [] -> mget (c_files c) f = None ->
    step W c (set_files (mset (c_files c) f (entries (w_uni W) (w_file W (length (c_trace c)) f)))
                (set_trace (XFile f :: c_trace c) c))
| St_noname c : mget (c_files c) [] = None -> step W c (set_files (mset (c_files c) [] []) c)
| St_dnsbl n ips c : mget (c_dnsbl c) n = None -> w_ip W (length (c_trace c)) n = inl ips ->
    step W c (set_dnsbl (mset (c_dnsbl c) n (match ips with [] => false | _ => true end))
                (set_trace (XBl n :: c_trace c) c))
| St_hit p d c : mget (c_dnsbl c) (p ++ B "." ++ d) = Some true ->
    step W c (if bmem d (c_dnsblhit c) then c else set_dnsblhit (c_dnsblhit c ++ [d]) c)
| St_domain d r new c : mget (c_domvalid c) d = None -> ValidDomain W d (c_trace c) = (r, new ++ XMx (d ++ B ".") :: c_trace c) ->
    Forall ip_call new ->
    step W c (set_domerr (noted d r (c_domerr c)) (set_domvalid (mset (c_domvalid c) d r) (set_trace (new ++ XMx (d ++ B ".") :: c_trace c) c)))
| St_domerr d v c : mget (c_domvalid c) d = Some v -> step W c (set_domerr (noted d v (c_domerr c)) c)
| St_miss c : step W c (set_rulemiss true c).

Definition steps (W : world) : ctx -> ctx -> Prop := clos_refl_trans_1n ctx (step W).

Lemma steps_refl W c : steps W c c.
Proof. constructor. Qed.
Lemma steps_one W c c' : step W c c' -> steps W c c'.
Proof. intros H. eapply Relation_Operators.rt1n_trans; [exact H|constructor]. Qed.
Lemma steps_trans W a b c : steps W a b -> steps W b c -> steps W a c.
Proof.
  intros H1 H2. induction H1; auto. eapply Relation_Operators.rt1n_trans; eauto. apply IHclos_refl_trans_1n. auto.
Qed.

(** a computation made of steps *)
Definition runs {A} (W : world) (m : M A) : Prop := forall c a c', m c = Ok (a, c') -> steps W c c'.

Section Runs.
  Variable W : world.

  Lemma runs_ret {A} (a : A) : runs W (ret a).
  Proof. intros c x c' [= <- <-]. constructor. Qed.
  Lemma runs_get {A} (f : ctx -> A) : runs W (get f).
  Proof. intros c x c' [= <- <-]. constructor. Qed.
  Lemma runs_crash {A} : runs W (@crash A).
  Proof. intros c x c' H. discriminate. Qed.
  Lemma runs_lift {A} (o : outcome A) : runs W (lift o).
  Proof. intros c x c'. unfold lift. destruct o; intros H; try discriminate. injection H as <- <-. constructor. Qed.
  Lemma runs_bind {A B} (m : M A) (f : A -> M B) : runs W m -> (forall a, runs W (f a)) -> runs W (mbind m f).
  Proof.
    intros Hm Hf c x c'. unfold mbind. destruct (m c) as [[a c1]| |] eqn:E; intros H; try discriminate.
    eapply steps_trans; [eapply Hm; eauto|]. eapply Hf; eauto.
  Qed.
  Lemma runs_upd f : (forall c, step W c (f c)) -> runs W (upd f).
  Proof. intros Hf c x c' [= <- <-]. apply steps_one. auto. Qed.

  Hint Resolve runs_ret runs_get runs_crash runs_lift runs_bind : runs.

  Lemma runs_dnsbl hn : runs W (getDnsblRes W hn).
  Proof.
    intros c a c'. unfold getDnsblRes, mbind, get, ext, lookup_bl, ask. destruct (mget (c_dnsbl c) hn) as [r|] eqn:E.
    - intros [= <- <-]. constructor.
    - destruct (w_ip W (length (c_trace c)) hn) as [ips|e] eqn:Ei.
      + intros H. injection H as <- <-. apply steps_one. cbn [set_trace c_dnsbl]. apply St_dnsbl; auto.
      + intros H. injection H as <- <-. apply steps_one. eapply St_failed; eauto.
  Qed.
  Lemma getDnsblRes_true hn c c1 : getDnsblRes W hn c = Ok (true, c1) -> mget (c_dnsbl c1) hn = Some true.
  Proof.
    unfold getDnsblRes, mbind, get, ext, lookup_bl, ask, upd, ret. destruct (mget (c_dnsbl c) hn) as [r|] eqn:E.
    - intros [= -> <-]. exact E.
    - destruct (w_ip W (length (c_trace c)) hn) as [ips|e]; intros [= Hr <-]. rewrite Hr.
      cbn [set_dnsbl c_dnsbl]. apply mget_mset_same.
  Qed.
  Lemma addDnsblHit_step p d c u c' : mget (c_dnsbl c) (p ++ B "." ++ d) = Some true -> addDnsblHit d c = Ok (u, c') -> steps W c c'.
  Proof. intros H [= _ <-]. apply steps_one. apply (St_hit W p d c H). Qed.
  (** a lookup in a blocklist, and the hit *)
  Lemma runs_listed p d {A} (yes no : M A) : runs W yes -> runs W no ->
    runs W (dom res <- getDnsblRes W (p ++ B "." ++ d); if res : bool then dom _ <- addDnsblHit d; yes else no).
  Proof.
    intros Hy Hn c x c' H. unfold mbind at 1 in H. destruct (getDnsblRes W (p ++ B "." ++ d) c) as [[r c1]| |] eqn:Eg; try discriminate.
    pose proof (runs_dnsbl _ _ _ _ Eg) as Hs. eapply steps_trans; [exact Hs|].
    destruct r; [|eapply Hn; eauto].
    unfold mbind, addDnsblHit, upd in H. eapply steps_trans; [|eapply Hy; exact H]. apply steps_one. apply (St_hit W p d c1).
    eapply getDnsblRes_true; exact Eg.
  Qed.

  Lemma checkIP_trace n tr : exists v, checkIP W n tr = (v, XIp n :: tr).
  Proof. unfold checkIP, lookup_ip, ask, xbind, xret. eauto. Qed.
  Lemma checkMXs_trace d l : forall v e tr, exists r new, checkMXs W d l v e tr = (r, new ++ tr) /\ Forall ip_call new.
  Proof.
    induction l as [|m l IH]; intros v e tr; cbn [checkMXs]; [exists (v, e), []; split; auto|].
    destruct (_ && _); [eexists; exists []; split; [reflexivity|auto]|]. destruct (_ || _); [eexists; exists []; split; [reflexivity|auto]|].
    unfold xbind. destruct (checkIP_trace (mx_host m) tr) as (x & ->).
    destruct (dgtb (fst x) v); edestruct IH as (r & new & E & Hn); rewrite E; exists r, (new ++ [XIp (mx_host m)]);
      (split; [now rewrite <- app_assoc|]); apply Forall_app; repeat constructor; auto.
  Qed.
  Lemma ValidDomain_trace d tr : exists r new, ValidDomain W d tr = (r, new ++ XMx (d ++ B ".") :: tr) /\ Forall ip_call new.
  Proof.
    unfold ValidDomain, lookup_mx, ask, xbind. destruct (w_mx W (length tr) (d ++ B ".")) as [l|e].
    - apply checkMXs_trace.
    - destruct (isTemporary e).
      + eexists; exists []. split; [reflexivity|]. repeat constructor.
      + destruct (checkIP_trace (d ++ B ".") (XMx (d ++ B ".") :: tr)) as (v & ->).
        exists v, [XIp (d ++ B ".")]. split; auto. repeat constructor.
  Qed.

  (** looking at a domain, and noting a failure *)
  Lemma validDomain_noted d c v c' : validDomain W d c = Ok (v, c') -> steps W c (set_domerr (noted d v (c_domerr c')) c').
  Proof.
    unfold validDomain, mbind, get, ext. destruct (mget (c_domvalid c) d) as [r|] eqn:E.
    - intros [= <- <-]. apply steps_one. now apply St_domerr.
    - destruct (ValidDomain_trace d (c_trace c)) as (r & new & Ev & Hn). rewrite Ev. unfold upd, ret. intros H. injection H as <- <-.
      apply steps_one. cbn [set_trace c_domvalid set_domvalid c_domerr]. apply (St_domain W d r new c); auto.
  Qed.

  Lemma runs_matchlist a : runs W (getMatchList W a).
  Proof.
    unfold getMatchList. destruct a as [|c0 a]; [apply runs_crash|].
    destruct (if _ || _ then _ else _) as [f|]; [|apply runs_ret].
    intros c x c'. unfold mbind, get, ext. destruct (mget (c_files c) f) as [l|] eqn:E.
    - intros [= <- <-]. constructor.
    - unfold loadList. destruct f as [|f0 f].
      + unfold xret, upd, ret. intros H. injection H as <- <-. apply steps_one. cbn. apply (St_noname W c). auto.
      + unfold read_file, ask, xbind, xret, upd, ret. intros H. injection H as <- <-. apply steps_one.
        apply (St_read W (f0 :: f) c); [discriminate|auto].
  Qed.

  Hint Resolve runs_dnsbl runs_matchlist : runs.

  Lemma runs_addropts a : runs W (getAddrOpts W a).
  Proof.
    unfold getAddrOpts. destruct a as [|c0 a]; [apply runs_ret|]. destruct (addrText (c0 :: a)) as [o idx].
    destruct (N.eqb _ _); [|apply runs_ret]. set (d := match idx with Some i => _ | None => _ end).
    intros c x c' H. unfold mbind at 1 in H. destruct (validDomain W d c) as [[v c1]| |] eqn:Ev; try discriminate.
    apply validDomain_noted in Ev. replace c' with (set_domerr (noted d v (c_domerr c1)) c1); [exact Ev|].
    destruct v as [[] e]; unfold noted; cbn [fst snd] in *; unfold mbind, upd, ret in H; injection H as _ <-; try reflexivity; destruct c1; reflexivity.
  Qed.
  Lemma runs_matchEval a m g : runs W (matchEval W a m g).
  Proof.
    unfold matchEval. apply runs_bind; [apply runs_matchlist|]. intros [|p l].
    - apply runs_bind; [apply runs_upd; intros c; apply St_miss|intros; apply runs_ret].
    - apply runs_bind; [apply runs_get|intros; apply runs_lift].
  Qed.
  Lemma runs_evalDnsbl T d : runs W (evalDnsbl W T d).
  Proof.
    unfold evalDnsbl. destruct (t_rip T) as [|r0 r]; [apply runs_ret|].
    destruct (split_byte _ _) as [|s0 [|s1 [|s2 [|s3 [|]]]]]; try apply runs_ret.
    replace (s3 ++ B "." ++ s2 ++ B "." ++ s1 ++ B "." ++ s0 ++ B "." ++ d) with ((s3 ++ B "." ++ s2 ++ B "." ++ s1 ++ B "." ++ s0) ++ B "." ++ d)
      by (now rewrite <- !app_assoc).
    apply runs_listed; apply runs_ret.
  Qed.
  Lemma runs_dbl_loop d l : forall r, runs W (dbl_loop W d l r).
  Proof.
    induction l as [|s l IH]; intros r; cbn [dbl_loop]; [apply runs_ret|].
    apply runs_listed; apply IH.
  Qed.
  Lemma runs_evalDbl T s d : runs W (evalDbl W T s d).
  Proof.
    unfold evalDbl. apply runs_bind; [apply runs_get|]. intros hn. apply runs_bind.
    { destruct (ohas_all s oHost); auto with runs. }
    intros k2. apply runs_bind; [apply runs_get|]. intros from. apply runs_bind.
    { destruct (_ && _); [|apply runs_ret]. apply runs_bind; [apply runs_addropts|]. intros o. destruct (ohas _ _); apply runs_ret. }
    intros [|k k3]; [apply runs_ret|]. apply runs_bind; [apply runs_get|]. intros; apply runs_dbl_loop.
  Qed.
  Lemma runs_evalOpt T k o : runs W (evalOpt W T k o).
  Proof.
    unfold evalOpt. apply runs_bind; [|intros; apply runs_ret]. destruct k; [apply runs_ret| | |];
      (apply runs_bind; [apply runs_get|intros a]); [apply runs_bind; [apply runs_get|intros; apply runs_ret]|apply runs_addropts|apply runs_addropts].
  Qed.

  Lemma runs_eval T e : runs W (eval W T e).
  Proof.
    induction e as [l IH|e IH|a b IHa IHb| | | | | | |] using expr_ind'.
    - induction IH as [|x l Hx _ IH]; [apply runs_ret|].
      change (eval W T (EAnd (x :: l))) with (mbind (eval W T x) (fun r => if r then eval W T (EAnd l) else ret false)).
      apply runs_bind; auto. intros []; [exact IH|apply runs_ret].
    - cbn [eval]. apply runs_bind; auto. intros; apply runs_ret.
    - cbn [eval]. apply runs_bind; auto. intros []; [apply runs_ret|auto].
    - apply runs_ret.
    - apply runs_ret.
    - apply runs_evalDnsbl.
    - apply runs_matchEval.
    - cbn [eval]. apply runs_bind; [apply runs_matchEval|]. intros []; [apply runs_ret|].
      apply runs_bind; [apply runs_matchEval|]. intros []; [apply runs_ret|]. apply runs_matchEval.
    - apply runs_evalDbl.
    - apply runs_evalOpt.
  Qed.
End Runs.

(** ** What steps preserve *)

(** the fields evaluation does not touch *)
Record same_input (c c' : ctx) : Prop := mkSame {
  si_cmd : c_helocmd c' = c_helocmd c;
  si_helo : c_heloname c' = c_heloname c;
  si_from : c_from c' = c_from c;
  si_rcpt : c_rcptto c' = c_rcptto c;
  si_withs : c_withprops c' = c_withprops c;
  si_def : c_defresult c' = c_defresult c;
  si_dhit : c_defdnsblhit c' = c_defdnsblhit c;
  si_dprops : c_defprops c' = c_defprops c
}.

Lemma same_refl c : same_input c c.
Proof. constructor; reflexivity. Qed.
Lemma same_trans a b c : same_input a b -> same_input b c -> same_input a c.
Proof. intros [] []. constructor; congruence. Qed.

Lemma steps_same W c c' : steps W c c' -> same_input c c'.
Proof.
  induction 1 as [c|c d e H _ IH]; [apply same_refl|]. eapply same_trans; [|exact IH].
  destruct H; try (constructor; reflexivity). destruct (bmem _ _); constructor; reflexivity.
Qed.

(** values, once remembered, stay *)
Lemma steps_files W c c' f l : steps W c c' -> mget (c_files c) f = Some l -> mget (c_files c') f = Some l.
Proof.
  induction 1 as [c|c d e H _ IH]; auto. intros Hf. apply IH. destruct H; auto; cbn [set_files set_trace c_files].
  - rewrite mget_mset_other; auto. congruence.
  - rewrite mget_mset_other; auto. congruence.
  - destruct (bmem _ _); auto.
Qed.
Lemma steps_dnsbl W c c' n b : steps W c c' -> mget (c_dnsbl c) n = Some b -> mget (c_dnsbl c') n = Some b.
Proof.
  induction 1 as [c|c d e H _ IH]; auto. intros Hf. apply IH. destruct H; auto; cbn [set_dnsbl set_trace c_dnsbl].
  - rewrite mget_mset_other; auto. congruence.
  - destruct (bmem _ _); auto.
Qed.
Lemma steps_domvalid W c c' n b : steps W c c' -> mget (c_domvalid c) n = Some b -> mget (c_domvalid c') n = Some b.
Proof.
  induction 1 as [c|c d e H _ IH]; auto. intros Hf. apply IH. destruct H; auto; cbn [set_domerr set_domvalid set_trace c_domvalid].
  - destruct (bmem _ _); auto.
  - rewrite mget_mset_other; auto. congruence.
Qed.
Lemma steps_trace W c c' : steps W c c' -> exists new, c_trace c' = new ++ c_trace c.
Proof.
  induction 1 as [c|c d e H _ (new & IH)]; [exists []; reflexivity|].
  assert (K : exists n1, c_trace d = n1 ++ c_trace c).
  { destruct H; try (exists []; reflexivity); try (eexists [_]; reflexivity).
    - exists []. destruct (bmem _ _); reflexivity.
    - exists (new0 ++ [XMx (d ++ B ".")]). rewrite <- app_assoc. reflexivity. }
  destruct K as (n1 & K). exists (new ++ n1). rewrite IH, K. apply app_assoc.
Qed.
Lemma steps_hits W c c' : steps W c c' -> NoDup (c_dnsblhit c) -> NoDup (c_dnsblhit c').
Proof.
  induction 1 as [c|c d e H _ IH]; auto. intros Hd. apply IH. destruct H; auto.
  destruct (bmem _ _) eqn:E; auto. cbn [set_dnsblhit c_dnsblhit].
  assert (~ In d (c_dnsblhit c)). { intros Hi. apply bmem_In in Hi. congruence. }
  apply (Permutation_NoDup (l := d :: c_dnsblhit c)); [apply Permutation_cons_append|]. constructor; auto.
Qed.
(** every list of [l] has an entry that is known to exist *)
Definition listed_in (cache : smap bool) (l : list bytes) : Prop :=
  forall d, In d l -> exists p, mget cache (p ++ B "." ++ d) = Some true.
Lemma listed_in_mono (m m' : smap bool) l : (forall n b, mget m n = Some b -> mget m' n = Some b) -> listed_in m l -> listed_in m' l.
Proof. intros Hm Hl d Hd. destruct (Hl d Hd) as (p & Hp). exists p. auto. Qed.
Lemma steps_listed W c c' : steps W c c' -> listed_in (c_dnsbl c) (c_dnsblhit c) -> listed_in (c_dnsbl c') (c_dnsblhit c').
Proof.
  induction 1 as [c|c d e H _ IH]; auto. intros Hd. apply IH. apply steps_one in H as Hm.
  assert (Hl : listed_in (c_dnsbl d) (c_dnsblhit c)) by (eapply listed_in_mono; [|exact Hd]; intros; eapply steps_dnsbl; eauto).
  clear Hm. destruct H; auto. destruct (bmem _ _) eqn:E; auto. cbn [set_dnsblhit c_dnsblhit c_dnsbl] in *.
  intros x Hx. apply in_app_or in Hx as [Hx|[<-|[]]]; eauto.
Qed.
Lemma steps_miss W c c' : steps W c c' -> c_rulemiss c = true -> c_rulemiss c' = true.
Proof.
  induction 1 as [c|c d e H _ IH]; auto. intros Hd. apply IH. destruct H; auto. destruct (bmem _ _) eqn:E; auto.
Qed.
