(** Evaluation computes the meaning of Sem.v. *)
From Coq Require Import Relations Permutation.
From Verif Require Import Bytes Outcome Lexer Ast GoNet World Dns Eval PropsMatch PropsAttr Sem.

(** Go's iteration over a map goes through its keys, in some order. *)
Definition fair_order (W : world) : Prop := forall i l, Permutation (w_order W i l) l.

(** The facts for a context; [v] is what the outside world has. *)
Definition facts_of (W : world) (v : view) (T : trans) (c : ctx) : facts :=
  mkFacts (w_uni W) v T (c_helocmd c) (c_heloname c) (c_from c) (c_rcptto c).

Lemma facts_same W fv T c c' : same_input c c' -> facts_of W fv T c' = facts_of W fv T c.
Proof. intros []. unfold facts_of. congruence. Qed.

(** the [i]-th outside call, not counting those before the connection's first
    decision, is [k] *)
Definition AskedAt (tr0 tr : list call) (k : call) (i : nat) : Prop :=
  exists new old, tr = new ++ k :: old /\ length old = i /\ length tr0 <= i.

Lemma AskedAt_suffix tr0 new tr k i : AskedAt tr0 tr k i -> AskedAt tr0 (new ++ tr) k i.
Proof. intros (n & o & -> & H). exists (new ++ n), o. rewrite <- app_assoc. auto. Qed.

(** What the connection remembers is [v], and blocklist lookups that failed
    are not in it. *)
Record sees (W : world) (tr0 : list call) (v : view) (c : ctx) : Prop := mkSees {
  sn_file : forall f l, mget (c_files c) f = Some l -> v_file v f = l;
  sn_domain : forall d r, mget (c_domvalid c) d = Some r -> v_domain v d = fst r;
  sn_listed : forall n b, mget (c_dnsbl c) n = Some b -> (b = true <-> v_listed v n);
  sn_failed : forall n i e, AskedAt tr0 (c_trace c) (XBl n) i -> w_ip W i n = inr e -> ~ v_listed v n
}.

(** the connection has started *)
Definition started (tr0 : list call) (c : ctx) : Prop := length tr0 <= length (c_trace c).

Lemma steps_started W tr0 c c' : steps W c c' -> started tr0 c -> started tr0 c'.
Proof. intros H. apply steps_trace in H as (new & E). unfold started. rewrite E, app_length. lia. Qed.

Lemma steps_sees W tr0 v c c' : steps W c c' -> sees W tr0 v c' -> sees W tr0 v c.
Proof.
  intros H [H1 H2 H3 H4]. constructor.
  - intros f l E. apply H1. eapply steps_files; eauto.
  - intros d r E. apply H2. eapply steps_domvalid; eauto.
  - intros n b E. apply H3. eapply steps_dnsbl; eauto.
  - intros n i e E. apply (H4 n i e). apply steps_trace in H as (new & ->). apply AskedAt_suffix. auto.
Qed.

(** ** Match terms *)

Lemma FileArg_inj a f f' : FileArg a f -> FileArg a f' -> f = f'.
Proof. intros H H'. destruct H; inversion H'; subst; auto; try discriminate. Qed.

Definition fname (a : bytes) : option bytes :=
  match a with
  | [] => None
  | c0 :: _ => if Ascii.eqb c0 "/" || has_prefix a (B "./") then Some a
               else if has_prefix a (B "file:") then Some (skipn 5 a) else None
  end.

Lemma fname_spec a f : fname a = Some f <-> FileArg a f.
Proof.
  unfold fname. split.
  - destruct a as [|c0 a']; [discriminate|]. set (a := c0 :: a') in *.
    destruct (Ascii.eqb_spec c0 "/") as [->|Hc]; cbn [orb].
    + intros [= <-]. apply (FA_slash a').
    + destruct (has_prefix a (B "./")) eqn:E1.
      * apply has_prefix_spec in E1 as (x & Ex). rewrite Ex. intros [= <-]. apply FA_dot.
      * destruct (has_prefix a (B "file:")) eqn:E2; [|discriminate].
        apply has_prefix_spec in E2 as (x & Ex). rewrite Ex. intros [= <-]. apply FA_file.
  - destruct 1 as [x|x|f]; auto.
Qed.

Lemma fname_None a : a <> [] -> fname a = None <-> forall f, ~ FileArg a f.
Proof.
  intros Ha. split.
  - intros E f Hf. apply fname_spec in Hf. congruence.
  - intros H. destruct (fname a) as [f|] eqn:E; auto. apply fname_spec in E. exfalso. eapply H; eauto.
Qed.

Lemma getMatchList_sound W tr0 fv T a c l c' : getMatchList W a c = Ok (l, c') -> sees W tr0 fv c' ->
  (forall p, In p l <-> IsPattern (facts_of W fv T c) a p) /\
  (l = [] <-> exists f, FileArg a f /\ v_file fv f = []) /\
  c_rulemiss c' = c_rulemiss c /\
  (forall f, mget (c_files c') f <> None <-> mget (c_files c) f <> None \/ FileArg a f).
Proof.
  destruct a as [|c0 a']; [discriminate|]. set (a := c0 :: a').
  assert (Ha : a <> []) by discriminate.
  intros E HF. change (match fname a with
      | None => ret [to_lower (w_uni W) a]
      | Some fname =>
          mbind (get c_files) (fun files =>
          match mget files fname with
          | Some l => ret l
          | None =>
              mbind (ext (loadList W fname)) (fun l =>
              mbind (upd (fun c => set_files (mset (c_files c) fname l) c)) (fun _ => ret l))
          end)
      end c = Ok (l, c')) in E. unfold IsPattern.
  assert (HK : forall f0, FileArg a f0 -> v_file fv f0 = l -> c_rulemiss c' = c_rulemiss c ->
     (forall f, mget (c_files c') f <> None <-> mget (c_files c) f <> None \/ f = f0) ->
     (forall p, In p l <-> (exists f, FileArg a f /\ In p (v_file fv f)) \/
        ((forall f, ~ FileArg a f) /\ p = to_lower (w_uni W) a)) /\
      (l = [] <-> exists f, FileArg a f /\ v_file fv f = []) /\ c_rulemiss c' = c_rulemiss c /\
      (forall f, mget (c_files c') f <> None <-> mget (c_files c) f <> None \/ FileArg a f)).
  { intros f0 H0 <- Hm Hc. split; [|split; [|split; auto]].
    - intros p. split; [intros Hp; left; eauto|]. intros [(f & Hf & Hp)|[Hn _]]; [|exfalso; eapply Hn; eauto].
      rewrite (FileArg_inj _ _ _ H0 Hf). exact Hp.
    - split; [eauto|]. intros (f & Hf & Hl). now rewrite (FileArg_inj _ _ _ H0 Hf).
    - intros f. rewrite Hc. split; intros [H|H]; auto; right; [now subst|]. eapply FileArg_inj; eauto. }
  destruct (fname a) as [f|] eqn:Ef.
  - apply fname_spec in Ef. unfold mbind, get in E. destruct (mget (c_files c) f) as [l0|] eqn:El.
    + injection E as <- <-. apply (HK f); auto; [apply (sn_file _ _ _ _ HF); auto|]. intros g. split; auto. intros [H|H]; auto. subst. congruence.
    + unfold ext, upd, ret in E. destruct (loadList W f (c_trace c)) as [l0 t] eqn:EL. injection E as <- <-.
      assert (Hf : v_file fv f = l0). { apply (sn_file _ _ _ _ HF). cbn. rewrite mget_mset_same. reflexivity. }
      apply (HK f); auto. intros g. cbn [set_files c_files set_trace]. rewrite mget_mset.
      destruct (beqb_spec g f) as [->|Hn]; [split; auto; discriminate|]. tauto.
  - injection E as <- <-. pose proof (proj1 (fname_None a Ha) Ef) as Hn. split; [|split; [|split; auto]].
    + intros p. split.
      * intros [<-|[]]. right. auto.
      * intros [(f & Hf & _)|[_ ->]]; [exfalso; eapply Hn; eauto|]. now left.
    + split; [discriminate|]. intros (f & Hf & _). exfalso. eapply Hn; eauto.
    + intros f. split; auto. intros [H|H]; auto. exfalso. eapply Hn; eauto.
Qed.

Lemma any_elt_sound (Fit : bytes -> Prop) f es b :
  (forall x b, f x = Ok b -> (b = true <-> Fit x)) -> any_elt f es = Ok b -> (b = true <-> exists x, In x es /\ Fit x).
Proof.
  intros Hf. revert b. induction es as [|e es IH]; intros b; cbn [any_elt].
  - intros [= <-]. split; [discriminate|]. intros (x & [] & _).
  - destruct (f e) as [be| |] eqn:E; try discriminate. apply Hf in E. cbn [obind]. destruct be.
    + intros [= <-]. split; auto. intros _. exists e. split; [now left|]. now apply E.
    + intros H. apply IH in H. rewrite H. split; intros (x & Hx & Hp); exists x; [split; [now right|auto]|].
      destruct Hx as [<-|Hx]; [apply E in Hp; discriminate|auto].
Qed.

Lemma any_pat_sound (Fit : bytes -> bytes -> Prop) m es ps b :
  (forall x p b, m x p = Ok b -> (b = true <-> Fit x p)) -> any_pat m es ps = Ok b ->
  (b = true <-> exists p x, In p ps /\ In x es /\ Fit x p).
Proof.
  intros Hm. revert b. induction ps as [|p ps IH]; intros b; cbn [any_pat].
  - intros [= <-]. split; [discriminate|]. intros (p & x & [] & _).
  - destruct (any_elt (fun e => m e p) es) as [be| |] eqn:E; try discriminate.
    apply (any_elt_sound (fun x => Fit x p)) in E; [|intros x b'; apply Hm]. cbn [obind]. destruct be.
    + intros [= <-]. split; auto. intros _. destruct (proj1 E eq_refl) as (x & Hx & Hp). exists p, x. split; [now left|auto].
    + intros H. apply IH in H. rewrite H. split; intros (q & x & Hq & Hx & Hf); exists q, x; [split; [now right|auto]|].
      destruct Hq as [<-|Hq]; [|auto]. assert (false = true) by (apply E; eauto). discriminate.
Qed.

Lemma matchHost_sound U h p b : matchHost U h p = Ok b -> (b = true <-> HostMatches (to_lower U h) p).
Proof.
  intros E. destruct (to_lower U h) as [|c0 h'] eqn:Eh.
  { unfold matchHost in E. rewrite Eh in E. discriminate. }
  destruct p as [|p0 p'].
  - unfold matchHost in E. rewrite Eh in E. set (host := c0 :: h') in *.
    destruct (last_byte host) as [z|] eqn:El; [|discriminate]. cbn [of_option obind] in E.
    destruct (Ascii.eqb_spec z ch_dot) as [->|Hz]; [discriminate|]. cbn [obind] in E.
    change (beqb host [] || beqb (ch_dot :: host) []) with false in E. cbv iota in E.
    destruct (matchHost_loop_spec host [] (S (length host)) 0) as (b' & Eb & Hb); [lia|].
    rewrite Eb in E. injection E as <-. rewrite Hb. split.
    + intros (y & _ & Hy). discriminate.
    + intros (name & Hn & Hp). exfalso. destruct Hp as [Hp|(d & Hp & _)]; [|discriminate].
      destruct Hn as [(_ & _ & Hh)|(_ & Hh)]; subst name; [|discriminate].
      rewrite Hh in El. cbn in El. injection El as <-. now apply Hz.
  - destruct (C18_host_patterns U h (p0 :: p')) as (b' & E' & Hb); [rewrite Eh; discriminate|discriminate|].
    rewrite E in E'. injection E' as <-. rewrite <- Eh. exact Hb.
Qed.

Lemma matchAddress_sound U h p b : matchAddress U h p = Ok b -> (b = true <-> AddrMatches (to_lower U h) p).
Proof.
  intros E. destruct (C16_address_patterns U h p) as (b' & E' & Hb). rewrite E in E'. injection E' as <-. auto.
Qed.

Lemma matchIp_sound r p : matchIp r p = true <-> IpMatches r p.
Proof.
  unfold IpMatches. destruct (parse_ip r) as [x|] eqn:E.
  - rewrite (C20_ip_matches r x p E). split; [intros H; left; eauto|]. intros [(y & [= <-] & H)|[H _]]; [auto|discriminate].
  - rewrite (C20_not_plain_ip r p E). split; [auto|]. intros [(x & H & _)|[_ H]]; [discriminate|auto].
Qed.

Lemma kindMatcher_sound W fv T c k x p b : kindMatcher W k x p = Ok b -> (b = true <-> Fits (facts_of W fv T c) k x p).
Proof.
  destruct k; cbn [kindMatcher Fits]; try apply matchHost_sound; try apply matchAddress_sound.
  intros [= <-]. apply matchIp_sound.
Qed.

(** what a sound run of a boolean computation says *)
Record sound (W : world) (fv : view) (P : Prop) (Q : bytes -> Prop) (c : ctx) (b : bool) (c' : ctx) : Prop := mkSound {
  so_truth : b = true <-> P;
  so_miss : c_rulemiss c' = true <-> c_rulemiss c = true \/ exists f, Q f /\ v_file fv f = [];
  so_files : forall f, mget (c_files c') f <> None <-> mget (c_files c) f <> None \/ Q f
}.

Lemma matchEval_sound W tr0 fv T a m g (Fit : bytes -> bytes -> Prop) c b c' :
  (forall x p b, m x p = Ok b -> (b = true <-> Fit x p)) ->
  (forall c1, same_input c c1 -> g c1 = g c) ->
  matchEval W a m g c = Ok (b, c') -> sees W tr0 fv c' ->
  sound W fv (exists p x, IsPattern (facts_of W fv T c) a p /\ In x (g c) /\ Fit x p) (FileArg a) c b c'.
Proof.
  intros Hm Hg E HF. unfold matchEval, mbind in E.
  destruct (getMatchList W a c) as [[l c1]| |] eqn:EL; try discriminate.
  assert (Hs : same_input c c1) by (eapply steps_same; eapply runs_matchlist; eauto).
  destruct l as [|p0 l].
  - unfold upd, ret in E. injection E as <- <-.
    assert (HF0 : sees W tr0 fv c1) by (destruct HF; constructor; auto).
    destruct (getMatchList_sound W tr0 fv T a c [] c1 EL HF0) as (HP & HE & HM & HC). constructor.
    + split; [discriminate|]. intros (p & x & Hp & _). apply HP in Hp. destruct Hp.
    + cbn. split; auto. intros _. right. now apply HE.
    + exact HC.
  - unfold get, lift in E. rewrite (Hg c1 Hs) in E.
    destruct (any_pat m (g c) (p0 :: l)) as [b0| |] eqn:EP; try discriminate. injection E as <- <-.
    destruct (getMatchList_sound W tr0 fv T a c (p0 :: l) c1 EL HF) as (HP & HE & HM & HC). constructor.
    + rewrite (any_pat_sound Fit m (g c) (p0 :: l) b0 Hm EP). split; intros (p & x & Hp & H); exists p, x; (split; [|exact H]); apply HP; exact Hp.
    + rewrite HM. split; auto. intros [H|H]; auto. apply HE in H. discriminate.
    + exact HC.
Qed.

Lemma kindGetter_same T k c c1 : same_input c c1 -> kindGetter T k c1 = kindGetter T k c.
Proof. intros []. destruct k; cbn [kindGetter]; congruence. Qed.

Lemma evalMatch_sound W tr0 fv T k a c b c' : evalMatch W T k a c = Ok (b, c') -> sees W tr0 fv c' ->
  sound W fv (truth (facts_of W fv T c) (EMatch k a)) (FileArg a) c b c'.
Proof.
  intros E HF. unfold evalMatch in E. cbn [truth].
  replace (subjects (facts_of W fv T c) k) with (kindGetter T k c) by (destruct k; reflexivity).
  eapply matchEval_sound; eauto; [apply kindMatcher_sound|apply kindGetter_same].
Qed.

(** ** Terms that ask the DNS *)

Lemma ok_inj {A} (x y : A) : Ok x = Ok y -> x = y.
Proof. congruence. Qed.

Lemma split_byte_no s c x : In x (split_byte s c) -> ~ In c x.
Proof.
  revert x. induction s as [|y s IH]; intros x; cbn [split_byte]; [intros [<-|[]] []|].
  destruct (Ascii.eqb_spec y c) as [->|Hn].
  - intros [<-|H]; [intros []|auto].
  - destruct (split_byte s c) as [|w ws].
    + intros [<-|[]] [H|[]]; congruence.
    + intros [<-|H]; [|apply IH; now right]. intros [H|H]; [congruence|]. apply (IH w); [now left|auto].
Qed.

(** the domain attributes of an address *)
Lemma addr_attrs_domain F a : a <> [] ->
  ohas (addr_attrs F a) (N.lor oDomainValid (N.lor oDomainInvalid oDomainTempfail)) = true <->
  (~ flawed a /\ exists l d0, a = l ++ B "@" ++ d0 /\ ~ In ch_at l /\ domain_verdict F d0 <> dnsUndef).
Proof.
  intros Ha. set (W := {| w_uni := plain_unicode; w_file := fun _ _ => FNoent; w_ip := fun _ _ => inl []; w_mx := fun _ _ => inl [];
    w_addr := fun _ _ => inl []; w_order := fun _ l => l; w_ipstr := fun _ => [] |}).
  set (k1 := match snd (addrText a) with Some i => skipn (S i) a | None => a end).
  set (k2 := match index_byte a ch_at with Some i => skipn (S i) a | None => a end).
  set (c := set_domvalid [(k1, (domain_verdict F k1, None)); (k2, (domain_verdict F k2, None))] (newContext [])).
  assert (Hv : forall d, d = k1 \/ d = k2 -> exists e, mget (c_domvalid c) d = Some (domain_verdict F d, e)).
  { intros d Hd. unfold c. cbn [c_domvalid set_domvalid mget]. destruct (beqb_spec d k1) as [->|H1]; [eauto|].
    destruct Hd as [Hd|Hd]; [congruence|]. destruct (beqb_spec d k2) as [->|]; [eauto|congruence]. }
  destruct (getAddrOpts_spec W a c) as (o & c' & Eg & _ & HS). destruct (HS Ha) as (_ & _ & _ & _ & _ & HFl & HNf).
  assert (Eo : o = addr_attrs F a).
  { unfold getAddrOpts, addr_attrs in *. destruct a as [|a0 a]; [congruence|].
    unfold k1 in Hv. destruct (addrText (a0 :: a)) as [o1 idx]. cbn [snd] in Hv.
    destruct (N.eqb _ _); [|unfold ret in Eg; congruence]. unfold mbind in Eg.
    destruct (Hv (match idx with Some i => skipn (S i) (a0 :: a) | None => a0 :: a end) (or_introl eq_refl)) as (e & Em).
    unfold validDomain, mbind, get in Eg. rewrite Em in Eg. cbn [ret fst snd] in Eg.
    destruct (domain_verdict F _); unfold upd, ret in Eg; congruence. }
  assert (Hd : forall l d0, a = l ++ B "@" ++ d0 -> ~ In ch_at l -> verdict W c d0 = domain_verdict F d0).
  { intros l d0 El Hl. unfold verdict. destruct (Hv d0) as (e & Em); [|rewrite Em; reflexivity]. right. unfold k2. rewrite El.
    change (B "@" ++ d0) with (ch_at :: d0). rewrite index_byte_app by auto.
    replace (l ++ ch_at :: d0) with ((l ++ [ch_at]) ++ d0) by (rewrite <- app_assoc; reflexivity).
    symmetry. apply skipn_app_len. rewrite app_length. simpl. lia. }
  rewrite <- Eo.
  assert (HB : ohas o (N.lor oDomainValid (N.lor oDomainInvalid oDomainTempfail)) = true <->
            N.testbit o 21 = true \/ N.testbit o 22 = true \/ N.testbit o 23 = true).
  { unfold ohas. assert (Hh : forall m, negb (N.eqb (N.land o m) 0) = N.ltb 0 (N.land m o)).
    { intros m. rewrite N.land_comm. destruct (N.land m o); reflexivity. }
    rewrite Hh, !ltb_land_lor. unfold oDomainValid, oDomainInvalid, oDomainTempfail. rewrite !ltb_land, !orb_true_iff. reflexivity. }
  rewrite HB. split.
  - intros HT. assert (Hnf : ~ flawed a).
    { intros Hfl'. destruct (HFl Hfl') as (B1 & B2 & B3 & _). destruct HT as [HT|[HT|HT]]; congruence. }
    split; auto. destruct (HNf Hnf) as (l & d0 & El & Hl & V1 & V2 & V3). exists l, d0. split; auto. split; auto.
    rewrite <- (Hd l d0 El Hl). intros HU. rewrite HU in V1, V2, V3.
    destruct HT as [HT|[HT|HT]]; [apply V1 in HT|apply V2 in HT|apply V3 in HT]; discriminate.
  - intros (Hnf & l & d0 & El & Hl & HV). destruct (HNf Hnf) as (l' & d' & El' & Hl' & V1 & V2 & V3).
    rewrite El in El'. apply at_split in El' as [<- <-]; auto.
    rewrite <- (Hd l d0 El Hl) in HV. destruct (verdict W c d0); [congruence|right; left; tauto|right; right; tauto|left; tauto].
Qed.

Section Dns.
  Variable W : world.
  Hypothesis HW : fair_order W.
  Variable tr0 : list call.
  Variable fv : view.
  Variable T : trans.

  Lemma getDnsblRes_sound n c b c' : getDnsblRes W n c = Ok (b, c') -> started tr0 c -> sees W tr0 fv c' ->
    (b = true <-> Resolves (facts_of W fv T c) n) /\ c_rulemiss c' = c_rulemiss c /\ c_files c' = c_files c.
  Proof.
    unfold getDnsblRes, mbind, get, ext, lookup_bl, ask, Resolves. cbn [f_view facts_of]. intros E HS [H1 H2 H3 H4].
    destruct (mget (c_dnsbl c) n) as [r|] eqn:Em.
    - injection E as <- <-. auto.
    - destruct (w_ip W (length (c_trace c)) n) as [ips|e] eqn:Ei.
      + injection E as <- <-. split; auto. rewrite <- (H3 n (match ips with [] => false | _ => true end)); [reflexivity|].
        cbn [set_dnsbl set_trace c_dnsbl]. apply mget_mset_same.
      + injection E as <- <-. split; auto. split; [discriminate|]. intros Hl. exfalso.
        apply (H4 n (length (c_trace c)) e); auto. exists [], (c_trace c). auto.
  Qed.

  Lemma split4 s s0 s1 s2 s3 : split_byte s ch_dot = [s0; s1; s2; s3] <->
    s = s0 ++ B "." ++ s1 ++ B "." ++ s2 ++ B "." ++ s3 /\ Forall (fun s => ~ In ch_dot s) [s0; s1; s2; s3].
  Proof.
    split.
    - intros E. split; [rewrite <- (join_split s ch_dot), E; reflexivity|]. rewrite <- E. apply Forall_forall.
      intros x Hx. eapply split_byte_no; eauto.
    - intros [-> H].
      assert (HS : forall x y, ~ In ch_dot x -> split_byte (x ++ B "." ++ y) ch_dot = x :: split_byte y ch_dot).
      { induction x as [|c x IH]; intros y Hx; [reflexivity|]. cbn [app split_byte].
        destruct (Ascii.eqb_spec c ch_dot) as [->|]; [exfalso; apply Hx; now left|].
        rewrite IH; [reflexivity|]. intros Hi. apply Hx. now right. }
      inversion H as [|? ? A1 H1]; subst. inversion H1 as [|? ? A2 H2]; subst.
      inversion H2 as [|? ? A3 H3]; subst. inversion H3 as [|? ? A4 H4]; subst.
      rewrite !HS by auto.
      assert (HL : forall x, ~ In ch_dot x -> split_byte x ch_dot = [x]).
      { induction x as [|c x IH]; intros Hx; [reflexivity|]. cbn [split_byte].
        destruct (Ascii.eqb_spec c ch_dot) as [->|]; [exfalso; apply Hx; now left|].
        rewrite IH; [reflexivity|]. intros Hi. apply Hx. now right. }
      now rewrite HL.
  Qed.

  Lemma evalDnsbl_sound d c b c' : evalDnsbl W T d c = Ok (b, c') -> started tr0 c -> sees W tr0 fv c' ->
    sound W fv (truth (facts_of W fv T c) (EDnsbl d)) (fun _ => False) c b c'.
  Proof.
    intros E HD HF. unfold evalDnsbl in E.
    assert (HK : forall b c', (b = true <-> truth (facts_of W fv T c) (EDnsbl d)) -> c_rulemiss c' = c_rulemiss c ->
      c_files c' = c_files c -> sound W fv (truth (facts_of W fv T c) (EDnsbl d)) (fun _ => False) c b c').
    { intros b0 c0 H1 H2 H3. constructor; auto; [rewrite H2|intros f; rewrite H3]; [|tauto].
      split; auto. intros [H|(f & [] & _)]; auto. }
    assert (HN : forall s0 s1 s2 s3, t_rip T = s0 ++ B "." ++ s1 ++ B "." ++ s2 ++ B "." ++ s3 ->
       Forall (fun s => ~ In ch_dot s) [s0; s1; s2; s3] -> split_byte (t_rip T) ch_dot = [s0; s1; s2; s3]).
    { intros s0 s1 s2 s3 H1 H2. apply split4. auto. }
    destruct (t_rip T) as [|r0 r] eqn:Er.
    { injection E as <- <-. apply HK; auto. split; [discriminate|]. cbn [truth facts_of f_trans]. rewrite Er.
      intros (s0 & s1 & s2 & s3 & H & _). destruct s0; discriminate. }
    rewrite <- Er in *. destruct (split_byte (t_rip T) ch_dot) as [|s0 [|s1 [|s2 [|s3 [|]]]]] eqn:Es;
      try (injection E as <- <-; apply HK; auto; split; [discriminate|]; cbn [truth facts_of f_trans];
           intros (x0 & x1 & x2 & x3 & H & Hx & _); specialize (HN _ _ _ _ H Hx); discriminate).
    apply split4 in Es as [Es1 Es2]. unfold mbind in E.
    destruct (getDnsblRes W _ c) as [[b1 c1]| |] eqn:Eg; try discriminate.
    assert (HF1 : sees W tr0 fv c1).
    { destruct b1; [|injection E as <- <-; exact HF]. injection E as <- <-. destruct (bmem d (c_dnsblhit c1)); [exact HF|].
      destruct HF; constructor; auto. }
    pose proof (getDnsblRes_sound _ c b1 c1 Eg HD HF1) as (Hb & Hm & Hf).
    assert (Ht : b1 = true <-> truth (facts_of W fv T c) (EDnsbl d)).
    { rewrite Hb. cbn [truth]. split.
      - intros H. exists s0, s1, s2, s3. cbn [facts_of f_trans]. auto.
      - intros (x0 & x1 & x2 & x3 & H & Hx & HR). cbn [facts_of f_trans] in H. specialize (HN _ _ _ _ H Hx).
        injection HN as <- <- <- <-. exact HR. }
    destruct b1.
    - injection E as <- <-. apply HK; auto; destruct (bmem _ _); auto.
    - injection E as <- <-. apply HK; auto.
  Qed.

  Lemma validDomain_sound d c r c' : validDomain W d c = Ok (r, c') -> sees W tr0 fv c' ->
    fst r = domain_verdict (facts_of W fv T c) d /\ c_rulemiss c' = c_rulemiss c /\ c_files c' = c_files c.
  Proof.
    unfold validDomain, mbind, get, ext, domain_verdict. cbn [f_view facts_of]. intros E [H1 H2 H3 H4].
    destruct (mget (c_domvalid c) d) as [x|] eqn:Em.
    - injection E as <- <-. split; auto. symmetry. auto.
    - destruct (ValidDomain W d (c_trace c)) as [x t]. injection E as <- <-. split; auto. symmetry. apply H2.
      cbn [set_domvalid set_trace c_domvalid]. apply mget_mset_same.
  Qed.

  Lemma getAddrOpts_sound a c o c' : getAddrOpts W a c = Ok (o, c') -> sees W tr0 fv c' ->
    o = addr_attrs (facts_of W fv T c) a /\ c_rulemiss c' = c_rulemiss c /\ c_files c' = c_files c.
  Proof.
    unfold getAddrOpts, addr_attrs. intros E HD. destruct a as [|c0 a]; [injection E as <- <-; auto|].
    destruct (addrText (c0 :: a)) as [o1 idx]. destruct (N.eqb _ _); [|injection E as <- <-; auto].
    unfold mbind in E. destruct (validDomain W _ c) as [[r c1]| |] eqn:Ev; try discriminate.
    assert (HF1 : sees W tr0 fv c1).
    { destruct r as [v e]. cbn [fst snd] in E. destruct v; injection E as <- <-; try exact HD; destruct HD; constructor; auto. }
    destruct (validDomain_sound _ c r c1 Ev HF1) as (Hr & Hm & Hf). rewrite <- Hr.
    destruct r as [v e]. cbn [fst snd] in *. destruct v; injection E as <- <-; auto.
  Qed.

  Lemma evalOpt_sound k o c b c' : evalOpt W T k o c = Ok (b, c') -> sees W tr0 fv c' ->
    sound W fv (truth (facts_of W fv T c) (EOpt k o)) (fun _ => False) c b c'.
  Proof.
    intros E HD.
    assert (HK : forall x c1, x = attrs (facts_of W fv T c) k -> c_rulemiss c1 = c_rulemiss c ->
      c_files c1 = c_files c -> (N.ltb 0 (N.land o x), c1) = (b, c') ->
      sound W fv (truth (facts_of W fv T c) (EOpt k o)) (fun _ => False) c b c').
    { intros x c1 -> H1 H2 H3. injection H3 as <- <-. constructor.
      - cbn [truth]. rewrite N.ltb_lt. lia.
      - rewrite H1. split; auto. intros [H|(f & [] & _)]; auto.
      - intros f. rewrite H2. tauto. }
    unfold evalOpt, mbind in E. destruct k.
    - apply (HK (dnsGetter T) c); auto. apply ok_inj. exact E.
    - apply (HK (heloGetter T (c_helocmd c) (c_heloname c)) c); auto. apply ok_inj. exact E.
    - unfold get in E. destruct (getAddrOpts W (c_from c) c) as [[x c1]| |] eqn:Eg; try discriminate.
      assert (Ec : c1 = c') by (unfold ret in E; congruence). rewrite <- Ec in HD.
      destruct (getAddrOpts_sound _ _ _ _ Eg HD) as (Hx & Hm & Hf).
      apply (HK x c1); auto. apply ok_inj. exact E.
    - unfold get in E. destruct (getAddrOpts W (c_rcptto c) c) as [[x c1]| |] eqn:Eg; try discriminate.
      assert (Ec : c1 = c') by (unfold ret in E; congruence). rewrite <- Ec in HD.
      destruct (getAddrOpts_sound _ _ _ _ Eg HD) as (Hx & Hm & Hf).
      apply (HK x c1); auto. apply ok_inj. exact E.
  Qed.

  Lemma dbl_loop_sound d l : forall r c b c', dbl_loop W d l r c = Ok (b, c') -> started tr0 c -> sees W tr0 fv c' ->
    (b = true <-> r = true \/ exists n, In n l /\ Resolves (facts_of W fv T c) (n ++ B "." ++ d)) /\
    c_rulemiss c' = c_rulemiss c /\ c_files c' = c_files c.
  Proof.
    induction l as [|s l IH]; intros r c b c' E HD HF; cbn [dbl_loop] in E.
    - injection E as <- <-. split; auto. split; auto. intros [H|(n & [] & _)]; auto.
    - unfold mbind in E. destruct (getDnsblRes W _ c) as [[b1 c1]| |] eqn:Eg; try discriminate.
      assert (Hst : steps W c c1) by (eapply runs_dnsbl; eauto).
      pose proof (steps_started W tr0 c c1 Hst HD) as HD1. pose proof (steps_same W c c1 Hst) as Hs.
      destruct b1.
      + destruct (addDnsblHit d c1) as [[u c2]| |] eqn:Eh; try discriminate.
        assert (Hst2 : steps W c1 c2) by (eapply addDnsblHit_step; [eapply getDnsblRes_true; exact Eg|exact Eh]).
        assert (Hst3 : steps W c2 c') by (eapply runs_dbl_loop; eauto).
        pose proof (steps_started W tr0 c1 c2 Hst2 HD1) as HD2.
        destruct (getDnsblRes_sound _ c true c1 Eg HD (steps_sees W tr0 fv _ _ (steps_trans _ _ _ _ Hst2 Hst3) HF)) as (Hb & Hm & Hf).
        apply IH in E as (H1 & H2 & H3); auto. injection Eh as _ <-.
        split; [|destruct (bmem _ _); split; cbn in *; congruence].
        rewrite H1. split; [|auto]. intros _. right. exists s. split; [now left|]. now apply Hb.
      + assert (Hst3 : steps W c1 c') by (eapply runs_dbl_loop; eauto).
        destruct (getDnsblRes_sound _ c false c1 Eg HD (steps_sees W tr0 fv _ _ Hst3 HF)) as (Hb & Hm & Hf).
        apply IH in E as (H1 & H2 & H3); auto. rewrite (facts_same W fv T c c1 Hs) in H1.
        split; [|split; congruence]. rewrite H1. split.
        * intros [H|(n & Hn & HR)]; auto. right. exists n. split; [now right|auto].
        * intros [H|(n & [<-|Hn] & HR)]; auto; [apply Hb in HR; discriminate|]. right. eauto.
  Qed.

  Lemma add_key_In l k x : In x (add_key l k) <-> In x l \/ x = k.
  Proof.
    unfold add_key. destruct (bmem k l) eqn:E.
    - apply bmem_In in E. split; auto. intros [H|H]; subst; auto.
    - rewrite in_app_iff. simpl. intuition.
  Qed.

  Lemma add_names_In l names k : add_names l names = Ok k ->
    forall x, In x k <-> In x l \/ exists c, In (x ++ [c]) names.
  Proof.
    revert l. induction names as [|n ns IH]; intros l; cbn [add_names].
    - intros [= <-] x. split; auto. intros [H|(c & [])]; auto.
    - destruct n as [|n0 n]; [discriminate|]. intros E x. rewrite (IH _ E x), add_key_In.
      set (nn := n0 :: n). assert (Hn : nn <> []) by discriminate. clearbody nn.
      destruct (exists_last Hn) as (u & z & ->). unfold drop_last. rewrite removelast_last. split.
      + intros [[H|H]|(c & H)]; auto; [subst; right; exists z; now left|]. right. exists c. now right.
      + intros [H|(c & [H|H])]; auto; [|eauto]. apply app_inj_tail in H as [<- _]. auto.
  Qed.

  Lemma evalDbl_sound s d c b c' : evalDbl W T s d c = Ok (b, c') -> started tr0 c -> sees W tr0 fv c' ->
    sound W fv (truth (facts_of W fv T c) (EDbl s d)) (fun _ => False) c b c'.
  Proof.
    intros E HD HF. set (F := facts_of W fv T c).
    assert (HK : forall b c', (b = true <-> truth F (EDbl s d)) -> c_rulemiss c' = c_rulemiss c ->
      c_files c' = c_files c -> sound W fv (truth F (EDbl s d)) (fun _ => False) c b c').
    { intros b0 c0 H1 H2 H3. constructor; auto; [rewrite H2|intros f; rewrite H3]; [|tauto].
      split; auto. intros [H|(f & [] & _)]; auto. }
    unfold evalDbl in E. unfold mbind at 1 in E. unfold get at 1 in E.
    set (k1 := if ohas s (N.lor oEhlo oHelo) && negb (beqb (c_heloname c) []) then add_key [] (c_heloname c) else []) in E.
    assert (H1 : forall x, In x k1 <-> (ohas s (N.lor oEhlo oHelo) = true /\ f_helo F <> [] /\ x = f_helo F)).
    { intros x. unfold k1. change (f_helo F) with (c_heloname c). destruct (ohas s _) eqn:Eo; cbn [andb]; [|split; [intros []|intros (H & _); discriminate]].
      destruct (beqb_spec (c_heloname c) []) as [Eh|Eh]; cbn [negb].
      - split; [intros []|tauto].
      - rewrite add_key_In. simpl. intuition. }
    clearbody k1. unfold mbind at 1 in E.
    match type of E with match ?m c with _ => _ end = _ => set (m2 := m) in E end.
    assert (H2 : forall k2 c2, m2 c = Ok (k2, c2) -> c2 = c /\ forall x, In x k2 <-> In x k1 \/
       (ohas_all s oHost = true /\ exists z, In (x ++ [z]) (rd_verified (t_rdns T) ++ rd_nofwd (t_rdns T) ++ rd_inconsist (t_rdns T)))).
    { unfold m2. intros k2 c2. destruct (ohas_all s oHost).
      - unfold lift. destruct (add_names k1 _) as [a| |] eqn:Ea; try discriminate. cbn [obind].
        destruct (add_names a _) as [a2| |] eqn:Ea2; try discriminate. cbn [obind].
        destruct (add_names a2 _) as [a3| |] eqn:Ea3; try discriminate. intros [= <- <-]. split; auto. intros x.
        rewrite (add_names_In _ _ _ Ea3), (add_names_In _ _ _ Ea2), (add_names_In _ _ _ Ea).
        setoid_rewrite in_app_iff. setoid_rewrite in_app_iff. split.
        + intros [[[H|(z & H)]|(z & H)]|(z & H)]; auto; right; split; auto; exists z; auto.
        + intros [H|(_ & z & [H|[H|H]])]; eauto.
      - intros [= <- <-]. split; auto. intros x. split; auto. intros [H|[H _]]; auto. discriminate. }
    clearbody m2. destruct (m2 c) as [[k2 c2]| |]; try discriminate.
    destruct (H2 _ _ eq_refl) as [-> H2']. clear H2 m2.
    unfold mbind at 1 in E. unfold get at 1 in E. unfold mbind at 1 in E.
    match type of E with match ?m c with _ => _ end = _ => set (m3 := m) in E end.
    assert (H3 : forall k3 c3, m3 c = Ok (k3, c3) -> sees W tr0 fv c3 -> steps W c c3 /\ c_rulemiss c3 = c_rulemiss c /\ c_files c3 = c_files c /\
       forall x, In x k3 <-> In x k2 \/
       (ohas_all s oFrom = true /\ exists l, f_from F = l ++ B "@" ++ x /\ ~ In ch_at l /\ ~ flawed (f_from F) /\ domain_verdict F x <> dnsUndef)).
    { unfold m3. intros k3 c3. change (f_from F) with (c_from c). destruct (ohas_all s oFrom) eqn:Eo; cbn [andb].
      - destruct (beqb_spec (c_from c) []) as [Ef|Ef]; cbn [negb].
        + intros [= <- <-] _. split; [constructor|]. do 2 (split; auto). intros x. split; auto.
          intros [H|(_ & l & H & _)]; auto. rewrite Ef in H. destruct l; discriminate.
        + unfold mbind. destruct (getAddrOpts W (c_from c) c) as [[o c4]| |] eqn:Eg; try discriminate.
          assert (Hst : steps W c c4) by (eapply runs_addropts; eauto).
          intros Ek Hsee. assert (Ec : c4 = c3) by (destruct (ohas o _); unfold ret in Ek; congruence). rewrite <- Ec in Hsee.
          destruct (getAddrOpts_sound _ _ _ _ Eg Hsee) as (Ho & Hm & Hfl). fold F in Ho.
          pose proof (addr_attrs_domain F (c_from c) Ef) as HO. rewrite <- Ho in HO. revert Ek.
          destruct (ohas o _) eqn:Eh; intros [= <- <-]; (split; [auto|]); (do 2 (split; auto)); intros x.
          * destruct (proj1 HO eq_refl) as (Hnf & l & d0 & El & Hl & HV).
            rewrite add_key_In.
            assert (Ei : match index_byte (c_from c) ch_at with Some i => skipn (S i) (c_from c) | None => c_from c end = d0).
            { rewrite El. change (B "@" ++ d0) with (ch_at :: d0). rewrite index_byte_app by auto.
              replace (l ++ ch_at :: d0) with ((l ++ [ch_at]) ++ d0) by (rewrite <- app_assoc; reflexivity).
              apply skipn_app_len. rewrite app_length. simpl. lia. }
            match goal with |- _ \/ x = ?t <-> _ => replace t with d0 by (symmetry; exact Ei) end. split.
            -- intros [H|H]; auto. subst x. right. split; auto. exists l. auto.
            -- intros [H|(_ & l' & El' & Hl' & _)]; auto. right. rewrite El in El'. apply at_split in El' as [_ ->]; auto.
          * split; auto. intros [H|(_ & l & El & Hl & Hnf & HV)]; auto.
            assert (false = true); [|discriminate]. apply HO. split; auto. exists l, x. auto.
      - intros [= <- <-] _. split; [constructor|]. do 2 (split; auto). intros x. split; auto. intros [H|[H _]]; auto. discriminate. }
    clearbody m3. destruct (m3 c) as [[k3 c3]| |]; try discriminate.
    assert (HF3 : sees W tr0 fv c3).
    { destruct k3 as [|y k3]; [injection E as <- <-; exact HF|]. unfold mbind, get in E. eapply steps_sees; [|exact HF]. eapply runs_dbl_loop; eauto. }
    destruct (H3 _ _ eq_refl HF3) as (Hst & Hm & Hf & H3'). clear H3 m3.
    assert (HN : forall x, In x k3 <-> DblName F s x).
    { intros x. rewrite H3', H2', H1. split.
      - intros [[(A1 & A2 & ->)|(A1 & z & A2)]|(A1 & l & A2 & A3 & A4 & A5)].
        + apply DN_helo; auto.
        + apply (DN_host F s x z); auto.
        + apply (DN_from F s l x); auto.
      - intros [A1 A2|n z A1 A2|l d' A1 A2 A3 A4 A5]; auto; [left; right; eauto|right; split; auto; exists l; auto]. }
    assert (HE : k3 = [] \/ exists y k, k3 = y :: k) by (destruct k3; eauto).
    destruct HE as [->|(y & k & ->)].
    - injection E as <- <-. apply HK; auto. split; [discriminate|]. intros (n & Hn & _). apply HN in Hn. destruct Hn.
    - unfold mbind, get in E.
      pose proof (steps_started W tr0 c c3 Hst HD) as HD3.
      apply dbl_loop_sound in E as (E1 & E2 & E3); auto. rewrite (facts_same W fv T c c3 (steps_same W c c3 Hst)) in E1. fold F in E1.
      apply HK; [|congruence|congruence]. rewrite E1. cbn [truth]. split.
      + intros [H|(n & Hn & HR)]; [discriminate|]. exists n. split; auto. apply HN.
        apply (Permutation_in _ (HW _ _)) in Hn. exact Hn.
      + intros (n & Hn & HR). right. exists n. split; auto. apply HN in Hn.
        apply (Permutation_in _ (Permutation_sym (HW (length (c_trace c3)) _))). exact Hn.
  Qed.

  (** ** Expressions *)

  Theorem eval_sound e : forall c b c', eval W T e c = Ok (b, c') -> started tr0 c -> sees W tr0 fv c' ->
    sound W fv (truth (facts_of W fv T c) e) (Consults (facts_of W fv T c) e) c b c'.
  Proof.
    assert (Hst : forall e c b c', eval W T e c = Ok (b, c') -> steps W c c') by (intros; eapply runs_eval; eauto).
    assert (Hpure : forall (b0 : bool) (P : Prop) c, (b0 = true <-> P) -> sound W fv P (fun _ => False) c b0 c).
    { intros b0 P c H. constructor; auto; [|intros f; tauto]. split; auto. intros [H1|(f & [] & _)]; auto. }
    induction e as [l IH|e IH|a b IHa IHb| | | | | | |] using expr_ind'; intros c bb c' E HD HF.
    - revert c bb c' E HD HF. induction IH as [|x l Hx _ IH]; intros c bb c' E HD HF.
      + injection E as <- <-. apply Hpure. split; auto. intros _. exact I.
      + change (eval W T (EAnd (x :: l))) with (mbind (eval W T x) (fun r => if r then eval W T (EAnd l) else ret false)) in E.
        unfold mbind in E. destruct (eval W T x c) as [[b1 c1]| |] eqn:E1; try discriminate.
        change (truth (facts_of W fv T c) (EAnd (x :: l))) with (truth (facts_of W fv T c) x /\ truth (facts_of W fv T c) (EAnd l)).
        pose proof (Hst _ _ _ _ E1) as S1. pose proof (steps_same _ _ _ S1) as SI.
        destruct b1.
        * pose proof (Hst _ _ _ _ E) as S2.
          destruct (Hx c true c1 E1 HD (steps_sees W tr0 fv c1 c' S2 HF)) as [A1 A2 A3].
          destruct (IH c1 bb c' E (steps_started W tr0 _ _ S1 HD) HF) as [B1 B2 B3].
          rewrite (facts_same W fv T c c1 SI) in *. set (F := facts_of W fv T c) in *.
          assert (Htx : truth F x) by (now apply A1). constructor.
          -- rewrite B1. tauto.
          -- rewrite B2, A2.
             change (fun f => Consults F (EAnd (x :: l)) f) with (fun f => Consults F x f \/ (truth F x /\ Consults F (EAnd l) f)).
             split.
             ++ intros [[H|(f & H & H')]|(f & H & H')]; auto; right; exists f; split; auto; [left|right]; auto.
             ++ intros [H|(f & [H|[_ H]] & H')]; auto; [left; right|right]; exists f; auto.
          -- intros f. rewrite B3, A3.
             change (Consults F (EAnd (x :: l)) f) with (Consults F x f \/ (truth F x /\ Consults F (EAnd l) f)). tauto.
        * injection E as <- <-. destruct (Hx c false c1 E1 HD HF) as [A1 A2 A3].
          set (F := facts_of W fv T c) in *. assert (Htx : ~ truth F x) by (intros H; apply A1 in H; discriminate). constructor.
          -- split; [discriminate|]. tauto.
          -- rewrite A2. split.
             ++ intros [H|(f & H & H')]; auto. right. exists f. split; auto. now left.
             ++ intros [H|(f & [H|[H _]] & H')]; [auto| |contradiction]. right. exists f. auto.
          -- intros f. rewrite A3.
             change (Consults F (EAnd (x :: l)) f) with (Consults F x f \/ (truth F x /\ Consults F (EAnd l) f)). tauto.
    - cbn [eval] in E. unfold mbind in E. destruct (eval W T e c) as [[b1 c1]| |] eqn:E1; try discriminate.
      injection E as <- <-. destruct (IH c b1 c1 E1 HD HF) as [A1 A2 A3]. constructor; auto.
      cbn [truth]. destruct b1; cbn [negb]; [split; [discriminate|intros H; exfalso; apply H; now apply A1]|].
      split; auto. intros _ H. apply A1 in H. discriminate.
    - cbn [eval] in E. unfold mbind in E. destruct (eval W T a c) as [[b1 c1]| |] eqn:E1; try discriminate.
      pose proof (Hst _ _ _ _ E1) as S1. pose proof (steps_same _ _ _ S1) as SI. cbn [truth]. destruct b1.
      + injection E as <- <-. destruct (IHa c true c1 E1 HD HF) as [A1 A2 A3].
        set (F := facts_of W fv T c) in *. assert (Ht : truth F a) by (now apply A1). constructor.
        * split; auto.
        * rewrite A2. cbn [Consults]. split; (intros [H|(f & H & H')]; [auto|]); right; exists f; tauto.
        * intros f. rewrite A3. cbn [Consults]. tauto.
      + pose proof (Hst _ _ _ _ E) as S2.
        destruct (IHa c false c1 E1 HD (steps_sees W tr0 fv c1 c' S2 HF)) as [A1 A2 A3].
        destruct (IHb c1 bb c' E (steps_started W tr0 _ _ S1 HD) HF) as [B1 B2 B3].
        rewrite (facts_same W fv T c c1 SI) in *. set (F := facts_of W fv T c) in *.
        assert (Ht : ~ truth F a) by (intros H; apply A1 in H; discriminate). constructor.
        * rewrite B1. tauto.
        * rewrite B2, A2. cbn [Consults]. split.
          -- intros [[H|(f & H & H')]|(f & H & H')]; auto; right; exists f; split; auto.
          -- intros [H|(f & [H|[_ H]] & H')]; auto; [left; right|right]; exists f; auto.
        * intros f. rewrite B3, A3. cbn [Consults]. tauto.
    - injection E as <- <-. apply Hpure. split; auto. intros _. exact I.
    - injection E as <- <-. apply Hpure. cbn [truth facts_of f_trans]. destruct b, (t_tlson T); cbn; intuition congruence.
    - apply evalDnsbl_sound; auto.
    - eapply evalMatch_sound; eauto.
    - cbn [eval] in E. unfold mbind in E.
      destruct (evalMatch W T MHost a c) as [[b1 c1]| |] eqn:E1; try discriminate.
      assert (S1 : steps W c c1) by (eapply runs_matchEval; eauto). pose proof (steps_same _ _ _ S1) as SI1.
      cbn [Consults].
      destruct b1.
      + injection E as <- <-. destruct (evalMatch_sound W tr0 fv T MHost a c true c1 E1 HF) as [A1 A2 A3].
        constructor; auto. split; auto. intros _. destruct (proj1 A1 eq_refl) as (p & x & Hp & Hx & Hfit).
        cbn [truth]. exists p. split; auto. left. eauto.
      + destruct (evalMatch W T MHelo a c1) as [[b2 c2]| |] eqn:E2; try discriminate.
        assert (S2 : steps W c1 c2) by (eapply runs_matchEval; eauto). pose proof (steps_same _ _ _ S2) as SI2.
        destruct b2.
        * injection E as <- <-.
          destruct (evalMatch_sound W tr0 fv T MHost a c false c1 E1 (steps_sees W tr0 fv _ _ S2 HF)) as [A1 A2 A3].
          destruct (evalMatch_sound W tr0 fv T MHelo a c1 true c2 E2 HF) as [B1 B2 B3].
          rewrite (facts_same W fv T c c1 SI1) in *. constructor.
          -- split; auto. intros _. destruct (proj1 B1 eq_refl) as (p & x & Hp & [<-|[]] & Hfit). exists p. auto.
          -- rewrite B2, A2. tauto.
          -- intros f. rewrite B3, A3. tauto.
        * assert (S3 : steps W c2 c') by (eapply runs_matchEval; eauto).
          destruct (evalMatch_sound W tr0 fv T MHost a c false c1 E1 (steps_sees W tr0 fv _ _ (steps_trans _ _ _ _ S2 S3) HF)) as [A1 A2 A3].
          destruct (evalMatch_sound W tr0 fv T MHelo a c1 false c2 E2 (steps_sees W tr0 fv _ _ S3 HF)) as [B1 B2 B3].
          destruct (matchEval_sound W tr0 fv T a (matchFromHost (w_uni W)) (fun c => [c_from c])
                      (fun x p => AddrMatches (to_lower (w_uni W) x) (B "@" ++ p)) c2 bb c') as [D1 D2 D3]; auto.
          { intros x p b. apply matchAddress_sound. }
          { intros c3 []. cbn. congruence. }
          pose proof (same_trans _ _ _ SI1 SI2) as SI.
          rewrite (facts_same W fv T c c2 SI) in *. rewrite (facts_same W fv T c c1 SI1) in *. constructor.
          -- rewrite D1. rewrite (si_from _ _ SI). split.
             ++ intros (p & x & Hp & [<-|[]] & Hfit). exists p. split; auto.
             ++ intros (p & Hp & [(x & Hx & Hfit)|[Hfit|Hfit]]).
                ** assert (false = true); [|discriminate]. apply A1. exists p, x. auto.
                ** assert (false = true); [|discriminate]. apply B1. exists p, (c_heloname c). split; auto. split; auto. left. reflexivity.
                ** exists p, (c_from c). split; auto. split; auto. now left.
          -- rewrite D2, B2, A2. tauto.
          -- intros f. rewrite D3, B3, A3. tauto.
    - apply evalDbl_sound; auto.
    - apply evalOpt_sound; auto.
  Qed.
End Dns.
