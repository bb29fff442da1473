(** Properties of decisions: C33-C35, C37-C40. *)
From Coq Require Import Relations Permutation.
From Verif Require Import PropsParse.
From Verif Require Import Bytes Outcome Lexer Ast Parser Grammar GoNet World Dns Eval PropsMatch PropsAttr Sem EvalProofs DecideProofs Decisions PropsEval.

(** ** C33 *)

(** The rule is looked at in the phase, matches, and is not set-with. *)
Definition applies (F : facts) (ph : phase) (r : rule) : Prop :=
  eligible ph r /\ decides r /\ exists rc, Matches F ph r rc.

Lemma Run_first F ph rs a ws : Run F ph rs a ws ->
  (a = aNoresult /\ Forall (fun r => ~ applies F ph r) rs) \/
  (exists pre r post, rs = pre ++ r :: post /\ Forall (fun r => ~ applies F ph r) pre /\ applies F ph r /\ a = r_result r).
Proof.
  induction 1 as [|r rs a ws H _ IH|r rc rs a ws He Hm Hd _ IH|r rc rs He Hm Hd].
  - left. auto.
  - assert (Hr : ~ applies F ph r). { intros (A1 & A2 & rc & A3). eapply H; eauto. }
    destruct IH as [[-> IH]|(pre & x & post & -> & IH & Hx & ->)]; [left; auto|right].
    exists (r :: pre), x, post. auto.
  - assert (Hr : ~ applies F ph r). { intros (A1 & A2 & A3). contradiction. }
    destruct IH as [[-> IH]|(pre & x & post & -> & IH & Hx & ->)]; [left; auto|right].
    exists (r :: pre), x, post. auto.
  - right. exists [], r, rs. split; auto. split; auto. split; auto. split; eauto.
Qed.

(** The decision follows the rules: it is not a deferred one, nor about
    MAIL FROM:<> (for these see C38). *)
Definition by_rules (W : world) (fv : view) (rules : list rule) (d : decision) (earlier : list decision) : Prop :=
  ~ null_sender d /\ (quiet d -> forall a ws, ~ Deferred W fv rules earlier a ws).

Lemma by_rules_run W fv rules d earlier a ws : by_rules W fv rules d earlier -> Outcome W fv rules d earlier a ws ->
  Run (situation W fv (d :: earlier)) (d_phase d) rules a ws.
Proof.
  intros [H1 H2] HO. destruct HO as [a ws Hq HD|a ws Hn|a ws _ HR _]; auto; [|contradiction]. exfalso. eapply H2; eauto.
Qed.

(** A sufficient condition: the last MAIL FROM or HELO was not MAIL FROM:<>. *)
Lemma by_rules_simple W fv rules d earlier : ~ null_sender d ->
  (forall later d0 before, earlier = later ++ d0 :: before -> Forall quiet later -> ~ null_sender d0) ->
  by_rules W fv rules d earlier.
Proof.
  intros H1 H2. split; auto. intros _ a ws (later & d0 & before & E & Hq & Hn & _). eapply H2; eauto.
Qed.

Theorem C33_first_matching_rule_decides W rules tr0 h c fv later d earlier :
  fair_order W -> Forall from_file rules -> session W rules tr0 h c -> Saw W tr0 (c_trace c) fv ->
  h = later ++ d :: earlier -> by_rules W fv rules d earlier ->
  let F := situation W fv (d :: earlier) in
  (d_result d = aNoresult /\ forall r, In r rules -> ~ applies F (d_phase d) r) \/
  (exists pre r post, rules = pre ++ r :: post /\ (forall r', In r' pre -> ~ applies F (d_phase d) r') /\
     applies F (d_phase d) r /\ d_result d = r_result r).
Proof.
  intros HW HR Hs Hf E Hb F. destruct (session_sound W rules tr0 h c fv later d earlier HW HR Hs Hf E) as (ws & HO & _).
  destruct (Run_first _ _ _ _ _ (by_rules_run _ _ _ _ _ _ _ Hb HO)) as [[H1 H2]|(pre & r & post & H1 & H2 & H3 & H4)].
  - left. rewrite Forall_forall in H2. auto.
  - right. exists pre, r, post. rewrite Forall_forall in H2. auto.
Qed.

Definition demo_rules2 : list rule := text_rules (B "set-with all with note one
accept from @good.org with savedir d
@data stall to bob@ with message later
reject dnsbl bl.example with note two
").
Definition demo_trans2 : trans := mkTrans (B "1.2.3.4") (B "5.6.7.8") false no_rdns [B "ann@x"; B "bob@x"].
Definition demo_session : list (trans * phase * evt) :=
  [(demo_trans2, pMfrom, mkEvt None (B "x@good.org")); (demo_trans2, pRto, mkEvt None (B "bob@x")); (demo_trans2, pData, mkEvt None [])].

(** no file is read; the DNS is that of the world *)
Definition demo_view : view := static_view demo_world (fun _ => []).

Example C33_example : exists c d1 d2 d3,
  session demo_world demo_rules2 [] [d1; d2; d3] c /\
  d_result d1 = aAccept /\ d_result d2 = aAccept /\ d_result d3 = aAccept /\
  d_withs d1 = [(B "note", B "one"); (B "savedir", B "d")] /\
  by_rules demo_world demo_view demo_rules2 d1 [d2; d3] /\ Forall from_file demo_rules2 /\ length demo_rules2 = 4 /\
  fair_order demo_world /\ Saw demo_world [] (c_trace c) demo_view.
Proof.
  assert (HE : exists h c, run_session demo_world demo_rules2 demo_session [] (newContext []) = Some (h, c) /\ c_files c = []).
  { do 2 eexists. split; vm_compute; reflexivity. }
  destruct HE as (h & c & E & Hfil). assert (Hs := run_session_start _ _ _ _ _ _ E).
  assert (HS : Saw demo_world [] (c_trace c) demo_view).
  { destruct (static_Saw demo_world demo_static [] c (connection_session _ _ _ _ _ Hs)) as [S1 S2 S3 S4]. constructor; auto.
    intros f i Hi. exfalso. eapply (tr_read _ _ _ (session_traced _ _ _ _ _ Hs)); eauto. rewrite Hfil. reflexivity. }
  revert HS. vm_compute in E. injection E as <- <-. clear Hfil Hs. intros HS.
  do 4 eexists. split; [apply (run_session_start demo_world demo_rules2 [] demo_session); vm_compute; reflexivity|].
  repeat (split; [reflexivity|]). split.
  - apply by_rules_simple; [intros [H _]; discriminate|]. intros [|x [|y [|z l]]] d0 before E HQ [H1 H2]; cbn [app] in E.
    + injection E as <- <-. discriminate.
    + injection E as <- <- <-. discriminate.
    + destruct before; discriminate.
    + destruct l; discriminate.
  - split; [apply text_rules_from|]. split; [reflexivity|]. split; [apply demo_static|]. exact HS.
Qed.

(** ** C34 *)

Lemma skipped_true ph r : ~ eligible ph r -> skipped ph r = true.
Proof.
  unfold eligible, skipped, pltb. intros H. destruct (Nat.ltb_spec (pcode ph) (pcode (r_requires r))); auto.
  destruct (Nat.ltb_spec (pcode ph) (pcode (r_deferto r))); auto.
  destruct (peqb_spec (r_deferto r) pAny) as [E|E]; cbn [negb andb orb]; [exfalso; auto|].
  apply Nat.ltb_lt. assert (pcode (r_deferto r) <> pcode ph) by (intros E'; apply H; split; auto; right; now apply pcode_inj). lia.
Qed.

Lemma run_rules_skip W T ph pre r post c : skipped ph r = true ->
  run_rules W T ph (pre ++ r :: post) c = run_rules W T ph (pre ++ post) c.
Proof.
  intros Hs. revert c. induction pre as [|x pre IH]; intros c; cbn [app run_rules]; [now rewrite Hs|].
  destruct (skipped ph x); auto. unfold mbind. cbn [upd]. destruct (if _ && _ then _ else _) as [[b c1]| |]; auto. cbn [get].
  destruct (c_rulemiss c1); auto. destruct (b && _); auto.
Qed.

(** A rule without phase has no effect before the phase it requires; a rule
    with a phase has no effect in any other phase.  (In any world, any state.) *)
Theorem C34_ineligible_no_effect W T ph e pre r post c :
  (r_deferto r = pAny /\ pcode ph < pcode (r_requires r)) \/ (r_deferto r <> pAny /\ r_deferto r <> ph) ->
  Decide W T (pre ++ r :: post) ph e c = Decide W T (pre ++ post) ph e c.
Proof.
  intros H. assert (Hs : skipped ph r = true).
  { apply skipped_true. intros [H1 H2]. destruct H as [[_ H]|[H3 H4]]; [lia|]. destruct H2; contradiction. }
  unfold Decide, mbind. cbn [upd get]. destruct (Nat.leb _ _); auto. now rewrite run_rules_skip.
Qed.

(** A rule without phase is used from the phase it requires on, a rule with a
    phase is used in that phase: alone, it decides exactly when it matches. *)
Theorem C34_eligible_used W tr0 fv T ph e r c a c' :
  fair_order W -> from_file r -> decides r ->
  (r_deferto r = pAny /\ pcode (r_requires r) <= pcode ph) \/ (r_deferto r <> pAny /\ r_deferto r = ph) ->
  session W [r] tr0 [] c -> Decide W T [r] ph e c = Ok (a, c') -> Saw W tr0 (c_trace c') fv ->
  ~ (ph = pMfrom /\ e_arg e = []) ->
  let d := mkDecision T ph e a (c_withprops c') (c_dnsblhit c') (c_domerr c') in
  (a = r_result r <-> exists rc, Matches (situation W fv [d]) ph r rc) /\ (a <> r_result r -> a = aNoresult).
Proof.
  intros HW Hr Hd He Hs E Hf Hn d.
  assert (Hel : eligible ph r).
  { destruct He as [[H1 H2]|[H1 H2]]; [split; auto|]. split; auto.
    destruct (from_file_wf r Hr) as [(_ & _ & [H|H]) _]; [contradiction|]. rewrite H2 in H. exact H. }
  destruct (session_sound W [r] tr0 (d :: []) c' fv [] d [] HW (Forall_cons _ Hr (Forall_nil _)) (Se_next _ _ _ _ _ _ _ _ _ _ Hs E) Hf eq_refl) as (ws & HO & _).
  assert (Hb : by_rules W fv [r] d []).
  { apply by_rules_simple; [exact Hn|]. intros later d0 before EE. destruct later; discriminate. }
  pose proof (by_rules_run _ _ _ _ _ _ _ Hb HO) as HRun. cbn [d_phase d] in HRun.
  assert (Hres : r_result r <> aNoresult). { intros H. unfold decides in Hd. rewrite H in Hd. destruct Hd as [Hd|[Hd|[Hd|[]]]]; discriminate. }
  change (d_result d) with a in HRun. generalize dependent (situation W fv [d]). intros F HRun. clear -HRun Hel Hd Hres.
  inversion HRun as [|? ? ? ? Hno HR0|? rc ? ? ? _ Hm Hnd _|? rc ? _ Hm _]; subst; try contradiction.
  - inversion HR0 as [Ea| | |]; subst. split; [|auto]. split; [intros H; exfalso; apply Hres; symmetry; exact H|]. intros (rc & Hm). exfalso. eapply Hno; eauto.
  - split; [|intros H'; exfalso; apply H'; reflexivity]. split; eauto.
Qed.

Example C34_example :
  let r := mkRule [mkClause (EMatch MTo (B "bob@")) []] aStall pRto pData in
  text_rules (B "@data stall to bob@
") = [r] /\ (r_deferto r <> pAny /\ r_deferto r <> pMessage) /\ (r_deferto r <> pAny /\ r_deferto r = pData) /\ decides r.
Proof. split; [vm_compute; reflexivity|]. repeat split; try discriminate. right. left. reflexivity. Qed.

(** ** C35 *)

(** The rule [r], at its place in the rules, is used for the decision, through
    the clause [rc]: no rule before it decides. *)
Definition Used (F : facts) (ph : phase) (rules pre : list rule) (r : rule) (rc : rclause) : Prop :=
  (exists post, rules = pre ++ r :: post) /\ eligible ph r /\ Matches F ph r rc /\
  (forall r', In r' pre -> ~ applies F ph r').

Lemma Used_cons F ph r0 rules pre r rc : ~ applies F ph r0 ->
  Used F ph rules pre r rc <-> Used F ph (r0 :: rules) (r0 :: pre) r rc.
Proof.
  intros H0. unfold Used. split.
  - intros ((post & ->) & H1 & H2 & H3). split; [exists post; reflexivity|]. split; auto. split; auto. intros r' [<-|Hr']; auto.
  - intros ((post & E) & H1 & H2 & H3). injection E as ->. split; [exists post; reflexivity|]. split; auto. split; auto.
    intros r' Hr'. apply H3. right. auto.
Qed.

Lemma Used_here F ph r rules rc : eligible ph r -> Matches F ph r rc -> Used F ph (r :: rules) [] r rc.
Proof. intros H1 H2. split; [exists rules; reflexivity|]. split; [exact H1|]. split; [exact H2|]. intros r' []. Qed.

Lemma Run_setting F ph rs a ws : Run F ph rs a ws -> forall k v,
  Setting ws k v <-> exists pre r rc, Used F ph rs pre r rc /\ mget (rc_withs rc) k = Some v /\
    (forall pre2 r2 rc2, Used F ph rs pre2 r2 rc2 -> length pre < length pre2 -> mget (rc_withs rc2) k = None).
Proof.
  assert (HS0 : forall k v, ~ Setting [] k v) by (intros k v (p & w & q & E & _); destruct p; discriminate).
  induction 1 as [|r0 rs a ws H _ IH|r0 rc0 rs a ws He Hm Hd HRun IH|r0 rc0 rs He Hm Hd]; intros k v.
  - split; [intros HS; exfalso; eapply HS0; eauto|]. intros (pre & r & rc & ((post & E) & _) & _). destruct pre; discriminate.
  - assert (Hna : ~ applies F ph r0). { intros (A1 & A2 & rc & A3). eapply H; eauto. }
    rewrite IH. split.
    + intros (pre & r & rc & HU & Hg & Hl). exists (r0 :: pre), r, rc. split; [apply Used_cons; auto|]. split; auto.
      intros [|x pre2] r2 rc2 HU2 Hlt; [cbn in Hlt; lia|]. destruct (HU2) as ((post & E) & _). injection E as <- E.
      apply Used_cons in HU2; auto. eapply Hl; eauto. cbn in Hlt. lia.
    + intros ([|x pre] & r & rc & HU & Hg & Hl).
      * destruct HU as ((post & E) & A1 & A2 & _). injection E as -> ->. exfalso. eapply H; eauto.
      * destruct (HU) as ((post & E) & _). injection E as <- E. apply Used_cons in HU; auto. exists pre, r, rc. split; auto. split; auto.
        intros pre2 r2 rc2 HU2 Hlt. eapply (Hl (r0 :: pre2)); [apply Used_cons; eauto|cbn; lia].
  - assert (Hna : ~ applies F ph r0). { intros (A1 & A2 & A3). contradiction. }
    assert (HU0 : Used F ph (r0 :: rs) [] r0 rc0). { now apply Used_here. }
    assert (HS : Setting (rc_withs rc0 :: ws) k v <-> Setting ws k v \/ (mget (rc_withs rc0) k = Some v /\ Forall (fun w => mget w k = None) ws)).
    { split.
      - intros ([|y p] & w & q & E & A1 & A2); injection E as <- ->; [right; auto|]. left. exists p, w, q. auto.
      - intros [(p & w & q & -> & A)|A]; [exists (rc_withs rc0 :: p), w, q; auto|exists [], (rc_withs rc0), ws; auto]. }
    assert (HN : Forall (fun w => mget w k = None) ws <-> forall pre r rc, Used F ph rs pre r rc -> mget (rc_withs rc) k = None).
    { clear -HRun. induction HRun as [|r1 rs a ws H _ IH|r1 rc1 rs a ws He Hm Hd HRun IH|r1 rc1 rs He Hm Hd].
      - split; auto. intros _ pre r rc ((post & E) & _). destruct pre; discriminate.
      - assert (Hna : ~ applies F ph r1). { intros (A1 & A2 & rc & A3). eapply H; eauto. }
        rewrite IH. split.
        + intros HA [|x pre] r rc HU; destruct (HU) as ((post & E) & A1 & A2 & _).
          * injection E as -> ->. exfalso. eapply H; eauto.
          * injection E as <- E. apply Used_cons in HU; eauto.
        + intros HA pre r rc HU. apply (HA (r1 :: pre) r rc). apply Used_cons; auto.
      - assert (Hna : ~ applies F ph r1). { intros (A1 & A2 & A3). contradiction. }
        split.
        + intros HF. inversion HF as [|? ? H1 H2]; subst. intros [|x pre] r rc HU; destruct (HU) as ((post & E) & A1 & A2 & _).
          * injection E as -> ->. rewrite (Matches_unique _ _ _ _ _ A2 Hm). auto.
          * injection E as <- E. apply Used_cons in HU; auto. eapply (proj1 IH); eauto.
        + intros HA. constructor.
          * apply (HA [] r1). now apply Used_here.
          * apply IH. intros pre r rc HU. apply (HA (r1 :: pre) r rc). apply Used_cons; auto.
      - split.
        + intros HF. inversion HF as [|? ? H1 _]; subst. intros [|x pre] r rc HU; destruct (HU) as ((post & E) & A1 & A2 & A3).
          * injection E as -> ->. rewrite (Matches_unique _ _ _ _ _ A2 Hm). auto.
          * injection E as <- E. exfalso. apply (A3 r1); [left; reflexivity|]. split; eauto.
        + intros HA. constructor; auto. apply (HA [] r1). now apply Used_here. }
    rewrite HS, IH, HN. split.
    + intros [(pre & r & rc & HU & Hg & Hl)|[Hg Hl]].
      * exists (r0 :: pre), r, rc. split; [apply Used_cons; auto|]. split; auto.
        intros [|x pre2] r2 rc2 HU2 Hlt; [cbn in Hlt; lia|]. destruct (HU2) as ((post & E) & _). injection E as <- E.
        apply Used_cons in HU2; auto. eapply Hl; eauto. cbn in Hlt. lia.
      * exists [], r0, rc0. split; auto. split; auto. intros [|x pre2] r2 rc2 HU2 Hlt; [cbn in Hlt; lia|].
        destruct (HU2) as ((post & E) & _). injection E as <- E. apply Used_cons in HU2; auto. eapply Hl; eauto.
    + intros ([|x pre] & r & rc & HU & Hg & Hl); destruct (HU) as ((post & E) & A1 & A2 & _).
      * injection E as -> ->. rewrite (Matches_unique _ _ _ _ _ A2 Hm) in *. right. split; auto.
        intros pre2 r2 rc2 HU2. apply (Hl (r :: pre2) r2 rc2); [apply Used_cons; auto|cbn; lia].
      * injection E as <- E. apply Used_cons in HU; auto. left. exists pre, r, rc. split; auto. split; auto.
        intros pre2 r2 rc2 HU2 Hlt. eapply (Hl (r0 :: pre2)); [apply Used_cons; eauto|cbn; lia].
  - split.
    + intros (p & w & q & E & A1 & A2). destruct p as [|y p]; [|destruct p; discriminate]. injection E as <- <-.
      exists [], r0, rc0. split; [now apply Used_here|]. split; auto.
      intros [|x pre2] r2 rc2 HU2 Hlt; [cbn in Hlt; lia|]. destruct (HU2) as ((post & E) & _ & _ & A3). injection E as <- E.
      exfalso. apply (A3 r0); [left; reflexivity|]. split; eauto.
    + intros ([|x pre] & r & rc & HU & Hg & Hl); destruct (HU) as ((post & E) & A1 & A2 & A3).
      * injection E as -> ->. rewrite (Matches_unique _ _ _ _ _ A2 Hm) in *. exists [], (rc_withs rc0), []. auto.
      * injection E as <- E. exfalso. apply (A3 r0); [left; reflexivity|]. split; eauto.
Qed.

(** After a decision, a with option has the value given by the last of the
    rules used, up to and including the deciding one, whose clause sets it;
    options of other rules, or of earlier commands, do not appear. *)
Theorem C35_last_setter_wins W rules tr0 h c fv later d earlier :
  fair_order W -> Forall from_file rules -> session W rules tr0 h c -> Saw W tr0 (c_trace c) fv ->
  h = later ++ d :: earlier -> by_rules W fv rules d earlier ->
  let F := situation W fv (d :: earlier) in
  forall k v, mget (d_withs d) k = Some v <->
    exists pre r rc, Used F (d_phase d) rules pre r rc /\ mget (rc_withs rc) k = Some v /\
      (forall pre2 r2 rc2, Used F (d_phase d) rules pre2 r2 rc2 -> length pre < length pre2 -> mget (rc_withs rc2) k = None).
Proof.
  intros HW HR Hs Hf E Hb F k v. destruct (session_sound W rules tr0 h c fv later d earlier HW HR Hs Hf E) as (ws & HO & HWs).
  rewrite HWs. apply (Run_setting _ _ _ _ _ (by_rules_run _ _ _ _ _ _ _ Hb HO)).
Qed.

(** the second setter overrides the first; the rule after the deciding one and
    the one that does not match set nothing *)
Example C35_example :
  let rules := text_rules (B "set-with all with note one message m
set-with from a@ with message no
set-with from @good.org with note two
accept all with savedir d
set-with all with note three
") in
  exists c d, session demo_world rules [] [d] c /\ d_result d = aAccept /\
    d_withs d = [(B "note", B "two"); (B "message", B "m"); (B "savedir", B "d")].
Proof.
  cbv zeta. do 2 eexists. split; [apply (run_session_start demo_world _ [] [(demo_trans2, pMfrom, mkEvt None (B "x@good.org"))]); vm_compute; reflexivity|].
  split; reflexivity.
Qed.

(** ** C37 *)

(** After the recipients were given, a rule about recipients matches exactly
    when it does for one of the accepted recipients, none of those before it
    being given up for a file without entries. *)
Theorem C37_some_recipient W tr0 fv T ph e r c a c' :
  fair_order W -> from_file r -> decides r -> eligible ph r -> In ph [pData; pMessage] -> pcode pRto <= pcode (r_requires r) ->
  session W [r] tr0 [] c -> Decide W T [r] ph e c = Ok (a, c') -> Saw W tr0 (c_trace c') fv ->
  let F := situation W fv [mkDecision T ph e a (c_withprops c') (c_dnsblhit c') (c_domerr c')] in
  (a = r_result r <-> exists pre x post, t_rcptto T = pre ++ x :: post /\
      (exists rc, Fires (with_rcpt F x) (r_clauses r) rc) /\
      Forall (fun y => (forall rc, ~ Fires (with_rcpt F y) (r_clauses r) rc) /\ ~ GivenUp (with_rcpt F y) (r_clauses r)) pre) /\
  (a <> r_result r -> a = aNoresult).
Proof.
  intros HW Hr Hd Hel Hph Hreq Hs E Hf F.
  assert (HP : pcode pRto < pcode ph) by (destruct Hph as [<-|[<-|[]]]; cbn; lia).
  destruct (C34_eligible_used W tr0 fv T ph e r c a c' HW Hr Hd) as [H1 H2]; auto.
  { destruct Hel as [A1 A2]. destruct (peqb_spec (r_deferto r) pAny) as [A3|A3]; [left; auto|]. right. split; auto. destruct A2; [contradiction|auto]. }
  { intros [-> _]. cbn in HP. lia. }
  fold F in H1. split; auto. rewrite H1. unfold Matches, per_recipient. split.
  - intros (rc & [[A _]|(_ & pre & x & post & A1 & A2 & A3)]); [exfalso; apply A; auto|]. exists pre, x, post. split; [exact A1|]. split; eauto.
  - intros (pre & x & post & A1 & (rc & A2) & A3). exists rc. right. split; auto. exists pre, x, post. auto.
Qed.

(** With no recipients such a rule does not match. *)
Corollary C37_no_recipients W tr0 T ph e r c a c' :
  from_file r -> decides r -> eligible ph r -> In ph [pData; pMessage] -> pcode pRto <= pcode (r_requires r) ->
  session W [r] tr0 [] c -> Decide W T [r] ph e c = Ok (a, c') -> t_rcptto T = [] -> a = aNoresult.
Proof.
  intros Hr Hd Hel Hph Hreq Hs E Hn.
  assert (Hsk : skipped ph r = false) by (apply (skipped_eligible ph r); [apply from_file_wf; auto|auto]).
  assert (HP : pltb pRto ph && pleb pRto (r_requires r) = true).
  { apply per_recipient_spec. split; auto. destruct Hph as [<-|[<-|[]]]; cbn; lia. }
  inversion Hs; subst. unfold Decide, mbind, upd, get in E. cbn [run_rules] in E. rewrite Hsk, HP, Hn in E.
  destruct Hph as [<-|[<-|[]]]; vm_compute in E; congruence.
Qed.

Example C37_example :
  let r := mkRule [mkClause (EMatch MTo (B "bob@")) []] aStall pRto pAny in
  text_rules (B "stall to bob@
") = [r] /\ decides r /\ eligible pData r /\
  (exists c', Decide demo_world demo_trans2 [r] pData (mkEvt None []) (newContext []) = Ok (aStall, c')) /\
  (exists c', Decide demo_world demo_trans [r] pData (mkEvt None []) (newContext []) = Ok (aNoresult, c')).
Proof.
  split; [vm_compute; reflexivity|]. split; [right; left; reflexivity|]. split; [split; [cbn; lia|auto]|].
  split; eexists; vm_compute; reflexivity.
Qed.

(** ** C38 *)

Theorem C38_null_sender_not_refused W T rules e c a c' :
  Decide W T rules pMfrom e c = Ok (a, c') -> e_arg e = [] -> ~ refuses a.
Proof.
  intros E He. unfold Decide, mbind in E. cbn [upd get shadow] in E. cbn [c_defresult set_domerr set_withprops set_dnsblhit set_defresult set_from] in E.
  cbn [acode Nat.leb] in E.
  match type of E with context [run_rules W T pMfrom rules ?x] => set (c0 := x) in E end.
  assert (Hfrom : c_from c0 = []) by exact He.
  destruct (run_rules W T pMfrom rules c0) as [[a1 c1]| |] eqn:E1; try discriminate.
  assert (Hk : c_from c1 = c_from c0).
  { clearbody c0. clear -E1. revert c0 a1 c1 E1.
    assert (KC : forall cs c b c', check_clauses W T cs c = Ok (b, c') -> c_from c' = c_from c).
    { induction cs as [|x cs IH]; intros c b c' E; cbn [check_clauses] in E; [injection E as <- <-; reflexivity|].
      unfold mbind in E. destruct (eval W T (rc_expr x) c) as [[b1 c1]| |] eqn:Ee; try discriminate.
      pose proof (si_from _ _ (steps_same _ _ _ (runs_eval W T _ _ _ _ Ee))) as Hf. cbn [get] in E.
      destruct (c_rulemiss c1); [injection E as <- <-; exact Hf|]. destruct b1; cbn [negb upd] in E.
      - injection E as <- <-. exact Hf.
      - rewrite <- Hf. eapply IH; eauto. }
    assert (KK : forall r c b c', check W T r c = Ok (b, c') -> c_from c' = c_from c).
    { intros r c b c' E. unfold check, mbind in E. cbn [upd] in E. apply KC in E. exact E. }
    assert (KE : forall r l c b c', ruleForEachRcpt W T r l c = Ok (b, c') -> c_from c' = c_from c).
    { induction l as [|x l IH]; intros c b c' E; cbn [ruleForEachRcpt] in E; [injection E as <- <-; reflexivity|].
      unfold mbind in E. cbn [upd] in E. destruct (check W T r (set_rcptto x c)) as [[[] c1]| |] eqn:Ec; try discriminate.
      - injection E as <- <-. apply KK in Ec. exact Ec.
      - apply KK in Ec. cbn [get] in E. destruct (c_rulemiss c1); [injection E as <- <-; exact Ec|]. apply IH in E. rewrite E. exact Ec. }
    induction rules as [|r rs IH]; intros c a c' E; cbn [run_rules] in E; [injection E as <- <-; reflexivity|].
    destruct (skipped pMfrom r); [eauto|]. unfold mbind in E. cbn [upd] in E.
    match type of E with match ?m with _ => _ end = _ => destruct m as [[b c1]| |] eqn:Em; try discriminate end.
    assert (H1 : c_from c1 = c_from c).
    { destruct (_ && _) in Em; [apply KE in Em|apply KK in Em]; exact Em. }
    cbn [get] in E. destruct (c_rulemiss c1); [rewrite <- H1; eauto|]. destruct (b && _); [injection E as <- <-; auto|].
    rewrite <- H1. eauto. }
  cbn [get] in E. rewrite Hk, Hfrom in E. cbn [peqb pcode Nat.eqb beqb andb] in E.
  destruct (agtb a1 aAccept) eqn:Er.
  - cbn [upd] in E. injection E as <- _. intros [H|H]; discriminate.
  - injection E as <- _. intros H. apply agtb_refuses in H. congruence.
Qed.

(** If the rules refuse MAIL FROM:<>, every later decision up to the next
    MAIL FROM or HELO is that refusal, with the options computed then. *)
Theorem C38_refusal_deferred W rules tr0 h c fv later d between d0 earlier a ws :
  fair_order W -> Forall from_file rules -> session W rules tr0 h c -> Saw W tr0 (c_trace c) fv ->
  h = later ++ d :: between ++ d0 :: earlier ->
  null_sender d0 -> Run (situation W fv (d0 :: earlier)) pMfrom rules a ws -> refuses a ->
  Forall quiet (d :: between) ->
  d_result d0 = aAccept /\ d_result d = a /\ (forall k v, mget (d_withs d) k = Some v <-> Setting ws k v).
Proof.
  intros HW HR Hs Hf E Hn HRun Hr Hq. inversion Hq as [|? ? Hqd Hqb]; subst.
  split.
  - destruct (session_sound W rules tr0 _ c fv (later ++ d :: between) d0 earlier HW HR Hs Hf) as (ws0 & HO & _).
    { rewrite <- app_assoc. reflexivity. }
    destruct HO as [a0 ws0 Hq0 HD|a0 ws0 _ HR0 Hr0|a0 ws0 Hd0 HR0 Hnr]; auto.
    + destruct Hn, Hq0. contradiction.
    + exfalso. apply Hnr. split; auto. destruct Hn as [N1 N2]. rewrite N1 in HR0. destruct (Run_det _ _ _ _ _ HRun _ _ HR0). subst. auto.
  - destruct (session_sound W rules tr0 _ c fv later d (between ++ d0 :: earlier) HW HR Hs Hf eq_refl) as (ws1 & HO & HWs).
    assert (HD : Deferred W fv rules (between ++ d0 :: earlier) a ws) by (exists between, d0, earlier; auto).
    assert (HU : forall a' ws', Deferred W fv rules (between ++ d0 :: earlier) a' ws' -> a' = a /\ ws' = ws).
    { clear -HRun Hqb Hn. intros a' ws' (l' & d' & e' & E & Hq' & Hn' & HR' & _). revert l' E Hq'.
      induction Hqb as [|x between Hx _ IH]; intros [|y l'] E Hq'; injection E as -> E.
      - subst e'. destruct (Run_det _ _ _ _ _ HRun _ _ HR'). auto.
      - inversion Hq' as [|? ? [_ H] _]; subst. destruct Hn. contradiction.
      - destruct Hn', Hx. contradiction.
      - inversion Hq'; subst. eapply IH; eauto. }
    inversion HO as [a1 ws1' _ HD1 Ea|a1 ws1' Hn1 _ _ Ea|a1 ws1' Hd1 _ _ Ea]; subst.
    + destruct (HU _ _ HD1) as [-> ->]. auto.
    + destruct Hn1, Hqd. contradiction.
    + exfalso. eapply Hd1; eauto.
Qed.

Example C38_example :
  let rules := text_rules (B "stall dnsbl bl.example with message later
") in
  exists c d1 d2 d3, session demo_world rules [] [d3; d2; d1] c /\ null_sender d1 /\ Forall quiet [d3; d2] /\
    d_result d1 = aAccept /\ d_withs d1 = [] /\ d_result d2 = aStall /\ d_withs d2 = [(B "message", B "later")] /\
    d_result d3 = aStall /\ d_hits d3 = [B "bl.example."].
Proof.
  cbv zeta. do 4 eexists. split; [apply (run_session_start demo_world _ [] [(demo_trans2, pMfrom, mkEvt None []); (demo_trans2, pRto, mkEvt None (B "x")); (demo_trans2, pRto, mkEvt None (B "y"))]); vm_compute; reflexivity|].
  split; [split; reflexivity|]. split; [repeat constructor; discriminate|]. repeat split; reflexivity.
Qed.
