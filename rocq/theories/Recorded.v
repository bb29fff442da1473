(** C75: the record of a message, to the byte, and what is said about the
    client's certificate. *)
From Verif Require Import PropsParse.
From Verif Require Import Bytes Outcome Lexer Ast GoNet Parser World Dns Eval PropsDns Decisions RuleLoad PropsLoad ConnCfg PropsConn CipherNames Message Session SessProofs Conv PropsEval PropsSession PropsSession2 DemoSession PropsHits Records.
From Coq Require Import Lia.

(** ** Specification *)

(** The name of a certificate. *)
Inductive CertName (c : cert) : bytes -> Prop :=
| Cn_cn : cert_cn c <> [] -> CertName c (cert_cn c)
| Cn_dns d l : cert_cn c = [] -> cert_dns c = d :: l -> CertName c d
| Cn_none : cert_cn c = [] -> cert_dns c = [] -> CertName c (B "<no CN or DNS Names>").

(** The client shows the certificate [c], which is good or not: either it was
    verified while TLS was set up, or it is now, with the others shown. *)
Inductive Shows (E : senv) (tls : tlsstate) (c : cert) : bool -> Prop :=
| Sh_chain cs more : ts_chains tls = (c :: cs) :: more -> Shows E tls c true
| Sh_good i cs : ts_chains tls = [] -> ts_peers tls = c :: cs -> v_verify E i c cs = None -> Shows E tls c true
| Sh_bad i cs e : ts_chains tls = [] -> ts_peers tls = c :: cs -> v_verify E i c cs = Some e -> Shows E tls c false.
Definition shows_none (tls : tlsstate) : Prop := ts_chains tls = [] /\ ts_peers tls = [].

(** The certificate on record, with a history (latest turn first): the one shown
    with the latest message that came with one. *)
Inductive OnRecord (E : senv) : list turn -> option (bytes * bool) -> Prop :=
| Or_none : OnRecord E [] None
| Or_shown t h data c n ok : t_event t = EvGotData data -> Shows E (t_tls t) c ok -> CertName c n -> OnRecord E (t :: h) (Some (n, ok))
| Or_same t h o : (forall data, t_event t = EvGotData data -> shows_none (t_tls t)) -> OnRecord E h o -> OnRecord E (t :: h) o.

(** TLS versions *)
Definition versions : list (N * bytes) :=
  [(768, B "SSLv3"); (769, B "TLSv1.0"); (770, B "TLSv1.1"); (771, B "TLSv1.2"); (772, B "TLSv1.3")]%N.
Definition names_it (table : list (N * bytes)) (k : N) (o : option bytes) : Prop :=
  match o with Some x => In (k, x) table | None => forall x, ~ In (k, x) table end.

(** What is said about TLS, as words. *)
Definition TlsWords (tls : tlsstate) (o : option (bytes * bool)) (line : bytes) : Prop :=
  exists cipher version, names_it cipherTable (ts_cipher tls) cipher /\ names_it versions (ts_version tls) version /\
  line = join (B " ") (
    [B "tls on"; B "cipher 0x" ++ hex4 (ts_cipher tls)] ++
    match cipher with Some x => [B "name " ++ x] | None => [] end ++
    [B "proto " ++ match version with Some x => x | None => B "tls-0x" ++ hex4 (ts_version tls) end] ++
    match ts_server tls with [] => [] | n => [B "server-name '" ++ n ++ B "'"] end ++
    match o with
    | None => []
    | Some (n, ok) => match n with [] => [] | _ => [B "client-name '" ++ n ++ B "'"] end ++ (if ok : bool then [B "client-name-verified"] else [])
    end).
Definition tls_said (tls : tlsstate) (o : option (bytes * bool)) (l : list bytes) : Prop :=
  if ts_on tls then exists line, TlsWords tls o line /\ l = [line] else l = [].

(** names from DNS, on one line *)
Definition names_line (key : bytes) (l : list bytes) : list bytes := match l with [] => [] | _ => [join (B " ") (key :: l)] end.

(** four hexadecimal digits *)
Definition hex_value (c : ascii) : option N :=
  match index_byte (B "0123456789abcdef") c with Some i => Some (N.of_nat i) | None => None end.

(** ** Texts *)

Lemma hex_digit_value k : (k < 16)%N -> hex_value (hex_digit k) = Some k.
Proof. intros H. do 16 (destruct k as [|k] using N.peano_ind; [reflexivity|clear IHk]). lia. Qed.

(** The number is written in hexadecimal with four digits. *)
Theorem C75_hex n : (n < 65536)%N -> exists a b c d va vb vc vd, hex4 n = [a; b; c; d] /\
  hex_value a = Some va /\ hex_value b = Some vb /\ hex_value c = Some vc /\ hex_value d = Some vd /\
  n = (4096 * va + 256 * vb + 16 * vc + vd)%N.
Proof.
  intros Hn. unfold hex4. cbn [map]. rewrite !N.shiftr_div_pow2.
  set (va := ((n / 2 ^ 12) mod 16)%N). set (vb := ((n / 2 ^ 8) mod 16)%N). set (vc := ((n / 2 ^ 4) mod 16)%N). set (vd := ((n / 2 ^ 0) mod 16)%N).
  exists (hex_digit va), (hex_digit vb), (hex_digit vc), (hex_digit vd), va, vb, vc, vd.
  split; [reflexivity|]. do 4 (split; [apply hex_digit_value; apply N.mod_lt; discriminate|]).
  subst va vb vc vd. change (2 ^ 12)%N with 4096%N. change (2 ^ 8)%N with 256%N. change (2 ^ 4)%N with 16%N. change (2 ^ 0)%N with 1%N.
  rewrite N.div_1_r.
  pose proof (N.div_mod n 16 ltac:(discriminate)) as E1.
  pose proof (N.div_mod (n / 16) 16 ltac:(discriminate)) as E2. rewrite N.div_div in E2 by discriminate. change (16 * 16)%N with 256%N in E2.
  pose proof (N.div_mod (n / 256) 16 ltac:(discriminate)) as E3. rewrite N.div_div in E3 by discriminate. change (256 * 16)%N with 4096%N in E3.
  assert (E4 : (n / 4096 < 16)%N) by (apply N.div_lt_upper_bound; [discriminate|lia]).
  rewrite (N.mod_small (n / 4096) 16) by exact E4. lia.
Qed.

Lemma tlsName_is c : CertName c (tlsName c).
Proof.
  unfold tlsName. destruct (beqb_spec (cert_cn c) []) as [E|E]; cbn [negb]; [|now constructor].
  destruct (cert_dns c) as [|d l] eqn:Ed; [now apply Cn_none|eapply Cn_dns; eauto].
Qed.
Lemma cipher_named n : names_it cipherTable n (match cipherNames n with [] => None | x => Some x end).
Proof.
  assert (Hne : forallb (fun p => negb (beqb (snd p) [])) cipherTable = true) by (vm_compute; reflexivity). rewrite forallb_forall in Hne.
  unfold cipherNames. destruct (find (fun p => N.eqb (fst p) n) cipherTable) as [[k x]|] eqn:E.
  - pose proof (find_some _ _ E) as (Hi & Hk). apply N.eqb_eq in Hk. cbn in Hk. subst k. specialize (Hne _ Hi). cbn [snd] in *. destruct x; [discriminate|exact Hi].
  - intros x Hx. apply (find_none _ _ E) in Hx. cbn in Hx. rewrite N.eqb_refl in Hx. discriminate.
Qed.
Lemma version_named v : exists o, names_it versions v o /\ tlsProtoVersion v = match o with Some x => x | None => B "tls-0x" ++ hex4 v end.
Proof.
  unfold tlsProtoVersion.
  destruct (N.eqb_spec v 768) as [->|H1]; [exists (Some (B "SSLv3")); split; [cbn; auto 10|reflexivity]|].
  destruct (N.eqb_spec v 769) as [->|H2]; [exists (Some (B "TLSv1.0")); split; [cbn; auto 10|reflexivity]|].
  destruct (N.eqb_spec v 770) as [->|H3]; [exists (Some (B "TLSv1.1")); split; [cbn; auto 10|reflexivity]|].
  destruct (N.eqb_spec v 771) as [->|H4]; [exists (Some (B "TLSv1.2")); split; [cbn; auto 10|reflexivity]|].
  destruct (N.eqb_spec v 772) as [->|H5]; [exists (Some (B "TLSv1.3")); split; [cbn; auto 10|reflexivity]|].
  exists None. split; [|reflexivity]. intros x Hx. unfold versions in Hx. cbn [In] in Hx.
  repeat (destruct Hx as [Hx|Hx]; [apply (f_equal fst) in Hx; cbn [fst] in Hx; congruence|]). exact Hx.
Qed.
Lemma join_cons x y l : join (B " ") (x :: y :: l) = x ++ B " " ++ join (B " ") (y :: l).
Proof. reflexivity. Qed.
Lemma join_words x l : join (B " ") (x :: l) = x ++ concat (map (fun w => B " " ++ w) l).
Proof.
  revert x. induction l as [|y l IH]; intros x; [cbn [join map concat]; rewrite app_nil_r; reflexivity|].
  rewrite join_cons, IH. cbn [map concat]. rewrite <- !app_assoc. reflexivity.
Qed.
Lemma names_line_is key l : dns_line key l = names_line key l.
Proof. destruct l as [|x l]; [reflexivity|]. unfold dns_line, names_line. rewrite join_words. reflexivity. Qed.

Definition certified (t : tx) (o : option (bytes * bool)) : Prop :=
  match o with None => x_peer t = [] /\ x_verified t = false | Some (n, ok) => x_peer t = n /\ x_verified t = ok end.
Lemma tls_line_is t tls o : certified t o -> x_tlson t = ts_on tls -> x_cipher t = ts_cipher tls -> x_version t = ts_version tls -> x_server t = ts_server tls ->
  tls_said tls o (tls_line t).
Proof.
  intros Ho H1 H2 H3 H4. unfold tls_said, tls_line. rewrite <- H1. destruct (x_tlson t) eqn:Et; [|reflexivity].
  eexists. split; [|reflexivity]. destruct (version_named (ts_version tls)) as (v & Hv & Ev).
  eexists _, v. split; [apply cipher_named|]. split; [exact Hv|]. rewrite <- Ev.
  unfold tlsLine. rewrite Et, !app_assoc, removelast_last, <- !app_assoc, H2, H3, H4. cbn [app]. rewrite join_words.
  change (map (fun w => B " " ++ w) ((B "cipher 0x" ++ hex4 (ts_cipher tls)) :: ?l)) with ((B " " ++ B "cipher 0x" ++ hex4 (ts_cipher tls)) :: map (fun w => B " " ++ w) l).
  cbn [concat]. rewrite !map_app, !concat_app. cbn [map concat]. rewrite ?app_nil_r, <- !app_assoc.
  change (B "tls on cipher 0x") with (B "tls on" ++ B " " ++ B "cipher 0x"). rewrite <- !app_assoc.
  do 4 f_equal. f_equal.
  { destruct (cipherNames (ts_cipher tls)); reflexivity || (cbn [map concat beqb]; rewrite app_nil_r; reflexivity). }
  change (B " proto ") with (B " " ++ B "proto "). rewrite <- !app_assoc. rewrite map_app, concat_app. do 3 f_equal. f_equal.
  { destruct (ts_server tls); reflexivity || (cbn [map concat beqb]; rewrite app_nil_r; reflexivity). }
  destruct o as [[n ok]|]; destruct Ho as (-> & ->); [|reflexivity].
  rewrite map_app, concat_app. f_equal.
  { destruct n; reflexivity || (cbn [map concat beqb]; rewrite app_nil_r; reflexivity). }
  destruct ok; reflexivity.
Qed.

(** ** Sessions *)

(** What is said in the log about the certificate that the client shows. *)
Inductive CertLine (E : senv) (tls : tlsstate) : option bytes -> Prop :=
| Cl_none : ts_peers tls = [] -> CertLine E tls None
| Cl_good c cs n : ts_peers tls = c :: cs -> CertName c n -> ts_chains tls <> [] \/ ts_chains tls = [] /\ (exists i, v_verify E i c cs = None) ->
    CertLine E tls (Some (B "! TLS client certificate for '" ++ n ++ B "' verifies."))
| Cl_bad c cs n i e : ts_peers tls = c :: cs -> CertName c n -> ts_chains tls = [] -> v_verify E i c cs = Some e ->
    CertLine E tls (Some (B "! TLS client certificate for '" ++ n ++ B "' doesn't verify: " ++ e)).

(** Whether it has been noted, with a history, that TLS is on: at the latest
    message it was, or at an accepted HELO since then. *)
Fixpoint tls_noted (h : list turn) : bool :=
  match h with
  | [] => false
  | t :: h' => match t_event t with
               | EvGotData _ => ts_on (t_tls t)
               | EvHelo _ _ => if accepted t then tls_noted h' || ts_on (t_tls t) else tls_noted h'
               | _ => tls_noted h'
               end
  end.

Section S.
  Context (K : config) (E : senv) (cn : conn).

  Lemma Judged_cert I t c ph e res c' t' d o : Judged E cn I t c ph e res c' t' d -> certified t o -> certified t' o.
  Proof. intros [_ _ (m & am & ->) _]. destruct o as [[]|]; auto. Qed.
  Lemma message_cert h data tls did when t t' o : message_tx E tls when data t t' -> certified t o -> OnRecord E h o ->
    exists o', certified t' o' /\ OnRecord E (mkTurn (EvGotData data) tls did :: h) o'.
  Proof.
    intros (p & v & (_ & Hp & _ & Hv & Hg) & ->) Hc Ho. unfold getHashes. unfold peer_cert, cert_good in *.
    destruct (ts_chains tls) as [|[|c cs] more] eqn:Ec.
    - destruct (ts_peers tls) as [|c cs] eqn:Ep.
      + exists o. split; [|apply Or_same; auto; intros d _; split; auto]. rewrite (Hv eq_refl), Hp. destruct o as [[]|]; exact Hc.
      + destruct Hg as (i & Hg). exists (Some (p, v)). split; [split; reflexivity|]. eapply Or_shown; [reflexivity| |rewrite Hp; apply tlsName_is].
        cbn [t_tls]. subst v. destruct (v_verify E i c cs) eqn:Ev; [eapply Sh_bad|eapply Sh_good]; eauto.
    - destruct Hg.
    - exists (Some (p, v)). split; [split; reflexivity|]. eapply Or_shown; [reflexivity| |rewrite Hp; apply tlsName_is].
      cbn [t_tls]. subst v. eapply Sh_chain; eauto.
  Qed.
  Lemma OnRecord_other t h o : (forall data, t_event t <> EvGotData data) -> OnRecord E h o -> OnRecord E (t :: h) o.
  Proof. intros H. apply Or_same. intros data Hd. destruct (H _ Hd). Qed.

  Lemma Conv_certified I h s : Conv K E cn I h s -> exists o, certified (s_tx s) o /\ OnRecord E h o.
  Proof.
    induction 1 as [s Hs|h s ev tls s' did HC IH Hst Ha].
    - exists None. split; [|constructor].
      apply setup_Setup in Hs. destruct Hs as [rr hit n inf l1 l2 sname tr1 name certs tr2 l3 thit tn l4 rd tr0 refused res c ans s1 l5 Hr Hi Hp Hc HL _ _ _ _ _ HD _].
      apply Decided_Judged in HD as (t & log & HJ & _ & _ & Hs & _). destruct Hs as (Ht & _). cbn [add_out s_tx]. rewrite Ht.
      eapply Judged_cert; [exact HJ|]. split; reflexivity.
    - assert (HT : Turn K E cn I h (mkTurn ev tls did) Go s s') by (repeat split; auto).
      apply Turn_Did in HT. cbn [t_event t_tls t_did] in HT. destruct IH as (o & I1 & I2). remember (vis did) as l0 eqn:El. clear El Hst Ha.
      destruct HT as [ev tls ph e res c t d s' Hc Hr HJ Hs|cmd arg tls res c t d s' Hr HJ Hs|arg tls res c t d n s' Hr HJ Hy Hn Hs
        |arg tls res c t d l s' Hr HJ Hl Hs|arg tls res c t d s' Hr HJ Hs|arg tls res c t d s' Hr HJ Hs
        |data tls when t name e save s' Hm Hd Hn Hk Hs|data tls when t name save res c t1 d got b r s' Hm Hk HJ Hb Hs|tls n s' Hs|ev tls s' He Hs|tls];
        try (destruct Hs as (Et & _); rewrite Et);
        try (exists o; split; [|apply OnRecord_other; [discriminate|exact I2]]; exact I1 || (pose proof (Judged_cert _ _ _ _ _ _ _ _ _ _ HJ I1) as Hx; destruct o as [[]|]; exact Hx)).
      + exists o. split; [eapply Judged_cert; eauto|]. apply OnRecord_other; auto. intros data Hx. cbn [t_event] in Hx. subst ev. discriminate.
      + eapply message_cert; eauto.
      + destruct (message_cert h data tls did _ _ _ _ Hm I1 I2) as (o' & H1 & H2). exists o'. split; auto. eapply Judged_cert; eauto.
      + exists o. split; auto. apply OnRecord_other; auto. intros data Hx. cbn [t_event] in Hx. destruct He; congruence.
  Qed.

  (** What is known of a message that is logged and saved. *)
  Lemma message_known I h s data tls did when t : Conv K E cn I h s -> message_tx E tls when data (s_tx s) t ->
    exists i rd tr b tr' o l,
      LookupAddrVerified (v_world E) (n_rip cn) tr = ((rd, b), tr') /\ OnRecord E (mkTurn (EvGotData data) tls did :: h) o /\ tls_said tls o l /\
      x_when t = v_now E i /\ x_rdns t = rd /\ tls_line t = l /\ x_from t = sender h /\ x_rcptto t = recipients h /\ x_helo t = helo_name h /\
      x_data t = data /\ x_hash t = v_sha1 E data /\ x_bodyhash t = body_hash E data /\ x_tlson t = ts_on tls /\ x_cipher t = ts_cipher tls /\ x_version t = ts_version tls.
  Proof.
    intros HC Hm. destruct (Conv_names K E cn (fun _ => True) _ _ _ HC Logic.I) as ((tr & b & tr' & Hl) & _).
    { apply Forall_forall. intros x _. destruct (peer_cert (snd x)); exact Logic.I. }
    destruct (Conv_certified _ _ _ HC) as (o0 & C1 & C2). apply Conv_envelope in HC as (E1 & E2 & E3).
    destruct (message_cert h data tls did _ _ _ _ Hm C1 C2) as (o & D1 & D2).
    pose proof (message_tx_env _ _ _ _ _ _ Hm) as (M1 & M2 & M3 & _ & M5 & M6 & M7 & M8). pose proof (message_tx_rest _ _ _ _ _ _ Hm) as (R1 & R2 & R3 & (i & R4)).
    apply message_tx_names in Hm as (_ & _ & N1 & _).
    exists i, (x_rdns t), tr, b, tr', o, (tls_line t). rewrite M8. split; [exact Hl|]. split; [exact D2|]. split; [apply tls_line_is; auto|].
    rewrite M1, M2, M3. auto 15.
  Qed.

  (** C75: the file that is written, to the byte. *)
  Theorem C75_record I h t n s s' path m w : Turn K E cn I h t n s s' -> In (FWrite path m w) (t_did t) ->
    exists data i rd tr b tr' o l, t_event t = EvGotData data /\
      LookupAddrVerified (v_world E) (n_rip cn) tr = ((rd, b), tr') /\ OnRecord E (t :: h) o /\ tls_said (t_tls t) o l /\
      m = to_lines (
        [B "id " ++ n_prefix cn ++ B " " ++ n_raddr cn ++ B " " ++ v_now E i;
         B "remote " ++ match n_rip cn with [] => n_raddr cn | ip => ip end ++ B " to " ++ n_laddr cn ++ B " with helo '" ++ helo_name h ++ B "'"] ++
        names_line (B "remote-dns") (rd_verified rd) ++ names_line (B "remote-dns-nofwd") (rd_nofwd rd) ++ names_line (B "remote-dns-inconsist") (rd_inconsist rd) ++
        l ++
        [B "from <" ++ sender h ++ B ">"] ++ map (fun a => B "to <" ++ a ++ B ">") (recipients h) ++
        [B "hash " ++ v_sha1 E data ++ B " bytes " ++ itoa (length data); B "bodyhash " ++ body_hash E data; B "body"]) ++ data.
  Proof.
    intros HT Hin. pose proof (Turn_Did _ _ _ _ _ _ _ _ _ HT) as HD. destruct HT as (HC & _). rewrite <- In_vis in Hin by reflexivity.
    assert (Hgen : forall when t0 data, t_event t = EvGotData data -> message_tx E (t_tls t) when data (s_tx s) t0 -> m = record_of E cn t0 ->
      exists data i rd tr b tr' o l, t_event t = EvGotData data /\
      LookupAddrVerified (v_world E) (n_rip cn) tr = ((rd, b), tr') /\ OnRecord E (t :: h) o /\ tls_said (t_tls t) o l /\
      m = to_lines (
        [B "id " ++ n_prefix cn ++ B " " ++ n_raddr cn ++ B " " ++ v_now E i;
         B "remote " ++ match n_rip cn with [] => n_raddr cn | ip => ip end ++ B " to " ++ n_laddr cn ++ B " with helo '" ++ helo_name h ++ B "'"] ++
        names_line (B "remote-dns") (rd_verified rd) ++ names_line (B "remote-dns-nofwd") (rd_nofwd rd) ++ names_line (B "remote-dns-inconsist") (rd_inconsist rd) ++
        l ++
        [B "from <" ++ sender h ++ B ">"] ++ map (fun a => B "to <" ++ a ++ B ">") (recipients h) ++
        [B "hash " ++ v_sha1 E data ++ B " bytes " ++ itoa (length data); B "bodyhash " ++ body_hash E data; B "body"]) ++ data).
    { intros when t0 data Ev Hm ->. destruct t as [ev tls did]. cbn [t_event t_tls] in *. subst ev.
      destruct (message_known _ _ _ _ _ did _ _ HC Hm) as (i & rd & tr & b & tr' & o & l & H1 & H2 & H3 & W1 & W2 & W3 & W4 & W5 & W6 & W7 & W8 & W9 & _).
      exists data, i, rd, tr, b, tr', o, l. repeat (split; [solve [auto]|]). unfold record_of. rewrite record_lines. unfold header_lines.
      rewrite !names_line_is, W1, W2, W3, W4, W5, W6, W7, W8, W9.
      replace (if beqb (n_rip cn) [] then n_raddr cn else n_rip cn) with (match n_rip cn with [] => n_raddr cn | ip => ip end) by (destruct (n_rip cn); reflexivity).
      rewrite !to_lines_app. unfold to_lines at 8. unfold to_lines at 15. cbn [map concat]. rewrite <- !app_assoc. cbn [app]. reflexivity. }
    assert (Hsave : forall path' m' r save, Kept path' m' r save -> In (FWrite path m w) save -> m = m').
    { intros path' m' r save Hk Hi. destruct Hk; cbn in Hi; intuition congruence. }
    destruct t as [ev tls did]. cbn [t_event t_tls t_did] in *. remember (vis did) as l0 eqn:El. clear El.
    destruct HD as [ev tls ph e res c t d s' Hc Hr HJ Hst|cmd arg tls res c t d s' Hr HJ Hst|arg tls res c t d n s' Hr HJ Hy Hn Hst
      |arg tls res c t d l s' Hr HJ Hl Hst|arg tls res c t d s' Hr HJ Hst|arg tls res c t d s' Hr HJ Hst
      |data tls when t name e save s' Hm Hd Hn Hk Hst|data tls when t name save res c t1 d got b r s' Hm Hk HJ Hb Hst|tls n s' Hst|ev tls s' He Hst|tls];
      try (exfalso; cbn in Hin; intuition discriminate).
    - exfalso. destruct Hin as [Hin|Hin]; [discriminate|]. apply in_app_or in Hin as [Hin|Hin]; [|cbn in Hin; intuition discriminate].
      destruct (retry s); [destruct Hl as (n & -> & _)|subst l]; cbn in Hin; intuition discriminate.
    - apply in_app_or in Hin as [Hin|Hin]; [destruct (k_msglog K); cbn in Hin; intuition discriminate|].
      apply in_app_or in Hin as [Hin|Hin]; [|cbn in Hin; intuition discriminate]. eapply Hgen; eauto.
    - apply in_app_or in Hin as [Hin|Hin]; [destruct (k_msglog K); cbn in Hin; intuition discriminate|].
      apply in_app_or in Hin as [Hin|Hin]; [|cbn in Hin; intuition discriminate].
      destruct Hk as [(_ & _ & ->)|(_ & _ & Hk)]; [destruct Hin|]. eapply Hgen; eauto.
  Qed.

  Lemma Conv_tls_noted I h s : Conv K E cn I h s -> x_tlson (s_tx s) = tls_noted h.
  Proof.
    induction 1 as [s Hs|h s ev tls s' did HC IH Hst Ha].
    - apply setup_Setup in Hs. destruct Hs as [rr hit n inf l1 l2 sname tr1 name certs tr2 l3 thit tn l4 rd tr0 refused res c ans s1 l5 Hr Hi Hp Hc HL _ _ _ _ _ HD _].
      apply Decided_Judged in HD as (t & log & HJ & _ & _ & Hs & _). destruct Hs as (Ht & _). cbn [add_out s_tx]. rewrite Ht.
      apply Judged_from in HJ as (_ & _ & _ & -> & _). reflexivity.
    - assert (HT : Turn K E cn I h (mkTurn ev tls did) Go s s') by (repeat split; auto).
      apply Turn_Did in HT. cbn [t_event t_tls t_did] in HT. clear Hst Ha. remember Go as n eqn:En. remember (vis did) as l0 eqn:El.
      destruct HT as [ev tls ph e res c t d s' Hc Hr HJ Hs|cmd arg tls res c t d s' Hr HJ Hs|arg tls res c t d n s' Hr HJ Hy Hn Hs
        |arg tls res c t d l s' Hr HJ Hl Hs|arg tls res c t d s' Hr HJ Hs|arg tls res c t d s' Hr HJ Hs
        |data tls when t name e save s' Hm Hd Hn Hk Hs|data tls when t name save res c t1 d got b r s' Hm Hk HJ Hb Hs|tls n s' Hs|ev tls s' He Hs|tls];
        try discriminate; try (destruct Hs as (Et & _)); cbn [tls_noted t_event t_tls]; unfold accepted; cbn [t_event t_did];
        try rewrite <- (replies_vis did), <- El; try (pose proof (Judged_from _ _ _ _ _ _ _ _ _ _ _ HJ) as (_ & _ & _ & J4 & _)); rewrite ?Et;
        try (pose proof (message_tx_env _ _ _ _ _ _ Hm) as (_ & _ & _ & _ & _ & _ & M7 & _)); cbn [put_tlson put_rcptto put_data put_from put_helo put_hashes x_tlson]; try congruence.
      + rewrite J4, IH. destruct ev; try reflexivity; discriminate.
      + rewrite J4, IH. reflexivity.
  Qed.

  Lemma tlsClientLog_line I tls s u s' : tlsClientLog E cn I tls s = Ok (u, s') ->
    exists o, CertLine E tls o /\
      s_out s' = match o with Some x => if si_log I then [FSmtplog (n_prefix cn ++ x ++ [ch_nl])] else [] | None => [] end ++ s_out s.
  Proof.
    unfold tlsClientLog. destruct (ts_peers tls) as [|c cs] eqn:Ep; intros H.
    - sinv H. exists None. split; [constructor; auto|reflexivity].
    - apply sbind_ok in H as (err & s1 & H1 & H).
      assert (Hw : forall text, writeLog cn I (text ++ [ch_nl]) s1 = Ok (u, s') -> s_out s' = (if si_log I then [FSmtplog (n_prefix cn ++ text ++ [ch_nl])] else []) ++ s_out s1).
      { intros text. unfold writeLog, when_. destruct (si_log I); intros Hw; [unfold logwrite in Hw; sapp emit_ok Hw; reflexivity|sinv Hw; reflexivity]. }
      assert (Hx : s1 = s /\ match err with
        | None => ts_chains tls <> [] \/ ts_chains tls = [] /\ (exists i, v_verify E i c cs = None)
        | Some e => ts_chains tls = [] /\ exists i, v_verify E i c cs = Some e end).
      { unfold tlsTryVerify in H1. destruct (ts_chains tls) as [|x ch] eqn:Ec.
        - rewrite Ep in H1. apply sbind_ok in H1 as (i & s2 & H2 & H1). sapp index_ok H2. sinv H1. split; auto.
          destruct (v_verify E (length (s_out s)) c cs) eqn:Ev; [|right]; eauto.
        - sinv H1. split; auto. left. discriminate. }
      destruct Hx as (-> & Hx). destruct err as [e|].
      + destruct Hx as (Hc & i & Hv). eexists. split; [eapply Cl_bad; eauto; apply tlsName_is|]. apply Hw. rewrite <- !app_assoc. exact H.
      + eexists. split; [eapply Cl_good; eauto; apply tlsName_is|]. apply Hw. rewrite <- !app_assoc. exact H.
  Qed.

  (** The first time that an accepted HELO finds TLS on, this is counted, and the
      log says, once, whether the client's certificate is good. *)
  Theorem C75_cert_logged I h cmd arg tls did n s s' : Turn K E cn I h (mkTurn (EvHelo cmd arg) tls did) n s s' -> accepted (mkTurn (EvHelo cmd arg) tls did) = true ->
    exists before o, ~ In (FEvent (B "ehloAccept")) before /\ CertLine E tls o /\
      did = before ++ FEvent (B "ehloAccept") ::
        (if ts_on tls && negb (tls_noted h) then
           [FEvent (B "tlson"); FEvent (B "starttls")] ++ match o with Some x => if si_log I then [FSmtplog (n_prefix cn ++ x ++ [ch_nl])] else [] | None => [] end
         else []).
  Proof.
    intros (HC & H & Ha) Hacc. cbn [t_event t_tls t_did] in *. rewrite <- (Conv_tls_noted _ _ _ HC). clear HC. unfold step, onHelo in H.
    apply sbind_ok in H as (u & sa & H1 & H). unfold event in H1. sapp emit_ok H1.
    apply sbind_ok in H as (b & s1 & H1 & H). apply decider_spec in H1 as (res & c & log & ans & m & am & _ & Hl & _ & HA & ->).
    destruct b.
    { exfalso. sinv H. apply Answer_yes in HA as (_ & ->); [|discriminate]. unfold after in Ha. cbn [s_out add_out app] in Ha.
      change (_ :: log ++ ?d :: ?e :: s_out s) with ([FReply (refusal_reply res pHelo [] (prop_of c (B "message")) (x_rcptto (s_tx s)))] ++ log ++ [d; e] ++ s_out s) in Ha.
      rewrite !app_assoc in Ha. apply app_inv_tail in Ha. apply (f_equal (@rev _)) in Ha. rewrite rev_involutive in Ha.
      unfold accepted in Hacc. cbn [t_event t_did] in Hacc. rewrite <- Ha, rev_app_distr, rev_app_distr, !replies_app in Hacc.
      rewrite (chatter_replies (rev log)) in Hacc by (apply Forall_rev; auto). discriminate. }
    apply Answer_no in HA as (_ & ->); [|discriminate].
    apply sbind_ok in H as (u1 & sa & H1 & H). sapp uptx_ok H1.
    apply sbind_ok in H as (u1 & sa & H1 & H). sapp minphase_ok H1.
    apply sbind_ok in H as (u1 & sa & H1 & H). unfold event in H1. sapp emit_ok H1.
    apply sbind_ok in H as (on & sa & H1 & H). sapp @gettx_ok H1.
    apply sbind_ok in H as (u1 & s2 & H1 & H). sinv H. cbn in H1.
    assert (Hgoal : exists o, CertLine E tls o /\ s_out s2 = rev (FEvent (B "ehloAccept") ::
        (if ts_on tls && negb (x_tlson (s_tx s)) then
           [FEvent (B "tlson"); FEvent (B "starttls")] ++ match o with Some x => if si_log I then [FSmtplog (n_prefix cn ++ x ++ [ch_nl])] else [] | None => [] end
         else [])) ++ log ++ FDecide (the_decision cn (s_tx s) pHelo (mkEvt (Some cmd) arg) res c) :: FEvent (B "ehlo") :: s_out s).
    { destruct (ts_on tls && negb (x_tlson (s_tx s))); cbn [when_] in H1.
      - apply sbind_ok in H1 as (u & sa & H2 & H1). unfold event in H2. sapp emit_ok H2.
        apply sbind_ok in H1 as (u & sa & H2 & H1). unfold event in H2. sapp emit_ok H2.
        apply sbind_ok in H1 as (u & sa & H2 & H1). sapp uptx_ok H2.
        apply tlsClientLog_line in H1 as (o & Ho & ->). exists o. split; auto. cbn [s_out add_out app rev]. unfold upd_tx. cbn [s_out].
        destruct o as [x|]; [destruct (si_log I)|]; reflexivity.
      - sinv H1. assert (Ho : exists o, CertLine E tls o).
        { destruct (ts_peers tls) as [|c0 cs] eqn:Ep; [eexists; constructor; auto|].
          destruct (ts_chains tls) as [|x ch] eqn:Ec; [|eexists; eapply Cl_good; eauto; [apply tlsName_is|left; congruence]].
          destruct (v_verify E 0 c0 cs) eqn:Ev; eexists; [eapply Cl_bad|eapply Cl_good]; eauto; try apply tlsName_is. }
        destruct Ho as (o & Ho). exists o. split; auto. }
    clear H1. destruct Hgoal as (o & Ho & Hout). unfold after in Ha. rewrite Hout in Ha.
    exists (rev (log ++ [FDecide (the_decision cn (s_tx s) pHelo (mkEvt (Some cmd) arg) res c); FEvent (B "ehlo")])), o.
    split; [|split; [exact Ho|]].
    - rewrite <- in_rev. intros Hi. apply in_app_or in Hi as [Hi|[Hi|[Hi|[]]]]; try discriminate. rewrite Forall_forall in Hl. destruct (Hl _ Hi).
    - change (log ++ ?d :: ?e :: s_out s) with (log ++ [d; e] ++ s_out s) in Ha. rewrite !app_assoc in Ha. apply app_inv_tail in Ha.
      apply (f_equal (@rev _)) in Ha. rewrite rev_involutive in Ha. rewrite <- Ha, <- app_assoc, rev_app_distr, rev_involutive. reflexivity.
  Qed.
End S.

(** ** Examples *)

(** A client whose certificate does not verify. *)
Definition untrusted_env : senv :=
  mkEnv demo_world 10 nofs 0 (fun _ _ => inr []) (fun _ => (false, 0%Z)) (fun _ => 1%Z) (fun _ => B "2026") (fun _ => B "now")
    (fun _ _ => None) (fun _ _ => OpOk) (fun _ _ => WrOk) (fun _ => None) (fun d => B "H" ++ d) (fun d => MBody d) (fun _ _ _ => Some (B "unknown authority")).
Definition untrusted_tls : tlsstate := mkTls true 47 771 (B "mx") [] [mkCert [] [B "host.x.y"; B "x.y"]].
Definition stored (l : list effect) : list bytes := flat_map (fun e => match e with FWrite _ m _ => [m] | _ => [] end) l.

Example C75_example : exists I h t n s s', Turn (demo_cfg []) untrusted_env demo_conn I h t n s s' /\
  stored (t_did t) = [to_lines [B "id 7/1 192.0.2.7:5678 2026"; B "remote 192.0.2.7 to 192.0.2.1:25 with helo 'h'";
     B "tls on cipher 0x002f name SSLv3:AES128-SHA:128 proto TLSv1.2 server-name 'mx' client-name 'host.x.y'";
     B "from <a@x.y>"; B "to <jim@x.y>"; B "hash HHello bytes 5"; B "bodyhash HHello"; B "body"] ++ B "Hello"].
Proof.
  apply (turn_example (demo_cfg []) untrusted_env demo_conn (plain [EvHelo EHLO (B "h"); EvMailFrom (B "a@x.y"); EvRcptTo (B "jim@x.y"); EvData []]) (EvGotData (B "Hello")) untrusted_tls
    (fun I h t n s s' => stored (t_did t))).
  vm_compute. reflexivity.
Qed.
Example C75_on_record h did : OnRecord untrusted_env (mkTurn (EvGotData (B "Hello")) untrusted_tls did :: h) (Some (B "host.x.y", false)).
Proof.
  eapply Or_shown; [reflexivity| |].
  - eapply (Sh_bad _ _ _ 0); reflexivity.
  - eapply Cn_dns; reflexivity.
Qed.
Example C75_logged : exists I h t n s s', Turn (demo_cfg []) untrusted_env demo_conn I h t n s s' /\
  (t_event t, accepted t, ts_on (t_tls t), tls_noted h, si_log I, skipn 2 (t_did t)) =
  (EvHelo EHLO (B "h"), true, true, false, true,
   [FEvent (B "ehloAccept"); FEvent (B "tlson"); FEvent (B "starttls");
    FSmtplog (B "7/1! TLS client certificate for 'host.x.y' doesn't verify: unknown authority" ++ [ch_nl])]).
Proof.
  apply (turn_example (demo_cfg []) untrusted_env demo_conn (plain [EvHelo EHLO (B "g")]) (EvHelo EHLO (B "h")) untrusted_tls
    (fun I h t n s s' => (t_event t, accepted t, ts_on (t_tls t), tls_noted h, si_log I, skipn 2 (t_did t)))).
  vm_compute. reflexivity.
Qed.
