(** The saved record of a message and its line in the message log can be read
    back; the names of save files (C45, C46, C64). *)
From Verif Require Import PropsParse.
From Verif Require Import Bytes Outcome Lexer Ast GoNet Parser World Dns Eval PropsDns Decisions RuleLoad PropsLoad ConnCfg PropsConn CipherNames Message Session SessProofs Conv PropsEval PropsSession PropsSession2 DemoSession.
From Coq Require Import Lia Permutation.

(** ** A reader of saved records *)

Definition oneline (x : bytes) : Prop := ~ In ch_nl x.

(** The lines before the first line that is "body", and everything after it.
    [line] is what has been read of the current line, backwards. *)
Fixpoint read_from (x line : bytes) : option (list bytes * bytes) :=
  match x with
  | [] => None
  | c :: x' =>
      if Ascii.eqb c ch_nl then
        if beqb (rev line) (B "body") then Some ([], x')
        else match read_from x' [] with
             | Some (ls, d) => Some (rev line :: ls, d)
             | None => None
             end
      else read_from x' (c :: line)
  end.
Definition read_record (x : bytes) : option (list bytes * bytes) := read_from x [].

(** The address in a line "key <address>". *)
Definition in_angles (key line : bytes) : option bytes :=
  let start := key ++ B " <" in
  if has_prefix line start && match last_byte line with Some c => Ascii.eqb c ">"%char | None => false end
  then Some (removelast (skipn (length start) line)) else None.
Definition addresses (key : bytes) (ls : list bytes) : list bytes :=
  flat_map (fun l => match in_angles key l with Some a => [a] | None => [] end) ls.

Lemma read_line l x ls d : oneline l -> l <> B "body" -> read_record x = Some (ls, d) ->
  read_record (l ++ ch_nl :: x) = Some (l :: ls, d).
Proof.
  intros Ho Hb Hx. unfold read_record. assert (Hg : forall acc, ~ In ch_nl l -> rev acc ++ l <> B "body" ->
    read_from (l ++ ch_nl :: x) acc = Some ((rev acc ++ l) :: ls, d)); [|apply (Hg []); auto].
  clear Ho Hb. induction l as [|c l IH]; intros acc Hn Hb.
  - cbn [app read_from]. rewrite Ascii.eqb_refl. rewrite app_nil_r in *. destruct (beqb_spec (rev acc) (B "body")); [congruence|].
    unfold read_record in Hx. rewrite Hx. reflexivity.
  - cbn [app read_from]. destruct (Ascii.eqb_spec c ch_nl) as [->|_]; [destruct Hn; left; reflexivity|].
    rewrite (IH (c :: acc)); [cbn [rev]; rewrite <- app_assoc; reflexivity|intros H; apply Hn; right; exact H|].
    cbn [rev]. rewrite <- app_assoc. exact Hb.
Qed.
Lemma read_body d : read_record (B "body" ++ [ch_nl] ++ d) = Some ([], d).
Proof. reflexivity. Qed.

Definition to_lines (ls : list bytes) : bytes := concat (map (fun l => l ++ [ch_nl]) ls).
Lemma read_lines ls d : Forall (fun l => oneline l /\ l <> B "body") ls ->
  read_record (to_lines ls ++ B "body" ++ [ch_nl] ++ d) = Some (ls, d).
Proof.
  induction 1 as [|l ls (H1 & H2) _ IH]; [apply read_body|].
  unfold to_lines in *. cbn [map concat]. rewrite <- !app_assoc. cbn [app]. apply read_line; auto.
Qed.

Lemma in_angles_is key a : in_angles key (key ++ B " <" ++ a ++ B ">") = Some a.
Proof.
  unfold in_angles. rewrite (proj2 (has_prefix_spec _ _)) by (exists (a ++ B ">"); rewrite <- app_assoc; reflexivity).
  rewrite !app_assoc. change (B ">") with [">"%char]. rewrite last_byte_app. cbn [andb]. rewrite Ascii.eqb_refl.
  rewrite <- (app_assoc (key ++ B " <")), skipn_app, skipn_all, Nat.sub_diag. cbn [app skipn]. rewrite removelast_last. reflexivity.
Qed.

(** ** What is recorded *)

Definition dns_line (pref : bytes) (l : list bytes) : list bytes :=
  match l with [] => [] | _ => [pref ++ concat (map (fun e => B " " ++ e) l)] end.
Definition tls_line (t : tx) : list bytes := if x_tlson t then [removelast (tlsLine t)] else [].
Definition header_lines (cn : conn) (t : tx) : list bytes :=
  [B "id " ++ n_prefix cn ++ B " " ++ n_raddr cn ++ B " " ++ x_when t;
   B "remote " ++ (if beqb (n_rip cn) [] then n_raddr cn else n_rip cn) ++ B " to " ++ n_laddr cn ++ B " with helo '" ++ x_helo t ++ B "'"] ++
  dns_line (B "remote-dns") (rd_verified (x_rdns t)) ++ dns_line (B "remote-dns-nofwd") (rd_nofwd (x_rdns t)) ++
  dns_line (B "remote-dns-inconsist") (rd_inconsist (x_rdns t)) ++ tls_line t ++
  [B "from <" ++ x_from t ++ B ">"] ++ map (fun a => B "to <" ++ a ++ B ">") (x_rcptto t) ++
  [B "hash " ++ x_hash t ++ B " bytes " ++ itoa (length (x_data t)); B "bodyhash " ++ x_bodyhash t].

Lemma dns_line_text pref l : to_lines (dns_line pref l) = writeDNSList pref l.
Proof. unfold to_lines. destruct l as [|e l]; [reflexivity|]. cbn [dns_line map concat writeDNSList]. rewrite <- !app_assoc, app_nil_r. reflexivity. Qed.
Lemma to_lines_app a b : to_lines (a ++ b) = to_lines a ++ to_lines b.
Proof. unfold to_lines. rewrite map_app, concat_app. reflexivity. Qed.
Lemma tls_line_text t : to_lines (tls_line t) = tlsLine t.
Proof.
  unfold tls_line, to_lines. destruct (x_tlson t) eqn:E; cbn [map concat]; [|unfold tlsLine; rewrite E; reflexivity].
  rewrite app_nil_r. unfold tlsLine. rewrite E, !app_assoc, removelast_last. reflexivity.
Qed.
Lemma record_lines sha1 cn t : fst (msgDetails sha1 cn t) = to_lines (header_lines cn t) ++ B "body" ++ [ch_nl] ++ x_data t.
Proof.
  unfold msgDetails, header_lines. cbn [fst]. rewrite !to_lines_app, !dns_line_text, tls_line_text.
  assert (Hr : to_lines (map (fun a => B "to <" ++ a ++ B ">") (x_rcptto t)) = concat (map (fun a => B "to <" ++ a ++ B ">" ++ [ch_nl]) (x_rcptto t))).
  { unfold to_lines. rewrite map_map. f_equal. apply map_ext. intros a. rewrite <- !app_assoc. reflexivity. }
  rewrite Hr. unfold to_lines, idLine, metaText. cbn [map concat]. rewrite !app_nil_r, <- !app_assoc. reflexivity.
Qed.

(** The names in a record, none of which may contain a newline. *)
Record Clean (cn : conn) (t : tx) : Prop := mkClean {
  cl_raddr : oneline (n_raddr cn); cl_laddr : oneline (n_laddr cn);
  cl_helo : oneline (x_helo t); cl_from : oneline (x_from t); cl_rcptto : Forall oneline (x_rcptto t);
  cl_dns : Forall oneline (rd_verified (x_rdns t) ++ rd_nofwd (x_rdns t) ++ rd_inconsist (x_rdns t));
  cl_server : oneline (x_server t); cl_peer : oneline (x_peer t);
  cl_when : oneline (x_when t); cl_hash : oneline (x_hash t); cl_bodyhash : oneline (x_bodyhash t)
}.

Lemma oneline_app a b : oneline (a ++ b) <-> oneline a /\ oneline b.
Proof. unfold oneline. rewrite in_app_iff. tauto. Qed.
Lemma oneline_B l : forallb (fun c => negb (Ascii.eqb c ch_nl)) l = true -> oneline l.
Proof. intros H Hin. rewrite forallb_forall in H. specialize (H _ Hin). rewrite Ascii.eqb_refl in H. discriminate. Qed.
Lemma oneline_itoa n : oneline (itoa n).
Proof. intros H. pose proof (itoa_digits n) as Hd. rewrite Forall_forall in Hd. specialize (Hd _ H). discriminate Hd. Qed.
Lemma hex_digit_plain n c : In c [" "%char; ch_nl; "'"%char] -> hex_digit n <> c.
Proof.
  intros Hc. assert (Hd : In (hex_digit n) (B "0123456789abcdef")).
  { unfold hex_digit. destruct n as [|p]; [cbn; tauto|]. do 4 (destruct p as [p|p|]; try (cbn; tauto)). }
  intros E. rewrite E in Hd. clear E. cbn in Hc. destruct Hc as [<-|[<-|[<-|[]]]]; cbn in Hd;
    repeat (destruct Hd as [Hd|Hd]; [discriminate Hd|]); destruct Hd.
Qed.
Lemma hex4_plain n c : In c [" "%char; ch_nl; "'"%char] -> ~ In c (hex4 n).
Proof. intros Hc Hin. unfold hex4 in Hin. apply in_map_iff in Hin as (k & Hk & _). eapply hex_digit_plain; eauto. Qed.
Lemma oneline_concat (f : bytes -> bytes) l : (forall x, oneline x -> oneline (f x)) -> Forall oneline l -> oneline (concat (map f l)).
Proof.
  intros Hf. induction 1 as [|x l Hx _ IH]; [intros []|]. cbn [map concat]. apply oneline_app. auto.
Qed.
Lemma oneline_nil : oneline [].
Proof. unfold oneline. intros []. Qed.
Lemma cipherNames_in n : cipherNames n = [] \/ In (cipherNames n) (map snd cipherTable).
Proof.
  unfold cipherNames. destruct (find _ cipherTable) as [[k x]|] eqn:E; [|auto]. right. apply find_some in E as (E & _). apply in_map_iff. exists (k, x). auto.
Qed.
Lemma cipherNames_plain n c : In c [" "%char; ch_nl; "'"%char] -> ~ In c (cipherNames n).
Proof.
  intros Hc Hin. destruct (cipherNames_in n) as [E|H]; [rewrite E in Hin; destruct Hin|].
  assert (Hall : forallb (fun x => forallb (fun y => negb (mem_byte y x)) [" "%char; ch_nl; "'"%char]) (map snd cipherTable) = true) by (vm_compute; reflexivity).
  rewrite forallb_forall in Hall. specialize (Hall _ H). rewrite forallb_forall in Hall. specialize (Hall _ Hc).
  assert (Hm : mem_byte c (cipherNames n) = true) by (apply existsb_exists; exists c; rewrite Ascii.eqb_refl; auto).
  rewrite Hm in Hall. discriminate.
Qed.
Lemma proto_plain v c : In c [" "%char; ch_nl; "'"%char] -> ~ In c (tlsProtoVersion v).
Proof.
  intros Hc. unfold tlsProtoVersion.
  assert (Hb : forall x, forallb (fun y => negb (mem_byte y x)) [" "%char; ch_nl; "'"%char] = true -> ~ In c x).
  { intros x Hx Hin. rewrite forallb_forall in Hx. specialize (Hx _ Hc).
    assert (Hm : mem_byte c x = true) by (apply existsb_exists; exists c; rewrite Ascii.eqb_refl; auto). rewrite Hm in Hx. discriminate. }
  repeat (destruct (N.eqb v _); [apply Hb; reflexivity|]).
  rewrite in_app_iff. intros [H|H]; [revert H; apply Hb; reflexivity|]. revert H. apply hex4_plain. exact Hc.
Qed.
Lemma firstn_incl {A} n (l : list A) x : In x (firstn n l) -> In x l.
Proof. intros H. rewrite <- (firstn_skipn n l). apply in_or_app. auto. Qed.
Lemma host_of_in hp c : In c (host_of hp) -> In c hp.
Proof.
  unfold host_of, split_host_port. destruct (last_index hp ch_colon) as [i|]; [|intros []].
  destruct hp as [|x hp']; [cbn; destruct i; intros []|].
  assert (Hgen : In c (match (if mem_byte ch_colon (firstn i (x :: hp')) || mem_byte "[" (x :: hp') || mem_byte "]" (x :: hp') then None
     else Some (firstn i (x :: hp'), skipn (S i) (x :: hp'))) with Some (h, _) => h | None => [] end) -> In c (x :: hp')).
  { match goal with |- context [if ?b then None else _] => destruct b end; [intros []|]. apply firstn_incl. }
  destruct (Ascii.eqb_spec x "["%char) as [->|Hne].
  - destruct (index_byte _ _) as [e|]; [|intros []]. destruct (Nat.eqb _ _); [intros []|]. destruct (Nat.eqb _ _); [|intros []].
    match goal with |- context [if ?b then None else _] => destruct b end; [intros []|]. intros H. apply firstn_incl in H. right. exact H.
  - revert Hgen. destruct x as [[] [] [] [] [] [] [] []]; auto. destruct (Hne eq_refl).
Qed.

Lemma header_oneline cn t : Clean cn t -> Forall (fun l => oneline l /\ l <> B "body") (header_lines cn t).
Proof.
  intros [C1 C2 C3 C4 C5 C6 C7 C8 C9 C10 C11].
  assert (Crip : oneline (if beqb (n_rip cn) [] then n_raddr cn else n_rip cn)).
  { destruct (beqb _ _); auto. intros H. apply C1. apply host_of_in. exact H. }
  assert (Hdns : forall p l, oneline p -> (forall x, p ++ x <> B "body") -> Forall oneline l -> Forall (fun l => oneline l /\ l <> B "body") (dns_line p l)).
  { intros p l Hp Hb Hl. destruct l as [|e l]; [constructor|]. constructor; [|constructor]. split; [|apply Hb].
    apply oneline_app. split; auto. apply (oneline_concat (fun e => B " " ++ e)); auto. intros x Hx. apply oneline_app. split; auto. apply oneline_B. reflexivity. }
  rewrite !Forall_app in C6. destruct C6 as (D1 & D2 & D3).
  assert (Hpre : oneline (n_prefix cn)).
  { unfold n_prefix. rewrite !oneline_app. repeat split; try apply oneline_itoa. apply oneline_B. reflexivity. }
  unfold header_lines. apply Forall_app. split; [constructor; [|constructor; [|constructor]]|].
  - split; [|discriminate]. rewrite !oneline_app. repeat split; auto; try (apply oneline_B; reflexivity).
  - split; [|discriminate]. rewrite !oneline_app. repeat split; auto; try (apply oneline_B; reflexivity).
  - rewrite !Forall_app. split; [apply Hdns; auto; [apply oneline_B; reflexivity|intros x H; discriminate H]|].
    split; [apply Hdns; auto; [apply oneline_B; reflexivity|intros x H; discriminate H]|].
    split; [apply Hdns; auto; [apply oneline_B; reflexivity|intros x H; discriminate H]|].
    split.
    { unfold tls_line, tlsLine. destruct (x_tlson t); [|constructor]. constructor; [|constructor].
      rewrite !app_assoc, removelast_last, <- !app_assoc. split; [|discriminate].
      assert (Ho : forall x, (forall c, In c [" "%char; ch_nl; "'"%char] -> ~ In c x) -> oneline x) by (intros x Hx; apply Hx; right; left; reflexivity).
      rewrite !oneline_app. repeat split; try (apply oneline_B; reflexivity).
      - apply Ho. intros c Hc. apply hex4_plain. exact Hc.
      - match goal with |- context [if ?b then [] else _] => destruct b end; [exact oneline_nil|]. apply oneline_app. split; [apply oneline_B; reflexivity|]. apply Ho. intros c Hc. apply cipherNames_plain. exact Hc.
      - apply Ho. intros c Hc. apply proto_plain. exact Hc.
      - match goal with |- context [if ?b then [] else _] => destruct b end; [exact oneline_nil|]. rewrite !oneline_app. repeat split; auto; apply oneline_B; reflexivity.
      - match goal with |- context [if ?b then [] else _] => destruct b end; [exact oneline_nil|]. rewrite !oneline_app. repeat split; auto; apply oneline_B; reflexivity.
      - destruct (x_verified t); apply oneline_B; reflexivity. }
    split; [constructor; [|constructor]|].
    { split; [|discriminate]. rewrite !oneline_app. repeat split; auto; apply oneline_B; reflexivity. }
    split.
    { apply Forall_map. revert C5. apply Forall_impl. intros a Ha. split; [|discriminate]. rewrite !oneline_app. repeat split; auto; apply oneline_B; reflexivity. }
    constructor; [|constructor; [|constructor]]; (split; [|discriminate]); rewrite !oneline_app; repeat split; auto; try (apply oneline_B; reflexivity). apply oneline_itoa.
Qed.

Lemma addresses_app key a b : addresses key (a ++ b) = addresses key a ++ addresses key b.
Proof. apply flat_map_app. Qed.
Lemma addresses_dns key p l : (forall x, in_angles key (p ++ x) = None) -> addresses key (dns_line p l) = [].
Proof. intros H. destruct l; [reflexivity|]. unfold addresses, dns_line. cbn [flat_map]. rewrite H. reflexivity. Qed.

Lemma header_addresses cn t : addresses (B "from") (header_lines cn t) = [x_from t] /\ addresses (B "to") (header_lines cn t) = x_rcptto t.
Proof.
  assert (Htls : forall key, key = B "from" \/ key = B "to" -> addresses key (tls_line t) = []).
  { intros key Hk. unfold tls_line, tlsLine. destruct (x_tlson t); [|reflexivity]. rewrite !app_assoc, removelast_last, <- !app_assoc.
    unfold addresses. cbn [flat_map]. destruct Hk as [->| ->]; reflexivity. }
  assert (Hf : forall a, in_angles (B "from") (B "from <" ++ a ++ B ">") = Some a) by (intros a; apply (in_angles_is (B "from"))).
  assert (Ht : forall a, in_angles (B "to") (B "to <" ++ a ++ B ">") = Some a) by (intros a; apply (in_angles_is (B "to"))).
  unfold header_lines. rewrite !addresses_app, !addresses_dns by reflexivity. rewrite !Htls by auto. cbn [app]. split.
  - assert (H : addresses (B "from") (map (fun a => B "to <" ++ a ++ B ">") (x_rcptto t)) = []) by (induction (x_rcptto t) as [|a l IH]; [reflexivity|exact IH]).
    rewrite H. unfold addresses. cbn [flat_map]. rewrite Hf. reflexivity.
  - assert (H : addresses (B "to") (map (fun a => B "to <" ++ a ++ B ">") (x_rcptto t)) = x_rcptto t).
    { induction (x_rcptto t) as [|a l IH]; [reflexivity|]. unfold addresses in *. cbn [map flat_map]. rewrite Ht, IH. reflexivity. }
    rewrite H. unfold addresses. cbn [flat_map]. transitivity (x_rcptto t ++ []); [reflexivity|apply app_nil_r].
Qed.

(** A record with clean names reads back. *)
Theorem C45_read sha1 cn t : Clean cn t -> exists ls, read_record (fst (msgDetails sha1 cn t)) = Some (ls, x_data t) /\
  addresses (B "from") ls = [x_from t] /\ addresses (B "to") ls = x_rcptto t /\
  exists front, ls = front ++ [B "hash " ++ x_hash t ++ B " bytes " ++ itoa (length (x_data t)); B "bodyhash " ++ x_bodyhash t].
Proof.
  intros HC. exists (header_lines cn t). rewrite record_lines. split; [apply read_lines; apply header_oneline; exact HC|].
  destruct (header_addresses cn t) as (H1 & H2). split; auto. split; auto. unfold header_lines. rewrite !app_assoc. eexists. reflexivity.
Qed.

(** ** Sessions whose names are clean *)

(** the server's side *)
Record Quiet (E : senv) (cn : conn) : Prop := mkQuiet {
  q_raddr : oneline (n_raddr cn); q_laddr : oneline (n_laddr cn);
  q_now : forall i, oneline (v_now E i); q_sha1 : forall d, oneline (v_sha1 E d);
  q_dns : forall i a names, w_addr (v_world E) i a = inl names -> Forall oneline names
}.
(** the client's side: smtpd delivers lines, and names in certificates are not
    checked for newlines by anyone *)
Definition quiet_event (e : sevent * tlsstate) : Prop :=
  match fst e with EvHelo _ a | EvMailFrom a | EvRcptTo a => oneline a | _ => True end /\
  oneline (ts_server (snd e)) /\ match peer_cert (snd e) with Some c => oneline (tlsName c) | None => True end.

Section S.
  Context (K : config) (E : senv) (cn : conn).

  Lemma envelope_oneline h : Forall quiet_event (heard h) -> oneline (sender h) /\ Forall oneline (recipients h) /\ oneline (helo_name h).
  Proof.
    pose proof oneline_nil as Hnil.
    induction h as [|t h IH]; [cbn; auto|]. rewrite heard_cons, Forall_app. intros (H1 & H2). destruct (IH H1) as (I1 & I2 & I3).
    inversion H2 as [|? ? (Q & _) _]; subst. cbn [fst snd] in Q. cbn [sender recipients helo_name].
    destruct (t_event t); auto; destruct (accepted t); auto; repeat split; auto. apply Forall_app. auto.
  Qed.

  Lemma rdns_names (P : bytes -> Prop) W addr tr r b tr' : (forall i a names, w_addr W i a = inl names -> Forall P names) ->
    LookupAddrVerified W addr tr = ((r, b), tr') -> Forall P (rd_verified r ++ rd_nofwd r ++ rd_inconsist r).
  Proof.
    intros HW H. destruct addr as [|c addr]; [injection H as <- _ _; constructor|].
    destruct (w_addr W (length tr) (c :: addr)) as [names|e] eqn:Ew.
    - destruct (C31_every_name_classified W (c :: addr) names tr) as (r' & t2 & cls & H1 & HP & _ & _ & R1 & R2 & R3); [discriminate|exact Ew|].
      rewrite H in H1. injection H1 as <- _ _. apply HW in Ew.
      assert (Hall : Forall P (map fst cls)) by (eapply Permutation_Forall; [apply Permutation_sym; exact HP|exact Ew]).
      assert (Hc : forall k, Forall P (names_of k cls)).
      { intros k. apply Forall_forall. intros x Hx. rewrite Forall_forall in Hall. apply Hall. unfold names_of in Hx.
        apply in_map_iff in Hx as (y & <- & Hy). apply in_map. apply filter_In in Hy. tauto. }
      rewrite R1, R2, R3, !Forall_app. auto.
    - pose proof (C31_no_names W (c :: addr) tr (or_intror (ex_intro _ e Ew))) as Hn. rewrite H in Hn. cbn in Hn. subst r. constructor.
  Qed.

  Lemma Judged_peer I t c ph e res c' t' d : Judged E cn I t c ph e res c' t' d -> x_peer t' = x_peer t.
  Proof. intros [_ _ (m & am & ->) _]. reflexivity. Qed.

  Lemma message_tx_names tls when data t t' : message_tx E tls when data t t' ->
    (exists i, when = v_now E i) /\ x_when t' = when /\ x_server t' = ts_server tls /\
    x_peer t' = match peer_cert tls with Some c => tlsName c | None => x_peer t end /\
    (x_bodyhash t' = snd (getHashes (v_sha1 E) (v_mail E) data)) /\ x_cipher t' = ts_cipher tls /\ x_version t' = ts_version tls.
  Proof. intros (p & v & (H1 & H2 & _) & ->). unfold getHashes. cbn. auto 10. Qed.

  (** The names of the client's address are those found when it connected; its
      certificate's name is that of an earlier certificate. *)
  Lemma Conv_names (Q : bytes -> Prop) I h s : Conv K E cn I h s -> Q [] ->
    Forall (fun e => match peer_cert (snd e) with Some c => Q (tlsName c) | None => True end) (heard h) ->
    (exists tr b tr', LookupAddrVerified (v_world E) (n_rip cn) tr = ((x_rdns (s_tx s), b), tr')) /\ Q (x_peer (s_tx s)).
  Proof.
    intros HC HQ. induction HC as [s Hs|h s ev tls s' did HC IH Hst Ha]; intros Hev.
    - apply setup_Setup in Hs. destruct Hs as [rr hit n inf l1 l2 sname tr1 name certs tr2 l3 thit tn l4 rd tr0 refused res c ans s1 l5 Hr Hi Hp Hc HL _ _ _ _ _ HD _].
      apply Decided_Judged in HD as (t & log & HJ & _ & _ & Hs & _). destruct Hs as (Ht & _). cbn [add_out s_tx]. rewrite Ht.
      rewrite (Judged_peer _ _ _ _ _ _ _ _ _ HJ). apply Judged_from in HJ as (_ & _ & _ & _ & _ & _ & ->). cbn [s_tx put_rdns x_rdns x_peer sess0].
      destruct rd as [r b]. split; [eauto|exact HQ].
    - assert (HT : Turn K E cn I h (mkTurn ev tls did) Go s s') by (repeat split; auto).
      apply Turn_Did in HT. cbn [t_event t_tls t_did] in HT. rewrite heard_cons, Forall_app in Hev. destruct Hev as (He1 & He2).
      inversion He2 as [|? ? Hq _]; subst. cbn [t_event t_tls] in Hq. destruct (IH He1) as (I1 & I2).
      assert (Hmsg : forall t when data, message_tx E tls when data (s_tx s) t ->
        (exists tr b tr', LookupAddrVerified (v_world E) (n_rip cn) tr = ((x_rdns t, b), tr')) /\ Q (x_peer t)).
      { intros t when data Hm. pose proof (message_tx_env _ _ _ _ _ _ Hm) as (_ & _ & _ & _ & _ & _ & _ & ->). apply message_tx_names in Hm as (_ & _ & _ & -> & _).
        split; auto. cbn [snd] in Hq. destruct (peer_cert tls); auto. }
      assert (Hj : forall I0 t0 c0 ph e0 res0 c1 t1 d0, Judged E cn I0 t0 c0 ph e0 res0 c1 t1 d0 ->
        (exists tr b tr', LookupAddrVerified (v_world E) (n_rip cn) tr = ((x_rdns t0, b), tr')) /\ Q (x_peer t0) ->
        (exists tr b tr', LookupAddrVerified (v_world E) (n_rip cn) tr = ((x_rdns t1, b), tr')) /\ Q (x_peer t1)).
      { intros I0 t0 c0 ph e0 res0 c1 t1 d0 HJ. rewrite (Judged_peer _ _ _ _ _ _ _ _ _ HJ). apply Judged_from in HJ as (_ & _ & _ & _ & _ & _ & ->). auto. }
      remember (vis did) as l0 eqn:El. clear El.
      destruct HT as [ev tls ph e res c t d s' Hc Hr HJ Hs|cmd arg tls res c t d s' Hr HJ Hs|arg tls res c t d n s' Hr HJ Hy Hn Hs
        |arg tls res c t d l s' Hr HJ Hl Hs|arg tls res c t d s' Hr HJ Hs|arg tls res c t d s' Hr HJ Hs
        |data tls when t name e save s' Hm Hd Hn Hk Hs|data tls when t name save res c t1 d got b r s' Hm Hk HJ Hb Hs|tls n s' Hs|ev tls s' He Hs|tls];
        try (destruct Hs as (Et & _); rewrite Et); auto; try (pose proof (Hj _ _ _ _ _ _ _ _ _ HJ (conj I1 I2)) as Hj'; exact Hj' || (cbn; exact Hj')).
      + eapply Hmsg; eauto.
      + eapply Hj; eauto.
  Qed.
  Lemma Conv_clean I h s : Conv K E cn I h s -> Quiet E cn -> Forall quiet_event (heard h) ->
    Forall oneline (rd_verified (x_rdns (s_tx s)) ++ rd_nofwd (x_rdns (s_tx s)) ++ rd_inconsist (x_rdns (s_tx s))) /\ oneline (x_peer (s_tx s)).
  Proof.
    intros HC HQ Hev. destruct (Conv_names oneline _ _ _ HC oneline_nil) as ((tr & b & tr' & Hl) & Hp).
    - revert Hev. apply Forall_impl. intros e (_ & _ & He). exact He.
    - split; [|exact Hp]. eapply rdns_names; [apply (q_dns _ _ HQ)|exact Hl].
  Qed.

  (** What a message is logged and saved with is clean. *)
  Lemma message_clean I h s data tls when t : Conv K E cn I h s -> Quiet E cn -> Forall quiet_event (heard h) -> quiet_event (EvGotData data, tls) ->
    message_tx E tls when data (s_tx s) t -> Clean cn t.
  Proof.
    intros HC HQ Hh Hev Hm. pose proof (Conv_clean _ _ _ HC HQ Hh) as (D & P). pose proof (envelope_oneline _ Hh) as (O1 & O2 & O3).
    apply Conv_envelope in HC as (E1 & E2 & E3).
    pose proof (message_tx_env _ _ _ _ _ _ Hm) as (M1 & M2 & M3 & _ & M5 & M6 & _ & M8).
    apply message_tx_names in Hm as ((i & ->) & N1 & N2 & N3 & N4 & _). destruct Hev as (_ & V1 & V2). cbn [snd] in V1, V2.
    constructor; rewrite ?M1, ?M2, ?M3, ?M6, ?M8, ?N1, ?N2, ?N3, ?N4, ?E1, ?E2, ?E3; auto; try apply HQ.
    - destruct (peer_cert tls); auto.
    - unfold getHashes. cbn [snd]. destruct (v_mail E data); try (apply oneline_B; reflexivity). apply HQ.
  Qed.

  (** C45: in every file that is written, the message is what follows the first
      line "body", and the lines before give back the sender and recipients. *)
  Theorem C45_saved I h t n s s' path m w : Turn K E cn I h t n s s' -> In (FWrite path m w) (t_did t) ->
    Quiet E cn -> Forall quiet_event (heard (t :: h)) ->
    exists data ls, t_event t = EvGotData data /\ read_record m = Some (ls, data) /\
      addresses (B "from") ls = [sender h] /\ addresses (B "to") ls = recipients h /\
      exists front, ls = front ++ [B "hash " ++ v_sha1 E data ++ B " bytes " ++ itoa (length data); B "bodyhash " ++ body_hash E data].
  Proof.
    intros HT Hin HQ Hev. pose proof (Turn_Did _ _ _ _ _ _ _ _ _ HT) as HD. destruct HT as (HC & _). rewrite <- In_vis in Hin by reflexivity.
    rewrite heard_cons, Forall_app in Hev. destruct Hev as (Hh & Hev). inversion Hev as [|? ? Hq _]; subst.
    assert (Hgen : forall when t0 data, t_event t = EvGotData data -> message_tx E (t_tls t) when data (s_tx s) t0 -> m = record_of E cn t0 ->
      exists data ls, t_event t = EvGotData data /\ read_record m = Some (ls, data) /\
      addresses (B "from") ls = [sender h] /\ addresses (B "to") ls = recipients h /\
      exists front, ls = front ++ [B "hash " ++ v_sha1 E data ++ B " bytes " ++ itoa (length data); B "bodyhash " ++ body_hash E data]).
    { intros when t0 data Ev Hm ->. rewrite Ev in Hq. pose proof (message_clean _ _ _ _ _ _ _ HC HQ Hh Hq Hm) as Hc.
      apply Conv_envelope in HC as (E1 & E2 & _).
      pose proof (message_tx_rest _ _ _ _ _ _ Hm) as (T1 & _). apply message_tx_env in Hm as (M1 & M2 & _ & _ & M5 & M6 & _).
      destruct (C45_read (v_sha1 E) _ _ Hc) as (ls & R1 & R2 & R3 & R4). exists data, ls. rewrite M5 in R1. rewrite M1, E1 in R2. rewrite M2, E2 in R3.
      rewrite M5, M6, T1 in R4. auto. }
    assert (Hsave : forall path' m' r save, Kept path' m' r save -> In (FWrite path m w) save -> m = m').
    { intros path' m' r save Hk Hi. destruct Hk; cbn in Hi; intuition congruence. }
    destruct t as [ev tls did]. cbn [t_event t_tls t_did] in *. remember (vis did) as l0 eqn:El. clear El.
    destruct HD as [ev tls ph e res c t d s' Hc Hr HJ Hst|cmd arg tls res c t d s' Hr HJ Hst|arg tls res c t d n s' Hr HJ Hy Hn Hst
      |arg tls res c t d l s' Hr HJ Hl Hst|arg tls res c t d s' Hr HJ Hst|arg tls res c t d s' Hr HJ Hst
      |data tls when t name e save s' Hm Hd Hn Hk Hst|data tls when t name save res c t1 d got b r s' Hm Hk HJ Hb Hst|tls n s' Hst|ev tls s' He Hst|tls];
      try (exfalso; cbn in Hin; intuition discriminate).
    - exfalso. destruct Hin as [Hin|Hin]; [discriminate|]. apply in_app_or in Hin as [Hin|Hin]; [|cbn in Hin; intuition discriminate].
      destruct (retry s); [destruct Hl as (n & -> & _)|subst l]; cbn in Hin; intuition discriminate.
    - apply in_app_or in Hin as [Hin|Hin]; [destruct (k_msglog K); cbn in Hin; intuition discriminate|].
      apply in_app_or in Hin as [Hin|Hin]; [|cbn in Hin; intuition discriminate]. eapply Hgen; eauto.
    - apply in_app_or in Hin as [Hin|Hin]; [destruct (k_msglog K); cbn in Hin; intuition discriminate|].
      apply in_app_or in Hin as [Hin|Hin]; [|cbn in Hin; intuition discriminate].
      destruct Hk as [(_ & _ & ->)|(_ & _ & Hk)]; [destruct Hin|]. eapply Hgen; eauto.
  Qed.

  (** C64: a message adds exactly one line to the message log. *)
  Theorem C64_one_line I h data tls did n s s' : Turn K E cn I h (mkTurn (EvGotData data) tls did) n s s' -> k_msglog K = true ->
    Quiet E cn -> Forall quiet_event (heard h) -> quiet_event (EvGotData data, tls) ->
    exists line before after, msglogs did = [line ++ [ch_nl]] /\ oneline line /\
      line = before ++ B "<" ++ sender h ++ B "> to" ++ concat (map (fun a => B " <" ++ a ++ B ">") (recipients h)) ++ B ": message " ++ after.
  Proof.
    intros HT Hml HQ Hh Hq. pose proof (Turn_Did _ _ _ _ _ _ _ _ _ HT) as HD. destruct HT as (HC & _).
    cbn [t_event t_tls t_did] in HD. rewrite <- msglogs_vis. remember (vis did) as l eqn:El. clear El.
    assert (Hgen : forall when t, message_tx E tls when data (s_tx s) t -> exists line before after, logText cn t = line ++ [ch_nl] /\ oneline line /\
      line = before ++ B "<" ++ sender h ++ B "> to" ++ concat (map (fun a => B " <" ++ a ++ B ">") (recipients h)) ++ B ": message " ++ after).
    { intros when t Hm. pose proof (message_clean _ _ _ _ _ _ _ HC HQ Hh Hq Hm) as [C1 C2 C3 C4 C5 C6 C7 C8 C9 C10 C11].
      apply Conv_envelope in HC as (E1 & E2 & _). apply message_tx_env in Hm as (M1 & M2 & _).
      assert (Hx : forall x, forallb (fun c => negb (Ascii.eqb c ch_nl)) x = true -> oneline x) by apply oneline_B.
      rewrite <- E1, <- E2, <- M1, <- M2. eexists _, (x_when t ++ B " [" ++ n_prefix cn ++ B "] from " ++ n_raddr cn ++ B " / "), _. split; [|split].
      - unfold logText. rewrite !app_assoc. reflexivity.
      - rewrite <- !app_assoc, !oneline_app. unfold n_prefix. rewrite !oneline_app. repeat split; auto; try (apply oneline_itoa); try (apply Hx; reflexivity).
        + apply (oneline_concat (fun a => B " <" ++ a ++ B ">")); auto. intros x Hox. rewrite !oneline_app. repeat split; auto; apply Hx; reflexivity.
        + destruct (x_tlson t); [|apply Hx; reflexivity]. rewrite !oneline_app. repeat split; try (apply Hx; reflexivity); apply hex4_plain; right; left; reflexivity.
      - rewrite <- !app_assoc. reflexivity. }
    assert (Hl : forall save, msglogs save = [] -> forall t, msglogs ((if k_msglog K then [FMsglog (logText cn t)] else []) ++ save) = [logText cn t]).
    { intros save Hs t. rewrite Hml. unfold msglogs in *. rewrite flat_map_app, Hs. reflexivity. }
    inversion HD as [? ? ph e res c t d ? Hc| | | | | |? ? when t name e save ? Hm Hd Hn Hk Hs|? ? when t name save res c t1 d got b r ? Hm Hk HJ Hb Hs| |? ? ? He|]; subst; try discriminate.
    - rewrite Hl; [destruct (Hgen _ _ Hm) as (line & b4 & af & -> & H1 & H2); exists line, b4, af; auto|].
      unfold msglogs. rewrite flat_map_app. destruct Hk; reflexivity.
    - rewrite Hl; [destruct (Hgen _ _ Hm) as (line & b4 & af & -> & H1 & H2); exists line, b4, af; auto|].
      unfold msglogs. rewrite flat_map_app. destruct Hk as [(_ & _ & ->)|(_ & _ & [])]; reflexivity.
    - destruct He; discriminate.
  Qed.
End S.
