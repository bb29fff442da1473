(** Save files are named after exactly the documented information (C46). *)
From Verif Require Import PropsParse.
From Verif Require Import Bytes Outcome Lexer Ast GoNet Parser World Dns Eval PropsDns Decisions RuleLoad PropsLoad ConnCfg PropsConn CipherNames Message Session SessProofs Conv PropsEval PropsSession PropsSession2 DemoSession Records.
From Coq Require Import Lia Permutation.

(** ** Names of save files *)

(** What a record says apart from its first line. *)
Record minfo := mkMinfo {
  mi_remote : bytes;            (* the client's address, without the port *)
  mi_local : bytes;             (* the server's address *)
  mi_helo : bytes;
  mi_dns : rdns;                (* names of the client's address *)
  mi_tls : option (N * N * bytes * bytes * bool);  (* cipher, version, server and client name, verified *)
  mi_from : bytes;
  mi_to : list bytes;
  mi_data : bytes
}.
Definition meta_info (cn : conn) (t : tx) : minfo :=
  mkMinfo (if beqb (n_rip cn) [] then n_raddr cn else n_rip cn) (n_laddr cn) (x_helo t) (x_rdns t)
    (if x_tlson t then Some (x_cipher t, x_version t, x_server t, x_peer t, x_verified t) else None)
    (x_from t) (x_rcptto t) (x_data t).

(** Names that do not contain the separators of the record. *)
Definition nospace (x : bytes) : Prop := ~ In " "%char x.
Definition noquote (x : bytes) : Prop := ~ In "'"%char x.
Record Plain (cn : conn) (t : tx) : Prop := mkPlain {
  pl_raddr : nospace (n_raddr cn); pl_laddr : nospace (n_laddr cn);
  pl_dns : Forall nospace (rd_verified (x_rdns t) ++ rd_nofwd (x_rdns t) ++ rd_inconsist (x_rdns t));
  pl_server : noquote (x_server t); pl_peer : noquote (x_peer t);
  pl_cipher : (x_cipher t < 65536)%N; pl_version : (x_version t < 65536)%N
}.

Lemma cut (c : ascii) (a b x y : bytes) : a ++ c :: x = b ++ c :: y -> ~ In c a -> ~ In c b -> a = b /\ x = y.
Proof.
  revert b. induction a as [|d a IH]; intros [|e b] H Ha Hb; cbn in H.
  - injection H; auto.
  - injection H as <- _. destruct Hb. left. reflexivity.
  - injection H as -> _. destruct Ha. left. reflexivity.
  - injection H as <- H. apply IH in H as (-> & ->); auto; intros Hi; [apply Ha|apply Hb]; right; exact Hi.
Qed.
(** the same, where what follows may be nothing *)
Definition starts (c : ascii) (x : bytes) : Prop := match x with [] => True | d :: _ => d = c end.
Lemma cut_end (c : ascii) (a b x y : bytes) : a ++ x = b ++ y -> ~ In c a -> ~ In c b -> starts c x -> starts c y -> a = b /\ x = y.
Proof.
  revert b. induction a as [|d a IH]; intros [|e b] H Ha Hb Hx Hy; cbn in H.
  - auto.
  - subst x. cbn in Hx. subst e. destruct Hb. left. reflexivity.
  - subst y. cbn in Hy. subst d. destruct Ha. left. reflexivity.
  - injection H as <- H. apply IH in H as (-> & ->); auto; intros Hi; [apply Ha|apply Hb]; right; exact Hi.
Qed.

Definition hex_value (c : ascii) : N :=
  let n := N_of_ascii c in if N.leb n 57 then (n - 48)%N else (n - 87)%N.
Lemma hex_value_digit k : (k < 16)%N -> hex_value (hex_digit k) = k.
Proof.
  intros H. assert (Hall : forallb (fun i => N.eqb (hex_value (hex_digit (N.of_nat i))) (N.of_nat i)) (seq 0 16) = true) by (vm_compute; reflexivity).
  rewrite forallb_forall in Hall. specialize (Hall (N.to_nat k)). rewrite N2Nat.id in Hall. apply N.eqb_eq. apply Hall. apply in_seq. lia.
Qed.
Lemma hex4_inj n m : (n < 65536)%N -> (m < 65536)%N -> hex4 n = hex4 m -> n = m.
Proof.
  intros Hn Hm H. unfold hex4 in H. pose proof (ext_in_map H) as He.
  pose proof (He 12%N (or_introl eq_refl)) as H1. pose proof (He 8%N (or_intror (or_introl eq_refl))) as H2.
  pose proof (He 4%N (or_intror (or_intror (or_introl eq_refl)))) as H3. pose proof (He 0%N (or_intror (or_intror (or_intror (or_introl eq_refl))))) as H4.
  cbv beta in H1, H2, H3, H4. clear H He.
  assert (Hd : forall a b, hex_digit (a mod 16)%N = hex_digit (b mod 16)%N -> (a mod 16 = b mod 16)%N).
  { intros a b Hab. rewrite <- (hex_value_digit (a mod 16)%N), <- (hex_value_digit (b mod 16)%N) by (apply N.mod_lt; discriminate). congruence. }
  apply Hd in H1, H2, H3, H4. rewrite !N.shiftr_div_pow2 in H1, H2, H3. rewrite !N.shiftr_0_r in H4. change (2 ^ 12)%N with 4096%N in *. change (2 ^ 8)%N with 256%N in *. change (2 ^ 4)%N with 16%N in *.
  assert (Hx : forall k, (k = 4096 * (k / 4096) + 256 * ((k / 256) mod 16) + 16 * ((k / 16) mod 16) + k mod 16)%N).
  { intros k. assert (E1 : (k / 256 = k / 16 / 16)%N) by (rewrite N.div_div by discriminate; reflexivity).
    assert (E2 : (k / 4096 = k / 16 / 16 / 16)%N) by (rewrite !N.div_div by discriminate; reflexivity).
    rewrite E1, E2. pose proof (N.div_mod k 16). pose proof (N.div_mod (k / 16) 16). pose proof (N.div_mod (k / 16 / 16) 16). lia. }
  assert (Hs : forall k, (k < 65536)%N -> (k / 4096 mod 16 = k / 4096)%N).
  { intros k Hk. apply N.mod_small. apply N.div_lt_upper_bound; [discriminate|exact Hk]. }
  rewrite (Hs n Hn), (Hs m Hm) in H1. rewrite (Hx n), (Hx m), H1, H2, H3, H4. reflexivity.
Qed.
Lemma proto_inj v w : (v < 65536)%N -> (w < 65536)%N -> tlsProtoVersion v = tlsProtoVersion w -> v = w.
Proof.
  intros Hv Hw. unfold tlsProtoVersion.
  repeat match goal with |- context [N.eqb ?x ?k] => destruct (N.eqb_spec x k) end; intros H; try congruence; try discriminate H.
  apply app_inv_head in H. apply hex4_inj; auto.
Qed.

Lemma names_inj l l' : Forall nospace l -> Forall nospace l' ->
  concat (map (fun e => B " " ++ e) l) = concat (map (fun e => B " " ++ e) l') -> l = l'.
Proof.
  intros H. revert l'. induction H as [|x l Hx H IH]; intros [|y l'] H' E; auto; try discriminate E.
  inversion_clear H' as [|? ? Hy H'']. cbn [map concat] in E. cbn [B app] in E. injection E as E.
  assert (Hst : forall k, starts " " (concat (map (fun e => B " " ++ e) k))) by (intros [|? ?]; cbn; auto).
  apply (cut_end " "%char) in E as (-> & E); auto. f_equal. auto.
Qed.

(** the values of the lines with a key *)
Definition keyed (key : bytes) (ls : list bytes) : list bytes :=
  flat_map (fun l => if has_prefix l (key ++ B " ") then [skipn (length key) l] else []) ls.
Lemma keyed_app key a b : keyed key (a ++ b) = keyed key a ++ keyed key b.
Proof. apply flat_map_app. Qed.
Lemma keyed_none key ls : Forall (fun l => has_prefix l (key ++ B " ") = false) ls -> keyed key ls = [].
Proof. induction 1 as [|l ls H _ IH]; [reflexivity|]. unfold keyed in *. cbn [flat_map]. rewrite H. exact IH. Qed.
Lemma keyed_one key x : keyed key [key ++ B " " ++ x] = [B " " ++ x].
Proof.
  unfold keyed. cbn [flat_map]. rewrite (proj2 (has_prefix_spec _ _)) by (exists x; rewrite <- app_assoc; reflexivity).
  rewrite skipn_app, skipn_all, Nat.sub_diag. reflexivity.
Qed.
Lemma keyed_dns key l : keyed key (dns_line key l) = match l with [] => [] | _ => [concat (map (fun e => B " " ++ e) l)] end.
Proof.
  destruct l as [|x l]; [reflexivity|]. cbn [dns_line map concat]. rewrite <- app_assoc. apply keyed_one.
Qed.

Definition meta_lines (cn : conn) (t : tx) : list bytes := tl (header_lines cn t).
Lemma metaText_lines cn t : metaText cn t = to_lines (meta_lines cn t) ++ B "body" ++ [ch_nl] ++ x_data t.
Proof.
  apply (app_inv_head (idLine cn t)). change (idLine cn t ++ metaText cn t) with (fst (msgDetails (fun _ => []) cn t)). rewrite record_lines.
  unfold meta_lines, header_lines. cbn [app tl]. unfold to_lines. cbn [map concat]. unfold idLine. rewrite <- !app_assoc. reflexivity.
Qed.
Lemma tls_line_rest t : exists x, x_tlson t = true -> tls_line t = [B "tls" ++ B " " ++ x] /\
  x = B "on cipher 0x" ++ hex4 (x_cipher t) ++
    (if beqb (cipherNames (x_cipher t)) [] then [] else B " name " ++ cipherNames (x_cipher t)) ++
    B " proto " ++ tlsProtoVersion (x_version t) ++
    (if beqb (x_server t) [] then [] else B " server-name '" ++ x_server t ++ B "'") ++
    (if beqb (x_peer t) [] then [] else B " client-name '" ++ x_peer t ++ B "'") ++
    (if x_verified t then B " client-name-verified" else []).
Proof.
  eexists. intros Ht. split; [|reflexivity]. unfold tls_line, tlsLine. rewrite Ht. rewrite !app_assoc, removelast_last, <- !app_assoc. reflexivity.
Qed.

Lemma meta_keyed key cn t : In key [B "remote-dns"; B "remote-dns-nofwd"; B "remote-dns-inconsist"; B "tls"] ->
  keyed key (meta_lines cn t) =
  keyed key (dns_line (B "remote-dns") (rd_verified (x_rdns t))) ++ keyed key (dns_line (B "remote-dns-nofwd") (rd_nofwd (x_rdns t))) ++
  keyed key (dns_line (B "remote-dns-inconsist") (rd_inconsist (x_rdns t))) ++ keyed key (tls_line t).
Proof.
  intros Hk.
  assert (E : meta_lines cn t =
    [B "remote " ++ (if beqb (n_rip cn) [] then n_raddr cn else n_rip cn) ++ B " to " ++ n_laddr cn ++ B " with helo '" ++ x_helo t ++ B "'"] ++
    dns_line (B "remote-dns") (rd_verified (x_rdns t)) ++ dns_line (B "remote-dns-nofwd") (rd_nofwd (x_rdns t)) ++
    dns_line (B "remote-dns-inconsist") (rd_inconsist (x_rdns t)) ++ tls_line t ++
    ([B "from <" ++ x_from t ++ B ">"] ++ map (fun a => B "to <" ++ a ++ B ">") (x_rcptto t) ++
    [B "hash " ++ x_hash t ++ B " bytes " ++ itoa (length (x_data t)); B "bodyhash " ++ x_bodyhash t])) by reflexivity.
  rewrite E, (keyed_app key [_]), (keyed_none key [_]), !(keyed_app key (dns_line _ _)), (keyed_app key (tls_line _)), (keyed_none key ([_] ++ _)); cbn [app].
  - rewrite app_nil_r. reflexivity.
  - constructor; [|apply Forall_app; split; [apply Forall_map, Forall_forall; intros a _|constructor; [|constructor; [|constructor]]]];
      cbn in Hk; intuition (subst; reflexivity).
  - constructor; [|constructor]. cbn in Hk; intuition (subst; reflexivity).
Qed.

Lemma dns_keyed key cn t p l : (p, l) = (B "remote-dns", rd_verified (x_rdns t)) \/ (p, l) = (B "remote-dns-nofwd", rd_nofwd (x_rdns t)) \/
    (p, l) = (B "remote-dns-inconsist", rd_inconsist (x_rdns t)) -> key = p ->
  keyed key (meta_lines cn t) = match l with [] => [] | _ => [concat (map (fun e => B " " ++ e) l)] end.
Proof.
  intros H ->. rewrite meta_keyed by (destruct H as [H|[H|H]]; apply (f_equal fst) in H; cbn [fst] in H; rewrite H; cbn; auto).
  assert (Hz : forall k p l, has_prefix (p ++ B " ") (k ++ B " ") = false -> (forall x, has_prefix (p ++ B " " ++ x) (k ++ B " ") = false) -> keyed k (dns_line p l) = []).
  { intros k q [|x m] _ Hx; [reflexivity|]. apply keyed_none. constructor; [|constructor]. cbn [map concat]. rewrite <- !app_assoc. apply Hx. }
  assert (Ht : forall k, In k [B "remote-dns"; B "remote-dns-nofwd"; B "remote-dns-inconsist"] -> keyed k (tls_line t) = []).
  { intros k Hk. unfold tls_line. destruct (x_tlson t) eqn:Et; [|reflexivity]. destruct (tls_line_rest t) as (x & Hx). destruct (Hx Et) as (Hx1 & _).
    unfold tls_line in Hx1. rewrite Et in Hx1. rewrite Hx1. apply keyed_none. constructor; [|constructor]. cbn in Hk. intuition (subst; reflexivity). }
  destruct H as [H|[H|H]]; pose proof (f_equal fst H) as Hp; pose proof (f_equal snd H) as Hl; cbn [fst snd] in Hp, Hl; subst p l; clear H; rewrite Ht by (cbn; auto); rewrite keyed_dns, !Hz by reflexivity; cbn [app]; rewrite ?app_nil_r; reflexivity.
Qed.
Lemma tls_keyed cn t : keyed (B "tls") (meta_lines cn t) = keyed (B "tls") (tls_line t).
Proof.
  rewrite meta_keyed by (cbn; auto).
  assert (Hz : forall p l, (forall x, has_prefix (p ++ B " " ++ x) (B "tls" ++ B " ") = false) -> keyed (B "tls") (dns_line p l) = []).
  { intros q [|x m] Hx; [reflexivity|]. apply keyed_none. constructor; [|constructor]. cbn [map concat]. rewrite <- !app_assoc. apply Hx. }
  rewrite !Hz by reflexivity. reflexivity.
Qed.

Lemma dns_same l l' : Forall nospace l -> Forall nospace l' ->
  match l with [] => [] | _ => [concat (map (fun e => B " " ++ e) l)] end = match l' with [] => [] | _ => [concat (map (fun e => B " " ++ e) l')] end -> l = l'.
Proof.
  intros H H' E. apply names_inj; auto. destruct l, l'; try discriminate E; [reflexivity|]. exact (f_equal (hd []) E).
Qed.

Lemma tls_same cn t cn' t' : Plain cn t -> Plain cn' t' -> keyed (B "tls") (tls_line t) = keyed (B "tls") (tls_line t') ->
  mi_tls (meta_info cn t) = mi_tls (meta_info cn' t').
Proof.
  intros HP HP' H. cbn [mi_tls meta_info].
  assert (Hk : forall t, keyed (B "tls") (tls_line t) = [] <-> x_tlson t = false).
  { intros u. destruct (tls_line_rest u) as (x & Hx). destruct (x_tlson u) eqn:Eu.
    - destruct (Hx eq_refl) as (-> & _). rewrite keyed_one. split; discriminate.
    - unfold tls_line. rewrite Eu. split; reflexivity. }
  destruct (x_tlson t) eqn:Et, (x_tlson t') eqn:Et'; auto.
  2: { apply Hk in Et'. rewrite Et' in H. apply Hk in H. congruence. }
  2: { apply Hk in Et. rewrite Et in H. symmetry in H. apply Hk in H. congruence. }
  destruct (tls_line_rest t) as (x & Hx). destruct (Hx Et) as (E1 & Ex). destruct (tls_line_rest t') as (x' & Hx'). destruct (Hx' Et') as (E1' & Ex').
  rewrite E1, E1', !keyed_one in H. apply (f_equal (hd [])) in H. cbn [hd] in H. apply app_inv_head in H. rewrite Ex, Ex' in H. clear - HP HP' H. apply app_inv_head in H.
  destruct HP as [_ _ _ Q1 Q2 N1 N2], HP' as [_ _ _ Q1' Q2' N1' N2'].
  assert (Hc : x_cipher t = x_cipher t').
  { apply hex4_inj; auto. apply (f_equal (firstn 4)) in H. exact H. }
  rewrite Hc in *. apply app_inv_head in H. apply app_inv_head in H. apply app_inv_head in H. clear Hc.
  assert (Hs : forall u, starts " " ((if beqb (x_server u) [] then [] else B " server-name '" ++ x_server u ++ B "'") ++
    (if beqb (x_peer u) [] then [] else B " client-name '" ++ x_peer u ++ B "'") ++ (if x_verified u then B " client-name-verified" else []))).
  { intros u. destruct (beqb (x_server u) []), (beqb (x_peer u) []), (x_verified u); cbn; auto. }
  apply (cut_end " "%char) in H as (Hv & H); auto; try (apply proto_plain; left; reflexivity).
  apply proto_inj in Hv; auto. rewrite Hv. clear Hv Hs.
  assert (Hs : x_server t = x_server t' /\
    (if beqb (x_peer t) [] then [] else B " client-name '" ++ x_peer t ++ B "'") ++ (if x_verified t then B " client-name-verified" else []) =
    (if beqb (x_peer t') [] then [] else B " client-name '" ++ x_peer t' ++ B "'") ++ (if x_verified t' then B " client-name-verified" else [])).
  { destruct (beqb_spec (x_server t) []) as [E|E], (beqb_spec (x_server t') []) as [E'|E'].
    - rewrite E, E'. auto.
    - exfalso. clear - H. destruct (beqb (x_peer t) []), (x_verified t); discriminate H.
    - exfalso. clear - H. destruct (beqb (x_peer t') []), (x_verified t'); discriminate H.
    - rewrite <- !app_assoc in H. apply app_inv_head in H. cbn [B app] in H. apply (cut "'"%char) in H; auto. }
  destruct Hs as (-> & Hs). clear H.
  destruct (beqb_spec (x_peer t) []) as [E|E], (beqb_spec (x_peer t') []) as [E'|E'].
  - rewrite E, E'. destruct (x_verified t), (x_verified t'); auto; discriminate Hs.
  - exfalso. clear - Hs. destruct (x_verified t); discriminate Hs.
  - exfalso. clear - Hs. destruct (x_verified t'); discriminate Hs.
  - rewrite <- !app_assoc in Hs. apply app_inv_head in Hs. cbn [B app] in Hs. apply (cut "'"%char) in Hs as (-> & Hs); auto.
    destruct (x_verified t), (x_verified t'); auto; discriminate Hs.
Qed.

(** What follows the first line is determined by, and determines, what it says. *)
Theorem meta_determined cn t cn' t' : meta_info cn t = meta_info cn' t' -> x_hash t = x_hash t' -> x_bodyhash t = x_bodyhash t' ->
  metaText cn t = metaText cn' t'.
Proof.
  unfold meta_info. intros H Hh Hb. injection H as H1 H2 H3 H4 H5 H6 H7 H8. unfold metaText. rewrite H1, H2, H3, H4, H6, H7, H8, Hh, Hb.
  assert (Ht : tlsLine t = tlsLine t'); [|rewrite Ht; reflexivity].
  unfold tlsLine. destruct (x_tlson t), (x_tlson t'); try discriminate H5; auto. injection H5 as -> -> -> -> ->. reflexivity.
Qed.
Theorem meta_determines cn t cn' t' : Clean cn t -> Clean cn' t' -> Plain cn t -> Plain cn' t' -> metaText cn t = metaText cn' t' ->
  meta_info cn t = meta_info cn' t'.
Proof.
  intros HC HC' HP HP' H.
  assert (Hr : forall cn t, Clean cn t -> read_record (metaText cn t) = Some (meta_lines cn t, x_data t)).
  { intros c u HCu. rewrite metaText_lines. apply read_lines. apply header_oneline in HCu. unfold meta_lines.
    unfold header_lines in *. inversion HCu; subst. assumption. }
  pose proof (Hr _ _ HC) as R. rewrite H, (Hr _ _ HC') in R. apply (f_equal (fun o => match o with Some p => p | None => ([], []) end)) in R.
  pose proof (f_equal fst R) as Hl. pose proof (f_equal snd R) as Hd. cbn [fst snd] in Hl, Hd. clear H Hr R.
  pose proof (dns_keyed (B "remote-dns") cn t _ _ (or_introl eq_refl) eq_refl) as K1.
  pose proof (dns_keyed (B "remote-dns-nofwd") cn t _ _ (or_intror (or_introl eq_refl)) eq_refl) as K2.
  pose proof (dns_keyed (B "remote-dns-inconsist") cn t _ _ (or_intror (or_intror eq_refl)) eq_refl) as K3.
  pose proof (tls_keyed cn t) as K4. pose proof (header_addresses cn t) as (A1 & A2). pose proof (header_addresses cn' t') as (A1' & A2').
  change (addresses (B "from") (meta_lines cn t) = [x_from t]) in A1. change (addresses (B "to") (meta_lines cn t) = x_rcptto t) in A2.
  change (addresses (B "from") (meta_lines cn' t') = [x_from t']) in A1'. change (addresses (B "to") (meta_lines cn' t') = x_rcptto t') in A2'.
  rewrite <- Hl in K1, K2, K3, K4, A1, A2.
  rewrite (dns_keyed (B "remote-dns") cn' t' _ _ (or_introl eq_refl) eq_refl) in K1.
  rewrite (dns_keyed (B "remote-dns-nofwd") cn' t' _ _ (or_intror (or_introl eq_refl)) eq_refl) in K2.
  rewrite (dns_keyed (B "remote-dns-inconsist") cn' t' _ _ (or_intror (or_intror eq_refl)) eq_refl) in K3.
  rewrite tls_keyed in K4. rewrite A1' in A1. rewrite A2' in A2. apply (f_equal (hd [])) in A1. cbn [hd] in A1.
  pose proof (tls_same _ _ _ _ HP' HP K4) as Htls.
  destruct HP as [P1 P2 P3 _ _ _ _], HP' as [P1' P2' P3' _ _ _ _]. rewrite !Forall_app in P3, P3'. destruct P3 as (V1 & V2 & V3), P3' as (V1' & V2' & V3').
  apply dns_same in K1, K2, K3; auto.
  assert (Hrem : forall cn, nospace (n_raddr cn) -> nospace (if beqb (n_rip cn) [] then n_raddr cn else n_rip cn)).
  { intros c Hc. destruct (beqb (n_rip c) []); auto. intros Hin. apply Hc. apply host_of_in. exact Hin. }
  pose proof (Hrem _ P1) as R1. pose proof (Hrem _ P1') as R1'.
  unfold meta_lines, header_lines in Hl. apply (f_equal (hd [])) in Hl. cbn [app tl hd] in Hl.
  apply app_inv_head in Hl. cbn [B app] in Hl. apply (cut " "%char) in Hl as (G1 & Hl); auto. apply (app_inv_head (B "to ")) in Hl.
  apply (cut " "%char) in Hl as (G2 & Hl); auto. apply (app_inv_head (B "with helo '")) in Hl.
  apply app_inj_tail in Hl as (G3 & _).
  unfold meta_info in *. cbn [mi_tls] in Htls. rewrite Htls, <- G1, <- G2, <- G3, A1, A2, Hd. f_equal. destruct (x_rdns t), (x_rdns t'). cbn in *. subst. reflexivity.
Qed.

(** ** Sessions *)

(** addresses and names without the separators *)
Record Spaceless (E : senv) (cn : conn) : Prop := mkSpaceless {
  sl_raddr : nospace (n_raddr cn); sl_laddr : nospace (n_laddr cn);
  sl_dns : forall i a names, w_addr (v_world E) i a = inl names -> Forall nospace names
}.
Definition quoteless (e : sevent * tlsstate) : Prop :=
  noquote (ts_server (snd e)) /\ match peer_cert (snd e) with Some c => noquote (tlsName c) | None => True end /\
  (ts_cipher (snd e) < 65536)%N /\ (ts_version (snd e) < 65536)%N.

(** [M] is what is known about the message of the last turn. *)
Record Describes (E : senv) (cn : conn) (h : list turn) (t : turn) (M : minfo) : Prop := mkDescribes {
  de_data : t_event t = EvGotData (mi_data M);
  de_from : mi_from M = sender h;
  de_to : mi_to M = recipients h;
  de_helo : mi_helo M = helo_name h;
  de_local : mi_local M = n_laddr cn;
  de_remote : mi_remote M = if beqb (host_of (n_raddr cn)) [] then n_raddr cn else host_of (n_raddr cn);
  de_dns : exists tr b tr', LookupAddrVerified (v_world E) (host_of (n_raddr cn)) tr = ((mi_dns M, b), tr');
  de_plain : ts_on (t_tls t) = false -> mi_tls M = None;
  de_tls : ts_on (t_tls t) = true -> exists peer ver,
    mi_tls M = Some (ts_cipher (t_tls t), ts_version (t_tls t), ts_server (t_tls t), peer, ver) /\
    (forall c, peer_cert (t_tls t) = Some c -> peer = tlsName c) /\ (ts_chains (t_tls t) <> [] -> ver = true)
}.

Lemma saving_turn K E cn I h t n s s' path r : Turn K E cn I h t n s s' -> In (FOpen path r) (t_did t) ->
  exists when data u name, t_event t = EvGotData data /\ message_tx E (t_tls t) when data (s_tx s) u /\
    path = x_savedir u ++ B "/" ++ name /\ saveName (v_sha1 E) (k_hashtype K) cn u = Some name.
Proof.
  intros HT Hin. pose proof (Turn_Did _ _ _ _ _ _ _ _ _ HT) as HD. destruct HT as (HC & _). rewrite <- In_vis in Hin by reflexivity.
  assert (Hsave : forall path' m' r0 save, Kept path' m' r0 save -> In (FOpen path r) save -> path = path').
  { intros path' m' r0 save Hk Hi. destruct Hk; cbn in Hi; intuition congruence. }
  destruct t as [ev tls did]. cbn [t_event t_tls t_did] in *. remember (vis did) as l0 eqn:El. clear El.
  destruct HD as [ev tls ph e res c t d s' Hc Hr HJ Hst|cmd arg tls res c t d s' Hr HJ Hst|arg tls res c t d n s' Hr HJ Hy Hn Hst
    |arg tls res c t d l s' Hr HJ Hl Hst|arg tls res c t d s' Hr HJ Hst|arg tls res c t d s' Hr HJ Hst
    |data tls when t name e save s' Hm Hd Hn Hk Hst|data tls when t name save res c t1 d got b r' s' Hm Hk HJ Hb Hst|tls n s' Hst|ev tls s' He Hst|tls];
    try (exfalso; cbn in Hin; intuition discriminate).
  - exfalso. destruct Hin as [Hin|Hin]; [discriminate|]. apply in_app_or in Hin as [Hin|Hin]; [|cbn in Hin; intuition discriminate].
    destruct (retry s); [destruct Hl as (n & -> & _)|subst l]; cbn in Hin; intuition discriminate.
  - apply in_app_or in Hin as [Hin|Hin]; [destruct (k_msglog K); cbn in Hin; intuition discriminate|].
    apply in_app_or in Hin as [Hin|Hin]; [|cbn in Hin; intuition discriminate]. exists when, data, t, name. eauto.
  - apply in_app_or in Hin as [Hin|Hin]; [destruct (k_msglog K); cbn in Hin; intuition discriminate|].
    apply in_app_or in Hin as [Hin|Hin]; [|cbn in Hin; intuition discriminate].
    destruct Hk as [(_ & _ & ->)|(_ & Hn & Hk)]; [destruct Hin|]. exists when, data, t, name. eauto.
Qed.

Lemma described K E cn I h t s when data u : Conv K E cn I h s -> t_event t = EvGotData data -> message_tx E (t_tls t) when data (s_tx s) u ->
  Describes E cn h t (meta_info cn u).
Proof.
  intros HC Ev Hm. destruct (Conv_names K E cn (fun _ => True) I h s HC Logic.I) as (Hl & _).
  { apply Forall_forall. intros e _. destruct (peer_cert _); auto. }
  apply Conv_envelope in HC as (E1 & E2 & E3). pose proof (message_tx_env _ _ _ _ _ _ Hm) as (M1 & M2 & M3 & _ & M5 & _ & M7 & M8).
  pose proof (message_tx_names _ _ _ _ _ _ Hm) as (_ & _ & N2 & N3 & _ & N5 & N6).
  assert (Hver : ts_chains (t_tls t) <> [] -> x_verified u = true) by (destruct Hm as (p & v & (_ & _ & Hv & _) & ->); exact Hv).
  constructor; cbn [meta_info mi_data mi_from mi_to mi_helo mi_local mi_remote mi_dns mi_tls]; try congruence.
  - reflexivity.
  - rewrite M8. exact Hl.
  - rewrite M7. intros ->. reflexivity.
  - rewrite M7. intros ->. exists (x_peer u), (x_verified u). rewrite N2, N5, N6. split; [reflexivity|]. split; auto. intros c Hc. rewrite N3, Hc. reflexivity.
Qed.
Lemma message_plain K E cn I h t s when data u : Conv K E cn I h s -> Spaceless E cn -> Forall quoteless (heard (t :: h)) -> t_event t = EvGotData data ->
  message_tx E (t_tls t) when data (s_tx s) u -> Plain cn u.
Proof.
  intros HC [L1 L2 L3] Hev Ev Hm. rewrite heard_cons, Forall_app in Hev. destruct Hev as (Hh & Hev). inversion Hev as [|? ? (V1 & V2 & V3 & V4) _]; subst. cbn [snd] in *.
  destruct (Conv_names K E cn noquote I h s HC) as ((tr & b & tr' & Hl) & Hp); [intros []|revert Hh; apply Forall_impl; intros e (_ & He & _); exact He|].
  apply message_tx_env in Hm as Hm'. destruct Hm' as (_ & _ & _ & _ & _ & _ & _ & M8).
  apply message_tx_names in Hm as (_ & _ & N2 & N3 & _ & N5 & N6).
  constructor; rewrite ?M8, ?N2, ?N3, ?N5, ?N6; auto.
  - eapply rdns_names; [exact L3|exact Hl].
  - destruct (peer_cert (t_tls t)); auto.
Qed.

(** With names from the message the file is named after the hash of the message. *)
Theorem C46_msg K E cn I h t n s s' path r : Turn K E cn I h t n s s' -> In (FOpen path r) (t_did t) -> k_hashtype K = B "msg" ->
  exists dir data, t_event t = EvGotData data /\ path = dir ++ B "/" ++ v_sha1 E data.
Proof.
  intros HT Hin Hk. destruct (saving_turn _ _ _ _ _ _ _ _ _ _ _ HT Hin) as (when & data & u & name & Ev & Hm & -> & Hn).
  exists (x_savedir u), data. split; auto. unfold saveName in Hn. rewrite Hk in Hn. cbn in Hn. injection Hn as <-.
  apply message_tx_env in Hm as (_ & _ & _ & _ & _ & -> & _). reflexivity.
Qed.

Section Two.
  (** two messages that are saved, of the same or different sessions *)
  Context (K : config) (E : senv) (cn : conn) (I : sinfo) (h : list turn) (t : turn) (n : next) (s s' : sess) (path : bytes) (r : open_res).
  Context (K' : config) (E' : senv) (cn' : conn) (I' : sinfo) (h' : list turn) (t' : turn) (n' : next) (z z' : sess) (path' : bytes) (r' : open_res).
  Hypothesis (HT : Turn K E cn I h t n s s') (HT' : Turn K' E' cn' I' h' t' n' z z').
  Hypothesis (Hin : In (FOpen path r) (t_did t)) (Hin' : In (FOpen path' r') (t_did t')).
  Hypothesis (HQ : Quiet E cn) (HQ' : Quiet E' cn') (HS : Spaceless E cn) (HS' : Spaceless E' cn').
  Hypothesis (Hev : Forall quiet_event (heard (t :: h))) (Hev' : Forall quiet_event (heard (t' :: h'))).
  Hypothesis (Hqu : Forall quoteless (heard (t :: h))) (Hqu' : Forall quoteless (heard (t' :: h'))).
  (** hashing and taking messages apart are the same functions *)
  Hypothesis (Hsha : forall x, v_sha1 E x = v_sha1 E' x) (Hmail : forall x, v_mail E x = v_mail E' x).

  Lemma two_messages : exists when u name when' u' name',
    Describes E cn h t (meta_info cn u) /\ Describes E' cn' h' t' (meta_info cn' u') /\
    path = x_savedir u ++ B "/" ++ name /\ path' = x_savedir u' ++ B "/" ++ name' /\
    saveName (v_sha1 E) (k_hashtype K) cn u = Some name /\ saveName (v_sha1 E') (k_hashtype K') cn' u' = Some name' /\
    x_when u = when /\ x_when u' = when' /\ oneline when /\ oneline when' /\ (exists i, when = v_now E i) /\ (exists i, when' = v_now E' i) /\
    (metaText cn u = metaText cn' u' <-> meta_info cn u = meta_info cn' u').
  Proof.
    destruct (saving_turn _ _ _ _ _ _ _ _ _ _ _ HT Hin) as (when & data & u & name & Ev & Hm & Ep & Hn).
    destruct (saving_turn _ _ _ _ _ _ _ _ _ _ _ HT' Hin') as (when' & data' & u' & name' & Ev' & Hm' & Ep' & Hn').
    pose proof HT as (HC & _). pose proof HT' as (HC' & _).
    exists when, u, name, when', u', name'.
    split; [eapply described; eauto|]. split; [eapply described; eauto|].
    pose proof (message_tx_names _ _ _ _ _ _ Hm) as ((i & Ei) & W1 & _ & _ & B1 & _). pose proof (message_tx_names _ _ _ _ _ _ Hm') as ((i' & Ei') & W2 & _ & _ & B2 & _).
    do 6 (split; [assumption|]). split; [rewrite Ei; apply HQ|]. split; [rewrite Ei'; apply HQ'|]. split; [eauto|]. split; [eauto|].
    rewrite heard_cons, Forall_app in Hev, Hev'. destruct Hev as (Hh & He), Hev' as (Hh' & He').
    apply Forall_inv in He, He'. rewrite Ev in He. rewrite Ev' in He'.
    assert (Cl : Clean cn u) by (eapply message_clean; [exact HC| | | |exact Hm]; auto).
    assert (Cl' : Clean cn' u') by (eapply message_clean; [exact HC'| | | |exact Hm']; auto).
    assert (Pl : Plain cn u) by (eapply message_plain; [exact HC| | | |exact Hm]; eauto).
    assert (Pl' : Plain cn' u') by (eapply message_plain; [exact HC'| | | |exact Hm']; eauto).
    split; [apply meta_determines; auto|]. intros Hi. 
    pose proof (message_tx_env _ _ _ _ _ _ Hm) as (_ & _ & _ & _ & M5 & M6 & _). pose proof (message_tx_env _ _ _ _ _ _ Hm') as (_ & _ & _ & _ & M5' & M6' & _).
    pose proof (f_equal mi_data Hi) as Hd. cbn [mi_data meta_info] in Hd. rewrite M5, M5' in Hd.
    apply meta_determined; auto.
    - rewrite M6, M6', Hd. apply Hsha.
    - rewrite B1, B2, Hd. unfold getHashes. cbn [snd]. rewrite Hmail. destruct (v_mail E' data'); auto.
  Qed.

  (** With 'full' names the file is named after the hash of a text that is the
      same for two messages if and only if everything known about them is,
      except the connection's number, the client's port and the time. *)
  Theorem C46_full : k_hashtype K = B "full" -> k_hashtype K' = B "full" ->
    exists dir dir' x x' M M', path = dir ++ B "/" ++ v_sha1 E x /\ path' = dir' ++ B "/" ++ v_sha1 E' x' /\
      Describes E cn h t M /\ Describes E' cn' h' t' M' /\ (x = x' <-> M = M').
  Proof.
    intros Hk Hk'. destruct two_messages as (when & u & name & when' & u' & name' & D & D' & -> & -> & Hn & Hn' & _ & _ & _ & _ & _ & _ & H).
    exists (x_savedir u), (x_savedir u'), (metaText cn u), (metaText cn' u'), (meta_info cn u), (meta_info cn' u').
    unfold saveName in Hn, Hn'. rewrite Hk in Hn. rewrite Hk' in Hn'. cbn in Hn, Hn'. injection Hn as <-. injection Hn' as <-. auto.
  Qed.

  (** With 'all' names also the connection's number, port and the time count. *)
  Theorem C46_all : k_hashtype K = B "all" -> k_hashtype K' = B "all" ->
    exists dir dir' x x' M M' when when', path = dir ++ B "/" ++ v_sha1 E x /\ path' = dir' ++ B "/" ++ v_sha1 E' x' /\
      Describes E cn h t M /\ Describes E' cn' h' t' M' /\ (exists i, when = v_now E i) /\ (exists i, when' = v_now E' i) /\
      (x = x' <-> (M, n_pid cn, n_cid cn, n_raddr cn, when) = (M', n_pid cn', n_cid cn', n_raddr cn', when')).
  Proof.
    intros Hk Hk'. destruct two_messages as (when & u & name & when' & u' & name' & D & D' & -> & -> & Hn & Hn' & W & W' & O & O' & V & V' & H).
    exists (x_savedir u), (x_savedir u'), (idLine cn u ++ metaText cn u), (idLine cn' u' ++ metaText cn' u'), (meta_info cn u), (meta_info cn' u'), when, when'.
    unfold saveName in Hn, Hn'. rewrite Hk in Hn. rewrite Hk' in Hn'. cbn in Hn, Hn'. injection Hn as <-. injection Hn' as <-.
    do 6 (split; [auto|]). destruct HS as [S1 _ _], HS' as [S1' _ _]. split; [|intros E0].
    - intros Ex. unfold idLine in Ex. rewrite W, W' in Ex. rewrite <- !app_assoc in Ex. apply app_inv_head in Ex.
      assert (Hp : forall c, ~ In " "%char (n_prefix c)).
      { intros c Hi. unfold n_prefix in Hi. rewrite !in_app_iff in Hi.
        destruct Hi as [Hi|[[Hi|[]]|Hi]]; [|discriminate Hi|]; pose proof (itoa_digits (n_pid c)) as Hd; pose proof (itoa_digits (n_cid c)) as Hd';
          rewrite Forall_forall in Hd, Hd'; (discriminate (Hd _ Hi) || discriminate (Hd' _ Hi)). }
      apply (cut " "%char) in Ex as (X1 & Ex); auto. apply (cut " "%char) in Ex as (X2 & Ex); auto. apply (cut ch_nl) in Ex as (X3 & Ex); auto.
      unfold n_prefix in X1. apply (cut "/"%char) in X1 as (X4 & X5);
        [|intros Hi; pose proof (itoa_digits (n_pid cn)) as Hd; rewrite Forall_forall in Hd; discriminate (Hd _ Hi)
         |intros Hi; pose proof (itoa_digits (n_pid cn')) as Hd; rewrite Forall_forall in Hd; discriminate (Hd _ Hi)].
      apply itoa_inj in X4, X5. apply H in Ex. rewrite X2, X3, X4, X5, Ex. reflexivity.
    - pose proof (f_equal (fun p => fst (fst (fst (fst p)))) E0) as Y1. pose proof (f_equal (fun p => snd (fst (fst (fst p)))) E0) as Y2.
      pose proof (f_equal (fun p => snd (fst (fst p))) E0) as Y3. pose proof (f_equal (fun p => snd (fst p)) E0) as Y4. pose proof (f_equal snd E0) as Y5.
      cbn [fst snd] in Y1, Y2, Y3, Y4, Y5. apply H in Y1. unfold idLine, n_prefix. rewrite Y1, Y2, Y3, Y4, W, W', Y5. reflexivity.
  Qed.
End Two.

(** ** Examples *)

Local Definition len_env : senv :=
  mkEnv demo_world 10 nofs 0 (fun _ _ => inr []) (fun _ => (false, 0%Z)) (fun _ => 1%Z) (fun _ => B "2026") (fun _ => B "now")
    (fun _ _ => None) (fun _ _ => OpOk) (fun _ _ => WrOk) (fun _ => None) (fun d => itoa (length d)) (fun d => MBody d) (fun _ _ _ => None).
Local Definition full_cfg : config := mkConfig (B "/save") (B "full") (B "helo") 0 100 (B "me") [] false [] demo_rules true false true [B "c"].
Local Definition cert_tls : tlsstate := mkTls true 47 769 (B "me") [] [mkCert (B "client.example") []].
(** the same client, from another port and with another number *)
Local Definition other_conn : conn := mkConn 7 23 (B "192.0.2.7:1234") (B "192.0.2.1:25").

Lemma len_quiet cn : oneline (n_raddr cn) -> oneline (n_laddr cn) -> Quiet len_env cn.
Proof.
  intros H1 H2. constructor; auto.
  - intros i. apply oneline_B. reflexivity.
  - intros d. apply oneline_itoa.
  - intros i a names H. injection H as <-. constructor.
Qed.
Local Definition events : list (sevent * tlsstate) := map (fun e => (e, cert_tls)) demo_mail.
Local Definition saves (l : list effect) : list (bytes * option (list bytes * bytes)) :=
  flat_map (fun e => match e with FWrite p m _ => [(p, read_record m)] | _ => [] end) l.
Local Definition heard_ok (l : list (sevent * tlsstate)) : bool :=
  forallb (fun e => forallb (fun x => forallb (fun c => negb (mem_byte c x)) [ch_nl; "'"%char])
    (ts_server (snd e) :: match peer_cert (snd e) with Some c => tlsName c | None => [] end :: match fst e with EvHelo _ a | EvMailFrom a | EvRcptTo a => [a] | _ => [] end)
    && N.ltb (ts_cipher (snd e)) 65536 && N.ltb (ts_version (snd e)) 65536) l.
Lemma heard_ok_spec l : heard_ok l = true -> Forall quiet_event l /\ Forall quoteless l.
Proof.
  unfold heard_ok. rewrite forallb_forall. intros H. 
  assert (Hm : forall c x, negb (mem_byte c x) = true -> ~ In c x).
  { intros c x Hn Hi. assert (Hb : mem_byte c x = true) by (apply existsb_exists; exists c; rewrite Ascii.eqb_refl; auto). rewrite Hb in Hn. discriminate. }
  assert (Hx : forall x, negb (mem_byte ch_nl x) = true /\ negb (mem_byte "'" x) = true /\ true = true -> oneline x /\ noquote x).
  { intros x (B1 & B2 & _). split; apply Hm; assumption. }
  split; apply Forall_forall; intros e He; apply H in He; rewrite !andb_true_iff in He; destruct He as ((He & E2) & E3);
    cbn [forallb] in He; rewrite !andb_true_iff in He; destruct He as (S1 & S2 & S3); apply Hx in S1, S2.
  - split; [|split; [apply S1|destruct (peer_cert (snd e)); [apply S2|exact Logic.I]]].
    destruct (fst e); auto; cbn [forallb] in S3; rewrite !andb_true_iff in S3; destruct S3 as (S3 & _); apply Hx in S3; apply S3.
  - split; [apply S1|]. split; [destruct (peer_cert (snd e)); [apply S2|exact Logic.I]|]. split; apply N.ltb_lt; assumption.
Qed.

Example C45_example : Quiet len_env demo_conn /\ exists I h t n s s', Turn full_cfg len_env demo_conn I h t n s s' /\
  Forall quiet_event (heard (t :: h)) /\
  (t_event t, map snd (saves (t_did t))) =
  (EvGotData (B "Hello"), [Some ([B "id 7/1 192.0.2.7:5678 2026"; B "remote 192.0.2.7 to 192.0.2.1:25 with helo 'h'";
     B "tls on cipher 0x002f name SSLv3:AES128-SHA:128 proto TLSv1.0 server-name 'me' client-name 'client.example' client-name-verified"; B "from <a@x.y>"; B "to <jim@x.y>"; B "to <joe@x.y>";
     B "hash 5 bytes 5"; B "bodyhash 5"], B "Hello")]).
Proof.
  split; [apply len_quiet; apply oneline_B; reflexivity|].
  destruct (turn_example full_cfg len_env demo_conn events (EvGotData (B "Hello")) cert_tls
    (fun I h t n s s' => (heard_ok (heard (t :: h)), t_event t, map snd (saves (t_did t)))) (true, EvGotData (B "Hello"), [Some ([B "id 7/1 192.0.2.7:5678 2026"; B "remote 192.0.2.7 to 192.0.2.1:25 with helo 'h'";
     B "tls on cipher 0x002f name SSLv3:AES128-SHA:128 proto TLSv1.0 server-name 'me' client-name 'client.example' client-name-verified"; B "from <a@x.y>"; B "to <jim@x.y>"; B "to <joe@x.y>";
     B "hash 5 bytes 5"; B "bodyhash 5"], B "Hello")])) as (inf & h & t & n & s & s' & HT & Hv).
  { vm_compute. reflexivity. }
  exists inf, h, t, n, s, s'. split; [exact HT|]. pose proof (f_equal (fun p => fst (fst p)) Hv) as V1. pose proof (f_equal (fun p => snd (fst p)) Hv) as V2. pose proof (f_equal snd Hv) as V3.
  cbn [fst snd] in V1, V2, V3. split; [apply heard_ok_spec; exact V1|]. rewrite V2, V3. reflexivity.
Qed.

(** The same message sent again over another connection has the same name. *)
Example C46_example : exists I h t n s s' I' h' t' n' z z' path r r',
  Turn full_cfg len_env demo_conn I h t n s s' /\ Turn full_cfg len_env other_conn I' h' t' n' z z' /\
  In (FOpen path r) (t_did t) /\ In (FOpen path r') (t_did t') /\
  Quiet len_env demo_conn /\ Quiet len_env other_conn /\ Spaceless len_env demo_conn /\ Spaceless len_env other_conn /\
  Forall quiet_event (heard (t :: h)) /\ Forall quiet_event (heard (t' :: h')) /\
  Forall quoteless (heard (t :: h)) /\ Forall quoteless (heard (t' :: h')) /\ path = B "/save/250".
Proof.
  assert (Hx : forall cn, In cn [demo_conn; other_conn] -> exists I h t n s s', Turn full_cfg len_env cn I h t n s s' /\
    (heard_ok (heard (t :: h)), opens (t_did t)) = (true, [(B "/save/250", OpOk)])).
  { intros cn [<-|[<-|[]]].
    - apply (turn_example full_cfg len_env demo_conn events (EvGotData (B "Hello")) cert_tls (fun I h t n s s' => (heard_ok (heard (t :: h)), opens (t_did t)))).
      vm_compute. reflexivity.
    - apply (turn_example full_cfg len_env other_conn events (EvGotData (B "Hello")) cert_tls (fun I h t n s s' => (heard_ok (heard (t :: h)), opens (t_did t)))).
      vm_compute. reflexivity. }
  destruct (Hx demo_conn (or_introl eq_refl)) as (inf & h & t & n & s & s' & HT & Hv).
  destruct (Hx other_conn (or_intror (or_introl eq_refl))) as (inf' & h' & t' & n' & z & z' & HT' & Hv').
  exists inf, h, t, n, s, s', inf', h', t', n', z, z', (B "/save/250"), OpOk, OpOk.
  pose proof (f_equal fst Hv) as V1. pose proof (f_equal snd Hv) as V2. pose proof (f_equal fst Hv') as V1'. pose proof (f_equal snd Hv') as V2'.
  cbn [fst snd] in V1, V2, V1', V2'. clear Hv Hv' Hx.
  assert (Ho : forall l p r, opens l = [(p, r)] -> In (FOpen p r) l).
  { intros l p r H. induction l as [|e l IH]; [discriminate H|]. destruct e; try (right; apply IH; exact H). left. cbn in H. congruence. }
  split; [exact HT|]. split; [exact HT'|]. split; [apply Ho; exact V2|]. split; [apply Ho; exact V2'|].
  split; [apply len_quiet; apply oneline_B; reflexivity|]. split; [apply len_quiet; apply oneline_B; reflexivity|].
  assert (Hs : forall cn, nospace (n_raddr cn) -> nospace (n_laddr cn) -> Spaceless len_env cn).
  { intros cn H1 H2. constructor; auto. intros i a names H. injection H as <-. constructor. }
  assert (Hb : forall x, mem_byte " "%char x = false -> nospace x).
  { intros x Hx Hin. assert (Hm : mem_byte " "%char x = true) by (apply existsb_exists; exists " "%char; auto). congruence. }
  split; [apply Hs; apply Hb; reflexivity|]. split; [apply Hs; apply Hb; reflexivity|].
  apply heard_ok_spec in V1 as (Q1 & Q2), V1' as (Q1' & Q2'). auto 8.
Qed.

Example C64_example : Quiet len_env demo_conn /\ exists I h t n s s', Turn full_cfg len_env demo_conn I h t n s s' /\ k_msglog full_cfg = true /\
  Forall quiet_event (heard (t :: h)) /\ msglogs (t_did t) =
  [B "2026 [7/1] from 192.0.2.7:5678 / <a@x.y> to <jim@x.y> <joe@x.y>: message 5 bytes hash 5 body 5 | local 192.0.2.1:25 helo 'h' tls:cipher 0x002f tls:proto 0x0301" ++ [ch_nl]].
Proof.
  split; [apply len_quiet; apply oneline_B; reflexivity|].
  destruct (turn_example full_cfg len_env demo_conn events (EvGotData (B "Hello")) cert_tls
    (fun I h t n s s' => (heard_ok (heard (t :: h)), msglogs (t_did t))) (true, [B "2026 [7/1] from 192.0.2.7:5678 / <a@x.y> to <jim@x.y> <joe@x.y>: message 5 bytes hash 5 body 5 | local 192.0.2.1:25 helo 'h' tls:cipher 0x002f tls:proto 0x0301" ++ [ch_nl]]))
    as (inf & h & t & n & s & s' & HT & Hv).
  { vm_compute. reflexivity. }
  exists inf, h, t, n, s, s'. pose proof (f_equal fst Hv) as V1. pose proof (f_equal snd Hv) as V2. cbn [fst snd] in V1, V2.
  split; [exact HT|]. split; [reflexivity|]. split; [apply heard_ok_spec; exact V1|exact V2].
Qed.

(** A client certificate whose name contains newlines makes the record lie: the
    message read back is not the one received (why C45 asks for clean names). *)
Theorem C45_newline_refuted : exists K E cn I h t n s s' path m w data ls d, Quiet E cn /\ Turn K E cn I h t n s s' /\
  In (FWrite path m w) (t_did t) /\ t_event t = EvGotData data /\ read_record m = Some (ls, d) /\ d <> data.
Proof.
  set (bad := mkTls true 47 769 [] [] [mkCert (B "x'" ++ [ch_nl] ++ B "from <pope@example.org>" ++ [ch_nl] ++ B "body" ++ [ch_nl] ++ B "forged") []]).
  exists full_cfg, len_env, demo_conn.
  destruct (turn_example full_cfg len_env demo_conn (plain demo_mail) (EvGotData (B "Hello")) bad
    (fun I h t n s s' => (t_event t, map (fun p => match snd p with Some (ls, d) => (ls, firstn 6 d) | None => ([], []) end) (saves (t_did t)))) (EvGotData (B "Hello"),
      [([B "id 7/1 192.0.2.7:5678 2026"; B "remote 192.0.2.7 to 192.0.2.1:25 with helo 'h'";
        B "tls on cipher 0x002f name SSLv3:AES128-SHA:128 proto TLSv1.0 client-name 'x'"; B "from <pope@example.org>"], B "forged")]))
    as (inf & h & t & n & s & s' & HT & Hv).
  { vm_compute. reflexivity. }
  pose proof (f_equal fst Hv) as V1. pose proof (f_equal snd Hv) as V2. cbn [fst snd] in V1, V2. clear Hv.
  assert (Hw : forall l p o, saves l = [(p, o)] -> exists m w, In (FWrite p m w) l /\ read_record m = o).
  { intros l p o. induction l as [|e l IH]; [discriminate|]. intros H. destruct e; try (destruct (IH H) as (m & w & H1 & H2); exists m, w; split; [right; exact H1|exact H2]).
    cbn in H. injection H as <- <- _. exists data, r. split; [left|]; reflexivity. }
  destruct (saves (t_did t)) as [|[p o] l] eqn:Es; [discriminate V2|]. destruct l; [|discriminate V2]. apply Hw in Es as (m & w & Hi & Hr).
  cbn [map snd] in V2. destruct o as [[ls d]|]; [|discriminate V2]. injection V2 as Hls Hd.
  exists inf, h, t, n, s, s', p, m, w, (B "Hello"), ls, d. split; [apply len_quiet; apply oneline_B; reflexivity|].
  do 4 (split; [assumption|]). intros ->. discriminate Hd.
Qed.
