(** C69: what the replies say. *)
From Verif Require Import PropsParse.
From Verif Require Import Bytes Outcome Lexer Ast GoNet Parser World Dns Eval Decisions RuleLoad ConnCfg CipherNames Message Session SessProofs Conv PropsEval DemoSession PropsSession.
From Coq Require Import Lia.

(** ** Specification *)

(** the value of an option of a decision, empty if it is not set *)
Definition option_of (d : decision) (k : bytes) : bytes := match mget (d_withs d) k with Some v => v | None => [] end.

Definition emailing (rcpts : list bytes) : bytes :=
  B "We do not consent to you emailing " ++ match rcpts with _ :: _ :: _ => B "those addresses" | _ => B "that address" end.

(** The reply to an event other than a received message, for the result of the
    rules, the text of the option message and the recipients accepted before.
    RpAccept, RpReject and RpTempfail are the standard texts of the library. *)
Inductive Worded (ev : sevent) (rcpts : list bytes) : action -> bytes -> reply -> Prop :=
| Wd_accept res : res = aAccept \/ res = aNoresult -> Worded ev rcpts res [] RpAccept
| Wd_accept_msg res m : res = aAccept \/ res = aNoresult -> m <> [] -> Worded ev rcpts res m (RpAcceptMsg m)
| Wd_stall : Worded ev rcpts aStall [] RpTempfail
| Wd_stall_msg m : m <> [] -> Worded ev rcpts aStall m (RpTempfailMsg m)
| Wd_reject_msg m : m <> [] -> Worded ev rcpts aReject m (RpRejectMsg m)
| Wd_reject_helo cmd arg : ev = EvHelo cmd arg -> Worded ev rcpts aReject [] RpReject
| Wd_reject_mail arg : ev = EvMailFrom arg -> Worded ev rcpts aReject [] RpReject
| Wd_reject_rcpt arg : ev = EvRcptTo arg -> Worded ev rcpts aReject [] (RpRejectMsg (B "We do not consent to you emailing that address"))
| Wd_reject_data arg : ev = EvData arg -> Worded ev rcpts aReject [] (RpRejectMsg (emailing rcpts)).

(** The reply to a received message with the id [id]: its last line has the id,
    unless the message is to be sent again. *)
Inductive WordedMsg (rcpts : list bytes) (id : bytes) : action -> bytes -> reply -> Prop :=
| Wm_accept res : res = aAccept \/ res = aNoresult -> WordedMsg rcpts id res [] (RpAcceptData id)
| Wm_accept_msg res m : res = aAccept \/ res = aNoresult -> m <> [] ->
    WordedMsg rcpts id res m (RpAcceptMsg (m ++ [ch_nl] ++ B "Accepted with ID " ++ id))
| Wm_stall : WordedMsg rcpts id aStall [] RpTempfail
| Wm_stall_msg m : m <> [] -> WordedMsg rcpts id aStall m (RpTempfailMsg m)
| Wm_reject : WordedMsg rcpts id aReject [] (RpRejectMsg (emailing rcpts ++ [ch_nl] ++ B "Rejected with ID " ++ id))
| Wm_reject_msg m : m <> [] -> WordedMsg rcpts id aReject m (RpRejectMsg (m ++ [ch_nl] ++ B "Rejected with ID " ++ id)).

(** The id of a message: the name of its file in its directory, or the hash of
    the message if it is not saved. *)
Definition message_id (sha1 : bytes -> bytes) (data : bytes) (did : list effect) (id : bytes) : Prop :=
  id <> [] /\
  ((exists dir r, dir <> [] /\ In (FOpen (dir ++ B "/" ++ id) r) did) \/
   ((forall path r, ~ In (FOpen path r) did) /\ id = sha1 data)).

Section S.
  Context (K : config) (E : senv) (cn : conn).

  Lemma emailing_eq rcpts : emailing rcpts =
    B "We do not consent to you emailing " ++ (if Nat.ltb 1 (length rcpts) then B "those addresses" else B "that address").
  Proof. destruct rcpts as [|a [|b l]]; reflexivity. Qed.

  Lemma worded_refusal ev ph e rcpts res m : command ev = Some (ph, e) -> res = aStall \/ res = aReject ->
    Worded ev rcpts res m (refusal_reply res ph [] m rcpts).
  Proof.
    intros Hc [-> | ->]; unfold refusal_reply.
    - destruct (beqb_spec m []) as [-> |Hm]; constructor; auto.
    - destruct (beqb_spec m []) as [-> |Hm]; cbn [negb beqb].
      + destruct ev; cbn in Hc; try discriminate; injection Hc as <- <-; try (econstructor; reflexivity).
        rewrite <- emailing_eq. econstructor; reflexivity.
      + rewrite app_nil_r. constructor; auto.
  Qed.
  Lemma worded_accept ev rcpts res m : is_good res = true -> Worded ev rcpts res m (accept_reply [] m).
  Proof.
    intros Hg. assert (res = aAccept \/ res = aNoresult) by (destruct res; try discriminate; auto).
    unfold accept_reply. destruct (beqb_spec m []) as [-> |Hm]; cbn [negb beqb].
    - constructor; auto.
    - rewrite app_nil_r. constructor; auto.
  Qed.
  Lemma worded_refusal_msg rcpts id res m : id <> [] -> res = aStall \/ res = aReject ->
    WordedMsg rcpts id res m (refusal_reply res pMessage id m rcpts).
  Proof.
    intros Hi [-> | ->]; unfold refusal_reply.
    - destruct (beqb_spec m []) as [-> |Hm]; constructor; auto.
    - destruct (beqb_spec id []) as [|_]; [contradiction|].
      destruct (beqb_spec m []) as [-> |Hm]; cbn [negb].
      + rewrite app_assoc, <- emailing_eq. constructor.
      + constructor; auto.
  Qed.
  Lemma worded_accept_msg rcpts id res m : id <> [] -> is_good res = true -> WordedMsg rcpts id res m (accept_reply id m).
  Proof.
    intros Hi Hg. assert (res = aAccept \/ res = aNoresult) by (destruct res; try discriminate; auto).
    unfold accept_reply. destruct (beqb_spec id []) as [|_]; [contradiction|].
    destruct (beqb_spec m []) as [-> |Hm]; cbn [negb]; constructor; auto.
  Qed.

  (** Every reply the program chooses: a client that is dropped and a message
      that could not be saved have fixed texts, otherwise the text is the one for
      the decision on the event. *)
  Theorem C69_reply_text I h t n s s' r : (forall x, v_sha1 E x <> []) ->
    Turn K E cn I h t n s s' -> replies (t_did t) = [r] ->
    (n = Drop /\ r = RpTempfailMsg (B "Too many unsuccessful delivery attempts")) \/
    (n = Go /\ decisions (t_did t) = [] /\ save_failed (t_did t) /\ r = RpTempfail) \/
    (n = Go /\ exists d, decisions (t_did t) = [d] /\
       match t_event t with
       | EvGotData data => exists id, message_id (v_sha1 E) data (t_did t) id /\
           WordedMsg (recipients h) id (d_result d) (option_of d (B "message")) r
       | ev => Worded ev (recipients h) (d_result d) (option_of d (B "message")) r
       end).
  Proof.
    intros Hsha HT. pose proof (Turn_Did _ _ _ _ _ _ _ _ _ HT) as HD. destruct HT as (HC & _).
    apply Conv_envelope in HC as (_ & Er & _).
    rewrite <- replies_vis, <- decisions_vis.
    assert (Hop : forall p x, In (FOpen p x) (vis (t_did t)) <-> In (FOpen p x) (t_did t)) by (intros; apply In_vis; reflexivity).
    assert (Hsf : save_failed (vis (t_did t)) -> save_failed (t_did t)).
    { intros (path & e & [Hin|Hin]); exists path, e; [left|right]; (rewrite In_vis in Hin by reflexivity; exact Hin). }
    assert (Hid : forall data id, message_id (v_sha1 E) data (vis (t_did t)) id -> message_id (v_sha1 E) data (t_did t) id).
    { intros data id (H0 & [(dir & x & Hd & H1)|(H1 & H2)]); split; auto.
      - left. exists dir, x. split; auto. now apply Hop.
      - right. split; auto. intros p x Hin. apply Hop in Hin. now apply H1 in Hin. }
    destruct t as [ev tls did]. cbn [t_event t_tls t_did] in *. remember (vis did) as l0 eqn:El. clear El Hop.
    destruct HD as [ev tls ph e res c t d s' Hc Hr HJ Hst|cmd arg tls res c t d s' Hr HJ Hst|arg tls res c t d n s' Hr HJ Hy Hn Hst
      |arg tls res c t d l s' Hr HJ Hl Hst|arg tls res c t d s' Hr HJ Hst|arg tls res c t d s' Hr HJ Hst
      |data tls when t name e save s' Hm Hd Hn Hk Hst|data tls when t name save res c t1 d got b r0 s' Hm Hk HJ Hb Hst|tls n s' Hst|ev tls s' He Hst|tls];
      cbn [replies flat_map app]; try discriminate; try (destruct HJ as [_ _ _ ->]); try rewrite Er in *.
    - intros [= <-]. right. right. split; auto. eexists. split; [reflexivity|].
      replace (option_of _ (B "message")) with (prop_of c (B "message")) by reflexivity. cbn [d_result the_decision].
      pose proof (worded_refusal ev ph e (recipients h) res (prop_of c (B "message")) Hc Hr) as Hw.
      destruct ev; cbn in Hc; try discriminate; exact Hw.
    - intros [= <-]. left. auto.
    - assert (El : replies l = [] /\ decisions l = []) by (destruct (retry s); [destruct Hl as (n & -> & _)|subst l]; auto).
      fold (replies (l ++ [FReply (accept_reply [] (prop_of c (B "message")))])). rewrite replies_app, (proj1 El).
      intros [= <-]. right. right. split; auto. eexists. cbn [decisions flat_map].
      fold (decisions (l ++ [FReply (accept_reply [] (prop_of c (B "message")))])). rewrite decisions_app, (proj2 El).
      split; [reflexivity|]. apply worded_accept. exact Hr.
    - intros [= <-]. right. right. split; auto. eexists. split; [reflexivity|]. apply worded_accept. exact Hr.
    - intros [= <-]. right. right. split; auto. eexists. split; [reflexivity|]. apply worded_accept. exact Hr.
    - rewrite !replies_app, !decisions_app, (proj1 (msglog_silent _ _)), (proj2 (msglog_silent _ _)).
      rewrite (proj1 (Kept_silent _ _ _ _ Hk)), (proj2 (Kept_silent _ _ _ _ Hk)).
      intros [= <-]. right. left. split; auto. split; auto. split; auto.
      apply Hsf. exists (x_savedir t ++ B "/" ++ name), e. inversion Hk as [|e' Ee|r' w Er']; subst.
      + left. apply in_or_app. right. left. reflexivity.
      + right. apply in_or_app. right. do 3 right. left. reflexivity.
    - rewrite !replies_app, !decisions_app, (proj1 (msglog_silent _ _)), (proj2 (msglog_silent _ _)).
      assert (Es : replies save = [] /\ decisions save = []).
      { destruct Hk as [(_ & _ & ->)|(_ & _ & Hk)]; [auto|]. eapply Kept_silent; eauto. }
      rewrite (proj1 Es), (proj2 Es). intros [= <-]. right. right. split; auto. eexists. split; [reflexivity|].
      pose proof (message_tx_env _ _ _ _ _ _ Hm) as (_ & M2 & _ & _ & _ & M6 & _).
      assert (Hne : name <> []).
      { destruct Hk as [(_ & -> & _)|(_ & Hs & _)]; [rewrite M6; apply Hsha|].
        unfold saveName, msgDetails in Hs. destruct (beqb _ _); [injection Hs as <-; rewrite M6; apply Hsha|].
        destruct (beqb _ _); [injection Hs as <-; apply Hsha|]. destruct (beqb _ _); [injection Hs as <-; apply Hsha|discriminate]. }
      exists name. split.
      + apply Hid. split; auto. destruct Hk as [(_ & Hn & ->)|(Hd & _ & Hk)].
        * right. rewrite <- M6. split; auto. intros p x Hin. destruct (k_msglog K); cbn in Hin; intuition discriminate.
        * left. exists (x_savedir t). destruct Hk as [|e'|r' w]; eexists; (split; [exact Hd|]); apply in_or_app; right; left; reflexivity.
      + rewrite M2, Er in Hb. replace (option_of _ (B "message")) with (prop_of c (B "message")) by reflexivity. cbn [d_result the_decision].
        destruct Hb as [(_ & Hg & -> & _)|(_ & Hg & -> & _)]; [apply worded_accept_msg|apply worded_refusal_msg]; auto.
  Qed.
End S.

(** ** Examples *)

Definition reply_rules : list rule := text_rules (B "reject from evil@x.y with message ""go away""
accept from nice@x.y with message ""welcome""
stall to bob@
@data reject to spam@
@message reject to jim@
").
(** The session's turns: the replies and results *)
Definition reply_mail : list sevent :=
  [EvHelo EHLO (B "h"); EvMailFrom (B "evil@x.y"); EvMailFrom (B "a@x.y"); EvRcptTo (B "bob@x.y"); EvRcptTo (B "spam@x.y"); EvRcptTo (B "jim@x.y"); EvData []].

Example C69_hash_not_empty x : v_sha1 demo_env x <> [].
Proof. discriminate. Qed.

(** a rule's own text *)
Example C69_message_option : exists I h t n s s', Turn (demo_cfg reply_rules) demo_env demo_conn I h t n s s' /\
  (t_event t, n, replies (t_did t)) = (EvMailFrom (B "evil@x.y"), Go, [RpRejectMsg (B "go away")]).
Proof.
  apply (turn_example _ _ _ (plain (firstn 1 reply_mail)) (EvMailFrom (B "evil@x.y")) no_tls
    (fun I h t n s s' => (t_event t, n, replies (t_did t)))).
  vm_compute. reflexivity.
Qed.
(** two recipients and no text *)
Example C69_plural : exists I h t n s s', Turn (demo_cfg reply_rules) demo_env demo_conn I h t n s s' /\
  (t_event t, n, replies (t_did t)) = (EvData [], Go, [RpRejectMsg (B "We do not consent to you emailing those addresses")]).
Proof.
  apply (turn_example _ _ _ (plain (firstn 6 reply_mail)) (EvData []) no_tls
    (fun I h t n s s' => (t_event t, n, replies (t_did t)))).
  vm_compute. reflexivity.
Qed.
(** A message with the sender's text: the id is the name of its file. *)
Definition msg_cfg : config :=
  mkConfig (B "/save") (B "msg") (B "helo") 0 100 (B "me") [] false [] reply_rules true false true [B "c"].
Example C69_accepted : exists I h t n s s', Turn msg_cfg demo_env demo_conn I h t n s s' /\
  (t_event t, n, replies (t_did t), flat_map (fun e => match e with FOpen p _ => [p] | _ => [] end) (t_did t)) =
  (EvGotData (B "Hello"), Go, [RpAcceptMsg (B "welcome" ++ [ch_nl] ++ B "Accepted with ID HHello")], [B "/save/HHello"]).
Proof.
  apply (turn_example _ _ _ (plain [EvHelo EHLO (B "h"); EvMailFrom (B "nice@x.y"); EvRcptTo (B "spam@x.y"); EvData []]) (EvGotData (B "Hello")) no_tls
    (fun I h t n s s' => (t_event t, n, replies (t_did t), flat_map (fun e => match e with FOpen p _ => [p] | _ => [] end) (t_did t)))).
  vm_compute. reflexivity.
Qed.
Example C69_rejected : exists I h t n s s', Turn msg_cfg demo_env demo_conn I h t n s s' /\
  (t_event t, n, replies (t_did t)) =
  (EvGotData (B "Hello"), Go, [RpRejectMsg (B "We do not consent to you emailing that address" ++ [ch_nl] ++ B "Rejected with ID HHello")]).
Proof.
  apply (turn_example _ _ _ (plain [EvHelo EHLO (B "h"); EvMailFrom (B "a@x.y"); EvRcptTo (B "jim@x.y"); EvData []]) (EvGotData (B "Hello")) no_tls
    (fun I h t n s s' => (t_event t, n, replies (t_did t)))).
  vm_compute. reflexivity.
Qed.
