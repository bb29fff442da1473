(** Running a session of the model, for the examples beside the theorems on
    sessions: a function that computes the turns, and a demonstration setting. *)
From Verif Require Import PropsParse.
From Verif Require Import Bytes Outcome Lexer Ast GoNet Parser World Dns Eval Decisions RuleLoad ConnCfg CipherNames Message Session SessProofs Conv PropsEval.
From Coq Require Import Lia.

Section Run.
  Context (K : config) (E : senv) (cn : conn).

  (** the effects added, earliest first *)
  Definition added (s s' : sess) : list effect := rev (firstn (length (s_out s') - length (s_out s)) (s_out s')).

  Lemma added_after s s' : grows (s_out s) (s_out s') -> after (added s s') s s'.
  Proof.
    intros (l & H). unfold after, added. rewrite H, app_length.
    replace (length l + length (s_out s) - length (s_out s)) with (length l) by lia.
    rewrite firstn_app, firstn_all, Nat.sub_diag. cbn. rewrite app_nil_r, rev_involutive. reflexivity.
  Qed.

  Fixpoint run_turns (I : sinfo) (evs : list (sevent * tlsstate)) (h : list turn) (s : sess) : option (list turn * sess) :=
    match evs with
    | [] => Some (h, s)
    | (ev, tls) :: evs' =>
        match step K E cn I (ev, tls) s with
        | Ok (Go, s') => run_turns I evs' (mkTurn ev tls (added s s') :: h) s'
        | _ => None
        end
    end.
  (** The session with the events [evs], each going on, and then [ev]. *)
  Definition run_events (evs : list (sevent * tlsstate)) : option (sinfo * list turn * sess) :=
    match setup K E cn (sess0 K) with
    | Ok (Some inf, s) => match run_turns inf evs [] s with Some (h, s') => Some (inf, h, s') | None => None end
    | _ => None
    end.
  Definition run_turn (evs : list (sevent * tlsstate)) (ev : sevent) (tls : tlsstate) : option (sinfo * list turn * turn * next * sess * sess) :=
    match run_events evs with
    | Some (inf, h, s) =>
        match step K E cn inf (ev, tls) s with
        | Ok (n, s') => Some (inf, h, mkTurn ev tls (added s s'), n, s, s')
        | _ => None
        end
    | None => None
    end.

  Lemma run_turns_ok I evs : forall h s h' s', Conv K E cn I h s -> run_turns I evs h s = Some (h', s') -> Conv K E cn I h' s'.
  Proof.
    induction evs as [|[ev tls] evs IH]; intros h s h' s' HC H; cbn [run_turns] in H; [congruence|].
    destruct (step K E cn I (ev, tls) s) as [[[] s1]| |] eqn:Es; try discriminate.
    eapply IH; [|exact H]. econstructor; eauto. apply added_after. 
    destruct (step_after _ _ _ _ _ _ _ _ _ Es) as (did & Hd). exists (rev did). exact Hd.
  Qed.
  Lemma run_events_conv evs I h s : run_events evs = Some (I, h, s) -> Conv K E cn I h s.
  Proof.
    unfold run_events. intros H. destruct (setup K E cn (sess0 K)) as [[[inf|] s0]| |] eqn:Es; try discriminate.
    destruct (run_turns inf evs [] s0) as [[h' s']|] eqn:Er; [|discriminate]. injection H as <- <- <-.
    eapply run_turns_ok; eauto. constructor; auto.
  Qed.
  Lemma run_turn_ok evs ev tls I h t n s s' : run_turn evs ev tls = Some (I, h, t, n, s, s') -> Turn K E cn I h t n s s'.
  Proof.
    unfold run_turn. intros H. destruct (run_events evs) as [[[inf h0] s0]|] eqn:Er; [|discriminate].
    apply run_events_conv in Er. destruct (step K E cn inf (ev, tls) s0) as [[n0 s1]| |] eqn:Es; try discriminate.
    injection H as <- <- <- <- <- <-. split; auto. split; auto. apply added_after.
    destruct (step_after _ _ _ _ _ _ _ _ _ Es) as (did & Hd). exists (rev did). exact Hd.
  Qed.

  (** A session that can be computed exists. *)
  Lemma turn_example evs ev tls {A} (f : sinfo -> list turn -> turn -> next -> sess -> sess -> A) (v : A) :
    match run_turn evs ev tls with Some (inf, h, t, n, s, s') => Some (f inf h t n s s') | None => None end = Some v ->
    exists inf h t n s s', Turn K E cn inf h t n s s' /\ f inf h t n s s' = v.
  Proof.
    intros H. destruct (run_turn evs ev tls) as [[[[[[inf h] t] n] s] s']|] eqn:Er; [|discriminate].
    injection H as <-. exists inf, h, t, n, s, s'. split; auto. eapply run_turn_ok; eauto.
  Qed.
End Run.

(** ** A server and its surroundings *)

(** Nothing fails; no client is on a blacklist. *)
Definition demo_env : senv :=
  mkEnv demo_world 10 nofs 0 (fun _ _ => inr []) (fun _ => (false, 0%Z)) (fun _ => 1%Z) (fun _ => B "2026") (fun _ => B "now")
    (fun _ _ => None) (fun _ _ => OpOk) (fun _ _ => WrOk) (fun _ => None) (fun d => B "H" ++ d) (fun d => MBody d) (fun _ _ _ => None).
(** the same with other outcomes of the file operations *)
Definition demo_files (op : open_res) (wr : write_res) (cl : option bytes) : senv :=
  mkEnv demo_world 10 nofs 0 (fun _ _ => inr []) (fun _ => (false, 0%Z)) (fun _ => 1%Z) (fun _ => B "2026") (fun _ => B "now")
    (fun _ _ => None) (fun _ _ => op) (fun _ _ => wr) (fun _ => cl) (fun d => B "H" ++ d) (fun d => MBody d) (fun _ _ _ => None).
(** the same with other answers of the blacklists *)
Definition demo_black (hit : bool) (n cnt : Z) : senv :=
  mkEnv demo_world 10 nofs 0 (fun _ _ => inr []) (fun _ => (hit, n)) (fun _ => cnt) (fun _ => B "2026") (fun _ => B "now")
    (fun _ _ => None) (fun _ _ => OpOk) (fun _ _ => WrOk) (fun _ => None) (fun d => B "H" ++ d) (fun d => MBody d) (fun _ _ _ => None).
(** Messages are saved and logged; rules are given on the command line. *)
Definition demo_cfg (rules : list rule) : config :=
  mkConfig (B "/save") (B "all") (B "helo") 0 100 (B "me") [] false [] rules true false true [B "c"].
Definition demo_conn : conn := mkConn 7 1 (B "192.0.2.7:5678") (B "192.0.2.1:25").
Definition plain (l : list sevent) : list (sevent * tlsstate) := map (fun e => (e, no_tls)) l.

Definition demo_rules : list rule := text_rules (B "reject from evil@x.y
stall to bob@
@from set-with from dan@ with savedir /dan
@message reject to spam@ with message ""go away""
").
(** a session before its message *)
Definition demo_mail : list sevent :=
  [EvHelo EHLO (B "h"); EvMailFrom (B "evil@x.y"); EvMailFrom (B "a@x.y"); EvRcptTo (B "bob@x.y"); EvRcptTo (B "jim@x.y"); EvRcptTo (B "joe@x.y"); EvData []].

