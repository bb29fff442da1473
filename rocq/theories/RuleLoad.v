(** Model of how the rules in force are put together
    (/repo/sinksmtp.go:133-189, 1301-1362). *)
From Verif Require Import Bytes Outcome Lexer Ast GoNet Parser.

(** sinksmtp.go:153-159.  Slices are values here; that append may write into
    spare capacity of [baserules] is the subject of Alias.v. *)
Definition accumRules (fds : nat) (fs : rfs) (tick : nat) (baserules : list rule) (fname : bytes) : lres * nat :=
  match fname with
  | [] => (LRules baserules, tick)
  | _ =>
      let (r, tick') := loadRules fds fs tick fname in
      (match r with LRules rs => LRules (baserules ++ rs) | _ => r end, tick')
  end.

(** sinksmtp.go:171-176: the loop over the rule files, with the file at which
    it stopped and the error *)
Inductive accum_res := AccOk (rs : list rule) | AccErr (rfile e : bytes) | AccPanic.
Fixpoint accumAll (fds : nat) (fs : rfs) (tick : nat) (rules : list rule) (files : list bytes) : accum_res * nat :=
  match files with
  | [] => (AccOk rules, tick)
  | f :: files' =>
      let (r, tick') := accumRules fds fs tick rules f in
      match r with
      | LRules rs => accumAll fds fs tick' rs files'
      | LErr e => (AccErr f e, tick')
      | LPanic | LFuel => (AccPanic, tick')
      end
  end.

(** a directory with no files, for texts without includes *)
Definition nofs : rfs := {| rf_read := fun _ n => inr (B "open " ++ n ++ B ": no such file or directory") |}.

(** sinksmtp.go:1353-1362 genStallRules: the global stallall.  The text has no
    include, so the file system does not matter. *)
Definition stallall : list rule :=
  match parse 0 nofs (B "stall all") with PRules rs => rs | _ => [] end.

(** sinksmtp.go:166-189: the rules, whether they are good, the warning; [None]
    if the parser crashed *)
Record rules_res := mkRulesRes { rr_rules : list rule; rr_good : bool; rr_warning : option bytes }.
Definition setupRules (fds : nat) (fs : rfs) (tick : nat) (baserules : list rule) (files : list bytes) : option rules_res :=
  match fst (accumAll fds fs tick baserules files) with
  | AccOk rs => Some (mkRulesRes rs true None)
  | AccErr f e => Some (mkRulesRes stallall false (Some (B "problem loading rules " ++ f ++ B ": " ++ e ++ [ch_nl])))
  | AccPanic => None
  end.

(** The options that become rules (sinksmtp.go:1274-1277 and -nostdrules). *)
Record rule_opts := mkRuleOpts {
  o_stdrules : bool;
  o_failgotdata : bool;        (* -M *)
  o_fromreject : bytes;
  o_toaccept : bytes;
  o_heloreject : bytes
}.

(** sinksmtp.go:1302-1338: the text *)
Definition buildText (o : rule_opts) : bytes :=
  (if o_stdrules o then B "reject from-has bad,route" ++ [ch_nl] ++ B "reject to-has bad,route" ++ [ch_nl] ++
                        B "reject helo-has none" ++ [ch_nl] else []) ++
  (if o_failgotdata o then B "@message reject all" ++ [ch_nl] else []) ++
  (if beqb (o_fromreject o) [] then [] else B "reject from file:" ++ o_fromreject o ++ [ch_nl]) ++
  (if beqb (o_toaccept o) [] then [] else B "reject not to file:" ++ o_toaccept o ++ [ch_nl]) ++
  (if beqb (o_heloreject o) [] then [] else B "@from reject helo file:" ++ o_heloreject o ++ [ch_nl]).

(** sinksmtp.go:1340-1348; anything but [PRules] ends the program.  A file name
    with spaces might contain an include, so the file system matters. *)
Definition buildRules (fds : nat) (fs : rfs) (o : rule_opts) : parse_result := parse fds fs (buildText o).
