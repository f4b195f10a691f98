(** SubSpec: what a program with sub-commands is to do (C92). *)
From Verif Require Import Base IntModel IntSpec FileModel DateModel GetoptModel ParseModel ParseSpec GetoptProofs ParseIdeal ParseProofs ParseFacts ParseObserve ParseSafe ParseLemmas ArgModel KindsSpec KindsProofs PropKinds CommandSpec CommandProofs PropCommand ReportSpec ReportProofs PropReport ErrorSpec ErrorProofs PropErrors.
From Verif Require Import MemModel DstrModel HashModel CmdModel CmdSpec PropCmd ProgramModel PropProgram SubModel.
From Verif Require PrintSpec PropPrint PropHelp TableModel.
From Coq Require Import ZArith List Ascii String Bool.
Import ListNotations.
Open Scope Z_scope.

Section Spec.
Context {D C : Type}.
Context (strtod : str -> D * nat).
Context (rexmatch : str -> Z -> str -> res bool).
Context (sp : seps).
Context (strftime : str -> tm -> option str).
Context (module version : str) (posix : bool).
Notation lm := Long64.
Notation table := (list (entry (body D))).
Notation command := (command D C).
Notation registry := (@registry command C).

(** [answers e words out code]: while the registry holds [e], the command line [words] is answered by [out] and [code]. *)
Inductive answers (e : registry) : list str -> str -> Z -> Prop :=
(** No command, or one that is not registered: how to get help. *)
| greets words : match words with [] => True | n :: _ => e n = None end -> answers e words (PropHelp.greeting module version) 1
(** The help switch is among the arguments, whatever else is there: the help. *)
| helps n rest i k evs pos show1 show2 : e n = Some i -> ci_proc i = Some k ->
    reading (map e_hdr (k_table k)) posix rest evs pos -> occurrences (k_help k) evs <> [] ->
    PropHelp.shown_tags (lit "|") show1 (map e_hdr (k_table k)) -> PropHelp.shown_tags (lit ", ") show2 (map e_hdr (k_table k)) ->
    answers e (n :: rest) (PropHelp.help_text module n (Some (ci_desc i)) show1 show2 (map e_hdr (k_table k))) 0
(** No help, and something is wrong: a message for every error (for the first 19 and a remark, if there are more than 20). *)
| complains_ n rest i k evs pos held errs msgs show : e n = Some i -> ci_proc i = Some k ->
    reading (map e_hdr (k_table k)) posix rest evs pos -> occurrences (k_help k) evs = [] ->
    report strtod rexmatch lm sp (k_table k) evs pos held errs -> errs <> [] ->
    Forall2 (message strftime module (table_sig (k_table k))) (shown 20 errs) msgs ->
    PropHelp.shown_tags (lit "|") show (map e_hdr (k_table k)) ->
    answers e (n :: rest) (PropHelp.error_text module msgs show (map e_hdr (k_table k))) 1
(** No help, and all is well: the work of the command, with its context, with the values in place. *)
| does n rest i k os pos runs tab' out code : e n = Some i -> ci_proc i = Some k ->
    spells (map e_hdr (k_table k)) posix rest os pos -> given_to (k_help k) os = [] ->
    shared strtod rexmatch lm sp (k_table k) os pos runs -> valued strtod rexmatch sp (k_table k) os runs tab' ->
    k_work k (ci_ctx i) (zlen (n :: rest)) tab' = Ok (out, code) -> answers e (n :: rest) out code.

(** ** What is asked of the program *)
(** Of a command: its table is made by the constructors, its texts are C strings that fit, and its work is defined after every
    successful parse without help and appends a C string of at most 2^29 bytes. *)
Definition texts_small (n : str) (i : cmdinfo command C) (k : command) : Prop :=
  let hs := map e_hdr (k_table k) in
  small (zlen (PropHelp.help_text module n (Some (ci_desc i)) (PropPrint.showv (lit "|")) (PropPrint.showv (lit ", ")) hs) + 11 + 11 * zlen hs) /\
  zlen (PropHelp.error_text module [] (PropPrint.showv (lit "|")) hs) <= 100000000.
Definition able_to (i : cmdinfo command C) (k : command) (n : str) (rest : list str) : Prop :=
  forall os pos runs tab', spells (map e_hdr (k_table k)) posix rest os pos -> given_to (k_help k) os = [] ->
  shared strtod rexmatch lm sp (k_table k) os pos runs -> valued strtod rexmatch sp (k_table k) os runs tab' ->
  exists out code, k_work k (ci_ctx i) (zlen (n :: rest)) tab' = Ok (out, code) /\ cstr out /\ small (zlen out).
Record good_command (i : cmdinfo command C) (k : command) (n : str) : Prop := {
  gc_name : cstr n;
  gc_desc : cstr (ci_desc i);
  gc_help : switch_at (k_table k) (k_help k);
  gc_texts : Forall (fun e => PrintSpec.texts_ok (e_hdr e)) (k_table k);
  gc_counts : Forall (fun e => PrintSpec.counts_ok (e_hdr e)) (k_table k);
  gc_dates : Forall (fun e => date_ok strftime (sigof (e_body e))) (k_table k);
  gc_dates_fit : dates_fit strftime (table_sig (k_table k));
  gc_small : texts_small n i k
}.
(** Of a command line: the words of a registered command are in memory as for arg_parse (C59), none is longer than 20000000
    bytes, and they can be read. A registered command has a procedure. *)
Definition good_line (e : registry) (l : line) : Prop :=
  match l_words l with
  | [] => True
  | n :: rest => forall i, e n = Some i -> exists k ints evs pos, ci_proc i = Some k /\ good_command i k n /\ able_to i k n rest /\
      reached strtod rexmatch lm sp ints (k_table k) /\ call 20 (k_table k) (l_end l) (l_heap l) (l_argv l) n rest (l_fuel l) /\
      Forall (safe_value lm ints) rest /\ (forall a, In a rest -> zlen a <= 20000000) /\ reading (map e_hdr (k_table k)) posix rest evs pos
  end.
(** Of a session: its changes of the registry are allowed (C31) and its lines are good, at the time when they come. *)
Fixpoint good_session (e : registry) (items : list (item D C)) : Prop :=
  match items with
  | [] => True
  | Change o :: items => allowed_cop e o /\ good_session (spec_cop e o) items
  | Line l :: items => good_line e l /\ good_session e items
  end.

(** ** What a session gives: one outcome for every line, which the registrations before it and its own words decide; nothing stays
    allocated. *)
Inductive gives_answers : registry -> list (item D C) -> list outcome -> Prop :=
| ga_end e : gives_answers e [] []
| ga_change e o items outs : gives_answers (spec_cop e o) items outs -> gives_answers e (Change o :: items) outs
| ga_line e l items o outs : answers e (l_words l) (o_text o) (o_code o) -> clean o -> gives_answers e items outs ->
    gives_answers e (Line l :: items) (o :: outs).
End Spec.
