(** C81 for tables: arg_rex entries whose patterns pass the check. *)
From Verif Require Import Base IntModel IntSpec FileModel DateModel GetoptModel ParseModel ParseSpec ParseIdeal ParseObserve ArgModel KindsSpec KindsProofs PropKinds CommandSpec PropCommand PropRexTable.
From Verif Require RexSpec PropRex PropRexTidy ExTable.
From Coq Require Import ZArith List Ascii String Bool Lia.
Import ListNotations.
Open Scope Z_scope.
Notation good_pattern := PropRexTidy.good_pattern.

Section Tables.
Context {D : Type}.
Context (strtod : str -> D * nat).
Context (sp : seps).
Hypothesis Hd : strtod_contract strtod.
Notation reached := (reached strtod trex Long64 sp).

(** New tables whose patterns pass the check are within reach of all the theorems about tables. *)
Theorem C81_tables : forall lm ints (tab : list (entry (body D))),
  Forall (fun e => built e /\ (forall p, e_body e = KRex p -> good_pattern (rex_flags p) (rex_pattern p) = true) /\ (is_int (e_body e) = true -> ints = true)) tab ->
  PropKinds.reached strtod trex lm sp ints tab.
Proof.
  intros lm ints tab H. apply C60_new_tables_reached. eapply Forall_impl; [|exact H]. intros e (H1 & H2 & H3). split; auto. split; auto. intros p Hp.
  destruct (PropRexTidy.good_parts _ _ (H2 p Hp)) as (r & S & L & C & _ & N & _). exists r. split; auto.
Qed.
(** Such an entry accepts the given values iff their number is right and each is a text of the pattern's language. *)
Theorem C81_satisfied_iff : forall ints tab i e p r given,
  reached ints tab -> nth_error tab i = Some e -> e_body e = KRex p -> good_pattern (rex_flags p) (rex_pattern p) = true -> RexSpec.spells r (rex_pattern p) ->
  (forall s, In (Some s) given -> zlen s <= 65535) ->
  (satisfied strtod trex Long64 sp e given <->
   h_mincount (e_hdr e) <= zlen given <= h_maxcount (e_hdr e) /\ forall s, In (Some s) given -> accepts (ignore_case (rex_flags p)) s r).
Proof.
  intros ints tab i e p r given Ht Hi He G S Hg. destruct (PropRexTidy.good_parts _ _ G) as (r' & S' & L & C & F & N & T). rewrite (PropRexTidy.C81_one_meaning _ _ _ S S').
  eapply C60_satisfied_iff; eauto; [repeat split; auto|]. intros s Hs. split; [apply PropRexTidy.roomy_all; auto|apply PropRexTidy.C81_tidy_is_orderly; exact T].
Qed.
End Tables.

(** ** Example: -c/--colour takes up to two colours, without regard to case. *)
Local Open Scope string_scope.
Local Open Scope list_scope.
Local Open Scope Z_scope.
Definition colour : entry (body Z) := arg_rexn (ExTable.o "c") (ExTable.o "colour") (lit "#[0-9a-f]{6}|red|green|blue") None 0 2 1 None.
Definition colours : list (entry (body Z)) := [colour; arg_strn None None None 0 1 None].
Lemma colours_reached : PropKinds.reached ExTable.strtod trex Long64 unix_seps true colours.
Proof. apply C81_tables. repeat constructor; cbn; try discriminate; try (intros p [= <-]; vm_compute; reflexivity). Qed.
Example C81_ex_colours : exists r, RexSpec.spells r (lit "#[0-9a-f]{6}|red|green|blue") /\ forall given, (forall s, In (Some s) given -> zlen s <= 65535) ->
  (satisfied ExTable.strtod trex Long64 unix_seps colour given <-> 0 <= zlen given <= 2 /\ forall s, In (Some s) given -> accepts true s r).
Proof.
  destruct (PropRexTidy.C81_good_is_written 1 (lit "#[0-9a-f]{6}|red|green|blue")) as (r & S); [vm_compute; reflexivity|]. exists r. split; auto. intros given Hg.
  refine (C81_satisfied_iff ExTable.strtod unix_seps ex_contract true colours 0 colour _ r given colours_reached eq_refl eq_refl _ S Hg). vm_compute. reflexivity.
Qed.
Example C81_ex_colours_given : map (fun t => trex (lit "#[0-9a-f]{6}|red|green|blue") 1 (lit t)) ["#00FF7f"; "Green"; "#00ff7"; "greens"] = [Ok true; Ok true; Ok false; Ok false].
Proof. vm_compute. reflexivity. Qed.

Print Assumptions C81_tables.
Print Assumptions C81_satisfied_iff.
