(** C62: how remarks (arg_rem) are shown in syntax lines: by their left text, as if it had to be typed. *)
From Verif Require Import Base GetoptModel ParseModel ArgModel DstrModel DstrSpec DstrProofs PrintModel PrintSpec PrintProofs PrintFacts PropPrint.
From Coq Require Import ZArith List Ascii String Bool Lia.
Import ListNotations.
Open Scope Z_scope.

(** What a remark adds to the line: a blank and its left text, without brackets. *)
Definition as_required (dt : option str) : str := match dt with Some d => lit " " ++ d | None => [] end.

Section Kinds.
Context {D : Type}.
Notation remark dt gl := (e_hdr (@arg_rem D dt gl)).

Lemma remark_counts dt gl : counts_ok (remark dt gl).
Proof. split; cbn; unfold INT_MAX; lia. Qed.
Lemma remark_texts dt gl : ocstr dt -> ocstr gl -> texts_ok (remark dt gl).
Proof. intros A B. split; [exact I|]. split; [exact I|]. split; assumption. Qed.

Lemma once s : occurrences 1 1 s = lit " " ++ s.
Proof. unfold occurrences. change (Z.to_nat 1) with 1%nat. cbn [times Z.eqb Pos.eqb]. rewrite !app_nil_r. reflexivity. Qed.
Lemma cluster_remark dt gl hs1 hs2 : cluster (hs1 ++ remark dt gl :: hs2) = cluster (hs1 ++ hs2).
Proof. unfold cluster. rewrite !(filter_app is_switch). reflexivity. Qed.

Theorem C62_shown_as_required : forall hs1 hs2 dt gl stop rest suffix,
  stops stop -> Forall texts_ok (hs1 ++ hs2) -> Forall counts_ok (hs1 ++ hs2) -> ocstr suffix -> ocstr dt -> ocstr gl ->
  (forall d, dt = Some d -> d <> [] /\ zlen d <= 198) ->
  exists os0 os a b, arg_print_syntax_ds (table (hs1 ++ hs2) stop rest) suffix = Ok os0 /\
    arg_print_syntax_ds (table (hs1 ++ remark dt gl :: hs2) stop rest) suffix = Ok os /\
    writes os0 (a ++ b) (zlen (a ++ b) + 6 * zlen (hs1 ++ hs2) + 2) /\
    writes os (a ++ as_required dt ++ b) (zlen (a ++ as_required dt ++ b) + 6 * (zlen (hs1 ++ hs2) + 1) + 2).
Proof.
  intros hs1 hs2 dt gl stop rest sf S T C CF CD CG L.
  apply Forall_app in T as [T1 T2]. apply Forall_app in C as [C1 C2].
  destruct (syntax_gives (hs1 ++ hs2) stop rest sf S ltac:(apply Forall_app; auto) ltac:(apply Forall_app; auto) CF) as (os0 & E0 & G0).
  assert (TR := remark_texts dt gl CD CG).
  destruct (syntax_gives (hs1 ++ remark dt gl :: hs2) stop rest sf S ltac:(apply Forall_app; auto)
    ltac:(apply Forall_app; split; [auto|constructor; [apply remark_counts|auto]]) CF) as (os & E & G).
  set (row := fun h => if is_switch h then [] else match showb h with [] => [] | s => occurrences (h_mincount h) (h_maxcount h) s end) in *.
  exists os0, os, (cluster (hs1 ++ hs2) ++ flat_map row hs1), (flat_map row hs2 ++ orempty sf).
  assert (X0 : syntax_line showb (hs1 ++ hs2) ++ orempty sf = (cluster (hs1 ++ hs2) ++ flat_map row hs1) ++ flat_map row hs2 ++ orempty sf).
  { unfold syntax_line. fold row. rewrite flat_map_app, <- !app_assoc. reflexivity. }
  assert (R : row (remark dt gl) = as_required dt).
  { destruct (showb_ok (remark dt gl) TR) as (_ & _ & (SH & _)). unfold row. change (is_switch (remark dt gl)) with false. cbv iota.
    cbn [e_hdr arg_rem h_shortopts h_longopts h_datatype h_hasoptvalue brief] in SH. destruct dt as [d|].
    - destruct (L d eq_refl) as [N B]. cbn [value_text] in SH. fold (remark (Some d) gl) in SH |- *. rewrite (SH B).
      destruct d as [|x d]; [congruence|]. exact (once (x :: d)).
    - fold (remark None gl) in SH |- *. rewrite (SH ltac:(cbn; lia)). reflexivity. }
  assert (X : syntax_line showb (hs1 ++ remark dt gl :: hs2) ++ orempty sf = (cluster (hs1 ++ hs2) ++ flat_map row hs1) ++ as_required dt ++ flat_map row hs2 ++ orempty sf).
  { unfold syntax_line. fold row. rewrite cluster_remark, flat_map_app. cbn [flat_map]. rewrite R, <- !app_assoc. reflexivity. }
  rewrite X0 in G0. rewrite X in G. split; [exact E0|]. split; [exact E|]. split.
  - apply (gives_writes _ _ _ _ G0). lia.
  - apply (gives_writes _ _ _ _ G). rewrite !zlen_app, zlen_cons. lia.
Qed.

(** The verbose line shows it so too, and a remark without left text as a stray blank. *)
Theorem C62_shown_in_verbose_line : forall hs1 hs2 dt gl stop rest suffix,
  stops stop -> Forall texts_ok (hs1 ++ hs2) -> Forall counts_ok (hs1 ++ hs2) -> ocstr suffix -> ocstr dt -> ocstr gl ->
  (forall d, dt = Some d -> zlen d <= 198) ->
  exists os0 os a b, arg_print_syntaxv_ds (table (hs1 ++ hs2) stop rest) suffix = Ok os0 /\
    arg_print_syntaxv_ds (table (hs1 ++ remark dt gl :: hs2) stop rest) suffix = Ok os /\
    writes os0 (a ++ b) (zlen (a ++ b)) /\
    (let line := a ++ lit " " ++ match dt with Some d => d | None => [] end ++ b in writes os line (zlen line)).
Proof.
  intros hs1 hs2 dt gl stop rest sf S T C CF CD CG L.
  apply Forall_app in T as [T1 T2]. apply Forall_app in C as [C1 C2].
  destruct (syntaxv_gives (hs1 ++ hs2) stop rest sf S ltac:(apply Forall_app; auto) ltac:(apply Forall_app; auto) CF) as (os0 & E0 & G0).
  assert (TR := remark_texts dt gl CD CG).
  destruct (syntaxv_gives (hs1 ++ remark dt gl :: hs2) stop rest sf S ltac:(apply Forall_app; auto)
    ltac:(apply Forall_app; split; [auto|constructor; [apply remark_counts|auto]]) CF) as (os & E & G).
  set (row := fun h => occurrences (h_mincount h) (h_maxcount h) (showv (lit "|") h)) in *.
  exists os0, os, (flat_map row hs1), (flat_map row hs2 ++ orempty sf).
  assert (X0 : syntaxv_line (showv (lit "|")) (hs1 ++ hs2) ++ orempty sf = flat_map row hs1 ++ flat_map row hs2 ++ orempty sf).
  { unfold syntaxv_line. fold row. rewrite flat_map_app, <- !app_assoc. reflexivity. }
  assert (R : row (remark dt gl) = lit " " ++ match dt with Some d => d | None => [] end).
  { destruct (showv_ok (lit "|") (remark dt gl) TR ltac:(clit)) as (_ & _ & (SH & _)). unfold row.
    cbn [e_hdr arg_rem h_shortopts h_longopts h_datatype h_hasoptvalue verbose shorts longs isome andb join app] in SH. fold (remark dt gl) in SH |- *.
    rewrite SH by (destruct dt as [d|]; [exact (L d eq_refl)|cbn; lia]).
    destruct dt as [d|]; [exact (once d)|exact (once [])]. }
  assert (X : syntaxv_line (showv (lit "|")) (hs1 ++ remark dt gl :: hs2) ++ orempty sf = flat_map row hs1 ++ lit " " ++ match dt with Some d => d | None => [] end ++ flat_map row hs2 ++ orempty sf).
  { unfold syntaxv_line. fold row. rewrite flat_map_app. cbn [flat_map]. rewrite R, <- !app_assoc. reflexivity. }
  rewrite X0 in G0. rewrite X in G. split; [exact E0|]. split; [exact E|]. split.
  - apply (gives_writes _ _ _ _ G0). lia.
  - cbv zeta. apply (gives_writes _ _ _ _ G). lia.
Qed.
End Kinds.

Example C62_case_shown : exists os m, arg_print_syntax_ds (table (firstn 2 demo ++ e_hdr (@arg_rem Z (Some (lit "note:")) (Some (lit "see below"))) :: skipn 2 demo) SEnd []) (Some [NL]) = Ok os /\
  print_to (fun _ => NUL) false os = Ok (lit " -a[b] note: -n <n> [-n <n>] [-n <n>] [--opt=[<o>]] <file> [<file>]..." ++ [NL], m).
Proof. eexists _, _. split; [vm_compute; reflexivity|]. vm_compute. reflexivity. Qed.
Example C62_case_shown_verbose : exists os m, arg_print_syntaxv_ds (table [mk true false None None (Some "<file>"%string) 1 1 None; e_hdr (@arg_rem Z None (Some (lit "see below")))] SEnd []) (Some [NL]) = Ok os /\
  print_to (fun _ => NUL) false os = Ok (lit " <file> " ++ [NL], m).
Proof. eexists _, _. split; [vm_compute; reflexivity|]. vm_compute. reflexivity. Qed.

Print Assumptions C62_shown_as_required.
Print Assumptions C62_shown_in_verbose_line.
