(** C69: what the environment variable POSIXLY_CORRECT changes. For any kinds of entries. *)
From Verif Require Import Base IntModel FileModel DateModel GetoptModel ParseModel ParseSpec GetoptProofs ParseIdeal ParseProofs ParseFacts ParseObserve ParseLemmas ArgModel KindsSpec CommandSpec CommandProofs ReportSpec ReportProofs.
From Verif Require ExTable.
From Coq Require Import ZArith List Ascii String Bool Lia.
Import ListNotations.
Open Scope Z_scope.

(** Nothing that looks like an option stands behind the first positional argument, unless behind [--]. *)
Inductive options_first (t : list hdr) : list str -> Prop :=
| of_dashes rest : options_first t (lit "--" :: rest)
| of_words l : Forall word l -> options_first t l
| of_option cs rest evs rest' : cs <> [] -> cs <> lit "-" -> cluster_reading t ("-"%char :: cs) cs rest evs rest' -> options_first t rest' ->
    options_first t (("-"%char :: cs) :: rest).

Section Reading.
Context (t : list hdr).

Lemma cluster_det a cs rest e1 r1 e2 r2 : cluster_reading t a cs rest e1 r1 -> cluster_reading t a cs rest e2 r2 -> e1 = e2 /\ r1 = r2.
Proof.
  intros H1 H2. apply of_cluster_reading in H1 as (u1 & E1 & ->). apply of_cluster_reading in H2 as (u2 & E2 & ->). rewrite E1 in E2. injection E2 as -> ->. auto.
Qed.
(** What a cluster uses of the arguments behind it stays the same if the others are replaced. *)
Lemma long_uses a body rest evs rest' : long_reading t a body rest evs rest' ->
  exists ws, rest = ws ++ rest' /\ forall m, (rest' = [] -> m = []) -> long_reading t a body (ws ++ m) evs m.
Proof.
  intros H. destruct H as [nm i h rest He Hs Ht|nm v i h rest He Hs Ht Hv|nm i h rest He Hs Ht Hv|nm v i h rest He Hs Ht Hv|nm i h rest He Hs Ht|nm i h He Hs Ht|nm w rest He Hs Hw|nm v i h rest He Hs Ht].
  - exists []. split; auto. intros m _. eapply lr_bare; eauto.
  - exists []. split; auto. intros m _. eapply lr_equals; eauto.
  - exists []. split; auto. intros m _. eapply lr_equals_empty; eauto.
  - exists [v]. split; auto. intros m _. eapply lr_next; eauto.
  - exists [[]]. split; auto. intros m _. eapply lr_next_empty; eauto.
  - exists []. split; auto. intros m Hm. rewrite (Hm eq_refl). eapply lr_missing; eauto.
  - exists []. split; auto. intros m _. eapply lr_unknown; eauto.
  - exists []. split; auto. intros m _. eapply lr_unwanted; eauto.
Qed.
Lemma cluster_uses a cs rest evs rest' : cluster_reading t a cs rest evs rest' ->
  exists ws, rest = ws ++ rest' /\ forall m, (rest' = [] -> m = []) -> cluster_reading t a cs (ws ++ m) evs m.
Proof.
  induction 1 as [rest|c cs i h rest evs rest' Hc Hf Ht H (ws & E & IH)|c cs rest evs rest' Hc Hf H (ws & E & IH)|c i h rest Hc Hf Ht|c v i h rest Hc Hf Ht Hv|c v i h rest Hc Hf Ht|c i h Hc Hf Ht|body rest evs rest' Hb H].
  - exists []. split; auto. intros m _. constructor.
  - exists ws. split; auto. intros m Hm. eapply cr_switch; eauto.
  - exists ws. split; auto. intros m Hm. eapply cr_unknown; eauto.
  - exists []. split; auto. intros m _. eapply cr_bare; eauto.
  - exists []. split; auto. intros m _. eapply cr_attached; eauto.
  - exists [v]. split; auto. intros m _. eapply cr_next; eauto.
  - exists []. split; auto. intros m Hm. rewrite (Hm eq_refl). eapply cr_missing; eauto.
  - destruct (long_uses _ _ _ _ _ H) as (ws & E & IH). exists ws. split; auto. intros m Hm. apply cr_long; auto.
Qed.
Lemma words_reading l : Forall word l -> reading t false l [] l.
Proof. induction 1; [constructor|apply rd_word; auto]. Qed.
Lemma words_reading_posix l : Forall word l -> reading t true l [] l.
Proof. intros [|a rest Ha _]; [constructor|apply rd_posix; auto]. Qed.
(** Positional arguments are arguments, and only words if all are. *)
Lemma positional_count args evs pos : reading t false args evs pos -> (List.length pos <= List.length args)%nat /\ (List.length pos = List.length args -> Forall word args).
Proof.
  induction 1 as [|rest|a rest Hp Hw|a rest evs pos Hp Hw H IH|cs rest evs rest' evs' pos Hn Hd Hc H IH]; cbn [List.length].
  - split; auto.
  - split; [lia|]. intros E. lia.
  - discriminate.
  - destruct IH as [I1 I2]. split; [lia|]. intros E. constructor; [exact Hw|apply I2; lia].
  - destruct (cluster_uses _ _ _ _ _ Hc) as (ws & -> & _). rewrite app_length in *. split; [lia|]. intros E. lia.
Qed.
Lemma option_no_word cs : cs <> [] -> ~ word ("-"%char :: cs).
Proof. intros Hn Hw. exact (Hn (Hw cs eq_refl)). Qed.
Lemma dashes_no_word : ~ word (lit "--").
Proof. intros Hw. specialize (Hw (lit "-") eq_refl). discriminate. Qed.

Lemma options_first_read args : options_first t args -> forall evs pos, reading t true args evs pos <-> reading t false args evs pos.
Proof.
  induction 1 as [rest|l Hl|cs rest evs0 rest' Hn Hd Hc H IH]; intros evs pos.
  - assert (R : forall px, reading t px (lit "--" :: rest) evs pos <-> evs = [] /\ pos = rest).
    { intros px. split; [|intros [-> ->]; constructor]. intros R. inversion R as [|? |? ? ? W|? ? ? ? ? W|cs ? ? ? ? ? ? Hcd]; subst; auto; [elim (dashes_no_word W)|elim (dashes_no_word W)|]. elim Hcd. reflexivity. }
    rewrite !R. tauto.
  - split; intros R; apply reading_iff in R; [rewrite (proj1 (reading_iff t true l [] l) (words_reading_posix l Hl)) in R|rewrite (proj1 (reading_iff t false l [] l) (words_reading l Hl)) in R];
      injection R as <- <-; [apply words_reading|apply words_reading_posix]; auto.
  - split; intros R; (inversion R as [|? |? ? ? W|? ? ? ? ? W|cs' ? evs1 rest1 evs2 ? ? ? Hc' H']; subst; try (elim Hd; reflexivity); try discriminate; try (elim (option_no_word _ Hn W))).
    all: destruct (cluster_det _ _ _ _ _ _ _ Hc Hc') as [<- <-]; eapply rd_option; eauto; apply IH; auto.
Qed.
End Reading.

(** Command lines that return at all read the same with and without the variable exactly if no option stands behind a positional
    argument. *)
Theorem C69_same_reading_iff :
  forall t args evs pos evs' pos', reading t false args evs pos -> reading t true args evs' pos' ->
  ((evs = evs' /\ pos = pos') <-> options_first t args).
Proof.
  intros t args evs pos evs' pos' H1 H2. split.
  - intros [<- <-]. revert H1. induction H2 as [|rest|a rest Hp Hw|a rest evs pos Hp Hw H IH|cs rest evs rest' evs' pos Hn Hd Hc H IH]; intros H1.
    + apply of_words. constructor.
    + apply of_dashes.
    + apply of_words. exact (proj2 (positional_count t _ _ _ H1) eq_refl).
    + discriminate.
    + inversion H1 as [|? |? ? ? W|? ? ? ? ? W|cs' ? evs1 rest1 evs2 ? ? ? Hc' H' E1 E2 E3]; subst; try (elim Hd; reflexivity); try discriminate; try (elim (option_no_word _ Hn W)).
      destruct (cluster_det t _ _ _ _ _ _ _ Hc Hc') as [<- <-]. apply app_inv_head in E2. subst evs2. eapply of_option; eauto.
  - intros H. apply (options_first_read t args H) in H2. apply reading_iff in H1. apply reading_iff in H2. rewrite H1 in H2. injection H2 as -> ->. auto.
Qed.
(** With the variable set, a command line reads as it does without it, or as if [--] stood before the first positional argument. *)
Theorem C69_stops_at_first :
  forall t args evs pos, reading t true args evs pos ->
  reading t false args evs pos \/
  exists pre a more, args = pre ++ a :: more /\ word a /\ pos = a :: more /\ forall posix, reading t posix (pre ++ lit "--" :: pos) evs pos.
Proof.
  intros t args evs pos H. induction H as [|rest|a rest Hp Hw|a rest evs pos Hp Hw H IH|cs rest evs rest' evs' pos Hn Hd Hc H IH].
  - left. constructor.
  - left. constructor.
  - right. exists [], a, rest. split; auto. split; auto. split; auto. intros px. constructor.
  - discriminate.
  - destruct IH as [IH|(pre & a & more & -> & Hw & -> & IH)].
    + left. eapply rd_option; eauto.
    + right. destruct (cluster_uses t _ _ _ _ _ Hc) as (ws & -> & Hu). exists (("-"%char :: cs) :: ws ++ pre), a, more.
      split; [cbn [app]; rewrite <- app_assoc; reflexivity|]. split; auto. split; auto. intros px. cbn [app]. rewrite <- app_assoc.
      eapply rd_option; [exact Hn|exact Hd| |apply IH]. apply Hu. intros E. destruct pre; discriminate E.
Qed.

Section Parsed.
Context {B : Type}.
Context (scan : hdr -> B -> option (option str -> res (B * Z))).
Context (check : hdr -> B -> option Z).
Context (reset : hdr -> B -> res B).
Notation parse := (arg_parse scan check reset).

(** Two settings of the variable, two command lines: the same table, return value and errors. *)
Definition parsed_the_same (t : list hdr) (posix1 : bool) (args1 : list str) (posix2 : bool) (args2 : list str) : Prop :=
  forall cap tab, map e_hdr tab = t -> forall jo jc jp fuel argv h s en a0 jo' jc' jp' fuel' argv' h' s' en' a0',
  call cap tab en h argv a0 args1 fuel -> call cap tab en' h' argv' a0' args2 fuel' ->
  observe (parse posix1 jo jc jp fuel (zlen (a0 :: args1)) argv h s tab en) =
  observe (parse posix2 jo' jc' jp' fuel' (zlen (a0' :: args2)) argv' h' s' tab en').
Lemma same_reading_parsed t px1 px2 args1 args2 evs pos : reading t px1 args1 evs pos -> reading t px2 args2 evs pos -> parsed_the_same t px1 args1 px2 args2.
Proof.
  intros H1 H2 cap tab Ht; intros. subst t. apply reading_iff in H1. apply reading_iff in H2.
  rewrite (one_pass scan check reset _ cap _ _ _ _ _ _ _ _ _ _ _ evs pos) by auto. symmetry. apply one_pass; auto.
Qed.
(** Options first, then positional arguments: the variable has no influence. *)
Theorem C69_no_influence :
  forall t args posix evs pos, reading t posix args evs pos -> options_first t args -> parsed_the_same t true args false args.
Proof.
  intros t args posix evs pos H Hf. apply (same_reading_parsed t true false args args evs pos); destruct posix; auto; apply (options_first_read t args Hf); auto.
Qed.
(** In general it acts like [--] typed before the first positional argument. *)
Theorem C69_like_dashes :
  forall t args evs pos, reading t true args evs pos ->
  parsed_the_same t true args false args \/
  exists pre a more, args = pre ++ a :: more /\ word a /\ forall posix, parsed_the_same t true args posix (pre ++ lit "--" :: a :: more).
Proof.
  intros t args evs pos H. destruct (C69_stops_at_first t args evs pos H) as [Hs|(pre & a & more & -> & Hw & -> & Hs)].
  - left. eapply same_reading_parsed; eauto.
  - right. exists pre, a, more. split; auto. split; auto. intros px. eapply same_reading_parsed; [exact H|apply Hs].
Qed.
End Parsed.

(** ** Examples *)
Local Open Scope string_scope.
Local Open Scope list_scope.
Local Open Scope Z_scope.
Definition ex_first : list str := map lit ["-n"; "5"; "-x"; "a"; "-"; "b"].
Example C69_case : options_first ExTable.hdrs ex_first /\ reading ExTable.hdrs true ex_first [EvScan 1 (ExTable.o "5"); EvErr (sc "x") None] (map lit ["a"; "-"; "b"]) /\
  parsed_the_same (kscan ExTable.strtod ExTable.rexmatch Long64 unix_seps) kcheck kreset ExTable.hdrs true ex_first false ex_first.
Proof.
  assert (Hr : reading ExTable.hdrs true ex_first [EvScan 1 (ExTable.o "5"); EvErr (sc "x") None] (map lit ["a"; "-"; "b"])) by (apply reading_iff; vm_compute; reflexivity).
  assert (Hf : options_first ExTable.hdrs ex_first).
  { assert (Hr' : reading ExTable.hdrs false ex_first [EvScan 1 (ExTable.o "5"); EvErr (sc "x") None] (map lit ["a"; "-"; "b"])) by (apply reading_iff; vm_compute; reflexivity).
    apply (C69_same_reading_iff _ _ _ _ _ _ Hr' Hr). split; reflexivity. }
  split; auto. split; auto. eapply C69_no_influence; eauto.
Qed.
(** An option behind a positional argument. *)
Definition ex_behind : list str := map lit ["-v"; "a"; "-n5"].
Example C69_case_behind : ~ options_first ExTable.hdrs ex_behind /\ reading ExTable.hdrs true ex_behind [EvScan 0 None] (map lit ["a"; "-n5"]) /\
  reading ExTable.hdrs false ex_behind [EvScan 0 None; EvScan 1 (ExTable.o "5")] (map lit ["a"]) /\
  forall posix, reading ExTable.hdrs posix (map lit ["-v"; "--"; "a"; "-n5"]) [EvScan 0 None] (map lit ["a"; "-n5"]).
Proof.
  assert (H1 : reading ExTable.hdrs true ex_behind [EvScan 0 None] (map lit ["a"; "-n5"])) by (apply reading_iff; vm_compute; reflexivity).
  assert (H2 : reading ExTable.hdrs false ex_behind [EvScan 0 None; EvScan 1 (ExTable.o "5")] (map lit ["a"])) by (apply reading_iff; vm_compute; reflexivity).
  split; [|split; [|split]]; auto.
  - intros H. apply (C69_same_reading_iff _ _ _ _ _ _ H2 H1) in H as [H _]. discriminate.
  - intros [|]; apply reading_iff; vm_compute; reflexivity.
Qed.

Print Assumptions C69_same_reading_iff.
Print Assumptions C69_stops_at_first.
Print Assumptions C69_no_influence.
Print Assumptions C69_like_dashes.
