(** C68: command lines can be put together. A program that puts default options (from a file or an environment variable, say) in
    front of the arguments of its user can rely on both parts being read as they would be read alone. *)
From Verif Require Import Base IntModel IntSpec FileModel FileSpec DateModel DateSpec GetoptModel ParseModel ParseSpec GetoptProofs ParseIdeal ParseProofs ParseFacts ParseObserve ParseSafe ParseLemmas ArgModel KindsSpec KindsProofs PropKinds CommandSpec CommandProofs PropCommand ReportSpec ReportProofs PropReport PropOrder.
From Verif Require ExTable.
From Coq Require Import ZArith List Ascii String Bool Lia.
Import ListNotations.
Open Scope Z_scope.

(** A command line after which another one can be put: words and complete options, without the argument [--] that ends the
    options, and without words if POSIXLY_CORRECT is set. *)
Inductive front (t : list hdr) (posix : bool) : list str -> list occurrence -> list str -> Prop :=
| fr_nil : front t posix [] [] []
| fr_word a rest os pos : posix = false -> word a -> front t posix rest os pos -> front t posix (a :: rest) os (a :: pos)
| fr_option cs ws os rest os' pos : cs <> [] -> cs <> lit "-" -> cluster t cs ws os -> front t posix rest os' pos ->
    front t posix (("-"%char :: cs) :: ws ++ rest) (os ++ os') pos.
Lemma front_spells t posix args os pos : front t posix args os pos -> spells t posix args os pos.
Proof. induction 1; [constructor|apply sp_word; auto|apply sp_option; auto]. Qed.
(** For example all well-formed command lines without the argument [--]. *)
Lemma spells_front t posix args os pos : spells t posix args os pos -> ~ In (lit "--") args -> (posix = true -> pos = []) -> front t posix args os pos.
Proof.
  induction 1 as [|rest|x rest Hx Hw|x rest os pos Hx Hw H IH|cs ws os rest os' pos Hc1 Hc2 Hc H IH]; intros Hd Hp.
  - constructor.
  - elim Hd. left. reflexivity.
  - specialize (Hp Hx). discriminate.
  - apply fr_word; auto. apply IH; [intros Hi; apply Hd; right; exact Hi|congruence].
  - apply fr_option; auto. apply IH; auto. intros Hi. apply Hd. right. apply in_app_iff. auto.
Qed.

Lemma long_option_reading t a body ws o : long_option t body ws o -> forall rest, long_reading t a body (ws ++ rest) [EvScan (fst o) (snd o)] rest.
Proof.
  intros H rest. destruct H; cbn [fst snd app].
  - eapply lr_bare; eauto.
  - eapply lr_equals; eauto.
  - eapply lr_next; eauto.
Qed.
Lemma cluster_is_reading t a cs ws os : cluster t cs ws os -> forall rest, cluster_reading t a cs (ws ++ rest) (evs_of os) rest.
Proof.
  induction 1 as [|c cs ws i h os Hc Hf Ht H IH|c i h Hc Hf Ht|c v i h Hc Hf Ht Hv|c v i h Hc Hf Ht|body ws o Hb H]; intros rest; cbn [app].
  - constructor.
  - change (evs_of ((i, None) :: os)) with (EvScan i None :: evs_of os). eapply cr_switch; eauto.
  - eapply cr_bare; eauto.
  - eapply cr_attached; eauto.
  - eapply cr_next; eauto.
  - apply cr_long; auto. exact (long_option_reading t a body ws o H rest).
Qed.
Lemma evs_of_app os1 os2 : evs_of (os1 ++ os2) = evs_of os1 ++ evs_of os2.
Proof. apply map_app. Qed.
Lemma given_to_app i os1 os2 : given_to i (os1 ++ os2) = given_to i os1 ++ given_to i os2.
Proof. apply flat_map_app. Qed.

(** Whatever the second part is, with mistakes or without, it reads as it does alone. *)
Theorem C68_reading :
  forall t posix a b os pos evs' pos', front t posix a os pos -> reading t posix b evs' pos' ->
  reading t posix (a ++ b) (evs_of os ++ evs') (pos ++ pos').
Proof.
  intros t posix a b os pos evs' pos' Ha Hb. induction Ha as [|x rest os pos Hx Hw H IH|cs ws os rest os' pos Hc1 Hc2 Hc H IH].
  - exact Hb.
  - cbn [app]. apply rd_word; auto.
  - rewrite evs_of_app, <- app_assoc. cbn [app]. rewrite <- app_assoc.
    eapply rd_option; [exact Hc1|exact Hc2|apply cluster_is_reading; exact Hc|exact IH].
Qed.
Theorem C68_spelling :
  forall t posix a b os pos os' pos', front t posix a os pos -> spells t posix b os' pos' ->
  spells t posix (a ++ b) (os ++ os') (pos ++ pos').
Proof.
  intros t posix a b os pos os' pos' Ha Hb. apply spells_iff. rewrite evs_of_app. apply reading_iff. apply C68_reading; auto. apply reading_iff, spells_iff, Hb.
Qed.
(** A front followed by a front is a front, so any number of parts can be put together. *)
Theorem C68_fronts :
  forall t posix a b os pos os' pos', front t posix a os pos -> front t posix b os' pos' -> front t posix (a ++ b) (os ++ os') (pos ++ pos').
Proof.
  intros t posix a b os pos os' pos' Ha Hb. induction Ha as [|x rest os pos Hx Hw H IH|cs ws os rest os2 pos Hc1 Hc2 Hc H IH].
  - exact Hb.
  - cbn [app]. apply fr_word; auto.
  - rewrite <- app_assoc. cbn [app]. rewrite <- app_assoc. apply fr_option; auto.
Qed.

Section Parsed.
Context {D : Type}.
Context (strtod : str -> D * nat).
Context (rexmatch : str -> Z -> str -> res bool).
Context (sp : seps).
Notation lm := Long64.
Notation parse := (karg_parse strtod rexmatch lm sp).
Notation safe_value := (safe_value lm).
Notation stored := (stored strtod rexmatch lm sp).
Notation reached := (reached strtod rexmatch lm sp).
Notation shared := (shared strtod rexmatch lm sp).
Notation report := (report strtod rexmatch lm sp).
Notation holds := (ReportSpec.holds strtod rexmatch lm sp).
Hypothesis Hd : strtod_contract strtod.

(** What is reported is what there is to report about the options of the first part followed by those of the second, and the
    positional arguments of the first followed by those of the second. *)
Theorem C68_report :
  forall ints posix cap tab a b jo jc jp fuel argv h s en a0 os pos evs' pos',
  reached ints tab -> call cap tab en h argv a0 (a ++ b) fuel -> Forall (safe_value ints) (a ++ b) ->
  front (map e_hdr tab) posix a os pos -> reading (map e_hdr tab) posix b evs' pos' ->
  exists h' s' tab' en' held errs, parse posix jo jc jp fuel (zlen (a0 :: a ++ b)) argv h s tab en = Ok (h', s', tab', en') /\
    report tab (evs_of os ++ evs') (pos ++ pos') held errs /\ holds tab held tab' /\ end_count en' = Z.min cap (zlen errs) /\ recorded en' = shown cap errs.
Proof.
  intros ints posix cap tab a b jo jc jp fuel argv h s en a0 os pos evs' pos' Ht Hc Hv Ha Hb.
  apply (C61_report strtod rexmatch sp Hd ints posix cap tab (a ++ b)); auto. apply C68_reading; auto.
Qed.
(** Accepted is the whole exactly when the entries are content with the values of both parts, and then every entry with options
    holds the values of the first part followed by those of the second. *)
Theorem C68_accepted_iff :
  forall ints posix cap tab a b jo jc jp fuel argv h s en a0 os pos os' pos',
  reached ints tab -> call cap tab en h argv a0 (a ++ b) fuel -> Forall (safe_value ints) (a ++ b) ->
  front (map e_hdr tab) posix a os pos -> spells (map e_hdr tab) posix b os' pos' ->
  ((exists h' s' tab' en', parse posix jo jc jp fuel (zlen (a0 :: a ++ b)) argv h s tab en = Ok (h', s', tab', en') /\ end_count en' = 0) <->
   exists runs, shared tab (os ++ os') (pos ++ pos') runs).
Proof.
  intros ints posix cap tab a b jo jc jp fuel argv h s en a0 os pos os' pos' Ht Hc Hv Ha Hb. pose proof (C68_spelling _ _ _ _ _ _ _ _ Ha Hb) as Hs.
  rewrite (C59_accepted_iff strtod rexmatch sp Hd ints posix cap tab (a ++ b) jo jc jp fuel argv h s en a0 Ht Hc Hv). split.
  - intros (os2 & pos2 & runs & Hs2 & Hsh). destruct (C59_read_one_way _ _ _ _ _ _ _ Hs2 Hs) as [-> ->]. eauto.
  - intros (runs & Hsh). eauto 8.
Qed.
Theorem C68_values :
  forall ints posix cap tab a b jo jc jp fuel argv h s en a0 os pos os' pos' h' s' tab' en',
  reached ints tab -> call cap tab en h argv a0 (a ++ b) fuel -> Forall (safe_value ints) (a ++ b) ->
  front (map e_hdr tab) posix a os pos -> spells (map e_hdr tab) posix b os' pos' ->
  parse posix jo jc jp fuel (zlen (a0 :: a ++ b)) argv h s tab en = Ok (h', s', tab', en') -> end_count en' = 0 ->
  forall i e, nth_error tab i = Some e -> kcount (e_body e) <> None -> ~ no_options (e_hdr e) ->
  exists e', nth_error tab' i = Some e' /\ kcount (e_body e') = Some (zlen (given_to i os) + zlen (given_to i os')) /\
    stored (e_body e) (slots_reset (e_body e)) (given_to i os ++ given_to i os') (slots (e_body e')).
Proof.
  intros ints posix cap tab a b jo jc jp fuel argv h s en a0 os pos os' pos' h' s' tab' en' Ht Hc Hv Ha Hb Hp Hz i e Hi Hk Hn.
  pose proof (C68_spelling _ _ _ _ _ _ _ _ Ha Hb) as Hs.
  destruct (proj1 (C68_accepted_iff ints posix cap tab a b jo jc jp fuel argv h s en a0 os pos os' pos' Ht Hc Hv Ha Hb)) as (runs & Hsh); [eauto 8|].
  destruct (C59_accepted_values strtod rexmatch sp Hd ints posix cap tab (a ++ b) jo jc jp fuel argv h s en a0 _ _ _ Ht Hc Hv Hs Hsh) as (h2 & s2 & t2 & en2 & Hp2 & _ & Hval).
  rewrite Hp in Hp2. injection Hp2 as <- <- <- <-. destruct Hsh as (_ & Hl & Hsh).
  destruct (nth_error runs i) as [run|] eqn:Hr; [|apply nth_error_None in Hr; assert (i < List.length tab)%nat by (apply nth_error_Some; congruence); lia].
  destruct (Hval i e run Hi Hr) as (e' & He' & _ & Hst). destruct (Hst Hk) as [Hc' Hst']. exists e'. split; auto.
  destruct (Hsh i e run Hi Hr) as (Hrun & _). assert (run = []) as ->; [destruct run as [|x run]; auto; exfalso; apply Hn, Hrun; discriminate|].
  cbn [map] in Hc', Hst'. rewrite app_nil_r, given_to_app in Hc', Hst'. rewrite zlen_app in Hc'. split; auto.
Qed.
End Parsed.

(** ** The conditions are needed *)
(** With [--] in the first part, with a first part that ends with an option without its value, and with a positional argument in
    the first part when POSIXLY_CORRECT is set, the second part does not read as it does alone. *)
Definition reads_apart (t : list hdr) (posix : bool) (a b : list str) : Prop :=
  forall evs pos evs' pos', reading t posix a evs pos -> reading t posix b evs' pos' -> reading t posix (a ++ b) (evs ++ evs') (pos ++ pos').
Theorem C68_any_front_refuted :
  exists t, Forall good_hdr t /\ (exists a b, ~ reads_apart t false a b /\ ~ In (lit "--") a) /\ (exists a b, ~ reads_apart t false a b /\ exists os pos, spells t false a os pos) /\
    (exists a b, ~ reads_apart t true a b /\ exists os pos, spells t true a os pos /\ ~ In (lit "--") a).
Proof.
  exists ExTable.hdrs. split; [exact ExTable.good|]. split; [|split].
  - exists (map lit ["-n"%string]), (map lit ["-v"%string]). split; [|cbn; intuition discriminate]. intros H.
    specialize (H [EvErr ARG_EMISSARG (ExTable.o "-n")] [] [EvScan 0 None] [] ltac:(apply reading_iff; vm_compute; reflexivity) ltac:(apply reading_iff; vm_compute; reflexivity)).
    apply reading_iff in H. vm_compute in H. discriminate.
  - exists (map lit ["--"%string]), (map lit ["-v"%string]). split; [|exists [], []; constructor]. intros H.
    specialize (H [] [] [EvScan 0 None] [] ltac:(apply reading_iff; vm_compute; reflexivity) ltac:(apply reading_iff; vm_compute; reflexivity)).
    apply reading_iff in H. vm_compute in H. discriminate.
  - exists (map lit ["a"%string]), (map lit ["-v"%string]). split.
    + intros H. specialize (H [] [lit "a"] [EvScan 0 None] [] ltac:(apply reading_iff; vm_compute; reflexivity) ltac:(apply reading_iff; vm_compute; reflexivity)).
      apply reading_iff in H. vm_compute in H. discriminate.
    + exists [], [lit "a"]. split; [apply spells_iff; vm_compute; reflexivity|cbn; intuition discriminate].
Qed.

(** ** Example *)
Local Open Scope string_scope.
Local Open Scope list_scope.
Local Open Scope Z_scope.
Definition ex_defaults : list string := ["-n"; "12"; "x"; "--verb"].
Definition ex_user : list string := ["--num=8"; "-v"; "--"; "-y"].
Lemma ex_front : front ExTable.hdrs false (map lit ex_defaults) [(1%nat, ExTable.o "12"); (0%nat, None)] [lit "x"].
Proof. apply spells_front; [apply spells_iff; vm_compute; reflexivity|cbn; intuition discriminate|discriminate]. Qed.
Lemma ex_user_spells : spells ExTable.hdrs false (map lit ex_user) [(1%nat, ExTable.o "8"); (0%nat, None)] [lit "-y"].
Proof. apply spells_iff; vm_compute; reflexivity. Qed.
Definition ex_whole : list str := map lit ex_defaults ++ map lit ex_user.
Notation ex_parsed := (karg_parse ExTable.strtod ExTable.rexmatch Long64 unix_seps false ExTable.jo ExTable.jc ExTable.jp (S (total (args ("p" :: ex_defaults ++ ex_user)))) (zlen (lit "p" :: ex_whole)) 1
  (ExTable.heap0 ("p" :: ex_defaults ++ ex_user)) ExTable.s0 ExTable.tab (ExTable.en 4)).
(** The whole is accepted; entry 1 has the values 12 and 8. *)
Example C68_case : exists h' s' tab' en', ex_parsed = Ok (h', s', tab', en') /\ end_count en' = 0 /\
  exists e, nth_error tab' 1 = Some e /\ kcount (e_body e) = Some 2 /\ slots (e_body e) = [VInt 12; VInt 8].
Proof.
  assert (Hx : match ex_parsed with Ok (_, _, t, e) => end_count e = 0 /\ option_map (fun e => slots (e_body e)) (nth_error t 1) = Some [VInt 12; VInt 8] | _ => False end)
    by (vm_compute; split; reflexivity).
  destruct ex_parsed as [[[[h' s'] t'] e']| |] eqn:E; try contradiction. destruct Hx as [Hz Hs]. exists h', s', t', e'. split; [reflexivity|]. split; [exact Hz|].
  assert (Hc : call 4 ExTable.tab (ExTable.en 4) (ExTable.heap0 ("p" :: ex_defaults ++ ex_user)) 1 (lit "p") ex_whole (S (total (args ("p" :: ex_defaults ++ ex_user))))).
  { destruct (ExTable.call_ok "p" (ex_defaults ++ ex_user) 4 0 ltac:(lia) eq_refl) as [K1 K2 K3 K4 K5]. constructor; auto. }
  pose proof (safe_values ex_whole ltac:(vm_compute; reflexivity) ltac:(vm_compute; reflexivity)) as Hv.
  destruct (C68_values ExTable.strtod ExTable.rexmatch unix_seps ex_contract true false 4 ExTable.tab (map lit ex_defaults) (map lit ex_user) ExTable.jo ExTable.jc ExTable.jp _ _ _ ExTable.s0 _ _
    _ _ _ _ h' s' t' e' ex_reached Hc Hv ex_front ex_user_spells E Hz 1%nat _ eq_refl ltac:(discriminate) ltac:(intros [H _]; discriminate H)) as (e & H1 & H2 & _).
  exists e. split; [exact H1|]. split; [exact H2|]. rewrite H1 in Hs. injection Hs as Hs. exact Hs.
Qed.
(** A switch that may be given three times at most: twice in front, twice by the user is an error, though each part is right. *)
Example C68_case_too_many : exists h' s' tab' en', ExTable.run ["p"; "-vv"; "a"; "-vv"] = Ok (h', s', tab', en') /\ recorded en' = [mk_err (PEntry 0) ARG_ERR_MAXCOUNT None].
Proof.
  assert (Hx : match ExTable.run ["p"; "-vv"; "a"; "-vv"] with Ok (_, _, _, e) => recorded e = [mk_err (PEntry 0) ARG_ERR_MAXCOUNT None] | _ => False end) by (vm_compute; reflexivity).
  destruct (ExTable.run ["p"; "-vv"; "a"; "-vv"]) as [[[[h' s'] t'] e']| |]; try contradiction. exists h', s', t', e'. auto.
Qed.

Print Assumptions C68_reading.
Print Assumptions C68_spelling.
Print Assumptions C68_fronts.
Print Assumptions C68_report.
Print Assumptions C68_accepted_iff.
Print Assumptions C68_values.
Print Assumptions C68_any_front_refuted.
