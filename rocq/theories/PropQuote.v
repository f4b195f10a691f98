(** C70: no text can be mistaken for an option where a program puts it as a value. A program or a script that makes a command line out of
    texts it knows nothing about (file names, user input) can rely on them arriving as values. *)
From Verif Require Import Base IntModel IntSpec FileModel FileSpec DateModel DateSpec GetoptModel ParseModel ParseSpec GetoptProofs ParseIdeal ParseProofs ParseFacts ParseObserve ParseSafe ParseLemmas ArgModel KindsSpec KindsProofs PropKinds CommandSpec CommandProofs PropCommand ReportSpec ReportProofs PropReport PropOrder PropConcat.
From Verif Require ExTable.
From Coq Require Import ZArith List Ascii String Bool Lia.
Import ListNotations.
Open Scope Z_scope.

(** Places for a text: --name=text, --name text, -ctext, -c text; and options without a value. *)
Inductive place := LongEquals (nm : str) | LongNext (nm : str) | ShortAttached (c : ascii) | ShortNext (c : ascii) | LongSwitch (nm : str) | ShortSwitch (c : ascii).
Definition put (p : place) (v : str) : list str :=
  match p with
  | LongEquals nm => [lit "--" ++ nm ++ "="%char :: v]
  | LongNext nm => [lit "--" ++ nm; v]
  | ShortAttached c => ["-"%char :: c :: v]
  | ShortNext c => [["-"%char; c]; v]
  | LongSwitch nm => [lit "--" ++ nm]
  | ShortSwitch c => [["-"%char; c]]
  end.
Definition is_switch (p : place) : bool := match p with LongSwitch _ | ShortSwitch _ => true | _ => false end.
(** The place belongs to entry [i]. *)
Definition of_entry (t : list hdr) (i : nat) (p : place) : Prop :=
  match p with
  | LongEquals nm => nm <> [] /\ ~ In "="%char nm /\ exists h, selects t nm i h /\ long_takes h <> TNo
  | LongNext nm => nm <> [] /\ ~ In "="%char nm /\ exists h, selects t nm i h /\ long_takes h = TReq
  | ShortAttached c => c <> "-"%char /\ exists h, first_declaring t c i h /\ short_takes h <> TNo
  | ShortNext c => c <> "-"%char /\ exists h, first_declaring t c i h /\ short_takes h = TReq
  | LongSwitch nm => nm <> [] /\ ~ In "="%char nm /\ exists h, selects t nm i h /\ long_takes h <> TReq
  | ShortSwitch c => c <> "-"%char /\ exists h, first_declaring t c i h /\ short_takes h = TNo
  end.
(** The empty text is all right for -c text only. *)
Definition text_ok (p : place) (v : str) : Prop :=
  match p with LongEquals _ | LongNext _ | ShortAttached _ => v <> [] | _ => True end.

(** A command line made of filled places, [--], and more texts. *)
Definition filled : Type := place * nat * str.
Definition f_place (f : filled) : place := fst (fst f).
Definition f_entry (f : filled) : nat := snd (fst f).
Definition f_text (f : filled) : str := snd f.
Definition line (fs : list filled) (ps : list str) : list str := flat_map (fun f => put (f_place f) (f_text f)) fs ++ lit "--" :: ps.
Definition good_filled (t : list hdr) (f : filled) : Prop := of_entry t (f_entry f) (f_place f) /\ text_ok (f_place f) (f_text f).
Definition meant (f : filled) : occurrence := (f_entry f, if is_switch (f_place f) then None else Some (f_text f)).

Lemma filled_front t posix f : good_filled t f -> front t posix (put (f_place f) (f_text f)) [meant f] [].
Proof.
  destruct f as [[p i] v]. unfold good_filled, meant, f_place, f_entry, f_text. cbn [fst snd]. intros [Hp Hv].
  assert (One : forall a ws o, a <> [] -> a <> lit "-" -> cluster t a ws [o] -> front t posix (("-"%char :: a) :: ws) [o] []).
  { intros a ws o H1 H2 H3. pose proof (fr_option t posix a ws [o] [] [] [] H1 H2 H3 (fr_nil t posix)) as H. rewrite app_nil_r in H. exact H. }
  destruct p as [nm|nm|c|c|nm|c]; cbn [of_entry text_ok put is_switch] in *.
  - destruct Hp as (Hn & He & h & Hs & Ht). apply (One ("-"%char :: nm ++ "="%char :: v) []); [discriminate|intros [= E]; destruct nm; discriminate E|].
    apply cl_long; [destruct nm; discriminate|]. eapply lo_equals; eauto.
  - destruct Hp as (Hn & He & h & Hs & Ht). apply (One ("-"%char :: nm) [v]); [discriminate|intros [= E]; contradiction|]. apply cl_long; auto. eapply lo_next; eauto.
  - destruct Hp as (Hc & h & Hf & Ht). apply (One (c :: v) []); [discriminate|intros [= E]; contradiction|]. eapply cl_attached; eauto.
  - destruct Hp as (Hc & h & Hf & Ht). apply (One [c] [v]); [discriminate|intros [= E]; contradiction|]. eapply cl_next; eauto.
  - destruct Hp as (Hn & He & h & Hs & Ht). apply (One ("-"%char :: nm) []); [discriminate|intros [= E]; contradiction|]. apply cl_long; auto. eapply lo_bare; eauto.
  - destruct Hp as (Hc & h & Hf & Ht). apply (One [c] []); [discriminate|intros [= E]; contradiction|]. eapply cl_switch; eauto. constructor.
Qed.
Lemma fill_front t posix fs : Forall (good_filled t) fs -> front t posix (flat_map (fun f => put (f_place f) (f_text f)) fs) (map meant fs) [].
Proof.
  induction 1 as [|f fs Hf Hfs IH]; cbn [flat_map map]; [constructor|].
  exact (C68_fronts t posix _ _ [meant f] [] (map meant fs) [] (filled_front t posix f Hf) IH).
Qed.
(** Whatever the texts are (with dashes, equals signs, blanks, even the text --), each arrives as a value of the entry it was put
    for, and the texts behind [--] are the positional arguments. There is no other way to read the command line (C59). *)
Theorem C70_texts_are_values :
  forall t posix fs ps, Forall (good_filled t) fs -> spells t posix (line fs ps) (map meant fs) ps.
Proof.
  intros t posix fs ps H. unfold line. pose proof (C68_spelling t posix _ (lit "--" :: ps) _ [] [] ps (fill_front t posix fs H) (sp_dashes t posix ps)) as S.
  rewrite app_nil_r in S. exact S.
Qed.

Section Parsed.
Context {D : Type}.
Context (strtod : str -> D * nat).
Context (rexmatch : str -> Z -> str -> res bool).
Context (sp : seps).
Notation lm := Long64.
Notation parse := (karg_parse strtod rexmatch lm sp).
Notation safe_value := (safe_value lm).
Notation stored := (stored strtod rexmatch lm sp).
Notation reached := (reached strtod rexmatch lm sp).
Hypothesis Hd : strtod_contract strtod.

(** The texts put for entry [i]. *)
Definition texts_for (i : nat) (fs : list filled) : list (option str) :=
  flat_map (fun f => if Nat.eqb (f_entry f) i then [if is_switch (f_place f) then None else Some (f_text f)] else []) fs.
Lemma given_texts i fs : given_to i (map meant fs) = texts_for i fs.
Proof. unfold given_to, texts_for. induction fs as [|f fs IH]; [reflexivity|]. cbn [map flat_map]. rewrite IH. reflexivity. Qed.
(** If the parse finds no error, every entry with options holds the texts put for it, in order, and nothing else. *)
Theorem C70_stored :
  forall ints posix cap tab fs ps jo jc jp fuel argv h s en a0 h' s' tab' en',
  reached ints tab -> call cap tab en h argv a0 (line fs ps) fuel -> Forall (safe_value ints) (line fs ps) -> Forall (good_filled (map e_hdr tab)) fs ->
  parse posix jo jc jp fuel (zlen (a0 :: line fs ps)) argv h s tab en = Ok (h', s', tab', en') -> end_count en' = 0 ->
  forall i e, nth_error tab i = Some e -> kcount (e_body e) <> None -> ~ no_options (e_hdr e) ->
  exists e', nth_error tab' i = Some e' /\ kcount (e_body e') = Some (zlen (texts_for i fs)) /\
    stored (e_body e) (slots_reset (e_body e)) (texts_for i fs) (slots (e_body e')).
Proof.
  intros ints posix cap tab fs ps jo jc jp fuel argv h s en a0 h' s' tab' en' Ht Hc Hv Hf Hp Hz i e Hi Hk Hn.
  pose proof (fill_front (map e_hdr tab) posix fs Hf) as Ha. pose proof (sp_dashes (map e_hdr tab) posix ps) as Hb.
  destruct (C68_values strtod rexmatch sp Hd ints posix cap tab _ (lit "--" :: ps) jo jc jp fuel argv h s en a0 _ [] [] ps h' s' tab' en' Ht Hc Hv Ha Hb Hp Hz i e Hi Hk Hn) as (e' & H1 & H2 & H3).
  rewrite given_texts in H2, H3. cbn [given_to flat_map] in H2, H3. rewrite app_nil_r in H3. exists e'. split; auto. split; auto. rewrite H2. f_equal. unfold zlen. cbn [List.length]. lia.
Qed.
(** Whether there is an error depends on what the entries think of the texts as values, and on nothing else. *)
Theorem C70_accepted_iff :
  forall ints posix cap tab fs ps jo jc jp fuel argv h s en a0,
  reached ints tab -> call cap tab en h argv a0 (line fs ps) fuel -> Forall (safe_value ints) (line fs ps) -> Forall (good_filled (map e_hdr tab)) fs ->
  ((exists h' s' tab' en', parse posix jo jc jp fuel (zlen (a0 :: line fs ps)) argv h s tab en = Ok (h', s', tab', en') /\ end_count en' = 0) <->
   exists runs, shared strtod rexmatch lm sp tab (map meant fs) ps runs).
Proof.
  intros ints posix cap tab fs ps jo jc jp fuel argv h s en a0 Ht Hc Hv Hf.
  rewrite (C59_accepted_iff strtod rexmatch sp Hd ints posix cap tab (line fs ps) jo jc jp fuel argv h s en a0 Ht Hc Hv).
  pose proof (C70_texts_are_values (map e_hdr tab) posix fs ps Hf) as Hs. split.
  - intros (os & pos & runs & Hs2 & Hsh). destruct (C59_read_one_way _ _ _ _ _ _ _ Hs2 Hs) as [-> ->]. eauto.
  - intros (runs & Hsh). eauto.
Qed.
End Parsed.

(** ** The conditions are needed *)
(** An empty text put directly behind a short option makes the next argument its value; put behind --name= or --name it is
    reported as missing. A text in the place of a positional argument before [--] may act as an option, and so may a text behind an
    option whose value is optional. *)
Theorem C70_empty_attached_refuted :
  exists t c i v, Forall good_hdr t /\ of_entry t i (ShortAttached c) /\
    reading t false (put (ShortAttached c) [] ++ [v]) [EvScan i (Some v)] [] /\ reading t false [v] [EvScan 0 None] [].
Proof.
  exists ExTable.hdrs, "n"%char, 1%nat, (lit "-v"). split; [exact ExTable.good|]. split; [|split; apply reading_iff; vm_compute; reflexivity].
  split; [discriminate|]. eexists. split; [apply short_find_iff; vm_compute; reflexivity|discriminate].
Qed.
Theorem C70_empty_long_refuted :
  exists t nm i, Forall good_hdr t /\ of_entry t i (LongEquals nm) /\ of_entry t i (LongNext nm) /\
    (exists v, reading t false (put (LongEquals nm) []) [EvErr ARG_EMISSARG v; EvScan i (Some [])] []) /\
    (exists v, reading t false (put (LongNext nm) []) [EvErr ARG_EMISSARG v; EvScan i (Some [])] []).
Proof.
  exists ExTable.hdrs, (lit "num"), 1%nat. split; [exact ExTable.good|].
  assert (S : exists h, selects ExTable.hdrs (lit "num") 1 h /\ long_takes h = TReq) by (eexists; split; [apply long_find_iff; vm_compute; reflexivity|reflexivity]).
  destruct S as (h & S1 & S2). split; [|split; [|split]].
  - split; [discriminate|]. split; [cbn; intuition discriminate|]. exists h. split; auto. congruence.
  - split; [discriminate|]. split; [cbn; intuition discriminate|]. exists h. auto.
  - eexists. apply reading_iff. vm_compute. reflexivity.
  - eexists. apply reading_iff. vm_compute. reflexivity.
Qed.
Theorem C70_bare_positional_refuted :
  exists t v i, Forall good_hdr t /\ reading t false [v] [EvScan i None] [].
Proof. exists ExTable.hdrs, (lit "-v"), 0%nat. split; [exact ExTable.good|]. apply reading_iff. vm_compute. reflexivity. Qed.
Theorem C70_optional_value_refuted :
  exists t nm i v j, Forall good_hdr t /\ (exists h, selects t nm i h /\ long_takes h = TOpt) /\ reading t false (put (LongNext nm) v) [EvScan i None; EvScan j None] [].
Proof.
  exists (map e_hdr (map (fun e => with_optvalue e) (firstn 2 (rev ExTable.tab))) ++ ExTable.hdrs), (lit "output"), 1%nat, (lit "-v"), 2%nat. split; [apply ExTable.good_hdrs_ok; reflexivity|]. split.
  - eexists. split; [apply long_find_iff; vm_compute; reflexivity|reflexivity].
  - apply reading_iff. vm_compute. reflexivity.
Qed.

(** ** Example *)
Local Open Scope string_scope.
Local Open Scope list_scope.
Local Open Scope Z_scope.
(** A file name that looks like an option, the text --, positional arguments that look like options. *)
Definition ex_fs : list filled := [(LongEquals (lit "output"), 2%nat, lit "--verbose=x -n"); (ShortSwitch "v", 0%nat, []); (ShortNext "n", 1%nat, lit "--"); (LongNext (lit "nu"), 1%nat, lit "-v")].
Lemma ex_good : Forall (good_filled ExTable.hdrs) ex_fs.
Proof.
  repeat apply Forall_cons; try apply Forall_nil; (split; [|cbn; auto; discriminate]); unfold f_place, f_entry; cbn [fst snd of_entry].
  - split; [discriminate|]. split; [cbn; intuition discriminate|]. eexists. split; [apply long_find_iff; vm_compute; reflexivity|discriminate].
  - split; [discriminate|]. eexists. split; [apply short_find_iff; vm_compute; reflexivity|reflexivity].
  - split; [discriminate|]. eexists. split; [apply short_find_iff; vm_compute; reflexivity|reflexivity].
  - split; [discriminate|]. split; [cbn; intuition discriminate|]. eexists. split; [apply long_find_iff; vm_compute; reflexivity|reflexivity].
Qed.
Example C70_case : line ex_fs (map lit ["-v"; "--"]) = map lit ["--output=--verbose=x -n"; "-v"; "-n"; "--"; "--nu"; "-v"; "--"; "-v"; "--"] /\
  spells ExTable.hdrs false (line ex_fs (map lit ["-v"; "--"])) [(2%nat, ExTable.o "--verbose=x -n"); (0%nat, None); (1%nat, ExTable.o "--"); (1%nat, ExTable.o "-v")] (map lit ["-v"; "--"]).
Proof. split; [reflexivity|]. exact (C70_texts_are_values ExTable.hdrs false ex_fs (map lit ["-v"; "--"]) ex_good). Qed.
(** Stored by a parse (without the texts that are no integers). *)
Definition ex_fs2 : list filled := firstn 2 ex_fs.
Notation ex_line := (line ex_fs2 (map lit ["-v"; "--"])).
Definition ex_strings : list string := ["--output=--verbose=x -n"; "-v"; "--"; "-v"; "--"].
Notation ex_parsed := (karg_parse ExTable.strtod ExTable.rexmatch Long64 unix_seps false ExTable.jo ExTable.jc ExTable.jp (S (total (args ("p" :: ex_strings)))) (zlen (lit "p" :: ex_line)) 1
  (ExTable.heap0 ("p" :: ex_strings)) ExTable.s0 ExTable.tab (ExTable.en 4)).
Example C70_case_stored : exists h' s' tab' en', ex_parsed = Ok (h', s', tab', en') /\ end_count en' = 0 /\
  exists e, nth_error tab' 2 = Some e /\ kcount (e_body e) = Some 1 /\ slots (e_body e) = [VFile (lit "--verbose=x -n") (lit "--verbose=x -n") (lit "")].
Proof.
  assert (Hx : match ex_parsed with Ok (_, _, t, e) => end_count e = 0 /\ option_map (fun e => slots (e_body e)) (nth_error t 2) = Some [VFile (lit "--verbose=x -n") (lit "--verbose=x -n") (lit "")] | _ => False end)
    by (vm_compute; split; reflexivity).
  destruct ex_parsed as [[[[h' s'] t'] e']| |] eqn:E; try contradiction. destruct Hx as [Hz Hs]. exists h', s', t', e'. split; [reflexivity|]. split; [exact Hz|].
  assert (Hc : call 4 ExTable.tab (ExTable.en 4) (ExTable.heap0 ("p" :: ex_strings)) 1 (lit "p") ex_line (S (total (args ("p" :: ex_strings))))).
  { destruct (ExTable.call_ok "p" ex_strings 4 0 ltac:(lia) eq_refl) as [K1 K2 K3 K4 K5]. constructor; auto. }
  pose proof (safe_values ex_line ltac:(vm_compute; reflexivity) ltac:(vm_compute; reflexivity)) as Hv.
  assert (Hg : Forall (good_filled (map e_hdr ExTable.tab)) ex_fs2) by (pose proof ex_good as G; inversion_clear G as [|? ? G1 G']; inversion_clear G' as [|? ? G2 _]; exact (Forall_cons _ G1 (Forall_cons _ G2 (Forall_nil _)))).
  destruct (C70_stored ExTable.strtod ExTable.rexmatch unix_seps ex_contract true false 4 ExTable.tab ex_fs2 (map lit ["-v"; "--"]) ExTable.jo ExTable.jc ExTable.jp _ _ _ ExTable.s0 _ _
    h' s' t' e' ex_reached Hc Hv Hg E Hz 2%nat _ eq_refl ltac:(discriminate) ltac:(intros [H _]; discriminate H)) as (e & H1 & H2 & _).
  exists e. split; [exact H1|]. split; [exact H2|]. rewrite H1 in Hs. injection Hs as Hs. exact Hs.
Qed.

Print Assumptions C70_texts_are_values.
Print Assumptions C70_stored.
Print Assumptions C70_accepted_iff.
Print Assumptions C70_empty_attached_refuted.
Print Assumptions C70_empty_long_refuted.
Print Assumptions C70_bare_positional_refuted.
Print Assumptions C70_optional_value_refuted.
