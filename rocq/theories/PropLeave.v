(** C96: an option more or less. *)
From Verif Require Import Base IntModel FileModel DateModel GetoptModel ParseModel ParseSpec GetoptProofs ParseIdeal ParseProofs ParseFacts ParseObserve ParseLemmas ArgModel KindsSpec PropKinds CommandSpec CommandProofs PropCommand PrintModel PrintSpec PropTags PropLoosen VerboseSpec PropVerbose.
From Coq Require Import ZArith List Ascii String Bool Lia.
Import ListNotations.
Open Scope Z_scope.

Lemma options_of_app a b : options_of (a ++ b) = options_of a ++ options_of b.
Proof. apply flat_map_app. Qed.
Lemma words_of_app a b : words_of (a ++ b) = words_of a ++ words_of b.
Proof. apply flat_map_app. Qed.
Lemma given_to_app i a b : given_to i (a ++ b) = given_to i a ++ given_to i b.
Proof. apply flat_map_app. Qed.
Lemma given_here k v a b g : given_to k (options_of (a ++ Opt k v g :: b)) = given_to k (options_of a) ++ v :: given_to k (options_of b).
Proof. rewrite options_of_app, given_to_app. f_equal. unfold given_to at 1. cbn. rewrite Nat.eqb_refl. reflexivity. Qed.
Lemma given_there i k v a b g : i <> k -> given_to i (options_of (a ++ Opt k v g :: b)) = given_to i (options_of (a ++ b)).
Proof.
  intros H. rewrite !options_of_app, !given_to_app. f_equal. unfold given_to at 1. cbn. replace (Nat.eqb k i) with false by (symmetry; apply Nat.eqb_neq; congruence). reflexivity.
Qed.
Lemma usable_options t i h tag : usable t i h tag -> ~ no_options h.
Proof. intros [_ Hin _ _] [E1 E2]. unfold alternatives in Hin. rewrite E1, E2 in Hin. destruct Hin. Qed.

Section Leave.
Context {D : Type}.
Context (strtod : str -> D * nat).
Context (rexmatch : str -> Z -> str -> res bool).
Context (sp : seps).
Notation lm := Long64.
Notation parse := (karg_parse strtod rexmatch lm sp).
Notation safe_value := (safe_value lm).
Notation stored := (stored strtod rexmatch lm sp).
Notation reached := (reached strtod rexmatch lm sp).
Notation acceptable := (acceptable strtod rexmatch lm sp).
Notation shared := (shared strtod rexmatch lm sp).
Notation satisfied := (satisfied strtod rexmatch lm sp).
Notation denotes := (denotes strtod rexmatch lm sp).
Hypothesis Hd : strtod_contract strtod.

(** ** Good values stay good if one is taken out *)
Lemma stored_build (b : body D) : (forall n, b <> KLit n) -> forall vs l0,
  (forall k s, nth_error vs k = Some (Some s) -> exists v0 v, nth_error l0 k = Some v0 /\ denotes b v0 s v) -> exists l, stored b l0 vs l.
Proof.
  intros Hb. assert (Hm : forall l0 l : list (@value D), match b with KLit _ => l = l0 | _ => True end) by (intros; destruct b as [n| | | | | | |]; auto; exfalso; eapply Hb; reflexivity).
  assert (Hn : forall l0 : list (@value D), stored b l0 [] l0) by (intros l0; split; [apply Hm|]; intros k; destruct k; reflexivity).
  induction vs as [|x vs IH]; intros l0 H; [eauto|]. destruct l0 as [|v0 l0].
  - exists []. split; [apply Hm|]. intros k. destruct (nth_error (x :: vs) k) as [[s|]|] eqn:E; auto. destruct (H k s E) as (? & ? & N & _). destruct k; discriminate.
  - destruct (IH l0) as (l & _ & Hl); [intros k s E; exact (H (S k) s E)|]. destruct x as [s|].
    + destruct (H 0%nat s eq_refl) as (w & v & [= <-] & Hv). exists (v :: l). split; [apply Hm|]. intros [|k]; [|exact (Hl k)]. cbn [nth_error].
      apply (not_lit (P := exists v1 v2, Some v0 = Some v1 /\ Some v = Some v2 /\ denotes b v1 s v2) (Q := True) b Hb). eauto.
    + exists (v0 :: l). split; [apply Hm|]. intros [|k]; [reflexivity|exact (Hl k)].
Qed.
Lemma denotes_slot (b : body D) v0 v1 s v : (forall p, b <> KDate p) -> denotes b v0 s v -> denotes b v1 s v.
Proof. intros H. destruct b as [n|p|p|p|p|p|p|]; auto. destruct (H p eq_refl). Qed.
Lemma acceptable_without (e : entry (body D)) x v y : (forall p, e_body e <> KDate p) -> acceptable e (x ++ v :: y) -> acceptable e (x ++ y).
Proof.
  intros Hda (l & Hl0 & Hl). unfold CommandSpec.acceptable. destruct (e_body e) as [n| | | | | | |] eqn:Eb; [exists (slots_reset (KLit n)); split; [reflexivity|]; intros k; destruct (nth_error (x ++ y) k) as [[?|]|]; auto| | | | | | |];
  rewrite <- Eb in *;
  (assert (Hb : forall n, e_body e <> KLit n) by (intros n; rewrite Eb; discriminate); apply stored_build; [exact Hb|]; intros k s E;
   assert (K : exists k', nth_error (x ++ v :: y) k' = Some (Some s) /\ (k <= k')%nat) by
     (destruct (Nat.lt_ge_cases k (List.length x)) as [Hk|Hk];
       [exists k; rewrite nth_error_app1 in * by exact Hk; auto
       |exists (S k); rewrite nth_error_app2 in * by lia; replace (S k - List.length x)%nat with (S (k - List.length x)) by lia; auto]);
   destruct K as (k' & E' & Hk'); specialize (Hl k'); rewrite E' in Hl;
   destruct Hl as (v0 & v1 & N0 & _ & Dn);
   assert (Hs : exists w, nth_error (slots_reset (e_body e)) k = Some w)
     by (destruct (nth_error (slots_reset (e_body e)) k) as [w|] eqn:Ew; [eauto|]; apply nth_error_None in Ew;
         assert (k' < List.length (slots_reset (e_body e)))%nat by (apply nth_error_Some; congruence); lia);
   destruct Hs as (w & Hw); exists w, v1; split; [exact Hw|]; eapply denotes_slot; eauto).
Qed.

(** ** Two command lines that differ in one entry with options *)
Lemma shared_other tab os1 os2 pos runs k e : shared tab os1 pos runs -> nth_error tab k = Some e -> ~ no_options (e_hdr e) ->
  (forall i, i <> k -> given_to i os2 = given_to i os1) -> satisfied e (given_to k os2) -> shared tab os2 pos runs /\ nth_error runs k = Some [].
Proof.
  intros (S1 & S2 & S3) He Hno Ho Hsat.
  assert (Hr : nth_error runs k = Some []).
  { destruct (nth_error runs k) as [run|] eqn:Er; [|apply nth_error_None in Er; assert (k < List.length tab)%nat by (apply nth_error_Some; congruence); lia].
    destruct (S3 k e run He Er) as (U & _). destruct run; [reflexivity|]. destruct Hno. apply U. discriminate. }
  split; [|exact Hr]. split; [exact S1|]. split; [exact S2|]. intros i e0 run He0 Hrun. destruct (Nat.eq_dec i k) as [->|Hi]; [|rewrite Ho by exact Hi; exact (S3 i e0 run He0 Hrun)].
  rewrite He in He0. injection He0 as <-. rewrite Hr in Hrun. injection Hrun as <-. cbn [map]. rewrite app_nil_r.
  split; [congruence|]. split; [exact Hsat|]. intros H. destruct (Hno H).
Qed.
Lemma differ ints posix cap tab l1 l2 k e jo jc jp fuel1 argv1 h1 s1 en1 a1 fuel2 argv2 h2 s2 en2 a2 h1' s1' tab1 en1' :
  reached ints tab -> Forall (good_part (map e_hdr tab)) l1 -> Forall (good_part (map e_hdr tab)) l2 -> ordered posix l1 -> ordered posix l2 ->
  Forall (safe_value ints) (flat_map args l1) -> Forall (safe_value ints) (flat_map args l2) ->
  call cap tab en1 h1 argv1 a1 (flat_map args l1) fuel1 -> call cap tab en2 h2 argv2 a2 (flat_map args l2) fuel2 ->
  nth_error tab k = Some e -> ~ no_options (e_hdr e) -> words_of l2 = words_of l1 ->
  (forall i, i <> k -> given_to i (options_of l2) = given_to i (options_of l1)) ->
  (satisfied e (given_to k (options_of l1)) -> satisfied e (given_to k (options_of l2))) ->
  parse posix jo jc jp fuel1 (zlen (a1 :: flat_map args l1)) argv1 h1 s1 tab en1 = Ok (h1', s1', tab1, en1') -> end_count en1' = 0 ->
  exists h2' s2' tab2 en2', parse posix jo jc jp fuel2 (zlen (a2 :: flat_map args l2)) argv2 h2 s2 tab en2 = Ok (h2', s2', tab2, en2') /\ end_count en2' = 0 /\
  (forall i e0, nth_error tab i = Some e0 -> i <> k -> kcount (e_body e0) <> None ->
    exists e1 e2, nth_error tab1 i = Some e1 /\ nth_error tab2 i = Some e2 /\ kcount (e_body e1) = kcount (e_body e2) /\ slots (e_body e1) = slots (e_body e2)) /\
  (kcount (e_body e) <> None -> exists e2, nth_error tab2 k = Some e2 /\ kcount (e_body e2) = Some (zlen (given_to k (options_of l2))) /\
    stored (e_body e) (slots_reset (e_body e)) (given_to k (options_of l2)) (slots (e_body e2))).
Proof.
  intros Hre G1 G2 O1 O2 V1 V2 K1 K2 He Hno Ew Eo Hsat P1 Z1.
  pose proof (parts_spelled _ posix l1 (c_hdrs _ _ _ _ _ _ _ _ K1) G1 O1) as Sp1. pose proof (parts_spelled _ posix l2 (c_hdrs _ _ _ _ _ _ _ _ K2) G2 O2) as Sp2.
  destruct (proj1 (C59_accepted_iff strtod rexmatch sp Hd ints posix cap tab _ jo jc jp fuel1 argv1 h1 s1 en1 a1 Hre K1 V1)) as (os & pos & runs & Sp & Sh).
  { exists h1', s1', tab1, en1'. auto. }
  destruct (C59_read_one_way _ _ _ _ _ _ _ Sp Sp1) as [-> ->].
  assert (Hs1 : satisfied e (given_to k (options_of l1))).
  { destruct Sh as (S1 & S2 & S3). destruct (nth_error runs k) as [run|] eqn:Er; [|apply nth_error_None in Er; assert (k < List.length tab)%nat by (apply nth_error_Some; congruence); lia].
    destruct (S3 k e run He Er) as (U & Hq & _). destruct run; [cbn [map] in Hq; rewrite app_nil_r in Hq; exact Hq|]. destruct Hno. apply U. discriminate. }
  destruct (shared_other tab _ _ _ runs k e Sh He Hno Eo (Hsat Hs1)) as [Sh2 Hr]. rewrite <- Ew in Sh2.
  destruct (C59_accepted_values strtod rexmatch sp Hd ints posix cap tab _ jo jc jp fuel1 argv1 h1 s1 en1 a1 _ _ _ Hre K1 V1 Sp1 Sh) as (x1 & x2 & x3 & x4 & P1' & _ & F1).
  rewrite P1 in P1'. injection P1' as <- <- <- <-.
  destruct (C59_accepted_values strtod rexmatch sp Hd ints posix cap tab _ jo jc jp fuel2 argv2 h2 s2 en2 a2 _ _ _ Hre K2 V2 Sp2 Sh2) as (h2' & s2' & tab2 & en2' & P2 & Z2 & F2).
  exists h2', s2', tab2, en2'. split; [exact P2|]. split; [exact Z2|]. split.
  - intros i e0 Hi Hne Hk. destruct (nth_error runs i) as [run|] eqn:Er; [|apply nth_error_None in Er; destruct Sh as (_ & W2 & _); assert (i < List.length tab)%nat by (apply nth_error_Some; congruence); lia].
    destruct (F1 i e0 run Hi Er) as (e1 & A1 & _ & B1). destruct (B1 Hk) as [C1 D1]. destruct (F2 i e0 run Hi Er) as (e2 & A2 & _ & B2). destruct (B2 Hk) as [C2 D2].
    rewrite (Eo i Hne) in C2, D2. exists e1, e2. rewrite C1, C2. split; [exact A1|]. split; [exact A2|]. split; [reflexivity|]. eapply (stored_det strtod rexmatch sp ints); eauto.
    + destruct (spelled_ok strtod rexmatch sp Hd ints posix tab _ _ _ Sp1 V1) as [So Sw]. intros x Hx. apply in_app_iff in Hx as [Hx|Hx].
      * unfold given_to in Hx. apply in_flat_map in Hx as ([j w] & Hj & Hw). cbn in Hw. destruct (Nat.eqb j i); [|destruct Hw]. destruct Hw as [->|[]]. rewrite Forall_forall in So. apply (So _ Hj). reflexivity.
      * apply in_map_iff in Hx as (y & Ey & Hy). injection Ey as ->. rewrite Forall_forall in Sw. apply Sw. destruct Sh as (-> & _). apply in_concat. exists run. split; auto. eapply nth_error_In; eauto.
    + pose proof (reached_ready strtod rexmatch lm sp Hd _ _ Hre) as Y. rewrite Forall_forall in Y. apply (Y e0 (nth_error_In _ _ Hi)).
  - intros Hk. destruct (F2 k e [] He Hr) as (e2 & A2 & _ & B2). destruct (B2 Hk) as [C2 D2]. cbn [map] in C2, D2. rewrite app_nil_r in C2, D2. eauto.
Qed.
Lemma good_mid t a k v g b : Forall (good_part t) (a ++ Opt k v g :: b) -> Forall (good_part t) (a ++ b) /\ exists h, nth_error t k = Some h /\ ~ no_options h.
Proof.
  intros H. apply Forall_app in H as [H1 H2]. apply Forall_cons_iff in H2 as [(h & tag & Hu & _) H3]. split; [apply Forall_app; auto|]. exists h. split; [apply Hu|]. eapply usable_options; eauto.
Qed.
Lemma ordered_mid posix a k v g b : ordered posix (a ++ Opt k v g :: b) -> ordered posix (a ++ b).
Proof.
  intros H Hp x s y E. apply app_eq_app in E as (z & [[-> E]|[-> E]]).
  - destruct z as [|q z]; cbn in E.
    + apply (H Hp (x ++ [Opt k v g]) s y). rewrite app_nil_r, <- app_assoc. cbn. congruence.
    + injection E as <- ->. specialize (H Hp x s (z ++ Opt k v g :: b)). rewrite <- app_assoc in H. cbn in H. specialize (H eq_refl).
      apply Forall_app in H as [H1 H2]. inversion H2; subst. apply Forall_app. auto.
  - apply (H Hp (a ++ Opt k v g :: z) s y). rewrite <- app_assoc. cbn. congruence.
Qed.

(** An occurrence of an option can be left out if the entry does not need it. The entry then has the other values, and all other
    entries have what they had before. (The values of a date entry move to other slots, so there: the last occurrence.) *)
Theorem C96_left_out :
  forall ints posix cap tab a k v g b e jo jc jp fuel1 argv1 h1 s1 en1 a1 fuel2 argv2 h2 s2 en2 a2 h1' s1' tab1 en1',
  let l1 := a ++ Opt k v g :: b in let l2 := a ++ b in
  reached ints tab -> Forall (good_part (map e_hdr tab)) l1 -> ordered posix l1 -> Forall (safe_value ints) (flat_map args l1) ->
  call cap tab en1 h1 argv1 a1 (flat_map args l1) fuel1 -> call cap tab en2 h2 argv2 a2 (flat_map args l2) fuel2 ->
  nth_error tab k = Some e -> h_mincount (e_hdr e) < zlen (given_to k (options_of l1)) ->
  (forall p, e_body e <> KDate p) \/ given_to k (options_of b) = [] ->
  parse posix jo jc jp fuel1 (zlen (a1 :: flat_map args l1)) argv1 h1 s1 tab en1 = Ok (h1', s1', tab1, en1') -> end_count en1' = 0 ->
  exists h2' s2' tab2 en2', parse posix jo jc jp fuel2 (zlen (a2 :: flat_map args l2)) argv2 h2 s2 tab en2 = Ok (h2', s2', tab2, en2') /\ end_count en2' = 0 /\
  (forall i e0, nth_error tab i = Some e0 -> i <> k -> kcount (e_body e0) <> None ->
    exists e1 e2, nth_error tab1 i = Some e1 /\ nth_error tab2 i = Some e2 /\ kcount (e_body e1) = kcount (e_body e2) /\ slots (e_body e1) = slots (e_body e2)) /\
  (kcount (e_body e) <> None -> exists e2, nth_error tab2 k = Some e2 /\
    kcount (e_body e2) = Some (zlen (given_to k (options_of a) ++ given_to k (options_of b))) /\
    stored (e_body e) (slots_reset (e_body e)) (given_to k (options_of a) ++ given_to k (options_of b)) (slots (e_body e2))).
Proof.
  intros ints posix cap tab a k v g b e jo jc jp fuel1 argv1 h1 s1 en1 a1 fuel2 argv2 h2 s2 en2 a2 h1' s1' tab1 en1' l1 l2 Hre G O V K1 K2 He Hmin Hda P1 Z1.
  destruct (good_mid _ _ _ _ _ _ G) as (G2 & h & Hh & Hno). rewrite nth_error_map, He in Hh. injection Hh as <-.
  assert (V2 : Forall (safe_value ints) (flat_map args l2)).
  { unfold l1, l2 in *. rewrite flat_map_app in *. cbn [flat_map] in V. apply Forall_app in V as [Va Vb]. apply Forall_app in Vb as [_ Vb]. apply Forall_app. auto. }
  assert (Eg : given_to k (options_of l2) = given_to k (options_of a) ++ given_to k (options_of b)) by (unfold l2; rewrite options_of_app; apply given_to_app).
  rewrite <- Eg.
  apply (differ ints posix cap tab l1 l2 k e jo jc jp fuel1 argv1 h1 s1 en1 a1 fuel2 argv2 h2 s2 en2 a2 h1' s1' tab1 en1'); auto.
  - exact (ordered_mid _ _ _ _ _ _ O).
  - unfold l1, l2. rewrite !words_of_app. reflexivity.
  - intros i Hi. symmetry. apply given_there. exact Hi.
  - intros Hs Hk. destruct (Hs Hk) as [Hz Ha]. unfold l1 in Hmin, Hz, Ha. rewrite given_here in Hmin, Hz, Ha. rewrite Eg. rewrite zlen_app, zlen_cons in *. split; [lia|].
    destruct Hda as [Hda|Hlast]; [eapply acceptable_without; eauto|]. rewrite Hlast in *. rewrite app_nil_r.
    pose proof (reached_ready strtod rexmatch lm sp Hd _ _ Hre) as Y. rewrite Forall_forall in Y. pose proof (Y e (nth_error_In _ _ He)) as Hinv.
    eapply (acceptable_prefix strtod rexmatch sp Hd ints e _ [v]); eauto; [|rewrite zlen_app, zlen_cons; lia].
    intros s Hin. destruct (spelled_ok strtod rexmatch sp Hd ints posix tab _ _ _ (parts_spelled _ posix l1 (c_hdrs _ _ _ _ _ _ _ _ K1) G O) V) as [So _].
    rewrite <- Hlast in Hin. change (In (Some s) (given_to k (options_of a) ++ v :: given_to k (options_of b))) in Hin. rewrite <- (given_here k v a b g) in Hin.
    unfold given_to in Hin. apply in_flat_map in Hin as ([j w] & Hj & Hw). cbn in Hw. destruct (Nat.eqb j k); [|destruct Hw]. destruct Hw as [->|[]]. rewrite Forall_forall in So. apply (So _ Hj). reflexivity.
Qed.
(** One more can be given, anywhere among the others, if the entry takes another one and its values stay good. *)
Theorem C96_added :
  forall ints posix cap tab a k v g b e jo jc jp fuel1 argv1 h1 s1 en1 a1 fuel2 argv2 h2 s2 en2 a2 h1' s1' tab1 en1',
  let l1 := a ++ b in let l2 := a ++ Opt k v g :: b in
  let given := given_to k (options_of a) ++ v :: given_to k (options_of b) in
  reached ints tab -> Forall (good_part (map e_hdr tab)) l2 -> ordered posix l2 -> Forall (safe_value ints) (flat_map args l2) ->
  call cap tab en1 h1 argv1 a1 (flat_map args l1) fuel1 -> call cap tab en2 h2 argv2 a2 (flat_map args l2) fuel2 ->
  nth_error tab k = Some e -> (kcount (e_body e) <> None -> zlen given <= h_maxcount (e_hdr e) /\ acceptable e given) ->
  parse posix jo jc jp fuel1 (zlen (a1 :: flat_map args l1)) argv1 h1 s1 tab en1 = Ok (h1', s1', tab1, en1') -> end_count en1' = 0 ->
  exists h2' s2' tab2 en2', parse posix jo jc jp fuel2 (zlen (a2 :: flat_map args l2)) argv2 h2 s2 tab en2 = Ok (h2', s2', tab2, en2') /\ end_count en2' = 0 /\
  (forall i e0, nth_error tab i = Some e0 -> i <> k -> kcount (e_body e0) <> None ->
    exists e1 e2, nth_error tab1 i = Some e1 /\ nth_error tab2 i = Some e2 /\ kcount (e_body e1) = kcount (e_body e2) /\ slots (e_body e1) = slots (e_body e2)) /\
  (kcount (e_body e) <> None -> exists e2, nth_error tab2 k = Some e2 /\
    kcount (e_body e2) = Some (zlen given) /\ stored (e_body e) (slots_reset (e_body e)) given (slots (e_body e2))).
Proof.
  intros ints posix cap tab a k v g b e jo jc jp fuel1 argv1 h1 s1 en1 a1 fuel2 argv2 h2 s2 en2 a2 h1' s1' tab1 en1' l1 l2 given Hre G O V K1 K2 He Hacc P1 Z1.
  destruct (good_mid _ _ _ _ _ _ G) as (G2 & h & Hh & Hno). rewrite nth_error_map, He in Hh. injection Hh as <-.
  assert (V1 : Forall (safe_value ints) (flat_map args l1)).
  { unfold l1, l2 in *. rewrite flat_map_app in *. cbn [flat_map] in V. apply Forall_app in V as [Va Vb]. apply Forall_app in Vb as [_ Vb]. apply Forall_app. auto. }
  assert (Eg : given_to k (options_of l2) = given) by apply given_here. rewrite <- Eg.
  apply (differ ints posix cap tab l1 l2 k e jo jc jp fuel1 argv1 h1 s1 en1 a1 fuel2 argv2 h2 s2 en2 a2 h1' s1' tab1 en1'); auto.
  - exact (ordered_mid _ _ _ _ _ _ O).
  - unfold l1, l2. rewrite !words_of_app. reflexivity.
  - intros i Hi. apply given_there. exact Hi.
  - intros Hs Hk. destruct (Hs Hk) as [Hz _]. destruct (Hacc Hk) as [Hm Ha]. rewrite Eg. split; [|exact Ha]. split; [|exact Hm].
    unfold given. unfold l1 in Hz. rewrite options_of_app, given_to_app in Hz. rewrite zlen_app, zlen_cons in *. lia.
Qed.
End Leave.

(** ** A word cannot be left out *)
From Verif Require ExTable.
Local Open Scope string_scope.
Local Open Scope list_scope.
Local Open Scope Z_scope.
(** " <a> [<b>]": if the first of two words is left out, the second becomes the value of another entry, and no error is reported. *)
Definition two_words : list (entry (body Z)) := [arg_strn None None (o "<a>") 1 1 None; arg_strn None None (o "<b>") 0 1 None].
Theorem C96_word_refuted : exists tab, reached ExTable.strtod ExTable.rexmatch Long64 unix_seps true tab /\ Forall good_hdr (map e_hdr tab) /\
  (exists h' s' e1 e2 en', run tab ["x"; "y"] = Ok (h', s', [e1; e2], en') /\ end_count en' = 0 /\ slots (e_body e1) = [VText (lit "x")] /\ slots (e_body e2) = [VText (lit "y")] /\ kcount (e_body e2) = Some 1) /\
  (exists h' s' e1 e2 en', run tab ["y"] = Ok (h', s', [e1; e2], en') /\ end_count en' = 0 /\ slots (e_body e1) = [VText (lit "y")] /\ kcount (e_body e2) = Some 0).
Proof.
  exists two_words. split; [apply reached_new; repeat constructor; cbn; try discriminate; auto; try lia|].
  split; [apply ExTable.good_hdrs_ok; reflexivity|].
  split; do 5 eexists; (split; [vm_compute; reflexivity|]); repeat split; reflexivity.
Qed.

(** ** Examples *)
(** --version left out at the front of the line of C93, and put back. *)
Definition ex_rest : list part := tl ex_parts.
Definition ex_line_rest : list string := tl ex_line.
Lemma ex_front : ex_parts = [] ++ Opt 0 None [lit "--version"] :: ex_rest /\ flat_map args ([] ++ ex_rest) = map lit ex_line_rest.
Proof. split; reflexivity. Qed.
Example C96_case_left_out :
  reached ExTable.strtod ExTable.rexmatch Long64 unix_seps true ExTable.tab /\ Forall (good_part ExTable.hdrs) ex_parts /\ ordered false ex_parts /\
  Forall (safe_value Long64 true) (map lit ex_line) /\ h_mincount (eh 0%nat) < zlen (given_to 0 (options_of ex_parts)) /\
  (exists h1 s1 tab1 en1, run ExTable.tab ex_line = Ok (h1, s1, tab1, en1) /\ end_count en1 = 0 /\ exists e, nth_error tab1 0 = Some e /\ kcount (e_body e) = Some 2) /\
  match run ExTable.tab ex_line_rest with
  | Ok (_, _, tab2, en2) => end_count en2 = 0 /\ map (fun e => kcount (e_body e)) tab2 = [Some 1; Some 1; Some 1; Some 2]
  | _ => False
  end.
Proof.
  split; [exact ex_reached|]. split; [exact (proj1 ex_good)|]. split; [discriminate|]. split; [apply safe_values; vm_compute; reflexivity|].
  split; [reflexivity|]. split; [exact C93_case|]. vm_compute. split; reflexivity.
Qed.
(** For the other direction: two switches are acceptable. *)
Example C96_case_added : let given := given_to 0 (options_of []) ++ None :: given_to 0 (options_of ex_rest) in
  zlen given <= h_maxcount (eh 0%nat) /\ CommandSpec.acceptable ExTable.strtod ExTable.rexmatch Long64 unix_seps (nth 0 ExTable.tab (arg_litn None None 0 0 None)) given.
Proof. split; [discriminate|]. eexists. split; [reflexivity|]. intros [|[|[|k]]]; reflexivity. Qed.

Print Assumptions C96_left_out.
Print Assumptions C96_added.
Print Assumptions C96_word_refuted.
