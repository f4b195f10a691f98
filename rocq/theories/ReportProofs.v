(** The report of ReportSpec.v is what a parse gives. *)
From Verif Require Import Base IntModel IntSpec IntProofs FileModel FileSpec DateModel DateSpec DateProofs GetoptModel ParseModel ParseSpec GetoptProofs ParseIdeal ParseProofs ParseFacts ParseObserve ParseSafe ParseLemmas ArgModel KindsSpec KindsProofs PropFile CommandSpec CommandProofs ReportSpec.
From Coq Require Import ZArith List Ascii String Bool Lia.
Import ListNotations.
Open Scope Z_scope.

(** * Reading *)
Section Reading.
Context (t : list hdr).

Definition after (used : bool) (rest : list str) : list str := if used then tl rest else rest.
Lemma long_reading_of a body rest evs used : read_long t a body (hd_error rest) = (evs, used) -> long_reading t a body rest evs (after used rest).
Proof.
  unfold read_long. intros H. destruct (split_name body) as [(H1 & H2 & H3)|(nm & v & E & H1 & H2 & H3)]; rewrite H2, H3 in H.
  - destruct (long_find t body) as [[i h]|] eqn:Ef.
    + apply long_find_iff in Ef. destruct (long_takes h) eqn:Et.
      * injection H as <- <-. eapply lr_bare; eauto; congruence.
      * destruct rest as [|v rest]; cbn [hd_error] in H.
        -- injection H as <- <-. eapply lr_missing; eauto.
        -- injection H as <- <-. cbn [after tl]. unfold long_occurrence. rewrite (long_takes_req_hasvalue h Et).
           destruct v; [eapply lr_next_empty; eauto|eapply lr_next; eauto; discriminate].
      * injection H as <- <-. eapply lr_bare; eauto; congruence.
    + injection H as <- <-. rewrite <- (app_nil_r body). apply lr_unknown; auto. intros i h Hs. apply long_find_iff in Hs. congruence.
  - subst body. destruct (long_find t nm) as [[i h]|] eqn:Ef.
    + apply long_find_iff in Ef. destruct (long_takes h) eqn:Et.
      * injection H as <- <-. eapply lr_unwanted; eauto.
      * injection H as <- <-. cbn [after]. unfold long_occurrence. rewrite (long_takes_req_hasvalue h Et).
        destruct v; [eapply lr_equals_empty; eauto; [congruence|apply (long_takes_req_hasvalue h Et)]|eapply lr_equals; eauto; congruence].
      * injection H as <- <-. cbn [after]. unfold long_occurrence. destruct v; [|eapply lr_equals; eauto; congruence].
        destruct (h_hasvalue h) eqn:Eh; [eapply lr_equals_empty; eauto; congruence|eapply lr_equals; eauto; congruence].
    + injection H as <- <-. apply lr_unknown; auto. intros i h Hs. apply long_find_iff in Hs. congruence.
Qed.
Lemma of_long_reading a body rest evs rest' : long_reading t a body rest evs rest' ->
  exists used, read_long t a body (hd_error rest) = (evs, used) /\ rest' = after used rest.
Proof.
  unfold read_long.
  intros [nm i h r He Hs Ht|nm v i h r He Hs Ht Hv|nm i h r He Hs Ht Hv|nm v i h r He Hs Ht Hv|nm i h r He Hs Ht|nm i h He Hs Ht|nm w r He Hs Hw|nm v i h r He Hs Ht].
  - destruct (name_part_plain nm He) as [-> ->]. apply long_find_iff in Hs. rewrite Hs. exists false. split; auto. destruct (long_takes h); auto. contradiction.
  - destruct (name_part_eq nm v He) as [-> ->]. apply long_find_iff in Hs. rewrite Hs. exists false. split; auto.
    assert (Ho : long_occurrence i h (Some v) a = [EvScan i (Some v)]) by (unfold long_occurrence; destruct v; auto; destruct (h_hasvalue h); auto; exfalso; apply Hv; auto).
    destruct (long_takes h); try contradiction; f_equal; exact Ho.
  - destruct (name_part_eq nm [] He) as [E1 E2]. change (nm ++ lit "=") with (nm ++ ["="%char]). rewrite E1, E2. apply long_find_iff in Hs. rewrite Hs. exists false. split; auto.
    unfold long_occurrence. rewrite Hv. destruct (long_takes h); auto. contradiction.
  - destruct (name_part_plain nm He) as [-> ->]. apply long_find_iff in Hs. rewrite Hs, Ht. exists true. split; auto. cbn [hd_error]. unfold long_occurrence. destruct v; auto. contradiction.
  - destruct (name_part_plain nm He) as [-> ->]. apply long_find_iff in Hs. rewrite Hs, Ht. exists true. split; auto. cbn [hd_error]. unfold long_occurrence. rewrite (long_takes_req_hasvalue h Ht). auto.
  - destruct (name_part_plain nm He) as [-> ->]. apply long_find_iff in Hs. rewrite Hs, Ht. exists false. split; auto.
  - assert (name_part (nm ++ w) = nm) as ->.
    { destruct Hw as [->|Hw]; [rewrite app_nil_r; apply name_part_plain; auto|]. destruct w as [|c w]; [discriminate|]. injection Hw as ->. apply name_part_eq; auto. }
    rewrite (long_find_none t nm Hs). exists false. auto.
  - destruct (name_part_eq nm v He) as [-> ->]. apply long_find_iff in Hs. rewrite Hs, Ht. exists false. auto.
Qed.

Lemma undeclared c : (forall h so, In h t -> h_shortopts h = Some so -> ~ In c so) <-> short_find t 0 c = None.
Proof.
  rewrite short_find_none. unfold declares, mem. split.
  - intros H h Hi. destruct (h_shortopts h) as [so|] eqn:E; auto. destruct (existsb (ceqb c) so) eqn:Ex; auto.
    apply existsb_exists in Ex as (x & Hx & Ec). apply ceqb_eq in Ec. subst x. exfalso. eapply H; eauto.
  - intros H h so Hi E Hc. specialize (H h Hi). rewrite E in H. assert (existsb (ceqb c) so = true); [|congruence].
    apply existsb_exists. exists c. split; auto. apply ceqb_eq. auto.
Qed.
Lemma cluster_reading_of a rest : forall cs evs used, read_cluster t a cs (hd_error rest) = (evs, Some used) -> cluster_reading t a cs rest evs (after used rest).
Proof.
  induction cs as [|c cs IH]; intros evs used H; cbn [read_cluster] in H.
  - injection H as <- <-. constructor.
  - destruct (ceqb c "-") eqn:E.
    + apply ceqb_eq in E. subst c. destruct cs as [|d cs]; [discriminate|]. destruct (read_long t a (d :: cs) (hd_error rest)) as [ev u] eqn:El. injection H as <- <-.
      apply cr_long; [discriminate|]. apply long_reading_of; auto.
    + apply ceqb_neq in E. destruct (short_find t 0 c) as [[i h]|] eqn:Ef.
      * apply short_find_iff in Ef. destruct (short_takes h) eqn:Et.
        -- destruct (read_cluster t a cs (hd_error rest)) as [ev r] eqn:Er. injection H as <- ->. eapply cr_switch; eauto.
        -- destruct cs as [|d cs].
           ++ destruct rest as [|v rest]; cbn [hd_error] in H; injection H as <- <-; [eapply cr_missing; eauto|eapply cr_next; eauto].
           ++ injection H as <- <-. eapply cr_attached; eauto; congruence.
        -- injection H as <- <-. destruct cs; [eapply cr_bare; eauto|eapply cr_attached; eauto; congruence].
      * destruct (read_cluster t a cs (hd_error rest)) as [ev r] eqn:Er. injection H as <- ->. apply cr_unknown; auto. apply undeclared; auto.
Qed.
Lemma of_cluster_reading a cs rest evs rest' : cluster_reading t a cs rest evs rest' ->
  exists used, read_cluster t a cs (hd_error rest) = (evs, Some used) /\ rest' = after used rest.
Proof.
  assert (Hne : forall c, c <> "-"%char -> ceqb c "-" = false) by (intros c H; destruct (ceqb c "-") eqn:E; auto; apply ceqb_eq in E; contradiction).
  induction 1 as [rest|c cs i h rest evs rest' Hc Hf Ht H IH|c cs rest evs rest' Hc Hf H IH|c i h rest Hc Hf Ht|c v i h rest Hc Hf Ht Hv|c v i h rest Hc Hf Ht|c i h Hc Hf Ht|body rest evs rest' Hb H]; cbn [read_cluster].
  - exists false. auto.
  - rewrite (Hne c Hc). apply short_find_iff in Hf. rewrite Hf, Ht. destruct IH as (used & -> & ->). eauto.
  - rewrite (Hne c Hc). apply undeclared in Hf. rewrite Hf. destruct IH as (used & -> & ->). eauto.
  - rewrite (Hne c Hc). apply short_find_iff in Hf. rewrite Hf, Ht. exists false. auto.
  - rewrite (Hne c Hc). apply short_find_iff in Hf. rewrite Hf. exists false. split; auto. destruct (short_takes h); try contradiction; destruct v; auto; contradiction.
  - rewrite (Hne c Hc). apply short_find_iff in Hf. rewrite Hf, Ht. exists true. auto.
  - rewrite (Hne c Hc). apply short_find_iff in Hf. rewrite Hf, Ht. exists false. auto.
  - cbn. destruct body; [contradiction|]. apply of_long_reading in H as (used & -> & ->). exists used. auto.
Qed.

Lemma reading_read posix args evs pos : reading t posix args evs pos -> read_args posix t args = (evs, Finished pos).
Proof.
  induction 1 as [|rest|a rest Hp Hw|a rest evs pos Hp Hw H IH|cs rest evs rest' evs' pos Hn Hd Hc H IH]; cbn [read_args].
  - reflexivity.
  - reflexivity.
  - apply word_iff in Hw. rewrite Hw, Hp. reflexivity.
  - apply word_iff in Hw. rewrite Hw, IH, Hp. reflexivity.
  - assert (is_positional ("-"%char :: cs) = false) as -> by (destruct cs; [contradiction|reflexivity]).
    rewrite str_eqb_neq by (intros [= ->]; apply Hd; reflexivity). cbn [tl].
    apply of_cluster_reading in Hc as (used & -> & ->). destruct used; cbn [after] in IH.
    + destruct rest as [|w rest]; cbn [tl] in IH; [cbn in IH; injection IH as <- <-; rewrite app_nil_r; reflexivity|rewrite IH; reflexivity].
    + rewrite IH. reflexivity.
Qed.
Lemma read_reading posix : forall n args evs pos, (List.length args <= n)%nat -> read_args posix t args = (evs, Finished pos) -> reading t posix args evs pos.
Proof.
  induction n as [|n IH]; intros args evs pos Hl H.
  { destruct args; [|cbn in Hl; lia]. cbn in H. injection H as <- <-. constructor. }
  destruct args as [|a rest]; cbn [read_args] in H.
  { injection H as <- <-. constructor. }
  cbn in Hl. destruct (is_positional a) eqn:Ep.
  { apply word_iff in Ep. destruct posix eqn:Ex.
    - injection H as <- <-. apply rd_posix; auto.
    - unfold add_positional in H. destruct (read_args false t rest) as [ev [p|]] eqn:Er; [|discriminate]. cbn in H. injection H as <- <-.
      apply rd_word; auto. apply IH; auto. lia. }
  destruct (str_eqb a (lit "--")) eqn:Ed.
  { apply str_eqb_eq in Ed. subst a. injection H as <- <-. apply rd_dashes. }
  assert (Hd : a <> lit "--") by (intros ->; rewrite (proj2 (str_eqb_eq _ _) eq_refl) in Ed; discriminate).
  destruct (is_positional_false a Ep) as (c & r & ->). cbn [tl] in H.
  destruct (read_cluster t ("-"%char :: c :: r) (c :: r) (hd_error rest)) as [ev [used|]] eqn:Ec; [|discriminate].
  apply cluster_reading_of in Ec.
  assert (Hx : exists evs2, evs = ev ++ evs2 /\ reading t posix (after used rest) evs2 pos).
  { destruct used; cbn [after].
    - destruct rest as [|w rest]; cbn [tl].
      + injection H as <- <-. exists []. split; [rewrite app_nil_r; auto|constructor].
      + unfold prepend in H. destruct (read_args posix t rest) as [ev2 o] eqn:Er. cbn in H. injection H as <- ->. exists ev2. split; auto. apply IH; auto. cbn in Hl. lia.
    - unfold prepend in H. destruct (read_args posix t rest) as [ev2 o] eqn:Er. cbn in H. injection H as <- ->. exists ev2. split; auto. apply IH; auto. lia. }
  destruct Hx as (evs2 & -> & Hr). apply (rd_option t posix (c :: r) rest ev (after used rest) evs2 pos); auto; [discriminate|].
  intros E. apply Hd. injection E as -> ->. reflexivity.
Qed.
Lemma reading_iff posix args evs pos : reading t posix args evs pos <-> read_args posix t args = (evs, Finished pos).
Proof. split; [apply reading_read|apply (read_reading posix (List.length args)); auto]. Qed.
End Reading.

(** * Entries *)
Section Kinds.
Context {D : Type}.
Context (strtod : str -> D * nat).
Context (rexmatch : str -> Z -> str -> res bool).
Context (sp : seps).
Hypothesis strtod_ok : forall s, (snd (strtod s) <= List.length s)%nat.
Notation lm := Long64.
Notation scan := (kscan strtod rexmatch lm sp).
Notation safe_value := (safe_value lm).
Notation Inv := (Inv rexmatch).
Notation denotes := (denotes strtod rexmatch lm sp).
Notation stored := (stored strtod rexmatch lm sp).
Notation takes_all := (takes_all scan).
Notation acceptable := (acceptable strtod rexmatch lm sp).
Notation fits := (fits strtod rexmatch lm sp).
Notation refused := (refused strtod rexmatch lm sp).
Notation kept := (kept strtod rexmatch lm sp).

(** Why a value is refused. *)
Lemma scan_refuse ints h (b : body D) f v b' c n : Inv ints h b -> scan h b = Some f -> f v = Ok (b', c) -> c <> 0 -> kcount b = Some n ->
  (n = h_maxcount h /\ c = ARG_ERR_MAXCOUNT) \/ (n < h_maxcount h /\ exists s, v = Some s /\ wrong {| e_hdr := h; e_body := b |} s c).
Proof.
  intros (Hb & Hm & Hi) Hs Hf Hc Hk. unfold wrong. cbn [e_body]. destruct b as [k|p|p|p|p|p|p|]; cbn [kscan bounded matchable is_int kcount] in *; try discriminate; injection Hs as <-; injection Hk as <-.
  - unfold arg_lit_scanfn in Hf. destruct (Z.ltb_spec k (h_maxcount h)); injection Hf as <- <-; [contradiction|]. left. split; [lia|auto].
  - unfold arg_int_scanfn in Hf. destruct (Z.eqb_spec (int_count p) (h_maxcount h)); [injection Hf as <- <-; auto|]. right. split; [lia|].
    destruct v as [s|]; [|injection Hf as <- <-; contradiction]. exists s. split; auto.
    pose proof (int_convert_sound s) as H. destruct (int_convert lm s) as [[x|x]| |]; cbn [bind lift] in Hf; try discriminate.
    + rewrite aset_ok' in Hf by lia. injection Hf as <- <-. contradiction.
    + injection Hf as <- <-. exact H.
  - unfold arg_dbl_scanfn in Hf. destruct (Z.eqb_spec (dbl_count p) (h_maxcount h)); [injection Hf as <- <-; auto|]. right. split; [lia|].
    destruct v as [s|]; [|injection Hf as <- <-; contradiction]. exists s. split; auto.
    destruct (strtod s) as [val n0]. destruct (Nat.ltb_spec (List.length s) n0); [discriminate|]. destruct (skipn n0 s); [|injection Hf as <- <-; auto].
    rewrite aset_ok' in Hf by lia. injection Hf as <- <-. contradiction.
  - unfold arg_str_scanfn in Hf. destruct (Z.eqb_spec (str_count p) (h_maxcount h)); [injection Hf as <- <-; auto|].
    destruct v as [s|]; [|injection Hf as <- <-; contradiction]. rewrite aset_ok' in Hf by lia. injection Hf as <- <-. contradiction.
  - pose proof (C20_file_scan sp (h_maxcount h) p) as H20. unfold arg_file_scanfn in Hf, H20. destruct (Z.eqb_spec (file_count p) (h_maxcount h)); [injection Hf as <- <-; auto|].
    destruct v as [s|]; [|injection Hf as <- <-; contradiction].
    destruct (H20 s) as (bn & ex & _ & _ & _ & _ & _ & _ & E); try tauto; [lia|]. rewrite E in Hf. injection Hf as <- <-. contradiction.
  - unfold arg_date_scanfn in Hf. destruct (Z.eqb_spec (date_count p) (h_maxcount h)); [injection Hf as <- <-; auto|]. right. split; [lia|].
    destruct v as [s|]; [|injection Hf as <- <-; contradiction]. exists s. split; auto.
    destruct (aget_ok (date_tmval p) (date_count p)) as (t & Et & En); [lia|]. rewrite Et in Hf. cbn [bind] in Hf.
    destruct (arg_strptime s (date_format p) t) as [[t' [[|x r]|]]| |]; cbn [bind lift] in Hf; try discriminate; try (injection Hf as <- <-; auto; fail).
    rewrite aset_ok' in Hf by lia. injection Hf as <- <-. contradiction.
  - unfold arg_rex_scanfn in Hf. destruct (Z.eqb_spec (rex_count p) (h_maxcount h)); [injection Hf as <- <-; auto|]. right. split; [lia|].
    destruct v as [s|]; [|injection Hf as <- <-; contradiction]. exists s. split; auto.
    destruct (rexmatch (rex_pattern p) (rex_flags p) s) as [[|]| |]; cbn [bind lift] in Hf; try discriminate; try (injection Hf as <- <-; auto; fail).
    rewrite aset_ok' in Hf by lia. injection Hf as <- <-. contradiction.
Qed.

Section Entry.
Context (ints : bool) (e : entry (body D)) (b0 : body D).
Hypothesis He : Inv ints (e_hdr e) (e_body e).
Hypothesis Hc : counting e.
Hypothesis Hr : kreset (e_hdr e) (e_body e) = Ok b0.
Notation safe_list ws := (forall s, In (Some s) ws -> safe_value ints s).

Lemma start : Inv ints (e_hdr e) b0 /\ kcount b0 = Some 0 /\ same_kind (e_body e) b0 /\ slots b0 = slots_reset (e_body e).
Proof.
  destruct (reset_inv rexmatch ints _ _ He) as (b0' & E & Hb0 & _ & H0). rewrite Hr in E. injection E as <-.
  destruct (reset_slots rexmatch ints _ _ _ He Hr) as [Hs Hk]. auto.
Qed.
Lemma wrong_kind (b : body D) s c : same_kind (e_body e) b -> wrong {| e_hdr := e_hdr e; e_body := b |} s c -> wrong e s c.
Proof. unfold wrong. cbn [e_body]. destruct (e_body e), b; cbn; tauto. Qed.
Lemma held_facts ws b : safe_list ws -> takes_all (e_hdr e) b0 ws b ->
  Inv ints (e_hdr e) b /\ same_kind (e_body e) b /\ kcount b = Some (zlen ws) /\ zlen ws <= h_maxcount (e_hdr e) /\ acceptable e ws /\
  stored (e_body e) (slots_reset (e_body e)) ws (slots b).
Proof.
  intros Hw Ht. destruct start as (Hb0 & H0 & Hk & Hs).
  destruct (takes_stored strtod rexmatch lm sp strtod_ok ints _ _ _ _ Ht 0 Hb0 Hw H0) as (I1 & I2 & I3 & I4 & I5 & I6). cbn in I3.
  destruct (proj1 (entry_takes strtod rexmatch sp strtod_ok ints e b0 ws He Hc Hr Hw) (ex_intro _ b Ht)) as [Hz Ha].
  split; auto. split. { destruct (e_body e), b0, b; cbn in Hk, I2 |- *; try contradiction; auto; intuition congruence. }
  split; auto. split; auto. split; auto.
  unfold KindsSpec.stored. rewrite Hs in *. split; [destruct (e_body e), b0; cbn in Hk; try contradiction; auto|].
  intros k. specialize (I6 k). cbn [Z.to_nat Nat.add] in I6. destruct (nth_error ws k) as [[s|]|]; auto.
  destruct (e_body e), b0; cbn in Hk; try contradiction; auto; destruct I6 as (v0 & x & E1 & E2 & E3); exists v0, x; (split; [exact E1|]); (split; [exact E2|]); eapply denotes_kind; eauto; cbn; auto; intuition congruence.
Qed.
Lemma step ws b f v : safe_list ws -> (forall s, v = Some s -> safe_value ints s) -> takes_all (e_hdr e) b0 ws b -> scan (e_hdr e) b = Some f ->
  exists b' c, f v = Ok (b', c) /\ ((c = 0 /\ fits e ws v /\ takes_all (e_hdr e) b0 (ws ++ [v]) b') \/ (c <> 0 /\ b' = b /\ refused e ws v c)).
Proof.
  intros Hw Hv Ht Es. destruct (held_facts ws b Hw Ht) as (Hb & Hk & Hn & Hz & Ha & _).
  destruct (scan_inv strtod rexmatch lm sp strtod_ok ints _ _ f v Hb Hv Es) as (b' & c & Hf & Hb' & Hor). exists b', c. split; auto.
  assert (Hwv : safe_list (ws ++ [v])) by (intros s Hi; apply in_app_iff in Hi as [Hi|[Hi|[]]]; auto).
  pose proof (entry_takes strtod rexmatch sp strtod_ok ints e b0 (ws ++ [v]) He Hc Hr Hwv) as Hit.
  assert (Hlen : zlen (ws ++ [v]) = zlen ws + 1) by (rewrite zlen_app; reflexivity).
  destruct Hor as [(-> & _)|[Hne ->]].
  - left. split; auto. assert (Ht' : takes_all (e_hdr e) b0 (ws ++ [v]) b') by (eapply takes_app; [exact Ht|]; eapply takes_cons; eauto; constructor).
    split; auto. destruct (proj1 Hit) as [H1 H2]; [eauto|]. split; [lia|auto].
  - right. split; auto. split; auto. destruct (scan_refuse ints _ _ f v b c (zlen ws) Hb Es Hf Hne Hn) as [[H1 H2]|[H1 (s & -> & H2)]]; [left; auto|right].
    split; auto. split; [|exists s; split; auto; eapply wrong_kind; eauto].
    intros Hacc. destruct (proj2 Hit) as (b2 & Ht2); [split; [lia|auto]|]. apply takes_split in Ht2 as (bm & T1 & T2).
    rewrite (takes_det scan _ _ _ _ T1 _ Ht) in T2. inversion T2 as [|? f2 ? b1 ? ? Hs2 Hf2 _|? ? ? ? Hs2 _]; subst; congruence.
Qed.
End Entry.

(** * The whole table *)
Section Table.
Context (ints : bool) (tab : list (entry (body D))).
Hypothesis Htab : Forall (inv (Inv ints)) tab.
Notation safe_list ws := (forall s, In (Some s) ws -> safe_value ints s).
Notation judged := (judged strtod rexmatch lm sp tab).
Notation option_errors := (option_errors strtod rexmatch lm sp tab).
Notation handed_out := (handed_out strtod rexmatch lm sp tab).
Notation left_errors := (left_errors strtod rexmatch lm sp tab).
Notation shortages := (shortages tab).
Notation report := (report strtod rexmatch lm sp tab).
Notation holds := (holds strtod rexmatch lm sp tab).

Lemma tab_inv i e : nth_error tab i = Some e -> Inv ints (e_hdr e) (e_body e).
Proof. intros Hi. rewrite Forall_forall in Htab. apply (Htab e). eapply nth_error_In; eauto. Qed.
Lemma counting_dec (e : entry (body D)) : counting e \/ ~ counting e.
Proof. unfold counting. destruct (kcount (e_body e)); [left; discriminate|right; auto]. Qed.

(** Each entry is as it should be after the events [prior]. *)
Definition state_after (prior : list event) (cur : list (entry (body D))) : Prop :=
  List.length cur = List.length tab /\
  forall i e, nth_error tab i = Some e -> exists b0 b ws, kreset (e_hdr e) (e_body e) = Ok b0 /\ nth_error cur i = Some (set_body b e) /\
    (counting e -> kept e (occurrences i prior) ws /\ takes_all (e_hdr e) b0 ws b /\ safe_list ws) /\ (~ counting e -> kcount b = None).
Definition event_ok (ev : event) : Prop :=
  match ev with EvScan i v => (i < List.length tab)%nat /\ forall s, v = Some s -> safe_value ints s | EvErr _ _ => True end.

Lemma occurrences_app i a b : occurrences i (a ++ b) = occurrences i a ++ occurrences i b.
Proof. apply flat_map_app. Qed.
Lemma set_body_twice (b b' : body D) (e : entry (body D)) : set_body b (set_body b' e) = set_body b e.
Proof. reflexivity. Qed.

Lemma event_report ev prior cur errs cur' errs' : state_after prior cur -> event_ok ev -> ideal_event scan ev (cur, errs) = Ok (cur', errs') ->
  state_after (prior ++ [ev]) cur' /\ exists es, errs' = errs ++ es /\ judged prior ev es.
Proof.
  intros [Hl Hst] Hev H. destruct ev as [i v|c v]; cbn [ideal_event] in H.
  2:{ injection H as <- <-. split; [|exists [mk_err PEnd c v]; split; [auto|constructor]]. split; auto. intros i e Hi. rewrite occurrences_app. cbn. rewrite app_nil_r. apply Hst; auto. }
  destruct Hev as [Hi Hv]. destruct (nth_error tab i) as [e|] eqn:Ei; [|apply nth_error_None in Ei; lia].
  destruct (Hst i e Ei) as (b0 & b & ws & Hr & Hcur & Hcnt & Hncnt). rewrite Hcur in H. cbn [set_body e_hdr e_body] in H.
  assert (Hother : forall cur1, List.length cur1 = List.length tab -> (forall j, j <> i -> nth_error cur1 j = nth_error cur j) ->
    (exists b1 ws1, nth_error cur1 i = Some (set_body b1 e) /\ (counting e -> kept e (occurrences i prior ++ [v]) ws1 /\ takes_all (e_hdr e) b0 ws1 b1 /\ safe_list ws1) /\ (~ counting e -> kcount b1 = None)) ->
    state_after (prior ++ [EvScan i v]) cur1).
  { intros cur1 L1 Ho (b1 & ws1 & N1 & C1 & C2). split; auto. intros j e' Hj. rewrite occurrences_app. cbn [occurrences flat_map]. destruct (Nat.eqb_spec i j) as [<-|Hne].
    - rewrite Ei in Hj. injection Hj as <-. exists b0, b1, ws1. cbn [app]. auto.
    - cbn [app]. rewrite app_nil_r. destruct (Hst j e' Hj) as (c0 & c1 & ws' & Q1 & Q2 & Q3). exists c0, c1, ws'. split; auto. rewrite Ho by auto. auto. }
  destruct (counting_dec e) as [Hc|Hc].
  - destruct (Hcnt Hc) as (Hk & Ht & Hs). destruct (held_facts ints e b0 (tab_inv i e Ei) Hc Hr ws b Hs Ht) as (Hb & Hsk & Hn & _).
    destruct (scan (e_hdr e) b) as [f|] eqn:Es; [|apply scan_count in Es; congruence].
    destruct (step ints e b0 (tab_inv i e Ei) Hc Hr ws b f v Hs Hv Ht Es) as (b' & c & Hf & Hor). rewrite Hf in H. cbn [bind] in H. injection H as <- <-.
    destruct Hor as [(-> & Hfit & Ht')|(Hne & -> & Href)].
    + split; [|exists []; split; [rewrite app_nil_r; auto|eapply j_fits; eauto]]. apply Hother.
      * rewrite lupd_length. auto.
      * intros j Hj. rewrite nth_lupd. destruct (Nat.eqb_spec i j); [congruence|auto].
      * exists b', (ws ++ [v]). split; [rewrite nth_lupd, Nat.eqb_refl, Hcur; reflexivity|]. split; [|contradiction]. intros _. split; [apply kept_fits; auto|]. split; auto.
        intros s Hin. apply in_app_iff in Hin as [Hin|[Hin|[]]]; auto.
    + split; [|exists [mk_err (PEntry i) c v]; split; [destruct (Z.eqb_spec c 0); [contradiction|auto]|eapply j_refused; eauto]]. apply Hother.
      * rewrite lupd_length. auto.
      * intros j Hj. rewrite nth_lupd. destruct (Nat.eqb_spec i j); [congruence|auto].
      * exists b, ws. split; [rewrite nth_lupd, Nat.eqb_refl, Hcur; reflexivity|]. split; [|contradiction]. intros _. split; auto. eapply kept_refused; eauto.
  - destruct (scan (e_hdr e) b) as [f|] eqn:Es; [exfalso; specialize (Hncnt Hc); apply (scan_count strtod rexmatch sp (e_hdr e)) in Hncnt; congruence|]. injection H as <- <-.
    split; [|exists []; split; [rewrite app_nil_r; auto|eapply j_ignored; eauto]]. apply Hother; auto. exists b, []. split; auto. split; [contradiction|auto].
Qed.
Lemma events_report : forall evs prior cur errs cur' errs', state_after prior cur -> Forall event_ok evs -> ideal_events scan evs (cur, errs) = Ok (cur', errs') ->
  state_after (prior ++ evs) cur' /\ exists l, errs' = errs ++ List.concat l /\ List.length l = List.length evs /\
    forall k ev es, nth_error evs k = Some ev -> nth_error l k = Some es -> judged (prior ++ firstn k evs) ev es.
Proof.
  induction evs as [|ev evs IH]; intros prior cur errs cur' errs' Hst Hok H; cbn [ideal_events] in H.
  { injection H as <- <-. rewrite !app_nil_r. split; auto. exists []. split; [rewrite app_nil_r; auto|]. split; auto. intros [|k]; discriminate. }
  apply bind_ok in H as ([c1 e1] & H1 & H2). inversion_clear Hok as [|? ? Ho1 Ho2].
  destruct (event_report ev prior cur errs c1 e1 Hst Ho1 H1) as (Hst1 & es & -> & Hj).
  destruct (IH (prior ++ [ev]) c1 _ cur' errs' Hst1 Ho2 H2) as (Hst2 & l & -> & Hl & Hjs). rewrite <- app_assoc in Hst2. split; auto.
  exists (es :: l). split; [cbn [List.concat]; rewrite app_assoc; auto|]. split; [cbn; auto|].
  intros [|k] ev0 es0; cbn [nth_error firstn].
  - intros [= <-] [= <-]. rewrite app_nil_r. auto.
  - intros A B. specialize (Hjs k ev0 es0 A B). rewrite <- app_assoc in Hjs. exact Hjs.
Qed.
Lemma reset_state t0 : ideal_reset kreset tab = Ok t0 -> state_after [] t0.
Proof.
  intros H. destruct (reset_each tab t0 H) as [Hl He]. split; auto. intros i e Hi. destruct (He i e Hi) as (b & Hn & Hb). exists b, b, []. split; auto. split; auto. split.
  - intros _. split; [constructor|]. split; [constructor|intros s []].
  - intros Hc. destruct (reset_inv rexmatch ints _ _ (tab_inv i e Hi)) as (b' & Eb & _ & HN & _). rewrite Hb in Eb. injection Eb as <-. apply HN. unfold counting in Hc. destruct (kcount (e_body e)); auto. exfalso. apply Hc. discriminate.
Qed.

(** ** Positional arguments *)
Definition turned_down (h : hdr) (b : body D) (a : str) (c : Z) : Prop := exists f, scan h b = Some f /\ f (Some a) = Ok (b, c) /\ c <> 0.
Lemma feed_report h i : forall args (b : body D) rej b' l r, Inv ints h b -> feed scan h i b args rej = Ok (b', l, r) ->
  exists run, args = run ++ l /\ takes_all h b (map Some run) b' /\ (run <> [] -> scan h b <> None) /\
    forall a l', l = a :: l' -> (scan h b = None /\ b' = b /\ r = rej) \/ (scan h b <> None /\ exists c, turned_down h b' a c /\ r = Some (mk_err (PEntry i) c (Some a))).
Proof.
  induction args as [|a args IH]; intros b rej b' l r Hb H; cbn [feed] in H.
  - injection H as <- <- _. exists []. split; auto. split; [constructor|]. split; [contradiction|discriminate].
  - destruct (scan h b) as [f|] eqn:Es.
    + apply bind_ok in H as ([b1 c] & Hf & H). destruct (Z.eqb_spec c 0).
      * subst c. assert (Hb1 : Inv ints h b1) by (eapply Inv_step; eauto). destruct (IH _ _ _ _ _ Hb1 H) as (run & -> & Ht & _ & Hr). exists (a :: run). split; auto.
        split; [eapply takes_cons; eauto|]. split; [discriminate|]. intros a0 l' El. destruct (Hr a0 l' El) as [(Hx & _)|[_ Hx]]; [|right; split; [discriminate|auto]].
        exfalso. exact (proj2 (Inv_steady strtod rexmatch sp ints h b Hb f _ _ _ Es Hf) Hx).
      * injection H as <- <- <-. destruct (Inv_steady strtod rexmatch sp ints h b Hb f _ _ _ Es Hf) as [Hst _]. rewrite (Hst n) in *. exists []. split; auto. split; [constructor|]. split; [contradiction|].
        intros a0 l' [= <- <-]. right. split; [discriminate|]. exists c. split; auto. exists f. auto.
    + injection H as <- <- <-. exists []. split; auto. split; [constructor|]. split; [contradiction|]. intros a0 l' _. left. auto.
Qed.
Lemma positional_report : forall (todo : list (entry (body D))) i args rej todo' errs, Forall (inv (Inv ints)) todo -> ideal_positional scan i todo args rej = Ok (todo', errs) ->
  exists runs left, args = List.concat runs ++ left /\ List.length runs = List.length todo /\ List.length todo' = List.length todo /\
  (forall k e run, nth_error todo k = Some e -> nth_error runs k = Some run ->
    (run <> [] -> no_options (e_hdr e) /\ scan (e_hdr e) (e_body e) <> None) /\
    exists b', nth_error todo' k = Some (set_body b' e) /\ takes_all (e_hdr e) (e_body e) (map Some run) b' /\
      (no_options (e_hdr e) -> scan (e_hdr e) (e_body e) <> None -> forall a, hd_error (List.concat (skipn (S k) runs) ++ left) = Some a -> exists c, turned_down (e_hdr e) b' a c)) /\
  match left with
  | [] => errs = []
  | a :: more => exists first, errs = first :: map unexpected more /\
      ((exists k e b' c, nth_error todo k = Some e /\ no_options (e_hdr e) /\ scan (e_hdr e) (e_body e) <> None /\ nth_error todo' k = Some (set_body b' e) /\
          turned_down (e_hdr e) b' a c /\ first = mk_err (PEntry (i + k)) c (Some a) /\
          forall j e', nth_error todo j = Some e' -> (k < j)%nat -> no_options (e_hdr e') -> scan (e_hdr e') (e_body e') = None) \/
       ((forall e, In e todo -> no_options (e_hdr e) -> scan (e_hdr e) (e_body e) = None) /\ first = match rej with Some r => r | None => unexpected a end))
  end.
Proof.
  induction todo as [|e todo IH]; intros i args rej todo' errs Ht H; cbn [ideal_positional] in H.
  { destruct args as [|a args].
    - injection H as <- <-. exists [], []. split; auto. split; auto. split; auto. split; [intros [|k]; discriminate|auto].
    - injection H as <- <-. exists [], (a :: args). split; auto. split; auto. split; auto. split; [intros [|k]; discriminate|].
      exists (match rej with Some r => r | None => unexpected a end). split; [destruct rej; auto|]. right. split; [intros e []|auto]. }
  destruct args as [|a args].
  { injection H as <- <-. exists (repeat [] (S (List.length todo))), [].
    assert (Hn : forall n, List.concat (repeat (@nil str) n) = []) by (induction n; cbn; auto).
    assert (Hs : forall n m, List.concat (skipn m (repeat (@nil str) n)) = []) by (induction n; intros [|m]; cbn; auto).
    split; [rewrite Hn; auto|]. split; [apply repeat_length|]. split; auto. split; auto.
    intros k e0 run Hk Hr. apply nth_error_In, repeat_spec in Hr. subst run. split; [contradiction|]. exists (e_body e0).
    split; [rewrite Hk, set_body_same; auto|]. split; [constructor|]. intros _ _ a Ha. rewrite Hs in Ha. discriminate. }
  inversion_clear Ht as [|? ? He Ht']. destruct (positional_hdr (e_hdr e)) eqn:Ep.
  - apply positional_hdr_iff in Ep. apply bind_ok in H as ([[b l] r] & Hf & H). apply bind_ok in H as ([t er] & Hp & H). injection H as <- <-.
    destruct (feed_report _ _ _ _ _ _ _ _ He Hf) as (run & El & Hrun & Hsc & Href).
    destruct (IH _ _ _ _ _ Ht' Hp) as (runs & left & -> & Hlen & Hlen' & Hk & Hleft). exists (run :: runs), left. rewrite El.
    split; [cbn [List.concat]; rewrite app_assoc; auto|]. split; [cbn; auto|]. split; [cbn; auto|]. split.
    + intros [|k] e0 run0; cbn [nth_error].
      * intros [= <-] [= <-]. split; [auto|]. exists b. split; auto. split; auto. intros _ Hns a0 Ha0. cbn [skipn] in Ha0.
        destruct (List.concat runs ++ left) as [|a1 l'] eqn:El'; [discriminate|]. injection Ha0 as ->.
        destruct (Href a0 l' eq_refl) as [(Hx & _)|[_ (c & Hc & _)]]; [contradiction|eauto].
      * intros H1 H2. exact (Hk k e0 run0 H1 H2).
    + destruct left as [|a0 more]; auto. destruct Hleft as (first & -> & Hor). exists first. split; auto.
      destruct Hor as [(k & e1 & b1 & c & A1 & A2 & A3 & A4 & A5 & A6 & A7)|[Hnone Hfirst]].
      * left. exists (S k), e1, b1, c. split; auto. split; auto. split; auto. split; auto. split; auto. split; [rewrite A6; do 2 f_equal; lia|].
        intros [|j] e' Hj Hlt; [lia|]. apply (A7 j); auto. lia.
      * destruct (scan (e_hdr e) (e_body e)) as [f|] eqn:Es.
        -- left. exists 0%nat, e, b.
           (* nothing after this entry takes anything, so it was offered the first of the arguments left *)
           assert (Hc0 : List.concat runs = []).
           { clear - Hk Hnone Hlen. assert (Hall : forall k run, nth_error runs k = Some run -> run = []).
             { intros k run Hr. destruct (nth_error todo k) as [e1|] eqn:E1.
               - destruct (Hk k e1 run E1 Hr) as [Hx _]. destruct run as [|x run]; auto. exfalso. destruct (Hx ltac:(discriminate)) as [X1 X2]. apply X2. apply Hnone; auto. eapply nth_error_In; eauto.
               - apply nth_error_None in E1. assert (k < List.length runs)%nat by (apply nth_error_Some; congruence). lia. }
             clear - Hall. induction runs as [|r runs IH]; auto. cbn. rewrite (Hall 0%nat r eq_refl). apply IH. intros k run Hk. exact (Hall (S k) run Hk). }
           rewrite Hc0 in Href, Hf. cbn [app] in Href. destruct (Href a0 more eq_refl) as [(Hx & _)|[_ (c & Hc & Hr)]]; [discriminate|].
           exists c. split; auto. split; auto. split; [congruence|]. split; auto. split; auto.
           split; [rewrite Hfirst, Hr, Nat.add_0_r; auto|]. intros [|j] e' Hj Hlt Hno; [lia|]. apply Hnone; auto. eapply nth_error_In; eauto.
        -- right. split; [intros e1 [<-|Hi] Hno; auto|].
           destruct run as [|x run]; [|exfalso; apply Hsc; [discriminate|auto]].
           destruct (List.concat runs ++ a0 :: more) as [|a1 l'] eqn:El'; [destruct (List.concat runs); discriminate|].
           destruct (Href a1 l' eq_refl) as [(_ & _ & Hr)|[Hx _]]; [|contradiction]. rewrite Hfirst, Hr. auto.
  - assert (Hno : ~ no_options (e_hdr e)) by (intros Hno; apply positional_hdr_iff in Hno; congruence).
    apply bind_ok in H as ([t er] & Hp & H). injection H as <- <-.
    destruct (IH _ _ _ _ _ Ht' Hp) as (runs & left & El & Hlen & Hlen' & Hk & Hleft). exists ([] :: runs), left.
    split; [exact El|]. split; [cbn; auto|]. split; [cbn; auto|]. split.
    + intros [|k] e0 run0; cbn [nth_error].
      * intros [= <-] [= <-]. split; [contradiction|]. exists (e_body e). split; [rewrite set_body_same; auto|]. split; [constructor|]. intros Hn. contradiction.
      * intros H1 H2. exact (Hk k e0 run0 H1 H2).
    + destruct left as [|a0 more]; auto. destruct Hleft as (first & -> & Hor). exists first. split; auto.
      destruct Hor as [(k & e1 & b1 & c & A1 & A2 & A3 & A4 & A5 & A6 & A7)|[Hnone Hfirst]].
      * left. exists (S k), e1, b1, c. split; auto. split; auto. split; auto. split; auto. split; auto. split; [rewrite A6; do 2 f_equal; lia|].
        intros [|j] e' Hj Hlt; [lia|]. apply (A7 j); auto. lia.
      * right. split; auto. intros e1 [<-|Hi] Hn; [contradiction|auto].
Qed.

(** ** Putting it together *)
Lemma choose {A B} (P : nat -> A -> B -> Prop) : forall (l : list A) k, (forall i x, nth_error l i = Some x -> exists y, P (k + i)%nat x y) ->
  exists l', List.length l' = List.length l /\ forall i x y, nth_error l i = Some x -> nth_error l' i = Some y -> P (k + i)%nat x y.
Proof.
  induction l as [|x l IH]; intros k H; [exists []; split; auto; intros [|i]; discriminate|].
  destruct (H 0%nat x eq_refl) as (y & Hy). destruct (IH (S k)) as (l' & Hl & H'). { intros i x' Hi. destruct (H (S i) x' Hi) as (y' & Hy'). exists y'. replace (S k + i)%nat with (k + S i)%nat by lia. auto. }
  exists (y :: l'). split; [cbn; auto|]. intros [|i] x' y'; cbn [nth_error]; [intros [= <-] [= <-]; auto|]. intros A1 A2. specialize (H' i x' y' A1 A2). replace (k + S i)%nat with (S k + i)%nat by lia. auto.
Qed.
Lemma choose0 {A B} (P : nat -> A -> B -> Prop) (l : list A) : (forall i x, nth_error l i = Some x -> exists y, P i x y) ->
  exists l', List.length l' = List.length l /\ forall i x y, nth_error l i = Some x -> nth_error l' i = Some y -> P i x y.
Proof. exact (choose P l 0). Qed.
Lemma refused_not_fits e ws v c : refused e ws v c -> ~ fits e ws v.
Proof. intros [[H1 _]|(_ & H & _)] [F1 F2]; [lia|contradiction]. Qed.
Lemma turned_refused i e b0 ws b a c : nth_error tab i = Some e -> counting e -> kreset (e_hdr e) (e_body e) = Ok b0 -> safe_list ws -> takes_all (e_hdr e) b0 ws b ->
  safe_value ints a -> turned_down (e_hdr e) b a c -> refused e ws (Some a) c.
Proof.
  intros Hi Hc Hr Hs Ht Ha (f & Es & Hf & Hne).
  destruct (step ints e b0 (tab_inv i e Hi) Hc Hr ws b f (Some a) Hs ltac:(intros s [= <-]; auto) Ht Es) as (b' & c' & Hf' & [(-> & _)|(_ & _ & Href)]); congruence.
Qed.
Lemma check_report : forall (t : list (entry (body D))) k, exists l, ideal_check kcheck k t = List.concat l /\ List.length l = List.length t /\
  forall i e es, nth_error t i = Some e -> nth_error l i = Some es ->
    match kcount (e_body e) with Some n => if n <? h_mincount (e_hdr e) then es = [mk_err (PEntry (k + i)) ARG_ERR_MINCOUNT None] else es = [] | None => es = [] end.
Proof.
  induction t as [|e t IH]; intros k; [exists []; split; auto; split; auto; intros [|i]; discriminate|].
  destruct (IH (S k)) as (l & El & Hl & H). eexists (_ :: l). cbn [ideal_check List.concat]. rewrite El. split; [reflexivity|]. split; [cbn; auto|].
  intros [|i] e' es; cbn [nth_error].
  - intros [= <-] [= <-]. rewrite Nat.add_0_r. destruct (e_body e); cbn [kcheck kcount]; auto; unfold checkfn, arg_int_checkfn; match goal with |- context [?a <? ?b] => destruct (Z.ltb_spec a b) end; auto.
  - intros A1 A2. specialize (H i e' es A1 A2). replace (k + S i)%nat with (S k + i)%nat by lia. auto.
Qed.

Theorem ideal_report evs pos tab' errs : Forall event_ok evs -> Forall (safe_value ints) pos -> ideal_parse scan kcheck kreset evs pos tab = Ok (tab', errs) ->
  exists held, report evs pos held errs /\ holds held tab'.
Proof.
  intros Hev Hpos H. unfold ideal_parse in H. apply bind_ok in H as (t0 & H0 & H). apply bind_ok in H as ([t1 e1] & H1 & H). apply bind_ok in H as ([t2 e2] & H2 & H).
  cbn [fst snd] in *.
  destruct (events_report evs [] t0 [] t1 e1 (reset_state t0 H0) Hev H1) as ([Hl1 Hst] & l & El & Hll & Hj). cbn [app] in *.
  assert (Ht1 : Forall (inv (Inv ints)) t1).
  { apply Forall_forall. intros x Hx. apply In_nth_error in Hx as (i & Hi). destruct (nth_error tab i) as [e|] eqn:Ei.
    - destruct (Hst i e Ei) as (b0 & b & ws & Q1 & Q2 & Q3 & Q4). rewrite Hi in Q2. injection Q2 as ->. unfold inv. cbn [set_body e_hdr e_body]. destruct (counting_dec e) as [Hc|Hc].
      + destruct (Q3 Hc) as (_ & Ht & Hs). exact (proj1 (held_facts ints e b0 (tab_inv i e Ei) Hc Q1 ws b Hs Ht)).
      + specialize (Q4 Hc). destruct b; try discriminate. repeat split. discriminate.
    - apply nth_error_None in Ei. assert (i < List.length t1)%nat by (apply nth_error_Some; congruence). lia. }
  destruct (positional_report t1 0 pos None t2 e2 Ht1 H2) as (runs & left & Epos & Hr & Hl2 & Hk & Hleft).
  assert (Hcount : forall i e b, nth_error tab i = Some e -> nth_error t1 i = Some (set_body b e) -> (scan (e_hdr e) b <> None <-> counting e)).
  { intros i e b Hi Hb. destruct (Hst i e Hi) as (b0 & b' & ws & Q1 & Q2 & Q3 & Q4). rewrite Hb in Q2. injection Q2 as ->. rewrite (scan_count strtod rexmatch sp).
    split; [intros Hn; destruct (counting_dec e) as [|Hc]; auto; elim (Hn (Q4 Hc))|]. intros Hc. destruct (Q3 Hc) as (_ & Ht & Hs).
    destruct (held_facts ints e b0 (tab_inv i e Hi) Hc Q1 ws b' Hs Ht) as (_ & _ & Hn & _). congruence. }
  assert (Hfin : forall i e, nth_error tab i = Some e -> exists ws, exists b' run, nth_error t2 i = Some (set_body b' e) /\ nth_error runs i = Some run /\
     (run <> [] -> no_options (e_hdr e) /\ counting e) /\
     (counting e -> (exists ws0, kept e (occurrences i evs) ws0 /\ ws = ws0 ++ map Some run) /\ exists b0, kreset (e_hdr e) (e_body e) = Ok b0 /\ takes_all (e_hdr e) b0 ws b' /\ safe_list ws /\
        (no_options (e_hdr e) -> forall a, hd_error (List.concat (skipn (S i) runs) ++ left) = Some a -> exists c, turned_down (e_hdr e) b' a c)) /\
     (~ counting e -> kcount b' = None /\ ws = [])).
  { intros i e Hi. destruct (Hst i e Hi) as (b0 & b & ws0 & Q1 & Q2 & Q3 & Q4).
    destruct (nth_error runs i) as [run|] eqn:Er; [|apply nth_error_None in Er; assert (i < List.length tab)%nat by (apply nth_error_Some; congruence); lia].
    destruct (Hk i _ run Q2 Er) as (K1 & b' & K2 & K3 & K4). cbn [set_body e_hdr e_body] in *. rewrite set_body_twice in K2.
    destruct (counting_dec e) as [Hcd|Hcd]; [exists (ws0 ++ map Some run)|exists []]; exists b', run; (split; [auto|]); (split; [auto|]); rewrite (Hcount i e b Hi Q2) in K1, K4; (split; [auto|]); (split; [|try contradiction]); try contradiction.
    - intros Hc. destruct (Q3 Hc) as (C1 & C2 & C3). split; [exists ws0; auto|]. exists b0. split; auto. split; [eapply takes_app; eauto|]. split; [|auto].
      intros s Hs. apply in_app_iff in Hs as [Hs|Hs]; auto. apply in_map_iff in Hs as (x & [= ->] & Hx). rewrite Forall_forall in Hpos. apply Hpos. rewrite Epos. apply in_app_iff. left.
      apply in_concat. exists run. split; auto. eapply nth_error_In; eauto.
    - intros Hc. specialize (Q4 Hc). rewrite (takes_rem strtod rexmatch sp _ _ _ _ K3 Q4). auto. }
  destruct (choose0 _ tab Hfin) as (held & Hlh & Hheld).
  assert (Hsl : forall a, In a left -> safe_value ints a) by (intros a Ha; rewrite Forall_forall in Hpos; apply Hpos; rewrite Epos; apply in_app_iff; auto).
  assert (Hhd : forall i a, hd_error (List.concat (skipn (S i) runs) ++ left) = Some a -> safe_value ints a).
  { intros i a Ha. rewrite Forall_forall in Hpos. apply Hpos. rewrite Epos. apply in_app_iff. destruct (List.concat (skipn (S i) runs)) as [|x xs] eqn:Ec.
    - right. destruct left; [discriminate|]. injection Ha as ->. left. auto.
    - left. injection Ha as ->. rewrite <- (firstn_skipn (S i) runs), concat_app, Ec. apply in_app_iff. right. left. auto. }
  assert (Hhand : handed_out evs pos runs left held).
  { split; auto. split; [lia|]. split; auto. intros i e run ws Hi Hrun Hws. destruct (Hheld i e ws Hi Hws) as (b' & run' & F1 & F2 & F3 & F4 & F5).
    assert (run' = run) by congruence. subst run'. split; auto. split; [intros Hc; apply F5; auto|]. intros Hc. destruct (F4 Hc) as (G1 & b0 & G2 & G3 & G4 & G5). split; auto.
    destruct (held_facts ints e b0 (tab_inv i e Hi) Hc G2 ws b' G4 G3) as (_ & _ & _ & Hz & Ha & _). split; auto. split; auto.
    intros Hno a Ha0. destruct (G5 Hno a Ha0) as (c & Hd). eapply refused_not_fits. eapply turned_refused; eauto. }
  assert (Hle : left_errors held left e2).
  { destruct left as [|a more]; [rewrite Hleft; constructor|]. destruct Hleft as (first & -> & [(k & e & b' & c & A1 & A2 & A3 & A4 & A5 & A6 & A7)|[Hnone ->]]).
    - destruct (nth_error tab k) as [e0|] eqn:Ek; [|apply nth_error_None in Ek; assert (k < List.length t1)%nat by (apply nth_error_Some; congruence); lia].
      destruct (Hst k e0 Ek) as (b0 & b & ws0 & Q1 & Q2 & Q3 & Q4). rewrite A1 in Q2. injection Q2 as ->. cbn [set_body e_hdr e_body] in *.
      assert (Hc : counting e0) by (apply (Hcount k e0 b Ek A1); auto).
      destruct (nth_error held k) as [ws|] eqn:Eh; [|apply nth_error_None in Eh; assert (k < List.length tab)%nat by (apply nth_error_Some; congruence); lia].
      destruct (Hheld k e0 ws Ek Eh) as (b2 & run' & F1 & F2 & F3 & F4 & F5). rewrite set_body_twice in A4. rewrite F1 in A4. injection A4 as <-.
      destruct (F4 Hc) as (G1 & b0' & G2 & G3 & G4 & G5). rewrite A6. eapply le_last; eauto.
      + intros j e' Hje Hlt Hno Hc'. destruct (Hst j e' Hje) as (c0 & c1 & ws' & R1 & R2 & _). specialize (A7 j _ R2 Hlt Hno). cbn [set_body e_hdr e_body] in A7. apply (Hcount j e' c1 Hje R2) in Hc'. contradiction.
      + eapply turned_refused; eauto. apply Hsl. left. auto.
    - apply le_nobody. intros e Hin Hno Hc. apply In_nth_error in Hin as (i & Hi). destruct (Hst i e Hi) as (c0 & c1 & ws' & R1 & R2 & _).
      apply (Hcount i e c1 Hi R2) in Hc. apply Hc. apply (Hnone (set_body c1 e)); auto. eapply nth_error_In; eauto. }
  injection H as -> Herr. exists held. split.
  - exists runs, left, e1, e2. split; [exists l; split; auto|]. split; auto. split; auto. destruct (e1 ++ e2) as [|x xs] eqn:Ee; [right|left; split; [discriminate|auto]]. split; auto.
    destruct (check_report tab' 0) as (lc & Elc & Hlc & Hc). exists lc. split; [congruence|]. split; [lia|]. intros i e ws es Hi Hws Hes.
    destruct (Hheld i e ws Hi Hws) as (b' & run' & F1 & F2 & F3 & F4 & F5). specialize (Hc i _ es F1 Hes). cbn [set_body e_hdr e_body Nat.add] in Hc.
    destruct (counting_dec e) as [Hcn|Hcn].
    + destruct (F4 Hcn) as (G1 & b0 & G2 & G3 & G4 & G5). destruct (held_facts ints e b0 (tab_inv i e Hi) Hcn G2 ws b' G4 G3) as (_ & _ & Hn & _). rewrite Hn in Hc.
      destruct (Z.ltb_spec (zlen ws) (h_mincount (e_hdr e))); [left; auto|right; split; auto].
    + rewrite (proj1 (F5 Hcn)) in Hc. right. split; auto. contradiction.
  - split; [lia|]. intros i e ws e' Hi Hws He'. destruct (Hheld i e ws Hi Hws) as (b' & run' & F1 & F2 & F3 & F4 & F5). rewrite He' in F1. injection F1 as ->. cbn [set_body e_hdr e_body]. split; auto.
    intros Hc. destruct (F4 Hc) as (G1 & b0 & G2 & G3 & G4 & G5). destruct (held_facts ints e b0 (tab_inv i e Hi) Hc G2 ws b' G4 G3) as (_ & _ & Hn & _ & _ & Hs). auto.
Qed.
End Table.
End Kinds.
