(** C74, for entries of every sort: values can be handed over with short options, with long ones, attached or in an argument of
    their own, and as positional arguments, all in one command line and with the options in any order. *)
From Verif Require Import Base IntModel IntSpec IntProofs FileModel FileSpec DateModel DateSpec GetoptModel ParseModel ParseSpec GetoptProofs ParseIdeal ParseProofs ParseFacts ParseObserve ParseSafe ParseLemmas ArgModel KindsSpec KindsProofs PropKinds CommandSpec CommandProofs PropCommand ReportSpec ReportProofs PropConcat PropQuote PropLoosen PropConvey.
From Verif Require PropFile ExTable.
From Coq Require Import ZArith List Ascii String Bool Lia.
Import ListNotations.
Open Scope Z_scope.

Lemma nth_error_skipn {A} : forall n (l : list A) k, nth_error (skipn n l) k = nth_error l (n + k).
Proof. induction n as [|n IH]; intros [|x l] k; cbn [skipn nth_error Nat.add]; [reflexivity|reflexivity|destruct k; reflexivity|apply IH]. Qed.
(** Occurrences of options belong to entries with options. *)
Lemma cluster_options t : forall cs ws os, cluster t cs ws os -> forall k h, nth_error t k = Some h -> no_options h -> given_to k os = [].
Proof.
  assert (S : forall c i h k h0, first_declaring t c i h -> nth_error t k = Some h0 -> no_options h0 -> Nat.eqb i k = false).
  { intros c i h k h0 (H1 & H2 & _) Hk [E _]. apply Nat.eqb_neq. intros ->. rewrite H1 in Hk. injection Hk as ->. unfold declares in H2. rewrite E in H2. discriminate. }
  assert (L : forall nm i h k h0, selects t nm i h -> nth_error t k = Some h0 -> no_options h0 -> Nat.eqb i k = false).
  { intros nm i h k h0 Hs Hk [_ E]. apply Nat.eqb_neq. intros ->. assert (X : nth_error t k = Some h /\ exists n, In n (hdr_names h)) by (destruct Hs; eauto).
    destruct X as (X & n & Hn). rewrite X in Hk. injection Hk as ->. unfold hdr_names in Hn. rewrite E in Hn. destruct Hn. }
  induction 1; intros k h0 Hk Hn; cbn [given_to flat_map fst snd]; try reflexivity.
  - rewrite (S _ _ _ _ _ H0 Hk Hn). apply (IHcluster k h0 Hk Hn).
  - rewrite (S _ _ _ _ _ H0 Hk Hn). reflexivity.
  - rewrite (S _ _ _ _ _ H0 Hk Hn). reflexivity.
  - rewrite (S _ _ _ _ _ H0 Hk Hn). reflexivity.
  - destruct H0; cbn [fst snd]; rewrite (L _ _ _ _ _ ltac:(eassumption) Hk Hn); reflexivity.
Qed.
Lemma options_only t posix args os pos : spells t posix args os pos -> forall k h, nth_error t k = Some h -> no_options h -> given_to k os = [].
Proof.
  induction 1; intros k h Hk Hn; try reflexivity; eauto. unfold given_to. rewrite flat_map_app. change (given_to k os ++ given_to k os' = []).
  rewrite (cluster_options t _ _ _ ltac:(eassumption) k h Hk Hn), (IHspells k h Hk Hn). reflexivity.
Qed.

Section Convey.
Context {D : Type}.
Context (strtod : str -> D * nat).
Context (rexmatch : str -> Z -> str -> res bool).
Context (sp : seps).
Notation lm := Long64.
Notation parse := (karg_parse strtod rexmatch lm sp).
Notation safe_value := (safe_value lm).
Notation stored := (stored strtod rexmatch lm sp).
Notation acceptable := (acceptable strtod rexmatch lm sp).
Notation reached := (reached strtod rexmatch lm sp).
Notation fits := (fits strtod rexmatch sp).
Notation fulfilled := (fulfilled strtod rexmatch sp).
Hypothesis Hd : strtod_contract strtod.

(** A place belongs to an entry with options. *)
Lemma of_entry_options t i p : of_entry t i p -> exists h, nth_error t i = Some h /\ ~ no_options h.
Proof.
  assert (S : forall c h, first_declaring t c i h -> exists h, nth_error t i = Some h /\ ~ no_options h).
  { intros c h (H1 & H2 & _). exists h. split; auto. intros [E _]. unfold declares in H2. rewrite E in H2. discriminate. }
  assert (L : forall nm h, selects t nm i h -> exists h, nth_error t i = Some h /\ ~ no_options h).
  { intros nm h H. exists h. assert (X : nth_error t i = Some h /\ exists n, In n (hdr_names h)) by (destruct H; eauto).
    destruct X as (X & n & Hn). split; auto. intros [_ E]. unfold hdr_names in Hn. rewrite E in Hn. destruct Hn. }
  destruct p; cbn [of_entry]; intros Hp; repeat match goal with H : _ /\ _ |- _ => destruct H | H : exists _, _ |- _ => destruct H end; eauto.
Qed.
Lemma no_texts (tab : list (entry (body D))) fs i e : Forall (good_filled (map e_hdr tab)) fs -> nth_error tab i = Some e -> no_options (e_hdr e) -> texts_for i fs = [].
Proof.
  intros Hg He Hn. unfold texts_for. induction Hg as [|f fs [Hf _] _ IH]; [reflexivity|]. cbn [flat_map]. rewrite IH, app_nil_r.
  unfold meant. cbn [fst]. destruct (Nat.eqb_spec (f_entry f) i) as [E|E]; [|reflexivity]. exfalso. rewrite E in Hf.
  apply of_entry_options in Hf as (h & H1 & H2). rewrite nth_error_map, He in H1. injection H1 as <-. contradiction.
Qed.

(** What the slots hold is what was wished for. *)
Lemma stored_fulfilled ints (e e' : entry (body D)) w : kcount (e_body e) <> None -> fits ints e w ->
  kcount (e_body e') = Some (times w) -> stored (e_body e) (slots_reset (e_body e)) (texts_of w) (slots (e_body e')) -> fulfilled e e' w.
Proof.
  intros Hk [_ Hf] Hn Hs1. split; [exact Hn|].
  destruct (e_body e) as [n|p|p|p|p|p|p|] eqn:Eb, w as [m|ns|l]; try contradiction; try exact I; try (destruct (Hk eq_refl)); cbn [texts_of] in Hs1.
  - rewrite <- (map_map decimal Some) in Hs1. rewrite Forall_forall in Hf.
    rewrite <- (map_length decimal), (stored_all strtod rexmatch sp (KInt p) _ (map decimal ns) _ number_value ltac:(discriminate) Hs1).
    + rewrite map_map. apply map_ext_in. intros n Hi. apply number_value_decimal. auto.
    + intros v0 x v Hx (n & -> & Hl1). apply in_map_iff in Hx as (n' & <- & Hi). rewrite (number_value_decimal n' (Hf n' Hi)). destruct (Hl1 eq_refl) as [Hl2 _].
      f_equal. symmetry. apply (int_literal_unique (decimal n')); auto; [|apply decimal_literal; auto]. apply (proj2 (decimal_safe lm true n') eq_refl [] _ eq_refl).
  - apply (stored_all strtod rexmatch sp (KDbl p) _ l _ _ ltac:(discriminate) Hs1). intros v0 x v _ (d & E & ->). rewrite E. reflexivity.
  - apply (stored_all strtod rexmatch sp (KStr p) _ l _ _ ltac:(discriminate) Hs1). intros v0 x v _ E. exact E.
  - rewrite (stored_all strtod rexmatch sp (KFile p) _ l _ (fun x => VFile x (arg_basename sp x) (arg_extension (arg_basename sp x))) ltac:(discriminate) Hs1).
    + clear. induction l as [|x l IH]; cbn [map]; constructor; auto. exists (arg_basename sp x), (arg_extension (arg_basename sp x)). split; [apply PropFile.arg_basename_spec|]. split; auto. apply PropFile.arg_extension_spec.
    + intros v0 x v _ (bn & ex & B & E & ->). rewrite (PropFile.base_name_unique _ _ _ _ _ B (PropFile.arg_basename_spec sp x)) in *. rewrite (PropFile.extension_unique _ _ _ E (PropFile.arg_extension_spec _)). reflexivity.
  - exact Hs1.
  - apply (stored_all strtod rexmatch sp (KRex p) _ l _ _ ltac:(discriminate) Hs1). intros v0 x v _ [_ E]. exact E.
Qed.

(** A command line of filled places [fs] and positional arguments expresses the wishes [ws] (one for each entry), [runs] being the
    texts for the entries without options: the options of each entry get what is wished for it, in order; an entry without options
    gets it as positional arguments, and comes before the next one because it has no room for more, or would not take what follows. *)
Definition expresses (ints : bool) (tab : list (entry (body D))) (ws : list wish) (fs : list filled) (runs : list (list str)) : Prop :=
  List.length ws = List.length tab /\ List.length runs = List.length tab /\ Forall (good_filled (map e_hdr tab)) fs /\
  forall i e w run, nth_error tab i = Some e -> nth_error ws i = Some w -> nth_error runs i = Some run ->
    fits ints e w /\
    (~ no_options (e_hdr e) -> run = [] /\ texts_for i fs = texts_of w) /\
    (no_options (e_hdr e) -> texts_of w = map Some run /\
       forall a, hd_error (List.concat (skipn (S i) runs)) = Some a -> zlen run = h_maxcount (e_hdr e) \/ ~ acceptable e (map Some (run ++ [a]))).

(** Every command line that expresses the wishes is accepted and fulfils them. *)
Theorem C74_every_line :
  forall ints posix cap tab ws fs runs jo jc jp fuel argv h s en a0,
  reached ints tab -> expresses ints tab ws fs runs -> call cap tab en h argv a0 (line fs (List.concat runs)) fuel ->
  Forall (safe_value ints) (line fs (List.concat runs)) ->
  exists h' s' tab' en', parse posix jo jc jp fuel (zlen (a0 :: line fs (List.concat runs))) argv h s tab en = Ok (h', s', tab', en') /\ end_count en' = 0 /\
  forall i e w, nth_error tab i = Some e -> nth_error ws i = Some w -> kcount (e_body e) <> None -> exists e', nth_error tab' i = Some e' /\ fulfilled e e' w.
Proof.
  intros ints posix cap tab ws fs runs jo jc jp fuel argv h s en a0 Ht (Hl & Hlr & Hg & Hw) Hc Hs.
  pose proof (C70_texts_are_values (map e_hdr tab) posix fs (List.concat runs) Hg) as Hsp.
  assert (Hinv : forall i e, nth_error tab i = Some e -> Inv rexmatch ints (e_hdr e) (e_body e)) by (intros i e Ee; apply (reached_ready strtod rexmatch lm sp Hd) in Ht; rewrite Forall_forall in Ht; apply (Ht e (nth_error_In tab i Ee))).
  assert (Hall : forall i e, nth_error tab i = Some e -> exists w run, nth_error ws i = Some w /\ nth_error runs i = Some run).
  { intros i e Ee. assert (Hlt : (i < List.length tab)%nat) by (apply nth_error_Some; congruence).
    destruct (nth_error ws i) as [w|] eqn:E1; [|apply nth_error_None in E1; lia]. destruct (nth_error runs i) as [r|] eqn:E2; [|apply nth_error_None in E2; lia]. eauto. }
  assert (Hgiv : forall i e w run, nth_error tab i = Some e -> nth_error ws i = Some w -> nth_error runs i = Some run -> texts_for i fs ++ map Some run = texts_of w).
  { intros i e w run Ee Ew Er. destruct (Hw i e w run Ee Ew Er) as (_ & H1 & H2). destruct (positional_hdr (e_hdr e)) eqn:Ep.
    - apply positional_hdr_iff in Ep. rewrite (no_texts tab fs i e Hg Ee Ep). destruct (H2 Ep) as [H3 _]. auto.
    - assert (Np : ~ no_options (e_hdr e)) by (rewrite <- positional_hdr_iff; congruence). destruct (H1 Np) as [-> ->]. apply app_nil_r. }
  assert (Hsh : shared strtod rexmatch lm sp tab (map meant fs) (List.concat runs) runs).
  { split; [reflexivity|]. split; [exact Hlr|]. intros i e run Ee Er. destruct (Hall i e Ee) as (w & run' & Ew & Er'). rewrite Er in Er'. injection Er' as <-.
    cbv zeta. rewrite given_texts, (Hgiv i e w run Ee Ew Er). destruct (Hw i e w run Ee Ew Er) as (Hf & H1 & H2).
    assert (Hno : run <> [] -> no_options (e_hdr e)).
    { intros Hr. destruct (positional_hdr (e_hdr e)) eqn:Ep; [apply positional_hdr_iff; exact Ep|]. exfalso. apply Hr, H1. rewrite <- positional_hdr_iff. congruence. }
    split; [|split].
    - intros Hr. specialize (Hno Hr). split; [exact Hno|]. destruct (H2 Hno) as [H3 _]. intros Hk. destruct Hf as [_ Hf].
      destruct (e_body e); try discriminate. assert (T : times w = 0) by (destruct w; exact Hf). rewrite <- times_texts, H3 in T. unfold zlen in T. rewrite map_length in T. destruct run; [contradiction|cbn in T; lia].
    - intros Hk. rewrite times_texts. split; [apply Hf|]. apply (fits_acceptable strtod rexmatch sp ints); eauto.
    - intros Hn a Ha (Hk & Hlt & Hacc). destruct (H2 Hn) as [H3 H4]. rewrite H3 in Hlt, Hacc. destruct (H4 a Ha) as [H5|H5].
      + unfold zlen in *. rewrite map_length in Hlt. lia.
      + apply H5. rewrite map_app. exact Hacc. }
  destruct (C59_accepted_values strtod rexmatch sp Hd ints posix cap tab _ jo jc jp fuel argv h s en a0 _ _ _ Ht Hc Hs Hsp Hsh) as (h' & s' & tab' & en' & Hp & Hz & Hv).
  exists h', s', tab', en'. split; [exact Hp|]. split; [exact Hz|]. intros i e w Ee Ew Hk. destruct (Hall i e Ee) as (w' & run & Ew' & Er). rewrite Ew in Ew'. injection Ew' as <-.
  destruct (Hv i e run Ee Er) as (e' & Ee' & _ & Hst). exists e'. split; [exact Ee'|]. destruct (Hst Hk) as [Hn Hs1].
  rewrite given_texts, (Hgiv i e w run Ee Ew Er) in Hn, Hs1. rewrite times_texts in Hn. destruct (Hw i e w run Ee Ew Er) as (Hf & _). eapply stored_fulfilled; eauto.
Qed.

(** ** One way to write wishes down *)
(** For each entry a place, or none: its values are positional arguments. *)
Definition put_at (p : place) (i : nat) (g : option str) : filled := (p, i, match g with Some s => s | None => [] end).
Fixpoint puts (i : nat) (reqs : list (option place * wish)) : list filled :=
  match reqs with
  | [] => []
  | (p, w) :: r => match p with Some p => map (put_at p i) (texts_of w) | None => [] end ++ puts (S i) r
  end.
Definition bare (r : option place * wish) : list str :=
  match r with
  | (None, WNumbers ns) => map decimal ns
  | (None, WTexts l) => l
  | _ => []
  end.
Definition all_written (reqs : list (option place * wish)) : list str := line (puts 0 reqs) (List.concat (map bare reqs)).

(** The place is right for the entry: a switch for switches, and no empty text where there is no room for one. Without a place it must
    be an entry without options. *)
Definition addressed (t : list hdr) (i : nat) (e : entry (body D)) (p : option place) (w : wish) : Prop :=
  match p with
  | Some p => ~ no_options (e_hdr e) /\
      (times w <> 0 -> of_entry t i p /\ (is_switch p = true <-> exists n, w = WTimes n) /\ (forall s, In (Some s) (texts_of w) -> text_ok p s))
  | None => no_options (e_hdr e) /\ (forall n, w = WTimes n -> n = O)
  end.

Lemma in_puts : forall reqs i f, In f (puts i reqs) -> exists j p w g, nth_error reqs j = Some (Some p, w) /\ In g (texts_of w) /\ f = put_at p (i + j) g.
Proof.
  induction reqs as [|[p w] reqs IH]; intros i f H; cbn [puts] in H; [destruct H|]. apply in_app_iff in H as [H|H].
  - destruct p as [p|]; [|destruct H]. apply in_map_iff in H as (g & <- & Hg). exists 0%nat, p, w, g. rewrite Nat.add_0_r. auto.
  - apply IH in H as (j & c' & w' & g & H1 & H2 & ->). exists (S j), c', w', g. rewrite Nat.add_succ_r. auto.
Qed.
Lemma texts_put p i j gs : texts_for j (map (put_at p i) gs) = if Nat.eqb i j then (if is_switch p then map (fun _ => None) gs else map (fun g => Some (match g with Some s => s | None => [] end)) gs) else [].
Proof.
  induction gs as [|g gs IH]; [destruct (Nat.eqb i j), (is_switch p); reflexivity|]. cbn [map]. unfold texts_for in *. cbn [flat_map]. rewrite IH.
  unfold meant, put_at, f_entry, f_place, f_text. cbn [fst snd]. destruct (Nat.eqb i j), (is_switch p); reflexivity.
Qed.
Lemma texts_puts_later : forall reqs i j, (j < i)%nat -> texts_for j (puts i reqs) = [].
Proof.
  induction reqs as [|[p w] reqs IH]; intros i j Hj; [reflexivity|]. cbn [puts]. rewrite texts_app, IH by lia. rewrite app_nil_r. destruct p; [|reflexivity].
  rewrite texts_put. destruct (Nat.eqb_spec i j); [lia|reflexivity].
Qed.
Lemma texts_puts_nth : forall reqs i j p w, nth_error reqs j = Some (p, w) -> texts_for (i + j) (puts i reqs) = match p with Some p => texts_for (i + j) (map (put_at p (i + j)) (texts_of w)) | None => [] end.
Proof.
  induction reqs as [|[p w] reqs IH]; intros i [|j] p' w' H; try discriminate; cbn [puts nth_error] in *; rewrite texts_app.
  - injection H as -> ->. rewrite Nat.add_0_r, texts_puts_later, app_nil_r by lia. destruct p'; reflexivity.
  - apply (IH (S i)) in H. rewrite Nat.add_succ_r. cbn [Nat.add] in H. rewrite H. destruct p as [p|]; [|reflexivity]. rewrite texts_put. destruct (Nat.eqb_spec i (S (i + j))); [lia|reflexivity].
Qed.

Theorem C74_every_way :
  forall ints posix cap tab reqs jo jc jp fuel argv h s en a0,
  reached ints tab -> call cap tab en h argv a0 (all_written reqs) fuel -> Forall (safe_value ints) (all_written reqs) -> List.length reqs = List.length tab ->
  (forall i e p w, nth_error tab i = Some e -> nth_error reqs i = Some (p, w) -> fits ints e w /\ addressed (map e_hdr tab) i e p w /\
     (p = None -> times w < h_maxcount (e_hdr e) -> List.concat (skipn (S i) (map bare reqs)) = [])) ->
  exists h' s' tab' en', parse posix jo jc jp fuel (zlen (a0 :: all_written reqs)) argv h s tab en = Ok (h', s', tab', en') /\ end_count en' = 0 /\
  forall i e p w, nth_error tab i = Some e -> nth_error reqs i = Some (p, w) -> kcount (e_body e) <> None -> exists e', nth_error tab' i = Some e' /\ fulfilled e e' w.
Proof.
  intros ints posix cap tab reqs jo jc jp fuel argv h s en a0 Ht Hc Hs Hl Hw.
  assert (Hx : expresses ints tab (map snd reqs) (puts 0 reqs) (map bare reqs)).
  { split; [rewrite map_length; exact Hl|]. split; [rewrite map_length; exact Hl|]. split.
    - rewrite Forall_forall. intros f Hf. apply in_puts in Hf as (j & p & w & g & Hj & Hgi & ->). cbn [Nat.add].
      assert (Hlt : (j < List.length tab)%nat) by (rewrite <- Hl; apply nth_error_Some; congruence). destruct (nth_error tab j) as [e|] eqn:Ee; [|apply nth_error_None in Ee; lia].
      destruct (Hw j e _ w Ee Hj) as (_ & [_ Ha] & _). assert (Hn : times w <> 0) by (rewrite <- times_texts; unfold zlen; destruct (texts_of w); [destruct Hgi|cbn; lia]).
      destruct (Ha Hn) as (H1 & H2 & H3). split; unfold put_at, f_entry, f_place, f_text; cbn [fst snd]; [exact H1|]. destruct g as [v|]; [auto|].
      assert (S : is_switch p = true) by (apply H2; destruct w as [n|ns|l]; [eauto| |]; cbn in Hgi; apply in_map_iff in Hgi as (? & ? & _); discriminate). destruct p; try discriminate; exact I.
    - intros i e w run Ee Ew Er. rewrite nth_error_map in Ew, Er. destruct (nth_error reqs i) as [[p w']|] eqn:Ei; [|discriminate]. cbn [option_map snd] in Ew, Er. injection Ew as ->. injection Er as <-.
      destruct (Hw i e p w Ee Ei) as (Hf & Ha & Hfull). split; [exact Hf|]. split.
      + intros Hn. destruct p as [p|]; [|destruct (Hn (proj1 Ha))]. split; [destruct w; reflexivity|]. rewrite (texts_puts_nth reqs 0 i (Some p) w Ei : texts_for i (puts 0 reqs) = _). rewrite texts_put, Nat.eqb_refl.
        destruct (Z.eq_dec (times w) 0) as [Z0|Z0].
        { rewrite <- times_texts in Z0. destruct (texts_of w); [destruct (is_switch p); reflexivity|]. rewrite zlen_cons in Z0. pose proof (zlen_nonneg l). lia. }
        destruct Ha as [_ Ha]. destruct (Ha Z0) as (_ & H2 & _). destruct (is_switch p) eqn:Es.
        * destruct (proj1 H2 eq_refl) as (n & ->). cbn. clear. induction n; cbn; congruence.
        * destruct w as [n|ns|l]; [assert (false = true) by (apply H2; eauto); discriminate| |]; cbn [texts_of]; rewrite map_map; reflexivity.
      + intros Hn. destruct p as [p|]; [destruct (proj1 Ha Hn)|]. destruct Ha as [_ Ha]. split.
        * destruct w as [n|ns|l]; [rewrite (Ha n eq_refl); reflexivity| |reflexivity]. cbn [bare texts_of]. rewrite map_map. reflexivity.
        * intros a Hha. left. destruct Hf as [[_ Hmax] _]. assert (E : zlen (bare (None, w)) = times w).
          { destruct w as [n|ns|l]; cbn [bare times]; [rewrite (Ha n eq_refl); reflexivity|unfold zlen; rewrite map_length; reflexivity|reflexivity]. }
          refine (eq_trans E _). destruct (Z.ltb_spec (times w) (h_maxcount (e_hdr e))) as [Hlt|]; [|lia]. rewrite (Hfull eq_refl Hlt) in Hha. discriminate. }
  destruct (C74_every_line ints posix cap tab _ _ _ jo jc jp fuel argv h s en a0 Ht Hx Hc Hs) as (h' & s' & tab' & en' & H1 & H2 & H3).
  exists h', s', tab', en'. split; [exact H1|]. split; [exact H2|]. intros i e p w Ee Ei. apply H3; auto. rewrite nth_error_map, Ei. reflexivity.
Qed.

(** ** What cannot be written down *)
(** Positional texts and file names leave no gaps: if such an entry has room left after a parse without errors, nothing was given to
    the entries without options behind it, whatever the command line. *)
Theorem C74_no_gaps :
  forall ints posix cap tab rest jo jc jp fuel argv h s en a0 h' s' tab' en' i ei ei' j ej ej',
  reached ints tab -> call cap tab en h argv a0 rest fuel -> Forall (safe_value ints) rest ->
  parse posix jo jc jp fuel (zlen (a0 :: rest)) argv h s tab en = Ok (h', s', tab', en') -> end_count en' = 0 ->
  (i < j)%nat -> nth_error tab i = Some ei -> nth_error tab' i = Some ei' -> nth_error tab j = Some ej -> nth_error tab' j = Some ej' ->
  no_options (e_hdr ei) -> no_options (e_hdr ej) -> (exists p, e_body ei = KStr p) \/ (exists p, e_body ei = KFile p) -> kcount (e_body ej) <> None ->
  forall n, kcount (e_body ei') = Some n -> n < h_maxcount (e_hdr ei) -> kcount (e_body ej') = Some 0.
Proof.
  intros ints posix cap tab rest jo jc jp fuel argv h s en a0 h' s' tab' en' i ei ei' j ej ej' Ht Hc Hs Hp Hz Hij Ei Ei' Ej Ej' Ni Nj Hk Kj n Hn Hlt.
  destruct (proj1 (C59_accepted_iff strtod rexmatch sp Hd ints posix cap tab rest jo jc jp fuel argv h s en a0 Ht Hc Hs)) as (os & pos & runs & Hsp & Hsh); [eauto 7|].
  destruct (C59_accepted_values strtod rexmatch sp Hd ints posix cap tab rest jo jc jp fuel argv h s en a0 os pos runs Ht Hc Hs Hsp Hsh) as (h2 & s2 & tab2 & en2 & Hp2 & _ & Hv).
  rewrite Hp in Hp2. injection Hp2 as <- <- <- <-. destruct Hsh as (Epos & Hlr & Hsh).
  assert (Hr : forall k e, nth_error tab k = Some e -> exists r, nth_error runs k = Some r).
  { intros k e E. assert (Hl2 : (k < List.length tab)%nat) by (apply nth_error_Some; congruence). destruct (nth_error runs k) as [r|] eqn:E2; [eauto|apply nth_error_None in E2; lia]. }
  destruct (Hr i ei Ei) as (ri & Eri). destruct (Hr j ej Ej) as (rj & Erj).
  assert (Ki : kcount (e_body ei) <> None) by (destruct Hk as [(p & ->)|(p & ->)]; discriminate).
  destruct (Hv i ei ri Ei Eri) as (x & Ex & _ & Hci). rewrite Ei' in Ex. injection Ex as <-. destruct (Hci Ki) as [Hci1 Hci2].
  destruct (Hv j ej rj Ej Erj) as (x & Ex & _ & Hcj). rewrite Ej' in Ex. injection Ex as <-. destruct (Hcj Kj) as [Hcj1 _].
  assert (Hnone : forall k e, nth_error tab k = Some e -> no_options (e_hdr e) -> given_to k os = []).
  { intros k e E N. apply (options_only (map e_hdr tab) posix rest os pos Hsp k (e_hdr e)); auto. rewrite nth_error_map, E. reflexivity. }
  rewrite (Hnone j ej Ej Nj) in Hcj1. rewrite (Hnone i ei Ei Ni) in Hci1, Hci2. cbn [app] in *.
  destruct rj as [|a rj]; [exact Hcj1|]. exfalso. destruct (Hsh i ei ri Ei Eri) as (_ & Hsat & Hgreedy). rewrite (Hnone i ei Ei Ni) in Hsat, Hgreedy. cbn [app] in *.
  assert (Hh : exists b, hd_error (List.concat (skipn (S i) runs)) = Some b).
  { assert (Hin : In (a :: rj) (skipn (S i) runs)).
    { apply (nth_error_In _ (j - S i)). rewrite nth_error_skipn. replace (S i + (j - S i))%nat with j by lia. exact Erj. }
    destruct (List.concat (skipn (S i) runs)) as [|b l] eqn:E; [|cbn; eauto]. exfalso. apply in_split in Hin as (l1 & l2 & Hin). rewrite Hin, concat_app in E. cbn in E. destruct (List.concat l1); discriminate. }
  destruct Hh as (b & Hb). apply (Hgreedy Ni b Hb). rewrite Hci1 in Hn. injection Hn as <-. split; [exact Ki|]. split; [exact Hlt|].
  assert (Hinv : Inv rexmatch ints (e_hdr ei) (e_body ei)) by (apply (reached_ready strtod rexmatch lm sp Hd) in Ht; rewrite Forall_forall in Ht; apply (Ht ei (nth_error_In tab i Ei))).
  assert (Hsz : zlen (ri ++ [b]) <= zlen (slots_reset (e_body ei))).
  { rewrite (slots_size rexmatch ints ei Hinv Ki) by (destruct Hk as [(p & ->)|(p & ->)]; discriminate). unfold zlen in *. rewrite map_length in Hlt. rewrite app_length. cbn. lia. }
  change [Some b] with (map Some [b]). rewrite <- map_app. destruct Hk as [(p & Eb)|(p & Eb)].
  - apply (accept_all strtod rexmatch sp ei _ VText); [rewrite Eb; discriminate|exact Hsz|]. intros x v0 _. rewrite Eb. reflexivity.
  - apply (accept_all strtod rexmatch sp ei _ (fun x => VFile x (arg_basename sp x) (arg_extension (arg_basename sp x)))); [rewrite Eb; discriminate|exact Hsz|]. intros x v0 _. rewrite Eb. cbn.
    exists (arg_basename sp x), (arg_extension (arg_basename sp x)). split; [apply PropFile.arg_basename_spec|]. split; auto. apply PropFile.arg_extension_spec.
Qed.
End Convey.

(** ** Examples *)
Local Open Scope string_scope.
Local Open Scope list_scope.
Local Open Scope Z_scope.
(** A switch and a number with long options only, one required text and up to two file names as positional arguments *)
Definition way_tab : list (entry (body Z)) := [arg_litn None (ExTable.o "verbose") 0 3 None; arg_strn None None None 1 1 None;
  arg_intn (fun _ => 7) (ExTable.o "n") (ExTable.o "num,count") None 0 3 None; arg_filen None None None 0 2 None].
Definition way_reqs : list (option place * wish) := [(Some (LongSwitch (lit "verb")), WTimes 2); (None, WTexts [lit "--count=1"]);
  (Some (LongEquals (lit "count")), WNumbers [-5; 2147483647]); (None, WTexts [lit "a/b.c"])].
Definition way_line : list string := ["--verb"; "--verb"; "--count=-5"; "--count=2147483647"; "--"; "--count=1"; "a/b.c"].
Lemma way_written : all_written way_reqs = map lit way_line.
Proof. vm_compute. reflexivity. Qed.
Lemma way_reached : reached ExTable.strtod ExTable.rexmatch Long64 unix_seps true way_tab.
Proof. apply ex_made; [repeat constructor; cbn; lia|cbn; intros e [<-|[<-|[<-|[<-|[]]]]]; exact I]. Qed.
Lemma way_call args : ExTable.strs_cstr (map lit args) = true -> call 4 way_tab (ExTable.en 4) (ExTable.heap0 ("p" :: args)) 1 (lit "p") (map lit args) (S (total (map lit args))).
Proof. intros H. destruct (ExTable.call_ok "p" args 4 0 ltac:(lia) H) as [K1 K2 K3 K4 K5]. rewrite Nat.add_0_r in *. constructor; auto. apply ExTable.good_hdrs_ok. reflexivity. Qed.
Notation way_parsed args := (karg_parse ExTable.strtod ExTable.rexmatch Long64 unix_seps false ExTable.jo ExTable.jc ExTable.jp (S (total (map lit args))) (zlen (lit "p" :: map lit args)) 1
  (ExTable.heap0 ("p" :: args)) ExTable.s0 way_tab (ExTable.en 4)).
Lemma way_fits : forall i e w, nth_error way_tab i = Some e -> nth_error (map snd way_reqs) i = Some w -> fits ExTable.strtod ExTable.rexmatch unix_seps true e w.
Proof.
  assert (Hv : Forall (KindsSpec.safe_value Long64 true) (map lit ["--count=1"; "a/b.c"])) by (apply safe_values; vm_compute; reflexivity).
  intros i e w He Hr. destruct i as [|[|[|[|i]]]]; [injection He as <-; injection Hr as <-|injection He as <-; injection Hr as <-|injection He as <-; injection Hr as <-|injection He as <-; injection Hr as <-|destruct i; discriminate].
  all: split; [cbn; lia|cbn].
  - exact I.
  - rewrite Forall_forall in *. intros x Hx. apply Hv. cbn in *. tauto.
  - repeat constructor; cbn; discriminate.
  - rewrite Forall_forall in *. intros x Hx. apply Hv. cbn in *. tauto.
Qed.
Definition way_outcome (tab' : list (entry (body Z))) : Prop :=
  (exists e, nth_error tab' 0 = Some e /\ kcount (e_body e) = Some 2) /\
  (exists e, nth_error tab' 1 = Some e /\ kcount (e_body e) = Some 1 /\ firstn 1 (slots (e_body e)) = [VText (lit "--count=1")]) /\
  (exists e, nth_error tab' 2 = Some e /\ kcount (e_body e) = Some 2 /\ firstn 2 (slots (e_body e)) = [VInt (-5); VInt 2147483647]) /\
  (exists e, nth_error tab' 3 = Some e /\ kcount (e_body e) = Some 1).
Lemma way_fulfilled tab' : (forall i e w, nth_error way_tab i = Some e -> nth_error (map snd way_reqs) i = Some w -> kcount (e_body e) <> None ->
  exists e', nth_error tab' i = Some e' /\ fulfilled ExTable.strtod ExTable.rexmatch unix_seps e e' w) -> way_outcome tab'.
Proof.
  intros F. split; [|split; [|split]].
  - destruct (F 0%nat _ _ eq_refl eq_refl ltac:(discriminate)) as (e & A & B & C). exists e. auto.
  - destruct (F 1%nat _ _ eq_refl eq_refl ltac:(discriminate)) as (e & A & B & C). exists e. auto.
  - destruct (F 2%nat _ _ eq_refl eq_refl ltac:(discriminate)) as (e & A & B & C). exists e. auto.
  - destruct (F 3%nat _ _ eq_refl eq_refl ltac:(discriminate)) as (e & A & B & C). exists e. auto.
Qed.
Example C74_way_case : exists h' s' tab' en', way_parsed way_line = Ok (h', s', tab', en') /\ end_count en' = 0 /\ way_outcome tab'.
Proof.
  destruct (C74_every_way ExTable.strtod ExTable.rexmatch unix_seps ex_contract true false 4 way_tab way_reqs ExTable.jo ExTable.jc ExTable.jp (S (total (map lit way_line))) 1
    (ExTable.heap0 ("p" :: way_line)) ExTable.s0 (ExTable.en 4) (lit "p") way_reached) as (h' & s' & tab' & en' & P & Z0 & F).
  - rewrite way_written. apply way_call. reflexivity.
  - rewrite way_written. apply safe_values; vm_compute; reflexivity.
  - reflexivity.
  - intros i e p w He Hr. split; [apply (way_fits i e w He); rewrite nth_error_map, Hr; reflexivity|].
    destruct i as [|[|[|[|i]]]]; [injection He as <-; injection Hr as <- <-|injection He as <-; injection Hr as <- <-|injection He as <-; injection Hr as <- <-|injection He as <-; injection Hr as <- <-|destruct i; discriminate].
    + split; [|discriminate]. split; [intros [_ E]; discriminate|]. intros _. split; [|split].
      * split; [discriminate|]. split; [cbn; intuition discriminate|]. eexists. split; [apply long_find_iff; vm_compute; reflexivity|discriminate].
      * split; eauto.
      * cbn. intros s [E|[E|[]]]; discriminate.
    + split; [split; [split; reflexivity|discriminate]|]. cbn. lia.
    + split; [|discriminate]. split; [intros [_ E]; discriminate|]. intros _. split; [|split].
      * split; [discriminate|]. split; [cbn; intuition discriminate|]. eexists. split; [apply long_find_iff; vm_compute; reflexivity|discriminate].
      * split; [discriminate|intros [n E]; discriminate].
      * vm_compute. intros s [E|[E|[]]]; injection E as <-; discriminate.
    + split; [split; [split; reflexivity|discriminate]|]. reflexivity.
  - rewrite way_written in P. exists h', s', tab', en'. split; [exact P|]. split; [exact Z0|]. apply way_fulfilled. intros i e w He Hw Hk.
    rewrite nth_error_map in Hw. destruct (nth_error way_reqs i) as [[p w']|] eqn:E; [|discriminate]. injection Hw as <-. eauto.
Qed.
(** The same wishes, with the options in another order and spelled in other ways. *)
Definition mixed : list filled := [(ShortAttached "n", 2%nat, lit "-5"); (LongSwitch (lit "verbose"), 0%nat, []); (LongNext (lit "n"), 2%nat, lit "2147483647"); (LongSwitch (lit "v"), 0%nat, [])].
Definition mixed_line : list string := ["-n-5"; "--verbose"; "--n"; "2147483647"; "--v"; "--"; "--count=1"; "a/b.c"].
Lemma mixed_written : line mixed (List.concat (map bare way_reqs)) = map lit mixed_line.
Proof. vm_compute. reflexivity. Qed.
Example C74_line_case : exists h' s' tab' en', way_parsed mixed_line = Ok (h', s', tab', en') /\ end_count en' = 0 /\ way_outcome tab'.
Proof.
  destruct (C74_every_line ExTable.strtod ExTable.rexmatch unix_seps ex_contract true false 4 way_tab (map snd way_reqs) mixed (map bare way_reqs) ExTable.jo ExTable.jc ExTable.jp (S (total (map lit mixed_line))) 1
    (ExTable.heap0 ("p" :: mixed_line)) ExTable.s0 (ExTable.en 4) (lit "p") way_reached) as (h' & s' & tab' & en' & P & Z0 & F).
  - split; [reflexivity|]. split; [reflexivity|]. split.
    + repeat constructor; unfold of_entry, text_ok; cbn [f_place f_entry f_text fst snd]; try discriminate; try (cbn; intuition discriminate).
      * eexists. split; [apply short_find_iff; vm_compute; reflexivity|discriminate].
      * eexists. split; [apply long_find_iff; vm_compute; reflexivity|discriminate].
      * eexists. split; [apply long_find_iff; vm_compute; reflexivity|reflexivity].
      * eexists. split; [apply long_find_iff; vm_compute; reflexivity|discriminate].
    + intros i e w run He Hw Hr. split; [exact (way_fits i e w He Hw)|].
      destruct i as [|[|[|[|i]]]]; [injection He as <-; injection Hw as <-; injection Hr as <-|injection He as <-; injection Hw as <-; injection Hr as <-|injection He as <-; injection Hw as <-; injection Hr as <-|injection He as <-; injection Hw as <-; injection Hr as <-|destruct i; discriminate].
      * split; [intros _; split; reflexivity|intros [_ E]; discriminate].
      * split; [intros N; destruct N; split; reflexivity|]. intros _. split; [reflexivity|]. intros a _. left. reflexivity.
      * split; [intros _; split; vm_compute; reflexivity|intros [_ E]; discriminate].
      * split; [intros N; destruct N; split; reflexivity|]. intros _. split; [reflexivity|]. intros a H. discriminate H.
  - rewrite mixed_written. apply way_call. reflexivity.
  - rewrite mixed_written. apply safe_values; vm_compute; reflexivity.
  - rewrite mixed_written in P. exists h', s', tab', en'. split; [exact P|]. split; [exact Z0|]. apply way_fulfilled. exact F.
Qed.
(** One file name in the last of the positional entries, which has room left. *)
Example C74_no_gaps_case : exists h' s' tab' en', karg_parse ExTable.strtod ExTable.rexmatch Long64 unix_seps false ExTable.jo ExTable.jc ExTable.jp (S (total (map lit ["a"]))) 2 1
    (ExTable.heap0 ["p"; "a"]) ExTable.s0 [arg_filen None None None 0 2 None; arg_strn None None None 0 1 None] (ExTable.en 4) = Ok (h', s', tab', en') /\ end_count en' = 0 /\
  map (fun e => kcount (e_body e)) tab' = [Some 1; Some 0].
Proof.
  match goal with |- exists h' s' tab' en', ?r = _ /\ _ => assert (X : match r with Ok (_, _, t, n) => end_count n = 0 /\ map (fun e => kcount (e_body e)) t = [Some 1; Some 0] | _ => False end) by (vm_compute; split; reflexivity);
    destruct r as [[[[h' s'] t'] n']| |]; [|elim X|elim X] end. exists h', s', t', n'. destruct X. auto.
Qed.

Print Assumptions C74_every_line.
Print Assumptions C74_every_way.
Print Assumptions C74_no_gaps.
