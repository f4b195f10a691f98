(** The library's own kinds of entries keep their counts and arrays in order. *)
From Verif Require Import Base IntModel IntSpec IntProofs FileModel DateModel DateSpec DateProofs GetoptModel ParseModel ParseSpec GetoptProofs ParseIdeal ParseProofs ParseFacts ParseObserve ParseSafe ParseLemmas ArgModel KindsSpec PropInt PropFile PropDate.
From Coq Require Import ZArith List Ascii String Bool Lia.
Import ListNotations.
Open Scope Z_scope.

(** ** What each entry is given in a parse without errors *)
Section Given.
Context {B : Type}.
Context (scan : hdr -> B -> option (option str -> res (B * Z))).
Context (check : hdr -> B -> option Z).
Context (reset : hdr -> B -> res B).

(** The entry accepts the occurrences one after the other (one without scan function ignores them). *)
Inductive takes_all (h : hdr) : B -> list (option str) -> B -> Prop :=
| takes_nil b : takes_all h b [] b
| takes_cons b f v b1 vs b2 : scan h b = Some f -> f v = Ok (b1, 0) -> takes_all h b1 vs b2 -> takes_all h b (v :: vs) b2
| takes_ignore b v vs b2 : scan h b = None -> takes_all h b vs b2 -> takes_all h b (v :: vs) b2.
Lemma takes_app h b1 vs1 b2 vs2 b3 : takes_all h b1 vs1 b2 -> takes_all h b2 vs2 b3 -> takes_all h b1 (vs1 ++ vs2) b3.
Proof. induction 1; intros H3; cbn; auto; [eapply takes_cons; eauto|apply takes_ignore; auto]. Qed.

Lemma event_grows ev tab errs tab' errs' : ideal_event scan ev (tab, errs) = Ok (tab', errs') -> exists l, errs' = errs ++ l.
Proof.
  destruct ev as [i v|c v]; cbn; [|intros [= <- <-]; eauto].
  destruct (nth_error tab i) as [e|]; [|discriminate]. destruct (scan (e_hdr e) (e_body e)) as [f|]; [|intros [= <- <-]; exists []; rewrite app_nil_r; auto].
  intros H. apply bind_ok in H as ([b c] & _ & H). injection H as _ <-. destruct (c =? 0); [exists []; rewrite app_nil_r; auto|eauto].
Qed.
Lemma events_grow evs : forall tab errs tab' errs', ideal_events scan evs (tab, errs) = Ok (tab', errs') -> exists l, errs' = errs ++ l.
Proof.
  induction evs as [|ev evs IH]; intros tab errs tab' errs' H; cbn [ideal_events] in H; [injection H as _ <-; exists []; rewrite app_nil_r; auto|].
  apply bind_ok in H as ([t e] & H1 & H2). apply event_grows in H1 as (l1 & ->). apply IH in H2 as (l2 & ->). exists (l1 ++ l2). rewrite app_assoc. auto.
Qed.
Lemma nth_lupd {A} (l : list A) : forall i x j, nth_error (lupd l i x) j = if Nat.eqb i j then match nth_error l i with Some _ => Some x | None => None end else nth_error l j.
Proof. induction l; intros [|i] x [|j]; cbn; auto. destruct (Nat.eqb i j); auto. Qed.
Lemma events_given evs : forall tab tab', ideal_events scan evs (tab, []) = Ok (tab', []) ->
  forall i e, nth_error tab i = Some e -> exists b', nth_error tab' i = Some (set_body b' e) /\ takes_all (e_hdr e) (e_body e) (occurrences i evs) b'.
Proof.
  induction evs as [|ev evs IH]; intros tab tab' H i e Hi; cbn [ideal_events] in H.
  - injection H as <-. exists (e_body e). split; [destruct e; auto|constructor].
  - apply bind_ok in H as ([t er] & H1 & H2). pose proof (events_grow _ _ _ _ _ H2) as [l Hl]. symmetry in Hl. apply app_eq_nil in Hl as [-> _].
    destruct ev as [j v|c v]; cbn in H1; [|discriminate].
    destruct (nth_error tab j) as [e0|] eqn:Ej; [|discriminate]. cbn [occurrences flat_map].
    change (flat_map _ evs) with (occurrences i evs).
    destruct (scan (e_hdr e0) (e_body e0)) as [f|] eqn:Es.
    + apply bind_ok in H1 as ([b c] & Hf & H1). injection H1 as <- Hc. destruct (Z.eqb_spec c 0); [subst c|discriminate]. clear Hc.
      destruct (IH _ _ H2 i (if Nat.eqb j i then set_body b e0 else e)) as (b' & E1 & E2).
      { rewrite nth_lupd. destruct (Nat.eqb_spec j i); [rewrite Ej; auto|auto]. }
      destruct (Nat.eqb_spec j i) as [->|]; [|exists b'; auto].
      assert (e0 = e) by congruence. subst e0. exists b'. destruct e; cbn in *. split; auto. eapply takes_cons; eauto.
    + injection H1 as <-. destruct (IH _ _ H2 i e Hi) as (b' & E1 & E2). exists b'. split; auto. destruct (Nat.eqb_spec j i) as [->|]; auto.
      assert (e0 = e) by congruence. subst e0. apply takes_ignore; auto.
Qed.
End Given.

Section Kinds.
Context {D : Type}.
Context (strtod : str -> D * nat).
Context (rexmatch : str -> Z -> str -> res bool).
Context (lm : long_model) (sp : seps).
(** The contract of strtod: it consumes at most the string. *)
Hypothesis strtod_ok : forall s, (snd (strtod s) <= List.length s)%nat.
Notation scan := (kscan strtod rexmatch lm sp).
Notation matchable := (matchable rexmatch).
Notation safe_value := (safe_value lm).
Notation Inv := (Inv rexmatch).

Lemma safe_value_tl ints c s : safe_value ints (c :: s) -> safe_value ints s.
Proof.
  intros [H1 H2]. split; [intros Hi; apply H1; right; auto|]. intros Hi p q E. apply (H2 Hi (c :: p) q). rewrite E. reflexivity.
Qed.
Lemma aset_size {A} (l : list A) i x n : zlen l = n -> 0 <= i -> i < n -> exists l', aset l i x = Ok l' /\ zlen l' = n /\ l' = lupd l (Z.to_nat i) x.
Proof. intros H1 H2 H3. rewrite aset_ok' by lia. eexists. split; [reflexivity|]. rewrite zlen_lupd. auto. Qed.
Lemma str_clear_ok n : forall i (l : list str), 0 <= i -> i + Z.of_nat n <= zlen l -> exists l', str_clear n i l = Ok l' /\ zlen l' = zlen l.
Proof.
  induction n; intros i l Hi Hn; cbn [str_clear]; [eauto|].
  rewrite aset_ok' by lia. cbn [bind]. destruct (IHn (i + 1) (lupd l (Z.to_nat i) [])) as (l' & -> & Hl); rewrite ?zlen_lupd in *; [lia|lia|]. eauto.
Qed.

Lemma reset_inv ints h (b : body D) : Inv ints h b -> exists b' : body D, kreset h b = Ok b' /\ Inv ints h b' /\ (kcount b = None -> kcount b' = None) /\ (kcount b <> None -> kcount b' = Some 0).
Proof.
  intros (Hb & Hm & Hi). destruct b; cbn [kreset bounded kcount] in *.
  - eexists. split; [reflexivity|]. split; [split; [cbn; lia|auto]|]. split; [discriminate|auto].
  - eexists. split; [reflexivity|]. split; [split; [cbn; lia|auto]|]. split; [discriminate|auto].
  - eexists. split; [reflexivity|]. split; [split; [cbn; lia|auto]|]. split; [discriminate|auto].
  - destruct p as [c l]. cbn in *. destruct (str_clear_ok (Z.to_nat c) 0 l) as (l' & E & Hl); [lia|lia|].
    unfold arg_str_resetfn. cbn [str_count str_sval]. rewrite E. cbn [bind]. eexists. split; [reflexivity|]. split; [split; [cbn; lia|auto]|]. split; [discriminate|auto].
  - eexists. split; [reflexivity|]. split; [split; [cbn; lia|auto]|]. split; [discriminate|auto].
  - eexists. split; [reflexivity|]. split; [split; [cbn; lia|auto]|]. split; [discriminate|auto].
  - eexists. split; [reflexivity|]. split; [split; [cbn; lia|auto]|]. split; [discriminate|auto].
  - eexists. split; [reflexivity|]. split; [split; auto|]. split; [auto|contradiction].
Qed.

(** One scan: it accepts and counts one more, or reports an error and changes nothing. *)
Lemma scan_inv ints h (b : body D) f v : Inv ints h b -> (forall s, v = Some s -> safe_value ints s) -> scan h b = Some f ->
  exists b' c, f v = Ok (b', c) /\ Inv ints h b' /\
    (c = 0 /\ (exists n, kcount b = Some n /\ kcount b' = Some (n + 1) /\ n < h_maxcount h) \/ c <> 0 /\ b' = b).
Proof.
  intros (Hb & Hm & Hi) Hv Hs. destruct b; cbn [kscan bounded kcount matchable is_int] in *; try (injection Hs as <-); try discriminate.
  - unfold arg_lit_scanfn. destruct (Z.ltb_spec count (h_maxcount h)).
    + do 2 eexists. split; [reflexivity|]. split; [split; [cbn; lia|auto]|]. left. split; auto. eexists. repeat split; auto.
    + do 2 eexists. split; [reflexivity|]. split; [split; [cbn; lia|auto]|]. right. split; [discriminate|auto].
  - pose proof (arg_int_scanfn_ok lm (h_maxcount h) p v ltac:(lia) ltac:(tauto)) as H.
    assert (Hlt : forall p', arg_int_scanfn lm (h_maxcount h) p v = Ok (p', 0) -> int_count p < h_maxcount h).
    { intros p'. unfold arg_int_scanfn. destruct (Z.eqb_spec (int_count p) (h_maxcount h)); [discriminate|lia]. }
    destruct (arg_int_scanfn lm (h_maxcount h) p v) as [[p' e]|u|].
    + destruct H as (H1 & H2 & H3 & H4). cbn [lift bind]. do 2 eexists. split; [reflexivity|]. split; [split; [cbn; auto|auto]|].
      destruct (Z.eq_dec e 0) as [->|He]; [left|right; rewrite H3; auto].
      split; auto. eexists. cbn. rewrite H4 by auto. eauto.
    + exfalso. destruct H as (_ & s & -> & H). destruct (Hv s eq_refl) as [_ Hn]. exact (Hn (Hi eq_refl) [] s eq_refl H).
    + contradiction.
  - unfold arg_dbl_scanfn. destruct (Z.eqb_spec (dbl_count p) (h_maxcount h)).
    { do 2 eexists. split; [reflexivity|]. destruct p. split; [split; [cbn in *; lia|auto]|]. right. split; [discriminate|auto]. }
    destruct v as [s|]; [|do 2 eexists; split; [reflexivity|]; split; [split; [cbn in *; lia|auto]|]; left; split; auto; eexists; cbn; repeat split; lia].
    pose proof (strtod_ok s) as Hn. destruct (strtod s) as [val n0]. cbn [snd] in Hn.
    destruct (Nat.ltb_spec (List.length s) n0); [lia|]. destruct (skipn n0 s).
    + destruct (aset_size (dbl_dval p) (dbl_count p) val (h_maxcount h)) as (l & -> & Hl & _); try lia. cbn [bind lift].
      do 2 eexists. split; [reflexivity|]. split; [split; [cbn; lia|auto]|]. left. split; auto. eexists. cbn. repeat split; lia.
    + do 2 eexists. split; [reflexivity|]. destruct p. split; [split; auto|]. right. split; [discriminate|auto].
  - unfold arg_str_scanfn. destruct (Z.eqb_spec (str_count p) (h_maxcount h)).
    { do 2 eexists. split; [reflexivity|]. destruct p. split; [split; [cbn in *; lia|auto]|]. right. split; [discriminate|auto]. }
    destruct v as [s|]; [|do 2 eexists; split; [reflexivity|]; split; [split; [cbn in *; lia|auto]|]; left; split; auto; eexists; cbn; repeat split; lia].
    destruct (aset_size (str_sval p) (str_count p) s (h_maxcount h)) as (l & -> & Hl & _); try lia. cbn [bind lift].
    do 2 eexists. split; [reflexivity|]. split; [split; [cbn; lia|auto]|]. left. split; auto. eexists. cbn. repeat split; lia.
  - unfold arg_file_scanfn. destruct (Z.eqb_spec (file_count p) (h_maxcount h)).
    { do 2 eexists. split; [reflexivity|]. destruct p. split; [split; [cbn in *; lia|auto]|]. right. split; [discriminate|auto]. }
    destruct v as [s|]; [|do 2 eexists; split; [reflexivity|]; split; [split; [cbn in *; lia|auto]|]; left; split; auto; eexists; cbn; repeat split; lia].
    destruct (aset_size (file_name p) (file_count p) s (h_maxcount h)) as (l & -> & Hl & _); try lia. cbn [bind lift].
    destruct (aset_size (file_base p) (file_count p) (arg_basename sp s) (h_maxcount h)) as (l2 & -> & Hl2 & _); try lia. cbn [bind lift].
    destruct (aget_ok l2 (file_count p)) as (bn & -> & _); [lia|]. cbn [bind].
    destruct (aset_size (file_ext p) (file_count p) (arg_extension bn) (h_maxcount h)) as (l3 & -> & Hl3 & _); try lia. cbn [bind lift].
    do 2 eexists. split; [reflexivity|]. split; [split; [cbn; lia|auto]|]. left. split; auto. eexists. cbn. repeat split; lia.
  - unfold arg_date_scanfn. destruct (Z.eqb_spec (date_count p) (h_maxcount h)).
    { do 2 eexists. split; [reflexivity|]. destruct p. split; [split; [cbn in *; lia|auto]|]. right. split; [discriminate|auto]. }
    destruct v as [s|]; [|do 2 eexists; split; [reflexivity|]; split; [split; [cbn in *; lia|auto]|]; left; split; auto; eexists; cbn; repeat split; lia].
    destruct (aget_ok (date_tmval p) (date_count p)) as (t & -> & _); [lia|]. cbn [bind].
    destruct (arg_strptime_total (date_format p) s t) as ([t' [[|x r]|]] & ->); cbn [bind lift].
    + destruct (aset_size (date_tmval p) (date_count p) t' (h_maxcount h)) as (l & -> & Hl & _); try lia. cbn [bind lift].
      do 2 eexists. split; [reflexivity|]. split; [split; [cbn; lia|auto]|]. left. split; auto. eexists. cbn. repeat split; lia.
    + do 2 eexists. split; [reflexivity|]. destruct p. split; [split; auto|]. right. split; [discriminate|auto].
    + do 2 eexists. split; [reflexivity|]. destruct p. split; [split; auto|]. right. split; [discriminate|auto].
  - unfold arg_rex_scanfn. destruct (Z.eqb_spec (rex_count p) (h_maxcount h)).
    { do 2 eexists. split; [reflexivity|]. destruct p. split; [split; [cbn in *; lia|auto]|]. right. split; [discriminate|auto]. }
    destruct v as [s|]; [|do 2 eexists; split; [reflexivity|]; split; [split; [cbn in *; lia|auto]|]; left; split; auto; eexists; cbn; repeat split; lia].
    destruct (Hv s eq_refl) as [Hc _]. destruct (Hm s Hc) as [r ->]. cbn [bind]. destruct r.
    + destruct (aset_size (rex_sval p) (rex_count p) s (h_maxcount h)) as (l & -> & Hl & _); try lia. cbn [bind lift].
      do 2 eexists. split; [reflexivity|]. split; [split; [cbn; lia|auto]|]. left. split; auto. eexists. cbn. repeat split; lia.
    + do 2 eexists. split; [reflexivity|]. destruct p. split; [split; auto|]. right. split; [discriminate|auto].
Qed.

Lemma kinds_safe ints : safe_kinds scan kreset (Inv ints) (safe_value ints).
Proof.
  constructor.
  - intros c s. apply safe_value_tl.
  - intros h b H. destruct (reset_inv ints h b H) as (b' & E & H' & _). eauto.
  - intros h b f v H Hv Hs. destruct (scan_inv ints h b f v H Hv Hs) as (b' & c & E & H' & _). eauto.
Qed.

(** ** Constructors *)
Lemma zlen_fresh {A} (j : nat -> A) n : 0 <= n -> zlen (fresh j n) = n.
Proof. intros H. unfold zlen, fresh. rewrite map_length, seq_length. lia. Qed.
Lemma zlen_filled {A} (x : A) n : 0 <= n -> zlen (filled x n) = n.
Proof. intros H. unfold zlen, filled. rewrite repeat_length. lia. Qed.
Lemma built_bounded (e : entry (body D)) : built e -> bounded (e_hdr e) (e_body e).
Proof.
  induction 1 as [so lo mn mx gl H|j so lo dt mn mx gl H|j so lo dt mn mx gl H|so lo dt mn mx gl H|so lo dt mn mx gl H|so lo f dt mn mx gl H|so lo pat dt mn mx fl gl H|dt gl|e H IH].
  9: { destruct e as [h b]. cbn in *. destruct b; exact IH. }
  all: cbn; rewrite ?zlen_fresh, ?zlen_filled by auto; repeat split; auto; lia.
Qed.

(** ** One accepted occurrence *)
Lemma int_convert_not_zero m s e : int_convert m s = Ok (inr e) -> e <> 0.
Proof.
  unfold int_convert. intros H. apply bind_ok in H as (r & _ & H). destruct r as [[val rest]|]; [|injection H as <-; discriminate].
  match type of H with context [let '(e, v) := ?x in _] => destruct x as [e1 v1] end.
  destruct (Z.eqb_spec e1 0); [discriminate|]. injection H as <-. auto.
Qed.
Definition same_kind (b b' : body D) : Prop :=
  match b, b' with
  | KLit _, KLit _ | KInt _, KInt _ | KDbl _, KDbl _ | KStr _, KStr _ | KFile _, KFile _ | KRem, KRem => True
  | KDate p, KDate p' => date_format p' = date_format p
  | KRex p, KRex p' => rex_pattern p' = rex_pattern p /\ rex_flags p' = rex_flags p
  | _, _ => False
  end.
Lemma same_kind_refl b : same_kind b b.
Proof. destruct b; cbn; auto. Qed.
Lemma same_kind_trans b1 b2 b3 : same_kind b1 b2 -> same_kind b2 b3 -> same_kind b1 b3.
Proof. destruct b1, b2, b3; cbn; try tauto; intuition congruence. Qed.
Notation denotes := (denotes strtod rexmatch lm sp).
Notation stored := (stored strtod rexmatch lm sp).
Lemma denotes_kind b b' v0 s v : same_kind b b' -> denotes b v0 s v -> denotes b' v0 s v.
Proof. destruct b, b'; cbn; try tauto; try (intros ->; auto). intros [-> ->]; auto. Qed.

Lemma map_lupd {A B} (f : A -> B) l : forall i x, map f (lupd l i x) = lupd (map f l) i (f x).
Proof. induction l; intros [|i] x; cbn; auto. f_equal. apply IHl. Qed.
Lemma files_lupd : forall (n b e : list str) i x y z, @files D (lupd n i x) (lupd b i y) (lupd e i z) = lupd (files n b e) i (VFile x y z).
Proof.
  induction n as [|n0 n IH]; intros b e i x y z; [reflexivity|]. destruct b as [|b0 b]; [destruct i; reflexivity|].
  destruct e as [|e0 e]; [destruct i; reflexivity|]. destruct i; cbn; auto. f_equal. apply IH.
Qed.
Lemma files_length (n b e : list str) m : List.length n = m -> List.length b = m -> List.length e = m -> List.length (@files D n b e) = m.
Proof. revert n b e. induction m; intros [|x n] [|y b] [|z e]; cbn; try discriminate; auto. Qed.

Lemma scan_accept ints h (b : body D) f v b' n : Inv ints h b -> (forall s, v = Some s -> safe_value ints s) -> scan h b = Some f -> f v = Ok (b', 0) -> kcount b = Some n ->
  same_kind b b' /\
  match v, b with
  | Some s, KLit _ => slots b' = slots b
  | Some s, _ => exists v0 x, nth_error (slots b) (Z.to_nat n) = Some v0 /\ denotes b v0 s x /\ slots b' = lupd (slots b) (Z.to_nat n) x
  | None, _ => slots b' = slots b
  end.
Proof.
  intros (Hb & Hm & Hi) Hv Hs Hf Hk. 
  assert (Hsl : forall A (l : list A) (g : A -> @value D) c m, zlen l = m -> 0 <= c < m -> exists v0, nth_error (map g l) (Z.to_nat c) = Some (g v0) /\ nth_error l (Z.to_nat c) = Some v0).
  { intros A l g c m Hl Hc. destruct (nth_error l (Z.to_nat c)) as [v0|] eqn:E.
    - exists v0. split; auto. apply map_nth_error; auto.
    - apply nth_error_None in E. unfold zlen in Hl. lia. }
  destruct b as [c|p|p|p|p|p|p|]; cbn [kscan bounded kcount matchable is_int] in *; try discriminate; injection Hs as <-; injection Hk as <-.
  - unfold arg_lit_scanfn in Hf. destruct (c <? h_maxcount h); [|discriminate]. injection Hf as <-. cbn. destruct v; auto.
  - unfold arg_int_scanfn in Hf. destruct (Z.eqb_spec (int_count p) (h_maxcount h)); [discriminate|].
    destruct v as [s|]; [|injection Hf as <-; cbn; auto].
    pose proof (int_scan_zero_sound (h_maxcount h) p) as Z0. unfold arg_int_scanfn in Z0. destruct (Z.eqb_spec (int_count p) (h_maxcount h)) in Z0; [contradiction|].
    pose proof (int_convert_not_zero lm s) as Hnz.
    destruct (int_convert lm s) as [[x|e]| |] eqn:Ec; cbn [bind lift] in Hf; try discriminate; [|exfalso; injection Hf as _ ->; eapply Hnz; eauto].
    rewrite aset_ok' in Hf by lia. cbn [bind lift] in Hf. injection Hf as <-. split; [exact I|].
    destruct (Hsl _ (int_ival p) (@VInt D) (int_count p) (h_maxcount h)) as (v0 & E1 & _); [tauto|lia|].
    exists (VInt v0), (VInt x). split; [exact E1|]. split; [|cbn; apply map_lupd]. exists x. split; auto. intros ->.
    specialize (Z0 _ s ltac:(lia) ltac:(tauto) ltac:(rewrite Ec; cbn [bind]; rewrite aset_ok' by lia; reflexivity)).
    destruct Z0 as (x' & H1 & H2 & _ & H3). cbn in H3. rewrite nth_error_lupd_eq in H3 by (unfold zlen in *; lia). injection H3 as <-. auto.
  - unfold arg_dbl_scanfn in Hf. destruct (Z.eqb_spec (dbl_count p) (h_maxcount h)); [discriminate|].
    destruct v as [s|]; [|injection Hf as <-; cbn; auto].
    pose proof (strtod_ok s) as Hn. destruct (strtod s) as [val n0] eqn:Es. cbn [snd] in Hn.
    destruct (Nat.ltb_spec (List.length s) n0); [discriminate|]. destruct (skipn n0 s) eqn:Ek; [|discriminate].
    rewrite aset_ok' in Hf by lia. cbn [bind lift] in Hf. injection Hf as <-. split; [exact I|].
    destruct (Hsl _ (dbl_dval p) (@VDbl D) (dbl_count p) (h_maxcount h)) as (v0 & E1 & _); [tauto|lia|].
    exists (VDbl v0), (VDbl val). split; [exact E1|]. split; [|cbn; apply map_lupd]. exists val. split; auto. rewrite Es. f_equal.
    assert (List.length (skipn n0 s) = 0%nat) by (rewrite Ek; auto). rewrite skipn_length in *. lia.
  - unfold arg_str_scanfn in Hf. destruct (Z.eqb_spec (str_count p) (h_maxcount h)); [discriminate|].
    destruct v as [s|]; [|injection Hf as <-; cbn; auto].
    rewrite aset_ok' in Hf by lia. cbn [bind lift] in Hf. injection Hf as <-. split; [exact I|].
    destruct (Hsl _ (str_sval p) (@VText D) (str_count p) (h_maxcount h)) as (v0 & E1 & _); [tauto|lia|].
    exists (VText v0), (VText s). split; [exact E1|]. split; [|cbn; apply map_lupd]. reflexivity.
  - pose proof (C20_file_scan sp (h_maxcount h) p) as H20. unfold arg_file_scanfn in Hf, H20. destruct (Z.eqb_spec (file_count p) (h_maxcount h)); [discriminate|].
    destruct v as [s|]; [|injection Hf as <-; cbn; auto].
    destruct (H20 s) as (bn & ex & B1 & B2 & _ & _ & _ & _ & E); try tauto; [lia|]. rewrite E in Hf. cbn [lift bind] in Hf. injection Hf as <-. split; [exact I|].
    assert (Hlen : List.length (@files D (file_name p) (file_base p) (file_ext p)) = Z.to_nat (h_maxcount h)) by (apply files_length; unfold zlen in *; lia).
    destruct (nth_error (@files D (file_name p) (file_base p) (file_ext p)) (Z.to_nat (file_count p))) as [v0|] eqn:E1; [|apply nth_error_None in E1; lia].
    exists v0, (VFile s bn ex). split; [exact E1|]. split; [|cbn; apply files_lupd]. exists bn, ex. auto.
  - unfold arg_date_scanfn in Hf. destruct (Z.eqb_spec (date_count p) (h_maxcount h)); [discriminate|].
    destruct v as [s|]; [|injection Hf as <-; cbn; auto].
    destruct (Hsl _ (date_tmval p) (@VDate D) (date_count p) (h_maxcount h)) as (v0 & E1 & E2); [tauto|lia|].
    destruct (aget_ok (date_tmval p) (date_count p)) as (t & Et & En); [lia|]. rewrite Et in Hf. cbn [bind] in Hf.
    assert (t = v0) by congruence. subst v0.
    destruct (arg_strptime s (date_format p) t) as [[t' [[|x r]|]]| |] eqn:Ea; cbn [bind lift] in Hf; try discriminate.
    rewrite aset_ok' in Hf by lia. cbn [bind lift] in Hf. injection Hf as <-. split; [reflexivity|].
    exists (VDate t), (VDate t'). split; [exact E1|]. split; [|cbn; apply map_lupd]. exists t, t'. split; auto. split; auto.
    apply arg_strptime_iff; auto. exact (proj1 (Hv s eq_refl)).
  - unfold arg_rex_scanfn in Hf. destruct (Z.eqb_spec (rex_count p) (h_maxcount h)); [discriminate|].
    destruct v as [s|]; [|injection Hf as <-; cbn; auto].
    destruct (rexmatch (rex_pattern p) (rex_flags p) s) as [[|]| |] eqn:Er; cbn [bind lift] in Hf; try discriminate.
    rewrite aset_ok' in Hf by lia. cbn [bind lift] in Hf. injection Hf as <-. split; [split; reflexivity|].
    destruct (Hsl _ (rex_sval p) (@VText D) (rex_count p) (h_maxcount h)) as (v0 & E1 & _); [tauto|lia|].
    exists (VText v0), (VText s). split; [exact E1|]. split; [|cbn; apply map_lupd]. split; auto.
Qed.

(** ** All that an entry is given *)
Notation takes_all := (takes_all scan).
Lemma feed_given ints h i : forall args (b : body D) rej b' l r, Inv ints h b -> Forall (safe_value ints) args ->
  feed scan h i b args rej = Ok (b', l, r) ->
  exists run, args = run ++ l /\ takes_all h b (map Some run) b' /\ Inv ints h b'.
Proof.
  induction args as [|a args IH]; intros b rej b' l r Hb Ha H; cbn [feed] in H.
  - injection H as <- <- _. exists []. split; auto. split; auto. constructor.
  - destruct (scan h b) as [f|] eqn:Es; [|injection H as <- <- _; exists []; split; auto; split; auto; constructor].
    apply bind_ok in H as ([b1 c] & Hf & H). inversion_clear Ha as [|? ? Ha1 Ha2].
    destruct (scan_inv ints h b f (Some a) Hb ltac:(intros s [= <-]; auto) Es) as (b2 & c2 & Hf2 & Hb2 & Hor).
    rewrite Hf in Hf2. injection Hf2 as <- <-. destruct (Z.eqb_spec c 0).
    + subst c. apply IH in H as (run & -> & H & HI); auto. exists (a :: run). split; auto. split; auto. eapply takes_cons; eauto.
    + injection H as <- <- _. destruct Hor as [[? _]|[_ ->]]; [contradiction|]. exists []. split; auto. split; auto. constructor.
Qed.
Lemma positional_given ints : forall (tab : list (entry (body D))) i args rej tab', Forall (fun e => Inv ints (e_hdr e) (e_body e)) tab -> Forall (safe_value ints) args ->
  ideal_positional scan i tab args rej = Ok (tab', []) ->
  exists runs : list (list str), args = List.concat runs /\ List.length runs = List.length tab /\
  forall k e run, nth_error tab k = Some e -> nth_error runs k = Some run ->
    (run <> [] -> no_options (e_hdr e)) /\ exists b', nth_error tab' k = Some (set_body b' e) /\ takes_all (e_hdr e) (e_body e) (map Some run) b'.
Proof.
  induction tab as [|e tab IH]; intros i args rej tab' Ht Ha H; cbn [ideal_positional] in H.
  { destruct args; [|destruct rej; discriminate]. exists []. split; auto. split; auto. intros [|?]; discriminate. }
  destruct args as [|a args].
  { injection H as <-. exists (repeat [] (S (List.length tab))). split; [|split; [apply repeat_length|]].
    - generalize (S (List.length tab)). intros n. induction n; cbn; auto.
    - intros k e0 run Hk Hr. apply nth_error_In, repeat_spec in Hr. subst run. split; [contradiction|]. exists (e_body e0).
      split; [rewrite Hk; destruct e0; auto|constructor]. }
  inversion_clear Ht as [|? ? He Ht']. destruct (positional_hdr (e_hdr e)) eqn:Ep.
  - apply bind_ok in H as ([[b l] r] & Hf & H). apply bind_ok in H as ([t er] & Hp & H). injection H as <- ->.
    assert (Hl : exists run, a :: args = run ++ l /\ takes_all (e_hdr e) (e_body e) (map Some run) b) by (apply feed_given with (ints := ints) in Hf as (run & ? & ? & _); eauto).
    destruct Hl as (run & El & Hrun). rewrite El in Ha. apply Forall_app in Ha as [_ Ha].
    destruct (IH _ _ _ _ Ht' Ha Hp) as (runs & -> & Hlen & Hk). exists (run :: runs). rewrite El. split; auto. split; [cbn; auto|].
    intros [|k] e0 run0; cbn [nth_error]; [|auto]. intros [= <-] [= <-]. split; [intros _; apply positional_hdr_iff; auto|]. eauto.
  - apply bind_ok in H as ([t er] & Hp & H). injection H as <- ->.
    destruct (IH _ _ _ _ Ht' Ha Hp) as (runs & El & Hlen & Hk). exists ([] :: runs). split; auto. split; [cbn; auto|].
    intros [|k] e0 run0; cbn [nth_error]; [|auto]. intros [= <-] [= <-]. split; [contradiction|]. exists (e_body e). split; [destruct e; auto|constructor].
Qed.
(** Slots after accepting a sequence. *)
Lemma takes_stored ints h b vs b' : takes_all h b vs b' -> forall n, Inv ints h b -> (forall s, In (Some s) vs -> safe_value ints s) -> kcount b = Some n ->
  Inv ints h b' /\ same_kind b b' /\ kcount b' = Some (n + zlen vs) /\
  (match b with KLit _ => slots b' = slots b | _ => True end) /\
  (forall k, (k < Z.to_nat n)%nat -> nth_error (slots b') k = nth_error (slots b) k) /\
  forall j, match nth_error vs j, b with
      | Some (Some s), KLit _ => True
      | Some (Some s), _ => exists v0 x, nth_error (slots b) (Z.to_nat n + j) = Some v0 /\ nth_error (slots b') (Z.to_nat n + j) = Some x /\ denotes b v0 s x
      | _, _ => nth_error (slots b') (Z.to_nat n + j) = nth_error (slots b) (Z.to_nat n + j)
      end.
Proof.
  induction 1 as [b|b f v b1 vs b2 Hs Hf Ht IH|b v vs b2 Hs Ht IH]; intros n Hb Hv Hn.
  - split; auto. split; [apply same_kind_refl|]. change (zlen (@nil (option str))) with 0. rewrite Z.add_0_r. split; auto. split; [destruct b; auto|]. split; auto. intros [|j]; reflexivity.
  - assert (Hv' : forall s, v = Some s -> safe_value ints s) by (intros s ->; apply Hv; left; auto).
    destruct (scan_accept ints h b f v b1 n Hb Hv' Hs Hf Hn) as [Hk Hsl].
    destruct (scan_inv ints h b f v Hb Hv' Hs) as (b1' & c & Hf' & Hb1 & Hor). rewrite Hf in Hf'. injection Hf' as <- <-.
    destruct Hor as [(_ & n' & Hn' & Hn1 & Hlt)|[? _]]; [|contradiction]. rewrite Hn in Hn'. injection Hn' as <-.
    assert (Hn0 : 0 <= n) by (destruct Hb as [Hb _]; destruct b; cbn in Hb, Hn; try discriminate; injection Hn as <-; lia).
    destruct (IH (n + 1) Hb1 ltac:(intros s Hi; apply Hv; right; auto) Hn1) as (I1 & I2 & I3 & I4 & I5 & I6).
    split; auto. split; [eapply same_kind_trans; eauto|]. split; [rewrite I3, zlen_cons; f_equal; lia|].
    replace (Z.to_nat (n + 1)) with (S (Z.to_nat n)) in * by lia.
    assert (Hold : forall k, k <> Z.to_nat n -> nth_error (slots b1) k = nth_error (slots b) k).
    { intros k Hne. destruct v as [s|]; [|rewrite Hsl; auto]. destruct b; try (rewrite Hsl; auto); destruct Hsl as (v0 & x & _ & _ & ->);
        rewrite nth_lupd; destruct (Nat.eqb_spec (Z.to_nat n) k); congruence. }
    assert (Hlit : match b with KLit _ => slots b1 = slots b | _ => True end) by (destruct b; auto; destruct v; auto).
    split; [|split].
    + destruct b, b1; cbn in Hk; try contradiction; auto.
    + intros k Hlk. rewrite I5 by lia. apply Hold. lia.
    + intros [|j]; cbn [nth_error].
      * rewrite Nat.add_0_r. rewrite I5 by lia. destruct v as [s|]; [|rewrite Hsl; auto].
        destruct b; auto; destruct Hsl as (v0 & x & E1 & E2 & E3); exists v0, x; (split; [exact E1|]); rewrite E3, nth_lupd, Nat.eqb_refl, E1; auto.
      * specialize (I6 j). replace (Z.to_nat n + S j)%nat with (S (Z.to_nat n) + j)%nat by lia. rewrite <- (Hold (S (Z.to_nat n) + j)%nat) by lia.
        destruct (nth_error vs j) as [[s|]|]; auto; destruct b, b1; cbn in Hk; try contradiction; auto;
        destruct I6 as (v0 & x & E1 & E2 & E3); exists v0, x; (split; [exact E1|]); (split; [exact E2|]); eapply denotes_kind; eauto; cbn; try rewrite Hk; auto; intuition congruence.
  - exfalso. destruct b; cbn in Hs, Hn; discriminate.
Qed.
Lemma str_clear_eq n : forall i (l : list str), (i + n <= List.length l)%nat -> str_clear n (Z.of_nat i) l = Ok (firstn i l ++ repeat [] n ++ skipn (i + n) l).
Proof.
  induction n; intros i l Hl; cbn [str_clear].
  - cbn. rewrite Nat.add_0_r, firstn_skipn. auto.
  - rewrite aset_ok' by (unfold zlen; lia). cbn [bind]. replace (Z.of_nat i + 1) with (Z.of_nat (S i)) by lia. rewrite Nat2Z.id.
    rewrite IHn by (rewrite lupd_length; lia). f_equal. clear IHn.
    revert l Hl. induction i as [|i IH]; intros [|x l] Hl; cbn in *; try lia; auto. f_equal. apply IH. lia.
Qed.
Lemma reset_slots ints h (b : body D) b' : Inv ints h b -> kreset h b = Ok b' -> slots b' = slots_reset b /\ same_kind b b'.
Proof.
  intros (Hb & _). destruct b; cbn [kreset]; intros H; try (injection H as <-; split; [reflexivity|cbn; auto]; fail).
  destruct p as [c l]. unfold arg_str_resetfn in H. cbn in *. change 0 with (Z.of_nat 0) in H. rewrite str_clear_eq in H by (unfold zlen in *; lia).
  cbn in H. injection H as <-. auto.
Qed.
End Kinds.
