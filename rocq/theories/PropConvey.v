(** C74: whatever values a program wants to hand to another, there is a command line that does it. In a table of entries with short
    options, every choice of a number of switches, of numbers, and of texts, within the counts of the entries, can be written down,
    and is what the entries hold after the parse. *)
From Verif Require Import Base IntModel IntSpec IntProofs FileModel FileSpec DateModel DateSpec GetoptModel ParseModel ParseSpec GetoptProofs ParseIdeal ParseProofs ParseFacts ParseObserve ParseSafe ParseLemmas ArgModel KindsSpec KindsProofs PropKinds CommandSpec CommandProofs PropCommand ReportSpec ReportProofs PropConcat PropQuote PropLoosen.
From Verif Require PropFile ExTable.
From Coq Require Import ZArith List Ascii String Bool Lia.
Import ListNotations.
Open Scope Z_scope.

(** The decimal text of a number. *)
Definition decimal (n : Z) : str := sign_text n ++ digits_of 10 (Z.abs n).
Definition decimal_char (c : ascii) : Prop := In c (lit "-0123456789").
Lemma digits_chars ds v : digits 10 ds v -> Forall decimal_char ds.
Proof.
  assert (One : forall c d, digit_of 10 c d -> decimal_char c).
  { intros c d [Hd H]. unfold decimal_char. do 10 (destruct d as [|d]; [destruct H as [[= <-]|[= <-]]; cbn; tauto|]). lia. }
  induction 1; [constructor; eauto|]. apply Forall_app. split; auto. constructor; eauto.
Qed.
Lemma decimal_chars n : Forall decimal_char (decimal n).
Proof.
  unfold decimal. apply Forall_app. split.
  - unfold sign_text. destruct (n <? 0); repeat constructor.
  - eapply digits_chars. apply digits_of_spec; lia.
Qed.
Lemma decimal_safe lm ints n : safe_value lm ints (decimal n).
Proof.
  pose proof (decimal_chars n) as H. rewrite Forall_forall in H. split.
  - intros Hi. apply H in Hi. unfold decimal_char in Hi. cbn in Hi. intuition discriminate.
  - intros _ p q E (w1 & px & base & w & ip & ds & v & rest & Eq & _ & Hpx & _). subst q.
    assert (Hc : forall c, In c px -> decimal_char c).
    { intros c Hc. apply H. rewrite E. apply in_app_iff. right. apply in_app_iff. right. apply in_app_iff. right. apply in_app_iff. auto. }
    assert (Hx : exists c, In c px /\ In c (lit "xXoObB")) by (destruct Hpx; eexists; (split; [right; left; reflexivity|cbn; tauto])).
    destruct Hx as (c & Hp & Hx). apply Hc in Hp. unfold decimal_char in Hp. cbn in Hp, Hx. intuition (subst; discriminate).
Qed.
Lemma short_safe lm ints (s : str) : cstr s -> (List.length s <= 2)%nat -> safe_value lm ints s.
Proof.
  intros Hc Hl. split; auto. intros _ p q E (w1 & px & base & w & ip & ds & v & rest & Eq & _ & Hpx & _). subst q. apply (f_equal (@List.length ascii)) in E.
  rewrite !app_length in E. destruct Hpx; cbn in E; lia.
Qed.

(** What is to be conveyed to an entry. *)
Inductive wish := WTimes (n : nat) | WNumbers (ns : list Z) | WTexts (l : list str).
Definition texts_of (w : wish) : list (option str) :=
  match w with WTimes n => repeat None n | WNumbers ns => map (fun n => Some (decimal n)) ns | WTexts l => map Some l end.
(** How often it occurs. *)
Definition times (w : wish) : Z := match w with WTimes n => Z.of_nat n | WNumbers ns => zlen ns | WTexts l => zlen l end.
Lemma times_texts w : zlen (texts_of w) = times w.
Proof. destruct w; unfold texts_of, times, zlen; rewrite ?repeat_length, ?map_length; reflexivity. Qed.

(** The command line for a list of wishes, one for each entry, each with the short option to use. *)
Definition fill (c : ascii) (i : nat) (g : option str) : filled := match g with None => (ShortSwitch c, i, []) | Some s => (ShortNext c, i, s) end.
Fixpoint fills (i : nat) (reqs : list (ascii * wish)) : list filled :=
  match reqs with [] => [] | (c, w) :: r => map (fill c i) (texts_of w) ++ fills (S i) r end.
Definition written (reqs : list (ascii * wish)) : list str := line (fills 0 reqs) [].

Lemma texts_app i l1 l2 : texts_for i (l1 ++ l2) = texts_for i l1 ++ texts_for i l2.
Proof. apply flat_map_app. Qed.
Lemma texts_fill c i j gs : texts_for j (map (fill c i) gs) = if Nat.eqb i j then gs else [].
Proof.
  induction gs as [|g gs IH]; [destruct (Nat.eqb i j); reflexivity|]. cbn [map]. unfold texts_for in *. cbn [flat_map]. rewrite IH. destruct g; cbn; destruct (Nat.eqb i j); reflexivity.
Qed.
Lemma texts_later : forall reqs i j, (j < i)%nat -> texts_for j (fills i reqs) = [].
Proof.
  induction reqs as [|[c w] reqs IH]; intros i j Hj; [reflexivity|]. cbn [fills]. rewrite texts_app, texts_fill, IH by lia. destruct (Nat.eqb_spec i j); [lia|reflexivity].
Qed.
Lemma texts_nth : forall reqs i j c w, nth_error reqs j = Some (c, w) -> texts_for (i + j) (fills i reqs) = texts_of w.
Proof.
  induction reqs as [|[c w] reqs IH]; intros i [|j] c' w' H; try discriminate; cbn [fills nth_error] in *; rewrite texts_app, texts_fill.
  - injection H as -> ->. rewrite Nat.add_0_r, Nat.eqb_refl, texts_later by lia. apply app_nil_r.
  - destruct (Nat.eqb_spec i (i + S j)); [lia|]. rewrite Nat.add_succ_r. apply (IH (S i)) in H. exact H.
Qed.
Lemma in_fills : forall reqs i f, In f (fills i reqs) -> exists j c w g, nth_error reqs j = Some (c, w) /\ In g (texts_of w) /\ f = fill c (i + j) g.
Proof.
  induction reqs as [|[c w] reqs IH]; intros i f H; cbn [fills] in H; [destruct H|]. apply in_app_iff in H as [H|H].
  - apply in_map_iff in H as (g & <- & Hg). exists 0%nat, c, w, g. rewrite Nat.add_0_r. auto.
  - apply IH in H as (j & c' & w' & g & H1 & H2 & ->). exists (S j), c', w', g. rewrite Nat.add_succ_r. auto.
Qed.

Section Convey.
Context {D : Type}.
Context (strtod : str -> D * nat).
Context (rexmatch : str -> Z -> str -> res bool).
Context (sp : seps).
Notation lm := Long64.
Notation parse := (karg_parse strtod rexmatch lm sp).
Notation safe_value := (safe_value lm).
Notation stored := (stored strtod rexmatch lm sp).
Notation acceptable := (acceptable strtod rexmatch lm sp).
Notation reached := (reached strtod rexmatch lm sp).
Hypothesis Hd : strtod_contract strtod.

(** The wish fits the entry: a number of switches, numbers in the range of int, any texts for strings and files, and for the other
    kinds texts that stand for something. *)
Definition fits (ints : bool) (e : entry (body D)) (w : wish) : Prop :=
  h_mincount (e_hdr e) <= times w <= h_maxcount (e_hdr e) /\
  match e_body e, w with
  | KLit _, WTimes _ => True
  | KRem, w => times w = 0
  | KInt _, WNumbers ns => Forall int_range ns
  | KStr _, WTexts l | KFile _, WTexts l => Forall (safe_value ints) l
  | KDbl _, WTexts l | KDate _, WTexts l | KRex _, WTexts l => Forall (safe_value ints) l /\ acceptable e (map Some l)
  | _, _ => False
  end.
(** [c] is an option of entry [i], the first in the table that has it. *)
Definition usable (t : list hdr) (i : nat) (e : entry (body D)) (c : ascii) : Prop :=
  c <> "-"%char /\ first_declaring t c i (e_hdr e) /\ short_takes (e_hdr e) = match e_body e with KLit _ => TNo | _ => TReq end.
(** The entry, which was [e], now holds what was wished for. *)
Definition fulfilled (e e' : entry (body D)) (w : wish) : Prop :=
  kcount (e_body e') = Some (times w) /\
  match e_body e, w with
  | KLit _, _ => True
  | KInt _, WNumbers ns => firstn (List.length ns) (slots (e_body e')) = map VInt ns
  | KStr _, WTexts l | KRex _, WTexts l => firstn (List.length l) (slots (e_body e')) = map VText l
  | KDbl _, WTexts l => firstn (List.length l) (slots (e_body e')) = map (fun s => VDbl (fst (strtod s))) l
  | KFile _, WTexts l => Forall2 (fun v s => exists bn ex, base_name (sep1 sp) (sep2 sp) s bn /\ extension bn ex /\ v = VFile s bn ex) (firstn (List.length l) (slots (e_body e'))) l
  | _, _ => stored (e_body e) (slots_reset (e_body e)) (texts_of w) (slots (e_body e'))
  end.

(** Values that texts stand for, whatever was there. *)
Lemma accept_all (e : entry (body D)) (gs : list str) (val : str -> value) : (forall n, e_body e <> KLit n) -> zlen gs <= zlen (slots_reset (e_body e)) ->
  (forall s v0, In s gs -> denotes strtod rexmatch lm sp (e_body e) v0 s (val s)) -> acceptable e (map Some gs).
Proof.
  intros Hn Hz Hv. exists (map val gs ++ skipn (List.length gs) (slots_reset (e_body e))). split; [destruct (e_body e) as [m| | | | | | |]; auto; destruct (Hn m eq_refl)|]. intros k.
  rewrite nth_error_map. destruct (nth_error gs k) as [s|] eqn:Ek; cbn [option_map].
  - assert (Hk : (k < List.length gs)%nat) by (apply nth_error_Some; congruence). unfold zlen in Hz.
    destruct (nth_error (slots_reset (e_body e)) k) as [v0|] eqn:E0; [|apply nth_error_None in E0; lia].
    apply (proj2 (not_lit (Q := True) (e_body e) Hn)). exists v0, (val s). split; auto. split; [|apply Hv; eapply nth_error_In; eauto].
    rewrite nth_error_app1 by (rewrite map_length; auto). rewrite nth_error_map, Ek. reflexivity.
  - apply nth_error_None in Ek. assert (E : nth_error (map val gs ++ skipn (List.length gs) (slots_reset (e_body e))) k = nth_error (slots_reset (e_body e)) k).
    { rewrite nth_error_app2, map_length by (rewrite map_length; auto). clear -Ek. revert k Ek. generalize (slots_reset (e_body e)) as l. induction gs as [|g gs IH]; intros l k Ek; cbn in *; [rewrite Nat.sub_0_r; auto|].
      destruct k as [|k]; [lia|]. destruct l; cbn; [destruct (k - List.length gs)%nat; reflexivity|]. apply IH. lia. }
    rewrite E. destruct (e_body e); reflexivity.
Qed.
Lemma decimal_literal n : int_range n -> int_literal (decimal n) n.
Proof.
  intros Hr. exists [], (decimal n), n, [], 1, []. rewrite app_nil_r. repeat split; try constructor; auto; [|lia]. unfold decimal.
  assert (E : (if n <? 0 then -1 else 1) * Z.abs n = n) by (destruct (Z.ltb_spec n 0); lia). rewrite <- E at 3. apply number_dec; [apply sign_text_sign|apply digits_of_spec; lia].
Qed.
(** The value of the text of a number. *)
Definition number_value (s : str) : @value D := match int_convert Long64 s with Ok (inl n) => VInt n | _ => VInt 0 end.
Lemma number_value_decimal n : int_range n -> number_value (decimal n) = VInt n.
Proof. intros H. unfold number_value, decimal. rewrite (int_roundtrip_dec n H). reflexivity. Qed.
Lemma fits_acceptable ints e w : Inv rexmatch ints (e_hdr e) (e_body e) -> kcount (e_body e) <> None -> fits ints e w -> acceptable e (texts_of w).
Proof.
  intros Hi Hk (Hc & Hw).
  assert (Sz : kcount (e_body e) <> None -> (forall n, e_body e <> KLit n) -> times w <= zlen (slots_reset (e_body e))) by (intros K L; rewrite (slots_size rexmatch ints e Hi K L); lia).
  destruct (e_body e) as [n|p|p|p|p|p|p|] eqn:Eb, w as [m|ns|l]; try contradiction; try (apply Hw); try (destruct (Hk eq_refl)).
  - exists (slots_reset (e_body e)). split; [rewrite Eb; auto|]. intros k. unfold texts_of. destruct (nth_error (repeat None m) k) as [[s|]|] eqn:E; rewrite Eb; auto.
  - rewrite <- Eb in Sz. unfold texts_of. rewrite <- (map_map decimal Some).
    apply (accept_all e (map decimal ns) number_value).
    + rewrite Eb. discriminate.
    + unfold zlen at 1. rewrite map_length. apply Sz; rewrite Eb; discriminate.
    + intros s v0 Hs. apply in_map_iff in Hs as (n & <- & Hn). rewrite Eb. cbn. rewrite Forall_forall in Hw. exists n. rewrite (number_value_decimal n (Hw n Hn)). split; auto. intros _. split; auto. apply decimal_literal. auto.
  - rewrite <- Eb in Sz. apply (accept_all e l VText); [rewrite Eb; discriminate|apply Sz; rewrite Eb; discriminate|]. intros s v0 _. rewrite Eb. reflexivity.
  - rewrite <- Eb in Sz. apply (accept_all e l (fun s => VFile s (arg_basename sp s) (arg_extension (arg_basename sp s)))); [rewrite Eb; discriminate|apply Sz; rewrite Eb; discriminate|]. intros s v0 _. rewrite Eb. cbn.
    exists (arg_basename sp s), (arg_extension (arg_basename sp s)). split; [apply PropFile.arg_basename_spec|]. split; auto. apply PropFile.arg_extension_spec.
Qed.
Lemma nth_firstn {A} : forall (l : list A) k n, (k < n)%nat -> nth_error (firstn n l) k = nth_error l k.
Proof. induction l as [|x l IH]; intros [|k] [|n] H; cbn; auto; try lia. apply IH. lia. Qed.
(** From the stored values to the values wished for. *)
Lemma stored_all b l0 (gs : list str) l (val : str -> value) : (forall n, b <> KLit n) -> stored b l0 (map Some gs) l -> (forall v0 s v, In s gs -> denotes strtod rexmatch lm sp b v0 s v -> v = val s) ->
  firstn (List.length gs) l = map val gs.
Proof.
  intros Hn [_ Hs] Hv. apply nth_ext with (d := VText []) (d' := VText []).
  - rewrite map_length, firstn_length. destruct gs as [|g gs]; [reflexivity|]. assert (Hk : (List.length gs < List.length l)%nat); [|cbn [List.length] in *; lia].
    specialize (Hs (List.length gs)). rewrite nth_error_map in Hs. destruct (nth_error (g :: gs) (List.length gs)) as [s|] eqn:E; [|apply nth_error_None in E; cbn in E; lia]. cbn [option_map] in Hs.
    apply (proj1 (not_lit (Q := True) b Hn)) in Hs. destruct Hs as (v0 & v & _ & H & _). apply nth_error_Some. congruence.
  - intros k Hk. rewrite firstn_length in Hk. specialize (Hs k). rewrite nth_error_map in Hs. destruct (nth_error gs k) as [s|] eqn:E; [|apply nth_error_None in E; lia]. cbn [option_map] in Hs.
    apply (proj1 (not_lit (Q := True) b Hn)) in Hs. destruct Hs as (v0 & v & _ & H & Hd0). apply Hv in Hd0; [|eapply nth_error_In; eauto]. subst v.
    rewrite (nth_error_nth (map val gs) k (x := val s)) by (rewrite nth_error_map, E; reflexivity). apply nth_error_nth. rewrite nth_firstn by lia. exact H.
Qed.

(** Every wish for every entry can be written down, and is fulfilled by the parse of what is written, without an error. *)
Theorem C74_every_wish :
  forall ints posix cap tab reqs jo jc jp fuel argv h s en a0,
  reached ints tab -> call cap tab en h argv a0 (written reqs) fuel -> List.length reqs = List.length tab ->
  (forall i e c w, nth_error tab i = Some e -> nth_error reqs i = Some (c, w) -> fits ints e w /\ (times w <> 0 -> c <> NUL /\ usable (map e_hdr tab) i e c)) ->
  exists h' s' tab' en', parse posix jo jc jp fuel (zlen (a0 :: written reqs)) argv h s tab en = Ok (h', s', tab', en') /\ end_count en' = 0 /\
  forall i e c w, nth_error tab i = Some e -> nth_error reqs i = Some (c, w) -> kcount (e_body e) <> None -> exists e', nth_error tab' i = Some e' /\ fulfilled e e' w.
Proof.
  intros ints posix cap tab reqs jo jc jp fuel argv h s en a0 Ht Hc Hl Hw.
  assert (Hg : Forall (good_filled (map e_hdr tab)) (fills 0 reqs)).
  { rewrite Forall_forall. intros f Hf. apply in_fills in Hf as (j & c & w & g & Hj & Hgi & ->). cbn [Nat.add].
    assert (Hlt : (j < List.length tab)%nat) by (rewrite <- Hl; apply nth_error_Some; congruence). destruct (nth_error tab j) as [e|] eqn:Ee; [|apply nth_error_None in Ee; lia].
    destruct (Hw j e c w Ee Hj) as [[_ Hf] Hu]. assert (Hn : times w <> 0) by (rewrite <- times_texts; unfold zlen; destruct (texts_of w); [destruct Hgi|cbn; lia]).
    destruct (Hu Hn) as (_ & Hm & Hfd & Hst). destruct g as [v|]; (split; [|cbn; auto]); unfold f_entry, f_place; cbn; (split; [exact Hm|]); exists (e_hdr e); (split; [exact Hfd|]).
    - rewrite Hst. destruct (e_body e); auto; destruct w; try contradiction. unfold texts_of in Hgi. apply repeat_spec in Hgi. discriminate.
    - rewrite Hst. destruct (e_body e); auto; destruct w; try contradiction; cbn in Hgi; apply in_map_iff in Hgi as (? & ? & _); discriminate. }
  assert (Hs : Forall (safe_value ints) (written reqs)).
  { rewrite Forall_forall. intros x Hx. unfold written, line in Hx. apply in_app_iff in Hx as [Hx|[<-|[]]]; [|apply short_safe; [unfold cstr; cbn; intuition discriminate|cbn; lia]].
    apply in_flat_map in Hx as (f & Hf & Hx). apply in_fills in Hf as (j & c & w & g & Hj & Hgi & ->).
    assert (Hlt : (j < List.length tab)%nat) by (rewrite <- Hl; apply nth_error_Some; congruence). destruct (nth_error tab j) as [e|] eqn:Ee; [|apply nth_error_None in Ee; lia].
    destruct (Hw j e c w Ee Hj) as [[_ Hf] Hu]. assert (Hn : times w <> 0) by (rewrite <- times_texts; unfold zlen; destruct (texts_of w); [destruct Hgi|cbn; lia]).
    destruct (Hu Hn) as (Hcn & _).
    assert (Ho : safe_value ints ["-"%char; c]) by (apply short_safe; [|cbn; lia]; unfold cstr; cbn; intros [E|[E|[]]]; [discriminate|auto]).
    destruct g as [v|]; unfold f_place, f_text in Hx; cbn in Hx; [|destruct Hx as [<-|[]]; exact Ho]. destruct Hx as [<-|[<-|[]]]; [exact Ho|].
    destruct w as [m|ns|l]; cbn in Hgi.
    - apply repeat_spec in Hgi. discriminate.
    - apply in_map_iff in Hgi as (n & [= <-] & _). apply decimal_safe.
    - apply in_map_iff in Hgi as (x & [= <-] & Hx). destruct (e_body e); try contradiction; [destruct Hf as [Hf _]| | |destruct Hf as [Hf _]|destruct Hf as [Hf _]]; rewrite Forall_forall in Hf; auto. }
  pose proof (C70_texts_are_values (map e_hdr tab) posix (fills 0 reqs) [] Hg) as Hsp. fold (written reqs) in Hsp.
  assert (Hinv : forall i e, nth_error tab i = Some e -> Inv rexmatch ints (e_hdr e) (e_body e)) by (intros i e Ee; apply (reached_ready strtod rexmatch lm sp Hd) in Ht; rewrite Forall_forall in Ht; apply (Ht e (nth_error_In tab i Ee))).
  assert (Hsh : shared strtod rexmatch lm sp tab (map meant (fills 0 reqs)) [] (repeat [] (List.length tab))).
  { split; [|split].
    - generalize (List.length tab). induction n; auto.
    - apply repeat_length.
    - intros i e run Ee Er. assert (En : run = []) by (eapply repeat_spec; eapply nth_error_In; exact Er). subst run. split; [intros []; reflexivity|]. cbn [map]. rewrite app_nil_r, given_texts.
      assert (Hlt : (i < List.length reqs)%nat) by (rewrite Hl; apply nth_error_Some; congruence). destruct (nth_error reqs i) as [[c w]|] eqn:Ew; [|apply nth_error_None in Ew; lia].
      rewrite (texts_nth reqs 0 i c w Ew : texts_for i (fills 0 reqs) = texts_of w). destruct (Hw i e c w Ee Ew) as [Hf Hu]. split.
      + intros Hk. rewrite times_texts. split; [apply Hf|]. apply fits_acceptable with (ints := ints); eauto.
      + intros _ a Ha. exfalso. assert (Hz : forall n m, List.concat (skipn m (repeat (@nil str) n)) = []) by (induction n; intros [|m]; cbn; auto; exact (IHn 0%nat)). rewrite Hz in Ha. discriminate. }
  destruct (C59_accepted_values strtod rexmatch sp Hd ints posix cap tab (written reqs) jo jc jp fuel argv h s en a0 _ [] _ Ht Hc Hs Hsp Hsh) as (h' & s' & tab' & en' & Hp & Hz & Hv).
  exists h', s', tab', en'. split; [exact Hp|]. split; [exact Hz|]. intros i e c w Ee Ew Hk.
  assert (Er : nth_error (repeat (@nil str) (List.length tab)) i = Some []).
  { rewrite (nth_error_nth' _ []); [f_equal; apply nth_repeat|]. rewrite repeat_length. apply nth_error_Some. congruence. }
  destruct (Hv i e [] Ee Er) as (e' & Ee' & _ & Hst). exists e'. split; [exact Ee'|]. destruct (Hst Hk) as [Hn Hs1]. clear Hst Hv.
  cbn [map] in Hn, Hs1. rewrite app_nil_r, given_texts, (texts_nth reqs 0 i c w Ew : texts_for i (fills 0 reqs) = texts_of w) in Hn, Hs1. rewrite times_texts in Hn.
  split; [exact Hn|]. destruct (Hw i e c w Ee Ew) as [[_ Hf] _]. destruct (e_body e) as [n|p|p|p|p|p|p|] eqn:Eb, w as [m|ns|l]; try contradiction; try exact I; try (destruct (Hk eq_refl)); cbn [texts_of] in Hs1.
  - rewrite <- (map_map decimal Some) in Hs1. rewrite Forall_forall in Hf.
    rewrite <- (map_length decimal), (stored_all (KInt p) _ (map decimal ns) _ number_value ltac:(discriminate) Hs1).
    + rewrite map_map. apply map_ext_in. intros n Hi. apply number_value_decimal. auto.
    + intros v0 x v Hx (n & -> & Hl1). apply in_map_iff in Hx as (n' & <- & Hi). rewrite (number_value_decimal n' (Hf n' Hi)). destruct (Hl1 eq_refl) as [Hl2 _].
      f_equal. symmetry. apply (int_literal_unique (decimal n')); auto; [|apply decimal_literal; auto]. apply (proj2 (decimal_safe lm true n') eq_refl [] _ eq_refl).
  - apply (stored_all (KDbl p) _ l _ _ ltac:(discriminate) Hs1). intros v0 x v _ (d & E & ->). rewrite E. reflexivity.
  - apply (stored_all (KStr p) _ l _ _ ltac:(discriminate) Hs1). intros v0 x v _ E. exact E.
  - rewrite (stored_all (KFile p) _ l _ (fun x => VFile x (arg_basename sp x) (arg_extension (arg_basename sp x))) ltac:(discriminate) Hs1).
    + clear. induction l as [|x l IH]; cbn [map]; constructor; auto. exists (arg_basename sp x), (arg_extension (arg_basename sp x)). split; [apply PropFile.arg_basename_spec|]. split; auto. apply PropFile.arg_extension_spec.
    + intros v0 x v _ (bn & ex & B & E & ->). rewrite (PropFile.base_name_unique _ _ _ _ _ B (PropFile.arg_basename_spec sp x)) in *. rewrite (PropFile.extension_unique _ _ _ E (PropFile.arg_extension_spec _)). reflexivity.
  - exact Hs1.
  - apply (stored_all (KRex p) _ l _ _ ltac:(discriminate) Hs1). intros v0 x v _ [_ E]. exact E.
Qed.
End Convey.

(** ** Example: two switches, three numbers, three awkward texts, a file name *)
Local Open Scope string_scope.
Local Open Scope list_scope.
Local Open Scope Z_scope.
Definition ex_tab : list (entry (body Z)) := [arg_litn (ExTable.o "v") None 0 3 None; arg_intn (fun _ => 7) (ExTable.o "n") (ExTable.o "num") None 0 3 None;
  arg_strn (ExTable.o "s") None None 1 3 None; arg_filen (ExTable.o "o") None None 0 1 None].
Definition ex_reqs : list (ascii * wish) := [("v"%char, WTimes 2); ("n"%char, WNumbers [-2147483648; 0; 42]); ("s"%char, WTexts (map lit ["-v"; ""; "--"])); ("o"%char, WTexts [lit "a/b.c"])].
Definition ex_line : list string := ["-v"; "-v"; "-n"; "-2147483648"; "-n"; "0"; "-n"; "42"; "-s"; "-v"; "-s"; ""; "-s"; "--"; "-o"; "a/b.c"; "--"].
Lemma ex_written : written ex_reqs = map lit ex_line.
Proof. vm_compute. reflexivity. Qed.
Notation ex_parsed := (karg_parse ExTable.strtod ExTable.rexmatch Long64 unix_seps false ExTable.jo ExTable.jc ExTable.jp (S (total (written ex_reqs))) (zlen (lit "p" :: written ex_reqs)) 1
  (ExTable.heap0 ("p" :: ex_line)) ExTable.s0 ex_tab (ExTable.en 4)).
Example C74_case : exists h' s' tab' en', ex_parsed = Ok (h', s', tab', en') /\ end_count en' = 0 /\
  (exists e, nth_error tab' 1 = Some e /\ kcount (e_body e) = Some 3 /\ firstn 3 (slots (e_body e)) = [VInt (-2147483648); VInt 0; VInt 42]) /\
  (exists e, nth_error tab' 2 = Some e /\ kcount (e_body e) = Some 3 /\ firstn 3 (slots (e_body e)) = [VText (lit "-v"); VText []; VText (lit "--")]).
Proof.
  assert (Hc : call 4 ex_tab (ExTable.en 4) (ExTable.heap0 ("p" :: ex_line)) 1 (lit "p") (written ex_reqs) (S (total (written ex_reqs)))).
  { rewrite ex_written. destruct (ExTable.call_ok "p" ex_line 4 0 ltac:(lia) eq_refl) as [K1 K2 K3 K4 K5]. constructor; auto. apply ExTable.good_hdrs_ok. reflexivity. }
  destruct (C74_every_wish ExTable.strtod ExTable.rexmatch unix_seps ex_contract true false 4 ex_tab ex_reqs ExTable.jo ExTable.jc ExTable.jp _ _ _ ExTable.s0 _ _
    ltac:(apply ex_made; [repeat constructor; cbn; lia|cbn; intros e [<-|[<-|[<-|[<-|[]]]]]; exact I]) Hc eq_refl) as (h' & s' & tab' & en' & P & Z0 & F).
  - assert (Hv : Forall (KindsSpec.safe_value Long64 true) (map lit ["-v"; ""; "--"; "a/b.c"])) by (apply safe_values; vm_compute; reflexivity).
    intros i e c w He Hr. destruct i as [|[|[|[|i]]]]; [injection He as <-; injection Hr as <- <-|injection He as <-; injection Hr as <- <-|injection He as <-; injection Hr as <- <-|injection He as <-; injection Hr as <- <-|destruct i; discriminate].
    all: split; [split; [cbn; lia|cbn]|intros _; split; [discriminate|split; [discriminate|split; [apply short_find_iff; vm_compute; reflexivity|reflexivity]]]].
    + exact I.
    + repeat constructor; cbn; discriminate.
    + rewrite Forall_forall in *. intros x Hx. apply Hv. cbn in *. tauto.
    + rewrite Forall_forall in *. intros x Hx. apply Hv. cbn in *. tauto.
  - exists h', s', tab', en'. split; [exact P|]. split; [exact Z0|]. split.
    + destruct (F 1%nat _ _ _ eq_refl eq_refl ltac:(discriminate)) as (e & A & B & C). exists e. auto.
    + destruct (F 2%nat _ _ _ eq_refl eq_refl ltac:(discriminate)) as (e & A & B & C). exists e. auto.
Qed.

Print Assumptions C74_every_wish.
