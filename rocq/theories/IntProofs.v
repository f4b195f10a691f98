(** Proofs about integer scanning. *)
From Verif Require Import Base IntModel IntSpec.
From Coq Require Import ZArith List Ascii String Bool Lia.
Import ListNotations.
Open Scope Z_scope.

Lemma space_char_iff c : space_char c <-> isspaceb c = true.
Proof.
  split.
  - unfold space_char; simpl; intros H.
    repeat (destruct H as [H|H]; [subst; reflexivity|]); contradiction.
  - unfold space_char. destruct c as [[] [] [] [] [] [] [] []]; vm_compute; try discriminate; tauto.
Qed.

Ltac all_ascii c := destruct c as [[] [] [] [] [] [] [] []].

Lemma digit_val_of c v base : 0 < base <= 16 ->
  (digit_val c = Some v /\ v < base) <-> (exists d, digit_of base c d /\ Z.of_nat d = v).
Proof.
  intros Hb. split.
  - intros [H Hv]. unfold digit_of.
    assert (0 <= v). { unfold digit_val in H. pose proof (uc_range c).
      unfold isdigitb, isupperb, islowerb in H.
      destruct (48 <=? uc c) eqn:E1; destruct (uc c <=? 57) eqn:E2; simpl in H;
      destruct (65 <=? uc c) eqn:E3; destruct (uc c <=? 90) eqn:E4; simpl in H;
      destruct (97 <=? uc c) eqn:E5; destruct (uc c <=? 122) eqn:E6; simpl in H;
      try discriminate; injection H as <-; lia. }
    exists (Z.to_nat v). split; [split; [lia|]|lia].
    assert (Hn : exists n, (n < 16)%nat /\ v = Z.of_nat n) by (exists (Z.to_nat v); lia).
    destruct Hn as [n [Hn ->]]. rewrite Nat2Z.id. clear Hv H0.
    revert H. all_ascii c; vm_compute (digit_val _); intros H; try discriminate;
      injection H as H; apply (f_equal Z.to_nat) in H; rewrite Nat2Z.id in H;
      subst n; vm_compute in Hn; try lia; vm_compute; auto.
  - intros [d [[Hd H] <-]]. split; auto.
    assert (d < 16)%nat by lia.
    do 16 (destruct d; [ vm_compute in H; destruct H as [H|H]; injection H as <-; reflexivity |]).
    lia.
Qed.

(** Runs of digits as seen by the model. *)
Definition isdig (base : Z) (c : ascii) : bool :=
  match digit_val c with Some d => d <? base | None => false end.
Definition dval (c : ascii) : Z := match digit_val c with Some d => d | None => 0 end.
Definition no_digit (base : Z) (s : str) : Prop :=
  match s with [] => True | c :: _ => isdig base c = false end.

Lemma starts_digit_isdig base s :
  starts_digit base s = match s with [] => false | c :: _ => isdig base c end.
Proof. destruct s; reflexivity. Qed.

Definition value_from (base acc : Z) (ds : str) : Z :=
  fold_left (fun a c => a * base + dval c) ds acc.

Lemma strtol_digits_run base ds rest acc any :
  Forall (fun c => isdig base c = true) ds -> no_digit base rest ->
  strtol_digits base (ds ++ rest) acc any =
    (value_from base acc ds, any || negb (match ds with [] => true | _ => false end), rest).
Proof.
  intros H; revert acc any; induction H as [|c ds Hc Hds IH]; intros acc any Hr; simpl.
  - rewrite orb_false_r. destruct rest as [|c rest]; simpl; auto.
    simpl in Hr. unfold isdig in Hr. destruct (digit_val c); auto. rewrite Hr. auto.
  - unfold isdig in Hc. destruct (digit_val c) eqn:E; try discriminate. rewrite Hc.
    rewrite IH by auto. rewrite orb_true_r. simpl. unfold dval at 1. rewrite E. auto.
Qed.

Lemma digit_split base s : exists ds rest,
  s = ds ++ rest /\ Forall (fun c => isdig base c = true) ds /\ no_digit base rest.
Proof.
  induction s as [|c s IH].
  - exists [], []. simpl; auto.
  - destruct (isdig base c) eqn:E.
    + destruct IH as [ds [rest [-> [H1 H2]]]]. exists (c :: ds), rest. simpl; auto.
    + exists [], (c :: s). simpl; auto.
Qed.

Lemma value_from_app base acc a b :
  value_from base acc (a ++ b) = value_from base (value_from base acc a) b.
Proof. unfold value_from. apply fold_left_app. Qed.

Lemma digits_iff base ds v : 0 < base <= 16 ->
  digits base ds v <->
  (ds <> [] /\ Forall (fun c => isdig base c = true) ds /\ value_from base 0 ds = v).
Proof.
  intros Hb. split.
  - induction 1 as [c d Hd|s v c d Hs [IH1 [IH2 IH3]] Hd].
    + assert (digit_val c = Some (Z.of_nat d) /\ Z.of_nat d < base) as [E L].
      { apply digit_val_of; eauto. }
      repeat split; try discriminate.
      * constructor; auto. unfold isdig. rewrite E. apply Z.ltb_lt; auto.
      * simpl. unfold dval; rewrite E; lia.
    + assert (digit_val c = Some (Z.of_nat d) /\ Z.of_nat d < base) as [E L].
      { apply digit_val_of; eauto. }
      repeat split.
      * intro H. apply app_eq_nil in H as [_ H]; discriminate.
      * apply Forall_app; split; auto. constructor; auto. unfold isdig; rewrite E. apply Z.ltb_lt; auto.
      * rewrite value_from_app, IH3. simpl. unfold dval; rewrite E. auto.
  - intros [H1 [H2 H3]]. revert v H1 H2 H3.
    induction ds as [|c ds IH] using rev_ind; intros v H1 H2 H3; [congruence|].
    apply Forall_app in H2 as [H2 Hc]. inversion Hc as [|? ? Hc' _]; subst.
    unfold isdig in Hc'. destruct (digit_val c) as [d|] eqn:E; try discriminate.
    apply Z.ltb_lt in Hc'.
    destruct (proj1 (digit_val_of c d base Hb) (conj E Hc')) as [d' [Hd' <-]].
    rewrite value_from_app. simpl. unfold dval at 1. rewrite E.
    destruct ds as [|c0 ds].
    + simpl. replace (0 * base + Z.of_nat d') with (Z.of_nat d') by lia. constructor; auto.
    + apply digits_more; auto. apply IH; auto. discriminate.
Qed.

Lemma value_from_nonneg base acc ds : 0 < base -> 0 <= acc ->
  Forall (fun c => isdig base c = true) ds -> acc <= value_from base acc ds.
Proof.
  intros Hb Ha H; revert acc Ha; induction H as [|c ds Hc Hds IH]; intros acc Ha; simpl; [lia|].
  assert (0 <= dval c).
  { unfold dval, digit_val. pose proof (uc_range c).
    unfold isdigitb, isupperb, islowerb.
    destruct (48 <=? uc c) eqn:E1; destruct (uc c <=? 57) eqn:E2; simpl;
    destruct (65 <=? uc c) eqn:E3; destruct (uc c <=? 90) eqn:E4; simpl;
    destruct (97 <=? uc c) eqn:E5; destruct (uc c <=? 122) eqn:E6; simpl; lia. }
  assert (acc <= acc * base) by nia.
  specialize (IH (acc * base + dval c)). lia.
Qed.

Lemma skip_space_app w s : spaces w -> skip_space (w ++ s) = skip_space s.
Proof. induction 1 as [|c w Hc Hw IH]; simpl; auto. apply space_char_iff in Hc. rewrite Hc. auto. Qed.

Definition no_space (s : str) : Prop := match s with [] => True | c :: _ => isspaceb c = false end.

Lemma skip_space_id s : no_space s -> skip_space s = s.
Proof. destruct s; simpl; auto. intros ->; auto. Qed.

Lemma skip_space_split s : exists w, s = w ++ skip_space s /\ spaces w /\ no_space (skip_space s).
Proof.
  induction s as [|c s [w [H1 [H2 H3]]]].
  - exists []. simpl. repeat split; auto. constructor.
  - simpl. destruct (isspaceb c) eqn:E.
    + exists (c :: w). simpl. repeat split; auto. congruence. constructor; auto. apply space_char_iff; auto.
    + exists []. simpl. repeat split; auto. constructor.
Qed.

(** [signed neg sg]: [sg] is the sign text for [neg]. *)
Definition kof (neg : bool) : Z := if neg then -1 else 1.

Definition no_sign (s : str) : Prop :=
  match s with [] => True | c :: _ => c <> "+"%char /\ c <> "-"%char end.

Lemma scan_sign_app sg k s : sign sg k -> no_sign s ->
  exists neg, scan_sign (sg ++ s) = (neg, s) /\ k = kof neg.
Proof.
  intros H Hs. inversion H; subst; simpl.
  - exists false. split; auto. destruct s as [|c s]; simpl; auto.
    destruct Hs as [H1 H2].
    destruct (ceqb_spec c "+"); try congruence. destruct (ceqb_spec c "-"); congruence.
  - exists false; auto.
  - exists true; auto.
Qed.

Lemma scan_sign_split s neg s' : scan_sign s = (neg, s') ->
  exists sg, s = sg ++ s' /\ sign sg (kof neg).
Proof.
  unfold scan_sign. destruct s as [|c s].
  - intros [= <- <-]. exists []. split; auto. constructor.
  - destruct (ceqb_spec c "+"); [|destruct (ceqb_spec c "-")]; intros [= <- <-]; subst.
    + exists (lit "+"). split; auto. apply sign_plus.
    + exists (lit "-"). split; auto. apply sign_minus.
    + exists []. split; auto. constructor.
Qed.

Lemma isdig_facts base c : base <= 16 -> isdig base c = true ->
  isspaceb c = false /\ c <> "+"%char /\ c <> "-"%char /\ ceqb c "x" = false /\ ceqb c "X" = false.
Proof.
  unfold isdig. intros Hb. all_ascii c; vm_compute (digit_val _);
    try discriminate; intros H; try (vm_compute; repeat split; congruence);
    apply Z.ltb_lt in H; lia.
Qed.

(** What strtol computes on a well-formed text. *)
Lemma strtol_complete m base w sg k ip ds v rest :
  0 < base <= 16 ->
  spaces w -> sign sg k -> inner_prefix base ip -> digits base ds v ->
  no_digit base rest ->
  (ds = lit "0" -> base = 16 -> match rest with c :: _ => ceqb c "x" || ceqb c "X" = false | [] => True end) ->
  strtol m (w ++ sg ++ ip ++ ds ++ rest) base = Some (clamp_long m (k * v), rest).
Proof.
  intros Hb Hw Hsg Hip Hds Hr Hx.
  apply digits_iff in Hds as [Hne [Hall Hval]]; auto.
  destruct ds as [|d0 ds]; [congruence|].
  inversion Hall as [|? ? Hd0 Hall']; subst.
  destruct (isdig_facts base d0 ltac:(lia) Hd0) as [F1 [F2 [F3 [F4 F5]]]].
  unfold strtol.
  rewrite skip_space_app by auto.
  set (body := ip ++ (d0 :: ds) ++ rest).
  assert (Hnb : no_space body /\ no_sign body).
  { unfold body. inversion Hip; subst; simpl; repeat split; auto; discriminate. }
  destruct Hnb as [Hnb1 Hnb2].
  rewrite (skip_space_id (sg ++ body)).
  2:{ inversion Hsg; subst; simpl; auto. }
  destruct (scan_sign_app sg k body Hsg Hnb2) as [neg [-> Hk]].
  match goal with |- context[strtol_digits base ?X 0 false] => assert (HX : X = (d0 :: ds) ++ rest) end.
  { unfold body. inversion Hip as [|Hb16|Hb16]; subst.
    - simpl. destruct (ds ++ rest) as [|x t] eqn:E.
      + simpl; auto.
      + destruct (base =? 16) eqn:E16; simpl; auto. apply Z.eqb_eq in E16; subst.
        destruct (ceqb_spec d0 "0") as [->|]; simpl; auto.
        destruct (ceqb x "x" || ceqb x "X") eqn:Exx; simpl; auto.
        exfalso. destruct ds as [|d1 ds'].
        * simpl in E. subst rest. specialize (Hx eq_refl eq_refl). simpl in Hx. congruence.
        * simpl in E. injection E as -> _.
          inversion Hall' as [|? ? Hd1 _]; subst.
          destruct (isdig_facts 16 x ltac:(lia) Hd1) as [_ [_ [_ [G4 G5]]]].
          rewrite G4, G5 in Exx. discriminate.
    - change (starts_digit 16 ((d0 :: ds) ++ rest)) with (isdig 16 d0) in *. simpl.
      unfold isdig in Hd0. rewrite Hd0. reflexivity.
    - simpl. unfold isdig in Hd0. rewrite Hd0. reflexivity. }
  rewrite HX. rewrite strtol_digits_run by auto. simpl.
  f_equal. f_equal. f_equal. subst k. unfold kof. simpl. destruct neg; lia.
Qed.

(** Conversely, what a result of strtol means. *)
Lemma strtol_sound m base s z rest :
  0 < base <= 16 ->
  strtol m s base = Some (z, rest) ->
  exists w sg k ip ds v,
    s = w ++ sg ++ ip ++ ds ++ rest /\ spaces w /\ sign sg k /\ inner_prefix base ip /\
    digits base ds v /\ no_digit base rest /\ z = clamp_long m (k * v).
Proof.
  intros Hb. unfold strtol.
  destruct (skip_space_split s) as [w [Hs [Hw Hnw]]].
  destruct (scan_sign (skip_space s)) as [neg s2] eqn:Es.
  destruct (scan_sign_split _ _ _ Es) as [sg [Hs2 Hsg]].
  assert (exists ip s3, s2 = ip ++ s3 /\ inner_prefix base ip /\
    match s2 with
    | z :: x :: t => if (base =? 16) && ceqb z "0" && (ceqb x "x" || ceqb x "X") && starts_digit base t then t else s2
    | _ => s2 end = s3) as [ip [s3 [Hip1 [Hip2 ->]]]].
  { destruct s2 as [|z0 [|x t]]; try (eexists [], _; repeat split; [constructor]).
    destruct ((base =? 16) && ceqb z0 "0" && (ceqb x "x" || ceqb x "X") && starts_digit base t) eqn:E.
    - apply andb_true_iff in E as [E E4]. apply andb_true_iff in E as [E E3]. apply andb_true_iff in E as [E1 E2].
      apply Z.eqb_eq in E1. apply ceqb_eq in E2. subst z0.
      apply orb_true_iff in E3 as [E3|E3]; apply ceqb_eq in E3; subst x.
      + exists (lit "0x"), t. repeat split; auto. apply ip_x; auto.
      + exists (lit "0X"), t. repeat split; auto. apply ip_X; auto.
    - eexists [], _; repeat split; constructor. }
  destruct (digit_split base s3) as [ds [r [H3 [Hd Hr]]]].
  rewrite H3. rewrite strtol_digits_run by auto. simpl.
  destruct ds as [|d0 ds]; simpl; [discriminate|].
  intros [= <- <-].
  exists w, sg, (kof neg), ip, (d0 :: ds), (value_from base 0 (d0 :: ds)).
  repeat split; auto.
  - rewrite Hs at 1. rewrite Hs2, Hip1, H3. rewrite <- ?app_assoc. reflexivity.
  - apply digits_iff; auto. repeat split; auto; discriminate.
  - f_equal. simpl. unfold kof. destruct neg; lia.
Qed.

Lemma strtol_none m base s : 0 < base <= 16 ->
  strtol m s base = None ->
  forall w sg k ip ds v rest,
    s = w ++ sg ++ ip ++ ds ++ rest -> spaces w -> sign sg k -> inner_prefix base ip ->
    digits base ds v -> False.
Proof.
  intros Hb Hn w sg k ip ds v rest -> Hw Hsg Hip Hds.
  (* extend the digits maximally *)
  apply digits_iff in Hds as [Hne [Hall Hval]]; auto.
  destruct (digit_split base rest) as [ds2 [r [-> [H2 Hr]]]].
  assert (Hds2 : digits base (ds ++ ds2) (value_from base 0 (ds ++ ds2))).
  { apply digits_iff; auto. repeat split; auto.
    - intro H. apply app_eq_nil in H as [H _]; auto.
    - apply Forall_app; auto. }
  destruct (list_eq_dec Ascii.ascii_dec (ds ++ ds2) (lit "0")) as [E0|E0].
  - (* single zero: the 0x case needs care *)
    destruct r as [|c r].
    + pose proof (strtol_complete m base w sg k ip _ _ [] Hb Hw Hsg Hip Hds2 I ltac:(auto)) as H.
      rewrite <- (app_assoc ds) in H. rewrite H in Hn. discriminate.
    + destruct (ceqb c "x" || ceqb c "X") eqn:Ec.
      * (* text 0x...: either a hex digit follows, or the conversion yields 0 *)
        replace (w ++ sg ++ ip ++ ds ++ ds2 ++ c :: r) with (w ++ sg ++ ip ++ (ds ++ ds2) ++ c :: r) in Hn
          by (rewrite <- ?app_assoc; auto).
        rewrite E0 in Hn. clear Hds2 E0 Hne Hall Hval H2 ds ds2 v.
        unfold strtol in Hn.
        rewrite skip_space_app in Hn by auto.
        set (body := ip ++ lit "0" ++ c :: r) in *.
        assert (Hnb : no_space body /\ no_sign body).
        { unfold body. inversion Hip; subst; simpl; repeat split; auto; discriminate. }
        destruct Hnb as [Hnb1 Hnb2].
        rewrite (skip_space_id (sg ++ body)) in Hn.
        2:{ inversion Hsg; subst; simpl; auto. }
        destruct (scan_sign_app sg k body Hsg Hnb2) as [neg [Es Hk]]. rewrite Es in Hn.
        assert (Hz : forall s acc any, any = true -> snd (fst (strtol_digits base s acc any)) = true).
        { induction s as [|a s IH]; intros acc any ->; simpl; auto.
          destruct (digit_val a); auto. destruct (z <? base); auto. }
        assert (H0d : (0 <? base) = true) by (apply Z.ltb_lt; lia).
        match type of Hn with context[strtol_digits base ?X 0 false] => assert (HX : starts_digit base X = true) end.
        { unfold body. inversion Hip; subst; simpl.
          - destruct ((base =? 16) && true && (ceqb c "x" || ceqb c "X") && starts_digit base r) eqn:E.
            + apply andb_true_iff in E as [_ E]; auto.
            + auto.
          - simpl. auto.
          - simpl. auto. }
        match type of Hn with context[strtol_digits base ?X 0 false] => set (XX := X) in * end.
        clearbody XX. destruct XX as [|a X]; [discriminate HX|].
        simpl in HX, Hn. destruct (digit_val a) as [d|]; [|discriminate]. rewrite HX in Hn.
        specialize (Hz X (0 * base + d) true eq_refl). simpl in Hz.
        destruct (strtol_digits base X d true) as [[vv anyv] rr]. simpl in Hz. subst anyv. discriminate.
      * pose proof (strtol_complete m base w sg k ip _ _ (c :: r) Hb Hw Hsg Hip Hds2 Hr ltac:(auto)) as H.
        rewrite <- (app_assoc ds) in H. rewrite H in Hn. discriminate.
  - pose proof (strtol_complete m base w sg k ip _ _ r Hb Hw Hsg Hip Hds2 Hr ltac:(intros; contradiction)) as H.
    rewrite <- (app_assoc ds) in H. rewrite H in Hn. discriminate.
Qed.

(** ** strtol0X *)

Inductive base_letter : ascii -> Z -> Prop :=
| bl_x : base_letter "X" 16 | bl_o : base_letter "O" 8 | bl_b : base_letter "B" 2.

Lemma base_range X base : base_letter X base -> 0 < base <= 16.
Proof. inversion 1; lia. Qed.

Lemma base_prefix_letter px base : base_prefix px base -> exists X, base_letter X base.
Proof. inversion 1; eexists; constructor. Qed.

Lemma strtol0X_complete m w1 sg k px X base p4 z rest :
  spaces w1 -> sign sg k -> base_prefix px base -> base_letter X base ->
  strtol m p4 base = Some (z, rest) ->
  strtol0X m (w1 ++ sg ++ px ++ p4) X base =
    (if (LONG_MIN m <=? k * z) && (k * z <=? LONG_MAX m) then Ok (Some (k * z, rest)) else UB SignedOverflow).
Proof.
  intros Hw Hsg Hpx HX Hz. unfold strtol0X.
  rewrite skip_space_app by auto.
  rewrite (skip_space_id (sg ++ px ++ p4)).
  2:{ inversion Hsg; inversion Hpx; subst; simpl; auto. }
  assert (Hns : no_sign (px ++ p4)) by (inversion Hpx; subst; simpl; split; discriminate).
  destruct (scan_sign_app sg k _ Hsg Hns) as [neg [-> Hk]].
  inversion Hpx; subst; inversion HX; subst; simpl;
    change (strtol m p4) with (strtol m p4) in *; rewrite Hz; unfold kof; destruct neg; reflexivity.
Qed.

Lemma strtol0X_none_inner m w1 sg k px X base p4 :
  spaces w1 -> sign sg k -> base_prefix px base -> base_letter X base ->
  strtol m p4 base = None ->
  strtol0X m (w1 ++ sg ++ px ++ p4) X base = Ok None.
Proof.
  intros Hw Hsg Hpx HX Hz. unfold strtol0X.
  rewrite skip_space_app by auto.
  rewrite (skip_space_id (sg ++ px ++ p4)).
  2:{ inversion Hsg; inversion Hpx; subst; simpl; auto. }
  assert (Hns : no_sign (px ++ p4)) by (inversion Hpx; subst; simpl; split; discriminate).
  destruct (scan_sign_app sg k _ Hsg Hns) as [neg [-> Hk]].
  inversion Hpx; subst; inversion HX; subst; simpl; rewrite Hz; reflexivity.
Qed.

(** Two different prefixes exclude each other. *)
Lemma strtol0X_other m w1 sg k px base X' base' p4 :
  spaces w1 -> sign sg k -> base_prefix px base -> base_letter X' base' -> base <> base' ->
  strtol0X m (w1 ++ sg ++ px ++ p4) X' base' = Ok None.
Proof.
  intros Hw Hsg Hpx HX Hne. unfold strtol0X.
  rewrite skip_space_app by auto.
  rewrite (skip_space_id (sg ++ px ++ p4)).
  2:{ inversion Hsg; inversion Hpx; subst; simpl; auto. }
  assert (Hns : no_sign (px ++ p4)) by (inversion Hpx; subst; simpl; split; discriminate).
  destruct (scan_sign_app sg k _ Hsg Hns) as [neg [-> Hk]].
  inversion Hpx; subst; inversion HX; subst; simpl; try congruence; reflexivity.
Qed.

Lemma strtol0X_sound m s X base : base_letter X base ->
  match strtol0X m s X base with
  | Ok None => True
  | Ok (Some (r, rest)) => exists w1 sg k px p4 z,
      s = w1 ++ sg ++ px ++ p4 /\ spaces w1 /\ sign sg k /\ base_prefix px base /\
      strtol m p4 base = Some (z, rest) /\ r = k * z /\ LONG_MIN m <= r <= LONG_MAX m
  | UB u => u = SignedOverflow /\ exists w1 sg k px p4 z rest,
      s = w1 ++ sg ++ px ++ p4 /\ spaces w1 /\ sign sg k /\ base_prefix px base /\
      strtol m p4 base = Some (z, rest) /\ ~ (LONG_MIN m <= k * z <= LONG_MAX m)
  | OutOfFuel => False
  end.
Proof.
  intros HX. unfold strtol0X.
  destruct (skip_space_split s) as [w [Hs [Hw Hnw]]].
  destruct (scan_sign (skip_space s)) as [neg p2] eqn:Es.
  destruct (scan_sign_split _ _ _ Es) as [sg [Hs2 Hsg]].
  destruct p2 as [|z0 p3]; auto. destruct (ceqb_spec z0 "0"); auto. subst z0.
  destruct p3 as [|x p4]; auto.
  destruct (ceqb (toupper x) (toupper X)) eqn:Ex; auto.
  assert (Hpx : base_prefix ["0"%char; x] base).
  { apply ceqb_eq in Ex. inversion HX; subst; simpl in Ex;
      revert Ex; all_ascii x; vm_compute; try discriminate; intros _; constructor. }
  destruct (strtol m p4 base) as [[z rest]|] eqn:Ez; auto.
  assert (Es' : s = w ++ sg ++ ["0"%char; x] ++ p4).
  { rewrite Hs at 1. rewrite Hs2. reflexivity. }
  change (if neg then -1 else 1) with (kof neg).
  destruct ((LONG_MIN m <=? kof neg * z) && (kof neg * z <=? LONG_MAX m)) eqn:Eb.
  - apply andb_true_iff in Eb as [B1 B2]. apply Z.leb_le in B1, B2.
    exists w, sg, (kof neg), ["0"%char; x], p4, z. repeat split; auto.
  - split; auto. exists w, sg, (kof neg), ["0"%char; x], p4, z, rest. repeat split; auto.
    apply andb_false_iff in Eb as [B|B]; apply Z.leb_gt in B; lia.
Qed.

(** Texts that do not carry a base prefix. *)
Definition not_base_letter (s : str) : Prop :=
  match s with [] => True | c :: _ => toupper c <> "X"%char /\ toupper c <> "O"%char /\ toupper c <> "B"%char end.

Lemma strtol0X_dec m w1 sg k ds v rest X base :
  base_letter X base -> spaces w1 -> sign sg k -> digits 10 ds v -> not_base_letter rest ->
  strtol0X m (w1 ++ sg ++ ds ++ rest) X base = Ok None.
Proof.
  intros HX Hw Hsg Hds Hr.
  apply digits_iff in Hds as [Hne [Hall _]]; [|lia].
  destruct ds as [|d0 ds]; [congruence|].
  inversion Hall as [|? ? Hd0 Hall']; subst.
  destruct (isdig_facts 10 d0 ltac:(lia) Hd0) as [F1 [F2 [F3 _]]].
  unfold strtol0X. rewrite skip_space_app by auto.
  rewrite (skip_space_id (sg ++ (d0 :: ds) ++ rest)).
  2:{ inversion Hsg; subst; simpl; auto. }
  destruct (scan_sign_app sg k ((d0 :: ds) ++ rest) Hsg) as [neg [-> Hk]]; [simpl; auto|].
  simpl. destruct (ceqb d0 "0"); auto.
  destruct ds as [|d1 ds]; simpl.
  - destruct rest as [|c rest]; auto. simpl in Hr.
    destruct (ceqb_spec (toupper c) (toupper X)) as [E|]; auto.
    exfalso. inversion HX; subst; simpl in E; intuition.
  - inversion Hall' as [|? ? Hd1 _]; subst.
    destruct (ceqb_spec (toupper d1) (toupper X)) as [E|]; auto.
    exfalso. revert Hd1 E. inversion HX; subst; all_ascii d1; vm_compute; congruence.
Qed.

(** ** The suffix *)

Lemma spaces_skip w : spaces w <-> skip_space w = [].
Proof.
  split.
  - intros H. rewrite <- (app_nil_r w). rewrite skip_space_app by auto. reflexivity.
  - intros H. destruct (skip_space_split w) as [w' [E [Hw _]]]. rewrite H, app_nil_r in E. subst; auto.
Qed.

Lemma detect_none rest : detectsuffix rest [] = true <-> spaces rest.
Proof.
  rewrite spaces_skip. destruct rest as [|c s]; simpl; [tauto|].
  destruct (isspaceb c); [|split; discriminate].
  destruct (skip_space s); split; congruence.
Qed.

Lemma detect_two a b rest :
  detectsuffix rest [a; b] = true <->
  exists x y w, rest = x :: y :: w /\ toupper x = toupper a /\ toupper y = toupper b /\ spaces w.
Proof.
  split.
  - destruct rest as [|x [|y w]]; try discriminate;
      cbn [detectsuffix]; destruct (ceqb_spec (toupper x) (toupper a)); try discriminate.
    destruct (ceqb_spec (toupper y) (toupper b)); try discriminate.
    intros H. exists x, y, w. repeat split; auto. apply detect_none. exact H.
  - intros [x [y [w [-> [E1 [E2 Hw]]]]]]. cbn [detectsuffix].
    rewrite E1, E2, !ceqb_refl. apply detect_none; auto.
Qed.

Definition suffix_mult (rest : str) : option Z :=
  if detectsuffix rest (lit "KB") then Some 1024
  else if detectsuffix rest (lit "MB") then Some 1048576
  else if detectsuffix rest (lit "GB") then Some 1073741824
  else if detectsuffix rest [] then Some 1 else None.

Lemma toupper_kb x : toupper x = "K"%char -> In x ["k"; "K"]%char.
Proof. all_ascii x; vm_compute; try discriminate; tauto. Qed.
Lemma toupper_mb x : toupper x = "M"%char -> In x ["m"; "M"]%char.
Proof. all_ascii x; vm_compute; try discriminate; tauto. Qed.
Lemma toupper_gb x : toupper x = "G"%char -> In x ["g"; "G"]%char.
Proof. all_ascii x; vm_compute; try discriminate; tauto. Qed.
Lemma toupper_b x : toupper x = "B"%char -> In x ["b"; "B"]%char.
Proof. all_ascii x; vm_compute; try discriminate; tauto. Qed.

Lemma suffix_mult_sound rest k : suffix_mult rest = Some k ->
  exists sf w, rest = sf ++ w /\ size_suffix sf k /\ spaces w.
Proof.
  unfold suffix_mult.
  destruct (detectsuffix rest (lit "KB")) eqn:E1.
  { intros [= <-]. apply detect_two in E1 as [x [y [w [-> [A [B Hw]]]]]].
    exists [x; y], w. repeat split; auto. apply ss_k; [apply toupper_kb|apply toupper_b]; auto. }
  destruct (detectsuffix rest (lit "MB")) eqn:E2.
  { intros [= <-]. apply detect_two in E2 as [x [y [w [-> [A [B Hw]]]]]].
    exists [x; y], w. repeat split; auto. apply ss_m; [apply toupper_mb|apply toupper_b]; auto. }
  destruct (detectsuffix rest (lit "GB")) eqn:E3.
  { intros [= <-]. apply detect_two in E3 as [x [y [w [-> [A [B Hw]]]]]].
    exists [x; y], w. repeat split; auto. apply ss_g; [apply toupper_gb|apply toupper_b]; auto. }
  destruct (detectsuffix rest []) eqn:E4; [|discriminate].
  intros [= <-]. apply detect_none in E4. exists [], rest. repeat split; auto. constructor.
Qed.

Lemma detect_two_false a b rest : (forall c, space_char c -> toupper c <> toupper a) ->
  spaces rest -> detectsuffix rest [a; b] = false.
Proof.
  intros Ha Hr. destruct rest as [|c rest]; auto. inversion Hr; subst.
  cbn [detectsuffix]. destruct (ceqb_spec (toupper c) (toupper a)); auto.
  exfalso. eapply Ha; eauto.
Qed.

Lemma suffix_mult_complete sf k w : size_suffix sf k -> spaces w -> suffix_mult (sf ++ w) = Some k.
Proof.
  intros Hs Hw. unfold suffix_mult.
  change (lit "KB") with ["K"; "B"]%char. change (lit "MB") with ["M"; "B"]%char.
  change (lit "GB") with ["G"; "B"]%char.
  assert (T : forall a b X, toupper a = toupper X /\ toupper b = toupper "B" ->
     detectsuffix ([a; b] ++ w) [X; "B"%char] = true).
  { intros a b X [HX Hb]. apply detect_two. exists a, b, w. auto. }
  assert (F : forall a b X, toupper a <> toupper X -> detectsuffix ([a; b] ++ w) [X; "B"%char] = false).
  { intros a b X HX. simpl. destruct (ceqb_spec (toupper a) (toupper X)); congruence. }
  inversion Hs as [|a b Ha Hb|a b Ha Hb|a b Ha Hb]; subst.
  - simpl app.
    assert (forall X, In X ["K"; "M"; "G"]%char -> forall c, space_char c -> toupper c <> toupper X).
    { intros X HX c Hc. unfold space_char in Hc. simpl in HX, Hc.
      repeat (destruct HX as [HX|HX]; [subst X; repeat (destruct Hc as [Hc|Hc]; [subst c; vm_compute; discriminate|]); contradiction|]); contradiction. }
    rewrite !detect_two_false; auto; try (apply H; simpl; tauto).
    rewrite (proj2 (detect_none w) Hw). reflexivity.
  - rewrite ?F by (simpl in Ha; destruct Ha as [<-|[<-|[]]]; vm_compute; discriminate).
    rewrite T by (simpl in Ha, Hb; destruct Ha as [<-|[<-|[]]]; destruct Hb as [<-|[<-|[]]]; split; reflexivity).
    reflexivity.
  - rewrite ?F by (simpl in Ha; destruct Ha as [<-|[<-|[]]]; vm_compute; discriminate).
    rewrite T by (simpl in Ha, Hb; destruct Ha as [<-|[<-|[]]]; destruct Hb as [<-|[<-|[]]]; split; reflexivity).
    reflexivity.
  - rewrite ?F by (simpl in Ha; destruct Ha as [<-|[<-|[]]]; vm_compute; discriminate).
    rewrite T by (simpl in Ha, Hb; destruct Ha as [<-|[<-|[]]]; destruct Hb as [<-|[<-|[]]]; split; reflexivity).
    reflexivity.
Qed.

(** The part of [int_convert] after the number was read. *)
Definition finish (val : Z) (rest : str) : Z + Z :=
  match suffix_mult rest with
  | None => inr ARG_ERR_BADINT
  | Some k => if in_intb (val * k) then inl (val * k) else inr ARG_ERR_OVERFLOW
  end.

Lemma int_convert_finish m s :
  int_convert m s =
  (r <- scan_prefixed m s ;;
   match r with None => Ok (inr ARG_ERR_BADINT) | Some (val, rest) => Ok (finish val rest) end).
Proof.
  unfold int_convert. destruct (scan_prefixed m s) as [[[val rest]|]| |]; cbn [bind]; auto.
  unfold finish, suffix_mult, apply_suffix, in_intb, cdiv.
  assert (Hq : forall mult, In mult [1024; 1048576; 1073741824] ->
     (INT_MAX ÷ mult <? val) || (val <? INT_MIN ÷ mult) =
      negb ((INT_MIN <=? val * mult) && (val * mult <=? INT_MAX))).
  { intros mult Hm. simpl in Hm. unfold INT_MAX, INT_MIN.
    repeat (destruct Hm as [Hm|Hm]; [subst mult;
      match goal with |- (?a ÷ ?b <? _) || (_ <? ?c ÷ ?d) = _ =>
        let x := eval vm_compute in (a ÷ b) in let y := eval vm_compute in (c ÷ d) in
        change (a ÷ b) with x; change (c ÷ d) with y end;
      match goal with |- (?a <? ?b) || (?c <? ?d) = negb ((?e <=? ?f) && (?g <=? ?h)) =>
        destruct (Z.ltb_spec a b); destruct (Z.ltb_spec c d); destruct (Z.leb_spec e f); destruct (Z.leb_spec g h); simpl; auto; lia end|]).
    contradiction. }
  assert (He0 : forall mult, In mult [1024; 1048576; 1073741824] ->
     (INT_MIN <=? val * mult) && (val * mult <=? INT_MAX) = true ->
     (INT_MAX <? val) || (val <? INT_MIN) = false).
  { intros mult Hm Hb. apply andb_true_iff in Hb as [B1 B2]. apply Z.leb_le in B1, B2.
    unfold INT_MAX, INT_MIN in *. simpl in Hm.
    apply orb_false_iff; split; apply Z.ltb_ge;
    repeat (destruct Hm as [Hm|Hm]; [subst mult; lia|]); contradiction. }
  destruct (detectsuffix rest (lit "KB")).
  { rewrite Hq by (simpl; tauto). destruct ((INT_MIN <=? val * 1024) && (val * 1024 <=? INT_MAX)) eqn:E; simpl; auto.
    rewrite (He0 1024) by (simpl; tauto). reflexivity. }
  destruct (detectsuffix rest (lit "MB")).
  { rewrite Hq by (simpl; tauto). destruct ((INT_MIN <=? val * 1048576) && (val * 1048576 <=? INT_MAX)) eqn:E; simpl; auto.
    rewrite (He0 1048576) by (simpl; tauto). reflexivity. }
  destruct (detectsuffix rest (lit "GB")).
  { rewrite Hq by (simpl; tauto). destruct ((INT_MIN <=? val * 1073741824) && (val * 1073741824 <=? INT_MAX)) eqn:E; simpl; auto.
    rewrite (He0 1073741824) by (simpl; tauto). reflexivity. }
  destruct (detectsuffix rest []); simpl; auto.
  rewrite Z.mul_1_r.
  destruct (Z.ltb_spec INT_MAX val); destruct (Z.ltb_spec val INT_MIN);
  destruct (Z.leb_spec INT_MIN val); destruct (Z.leb_spec val INT_MAX); simpl; auto; try lia.
Qed.

(** ** Main results *)

Definition agree (nv z : Z) : Prop := nv = z \/ (~ int_range nv /\ ~ int_range z).

Lemma clamp_cases m z :
  (LONG_MIN m <= z <= LONG_MAX m /\ clamp_long m z = z) \/
  (LONG_MAX m < z /\ clamp_long m z = LONG_MAX m) \/
  (z < LONG_MIN m /\ clamp_long m z = LONG_MIN m).
Proof.
  unfold clamp_long. assert (LONG_MIN m <= LONG_MAX m) by (destruct m; vm_compute; discriminate).
  destruct (Z.ltb_spec (LONG_MAX m) z); [right; left; auto|].
  destruct (Z.ltb_spec z (LONG_MIN m)); [right; right; auto|left; split; auto; lia].
Qed.

Lemma agree_clamp k k2 v : k = 1 \/ k = -1 -> k2 = 1 \/ k2 = -1 ->
  agree (k * (k2 * v)) (k * clamp_long Long64 (k2 * v)).
Proof.
  intros Hk Hk2. destruct (clamp_cases Long64 (k2 * v)) as [[H ->]|[[H ->]|[H ->]]].
  - left; auto.
  - right. unfold int_range, INT_MIN, INT_MAX, LONG_MIN in *. simpl LONG_MAX in *. destruct Hk, Hk2; subst; lia.
  - right. unfold int_range, INT_MIN, INT_MAX, LONG_MIN in *. simpl LONG_MAX in *. destruct Hk, Hk2; subst; lia.
Qed.

Lemma sign_cases sg k : sign sg k -> k = 1 \/ k = -1.
Proof. inversion 1; auto. Qed.

Lemma agree_finish nv z k : 1 <= k -> agree nv z ->
  (if in_intb (z * k) then @inl Z Z (z * k) else inr ARG_ERR_OVERFLOW) =
  (if in_intb (nv * k) then inl (nv * k) else inr ARG_ERR_OVERFLOW).
Proof.
  intros Hk [<-|[H1 H2]]; auto.
  assert (forall x, ~ int_range x -> in_intb (x * k) = false).
  { intros x Hx. unfold int_range, in_intb, INT_MIN, INT_MAX in *.
    apply andb_false_iff. assert (x < -2147483648 \/ 2147483647 < x) as [?|?] by lia.
    - left. apply Z.leb_gt. nia.
    - right. apply Z.leb_gt. nia. }
  rewrite !H by auto. reflexivity.
Qed.

Lemma suffix_ge1 sf k : size_suffix sf k -> 1 <= k.
Proof. inversion 1; lia. Qed.

Definition tail_char (c : ascii) : Prop := space_char c \/ In c ["k"; "K"; "m"; "M"; "g"; "G"]%char.
Lemma tail_facts c : tail_char c ->
  isdig 16 c = false /\ ceqb c "x" || ceqb c "X" = false /\
  toupper c <> "X"%char /\ toupper c <> "O"%char /\ toupper c <> "B"%char.
Proof.
  unfold tail_char, space_char; simpl. intros [H|H];
  repeat (destruct H as [H|H]; [subst; vm_compute; repeat split; discriminate|]); contradiction.
Qed.
Lemma tail_of sf k w2 : size_suffix sf k -> spaces w2 ->
  match sf ++ w2 with [] => True | c :: _ => tail_char c end.
Proof.
  intros H Hw. unfold tail_char. inversion H; subst; simpl.
  - destruct w2; auto. inversion Hw; subst; auto.
  - right. simpl in *. intuition.
  - right. simpl in *. intuition.
  - right. simpl in *. intuition.
Qed.

Lemma isdig_mono b1 b2 c : b1 <= b2 -> isdig b2 c = false -> isdig b1 c = false.
Proof. unfold isdig. destruct (digit_val c); auto. intros. apply Z.ltb_ge. apply Z.ltb_ge in H0. lia. Qed.

Lemma base_of_prefix px base : base_prefix px base -> base = 16 \/ base = 8 \/ base = 2.
Proof. inversion 1; auto. Qed.

(** Reading a prefixed number. *)
Lemma scan_prefixed_pre m w1 sg k px base p4 :
  spaces w1 -> sign sg k -> base_prefix px base ->
  forall z rest, strtol m p4 base = Some (z, rest) ->
  scan_prefixed m (w1 ++ sg ++ px ++ p4) =
   (if (LONG_MIN m <=? k * z) && (k * z <=? LONG_MAX m) then Ok (Some (k * z, rest)) else UB SignedOverflow).
Proof.
  intros Hw Hsg Hpx z rest Hz. unfold scan_prefixed.
  destruct (base_of_prefix _ _ Hpx) as [-> | [-> | ->]].
  - erewrite (strtol0X_complete m w1 sg k px "X" 16) by (eauto; constructor).
    destruct ((LONG_MIN m <=? k * z) && (k * z <=? LONG_MAX m)); reflexivity.
  - rewrite (strtol0X_other m w1 sg k px 8 "X" 16) by (auto; try constructor; lia).
    cbn [bind].
    erewrite (strtol0X_complete m w1 sg k px "O" 8) by (eauto; constructor).
    destruct ((LONG_MIN m <=? k * z) && (k * z <=? LONG_MAX m)); reflexivity.
  - rewrite (strtol0X_other m w1 sg k px 2 "X" 16) by (auto; try constructor; lia).
    cbn [bind].
    rewrite (strtol0X_other m w1 sg k px 2 "O" 8) by (auto; try constructor; lia).
    cbn [bind].
    erewrite (strtol0X_complete m w1 sg k px "B" 2) by (eauto; constructor).
    destruct ((LONG_MIN m <=? k * z) && (k * z <=? LONG_MAX m)); reflexivity.
Qed.

Lemma scan_prefixed_dec m w1 sg k ds v rest :
  spaces w1 -> sign sg k -> digits 10 ds v -> not_base_letter rest -> no_digit 10 rest ->
  scan_prefixed m (w1 ++ sg ++ ds ++ rest) = Ok (Some (clamp_long m (k * v), rest)).
Proof.
  intros. unfold scan_prefixed.
  erewrite !strtol0X_dec by (eauto; constructor). cbn [bind].
  pose proof (strtol_complete m 10 w1 sg k [] ds v rest) as HC. simpl app in HC.
  rewrite HC; auto; try lia. constructor.
Qed.

Lemma digits_nonneg base ds v : 0 < base <= 16 -> digits base ds v -> 0 <= v.
Proof.
  intros Hb H. apply digits_iff in H as [_ [H <-]]; auto.
  apply (value_from_nonneg base 0 ds); auto; lia.
Qed.

Lemma scan_prefixed_huge m s : doubly_negated_huge (LONG_MAX m) s ->
  scan_prefixed m s = UB SignedOverflow.
Proof.
  intros (w1 & px & base & w & ip & ds & v & rest & -> & Hw1 & Hpx & Hw & Hip & Hds & Hv).
  assert (Hb : 0 < base <= 16) by (destruct (base_of_prefix _ _ Hpx) as [-> | [-> | ->]]; lia).
  apply digits_iff in Hds as [Hne [Hall Hval]]; auto.
  destruct (digit_split base rest) as [ds2 [r [-> [H2 Hr]]]].
  assert (Hds2 : digits base (ds ++ ds2) (value_from base 0 (ds ++ ds2))).
  { apply digits_iff; auto. repeat split; auto.
    - intro H. apply app_eq_nil in H as [H _]; auto.
    - apply Forall_app; auto. }
  set (v2 := value_from base 0 (ds ++ ds2)) in *.
  assert (Hv2 : LONG_MAX m < v2).
  { unfold v2. rewrite value_from_app, Hval.
    pose proof (value_from_nonneg base v ds2 ltac:(lia)) as G.
    assert (0 <= v). { rewrite <- Hval. apply value_from_nonneg; auto; lia. }
    specialize (G ltac:(lia) H2). lia. }
  assert (Hz : ds ++ ds2 = lit "0" -> False).
  { intros E. unfold v2 in Hv2. rewrite E in Hv2. simpl in Hv2. destruct m; vm_compute in Hv2; discriminate. }
  pose proof (strtol_complete m base w (lit "-") (-1) ip (ds ++ ds2) v2 r Hb Hw sign_minus Hip Hds2 Hr
     ltac:(intros E; contradiction)) as HC.
  rewrite <- (app_assoc ds) in HC.
  rewrite (scan_prefixed_pre m w1 (lit "-") (-1) px base _ Hw1 sign_minus Hpx _ _ HC).
  clear HC Hds2. clearbody v2.
  destruct (clamp_cases m (-1 * v2)) as [[H ->]|[[H ->]|[H ->]]].
  - unfold LONG_MIN in H. destruct m; simpl LONG_MAX in *.
    + assert (v2 = 9223372036854775808) as -> by lia. reflexivity.
    + assert (v2 = 2147483648) as -> by lia. reflexivity.
  - destruct m; simpl LONG_MAX in *; lia.
  - destruct m; reflexivity.
Qed.

Theorem int_convert_huge m s : doubly_negated_huge (LONG_MAX m) s -> int_convert m s = UB SignedOverflow.
Proof. intros H. rewrite int_convert_finish, scan_prefixed_huge; auto. Qed.

Lemma app_assoc6 (a b c d e f h g : str) :
  a ++ (b ++ c ++ d ++ e ++ f ++ h) ++ g = a ++ b ++ c ++ (d ++ e ++ f ++ h ++ g).
Proof. rewrite <- !app_assoc. reflexivity. Qed.

Lemma dneg_intro m w1 sg k px base w sg2 k2 ip ds v rest :
  spaces w1 -> sign sg k -> base_prefix px base -> spaces w -> sign sg2 k2 ->
  inner_prefix base ip -> digits base ds v ->
  ~ (LONG_MIN m <= k * clamp_long m (k2 * v) <= LONG_MAX m) ->
  doubly_negated_huge (LONG_MAX m) (w1 ++ sg ++ px ++ w ++ sg2 ++ ip ++ ds ++ rest).
Proof.
  intros Hw1 Hsg Hpx Hw Hsg2 Hip Hds Hn.
  assert (Hb : 0 < base <= 16) by (destruct (base_of_prefix _ _ Hpx) as [-> | [-> | ->]]; lia).
  pose proof (digits_nonneg _ _ _ Hb Hds) as Hv0.
  assert (LM : LONG_MIN m = - LONG_MAX m - 1 /\ 0 < LONG_MAX m) by (destruct m; split; reflexivity).
  assert (k = -1 /\ k2 = -1 /\ LONG_MAX m < v) as [Ek [Ek2 Hv]].
  { destruct (sign_cases _ _ Hsg) as [-> | ->]; destruct (sign_cases _ _ Hsg2) as [-> | ->];
    destruct (clamp_cases m (1 * v)) as [[H1 H2]|[[H1 H2]|[H1 H2]]];
    destruct (clamp_cases m (-1 * v)) as [[G1 G2]|[[G1 G2]|[G1 G2]]];
    try rewrite H2 in Hn; try rewrite G2 in Hn; lia. }
  subst k k2. inversion Hsg; subst. inversion Hsg2; subst.
  exists w1, px, base, w, ip, ds, v, rest. repeat split; auto.
Qed.

(** A well-formed literal is converted to its value, or reported as overflow. *)
Theorem int_convert_literal s v :
  int_literal s v -> ~ doubly_negated_huge (LONG_MAX Long64) s ->
  int_convert Long64 s = Ok (if in_intb v then inl v else inr ARG_ERR_OVERFLOW).
Proof.
  intros (w1 & n & nv & sf & k & w2 & -> & Hw1 & Hn & Hsf & Hw2 & ->) Hnd.
  rewrite int_convert_finish.
  pose proof (tail_of sf k w2 Hsf Hw2) as Htail.
  pose proof (suffix_ge1 _ _ Hsf) as Hk1.
  assert (Hrest : no_digit 16 (sf ++ w2) /\ not_base_letter (sf ++ w2) /\
     match sf ++ w2 with c :: _ => ceqb c "x" || ceqb c "X" = false | [] => True end).
  { destruct (sf ++ w2); simpl; auto. apply tail_facts in Htail. tauto. }
  destruct Hrest as [R1 [R2 R3]].
  assert (Rb : forall b, b <= 16 -> no_digit b (sf ++ w2)).
  { intros b Hb. destruct (sf ++ w2); simpl in *; auto. eapply isdig_mono; eauto. }
  inversion Hn as [sg k0 ds v0 Hsg Hds|sg k0 px base w sg2 k2 ip ds v0 Hsg Hpx Hw Hsg2 Hip Hds]; subst.
  - rewrite <- app_assoc.
    rewrite (scan_prefixed_dec Long64 w1 sg k0 ds v0 (sf ++ w2)); auto; [|apply Rb; lia].
    cbn [bind]. unfold finish. rewrite (suffix_mult_complete sf k w2) by auto.
    f_equal. apply agree_finish; auto.
    pose proof (agree_clamp 1 k0 v0 ltac:(auto) (sign_cases _ _ Hsg)) as A. rewrite !Z.mul_1_l in A. exact A.
  - assert (Hb : 0 < base <= 16) by (destruct (base_of_prefix _ _ Hpx) as [-> | [-> | ->]]; lia).
    rewrite app_assoc6 in *.
    pose proof (strtol_complete Long64 base w sg2 k2 ip ds v0 (sf ++ w2) Hb Hw Hsg2 Hip Hds
                  ltac:(apply Rb; lia) ltac:(auto)) as HC.
    rewrite (scan_prefixed_pre Long64 w1 sg k0 px base _ Hw1 Hsg Hpx _ _ HC).
    destruct ((LONG_MIN Long64 <=? k0 * clamp_long Long64 (k2 * v0)) && (k0 * clamp_long Long64 (k2 * v0) <=? LONG_MAX Long64)) eqn:E.
    + cbn [bind]. unfold finish. rewrite (suffix_mult_complete sf k w2) by auto.
      f_equal. apply agree_finish; auto.
      apply agree_clamp; eapply sign_cases; eauto.
    + exfalso. apply Hnd. eapply dneg_intro; eauto.
      intros [G1 G2]. apply Z.leb_le in G1, G2. rewrite G1, G2 in E. discriminate.
Qed.

(** Soundness: what the answers mean. *)
Lemma scan_prefixed_sound m s :
  match scan_prefixed m s with
  | OutOfFuel => False
  | UB u => u = SignedOverflow /\ doubly_negated_huge (LONG_MAX m) s
  | Ok None => True
  | Ok (Some (z, rest)) => exists w1 n nv, s = w1 ++ n ++ rest /\ spaces w1 /\ number n nv /\
       (m = Long64 -> agree nv z)
  end.
Proof.
  assert (Hgen : forall X base, base_letter X base ->
    match strtol0X m s X base with
    | OutOfFuel => False
    | UB u => u = SignedOverflow /\ doubly_negated_huge (LONG_MAX m) s
    | Ok None => True
    | Ok (Some (z, rest)) => exists w1 n nv, s = w1 ++ n ++ rest /\ spaces w1 /\ number n nv /\
       (m = Long64 -> agree nv z)
    end).
  { intros X base HX. pose proof (strtol0X_sound m s X base HX) as H.
    pose proof (base_range _ _ HX) as Hb.
    destruct (strtol0X m s X base) as [[[r rest]|]|u|]; auto.
    - destruct H as (w1 & sg & k & px & p4 & z & -> & Hw1 & Hsg & Hpx & Hz & -> & Hr).
      apply strtol_sound in Hz as (w & sg2 & k2 & ip & ds & v & -> & Hw & Hsg2 & Hip & Hds & Hnd & ->); auto.
      exists w1, (sg ++ px ++ w ++ sg2 ++ ip ++ ds), (k * (k2 * v)).
      split; [|split; [|split]]; auto.
      + rewrite app_assoc6. reflexivity.
      + eapply number_prefixed; eauto.
      + intros ->. apply agree_clamp; eapply sign_cases; eauto.
    - destruct H as [-> (w1 & sg & k & px & p4 & z & rest & -> & Hw1 & Hsg & Hpx & Hz & Hr)].
      split; auto.
      apply strtol_sound in Hz as (w & sg2 & k2 & ip & ds & v & -> & Hw & Hsg2 & Hip & Hds & Hnd & ->); auto.
      eapply dneg_intro; eauto. }
  unfold scan_prefixed.
  pose proof (Hgen "X"%char 16 bl_x) as H1. destruct (strtol0X m s "X" 16) as [[x|]| |]; cbn [bind]; auto.
  pose proof (Hgen "O"%char 8 bl_o) as H2. destruct (strtol0X m s "O" 8) as [[x|]| |]; cbn [bind]; auto.
  pose proof (Hgen "B"%char 2 bl_b) as H3. destruct (strtol0X m s "B" 2) as [[x|]| |]; cbn [bind]; auto.
  destruct (strtol m s 10) as [[z rest]|] eqn:E; auto.
  apply strtol_sound in E as (w & sg & k & ip & ds & v & -> & Hw & Hsg & Hip & Hds & Hnd & ->); [|lia].
  inversion Hip; try lia; subst. simpl app.
  exists w, (sg ++ ds), (k * v). split; [|split; [|split]]; auto.
  - rewrite <- app_assoc. reflexivity.
  - constructor; auto.
  - intros ->. pose proof (agree_clamp 1 k v ltac:(auto) (sign_cases _ _ Hsg)) as A. rewrite !Z.mul_1_l in A. exact A.
Qed.

Theorem int_convert_sound s :
  match int_convert Long64 s with
  | Ok (inl v) => int_literal s v /\ int_range v
  | Ok (inr e) => (e = ARG_ERR_OVERFLOW /\ exists v, int_literal s v /\ ~ int_range v) \/
                  (e = ARG_ERR_BADINT /\ forall v, ~ int_literal s v)
  | UB u => u = SignedOverflow /\ doubly_negated_huge (LONG_MAX Long64) s
  | OutOfFuel => False
  end.
Proof.
  rewrite int_convert_finish.
  pose proof (scan_prefixed_sound Long64 s) as H.
  pose proof (int_convert_finish Long64 s) as HF.
  destruct (scan_prefixed Long64 s) as [[[z rest]|]|u|] eqn:E; cbn [bind] in *; auto.
  - destruct H as (w1 & n & nv & -> & Hw1 & Hn & Ha). specialize (Ha eq_refl).
    unfold finish in *.
    destruct (suffix_mult rest) as [k|] eqn:Es.
    + apply suffix_mult_sound in Es as (sf & w2 & -> & Hsf & Hw2).
      pose proof (suffix_ge1 _ _ Hsf).
      rewrite (agree_finish nv z k) by auto.
      assert (HL : int_literal (w1 ++ n ++ sf ++ w2) (nv * k)).
      { exists w1, n, nv, sf, k, w2. repeat split; auto. }
      destruct (in_intb (nv * k)) eqn:Eb.
      * split; auto. unfold in_intb in Eb. apply andb_true_iff in Eb as [B1 B2].
        apply Z.leb_le in B1, B2. split; auto.
      * left. split; auto. eexists; split; eauto. intros [B1 B2]. apply Z.leb_le in B1, B2.
        unfold in_intb in Eb. rewrite B1, B2 in Eb. discriminate.
    + right. split; auto. intros v Hv.
      assert (~ doubly_negated_huge (LONG_MAX Long64) (w1 ++ n ++ rest)) as Hd.
      { intros Hd. rewrite (scan_prefixed_huge _ _ Hd) in E. discriminate. }
      pose proof (int_convert_literal _ _ Hv Hd) as HL. rewrite HF in HL.
      destruct (in_intb v); discriminate.
  - right. split; auto. intros v Hv.
    assert (~ doubly_negated_huge (LONG_MAX Long64) s) as Hd.
    { intros Hd. rewrite (scan_prefixed_huge _ _ Hd) in E. discriminate. }
    pose proof (int_convert_literal _ _ Hv Hd) as HL. rewrite HF in HL.
    destruct (in_intb v); discriminate.
Qed.

(** ** Round trip *)

(** Digit character of value [d] (0..15), lower case. *)
Definition digit_char (d : Z) : ascii := nth (Z.to_nat d) (lit "0123456789abcdef") "?"%char.

(** Text of a non-negative number in a base, most significant digit first. *)
Fixpoint digits_of_fuel (fuel : nat) (base n : Z) (acc : str) : str :=
  match fuel with
  | O => acc
  | S f => let acc' := digit_char (n mod base) :: acc in
           if n <? base then acc' else digits_of_fuel f base (n / base) acc'
  end.
Definition digits_of (base n : Z) : str := digits_of_fuel (S (Z.to_nat (Z.log2 n + 1))) base n [].

Lemma digits_app base a va b vb : 0 < base <= 16 ->
  digits base a va -> digits base b vb -> digits base (a ++ b) (value_from base va b).
Proof.
  intros Hb Ha Hbb. apply digits_iff in Ha as [H1 [H2 H3]]; auto.
  apply digits_iff in Hbb as [H4 [H5 H6]]; auto.
  apply digits_iff; auto. repeat split.
  - intro E. apply app_eq_nil in E as [E _]; auto.
  - apply Forall_app; auto.
  - rewrite value_from_app, H3. auto.
Qed.

Lemma digit_char_of base d : 0 < base <= 16 -> 0 <= d < base -> digit_of base (digit_char d) (Z.to_nat d).
Proof.
  intros Hb Hd. unfold digit_of. split; [lia|]. left. unfold digit_char.
  apply nth_error_nth'. simpl. lia.
Qed.

Lemma isdig_digit_char base d : 0 < base <= 16 -> 0 <= d < base ->
  isdig base (digit_char d) = true /\ dval (digit_char d) = d.
Proof.
  intros Hb Hd. pose proof (digit_char_of base d Hb Hd) as H.
  destruct (proj2 (digit_val_of (digit_char d) d base Hb)) as [E L].
  { exists (Z.to_nat d). split; auto. lia. }
  unfold isdig, dval. rewrite E. split; auto. apply Z.ltb_lt; auto.
Qed.

Lemma digits_of_fuel_spec base : 1 < base <= 16 -> forall fuel n acc,
  0 <= n -> (Z.to_nat (Z.log2 n + 1) < fuel)%nat ->
  Forall (fun c => isdig base c = true) acc ->
  exists ds, ds <> [] /\ digits_of_fuel fuel base n acc = ds ++ acc /\
     Forall (fun c => isdig base c = true) ds /\ value_from base 0 ds = n.
Proof.
  intros Hb. induction fuel as [|fuel IH]; intros n acc Hn Hf Hacc; [lia|].
  cbn [digits_of_fuel]. set (d := n mod base).
  assert (Hd : 0 <= d < base) by (apply Z.mod_pos_bound; lia).
  destruct (isdig_digit_char base d ltac:(lia) Hd) as [D1 D2].
  destruct (Z.ltb_spec n base).
  - exists [digit_char d]. repeat split; auto; try discriminate.
    simpl. rewrite D2. unfold d. rewrite Z.mod_small; lia.
  - assert (Hq : 0 < n / base) by (apply Z.div_str_pos; lia).
    assert (Hlog : Z.log2 (n / base) < Z.log2 n).
    { apply Z.lt_le_trans with (Z.log2 (2 * (n / base))).
      - rewrite Z.log2_double by lia. lia.
      - apply Z.log2_le_mono. assert (base * (n / base) <= n) by (apply Z.mul_div_le; lia). nia. }
    destruct (IH (n / base) (digit_char d :: acc)) as [ds [E1 [E2 [E3 E4]]]]; auto.
    + lia.
    + pose proof (Z.log2_nonneg (n / base)). lia.
    + exists (ds ++ [digit_char d]). repeat split.
      * intro E. apply app_eq_nil in E as [_ E]; discriminate.
      * rewrite E2. rewrite <- app_assoc. reflexivity.
      * apply Forall_app; auto.
      * rewrite value_from_app, E4. simpl. rewrite D2. unfold d.
        rewrite Z.mul_comm. symmetry. apply Z.div_mod. lia.
Qed.

Lemma digits_of_spec base n : 1 < base <= 16 -> 0 <= n -> digits base (digits_of base n) n.
Proof.
  intros Hb Hn. unfold digits_of.
  destruct (digits_of_fuel_spec base Hb (S (Z.to_nat (Z.log2 n + 1))) n []) as [ds [E1 [E2 [E3 E4]]]]; auto.
  rewrite E2, app_nil_r. apply digits_iff; [lia|]. auto.
Qed.

(** Any text sign + prefix + digits (no second sign) of an int value is read as that value. *)
Theorem int_convert_prefixed sg k px base ds v :
  sign sg k -> base_prefix px base -> digits base ds v -> int_range (k * v) ->
  int_convert Long64 (sg ++ px ++ ds) = Ok (inl (k * v)).
Proof.
  intros Hsg Hpx Hds Hr.
  assert (Hb : 0 < base <= 16) by (destruct (base_of_prefix _ _ Hpx) as [-> | [-> | ->]]; lia).
  rewrite int_convert_finish.
  pose proof (strtol_complete Long64 base [] [] 1 [] ds v [] Hb ltac:(constructor) ltac:(constructor)
     ltac:(constructor) Hds I ltac:(intros; exact I)) as HC.
  simpl app in HC. rewrite app_nil_r in HC. rewrite Z.mul_1_l in HC.
  pose proof (scan_prefixed_pre Long64 [] sg k px base ds ltac:(constructor) Hsg Hpx _ _ HC) as HP.
  simpl app in HP. rewrite HP. clear HP HC.
  assert (Hc : clamp_long Long64 v = v).
  { destruct (clamp_cases Long64 v) as [[? ->]|[[? _]|[? _]]]; auto;
    unfold int_range, INT_MIN, INT_MAX, LONG_MIN in *; simpl LONG_MAX in *;
    destruct (sign_cases _ _ Hsg); subst; lia. }
  rewrite Hc.
  assert (HB : (LONG_MIN Long64 <=? k * v) && (k * v <=? LONG_MAX Long64) = true).
  { unfold int_range, INT_MIN, INT_MAX, LONG_MIN in *; simpl LONG_MAX in *.
    apply andb_true_iff; split; apply Z.leb_le; lia. }
  rewrite HB. cbn [bind]. unfold finish. simpl suffix_mult. cbn [suffix_mult detectsuffix].
  replace (suffix_mult []) with (Some 1) by reflexivity.
  rewrite Z.mul_1_r. unfold in_intb.
  destruct Hr as [R1 R2]. apply Z.leb_le in R1, R2. rewrite R1, R2. reflexivity.
Qed.

Theorem int_convert_decimal sg k ds v :
  sign sg k -> digits 10 ds v -> int_range (k * v) ->
  int_convert Long64 (sg ++ ds) = Ok (inl (k * v)).
Proof.
  intros Hsg Hds Hr.
  rewrite int_convert_finish.
  pose proof (scan_prefixed_dec Long64 [] sg k ds v [] ltac:(constructor) Hsg Hds I I) as HP.
  simpl app in HP. rewrite app_nil_r in HP. rewrite HP. clear HP.
  assert (Hc : clamp_long Long64 (k * v) = k * v).
  { destruct (clamp_cases Long64 (k * v)) as [[? ->]|[[? _]|[? _]]]; auto;
    unfold int_range, INT_MIN, INT_MAX, LONG_MIN in *; simpl LONG_MAX in *; lia. }
  rewrite Hc. cbn [bind]. unfold finish.
  replace (suffix_mult []) with (Some 1) by reflexivity.
  rewrite Z.mul_1_r. unfold in_intb.
  destruct Hr as [R1 R2]. apply Z.leb_le in R1, R2. rewrite R1, R2. reflexivity.
Qed.

(** ** The scan function *)

Lemma arg_int_scanfn_ok m maxcount p argval :
  0 <= int_count p <= maxcount -> zlen (int_ival p) = maxcount ->
  match arg_int_scanfn m maxcount p argval with
  | Ok (p', e) => 0 <= int_count p' <= maxcount /\ zlen (int_ival p') = maxcount /\
       (e <> 0 -> p' = p) /\ (e = 0 -> int_count p' = int_count p + 1)
  | UB u => u = SignedOverflow /\ exists s, argval = Some s /\ doubly_negated_huge (LONG_MAX m) s
  | OutOfFuel => False
  end.
Proof.
  intros Hc Hl. unfold arg_int_scanfn.
  destruct (Z.eqb_spec (int_count p) maxcount) as [E|E].
  - repeat split; auto; lia || (intros; discriminate).
  - destruct argval as [s|].
    + rewrite int_convert_finish. pose proof (scan_prefixed_sound m s) as H.
      destruct (scan_prefixed m s) as [[[z rest]|]|u|]; cbn [bind]; auto.
      * destruct (finish z rest) as [v|e] eqn:Ef.
        -- rewrite aset_ok by lia. cbn [bind int_count int_ival]. unfold zlen in *. rewrite lupd_length.
           repeat split; try lia.
        -- unfold finish in Ef. destruct (suffix_mult rest).
           ++ destruct (in_intb (z * z0)); [discriminate|]. injection Ef as <-.
              repeat split; auto; try lia. intros; discriminate.
           ++ injection Ef as <-. repeat split; auto; try lia. intros; discriminate.
      * repeat split; auto; try lia. intros; discriminate.
      * destruct H as [-> H]. split; eauto.
    + cbn [int_count int_ival]. repeat split; auto; lia.
Qed.

Lemma int_scan_accepts maxcount p s v :
  0 <= int_count p < maxcount -> zlen (int_ival p) = maxcount ->
  ~ doubly_negated_huge (LONG_MAX Long64) s ->
  int_literal s v -> int_range v ->
  arg_int_scanfn Long64 maxcount p (Some s) =
    Ok ({| int_count := int_count p + 1; int_ival := lupd (int_ival p) (Z.to_nat (int_count p)) v |}, 0).
Proof.
  intros Hc Hl Hd HL [R1 R2]. unfold arg_int_scanfn.
  destruct (Z.eqb_spec (int_count p) maxcount); [lia|].
  rewrite (int_convert_literal s v) by auto. unfold in_intb.
  apply Z.leb_le in R1, R2. rewrite R1, R2. cbn [bind andb]. rewrite aset_ok by lia. reflexivity.
Qed.

Lemma int_scan_overflow maxcount p s v :
  0 <= int_count p < maxcount ->
  ~ doubly_negated_huge (LONG_MAX Long64) s ->
  int_literal s v -> ~ int_range v ->
  arg_int_scanfn Long64 maxcount p (Some s) = Ok (p, ARG_ERR_OVERFLOW).
Proof.
  intros Hc Hd HL HR. unfold arg_int_scanfn.
  destruct (Z.eqb_spec (int_count p) maxcount); [lia|].
  rewrite (int_convert_literal s v) by auto.
  destruct (in_intb v) eqn:E; [|reflexivity].
  exfalso. apply HR. unfold in_intb in E. apply andb_true_iff in E as [B1 B2].
  apply Z.leb_le in B1, B2. split; auto.
Qed.

Lemma int_scan_bad maxcount p s :
  0 <= int_count p < maxcount ->
  ~ doubly_negated_huge (LONG_MAX Long64) s ->
  (forall v, ~ int_literal s v) ->
  arg_int_scanfn Long64 maxcount p (Some s) = Ok (p, ARG_ERR_BADINT).
Proof.
  intros Hc Hd HL. unfold arg_int_scanfn.
  destruct (Z.eqb_spec (int_count p) maxcount); [lia|].
  pose proof (int_convert_sound s) as H.
  destruct (int_convert Long64 s) as [[v|e]|u|]; cbn [bind]; try contradiction.
  - exfalso. destruct H. eapply HL; eauto.
  - destruct H as [[-> [v [H _]]]|[-> _]]; auto. exfalso. eapply HL; eauto.
  - destruct H; contradiction.
Qed.

Lemma int_scan_zero_sound maxcount p p' s :
  0 <= int_count p < maxcount -> zlen (int_ival p) = maxcount ->
  arg_int_scanfn Long64 maxcount p (Some s) = Ok (p', 0) ->
  exists v, int_literal s v /\ int_range v /\ int_count p' = int_count p + 1 /\
            nth_error (int_ival p') (Z.to_nat (int_count p)) = Some v.
Proof.
  intros Hc Hl. unfold arg_int_scanfn.
  destruct (Z.eqb_spec (int_count p) maxcount); [lia|].
  pose proof (int_convert_sound s) as H.
  destruct (int_convert Long64 s) as [[v|e0]|u|]; cbn [bind]; try discriminate.
  - rewrite aset_ok by lia. cbn [bind]. intros [= <-]. destruct H.
    exists v. repeat split; auto; try apply H0. cbn. apply nth_error_lupd_eq. unfold zlen in Hl. lia.
  - intros [= <- ->]. exfalso. destruct H as [[H _]|[H _]]; discriminate.
Qed.

(** Integer literals have a single value (the grammar is unambiguous). *)
Theorem int_literal_unique s v1 v2 :
  ~ doubly_negated_huge (LONG_MAX Long64) s ->
  int_literal s v1 -> int_literal s v2 -> int_range v1 -> v1 = v2.
Proof.
  intros Hd H1 H2 [R1 R2].
  pose proof (int_convert_literal _ _ H1 Hd) as E1.
  rewrite (int_convert_literal _ _ H2 Hd) in E1.
  unfold in_intb in E1 at 2. apply Z.leb_le in R1, R2. rewrite R1, R2 in E1. simpl in E1.
  destruct (in_intb v2); congruence.
Qed.

Lemma int_ub_iff m maxcount p s :
  0 <= int_count p < maxcount -> zlen (int_ival p) = maxcount ->
  (exists u, arg_int_scanfn m maxcount p (Some s) = UB u) <-> doubly_negated_huge (LONG_MAX m) s.
Proof.
  intros Hc Hl. split.
  - intros [u E]. pose proof (arg_int_scanfn_ok m maxcount p (Some s) ltac:(lia) Hl) as H.
    rewrite E in H. destruct H as [_ [s' [[= <-] H]]]. auto.
  - intros Hd. exists SignedOverflow. unfold arg_int_scanfn.
    destruct (Z.eqb_spec (int_count p) maxcount); [lia|].
    rewrite int_convert_huge by auto. reflexivity.
Qed.

(** Round trip of a printed int in every notation. *)
Definition sign_text (n : Z) : str := if n <? 0 then lit "-" else [].
Lemma sign_text_sign n : sign (sign_text n) (if n <? 0 then -1 else 1).
Proof. unfold sign_text. destruct (n <? 0); constructor. Qed.

Lemma int_roundtrip_dec n : int_range n ->
  int_convert Long64 (sign_text n ++ digits_of 10 (Z.abs n)) = Ok (inl n).
Proof.
  intros H.
  assert (E : (if n <? 0 then -1 else 1) * Z.abs n = n) by (destruct (Z.ltb_spec n 0); lia).
  rewrite (int_convert_decimal _ (if n <? 0 then -1 else 1) _ (Z.abs n)).
  - rewrite E; auto.
  - apply sign_text_sign.
  - apply digits_of_spec; lia.
  - rewrite E; auto.
Qed.

Lemma int_roundtrip_prefixed n px base : int_range n -> base_prefix px base ->
  int_convert Long64 (sign_text n ++ px ++ digits_of base (Z.abs n)) = Ok (inl n).
Proof.
  intros H Hpx.
  assert (E : (if n <? 0 then -1 else 1) * Z.abs n = n) by (destruct (Z.ltb_spec n 0); lia).
  rewrite (int_convert_prefixed _ (if n <? 0 then -1 else 1) px base _ (Z.abs n)); auto.
  - rewrite E; auto.
  - apply sign_text_sign.
  - apply digits_of_spec; [|lia]. destruct (base_of_prefix _ _ Hpx) as [-> | [-> | ->]]; lia.
  - rewrite E; auto.
Qed.

Lemma int_roundtrip_scan maxcount p n : int_range n ->
  0 <= int_count p < maxcount -> zlen (int_ival p) = maxcount ->
  forall t, (t = digits_of 10 (Z.abs n) \/ exists px base, base_prefix px base /\ t = px ++ digits_of base (Z.abs n)) ->
  exists p', arg_int_scanfn Long64 maxcount p (Some (sign_text n ++ t)) = Ok (p', 0) /\
    int_count p' = int_count p + 1 /\
    nth_error (int_ival p') (Z.to_nat (int_count p)) = Some n.
Proof.
  intros Hr Hc Hl t Ht.
  assert (E : int_convert Long64 (sign_text n ++ t) = Ok (inl n)).
  { destruct Ht as [->|[px [base [Hpx ->]]]].
    - apply int_roundtrip_dec; auto.
    - apply int_roundtrip_prefixed; auto. }
  unfold arg_int_scanfn. destruct (Z.eqb_spec (int_count p) maxcount); [lia|].
  rewrite E. cbn [bind]. rewrite aset_ok by lia. cbn [bind].
  eexists; split; [reflexivity|]. split; auto. cbn. apply nth_error_lupd_eq. unfold zlen in Hl. lia.
Qed.
