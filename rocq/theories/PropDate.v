(** C21, C22, C23: date/time arguments. *)
From Verif Require Import Base IntModel DateModel DateSpec DateProofs.
From Coq Require Import ZArith List Ascii String Bool Lia.
Import ListNotations.
Open Scope Z_scope.

(** ** C21 *)
(** A date argument is stored exactly when the format reads the whole text; what is stored is the
    previous content of the slot as changed by the format. Otherwise nothing changes. *)
Lemma date_scan maxcount p s t :
  date_count p <> maxcount -> cstr s ->
  aget (date_tmval p) (date_count p) = Ok t ->
  (forall t', reads (date_format p) false s t t' [] ->
     arg_date_scanfn maxcount p (Some s) =
       (a <- aset (date_tmval p) (date_count p) t' ;;
        Ok ({| date_format := date_format p; date_count := date_count p + 1; date_tmval := a |}, 0))) /\
  ((forall t', ~ reads (date_format p) false s t t' []) ->
     arg_date_scanfn maxcount p (Some s) = Ok (p, ARG_ERR_BADDATE)).
Proof.
  intros Hm Hs Ht. unfold arg_date_scanfn. destruct (Z.eqb_spec (date_count p) maxcount); [contradiction|].
  rewrite Ht. cbn [bind]. split.
  - intros t' H. apply arg_strptime_iff in H; auto. rewrite H. reflexivity.
  - intros H. destruct (arg_strptime_total (date_format p) s t) as [[t' r] E]. rewrite E. cbn [bind].
    destruct r as [[|c r]|]; try reflexivity. exfalso. apply (H t'). apply arg_strptime_iff; auto.
Qed.

Theorem C21_date_scan :
  forall maxcount p s,
  0 <= date_count p < maxcount -> zlen (date_tmval p) = maxcount -> cstr s ->
  exists t, nth_error (date_tmval p) (Z.to_nat (date_count p)) = Some t /\
  (forall t', reads (date_format p) false s t t' [] ->
     arg_date_scanfn maxcount p (Some s) =
       Ok ({| date_format := date_format p; date_count := date_count p + 1;
              date_tmval := lupd (date_tmval p) (Z.to_nat (date_count p)) t' |}, 0)) /\
  ((forall t', ~ reads (date_format p) false s t t' []) ->
     arg_date_scanfn maxcount p (Some s) = Ok (p, ARG_ERR_BADDATE)).
Proof.
  intros maxcount p s Hc Hl Hs.
  destruct (aget_ok (date_tmval p) (date_count p)) as (t & Ht & Hn); [lia|].
  exists t. split; auto. destruct (date_scan maxcount p s t ltac:(lia) Hs Ht) as [H1 H2]. split; auto.
  intros t' Hr. rewrite (H1 t' Hr), aset_ok by lia. reflexivity.
Qed.

(** What a format can do to the fields. *)
Lemma assigns_fld f v t t' g : assigns f v t t' -> (g = f /\ fld g t' = v) \/ (g <> f /\ fld g t' = fld g t).
Proof.
  intros [H1 H2].
  assert (D : g = f \/ g <> f) by (destruct f, g; auto; right; discriminate).
  destruct D as [->|D]; auto.
Qed.

Definition aboutb (c : ascii) (f : field) : bool :=
  match f with
  | Sec => existsb (ceqb c) (lit "STXrc") | Min => existsb (ceqb c) (lit "MRTXrc") | Hour => existsb (ceqb c) (lit "HkIlpRTXrc")
  | Mday => existsb (ceqb c) (lit "deDxc") | Mon => existsb (ceqb c) (lit "mBbhDxc") | Year => existsb (ceqb c) (lit "YyCDxc")
  | Wday => existsb (ceqb c) (lit "wAa") | Yday => existsb (ceqb c) (lit "j") | Isdst => false
  end.
Lemma existsb_ceqb c s : existsb (ceqb c) s = true <-> In c s.
Proof.
  rewrite existsb_exists. split.
  - intros (x & Hx & E). apply ceqb_eq in E. subst. auto.
  - intros H. exists c. split; auto. apply ceqb_eq. auto.
Qed.
Lemma aboutb_iff c f : aboutb c f = true <-> about c f.
Proof. destruct f; cbn [aboutb about]; unfold is_one_of; rewrite ?existsb_ceqb; try tauto. split; [discriminate|contradiction]. Qed.

Definition effect (P : ascii -> Prop) (t t' : tm) (f : field) : Prop :=
  (in_range f (fld f t) -> in_range f (fld f t')) /\
  ((exists c, P c /\ about c f) -> (f = Hour -> in_range Hour (fld Hour t)) -> in_range f (fld f t')) /\
  ((forall c, P c -> ~ about c f) -> fld f t' = fld f t).

Ltac splitor H := repeat match type of H with _ \/ _ => destruct H as [H|H] end; try contradiction.

Lemma rem_100 y : -1900 <= y <= 9999 -> -99 <= Z.rem y 100 <= 99.
Proof. intros _. pose proof (Z.rem_bound_abs y 100 ltac:(lia)). lia. Qed.
Lemma quot_100 y : -1900 <= y <= 9999 -> -1900 <= Z.quot y 100 * 100 <= 9900.
Proof.
  intros H. pose proof (Z.quot_rem y 100 ltac:(lia)) as Q. pose proof (Z.rem_bound_abs y 100 ltac:(lia)) as B.
  destruct (Z.le_gt_cases 0 y).
  - pose proof (Z.rem_nonneg y 100 ltac:(lia) ltac:(lia)). assert (Z.quot y 100 <= 99); [|assert (0 <= Z.quot y 100) by (apply Z.quot_pos; lia); lia].
    pose proof (Z.quot_lt y 100). destruct (Z.le_gt_cases (Z.quot y 100) 99); auto. nia.
  - pose proof (Z.rem_nonpos y 100 ltac:(lia) ltac:(lia)). lia.
Qed.

Lemma conv_effect c sp s t r t' sp' : conv c sp s t r t' sp' ->
  (sp = true -> in_range Year (fld Year t)) ->
  (forall f, effect (eq c) t t' f) /\ (sp' = true -> in_range Year (fld Year t')).
Proof.
  intros H Hsp.
  assert (Same : forall t', t' = t -> (forall f, ~ about c f) -> forall f, effect (eq c) t t' f).
  { intros t0 -> Hn f. split; [auto|]. split; auto. intros (c' & <- & Ha). exfalso. eapply Hn; eauto. }
  (* one field assigned *)
  assert (One : forall f v t', assigns f v t t' -> (in_range f v \/ (f = Hour /\ (in_range Hour (fld Hour t) -> in_range f v))) ->
     (forall g, about c g -> g = f) -> about c f ->
     forall g, effect (eq c) t t' g).
  { intros f v t0 Ha Hr Hg Hf g. destruct (assigns_fld f v t t0 g Ha) as [[-> E]|[N E]]; unfold effect; rewrite E.
    - split; [|split].
      + intros Hin. destruct Hr as [Hr|[-> Hr]]; auto.
      + intros _ Hh. destruct Hr as [Hr|[-> Hr]]; auto.
      + intros Hno. exfalso. eapply Hno; eauto.
    - split; [auto|]. split; auto. intros (c' & <- & Hab). exfalso. apply N. auto. }
  assert (Keep : forall f v t', assigns f v t t' -> f <> Year -> sp' = sp -> sp' = true -> in_range Year (fld Year t')).
  { intros f v t0 Ha Hf -> Ht. destruct (assigns_fld f v t t0 Year Ha) as [[E _]|[_ ->]]; [congruence|auto]. }
  assert (Uniq : forall cs f, is_one_of cs c ->
     forallb (fun c => forallb (fun g => negb (aboutb c g) || match f, g with
        Sec, Sec | Min, Min | Hour, Hour | Mday, Mday | Mon, Mon | Year, Year | Wday, Wday | Yday, Yday => true | _, _ => false end)
        [Sec; Min; Hour; Mday; Mon; Year; Wday; Yday; Isdst] && aboutb c f) (lit cs) = true ->
     (forall g, about c g -> g = f) /\ about c f).
  { intros cs f Hin Hb. rewrite forallb_forall in Hb. specialize (Hb c Hin). apply andb_true_iff in Hb as [Hb Hf]. split.
    - intros g Hg. rewrite forallb_forall in Hb. specialize (Hb g ltac:(destruct g; cbn; tauto)).
      apply aboutb_iff in Hg. rewrite Hg in Hb. cbn [negb orb] in Hb. destruct f, g; auto; discriminate.
    - apply aboutb_iff; auto. }
  assert (None_ : forall cs, is_one_of cs c ->
     forallb (fun c => forallb (fun g => negb (aboutb c g)) [Sec; Min; Hour; Mday; Mon; Year; Wday; Yday; Isdst]) (lit cs) = true ->
     forall f, ~ about c f).
  { intros cs Hin Hb f Hf. rewrite forallb_forall in Hb. specialize (Hb c Hin).
    rewrite forallb_forall in Hb. specialize (Hb f ltac:(destruct f; cbn; tauto)). apply aboutb_iff in Hf. rewrite Hf in Hb. discriminate. }
  destruct H as [cs w lo hi f off v r t' Hin Hc [_ Hn] Ha|i r t' Hc Hn Ha|i r t' Hc Hn Ha|v r t' Hc [_ Hn] Ha|v r Hc Hn
    |v r t' Hc [_ Hn] Ha|v r t' Hc Hs [_ Hn] Ha|v r t' Hc Hs [_ Hn] Ha|t' Hc Hh Hb Ht|t' Hc Hh Hb Ha|r Hc Hk].
  - cbn [number_convs In] in Hin. splitor Hin; injection Hin as <- <- <- <- <- <-;
    match goal with |- context [forall f, effect _ _ _ f] =>
      match type of Ha with assigns ?F _ _ _ =>
        match type of Hc with is_one_of ?CS _ => destruct (Uniq CS F Hc eq_refl) as [U1 U2] end end end;
    (split; [eapply One; [exact Ha|left; cbn; lia|exact U1|exact U2]|]).
    1-7: eapply Keep; [exact Ha|discriminate|reflexivity].
    intros _. destruct Ha as [-> _]. cbn. lia.
  - destruct (Uniq "Aa"%string Wday Hc eq_refl) as [U1 U2]. split; [|eapply Keep; [exact Ha|discriminate|reflexivity]].
    eapply One; [exact Ha|left|exact U1|exact U2]. destruct Hn as (Hi & full & ab & Hn & _).
    assert (L : (Z.to_nat i < List.length week)%nat) by (apply nth_error_Some; rewrite Hn; discriminate).
    change (List.length week) with 7%nat in L. cbn. lia.
  - destruct (Uniq "Bbh"%string Mon Hc eq_refl) as [U1 U2]. split; [|eapply Keep; [exact Ha|discriminate|reflexivity]].
    eapply One; [exact Ha|left|exact U1|exact U2]. destruct Hn as (Hi & full & ab & Hn & _).
    assert (L : (Z.to_nat i < List.length months)%nat) by (apply nth_error_Some; rewrite Hn; discriminate).
    change (List.length months) with 12%nat in L. cbn. lia.
  - destruct (Uniq "lI"%string Hour Hc eq_refl) as [U1 U2]. split; [|eapply Keep; [exact Ha|discriminate|reflexivity]].
    eapply One; [exact Ha|left|exact U1|exact U2]. cbn. pose proof (Z.mod_pos_bound v 12). lia.
  - split; auto. apply Same; auto. apply (None_ "UW"%string); auto.
  - assert (Hc' : is_one_of "C" c) by (subst; left; auto). destruct (Uniq "C"%string Year Hc' eq_refl) as [U1 U2].
    assert (Hr : in_range Year (v * 100 + (if sp then Z.rem (fld Year t) 100 else 0))).
    { cbn [in_range]. destruct sp; [pose proof (rem_100 _ (Hsp eq_refl))|]; lia. }
    split; [eapply One; [exact Ha|left; exact Hr|exact U1|exact U2]|]. intros _. destruct Ha as [-> _]. exact Hr.
  - assert (Hc' : is_one_of "y" c) by (subst; left; auto). destruct (Uniq "y"%string Year Hc' eq_refl) as [U1 U2].
    assert (Hr : in_range Year (Z.quot (fld Year t) 100 * 100 + v)).
    { cbn [in_range]. pose proof (quot_100 _ (Hsp Hs)). lia. }
    split; [eapply One; [exact Ha|left; exact Hr|exact U1|exact U2]|]. intros _. destruct Ha as [-> _]. exact Hr.
  - assert (Hc' : is_one_of "y" c) by (subst; left; auto). destruct (Uniq "y"%string Year Hc' eq_refl) as [U1 U2].
    assert (Hr : in_range Year (if v <=? 68 then v + 100 else v)).
    { cbn [in_range]. destruct (Z.leb_spec v 68); lia. }
    split; [eapply One; [exact Ha|left; exact Hr|exact U1|exact U2]|]. intros _. destruct Ha as [-> _]. exact Hr.
  - subst. split; auto. intros f. split; auto. split; auto.
    intros (c' & <- & Ha) Hh'. assert (f = Hour).
    { apply aboutb_iff in Ha. destruct f; try discriminate Ha; auto. }
    subst. auto.
  - assert (Hc' : is_one_of "p" c) by (subst; left; auto). destruct (Uniq "p"%string Hour Hc' eq_refl) as [U1 U2].
    split; [|eapply Keep; [exact Ha|discriminate|reflexivity]].
    eapply One; [exact Ha|right; split; [reflexivity|]|exact U1|exact U2]. cbn [in_range]. lia.
  - split; auto. apply Same; auto. apply (None_ "nt"%string); auto.
Qed.

Lemma convs_pct c m fmt : modifier c m -> c <> "E"%char -> c <> "O"%char ->
  convs ("%"%char :: m ++ c :: fmt) = c :: convs fmt.
Proof.
  intros Hm HE HO. destruct Hm.
  - cbn. destruct (ceqb_spec c "E"); [contradiction|]. destruct (ceqb_spec c "O"); [contradiction|]. reflexivity.
  - reflexivity.
  - reflexivity.
Qed.

Lemma effect_seq P Q R t t1 t2 f : effect P t t1 f -> effect Q t1 t2 f ->
  (f = Hour -> (exists c, Q c /\ about c f) -> in_range Hour (fld Hour t) -> in_range Hour (fld Hour t1)) ->
  (forall c, R c <-> P c \/ Q c) -> effect R t t2 f.
Proof.
  intros (A1 & A2 & A3) (B1 & B2 & B3) Hh HR. split; [|split].
  - auto.
  - intros (c & Hc & Ha) Hf. apply HR in Hc as [Hc|Hc].
    + apply B1, A2; eauto.
    + apply B2; eauto.
  - intros Hn. rewrite B3, A3; auto; intros c Hc; apply Hn; apply HR; auto.
Qed.

Lemma reads_effect fmt sp s t t' r : reads fmt sp s t t' r ->
  (sp = true -> in_range Year (fld Year t)) -> forall f, effect (fun c => In c (convs fmt)) t t' f.
Proof.
  induction 1 as [sp s t|c fmt sp s s1 t t' r Hc Hk H IH|c fmt sp s t t' r Hc Hp H IH|m fmt sp s t t' r Hm H IH
    |c m fmt sp sp1 s s1 t t1 t' r Hm Hconv H IH|c f0 m fmt sp s s1 t t1 t' r Hin Hm H1 IH1 H IH]; intros Hsp f.
  - split; auto. split; auto. intros (c & [] & _).
  - assert (E : convs (c :: fmt) = convs fmt).
    { cbn [convs]. destruct (ceqb_spec c "%") as [->|]; [discriminate Hc|reflexivity]. }
    rewrite E. apply IH; auto.
  - assert (E : convs (c :: fmt) = convs fmt).
    { cbn [convs]. destruct (ceqb_spec c "%") as [->|]; [contradiction|reflexivity]. }
    rewrite E. apply IH; auto.
  - rewrite convs_pct by (auto; discriminate). destruct (IH Hsp f) as (A1 & A2 & A3). split; [auto|split].
    + intros (c & [<-|Hc] & Ha) Hh; [|apply A2; eauto]. exfalso. apply aboutb_iff in Ha. destruct f; discriminate.
    + intros Hn. apply A3. intros c Hc. apply Hn. right; auto.
  - destruct (conv_char _ _ _ _ _ _ _ Hconv) as (_ & N2 & N3 & _). rewrite convs_pct by auto.
    destruct (conv_effect _ _ _ _ _ _ _ Hconv Hsp) as [He Hy].
    eapply (effect_seq (eq c)); [apply He|apply IH; auto| |].
    + intros -> _. exact (proj1 (He Hour)).
    + intros c'. cbn [In]. tauto.
  - destruct (abbr_complex c f0 m Hin Hm) as (a & _ & _ & _ & N2 & N3). rewrite convs_pct by auto.
    assert (E1 : forall g, effect (eq c) t t1 g).
    { intros g. destruct (IH1 ltac:(discriminate) g) as (A1 & A2 & A3).
      assert (K1 : forallb (fun p => forallb (fun g => Bool.eqb (aboutb (fst p) g) (existsb (fun c => aboutb c g) (convs (lit (snd p)))))
                   [Sec; Min; Hour; Mday; Mon; Year; Wday; Yday; Isdst]) abbreviations = true) by (vm_compute; reflexivity).
      rewrite forallb_forall in K1. specialize (K1 (c, f0) Hin). rewrite forallb_forall in K1.
      specialize (K1 g ltac:(destruct g; cbn; tauto)). cbn [fst snd] in K1. apply Bool.eqb_prop in K1.
      split; [auto|split].
      - intros (c' & <- & Ha) Hh. apply A2; auto. apply aboutb_iff in Ha. rewrite Ha in K1. symmetry in K1.
        apply existsb_exists in K1 as (x & Hx & Hb). exists x. split; auto. apply aboutb_iff; auto.
      - intros Hn. apply A3. intros x Hx Ha. apply (Hn c eq_refl). apply aboutb_iff. rewrite K1. apply existsb_exists.
        exists x. split; auto. apply aboutb_iff; auto. }
    assert (Hsp1 : sp = true -> in_range Year (fld Year t1)) by (intros Ht; exact (proj1 (E1 Year) (Hsp Ht))).
    eapply (effect_seq (eq c)); [apply E1|apply IH; auto| |].
    + intros -> _. exact (proj1 (E1 Hour)).
    + intros c'. cbn [In]. tauto.
Qed.

(** After a successful reading every field some conversion of the format is about is in its
    documented range (for the hour: provided it was before, as AM/PM adjusts it), every other field
    is as before, and a field in range stays in range. *)
Theorem C21_date_fields :
  forall fmt s t t' r, reads fmt false s t t' r ->
  (forall f c, In c (convs fmt) -> about c f -> (f = Hour -> in_range Hour (fld Hour t)) -> in_range f (fld f t')) /\
  (forall f, (forall c, In c (convs fmt) -> ~ about c f) -> fld f t' = fld f t) /\
  (forall f, in_range f (fld f t) -> in_range f (fld f t')) /\
  fld Isdst t' = fld Isdst t.
Proof.
  intros fmt s t t' r H. pose proof (reads_effect _ _ _ _ _ _ H ltac:(discriminate)) as He.
  split; [|split; [|split]].
  - intros f c Hc Ha Hh. exact (proj1 (proj2 (He f)) (ex_intro _ c (conj Hc Ha)) Hh).
  - intros f Hn. exact (proj2 (proj2 (He f)) Hn).
  - intros f. exact (proj1 (He f)).
  - apply (proj2 (proj2 (He Isdst))). intros c _ [].
Qed.

(** A reading has one result at most. *)
Theorem C21_date_unique :
  forall fmt s t t1 t2 r1 r2, cstr s -> reads fmt false s t t1 r1 -> reads fmt false s t t2 r2 -> t1 = t2 /\ r1 = r2.
Proof.
  intros fmt s t t1 t2 r1 r2 Hs H1 H2. apply arg_strptime_iff in H1; auto. apply arg_strptime_iff in H2; auto.
  rewrite H1 in H2. injection H2 as <- <-. auto.
Qed.

(** The counterpart for a rejected text: count and values stay (C21_date_scan gives the result). *)
Example C21_case_accept :
  arg_date_scanfn 2 {| date_format := lit "%D"; date_count := 0; date_tmval := [tm_zero; tm_zero] |} (Some (lit "12/31/04"))
  = Ok ({| date_format := lit "%D"; date_count := 1;
           date_tmval := [set_mday 31 (set_mon 11 (set_year 104 tm_zero)); tm_zero] |}, 0).
Proof. vm_compute. reflexivity. Qed.
Example C21_case_reject :
  arg_date_scanfn 1 {| date_format := lit "%H:%M"; date_count := 0; date_tmval := [tm_zero] |} (Some (lit "25:59"))
  = Ok ({| date_format := lit "%H:%M"; date_count := 0; date_tmval := [tm_zero] |}, ARG_ERR_BADDATE).
Proof. vm_compute. reflexivity. Qed.
Example C21_case_reads :
  exists t', reads (lit "%H:%M") false (lit "23:59") tm_zero t' [] /\ fld Hour t' = 23 /\ fld Min t' = 59.
Proof.
  exists (set_min 59 (set_hour 23 tm_zero)). split; [|auto].
  apply arg_strptime_iff; [apply cstrb_ok; reflexivity|reflexivity].
Qed.

(** ** C22 *)
(** Decimal text of at least [k] digits... exactly [k] digits for 0 <= v < 10^k. *)
Fixpoint pad (k : nat) (v : Z) : str :=
  match k with O => [] | S k' => pad k' (v / 10) ++ [chr (48 + v mod 10)] end.

Lemma uc_digit v : 0 <= v < 10 -> uc (chr (48 + v)) = 48 + v.
Proof.
  intros H. unfold uc, chr. rewrite Z.mod_small by lia. rewrite N_ascii_embedding by lia. lia.
Qed.
Lemma pad_len k : forall v, List.length (pad k v) = k.
Proof. induction k; intros; cbn [pad]; auto. rewrite app_length, IHk. cbn. lia. Qed.
Lemma pad_digits k : forall v, Forall digit_char (pad k v).
Proof.
  induction k; intros; cbn [pad]; [constructor|]. apply Forall_app. split; auto. constructor; [|constructor].
  unfold digit_char. pose proof (Z.mod_pos_bound v 10 ltac:(lia)). rewrite uc_digit; lia.
Qed.
Lemma dec_value_app a : forall acc b, dec_value acc (a ++ b) = dec_value (dec_value acc a) b.
Proof. induction a; intros; cbn [dec_value app]; auto. Qed.
Lemma pad_value k : forall v, 0 <= v < 10 ^ Z.of_nat k -> dec_value 0 (pad k v) = v.
Proof.
  induction k; intros v Hv.
  - change (10 ^ Z.of_nat 0) with 1 in Hv. cbn. lia.
  - rewrite Nat2Z.inj_succ, Z.pow_succ_r in Hv by lia. cbn [pad]. rewrite dec_value_app, IHk.
    + cbn [dec_value]. pose proof (Z.mod_pos_bound v 10 ltac:(lia)). rewrite uc_digit by lia. pose proof (Z.div_mod v 10). lia.
    + split; [apply Z.div_pos; lia|]. apply Z.div_lt_upper_bound; lia.
Qed.
Lemma number_pad k lo hi v r : (1 <= k)%nat -> 0 <= lo <= v -> v <= hi -> hi < 10 ^ Z.of_nat k -> number k lo hi (pad k v ++ r) v r.
Proof.
  intros Hk Hlo Hhi Hp. constructor; [|lia]. exists (pad k v). split; auto. split.
  { pose proof (pad_len k v). destruct (pad k v); [cbn in *; lia|discriminate]. }
  split; [apply pad_digits|]. split; [rewrite pad_len; auto|]. split; [apply pad_value; lia|].
  intros _. left. apply pad_len.
Qed.
Lemma pad_cstr k v : cstr (pad k v).
Proof.
  intros H. pose proof (pad_digits k v) as Hd. rewrite Forall_forall in Hd. apply Hd in H.
  unfold digit_char in H. cbv in H. destruct H as [H _]. apply H. reflexivity.
Qed.

(** A calendar date and time of day, months counted from 1. *)
Record datetime := { d_year : Z; d_month : Z; d_day : Z; d_hour : Z; d_min : Z; d_sec : Z }.
Definition valid_datetime (d : datetime) : Prop :=
  0 <= d_year d <= 9999 /\ 1 <= d_month d <= 12 /\ 1 <= d_day d <= 31 /\
  0 <= d_hour d <= 23 /\ 0 <= d_min d <= 59 /\ 0 <= d_sec d <= 61.
(** The broken down time has the fields of [d], and the others of [t]. *)
Definition carries_date (d : datetime) (t : tm) : Prop :=
  fld Year t = d_year d - 1900 /\ fld Mon t = d_month d - 1 /\ fld Mday t = d_day d.
Definition carries_time (d : datetime) (t : tm) : Prop :=
  fld Hour t = d_hour d /\ fld Min t = d_min d /\ fld Sec t = d_sec d.

Definition iso_date (d : datetime) : str := pad 4 (d_year d) ++ "-"%char :: pad 2 (d_month d) ++ "-"%char :: pad 2 (d_day d).
Definition time_text (d : datetime) : str := pad 2 (d_hour d) ++ ":"%char :: pad 2 (d_min d) ++ ":"%char :: pad 2 (d_sec d).

Lemma assigns_setf f v t : f <> Isdst -> assigns f v t (setf f v t).
Proof. intros. apply assigns_set; auto. Qed.

(** Reading one numeric conversion of exactly the given number of digits. *)
Lemma reads_num c cs w lo hi f off v fmt sp s t t' r :
  In (cs, w, lo, hi, f, off) number_convs -> is_one_of cs c -> f <> Isdst ->
  (1 <= w)%nat -> 0 <= lo <= v -> v <= hi -> hi < 10 ^ Z.of_nat w ->
  reads fmt sp s (setf f (v - off) t) t' r ->
  reads ("%"%char :: c :: fmt) sp (pad w v ++ s) t t' r.
Proof.
  intros Hin Hc Hf Hw Hlo Hhi Hp H. apply (reads_conv c [] fmt sp sp (pad w v ++ s) s t (setf f (v - off) t) t' r).
  - constructor.
  - eapply conv_number; eauto; [apply number_pad; auto|]. apply assigns_setf; auto.
  - exact H.
Qed.
Ltac num cs w lo hi f off := eapply (reads_num _ cs w lo hi f off);
  [cbn [number_convs In]; tauto|unfold is_one_of; cbn; tauto|discriminate|lia|lia|lia|reflexivity|].
Ltac litc := apply reads_literal; [reflexivity|discriminate|].

Lemma reads_time d sp t r fmt t' : valid_datetime d ->
  reads fmt sp r (set_sec (d_sec d) (set_min (d_min d) (set_hour (d_hour d) t))) t' [] ->
  reads (lit "%H:%M:%S" ++ fmt) sp (time_text d ++ r) t t' [].
Proof.
  intros (_ & _ & _ & Hh & Hm & Hs) H. unfold time_text. rewrite <- !app_assoc. cbn [app lit list_ascii_of_string].
  num "kH"%string 2%nat 0 23 Hour 0. litc. rewrite <- app_assoc. cbn [app]. num "M"%string 2%nat 0 59 Min 0. litc. num "S"%string 2%nat 0 61 Sec 0.
  rewrite !Z.sub_0_r. exact H.
Qed.
Lemma reads_iso d sp t r fmt t' : valid_datetime d ->
  reads fmt sp r (set_mday (d_day d) (set_mon (d_month d - 1) (set_year (d_year d - 1900) t))) t' [] ->
  reads (lit "%Y-%m-%d" ++ fmt) sp (iso_date d ++ r) t t' [].
Proof.
  intros (Hy & Hm & Hd & _) H. unfold iso_date. rewrite <- !app_assoc. cbn [app lit list_ascii_of_string].
  num "Y"%string 4%nat 0 9999 Year 1900. litc. rewrite <- app_assoc. cbn [app]. num "m"%string 2%nat 1 12 Mon 1. litc. num "de"%string 2%nat 1 31 Mday 0.
  rewrite !Z.sub_0_r. exact H.
Qed.
Lemma reads_sp d fmt sp s t t' r : isspaceb d = false ->
  reads fmt sp (d :: s) t t' r -> reads (" "%char :: fmt) sp (" "%char :: d :: s) t t' r.
Proof.
  intros Hd H. eapply reads_space; [reflexivity| |exact H]. exists [" "%char]. repeat split; auto.
Qed.
Lemma digit_not_space c : digit_char c -> isspaceb c = false.
Proof.
  unfold digit_char, isspaceb. intros H. destruct (Z.eqb_spec (uc c) 32); [lia|]. destruct (Z.leb_spec (uc c) 13); [lia|].
  rewrite andb_false_r. reflexivity.
Qed.

Lemma time_text_hd d : exists c s, time_text d = c :: s /\ isspaceb c = false.
Proof.
  unfold time_text. pose proof (pad_len 2 (d_hour d)) as Hl. pose proof (pad_digits 2 (d_hour d)) as Hd.
  destruct (pad 2 (d_hour d)) as [|c s]; [discriminate Hl|]. exists c. eexists. split; [reflexivity|].
  inversion_clear Hd. apply digit_not_space; auto.
Qed.

Lemma iso_roundtrip_reads d t : valid_datetime d ->
  exists t', reads (lit "%Y-%m-%d %H:%M:%S") false (iso_date d ++ " "%char :: time_text d) t t' [] /\
    carries_date d t' /\ carries_time d t' /\ forall f, In f [Wday; Yday; Isdst] -> fld f t' = fld f t.
Proof.
  intros Hv. eexists. split.
  - change (lit "%Y-%m-%d %H:%M:%S") with (lit "%Y-%m-%d" ++ lit " %H:%M:%S"). apply reads_iso; auto.
    destruct (time_text_hd d) as (c & s & E & Hc). rewrite E. apply reads_sp; auto. rewrite <- E.
    rewrite <- (app_nil_r (time_text d)). change (lit "%H:%M:%S") with (lit "%H:%M:%S" ++ []). apply reads_time; auto. constructor.
  - repeat split; auto; cbn; try lia. intros f Hf. cbn in Hf. repeat destruct Hf as [<-|Hf]; try contradiction; reflexivity.
Qed.

Lemma app_cstr a b : cstr a -> cstr b -> cstr (a ++ b).
Proof. intros H1 H2 H. apply in_app_or in H as [H|H]; auto. Qed.
Lemma cons_cstr c b : c <> NUL -> cstr b -> cstr (c :: b).
Proof. intros H1 H2 [H|H]; auto. Qed.
Ltac cs := repeat first [apply pad_cstr | apply app_cstr | apply cons_cstr; [discriminate|]].
Lemma iso_cstr d : cstr (iso_date d).
Proof. unfold iso_date. cs. Qed.
Lemma time_cstr d : cstr (time_text d).
Proof. unfold time_text. cs. Qed.

(** What a scan of an accepted text does to the entry. *)
Definition stores (maxcount : Z) (p : arg_date) (s : str) (good : tm -> tm -> Prop) : Prop :=
  exists t t', nth_error (date_tmval p) (Z.to_nat (date_count p)) = Some t /\ good t t' /\
    arg_date_scanfn maxcount p (Some s) =
      Ok ({| date_format := date_format p; date_count := date_count p + 1;
             date_tmval := lupd (date_tmval p) (Z.to_nat (date_count p)) t' |}, 0).
Lemma stores_intro maxcount p s (good : tm -> tm -> Prop) :
  0 <= date_count p < maxcount -> zlen (date_tmval p) = maxcount -> cstr s ->
  (forall t, exists t', reads (date_format p) false s t t' [] /\ good t t') -> stores maxcount p s good.
Proof.
  intros Hc Hl Hs H. destruct (C21_date_scan maxcount p s Hc Hl Hs) as (t & Hn & H1 & _).
  destruct (H t) as (t' & Hr & Hg). exists t, t'. auto.
Qed.

Theorem C22_roundtrip_iso :
  forall maxcount p d, valid_datetime d ->
  0 <= date_count p < maxcount -> zlen (date_tmval p) = maxcount ->
  date_format p = lit "%Y-%m-%d %H:%M:%S" ->
  stores maxcount p (iso_date d ++ " "%char :: time_text d)
    (fun t t' => carries_date d t' /\ carries_time d t' /\ forall f, In f [Wday; Yday; Isdst] -> fld f t' = fld f t).
Proof.
  intros maxcount p d Hv Hc Hl Hf. apply stores_intro; auto.
  - apply app_cstr; [apply iso_cstr|apply cons_cstr; [discriminate|apply time_cstr]].
  - intros t. rewrite Hf. apply iso_roundtrip_reads; auto.
Qed.

(** The abbreviation %T, after a literal T as in ISO 8601. *)
Lemma T_reads d t : valid_datetime d ->
  exists t', reads (lit "%Y-%m-%dT%T") false (iso_date d ++ "T"%char :: time_text d) t t' [] /\
    carries_date d t' /\ carries_time d t' /\ forall f, In f [Wday; Yday; Isdst] -> fld f t' = fld f t.
Proof.
  intros Hv. eexists. split.
  - change (lit "%Y-%m-%dT%T") with (lit "%Y-%m-%d" ++ lit "T%T"). apply reads_iso; auto.
    change (lit "T%T") with ("T"%char :: lit "%T"). litc.
    eapply (reads_abbr "T" "%H:%M:%S" [] [] false (time_text d) []).
    + cbn [abbreviations In]. tauto.
    + constructor.
    + rewrite <- (app_nil_r (time_text d)). change (lit "%H:%M:%S") with (lit "%H:%M:%S" ++ []). apply reads_time; auto. constructor.
    + constructor.
  - repeat split; auto; cbn; try lia. intros f Hf. cbn in Hf. repeat destruct Hf as [<-|Hf]; try contradiction; reflexivity.
Qed.
Theorem C22_roundtrip_T :
  forall maxcount p d, valid_datetime d ->
  0 <= date_count p < maxcount -> zlen (date_tmval p) = maxcount ->
  date_format p = lit "%Y-%m-%dT%T" ->
  stores maxcount p (iso_date d ++ "T"%char :: time_text d)
    (fun t t' => carries_date d t' /\ carries_time d t' /\ forall f, In f [Wday; Yday; Isdst] -> fld f t' = fld f t).
Proof.
  intros maxcount p d Hv Hc Hl Hf. apply stores_intro; auto.
  - apply app_cstr; [apply iso_cstr|apply cons_cstr; [discriminate|apply time_cstr]].
  - intros t. rewrite Hf. apply T_reads; auto.
Qed.

(** Two digit years, MM/DD/YY (%D), for 1969 to 2068. *)
Definition us_date (d : datetime) : str := pad 2 (d_month d) ++ "/"%char :: pad 2 (d_day d) ++ "/"%char :: pad 2 (d_year d mod 100).
Lemma short_form_reads (c : ascii) d t : In (c, "%m/%d/%y"%string) abbreviations -> valid_datetime d -> 1969 <= d_year d <= 2068 ->
  exists t', reads ["%"%char; c] false (us_date d) t t' [] /\ carries_date d t' /\
    forall f, In f [Hour; Min; Sec; Wday; Yday; Isdst] -> fld f t' = fld f t.
Proof.
  intros Hab (_ & Hm & Hd & _) Hy. eexists. split.
  - eapply (reads_abbr c "%m/%d/%y" [] [] false (us_date d) [] t
      (setf Year (if d_year d mod 100 <=? 68 then d_year d mod 100 + 100 else d_year d mod 100) (setf Mday (d_day d - 0) (setf Mon (d_month d - 1) t)))).
    + exact Hab.
    + constructor.
    + unfold us_date. cbn [lit list_ascii_of_string]. num "m"%string 2%nat 1 12 Mon 1. litc. num "de"%string 2%nat 1 31 Mday 0. litc.
      eapply (reads_conv "y" [] [] false true); [constructor| |constructor].
      apply conv_year2 with (v := d_year d mod 100); auto.
      * rewrite <- (app_nil_r (pad 2 _)). pose proof (Z.mod_pos_bound (d_year d) 100 ltac:(lia)). apply number_pad; try lia; reflexivity.
      * apply assigns_setf. discriminate.
    + constructor.
  - split.
    + unfold carries_date. cbn [setf fld set_year set_mday set_mon tm_year tm_mon tm_mday]. repeat split; try lia.
      assert (d_year d < 2000 \/ 2000 <= d_year d) as [H|H] by lia.
      * assert (E : d_year d mod 100 = d_year d - 1900) by (symmetry; apply Z.mod_unique with 19; lia).
        rewrite E. destruct (Z.leb_spec (d_year d - 1900) 68); lia.
      * assert (E : d_year d mod 100 = d_year d - 2000) by (symmetry; apply Z.mod_unique with 20; lia).
        rewrite E. destruct (Z.leb_spec (d_year d - 2000) 68); lia.
    + intros f Hf. cbn in Hf. repeat destruct Hf as [<-|Hf]; try contradiction; reflexivity.
Qed.
Lemma D_reads d t : valid_datetime d -> 1969 <= d_year d <= 2068 ->
  exists t', reads (lit "%D") false (us_date d) t t' [] /\ carries_date d t' /\
    forall f, In f [Hour; Min; Sec; Wday; Yday; Isdst] -> fld f t' = fld f t.
Proof. apply short_form_reads. cbn [abbreviations In]. tauto. Qed.
(** %x, the format of a date argument that is given none. *)
Lemma x_reads d t : valid_datetime d -> 1969 <= d_year d <= 2068 ->
  exists t', reads (lit "%x") false (us_date d) t t' [] /\ carries_date d t' /\
    forall f, In f [Hour; Min; Sec; Wday; Yday; Isdst] -> fld f t' = fld f t.
Proof. apply short_form_reads. cbn [abbreviations In]. tauto. Qed.
Theorem C22_roundtrip_two_digit_year :
  forall maxcount p d, valid_datetime d -> 1969 <= d_year d <= 2068 ->
  0 <= date_count p < maxcount -> zlen (date_tmval p) = maxcount ->
  date_format p = lit "%D" \/ date_format p = lit "%x" ->
  stores maxcount p (us_date d)
    (fun t t' => carries_date d t' /\ forall f, In f [Hour; Min; Sec; Wday; Yday; Isdst] -> fld f t' = fld f t).
Proof.
  intros maxcount p d Hv Hy Hc Hl Hf. apply stores_intro; auto.
  - unfold us_date. cs.
  - intros t. destruct Hf as [Hf|Hf]; rewrite Hf; [apply D_reads|apply x_reads]; auto.
Qed.

(** Twelve hour clock. *)
Definition clock12 (d : datetime) : str :=
  pad 2 (if d_hour d mod 12 =? 0 then 12 else d_hour d mod 12) ++ ":"%char :: pad 2 (d_min d) ++ ":"%char :: pad 2 (d_sec d)
  ++ " "%char :: (if d_hour d <? 12 then lit "am" else lit "pm").
Lemma r_reads d t : valid_datetime d ->
  exists t', reads (lit "%I:%M:%S %p") false (clock12 d) t t' [] /\ carries_time d t' /\
    forall f, In f [Year; Mon; Mday; Wday; Yday; Isdst] -> fld f t' = fld f t.
Proof.
  intros (_ & _ & _ & Hh & Hm & Hs).
  set (h12 := if d_hour d mod 12 =? 0 then 12 else d_hour d mod 12).
  pose proof (Z.mod_pos_bound (d_hour d) 12 ltac:(lia)) as Hb.
  assert (H12 : 1 <= h12 <= 12) by (unfold h12; destruct (Z.eqb_spec (d_hour d mod 12) 0); lia).
  assert (E12 : h12 mod 12 = d_hour d mod 12).
  { unfold h12. destruct (Z.eqb_spec (d_hour d mod 12) 0) as [->|]; [reflexivity|]. apply Z.mod_small. lia. }
  set (t3 := setf Sec (d_sec d - 0) (setf Min (d_min d - 0) (setf Hour (h12 mod 12) t))).
  assert (Hpre : forall t', reads (lit "%p") false (if d_hour d <? 12 then lit "am" else lit "pm") t3 t' [] ->
     reads (lit "%I:%M:%S %p") false (clock12 d) t t' []).
  { intros t' H. unfold clock12. fold h12.
    eapply (reads_conv "I" [] (lit ":%M:%S %p") false false); [constructor| |].
    { eapply conv_hour12; [unfold is_one_of; cbn; tauto|apply number_pad; try lia; reflexivity|apply assigns_setf; discriminate]. }
    cbn [lit list_ascii_of_string]. litc. num "M"%string 2%nat 0 59 Min 0. litc. num "S"%string 2%nat 0 61 Sec 0.
    destruct (d_hour d <? 12); (apply reads_sp; [reflexivity|]); exact H. }
  destruct (Z.ltb_spec (d_hour d) 12) as [Hlt|Hge].
  - exists t3. split.
    + apply Hpre. eapply (reads_conv "p" [] [] false false); [constructor| |constructor].
      apply conv_am; auto.
      * unfold t3. cbn [fld setf set_sec set_min set_hour tm_hour]. rewrite E12; lia.
      * exists (lit "am"). split; reflexivity.
    + rewrite Z.mod_small with (a := d_hour d) in E12 by lia. unfold carries_time, t3. cbn [fld setf set_sec set_min set_hour tm_hour tm_min tm_sec]. repeat split; try lia.
      intros f Hf. cbn in Hf. repeat destruct Hf as [<-|Hf]; try contradiction; reflexivity.
  - assert (E : h12 mod 12 = d_hour d - 12) by (rewrite E12; symmetry; apply Z.mod_unique with 1; lia).
    exists (setf Hour (fld Hour t3 + 12) t3). split.
    + apply Hpre. eapply (reads_conv "p" [] [] false false); [constructor| |constructor].
      apply conv_pm; auto.
      * unfold t3. cbn [fld setf set_sec set_min set_hour tm_hour]. lia.
      * exists (lit "pm"). split; reflexivity.
      * apply assigns_setf. discriminate.
    + unfold carries_time, t3. cbn [fld setf set_sec set_min set_hour tm_hour tm_min tm_sec]. repeat split; try lia.
      intros f Hf. cbn in Hf. repeat destruct Hf as [<-|Hf]; try contradiction; reflexivity.
Qed.
Theorem C22_roundtrip_12_hours :
  forall maxcount p d, valid_datetime d ->
  0 <= date_count p < maxcount -> zlen (date_tmval p) = maxcount ->
  date_format p = lit "%I:%M:%S %p" ->
  stores maxcount p (clock12 d)
    (fun t t' => carries_time d t' /\ forall f, In f [Year; Mon; Mday; Wday; Yday; Isdst] -> fld f t' = fld f t).
Proof.
  intros maxcount p d Hv Hc Hl Hf. apply stores_intro; auto.
  - unfold clock12. apply app_cstr; [apply pad_cstr|]. apply cons_cstr; [discriminate|]. apply app_cstr; [apply pad_cstr|].
    apply cons_cstr; [discriminate|]. apply app_cstr; [apply pad_cstr|]. apply cons_cstr; [discriminate|].
    destruct (d_hour d <? 12); apply cstrb_ok; reflexivity.
  - intros t. rewrite Hf. apply r_reads; auto.
Qed.

Example C22_case :
  valid_datetime {| d_year := 2004; d_month := 2; d_day := 29; d_hour := 13; d_min := 5; d_sec := 9 |} /\
  time_text {| d_year := 2004; d_month := 2; d_day := 29; d_hour := 13; d_min := 5; d_sec := 9 |} = lit "13:05:09" /\
  iso_date {| d_year := 2004; d_month := 2; d_day := 29; d_hour := 13; d_min := 5; d_sec := 9 |} = lit "2004-02-29" /\
  clock12 {| d_year := 2004; d_month := 2; d_day := 29; d_hour := 13; d_min := 5; d_sec := 9 |} = lit "01:05:09 pm".
Proof. vm_compute. repeat split; congruence. Qed.

(** ** C23 *)
(** Reading a four digit year as %C%y gives a year 1900 later than reading it as %Y. *)
Theorem C23_century_off_by_1900 :
  forall y t, 0 <= y <= 9999 ->
  exists t1 t2, arg_strptime (pad 4 y) (lit "%Y") t = Ok (t1, Some []) /\
                arg_strptime (pad 4 y) (lit "%C%y") t = Ok (t2, Some []) /\
                tm_year t1 = y - 1900 /\ tm_year t2 = tm_year t1 + 1900.
Proof.
  intros y t Hy.
  assert (Hq : 0 <= y / 100 <= 99) by (split; [apply Z.div_pos; lia|assert (y / 100 < 100) by (apply Z.div_lt_upper_bound; lia); lia]).
  assert (Hr : 0 <= y mod 100 <= 99) by (pose proof (Z.mod_pos_bound y 100); lia).
  assert (E : pad 4 y = pad 2 (y / 100) ++ pad 2 (y mod 100)).
  { cbn [pad]. rewrite <- !app_assoc. cbn [app].
    assert (A1 : y / 10 / 10 = y / 100) by (rewrite Z.div_div by lia; reflexivity).
    assert (A2 : y / 10 / 10 / 10 = y / 100 / 10) by (rewrite A1; reflexivity).
    assert (A3 : (y mod 100) mod 10 = y mod 10).
    { pose proof (Z.div_mod y 100 ltac:(lia)). symmetry. rewrite (Z.div_mod y 100) at 1 by lia.
      replace (100 * (y / 100) + y mod 100) with (y mod 100 + (10 * (y / 100)) * 10) by lia. apply Z.mod_add. lia. }
    assert (A4 : (y mod 100) / 10 mod 10 = y / 10 mod 10).
    { replace (y / 10) with ((y mod 100) / 10 + (y / 100) * 10); [symmetry; apply Z.mod_add; lia|].
      rewrite <- Z.div_add by lia. f_equal. pose proof (Z.div_mod y 100). lia. }
    rewrite A2, A1, A3, A4. reflexivity. }
  exists (setf Year (y - 1900) t).
  exists (setf Year (Z.quot (fld Year (setf Year (y / 100 * 100 + 0) t)) 100 * 100 + y mod 100) (setf Year (y / 100 * 100 + 0) t)).
  repeat split.
  - apply arg_strptime_iff; [apply pad_cstr|]. rewrite <- (app_nil_r (pad 4 y)). cbn [lit list_ascii_of_string].
    num "Y"%string 4%nat 0 9999 Year 1900. constructor.
  - apply arg_strptime_iff; [apply pad_cstr|]. rewrite E. change (lit "%C%y") with ("%"%char :: [] ++ "C"%char :: lit "%y").
    eapply reads_conv; [constructor| |].
    { eapply conv_century; [reflexivity|apply number_pad; try lia; reflexivity|]. apply assigns_setf. discriminate. }
    change (lit "%y") with ("%"%char :: [] ++ "y"%char :: []). eapply reads_conv; [constructor| |constructor].
    eapply conv_year2_after; [reflexivity|reflexivity| |apply assigns_setf; discriminate].
    rewrite <- (app_nil_r (pad 2 (y mod 100))). apply number_pad; try lia; reflexivity.
  - cbn [fld setf set_year tm_year]. rewrite Z.add_0_r, Z.quot_mul by lia. pose proof (Z.div_mod y 100). lia.
Qed.

Theorem C23_century_refuted :
  exists s t t1 t2, arg_strptime s (lit "%Y") t = Ok (t1, Some []) /\
    arg_strptime s (lit "%C%y") t = Ok (t2, Some []) /\ tm_year t1 <> tm_year t2.
Proof.
  exists (lit "1999"), tm_zero, (set_year 99 tm_zero), (set_year 1999 tm_zero). repeat split. discriminate.
Qed.

Print Assumptions C21_date_scan.
Print Assumptions C21_date_fields.
Print Assumptions C21_date_unique.
Print Assumptions C22_roundtrip_iso.
Print Assumptions C22_roundtrip_T.
Print Assumptions C22_roundtrip_two_digit_year.
Print Assumptions C22_roundtrip_12_hours.
Print Assumptions C23_century_off_by_1900.
Print Assumptions C23_century_refuted.
