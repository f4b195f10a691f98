(** C77: the texts strftime writes with a format are read back by a date entry with the same format,
    and the example in the message about a wrong date is itself a wrong date whenever the format
    mentions the day of the month. *)
From Verif Require Import Base IntModel IntProofs FileModel ParseModel ArgModel PrintModel PrintSpec DateModel DateSpec DateProofs PropDate ErrorSpec StrftimeSpec.
From Coq Require Import ZArith List Ascii String Bool Lia.
Import ListNotations.
Open Scope Z_scope.

Lemma digits_pad k : forall v, digits k v = pad k v.
Proof. induction k; intros v; cbn [digits pad]; [reflexivity|]. rewrite IHk. reflexivity. Qed.

(** ** Steps of the reader *)
Lemma go_conv d c fmt s t sp r t' sp' : cstr s -> conv c sp s t r t' sp' ->
  go d ("%"%char :: c :: fmt) None s t sp = go d fmt None r t' sp'.
Proof.
  intros Hs H. destruct (conv_char _ _ _ _ _ _ _ H) as (N1 & N2 & N3 & N4).
  pose proof (elementary_complete [] c s t sp r t' sp' Hs (mod_none c) H) as E. change (alt_of []) with 0 in E.
  cbn [go]. change (isspaceb "%") with false. change (ceqb "%" "%") with true. cbn [go].
  destruct (ceqb_spec c "%"); [contradiction|]. destruct (ceqb_spec c "E"); [contradiction|].
  destruct (ceqb_spec c "O"); [contradiction|]. rewrite N4, E. reflexivity.
Qed.
Lemma go_num d c cs w lo hi f off v fmt s t sp :
  In (cs, w, lo, hi, f, off) number_convs -> is_one_of cs c -> f <> Isdst ->
  (1 <= w)%nat -> 0 <= lo <= v -> v <= hi -> hi < 10 ^ Z.of_nat w -> cstr s ->
  go d ("%"%char :: c :: fmt) None (digits w v ++ s) t sp = go d fmt None s (setf f (v - off) t) sp.
Proof.
  intros Hin Hc Hf Hw Hlo Hhi Hp Hs. rewrite digits_pad. apply go_conv; [apply app_cstr; [apply pad_cstr|exact Hs]|].
  eapply conv_number; eauto; [apply number_pad; auto|]. apply assigns_setf; auto.
Qed.
Lemma go_abbr d c f fmt s t sp t1 r : In (c, f) abbreviations ->
  go d (lit f) None s t false = Ok (t1, Some r) ->
  go (S d) ("%"%char :: c :: fmt) None s t sp = go (S d) fmt None r t1 sp.
Proof.
  intros Hin H. destruct (abbr_complex c f [] Hin (mod_none c)) as (a & N4 & HL & N1 & N2 & N3).
  change (alt_of []) with 0 in HL.
  cbn [go]. change (isspaceb "%") with false. change (ceqb "%" "%") with true. cbn [go].
  destruct (ceqb_spec c "%"); [contradiction|]. destruct (ceqb_spec c "E"); [contradiction|].
  destruct (ceqb_spec c "O"); [contradiction|]. rewrite N4, HL. cbn [negb].
  rewrite strptime_go, H. reflexivity.
Qed.
Lemma go_abbr_fail d c f fmt s t sp t1 : In (c, f) abbreviations ->
  go d (lit f) None s t false = Ok (t1, None) ->
  go (S d) ("%"%char :: c :: fmt) None s t sp = Ok (t1, None).
Proof.
  intros Hin H. destruct (abbr_complex c f [] Hin (mod_none c)) as (a & N4 & HL & N1 & N2 & N3).
  change (alt_of []) with 0 in HL.
  cbn [go]. change (isspaceb "%") with false. change (ceqb "%" "%") with true. cbn [go].
  destruct (ceqb_spec c "%"); [contradiction|]. destruct (ceqb_spec c "E"); [contradiction|].
  destruct (ceqb_spec c "O"); [contradiction|]. rewrite N4, HL. cbn [negb].
  rewrite strptime_go, H. reflexivity.
Qed.
Lemma go_lit d c fmt s t sp : c <> "%"%char -> isspaceb c = false ->
  go d (c :: fmt) None (c :: s) t sp = go d fmt None s t sp.
Proof.
  intros N H. cbn [go]. rewrite H. destruct (ceqb_spec c "%"); [contradiction|]. cbn [literal].
  rewrite (proj2 (ceqb_eq c c) eq_refl). reflexivity.
Qed.
Lemma go_percent d fmt s t sp : go d ("%"%char :: "%"%char :: fmt) None ("%"%char :: s) t sp = go d fmt None s t sp.
Proof. reflexivity. Qed.

(** ** Names *)
Lemma begins_short f s r : begins f s r -> (List.length f <= List.length s)%nat.
Proof.
  intros (p & -> & H). apply (f_equal (@List.length _)) in H. unfold lower in H. rewrite !map_length in H.
  rewrite app_length. lia.
Qed.
(** A name that is the given abbreviation continued by a letter is not found if no letter follows. *)
Lemma not_begins a x f s r : ~ letter (hd0 s) -> letter x -> ~ begins (a ++ x :: f) (a ++ s) r.
Proof.
  intros Hs Hx (p & H & L). revert p H L. induction a as [|c a IH]; intros p H L.
  - cbn [app] in *. destruct p as [|y p]; [discriminate L|]. subst s. cbn [app hd0] in Hs. cbn [lower map] in L.
    injection L as L _. apply Hs. unfold letter in *. rewrite L. exact Hx.
  - destruct p as [|y p]; [discriminate L|]. cbn [app] in H. injection H as _ H. cbn [app lower map] in L. injection L as _ L.
    exact (IH p H L).
Qed.
Lemma begins_self n s : begins n (n ++ s) s.
Proof. exists n. auto. Qed.
(** The tables: the abbreviation is the name, or the name continues it with a letter. *)
Definition continues (p : string * string) : Prop :=
  fst p = snd p \/ exists x f, lit (fst p) = lit (snd p) ++ x :: f /\ letter x.
Lemma week_continues : Forall continues week.
Proof.
  repeat (apply Forall_cons; [right; eexists _, _; (split; [cbn; reflexivity|]); vm_compute; split; discriminate|]). constructor.
Qed.
Lemma months_continue : Forall continues months.
Proof.
  repeat (apply Forall_cons; [first [left; reflexivity|right; eexists _, _; (split; [cbn; reflexivity|]); vm_compute; split; discriminate]|]).
  constructor.
Qed.
Lemma named_full tbl i s : 0 <= i < zlen tbl -> named tbl i (name_at (map fst tbl) i ++ s) s.
Proof.
  intros Hi. split; [lia|]. unfold zlen in Hi. destruct (nth_error tbl (Z.to_nat i)) as [[f a]|] eqn:E.
  2:{ apply nth_error_None in E. lia. }
  exists f, a. split; [reflexivity|]. left. unfold name_at.
  rewrite (nth_error_nth (map fst tbl) (Z.to_nat i) "?"%string (x := f)); [apply begins_self|].
  rewrite nth_error_map, E. reflexivity.
Qed.
Lemma named_ab tbl i s : Forall continues tbl -> 0 <= i < zlen tbl -> ~ letter (hd0 s) ->
  named tbl i (name_at (map snd tbl) i ++ s) s.
Proof.
  intros Ht Hi Hs. split; [lia|]. unfold zlen in Hi. destruct (nth_error tbl (Z.to_nat i)) as [[f a]|] eqn:E.
  2:{ apply nth_error_None in E. lia. }
  exists f, a. split; [reflexivity|]. unfold name_at.
  rewrite (nth_error_nth (map snd tbl) (Z.to_nat i) "?"%string (x := a)); [|rewrite nth_error_map, E; reflexivity].
  rewrite Forall_forall in Ht. specialize (Ht (f, a) (nth_error_In _ _ E)). destruct Ht as [Ht|(x & y & Ht & Hx)]; cbn [fst snd] in Ht.
  - left. rewrite Ht. apply begins_self.
  - right. split; [apply begins_self|]. intros r'. rewrite Ht. apply not_begins; auto.
Qed.
Lemma name_at_cases names i : name_at names i = lit "?" \/ exists n, In n names /\ name_at names i = lit n.
Proof.
  unfold name_at. destruct (nth_in_or_default (Z.to_nat i) names "?"%string) as [H|E]; [right; eauto|left; rewrite E; reflexivity].
Qed.
Lemma name_at_good (P : str -> bool) names i : P (lit "?") = true -> forallb (fun n => P (lit n)) names = true -> P (name_at names i) = true.
Proof.
  intros H1 H2. destruct (name_at_cases names i) as [->|(n & Hn & ->)]; auto. rewrite forallb_forall in H2. auto.
Qed.

(** ** One item *)
(** The time [t1] is [t0] with the fields conversion [c] is about taken from [t]; the year only counts under [yr]. *)
Definition copies (yr : Prop) (t : tm) (c : ascii) (t0 t1 : tm) : Prop :=
  forall f, (f = Year -> yr) -> fld f t1 = if aboutb c f then fld f t else fld f t0.
Definition white_conv (c : ascii) : bool := ceqb c "n" || ceqb c "t".

Lemma year2_value t : 69 <= fld Year t <= 168 ->
  (if (fld Year t + 1900) mod 100 <=? 68 then (fld Year t + 1900) mod 100 + 100 else (fld Year t + 1900) mod 100) = fld Year t.
Proof.
  intros H. pose proof (Z.div_mod (fld Year t + 1900) 100 ltac:(lia)). pose proof (Z.mod_pos_bound (fld Year t + 1900) 100 ltac:(lia)).
  destruct (Z.leb_spec ((fld Year t + 1900) mod 100) 68); lia.
Qed.
Lemma year2_again y : 69 <= y <= 168 -> Z.quot y 100 * 100 + (y + 1900) mod 100 = y.
Proof.
  intros H. rewrite Z.quot_div_nonneg by lia. pose proof (Z.div_mod y 100 ltac:(lia)).
  replace (y + 1900) with (y + 19 * 100) by lia. rewrite Z.mod_add by lia. lia.
Qed.

Lemma go_year2 d fmt s t t0 sp (yr : Prop) : cstr s -> (yr -> 69 <= fld Year t <= 168) ->
  (sp = true -> yr -> fld Year t0 = fld Year t) ->
  exists y, (yr -> y = fld Year t) /\
  go d ("%"%char :: "y"%char :: fmt) None (year2 t ++ s) t0 sp = go d fmt None s (set_year y t0) true.
Proof.
  intros Hs Hy Hsp. unfold year2. rewrite digits_pad. set (v := (fld Year t + 1900) mod 100).
  assert (Hv : 0 <= v <= 99) by (pose proof (Z.mod_pos_bound (fld Year t + 1900) 100 ltac:(lia)); unfold v; lia).
  assert (N : number 2 0 99 (pad 2 v ++ s) v s) by (apply number_pad; try lia; vm_compute; reflexivity).
  assert (C : cstr (pad 2 v ++ s)) by (apply app_cstr; [apply pad_cstr|exact Hs]).
  destruct sp.
  - exists (Z.quot (fld Year t0) 100 * 100 + v). split.
    + intros H. rewrite (Hsp eq_refl H). apply year2_again. auto.
    + apply go_conv; auto. eapply conv_year2_after; eauto. apply assigns_set; [discriminate|reflexivity].
  - exists (if v <=? 68 then v + 100 else v). split.
    + intros H. apply year2_value; auto.
    + apply go_conv; auto. eapply conv_year2; eauto. apply assigns_set; [discriminate|reflexivity].
Qed.

Lemma digits_cstr k v : cstr (digits k v).
Proof. rewrite digits_pad. apply pad_cstr. Qed.
Lemma cstr_app a b : cstr a -> cstr b -> cstr (a ++ b).
Proof. apply app_cstr. Qed.

Ltac cst := repeat first [apply digits_cstr | apply cstr_app | apply cons_cstr; [discriminate|] | assumption].
Ltac gonum c cs w lo hi f off := rewrite (go_num _ c cs w lo hi f off);
  [|cbn [number_convs In]; tauto|unfold is_one_of; cbn; tauto|discriminate|lia|lia|lia|reflexivity|cst].
Ltac golit := rewrite go_lit by (discriminate || reflexivity).

Lemma go_hm d s t t0 : cstr s -> in_range Hour (fld Hour t) -> in_range Min (fld Min t) ->
  go d (lit "%H:%M") None (hm t ++ s) t0 false = Ok (set_min (fld Min t) (set_hour (fld Hour t) t0), Some s).
Proof.
  cbn [in_range]. intros Hs H1 H2. unfold hm. rewrite <- app_assoc. cbn [lit list_ascii_of_string app].
  gonum "H"%char "kH"%string 2%nat 0 23 Hour 0. golit. gonum "M"%char "M"%string 2%nat 0 59 Min 0.
  rewrite !Z.sub_0_r. reflexivity.
Qed.
Lemma go_hms d s t t0 : cstr s -> in_range Hour (fld Hour t) -> in_range Min (fld Min t) -> in_range Sec (fld Sec t) ->
  go d (lit "%H:%M:%S") None (hms t ++ s) t0 false =
  Ok (set_sec (fld Sec t) (set_min (fld Min t) (set_hour (fld Hour t) t0)), Some s).
Proof.
  cbn [in_range]. intros Hs H1 H2 H3. unfold hms. rewrite <- app_assoc. cbn [lit list_ascii_of_string app].
  gonum "H"%char "kH"%string 2%nat 0 23 Hour 0. golit. rewrite <- app_assoc. cbn [app].
  gonum "M"%char "M"%string 2%nat 0 59 Min 0. golit. gonum "S"%char "S"%string 2%nat 0 61 Sec 0.
  rewrite !Z.sub_0_r. reflexivity.
Qed.
Lemma year2_cstr t : cstr (year2 t).
Proof. unfold year2. cst. Qed.
Lemma go_mdy d s t t0 (yr : Prop) : cstr s -> in_range Mon (fld Mon t) -> in_range Mday (fld Mday t) ->
  (yr -> 69 <= fld Year t <= 168) -> exists y, (yr -> y = fld Year t) /\
  go d (lit "%m/%d/%y") None (mdy t ++ s) t0 false =
  Ok (set_year y (set_mday (fld Mday t) (set_mon (fld Mon t) t0)), Some s).
Proof.
  cbn [in_range]. intros Hs H1 H2 H3. pose proof (year2_cstr t) as Cy.
  destruct (go_year2 d [] s t (set_mday (fld Mday t) (set_mon (fld Mon t) t0)) false yr Hs H3 ltac:(discriminate)) as (y & Hy & E).
  exists y. split; auto. unfold mdy. rewrite <- app_assoc. cbn [lit list_ascii_of_string app].
  gonum "m"%char "m"%string 2%nat 1 12 Mon 1. golit. rewrite <- app_assoc. cbn [app].
  gonum "d"%char "de"%string 2%nat 1 31 Mday 0. golit.
  rewrite Z.add_simpl_r, Z.sub_0_r. cbn [setf]. rewrite E. reflexivity.
Qed.

Definition item_ok (yr : Prop) (t : tm) (c : ascii) : Prop :=
  (forall f, uses c f -> in_range f (fld f t)) /\ (c = "Y"%char -> 1000 <= fld Year t + 1900 <= 9999) /\
  (is_one_of "yDx" c -> yr -> 69 <= fld Year t <= 168).

Ltac copy := let f := fresh "f" in let Hf := fresh in intros f Hf; destruct f; cbn; try reflexivity; try lia; auto.
Ltac need H f := let K := fresh "K" in assert (K : in_range f (fld f _)) by (apply H; unfold uses; cbn; unfold is_one_of; cbn; tauto); cbn [in_range] in K.

Lemma item_step d yr t c fmt s t0 sp : plain_item (Conv c) -> white_conv c = false -> item_ok yr t c ->
  (is_one_of "abh" c -> ~ letter (hd0 s)) -> cstr s -> (sp = true -> yr -> fld Year t0 = fld Year t) ->
  exists t1 sp1, go (S d) ("%"%char :: c :: fmt) None (conv_text t c ++ s) t0 sp = go (S d) fmt None s t1 sp1 /\
    copies yr t c t0 t1 /\ (sp1 = true -> yr -> fld Year t1 = fld Year t).
Proof.
  intros Hp Hw (Hu & HY & Hy) Hs Cs Hsp.
  assert (Cn : forall names i, forallb (fun n => cstrb (lit n)) names = true -> cstr (name_at names i)).
  { intros names i H. apply cstrb_ok. apply name_at_good; auto. }
  cbn [plain_item] in Hp. unfold is_one_of in Hp. cbn [lit list_ascii_of_string In] in Hp.
  repeat match type of Hp with _ \/ _ => destruct Hp as [Hp|Hp] end; try contradiction; subst c; try discriminate Hw; cbn [conv_text].
  - (* a *) need Hu Wday. eexists _, sp. split; [|split].
    + apply go_conv; [apply cstr_app; auto|]. eapply (conv_week _ _ _ _ (fld Wday t)); [unfold is_one_of; cbn; tauto| |apply assigns_set; [discriminate|reflexivity]].
      apply named_ab; [exact week_continues|change (zlen week) with 7; lia|]. apply Hs. unfold is_one_of; cbn; tauto.
    + copy.
    + cbn. auto.
  - (* A *) need Hu Wday. eexists _, sp. split; [|split].
    + apply go_conv; [apply cstr_app; auto|]. eapply (conv_week _ _ _ _ (fld Wday t)); [unfold is_one_of; cbn; tauto| |apply assigns_set; [discriminate|reflexivity]].
      apply named_full; first [change (zlen week) with 7; lia|change (zlen months) with 12; lia].
    + copy.
    + cbn. auto.
  - (* b *) need Hu Mon. eexists _, sp. split; [|split].
    + apply go_conv; [apply cstr_app; auto|]. eapply (conv_month _ _ _ _ (fld Mon t)); [unfold is_one_of; cbn; tauto| |apply assigns_set; [discriminate|reflexivity]].
      apply named_ab; [exact months_continue|change (zlen months) with 12; lia|]. apply Hs. unfold is_one_of; cbn; tauto.
    + copy.
    + cbn. auto.
  - (* B *) need Hu Mon. eexists _, sp. split; [|split].
    + apply go_conv; [apply cstr_app; auto|]. eapply (conv_month _ _ _ _ (fld Mon t)); [unfold is_one_of; cbn; tauto| |apply assigns_set; [discriminate|reflexivity]].
      apply named_full; first [change (zlen week) with 7; lia|change (zlen months) with 12; lia].
    + copy.
    + cbn. auto.
  - (* d *) need Hu Mday. eexists _, sp. split; [gonum "d"%char "de"%string 2%nat 1 31 Mday 0; reflexivity|]. split; [copy|cbn; auto].
  - (* D *) need Hu Mon. need Hu Mday. assert (Hy' : yr -> 69 <= fld Year t <= 168) by (apply Hy; unfold is_one_of; cbn; tauto).
    destruct (go_mdy d s t t0 yr Cs K K0 Hy') as (y & Ey & E).
    eexists _, sp. split; [eapply (go_abbr d "D"%char "%m/%d/%y"); [cbn; tauto|exact E]|]. split; [copy|cbn; auto].
  - (* h *) need Hu Mon. eexists _, sp. split; [|split].
    + apply go_conv; [apply cstr_app; auto|]. eapply (conv_month _ _ _ _ (fld Mon t)); [unfold is_one_of; cbn; tauto| |apply assigns_set; [discriminate|reflexivity]].
      apply named_ab; [exact months_continue|change (zlen months) with 12; lia|]. apply Hs. unfold is_one_of; cbn; tauto.
    + copy.
    + cbn. auto.
  - (* H *) need Hu Hour. eexists _, sp. split; [gonum "H"%char "kH"%string 2%nat 0 23 Hour 0; reflexivity|]. split; [copy|cbn; auto].
  - (* j *) need Hu Yday. eexists _, sp. split; [gonum "j"%char "j"%string 3%nat 1 366 Yday 1; reflexivity|]. split; [copy|cbn; auto].
  - (* M *) need Hu Min. eexists _, sp. split; [gonum "M"%char "M"%string 2%nat 0 59 Min 0; reflexivity|]. split; [copy|cbn; auto].
  - (* m *) need Hu Mon. eexists _, sp. split; [gonum "m"%char "m"%string 2%nat 1 12 Mon 1; reflexivity|]. split; [copy|cbn; auto].
  - (* R *) need Hu Hour. need Hu Min.
    eexists _, sp. split; [eapply (go_abbr d "R"%char "%H:%M"); [cbn; tauto|apply go_hm; auto]|]. split; [copy|cbn; auto].
  - (* S *) need Hu Sec. eexists _, sp. split; [gonum "S"%char "S"%string 2%nat 0 61 Sec 0; reflexivity|]. split; [copy|cbn; auto].
  - (* T *) need Hu Hour. need Hu Min. need Hu Sec.
    eexists _, sp. split; [eapply (go_abbr d "T"%char "%H:%M:%S"); [cbn; tauto|apply go_hms; auto]|]. split; [copy|cbn; auto].
  - (* U *) need Hu Wday. need Hu Yday. exists t0, sp. split; [|split; [copy|auto]].
    apply go_conv; [cst|]. eapply (conv_ignored _ _ _ _ ((fld Yday t + 7 - fld Wday t) / 7)); [unfold is_one_of; cbn; tauto|].
    rewrite digits_pad. pose proof (Z.div_pos (fld Yday t + 7 - fld Wday t) 7 ltac:(lia) ltac:(lia)).
    assert ((fld Yday t + 7 - fld Wday t) / 7 < 54) by (apply Z.div_lt_upper_bound; lia).
    apply number_pad; lia.
  - (* w *) need Hu Wday. eexists _, sp. split; [gonum "w"%char "w"%string 1%nat 0 6 Wday 0; reflexivity|]. split; [copy|cbn; auto].
  - (* W *) need Hu Wday. need Hu Yday. exists t0, sp. split; [|split; [copy|auto]].
    pose proof (Z.mod_pos_bound (fld Wday t + 6) 7 ltac:(lia)).
    apply go_conv; [cst|]. eapply (conv_ignored _ _ _ _ ((fld Yday t + 7 - (fld Wday t + 6) mod 7) / 7)); [unfold is_one_of; cbn; tauto|].
    rewrite digits_pad. pose proof (Z.div_pos (fld Yday t + 7 - (fld Wday t + 6) mod 7) 7 ltac:(lia) ltac:(lia)).
    assert ((fld Yday t + 7 - (fld Wday t + 6) mod 7) / 7 < 54) by (apply Z.div_lt_upper_bound; lia).
    apply number_pad; lia.
  - (* x *) need Hu Mon. need Hu Mday. assert (Hy' : yr -> 69 <= fld Year t <= 168) by (apply Hy; unfold is_one_of; cbn; tauto).
    destruct (go_mdy d s t t0 yr Cs K K0 Hy') as (y & Ey & E).
    eexists _, sp. split; [eapply (go_abbr d "x"%char "%m/%d/%y"); [cbn; tauto|exact E]|]. split; [copy|cbn; auto].
  - (* X *) need Hu Hour. need Hu Min. need Hu Sec.
    eexists _, sp. split; [eapply (go_abbr d "X"%char "%H:%M:%S"); [cbn; tauto|apply go_hms; auto]|]. split; [copy|cbn; auto].
  - (* y *) assert (Hy' : yr -> 69 <= fld Year t <= 168) by (apply Hy; unfold is_one_of; cbn; tauto).
    destruct (go_year2 (S d) fmt s t t0 sp yr Cs Hy' Hsp) as (y & Ey & E).
    eexists _, true. split; [exact E|]. split; [copy|cbn; auto].
  - (* Y *) specialize (HY eq_refl). eexists _, sp. split; [gonum "Y"%char "Y"%string 4%nat 0 9999 Year 1900; reflexivity|].
    split; [copy|cbn; intros; lia].
  - (* % *) exists t0, sp. split; [reflexivity|]. split; [copy|auto].
Qed.

(** ** Whole formats *)
Definition black (s : str) : bool := match s with [] => false | c :: _ => negb (isspaceb c) end.
Lemma black_skip a s : black a = true -> skip_space (a ++ s) = a ++ s.
Proof. destruct a as [|c a]; [discriminate|]. cbn [black app]. intros H. cbn [skip_space]. destruct (isspaceb c); [discriminate|reflexivity]. Qed.
Lemma skip_idem s : skip_space (skip_space s) = skip_space s.
Proof. induction s as [|c s IH]; cbn [skip_space]; auto. destruct (isspaceb c) eqn:E; auto. cbn [skip_space]. rewrite E. reflexivity. Qed.
Lemma digits_hd k v : exists c s, digits (S k) v = c :: s /\ digit_char c.
Proof.
  rewrite digits_pad. pose proof (pad_len (S k) v) as L. pose proof (pad_digits (S k) v) as D.
  destruct (pad (S k) v) as [|c s]; [discriminate L|]. exists c, s. split; auto. inversion D; auto.
Qed.
Lemma digits_black k v s : black (digits (S k) v ++ s) = true.
Proof. destruct (digits_hd k v) as (c & r & -> & D). cbn. rewrite (digit_not_space c D). reflexivity. Qed.
Lemma digit_not_letter c : digit_char c -> ~ letter c.
Proof.
  unfold digit_char, letter. intros H L. assert (E : tolower c = c).
  { unfold tolower, isupperb. destruct (Z.leb_spec 65 (uc c)); [lia|]. reflexivity. }
  rewrite E in L. lia.
Qed.
Lemma digits_letter k v s : ~ letter (hd0 (digits (S k) v ++ s)).
Proof. destruct (digits_hd k v) as (c & r & -> & D). cbn [app hd0]. apply digit_not_letter; auto. Qed.
Lemma names_black names i s : forallb (fun n => black (lit n)) names = true -> black (name_at names i ++ s) = true.
Proof.
  intros H. assert (E : black (name_at names i) = true) by (apply name_at_good; auto).
  destruct (name_at names i); [discriminate|exact E].
Qed.
Ltac plaincases Hp c := cbn [plain_item] in Hp; unfold is_one_of in Hp; cbn [lit list_ascii_of_string In] in Hp;
  repeat match type of Hp with _ \/ _ => destruct Hp as [Hp|Hp] end; try contradiction; subst c.
Lemma conv_text_black t c : plain_item (Conv c) -> white_conv c = false -> black (conv_text t c) = true.
Proof.
  intros Hp Hw. rewrite <- (app_nil_r (conv_text t c)).
  plaincases Hp c; try discriminate Hw; cbn [conv_text]; unfold mdy, hm, hms, year2;
  first [reflexivity | apply digits_black | apply names_black; reflexivity | rewrite <- app_assoc; apply digits_black].
Qed.
Lemma item_text_letter t i s : plain_item i -> ~ starts_with_letter i -> ~ letter (hd0 (item_text t i ++ s)).
Proof.
  intros Hp Hn. destruct i as [c|c]; [exact Hn|].
  plaincases Hp c; try (exfalso; apply Hn; unfold starts_with_letter, is_one_of; cbn; tauto);
  cbn [item_text conv_text]; unfold mdy, hm, hms, year2; rewrite <- ?app_assoc;
  first [apply digits_letter | cbn; unfold letter; vm_compute; intros [H _]; apply H; reflexivity].
Qed.
Lemma conv_text_cstr t c : plain_item (Conv c) -> cstr (conv_text t c).
Proof.
  intros Hp.
  assert (Cn : forall names i, forallb (fun n => cstrb (lit n)) names = true -> cstr (name_at names i)).
  { intros names i H. apply cstrb_ok. apply name_at_good; auto. }
  plaincases Hp c; cbn [conv_text]; unfold mdy, hm, hms, year2; cst; try (apply Cn; reflexivity); apply cstrb_ok; reflexivity.
Qed.
Lemma written_cstr t its : plain its -> cstr (written t its).
Proof.
  induction 1 as [|i its Hi H IH]; [intros []|]. unfold written. cbn [map List.concat]. apply cstr_app; [|exact IH].
  destruct i as [c|c]; [|apply conv_text_cstr; auto]. cbn [item_text]. destruct Hi as [_ Hi]. intros [H1|[]]. auto.
Qed.

Definition mentionsb (its : list item) (f : field) : bool :=
  existsb (fun i => match i with Conv c => aboutb c f | Lit _ => false end) its.
Lemma mentionsb_iff its f : mentionsb its f = true <-> mentions its f.
Proof.
  unfold mentionsb, mentions. rewrite existsb_exists. split.
  - intros ([c|c] & Hi & H); [discriminate|]. exists c. split; auto. apply aboutb_iff; auto.
  - intros (c & Hi & H). exists (Conv c). split; auto. apply aboutb_iff; auto.
Qed.

Lemma separated_tl i its : separated (i :: its) -> separated its.
Proof. destruct its; [auto|]. intros [_ H]. exact H. Qed.
Lemma separated_hd t c its : plain its -> separated (Conv c :: its) -> is_one_of "abh" c -> ~ letter (hd0 (written t its)).
Proof.
  intros Hp Hs Hc. destruct its as [|j its].
  - cbn. unfold letter. vm_compute. intros [H _]. apply H. reflexivity.
  - destruct Hs as [Hs _]. unfold written. cbn [map List.concat]. apply item_text_letter; auto. inversion Hp; auto.
Qed.

(** What is about to be read: the text, or the text without the white space in front of it. *)
Definition ahead (s w : str) : Prop := s = w \/ s = skip_space w.

Lemma white_char c : isspaceb c = true -> forall s w, ahead s (c :: w) -> skip_space s = skip_space w.
Proof.
  intros Hc s w [->| ->]; cbn [skip_space]; rewrite Hc; [reflexivity|]. apply skip_idem.
Qed.
Lemma ahead_black s a w : black a = true -> ahead s (a ++ w) -> s = a ++ w.
Proof. intros Ha [->| ->]; auto. apply black_skip; auto. Qed.

Lemma go_white d c fmt s t sp : white_conv c = true ->
  go d ("%"%char :: c :: fmt) None s t sp = go d fmt None (skip_space s) t sp.
Proof.
  unfold white_conv. intros H. apply orb_true_iff in H as [H|H]; apply ceqb_eq in H as ->; reflexivity.
Qed.

Definition good_items (yr : Prop) (t : tm) (its : list item) : Prop := forall c, In (Conv c) its -> item_ok yr t c.

Lemma go_written d yr t its : plain its -> separated its -> good_items yr t its ->
  forall s t0 sp, ahead s (written t its) -> (sp = true -> yr -> fld Year t0 = fld Year t) ->
  exists t1, go (S d) (format_of its) None s t0 sp = Ok (t1, Some []) /\
    forall f, (f = Year -> yr) -> fld f t1 = if mentionsb its f then fld f t else fld f t0.
Proof.
  induction its as [|i its IH]; intros Hp Hs Hg s t0 sp Ha Hsp.
  - exists t0. split; [destruct Ha as [->| ->]; reflexivity|]. reflexivity.
  - assert (Hp' : plain its) by (inversion Hp; auto). assert (Hi : plain_item i) by (inversion Hp; auto).
    assert (Hg' : good_items yr t its) by (intros c Hc; apply Hg; right; auto).
    specialize (IH Hp' (separated_tl _ _ Hs) Hg').
    unfold written in Ha. cbn [map List.concat] in Ha. fold (written t its) in Ha.
    destruct i as [c|c]; unfold format_of; cbn [map List.concat item_format app]; fold (format_of its); cbn [item_text] in Ha.
    + destruct Hi as [Hi _]. destruct (isspaceb c) eqn:E.
      * cbn [app] in Ha. pose proof (white_char c E _ _ Ha) as Ea.
        cbn [go]. rewrite E, Ea. destruct (IH (skip_space (written t its)) t0 sp (or_intror eq_refl) Hsp) as (t1 & G & F).
        exists t1. split; [exact G|exact F].
      * apply ahead_black in Ha; [|cbn; rewrite E; reflexivity]. subst s. cbn [app]. rewrite go_lit by auto.
        destruct (IH (written t its) t0 sp (or_introl eq_refl) Hsp) as (t1 & G & F). exists t1. split; [exact G|exact F].
    + destruct (white_conv c) eqn:E.
      * assert (Ea : skip_space s = skip_space (written t its)).
        { unfold white_conv in E. apply orb_true_iff in E as [E|E]; apply ceqb_eq in E as ->; cbn [conv_text app] in Ha;
          (eapply white_char; [|exact Ha]; reflexivity). }
        rewrite go_white, Ea by exact E. destruct (IH (skip_space (written t its)) t0 sp (or_intror eq_refl) Hsp) as (t1 & G & F).
        exists t1. split; [exact G|]. intros f Hf. rewrite (F f Hf). cbn [mentionsb existsb].
        assert (N : aboutb c f = false) by (unfold white_conv in E; apply orb_true_iff in E as [E|E]; apply ceqb_eq in E as ->; destruct f; reflexivity).
        rewrite N. reflexivity.
      * apply ahead_black in Ha; [|apply conv_text_black; auto]. subst s.
        destruct (item_step d yr t c (format_of its) (written t its) t0 sp Hi E (Hg c (or_introl eq_refl))
                    (separated_hd t c its Hp' Hs) (written_cstr t its Hp') Hsp) as (t1 & sp1 & G & C & Hsp1).
        destruct (IH (written t its) t1 sp1 (or_introl eq_refl) Hsp1) as (t2 & G2 & F).
        exists t2. split; [rewrite G; exact G2|]. intros f Hf. rewrite (F f Hf). cbn [mentionsb existsb].
        rewrite (C f Hf). fold (mentionsb its f). destruct (aboutb c f), (mentionsb its f); reflexivity.
Qed.

(** A day of the month of 0 is not read. *)
Lemma number_zero lo hi s v r : 1 <= lo -> hi < 100 -> ~ number 2 lo hi (lit "00" ++ s) v r.
Proof.
  intros Hlo Hhi [(ds & H & N & D & L & V & X) R].
  destruct ds as [|a [|b [|x ds]]]; cbn [List.length] in L; try lia; try contradiction; cbn [lit list_ascii_of_string app] in H.
  - injection H as <- <-. cbn in V. lia.
  - injection H as <- <- <-. cbn in V. lia.
Qed.
Lemma go_day_zero d fmt s t0 sp : go d ("%"%char :: "d"%char :: fmt) None (lit "00" ++ s) t0 sp = Ok (t0, None).
Proof.
  cbn [go]. change (isspaceb "%") with false. change (ceqb "%" "%") with true. cbn [go].
  change (ceqb "d" "%") with false. change (ceqb "d" "E") with false. change (ceqb "d" "O") with false.
  change (complex "d") with (@None (Z * str)). cbv iota.
  unfold elementary. change (ceqb "d" "A" || ceqb "d" "a") with false. change (ceqb "d" "B" || ceqb "d" "b" || ceqb "d" "h") with false.
  change (ceqb "d" "C") with false. change (ceqb "d" "d" || ceqb "d" "e") with true. cbv iota.
  unfold numeric. change (legal_alt 0 ALT_O) with true. cbn [negb].
  destruct (conv_num (lit "00" ++ s) 1 31) as [[v r]|] eqn:E; [|reflexivity].
  apply (conv_num_iff 2 31) in E; [|split; vm_compute; congruence|lia]. apply number_zero in E; [contradiction|lia|lia].
Qed.
Lemma go_mdy_zero d s t t0 : cstr s -> in_range Mon (fld Mon t) -> fld Mday t = 0 -> exists t1,
  go d (lit "%m/%d/%y") None (mdy t ++ s) t0 false = Ok (t1, None).
Proof.
  cbn [in_range]. intros Hs H1 H2. pose proof (year2_cstr t) as Cy. eexists. unfold mdy. rewrite <- app_assoc. cbn [lit list_ascii_of_string app].
  gonum "m"%char "m"%string 2%nat 1 12 Mon 1. golit. rewrite <- app_assoc. rewrite H2. change (digits 2 0) with (lit "00").
  apply go_day_zero.
Qed.

Lemma go_zero_day d t its : plain its -> separated its -> fld Mday t = 0 -> mentionsb its Mday = true ->
  (forall c f, In (Conv c) its -> uses c f -> f <> Mday -> in_range f (fld f t)) ->
  (In (Conv "Y"%char) its -> 1000 <= fld Year t + 1900 <= 9999) ->
  forall s t0 sp, ahead s (written t its) -> exists t1, go (S d) (format_of its) None s t0 sp = Ok (t1, None).
Proof.
  intros Hp Hs Hz. revert Hp Hs. induction its as [|i its IH]; intros Hp Hs Hm Hu HY s t0 sp Ha; [discriminate Hm|].
  assert (Hp' : plain its) by (inversion Hp; auto). assert (Hi : plain_item i) by (inversion Hp; auto).
  specialize (IH Hp' (separated_tl _ _ Hs)). cbn [mentionsb existsb] in Hm. fold (mentionsb its Mday) in Hm.
  assert (Hu' : forall c f, In (Conv c) its -> uses c f -> f <> Mday -> in_range f (fld f t)) by (intros c f Hc; apply Hu; right; auto).
  assert (HY' : In (Conv "Y"%char) its -> 1000 <= fld Year t + 1900 <= 9999) by (intros H; apply HY; right; auto).
  unfold written in Ha. cbn [map List.concat] in Ha. fold (written t its) in Ha.
  destruct i as [c|c]; unfold format_of; cbn [map List.concat item_format app]; fold (format_of its); cbn [item_text] in Ha.
  - destruct Hi as [Hi _]. specialize (IH Hm Hu' HY'). destruct (isspaceb c) eqn:E.
    + cbn [app] in Ha. pose proof (white_char c E _ _ Ha) as Ea. cbn [go]. rewrite E, Ea.
      apply (IH (skip_space (written t its)) t0 sp (or_intror eq_refl)).
    + apply ahead_black in Ha; [|cbn; rewrite E; reflexivity]. subst s. cbn [app]. rewrite go_lit by auto.
      apply (IH (written t its) t0 sp (or_introl eq_refl)).
  - destruct (white_conv c) eqn:E.
    + assert (Ea : skip_space s = skip_space (written t its)).
      { unfold white_conv in E. apply orb_true_iff in E as [E|E]; apply ceqb_eq in E as ->; cbn [conv_text app] in Ha;
        (eapply white_char; [|exact Ha]; reflexivity). }
      assert (N : aboutb c Mday = false) by (unfold white_conv in E; apply orb_true_iff in E as [E|E]; apply ceqb_eq in E as ->; reflexivity).
      rewrite N in Hm. rewrite go_white, Ea by exact E. apply (IH Hm Hu' HY' (skip_space (written t its)) t0 sp (or_intror eq_refl)).
    + apply ahead_black in Ha; [|apply conv_text_black; auto]. subst s. destruct (aboutb c Mday) eqn:Ed.
      * assert (Hin : c = "d"%char \/ c = "D"%char \/ c = "x"%char).
        { plaincases Hi c; try discriminate Ed; auto. }
        destruct Hin as [->|[->| ->]].
        -- cbn [conv_text]. rewrite Hz. change (digits 2 0) with (lit "00"). exists t0. apply go_day_zero.
        -- destruct (go_mdy_zero d (written t its) t t0 (written_cstr t its Hp')) as (t1 & G); auto.
           { apply (Hu "D"%char Mon); [left; auto|unfold uses; cbn; unfold is_one_of; cbn; tauto|discriminate]. }
           exists t1. apply (go_abbr_fail d "D"%char "%m/%d/%y"); [cbn; tauto|exact G].
        -- destruct (go_mdy_zero d (written t its) t t0 (written_cstr t its Hp')) as (t1 & G); auto.
           { apply (Hu "x"%char Mon); [left; auto|unfold uses; cbn; unfold is_one_of; cbn; tauto|discriminate]. }
           exists t1. apply (go_abbr_fail d "x"%char "%m/%d/%y"); [cbn; tauto|exact G].
      * cbn [orb] in Hm. 
        assert (Hok : item_ok False t c).
        { split; [|split; [intros ->; apply HY; left; auto|contradiction]]. intros f Hf. apply (Hu c f); [left; auto|exact Hf|].
          intros ->. destruct Hf as [Hf|[_ [Hf|Hf]]]; try discriminate. apply aboutb_iff in Hf. congruence. }
        destruct (item_step d False t c (format_of its) (written t its) t0 sp Hi E Hok
                    (separated_hd t c its Hp' Hs) (written_cstr t its Hp') (fun _ F => match F with end)) as (t1 & sp1 & G & _).
        rewrite G. apply (IH Hm Hu' HY' (written t its) t1 sp1 (or_introl eq_refl)).
Qed.

(** ** C77 *)
Lemma year_shift y a b : a <= y + 1900 <= b <-> a - 1900 <= y <= b - 1900.
Proof. lia. Qed.
Lemma writable_good (yr : Prop) t its : writable t its -> (yr -> year_known t its) -> good_items yr t its.
Proof.
  intros Hw Hy c Hc. destruct (Hw c Hc) as [H1 H2]. split; [exact H1|]. split; [exact H2|].
  intros H3 H4. pose proof (Hy H4 c Hc H3). lia.
Qed.

(** Whatever strftime writes with a format of these conversions, a date entry of that format takes, and
    stores a time that agrees with the one written in every field the format mentions; the other fields
    are as they were. *)
Theorem C77_written_is_read :
  forall maxcount p its t, plain its -> separated its -> writable t its -> year_known t its ->
  date_format p = format_of its -> 0 <= date_count p < maxcount -> zlen (date_tmval p) = maxcount ->
  stores maxcount p (written t its)
    (fun t0 t' => forall f, (mentions its f -> fld f t' = fld f t) /\ (~ mentions its f -> fld f t' = fld f t0)).
Proof.
  intros maxcount p its t Hp Hs Hw Hy Hf Hc Hl. pose proof (written_cstr t its Hp) as C.
  apply stores_intro; auto. intros t0.
  destruct (go_written 1 True t its Hp Hs (writable_good True t its Hw (fun _ => Hy)) (written t its) t0 false (or_introl eq_refl) ltac:(discriminate)) as (t1 & G & F).
  exists t1. split.
  - apply arg_strptime_iff; auto. unfold arg_strptime. rewrite Hf, strptime_go. exact G.
  - intros f. specialize (F f (fun _ => I)). rewrite F. split; intros H.
    + apply mentionsb_iff in H. rewrite H. reflexivity.
    + destruct (mentionsb its f) eqn:E; [|reflexivity]. apply mentionsb_iff in E. contradiction.
Qed.

(** The message about a wrong date quotes, as an example of a right one, the all-zero time, written by
    strftime in the entry's own format. That example is itself refused whenever the format mentions the
    day of the month, and taken otherwise. *)
Lemma zero_uses c f : uses c f -> f <> Mday -> in_range f (fld f tm_zero).
Proof. intros [H|[_ [->| ->]]] N; [|cbn; lia|cbn; lia]. destruct f; cbn in *; try lia; try congruence; contradiction. Qed.
Theorem C77_example_in_message :
  forall (strftime : str -> tm -> option str) prog h a msg maxcount p its, plain its -> separated its ->
  strftime (format_of its) tm_zero = Some (written tm_zero its) ->
  entry_message strftime prog h (SDate (format_of its)) ARG_ERR_BADDATE a msg ->
  date_format p = format_of its -> 0 <= date_count p < maxcount -> zlen (date_tmval p) = maxcount ->
  exists example,
    msg = line prog (lit "illegal timestamp format " ++ quoted a) ++ lit "correct format is " ++ quoted example ++ [NL] /\
    (mentions its Mday -> arg_date_scanfn maxcount p (Some example) = Ok (p, ARG_ERR_BADDATE)) /\
    (~ mentions its Mday -> exists p', arg_date_scanfn maxcount p (Some example) = Ok (p', 0)).
Proof.
  intros strftime prog h a msg maxcount p its Hp Hs Hst Hm Hf Hc Hl. pose proof (written_cstr tm_zero its Hp) as C.
  exists (written tm_zero its). split; [|split].
  - inversion Hm; subst; try discriminate; congruence.
  - intros Hd. destruct (C21_date_scan maxcount p (written tm_zero its) Hc Hl C) as (t0 & Ht & _ & H2). apply H2.
    intros t' Hr. apply arg_strptime_iff in Hr; auto. unfold arg_strptime in Hr. rewrite Hf, strptime_go in Hr.
    destruct (go_zero_day 1 tm_zero its Hp Hs eq_refl (proj2 (mentionsb_iff its Mday) Hd)
                (fun c f _ => zero_uses c f) ltac:(cbn; lia) (written tm_zero its) t0 false (or_introl eq_refl)) as (t1 & G).
    congruence.
  - intros Hd. destruct (C21_date_scan maxcount p (written tm_zero its) Hc Hl C) as (t0 & Ht & H1 & _).
    assert (Hg : good_items False tm_zero its).
    { intros c Hin. split; [|split; [intros _; cbn; lia|contradiction]]. intros f Hu. apply (zero_uses c); auto.
      intros ->. apply Hd. exists c. split; auto. destruct Hu as [Hu|[_ [Hu|Hu]]]; [exact Hu|discriminate|discriminate]. }
    destruct (go_written 1 False tm_zero its Hp Hs Hg (written tm_zero its) t0 false (or_introl eq_refl) ltac:(discriminate)) as (t1 & G & _).
    eexists. apply (H1 t1). apply arg_strptime_iff; auto. unfold arg_strptime. rewrite Hf, strptime_go. exact G.
Qed.

(** ** Cases *)
Definition ex_items : list item :=
  [Conv "A"; Lit ","; Lit " "; Conv "d"; Lit " "; Conv "b"; Lit " "; Conv "Y"; Lit ","; Lit " "; Conv "R"; Lit " ";
   Lit "("; Lit "d"; Lit "a"; Lit "y"; Lit " "; Conv "j"; Lit ")"]%char.
Definition ex_time : tm :=
  {| tm_sec := 0; tm_min := 5; tm_hour := 14; tm_mday := 9; tm_mon := 4; tm_year := 123; tm_wday := 2; tm_yday := 128; tm_isdst := 0 |}.
Example C77_case_hypotheses :
  format_of ex_items = lit "%A, %d %b %Y, %R (day %j)" /\
  written ex_time ex_items = lit "Tuesday, 09 May 2023, 14:05 (day 129)" /\
  plain ex_items /\ separated ex_items /\ writable ex_time ex_items /\ year_known ex_time ex_items.
Proof.
  split; [reflexivity|]. split; [reflexivity|]. split; [|split; [|split]].
  - unfold plain, ex_items. repeat (apply Forall_cons; [first [split; discriminate|cbn; unfold is_one_of; cbn; tauto]|]). constructor.
  - cbn. repeat match goal with |- _ /\ _ => split | |- True => exact I end; try (intros _; unfold letter; vm_compute; intros [H _]; apply H; reflexivity).
    all: intros _; unfold is_one_of; cbn; intros H; repeat destruct H as [H|H]; try discriminate; contradiction.
  - intros c Hc. split.
    + intros f Hu. destruct f; cbn; try lia. destruct Hu as [[]|[_ [Hu|Hu]]]; discriminate.
    + intros _. cbn. lia.
  - intros c _ _. cbn. lia.
Qed.
Definition ex_date (f : string) : arg_date := {| date_format := lit f; date_count := 0; date_tmval := [tm_zero] |}.
Example C77_case_read :
  arg_date_scanfn 1 (ex_date "%A, %d %b %Y, %R (day %j)") (Some (lit "Tuesday, 09 May 2023, 14:05 (day 129)"))
  = Ok ({| date_format := lit "%A, %d %b %Y, %R (day %j)"; date_count := 1; date_tmval := [ex_time] |}, 0).
Proof. vm_compute. reflexivity. Qed.
(** The default format of arg_date in the C locale. *)
Example C77_case_example :
  format_of [Conv "x"%char] = lit "%x" /\ written tm_zero [Conv "x"%char] = lit "01/00/00" /\
  plain [Conv "x"%char] /\ separated [Conv "x"%char] /\ mentions [Conv "x"%char] Mday /\
  entry_message (fun _ _ => Some (lit "01/00/00")) (lit "prog") {| h_hasvalue := true; h_hasoptvalue := false; h_shortopts := None; h_longopts := None; h_datatype := None; h_glossary := None; h_mincount := 0; h_maxcount := 1 |}
    (SDate (lit "%x")) ARG_ERR_BADDATE (lit "soon")
    (lit "prog: illegal timestamp format ""soon""" ++ [NL] ++ lit "correct format is ""01/00/00""" ++ [NL]) /\
  arg_date_scanfn 1 (ex_date "%x") (Some (lit "01/00/00")) = Ok (ex_date "%x", ARG_ERR_BADDATE).
Proof.
  split; [reflexivity|]. split; [reflexivity|]. split; [|split; [exact I|split; [|split]]].
  - constructor; [|constructor]. cbn; unfold is_one_of; cbn; tauto.
  - exists "x"%char. split; [left; auto|]. cbn; unfold is_one_of; cbn; tauto.
  - apply (em_date _ (lit "prog") _ (lit "%x") (lit "soon") (lit "01/00/00")). reflexivity.
  - vm_compute. reflexivity.
Qed.
(** A format without the day: the example is taken. *)
Example C77_case_example_time : written tm_zero [Conv "T"%char] = lit "00:00:00" /\
  arg_date_scanfn 1 (ex_date "%T") (Some (lit "00:00:00")) = Ok ({| date_format := lit "%T"; date_count := 1; date_tmval := [tm_zero] |}, 0).
Proof. split; vm_compute; reflexivity. Qed.

(** ** What does not hold *)
(** Conversions strftime pads with a space are not read back: " 9" is what it writes for the ninth with %e,
    and what %c writes in the C locale is not what %c reads. *)
Theorem C77_padded_day_refuted :
  arg_date_scanfn 1 (ex_date "%e") (Some (lit " 9")) = Ok (ex_date "%e", ARG_ERR_BADDATE) /\
  arg_date_scanfn 1 (ex_date "%c") (Some (lit "Tue May  9 14:05:00 2023")) = Ok (ex_date "%c", ARG_ERR_BADDATE).
Proof. split; vm_compute; reflexivity. Qed.
(** An abbreviated name that the following text completes is not read back, so that [separated] is needed. *)
Theorem C77_abbreviation_refuted : exists its t,
  plain its /\ writable t its /\ year_known t its /\ ~ separated its /\ written t its = lit "Sunday" /\
  arg_date_scanfn 1 {| date_format := format_of its; date_count := 0; date_tmval := [tm_zero] |} (Some (written t its))
  = Ok ({| date_format := format_of its; date_count := 0; date_tmval := [tm_zero] |}, ARG_ERR_BADDATE).
Proof.
  exists [Conv "a"; Lit "d"; Lit "a"; Lit "y"]%char, tm_zero. split; [|split; [|split; [|split; [|split]]]].
  - unfold plain. repeat (apply Forall_cons; [first [split; discriminate|cbn; unfold is_one_of; cbn; tauto]|]). constructor.
  - intros c [Hc|Hc]; [injection Hc as <-|cbn in Hc; repeat destruct Hc as [Hc|Hc]; try discriminate; contradiction]. split; [|discriminate].
    intros f Hf. apply (zero_uses "a"%char); auto. intros ->. destruct Hf as [Hf|[_ [Hf|Hf]]]; try discriminate. apply aboutb_iff in Hf. discriminate.
  - intros c Hc H. exfalso. destruct Hc as [Hc|Hc]; [injection Hc as <-|cbn in Hc; repeat destruct Hc as [Hc|Hc]; try discriminate; contradiction].
    cbn in H. repeat destruct H as [H|H]; try discriminate; contradiction.
  - intros [H _]. apply H; [unfold is_one_of; cbn; tauto|]. cbn. unfold letter. vm_compute. split; discriminate.
  - reflexivity.
  - vm_compute. reflexivity.
Qed.

Print Assumptions C77_written_is_read.
Print Assumptions C77_example_in_message.
Print Assumptions C77_padded_day_refuted.
Print Assumptions C77_abbreviation_refuted.
