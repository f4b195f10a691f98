(** arg_strptime reads exactly what DateSpec.v says. *)
From Verif Require Import Base IntModel FileModel DateModel DateSpec.
From Coq Require Import ZArith List Ascii String Bool Lia.
Import ListNotations.
Open Scope Z_scope.

(** ** Numbers *)
Lemma isdigitb_iff c : isdigitb c = true <-> digit_char c.
Proof. unfold isdigitb, digit_char. rewrite andb_true_iff, !Z.leb_le. tauto. Qed.
Lemma isdigitb_false c : isdigitb c = false <-> ~ digit_char c.
Proof. rewrite <- isdigitb_iff. destruct (isdigitb c); intuition congruence. Qed.
Lemma digit_sc c : digit_char c -> sc c = uc c.
Proof. unfold digit_char, sc. intros H. destruct (Z.ltb_spec (uc c) 128); lia. Qed.

Lemma dec_value_mono ds : forall acc, 0 <= acc -> Forall digit_char ds -> acc <= dec_value acc ds.
Proof.
  induction ds as [|c ds IH]; intros acc Ha Hd; cbn [dec_value]; [lia|].
  inversion_clear Hd as [|? ? Hc Hd']. unfold digit_char in Hc.
  pose proof (IH (acc * 10 + (uc c - 48)) ltac:(lia) Hd'). lia.
Qed.

Section Num.
Context (width : nat) (hi : Z).
Context (Hw : 10 ^ (Z.of_nat width - 1) <= hi < 10 ^ (Z.of_nat width)) (Hw1 : (1 <= width)%nat).

Lemma hi_pos : 1 <= hi.
Proof. assert (0 < 10 ^ (Z.of_nat width - 1)) by (apply Z.pow_pos_nonneg; lia). lia. Qed.

Lemma rulim_step k : Z.quot (hi / 10 ^ Z.of_nat k) 10 = hi / 10 ^ Z.of_nat (S k).
Proof.
  pose proof hi_pos. assert (0 < 10 ^ Z.of_nat k) by (apply Z.pow_pos_nonneg; lia).
  rewrite Z.quot_div_nonneg by (try lia; apply Z.div_pos; lia).
  rewrite Z.div_div by lia. f_equal. rewrite Nat2Z.inj_succ, Z.pow_succ_r by lia. lia.
Qed.
Lemma rulim_zero k : (k <= width)%nat -> (hi / 10 ^ Z.of_nat k =? 0) = (width <=? k)%nat.
Proof.
  intros Hk. pose proof hi_pos. assert (0 < 10 ^ Z.of_nat k) by (apply Z.pow_pos_nonneg; lia).
  destruct (Nat.leb_spec width k).
  - assert (k = width) by lia. subst. apply Z.eqb_eq. apply Z.div_small. lia.
  - apply Z.eqb_neq. assert (1 <= hi / 10 ^ Z.of_nat k); [|lia]. apply Z.div_le_lower_bound; [lia|].
    assert (10 ^ Z.of_nat k <= 10 ^ (Z.of_nat width - 1)) by (apply Z.pow_le_mono_r; lia). lia.
Qed.

Lemma conv_loop_sound s : forall k acc, digit_char (hd0 s) -> (k < width)%nat -> 0 <= acc ->
  exists ds r, s = ds ++ r /\ ds <> [] /\ Forall digit_char ds /\ (k + List.length ds <= width)%nat /\
    conv_loop hi acc (hi / 10 ^ Z.of_nat k) s = (dec_value acc ds, r) /\
    (digit_char (hd0 r) -> (k + List.length ds)%nat = width \/ hi < 10 * dec_value acc ds).
Proof.
  induction s as [|c s IH]; intros k acc Hd Hk Ha.
  - exfalso. unfold digit_char in Hd. cbv in Hd. destruct Hd as [H _]. apply H. reflexivity.
  - cbn [hd0] in Hd. cbn [conv_loop]. rewrite rulim_step, rulim_zero by lia. rewrite (digit_sc c Hd).
    set (acc' := acc * 10 + (uc c - 48)).
    assert (Ha' : 0 <= acc') by (unfold acc'; unfold digit_char in Hd; lia).
    destruct (Z.leb_spec (acc' * 10) hi) as [H1|H1]; cbn [andb].
    + destruct (Nat.leb_spec width (S k)) as [H2|H2]; cbn [negb andb].
      * exists [c], s. repeat split; auto; try discriminate; cbn [List.length]; lia.
      * destruct (isdigitb (hd0 s)) eqn:E.
        -- apply isdigitb_iff in E. destruct (IH (S k) acc' E ltac:(lia) Ha') as (ds & r & -> & Hn & Hf & Hl & Hc & Hm).
           exists (c :: ds), r. repeat split; auto; try discriminate; cbn [List.length]; [lia|].
           intros Hr. destruct (Hm Hr); [left|right]; [lia|]. cbn [dec_value]. fold acc'. lia.
        -- apply isdigitb_false in E. exists [c], s. repeat split; auto; try discriminate; cbn [List.length]; try lia.
           intros; contradiction.
    + exists [c], s. repeat split; auto; try discriminate; cbn [List.length]; [lia|].
      intros _. right. cbn [dec_value]. fold acc'. lia.
Qed.

Lemma conv_loop_complete ds : forall k acc r, ds <> [] -> Forall digit_char ds -> 0 <= acc ->
  (k + List.length ds <= width)%nat -> dec_value acc ds <= hi ->
  (digit_char (hd0 r) -> (k + List.length ds)%nat = width \/ hi < 10 * dec_value acc ds) ->
  conv_loop hi acc (hi / 10 ^ Z.of_nat k) (ds ++ r) = (dec_value acc ds, r).
Proof.
  induction ds as [|c ds IH]; intros k acc r Hn Hd Ha Hl Hv Hm; [congruence|].
  inversion_clear Hd as [|? ? Hc Hd']. cbn [app conv_loop]. cbn [List.length] in Hl, Hm.
  rewrite rulim_step, rulim_zero by lia. rewrite (digit_sc c Hc).
  cbn [dec_value] in *. set (acc' := acc * 10 + (uc c - 48)) in *.
  assert (Ha' : 0 <= acc') by (unfold acc'; unfold digit_char in Hc; lia).
  destruct ds as [|c2 ds].
  - cbn [app dec_value List.length] in *.
    destruct (isdigitb (hd0 r)) eqn:E.
    + apply isdigitb_iff in E. destruct (Hm E) as [H|H].
      * destruct (Nat.leb_spec width (S k)); [|lia]. cbn [negb]. rewrite andb_false_r. reflexivity.
      * destruct (Z.leb_spec (acc' * 10) hi); [lia|]. reflexivity.
    + rewrite andb_false_r. reflexivity.
  - inversion_clear Hd' as [|? ? Hc2 Hd2]. cbn [app hd0].
    assert (E : isdigitb c2 = true) by (apply isdigitb_iff; auto). rewrite E.
    cbn [dec_value] in Hv. pose proof (dec_value_mono ds (acc' * 10 + (uc c2 - 48)) ltac:(unfold digit_char in Hc2; lia) Hd2).
    destruct (Z.leb_spec (acc' * 10) hi); [|unfold digit_char in Hc2; lia].
    cbn [List.length] in Hl. destruct (Nat.leb_spec width (S k)); [lia|]. cbn [negb andb].
    apply (IH (S k) acc' r); auto; try discriminate; cbn [List.length] in *; try lia.
    intros Hr. destruct (Hm Hr); [left|right]; lia.
Qed.

Lemma conv_num_iff lo s v r : conv_num s lo hi = Some (v, r) <-> number width lo hi s v r.
Proof.
  unfold conv_num. split.
  - destruct (isdigitb (hd0 s)) eqn:E; [|discriminate]. cbn [negb]. apply isdigitb_iff in E.
    destruct (conv_loop_sound s 0 0 E ltac:(lia) ltac:(lia)) as (ds & r0 & -> & Hn & Hf & Hl & Hc & Hm).
    change (10 ^ Z.of_nat 0) with 1 in Hc. rewrite Z.div_1_r in Hc. rewrite Hc.
    destruct (Z.ltb_spec (dec_value 0 ds) lo); [discriminate|]. destruct (Z.ltb_spec hi (dec_value 0 ds)); [discriminate|].
    cbn [orb]. intros H1. injection H1 as <- <-. constructor; [|lia].
    exists ds. repeat split; auto.
  - intros [(ds & -> & Hn & Hf & Hl & Hv & Hm) Hr].
    assert (E : isdigitb (hd0 (ds ++ r)) = true).
    { destruct ds; [congruence|]. inversion_clear Hf. cbn. apply isdigitb_iff. auto. }
    rewrite E. cbn [negb].
    pose proof (conv_loop_complete ds 0 0 r Hn Hf ltac:(lia) Hl ltac:(lia)) as Hc.
    change (10 ^ Z.of_nat 0) with 1 in Hc. rewrite Z.div_1_r in Hc. rewrite Hc by (rewrite Hv; exact Hm).
    destruct (Z.ltb_spec (dec_value 0 ds) lo); [lia|]. destruct (Z.ltb_spec hi (dec_value 0 ds)); [lia|].
    cbn [orb]. rewrite Hv. reflexivity.
Qed.
End Num.

(** ** Names *)
Lemma tolower_NUL c : tolower c = NUL -> c = NUL.
Proof.
  unfold tolower. destruct (isupperb c) eqn:E; auto. unfold isupperb in E. rewrite andb_true_iff, !Z.leb_le in E.
  intros H. exfalso. unfold chr in H. apply (f_equal N_of_ascii) in H. rewrite N_ascii_embedding in H.
  - change (N_of_ascii NUL) with 0%N in H. rewrite Z.mod_small in H by lia. lia.
  - rewrite Z.mod_small by lia. lia.
Qed.

Lemma strncasecmp0_iff f : forall s, cstr f -> cstr s ->
  (strncasecmp0 (List.length f) f s = true <-> begins f s (skipn (List.length f) s)).
Proof.
  induction f as [|c f IH]; intros s Hf Hs; cbn [List.length strncasecmp0].
  - split; auto. intros _. exists []. auto.
  - assert (Hc : c <> NUL) by (intros ->; apply Hf; left; auto).
    assert (Hf' : cstr f) by (intros H; apply Hf; right; auto).
    destruct s as [|d s]; cbn [hd0 tl skipn].
    + split.
      * destruct (ceqb (tolower c) (tolower NUL)) eqn:E; [|discriminate].
        apply ceqb_eq in E. change (tolower NUL) with NUL in E. apply tolower_NUL in E. contradiction.
      * intros (p & Hp & Hl). destruct p; [discriminate Hl|discriminate Hp].
    + assert (Hs' : cstr s) by (intros H; apply Hs; right; auto).
      destruct (ceqb (tolower c) (tolower d)) eqn:E; cbn [negb].
      * apply ceqb_eq in E. rewrite IH by auto. split.
        -- intros (p & Hp & Hl). exists (d :: p). cbn. split; [f_equal; exact Hp|]. f_equal; auto.
        -- intros (p & Hp & Hl). destruct p as [|x p]; [discriminate Hl|]. cbn in Hp. injection Hp as -> Hp.
           cbn in Hl. injection Hl as _ Hl. exists p. auto.
      * split; [discriminate|]. intros (p & Hp & Hl). destruct p as [|x p]; [discriminate Hl|].
        cbn in Hp. injection Hp as -> Hp. cbn in Hl. injection Hl as Hl _. rewrite Hl in E.
        rewrite (proj2 (ceqb_eq _ _) eq_refl) in E. discriminate.
Qed.

Lemma begins_rest f s r : begins f s r -> r = skipn (List.length f) s.
Proof.
  intros (p & -> & Hl). apply (f_equal (@List.length ascii)) in Hl. unfold lower in Hl. rewrite !map_length in Hl.
  rewrite <- Hl, skipn_app, skipn_all, Nat.sub_diag. reflexivity.
Qed.
Lemma strncasecmp0_begins f s : cstr f -> cstr s ->
  (strncasecmp0 (List.length f) f s = true <-> exists r, begins f s r).
Proof.
  intros Hf Hs. rewrite strncasecmp0_iff by auto. split; [eauto|]. intros (r & Hr).
  rewrite <- (begins_rest f s r Hr). auto.
Qed.

(** A table of names in which full names extend their abbreviation, and abbreviations of the same
    length differ. *)
Definition key (p : string * string) : str := lower (lit (snd p)).
Definition good_entry (p : string * string) : Prop :=
  cstr (lit (fst p)) /\ cstr (lit (snd p)) /\ firstn 3 (lower (lit (fst p))) = key p /\ List.length (key p) = 3%nat.

Lemma begins_key p s : good_entry p -> (exists r, begins (lit (fst p)) s r) \/ (exists r, begins (lit (snd p)) s r) ->
  firstn 3 (lower s) = key p.
Proof.
  intros (_ & _ & H1 & H2) [(r & q & -> & Hl)|(r & q & -> & Hl)]; unfold lower in *; rewrite map_app, Hl.
  - rewrite <- H1. rewrite firstn_app.
    assert (Hlen : (3 <= List.length (map tolower (lit (fst p))))%nat).
    { pose proof (f_equal (@List.length ascii) H1) as H3. rewrite H2, firstn_length in H3. lia. }
    replace (3 - List.length (map tolower (lit (fst p))))%nat with 0%nat by lia. rewrite app_nil_r. reflexivity.
  - fold (key p). unfold key, lower in *. rewrite firstn_app, H2, Nat.sub_diag, app_nil_r.
    rewrite <- H2 at 1. apply firstn_all.
Qed.

Lemma find_name_iff tbl : forall s i0 i len, Forall good_entry tbl -> cstr s ->
  (forall k q, nth_error tbl k = Some q -> forall k' q', nth_error tbl k' = Some q' -> key q = key q' -> k = k') ->
  0 <= i0 ->
  (find_name (map (fun p => lit (fst p)) tbl) (map (fun p => lit (snd p)) tbl) i0 s = Some (i, len) <->
   i0 <= i /\ exists full ab, nth_error tbl (Z.to_nat (i - i0)) = Some (full, ab) /\
   ((begins (lit full) s (skipn len s) /\ len = List.length (lit full)) \/
    (begins (lit ab) s (skipn len s) /\ len = List.length (lit ab) /\ forall r', ~ begins (lit full) s r'))).
Proof.
  induction tbl as [|[full ab] tbl IH]; intros s i0 i len Hg Hs Hinj Hi0; cbn [map find_name fst snd].
  - split; [discriminate|]. intros (_ & f & a & H & _). destruct (Z.to_nat (i - i0)); discriminate.
  - inversion_clear Hg as [|? ? Hg1 Hg']. pose proof Hg1 as (Hc1 & Hc2 & _). cbn [fst snd] in *.
    assert (Huniq : forall j, firstn 3 (lower s) = key (full, ab) ->
       forall q, nth_error tbl j = Some q -> ((exists r, begins (lit (fst q)) s r) \/ (exists r, begins (lit (snd q)) s r)) -> False).
    { intros j Hk q Hq Hb. assert (Hgq : good_entry q) by (eapply Forall_forall; [exact Hg'|eapply nth_error_In; eauto]).
      pose proof (begins_key q s Hgq Hb) as Hk'.
      pose proof (Hinj 0%nat (full, ab) eq_refl (S j) q Hq ltac:(congruence)). discriminate. }
    destruct (strncasecmp0 (List.length (lit full)) (lit full) s) eqn:E1.
    { apply strncasecmp0_iff in E1; auto. split.
      - intros H. injection H as <- <-. split; [lia|]. exists full, ab. rewrite Z.sub_diag. split; auto.
      - intros (Hle & f & a & Hn & Hb).
        destruct (Z.to_nat (i - i0)) as [|j] eqn:Ej.
        + cbn in Hn. injection Hn as <- <-. assert (i = i0) by lia. subst.
          destruct Hb as [[Hb ->]|(_ & _ & Hb)]; [reflexivity|]. exfalso. eapply Hb; eauto.
        + exfalso. cbn in Hn. eapply (Huniq j); [|exact Hn|].
          * apply begins_key; eauto.
          * cbn. destruct Hb as [[Hb _]|(Hb & _)]; eauto. }
    assert (N1 : forall r', ~ begins (lit full) s r').
    { intros r' Hr'. assert (strncasecmp0 (List.length (lit full)) (lit full) s = true) by (apply strncasecmp0_begins; eauto). congruence. }
    destruct (strncasecmp0 (List.length (lit ab)) (lit ab) s) eqn:E2.
    { apply strncasecmp0_iff in E2; auto. split.
      - intros H. injection H as <- <-. split; [lia|]. exists full, ab. rewrite Z.sub_diag. split; auto.
      - intros (Hle & f & a & Hn & Hb).
        destruct (Z.to_nat (i - i0)) as [|j] eqn:Ej.
        + cbn in Hn. injection Hn as <- <-. assert (i = i0) by lia. subst.
          destruct Hb as [[Hb ->]|(_ & -> & Hb)]; [|reflexivity]. exfalso. eapply N1; eauto.
        + exfalso. cbn in Hn. eapply (Huniq j); [|exact Hn|].
          * apply begins_key; eauto.
          * cbn. destruct Hb as [[Hb _]|(Hb & _)]; eauto. }
    rewrite (IH s (i0 + 1) i len Hg' Hs).
    2:{ intros k q Hq k' q' Hq' Hk. assert (S k = S k') by (eapply Hinj; eauto). lia. }
    2: lia.
    assert (N2 : forall r', ~ begins (lit ab) s r').
    { intros r' Hr'. assert (strncasecmp0 (List.length (lit ab)) (lit ab) s = true) by (apply strncasecmp0_begins; eauto). congruence. }
    split.
    + intros (Hle & f & a & Hn & Hb). split; [lia|]. exists f, a. split; auto.
      replace (Z.to_nat (i - i0)) with (S (Z.to_nat (i - (i0 + 1)))) by lia. exact Hn.
    + intros (Hle & f & a & Hn & Hb). destruct (Z.to_nat (i - i0)) as [|j] eqn:Ej.
      * exfalso. cbn in Hn. injection Hn as <- <-. destruct Hb as [[Hb _]|(Hb & _)]; [eapply N1|eapply N2]; eauto.
      * split; [lia|]. exists f, a. split; auto. replace (Z.to_nat (i - (i0 + 1))) with j by lia. exact Hn.
Qed.

Lemma named_iff tbl s i r : Forall good_entry tbl -> cstr s ->
  (forall k q, nth_error tbl k = Some q -> forall k' q', nth_error tbl k' = Some q' -> key q = key q' -> k = k') ->
  ((exists len, find_name (map (fun p => lit (fst p)) tbl) (map (fun p => lit (snd p)) tbl) 0 s = Some (i, len) /\ r = skipn len s)
   <-> named tbl i s r).
Proof.
  intros Hg Hs Hi. split.
  - intros (len & H & ->). apply find_name_iff in H; auto; [|lia]. destruct H as (Hle & f & a & Hn & Hb).
    rewrite Z.sub_0_r in Hn. split; [exact Hle|]. exists f, a. split; auto. destruct Hb as [[Hb _]|(Hb & _ & Hb')]; auto.
  - intros (Hle & f & a & Hn & Hb).
    assert (Hx : exists len, r = skipn len s /\ ((begins (lit f) s (skipn len s) /\ len = List.length (lit f)) \/
      (begins (lit a) s (skipn len s) /\ len = List.length (lit a) /\ forall r', ~ begins (lit f) s r'))).
    { destruct Hb as [Hb|[Hb Hb']]; pose proof (begins_rest _ _ _ Hb) as Hr.
      - exists (List.length (lit f)). rewrite <- Hr. auto.
      - exists (List.length (lit a)). rewrite <- Hr. auto. }
    destruct Hx as (len & -> & Hx). exists len. split; auto.
    apply find_name_iff; auto; [lia|]. rewrite Z.sub_0_r. split; auto. exists f, a. auto.
Qed.

(** Deciding the side conditions for the two tables. *)
Definition keys_distinct (tbl : list (string * string)) : bool :=
  (fix nd l := match l with [] => true | x :: l' => negb (existsb (str_eqb x) l') && nd l' end) (map key tbl).
Lemma keys_distinct_ok tbl : keys_distinct tbl = true ->
  forall k q, nth_error tbl k = Some q -> forall k' q', nth_error tbl k' = Some q' -> key q = key q' -> k = k'.
Proof.
  unfold keys_distinct. induction tbl as [|x tbl IH]; intros H k q Hq k' q' Hq' He; [destruct k; discriminate|].
  cbn [map] in H. apply andb_true_iff in H as [H1 H2]. apply negb_true_iff in H1.
  assert (Hno : forall j p, nth_error tbl j = Some p -> key x = key p -> False).
  { intros j p Hp E. assert (existsb (str_eqb (key x)) (map key tbl) = true); [|congruence].
    apply existsb_exists. exists (key p). split; [apply in_map; eapply nth_error_In; eauto|]. apply str_eqb_eq. auto. }
  destruct k as [|k], k' as [|k']; cbn in Hq, Hq'; auto.
  - injection Hq as <-. exfalso. eapply Hno; eauto.
  - injection Hq' as <-. exfalso. eapply Hno; eauto.
  - f_equal. eapply IH; eauto.
Qed.
Definition cstrb (s : str) : bool := forallb (fun c => negb (ceqb c NUL)) s.
Lemma cstrb_ok s : cstrb s = true -> cstr s.
Proof.
  unfold cstrb, cstr. intros H Hin. rewrite forallb_forall in H. specialize (H _ Hin).
  rewrite (proj2 (ceqb_eq NUL NUL) eq_refl) in H. discriminate.
Qed.
Definition good_entryb (p : string * string) : bool :=
  cstrb (lit (fst p)) && cstrb (lit (snd p)) && str_eqb (firstn 3 (lower (lit (fst p)))) (key p) && Nat.eqb (List.length (key p)) 3.
Lemma good_entryb_ok tbl : forallb good_entryb tbl = true -> Forall good_entry tbl.
Proof.
  intros H. apply Forall_forall. intros p Hp. rewrite forallb_forall in H. specialize (H p Hp).
  unfold good_entryb in H. rewrite !andb_true_iff in H. destruct H as [[[H1 H2] H3] H4].
  repeat split; try (apply cstrb_ok; auto); [apply str_eqb_eq; auto|apply Nat.eqb_eq; auto].
Qed.

Lemma week_iff s i r : cstr s ->
  ((exists len, find_name day abday 0 s = Some (i, len) /\ r = skipn len s) <-> named week i s r).
Proof.
  intros Hs. apply (named_iff week); auto.
  - apply good_entryb_ok. reflexivity.
  - apply keys_distinct_ok. reflexivity.
Qed.
Lemma months_iff s i r : cstr s ->
  ((exists len, find_name mon abmon 0 s = Some (i, len) /\ r = skipn len s) <-> named months i s r).
Proof.
  intros Hs. apply (named_iff months); auto.
  - apply good_entryb_ok. reflexivity.
  - apply keys_distinct_ok. reflexivity.
Qed.

(** AM and PM must be all that is left. *)
Lemma strcasecmp0_iff f : forall s, cstr f -> cstr s -> (strcasecmp0 f s = true <-> begins f s []).
Proof.
  induction f as [|c f IH]; intros s Hf Hs; cbn [strcasecmp0 hd0].
  - rewrite andb_true_r. split.
    + intros E. apply ceqb_eq in E. symmetry in E. change (tolower NUL) with NUL in E. apply tolower_NUL in E.
      destruct s as [|d s]; [exists []; auto|]. cbn in E. subst. exfalso. apply Hs. left; auto.
    + intros (p & -> & Hl). destruct p; [reflexivity|discriminate].
  - assert (Hc : c <> NUL) by (intros ->; apply Hf; left; auto).
    assert (Hf' : cstr f) by (intros H; apply Hf; right; auto).
    destruct s as [|d s]; cbn [hd0 tl].
    + split.
      * rewrite andb_true_iff. intros [E _]. apply ceqb_eq in E. change (tolower NUL) with NUL in E. apply tolower_NUL in E. contradiction.
      * intros (p & Hp & Hl). destruct p; [discriminate Hl|discriminate Hp].
    + assert (Hs' : cstr s) by (intros H; apply Hs; right; auto).
      rewrite andb_true_iff, IH, ceqb_eq by auto. split.
      * intros [E (p & Hp & Hl)]. exists (d :: p). cbn. split; [f_equal; exact Hp|]. f_equal; auto.
      * intros (p & Hp & Hl). destruct p as [|x p]; [discriminate Hl|]. cbn in Hp. injection Hp as -> Hp.
        cbn in Hl. injection Hl as Hl1 Hl. split; [auto|]. exists p. auto.
Qed.

Lemma skips_iff s r : skips s r <-> r = skip_space s.
Proof.
  split.
  - intros (w & -> & Hw & Hr). induction Hw as [|c w Hc Hw IH]; cbn.
    + destruct r as [|c r]; auto. cbn in Hr. cbn. rewrite Hr. reflexivity.
    + rewrite Hc. auto.
  - intros ->. induction s as [|c s IH]; cbn [skip_space].
    + exists []. repeat split; auto.
    + destruct (isspaceb c) eqn:E.
      * destruct IH as (w & Hs & Hw & Hr). exists (c :: w). repeat split; auto. cbn. f_equal; auto.
      * exists []. repeat split; auto.
Qed.

(** ** Fields *)
Lemma tm_ext t t' : (forall f, fld f t = fld f t') -> t = t'.
Proof.
  intros H. destruct t, t'. pose proof (H Sec); pose proof (H Min); pose proof (H Hour); pose proof (H Mday); pose proof (H Mon);
  pose proof (H Year); pose proof (H Wday); pose proof (H Yday); pose proof (H Isdst). cbn in *. congruence.
Qed.
Definition setf (f : field) : Z -> tm -> tm :=
  match f with
  | Sec => set_sec | Min => set_min | Hour => set_hour | Mday => set_mday | Mon => set_mon
  | Year => set_year | Wday => set_wday | Yday => set_yday | Isdst => fun _ t => t
  end.
Lemma assigns_set f v t t' : f <> Isdst -> (assigns f v t t' <-> t' = setf f v t).
Proof.
  intros Hf. split.
  - intros [H1 H2]. apply tm_ext. intros g.
    destruct f; try congruence; destruct g;
      first [exact H1 | match goal with |- fld ?g _ = _ => exact (H2 g ltac:(discriminate)) end].
  - intros ->. split; [destruct f; try reflexivity; congruence|].
    intros g Hg. destruct f, g; try reflexivity; try congruence.
Qed.

(** ** One conversion *)
(** The value of alt_format after a modifier. *)
Definition alt_of (m : str) : Z := if str_eqb m (lit "E") then ALT_E else if str_eqb m (lit "O") then ALT_O else 0.
Inductive is_mod : str -> Prop := is_mod_none : is_mod [] | is_mod_E : is_mod (lit "E") | is_mod_O : is_mod (lit "O").

Lemma numeric_iff width alt ok s lo hi t sp f r t' sp' :
  10 ^ (Z.of_nat width - 1) <= hi < 10 ^ (Z.of_nat width) -> (1 <= width)%nat ->
  (numeric alt ok s lo hi t sp f = Next r t' sp' <->
   legal_alt alt ok = true /\ exists v, number width lo hi s v r /\ t' = f v /\ sp' = sp).
Proof.
  intros H1 H2. unfold numeric. destruct (legal_alt alt ok); cbn [negb].
  2:{ split; [discriminate|]. intros [? _]; discriminate. }
  split.
  - destruct (conv_num s lo hi) as [[v r0]|] eqn:E; [|discriminate]. intros H. injection H as <- <- <-.
    split; auto. exists v. split; auto. apply (conv_num_iff width hi H1 H2). auto.
  - intros (_ & v & Hv & -> & ->). apply (conv_num_iff width hi H1 H2) in Hv. rewrite Hv. reflexivity.
Qed.

Lemma skipn_cstr n s : cstr s -> cstr (skipn n s).
Proof. intros H Hin. apply H. rewrite <- (firstn_skipn n s). apply in_or_app. auto. Qed.

Ltac mods := match goal with H : is_mod _ |- _ => destruct H end.
Ltac inlist := unfold is_one_of; cbn [lit list_ascii_of_string In]; tauto.
Ltac nolist := let H := fresh in intros H; unfold is_one_of in H; cbn [lit list_ascii_of_string In] in H; 
  repeat match goal with H : _ \/ _ |- _ => destruct H end; try discriminate; try contradiction.

Ltac modtac HL := match goal with H : is_mod _ |- _ => destruct H end;
  [apply mod_none
  |first [apply mod_E; unfold is_one_of; cbn; tauto | exfalso; revert HL; vm_compute; discriminate]
  |first [apply mod_O; unfold is_one_of; cbn; tauto | exfalso; revert HL; vm_compute; discriminate]].

Lemma ceqb_case c d : (ceqb c d = true /\ c = d) \/ (ceqb c d = false /\ c <> d).
Proof. destruct (ceqb_spec c d); auto. Qed.

Ltac numconv w H HL := apply (numeric_iff w) in H; [|split; vm_compute; congruence|lia];
  let v := fresh "v" in let Hv := fresh "Hv" in destruct H as (HL & v & Hv & -> & ->).

Lemma elementary_sound m c s t sp r t' sp' : is_mod m -> cstr s ->
  elementary (alt_of m) c s t sp = Next r t' sp' -> modifier c m /\ conv c sp s t r t' sp'.
Proof.
  intros Hm Hs H. unfold elementary in H.
  destruct (ceqb c "A" || ceqb c "a") eqn:E.
  { assert (Hin : is_one_of "Aa" c).
    { apply orb_true_iff in E as [E|E]; apply ceqb_eq in E as ->; unfold is_one_of; cbn; tauto. }
    destruct (legal_alt (alt_of m) 0) eqn:HL; cbn [negb] in H; [|discriminate].
    destruct (find_name day abday 0 s) as [[i len]|] eqn:F; [|discriminate]. injection H as <- <- <-. split.
    - apply orb_true_iff in E as [E|E]; apply ceqb_eq in E as ->; modtac HL.
    - apply (conv_week c sp s t i); auto; [apply week_iff; eauto|]. apply assigns_set; [discriminate|reflexivity]. }
  clear E. destruct (ceqb c "B" || ceqb c "b" || ceqb c "h") eqn:E.
  { assert (Hin : is_one_of "Bbh" c).
    { apply orb_true_iff in E as [E|E]; [apply orb_true_iff in E as [E|E]|]; apply ceqb_eq in E as ->; unfold is_one_of; cbn; tauto. }
    destruct (legal_alt (alt_of m) 0) eqn:HL; cbn [negb] in H; [|discriminate].
    destruct (find_name mon abmon 0 s) as [[i len]|] eqn:F; [|discriminate]. injection H as <- <- <-. split.
    - apply orb_true_iff in E as [E|E]; [apply orb_true_iff in E as [E|E]|]; apply ceqb_eq in E as ->; modtac HL.
    - apply (conv_month c sp s t i); auto; [apply months_iff; eauto|]. apply assigns_set; [discriminate|reflexivity]. }
  clear E. destruct (ceqb_case c "C") as [[E ->]|[E _]]; [|rewrite E in H]; [rewrite (proj2 (ceqb_eq _ _) eq_refl) in H|].
  { numconv 2%nat H HL. split; [modtac HL|]. eapply conv_century; eauto. apply assigns_set; [discriminate|].
    destruct sp; cbn [setf fld]; f_equal; lia. }
  clear E. destruct (ceqb c "d" || ceqb c "e") eqn:E.
  { assert (Hin : is_one_of "de" c) by (apply orb_true_iff in E as [E|E]; apply ceqb_eq in E as ->; unfold is_one_of; cbn; tauto).
    numconv 2%nat H HL. split.
    - apply orb_true_iff in E as [E|E]; apply ceqb_eq in E as ->; modtac HL.
    - eapply (conv_number c sp s t "de" 2 1 31 Mday 0 v); auto; [cbn; tauto|]. apply assigns_set; [discriminate|]. rewrite Z.sub_0_r. reflexivity. }
  clear E. destruct (ceqb_case c "k") as [[E ->]|[E _]]; [|rewrite E in H]; [rewrite (proj2 (ceqb_eq _ _) eq_refl) in H|].
  { destruct (legal_alt (alt_of m) 0) eqn:HL0; cbn [negb] in H; [|discriminate]. numconv 2%nat H HL. split; [modtac HL0|].
    eapply (conv_number _ sp s t "kH" 2 0 23 Hour 0 v); auto; [cbn; tauto|unfold is_one_of; cbn; tauto|].
    apply assigns_set; [discriminate|]. rewrite Z.sub_0_r. reflexivity. }
  clear E. destruct (ceqb_case c "H") as [[E ->]|[E _]]; [|rewrite E in H]; [rewrite (proj2 (ceqb_eq _ _) eq_refl) in H|].
  { numconv 2%nat H HL. split; [modtac HL|].
    eapply (conv_number _ sp s t "kH" 2 0 23 Hour 0 v); auto; [cbn; tauto|unfold is_one_of; cbn; tauto|].
    apply assigns_set; [discriminate|]. rewrite Z.sub_0_r. reflexivity. }
  assert (H12 : forall v r, number 2 1 12 s v r -> assigns Hour (v mod 12) t (set_hour (if v =? 12 then 0 else v) t)).
  { intros v r0 [_ Hv]. apply assigns_set; [discriminate|]. cbn [setf]. f_equal.
    destruct (Z.eqb_spec v 12); [subst; reflexivity|]. rewrite Z.mod_small; lia. }
  clear E. destruct (ceqb_case c "l") as [[E ->]|[E _]]; [|rewrite E in H]; [rewrite (proj2 (ceqb_eq _ _) eq_refl) in H|].
  { destruct (legal_alt (alt_of m) 0) eqn:HL0; cbn [negb] in H; [|discriminate]. numconv 2%nat H HL. split; [modtac HL0|].
    eapply conv_hour12; eauto. unfold is_one_of; cbn; tauto. }
  clear E. destruct (ceqb_case c "I") as [[E ->]|[E _]]; [|rewrite E in H]; [rewrite (proj2 (ceqb_eq _ _) eq_refl) in H|].
  { numconv 2%nat H HL. split; [modtac HL|].
    eapply conv_hour12; eauto. unfold is_one_of; cbn; tauto. }
  clear E. destruct (ceqb_case c "j") as [[E ->]|[E _]]; [|rewrite E in H]; [rewrite (proj2 (ceqb_eq _ _) eq_refl) in H|].
  { numconv 3%nat H HL. split; [modtac HL|].
    eapply (conv_number _ sp s t "j" 3 1 366 Yday 1 v); auto; [cbn; tauto|unfold is_one_of; cbn; tauto|].
    apply assigns_set; [discriminate|]. reflexivity. }
  clear E. destruct (ceqb_case c "M") as [[E ->]|[E _]]; [|rewrite E in H]; [rewrite (proj2 (ceqb_eq _ _) eq_refl) in H|].
  { numconv 2%nat H HL. split; [modtac HL|].
    eapply (conv_number _ sp s t "M" 2 0 59 Min 0 v); auto; [cbn; tauto|unfold is_one_of; cbn; tauto|].
    apply assigns_set; [discriminate|]. rewrite Z.sub_0_r. reflexivity. }
  clear E. destruct (ceqb_case c "m") as [[E ->]|[E _]]; [|rewrite E in H]; [rewrite (proj2 (ceqb_eq _ _) eq_refl) in H|].
  { numconv 2%nat H HL. split; [modtac HL|].
    eapply (conv_number _ sp s t "m" 2 1 12 Mon 1 v); auto; [cbn; tauto|unfold is_one_of; cbn; tauto|].
    apply assigns_set; [discriminate|]. reflexivity. }
  clear E. destruct (ceqb_case c "p") as [[E ->]|[E _]]; [|rewrite E in H]; [rewrite (proj2 (ceqb_eq _ _) eq_refl) in H|].
  { destruct (legal_alt (alt_of m) 0) eqn:HL; cbn [negb] in H; [|discriminate]. split; [modtac HL|].
    destruct (strcasecmp0 (lit "AM") s) eqn:E1.
    - destruct (Z.ltb_spec 11 (tm_hour t)); [discriminate|]. injection H as <- <- <-.
      apply strcasecmp0_iff in E1; auto; [|apply cstrb_ok; reflexivity].
      pose proof (begins_rest _ _ _ E1) as Hr. cbn in Hr. rewrite <- Hr. apply conv_am; auto.
    - destruct (strcasecmp0 (lit "PM") s) eqn:E2; [|discriminate].
      destruct (Z.ltb_spec 11 (tm_hour t)); [discriminate|]. injection H as <- <- <-.
      apply strcasecmp0_iff in E2; auto; [|apply cstrb_ok; reflexivity].
      pose proof (begins_rest _ _ _ E2) as Hr. cbn in Hr. rewrite <- Hr. apply conv_pm; auto.
      apply assigns_set; [discriminate|reflexivity]. }
  clear E. destruct (ceqb_case c "S") as [[E ->]|[E _]]; [|rewrite E in H]; [rewrite (proj2 (ceqb_eq _ _) eq_refl) in H|].
  { numconv 2%nat H HL. split; [modtac HL|].
    eapply (conv_number _ sp s t "S" 2 0 61 Sec 0 v); auto; [cbn; tauto|unfold is_one_of; cbn; tauto|].
    apply assigns_set; [discriminate|]. rewrite Z.sub_0_r. reflexivity. }
  clear E. destruct (ceqb c "U" || ceqb c "W") eqn:E.
  { assert (Hin : is_one_of "UW" c) by (apply orb_true_iff in E as [E|E]; apply ceqb_eq in E as ->; unfold is_one_of; cbn; tauto).
    numconv 2%nat H HL. split.
    - apply orb_true_iff in E as [E|E]; apply ceqb_eq in E as ->; modtac HL.
    - eapply conv_ignored; eauto. }
  clear E. destruct (ceqb_case c "w") as [[E ->]|[E _]]; [|rewrite E in H]; [rewrite (proj2 (ceqb_eq _ _) eq_refl) in H|].
  { numconv 1%nat H HL. split; [modtac HL|].
    eapply (conv_number _ sp s t "w" 1 0 6 Wday 0 v); auto; [cbn; tauto|unfold is_one_of; cbn; tauto|].
    apply assigns_set; [discriminate|]. rewrite Z.sub_0_r. reflexivity. }
  clear E. destruct (ceqb_case c "Y") as [[E ->]|[E _]]; [|rewrite E in H]; [rewrite (proj2 (ceqb_eq _ _) eq_refl) in H|].
  { numconv 4%nat H HL. split; [modtac HL|].
    eapply (conv_number _ sp s t "Y" 4 0 9999 Year 1900 v); auto; [cbn; tauto|unfold is_one_of; cbn; tauto|].
    apply assigns_set; [discriminate|]. reflexivity. }
  clear E. destruct (ceqb_case c "y") as [[E ->]|[E _]]; [|rewrite E in H]; [rewrite (proj2 (ceqb_eq _ _) eq_refl) in H|].
  { numconv 2%nat H HL. split; [modtac HL|]. destruct sp.
    - eapply conv_year2_after; eauto. apply assigns_set; [discriminate|]. reflexivity.
    - eapply conv_year2; eauto. apply assigns_set; [discriminate|]. unfold TM_YEAR_BASE.
      destruct (v <=? 68); cbn [setf]; f_equal; lia. }
  clear E. destruct (ceqb c "n" || ceqb c "t") eqn:E; [|discriminate].
  assert (Hin : is_one_of "nt" c) by (apply orb_true_iff in E as [E|E]; apply ceqb_eq in E as ->; unfold is_one_of; cbn; tauto).
  destruct (legal_alt (alt_of m) 0) eqn:HL; cbn [negb] in H; [|discriminate]. injection H as <- <- <-. split.
  - apply orb_true_iff in E as [E|E]; apply ceqb_eq in E as ->; modtac HL.
  - apply conv_white; auto. apply skips_iff. reflexivity.
Qed.

Ltac chartests := unfold elementary;
  repeat match goal with |- context [ceqb ?a ?b] => let x := eval vm_compute in (ceqb a b) in change (ceqb a b) with x end;
  cbn [orb].
Ltac split_in H := unfold is_one_of in H; cbn [lit list_ascii_of_string In] in H;
  repeat match type of H with
         | _ \/ _ => destruct H as [H|H]
         end; try contradiction; subst.
(** All modifiers allowed for a concrete conversion. *)
Ltac modcases := match goal with H : modifier _ _ |- _ =>
    let Hi := fresh in destruct H as [|Hi|Hi];
    [|unfold is_one_of in Hi; cbn [lit list_ascii_of_string In] in Hi;
      repeat match type of Hi with _ \/ _ => destruct Hi as [Hi|Hi] end; try discriminate Hi; try contradiction; try clear Hi ..] end.
Ltac legals := repeat match goal with |- context [legal_alt ?a ?b] =>
    let x := eval vm_compute in (legal_alt a b) in change (legal_alt a b) with x end; cbn [negb].
Ltac fromnum w := match goal with Hn : number _ _ _ _ ?v _ |- _ =>
   apply (numeric_iff w); [split; vm_compute; congruence|lia|split; [reflexivity|exists v; split; [exact Hn|split; [|reflexivity]]]] end.

Lemma elementary_complete m c s t sp r t' sp' : cstr s ->
  modifier c m -> conv c sp s t r t' sp' -> elementary (alt_of m) c s t sp = Next r t' sp'.
Proof.
  intros Hs Hm H. destruct H as [cs w lo hi f off v r t' Hin Hc Hn Ha|i r t' Hc Hn Ha|i r t' Hc Hn Ha|v r t' Hc Hn Ha|v r Hc Hn
    |v r t' Hc Hn Ha|v r t' Hc Hsp Hn Ha|v r t' Hc Hsp Hn Ha|t' Hc Hh Hb Ht|t' Hc Hh Hb Ha|r Hc Hk].
  - cbn [number_convs In] in Hin.
    repeat match type of Hin with _ \/ _ => destruct Hin as [Hin|Hin] end; try contradiction;
    injection Hin as <- <- <- <- <- <-; apply assigns_set in Ha; try discriminate; rewrite ?Z.sub_0_r in Ha;
    split_in Hc; modcases; chartests; legals;
    first [fromnum 1%nat; [reflexivity] | fromnum 2%nat; [reflexivity] | fromnum 3%nat; [reflexivity] | fromnum 4%nat; [reflexivity]].
  - apply assigns_set in Ha; [|discriminate]. apply week_iff in Hn as (len & Hf & ->); auto.
    split_in Hc; modcases; chartests; legals; rewrite Hf; reflexivity.
  - apply assigns_set in Ha; [|discriminate]. apply months_iff in Hn as (len & Hf & ->); auto.
    split_in Hc; modcases; chartests; legals; rewrite Hf; reflexivity.
  - apply assigns_set in Ha; [|discriminate].
    assert (E : t' = set_hour (if v =? 12 then 0 else v) t).
    { rewrite Ha. cbn [setf]. f_equal. destruct Hn as [_ Hn]. destruct (Z.eqb_spec v 12); [subst; reflexivity|]. apply Z.mod_small; lia. }
    rewrite E. clear E Ha. split_in Hc; modcases; chartests; legals; fromnum 2%nat; reflexivity.
  - split_in Hc; modcases; chartests; legals; fromnum 2%nat; reflexivity.
  - apply assigns_set in Ha; [|discriminate]. subst. modcases; chartests; legals; fromnum 2%nat; destruct sp; cbn [setf fld]; f_equal; lia.
  - apply assigns_set in Ha; [|discriminate]. subst. modcases; chartests; legals; fromnum 2%nat; reflexivity.
  - apply assigns_set in Ha; [|discriminate]. subst. modcases; chartests; legals; fromnum 2%nat;
    unfold TM_YEAR_BASE; destruct (v <=? 68); cbn [setf]; f_equal; lia.
  - subst. modcases. chartests. legals. pose proof (begins_rest _ _ _ Hb) as Hr. cbn [fld] in Hh.
    apply strcasecmp0_iff in Hb; auto; [|apply cstrb_ok; reflexivity]. rewrite Hb.
    destruct (Z.ltb_spec 11 (tm_hour t)); [lia|]. change (List.length _) with 2%nat in Hr. rewrite <- Hr. reflexivity.
  - apply assigns_set in Ha; [|discriminate]. subst. modcases. chartests. legals. pose proof (begins_rest _ _ _ Hb) as Hr. cbn [fld] in Hh.
    assert (E : strcasecmp0 (lit "AM") s = false).
    { destruct (strcasecmp0 (lit "AM") s) eqn:E; auto. apply strcasecmp0_iff in E; auto; [|apply cstrb_ok; reflexivity].
      destruct E as (p & -> & E). destruct Hb as (q & Hq & Hb). rewrite !app_nil_r in Hq. subst. rewrite E in Hb. discriminate. }
    apply strcasecmp0_iff in Hb; auto; [|apply cstrb_ok; reflexivity]. rewrite E, Hb.
    destruct (Z.ltb_spec 11 (tm_hour t)); [lia|]. change (List.length _) with 2%nat in Hr. rewrite <- Hr. reflexivity.
  - apply skips_iff in Hk. subst r. split_in Hc; modcases; chartests; legals; reflexivity.
Qed.

(** ** Whole formats *)
Definition cont (go : str -> option Z -> str -> tm -> bool -> res (tm * option str)) (fmt' : str) (st : step) : res (tm * option str) :=
  match st with
  | Fail t => Ok (t, None)
  | Next bp t split => go fmt' None bp t split
  end.
(** The inner loop of strptime, by name. *)
Definition go (d : nat) := fix go (fmt : str) (alt : option Z) (bp : str) (t : tm) (split : bool) {struct fmt} : res (tm * option str) :=
  match fmt with
  | [] => match alt with None => Ok (t, Some bp) | Some _ => Ok (t, None) end
  | c :: fmt' =>
      match alt with
      | None =>
          if isspaceb c then go fmt' None (skip_space bp) t split
          else if ceqb c "%" then go fmt' (Some 0) bp t split
          else cont go fmt' (literal c bp t split)
      | Some a =>
          if ceqb c "%" then cont go fmt' (literal c bp t split)
          else if ceqb c "E" then
            if negb (legal_alt a 0) then Ok (t, None) else go fmt' (Some (Z.lor a ALT_E)) bp t split
          else if ceqb c "O" then
            if negb (legal_alt a 0) then Ok (t, None) else go fmt' (Some (Z.lor a ALT_O)) bp t split
          else match complex c with
          | Some (ok, f) =>
              if negb (legal_alt a ok) then Ok (t, None)
              else
                '(t', r) <- strptime d f bp t ;;
                match r with
                | None => Ok (t', None)
                | Some bp' => go fmt' None bp' t' split
                end
          | None => cont go fmt' (elementary a c bp t split)
          end
      end
  end.
Lemma strptime_go d fmt bp t : strptime (S d) fmt bp t = go d fmt None bp t false.
Proof. reflexivity. Qed.

Definition suffix (r s : str) : Prop := exists p, s = p ++ r.
Lemma suffix_cstr r s : suffix r s -> cstr s -> cstr r.
Proof. intros [p ->] H Hin. apply H. apply in_or_app. auto. Qed.
Lemma suffix_trans a b c : suffix a b -> suffix b c -> suffix a c.
Proof. intros [p ->] [q ->]. exists (q ++ p). rewrite app_assoc. reflexivity. Qed.
Lemma suffix_refl s : suffix s s. Proof. exists []. reflexivity. Qed.
Lemma suffix_cons c r s : suffix r s -> suffix r (c :: s).
Proof. intros [p ->]. exists (c :: p). reflexivity. Qed.
Lemma skips_suffix s r : skips s r -> suffix r s.
Proof. intros (w & -> & _). exists w. reflexivity. Qed.
Lemma number_suffix w lo hi s v r : number w lo hi s v r -> suffix r s.
Proof. intros [(ds & -> & _) _]. exists ds. reflexivity. Qed.
Lemma begins_suffix n s r : begins n s r -> suffix r s.
Proof. intros (p & -> & _). exists p. reflexivity. Qed.
Lemma named_suffix tbl i s r : named tbl i s r -> suffix r s.
Proof. intros (_ & f & a & _ & [H|[H _]]); eapply begins_suffix; eauto. Qed.
Lemma conv_suffix c sp s t r t' sp' : conv c sp s t r t' sp' -> suffix r s.
Proof.
  intros []; eauto using number_suffix, named_suffix, skips_suffix.
  all: eapply begins_suffix; eauto.
Qed.
Lemma reads_suffix fmt sp s t t' r : reads fmt sp s t t' r -> suffix r s.
Proof.
  induction 1; eauto using suffix_refl, suffix_cons, suffix_trans, skips_suffix, conv_suffix.
Qed.

Lemma complex_abbr c a f m : is_mod m -> complex c = Some (a, f) -> legal_alt (alt_of m) a = true ->
  modifier c m /\ exists f0, In (c, f0) abbreviations /\ f = lit f0.
Proof.
  intros Hm H HL. unfold complex in H.
  repeat match type of H with
  | (if ceqb c ?d then _ else _) = _ =>
      destruct (ceqb_case c d) as [[E ->]|[E _]]; rewrite E in H;
      [injection H as <- <-; split; [modtac HL|eexists; split; [cbn [abbreviations In]; try tauto; eauto 12|reflexivity]]|clear E]
  end. discriminate.
Qed.
Lemma abbr_complex c f m : In (c, f) abbreviations -> modifier c m ->
  exists a, complex c = Some (a, lit f) /\ legal_alt (alt_of m) a = true /\ c <> "%"%char /\ c <> "E"%char /\ c <> "O"%char.
Proof.
  intros H Hm. cbn [abbreviations In] in H. repeat match type of H with _ \/ _ => destruct H as [H|H] end; try contradiction;
  injection H as <- <-; modcases; eexists; (split; [reflexivity|split; [reflexivity|repeat split; discriminate]]).
Qed.

Lemma go_sound d : (forall fmt s t t' r, cstr s -> strptime d fmt s t = Ok (t', Some r) -> reads fmt false s t t' r) ->
  forall fmt s t sp t' r, cstr s ->
  (go d fmt None s t sp = Ok (t', Some r) -> reads fmt sp s t t' r) /\
  (forall m, is_mod m -> go d fmt (Some (alt_of m)) s t sp = Ok (t', Some r) -> reads ("%"%char :: m ++ fmt) sp s t t' r).
Proof.
  intros IHd. induction fmt as [|c fmt IH]; intros s t sp t' r Hs.
  - split; cbn [go]; [|intros; discriminate]. intros H. injection H as <- <-. constructor.
  - split.
    + cbn [go]. destruct (isspaceb c) eqn:E.
      { intros H. eapply reads_space; [exact E|apply skips_iff; reflexivity|]. apply IH; auto.
        eapply suffix_cstr; [|exact Hs]. apply skips_suffix, skips_iff. reflexivity. }
      destruct (ceqb_spec c "%") as [->|Hc].
      { intros H. exact (proj2 (IH s t sp t' r Hs) [] is_mod_none H). }
      unfold literal. destruct s as [|x s]; [discriminate|]. destruct (ceqb_spec c x) as [<-|]; [|discriminate].
      cbn [cont]. intros H. apply reads_literal; auto. apply IH; auto. intros Hin; apply Hs; right; auto.
    + intros m Hm. cbn [go]. destruct (ceqb_spec c "%") as [->|Hc].
      { unfold literal. destruct s as [|x s]; [discriminate|]. destruct (ceqb_spec "%" x) as [<-|]; [|discriminate].
        cbn [cont]. intros H. apply reads_percent; [destruct Hm; constructor; unfold is_one_of; cbn; tauto|].
        apply IH; auto. intros Hin; apply Hs; right; auto. }
      destruct (ceqb_spec c "E") as [->|HcE].
      { destruct Hm; try discriminate. cbn [negb]. intros H.
        exact (proj2 (IH s t sp t' r Hs) (lit "E") is_mod_E H). }
      destruct (ceqb_spec c "O") as [->|HcO].
      { destruct Hm; try discriminate. cbn [negb]. intros H.
        exact (proj2 (IH s t sp t' r Hs) (lit "O") is_mod_O H). }
      destruct (complex c) as [[a f]|] eqn:EC.
      * destruct (legal_alt (alt_of m) a) eqn:HL; [|discriminate]. cbn [negb].
        destruct (complex_abbr c a f m Hm EC HL) as (Hmod & f0 & Hin & ->).
        intros H. apply bind_ok in H as ([t1 r1] & H1 & H). destruct r1 as [s1|]; [|discriminate].
        apply IHd in H1; auto. eapply reads_abbr; eauto. apply IH; auto.
        eapply suffix_cstr; [eapply reads_suffix; exact H1|exact Hs].
      * destruct (elementary (alt_of m) c s t sp) as [|s1 t1 sp1] eqn:EE; [discriminate|]. cbn [cont].
        intros H. apply elementary_sound in EE; auto. destruct EE as [Hmod Hconv].
        eapply reads_conv; eauto. apply IH; auto. eapply suffix_cstr; [eapply conv_suffix; exact Hconv|exact Hs].
Qed.

Lemma strptime_sound d : forall fmt s t t' r, cstr s -> strptime d fmt s t = Ok (t', Some r) -> reads fmt false s t t' r.
Proof.
  induction d as [|d IHd]; intros fmt s t t' r Hs H; [discriminate|].
  rewrite strptime_go in H. eapply go_sound; eauto.
Qed.

(** Formats whose nesting of abbreviations is below [d]. *)
Fixpoint fits (d : nat) (fmt : str) : Prop :=
  match d with
  | O => False
  | S d' => forall c a f, In c fmt -> complex c = Some (a, f) -> fits d' f
  end.
Lemma complex_cases c a f : complex c = Some (a, f) ->
  f = lit "%x %X" \/ In f (map lit ["%m/%d/%y"; "%H:%M"; "%I:%M:%S %p"; "%H:%M:%S"]%string).
Proof.
  unfold complex. repeat match goal with |- context [if ?x then _ else _] => destruct x end; intros H; try discriminate;
  injection H as _ <-; cbn; tauto.
Qed.
Lemma fits_1 f : In f (map lit ["%m/%d/%y"; "%H:%M"; "%I:%M:%S %p"; "%H:%M:%S"]%string) -> fits 1 f.
Proof.
  intros H c a f' Hc Hx. exfalso. cbn in H. repeat destruct H as [H|H]; try contradiction; subst f; cbn in Hc;
  repeat destruct Hc as [Hc|Hc]; try contradiction; subst c; discriminate Hx.
Qed.
Lemma fits_2 : fits 2 (lit "%x %X").
Proof.
  intros c a f Hc Hx. cbn in Hc.
  repeat destruct Hc as [Hc|Hc]; try contradiction; subst c; try discriminate Hx; injection Hx as _ <-; apply fits_1; cbn; tauto.
Qed.
Lemma fits_more d : forall f, fits d f -> fits (S d) f.
Proof. induction d; intros f H; [contradiction|]. intros c a f' Hc Hx. apply IHd. exact (H c a f' Hc Hx). Qed.
Lemma fits_3 fmt : fits 3 fmt.
Proof.
  intros c a f Hc Hx. apply complex_cases in Hx as [->|H]; [apply fits_2|]. apply fits_more, fits_1, H.
Qed.
Lemma fits_tl d c fmt : fits d (c :: fmt) -> fits d fmt.
Proof. destruct d; [contradiction|]. intros H c' a f Hin. apply H. right; auto. Qed.
Lemma fits_app d p fmt : fits d (p ++ fmt) -> fits d fmt.
Proof. induction p; auto. intros H. apply IHp. eapply fits_tl; eauto. Qed.

Lemma conv_char c sp s t r t' sp' : conv c sp s t r t' sp' ->
  c <> "%"%char /\ c <> "E"%char /\ c <> "O"%char /\ complex c = None.
Proof.
  assert (HK : forall cs, is_one_of cs c -> forallb (fun c => negb (ceqb c "%") && negb (ceqb c "E") && negb (ceqb c "O") && match complex c with None => true | _ => false end) (lit cs) = true ->
    c <> "%"%char /\ c <> "E"%char /\ c <> "O"%char /\ complex c = None).
  { intros cs H1 H2. rewrite forallb_forall in H2. specialize (H2 c H1). rewrite !andb_true_iff in H2. destruct H2 as [[[H2 H3] H4] H5].
    repeat split; try (intros ->; discriminate). destruct (complex c); [discriminate|reflexivity]. }
  intros [cs w lo hi f off v r0 t0 Hin Hc _ _| | | | | | | | | |]; try (subst; repeat split; discriminate || reflexivity); try (eapply HK; [eassumption|reflexivity]).
  eapply HK; [exact Hc|]. cbn [number_convs In] in Hin.
  repeat match type of Hin with _ \/ _ => destruct Hin as [Hin|Hin] end; try contradiction; injection Hin as <- _ _ _ _ _; reflexivity.
Qed.

(** Reading a modifier. *)
Lemma go_mod d c m fmt s t sp : modifier c m ->
  go d (m ++ c :: fmt) (Some 0) s t sp = go d (c :: fmt) (Some (alt_of m)) s t sp.
Proof. intros []; reflexivity. Qed.

Lemma go_complete fmt sp s t t' r : reads fmt sp s t t' r -> cstr s ->
  forall d, fits (S d) fmt -> go d fmt None s t sp = Ok (t', Some r).
Proof.
  induction 1 as [sp s t|c fmt sp s s1 t t' r Hc Hk H IH|c fmt sp s t t' r Hc Hp H IH|m fmt sp s t t' r Hm H IH
    |c m fmt sp sp1 s s1 t t1 t' r Hm Hconv H IH|c f m fmt sp s s1 t t1 t' r Hin Hm H1 IH1 H IH]; intros Hs d Hd.
  - reflexivity.
  - cbn [go]. rewrite Hc. pose proof (suffix_cstr _ _ (skips_suffix _ _ Hk) Hs). apply skips_iff in Hk. subst s1. apply IH; auto.
    eapply fits_tl; eauto.
  - cbn [go]. rewrite Hc. destruct (ceqb_spec c "%"); [contradiction|]. cbn [literal].
    rewrite (proj2 (ceqb_eq c c) eq_refl). cbn [cont]. apply IH; [intros Hin; apply Hs; right; auto|]. eapply fits_tl; eauto.
  - change (go d ("%"%char :: m ++ "%"%char :: fmt) None ("%"%char :: s) t sp) with (go d (m ++ "%"%char :: fmt) (Some 0) ("%"%char :: s) t sp).
    rewrite go_mod by auto. cbn [go]. change (ceqb "%" "%") with true. cbn iota. cbn [literal]. change (ceqb "%" "%") with true. cbn iota. cbn [cont].
    apply IH; [intros Hin; apply Hs; right; auto|]. apply fits_tl, fits_app, fits_tl in Hd. exact Hd.
  - change (go d ("%"%char :: m ++ c :: fmt) None s t sp) with (go d (m ++ c :: fmt) (Some 0) s t sp).
    rewrite go_mod by auto. cbn [go]. destruct (conv_char _ _ _ _ _ _ _ Hconv) as (N1 & N2 & N3 & N4).
    destruct (ceqb_spec c "%"); [contradiction|]. destruct (ceqb_spec c "E"); [contradiction|]. destruct (ceqb_spec c "O"); [contradiction|].
    rewrite N4. rewrite (elementary_complete m c s t sp s1 t1 sp1) by auto. cbn [cont]. apply IH.
    + eapply suffix_cstr; [eapply conv_suffix; exact Hconv|exact Hs].
    + apply fits_tl, fits_app, fits_tl in Hd. exact Hd.
  - change (go d ("%"%char :: m ++ c :: fmt) None s t sp) with (go d (m ++ c :: fmt) (Some 0) s t sp).
    rewrite go_mod by auto. cbn [go]. destruct (abbr_complex _ _ m Hin Hm) as (a & N4 & HL & N1 & N2 & N3).
    destruct (ceqb_spec c "%"); [contradiction|]. destruct (ceqb_spec c "E"); [contradiction|]. destruct (ceqb_spec c "O"); [contradiction|].
    rewrite N4, HL. cbn [negb].
    assert (Hf : fits d (lit f)).
    { apply fits_tl, fits_app in Hd. exact (Hd c a (lit f) (or_introl eq_refl) N4). }
    destruct d as [|d]; [contradiction|]. rewrite strptime_go, IH1 by auto. cbn [bind]. apply IH.
    + eapply suffix_cstr; [eapply reads_suffix; exact H1|exact Hs].
    + apply fits_tl, fits_app, fits_tl in Hd. exact Hd.
Qed.

Lemma go_total d : forall fmt alt s t sp, fits (S d) fmt -> exists x, go d fmt alt s t sp = Ok x.
Proof.
  induction d as [|d IHd]; induction fmt as [|c fmt IH]; intros alt s t sp Hf.
  1,3: destruct alt; eexists; reflexivity.
  - assert (IH' : forall alt s t sp, exists x, go 0 fmt alt s t sp = Ok x) by (intros; apply IH; eapply fits_tl; eauto). clear IH.
    assert (HC : forall st, exists x, cont (go 0) fmt st = Ok x) by (intros []; cbn [cont]; eauto).
    cbn [go]. destruct alt as [a|].
    + destruct (ceqb c "%"); auto. destruct (ceqb c "E"); [destruct (negb _); eauto|]. destruct (ceqb c "O"); [destruct (negb _); eauto|].
      destruct (complex c) as [[ok f]|] eqn:E; auto. exfalso. exact (Hf c ok f (or_introl eq_refl) E).
    + destruct (isspaceb c); auto. destruct (ceqb c "%"); auto.
  - assert (IH' : forall alt s t sp, exists x, go (S d) fmt alt s t sp = Ok x) by (intros; apply IH; eapply fits_tl; eauto). clear IH.
    assert (HC : forall st, exists x, cont (go (S d)) fmt st = Ok x) by (intros []; cbn [cont]; eauto).
    cbn [go]. destruct alt as [a|].
    + destruct (ceqb c "%"); auto. destruct (ceqb c "E"); [destruct (negb _); eauto|]. destruct (ceqb c "O"); [destruct (negb _); eauto|].
      destruct (complex c) as [[ok f]|] eqn:E; auto. destruct (negb _); eauto.
      destruct (IHd f None s t false (Hf c ok f (or_introl eq_refl) E)) as ([t1 r1] & H1).
      rewrite strptime_go, H1. cbn [bind]. destruct r1; eauto.
    + destruct (isspaceb c); auto. destruct (ceqb c "%"); auto.
Qed.

Theorem arg_strptime_iff fmt s t t' r : cstr s ->
  (arg_strptime s fmt t = Ok (t', Some r) <-> reads fmt false s t t' r).
Proof.
  intros Hs. unfold arg_strptime. split.
  - apply strptime_sound; auto.
  - intros H. rewrite strptime_go. eapply go_complete; eauto. apply fits_3.
Qed.
Theorem arg_strptime_total fmt s t : exists x, arg_strptime s fmt t = Ok x.
Proof. apply (go_total 2). apply fits_3. Qed.
