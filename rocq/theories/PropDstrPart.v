(** C28, continued: setting a text that is kept in the fixed buffer of the object to a part of itself. The outcome is decided by
    whether the part reaches into itself when it is moved to the front. *)
From Coq Require Import ZArith List Ascii String Bool Lia.
From Verif Require Import Base ParseModel MemModel DstrModel DstrSpec DstrProofs PropDstr.
Import ListNotations.
Open Scope Z_scope.

Lemma set_last_fixed junk legacy t os : cstr t -> zlen t <= ARG_DSTR_SIZE -> forall m0 d0 l m ds st,
  run_ops junk legacy m0 d0 (os ++ [OSet (Some t) FVolatile]) l = Ok (m, ds, st) -> d_data ds = sbuf ds /\ d_free ds = FStatic.
Proof.
  intros Ct Lt. induction os as [|o os IH]; intros m0 d0 l m ds st E; cbn [app run_ops] in E.
  - apply bind_ok in E. destruct E as [[[m1 d1] s1] [E1 E2]]. injection E2 as <- <- <-.
    cbn [run_op mnew] in E1. apply bind_ok in E1. destruct E1 as [[m2 d2] [E1 E3]]. injection E3 as <- <- <-.
    rewrite arg_dstr_set_eq in E1. apply bind_ok in E1. destruct E1 as [[m3 d3] [E1 E4]].
    apply bind_ok in E1. destruct E1 as [s [Rs E1]]. apply bind_ok in E1. destruct E1 as [n [Cn E1]].
    assert (S : s = t).
    { assert (R : rd_str {| mget := fun i => if Nat.eqb i (mnext m0) then Some {| b_heap := false; b_data := t ++ [NUL] |} else mget m0 i; mnext := S (mnext m0); mlog := mlog m0 |} (mnext m0, 0) = Ok t).
      { eapply rd_str_0; [cbn [mget]; rewrite Nat.eqb_refl; reflexivity|]. cbn [b_data]. apply scan0_app. exact Ct. }
      rewrite R in Rs. congruence. }
    subst s. assert (N : n = zlen t) by (unfold c_int in Cn; destruct (in_intb (zlen t)); congruence). subst n.
    destruct (Z.ltb_spec ARG_DSTR_SIZE (zlen t)); [lia|]. apply bind_ok in E1. destruct E1 as [m4 [_ E1]]. injection E1 as <- <-.
    unfold set_tail in E4. apply bind_ok in E4. destruct E4 as [m5 [_ E4]]. unfold drop_append in E4. cbn [d_app upd_data] in E4.
    destruct (d_app d0) as [x|]; [destruct (0 <? d_size (upd_data (sbuf d0) FStatic d0)); [apply bind_ok in E4; destruct E4 as [m6 [_ E4]]|]|]; injection E4 as _ <-; split; reflexivity.
  - apply bind_ok in E. destruct E as [[[m1 d1] s1] [E1 E2]]. exact (IH _ _ _ _ _ _ E2).
Qed.
Lemma scan0_skip : forall l t j, scan0 l = Some t -> (j <= List.length t)%nat -> scan0 (skipn j l) = Some (skipn j t).
Proof.
  induction l as [|c l IH]; intros t j H Hj; cbn [scan0] in H; [discriminate|]. destruct j as [|j]; [exact H|].
  destruct (ceqb c NUL); [injection H as <-; cbn in Hj; lia|]. destruct (scan0 l) as [s|] eqn:E; [|discriminate]. injection H as <-. cbn [skipn]. apply IH; auto. cbn in Hj. lia.
Qed.
Lemma scan0_len : forall l t, scan0 l = Some t -> (List.length t < List.length l)%nat.
Proof.
  induction l as [|c l IH]; intros t H; cbn [scan0] in H; [discriminate|]. destruct (ceqb c NUL); [injection H as <-; cbn; lia|].
  destruct (scan0 l) as [s|] eqn:E; [|discriminate]. injection H as <-. specialize (IH s eq_refl). cbn. lia.
Qed.
Lemma rd_str_part m b t j : rd_str m (b, 0) = Ok t -> 0 <= j <= zlen t -> rd_str m (b, j) = Ok (skipn (Z.to_nat j) t).
Proof.
  unfold rd_str, rd. cbn [fst snd]. destruct (mblk m b) as [k| |]; cbn [bind]; try discriminate. intros H Hj.
  destruct (Z.leb_spec 0 0); [|lia]. destruct (Z.leb_spec 0 (zlen (b_data k))); cbn [andb bind] in H; [|discriminate]. change (Z.to_nat 0) with 0%nat in H. cbn [skipn] in H.
  destruct (scan0 (b_data k)) as [s|] eqn:E; [|discriminate]. injection H as ->. pose proof (scan0_len _ _ E). unfold zlen in *.
  destruct (Z.leb_spec 0 j); [|lia]. destruct (Z.leb_spec j (Z.of_nat (List.length (b_data k)))); [|lia]. cbn [andb bind]. rewrite (scan0_skip _ _ _ E) by lia. reflexivity.
Qed.

(** The rear part of the text, from byte [j] on, which has [zlen t - j] bytes and the final NUL, is moved to the front: this is undefined
    behaviour just if the two overlap, and sets the text to the part otherwise. *)
Theorem C28_set_part_of_fixed_text : forall junk legacy os t,
  all_allowed abs0 os -> cstr t -> zlen t <= 200 -> total os + zlen t <= 536870912 ->
  exists m ds st, run junk legacy (os ++ [OSet (Some t) FVolatile]) = Ok (m, ds, st) /\
  forall j, 0 <= j <= zlen t ->
    (j <= zlen t - j -> arg_dstr_set junk m ds (Some (padd (arg_dstr_cstr ds) j)) FVolatile = UB Overlap) /\
    (zlen t - j < j -> exists m' ds', arg_dstr_set junk m ds (Some (padd (arg_dstr_cstr ds) j)) FVolatile = Ok (m', ds') /\
       rd_str m' (arg_dstr_cstr ds') = Ok (skipn (Z.to_nat j) t)).
Proof.
  intros junk legacy os t AL Ct Lt BD.
  destruct (run_ok junk legacy (os ++ [OSet (Some t) FVolatile])) as [m [ds [st [E [I _]]]]].
  { apply allowed_app; [exact AL|]. cbn [allowed]. exact Ct. }
  { rewrite total_app. cbn [weight]. lia. }
  exists m, ds, st. split; [exact E|]. intros j Hj.
  assert (T : text (spec_ops (os ++ [OSet (Some t) FVolatile])) = Some t) by (unfold spec_ops; rewrite fold_left_app; reflexivity).
  pose proof (text_read _ _ _ _ t I T) as R.
  assert (D : d_data ds = sbuf ds /\ d_free ds = FStatic).
  { unfold run in E. apply bind_ok in E. destruct E as [[m0 d0] [_ E]]. exact (set_last_fixed junk legacy t os Ct Lt _ _ _ _ _ _ E). }
  destruct D as [D F]. unfold arg_dstr_cstr. rewrite D in *. unfold sbuf, padd in *. cbn [fst snd]. rewrite Z.add_0_l.
  set (v := skipn (Z.to_nat j) t). pose proof (rd_str_part _ _ _ j R Hj) as Rj. fold v in Rj.
  assert (Lv : zlen v = zlen t - j) by (unfold v, zlen in *; rewrite skipn_length; lia).
  assert (Cv : cstr v) by (intro K; apply Ct; rewrite <- (firstn_skipn (Z.to_nat j) t); apply in_or_app; right; exact K).
  assert (Ov : overlap (d_self ds, 0) (d_self ds, j) (zlen v + 1) = (j <=? zlen t - j)).
  { unfold overlap. cbn [fst snd]. rewrite Nat.eqb_refl, Lv. destruct (Z.ltb_spec 0 (j + (zlen t - j + 1))); [|lia]. cbn [andb].
    destruct (Z.ltb_spec j (0 + (zlen t - j + 1))), (Z.leb_spec j (zlen t - j)); auto; lia. }
  rewrite arg_dstr_set_eq, Rj. cbn [bind]. rewrite c_int_ok by (unfold INT_MIN, INT_MAX; lia). cbn [bind].
  destruct (Z.ltb_spec ARG_DSTR_SIZE (zlen v)) as [X|SMALL]; [unfold ARG_DSTR_SIZE in X; lia|]. cbn [d_data upd_data].
  unfold strcpy, sbuf. rewrite Rj. cbn [bind]. rewrite Ov. split; intros Hc.
  - destruct (Z.leb_spec j (zlen t - j)); [reflexivity|lia].
  - destruct (Z.leb_spec j (zlen t - j)); [lia|].
    destruct (self_write m ds _ _ v I Cv SMALL) as [m1 [W [LG1 [LV1 [G [SB RD1]]]]]]. unfold sbuf in W. rewrite W. cbn [bind].
    assert (LV := i_live _ _ _ _ I). rewrite D.
    destruct (set_tail_ok m ds _ (frame st) m1 (sbuf ds) FStatic (frame st) None v I) as [m' [ds' [E' [I' S']]]]; auto.
    + intros i K. apply G. apply (live_disjoint _ _ _ _ LV). assumption.
    + intros c q K. rewrite G; [apply (i_frame _ _ _ _ I); assumption|]. eapply frame_ne; [exact I|exact K].
    + left. reflexivity.
    + reflexivity.
    + exists m', ds'. rewrite D in E'. split; [exact E'|]. apply (text_read _ _ _ _ v I'). reflexivity.
Qed.

(** Of "abcd", "cd" cannot be set, "d" can. *)
Example C28_case_part : exists m ds st, run (fun _ => NUL) false [OSet (Some (lit "abcd")) FVolatile] = Ok (m, ds, st) /\
  arg_dstr_set (fun _ => NUL) m ds (Some (padd (arg_dstr_cstr ds) 2)) FVolatile = UB Overlap /\
  exists m' ds', arg_dstr_set (fun _ => NUL) m ds (Some (padd (arg_dstr_cstr ds) 3)) FVolatile = Ok (m', ds') /\ rd_str m' (arg_dstr_cstr ds') = Ok (lit "d").
Proof.
  destruct (C28_set_part_of_fixed_text (fun _ => NUL) false [] (lit "abcd")) as (m & ds & st & E & H); [exact I|unfold cstr; cbn; intuition discriminate|cbn; lia|cbn; lia|].
  exists m, ds, st. split; [exact E|]. split; [apply (H 2); cbn; lia|]. destruct (H 3) as [_ K]; [cbn; lia|]. destruct K as (m' & ds' & K1 & K2); [cbn; lia|]. exists m', ds'. split; [exact K1|exact K2].
Qed.
Print Assumptions C28_set_part_of_fixed_text.
