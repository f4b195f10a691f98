(** DstrFailProofs: the invariant of DstrProofs holds also after a refused call. *)
From Coq Require Import ZArith List Ascii Bool Lia Permutation.
From Verif Require Import Base ParseModel MemModel DstrModel DstrSpec DstrProofs PropDstr DstrFail.
Import ListNotations.
Open Scope Z_scope.

Lemma inv_spent m ds a F : Inv m ds a F -> Inv (spent m) ds a F.
Proof.
  intros [[L1 L2 L3] FR SB LG SH]. constructor; auto.
  constructor; auto. intros i K. cbn [spent mnext]. apply L3 in K. lia.
Qed.

(** Recomputing the length of the text. *)
Lemma inv_used m ds a F t u : Inv m ds a F -> text a = Some t -> 0 <= u <= zlen t -> Inv m (upd_used u ds) a F.
Proof.
  intros [LV FR SB LG [RL SH]] T U. constructor; auto. split; [exact RL|]. cbn [d_app upd_used d_size d_free d_data d_used].
  destruct (d_app ds) as [x|].
  - destruct SH as [S1 [S2 [v [k [T1 [T2 [T3 [T4 [T5 T6]]]]]]]]]. split; [exact S1|]. split; [exact S2|].
    exists v, k. assert (v = t) by congruence. subst v. repeat split; auto; lia.
  - exact SH.
Qed.

Lemma done_ok {A} (x : res A) a : x = Ok a -> done x = Ok (Done a).
Proof. intros ->. reflexivity. Qed.

(** ** arg_dstr_set *)
Lemma try_set_cases granted junk m ds str f :
  try_set granted junk m ds str f = done (arg_dstr_set junk m ds str f)
  \/ (exists p, str = Some p /\ f = FVolatile /\ granted (mnext m) = false /\ (exists s, rd_str m p = Ok s /\ 200 < zlen s) /\ try_set granted junk m ds str f = Ok (Refused (spent m) ds)).
Proof.
  destruct str as [p|].
  - destruct f as [| | |n].
    + left. reflexivity.
    + unfold try_set, arg_dstr_set. destruct (rd_str m p) as [s|u|] eqn:R; cbn [bind thenon]; [|left; reflexivity|left; reflexivity].
      destruct (c_int (zlen s)) as [l|u|] eqn:CI; cbn [bind thenon]; [|left; reflexivity|left; reflexivity].
      assert (l = zlen s) by (unfold c_int in CI; destruct (in_intb (zlen s)); congruence). subst l.
      destruct (Z.ltb_spec ARG_DSTR_SIZE (zlen s)) as [BIG|SMALL].
      * destruct (granted (mnext m)) eqn:GR.
        -- left. cbn [xmalloc mnew]. cbv zeta. unfold done, thenon.
           destruct (strcpy _ _ p) as [m1|u|]; reflexivity.
        -- right. exists p. repeat split. exists s. split; [auto|exact BIG].
      * left. cbv zeta. unfold done, thenon. destruct (strcpy _ _ p) as [m1|u|]; reflexivity.
    + left. reflexivity.
    + left. reflexivity.
  - left. unfold try_set, arg_dstr_set, done, thenon. cbv zeta. destruct (wr m (sbuf ds) [NUL]) as [m1|u|]; reflexivity.
Qed.

(** ** setup_append_buf *)
Lemma try_setup_ok granted junk m ds a F t n :
  Inv m ds a F -> text a = Some t -> 1 <= n -> n + zlen t <= 1073741823 ->
  (exists m' ds', setup_append_buf junk m ds n = Ok (m', ds') /\ try_setup granted junk m ds n = Ok (Done (m', ds')))
  \/ (exists u, try_setup granted junk m ds n = Ok (Refused (spent m) (upd_used u ds)) /\ 0 <= u <= zlen t /\ granted (mnext m) = false).
Proof.
  intros I T N1 BD. pose proof (zlen_nonneg t) as Z0.
  destruct (setup_ok junk m ds a F t n I T N1 BD) as [m' [ds' [x0 [k0 [E [_ [_ _]]]]]]]. assert (E0 := E).
  assert (R := text_read _ _ _ _ _ I T). assert (C := text_cstr _ _ _ _ _ I T).
  assert (SH := i_shape _ _ _ _ I).
  assert (SZ : Z.of_nat (List.length t) = zlen t) by reflexivity.
  assert (GI : exists g, (if n + zlen t <? 100 then Ok 200 else c_int ((n + zlen t) * 2)) = Ok g).
  { destruct (Z.ltb_spec (n + zlen t) 100); [eauto|]. eexists. apply c_int_ok. unfold INT_MIN, INT_MAX. lia. }
  destruct GI as [g GI].
  assert (P : exists u, 0 <= u <= zlen t /\ zlen t = u /\
    (let is_append := match d_app ds with Some a => ptr_eqb (d_data ds) (a, 0) | None => false end in
    (if negb is_append then
       '(m, ds) <-
         (if 500 <? d_size ds then
            match d_app ds with
            | Some a => m <- xfree m (a, 0) ;; Ok (m, upd_app None 0 ds)
            | None => Ok (m, upd_app None 0 ds)
            end
          else Ok (m, ds)) ;;
       s <- rd_str m (d_data ds) ;;
       u <- c_int (zlen s) ;;
       Ok (m, upd_used u ds)
     else
       c <- rd_byte m (padd (d_data ds) (d_used ds)) ;;
       if negb (ceqb c NUL) then
         s <- rd_str m (d_data ds) ;;
         u <- c_int (zlen s) ;;
         Ok (m, upd_used u ds)
       else Ok (m, ds))) = Ok (m, upd_used u ds)).
  { exists (zlen t). split; [lia|]. split; [reflexivity|]. cbv zeta. unfold shape in SH. destruct (d_app ds) as [x|] eqn:AP.
    - destruct SH as [RL [S1 [S2 [u [k [T1 [T2 [T3 [T4 [T5 T6]]]]]]]]]].
      assert (u = t) by congruence. subst u. clear T1.
      rewrite S2 in *. unfold ptr_eqb. cbn [fst snd]. rewrite Nat.eqb_refl. change (0 =? 0) with true. cbn [andb negb].
      unfold rd_byte, mblk, padd. cbn [fst snd]. unfold in_block in T4. rewrite T4. cbn [bind b_data].
      rewrite Z.add_0_l.
      destruct (Z_lt_ge_dec (d_used ds) (zlen t)) as [LT|GE].
      + destruct (nth_error t (Z.to_nat (d_used ds))) as [c|] eqn:NE.
        2:{ apply nth_error_None in NE. unfold zlen in *. lia. }
        rewrite (aget_nth _ _ c); [|lia|rewrite nth_error_app1 by (unfold zlen in *; lia); exact NE]. cbn [bind].
        assert (CN : c <> NUL) by (intro; subst; apply C; eapply nth_error_In; exact NE).
        apply ceqb_neq in CN. rewrite CN. cbn [negb]. rewrite R. cbn [bind].
        rewrite c_int_ok by (unfold INT_MIN, INT_MAX; lia). reflexivity.
      + assert (E2 : d_used ds = zlen t) by lia.
        rewrite (aget_nth _ _ NUL); [|lia|].
        * cbn [bind]. rewrite ceqb_refl. cbn [negb]. rewrite <- E2. destruct ds; reflexivity.
        * rewrite nth_error_app2 by (unfold zlen in *; lia). rewrite E2. rewrite <- SZ, Nat2Z.id, Nat.sub_diag.
          destruct k; [lia|]. reflexivity.
    - destruct SH as [RL [S1 S2]]. cbn [negb]. rewrite S1. change (500 <? 0) with false. cbv iota. cbn [bind].
      rewrite R. cbn [bind]. rewrite c_int_ok by (unfold INT_MIN, INT_MAX; lia). reflexivity. }
  destruct P as [u [U [EU P]]]. cbv zeta in P.
  unfold setup_append_buf in E. cbv zeta in E. rewrite P in E. cbn [bind d_used upd_used d_size d_data d_app] in E.
  unfold try_setup. cbv zeta. rewrite P. cbn [bind d_used upd_used d_size d_data d_app].
  subst u. rewrite c_int_ok in E by (unfold INT_MIN, INT_MAX; lia). rewrite c_int_ok by (unfold INT_MIN, INT_MAX; lia). cbn [bind] in *.
  destruct (d_size ds <=? n + zlen t).
  - rewrite GI in E. rewrite GI. cbn [bind] in *. destruct (granted (mnext m)) eqn:GR.
    + left. exists m', ds'. split; [exact E0|]. destruct (xmalloc junk m g) as [m1 nb].
      unfold done, thenon. apply bind_ok in E. destruct E as [[m2 d2] [E1 E2]]. rewrite E1. cbn [bind]. rewrite E2. reflexivity.
    + right. exists (zlen t). split; [reflexivity|]. split; [lia|reflexivity].
  - left. exists m', ds'. split; [exact E0|]. unfold done, thenon. apply bind_ok in E. destruct E as [[m2 d2] [E1 E2]].
    rewrite E1. cbn [bind]. rewrite E2. reflexivity.
Qed.

(** ** Appending *)
Lemma try_cat_ok granted junk m ds a F b k s t :
  Inv m ds a F -> In (b, k) F -> scan0 (b_data k) = Some s -> text a = Some t -> zlen s + zlen t <= 1073741820 ->
  (exists m' ds', arg_dstr_cat junk m ds (b, 0) = Ok (m', ds') /\ try_cat granted junk m ds (b, 0) = Ok (Done (m', ds')))
  \/ (exists u, try_cat granted junk m ds (b, 0) = Ok (Refused (spent m) (upd_used u ds)) /\ 0 <= u <= zlen t /\ granted (mnext m) = false).
Proof.
  intros I IN S T BD. assert (Z0 := zlen_nonneg t). assert (ZS := zlen_nonneg s).
  destruct (cat_ok junk m ds a F b k s t I IN S T BD) as [m' [ds' [E _]]]. assert (E0 := E).
  unfold arg_dstr_cat in E. unfold try_cat. rewrite (rd_str_0 m b k s (i_frame _ _ _ _ I _ _ IN) S) in E. rewrite (rd_str_0 m b k s (i_frame _ _ _ _ I _ _ IN) S). cbn [bind] in *.
  rewrite c_int_ok in E by (unfold INT_MIN, INT_MAX; lia). rewrite c_int_ok by (unfold INT_MIN, INT_MAX; lia). cbn [bind] in *.
  rewrite c_int_ok in E by (unfold INT_MIN, INT_MAX; lia). rewrite c_int_ok by (unfold INT_MIN, INT_MAX; lia). cbn [bind] in *.
  destruct (try_setup_ok granted junk m ds a F t (zlen s + 1) I T) as [[m1 [d1 [E1 E2]]]|[u [E1 U]]]; [lia|lia| |].
  - left. exists m', ds'. split; [exact E0|]. rewrite E1 in E. rewrite E2. cbn [bind] in E. unfold thenon, done. cbn [bind]. rewrite E. reflexivity.
  - right. exists u. rewrite E1. split; [reflexivity|exact U].
Qed.

Lemma try_catc_ok granted junk m ds a F c t :
  Inv m ds a F -> text a = Some t -> zlen t <= 1073741820 ->
  (exists m' ds', arg_dstr_catc junk m ds c = Ok (m', ds') /\ try_catc granted junk m ds c = Ok (Done (m', ds')))
  \/ (exists u, try_catc granted junk m ds c = Ok (Refused (spent m) (upd_used u ds)) /\ 0 <= u <= zlen t /\ granted (mnext m) = false).
Proof.
  intros I T BD. assert (Z0 := zlen_nonneg t).
  destruct (catc_ok junk m ds a F c t I T BD) as [m' [ds' [E _]]]. assert (E0 := E).
  unfold arg_dstr_catc in E. unfold try_catc.
  destruct (try_setup_ok granted junk m ds a F t 2 I T) as [[m1 [d1 [E1 E2]]]|[u [E1 U]]]; [lia|lia| |].
  - left. exists m', ds'. split; [exact E0|]. rewrite E1 in E. rewrite E2. cbn [bind] in E. unfold thenon, done. cbn [bind]. rewrite E. reflexivity.
  - right. exists u. rewrite E1. split; [reflexivity|exact U].
Qed.

(** ** Formatted appending *)
Lemma try_catf_loop_ok granted junk legacy out ds a F t :
  text a = Some t -> zlen out <= 536870912 ->
  forall fuel m buff n,
    Inv m ds a ((buff, zeros (n + 2)) :: F) -> fst (d_data ds) <> buff ->
    16 <= n <= 1073741824 -> (1 <= fuel)%nat -> zlen out + 2 - n <= Z.of_nat fuel ->
    (exists m' b, catf_loop junk legacy out fuel m buff n = Ok (m', b)
       /\ try_catf_loop granted junk legacy out fuel m ds buff n = Ok (Done (m', b)))
    \/ (exists m', try_catf_loop granted junk legacy out fuel m ds buff n = Ok (Refused m' ds) /\ Inv m' ds a F /\ exists i, granted i = false).
Proof.
  intros T BD. induction fuel as [|fuel IH]; intros m buff n I NE NB F1 FU; [lia|].
  cbn [catf_loop try_catf_loop]. assert (V := vsn_bytes legacy n out (proj1 NB)).
  destruct (vsnprintf legacy n out) as [bytes r]. destruct V as [V1 [V2 [V3 V4]]].
  assert (ZO := zlen_nonneg out). assert (ZB := zlen_nonneg bytes).
  assert (GB : mget m buff = Some (zeros (n + 2))) by (apply (i_frame _ _ _ _ I); left; reflexivity).
  rewrite (wr_ok m buff _ 0 bytes GB); [|lia|].
  2:{ cbn [zeros b_data]. unfold zlen at 2. rewrite repeat_length. lia. }
  cbn [zeros b_heap b_data bind]. change (Z.to_nat 0) with 0%nat. cbn [firstn app plus].
  rewrite skipn_repeat.
  set (k := {| b_heap := true; b_data := bytes ++ repeat NUL (Z.to_nat (n + 2) - List.length bytes) |}).
  assert (I2 : Inv (mset m buff (Some k)) ds a ((buff, k) :: F)) by (apply (inv_frame_write _ _ _ _ _ _ _ I NE)).
  assert (SC : scan0 (b_data k) = Some (upto_nul bytes)).
  { cbn [k b_data].
    assert (X : (Z.to_nat (n + 2) - List.length bytes)%nat = S (Z.to_nat (n + 2) - List.length bytes - 1)) by (unfold zlen in *; lia).
    rewrite X. cbn [repeat]. apply scan0_upto. }
  rewrite (rd_str_0 _ buff k (upto_nul bytes) (mget_mset_eq _ _ _) SC). cbn [bind].
  destruct (Z.ltb_spec (zlen (upto_nul bytes)) n) as [DONE|MORE].
  - left. eauto.
  - specialize (V3 MORE).
    assert (NN : exists n', (if n <? r then Ok r else c_int (n + n)) = Ok n' /\ n + 1 <= n' <= 1073741824).
    { destruct (Z.ltb_spec n r).
      - exists r. split; [reflexivity|lia].
      - exists (n + n). split; [apply c_int_ok; unfold INT_MIN, INT_MAX; lia|lia]. }
    destruct NN as [n' [EN RN]]. rewrite EN. cbn [bind].
    rewrite (xfree_ok _ buff k (mget_mset_eq _ _ _)) by reflexivity. cbn [bind].
    rewrite c_int_ok by (unfold INT_MIN, INT_MAX; lia). cbn [bind].
    assert (I3 := inv_del _ _ _ _ _ _ I2 NE).
    set (m3 := mset (mset m buff (Some k)) buff None) in *.
    destruct (buffer_ok junk m3 ds a F t (n' + 2) I3 T) as [m4 [E4 [I4 NE4]]]; [lia|].
    destruct (granted (mnext m3)) eqn:GR.
    + destruct (xmalloc junk m3 (n' + 2)) as [m5 nb] eqn:XM.
      assert (nb = mnext m3) by (injection XM as _ <-; reflexivity). subst nb. cbn [fst] in E4. rewrite E4. cbn [bind].
      apply (IH m4 (mnext m3) n' I4 NE4); lia.
    + right. exists (spent m3). split; [reflexivity|]. split; [apply inv_spent; exact I3|eauto].
Qed.

(** At most one block is left behind. *)
Lemma try_catf_ok granted junk legacy m ds a F t flen out :
  Inv m ds a F -> text a = Some t -> 0 <= flen -> flen + zlen out + zlen t <= 536870912 ->
  (exists m' ds', arg_dstr_catf junk legacy m ds (Some flen) out = Ok (m', ds')
     /\ try_catf granted junk legacy m ds (Some flen) out = Ok (Done (m', ds')))
  \/ (exists m' ds' L, try_catf granted junk legacy m ds (Some flen) out = Ok (Refused m' ds')
       /\ Inv m' ds' a (L ++ F) /\ (List.length L <= 1)%nat /\ d_data ds' = d_data ds /\ exists i, granted i = false).
Proof.
  intros I T FL BD. assert (ZO := zlen_nonneg out). assert (ZT := zlen_nonneg t).
  destruct (catf_ok junk legacy m ds a F t flen out I T FL BD) as [m' [ds' [E _]]]. assert (E0 := E).
  unfold arg_dstr_catf in E. unfold try_catf. rewrite c_int_ok in E by (unfold INT_MIN, INT_MAX; lia). rewrite c_int_ok by (unfold INT_MIN, INT_MAX; lia). cbn [bind] in *.
  set (n := if 2 * flen <? 16 then 16 else 2 * flen) in *.
  assert (NB : 16 <= n <= 1073741824) by (unfold n; destruct (Z.ltb_spec (2 * flen) 16); lia).
  cbv zeta in *. fold n in E. 
  rewrite c_int_ok in E by (unfold INT_MIN, INT_MAX; lia). rewrite c_int_ok by (unfold INT_MIN, INT_MAX; lia). cbn [bind] in *.
  destruct (buffer_ok junk m ds a F t (n + 2) I T) as [m4 [E4 [I4 NE4]]]; [lia|].
  destruct (granted (mnext m)) eqn:GR.
  2:{ right. exists (spent m), ds, []. split; [reflexivity|]. split; [apply inv_spent; exact I|]. split; [cbn; lia|]. eauto. }
  destruct (xmalloc junk m (n + 2)) as [m5 nb] eqn:XM.
  assert (nb = mnext m) by (injection XM as _ <-; reflexivity). subst nb. cbn [fst] in E4. rewrite E4 in E. rewrite E4. cbn [bind] in *.
  assert (FU : zlen out + 2 - n <= Z.of_nat (4 + List.length out)) by (unfold zlen in *; lia).
  destruct (catf_loop_ok junk legacy out ds a F t T) with (fuel := (4 + List.length out)%nat) (m := m4) (buff := mnext m) (n := n)
    as [m6 [b [k [E6 [I6 [H6 S6]]]]]]; auto; try lia.
  destruct (try_catf_loop_ok granted junk legacy out ds a F t T) with (fuel := (4 + List.length out)%nat) (m := m4) (buff := mnext m) (n := n)
    as [[m7 [b7 [E7 E8]]]|[m7 [E7 [I7 GR7]]]]; auto; try lia.
  2:{ right. exists m7, ds, []. rewrite E7. split; [reflexivity|]. split; [exact I7|]. split; [cbn; lia|auto]. }
  rewrite E6 in E7. injection E7 as <- <-. rewrite E8. rewrite E6 in E. cbn [bind] in E. cbn [thenon bind].
  assert (LU : zlen (upto_nul out) <= zlen out) by (assert (X := upto_len out); unfold zlen; lia).
  destruct (try_cat_ok granted junk m6 ds a _ b k (upto_nul out) t I6 (or_introl eq_refl) S6 T) as [[m8 [d8 [E9 E10]]]|[u [E9 [U GR9]]]]; [lia| |].
  - left. exists m', ds'. split; [exact E0|]. rewrite E9 in E. rewrite E10. unfold thenon, done. cbn [bind] in *. rewrite E. reflexivity.
  - right. exists (spent m6), (upd_used u ds), [(b, k)]. rewrite E9. split; [reflexivity|]. split; [|split; [cbn; lia|split; [reflexivity|eauto]]].
    apply inv_spent. apply (inv_used _ _ _ _ t); assumption.
Qed.
