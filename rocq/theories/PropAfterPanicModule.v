(** C88, the module name and version: going on after memory ran out. *)
From Coq Require Import ZArith List Ascii Bool Lia String Permutation.
From Verif Require Import Base ParseModel MemModel DstrModel DstrSpec DstrProofs HelpModel PropModule DstrFail DstrFailProofs HelpFail.
Import ListNotations.
Open Scope Z_scope.

Section Module.
Context (granted : nat -> bool) (junk : nat -> ascii) (legacy : bool).

(** ** With enough memory these are the functions of HelpModel. *)
Lemma try_name_cases m s name :
  (forall m1, xfree_opt m (s_module_name s) = Ok m1 -> mnext m1 = mnext m) ->
  granted (mnext m) = true -> forall m' s', arg_set_module_name junk m s name = Ok (m', s') ->
  try_set_module_name granted junk m s name = Ok (m', s', true).
Proof.
  intros NX G m' s' E. unfold arg_set_module_name in E. unfold try_set_module_name.
  destruct (xfree_opt m (s_module_name s)) as [m1|u|]; cbn [bind] in *; try discriminate. rewrite (NX m1 eq_refl), G.
  destruct (store_copy junk m1 name) as [[m2 b]|u|] eqn:SC; cbn [bind] in *; try discriminate.
  unfold store_copy in SC. destruct (rd_str m1 name) as [t|u|]; cbn [bind] in *; try discriminate. injection E as <- <-. reflexivity.
Qed.

Lemma xfree_opt_next m o m' : xfree_opt m o = Ok m' -> mnext m' = mnext m.
Proof.
  destruct o as [b|]; cbn [xfree_opt]; [|congruence]. unfold xfree. destruct (mget m (fst (b, 0))) as [k|]; [|discriminate].
  destruct (b_heap k && _); [|discriminate]. intro E. injection E as <-. reflexivity.
Qed.

Lemma holds_spent m G : holds m G -> holds (spent m) G.
Proof. intros [[A B C] D]. split; [constructor; auto|exact D]. intros i K. cbn [spent mnext]. apply C in K. lia. Qed.

(** ** A first setting that is refused: nothing is lost *)
Theorem C88_first_name : forall m s g v F b t,
  minv m s None g v F -> cstr t -> In (b, {| b_heap := false; b_data := t ++ [NUL] |}) F ->
  exists m' s' ok, try_set_module_name granted junk m s (b, 0) = Ok (m', s', ok) /\
    if ok then minv m' s' (Some t) g v F else s' = s /\ minv m' s None g v F /\ granted (mnext m) = false.
Proof.
  intros m s g v F b t I C K. destruct (granted (mnext m)) eqn:G.
  - destruct (set_name_ok junk m s None g v F b t I C K) as (m' & s' & E & I' & _). exists m', s', true. split; [|exact I'].
    apply try_name_cases; auto. apply xfree_opt_next.
  - destruct I as [H A1 A2 A3]. unfold try_set_module_name. destruct (s_module_name s) eqn:SN; [destruct A1|]. cbn [xfree_opt bind].
    rewrite (client_read m b t _ H) by (auto; apply in_or_app; right; exact K). cbn [bind]. rewrite G.
    eexists _, _, false. split; [reflexivity|]. split; [reflexivity|]. split; [|reflexivity].
    constructor; auto; [apply holds_spent; exact H|rewrite SN; exact A1].
Qed.

(** A dynamic string as blocks of memory: at most two. *)
Lemma inv_holds m ds a F : Inv m ds a F -> exists K, holds m (K ++ F) /\ (List.length K <= 2)%nat.
Proof.
  intro I. exists (map (fun i => (i, match mget m i with Some k => k | None => {| b_heap := true; b_data := [] |} end)) (d_self ds :: own ds)).
  assert (LV := i_live _ _ _ _ I). split.
  - split.
    + rewrite map_app, map_map. cbn [fst]. rewrite map_id. exact LV.
    + intros b k K. apply in_app_or in K. destruct K as [K|K]; [|apply (i_frame _ _ _ _ I); exact K].
      apply in_map_iff in K. destruct K as (i & E & K). injection E as <- <-.
      assert (L : mget m i <> None) by (apply (live_iff _ _ LV); cbn [In app] in *; destruct K as [K|K]; [left; exact K|right; apply in_or_app; left; exact K]).
      destruct (mget m i); congruence.
  - rewrite map_length. cbn [List.length]. destruct (i_shape _ _ _ _ I) as [RL SH]. unfold own. rewrite app_length.
    destruct (d_app ds) as [x|].
    + destruct SH as [-> _]. cbn. lia.
    + destruct (d_free ds); cbn; lia.
Qed.

Lemma append_p t L s : append {| text := Some t; held := None; log := L |} s = {| text := Some (t ++ s); held := None; log := L |}.
Proof. reflexivity. Qed.

(** A formatted append to a string with the text [t], left by the end or by the panic function. *)
Lemma catf_step m ds t l F q :
  Inv m ds {| text := Some t; held := None; log := l |} F -> 3 + zlen (pct_d q ++ lit ".") + zlen t <= 536870912 ->
  (exists m' ds', try_catf granted junk legacy m ds (Some 3) (pct_d q ++ lit ".") = Ok (Done (m', ds'))
     /\ arg_dstr_catf junk legacy m ds (Some 3) (pct_d q ++ lit ".") = Ok (m', ds')
     /\ Inv m' ds' {| text := Some (t ++ pct_d q ++ lit "."); held := None; log := l |} F)
  \/ (exists m' ds' K, try_catf granted junk legacy m ds (Some 3) (pct_d q ++ lit ".") = Ok (Refused m' ds')
     /\ holds m' (K ++ F) /\ (List.length K <= 3)%nat /\ exists i, granted i = false).
Proof.
  intros I BD.
  destruct (try_catf_ok granted junk legacy m ds _ F t 3 (pct_d q ++ lit ".") I eq_refl) as [(m' & ds' & E & E2)|(m' & ds' & L & E & I' & LE & _ & G)];
    [lia|lia| |].
  - left. destruct (catf_ok junk legacy m ds _ F t 3 (pct_d q ++ lit ".") I eq_refl) as (m2 & d2 & E3 & I3 & _); [lia|lia|].
    rewrite E in E3. injection E3 as <- <-. rewrite upto_id in I3 by apply cstr_dot. rewrite append_plain in I3. eauto 6.
  - right. destruct (inv_holds _ _ _ _ I') as (K & H & LK). exists m', ds', (K ++ L). split; [exact E|]. rewrite <- app_assoc.
    split; [exact H|]. split; [rewrite app_length; lia|exact G].
Qed.

(** The version: a refused first setting leaves the default version, and at most three blocks that nobody frees. *)
Theorem C88_first_version : forall m s n F b t x y z,
  minv m s n None None F -> cstr t -> In (b, {| b_heap := false; b_data := t ++ [NUL] |}) F ->
  zlen (version_text x y z t) <= 268435456 ->
  exists m' s' ok, try_set_module_version granted junk legacy m s x y z (b, 0) = Ok (m', s', ok) /\
    if ok then minv m' s' n (Some t) (Some (version_text x y z t)) F
    else (exists i, granted i = false) /\
      exists g K, minv m' s' n g None (K ++ F) /\ (List.length K <= 3)%nat /\ s_module_name s' = s_module_name s /\ s_mod_ver s' = None.
Proof.
  intros m s n F b t x y z [H A1 A2 A3] C I BD. unfold try_set_module_version.
  destruct (s_mod_ver_tag s) eqn:ST; [destruct A2|]. destruct (s_mod_ver s) eqn:SV; [destruct A3|]. cbn [xfree_opt bind].
  assert (H0 : holds m (hb (s_module_name s) n ++ F)) by (unfold blocks in H; rewrite ST, SV in H; cbn [hb app] in H; rewrite app_nil_r in H; exact H).
  assert (R : rd_str m (b, 0) = Ok t) by (apply (client_read m b t _ H0); [apply in_or_app; right; exact I|exact C]).
  rewrite R. cbn [bind]. destruct (granted (mnext m)) eqn:G1; cbn [negb].
  2:{ eexists _, _, false. split; [reflexivity|]. split; [eauto|]. exists None, []. cbn [app List.length].
      split; [|split; [lia|split; [reflexivity|exact SV]]]. constructor; rewrite ?ST, ?SV; auto. apply holds_spent. exact H. }
  destruct (store_copy_holds junk m (b, 0) t _ H0 R) as (m2 & E2 & H2 & L2). rewrite E2. cbn [bind s_module_name s_mod_ver_tag s_mod_ver].
  set (tb := mnext m) in *. clearbody tb.
  set (s1 := {| s_module_name := s_module_name s; s_mod_ver_tag := Some tb; s_mod_ver := None |}).
  assert (LOST : forall m' K, (exists i, granted i = false) -> holds m' (K ++ (tb, copy_of t) :: hb (s_module_name s) n ++ F) -> (List.length K <= 3)%nat ->
    (exists i, granted i = false) /\
      exists g K, minv m' s1 n g None (K ++ F) /\ (List.length K <= 3)%nat /\ s_module_name s1 = s_module_name s /\ s_mod_ver s1 = None).
  { intros m' K G HK LK. split; [exact G|]. exists (Some t), K. split; [|split; [exact LK|split; reflexivity]].
    constructor; cbn [s1 s_module_name s_mod_ver_tag s_mod_ver]; rewrite ?SV; auto; try exact Logic.I.
    unfold blocks, s1. cbn [s_module_name s_mod_ver_tag s_mod_ver hb]. rewrite app_nil_r.
    eapply holds_perm; [|exact HK]. rewrite <- app_assoc. cbn [app].
    eapply Permutation_trans; [apply Permutation_sym, Permutation_middle|].
    eapply Permutation_trans; [|apply Permutation_middle]. apply perm_skip. apply Permutation_app_swap_app. }
  destruct (granted (mnext m2)) eqn:G2; cbn [negb].
  2:{ eexists _, _, false. split; [reflexivity|]. apply (LOST (spent m2) []); [eauto|apply holds_spent; exact H2|cbn; lia]. }
  destruct (create_any junk m2 _ H2) as (m3 & ds & E3 & I3). rewrite E3. cbn [bind].
  assert (BD0 := BD). unfold version_text in BD. rewrite !zlen_app in BD. change (zlen (lit ".")) with 1 in BD.
  pose proof (zlen_nonneg (pct_d x)). pose proof (zlen_nonneg (pct_d y)). pose proof (zlen_nonneg (pct_d z)). pose proof (zlen_nonneg t).
  assert (ZD : forall q, zlen (pct_d q ++ lit ".") = zlen (pct_d q) + 1) by (intro q; rewrite zlen_app; reflexivity).
  destruct (catf_step m3 ds [] _ _ x I3) as [(m4 & d4 & E4 & E4' & I4)|(m4 & d4 & K & E4 & HK & LK & GK)];
    [rewrite ZD; change (zlen (@nil ascii)) with 0; lia| |].
  2:{ rewrite E4. cbn [thenon bind]. eexists _, _, false. split; [reflexivity|]. apply (LOST m4 K); auto. }
  rewrite E4. cbn [thenon bind]. cbn [app] in I4.
  destruct (catf_step m4 d4 _ _ _ y I4) as [(m5 & d5 & E5 & E5' & I5)|(m5 & d5 & K & E5 & HK & LK & GK)]; [rewrite !ZD; lia| |].
  2:{ rewrite E5. cbn [thenon bind]. eexists _, _, false. split; [reflexivity|]. apply (LOST m5 K); auto. }
  rewrite E5. cbn [thenon bind].
  destruct (catf_step m5 d5 _ _ _ z I5) as [(m6 & d6 & E6 & E6' & I6)|(m6 & d6 & K & E6 & HK & LK & GK)]; [rewrite ZD, !zlen_app; change (zlen (lit ".")) with 1; lia| |].
  2:{ rewrite E6. cbn [thenon bind]. eexists _, _, false. split; [reflexivity|]. apply (LOST m6 K); auto. }
  rewrite E6. cbn [thenon bind].
  set (text3 := ((pct_d x ++ lit ".") ++ pct_d y ++ lit ".") ++ pct_d z ++ lit ".") in *.
  assert (SC : scan0 (b_data (copy_of t)) = Some t) by (cbn [copy_of b_data]; apply scan0_app; exact C).
  assert (BD7 : zlen t + zlen text3 <= 1073741820) by (unfold text3; rewrite !zlen_app; change (zlen (lit ".")) with 1; lia).
  destruct (try_cat_ok granted junk m6 d6 _ _ tb (copy_of t) t text3 I6 (or_introl eq_refl) SC eq_refl BD7) as [(m7 & d7 & E7 & E7')|(u & E7 & U & G7)].
  2:{ rewrite E7. cbn [bind]. eexists _, _, false. split; [reflexivity|].
      destruct (inv_holds _ _ _ _ (inv_spent _ _ _ _ (inv_used _ _ _ _ _ u I6 eq_refl U))) as (K & HK & LK). apply (LOST _ K); [eauto|exact HK|lia]. }
  destruct (cat_ok junk m6 d6 _ _ tb (copy_of t) t text3 I6 (or_introl eq_refl) SC eq_refl BD7) as (m7' & d7' & E7'' & I7 & _).
  rewrite E7 in E7''. injection E7'' as <- <-. rewrite append_plain in I7.
  rewrite E7'. cbn [bind s1 s_mod_ver]. cbn [xfree_opt bind]. unfold arg_dstr_cstr at 1.
  rewrite (text_read _ _ _ _ _ I7 eq_refl). cbn [bind]. destruct (granted (mnext m7)) eqn:G7; cbn [negb].
  2:{ eexists _, _, false. split; [reflexivity|]. fold s1.
      destruct (inv_holds _ _ _ _ (inv_spent _ _ _ _ I7)) as (K & HK & LK). apply (LOST _ K); [eauto|exact HK|lia]. }
  destruct (store_copy_inv junk m7 d7 _ _ _ I7 eq_refl) as (m9 & E9 & I9). rewrite E9. cbn [bind s_module_name s_mod_ver_tag].
  destruct (destroy_ok m9 d7 _ _ I9) as (m10 & E10 & L10 & F10 & G10). rewrite E10. cbn [bind].
  eexists _, _, true. split; [reflexivity|]. 
  destruct (set_version_ok junk legacy m s n None None F b x y z t) as (mm & ss & EE & II & _); auto.
  { constructor; rewrite ?ST, ?SV; auto. }
  unfold arg_set_module_version in EE. rewrite ST, SV in EE. cbn [xfree_opt bind] in EE. rewrite E2 in EE. cbn [bind] in EE. rewrite E3 in EE. cbn [bind] in EE.
  rewrite E4' in EE. cbn [bind] in EE. rewrite E5' in EE. cbn [bind] in EE. rewrite E6' in EE. cbn [bind] in EE. rewrite E7 in EE. cbn [bind xfree_opt] in EE.
  rewrite E9 in EE. cbn [bind] in EE. rewrite E10 in EE. cbn [bind] in EE. injection EE as <- <-. exact II.
Qed.
End Module.

(** ** A later setting that is refused *)

(** The name that was set before is freed, and the variable still points at it: the next message that shows the name reads freed
    memory, and the next setting frees it again. *)
Theorem C88_later_name_refuted : forall granted junk m s old g v F b t,
  minv m s (Some old) g v F -> cstr t -> In (b, {| b_heap := false; b_data := t ++ [NUL] |}) F -> granted (mnext m) = false ->
  exists m', try_set_module_name granted junk m s (b, 0) = Ok (m', s, false) /\
    module_name m' s = UB UseAfterFree /\ forall name, arg_set_module_name junk m' s name = UB DoubleFree.
Proof.
  intros granted junk m s old g v F b t [H A1 A2 A3] C I G. unfold blocks in H. rewrite <- app_assoc in H.
  destruct (free_opt_holds m _ _ _ A1 H) as (m1 & E1 & H1 & _). unfold try_set_module_name. rewrite E1. cbn [bind].
  rewrite (client_read m1 b t _ H1) by (auto; apply in_or_app; right; exact I). cbn [bind]. rewrite (xfree_opt_next _ _ _ E1), G.
  eexists. split; [reflexivity|]. destruct (s_module_name s) as [x|] eqn:SN; [|destruct A1].
  assert (D : mget (spent m1) x = None).
  { cbn [xfree_opt] in E1. unfold xfree in E1. cbn [fst snd] in E1. destruct (mget m x) as [k|]; [|discriminate].
    destruct (b_heap k && (0 =? 0)); [|discriminate]. injection E1 as <-. apply mget_mset_eq. }
  split.
  - unfold module_name, text_or. rewrite SN. unfold rd_str, rd, mblk. cbn [fst]. rewrite D. reflexivity.
  - intro name. unfold arg_set_module_name. rewrite SN. cbn [xfree_opt]. unfold xfree. cbn [fst]. rewrite D. reflexivity.
Qed.

(** Likewise the tag of the version: the next setting frees it again. *)
Theorem C88_later_version_refuted : forall granted junk legacy m s n old v F b t x y z,
  minv m s n (Some old) v F -> cstr t -> In (b, {| b_heap := false; b_data := t ++ [NUL] |}) F -> granted (mnext m) = false ->
  exists m', try_set_module_version granted junk legacy m s x y z (b, 0) = Ok (m', s, false) /\
    forall x' y' z' tag, arg_set_module_version junk legacy m' s x' y' z' tag = UB DoubleFree.
Proof.
  intros granted junk legacy m s n old v F b t x y z [H A1 A2 A3] C I G. unfold blocks in H.
  assert (P : Permutation ((hb (s_module_name s) n ++ hb (s_mod_ver_tag s) (Some old) ++ hb (s_mod_ver s) v) ++ F)
                          (hb (s_mod_ver_tag s) (Some old) ++ hb (s_module_name s) n ++ hb (s_mod_ver s) v ++ F)).
  { rewrite <- !app_assoc. apply Permutation_app_swap_app. }
  apply (holds_perm _ _ _ P) in H.
  destruct (free_opt_holds m _ _ _ A2 H) as (m1 & E1 & H1 & _). unfold try_set_module_version. rewrite E1. cbn [bind].
  rewrite (client_read m1 b t _ H1); [|apply in_or_app; right; apply in_or_app; right; exact I|exact C]. cbn [bind]. rewrite (xfree_opt_next _ _ _ E1), G. cbn [negb].
  eexists. split; [reflexivity|]. intros x' y' z' tag. destruct (s_mod_ver_tag s) as [q|] eqn:SN; [|destruct A2].
  assert (D : mget (spent m1) q = None).
  { cbn [xfree_opt] in E1. unfold xfree in E1. cbn [fst snd] in E1. destruct (mget m q) as [k|]; [|discriminate].
    destruct (b_heap k && (0 =? 0)); [|discriminate]. injection E1 as <-. apply mget_mset_eq. }
  unfold arg_set_module_version. rewrite SN. cbn [xfree_opt]. unfold xfree. cbn [fst]. rewrite D. reflexivity.
Qed.

(** The last request of arg_set_module_version: the version that was set before is gone and is shown all the same. *)
Theorem C88_shown_version_refuted : exists granted junk m s b m' s',
  holds m [(b, {| b_heap := false; b_data := lit "rc" ++ [NUL] |})] /\
  exists m1 s1, run_mops junk false m mod0 [SetVersion 1 0 0 (lit "a")] = Ok (m1, s1) /\ s = s1 /\
  module_version m1 s = Ok (lit "1.0.0.a") /\
  try_set_module_version granted junk false m1 s 2 0 0 (b, 0) = Ok (m', s', false) /\ module_version m' s' = UB UseAfterFree.
Proof.
  exists (fun i => negb (Nat.eqb i 15)), (fun _ => NUL), (fst (mnew mem0 false (lit "rc" ++ [NUL]))).
  eexists _, 0%nat, _, _. split.
  - apply (holds_new mem0 [] false (lit "rc" ++ [NUL])). split; [|intros b k []]. constructor; [|constructor|intros i []]. intro i. cbn. split; [congruence|intros []].
  - eexists _, _. split; [vm_compute; reflexivity|]. split; [reflexivity|]. split; [vm_compute; reflexivity|]. split; [vm_compute; reflexivity|vm_compute; reflexivity].
Qed.

(** ** Examples: a client with one text of its own sets name and version for the first time; and sets the name again *)
Definition ex_text : mblock := {| b_heap := false; b_data := lit "app" ++ [NUL] |}.
Definition ex_mem : mem := fst (mnew mem0 false (lit "app" ++ [NUL])).
Lemma ex_cstr : cstr (lit "app").
Proof. intros K. repeat (destruct K as [K|K]; [discriminate|]). exact K. Qed.
Example C88_first_case : minv ex_mem mod0 None None None [(0%nat, ex_text)].
Proof.
  constructor; try exact I. apply (holds_new mem0 [] false (lit "app" ++ [NUL])). split; [|intros b k []].
  constructor; [|constructor|intros i []]. intro i. cbn. split; [congruence|intros []].
Qed.
Example C88_first_version_case : exists m s,
  try_set_module_version (fun i => negb (Nat.eqb i 4)) (fun _ => NUL) false ex_mem mod0 3 1 4 (0%nat, 0) = Ok (m, s, false) /\
  module_version m s = Ok (lit "0.0.0.0") /\ s_mod_ver_tag s = Some 1%nat.
Proof. eexists _, _. split; [vm_compute; reflexivity|]. split; [vm_compute; reflexivity|reflexivity]. Qed.
Example C88_later_case : exists m s old, minv m s (Some old) None None [(0%nat, ex_text)] /\
  (fun i => negb (Nat.eqb i 2)) (mnext m) = false /\ module_name m s = Ok (lit "app").
Proof.
  destruct (C88_first_name (fun _ => true) (fun _ => NUL) ex_mem mod0 None None _ 0%nat (lit "app") C88_first_case ex_cstr (or_introl eq_refl))
    as (m & s & ok & E & H). vm_compute in E. injection E as <- <- <-.
  eexists _, _, (lit "app"). split; [exact H|]. split; vm_compute; reflexivity.
Qed.

Print Assumptions C88_first_name.
Print Assumptions C88_first_version.
Print Assumptions C88_later_name_refuted.
Print Assumptions C88_later_version_refuted.
Print Assumptions C88_shown_version_refuted.
