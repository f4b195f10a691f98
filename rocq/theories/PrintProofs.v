(** PrintProofs: the text buffers of the printing functions. *)
From Coq Require Import ZArith String List Ascii Bool Lia.
From Verif Require Import Base ParseModel MemModel DstrModel DstrSpec PrintModel PrintSpec.
Import ListNotations.
Open Scope Z_scope.

Lemma zlen_firstn {A} (l : list A) n : 0 <= n -> zlen (firstn (Z.to_nat n) l) = Z.min n (zlen l).
Proof. intro H. unfold zlen. rewrite firstn_length. lia. Qed.
Lemma zlen_skipn {A} (l : list A) n : 0 <= n -> zlen (skipn (Z.to_nat n) l) = Z.max 0 (zlen l - n).
Proof. intro H. unfold zlen. rewrite skipn_length. lia. Qed.
Lemma zlen0 {A} (l : list A) : zlen l = 0 -> l = [].
Proof. destruct l; unfold zlen; cbn [List.length]; [reflexivity|lia]. Qed.

Lemma lupd_mid {A} (s : list A) x y t : lupd (s ++ x :: t) (List.length s) y = s ++ y :: t.
Proof. induction s; cbn [app lupd List.length]; [reflexivity|]. rewrite IHs. reflexivity. Qed.

Lemma aset_mid {A} (s : list A) x y t i : i = zlen s -> aset (s ++ x :: t) i y = Ok (s ++ y :: t).
Proof.
  intros ->. rewrite aset_ok.
  - unfold zlen. rewrite Nat2Z.id, lupd_mid. reflexivity.
  - split; [apply zlen_nonneg|]. rewrite zlen_app, zlen_cons. pose proof (zlen_nonneg t). lia.
Qed.

Lemma aget_mid {A} (s : list A) x t i : i = zlen s -> aget (s ++ x :: t) i = Ok x.
Proof.
  intros ->. unfold aget. destruct (Z.ltb_spec (zlen s) 0); [pose proof (zlen_nonneg s); lia|].
  unfold zlen. rewrite Nat2Z.id, nth_error_app2 by lia. rewrite Nat.sub_diag. reflexivity.
Qed.

(** A buffer of 200 bytes whose string is [s]; [T] is the text that was asked for so far. *)
Definition reflects (s T : str) : Prop :=
  cstr s /\ cstr T /\ firstn 198 s = firstn 198 T /\ zlen s <= 199 /\ (zlen T <= 198 -> s = T).

Inductive holds : cursor -> str -> Prop :=
| Holds s t dest ndest T :
    reflects s T -> zlen (s ++ NUL :: t) = 200 -> 0 <= dest <= zlen s -> dest <= 198 -> dest + ndest = 199 ->
    holds (s ++ NUL :: t, dest, ndest) T.
(** [dest] is at the end. *)
Inductive ends : cursor -> str -> Prop :=
| Ends s t ndest T :
    reflects s T -> zlen (s ++ NUL :: t) = 200 -> zlen s <= 198 -> zlen s + ndest = 199 ->
    ends (s ++ NUL :: t, zlen s, ndest) T.

Lemma ends_holds c T : ends c T -> holds c T.
Proof. intros [s t n T' R L E N]. constructor; auto. pose proof (zlen_nonneg s). lia. Qed.

Lemma skip_to_nul_ok fuel : forall s t i last,
  cstr s -> 0 <= i <= zlen s -> i <= last -> (zlen s - i < Z.of_nat fuel) ->
  skip_to_nul fuel (s ++ NUL :: t) i last = Ok (Z.min (zlen s) last).
Proof.
  induction fuel as [|fuel IH]; intros s t i last C I L F; [lia|].
  cbn [skip_to_nul]. destruct (Z.ltb_spec i last).
  - destruct (Z.eq_dec i (zlen s)) as [->|NE].
    + rewrite aget_mid by reflexivity. cbn [bind]. rewrite ceqb_refl. f_equal. lia.
    + destruct (aget_ok (s ++ NUL :: t) i) as [c [G N]].
      { rewrite zlen_app, zlen_cons. pose proof (zlen_nonneg t). lia. }
      rewrite G. cbn [bind]. rewrite nth_error_app1 in N by (unfold zlen in *; lia).
      destruct (ceqb_spec c NUL) as [->|_].
      * exfalso. apply C. eapply nth_error_In; eauto.
      * rewrite IH; auto; lia.
  - f_equal. lia.
Qed.


Lemma copy_chars_ok src : forall a rest last,
  zlen a <= last -> last <= zlen a + zlen rest ->
  let k := Nat.min (List.length src) (Z.to_nat (last - zlen a)) in
  copy_chars (a ++ rest) (zlen a) last src = Ok (a ++ firstn k src ++ skipn k rest, zlen a + Z.of_nat k).
Proof.
  induction src as [|c src IH]; intros a rest last L1 L2; cbn [copy_chars].
  - cbn [List.length Nat.min firstn skipn app]. rewrite Z.add_0_r. reflexivity.
  - destruct (Z.ltb_spec (zlen a) last).
    + destruct rest as [|x rest]; [change (zlen (@nil ascii)) with 0 in L2; lia|].
      rewrite aset_mid by reflexivity. cbn [bind].
      replace (zlen a + 1) with (zlen (a ++ [c])) by (rewrite zlen_app; reflexivity).
      change (a ++ c :: rest) with (a ++ [c] ++ rest). rewrite app_assoc.
      rewrite zlen_cons in L2.
      rewrite IH by (rewrite zlen_app; change (zlen [c]) with 1; lia).
      rewrite zlen_app. change (zlen [c]) with 1.
      replace (Z.to_nat (last - zlen a)) with (S (Z.to_nat (last - (zlen a + 1)))) by lia.
      cbn [List.length Nat.min firstn skipn app]. rewrite <- app_assoc. cbn [app]. do 2 f_equal. lia.
    + replace (Z.to_nat (last - zlen a)) with 0%nat by lia. rewrite Nat.min_0_r. cbn [firstn skipn app].
      rewrite Z.add_0_r. reflexivity.
Qed.

Lemma cstr_app a b : cstr (a ++ b) <-> cstr a /\ cstr b.
Proof. unfold cstr. rewrite in_app_iff. tauto. Qed.
Lemma cstr_firstn n s : cstr s -> cstr (firstn n s).
Proof. intros H K. apply H. rewrite <- (firstn_skipn n s), in_app_iff. auto. Qed.
Lemma cstr_skipn n s : cstr s -> cstr (skipn n s).
Proof. intros H K. apply H. rewrite <- (firstn_skipn n s), in_app_iff. auto. Qed.

Lemma reflects_cat s T src :
  reflects s T -> cstr src -> reflects (firstn 198 (s ++ src)) (T ++ src).
Proof.
  intros [C [CT [P [L E]]]] CS. split; [apply cstr_firstn, cstr_app; auto|]. split; [apply cstr_app; auto|].
  assert (Q : firstn 198 (s ++ src) = firstn 198 (T ++ src)).
  { destruct (Z.leb_spec (zlen T) 198) as [K|K].
    - rewrite (E K). reflexivity.
    - assert (K2 : (198 <= List.length T)%nat) by (unfold zlen in K; lia).
      assert (K3 : List.length (firstn 198 s) = 198%nat) by (rewrite P, firstn_length; lia).
      rewrite firstn_length in K3.
      rewrite !firstn_app. replace (198 - List.length T)%nat with 0%nat by lia.
      replace (198 - List.length s)%nat with 0%nat by lia. cbn [firstn]. rewrite !app_nil_r. exact P. }
  split; [rewrite firstn_firstn; exact Q|]. split.
  - unfold zlen. rewrite firstn_length. lia.
  - intro K. rewrite Q, firstn_all2; [reflexivity|unfold zlen in K; lia].
Qed.

Lemma reflects_name s T src k :
  reflects s T -> cstr src -> zlen s <= 198 -> k = Nat.min (List.length src) (199 - List.length s)%nat ->
  reflects (s ++ firstn k src) (T ++ src).
Proof.
  intros [C [CT [P [L E]]]] CS L2 ->. split; [apply cstr_app; split; [auto|apply cstr_firstn; auto]|]. split; [apply cstr_app; auto|].
  assert (L3 : (List.length s <= 198)%nat) by (unfold zlen in L2; lia).
  split; [|split].
  - destruct (Z.leb_spec (zlen T) 198) as [K|K].
    + rewrite <- (E K). rewrite !firstn_app, firstn_firstn. f_equal.
      destruct (le_lt_dec (List.length src) (198 - List.length s)) as [M|M].
      * rewrite !firstn_all2 by lia. reflexivity.
      * f_equal. lia.
    + assert (K2 : (198 <= List.length T)%nat) by (unfold zlen in K; lia).
      assert (K3 : List.length (firstn 198 s) = 198%nat) by (rewrite P, firstn_length; lia).
      rewrite firstn_length in K3.
      rewrite !firstn_app. replace (198 - List.length T)%nat with 0%nat by lia.
      replace (198 - List.length s)%nat with 0%nat by lia. cbn [firstn]. rewrite !app_nil_r. exact P.
  - unfold zlen. rewrite app_length, firstn_length. lia.
  - intro K. rewrite zlen_app in K. pose proof (zlen_nonneg src). rewrite (E ltac:(lia)). f_equal. apply firstn_all2.
    pose proof (E ltac:(lia)). subst. unfold zlen in *. lia.
Qed.

Lemma arg_cat_ok c T src : holds c T -> cstr src -> exists c', arg_cat c src = Ok c' /\ ends c' (T ++ src).
Proof.
  intros [s t dest ndest T' R L D D2 N] CS. unfold arg_cat.
  replace (dest + ndest - 1) with 198 by lia. replace (dest + ndest) with 199 by lia.
  assert (R' := R). destruct R' as [C [CT [P [SL E]]]].
  rewrite skip_to_nul_ok; auto; try lia.
  2:{ rewrite app_length. unfold zlen. cbn [List.length]. lia. }
  cbn [bind]. rewrite zlen_app, zlen_cons in L.
  set (d := Z.min (zlen s) 198).
  assert (Hd : zlen (firstn (Z.to_nat d) s) = d) by (rewrite zlen_firstn; unfold d; pose proof (zlen_nonneg s); lia).
  replace (s ++ NUL :: t) with (firstn (Z.to_nat d) s ++ (skipn (Z.to_nat d) s ++ NUL :: t)) by (rewrite app_assoc, firstn_skipn; reflexivity).
  assert (Hrest : zlen (skipn (Z.to_nat d) s ++ NUL :: t) = 200 - d).
  { rewrite zlen_app, zlen_cons, zlen_skipn by (unfold d; pose proof (zlen_nonneg s); lia). unfold d. lia. }
  assert (CC := copy_chars_ok src (firstn (Z.to_nat d) s) (skipn (Z.to_nat d) s ++ NUL :: t) 198). rewrite Hd in CC.
  rewrite CC by (unfold d in *; lia). cbn [bind]. clear CC.
  set (k := Nat.min (List.length src) (Z.to_nat (198 - d))).
  assert (F : firstn 198 (s ++ src) = firstn (Z.to_nat d) s ++ firstn k src).
  { rewrite firstn_app. unfold d, k. unfold zlen.
    destruct (le_lt_dec (List.length s) 198) as [M|M].
    - rewrite (firstn_all2 s) by lia. rewrite (firstn_all2 s) by lia. f_equal.
      destruct (le_lt_dec (List.length src) (198 - List.length s)).
      + rewrite !firstn_all2 by (unfold d, zlen; lia). reflexivity.
      + f_equal. unfold d, zlen. lia.
    - replace (198 - List.length s)%nat with 0%nat by lia.
      replace (Z.to_nat (Z.min (Z.of_nat (List.length s)) 198)) with 198%nat by lia.
      replace (Nat.min (List.length src) _) with 0%nat; [reflexivity|]. unfold d, zlen. lia. }
  set (rest := skipn (Z.to_nat d) s ++ NUL :: t) in *.
  assert (RK : zlen (skipn k rest) = 200 - d - Z.of_nat k).
  { rewrite <- (Nat2Z.id k) at 1. rewrite zlen_skipn by lia. rewrite Hrest. unfold k, d in *. lia. }
  destruct (skipn k rest) as [|y r] eqn:SK.
  { change (zlen (@nil ascii)) with 0 in RK. unfold k, d in *. lia. }
  rewrite app_assoc. rewrite <- F.
  assert (ZF : zlen (firstn 198 (s ++ src)) = d + Z.of_nat k).
  { rewrite F, zlen_app, Hd. unfold zlen. rewrite firstn_length. unfold k. lia. }
  rewrite aset_mid by (rewrite ZF; reflexivity). cbn [bind].
  eexists. split; [reflexivity|].
  replace (d + Z.of_nat k) with (zlen (firstn 198 (s ++ src))).
  constructor.
  - apply reflects_cat; auto.
  - rewrite zlen_app, zlen_cons, ZF. rewrite zlen_cons in RK. lia.
  - unfold zlen. rewrite firstn_length. lia.
  - lia.
Qed.

Lemma write_all_ok src : forall a rest, zlen src <= zlen rest ->
  write_all (a ++ rest) (zlen a) src = Ok (a ++ src ++ skipn (List.length src) rest).
Proof.
  induction src as [|c src IH]; intros a rest L; cbn [write_all].
  - reflexivity.
  - destruct rest as [|x rest]; [rewrite zlen_cons in L; change (zlen (@nil ascii)) with 0 in L; pose proof (zlen_nonneg src); lia|].
    rewrite aset_mid by reflexivity. cbn [bind].
    replace (zlen a + 1) with (zlen (a ++ [c])) by (rewrite zlen_app; reflexivity).
    change (a ++ c :: rest) with (a ++ [c] ++ rest). rewrite app_assoc.
    rewrite !zlen_cons in L. rewrite IH by lia. rewrite <- app_assoc. reflexivity.
Qed.

Lemma cspn_le s : (cspn s <= List.length s)%nat.
Proof. induction s; cbn [cspn List.length]; [lia|]. destruct (ceqb a ","); lia. Qed.

Lemma cat_name_ok c T lo : ends c T -> cstr lo ->
  exists c', cat_name c lo = Ok c' /\ holds c' (T ++ firstn (cspn lo) lo).
Proof.
  intros [s t ndest T' R L D N] CL. unfold cat_name, strncat.
  assert (R' := R). destruct R' as [C [CT [P [SL E]]]]. pose proof (zlen_nonneg s) as S0.
  rewrite zlen_app, zlen_cons in L. pose proof (zlen_nonneg t) as T0.
  destruct (Z.ltb_spec (zlen s) 0); [lia|]. destruct (Z.ltb_spec (zlen (s ++ NUL :: t)) (zlen s)).
  { rewrite zlen_app, zlen_cons in *. lia. }
  cbn [orb]. rewrite skipn_app. unfold zlen at 1 2. rewrite Nat2Z.id, skipn_all, Nat.sub_diag. cbn [skipn app scan0].
  rewrite ceqb_refl. change (zlen (@nil ascii)) with 0. rewrite Z.add_0_r.
  set (k := if Z.of_nat (cspn lo) <? ndest then cspn lo else Z.to_nat ndest).
  assert (K : k = Nat.min (List.length (firstn (cspn lo) lo)) (199 - List.length s)%nat).
  { rewrite firstn_length. pose proof (cspn_le lo). unfold k. unfold zlen in *. destruct (Z.ltb_spec (Z.of_nat (cspn lo)) ndest); lia. }
  assert (FK : firstn k lo = firstn k (firstn (cspn lo) lo)).
  { rewrite firstn_firstn. f_equal. rewrite K, firstn_length. lia. }
  assert (LK : List.length (firstn k lo) = k).
  { rewrite firstn_length. pose proof (cspn_le lo). rewrite K, firstn_length. lia. }
  rewrite write_all_ok.
  2:{ rewrite zlen_app, (zlen_cons NUL t). change (zlen [NUL]) with 1. unfold zlen at 1. rewrite LK. unfold zlen in *. lia. }
  cbn [bind]. eexists. split; [reflexivity|].
  rewrite app_length, LK. cbn [List.length]. rewrite <- app_assoc, (app_assoc s). cbn [app].
  constructor.
  - rewrite FK. apply reflects_name; auto. apply cstr_firstn. auto.
  - assert (Z.of_nat k <= 199 - zlen s) by (unfold zlen in *; lia).
    rewrite zlen_app, zlen_cons, zlen_app. unfold zlen at 2. rewrite LK.
    rewrite <- (Nat2Z.id (k + 1)), zlen_skipn by lia. rewrite zlen_cons. lia.
  - rewrite zlen_app. pose proof (zlen_nonneg (firstn k lo)). lia.
  - lia.
  - lia.
Qed.

Lemma lit_cstr s : existsb (ceqb NUL) (lit s) = false -> cstr (lit s).
Proof.
  intros H K. assert (X : existsb (ceqb NUL) (lit s) = true); [|congruence].
  apply existsb_exists. exists NUL. split; [exact K|apply ceqb_refl].
Qed.
Ltac clit := apply lit_cstr; reflexivity.

Lemma cat_datatype_ok c T d o : holds c T -> cstr d ->
  exists c', cat_datatype c d o = Ok c' /\ ends c' (T ++ value_text d o).
Proof.
  intros H C. unfold cat_datatype, value_text. destruct o.
  - destruct (arg_cat_ok c T (lit "[") H ltac:(clit)) as [c1 [E1 H1]]. rewrite E1. cbn [bind].
    destruct (arg_cat_ok c1 _ d (ends_holds _ _ H1) C) as [c2 [E2 H2]]. rewrite E2. cbn [bind].
    destruct (arg_cat_ok c2 _ (lit "]") (ends_holds _ _ H2) ltac:(clit)) as [c3 [E3 H3]]. exists c3. split; [exact E3|].
    rewrite <- !app_assoc in H3. exact H3.
  - destruct (arg_cat_ok c T d H C) as [c1 [E1 H1]]. eauto.
Qed.

Lemma names_hd lo : hd [] (names lo) = firstn (cspn lo) lo.
Proof.
  induction lo as [|c lo IH]; cbn [names cspn]; [reflexivity|].
  destruct (ceqb c ","); [reflexivity|]. destruct (names lo); cbn [hd firstn] in *; congruence.
Qed.
Lemma names_nonempty lo : names lo <> [].
Proof. destruct lo; cbn [names]; [discriminate|]. destruct (ceqb a ","); [discriminate|]. destruct (names lo); discriminate. Qed.
Lemma names_split lo :
  names lo = match skipn (cspn lo) lo with
             | [] => [firstn (cspn lo) lo]
             | _ :: lo' => firstn (cspn lo) lo :: names lo'
             end.
Proof.
  induction lo as [|c lo IH]; cbn [names cspn]; [reflexivity|].
  destruct (ceqb c ","); [reflexivity|]. cbn [skipn firstn]. rewrite IH. destruct (skipn (cspn lo) lo); reflexivity.
Qed.

(** The buffer with which all but one of the callers start. *)
Lemma start_holds : holds (syntax0, 0, 199) [].
Proof.
  change syntax0 with ([] ++ NUL :: repeat NUL 199). constructor; try reflexivity; try (cbn; lia).
  split; [intros []|]. split; [intros []|]. split; [reflexivity|]. split; [cbn; lia|reflexivity].
Qed.
Lemma start_gnu_holds : holds (repeat " "%char 4 ++ repeat NUL 196, 0, 199) (lit "    ").
Proof.
  change (repeat " "%char 4 ++ repeat NUL 196) with (lit "    " ++ NUL :: repeat NUL 195).
  constructor; try reflexivity; try (cbn; lia).
  split; [clit|]. split; [clit|]. split; [reflexivity|]. split; [cbn; lia|reflexivity].
Qed.

Lemma holds_text c T buf d n : holds c T -> c = (buf, d, n) -> exists out, text_of buf = Ok out /\ shows T out /\ cstr out.
Proof.
  intros [s t dest ndest T' [C [CT [P [SL E]]]] L D D2 N] X. injection X as <- <- <-.
  unfold text_of. rewrite scan0_app by exact C. exists s. split; [reflexivity|]. split; [|exact C]. repeat split; auto.
Qed.

Lemma brief_ok buf T so lo dt o : holds (buf, 0, 199) T -> ocstr so -> ocstr lo -> ocstr dt ->
  exists buf' out, arg_cat_option buf 199 so lo dt o = Ok buf' /\ text_of buf' = Ok out /\ shows (T ++ brief so lo dt o) out /\ cstr out.
Proof.
  intros H CS CL CD. unfold arg_cat_option, brief.
  assert (FIN : forall c T, holds c T -> exists buf' out, ('(buf, _, _) <- Ok c ;; Ok buf) = Ok buf' /\ text_of buf' = Ok out /\ shows T out /\ cstr out).
  { intros [[b d] n] U HU. destruct (holds_text _ _ b d n HU eq_refl) as [out [E1 E2]]. exists b, out. split; [reflexivity|]. tauto. }
  destruct so as [s|]; [|destruct lo as [l|]].
  - destruct (arg_cat_ok _ T (lit "-" ++ firstn 1 s) H) as [c1 [E1 H1]].
    { apply cstr_app. split; [clit|]. apply cstr_firstn. exact CS. }
    rewrite E1. cbn [bind]. destruct dt as [d|].
    + destruct (arg_cat_ok c1 _ (lit " ") (ends_holds _ _ H1) ltac:(clit)) as [c2 [E2 H2]]. rewrite E2. cbn [bind].
      destruct (cat_datatype_ok c2 _ d o (ends_holds _ _ H2) CD) as [c3 [E3 H3]]. rewrite E3.
      apply ends_holds in H3. rewrite <- !app_assoc in H3. apply FIN. exact H3.
    + apply ends_holds in H1. rewrite app_nil_r. apply FIN. exact H1.
  - destruct (arg_cat_ok _ T (lit "--") H ltac:(clit)) as [c1 [E1 H1]]. rewrite E1. cbn [bind].
    destruct (cat_name_ok c1 _ l H1 CL) as [c2 [E2 H2]]. rewrite E2. cbn [bind]. rewrite names_hd. destruct dt as [d|].
    + destruct (arg_cat_ok c2 _ (lit "=") H2 ltac:(clit)) as [c3 [E3 H3]]. rewrite E3. cbn [bind].
      destruct (cat_datatype_ok c3 _ d o (ends_holds _ _ H3) CD) as [c4 [E4 H4]]. rewrite E4.
      apply ends_holds in H4. rewrite <- !app_assoc in H4. apply FIN. exact H4.
    + rewrite app_nil_r. rewrite <- app_assoc in H2. apply FIN. exact H2.
  - destruct dt as [d|].
    + destruct (cat_datatype_ok _ _ d o H CD) as [c3 [E3 H3]]. rewrite E3. apply FIN, ends_holds. exact H3.
    + rewrite app_nil_r. apply FIN. exact H.
Qed.

Lemma cat_shorts_ok sep so : forall c T, cstr sep -> cstr so -> holds c T ->
  exists c', cat_shorts c so sep = Ok c' /\ holds c' (T ++ join sep (map short_tag so)).
Proof.
  intros c T CS. revert c T. induction so as [|x so IH]; intros c T C H; cbn [cat_shorts map join].
  - exists c. rewrite app_nil_r. auto.
  - assert (CX : cstr [x]) by (intro K; apply C; destruct K as [K|[]]; left; exact K).
    assert (CR : cstr so) by (intro K; apply C; right; exact K).
    destruct (arg_cat_ok c T ["-"%char; x] H) as [c1 [E1 H1]].
    { change ["-"%char; x] with (lit "-" ++ [x]). apply cstr_app. split; [clit|exact CX]. }
    rewrite E1. cbn [bind]. destruct so as [|y so].
    + cbn [bind cat_shorts map]. exists c1. split; [reflexivity|]. apply ends_holds. exact H1.
    + destruct (arg_cat_ok c1 _ sep (ends_holds _ _ H1) CS) as [c2 [E2 H2]]. rewrite E2. cbn [bind].
      destruct (IH c2 _ CR (ends_holds _ _ H2)) as [c3 [E3 H3]]. exists c3. split; [exact E3|].
      rewrite <- !app_assoc in H3. exact H3.
Qed.

Lemma long_tags_split lo :
  lo <> [] -> forall sep,
  join sep (long_tags lo) =
  lit "--" ++ firstn (cspn lo) lo ++ match skipn (cspn lo) lo with [] => [] | _ :: lo' => sep ++ join sep (long_tags lo') end.
Proof.
  intros NE sep. unfold long_tags. rewrite (names_split lo). destruct (skipn (cspn lo) lo) as [|x lo'] eqn:S.
  - cbn [removelast map app last join]. rewrite app_nil_r. unfold last_tag.
    destruct (firstn (cspn lo) lo) eqn:F; [|reflexivity].
    exfalso. apply NE. rewrite <- (firstn_skipn (cspn lo) lo), F, S. reflexivity.
  - pose proof (names_nonempty lo') as NN. destruct (names lo') as [|n l]; [exfalso; apply NN; reflexivity|]. set (L := n :: l) in *.
    set (f := firstn (cspn lo) lo).
    change (removelast (f :: L)) with (f :: removelast L). change (last (f :: L) []) with (last L []).
    change (map long_tag (f :: removelast L)) with (long_tag f :: map long_tag (removelast L)).
    cbn [app]. assert (NR : map long_tag (removelast L) ++ [last_tag (last L [])] <> []).
    { intro R. apply app_eq_nil in R as [_ R]. discriminate. }
    destruct (map long_tag (removelast L) ++ [last_tag (last L [])]) as [|y r]; [exfalso; apply NR; reflexivity|]. reflexivity.
Qed.

Lemma cat_longs_ok sep : forall fuel lo c T, cstr sep -> cstr lo -> holds c T -> (List.length lo < fuel)%nat ->
  exists c', cat_longs fuel c lo sep = Ok c' /\ holds c' (T ++ join sep (long_tags lo)).
Proof.
  induction fuel as [|fuel IH]; intros lo c T CS C H F; [lia|].
  destruct lo as [|x lo].
  - exists c. split; [reflexivity|]. cbn [long_tags names removelast last map app last_tag join]. rewrite app_nil_r. exact H.
  - set (l := x :: lo) in *. rewrite long_tags_split by (unfold l; congruence).
    unfold cat_longs. fold cat_longs. unfold l at 1. cbv iota.
    destruct (arg_cat_ok c T (lit "--") H ltac:(clit)) as [c1 [E1 H1]]. rewrite E1. cbn [bind].
    destruct (cat_name_ok c1 _ l H1 C) as [c2 [E2 H2]]. rewrite E2. cbn [bind].
    destruct (skipn (cspn l) l) as [|y lo'] eqn:S.
    + exists c2. split; [reflexivity|]. rewrite app_nil_r. rewrite <- app_assoc in H2. exact H2.
    + destruct (arg_cat_ok c2 _ sep H2 CS) as [c3 [E3 H3]]. rewrite E3. cbn [bind].
      apply ends_holds in H3. assert (X : cstr lo' /\ (List.length lo' < fuel)%nat).
      { split.
        - intro K. apply (cstr_skipn (cspn l) l C). rewrite S. right. exact K.
        - assert (Q : (List.length (skipn (cspn l) l) <= List.length l)%nat) by (rewrite skipn_length; lia).
          rewrite S in Q. cbn [List.length] in Q. lia. }
      destruct X as [X1 X2]. destruct (IH lo' c3 _ CS X1 H3 X2) as [c4 [E4 H4]].
      exists c4. split; [exact E4|]. rewrite <- !app_assoc in H4. exact H4.
Qed.

Lemma verbose_ok buf T so lo dt o sep : holds (buf, 0, 199) T -> ocstr so -> ocstr lo -> ocstr dt -> cstr sep ->
  exists buf' out, arg_cat_optionv buf 199 so lo dt o sep = Ok buf' /\ text_of buf' = Ok out /\ shows (T ++ verbose so lo dt o sep) out /\ cstr out.
Proof.
  intros H CS CL CD CP. unfold arg_cat_optionv, verbose.
  assert (A1 : exists c1, match so with Some s => cat_shorts (buf, 0, 199) s sep | None => Ok (buf, 0, 199) end = Ok c1
     /\ holds c1 (T ++ join sep (shorts so))).
  { destruct so as [s|].
    - apply cat_shorts_ok; auto.
    - exists (buf, 0, 199). split; [reflexivity|]. cbn [shorts join]. rewrite app_nil_r. exact H. }
  destruct A1 as [c1 [E1 H1]]. rewrite E1. cbn [bind]. clear E1 H.
  assert (A2 : exists c2, match so with Some _ => match lo with Some _ => arg_cat c1 sep | None => Ok c1 end | None => Ok c1 end = Ok c2
     /\ holds c2 ((T ++ join sep (shorts so)) ++ (if isome so && isome lo then sep else []))).
  { destruct so as [s|], lo as [l|]; cbn [isome andb]; try (exists c1; split; [reflexivity|]; rewrite app_nil_r; exact H1).
    destruct (arg_cat_ok c1 _ sep H1 CP) as [c2 [E2 H2]]. exists c2. split; [exact E2|]. apply ends_holds. exact H2. }
  destruct A2 as [c2 [E2 H2]]. rewrite E2. cbn [bind]. clear E2 H1.
  assert (A3 : exists c3, match lo with Some l => cat_longs (S (List.length l)) c2 l sep | None => Ok c2 end = Ok c3
     /\ holds c3 (((T ++ join sep (shorts so)) ++ (if isome so && isome lo then sep else [])) ++ join sep (longs lo))).
  { destruct lo as [l|].
    - apply cat_longs_ok; auto.
    - exists c2. split; [reflexivity|]. cbn [longs join]. rewrite app_nil_r. exact H2. }
  destruct A3 as [c3 [E3 H3]]. rewrite E3. cbn [bind]. clear E3 H2.
  assert (FIN : forall c T, holds c T -> exists buf' out, ('(buf, _, _) <- Ok c ;; Ok buf) = Ok buf' /\ text_of buf' = Ok out /\ shows T out /\ cstr out).
  { intros [[b d] n] U HU. destruct (holds_text _ _ b d n HU eq_refl) as [out [F1 F2]]. exists b, out. split; [reflexivity|]. tauto. }
  rewrite <- !app_assoc in H3. destruct dt as [d|].
  - assert (A4 : exists c4, match lo with Some _ => arg_cat c3 (lit "=") | None => match so with Some _ => arg_cat c3 (lit " ") | None => Ok c3 end end = Ok c4
       /\ holds c4 ((T ++ join sep (shorts so) ++ (if isome so && isome lo then sep else []) ++ join sep (longs lo)) ++
            (if isome lo then lit "=" else if isome so then lit " " else []))).
    { destruct lo as [l|]; [|destruct so as [s|]]; cbn [isome].
      - destruct (arg_cat_ok c3 _ (lit "=") H3 ltac:(clit)) as [c4 [E4 H4]]. exists c4. split; [exact E4|]. apply ends_holds. exact H4.
      - destruct (arg_cat_ok c3 _ (lit " ") H3 ltac:(clit)) as [c4 [E4 H4]]. exists c4. split; [exact E4|]. apply ends_holds. exact H4.
      - exists c3. split; [reflexivity|]. rewrite app_nil_r. exact H3. }
    destruct A4 as [c4 [E4 H4]]. rewrite E4. cbn [bind].
    destruct (cat_datatype_ok c4 _ d o H4 CD) as [c5 [E5 H5]]. rewrite E5.
    apply ends_holds in H5. rewrite <- !app_assoc in H5. apply FIN. exact H5.
  - rewrite app_nil_r. apply FIN. exact H3.
Qed.
