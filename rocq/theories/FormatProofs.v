(** FormatProofs: the loops of arg_print_formatted_ds. *)
From Coq Require Import ZArith String List Ascii Bool Lia Arith.
From Verif Require Import Base DstrSpec PrintModel PrintSpec PrintProofs PrintFacts FormatSpec.
Import ListNotations.
Open Scope Z_scope.

Definition at_ (r : str) (i : nat) : ascii := nth i r NUL.

Lemma u32_id z : 0 <= z < 4294967296 -> u32 z = z.
Proof. apply Z.mod_small. Qed.

Lemma text_at_ok pre r i : (i <= List.length r)%nat -> text_at (pre ++ r) (zlen pre + Z.of_nat i) = Ok (at_ r i).
Proof.
  intro L. unfold text_at, aget, at_.
  replace (zlen pre + Z.of_nat i <? 0) with false by (symmetry; apply Z.ltb_ge; pose proof (zlen_nonneg pre); lia).
  replace (Z.to_nat (zlen pre + Z.of_nat i)) with (List.length pre + i)%nat by (unfold zlen; lia).
  rewrite <- app_assoc, nth_error_app2 by lia. replace (List.length pre + i - List.length pre)%nat with i by lia.
  destruct (Nat.eq_dec i (List.length r)) as [->|N].
  - rewrite nth_error_app2 by lia. rewrite Nat.sub_diag. rewrite nth_overflow by lia. reflexivity.
  - rewrite nth_error_app1 by lia. rewrite (nth_error_nth' r NUL) by lia. reflexivity.
Qed.
Lemma text_at_start pre r : text_at (pre ++ r) (zlen pre) = Ok (hd0 r).
Proof. replace (zlen pre) with (zlen pre + Z.of_nat 0) by lia. rewrite (text_at_ok pre r 0) by lia. destruct r; reflexivity. Qed.

Definition blank (c : ascii) : bool := isspaceb c && negb (ceqb c NL).

Lemma eat_ok b : forall fuel pre r, (forall c, In c b -> blank c = true) -> blank (hd0 r) = false ->
  (List.length b < fuel)%nat -> zlen (pre ++ b ++ r) < 4294967296 ->
  eat_leading fuel (pre ++ b ++ r) (zlen pre) = Ok (zlen (pre ++ b)).
Proof.
  induction b as [|c b IH]; intros fuel pre r B R F L; destruct fuel as [|fuel]; try (cbn in F; lia); cbn [eat_leading].
  - cbn [app]. rewrite text_at_start. cbn [bind]. unfold blank in R. rewrite R, app_nil_r. reflexivity.
  - change (pre ++ (c :: b) ++ r) with (pre ++ c :: (b ++ r)). rewrite text_at_start. cbn [bind hd0].
    assert (X := B c (or_introl eq_refl)). unfold blank in X. rewrite X.
    change (pre ++ (c :: b) ++ r) with (pre ++ [c] ++ (b ++ r)) in L. rewrite !zlen_app in L. change (zlen [c]) with 1 in L.
    pose proof (zlen_nonneg pre). pose proof (zlen_nonneg b). pose proof (zlen_nonneg r).
    rewrite u32_id by lia. replace (zlen pre + 1) with (zlen (pre ++ [c])) by (rewrite zlen_app; reflexivity).
    change (pre ++ c :: b ++ r) with (pre ++ [c] ++ (b ++ r)). rewrite (app_assoc pre [c]).
    rewrite IH.
    + rewrite <- app_assoc. reflexivity.
    + intros d D. apply B. right. exact D.
    + exact R.
    + cbn in F. lia.
    + rewrite !zlen_app. change (zlen [c]) with 1. lia.
Qed.

Lemma split_blanks (s : str) : exists b r, s = b ++ r /\ (forall c, In c b -> blank c = true) /\ blank (hd0 r) = false.
Proof.
  induction s as [|c s IH].
  - exists [], []. split; [reflexivity|]. split; [intros c []|reflexivity].
  - destruct (blank c) eqn:B.
    + destruct IH as [b [r [E [F R]]]]. exists (c :: b), r. split; [cbn; rewrite E; reflexivity|]. split; [|exact R].
      intros d [<-|D]; [exact B|apply F; exact D].
    + exists [], (c :: s). split; [reflexivity|]. split; [intros d []|exact B].
Qed.

Lemma back_to_space_ok pre r n : forall fuel, (n < fuel)%nat -> (n <= List.length r)%nat ->
  exists k, back_to_space fuel (pre ++ r) (zlen pre) (zlen pre + Z.of_nat n) = Ok (zlen pre + Z.of_nat k) /\ (k <= n)%nat /\
    (forall i, (k < i <= n)%nat -> isspaceb (at_ r i) = false) /\ (k = O \/ isspaceb (at_ r k) = true).
Proof.
  induction n as [|n IH]; intros fuel F L; (destruct fuel as [|fuel]; [lia|]); cbn [back_to_space].
  - replace (zlen pre <? zlen pre + Z.of_nat 0) with false by (symmetry; apply Z.ltb_ge; lia). exists O.
    split; [reflexivity|]. split; [lia|]. split; [intros i I; lia|auto].
  - replace (zlen pre <? zlen pre + Z.of_nat (S n)) with true by (symmetry; apply Z.ltb_lt; lia).
    rewrite text_at_ok by exact L. cbn [bind]. destruct (isspaceb (at_ r (S n))) eqn:W; cbn [negb].
    + exists (S n). split; [reflexivity|]. split; [lia|]. split; [intros i I; lia|auto].
    + replace (zlen pre + Z.of_nat (S n) - 1) with (zlen pre + Z.of_nat n) by lia.
      destruct (IH fuel ltac:(lia) ltac:(lia)) as [k [E [K [A B]]]]. exists k. split; [exact E|]. split; [lia|]. split; [|exact B].
      intros i I. destruct (Nat.eq_dec i (S n)) as [->|N]; [exact W|]. apply A. lia.
Qed.

Lemma back_over_ok pre r k : forall fuel, (k < fuel)%nat -> (k <= List.length r)%nat -> isspaceb (hd0 r) = false -> hd0 r <> NL ->
  exists j, back_over_spaces fuel (pre ++ r) (zlen pre) (zlen pre + Z.of_nat k) = Ok (zlen pre + Z.of_nat j) /\ (j <= k)%nat /\
    (forall i, (j < i <= k)%nat -> isspaceb (at_ r i) = true) /\ isspaceb (at_ r j) = false.
Proof.
  intros fuel F L R N. revert fuel F L.
  induction k as [|k IH]; intros fuel F L; (destruct fuel as [|fuel]; [lia|]); cbn [back_over_spaces].
  - replace (zlen pre <? zlen pre + Z.of_nat 0) with false by (symmetry; apply Z.ltb_ge; lia). exists O.
    split; [reflexivity|]. split; [lia|]. split; [intros i I; lia|]. destruct r; [reflexivity|exact R].
  - replace (zlen pre <? zlen pre + Z.of_nat (S k)) with true by (symmetry; apply Z.ltb_lt; lia).
    rewrite text_at_ok by exact L. cbn [bind]. rewrite text_at_start. cbn [bind].
    replace (ceqb (hd0 r) NL) with false by (symmetry; apply ceqb_neq; exact N). cbn [negb]. rewrite andb_true_r.
    destruct (isspaceb (at_ r (S k))) eqn:W.
    + replace (zlen pre + Z.of_nat (S k) - 1) with (zlen pre + Z.of_nat k) by lia.
      destruct (IH fuel ltac:(lia) ltac:(lia)) as [j [E [K [A B]]]]. exists j. split; [exact E|]. split; [lia|]. split; [|exact B].
      intros i I. destruct (Nat.eq_dec i (S k)) as [->|M]; [exact W|]. apply A. lia.
    + exists (S k). split; [reflexivity|]. split; [lia|]. split; [intros i I; lia|exact W].
Qed.
Lemma back_over_newline pre r k fuel : (0 < fuel)%nat -> (k <= List.length r)%nat -> hd0 r = NL ->
  back_over_spaces fuel (pre ++ r) (zlen pre) (zlen pre + Z.of_nat k) = Ok (zlen pre + Z.of_nat k).
Proof.
  intros F L N. destruct fuel as [|fuel]; [lia|]. cbn [back_over_spaces].
  destruct (Z.ltb_spec (zlen pre) (zlen pre + Z.of_nat k)); [|reflexivity].
  rewrite text_at_ok by exact L. cbn [bind]. rewrite text_at_start. cbn [bind]. rewrite N, ceqb_refl. cbn [negb]. rewrite andb_false_r. reflexivity.
Qed.

(** Printing p, which has no newline: up to the end, or up to a newline. *)
Lemma output_all p : forall fuel pre q, ~ In NL p -> (List.length p < fuel)%nat -> zlen (pre ++ p ++ q) < 4294967296 ->
  output_line fuel (pre ++ p ++ q) (zlen pre) (zlen (pre ++ p)) = Ok (p, zlen (pre ++ p)).
Proof.
  induction p as [|c p IH]; intros fuel pre q N F L; (destruct fuel as [|fuel]; [cbn in F; lia|]); cbn [output_line].
  - rewrite app_nil_r. rewrite Z.ltb_irrefl. reflexivity.
  - rewrite zlen_app, zlen_cons. pose proof (zlen_nonneg p). pose proof (zlen_nonneg pre). pose proof (zlen_nonneg q).
    replace (zlen pre <? zlen pre + (zlen p + 1)) with true by (symmetry; apply Z.ltb_lt; lia).
    change (pre ++ (c :: p) ++ q) with (pre ++ c :: p ++ q) in *. rewrite text_at_start. cbn [bind hd0].
    replace (ceqb c NL) with false by (symmetry; apply ceqb_neq; intros ->; apply N; left; reflexivity).
    rewrite zlen_app, zlen_cons, zlen_app in L. rewrite u32_id by lia.
    replace (zlen pre + 1) with (zlen (pre ++ [c])) by (rewrite zlen_app; reflexivity).
    replace (zlen pre + (zlen p + 1)) with (zlen ((pre ++ [c]) ++ p)) by (rewrite !zlen_app; change (zlen [c]) with 1; lia).
    change (pre ++ c :: p ++ q) with (pre ++ [c] ++ (p ++ q)). rewrite (app_assoc pre [c]). rewrite IH; [reflexivity|..].
    + intro K. apply N. right. exact K.
    + cbn in F. lia.
    + rewrite !zlen_app. change (zlen [c]) with 1. lia.
Qed.
Lemma output_newline p : forall fuel pre q e, ~ In NL p -> (List.length p < fuel)%nat -> zlen (pre ++ p ++ NL :: q) < 4294967296 ->
  zlen (pre ++ p) < e ->
  output_line fuel (pre ++ p ++ NL :: q) (zlen pre) e = Ok (p, zlen (pre ++ p ++ [NL])).
Proof.
  induction p as [|c p IH]; intros fuel pre q e N F L E; (destruct fuel as [|fuel]; [cbn in F; lia|]); cbn [output_line].
  - rewrite app_nil_r in E. replace (zlen pre <? e) with true by (symmetry; apply Z.ltb_lt; lia).
    cbn [app] in *. rewrite text_at_start. cbn [bind hd0]. rewrite ceqb_refl. rewrite zlen_app, zlen_cons in L.
    pose proof (zlen_nonneg q). pose proof (zlen_nonneg pre). rewrite u32_id by lia. rewrite zlen_app. reflexivity.
  - rewrite zlen_app, zlen_cons in E. pose proof (zlen_nonneg p). pose proof (zlen_nonneg pre). pose proof (zlen_nonneg q).
    replace (zlen pre <? e) with true by (symmetry; apply Z.ltb_lt; lia).
    change (pre ++ (c :: p) ++ NL :: q) with (pre ++ c :: p ++ NL :: q) in *. rewrite text_at_start. cbn [bind hd0].
    replace (ceqb c NL) with false by (symmetry; apply ceqb_neq; intros ->; apply N; left; reflexivity).
    rewrite zlen_app, zlen_cons, zlen_app, (zlen_cons NL q) in L. rewrite u32_id by lia.
    replace (zlen pre + 1) with (zlen (pre ++ [c])) by (rewrite zlen_app; reflexivity).
    change (pre ++ c :: p ++ NL :: q) with (pre ++ [c] ++ (p ++ NL :: q)). rewrite (app_assoc pre [c]). rewrite IH.
    + cbn [bind]. f_equal. f_equal. rewrite <- app_assoc. reflexivity.
    + intro K. apply N. right. exact K.
    + cbn in F. lia.
    + rewrite !zlen_app, (zlen_cons NL q). change (zlen [c]) with 1. lia.
    + rewrite !zlen_app. change (zlen [c]) with 1. lia.
Qed.

(** ** Words *)

Lemma at_cons c (s : str) i : at_ (c :: s) (S i) = at_ s i.
Proof. reflexivity. Qed.

Lemma run_ge f n : forall s, (n <= List.length s)%nat -> (forall i, (i < n)%nat -> f (at_ s i) = true) -> (n <= run f s)%nat.
Proof.
  induction n as [|n IH]; intros s L A; [lia|]. destruct s as [|c s]; [cbn in L; lia|]. cbn [run].
  assert (X : f c = true) by (apply (A O); lia). rewrite X. apply le_n_S. apply IH; [cbn in L; lia|]. intros i I. apply (A (S i)). lia.
Qed.
Lemma run_le f n : forall s, f (at_ s n) = false -> (run f s <= n)%nat.
Proof.
  induction n as [|n IH]; intros s A; (destruct s as [|c s]; [cbn; lia|]); cbn [run].
  - unfold at_ in A. cbn in A. rewrite A. lia.
  - destruct (f c); [|lia]. apply le_n_S. apply IH. exact A.
Qed.

Lemma lead_white c s : isspaceb c = true -> lead (c :: s) = lead s + 1.
Proof. intro W. unfold lead. cbn [run]. rewrite W. cbn [skipn]. lia. Qed.
Lemma lead_black c s : isspaceb c = false -> lead (c :: s) = Z.of_nat (run black (c :: s)).
Proof. intro W. unfold lead. cbn [run]. rewrite W. cbn [skipn run]. lia. Qed.

Lemma lead_ge m : forall s n, (m <= n <= List.length s)%nat -> (forall i, (i < m)%nat -> isspaceb (at_ s i) = true) ->
  (forall i, (m <= i < n)%nat -> isspaceb (at_ s i) = false) -> Z.of_nat n <= lead s.
Proof.
  induction m as [|m IH]; intros s n L W B.
  - destruct n as [|n]; [unfold lead; lia|]. destruct s as [|c s]; [cbn in L; lia|].
    rewrite lead_black by (apply (B O); lia). apply inj_le. apply run_ge; [lia|].
    intros i I. unfold black. rewrite B by lia. reflexivity.
  - destruct s as [|c s]; [cbn in L; lia|]. destruct n as [|n]; [lia|]. rewrite lead_white by (apply (W O); lia).
    assert (X : Z.of_nat n <= lead s); [|lia]. apply IH.
    + cbn in L. lia.
    + intros i I. apply (W (S i)). lia.
    + intros i I. apply (B (S i)). lia.
Qed.
Lemma lead_le : forall s i j, (i < j < List.length s)%nat -> isspaceb (at_ s i) = false -> isspaceb (at_ s j) = true -> lead s <= Z.of_nat j.
Proof.
  induction s as [|c s IH]; intros i j L B W; [cbn in L; lia|]. destruct (isspaceb c) eqn:E.
  - rewrite lead_white by exact E. destruct i as [|i]; [unfold at_ in B; cbn in B; congruence|]. destruct j as [|j]; [lia|].
    assert (X : lead s <= Z.of_nat j); [|lia]. apply (IH i j); [cbn in L; lia|exact B|exact W].
  - rewrite lead_black by exact E. apply inj_le. apply run_le. unfold black. rewrite W. reflexivity.
Qed.

(** ** One line *)

Lemma split_nl (s : str) : ~ In NL s \/ exists p q, s = p ++ NL :: q /\ ~ In NL p.
Proof.
  induction s as [|c s IH]; [left; intros []|]. destruct (ceqb_spec c NL) as [->|N].
  - right. exists [], s. split; [reflexivity|intros []].
  - destruct IH as [IH|[p [q [-> IH]]]].
    + left. intros [K|K]; [apply N; exact K|apply IH; exact K].
    + right. exists (c :: p), q. split; [reflexivity|]. intros [K|K]; [apply N; exact K|apply IH; exact K].
Qed.

Definition line_end_of (text : str) (colwidth line_start line_end : Z) : res Z :=
  let steps := S (S (List.length text)) in
  if colwidth <? u32 (line_end - line_start) then
    let line_end := u32 (line_start + colwidth) in
    line_end <- back_to_space steps text line_start line_end ;;
    if line_end =? line_start then Ok (u32 (line_start + colwidth))
    else
      line_end <- back_over_spaces steps text line_start line_end ;;
      Ok (u32 (line_end + 1))
  else Ok line_end.

Lemma hd0_at (r : str) : hd0 r = at_ r 0.
Proof. destruct r; reflexivity. Qed.
Lemma at_skipn (r : str) n i : at_ (skipn n r) i = at_ r (n + i).
Proof. unfold at_. revert r; induction n as [|n IH]; intro r; [reflexivity|]. destruct r as [|c r]; [destruct i; reflexivity|]. cbn. apply IH. Qed.
Lemma last_at (r : str) : r <> [] -> last r NUL = at_ r (List.length r - 1).
Proof.
  unfold at_. induction r as [|c r IH]; intro N; [congruence|]. destruct r as [|d r]; [reflexivity|].
  change (last (c :: d :: r) NUL) with (last (d :: r) NUL). rewrite IH by discriminate. cbn [List.length].
  replace (S (S (List.length r)) - 1)%nat with (S (S (List.length r) - 1)) by lia. reflexivity.
Qed.
Lemma at_firstn (r : str) n i : (i < n)%nat -> at_ (firstn n r) i = at_ r i.
Proof.
  unfold at_. revert r i; induction n as [|n IH]; intros r i L; [lia|]. destruct r as [|c r]; [reflexivity|]. destruct i as [|i]; [reflexivity|].
  cbn. apply IH. lia.
Qed.
Lemma In_at c (r : str) : In c r -> exists i, (i < List.length r)%nat /\ at_ r i = c.
Proof. intro H. destruct (In_nth r c NUL H) as [i [L E]]. exists i. split; [exact L|exact E]. Qed.
Lemma at_app1 (p q : str) i : (i < List.length p)%nat -> at_ (p ++ q) i = at_ p i.
Proof. intro L. unfold at_. apply app_nth1. exact L. Qed.
Lemma at_app2 (p q : str) i : (List.length p <= i)%nat -> at_ (p ++ q) i = at_ q (i - List.length p).
Proof. intro L. unfold at_. apply app_nth2. exact L. Qed.
Lemma zlen_firstn (r : str) n : (n <= List.length r)%nat -> zlen (firstn n r) = Z.of_nat n.
Proof. intro L. unfold zlen. rewrite firstn_length. lia. Qed.

(** Both ways of printing the first [e] characters of [r]. *)
Lemma output_ok pre r e fuel : (e <= List.length r)%nat -> (List.length r < fuel)%nat -> zlen (pre ++ r) < 4294967296 ->
  exists p b q, output_line fuel (pre ++ r) (zlen pre) (zlen pre + Z.of_nat e) = Ok (p, zlen (pre ++ p ++ nl_if b)) /\
    r = p ++ nl_if b ++ q /\ ~ In NL p /\
    (if b then (List.length p < e)%nat else p = firstn e r /\ q = skipn e r).
Proof.
  intros L F B. destruct (split_nl (firstn e r)) as [N|[p [q [E N]]]].
  - exists (firstn e r), false, (skipn e r). rewrite <- (zlen_firstn r e L). rewrite <- zlen_app.
    rewrite <- (firstn_skipn e r) in B at 1. rewrite <- (firstn_skipn e r) at 1. rewrite output_all; [|exact N| |exact B].
    + rewrite app_nil_r. split; [reflexivity|]. split; [cbn; symmetry; apply firstn_skipn|]. split; [exact N|]. auto.
    + rewrite firstn_length. lia.
  - assert (X : r = p ++ NL :: (q ++ skipn e r)).
    { rewrite <- (firstn_skipn e r) at 1. rewrite E, <- app_assoc. reflexivity. }
    assert (LP : (List.length p < e)%nat).
    { apply (f_equal (@List.length ascii)) in E. rewrite firstn_length, app_length in E. cbn in E. lia. }
    exists p, true, (q ++ skipn e r). split; [|split; [exact X|split; [exact N|exact LP]]].
    rewrite X. rewrite output_newline; [reflexivity|exact N| | |].
    + lia.
    + rewrite <- X. exact B.
    + rewrite zlen_app. unfold zlen. lia.
Qed.

Lemma line_ok pre r w : 0 < w -> blank (hd0 r) = false -> zlen (pre ++ r) < 4294967296 ->
  let text := pre ++ r in let textlen := zlen text in
  exists e p b q, line_end_of text w (zlen pre) textlen = Ok e /\ e <= textlen /\
    output_line (S (S (List.length text))) text (zlen pre) e = Ok (p, zlen (pre ++ p ++ nl_if b)) /\
    r = p ++ nl_if b ++ q /\ (r <> [] -> p ++ nl_if b <> []) /\
    forall bl, (forall c, In c bl -> blank c = true) -> bl ++ r <> [] -> good_line w (Line bl p b (e <? textlen)) q.
Proof.
  intros W HD LT text textlen.
  assert (LPRE := zlen_nonneg pre). assert (LR := zlen_nonneg r).
  assert (TL : textlen = zlen pre + zlen r) by (unfold textlen, text; apply zlen_app).
  assert (LT2 : zlen pre + zlen r < 4294967296) by (rewrite <- zlen_app; exact LT).
  clearbody textlen.
  assert (FU : (List.length r < S (S (List.length text)))%nat) by (unfold text; rewrite app_length; lia).
  assert (BLK : forall bl, (forall c, In c bl -> blank c = true) -> forall c, In c bl -> isspaceb c = true /\ c <> NL).
  { intros bl H c I. specialize (H c I). unfold blank in H. apply andb_true_iff in H as [H1 H2]. split; [exact H1|].
    apply negb_true_iff, ceqb_neq in H2. exact H2. }
  assert (ST : forall c s, r = c :: s -> isspaceb c = true -> c = NL).
  { intros c s -> I. unfold blank in HD. cbn [hd0] in HD. rewrite I in HD. cbn [andb] in HD. apply negb_false_iff, ceqb_eq in HD. exact HD. }
  unfold line_end_of. fold text. cbv zeta. rewrite u32_id by lia. replace (textlen - zlen pre) with (zlen r) by lia.
  destruct (Z.ltb_spec w (zlen r)) as [LONG|FITS].
  - (* the rest does not fit *)
    assert (WN : Z.of_nat (Z.to_nat w) = w) by lia. set (n := Z.to_nat w) in *. clearbody n.
    assert (NR : (n < List.length r)%nat) by (unfold zlen in LONG; lia).
    rewrite u32_id by lia. rewrite <- WN.
    destruct (back_to_space_ok pre r n (S (S (List.length text))) ltac:(lia) ltac:(lia)) as [k [E [KN [KB KW]]]].
    fold text in E. rewrite E. cbn [bind]. destruct (Z.eqb_spec (zlen pre + Z.of_nat k) (zlen pre)) as [K0|K0].
    + (* no white space after the first character *)
      assert (k = O) by lia. subst k. 
      destruct (output_ok pre r n _ ltac:(lia) FU LT) as [p [b [q [O [R [NP C]]]]]]. fold text in O.
      assert (PN : p ++ nl_if b <> []).
      { destruct b; [destruct p; discriminate|]. destruct C as [-> _]. rewrite app_nil_r. intro K. apply (f_equal (@List.length ascii)) in K.
        rewrite firstn_length in K. cbn in K. lia. }
      exists (zlen pre + Z.of_nat n), p, b, q. split; [reflexivity|]. split; [unfold zlen in *; lia|]. split; [exact O|]. split; [exact R|]. split; [intros _; exact PN|].
      intros bl HB NE. assert (PB : b = true -> p = []).
      { intro HBT. subst b. destruct p as [|c p]; [reflexivity|]. exfalso.
        assert (X : isspaceb (at_ r (S (List.length p))) = false) by (apply KB; cbn [List.length] in C; lia).
        rewrite R in X. rewrite at_app2 in X by (cbn; lia). cbn [List.length] in X. rewrite Nat.sub_diag in X. discriminate X. }
      constructor; cbn [blanks piece newline indented]; unfold nl; cbn [newline].
      * apply BLK. exact HB.
      * exact NP.
      * rewrite <- R. exact ST.
      * unfold line_text, nl. cbn [blanks piece newline]. rewrite <- !app_assoc, <- R. exact NE.
      * rewrite WN. destruct b; [rewrite PB by reflexivity; change (zlen (@nil ascii)) with 0; lia|]. destruct C as [-> _]. rewrite zlen_firstn by lia. lia.
      * intro HBT. right. left. apply PB. exact HBT.
      * intros -> QN. destruct C as [PE QE].
        assert (P0 : p <> []) by (rewrite app_nil_r in PN; exact PN).
        assert (ALL : forall i, (i < n)%nat -> isspaceb (at_ r i) = false).
        { intros i I. destruct i as [|i]; [|apply KB; lia]. destruct (isspaceb (at_ r 0)) eqn:W0; [|reflexivity]. exfalso.
          rewrite <- hd0_at in W0. destruct r as [|c r']; [discriminate W0|]. cbn [hd0] in W0. apply NP.
          rewrite PE. destruct n; [lia|]. left. apply (ST c r' eq_refl W0). }
        split; [exact P0|]. split.
        { rewrite last_at by exact P0. rewrite PE at 1. rewrite at_firstn by (rewrite PE, firstn_length; lia). apply ALL. rewrite PE, firstn_length. lia. }
        right. split; [|split].
        -- intros c IC. apply In_at in IC as [i [IL <-]]. rewrite PE, firstn_length in IL. rewrite PE, at_firstn by lia. apply ALL. lia.
        -- rewrite PE, zlen_firstn by lia. lia.
        -- rewrite hd0_at, QE, at_skipn, Nat.add_0_r. apply KB. lia.
      * rewrite <- R. rewrite Z.ltb_lt. split; intros HH.
        -- split; [lia|]. intros [P0 [ZE LW]]. destruct b; [|destruct C as [C _]; rewrite P0 in C; apply (f_equal (@List.length ascii)) in C; rewrite firstn_length in C; cbn in C; lia].
           rewrite P0 in R. cbn [app] in R. cbn [app] in ZE, LW. rewrite <- R in ZE, LW. assert (RN : r <> []) by (rewrite R; discriminate).
           rewrite last_at in LW by exact RN.
           rewrite KB in LW; [discriminate|]. unfold zlen in ZE. lia.
        -- lia.
    + assert (KP : (0 < k)%nat) by lia. destruct KW as [KW|KW]; [lia|].
      destruct (ceqb_spec (hd0 r) NL) as [H0|H0].
      * (* a newline first *)
        rewrite (back_over_newline pre r k) by (auto; lia). cbn [bind]. rewrite u32_id by lia.
        assert (RX : exists r', r = NL :: r').
        { destruct r as [|c r']; [discriminate H0|]. cbn in H0. subst c. eexists; reflexivity. }
        destruct RX as [r' RX].
        assert (O : output_line (S (S (List.length text))) text (zlen pre) (zlen pre + Z.of_nat k + 1) = Ok ([], zlen (pre ++ [] ++ [NL]))).
        { unfold text. rewrite RX. change (pre ++ NL :: r') with (pre ++ [] ++ NL :: r'). apply output_newline; [intros []|cbn; lia| |].
          - cbn [app nl_if]. rewrite <- RX. exact LT.
          - rewrite app_nil_r. lia. }
        eexists _, [], true, r'. split; [reflexivity|]. split; [unfold zlen in *; lia|]. split; [exact O|]. split; [exact RX|]. split; [discriminate|].
        intros bl HB NE. assert (Z1 : zlen r = zlen r' + 1) by (rewrite RX; apply zlen_cons).
        constructor; cbn [blanks piece newline indented]; unfold nl; cbn [newline nl_if app].
        -- apply BLK. exact HB.
        -- intros [].
        -- cbn [app nl_if]. rewrite <- RX. exact ST.
        -- unfold line_text, nl. cbn [blanks piece newline nl_if]. rewrite <- !app_assoc. cbn [app nl_if]. rewrite <- RX. exact NE.
        -- change (zlen (@nil ascii)) with 0. lia.
        -- intros _. right. left. reflexivity.
        -- discriminate.
        -- cbn [app nl_if]. rewrite <- RX. rewrite Z.ltb_lt. 
           assert (LAST : last r NUL = at_ r (List.length r - 1)) by (apply last_at; rewrite RX; discriminate). split; intro HH.
           ++ split; [lia|]. intros [_ [ZE LW]]. rewrite LAST in LW. assert (k < n)%nat by lia.
              rewrite KB in LW; [discriminate|]. unfold zlen in ZE. lia.
           ++ destruct HH as [_ HH]. destruct (Z.lt_ge_cases (zlen pre + Z.of_nat k + 1) textlen) as [|G]; [assumption|]. exfalso. apply HH.
              split; [reflexivity|]. split; [lia|]. rewrite LAST.
              assert (k = List.length r - 1)%nat as <- by (unfold zlen in *; lia). exact KW.
      * (* a word first *)
        assert (HB0 : isspaceb (hd0 r) = false).
        { destruct (isspaceb (hd0 r)) eqn:X; [|reflexivity]. exfalso. unfold blank in HD. rewrite X in HD. cbn [andb] in HD.
          apply negb_false_iff, ceqb_eq in HD. apply H0. exact HD. }
        destruct (back_over_ok pre r k (S (S (List.length text))) ltac:(lia) ltac:(lia) HB0 H0) as [j [E2 [JK [JW JB]]]].
        fold text in E2. rewrite E2. cbn [bind].
        assert (JLT : (j < k)%nat) by (destruct (Nat.eq_dec j k) as [->|]; [congruence|lia]).
        rewrite u32_id by lia. replace (zlen pre + Z.of_nat j + 1) with (zlen pre + Z.of_nat (S j)) by lia.
        destruct (output_ok pre r (S j) _ ltac:(lia) FU LT) as [p [b [q [O [R [NP C]]]]]]. fold text in O.
        assert (LPN : (List.length p <= n)%nat).
        { destruct b; [lia|]. destruct C as [-> _]. rewrite firstn_length. lia. }
        assert (PN : p ++ nl_if b <> []).
        { destruct b; [destruct p; discriminate|]. destruct C as [-> _]. rewrite app_nil_r. intro K. apply (f_equal (@List.length ascii)) in K.
          rewrite firstn_length in K. cbn [List.length] in K. lia. }
        assert (P0 : p <> []).
        { intros ->. destruct b; [|apply PN; reflexivity]. rewrite R in H0. apply H0. reflexivity. }
        eexists _, p, b, q. split; [reflexivity|]. split; [unfold zlen in *; lia|]. split; [exact O|]. split; [exact R|]. split; [intros _; exact PN|].
        intros bl HB NE.
        constructor; cbn [blanks piece newline indented]; unfold nl; cbn [newline].
        -- apply BLK. exact HB.
        -- exact NP.
        -- rewrite <- R. exact ST.
        -- unfold line_text, nl. cbn [blanks piece newline]. rewrite <- !app_assoc, <- R. exact NE.
        -- unfold zlen. lia.
        -- intro HBT. right. right. subst b.
           assert (X : lead (nl_if true ++ q) <= Z.of_nat (k - List.length p)).
           { apply (lead_le _ (j - List.length p) (k - List.length p)).
             - assert (List.length r = List.length p + List.length (nl_if true ++ q))%nat by (rewrite R at 1; rewrite app_length; reflexivity).
               destruct (Nat.eq_dec j (List.length p)) as [JP|]; [|lia]. exfalso. rewrite JP in JB. rewrite R in JB. rewrite at_app2 in JB by lia.
               rewrite Nat.sub_diag in JB. discriminate JB.
             - rewrite R in JB. rewrite at_app2 in JB by lia. exact JB.
             - rewrite R in KW. rewrite at_app2 in KW by lia. exact KW. }
           unfold zlen. lia.
        -- intros -> QN. destruct C as [PE QE]. split; [exact P0|]. 
           assert (PL : List.length p = S j) by (rewrite PE, firstn_length; lia). split.
           ++ rewrite last_at by exact P0. rewrite PL. replace (S j - 1)%nat with j by lia. rewrite PE, at_firstn by lia. exact JB.
           ++ left. split.
              ** rewrite hd0_at, QE, at_skipn. apply JW. lia.
              ** assert (X : Z.of_nat (n - j) <= lead q).
                 { apply (lead_ge (k - j)).
                   - rewrite QE, skipn_length. lia.
                   - intros i I. rewrite QE, at_skipn. apply JW. lia.
                   - intros i I. rewrite QE, at_skipn. apply KB. lia. }
                 unfold zlen. rewrite PL. lia.
        -- rewrite <- R. rewrite Z.ltb_lt. split; intro HH; [|lia]. split; [lia|]. intros [X _]. exact (P0 X).
  - (* the rest fits *)
    destruct (output_ok pre r (List.length r) _ ltac:(lia) FU LT) as [p [b [q [O [R [NP C]]]]]]. fold text in O.
    replace (zlen pre + Z.of_nat (List.length r)) with textlen in O by (unfold zlen in *; lia).
    exists textlen, p, b, q. split; [reflexivity|]. split; [unfold zlen in *; lia|]. split; [exact O|]. split; [exact R|].
    assert (Q0 : b = false -> q = []).
    { intros ->. destruct C as [_ ->]. apply skipn_all. }
    split.
    + intros RN K. destruct b; [destruct p; discriminate K|]. rewrite Q0 in R by reflexivity. apply RN. rewrite R. exact K.
    + intros bl HB NE. constructor; cbn [blanks piece newline indented]; unfold nl; cbn [newline].
      * apply BLK. exact HB.
      * exact NP.
      * rewrite <- R. exact ST.
      * unfold line_text, nl. cbn [blanks piece newline]. rewrite <- !app_assoc, <- R. exact NE.
      * assert (zlen p <= zlen r); [|lia]. rewrite R, zlen_app. pose proof (zlen_nonneg (nl_if b ++ q)). lia.
      * intros _. left. rewrite <- R. exact FITS.
      * intros B QN. exfalso. apply QN. apply Q0. exact B.
      * rewrite <- R. rewrite Z.ltb_irrefl. split; [discriminate|]. intros [X _]. lia.
Qed.
