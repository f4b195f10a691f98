(** PropFormat: text in a column (C41, C42), and the glossary in GNU format (C54). *)
From Coq Require Import ZArith String List Ascii Bool Lia Arith.
From Verif Require Import Base ParseModel MemModel DstrModel DstrSpec DstrProofs PropDstr PrintModel PrintSpec PrintProofs PrintFacts
  FormatSpec FormatProofs PropPrint.
Import ListNotations.
Open Scope Z_scope.

Definition indentation (lmargin : Z) : str := repeat " "%char (Z.to_nat lmargin).

Lemma catc_gives l : cstr l -> gives (map OCatc l) l 0.
Proof.
  induction l as [|c l IH]; intro C; [apply gives_nil|]. cbn [map].
  change (OCatc c :: map OCatc l) with ([OCatc c] ++ map OCatc l). change (c :: l) with ([c] ++ l).
  assert (NC : c <> NUL) by (intros ->; apply C; left; reflexivity).
  apply (gives_app _ _ _ _ 0 0).
  - split; [repeat constructor|]. cbn [ops_text flat_map op_text upto_nul extras fold_right]. unfold extra. cbn [weight op_text upto_nul].
    destruct (ceqb_spec c NUL) as [E|_]; [contradiction|]. split; [reflexivity|]. cbn. lia.
  - apply IH. intro K. apply C. right. exact K.
Qed.
Lemma indent_gives n : gives (repeat (OCat (lit " ")) n) (repeat " "%char n) 0.
Proof.
  induction n as [|n IH]; [apply gives_nil|]. cbn [repeat].
  change (OCat (lit " ") :: repeat (OCat (lit " ")) n) with ([OCat (lit " ")] ++ repeat (OCat (lit " ")) n).
  change (" "%char :: repeat " "%char n) with (lit " " ++ repeat " "%char n). apply (gives_app _ _ _ _ 0 0); [gcat; clit|exact IH].
Qed.

Lemma loop_ok lmargin w : 0 < w -> forall n rest pre fuel, (List.length rest <= n)%nat -> (n < fuel)%nat -> cstr rest ->
  zlen (pre ++ rest) < 4294967296 ->
  exists os ls, formatted_loop fuel (pre ++ rest) lmargin w (zlen pre) (zlen (pre ++ rest)) = Ok os /\
    layout w ls /\ source ls = rest /\ gives os (output (indentation lmargin) ls) 0.
Proof.
  intro W. induction n as [|n IH]; intros rest pre fuel LN F C LT; (destruct fuel as [|fuel]; [lia|]); cbn [formatted_loop].
  - destruct rest; [|cbn in LN; lia]. rewrite app_nil_r, Z.ltb_irrefl. exists [], []. cbn. repeat split; try constructor; cbn; lia.
  - destruct rest as [|c0 rest0] eqn:RE.
    { rewrite app_nil_r, Z.ltb_irrefl. exists [], []. cbn. repeat split; try constructor; cbn; lia. }
    rewrite <- RE in *. assert (RN : rest <> []) by (rewrite RE; discriminate). clear RE c0 rest0.
    assert (Z0 : 0 < zlen rest) by (destruct rest; [exfalso; apply RN; reflexivity|rewrite zlen_cons; pose proof (zlen_nonneg rest); lia]).
    rewrite zlen_app in LT. pose proof (zlen_nonneg pre) as ZP.
    replace (zlen pre <? zlen (pre ++ rest)) with true by (symmetry; apply Z.ltb_lt; rewrite zlen_app; lia).
    rewrite u32_id by (rewrite zlen_app; lia).
    destruct (split_blanks rest) as [bl [r [RE [BL HD]]]]. subst rest.
    rewrite eat_ok; [|exact BL|exact HD|rewrite !app_length; lia|rewrite zlen_app; exact LT]. cbn [bind].
    assert (LT2 : zlen ((pre ++ bl) ++ r) < 4294967296) by (rewrite <- app_assoc, zlen_app; exact LT).
    destruct (line_ok (pre ++ bl) r w W HD LT2) as [e [p [b [q [E1 [EL [E2 [R [PR GL]]]]]]]]].
    rewrite <- !app_assoc in E1, E2, EL, GL. rewrite (app_assoc bl r) in E1 || idtac.
    unfold line_end_of in E1. cbv zeta in E1. rewrite E1. cbn [bind]. rewrite E2. cbn [bind].
    specialize (GL bl BL RN).
    assert (TX : pre ++ bl ++ r = (pre ++ bl ++ p ++ nl_if b) ++ q) by (rewrite R, <- !app_assoc; reflexivity).
    assert (LQ : (List.length q <= n)%nat).
    { assert (List.length (bl ++ r) = List.length bl + (List.length (p ++ nl_if b) + List.length q))%nat.
      { rewrite R. rewrite !app_length. lia. }
      destruct bl as [|c bl]; [|cbn [List.length app] in *; lia].
      assert (N := PR RN). destruct (p ++ nl_if b); [exfalso; apply N; reflexivity|]. cbn [List.length] in *. lia. }
    assert (CQ : cstr q) by (intro K; apply C; rewrite R, !in_app_iff; auto).
    assert (CP : cstr p) by (intro K; apply C; rewrite R, !in_app_iff; auto).
    destruct (IH q (pre ++ bl ++ p ++ nl_if b) fuel LQ ltac:(lia) CQ) as [os [ls [E3 [LY [SR GV]]]]].
    { rewrite <- TX, zlen_app. exact LT. }
    rewrite <- TX in E3.
    exists (if e <? zlen (pre ++ bl ++ r) then (map OCatc p ++ [OCat [NL]]) ++ repeat (OCat (lit " ")) (Z.to_nat lmargin) ++ os
            else (map OCatc p ++ [OCat [NL]]) ++ os), (Line bl p b (e <? zlen (pre ++ bl ++ r)) :: ls).
    split; [|split; [|split]].
    + replace ((pre ++ bl) ++ p ++ nl_if b) with (pre ++ bl ++ p ++ nl_if b) by (rewrite <- app_assoc; reflexivity).
      destruct (Z.ltb_spec e (zlen (pre ++ bl ++ r))) as [L|L]; [rewrite E3; reflexivity|].
      replace e with (zlen (pre ++ bl ++ r)) by lia. rewrite E3. reflexivity.
    + cbn [layout]. split; [rewrite SR; exact GL|exact LY].
    + cbn [source flat_map]. fold (source ls). rewrite SR. unfold line_text, nl. cbn [blanks piece newline].
      rewrite R, <- !app_assoc. reflexivity.
    + cbn [output flat_map]. fold (output (indentation lmargin) ls). unfold line_out at 1. cbn [piece indented].
      assert (CN : cstr [NL]) by (intros [K|[]]; discriminate K).
      destruct (e <? zlen (pre ++ bl ++ r)).
      * rewrite <- !app_assoc. apply (gives_app _ _ _ _ 0 0); [apply catc_gives; exact CP|]. apply (gives_app _ _ _ _ 0 0); [gcat|].
        apply (gives_app _ _ _ _ 0 0); [apply indent_gives|exact GV].
      * rewrite app_nil_r. rewrite <- !app_assoc. apply (gives_app _ _ _ _ 0 0); [apply catc_gives; exact CP|].
        apply (gives_app _ _ _ _ 0 0); [gcat|exact GV].
Qed.

Definition unsigned_int (z : Z) : Prop := 0 <= z < 4294967296.
(** The width is computed with unsigned arithmetic. *)
Definition width (lmargin rmargin : Z) : Z := (rmargin - lmargin + 1) mod 4294967296.

Lemma width_ok lmargin rmargin : u32 (u32 (rmargin - lmargin) + 1) = width lmargin rmargin.
Proof. unfold u32, width. rewrite Zplus_mod_idemp_l. reflexivity. Qed.

Lemma formatted_ok lmargin rmargin t fuel : width lmargin rmargin <> 0 -> cstr t -> zlen t < 4294967296 -> (List.length t < fuel)%nat ->
  exists os ls, arg_print_formatted_ds fuel lmargin rmargin t = Ok os /\
    layout (width lmargin rmargin) ls /\ source ls = t /\ gives os (output (indentation lmargin) ls) 0.
Proof.
  intros W C L F. unfold arg_print_formatted_ds. rewrite width_ok, u32_id by (pose proof (zlen_nonneg t); lia).
  assert (W0 : 0 < width lmargin rmargin) by (pose proof (Z.mod_pos_bound (rmargin - lmargin + 1) 4294967296 ltac:(lia)); unfold width in *; lia).
  exact (loop_ok lmargin _ W0 (List.length t) t [] fuel (le_n _) F C L).
Qed.

(** ** C41: the layout. *)
Theorem C41_layout : forall lmargin rmargin t,
  unsigned_int lmargin -> unsigned_int rmargin -> width lmargin rmargin <> 0 -> cstr t -> zlen t < 4294967296 ->
  exists os ls, (forall fuel, (List.length t < fuel)%nat -> arg_print_formatted_ds fuel lmargin rmargin t = Ok os) /\
    layout (width lmargin rmargin) ls /\ source ls = t /\
    let out := output (indentation lmargin) ls in writes os out (zlen out).
Proof.
  intros lm rm t _ _ W C L.
  destruct (formatted_ok lm rm t (S (List.length t)) W C L (Nat.lt_succ_diag_r _)) as [os [ls [E [LY [SR G]]]]].
  exists os, ls. split; [|split; [exact LY|split; [exact SR|]]].
  - intros fuel F. revert E. unfold arg_print_formatted_ds.
    assert (MONO : forall f t w s e os, formatted_loop f t lm w s e = Ok os -> forall f', (f <= f')%nat -> formatted_loop f' t lm w s e = Ok os).
    { clear. induction f as [|f IH]; intros t w s e os E f' L; [discriminate E|]. destruct f' as [|f']; [lia|]. cbn [formatted_loop] in *.
      destruct (s <? e); [|exact E]. apply bind_ok in E as [s1 [E1 E]]. rewrite E1. cbn [bind].
      apply bind_ok in E as [e1 [E2 E]]. rewrite E2. cbn [bind].
      apply bind_ok in E as [[l s2] [E3 E]]. rewrite E3. cbn [bind].
      destruct (e1 <? u32 (zlen t)); apply bind_ok in E as [o [E4 E]]; (rewrite (IH _ _ _ _ _ E4) by lia); cbn [bind]; exact E. }
    intro E. apply (MONO _ _ _ _ _ _ E). lia.
  - cbv zeta. eapply gives_writes; [exact G|lia].
Qed.

(** The usual margins. *)
Corollary C41_layout_margins : forall lmargin rmargin t,
  0 <= lmargin <= rmargin -> rmargin < 4294967295 -> cstr t -> zlen t < 4294967296 ->
  exists os ls, arg_print_formatted_ds (S (List.length t)) lmargin rmargin t = Ok os /\
    layout (rmargin - lmargin + 1) ls /\ source ls = t /\
    let out := output (indentation lmargin) ls in writes os out (zlen out).
Proof.
  intros lm rm t L R C Z.
  assert (WE : width lm rm = rm - lm + 1) by (unfold width; apply Z.mod_small; lia).
  destruct (C41_layout lm rm t) as [os [ls [E [A B]]]]; unfold unsigned_int; try lia; [exact C|].
  exists os, ls. split; [apply E; lia|]. rewrite <- WE. split; [exact A|exact B].
Qed.

(** The layout determines the lines: there is only one for each text. *)
Lemma app_split {A} (f : A -> Prop) (a b c d : list A) : a ++ c = b ++ d -> Forall f a -> Forall f b ->
  (forall x l, c = x :: l -> ~ f x) -> (forall x l, d = x :: l -> ~ f x) -> a = b /\ c = d.
Proof.
  revert b; induction a as [|x a IH]; intros b E FA FB NC ND.
  - destruct b as [|y b]; [auto|]. exfalso. cbn in E. inversion FB; subst. eapply NC; [reflexivity|assumption].
  - destruct b as [|y b].
    + exfalso. cbn in E. inversion FA as [|u v F1 F2]; subst u v. apply (ND x (a ++ c)); [symmetry; exact E|exact F1].
    + cbn in E. injection E as -> E. inversion FA; subst. inversion FB; subst. destruct (IH b E) as [-> ->]; auto.
Qed.
Lemma good_blanks w l rest : good_line w l rest -> Forall (fun c => blank c = true) (blanks l).
Proof.
  intro G. apply Forall_forall. intros c I. destruct (gl_blanks _ _ _ G c I) as [A B]. unfold blank. rewrite A.
  apply ceqb_neq in B. rewrite B. reflexivity.
Qed.
Lemma good_rest w l rest : good_line w l rest -> forall x s, piece l ++ nl l ++ rest = x :: s -> ~ blank x = true.
Proof.
  intros G x s E B. unfold blank in B. apply andb_true_iff in B as [B1 B2]. rewrite (gl_start _ _ _ G x s E B1) in B2.
  rewrite ceqb_refl in B2. discriminate B2.
Qed.
Lemma run_len f s : (run f s <= List.length s)%nat.
Proof. induction s as [|c s IH]; cbn [run List.length]; [lia|]. destruct (f c); lia. Qed.
Lemma lead_len s : lead s <= zlen s.
Proof.
  unfold lead, zlen. pose proof (run_len isspaceb s). pose proof (run_len black (skipn (run isspaceb s) s)) as R. rewrite skipn_length in R. lia.
Qed.
Lemma lead_app d x s : isspaceb x = true -> lead (d ++ x :: s) <= zlen d + lead (x :: s).
Proof.
  intro X. induction d as [|c d IH]; [cbn; lia|]. cbn [app]. rewrite zlen_cons. destruct (isspaceb c) eqn:C.
  - rewrite (lead_white c _ C). lia.
  - rewrite (lead_black c _ C). rewrite lead_white by exact X. unfold lead at 1.
    assert (R : (run black (c :: d ++ x :: s) <= S (List.length d))%nat).
    { apply run_le. unfold at_. change (c :: d ++ x :: s) with ((c :: d) ++ x :: s). rewrite app_nth2 by (cbn; lia).
      cbn [List.length]. rewrite Nat.sub_diag. cbn [nth]. unfold black. rewrite X. reflexivity. }
    unfold zlen. lia.
Qed.
Lemma app_longer {A} (a b c d : list A) : a ++ c = b ++ d -> (List.length a <= List.length b)%nat -> exists e, b = a ++ e /\ c = e ++ d.
Proof.
  revert b; induction a as [|x a IH]; intros b E L; [exists b; auto|]. destruct b as [|y b]; [cbn in L; lia|].
  cbn in E. injection E as -> E. destruct (IH b E ltac:(cbn in L; lia)) as [e [-> ->]]. exists e. auto.
Qed.

Lemma wrap_long w l rest : good_line w l rest -> newline l = false -> rest <> [] -> w < zlen (piece l) + zlen rest.
Proof.
  intros G N R. destruct (gl_wrap _ _ _ G N R) as [_ [_ [[_ X]|[_ [X _]]]]].
  - pose proof (lead_len rest). lia.
  - destruct rest as [|c rest]; [exfalso; apply R; reflexivity|]. rewrite zlen_cons. pose proof (zlen_nonneg rest). lia.
Qed.
(** Two wrapped lines of the same text are the same. *)
Lemma wrap_same w l1 l2 r1 r2 : good_line w l1 r1 -> good_line w l2 r2 -> newline l1 = false -> newline l2 = false -> r1 <> [] -> r2 <> [] ->
  piece l1 ++ r1 = piece l2 ++ r2 -> (List.length (piece l1) <= List.length (piece l2))%nat -> piece l1 = piece l2 /\ r1 = r2.
Proof.
  intros G1 G2 N1 N2 R1 R2 E L. destruct (app_longer _ _ _ _ E L) as [d [PE RE]].
  destruct d as [|c d]; [rewrite app_nil_r in PE; auto|]. exfalso.
  destruct (gl_wrap _ _ _ G1 N1 R1) as [P1 [L1 C1]]. destruct (gl_wrap _ _ _ G2 N2 R2) as [P2 [L2 C2]].
  assert (W2 := gl_width _ _ _ G2). assert (HC : hd0 r1 = c) by (rewrite RE; reflexivity).
  assert (LP : zlen (piece l2) = zlen (piece l1) + zlen (c :: d)) by (rewrite PE, zlen_app; reflexivity).
  rewrite zlen_cons in LP. pose proof (zlen_nonneg d).
  destruct C1 as [[H1 X1]|[_ [X1 _]]]; [|lia]. rewrite HC in H1.
  destruct C2 as [[H2 X2]|[A2 _]].
  - assert (LD : lead r1 <= Z.of_nat (List.length (c :: d))).
    { apply (lead_le r1 (List.length d) (List.length (c :: d))).
      - rewrite RE, app_length. destruct r2; [exfalso; apply R2; reflexivity|]. cbn [List.length]. lia.
      - rewrite RE. unfold at_. rewrite app_nth1 by (cbn; lia). rewrite last_at in L2 by exact P2. unfold at_ in L2. rewrite PE in L2.
        rewrite app_length in L2. cbn [List.length] in L2. rewrite app_nth2 in L2 by lia.
        replace (List.length (piece l1) + S (List.length d) - 1 - List.length (piece l1))%nat with (List.length d) in L2 by lia. exact L2.
      - rewrite RE. unfold at_. rewrite app_nth2 by lia. rewrite Nat.sub_diag. destruct r2; [exfalso; apply R2; reflexivity|exact H2]. }
    cbn [List.length] in LD. unfold zlen in *. lia.
  - rewrite A2 in H1; [discriminate|]. rewrite PE, in_app_iff. right. left. reflexivity.
Qed.

Lemma nl_first (p1 p2 : str) r1 r2 : ~ In NL p1 -> ~ In NL p2 -> p1 ++ NL :: r1 = p2 ++ NL :: r2 -> p1 = p2 /\ r1 = r2.
Proof.
  intros N1 N2 E. destruct (app_split (fun c => c <> NL) p1 p2 (NL :: r1) (NL :: r2) E) as [-> K].
  - apply Forall_forall. intros c I ->. contradiction.
  - apply Forall_forall. intros c I ->. contradiction.
  - intros x l K. injection K as <- _. auto.
  - intros x l K. injection K as <- _. auto.
  - injection K as ->. auto.
Qed.
(** A line ended by a newline is not one that is wrapped. *)
Lemma newline_not_wrap w l1 l2 r1 r2 : good_line w l1 r1 -> good_line w l2 r2 -> newline l1 = true -> newline l2 = false ->
  piece l1 ++ NL :: r1 = piece l2 ++ r2 -> False.
Proof.
  intros G1 G2 N1 N2 E. assert (P2 := gl_piece _ _ _ G2).
  assert (L : (List.length (piece l2) <= List.length (piece l1))%nat).
  { destruct (le_lt_dec (List.length (piece l2)) (List.length (piece l1))) as [|X]; [assumption|]. exfalso.
    destruct (app_longer (piece l1) (piece l2) _ _ E ltac:(lia)) as [d [PE RE]]. destruct d as [|c d].
    - rewrite PE, app_nil_r in X. lia.
    - injection RE as <- _. apply P2. rewrite PE, in_app_iff. right. left. reflexivity. }
  destruct (app_longer (piece l2) (piece l1) _ _ (eq_sym E) L) as [d [PE RE]].
  assert (R2 : r2 <> []) by (rewrite RE; destruct d; discriminate).
  assert (LG := wrap_long _ _ _ G2 N2 R2). assert (ZE : zlen (piece l1 ++ NL :: r1) = zlen (piece l2) + zlen r2) by (rewrite E, zlen_app; reflexivity).
  destruct (gl_wrap _ _ _ G2 N2 R2) as [Q2 [_ C2]]. assert (N := gl_newline _ _ _ G1 N1). unfold nl in N. rewrite N1 in N. cbn [nl_if app] in N.
  destruct N as [N|[N|N]].
  - lia.
  - rewrite N in PE. destruct (piece l2); [apply Q2; reflexivity|discriminate PE].
  - assert (LP : zlen (piece l1) = zlen (piece l2) + zlen d) by (rewrite PE, zlen_app; reflexivity).
    rewrite lead_white in N by reflexivity. assert (0 <= lead r1) by (unfold lead; lia). pose proof (zlen_nonneg d).
    destruct C2 as [[_ X]|[_ [X _]]]; [|lia]. rewrite RE in X. pose proof (lead_app d NL r1 eq_refl). rewrite lead_white in H1 by reflexivity. lia.
Qed.

Theorem C41_layout_unique : forall w ls1 ls2, layout w ls1 -> layout w ls2 -> source ls1 = source ls2 -> ls1 = ls2.
Proof.
  intro w. induction ls1 as [|l1 t1 IH]; intros ls2 Y1 Y2 E.
  - destruct ls2 as [|l2 t2]; [reflexivity|]. exfalso. apply (gl_some _ _ _ (proj1 Y2)). symmetry. exact E.
  - destruct ls2 as [|l2 t2]; [exfalso; apply (gl_some _ _ _ (proj1 Y1)); exact E|].
    destruct Y1 as [G1 Y1], Y2 as [G2 Y2]. cbn [source flat_map] in E. fold (source t1) in E. fold (source t2) in E.
    unfold line_text in E. rewrite <- !app_assoc in E.
    destruct (app_split _ _ _ _ _ E (good_blanks _ _ _ G1) (good_blanks _ _ _ G2) (good_rest _ _ _ G1) (good_rest _ _ _ G2)) as [EB ER].
    assert (X : piece l1 = piece l2 /\ newline l1 = newline l2 /\ source t1 = source t2).
    { destruct (newline l1) eqn:N1, (newline l2) eqn:N2; unfold nl in ER; rewrite N1, N2 in ER; cbn [nl_if app] in ER.
      - destruct (nl_first _ _ _ _ (gl_piece _ _ _ G1) (gl_piece _ _ _ G2) ER). auto.
      - exfalso. exact (newline_not_wrap _ _ _ _ _ G1 G2 N1 N2 ER).
      - exfalso. exact (newline_not_wrap _ _ _ _ _ G2 G1 N2 N1 (eq_sym ER)).
      - assert (W1 := gl_width _ _ _ G1). assert (W2 := gl_width _ _ _ G2).
        assert (ZE : zlen (piece l1) + zlen (source t1) = zlen (piece l2) + zlen (source t2)) by (rewrite <- !zlen_app, ER; reflexivity).
        destruct (source t1) as [|c1 s1] eqn:S1, (source t2) as [|c2 s2] eqn:S2.
        + rewrite !app_nil_r in ER. auto.
        + exfalso. assert (X := wrap_long _ _ _ G2 N2 ltac:(discriminate)). change (zlen (@nil ascii)) with 0 in ZE. lia.
        + exfalso. assert (X := wrap_long _ _ _ G1 N1 ltac:(discriminate)). change (zlen (@nil ascii)) with 0 in ZE. lia.
        + destruct (le_lt_dec (List.length (piece l1)) (List.length (piece l2))) as [L|L].
          * destruct (wrap_same _ _ _ _ _ G1 G2 N1 N2 ltac:(discriminate) ltac:(discriminate) ER L). auto.
          * destruct (wrap_same _ _ _ _ _ G2 G1 N2 N1 ltac:(discriminate) ltac:(discriminate) (eq_sym ER) ltac:(lia)). auto. }
    destruct X as [EP [EN ES]]. rewrite (IH t2 Y1 Y2 ES). f_equal. destruct l1 as [b1 p1 n1 i1], l2 as [b2 p2 n2 i2]. cbn [blanks piece newline] in *. subst.
    f_equal. pose proof (gl_indent _ _ _ G1) as I1. pose proof (gl_indent _ _ _ G2) as I2. unfold nl in I1, I2. cbn [piece newline indented] in I1, I2.
    rewrite ES in I1. destruct i1, i2; tauto || (destruct I1, I2; intuition congruence).
Qed.

(** No character is lost, added or moved, but for white space. *)
Definition words (s : str) : str := filter black s.
Lemma words_blanks s : (forall c, In c s -> isspaceb c = true) -> words s = [].
Proof.
  induction s as [|c s IH]; intro H; [reflexivity|]. cbn [words filter]. unfold black at 1. rewrite (H c (or_introl eq_refl)). cbn [negb].
  apply IH. intros d D. apply H. right. exact D.
Qed.
Lemma words_layout w lmargin ls : layout w ls -> words (output (indentation lmargin) ls) = words (source ls).
Proof.
  unfold words. induction ls as [|l ls IH]; intro Y; [reflexivity|]. destruct Y as [G Y]. cbn [output source flat_map].
  fold (output (indentation lmargin) ls). fold (source ls). rewrite !filter_app, IH by exact Y. f_equal.
  unfold line_out, line_text. rewrite !filter_app.
  assert (X : forall s : str, (forall c, In c s -> isspaceb c = true) -> filter black s = []) by exact words_blanks.
  rewrite (X (blanks l)) by (intros c I; apply (gl_blanks _ _ _ G c I)).
  rewrite (X (nl l)) by (intros c; unfold nl; destruct (newline l); cbn; intros [<-|[]] || intros []; reflexivity).
  rewrite (X [NL]) by (intros c [<-|[]]; reflexivity).
  destruct (indented l); [|rewrite !app_nil_r; reflexivity].
  rewrite (X (indentation lmargin)); [rewrite !app_nil_r; reflexivity|]. intros c I. apply repeat_spec in I. subst c. reflexivity.
Qed.
Theorem C41_no_word_lost : forall lmargin rmargin t,
  unsigned_int lmargin -> unsigned_int rmargin -> width lmargin rmargin <> 0 -> cstr t -> zlen t < 4294967296 ->
  exists os out, arg_print_formatted_ds (S (List.length t)) lmargin rmargin t = Ok os /\ writes os out (zlen out) /\
    filter (fun c => negb (isspaceb c)) out = filter (fun c => negb (isspaceb c)) t.
Proof.
  intros lm rm t L R W C Z. destruct (C41_layout lm rm t L R W C Z) as [os [ls [E [Y [S G]]]]].
  eexists os, _. split; [apply E; lia|]. split; [exact G|]. rewrite <- S. exact (words_layout _ lm ls Y).
Qed.

(** The example of the comment before arg_print_formatted. *)
Example C41_case : exists os m, arg_print_formatted_ds 28 2 7 (lit "Some text that doesn't fit.") = Ok os /\
  print_to (fun _ => NUL) false os =
  Ok (lit "Some" ++ [NL] ++ lit "  text" ++ [NL] ++ lit "  that" ++ [NL] ++ lit "  doesn'" ++ [NL] ++ lit "  t fit." ++ [NL], m).
Proof. eexists _, _. split; [vm_compute; reflexivity|]. vm_compute. reflexivity. Qed.
(** Margins in the wrong order give a huge width. *)
Example C41_case_width : width 28 79 = 52 /\ width 10 5 = 4294967292 /\ width 6 5 = 0.
Proof. repeat split. Qed.

(** With a width of 0 the function never returns, unless the text is blank. *)
Lemma loop_forever lmargin fuel : forall pre rest, zlen (pre ++ rest) < 4294967296 -> (exists c, In c rest /\ blank c = false) ->
  formatted_loop fuel (pre ++ rest) lmargin 0 (zlen pre) (zlen (pre ++ rest)) = OutOfFuel.
Proof.
  induction fuel as [|fuel IH]; intros pre rest LT [c [I B]]; [reflexivity|]. cbn [formatted_loop].
  assert (LT1 := LT). rewrite zlen_app in LT1. pose proof (zlen_nonneg pre) as ZP.
  assert (Z0 : 0 < zlen rest) by (destruct rest; [destruct I|rewrite zlen_cons; pose proof (zlen_nonneg rest); lia]).
  replace (zlen pre <? zlen (pre ++ rest)) with true by (symmetry; apply Z.ltb_lt; rewrite zlen_app; lia).
  rewrite (u32_id (zlen (pre ++ rest))) by (rewrite zlen_app; lia).
  destruct (split_blanks rest) as [bl [r [RE [BL HD]]]]. subst rest.
  assert (IR : In c r) by (apply in_app_iff in I as [I|I]; [rewrite BL in B by exact I; discriminate|exact I]).
  rewrite eat_ok; [|exact BL|exact HD|rewrite !app_length; lia|exact LT]. cbn [bind].
  assert (ZR : 0 < zlen r) by (destruct r; [destruct IR|rewrite zlen_cons; pose proof (zlen_nonneg r); lia]).
  rewrite zlen_app in LT1. pose proof (zlen_nonneg bl) as ZB.
  replace (zlen (pre ++ bl ++ r) - zlen (pre ++ bl)) with (zlen r) by (rewrite !zlen_app; lia).
  rewrite (u32_id (zlen r)) by lia. replace (0 <? zlen r) with true by (symmetry; apply Z.ltb_lt; exact ZR).
  rewrite (u32_id (zlen (pre ++ bl) + 0)) by (rewrite zlen_app; lia). rewrite Z.add_0_r.
  cbn [back_to_space]. rewrite Z.ltb_irrefl. cbn [bind]. rewrite Z.eqb_refl. cbn [bind output_line]. rewrite Z.ltb_irrefl. cbn [bind].
  replace (zlen (pre ++ bl) <? zlen (pre ++ bl ++ r)) with true by (symmetry; apply Z.ltb_lt; rewrite !zlen_app; lia).
  rewrite app_assoc. rewrite IH; [reflexivity| |exists c; auto]. rewrite <- app_assoc. exact LT.
Qed.
Theorem C41_never_returns : forall lmargin rmargin t,
  width lmargin rmargin = 0 -> zlen t < 4294967296 -> (exists c, In c t /\ (isspaceb c = false \/ c = NL)) ->
  forall fuel, arg_print_formatted_ds fuel lmargin rmargin t = OutOfFuel.
Proof.
  intros lm rm t W L [c [I N]] fuel. unfold arg_print_formatted_ds. rewrite width_ok, W, u32_id by (pose proof (zlen_nonneg t); lia).
  apply (loop_forever lm fuel [] t L). exists c. split; [exact I|]. unfold blank. destruct N as [N| ->]; [rewrite N; reflexivity|reflexivity].
Qed.
(** So margins with lmargin <= rmargin are not enough. *)
Theorem C41_terminates_refuted : exists lmargin rmargin t, unsigned_int lmargin /\ unsigned_int rmargin /\ lmargin <= rmargin /\
  forall fuel, arg_print_formatted_ds fuel lmargin rmargin t = OutOfFuel.
Proof.
  exists 0, 4294967295, (lit "a"). unfold unsigned_int. split; [lia|]. split; [lia|]. split; [lia|].
  apply C41_never_returns; [reflexivity|cbn; lia|]. exists "a"%char. split; [left; reflexivity|left; reflexivity].
Qed.

(** ** C42: indentation. *)
Theorem C42_indentation : forall lmargin rmargin t,
  unsigned_int lmargin -> unsigned_int rmargin -> width lmargin rmargin <> 0 -> cstr t -> zlen t < 4294967296 ->
  exists os ls, arg_print_formatted_ds (S (List.length t)) lmargin rmargin t = Ok os /\
    layout (width lmargin rmargin) ls /\ source ls = t /\
    (let out := flat_map (fun l => piece l ++ [NL] ++ if indented l then repeat " "%char (Z.to_nat lmargin) else []) ls in
     writes os out (zlen out)) /\
    forall before l after, ls = before ++ l :: after ->
      let left := piece l ++ nl l ++ source after in
      (indented l = true <->
       width lmargin rmargin < zlen left /\
       ~ (piece l = [] /\ zlen left = width lmargin rmargin + 1 /\ isspaceb (last left NUL) = true)).
Proof.
  intros lm rm t L R W C Z. destruct (C41_layout lm rm t L R W C Z) as [os [ls [E [Y [S G]]]]].
  exists os, ls. split; [apply E; lia|]. split; [exact Y|]. split; [exact S|]. split; [exact G|].
  intros a l b -> left. clear - Y. induction a as [|x a IH]; cbn [app layout] in Y.
  - destruct Y as [GL _]. rewrite (gl_indent _ _ _ GL). fold left. unfold left.
    split; intros [A B]; (split; [exact A|]); intros [P [X V]]; apply B; (split; [exact P|]); rewrite P in *; cbn [app] in *; auto.
  - apply IH. exact (proj2 Y).
Qed.

(** Without newlines in the text every line but the first is indented. *)
Theorem C42_without_newlines : forall lmargin rmargin t,
  unsigned_int lmargin -> unsigned_int rmargin -> width lmargin rmargin <> 0 -> cstr t -> zlen t < 4294967296 ->
  ~ In NL t -> t <> [] ->
  exists os pieces, arg_print_formatted_ds (S (List.length t)) lmargin rmargin t = Ok os /\
    let out := join (NL :: repeat " "%char (Z.to_nat lmargin)) pieces ++ [NL] in
    writes os out (zlen out).
Proof.
  intros lm rm t L R W C Z N T. destruct (C41_layout lm rm t L R W C Z) as [os [ls [E [Y [S G]]]]].
  exists os, (map piece ls). split; [apply E; lia|]. cbv zeta in *.
  assert (X : ls <> [] -> output (indentation lm) ls = join (NL :: repeat " "%char (Z.to_nat lm)) (map piece ls) ++ [NL]).
  { assert (N' : ~ In NL (source ls)) by (rewrite S; exact N). clear - Y N'. revert Y N'. generalize (width lm rm) as w. intros w Y N'.
    induction ls as [|l ls IH]; [congruence|]. intros _. cbn [source flat_map] in N'. fold (source ls) in N'.
    destruct Y as [GL Y]. cbn [output flat_map map join]. fold (output (indentation lm) ls). unfold line_out.
    assert (NN : newline l = false).
    { destruct (newline l) eqn:NE; [|reflexivity]. exfalso. apply N'. unfold line_text, nl. rewrite NE. rewrite !in_app_iff. cbn. auto. }
    assert (GI := gl_indent _ _ _ GL). unfold nl in GI. rewrite NN in GI. cbn [nl_if app] in GI.
    destruct ls as [|l' ls].
    - cbn [source flat_map] in GI. rewrite app_nil_r in GI. assert (W := gl_width _ _ _ GL).
      destruct (indented l); [exfalso; destruct (proj1 GI eq_refl); lia|]. cbn. rewrite app_nil_r. reflexivity.
    - assert (RN : source (l' :: ls) <> []) by (exact (gl_some _ _ _ (proj1 Y))).
      assert (WL := wrap_long _ _ _ GL NN RN). destruct (gl_wrap _ _ _ GL NN RN) as [PN _].
      destruct (indented l) eqn:IL.
      + rewrite (IH Y); [|intro K; apply N'; apply in_app_iff; right; exact K|discriminate].
        cbn [map]. rewrite <- !app_assoc. reflexivity.
      + exfalso. assert (K : false = true) by (apply GI; split; [rewrite zlen_app; exact WL|intros [K _]; exact (PN K)]).
        discriminate. }
  rewrite X in G; [exact G|]. intros ->. apply T. rewrite <- S. reflexivity.
Qed.
Example C42_case : exists os m, arg_print_formatted_ds 20 4 9 (lit "one two" ++ NL :: lit "six seven") = Ok os /\
  print_to (fun _ => NUL) false os = Ok (lit "one" ++ [NL] ++ lit "    two" ++ [NL] ++ lit "    " ++ [NL] ++ lit "    six" ++ [NL] ++ lit "    seven" ++ [NL], m).
Proof. eexists _, _. split; [vm_compute; reflexivity|]. vm_compute. reflexivity. Qed.
(** After a newline of the text there is no indentation when the text left fits into a line. *)
Theorem C42_indented_refuted : exists lmargin rmargin t os m,
  0 <= lmargin <= rmargin /\ arg_print_formatted_ds (S (List.length t)) lmargin rmargin t = Ok os /\
  print_to (fun _ => NUL) false os = Ok (lit "a" ++ [NL] ++ lit "b" ++ [NL], m) /\ lmargin = 4.
Proof. exists 4, 20, (lit "a" ++ NL :: lit "b"). eexists _, _. split; [lia|]. split; [vm_compute; reflexivity|]. split; [vm_compute; reflexivity|reflexivity]. Qed.
(** And a newline can give two line ends: here every line of the text fits into the column. *)
Theorem C42_newlines_kept_refuted : exists rmargin t os m,
  t = lit "abcd" ++ NL :: lit "efgh" /\ width 0 rmargin = 6 /\
  arg_print_formatted_ds (S (List.length t)) 0 rmargin t = Ok os /\
  print_to (fun _ => NUL) false os = Ok (lit "abcd" ++ [NL; NL] ++ lit "efgh" ++ [NL], m).
Proof. exists 5. eexists _, _, _. split; [reflexivity|]. split; [reflexivity|]. split; [vm_compute; reflexivity|]. vm_compute. reflexivity. Qed.

(** ** C54: the glossary in GNU format *)

(** The tags of an option; those without letter are indented. *)
Definition gnu_tags (h : hdr) : str :=
  (if isome (h_longopts h) && negb (isome (h_shortopts h)) then lit "    " else []) ++
  verbose (h_shortopts h) (h_longopts h) (h_datatype h) (h_hasoptvalue h) (lit ", ").
(** A row: a column of 25 with the tags, on a line of their own if they are longer, and the description in a column of
    its own, columns 29 to 80. *)
Definition gnu_column (s : str) : str := lit "  " ++ pad_right 25 s ++ lit " ".
Definition gnu_row (tags : str) (ls : list line) : str :=
  (if 25 <? zlen tags then gnu_column tags ++ [NL] ++ gnu_column [] else gnu_column tags) ++ output (indentation 28) ls.
Inductive gnu_rows : list hdr -> str -> Prop :=
| gnu_done : gnu_rows [] [NL]
| gnu_skip h hs out : h_glossary h = None -> gnu_rows hs out -> gnu_rows (h :: hs) out
| gnu_next h hs g tags ls out : h_glossary h = Some g -> shows (gnu_tags h) tags -> layout 52 ls -> source ls = g ->
    gnu_rows hs out -> gnu_rows (h :: hs) (gnu_row tags ls ++ out).

Lemma gnu_syntax_ok h : texts_ok h -> exists out, gnu_syntax h = Ok out /\ shows (gnu_tags h) out /\ cstr out.
Proof.
  intros [A [B [C _]]]. unfold gnu_syntax, gnu_tags.
  assert (X : exists buf T, match h_shortopts h, h_longopts h with None, Some _ => repeat " "%char 4 ++ repeat NUL 196 | _, _ => syntax0 end = buf /\
     holds (buf, 0, 199) T /\ T = if isome (h_longopts h) && negb (isome (h_shortopts h)) then lit "    " else []).
  { destruct (h_shortopts h), (h_longopts h); cbn [isome andb negb]; eexists _, _; (split; [reflexivity|]); split;
      try exact start_holds; try exact start_gnu_holds; reflexivity. }
  destruct X as [buf [T [-> [H ->]]]].
  destruct (verbose_ok _ _ (h_shortopts h) (h_longopts h) (h_datatype h) (h_hasoptvalue h) (lit ", ") H A B C ltac:(clit)) as [buf' [out [E1 [E2 [E3 E4]]]]].
  exists out. rewrite E1. cbn [bind]. auto.
Qed.
Lemma cstr_column s : cstr s -> cstr (gnu_column s).
Proof.
  intro C. unfold gnu_column, pad_right. repeat (apply cstr_app; split); auto; try clit. intro K. apply repeat_spec in K. discriminate.
Qed.

Theorem C54_glossary_gnu : forall hs rest,
  Forall texts_ok hs -> Forall (fun h => match h_glossary h with Some g => zlen g < 4294967296 | None => True end) hs ->
  exists os out, arg_print_glossary_gnu_ds (table hs SEnd rest) = Ok os /\ gnu_rows hs out /\
    writes os out (zlen out + 19 * zlen (described hs)).
Proof.
  intros hs rest T GL. unfold arg_print_glossary_gnu_ds. rewrite until_end_ok. cbn [bind].
  assert (R : exists o out, glossary_gnu_rows hs = Ok o /\ gnu_rows hs out /\ gives (o ++ [OCat [NL]]) out (19 * zlen (described hs))).
  { induction hs as [|h hs IH]; cbn [glossary_gnu_rows].
    - eexists _, _. split; [reflexivity|]. split; [constructor|]. cbn [app]. apply (gives_weaken _ _ 0); [|cbn; lia].
      apply gives_cat. intros [K|[]]. discriminate K.
    - inversion T as [|x y T1 T2]; subst. inversion GL as [|x y G1 G2]; subst. destruct (IH T2 G2) as [o [out [E [GR GV]]]].
      unfold described. cbn [filter]. fold (described hs). destruct (h_glossary h) as [g|] eqn:HG; cbn [isome].
      2:{ cbn [bind]. rewrite E. cbn [bind app]. eexists _, _. split; [reflexivity|]. split; [apply gnu_skip; [exact HG|exact GR]|exact GV]. }
      destruct (gnu_syntax_ok h T1) as [tags [E1 [SH CT]]]. rewrite E1. cbn [bind].
      assert (CG : cstr g) by (destruct T1 as [_ [_ [_ T1]]]; rewrite HG in T1; exact T1).
      destruct (formatted_ok 28 79 g (S (List.length g)) ltac:(discriminate) CG G1 ltac:(lia)) as [o2 [ls [E2 [LY [SR G]]]]].
      change (width 28 79) with 52 in LY.
      assert (COL : forall s, cstr s -> gives [catf "  %-25s " (lit "  " ++ pad_right 25 s ++ lit " ")] (gnu_column s) 8).
      { intros s CS. apply (gives_catf 8 (gnu_column s)); [lia|apply cstr_column; exact CS]. }
      destruct (25 <? zlen tags) eqn:LONG.
      + rewrite E2. cbn [bind]. rewrite E. cbn [bind]. eexists _, _. split; [reflexivity|].
        split; [apply (gnu_next h hs g tags ls out HG SH LY SR GR)|]. rewrite zlen_cons.
        apply (gives_weaken _ _ (11 + (8 + 0) + 19 * zlen (described hs))); [|lia].
        unfold gnu_row. rewrite LONG. rewrite <- !app_assoc. rewrite (app_assoc (gnu_column tags) [NL]).
        rewrite <- (Z.add_assoc 11). apply gives_app.
        { apply (gives_catf 11 (gnu_column tags ++ [NL])); [lia|]. apply cstr_app. split; [apply cstr_column; exact CT|].
          intros [K|[]]. discriminate K. }
        rewrite <- (Z.add_assoc 8). apply gives_app; [apply COL; intros []|]. apply gives_app; [exact G|exact GV].
      + rewrite E2. cbn [bind]. rewrite E. cbn [bind]. eexists _, _. split; [reflexivity|].
        split; [apply (gnu_next h hs g tags ls out HG SH LY SR GR)|]. rewrite zlen_cons.
        apply (gives_weaken _ _ (8 + (0 + 19 * zlen (described hs)))); [|lia].
        unfold gnu_row. rewrite LONG. rewrite <- !app_assoc. cbn [app].
        change (catf "  %-25s " (lit "  " ++ pad_right 25 tags ++ lit " ") :: o2 ++ o ++ [OCat [NL]])
          with ([catf "  %-25s " (lit "  " ++ pad_right 25 tags ++ lit " ")] ++ o2 ++ o ++ [OCat [NL]]).
        apply gives_app; [apply COL; exact CT|]. apply gives_app; [exact G|exact GV]. }
  destruct R as [o [out [E [GR GV]]]]. rewrite E. cbn [bind]. eexists _, out. split; [reflexivity|]. split; [exact GR|].
  eapply gives_writes; [exact GV|lia].
Qed.

Example C54_case : exists os m, arg_print_glossary_gnu_ds (table demo SEnd []) = Ok os /\
  print_to (fun _ => NUL) false os =
  Ok (lit "  -a                        all" ++ [NL] ++
      lit "  -b, -x, --both            both" ++ [NL] ++
      lit "      --opt=[<o>]           optional value" ++ [NL] ++
      lit "  <file>                    inputs" ++ [NL] ++ [NL], m).
Proof. eexists _, _. split; [vm_compute; reflexivity|]. vm_compute. reflexivity. Qed.

Print Assumptions C41_layout.
Print Assumptions C41_layout_margins.
Print Assumptions C41_layout_unique.
Print Assumptions C41_no_word_lost.
Print Assumptions C41_never_returns.
Print Assumptions C41_terminates_refuted.
Print Assumptions C42_indentation.
Print Assumptions C42_without_newlines.
Print Assumptions C42_indented_refuted.
Print Assumptions C42_newlines_kept_refuted.
Print Assumptions C54_glossary_gnu.
