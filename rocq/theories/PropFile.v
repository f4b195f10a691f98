(** Property C20: file arguments. *)
From Verif Require Import Base IntModel FileModel FileSpec.
From Coq Require Import ZArith List Ascii String Bool Lia.
Import ListNotations.
Open Scope Z_scope.

Lemma strrchr_none s c : strrchr s c = None <-> ~ In c s.
Proof.
  induction s as [|x s IH]; simpl; [tauto|].
  destruct (strrchr s c); [split; [discriminate|]|].
  - intros H. exfalso. assert (~ In c s) by tauto. apply IH in H0. discriminate.
  - destruct (ceqb_spec x c); split; intros; try discriminate; try tauto.
Qed.

Lemma strrchr_some s c r : strrchr s c = Some r -> exists t, r = c :: t /\ after_last c s t.
Proof.
  revert r; induction s as [|x s IH]; simpl; intros r; [discriminate|].
  destruct (strrchr s c) as [r'|] eqn:E.
  - intros [= <-]. destruct (IH _ eq_refl) as [t [-> [d [-> Hd]]]].
    exists t. split; auto. exists (x :: d). auto.
  - destruct (ceqb_spec x c); [|discriminate]. intros [= <-]. subst x.
    exists s. split; auto. exists []. split; auto. apply strrchr_none; auto.
Qed.

Lemma after_last_unique c s t1 t2 : after_last c s t1 -> after_last c s t2 -> t1 = t2.
Proof.
  intros [d1 [H1 N1]] [d2 [H2 N2]]. subst s. revert d2 H2.
  induction d1 as [|x d1 IH]; intros [|y d2]; simpl; intros H.
  - congruence.
  - exfalso. apply N1. assert (E : t1 = d2 ++ c :: t2) by congruence. rewrite E.
    apply in_or_app. right; simpl; auto.
  - exfalso. apply N2. assert (E : t2 = d1 ++ c :: t1) by congruence. rewrite E.
    apply in_or_app. right; simpl; auto.
  - apply (IH d2). congruence.
Qed.

Lemma after_last_in c s t : after_last c s t -> In c s.
Proof. intros [d [-> _]]. apply in_or_app. right; simpl; auto. Qed.

Lemma arg_basename_spec sp f : base_name (sep1 sp) (sep2 sp) f (arg_basename sp f).
Proof.
  unfold arg_basename.
  set (r := match strrchr f (sep1 sp) with Some r => tl r | None =>
            match strrchr f (sep2 sp) with Some r => tl r | None => f end end).
  assert (H : last_component (sep1 sp) (sep2 sp) f r).
  { unfold r. destruct (strrchr f (sep1 sp)) as [r1|] eqn:E1.
    - apply strrchr_some in E1 as [t [-> H]]. apply lc_1; auto.
    - apply strrchr_none in E1. destruct (strrchr f (sep2 sp)) as [r2|] eqn:E2.
      + apply strrchr_some in E2 as [t [-> H]]. apply lc_2; auto.
      + apply strrchr_none in E2. apply lc_0; auto. }
  clearbody r.
  destruct (str_eqb (lit ".") r || str_eqb (lit "..") r) eqn:E.
  - apply bn_dots with r; auto. apply orb_true_iff in E as [E|E]; apply str_eqb_eq in E; unfold dots; auto.
  - apply bn_plain; auto. intros [-> | ->]; discriminate.
Qed.

Lemma last_component_unique sp1 sp2 f b1 b2 :
  last_component sp1 sp2 f b1 -> last_component sp1 sp2 f b2 -> b1 = b2.
Proof.
  intros [t H|t N H|N1 N2] [t' H'|t' N' H'|N1' N2']; auto;
    try (eapply after_last_unique; eauto; fail);
    exfalso; eauto using after_last_in.
Qed.

Lemma base_name_unique sp1 sp2 f b1 b2 :
  base_name sp1 sp2 f b1 -> base_name sp1 sp2 f b2 -> b1 = b2.
Proof.
  intros [b H N|b H N] [b' H' N'|b' H' N']; auto; pose proof (last_component_unique _ _ _ _ _ H H'); subst; tauto.
Qed.

Lemma extension_unique b e1 e2 : extension b e1 -> extension b e2 -> e1 = e2.
Proof.
  intros [e H|H] [e' H'|H']; auto; try (exfalso; eapply H; eauto; fail); try (exfalso; eapply H'; eauto; fail).
  destruct H as (p & t & -> & -> & Hn & _). destruct H' as (p' & t' & E & -> & Hn' & _).
  f_equal. eapply (after_last_unique "."%char (p ++ "."%char :: t)).
  - exists p; auto.
  - exists p'; auto.
Qed.

Lemma arg_extension_spec b : extension b (arg_extension b).
Proof.
  unfold arg_extension. destruct (strrchr b ".") as [r|] eqn:E.
  - apply strrchr_some in E as [t [-> [p [-> Hn]]]].
    destruct (Nat.eqb_spec (List.length ("."%char :: t)) (List.length (p ++ "."%char :: t))) as [E|E].
    + simpl. apply ext_none. intros e (p' & t' & E' & -> & Hn' & Hp' & Ht').
      assert (t = t'). { eapply (after_last_unique "."%char (p ++ "."%char :: t)); [exists p|exists p']; auto. }
      subst t'. apply app_inv_tail in E'. subst p'.
      rewrite app_length in E. destruct p; [congruence|]. simpl in E. lia.
    + destruct (Nat.eqb_spec (List.length ("."%char :: t)) 1) as [E1|E1].
      * apply ext_none. intros e (p' & t' & E' & -> & Hn' & Hp' & Ht').
        assert (t = t'). { eapply (after_last_unique "."%char (p ++ "."%char :: t)); [exists p|exists p']; auto. }
        subst t'. destruct t; [congruence|discriminate].
      * apply ext_some. exists p, t. repeat split; auto.
        -- intros ->. apply E. reflexivity.
        -- intros ->. apply E1. reflexivity.
  - apply strrchr_none in E.
    replace (if Nat.eqb (List.length (@nil ascii)) (List.length b) then [] else @nil ascii) with (@nil ascii)
      by (destruct (Nat.eqb _ _); auto).
    simpl. apply ext_none. intros e (p & t & -> & -> & _). apply E. apply in_or_app. right; simpl; auto.
Qed.

(** C20. With a free slot, scanning stores the argument itself, its base name and the extension
    of the base name, each uniquely determined by the specification; both are suffixes of it. *)
Theorem C20_file_scan :
  forall sp maxcount p s,
  0 <= file_count p < maxcount ->
  zlen (file_name p) = maxcount -> zlen (file_base p) = maxcount -> zlen (file_ext p) = maxcount ->
  exists b e,
    base_name (sep1 sp) (sep2 sp) s b /\ extension b e /\
    (exists d, s = d ++ b) /\ (exists d, b = d ++ e) /\
    (forall b', base_name (sep1 sp) (sep2 sp) s b' -> b' = b) /\
    (forall e', extension b e' -> e' = e) /\
    arg_file_scanfn sp maxcount p (Some s) =
      Ok ({| file_count := file_count p + 1;
             file_name := lupd (file_name p) (Z.to_nat (file_count p)) s;
             file_base := lupd (file_base p) (Z.to_nat (file_count p)) b;
             file_ext := lupd (file_ext p) (Z.to_nat (file_count p)) e |}, 0).
Proof.
  intros sp maxcount p s Hc H1 H2 H3.
  exists (arg_basename sp s), (arg_extension (arg_basename sp s)).
  pose proof (arg_basename_spec sp s) as HB. pose proof (arg_extension_spec (arg_basename sp s)) as HE.
  split; auto. split; auto. split; [|split; [|split; [|split]]].
  - destruct HB as [b [t [d [-> _]]|t _ [d [-> _]]|] _|b _ _].
    + exists (d ++ [sep1 sp]). rewrite <- app_assoc. reflexivity.
    + exists (d ++ [sep2 sp]). rewrite <- app_assoc. reflexivity.
    + exists []. reflexivity.
    + exists s. rewrite app_nil_r. reflexivity.
  - destruct HE as [e (p' & t & -> & _)|_].
    + exists p'; auto.
    + exists (arg_basename sp s). rewrite app_nil_r; auto.
  - intros b' Hb'. eapply base_name_unique; eauto.
  - intros e' He'. eapply extension_unique; eauto.
  - unfold arg_file_scanfn. destruct (Z.eqb_spec (file_count p) maxcount); [lia|].
    rewrite !aset_ok by lia. cbn [bind].
    unfold aget. destruct (Z.ltb_spec (file_count p) 0); [lia|].
    rewrite nth_error_lupd_eq by (unfold zlen in *; lia). cbn [bind].
    rewrite !aset_ok by lia. reflexivity.
Qed.

Example C20_case_1 : arg_basename unix_seps (lit "/home/me/a.tar.gz") = lit "a.tar.gz"
  /\ arg_extension (lit "a.tar.gz") = lit ".gz".
Proof. vm_compute. auto. Qed.
Example C20_case_2 : arg_basename unix_seps (lit "dir/..") = [] /\ arg_extension (lit ".profile") = []
  /\ arg_extension (lit "foo.") = [] /\ arg_basename unix_seps (lit "dir/") = [].
Proof. vm_compute. auto. Qed.
Example C20_case_win : arg_basename win_seps (lit "C:\dir/x.c") = lit "dir/x.c".
Proof. vm_compute. auto. Qed.

(** The separators themselves: on Unix the slash and nothing else. *)
Definition shown_base (b : str) : str := if str_eqb (lit ".") b || str_eqb (lit "..") b then [] else b.
Lemma strrchr_at d c b : ~ In c b -> strrchr (d ++ c :: b) c = Some (c :: b).
Proof.
  intro N. induction d as [|x d IH]; cbn [app strrchr].
  - rewrite (proj2 (strrchr_none b c) N). destruct (ceqb_spec c c) as [_|X]; [reflexivity|contradiction X; reflexivity].
  - rewrite IH. reflexivity.
Qed.
Theorem C20_unix : forall s b, ~ In "/"%char b -> (s = b \/ exists d, s = d ++ "/"%char :: b) -> arg_basename unix_seps s = shown_base b.
Proof.
  intros s b N [->|[d ->]]; unfold arg_basename; cbn [sep1 sep2 unix_seps].
  - rewrite (proj2 (strrchr_none b "/"%char) N). reflexivity.
  - rewrite strrchr_at by auto. reflexivity.
Qed.
(** On Windows the slash and the backslash, as long as no backslash is to the left of the last slash. *)
Theorem C20_windows : forall s b, ~ In "/"%char b -> ~ In "\"%char b ->
  (s = b \/ (exists d, s = d ++ "\"%char :: b) \/ (exists d, s = d ++ "/"%char :: b /\ ~ In "\"%char d)) -> arg_basename win_seps s = shown_base b.
Proof.
  intros s b N M [->|[[d ->]|[d [-> X]]]]; unfold arg_basename; cbn [sep1 sep2 win_seps].
  - rewrite (proj2 (strrchr_none b "\"%char) M), (proj2 (strrchr_none b "/"%char) N). reflexivity.
  - rewrite strrchr_at by auto. reflexivity.
  - assert (Y : ~ In "\"%char (d ++ "/"%char :: b)) by (rewrite in_app_iff; cbn [In]; intros [I|[I|I]]; [auto|discriminate|auto]).
    rewrite (proj2 (strrchr_none _ "\"%char) Y), strrchr_at by auto. reflexivity.
Qed.
Theorem C20_windows_refuted : exists s, In "/"%char (arg_basename win_seps s).
Proof. exists (lit "C:\dir/x.c"). vm_compute. auto 6. Qed.
Example C20_case_unix : arg_basename unix_seps (lit "my\zoo/fizz.c") = lit "fizz.c" /\ arg_basename unix_seps (lit "a\b:z") = lit "a\b:z".
Proof. split; [apply (C20_unix _ (lit "fizz.c"))|apply (C20_unix _ (lit "a\b:z"))]; [cbn; intuition discriminate|right; exists (lit "my\zoo"); reflexivity|cbn; intuition discriminate|left; reflexivity]. Qed.
Example C20_case_windows : arg_basename win_seps (lit "a/b\c.txt") = lit "c.txt".
Proof. apply (C20_windows _ (lit "c.txt")); [cbn; intuition discriminate..|]. right. left. exists (lit "a/b"). reflexivity. Qed.

Print Assumptions C20_file_scan.
Print Assumptions C20_unix.
Print Assumptions C20_windows.
Print Assumptions C20_windows_refuted.
