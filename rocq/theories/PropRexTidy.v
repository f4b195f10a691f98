(** C81: patterns whose parts can be told apart by the next character. For these the matcher, which never goes back, misses nothing. *)
From Coq Require Import ZArith String List Ascii Bool Lia.
From Verif Require Import Base RexModel RexSpec RexRead RexComplete PropRex.
Import ListNotations.
Open Scope Z_scope.

(** ** Specification: a check of the expression alone *)
Definition all_chars : list ascii := map ascii_of_nat (List.seq 0 256).
(** No character is in both sets. *)
Definition apart (f g : ascii -> bool) : bool := forallb (fun c => negb (f c && g c)) all_chars.
Definition alike (icase : bool) (c x : ascii) : bool := ceqb x c || icase && ceqb (tolower x) (tolower c).
Definition classb (k x : ascii) : bool :=
  existsb (fun p => ceqb (fst p) k && snd p) [("a", isalphab x); ("A", negb (isalphab x)); ("w", isalnumb x || ceqb x "_"); ("W", negb (isalnumb x || ceqb x "_"));
    ("s", isspaceb x); ("S", negb (isspaceb x)); ("d", isdigitb x); ("D", negb (isdigitb x)); ("x", isxdigitb x); ("X", negb (isxdigitb x));
    ("c", iscntrlb x); ("C", negb (iscntrlb x)); ("p", ispunctb x); ("P", negb (ispunctb x)); ("l", islowerb x); ("u", isupperb x)]%char.
Definition withinb (a b x : ascii) : bool := (sc a <=? sc x) && (sc x <=? sc b).

Section Tidy.
Context (icase : bool).
Definition itemb (i : item) (x : ascii) : bool :=
  match i with
  | IChar c => alike icase c x
  | INamed k => classb k x
  | IRange a b => withinb a b x || icase && (withinb a b (tolower x) || withinb a b (toupper x))
  end.

(** May it be empty where more text follows ([bare]), or anywhere ([void])? *)
Fixpoint bare (e : elem) : bool :=
  match e with
  | Char _ | Named _ | Any | Set_ _ _ | End => false
  | Boundary _ => true
  | Repeat lo _ e => (lo <=? 0) || bare e
  | Group _ a => bare_alt a
  end
with bare_seq (s : seq) : bool := match s with One e => bare e | More e s => bare e && bare_seq s end
with bare_alt (a : alt) : bool := match a with Just _ s => bare_seq s | Or _ s a => bare_seq s || bare_alt a end.
Fixpoint void (e : elem) : bool :=
  match e with
  | Char _ | Named _ | Any | Set_ _ _ => false
  | Boundary _ | End => true
  | Repeat lo _ e => (lo <=? 0) || void e
  | Group _ a => void_alt a
  end
with void_seq (s : seq) : bool := match s with One e => void e | More e s => void e && void_seq s end
with void_alt (a : alt) : bool := match a with Just _ s => void_seq s | Or _ s a => void_seq s || void_alt a end.
(** The characters it can begin with *)
Fixpoint first (e : elem) (x : ascii) : bool :=
  match e with
  | Char c => alike icase c x
  | Named k => classb k x
  | Boundary _ | End => false
  | Any => true
  | Set_ neg l => xorb neg (existsb (fun i => itemb i x) l)
  | Repeat _ _ e => first e x
  | Group _ a => first_alt a x
  end
with first_seq (s : seq) (x : ascii) : bool := match s with One e => first e x | More e s => first e x || bare e && first_seq s x end
with first_alt (a : alt) (x : ascii) : bool := match a with Just _ s => first_seq s x | Or _ s a => first_seq s x || first_alt a x end.
(** All that its elements can begin with; all but the first *)
Fixpoint letters (s : seq) (x : ascii) : bool := match s with One e => first e x | More e s => first e x || letters s x end.
Definition later (s : seq) (x : ascii) : bool := match s with One _ => false | More _ s => letters s x end.
(** Alternatives that the first character tells apart *)
Definition told (s : seq) (a : alt) : bool := negb (bare_seq s) && apart (first_seq s) (first_alt a).

(** Plain words, none of which is a proper beginning of a later one *)
Fixpoint word_of (s : seq) : option str :=
  match s with
  | One (Char c) => Some [c]
  | More (Char c) s => option_map (cons c) (word_of s)
  | _ => None
  end.
Fixpoint words_of (a : alt) : option (list str) :=
  match a with
  | Just _ s => option_map (fun w => [w]) (word_of s)
  | Or _ s a => match word_of s, words_of a with Some w, Some ws => Some (w :: ws) | _, _ => None end
  end.
Fixpoint early (w v : str) : bool :=
  match w, v with
  | [], _ :: _ => true
  | c :: w, d :: v => alike icase c d && early w v
  | _, [] => false
  end.
Definition distinct (s : seq) (a : alt) : bool :=
  match word_of s, words_of a with Some w, Some ws => forallb (fun v => negb (early w v)) ws | _, _ => false end.

(** Having matched, with which characters could it have gone on? *)
Fixpoint more (e : elem) (x : ascii) : bool :=
  match e with
  | Repeat _ _ e => more e x || first e x
  | Group _ a => more_alt a x
  | _ => false
  end
with more_seq (s : seq) (x : ascii) : bool := match s with One e => more e x | More e s => more_seq s x || bare_seq s && more e x end
with more_alt (a : alt) (x : ascii) : bool :=
  match a with
  | Just _ s => more_seq s x
  | Or _ s a => more_seq s x || more_alt a x || (if told s a then bare_alt a && first_seq s x else later s x)
  end.

Definition skippable (e : elem) : bool := match e with Repeat lo _ _ => lo =? 0 | _ => false end.
Fixpoint unanchored (a : alt) : bool := match a with Just b _ => negb b | Or b _ a => negb b && unanchored a end.
(** Wherever there is a choice (to go on with a repetition or not, which alternative) the next character decides. *)
Fixpoint tidy_elem (next : option elem) (e : elem) : bool :=
  match e with
  | Boundary _ => false
  | Repeat lo hi e =>
      negb (void e) && apart (more e) (first e) && match hi with Some h => 0 <=? h | None => true end &&
      match next with None => true | Some y => skippable y || negb (bare y) && apart (first e) (first y) end &&
      tidy_elem next e
  | Group _ a => (unanchored a || negb (bare_alt a)) && tidy_alt next a
  | _ => true
  end
with tidy_seq (next : option elem) (s : seq) : bool :=
  match s with
  | One e => tidy_elem next e
  | More e s => tidy_elem (Some (head s)) e && apart (more e) (first_seq s) && tidy_seq next s
  end
with tidy_alt (next : option elem) (a : alt) : bool :=
  match a with
  | Just _ s => tidy_seq next s
  | Or _ s a => tidy_seq None s && tidy_alt None a && (told s a || distinct s a)
  end.
Definition tidy (r : alt) : bool := tidy_alt None r.
End Tidy.

(** ** Proofs *)
Scheme elem_mind := Induction for elem Sort Prop
  with seq_mind := Induction for seq Sort Prop
  with alt_mind := Induction for alt Sort Prop.
Combined Scheme rex_mind from elem_mind, seq_mind, alt_mind.

Lemma all_chars_in c : In c all_chars.
Proof. unfold all_chars. apply in_map_iff. exists (nat_of_ascii c). split; [apply ascii_nat_embedding|]. apply in_seq. pose proof (nat_ascii_bounded c). lia. Qed.
Lemma apart_ok f g c : apart f g = true -> f c = true -> g c = true -> False.
Proof. intros H F G. unfold apart in H. rewrite forallb_forall in H. specialize (H c (all_chars_in c)). rewrite F, G in H. discriminate. Qed.
Lemma alike_ok icase c x : alike icase c x = true <-> same icase c x.
Proof.
  unfold alike, same. rewrite orb_true_iff, andb_true_iff, !ceqb_eq. tauto.
Qed.
Lemma classb_ok k x : classb k x = true <-> in_class k x.
Proof.
  unfold classb, in_class. set (l := [("a"%char, isalphab x); _; _; _; _; _; _; _; _; _; _; _; _; _; _; _]). clearbody l. rewrite existsb_exists. split.
  - intros ((c & b) & Hi & H). cbn in H. apply andb_true_iff in H as [H ->]. apply ceqb_eq in H. subst c. exact Hi.
  - intros H. exists (k, true). split; [exact H|]. cbn. rewrite andb_true_r. apply ceqb_eq. reflexivity.
Qed.
Lemma withinb_ok a b x : withinb a b x = true <-> within a b x.
Proof. unfold withinb, within. rewrite andb_true_iff, !Z.leb_le. tauto. Qed.
Lemma itemb_ok icase i x : itemb icase i x = true <-> in_item icase i x.
Proof.
  destruct i; cbn [itemb in_item]; [apply alike_ok|apply classb_ok|]. rewrite orb_true_iff, andb_true_iff, orb_true_iff, !withinb_ok. tauto.
Qed.
Lemma setb_ok icase l x : existsb (fun i => itemb icase i x) l = true <-> in_set icase l x.
Proof. rewrite existsb_exists. unfold in_set. split; intros (i & H1 & H2); exists i; split; auto; apply itemb_ok; auto. Qed.

Section Equations.
Context (icase : bool).
Lemma first_repeat lo hi e x : first icase (Repeat lo hi e) x = first icase e x. Proof. reflexivity. Qed.
Lemma first_group b a x : first icase (Group b a) x = first_alt icase a x. Proof. reflexivity. Qed.
Lemma first_one e x : first_seq icase (One e) x = first icase e x. Proof. reflexivity. Qed.
Lemma first_more e s x : first_seq icase (More e s) x = first icase e x || bare e && first_seq icase s x. Proof. reflexivity. Qed.
Lemma first_just b s x : first_alt icase (Just b s) x = first_seq icase s x. Proof. reflexivity. Qed.
Lemma first_or b s a x : first_alt icase (Or b s a) x = first_seq icase s x || first_alt icase a x. Proof. reflexivity. Qed.
Lemma more_repeat lo hi e x : more icase (Repeat lo hi e) x = more icase e x || first icase e x. Proof. reflexivity. Qed.
Lemma more_group b a x : more icase (Group b a) x = more_alt icase a x. Proof. reflexivity. Qed.
Lemma more_one e x : more_seq icase (One e) x = more icase e x. Proof. reflexivity. Qed.
Lemma more_more e s x : more_seq icase (More e s) x = more_seq icase s x || bare_seq s && more icase e x. Proof. reflexivity. Qed.
Lemma more_just b s x : more_alt icase (Just b s) x = more_seq icase s x. Proof. reflexivity. Qed.
Lemma more_or b s a x : more_alt icase (Or b s a) x = more_seq icase s x || more_alt icase a x || (if told icase s a then bare_alt a && first_seq icase s x else later icase s x). Proof. reflexivity. Qed.
Lemma tidy_repeat next lo hi e : tidy_elem icase next (Repeat lo hi e) = negb (void e) && apart (more icase e) (first icase e) && match hi with Some h => 0 <=? h | None => true end &&
  match next with None => true | Some y => skippable y || negb (bare y) && apart (first icase e) (first icase y) end && tidy_elem icase next e. Proof. reflexivity. Qed.
Lemma tidy_group next b a : tidy_elem icase next (Group b a) = (unanchored a || negb (bare_alt a)) && tidy_alt icase next a. Proof. reflexivity. Qed.
Lemma tidy_one next e : tidy_seq icase next (One e) = tidy_elem icase next e. Proof. reflexivity. Qed.
Lemma tidy_more next e s : tidy_seq icase next (More e s) = tidy_elem icase (Some (head s)) e && apart (more icase e) (first_seq icase s) && tidy_seq icase next s. Proof. reflexivity. Qed.
Lemma tidy_just next b s : tidy_alt icase next (Just b s) = tidy_seq icase next s. Proof. reflexivity. Qed.
Lemma tidy_or next b s a : tidy_alt icase next (Or b s a) = tidy_seq icase None s && tidy_alt icase None a && (told icase s a || distinct icase s a). Proof. reflexivity. Qed.
End Equations.
Ltac eqs := rewrite ?tidy_repeat, ?tidy_group, ?tidy_one, ?tidy_more, ?tidy_just, ?tidy_or in *.
Ltac gives x := exists x; rewrite ?first_repeat, ?first_group, ?first_one, ?first_more, ?first_just, ?first_or, ?more_repeat, ?more_group, ?more_one, ?more_more, ?more_just, ?more_or.

Section Texts.
Context (icase : bool) (text : str) (edge : nat -> Prop).
Notation elem_in := (elem_in icase text edge).
Notation times := (times icase text edge).
Notation seq_in := (seq_in icase text edge).
Notation alt_in := (alt_in icase text edge).
Notation "s @ i" := (nth_error s i) (at level 30).

Ltac sizes := repeat match goal with
  | H : elem_in ?e ?i ?j |- _ => lazymatch goal with _ : (i <= j)%nat |- _ => fail | _ => pose proof (proj1 (elem_inside _ _ _ _ _ _ H)) end
  | H : seq_in ?e ?i ?j |- _ => lazymatch goal with _ : (i <= j)%nat |- _ => fail | _ => pose proof (proj1 (seq_inside _ _ _ _ _ _ H)) end
  | H : alt_in ?e ?i ?j |- _ => lazymatch goal with _ : (i <= j)%nat |- _ => fail | _ => pose proof (proj1 (alt_inside _ _ _ _ _ _ H)) end
  | H : times ?e ?n ?i ?j |- _ => lazymatch goal with _ : (i <= j)%nat |- _ => fail | _ => pose proof (proj1 (proj1 (proj2 (in_inside icase text edge)) _ _ _ _ H)) end
  end.
(** What matches the empty text. *)
Lemma empties : (forall e i j, elem_in e i j -> i = j -> forall x, text @ i = Some x -> bare e = true) /\
    (forall e n i j, times e n i j -> i = j -> forall x, text @ i = Some x -> n = O \/ bare e = true) /\
    (forall s i j, seq_in s i j -> i = j -> forall x, text @ i = Some x -> bare_seq s = true) /\
    (forall a i j, alt_in a i j -> i = j -> forall x, text @ i = Some x -> bare_alt a = true).
Proof.
  apply (in_mind icase text edge (fun e i j => i = j -> forall x, text @ i = Some x -> bare e = true) (fun e n i j => i = j -> forall x, text @ i = Some x -> n = O \/ bare e = true)
      (fun s i j => i = j -> forall x, text @ i = Some x -> bare_seq s = true) (fun a i j => i = j -> forall x, text @ i = Some x -> bare_alt a = true)); intros; cbn [bare bare_seq bare_alt]; try lia; eauto; sizes.
  - match goal with H : text @ _ = Some _ |- _ => assert (K : text @ (List.length text) = None) by (apply nth_error_None; lia); congruence end.
  - destruct (H0 H3 _ H4) as [->|B]; [|rewrite B; apply orb_true_r]. assert (lo <=? 0 = true) as -> by (apply Z.leb_le; lia). reflexivity.
  - right. assert (j = k) as -> by lia. subst. eauto.
  - assert (j = k) as -> by lia. subst. rewrite (H0 eq_refl _ H4), (H2 eq_refl _ H4). reflexivity.
  - rewrite (H1 H2 _ H3). reflexivity.
  - rewrite (H0 H1 _ H2). apply orb_true_r.
Qed.
Lemma voids : (forall e i j, elem_in e i j -> i = j -> void e = true) /\ (forall e n i j, times e n i j -> i = j -> n = O \/ void e = true) /\
    (forall s i j, seq_in s i j -> i = j -> void_seq s = true) /\ (forall a i j, alt_in a i j -> i = j -> void_alt a = true).
Proof.
  apply (in_mind icase text edge (fun e i j => i = j -> void e = true) (fun e n i j => i = j -> n = O \/ void e = true)
      (fun s i j => i = j -> void_seq s = true) (fun a i j => i = j -> void_alt a = true)); intros; cbn [void void_seq void_alt]; try lia; eauto; sizes.
  - destruct (H0 H3) as [->|B]; [|rewrite B; apply orb_true_r]. assert (lo <=? 0 = true) as -> by (apply Z.leb_le; lia). reflexivity.
  - right. assert (j = k) as -> by lia. subst. eauto.
  - assert (j = k) as -> by lia. subst. rewrite (H0 eq_refl), (H2 eq_refl). reflexivity.
  - rewrite (H1 H2). reflexivity.
  - rewrite (H0 H1). apply orb_true_r.
Qed.
(** What it begins with. *)
Lemma starts : (forall e i j, elem_in e i j -> (i < j)%nat -> exists x, text @ i = Some x /\ first icase e x = true) /\
  (forall e n i j, times e n i j -> (i < j)%nat -> exists x, text @ i = Some x /\ first icase e x = true) /\
  (forall s i j, seq_in s i j -> (i < j)%nat -> exists x, text @ i = Some x /\ first_seq icase s x = true) /\
  (forall a i j, alt_in a i j -> (i < j)%nat -> exists x, text @ i = Some x /\ first_alt icase a x = true).
Proof.
  apply (in_mind icase text edge (fun e i j => (i < j)%nat -> exists x, text @ i = Some x /\ first icase e x = true) (fun e n i j => (i < j)%nat -> exists x, text @ i = Some x /\ first icase e x = true)
    (fun s i j => (i < j)%nat -> exists x, text @ i = Some x /\ first_seq icase s x = true) (fun a i j => (i < j)%nat -> exists x, text @ i = Some x /\ first_alt icase a x = true));
    intros; eqs; try lia; eauto; sizes.
  - gives x. split; auto. apply alike_ok. auto.
  - gives x. split; auto. apply classb_ok. auto.
  - gives x. split; auto. cbn [first]. apply setb_ok in H0. rewrite H0. reflexivity.
  - gives x. split; auto. cbn [first]. destruct (existsb _ l) eqn:E; auto. apply setb_ok in E. contradiction.
  - destruct (Nat.eq_dec i j) as [<-|]; [apply H2; lia|apply H0; lia].
  - destruct (Nat.eq_dec i j) as [<-|].
    + destruct H2 as (x & Hx & F); [lia|]. gives x. split; auto. rewrite F, (proj1 empties _ _ _ H eq_refl _ Hx). apply orb_true_r.
    + destruct H0 as (x & Hx & F); [lia|]. gives x. split; auto. rewrite F. reflexivity.
  - destruct H1 as (x & Hx & F); [lia|]. gives x. rewrite F. auto.
  - destruct H0 as (x & Hx & F); [lia|]. gives x. rewrite F. split; auto. apply orb_true_r.
Qed.
Lemma bare_void : (forall e, bare e = true -> void e = true) /\ (forall s, bare_seq s = true -> void_seq s = true) /\ (forall a, bare_alt a = true -> void_alt a = true).
Proof.
  apply rex_mind; intros; cbn [bare bare_seq bare_alt void void_seq void_alt] in *; try discriminate; auto.
  - apply orb_true_iff in H0 as [->|H0]; auto. rewrite (H H0). apply orb_true_r.
  - apply andb_true_iff in H1 as [H1 H2]. rewrite (H H1), (H0 H2). reflexivity.
  - apply orb_true_iff in H1 as [H1|H1]; [rewrite (H H1); reflexivity|rewrite (H0 H1); apply orb_true_r].
Qed.
(** Tidy parts that may be empty may be so everywhere. *)
Lemma empty_anywhere : (forall e next, tidy_elem icase next e = true -> bare e = true -> forall i, elem_in e i i) /\
  (forall s next, tidy_seq icase next s = true -> bare_seq s = true -> forall i, seq_in s i i) /\
  (forall a next, tidy_alt icase next a = true -> unanchored a = true -> bare_alt a = true -> forall i, alt_in a i i).
Proof.
  apply rex_mind; intros; eqs; cbn [bare bare_seq bare_alt unanchored] in *; try discriminate; rewrite ?andb_true_iff, ?orb_true_iff, ?negb_true_iff in *; try tauto.
  - destruct H0 as ((((V & _) & Hh) & _) & _). assert (bare e = false) as Hb by (destruct (bare e) eqn:B; auto; apply (proj1 bare_void) in B; congruence).
    destruct H1 as [H1|H1]; [|congruence]. apply Z.leb_le in H1. apply in_repeat with (n := O); [constructor|lia|]. intros h ->. apply Z.leb_le in Hh. lia.
  - constructor. destruct H0 as [[U|U] T]; [|congruence]. eauto.
  - constructor. eauto.
  - destruct H1 as ((T1 & _) & T2), H2. econstructor; eauto.
  - constructor; [congruence|]. eauto.
  - destruct H1 as ((T1 & T2) & _), H2 as [U1 U2]. destruct H3 as [B|B]; [apply in_left; [congruence|eauto]|apply in_right; eauto].
Qed.
(** *** Words *)
Lemma word_in : forall s w i j, word_of s = Some w -> seq_in s i j -> j = (i + List.length w)%nat /\ forall n c, w @ n = Some c -> exists x, text @ (i + n) = Some x /\ same icase c x.
Proof.
  assert (C : forall c i j, elem_in (Char c) i j -> j = S i /\ exists x, text @ i = Some x /\ same icase c x) by (intros c i j H; inversion H; subst; eauto).
  induction s as [e|e s IH]; intros w i j W H; inversion H; subst; cbn [word_of] in W; destruct e; try discriminate.
  - injection W as <-. match goal with E : elem_in (Char _) _ _ |- _ => destruct (C _ _ _ E) as (-> & K) end. split; [cbn; lia|]. intros n c' N. destruct n; [|destruct n; discriminate]. injection N as <-. rewrite Nat.add_0_r. exact K.
  - destruct (word_of s) as [v|]; [|discriminate]. injection W as <-. match goal with E : elem_in (Char _) _ _, S : seq_in s _ _ |- _ => destruct (C _ _ _ E) as (-> & K); destruct (IH _ _ _ eq_refl S) as (-> & K2) end. split; [cbn; lia|].
    intros n c' N. destruct n as [|n]; [injection N as <-; rewrite Nat.add_0_r; exact K|]. rewrite <- Nat.add_succ_comm. exact (K2 n c' N).
Qed.
Lemma words_in : forall a ws i k, words_of a = Some ws -> alt_in a i k -> exists v, In v ws /\ k = (i + List.length v)%nat /\ forall n c, v @ n = Some c -> exists x, text @ (i + n) = Some x /\ same icase c x.
Proof.
  induction a as [b s|b s a IH]; intros ws i k W H; inversion H; subst; cbn [words_of] in W; destruct (word_of s) as [w|] eqn:E; try discriminate.
  - injection W as <-. exists w. split; [left; auto|]. eapply word_in; eauto.
  - destruct (words_of a); [|discriminate]. injection W as <-. exists w. split; [left; auto|]. eapply word_in; eauto.
  - destruct (words_of a) as [l|]; [|discriminate]. injection W as <-. destruct (IH l i k eq_refl) as (v & I & K); auto. exists v. split; [right; auto|exact K].
Qed.
Lemma early_ok : forall w v i, (forall n c, w @ n = Some c -> exists x, text @ (i + n) = Some x /\ same icase c x) -> (forall n c, v @ n = Some c -> exists x, text @ (i + n) = Some x /\ same icase c x) ->
  (List.length w < List.length v)%nat -> early icase w v = true.
Proof.
  induction w as [|c w IH]; intros [|d v] i Hw Hv L; cbn [List.length] in L; try lia; auto. cbn [early]. apply andb_true_iff. split.
  - destruct (Hw 0%nat c eq_refl) as (x & Hx & S1). destruct (Hv 0%nat d eq_refl) as (y & Hy & S2). rewrite Hx in Hy. injection Hy as <-. apply alike_ok. unfold same in *.
    destruct S1 as [->|[I1 S1]], S2 as [->|[I2 S2]]; auto; right; split; auto; congruence.
  - apply (IH v (S i)); [| |lia]; intros n e N; [destruct (Hw (S n) e N) as (x & Hx & S1)|destruct (Hv (S n) e N) as (x & Hx & S1)]; exists x; rewrite Nat.add_succ_comm; auto.
Qed.
Lemma word_letters : forall s w n c x, word_of s = Some w -> w @ n = Some c -> same icase c x -> letters icase s x = true.
Proof.
  induction s as [e|e s IH]; intros w n c x W N S; cbn [word_of] in W; destruct e; try discriminate; cbn [letters first].
  - injection W as <-. destruct n; [|destruct n; discriminate]. injection N as <-. apply alike_ok. exact S.
  - destruct (word_of s) as [v|]; [|discriminate]. injection W as <-. destruct n as [|n]; [injection N as <-; apply alike_ok in S; rewrite S; reflexivity|].
    rewrite (IH v n c x eq_refl N S). apply orb_true_r.
Qed.
Lemma word_later s w n c x : word_of s = Some w -> w @ n = Some c -> (0 < n)%nat -> same icase c x -> later icase s x = true.
Proof.
  destruct s as [e|e s]; intros W N L S; cbn [word_of] in W; destruct e; try discriminate.
  - injection W as <-. destruct n as [|[|n]]; [lia|discriminate|discriminate].
  - destruct (word_of s) as [v|] eqn:E; [|discriminate]. injection W as <-. destruct n as [|n]; [lia|]. cbn [later]. exact (word_letters s v n c x E N S).
Qed.
Lemma words_some : forall a ws, words_of a = Some ws -> forall v, In v ws -> (0 < List.length v)%nat.
Proof.
  assert (K : forall s w, word_of s = Some w -> (0 < List.length w)%nat).
  { intros [e|e s] w H; cbn [word_of] in H; destruct e; try discriminate; [injection H as <-; cbn; lia|]. destruct (word_of s); [|discriminate]. injection H as <-. cbn. lia. }
  induction a as [b s|b s a IH]; intros ws H v I; cbn [words_of] in H; destruct (word_of s) as [w|] eqn:E; try discriminate.
  - injection H as <-. destruct I as [<-|[]]. eauto.
  - destruct (words_of a) as [l|]; [|discriminate]. injection H as <-. destruct I as [<-|I]; eauto.
Qed.
Lemma distinct_order s a i j k : distinct icase s a = true -> seq_in s i j -> alt_in a i k -> (k <= j)%nat.
Proof.
  unfold distinct. intros H S A. destruct (word_of s) as [w|] eqn:Ew; [|discriminate]. destruct (words_of a) as [ws|] eqn:Ea; [|discriminate].
  destruct (word_in _ _ _ _ Ew S) as (-> & K1). destruct (words_in _ _ _ _ Ea A) as (v & I & -> & K2). rewrite forallb_forall in H. specialize (H v I). apply negb_true_iff in H.
  destruct (Nat.le_gt_cases (i + List.length v) (i + List.length w)) as [|L]; auto. rewrite (early_ok w v i K1 K2) in H by lia. discriminate.
Qed.
Lemma choice_order s a i j k : told icase s a || distinct icase s a = true -> seq_in s i j -> alt_in a i k -> (k <= j)%nat.
Proof.
  intros H S A. apply orb_true_iff in H as [H|H]; [|eapply distinct_order; eauto]. unfold told in H. apply andb_true_iff in H as [B H]. apply negb_true_iff in B.
  destruct (Nat.le_gt_cases k j) as [|L]; auto. exfalso. sizes. destruct (proj2 (proj2 (proj2 starts)) _ _ _ A ltac:(lia)) as (x & Hx & F).
  destruct (Nat.eq_dec i j) as [->|].
  - rewrite (proj1 (proj2 (proj2 empties)) _ _ _ S eq_refl _ Hx) in B. discriminate.
  - destruct (proj1 (proj2 (proj2 starts)) _ _ _ S ltac:(lia)) as (y & Hy & G). rewrite Hx in Hy. injection Hy as <-. eapply apart_ok; eauto.
Qed.

(** *** Where it could have gone on *)
Lemma goes_on : (forall e next, tidy_elem icase next e = true -> forall i j k, elem_in e i j -> elem_in e i k -> (j < k)%nat -> exists x, text @ j = Some x /\ more icase e x = true) /\
  (forall s next, tidy_seq icase next s = true -> forall i j k, seq_in s i j -> seq_in s i k -> (j < k)%nat -> exists x, text @ j = Some x /\ more_seq icase s x = true) /\
  (forall a next, tidy_alt icase next a = true -> forall i j k, alt_in a i j -> alt_in a i k -> (j < k)%nat -> exists x, text @ j = Some x /\ more_alt icase a x = true).
Proof.
  apply rex_mind; try (intros; match goal with H1 : elem_in _ _ _, H2 : elem_in _ _ _ |- _ => inversion H1; subst; inversion H2; subst end; lia).
  - (* Repeat *)
    intros lo hi e IH next T i j k H1 H2 L. eqs. rewrite !andb_true_iff, negb_true_iff in T. destruct T as ((((V & A) & _) & _) & T).
    inversion H1 as [| | | | | | | |? ? ? n ? ? T1 _ _|]; subst. inversion H2 as [| | | | | | | |? ? ? m ? ? T2 _ _|]; subst. clear H1 H2. eqs.
    assert (Tk : forall i j, elem_in e i j -> (i < j)%nat).
    { intros i' j' K. sizes. destruct (Nat.eq_dec i' j') as [E|]; [|lia]. rewrite (proj1 voids _ _ _ K E) in V. discriminate. }
    revert i j k m T1 T2 L. induction n as [|n IHn]; intros i j k m T1 T2 L.
    + inversion T1; subst. destruct (proj1 (proj2 starts) _ _ _ _ T2 L) as (x & Hx & F). gives x. rewrite F. split; auto. apply orb_true_r.
    + destruct m as [|m]; [inversion T2; subst; sizes; lia|]. apply times_head in T1 as (j1 & E1 & T1). apply times_head in T2 as (k1 & E2 & T2). sizes.
      destruct (Nat.lt_trichotomy j1 k1) as [Lt|[->|Lt]].
      * destruct (IH _ T _ _ _ E1 E2 Lt) as (x & Hx & M). destruct (Nat.eq_dec j1 j) as [<-|].
        -- gives x. rewrite M. auto.
        -- destruct (proj1 (proj2 starts) _ _ _ _ T1 ltac:(lia)) as (y & Hy & F). rewrite Hx in Hy. injection Hy as <-. exfalso. eapply apart_ok; eauto.
      * eauto.
      * destruct (IH _ T _ _ _ E2 E1 Lt) as (x & Hx & M). destruct (proj1 (proj2 starts) _ _ _ _ T2 ltac:(lia)) as (y & Hy & F). rewrite Hx in Hy. injection Hy as <-. exfalso. eapply apart_ok; eauto.
  - (* Group *)
    intros b a IH next T i j k H1 H2 L. eqs. apply andb_true_iff in T as [_ T]. inversion H1; subst. inversion H2; subst. eqs. eauto.
  - intros e IH next T i j k H1 H2 L. inversion H1; subst. inversion H2; subst. eqs. eauto.
  - (* More *)
    intros e IHe s IHs next T i j k H1 H2 L. eqs. rewrite !andb_true_iff in T. destruct T as ((T1 & A) & T2).
    inversion H1 as [|? ? ? j1 ? E1 S1]; subst. inversion H2 as [|? ? ? k1 ? E2 S2]; subst. sizes. destruct (Nat.lt_trichotomy j1 k1) as [Lt|[->|Lt]].
    + destruct (IHe _ T1 _ _ _ E1 E2 Lt) as (x & Hx & M). destruct (Nat.eq_dec j1 j) as [<-|].
      * gives x. rewrite M, (proj1 (proj2 (proj2 empties)) _ _ _ S1 eq_refl _ Hx). split; auto. apply orb_true_r.
      * destruct (proj1 (proj2 (proj2 starts)) _ _ _ S1 ltac:(lia)) as (y & Hy & F). rewrite Hx in Hy. injection Hy as <-. exfalso. eapply apart_ok; eauto.
    + destruct (IHs _ T2 _ _ _ S1 S2 L) as (x & Hx & M). gives x. rewrite M. auto.
    + destruct (IHe _ T1 _ _ _ E2 E1 Lt) as (x & Hx & M). destruct (proj1 (proj2 (proj2 starts)) _ _ _ S2 ltac:(lia)) as (y & Hy & F). rewrite Hx in Hy. injection Hy as <-. exfalso. eapply apart_ok; eauto.
  - intros b s IH next T i j k H1 H2 L. inversion H1; subst. inversion H2; subst. eqs. eauto.
  - (* Or *)
    intros b s IHs a IHa next T i j k H1 H2 L. eqs. rewrite !andb_true_iff in T. destruct T as ((T1 & T2) & C).
    inversion H1 as [|? ? ? ? ? _ S1|? ? ? ? ? A1]; subst; inversion H2 as [|? ? ? ? ? _ S2|? ? ? ? ? A2]; subst.
    + destruct (IHs _ T1 _ _ _ S1 S2 L) as (x & Hx & M). gives x. rewrite M. auto.
    + pose proof (choice_order _ _ _ _ _ C S1 A2). lia.
    + sizes. destruct (told icase s a) eqn:Ct.
      * pose proof Ct as Cu. unfold told in Cu. apply andb_true_iff in Cu as [B Ca]. destruct (proj1 (proj2 (proj2 starts)) _ _ _ S2 ltac:(lia)) as (x & Hx & F). destruct (Nat.eq_dec i j) as [<-|].
        -- gives x. rewrite Ct, (proj2 (proj2 (proj2 empties)) _ _ _ A1 eq_refl _ Hx), F. split; auto. cbn. apply orb_true_r.
        -- destruct (proj2 (proj2 (proj2 starts)) _ _ _ A1 ltac:(lia)) as (y & Hy & G). rewrite Hx in Hy. injection Hy as <-. exfalso. eapply apart_ok; eauto.
      * cbn [orb] in C. unfold distinct in C. destruct (word_of s) as [w|] eqn:Ew; [|discriminate]. destruct (words_of a) as [ws|] eqn:Ea; [|discriminate].
        destruct (word_in _ _ _ _ Ew S2) as (-> & K). destruct (words_in _ _ _ _ Ea A1) as (v & Iv & -> & _). pose proof (words_some _ _ Ea _ Iv) as Nv.
        destruct (nth_error w (List.length v)) as [c|] eqn:En; [|apply nth_error_None in En; lia]. destruct (K _ _ En) as (x & Hx & Sm).
        gives x. split; auto. rewrite Ct. rewrite (word_later _ _ _ _ _ Ew En Nv Sm). apply orb_true_r.
    + destruct (IHa _ T2 _ _ _ A1 A2 L) as (x & Hx & M). gives x. rewrite M. split; auto. rewrite orb_true_r. reflexivity.
Qed.

(** *** Tidy expressions are orderly *)
Lemma takes_void e : void e = false -> takes icase text edge e.
Proof. intros V i j H. sizes. destruct (Nat.eq_dec i j) as [E|]; [|lia]. rewrite (proj1 voids _ _ _ H E) in V. discriminate. Qed.
Lemma tidy_orderly : (forall e next, tidy_elem icase next e = true -> orderly_elem icase text edge next e) /\
  (forall s next, tidy_seq icase next s = true -> orderly_seq icase text edge next s) /\
  (forall a next, tidy_alt icase next a = true -> orderly_alt icase text edge next a).
Proof.
  apply rex_mind; intros; cbn [orderly_elem orderly_seq orderly_alt]; auto.
  - eqs. rewrite !andb_true_iff, negb_true_iff in H0. destruct H0 as ((((V & A) & _) & P) & T). split; [apply takes_void; exact V|]. split; [|split; [|exact (H _ T)]].
    + intros i j k m H1 H2 L H3. destruct (proj1 goes_on _ _ T _ _ _ H1 H2 L) as (x & Hx & M). destruct (proj1 starts _ _ _ H3 (takes_void _ V _ _ H3)) as (y & Hy & F).
      rewrite Hx in Hy. injection Hy as <-. eapply apart_ok; eauto.
    + destruct next as [y|]; cbn [parted]; auto. apply orb_true_iff in P as [P|P].
      * left. destruct y; try discriminate. cbn [skippable] in P. apply Z.eqb_eq in P. exact P.
      * right. apply andb_true_iff in P as [B P]. apply negb_true_iff in B. intros i j k H1 H2. destruct (proj1 starts _ _ _ H1 (takes_void _ V _ _ H1)) as (x & Hx & F).
        sizes. destruct (Nat.eq_dec i k) as [<-|]; [rewrite (proj1 empties _ _ _ H2 eq_refl _ Hx) in B; discriminate|].
        destruct (proj1 starts _ _ _ H2 ltac:(lia)) as (z & Hz & G). rewrite Hx in Hz. injection Hz as <-. eapply apart_ok; eauto.
  - eqs. apply andb_true_iff in H0 as [_ T]. exact (H _ T).
  - eqs. exact (H _ H0).
  - eqs. rewrite !andb_true_iff in H1. destruct H1 as ((T1 & A) & T2). split; [exact (H _ T1)|]. split; [|exact (H0 _ T2)].
    intros i j k m H1 H2 L R. destruct (proj1 goes_on _ _ T1 _ _ _ H1 H2 L) as (x & Hx & M). sizes. destruct (Nat.eq_dec j m) as [<-|].
    + exists k. split; [lia|]. eapply (proj1 (proj2 empty_anywhere)); [exact T2|]. exact (proj1 (proj2 (proj2 empties)) _ _ _ R eq_refl _ Hx).
    + destruct (proj1 (proj2 (proj2 starts)) _ _ _ R ltac:(lia)) as (y & Hy & F). rewrite Hx in Hy. injection Hy as <-. exfalso. eapply apart_ok; eauto.
  - eqs. exact (H _ H0).
  - eqs. rewrite !andb_true_iff in H1. destruct H1 as ((T1 & T2) & C). split; [exact (H _ T1)|]. split; [exact (H0 _ T2)|]. intros i j k _ S A. eapply choice_order; eauto.
Qed.
End Texts.

(** ** Theorems *)

(** A pattern is a way to write one expression at most, and which is found by reading it from left to right ([read_pattern]). *)
Theorem C81_reading : forall pat r, read_pattern pat = Some r <-> spells r pat.
Proof. intros pat r. split; [apply read_pattern_spells|apply spells_read_pattern]. Qed.
Theorem C81_one_meaning : forall pat r1 r2, spells r1 pat -> spells r2 pat -> r1 = r2.
Proof. intros pat r1 r2 H1 H2. apply spells_read_pattern in H1, H2. congruence. Qed.

(** If wherever there is a choice the next character decides, then the matcher, which never goes back, misses nothing, whatever the text. *)
Theorem C81_tidy_is_orderly : forall icase r, tidy icase r = true -> forall text, orderly icase text r.
Proof. intros icase r T text. apply (proj2 (proj2 (tidy_orderly icase text (word_boundary text)))). exact T. Qed.

(** The remaining conditions of C58, as checks of the expression *)
Fixpoint every (P : elem -> bool) (e : elem) : bool := P e && match e with Repeat _ _ e => every P e | Group _ a => every_alt P a | _ => true end
with every_seq (P : elem -> bool) (s : seq) : bool := match s with One e => every P e | More e s => every P e && every_seq P s end
with every_alt (P : elem -> bool) (a : alt) : bool := match a with Just _ s => every_seq P s | Or _ s a => every_seq P s && every_alt P a end.
Lemma every_all (P : elem -> bool) (Q : elem -> Prop) : (forall e, P e = true -> Q e) ->
  (forall e, every P e = true -> all_elem Q e) /\ (forall s, every_seq P s = true -> all_seq Q s) /\ (forall a, every_alt P a = true -> all_alt Q a).
Proof.
  intros H. apply rex_mind; intros; cbn [every every_seq every_alt all_elem all_seq all_alt] in *; rewrite ?andb_true_iff in *; intuition auto.
Qed.
Definition is_range (i : item) : bool := match i with IRange _ _ => true | _ => false end.
Definition even_rangeb (i : item) : bool :=
  match i with
  | IRange a b => islowerb a && islowerb b || isupperb a && isupperb b || negb (isalphab a) && negb (isalphab b) && eqb (withinb a b "A") (withinb a b "a")
  | _ => true
  end.
Definition nul_free_itemb (i : item) : bool :=
  match i with IChar c => negb (ceqb c NUL) | INamed k => among k (lit "awsdxplu") | IRange a b => (0 <? sc a) || (sc b <? 0) end.
Definition plain_elem (pat : str) (icase : bool) (e : elem) : bool :=
  match e with
  | Char c => negb (ceqb c NUL)
  | Named k => among k (lit "awsdxplu")
  | Boundary _ | Any => false
  | End => true
  | Set_ neg l => (negb (existsb is_range l) || (zlen pat <=? 35)) && (negb icase || forallb even_rangeb l) && negb neg && forallb nul_free_itemb l
  | Repeat lo hi _ => (0 <=? lo) && (lo <? 32768) && match hi with Some h => (0 <=? h) && (h <? 65535) | None => true end
  | Group _ _ => true
  end.
(** The check of a pattern: 1 if it is written correctly, has no dot, negated set or boundary in it, and is tidy. *)
Definition good_pattern (flags : Z) (pat : str) : bool :=
  match read_pattern pat with
  | Some r => (2 * zlen pat <=? INT_MAX) && every_alt (plain_elem pat (ignore_case flags)) r && tidy (ignore_case flags) r
  | None => false
  end.
Lemma plain_elem_ok pat flags e : plain_elem pat (ignore_case flags) e = true -> compilable pat e /\ faithful flags e /\ nul_free e.
Proof.
  unfold faithful. destruct e as [c|k|b| | |neg l|lo hi e|b a]; cbn [plain_elem compilable small_counts no_boundary even_ranges nul_free]; try discriminate; auto.
  - rewrite negb_true_iff, ceqb_ne. auto.
  - rewrite among_in. unfold positive_class. auto.
  - rewrite !andb_true_iff, !orb_true_iff, !negb_true_iff. intros (((R & E) & N) & F). rewrite forallb_forall in F. split; [|split; [split; [exact I|split; [exact I|]]|split; [exact N|]]].
    + intros (a & b & Hi). destruct R as [R|R]; [|apply Z.leb_le; exact R]. assert (existsb is_range l = true) as K by (apply existsb_exists; exists (IRange a b); auto). congruence.
    + intros Ic i Hi. destruct E as [E|E]; [congruence|]. rewrite forallb_forall in E. specialize (E i Hi). destruct i as [|?|a b]; cbn [even_rangeb even_range] in *; auto.
      rewrite !orb_true_iff, !andb_true_iff, !negb_true_iff in E. destruct E as [[E|E]|((E1 & E2) & E3)]; [tauto|tauto|]. right. right. split; auto. split; auto. apply eqb_prop in E3. rewrite <- !withinb_ok, E3. tauto.
    + intros i Hi. specialize (F i Hi). destruct i as [c|k|a b]; cbn [nul_free_itemb nul_free_item] in *; [rewrite negb_true_iff, ceqb_ne in F; exact F|apply among_in in F; exact F|].
      apply orb_true_iff in F as [F|F]; apply Z.ltb_lt in F; auto.
  - rewrite !andb_true_iff. intros ((H1 & H2) & H3). apply Z.leb_le in H1. apply Z.ltb_lt in H2. split; [rewrite Z.mod_small by lia; exact H2|]. split; [|exact I]. split; [|auto]. split; [lia|].
    intros h ->. apply andb_true_iff in H3 as [H3 H4]. apply Z.leb_le in H3. apply Z.ltb_lt in H4. lia.
Qed.
Lemma good_parts flags pat : good_pattern flags pat = true -> exists r, spells r pat /\ 2 * zlen pat <= INT_MAX /\ all_alt (compilable pat) r /\ all_alt (faithful flags) r /\ all_alt nul_free r /\
  tidy (ignore_case flags) r = true.
Proof.
  unfold good_pattern. destruct (read_pattern pat) as [r|] eqn:R; [|discriminate]. rewrite !andb_true_iff. intros ((L & P) & T). exists r. apply Z.leb_le in L. split; [apply read_pattern_spells; exact R|].
  split; [exact L|]. split; [|split; [|split; [|exact T]]]; (eapply every_all; [|exact P]; intros e He; destruct (plain_elem_ok _ _ _ He) as (H1 & H2 & H3); assumption).
Qed.
Lemma roomy_all text : zlen text <= 65535 -> forall r, all_alt (roomy text) r.
Proof. intros L. apply any_alt. intros []; cbn [roomy]; auto. destruct hi; auto. Qed.

(** A pattern that passes the check accepts exactly the texts of its language. *)
Theorem C81_exact : forall flags pat r, good_pattern flags pat = true -> spells r pat -> forall text, zlen text <= 65535 ->
  exists b, trex pat flags text = Ok b /\ (b = true <-> accepts (ignore_case flags) text r).
Proof.
  intros flags pat r G S text L. destruct (good_parts _ _ G) as (r' & S' & P & C & F & N & T). rewrite (C81_one_meaning pat r r' S S'). apply C58_exact; auto; [apply roomy_all; exact L|].
  apply C81_tidy_is_orderly. exact T.
Qed.
(** and it is the way to write some expression. *)
Theorem C81_good_is_written : forall flags pat, good_pattern flags pat = true -> exists r, spells r pat.
Proof. intros flags pat G. destruct (good_parts _ _ G) as (r & S & _). eauto. Qed.

(** ** Examples *)
Local Open Scope string_scope.
Local Open Scope list_scope.
Local Open Scope Z_scope.
Definition number_pattern : str := lit "[+\-]?\d+(\.\d+)?([eE][+\-]?\d+)?".
Example C81_ex_good : forallb (fun p => good_pattern 0 (lit p) && good_pattern 1 (lit p))
  ["^[0-9]{2,3}(-[0-9]+)?"; "[A-Za-z_][A-Za-z0-9_]*"; "get|go|set"; "(get|set|go)+-[a-z]+"; "[+\-]?\d+(\.\d+)?([eE][+\-]?\d+)?"; "#[0-9a-f]{6}"; "\w+@\w+(\.\w+)+$"; "\(\d\d\d\) \d{4}"; "\s*\d+(px|em|%)?\s*"] = true.
Proof. vm_compute. reflexivity. Qed.
(** Not tidy, and indeed the matcher misses texts of the first two; the third is not written correctly *)
Example C81_ex_not_good : map (fun p => good_pattern 0 (lit p)) ["[ab]*ab"; "a|ab"; "(a"] = [false; false; false] /\ trex (lit "[ab]*ab") 0 (lit "ab") = Ok false /\ trex (lit "a|ab") 0 (lit "ab") = Ok false.
Proof. vm_compute. auto. Qed.
(** Numbers: what the pattern accepts, for every text *)
Example C81_ex_exact : forall text, zlen text <= 65535 -> exists r b, spells r number_pattern /\ trex number_pattern 0 text = Ok b /\ (b = true <-> accepts false text r).
Proof.
  intros text L. destruct (C81_good_is_written 0 number_pattern eq_refl) as (r & S). destruct (C81_exact 0 number_pattern r eq_refl S text L) as (b & E & H). exists r, b. auto.
Qed.
Example C81_ex_verdicts : map (fun t => trex number_pattern 0 (lit t)) ["-12.5e+3"; "12."; "7"; "+"; "1e5x"] = [Ok true; Ok false; Ok true; Ok false; Ok false].
Proof. vm_compute. reflexivity. Qed.
(** Reading *)
Example C81_ex_reading : read_pattern (lit "^[0-9]{2,3}(-[0-9]+)?") = Some phone /\ read_pattern (lit "a**") = None.
Proof. split; reflexivity. Qed.

Print Assumptions C81_reading.
Print Assumptions C81_one_meaning.
Print Assumptions C81_tidy_is_orderly.
Print Assumptions C81_exact.
Print Assumptions C81_good_is_written.
