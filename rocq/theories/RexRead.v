(** RexRead: reading a pattern. The expression that a pattern spells is found from left to right, and there is no other. *)
From Coq Require Import ZArith String List Ascii Bool Lia.
From Verif Require Import Base RexSpec.
Import ListNotations.
Open Scope Z_scope.

Definition among (c : ascii) (l : str) : bool := existsb (ceqb c) l.
Definition named_of (k : ascii) : option ascii :=
  match find (fun p => ceqb (fst p) k) [("n", "010"); ("t", "009"); ("r", "013"); ("f", "012"); ("v", "011")]%char with Some p => Some (snd p) | None => None end.
Definition class_nameb (k : ascii) : bool := among k (lit "aAwWsSdDxXcCpPlu").
Definition literalb (p : place) (c : ascii) : bool :=
  isprintb c && negb (among c (lit "([$.\")) &&
  match p with First => negb (ceqb c "^") | AfterAnchor => true | AfterAtom => negb (among c (lit "|)*+?{")) | AfterRepeat => negb (among c (lit "|)*+")) end.

(** Sets *)
Definition read_set_char (dash : bool) (s : str) : option (ascii * str) :=
  match s with
  | [] => None
  | c :: s' =>
      if ceqb c bs then
        match s' with
        | [] => None
        | k :: r => match named_of k with Some d => Some (d, r) | None => if class_nameb k || ceqb k NUL then None else Some (k, r) end
        end
      else if isprintb c && negb (ceqb c "]") && (negb (ceqb c "-") || dash) then Some (c, s') else None
  end.
Definition read_range_end (s : str) : option (ascii * str) :=
  match s with
  | [] => None
  | c :: s' =>
      if ceqb c bs then
        match s' with
        | [] => None
        | k :: r => match named_of k with Some d => Some (d, r) | None => if ceqb k NUL then None else Some (k, r) end
        end
      else if isprintb c then Some (c, s') else None
  end.
Definition read_class (s : str) : option (ascii * str) :=
  match s with c :: k :: r => if ceqb c bs && class_nameb k then Some (k, r) else None | _ => None end.
(** The members, up to the closing bracket *)
Fixpoint read_set (fuel : nat) (dash : bool) (s : str) : option (list item * str) :=
  match fuel with
  | O => None
  | S f =>
      match s with
      | [] => None
      | c :: r =>
          if ceqb c "]" then Some ([], r)
          else match read_class s with
               | Some (k, r) => match read_set f false r with Some (l, r) => Some (INamed k :: l, r) | None => None end
               | None =>
                   match read_set_char dash s with
                   | None => None
                   | Some (a, r) =>
                       match (match r with d :: r' => if ceqb d "-" then Some r' else None | [] => None end) with
                       | Some r' =>
                           match read_range_end r' with
                           | None => None
                           | Some (b, r) => match read_set f true r with Some (l, r) => Some (IRange a b :: l, r) | None => None end
                           end
                       | None => match read_set f false r with Some (l, r) => Some (IChar a :: l, r) | None => None end
                       end
                   end
               end
      end
  end.

(** Numbers and suffixes *)
Fixpoint read_digits (s : str) : str * str :=
  match s with c :: r => if isdigitb c then let (d, r) := read_digits r in (c :: d, r) else ([], s) | [] => ([], []) end.
Definition read_number (s : str) : option (Z * str) :=
  let (d, r) := read_digits s in if match d with [] => true | _ => false end || (9 <? List.length d)%nat then None else Some (value_of d, r).
Definition read_suffix (s : str) : option (Z * option Z * str) :=
  match s with
  | [] => None
  | c :: r =>
      if ceqb c "*" then Some (0, None, r)
      else if ceqb c "+" then Some (1, None, r)
      else if ceqb c "?" then Some (0, Some 1, r)
      else if ceqb c "{" then
        match read_number r with
        | None => None
        | Some (n, []) => None
        | Some (n, d :: r) =>
            if ceqb d "}" then Some (n, Some n, r)
            else if ceqb d "," then
              match r with
              | [] => None
              | x :: r1 =>
                  if ceqb x "}" then Some (n, None, r1)
                  else match read_number r with
                       | Some (m, y :: r2) => if ceqb y "}" then Some (n, Some m, r2) else None
                       | _ => None
                       end
              end
            else None
        end
      else None
  end.

(** One atom; [sub] reads a choice *)
Definition read_escape (s : str) : option (elem * str) :=
  match s with
  | [] => None
  | k :: r =>
      match named_of k with
      | Some c => Some (Char c, r)
      | None =>
          if class_nameb k then Some (Named k, r)
          else if ceqb k "b" then Some (Boundary true, r)
          else if ceqb k "B" then Some (Boundary false, r)
          else if ceqb k NUL then None else Some (Char k, r)
      end
  end.
Definition caret (s : str) : bool * str := match s with c :: r => if ceqb c "^" then (true, r) else (false, s) | [] => (false, []) end.
Definition read_members (s : str) : option (elem * str) :=
  let '(neg, s) := caret s in
  match read_set (List.length s) true s with
  | Some ((_ :: _) as l, r) => Some (Set_ neg l, r)
  | _ => None
  end.
Definition read_group (sub : str -> option (alt * str)) (capture : bool) (s : str) : option (elem * str) :=
  match sub s with
  | Some (a, c :: r) => if ceqb c ")" then Some (Group capture a, r) else None
  | _ => None
  end.
Definition read_atom (sub : str -> option (alt * str)) (p : place) (s : str) : option (elem * str) :=
  match s with
  | [] => None
  | c :: r =>
      if ceqb c bs then read_escape r
      else if ceqb c "." then Some (Any, r)
      else if ceqb c "$" then Some (End, r)
      else if ceqb c "[" then read_members r
      else if ceqb c "(" then
        match r with
        | q :: r1 => if ceqb q "?" then match r1 with k :: r2 => if ceqb k ":" then read_group sub false r2 else None | [] => None end else read_group sub true r
        | [] => None
        end
      else if literalb p c then Some (Char c, r) else None
  end.
Definition read_elem (sub : str -> option (alt * str)) (p : place) (s : str) : option (elem * place * str) :=
  match read_atom sub p s with
  | None => None
  | Some (e, r) => match read_suffix r with Some (lo, hi, r) => Some (Repeat lo hi e, AfterRepeat, r) | None => Some (e, AfterAtom, r) end
  end.
(** Does the sequence end here? *)
Definition stops (s : str) : bool := match s with [] => true | c :: _ => ceqb c "|" || ceqb c ")" end.
Fixpoint read_alt (fuel : nat) (s : str) : option (alt * str) :=
  match fuel with
  | O => None
  | S f =>
      let '(anchor, s) := caret s in
      match read_seq f (if anchor then AfterAnchor else First) s with
      | None => None
      | Some (q, r) =>
          match (match r with c :: u => if ceqb c "|" then Some u else None | [] => None end) with
          | Some u => match read_alt f u with Some (a, r) => Some (Or anchor q a, r) | None => None end
          | None => Some (Just anchor q, r)
          end
      end
  end
with read_seq (fuel : nat) (p : place) (s : str) : option (seq * str) :=
  match fuel with
  | O => None
  | S f =>
      match read_elem (read_alt f) p s with
      | None => None
      | Some (e, q, r) => if stops r then Some (One e, r) else match read_seq f q r with Some (l, r) => Some (More e l, r) | None => None end
      end
  end.
(** The expression that the pattern spells *)
Definition read_pattern (pat : str) : option alt :=
  match read_alt (2 * List.length pat + 1) pat with Some (a, []) => Some a | _ => None end.

(** ** Characters *)
Lemma among_in c l : among c l = true <-> In c l.
Proof. unfold among. rewrite existsb_exists. split; [intros (x & I & E); apply ceqb_eq in E; subst; auto|intros I; exists c; split; auto; apply ceqb_eq; auto]. Qed.
Lemma among_out c l : among c l = false <-> ~ In c l.
Proof. rewrite <- among_in. destruct (among c l); split; congruence. Qed.
Lemma ceqb_ne c d : ceqb c d = false <-> c <> d.
Proof. rewrite <- ceqb_eq. destruct (ceqb c d); split; congruence. Qed.
Lemma ceqb_same c : ceqb c c = true. Proof. apply ceqb_eq. reflexivity. Qed.
Lemma named_some k c : named_of k = Some c <-> named_char k c.
Proof.
  unfold named_of, named_char. split.
  - intros H. destruct (find _ _) as [[k' c']|] eqn:F; [|discriminate]. apply find_some in F as [I E]. cbn [fst snd] in *. apply ceqb_eq in E. congruence.
  - cbn [In]. intros H. repeat destruct H as [H|H]; try (injection H as <- <-; reflexivity). contradiction.
Qed.
Lemma named_none k : named_of k = None <-> forall d, ~ named_char k d.
Proof.
  split; [intros H d K; apply named_some in K; congruence|]. intros H. destruct (named_of k) as [c|] eqn:E; auto. apply named_some in E. destruct (H c E).
Qed.
Lemma class_in k : class_nameb k = true <-> class_name k. Proof. apply among_in. Qed.
Lemma class_out k : class_nameb k = false <-> ~ class_name k. Proof. apply among_out. Qed.
Lemma literal_ok p c : literalb p c = true <-> literal_at p c.
Proof.
  unfold literalb, literal_at. rewrite !andb_true_iff, negb_true_iff, among_out. destruct p; rewrite ?negb_true_iff, ?ceqb_ne, ?among_out; tauto.
Qed.
Lemma class_unnamed k : class_name k -> named_of k = None.
Proof. unfold class_name. intros H. cbn [lit list_ascii_of_string In] in H. repeat destruct H as [<-|H]; try reflexivity. contradiction. Qed.
Lemma named_unclass k c : named_char k c -> class_nameb k = false.
Proof. intros H. unfold named_char in H. cbn [In] in H. repeat destruct H as [H|H]; try (injection H as <- <-; reflexivity). contradiction. Qed.

(** ** What is read is there *)
Ltac chars := repeat match goal with
  | H : ceqb ?c ?d = true |- _ => apply ceqb_eq in H; subst
  | H : ceqb ?c ?d = false |- _ => apply ceqb_ne in H
  end.
Lemma read_set_char_ok dash s c r : read_set_char dash s = Some (c, r) -> exists t, s = t ++ r /\ set_char dash c t.
Proof.
  destruct s as [|x s]; [discriminate|]. cbn [read_set_char]. destruct (ceqb x bs) eqn:B; chars.
  - destruct s as [|k s]; [discriminate|]. destruct (named_of k) as [d|] eqn:N.
    + injection 1 as <- <-. exists [bs; k]. split; auto. apply sc_named. apply named_some. exact N.
    + destruct (class_nameb k) eqn:C; [discriminate|]. cbn [orb]. destruct (ceqb k NUL) eqn:Z; [discriminate|]. injection 1 as <- <-. exists [bs; k]. split; auto. apply sc_escape. chars.
      split; [apply named_none; exact N|]. split; [apply class_out; exact C|exact Z].
  - destruct (isprintb x) eqn:P; [|discriminate]. destruct (ceqb x "]") eqn:Q; [discriminate|]. cbn [negb andb]. destruct (negb (ceqb x "-") || dash) eqn:D; [|discriminate].
    injection 1 as <- <-. chars. exists [x]. split; auto. apply sc_plain; auto; [cbn; intros [H|[H|[]]]; [apply Q|apply B]; rewrite <- H; reflexivity|].
    intros ->. exact D.
Qed.
Lemma read_range_end_ok s c r : read_range_end s = Some (c, r) -> exists t, s = t ++ r /\ range_end c t.
Proof.
  destruct s as [|x s]; [discriminate|]. cbn [read_range_end]. destruct (ceqb x bs) eqn:B; chars.
  - destruct s as [|k s]; [discriminate|]. destruct (named_of k) as [d|] eqn:N.
    + injection 1 as <- <-. exists [bs; k]. split; auto. apply re_named. apply named_some. exact N.
    + destruct (ceqb k NUL) eqn:Z; [discriminate|]. injection 1 as <- <-. exists [bs; k]. split; auto. chars. apply re_escape; auto. apply named_none. exact N.
  - destruct (isprintb x) eqn:P; [|discriminate]. injection 1 as <- <-. exists [x]. split; auto. apply re_plain; auto.
Qed.
Lemma read_set_ok : forall f dash s l r, read_set f dash s = Some (l, r) -> exists t, s = t ++ "]"%char :: r /\ set_text dash l t.
Proof.
  induction f as [|f IH]; intros dash s l r; [discriminate|]. cbn [read_set]. destruct s as [|c s]; [discriminate|]. destruct (ceqb c "]") eqn:Q.
  - intros H. injection H as <- <-. chars. exists []. split; [reflexivity|constructor].
  - destruct (read_class (c :: s)) as [[k r1]|] eqn:K.
    + destruct (read_set f false r1) as [[l' r']|] eqn:R; [|discriminate]. injection 1 as <- <-. destruct (IH _ _ _ _ R) as (t & -> & T).
      cbn [read_class] in K. destruct s as [|k' s]; [discriminate|]. destruct (ceqb c bs) eqn:B; [|discriminate]. destruct (class_nameb k') eqn:C; [|discriminate]. injection K as -> ->. chars.
      exists (bs :: k :: t). split; [reflexivity|]. apply st_named; auto. apply class_in. exact C.
    + destruct (read_set_char dash (c :: s)) as [[a r1]|] eqn:A; [|discriminate]. apply read_set_char_ok in A as (t1 & -> & A).
      destruct (match r1 with d :: r' => if ceqb d "-" then Some r' else None | [] => None end) as [r2|] eqn:D.
      * destruct r1 as [|d r1]; [discriminate|]. destruct (ceqb d "-") eqn:Dd; [|discriminate]. injection D as ->. chars.
        destruct (read_range_end r2) as [[b r3]|] eqn:E; [|discriminate]. apply read_range_end_ok in E as (t2 & -> & E).
        destruct (read_set f true r3) as [[l' r']|] eqn:R; [|discriminate]. injection 1 as <- <-. destruct (IH _ _ _ _ R) as (t & -> & T).
        exists (t1 ++ "-"%char :: t2 ++ t). split; [rewrite <- !app_assoc; cbn [app]; rewrite <- !app_assoc; reflexivity|]. apply st_range; auto.
      * destruct (read_set f false r1) as [[l' r']|] eqn:R; [|discriminate]. injection 1 as <- <-. destruct (IH _ _ _ _ R) as (t & -> & T).
        exists (t1 ++ t). split; [apply app_assoc|]. apply st_char; auto.
Qed.
Lemma read_digits_ok s : s = fst (read_digits s) ++ snd (read_digits s) /\ forallb isdigitb (fst (read_digits s)) = true.
Proof.
  induction s as [|c s [IH1 IH2]]; [auto|]. cbn [read_digits]. destruct (isdigitb c) eqn:D; [|auto]. destruct (read_digits s) as [d r]. cbn [fst snd app forallb] in *. rewrite D, IH1 at 1. auto.
Qed.
Lemma read_number_ok s n r : read_number s = Some (n, r) -> exists t, s = t ++ r /\ number n t.
Proof.
  unfold read_number. pose proof (read_digits_ok s) as [H1 H2]. destruct (read_digits s) as [d r']. cbn [fst snd] in *.
  destruct d as [|x d]; [discriminate|]. destruct (9 <? List.length (x :: d))%nat eqn:L; [discriminate|]. cbn [orb]. injection 1 as <- <-. exists (x :: d). split; [exact H1|].
  apply Nat.ltb_ge in L. apply nb; auto. discriminate.
Qed.
Lemma read_suffix_ok s lo hi r : read_suffix s = Some (lo, hi, r) -> exists t, s = t ++ r /\ suffix lo hi t.
Proof.
  destruct s as [|c s]; [discriminate|]. cbn [read_suffix].
  destruct (ceqb c "*") eqn:C1; [injection 1 as <- <- <-; chars; eexists; split; [|apply sx_star]; reflexivity|].
  destruct (ceqb c "+") eqn:C2; [injection 1 as <- <- <-; chars; eexists; split; [|apply sx_plus]; reflexivity|].
  destruct (ceqb c "?") eqn:C3; [injection 1 as <- <- <-; chars; eexists; split; [|apply sx_opt]; reflexivity|].
  destruct (ceqb c "{") eqn:C4; [|discriminate]. chars.
  destruct (read_number s) as [[n r1]|] eqn:N; [|discriminate]. apply read_number_ok in N as (t & -> & N). destruct r1 as [|d r1]; [discriminate|].
  destruct (ceqb d "}") eqn:D1; chars.
  { injection 1 as <- <- <-. eexists. split; [|apply sx_exact; exact N]. cbn [lit list_ascii_of_string app]. rewrite <- app_assoc. reflexivity. }
  destruct (ceqb d ",") eqn:D2; [|discriminate]. chars. destruct r1 as [|x r1]; [discriminate|]. destruct (ceqb x "}") eqn:X; chars.
  { injection 1 as <- <- <-. eexists. split; [|apply sx_least; exact N]. cbn [lit list_ascii_of_string app]. rewrite <- app_assoc. reflexivity. }
  destruct (read_number (x :: r1)) as [[m r2]|] eqn:M; [|discriminate]. apply read_number_ok in M as (u & Eu & M). rewrite Eu. destruct r2 as [|y r2]; [discriminate|]. destruct (ceqb y "}") eqn:Y; [|discriminate]. chars.
  injection 1 as <- <- <-. eexists. split; [|apply sx_between; [exact N|exact M]]. cbn [lit list_ascii_of_string app]. rewrite <- !app_assoc. cbn [app]. rewrite <- app_assoc. reflexivity.
Qed.
Lemma read_escape_ok p s e r : read_escape s = Some (e, r) -> exists t, bs :: s = t ++ r /\ atom_text p e t.
Proof.
  destruct s as [|k s]; [discriminate|]. cbn [read_escape]. destruct (named_of k) as [c|] eqn:N.
  { injection 1 as <- <-. exists [bs; k]. split; auto. apply at_named. apply named_some. exact N. }
  destruct (class_nameb k) eqn:C. { injection 1 as <- <-. exists [bs; k]. split; auto. apply at_class. apply class_in. exact C. }
  destruct (ceqb k "b") eqn:B1. { injection 1 as <- <-. chars. eexists. split; [|apply at_b]. reflexivity. }
  destruct (ceqb k "B") eqn:B2. { injection 1 as <- <-. chars. eexists. split; [|apply at_B]. reflexivity. }
  destruct (ceqb k NUL) eqn:Z; [discriminate|]. injection 1 as <- <-. chars. exists [bs; k]. split; auto. apply at_escape; auto. split; [apply named_none; exact N|]. split; [apply class_out; exact C|exact Z].
Qed.
Lemma read_members_ok p s e r : read_members s = Some (e, r) -> exists t, "["%char :: s = t ++ r /\ atom_text p e t.
Proof.
  unfold read_members, caret. destruct s as [|c s].
  - cbn. discriminate.
  - destruct (ceqb c "^") eqn:C.
    + destruct (read_set _ true s) as [[[|i l] r']|] eqn:R; try discriminate. injection 1 as <- <-. apply read_set_ok in R as (t & -> & T). chars.
      eexists. split; [|apply at_nset; [discriminate|exact T]]. cbn [lit list_ascii_of_string app]. rewrite <- app_assoc. reflexivity.
    + destruct (read_set _ true (c :: s)) as [[[|i l] r']|] eqn:R; try discriminate. injection 1 as <- <-. apply read_set_ok in R as (t & E & T). chars.
      eexists. split; [|apply at_set; [discriminate| |exact T]]; [cbn [app]; rewrite E, <- app_assoc; reflexivity|]. destruct t; [discriminate|]. cbn in E |- *. congruence.
Qed.
Definition sub_ok (sub : str -> option (alt * str)) : Prop := forall s a r, sub s = Some (a, r) -> exists t, s = t ++ r /\ alt_text a t.
Lemma read_group_ok sub b s e r : sub_ok sub -> read_group sub b s = Some (e, r) -> exists a t, s = t ++ ")"%char :: r /\ e = Group b a /\ alt_text a t.
Proof.
  intros K. unfold read_group. destruct (sub s) as [[a [|c r']]|] eqn:E; try discriminate. destruct (ceqb c ")") eqn:C; [|discriminate]. injection 1 as <- <-. chars.
  apply K in E as (t & -> & T). eauto.
Qed.
Lemma read_atom_ok sub p s e r : sub_ok sub -> read_atom sub p s = Some (e, r) -> exists t, s = t ++ r /\ atom_text p e t.
Proof.
  intros K. destruct s as [|c s]; [discriminate|]. cbn [read_atom].
  destruct (ceqb c bs) eqn:C1; [chars; apply read_escape_ok|].
  destruct (ceqb c ".") eqn:C2; [injection 1 as <- <-; chars; eexists; split; [|apply at_any]; reflexivity|].
  destruct (ceqb c "$") eqn:C3; [injection 1 as <- <-; chars; eexists; split; [|apply at_end]; reflexivity|].
  destruct (ceqb c "[") eqn:C4; [chars; apply read_members_ok|].
  destruct (ceqb c "(") eqn:C5; chars.
  - destruct s as [|q s]; [discriminate|]. destruct (ceqb q "?") eqn:Q; chars.
    + destruct s as [|k s]; [discriminate|]. destruct (ceqb k ":") eqn:C; [|discriminate]. chars. intros H. apply read_group_ok in H as (a & t & -> & -> & T); auto.
      eexists. split; [|apply at_nocap; exact T]. cbn [lit list_ascii_of_string app]. rewrite <- app_assoc. reflexivity.
    + intros H. apply read_group_ok in H as (a & t & E & -> & T); auto. rewrite E. eexists. split; [|apply at_group; [|exact T]]; [cbn [app]; rewrite <- app_assoc; reflexivity|].
      destruct t; [cbn; discriminate|]. cbn in E |- *. congruence.
  - destruct (literalb p c) eqn:L; [|discriminate]. injection 1 as <- <-. exists [c]. split; auto. apply at_char. apply literal_ok. exact L.
Qed.
Lemma read_elem_ok sub p s e q r : sub_ok sub -> read_elem sub p s = Some (e, q, r) -> exists t, s = t ++ r /\ elem_text p e t q.
Proof.
  intros K. unfold read_elem. destruct (read_atom sub p s) as [[a r1]|] eqn:A; [|discriminate]. apply read_atom_ok in A as (t & -> & A); auto.
  destruct (read_suffix r1) as [[[lo hi] r2]|] eqn:S; injection 1 as <- <- <-.
  - apply read_suffix_ok in S as (u & -> & S). exists (t ++ u). split; [apply app_assoc|]. apply el_repeat; auto.
  - exists t. split; auto. apply el_atom. auto.
Qed.
Lemma read_ok : forall f, sub_ok (read_alt f) /\ forall p s l r, read_seq f p s = Some (l, r) -> exists t, s = t ++ r /\ seq_text p l t.
Proof.
  induction f as [|f [IHa IHs]]; [split; [intros s a r|intros p s l r]; discriminate|]. split.
  - intros s a r. cbn [read_alt].
    set (w := caret s).
    assert (W : s = (if fst w then "^"%char :: snd w else snd w)).
    { unfold w, caret. destruct s as [|c s']; auto. destruct (ceqb c "^") eqn:C; cbn [fst snd]; chars; auto. }
    destruct w as [an s']. cbn [fst snd] in W. destruct (read_seq f _ s') as [[l r1]|] eqn:S; [|discriminate]. apply IHs in S as (t & -> & S).
    destruct (match r1 with c :: u => if ceqb c "|" then Some u else None | [] => None end) as [u|] eqn:U.
    + destruct r1 as [|c r1]; [discriminate|]. destruct (ceqb c "|") eqn:C; [|discriminate]. injection U as ->. chars. destruct (read_alt f u) as [[a' r']|] eqn:A; [|discriminate]. injection 1 as <- <-.
      apply IHa in A as (v & -> & A). subst; destruct an; (eexists; split; [|apply al_or || apply al_anchor_or; eassumption]); cbn [app]; rewrite <- app_assoc; reflexivity.
    + injection 1 as <- <-. subst; destruct an; (eexists; split; [|apply al_just || apply al_anchor; eassumption]); reflexivity.
  - intros p s l r. cbn [read_seq]. destruct (read_elem _ p s) as [[[e q] r1]|] eqn:E; [|discriminate]. apply read_elem_ok in E as (t & -> & E); auto.
    destruct (stops r1); [injection 1 as <- <-; exists t; split; auto; econstructor; eauto|]. destruct (read_seq f q r1) as [[l' r']|] eqn:S; [|discriminate]. injection 1 as <- <-.
    apply IHs in S as (u & -> & S). exists (t ++ u). split; [apply app_assoc|]. econstructor; eauto.
Qed.
Theorem read_pattern_spells pat r : read_pattern pat = Some r -> spells r pat.
Proof.
  unfold read_pattern. destruct (read_alt _ pat) as [[a [|c s]]|] eqn:A; try discriminate. injection 1 as <-. apply (proj1 (read_ok _)) in A as (t & -> & A). rewrite app_nil_r. exact A.
Qed.

(** ** What is there is read *)
Lemma set_char_read dash c t r : set_char dash c t -> read_set_char dash (t ++ r) = Some (c, r) /\ read_class (t ++ r) = None /\ hd0 t <> "]"%char /\ (dash = false -> hd0 t <> "-"%char) /\ t <> [].
Proof.
  intros H. destruct H as [c P Q D|k c N|c (N & C & Z)]; cbn [app read_set_char read_class hd0].
  - assert (B : ceqb c bs = false) by (apply ceqb_ne; intros ->; apply Q; cbn; auto). assert (E : ceqb c "]" = false) by (apply ceqb_ne; intros ->; apply Q; cbn; auto). rewrite B, P, E. cbn [negb andb].
    assert (negb (ceqb c "-") || dash = true) as -> by (destruct (ceqb c "-") eqn:M; [apply ceqb_eq in M; rewrite (D M); reflexivity|reflexivity]). apply ceqb_ne in E.
    split; [reflexivity|]. split; [destruct r; reflexivity|]. split; [exact E|]. split; [|discriminate]. intros -> M. specialize (D M). discriminate.
  - rewrite ceqb_same, (named_unclass _ _ N). apply named_some in N. rewrite N. repeat split; discriminate.
  - rewrite ceqb_same. apply named_none in N. apply class_out in C. apply ceqb_ne in Z. rewrite N, C, Z. repeat split; discriminate.
Qed.
Lemma range_end_read c t r : range_end c t -> read_range_end (t ++ r) = Some (c, r) /\ t <> [].
Proof.
  intros H. destruct H as [c P B|k c N|c N Z]; cbn [app read_range_end].
  - apply ceqb_ne in B. rewrite B, P. split; [reflexivity|discriminate].
  - rewrite ceqb_same. apply named_some in N. rewrite N. split; [reflexivity|discriminate].
  - rewrite ceqb_same. apply named_none in N. apply ceqb_ne in Z. rewrite N, Z. split; [reflexivity|discriminate].
Qed.
Lemma hd_app (t r : str) : t <> [] -> hd0 (t ++ r) = hd0 t. Proof. destruct t; [congruence|reflexivity]. Qed.
Lemma set_head dash l t r : set_text dash l t -> dash = false -> hd0 (t ++ "]"%char :: r) <> "-"%char.
Proof.
  intros H D. destruct H as [|c t l t' C _|k l t' _ _|a b t1 t2 l t' A _ _]; [discriminate| |discriminate|]; rewrite <- app_assoc, hd_app.
  - apply (set_char_read _ _ _ [] C). exact D.
  - apply (set_char_read _ _ _ [] C).
  - apply (set_char_read _ _ _ [] A). exact D.
  - apply (set_char_read _ _ _ [] A).
Qed.
Lemma set_text_read : forall dash l t, set_text dash l t -> forall f r, (List.length t < f)%nat -> read_set f dash (t ++ "]"%char :: r) = Some (l, r).
Proof.
  induction 1 as [dash|dash c t l t' C H IH|dash k l t' K H IH|dash a b t1 t2 l t' A E H IH]; intros f r L; (destruct f as [|f]; [lia|]).
  - reflexivity.
  - rewrite <- app_assoc. destruct (set_char_read _ _ _ (t' ++ "]"%char :: r) C) as (R & K & B & _ & N). cbn [read_set]. rewrite K, R. rewrite app_length in L.
    pose proof (set_head _ _ _ r H eq_refl) as Hd.
    destruct t as [|x t]; [congruence|]. cbn [app List.length hd0] in *. apply ceqb_ne in B. rewrite B.
    destruct (t' ++ "]"%char :: r) as [|d u] eqn:U; [destruct t'; discriminate|]. cbn [hd0] in Hd. apply ceqb_ne in Hd. rewrite Hd. rewrite <- U, IH by lia. reflexivity.
  - cbn [app read_set read_class]. rewrite ceqb_same. apply class_in in K. rewrite K. cbn [andb List.length] in *. rewrite IH by lia. reflexivity.
  - rewrite <- app_assoc. cbn [app]. rewrite <- app_assoc. destruct (set_char_read _ _ _ ("-"%char :: t2 ++ t' ++ "]"%char :: r) A) as (R & K & B & _ & N). cbn [read_set]. rewrite K, R. cbn iota beta. rewrite ceqb_same.
    destruct (range_end_read _ _ (t' ++ "]"%char :: r) E) as [E1 _]. rewrite E1. rewrite app_length in L. cbn [List.length] in L. rewrite app_length in L. rewrite IH by lia.
    destruct t1 as [|x t]; [congruence|]. cbn [app hd0] in *. apply ceqb_ne in B. rewrite B. reflexivity.
Qed.
Lemma digits_read d r : forallb isdigitb d = true -> isdigitb (hd0 r) = false -> read_digits (d ++ r) = (d, r).
Proof.
  intros H R. induction d as [|c d IH]; cbn [app].
  - destruct r as [|x r]; [reflexivity|]. cbn [read_digits hd0] in *. rewrite R. reflexivity.
  - cbn [forallb] in H. apply andb_true_iff in H as [H1 H2]. cbn [read_digits]. rewrite H1, (IH H2). reflexivity.
Qed.
Lemma number_read n t r : number n t -> isdigitb (hd0 r) = false -> read_number (t ++ r) = Some (n, r) /\ t <> [] /\ isdigitb (hd0 t) = true.
Proof.
  intros [ds N L D V] R. unfold read_number. rewrite (digits_read ds r D R). destruct ds as [|x ds]; [congruence|]. cbn [orb].
  assert ((9 <? List.length (x :: ds))%nat = false) as -> by (apply Nat.ltb_ge; lia). rewrite V. split; [reflexivity|]. split; [discriminate|]. cbn in D |- *. apply andb_true_iff in D. tauto.
Qed.
Lemma suffix_read lo hi u r : suffix lo hi u -> read_suffix (u ++ r) = Some (lo, hi, r).
Proof.
  intros [| | |n t N|n t N|n m t v N M]; [reflexivity|reflexivity|reflexivity| | |]; rewrite <- ?app_assoc; cbn [lit list_ascii_of_string app read_suffix ceqb].
  - destruct (number_read n t ("}"%char :: r) N eq_refl) as (E & _). rewrite E. reflexivity.
  - destruct (number_read n t (","%char :: "}"%char :: r) N eq_refl) as (E & _). rewrite E. reflexivity.
  - rewrite <- ?app_assoc. cbn [app]. destruct (number_read n t (","%char :: v ++ "}"%char :: r) N eq_refl) as (E & _). rewrite E. destruct (number_read m v ("}"%char :: r) M eq_refl) as (F & V & D).
    destruct v as [|x v]; [congruence|]. cbn [app hd0] in *. cbn iota beta.
    assert (ceqb x "}" = false) as X by (apply ceqb_ne; intros ->; discriminate). rewrite X, F. reflexivity.
Qed.
Definition quits (r : str) : Prop := among (hd0 r) (lit "*+?{") = false.
Lemma no_suffix r : quits r -> read_suffix r = None.
Proof.
  unfold quits. destruct r as [|c r]; [reflexivity|]. cbn [hd0 lit list_ascii_of_string among existsb read_suffix]. rewrite !orb_false_iff. intros (H1 & H2 & H3 & H4 & _). rewrite H1, H2, H3, H4. reflexivity.
Qed.

Scheme atom_text_min := Minimality for atom_text Sort Prop
  with elem_text_min := Minimality for elem_text Sort Prop
  with seq_text_min := Minimality for seq_text Sort Prop
  with alt_text_min := Minimality for alt_text Sort Prop.
Combined Scheme text_min from atom_text_min, elem_text_min, seq_text_min, alt_text_min.

(** How the parts begin *)
Lemma atom_head p e t : atom_text p e t -> exists c u, t = c :: u /\ (p = First -> c <> "^"%char) /\ (p = AfterAtom \/ p = AfterRepeat -> c <> "|"%char /\ c <> ")"%char) /\ (p = AfterAtom -> among c (lit "*+?{") = false).
Proof.
  intros H.
  assert (K : forall c u, In c (lit "\.$[(") -> t = c :: u -> exists c u, t = c :: u /\ (p = First -> c <> "^"%char) /\ (p = AfterAtom \/ p = AfterRepeat -> c <> "|"%char /\ c <> ")"%char) /\ (p = AfterAtom -> among c (lit "*+?{") = false)).
  { intros c u I ->. exists c, u. split; [reflexivity|]. cbn [lit list_ascii_of_string In] in I. repeat destruct I as [<-|I]; try contradiction; (repeat split; try discriminate; intros; discriminate). }
  destruct H as [p c (_ & _ & L)| | | | | | | | | | |]; try (eapply K; [|reflexivity]; cbn; tauto).
  exists c, []. split; [reflexivity|]. clear K. split; [intros ->; exact L|]. split; [intros [-> | ->]; split; intros ->; apply L; cbn; tauto|]. intros ->. apply among_out. intros I. apply L. cbn in I |- *. tauto.
Qed.
Lemma elem_head p e t q : elem_text p e t q -> exists a u v, atom_text p a u /\ t = u ++ v.
Proof. intros [p' a u A|p' a lo hi u v A _]; [exists a, u, []; split; [auto|symmetry; apply app_nil_r]|exists a, u, v; auto]. Qed.
Lemma seq_head p s t : seq_text p s t -> exists a u v, atom_text p a u /\ t = u ++ v.
Proof.
  intros [p' e u q E|p' e u q l t' E _]; destruct (elem_head _ _ _ _ E) as (a & u' & v & A & ->); [exists a, u', v; auto|]. exists a, u', (v ++ t'). split; auto. symmetry. apply app_assoc.
Qed.
Lemma elem_after p e t q : elem_text p e t q -> q = AfterAtom \/ q = AfterRepeat. Proof. intros []; auto. Qed.

Theorem text_read : (forall p e t, atom_text p e t -> forall f r, (2 * List.length t <= S f)%nat -> read_atom (read_alt f) p (t ++ r) = Some (e, r)) /\
  (forall p e t q, elem_text p e t q -> forall f r, (2 * List.length t <= S f)%nat -> (q = AfterAtom -> quits r) -> read_elem (read_alt f) p (t ++ r) = Some (e, q, r)) /\
  (forall p s t, seq_text p s t -> forall f r, (2 * List.length t <= f)%nat -> stops r = true -> read_seq f p (t ++ r) = Some (s, r)) /\
  (forall a t, alt_text a t -> forall f r, (2 * List.length t + 1 <= f)%nat -> r = [] \/ hd0 r = ")"%char -> read_alt f (t ++ r) = Some (a, r)).
Proof.
  assert (Q : forall r, stops r = true -> quits r).
  { intros [|c r]; [reflexivity|]. cbn [stops]. intros H. apply orb_true_iff in H as [H|H]; apply ceqb_eq in H; subst c; reflexivity. }
  assert (W : forall r : str, r = [] \/ hd0 r = ")"%char -> stops r = true /\ match r with c :: u => if ceqb c "|" then Some u else None | [] => None end = None).
  { intros [|c r] H; [split; reflexivity|]. destruct H as [H|H]; [discriminate|]. cbn [hd0] in H. subst c. split; reflexivity. }
  assert (A : forall s t r, seq_text First s t -> caret (t ++ r) = (false, t ++ r)).
  { intros s t r H. destruct (seq_head _ _ _ H) as (a & u & v & Ha & ->). destruct (atom_head _ _ _ Ha) as (c & w & -> & N & _). specialize (N eq_refl). apply ceqb_ne in N. cbn [app caret]. rewrite N. reflexivity. }
  apply text_min.
  - intros p c (P & N & L) f r _. cbn [app read_atom].
    assert (forall d, In d (lit "([$.\") -> ceqb c d = false) as Hd by (intros d I; apply ceqb_ne; intros ->; auto).
    rewrite !Hd by (cbn; tauto). assert (literalb p c = true) as -> by (apply literal_ok; split; auto). reflexivity.
  - intros p k c N f r _. cbn [app read_atom read_escape]. rewrite ceqb_same. apply named_some in N. rewrite N. reflexivity.
  - intros p c (N & C & Z) B1 B2 f r _. cbn [app read_atom read_escape]. rewrite ceqb_same. apply named_none in N. apply class_out in C. apply ceqb_ne in Z, B1, B2. rewrite N, C, B1, B2, Z. reflexivity.
  - intros p k C f r _. cbn [app read_atom read_escape]. rewrite ceqb_same, (class_unnamed _ C). apply class_in in C. rewrite C. reflexivity.
  - reflexivity.
  - reflexivity.
  - reflexivity.
  - reflexivity.
  - intros p l t N H T f r _. cbn [app]. rewrite <- app_assoc. cbn [lit list_ascii_of_string app]. change (read_members (t ++ "]"%char :: r) = Some (Set_ false l, r)).
    unfold read_members. assert (caret (t ++ "]"%char :: r) = (false, t ++ "]"%char :: r)) as ->.
    { unfold caret. destruct t as [|c t]; [reflexivity|]. cbn [app hd0] in *. apply ceqb_ne in H. rewrite H. reflexivity. }
    rewrite (set_text_read _ _ _ T) by (rewrite app_length; cbn [List.length]; lia). destruct l; [congruence|reflexivity].
  - intros p l t N T f r _. cbn [app]. rewrite <- app_assoc. cbn [lit list_ascii_of_string app]. change (read_members ("^"%char :: t ++ "]"%char :: r) = Some (Set_ true l, r)).
    unfold read_members. cbn [caret]. rewrite ceqb_same. rewrite (set_text_read _ _ _ T) by (rewrite app_length; cbn [List.length]; lia). destruct l; [congruence|reflexivity].
  - intros p a t H T IH f r L. cbn [app]. rewrite <- app_assoc. cbn [lit list_ascii_of_string app List.length] in *. rewrite app_length in L. cbn [List.length] in L.
    assert (E : read_group (read_alt f) true (t ++ ")"%char :: r) = Some (Group true a, r)).
    { unfold read_group. rewrite IH; [reflexivity|lia|right; reflexivity]. }
    cbn [read_atom]. destruct t as [|c t]; cbn [app hd0] in *; [exact E|]. apply ceqb_ne in H.
    change ((if ceqb c "?" then match t ++ ")"%char :: r with k :: r2 => if ceqb k ":" then read_group (read_alt f) false r2 else None | [] => None end else read_group (read_alt f) true (c :: t ++ ")"%char :: r)) = Some (Group true a, r)).
    rewrite H. exact E.
  - intros p a t T IH f r L. rewrite <- !app_assoc. rewrite !app_length in L. cbn [lit list_ascii_of_string app List.length] in *.
    change (read_group (read_alt f) false (t ++ ")"%char :: r) = Some (Group false a, r)). unfold read_group. rewrite IH; [reflexivity|lia|right; reflexivity].
  - intros p e t _ IH f r L F. unfold read_elem. rewrite IH by lia. rewrite no_suffix by auto. reflexivity.
  - intros p e lo hi t u _ IH S f r L _. unfold read_elem. rewrite app_length in L. rewrite <- app_assoc, IH by lia. rewrite (suffix_read _ _ _ _ S). reflexivity.
  - intros p e t q E IH f r L S. destruct (elem_head _ _ _ _ E) as (a & u & v & Ha & Et). destruct (atom_head _ _ _ Ha) as (c & w & -> & _). destruct f as [|f]; [subst t; cbn in L; lia|].
    cbn [read_seq]. rewrite IH; [|lia|auto]. rewrite S. reflexivity.
  - intros p e t q s t' E IHe S IHs f r L St. destruct (elem_head _ _ _ _ E) as (a & u & v & Ha & Et). destruct (atom_head _ _ _ Ha) as (c & w & -> & _). rewrite app_length in L.
    assert (1 <= List.length t)%nat by (subst t; cbn; lia). destruct f as [|f]; [lia|]. rewrite <- app_assoc. cbn [read_seq].
    destruct (seq_head _ _ _ S) as (a2 & u2 & v2 & Ha2 & E2). destruct (atom_head _ _ _ Ha2) as (c2 & w2 & -> & _ & N & M). destruct (N (elem_after _ _ _ _ E)) as [N1 N2].
    rewrite IHe; [|lia|intros Eq; rewrite E2; unfold quits; cbn [app hd0]; auto].
    assert (stops (t' ++ r) = false) as -> by (rewrite E2; cbn [app stops]; apply ceqb_ne in N1, N2; rewrite N1, N2; reflexivity). rewrite IHs by (auto; lia). reflexivity.
  - intros s t S IH f r L R. destruct (W r R) as [R1 R2]. destruct f as [|f]; [lia|]. cbn [read_alt]. rewrite (A s t r S), IH by (auto; lia). rewrite R2. reflexivity.
  - intros s t S IH f r L R. destruct (W r R) as [R1 R2]. cbn [List.length] in L. destruct f as [|f]; [lia|]. cbn [app read_alt caret]. rewrite ceqb_same, IH by (auto; lia). rewrite R2. reflexivity.
  - intros s t a u S IH Ha IHa f r L R. rewrite app_length in L. cbn [List.length] in L. destruct f as [|f]; [lia|]. cbn [read_alt]. rewrite <- app_assoc. rewrite (A s t _ S), IH by (auto; lia). cbn [app]. rewrite ceqb_same, IHa by (auto; lia). reflexivity.
  - intros s t a u S IH Ha IHa f r L R. cbn [List.length] in L. rewrite app_length in L. cbn [List.length] in L. destruct f as [|f]; [lia|]. cbn [app read_alt caret]. rewrite ceqb_same. rewrite <- app_assoc. rewrite IH by (auto; lia). cbn [app]. rewrite ceqb_same, IHa by (auto; lia). reflexivity.
Qed.
Theorem spells_read_pattern pat r : spells r pat -> read_pattern pat = Some r.
Proof.
  intros H. unfold read_pattern. pose proof (proj2 (proj2 (proj2 text_read)) _ _ H (2 * List.length pat + 1)%nat [] (le_n _) (or_introl eq_refl)) as E. rewrite app_nil_r in E. rewrite E. reflexivity.
Qed.
