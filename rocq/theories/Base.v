(** Base: bytes, C strings, C-locale character classes, outcomes.

    Representation choices used by the whole model (see DESIGN.md, section 3):
    a C string is the list of its bytes without the terminating NUL. *)
From Coq Require Import ZArith List Ascii String Bool Lia.
Import ListNotations.
Open Scope Z_scope.

Definition str := list ascii.

(** String literals of the C source. *)
Definition lit (s : string) : str := list_ascii_of_string s.

(** [char] as an unsigned and as a signed 8-bit value (x86: plain char is signed). *)
Definition uc (c : ascii) : Z := Z.of_N (N_of_ascii c).
Definition sc (c : ascii) : Z := if uc c <? 128 then uc c else uc c - 256.
Definition chr (z : Z) : ascii := ascii_of_N (Z.to_N (z mod 256)).

Definition NUL : ascii := "000"%char.

(** A byte string that can be the content of a C string. *)
Definition cstr (s : str) : Prop := ~ In NUL s.

(** Reading the byte a [const char*] points at; the terminator reads as NUL. *)
Definition hd0 (s : str) : ascii := match s with [] => NUL | c :: _ => c end.

Definition ceqb (a b : ascii) : bool := Ascii.eqb a b.
Fixpoint str_eqb (a b : str) : bool :=
  match a, b with
  | [], [] => true
  | x :: a', y :: b' => ceqb x y && str_eqb a' b'
  | _, _ => false
  end.

(** <ctype.h>, C locale. Bytes above 127 belong to no class (for negative [char] arguments
    the C standard leaves the behaviour of these functions open; all common C libraries
    answer 0 / identity in the C locale). *)
Definition isspaceb (c : ascii) : bool :=
  (uc c =? 32) || ((9 <=? uc c) && (uc c <=? 13)).
Definition isdigitb (c : ascii) : bool := (48 <=? uc c) && (uc c <=? 57).
Definition isupperb (c : ascii) : bool := (65 <=? uc c) && (uc c <=? 90).
Definition islowerb (c : ascii) : bool := (97 <=? uc c) && (uc c <=? 122).
Definition isalphab (c : ascii) : bool := isupperb c || islowerb c.
Definition isalnumb (c : ascii) : bool := isalphab c || isdigitb c.
Definition isxdigitb (c : ascii) : bool :=
  isdigitb c || ((65 <=? uc c) && (uc c <=? 70)) || ((97 <=? uc c) && (uc c <=? 102)).
Definition iscntrlb (c : ascii) : bool := (uc c <? 32) || (uc c =? 127).
Definition isprintb (c : ascii) : bool := (32 <=? uc c) && (uc c <? 127).
Definition ispunctb (c : ascii) : bool := (33 <=? uc c) && (uc c <? 127) && negb (isalnumb c).
Definition toupper (c : ascii) : ascii := if islowerb c then chr (uc c - 32) else c.
Definition tolower (c : ascii) : ascii := if isupperb c then chr (uc c + 32) else c.

(** <limits.h> for 32-bit int. *)
Definition INT_MAX : Z := 2147483647.
Definition INT_MIN : Z := -2147483648.
Definition int_range (z : Z) : Prop := INT_MIN <= z <= INT_MAX.
Definition in_intb (z : Z) : bool := (INT_MIN <=? z) && (z <=? INT_MAX).

(** Outcomes. [UB u] is an undefined behaviour of the C program ([OutsideText]: a read before or behind the text that a regular
    expression is matched with), [OutOfFuel] means the
    loop did not finish within the given number of iterations. *)
Inductive ub :=
| OOBRead | OOBWrite | UseAfterFree | DoubleFree | NullDeref | DivByZero
| SignedOverflow | Misaligned | BadFree | Overlap | OutsideText.

Inductive res (A : Type) := Ok (a : A) | UB (u : ub) | OutOfFuel.
Arguments Ok {A} a. Arguments UB {A} u. Arguments OutOfFuel {A}.

Definition bind {A B} (m : res A) (k : A -> res B) : res B :=
  match m with Ok a => k a | UB u => UB u | OutOfFuel => OutOfFuel end.
Notation "x <- m ;; k" := (bind m (fun x => k)) (at level 61, m at next level, right associativity).
Notation "' p <- m ;; k" := (bind m (fun p => k)) (at level 61, p pattern, m at next level, right associativity).

Lemma bind_ok {A B} (m : res A) (k : A -> res B) b :
  bind m k = Ok b -> exists a, m = Ok a /\ k a = Ok b.
Proof. destruct m; simpl; intros; try discriminate. eauto. Qed.

(** Bounds-checked arrays. *)
Definition aget {A} (l : list A) (i : Z) : res A :=
  if i <? 0 then UB OOBRead else
  match nth_error l (Z.to_nat i) with Some a => Ok a | None => UB OOBRead end.
Fixpoint lupd {A} (l : list A) (i : nat) (a : A) : list A :=
  match l, i with
  | [], _ => []
  | _ :: l', O => a :: l'
  | x :: l', S i' => x :: lupd l' i' a
  end.
Definition aset {A} (l : list A) (i : Z) (a : A) : res (list A) :=
  if (0 <=? i) && (i <? Z.of_nat (List.length l)) then Ok (lupd l (Z.to_nat i) a) else UB OOBWrite.

Definition zlen {A} (l : list A) : Z := Z.of_nat (List.length l).

Lemma zlen_nonneg {A} (l : list A) : 0 <= zlen l.
Proof. unfold zlen; lia. Qed.
Lemma zlen_app {A} (a b : list A) : zlen (a ++ b) = zlen a + zlen b.
Proof. unfold zlen. rewrite app_length. lia. Qed.
Lemma zlen_cons {A} (a : A) l : zlen (a :: l) = zlen l + 1.
Proof. unfold zlen. simpl. lia. Qed.
Lemma zlen_nil {A} : zlen (@nil A) = 0.
Proof. reflexivity. Qed.

Lemma lupd_length {A} (l : list A) i a : List.length (lupd l i a) = List.length l.
Proof. revert i; induction l; destruct i; simpl; auto. Qed.

Lemma nth_error_lupd_eq {A} (l : list A) i a :
  (i < List.length l)%nat -> nth_error (lupd l i a) i = Some a.
Proof. revert i; induction l; destruct i; simpl; intros; try lia; auto. apply IHl; lia. Qed.

Lemma nth_error_lupd_neq {A} (l : list A) i j a :
  i <> j -> nth_error (lupd l i a) j = nth_error l j.
Proof.
  revert i j; induction l; destruct i, j; simpl; intros; auto; try congruence.
  all: apply IHl; congruence.
Qed.

Lemma lupd_nth_error {A} (l : list A) i a :
  nth_error l i = Some a -> lupd l i a = l.
Proof.
  revert i; induction l; destruct i; simpl; intros; try discriminate; auto.
  - congruence.
  - f_equal; auto.
Qed.

Lemma aset_ok {A} (l : list A) i a :
  0 <= i < zlen l -> aset l i a = Ok (lupd l (Z.to_nat i) a).
Proof.
  unfold aset, zlen; intros. destruct (Z.leb_spec 0 i); destruct (Z.ltb_spec i (Z.of_nat (List.length l))); simpl; auto; lia.
Qed.

Lemma aget_ok {A} (l : list A) i :
  0 <= i < zlen l -> exists a, aget l i = Ok a /\ nth_error l (Z.to_nat i) = Some a.
Proof.
  unfold aget, zlen; intros. destruct (Z.ltb_spec i 0); [lia|].
  destruct (nth_error l (Z.to_nat i)) eqn:E; eauto.
  apply nth_error_None in E. lia.
Qed.

Lemma ceqb_eq a b : ceqb a b = true <-> a = b.
Proof. apply Ascii.eqb_eq. Qed.
Lemma ceqb_neq a b : ceqb a b = false <-> a <> b.
Proof. apply Ascii.eqb_neq. Qed.
Lemma ceqb_refl a : ceqb a a = true.
Proof. apply Ascii.eqb_refl. Qed.
Lemma ceqb_spec a b : reflect (a = b) (ceqb a b).
Proof. apply Ascii.eqb_spec. Qed.

Lemma str_eqb_eq a b : str_eqb a b = true <-> a = b.
Proof.
  revert b; induction a; destruct b; simpl; split; intros; try discriminate; auto.
  - apply andb_true_iff in H as [H1 H2]. apply ceqb_eq in H1. apply IHa in H2. congruence.
  - injection H; intros; subst. rewrite ceqb_refl. simpl. apply IHa; auto.
Qed.
Lemma str_eqb_refl a : str_eqb a a = true.
Proof. apply str_eqb_eq; auto. Qed.
Lemma str_eqb_spec a b : reflect (a = b) (str_eqb a b).
Proof.
  destruct (str_eqb a b) eqn:E; constructor.
  - apply str_eqb_eq; auto.
  - intro; subst. rewrite str_eqb_refl in E; discriminate.
Qed.
Definition str_eq_dec (a b : str) : {a = b} + {a <> b} := list_eq_dec Ascii.ascii_dec a b.

Lemma uc_range c : 0 <= uc c < 256.
Proof. unfold uc. pose proof (N_ascii_bounded c). lia. Qed.
Lemma uc_inj a b : uc a = uc b -> a = b.
Proof.
  unfold uc; intros. rewrite <- (ascii_N_embedding a), <- (ascii_N_embedding b). f_equal. lia.
Qed.
Lemma chr_uc c : chr (uc c) = c.
Proof.
  unfold chr. rewrite Z.mod_small by apply uc_range.
  unfold uc. rewrite N2Z.id. apply ascii_N_embedding.
Qed.
Lemma uc_chr z : 0 <= z < 256 -> uc (chr z) = z.
Proof.
  intros. unfold uc, chr. rewrite Z.mod_small by lia.
  rewrite N_ascii_embedding by lia. lia.
Qed.
