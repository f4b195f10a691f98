(** MemModel: byte memory with blocks, for the parts of the code that pass character buffers around.

    A pointer is a block number and an offset. A block remembers whether it came from malloc (only such a
    block may be given to free). Accesses outside a block, to a freed block, a free of an address that is
    not the start of a live malloc block, and strcpy between overlapping ranges are undefined behaviour.
    The content of new memory is arbitrary ([junk]). *)
From Coq Require Import ZArith List Ascii Bool Lia.
From Verif Require Import Base ParseModel.
Import ListNotations.
Open Scope Z_scope.

Record mblock := { b_heap : bool; b_data : list ascii }.

(** [mlog] records calls of a release procedure of the client: which one, and the text it was given. *)
Record mem := { mget : nat -> option mblock; mnext : nat; mlog : list (nat * str) }.
Definition mem0 : mem := {| mget := fun _ => None; mnext := 0%nat; mlog := [] |}.

Definition ptr := (nat * Z)%type.
Definition padd (p : ptr) (n : Z) : ptr := (fst p, snd p + n).
Definition ptr_eqb (p q : ptr) : bool := Nat.eqb (fst p) (fst q) && (snd p =? snd q).

Definition mset (m : mem) (b : nat) (v : option mblock) : mem :=
  {| mget := fun i => if Nat.eqb i b then v else mget m i; mnext := mnext m; mlog := mlog m |}.

Definition mblk (m : mem) (b : nat) : res mblock :=
  match mget m b with Some k => Ok k | None => UB UseAfterFree end.

(** A new block with the given bytes. *)
Definition mnew (m : mem) (heap : bool) (d : list ascii) : mem * nat :=
  ({| mget := fun i => if Nat.eqb i (mnext m) then Some {| b_heap := heap; b_data := d |} else mget m i;
      mnext := S (mnext m); mlog := mlog m |}, mnext m).

(** xmalloc: arg_utils.c lines 82-88 (allocation never fails, see DESIGN.md). *)
Definition xmalloc (junk : nat -> ascii) (m : mem) (n : Z) : mem * nat := mnew m true (fresh junk n).

(** xfree: arg_utils.c lines 109-111; free(NULL) is not modelled here, its callers test for NULL. *)
Definition xfree (m : mem) (p : ptr) : res mem :=
  match mget m (fst p) with
  | None => UB DoubleFree
  | Some k => if b_heap k && (snd p =? 0) then Ok (mset m (fst p) None) else UB BadFree
  end.

(** The bytes from [p] to the end of its block. *)
Definition rd (m : mem) (p : ptr) : res (list ascii) :=
  k <- mblk m (fst p) ;;
  if (0 <=? snd p) && (snd p <=? zlen (b_data k)) then Ok (skipn (Z.to_nat (snd p)) (b_data k)) else UB OOBRead.

(** The bytes before the first NUL, if there is one. *)
Fixpoint scan0 (l : list ascii) : option str :=
  match l with
  | [] => None
  | c :: l' => if ceqb c NUL then Some [] else match scan0 l' with Some s => Some (c :: s) | None => None end
  end.

(** The C string at [p] (what strlen and strcpy read); running over the end of the block is an error. *)
Definition rd_str (m : mem) (p : ptr) : res str :=
  l <- rd m p ;;
  match scan0 l with Some s => Ok s | None => UB OOBRead end.

Definition rd_byte (m : mem) (p : ptr) : res ascii :=
  k <- mblk m (fst p) ;; aget (b_data k) (snd p).

(** Storing bytes at [p]. *)
Definition wr (m : mem) (p : ptr) (s : list ascii) : res mem :=
  k <- mblk m (fst p) ;;
  if (0 <=? snd p) && (snd p + zlen s <=? zlen (b_data k)) then
    Ok (mset m (fst p) (Some {| b_heap := b_heap k;
          b_data := firstn (Z.to_nat (snd p)) (b_data k) ++ s
                    ++ skipn (Z.to_nat (snd p) + List.length s) (b_data k) |}))
  else UB OOBWrite.

Definition overlap (p q : ptr) (n : Z) : bool :=
  Nat.eqb (fst p) (fst q) && (snd p <? snd q + n) && (snd q <? snd p + n).

(** C library: strcpy(dst, src). *)
Definition strcpy (m : mem) (dst src : ptr) : res mem :=
  s <- rd_str m src ;;
  if overlap dst src (zlen s + 1) then UB Overlap else wr m dst (s ++ [NUL]).

(** C library: memcpy(dst, src, n). *)
Definition memcpy (m : mem) (dst src : ptr) (n : Z) : res mem :=
  l <- rd m src ;;
  if zlen l <? n then UB OOBRead
  else if (0 <? n) && overlap dst src n then UB Overlap
  else wr m dst (firstn (Z.to_nat n) l).

(** C library: memset(p, 0, n). *)
Definition memset0 (m : mem) (p : ptr) (n : Z) : res mem := wr m p (repeat NUL (Z.to_nat n)).

(** Arithmetic in type int. *)
Definition c_int (z : Z) : res Z := if in_intb z then Ok z else UB SignedOverflow.

(** Facts about single operations. *)
Lemma scan0_app s l : cstr s -> scan0 (s ++ NUL :: l) = Some s.
Proof.
  intro H. induction s as [|c s IH]; cbn [app scan0].
  - rewrite ceqb_refl. reflexivity.
  - destruct (ceqb_spec c NUL) as [E|E].
    + exfalso. apply H. left. assumption.
    + rewrite IH; [reflexivity|]. intro K. apply H. right. assumption.
Qed.

Lemma scan0_some l s : scan0 l = Some s -> cstr s /\ exists t, l = s ++ NUL :: t.
Proof.
  revert s. induction l as [|c l IH]; cbn [scan0]; intros s H; [discriminate|].
  destruct (ceqb_spec c NUL) as [E|E].
  - injection H as <-. split; [intros []|]. subst. exists l. reflexivity.
  - destruct (scan0 l) as [u|] eqn:K; [|discriminate]. injection H as <-.
    destruct (IH u eq_refl) as [A [t B]]. split.
    + intros [X|X]; [congruence|]. exact (A X).
    + exists t. rewrite B. reflexivity.
Qed.

Lemma mget_mset_eq m b v : mget (mset m b v) b = v.
Proof. cbn [mset mget]. rewrite Nat.eqb_refl. reflexivity. Qed.
Lemma mget_mset_neq m b v i : i <> b -> mget (mset m b v) i = mget m i.
Proof. intro H. cbn [mset mget]. apply Nat.eqb_neq in H. rewrite H. reflexivity. Qed.

Lemma fresh_len {A} (junk : nat -> A) n : 0 <= n -> zlen (fresh junk n) = n.
Proof. intro H. unfold fresh, zlen. rewrite map_length, seq_length. lia. Qed.

Lemma fresh_length {A} (junk : nat -> A) n : List.length (fresh junk n) = Z.to_nat n.
Proof. unfold fresh. rewrite map_length, seq_length. reflexivity. Qed.
