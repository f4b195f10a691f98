(** Model of /repo/src/arg_utils.c lines 113-178: merge and arg_mgsort. *)
From Verif Require Import Base.
From Coq Require Import ZArith List Bool.
Import ListNotations.
Open Scope Z_scope.

Section Mgsort.
(** Elements and the user's comparison function. Simplification: the byte array with element
    size [esize] is an array of elements (memcpy of one element = one element assignment); the int
    products with esize are left out. [MgsortBytesModel] has both, and [PropMgsortBytes] relates the two. *)
Context {A : Type} (cmp : A -> A -> Z).

(** Appending to the scratch block m of [size] elements (bounds-checked, line 131/140/150/154). *)
Definition push (size : Z) (m : list A) (x : A) : res (list A) :=
  if zlen m <? size then Ok (m ++ [x]) else UB OOBWrite.

(** The inner copy loops, lines 130-134 and 139-143: copy a[p..last] to m. *)
Fixpoint copy_run (fuel : nat) (a : list A) (size p last : Z) (m : list A) : res (list A) :=
  match fuel with
  | O => OutOfFuel
  | S f => if p <=? last then
             x <- aget a p ;; m' <- push size m x ;; copy_run f a size (p + 1) last m'
           else Ok m
  end.

(** The merging loop, lines 127-158. The two [continue]s end the loop, since afterwards both
    divisions are exhausted. *)
Fixpoint merge_loop (fuel : nat) (a : list A) (size j k ipos jpos : Z) (m : list A) : res (list A) :=
  match fuel with
  | O => OutOfFuel
  | S f =>
      if (ipos <=? j) || (jpos <=? k) then
        if j <? ipos then m' <- copy_run f a size jpos k m ;; merge_loop f a size j k ipos (Z.max jpos (k + 1)) m'
        else if k <? jpos then m' <- copy_run f a size ipos j m ;; merge_loop f a size j k (Z.max ipos (j + 1)) jpos m'
        else
          x <- aget a ipos ;; y <- aget a jpos ;;
          if cmp x y <? 0 then m' <- push size m x ;; merge_loop f a size j k (ipos + 1) jpos m'
          else m' <- push size m y ;; merge_loop f a size j k ipos (jpos + 1) m'
      else Ok m
  end.

(** memcpy back, line 161. The source must be completely initialised. *)
Fixpoint copy_back (a : list A) (i : Z) (m : list A) : res (list A) :=
  match m with
  | [] => Ok a
  | x :: m' => a' <- aset a i x ;; copy_back a' (i + 1) m'
  end.

Definition merge (fuel : nat) (a : list A) (i j k : Z) : res (list A) :=
  let size := k - i + 1 in
  m <- merge_loop fuel a size j k i (j + 1) [] ;;
  if zlen m =? size then copy_back a i m else UB OOBRead.

(** arg_mgsort, lines 165-178. i + k - 1 is computed in int. *)
Fixpoint arg_mgsort (fuel : nat) (a : list A) (i k : Z) : res (list A) :=
  match fuel with
  | O => OutOfFuel
  | S f =>
      if i <? k then
        if in_intb (i + k) then
          let j := Z.quot (i + k - 1) 2 in
          a1 <- arg_mgsort f a i j ;;
          a2 <- arg_mgsort f a1 (j + 1) k ;;
          merge (S (S (List.length a))) a2 i j k
        else UB SignedOverflow
      else Ok a
  end.
End Mgsort.
