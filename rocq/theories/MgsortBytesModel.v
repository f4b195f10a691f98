(** Model of /repo/src/arg_utils.c lines 113-178 (merge and arg_mgsort) on the bytes of the array. *)
From Verif Require Import Base.
From Coq Require Import ZArith List Bool Ascii.
Import ListNotations.
Open Scope Z_scope.

Section Bytes.
(** The size of an element in bytes, and the user's comparison function. Simplification: it is a function of the bytes of the two
    elements it is pointed to (it may follow pointers in them to memory that does not change meanwhile). *)
Context (esize : Z) (cmp : str -> str -> Z).

(** The int product p * esize of lines 131, 140, 149, 150, 154 and 161. *)
Definition at_ (p : Z) : res Z := if in_intb (p * esize) then Ok (p * esize) else UB SignedOverflow.

(** memcpy from [n] bytes at offset [off] of an array. *)
Definition bread {X} (l : list X) (off n : Z) : res (list X) :=
  if (0 <=? off) && (0 <=? n) && (off + n <=? zlen l) then Ok (firstn (Z.to_nat n) (skipn (Z.to_nat off) l)) else UB OOBRead.
(** memcpy to offset [off] of an array. *)
Definition bwrite {X} (l : list X) (off : Z) (xs : list X) : res (list X) :=
  if (0 <=? off) && (off + zlen xs <=? zlen l) then Ok (firstn (Z.to_nat off) l ++ xs ++ skipn (Z.to_nat (off + zlen xs)) l) else UB OOBWrite.

(** memcpy(&m[mpos * esize], &a[p * esize], esize), lines 131, 140, 150 and 154. The scratch block m begins with bytes that are not
    initialised ([None]). *)
Definition copy_element (m : list (option ascii)) (mpos : Z) (a : str) (p : Z) : res (list (option ascii)) :=
  mo <- at_ mpos ;; ao <- at_ p ;; x <- bread a ao esize ;; bwrite m mo (map Some x).

(** The inner copy loops, lines 130-134 and 139-143, with the new mpos. *)
Fixpoint copy_run (fuel : nat) (a : str) (p last : Z) (m : list (option ascii)) (mpos : Z) : res (list (option ascii) * Z) :=
  match fuel with
  | O => OutOfFuel
  | S f => if p <=? last then m' <- copy_element m mpos a p ;; copy_run f a (p + 1) last m' (mpos + 1) else Ok (m, mpos)
  end.

(** The merging loop, lines 127-158. *)
Fixpoint merge_loop (fuel : nat) (a : str) (j k ipos jpos : Z) (m : list (option ascii)) (mpos : Z) : res (list (option ascii)) :=
  match fuel with
  | O => OutOfFuel
  | S f =>
      if (ipos <=? j) || (jpos <=? k) then
        if j <? ipos then ' (m', mpos') <- copy_run f a jpos k m mpos ;; merge_loop f a j k ipos (Z.max jpos (k + 1)) m' mpos'
        else if k <? jpos then ' (m', mpos') <- copy_run f a ipos j m mpos ;; merge_loop f a j k (Z.max ipos (j + 1)) jpos m' mpos'
        else
          io <- at_ ipos ;; jo <- at_ jpos ;; x <- bread a io esize ;; y <- bread a jo esize ;;
          if cmp x y <? 0 then m' <- copy_element m mpos a ipos ;; merge_loop f a j k (ipos + 1) jpos m' (mpos + 1)
          else m' <- copy_element m mpos a jpos ;; merge_loop f a j k ipos (jpos + 1) m' (mpos + 1)
      else Ok m
  end.

(** The bytes of the scratch block; line 161 copies all of them, so they must be initialised. *)
Fixpoint initialised (m : list (option ascii)) : res str :=
  match m with
  | [] => Ok []
  | Some c :: m => l <- initialised m ;; Ok (c :: l)
  | None :: _ => UB OOBRead
  end.

(** merge, lines 113-163. esize * ((k - i) + 1) is computed in int, then converted to size_t: a negative number becomes a huge one,
    for which xmalloc does not return ([UB] here: the block is not there). *)
Definition merge (fuel : nat) (a : str) (i j k : Z) : res str :=
  if in_intb (k - i + 1) && in_intb (esize * (k - i + 1)) then
    let size := esize * (k - i + 1) in
    if size <? 0 then UB OOBWrite
    else
      m <- merge_loop fuel a j k i (j + 1) (repeat None (Z.to_nat size)) 0 ;;
      ao <- at_ i ;; x <- initialised m ;; bwrite a ao x
  else UB SignedOverflow.

(** arg_mgsort, lines 165-178. [n] is fuel for the loops of merge. The parameter size is not used by the code. *)
Fixpoint arg_mgsort (fuel n : nat) (a : str) (i k : Z) : res str :=
  match fuel with
  | O => OutOfFuel
  | S f =>
      if i <? k then
        if in_intb (i + k) then
          let j := Z.quot (i + k - 1) 2 in
          a1 <- arg_mgsort f n a i j ;;
          a2 <- arg_mgsort f n a1 (j + 1) k ;;
          merge n a2 i j k
        else UB SignedOverflow
      else Ok a
  end.
End Bytes.
