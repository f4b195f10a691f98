(** What arg_mgsort does besides moving elements: the calls of the comparison function, the scratch blocks and the nesting of its own
    calls. /repo/src/arg_utils.c lines 113-178 (merge and arg_mgsort) again, as in [MgsortModel], with a log of these events.

    Simplifications: those of [MgsortModel]. Allocation succeeds (AllocModel has the other case). The comparison function may answer
    differently each time it is called: it is handed the log. *)
From Verif Require Import Base MgsortModel.
From Coq Require Import ZArith List Bool.
Import ListNotations.
Open Scope Z_scope.

Section Trace.
Context {A : Type}.
(** [Called x y]: comparefn was called with these elements (line 149). [Taken n] and [Released n]: a block for n elements was
    allocated (line 124) or released (line 162). [Entered] and [Left]: arg_mgsort began or ended (lines 165 and 178). *)
Inductive event := Called (x y : A) | Taken (n : Z) | Released (n : Z) | Entered | Left.
(** The log has the latest event first. *)
Context (cmp : list event -> A -> A -> Z).

(** The merging loop, lines 127-158, as in [MgsortModel.merge_loop] *)
Fixpoint merge_loop (fuel : nat) (a : list A) (size j k ipos jpos : Z) (m : list A) (log : list event) : res (list A * list event) :=
  match fuel with
  | O => OutOfFuel
  | S f =>
      if (ipos <=? j) || (jpos <=? k) then
        if j <? ipos then m' <- copy_run f a size jpos k m ;; merge_loop f a size j k ipos (Z.max jpos (k + 1)) m' log
        else if k <? jpos then m' <- copy_run f a size ipos j m ;; merge_loop f a size j k (Z.max ipos (j + 1)) jpos m' log
        else
          x <- aget a ipos ;; y <- aget a jpos ;;
          if cmp log x y <? 0 then m' <- push size m x ;; merge_loop f a size j k (ipos + 1) jpos m' (Called x y :: log)
          else m' <- push size m y ;; merge_loop f a size j k ipos (jpos + 1) m' (Called x y :: log)
      else Ok (m, log)
  end.
(** merge, lines 113-163 *)
Definition merge (fuel : nat) (a : list A) (i j k : Z) (log : list event) : res (list A * list event) :=
  let size := k - i + 1 in
  '(m, log) <- merge_loop fuel a size j k i (j + 1) [] (Taken size :: log) ;;
  if zlen m =? size then a' <- copy_back a i m ;; Ok (a', Released size :: log) else UB OOBRead.
(** arg_mgsort, lines 165-178 *)
Fixpoint arg_mgsort (fuel : nat) (a : list A) (i k : Z) (log : list event) : res (list A * list event) :=
  match fuel with
  | O => OutOfFuel
  | S f =>
      if i <? k then
        if in_intb (i + k) then
          let j := Z.quot (i + k - 1) 2 in
          '(a1, log1) <- arg_mgsort f a i j (Entered :: log) ;;
          '(a2, log2) <- arg_mgsort f a1 (j + 1) k log1 ;;
          '(a3, log3) <- merge (S (S (List.length a))) a2 i j k log2 ;;
          Ok (a3, Left :: log3)
        else UB SignedOverflow
      else Ok (a, Left :: Entered :: log)
  end.
End Trace.
Arguments event : clear implicits.
