(** RexCost: the matcher of RexModel with a count of its steps: calls of trex_matchnode, and items of sets looked at (arg_rex.c lines
    720-900). That the answers are those of RexModel is the theorem C83_answers. *)
From Coq Require Import ZArith List Ascii Bool.
From Verif Require Import Base RexModel.
Import ListNotations.
Open Scope Z_scope.

Definition cost (A : Type) : Type := (res A * Z)%type.
Definition cbind {A B} (m : cost A) (k : A -> cost B) : cost B :=
  match m with
  | (Ok a, c) => let '(r, d) := k a in (r, c + d)
  | (UB u, c) => (UB u, c)
  | (OutOfFuel, c) => (OutOfFuel, c)
  end.
(** Without a step, and with one *)
Definition calm {A} (r : res A) : cost A := (r, 0).
Definition tick {A} (m : cost A) : cost A := let '(r, c) := m in (r, 1 + c).
Notation "x <-- m ;; k" := (cbind m (fun x => k)) (at level 61, m at next level, right associativity).

Section Match.
Context (T : list node) (nsub flags : Z) (text : str).
Notation visit := (Z -> nat -> option Z -> cost (option nat)).

(** trex_matchclass: lines 720-749 *)
Fixpoint matchclass_c (fuel : nat) (i : Z) (c : ascii) : cost bool :=
  match fuel with
  | O => calm OutOfFuel
  | S fuel =>
      n <-- tick (calm (aget T i)) ;;
      if class_item flags n c then calm (Ok true)
      else if n_next n =? -1 then calm (Ok false) else matchclass_c fuel (n_next n) c
  end.
(** Lines 774-790 *)
Definition stop_here_c (mn : visit) (p0 p1 : Z) (stop next : option Z) (nm : Z) (s : nat) : cost bool :=
  match stop with
  | None => calm (Ok false)
  | Some g =>
      gn <-- calm (aget T g) ;;
      if negb (n_type gn =? OP_GREEDY) || negb (low gn =? 0) then
        gnext <-- calm (if n_next gn =? -1 then match next with None => Ok None | Some x => xn <- aget T x ;; Ok (link (n_next xn)) end
                        else Ok (Some (n_next gn))) ;;
        r <-- mn g s gnext ;;
        match r with None => calm (Ok false) | Some _ => calm (Ok (enough p0 p1 nm)) end
      else calm (Ok false)
  end.
(** Lines 766-802 *)
Fixpoint greedy_c (mn : visit) (p0 p1 left : Z) (stop next : option Z) (fuel : nat) (nm : Z) (s good : nat) : cost (option nat) :=
  match fuel with
  | O => calm OutOfFuel
  | S fuel =>
      let finish nm good := calm (Ok (if enough p0 p1 nm then Some good else None)) in
      if (nm =? 65535) || (nm <? p1) then
        r <-- mn left s stop ;;
        match r with
        | None => finish nm good
        | Some s =>
            let nm := nm + 1 in
            b <-- stop_here_c mn p0 p1 stop next nm s ;;
            if (b : bool) || (List.length text <=? s)%nat then finish nm s else greedy_c mn p0 p1 left stop next fuel nm s s
        end
      else finish nm good
  end.
(** Lines 807-812 and 815-820 *)
Fixpoint branch_c (mn : visit) (fuel : nat) (temp : Z) (asd : nat) : cost (option nat) :=
  match fuel with
  | O => calm OutOfFuel
  | S fuel =>
      r <-- mn temp asd None ;;
      match r with
      | None => calm (Ok None)
      | Some asd => n <-- calm (aget T temp) ;; if n_next n =? -1 then calm (Ok (Some asd)) else branch_c mn fuel (n_next n) asd
      end
  end.
(** Lines 835-849 *)
Fixpoint sequence_c (mn : visit) (fuel : nat) (n : Z) (cur : nat) (next : option Z) : cost (option nat) :=
  match fuel with
  | O => calm OutOfFuel
  | S fuel =>
      nd <-- calm (aget T n) ;;
      r <-- mn n cur (if n_next nd =? -1 then next else Some (n_next nd)) ;;
      match r with
      | None => calm (Ok None)
      | Some cur => if n_next nd =? -1 then calm (Ok (Some cur)) else sequence_c mn fuel (n_next nd) cur next
      end
  end.
(** trex_matchnode: lines 751-900 *)
Fixpoint matchnode_c (fuel : nat) (i : Z) (s : nat) (next : option Z) : cost (option nat) :=
  match fuel with
  | O => calm OutOfFuel
  | S fuel =>
      n <-- tick (calm (aget T i)) ;;
      let type := n_type n in
      if type =? OP_GREEDY then
        greedy_c (matchnode_c fuel) (low n) (high n) (n_left n) (if n_next n =? -1 then next else Some (n_next n)) next
          (Z.to_nat (high n + 2)) 0 s s
      else if type =? OP_OR then
        r <-- branch_c (matchnode_c fuel) (List.length T) (n_left n) s ;;
        match r with Some e => calm (Ok (Some e)) | None => branch_c (matchnode_c fuel) (List.length T) (n_right n) s end
      else if (type =? OP_EXPR) || (type =? OP_NOCAPEXPR) then
        if (type =? OP_EXPR) && negb ((0 <=? n_right n) && (n_right n <? nsub)) then calm (UB OOBWrite)
        else sequence_c (matchnode_c fuel) (List.length T) (n_left n) s next
      else if type =? OP_WB then calm (b <- boundary text s ;; Ok (if Bool.eqb b (n_left n =? sc "b") then Some s else None))
      else if type =? OP_BOL then calm (Ok (if (s =? 0)%nat then Some s else None))
      else if type =? OP_EOL then calm (Ok (if (s =? List.length text)%nat then Some s else None))
      else if type =? OP_DOT then calm (Ok (Some (S s)))
      else if (type =? OP_NCLASS) || (type =? OP_CLASS) then
        c <-- calm (rd text s) ;;
        b <-- matchclass_c (List.length T) (n_left n) c ;;
        calm (Ok (if Bool.eqb b (type =? OP_CLASS) then Some (S s) else None))
      else if type =? OP_CCLASS then
        calm (c <- rd text s ;; Ok (if trex_matchcclass (n_left n) c then Some (S s) else None))
      else
        calm (c <- rd text s ;;
              let same := if icase flags then (sc c =? lower type) || (sc c =? upper type) else sc c =? type in
              Ok (if same then Some (S s) else None))
  end.
(** trex_match: lines 954-963 *)
Definition match_c : cost bool :=
  r <-- matchnode_c (S (List.length T)) 0 0 None ;;
  match r with Some e => calm (Ok (e =? List.length text)%nat) | None => calm (Ok false) end.
End Match.

(** The calls in arg_rex_scanfn, lines 147-148. Only the steps of the match count. *)
Definition trex_c (pattern : str) (flags : Z) (text : str) : cost bool :=
  match trex_compile pattern with
  | CDone _ st => match_c (r_nodes st) (r_nsub st) flags text
  | CFail _ => calm (UB NullDeref)
  | CUB u => calm (UB u)
  | CFuel => calm OutOfFuel
  end.
