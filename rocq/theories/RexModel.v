(** RexModel: the regular expression matcher of arg_rex.c (lines 300-963). *)
From Coq Require Import ZArith String List Ascii Bool.
From Verif Require Import Base.
Import ListNotations.
Open Scope Z_scope.

(** ** The node table *)

(** TRexNode: lines 346-351 *)
Record node := mknode { n_type : Z; n_left : Z; n_right : Z; n_next : Z }.
Definition set_left (v : Z) (n : node) : node := mknode (n_type n) v (n_right n) (n_next n).
Definition set_right (v : Z) (n : node) : node := mknode (n_type n) (n_left n) v (n_next n).
Definition set_next (v : Z) (n : node) : node := mknode (n_type n) (n_left n) (n_right n) v.

(** Node types: lines 321-333; other types are characters (as signed char). *)
Definition OP_GREEDY : Z := 256.
Definition OP_OR : Z := 257.
Definition OP_EXPR : Z := 258.
Definition OP_NOCAPEXPR : Z := 259.
Definition OP_DOT : Z := 260.
Definition OP_CLASS : Z := 261.
Definition OP_CCLASS : Z := 262.
Definition OP_NCLASS : Z := 263.
Definition OP_RANGE : Z := 264.
Definition OP_CHAR : Z := 265.
Definition OP_EOL : Z := 266.
Definition OP_BOL : Z := 267.
Definition OP_WB : Z := 268.

(** ** Compiling *)

(** struct TRex (lines 353-368), the parts used while compiling. [r_p] is the pointer into the pattern: the text it points at,
    None once it is behind the terminator. [r_nodes] has the _nsize nodes in use, of _nallocated. _eol is NULL. *)
Record rst := { r_p : option str; r_nodes : list node; r_alloc : Z; r_nsub : Z }.

(** [CFail]: trex_error (lines 388-392) with its longjmp to trex_compile. *)
Inductive crun (A : Type) := CDone (a : A) (st : rst) | CFail (msg : str) | CUB (u : ub) | CFuel.
Arguments CDone {A}. Arguments CFail {A}. Arguments CUB {A}. Arguments CFuel {A}.
Definition cm (A : Type) := rst -> crun A.
Definition cret {A} (a : A) : cm A := fun st => CDone a st.
Definition cbind {A B} (m : cm A) (k : A -> cm B) : cm B := fun st =>
  match m st with CDone a st => k a st | CFail e => CFail e | CUB u => CUB u | CFuel => CFuel end.
Notation "x <~ m ; k" := (cbind m (fun x => k)) (at level 61, m at next level, right associativity).
Definition trex_error {A} (msg : string) : cm A := fun _ => CFail (lit msg).
Definition cfuel {A} : cm A := fun _ => CFuel.
Definition cub {A} (u : ub) : cm A := fun _ => CUB u.

(** *exp->_p *)
Definition peek : cm ascii := fun st => match r_p st with Some s => CDone (hd0 s) st | None => CUB OOBRead end.
(** exp->_p++ *)
Definition advance : cm unit := fun st =>
  match r_p st with
  | Some (_ :: s) => CDone tt {| r_p := Some s; r_nodes := r_nodes st; r_alloc := r_alloc st; r_nsub := r_nsub st |}
  | Some [] => CDone tt {| r_p := None; r_nodes := r_nodes st; r_alloc := r_alloc st; r_nsub := r_nsub st |}
  | None => CUB OOBRead
  end.
(** exp->_nodes[i], read and changed *)
Definition getn (i : Z) : cm node := fun st => match aget (r_nodes st) i with Ok n => CDone n st | UB u => CUB u | OutOfFuel => CFuel end.
Definition setn (i : Z) (f : node -> node) : cm unit := fun st =>
  match aget (r_nodes st) i with
  | Ok n => CDone tt {| r_p := r_p st; r_nodes := lupd (r_nodes st) (Z.to_nat i) (f n); r_alloc := r_alloc st; r_nsub := r_nsub st |}
  | _ => CUB OOBWrite
  end.

(** trex_newnode: lines 372-386. The growth is by xrealloc, which keeps the nodes. *)
Definition trex_newnode (type : Z) : cm Z := fun st =>
  let isexpr := type =? OP_EXPR in
  let n := mknode type (-1) (if isexpr then r_nsub st else -1) (-1) in
  let nsub := if isexpr then r_nsub st + 1 else r_nsub st in
  let nsize := zlen (r_nodes st) in
  let alloc := if r_alloc st <? nsize + 1 then r_alloc st * 2 else r_alloc st in
  if negb (in_intb alloc) then CUB SignedOverflow
  else if nsize <? alloc then CDone nsize {| r_p := r_p st; r_nodes := r_nodes st ++ [n]; r_alloc := alloc; r_nsub := nsub |}
  else CUB OOBWrite.

(** trex_expect: lines 394-398 *)
Definition trex_expect (c : ascii) : cm unit :=
  x <~ peek; if ceqb x c then advance else trex_error "expected paren".

Definition chr_v : ascii := "011"%char.
Definition chr_n : ascii := "010"%char.
Definition chr_t : ascii := "009"%char.
Definition chr_r : ascii := "013"%char.
Definition chr_f : ascii := "012"%char.

(** trex_escapechar: lines 400-425 *)
Definition trex_escapechar : cm ascii :=
  c <~ peek;
  if ceqb c "\" then
    _ <~ advance;
    d <~ peek;
    _ <~ advance;
    cret (if ceqb d "v" then chr_v else if ceqb d "n" then chr_n else if ceqb d "t" then chr_t
          else if ceqb d "r" then chr_r else if ceqb d "f" then chr_f else d)
  else if negb (isprintb c) then trex_error "letter expected"
  else _ <~ advance; cret c.

(** trex_charclass: lines 427-431 *)
Definition trex_charclass (classid : Z) : cm Z :=
  n <~ trex_newnode OP_CCLASS; _ <~ setn n (set_left classid); cret n.

Definition class_letters : str := lit "aAwWsSdDxXcCpPlu".
Definition inb (c : ascii) (l : str) : bool := existsb (ceqb c) l.

(** trex_charnode: lines 433-493 *)
Definition trex_charnode (isclass : bool) : cm Z :=
  c <~ peek;
  if ceqb c "\" then
    _ <~ advance;
    d <~ peek;
    if ceqb d "n" then _ <~ advance; trex_newnode (sc chr_n)
    else if ceqb d "t" then _ <~ advance; trex_newnode (sc chr_t)
    else if ceqb d "r" then _ <~ advance; trex_newnode (sc chr_r)
    else if ceqb d "f" then _ <~ advance; trex_newnode (sc chr_f)
    else if ceqb d "v" then _ <~ advance; trex_newnode (sc chr_v)
    else if inb d class_letters then _ <~ advance; trex_charclass (sc d)
    else if (ceqb d "b" || ceqb d "B") && negb isclass then
      node <~ trex_newnode OP_WB; _ <~ setn node (set_left (sc d)); _ <~ advance; cret node
    else _ <~ advance; trex_newnode (sc d)
  else if negb (isprintb c) then trex_error "letter expected"
  else _ <~ advance; trex_newnode (sc c).

(** trex_class: the loop of lines 507-534. The condition exp->_p != exp->_eol is always true while compiling. In line 510 the
    character compared with the bracket is the dash just read. Line 513 compares the number of a node with a character. *)
Fixpoint trex_class_loop (fuel : nat) (chain first : Z) : cm (Z * Z) :=
  match fuel with
  | O => cfuel
  | S fuel =>
      c <~ peek;
      if ceqb c "]" then cret (chain, first)
      else if ceqb c "-" && negb (first =? -1) then
        _ <~ advance;
        r <~ trex_newnode OP_RANGE;
        d <~ peek;
        if sc d <? first then trex_error "invalid range" else
        f <~ getn first;
        if n_type f =? OP_CCLASS then trex_error "cannot use character classes in ranges" else
        _ <~ setn r (set_left (n_type f));
        t <~ trex_escapechar;
        _ <~ setn r (set_right (sc t));
        _ <~ setn chain (set_next r);
        trex_class_loop fuel r (-1)
      else if negb (first =? -1) then
        _ <~ setn chain (set_next first);
        first' <~ trex_charnode true;
        trex_class_loop fuel first first'
      else
        first' <~ trex_charnode true;
        trex_class_loop fuel chain first'
  end.
(** trex_class: lines 494-543 *)
Definition trex_class (fuel : nat) : cm Z :=
  c <~ peek;
  ret <~ (if ceqb c "^" then r <~ trex_newnode OP_NCLASS; _ <~ advance; cret r else trex_newnode OP_CLASS);
  c <~ peek;
  if ceqb c "]" then trex_error "empty class" else
  p <~ trex_class_loop fuel ret (-1);
  let '(chain, first) := p in
  _ <~ (if negb (first =? -1) then setn chain (set_next first) else cret tt);
  r <~ getn ret;
  _ <~ setn ret (set_left (n_next r));
  _ <~ setn ret (set_next (-1));
  cret ret.

(** trex_parsenumber: lines 545-556 *)
Fixpoint trex_number_loop (fuel : nat) (ret positions : Z) : cm Z :=
  match fuel with
  | O => cfuel
  | S fuel =>
      c <~ peek;
      if isdigitb c then
        let ret := ret * 10 + (sc c - 48) in
        if negb (in_intb ret) then cub SignedOverflow else
        _ <~ advance;
        if positions =? 1000000000 then trex_error "overflow in numeric constant"
        else trex_number_loop fuel ret (positions * 10)
      else cret ret
  end.
Definition trex_parsenumber (fuel : nat) : cm Z :=
  c <~ peek; _ <~ advance; trex_number_loop fuel (sc c - 48) 10.

(** The conversion to unsigned short, and the packing of the two numbers of a repetition: lines 610-650. *)
Definition ushort (n : Z) : Z := n mod 65536.
Definition pack (p0 p1 : Z) : Z := p0 * 65536 + p1.

(** trex_element, the suffix: lines 586-652. [ret] is the element before. Shifting into the sign bit is undefined. *)
Definition trex_suffix (fuel : nat) (ret : Z) : cm Z :=
  c <~ peek;
  g <~ (if ceqb c "*" then _ <~ advance; cret (Some (0, 65535))
        else if ceqb c "+" then _ <~ advance; cret (Some (1, 65535))
        else if ceqb c "?" then _ <~ advance; cret (Some (0, 1))
        else if ceqb c "{" then
          _ <~ advance;
          d <~ peek;
          if negb (isdigitb d) then trex_error "number expected" else
          n0 <~ trex_parsenumber fuel;
          let p0 := ushort n0 in
          e <~ peek;
          if ceqb e "}" then _ <~ advance; cret (Some (p0, p0))
          else if ceqb e "," then
            _ <~ advance;
            d <~ peek;
            p1 <~ (if isdigitb d then n1 <~ trex_parsenumber fuel; cret (ushort n1) else cret 65535);
            _ <~ trex_expect "}";
            cret (Some (p0, p1))
          else trex_error ", or } expected"
        else cret None);
  match g with
  | None => cret ret
  | Some (p0, p1) =>
      nnode <~ trex_newnode OP_GREEDY;
      _ <~ setn nnode (set_left ret);
      if 32768 <=? p0 then cub SignedOverflow else
      _ <~ setn nnode (set_right (pack p0 p1));
      cret nnode
  end.

(** trex_element: lines 558-656; trex_list: lines 658-680 *)
Fixpoint trex_element (fuel : nat) : cm Z :=
  match fuel with
  | O => cfuel
  | S fuel =>
      c <~ peek;
      atom <~ (if ceqb c "(" then
                 _ <~ advance;
                 d <~ peek;
                 expr <~ (if ceqb d "?" then _ <~ advance; _ <~ trex_expect ":"; trex_newnode OP_NOCAPEXPR else trex_newnode OP_EXPR);
                 newn <~ trex_list fuel;
                 _ <~ setn expr (set_left newn);
                 _ <~ trex_expect ")";
                 cret expr
               else if ceqb c "[" then _ <~ advance; r <~ trex_class (S fuel); _ <~ trex_expect "]"; cret r
               else if ceqb c "$" then _ <~ advance; trex_newnode OP_EOL
               else if ceqb c "." then _ <~ advance; trex_newnode OP_DOT
               else trex_charnode false);
      ret <~ trex_suffix (S fuel) atom;
      e <~ peek;
      if inb e [ "|"; ")"; "*"; "+"; NUL ]%char then cret ret
      else nnode <~ trex_element fuel; _ <~ setn ret (set_next nnode); cret ret
  end
with trex_list (fuel : nat) : cm Z :=
  match fuel with
  | O => cfuel
  | S fuel =>
      c <~ peek;
      ret <~ (if ceqb c "^" then
                _ <~ advance;
                bol <~ trex_newnode OP_BOL;
                e <~ trex_element fuel;
                _ <~ setn bol (set_next e);
                cret bol
              else trex_element fuel);
      d <~ peek;
      if ceqb d "|" then
        _ <~ advance;
        temp <~ trex_newnode OP_OR;
        _ <~ setn temp (set_left ret);
        tright <~ trex_list fuel;
        _ <~ setn temp (set_right tright);
        cret temp
      else cret ret
  end.

(** trex_compile: lines 903-943. The node of the whole expression is made before setjmp; it cannot fail. *)
Definition compile_fuel (pattern : str) : nat := 2 * List.length pattern + 3.
Definition trex_compile (pattern : str) : crun unit :=
  (first <~ trex_newnode OP_EXPR;
   l <~ trex_list (compile_fuel pattern);
   _ <~ setn first (set_left l);
   c <~ peek;
   if ceqb c NUL then cret tt else trex_error "unexpected character")
  {| r_p := Some pattern; r_nodes := []; r_alloc := zlen pattern; r_nsub := 0 |}.

(** ** Matching *)

(** toupper and tolower of an int that was a char *)
Definition upper (z : Z) : Z := sc (toupper (chr z)).
Definition lower (z : Z) : Z := sc (tolower (chr z)).

(** trex_matchcclass: lines 682-718 *)
Definition trex_matchcclass (cclass : Z) (c : ascii) : bool :=
  if cclass =? sc "a" then isalphab c
  else if cclass =? sc "A" then negb (isalphab c)
  else if cclass =? sc "w" then isalnumb c || ceqb c "_"
  else if cclass =? sc "W" then negb (isalnumb c) && negb (ceqb c "_")
  else if cclass =? sc "s" then isspaceb c
  else if cclass =? sc "S" then negb (isspaceb c)
  else if cclass =? sc "d" then isdigitb c
  else if cclass =? sc "D" then negb (isdigitb c)
  else if cclass =? sc "x" then isxdigitb c
  else if cclass =? sc "X" then negb (isxdigitb c)
  else if cclass =? sc "c" then iscntrlb c
  else if cclass =? sc "C" then negb (iscntrlb c)
  else if cclass =? sc "p" then ispunctb c
  else if cclass =? sc "P" then negb (ispunctb c)
  else if cclass =? sc "l" then islowerb c
  else if cclass =? sc "u" then isupperb c
  else false.

Section Match.
Context (T : list node) (nsub flags : Z) (text : str).
Definition icase : bool := Z.testbit flags 0.

(** *(text + i) *)
Definition rd (i : nat) : res ascii :=
  if (i <? List.length text)%nat then match nth_error text i with Some c => Ok c | None => UB OutsideText end
  else if (i =? List.length text)%nat then Ok NUL else UB OutsideText.

(** Whether an item of a class has the character: the switch of lines 722-747 *)
Definition class_item (n : node) (c : ascii) : bool :=
  if n_type n =? OP_RANGE then
    if icase then ((upper (n_left n) <=? sc c) && (sc c <=? upper (n_right n))) || ((lower (n_left n) <=? sc c) && (sc c <=? lower (n_right n)))
    else (n_left n <=? sc c) && (sc c <=? n_right n)
  else if n_type n =? OP_CCLASS then trex_matchcclass (n_left n) c
  else if icase then (sc c =? lower (n_type n)) || (sc c =? upper (n_type n))
  else sc c =? n_type n.
(** trex_matchclass: lines 720-749 *)
Fixpoint trex_matchclass (fuel : nat) (i : Z) (c : ascii) : res bool :=
  match fuel with
  | O => OutOfFuel
  | S fuel =>
      n <- aget T i ;;
      if class_item n c then Ok true
      else if n_next n =? -1 then Ok false else trex_matchclass fuel (n_next n) c
  end.

(** The two numbers of a repetition: line 757 *)
Definition low (n : node) : Z := (n_right n / 65536) mod 65536.
Definition high (n : node) : Z := n_right n mod 65536.
Definition link (i : Z) : option Z := if i =? -1 then None else Some i.

(** The conditions of lines 783-788 and 796-801 *)
Definition enough (p0 p1 nm : Z) : bool :=
  ((p0 =? p1) && (p0 =? nm)) || ((p0 <=? nm) && (p1 =? 65535)) || ((p0 <=? nm) && (nm <=? p1)).

(** Whether the loop stops because the following node matches: lines 774-790 *)
Definition stop_here (mn : Z -> nat -> option Z -> res (option nat)) (p0 p1 : Z) (stop next : option Z) (nm : Z) (s : nat) : res bool :=
  match stop with
  | None => Ok false
  | Some g =>
      gn <- aget T g ;;
      if negb (n_type gn =? OP_GREEDY) || negb (low gn =? 0) then
        gnext <- (if n_next gn =? -1 then match next with None => Ok None | Some x => xn <- aget T x ;; Ok (link (n_next xn)) end
                  else Ok (Some (n_next gn))) ;;
        r <- mn g s gnext ;;
        match r with None => Ok false | Some _ => Ok (enough p0 p1 nm) end
      else Ok false
  end.
(** The loop of OP_GREEDY: lines 766-802; [mn] is trex_matchnode. *)
Fixpoint greedy (mn : Z -> nat -> option Z -> res (option nat)) (p0 p1 left : Z) (stop next : option Z)
    (fuel : nat) (nm : Z) (s good : nat) : res (option nat) :=
  match fuel with
  | O => OutOfFuel
  | S fuel =>
      let finish nm good := Ok (if enough p0 p1 nm then Some good else None) in
      if (nm =? 65535) || (nm <? p1) then
        r <- mn left s stop ;;
        match r with
        | None => finish nm good
        | Some s =>
            let nm := nm + 1 in
            b <- stop_here mn p0 p1 stop next nm s ;;
            if (b : bool) || (List.length text <=? s)%nat then finish nm s else greedy mn p0 p1 left stop next fuel nm s s
        end
      else finish nm good
  end.
(** The loops of OP_OR: lines 807-812 and 815-820 *)
Fixpoint branch (mn : Z -> nat -> option Z -> res (option nat)) (fuel : nat) (temp : Z) (asd : nat) : res (option nat) :=
  match fuel with
  | O => OutOfFuel
  | S fuel =>
      r <- mn temp asd None ;;
      match r with
      | None => Ok None
      | Some asd => n <- aget T temp ;; if n_next n =? -1 then Ok (Some asd) else branch mn fuel (n_next n) asd
      end
  end.
(** The loop of OP_EXPR: lines 835-849 *)
Fixpoint sequence (mn : Z -> nat -> option Z -> res (option nat)) (fuel : nat) (n : Z) (cur : nat) (next : option Z) : res (option nat) :=
  match fuel with
  | O => OutOfFuel
  | S fuel =>
      nd <- aget T n ;;
      r <- mn n cur (if n_next nd =? -1 then next else Some (n_next nd)) ;;
      match r with
      | None => Ok None
      | Some cur => if n_next nd =? -1 then Ok (Some cur) else sequence mn fuel (n_next nd) cur next
      end
  end.
(** The condition of OP_WB: lines 856-857, with the order of evaluation of C *)
Definition boundary (s : nat) : res bool :=
  c <- rd s ;;
  if (s =? 0)%nat && negb (isspaceb c) then Ok true else
  a <- (if (s =? List.length text)%nat then match s with O => UB OutsideText | S s' => p <- rd s' ;; Ok (negb (isspaceb p)) end else Ok false) ;;
  if (a : bool) then Ok true else
  d <- rd (S s) ;;
  Ok (negb (Bool.eqb (isspaceb c) (isspaceb d))).

(** trex_matchnode: lines 751-900. The recording of sub-matches does not influence the result and is left out, but for the
    array access: it is taken to happen at every visit of a capturing group. *)
Fixpoint trex_matchnode (fuel : nat) (i : Z) (s : nat) (next : option Z) : res (option nat) :=
  match fuel with
  | O => OutOfFuel
  | S fuel =>
      n <- aget T i ;;
      let type := n_type n in
      if type =? OP_GREEDY then
        greedy (trex_matchnode fuel) (low n) (high n) (n_left n) (if n_next n =? -1 then next else Some (n_next n)) next
          (Z.to_nat (high n + 2)) 0 s s
      else if type =? OP_OR then
        r <- branch (trex_matchnode fuel) (List.length T) (n_left n) s ;;
        match r with Some e => Ok (Some e) | None => branch (trex_matchnode fuel) (List.length T) (n_right n) s end
      else if (type =? OP_EXPR) || (type =? OP_NOCAPEXPR) then
        if (type =? OP_EXPR) && negb ((0 <=? n_right n) && (n_right n <? nsub)) then UB OOBWrite
        else sequence (trex_matchnode fuel) (List.length T) (n_left n) s next
      else if type =? OP_WB then
        b <- boundary s ;; Ok (if Bool.eqb b (n_left n =? sc "b") then Some s else None)
      else if type =? OP_BOL then Ok (if (s =? 0)%nat then Some s else None)
      else if type =? OP_EOL then Ok (if (s =? List.length text)%nat then Some s else None)
      else if type =? OP_DOT then Ok (Some (S s))
      else if (type =? OP_NCLASS) || (type =? OP_CLASS) then
        c <- rd s ;;
        b <- trex_matchclass (List.length T) (n_left n) c ;;
        Ok (if Bool.eqb b (type =? OP_CLASS) then Some (S s) else None)
      else if type =? OP_CCLASS then
        c <- rd s ;; Ok (if trex_matchcclass (n_left n) c then Some (S s) else None)
      else
        c <- rd s ;;
        let same := if icase then (sc c =? lower type) || (sc c =? upper type) else sc c =? type in
        Ok (if same then Some (S s) else None)
  end.

(** trex_match: lines 954-963 *)
Definition trex_match : res bool :=
  r <- trex_matchnode (S (List.length T)) 0 0 None ;;
  match r with Some e => Ok (e =? List.length text)%nat | None => Ok false end.
End Match.

(** The calls in arg_rex_scanfn, lines 147-148: after a failed compilation trex_match writes through a NULL pointer. *)
Definition trex (pattern : str) (flags : Z) (text : str) : res bool :=
  match trex_compile pattern with
  | CDone _ st => trex_match (r_nodes st) (r_nsub st) flags text
  | CFail _ => UB NullDeref
  | CUB u => UB u
  | CFuel => OutOfFuel
  end.
