(** HashModel: arg_hashtable.c with explicit linked nodes, key and value blocks.

    Memory is split into typed stores (table structures, bucket arrays, nodes, keys, values); an id is an
    address, reading or freeing a dead id is undefined behaviour. The hash and equality functions are
    parameters of the model instead of fields of the structure (no table mixes them). Counters are
    unbounded integers: fewer than 2^32 entries. *)
From Coq Require Import ZArith List Bool.
From Verif Require Import Base.
Import ListNotations.
Open Scope Z_scope.

Record store (A : Type) := { sget : nat -> option A; snext : nat }.
Arguments sget {A}. Arguments snext {A}.
Definition sempty {A} : store A := {| sget := fun _ => None; snext := 0%nat |}.
Definition sput {A} (s : store A) (i : nat) (a : option A) : store A :=
  {| sget := fun j => if Nat.eqb j i then a else sget s j; snext := snext s |}.
Definition salloc {A} (s : store A) (a : A) : store A * nat :=
  ({| sget := fun j => if Nat.eqb j (snext s) then Some a else sget s j; snext := S (snext s) |}, snext s).
Definition sread {A} (s : store A) (i : nat) : res A :=
  match sget s i with Some a => Ok a | None => UB UseAfterFree end.
Definition swrite {A} (s : store A) (i : nat) (a : A) : res (store A) :=
  match sget s i with Some _ => Ok (sput s i (Some a)) | None => UB UseAfterFree end.
Definition sfree {A} (s : store A) (i : nat) : res (store A) :=
  match sget s i with Some _ => Ok (sput s i None) | None => UB DoubleFree end.
(** free of a pointer that may be NULL *)
Definition sfree_opt {A} (s : store A) (i : option nat) : res (store A) :=
  match i with Some i => sfree s i | None => Ok s end.

(** struct arg_hashtable_entry: argtable3_private.h lines 113-117; a NULL pointer is [None], keys are never NULL *)
Record node := { n_k : nat; n_v : option nat; n_h : Z; n_next : option nat }.
Definition set_next (n : node) (x : option nat) : node := {| n_k := n_k n; n_v := n_v n; n_h := n_h n; n_next := x |}.

(** arg_hashtable_t: argtable3_private.h lines 119-127 *)
Record ht := { t_len : Z; t_tab : nat; t_count : Z; t_load : Z; t_prime : Z }.
Definition set_count (t : ht) (c : Z) : ht :=
  {| t_len := t_len t; t_tab := t_tab t; t_count := c; t_load := t_load t; t_prime := t_prime t |}.

(** arg_hashtable_itr_t: argtable3_private.h lines 212-217 (the iterator's own block is not modelled) *)
Record itr := { i_h : nat; i_e : option nat; i_parent : option nat; i_index : Z }.

(** arg_hashtable.c lines 83-85 *)
Definition primes : list Z :=
  [53; 97; 193; 389; 769; 1543; 3079; 6151; 12289; 24593; 49157; 98317; 196613; 393241; 786433; 1572869; 3145739;
   6291469; 12582917; 25165843; 50331653; 100663319; 201326611; 402653189; 805306457; 1610612741].
Definition prime_table_length : Z := zlen primes.

(** (unsigned int)ceil(size * (double)max_load_factor), lines 87, 135, 170. (float)0.65 is 5452595 / 2^23; for
    every size in the table the double product has the same ceiling as the exact one. *)
Definition load_limit (size : Z) : Z := (size * 5452595 + 8388607) / 8388608.

Definition U32 : Z := 4294967296.

Section Hash.
Context {K V : Type}.
Context (hashfn : K -> Z) (eqfn : K -> K -> bool).

Record world := {
  w_ht : store ht;
  w_tab : store (list (option nat));
  w_node : store node;
  w_key : store K;
  w_val : store V
}.
Definition world0 : world := {| w_ht := sempty; w_tab := sempty; w_node := sempty; w_key := sempty; w_val := sempty |}.
Definition up_ht w x := {| w_ht := x; w_tab := w_tab w; w_node := w_node w; w_key := w_key w; w_val := w_val w |}.
Definition up_tab w x := {| w_ht := w_ht w; w_tab := x; w_node := w_node w; w_key := w_key w; w_val := w_val w |}.
Definition up_node w x := {| w_ht := w_ht w; w_tab := w_tab w; w_node := x; w_key := w_key w; w_val := w_val w |}.
Definition up_key w x := {| w_ht := w_ht w; w_tab := w_tab w; w_node := w_node w; w_key := x; w_val := w_val w |}.
Definition up_val w x := {| w_ht := w_ht w; w_tab := w_tab w; w_node := w_node w; w_key := w_key w; w_val := x |}.

(** Reading and writing table[i] of the bucket array [a]. *)
Definition bget (w : world) (a : nat) (i : Z) : res (option nat) := arr <- sread (w_tab w) a ;; aget arr i.
Definition bset (w : world) (a : nat) (i : Z) (x : option nat) : res world :=
  arr <- sread (w_tab w) a ;; arr <- aset arr i x ;; s <- swrite (w_tab w) a arr ;; Ok (up_tab w s).

(** enhanced_hash: lines 89-100 *)
Definition enhanced_hash (k : K) : Z :=
  let i := hashfn k mod U32 in
  let i := (i + (U32 - 1 - (i * 512) mod U32)) mod U32 in
  let i := Z.lxor i (Z.lor (i / 16384) ((i * 262144) mod U32)) in
  let i := (i + i * 16) mod U32 in
  Z.lxor i (Z.lor (i / 1024) ((i * 4194304) mod U32)).

(** index_for: lines 102-104 *)
Definition index_for (tablelength hashvalue : Z) : res Z :=
  if tablelength =? 0 then UB DivByZero else Ok (hashvalue mod tablelength).

(** lines 111-125: the search in the table of primes; returns size and pindex *)
Fixpoint pick (minsize : Z) (l : list Z) (pindex : Z) : Z * Z :=
  match l with
  | [] => (53, pindex)
  | p :: l' => if minsize <? p then (p, pindex) else pick minsize l' (pindex + 1)
  end.

(** arg_hashtable_create: lines 106-137. The new array is cleared by memset. *)
Definition arg_hashtable_create (w : world) (minsize : Z) : world * option nat :=
  if 1073741824 <? minsize then (w, None)
  else
    let '(size, pindex) := pick minsize primes 0 in
    let '(tabs, a) := salloc (w_tab w) (repeat None (Z.to_nat size)) in
    let '(hts, h) := salloc (w_ht w) {| t_len := size; t_tab := a; t_count := 0; t_load := load_limit size; t_prime := pindex |} in
    (up_ht (up_tab w tabs) hts, Some h).

(** Number of steps after which a chain without a cycle has ended. *)
Definition fuel_of (w : world) : nat := S (snext (w_node w)).

(** lines 159-164: moving one old bucket *)
Fixpoint expand_bucket (fuel : nat) (w : world) (old new : nat) (newsize : Z) (i : Z) : res world :=
  match fuel with
  | O => OutOfFuel
  | S fuel =>
      e <- bget w old i ;;
      match e with
      | None => Ok w
      | Some e =>
          n <- sread (w_node w) e ;;
          w <- bset w old i (n_next n) ;;
          index <- index_for newsize (n_h n) ;;
          x <- bget w new index ;;
          s <- swrite (w_node w) e (set_next n x) ;;
          w <- bset (up_node w s) new index (Some e) ;;
          expand_bucket fuel w old new newsize i
      end
  end.
(** lines 158-165 *)
Fixpoint expand_loop (rows : nat) (w : world) (old new : nat) (newsize : Z) (i : Z) : res world :=
  match rows with
  | O => Ok w
  | S rows => w <- expand_bucket (fuel_of w) w old new newsize i ;; expand_loop rows w old new newsize (i + 1)
  end.

(** arg_hashtable_expand: lines 139-172 (its result is ignored by the only caller) *)
Definition arg_hashtable_expand (w : world) (h : nat) : res world :=
  t <- sread (w_ht w) h ;;
  if t_prime t =? prime_table_length - 1 then Ok w
  else
    newsize <- aget primes (t_prime t + 1) ;;
    let '(tabs, new) := salloc (w_tab w) (repeat None (Z.to_nat newsize)) in
    w <- expand_loop (Z.to_nat (t_len t)) (up_tab w tabs) (t_tab t) new newsize 0 ;;
    s <- sfree (w_tab w) (t_tab t) ;;
    hs <- swrite (w_ht w) h {| t_len := newsize; t_tab := new; t_count := t_count t; t_load := load_limit newsize;
                               t_prime := t_prime t + 1 |} ;;
    Ok (up_ht (up_tab w s) hs).

(** arg_hashtable_count: lines 174-176 *)
Definition arg_hashtable_count (w : world) (h : nat) : res Z := t <- sread (w_ht w) h ;; Ok (t_count t).

(** arg_hashtable_insert: lines 178-199 *)
Definition arg_hashtable_insert (w : world) (h : nat) (k : nat) (v : option nat) : res world :=
  t <- sread (w_ht w) h ;;
  w <- (if t_load t <? t_count t + 1 then arg_hashtable_expand w h else Ok w) ;;
  t <- sread (w_ht w) h ;;
  key <- sread (w_key w) k ;;
  let hv := enhanced_hash key in
  index <- index_for (t_len t) hv ;;
  x <- bget w (t_tab t) index ;;
  let '(s, e) := salloc (w_node w) {| n_k := k; n_v := v; n_h := hv; n_next := x |} in
  w <- bset (up_node w s) (t_tab t) index (Some e) ;;
  hs <- swrite (w_ht w) h (set_count t (t_count t + 1)) ;;
  Ok (up_ht w hs).

(** The walk along a chain of lines 209-214, 229-245, 390-401 and 414-421: the first node with the hash value and
    an equal key, with its predecessor. *)
Fixpoint find_node (fuel : nat) (w : world) (hv : Z) (key : K) (parent e : option nat) : res (option (nat * option nat)) :=
  match fuel with
  | O => OutOfFuel
  | S fuel =>
      match e with
      | None => Ok None
      | Some e =>
          n <- sread (w_node w) e ;;
          if hv =? n_h n then
            kc <- sread (w_key w) (n_k n) ;;
            if eqfn key kc then Ok (Some (e, parent))
            else find_node fuel w hv key (Some e) (n_next n)
          else find_node fuel w hv key (Some e) (n_next n)
      end
  end.

Definition find_in (w : world) (h : nat) (key : K) : res (Z * nat * option (nat * option nat)) :=
  t <- sread (w_ht w) h ;;
  let hv := enhanced_hash key in
  index <- index_for (t_len t) hv ;;
  e <- bget w (t_tab t) index ;;
  r <- find_node (fuel_of w) w hv key None e ;;
  Ok (index, t_tab t, r).

(** arg_hashtable_search: lines 201-216 *)
Definition arg_hashtable_search (w : world) (h : nat) (key : K) : res (option nat) :=
  '(_, _, r) <- find_in w h key ;;
  match r with
  | Some (e, _) => n <- sread (w_node w) e ;; Ok (n_v n)
  | None => Ok None
  end.

(** lines 236 and 355-360: storing through pE, which is the bucket or the next field of the predecessor *)
Definition unlink (w : world) (a : nat) (index : Z) (parent x : option nat) : res world :=
  match parent with
  | None => bset w a index x
  | Some p => n <- sread (w_node w) p ;; s <- swrite (w_node w) p (set_next n x) ;; Ok (up_node w s)
  end.

(** arg_hashtable_remove: lines 218-246 *)
Definition arg_hashtable_remove (w : world) (h : nat) (key : K) : res world :=
  '(index, a, r) <- find_in w h key ;;
  match r with
  | None => Ok w
  | Some (e, parent) =>
      n <- sread (w_node w) e ;;
      w <- unlink w a index parent (n_next n) ;;
      t <- sread (w_ht w) h ;;
      hs <- swrite (w_ht w) h (set_count t (t_count t - 1)) ;;
      ks <- sfree (w_key w) (n_k n) ;;
      vs <- sfree_opt (w_val w) (n_v n) ;;
      ns <- sfree (w_node w) e ;;
      Ok (up_node (up_val (up_key (up_ht w hs) ks) vs) ns)
  end.

(** lines 254-262 and 266-272: one bucket *)
Fixpoint destroy_chain (fuel : nat) (w : world) (free_values : bool) (e : option nat) : res world :=
  match fuel with
  | O => OutOfFuel
  | S fuel =>
      match e with
      | None => Ok w
      | Some f =>
          n <- sread (w_node w) f ;;
          ks <- sfree (w_key w) (n_k n) ;;
          vs <- (if free_values then sfree_opt (w_val w) (n_v n) else Ok (w_val w)) ;;
          ns <- sfree (w_node w) f ;;
          destroy_chain fuel (up_node (up_val (up_key w ks) vs) ns) free_values (n_next n)
      end
  end.
Fixpoint destroy_loop (rows : nat) (w : world) (free_values : bool) (a : nat) (i : Z) : res world :=
  match rows with
  | O => Ok w
  | S rows =>
      e <- bget w a i ;;
      w <- destroy_chain (fuel_of w) w free_values e ;;
      destroy_loop rows w free_values a (i + 1)
  end.

(** arg_hashtable_destroy: lines 248-276 *)
Definition arg_hashtable_destroy (w : world) (h : nat) (free_values : bool) : res world :=
  t <- sread (w_ht w) h ;;
  w <- destroy_loop (Z.to_nat (t_len t)) w free_values (t_tab t) 0 ;;
  s <- sfree (w_tab w) (t_tab t) ;;
  hs <- sfree (w_ht w) h ;;
  Ok (up_ht (up_tab w s) hs).

(** lines 290-297 and 336-345: the first used bucket from [j] on *)
Fixpoint next_bucket (rows : nat) (w : world) (a : nat) (j : Z) : res (option (Z * nat)) :=
  match rows with
  | O => Ok None
  | S rows =>
      e <- bget w a j ;;
      match e with
      | Some e => Ok (Some (j, e))
      | None => next_bucket rows w a (j + 1)
      end
  end.

(** arg_hashtable_itr_create: lines 278-299 *)
Definition arg_hashtable_itr_create (w : world) (h : nat) : res itr :=
  t <- sread (w_ht w) h ;;
  let none := {| i_h := h; i_e := None; i_parent := None; i_index := t_len t |} in
  if t_count t =? 0 then Ok none
  else
    r <- next_bucket (Z.to_nat (t_len t)) w (t_tab t) 0 ;;
    match r with
    | Some (j, e) => Ok {| i_h := h; i_e := Some e; i_parent := None; i_index := j |}
    | None => Ok none
    end.

(** arg_hashtable_itr_key, arg_hashtable_itr_value: lines 305-311 *)
Definition arg_hashtable_itr_key (w : world) (it : itr) : res nat :=
  match i_e it with Some e => n <- sread (w_node w) e ;; Ok (n_k n) | None => UB NullDeref end.
Definition arg_hashtable_itr_value (w : world) (it : itr) : res (option nat) :=
  match i_e it with Some e => n <- sread (w_node w) e ;; Ok (n_v n) | None => UB NullDeref end.

(** arg_hashtable_itr_advance: lines 313-348; true stands for -1 *)
Definition arg_hashtable_itr_advance (w : world) (it : itr) : res (itr * bool) :=
  match i_e it with
  | None => Ok (it, false)
  | Some e =>
      n <- sread (w_node w) e ;;
      match n_next n with
      | Some x => Ok ({| i_h := i_h it; i_e := Some x; i_parent := Some e; i_index := i_index it |}, true)
      | None =>
          t <- sread (w_ht w) (i_h it) ;;
          let j := i_index it + 1 in
          if t_len t <=? j then Ok ({| i_h := i_h it; i_e := None; i_parent := None; i_index := j |}, false)
          else
            r <- next_bucket (Z.to_nat (t_len t - j)) w (t_tab t) j ;;
            match r with
            | Some (j, x) => Ok ({| i_h := i_h it; i_e := Some x; i_parent := None; i_index := j |}, true)
            | None => Ok ({| i_h := i_h it; i_e := None; i_parent := None; i_index := t_len t |}, false)
            end
      end
  end.

Definition onat_eqb (a b : option nat) : bool :=
  match a, b with Some x, Some y => Nat.eqb x y | None, None => true | _, _ => false end.

(** arg_hashtable_itr_remove: lines 350-377 *)
Definition arg_hashtable_itr_remove (w : world) (it : itr) : res (world * itr * bool) :=
  match i_e it with
  | None => UB NullDeref
  | Some e =>
      n <- sread (w_node w) e ;;
      t <- sread (w_ht w) (i_h it) ;;
      w <- unlink w (t_tab t) (i_index it) (i_parent it) (n_next n) ;;
      t <- sread (w_ht w) (i_h it) ;;
      hs <- swrite (w_ht w) (i_h it) (set_count t (t_count t - 1)) ;;
      ks <- sfree (w_key w) (n_k n) ;;
      vs <- sfree_opt (w_val w) (n_v n) ;;
      let w := up_val (up_key (up_ht w hs) ks) vs in
      let remember_parent := i_parent it in
      '(it, ret) <- arg_hashtable_itr_advance w it ;;
      let it := if onat_eqb (i_parent it) (Some e)
                then {| i_h := i_h it; i_e := i_e it; i_parent := remember_parent; i_index := i_index it |}
                else it in
      ns <- sfree (w_node w) e ;;
      Ok (up_node w ns, it, ret)
  end.

(** arg_hashtable_itr_search: lines 379-403 *)
Definition arg_hashtable_itr_search (w : world) (it : itr) (h : nat) (key : K) : res (itr * bool) :=
  '(index, _, r) <- find_in w h key ;;
  match r with
  | Some (e, parent) => Ok ({| i_h := h; i_e := Some e; i_parent := parent; i_index := index |}, true)
  | None => Ok (it, false)
  end.

(** arg_hashtable_change: lines 405-423 *)
Definition arg_hashtable_change (w : world) (h : nat) (key : K) (v : option nat) : res (world * bool) :=
  '(_, _, r) <- find_in w h key ;;
  match r with
  | Some (e, _) =>
      n <- sread (w_node w) e ;;
      vs <- sfree_opt (w_val w) (n_v n) ;;
      ns <- swrite (w_node w) e {| n_k := n_k n; n_v := v; n_h := n_h n; n_next := n_next n |} ;;
      Ok (up_node (up_val w vs) ns, true)
  | None => Ok (w, false)
  end.
End Hash.
Arguments world K V : clear implicits.
