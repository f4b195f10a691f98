(** HashSpec: what a client does with a hash table (arg_hashtable.c) and what it may expect: an association list. *)
From Coq Require Import ZArith List Bool.
From Verif Require Import Base HashModel.
Import ListNotations.
Open Scope Z_scope.

Section Spec.
Context {K V : Type}.
Context (hashfn : K -> Z) (eqfn : K -> K -> bool).

(** One step of a client. A client allocates the key and the value it hands over (argtable3_private.h lines 140-160),
    a value may be NULL; a new value that was not taken by change stays the client's, who frees it. A sweep walks over
    the whole table with an iterator and removes the entries whose key satisfies the test. *)
Inductive hop :=
| HIns (k : K) (v : option V)
| HRem (k : K)
| HChange (k : K) (v : option V)
| HSweep (d : K -> bool).

Definition new_value (s : store V) (v : option V) : store V * option nat :=
  match v with Some x => let '(s, i) := salloc s x in (s, Some i) | None => (s, None) end.

(** The usual loop over an iterator that stands on an entry: do ... while (more); the pointers seen, in order. *)
Fixpoint visit (fuel : nat) (w : world K V) (it : itr) (d : K -> bool) : res (world K V * list (nat * option nat)) :=
  match fuel with
  | O => OutOfFuel
  | S fuel =>
      k <- arg_hashtable_itr_key w it ;;
      v <- arg_hashtable_itr_value w it ;;
      key <- sread (w_key w) k ;;
      '(w, it, more) <- (if d key then arg_hashtable_itr_remove w it
                         else '(it, more) <- arg_hashtable_itr_advance w it ;; Ok (w, it, more)) ;;
      if (more : bool) then '(w, l) <- visit fuel w it d ;; Ok (w, (k, v) :: l) else Ok (w, [(k, v)])
  end.
Definition sweep (w : world K V) (h : nat) (d : K -> bool) : res (world K V * list (nat * option nat)) :=
  n <- arg_hashtable_count w h ;;
  if n =? 0 then Ok (w, [])
  else it <- arg_hashtable_itr_create w h ;; visit (fuel_of w) w it d.

Definition do_hop (w : world K V) (h : nat) (o : hop) : res (world K V) :=
  match o with
  | HIns k v =>
      let '(ks, ki) := salloc (w_key w) k in
      let '(vs, vi) := new_value (w_val w) v in
      arg_hashtable_insert hashfn (up_val (up_key w ks) vs) h ki vi
  | HRem k => arg_hashtable_remove hashfn eqfn w h k
  | HChange k v =>
      let '(vs, vi) := new_value (w_val w) v in
      '(w, found) <- arg_hashtable_change hashfn eqfn (up_val w vs) h k vi ;;
      if (found : bool) then Ok w else vs <- sfree_opt (w_val w) vi ;; Ok (up_val w vs)
  | HSweep d => '(w, _) <- sweep w h d ;; Ok w
  end.
Fixpoint do_hops (w : world K V) (h : nat) (l : list hop) : res (world K V) :=
  match l with
  | [] => Ok w
  | o :: l => w <- do_hop w h o ;; do_hops w h l
  end.

(** What a client can observe: the text behind the pointer found for a key; the entries an iteration shows. *)
Definition content (w : world K V) (v : option nat) : res (option V) :=
  match v with Some i => x <- sread (w_val w) i ;; Ok (Some x) | None => Ok None end.
Definition observe_key (w : world K V) (h : nat) (k : K) : res (option V) :=
  v <- arg_hashtable_search hashfn eqfn w h k ;; content w v.
Fixpoint contents (w : world K V) (l : list (nat * option nat)) : res (list (K * option V)) :=
  match l with
  | [] => Ok []
  | (k, v) :: l => key <- sread (w_key w) k ;; x <- content w v ;; r <- contents w l ;; Ok ((key, x) :: r)
  end.
Definition observe_all (w : world K V) (h : nat) : res (list (K * option V)) :=
  '(w', l) <- sweep w h (fun _ => false) ;; contents w' l.

(** The expectation: an association list. *)
Definition same (k : K) (p : K * option V) : bool := eqfn k (fst p).
Definition lookup (k : K) (l : list (K * option V)) : option (option V) :=
  match find (same k) l with Some p => Some (snd p) | None => None end.
Definition spec_hop (l : list (K * option V)) (o : hop) : list (K * option V) :=
  match o with
  | HIns k v => (k, v) :: l
  | HRem k => filter (fun p => negb (same k p)) l
  | HChange k v => map (fun p => if same k p then (fst p, v) else p) l
  | HSweep d => filter (fun p => negb (d (fst p))) l
  end.
Definition spec_hops (l : list (K * option V)) (os : list hop) : list (K * option V) := fold_left spec_hop os l.
(** A key is inserted only when it is not in the table (arg_hashtable.c line 179: duplicates should not be used). *)
Fixpoint no_duplicates (l : list (K * option V)) (os : list hop) : Prop :=
  match os with
  | [] => True
  | o :: os => (match o with HIns k _ => lookup k l = None | _ => True end) /\ no_duplicates (spec_hop l o) os
  end.

(** The node [e] is on the chain that starts at [s]. *)
Inductive linked (w : world K V) : option nat -> nat -> Prop :=
| linked_here e : linked w (Some e) e
| linked_next e n x : sget (w_node w) e = Some n -> linked w (n_next n) x -> linked w (Some e) x.

(** The contract of the two functions a table is created with. *)
Definition key_functions : Prop :=
  (forall a, eqfn a a = true) /\ (forall a b, eqfn a b = eqfn b a) /\
  (forall a b c, eqfn a b = true -> eqfn b c = true -> eqfn a c = true) /\
  (forall a b, eqfn a b = true -> hashfn a = hashfn b).
End Spec.
