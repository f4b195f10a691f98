(** Specification of command-line reading, independent of getopt: one pass over the arguments,
    left to right, without global variables and without permuting anything. It only uses the
    headers of the table. *)
From Verif Require Import Base ParseModel.
From Coq Require Import ZArith List Ascii String Bool.
Import ListNotations.
Open Scope Z_scope.

(** Does an option take a value? *)
Inductive takes := TNo | TReq | TOpt.

(** For the short form and for the long form; they differ only for an entry whose flags allow an
    optional value without allowing a value. *)
Definition short_takes (h : hdr) : takes :=
  match h_hasvalue h, h_hasoptvalue h with
  | true, true => TOpt
  | false, false => TNo
  | _, _ => TReq
  end.
Definition long_takes (h : hdr) : takes :=
  if h_hasoptvalue h then TOpt else if h_hasvalue h then TReq else TNo.

(** ** Looking options up *)
Definition mem (c : ascii) (s : str) : bool := existsb (ceqb c) s.

Definition declares (c : ascii) (h : hdr) : bool :=
  match h_shortopts h with Some so => mem c so | None => false end.

(** The first entry declaring short option [c]. *)
Fixpoint short_find (t : list hdr) (i : nat) (c : ascii) : option (nat * hdr) :=
  match t with
  | [] => None
  | h :: t' => if declares c h then Some (i, h) else short_find t' (S i) c
  end.

(** The names in a comma separated list; a final comma adds no name. *)
Fixpoint names_aux (s cur : str) : list str :=
  match s with
  | [] => [cur]
  | c :: s' => if ceqb c "," then cur :: match s' with [] => [] | _ => names_aux s' [] end
               else names_aux s' (cur ++ [c])
  end.
Definition names (s : str) : list str := match s with [] => [] | _ => names_aux s [] end.

Definition hdr_names (h : hdr) : list str := match h_longopts h with Some l => names l | None => [] end.

(** All long names of the table with the entry they belong to, in order. *)
Fixpoint long_names (t : list hdr) (i : nat) : list (str * (nat * hdr)) :=
  match t with
  | [] => []
  | h :: t' => map (fun n => (n, (i, h))) (hdr_names h) ++ long_names t' (S i)
  end.

Fixpoint starts_with (p s : str) : bool :=
  match p, s with
  | [], _ => true
  | a :: p', b :: s' => ceqb a b && starts_with p' s'
  | _ :: _, [] => false
  end.

(** An exact name wins; otherwise an abbreviation is good if all names it abbreviates belong to
    one entry. *)
Definition long_find (t : list hdr) (nm : str) : option (nat * hdr) :=
  let all := long_names t 0 in
  match find (fun p => str_eqb (fst p) nm) all with
  | Some p => Some (snd p)
  | None =>
      match filter (fun p => starts_with nm (fst p)) all with
      | [] => None
      | (_, (i, h)) :: r => if forallb (fun p => Nat.eqb (fst (snd p)) i) r then Some (i, h) else None
      end
  end.

(** ** Events *)
Inductive event :=
| EvScan (i : nat) (val : option str)            (* table entry i is given one occurrence *)
| EvErr (code : Z) (argval : option str).        (* an error recorded on behalf of arg_end *)

(** How reading the arguments ends. *)
Inductive outcome := Finished (positional : list str) | Hangs.

Fixpoint name_part (s : str) : str :=
  match s with [] => [] | c :: s' => if ceqb c "=" then [] else c :: name_part s' end.
Fixpoint value_part (s : str) : option str :=
  match s with [] => None | c :: s' => if ceqb c "=" then Some s' else value_part s' end.

(** One occurrence of a long option with value [v] shown as [a] in error messages: an empty value
    for an entry that takes values is reported, and scanned all the same. *)
Definition long_occurrence (i : nat) (h : hdr) (v : option str) (a : str) : list event :=
  match v with
  | Some [] => if h_hasvalue h then [EvErr ARG_EMISSARG (Some a); EvScan i v] else [EvScan i v]
  | _ => [EvScan i v]
  end.

(** A long option: [a] the whole argument, [body] the text after the dashes, [next] the argument
    after it. Result: events, and whether [next] was used as the value. *)
Definition read_long (t : list hdr) (a body : str) (next : option str) : list event * bool :=
  match long_find t (name_part body) with
  | None => ([EvErr ARG_ELONGOPT (Some a)], false)
  | Some (i, h) =>
      match long_takes h, value_part body with
      | TNo, Some _ => ([EvErr ARG_ELONGOPT (Some a)], false)
      | TNo, None => (long_occurrence i h None a, false)
      | _, Some v => (long_occurrence i h (Some v) a, false)
      | TOpt, None => (long_occurrence i h None a, false)
      | TReq, None =>
          match next with
          | Some v => (long_occurrence i h (Some v) v, true)
          | None => ([EvErr ARG_EMISSARG (Some a)], false)
          end
      end
  end.

(** A cluster of short options [cs] in argument [a]. A dash in it starts a long option; a dash at
    its very end makes the reader hang ([None]). *)
Fixpoint read_cluster (t : list hdr) (a cs : str) (next : option str) : list event * option bool :=
  match cs with
  | [] => ([], Some false)
  | c :: cs' =>
      if ceqb c "-" then
        match cs' with
        | [] => ([], None)
        | _ => let '(ev, used) := read_long t a cs' next in (ev, Some used)
        end
      else match short_find t 0 c with
      | None => let '(ev, r) := read_cluster t a cs' next in (EvErr (sc c) None :: ev, r)
      | Some (i, h) =>
          match short_takes h with
          | TNo => let '(ev, r) := read_cluster t a cs' next in (EvScan i None :: ev, r)
          | TOpt => ([EvScan i (match cs' with [] => None | _ => Some cs' end)], Some false)
          | TReq =>
              match cs' with
              | [] => match next with
                      | Some v => ([EvScan i (Some v)], Some true)
                      | None => ([EvErr ARG_EMISSARG (Some a)], Some false)
                      end
              | _ => ([EvScan i (Some cs')], Some false)
              end
          end
      end
  end.

(** A lone dash or anything not starting with a dash is positional. *)
Definition is_positional (a : str) : bool :=
  match a with
  | c :: _ :: _ => negb (ceqb c "-")
  | _ => true
  end.

Definition prepend (ev : list event) (r : list event * outcome) : list event * outcome :=
  (ev ++ fst r, snd r).
Definition add_positional (a : str) (r : list event * outcome) : list event * outcome :=
  (fst r, match snd r with Finished p => Finished (a :: p) | Hangs => Hangs end).

(** All arguments after the program name. [posix]: POSIXLY_CORRECT is set. *)
Fixpoint read_args (posix : bool) (t : list hdr) (args : list str) : list event * outcome :=
  match args with
  | [] => ([], Finished [])
  | a :: rest =>
      if is_positional a then
        if posix then ([], Finished args) else add_positional a (read_args posix t rest)
      else if str_eqb a (lit "--") then ([], Finished rest)
      else
        let '(ev, r) := read_cluster t a (tl a) (hd_error rest) in
        match r with
        | None => (ev, Hangs)
        | Some false => prepend ev (read_args posix t rest)
        | Some true => match rest with
                       | [] => (ev, Finished [])
                       | _ :: rest' => prepend ev (read_args posix t rest')
                       end
        end
  end.

(** ** Tables for which this is the meaning of the command line *)
(** Characters the scanner gives a meaning of its own when they are declared as options. *)
Definition plain_short (c : ascii) : Prop :=
  c <> ":"%char /\ c <> ";"%char /\ c <> "?"%char /\ c <> "255"%char /\ c <> NUL.
Definition good_shortopts (h : hdr) : Prop :=
  match h_shortopts h with Some so => forall c, In c so -> plain_short c | None => True end.
Definition good_longopts (h : hdr) : Prop :=
  match h_longopts h with
  | Some l => cstr l /\ l <> [] /\ hd0 l <> ","%char
  | None => True
  end.
Definition good_hdr (h : hdr) : Prop := good_shortopts h /\ good_longopts h.
