(** Specification of command-line reading in both builds of the library. With ARGTABLE3_LONG_ONLY
    (CMakeLists.txt line 44; -DARG_LONG_ONLY, argtable3.c lines 254-258) one dash introduces long options
    too. [longonly = false] is the reading of ParseSpec.v ([read_cluster_default], [read_args_default]). *)
From Verif Require Import Base ParseModel ParseSpec.
From Coq Require Import ZArith List Ascii String Bool.
Import ListNotations.
Open Scope Z_scope.

(** What a name stands for. *)
Inductive found := Is (i : nat) (h : hdr) | Ambiguous | Unknown.

(** An exact name wins. An abbreviation is good if all names it abbreviates belong to one entry; in the
    long-only build, if it abbreviates one name. With [exactly], a single character is no abbreviation. *)
Definition long_lookup (longonly exactly : bool) (t : list hdr) (nm : str) : found :=
  let all := long_names t 0 in
  match find (fun p => str_eqb (fst p) nm) all with
  | Some p => Is (fst (snd p)) (snd (snd p))
  | None =>
      if exactly && Nat.eqb (List.length nm) 1 then Unknown
      else match filter (fun p => starts_with nm (fst p)) all with
      | [] => Unknown
      | (_, (i, h)) :: r =>
          if if longonly then match r with [] => true | _ => false end
             else forallb (fun p => Nat.eqb (fst (snd p)) i) r
          then Is i h else Ambiguous
      end
  end.

(** An option written in argument [a] with the text [body] behind the dashes, as [read_long]. *)
Definition read_found (f : found) (a body : str) (next : option str) : list event * bool :=
  match f with
  | Is i h =>
      match long_takes h, value_part body with
      | TNo, Some _ => ([EvErr ARG_ELONGOPT (Some a)], false)
      | TNo, None => (long_occurrence i h None a, false)
      | _, Some v => (long_occurrence i h (Some v) a, false)
      | TOpt, None => (long_occurrence i h None a, false)
      | TReq, None =>
          match next with
          | Some v => (long_occurrence i h (Some v) v, true)
          | None => ([EvErr ARG_EMISSARG (Some a)], false)
          end
      end
  | _ => ([EvErr ARG_ELONGOPT (Some a)], false)
  end.

Definition declared (t : list hdr) (c : ascii) : bool :=
  match short_find t 0 c with Some _ => true | None => false end.

(** What is left of the argument, taken as a long option: not a dash in front. [None]: it is not one, but
    its first character is a short option. *)
Definition as_long (t : list hdr) (a cs : str) (next : option str) : option (list event * bool) :=
  let short_too := declared t (hd0 cs) in
  match long_lookup true short_too t (name_part cs) with
  | Unknown => if short_too then None else Some (read_found Unknown a cs next)
  | f => Some (read_found f a cs next)
  end.

Fixpoint read_cluster_in (longonly : bool) (t : list hdr) (a cs : str) (next : option str) : list event * option bool :=
  match cs with
  | [] => ([], Some false)
  | c :: cs' =>
      if ceqb c "-" then
        match cs' with
        | [] => ([], None)
        | _ => let '(ev, used) := read_found (long_lookup longonly false t (name_part cs')) a cs' next in (ev, Some used)
        end
      else match (if longonly then as_long t a cs next else None) with
      | Some (ev, used) => (ev, Some used)
      | None =>
          match short_find t 0 c with
          | None => let '(ev, r) := read_cluster_in longonly t a cs' next in (EvErr (sc c) None :: ev, r)
          | Some (i, h) =>
              match short_takes h with
              | TNo => let '(ev, r) := read_cluster_in longonly t a cs' next in (EvScan i None :: ev, r)
              | TOpt => ([EvScan i (match cs' with [] => None | _ => Some cs' end)], Some false)
              | TReq =>
                  match cs' with
                  | [] => match next with
                          | Some v => ([EvScan i (Some v)], Some true)
                          | None => ([EvErr ARG_EMISSARG (Some a)], Some false)
                          end
                  | _ => ([EvScan i (Some cs')], Some false)
                  end
              end
          end
      end
  end.

Fixpoint read_args_in (longonly posix : bool) (t : list hdr) (args : list str) : list event * outcome :=
  match args with
  | [] => ([], Finished [])
  | a :: rest =>
      if is_positional a then
        if posix then ([], Finished args) else add_positional a (read_args_in longonly posix t rest)
      else if str_eqb a (lit "--") then ([], Finished rest)
      else
        let '(ev, r) := read_cluster_in longonly t a (tl a) (hd_error rest) in
        match r with
        | None => (ev, Hangs)
        | Some false => prepend ev (read_args_in longonly posix t rest)
        | Some true => match rest with
                       | [] => (ev, Finished [])
                       | _ :: rest' => prepend ev (read_args_in longonly posix t rest')
                       end
        end
  end.

(** ** The default build *)
Lemma long_lookup_default t nm :
  long_find t nm = match long_lookup false false t nm with Is i h => Some (i, h) | _ => None end.
Proof.
  unfold long_find, long_lookup. cbn [andb].
  destruct (find _ (long_names t 0)) as [[n [i h]]|]; [reflexivity|].
  destruct (filter _ (long_names t 0)) as [|[n [i h]] r]; [reflexivity|].
  destruct (forallb _ r); reflexivity.
Qed.
Lemma read_long_default t a body next :
  read_found (long_lookup false false t (name_part body)) a body next = read_long t a body next.
Proof.
  unfold read_long. rewrite long_lookup_default. destruct (long_lookup false false t (name_part body)); reflexivity.
Qed.
Lemma read_cluster_default t a next : forall cs, read_cluster_in false t a cs next = read_cluster t a cs next.
Proof.
  induction cs as [|c cs IH]; [reflexivity|]. cbn [read_cluster_in read_cluster]. cbn iota.
  rewrite IH, read_long_default. reflexivity.
Qed.
Lemma read_args_default posix t args : read_args_in false posix t args = read_args posix t args.
Proof.
  remember (List.length args) as n eqn:En. revert args En. induction n as [n IHn] using (well_founded_induction Wf_nat.lt_wf).
  intros [|a rest] ->; [reflexivity|]. cbn [read_args_in read_args].
  rewrite (IHn (List.length rest)) by (cbn; auto). rewrite read_cluster_default.
  destruct (is_positional a); [reflexivity|]. destruct (str_eqb a (lit "--")); [reflexivity|].
  destruct (read_cluster t a (tl a) (hd_error rest)) as [ev [[]|]]; try reflexivity.
  destruct rest as [|v rest]; [reflexivity|]. rewrite (IHn (List.length rest)) by (cbn; auto). reflexivity.
Qed.
