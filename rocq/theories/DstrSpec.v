(** DstrSpec: what the dynamic string should do, in terms of plain strings, and the client programs that the
    theorems range over. *)
From Coq Require Import ZArith List Ascii Bool.
From Verif Require Import Base MemModel DstrModel.
Import ListNotations.
Open Scope Z_scope.

(** One call of a client. Texts are the contents of the client's own strings; [OCatf fmt out]: a format of
    length [fmt] (or NULL) whose formatted output is [out]. *)
Inductive op :=
| OSet (t : option str) (f : fproc)
| OCat (t : str)
| OCatc (c : ascii)
| OCatf (fmt : option Z) (out : str)
| OReset
| OFree.

(** ** The specification: a text, or none after the client has released it *)
Record abs := {
  text : option str;                  (* what arg_dstr_cstr points at *)
  held : option (fproc * str);        (* the string to be released, with its release procedure: one that the
                                         client handed over, or a copy of more than 200 bytes *)
  log  : list (nat * str)             (* calls of client release procedures so far *)
}.
Definition abs0 : abs := {| text := Some []; held := None; log := [] |}.

Definition give_back (a : abs) : list (nat * str) :=
  match held a with
  | Some (FProc n, t) => log a ++ [(n, t)]
  | _ => log a
  end.

(** The bytes before the first NUL. *)
Fixpoint upto_nul (s : str) : str :=
  match s with
  | [] => []
  | c :: s' => if ceqb c NUL then [] else c :: upto_nul s'
  end.

Definition append (a : abs) (s : str) : abs :=
  {| text := match text a with Some t => Some (t ++ s) | None => None end; held := None; log := give_back a |}.

Definition spec_op (a : abs) (o : op) : abs :=
  match o with
  | OSet None _ => {| text := Some []; held := None; log := give_back a |}
  | OSet (Some t) f =>
      {| text := Some t;
         held := match f with
                 | FStatic => None
                 | FVolatile => if 200 <? zlen t then Some (FDynamic, t) else None
                 | _ => Some (f, t)
                 end;
         log := give_back a |}
  | OCat t => append a t
  | OCatc c => append a (upto_nul [c])
  | OCatf None _ => a
  | OCatf (Some _) out => append a (upto_nul out)
  | OReset => {| text := Some []; held := None; log := give_back a |}
  | OFree => {| text := match held a with Some _ => None | None => text a end; held := None; log := give_back a |}
  end.
Definition spec_ops (os : list op) : abs := fold_left spec_op os abs0.

(** Which calls are allowed: client strings are C strings, a released text is not used, lengths are not
    negative. *)
Definition allowed (a : abs) (o : op) : Prop :=
  match o with
  | OSet (Some t) _ => cstr t
  | OSet None _ | OReset | OFree => True
  | OCat t => cstr t /\ text a <> None
  | OCatc _ => text a <> None
  | OCatf fmt _ => text a <> None /\ (forall n, fmt = Some n -> 0 <= n)
  end.
Fixpoint all_allowed (a : abs) (os : list op) : Prop :=
  match os with
  | [] => True
  | o :: os' => allowed a o /\ all_allowed (spec_op a o) os'
  end.

(** Everything the client passes in, in bytes. *)
Definition weight (o : op) : Z :=
  match o with
  | OSet (Some t) _ => zlen t
  | OCat t => zlen t
  | OCatc _ => 1
  | OCatf fmt out => match fmt with Some n => n | None => 0 end + zlen out
  | _ => 0
  end.
Definition total (os : list op) : Z := fold_right (fun o n => weight o + n) 0 os.

(** ** The client program

    Each text lives in a block of its own. A block handed over with [FDynamic] comes from malloc. The client
    keeps a static string; every other string that it still owns after the call is destroyed at once, so
    nothing may rely on it. The result lists the static strings with their blocks. *)
Section Run.
Context (junk : nat -> ascii) (legacy : bool).

Definition run_op (m : mem) (ds : dstr) (o : op) : res (mem * dstr * list (nat * str)) :=
  match o with
  | OSet None f => '(m, ds) <- arg_dstr_set junk m ds None f ;; Ok (m, ds, [])
  | OSet (Some t) f =>
      let '(m, b) := mnew m (match f with FDynamic => true | _ => false end) (t ++ [NUL]) in
      '(m, ds) <- arg_dstr_set junk m ds (Some (b, 0)) f ;;
      match f with
      | FVolatile => Ok (mset m b None, ds, [])
      | FStatic => Ok (m, ds, [(b, t)])
      | _ => Ok (m, ds, [])
      end
  | OCat t =>
      let '(m, b) := mnew m false (t ++ [NUL]) in
      '(m, ds) <- arg_dstr_cat junk m ds (b, 0) ;;
      Ok (mset m b None, ds, [])
  | OCatc c => '(m, ds) <- arg_dstr_catc junk m ds c ;; Ok (m, ds, [])
  | OCatf fmt out => '(m, ds) <- arg_dstr_catf junk legacy m ds fmt out ;; Ok (m, ds, [])
  | OReset => '(m, ds) <- arg_dstr_reset m ds ;; Ok (m, ds, [])
  | OFree => '(m, ds) <- arg_dstr_free m ds ;; Ok (m, ds, [])
  end.

Fixpoint run_ops (m : mem) (ds : dstr) (os : list op) (st : list (nat * str)) : res (mem * dstr * list (nat * str)) :=
  match os with
  | [] => Ok (m, ds, st)
  | o :: os' => '(m, ds, s) <- run_op m ds o ;; run_ops m ds os' (st ++ s)
  end.

Definition run (os : list op) : res (mem * dstr * list (nat * str)) :=
  '(m, ds) <- arg_dstr_create junk mem0 ;;
  run_ops m ds os [].
End Run.
