(** DstrModel: arg_dstr.c on the memory of MemModel. *)
From Coq Require Import ZArith List Ascii Bool.
From Verif Require Import Base ParseModel MemModel.
Import ListNotations.
Open Scope Z_scope.

(** argtable3_private.h lines 54-56 *)
Definition ARG_DSTR_SIZE : Z := 200.

(** arg_dstr_freefn*: argtable3.h lines 83, 375-377; [FProc n] is a procedure of the client. *)
Inductive fproc := FStatic | FVolatile | FDynamic | FProc (n : nat).

(** struct _internal_arg_dstr: arg_dstr.c lines 96-103. The structure is block [d_self]; the bytes of that
    block are sbuf, the other fields are kept in the record. append_data is NULL or the start of a block. *)
Record dstr := {
  d_self : nat;
  d_data : ptr;
  d_free : fproc;
  d_app  : option nat;
  d_size : Z;
  d_used : Z
}.
Definition upd_data p f ds := {| d_self := d_self ds; d_data := p; d_free := f; d_app := d_app ds;
                                 d_size := d_size ds; d_used := d_used ds |}.
Definition upd_app a n ds := {| d_self := d_self ds; d_data := d_data ds; d_free := d_free ds; d_app := a;
                                d_size := n; d_used := d_used ds |}.
Definition upd_used u ds := {| d_self := d_self ds; d_data := d_data ds; d_free := d_free ds; d_app := d_app ds;
                               d_size := d_size ds; d_used := u |}.
Definition sbuf (ds : dstr) : ptr := (d_self ds, 0).

Section Dstr.
Context (junk : nat -> ascii).

(** arg_dstr_create: lines 107-114 *)
Definition arg_dstr_create (m : mem) : res (mem * dstr) :=
  let '(m, b) := xmalloc junk m (ARG_DSTR_SIZE + 1) in
  m <- memset0 m (b, 0) (ARG_DSTR_SIZE + 1) ;;
  m <- wr m (b, 0) [NUL] ;;
  Ok (m, {| d_self := b; d_data := (b, 0); d_free := FStatic; d_app := None; d_size := 0; d_used := 0 |}).

(** Calling a release procedure: lines 155-161 and 315-320. What a client procedure does is modelled by the
    worst that is allowed: the block is dead afterwards. It is assumed not to touch the dynamic string. *)
Definition release (m : mem) (f : fproc) (p : ptr) : res mem :=
  match f with
  | FStatic => Ok m
  | FDynamic => xfree m p
  | FProc n =>
      s <- rd_str m p ;;
      let m := mset m (fst p) None in
      Ok {| mget := mget m; mnext := mnext m; mlog := mlog m ++ [(n, s)] |}
  | FVolatile => UB BadFree                       (* a call of address 1 *)
  end.

(** lines 163-167 and 327-331 *)
Definition drop_append (m : mem) (ds : dstr) : res (mem * dstr) :=
  match d_app ds with
  | Some a => if 0 <? d_size ds then m <- xfree m (a, 0) ;; Ok (m, upd_app None 0 ds) else Ok (m, ds)
  | None => Ok (m, ds)
  end.

(** arg_dstr_set: lines 125-168 *)
Definition arg_dstr_set (m : mem) (ds : dstr) (str : option ptr) (free_proc : fproc) : res (mem * dstr) :=
  let old_free_proc := d_free ds in
  let old_result := d_data ds in
  '(m, ds) <-
    match str with
    | None => m <- wr m (sbuf ds) [NUL] ;; Ok (m, upd_data (sbuf ds) FStatic ds)
    | Some p =>
        match free_proc with
        | FVolatile =>
            s <- rd_str m p ;;
            length <- c_int (zlen s) ;;
            let '(m, ds) :=
              if ARG_DSTR_SIZE <? length then
                let '(m, b) := xmalloc junk m (length + 1) in (m, upd_data (b, 0) FDynamic ds)
              else (m, upd_data (sbuf ds) FStatic ds) in
            m <- strcpy m (d_data ds) p ;;
            Ok (m, ds)
        | _ => Ok (m, upd_data p free_proc ds)
        end
    end ;;
  m <- (match old_free_proc with
        | FStatic => Ok m
        | f => if ptr_eqb old_result (d_data ds) then Ok m else release m f old_result
        end) ;;
  drop_append m ds.

(** arg_dstr_cstr: lines 170-173 *)
Definition arg_dstr_cstr (ds : dstr) : ptr := d_data ds.

(** arg_dstr_free: lines 314-323 *)
Definition arg_dstr_free (m : mem) (ds : dstr) : res (mem * dstr) :=
  m <- release m (d_free ds) (d_data ds) ;;
  Ok (m, upd_data (d_data ds) FStatic ds).

(** setup_append_buf: lines 260-312 *)
Definition setup_append_buf (m : mem) (ds : dstr) (new_space : Z) : res (mem * dstr) :=
  let is_append := match d_app ds with Some a => ptr_eqb (d_data ds) (a, 0) | None => false end in
  '(m, ds) <-
    (if negb is_append then
       '(m, ds) <-
         (if 500 <? d_size ds then
            match d_app ds with
            | Some a => m <- xfree m (a, 0) ;; Ok (m, upd_app None 0 ds)
            | None => Ok (m, upd_app None 0 ds)
            end
          else Ok (m, ds)) ;;
       s <- rd_str m (d_data ds) ;;
       u <- c_int (zlen s) ;;
       Ok (m, upd_used u ds)
     else
       c <- rd_byte m (padd (d_data ds) (d_used ds)) ;;
       if negb (ceqb c NUL) then
         s <- rd_str m (d_data ds) ;;
         u <- c_int (zlen s) ;;
         Ok (m, upd_used u ds)
       else Ok (m, ds)) ;;
  total <- c_int (new_space + d_used ds) ;;
  '(m, ds) <-
    (if d_size ds <=? total then
       total <- (if total <? 100 then Ok 200 else c_int (total * 2)) ;;
       let '(m, newbuf) := xmalloc junk m total in
       m <- memset0 m (newbuf, 0) total ;;
       m <- strcpy m (newbuf, 0) (d_data ds) ;;
       m <- (match d_app ds with Some a => xfree m (a, 0) | None => Ok m end) ;;
       Ok (m, upd_app (Some newbuf) total ds)
     else
       match d_app ds with
       | Some a => if negb is_append then m <- strcpy m (a, 0) (d_data ds) ;; Ok (m, ds) else Ok (m, ds)
       | None => UB NullDeref
       end) ;;
  '(m, ds) <- arg_dstr_free m ds ;;
  match d_app ds with
  | Some a => Ok (m, upd_data (a, 0) FStatic ds)
  | None => UB NullDeref
  end.

(** arg_dstr_cat: lines 175-178 *)
Definition arg_dstr_cat (m : mem) (ds : dstr) (str : ptr) : res (mem * dstr) :=
  s <- rd_str m str ;;
  n <- c_int (zlen s) ;;
  n1 <- c_int (n + 1) ;;
  '(m, ds) <- setup_append_buf m ds n1 ;;
  d <- rd_str m (d_data ds) ;;
  s <- rd_str m str ;;
  m <- memcpy m (padd (d_data ds) (zlen d)) str (zlen s) ;;
  Ok (m, ds).

(** arg_dstr_catc: lines 180-183 *)
Definition arg_dstr_catc (m : mem) (ds : dstr) (c : ascii) : res (mem * dstr) :=
  '(m, ds) <- setup_append_buf m ds 2 ;;
  d <- rd_str m (d_data ds) ;;
  m <- wr m (padd (d_data ds) (zlen d)) [c] ;;
  Ok (m, ds).

(** vsnprintf(buff, n + 1, ...) when the whole formatted text is [out]: the bytes stored and the value
    returned. [legacy] is the older behaviour of some C libraries: no terminator when the text does not fit,
    and a negative result when it is cut. *)
Definition vsnprintf (legacy : bool) (n : Z) (out : str) : list ascii * Z :=
  if legacy then
    if zlen out <=? n then (out ++ [NUL], zlen out)
    else if zlen out =? n + 1 then (out, zlen out)
    else (firstn (Z.to_nat (n + 1)) out, -1)
  else (firstn (Z.to_nat n) out ++ [NUL], zlen out).

(** arg_dstr_catf, lines 231-254: the search for a buffer that is large enough *)
Fixpoint catf_loop (legacy : bool) (out : str) (fuel : nat) (m : mem) (buff : nat) (n : Z) : res (mem * nat) :=
  match fuel with
  | O => OutOfFuel
  | S fuel =>
      let '(bytes, r) := vsnprintf legacy n out in
      m <- wr m (buff, 0) bytes ;;
      s <- rd_str m (buff, 0) ;;
      if zlen s <? n then Ok (m, buff)
      else
        n <- (if n <? r then Ok r else c_int (n + n)) ;;
        m <- xfree m (buff, 0) ;;
        n2 <- c_int (n + 2) ;;
        let '(m, buff) := xmalloc junk m n2 in
        m <- memset0 m (buff, 0) n2 ;;
        catf_loop legacy out fuel m buff n
  end.

(** arg_dstr_catf: lines 218-258. [fmt] is the length of the format, [None] for a NULL format. *)
Definition arg_dstr_catf (legacy : bool) (m : mem) (ds : dstr) (fmt : option Z) (out : str) : res (mem * dstr) :=
  match fmt with
  | None => Ok (m, ds)
  | Some flen =>
      n <- c_int (2 * flen) ;;
      let n := if n <? 16 then 16 else n in
      n2 <- c_int (n + 2) ;;
      let '(m, buff) := xmalloc junk m n2 in
      m <- memset0 m (buff, 0) n2 ;;
      '(m, buff) <- catf_loop legacy out (4 + List.length out) m buff n ;;
      '(m, ds) <- arg_dstr_cat m ds (buff, 0) ;;
      m <- xfree m (buff, 0) ;;
      Ok (m, ds)
  end.

(** arg_dstr_reset: lines 325-335 *)
Definition arg_dstr_reset (m : mem) (ds : dstr) : res (mem * dstr) :=
  '(m, ds) <- arg_dstr_free m ds ;;
  '(m, ds) <- drop_append m ds ;;
  m <- wr m (sbuf ds) [NUL] ;;
  Ok (m, upd_data (sbuf ds) (d_free ds) ds).

(** arg_dstr_destroy: lines 116-123, for a non-NULL argument *)
Definition arg_dstr_destroy (m : mem) (ds : dstr) : res mem :=
  '(m, ds) <- arg_dstr_reset m ds ;;
  xfree m (d_self ds, 0).
End Dstr.
