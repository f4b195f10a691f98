(** DstrFail: arg_dstr.c when malloc may refuse and the panic function of the client leaves the library by longjmp.

    xmalloc calls the function given to arg_set_panic when malloc returns NULL (arg_utils.c lines 82-88). Here
    that function does not return: control goes back to the client, and memory stays as it is at that moment.
    The definitions below are those of DstrModel with this second way out; the C text modelled is the same. *)
From Coq Require Import ZArith List Ascii Bool.
From Verif Require Import Base ParseModel MemModel DstrModel DstrSpec.
Import ListNotations.
Open Scope Z_scope.

(** How a function is left: by its end, or by the panic function, with memory and dynamic string as they are then. *)
Inductive out (A : Type) := Done (a : A) | Refused (m : mem) (ds : dstr).
Arguments Done {A}. Arguments Refused {A}.

(** A refused request uses up its number, so that every request has a number of its own. *)
Definition spent (m : mem) : mem := {| mget := mget m; mnext := S (mnext m); mlog := mlog m |}.

Definition thenon {A B} (x : res (out A)) (f : A -> res (out B)) : res (out B) :=
  r <- x ;; match r with Done a => f a | Refused m ds => Ok (Refused m ds) end.
Definition done {A} (x : res A) : res (out A) := a <- x ;; Ok (Done a).

Section Dstr.
(** [granted n]: whether malloc grants the request of number [n]. *)
Context (granted : nat -> bool).
Context (junk : nat -> ascii).

(** arg_dstr_create: lines 107-114. There is no dynamic string yet if it is refused. *)
Definition try_create (m : mem) : res (mem * option dstr) :=
  if granted (mnext m) then '(m, ds) <- arg_dstr_create junk m ;; Ok (m, Some ds)
  else Ok (spent m, None).

(** arg_dstr_set: lines 125-168; the fields are assigned after the allocation (line 137) has returned. *)
Definition try_set (m : mem) (ds : dstr) (str : option ptr) (free_proc : fproc) : res (out (mem * dstr)) :=
  let old_free_proc := d_free ds in
  let old_result := d_data ds in
  thenon
    match str with
    | None => done (m <- wr m (sbuf ds) [NUL] ;; Ok (m, upd_data (sbuf ds) FStatic ds))
    | Some p =>
        match free_proc with
        | FVolatile =>
            s <- rd_str m p ;;
            length <- c_int (zlen s) ;;
            if ARG_DSTR_SIZE <? length then
              if granted (mnext m) then
                let '(m, b) := xmalloc junk m (length + 1) in
                let ds := upd_data (b, 0) FDynamic ds in
                done (m <- strcpy m (d_data ds) p ;; Ok (m, ds))
              else Ok (Refused (spent m) ds)
            else
              let ds := upd_data (sbuf ds) FStatic ds in
              done (m <- strcpy m (d_data ds) p ;; Ok (m, ds))
        | _ => Ok (Done (m, upd_data p free_proc ds))
        end
    end
  (fun '(m, ds) => done (
     m <- (match old_free_proc with
           | FStatic => Ok m
           | f => if ptr_eqb old_result (d_data ds) then Ok m else release m f old_result
           end) ;;
     drop_append m ds)).

(** setup_append_buf: lines 260-312 *)
Definition try_setup (m : mem) (ds : dstr) (new_space : Z) : res (out (mem * dstr)) :=
  let is_append := match d_app ds with Some a => ptr_eqb (d_data ds) (a, 0) | None => false end in
  '(m, ds) <-
    (if negb is_append then
       '(m, ds) <-
         (if 500 <? d_size ds then
            match d_app ds with
            | Some a => m <- xfree m (a, 0) ;; Ok (m, upd_app None 0 ds)
            | None => Ok (m, upd_app None 0 ds)
            end
          else Ok (m, ds)) ;;
       s <- rd_str m (d_data ds) ;;
       u <- c_int (zlen s) ;;
       Ok (m, upd_used u ds)
     else
       c <- rd_byte m (padd (d_data ds) (d_used ds)) ;;
       if negb (ceqb c NUL) then
         s <- rd_str m (d_data ds) ;;
         u <- c_int (zlen s) ;;
         Ok (m, upd_used u ds)
       else Ok (m, ds)) ;;
  total <- c_int (new_space + d_used ds) ;;
  thenon
    (if d_size ds <=? total then
       total <- (if total <? 100 then Ok 200 else c_int (total * 2)) ;;
       if granted (mnext m) then
         let '(m, newbuf) := xmalloc junk m total in
         done (
           m <- memset0 m (newbuf, 0) total ;;
           m <- strcpy m (newbuf, 0) (d_data ds) ;;
           m <- (match d_app ds with Some a => xfree m (a, 0) | None => Ok m end) ;;
           Ok (m, upd_app (Some newbuf) total ds))
       else Ok (Refused (spent m) ds)
     else
       done match d_app ds with
            | Some a => if negb is_append then m <- strcpy m (a, 0) (d_data ds) ;; Ok (m, ds) else Ok (m, ds)
            | None => UB NullDeref
            end)
  (fun '(m, ds) => done (
     '(m, ds) <- arg_dstr_free m ds ;;
     match d_app ds with
     | Some a => Ok (m, upd_data (a, 0) FStatic ds)
     | None => UB NullDeref
     end)).

(** arg_dstr_cat: lines 175-178 *)
Definition try_cat (m : mem) (ds : dstr) (str : ptr) : res (out (mem * dstr)) :=
  s <- rd_str m str ;;
  n <- c_int (zlen s) ;;
  n1 <- c_int (n + 1) ;;
  thenon (try_setup m ds n1) (fun '(m, ds) => done (
    d <- rd_str m (d_data ds) ;;
    s <- rd_str m str ;;
    m <- memcpy m (padd (d_data ds) (zlen d)) str (zlen s) ;;
    Ok (m, ds))).

(** arg_dstr_catc: lines 180-183 *)
Definition try_catc (m : mem) (ds : dstr) (c : ascii) : res (out (mem * dstr)) :=
  thenon (try_setup m ds 2) (fun '(m, ds) => done (
    d <- rd_str m (d_data ds) ;;
    m <- wr m (padd (d_data ds) (zlen d)) [c] ;;
    Ok (m, ds))).

(** arg_dstr_catf, lines 231-254: the old buffer is freed (line 250) before the larger one is asked for (line 251).
    The dynamic string is not touched. *)
Fixpoint try_catf_loop (legacy : bool) (out : str) (fuel : nat) (m : mem) (ds : dstr) (buff : nat) (n : Z)
  : res (DstrFail.out (mem * nat)) :=
  match fuel with
  | O => OutOfFuel
  | S fuel =>
      let '(bytes, r) := vsnprintf legacy n out in
      m <- wr m (buff, 0) bytes ;;
      s <- rd_str m (buff, 0) ;;
      if zlen s <? n then Ok (Done (m, buff))
      else
        n <- (if n <? r then Ok r else c_int (n + n)) ;;
        m <- xfree m (buff, 0) ;;
        n2 <- c_int (n + 2) ;;
        if granted (mnext m) then
          let '(m, buff) := xmalloc junk m n2 in
          m <- memset0 m (buff, 0) n2 ;;
          try_catf_loop legacy out fuel m ds buff n
        else Ok (Refused (spent m) ds)
  end.

(** arg_dstr_catf: lines 218-258. When the append is refused, the buffer with the formatted text stays behind. *)
Definition try_catf (legacy : bool) (m : mem) (ds : dstr) (fmt : option Z) (out : str) : res (DstrFail.out (mem * dstr)) :=
  match fmt with
  | None => Ok (Done (m, ds))
  | Some flen =>
      n <- c_int (2 * flen) ;;
      let n := if n <? 16 then 16 else n in
      n2 <- c_int (n + 2) ;;
      if granted (mnext m) then
        let '(m, buff) := xmalloc junk m n2 in
        m <- memset0 m (buff, 0) n2 ;;
        thenon (try_catf_loop legacy out (4 + List.length out) m ds buff n) (fun '(m, buff) =>
        thenon (try_cat m ds (buff, 0)) (fun '(m, ds) => done (
          m <- xfree m (buff, 0) ;;
          Ok (m, ds))))
      else Ok (Refused (spent m) ds)
  end.

(** ** The client program of DstrSpec, with a panic function that jumps back to the client

    [true]: the call has returned. Texts lent to a refused call are destroyed as after any other call. *)
Definition try_op (legacy : bool) (m : mem) (ds : dstr) (o : op) : res (mem * dstr * list (nat * str) * bool) :=
  match o with
  | OSet None f =>
      r <- try_set m ds None f ;;
      match r with Done (m, ds) => Ok (m, ds, [], true) | Refused m ds => Ok (m, ds, [], false) end
  | OSet (Some t) f =>
      let '(m, b) := mnew m (match f with FDynamic => true | _ => false end) (t ++ [NUL]) in
      r <- try_set m ds (Some (b, 0)) f ;;
      match r with
      | Done (m, ds) =>
          match f with
          | FVolatile => Ok (mset m b None, ds, [], true)
          | FStatic => Ok (m, ds, [(b, t)], true)
          | _ => Ok (m, ds, [], true)
          end
      | Refused m ds => Ok (mset m b None, ds, [], false)
      end
  | OCat t =>
      let '(m, b) := mnew m false (t ++ [NUL]) in
      r <- try_cat m ds (b, 0) ;;
      match r with Done (m, ds) => Ok (mset m b None, ds, [], true) | Refused m ds => Ok (mset m b None, ds, [], false) end
  | OCatc c =>
      r <- try_catc m ds c ;;
      match r with Done (m, ds) => Ok (m, ds, [], true) | Refused m ds => Ok (m, ds, [], false) end
  | OCatf fmt out =>
      r <- try_catf legacy m ds fmt out ;;
      match r with Done (m, ds) => Ok (m, ds, [], true) | Refused m ds => Ok (m, ds, [], false) end
  | OReset => '(m, ds) <- arg_dstr_reset m ds ;; Ok (m, ds, [], true)
  | OFree => '(m, ds) <- arg_dstr_free m ds ;; Ok (m, ds, [], true)
  end.

(** A client that chooses its next call from the outcomes of the earlier ones; [n] calls. *)
Fixpoint try_ops (legacy : bool) (client : list bool -> op) (n : nat) (m : mem) (ds : dstr) (h : list bool) (st : list (nat * str))
  : res (mem * dstr * list (nat * str) * list bool) :=
  match n with
  | O => Ok (m, ds, st, h)
  | S n => '(m, ds, s, b) <- try_op legacy m ds (client h) ;; try_ops legacy client n m ds (h ++ [b]) (st ++ s)
  end.
End Dstr.
