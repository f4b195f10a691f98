(** Model of warnx on Windows, /repo/src/arg_getopt_long.c lines 124-166, and of its array opterrmsg. The messages are those of
    GetoptSay.v. *)
From Verif Require Import Base.
From Coq Require Import ZArith List Ascii String Bool.
Import ListNotations.
Open Scope Z_scope.

(** MAX_OPTERRMSG_SIZE, line 139; opterrmsg, line 142, is an array of that many bytes, all zero before the first message. *)
Definition MAX_OPTERRMSG_SIZE : nat := 128.
Definition opterrmsg_init : list ascii := repeat NUL MAX_OPTERRMSG_SIZE.

(** _vsnprintf(buf + i, n, ...), the formatted text being [m]: at most [n] bytes are written; the terminating zero is one of them, so
    a text of [n] bytes or more has none. The same bytes are written by _vsnprintf_s (line 155), which puts a zero behind them; here
    there is a zero anyway. *)
Fixpoint vsnprintf_win (buf : list ascii) (i : Z) (n : nat) (m : str) : res (list ascii) :=
  match n, m with
  | O, _ => Ok buf
  | S _, [] => aset buf i NUL
  | S n', c :: m' => b <- aset buf i c ;; vsnprintf_win b (i + 1) n' m'
  end.
(** What %s prints. *)
Fixpoint c_string (buf : list ascii) : res str :=
  match buf with
  | [] => UB OOBRead
  | c :: r => if ceqb c NUL then Ok [] else t <- c_string r ;; Ok (c :: t)
  end.
(** warnx, lines 144-166: the array afterwards and what is written to stderr. *)
Definition warnx (buf : list ascii) (m : str) : res (list ascii * str) :=
  let buf := map (fun _ => NUL) buf in                                     (* line 152 *)
  buf <- vsnprintf_win buf 0 (MAX_OPTERRMSG_SIZE - 1) m ;;                 (* lines 153-158 *)
  t <- c_string buf ;;                                                     (* line 165 *)
  Ok (buf, t ++ ["010"%char]).
(** Several messages, one after the other. *)
Fixpoint warnings (buf : list ascii) (ms : list str) : res (list ascii * str) :=
  match ms with
  | [] => Ok (buf, [])
  | m :: ms => '(buf, t) <- warnx buf m ;; '(buf, t') <- warnings buf ms ;; Ok (buf, t ++ t')
  end.
