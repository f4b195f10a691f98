(** Specification for C91: functions that use the option scanner themselves, and what they do as far as the program's own variables and
    their answers are concerned. *)
From Verif Require Import Base GetoptModel ParseModel ParseSpec LongOnlySpec GetoptProofs ParseIdeal ParseProofs ParseFacts ReportSpec ShareSpec ShareProofs NestModel.
From Coq Require Import ZArith List Ascii String Bool.
Import ListNotations.
Open Scope Z_scope.

Section Spec.
Context {G : Type}.
(** A function that leaves the scanner alone. *)
Definition plain (f : G -> res (G * Z)) : gst -> G -> res (gst * G * Z) := fun s g => '(g, c) <- f g ;; Ok (s, g, c).
Definition plain_scan (scan : nat -> option (option str -> G -> res (G * Z))) (i : nat) : option (option str -> gst -> G -> res (gst * G * Z)) :=
  match scan i with Some f => Some (fun v => plain (f v)) | None => None end.
(** A function that calls arg_parse, and answers its return value. *)
Definition parsing (tab : list hdr) scanf checkf resetf (posix : bool) junko junkc (fuel : nat) (args : list str) (en : arg_end) : gst -> G -> res (gst * G * Z) :=
  fun s g => '(s, g, en) <- nest_parse tab scanf checkf resetf posix junko junkc fuel args s g en ;; Ok (s, g, end_count en).
(** What the functions of the entries do for the program; the answers of reset functions are ignored. *)
Definition doings scan0 (check0 reset0 : nat -> option (G -> res (G * Z))) : fcall -> option (G -> res (G * Z)) :=
  acts scan0 check0 (fun i => match reset0 i with Some f => Some (fun g => '(g, _) <- f g ;; Ok g) | None => None end).

(** [quiet F f]: the function [F] is made up of functions that leave the scanner alone and of calls of arg_parse, one after the other, the later
    ones depending on the answers of the earlier ones and on the variables of the program; the tables of these calls have scan functions that leave
    the scanner alone, and reset and check functions that are again quiet. To the program it does [f]. *)
Inductive quiet : (gst -> G -> res (gst * G * Z)) -> (G -> res (G * Z)) -> Prop :=
| quiet_plain f : quiet (plain f) f
| quiet_then F f K k : quiet F f -> (forall c, quiet (K c) (k c)) ->
    quiet (fun s g => '(s, g, c) <- F s g ;; K c s g) (fun g => '(g, c) <- f g ;; k c g)
| quiet_look (F : G -> _) f : (forall g0, quiet (F g0) (f g0)) -> quiet (fun s g => F g s g) (fun g => f g g)
| quiet_parse tab scan0 checkf check0 resetf reset0 cap posix junko junkc fuel a0 rest en evs pos :
    wf_end cap en -> Forall good_hdr tab -> Forall cstr rest -> (total rest < fuel)%nat -> reading tab posix rest evs pos ->
    (forall i, checkf i = None <-> check0 i = None) -> (forall i F f, checkf i = Some F -> check0 i = Some f -> quiet F f) ->
    (forall i, resetf i = None <-> reset0 i = None) -> (forall i F f, resetf i = Some F -> reset0 i = Some f -> quiet F f) ->
    quiet (parsing tab (plain_scan scan0) checkf resetf posix junko junkc fuel (a0 :: rest) en)
          (fun g => '(g, errs) <- share_spec (doings scan0 check0 reset0) tab evs pos g ;; Ok (g, Z.min cap (zlen errs))).
End Spec.
