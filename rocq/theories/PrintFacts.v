(** PrintFacts: from sequences of appending calls to the text that is written. *)
From Coq Require Import ZArith String List Ascii Bool Lia.
From Verif Require Import Base ParseModel MemModel DstrModel DstrSpec DstrProofs PropDstr PrintModel PrintSpec PrintProofs.
Import ListNotations.
Open Scope Z_scope.

(** The calls that the printing functions make. *)
Definition appender (o : op) : Prop :=
  match o with
  | OCat t => cstr t
  | OCatc _ => True
  | OCatf (Some n) _ => 0 <= n
  | _ => False
  end.
Definition op_text (o : op) : str :=
  match o with
  | OCat t => t
  | OCatc c => upto_nul [c]
  | OCatf (Some _) out => upto_nul out
  | _ => []
  end.
Definition ops_text (os : list op) : str := flat_map op_text os.

Lemma ops_text_app a b : ops_text (a ++ b) = ops_text a ++ ops_text b.
Proof. apply flat_map_app. Qed.

Lemma total_app2 a b : total (a ++ b) = total a + total b.
Proof. unfold total. induction a as [|o a IH]; cbn [app fold_right]; [lia|]. rewrite IH. lia. Qed.

Lemma appenders_text os : forall a t, Forall appender os -> text a = Some t ->
  all_allowed a os /\ text (fold_left spec_op os a) = Some (t ++ ops_text os).
Proof.
  induction os as [|o os IH]; intros a t F T; cbn [all_allowed fold_left ops_text flat_map].
  - rewrite app_nil_r. auto.
  - inversion F as [|x y F1 F2]; subst.
    assert (X : allowed a o /\ text (spec_op a o) = Some (t ++ op_text o)).
    { destruct o as [[u|] f|u|c|[n|] out| |]; cbn [appender allowed spec_op append text op_text] in *; try contradiction;
        rewrite T; (split; [|reflexivity]); try (split; [|]); try discriminate; auto.
      intros k K. injection K as <-. exact F1. }
    destruct X as [X1 X2]. destruct (IH _ _ F2 X2) as [Y1 Y2]. split; [auto|]. rewrite Y2, <- app_assoc. reflexivity.
Qed.

Lemma all_allowed_app os1 : forall a os2, all_allowed a os1 -> all_allowed (fold_left spec_op os1 a) os2 -> all_allowed a (os1 ++ os2).
Proof.
  induction os1 as [|o os1 IH]; intros a os2 H K; cbn [app all_allowed fold_left] in *; [exact K|].
  destruct H as [H1 H2]. split; [exact H1|]. apply IH; assumption.
Qed.

Lemma no_statics os : Forall appender os -> statics os = [].
Proof.
  induction 1 as [|o os A F IH]; [reflexivity|]. cbn [statics flat_map]. fold (statics os). rewrite IH.
  destruct o as [[u|] f|u|c|[n|] out| |]; cbn [appender] in A; try contradiction; reflexivity.
Qed.

(** Writing to a stream: exactly [out] is written and all memory is released again. Writing to a dynamic string, after
    any client program: exactly [out] is appended. [bytes] is what has to fit into 2^29 bytes. *)
Definition writes (os : list op) (out : str) (bytes : Z) : Prop :=
  (bytes <= 536870912 -> forall junk legacy, exists m, print_to junk legacy os = Ok (out, m) /\ forall b, mget m b = None) /\
  (forall junk legacy before t, all_allowed abs0 before -> text (spec_ops before) = Some t -> total before + bytes <= 536870912 ->
   exists m ds st, run junk legacy (before ++ os) = Ok (m, ds, st) /\ rd_str m (arg_dstr_cstr ds) = Ok (t ++ out)).

Lemma writes_ok os out bytes : Forall appender os -> ops_text os = out -> total os <= bytes -> writes os out bytes.
Proof.
  intros F <- B. split.
  - intros LIM junk legacy. destruct (appenders_text os abs0 [] F eq_refl) as [AL T].
    destruct (run_ok junk legacy os AL) as [m [ds [st [E [I M]]]]]; [lia|].
    unfold print_to. rewrite E. cbn [bind]. unfold arg_dstr_cstr. rewrite (text_read _ _ _ _ _ I T). cbn [bind app].
    destruct (destroy_ok m ds _ _ I) as [m' [E' [LV _]]]. rewrite E'. cbn [bind]. exists m'. split; [reflexivity|].
    rewrite no_statics in M by exact F. apply map_eq_nil in M. subst st. cbn [frame map] in LV.
    intro b. destruct (mget m' b) eqn:G; [|reflexivity]. exfalso. assert (X : mget m' b <> None) by congruence.
    apply (live_iff _ _ LV) in X. exact X.
  - intros junk legacy before t AB TB LIM. destruct (appenders_text os _ t F TB) as [AL T].
    destruct (run_ok junk legacy (before ++ os)) as [m [ds [st [E [I _]]]]].
    + apply all_allowed_app; assumption.
    + rewrite total_app2. lia.
    + exists m, ds, st. split; [exact E|]. apply (text_read _ _ _ _ _ I). unfold spec_ops. rewrite fold_left_app. exact T.
Qed.

(** Bytes beyond the text itself: formats, and what follows a NUL. *)
Definition extra (o : op) : Z := weight o - zlen (op_text o).
Definition extras (os : list op) : Z := fold_right (fun o n => extra o + n) 0 os.
Lemma extras_app a b : extras (a ++ b) = extras a + extras b.
Proof. unfold extras. induction a as [|o a IH]; cbn [app fold_right]; [lia|]. rewrite IH. lia. Qed.
Lemma total_extras os : total os = zlen (ops_text os) + extras os.
Proof.
  induction os as [|o os IH]; [reflexivity|].
  cbn [total fold_right ops_text flat_map extras]. fold (total os). fold (ops_text os). fold (extras os).
  rewrite IH, zlen_app. unfold extra. lia.
Qed.

(** Lists of calls with their text. *)
Definition gives (os : list op) (out : str) (more : Z) : Prop := Forall appender os /\ ops_text os = out /\ extras os <= more.

Lemma gives_app a b s t m n : gives a s m -> gives b t n -> gives (a ++ b) (s ++ t) (m + n).
Proof.
  intros [F1 [T1 E1]] [F2 [T2 E2]]. split; [apply Forall_app; auto|]. split; [rewrite ops_text_app; congruence|].
  rewrite extras_app. lia.
Qed.
Lemma gives_nil : gives [] [] 0.
Proof. split; [constructor|]. split; [reflexivity|]. cbn. lia. Qed.
Lemma gives_cat s : cstr s -> gives [OCat s] s 0.
Proof.
  intro C. split; [constructor; [exact C|constructor]|]. split; [apply app_nil_r|]. cbn [extras fold_right extra weight op_text]. unfold extra. cbn [weight op_text]. lia.
Qed.
Lemma gives_catf n s : 0 <= n -> cstr s -> gives [OCatf (Some n) s] s n.
Proof.
  intros N C. split; [constructor; [exact N|constructor]|]. cbn [ops_text flat_map op_text extras fold_right]. unfold extra. cbn [weight op_text].
  rewrite upto_nul_id by exact C. split; [apply app_nil_r|]. lia.
Qed.
Lemma gives_weaken os s m n : gives os s m -> m <= n -> gives os s n.
Proof. intros [F [T E]] L. split; [exact F|]. split; [exact T|lia]. Qed.
Lemma gives_writes os out more bytes : gives os out more -> zlen out + more <= bytes -> writes os out bytes.
Proof. intros [F [T E]] B. apply writes_ok; auto. rewrite total_extras, T. lia. Qed.

Lemma gives_cstr os s m : gives os s m -> cstr s.
Proof.
  intros [F [<- _]]. induction F as [|o os A F IH]; [intros []|]. cbn [ops_text flat_map]. apply cstr_app. split; [|exact IH].
  assert (U : forall l, cstr (upto_nul l)).
  { intro l. induction l as [|c l IL]; cbn [upto_nul]; [intros []|]. destruct (ceqb_spec c NUL) as [E|E]; [intros []|]. intros [K|K]; [congruence|]. exact (IL K). }
  destruct o as [[u|] f|u|c|[n|] out| |]; cbn [appender op_text] in *; try contradiction; auto.
Qed.

Ltac gcat := apply gives_cat; auto.
