(** PropPrint: options and syntax lines as they are printed (C39, C40), and the glossary (C53). *)
From Coq Require Import ZArith String List Ascii Bool Lia.
From Verif Require Import Base ParseModel MemModel DstrModel DstrSpec DstrProofs PropDstr PrintModel PrintSpec PrintProofs PrintFacts.
Import ListNotations.
Open Scope Z_scope.

(** ** C39: the text of an option in its buffer of 200 bytes *)

(** Every access to the buffer is checked in the model; that the result is [Ok] says that none is outside. *)
Theorem C39_verbose : forall so lo dt optvalue sep,
  ocstr so -> ocstr lo -> ocstr dt -> cstr sep ->
  exists buf out, arg_cat_optionv syntax0 199 so lo dt optvalue sep = Ok buf /\ text_of buf = Ok out /\
    shows (verbose so lo dt optvalue sep) out.
Proof.
  intros so lo dt o sep A B C D. destruct (verbose_ok _ _ so lo dt o sep start_holds A B C D) as [buf [out [E1 [E2 [E3 _]]]]].
  exists buf, out. auto.
Qed.
Theorem C39_brief : forall so lo dt optvalue,
  ocstr so -> ocstr lo -> ocstr dt ->
  exists buf out, arg_cat_option syntax0 199 so lo dt optvalue = Ok buf /\ text_of buf = Ok out /\
    shows (brief so lo dt optvalue) out.
Proof.
  intros so lo dt o A B C. destruct (brief_ok _ _ so lo dt o start_holds A B C) as [buf [out [E1 [E2 [E3 _]]]]].
  exists buf, out. auto.
Qed.
(** arg_print_option and arg_print_option_ds *)
Theorem C39_print_option : forall so lo dt suffix,
  ocstr so -> ocstr lo -> ocstr dt -> ocstr suffix ->
  exists os out, arg_print_option_ds so lo dt suffix = Ok os /\ shows (verbose so lo dt false (lit "|")) out /\
    writes os (out ++ orempty suffix) (zlen (out ++ orempty suffix)).
Proof.
  intros so lo dt sf A B C D. destruct (verbose_ok _ _ so lo dt false (lit "|") start_holds A B C ltac:(clit)) as [buf [out [E1 [E2 [E3 E4]]]]].
  unfold arg_print_option_ds. rewrite E1. cbn [bind]. rewrite E2. cbn [bind]. eexists _, out. split; [reflexivity|]. split; [exact E3|].
  assert (CS : cstr (orempty sf)) by (destruct sf; [exact D|intros []]).
  apply (gives_writes _ _ (0 + 0)); [|lia].
  change [OCat out; OCat match sf with Some s => s | None => [] end] with ([OCat out] ++ [OCat (orempty sf)]).
  apply gives_app; gcat.
Qed.

(** For a well-formed option (no empty list of letters, no empty name) the ideal text is the list of its tags. *)
Lemma join_app sep a b : a <> [] -> b <> [] -> join sep (a ++ b) = join sep a ++ sep ++ join sep b.
Proof.
  intros A B. induction a as [|x a IH]; [congruence|]. destruct a as [|y a].
  - cbn [app join]. destruct b; [congruence|]. reflexivity.
  - change ((x :: y :: a) ++ b) with (x :: (y :: a) ++ b). change (join sep (x :: (y :: a) ++ b)) with (x ++ sep ++ join sep ((y :: a) ++ b)).
    rewrite IH by discriminate. cbn [join]. rewrite <- !app_assoc. reflexivity.
Qed.
Lemma last_tag_ne (n : str) : n <> [] -> last_tag n = long_tag n.
Proof. destruct n; [intro K; exfalso; apply K; reflexivity|reflexivity]. Qed.
Lemma tags_joined s l sep : s <> [] -> Forall (fun n => n <> []) (names l) ->
  verbose (Some s) (Some l) None false sep = join sep (map short_tag s ++ map long_tag (names l)).
Proof.
  intros S N. unfold verbose. cbn [shorts longs isome andb]. rewrite app_nil_r.
  assert (L : long_tags l = map long_tag (names l)).
  { unfold long_tags. pose proof (names_nonempty l) as NE. rewrite (app_removelast_last [] NE) at 3. rewrite map_app. f_equal.
    cbn [map]. f_equal. rewrite (app_removelast_last [] NE) in N. apply Forall_app in N as [_ N]. inversion N as [|x y X Y]; subst.
    exact (last_tag_ne _ X). }
  rewrite L, join_app; [reflexivity|..].
  - destruct s; [exfalso; apply S; reflexivity|discriminate].
  - intro K. apply map_eq_nil in K. apply (names_nonempty l K).
Qed.

Definition xs (n : nat) : str := repeat "x"%char n.

(** A well-formed option; and one whose text is longer than the buffer: the last character is not that of the ideal
    text, so no theorem can claim 199 characters. *)
Example C39_case :
  arg_print_option_ds (Some (lit "ab")) (Some (lit "all,any")) (Some (lit "<n>")) (Some [NL]) =
  Ok [OCat (lit "-a|-b|--all|--any=<n>"); OCat [NL]].
Proof. vm_compute. reflexivity. Qed.
Example C39_case_trailing :
  verbose None (Some (lit "all,")) (Some (lit "<n>")) true (lit ", ") = lit "--all, =[<n>]".
Proof. reflexivity. Qed.
Theorem C39_last_character_refuted : exists so lo dt buf out,
  arg_cat_optionv syntax0 199 so lo dt false (lit "|") = Ok buf /\ text_of buf = Ok out /\
  zlen out = 199 /\ out <> firstn 199 (verbose so lo dt false (lit "|")).
Proof.
  exists None, (Some (xs 196 ++ lit ",y")), None.
  eexists _, _. split; [vm_compute; reflexivity|]. split; [vm_compute; reflexivity|]. split; [reflexivity|].
  intro K. apply (f_equal (fun l => nth_error l 198)) in K. vm_compute in K. discriminate.
Qed.

(** ** C40: syntax lines *)

Lemma upto_app a b : cstr a -> upto_nul (a ++ b) = a ++ upto_nul b.
Proof.
  induction a as [|c a IH]; intro C; [reflexivity|]. cbn [app upto_nul].
  destruct (ceqb_spec c NUL) as [E|E]; [exfalso; apply C; left; exact E|]. rewrite IH; [reflexivity|]. intro K. apply C. right. exact K.
Qed.

Lemma letter_gives f so : cstr (lit f) -> (String.length f <= 3)%nat -> cstr so ->
  gives [catf (String.append f "%c") (lit f ++ first_char so)] (lit f ++ firstn 1 so) 6.
Proof.
  intros C L CS. split; [constructor; [cbn; lia|constructor]|]. cbn [ops_text flat_map op_text catf extras fold_right]. unfold extra.
  cbn [weight op_text catf]. rewrite app_nil_r, upto_app by exact C.
  assert (U : upto_nul (first_char so) = firstn 1 so).
  { unfold first_char. destruct so as [|c so]; [reflexivity|]. cbn [hd0 upto_nul firstn].
    destruct (ceqb_spec c NUL) as [E|E]; [|reflexivity]. exfalso. apply CS. left. exact E. }
  rewrite U. split; [reflexivity|]. rewrite !zlen_app. change (zlen (first_char so)) with 1. pose proof (zlen_nonneg (firstn 1 so)).
  assert (X : String.length (String.append f "%c") = (String.length f + 2)%nat).
  { clear. induction f; cbn [String.append String.length]; [reflexivity|]. rewrite IHf. reflexivity. }
  unfold weight. unfold zlen in *. rewrite X. lia.
Qed.

Definition required (l : list hdr) : list hdr := filter (fun h => 0 <? h_mincount h) (filter is_switch l).
Definition optional (l : list hdr) : list hdr := filter (fun h => h_mincount h <=? 0) (filter is_switch l).

Lemma mandatory_ok l : forall f1 f2 o f, Forall texts_ok l -> cstr (lit f1) -> (String.length f1 <= 3)%nat ->
  gnu_mandatory l f1 f2 = (o, f) ->
  match required l with
  | [] => o = [] /\ f = f2
  | _ => gives o (lit f1 ++ letters (required l)) (6 * zlen (required l)) /\ f = "["%string
  end.
Proof.
  induction l as [|h l IH]; intros f1 f2 o f T C1 L1 E; cbn [gnu_mandatory] in E.
  - injection E as <- <-. cbn. auto.
  - inversion T as [|x y T1 T2]; subst. unfold required. cbn [filter]. destruct (Z.ltb_spec (h_mincount h) 1) as [M|M].
    + specialize (IH _ _ _ _ T2 C1 L1 E). destruct (is_switch h); [|exact IH]. cbn [filter].
      destruct (Z.ltb_spec 0 (h_mincount h)); [lia|exact IH].
    + replace (is_switch h) with (isome (h_shortopts h) && negb (h_hasvalue h)) by reflexivity. destruct (h_shortopts h) as [so|] eqn:SO; cbn [isome andb].
      2:{ apply (IH _ _ _ _ T2 C1 L1 E). }
      destruct (h_hasvalue h) eqn:HV; cbn [negb]; [apply (IH _ _ _ _ T2 C1 L1 E)|].
      cbn [filter]. destruct (Z.ltb_spec 0 (h_mincount h)) as [_|]; [|lia].
      destruct (gnu_mandatory l "" "[") as [o' f'] eqn:E'. injection E as <- <-.
      assert (CE : cstr (lit "")) by (intros []).
      assert (X := IH ""%string "["%string _ _ T2 CE ltac:(cbn; lia) E'). fold (required l).
      assert (CS : cstr so) by (destruct T1 as [T1 _]; rewrite SO in T1; exact T1).
      assert (G := letter_gives f1 so C1 L1 CS).
      assert (LH : letter h = firstn 1 so) by (unfold letter; rewrite SO; reflexivity).
      change (letters (h :: required l)) with (letter h ++ letters (required l)). rewrite LH.
      rewrite zlen_cons. destruct (required l) as [|r rs].
      * destruct X as [-> ->]. split; [|reflexivity]. cbn [letters flat_map]. rewrite app_nil_r. exact G.
      * destruct X as [X ->]. split; [|reflexivity]. rewrite app_assoc.
        apply (gives_weaken _ _ (6 + 6 * zlen (r :: rs))); [|lia]. exact (gives_app _ _ _ _ _ _ G X).
Qed.

Lemma optional_ok l : forall f2 s0 o s, Forall texts_ok l -> cstr (lit f2) -> (String.length f2 <= 3)%nat ->
  gnu_optional l f2 s0 = (o, s) ->
  match optional l with
  | [] => o = [] /\ s = s0
  | _ => gives o (lit f2 ++ letters (optional l)) (6 * zlen (optional l)) /\ s = "]"%string
  end.
Proof.
  induction l as [|h l IH]; intros f2 s0 o s T C1 L1 E; cbn [gnu_optional] in E.
  - injection E as <- <-. cbn. auto.
  - inversion T as [|x y T1 T2]; subst. unfold optional. cbn [filter]. destruct (Z.ltb_spec 0 (h_mincount h)) as [M|M].
    + specialize (IH _ _ _ _ T2 C1 L1 E). destruct (is_switch h); [|exact IH]. cbn [filter].
      destruct (Z.leb_spec (h_mincount h) 0); [lia|exact IH].
    + replace (is_switch h) with (isome (h_shortopts h) && negb (h_hasvalue h)) by reflexivity. destruct (h_shortopts h) as [so|] eqn:SO; cbn [isome andb].
      2:{ apply (IH _ _ _ _ T2 C1 L1 E). }
      destruct (h_hasvalue h) eqn:HV; cbn [negb]; [apply (IH _ _ _ _ T2 C1 L1 E)|].
      cbn [filter]. destruct (Z.leb_spec (h_mincount h) 0) as [_|]; [|lia].
      destruct (gnu_optional l "" "]") as [o' f'] eqn:E'. injection E as <- <-.
      assert (CE : cstr (lit "")) by (intros []).
      assert (X := IH ""%string "]"%string _ _ T2 CE ltac:(cbn; lia) E'). fold (optional l).
      assert (CS : cstr so) by (destruct T1 as [T1 _]; rewrite SO in T1; exact T1).
      assert (G := letter_gives f2 so C1 L1 CS).
      assert (LH : letter h = firstn 1 so) by (unfold letter; rewrite SO; reflexivity).
      change (letters (h :: optional l)) with (letter h ++ letters (optional l)). rewrite LH.
      rewrite zlen_cons. destruct (optional l) as [|r rs].
      * destruct X as [-> ->]. split; [|reflexivity]. cbn [letters flat_map]. rewrite app_nil_r. exact G.
      * destruct X as [X ->]. split; [|reflexivity]. rewrite app_assoc.
        apply (gives_weaken _ _ (6 + 6 * zlen (r :: rs))); [|lia]. exact (gives_app _ _ _ _ _ _ G X).
Qed.

Lemma switches_count l : zlen (required l) + zlen (optional l) <= zlen l.
Proof.
  unfold required, optional. induction l as [|h l IH]; [cbn; lia|]. cbn [filter]. rewrite zlen_cons.
  destruct (is_switch h); [|lia]. cbn [filter]. destruct (Z.ltb_spec 0 (h_mincount h)), (Z.leb_spec (h_mincount h) 0); rewrite ?zlen_cons; lia.
Qed.

(** A table: entries, then the terminator (or a NULL pointer, where the syntax lines stop as well). *)
Definition table (hs : list hdr) (stop : slot) (rest : list slot) : list slot := map SEntry hs ++ stop :: rest.
Definition stops (s : slot) : Prop := s = SEnd \/ s = SNull.

Lemma until_null_ok hs stop rest : stops stop -> until_null (table hs stop rest) = Ok hs.
Proof.
  intros S. unfold table. induction hs as [|h hs IH]; cbn [map app until_null].
  - destruct S as [->| ->]; reflexivity.
  - rewrite IH. reflexivity.
Qed.
Lemma until_end_ok hs rest : until_end (table hs SEnd rest) = Ok hs.
Proof. unfold table. induction hs as [|h hs IH]; cbn [map app until_end]; [reflexivity|]. rewrite IH. reflexivity. Qed.

Lemma gnuswitch_ok hs stop rest : stops stop -> Forall texts_ok hs ->
  exists o, arg_print_gnuswitch_ds (table hs stop rest) = Ok o /\ gives o (cluster hs) (6 * zlen hs + 2).
Proof.
  intros S T. unfold arg_print_gnuswitch_ds. rewrite until_null_ok by exact S. cbn [bind].
  destruct (gnu_mandatory hs " -" " [-") as [o1 f2] eqn:E1. destruct (gnu_optional hs f2 "") as [o2 sf] eqn:E2.
  eexists. split; [reflexivity|].
  assert (X1 := mandatory_ok hs " -"%string " [-"%string o1 f2 T ltac:(clit) ltac:(cbn; lia) E1).
  assert (X2 := fun C L => optional_ok hs f2 ""%string o2 sf T C L E2).
  assert (SC := switches_count hs). unfold cluster. fold (required hs). fold (optional hs).
  assert (Z1 := zlen_nonneg (required hs)). assert (Z2 := zlen_nonneg (optional hs)).
  destruct (required hs) as [|r rs] eqn:R.
  - destruct X1 as [-> ->]. specialize (X2 ltac:(clit) ltac:(cbn; lia)). destruct (optional hs) as [|p ps] eqn:P.
    + destruct X2 as [-> ->]. cbn [app]. apply (gives_weaken _ _ 2); [|pose proof (zlen_nonneg hs); lia].
      apply (gives_catf 2 []); [lia|intros []].
    + destruct X2 as [X2 ->]. cbn [app]. rewrite app_assoc. apply (gives_weaken _ _ (6 * zlen (p :: ps) + 2)); [|lia].
      apply gives_app; [exact X2|]. apply (gives_catf 2 (lit "]")); [lia|clit].
  - destruct X1 as [X1 ->]. specialize (X2 ltac:(clit) ltac:(cbn; lia)). destruct (optional hs) as [|p ps] eqn:P.
    + destruct X2 as [-> ->]. cbn [app]. rewrite <- (app_nil_r (lit " -" ++ letters (r :: rs))).
      apply (gives_weaken _ _ (6 * zlen (r :: rs) + 2)); [|lia].
      apply gives_app; [exact X1|]. apply (gives_catf 2 []); [lia|intros []].
    + destruct X2 as [X2 ->]. rewrite (app_assoc (lit " -")). rewrite (app_assoc (lit "[")).
      apply (gives_weaken _ _ (6 * zlen (r :: rs) + (6 * zlen (p :: ps) + 2))); [|lia].
      apply gives_app; [exact X1|]. apply gives_app; [exact X2|]. apply (gives_catf 2 (lit "]")); [lia|clit].
Qed.

Lemma times_gives n s : cstr s -> gives (List.concat (repeat [OCat (lit " "); OCat s] n)) (times n (lit " " ++ s)) 0.
Proof.
  intro C. induction n as [|n IH]; [apply gives_nil|]. cbn [repeat List.concat times].
  apply (gives_app _ _ _ _ 0 0); [|exact IH].
  change [OCat (lit " "); OCat s] with ([OCat (lit " ")] ++ [OCat s]). apply (gives_app _ _ _ _ 0 0); gcat. clit.
Qed.

Lemma occurrences_ok h s : counts_ok h -> cstr s ->
  exists o, cat_occurrences h s = Ok o /\ gives o (occurrences (h_mincount h) (h_maxcount h) s) 0.
Proof.
  intros [C1 C2] CS. unfold cat_occurrences, c_int.
  replace (in_intb (h_maxcount h - h_mincount h)) with true.
  2:{ symmetry. unfold in_intb, INT_MIN, INT_MAX in *. apply andb_true_iff. split; apply Z.leb_le; lia. }
  cbn [bind]. eexists. split; [reflexivity|]. unfold occurrences. cbv zeta.
  apply (gives_app _ _ _ _ 0 0); [apply times_gives; exact CS|].
  assert (ONE : forall e, cstr (lit e) -> gives [OCat (lit " ["); OCat s; OCat (lit e)] (lit " [" ++ s ++ lit e) 0).
  { intros e CE. change [OCat (lit " ["); OCat s; OCat (lit e)] with ([OCat (lit " [")] ++ [OCat s] ++ [OCat (lit e)]).
    apply (gives_app _ _ _ _ 0 0); [gcat; clit|]. apply (gives_app _ _ _ _ 0 0); gcat. }
  destruct (Z.eqb_spec (h_maxcount h - h_mincount h) 0), (Z.eqb_spec (h_maxcount h) (h_mincount h)); try lia; [apply gives_nil|].
  destruct (Z.eqb_spec (h_maxcount h - h_mincount h) 1), (Z.eqb_spec (h_maxcount h) (h_mincount h + 1)); try lia; [apply ONE; clit|].
  destruct (Z.eqb_spec (h_maxcount h - h_mincount h) 2), (Z.eqb_spec (h_maxcount h) (h_mincount h + 2)); try lia.
  - apply (gives_app _ _ _ _ 0 0); apply ONE; clit.
  - replace ((lit " [" ++ s ++ lit "]") ++ lit "...") with (lit " [" ++ s ++ lit "]...") by (rewrite <- !app_assoc; reflexivity).
    apply ONE. clit.
Qed.

Definition showv (sep : str) (h : hdr) : str := match optionv_text h sep with Ok s => s | _ => [] end.
Definition showb (h : hdr) : str := match option_text h with Ok s => s | _ => [] end.

Lemma showv_ok sep h : texts_ok h -> cstr sep ->
  optionv_text h sep = Ok (showv sep h) /\ cstr (showv sep h) /\
  shows (verbose (h_shortopts h) (h_longopts h) (h_datatype h) (h_hasoptvalue h) sep) (showv sep h).
Proof.
  intros [A [B [C _]]] D. unfold showv, optionv_text.
  destruct (verbose_ok _ _ (h_shortopts h) (h_longopts h) (h_datatype h) (h_hasoptvalue h) sep start_holds A B C D) as [buf [out [E1 [E2 [E3 E4]]]]].
  rewrite E1. cbn [bind]. rewrite E2. auto.
Qed.
Lemma showb_ok h : texts_ok h ->
  option_text h = Ok (showb h) /\ cstr (showb h) /\
  shows (brief (h_shortopts h) (h_longopts h) (h_datatype h) (h_hasoptvalue h)) (showb h).
Proof.
  intros [A [B [C _]]]. unfold showb, option_text.
  destruct (brief_ok _ _ (h_shortopts h) (h_longopts h) (h_datatype h) (h_hasoptvalue h) start_holds A B C) as [buf [out [E1 [E2 [E3 E4]]]]].
  rewrite E1. cbn [bind]. rewrite E2. auto.
Qed.

Lemma suffix_gives sf : ocstr sf -> gives (cat_suffix sf) (orempty sf) 0.
Proof. intro C. destruct sf; [apply gives_cat; exact C|apply gives_nil]. Qed.

Lemma syntaxv_gives hs stop rest suffix :
  stops stop -> Forall texts_ok hs -> Forall counts_ok hs -> ocstr suffix ->
  exists os, arg_print_syntaxv_ds (table hs stop rest) suffix = Ok os /\
    gives os (syntaxv_line (showv (lit "|")) hs ++ orempty suffix) 0.
Proof.
  intros S T C CF. unfold arg_print_syntaxv_ds. rewrite until_null_ok by exact S. cbn [bind].
  assert (R : exists o, syntaxv_rows hs = Ok o /\ gives o (syntaxv_line (showv (lit "|")) hs) 0).
  { clear S. induction hs as [|h hs IH]; cbn [syntaxv_rows syntaxv_line flat_map]; [eexists; split; [reflexivity|apply gives_nil]|].
    inversion T as [|x y T1 T2]; subst. inversion C as [|x y C1 C2]; subst. destruct (IH T2 C2) as [o [E G]].
    destruct (showv_ok (lit "|") h T1 ltac:(clit)) as [E1 [CS _]]. rewrite E1. cbn [bind].
    destruct (occurrences_ok h _ C1 CS) as [o1 [E2 G2]]. rewrite E2. cbn [bind]. rewrite E. cbn [bind].
    eexists. split; [reflexivity|]. exact (gives_app _ _ _ _ 0 0 G2 G). }
  destruct R as [o [E G]]. rewrite E. cbn [bind]. eexists. split; [reflexivity|].
  change 0 with (0 + 0). apply gives_app; [exact G|]. apply suffix_gives. exact CF.
Qed.

(** arg_print_syntaxv, arg_print_syntaxv_ds *)
Theorem C40_syntaxv : forall hs stop rest suffix,
  stops stop -> Forall texts_ok hs -> Forall counts_ok hs -> ocstr suffix ->
  exists os show, arg_print_syntaxv_ds (table hs stop rest) suffix = Ok os /\
    (forall h, In h hs -> shows (verbose (h_shortopts h) (h_longopts h) (h_datatype h) (h_hasoptvalue h) (lit "|")) (show h)) /\
    let line := syntaxv_line show hs ++ orempty suffix in writes os line (zlen line).
Proof.
  intros hs stop rest sf S T C CF. destruct (syntaxv_gives hs stop rest sf S T C CF) as [os [E G]].
  exists os, (showv (lit "|")). split; [exact E|]. split.
  - intros h H. rewrite Forall_forall in T. apply (showv_ok (lit "|") h (T h H)). clit.
  - cbv zeta. eapply gives_writes; [exact G|lia].
Qed.

Lemma syntax_gives hs stop rest suffix :
  stops stop -> Forall texts_ok hs -> Forall counts_ok hs -> ocstr suffix ->
  exists os, arg_print_syntax_ds (table hs stop rest) suffix = Ok os /\
    gives os (syntax_line showb hs ++ orempty suffix) (6 * zlen hs + 2).
Proof.
  intros S T C CF. unfold arg_print_syntax_ds.
  destruct (gnuswitch_ok hs stop rest S T) as [o1 [E1 G1]]. rewrite E1. cbn [bind]. rewrite until_null_ok by exact S. cbn [bind].
  assert (R : exists o, syntax_rows hs = Ok o /\
     gives o (flat_map (fun h => if is_switch h then []
                     else match showb h with [] => [] | s => occurrences (h_mincount h) (h_maxcount h) s end) hs) 0).
  { clear S E1 G1. induction hs as [|h hs IH]; cbn [syntax_rows flat_map]; [eexists; split; [reflexivity|apply gives_nil]|].
    inversion T as [|x y T1 T2]; subst. inversion C as [|x y C1 C2]; subst. destruct (IH T2 C2) as [o [E G]].
    change (match h_shortopts h with Some _ => true | None => false end) with (isome (h_shortopts h)). fold (is_switch h).
    destruct (is_switch h).
    - cbn [bind]. rewrite E. cbn [bind app]. eexists. split; [reflexivity|]. exact G.
    - destruct (showb_ok h T1) as [E2 [CS _]]. rewrite E2. cbn [bind].
      destruct (showb h) as [|x s] eqn:SH.
      + cbn [zlen List.length Z.of_nat Z.ltb Z.compare bind]. rewrite E. cbn [bind app]. eexists. split; [reflexivity|]. exact G.
      + rewrite <- SH in *. destruct (Z.ltb_spec 0 (zlen (showb h))) as [_|K].
        2:{ rewrite SH, zlen_cons in K. pose proof (zlen_nonneg s). lia. }
        destruct (occurrences_ok h _ C1 CS) as [o2 [E3 G2]]. rewrite E3. cbn [bind]. rewrite E. cbn [bind].
        eexists. split; [reflexivity|]. exact (gives_app _ _ _ _ 0 0 G2 G). }
  destruct R as [o [E G]]. rewrite E. cbn [bind]. eexists. split; [reflexivity|].
  unfold syntax_line. rewrite <- !app_assoc. replace (6 * zlen hs + 2) with ((6 * zlen hs + 2) + (0 + 0)) by lia.
  apply gives_app; [exact G1|]. apply gives_app; [exact G|]. apply suffix_gives. exact CF.
Qed.

(** arg_print_syntax, arg_print_syntax_ds *)
Theorem C40_syntax : forall hs stop rest suffix,
  stops stop -> Forall texts_ok hs -> Forall counts_ok hs -> ocstr suffix ->
  exists os show, arg_print_syntax_ds (table hs stop rest) suffix = Ok os /\
    (forall h, In h hs -> shows (brief (h_shortopts h) (h_longopts h) (h_datatype h) (h_hasoptvalue h)) (show h)) /\
    let line := syntax_line show hs ++ orempty suffix in writes os line (zlen line + 6 * zlen hs + 2).
Proof.
  intros hs stop rest sf S T C CF. destruct (syntax_gives hs stop rest sf S T C CF) as [os [E G]].
  exists os, showb. split; [exact E|]. split.
  - intros h H. rewrite Forall_forall in T. apply (showb_ok h (T h H)).
  - cbv zeta. apply (gives_writes _ _ _ _ G). lia.
Qed.

(** A table of all shapes. *)
Definition mk (hv ov : bool) (so lo dt : option string) (mn mx : Z) (gl : option string) : hdr :=
  {| h_hasvalue := hv; h_hasoptvalue := ov; h_shortopts := option_map lit so; h_longopts := option_map lit lo;
     h_datatype := option_map lit dt; h_glossary := option_map lit gl; h_mincount := mn; h_maxcount := mx |}.
Definition demo : list hdr :=
  [mk false false (Some "a"%string) None None 1 1 (Some "all"%string);
   mk false false (Some "bx"%string) (Some "both"%string) None 0 1 (Some "both"%string);
   mk true false (Some "n"%string) (Some "num,count"%string) (Some "<n>"%string) 1 3 None;
   mk true true None (Some "opt"%string) (Some "<o>"%string) 0 1 (Some "optional value"%string);
   mk true false None None (Some "<file>"%string) 1 9 (Some "inputs"%string)].

Example C40_case_syntax : exists os m, arg_print_syntax_ds (table demo SEnd []) (Some [NL]) = Ok os /\
  print_to (fun _ => NUL) false os = Ok (lit " -a[b] -n <n> [-n <n>] [-n <n>] [--opt=[<o>]] <file> [<file>]..." ++ [NL], m).
Proof. eexists _, _. split; [vm_compute; reflexivity|]. vm_compute. reflexivity. Qed.
Example C40_case_syntaxv : exists os m, arg_print_syntaxv_ds (table demo SEnd []) None = Ok os /\
  print_to (fun _ => NUL) false os =
  Ok (lit " -a [-b|-x|--both] -n|--num|--count=<n> [-n|--num|--count=<n>] [-n|--num|--count=<n>] [--opt=[<o>]] <file> [<file>]...", m).
Proof. eexists _, _. split; [vm_compute; reflexivity|]. vm_compute. reflexivity. Qed.

(** ** C53: the glossary *)

(** One row for each entry with a glossary text, in order; by default "  option (20 columns) text". *)
Definition glossary_text (f : str -> str -> str) (show : hdr -> str) (hs : list hdr) : str :=
  flat_map (fun h => match h_glossary h with Some g => f (show h) g | None => [] end) hs.
Definition good_format (f : gformat) : Prop :=
  0 <= gf_len f /\ forall s g, cstr s -> cstr g -> cstr (gf_text f s g).
Definition described (hs : list hdr) : list hdr := filter (fun h => isome (h_glossary h)) hs.

Lemma default_good : good_format default_format.
Proof.
  split; [cbn; lia|]. intros s g CS CG. cbn [gf_text default_format]. unfold pad_right. repeat (apply cstr_app; split); auto; try clit.
  - intro K. apply repeat_spec in K. discriminate.
  - intros [K|[]]. discriminate.
Qed.

Lemma glossary_gives hs rest format :
  Forall texts_ok hs -> (forall f, format = Some f -> good_format f) ->
  let f := match format with Some f => f | None => default_format end in
  exists os, arg_print_glossary_ds (table hs SEnd rest) format = Ok os /\
    gives os (glossary_text (gf_text f) (showv (lit ", ")) hs) (gf_len f * zlen (described hs)).
Proof.
  intros T GF f. unfold arg_print_glossary_ds. rewrite until_end_ok. cbn [bind]. fold f.
  assert (GD : good_format f) by (unfold f; destruct format; [apply GF; reflexivity|apply default_good]).
  destruct GD as [GL GT].
  induction hs as [|h hs IH]; cbn [glossary_rows glossary_text flat_map].
  - eexists. split; [reflexivity|]. eapply gives_weaken; [apply gives_nil|]. cbn. lia.
  - inversion T as [|x y T1 T2]; subst. destruct (IH T2) as [o [E G]]. unfold described. cbn [filter]. fold (described hs).
    destruct (h_glossary h) as [g|] eqn:GLO; cbn [isome].
    + destruct (showv_ok (lit ", ") h T1 ltac:(clit)) as [E1 [CS _]]. rewrite E1. cbn [bind]. rewrite E. cbn [bind].
      eexists. split; [reflexivity|]. rewrite zlen_cons.
      apply (gives_weaken _ _ (gf_len f + gf_len f * zlen (described hs))); [|lia].
      apply gives_app; [|exact G]. apply gives_catf; [exact GL|]. apply GT; [exact CS|].
      destruct T1 as [_ [_ [_ T1]]]. rewrite GLO in T1. exact T1.
    + cbn [bind]. rewrite E. cbn [bind app]. eexists. split; [reflexivity|]. exact G.
Qed.

Theorem C53_glossary : forall hs rest format,
  Forall texts_ok hs -> (forall f, format = Some f -> good_format f) ->
  let f := match format with Some f => f | None => default_format end in
  exists os show, arg_print_glossary_ds (table hs SEnd rest) format = Ok os /\
    (forall h, In h hs -> shows (verbose (h_shortopts h) (h_longopts h) (h_datatype h) (h_hasoptvalue h) (lit ", ")) (show h)) /\
    let out := glossary_text (gf_text f) show hs in
    writes os out (zlen out + gf_len f * zlen (described hs)).
Proof.
  intros hs rest format T GF f. destruct (glossary_gives hs rest format T GF) as [o [E G]].
  exists o, (showv (lit ", ")). split; [exact E|]. split.
  - intros h H. rewrite Forall_forall in T. apply (showv_ok (lit ", ") h (T h H)). clit.
  - cbv zeta. eapply gives_writes; [exact G|unfold f; lia].
Qed.

Example C53_case : exists os m, arg_print_glossary_ds (table demo SEnd []) None = Ok os /\
  print_to (fun _ => NUL) false os =
  Ok (lit "  -a                   all" ++ [NL] ++
      lit "  -b, -x, --both       both" ++ [NL] ++
      lit "  --opt=[<o>]          optional value" ++ [NL] ++
      lit "  <file>               inputs" ++ [NL], m).
Proof. eexists _, _. split; [vm_compute; reflexivity|]. vm_compute. reflexivity. Qed.

(** A NULL entry stops the syntax lines but not the glossary, which then dereferences it. *)
Theorem C53_null_entry_refuted : exists t os, arg_print_syntax_ds t None = Ok os /\ arg_print_glossary_ds t None = UB NullDeref.
Proof. exists [SEntry (mk false false (Some "a"%string) None None 0 1 None); SNull; SEnd]. eexists. split; vm_compute; reflexivity. Qed.

Print Assumptions C39_verbose.
Print Assumptions C39_brief.
Print Assumptions C39_print_option.
Print Assumptions C39_last_character_refuted.
Print Assumptions C40_syntaxv.
Print Assumptions C40_syntax.
Print Assumptions C53_glossary.
Print Assumptions C53_null_entry_refuted.
