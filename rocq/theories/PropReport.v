(** C61: what arg_parse reports about any command line.

    ReportSpec.v says it without scanners: [reading] is how the arguments read, mistakes included; [report] is what every entry
    keeps and the list of all errors, in order, each with its owner, code and text; [holds] is what the table then contains. The
    theorems: the parse shows this report and no other. As in PropCommand.v for tables of the library's own kinds on a platform
    with 64 bit long. *)
From Verif Require Import Base IntModel IntSpec IntProofs FileModel FileSpec DateModel DateSpec GetoptModel ParseModel ParseSpec GetoptProofs ParseIdeal ParseProofs ParseFacts ParseObserve ParseSafe ParseLemmas ArgModel KindsSpec KindsProofs PropKinds CommandSpec CommandProofs PropCommand ReportSpec ReportProofs.
From Verif Require ExTable.
From Coq Require Import ZArith List Ascii String Bool Lia.
Import ListNotations.
Open Scope Z_scope.

Section Report.
Context {D : Type}.
Context (strtod : str -> D * nat).
Context (rexmatch : str -> Z -> str -> res bool).
Context (sp : seps).
Notation lm := Long64.
Notation scan := (kscan strtod rexmatch lm sp).
Notation parse := (karg_parse strtod rexmatch lm sp).
Notation safe_value := (safe_value lm).
Notation reached := (reached strtod rexmatch lm sp).
Notation acceptable := (acceptable strtod rexmatch lm sp).
Notation fits := (fits strtod rexmatch lm sp).
Notation refused := (refused strtod rexmatch lm sp).
Notation kept := (kept strtod rexmatch lm sp).
Notation judged := (judged strtod rexmatch lm sp).
Notation option_errors := (option_errors strtod rexmatch lm sp).
Notation handed_out := (handed_out strtod rexmatch lm sp).
Notation left_errors := (left_errors strtod rexmatch lm sp).
Notation report := (report strtod rexmatch lm sp).
Notation holds := (holds strtod rexmatch lm sp).
Hypothesis Hd : strtod_contract strtod.
Notation ready ints := (Forall (inv (Inv rexmatch ints))).

Lemma reading_safe ints posix (tab : list (entry (body D))) rest evs pos : read_args posix (map e_hdr tab) rest = (evs, Finished pos) -> Forall (safe_value ints) rest ->
  Forall (event_ok ints tab) evs /\ Forall (safe_value ints) pos.
Proof.
  intros Hs Hv. pose proof (read_args_events_ok (map e_hdr tab) posix rest) as Ho. rewrite Hs in Ho. cbn [fst] in Ho.
  pose proof (kinds_safe strtod rexmatch lm sp Hd ints) as Hsafe.
  destruct (read_args_carries (safe_value ints) (safe_suffix _ _ _ _ Hsafe) _ _ _ _ _ Hv Hs) as [Hce Hcp]. split; auto.
  clear -Ho Hce. induction evs as [|ev evs IH]; [constructor|]. inversion_clear Ho; inversion_clear Hce. constructor; [|auto].
  destruct ev as [i v|c v]; [|exact I]. cbn in *. rewrite map_length in *. split; auto. intros s ->. auto.
Qed.

Lemma nth_error_ext {A} : forall l1 l2 : list A, (forall i, nth_error l1 i = nth_error l2 i) -> l1 = l2.
Proof.
  induction l1 as [|x l1 IH]; intros [|y l2] H; auto; try (specialize (H 0%nat); discriminate).
  pose proof (H 0%nat) as H0. injection H0 as ->. f_equal. apply IH. intros i. exact (H (S i)).
Qed.

(** The parse comes back, and shows the report. *)
Theorem C61_report :
  forall ints posix cap tab rest jo jc jp fuel argv h s en a0 evs pos,
  reached ints tab -> call cap tab en h argv a0 rest fuel -> Forall (safe_value ints) rest -> reading (map e_hdr tab) posix rest evs pos ->
  exists h' s' tab' en' held errs, parse posix jo jc jp fuel (zlen (a0 :: rest)) argv h s tab en = Ok (h', s', tab', en') /\
    report tab evs pos held errs /\ holds tab held tab' /\ end_count en' = Z.min cap (zlen errs) /\ recorded en' = shown cap errs.
Proof.
  intros ints posix cap tab rest jo jc jp fuel argv h s en a0 evs pos Ht Hc Hv Hrd. apply (reached_ready strtod rexmatch lm sp Hd) in Ht. apply reading_iff in Hrd.
  destruct (reading_safe ints posix tab rest evs pos Hrd Hv) as [He Hp].
  destruct (ideal_safe scan kcheck kreset _ _ (kinds_safe strtod rexmatch lm sp Hd ints) posix tab rest evs pos Ht Hv Hrd) as (t & errs & Ei & _).
  pose proof (one_pass scan kcheck kreset posix cap jo jc jp fuel argv h s tab en a0 rest evs pos Hc Hrd) as Ho. rewrite Ei in Ho. unfold karg_parse.
  destruct (arg_parse scan kcheck kreset posix jo jc jp fuel (zlen (a0 :: rest)) argv h s tab en) as [[[[h' s'] t'] en']| |]; try discriminate.
  cbn in Ho. injection Ho as -> E1 E2.
  destruct (ideal_report strtod rexmatch sp Hd ints tab Ht evs pos t errs He Hp Ei) as (held & Hr & Hh). exists h', s', t, en', held, errs. auto.
Qed.
(** Without even a program name, all there is to report are the shortages. *)
Theorem C61_report_no_arguments :
  forall ints posix cap tab jo jc jp fuel argv h s en, reached ints tab -> wf_end cap en ->
  exists h' s' tab' en' errs, parse posix jo jc jp fuel 0 argv h s tab en = Ok (h', s', tab', en') /\
    shortages tab (map (fun _ => []) tab) errs /\ holds tab (map (fun _ => []) tab) tab' /\ end_count en' = Z.min cap (zlen errs) /\ recorded en' = shown cap errs.
Proof.
  intros ints posix cap tab jo jc jp fuel argv h s en Ht He. apply (reached_ready strtod rexmatch lm sp Hd) in Ht.
  destruct (parse_none_safe strtod rexmatch lm sp Hd ints posix cap tab jo jc jp fuel argv h s en Ht He) as (h' & s' & tab' & en' & Hp & _ & _ & errs & Ei & E1 & E2).
  exists h', s', tab', en', errs. split; auto.
  assert (Hi : ideal_parse scan kcheck kreset [] [] tab = Ok (tab', errs)).
  { unfold ideal_parse, ideal_parse_empty in *. apply bind_ok in Ei as (t0 & E0 & Ei). rewrite E0. cbn [bind ideal_events].
    assert (ideal_positional scan 0 t0 [] None = Ok (t0, [])) as -> by (destruct t0; reflexivity). cbn [bind app]. exact Ei. }
  destruct (ideal_report strtod rexmatch sp Hd ints tab Ht [] [] tab' errs ltac:(constructor) ltac:(constructor) Hi) as (held & (runs & lft & e1 & e2 & R1 & R2 & R3 & R4) & Hh).
  assert (held = map (fun _ => []) tab) as Eh.
  { destruct R2 as (P1 & P2 & P3 & P4). symmetry in P1. apply app_eq_nil in P1 as [P1 ->]. apply nth_error_ext. intros i. rewrite nth_error_map.
    destruct (nth_error tab i) as [e|] eqn:Ee; cbn [option_map].
    - assert (Hlt : (i < List.length tab)%nat) by (apply nth_error_Some; congruence).
      destruct (nth_error held i) as [ws|] eqn:Ew; [|apply nth_error_None in Ew; lia]. destruct (nth_error runs i) as [run|] eqn:Er; [|apply nth_error_None in Er; lia].
      assert (run = []) as ->. { clear - P1 Er. revert i Er. induction runs as [|r runs IH]; intros [|i] Er; try discriminate; cbn in P1; apply app_eq_nil in P1 as [-> P1]; cbn in Er; [congruence|eauto]. }
      destruct (P4 i e [] ws Ee Er Ew) as (_ & Q1 & Q2). destruct (counting_dec e) as [Hc|Hc]; [|rewrite Q1; auto].
      destruct (Q2 Hc) as ((ws0 & K & ->) & _). cbn in K. inversion K as [E|? ? ? ? ? E|? ? ? ? ? ? E]; [reflexivity|destruct vs; discriminate|destruct vs; discriminate].
    - apply nth_error_None in Ee. apply nth_error_None. lia. }
  subst held. split; [|auto]. destruct R1 as (l & -> & Hl & _). destruct l; [|discriminate].
  destruct R2 as (P1 & _). symmetry in P1. apply app_eq_nil in P1 as [_ ->]. inversion R3; subst. destruct R4 as [[R4 _]|[_ R4]]; [contradiction|exact R4].
Qed.

(** ** There is only one report *)
Lemma wrong_det (e : entry (body D)) s c1 c2 : wrong e s c1 -> wrong e s c2 -> c1 = c2.
Proof.
  unfold wrong. destruct (e_body e); try congruence; try contradiction. intros [[-> (n & H1 & H2)]|[-> H1]] [[-> (m & H3 & H4)]|[-> H3]]; auto; exfalso; [eapply H3|eapply H1]; eauto.
Qed.
Lemma refused_det (e : entry (body D)) ws v c1 c2 : refused e ws v c1 -> refused e ws v c2 -> c1 = c2.
Proof. intros [[H1 ->]|(H1 & _ & s & -> & H2)] [[H3 ->]|(H3 & _ & s' & E & H4)]; auto; try lia. injection E as <-. eapply wrong_det; eauto. Qed.
Lemma kept_det (e : entry (body D)) vs ws1 : kept e vs ws1 -> forall ws2, kept e vs ws2 -> ws1 = ws2.
Proof.
  induction 1 as [|vs ws v H IH Hf|vs ws v c H IH Hr]; intros ws2 H2; inversion H2 as [E|vs2 ws2' v2 K2 F2 E|vs2 ws2' v2 c2 K2 F2 E]; subst; auto;
    try (destruct vs; discriminate); try (destruct vs2; discriminate); try (apply app_inj_tail in E as [-> ->]); rewrite (IH _ K2) in *; auto.
  - exfalso. eapply (refused_not_fits strtod rexmatch sp); eauto.
  - exfalso. eapply (refused_not_fits strtod rexmatch sp); eauto.
Qed.
Lemma judged_det (tab : list (entry (body D))) before ev e1 e2 : judged tab before ev e1 -> judged tab before ev e2 -> e1 = e2.
Proof.
  intros H1 H2. inversion H1 as [c v|i e v N C|i e v ws N C K F|i e v ws c N C K F]; subst; inversion H2 as [c' v'|i' e' v' N' C'|i' e' v' ws' N' C' K' F'|i' e' v' ws' c' N' C' K' F']; subst; auto;
    rewrite N in N'; injection N' as <-; try contradiction.
  - rewrite (kept_det _ _ _ K _ K') in *. exfalso. eapply (refused_not_fits strtod rexmatch sp); eauto.
  - rewrite (kept_det _ _ _ K _ K') in *. exfalso. eapply (refused_not_fits strtod rexmatch sp); eauto.
  - rewrite (kept_det _ _ _ K _ K') in *. rewrite (refused_det _ _ _ _ _ F F'). auto.
Qed.
Lemma lists_det {A B} (P : nat -> A -> B -> Prop) (l : list A) (l1 l2 : list B) : List.length l1 = List.length l -> List.length l2 = List.length l ->
  (forall i a x y, nth_error l i = Some a -> nth_error l1 i = Some x -> nth_error l2 i = Some y -> x = y) -> l1 = l2.
Proof.
  intros L1 L2 H. apply nth_error_ext. intros i. destruct (nth_error l i) as [a|] eqn:E.
  - assert ((i < List.length l)%nat) by (apply nth_error_Some; congruence).
    destruct (nth_error l1 i) as [x|] eqn:E1; [|apply nth_error_None in E1; lia]. destruct (nth_error l2 i) as [y|] eqn:E2; [|apply nth_error_None in E2; lia]. f_equal. eapply H; eauto.
  - apply nth_error_None in E. rewrite (proj2 (nth_error_None l1 i)) by lia. symmetry. apply nth_error_None. lia.
Qed.
Lemma option_errors_det (tab : list (entry (body D))) evs e1 e2 : option_errors tab evs e1 -> option_errors tab evs e2 -> e1 = e2.
Proof.
  intros (l1 & -> & L1 & H1) (l2 & -> & L2 & H2). f_equal. apply (lists_det (fun _ _ _ => True) evs); auto. intros. eapply judged_det; eauto.
Qed.
Lemma kept_in (e : entry (body D)) vs ws : kept e vs ws -> forall x, In x ws -> In x vs.
Proof. induction 1; intros x Hx; auto; rewrite ?in_app_iff in *; cbn in *; intuition. Qed.
Lemma handed_out_det ints (tab : list (entry (body D))) evs pos runs1 left1 held1 runs2 left2 held2 : ready ints tab -> Forall (event_ok ints tab) evs -> Forall (safe_value ints) pos ->
  handed_out tab evs pos runs1 left1 held1 -> handed_out tab evs pos runs2 left2 held2 -> runs1 = runs2 /\ left1 = left2 /\ held1 = held2.
Proof.
  intros Ht Hev Hpos H1 H2.
  assert (Hlt : forall n r1 r2 f1 f2 w1 w2, (n < List.length tab)%nat -> handed_out tab evs pos r1 f1 w1 -> handed_out tab evs pos r2 f2 w2 -> firstn n r1 = firstn n r2 ->
    forall x1 x2, nth_error r1 n = Some x1 -> nth_error r2 n = Some x2 ->
    x1 ++ List.concat (skipn (S n) r1) ++ f1 = x2 ++ List.concat (skipn (S n) r2) ++ f2 /\ ~ (List.length x1 < List.length x2)%nat).
  { intros n r1 r2 f1 f2 w1 w2 Hn (P1 & L1 & M1 & S1) (P2 & L2 & M2 & S2) Ef x1 x2 N1 N2.
    assert (Ec : List.concat (skipn n r1) ++ f1 = List.concat (skipn n r2) ++ f2).
    { apply (app_inv_head (List.concat (firstn n r1))). rewrite app_assoc, <- concat_app, firstn_skipn, Ef, app_assoc, <- concat_app, firstn_skipn. congruence. }
    rewrite (skipn_nth _ _ _ N1), (skipn_nth _ _ _ N2) in Ec. cbn [List.concat] in Ec. rewrite <- !app_assoc in Ec. split; auto. intros Hlen.
    destruct (nth_error tab n) as [e|] eqn:Ee; [|apply nth_error_None in Ee; lia].
    destruct (nth_error w1 n) as [v1|] eqn:W1; [|apply nth_error_None in W1; lia]. destruct (nth_error w2 n) as [v2|] eqn:W2; [|apply nth_error_None in W2; lia].
    assert (Hx : exists a w, x2 = x1 ++ a :: w /\ List.concat (skipn (S n) r1) ++ f1 = a :: w ++ List.concat (skipn (S n) r2) ++ f2).
    { clear - Ec Hlen. revert x2 Ec Hlen. induction x1 as [|c x1 IH]; intros [|d x2] Ec Hlen; cbn [List.length] in Hlen; try lia.
      - exists d, x2. split; auto.
      - cbn [app] in Ec. injection Ec as -> Ec. destruct (IH x2 Ec ltac:(lia)) as (a & w & -> & Ew). exists a, w. auto. }
    destruct Hx as (a & w & -> & Ea).
    destruct (S2 n e _ v2 Ee N2 W2) as (No & _ & Sat). destruct No as [No Nk]; [destruct x1; discriminate|]. destruct (Sat Nk) as ((ws2 & K2 & ->) & Hz & Hacc & _).
    destruct (S1 n e _ v1 Ee N1 W1) as (_ & _ & Sat1). destruct (Sat1 Nk) as ((ws1 & K1 & ->) & _ & _ & Nt). rewrite (kept_det _ _ _ K1 _ K2) in *.
    refine (Nt No a _ _); [rewrite Ea; reflexivity|].
    assert (Eg : ws2 ++ map Some (x1 ++ a :: w) = ((ws2 ++ map Some x1) ++ [Some a]) ++ map Some w) by (rewrite map_app, <- !app_assoc; reflexivity).
    rewrite Eg in Hz, Hacc. pose proof (zlen_nonneg (map (@Some str) w)).
    split; [rewrite (zlen_app _ (map Some w)), (zlen_app _ [Some a]) in Hz; change (zlen [Some a]) with 1 in Hz; lia|].
    eapply (acceptable_prefix strtod rexmatch sp Hd ints e); [|exact Nk|intros s Hin|exact Hz|exact Hacc]; auto.
    - rewrite Forall_forall in Ht. apply Ht. eapply nth_error_In; eauto.
    - rewrite <- Eg in Hin. apply in_app_iff in Hin as [Hin|Hin].
      + apply (kept_in _ _ _ K2) in Hin. unfold occurrences in Hin. apply in_flat_map in Hin as (ev & Ho & Hin). rewrite Forall_forall in Hev. specialize (Hev ev Ho).
        destruct ev as [j v|]; [|contradiction]. destruct (Nat.eqb j n); [|contradiction]. destruct Hin as [Hin|[]]. apply Hev. auto.
      + apply in_map_iff in Hin as (y & [= ->] & Hin). rewrite Forall_forall in Hpos. apply Hpos. rewrite P2. apply in_app_iff. left. apply in_concat. eexists. split; [eapply nth_error_In; exact N2|auto]. }
  assert (Hall : forall n, (n <= List.length tab)%nat -> firstn n runs1 = firstn n runs2).
  { induction n as [|n IH]; intros Hn; auto. specialize (IH ltac:(lia)).
    destruct (nth_error runs1 n) as [x1|] eqn:N1; [|apply nth_error_None in N1; destruct H1 as (_ & L & _); lia].
    destruct (nth_error runs2 n) as [x2|] eqn:N2; [|apply nth_error_None in N2; destruct H2 as (_ & L & _); lia].
    destruct (Hlt n _ _ _ _ _ _ ltac:(lia) H1 H2 IH x1 x2 N1 N2) as [Ec Q1].
    destruct (Hlt n _ _ _ _ _ _ ltac:(lia) H2 H1 (eq_sym IH) x2 x1 N2 N1) as [_ Q2].
    rewrite (firstn_nth _ _ _ N1), (firstn_nth _ _ _ N2), IH. f_equal. f_equal.
    assert (El : List.length x1 = List.length x2) by lia. clear - Ec El. revert x2 Ec El. induction x1 as [|c x1 IH]; intros [|d x2] Ec El; try discriminate; auto.
    cbn [app List.length] in *. injection Ec as -> Ec. f_equal. apply IH; auto. }
  pose proof (Hall (List.length tab) (le_n _)) as E. destruct H1 as (P1 & L1 & M1 & S1), H2 as (P2 & L2 & M2 & S2). rewrite <- L1 in E at 1. rewrite <- L2 in E. rewrite !firstn_all in E. subst runs2.
  split; auto. split; [rewrite P2 in P1; apply app_inv_head in P1; auto|].
  apply (lists_det (fun _ _ _ => True) tab); auto. intros i e x y Hi Hx Hy. assert ((i < List.length tab)%nat) by (apply nth_error_Some; congruence).
  destruct (nth_error runs1 i) as [run|] eqn:Er; [|apply nth_error_None in Er; lia].
  destruct (S1 i e run x Hi Er Hx) as (_ & A1 & A2). destruct (S2 i e run y Hi Er Hy) as (_ & B1 & B2). destruct (counting_dec e) as [Hc|Hc]; [|rewrite A1, B1; auto].
  destruct (A2 Hc) as ((u & K1 & ->) & _). destruct (B2 Hc) as ((u' & K2 & ->) & _). rewrite (kept_det _ _ _ K1 _ K2). auto.
Qed.
Lemma left_errors_det (tab : list (entry (body D))) held left e1 e2 : left_errors tab held left e1 -> left_errors tab held left e2 -> e1 = e2.
Proof.
  intros H1 H2. inversion H1 as [|a more N|i e ws a more c N O C L W R]; subst; inversion H2 as [|a' more' N'|i' e' ws' a' more' c' N' O' C' L' W' R']; subst; auto.
  - exfalso. eapply N; eauto. eapply nth_error_In; eauto.
  - exfalso. eapply N'; eauto. eapply nth_error_In; eauto.
  - assert (i' = i).
    { destruct (Nat.lt_trichotomy i i') as [Hlt|[?|Hlt]]; auto; exfalso; [exact (L _ _ N' Hlt O' C')|exact (L' _ _ N Hlt O C)]. }
    subst i'. rewrite N in N'. injection N' as <-. rewrite W in W'. injection W' as <-. rewrite (refused_det _ _ _ _ _ R R'). auto.
Qed.
Lemma shortages_det (tab : list (entry (body D))) held e1 e2 : List.length held = List.length tab -> shortages tab held e1 -> shortages tab held e2 -> e1 = e2.
Proof.
  intros Hh (l1 & -> & L1 & H1) (l2 & -> & L2 & H2). f_equal. apply (lists_det (fun _ _ _ => True) tab); auto. intros i e x y Hi Hx Hy.
  assert ((i < List.length tab)%nat) by (apply nth_error_Some; congruence). destruct (nth_error held i) as [ws|] eqn:Ew; [|apply nth_error_None in Ew; lia].
  destruct (H1 i e ws x Hi Ew Hx) as [(A1 & A2 & ->)|[A1 ->]]; destruct (H2 i e ws y Hi Ew Hy) as [(B1 & B2 & ->)|[B1 ->]]; auto; [specialize (B1 A1)|specialize (A1 B1)]; lia.
Qed.

Theorem C61_reading_one_way :
  forall t posix rest evs1 pos1 evs2 pos2, reading t posix rest evs1 pos1 -> reading t posix rest evs2 pos2 -> evs1 = evs2 /\ pos1 = pos2.
Proof.
  intros t posix rest evs1 pos1 evs2 pos2 H1 H2. apply reading_iff in H1. apply reading_iff in H2. rewrite H1 in H2. injection H2 as -> ->. auto.
Qed.
Theorem C61_report_one_way :
  forall ints posix tab rest evs pos held1 errs1 held2 errs2, reached ints tab -> Forall (safe_value ints) rest -> reading (map e_hdr tab) posix rest evs pos ->
  report tab evs pos held1 errs1 -> report tab evs pos held2 errs2 -> held1 = held2 /\ errs1 = errs2.
Proof.
  intros ints posix tab rest evs pos held1 errs1 held2 errs2 Ht Hv Hrd (r1 & l1 & a1 & b1 & A1 & B1 & C1 & D1) (r2 & l2 & a2 & b2 & A2 & B2 & C2 & D2).
  apply (reached_ready strtod rexmatch lm sp Hd) in Ht. apply reading_iff in Hrd. destruct (reading_safe ints posix tab rest evs pos Hrd Hv) as [He Hp].
  destruct (handed_out_det ints tab evs pos r1 l1 held1 r2 l2 held2 Ht He Hp B1 B2) as (-> & -> & ->). split; auto.
  rewrite (option_errors_det tab evs a1 a2 A1 A2) in *. rewrite (left_errors_det tab held2 l2 b1 b2 C1 C2) in *.
  destruct D1 as [[Dn ->]|[Dn D1]], D2 as [[Dm ->]|[Dm D2]]; auto; try contradiction. eapply shortages_det; eauto. apply B2.
Qed.
(** The only command lines that have no reading are those on which the parse does not come back. *)
Theorem C61_no_reading :
  forall ints posix cap tab rest jo jc jp fuel argv h s en a0,
  reached ints tab -> call cap tab en h argv a0 rest fuel -> Forall (safe_value ints) rest -> (forall evs pos, ~ reading (map e_hdr tab) posix rest evs pos) ->
  forall r, parse posix jo jc jp fuel (zlen (a0 :: rest)) argv h s tab en <> Ok r.
Proof.
  intros ints posix cap tab rest jo jc jp fuel argv h s en a0 Ht Hc Hv Hn [[[h' s'] tab'] en'] Hp. apply (reached_ready strtod rexmatch lm sp Hd) in Ht.
  destruct (parse_ok_safe strtod rexmatch lm sp Hd _ _ _ _ _ _ _ _ _ _ _ _ _ _ _ _ _ _ Ht Hc Hv Hp) as (evs & pos & _ & Hr & _). apply reading_iff in Hr. eapply Hn; eauto.
Qed.
End Report.

(** ** Examples *)
Local Open Scope string_scope.
Local Open Scope list_scope.
Local Open Scope Z_scope.
Notation ex_report := (report ExTable.strtod ExTable.rexmatch Long64 unix_seps ExTable.tab).
(** An unknown short option, an empty value, a value that is no integer, an unknown long option, two positional arguments too many,
    and a last option without its value. *)
Definition ex_wrong : list string := ["-x"; "--output="; "a"; "-n"; "1y"; "b"; "--nom"; "c"; "d"; "-n"].
Definition ex_wrong_events : list event :=
  [EvErr (sc "x") None; EvErr ARG_EMISSARG (ExTable.o "--output="); EvScan 2 (ExTable.o ""); EvScan 1 (ExTable.o "1y"); EvErr ARG_ELONGOPT (ExTable.o "--nom");
   EvErr ARG_EMISSARG (ExTable.o "-n")].
Definition ex_wrong_errors : list err :=
  [mk_err PEnd (sc "x") None; mk_err PEnd ARG_EMISSARG (ExTable.o "--output="); mk_err (PEntry 1) ARG_ERR_BADINT (ExTable.o "1y"); mk_err PEnd ARG_ELONGOPT (ExTable.o "--nom");
   mk_err PEnd ARG_EMISSARG (ExTable.o "-n"); mk_err (PEntry 3) ARG_ERR_MAXCOUNT (ExTable.o "c"); mk_err PEnd ARG_ENOMATCH (ExTable.o "d")].
Example C61_case_reading : reading ExTable.hdrs false (map lit ex_wrong) ex_wrong_events (map lit ["a"; "b"; "c"; "d"]).
Proof. apply reading_iff. vm_compute. reflexivity. Qed.
Lemma ex_wrong_call cap : 1 <= cap ->
  call cap ExTable.tab (ExTable.en cap) (ExTable.heap0 ("p" :: ex_wrong)) 1 (lit "p") (map lit ex_wrong) (S (total (args ("p" :: ex_wrong)))).
Proof. intros Hc. destruct (ExTable.call_ok "p" ex_wrong cap 0 Hc eq_refl) as [K1 K2 K3 K4 K5]. constructor; auto. Qed.
Lemma ex_wrong_safe : Forall (safe_value Long64 true) (map lit ex_wrong).
Proof. apply safe_values; vm_compute; reflexivity. Qed.
Lemma ex_wrong_run cap : 1 <= cap -> exists h' s' tab' en' held errs,
  ExTable.parse false ExTable.jo ExTable.jc ExTable.jp (S (total (args ("p" :: ex_wrong)))) (zlen (lit "p" :: map lit ex_wrong)) 1 (ExTable.heap0 ("p" :: ex_wrong)) ExTable.s0 ExTable.tab (ExTable.en cap) =
    Ok (h', s', tab', en') /\ ex_report ex_wrong_events (map lit ["a"; "b"; "c"; "d"]) held errs /\ end_count en' = Z.min cap (zlen errs) /\ recorded en' = shown cap errs.
Proof.
  intros Hc. destruct (C61_report ExTable.strtod ExTable.rexmatch unix_seps ex_contract true false cap ExTable.tab (map lit ex_wrong) ExTable.jo ExTable.jc ExTable.jp _ _ _ ExTable.s0 _ _
    _ _ ex_reached (ex_wrong_call cap Hc) ex_wrong_safe C61_case_reading) as (h' & s' & tab' & en' & held & errs & E & Hr & _ & E1 & E2).
  exists h', s', tab', en', held, errs. auto.
Qed.
(** The report is this one, seven errors. *)
Example C61_case : exists held, ex_report ex_wrong_events (map lit ["a"; "b"; "c"; "d"]) held ex_wrong_errors.
Proof.
  destruct (ex_wrong_run 20 ltac:(lia)) as (h' & s' & tab' & en' & held & errs & E & Hr & E1 & E2). exists held. assert (errs = ex_wrong_errors) as <-; auto.
  assert (Hx : recorded en' = ex_wrong_errors /\ end_count en' = 7).
  { assert (Hy : match ExTable.parse false ExTable.jo ExTable.jc ExTable.jp (S (total (args ("p" :: ex_wrong)))) (zlen (lit "p" :: map lit ex_wrong)) 1 (ExTable.heap0 ("p" :: ex_wrong)) ExTable.s0 ExTable.tab (ExTable.en 20) with
      Ok (_, _, _, e) => recorded e = ex_wrong_errors /\ end_count e = 7 | _ => False end) by (vm_compute; split; reflexivity). rewrite E in Hy. exact Hy. }
  destruct Hx as [X1 X2]. rewrite X1 in E2. rewrite X2 in E1. unfold shown in E2. destruct (Z.leb_spec (zlen errs) 20); [auto|lia].
Qed.
(** With room for four errors, three are shown, and a mark that there were more. *)
Example C61_case_full : exists h' s' tab' en',
  ExTable.parse false ExTable.jo ExTable.jc ExTable.jp (S (total (args ("p" :: ex_wrong)))) (zlen (lit "p" :: map lit ex_wrong)) 1 (ExTable.heap0 ("p" :: ex_wrong)) ExTable.s0 ExTable.tab (ExTable.en 4) =
    Ok (h', s', tab', en') /\ recorded en' = firstn 3 ex_wrong_errors ++ [mk_err PEnd ARG_ELIMIT None].
Proof.
  destruct (ex_wrong_run 4 ltac:(lia)) as (h' & s' & tab' & en' & held & errs & E & Hr & E1 & E2). exists h', s', tab', en'. split; auto.
  destruct C61_case as (held' & Hr'). 
  destruct (C61_report_one_way ExTable.strtod ExTable.rexmatch unix_seps ex_contract true false ExTable.tab (map lit ex_wrong) _ _ _ _ _ _ ex_reached ex_wrong_safe C61_case_reading Hr Hr') as [_ ->].
  rewrite E2. reflexivity.
Qed.
(** No arguments: only the positional entry lacks something. *)
Example C61_case_no_arguments : shortages ExTable.tab (map (fun _ => []) ExTable.tab) [mk_err (PEntry 3) ARG_ERR_MINCOUNT None].
Proof.
  exists [[]; []; []; [mk_err (PEntry 3) ARG_ERR_MINCOUNT None]]. split; [reflexivity|]. split; [reflexivity|].
  intros [|[|[|[|i]]]] e ws es; cbn [nth_error ExTable.tab map]; try discriminate; try (destruct i; discriminate); intros [= <-] [= <-] [= <-];
    try (right; split; [intros _; vm_compute; discriminate|reflexivity]). left. split; [discriminate|]. split; reflexivity.
Qed.
(** A cluster that ends in a dash has no reading (C12). *)
Example C61_case_no_reading : forall evs pos, ~ reading ExTable.hdrs false (map lit ["-v-"]) evs pos.
Proof. intros evs pos H. apply reading_iff in H. vm_compute in H. discriminate. Qed.

Print Assumptions C61_report.
Print Assumptions C61_report_no_arguments.
Print Assumptions C61_reading_one_way.
Print Assumptions C61_report_one_way.
Print Assumptions C61_no_reading.
