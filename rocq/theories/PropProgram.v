(** C79: whole programs. The frame that the example programs share, around any table of the library's kinds, and three of the
    example programs: what they print, what they return, and that nothing is left allocated, for every command line. *)
From Verif Require Import Base IntModel IntSpec IntProofs FileModel FileSpec DateModel DateSpec GetoptModel ParseModel ParseSpec GetoptProofs ParseIdeal ParseProofs ParseFacts ParseObserve ParseSafe ParseLemmas ArgModel KindsSpec KindsProofs PropKinds CommandSpec CommandProofs PropCommand ReportSpec ReportProofs PropReport.
From Verif Require Import MemModel DstrModel PrintModel PrintProofs PrintFacts ErrorSpec ErrorProofs PropErrors ProgramModel.
From Verif Require ReparseProofs PrintSpec PropPrint PropTable TableModel PropConvey PropFile ExTable.
From Coq Require Import ZArith List Ascii String Bool Lia.
Import ListNotations.
Open Scope Z_scope.

Section Program.
Context {D : Type}.
Context (strtod : str -> D * nat).
Context (rexmatch : str -> Z -> str -> res bool).
Context (sp : seps).
Context (strftime : str -> tm -> option str).
Notation lm := Long64.
Notation table := (list (entry (body D))).
Notation stored := (stored strtod rexmatch lm sp).
Notation reached := (reached strtod rexmatch lm sp).
Notation shared := (shared strtod rexmatch lm sp).
Notation report := (report strtod rexmatch lm sp).
Notation holds := (ReportSpec.holds strtod rexmatch lm sp).
Notation kept := (kept strtod rexmatch lm sp).
Notation acceptable := (acceptable strtod rexmatch lm sp).
Notation safe_value := (safe_value lm).
Notation parse := (karg_parse strtod rexmatch lm sp).
Notation main := (main strtod rexmatch lm sp strftime).
Notation frame := (@frame D).
Hypothesis Hd : strtod_contract strtod.

(** ** Specification *)
(** An option without a value, to be given at least once. *)
Definition switch_at (tab : table) (i : nat) : Prop :=
  exists e n, nth_error tab i = Some e /\ e_body e = KLit n /\ 1 <= h_maxcount (e_hdr e) /\ ~ no_options (e_hdr e).

(** The entries of [tab'] are of the same kinds as those of [tab], and have counted and hold what was given to these. *)
Definition valued (tab : table) (os : list occurrence) (runs : list (list str)) (tab' : table) : Prop :=
  table_sig tab' = table_sig tab /\
  forall i e run, nth_error tab i = Some e -> nth_error runs i = Some run ->
    let given := given_to i os ++ map Some run in
    exists e', nth_error tab' i = Some e' /\ e_hdr e' = e_hdr e /\
      (kcount (e_body e) <> None -> kcount (e_body e') = Some (zlen given) /\ stored (e_body e) (slots_reset (e_body e)) given (slots (e_body e'))).

(** [behaves f argc tab posix rest out code]: with arguments [rest] a program of this frame prints [out] and returns [code]. *)
Inductive behaves (f : frame) (argc : Z) (tab : table) (posix : bool) (rest : list str) : str -> Z -> Prop :=
(** The help option is among the arguments, whatever else is there: the usage. *)
| says_help evs pos show show' : reading (map e_hdr tab) posix rest evs pos -> occurrences (f_help f) evs <> [] ->
    (forall h, In h (map e_hdr tab) -> PrintSpec.shows (PrintSpec.brief (h_shortopts h) (h_longopts h) (h_datatype h) (h_hasoptvalue h)) (show h)) ->
    (forall h, In h (map e_hdr tab) -> PrintSpec.shows (PrintSpec.verbose (h_shortopts h) (h_longopts h) (h_datatype h) (h_hasoptvalue h) (lit ", ")) (show' h)) ->
    behaves f argc tab posix rest
      (lit "Usage: " ++ f_name f ++ PrintSpec.syntax_line show (map e_hdr tab) ++ [NL] ++ f_before f ++
       PropPrint.glossary_text (gf_text (f_format f)) show' (map e_hdr tab) ++ f_after f) 0
(** No help, but version. *)
| says_version evs pos : reading (map e_hdr tab) posix rest evs pos -> occurrences (f_help f) evs = [] -> occurrences (f_version f) evs <> [] ->
    behaves f argc tab posix rest (version_text f) 0
(** Neither, and something is wrong: a message for every error (for the first 19 and a remark, if there are more than 20). *)
| says_errors evs pos held errs msgs : reading (map e_hdr tab) posix rest evs pos -> occurrences (f_help f) evs = [] -> occurrences (f_version f) evs = [] ->
    report tab evs pos held errs -> errs <> [] -> Forall2 (message strftime (f_name f) (table_sig tab)) (shown 20 errs) msgs ->
    behaves f argc tab posix rest (List.concat msgs ++ try_text f) 1
(** Neither, and all is well: the work is done, with the values in place. *)
| works os pos runs tab' out code : spells (map e_hdr tab) posix rest os pos -> given_to (f_help f) os = [] -> given_to (f_version f) os = [] ->
    shared tab os pos runs ->
    valued tab os runs tab' -> f_work f argc tab' = Ok (out, code) -> behaves f argc tab posix rest out code.

(** The texts fit into 2^29 bytes. *)
Definition small (n : Z) : Prop := n <= 536870912.
Definition help_fits (f : frame) (tab : table) : Prop :=
  let hs := map e_hdr tab in
  small (zlen (PrintSpec.syntax_line PropPrint.showb hs ++ [NL]) + 6 * zlen hs + 2) /\
  small (zlen (PropPrint.glossary_text (gf_text (f_format f)) (PropPrint.showv (lit ", ")) hs) + gf_len (f_format f) * zlen (PropPrint.described hs)).
(** No argument is longer than 20000000 bytes, nor the program's name than 1000, nor a date that strftime writes into
    arg_date_errorfn's buffer than that buffer, 200. *)
Definition dates_fit (sigs : list (hdr * ksig)) : Prop := forall h fmt s, In (h, SDate fmt) sigs -> strftime fmt tm_zero = Some s -> zlen s <= 200.
Definition arguments_fit (f : frame) (tab : table) (rest : list str) : Prop :=
  zlen (f_name f) <= 1000 /\ (forall a, In a rest -> zlen a <= 20000000) /\ dates_fit (table_sig tab).
(** The work is defined after every successful parse without --help and --version. *)
Definition able (f : frame) (argc : Z) (tab : table) (posix : bool) (rest : list str) : Prop :=
  forall os pos runs tab', spells (map e_hdr tab) posix rest os pos -> given_to (f_help f) os = [] -> given_to (f_version f) os = [] ->
  shared tab os pos runs -> valued tab os runs tab' -> exists out code, f_work f argc tab' = Ok (out, code).

(** Nothing is left. *)
Definition clean (o : outcome) : Prop := (forall b, o_blocks o b = None) /\ Forall (fun m => forall b, mget m b = None) (o_left o).

(** ** Proofs *)
Lemma lit_acceptable e n vs : e_body e = KLit n -> acceptable e vs.
Proof.
  intros He. exists (slots_reset (e_body e)). split; rewrite He; [reflexivity|]. intros k. destruct (nth_error vs k) as [[s|]|]; auto.
Qed.
Lemma kept_switch e n vs ws : e_body e = KLit n -> 1 <= h_maxcount (e_hdr e) -> kept e vs ws -> (ws = [] <-> vs = []).
Proof.
  intros He Hm K. destruct K as [|vs ws v K F|vs ws v c K R].
  - tauto.
  - split; intros H; apply app_eq_nil in H as [_ H]; discriminate.
  - split; intros H; [|apply app_eq_nil in H as [_ H]; discriminate]. exfalso. subst ws. destruct R as [[R _]|[_ [R _]]].
    + change (zlen (@nil (option str))) with 0 in R. lia.
    + apply R. eapply lit_acceptable; eauto.
Qed.
Lemma switch_count (tab : table) i evs pos held errs tab' : switch_at tab i -> report tab evs pos held errs -> holds tab held tab' ->
  exists n, count_of tab' i = Ok n /\ 0 <= n /\ (n = 0 <-> occurrences i evs = []).
Proof.
  intros (e & k & Hi & He & Hm & Ho) (runs & left & e1 & e2 & _ & (_ & L1 & L2 & H) & _) (L3 & Hh).
  assert ((i < List.length tab)%nat) by (apply nth_error_Some; congruence).
  destruct (nth_error runs i) as [run|] eqn:Er; [|apply nth_error_None in Er; lia]. destruct (nth_error held i) as [ws|] eqn:Ew; [|apply nth_error_None in Ew; lia].
  destruct (nth_error tab' i) as [e'|] eqn:Ee; [|apply nth_error_None in Ee; lia].
  assert (Hc : counting e) by (unfold counting; rewrite He; discriminate).
  destruct (H i e run ws Hi Er Ew) as (H1 & _ & H2). destruct (H2 Hc) as ((ws0 & K & ->) & _).
  assert (run = []) as -> by (destruct run; auto; exfalso; apply Ho; apply H1; discriminate).
  destruct (Hh i e _ e' Hi Ew Ee) as [_ Hh']. destruct (Hh' Hc) as [Hn _]. rewrite app_nil_r in *. exists (zlen ws0). split; [unfold count_of; rewrite Ee; cbn; rewrite Hn; reflexivity|].
  split; [apply zlen_nonneg|]. rewrite <- (kept_switch e k _ _ He Hm K). split; [intros Hz|intros ->; reflexivity].
  destruct ws0; auto. rewrite zlen_cons in Hz. pose proof (zlen_nonneg ws0). lia.
Qed.

Lemma null_ok n : TableModel.arg_nullcheck (blocks_of n) (Some (argtable_of n)) = Ok 0.
Proof.
  unfold argtable_of. cbn [TableModel.arg_nullcheck]. assert (H : forall k a, (a + k = n)%nat -> TableModel.nullcheck_loop (blocks_of n) (map Some (seq a (S k))) = Ok 0).
  { induction k as [|k IH]; intros a E.
    - cbn [seq map TableModel.nullcheck_loop]. unfold TableModel.is_terminator, blocks_of. replace a with n by lia. rewrite Nat.ltb_irrefl, Nat.eqb_refl. reflexivity.
    - change (seq a (S (S k))) with (a :: seq (S a) (S k)). cbn [map TableModel.nullcheck_loop]. unfold TableModel.is_terminator, blocks_of at 1. destruct (Nat.ltb_spec a n); [|lia]. cbn [bind].
      apply IH. lia. }
  apply H. lia.
Qed.
Lemma blocks_some l : PropTable.blocks (map Some l) = l.
Proof. induction l; cbn; congruence. Qed.
Lemma free_ok n : exists m t, TableModel.arg_freetable (blocks_of n) (argtable_of n) (S n) = Ok (m, t) /\ forall b, m b = None.
Proof.
  assert (L : List.length (argtable_of n) = S n) by (unfold argtable_of; rewrite map_length, seq_length; reflexivity).
  destruct (PropTable.C45_freetable (blocks_of n) (argtable_of n) (S n)) as (m & E & R).
  - rewrite L. auto.
  - rewrite <- L, firstn_all. unfold argtable_of. rewrite blocks_some. apply seq_NoDup.
  - rewrite <- L, firstn_all. unfold argtable_of. intros b Hb. rewrite blocks_some in Hb. apply in_seq in Hb. unfold blocks_of.
    destruct (Nat.ltb_spec b n); [discriminate|]. destruct (Nat.eqb_spec b n); [discriminate|lia].
  - exists m. eexists. split; [exact E|]. intros b. rewrite R. rewrite <- L, firstn_all. unfold argtable_of.
    replace (PropTable.blocks (map Some (seq 0 (S n)))) with (seq 0 (S n)) by (symmetry; apply blocks_some).
    destruct (in_dec Nat.eq_dec b (seq 0 (S n))) as [I|I]; auto. unfold blocks_of. rewrite in_seq in I.
    destruct (Nat.ltb_spec b n); [lia|]. destruct (Nat.eqb_spec b n); [lia|]. reflexivity.
Qed.
Lemma slots_table (tab : table) : slots_of tab = PropPrint.table (map e_hdr tab) SEnd [].
Proof. unfold slots_of, PropPrint.table. rewrite map_map. reflexivity. Qed.
Lemma given_evs i : forall os, occurrences i (evs_of os) = given_to i os.
Proof. induction os as [|[j v] os IH]; [reflexivity|]. unfold occurrences, given_to in *. cbn [evs_of map flat_map fst snd]. fold (evs_of os). rewrite IH. reflexivity. Qed.

(** The texts of errors are not longer than the arguments. *)
Section Lengths.
Context (L : Z) (HL : 0 <= L).
Notation fit := (fun s : str => zlen s <= L).
Definition fit_event (ev : event) : Prop := match ev with EvScan _ (Some v) | EvErr _ (Some v) => zlen v <= L | _ => True end.
Lemma fit_nil : zlen (@nil ascii) <= L.
Proof. exact HL. Qed.
Lemma long_fit t a b rest evs rest' : long_reading t a b rest evs rest' -> zlen a <= L -> zlen b <= L -> Forall fit rest -> Forall fit_event evs /\ Forall fit rest'.
Proof.
  intros H Ha Hb Hr. destruct H; try (inversion_clear Hr); split; auto; repeat constructor; cbn [fit_event]; auto; try exact HL;
    rewrite zlen_app, zlen_cons in Hb; pose proof (zlen_nonneg nm); lia.
Qed.
Lemma cluster_fit t a b rest evs rest' : cluster_reading t a b rest evs rest' -> zlen a <= L -> zlen b <= L -> Forall fit rest -> Forall fit_event evs /\ Forall fit rest'.
Proof.
  intros H Ha. induction H; intros Hb Hr; try (rewrite zlen_cons in Hb).
  - split; auto.
  - destruct IHcluster_reading as [H3 H4]; [lia|auto|]. split; auto. constructor; [exact I|auto].
  - destruct IHcluster_reading as [H3 H4]; [lia|auto|]. split; auto. constructor; [exact I|auto].
  - split; auto. repeat constructor.
  - split; auto. repeat constructor. cbn [fit_event]. lia.
  - inversion_clear Hr. split; [constructor; [assumption|constructor]|assumption].
  - split; [constructor; [assumption|constructor]|assumption].
  - eapply long_fit; eauto. lia.
Qed.
Lemma reading_fit t posix rest evs pos : reading t posix rest evs pos -> Forall fit rest -> Forall fit_event evs /\ Forall fit pos.
Proof.
  induction 1 as [|rest|a rest|a rest evs pos E W H IH|cs rest evs rest' evs' pos N1 N2 C H IH]; intros Hr.
  - auto.
  - inversion_clear Hr. auto.
  - auto.
  - inversion_clear Hr. destruct IH; auto.
  - inversion_clear Hr as [|? ? H1 H2]. destruct (cluster_fit _ _ _ _ _ _ C H1) as [F1 F2]; auto.
    { rewrite zlen_cons in H1. lia. }
    destruct (IH F2) as [F3 F4]. split; auto. apply Forall_app. auto.
Qed.
Lemma report_fit (tab : table) evs pos held errs : Forall fit_event evs -> Forall fit pos -> report tab evs pos held errs -> Forall (fun e => zlen (orempty (err_argval e)) <= L) errs.
Proof.
  intros He Hp (runs & lft & e1 & e2 & (l & -> & Ll & Hl) & Hh & Hle & Hd'). pose proof Hh as (-> & _).
  assert (F1 : Forall (fun e => zlen (orempty (err_argval e)) <= L) (List.concat l)).
  { apply Forall_forall. intros e Hin. apply in_concat in Hin as (es & Hi & Hin). apply In_nth_error in Hi as (k & Hk).
    assert ((k < List.length evs)%nat) by (rewrite <- Ll; apply nth_error_Some; congruence). destruct (nth_error evs k) as [ev|] eqn:Ek; [|apply nth_error_None in Ek; lia].
    specialize (Hl k ev es Ek Hk). rewrite Forall_forall in He. specialize (He ev (nth_error_In _ _ Ek)).
    destruct Hl; cbn [In] in Hin; try contradiction; destruct Hin as [<-|[]]; cbn [err_argval mk_err]; destruct v; cbn [orempty fit_event] in *; auto; exact HL. }
  assert (F2 : Forall (fun e => zlen (orempty (err_argval e)) <= L) e2).
  { apply Forall_app in Hp as [_ Hp]. assert (U : forall more, Forall fit more -> Forall (fun e => zlen (orempty (err_argval e)) <= L) (map unexpected more)).
    { intros more Hm. apply Forall_map. exact Hm. }
    destruct Hle; auto. inversion_clear Hp. constructor; auto. }
  destruct Hd' as [[_ ->]|[_ (l' & -> & Ll' & Hs)]]; [apply Forall_app; auto|].
  apply Forall_forall. intros e Hin. apply in_concat in Hin as (es & Hi & Hin). apply In_nth_error in Hi as (k & Hk).
  assert ((k < List.length tab)%nat) by (rewrite <- Ll'; apply nth_error_Some; congruence). destruct (nth_error tab k) as [x|] eqn:Ek; [|apply nth_error_None in Ek; lia].
  destruct Hh as (_ & _ & Lh & _). destruct (nth_error held k) as [ws|] eqn:Ew; [|apply nth_error_None in Ew; lia].
  destruct (Hs k x ws es Ek Ew Hk) as [(_ & _ & ->)|[_ ->]]; [destruct Hin as [<-|[]]; exact HL|contradiction].
Qed.
End Lengths.
Lemma message_fit p sigs e msg : dates_fit sigs -> message strftime p sigs e msg ->
  zlen msg <= zlen p + zlen (orempty (err_argval e)) + 400.
Proof.
  intros Hs M. assert (Hl : forall s : string, zlen (lit s) = zlen (lit s)) by auto.
  assert (Hshow : forall x t, PrintSpec.shows x t -> zlen t <= 199) by (intros x t (_ & _ & H); exact H).
  destruct M as [i h k c a msg N M|a|a|a|a|a|c a NR]; cbn [err_argval mk_err]; pose proof (zlen_nonneg (orempty a)) as Hp.
  1: set (v := orempty a) in *; clearbody v; destruct M as [k v t _ _ S|v t S|k v t _ _ S|v t S|v t S|v t S|v t S|f v s S|v t S]; try (apply Hshow in S); try (apply (Hs h f s (nth_error_In _ _ N)) in S).
  all: unfold ErrorSpec.line, quoted; rewrite ?zlen_app, ?zlen_cons; repeat match goal with |- context [zlen (lit ?s)] => let n := eval vm_compute in (zlen (lit s)) in change (zlen (lit s)) with n end;
    change (zlen (@nil ascii)) with 0; lia.
Qed.
Lemma messages_fit (f : frame) (tab : table) posix rest evs pos held errs msgs : arguments_fit f tab rest -> reading (map e_hdr tab) posix rest evs pos -> report tab evs pos held errs ->
  Forall2 (message strftime (f_name f) (table_sig tab)) (shown 20 errs) msgs -> zlen (List.concat msgs) + 1280 <= 536870912.
Proof.
  intros (Hn & Ha & Hs) Hrd Hr M. destruct (reading_fit 20000000 ltac:(lia) _ _ _ _ _ Hrd) as [F1 F2]; [apply Forall_forall; exact Ha|].
  pose proof (report_fit 20000000 ltac:(lia) tab evs pos held errs F1 F2 Hr) as Fe.
  assert (Fs : Forall (fun e => zlen (orempty (err_argval e)) <= 20000000) (shown 20 errs) /\ zlen (shown 20 errs) <= 20).
  { unfold shown. destruct (Z.leb_spec (zlen errs) 20); [split; auto|]. split.
    - apply Forall_app. split; [apply Forall_forall; intros e He; rewrite Forall_forall in Fe; apply Fe; rewrite <- (firstn_skipn (Z.to_nat (20 - 1)) errs); apply in_app_iff; left; exact He|constructor; [cbn; lia|constructor]].
    - rewrite zlen_app. unfold zlen at 1. rewrite firstn_length. change (zlen [mk_err PEnd ARG_ELIMIT None]) with 1. lia. }
  destruct Fs as [Fs Ls]. assert (H : zlen (List.concat msgs) <= 20001400 * zlen (shown 20 errs)).
  { clear Ls Fe Hr. induction M as [|e msg es msgs M1 M IH]; [cbn; lia|]. inversion_clear Fs. cbn [List.concat]. rewrite zlen_app, zlen_cons.
    pose proof (message_fit _ _ _ _ Hs M1). specialize (IH ltac:(assumption)). lia. }
  lia.
Qed.

Theorem C79_frame : forall (f : frame) ints posix legacy junk tab rest jo jc jp fuel argv h s en a0,
  reached ints tab -> call 20 tab en h argv a0 rest fuel -> Forall (safe_value ints) rest -> (exists evs pos, reading (map e_hdr tab) posix rest evs pos) ->
  switch_at tab (f_help f) -> switch_at tab (f_version f) -> cstr (f_name f) -> PropPrint.good_format (f_format f) ->
  Forall (fun e => PrintSpec.texts_ok (e_hdr e)) tab -> Forall (fun e => PrintSpec.counts_ok (e_hdr e)) tab -> Forall (fun e => date_ok strftime (sigof (e_body e))) tab ->
  help_fits f tab -> arguments_fit f tab rest -> able f (zlen (a0 :: rest)) tab posix rest ->
  exists o, main f tab en junk legacy posix jo jc jp fuel (zlen (a0 :: rest)) argv h s = Ok o /\
    behaves f (zlen (a0 :: rest)) tab posix rest (o_text o) (o_code o) /\ clean o.
Proof.
  intros f ints posix legacy junk tab rest jo jc jp fuel argv h s en a0 Ht Hc Hv (evs & pos & Hrd) Sh Sv Cn Gf Tx Ct Dt (F1 & F2) Fe Ha.
  destruct (C61_report strtod rexmatch sp Hd ints posix 20 tab rest jo jc jp fuel argv h s en a0 evs pos Ht Hc Hv Hrd) as (h' & s' & tab' & en' & held & errs & Ep & Hr & Hh & E1 & E2).
  destruct (switch_count tab _ evs pos held errs tab' Sh Hr Hh) as (nh & Ch & Ph & Zh). destruct (switch_count tab _ evs pos held errs tab' Sv Hr Hh) as (nv & Cv & Pv & Zv).
  destruct (free_ok (List.length tab)) as (mb & tb & Ef & Hb).
  assert (Hh' : map e_hdr tab' = map e_hdr tab).
  { destruct Hh as [L Hh]. apply nth_error_ext. intros i. rewrite !nth_error_map. destruct (nth_error tab i) as [e|] eqn:Ei; cbn.
    - assert ((i < List.length tab)%nat) by (apply nth_error_Some; congruence). destruct (nth_error tab' i) as [e'|] eqn:Ei'; [|apply nth_error_None in Ei'; lia]. cbn.
      destruct Hr as (runs & lft & e1 & e2 & _ & (_ & _ & L2 & _) & _). destruct (nth_error held i) as [ws|] eqn:Ew; [|apply nth_error_None in Ew; lia].
      destruct (Hh i e ws e' Ei Ew Ei') as [-> _]. reflexivity.
    - apply nth_error_None in Ei. destruct (nth_error tab' i) as [e'|] eqn:Ei'; auto. assert ((i < List.length tab')%nat) by (apply nth_error_Some; congruence). lia. }
  assert (Main : forall t code left, after_parse strftime f junk legacy (zlen (a0 :: rest)) tab' en' = Ok (t, code, left) -> Forall (fun m => forall b, mget m b = None) left ->
    behaves f (zlen (a0 :: rest)) tab posix rest t code ->
    exists o, main f tab en junk legacy posix jo jc jp fuel (zlen (a0 :: rest)) argv h s = Ok o /\ behaves f (zlen (a0 :: rest)) tab posix rest (o_text o) (o_code o) /\ clean o).
  { intros t code lf Ea Hl Hbh. unfold ProgramModel.main. rewrite null_ok. cbn [bind]. change (negb (0 =? 0)) with false. cbv iota. rewrite Ep. cbn [bind]. rewrite Ea. cbn [bind]. rewrite Ef. cbn [bind].
    eexists. split; [reflexivity|]. cbn [o_text o_code]. split; [exact Hbh|]. split; [exact Hb|exact Hl]. }
  assert (Tx' : Forall PrintSpec.texts_ok (map e_hdr tab)) by (apply Forall_map; exact Tx).
  assert (Ct' : Forall PrintSpec.counts_ok (map e_hdr tab)) by (apply Forall_map; exact Ct).
  unfold after_parse in Main. rewrite Ch, Cv in Main. cbn [bind] in Main.
  destruct (Z.ltb_spec 0 nh) as [Hn|Hn].
  - rewrite (slots_table tab'), Hh' in Main.
    destruct (PropPrint.syntax_gives (map e_hdr tab) SEnd [] (Some [NL])) as (os1 & O1 & G1); auto; [left; reflexivity|intros [K|[]]; discriminate|].
    destruct (PropPrint.glossary_gives (map e_hdr tab) [] (Some (f_format f))) as (os2 & O2 & G2); auto; [intros g [= <-]; exact Gf|].
    destruct (gives_writes _ _ _ (zlen (PrintSpec.syntax_line PropPrint.showb (map e_hdr tab) ++ [NL]) + 6 * zlen (map e_hdr tab) + 2) G1 ltac:(cbn [orempty]; lia)) as [W1 _].
    destruct (gives_writes _ _ _ _ G2 (Z.le_refl _)) as [W2 _].
    destruct (W1 F1 junk legacy) as (m1 & P1 & N1). destruct (W2 F2 junk legacy) as (m2 & P2 & N2).
    rewrite O1 in Main. cbn [bind] in Main. rewrite P1 in Main. cbn [bind] in Main. rewrite O2 in Main. cbn [bind] in Main. rewrite P2 in Main. cbn [bind] in Main.
    eapply Main; [reflexivity|repeat constructor; assumption|]. unfold usage_head. cbn [orempty]. rewrite <- !app_assoc.
    apply (says_help f _ tab posix rest evs pos PropPrint.showb (PropPrint.showv (lit ", "))); auto.
    + intros E. apply Zh in E. lia.
    + intros hd Hi. rewrite Forall_forall in Tx'. apply (PropPrint.showb_ok hd (Tx' hd Hi)).
    + intros hd Hi. rewrite Forall_forall in Tx'. apply (PropPrint.showv_ok (lit ", ") hd (Tx' hd Hi)). clit.
  - assert (Oh : occurrences (f_help f) evs = []) by (apply Zh; lia).
    destruct (Z.ltb_spec 0 nv) as [Hw|Hw].
    + eapply Main; [reflexivity|constructor|]. eapply says_version; eauto. intros E. apply Zv in E. lia.
    + assert (Ov : occurrences (f_version f) evs = []) by (apply Zv; lia).
      destruct (Z.ltb_spec 0 (end_count en')) as [He|He].
      * destruct (C43_after_parse strtod rexmatch lm sp strftime ints posix 20 tab rest jo jc jp fuel argv h s en a0 h' s' tab' en' (f_name f) Hd Ht Hc Hv Ep Cn Tx Dt) as (os & msgs & O1 & M1 & W1).
        rewrite E2 in M1. pose proof (messages_fit f tab posix rest evs pos held errs msgs Fe Hrd Hr M1) as Fe'.
        destruct (proj1 W1 ltac:(lia) junk legacy) as (m1 & P1 & N1).
        rewrite O1 in Main. cbn [bind] in Main. rewrite P1 in Main. cbn [bind] in Main.
        eapply Main; [reflexivity|repeat constructor; assumption|]. eapply says_errors; eauto. intros ->. change (zlen (@nil err)) with 0 in E1. lia.
      * assert (Hz : end_count en' = 0) by (pose proof (zlen_nonneg errs); lia).
        destruct (proj1 (C59_accepted_iff strtod rexmatch sp Hd ints posix 20 tab rest jo jc jp fuel argv h s en a0 Ht Hc Hv)) as (os & pos' & runs & Hs & Hsh); [exists h', s', tab', en'; auto|].
        destruct (C59_accepted_values strtod rexmatch sp Hd ints posix 20 tab rest jo jc jp fuel argv h s en a0 os pos' runs Ht Hc Hv Hs Hsh) as (h2 & s2 & t2 & en2 & Ep2 & _ & Hval).
        rewrite Ep in Ep2. injection Ep2 as <- <- <- <-.
        assert (Er : evs = evs_of os).
        { apply spells_iff in Hs. apply reading_iff in Hrd. rewrite Hs in Hrd. congruence. }
        assert (Hsig : table_sig tab' = table_sig tab).
        { pose proof (reached_ready strtod rexmatch lm sp Hd _ _ Ht) as Hrdy. destruct (parse_ok_safe strtod rexmatch lm sp Hd _ _ _ _ _ _ _ _ _ _ _ _ _ _ _ _ _ _ Hrdy Hc Hv Ep) as (ev2 & p2 & er2 & Er2 & Ei2 & _).
          apply (parse_report strtod rexmatch lm sp posix tab rest ev2 p2 tab' er2); auto. eapply Forall_impl; [|exact Hv]. intros x Hx. exact (proj1 Hx). }
        rewrite Er, given_evs in Oh, Ov. destruct (Ha os pos' runs tab' Hs Oh Ov Hsh (conj Hsig Hval)) as (out & code & Ew). rewrite Ew in Main. cbn [bind] in Main.
        eapply Main; [reflexivity|constructor|]. eapply works; eauto. split; auto.
Qed.

(** ** Values *)
Lemma valued_count tab os runs tab' i e run : valued tab os runs tab' -> nth_error tab i = Some e -> nth_error runs i = Some run -> kcount (e_body e) <> None ->
  count_of tab' i = Ok (zlen (given_to i os ++ map Some run)).
Proof.
  intros [_ H] Hi Hr Hk. destruct (H i e run Hi Hr) as (e' & Hi' & _ & Hc). destruct (Hc Hk) as [Hn _]. unfold count_of. rewrite Hi'. cbn [option_map]. rewrite Hn. reflexivity.
Qed.
Lemma first_texts_ok : forall (ss l : list str), (forall k s, nth_error ss k = Some s -> nth_error l k = Some s) -> first_texts (List.length ss) l = Ok ss.
Proof.
  induction ss as [|s ss IH]; intros l H; [reflexivity|]. cbn [List.length first_texts]. pose proof (H 0%nat s eq_refl) as H0. destruct l as [|x l]; [discriminate|]. injection H0 as ->.
  rewrite IH; [reflexivity|]. intros k y Hk. exact (H (S k) y Hk).
Qed.
Lemma files_nth : forall n b x k nm bn ex, nth_error (files (D := D) n b x) k = Some (VFile nm bn ex) -> nth_error n k = Some nm.
Proof.
  induction n as [|y n IH]; intros [|z b] [|w x] [|k] nm bn ex H; try discriminate; cbn [files nth_error] in *; [congruence|]. eapply IH; eauto.
Qed.
Lemma valued_sig tab os runs tab' i e e' : valued tab os runs tab' -> nth_error tab i = Some e -> nth_error tab' i = Some e' -> sigof (e_body e') = sigof (e_body e).
Proof.
  intros [H _] Hi Hi'. assert (E : nth_error (table_sig tab') i = nth_error (table_sig tab) i) by (rewrite H; reflexivity).
  unfold table_sig in E. rewrite !nth_error_map, Hi, Hi' in E. cbn in E. congruence.
Qed.
Definition textual (b : body D) : Prop := match b with KStr _ | KFile _ => True | _ => False end.
Lemma valued_texts tab os runs tab' i e run ss : valued tab os runs tab' -> nth_error tab i = Some e -> nth_error runs i = Some run -> textual (e_body e) ->
  given_to i os ++ map Some run = map Some ss -> texts_of tab' i (zlen ss) = Ok ss.
Proof.
  intros Hv Hi Hr Ht Hg. destruct (proj2 Hv i e run Hi Hr) as (e' & Hi' & _ & Hc). pose proof (valued_sig _ _ _ _ _ _ _ Hv Hi Hi') as Hs.
  destruct Hc as [_ Hc]; [destruct (e_body e); try contradiction; discriminate|]. cbv zeta in Hc. rewrite Hg in Hc.
  unfold texts_of. rewrite Hi'. cbn [option_map]. unfold zlen. rewrite Nat2Z.id. destruct Hc as [_ Hc].
  destruct (e_body e) as [| | |p|p| | |] eqn:Eb; try contradiction; destruct (e_body e') as [| | |p'|p'| | |] eqn:Eb'; try discriminate; apply first_texts_ok; intros k s Hk; specialize (Hc k);
    rewrite nth_error_map, Hk in Hc; cbn [option_map] in Hc; destruct Hc as (v0 & v & _ & Hn & Hden); cbn [denotes] in Hden.
  - subst v. cbn [slots] in Hn. rewrite nth_error_map in Hn. destruct (nth_error (str_sval p') k); [cbn in Hn; congruence|discriminate].
  - destruct Hden as (bn & ex & _ & _ & ->). cbn [slots] in Hn. eapply files_nth; eauto.
Qed.
Lemma given_dispatched tab posix rest os pos i v : spells (map e_hdr tab) posix rest os pos -> In v (given_to i os) ->
  exists e, nth_error (A := entry (body D)) tab i = Some e /\ ~ no_options (e_hdr e) /\ (v = None -> h_hasvalue (e_hdr e) = false \/ h_hasoptvalue (e_hdr e) = true) /\
    (v <> None -> h_hasvalue (e_hdr e) = true \/ h_hasoptvalue (e_hdr e) = true).
Proof.
  intros Hs Hin. apply spells_iff in Hs. pose proof (ReparseProofs.read_args_dispatched (map e_hdr tab) posix rest) as Hd'. rewrite Hs in Hd'. cbn [fst] in Hd'.
  unfold given_to in Hin. apply in_flat_map in Hin as ([j w] & Ho & Hin). cbn [fst snd] in Hin. destruct (Nat.eqb_spec j i) as [->|]; [|contradiction]. destruct Hin as [<-|[]].
  rewrite Forall_forall in Hd'. specialize (Hd' (EvScan i w)). destruct Hd' as (h & Hi & H); [apply in_map_iff; exists (i, w); auto|].
  rewrite nth_error_map in Hi. destruct (nth_error tab i) as [e|]; [|discriminate]. injection Hi as <-. exists e. auto.
Qed.
Lemma given_none tab posix rest os pos i e : spells (map e_hdr tab) posix rest os pos -> nth_error (A := entry (body D)) tab i = Some e -> no_options (e_hdr e) -> given_to i os = [].
Proof.
  intros Hs Hi Hn. destruct (given_to i os) as [|v l] eqn:E; auto. destruct (given_dispatched tab posix rest os pos i v Hs) as (e' & Hi' & Hn' & _); [rewrite E; left; auto|]. congruence.
Qed.
Lemma all_some : forall l : list (option str), (forall v, In v l -> v <> None) -> exists ss, l = map Some ss.
Proof.
  induction l as [|[s|] l IH]; intros H; [exists []; auto| |exfalso; apply (H None); cbn; auto].
  destruct IH as (ss & ->); [intros v Hv; apply H; right; auto|]. exists (s :: ss). auto.
Qed.
(** A command line that spells something that can be shared out has no errors. *)
Lemma shared_no_errors ints posix tab rest (jo : nat -> rawopt) (jc : nat -> ascii) (jp : nat -> option str) fuel argv h (s : gst) en a0 os pos runs evs pos' held errs :
  reached ints tab -> call 20 tab en h argv a0 rest fuel -> Forall (safe_value ints) rest -> spells (map e_hdr tab) posix rest os pos -> shared tab os pos runs ->
  reading (map e_hdr tab) posix rest evs pos' -> report tab evs pos' held errs -> errs = [].
Proof.
  intros Ht Hc Hv Hs Hsh Hrd Hr.
  destruct (C59_accepted_values strtod rexmatch sp Hd ints posix 20 tab rest jo jc jp fuel argv h s en a0 os pos runs Ht Hc Hv Hs Hsh) as (h1 & s1 & t1 & e1 & Ep & Ez & _).
  destruct (C61_report strtod rexmatch sp Hd ints posix 20 tab rest jo jc jp fuel argv h s en a0 evs pos' Ht Hc Hv Hrd) as (h' & s' & tab' & en' & held' & errs' & Ep' & Hr' & _ & E1 & _).
  destruct (C61_report_one_way strtod rexmatch sp Hd ints posix tab rest evs pos' held errs held' errs' Ht Hv Hrd Hr Hr') as [_ ->].
  rewrite Ep in Ep'. injection Ep' as <- <- <- <-. rewrite Ez in E1. destruct errs'; auto. rewrite zlen_cons in E1. pose proof (zlen_nonneg errs'). lia.
Qed.
Lemma no_mistake : forall evs, (forall c v, ~ In (EvErr c v) evs) -> exists os, evs = evs_of os.
Proof.
  induction evs as [|[i v|c v] evs IH]; intros H; [exists []; auto| |exfalso; apply (H c v); left; auto].
  destruct IH as (os & ->); [intros c w Hw; apply (H c w); right; auto|]. exists ((i, v) :: os). auto.
Qed.

(** ** The program echo *)
Definition yes (given : list (option str)) : str := match given with [] => lit "NO" | _ => lit "YES" end.
Definition echo_prints (evs : list event) (pos : list str) : str :=
  lit "option -n = " ++ yes (occurrences 0 evs) ++ [NL] ++ lit "option -e = " ++ yes (occurrences 1 evs) ++ [NL] ++
  lit "option -E = " ++ yes (occurrences 2 evs) ++ [NL] ++ flat_map (fun s => s ++ lit " ") pos ++ [NL].
Definition echo_usage : str :=
  ln "Usage: echo [-neE] [--help] [--version] [STRING]..." ++
  ln "Echo the STRINGs to standard output." ++ [NL] ++
  ln "  -n         do not output the trailing newline" ++
  ln "  -e         enable interpretation of the backslash-escaped characters listed below" ++
  ln "  -E         disable interpretation of those sequences in <string>s" ++
  ln "  --help     print this help and exit" ++
  ln "  --version  print version information and exit" ++ echo_after.
(** Something is wrong: a mistake in the spelling of the options, or an option given twice. *)
Definition repeated (n : nat) (evs : list event) : Prop := exists i, (i < n)%nat /\ 1 < zlen (occurrences i evs).
Definition mistaken (n : nat) (evs : list event) : Prop := (exists c v, In (EvErr c v) evs) \/ repeated n evs.
(** One or more messages, each beginning with the program's name, then a hint. *)
Definition complains (name : string) (out : str) : Prop :=
  exists msgs, msgs <> [] /\ Forall (fun m => exists r, m = lit name ++ lit ": " ++ r ++ [NL]) msgs /\
  out = List.concat msgs ++ lit "Try '" ++ lit name ++ ln " --help' for more information.".

Lemma columns_good n : PropPrint.good_format (columns n).
Proof.
  split; [cbn; lia|]. intros x g CS CG. cbn [gf_text columns]. unfold pad_right. repeat (apply cstr_app; split); auto; try clit.
  - intro K. apply repeat_spec in K. discriminate.
  - intros [K|[]]. discriminate.
Qed.
Lemma errors_complain (f : frame) name (tab : table) errs msgs : f_name f = lit name -> errs <> [] ->
  Forall2 (message strftime (f_name f) (table_sig tab)) (shown 20 errs) msgs -> complains name (List.concat msgs ++ try_text f).
Proof.
  intros Hn He M. exists msgs. split; [|split].
  - intros ->. inversion M as [E|]. unfold shown in E. destruct (zlen errs <=? 20); [congruence|]. destruct (firstn (Z.to_nat (20 - 1)) errs); discriminate.
  - clear He. induction M as [|e m es ms M1 M IH]; constructor; auto. rewrite Hn in M1. exact (proj1 (C43_message_form _ _ _ _ _ M1)).
  - unfold try_text. rewrite Hn. reflexivity.
Qed.
Ltac made_one := split; [constructor; unfold foolproof; repeat match goal with |- context [?a <? ?b] => destruct (Z.ltb_spec a b) end; lia|split; [exact I|try discriminate; reflexivity]].
Lemma echo_reached argc : 0 <= argc -> reached false (echo_table argc).
Proof. intros Ha. apply reached_new. repeat (apply Forall_cons; [made_one|]). constructor. Qed.
Lemma fool argc : 0 <= argc -> foolproof 0 (argc + 2) = argc + 2.
Proof. intros Ha. unfold foolproof. destruct (Z.ltb_spec (argc + 2) 0); lia. Qed.
(** The usage does not depend on anything. *)
Lemma occurrences_many argc s : 0 < argc -> PrintSpec.occurrences 0 (argc + 2) s = lit " [" ++ s ++ lit "]...".
Proof.
  intros Ha. unfold PrintSpec.occurrences. cbn [Z.to_nat PrintSpec.times app].
  destruct (Z.eqb_spec (argc + 2) 0); [lia|]. destruct (Z.eqb_spec (argc + 2) (0 + 1)); [lia|]. destruct (Z.eqb_spec (argc + 2) (0 + 2)); [lia|]. rewrite <- !app_assoc. reflexivity.
Qed.
Lemma shows_short x t : zlen x <= 198 -> PrintSpec.shows x t -> t = x.
Proof. intros H (S & _). auto. Qed.
Lemma syntax_ext show show' hs : (forall h, In h hs -> show h = show' h) -> PrintSpec.syntax_line show hs = PrintSpec.syntax_line show' hs.
Proof.
  intros H. unfold PrintSpec.syntax_line. f_equal. induction hs as [|h hs IH]; [reflexivity|]. cbn [flat_map]. rewrite (H h (or_introl eq_refl)). f_equal. apply IH. intros x Hx. apply H. right. auto.
Qed.
Lemma glossary_ext f show show' hs : (forall h, In h hs -> show h = show' h) -> PropPrint.glossary_text f show hs = PropPrint.glossary_text f show' hs.
Proof.
  intros H. unfold PropPrint.glossary_text. induction hs as [|h hs IH]; [reflexivity|]. cbn [flat_map]. rewrite (H h (or_introl eq_refl)). f_equal. apply IH. intros x Hx. apply H. right. auto.
Qed.
Definition brief_of (h : hdr) : str := PrintSpec.brief (h_shortopts h) (h_longopts h) (h_datatype h) (h_hasoptvalue h).
Definition verbose_of (h : hdr) : str := PrintSpec.verbose (h_shortopts h) (h_longopts h) (h_datatype h) (h_hasoptvalue h) (lit ", ").
Definition short_texts (h : hdr) : Prop := zlen (brief_of h) <= 198 /\ zlen (verbose_of h) <= 198.
Lemma echo_short argc : Forall short_texts (map e_hdr (echo_table (D := D) argc)).
Proof. repeat (apply Forall_cons; [split; vm_compute; discriminate|]). constructor. Qed.
Lemma echo_usage_ok argc : 0 < argc ->
  lit "Usage: " ++ f_name (@echo D) ++ PrintSpec.syntax_line brief_of (map e_hdr (echo_table (D := D) argc)) ++ [NL] ++ f_before (@echo D) ++
    PropPrint.glossary_text (gf_text (f_format (@echo D))) verbose_of (map e_hdr (echo_table (D := D) argc)) ++ f_after (@echo D) = echo_usage.
Proof.
  intros Ha. assert (E : PrintSpec.syntax_line brief_of (map e_hdr (echo_table (D := D) argc)) =
    lit " [-neE]" ++ PrintSpec.occurrences 0 1 (lit "--help") ++ PrintSpec.occurrences 0 1 (lit "--version") ++ PrintSpec.occurrences 0 (foolproof 0 (argc + 2)) (lit "STRING") ++ []).
  { unfold PrintSpec.syntax_line, echo_table, arg_strn. generalize (foolproof 0 (argc + 2)). generalize PrintSpec.occurrences. intros oc m. vm_compute. reflexivity. }
  rewrite E, fool, occurrences_many by lia. vm_compute. reflexivity.
Qed.
Lemma usage_fits (f : frame) (tab : table) usage : Forall (fun e => PrintSpec.texts_ok (e_hdr e)) tab -> Forall short_texts (map e_hdr tab) ->
  lit "Usage: " ++ f_name f ++ PrintSpec.syntax_line brief_of (map e_hdr tab) ++ [NL] ++ f_before f ++
    PropPrint.glossary_text (gf_text (f_format f)) verbose_of (map e_hdr tab) ++ f_after f = usage ->
  0 <= gf_len (f_format f) <= 1000 -> zlen usage <= 1000000 -> zlen tab <= 1000 -> help_fits f tab.
Proof.
  intros Tx Sh Hu Hg Hl Ht. rewrite <- Hu in Hl. rewrite !zlen_app in Hl. unfold help_fits, small. rewrite !zlen_app.
  assert (Tx' : forall hd, In hd (map e_hdr tab) -> PrintSpec.texts_ok hd) by (intros hd Hi; apply in_map_iff in Hi as (e & <- & Hi); rewrite Forall_forall in Tx; auto). rewrite Forall_forall in Sh.
  rewrite (syntax_ext PropPrint.showb brief_of), (glossary_ext _ (PropPrint.showv (lit ", ")) verbose_of).
  - assert (zlen (map e_hdr tab) = zlen tab) as -> by (unfold zlen; rewrite map_length; reflexivity).
    assert (zlen (PropPrint.described (map e_hdr tab)) <= zlen tab).
    { unfold PropPrint.described, zlen. rewrite <- (map_length e_hdr tab). apply Nat2Z.inj_le. generalize (map e_hdr tab). intros l. induction l as [|x l IH]; [auto|]. cbn [filter]. match goal with |- context [if ?c then _ else _] => destruct c end; cbn [List.length]; lia. }
    pose proof (zlen_nonneg (PropPrint.described (map e_hdr tab))).
    pose proof (zlen_nonneg (lit "Usage: ")). pose proof (zlen_nonneg (f_name f)). pose proof (zlen_nonneg (f_before f)). pose proof (zlen_nonneg (f_after f)). pose proof (zlen_nonneg [NL]).
    pose proof (zlen_nonneg (PropPrint.glossary_text (gf_text (f_format f)) verbose_of (map e_hdr tab))). pose proof (zlen_nonneg (PrintSpec.syntax_line brief_of (map e_hdr tab))). split; [lia|nia].
  - intros hd Hi. apply shows_short; [apply Sh; auto|]. apply (PropPrint.showv_ok (lit ", ") hd (Tx' hd Hi)). clit.
  - intros hd Hi. apply shows_short; [apply Sh; auto|]. apply (PropPrint.showb_ok hd (Tx' hd Hi)).
Qed.
(** What a program of this frame does, if the usage does not depend on anything. *)
Lemma program (f : frame) name usage ints posix legacy junk (tab : table) rest jo jc jp fuel argv h (s : gst) en a0 evs pos :
  reached ints tab -> call 20 tab en h argv a0 rest fuel -> Forall (safe_value ints) rest -> reading (map e_hdr tab) posix rest evs pos ->
  switch_at tab (f_help f) -> switch_at tab (f_version f) -> cstr (f_name f) -> PropPrint.good_format (f_format f) ->
  Forall (fun e => PrintSpec.texts_ok (e_hdr e)) tab -> Forall (fun e => PrintSpec.counts_ok (e_hdr e)) tab -> Forall (fun e => date_ok strftime (sigof (e_body e))) tab ->
  help_fits f tab -> arguments_fit f tab rest -> able f (zlen (a0 :: rest)) tab posix rest ->
  f_name f = lit name -> Forall short_texts (map e_hdr tab) ->
  lit "Usage: " ++ f_name f ++ PrintSpec.syntax_line brief_of (map e_hdr tab) ++ [NL] ++ f_before f ++
    PropPrint.glossary_text (gf_text (f_format f)) verbose_of (map e_hdr tab) ++ f_after f = usage ->
  exists o, main f tab en junk legacy posix jo jc jp fuel (zlen (a0 :: rest)) argv h s = Ok o /\ clean o /\
    (occurrences (f_help f) evs <> [] -> o_text o = usage /\ o_code o = 0) /\
    (occurrences (f_help f) evs = [] -> occurrences (f_version f) evs <> [] -> o_text o = version_text f /\ o_code o = 0) /\
    (occurrences (f_help f) evs = [] -> occurrences (f_version f) evs = [] ->
      (exists os runs tab', evs = evs_of os /\ spells (map e_hdr tab) posix rest os pos /\ shared tab os pos runs /\ valued tab os runs tab' /\
        f_work f (zlen (a0 :: rest)) tab' = Ok (o_text o, o_code o)) \/
      ((forall os runs, evs = evs_of os -> ~ shared tab os pos runs) /\ complains name (o_text o) /\ o_code o = 1)).
Proof.
  intros Ht Hc Hv Hrd Sh Sv Cn Gf Tx Ct Dt Hf Fe Ha Hn Hs Hu.
  destruct (C79_frame f ints posix legacy junk tab rest jo jc jp fuel argv h s en a0 Ht Hc Hv (ex_intro _ evs (ex_intro _ pos Hrd)) Sh Sv Cn Gf Tx Ct Dt Hf Fe Ha) as (o & Eo & B & Cl).
  exists o. split; [exact Eo|]. split; [exact Cl|]. remember (o_text o) as out eqn:E1. remember (o_code o) as code eqn:E2.
  destruct B as [evs' pos' show show' R H1 S1 S2|evs' pos' R H1 H2|evs' pos' held errs msgs R H1 H2 Hr He M|os pos' runs tab' out code Hsp H1 H2 Hsh Hval Hw].
  - destruct (C61_reading_one_way _ _ _ _ _ _ _ Hrd R) as [<- <-]. split; [intros _|split; [congruence|intros; congruence]]. split; [|reflexivity]. rewrite <- Hu.
    rewrite Forall_forall in Hs. repeat (f_equal; []). rewrite (syntax_ext show brief_of), (glossary_ext _ show' verbose_of); [reflexivity| |].
    + intros hd Hi. apply shows_short; [apply Hs; auto|apply S2; auto].
    + intros hd Hi. apply shows_short; [apply Hs; auto|apply S1; auto].
  - destruct (C61_reading_one_way _ _ _ _ _ _ _ Hrd R) as [<- <-]. split; [congruence|]. split; [auto|]. intros; congruence.
  - destruct (C61_reading_one_way _ _ _ _ _ _ _ Hrd R) as [<- <-]. split; [congruence|]. split; [congruence|]. intros _ _. right. split; [|split; [|reflexivity]].
    + intros os runs -> Hsh. apply He. eapply (shared_no_errors ints posix tab rest jo jc jp fuel argv h s en a0 os pos runs); eauto. apply spells_iff. apply reading_iff. exact Hrd.
    + eapply errors_complain; eauto.
  - assert (R : reading (map e_hdr tab) posix rest (evs_of os) pos') by (apply reading_iff, spells_iff; exact Hsp).
    destruct (C61_reading_one_way _ _ _ _ _ _ _ Hrd R) as [-> <-]. rewrite !given_evs. split; [congruence|]. split; [congruence|]. intros _ _. left. exists os, runs, tab'. auto.
Qed.
(** Values that each stand for something are acceptable. *)
Lemma stored_each (b : body D) : (forall n, b <> KLit n) -> forall ss l0, (List.length ss <= List.length l0)%nat -> (forall s v0, In s ss -> exists v, denotes strtod rexmatch lm sp b v0 s v) ->
  exists l, stored b l0 (map Some ss) l.
Proof.
  intros Hb. assert (Hm : forall l0 l : list (@value D), match b with KLit _ => l = l0 | _ => True end) by (intros; destruct b as [n| | | | | | |]; auto; exfalso; eapply Hb; reflexivity).
  induction ss as [|s ss IH]; intros l0 Hl He.
  - exists l0. split; [apply Hm|]. intros [|k]; reflexivity.
  - destruct l0 as [|v0 l0]; [cbn in Hl; lia|]. destruct (He s v0 (or_introl eq_refl)) as (v & Hv). destruct (IH l0) as (l & _ & H); [cbn in Hl; lia|intros x w Hx; apply He; right; auto|].
    exists (v :: l). split; [apply Hm|]. intros [|k]; cbn [map nth_error].
    + destruct b as [n| | | | | | |]; try (exists v0, v; split; [reflexivity|split; [reflexivity|exact Hv]]). exfalso. eapply Hb; reflexivity.
    + exact (H k).
Qed.
Definition run_last (n : nat) (pos : list str) : list (list str) := repeat [] n ++ [pos].
(** Options come before the one entry for positional arguments: there is one way to share these out. *)
Lemma shared_last (front : table) (last : entry (body D)) os pos runs : Forall (fun e => ~ no_options (e_hdr e)) front -> shared (front ++ [last]) os pos runs -> runs = run_last (List.length front) pos.
Proof.
  intros Hf (E & L & H). assert (Hr : forall i run, nth_error runs i = Some run -> (i < List.length front)%nat -> run = []).
  { intros i run Hi Hl. destruct (nth_error front i) as [e|] eqn:Ee; [|apply nth_error_None in Ee; lia].
    destruct (H i e run) as (H1 & _); auto; [rewrite nth_error_app1; auto|]. destruct run; auto. exfalso. rewrite Forall_forall in Hf. apply (Hf e); [eapply nth_error_In; eauto|]. apply H1. discriminate. }
  assert (G : forall n (rs : list (list str)), List.length rs = S n -> (forall i run, nth_error rs i = Some run -> (i < n)%nat -> run = []) -> rs = run_last n (List.concat rs)).
  { induction n as [|n IH]; intros rs Ln Hrs.
    - destruct rs as [|r [|]]; try discriminate. cbn. rewrite app_nil_r. reflexivity.
    - destruct rs as [|r rs]; [discriminate|]. rewrite (Hrs 0%nat r eq_refl) by lia. cbn [List.concat app run_last repeat]. f_equal. apply IH; [cbn in Ln; lia|]. intros i run Hi Hlt. apply (Hrs (S i)); [exact Hi|lia]. }
  rewrite E. apply G; auto. rewrite L, app_length. cbn. lia.
Qed.
Lemma shared_front (front : table) last os pos : Forall (fun e => ~ no_options (e_hdr e)) front ->
  (shared (front ++ [last]) os pos (run_last (List.length front) pos) <->
   (forall i e, nth_error front i = Some e -> satisfied strtod rexmatch lm sp e (given_to i os)) /\
   (pos <> [] -> no_options (e_hdr last) /\ kcount (e_body last) <> None) /\
   satisfied strtod rexmatch lm sp last (given_to (List.length front) os ++ map Some pos)).
Proof.
  intros Hf. set (n := List.length front).
  assert (Hi : forall i, (i < n)%nat -> nth_error (run_last n pos) i = Some []).
  { intros i Hlt. unfold run_last. rewrite nth_error_app1 by (rewrite repeat_length; auto). destruct (nth_error (repeat [] n) i) as [r|] eqn:E; [|apply nth_error_None in E; rewrite repeat_length in E; lia].
    apply nth_error_In, repeat_spec in E. congruence. }
  assert (Hn : nth_error (run_last n pos) n = Some pos) by (unfold run_last; rewrite nth_error_app2, repeat_length, Nat.sub_diag by (rewrite repeat_length; auto); reflexivity).
  assert (Hl : nth_error (front ++ [last]) n = Some last) by (rewrite nth_error_app2, Nat.sub_diag by auto; reflexivity).
  split.
  - intros (_ & _ & H). split; [|split].
    + intros i e He. assert ((i < n)%nat) by (apply nth_error_Some; congruence). destruct (H i e []) as (_ & K & _); [rewrite nth_error_app1; auto|auto|]. cbn [map] in K. rewrite app_nil_r in K. exact K.
    + exact (proj1 (H n last pos Hl Hn)).
    + exact (proj1 (proj2 (H n last pos Hl Hn))).
  - intros (H1 & H2 & H3). split; [|split].
    + unfold run_last. rewrite concat_app. cbn. rewrite app_nil_r. assert (List.concat (repeat (@nil str) n) = []) as -> by (generalize n; intros k; induction k; auto). reflexivity.
    + unfold run_last. rewrite !app_length, repeat_length. reflexivity.
    + intros i e run He Hr. cbv zeta. destruct (Nat.lt_ge_cases i n) as [Hlt|Hge].
      * rewrite (Hi i Hlt) in Hr. injection Hr as <-. rewrite nth_error_app1 in He by auto. cbn [map]. rewrite app_nil_r. split; [congruence|]. split; [apply H1; auto|].
        intros Hno. exfalso. rewrite Forall_forall in Hf. apply (Hf e); [eapply nth_error_In; eauto|auto].
      * assert (i = n) as -> by (assert ((i < List.length (front ++ [last]))%nat) by (apply nth_error_Some; congruence); rewrite app_length in *; cbn in *; lia).
        rewrite Hl in He. injection He as <-. rewrite Hn in Hr. injection Hr as <-. split; [auto|]. split; [auto|]. intros _ a Ha. exfalso.
        assert (E : skipn (S n) (run_last n pos) = []) by (apply skipn_all2; unfold run_last; rewrite app_length, repeat_length; cbn; lia). rewrite E in Ha. discriminate.
Qed.

(** *** Echo *)
Lemma cluster_reading_shorter t a cs rest evs rest' : cluster_reading t a cs rest evs rest' -> (List.length rest' <= List.length rest)%nat.
Proof. induction 1; cbn; try lia. match goal with K : long_reading _ _ _ _ _ _ |- _ => destruct K; cbn; lia end. Qed.
Lemma reading_shorter t posix rest evs pos : reading t posix rest evs pos -> (List.length pos <= List.length rest)%nat.
Proof.
  induction 1; cbn; try lia. match goal with K : cluster_reading _ _ _ _ _ _ |- _ => apply cluster_reading_shorter in K end. lia.
Qed.
Lemma lit0_satisfied so lo gl given : satisfied strtod rexmatch lm sp (arg_lit0 so lo gl) given <-> zlen given <= 1.
Proof.
  unfold satisfied. split; [intros H; apply H; discriminate|]. intros H _. split; [cbn; pose proof (zlen_nonneg given); lia|]. eapply lit_acceptable. reflexivity.
Qed.
Lemma strs_satisfied so lo dt mx gl ss : 0 <= mx -> zlen ss <= mx -> satisfied strtod rexmatch lm sp (arg_strn so lo dt 0 mx gl) (map Some ss).
Proof.
  intros Hm Hl _. assert (F : foolproof 0 mx = mx) by (unfold foolproof; destruct (Z.ltb_spec mx 0); lia). split.
  - cbn. rewrite F. unfold zlen in *. rewrite map_length. lia.
  - unfold acceptable. cbn [arg_strn mkentry e_body slots_reset str_count]. apply stored_each; [discriminate| |].
    + rewrite F. cbn [Z.to_nat repeat app skipn str_sval]. unfold filled, zlen in *. rewrite map_length, repeat_length. lia.
    + intros s v0 _. exists (VText s). reflexivity.
Qed.
Lemma not_mistaken n evs : ~ mistaken n evs <-> (exists os, evs = evs_of os) /\ forall i, (i < n)%nat -> zlen (occurrences i evs) <= 1.
Proof.
  split.
  - intros H. split; [apply no_mistake; intros c v Hc; apply H; left; eauto|]. intros i Hi. destruct (Z.le_gt_cases (zlen (occurrences i evs)) 1); auto. exfalso. apply H. right. exists i. split; [auto|lia].
  - intros ((os & ->) & H) [(c & v & Hc)|(i & Hi & Hz)].
    + unfold evs_of in Hc. apply in_map_iff in Hc as (x & Hx & _). discriminate.
    + specialize (H i Hi). lia.
Qed.
Lemma evs_of_inj : forall os os', evs_of os = evs_of os' -> os = os'.
Proof. induction os as [|[i v] os IH]; intros [|[j w] os'] H; try discriminate; auto. cbn in H. injection H as -> -> H. f_equal. apply IH. exact H. Qed.

Definition echo_front : table := firstn 5 (echo_table 0).
Lemma echo_split argc : echo_table argc = echo_front ++ [arg_strn None None (Some (lit "STRING")) 0 (argc + 2) None].
Proof. reflexivity. Qed.
Lemma echo_front_options : Forall (fun e => ~ no_options (e_hdr e)) echo_front.
Proof. repeat (apply Forall_cons; [intros [K1 K2]; discriminate|]). constructor. Qed.
Lemma echo_shared posix rest os pos argc : argc = Z.succ (zlen rest) -> spells (map e_hdr (echo_table (D := D) argc)) posix rest os pos ->
  ((exists runs, shared (echo_table argc) os pos runs) <-> forall i, (i < 5)%nat -> zlen (given_to i os) <= 1).
Proof.
  intros Ha Hs. assert (Hr : reading (map e_hdr (echo_table (D := D) argc)) posix rest (evs_of os) pos) by (apply reading_iff, spells_iff; exact Hs).
  apply reading_shorter in Hr. assert (H5 : given_to 5 os = []) by (eapply (given_none (echo_table argc)); [exact Hs|reflexivity|split; reflexivity]).
  rewrite echo_split in *. split.
  - intros (runs & H). pose proof (shared_last _ _ _ _ _ echo_front_options H) as ->. apply (shared_front _ _ _ _ echo_front_options) in H as (H & _).
    intros i Hi. do 5 (destruct i as [|i]; [match goal with |- zlen (given_to ?k _) <= _ => pose proof (H k _ eq_refl) as K; exact (proj1 (lit0_satisfied _ _ _ _) K) end|]). lia.
  - intros H. exists (run_last (List.length echo_front) pos). apply (shared_front _ _ _ _ echo_front_options). split; [|split].
    + intros i e He. assert ((i < 5)%nat) by (change 5%nat with (List.length echo_front); apply nth_error_Some; congruence). do 5 (destruct i as [|i]; [injection He as <-; apply lit0_satisfied; apply H; lia|]). lia.
    + intros _. split; [split; reflexivity|discriminate].
    + change (List.length echo_front) with 5%nat. rewrite H5. cbn [app]. apply strs_satisfied; unfold zlen in *; lia.
Qed.
Lemma yes_given (l : list (option str)) : yes_no (zlen (l ++ map Some [])) = yes l.
Proof. cbn [map]. rewrite app_nil_r. destruct l as [|x l]; [reflexivity|]. unfold yes_no. rewrite zlen_cons. pose proof (zlen_nonneg l). destruct (Z.eqb_spec (zlen l + 1) 0); [lia|]. destruct (Z.eqb_spec (1 + zlen l) 0); [lia|]. reflexivity. Qed.
Lemma echo_works posix rest os pos argc runs tab' : spells (map e_hdr (echo_table (D := D) argc)) posix rest os pos -> shared (echo_table argc) os pos runs -> valued (echo_table argc) os runs tab' ->
  echo_work argc tab' = Ok (echo_prints (evs_of os) pos, 0).
Proof.
  intros Hs Hsh Hv. assert (H5 : given_to 5 os = []) by (eapply (given_none (echo_table argc)); [exact Hs|reflexivity|split; reflexivity]).
  assert (runs = run_last 5 pos) as -> by (rewrite echo_split in Hsh; exact (shared_last _ _ _ _ _ echo_front_options Hsh)).
  unfold echo_work. do 3 (erewrite (valued_count _ _ _ _ _ _ _ Hv) by (reflexivity || discriminate); cbn [bind]).
  erewrite (valued_count _ _ _ _ 5 _ _ Hv) by (reflexivity || discriminate). cbn [bind]. rewrite H5. cbn [app].
  assert (zlen (map Some pos) = zlen pos) as -> by (unfold zlen; rewrite map_length; reflexivity).
  erewrite (valued_texts _ _ _ _ 5 _ _ pos Hv) by (reflexivity || exact I || (rewrite H5; reflexivity)). cbn [bind]. rewrite !yes_given. unfold echo_prints. rewrite !given_evs. reflexivity.
Qed.

Lemma literal (x : option str) : forallb (fun c => negb (ceqb c NUL)) (orempty x) = true -> PrintSpec.ocstr x.
Proof.
  intros H. destruct x as [x|]; [|exact I]. intros K. rewrite forallb_forall in H. specialize (H _ K). rewrite ceqb_refl in H. discriminate.
Qed.
Ltac texts_clit := repeat (apply Forall_cons; [repeat split; apply literal; vm_compute; reflexivity|]); constructor.
Lemma counts_small (e : entry (body D)) : 0 <= h_mincount (e_hdr e) <= h_maxcount (e_hdr e) -> h_maxcount (e_hdr e) <= INT_MAX -> PrintSpec.counts_ok (e_hdr e).
Proof. split; auto. Qed.
Ltac counts_tac := repeat (apply Forall_cons; [apply counts_small; cbn [h_mincount h_maxcount e_hdr arg_lit0 arg_int0 arg_file0 arg_litn arg_strn arg_intn arg_filen mkentry mkhdr];
  unfold foolproof, INT_MAX in *; repeat match goal with |- context [?a <? ?b] => destruct (Z.ltb_spec a b) end; lia|]); constructor.
(** The theorem for echo. [evs] and [pos] are what the arguments read as: see C61. *)
Theorem C79_echo : forall posix legacy junk rest jo jc jp fuel argv h s en a0 evs pos,
  let argc := zlen (a0 :: rest) in
  call 20 (echo_table (D := D) argc) en h argv a0 rest fuel -> argc + 2 <= INT_MAX -> (forall a, In a rest -> zlen a <= 20000000) ->
  reading (map e_hdr (echo_table (D := D) argc)) posix rest evs pos ->
  exists o, main echo (echo_table argc) en junk legacy posix jo jc jp fuel argc argv h s = Ok o /\ clean o /\
    (occurrences 3 evs <> [] -> o_text o = echo_usage /\ o_code o = 0) /\
    (occurrences 3 evs = [] -> occurrences 4 evs <> [] -> o_text o = version_text (@echo D) /\ o_code o = 0) /\
    (occurrences 3 evs = [] -> occurrences 4 evs = [] -> mistaken 5 evs -> complains "echo" (o_text o) /\ o_code o = 1) /\
    (occurrences 3 evs = [] -> occurrences 4 evs = [] -> ~ mistaken 5 evs -> o_text o = echo_prints evs pos /\ o_code o = 0).
Proof.
  intros posix legacy junk rest jo jc jp fuel argv h s en a0 evs pos argc Hc Hm Hl Hrd.
  assert (Ha : argc = Z.succ (zlen rest)) by (unfold argc; rewrite zlen_cons; lia). assert (Hp : 0 < argc) by (pose proof (zlen_nonneg rest); lia).
  destruct (program echo "echo" echo_usage false posix legacy junk (echo_table argc) rest jo jc jp fuel argv h s en a0 evs pos) as (o & Eo & Cl & H1 & H2 & H3); auto.
  - apply echo_reached. lia.
  - eapply Forall_impl; [|exact (c_args _ _ _ _ _ _ _ _ Hc)]. intros a Ca. split; [exact Ca|discriminate].
  - do 2 eexists. repeat split; try reflexivity. intros [K1 K2]; discriminate.
  - do 2 eexists. repeat split; try reflexivity. intros [K1 K2]; discriminate.
  - apply (literal (Some _)). vm_compute. reflexivity.
  - apply columns_good.
  - texts_clit.
  - counts_tac.
  - repeat (apply Forall_cons; [exact I|]). constructor.
  - apply (usage_fits echo (echo_table argc) echo_usage); [texts_clit|apply echo_short|apply echo_usage_ok; lia|cbn; lia|vm_compute; discriminate|vm_compute; discriminate].
  - split; [vm_compute; discriminate|]. split; [exact Hl|]. intros hd fmt x Hi. repeat (destruct Hi as [K|Hi]; [discriminate|]). contradiction.
  - intros os pos' runs tab' S1 _ _ S2 S3. do 2 eexists. exact (echo_works posix rest os pos' argc runs tab' S1 S2 S3).
  - apply echo_short.
  - apply echo_usage_ok. lia.
  - exists o. split; [exact Eo|]. split; [exact Cl|]. split; [exact H1|]. split; [exact H2|]. cbn [f_help f_version echo] in H3. split; intros E3 E4 Hx; destruct (H3 E3 E4) as [(os & runs & tab' & -> & Hs & Hsh & Hv & Hw)|(Hn & Hcm & Hcd)].
    + exfalso. revert Hx. apply not_mistaken. split; [eauto|]. intros i Hi. rewrite given_evs. revert i Hi. apply (echo_shared posix rest os pos argc Ha Hs). eauto.
    + auto.
    + cbn [f_work echo] in Hw. fold argc in Hw. rewrite (echo_works posix rest os pos argc runs tab' Hs Hsh Hv) in Hw. injection Hw as <- <-. auto.
    + exfalso. apply not_mistaken in Hx as ((os & ->) & Hx).
      assert (Hs : spells (map e_hdr (echo_table (D := D) argc)) posix rest os pos) by (apply spells_iff, reading_iff; exact Hrd).
      destruct (proj2 (echo_shared posix rest os pos argc Ha Hs)) as (runs & Hsh); [intros i Hi; rewrite <- given_evs; auto|]. exact (Hn os runs eq_refl Hsh).
Qed.

(** *** Uname *)
Lemma shared_options (tab : table) os pos runs : Forall (fun e => ~ no_options (e_hdr e)) tab -> shared tab os pos runs -> pos = [] /\ runs = repeat [] (List.length tab).
Proof.
  intros Hf (E & L & H). assert (Hr : forall run, In run runs -> run = []).
  { intros run Hi. apply In_nth_error in Hi as (i & Hi). assert ((i < List.length tab)%nat) by (rewrite <- L; apply nth_error_Some; congruence).
    destruct (nth_error tab i) as [e|] eqn:Ee; [|apply nth_error_None in Ee; lia]. destruct (H i e run Ee Hi) as (H1 & _). destruct run; auto. exfalso. rewrite Forall_forall in Hf. apply (Hf e); [eapply nth_error_In; eauto|].
    apply H1. discriminate. }
  assert (R : runs = repeat [] (List.length tab)).
  { rewrite <- L. clear E L H. induction runs as [|r rs IH]; [reflexivity|]. cbn. rewrite (Hr r) by (left; auto). f_equal. apply IH. intros x Hx. apply Hr. right. auto. }
  split; [|exact R]. rewrite E, R. generalize (List.length tab). intros k. induction k; auto.
Qed.
Lemma options_shared (tab : table) os : Forall (fun e => ~ no_options (e_hdr e)) tab -> (forall i e, nth_error tab i = Some e -> satisfied strtod rexmatch lm sp e (given_to i os)) ->
  shared tab os [] (repeat [] (List.length tab)).
Proof.
  intros Hf Hs. split; [|split].
  - generalize (List.length tab). intros k. induction k; auto.
  - apply repeat_length.
  - intros i e run He Hr. apply nth_error_In in Hr as Hr'. apply repeat_spec in Hr'. subst run. cbv zeta. cbn [map]. rewrite app_nil_r. split; [congruence|]. split; [auto|].
    intros Hno. exfalso. rewrite Forall_forall in Hf. apply (Hf e); [eapply nth_error_In; eauto|auto].
Qed.
Definition uname_fields : list (nat * string) :=
  [(1, "Linux "); (2, "localhost.localdomain "); (3, "2.4.19-16 "); (4, "#1 Fri Sep 20 18:15:05 CEST 2002 "); (5, "i686 "); (6, "Intel "); (7, "unknown "); (8, "GNU/Linux ")]%nat%string.
Definition given_b (i : nat) (evs : list event) : bool := match occurrences i evs with [] => false | _ => true end.
(** Without arguments, the second field. Otherwise the fields that are asked for, or all with -a. *)
Definition uname_prints (rest : list str) (evs : list event) : str :=
  match rest with
  | [] => ln "localhost.localdomain "
  | _ => flat_map (fun x : nat * string => if given_b 0 evs || given_b (fst x) evs then lit (snd x) else []) uname_fields ++ [NL]
  end.
Definition uname_usage : str :=
  ln "Usage: uname [-asnrvmpio] [--help] [--version]" ++
  ln "Print certain system information.  With no options, same as -s." ++ [NL] ++
  ln "  -a, --all                 print all information, in the following order:" ++
  ln "  -s, --kernel-name         print the kernel name" ++
  ln "  -n, --nodename            print the node name" ++
  ln "  -r, --kernel-release      print the kernel release" ++
  ln "  -v, --kernel-version      print the kernel version" ++
  ln "  -m, --machine             print the machine hardware name" ++
  ln "  -p, --processor           print the processor type" ++
  ln "  -i, --hardware-platform   print the hardware platform" ++
  ln "  -o, --operating-system    print the operating system" ++
  ln "  --help                    print this help and exit" ++
  ln "  --version                 print version information and exit" ++ [NL] ++
  ln "Report bugs to <foo@bar>.".
Lemma uname_reached : reached false (uname_table (D := D)).
Proof. apply reached_new. repeat (apply Forall_cons; [made_one|]). constructor. Qed.
Lemma uname_options : Forall (fun e => ~ no_options (e_hdr e)) (uname_table (D := D)).
Proof. repeat (apply Forall_cons; [intros [K1 K2]; discriminate|]). constructor. Qed.
Lemma uname_short : Forall short_texts (map e_hdr (uname_table (D := D))).
Proof. repeat (apply Forall_cons; [split; vm_compute; discriminate|]). constructor. Qed.
Lemma uname_usage_ok : lit "Usage: " ++ f_name (@uname D) ++ PrintSpec.syntax_line brief_of (map e_hdr (uname_table (D := D))) ++ [NL] ++ f_before (@uname D) ++
    PropPrint.glossary_text (gf_text (f_format (@uname D))) verbose_of (map e_hdr (uname_table (D := D))) ++ f_after (@uname D) = uname_usage.
Proof. vm_compute. reflexivity. Qed.
Lemma uname_shared os pos : (exists runs, shared uname_table os pos runs) <-> pos = [] /\ forall i, (i < 11)%nat -> zlen (given_to i os) <= 1.
Proof.
  split.
  - intros (runs & H). destruct (shared_options _ _ _ _ uname_options H) as (-> & ->). split; [reflexivity|]. destruct H as (_ & _ & H).
    intros i Hi. do 11 (destruct i as [|i]; [match goal with |- zlen (given_to ?k _) <= _ => destruct (H k _ [] eq_refl eq_refl) as (_ & K & _); cbn [map] in K; rewrite app_nil_r in K; exact (proj1 (lit0_satisfied _ _ _ _) K) end|]). lia.
  - intros (-> & H). exists (repeat [] (List.length (uname_table (D := D)))). apply options_shared; [apply uname_options|].
    intros i e He. assert ((i < 11)%nat) by (change 11%nat with (List.length (uname_table (D := D))); apply nth_error_Some; congruence). do 11 (destruct i as [|i]; [injection He as <-; apply lit0_satisfied; apply H; lia|]). lia.
Qed.
Lemma when_given i os x : when (zlen (given_to i os ++ map Some [])) x = if given_b i (evs_of os) then x else [].
Proof.
  cbn [map]. rewrite app_nil_r. unfold given_b, when. rewrite given_evs. destruct (given_to i os) as [|v l]; [reflexivity|]. rewrite zlen_cons. pose proof (zlen_nonneg l).
  match goal with |- context [?a =? 0] => destruct (Z.eqb_spec a 0) end; [lia|reflexivity].
Qed.
Lemma uname_works posix a0 rest os pos runs tab' : spells (map e_hdr (uname_table (D := D))) posix rest os pos -> shared uname_table os pos runs -> valued uname_table os runs tab' ->
  uname_work (zlen (a0 :: rest)) tab' = Ok (uname_prints rest (evs_of os), 0).
Proof.
  intros Hs Hsh Hv. destruct (shared_options _ _ _ _ uname_options Hsh) as (_ & ->). unfold uname_work, uname_prints.
  destruct rest as [|a rest]; [reflexivity|]. destruct (Z.eqb_spec (zlen (a0 :: a :: rest)) 1) as [K|_]; [rewrite !zlen_cons in K; pose proof (zlen_nonneg rest); lia|].
  erewrite (valued_count _ _ _ _ 0 _ _ Hv) by (reflexivity || discriminate). cbn [bind]. unfold given_b at 1. rewrite given_evs. cbn [map]. rewrite app_nil_r.
  destruct (given_to 0 os) as [|v l] eqn:E0.
  - change (0 <? zlen []) with false. cbv iota. do 8 (erewrite (valued_count _ _ _ _ _ _ _ Hv) by (reflexivity || discriminate); cbn [bind]).
    unfold uname_mymain. rewrite !when_given. cbn [uname_fields flat_map fst snd orb]. rewrite app_nil_r, <- !app_assoc. reflexivity.
  - rewrite zlen_cons. pose proof (zlen_nonneg l). match goal with |- context [0 <? ?x] => destruct (Z.ltb_spec 0 x) end; [|lia]. vm_compute. reflexivity.
Qed.
Theorem C79_uname : forall posix legacy junk rest jo jc jp fuel argv h s en a0 evs pos,
  call 20 (uname_table (D := D)) en h argv a0 rest fuel -> (forall a, In a rest -> zlen a <= 20000000) ->
  reading (map e_hdr (uname_table (D := D))) posix rest evs pos ->
  exists o, main uname uname_table en junk legacy posix jo jc jp fuel (zlen (a0 :: rest)) argv h s = Ok o /\ clean o /\
    (occurrences 9 evs <> [] -> o_text o = uname_usage /\ o_code o = 0) /\
    (occurrences 9 evs = [] -> occurrences 10 evs <> [] -> o_text o = version_text (@uname D) /\ o_code o = 0) /\
    (occurrences 9 evs = [] -> occurrences 10 evs = [] -> mistaken 11 evs \/ pos <> [] -> complains "uname" (o_text o) /\ o_code o = 1) /\
    (occurrences 9 evs = [] -> occurrences 10 evs = [] -> ~ mistaken 11 evs -> pos = [] -> o_text o = uname_prints rest evs /\ o_code o = 0).
Proof.
  intros posix legacy junk rest jo jc jp fuel argv h s en a0 evs pos Hc Hl Hrd.
  destruct (program uname "uname" uname_usage false posix legacy junk uname_table rest jo jc jp fuel argv h s en a0 evs pos) as (o & Eo & Cl & H1 & H2 & H3); auto.
  - exact uname_reached.
  - eapply Forall_impl; [|exact (c_args _ _ _ _ _ _ _ _ Hc)]. intros a Ca. split; [exact Ca|discriminate].
  - do 2 eexists. repeat split; try reflexivity. intros [K1 K2]; discriminate.
  - do 2 eexists. repeat split; try reflexivity. intros [K1 K2]; discriminate.
  - apply (literal (Some _)). vm_compute. reflexivity.
  - apply columns_good.
  - texts_clit.
  - counts_tac.
  - repeat (apply Forall_cons; [exact I|]). constructor.
  - apply (usage_fits uname uname_table uname_usage); [texts_clit|apply uname_short|apply uname_usage_ok|cbn; lia|vm_compute; discriminate|vm_compute; discriminate].
  - split; [vm_compute; discriminate|]. split; [exact Hl|]. intros hd fmt x Hi. repeat (destruct Hi as [K|Hi]; [discriminate|]). contradiction.
  - intros os pos' runs tab' S1 _ _ S2 S3. do 2 eexists. exact (uname_works posix a0 rest os pos' runs tab' S1 S2 S3).
  - apply uname_short.
  - exists o. split; [exact Eo|]. split; [exact Cl|]. split; [exact H1|]. split; [exact H2|]. cbn [f_help f_version uname] in H3. split; intros E3 E4 Hx; destruct (H3 E3 E4) as [(os & runs & tab' & -> & Hs & Hsh & Hv & Hw)|(Hn & Hcm & Hcd)].
    + exfalso. destruct (proj1 (uname_shared os pos) (ex_intro _ runs Hsh)) as (-> & Hg). destruct Hx as [Hx|Hx]; [|congruence].
      revert Hx. apply not_mistaken. split; [eauto|]. intros i Hi. rewrite given_evs. auto.
    + auto.
    + cbn [f_work uname] in Hw. rewrite (uname_works posix a0 rest os pos runs tab' Hs Hsh Hv) in Hw. injection Hw as <- <-. auto.
    + intros ->. exfalso. apply not_mistaken in Hx as ((os & ->) & Hx).
      destruct (proj2 (uname_shared os [])) as (runs & Hsh); [split; [reflexivity|intros i Hi; rewrite <- given_evs; auto]|]. exact (Hn os runs eq_refl Hsh).
Qed.

(** Its help says that without options it does the same as with -s. It does not: it prints the name of the node, not that of the
    kernel; and if the only argument is two dashes, nothing. *)
Theorem C79_uname_no_options_refuted : forall posix legacy junk jo jc jp fuel argv h s en a0 argv' h' s' en' argv2 h2 s2 en2,
  call 20 (uname_table (D := D)) en h argv a0 [] fuel -> call 20 (uname_table (D := D)) en' h' argv' a0 [lit "-s"] fuel -> call 20 (uname_table (D := D)) en2 h2 argv2 a0 [lit "--"] fuel ->
  exists o o' o2, main uname uname_table en junk legacy posix jo jc jp fuel 1 argv h s = Ok o /\ main uname uname_table en' junk legacy posix jo jc jp fuel 2 argv' h' s' = Ok o' /\
    main uname uname_table en2 junk legacy posix jo jc jp fuel 2 argv2 h2 s2 = Ok o2 /\
    o_text o = ln "localhost.localdomain " /\ o_text o' = ln "Linux " /\ o_text o2 = ln "".
Proof.
  intros posix legacy junk jo jc jp fuel argv h s en a0 argv' h' s' en' argv2 h2 s2 en2 Hc Hc' Hc2.
  assert (R1 : reading (map e_hdr (uname_table (D := D))) posix [] [] []) by constructor.
  assert (R2 : reading (map e_hdr (uname_table (D := D))) posix [lit "-s"] [EvScan 1 None] []) by (apply reading_iff; destruct posix; vm_compute; reflexivity).
  assert (R3 : reading (map e_hdr (uname_table (D := D))) posix [lit "--"] [] []) by constructor.
  assert (M : forall evs, (forall c v, ~ In (EvErr c v) evs) -> (forall i, zlen (occurrences i evs) <= 1) -> ~ mistaken 11 evs) by (intros evs H1 H2 [(c & v & K)|(i & _ & K)]; [eapply H1; eauto|specialize (H2 i); lia]).
  destruct (C79_uname posix legacy junk _ jo jc jp fuel argv h s en a0 _ _ Hc ltac:(intros ? []) R1) as (o & Eo & _ & _ & _ & _ & H1).
  destruct (C79_uname posix legacy junk _ jo jc jp fuel argv' h' s' en' a0 _ _ Hc' ltac:(intros ? [<-|[]]; vm_compute; discriminate) R2) as (o' & Eo' & _ & _ & _ & _ & H2).
  destruct (C79_uname posix legacy junk _ jo jc jp fuel argv2 h2 s2 en2 a0 _ _ Hc2 ltac:(intros ? [<-|[]]; vm_compute; discriminate) R3) as (o2 & Eo2 & _ & _ & _ & _ & H3).
  exists o, o', o2. split; [exact Eo|]. split; [exact Eo'|]. split; [exact Eo2|].
  split; [apply H1; auto; apply M; [intros ? ? []|intros i; cbn; lia]|]. split.
  - apply H2; auto. apply M; [intros ? ? [K|[]]; discriminate|]. intros i. unfold occurrences. cbn [flat_map]. destruct (Nat.eqb 1 i); cbn; lia.
  - apply H3; auto. apply M; [intros ? ? []|intros i; cbn; lia].
Qed.

(** *** Myprog *)
(** The texts that entry [i] is given. *)
Definition texts (i : nat) (evs : list event) : list str := flat_map (fun v => match v with Some s => [s] | None => [] end) (occurrences i evs).
Definition myprog_right (evs : list event) (pos : list str) : Prop :=
  ~ (exists c v, In (EvErr c v) evs) /\ (forall i, In i [0; 1; 2; 4; 5; 6; 7]%nat -> zlen (occurrences i evs) <= 1) /\
  (forall x, In x (texts 2 evs) -> exists n, int_literal x n /\ int_range n) /\ pos <> [].
(** The value of -k, and the name of the output file. *)
Definition scalar (evs : list event) (k : Z) : Prop := match texts 2 evs with [] => k = 3 | x :: _ => int_literal x k /\ int_range k end.
Definition output (evs : list event) : str := match texts 4 evs with [] => lit "-" | x :: _ => x end.
Definition if_given (i : nat) (evs : list event) (x : string) : str := if given_b i evs then ln x else [].
Fixpoint listed (k : Z) (l : list str) : str :=
  match l with [] => [] | x :: l => lit "infile[" ++ PropConvey.decimal k ++ lit "]=""" ++ x ++ ln """" ++ listed (k + 1) l end.
Definition myprog_prints (evs : list event) (pos : list str) (out : str) : Prop :=
  exists k, scalar evs k /\
  out = if_given 0 evs "list files (-l)" ++ if_given 1 evs "recurse through directories (-R)" ++ if_given 5 evs "verbose is enabled (-v)" ++
        lit "scalar k=" ++ PropConvey.decimal k ++ [NL] ++ lit "output is """ ++ output evs ++ ln """" ++
        flat_map (fun d => lit "user defined macro """ ++ d ++ ln """") (texts 3 evs) ++ listed 0 pos.
Definition myprog_usage : str :=
  ln "Usage: myprog [-lRv] [-k <int>] [-D MACRO]... [-o <output>] [--help] [--version] <file> [<file>]..." ++
  ln "This program demonstrates the use of the argtable2 library" ++
  ln "for parsing command line arguments. Argtable accepts integers" ++
  ln "in decimal (123), hexadecimal (0xff), octal (0o123) and binary" ++
  ln "(0b101101) formats. Suffixes KB, MB and GB are also accepted." ++
  ln "  -l, -L                    list files" ++
  ln "  -R                        recurse through subdirectories" ++
  ln "  -k, --scalar=<int>        define scalar value k (default is 3)" ++
  ln "  -D, --define=MACRO        macro definitions" ++
  ln "  -o <output>               output file (default is ""-"")" ++
  ln "  -v, --verbose, --debug    verbose messages" ++
  ln "  --help                    print this help and exit" ++
  ln "  --version                 print version information and exit" ++
  ln "  <file>                    input file(s)".

Context (junkv : nat -> Z).
Definition mytable (argc : Z) : table := myprog_defaults (myprog_table junkv argc).
Lemma mytable_reached argc : 0 <= argc -> reached true (mytable argc).
Proof.
  intros Ha. apply (reached_preset _ _ _ _ _ (myprog_table junkv argc)).
  - apply reached_new. repeat (apply Forall_cons; [made_one|]). constructor.
  - unfold mytable, myprog_defaults, myprog_table. cbn [List.length seq combine map fst snd Nat.eqb orb].
    repeat (apply Forall2_cons; [repeat split|]). constructor.
Qed.
Lemma mytable_short argc : Forall short_texts (map e_hdr (mytable argc)).
Proof. repeat (apply Forall_cons; [split; vm_compute; discriminate|]). constructor. Qed.
Lemma occurrences_files argc x : 1 < argc -> PrintSpec.occurrences 1 (argc + 2) x = lit " " ++ x ++ lit " [" ++ x ++ lit "]...".
Proof.
  intros Ha. unfold PrintSpec.occurrences. change (Z.to_nat 1) with 1%nat. cbn [PrintSpec.times].
  destruct (Z.eqb_spec (argc + 2) 1); [lia|]. destruct (Z.eqb_spec (argc + 2) (1 + 1)); [lia|]. destruct (Z.eqb_spec (argc + 2) (1 + 2)); [lia|]. rewrite ?app_nil_r, <- !app_assoc. reflexivity.
Qed.
Definition myusage (argc : Z) : str :=
  lit "Usage: " ++ f_name (@myprog D) ++ PrintSpec.syntax_line brief_of (map e_hdr (mytable argc)) ++ [NL] ++ f_before (@myprog D) ++
    PropPrint.glossary_text (gf_text (f_format (@myprog D))) verbose_of (map e_hdr (mytable argc)) ++ f_after (@myprog D).
Lemma myprog_usage_ok argc : 1 < argc -> myusage argc = myprog_usage.
Proof.
  intros Ha. assert (E : PrintSpec.syntax_line brief_of (map e_hdr (mytable argc)) =
    lit " [-lRv]" ++ PrintSpec.occurrences 0 1 (lit "-k <int>") ++ PrintSpec.occurrences 0 (foolproof 0 (argc + 2)) (lit "-D MACRO") ++ PrintSpec.occurrences 0 1 (lit "-o <output>") ++
    PrintSpec.occurrences 0 1 (lit "--help") ++ PrintSpec.occurrences 0 1 (lit "--version") ++ PrintSpec.occurrences 1 (foolproof 1 (argc + 2)) (lit "<file>") ++ []).
  { unfold PrintSpec.syntax_line, mytable, myprog_table, arg_strn, arg_filen. generalize (foolproof 0 (argc + 2)). generalize (foolproof 1 (argc + 2)). generalize PrintSpec.occurrences. intros oc m m'. vm_compute. reflexivity. }
  assert (F : foolproof 1 (argc + 2) = argc + 2) by (unfold foolproof; destruct (Z.ltb_spec (argc + 2) 1); lia).
  unfold myusage. rewrite E, fool, F, occurrences_many, occurrences_files by lia. vm_compute. reflexivity.
Qed.
Lemma myusage_small argc : 0 < argc -> zlen (myusage argc) <= 1000000.
Proof.
  intros Ha. destruct (Z.eq_dec argc 1) as [->|]; [vm_compute; discriminate|]. rewrite myprog_usage_ok by lia. vm_compute. discriminate.
Qed.
(** An option with a value is given at most once in an argument. *)
Lemma occurrences_app i a b : occurrences i (a ++ b) = occurrences i a ++ occurrences i b.
Proof. unfold occurrences. apply flat_map_app. Qed.
Lemma occurrences_cons i j v evs : occurrences i (EvScan j v :: evs) = (if Nat.eqb j i then [v] else []) ++ occurrences i evs.
Proof. reflexivity. Qed.
Lemma cluster_once t a cs rest evs rest' i hd : nth_error t i = Some hd -> short_takes hd <> TNo -> cluster_reading t a cs rest evs rest' -> zlen (occurrences i evs) <= 1.
Proof.
  intros Hi Hn. assert (One : forall j v, zlen (occurrences i [EvScan j v]) <= 1) by (intros j v; unfold occurrences; cbn [flat_map]; destruct (Nat.eqb j i); cbn; lia).
  induction 1 as [|c cs j hj rest evs rest' Hc Fd Ht R IH|c cs rest evs rest' Hc Hu R IH| | | | |body rest evs rest' Hb L]; auto; try (cbn; lia).
  - rewrite occurrences_cons. destruct (Nat.eqb_spec j i) as [->|]; [|exact IH]. destruct Fd as (Fd & _). congruence.
  - destruct L; auto; try (cbn; lia); apply One.
Qed.
Lemma reading_once t posix rest evs pos i hd : nth_error t i = Some hd -> short_takes hd <> TNo -> reading t posix rest evs pos -> zlen (occurrences i evs) <= zlen rest.
Proof.
  intros Hi Hn H. induction H as [|rest|a rest Hp Hw|a rest evs pos Hp Hw R IH|cs rest evs rest' evs' pos H1 H2 C R IH].
  - apply Z.le_refl.
  - apply zlen_nonneg.
  - apply zlen_nonneg.
  - rewrite zlen_cons. lia.
  - rewrite occurrences_app, zlen_app, zlen_cons. pose proof (cluster_once _ _ _ _ _ _ _ _ Hi Hn C). apply cluster_reading_shorter in C. unfold zlen in *. lia.
Qed.
(** What the entries of myprog need. *)
Lemma stored_reset_size (e : entry (body D)) ss : (forall n, e_body e <> KLit n) -> zlen ss <= zlen (slots_reset (e_body e)) ->
  (forall x v0, In x ss -> exists v, denotes strtod rexmatch lm sp (e_body e) v0 x v) -> acceptable e (map Some ss).
Proof. intros Hn Hl He. apply stored_each; auto. unfold zlen in Hl. lia. Qed.
Lemma file_denotes (p : arg_file) x v0 : exists v, denotes strtod rexmatch lm sp (KFile p) v0 x v.
Proof.
  exists (VFile x (arg_basename sp x) (arg_extension (arg_basename sp x))). cbn. exists (arg_basename sp x), (arg_extension (arg_basename sp x)).
  split; [apply PropFile.arg_basename_spec|]. split; auto. apply PropFile.arg_extension_spec.
Qed.
Notation nth_my argc i := (nth_error (mytable argc) i).
Definition my_int : entry (body D) := set_default (arg_int0 junkv (Some (lit "k")) (Some (lit "scalar")) None (Some (lit "define scalar value k (default is 3)"))).
Definition my_out : entry (body D) := set_default (arg_file0 (Some (lit "o")) None (Some (lit "<output>")) (Some (lit "output file (default is ""-"")"))).
Lemma my_int_satisfied ss : satisfied strtod rexmatch lm sp my_int (map Some ss) <-> zlen ss <= 1 /\ forall x, In x ss -> exists n, int_literal x n /\ int_range n.
Proof.
  assert (L : zlen (map Some ss) = zlen ss) by (unfold zlen; rewrite map_length; reflexivity). unfold satisfied. rewrite L. split.
  - intros H. destruct H as (H1 & l & _ & H2); [discriminate|]. split; [cbn in H1; lia|]. intros x Hx. apply In_nth_error in Hx as (k & Hk). specialize (H2 k). rewrite nth_error_map, Hk in H2. cbn [option_map] in H2.
    destruct H2 as (v0 & v & _ & _ & n & _ & Hn). exists n. auto.
  - intros (H1 & H2) _. split; [cbn; pose proof (zlen_nonneg ss); lia|]. apply stored_reset_size; [discriminate|match goal with |- _ <= ?x => change x with 1 end; lia|]. intros x v0 Hx. destruct (H2 x Hx) as (n & Hn). exists (VInt n). cbn. exists n. auto.
Qed.
Lemma my_out_satisfied ss : satisfied strtod rexmatch lm sp my_out (map Some ss) <-> zlen ss <= 1.
Proof.
  assert (L : zlen (map Some ss) = zlen ss) by (unfold zlen; rewrite map_length; reflexivity). unfold satisfied. rewrite L. split.
  - intros H. apply H. discriminate.
  - intros H _. split; [cbn; pose proof (zlen_nonneg ss); lia|]. apply stored_reset_size; [discriminate|match goal with |- _ <= ?x => change x with 1 end; lia|]. intros x v0 _. apply file_denotes.
Qed.
Lemma files_satisfied so lo dt mx gl ss : 1 <= mx -> zlen ss <= mx -> (satisfied strtod rexmatch lm sp (arg_filen so lo dt 1 mx gl) (map Some ss) <-> ss <> []).
Proof.
  intros Hm Hl. assert (F : foolproof 1 mx = mx) by (unfold foolproof; destruct (Z.ltb_spec mx 1); lia).
  assert (L : zlen (map Some ss) = zlen ss) by (unfold zlen; rewrite map_length; reflexivity). unfold satisfied. rewrite L. split.
  - intros H ->. destruct H as (H & _); [discriminate|]. cbn in H. lia.
  - intros H _. split; [cbn [h_mincount h_maxcount e_hdr arg_filen mkentry mkhdr]; rewrite F; destruct ss; [congruence|]; rewrite zlen_cons; pose proof (zlen_nonneg ss); rewrite zlen_cons in Hl; lia|].
    apply stored_reset_size; [discriminate| |intros x v0 _; apply file_denotes]. cbn [arg_filen mkentry e_body slots_reset slots file_name file_base file_ext]. rewrite F.
    assert (Hf : forall k, List.length (files (D := D) (repeat [] k) (repeat [] k) (repeat [] k)) = k) by (induction k; cbn; auto). unfold filled, zlen in *. rewrite Hf. lia.
Qed.
Definition my_front (argc : Z) : table := firstn 8 (mytable argc).
Lemma my_split argc : mytable argc = my_front argc ++ [arg_filen None None None 1 (argc + 2) (Some (lit "input file(s)"))].
Proof. reflexivity. Qed.
Lemma my_front_options argc : Forall (fun e => ~ no_options (e_hdr e)) (my_front argc).
Proof. repeat (apply Forall_cons; [intros [K1 K2]; discriminate|]). constructor. Qed.
(** The entries with values are given texts. *)
Lemma given_texts posix rest os pos argc i : In i [2; 3; 4]%nat -> spells (map e_hdr (mytable argc)) posix rest os pos -> given_to i os = map Some (texts i (evs_of os)).
Proof.
  intros Hi Hs. destruct (all_some (given_to i os)) as (ss & E).
  - intros v Hv K. destruct (given_dispatched (mytable argc) posix rest os pos i v Hs Hv) as (e & He & _ & Hn & _). specialize (Hn K).
    destruct Hi as [<-|[<-|[<-|[]]]]; injection He as <-; destruct Hn; discriminate.
  - unfold texts. rewrite given_evs, E. f_equal. clear E. induction ss; [reflexivity|]. cbn. congruence.
Qed.
Lemma my_shared posix rest os pos argc : argc = Z.succ (zlen rest) -> spells (map e_hdr (mytable argc)) posix rest os pos ->
  ((exists runs, shared (mytable argc) os pos runs) <-> myprog_right (evs_of os) pos).
Proof.
  intros Ha Hs. assert (Hr : reading (map e_hdr (mytable argc)) posix rest (evs_of os) pos) by (apply reading_iff, spells_iff; exact Hs).
  pose proof (reading_once (map e_hdr (mytable argc)) posix rest (evs_of os) pos 3 _ eq_refl ltac:(discriminate) Hr) as H3. rewrite given_evs in H3.
  apply reading_shorter in Hr. assert (H8 : given_to 8 os = []) by (eapply (given_none (mytable argc)); [exact Hs|reflexivity|split; reflexivity]).
  pose proof (given_texts posix rest os pos argc 2 ltac:(cbn; tauto) Hs) as T2. pose proof (given_texts posix rest os pos argc 3 ltac:(cbn; tauto) Hs) as T3. pose proof (given_texts posix rest os pos argc 4 ltac:(cbn; tauto) Hs) as T4.
  assert (Z2 : zlen (given_to 2 os) = zlen (texts 2 (evs_of os))) by (rewrite T2; unfold zlen; rewrite map_length; reflexivity).
  assert (Z4 : zlen (given_to 4 os) = zlen (texts 4 (evs_of os))) by (rewrite T4; unfold zlen; rewrite map_length; reflexivity).
  assert (Z3 : zlen (given_to 3 os) = zlen (texts 3 (evs_of os))) by (rewrite T3; unfold zlen; rewrite map_length; reflexivity).
  pose proof (zlen_nonneg rest) as Nr. rewrite my_split. pose proof (shared_front (my_front argc) (arg_filen None None None 1 (argc + 2) (Some (lit "input file(s)"))) os pos (my_front_options argc)) as SF.
  assert (Lf : satisfied strtod rexmatch lm sp (arg_filen None None None 1 (argc + 2) (Some (lit "input file(s)"))) (given_to 8 os ++ map Some pos) <-> pos <> []).
  { rewrite H8. cbn [app]. apply files_satisfied; unfold zlen in *; lia. }
  split.
  - intros (runs & H). pose proof (shared_last _ _ _ _ _ (my_front_options argc) H) as ->. apply SF in H as (H & _ & HL).
    split; [intros (c & v & K); unfold evs_of in K; apply in_map_iff in K as (? & ? & _); discriminate|]. split; [|split].
    + intros i Hi. rewrite given_evs. repeat (destruct Hi as [<-|Hi]; [first
        [match goal with |- zlen (given_to ?k _) <= _ => pose proof (H k _ eq_refl) as K; exact (proj1 (lit0_satisfied _ _ _ _) K) end
        |pose proof (H 2%nat _ eq_refl) as K; rewrite T2 in K; rewrite Z2; exact (proj1 (proj1 (my_int_satisfied _) K))
        |pose proof (H 4%nat _ eq_refl) as K; rewrite T4 in K; rewrite Z4; exact (proj1 (my_out_satisfied _) K)]|]). contradiction.
    + pose proof (H 2%nat _ eq_refl) as K. rewrite T2 in K. exact (proj2 (proj1 (my_int_satisfied _) K)).
    + exact (proj1 Lf HL).
  - intros (_ & H1 & H2 & Hp). exists (run_last (List.length (my_front argc)) pos). apply SF. split; [|split].
    + assert (H1' : forall i, In i [0; 1; 2; 4; 5; 6; 7]%nat -> zlen (given_to i os) <= 1) by (intros i Hi; rewrite <- given_evs; auto).
      intros i e He. assert ((i < 8)%nat) by (change 8%nat with (List.length (my_front argc)); apply nth_error_Some; congruence).
      do 8 (destruct i as [|i]; [injection He as <-; first
        [apply lit0_satisfied; apply H1'; cbn; tauto
        |rewrite T2; apply my_int_satisfied; split; [rewrite <- Z2; apply H1'; cbn; tauto|exact H2]
        |rewrite T4; apply my_out_satisfied; rewrite <- Z4; apply H1'; cbn; tauto
        |rewrite T3; apply strs_satisfied; lia]|]). lia.
    + intros _. split; [split; reflexivity|discriminate].
    + change (List.length (my_front argc)) with 8%nat. apply Lf. exact Hp.
Qed.
Lemma gt_given i os (x : string) : (if 0 <? zlen (given_to i os ++ map Some []) then ln x else []) = if_given i (evs_of os) x.
Proof.
  cbn [map]. rewrite app_nil_r. unfold if_given, given_b. rewrite given_evs. destruct (given_to i os) as [|v l]; [reflexivity|]. rewrite zlen_cons. pose proof (zlen_nonneg l).
  match goal with |- context [0 <? ?a] => destruct (Z.ltb_spec 0 a) end; [reflexivity|lia].
Qed.
Lemma numbered_listed : forall l k, numbered "infile" k l = listed k l.
Proof. induction l as [|x l IH]; intros k; [reflexivity|]. cbn [numbered listed]. rewrite IH. reflexivity. Qed.
Lemma my_int_value posix rest os pos argc runs tab' : spells (map e_hdr (mytable argc)) posix rest os pos -> runs = run_last 8 pos -> valued (mytable argc) os runs tab' ->
  exists k, int_of tab' 2 = Ok k /\ scalar (evs_of os) k.
Proof.
  intros Hs -> Hv. pose proof (given_texts posix rest os pos argc 2 ltac:(cbn; tauto) Hs) as T2.
  destruct (proj2 Hv 2%nat my_int [] eq_refl eq_refl) as (e' & Hi' & _ & Hc). pose proof (valued_sig _ _ _ _ 2 my_int _ Hv eq_refl Hi') as Hsg.
  destruct Hc as (_ & _ & Hc); [discriminate|]. specialize (Hc 0%nat). rewrite T2, app_nil_r in Hc. unfold int_of, scalar. rewrite Hi'. cbn [option_map].
  destruct (e_body e') as [|p'| | | | | |] eqn:Eb'; try discriminate. destruct (texts 2 (evs_of os)) as [|x l]; cbn [map nth_error e_body my_int set_default arg_int0 arg_intn mkentry] in Hc.
  - exists 3. split; [|reflexivity]. cbn [slots] in Hc. unfold aget. cbn. destruct (int_ival p') as [|y l]; [discriminate|]. change (Some (@VInt D y) = Some (VInt 3)) in Hc. congruence.
  - destruct Hc as (v0 & v & _ & Hn & n & -> & Hl). exists n. split; [|apply Hl; reflexivity]. cbn [slots] in Hn. unfold aget. cbn. destruct (int_ival p') as [|y l']; [discriminate|]. cbn in Hn. congruence.
Qed.
Lemma my_out_value posix rest os pos argc runs tab' : spells (map e_hdr (mytable argc)) posix rest os pos -> runs = run_last 8 pos -> valued (mytable argc) os runs tab' ->
  texts_of tab' 4 1 = Ok [output (evs_of os)].
Proof.
  intros Hs -> Hv. pose proof (given_texts posix rest os pos argc 4 ltac:(cbn; tauto) Hs) as T4.
  destruct (proj2 Hv 4%nat my_out [] eq_refl eq_refl) as (e' & Hi' & _ & Hc). pose proof (valued_sig _ _ _ _ 4 my_out _ Hv eq_refl Hi') as Hsg.
  destruct Hc as (_ & _ & Hc); [discriminate|]. specialize (Hc 0%nat). rewrite T4, app_nil_r in Hc. unfold texts_of, output. rewrite Hi'. cbn [option_map].
  destruct (e_body e') as [| | | |p'| | |] eqn:Eb'; try discriminate. change (Z.to_nat 1) with 1%nat. destruct (texts 4 (evs_of os)) as [|x l]; cbn [map nth_error e_body my_out set_default arg_file0 arg_filen mkentry] in Hc.
  - change (nth_error (files (D := D) (file_name p') (file_base p') (file_ext p')) 0 = Some (VFile (lit "-") [] [])) in Hc. apply files_nth in Hc. destruct (file_name p') as [|y l]; [discriminate|]. injection Hc as ->. reflexivity.
  - destruct Hc as (v0 & v & _ & Hn & bn & ex & _ & _ & ->). change (nth_error (files (D := D) (file_name p') (file_base p') (file_ext p')) 0 = Some (VFile x bn ex)) in Hn. apply files_nth in Hn. destruct (file_name p') as [|y l']; [discriminate|]. injection Hn as ->. reflexivity.
Qed.
Lemma my_works posix a0 rest os pos runs tab' : let argc := zlen (a0 :: rest) in
  spells (map e_hdr (mytable argc)) posix rest os pos -> shared (mytable argc) os pos runs -> valued (mytable argc) os runs tab' ->
  exists out, myprog_work argc tab' = Ok (out, 0) /\ myprog_prints (evs_of os) pos out.
Proof.
  intros argc Hs Hsh Hv. assert (Ha : argc = Z.succ (zlen rest)) by (unfold argc; rewrite zlen_cons; lia).
  pose proof (proj1 (my_shared posix rest os pos argc Ha Hs) (ex_intro _ runs Hsh)) as (_ & _ & _ & Hp).
  assert (Hr : runs = run_last 8 pos) by (rewrite my_split in Hsh; exact (shared_last _ _ _ _ _ (my_front_options argc) Hsh)).
  destruct (my_int_value posix rest os pos argc runs tab' Hs Hr Hv) as (k & Ek & Sk). pose proof (my_out_value posix rest os pos argc runs tab' Hs Hr Hv) as Eo. subst runs.
  assert (Hn : argc <> 1).
  { assert (Hrd : reading (map e_hdr (mytable argc)) posix rest (evs_of os) pos) by (apply reading_iff, spells_iff; exact Hs). apply reading_shorter in Hrd.
    destruct rest; [destruct pos; [congruence|cbn in Hrd; lia]|]. rewrite zlen_cons in Ha. pose proof (zlen_nonneg rest). lia. }
  assert (H8 : given_to 8 os = []) by (eapply (given_none (mytable argc)); [exact Hs|reflexivity|split; reflexivity]).
  pose proof (given_texts posix rest os pos argc 3 ltac:(cbn; tauto) Hs) as T3.
  assert (C3 : count_of tab' 3 = Ok (zlen (texts 3 (evs_of os)))).
  { erewrite (valued_count _ _ _ _ 3 _ _ Hv) by (reflexivity || discriminate). rewrite T3, app_nil_r. unfold zlen. rewrite map_length. reflexivity. }
  assert (C8 : count_of tab' 8 = Ok (zlen pos)).
  { erewrite (valued_count _ _ _ _ 8 _ _ Hv) by (reflexivity || discriminate). rewrite H8. cbn [app]. unfold zlen. rewrite map_length. reflexivity. }
  assert (X3 : texts_of tab' 3 (zlen (texts 3 (evs_of os))) = Ok (texts 3 (evs_of os))).
  { eapply (valued_texts _ _ _ _ 3 _ _ _ Hv); [reflexivity|reflexivity|exact I|]. rewrite T3, app_nil_r. reflexivity. }
  assert (X8 : texts_of tab' 8 (zlen pos) = Ok pos).
  { eapply (valued_texts _ _ _ _ 8 _ _ _ Hv); [reflexivity|reflexivity|exact I|]. rewrite H8. reflexivity. }
  unfold myprog_work. destruct (Z.eqb_spec argc 1); [contradiction|].
  erewrite (valued_count _ _ _ _ 0 _ _ Hv) by (reflexivity || discriminate). cbn [bind]. erewrite (valued_count _ _ _ _ 1 _ _ Hv) by (reflexivity || discriminate). cbn [bind]. rewrite Ek. cbn [bind]. rewrite C3. cbn [bind]. rewrite X3. cbn [bind]. rewrite Eo. cbn [bind].
  erewrite (valued_count _ _ _ _ 5 _ _ Hv) by (reflexivity || discriminate). cbn [bind]. rewrite C8. cbn [bind]. rewrite X8. cbn [bind].
  eexists. split; [reflexivity|]. exists k. split; [exact Sk|]. rewrite !gt_given, numbered_listed. cbn [List.concat]. rewrite app_nil_r. reflexivity.
Qed.
Theorem C79_myprog : forall posix legacy junk rest jo jc jp fuel argv h s en a0 evs pos,
  let argc := zlen (a0 :: rest) in
  call 20 (mytable argc) en h argv a0 rest fuel -> argc + 2 <= INT_MAX -> (forall a, In a rest -> zlen a <= 20000000) -> Forall (safe_value true) rest ->
  reading (map e_hdr (mytable argc)) posix rest evs pos ->
  exists o, main myprog (mytable argc) en junk legacy posix jo jc jp fuel argc argv h s = Ok o /\ clean o /\
    (occurrences 6 evs <> [] -> o_text o = myprog_usage /\ o_code o = 0) /\
    (occurrences 6 evs = [] -> occurrences 7 evs <> [] -> o_text o = version_text (@myprog D) /\ o_code o = 0) /\
    (occurrences 6 evs = [] -> occurrences 7 evs = [] -> ~ myprog_right evs pos -> complains "myprog" (o_text o) /\ o_code o = 1) /\
    (occurrences 6 evs = [] -> occurrences 7 evs = [] -> myprog_right evs pos -> myprog_prints evs pos (o_text o) /\ o_code o = 0).
Proof.
  intros posix legacy junk rest jo jc jp fuel argv h s en a0 evs pos argc Hc Hm Hl Hv Hrd.
  assert (Ha : argc = Z.succ (zlen rest)) by (unfold argc; rewrite zlen_cons; lia). assert (Hp : 0 < argc) by (pose proof (zlen_nonneg rest); lia).
  destruct (program myprog "myprog" (myusage argc) true posix legacy junk (mytable argc) rest jo jc jp fuel argv h s en a0 evs pos) as (o & Eo & Cl & H1 & H2 & H3); auto.
  - apply mytable_reached. lia.
  - do 2 eexists. repeat split; try reflexivity. intros [K1 K2]; discriminate.
  - do 2 eexists. repeat split; try reflexivity. intros [K1 K2]; discriminate.
  - apply (literal (Some _)). vm_compute. reflexivity.
  - apply columns_good.
  - texts_clit.
  - unfold mytable, myprog_defaults, myprog_table. cbn [List.length seq combine map fst snd Nat.eqb orb]. unfold set_default, arg_int0, arg_file0. cbn [e_hdr mkentry arg_intn arg_filen]. counts_tac.
  - repeat (apply Forall_cons; [exact I|]). constructor.
  - apply (usage_fits myprog (mytable argc) (myusage argc)); [texts_clit|apply mytable_short|reflexivity|cbn; lia|apply myusage_small; lia|vm_compute; discriminate].
  - split; [vm_compute; discriminate|]. split; [exact Hl|]. intros hd fmt x Hi. repeat (destruct Hi as [K|Hi]; [discriminate|]). contradiction.
  - intros os pos' runs tab' S1 _ _ S2 S3. destruct (my_works posix a0 rest os pos' runs tab' S1 S2 S3) as (out & E & _). eauto.
  - apply mytable_short.
  - exists o. split; [exact Eo|]. split; [exact Cl|]. cbn [f_help f_version myprog] in H1, H2, H3. split.
    { intros K. rewrite (proj1 (H1 K)). split; [|apply H1; auto]. apply myprog_usage_ok. destruct rest as [|a rest]; [inversion Hrd; subst; contradiction K; reflexivity|]. rewrite zlen_cons in Ha. pose proof (zlen_nonneg rest). lia. }
    split; [exact H2|]. split; intros E3 E4 Hx; destruct (H3 E3 E4) as [(os & runs & tab' & -> & Hs & Hsh & Hvl & Hw)|(Hn & Hcm & Hcd)].
    + exfalso. apply Hx. apply (my_shared posix rest os pos argc Ha Hs). eauto.
    + auto.
    + cbn [f_work myprog] in Hw. destruct (my_works posix a0 rest os pos runs tab' Hs Hsh Hvl) as (out & E & P). fold argc in Hw, E. rewrite E in Hw. injection Hw as <- <-. auto.
    + exfalso. destruct (no_mistake evs) as (os & ->); [intros c v K; apply (proj1 Hx); eauto|].
      assert (Hs : spells (map e_hdr (mytable argc)) posix rest os pos) by (apply spells_iff, reading_iff; exact Hrd).
      destruct (proj2 (my_shared posix rest os pos argc Ha Hs) Hx) as (runs & Hsh). exact (Hn os runs eq_refl Hsh).
Qed.
(** The source has a branch for a run without arguments, which is to print a hint and return 0. It is never reached: a run without
    arguments is an error, as at least one file is required. *)
Theorem C79_myprog_no_arguments_refuted : forall posix legacy junk jo jc jp fuel argv h s en a0,
  call 20 (mytable 1) en h argv a0 [] fuel ->
  exists o, main myprog (mytable 1) en junk legacy posix jo jc jp fuel 1 argv h s = Ok o /\ complains "myprog" (o_text o) /\ o_code o = 1.
Proof.
  intros posix legacy junk jo jc jp fuel argv h s en a0 Hc. change 1 with (zlen [a0]).
  destruct (C79_myprog posix legacy junk [] jo jc jp fuel argv h s en a0 [] [] Hc) as (o & Eo & _ & _ & _ & H & _); [cbn; unfold INT_MAX; lia|intros ? []|constructor|constructor|].
  exists o. split; [exact Eo|]. apply H; try reflexivity. intros (_ & _ & _ & K). congruence.
Qed.
End Program.

(** ** Examples *)
Lemma program_call (tab : list (entry (body Z))) a0 rest : forallb ExTable.good_hdrb (map e_hdr tab) = true -> ExTable.strs_cstr (map lit rest) = true ->
  call 20 tab (ExTable.en 20) (ExTable.heap0 (a0 :: rest)) 1 (lit a0) (map lit rest) (S (total (map lit rest))).
Proof.
  intros H1 H2. constructor.
  - unfold wf_end, ExTable.en, arg_end_new. cbn. unfold fresh, zlen. rewrite !map_length, seq_length. repeat split; lia.
  - apply ExTable.good_hdrs_ok. exact H1.
  - apply ExTable.strs_cstr_ok; auto.
  - exists [None]. cbn. reflexivity.
  - lia.
Qed.
Notation no_strftime := (fun (_ : str) (_ : tm) => @None str).
Notation ex_main f tab name rest := (main ExTable.strtod ExTable.rexmatch Long64 unix_seps no_strftime f tab (ExTable.en 20) (fun _ => "z"%char) false false
  ExTable.jo ExTable.jc ExTable.jp (S (total (map lit rest))) (zlen (lit name :: map lit rest)) 1 (ExTable.heap0 (name%string :: rest)) ExTable.s0).
Notation shows_code r text code := (match r with Ok out => o_text out = text /\ o_code out = code /\ clean out | _ => False end).
Notation text_code r := (match r with Ok out => Some (o_text out, o_code out) | _ => None end).
Ltac args_short := intros a Ha; repeat (destruct Ha as [<-|Ha]; [vm_compute; discriminate|]); destruct Ha.
Ltac ex_read := apply reading_iff; vm_compute; reflexivity.

Notation echo_args := ["-n"; "hello"; "world"; "--"; "-x"]%string.
Example C79_case_echo : shows_code (ex_main echo (echo_table 6) "echo" echo_args)
  (ln "option -n = YES" ++ ln "option -e = NO" ++ ln "option -E = NO" ++ ln "hello world -x ") 0.
Proof.
  destruct (C79_echo ExTable.strtod ExTable.rexmatch unix_seps no_strftime ex_contract false false (fun _ => "z"%char) (map lit echo_args) ExTable.jo ExTable.jc ExTable.jp (S (total (map lit echo_args))) 1
    (ExTable.heap0 ("echo"%string :: echo_args)) ExTable.s0 (ExTable.en 20) (lit "echo") [EvScan 0 None] (map lit ["hello"; "world"; "-x"]%string)) as (out & E & Hc & _ & _ & _ & H).
  - apply program_call; vm_compute; reflexivity.
  - vm_compute. discriminate.
  - args_short.
  - ex_read.
  - change (zlen (lit "echo" :: map lit echo_args)) with 6 in E. change (zlen (lit "echo" :: map lit echo_args)) with 6. rewrite E. destruct H as [-> ->]; try reflexivity.
    + apply not_mistaken. split; [exists [(0%nat, None)]; reflexivity|]. intros i _. unfold occurrences. cbn [flat_map]. destruct (Nat.eqb 0 i); vm_compute; discriminate.
    + split; [reflexivity|]. split; [reflexivity|exact Hc].
Qed.
(** Help comes before everything else, mistakes included. *)
Notation echo_help := ["-q"; "--he"; "-nn"; "--version"]%string.
Example C79_case_echo_help : shows_code (ex_main echo (echo_table 5) "echo" echo_help) echo_usage 0.
Proof.
  destruct (C79_echo ExTable.strtod ExTable.rexmatch unix_seps no_strftime ex_contract false false (fun _ => "z"%char) (map lit echo_help) ExTable.jo ExTable.jc ExTable.jp (S (total (map lit echo_help))) 1
    (ExTable.heap0 ("echo"%string :: echo_help)) ExTable.s0 (ExTable.en 20) (lit "echo") [EvErr 113 None; EvScan 3 None; EvScan 0 None; EvScan 0 None; EvScan 4 None] []) as (out & E & Hc & H & _).
  - apply program_call; vm_compute; reflexivity.
  - vm_compute. discriminate.
  - args_short.
  - ex_read.
  - change (zlen (lit "echo" :: map lit echo_help)) with 5 in E. change (zlen (lit "echo" :: map lit echo_help)) with 5. rewrite E. destruct H as [-> ->]; [discriminate|]. split; [reflexivity|]. split; [reflexivity|exact Hc].
Qed.
Notation echo_wrong := ["-nn"; "x"; "-q"]%string.
Example C79_case_echo_wrong : mistaken 5 [EvScan 0 None; EvScan 0 None; EvErr 113 None] /\
  text_code (ex_main echo (echo_table 4) "echo" echo_wrong) =
  Some (ln "echo: extraneous option -n" ++ ln "echo: invalid option ""-q""" ++ ln "Try 'echo --help' for more information.", 1).
Proof. split; [right; exists 0%nat; split; [lia|vm_compute; reflexivity]|]. vm_compute. reflexivity. Qed.

Notation uname_args := ["-ms"; "--kernel-r"]%string.
Example C79_case_uname : shows_code (ex_main uname uname_table "uname" uname_args) (ln "Linux 2.4.19-16 i686 ") 0.
Proof.
  destruct (C79_uname ExTable.strtod ExTable.rexmatch unix_seps no_strftime ex_contract false false (fun _ => "z"%char) (map lit uname_args) ExTable.jo ExTable.jc ExTable.jp (S (total (map lit uname_args))) 1
    (ExTable.heap0 ("uname"%string :: uname_args)) ExTable.s0 (ExTable.en 20) (lit "uname") [EvScan 5 None; EvScan 1 None; EvScan 3 None] []) as (out & E & Hc & _ & _ & _ & H).
  - apply program_call; vm_compute; reflexivity.
  - args_short.
  - ex_read.
  - rewrite E. destruct H as [-> ->]; try reflexivity.
    + apply not_mistaken. split; [exists [(5, None); (1, None); (3, None)]%nat; reflexivity|]. intros i Hi. do 11 (destruct i as [|i]; [vm_compute; discriminate|]). lia.
    + split; [reflexivity|]. split; [reflexivity|exact Hc].
Qed.
Example C79_case_uname_no_options :
  text_code (ex_main uname uname_table "uname" (@nil string)) = Some (ln "localhost.localdomain ", 0) /\
  text_code (ex_main uname uname_table "uname" ["-s"%string]) = Some (ln "Linux ", 0) /\
  text_code (ex_main uname uname_table "uname" ["--"%string]) = Some (ln "", 0).
Proof. split; [|split]; vm_compute; reflexivity. Qed.

Notation my_args := ["a.c"; "-k0x10"; "-D"; "X=1"; "-Lv"; "b.c"]%string.
Example C79_case_myprog : shows_code (ex_main myprog (mytable (fun _ => 77) 7) "myprog" my_args)
  (ln "list files (-l)" ++ ln "verbose is enabled (-v)" ++ ln "scalar k=16" ++ ln "output is ""-""" ++ ln "user defined macro ""X=1""" ++ ln "infile[0]=""a.c""" ++ ln "infile[1]=""b.c""") 0.
Proof.
  destruct (C79_myprog ExTable.strtod ExTable.rexmatch unix_seps no_strftime ex_contract (fun _ => 77) false false (fun _ => "z"%char) (map lit my_args) ExTable.jo ExTable.jc ExTable.jp (S (total (map lit my_args))) 1
    (ExTable.heap0 ("myprog"%string :: my_args)) ExTable.s0 (ExTable.en 20) (lit "myprog")
    [EvScan 2 (Some (lit "0x10")); EvScan 3 (Some (lit "X=1")); EvScan 0 None; EvScan 5 None] (map lit ["a.c"; "b.c"]%string)) as (out & E & Hc & _ & _ & _ & H).
  - apply program_call; vm_compute; reflexivity.
  - vm_compute. discriminate.
  - args_short.
  - apply safe_values; vm_compute; reflexivity.
  - ex_read.
  - assert (Hsafe : Forall (safe_value Long64 true) [lit "0x10"]) by (change [lit "0x10"] with (map lit ["0x10"%string]); apply safe_values; vm_compute; reflexivity).
    change (zlen (lit "myprog" :: map lit my_args)) with 7 in E. change (zlen (lit "myprog" :: map lit my_args)) with 7. rewrite E.
    assert (L16 : int_literal (lit "0x10") 16).
    { pose proof (int_convert_sound (lit "0x10")) as K. assert (E16 : int_convert Long64 (lit "0x10") = Ok (inl 16)) by (vm_compute; reflexivity). rewrite E16 in K. exact (proj1 K). }
    destruct H as [(k & Sk & ->) ->]; try reflexivity.
    + split; [|split; [|split]].
      * intros (c & v & K). repeat (destruct K as [K|K]; [discriminate|]). destruct K.
      * intros i Hi. repeat (destruct Hi as [<-|Hi]; [vm_compute; discriminate|]). destruct Hi.
      * intros x [<-|[]]. exists 16. split; [exact L16|vm_compute; split; discriminate].
      * discriminate.
    + assert (k = 16) as ->.
      { destruct Sk as (Sk & Rk). apply (int_literal_unique (lit "0x10")); auto. inversion_clear Hsafe as [|? ? (_ & Hx) _]. apply (Hx eq_refl []). reflexivity. }
      split; [vm_compute; reflexivity|]. split; [reflexivity|exact Hc].
Qed.
Example C79_case_myprog_no_arguments : text_code (ex_main myprog (mytable (fun _ => 77) 1) "myprog" (@nil string)) =
  Some (ln "myprog: missing option <file>" ++ ln "Try 'myprog --help' for more information.", 1).
Proof. vm_compute. reflexivity. Qed.

Print Assumptions C79_frame.
Print Assumptions C79_echo.
Print Assumptions C79_uname.
Print Assumptions C79_uname_no_options_refuted.
Print Assumptions C79_myprog.
Print Assumptions C79_myprog_no_arguments_refuted.
