(** Lemmas for the properties of arg_parse, for any kinds of entries. *)
From Verif Require Import Base IntModel FileModel DateModel GetoptModel ParseModel ParseSpec GetoptProofs ParseIdeal ParseProofs ParseFacts ParseObserve ParseSafe ArgModel.
From Verif Require ExTable.
From Coq Require Import ZArith List Ascii String Bool Lia Sorted.
Import ListNotations.
Open Scope Z_scope.

Section Generic.
Context {B : Type}.
Context (scan : hdr -> B -> option (option str -> res (B * Z))).
Context (check : hdr -> B -> option Z).
Context (reset : hdr -> B -> res B).
Notation parse := (arg_parse scan check reset).

(** ** C08: one pass *)
(** arg_parse is a left to right reading of the arguments: the entries get the occurrences and the
    positional arguments that [read_args] finds, and the recorded errors are what fits of the list
    of errors met on the way. *)
Lemma one_pass posix cap jo jc jp fuel argv h s tab en a0 rest evs pos :
  call cap tab en h argv a0 rest fuel -> read_args posix (map e_hdr tab) rest = (evs, Finished pos) ->
  observe (parse posix jo jc jp fuel (zlen (a0 :: rest)) argv h s tab en)
  = (st <- ideal_parse scan check reset evs pos tab ;; Ok (visible cap st)).
Proof. apply observe_finishes. Qed.

(** Two command lines are parsed alike. *)
Definition parsed_alike (posix : bool) (t : list hdr) (args1 args2 : list str) : Prop :=
  forall cap tab, map e_hdr tab = t -> forall jo jc jp fuel argv h s en a0 jo' jc' jp' fuel' argv' h' s' en' a0',
  call cap tab en h argv a0 args1 fuel -> call cap tab en' h' argv' a0' args2 fuel' ->
  observe (parse posix jo jc jp fuel (zlen (a0 :: args1)) argv h s tab en) =
  observe (parse posix jo' jc' jp' fuel' (zlen (a0' :: args2)) argv' h' s' tab en').
Lemma alike posix t args1 args2 evs pos : read_args posix t args1 = (evs, Finished pos) -> read_args posix t args2 = (evs, Finished pos) ->
  parsed_alike posix t args1 args2.
Proof.
  intros H1 H2 cap tab Ht; intros. subst t. rewrite (one_pass _ cap _ _ _ _ _ _ _ _ _ _ _ evs pos) by auto.
  symmetry. apply one_pass; auto.
Qed.

Lemma interleaving t l l' : Forall (good_item t) l -> Forall (good_item t) l' ->
  events l = events l' -> positionals l = positionals l' ->
  parsed_alike false t (cmdline l) (cmdline l').
Proof.
  intros H H' He Hp. apply (alike false t _ _ (events l) (positionals l)).
  - rewrite <- (app_nil_r (cmdline l)), read_items by auto. unfold prepend, add_positionals. cbn [fst snd read_args]. rewrite !app_nil_r. reflexivity.
  - rewrite <- (app_nil_r (cmdline l')), read_items by auto. unfold prepend, add_positionals. cbn [fst snd read_args]. rewrite !app_nil_r, He, Hp. reflexivity.
Qed.
Lemma positionals_last t l : Forall (good_item t) l ->
  parsed_alike false t (cmdline l) (option_args l ++ lit "--" :: positionals l).
Proof.
  intros H. apply (alike false t _ _ (events l) (positionals l)).
  - rewrite <- (app_nil_r (cmdline l)), read_items by auto. unfold prepend, add_positionals. cbn [fst snd read_args]. rewrite !app_nil_r. reflexivity.
  - assert (E : option_args l = cmdline (filter (fun i => match i with Options _ _ => true | _ => false end) l) /\
               events l = events (filter (fun i => match i with Options _ _ => true | _ => false end) l) /\
               positionals (filter (fun i => match i with Options _ _ => true | _ => false end) l) = [] /\
               Forall (good_item t) (filter (fun i => match i with Options _ _ => true | _ => false end) l)).
    { induction H as [|i l Hi Hl (IH1 & IH2 & IH3 & IH4)]; [repeat split; constructor|].
      unfold option_args, events, positionals, cmdline in *. destruct i; cbn [map List.concat filter item_args app]; rewrite ?IH1, ?IH2; repeat split; auto. }
    destruct E as (-> & -> & Hp & Hf). rewrite read_items, Hp by auto. unfold prepend, add_positionals. cbn [fst snd read_args is_positional ceqb]. cbn. rewrite app_nil_r. reflexivity.
Qed.
Lemma posix_stops t l p rest : Forall (good_item t) l -> positionals l = [] -> is_positional p = true ->
  parsed_alike true t (cmdline l ++ p :: rest) (cmdline l ++ lit "--" :: p :: rest).
Proof.
  intros H Hp Hpos. apply (alike true t _ _ (events l) (p :: rest)); rewrite read_options_posix by auto; cbn [read_args].
  - rewrite Hpos. unfold prepend. cbn [fst snd]. rewrite app_nil_r. reflexivity.
  - unfold prepend. cbn. rewrite app_nil_r. reflexivity.
Qed.

(** ** C01 *)
Lemma history posix cap tab rest jo jc jp fuel argv h s en a0 jo' jc' jp' fuel' argv' h' s' en' a0' :
  call cap tab en h argv a0 rest fuel -> call cap tab en' h' argv' a0' rest fuel' ->
  (forall r, observe (parse posix jo jc jp fuel (zlen (a0 :: rest)) argv h s tab en) = Ok r <->
             observe (parse posix jo' jc' jp' fuel' (zlen (a0' :: rest)) argv' h' s' tab en') = Ok r) /\
  ((forall a, In a rest -> ~ dash_tailed a) ->
   observe (parse posix jo jc jp fuel (zlen (a0 :: rest)) argv h s tab en) =
   observe (parse posix jo' jc' jp' fuel' (zlen (a0' :: rest)) argv' h' s' tab en')).
Proof.
  intros H H'. destruct (read_args posix (map e_hdr tab) rest) as [evs [pos|]] eqn:E.
  - assert (Eq := alike posix (map e_hdr tab) rest rest evs pos E E cap tab eq_refl jo jc jp fuel argv h s en a0 jo' jc' jp' fuel' argv' h' s' en' a0' H H').
    split; auto. intros r. rewrite Eq. tauto.
  - pose proof (observe_hangs scan check reset posix jo jc jp cap fuel argv h s tab en a0 rest evs H E fuel) as N1.
    pose proof (observe_hangs scan check reset posix jo' jc' jp' cap fuel' argv' h' s' tab en' a0' rest evs H' E fuel') as N2.
    split.
    + intros r. split; intros Hr.
      * destruct (parse posix jo jc jp fuel (zlen (a0 :: rest)) argv h s tab en); [exfalso; eapply N1; eauto|discriminate|discriminate].
      * destruct (parse posix jo' jc' jp' fuel' (zlen (a0' :: rest)) argv' h' s' tab en'); [exfalso; eapply N2; eauto|discriminate|discriminate].
    + intros Hd. exfalso. destruct (read_args_hangs posix (map e_hdr tab) rest) as (a & Ha & Hda); [rewrite E; reflexivity|].
      eapply Hd; eauto.
Qed.

(** ** C04 *)
Lemma error_list posix cap0 tab rest jo jc jp fuel argv h s en a0 tab' n l :
  call cap0 tab en h argv a0 rest fuel ->
  observe (parse posix jo jc jp fuel (zlen (a0 :: rest)) argv h s tab en) = Ok (tab', n, l) ->
  exists errs, n = Z.min cap0 (zlen errs) /\ l = shown cap0 errs /\
  forall cap jo jc jp fuel argv h s en a0, call cap tab en h argv a0 rest fuel ->
  observe (parse posix jo jc jp fuel (zlen (a0 :: rest)) argv h s tab en) = Ok (tab', Z.min cap (zlen errs), shown cap errs).
Proof.
  intros H Ho. destruct (read_args posix (map e_hdr tab) rest) as [evs [pos|]] eqn:E.
  - rewrite (one_pass _ _ _ _ _ _ _ _ _ _ _ _ _ _ _ H E) in Ho.
    destruct (ideal_parse scan check reset evs pos tab) as [[t errs]| |] eqn:Ei; try discriminate. cbn in Ho. injection Ho as <- <- <-.
    exists errs. split; auto. split; auto. intros. rewrite (one_pass posix cap _ _ _ _ _ _ _ _ _ _ _ evs pos) by auto. rewrite Ei. reflexivity.
  - exfalso. pose proof (observe_hangs scan check reset posix jo jc jp cap0 fuel argv h s tab en a0 rest evs H E fuel) as N.
    destruct (parse posix jo jc jp fuel (zlen (a0 :: rest)) argv h s tab en); [eapply N; eauto|discriminate|discriminate].
Qed.

(** ** C12 *)
Lemma terminates Inv Val posix cap tab rest jo jc jp fuel argv h s en a0 :
  safe_kinds scan reset Inv Val -> Forall (inv Inv) tab -> Forall Val rest -> call cap tab en h argv a0 rest fuel ->
  (forall a, In a rest -> ~ dash_tailed a) ->
  exists h' s' tab' en', parse posix jo jc jp fuel (zlen (a0 :: rest)) argv h s tab en = Ok (h', s', tab', en') /\ Forall (inv Inv) tab'.
Proof.
  intros Hs Ht Hv Hc Hd. destruct (read_args posix (map e_hdr tab) rest) as [evs [pos|]] eqn:E.
  - destruct (ideal_safe scan check reset Inv Val Hs posix tab rest evs pos Ht Hv E) as (t & errs & Ei & Hi & _).
    pose proof (one_pass posix cap jo jc jp fuel argv h s tab en a0 rest evs pos Hc E) as Ho. rewrite Ei in Ho.
    destruct (parse posix jo jc jp fuel (zlen (a0 :: rest)) argv h s tab en) as [[[[h' s'] t'] en']| |]; try discriminate.
    cbn in Ho. injection Ho as -> _ _. exists h', s', t, en'. auto.
  - exfalso. destruct (read_args_hangs posix (map e_hdr tab) rest) as (a & Ha & Hda); [rewrite E; reflexivity|]. eapply Hd; eauto.
Qed.

Lemma hangs posix cap tab jo jc jp argv h s en a0 l (xs a : str) (post : list str) fuel :
  Forall (good_item (map e_hdr tab)) l -> (posix = true -> positionals l = []) ->
  a = "-"%char :: xs ++ lit "-" -> xs <> [] -> Forall (passes (map e_hdr tab)) xs ->
  call cap tab en h argv a0 (cmdline l ++ a :: post) fuel ->
  forall fuel' r, parse posix jo jc jp fuel' (zlen (a0 :: cmdline l ++ a :: post)) argv h s tab en <> Ok r.
Proof.
  intros Hl Hpx Ea Hx Hxs Hc.
  assert (Hh : exists evs, read_args posix (map e_hdr tab) (cmdline l ++ a :: post) = (evs, Hangs)).
  { assert (Ha : exists ev, read_args posix (map e_hdr tab) (a :: post) = (ev, Hangs)).
    { cbn [read_args]. assert (Ep : is_positional a = false) by (subst a; destruct xs; [contradiction|reflexivity]). rewrite Ep.
      assert (Ed : str_eqb a (lit "--") = false).
      { apply str_eqb_neq. subst a. destruct Hxs as [|x xs' [Hn _] _]; [contradiction|]. intros E. injection E as E _. contradiction. }
      rewrite Ed. assert (Hn : snd (read_cluster (map e_hdr tab) a (tl a) (hd_error post)) = None).
      { apply read_cluster_hangs. exists xs. subst a. auto. }
      destruct (read_cluster (map e_hdr tab) a (tl a) (hd_error post)) as [ev r]. cbn in Hn. subst r. eauto. }
    destruct Ha as [ev Ha]. destruct posix.
    - rewrite read_options_posix by auto. rewrite Ha. unfold prepend. cbn. eauto.
    - rewrite read_items by auto. rewrite Ha. unfold prepend, add_positionals. cbn. eauto. }
  destruct Hh as [evs Hh]. eapply observe_hangs; eauto.
Qed.

(** ** C14 *)
Lemma events_errors evs : forall st tab errs, ideal_events scan evs st = Ok (tab, errs) ->
  exists more, errs = snd st ++ more /\ ((exists c v, In (EvErr c v) evs) -> more <> []).
Proof.
  induction evs as [|ev evs IH]; intros [t e] tab errs H; cbn [ideal_events] in H.
  { injection H as <- <-. exists []. rewrite app_nil_r. split; auto. intros (c & v & []). }
  apply bind_ok in H as ([t1 e1] & H1 & H2). destruct (IH _ _ _ H2) as (more & -> & Hm). cbn [snd] in *.
  destruct ev as [i v|c v]; cbn in H1.
  - assert (Hx : exists m, e1 = e ++ m).
    { destruct (nth_error t i) as [x|]; [|discriminate]. destruct (scan (e_hdr x) (e_body x)); [|injection H1 as _ <-; exists []; rewrite app_nil_r; auto].
      apply bind_ok in H1 as ([b c] & _ & H1). injection H1 as _ <-. destruct (c =? 0); [exists []; rewrite app_nil_r; auto|eauto]. }
    destruct Hx as [m ->]. exists (m ++ more). rewrite app_assoc. split; auto. intros (c & w & [Hd|Hi]); [discriminate|].
    assert (more <> []) by eauto. destruct m; auto. discriminate.
  - injection H1 as _ <-. eexists. rewrite <- app_assoc. split; [reflexivity|]. discriminate.
Qed.

Lemma error_event posix cap tab rest evs pos jo jc jp fuel argv h s en a0 tab' n l :
  call cap tab en h argv a0 rest fuel -> read_args posix (map e_hdr tab) rest = (evs, Finished pos) ->
  (exists c v, In (EvErr c v) evs) ->
  observe (parse posix jo jc jp fuel (zlen (a0 :: rest)) argv h s tab en) = Ok (tab', n, l) -> 0 < n.
Proof.
  intros Hc Hr He Ho. rewrite (one_pass _ _ _ _ _ _ _ _ _ _ _ _ _ _ _ Hc Hr) in Ho.
  destruct (ideal_parse scan check reset evs pos tab) as [[t errs]| |] eqn:Ei; try discriminate. cbn in Ho. injection Ho as _ <- _.
  unfold ideal_parse in Ei. apply bind_ok in Ei as (t0 & _ & Ei). apply bind_ok in Ei as ([t1 e1] & E1 & Ei).
  apply bind_ok in Ei as ([t2 e2] & _ & Ei). apply events_errors in E1 as (more & -> & Hm). specialize (Hm He). cbn [snd app] in Ei.
  injection Ei as _ <-. pose proof (proj1 (c_end _ _ _ _ _ _ _ _ Hc)).
  destruct more as [|x more]; [contradiction|]. cbn [app]. rewrite zlen_cons. pose proof (zlen_nonneg (more ++ e2)). lia.
Qed.

(** ** An item in context *)
Lemma read_context posix t l g ev post evs pos : Forall (good_item t) l -> (posix = true -> positionals l = []) ->
  option_item t g ev -> read_args posix t post = (evs, Finished pos) ->
  read_args posix t (cmdline l ++ g ++ post) = (events l ++ ev ++ evs, Finished (positionals l ++ pos)).
Proof.
  intros Hl Hpx Hg Hr. destruct posix.
  - rewrite read_options_posix, (read_item true t g ev), Hr, Hpx by auto. unfold prepend. cbn [fst snd app]. reflexivity.
  - rewrite read_items, (read_item false t g ev), Hr by auto. unfold prepend, add_positionals. cbn [fst snd]. reflexivity.
Qed.
Lemma in_context posix cap tab jo jc jp fuel argv h s en a0 l g ev post evs pos :
  Forall (good_item (map e_hdr tab)) l -> (posix = true -> positionals l = []) ->
  option_item (map e_hdr tab) g ev -> read_args posix (map e_hdr tab) post = (evs, Finished pos) ->
  call cap tab en h argv a0 (cmdline l ++ g ++ post) fuel ->
  observe (parse posix jo jc jp fuel (zlen (a0 :: cmdline l ++ g ++ post)) argv h s tab en)
  = (st <- ideal_parse scan check reset (events l ++ ev ++ evs) (positionals l ++ pos) tab ;; Ok (visible cap st)).
Proof. intros. apply one_pass; auto. apply read_context; auto. Qed.

(** ** C06 *)
(** [accepts h b vs b']: the entry accepts the values one after the other. *)
Inductive accepts (h : hdr) : B -> list str -> B -> Prop :=
| accepts_nil b : accepts h b [] b
| accepts_cons b f v b1 vs b2 : scan h b = Some f -> f (Some v) = Ok (b1, 0) -> accepts h b1 vs b2 -> accepts h b (v :: vs) b2.
(** A positional entry takes [vs], up to the end or to the first value it rejects; [rej] is the
    rejection it leaves, given the one left by the entries before. *)
Inductive takes_from (h : hdr) (i : nat) (b : B) : list str -> list str -> option err -> option err -> B -> Prop :=
| tf_all vs b' rej : accepts h b vs b' -> takes_from h i b vs [] rej (match vs with [] => rej | _ => None end) b'
| tf_reject vs b1 f a l c b' rej : accepts h b vs b1 -> scan h b1 = Some f -> f (Some a) = Ok (b', c) -> c <> 0 ->
    takes_from h i b vs (a :: l) rej (Some (mk_err (PEntry i) c (Some a))) b'
| tf_noscan vs b' a l rej : accepts h b vs b' -> scan h b' = None ->
    takes_from h i b vs (a :: l) rej (match vs with [] => rej | _ => None end) b'.
Definition no_options (h : hdr) : Prop := h_shortopts h = None /\ h_longopts h = None.
(** The positional entries are used in table order; each takes a run of the remaining arguments. What
    is left at the end is reported: its first argument as rejected by the last entry tried (or as
    unexpected if there is none), the others as unexpected. *)
Inductive distributes : nat -> list (entry B) -> list str -> option err -> list (entry B) -> list err -> Prop :=
| dist_done i tab rej : distributes i tab [] rej tab []
| dist_left i a l rej : distributes i [] (a :: l) rej []
    ((match rej with Some e => e | None => mk_err PEnd ARG_ENOMATCH (Some a) end) :: map (fun x => mk_err PEnd ARG_ENOMATCH (Some x)) l)
| dist_option i e tab a l rej tab' errs : ~ no_options (e_hdr e) ->
    distributes (S i) tab (a :: l) rej tab' errs -> distributes i (e :: tab) (a :: l) rej (e :: tab') errs
| dist_takes i e tab vs l rej rej' b tab' errs : no_options (e_hdr e) -> vs ++ l <> [] ->
    takes_from (e_hdr e) i (e_body e) vs l rej rej' b ->
    distributes (S i) tab l rej' tab' errs -> distributes i (e :: tab) (vs ++ l) rej (set_body b e :: tab') errs.

Lemma feed_takes h i : forall args b rej b' l r, feed scan h i b args rej = Ok (b', l, r) ->
  exists vs, args = vs ++ l /\ takes_from h i b vs l rej r b'.
Proof.
  induction args as [|a args IH]; intros b rej b' l r H; cbn [feed] in H.
  - injection H as <- <- <-. exists []. split; auto. exact (tf_all h i b [] b rej (accepts_nil h b)).
  - destruct (scan h b) as [f|] eqn:Es.
    + apply bind_ok in H as ([b1 c] & Hf & H). destruct (Z.eqb_spec c 0) as [->|Hc].
      * destruct (IH _ _ _ _ _ H) as (vs & -> & Ht). exists (a :: vs). split; auto.
        inversion Ht as [? ? ? Ha|? ? ? ? ? ? ? ? Ha|? ? ? ? ? Ha]; subst.
        { replace (match vs with [] => None | _ :: _ => None end) with (match a :: vs with [] => rej | _ => @None err end) by (destruct vs; auto).
          apply (tf_all h i b (a :: vs)). econstructor; eauto. }
        { eapply tf_reject; eauto. econstructor; eauto. }
        { replace (match vs with [] => None | _ :: _ => None end) with (match a :: vs with [] => rej | _ => @None err end) by (destruct vs; auto).
          eapply (tf_noscan h i b (a :: vs)); eauto. econstructor; eauto. }
      * injection H as <- <- <-. exists []. split; auto. eapply tf_reject; eauto. constructor.
    + injection H as <- <- <-. exists []. split; auto. eapply (tf_noscan h i b []); eauto. constructor.
Qed.
Lemma positional_hdr_iff h : positional_hdr h = true <-> no_options h.
Proof. unfold positional_hdr, no_options. destruct (h_shortopts h), (h_longopts h); split; intros H; try discriminate; try (destruct H; discriminate); auto. Qed.
Lemma ideal_distributes : forall tab i args rej tab' errs, ideal_positional scan i tab args rej = Ok (tab', errs) ->
  distributes i tab args rej tab' errs.
Proof.
  induction tab as [|e tab IH]; intros i args rej tab' errs H; destruct args as [|a args]; cbn [ideal_positional] in H;
    try (injection H as <- <-; constructor; fail).
  - injection H as <- <-. destruct rej as [e|].
    + exact (dist_left i a args (Some e)).
    + exact (dist_left i a args None).
  - destruct (positional_hdr (e_hdr e)) eqn:Ep.
    + apply positional_hdr_iff in Ep. apply bind_ok in H as ([[b l] r] & Hf & H). apply bind_ok in H as ([t er] & Hp & H).
      injection H as <- <-. apply feed_takes in Hf as (vs & E & Ht). rewrite E. econstructor; eauto. rewrite <- E. discriminate.
    + apply bind_ok in H as ([t er] & Hp & H). injection H as <- <-. constructor; auto. intros Hn. apply positional_hdr_iff in Hn. congruence.
Qed.

Lemma positional_parse posix cap tab rest evs pos jo jc jp fuel argv h s en a0 tab' n errs :
  call cap tab en h argv a0 rest fuel -> read_args posix (map e_hdr tab) rest = (evs, Finished pos) ->
  observe (parse posix jo jc jp fuel (zlen (a0 :: rest)) argv h s tab en) = Ok (tab', n, errs) ->
  exists tab0 tab1 errs1 errs2,
    ideal_reset reset tab = Ok tab0 /\ ideal_events scan evs (tab0, []) = Ok (tab1, errs1) /\
    distributes 0 tab1 pos None tab' errs2 /\
    (errs1 ++ errs2 <> [] -> n = Z.min cap (zlen (errs1 ++ errs2)) /\ errs = shown cap (errs1 ++ errs2)).
Proof.
  intros Hc Hr Ho. rewrite (one_pass _ _ _ _ _ _ _ _ _ _ _ _ _ _ _ Hc Hr) in Ho.
  destruct (ideal_parse scan check reset evs pos tab) as [[t er]| |] eqn:Ei; try discriminate. cbn in Ho. injection Ho as <- <- <-.
  unfold ideal_parse in Ei. apply bind_ok in Ei as (t0 & E0 & Ei). apply bind_ok in Ei as ([t1 e1] & E1 & Ei).
  apply bind_ok in Ei as ([t2 e2] & E2 & Ei). injection Ei as <- <-. exists t0, t1, e1, e2. repeat split; auto.
  - apply ideal_distributes; auto.
  - destruct (e1 ++ e2); [contradiction|reflexivity].
  - destruct (e1 ++ e2); [contradiction|reflexivity].
Qed.

(** Every positional argument is stored by an entry or cited by an error, in order. *)
Definition cited (errs : list err) : list str := flat_map (fun e => match err_argval e with Some v => [v] | None => [] end) errs.
Lemma distributes_all i tab args rej tab' errs : distributes i tab args rej tab' errs ->
  (match rej, args with Some e, a :: _ => err_argval e = Some a | _, _ => True end) ->
  exists taken left : list str, args = taken ++ left /\ cited errs = left /\
    (exists runs, taken = List.concat runs /\ List.length runs = List.length tab /\
       forall k e run, nth_error tab k = Some e -> nth_error runs k = Some run -> run <> [] -> no_options (e_hdr e)).
Proof.
  induction 1 as [i tab rej|i a l rej|i e tab a l rej tab' errs Hn H IH|i e tab vs l rej rej' b tab' errs Hn Hne Ht H IH]; intros Hrej.
  - exists [], []. repeat split; auto. exists (map (fun _ => []) tab). split; [|split].
    + induction tab; auto.
    + apply map_length.
    + intros k e run _ Hr Hx. exfalso. apply Hx. apply nth_error_In in Hr. apply in_map_iff in Hr as (? & <- & _). auto.
  - exists [], (a :: l). repeat split; auto.
    + cbn. assert (E : err_argval (match rej with Some e => e | None => mk_err PEnd ARG_ENOMATCH (Some a) end) = Some a) by (destruct rej; auto).
      rewrite E. cbn. f_equal. clear. induction l; cbn; auto. f_equal; auto.
    + exists []. split; [|split]; auto. intros [|k] ? ? He; discriminate.
  - destruct (IH Hrej) as (taken & left & E & Hc & runs & Hr & Hl & Hk). exists taken, left. repeat split; auto.
    exists ([] :: runs). split; [|split]; [exact Hr|cbn; auto|].
    intros [|k] e' run He Hrun Hx; cbn in *; [injection Hrun as <-; contradiction|]. eapply Hk; eauto.
  - assert (Hrej' : match rej', l with Some e0, a :: _ => err_argval e0 = Some a | _, _ => True end).
    { inversion Ht; subst; auto; destruct vs; auto; cbn [app] in Hrej; destruct rej; auto. }
    destruct (IH Hrej') as (taken & left & E & Hc & runs & Hr & Hl & Hk). exists (vs ++ taken), left. rewrite E, app_assoc. repeat split; auto.
    exists (vs :: runs). split; [|split]; [cbn; congruence|cbn; auto|].
    intros [|k] e' run He Hrun Hx; cbn in *; [injection He as <-; auto|]. eapply Hk; eauto.
Qed.

(** ** C09 *)
Definition prefix (p s : str) : Prop := exists r, s = p ++ r.
Inductive selects (t : list hdr) (nm : str) (i : nat) (h : hdr) : Prop :=
| sel_exact : nth_error t i = Some h -> In nm (hdr_names h) ->
    (forall j h', (j < i)%nat -> nth_error t j = Some h' -> ~ In nm (hdr_names h')) -> selects t nm i h
| sel_prefix n : (forall j h', nth_error t j = Some h' -> ~ In nm (hdr_names h')) ->
    nth_error t i = Some h -> In n (hdr_names h) -> prefix nm n ->
    (forall j h' m, nth_error t j = Some h' -> In m (hdr_names h') -> prefix nm m -> j = i) -> selects t nm i h.

Lemma starts_with_iff p : forall s, starts_with p s = true <-> prefix p s.
Proof.
  induction p as [|a p IH]; intros s.
  - split; auto. intros _. exists s. auto.
  - destruct s as [|b s]; cbn.
    + split; [discriminate|]. intros (r & H). discriminate.
    + rewrite andb_true_iff, IH, ceqb_eq. split.
      * intros [-> (r & ->)]. exists r. auto.
      * intros (r & H). injection H as -> ->. split; auto. exists r. auto.
Qed.
Lemma in_long_names t : forall k n i h, In (n, (i, h)) (long_names t k) <->
  exists j, i = (k + j)%nat /\ nth_error t j = Some h /\ In n (hdr_names h).
Proof.
  induction t as [|h0 t IH]; intros k n i h; cbn [long_names].
  - split; [intros []|]. intros (j & _ & H & _). destruct j; discriminate.
  - rewrite in_app_iff, in_map_iff, IH. split.
    + intros [(m & E & Hm)|(j & -> & H)].
      * injection E as -> <- <-. exists 0%nat. split; [lia|]. auto.
      * exists (S j). split; [lia|]. auto.
    + intros ([|j] & -> & H & Hn).
      * left. injection H as ->. exists n. split; auto. f_equal. f_equal. lia.
      * right. exists j. split; [lia|]. auto.
Qed.
Lemma find_first {A} (f : A -> bool) l x : find f l = Some x -> exists l1 l2, l = l1 ++ x :: l2 /\ f x = true /\ Forall (fun y => f y = false) l1.
Proof.
  induction l as [|y l IH]; cbn; [discriminate|]. destruct (f y) eqn:E.
  - intros [= <-]. exists [], l. auto.
  - intros H. destruct (IH H) as (l1 & l2 & -> & H1 & H2). exists (y :: l1), l2. auto.
Qed.
Lemma long_names_sorted t : forall k, StronglySorted (fun a b => (fst (snd a) <= fst (snd b))%nat) (long_names t k).
Proof.
  induction t as [|h t IH]; intros k; cbn [long_names]; [constructor|].
  induction (hdr_names h) as [|n ns IHn]; cbn [map app]; auto.
  constructor; auto. apply Forall_app. split.
  - clear. induction ns; cbn; constructor; auto.
  - apply Forall_forall. intros [m [j h']] Hm. apply in_long_names in Hm as (q & -> & _). cbn. lia.
Qed.
Lemma sorted_app_le {A} (R : A -> A -> Prop) l1 x l2 y : StronglySorted R (l1 ++ x :: l2) -> In y (l1 ++ x :: l2) -> In y l1 \/ y = x \/ R x y.
Proof.
  induction l1 as [|z l1 IH]; cbn; intros Hs Hy.
  - inversion_clear Hs as [|? ? _ Hf]. destruct Hy as [<-|Hy]; auto. right. right. rewrite Forall_forall in Hf. auto.
  - inversion_clear Hs. destruct Hy as [<-|Hy]; auto. destruct (IH H Hy) as [|[]]; auto.
Qed.
Lemma long_find_iff t nm i h : long_find t nm = Some (i, h) <-> selects t nm i h.
Proof.
  assert (Snd : forall i h, long_find t nm = Some (i, h) -> selects t nm i h).
  { clear i h. intros i h. unfold long_find.
    destruct (find (fun p => str_eqb (fst p) nm) (long_names t 0)) as [[n [j h']]|] eqn:Ef.
    - intros [= <- <-]. pose proof (long_names_sorted t 0) as Hs. apply find_first in Ef as (l1 & l2 & E & Hn & H1). cbn in Hn. apply str_eqb_eq in Hn. subst n.
      assert (Hin : In (nm, (j, h')) (long_names t 0)) by (rewrite E; apply in_elt).
      apply in_long_names in Hin as (q & -> & Hq & Hnm). cbn [plus] in *. apply sel_exact; auto.
      intros j' h'' Hj Hj' Hnm'. assert (Hin' : In (nm, (j', h'')) (long_names t 0)) by (apply in_long_names; exists j'; auto).
      rewrite E in Hin', Hs. destruct (sorted_app_le _ _ _ _ _ Hs Hin') as [Hl|[Heq|Hle]].
      + rewrite Forall_forall in H1. apply H1 in Hl. cbn in Hl. rewrite (proj2 (str_eqb_eq nm nm) eq_refl) in Hl. discriminate.
      + injection Heq as -> ->. lia.
      + cbn in Hle. lia.
    - destruct (filter (fun p => starts_with nm (fst p)) (long_names t 0)) as [|[n [j h']] r] eqn:Er; [discriminate|].
      destruct (forallb (fun p => Nat.eqb (fst (snd p)) j) r) eqn:Ea; [|discriminate]. intros [= <- <-].
      assert (Hf : forall x, In x ((n, (j, h')) :: r) <-> In x (long_names t 0) /\ starts_with nm (fst x) = true).
      { intros x. rewrite <- Er. apply filter_In. }
      destruct (proj1 (Hf (n, (j, h')))) as [Hin Hst]; [left; auto|]. apply in_long_names in Hin as (q & -> & Hq & Hn). cbn [plus fst] in *.
      apply (sel_prefix t nm q h' n); auto.
      + intros j' h'' Hj' Hnm'. pose proof (find_none _ _ Ef (nm, (j', h''))) as Hx. cbn in Hx.
        rewrite (proj2 (str_eqb_eq nm nm) eq_refl) in Hx.
        assert (Hy : In (nm, (j', h'')) (long_names t 0)) by (apply in_long_names; exists j'; auto). discriminate (Hx Hy).
      + apply starts_with_iff; auto.
      + intros j' h'' m Hj' Hm Hp. assert (Hx : In (m, (j', h'')) ((n, (q, h')) :: r)).
        { apply Hf. split; [apply in_long_names; exists j'; auto|]. apply starts_with_iff; auto. }
        destruct Hx as [Hx|Hx]; [congruence|]. rewrite forallb_forall in Ea. apply Ea in Hx. apply Nat.eqb_eq in Hx. auto. }
  split; [apply Snd|]. intros Hsel.
  assert (Ex : exists p, long_find t nm = Some p).
  { unfold long_find. destruct (find (fun p => str_eqb (fst p) nm) (long_names t 0)) as [p|] eqn:Ef; [eauto|].
    destruct Hsel as [Hi Hn _|n Hno Hi Hn Hp Hall].
    - pose proof (find_none _ _ Ef (nm, (i, h))) as Hx. cbn in Hx. rewrite (proj2 (str_eqb_eq nm nm) eq_refl) in Hx.
      assert (Hy : In (nm, (i, h)) (long_names t 0)) by (apply in_long_names; exists i; auto). discriminate (Hx Hy).
    - destruct (filter (fun p => starts_with nm (fst p)) (long_names t 0)) as [|[m [j h']] r] eqn:Er.
      + assert (Hx : In (n, (i, h)) (filter (fun p => starts_with nm (fst p)) (long_names t 0))).
        { apply filter_In. split; [apply in_long_names; exists i; auto|]. apply starts_with_iff; auto. }
        rewrite Er in Hx. destruct Hx.
      + assert (Hall' : forall x, In x ((m, (j, h')) :: r) -> fst (snd x) = i).
        { intros [m' [j' h'']] Hx. rewrite <- Er in Hx. apply filter_In in Hx as [Hx Hs]. apply in_long_names in Hx as (q & -> & Hq & Hm).
          apply starts_with_iff in Hs. cbn. eapply Hall; eauto. }
        assert (Hj : j = i) by (apply (Hall' (m, (j, h'))); left; auto). subst j.
        rewrite (proj2 (forallb_forall _ _)); [eauto|]. intros x Hx. apply Nat.eqb_eq. apply Hall'. right; auto. }
  destruct Ex as [[i' h'] E]. rewrite E. pose proof (Snd _ _ E) as Hsel'.
  assert (U : i' = i).
  { destruct Hsel as [Hi Hn Hmin|n Hno Hi Hn Hp Hall], Hsel' as [Hi' Hn' Hmin'|n' Hno' Hi' Hn' Hp' Hall'].
    - destruct (Nat.lt_trichotomy i i') as [L|[L|L]]; [|auto|]; exfalso; [exact (Hmin' i h L Hi Hn)|exact (Hmin i' h' L Hi' Hn')].
    - exfalso. exact (Hno' i h Hi Hn).
    - exfalso. exact (Hno i' h' Hi' Hn').
    - exact (Hall i' h' n' Hi' Hn' Hp'). }
  subst i'. f_equal. f_equal. destruct Hsel, Hsel'; congruence.
Qed.

(** ** Single options *)
Lemma long_item_positional nm : nm <> [] -> is_positional (lit "--" ++ nm) = false /\ lit "--" ++ nm <> lit "--".
Proof. intros H. split; [reflexivity|]. intros E. apply H. destruct nm; [auto|discriminate]. Qed.
Lemma read_cluster_long t a body next : body <> [] -> 
  read_cluster t a ("-"%char :: body) next = (fst (read_long t a body next), Some (snd (read_long t a body next))).
Proof. intros H. cbn [read_cluster]. change (ceqb "-" "-") with true. cbn iota. destruct body; [contradiction|]. destruct (read_long t a (a0 :: body) next). reflexivity. Qed.
Lemma name_part_plain nm : ~ In "="%char nm -> name_part nm = nm /\ value_part nm = None.
Proof.
  induction nm as [|c nm IH]; intros H; cbn; auto. destruct (ceqb_spec c "=") as [->|]; [exfalso; apply H; left; auto|].
  destruct IH as [-> ->]; auto. intros Hi. apply H. right; auto.
Qed.
Lemma name_part_eq nm v : ~ In "="%char nm -> name_part (nm ++ "="%char :: v) = nm /\ value_part (nm ++ "="%char :: v) = Some v.
Proof.
  induction nm as [|c nm IH]; intros H; cbn; auto. destruct (ceqb_spec c "=") as [->|]; [exfalso; apply H; left; auto|].
  destruct IH as [-> ->]; auto. intros Hi. apply H. right; auto.
Qed.
(** The long forms of an option. *)
Lemma long_item t nm i h : nm <> [] -> ~ In "="%char nm -> selects t nm i h ->
  match long_takes h with
  | TNo => option_item t [lit "--" ++ nm] [EvScan i None]
  | TOpt => option_item t [lit "--" ++ nm] [EvScan i None] /\
            forall v, v <> [] -> option_item t [lit "--" ++ nm ++ "="%char :: v] [EvScan i (Some v)]
  | TReq => forall v, v <> [] -> option_item t [lit "--" ++ nm ++ "="%char :: v] [EvScan i (Some v)] /\
                                 option_item t [lit "--" ++ nm; v] [EvScan i (Some v)]
  end.
Proof.
  intros Hn Heq Hs. apply long_find_iff in Hs. destruct (long_item_positional nm Hn) as [Hp Hd].
  destruct (name_part_plain nm Heq) as [N1 N2].
  assert (Plain : forall next, read_long t (lit "--" ++ nm) nm next =
     match long_takes h with TNo | TOpt => ([EvScan i None], false)
     | TReq => match next with Some v => (long_occurrence i h (Some v) v, true) | None => ([EvErr ARG_EMISSARG (Some (lit "--" ++ nm))], false) end end).
  { intros next. unfold read_long. rewrite N1, N2, Hs. destruct (long_takes h); reflexivity. }
  assert (Val : forall v next, long_takes h <> TNo -> v <> [] -> read_long t (lit "--" ++ nm ++ "="%char :: v) (nm ++ "="%char :: v) next = ([EvScan i (Some v)], false)).
  { intros v next Ht Hv. destruct (name_part_eq nm v Heq) as [V1 V2]. unfold read_long. rewrite V1, V2, Hs.
    destruct v; [contradiction|]. destruct (long_takes h); [contradiction| |]; reflexivity. }
  assert (Valpos : forall v, nm ++ "="%char :: v <> []) by (intros v E; destruct nm; discriminate).
  assert (Alone : long_takes h <> TReq -> option_item t [lit "--" ++ nm] [EvScan i None]).
  { intros Ht. apply item_alone; auto. intros next. cbn [lit list_ascii_of_string app tl]. rewrite read_cluster_long by auto.
    change ("-"%char :: "-"%char :: nm) with (lit "--" ++ nm). rewrite Plain. destruct (long_takes h); [reflexivity|contradiction|reflexivity]. }
  assert (Attached : forall v, long_takes h <> TNo -> v <> [] -> option_item t [lit "--" ++ nm ++ "="%char :: v] [EvScan i (Some v)]).
  { intros v Ht Hv. destruct (long_item_positional (nm ++ "="%char :: v) (Valpos v)) as [P1 P2].
    apply item_alone; auto. intros next. cbn [lit list_ascii_of_string app tl]. rewrite read_cluster_long by auto.
    change ("-"%char :: "-"%char :: nm ++ "="%char :: v) with (lit "--" ++ nm ++ "="%char :: v). rewrite Val by auto. reflexivity. }
  destruct (long_takes h) eqn:Et.
  - apply Alone. discriminate.
  - intros v Hv. split; [apply Attached; auto; discriminate|].
    apply item_value; auto. cbn [lit list_ascii_of_string app tl]. rewrite read_cluster_long by auto.
    change ("-"%char :: "-"%char :: nm) with (lit "--" ++ nm). rewrite Plain. unfold long_occurrence. destruct v; [contradiction|reflexivity].
  - split; [apply Alone; discriminate|]. intros v Hv. apply Attached; auto. discriminate.
Qed.
(** The short forms of an option, at the end of a cluster of options without values. *)
Definition pass_event (t : list hdr) (c : ascii) : event :=
  match short_find t 0 c with Some (i, _) => EvScan i None | None => EvErr (sc c) None end.
Lemma read_passing t a next xs : forall cs, Forall (passes t) xs ->
  read_cluster t a (xs ++ cs) next = (map (pass_event t) xs ++ fst (read_cluster t a cs next), snd (read_cluster t a cs next)).
Proof.
  induction xs as [|x xs IH]; intros cs H; cbn [app map].
  - destruct (read_cluster t a cs next). reflexivity.
  - inversion_clear H as [|? ? [Hx Hf] Hxs]. cbn [read_cluster]. destruct (ceqb_spec x "-"); [contradiction|]. unfold pass_event at 1.
    rewrite (IH cs Hxs). destruct Hf as [->|(i & h & -> & ->)]; reflexivity.
Qed.
Lemma short_arg_option x cs : x <> "-"%char -> is_positional ("-"%char :: x :: cs) = false /\ "-"%char :: x :: cs <> lit "--".
Proof. intros H. split; [reflexivity|]. intros E. injection E as E _. contradiction. Qed.
Lemma short_item t c i h : c <> "-"%char -> first_declaring t c i h ->
  match short_takes h with
  | TNo => option_item t [["-"%char; c]] [EvScan i None]
  | TOpt => option_item t [["-"%char; c]] [EvScan i None] /\ forall v, v <> [] -> option_item t ["-"%char :: c :: v] [EvScan i (Some v)]
  | TReq => forall v, option_item t [["-"%char; c]; v] [EvScan i (Some v)] /\ (v <> [] -> option_item t ["-"%char :: c :: v] [EvScan i (Some v)])
  end.
Proof.
  intros Hc Hf. apply short_find_iff in Hf.
  assert (R : forall a cs next, read_cluster t a (c :: cs) next = match short_takes h with
          | TNo => let '(ev, r) := read_cluster t a cs next in (EvScan i None :: ev, r)
          | TOpt => ([EvScan i (match cs with [] => None | _ => Some cs end)], Some false)
          | TReq => match cs with
              | [] => match next with Some v => ([EvScan i (Some v)], Some true) | None => ([EvErr ARG_EMISSARG (Some a)], Some false) end
              | _ => ([EvScan i (Some cs)], Some false) end end).
  { intros a cs next. cbn [read_cluster]. destruct (ceqb_spec c "-"); [contradiction|]. rewrite Hf. reflexivity. }
  destruct (short_takes h).
  - destruct (short_arg_option c [] Hc). apply item_alone; auto. intros next. cbn [tl]. rewrite R. reflexivity.
  - intros v. split.
    + destruct (short_arg_option c [] Hc). apply item_value; auto. cbn [tl]. rewrite R. reflexivity.
    + intros Hv. destruct (short_arg_option c v Hc). apply item_alone; auto. intros next. cbn [tl]. rewrite R. destruct v; [contradiction|reflexivity].
  - split.
    + destruct (short_arg_option c [] Hc). apply item_alone; auto. intros next. cbn [tl]. rewrite R. reflexivity.
    + intros v Hv. destruct (short_arg_option c v Hc). apply item_alone; auto. intros next. cbn [tl]. rewrite R. destruct v; [contradiction|reflexivity].
Qed.

(** ** C10, C11 *)
Lemma alike_context posix t l rest1 rest2 evs pos : Forall (good_item t) l -> (posix = true -> positionals l = []) ->
  read_args posix t rest1 = (evs, Finished pos) -> read_args posix t rest2 = (evs, Finished pos) ->
  parsed_alike posix t (cmdline l ++ rest1) (cmdline l ++ rest2).
Proof.
  intros Hl Hpx H1 H2. apply (alike posix t _ _ (events l ++ evs) (positionals l ++ pos)).
  - destruct posix; [rewrite read_options_posix, H1, Hpx by auto|rewrite read_items, H1 by auto]; reflexivity.
  - destruct posix; [rewrite read_options_posix, H2, Hpx by auto|rewrite read_items, H2 by auto]; reflexivity.
Qed.
Lemma alike_hang_context posix t l rest1 rest2 : Forall (good_item t) l -> (posix = true -> positionals l = []) ->
  read_args posix t rest1 = read_args posix t rest2 -> snd (read_args posix t rest1) <> Hangs ->
  parsed_alike posix t (cmdline l ++ rest1) (cmdline l ++ rest2).
Proof.
  intros Hl Hpx H1 H2. destruct (read_args posix t rest1) as [evs [pos|]] eqn:E; [|contradiction].
  apply (alike_context posix t l rest1 rest2 evs pos); auto.
Qed.

(** Attached and separate values. *)
Lemma items_alike posix t l g1 g2 ev post : Forall (good_item t) l -> (posix = true -> positionals l = []) ->
  option_item t g1 ev -> option_item t g2 ev -> snd (read_args posix t post) <> Hangs ->
  parsed_alike posix t (cmdline l ++ g1 ++ post) (cmdline l ++ g2 ++ post).
Proof.
  intros Hl Hpx H1 H2 Hh. apply alike_hang_context; auto.
  - rewrite (read_item posix t g1 ev), (read_item posix t g2 ev) by auto. reflexivity.
  - rewrite (read_item posix t g1 ev) by auto. exact Hh.
Qed.

(** Values at the end of a cluster. *)
Lemma cluster_value t xs c i h v : Forall (passes t) xs -> c <> "-"%char -> first_declaring t c i h -> short_takes h = TReq -> v <> [] ->
  option_item t ["-"%char :: xs ++ c :: v] (map (pass_event t) xs ++ [EvScan i (Some v)]) /\
  option_item t ["-"%char :: xs ++ [c]; v] (map (pass_event t) xs ++ [EvScan i (Some v)]).
Proof.
  intros Hx Hc Hf Ht Hv. apply short_find_iff in Hf.
  assert (P : forall y, is_positional ("-"%char :: xs ++ c :: y) = false /\ "-"%char :: xs ++ c :: y <> lit "--").
  { intros y. destruct Hx as [|x xs [Hx _] _]; apply short_arg_option; auto. }
  assert (R : forall a cs next, read_cluster t a (c :: cs) next =
     match cs with
     | [] => match next with Some v => ([EvScan i (Some v)], Some true) | None => ([EvErr ARG_EMISSARG (Some a)], Some false) end
     | _ => ([EvScan i (Some cs)], Some false) end).
  { intros a cs next. cbn [read_cluster]. destruct (ceqb_spec c "-"); [contradiction|]. rewrite Hf, Ht. reflexivity. }
  split.
  - destruct (P v). apply item_alone; auto. intros next. cbn [tl]. rewrite read_passing, R by auto. destruct v; [contradiction|]. reflexivity.
  - destruct (P []). apply item_value; auto. cbn [tl]. rewrite read_passing, R by auto. reflexivity.
Qed.

(** Splitting a cluster. The only difference is the text some errors cite: the argument holding the
    option. *)
Definition ev_like (e1 e2 : event) : Prop :=
  match e1, e2 with
  | EvScan i v, EvScan j w => i = j /\ v = w
  | EvErr c None, EvErr d None => c = d
  | EvErr c (Some _), EvErr d (Some _) => c = d
  | _, _ => False
  end.
Definition err_like (e1 e2 : err) : Prop :=
  err_owner e1 = err_owner e2 /\ err_code e1 = err_code e2 /\
  (err_argval e1 = err_argval e2 \/ err_owner e1 = PEnd /\ err_argval e1 <> None /\ err_argval e2 <> None).
Lemma ev_like_refl e : ev_like e e.
Proof. destruct e as [i v|c [v|]]; cbn; auto. Qed.
Lemma evs_like_refl l : Forall2 ev_like l l.
Proof. induction l; constructor; auto using ev_like_refl. Qed.
Lemma err_like_refl e : err_like e e.
Proof. repeat split; auto. Qed.
Lemma errs_like_refl l : Forall2 err_like l l.
Proof. induction l; constructor; auto using err_like_refl. Qed.
Lemma long_occurrence_like i h v a a' : Forall2 ev_like (long_occurrence i h v a) (long_occurrence i h v a').
Proof. unfold long_occurrence. destruct v as [[|x y]|]; [destruct (h_hasvalue h)|..]; repeat constructor. Qed.
Lemma read_long_like t a a' body next : Forall2 ev_like (fst (read_long t a body next)) (fst (read_long t a' body next)) /\
  snd (read_long t a body next) = snd (read_long t a' body next).
Proof.
  unfold read_long. destruct (long_find t (name_part body)) as [[i h]|]; [|split; repeat constructor].
  destruct (long_takes h), (value_part body), next; cbn [fst snd]; split; auto; try apply long_occurrence_like; repeat constructor.
Qed.
Lemma read_cluster_like t a a' next : forall cs, Forall2 ev_like (fst (read_cluster t a cs next)) (fst (read_cluster t a' cs next)) /\
  snd (read_cluster t a cs next) = snd (read_cluster t a' cs next).
Proof.
  induction cs as [|c cs [IH1 IH2]]; cbn [read_cluster]; [split; constructor|].
  destruct (ceqb c "-").
  - destruct cs as [|c' cs']; [split; constructor|]. destruct (read_long_like t a a' (c' :: cs') next) as [H1 H2].
    destruct (read_long t a (c' :: cs') next), (read_long t a' (c' :: cs') next). cbn [fst snd] in *. subst. auto.
  - destruct (short_find t 0 c) as [[i h]|].
    + destruct (short_takes h).
      * destruct (read_cluster t a cs next), (read_cluster t a' cs next). cbn [fst snd] in *. split; auto. constructor; auto. cbn. auto.
      * destruct cs; [destruct next|]; split; repeat constructor.
      * split; repeat constructor.
    + destruct (read_cluster t a cs next), (read_cluster t a' cs next). cbn [fst snd] in *. split; auto. constructor; auto. cbn. auto.
Qed.

Definition read_like (r1 r2 : list event * outcome) : Prop := Forall2 ev_like (fst r1) (fst r2) /\ snd r1 = snd r2.
Lemma prepend_like ev1 ev2 r1 r2 : Forall2 ev_like ev1 ev2 -> read_like r1 r2 -> read_like (prepend ev1 r1) (prepend ev2 r2).
Proof. intros H [H1 H2]. split; cbn; auto. apply Forall2_app; auto. Qed.
Lemma read_like_refl r : read_like r r.
Proof. split; auto. apply evs_like_refl. Qed.
Lemma split_cluster posix t x (cs : str) (post : list str) : passes t x -> cs <> [] -> cs <> lit "-" ->
  read_like (read_args posix t (("-"%char :: x :: cs) :: post)) (read_args posix t (["-"%char; x] :: ("-"%char :: cs) :: post)).
Proof.
  intros [Hx Hp] Hc Hd. destruct (short_arg_option x cs Hx) as [A1 A2]. destruct (short_arg_option x [] Hx) as [B1 B2].
  assert (C1 : is_positional ("-"%char :: cs) = false) by (destruct cs; [contradiction|reflexivity]).
  assert (C2 : "-"%char :: cs <> lit "--") by (intros E; apply Hd; injection E as ->; reflexivity).
  unfold str in *. cbn [read_args]. rewrite A1, B1, C1, (str_eqb_neq _ _ A2), (str_eqb_neq _ _ B2), (str_eqb_neq _ _ C2). cbn [tl hd_error].
  assert (Hxs : Forall (passes t) [x]) by (constructor; [split; auto|constructor]).
  pose proof (read_passing t ("-"%char :: x :: cs) (hd_error post) [x] cs Hxs) as R1. cbn [app map] in R1.
  pose proof (read_passing t ["-"%char; x] (Some ("-"%char :: cs)) [x] [] Hxs) as R2. cbn [app map] in R2. unfold str in *. rewrite R1, R2. clear R1 R2. cbn [read_cluster fst snd].
  destruct (read_cluster_like t ("-"%char :: x :: cs) ("-"%char :: cs) (hd_error post) cs) as [L1 L2].
  destruct (read_cluster t ("-"%char :: x :: cs) cs (hd_error post)) as [e1 r1], (read_cluster t ("-"%char :: cs) cs (hd_error post)) as [e2 r2].
  cbn [fst snd] in *. subst r2.
  destruct r1 as [[|]|].
  - destruct post as [|v post']; [split; cbn; auto; constructor; [apply ev_like_refl|auto]|]. rewrite prepend_app. apply prepend_like; [|apply read_like_refl].
    constructor; auto. apply ev_like_refl.
  - rewrite prepend_app. apply prepend_like; [|apply read_like_refl]. constructor; auto. apply ev_like_refl.
  - split; cbn; auto. constructor; [apply ev_like_refl|auto].
Qed.

Lemma ideal_events_like evs1 evs2 : Forall2 ev_like evs1 evs2 -> forall tab e1 e2 tab' e1', Forall2 err_like e1 e2 ->
  ideal_events scan evs1 (tab, e1) = Ok (tab', e1') -> exists e2', ideal_events scan evs2 (tab, e2) = Ok (tab', e2') /\ Forall2 err_like e1' e2'.
Proof.
  induction 1 as [|ev1 ev2 evs1 evs2 Hev Hevs IH]; intros tab e1 e2 tab' e1' He H; cbn [ideal_events] in *.
  - injection H as <- <-. eauto.
  - apply bind_ok in H as ([t1 x1] & H1 & H2).
    assert (X : exists x2, ideal_event scan ev2 (tab, e2) = Ok (t1, x2) /\ Forall2 err_like x1 x2).
    { destruct ev1 as [i v|c v], ev2 as [j w|d w]; cbn in Hev; try contradiction; try (destruct v; contradiction).
      - destruct Hev as [<- <-]. cbn in *. destruct (nth_error tab i) as [e|]; [|discriminate].
        destruct (scan (e_hdr e) (e_body e)); [|injection H1 as <- <-; eauto].
        apply bind_ok in H1 as ([b c] & Hf & H1). rewrite Hf. cbn. injection H1 as <- <-. eexists. split; [reflexivity|].
        destruct (c =? 0); auto. apply Forall2_app; auto. constructor; auto using err_like_refl.
      - cbn in *. injection H1 as <- <-. eexists. split; [reflexivity|]. apply Forall2_app; auto. constructor; auto.
        destruct v, w; try contradiction; subst; repeat split; auto. right. repeat split; discriminate. }
    destruct X as (x2 & -> & Hx). cbn [bind]. eapply IH; eauto.
Qed.
Lemma ideal_parse_like evs1 evs2 pos tab tab' errs1 : Forall2 ev_like evs1 evs2 -> ideal_parse scan check reset evs1 pos tab = Ok (tab', errs1) ->
  exists errs2, ideal_parse scan check reset evs2 pos tab = Ok (tab', errs2) /\ Forall2 err_like errs1 errs2.
Proof.
  intros Hev H. unfold ideal_parse in *. apply bind_ok in H as (t0 & -> & H). cbn [bind]. apply bind_ok in H as ([t1 e1] & H1 & H).
  destruct (ideal_events_like evs1 evs2 Hev _ _ [] _ _ (Forall2_nil _) H1) as (e2 & -> & He). cbn [bind].
  apply bind_ok in H as ([t2 e3] & -> & H). cbn [bind]. injection H as <- <-. eexists. split; [reflexivity|].
  assert (Ha : Forall2 err_like (e1 ++ e3) (e2 ++ e3)) by (apply Forall2_app; auto using errs_like_refl).
  destruct Ha; [apply errs_like_refl|constructor; auto].
Qed.
Lemma shown_like cap e1 e2 : Forall2 err_like e1 e2 -> zlen e1 = zlen e2 /\ Forall2 err_like (shown cap e1) (shown cap e2).
Proof.
  intros H. assert (L : zlen e1 = zlen e2) by (unfold zlen; f_equal; induction H; cbn; auto).
  split; auto. unfold shown. rewrite <- L. destruct (zlen e1 <=? cap); auto. apply Forall2_app; [|apply errs_like_refl].
  generalize (Z.to_nat (cap - 1)). clear L. induction H; intros [|n]; cbn; constructor; auto.
Qed.
(** The same table and count, and errors that may differ in the text cited. *)
Definition same_but_text (o1 o2 : list (entry B) * Z * list err) : Prop :=
  fst (fst o1) = fst (fst o2) /\ snd (fst o1) = snd (fst o2) /\ Forall2 err_like (snd o1) (snd o2).
Definition parsed_alike_but_text (posix : bool) (t : list hdr) (args1 args2 : list str) : Prop :=
  forall cap tab, map e_hdr tab = t -> forall jo jc jp fuel argv h s en a0 jo' jc' jp' fuel' argv' h' s' en' a0',
  call cap tab en h argv a0 args1 fuel -> call cap tab en' h' argv' a0' args2 fuel' ->
  let o1 := observe (parse posix jo jc jp fuel (zlen (a0 :: args1)) argv h s tab en) in
  let o2 := observe (parse posix jo' jc' jp' fuel' (zlen (a0' :: args2)) argv' h' s' tab en') in
  (forall r1, o1 = Ok r1 -> exists r2, o2 = Ok r2 /\ same_but_text r1 r2) /\
  (forall r2, o2 = Ok r2 -> exists r1, o1 = Ok r1 /\ same_but_text r1 r2).
Lemma ev_like_sym e1 e2 : ev_like e1 e2 -> ev_like e2 e1.
Proof. destruct e1 as [i v|c [v|]], e2 as [j w|d [w|]]; cbn; try tauto; try congruence. intros [-> ->]. auto. Qed.
Lemma err_like_sym e1 e2 : err_like e1 e2 -> err_like e2 e1.
Proof. intros (H1 & H2 & H3). repeat split; auto. destruct H3 as [->|(H3 & H4 & H5)]; auto. right. repeat split; auto. congruence. Qed.
Lemma Forall2_sym {A} (R S : A -> A -> Prop) l1 l2 : (forall x y, R x y -> S y x) -> Forall2 R l1 l2 -> Forall2 S l2 l1.
Proof. intros H. induction 1; constructor; auto. Qed.
Lemma finished_of_ok posix cap tab jo jc jp fuel argv h s en a0 rest r :
  call cap tab en h argv a0 rest fuel -> observe (parse posix jo jc jp fuel (zlen (a0 :: rest)) argv h s tab en) = Ok r ->
  exists evs pos, read_args posix (map e_hdr tab) rest = (evs, Finished pos).
Proof.
  intros Hc Ho. destruct (read_args posix (map e_hdr tab) rest) as [evs [pos|]] eqn:E; eauto. exfalso.
  pose proof (observe_hangs scan check reset posix jo jc jp cap fuel argv h s tab en a0 rest evs Hc E fuel) as N.
  destruct (parse posix jo jc jp fuel (zlen (a0 :: rest)) argv h s tab en); [eapply N; eauto|discriminate|discriminate].
Qed.
Lemma read_like_alike posix t args1 args2 : read_like (read_args posix t args1) (read_args posix t args2) -> parsed_alike_but_text posix t args1 args2.
Proof.
  intros [L1 L2] cap tab Ht jo jc jp fuel argv h s en a0 jo' jc' jp' fuel' argv' h' s' en' a0' C1 C2 o1 o2. subst t.
  assert (Gen : forall cap tab en h argv a0 args1 fuel en' h' argv' a0' args2 fuel' jo jc jp s jo' jc' jp' s' r1,
    Forall2 ev_like (fst (read_args posix (map e_hdr tab) args1)) (fst (read_args posix (map e_hdr tab) args2)) ->
    snd (read_args posix (map e_hdr tab) args1) = snd (read_args posix (map e_hdr tab) args2) ->
    call cap tab en h argv a0 args1 fuel -> call cap tab en' h' argv' a0' args2 fuel' ->
    observe (parse posix jo jc jp fuel (zlen (a0 :: args1)) argv h s tab en) = Ok r1 ->
    exists r2, observe (parse posix jo' jc' jp' fuel' (zlen (a0' :: args2)) argv' h' s' tab en') = Ok r2 /\ same_but_text r1 r2).
  { clear. intros cap tab en h argv a0 args1 fuel en' h' argv' a0' args2 fuel' jo jc jp s jo' jc' jp' s' r1 L1 L2 C1 C2 Ho.
    destruct (finished_of_ok _ _ _ _ _ _ _ _ _ _ _ _ _ _ C1 Ho) as (evs1 & pos & E1). rewrite E1 in L1, L2.
    destruct (read_args posix (map e_hdr tab) args2) as [evs2 oc] eqn:E2. cbn [fst snd] in *. subst oc.
    rewrite (one_pass _ _ _ _ _ _ _ _ _ _ _ _ _ _ _ C1 E1) in Ho. rewrite (one_pass _ _ _ _ _ _ _ _ _ _ _ _ _ _ _ C2 E2).
    destruct (ideal_parse scan check reset evs1 pos tab) as [[t er]| |] eqn:Ei; try discriminate. cbn in Ho. injection Ho as <-.
    destruct (ideal_parse_like evs1 evs2 pos tab t er L1 Ei) as (er2 & -> & Hl). cbn. eexists. split; [reflexivity|].
    destruct (shown_like cap er er2 Hl) as [Z1 Z2]. repeat split; cbn; auto. congruence. }
  split.
  - intros r1 Ho. eapply Gen; eauto.
  - intros r2 Ho. apply (Forall2_sym _ _ _ _ ev_like_sym) in L1. symmetry in L2.
    destruct (Gen _ _ _ _ _ _ _ _ _ _ _ _ _ _ jo' jc' jp' s' jo jc jp s _ L1 L2 C2 C1 Ho) as (r1 & Hr & S1 & S2 & S3).
    exists r1. split; auto. repeat split; auto. exact (Forall2_sym _ _ _ _ err_like_sym S3).
Qed.
Lemma cluster_alike posix t l x (cs : str) (post : list str) : Forall (good_item t) l -> (posix = true -> positionals l = []) ->
  passes t x -> cs <> [] -> cs <> lit "-" ->
  parsed_alike_but_text posix t (cmdline l ++ ("-"%char :: x :: cs) :: post) (cmdline l ++ ["-"%char; x] :: ("-"%char :: cs) :: post).
Proof.
  intros Hl Hpx Hx Hc Hd. apply read_like_alike. pose proof (split_cluster posix t x cs post Hx Hc Hd) as H. destruct posix.
  - rewrite !read_options_posix by auto. apply prepend_like; auto. apply evs_like_refl.
  - rewrite !read_items by auto. apply prepend_like; [apply evs_like_refl|]. destruct H as [H1 H2]. split; [exact H1|]. cbn [add_positionals snd]. unfold str in *. rewrite H2. reflexivity.
Qed.

(** ** C14 *)
(** [a] is an argument with a bad option, [next] the argument after it. *)
Inductive bad_option (t : list hdr) : str -> option str -> Prop :=
| bad_short xs c ys next : Forall (passes t) xs -> c <> "-"%char -> (forall h, In h t -> declares c h = false) ->
    bad_option t ("-"%char :: xs ++ c :: ys) next
| bad_long xs body next : Forall (passes t) xs -> body <> [] -> (forall i h, ~ selects t (name_part body) i h) ->
    bad_option t ("-"%char :: xs ++ "-"%char :: body) next
| bad_value xs body i h v next : Forall (passes t) xs -> selects t (name_part body) i h -> long_takes h = TNo -> value_part body = Some v ->
    bad_option t ("-"%char :: xs ++ "-"%char :: body) next
| bad_long_missing xs body i h : Forall (passes t) xs -> body <> [] -> selects t (name_part body) i h -> long_takes h = TReq -> value_part body = None ->
    bad_option t ("-"%char :: xs ++ "-"%char :: body) None
| bad_long_empty xs body i h next : Forall (passes t) xs -> body <> [] -> selects t (name_part body) i h -> long_takes h = TReq ->
    (value_part body = Some [] \/ value_part body = None /\ next = Some []) -> bad_option t ("-"%char :: xs ++ "-"%char :: body) next
| bad_short_missing xs c i h : Forall (passes t) xs -> c <> "-"%char -> first_declaring t c i h -> short_takes h = TReq ->
    bad_option t ("-"%char :: xs ++ [c]) None.

Lemma long_find_none t nm : (forall i h, ~ selects t nm i h) -> long_find t nm = None.
Proof. intros H. destruct (long_find t nm) as [[i h]|] eqn:E; auto. apply long_find_iff in E. exfalso. eapply H; eauto. Qed.
Lemma long_takes_req_hasvalue h : long_takes h = TReq -> h_hasvalue h = true.
Proof. unfold long_takes. destruct (h_hasoptvalue h); [discriminate|]. destruct (h_hasvalue h); [auto|discriminate]. Qed.
Lemma bad_option_reads t a next : bad_option t a next -> exists c v, In (EvErr c v) (fst (read_cluster t a (tl a) next)).
Proof.
  intros H. destruct H as [xs c ys next Hx Hc Hn|xs body next Hx Hb Hn|xs body i h v next Hx Hs Ht Hv|xs body i h Hx Hb Hs Ht Hv
    |xs body i h next Hx Hb Hs Ht Hv|xs c i h Hx Hc Hf Ht]; cbn [tl]; rewrite read_passing by auto; cbn [fst].
  - exists (sc c), None. apply in_or_app. right. cbn [read_cluster]. destruct (ceqb_spec c "-"); [contradiction|].
    rewrite (proj2 (short_find_none t c 0)) by auto. destruct (read_cluster _ _ ys _). left. auto.
  - rewrite read_cluster_long by auto. cbn [fst]. unfold read_long. rewrite (long_find_none _ _ Hn). do 2 eexists. apply in_or_app. right. left. reflexivity.
  - rewrite read_cluster_long by (intros ->; discriminate). cbn [fst]. unfold read_long. apply long_find_iff in Hs. rewrite Hs, Ht, Hv.
    do 2 eexists. apply in_or_app. right. left. reflexivity.
  - rewrite read_cluster_long by auto. cbn [fst]. unfold read_long. apply long_find_iff in Hs. rewrite Hs, Ht, Hv.
    do 2 eexists. apply in_or_app. right. left. reflexivity.
  - rewrite read_cluster_long by auto. cbn [fst]. unfold read_long. apply long_find_iff in Hs. rewrite Hs, Ht.
    apply long_takes_req_hasvalue in Ht.
    destruct Hv as [->|[-> ->]]; unfold long_occurrence; rewrite Ht; do 2 eexists; apply in_or_app; right; left; reflexivity.
  - apply short_find_iff in Hf. cbn [read_cluster]. destruct (ceqb_spec c "-"); [contradiction|]. rewrite Hf, Ht. cbn [fst].
    do 2 eexists. apply in_or_app. right. left. reflexivity.
Qed.
Lemma bad_option_arg t a next : bad_option t a next -> is_positional a = false /\ a <> lit "--".
Proof.
  assert (S : forall xs c ys, Forall (passes t) xs -> c <> "-"%char -> is_positional ("-"%char :: xs ++ c :: ys) = false /\ "-"%char :: xs ++ c :: ys <> lit "--").
  { intros xs c ys [|x xs' [Hx _] _] Hc; apply short_arg_option; auto. }
  assert (L : forall xs body, Forall (passes t) xs -> body <> [] -> is_positional ("-"%char :: xs ++ "-"%char :: body) = false /\ "-"%char :: xs ++ "-"%char :: body <> lit "--").
  { intros xs body [|x xs' [Hx _] _] Hb; [exact (long_item_positional body Hb)|apply short_arg_option; auto]. }
  intros []; auto. apply L; auto. intros ->; discriminate.
Qed.
Lemma bad_reported posix cap tab jo jc jp fuel argv h s en a0 l a post tab' n errs :
  Forall (good_item (map e_hdr tab)) l -> (posix = true -> positionals l = []) ->
  bad_option (map e_hdr tab) a (hd_error post) -> call cap tab en h argv a0 (cmdline l ++ a :: post) fuel ->
  observe (parse posix jo jc jp fuel (zlen (a0 :: cmdline l ++ a :: post)) argv h s tab en) = Ok (tab', n, errs) -> 0 < n.
Proof.
  intros Hl Hpx Hb Hc Ho. destruct (finished_of_ok _ _ _ _ _ _ _ _ _ _ _ _ _ _ Hc Ho) as (evs & pos & E).
  refine (error_event _ _ _ _ _ _ _ _ _ _ _ _ _ _ _ _ _ _ Hc E _ Ho).
  destruct (bad_option_reads _ _ _ Hb) as (c & v & Hi). destruct (bad_option_arg _ _ _ Hb) as [P1 P2]. exists c, v.
  assert (R : In (EvErr c v) (fst (read_args posix (map e_hdr tab) (a :: post)))).
  { cbn [read_args]. rewrite P1, (str_eqb_neq _ _ P2).
    destruct (read_cluster (map e_hdr tab) a (tl a) (hd_error post)) as [ev [[|]|]]; [destruct post| |]; cbn [fst] in *; auto; unfold prepend; apply in_or_app; auto. }
  destruct posix.
  - rewrite read_options_posix in E by auto. injection E as <- _. apply in_or_app. right. auto.
  - rewrite read_items in E by auto. injection E as <- _. apply in_or_app. right. exact R.
Qed.

(** ** C07 *)
Lemma read_after_dashes posix t l post : Forall (good_item t) l -> (posix = true -> positionals l = []) ->
  read_args posix t (cmdline l ++ lit "--" :: post) = (events l, Finished (positionals l ++ post)).
Proof.
  intros Hl Hpx. destruct posix.
  - rewrite read_options_posix, Hpx by auto. unfold prepend. cbn. rewrite app_nil_r. reflexivity.
  - rewrite read_items by auto. unfold prepend, add_positionals. cbn. rewrite app_nil_r. reflexivity.
Qed.
End Generic.
