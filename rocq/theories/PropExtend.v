(** C65: a new optional option does not disturb the command lines of old. *)
From Verif Require Import Base IntModel FileModel DateModel GetoptModel ParseModel ParseSpec GetoptProofs ParseIdeal ParseProofs ParseFacts ParseObserve ParseLemmas ArgModel KindsSpec PropKinds CommandSpec CommandProofs InsertProofs.
From Coq Require Import ZArith List Ascii String Bool Lia.
Import ListNotations.
Open Scope Z_scope.

(** [long_request cs nm]: behind the dash of the argument ["-" ++ cs] stands, after any short options, a long option given by the
    name [nm] (all of it or its beginning). *)
Definition long_request (cs nm : str) : Prop :=
  exists x y, cs = x ++ "-"%char :: y /\ ~ In "-"%char x /\ ~ In "="%char nm /\ (y = nm \/ exists v, y = nm ++ "="%char :: v).
(** The entry [r] has options of its own: none of its letters and none of its names is one of the table [t]. *)
Definition own_options (r : hdr) (t : list hdr) : Prop :=
  ~ no_options r /\
  (forall c h, In h t -> declares c r = true -> declares c h = false) /\
  (forall nm h, In h t -> In nm (hdr_names r) -> ~ In nm (hdr_names h)).
(** What the arguments ask for by a long name is not meant for [r]: the name is one of the table, in full, or it is not the
    beginning of a name of [r]. *)
Definition not_for (r : hdr) (t : list hdr) (args : list str) : Prop :=
  forall cs nm, In ("-"%char :: cs) args -> long_request cs nm ->
    (exists h, In h t /\ In nm (hdr_names h)) \/ (forall m, In m (hdr_names r) -> ~ ParseLemmas.prefix nm m).

Lemma put_at_inv {A} (x : A) : forall k l j y, (k <= List.length l)%nat -> nth_error (put_at k x l) j = Some y ->
  (j = k /\ y = x) \/ exists i, j = renumber k i /\ nth_error l i = Some y.
Proof.
  unfold put_at, renumber. induction k as [|k IH]; intros l j y Hk H.
  - destruct j as [|j]; [injection H as <-; auto|]. right. exists j. auto.
  - destruct l as [|z l]; cbn in Hk; [lia|]. destruct j as [|j].
    + right. exists 0%nat. split; auto.
    + cbn [firstn skipn app nth_error] in H. destruct (IH l j y ltac:(lia) H) as [[-> ->]|(i & -> & Hi)]; [auto|]. right. exists (S i).
      change (S i <? S k)%nat with (i <? k)%nat. destruct (i <? k)%nat; auto.
Qed.
Lemma renumber_lt k i j : (renumber k i < renumber k j)%nat -> (i < j)%nat.
Proof. unfold renumber. destruct (Nat.ltb_spec i k), (Nat.ltb_spec j k); lia. Qed.
Lemma in_nth {A} (l : list A) i x : nth_error l i = Some x -> In x l. Proof. apply nth_error_In. Qed.

Section Spelling.
Context (t : list hdr) (r : hdr) (k : nat) (Hk : (k <= List.length t)%nat) (Hown : own_options r t).
Notation t' := (put_at k r t).
Definition ren_occ (o : occurrence) : occurrence := (renumber k (fst o), snd o).

Lemma declaring_put c i h : first_declaring t c i h -> first_declaring t' c (renumber k i) h.
Proof.
  destruct Hown as (_ & Hs & _). intros (H1 & H2 & H3). split; [rewrite put_at_nth; auto|]. split; auto.
  intros j h' Hj Hn. apply put_at_inv in Hn as [[-> ->]|(j0 & -> & Hn)]; auto.
  - destruct (declares c r) eqn:E; auto. rewrite (Hs c h (in_nth _ _ _ H1) E) in H2. discriminate.
  - apply renumber_lt in Hj. eauto.
Qed.
Lemma selects_put nm i h : (exists h, In h t /\ In nm (hdr_names h)) \/ (forall m, In m (hdr_names r) -> ~ ParseLemmas.prefix nm m) ->
  selects t nm i h -> selects t' nm (renumber k i) h.
Proof.
  destruct Hown as (_ & _ & Hl). intros Hnot [H1 H2 H3|n H1 H2 H3 H4 H5].
  - apply sel_exact; [rewrite put_at_nth; auto|auto|]. intros j h' Hj Hn. apply put_at_inv in Hn as [[-> ->]|(j0 & -> & Hn)]; auto.
    + intros Hr. exact (Hl nm h (in_nth _ _ _ H1) Hr H2).
    + apply renumber_lt in Hj. eauto.
  - assert (Hno : forall m, In m (hdr_names r) -> ~ ParseLemmas.prefix nm m).
    { destruct Hnot as [(h' & Hh & Hn)|Hnot]; auto. apply In_nth_error in Hh as (j & Hj). destruct (H1 j h' Hj Hn). }
    apply (sel_prefix _ _ _ _ n); [|rewrite put_at_nth; auto|auto|auto|].
    + intros j h' Hn. apply put_at_inv in Hn as [[-> ->]|(j0 & -> & Hn)]; auto; [|eauto]. intros Hr. apply (Hno nm Hr). exists []. rewrite app_nil_r. reflexivity.
    + intros j h' m Hn Hm Hp. apply put_at_inv in Hn as [[-> ->]|(j0 & -> & Hn)]; auto; [destruct (Hno m Hm Hp)|]. f_equal. eauto.
Qed.
Lemma long_option_put body ws o : (forall nm, long_request ("-"%char :: body) nm -> (exists h, In h t /\ In nm (hdr_names h)) \/ (forall m, In m (hdr_names r) -> ~ ParseLemmas.prefix nm m)) ->
  long_option t body ws o -> long_option t' body ws (ren_occ o).
Proof.
  intros Hnot H. revert Hnot. destruct H as [nm i h H1 H2 H3|nm v i h H1 H2 H3 H4|nm v i h H1 H2 H3 H4]; intros Hnot; unfold ren_occ; cbn [fst snd].
  - apply lo_bare with h; auto. apply selects_put; auto. apply Hnot. exists [], nm. repeat split; auto.
  - apply lo_equals with h; auto. apply selects_put; auto. apply Hnot. exists [], (nm ++ "="%char :: v). repeat split; auto. right. eauto.
  - apply lo_next with h; auto. apply selects_put; auto. apply Hnot. exists [], nm. repeat split; auto.
Qed.
Lemma cluster_put cs ws os : cluster t cs ws os ->
  (forall nm, long_request cs nm -> (exists h, In h t /\ In nm (hdr_names h)) \/ (forall m, In m (hdr_names r) -> ~ ParseLemmas.prefix nm m)) ->
  cluster t' cs ws (map ren_occ os).
Proof.
  induction 1 as [|c cs ws i h os Hc Hd Ht H IH|c i h Hc Hd Ht|c v i h Hc Hd Ht Hv|c v i h Hc Hd Ht|body ws o Hb Ho]; intros Hnot; cbn [map ren_occ fst snd].
  - constructor.
  - apply cl_switch with h; auto; [apply declaring_put; auto|]. apply IH. intros nm (x & y & -> & Hx & Hr). apply Hnot. exists (c :: x), y. split; [reflexivity|]. split; [intros [E|E]; auto|auto].
  - apply cl_bare with h; auto. apply declaring_put; auto.
  - apply cl_attached with h; auto. apply declaring_put; auto.
  - apply cl_next with h; auto. apply declaring_put; auto.
  - apply cl_long; auto. apply long_option_put; auto.
Qed.
Lemma spells_put posix args os pos : spells t posix args os pos -> not_for r t args -> spells t' posix args (map ren_occ os) pos.
Proof.
  induction 1 as [|rest|a rest Hp Hw|a rest os pos Hp Hw H IH|cs ws os rest os' pos Hn Hd Hc H IH]; intros Hnot; cbn [map].
  - constructor.
  - constructor.
  - constructor; auto.
  - constructor; auto. apply IH. intros cs nm Hin. apply Hnot. right. exact Hin.
  - rewrite map_app. apply sp_option; auto.
    + apply cluster_put; auto. intros nm. apply Hnot. left. reflexivity.
    + apply IH. intros cs' nm Hin. apply Hnot. right. apply in_app_iff. auto.
Qed.
Lemma evs_ren os : evs_of (map ren_occ os) = map (renumber_ev k) (evs_of os).
Proof. unfold evs_of. rewrite !map_map. apply map_ext. intros [i v]. reflexivity. Qed.
End Spelling.

Section Kinds.
Context {D : Type}.
Context (strtod : str -> D * nat).
Context (rexmatch : str -> Z -> str -> res bool).
Context (lm : long_model) (sp : seps).
Notation scan := (kscan strtod rexmatch lm sp).
Notation parse := (karg_parse strtod rexmatch lm sp).

Lemma new_bystander e mn mx : new e mn mx -> mn <= 0 -> ~ no_options (e_hdr e) -> bystander scan kcheck kreset e e.
Proof.
  intros He Hmn Hopt. split; [reflexivity|]. split; [|split].
  - destruct He; reflexivity.
  - intros Hp. destruct Hopt. unfold positional_hdr in Hp. unfold no_options. destruct (h_shortopts (e_hdr e)), (h_longopts (e_hdr e)); try discriminate; auto.
  - right. assert (Hlt : (0 <? mn) = false) by (apply Z.ltb_ge; lia). destruct He; unfold e_hdr, e_body, kcheck, arg_int_checkfn, checkfn; cbn -[Z.ltb]; rewrite Hlt; reflexivity.
Qed.

(** A program gets a new entry [r], made by any constructor with options of its own and mincount 0 (or less), anywhere in its
    table. Every command line made of options of the old table and words, in which no long name is abbreviated to the beginning
    of a name of [r], is parsed as before: same return value, the old entries come out the same, [r] comes out with nothing
    in it, and the same errors are recorded of the same entries. *)
Theorem C65_new_option :
  forall posix cap (l1 l2 : list (entry (body D))) r mn mx rest os pos,
  new r mn mx -> mn <= 0 -> own_options (e_hdr r) (map e_hdr (l1 ++ l2)) ->
  spells (map e_hdr (l1 ++ l2)) posix rest os pos -> not_for (e_hdr r) (map e_hdr (l1 ++ l2)) rest ->
  forall jo jc jp fuel argv h s en a0, call cap (l1 ++ l2) en h argv a0 rest fuel ->
  forall jo' jc' jp' fuel' argv' h' s' en' a0', call cap (l1 ++ r :: l2) en' h' argv' a0' rest fuel' ->
  observe (parse posix jo' jc' jp' fuel' (zlen (a0' :: rest)) argv' h' s' (l1 ++ r :: l2) en') =
  (o <- observe (parse posix jo jc jp fuel (zlen (a0 :: rest)) argv h s (l1 ++ l2) en) ;; Ok (with_entry (List.length l1) r o)).
Proof.
  intros posix cap l1 l2 r mn mx rest os pos Hnew Hmn Hown Hsp Hnot jo jc jp fuel argv h s en a0 Hc jo' jc' jp' fuel' argv' h' s' en' a0' Hc'.
  set (k := List.length l1).
  assert (Hk : (k <= List.length (l1 ++ l2))%nat) by (rewrite app_length; unfold k; lia).
  assert (Et : l1 ++ r :: l2 = put_at k r (l1 ++ l2)) by (unfold k; rewrite put_at_app; reflexivity).
  assert (Eh : map e_hdr (l1 ++ r :: l2) = put_at k (e_hdr r) (map e_hdr (l1 ++ l2))).
  { rewrite !map_app. cbn [map]. unfold k. rewrite <- (map_length e_hdr l1), put_at_app. reflexivity. }
  pose proof (spells_put _ _ k ltac:(rewrite map_length; exact Hk) Hown _ _ _ _ Hsp Hnot) as Hsp'. rewrite <- Eh in Hsp'.
  apply spells_iff in Hsp, Hsp'. rewrite evs_ren in Hsp'. unfold karg_parse.
  rewrite (one_pass scan kcheck kreset _ _ _ _ _ _ _ _ _ _ _ _ _ _ _ Hc Hsp), (one_pass scan kcheck kreset _ _ _ _ _ _ _ _ _ _ _ _ _ _ _ Hc' Hsp').
  rewrite Et, (parse_put scan kcheck kreset r r (new_bystander r mn mx Hnew Hmn (proj1 Hown))) by auto.
  destruct (ideal_parse scan kcheck kreset (evs_of os) pos (l1 ++ l2)) as [st| |]; cbn [bind]; [|reflexivity|reflexivity]. rewrite visible_onto. reflexivity.
Qed.

(** If [r] has short options only, there is no condition about abbreviations. *)
Corollary C65_new_short_option :
  forall posix cap (l1 l2 : list (entry (body D))) r mn mx rest os pos,
  new r mn mx -> mn <= 0 -> own_options (e_hdr r) (map e_hdr (l1 ++ l2)) -> h_longopts (e_hdr r) = None ->
  spells (map e_hdr (l1 ++ l2)) posix rest os pos ->
  forall jo jc jp fuel argv h s en a0, call cap (l1 ++ l2) en h argv a0 rest fuel ->
  forall jo' jc' jp' fuel' argv' h' s' en' a0', call cap (l1 ++ r :: l2) en' h' argv' a0' rest fuel' ->
  observe (parse posix jo' jc' jp' fuel' (zlen (a0' :: rest)) argv' h' s' (l1 ++ r :: l2) en') =
  (o <- observe (parse posix jo jc jp fuel (zlen (a0 :: rest)) argv h s (l1 ++ l2) en) ;; Ok (with_entry (List.length l1) r o)).
Proof.
  intros posix cap l1 l2 r mn mx rest os pos Hnew Hmn Hown Hl Hsp. intros. eapply C65_new_option; eauto.
  intros cs nm _ _. right. intros m Hm. unfold hdr_names in Hm. rewrite Hl in Hm. destruct Hm.
Qed.
End Kinds.

(** ** Examples *)
From Verif Require ExTable PropRemark.
Local Open Scope string_scope.
Local Open Scope list_scope.
Local Open Scope Z_scope.
Definition ex_r : entry (body Z) := arg_litn (ExTable.o "q") (ExTable.o "quiet,silent") 0 1 None.
Definition ex_args : list string := ["-vnx"; "a"; "--out=f"; "b"; "c"].
Lemma ex_call0 : call 4 (PropRemark.ex_l1 ++ PropRemark.ex_l2) (ExTable.en 4) (ExTable.heap0 ("p" :: ex_args)) 1 (lit "p") (map lit ex_args) (S (total (map lit ex_args)) + 0).
Proof. exact (ExTable.call_ok "p" ex_args 4 0 ltac:(lia) eq_refl). Qed.
Lemma ex_call1 : call 4 (PropRemark.ex_l1 ++ ex_r :: PropRemark.ex_l2) (ExTable.en 4) (ExTable.heap0 ("p" :: ex_args)) 1 (lit "p") (map lit ex_args) (S (total (map lit ex_args)) + 0).
Proof. destruct ex_call0 as [H1 H2 H3 H4 H5]. constructor; auto. apply ExTable.good_hdrs_ok. reflexivity. Qed.
Lemma ex_own : own_options (e_hdr ex_r) (map e_hdr (PropRemark.ex_l1 ++ PropRemark.ex_l2)).
Proof.
  split; [intros [H _]; discriminate|]. split.
  - intros c h Hh Hc. unfold declares in Hc. cbn in Hc. rewrite orb_false_r in Hc. apply ceqb_eq in Hc. subst c.
    cbn in Hh. destruct Hh as [<-|[<-|[<-|[<-|[]]]]]; reflexivity.
  - intros nm h Hh Hn Hn'. cbn in Hn, Hh. destruct Hn as [<-|[<-|[]]]; destruct Hh as [<-|[<-|[<-|[<-|[]]]]]; cbn in Hn'; repeat (destruct Hn' as [Hn'|Hn']; [discriminate|]); exact Hn'.
Qed.
Lemma ex_spells : spells (map e_hdr (PropRemark.ex_l1 ++ PropRemark.ex_l2)) false (map lit ex_args)
  [(0%nat, None); (1%nat, ExTable.o "x"); (2%nat, ExTable.o "f")] [lit "a"; lit "b"; lit "c"].
Proof. apply spells_iff. vm_compute. reflexivity. Qed.
Lemma ex_not_for : not_for (e_hdr ex_r) (map e_hdr (PropRemark.ex_l1 ++ PropRemark.ex_l2)) (map lit ex_args).
Proof.
  intros cs nm Hin (x & y & -> & Hx & Hnm & Hy). right.
  assert (E : y = lit "out=f").
  { cbn in Hin. destruct Hin as [H|[H|[H|[H|[H|[]]]]]]; try discriminate; injection H as H.
    - assert (Hd : In "-"%char (lit "vnx")) by (change (lit "vnx") with (["v"; "n"; "x"]%char); rewrite H; apply in_elt).
      cbn in Hd. repeat (destruct Hd as [Hd|Hd]; [discriminate|]). destruct Hd.
    - destruct x as [|c x]; [injection H as H; symmetry; exact H|]. injection H as <- H. destruct Hx. left. reflexivity. }
  intros m Hm (z & Hz). assert (Hh : exists nm', nm = "o"%char :: nm').
  { destruct nm as [|c nm].
    - destruct Hy as [->|(v & ->)]; discriminate.
    - destruct Hy as [->|(v & Hy)]; [injection E as -> _; eauto|]. rewrite E in Hy. injection Hy as <- _. eauto. }
  destruct Hh as (nm' & ->). cbn in Hm. destruct Hm as [<-|[<-|[]]]; discriminate.
Qed.
Definition ex_obs (tab : list (entry (body Z))) :=
  observe (ExTable.parse false ExTable.jo ExTable.jc ExTable.jp (S (total (map lit ex_args)) + 0) (zlen (lit "p" :: map lit ex_args)) 1 (ExTable.heap0 ("p" :: ex_args)) ExTable.s0 tab (ExTable.en 4)).
(** A switch --quiet is added; [--out] still means --output, and the same mistakes are reported. *)
Example C65_case : exists t, ex_obs (PropRemark.ex_l1 ++ PropRemark.ex_l2) = Ok (t, 2, [mk_err (PEntry 1) ARG_ERR_BADINT (ExTable.o "x"); mk_err (PEntry 3) ARG_ERR_MAXCOUNT (ExTable.o "c")]) /\
  ex_obs (PropRemark.ex_l1 ++ ex_r :: PropRemark.ex_l2) = Ok (firstn 2 t ++ ex_r :: skipn 2 t, 2, [mk_err (PEntry 1) ARG_ERR_BADINT (ExTable.o "x"); mk_err (PEntry 4) ARG_ERR_MAXCOUNT (ExTable.o "c")]).
Proof.
  assert (E : exists t, ex_obs (PropRemark.ex_l1 ++ PropRemark.ex_l2) = Ok (t, 2, [mk_err (PEntry 1) ARG_ERR_BADINT (ExTable.o "x"); mk_err (PEntry 3) ARG_ERR_MAXCOUNT (ExTable.o "c")])).
  { eexists. vm_compute. reflexivity. }
  destruct E as (t & E). exists t. split; [exact E|].
  pose proof (C65_new_option ExTable.strtod ExTable.rexmatch Long64 unix_seps false 4 _ _ ex_r 0 1 (map lit ex_args) _ _ (new_lit _ _ 0 1 _) ltac:(lia)
    ex_own ex_spells ex_not_for ExTable.jo ExTable.jc ExTable.jp _ _ _ ExTable.s0 _ _ ex_call0 ExTable.jo ExTable.jc ExTable.jp _ _ _ ExTable.s0 _ _ ex_call1) as H.
  change (ex_obs (PropRemark.ex_l1 ++ ex_r :: PropRemark.ex_l2) = (o <- ex_obs (PropRemark.ex_l1 ++ PropRemark.ex_l2) ;; Ok (with_entry 2 ex_r o))) in H.
  rewrite H, E. reflexivity.
Qed.
(** The condition about abbreviations is needed: with a switch --outline, [--out] is ambiguous. *)
Example C65_abbreviations : exists t code, ex_obs (PropRemark.ex_l1 ++ arg_litn None (ExTable.o "outline") 0 1 None :: PropRemark.ex_l2) =
  Ok (t, 3, [mk_err (PEntry 1) ARG_ERR_BADINT (ExTable.o "x"); mk_err PEnd code (ExTable.o "--out=f"); mk_err (PEntry 4) ARG_ERR_MAXCOUNT (ExTable.o "c")]).
Proof. eexists. eexists. vm_compute. reflexivity. Qed.

Print Assumptions C65_new_option.
Print Assumptions C65_new_short_option.
