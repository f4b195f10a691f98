(** The option tables built by alloc_longoptions and alloc_shortoptions: contents and bounds
    (lemmas for C15, C49 and the parser). *)
From Verif Require Import Base IntModel GetoptModel ParseModel ParseSpec LongOnlySpec.
From Coq Require Import ZArith List Ascii String Bool Lia.
Import ListNotations.
Open Scope Z_scope.

(** Appending at the end of the filled part of an array. *)
Lemma aset_app {A} (a : list A) x b y : aset (a ++ x :: b) (zlen a) y = Ok (a ++ y :: b).
Proof.
  unfold aset. rewrite app_length. simpl List.length.
  destruct (Z.leb_spec 0 (zlen a)); [|pose proof (zlen_nonneg a); lia].
  destruct (Z.ltb_spec (zlen a) (Z.of_nat (List.length a + S (List.length b)))); [|unfold zlen in *; lia].
  simpl. f_equal. unfold zlen. rewrite Nat2Z.id. induction a; simpl; auto. f_equal; auto.
  apply IHa; unfold zlen in *; lia.
Qed.
Lemma aset_app' {A} (a : list A) x b y i : i = zlen a -> aset (a ++ x :: b) i y = Ok (a ++ y :: b).
Proof. intros ->. apply aset_app. Qed.

Lemma fresh_len {A} (j : nat -> A) n : 0 <= n -> zlen (fresh j n) = n.
Proof. intros. unfold zlen, fresh. rewrite map_length, seq_length. lia. Qed.

(** ** Names *)
Fixpoint seg (s : str) : str := match s with [] => [] | c :: s' => if ceqb c "," then [] else c :: seg s' end.
Fixpoint after (s : str) : str := match s with [] => [] | c :: s' => if ceqb c "," then s' else after s' end.
Fixpoint stop (s : str) : str := match s with [] => [] | c :: s' => if ceqb c "," then s else stop s' end.

Lemma names_aux_seg s : forall cur, names_aux s cur = (cur ++ seg s) :: names (after s).
Proof.
  induction s as [|c s IH]; intros cur; simpl.
  - rewrite app_nil_r. reflexivity.
  - destruct (ceqb c ","); simpl.
    + rewrite app_nil_r. destruct s; reflexivity.
    + rewrite IH. rewrite <- app_assoc. reflexivity.
Qed.
Lemma names_seg c s : names (c :: s) = seg (c :: s) :: names (after (c :: s)).
Proof. unfold names at 1. rewrite names_aux_seg. reflexivity. Qed.

Lemma after_len s : s <> [] -> (List.length (after s) < List.length s)%nat.
Proof.
  induction s as [|c s IH]; intros H; [congruence|]. simpl. destruct (ceqb c ","); [lia|].
  destruct s; simpl; [lia|]. assert (List.length (after (a :: s)) < List.length (a :: s))%nat by (apply IH; discriminate).
  simpl in *. lia.
Qed.
Lemma seg_after_len s : zlen (seg s) + zlen (after s) <= zlen s.
Proof.
  induction s as [|c s IH]; simpl; [unfold zlen; simpl; lia|].
  destruct (ceqb c ","); rewrite ?zlen_cons; [rewrite zlen_nil|]; lia.
Qed.
Lemma seg_after_len' s : after s <> [] -> zlen (seg s) + zlen (after s) + 1 <= zlen s.
Proof.
  induction s as [|c s IH]; simpl; [congruence|]. intros H.
  destruct (ceqb c ","); rewrite ?zlen_cons; [rewrite zlen_nil; lia|]. specialize (IH H). lia.
Qed.
Lemma stop_after s : after s = match stop s with c :: t => if ceqb c "," then t else stop s | [] => [] end.
Proof.
  induction s as [|c s IH]; simpl; auto. destruct (ceqb c ",") eqn:E; auto. rewrite E. reflexivity.
Qed.
Lemma seg_cstr s : cstr s -> cstr (seg s).
Proof.
  unfold cstr. induction s as [|c s IH]; simpl; auto. intros H. destruct (ceqb c ","); simpl; tauto.
Qed.
Lemma after_cstr s : cstr s -> cstr (after s).
Proof.
  unfold cstr. induction s as [|c s IH]; simpl; auto. intros H. destruct (ceqb c ","); tauto.
Qed.

Lemma names_ind (P : str -> Prop) :
  P [] -> (forall c s, P (after (c :: s)) -> P (c :: s)) -> forall s, P s.
Proof.
  intros H0 H1 s. remember (List.length s) as n eqn:E. revert s E.
  induction n as [n IH] using lt_wf_ind. intros [|c s] E; auto.
  apply H1. eapply IH; [|reflexivity]. subst n. apply after_len. discriminate.
Qed.

Lemma names_cstr s : cstr s -> Forall cstr (names s).
Proof.
  induction s as [|c s IH] using names_ind; intros H; [constructor|].
  rewrite names_seg. constructor; [apply seg_cstr; auto|]. apply IH. apply after_cstr; auto.
Qed.

Definition store_size (ns : list str) : Z := fold_right (fun n z => zlen n + 1 + z) 0 ns.
Lemma store_size_app a b : store_size (a ++ b) = store_size a + store_size b.
Proof. induction a; simpl; [lia|]. rewrite IHa. lia. Qed.
Lemma store_size_nonneg a : 0 <= store_size a.
Proof. induction a; simpl; [lia|]. pose proof (zlen_nonneg a). lia. Qed.

Lemma names_store s : store_size (names s) <= zlen s + 1.
Proof.
  induction s as [|c s IH] using names_ind; [unfold zlen; simpl; lia|].
  rewrite names_seg. cbn [store_size fold_right]. fold (store_size (names (after (c :: s)))).
  destruct (list_eq_dec ascii_dec (after (c :: s)) []) as [E|E].
  - rewrite E. change (store_size (names [])) with 0. pose proof (seg_after_len (c :: s)) as H. rewrite E, zlen_nil in H. lia.
  - pose proof (seg_after_len' _ E). lia.
Qed.

Lemma count_commas_cons c s : count_commas (c :: s) = (if ceqb c "," then 1 else 0) + count_commas s.
Proof. unfold count_commas. simpl. destruct (ceqb c ","); rewrite ?zlen_cons; lia. Qed.
Lemma count_commas_nonneg s : 0 <= count_commas s. Proof. apply zlen_nonneg. Qed.

Lemma names_count_after s : count_commas (after s) + (if list_eq_dec ascii_dec (after s) [] then 0 else 1) <= count_commas s.
Proof.
  induction s as [|c s IH]; simpl.
  - unfold count_commas; simpl. unfold zlen; simpl. lia.
  - rewrite count_commas_cons. destruct (ceqb c ","); [|auto].
    destruct (list_eq_dec ascii_dec s []); lia.
Qed.
Lemma names_count s : s <> [] -> zlen (names s) <= 1 + count_commas s.
Proof.
  pattern s; apply names_ind; clear s; [congruence|]. intros c s IH _.
  rewrite names_seg. rewrite (@zlen_cons str). pose proof (names_count_after (c :: s)).
  destruct (list_eq_dec ascii_dec (after (c :: s)) []) as [E|E].
  - rewrite E. change (zlen (names [])) with 0. pose proof (count_commas_nonneg (c :: s)). lia.
  - specialize (IH E). lia.
Qed.

(** ** Long options *)
Definition mk_lopt (h : hdr) (i : Z) (n : str) : lopt :=
  {| lo_name := n; lo_has_arg := long_has_arg h; lo_flag := true; lo_val := i |}.
Fixpoint lopts_of (t : list hdr) (i : Z) : list lopt :=
  match t with
  | [] => []
  | h :: t' => map (mk_lopt h i) (hdr_names h) ++ lopts_of t' (i + 1)
  end.

(** How a list of options is laid out in the two arrays. *)
Fixpoint enc_o (P : list lopt) (b : Z) : list rawopt :=
  match P with
  | [] => []
  | o :: P' => {| ro_name := Some b; ro_has_arg := lo_has_arg o; ro_flag := lo_flag o; ro_val := lo_val o |}
               :: enc_o P' (b + zlen (lo_name o) + 1)
  end.
Fixpoint enc_s (P : list lopt) : list ascii :=
  match P with
  | [] => []
  | o :: P' => lo_name o ++ NUL :: enc_s P'
  end.

Lemma enc_s_app P Q : enc_s (P ++ Q) = enc_s P ++ enc_s Q.
Proof. induction P; simpl; auto. rewrite IHP, <- app_assoc. reflexivity. Qed.
Lemma enc_o_app P Q b : enc_o (P ++ Q) b = enc_o P b ++ enc_o Q (b + zlen (enc_s P)).
Proof.
  revert b; induction P; intros; simpl; [rewrite zlen_nil, Z.add_0_r; auto|].
  rewrite IHP. rewrite zlen_app, zlen_cons. do 3 f_equal. lia.
Qed.
Lemma enc_o_len P b : zlen (enc_o P b) = zlen P.
Proof. revert b; induction P; intros; simpl; auto. rewrite !zlen_cons, IHP. auto. Qed.
Lemma enc_s_len P : zlen (enc_s P) = store_size (map lo_name P).
Proof. induction P; simpl; auto. rewrite zlen_app, zlen_cons, IHP. lia. Qed.

Lemma copy_name_ok l : forall sf jc, zlen (seg l) < zlen jc -> exists jc',
  copy_name l (zlen sf) (sf ++ jc) = Ok (stop l, zlen sf + zlen (seg l) + 1, sf ++ seg l ++ NUL :: jc') /\
  zlen jc' = zlen jc - zlen (seg l) - 1.
Proof.
  induction l as [|c l IH]; intros sf jc H; cbn [copy_name seg stop] in *.
  - destruct jc as [|x jc]; [rewrite !zlen_nil in H; lia|].
    rewrite aset_app. cbn [bind]. exists jc. rewrite zlen_nil, zlen_cons. split; [|lia].
    repeat f_equal. lia.
  - destruct (ceqb c ",").
    + destruct jc as [|x jc]; [rewrite !zlen_nil in H; lia|].
      rewrite aset_app. cbn [bind]. exists jc. rewrite zlen_nil, zlen_cons. split; [|lia].
      repeat f_equal. lia.
    + rewrite zlen_cons in H.
      destruct jc as [|x jc]; [rewrite zlen_nil in H; pose proof (zlen_nonneg (seg l)); lia|].
      rewrite zlen_cons in H.
      rewrite aset_app. cbn [bind].
      replace (sf ++ c :: jc) with ((sf ++ [c]) ++ jc) by (rewrite <- app_assoc; reflexivity).
      replace (zlen sf + 1) with (zlen (sf ++ [c])) by (rewrite zlen_app, zlen_cons, zlen_nil; lia).
      destruct (IH (sf ++ [c]) jc) as (jc' & E & El); [lia|].
      exists jc'. rewrite E. rewrite !zlen_cons. split; [|lia].
      replace (zlen (sf ++ [c]) + zlen (seg l) + 1) with (zlen sf + (zlen (seg l) + 1) + 1)
        by (rewrite zlen_app, zlen_cons, zlen_nil; lia).
      rewrite <- app_assoc. reflexivity.
Qed.

(** [filled P opts store] : the arrays hold the options [P] and then junk. *)
Definition st_of (P : list lopt) (jo : list rawopt) (jc : list ascii) : Z * list rawopt * Z * list ascii :=
  (zlen P, enc_o P 0 ++ jo, zlen (enc_s P), enc_s P ++ jc).

Lemma fill_entry_ok h i : forall l fuel P jo jc,
  (List.length l <= fuel)%nat ->
  zlen (names l) <= zlen jo -> store_size (names l) <= zlen jc ->
  exists jo' jc',
    fill_entry fuel h i l (st_of P jo jc) = Ok (st_of (P ++ map (mk_lopt h i) (names l)) jo' jc') /\
    zlen jo' = zlen jo - zlen (names l) /\ zlen jc' = zlen jc - store_size (names l).
Proof.
  intros l; pattern l; apply names_ind; clear l; [|intros c l IH]; intros fuel P jo jc Hf Ho Hc.
  - exists jo, jc. simpl. rewrite app_nil_r, zlen_nil. destruct fuel; simpl; repeat split; lia.
  - destruct fuel as [|f]; [simpl in Hf; lia|].
    rewrite names_seg in *. rewrite zlen_cons in Ho. cbn [store_size fold_right] in Hc.
    fold (store_size (names (after (c :: l)))) in Hc.
    pose proof (zlen_nonneg (names (after (c :: l)))). pose proof (store_size_nonneg (names (after (c :: l)))).
    cbn [fill_entry]. unfold st_of at 1.
    destruct (copy_name_ok (c :: l) (enc_s P) jc) as (jc1 & E & Elen); [lia|].
    rewrite E. cbn [bind]. rewrite <- stop_after.
    destruct jo as [|x jo]; [rewrite zlen_nil in Ho; lia|]. rewrite zlen_cons in Ho.
    rewrite aset_app' by (rewrite enc_o_len; reflexivity). cbn [bind].
    set (o := mk_lopt h i (seg (c :: l))).
    assert (St : (zlen P + 1, enc_o P 0 ++ {| ro_name := Some (zlen (enc_s P)); ro_has_arg := long_has_arg h; ro_flag := true; ro_val := i |} :: jo,
                  zlen (enc_s P) + zlen (seg (c :: l)) + 1, enc_s P ++ seg (c :: l) ++ NUL :: jc1)
                 = st_of (P ++ [o]) jo jc1).
    { unfold st_of. rewrite enc_s_app, enc_o_app. cbn [enc_s enc_o].
      change (lo_name o) with (seg (c :: l)). change (lo_has_arg o) with (long_has_arg h).
      change (lo_flag o) with true. change (lo_val o) with i.
      rewrite <- !app_assoc. cbn [app]. rewrite Z.add_0_l.
      replace (zlen (P ++ [o])) with (zlen P + 1) by (rewrite zlen_app; reflexivity).
      replace (zlen (enc_s P ++ seg (c :: l) ++ [NUL])) with (zlen (enc_s P) + zlen (seg (c :: l)) + 1)
        by (rewrite !zlen_app; change (zlen [NUL]) with 1; lia).
      reflexivity. }
    rewrite St.
    destruct (IH f (P ++ [o]) jo jc1) as (jo' & jc' & E' & L1 & L2).
    + pose proof (after_len (c :: l)). assert (c :: l <> []) by discriminate. specialize (H1 H2). simpl List.length in *. lia.
    + lia.
    + lia.
    + exists jo', jc'. rewrite E'. split; [|split].
      * f_equal. f_equal. rewrite <- app_assoc. reflexivity.
      * rewrite zlen_cons in *. rewrite zlen_cons. lia.
      * cbn [store_size fold_right]. fold (store_size (names (after (c :: l)))). lia.
Qed.

Definition tab_names (t : list hdr) : list str := flat_map hdr_names t.
Lemma lopts_names t : forall i, map lo_name (lopts_of t i) = tab_names t.
Proof.
  induction t; intros; simpl; auto. rewrite map_app, map_map. simpl. rewrite map_id, IHt. reflexivity.
Qed.

Lemma fill_entries_ok : forall t i P jo jc,
  zlen (tab_names t) <= zlen jo -> store_size (tab_names t) <= zlen jc ->
  exists jo' jc',
    fill_entries t i (st_of P jo jc) = Ok (st_of (P ++ lopts_of t i) jo' jc') /\
    zlen jo' = zlen jo - zlen (tab_names t) /\ zlen jc' = zlen jc - store_size (tab_names t).
Proof.
  induction t as [|h t IH]; intros i P jo jc Ho Hc.
  - exists jo, jc. simpl. rewrite app_nil_r, zlen_nil. repeat split; lia.
  - cbn [fill_entries lopts_of tab_names flat_map] in *. fold (tab_names t) in *.
    rewrite zlen_app in Ho. rewrite store_size_app in Hc.
    pose proof (zlen_nonneg (tab_names t)). pose proof (store_size_nonneg (tab_names t)).
    assert (E : exists jo1 jc1,
      match h_longopts h with Some l => fill_entry (List.length l) h i l (st_of P jo jc) | None => Ok (st_of P jo jc) end
      = Ok (st_of (P ++ map (mk_lopt h i) (hdr_names h)) jo1 jc1) /\
      zlen jo1 = zlen jo - zlen (hdr_names h) /\ zlen jc1 = zlen jc - store_size (hdr_names h)).
    { unfold hdr_names in *. destruct (h_longopts h) as [l|].
      - apply fill_entry_ok; lia.
      - exists jo, jc. simpl. rewrite app_nil_r, zlen_nil. repeat split; lia. }
    destruct E as (jo1 & jc1 & E & L1 & L2). rewrite E. cbn [bind].
    destruct (IH (i + 1) (P ++ map (mk_lopt h i) (hdr_names h)) jo1 jc1) as (jo' & jc' & E' & L1' & L2'); [lia|lia|].
    exists jo', jc'. rewrite E'. rewrite <- app_assoc. split; auto.
    rewrite zlen_app, store_size_app. lia.
Qed.

Lemma read_cstr_app n r : cstr n -> read_cstr (n ++ NUL :: r) = Ok n.
Proof.
  unfold cstr. induction n as [|c n IH]; simpl; auto. intros H.
  destruct (ceqb_spec c NUL); [exfalso; auto|]. rewrite IH by tauto. reflexivity.
Qed.

Lemma view_ok term rest : ro_name term = None -> forall P b pre jc, b = zlen pre -> Forall cstr (map lo_name P) ->
  view_options (enc_o P b ++ term :: rest) (pre ++ enc_s P ++ jc) = Ok P.
Proof.
  intros Ht. induction P as [|o P IH]; intros b pre jc -> HF; cbn [enc_o enc_s app view_options].
  - rewrite Ht. reflexivity.
  - cbn [ro_name]. inversion HF as [|? ? Hn HF']; subst.
    unfold zlen at 1. rewrite Nat2Z.id. rewrite skipn_app, skipn_all, Nat.sub_diag. simpl skipn. cbn [app].
    rewrite <- app_assoc. cbn [app]. rewrite read_cstr_app by auto. cbn [bind].
    replace (pre ++ lo_name o ++ NUL :: enc_s P ++ jc) with ((pre ++ lo_name o ++ [NUL]) ++ enc_s P ++ jc)
      by (rewrite <- !app_assoc; reflexivity).
    rewrite IH; auto.
    + cbn [bind]. destruct o; reflexivity.
    + rewrite !zlen_app, zlen_cons, zlen_nil. lia.
Qed.

Lemma count_all_ok : forall t a b, Forall good_longopts t ->
  exists n m, count_all t a b = Ok (a + n, b + m) /\ zlen (tab_names t) <= n /\ store_size (tab_names t) <= m.
Proof.
  induction t as [|h t IH]; intros a b HF; cbn [count_all tab_names flat_map].
  - exists 0, 1. rewrite Z.add_0_r. rewrite zlen_nil. simpl. repeat split; lia.
  - inversion HF as [|? ? Hh HF']; subst. fold (tab_names t).
    assert (E : exists k, count_names (h_longopts h) = Ok k /\ zlen (hdr_names h) <= k).
    { unfold good_longopts in Hh. unfold hdr_names, count_names. destruct (h_longopts h) as [[|c r]|].
      - destruct Hh as (_ & H & _); congruence.
      - destruct Hh as (_ & _ & H). eexists; split; [reflexivity|].
        pose proof (names_count (c :: r) ltac:(discriminate)). rewrite count_commas_cons in H0.
        simpl in H. destruct (ceqb_spec c ","); [congruence|]. lia.
      - exists 0. split; auto. simpl. rewrite zlen_nil. lia. }
    destruct E as (k & E & Hk). rewrite E. cbn [bind].
    destruct (IH (a + k) (b + longopts_len (h_longopts h)) HF') as (n & m & E' & Hn & Hm).
    exists (k + n), (longopts_len (h_longopts h) + m). rewrite E'. split; [rewrite !Z.add_assoc; reflexivity|].
    rewrite zlen_app, store_size_app. split; [lia|].
    assert (store_size (hdr_names h) <= longopts_len (h_longopts h)).
    { unfold hdr_names, longopts_len. destruct (h_longopts h); [pose proof (names_store s)|simpl]; lia. }
    lia.
Qed.

Theorem alloc_longoptions_ok junko junkc t : Forall good_longopts t ->
  alloc_longoptions junko junkc t = Ok (lopts_of t 0).
Proof.
  intros HF. unfold alloc_longoptions.
  destruct (count_all_ok t 1 0 HF) as (n & m & E & Hn & Hm). rewrite E. cbn [bind].
  pose proof (zlen_nonneg (tab_names t)). pose proof (store_size_nonneg (tab_names t)).
  destruct (fill_entries_ok t 0 [] (fresh junko (1 + n)) (fresh junkc (0 + m))) as (jo & jc & E' & L1 & L2).
  { rewrite fresh_len; lia. }
  { rewrite fresh_len; lia. }
  change (0, fresh junko (1 + n), 0, fresh junkc (0 + m)) with (st_of [] (fresh junko (1 + n)) (fresh junkc (0 + m))).
  rewrite E'. unfold st_of. cbn [bind app].
  rewrite fresh_len in L1 by lia.
  destruct jo as [|x jo]; [rewrite zlen_nil in L1; lia|].
  rewrite aset_app' by (rewrite enc_o_len; reflexivity). cbn [bind].
  apply (view_ok _ jo) with (pre := []); [reflexivity|reflexivity|].
  rewrite lopts_names. clear - HF. induction t as [|h t IH]; simpl; [constructor|].
  inversion HF as [|? ? Hh HF']; subst. apply Forall_app. split; auto.
  unfold hdr_names, good_longopts in *. destruct (h_longopts h); [apply names_cstr; tauto|constructor].
Qed.

(** ** Short options *)
Definition short_one (h : hdr) (c : ascii) : str :=
  c :: (if h_hasvalue h then [":"%char] else []) ++ (if h_hasoptvalue h then [":"%char] else []).
Definition hdr_shorts (h : hdr) : str := match h_shortopts h with Some so => so | None => [] end.
Definition short_string (t : list hdr) : str := flat_map (fun h => flat_map (short_one h) (hdr_shorts h)) t.

Lemma put_app a x b c i : i = zlen a -> put (a ++ x :: b) i c = Ok ((a ++ [c]) ++ b, zlen (a ++ [c])).
Proof.
  intros ->. unfold put. rewrite aset_app. cbn [bind]. rewrite <- app_assoc, zlen_app, zlen_cons, zlen_nil.
  simpl. do 2 f_equal.
Qed.

Lemma short_one_len h c : 1 <= zlen (short_one h c) <= 3.
Proof. unfold short_one. destruct (h_hasvalue h), (h_hasoptvalue h); vm_compute; split; discriminate. Qed.

Lemma put_app' a c : forall jc, 1 <= zlen jc -> exists jc', put (a ++ jc) (zlen a) c = Ok ((a ++ [c]) ++ jc', zlen (a ++ [c])) /\ zlen jc' = zlen jc - 1.
Proof.
  intros [|x jc] H; [rewrite zlen_nil in H; lia|]. exists jc. rewrite put_app by auto. rewrite zlen_cons. split; auto. lia.
Qed.

Lemma short_chars_ok h : forall so a jc, 3 * zlen so <= zlen jc -> exists jc',
  short_chars h so (a ++ jc) (zlen a) = Ok ((a ++ flat_map (short_one h) so) ++ jc', zlen (a ++ flat_map (short_one h) so))
  /\ zlen jc - 3 * zlen so <= zlen jc'.
Proof.
  induction so as [|c so IH]; intros a jc H; cbn [short_chars flat_map].
  - exists jc. rewrite app_nil_r. split; auto. unfold zlen; simpl; lia.
  - rewrite zlen_cons in *. pose proof (zlen_nonneg so).
    destruct (put_app' a c jc) as (jc1 & E1 & L1); [lia|]. rewrite E1. cbn [bind].
    assert (E2 : exists jc2, (if h_hasvalue h then put ((a ++ [c]) ++ jc1) (zlen (a ++ [c])) ":" else Ok ((a ++ [c]) ++ jc1, zlen (a ++ [c])))
       = Ok (((a ++ [c]) ++ (if h_hasvalue h then [":"%char] else [])) ++ jc2, zlen ((a ++ [c]) ++ (if h_hasvalue h then [":"%char] else [])))
       /\ zlen jc1 - 1 <= zlen jc2).
    { destruct (h_hasvalue h).
      - destruct (put_app' (a ++ [c]) ":" jc1) as (jc2 & E2 & L2); [lia|]. exists jc2. split; auto. lia.
      - exists jc1. rewrite app_nil_r. split; auto. lia. }
    destruct E2 as (jc2 & E2 & L2). rewrite E2. cbn [bind].
    set (a2 := (a ++ [c]) ++ (if h_hasvalue h then [":"%char] else [])) in *.
    assert (E3 : exists jc3, (if h_hasoptvalue h then put (a2 ++ jc2) (zlen a2) ":" else Ok (a2 ++ jc2, zlen a2))
       = Ok ((a2 ++ (if h_hasoptvalue h then [":"%char] else [])) ++ jc3, zlen (a2 ++ (if h_hasoptvalue h then [":"%char] else [])))
       /\ zlen jc2 - 1 <= zlen jc3).
    { destruct (h_hasoptvalue h).
      - destruct (put_app' a2 ":" jc2) as (jc3 & E3 & L3); [lia|]. exists jc3. split; auto. lia.
      - exists jc2. rewrite app_nil_r. split; auto. lia. }
    destruct E3 as (jc3 & E3 & L3). rewrite E3. cbn [bind].
    destruct (IH (a2 ++ (if h_hasoptvalue h then [":"%char] else [])) jc3) as (jc' & E & L); [lia|].
    exists jc'. rewrite E.
    assert (Ea : (a2 ++ (if h_hasoptvalue h then [":"%char] else [])) ++ flat_map (short_one h) so
                 = a ++ short_one h c ++ flat_map (short_one h) so).
    { unfold a2, short_one. cbn [app]. rewrite <- !app_assoc. reflexivity. }
    rewrite Ea. split; auto. lia.
Qed.

Lemma fold_left_add (t : list hdr) (f : hdr -> Z) : forall a, fold_left (fun n h => n + f h) t a = a + fold_left (fun n h => n + f h) t 0.
Proof. induction t; intros; simpl; [lia|]. rewrite IHt, (IHt (f a)). lia. Qed.

Definition short_room (t : list hdr) : Z := fold_right (fun h n => 3 * zlen (hdr_shorts h) + n) 0 t.
Lemma short_len_room t : short_len t = 2 + short_room t.
Proof.
  unfold short_len. rewrite (fold_left_add t (fun h => 3 * match h_shortopts h with Some so => zlen so | None => 0 end)).
  f_equal. induction t; [reflexivity|]. cbn [fold_left short_room fold_right]. fold (short_room t).
  rewrite (fold_left_add t (fun h => 3 * match h_shortopts h with Some so => zlen so | None => 0 end)). rewrite IHt.
  unfold hdr_shorts. destruct (h_shortopts a); unfold zlen; simpl List.length; lia.
Qed.
Lemma short_room_nonneg t : 0 <= short_room t.
Proof. induction t; [discriminate|]. cbn [short_room fold_right]. fold (short_room t). pose proof (zlen_nonneg (hdr_shorts a)). lia. Qed.

Lemma short_entries_ok : forall t a jc, short_room t <= zlen jc -> exists jc',
  short_entries t (a ++ jc) (zlen a) = Ok ((a ++ short_string t) ++ jc', zlen (a ++ short_string t))
  /\ zlen jc - short_room t <= zlen jc'.
Proof.
  induction t as [|h t IH]; intros a jc H; cbn [short_entries short_string flat_map].
  - exists jc. rewrite app_nil_r. split; auto. change (short_room []) with 0. lia.
  - change (short_room (h :: t)) with (3 * zlen (hdr_shorts h) + short_room t) in H. fold (hdr_shorts h).
    pose proof (short_room_nonneg t). pose proof (zlen_nonneg (hdr_shorts h)).
    destruct (short_chars_ok h (hdr_shorts h) a jc) as (jc1 & E & L); [lia|]. rewrite E. cbn [bind].
    destruct (IH (a ++ flat_map (short_one h) (hdr_shorts h)) jc1) as (jc' & E' & L'); [lia|].
    exists jc'. rewrite E'. split; [unfold short_string; rewrite <- !app_assoc; reflexivity|].
    change (short_room (h :: t)) with (3 * zlen (hdr_shorts h) + short_room t). lia.
Qed.

Lemma short_string_cstr t : Forall good_shortopts t -> cstr (short_string t).
Proof.
  unfold cstr, short_string. intros HF Hin. apply in_flat_map in Hin as (h & Hh & Hin).
  apply in_flat_map in Hin as (c & Hc & Hin). rewrite Forall_forall in HF. specialize (HF h Hh).
  unfold good_shortopts, hdr_shorts in *. destruct (h_shortopts h); [|destruct Hc].
  specialize (HF c Hc). destruct HF as (_ & _ & _ & _ & H).
  unfold short_one in Hin. simpl in Hin. destruct Hin as [Hin|Hin]; [congruence|].
  destruct (h_hasvalue h), (h_hasoptvalue h); simpl in Hin; intuition discriminate.
Qed.

Theorem alloc_shortoptions_ok junkc t : cstr (short_string t) ->
  alloc_shortoptions junkc t = Ok (":"%char :: short_string t).
Proof.
  intros HC. unfold alloc_shortoptions.
  pose proof (short_room_nonneg t).
  assert (L : zlen (fresh junkc (short_len t)) = 2 + short_room t) by (rewrite fresh_len; rewrite short_len_room; lia).
  destruct (put_app' [] ":" (fresh junkc (short_len t))) as (jc & E & L1); [lia|].
  rewrite zlen_nil in E. cbn [app] in E. rewrite E. cbn [bind].
  destruct (short_entries_ok t [":"%char] jc) as (jc' & E' & L'); [lia|]. cbn [app] in E'.
  rewrite E'. cbn [bind].
  destruct jc' as [|x jc']; [rewrite zlen_nil in L'; lia|].
  change (":"%char :: short_string t ++ x :: jc') with ((":"%char :: short_string t) ++ x :: jc').
  rewrite aset_app. cbn [bind]. apply read_cstr_app.
  unfold cstr in *. simpl. intros [|]; [discriminate|auto].
Qed.

(** ** Lookup *)
(** What the option string says after an option character. *)
Definition tail_takes (tl_ : str) (k : takes) : Prop :=
  match k with
  | TNo => hd0 tl_ <> ":"%char /\ hd0 tl_ <> ";"%char
  | TReq => hd0 tl_ = ":"%char /\ hd0 (tl tl_) <> ":"%char
  | TOpt => hd0 tl_ = ":"%char /\ hd0 (tl tl_) = ":"%char
  end.

Lemma strchr_app a b c : strchr (a ++ b) c = match strchr a c with Some r => Some (r ++ b) | None => strchr b c end.
Proof.
  induction a as [|x a IH]; simpl; auto. destruct (ceqb x c); auto.
Qed.
Lemma strchr_none s c : strchr s c = None <-> ~ In c s.
Proof.
  induction s as [|x s IH]; simpl; [tauto|]. destruct (ceqb_spec x c).
  - split; [discriminate|]. intros; exfalso; auto.
  - rewrite IH. tauto.
Qed.
Lemma mem_in c s : mem c s = true <-> In c s.
Proof.
  unfold mem. rewrite existsb_exists. split.
  - intros (x & H & E). apply ceqb_eq in E. subst; auto.
  - intros H. exists c. split; auto. apply ceqb_refl.
Qed.

Lemma strchr_mem s c : mem c s = match strchr s c with Some _ => true | None => false end.
Proof.
  destruct (strchr s c) eqn:E.
  - apply mem_in. destruct (in_dec ascii_dec c s); auto. apply strchr_none in n. congruence.
  - apply strchr_none in E. destruct (mem c s) eqn:M; auto. apply mem_in in M. tauto.
Qed.

(** The head of what follows is never ':' or ';'. *)
Lemma short_string_hd t : Forall good_shortopts t -> hd0 (short_string t) <> ":"%char /\ hd0 (short_string t) <> ";"%char.
Proof.
  induction t as [|h t IH]; intros HF; simpl; [split; discriminate|].
  inversion HF as [|? ? Hh HF']; subst. unfold hdr_shorts, good_shortopts in *.
  destruct (h_shortopts h) as [[|c so]|]; simpl; auto.
  destruct (Hh c (or_introl eq_refl)) as (? & ? & _). auto.
Qed.
Lemma shorts_hd h so rest : (forall c, In c so -> plain_short c) -> hd0 rest <> ":"%char /\ hd0 rest <> ";"%char ->
  hd0 (flat_map (short_one h) so ++ rest) <> ":"%char /\ hd0 (flat_map (short_one h) so ++ rest) <> ";"%char.
Proof.
  intros H Hr. destruct so as [|c so]; simpl; auto. destruct (H c (or_introl eq_refl)) as (? & ? & _). auto.
Qed.

Lemma strchr_shorts h so rest c : (forall c, In c so -> plain_short c) -> c <> ":"%char ->
  hd0 rest <> ":"%char /\ hd0 rest <> ";"%char ->
  if mem c so then exists r, strchr (flat_map (short_one h) so ++ rest) c = Some (c :: r) /\ tail_takes r (short_takes h)
  else strchr (flat_map (short_one h) so ++ rest) c = strchr rest c.
Proof.
  intros Hso Hc Hrest. induction so as [|x so IH]; simpl.
  - reflexivity.
  - destruct (ceqb_spec x c) as [->|N]; simpl.
    + rewrite ceqb_refl. simpl.
      exists (((if h_hasvalue h then [":"%char] else []) ++ (if h_hasoptvalue h then [":"%char] else [])) ++ flat_map (short_one h) so ++ rest).
      split; [rewrite <- !app_assoc; reflexivity|].
      assert (HH := shorts_hd h so rest (fun c H => Hso c (or_intror H)) Hrest).
      unfold short_takes. destruct (h_hasvalue h), (h_hasoptvalue h); simpl; tauto.
    + assert (ceqb c x = false) by (apply ceqb_neq; congruence). rewrite H. simpl.
      assert (Es : forall r, strchr (((if h_hasvalue h then [":"%char] else []) ++ (if h_hasoptvalue h then [":"%char] else [])) ++ r) c = strchr r c).
      { intros r. assert (ceqb ":" c = false) by (apply ceqb_neq; congruence).
        destruct (h_hasvalue h), (h_hasoptvalue h); cbn [app strchr]; rewrite ?H0; reflexivity. }
      rewrite <- app_assoc. rewrite Es. apply IH. intros; apply Hso; simpl; auto.
Qed.

Lemma short_lookup t c : Forall good_shortopts t -> c <> ":"%char -> forall i,
  match short_find t i c with
  | None => strchr (short_string t) c = None
  | Some (_, h) => exists r, strchr (short_string t) c = Some (c :: r) /\ tail_takes r (short_takes h)
  end.
Proof.
  intros HF Hc. induction t as [|h t IH]; intros i; cbn [short_find short_string flat_map]; auto.
  inversion HF as [|? ? Hh HF']; subst. fold (short_string t).
  pose proof (short_string_hd t HF') as Hr.
  assert (Hso : forall c, In c (hdr_shorts h) -> plain_short c).
  { unfold hdr_shorts, good_shortopts in *. destruct (h_shortopts h); auto. intros x []. }
  pose proof (strchr_shorts h (hdr_shorts h) (short_string t) c Hso Hc Hr) as HS.
  assert (ED : declares c h = mem c (hdr_shorts h)).
  { unfold declares, hdr_shorts. destruct (h_shortopts h); auto. }
  rewrite ED. destruct (mem c (hdr_shorts h)); auto.
  rewrite HS. apply IH. auto.
Qed.

Lemma find_shortoption_spec t c : forall i,
  find_shortoption t (Z.of_nat i) c = match short_find t i c with Some (j, _) => Z.of_nat j | None => -1 end.
Proof.
  induction t as [|h t IH]; intros i; cbn [find_shortoption short_find]; auto.
  unfold declares. destruct (h_shortopts h) as [so|].
  - rewrite strchr_mem. destruct (strchr so c); auto.
    replace (Z.of_nat i + 1) with (Z.of_nat (S i)) by lia. apply IH.
  - replace (Z.of_nat i + 1) with (Z.of_nat (S i)) by lia. apply IH.
Qed.

Lemma short_find_nth t c : forall i j h, short_find t i c = Some (j, h) ->
  (i <= j)%nat /\ nth_error t (j - i) = Some h.
Proof.
  induction t as [|h0 t IH]; intros i j h; simpl; [discriminate|].
  destruct (declares c h0).
  - intros [= <- <-]. rewrite Nat.sub_diag. simpl. auto.
  - intros H. apply IH in H as [H1 H2]. split; [lia|].
    replace (j - i)%nat with (S (j - S i)) by lia. auto.
Qed.

(** ** Long option lookup *)
Lemma is_prefix_starts a b : is_prefix a b = starts_with a b.
Proof. revert b; induction a; destruct b; simpl; auto; rewrite IHa; auto. Qed.
Lemma starts_len_eq a : forall b, starts_with a b = true -> List.length b = List.length a -> str_eqb b a = true.
Proof.
  induction a; destruct b; simpl; intros; try discriminate; auto.
  apply andb_true_iff in H as [H1 H2]. apply ceqb_eq in H1. subst. rewrite ceqb_refl. simpl. apply IHa; auto.
Qed.
Lemma str_eqb_starts a b : str_eqb b a = true -> starts_with a b = true /\ List.length b = List.length a.
Proof.
  intros H. apply str_eqb_eq in H. subst. split; auto. induction a; simpl; auto. rewrite ceqb_refl. auto.
Qed.

Definition lo_of (p : str * (nat * hdr)) : lopt := mk_lopt (snd (snd p)) (Z.of_nat (fst (snd p))) (fst p).

Lemma lopts_of_names t : forall i, lopts_of t (Z.of_nat i) = map lo_of (long_names t i).
Proof.
  induction t as [|h t IH]; intros i; simpl; auto.
  rewrite map_app, map_map. f_equal. replace (Z.of_nat i + 1) with (Z.of_nat (S i)) by lia. apply IH.
Qed.

(** Names of one entry come with one header. *)
Lemma long_names_nth t : forall i n j h, In (n, (j, h)) (long_names t i) ->
  (i <= j)%nat /\ nth_error t (j - i) = Some h.
Proof.
  induction t as [|h0 t IH]; intros i n j h; simpl; [tauto|]. intros H. apply in_app_or in H as [H|H].
  - apply in_map_iff in H as (x & [= <- <- <-] & _). rewrite Nat.sub_diag. simpl. auto.
  - apply IH in H as [H1 H2]. split; [lia|]. replace (j - i)%nat with (S (j - S i)) by lia. auto.
Qed.

Section Search.
Variable nm : str.
Variables exactly longonly : bool.
Notation search := (long_search nm exactly longonly).
Notation skip := (exactly && Nat.eqb (List.length nm) 1).
Notation exact := (fun p : str * (nat * hdr) => str_eqb (fst p) nm).
Notation pref := (fun p : str * (nat * hdr) => starts_with nm (fst p)).
Definition idx (p : str * (nat * hdr)) : nat := fst (snd p).

Definition coherent (l : list (str * (nat * hdr))) : Prop :=
  forall p q, In p l -> In q l -> idx p = idx q -> snd (snd p) = snd (snd q).

Lemma coherent_tl p l : coherent (p :: l) -> coherent l.
Proof. unfold coherent. intros H x y Hx Hy. apply H; simpl; auto. Qed.

Lemma differs_idx p q : (idx p = idx q -> snd (snd p) = snd (snd q)) ->
  (longonly || negb (lo_has_arg (lo_of p) =? lo_has_arg (lo_of q)) || negb (Bool.eqb (lo_flag (lo_of p)) (lo_flag (lo_of q)))
   || negb (lo_val (lo_of p) =? lo_val (lo_of q))) = longonly || negb (Nat.eqb (idx p) (idx q)).
Proof.
  intros H. destruct longonly; [reflexivity|]. cbn [orb]. unfold lo_of, mk_lopt; cbn [lo_has_arg lo_flag lo_val]. fold (idx p) (idx q).
  destruct (Nat.eqb_spec (idx p) (idx q)) as [E|E].
  - rewrite (H E), E, !Z.eqb_refl. reflexivity.
  - destruct (Z.eqb_spec (Z.of_nat (idx p)) (Z.of_nat (idx q))); [lia|]. simpl. rewrite !orb_true_r. reflexivity.
Qed.

Lemma exact_of_len p : pref p = true -> Nat.eqb (List.length (fst p)) (List.length nm) = exact p.
Proof.
  intros H. destruct (Nat.eqb_spec (List.length (fst p)) (List.length nm)) as [E|E].
  - symmetry. apply starts_len_eq; auto.
  - destruct (str_eqb (fst p) nm) eqn:X; auto. apply str_eqb_starts in X. tauto.
Qed.

Lemma search_exact : forall l i m sec p, find exact l = Some p ->
  exists k sec', search (map lo_of l) i m sec = (Some (k, lo_of p), true, sec').
Proof.
  induction l as [|q l IH]; intros i m sec p H; cbn [find map long_search] in *; [discriminate|].
  rewrite is_prefix_starts. change (lo_name (lo_of q)) with (fst q).
  destruct (str_eqb (fst q) nm) eqn:X.
  - injection H as <-. pose proof (str_eqb_starts _ _ X) as [-> ->]. rewrite Nat.eqb_refl. simpl. eauto.
  - destruct (starts_with nm (fst q)) eqn:P; cbn [negb].
    + rewrite (exact_of_len q P). rewrite X. destruct skip; [apply IH; auto|].
      destruct m as [[? ?]|]; apply IH; auto.
    + apply IH; auto.
Qed.

Lemma search_skip : forall l i m sec, find exact l = None -> skip = true ->
  search (map lo_of l) i m sec = (m, false, sec).
Proof.
  induction l as [|q l IH]; intros i m sec H HS; cbn [find map long_search] in *; [reflexivity|].
  rewrite is_prefix_starts. change (lo_name (lo_of q)) with (fst q).
  destruct (str_eqb (fst q) nm) eqn:X; [discriminate|].
  destruct (starts_with nm (fst q)) eqn:P; cbn [negb]; [|apply IH; auto].
  rewrite (exact_of_len q P), X, HS. apply IH; auto.
Qed.

Lemma search_some : forall l i k p sec, find exact l = None -> coherent (p :: l) -> skip = false ->
  search (map lo_of l) i (Some (k, lo_of p)) sec =
  (Some (k, lo_of p), false, sec || existsb (fun q => longonly || negb (Nat.eqb (idx q) (idx p))) (filter pref l)).
Proof.
  induction l as [|q l IH]; intros i k p sec H HC HS; cbn [find map long_search filter] in *.
  - rewrite orb_false_r. reflexivity.
  - rewrite is_prefix_starts. change (lo_name (lo_of q)) with (fst q).
    destruct (str_eqb (fst q) nm) eqn:X; [discriminate|].
    assert (HC' : coherent (p :: l)).
    { intros x y Hx Hy. apply HC; simpl in *; tauto. }
    destruct (starts_with nm (fst q)) eqn:P; cbn [negb].
    + rewrite (exact_of_len q P). rewrite X, HS. cbv zeta. rewrite IH by auto.
      cbn [existsb]. rewrite differs_idx by (apply HC; simpl; auto). rewrite !orb_assoc. reflexivity.
    + apply IH; auto.
Qed.

Lemma search_none : forall l i sec, find exact l = None -> coherent l -> skip = false ->
  match filter pref l with
  | [] => search (map lo_of l) i None sec = (None, false, sec)
  | p :: r => exists k, search (map lo_of l) i None sec =
      (Some (k, lo_of p), false, sec || existsb (fun q => longonly || negb (Nat.eqb (idx q) (idx p))) r)
  end.
Proof.
  induction l as [|q l IH]; intros i sec H HC HS; [reflexivity|].
  cbn [find filter] in *. destruct (str_eqb (fst q) nm) eqn:X; [discriminate|].
  destruct (starts_with nm (fst q)) eqn:P.
  - exists i. cbn [map long_search]. rewrite is_prefix_starts. change (lo_name (lo_of q)) with (fst q).
    rewrite P. cbn [negb]. rewrite (exact_of_len q P). rewrite X, HS.
    apply search_some; auto.
  - assert (ES : search (map lo_of (q :: l)) i None sec = search (map lo_of l) (i + 1) None sec).
    { cbn [map long_search]. rewrite is_prefix_starts. change (lo_name (lo_of q)) with (fst q). rewrite P. reflexivity. }
    specialize (IH (i + 1) sec H (coherent_tl _ _ HC) HS).
    destruct (filter pref l); rewrite ES; exact IH.
Qed.

Lemma long_names_coherent t i : coherent (long_names t i).
Proof.
  intros [n [j h]] [n' [j' h']] H H' E. unfold idx in E; simpl in *. subst j'.
  apply long_names_nth in H as [_ H]. apply long_names_nth in H' as [_ H']. congruence.
Qed.

Lemma search_lookup t :
  let '(m, exact, second) := search (lopts_of t 0) 0 None false in
  match long_lookup longonly exactly t nm with
  | Is i h => negb exact && second = false /\ exists k n, m = Some (k, mk_lopt h (Z.of_nat i) n)
  | Ambiguous => negb exact && second = true
  | Unknown => negb exact && second = false /\ m = None
  end.
Proof.
  assert (EL : lopts_of t 0 = map lo_of (long_names t 0)) by (apply (lopts_of_names t 0)).
  unfold long_lookup. rewrite EL. clear EL.
  pose proof (long_names_coherent t 0) as HC. set (l := long_names t 0) in *. clearbody l.
  destruct (find exact l) as [[n [i h]]|] eqn:F.
  - destruct (search_exact l 0 None false _ F) as (k & s & E). rewrite E. cbn [fst snd negb andb].
    split; [reflexivity|]. exists k, n. reflexivity.
  - destruct skip eqn:HS; [rewrite (search_skip l 0 None false F HS); auto|].
    pose proof (search_none l 0 false F HC HS) as S.
    destruct (filter pref l) as [|[n [i h]] r].
    + rewrite S. auto.
    + destruct S as (k & E). rewrite E. cbn [orb negb andb].
      assert (X : existsb (fun q => longonly || negb (Nat.eqb (idx q) (idx (n, (i, h))))) r
                  = negb (if longonly then match r with [] => true | _ => false end else forallb (fun p => Nat.eqb (fst (snd p)) i) r)).
      { clear. destruct longonly; [destruct r; reflexivity|]. cbn [orb].
        induction r; simpl; auto. rewrite IHr. unfold idx; simpl. destruct (Nat.eqb _ _); auto. }
      rewrite X. destruct (if longonly then _ else _); cbn [negb]; [|reflexivity].
      split; [reflexivity|]. exists k, n. reflexivity.
Qed.
End Search.

Lemma long_lookup_nth lo ex t nm i h : long_lookup lo ex t nm = Is i h -> nth_error t i = Some h.
Proof.
  unfold long_lookup. set (l := long_names t 0).
  assert (HI : forall n j g, In (n, (j, g)) l -> nth_error t j = Some g).
  { intros n j g H. apply long_names_nth in H as [_ H]. rewrite Nat.sub_0_r in H. auto. }
  destruct (find _ l) as [[n [j g]]|] eqn:F.
  - apply find_some in F as [F _]. cbn [fst snd]. intros [= <- <-]. eapply HI; eauto.
  - destruct (ex && _); [discriminate|]. destruct (filter _ l) as [|[n [j g]] r] eqn:FF; [discriminate|].
    destruct (if lo then _ else _); [|discriminate]. intros [= <- <-].
    apply (HI n). assert (In (n, (j, g)) (filter (fun p => starts_with nm (fst p)) l)) by (rewrite FF; simpl; auto).
    apply filter_In in H. tauto.
Qed.

Lemma long_find_nth t nm i h : long_find t nm = Some (i, h) -> nth_error t i = Some h.
Proof.
  unfold long_find. set (l := long_names t 0).
  assert (HI : forall n j g, In (n, (j, g)) l -> nth_error t j = Some g).
  { intros n j g H. apply long_names_nth in H as [_ H]. rewrite Nat.sub_0_r in H. auto. }
  destruct (find _ l) as [[n [j g]]|] eqn:F.
  - apply find_some in F as [F _]. intros [= <- <-]. eapply HI; eauto.
  - destruct (filter _ l) as [|[n [j g]] r] eqn:FF; [discriminate|].
    destruct (forallb _ r); [|discriminate]. intros [= <- <-].
    apply (HI n). assert (In (n, (j, g)) (filter (fun p => starts_with nm (fst p)) l)) by (rewrite FF; simpl; auto).
    apply filter_In in H. tauto.
Qed.
