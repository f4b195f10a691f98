(** arg_parse refines the specification of ParseIdeal.v. *)
From Verif Require Import Base IntModel GetoptModel PermuteProofs ParseModel ParseSpec LongOnlySpec OptTables GetoptProofs ParseIdeal.
From Coq Require Import ZArith List Ascii String Bool Lia.
Import ListNotations.
Open Scope Z_scope.

(** ** The error table *)
Fixpoint zip3 (a : list Z) (b : list owner) (c : list (option str)) : list err :=
  match a, b, c with
  | x :: a', y :: b', z :: c' => mk_err y x z :: zip3 a' b' c'
  | _, _, _ => []
  end.
(** The errors visible to the user of an arg_end entry. *)
Definition recorded (en : arg_end) : list err :=
  firstn (Z.to_nat (end_count en)) (zip3 (end_error en) (end_parent en) (end_argval en)).

Record rep (cap : Z) (en : arg_end) (errs : list err) : Prop := {
  r_cap : 1 <= cap;
  r_max : end_max en = cap;
  r_e : zlen (end_error en) = cap; r_p : zlen (end_parent en) = cap; r_v : zlen (end_argval en) = cap;
  r_count : end_count en = Z.min cap (zlen errs);
  r_rec : recorded en = shown cap errs
}.

Lemma zip3_lupd i : forall a b c x y z, List.length a = List.length b -> List.length a = List.length c -> (i < List.length a)%nat ->
  zip3 (lupd a i x) (lupd b i y) (lupd c i z) = lupd (zip3 a b c) i (mk_err y x z).
Proof.
  induction i; intros [|x0 a] [|y0 b] [|z0 c] x y z H1 H2 H3; simpl in *; try lia; auto.
  f_equal. apply IHi; lia.
Qed.
Lemma zip3_len : forall a b c, List.length a = List.length b -> List.length a = List.length c -> List.length (zip3 a b c) = List.length a.
Proof. induction a as [|x a IH]; intros [|y b] [|z c] H1 H2; simpl in *; try lia. rewrite IH; lia. Qed.

Lemma firstn_lupd_snoc {A} i : forall (l : list A) x, (i < List.length l)%nat ->
  firstn (S i) (lupd l i x) = firstn i l ++ [x].
Proof.
  induction i; intros [|y l] x H; cbn [List.length] in *; try lia; [reflexivity|].
  cbn [lupd]. rewrite firstn_cons. rewrite IHi by lia. reflexivity.
Qed.

Lemma aset_ok' {A} (l : list A) i x : 0 <= i < zlen l -> aset l i x = Ok (lupd l (Z.to_nat i) x).
Proof.
  intros H. unfold aset. fold (zlen l).
  destruct (Z.leb_spec 0 i); [|lia]. destruct (Z.ltb_spec i (zlen l)); [|lia]. reflexivity.
Qed.
Lemma zlen_lupd {A} (l : list A) i x : zlen (lupd l i x) = zlen l.
Proof. unfold zlen. rewrite lupd_length. reflexivity. Qed.

Lemma firstn_short {A} (l m : list A) n : (n <= List.length l)%nat -> firstn n (l ++ m) = firstn n l.
Proof. intros H. rewrite firstn_app. replace (n - List.length l)%nat with 0%nat by lia. simpl. apply app_nil_r. Qed.

(** Recording an error. *)
Lemma register_rep cap en errs p c v : rep cap en errs ->
  exists en', arg_register_error en p c v = Ok en' /\ rep cap en' (errs ++ [mk_err p c v]).
Proof.
  intros [Hc Hm He Hp Hv Hk Hr]. unfold arg_register_error.
  pose proof (zlen_nonneg errs) as Hn.
  assert (L1 : List.length (end_error en) = List.length (end_parent en)) by (unfold zlen in *; lia).
  assert (L2 : List.length (end_error en) = List.length (end_argval en)) by (unfold zlen in *; lia).
  rewrite Hk, Hm. destruct (Z.ltb_spec (Z.min cap (zlen errs)) cap) as [Hlt|Hge].
  - assert (Hlen : zlen errs < cap) by lia. rewrite Z.min_r by lia.
    rewrite !aset_ok' by lia. cbn [bind]. eexists. split; [reflexivity|].
    constructor; cbn; rewrite ?zlen_lupd; auto.
    + rewrite zlen_app, zlen_cons, zlen_nil. lia.
    + unfold recorded; cbn. unfold shown. rewrite zlen_app, zlen_cons, zlen_nil.
      destruct (Z.leb_spec (zlen errs + (0 + 1)) cap); [|lia].
      replace (Z.to_nat (zlen errs + 1)) with (S (Z.to_nat (zlen errs))) by lia.
      rewrite zip3_lupd by (auto; unfold zlen in *; lia).
      rewrite firstn_lupd_snoc by (rewrite zip3_len; auto; unfold zlen in *; lia).
      f_equal. unfold recorded, shown in Hr. rewrite Hk, Z.min_r in Hr by lia.
      destruct (Z.leb_spec (zlen errs) cap); [|lia]. exact Hr.
  - assert (Hlen : cap <= zlen errs) by lia. rewrite Z.min_l by lia.
    rewrite !aset_ok' by lia. cbn [bind]. eexists. split; [reflexivity|].
    constructor; cbn; rewrite ?zlen_lupd; auto.
    + rewrite zlen_app, zlen_cons, zlen_nil. lia.
    + unfold recorded; cbn. unfold shown. rewrite zlen_app, zlen_cons, zlen_nil.
      destruct (Z.leb_spec (zlen errs + (0 + 1)) cap); [lia|].
      replace (Z.to_nat cap) with (S (Z.to_nat (cap - 1))) by lia.
      rewrite zip3_lupd by (auto; unfold zlen in *; lia).
      rewrite firstn_lupd_snoc by (rewrite zip3_len; auto; unfold zlen in *; lia).
      f_equal. rewrite firstn_short by (unfold zlen in *; lia).
      unfold recorded, shown in Hr. rewrite Hk, Z.min_l in Hr by lia.
      apply (f_equal (firstn (Z.to_nat (cap - 1)))) in Hr. rewrite firstn_firstn in Hr.
      replace (Nat.min (Z.to_nat (cap - 1)) (Z.to_nat cap)) with (Z.to_nat (cap - 1)) in Hr by lia.
      rewrite Hr. destruct (Z.leb_spec (zlen errs) cap).
      * reflexivity.
      * rewrite firstn_short by (rewrite firstn_length; unfold zlen in *; lia).
        rewrite firstn_firstn. f_equal. lia.
Qed.

(** An arg_end entry as made by arg_end() with the arrays of [cap] elements, after its reset. *)
Definition wf_end (cap : Z) (en : arg_end) : Prop :=
  1 <= cap /\ end_max en = cap /\ zlen (end_error en) = cap /\ zlen (end_parent en) = cap /\ zlen (end_argval en) = cap.
Lemma reset_rep cap en : wf_end cap en -> rep cap (arg_end_resetfn en) [].
Proof.
  intros (H1 & H2 & H3 & H4 & H5). constructor; cbn; auto.
  - change (zlen (@nil err)) with 0. lia.
  - unfold shown. change (zlen (@nil err)) with 0. destruct (Z.leb_spec 0 cap); [|lia]. reflexivity.
Qed.
Lemma rep_wf cap en errs : rep cap en errs -> wf_end cap en.
Proof. intros []. repeat split; auto. Qed.

Lemma register_all cap l : forall en errs, rep cap en errs ->
  exists en', (fix go l en := match l with [] => Ok en | e :: l' => en <- arg_register_error en (err_owner e) (err_code e) (err_argval e) ;; go l' en end) l en = Ok en'
  /\ rep cap en' (errs ++ l).
Proof.
  induction l as [|e l IH]; intros en errs H.
  - exists en. rewrite app_nil_r. auto.
  - destruct (register_rep cap en errs (err_owner e) (err_code e) (err_argval e) H) as (en1 & E & H1).
    rewrite E. cbn [bind]. destruct (IH en1 _ H1) as (en2 & E2 & H2). exists en2. split; auto.
    rewrite <- app_assoc in H2. destruct e; exact H2.
Qed.

(** ** Simulation *)
Definition sim {A C} (R : A -> C -> Prop) (m : res A) (n : res C) : Prop :=
  match m, n with
  | Ok a, Ok c => R a c
  | UB u, UB v => u = v
  | OutOfFuel, OutOfFuel => True
  | _, _ => False
  end.
Lemma sim_bind {A C A' C'} (R : A -> C -> Prop) (R' : A' -> C' -> Prop) m n f g :
  sim R m n -> (forall a c, R a c -> sim R' (f a) (g c)) -> sim R' (bind m f) (bind n g).
Proof. destruct m, n; cbn; intros H K; try contradiction; auto. Qed.
Lemma sim_refl {A} (m : res A) : sim eq m m.
Proof. destruct m; cbn; auto. Qed.

Section Parse.
Context {B : Type}.
Context (scan : hdr -> B -> option (option str -> res (B * Z))).
Context (check : hdr -> B -> option Z).
Context (reset : hdr -> B -> res B).
Context (posix : bool).
Context (cap : Z).

Definition Rst (st : list (entry B) * list err) (st' : list (entry B) * arg_end) : Prop :=
  fst st = fst st' /\ rep cap (snd st') (snd st).

Lemma sim_event ev tab errs en : rep cap en errs ->
  sim Rst (ideal_event scan ev (tab, errs)) (apply_event scan ev tab en).
Proof.
  intros HR. destruct ev as [i v|c v]; cbn [ideal_event apply_event].
  - unfold call_scan, aget. destruct (Z.ltb_spec (Z.of_nat i) 0); [lia|]. rewrite Nat2Z.id.
    destruct (nth_error tab i) as [e|] eqn:En; cbn [bind]; [|reflexivity].
    destruct (scan (e_hdr e) (e_body e)) as [f|]; [|split; auto].
    eapply sim_bind; [apply sim_refl|]. intros [b c] ? <-.
    rewrite aset_ok'.
    2:{ assert (Hi : (i < List.length tab)%nat) by (apply nth_error_Some; congruence). unfold zlen. lia. }
    cbn [bind]. rewrite Nat2Z.id. destruct (c =? 0); [split; auto|].
    destruct (register_rep cap en errs (PEntry i) c v HR) as (en' & E & HR'). rewrite E. split; auto.
  - destruct (register_rep cap en errs PEnd c v HR) as (en' & E & HR'). rewrite E. split; auto.
Qed.

Lemma sim_events evs : forall tab errs en, rep cap en errs ->
  sim Rst (ideal_events scan evs (tab, errs)) (run scan evs tab en).
Proof.
  induction evs as [|ev evs IH]; intros tab errs en HR; cbn [ideal_events run]; [split; auto|].
  eapply sim_bind; [apply sim_event; auto|]. intros [t e] [t' e'] [H1 H2]. cbn in *. subst. apply IH; auto.
Qed.

(** *** Positional arguments *)
Definition pend_of (r : option err) : pending :=
  match r with Some e => Some (err_owner e, err_code e, err_argval e) | None => None end.

Lemma sim_rest args : forall en errs, rep cap en errs ->
  exists en', untagged_rest args en = Ok en' /\ rep cap en' (errs ++ map unexpected args).
Proof.
  induction args as [|a args IH]; intros en errs HR; cbn [untagged_rest map].
  - exists en. rewrite app_nil_r. auto.
  - destruct (register_rep cap en errs PEnd ARG_ENOMATCH (Some a) HR) as (en1 & E & HR1). rewrite E. cbn [bind].
    destruct (IH en1 _ HR1) as (en2 & E2 & HR2). exists en2. split; auto.
    rewrite <- app_assoc in HR2. exact HR2.
Qed.

Definition Rpos (errs : list err) (done : list (entry B)) (st : list (entry B) * list err) (st' : list (entry B) * arg_end) : Prop :=
  fst st' = rev done ++ fst st /\ rep cap (snd st') (errs ++ snd st).

Lemma sim_positional : forall todo i args rej done en errs fuel, rep cap en errs ->
  (args = [] -> rej = None) -> (List.length todo + List.length args < fuel)%nat ->
  sim (Rpos errs done) (ideal_positional scan i todo args rej) (untagged_loop scan fuel done i todo args (pend_of rej) en).
Proof.
  induction todo as [|e todo IH]; intros i args rej done en errs fuel HR Hrej Hf.
  - destruct fuel as [|fuel]; [lia|]. cbn [ideal_positional untagged_loop].
    destruct args as [|a args].
    + rewrite Hrej by auto. cbn. split; cbn; rewrite ?app_nil_r; auto.
    + destruct rej as [e|]; cbn [pend_of].
      * destruct (register_rep cap en errs (err_owner e) (err_code e) (err_argval e) HR) as (en1 & E & HR1).
        rewrite E. cbn [bind tl]. destruct (sim_rest args en1 _ HR1) as (en2 & E2 & HR2). rewrite E2. cbn [bind].
        split; cbn [fst snd]; [rewrite app_nil_r; reflexivity|]. rewrite <- app_assoc in HR2. destruct e; exact HR2.
      * cbn [bind]. destruct (sim_rest (a :: args) en _ HR) as (en2 & E2 & HR2). rewrite E2. cbn [bind].
        split; cbn [fst snd]; [rewrite app_nil_r; reflexivity|exact HR2].
  - destruct (positional_hdr (e_hdr e)) eqn:EP.
    + (* a positional entry *)
      assert (Hone : forall args b rej fuel, (args = [] -> rej = None) -> (S (List.length todo) + List.length args < fuel)%nat ->
        sim (Rpos errs done)
          ('(b, args, rej) <- feed scan (e_hdr e) i b args rej ;;
           '(t, er) <- ideal_positional scan (S i) todo args rej ;; Ok (set_body b e :: t, er))
          (untagged_loop scan fuel done i (set_body b e :: todo) args (pend_of rej) en)).
      { clear args rej fuel Hrej Hf. induction args as [|a args IHa]; intros b rej fuel Hrej Hf;
          (destruct fuel as [|fuel]; [lia|]); cbn [feed untagged_loop].
        - cbn [bind]. assert (ideal_positional scan (S i) todo [] rej = Ok (todo, [])) as -> by (destruct todo; reflexivity).
          cbn [bind]. split; cbn; rewrite ?app_nil_r; auto.
        - cbn [e_hdr e_body set_body].
          assert (EP' : h_longopts (e_hdr e) = None /\ h_shortopts (e_hdr e) = None).
          { unfold positional_hdr in EP. destruct (h_shortopts (e_hdr e)), (h_longopts (e_hdr e)); try discriminate; auto. }
          destruct EP' as [-> ->]. destruct (scan (e_hdr e) b) as [f|].
          + destruct (f (Some a)) as [[b' c]| |]; cbn [bind]; try reflexivity; auto.
            destruct (c =? 0).
            * apply (IHa b' None fuel); auto. cbn [List.length] in Hf. lia.
            * cbn [bind]. cbn [List.length] in Hf.
              assert (Hx := IH (S i) (a :: args) (Some (mk_err (PEntry i) c (Some a))) (set_body b' e :: done) en errs fuel HR).
              cbn [pend_of mk_err err_owner err_code err_argval] in Hx.
              match goal with |- sim _ (bind ?m _) ?n => assert (Hs : sim (Rpos errs (set_body b' e :: done)) m n) by (apply Hx; [discriminate|cbn [List.length]; lia]) end.
              destruct (ideal_positional scan (S i) todo (a :: args) _) as [[t er]| |] in Hs |- *; cbn [bind];
                destruct (untagged_loop scan fuel _ _ _ _ _ _) as [[t' en']| |] in Hs |- *; cbn in Hs |- *; auto.
              destruct Hs as [H1 H2]. cbn in *. split; cbn; auto. rewrite H1, <- app_assoc. reflexivity.
          + cbn [bind]. cbn [List.length] in Hf.
            assert (Hs := IH (S i) (a :: args) rej (set_body b e :: done) en errs fuel HR Hrej ltac:(cbn [List.length]; lia)).
            destruct (ideal_positional scan (S i) todo (a :: args) _) as [[t er]| |] in Hs |- *; cbn [bind];
              destruct (untagged_loop scan fuel _ _ _ _ _ _) as [[t' en']| |] in Hs |- *; cbn in Hs |- *; auto.
            destruct Hs as [H1 H2]. cbn in *. split; cbn; auto. rewrite H1, <- app_assoc. reflexivity. }
      destruct args as [|a args].
      * destruct fuel as [|fuel]; [lia|]. cbn. split; cbn; rewrite ?app_nil_r; auto.
      * cbn [ideal_positional]. rewrite EP.
        assert (Ee : e = set_body (e_body e) e) by (destruct e; reflexivity). pose proof (Hone (a :: args) (e_body e) rej fuel Hrej Hf) as Hx.
        rewrite <- Ee in Hx. exact Hx.
    + destruct args as [|a args]; (destruct fuel as [|fuel]; [lia|]); cbn [ideal_positional untagged_loop].
      * cbn. split; cbn; rewrite ?app_nil_r; auto.
      * rewrite EP.
        assert (Hs := IH (S i) (a :: args) rej (e :: done) en errs fuel HR Hrej ltac:(cbn [List.length] in *; lia)).
        match goal with |- sim _ _ ?n => replace n with (untagged_loop scan fuel (e :: done) (S i) todo (a :: args) (pend_of rej) en) end.
        2:{ unfold positional_hdr in EP. destruct (h_shortopts (e_hdr e)), (h_longopts (e_hdr e)); try discriminate; auto. }
        destruct (ideal_positional scan (S i) todo (a :: args) _) as [[t er]| |] in Hs |- *; cbn [bind];
          destruct (untagged_loop scan fuel _ _ _ _ _ _) as [[t' en']| |] in Hs |- *; cbn in Hs |- *; auto.
        destruct Hs as [H1 H2]. cbn in *. split; cbn; auto. rewrite H1, <- app_assoc. reflexivity.
Qed.

(** *** The final check, and reset *)
Lemma sim_check tab : forall i en errs, rep cap en errs ->
  exists en', check_loop check i tab en = Ok en' /\ rep cap en' (errs ++ ideal_check check i tab).
Proof.
  induction tab as [|e tab IH]; intros i en errs HR; cbn [check_loop ideal_check].
  - exists en. rewrite app_nil_r. auto.
  - destruct (check (e_hdr e) (e_body e)) as [c|].
    + destruct (c =? 0); cbn [bind].
      * apply IH; auto.
      * destruct (register_rep cap en errs (PEntry i) c None HR) as (en1 & E & HR1). rewrite E. cbn [bind].
        destruct (IH (S i) en1 _ HR1) as (en2 & E2 & HR2). exists en2. split; auto. rewrite <- app_assoc in HR2. exact HR2.
    + cbn [bind]. apply IH; auto.
Qed.
Lemma reset_loop_ideal tab : reset_loop reset tab = ideal_reset reset tab.
Proof. induction tab; reflexivity. Qed.
Lemma ideal_reset_hdr tab : forall tab', ideal_reset reset tab = Ok tab' -> map e_hdr tab' = map e_hdr tab.
Proof.
  induction tab as [|e tab IH]; cbn; intros tab' H; [injection H as <-; reflexivity|].
  apply bind_ok in H as (b & _ & H). apply bind_ok in H as (t & Ht & H). injection H as <-. cbn. f_equal. auto.
Qed.

(** *** Memory *)
Lemma nth_error_snoc {A} (h : list A) x : nth_error (h ++ [x]) (List.length h) = Some x.
Proof. rewrite nth_error_app2, Nat.sub_diag by lia. reflexivity. Qed.

Lemma lupd_app_r {A} (h : list A) : forall t i x, lupd (h ++ t) (List.length h + i) x = h ++ lupd t i x.
Proof. induction h; intros; simpl; auto. rewrite IHh. reflexivity. Qed.

Lemma lupd_app_0 {A} (h : list A) t x y : lupd (h ++ x :: t) (List.length h) y = h ++ y :: t.
Proof. induction h; simpl; auto. rewrite IHh. reflexivity. Qed.

(** Copying the argument vector. *)
Lemma copy_loop_ok src h : forall args pre jd l t, 
  nth_error h src = Some (BArgv (map Some pre ++ map Some args ++ l)) ->
  (List.length args <= List.length jd)%nat ->
  copy_loop (List.length args) (zlen pre) src (List.length h) (h ++ BArgv (map Some pre ++ jd) :: t)
  = Ok (h ++ BArgv (map Some pre ++ map Some args ++ skipn (List.length args) jd) :: t).
Proof.
  induction args as [|a args IH]; intros pre jd l t Hs Hl; cbn [copy_loop List.length map skipn]; [reflexivity|].
  destruct jd as [|j jd]; [cbn in Hl; lia|].
  assert (Hsrc : (src < List.length h)%nat) by (apply nth_error_Some; congruence).
  unfold hget. rewrite nth_error_app1 by auto. rewrite Hs.
  assert (Eg : aget (map Some pre ++ map Some (a :: args) ++ l) (zlen pre) = Ok (Some a)).
  { unfold aget. pose proof (zlen_nonneg pre). destruct (Z.ltb_spec (zlen pre) 0); [lia|]. unfold zlen. rewrite Nat2Z.id.
    rewrite nth_error_app2 by (rewrite map_length; lia). rewrite map_length, Nat.sub_diag. reflexivity. }
  rewrite Eg. cbn [bind]. unfold hset. rewrite nth_error_app2, Nat.sub_diag by lia. cbn [nth_error].
  rewrite aset_app' by (unfold zlen; rewrite map_length; reflexivity). cbn [bind].
  rewrite lupd_app_0.
  assert (E1 : map Some pre ++ Some a :: jd = map Some (pre ++ [a]) ++ jd) by (rewrite map_app, <- app_assoc; reflexivity).
  rewrite E1. replace (zlen pre + 1) with (zlen (pre ++ [a])) by (rewrite zlen_app, zlen_cons, zlen_nil; lia).
  rewrite (IH (pre ++ [a]) jd l t).
  - rewrite map_app, <- !app_assoc. reflexivity.
  - rewrite map_app, <- app_assoc. exact Hs.
  - cbn in Hl. lia.
Qed.

Lemma load_args_ok h p : forall args pre l,
  nth_error h p = Some (BArgv (map Some pre ++ map Some args ++ l)) ->
  load_args (List.length args) (zlen pre) p h = Ok args.
Proof.
  induction args as [|a args IH]; intros pre l Hs; cbn [load_args List.length]; [reflexivity|].
  unfold hget at 1. rewrite Hs.
  assert (Eg : aget (map Some pre ++ map Some (a :: args) ++ l) (zlen pre) = Ok (Some a)).
  { unfold aget. pose proof (zlen_nonneg pre). destruct (Z.ltb_spec (zlen pre) 0); [lia|]. unfold zlen. rewrite Nat2Z.id.
    rewrite nth_error_app2 by (rewrite map_length; lia). rewrite map_length, Nat.sub_diag. reflexivity. }
  rewrite Eg. cbn [bind].
  replace (zlen pre + 1) with (zlen (pre ++ [a])) by (rewrite zlen_app, zlen_cons, zlen_nil; lia).
  rewrite (IH (pre ++ [a]) l); [reflexivity|]. rewrite map_app, <- app_assoc. exact Hs.
Qed.

Lemma store_args_ok h t : forall args pre l old, List.length old = List.length args ->
  store_args args (zlen pre) (List.length h) (h ++ BArgv (map Some pre ++ old ++ l) :: t)
  = Ok (h ++ BArgv (map Some pre ++ map Some args ++ l) :: t).
Proof.
  induction args as [|a args IH]; intros pre l old Ho; cbn [store_args].
  - destruct old; [reflexivity|discriminate].
  - destruct old as [|o old]; [discriminate|]. unfold hset. rewrite nth_error_app2, Nat.sub_diag by lia. cbn [nth_error].
    cbn [app]. rewrite aset_app' by (unfold zlen; rewrite map_length; reflexivity). cbn [bind].
    rewrite lupd_app_0.
    assert (E1 : map Some pre ++ Some a :: old ++ l = map Some (pre ++ [a]) ++ old ++ l) by (rewrite map_app, <- app_assoc; reflexivity).
    rewrite E1. replace (zlen pre + 1) with (zlen (pre ++ [a])) by (rewrite zlen_app, zlen_cons, zlen_nil; lia).
    rewrite (IH (pre ++ [a]) l old) by (cbn in Ho; lia). rewrite map_app, <- !app_assoc. reflexivity.
Qed.

Lemma copy_loop_ok0 src h args jd l t :
  nth_error h src = Some (BArgv (map Some args ++ l)) -> (List.length args <= List.length jd)%nat ->
  copy_loop (List.length args) 0 src (List.length h) (h ++ BArgv jd :: t)
  = Ok (h ++ BArgv (map Some args ++ skipn (List.length args) jd) :: t).
Proof. intros H1 H2. exact (copy_loop_ok src h args [] jd l t H1 H2). Qed.
Lemma load_args_ok0 h p args l :
  nth_error h p = Some (BArgv (map Some args ++ l)) -> load_args (List.length args) 0 p h = Ok args.
Proof. exact (load_args_ok h p args [] l). Qed.
Lemma store_args_ok0 h t args l old : List.length old = List.length args ->
  store_args args 0 (List.length h) (h ++ BArgv (old ++ l) :: t) = Ok (h ++ BArgv (map Some args ++ l) :: t).
Proof. exact (store_args_ok h t args [] l old). Qed.

(** ** arg_parse *)
Context (junko : nat -> rawopt) (junkc : nat -> ascii) (junkp : nat -> option str).
Notation parse := (arg_parse scan check reset posix junko junkc junkp).
Notation parse_in := (arg_parse_in scan check reset posix junko junkc junkp).

(** The caller's argv: a block holding the arguments (then NULL, which arg_parse does not read). *)
Definition holds (h : heap) (argv : nat) (args : list str) : Prop :=
  exists l, nth_error h argv = Some (BArgv (map Some args ++ l)).

Definition Rfin (h : heap) (st : list (entry B) * list err) (r : heap * gst * list (entry B) * arg_end) : Prop :=
  let '(h', s', tab', en') := r in h' = h /\ tab' = fst st /\ rep cap en' (snd st).

Lemma parse_in_empty longonly fuel argv h s tab en : wf_end cap en ->
  sim (Rfin h) (ideal_parse_empty check reset tab) (parse_in longonly fuel 0 argv h s tab en).
Proof.
  intros Hen. unfold ideal_parse_empty, arg_parse_in. change (reset_loop reset tab) with (ideal_reset reset tab).
  eapply sim_bind; [apply sim_refl|]. intros t ? <-. change (0 =? 0) with true. cbn iota.
  destruct (sim_check t 0 _ _ (reset_rep cap en Hen)) as (en' & E & HR). rewrite E. cbn. auto.
Qed.

(** The heap during a parse. *)
Lemma parse_in_finishes longonly fuel argv h s tab en a0 rest evs pos :
  wf_end cap en -> Forall good_hdr (map e_hdr tab) -> Forall cstr rest ->
  holds h argv (a0 :: rest) ->
  read_args_in longonly posix (map e_hdr tab) rest = (evs, Finished pos) -> (List.length evs < fuel)%nat ->
  sim (Rfin (h ++ [BFreed; BFreed; BFreed])) (ideal_parse scan check reset evs pos tab)
      (parse_in longonly fuel (zlen (a0 :: rest)) argv h s tab en).
Proof.
  intros Hen Hgood Hcs [l Hl] Hread Hfuel.
  unfold ideal_parse, arg_parse_in. change (reset_loop reset tab) with (ideal_reset reset tab).
  destruct (ideal_reset reset tab) as [t0| |] eqn:Er; cbn [bind]; try reflexivity.
  pose proof (ideal_reset_hdr _ _ Er) as Hh0.
  set (args := a0 :: rest) in *. set (argc := zlen args).
  assert (Hargc : 0 < argc) by (unfold argc, args; rewrite zlen_cons; pose proof (zlen_nonneg rest); lia).
  destruct (Z.eqb_spec argc 0); [lia|].
  unfold halloc at 1.
  replace (Z.to_nat argc) with (List.length args) by (unfold argc, zlen; lia).
  assert (Hlj : List.length (fresh junkp (argc + 1)) = S (List.length args)).
  { unfold fresh. rewrite map_length, seq_length. unfold argc, zlen. lia. }
  rewrite (copy_loop_ok0 argv h args (fresh junkp (argc + 1)) l []) by (auto; lia). cbn [bind].
  assert (Hsk : exists j, skipn (List.length args) (fresh junkp (argc + 1)) = [j]).
  { pose proof (skipn_length (List.length args) (fresh junkp (argc + 1))) as Hk. rewrite Hlj in Hk.
    destruct (skipn (List.length args) (fresh junkp (argc + 1))) as [|j [|? ?]]; cbn [List.length] in Hk; [lia|eauto|lia]. }
  destruct Hsk as [j ->].
  unfold hset at 1. rewrite nth_error_snoc.
  rewrite aset_app' by (unfold argc, zlen; rewrite map_length; reflexivity). cbn [bind].
  rewrite lupd_app_0.
  unfold arg_parse_tagged. rewrite Hh0.
  assert (Hlong : Forall good_longopts (map e_hdr tab)) by (eapply Forall_impl; [|exact Hgood]; intros ? []; auto).
  assert (Hshort : Forall good_shortopts (map e_hdr tab)) by (eapply Forall_impl; [|exact Hgood]; intros ? []; auto).
  rewrite (alloc_longoptions_ok _ _ _ Hlong). cbn [bind]. unfold halloc.
  rewrite (alloc_shortoptions_ok _ _ (short_string_cstr _ Hshort)). cbn [bind].
  replace (Z.to_nat argc) with (List.length args) by (unfold argc, zlen; lia).
  rewrite <- !app_assoc. cbn [app].
  rewrite (load_args_ok0 _ (List.length h) args [None]) by (cbn; rewrite nth_error_app2, Nat.sub_diag by lia; reflexivity).
  cbn [bind].
  destruct (loop_finishes scan posix longonly (map e_hdr tab) Hgood argc s a0 rest evs pos Hcs eq_refl Hread) as (sf & (Hlen & dnf & Hdn & Hnargv & Hind) & Hloop).
  unfold opts, lo in Hloop. fold args in Hloop. rewrite (Hloop fuel t0 (arg_end_resetfn en) Hh0 Hfuel). clear Hloop.
  pose proof (sim_events evs t0 [] (arg_end_resetfn en) (reset_rep cap en Hen)) as Hev.
  destruct (ideal_events scan evs (t0, [])) as [[t1 errs1]| |] eqn:Ei;
    destruct (run scan evs t0 (arg_end_resetfn en)) as [[t1' en1]| |] eqn:Er1; cbn in Hev; try contradiction; cbn [bind].
  2:{ cbn. auto. } 2:{ cbn. auto. }
  destruct Hev as [E1 HR1]. cbn in E1, HR1. subst t1'.
  (* store the permuted arguments back and free the option tables *)
  assert (Hsl : List.length (nargv sf) = List.length args) by (unfold argc, zlen in Hlen; lia).
  rewrite store_args_ok0 by (rewrite map_length; lia). cbn [bind].
  unfold hfree at 1.
  rewrite nth_error_app2 by (rewrite app_length; cbn [List.length]; lia).
  assert (Ex : (List.length (h ++ [BArgv (map Some args ++ [None]); BTemp]) - List.length h = 2)%nat) by (rewrite app_length; cbn [List.length]; lia).
  rewrite Ex. cbn [nth_error bind].
  replace (List.length (h ++ [BArgv (map Some args ++ [None]); BTemp])) with (List.length h + 2)%nat by (rewrite app_length; reflexivity).
  rewrite lupd_app_r. cbn [lupd].
  unfold hfree at 1. rewrite nth_error_app2 by (rewrite app_length; cbn [List.length]; lia).
  assert (Ey : (List.length (h ++ [BArgv (map Some args ++ [None])]) - List.length h = 1)%nat) by (rewrite app_length; cbn [List.length]; lia).
  rewrite Ey. cbn [nth_error bind].
  replace (List.length (h ++ [BArgv (map Some args ++ [None])])) with (List.length h + 1)%nat by (rewrite app_length; reflexivity).
  rewrite lupd_app_r. cbn [lupd bind].
  (* the positional arguments *)
  assert (Hposn : Z.to_nat (argc - optind sf) = List.length pos).
  { rewrite Hind. rewrite <- Hlen, Hnargv. unfold zlen. rewrite app_length. lia. }
  rewrite Hposn, Hind. 
  rewrite (load_args_ok _ (List.length h) pos dnf [None]).
  2:{ rewrite nth_error_app2, Nat.sub_diag by lia. cbn [nth_error map app]. rewrite Hnargv, map_app, <- app_assoc. reflexivity. }
  cbn [bind]. unfold arg_parse_untagged.
  assert (Hp := sim_positional t1 0 pos None [] en1 errs1 (S (List.length t1 + List.length pos)) HR1 ltac:(auto) ltac:(lia)).
  cbn [pend_of] in Hp.
  destruct (ideal_positional scan 0 t1 pos None) as [[t2 errs2]| |];
    destruct (untagged_loop scan _ [] 0 t1 pos None en1) as [[t2' en2]| |]; cbn in Hp; try contradiction; cbn [bind]; auto.
  destruct Hp as [E2 HR2]. cbn in E2, HR2. subst t2'.
  assert (Hcount : (end_count en2 =? 0) = match errs1 ++ errs2 with [] => true | _ => false end).
  { rewrite (r_count _ _ _ HR2). pose proof (r_cap _ _ _ HR2). destruct (errs1 ++ errs2) as [|x y].
    { change (zlen (@nil err)) with 0. apply Z.eqb_eq. lia. }
    rewrite zlen_cons. pose proof (zlen_nonneg y). apply Z.eqb_neq. lia. }
  rewrite Hcount.
  assert (Hfr : forall X, hfree (h ++ [BArgv X; BFreed; BFreed]) (List.length h) = Ok (h ++ [BFreed; BFreed; BFreed])).
  { intros X. unfold hfree. rewrite nth_error_app2, Nat.sub_diag by lia. cbn [nth_error].
    rewrite lupd_app_0. reflexivity. }
  destruct (errs1 ++ errs2) as [|x y].
  - destruct (sim_check t2 0 _ _ HR2) as (en3 & E3 & HR3). rewrite E3. cbn [bind].
    rewrite Hfr. cbn. auto.
  - cbn [bind]. rewrite Hfr. cbn. auto.
Qed.

(** When the arguments contain a cluster running into a final dash, arg_parse never returns: with any
    fuel, it still has not returned after handling events [l]. *)
Lemma parse_in_hangs longonly fuel argv h s tab en a0 rest evs :
  Forall good_hdr (map e_hdr tab) -> Forall cstr rest ->
  holds h argv (a0 :: rest) ->
  read_args_in longonly posix (map e_hdr tab) rest = (evs, Hangs) ->
  exists l, Forall (from (map e_hdr tab) evs) l /\
    parse_in longonly fuel (zlen (a0 :: rest)) argv h s tab en
    = (tab <- ideal_reset reset tab ;; '(tab, en) <- run scan l tab (arg_end_resetfn en) ;; OutOfFuel).
Proof.
  intros Hgood Hcs [l Hl] Hread.
  destruct (loop_hangs scan posix longonly (map e_hdr tab) Hgood (zlen (a0 :: rest)) s a0 rest evs Hcs eq_refl Hread fuel) as (lev & Hlev & Hloop).
  exists lev. split; [exact Hlev|].
  unfold arg_parse_in. change (reset_loop reset tab) with (ideal_reset reset tab).
  destruct (ideal_reset reset tab) as [t0| |] eqn:Er; cbn [bind]; try reflexivity.
  pose proof (ideal_reset_hdr _ _ Er) as Hh0.
  set (args := a0 :: rest) in *. set (argc := zlen args).
  assert (Hargc : 0 < argc) by (unfold argc, args; rewrite zlen_cons; pose proof (zlen_nonneg rest); lia).
  destruct (Z.eqb_spec argc 0); [lia|].
  unfold halloc at 1.
  replace (Z.to_nat argc) with (List.length args) by (unfold argc, zlen; lia).
  assert (Hlj : List.length (fresh junkp (argc + 1)) = S (List.length args)).
  { unfold fresh. rewrite map_length, seq_length. unfold argc, zlen. lia. }
  rewrite (copy_loop_ok0 argv h args (fresh junkp (argc + 1)) l []) by (auto; lia). cbn [bind].
  assert (Hsk : exists j, skipn (List.length args) (fresh junkp (argc + 1)) = [j]).
  { pose proof (skipn_length (List.length args) (fresh junkp (argc + 1))) as Hk. rewrite Hlj in Hk.
    destruct (skipn (List.length args) (fresh junkp (argc + 1))) as [|j [|? ?]]; cbn [List.length] in Hk; [lia|eauto|lia]. }
  destruct Hsk as [j ->].
  unfold hset at 1. rewrite nth_error_snoc.
  rewrite aset_app' by (unfold argc, zlen; rewrite map_length; reflexivity). cbn [bind].
  rewrite lupd_app_0.
  unfold arg_parse_tagged. rewrite Hh0.
  assert (Hlong : Forall good_longopts (map e_hdr tab)) by (eapply Forall_impl; [|exact Hgood]; intros ? []; auto).
  assert (Hshort : Forall good_shortopts (map e_hdr tab)) by (eapply Forall_impl; [|exact Hgood]; intros ? []; auto).
  rewrite (alloc_longoptions_ok _ _ _ Hlong). cbn [bind]. unfold halloc.
  rewrite (alloc_shortoptions_ok _ _ (short_string_cstr _ Hshort)). cbn [bind].
  replace (Z.to_nat argc) with (List.length args) by (unfold argc, zlen; lia).
  rewrite <- !app_assoc. cbn [app].
  rewrite (load_args_ok0 _ (List.length h) args [None]) by (cbn; rewrite nth_error_app2, Nat.sub_diag by lia; reflexivity).
  cbn [bind].
  unfold opts, lo in Hloop. fold args in Hloop. fold argc in Hloop. rewrite (Hloop t0 (arg_end_resetfn en) Hh0).
  destruct (run scan lev t0 (arg_end_resetfn en)) as [[? ?]| |]; reflexivity.
Qed.

(** The default build. *)
Lemma parse_empty fuel argv h s tab en : wf_end cap en ->
  sim (Rfin h) (ideal_parse_empty check reset tab) (parse fuel 0 argv h s tab en).
Proof. apply parse_in_empty. Qed.
Lemma parse_finishes fuel argv h s tab en a0 rest evs pos :
  wf_end cap en -> Forall good_hdr (map e_hdr tab) -> Forall cstr rest ->
  holds h argv (a0 :: rest) ->
  read_args posix (map e_hdr tab) rest = (evs, Finished pos) -> (List.length evs < fuel)%nat ->
  sim (Rfin (h ++ [BFreed; BFreed; BFreed])) (ideal_parse scan check reset evs pos tab)
      (parse fuel (zlen (a0 :: rest)) argv h s tab en).
Proof. rewrite <- read_args_default. apply parse_in_finishes. Qed.
Lemma parse_hangs fuel argv h s tab en a0 rest evs :
  Forall good_hdr (map e_hdr tab) -> Forall cstr rest ->
  holds h argv (a0 :: rest) ->
  read_args posix (map e_hdr tab) rest = (evs, Hangs) ->
  exists l, Forall (from (map e_hdr tab) evs) l /\
    parse fuel (zlen (a0 :: rest)) argv h s tab en
    = (tab <- ideal_reset reset tab ;; '(tab, en) <- run scan l tab (arg_end_resetfn en) ;; OutOfFuel).
Proof. rewrite <- read_args_default. apply parse_in_hangs. Qed.
End Parse.
