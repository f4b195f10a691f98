(** CmdProofs: the command registry follows its specification. *)
From Coq Require Import ZArith List Bool Lia Permutation Ascii.
From Verif Require Import Base HashModel HashSpec HashProofs HashFacts CmdModel CmdSpec.
Import ListNotations.
Open Scope Z_scope.

Lemma cmd_keys : key_functions hash_key equal_keys.
Proof.
  unfold equal_keys. repeat split.
  - apply str_eqb_refl.
  - intros a b. destruct (str_eqb_spec a b); destruct (str_eqb_spec b a); congruence.
  - intros a b c H1 H2. apply str_eqb_eq in H1, H2. subst. apply str_eqb_refl.
  - intros a b H. apply str_eqb_eq in H. now subst.
Qed.

Section Proofs.
Context {P C : Type}.
(** Keys and values that the registry has lost (empty unless a request for memory was refused, C88) *)
Context {fk fv : list nat}.
Notation info := (cmdinfo P C).
Notation rep := (@HashProofs.rep str info hash_key).
Notation same := (@HashSpec.same str info equal_keys).
Notation lookup := (@HashSpec.lookup str info equal_keys).

(** The registry [e] is the table's association list [l]; blocks carry their own name. *)
Record good (s : cmds P C) (e : @registry P C) (h : nat) (t : ht) (rows : list (list (@cell str))) (l : list (str * option info)) : Prop := {
  g_h : s_table s = Some h;
  g_rep : rep (s_mem s) h t rows fk fv;
  g_st : stands equal_keys (s_mem s) rows l;
  g_e : forall n, e n = match lookup n l with Some v => v | None => None end;
  g_in : forall n v, In (n, v) l -> exists i, v = Some i /\ ci_name i = n
}.

Lemma find_info s e h t rows l n : good s e h t rows l ->
  exists i, arg_cmd_info s n = Ok i /\
    match i with
    | Some i => exists x, sget (w_val (s_mem s)) i = Some x /\ e n = Some x /\ ci_name x = n /\
        exists c, In c (concat rows) /\ c_v c = Some i /\ c_key c = n
    | None => e n = None
    end.
Proof.
  intros G. destruct G. unfold arg_cmd_info, table_of. rewrite g_h0. cbn [bind].
  pose proof (observe_key_stands hash_key equal_keys cmd_keys _ _ _ _ _ n g_rep0 g_st0) as O. unfold observe_key in O.
  destruct (search_ok hash_key equal_keys _ _ _ _ _ _ n g_rep0) as [(c & I & HC & X)|(NH & X)];
    rewrite X in *; cbn [bind] in *.
  - rewrite (hits_eq hash_key equal_keys cmd_keys) in HC. apply str_eqb_eq in HC. subst n.
    exists (c_v c). split; auto. rewrite <- g_e0 in O.
    assert (IL : In (cont (s_mem s) c) l) by (apply (Permutation_in _ (proj1 g_st0)), in_map, I).
    unfold cont in IL. apply g_in0 in IL. destruct IL as (x & EX & EN).
    destruct (c_v c) as [i|] eqn:E; [|discriminate].
    exists x. split; auto. cbn [content] in O. rewrite (sread_ok _ _ _ EX) in O. cbn [bind] in O. inversion O. split; auto. split; auto.
    exists c. auto.
  - exists None. split; auto. cbn [content] in O. rewrite <- g_e0 in O. now inversion O.
Qed.

Lemma see_ok s e h t rows l n : good s e h t rows l -> see s n = Ok (e n).
Proof.
  intros G. unfold see. destruct (find_info s e h t rows l n G) as (i & X & Y). rewrite X. cbn [bind].
  destruct i as [i|].
  - destruct Y as (x & E & -> & _). now rewrite (sread_ok _ _ _ E).
  - now rewrite Y.
Qed.

Lemma pointer_ok s e h t rows l x : good s e h t rows l -> registered e x ->
  exists p, pointer s x = Ok p /\ deref (s_mem s) p = Ok (meant e x) /\
    match p with
    | Text _ => True
    | NameOf i | DescOf i => exists c, In c (concat rows) /\ c_v c = Some i /\
        match x with Own _ => False | NameFieldOf n | DescFieldOf n => c_key c = n end
    | KeyAt _ => False
    end.
Proof.
  intros G RG. destruct x as [u|c|c]; cbn [pointer registered meant] in *.
  - exists (Text u). auto.
  - destruct (find_info s e h t rows l c G) as (i & X & Y). rewrite X. cbn [bind]. destruct i as [i|]; [|contradiction].
    destruct Y as (x & E & EE & EN & d & I & EV & EK). exists (NameOf i). split; auto. split.
    + cbn [deref]. rewrite (sread_ok _ _ _ E). cbn [bind]. now rewrite EN.
    + exists d. auto.
  - destruct (find_info s e h t rows l c G) as (i & X & Y). rewrite X. cbn [bind]. destruct i as [i|]; [|contradiction].
    destruct Y as (x & E & EE & EN & d & I & EV & EK). exists (DescOf i). split; auto. split.
    + cbn [deref]. rewrite (sread_ok _ _ _ E). cbn [bind]. now rewrite EE.
    + exists d. auto.
Qed.

Lemma lookup_filter m n (l : list (str * option info)) :
  lookup m (filter (fun p => negb (same n p)) l) = if str_eqb n m then None else lookup m l.
Proof.
  assert (S : forall a k v, same a (k, v) = str_eqb a k) by reflexivity.
  unfold HashSpec.lookup in *. induction l as [|(k, v) l IH]; cbn [filter find].
  - now destruct (str_eqb n m).
  - rewrite !S. destruct (str_eqb_spec n k) as [->|NE]; cbn [negb].
    + rewrite IH. destruct (str_eqb_spec k m) as [->|NM]; auto.
      destruct (str_eqb_spec m k); [congruence | auto].
    + cbn [find]. rewrite S. destruct (str_eqb_spec m k) as [->|]; auto.
      destruct (str_eqb_spec n k); [congruence | auto].
Qed.

(** The names in the table are distinct. *)
Lemma good_keys s e h t rows l : good s e h t rows l -> NoDup (map c_key (concat rows)).
Proof.
  intros G. destruct G. destruct g_st0 as (PM & U). set (ls := map (cont (s_mem s)) (concat rows)) in *.
  assert (E : map c_key (concat rows) = map fst ls) by (unfold ls; rewrite map_map; reflexivity). rewrite E.
  assert (UL : uniq equal_keys ls) by (eapply (uniq_perm hash_key equal_keys cmd_keys); [apply Permutation_sym; exact PM | exact U]).
  clear - UL. induction ls as [|p ls IH]; cbn [map]; [constructor|]. destruct UL as (F & U). constructor; auto.
  intros I. apply in_map_iff in I. destruct I as (q & E & I). rewrite Forall_forall in F. specialize (F q I).
  rewrite E in F. unfold equal_keys in F. rewrite str_eqb_refl in F. discriminate.
Qed.
(** The table without the name [n] *)
Definition but (n : str) (rows : list (list (@cell str))) : list (list (@cell str)) :=
  map (filter (fun c => negb (str_eqb n (c_key c)))) rows.
Lemma filter_all {T} (f : T -> bool) l : (forall x, In x l -> f x = true) -> filter f l = l.
Proof. induction l as [|x l IH]; intros H; cbn [filter]; auto. rewrite H by now left. rewrite IH; auto. intros y I. apply H. now right. Qed.
Lemma but_none n rows : (forall c, In c (concat rows) -> c_key c <> n) -> but n rows = rows.
Proof.
  unfold but. induction rows as [|r rows IH]; intros H; cbn [map]; auto. rewrite IH.
  - rewrite filter_all; auto. intros x I. destruct (str_eqb_spec n (c_key x)) as [->|]; auto. exfalso. apply (H x); auto. cbn [concat]. apply in_or_app. auto.
  - intros c I. apply H. cbn [concat]. apply in_or_app. auto.
Qed.
Lemma exact_but n t t' rows rows' : NoDup (map c_key (concat rows)) -> exact_drop hash_key equal_keys n t t' rows rows' ->
  rows' = but n rows /\ t_load t' = t_load t /\ t_prime t' = t_prime t.
Proof.
  intros ND [(P0 & pre & c & post & Q & HC & -> & -> & ->)|(NH & -> & ->)].
  - split; [|auto]. rewrite (hits_eq hash_key equal_keys cmd_keys) in HC. apply str_eqb_eq in HC. subst n.
    rewrite concat_mid, !map_app in ND. cbn [map] in ND. rewrite <- !app_assoc in ND. cbn [app] in ND.
    rewrite app_assoc in ND. destruct (NoDup_mid_notin _ _ _ ND) as (N1 & N2). rewrite in_app_iff in N1. rewrite in_app_iff in N2.
    assert (Z1 : forall r, (forall x, In x r -> c_key x <> c_key c) -> filter (fun x => negb (str_eqb (c_key c) (c_key x))) r = r).
    { intros r H. apply filter_all. intros x I. destruct (str_eqb_spec (c_key c) (c_key x)) as [Y|]; auto. exfalso. apply (H x I). auto. }
    unfold but. rewrite map_app. cbn [map]. rewrite filter_app. cbn [filter]. rewrite str_eqb_refl. cbn [negb].
    fold (but (c_key c) P0). fold (but (c_key c) Q). rewrite !but_none, !Z1; auto.
    + intros x I Y. apply N2. left. rewrite <- Y. now apply in_map.
    + intros x I Y. apply N1. right. rewrite <- Y. now apply in_map.
    + intros x I Y. apply N2. right. rewrite <- Y. now apply in_map.
    + intros x I Y. apply N1. left. rewrite <- Y. now apply in_map.
  - split; [|auto]. symmetry. apply but_none. intros c I Y. specialize (NH c I). rewrite (hits_eq hash_key equal_keys cmd_keys) in NH.
    unfold equal_keys in NH. rewrite Y, str_eqb_refl in NH. discriminate.
Qed.
Lemma unreg_ok s e h t rows l n : good s e h t rows l ->
  exists w' t' rows', arg_hashtable_remove hash_key equal_keys (s_mem s) h n = Ok w' /\
    good (up_mem s w') (upd e n None) h t' rows' (filter (fun p => negb (same n p)) l) /\
    (forall c i, In c (concat rows) -> c_key c <> n -> c_v c = Some i -> sget (w_val w') i = sget (w_val (s_mem s)) i) /\
    rows' = but n rows /\ t_load t' = t_load t /\ t_prime t' = t_prime t.
Proof.
  intros G. assert (ND := good_keys _ _ _ _ _ _ G). destruct G.
  destruct (rem_stands hash_key equal_keys cmd_keys _ _ _ _ n l g_rep0 g_st0) as (w' & t' & rows' & X & R' & TL & S' & D & KP & XD).
  exists w', t', rows'. split; [exact X|]. split; [|split; [|exact (exact_but _ _ _ _ _ ND XD)]].
  - constructor; auto.
    + intros m. unfold upd. rewrite lookup_filter. destruct (str_eqb n m); auto.
    + intros m v I. apply filter_In in I. apply g_in0. apply I.
  - intros c i I NE EV. apply KP. apply in_vids. exists c. split; [|unfold vid; rewrite EV; now left].
    destruct D as [(d & HD & PM)|(_ & PM)]; apply (Permutation_in _ PM) in I; auto.
    destruct I as [->|I]; auto. exfalso. rewrite (hits_eq hash_key equal_keys cmd_keys) in HD. apply str_eqb_eq in HD. congruence.
Qed.

Lemma good_absent s e h t rows l n : good s e h t rows l -> e n = None -> filter (fun p => negb (same n p)) l = l.
Proof.
  intros G E. apply filter_none. apply Forall_forall. intros (k, v) I. destruct (same n (k, v)) eqn:S; auto. exfalso.
  destruct G. destruct (g_in0 k v I) as (i & -> & _). rewrite g_e0 in E. unfold HashSpec.lookup in E.
  destruct (find (same n) l) as [(k', v')|] eqn:F.
  - apply find_some in F. destruct F as (F & _). destruct (g_in0 _ _ F) as (j & -> & _). discriminate.
  - now rewrite (find_none _ _ F _ I) in S.
Qed.

Lemma deref_keeps s e h t rows l w' n x p : good s e h t rows l -> not_into n x ->
  (forall c i, In c (concat rows) -> c_key c <> n -> c_v c = Some i -> sget (w_val w') i = sget (w_val (s_mem s)) i) ->
  (match p with
    | Text _ => True
    | NameOf i | DescOf i => exists c, In c (concat rows) /\ c_v c = Some i /\
        match x with Own _ => False | NameFieldOf n | DescFieldOf n => c_key c = n end
    | KeyAt _ => False
    end) -> deref w' p = deref (s_mem s) p.
Proof.
  intros G NI KP PP. destruct p as [u|i|i|k]; cbn [deref]; auto; [| |destruct PP];
    destruct PP as (c & I & EV & EK); unfold sread; rewrite (KP c i); auto; destruct x; cbn [not_into] in NI; subst; tauto.
Qed.

(** What a call does to the table *)
Definition shifts (e : @registry P C) (o : @cop P C) (t t' : ht) (rows rows' : list (list (@cell str))) : Prop :=
  match o with
  | Unreg n => rows' = but (meant e n) rows /\ t_load t' = t_load t /\ t_prime t' = t_prime t
  | Reg n _ _ _ =>
      zlen (concat (but (meant e n) rows)) + 1 <= t_load t \/ t_prime t = prime_table_length - 1 ->
      t_load t' = t_load t /\ t_prime t' = t_prime t /\
      exists c A row B, but (meant e n) rows = A ++ row :: B /\ c_key c = meant e n /\ zlen A = enhanced_hash hash_key (meant e n) mod zlen rows /\
        rows' = A ++ (c :: row) :: B
  end.

Lemma cop_ok s e h t rows l o : good s e h t rows l -> allowed_cop e o ->
  exists s' t' rows' l', do_cop s o = Ok s' /\ good s' (spec_cop e o) h t' rows' l' /\ shifts e o t t' rows rows'.
Proof.
  intros G AL. destruct o as [n p d c|n]; cbn [allowed_cop do_cop spec_cop] in *.
  - destruct AL as (RN & RD & NN & ND & LN & LD).
    destruct (pointer_ok s e h t rows l n G RN) as (pn & X1 & Y1 & Z1).
    destruct (pointer_ok s e h t rows l d G RD) as (pd & X2 & Y2 & Z2).
    rewrite X1, X2. cbn [bind]. unfold arg_cmd_register. rewrite Y1, Y2. cbn [bind].
    set (name := meant e n) in *. set (desc := meant e d) in *.
    change ARG_CMD_NAME_LEN with 100. change ARG_CMD_DESCRIPTION_LEN with 256.
    destruct (Z.leb_spec 100 (zlen name)); [lia|]. destruct (Z.leb_spec 256 (zlen desc)); [lia|]. cbn [orb].
    unfold table_of. rewrite (g_h _ _ _ _ _ _ G). cbn [bind].
    destruct (find_info s e h t rows l name G) as (fi & X3 & Y3). unfold arg_cmd_info, table_of in X3.
    rewrite (g_h _ _ _ _ _ _ G) in X3. cbn [bind] in X3. rewrite X3. cbn [bind].
    assert (RM : exists w1 t1 rows1, match fi with
         | Some _ => arg_hashtable_remove hash_key equal_keys (s_mem s) h name
         | None => Ok (s_mem s)
         end = Ok w1 /\ good (up_mem s w1) (upd e name None) h t1 rows1 (filter (fun p => negb (same name p)) l) /\
         (forall c i, In c (concat rows) -> c_key c <> name -> c_v c = Some i -> sget (w_val w1) i = sget (w_val (s_mem s)) i) /\
         rows1 = but name rows /\ t_load t1 = t_load t /\ t_prime t1 = t_prime t).
    { destruct fi as [fi|].
      - destruct (unreg_ok s e h t rows l name G) as (w1 & t1 & rows1 & ?). eauto.
      - exists (s_mem s), t, rows. split; auto. split; [|split; [auto|split; [|auto]]].
        + rewrite (good_absent s e h t rows l name G Y3).
          destruct G. constructor; auto. intros m. unfold upd. rewrite <- g_e0. destruct (str_eqb_spec name m); subst; auto.
        + symmetry. apply but_none. intros x I Y. destruct G. assert (IL : In (cont (s_mem s) x) l) by (apply (Permutation_in _ (proj1 g_st0)), in_map, I).
          assert (LK := lookup_perm hash_key equal_keys cmd_keys name l (cont (s_mem s) x :: filter (fun p => negb (same name p)) l)).
          unfold cont in IL. rewrite Y in IL. destruct (g_in0 _ _ IL) as (i0 & E0 & _). rewrite g_e0 in Y3. unfold HashSpec.lookup in Y3.
          destruct (find (same name) l) as [(k', v')|] eqn:F.
          * apply find_some in F. destruct F as (F & _). destruct (g_in0 _ _ F) as (j & -> & _). discriminate.
          * assert (Z := find_none _ _ F _ IL). unfold HashSpec.same, equal_keys in Z. cbn [fst] in Z. rewrite str_eqb_refl in Z. discriminate. }
    destruct RM as (w1 & t1 & rows1 & -> & G1 & KP & EB & EL & EP). cbn [bind].
    rewrite (deref_keeps s e h t rows l w1 name n pn G NN KP Z1), Y1. cbn [bind].
    rewrite (deref_keeps s e h t rows l w1 name d pd G ND KP Z2), Y2. cbn [bind].
    set (i := {| ci_name := name; ci_desc := desc; ci_proc := p; ci_ctx := c |}).
    assert (LN1 : lookup name (filter (fun p => negb (same name p)) l) = None).
    { rewrite lookup_filter. now rewrite str_eqb_refl. }
    destruct (ins_stands hash_key equal_keys w1 h t1 rows1 _ name (Some i) (g_rep _ _ _ _ _ _ G1) (g_st _ _ _ _ _ _ G1) LN1)
      as (w2 & t2 & rows2 & X4 & R2 & S2 & XA).
    cbn [do_hop salloc new_value] in X4. cbn [salloc].
    change (up_key (up_val w1 ?vs) ?ks) with (up_val (up_key w1 ks) vs). rewrite X4. cbn [bind].
    exists (up_mem s w2), t2, rows2. eexists. split; [reflexivity|].
    split; [|cbn [shifts]; fold name; intros B; rewrite <- EB in *; rewrite <- EL, <- EP in B; rewrite <- (r_count _ _ _ _ _ _ _ (g_rep _ _ _ _ _ _ G1)) in B;
      destruct (XA B) as (-> & c0 & A & row & Bs & Y4 & Y5 & Y6 & Y7); cbn [set_count t_load t_prime]; split; [exact EL|split; [exact EP|]];
      exists c0, A, row, Bs; split; [exact Y4|split; [exact Y5|split; [|exact Y7]]]; rewrite Y6; f_equal; rewrite EB; unfold but, zlen; now rewrite map_length].
    constructor.
    + apply (g_h _ _ _ _ _ _ G).
    + exact R2.
    + exact S2.
    + intros m. unfold upd. unfold HashSpec.lookup. cbn [find].
      change (same m (name, Some i)) with (str_eqb m name).
      destruct (str_eqb_spec m name) as [->|NE]; [now rewrite str_eqb_refl|].
      destruct (str_eqb_spec name m) as [->|_]; [congruence|].
      pose proof (g_e _ _ _ _ _ _ G1 m) as E. unfold upd, HashSpec.lookup in E.
      destruct (str_eqb_spec name m) as [->|_]; [congruence | exact E].
    + intros m v [E|I].
      * inversion E; subst. exists i. auto.
      * apply (g_in _ _ _ _ _ _ G1 m v I).
  - destruct (pointer_ok s e h t rows l n G AL) as (pn & X1 & Y1 & _).
    rewrite X1. cbn [bind]. unfold arg_cmd_unregister. rewrite Y1. cbn [bind].
    unfold table_of. rewrite (g_h _ _ _ _ _ _ G). cbn [bind].
    destruct (unreg_ok s e h t rows l (meant e n) G) as (w' & t' & rows' & X & G' & _ & XD). rewrite X. cbn [bind].
    exists (up_mem s w'), t', rows'. eexists. split; [reflexivity | split; [exact G' | exact XD]].
Qed.

Lemma cops_ok os : forall s e h t rows l, good s e h t rows l -> allowed_cops e os ->
  exists s' t' rows' l', do_cops s os = Ok s' /\ good s' (spec_cops e os) h t' rows' l'.
Proof.
  induction os as [|o os IH]; intros s e h t rows l G AL; cbn [do_cops].
  - exists s, t, rows, l. auto.
  - destruct AL as (A1 & A2). destruct (cop_ok s e h t rows l o G A1) as (s1 & t1 & rows1 & l1 & -> & G1 & _). cbn [bind].
    apply (IH s1 _ h t1 rows1 l1 G1 A2).
Qed.

Lemma walk_ok (s : cmds P C) h t rows rest : forall fuel it c,
  rep (s_mem s) h t rows fk fv -> at_it h rows it (c :: rest) -> (length rest < fuel)%nat ->
  incl (c :: rest) (concat rows) ->
  walk fuel s it = Ok (map (cont (s_mem s)) (c :: rest)).
Proof.
  induction rest as [|c2 rest IH]; intros fuel it c RP AT HF IN; (destruct fuel as [|fuel]; [cbn in HF; lia|]); cbn [walk];
    unfold arg_cmd_itr_key, arg_cmd_itr_value, arg_cmd_itr_advance, arg_hashtable_itr_key, arg_hashtable_itr_value;
    destruct (advance_ok hash_key (s_mem s) h t rows fk fv it c _ RP AT) as (it1 & ret1 & X1 & A1 & RT1 & EE & nx & En);
    rewrite EE, (sread_ok _ _ _ En); cbn [bind node_of n_k n_v];
    (assert (IC : In c (concat rows)) by (apply IN; now left));
    rewrite (sread_ok _ _ _ (r_keys _ _ _ _ _ _ _ RP c IC)); cbn [bind];
    rewrite (content_ok hash_key _ _ _ _ _ _ _ RP IC); cbn [bind]; rewrite X1; cbn [bind].
  - destruct ret1; [exfalso; now apply RT1|]. reflexivity.
  - destruct ret1; [|exfalso; assert (false = true) by (apply RT1; discriminate); discriminate].
    rewrite (IH fuel it1 c2 RP A1); [reflexivity | cbn in HF; lia |]. intros x I. apply IN. now right.
Qed.

Lemma see_all_ok s e h t rows l : good s e h t rows l -> see_all s = Ok (map (cont (s_mem s)) (concat rows)).
Proof.
  intros G. destruct G. unfold see_all, arg_cmd_count, arg_cmd_itr_create, table_of, arg_hashtable_count. rewrite g_h0. cbn [bind].
  rewrite (sread_ok _ _ _ (r_h _ _ _ _ _ _ _ g_rep0)). cbn [bind]. rewrite (r_count _ _ _ _ _ _ _ g_rep0).
  destruct (concat rows) as [|c rest] eqn:E.
  - reflexivity.
  - rewrite zlen_cons. pose proof (zlen_nonneg rest). destruct (Z.eqb_spec (zlen rest + 1) 0); [lia|].
    destruct (itr_create_ok hash_key _ _ _ _ _ _ g_rep0) as (it & X & A1). rewrite X. cbn [bind]. rewrite E in A1.
    apply (walk_ok s h t rows rest _ it c g_rep0 A1).
    + unfold fuel_of. pose proof (owns_length _ _ (r_ns _ _ _ _ _ _ _ g_rep0)) as OL. rewrite map_length, E in OL. cbn in OL. lia.
    + rewrite E. apply incl_refl.
Qed.

(** A list of distinct keys in which a name is found exactly when registered. *)
Lemma listing s e h t rows l : good s e h t rows l ->
  let ls := map (cont (s_mem s)) (concat rows) in
  NoDup (map fst ls) /\ (forall n x, In (n, x) ls <-> exists i, x = Some i /\ e n = Some i) /\ arg_cmd_count s = Ok (zlen ls).
Proof.
  intros G ls. destruct G. destruct g_st0 as (PM & U). fold ls in PM. split; [|split].
  - assert (UL : uniq equal_keys ls) by (eapply (uniq_perm hash_key equal_keys cmd_keys); [apply Permutation_sym; exact PM | exact U]).
    clear - UL. induction ls as [|p ls IH]; cbn [map]; [constructor|]. destruct UL as (F & U). constructor; auto.
    intros I. apply in_map_iff in I. destruct I as (q & E & I). rewrite Forall_forall in F. specialize (F q I).
    rewrite E in F. unfold equal_keys in F. rewrite str_eqb_refl in F. discriminate.
  - intros n x. split.
    + intros I. apply (Permutation_in _ PM) in I. destruct (g_in0 _ _ I) as (i & -> & _). exists i. split; auto.
      rewrite g_e0. apply in_split in I. destruct I as (a & b & ->).
      assert (P2 : Permutation (a ++ (n, Some i) :: b) ((n, Some i) :: a ++ b)) by apply Permutation_sym, Permutation_middle.
      rewrite (lookup_perm hash_key equal_keys cmd_keys n _ _ P2 U). unfold HashSpec.lookup. cbn [find].
      change (same n (n, Some i)) with (str_eqb n n). now rewrite str_eqb_refl.
    + intros (i & -> & E). rewrite g_e0 in E. unfold HashSpec.lookup in E. destruct (find (same n) l) as [(k, v)|] eqn:F; [|discriminate].
      cbn in E. subst v. apply find_some in F. destruct F as (I & S). apply str_eqb_eq in S. cbn in S. subst k.
      apply (Permutation_in _ (Permutation_sym PM)). auto.
  - unfold arg_cmd_count, table_of, arg_hashtable_count. rewrite g_h0. cbn [bind].
    rewrite (sread_ok _ _ _ (r_h _ _ _ _ _ _ _ g_rep0)). cbn [bind]. rewrite (r_count _ _ _ _ _ _ _ g_rep0).
    unfold ls, zlen. now rewrite map_length.
Qed.
End Proofs.

Lemma init_ok {P C : Type} : exists h t rows, good (fk := []) (fv := []) (arg_cmd_init (@cmds0 P C)) (fun _ => None) h t rows [].
Proof.
  destruct (create_ok hash_key (@world0 str (cmdinfo P C)) 32 [] [] ltac:(lia) owns_empty owns_empty owns_empty owns_empty owns_empty)
    as (w & h & t & rows & X & R & CR & L & _).
  exists h, t, rows. unfold arg_cmd_init. cbn [cmds0 s_mem]. rewrite X. constructor; auto.
  - split; [cbn [s_mem]; rewrite CR; constructor | exact I].
  - intros n v [].
Qed.
