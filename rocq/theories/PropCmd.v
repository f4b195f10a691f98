(** PropCmd: the command registry (C31, C32, C33, C35, C47). *)
From Coq Require Import String Ascii.
From Coq Require Import ZArith List Bool Lia Permutation.
From Verif Require Import Base HashModel HashSpec HashProofs HashFacts CmdModel CmdSpec CmdProofs.
Import ListNotations.
Open Scope list_scope.
Open Scope Z_scope.

Section Props.
Context {P C A R : Type}.
Context (call : P -> A -> C -> R).
Definition nothing : @registry P C := fun _ => None.
Definition fresh : cmds P C := arg_cmd_init cmds0.

Lemma history os : allowed_cops nothing os ->
  exists s h t rows l, do_cops fresh os = Ok s /\ good (fk := []) (fv := []) s (spec_cops nothing os) h t rows l.
Proof.
  intros AL. destruct (@init_ok P C) as (h & t & rows & G).
  destruct (cops_ok os _ _ h t rows [] G AL) as (s & t' & rows' & l' & X & G'). exists s, h, t', rows', l'. auto.
Qed.

(** C31. After any admissible history the registry knows for every name the data of its last registration. *)
Theorem C31_registry_is_a_map os : allowed_cops nothing os ->
  exists s, do_cops fresh os = Ok s /\ forall n, see s n = Ok (spec_cops nothing os n).
Proof.
  intros AL. destruct (history os AL) as (s & h & t & rows & l & X & G). exists s. split; auto.
  intros n. eapply see_ok; eauto.
Qed.

(** C32. The count is the number of registered names. *)
Theorem C32_count os : allowed_cops nothing os ->
  exists s names, do_cops fresh os = Ok s /\ arg_cmd_count s = Ok (zlen names) /\ NoDup names /\
    forall n, In n names <-> spec_cops nothing os n <> None.
Proof.
  intros AL. destruct (history os AL) as (s & h & t & rows & l & X & G).
  destruct (listing s _ h t rows l G) as (ND & IN & CN). cbn zeta in *.
  exists s, (map fst (map (cont (s_mem s)) (concat rows))). split; auto. split.
  { rewrite CN. unfold zlen. now rewrite !map_length. }
  split; auto. intros n. rewrite in_map_iff. split.
  - intros ((k, x) & E & I). cbn in E. subst k. apply IN in I. destruct I as (i & _ & ->). discriminate.
  - intros NE. destruct (spec_cops nothing os n) as [i|] eqn:E; [|congruence].
    exists (n, Some i). split; auto. apply IN. eauto.
Qed.

(** C33. An iteration shows every registered command exactly once, with its data, and nothing else. *)
Theorem C33_registry_iteration os : allowed_cops nothing os ->
  exists s ls, do_cops fresh os = Ok s /\ see_all s = Ok ls /\ NoDup (map fst ls) /\
    forall n x, In (n, x) ls <-> exists i, x = Some i /\ spec_cops nothing os n = Some i.
Proof.
  intros AL. destruct (history os AL) as (s & h & t & rows & l & X & G).
  destruct (listing s _ h t rows l G) as (ND & IN & CN). cbn zeta in *.
  exists s, (map (cont (s_mem s)) (concat rows)). split; auto. split; [eapply see_all_ok; eauto|]. auto.
Qed.

(** C33. arg_cmd_itr_search puts the iterator on the command exactly if it is registered. *)
Theorem C33_iterator_search os n it : allowed_cops nothing os ->
  exists s it' found, do_cops fresh os = Ok s /\ arg_cmd_itr_search s it n = Ok (it', found) /\
    match spec_cops nothing os n with
    | None => found = false /\ it' = it
    | Some i => found = true /\ exists k v, arg_cmd_itr_key s it' = Ok k /\ sread (w_key (s_mem s)) k = Ok n /\
        arg_cmd_itr_value s it' = Ok (Some v) /\ sread (w_val (s_mem s)) v = Ok i
    end.
Proof.
  intros AL. destruct (history os AL) as (s & h & t & rows & l & X & G).
  destruct (listing s _ h t rows l G) as (ND & IN & CN). cbn zeta in *.
  unfold arg_cmd_itr_search, table_of. 
  destruct (itr_search_ok hash_key equal_keys _ _ _ _ _ _ it n (g_rep _ _ _ _ _ _ G)) as [(it' & c & rest & Y & HC & AT)|(NH & Y)].
  - exists s, it', true. split; auto. rewrite (g_h _ _ _ _ _ _ G). cbn [bind]. split; auto.
    rewrite (hits_eq hash_key equal_keys cmd_keys) in HC. apply str_eqb_eq in HC. subst n.
    destruct (advance_ok hash_key _ _ _ _ _ _ it' c rest (g_rep _ _ _ _ _ _ G) AT) as (_ & _ & _ & _ & _ & EE & nx & En).
    assert (IC : In c (concat rows)).
    { destruct AT as (_ & AT). rewrite EE in AT. destruct AT as (Pp & pre & c' & post & Q & -> & _ & _ & _ & E2). inversion E2; subst.
      apply in_row_concat, in_or_app. right. now left. }
    assert (I2 : In (c_key c, snd (cont (s_mem s) c)) (map (cont (s_mem s)) (concat rows))).
    { apply in_map_iff. exists c. auto. }
    apply IN in I2. destruct I2 as (i & E1 & E2). rewrite E2. split; auto.
    unfold arg_cmd_itr_key, arg_cmd_itr_value, arg_hashtable_itr_key, arg_hashtable_itr_value. rewrite EE, (sread_ok _ _ _ En). cbn [bind node_of n_k n_v].
    unfold cont in E1. cbn [snd] in E1. destruct (c_v c) as [v|]; [|discriminate].
    exists (c_k c), v. split; auto. split; [apply sread_ok, (r_keys _ _ _ _ _ _ _ (g_rep _ _ _ _ _ _ G) c IC)|]. split; auto.
    now apply sread_ok.
  - exists s, it, false. split; auto. rewrite (g_h _ _ _ _ _ _ G). cbn [bind]. split; auto.
    destruct (spec_cops nothing os n) as [i|] eqn:E; auto. exfalso.
    assert (I2 : In (n, Some i) (map (cont (s_mem s)) (concat rows))) by (apply IN; eauto).
    apply in_map_iff in I2. destruct I2 as (c & E2 & I2). specialize (NH c I2).
    rewrite (hits_eq hash_key equal_keys cmd_keys) in NH. inversion E2; subst. unfold equal_keys in NH. rewrite str_eqb_refl in NH. discriminate.
Qed.

(** C47. Dispatching calls the procedure of the last registration with its own context. *)
Theorem C47_dispatch os n i p args : allowed_cops nothing os ->
  spec_cops nothing os n = Some i -> ci_proc i = Some p ->
  exists s, do_cops fresh os = Ok s /\ arg_cmd_dispatch call s n args = Ok (call p args (ci_ctx i)).
Proof.
  intros AL E EP. destruct (history os AL) as (s & h & t & rows & l & X & G). exists s. split; auto.
  unfold arg_cmd_dispatch. destruct (find_info s _ h t rows l n G) as (j & Y & Z). rewrite Y. cbn [bind].
  destruct j as [j|]; [|congruence]. destruct Z as (x & E1 & E2 & _). rewrite (sread_ok _ _ _ E1). cbn [bind].
  rewrite E in E2. inversion E2; subst x. now rewrite EP.
Qed.

(** C35. After arg_cmd_uninit nothing allocated by the registry is left. *)
Theorem C35_registry_released os : allowed_cops nothing os ->
  exists s s', do_cops fresh os = Ok s /\ arg_cmd_uninit s = Ok s' /\
    (forall i, sget (w_ht (s_mem s')) i = None) /\ (forall i, sget (w_tab (s_mem s')) i = None) /\
    (forall i, sget (w_node (s_mem s')) i = None) /\ (forall i, sget (w_key (s_mem s')) i = None) /\
    (forall i, sget (w_val (s_mem s')) i = None).
Proof.
  intros AL. destruct (history os AL) as (s & h & t & rows & l & X & G).
  destruct (destroy_ok hash_key _ _ _ _ _ _ true (g_rep _ _ _ _ _ _ G)) as (w' & Z & Z1 & Z2 & Z3 & Z4 & Z5 & Z6).
  exists s, (up_mem s w'). split; auto. unfold arg_cmd_uninit, table_of. rewrite (g_h _ _ _ _ _ _ G). cbn [bind]. rewrite Z.
  cbn [bind]. split; auto. cbn [s_mem up_mem]. repeat split; apply owns_nil; auto.
Qed.
End Props.

(** ** Examples: procedures are numbers, calling one pairs its number with the arguments and the context *)
Definition ecall (p : Z) (a : list str) (c : Z) : Z * nat * Z := (p, List.length a, c).
Definition cmd (i : nat) : str := lit "cmd" ++ [chr (Z.of_nat i + 65)].
Definition ehist : list (@cop Z Z) :=
  map (fun i => Reg (Own (cmd i)) (Some (Z.of_nat i)) (Own (lit "text")) 5) (seq 0 40)
  ++ [Unreg (Own (cmd 3)); Reg (Own (cmd 4)) (Some 77) (Own (lit "new")) 6; Reg (Own (cmd 5)) (Some 78) (DescFieldOf (cmd 4)) 7;
      Unreg (NameFieldOf (cmd 6)); Unreg (Own (lit "unknown"))].
Definition allowed_copb (e : @registry Z Z) (o : @cop Z Z) : bool :=
  match o with
  | Reg (Own n) _ (Own d) _ => (zlen n <? 100) && (zlen d <? 256)
  | Reg (Own n) _ (DescFieldOf m) _ => (zlen n <? 100) && (match e m with Some i => zlen (ci_desc i) <? 256 | None => false end) && negb (str_eqb m n)
  | Unreg (Own _) => true
  | Unreg (NameFieldOf m) => match e m with Some i => true | None => false end
  | _ => false
  end.
Lemma allowed_copb_ok e o : allowed_copb e o = true -> allowed_cop e o.
Proof.
  destruct o as [[n|n|n] p [d|d|d] c|[n|n|n]]; cbn [allowed_copb]; try discriminate; intros H;
    cbn [allowed_cop registered not_into meant]; repeat rewrite andb_true_iff in H; auto.
  - destruct H as (H1 & H2). apply Z.ltb_lt in H1, H2. tauto.
  - destruct H as ((H1 & H2) & H3). destruct (e d) as [i|]; [|discriminate]. apply Z.ltb_lt in H1, H2.
    apply negb_true_iff in H3. destruct (str_eqb_spec d n); [discriminate|]. repeat split; auto. discriminate.
  - destruct (e n); [discriminate | congruence].
Qed.
Fixpoint allowed_copsb (e : @registry Z Z) (l : list (@cop Z Z)) : bool :=
  match l with [] => true | o :: l => allowed_copb e o && allowed_copsb (spec_cop e o) l end.
Lemma allowed_copsb_ok l : forall e, allowed_copsb e l = true -> allowed_cops e l.
Proof.
  induction l as [|o l IH]; intros e H; cbn; auto. apply andb_prop in H. destruct H. split; auto. now apply allowed_copb_ok.
Qed.
Example ehist_allowed : allowed_cops nothing ehist.
Proof. apply allowed_copsb_ok. vm_compute. reflexivity. Qed.
Example ehist_observed :
  (s <- do_cops fresh ehist ;;
   a <- see s (cmd 3) ;; b <- see s (cmd 5) ;; n <- arg_cmd_count s ;; l <- see_all s ;;
   d <- arg_cmd_dispatch ecall s (cmd 4) [lit "x"; lit "y"] ;;
   Ok (a, match b with Some i => ci_desc i | None => [] end, n, List.length l, d)) =
  Ok (None, lit "new", 38, 38%nat, (77, 2%nat, 6)).
Proof. vm_compute. reflexivity. Qed.

(** The condition on pointers is needed: registering a command again with the description (or the name) the registry
    itself returned reads the block after releasing it. *)
Theorem C31_register_own_text_refuted (n : str) (i : cmdinfo Z Z) (p : option Z) (c : Z) (os : list (@cop Z Z)) :
  allowed_cops nothing os -> spec_cops nothing os n = Some i -> zlen n < 100 -> zlen (ci_desc i) < 256 ->
  exists s, do_cops fresh os = Ok s /\ do_cop s (Reg (Own n) p (DescFieldOf n) c) = UB UseAfterFree.
Proof.
  intros AL E LN LD. destruct (history os AL) as (s & h & t & rows & l & X & G). exists s. split; auto.
  destruct (find_info s _ h t rows l n G) as (j & Y & Z). destruct j as [j|]; [|congruence].
  destruct Z as (x & E1 & E2 & EN & d & ID & EV & EK). rewrite E in E2. inversion E2; subst x.
  cbn [do_cop pointer]. rewrite Y. cbn [bind]. unfold arg_cmd_register. cbn [deref]. rewrite (sread_ok _ _ _ E1). cbn [bind].
  change ARG_CMD_NAME_LEN with 100. change ARG_CMD_DESCRIPTION_LEN with 256.
  destruct (Z.leb_spec 100 (zlen n)); [lia|]. destruct (Z.leb_spec 256 (zlen (ci_desc i))); [lia|]. cbn [orb].
  unfold arg_cmd_info in Y. unfold table_of in *. rewrite (g_h _ _ _ _ _ _ G) in *. cbn [bind] in *. rewrite Y. cbn [bind].
  destruct (unreg_ok s _ h t rows l n G) as (w' & t' & rows' & XR & G' & _).
  destruct (remove_ok hash_key equal_keys (s_mem s) h t rows [] [] n (g_rep _ _ _ _ _ _ G)) as [(w2 & c2 & t2 & rows2 & X2 & HC & PM & R2 & TL & EV2 & _)|(NH & _)].
  2:{ exfalso. specialize (NH d ID). rewrite (hits_eq hash_key equal_keys cmd_keys), EK in NH.
      unfold equal_keys in NH. rewrite str_eqb_refl in NH. discriminate. }
  rewrite X2. cbn [bind].
  assert (c2 = d).
  { apply (Permutation_in _ PM) in ID. destruct ID as [|ID]; auto. exfalso.
    rewrite (hits_eq hash_key equal_keys cmd_keys) in HC. apply str_eqb_eq in HC.
    pose proof (g_st _ _ _ _ _ _ G) as (PL & U).
    assert (U2 : uniq equal_keys (map (cont (s_mem s)) (c2 :: concat rows2))).
    { eapply (uniq_perm hash_key equal_keys cmd_keys); [|exact U]. rewrite <- PL. now apply Permutation_map. }
    cbn [map uniq] in U2. destruct U2 as (F & _). rewrite Forall_forall in F.
    specialize (F (cont (s_mem s) d) (in_map _ _ _ ID)). unfold cont in F. cbn [fst] in F. rewrite EK, <- HC in F.
    unfold equal_keys in F. rewrite str_eqb_refl in F. discriminate. }
  subst c2. rewrite EV in EV2. cbn [freed_vals] in EV2. unfold sread. rewrite EV2, sget_put_eq. reflexivity.
Qed.
Example register_own_text_example :
  (s <- do_cops fresh ehist ;; do_cop s (Reg (Own (cmd 5)) (Some 1) (DescFieldOf (cmd 5)) 0)) = UB UseAfterFree.
Proof. vm_compute. reflexivity. Qed.

(** After arg_cmd_uninit the registry must not be used before another arg_cmd_init; two initialisations leak a table. *)
Theorem C35_use_after_uninit_refuted (os : list (@cop Z Z)) (n : str) : allowed_cops nothing os ->
  exists s s', do_cops fresh os = Ok s /\ arg_cmd_uninit s = Ok s' /\ see s' n = UB UseAfterFree.
Proof.
  intros AL. destruct (history os AL) as (s & h & t & rows & l & X & G).
  destruct (destroy_ok hash_key _ _ _ _ _ _ true (g_rep _ _ _ _ _ _ G)) as (w' & Z & Z1 & _).
  exists s, (up_mem s w'). split; auto. unfold arg_cmd_uninit, table_of. rewrite (g_h _ _ _ _ _ _ G). cbn [bind]. rewrite Z.
  cbn [bind]. split; auto. unfold see, arg_cmd_info, table_of. cbn [up_mem s_table]. rewrite (g_h _ _ _ _ _ _ G). cbn [bind s_mem].
  unfold arg_hashtable_search, find_in, sread. rewrite (owns_nil _ Z1). reflexivity.
Qed.
Theorem C35_init_twice_leaks_refuted :
  exists (s' : cmds Z Z) i, arg_cmd_uninit (arg_cmd_init fresh) = Ok s' /\ sget (w_ht (s_mem s')) i <> None.
Proof. eexists _, 0%nat. split; [vm_compute; reflexivity|]. vm_compute. discriminate. Qed.

Print Assumptions C31_registry_is_a_map.
Print Assumptions C32_count.
Print Assumptions C33_registry_iteration.
Print Assumptions C33_iterator_search.
Print Assumptions C47_dispatch.
Print Assumptions C35_registry_released.
Print Assumptions C31_register_own_text_refuted.
Print Assumptions C35_use_after_uninit_refuted.
Print Assumptions C35_init_twice_leaks_refuted.
