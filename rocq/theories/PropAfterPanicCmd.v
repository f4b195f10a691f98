(** PropAfterPanicCmd: the command registry of a program that goes on after memory ran out (C88). *)
From Coq Require Import String Ascii.
From Coq Require Import ZArith List Bool Lia Permutation.
From Verif Require Import Base HashModel HashSpec HashProofs HashFacts HashTight CmdModel CmdSpec CmdProofs PropCmd CmdFail CmdFailProofs.
Import ListNotations.
Open Scope list_scope.
Open Scope Z_scope.

Section Props.
Context {P C : Type}.
Notation cop := (@cop P C).
Notation registry := (@registry P C).

(** The calls that a client makes which sees each time what was carried out so far, with what became of them *)
Fixpoint tried (client : list bool -> cop) (past h : list bool) : list (cop * bool) :=
  match h with
  | [] => []
  | b :: h' => (client past, b) :: tried client (past ++ [b]) h'
  end.
(** The commands after these calls: a call that was carried out does what it does, a registration that was broken off
    leaves its name without a command (see [spec_tried]). *)
Definition known (cs : list (cop * bool)) : registry := fold_left (fun e c => spec_tried e (fst c) (snd c)) cs nothing.
(** A client that keeps the rules of CmdSpec whatever is refused *)
Definition mindful (client : list bool -> cop) : Prop := forall h, allowed_cop (known (tried client [] h)) (client h).
Definition broken_off (h : list bool) : nat := List.length (filter negb h).

Lemma tried_app client h b : forall past, tried client past (h ++ [b]) = tried client past h ++ [(client (past ++ h), b)].
Proof.
  induction h as [|c h IH]; intros past; cbn [tried app]; [now rewrite app_nil_r|].
  rewrite IH, <- app_assoc. reflexivity.
Qed.

Lemma try_cops_ok granted client : mindful client -> forall n q (s : cmds P C) past hh t rows l fk fv,
  good (fk := fk) (fv := fv) s (known (tried client [] past)) hh t rows l ->
  (List.length fk <= broken_off past)%nat -> (List.length fv <= broken_off past)%nat ->
  Forall (fun c => snd c = false -> (exists n p d x, fst c = Reg n p d x) /\ exists i, granted i = false) (tried client [] past) ->
  exists s' q' h t' rows' l' fk' fv', try_cops granted client n q s past = Ok (s', q', h) /\ List.length h = (List.length past + n)%nat /\
    good (fk := fk') (fv := fv') s' (known (tried client [] h)) hh t' rows' l' /\
    (List.length fk' <= broken_off h)%nat /\ (List.length fv' <= broken_off h)%nat /\
    Forall (fun c => snd c = false -> (exists n p d x, fst c = Reg n p d x) /\ exists i, granted i = false) (tried client [] h).
Proof.
  intros MF. induction n as [|n IH]; intros q s past hh t rows l fk fv G L1 L2 F; cbn [try_cops].
  - exists s, q, past, t, rows, l, fk, fv. split; [reflexivity|]. split; [lia|]. auto.
  - destruct (try_cop_ok granted q s _ hh t rows l fk fv (client past) G (MF past))
      as (s1 & q1 & ok & t1 & rows1 & l1 & fk1 & fv1 & E & G1 & CS).
    rewrite E. cbn [bind].
    assert (KN : known (tried client [] (past ++ [ok])) = spec_tried (known (tried client [] past)) (client past) ok).
    { rewrite tried_app. unfold known. rewrite fold_left_app. reflexivity. }
    assert (BO : broken_off (past ++ [ok]) = (broken_off past + if ok then 0 else 1)%nat).
    { unfold broken_off. rewrite filter_app, app_length. destruct ok; reflexivity. }
    destruct (IH q1 s1 (past ++ [ok]) hh t1 rows1 l1 fk1 fv1) as (s2 & q2 & h & t2 & rows2 & l2 & fk2 & fv2 & E2 & LN & REST).
    + rewrite KN. exact G1.
    + rewrite BO. destruct ok; [destruct CS as (-> & ->); lia|]. destruct CS as (_ & _ & A1 & A2). lia.
    + rewrite BO. destruct ok; [destruct CS as (-> & ->); lia|]. destruct CS as (_ & _ & A1 & A2). lia.
    + rewrite tried_app. apply Forall_app. split; [exact F|]. constructor; [|constructor]. cbn [fst snd app]. intros ->.
      destruct CS as (A1 & A2 & _). auto.
    + exists s2, q2, h, t2, rows2, l2, fk2, fv2. split; [exact E2|]. rewrite app_length in LN. cbn [List.length] in LN. split; [lia|exact REST].
Qed.

(** C88. However the requests of any number of calls are answered, every call either is carried out or broken off (only a
    registration can be, and only by a refused request); afterwards every name has the command of its last registration,
    unless this was broken off or the name was unregistered since; counting and iterating show exactly these; and
    arg_cmd_uninit releases everything but at most one key and one command for each registration that was broken off. *)
Theorem C88_registry : forall granted client n,
  mindful client ->
  exists s q h, try_cops granted client n 0 (@fresh P C) [] = Ok (s, q, h) /\ List.length h = n /\
    let e := known (tried client [] h) in
    (forall name, see s name = Ok (e name)) /\
    (exists ls, see_all s = Ok ls /\ arg_cmd_count s = Ok (zlen ls) /\ NoDup (map fst ls) /\
       forall m x, In (m, x) ls <-> exists i, x = Some i /\ e m = Some i) /\
    (exists s' keys vals, arg_cmd_uninit s = Ok s' /\
       (forall i, sget (w_ht (s_mem s')) i = None) /\ (forall i, sget (w_tab (s_mem s')) i = None) /\ (forall i, sget (w_node (s_mem s')) i = None) /\
       (forall i, sget (w_key (s_mem s')) i <> None <-> In i keys) /\ (forall i, sget (w_val (s_mem s')) i <> None <-> In i vals) /\
       (List.length keys <= broken_off h)%nat /\ (List.length vals <= broken_off h)%nat) /\
    Forall (fun c => snd c = false -> (exists n p d x, fst c = Reg n p d x) /\ exists i, granted i = false) (tried client [] h).
Proof.
  intros granted client n MF. destruct (@init_ok P C) as (hh & t & rows & G).
  destruct (try_cops_ok granted client MF n 0 _ [] hh t rows [] [] [] G) as (s & q & h & t' & rows' & l' & fk & fv & E & LN & G' & L1 & L2 & F);
    [cbn; lia|cbn; lia|constructor|].
  exists s, q, h. split; [exact E|]. split; [exact LN|]. cbn zeta. split; [intros name; eapply see_ok; exact G'|]. split.
  - exists (map (cont (s_mem s)) (concat rows')). split; [eapply see_all_ok; exact G'|].
    destruct (listing s _ hh t' rows' l' G') as (A1 & A2 & A3). cbn zeta in *. auto.
  - split; [|exact F].
    destruct (destroy_ok hash_key _ _ _ _ _ _ true (g_rep _ _ _ _ _ _ G')) as (w' & Z & Z1 & Z2 & Z3 & Z4 & Z5 & Z6).
    exists (up_mem s w'), fk, fv. split; [unfold arg_cmd_uninit, table_of; rewrite (g_h _ _ _ _ _ _ G'); cbn [bind]; rewrite Z; reflexivity|].
    cbn [s_mem up_mem]. specialize (Z5 eq_refl).
    split; [now apply owns_nil|]. split; [now apply owns_nil|]. split; [now apply owns_nil|].
    split; [apply Z4|]. split; [apply Z5|]. auto.
Qed.

(** C88. If nothing is refused, every call is carried out. *)
Theorem C88_registry_enough : forall granted client n, (forall i, granted i = true) -> mindful client ->
  exists s q, try_cops granted client n 0 (@fresh P C) [] = Ok (s, q, repeat true n).
Proof.
  intros granted client n GR MF. destruct (C88_registry granted client n MF) as (s & q & h & E & LN & _ & _ & _ & F).
  exists s, q. rewrite E. do 2 f_equal. subst n. clear E. revert F. generalize (@nil bool).
  induction h as [|b h IH]; intros past F; [reflexivity|]. cbn [tried List.length repeat] in *. inversion F as [|x y A1 A2]; subst. f_equal; [|apply (IH _ A2)].
  destruct b; [reflexivity|]. destruct (A1 eq_refl) as (_ & i & K). rewrite GR in K. discriminate.
Qed.

(** C88. Refuted for a command that is registered again: a call that is broken off does not leave the registry as it was,
    but has removed the old command. *)
Theorem C88_old_command_kept_refuted : forall granted os name x p d c, allowed_cops nothing os ->
  spec_cops nothing os name = Some x -> zlen name < 100 -> zlen d < 256 -> granted 0%nat = false ->
  exists s s', do_cops (@fresh P C) os = Ok s /\ see s name = Ok (Some x) /\
    try_cop granted 0 s (Reg (Own name) p (Own d) c) = Ok (s', 1%nat, false) /\ see s' name = Ok None.
Proof.
  intros granted os name x p d c AL E LN LD G0. destruct (history os AL) as (s & h & t & rows & l & X & G).
  exists s. assert (S0 := see_ok s _ h t rows l name G). rewrite E in S0.
  destruct (try_cop_ok granted 0 s _ h t rows l [] [] (Reg (Own name) p (Own d) c) G) as (s' & q' & ok & t' & rows' & l' & fk & fv & T & G' & CS).
  { cbn [allowed_cop registered not_into meant]. tauto. }
  cbn [try_cop pointer bind] in *. assert (T0 := T). unfold try_register in T0. cbn [deref bind] in T0.
  destruct (_ || _); [discriminate|]. apply bind_ok in T0. destruct T0 as (h0 & _ & T0).
  apply bind_ok in T0. destruct T0 as (f & _ & T0). apply bind_ok in T0. destruct T0 as (w & _ & T0).
  rewrite G0 in T0. cbn [negb] in T0. injection T0 as <- <- <-. eexists. split; [exact X|]. split; [exact S0|]. split; [exact T|].
  rewrite (see_ok _ _ _ _ _ _ name G'). cbn [spec_tried meant]. unfold upd. now rewrite str_eqb_refl.
Qed.

(** C88. Refuted for a full table: the comment in arg_hashtable_insert says that the element is put into the old table when the
    table cannot grow; but a registration that is granted everything else is broken off. *)
Theorem C88_crammed_refuted : forall os name p d c s h t, allowed_cops nothing os ->
  spec_cops nothing os name = None -> zlen name < 100 -> zlen d < 256 ->
  do_cops (@fresh P C) os = Ok s -> s_table s = Some h -> sget (w_ht (s_mem s)) h = Some t ->
  t_load t < t_count t + 1 -> t_prime t <> 25 ->
  exists s', try_cop (fun i => negb (Nat.eqb i 2)) 0 s (Reg (Own name) p (Own d) c) = Ok (s', 3%nat, false) /\ see s' name = Ok None.
Proof.
  intros os name p d c s h t AL E LN LD X SH ST FU NP. destruct (history os AL) as (s0 & h0 & t0 & rows & l & X0 & G).
  rewrite X in X0. injection X0 as <-. assert (H0 := g_h _ _ _ _ _ _ G). rewrite SH in H0. injection H0 as <-.
  assert (T0 := r_h _ _ _ _ _ _ _ (g_rep _ _ _ _ _ _ G)). rewrite ST in T0. injection T0 as <-.
  set (gr := fun i => negb (Nat.eqb i 2)).
  destruct (try_cop_ok gr 0 s _ h t rows l [] [] (Reg (Own name) p (Own d) c) G) as (s' & q' & ok & t' & rows' & l' & fk & fv & T & G' & CS).
  { cbn [allowed_cop registered not_into meant]. tauto. }
  assert (K : q' = 3%nat /\ ok = false).
  { clear G' CS. cbn [try_cop pointer bind] in T. unfold try_register in T. cbn [deref bind] in T.
    destruct (_ || _); [discriminate|]. unfold table_of in T. rewrite SH in T. cbn [bind] in T.
    destruct (find_info s _ h t rows l name G) as (fi & X3 & Y3). unfold arg_cmd_info, table_of in X3.
    rewrite SH in X3. cbn [bind] in X3. rewrite X3 in T. cbn [bind] in T.
    destruct fi as [fi|]. { destruct Y3 as (y & _ & Y3 & _). rewrite E in Y3. discriminate. }
    cbn [bind] in T. change (gr 0%nat) with true in T. change (gr 1%nat) with true in T. cbn [negb salloc deref bind] in T.
    apply bind_ok in T. destruct T as ([[w q] b] & T & TT). injection TT as _ <- <-.
    unfold try_insert in T. unfold sread in T. cbn [w_ht up_key up_val] in T. rewrite ST in T. cbn [bind] in T.
    destruct (Z.ltb_spec (t_load t) (t_count t + 1)); [|lia].
    unfold try_expand, sread in T. cbn [w_ht up_key up_val] in T. rewrite ST in T. cbn [bind] in T.
    change (prime_table_length - 1) with 25 in T. destruct (Z.eqb_spec (t_prime t) 25); [contradiction|].
    apply bind_ok in T. destruct T as ([[w1 q1] b1] & T1 & T).
    apply bind_ok in T1. destruct T1 as (n1 & _ & T1). change (gr 2%nat) with false in T1. cbn iota in T1.
    apply bind_ok in T1. destruct T1 as (hs & _ & T1). injection T1 as _ <- <-. cbn [negb] in T. injection T as _ <- <-. auto. }
  destruct K as (-> & ->). exists s'. split; [exact T|]. rewrite (see_ok _ _ _ _ _ _ name G'). cbn [spec_tried meant]. unfold upd. now rewrite str_eqb_refl.
Qed.
End Props.

(** ** How large the next table is *)
Section Growth.
Context {K V : Type}.
Context (hashfn : K -> Z) (eqfn : K -> K -> bool).

Lemma expand_len (w w' : world K V) h t : arg_hashtable_expand w h = Ok w' -> sget (w_ht w) h = Some t -> t_prime t <> 25 ->
  exists t', sget (w_ht w') h = Some t' /\ aget primes (t_prime t + 1) = Ok (t_len t').
Proof.
  unfold arg_hashtable_expand. intros E S NP. unfold sread in E. rewrite S in E. cbn [bind] in E.
  change (prime_table_length - 1) with 25 in E. destruct (Z.eqb_spec (t_prime t) 25); [contradiction|].
  apply bind_ok in E. destruct E as (n1 & AN & E). cbn [salloc] in E.
  apply bind_ok in E. destruct E as (w1 & E1 & E). apply bind_ok in E. destruct E as (s & _ & E).
  apply bind_ok in E. destruct E as (hs & E2 & E). injection E as <-. apply swrite_put in E2. subst hs.
  eexists. split; [cbn [w_ht up_ht]; apply sget_put_eq|]. exact AN.
Qed.
Lemma insert_len (w w' : world K V) h k v t : arg_hashtable_insert hashfn w h k v = Ok w' -> sget (w_ht w) h = Some t ->
  t_load t < t_count t + 1 -> t_prime t <> 25 ->
  exists t', sget (w_ht w') h = Some t' /\ aget primes (t_prime t + 1) = Ok (t_len t').
Proof.
  rewrite insert_split. intros E S FU NP. unfold sread at 1 in E. rewrite S in E. cbn [bind] in E.
  destruct (Z.ltb_spec (t_load t) (t_count t + 1)); [|lia]. apply bind_ok in E. destruct E as (w1 & E1 & E).
  destruct (expand_len _ _ _ _ E1 S NP) as (t1 & S1 & A1). unfold insert_entry in E. unfold sread at 1 in E. rewrite S1 in E. cbn [bind] in E.
  apply bind_ok in E. destruct E as (key & _ & E). apply bind_ok in E. destruct E as (ix & _ & E). apply bind_ok in E. destruct E as (x & _ & E).
  cbn [salloc] in E. apply bind_ok in E. destruct E as (w2 & _ & E). apply bind_ok in E. destruct E as (hs & E2 & E). injection E as <-.
  apply swrite_put in E2. subst hs. eexists. split; [cbn [w_ht up_ht]; apply sget_put_eq|]. exact A1.
Qed.

(** C88. A growth that was refused is not tried again with the same size, but with the next one: a table of any history that is
    full and has the i-th size grows to size i + 1, but after a refused growth to size i + 2. *)
Theorem C88_same_growth_again_refuted : forall granted minsize os w0 h w t i, minsize <= 1073741824 ->
  arg_hashtable_create (@world0 K V) minsize = (w0, Some h) -> do_hops hashfn eqfn w0 h os = Ok w ->
  sget (w_ht w) h = Some t -> t_load t < t_count t + 1 -> aget primes i = Ok (t_len t) -> i < 24 -> granted 0%nat = false ->
  exists w', try_expand granted 0 w h = Ok (w', 1%nat, false) /\
    (forall key, observe_key hashfn eqfn w' h key = observe_key hashfn eqfn w h key) /\
    (forall k v w1, arg_hashtable_insert hashfn w h k v = Ok w1 ->
       exists t1, sget (w_ht w1) h = Some t1 /\ aget primes (i + 1) = Ok (t_len t1)) /\
    (forall k v w1, arg_hashtable_insert hashfn w' h k v = Ok w1 ->
       exists t1, sget (w_ht w1) h = Some t1 /\ aget primes (i + 2) = Ok (t_len t1)).
Proof.
  intros granted minsize os w0 h w t i MS CR RUN ST FU AI LI G0.
  destruct (create_ok hashfn (@world0 K V) minsize [] [] MS owns_empty owns_empty owns_empty owns_empty owns_empty)
    as (w0' & h' & t0 & rows0 & CR' & R0 & _). rewrite CR in CR'. injection CR' as <- <-.
  destruct (hops_ok hashfn eqfn os w0 h t0 rows0 R0) as (w9 & t9 & rows & Y & R & _). rewrite RUN in Y. injection Y as <-.
  assert (X := r_h _ _ _ _ _ _ _ R). rewrite ST in X. injection X as <-.
  assert (TG := hops_tight hashfn eqfn os _ _ _ RUN (create_tight _ _ _ CR) h t ST).
  pose proof (primes_range _ _ TG) as PR. pose proof (primes_range _ _ AI) as PI.
  assert (EI : t_prime t = i).
  { destruct (Z.lt_trichotomy (t_prime t) i) as [L|[L|L]]; [|exact L|];
      [destruct (primes_step _ _ _ _ TG AI L) as (Q & _)|destruct (primes_step _ _ _ _ AI TG L) as (Q & _)]; lia. }
  destruct (refused_growth granted hashfn 0 w h t rows [] [] R ltac:(lia) G0) as (w' & TE & R' & E1 & E2 & E3 & E4).
  exists w'. split; [exact TE|]. split; [|split].
  - intros key. unfold observe_key, arg_hashtable_search, find_in. unfold sread at 1. rewrite (r_h _ _ _ _ _ _ _ R').
    unfold sread at 2. rewrite ST. cbn [bind set_prime t_len t_tab]. unfold bget, fuel_of. rewrite E1, E2.
    assert (FN : forall fuel hv p e, find_node eqfn fuel w' hv key p e = find_node eqfn fuel w hv key p e).
    { induction fuel as [|fuel IH]; intros hv p e; [reflexivity|]. cbn [find_node]. destruct e as [e|]; [|reflexivity]. rewrite E2.
      destruct (sread (w_node w) e) as [n| |]; [|reflexivity|reflexivity]. cbn [bind]. rewrite E3, !IH. reflexivity. }
    destruct (index_for (t_len t) (enhanced_hash hashfn key)) as [ix| |]; [|reflexivity|reflexivity]. cbn [bind].
    destruct (sread (w_tab w) (t_tab t)) as [arr| |]; [|reflexivity|reflexivity]. cbn [bind].
    destruct (aget arr ix) as [e| |]; [|reflexivity|reflexivity]. cbn [bind]. rewrite FN.
    destruct (find_node eqfn (S (snext (w_node w))) w (enhanced_hash hashfn key) key None e) as [r| |]; [|reflexivity|reflexivity]. cbn [bind].
    destruct r as [[f p]|]; [destruct (sread (w_node w) f) as [n| |]; [|reflexivity|reflexivity]|]; cbn [bind]; unfold content; try reflexivity.
    now rewrite E4.
  - intros k v w1 E. rewrite <- EI. apply (insert_len _ _ _ _ _ _ E ST FU). lia.
  - intros k v w1 E. replace (i + 2) with (t_prime t + 1 + 1) by lia.
    apply (insert_len _ _ _ _ _ (set_prime t (t_prime t + 1)) E (r_h _ _ _ _ _ _ _ R') FU). cbn [t_prime set_prime]. lia.
Qed.
End Growth.

(** ** Example: a client that registers two commands, once more after a registration was broken off, and unregisters one.
    The requests 4 (the key of the second command) and 10 (an entry) are refused. *)
Definition pc_client (h : list bool) : @cop Z Z :=
  match List.length h with
  | O => Reg (Own (lit "add")) (Some 1) (Own (lit "adds")) 7
  | S O => Reg (Own (lit "rm")) (Some 2) (Own (lit "removes")) 7
  | S (S O) => if last h true then Unreg (Own (lit "add")) else Reg (Own (lit "rm")) (Some 3) (Own (lit "again")) 8
  | _ => Reg (Own (lit "add")) (Some 4) (Own (lit "new")) 9
  end.
Definition pc_granted (i : nat) : bool := negb (Nat.eqb i 4) && negb (Nat.eqb i 10).
Example C88_mindful_case : mindful pc_client.
Proof.
  intros h. unfold pc_client.
  destruct (List.length h) as [|[|[|k]]]; [| |destruct (last h true)|]; cbn [allowed_cop registered not_into meant]; repeat split.
Qed.
Example C88_registry_case : exists s q, try_cops pc_granted pc_client 4 0 (@fresh Z Z) [] = Ok (s, q, [true; false; true; false]) /\
  see s (lit "add") = Ok None /\ see s (lit "rm") = Ok (Some {| ci_name := lit "rm"; ci_desc := lit "again"; ci_proc := Some 3; ci_ctx := 8 |}) /\
  arg_cmd_count s = Ok 1.
Proof. eexists _, _. split; [vm_compute; reflexivity|]. split; [vm_compute; reflexivity|]. split; vm_compute; reflexivity. Qed.
(** A table that is full: 35 commands in 53 buckets *)
Definition pc_full : list (@cop Z Z) := map (fun i => Reg (Own (cmd i)) (Some (Z.of_nat i)) (Own (lit "text")) 5) (seq 0 35).
Example C88_crammed_case : exists s h t, do_cops (@fresh Z Z) pc_full = Ok s /\ s_table s = Some h /\ sget (w_ht (s_mem s)) h = Some t /\
  t_load t < t_count t + 1 /\ t_prime t <> 25 /\ aget primes 0 = Ok (t_len t) /\ spec_cops nothing pc_full (lit "new") = None.
Proof.
  eexists _, _, _. split; [vm_compute; reflexivity|]. split; [reflexivity|]. split; [vm_compute; reflexivity|].
  split; [cbn; lia|]. split; [cbn; lia|]. split; vm_compute; reflexivity.
Qed.
Example C88_growth_case : exists (w0 w : world Z Z) h t, arg_hashtable_create (@world0 Z Z) 10 = (w0, Some h) /\
  do_hops (fun k => k) Z.eqb w0 h (map (fun i => HIns (Z.of_nat i) None) (seq 0 35)) = Ok w /\ sget (w_ht w) h = Some t /\
  t_load t < t_count t + 1 /\ aget primes 0 = Ok (t_len t).
Proof.
  eexists _, _, _, _. split; [vm_compute; reflexivity|]. split; [vm_compute; reflexivity|]. split; [vm_compute; reflexivity|].
  split; [cbn; lia|]. reflexivity.
Qed.
Print Assumptions C88_registry.
Print Assumptions C88_registry_enough.
Print Assumptions C88_old_command_kept_refuted.
Print Assumptions C88_crammed_refuted.
Print Assumptions C88_same_growth_again_refuted.
