(** CmdFailProofs: a call that is broken off leaves the registry in order. *)
From Coq Require Import ZArith List Bool Lia Permutation Ascii.
From Verif Require Import Base HashModel HashSpec HashProofs HashFacts CmdModel CmdSpec CmdProofs CmdFail.
Import ListNotations.
Open Scope Z_scope.

Section Hash.
Context (granted : nat -> bool).
Context {K V : Type}.
Context (hashfn : K -> Z).
Notation W := (world K V).
Notation rep := (@HashProofs.rep K V hashfn).

Lemma insert_split (w : W) h k v : arg_hashtable_insert hashfn w h k v =
  (t <- sread (w_ht w) h ;; w <- (if t_load t <? t_count t + 1 then arg_hashtable_expand w h else Ok w) ;; insert_entry hashfn w h k v).
Proof. reflexivity. Qed.

Lemma try_expand_done q (w w' : W) h q' : try_expand granted q w h = Ok (w', q', true) -> arg_hashtable_expand w h = Ok w'.
Proof.
  unfold try_expand. intros E. apply bind_ok in E. destruct E as (t & ER & E).
  destruct (t_prime t =? prime_table_length - 1) eqn:B.
  - injection E as <- _. unfold arg_hashtable_expand. rewrite ER. cbn [bind]. now rewrite B.
  - apply bind_ok in E. destruct E as (n & _ & E). destruct (granted q).
    + apply bind_ok in E. destruct E as (w1 & E1 & E). now injection E as <- _.
    + apply bind_ok in E. destruct E as (hs & _ & E). discriminate.
Qed.
Lemma try_insert_done q (w w' : W) h k v q' : try_insert granted hashfn q w h k v = Ok (w', q', true) ->
  arg_hashtable_insert hashfn w h k v = Ok w'.
Proof.
  unfold try_insert. rewrite insert_split. intros E. apply bind_ok in E. destruct E as (t & -> & E). cbn [bind].
  apply bind_ok in E. destruct E as ([[w1 q1] ok] & E1 & E).
  destruct ok; cbn [negb] in E; [|discriminate].
  assert (X : (if t_load t <? t_count t + 1 then arg_hashtable_expand w h else Ok w) = Ok w1).
  { destruct (t_load t <? t_count t + 1); [apply (try_expand_done _ _ _ _ _ E1)|now injection E1 as -> _]. }
  rewrite X. cbn [bind]. destruct (granted q1); [|discriminate]. apply bind_ok in E. destruct E as (w2 & -> & E). now injection E as <- _.
Qed.

(** A refused growth changes nothing but the index of the next size. *)
Lemma refused_growth q (w : W) h t rows fk fv : rep w h t rows fk fv -> t_prime t <> 25 -> granted q = false ->
  exists w', try_expand granted q w h = Ok (w', S q, false) /\ rep w' h (set_prime t (t_prime t + 1)) rows fk fv /\
    w_tab w' = w_tab w /\ w_node w' = w_node w /\ w_key w' = w_key w /\ w_val w' = w_val w.
Proof.
  intros R NP G. unfold try_expand. rewrite (sread_ok _ _ _ (r_h _ _ _ _ _ _ _ R)). cbn [bind].
  change (prime_table_length - 1) with 25. destruct (Z.eqb_spec (t_prime t) 25) as [|_]; [contradiction|].
  destruct (r_prime _ _ _ _ _ _ _ R) as (i & AG & IP). pose proof (primes_range _ _ AG) as PR.
  destruct (aget_ok primes (t_prime t + 1)) as (n & AN & _). { change (zlen primes) with 26. lia. }
  rewrite AN. cbn [bind]. rewrite G. rewrite (swrite_ok _ _ _ _ (r_hs _ _ _ _ _ _ _ R) (or_introl eq_refl)). cbn [bind].
  eexists. split; [reflexivity|]. split; [|cbn; auto].
  pose proof (r_full _ _ _ _ _ _ _ R) as FU. change (prime_table_length - 1) with 25 in FU.
  constructor; cbn [t_len t_tab t_count t_load t_prime set_prime w_ht w_tab w_node w_key w_val up_ht]; try apply R.
  - apply sget_put_eq.
  - apply owns_put; [apply R|now left].
  - exists i. split; [exact AG|lia].
  - left. destruct FU; [assumption|contradiction].
Qed.

Lemma try_insert_cases q (w : W) h t rows k key v fk fv :
  rep w h t rows (k :: fk) (optl v ++ fv) -> sget (w_key w) k = Some key ->
  exists w' q' ok, try_insert granted hashfn q w h k v = Ok (w', q', ok) /\
    (ok = false -> (exists i, granted i = false) /\ w_key w' = w_key w /\ w_val w' = w_val w /\
       exists t' rows', rep w' h t' rows' (k :: fk) (optl v ++ fv) /\ Permutation (concat rows') (concat rows)).
Proof.
  intros R EK. destruct (insert_ok hashfn w h t rows k key v fk fv R EK) as (w3 & t3 & rows3 & X & _).
  rewrite insert_split in X. unfold try_insert. rewrite (sread_ok _ _ _ (r_h _ _ _ _ _ _ _ R)) in *. cbn [bind] in *.
  destruct (t_load t <? t_count t + 1).
  - destruct (Z.eq_dec (t_prime t) 25) as [E25|N25].
    + assert (TE : try_expand granted q w h = Ok (w, q, true)).
      { unfold try_expand. rewrite (sread_ok _ _ _ (r_h _ _ _ _ _ _ _ R)). cbn [bind]. rewrite E25. reflexivity. }
      assert (EX : arg_hashtable_expand w h = Ok w) by apply (try_expand_done _ _ _ _ _ TE).
      rewrite TE. rewrite EX in X. cbn [bind negb] in *. destruct (granted q) eqn:G.
      * rewrite X. cbn [bind]. eexists _, _, true. split; [reflexivity|discriminate].
      * eexists _, _, false. split; [reflexivity|]. intros _. split; [eauto|]. split; [auto|]. split; [auto|]. exists t, rows. auto.
    + destruct (granted q) eqn:G.
      * destruct (expand_ok hashfn w h t rows _ _ R) as (w1 & t1 & rows1 & EX & R1 & PM & _ & _ & _ & EK1 & EV1 & _).
        assert (TE : try_expand granted q w h = Ok (w1, S q, true)).
        { unfold try_expand. rewrite (sread_ok _ _ _ (r_h _ _ _ _ _ _ _ R)). cbn [bind].
          change (prime_table_length - 1) with 25. destruct (Z.eqb_spec (t_prime t) 25) as [|_]; [contradiction|].
          destruct (r_prime _ _ _ _ _ _ _ R) as (i & AG & IP). pose proof (primes_range _ _ AG) as PR.
          destruct (aget_ok primes (t_prime t + 1)) as (n & AN & _). { change (zlen primes) with 26. lia. }
          rewrite AN. cbn [bind]. rewrite G, EX. reflexivity. }
        rewrite TE. rewrite EX in X. cbn [bind negb] in *. destruct (granted (S q)) eqn:G2.
        -- rewrite X. cbn [bind]. eexists _, _, true. split; [reflexivity|discriminate].
        -- eexists _, _, false. split; [reflexivity|]. intros _. split; [eauto|]. split; [auto|]. split; [auto|]. exists t1, rows1. auto.
      * destruct (refused_growth q w h t rows _ _ R N25 G) as (w1 & TE & R1 & _ & _ & EK1 & EV1).
        rewrite TE. cbn [bind negb]. eexists _, _, false. split; [reflexivity|]. intros _. split; [eauto|]. split; [auto|]. split; [auto|].
        eexists _, rows. split; [exact R1|auto].
  - cbn [bind negb] in *. destruct (granted q) eqn:G.
    + rewrite X. cbn [bind]. eexists _, _, true. split; [reflexivity|discriminate].
    + eexists _, _, false. split; [reflexivity|]. intros _. split; [eauto|]. split; [auto|]. split; [auto|]. exists t, rows. auto.
Qed.
End Hash.

Section Cmd.
Context (granted : nat -> bool).
Context {P C : Type}.
Notation info := (cmdinfo P C).
Notation same := (@HashSpec.same str info equal_keys).

Lemma try_cop_done q (s s' : cmds P C) o q' : try_cop granted q s o = Ok (s', q', true) -> do_cop s o = Ok s'.
Proof.
  destruct o as [n p d c|n]; cbn [try_cop do_cop]; intros E.
  - apply bind_ok in E. destruct E as (pn & -> & E). cbn [bind]. apply bind_ok in E. destruct E as (pd & -> & E). cbn [bind].
    unfold try_register in E. unfold arg_cmd_register.
    apply bind_ok in E. destruct E as (n1 & -> & E). cbn [bind]. apply bind_ok in E. destruct E as (d1 & -> & E). cbn [bind].
    destruct (_ || _); [discriminate|].
    apply bind_ok in E. destruct E as (h & -> & E). cbn [bind]. apply bind_ok in E. destruct E as (f & -> & E). cbn [bind].
    apply bind_ok in E. destruct E as (w & -> & E). cbn [bind].
    destruct (granted q); cbn [negb] in E; [|discriminate].
    apply bind_ok in E. destruct E as (n2 & -> & E). cbn [bind]. apply bind_ok in E. destruct E as (d2 & -> & E). cbn [bind].
    cbn [salloc] in *. destruct (granted (S q)); cbn [negb] in E; [|discriminate].
    apply bind_ok in E. destruct E as ([[w3 q3] ok] & E3 & E). injection E as <- _ ->.
    apply try_insert_done in E3. cbn [w_key up_val] in E3. rewrite E3. reflexivity.
  - apply bind_ok in E. destruct E as (pn & -> & E). cbn [bind]. apply bind_ok in E. destruct E as (s1 & -> & E). now injection E as <- _.
Qed.

(** What a client may expect: a registration that is broken off leaves the name without a command. *)
Definition spec_tried (e : @registry P C) (o : @cop P C) (ok : bool) : registry :=
  if ok then spec_cop e o else match o with Reg n _ _ _ => upd e (meant e n) None | Unreg _ => e end.

Lemma try_cop_ok q s e h t rows l fk fv o : good (fk := fk) (fv := fv) s e h t rows l -> allowed_cop e o ->
  exists s' q' ok t' rows' l' fk' fv', try_cop granted q s o = Ok (s', q', ok) /\
    good (fk := fk') (fv := fv') s' (spec_tried e o ok) h t' rows' l' /\
    if ok then fk' = fk /\ fv' = fv
    else (exists n p d c, o = Reg n p d c) /\ (exists i, granted i = false) /\
      (List.length fk' <= S (List.length fk))%nat /\ (List.length fv' <= S (List.length fv))%nat.
Proof.
  intros G AL. destruct (cop_ok s e h t rows l o G AL) as (sd & td & rd & ld & XD & GD & _).
  assert (DN : forall s' q', try_cop granted q s o = Ok (s', q', true) ->
    exists s' q' ok t' rows' l' fk' fv', try_cop granted q s o = Ok (s', q', ok) /\
    good (fk := fk') (fv := fv') s' (spec_tried e o ok) h t' rows' l' /\
    if ok then fk' = fk /\ fv' = fv
    else (exists n p d c, o = Reg n p d c) /\ (exists i, granted i = false) /\
      (List.length fk' <= S (List.length fk))%nat /\ (List.length fv' <= S (List.length fv))%nat).
  { intros s' q' E. pose proof (try_cop_done _ _ _ _ _ E) as X. rewrite XD in X. injection X as ->.
    eexists _, _, true, td, rd, ld, fk, fv. split; [exact E|]. split; [exact GD|auto]. }
  destruct o as [n p d c|n]; cbn [allowed_cop try_cop] in *.
  2:{ cbn [do_cop] in XD. destruct (pointer_ok s e h t rows l n G AL) as (pn & X1 & _). rewrite X1 in *. cbn [bind] in *.
      rewrite XD in *. cbn [bind] in *. eapply DN. reflexivity. }
  destruct AL as (RN & RD & NN & ND & LN & LD).
  destruct (pointer_ok s e h t rows l n G RN) as (pn & X1 & Y1 & Z1).
  destruct (pointer_ok s e h t rows l d G RD) as (pd & X2 & Y2 & Z2).
  rewrite X1, X2 in *. cbn [bind] in *. unfold try_register in *. rewrite Y1, Y2 in *. cbn [bind] in *.
  set (name := meant e n) in *. set (desc := meant e d) in *.
  change ARG_CMD_NAME_LEN with 100 in *. change ARG_CMD_DESCRIPTION_LEN with 256 in *.
  destruct (Z.leb_spec 100 (zlen name)); [lia|]. destruct (Z.leb_spec 256 (zlen desc)); [lia|]. cbn [orb] in *.
  unfold table_of in *. rewrite (g_h _ _ _ _ _ _ G) in *. cbn [bind] in *.
  destruct (find_info s e h t rows l name G) as (fi & X3 & Y3). unfold arg_cmd_info, table_of in X3.
  rewrite (g_h _ _ _ _ _ _ G) in X3. cbn [bind] in X3. rewrite X3 in *. cbn [bind] in *.
  assert (RM : exists w1 t1 rows1, match fi with
       | Some _ => arg_hashtable_remove hash_key equal_keys (s_mem s) h name
       | None => Ok (s_mem s)
       end = Ok w1 /\ good (fk := fk) (fv := fv) (up_mem s w1) (upd e name None) h t1 rows1 (filter (fun p => negb (same name p)) l) /\
       (forall c i, In c (concat rows) -> c_key c <> name -> c_v c = Some i -> sget (w_val w1) i = sget (w_val (s_mem s)) i)).
  { destruct fi as [fi|].
    - destruct (unreg_ok s e h t rows l name G) as (w1 & t1 & rows1 & A1 & A2 & A3 & _). exists w1, t1, rows1. auto.
    - exists (s_mem s), t, rows. split; auto. split; auto. rewrite (good_absent s e h t rows l name G Y3).
      destruct G. constructor; auto. intros m. unfold upd. rewrite <- g_e. destruct (str_eqb_spec name m); subst; auto. }
  destruct RM as (w1 & t1 & rows1 & X4 & G1 & KP). rewrite X4 in *. cbn [bind] in *.
  destruct (granted q) eqn:GR1; cbn [negb] in *.
  2:{ eexists _, _, false, t1, rows1, _, fk, fv. split; [reflexivity|]. split; [exact G1|]. split; [eauto|]. split; [eauto|]. lia. }
  rewrite (deref_keeps s e h t rows l w1 name n pn G NN KP Z1), Y1 in *. cbn [bind] in *.
  rewrite (deref_keeps s e h t rows l w1 name d pd G ND KP Z2), Y2 in *. cbn [bind] in *.
  set (i := {| ci_name := name; ci_desc := desc; ci_proc := p; ci_ctx := c |}) in *. cbn [salloc] in *.
  destruct (rep_new_val hash_key w1 h t1 rows1 fk fv (Some i) (g_rep _ _ _ _ _ _ G1)) as (R2 & K2 & _).
  cbn [new_value salloc fst snd optl app] in R2, K2.
  set (w2 := up_val w1 _) in *.
  destruct (granted (S q)) eqn:GR2; cbn [negb] in *.
  2:{ eexists _, _, false, t1, rows1, (filter (fun p => negb (same name p)) l), fk, (snext (w_val w1) :: fv). split; [reflexivity|]. split; [|split; [eauto|split; [eauto|cbn [List.length]; lia]]].
      destruct G1 as [H1 H2 [H3 H3'] H4 H5]. constructor; auto. split; [|exact H3'].
      cbn [s_mem up_mem] in *. rewrite (keeps_cont _ _ _ K2). exact H3. }
  destruct (rep_new_key hash_key w2 h t1 rows1 fk (snext (w_val w1) :: fv) name R2) as (R3 & EK). cbn [salloc fst] in R3, EK.
  set (w3 := up_key w2 _) in *.
  destruct (try_insert_cases granted hash_key (S (S q)) w3 h t1 rows1 (snext (w_key w2)) name (Some (snext (w_val w1))) fk fv R3 EK)
    as (w4 & q4 & ok & X5 & Y5).
  rewrite X5 in *. cbn [bind] in *. destruct ok; [eapply DN; reflexivity|].
  destruct (Y5 eq_refl) as (GI & E1 & E2 & t4 & rows4 & R4 & PM).
  eexists _, _, false, t4, rows4, (filter (fun p => negb (same name p)) l), (snext (w_key w2) :: fk), (snext (w_val w1) :: fv). split; [reflexivity|].
  split; [|split; [eauto|split; [eauto|cbn [List.length]; lia]]].
  destruct G1 as [H1 H2 [H3 H3'] H4 H5]. constructor; auto. split; [|exact H3'].
  cbn [s_mem up_mem] in *. rewrite PM.
  rewrite (keeps_cont w1 w4 (concat rows1)); [exact H3|]. intros j J. rewrite E2. apply (K2 j J).
Qed.
End Cmd.
