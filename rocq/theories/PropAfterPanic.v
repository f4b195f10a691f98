(** C88: going on after memory ran out, with a panic function that jumps back to the client. *)
From Coq Require Import ZArith List Ascii Bool Lia String Permutation.
From Verif Require Import Base ParseModel MemModel DstrModel DstrSpec DstrProofs PropDstr HelpModel DstrFail DstrFailProofs.
Import ListNotations.
Open Scope Z_scope.

(** ** The expectation: refused calls have not happened *)

(** The calls of a client whose calls had the outcomes [h]; [past]: the outcomes before. *)
Fixpoint calls (client : list bool -> op) (past h : list bool) : list (op * bool) :=
  match h with
  | [] => []
  | b :: h' => (client past, b) :: calls client (past ++ [b]) h'
  end.
Definition made (client : list bool -> op) (h : list bool) : list op := map fst (calls client [] h).
Definition completed (cs : list (op * bool)) : list op := map fst (filter snd cs).

(** A client that keeps the rules of DstrSpec, whatever is refused. *)
Definition careful (client : list bool -> op) : Prop :=
  forall h, allowed (spec_ops (completed (calls client [] h))) (client h).

(** Which calls may be refused at all: copying a text of more than 200 bytes, and appending. *)
Definition asks (o : op) : Prop :=
  match o with
  | OSet (Some t) FVolatile => 200 < zlen t
  | OCat _ | OCatc _ | OCatf (Some _) _ => True
  | _ => False
  end.
(** Refused formatted appends *)
Definition is_catf (o : op) : bool := match o with OCatf _ _ => true | _ => false end.
Definition lost (cs : list (op * bool)) : nat := List.length (filter (fun c => is_catf (fst c) && negb (snd c)) cs).

(** ** One call *)
Lemma inv_drop m ds a b k F : Inv m ds a ((b, k) :: F) -> (forall t, text a = Some t -> fst (d_data ds) <> b) -> Inv (mset m b None) ds a F.
Proof.
  intros I NE. destruct (text a) as [t|] eqn:T; [apply (inv_del _ _ _ _ _ _ I); apply (NE t); reflexivity|].
  destruct I as [LV FR [e [SB SL]] LG [RL SH]].
  assert (X : d_app ds = None /\ d_free ds = FStatic /\ d_size ds = 0).
  { destruct (d_app ds) as [x|].
    - destruct SH as [_ [_ [u [j [U _]]]]]. congruence.
    - rewrite T in SH. tauto. }
  destruct X as [AP [FS SZ]].
  assert (P : live m (b :: d_self ds :: own ds ++ map fst F)).
  { apply (perm_live _ _ _ (Permutation_sym (Permutation_cons_app (d_self ds :: own ds) (map fst F) b (Permutation_refl _)))). exact LV. }
  assert (N := live_nodup _ _ P). inversion N as [|p q U V]; subst.
  constructor.
  - apply (live_del m _ _ _ P); auto. intro i. cbn [In]. intuition congruence.
  - intros c q K. rewrite mget_mset_neq; [apply FR; right; assumption|]. intro. subst. apply U.
    right. apply in_or_app. right. apply (in_map fst) in K. exact K.
  - exists e. split; [|assumption]. unfold in_block. rewrite mget_mset_neq; [assumption|]. intro E. apply U. left. assumption.
  - exact LG.
  - split.
    + unfold releasable in *. rewrite FS in *. exact RL.
    + rewrite AP, T. auto.
Qed.

Lemma try_op_ok granted junk legacy m ds a st L o :
  Inv m ds a (frame st ++ L) -> allowed a o -> tlen a + weight o <= 536870912 ->
  exists m' ds' s b L', try_op granted junk legacy m ds o = Ok (m', ds', s, b)
    /\ Inv m' ds' (if b then spec_op a o else a) (frame (st ++ s) ++ L' ++ L)
    /\ map snd s = statics (if b then [o] else [])
    /\ (List.length L' <= if is_catf o && negb b then 1 else 0)%nat
    /\ (b = false -> asks o /\ d_data ds' = d_data ds /\ exists i, granted i = false).
Proof.
  intros I AL BD. unfold tlen in BD.
  assert (Z1 : 0 <= match text a with Some t => zlen t | None => 0 end) by (destruct (text a); [apply zlen_nonneg|lia]).
  assert (BASE : forall t, text a = Some t -> (fst (d_data ds) < mnext m)%nat) by (intros t; exact (data_below _ _ _ _ _ I)).
  assert (PLAIN : forall (x : res (mem * dstr)) m' ds', x = Ok (m', ds') -> statics [o] = [] -> Inv m' ds' (spec_op a o) (frame st ++ L) ->
    exists m' ds' s b L', ('(m, ds) <- x ;; Ok (m, ds, [], true)) = Ok (m', ds', s, b)
    /\ Inv m' ds' (if b then spec_op a o else a) (frame (st ++ s) ++ L' ++ L)
    /\ map snd s = statics (if b then [o] else [])
    /\ (List.length L' <= if is_catf o && negb b then 1 else 0)%nat
    /\ (b = false -> asks o /\ d_data ds' = d_data ds /\ exists i, granted i = false)).
  { intros x m' ds' -> ST X. exists m', ds', [], true, []. split; [reflexivity|]. rewrite app_nil_r, ST. cbn [app]. split; [exact X|].
    split; [reflexivity|]. split; [cbn; lia|discriminate]. }
  destruct o as [[t|] f|t|c|[n|] out| |]; cbn [try_op allowed weight] in *.
  - (* set *)
    assert (I1 := inv_new _ _ _ _ (match f with FDynamic => true | _ => false end) (t ++ [NUL]) I).
    cbn [mnew fst] in I1. unfold mnew. fold (client f t) in *.
    set (m1 := {| mget := _; mnext := _; mlog := _ |}) in *.
    destruct (try_set_cases granted junk m1 ds (Some (mnext m, 0)) f) as [E|[p [EP [EF [GR [[s [RS BS]] E]]]]]]; rewrite E; clear E.
    + destruct (set_some_ok junk m1 ds a (frame st ++ L) (mnext m) t f I1 AL) as [m' [ds' [E [S X]]]]; [lia|].
      rewrite (done_ok _ _ E). cbn [bind]. destruct f as [| | |n].
      * exists m', ds', [(mnext m, t)], true, []. split; [reflexivity|]. split; [|split; [reflexivity|split; [cbn; lia|discriminate]]].
        rewrite frame_app. cbn [app]. eapply inv_perm; [|exact X]. rewrite <- app_assoc. cbn [frame map fst snd app].
        apply Permutation_middle.
      * eexists _, ds', [], true, []. split; [reflexivity|]. rewrite app_nil_r. cbn [app]. split; [exact X|split; [reflexivity|split; [cbn; lia|discriminate]]].
      * eexists _, ds', [], true, []. split; [reflexivity|]. rewrite app_nil_r. cbn [app]. split; [exact X|split; [reflexivity|split; [cbn; lia|discriminate]]].
      * eexists _, ds', [], true, []. split; [reflexivity|]. rewrite app_nil_r. cbn [app]. split; [exact X|split; [reflexivity|split; [cbn; lia|discriminate]]].
    + injection EP as <-. subst f. cbn [bind].
      assert (ES : s = t).
      { assert (R2 : rd_str m1 (mnext m, 0) = Ok t).
        { eapply rd_str_0; [apply (i_frame _ _ _ _ I1); left; reflexivity|]. cbn [client b_data]. apply scan0_app. exact AL. }
        congruence. }
      subst s. exists (mset (spent m1) (mnext m) None), ds, [], false, []. split; [reflexivity|]. rewrite app_nil_r. cbn [app].
      split; [|split; [reflexivity|split; [cbn; lia|]]].
      * apply (inv_drop _ _ _ _ (client FVolatile t)); [apply inv_spent; exact I1|]. intros u U. apply BASE in U. lia.
      * intros _. split; [exact BS|]. split; [reflexivity|eauto].
  - destruct (set_null_ok junk m ds a _ f I) as [m' [ds' [E [I' _]]]].
    destruct (try_set_cases granted junk m ds None f) as [E2|[p [EP _]]]; [|discriminate].
    rewrite E2, (done_ok _ _ E). cbn [bind]. exact (PLAIN (Ok (m', ds')) m' ds' eq_refl eq_refl I').
  - (* cat *)
    destruct AL as [CS TX]. destruct (text a) as [u|] eqn:T; [|congruence].
    assert (I1 := inv_new _ _ _ _ false (t ++ [NUL]) I). cbn [mnew fst] in I1. unfold mnew.
    set (m1 := {| mget := _; mnext := _; mlog := _ |}) in *.
    assert (S1 : scan0 (b_data {| b_heap := false; b_data := t ++ [NUL] |}) = Some t) by (cbn [b_data]; apply scan0_app; exact CS).
    destruct (try_cat_ok granted junk m1 ds a _ (mnext m) _ t u I1 (or_introl eq_refl) S1 T) as [[m' [ds' [E E2]]]|[v [E [V GR]]]]; [lia| |].
    + destruct (cat_ok junk m1 ds a _ (mnext m) _ t u I1 (or_introl eq_refl) S1 T) as [m2 [d2 [E3 [I' [_ N]]]]]; [lia|].
      rewrite E in E3. injection E3 as <- <-. rewrite E2. cbn [bind].
      eexists _, ds', [], true, []. split; [reflexivity|]. rewrite app_nil_r. cbn [app]. split; [|split; [reflexivity|split; [cbn; lia|discriminate]]].
      apply (inv_del _ _ _ _ _ _ I' N).
    + rewrite E. cbn [bind]. eexists _, _, [], false, []. split; [reflexivity|]. rewrite app_nil_r. cbn [app]. split; [|split; [reflexivity|split; [cbn; lia|]]].
      * eapply inv_drop; [apply inv_spent; apply (inv_used _ _ _ _ u v I1 T V)|]. cbn [upd_used d_data]. intros w W. specialize (BASE u eq_refl). lia.
      * intros _. split; [exact Logic.I|]. split; [reflexivity|eauto].
  - destruct (text a) as [u|] eqn:T; [|congruence].
    destruct (try_catc_ok granted junk m ds a _ c u I T) as [[m' [ds' [E E2]]]|[v [E [V GR]]]]; [lia| |].
    + destruct (catc_ok junk m ds a _ c u I T) as [m2 [d2 [E3 [I' _]]]]; [lia|]. rewrite E in E3. injection E3 as <- <-.
      rewrite E2. cbn [bind]. exact (PLAIN (Ok (m', ds')) m' ds' eq_refl eq_refl I').
    + rewrite E. cbn [bind]. eexists _, _, [], false, []. split; [reflexivity|]. rewrite app_nil_r. cbn [app]. split; [|split; [reflexivity|split; [cbn; lia|]]].
      * apply inv_spent. apply (inv_used _ _ _ _ u v I T V).
      * intros _. split; [exact Logic.I|]. split; [reflexivity|eauto].
  - destruct AL as [TX NN]. specialize (NN n eq_refl). destruct (text a) as [u|] eqn:T; [|congruence].
    destruct (try_catf_ok granted junk legacy m ds a _ u n out I T NN) as [[m' [ds' [E E2]]]|[m' [ds' [K [E [I' [LE [D GR]]]]]]]]; [lia| |].
    + destruct (catf_ok junk legacy m ds a _ u n out I T NN) as [m2 [d2 [E3 [I' _]]]]; [lia|]. rewrite E in E3. injection E3 as <- <-.
      rewrite E2. cbn [bind]. exact (PLAIN (Ok (m', ds')) m' ds' eq_refl eq_refl I').
    + rewrite E. cbn [bind]. eexists _, _, [], false, K. split; [reflexivity|]. rewrite app_nil_r. split; [|split; [reflexivity|split; [exact LE|]]].
      * eapply inv_perm; [|exact I']. apply Permutation_app_swap_app.
      * intros _. split; [exact Logic.I|]. split; [exact D|exact GR].
  - exact (PLAIN (Ok (m, ds)) m ds eq_refl eq_refl I).
  - destruct (reset_ok m ds a _ I) as [m' [ds' [E [I' _]]]]. exact (PLAIN _ m' ds' E eq_refl I').
  - destruct (free_ok m ds a _ I) as [m' [E I']]. exact (PLAIN _ m' _ E eq_refl I').
Qed.

(** ** Any number of calls *)
Lemma calls_app client h : forall past b, calls client past (h ++ [b]) = calls client past h ++ [(client (past ++ h), b)].
Proof.
  induction h as [|c h IH]; intros past b; cbn [app calls].
  - rewrite app_nil_r. reflexivity.
  - rewrite IH. rewrite <- app_assoc. reflexivity.
Qed.
Lemma completed_app cs c : completed (cs ++ [c]) = completed cs ++ (if snd c then [fst c] else []).
Proof. unfold completed. rewrite filter_app, map_app. cbn [filter]. destruct (snd c); reflexivity. Qed.
Lemma lost_app cs c : lost (cs ++ [c]) = (lost cs + if is_catf (fst c) && negb (snd c) then 1 else 0)%nat.
Proof. unfold lost. rewrite filter_app, app_length. cbn [filter]. destruct (is_catf (fst c) && negb (snd c)); reflexivity. Qed.
Lemma calls_length client h : forall past, List.length (calls client past h) = List.length h.
Proof. induction h as [|b h IH]; intro past; cbn [calls List.length]; [reflexivity|]. rewrite IH. reflexivity. Qed.

(** The state after the calls made so far. *)
Record so_far (granted : nat -> bool) (client : list bool -> op) (m : mem) (ds : dstr) (st : list (nat * str)) (h : list bool)
  (L : list (nat * mblock)) : Prop := {
  sf_inv : Inv m ds (spec_ops (completed (calls client [] h))) (frame st ++ L);
  sf_statics : map snd st = statics (completed (calls client [] h));
  sf_lost : (List.length L <= lost (calls client [] h))%nat;
  sf_short : tlen (spec_ops (completed (calls client [] h))) <= total (made client h);
  sf_asked : Forall (fun c => snd c = false -> asks (fst c) /\ exists i, granted i = false) (calls client [] h)
}.

Lemma statics_app a b : statics (a ++ b) = statics a ++ statics b.
Proof. unfold statics. apply flat_map_app. Qed.

Lemma so_far_step granted junk legacy client m ds st h L :
  careful client -> so_far granted client m ds st h L -> total (made client h) + weight (client h) <= 536870912 ->
  exists m' ds' s b L', try_op granted junk legacy m ds (client h) = Ok (m', ds', s, b)
    /\ so_far granted client m' ds' (st ++ s) (h ++ [b]) L' /\ (b = false -> d_data ds' = d_data ds).
Proof.
  intros CL [I ST LE SHO AS] BD.
  assert (AL := CL h).
  destruct (try_op_ok granted junk legacy m ds _ st L (client h) I AL) as (m' & ds' & s & b & L' & E & I' & S' & LE' & AS'); [lia|].
  exists m', ds', s, b, (L' ++ L). split; [exact E|]. split; [|intro B; apply AS'; exact B].
  assert (Q : calls client [] (h ++ [b]) = calls client [] h ++ [(client h, b)]) by (rewrite calls_app; reflexivity).
  constructor.
  - rewrite Q, completed_app. cbn [fst snd]. destruct b.
    + unfold spec_ops. rewrite fold_left_app. exact I'.
    + rewrite app_nil_r. exact I'.
  - rewrite Q, completed_app, map_app, S', ST. cbn [fst snd]. rewrite statics_app. reflexivity.
  - rewrite Q, lost_app, app_length. cbn [fst snd]. lia.
  - unfold made. rewrite Q, completed_app, map_app. cbn [fst snd map]. rewrite total_app. fold (made client h).
    assert (T := tlen_op _ _ AL). assert (W := weight_nonneg _ _ AL). destruct b.
    + unfold spec_ops in *. rewrite fold_left_app. cbn [fold_left]. lia.
    + rewrite app_nil_r. lia.
  - rewrite Q. apply Forall_app. split; [exact AS|]. constructor; [|constructor]. cbn [fst snd]. intro B. destruct (AS' B) as (A1 & _ & A2). auto.
Qed.

Lemma total_prefix client h b : careful client -> total (made client h) <= total (made client (h ++ [b])).
Proof.
  intro CL. unfold made. rewrite calls_app, map_app. cbn [fst map app]. rewrite total_app. assert (W := weight_nonneg _ _ (CL h)). cbn [app]. lia.
Qed.
Lemma total_prefixes client g : careful client -> forall h, total (made client h) <= total (made client (h ++ g)).
Proof.
  intro CL. induction g as [|b g IH]; intro h; [rewrite app_nil_r; lia|].
  assert (A := total_prefix client h b CL). specialize (IH (h ++ [b])). rewrite <- app_assoc in IH. cbn [app] in IH. lia.
Qed.

Lemma try_ops_ok granted junk legacy client n : careful client -> forall m ds st h L,
  so_far granted client m ds st h L -> (forall g, List.length g = n -> total (made client (h ++ g)) <= 536870912) ->
  exists m' ds' s g L', try_ops granted junk legacy client n m ds h st = Ok (m', ds', st ++ s, h ++ g)
    /\ List.length g = n /\ so_far granted client m' ds' (st ++ s) (h ++ g) L'.
Proof.
  intro CL. induction n as [|n IH]; intros m ds st h L SF BD; cbn [try_ops].
  - exists m, ds, [], [], L. rewrite !app_nil_r. auto.
  - destruct (so_far_step granted junk legacy client m ds st h L CL SF) as (m1 & d1 & s1 & b & L1 & E1 & SF1 & _).
    { assert (X := BD (true :: repeat true n)). cbn [List.length] in X. rewrite repeat_length in X. specialize (X eq_refl).
      assert (Y := total_prefixes client (repeat true n) CL (h ++ [true])). rewrite <- app_assoc in Y. cbn [app] in Y.
      unfold made in Y at 1. rewrite calls_app, map_app in Y. cbn [fst map app] in Y. rewrite total_app in Y. fold (made client h) in Y. lia. }
    rewrite E1. cbn [bind].
    destruct (IH m1 d1 (st ++ s1) (h ++ [b]) L1 SF1) as (m2 & d2 & s2 & g & L2 & E2 & LG & SF2).
    { intros g G. rewrite <- app_assoc. apply BD. cbn [app List.length]. lia. }
    exists m2, d2, (s1 ++ s2), (b :: g), L2. rewrite E2, <- !app_assoc. cbn [app List.length]. split; [reflexivity|]. split; [lia|].
    rewrite <- !app_assoc in SF2. exact SF2.
Qed.

Lemma so_far_start granted junk client m ds : arg_dstr_create junk mem0 = Ok (m, ds) -> so_far granted client m ds [] [] [].
Proof.
  intro E. destruct (create_ok junk) as (m' & ds' & E' & I). rewrite E in E'. injection E' as <- <-.
  constructor; cbn [calls completed lost filter map List.length frame app]; auto; try reflexivity; try lia. 
Qed.

(** ** C88: dynamic strings *)

(** However requests are refused ([granted]) and whatever the client does about it: nothing bad happens; the text is that of the calls
    that have returned; destroying the string gives back every string that those calls handed over, once; and at most one block is
    left behind for every formatted append that was refused. *)
Theorem C88_strings : forall granted junk legacy client n,
  careful client -> (forall h, List.length h = n -> total (made client h) <= 536870912) ->
  match try_create granted junk mem0 with
  | Ok (m0, Some ds0) =>
      exists m ds st h m' left_behind,
        try_ops granted junk legacy client n m0 ds0 [] [] = Ok (m, ds, st, h) /\ List.length h = n /\
        let done := completed (calls client [] h) in
        (forall t, text (spec_ops done) = Some t -> rd_str m (arg_dstr_cstr ds) = Ok t) /\
        arg_dstr_destroy m ds = Ok m' /\
        mlog m' = handed_over done /\
        map snd st = statics done /\
        (forall b t, In (b, t) st -> mget m' b = Some {| b_heap := false; b_data := t ++ [NUL] |}) /\
        NoDup (map fst st ++ left_behind) /\
        (forall i, mget m' i <> None <-> In i (map fst st ++ left_behind)) /\
        (List.length left_behind <= lost (calls client [] h))%nat /\
        Forall (fun c => snd c = false -> asks (fst c) /\ exists i, granted i = false) (calls client [] h)
  | Ok (m0, None) => (exists i, granted i = false) /\ forall i, mget m0 i = None
  | _ => False
  end.
Proof.
  intros granted junk legacy client n CL BD. unfold try_create. destruct (granted (mnext mem0)) eqn:GR.
  - destruct (create_ok junk) as (m0 & ds0 & E0 & _). rewrite E0. cbn [bind].
    destruct (try_ops_ok granted junk legacy client n CL m0 ds0 [] [] [] (so_far_start granted junk client m0 ds0 E0) BD)
      as (m & ds & st & h & L & E & LN & SF). cbn [app] in *.
    assert (I := sf_inv _ _ _ _ _ _ _ SF). destruct (destroy_ok _ _ _ _ I) as (m' & E' & LV & FR & LG).
    exists m, ds, st, h, m', (map fst L). split; [exact E|]. split; [exact LN|]. cbv zeta.
    split; [intros t T; apply (text_read _ _ _ _ _ I T)|]. split; [exact E'|]. split.
    { rewrite LG. unfold spec_ops. rewrite give_back_handed; [reflexivity|]. intros f t K. discriminate. }
    split; [apply (sf_statics _ _ _ _ _ _ _ SF)|]. split.
    { intros b t K. apply (FR b (DstrProofs.client FStatic t)). apply in_or_app. left. unfold frame.
      apply (in_map (fun p => (fst p, DstrProofs.client FStatic (snd p)))) in K. exact K. }
    rewrite map_app, frame_fst in LV. split; [apply (live_nodup _ _ LV)|]. split; [apply (live_iff _ _ LV)|].
    split; [rewrite map_length; apply (sf_lost _ _ _ _ _ _ _ SF)|apply (sf_asked _ _ _ _ _ _ _ SF)].
  - split; [eauto|]. intro i. reflexivity.
Qed.

(** A refused call: arg_dstr_cstr still returns the same pointer, to the same text. *)
Theorem C88_refused_call : forall granted junk legacy client n m0 ds0 m ds st h m' ds' s,
  careful client -> (forall h, List.length h = S n -> total (made client h) <= 536870912) ->
  try_create granted junk mem0 = Ok (m0, Some ds0) ->
  try_ops granted junk legacy client n m0 ds0 [] [] = Ok (m, ds, st, h) ->
  try_op granted junk legacy m ds (client h) = Ok (m', ds', s, false) ->
  arg_dstr_cstr ds' = arg_dstr_cstr ds /\ s = [] /\
  forall t, text (spec_ops (completed (calls client [] h))) = Some t ->
    rd_str m (arg_dstr_cstr ds) = Ok t /\ rd_str m' (arg_dstr_cstr ds') = Ok t.
Proof.
  intros granted junk legacy client n m0 ds0 m ds st h m' ds' s CL BD E0 E E1. unfold try_create in E0.
  destruct (granted (mnext mem0)); [|discriminate]. apply bind_ok in E0. destruct E0 as ([m1 d1] & E0 & X). injection X as -> ->.
  assert (BD' : forall g (b : bool), List.length g = n -> total (made client g) + weight (client g) <= 536870912).
  { intros g b G. assert (X := BD (g ++ [b])). rewrite app_length in X. cbn [List.length] in X. specialize (X ltac:(lia)).
    unfold made in X. rewrite calls_app, map_app in X. cbn [fst map app] in X. rewrite total_app in X. exact X. }
  destruct (try_ops_ok granted junk legacy client n CL m0 ds0 [] [] [] (so_far_start granted junk client m0 ds0 E0))
    as (m2 & d2 & s2 & g2 & L & E2 & LN & SF).
  { intros g G. cbn [app]. assert (W := weight_nonneg _ _ (CL g)). specialize (BD' g true G). lia. }
  cbn [app] in *. rewrite E in E2. injection E2 as <- <- <- <-.
  destruct (so_far_step granted junk legacy client m ds st h L CL SF (BD' h true LN)) as (m3 & d3 & s3 & b & L3 & E3 & SF3 & D3).
  rewrite E1 in E3. injection E3 as <- <- <- <-. unfold arg_dstr_cstr. split; [apply D3; reflexivity|]. split.
  - assert (A := sf_statics _ _ _ _ _ _ _ SF3). assert (B := sf_statics _ _ _ _ _ _ _ SF).
    rewrite calls_app, completed_app in A. cbn [fst snd app] in A. rewrite app_nil_r, map_app, B in A.
    destruct s as [|x s]; [reflexivity|]. exfalso. apply (f_equal (@List.length _)) in A. rewrite app_length in A. cbn in A. lia.
  - intros t T. split; [apply (text_read _ _ _ _ _ (sf_inv _ _ _ _ _ _ _ SF) T)|].
    assert (I := sf_inv _ _ _ _ _ _ _ SF3). rewrite calls_app, completed_app in I. cbn [fst snd app] in I. rewrite app_nil_r in I.
    apply (text_read _ _ _ _ _ I T).
Qed.

(** With enough memory nothing is refused. *)
Theorem C88_enough : forall granted junk legacy client n,
  (forall i, granted i = true) -> careful client -> (forall h, List.length h = n -> total (made client h) <= 536870912) ->
  exists m0 ds0 m ds st, try_create granted junk mem0 = Ok (m0, Some ds0) /\
    try_ops granted junk legacy client n m0 ds0 [] [] = Ok (m, ds, st, repeat true n).
Proof.
  intros granted junk legacy client n G CL BD. assert (H := C88_strings granted junk legacy client n CL BD).
  destruct (try_create granted junk mem0) as [[m0 [ds0|]]|u|]; try contradiction.
  - destruct H as (m & ds & st & h & m' & lb & E & LN & _ & _ & _ & _ & _ & _ & _ & _ & AS). exists m0, ds0, m, ds, st. split; [reflexivity|].
    rewrite E. do 2 f_equal. clear E. subst n. clear BD CL. revert AS. generalize (@nil bool). induction h as [|b h IH]; intros past AS; [reflexivity|].
    cbn [calls List.length repeat] in *. inversion AS as [|x y A1 A2]; subst. f_equal; [|apply (IH _ A2)].
    destruct b; [reflexivity|]. destruct (A1 eq_refl) as (_ & i & K). rewrite G in K. discriminate.
  - destruct H as ((i & K) & _). rewrite G in K. discriminate.
Qed.

(** ** Example: a client that starts again from an empty text when an append was refused, and then appends something shorter *)
Definition ex_client (h : list bool) : op :=
  match rev h with
  | [] => OSet (Some (lit "log:")) FVolatile
  | false :: _ => OReset
  | true :: _ => if Nat.even (List.length h) then OCat (lit "word") else OCatf (Some 4) (lit " again")
  end.
(** Requests 0 (the string), 2 (the first buffer of the formatted append) are granted, 3 (the append buffer) is not, all others are. *)
Definition ex_granted (i : nat) : bool := negb (Nat.eqb i 3).
Example C88_careful_case : careful ex_client.
Proof.
  assert (TX : forall h, text (spec_ops (completed (calls ex_client [] h))) <> None).
  { intro h. induction h as [|b h IH] using rev_ind; [discriminate|]. rewrite calls_app, completed_app. cbn [app fst snd].
    destruct b; [|rewrite app_nil_r; exact IH]. unfold spec_ops in *. rewrite fold_left_app. cbn [fold_left].
    revert IH. generalize (fold_left spec_op (completed (calls ex_client [] h)) abs0). intros a A.
    unfold ex_client. destruct (rev h) as [|[] ?]; [discriminate|destruct (Nat.even _)|discriminate]; cbn [spec_op append text];
      (destruct (text a); [discriminate|congruence]). }
  intro h. specialize (TX h). revert TX. generalize (spec_ops (completed (calls ex_client [] h))). intros a TX.
  unfold ex_client, allowed. destruct (rev h) as [|[] ?].
  - intros K. repeat (destruct K as [K|K]; [discriminate|]). exact K.
  - destruct (Nat.even _).
    + split; [|exact TX]. intros K. repeat (destruct K as [K|K]; [discriminate|]). exact K.
    + split; [exact TX|]. intros n E. injection E as <-. lia.
  - exact Logic.I.
Qed.
Example C88_weight_case : forall h, List.length h = 5%nat -> total (made ex_client h) <= 536870912.
Proof.
  assert (W : forall o h, o = ex_client h -> weight o <= 10).
  { intros o h ->. unfold ex_client. destruct (rev h) as [|[] ?]; [|destruct (Nat.even _)|]; vm_compute; discriminate. }
  assert (T : forall h past, total (map fst (calls ex_client past h)) <= 10 * Z.of_nat (List.length h)).
  { induction h as [|b h IH]; intro past; [vm_compute; discriminate|]. cbn [calls map fst total fold_right List.length].
    fold (total (map fst (calls ex_client (past ++ [b]) h))). specialize (IH (past ++ [b])). specialize (W _ past eq_refl). lia. }
  intros h H. specialize (T h []). rewrite H in T. unfold made. lia.
Qed.
(** The second call is refused; the buffer of its formatted text stays behind. *)
Example C88_strings_case : exists m0 ds0 m ds m',
  try_create ex_granted (fun _ => "?"%char) mem0 = Ok (m0, Some ds0) /\
  try_ops ex_granted (fun _ => "?"%char) false ex_client 5 m0 ds0 [] [] = Ok (m, ds, [], [true; false; true; true; true]) /\
  rd_str m (arg_dstr_cstr ds) = Ok (lit " againword") /\
  arg_dstr_destroy m ds = Ok m' /\ mget m' 2%nat <> None.
Proof.
  eexists _, _, _, _, _. split; [vm_compute; reflexivity|]. split; [vm_compute; reflexivity|]. split; [vm_compute; reflexivity|].
  split; [vm_compute; reflexivity|]. vm_compute. discriminate.
Qed.

Print Assumptions C88_strings.
Print Assumptions C88_refused_call.
Print Assumptions C88_enough.
