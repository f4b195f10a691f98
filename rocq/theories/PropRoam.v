(** PropRoam: iterating over the commands while commands are registered and unregistered (C89). *)
From Coq Require Import String Ascii.
From Coq Require Import ZArith List Bool Lia Permutation.
From Verif Require Import Base HashModel HashSpec HashProofs HashFacts CmdModel CmdSpec CmdProofs PropCmd RoamSpec RoamProofs.
Import ListNotations.
Open Scope list_scope.
Open Scope Z_scope.

Section Props.
Context {P C : Type}.
Notation info := (cmdinfo P C).
Notation nothing := (@nothing P C).
Notation fresh := (@fresh P C).

Lemma tour_nodup body (e0 e : @registry P C) seen touched : tour body e0 e seen touched -> NoDup (map fst seen).
Proof.
  induction 1 as [|e seen touched n i T IH E NI]; [constructor|]. subst seen'. rewrite map_app. cbn [map fst].
  apply NoDup_Add with (a := n) (l := map fst seen); [|split; auto].
  rewrite <- (app_nil_r (map fst seen)) at 1. apply Add_app.
Qed.

(** C89. An iteration during which other commands come and go. *)
Theorem C89_roaming os body : allowed_cops nothing os ->
  exists s n0, do_cops fresh os = Ok s /\ arg_cmd_count s = Ok n0 /\
    (gentle body (Z.max 35 n0) (spec_cops nothing os) ->
     exists k s' e' seen touched,
       (forall fuel, (k <= fuel)%nat -> roam_all body fuel s = Ok (s', seen)) /\
       tour body (spec_cops nothing os) e' seen touched /\ NoDup (map fst seen) /\
       (forall n i, spec_cops nothing os n = Some i -> ~ In n touched -> In (n, Some i) seen) /\
       (forall more, allowed_cops e' more ->
          exists s'' s3, do_cops s' more = Ok s'' /\ (forall n, see s'' n = Ok (spec_cops e' more n)) /\ arg_cmd_uninit s'' = Ok s3 /\
            (forall i, sget (w_ht (s_mem s3)) i = None) /\ (forall i, sget (w_tab (s_mem s3)) i = None) /\
            (forall i, sget (w_node (s_mem s3)) i = None) /\ (forall i, sget (w_key (s_mem s3)) i = None) /\
            (forall i, sget (w_val (s_mem s3)) i = None))).
Proof.
  intros AL. destruct (history os AL) as (s & h & t & rows & l & X & G).
  destruct (listing s _ h t rows l G) as (_ & _ & CN). cbn zeta in CN.
  eexists s, _. split; [exact X|]. split; [exact CN|]. intros GE.
  destruct (roam_all_ok body s _ h t rows l _ G CN GE) as (k & s' & e' & t' & rows' & l' & seen & touched & R & G' & T & F).
  exists k, s', e', seen, touched. split; auto. split; auto. split; [eapply tour_nodup; eauto|]. split; auto.
  intros more AM. destruct (cops_ok more _ _ h t' rows' l' G' AM) as (s2 & t2 & rows2 & l2 & X2 & G2).
  destruct (destroy_ok hash_key _ _ _ _ _ _ true (g_rep _ _ _ _ _ _ G2)) as (w' & Z & Z1 & Z2 & Z3 & Z4 & Z5 & Z6).
  exists s2, (up_mem s2 w'). split; auto. split; [intros n; eapply see_ok; eauto|].
  unfold arg_cmd_uninit, table_of. rewrite (g_h _ _ _ _ _ _ G2). cbn [bind]. rewrite Z. cbn [bind]. split; auto.
  cbn [s_mem up_mem]. repeat split; apply owns_nil; auto.
Qed.

(** Two sorts of clients that need not count: *)
Lemma at_most_incl lim (U : list str) (e : @registry P C) : zlen U <= lim -> (forall n, e n <> None -> In n U) -> at_most lim e.
Proof.
  intros L I names ND IN. assert (length names <= length U)%nat; [|unfold zlen in *; lia].
  apply NoDup_incl_length; auto. intros n J. apply I, IN, J.
Qed.
Lemma abouts_within U os : forall (e : @registry P C), (forall n, e n <> None -> In n U) -> (forall n, In n (abouts e os) -> In n U) ->
  forall n, spec_cops e os n <> None -> In n U.
Proof.
  induction os as [|o os IH]; intros e E A; cbn [spec_cops fold_left abouts] in *; auto.
  apply IH; [|intros n I; apply A; now right].
  intros n NN. destruct o as [m p d c|m]; cbn [spec_cop about] in *; unfold upd in NN;
    (destruct (str_eqb_spec (meant e m) n) as [Z|]; [apply A; left; exact Z|auto]).
Qed.
Lemma mild_within lim U cur os : zlen U <= lim -> forall (e : @registry P C), (forall n, e n <> None -> In n U) ->
  allowed_cops e os -> (forall n, In n (abouts e os) -> In n U /\ n <> cur) -> mild lim cur e os.
Proof.
  intros L. induction os as [|o os IH]; intros e E AL A; cbn [mild allowed_cops abouts] in *; auto.
  assert (E' : forall n, spec_cop e o n <> None -> In n U).
  { apply (abouts_within U [o] e E). cbn [abouts]. intros n [<-|[]]. apply A. now left. }
  destruct AL as (AL & ALS). split; auto. split; [apply A; now left|]. split; [apply at_most_incl with (U := U); auto|].
  apply IH; auto. intros n I. apply A. now right.
Qed.
Lemma gentle_within lim U body (e0 : @registry P C) : zlen U <= lim -> (forall n, e0 n <> None -> In n U) ->
  (forall e seen touched n i, tour body e0 e seen touched -> e n = Some i -> ~ In n (map fst seen) ->
     allowed_cops e (body (seen ++ [(n, Some i)])) /\ forall m, In m (abouts e (body (seen ++ [(n, Some i)]))) -> In m U /\ m <> n) ->
  gentle body lim e0.
Proof.
  intros L E0 H.
  assert (INV : forall e seen touched, tour body e0 e seen touched -> forall n, e n <> None -> In n U).
  { induction 1 as [|e seen touched n i T IH E NI]; auto. cbn zeta.
    apply abouts_within; auto. intros m I. now apply (H e seen touched n i T E NI). }
  intros e seen touched n i T E NI. destruct (H e seen touched n i T E NI) as (AL & A).
  apply mild_within with (U := U); auto. eapply INV; eauto.
Qed.

(** C89. Unregistering other commands is always possible: whoever unregisters, on being shown a command, any others, sees no
    command twice, none that is gone, and all that stay. *)
Theorem C89_unregistering os (victims : str -> list str) : allowed_cops nothing os -> (forall n, ~ In n (victims n)) ->
  let body := fun seen : list (str * option info) => map (fun v => Unreg (P := P) (C := C) (Own v)) (victims (fst (last seen ([], None)))) in
  exists s k s' seen, do_cops fresh os = Ok s /\ (forall fuel, (k <= fuel)%nat -> roam_all body fuel s = Ok (s', seen)) /\
    NoDup (map fst seen) /\
    (forall n x, In (n, x) seen -> exists i, x = Some i /\ spec_cops nothing os n = Some i) /\
    (forall A n x B m, seen = A ++ (n, x) :: B -> In m (victims n) -> ~ In m (map fst B)) /\
    (forall n i, spec_cops nothing os n = Some i -> (forall m, In m (map fst seen) -> ~ In n (victims m)) -> In (n, Some i) seen) /\
    (forall n, see s' n = Ok (if existsb (fun m => existsb (str_eqb n) (victims m)) (map fst seen) then None else spec_cops nothing os n)).
Proof.
  intros AL NV body. destruct (C89_roaming os body AL) as (s & n0 & X & CN & H).
  destruct (C32_count os AL) as (s2 & names & X2 & CN2 & ND & NA). rewrite X in X2. inversion X2; subst s2. rewrite CN in CN2. inversion CN2; subst n0.
  assert (LAST : forall seen n x, body (seen ++ [(n, x)]) = map (fun v => Unreg (Own v)) (victims n)).
  { intros. unfold body. now rewrite last_last. }
  assert (ABO : forall vs (e : @registry P C), abouts e (map (fun v => Unreg (Own v)) vs) = vs).
  { induction vs as [|v vs IH]; intros e; cbn [map abouts about meant]; auto. now rewrite IH. }
  assert (ALO : forall vs (e : @registry P C), allowed_cops e (map (fun v => Unreg (Own v)) vs)).
  { induction vs as [|v vs IH]; intros e; cbn [map allowed_cops allowed_cop registered]; auto. }
  assert (SPC : forall vs (e : @registry P C) n, spec_cops e (map (fun v => Unreg (Own v)) vs) n = if existsb (str_eqb n) vs then None else e n).
  { induction vs as [|v vs IH]; intros e n; cbn [map spec_cops fold_left existsb]; auto.
    change (fold_left spec_cop (map (fun v => Unreg (Own v)) vs) (spec_cop e (Unreg (Own v)))) with (spec_cops (spec_cop e (Unreg (Own v))) (map (fun v => Unreg (Own v)) vs)).
    rewrite IH. cbn [spec_cop meant]. unfold upd. destruct (str_eqb_spec v n) as [<-|NE].
    - rewrite str_eqb_refl. cbn [orb]. now destruct (existsb _ _).
    - destruct (str_eqb_spec n v); [congruence|]. reflexivity. }
  assert (INV : forall e seen touched, tour body (spec_cops nothing os) e seen touched ->
    (forall n, e n = if existsb (fun m => existsb (str_eqb n) (victims m)) (map fst seen) then None else spec_cops nothing os n) /\
    (forall n, In n touched -> exists m, In m (map fst seen) /\ In n (victims m)) /\
    (forall n x, In (n, x) seen -> exists i, x = Some i /\ spec_cops nothing os n = Some i) /\
    (forall A n x B m, seen = A ++ (n, x) :: B -> In m (victims n) -> ~ In m (map fst B))).
  { induction 1 as [|e seen touched n i T IH E NI].
    - split; [auto|]. split; [intros n []|]. split; [intros n x []|]. intros [|? A] n x B m E; discriminate.
    - subst seen'. destruct IH as (I1 & I2 & I3 & I4). rewrite LAST. split; [|split; [|split]].
      + intros m. rewrite SPC, map_app, existsb_app, I1. cbn [map existsb fst]. rewrite orb_false_r.
        destruct (existsb (str_eqb m) (victims n)); [now rewrite orb_true_r|now rewrite orb_false_r].
      + intros m I. rewrite ABO in I. rewrite map_app. apply in_app_or in I. destruct I as [I|I].
        * destruct (I2 m I) as (v & J1 & J2). exists v. split; auto. apply in_or_app. auto.
        * exists n. split; auto. apply in_or_app. right. now left.
      + intros m x I. apply in_app_or in I. destruct I as [I|[I|[]]]; auto. inversion I; subst m x. exists i. split; auto.
        rewrite I1 in E. destruct (existsb _ _); [discriminate|auto].
      + intros A m x B v EQ IV IB. destruct B as [|b B0] using rev_ind; [destruct IB|]. clear IHB0.
        rewrite app_comm_cons, app_assoc in EQ. apply app_inj_tail in EQ. destruct EQ as (EQ & <-).
        rewrite map_app in IB. apply in_app_or in IB. destruct IB as [IB|[IB|[]]]; [exact (I4 A m x B0 v EQ IV IB)|].
        cbn [fst] in IB. subst v. rewrite I1 in E.
        assert (Z : existsb (fun m => existsb (str_eqb n) (victims m)) (map fst seen) = true).
        { apply existsb_exists. exists m. split; [rewrite EQ, map_app; apply in_or_app; right; now left|].
          apply existsb_exists. exists n. split; auto. apply str_eqb_refl. }
        rewrite Z in E. discriminate. }
  assert (GE : gentle body (Z.max 35 (zlen names)) (spec_cops nothing os)).
  { intros e seen touched n i T E NI. rewrite LAST. destruct (INV _ _ _ T) as (I1 & _).
    assert (B : forall m, e m <> None -> In m names).
    { intros m NM. apply NA. rewrite I1 in NM. destruct (existsb _ _); congruence. }
    clear - NV B ALO ABO. revert e B. assert (NI := NV n). induction (victims n) as [|v vs IH]; intros e B; cbn [map mild]; auto.
    split; [exact I|]. cbn [about meant]. split; [intros ->; apply NI; now left|].
    assert (B' : forall m, spec_cop e (Unreg (Own v)) m <> None -> In m names).
    { intros m. cbn [spec_cop meant]. unfold upd. destruct (str_eqb v m); [congruence|auto]. }
    split; [apply at_most_incl with (U := names); auto; lia|]. apply IH; auto. intros J. apply NI. now right. }
  destruct (H GE) as (k & s' & e' & seen & touched & R & T & NDs & F & FIN).
  destruct (INV _ _ _ T) as (I1 & I2 & I3 & I4).
  exists s, k, s', seen. split; auto. split; auto. split; auto. split; auto. split; auto. split.
  - intros n i E NVn. apply F; auto. intros J. destruct (I2 n J) as (m & J1 & J2). exact (NVn m J1 J2).
  - intros n. destruct (FIN [] I) as (s3 & _ & E3 & S3 & _). cbn in E3. inversion E3; subst s3. rewrite S3. cbn. now rewrite I1.
Qed.

(** C89. Small registries: as long as all names ever registered are among 35, other commands may be registered, too. *)
Theorem C89_small os body (U : list str) : allowed_cops nothing os -> zlen U <= 35 ->
  (forall n, spec_cops nothing os n <> None -> In n U) ->
  (forall e seen touched n i, tour body (spec_cops nothing os) e seen touched -> e n = Some i -> ~ In n (map fst seen) ->
     allowed_cops e (body (seen ++ [(n, Some i)])) /\ forall m, In m (abouts e (body (seen ++ [(n, Some i)]))) -> In m U /\ m <> n) ->
  exists s k s' e' seen touched, do_cops fresh os = Ok s /\ (forall fuel, (k <= fuel)%nat -> roam_all body fuel s = Ok (s', seen)) /\
    tour body (spec_cops nothing os) e' seen touched /\ NoDup (map fst seen) /\
    (forall n i, spec_cops nothing os n = Some i -> ~ In n touched -> In (n, Some i) seen) /\
    forall n, see s' n = Ok (e' n).
Proof.
  intros AL L W B. destruct (C89_roaming os body AL) as (s & n0 & X & CN & H).
  destruct H as (k & s' & e' & seen & touched & R & T & ND & F & FIN).
  - apply gentle_within with (U := U); auto. lia.
  - exists s, k, s', e', seen, touched. do 5 (split; auto). intros n. destruct (FIN [] I) as (s3 & _ & E3 & S3 & _). cbn in E3.
    inversion E3; subst s3. now rewrite S3.
Qed.

Lemma same_id (l : list (@cell str)) a b : NoDup (map c_id l) -> In a l -> In b l -> c_id a = c_id b -> a = b.
Proof.
  induction l as [|c l IH]; cbn [map]; intros ND Ia Ib E; [destruct Ia|]. inversion ND as [|? ? N1 N2]; subst.
  destruct Ia as [->|Ia], Ib as [->|Ib]; auto.
  - exfalso. apply N1. rewrite E. now apply in_map.
  - exfalso. apply N1. rewrite <- E. now apply in_map.
Qed.

(** C89. What it does not hold for: the command on which the iterator stands.  Whoever unregisters it and then advances uses
    memory that has been released; this is so for every registry that is not empty. *)
Theorem C89_current_refuted os n0 i0 : allowed_cops nothing os -> spec_cops nothing os n0 = Some i0 ->
  let body := fun seen : list (str * option info) => map (fun p => Unreg (P := P) (C := C) (Own (fst p))) seen in
  exists s, do_cops fresh os = Ok s /\ forall fuel, roam_all body (S fuel) s = UB UseAfterFree.
Proof.
  intros AL E0 body. destruct (history os AL) as (s & h & t & rows & l & X & G). exists s. split; auto. intros fuel.
  destruct (listing s _ h t rows l G) as (_ & _ & CN). cbn zeta in CN. pose proof (registered_cell _ _ _ _ _ _ _ _ G E0) as IN0.
  unfold roam_all. rewrite CN. cbn [bind].
  destruct (Z.eqb_spec (zlen (map (cont (s_mem s)) (concat rows))) 0) as [EZ|NZ].
  { exfalso. unfold zlen in EZ. rewrite map_length in EZ. destruct (concat rows); [destruct IN0|]. cbn [length] in EZ. lia. }
  unfold arg_cmd_itr_create, table_of. rewrite (g_h _ _ _ _ _ _ G). cbn [bind].
  destruct (itr_create_ok hash_key _ _ _ _ _ _ (g_rep _ _ _ _ _ _ G)) as (it & Y & AT). rewrite Y. cbn [bind].
  destruct AT as (EH & AT). destruct (i_e it) as [ie|] eqn:EE; [|rewrite AT in IN0; destruct IN0].
  destruct AT as (A & pre & c & post & B & ER & EI & EP & EX & EQ). subst rows ie. cbn [roam].
  assert (IC : In c (concat (A ++ (pre ++ c :: post) :: B))) by (apply in_row_concat, in_or_app; right; now left).
  unfold arg_cmd_itr_key, arg_cmd_itr_value, arg_cmd_itr_advance, arg_hashtable_itr_key, arg_hashtable_itr_value.
  destruct (buckets_split hash_key _ _ _ _ _ (r_b _ _ _ _ _ _ _ (g_rep _ _ _ _ _ _ G))) as (P0 & x0 & Q0 & _ & _ & _ & CH0 & _).
  destruct (chain_at hash_key _ _ _ _ _ CH0) as (nx0 & En0 & _). rewrite EE.
  rewrite (sread_ok _ _ _ En0). cbn [bind node_of n_k n_v].
  rewrite (sread_ok _ _ _ (r_keys _ _ _ _ _ _ _ (g_rep _ _ _ _ _ _ G) c IC)). cbn [bind].
  rewrite (content_ok hash_key _ _ _ _ _ _ _ (g_rep _ _ _ _ _ _ G) IC). cbn [bind app]. unfold body at 1. cbn [map fst].
  destruct (cop_ok s _ h t _ l (Unreg (Own (c_key c))) G I) as (s1 & t1 & rows1 & l1 & XC & G1 & SH).
  cbn [do_cops]. rewrite XC. cbn [bind]. cbn [shifts meant] in SH. destruct SH as (ER1 & _).
  unfold arg_hashtable_itr_advance. rewrite EE.
  assert (NN : sget (w_node (s_mem s1)) (c_id c) = None).
  { destruct (sget (w_node (s_mem s1)) (c_id c)) as [nd|] eqn:Z; auto. exfalso.
    assert (I1 : In (c_id c) (map c_id (concat rows1))).
    { apply (proj1 (proj2 (r_ns _ _ _ _ _ _ _ (g_rep _ _ _ _ _ _ G1)))). congruence. }
    apply in_map_iff in I1. destruct I1 as (d & ED & I1). rewrite ER1 in I1. apply in_but in I1. destruct I1 as (I1 & NK).
    apply NK. f_equal. symmetry. eapply same_id; [exact (proj1 (r_ns _ _ _ _ _ _ _ (g_rep _ _ _ _ _ _ G)))|exact IC|exact I1|congruence]. }
  unfold sread. rewrite NN. reflexivity.
Qed.
End Props.

(** ** Examples *)
Definition rnm (i : nat) : str := [chr (Z.of_nat i + 65)].
Definition rreg (n : str) : @cop Z Z := Reg (Own n) (Some 1) (Own (lit "text")) 5.
Definition rhist : list (@cop Z Z) := map (fun i => rreg (rnm i)) (seq 0 5).
(** On being shown E, the client registers X and Y and unregisters D; on being shown B, it unregisters and registers E. *)
Definition rbody (seen : list (str * option (cmdinfo Z Z))) : list (@cop Z Z) :=
  let n := fst (last seen ([], None)) in
  if str_eqb n (lit "E") then [rreg (lit "X"); Unreg (Own (lit "D")); rreg (lit "Y")]
  else if str_eqb n (lit "B") then [Unreg (Own (lit "E")); rreg (lit "E")] else [].
Definition rU : list str := map rnm (seq 0 5) ++ [lit "X"; lit "Y"].

Lemma allowed_cops_plain (U : list str) (l : list str) : forall e : @registry Z Z, (forall n, In n l -> zlen n < 100) -> allowed_cops e (map rreg l).
Proof.
  induction l as [|n l IH]; intros e H; cbn [map allowed_cops]; auto. split.
  - cbn. assert (zlen n < 100) by (apply H; now left). change (zlen (lit "text")) with 4. repeat split; auto; try lia.
  - apply IH. intros m I. apply H. now right.
Qed.

Example roaming_meets_the_conditions :
  allowed_cops nothing rhist /\ zlen rU <= 35 /\ (forall n, spec_cops nothing rhist n <> None -> In n rU) /\
  (forall e seen touched n i, tour rbody (spec_cops nothing rhist) e seen touched -> e n = Some i -> ~ In n (map fst seen) ->
     allowed_cops e (rbody (seen ++ [(n, Some i)])) /\ forall m, In m (abouts e (rbody (seen ++ [(n, Some i)]))) -> In m rU /\ m <> n).
Proof.
  split; [|split; [vm_compute; discriminate|split]].
  - change rhist with (map rreg (map rnm (seq 0 5))). apply (allowed_cops_plain rU). intros n I. cbn in I.
    repeat (destruct I as [<-|I]; [vm_compute; reflexivity|]). destruct I.
  - apply (abouts_within rU); [intros n H; now elim H|]. intros n I. cbn [abouts about meant rhist map seq rreg] in I.
    unfold rU. apply in_or_app. left. exact I.
  - intros e seen touched n i _ _ _. unfold rbody. rewrite last_last. cbn [fst].
    destruct (str_eqb_spec n (lit "E")) as [->|N1].
    + split; [cbn; repeat split; auto; vm_compute; reflexivity|]. intros m I. cbn in I.
      repeat (destruct I as [<-|I]; [split; [unfold rU; cbn; tauto|discriminate]|]). destruct I.
    + destruct (str_eqb_spec n (lit "B")) as [->|N2].
      * split; [cbn; repeat split; auto; vm_compute; reflexivity|]. intros m I. cbn in I.
        repeat (destruct I as [<-|I]; [split; [unfold rU; cbn; tauto|discriminate]|]). destruct I.
      * split; [exact I|]. intros m [].
Qed.
Definition rshow (r : res (cmds Z Z)) (body : list (str * option (cmdinfo Z Z)) -> list (@cop Z Z)) (fuel : nat) : res (list str) :=
  s <- r ;; '(_, l) <- roam_all body fuel s ;; Ok (map fst l).
(** D is unregistered before its turn, X comes in time, Y does not, and E is not shown again. *)
Example roaming_shows : rshow (do_cops fresh rhist) rbody 100 = Ok [lit "E"; lit "B"; lit "C"; lit "X"; lit "A"].
Proof. vm_compute. reflexivity. Qed.

(** Forty commands, so that some buckets hold several; every command shown unregisters the next letter. *)
Definition rvictims (n : str) : list str := match n with [a] => [[chr (uc a + 1)]] | _ => [] end.
Example unregistering_meets_the_conditions : allowed_cops nothing (map (fun i => rreg (rnm i)) (seq 0 40)) /\ forall n, ~ In n (rvictims n).
Proof.
  split.
  - rewrite <- (map_map rnm rreg). apply (allowed_cops_plain []). intros n I. apply in_map_iff in I. destruct I as (i & <- & _). vm_compute. reflexivity.
  - intros [|a [|b n]]; cbn; auto. intros [H|[]]. inversion H as [E]. destruct a as [[] [] [] [] [] [] [] []]; vm_compute in E; discriminate.
Qed.
Example unregistering_shows :
  rshow (do_cops fresh (map (fun i => rreg (rnm i)) (seq 0 40)))
    (fun seen => map (fun v => Unreg (Own v)) (rvictims (fst (last seen ([], None))))) 100
  = Ok (map (fun a => [a]) (lit "BLPEV^ga[G]`eYAOdJTXDcRIN")).
Proof. vm_compute. reflexivity. Qed.

(** C89. And not beyond the limit: with 35 commands registered, a client that registers a 36th, "more", while the first
    command is shown, is shown a command twice and two that are registered all the time not at all. *)
Definition rgrow (seen : list (str * option (cmdinfo Z Z))) : list (@cop Z Z) :=
  if Nat.eqb (List.length seen) 1 then [rreg (lit "more")] else [].
Definition rfull : list (@cop Z Z) := map rreg (map rnm (seq 0 35)).
Definition rsum (os : list (@cop Z Z)) (body : list (str * option (cmdinfo Z Z)) -> list (@cop Z Z)) (n : str) : res (list str * Z * option (cmdinfo Z Z)) :=
  s <- do_cops fresh os ;; n0 <- arg_cmd_count s ;; '(s', seen) <- roam_all body 100 s ;; x <- see s' n ;; Ok (map fst seen, n0, x).
Lemma rsum_inv os body n l n0 x : rsum os body n = Ok (l, n0, x) ->
  exists s s' seen, do_cops fresh os = Ok s /\ arg_cmd_count s = Ok n0 /\ roam_all body 100 s = Ok (s', seen) /\ map fst seen = l /\ see s' n = Ok x.
Proof.
  unfold rsum. intros E. apply bind_ok in E. destruct E as (s & E1 & E). apply bind_ok in E. destruct E as (m & E2 & E).
  apply bind_ok in E. destruct E as ((s', seen) & E3 & E). apply bind_ok in E. destruct E as (y & E4 & E). inversion E; subst.
  exists s, s', seen. auto.
Qed.
Lemma rsum_full : rsum rfull rgrow (lit "B") =
  Ok (map (fun a => [a]) (lit "GPEV^ab[G]`YQ_AOFJCTXWDUHZcRM") ++ lit "more" :: map (fun a => [a]) (lit "K\ISN"), 35, Some {| ci_name := lit "B"; ci_desc := lit "text"; ci_proc := Some 1; ci_ctx := 5 |}).
Proof. vm_compute. reflexivity. Qed.
Theorem C89_growth_refuted : exists (os : list (@cop Z Z)) body s n0 s' seen,
  allowed_cops nothing os /\ do_cops fresh os = Ok s /\ arg_cmd_count s = Ok n0 /\ n0 = 35 /\
  (forall l, body l = [] \/ List.length l = 1%nat /\ body l = [rreg (lit "more")]) /\
  roam_all body 100 s = Ok (s', seen) /\ ~ NoDup (map fst seen) /\
  exists n i, n <> lit "more" /\ spec_cops nothing os n = Some i /\ see s' n = Ok (Some i) /\ ~ In n (map fst seen).
Proof.
  destruct (rsum_inv _ _ _ _ _ _ rsum_full) as (s & s' & seen & E1 & E2 & E3 & E4 & E5).
  exists rfull, rgrow, s, 35, s', seen. split.
  { apply (allowed_cops_plain []). intros n I. apply in_map_iff in I. destruct I as (i & <- & _). vm_compute. reflexivity. }
  split; [exact E1|]. split; [exact E2|]. split; [reflexivity|]. split.
  { intros l. unfold rgrow. destruct (Nat.eqb_spec (List.length l) 1); auto. }
  split; [exact E3|]. rewrite E4. split.
  - intros ND. apply (proj1 (NoDup_nth_error _)) with (i := 0%nat) (j := 8%nat) in ND; [discriminate|cbn; lia|reflexivity].
  - exists (lit "B"). eexists. split; [discriminate|]. split; [vm_compute; reflexivity|]. split; [exact E5|].
    intros I. cbn in I. repeat (destruct I as [I|I]; [discriminate|]). exact I.
Qed.

(** Registering the current command anew is as bad as unregistering it. *)
Example current_again : rshow (do_cops fresh rhist) (fun seen => [rreg (fst (last seen ([], None)))]) 100 = UB UseAfterFree.
Proof. vm_compute. reflexivity. Qed.

Print Assumptions C89_roaming.
Print Assumptions C89_unregistering.
Print Assumptions C89_small.
Print Assumptions C89_current_refuted.
Print Assumptions C89_growth_refuted.
