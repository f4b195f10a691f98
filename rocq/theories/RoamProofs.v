(** RoamProofs: iterating over the commands while registering and unregistering others. *)
From Coq Require Import ZArith List Bool Lia Permutation Ascii.
From Verif Require Import Base HashModel HashSpec HashProofs HashFacts CmdModel CmdSpec CmdProofs RoamSpec.
Import ListNotations.
Open Scope Z_scope.

Section Proofs.
Context {P C : Type}.
Context {fk fv : list nat}.
Notation info := (cmdinfo P C).
Notation cell := (@cell str).
Notation good := (@good P C fk fv).

Definition slot (N : Z) (n : str) : Z := enhanced_hash hash_key n mod N.
(** The table does not grow for [lim] commands. *)
Definition roomy (lim : Z) (t : ht) : Prop := lim <= t_load t \/ t_prime t = prime_table_length - 1.

Lemma load_35 (s : cmds P C) e h t rows l : good s e h t rows l -> 35 <= t_load t.
Proof.
  intros G. destruct G. destruct (r_prime _ _ _ _ _ _ _ g_rep) as (i & A & _). pose proof (primes_range _ _ A) as (B & _).
  rewrite (r_load _ _ _ _ _ _ _ g_rep). unfold load_limit. apply Z.div_le_lower_bound; lia.
Qed.

Lemma cell_registered (s : cmds P C) e h t rows l c : good s e h t rows l -> In c (concat rows) ->
  exists i, snd (cont (s_mem s) c) = Some i /\ e (c_key c) = Some i.
Proof.
  intros G I. destruct (listing s e h t rows l G) as (_ & IN & _). cbn zeta in IN.
  destruct (proj1 (IN (c_key c) (snd (cont (s_mem s) c)))) as (i & E1 & E2); [|eauto].
  apply in_map_iff. exists c. auto.
Qed.
Lemma registered_cell (s : cmds P C) e h t rows l n i : good s e h t rows l -> e n = Some i -> In n (map c_key (concat rows)).
Proof.
  intros G E. destruct (listing s e h t rows l G) as (_ & IN & _). cbn zeta in IN.
  assert (I : In (n, Some i) (map (cont (s_mem s)) (concat rows))) by (apply IN; eauto).
  apply in_map_iff in I. destruct I as (c & E1 & I). inversion E1. now apply in_map.
Qed.
Lemma cell_slot (s : cmds P C) e h t A row B l c : good s e h t (A ++ row :: B) l -> In c row ->
  slot (zlen (A ++ row :: B)) (c_key c) = zlen A.
Proof.
  intros G I. destruct G. pose proof (r_bk _ _ _ _ _ _ _ g_rep) as BK. rewrite bucket_ok_app in BK. destruct BK as (_ & BK & _).
  exact (BK c I).
Qed.
Lemma cell_slot_after (s : cmds P C) e h t A row B l c : good s e h t (A ++ row :: B) l -> In c (concat B) ->
  zlen A < slot (zlen (A ++ row :: B)) (c_key c).
Proof.
  intros G I. destruct G. pose proof (r_bk _ _ _ _ _ _ _ g_rep) as BK. rewrite bucket_ok_app in BK. destruct BK as (_ & _ & BK).
  apply (bucket_range hash_key _ c B) in BK; auto. unfold slot, hv in *. lia.
Qed.

(** Where the iterator stands: on the cell [c] *)
Record stand (it : itr) (h : nat) (A : list (list cell)) (c : cell) : Prop := {
  st_h : i_h it = h; st_e : i_e it = Some (c_id c); st_i : i_index it = zlen A }.

Lemma keep_filter n (c : cell) : c_key c <> n -> filter (fun c => negb (str_eqb n (c_key c))) [c] = [c].
Proof. intros NE. cbn [filter]. destruct (str_eqb_spec n (c_key c)); [congruence|reflexivity]. Qed.
Lemma but_split n A pre (c : cell) post B : c_key c <> n ->
  exists A1 pre1 post1 B1, but n (A ++ (pre ++ c :: post) :: B) = A1 ++ (pre1 ++ c :: post1) :: B1 /\ zlen A1 = zlen A /\
    A1 = but n A /\ B1 = but n B /\ zlen B1 = zlen B /\
    post1 = filter (fun c => negb (str_eqb n (c_key c))) post.
Proof.
  intros NE. unfold but. rewrite map_app. cbn [map]. change (c :: post) with ([c] ++ post). rewrite !filter_app, keep_filter by auto.
  eexists _, _, _, _. split; [reflexivity|]. unfold zlen. rewrite !map_length. auto 8.
Qed.
Lemma in_but n (B : list (list cell)) x : In x (concat (but n B)) <-> In x (concat B) /\ c_key x <> n.
Proof.
  unfold but. induction B as [|r B IH]; cbn [map concat]; [cbn; tauto|]. rewrite !in_app_iff, IH, filter_In.
  destruct (str_eqb_spec n (c_key x)) as [->|NE]; cbn; intuition congruence.
Qed.
Lemma in_filter_key n (r : list cell) x : In x (filter (fun c => negb (str_eqb n (c_key c))) r) <-> In x r /\ c_key x <> n.
Proof. rewrite filter_In. destruct (str_eqb_spec n (c_key x)) as [->|NE]; cbn; intuition congruence. Qed.
Lemma filter_keys n (r : list cell) : map c_key (filter (fun c => negb (str_eqb n (c_key c))) r) = filter (fun k => negb (str_eqb n k)) (map c_key r).
Proof. induction r as [|c r IH]; cbn [filter map]; auto. destruct (str_eqb n (c_key c)); cbn [negb map]; now rewrite IH. Qed.

(** One call about another command leaves the iterator where it is. *)
Lemma op_keeps lim s e h t l A pre (c : cell) post B it o :
  good s e h t (A ++ (pre ++ c :: post) :: B) l -> stand it h A c -> roomy lim t ->
  allowed_cop e o -> about e o <> c_key c -> at_most lim (spec_cop e o) ->
  exists s' t' l' A' pre' post' B', do_cop s o = Ok s' /\ good s' (spec_cop e o) h t' (A' ++ (pre' ++ c :: post') :: B') l' /\
    stand it h A' c /\ roomy lim t' /\ zlen (A' ++ (pre' ++ c :: post') :: B') = zlen (A ++ (pre ++ c :: post) :: B) /\ zlen A' = zlen A /\
    length B' = length B /\ (length post' <= length post)%nat /\
    (forall x, In x post' -> In x post) /\
    (forall x, In x (c :: post ++ concat B) -> c_key x <> about e o -> In x (c :: post' ++ concat B')).
Proof.
  intros G ST RO AL NE AM. destruct (cop_ok s e h t _ l o G AL) as (s' & t' & rows' & l' & X & G' & SH).
  destruct (but_split (about e o) A pre c post B) as (A1 & pre1 & post1 & B1 & EB & EA & EA1 & EB1 & LB & EP); [congruence|].
  assert (K1 : forall x, In x post1 -> In x post) by (intros x I; rewrite EP in I; apply in_filter_key in I; tauto).
  assert (K2 : forall x, In x (c :: post ++ concat B) -> c_key x <> about e o -> In x (c :: post1 ++ concat B1)).
  { intros x [->|I] NX; [now left|]. right. rewrite in_app_iff in *. rewrite EP, EB1, in_filter_key, in_but. tauto. }
  assert (LP : (length post1 <= length post)%nat) by (rewrite EP; clear; induction post; cbn [filter]; auto; destruct (negb _); cbn; lia).
  assert (LR : zlen (but (about e o) (A ++ (pre ++ c :: post) :: B)) = zlen (A ++ (pre ++ c :: post) :: B)) by (unfold but, zlen; now rewrite map_length).
  assert (LB' : length B1 = length B) by (unfold zlen in LB; lia).
  destruct o as [n p d cx|n]; cbn [shifts about] in *.
  - destruct SH as (EL & EPR & c0 & A2 & row & B2 & Y1 & Y2 & Y3 & Y4).
    { destruct RO as [RO|RO]; [left|right; exact RO]. eapply Z.le_trans; [|exact RO].
      assert (ND := good_keys _ _ _ _ _ _ G).
      specialize (AM (meant e n :: map c_key (concat (but (meant e n) (A ++ (pre ++ c :: post) :: B))))).
      rewrite zlen_cons in AM. unfold zlen at 1 in AM. rewrite map_length in AM. apply AM.
      - constructor.
        + intros I. apply in_map_iff in I. destruct I as (x & E & I). apply in_but in I. tauto.
        + revert ND. generalize (A ++ (pre ++ c :: post) :: B). intros rs ND. unfold but.
          replace (concat (map (filter (fun c => negb (str_eqb (meant e n) (c_key c)))) rs)) with (filter (fun c => negb (str_eqb (meant e n) (c_key c))) (concat rs)).
          * rewrite filter_keys. now apply NoDup_filter.
          * clear. induction rs as [|r rs IH]; cbn [map concat]; auto. now rewrite filter_app, IH.
      - intros m [<-|I]; cbn [spec_cop]; unfold upd.
        + rewrite str_eqb_refl. discriminate.
        + apply in_map_iff in I. destruct I as (x & <- & I). apply in_but in I. destruct I as (I & NX).
          destruct (str_eqb_spec (meant e n) (c_key x)); [discriminate|].
          destruct (cell_registered _ _ _ _ _ _ _ G I) as (i & _ & ->). discriminate. }
    rewrite Y1 in LR. rewrite EB in Y1. subst rows'.
    assert (RO' : roomy lim t') by (unfold roomy; rewrite EL, EPR; exact RO).
    assert (LN : zlen (A2 ++ (c0 :: row) :: B2) = zlen (A ++ (pre ++ c :: post) :: B)).
    { rewrite <- LR. rewrite !zlen_app, !zlen_cons. lia. }
    apply app_eq_app in Y1. destruct Y1 as (D & [(E1 & E2)|(E1 & E2)]).
    + destruct D as [|r0 D]; [cbn [app] in E2; rewrite app_nil_r in E1|].
      * (* the same bucket *)
        inversion E2; subst row B2. subst A1. cbn [app] in *.
        exists s', t', l', A2, (c0 :: pre1), post1, B1. split; [exact X|]. cbn [app].
        split; [exact G'|]. split; [destruct ST; constructor; auto; congruence|].
        split; auto. split; auto. split; [congruence|]. auto 8.
      * (* a bucket that has been left behind *)
        cbn [app] in E2. inversion E2; subst r0 B2.
        exists s', t', l', (A2 ++ (c0 :: row) :: D), pre1, post1, B1. split; [exact X|].
        replace ((A2 ++ (c0 :: row) :: D) ++ (pre1 ++ c :: post1) :: B1) with (A2 ++ (c0 :: row) :: D ++ (pre1 ++ c :: post1) :: B1)
          by (rewrite <- app_assoc; reflexivity).
        assert (ZA : zlen (A2 ++ (c0 :: row) :: D) = zlen A) by (rewrite <- EA, E1, !zlen_app, !zlen_cons; lia).
        split; [exact G'|]. split; [destruct ST; constructor; auto; congruence|].
        split; [exact RO'|]. auto 8.
    + destruct D as [|r0 D]; [cbn [app] in E2; rewrite app_nil_r in E1|].
      * inversion E2; subst row B2. subst A2.
        exists s', t', l', A1, (c0 :: pre1), post1, B1. split; [exact X|]. cbn [app].
        split; [exact G'|]. split; [destruct ST; constructor; auto; congruence|].
        split; [exact RO'|]. auto 8.
      * (* a bucket still to come *)
        cbn [app] in E2. inversion E2; subst r0. subst A2.
        exists s', t', l', A1, pre1, post1, (D ++ (c0 :: row) :: B2). split; [exact X|].
        rewrite <- app_assoc in *. cbn [app] in *.
        split; [exact G'|]. split; [destruct ST; constructor; auto; congruence|].
        split; auto. split; auto. split; auto. split; [rewrite <- LB'; match goal with H : B1 = _ |- _ => rewrite H | H : _ = B1 |- _ => rewrite <- H end; rewrite !app_length; reflexivity|].
        split; auto. split; auto. intros x I NX. destruct (K2 x I NX) as [->|I2]; [now left|]. right.
        apply in_app_or in I2. apply in_or_app. destruct I2 as [I2|I2]; auto. right.
        match goal with H : B1 = _ |- _ => rewrite H in I2 | H : _ = B1 |- _ => rewrite <- H in I2 end.
        rewrite concat_app in I2. rewrite concat_app. cbn [concat] in I2 |- *. rewrite !in_app_iff in I2. rewrite !in_app_iff. cbn [In]. tauto.
  - destruct SH as (-> & EL & EPR). rewrite EB in *.
    assert (RO' : roomy lim t') by (unfold roomy; rewrite EL, EPR; exact RO).
    exists s', t', l', A1, pre1, post1, B1. split; [exact X|]. split; [exact G'|].
    split; [destruct ST; constructor; auto; congruence|]. split; [exact RO'|]. auto 8.
Qed.

(** So do several. *)
Lemma ops_keep lim os : forall s e h t l A pre (c : cell) post B it,
  good s e h t (A ++ (pre ++ c :: post) :: B) l -> stand it h A c -> roomy lim t -> mild lim (c_key c) e os ->
  exists s' t' l' A' pre' post' B', do_cops s os = Ok s' /\ good s' (spec_cops e os) h t' (A' ++ (pre' ++ c :: post') :: B') l' /\
    stand it h A' c /\ roomy lim t' /\ zlen (A' ++ (pre' ++ c :: post') :: B') = zlen (A ++ (pre ++ c :: post) :: B) /\ zlen A' = zlen A /\
    length B' = length B /\ (length post' <= length post)%nat /\
    (forall x, In x post' -> In x post) /\
    (forall x, In x (c :: post ++ concat B) -> ~ In (c_key x) (abouts e os) -> In x (c :: post' ++ concat B')).
Proof.
  induction os as [|o os IH]; intros s e h t l A pre c post B it G ST RO M; cbn [do_cops spec_cops fold_left mild abouts] in *.
  - exists s, t, l, A, pre, post, B. auto 12.
  - destruct M as (AL & NE & AM & M).
    destruct (op_keeps lim s e h t l A pre c post B it o G ST RO AL NE AM)
      as (s1 & t1 & l1 & A1 & pre1 & post1 & B1 & X & G1 & ST1 & RO1 & Z1 & Z2 & Z3 & Z4 & Z5 & Z6).
    destruct (IH s1 _ h t1 l1 A1 pre1 c post1 B1 it G1 ST1 RO1 M)
      as (s2 & t2 & l2 & A2 & pre2 & post2 & B2 & X2 & G2 & ST2 & RO2 & Y1 & Y2 & Y3 & Y4 & Y5 & Y6).
    exists s2, t2, l2, A2, pre2, post2, B2. rewrite X. cbn [bind]. split; auto. split; auto. split; auto. split; auto.
    split; [congruence|]. split; [congruence|]. split; [congruence|]. split; [lia|]. split; [auto|].
    intros x I NI. cbn [In] in NI. apply Y6; [|tauto]. apply Z6; auto.
Qed.

(** Untouched commands keep their data. *)
Lemma spec_cops_other os : forall (e : @registry P C) n, ~ In n (abouts e os) -> spec_cops e os n = e n.
Proof.
  induction os as [|o os IH]; intros e n NI; cbn [spec_cops fold_left abouts In] in *; auto.
  change (fold_left spec_cop os (spec_cop e o)) with (spec_cops (spec_cop e o) os). rewrite IH by tauto.
  destruct o; cbn [spec_cop about] in *; unfold upd; destruct (str_eqb_spec (meant e name) n); auto; tauto.
Qed.

Context (body : list (str * option info) -> list (@cop P C)).

Lemma roam_ok lim e0 : gentle body lim e0 -> forall q p s e h t l A pre (c : cell) post B it seen touched,
  length B = q -> length post = p ->
  good s e h t (A ++ (pre ++ c :: post) :: B) l -> stand it h A c -> roomy lim t -> tour body e0 e seen touched ->
  (forall n, In n (map fst seen) -> slot (zlen (A ++ (pre ++ c :: post) :: B)) n <= zlen A /\ ~ In n (map c_key (c :: post))) ->
  (forall n i, e0 n = Some i -> ~ In n touched -> In (n, Some i) seen \/ e n = Some i /\ In n (map c_key (c :: post ++ concat B))) ->
  exists k s' e' t' rows' l' seen' touched', (forall fuel, (k <= fuel)%nat -> roam body fuel s it seen = Ok (s', seen')) /\
    good s' e' h t' rows' l' /\ tour body e0 e' seen' touched' /\
    (forall n i, e0 n = Some i -> ~ In n touched' -> In (n, Some i) seen').
Proof.
  intros GE. induction q as [q IHq] using lt_wf_ind. induction p as [p IHp] using lt_wf_ind.
  intros s e h t l A pre c post B it seen touched LB LP G ST RO TO OLD NEW.
  assert (IC : In c (concat (A ++ (pre ++ c :: post) :: B))) by (apply in_row_concat, in_or_app; right; now left).
  destruct (cell_registered _ _ _ _ _ _ _ G IC) as (i & EC & EI).
  assert (NS : ~ In (c_key c) (map fst seen)) by (intros I; destruct (OLD _ I) as (_ & N); apply N; now left).
  set (seen1 := seen ++ [(c_key c, Some i)]).
  pose proof (GE e seen touched (c_key c) i TO EI NS) as M. fold seen1 in M.
  pose proof (tour_step body e0 e seen touched (c_key c) i TO EI NS) as TO1. cbn zeta in TO1. fold seen1 in TO1.
  destruct (ops_keep lim (body seen1) s e h t l A pre c post B it G ST RO M)
    as (s1 & t1 & l1 & A1 & pre1 & post1 & B1 & X & G1 & ST1 & RO1 & Z1 & Z2 & Z3 & Z4 & Z5 & Z6).
  set (e1 := spec_cops e (body seen1)) in *. set (touched1 := touched ++ abouts e (body seen1)) in *.
  assert (OLD1 : forall n, In n (map fst seen1) -> slot (zlen (A1 ++ (pre1 ++ c :: post1) :: B1)) n <= zlen A1 /\ ~ In n (map c_key post1)).
  { intros n I. rewrite Z1, Z2. unfold seen1 in I. rewrite map_app, in_app_iff in I. destruct I as [I|[<-|[]]].
    - destruct (OLD n I) as (O1 & O2). split; auto. intros I2. apply O2. right. apply in_map_iff in I2.
      destruct I2 as (x & <- & I2). apply in_map. auto.
    - cbn [fst]. rewrite (cell_slot _ _ _ _ _ _ _ _ c G) by (apply in_or_app; right; now left). split; [lia|].
      assert (ND := good_keys _ _ _ _ _ _ G1). rewrite concat_app in ND. cbn [concat] in ND. rewrite !map_app in ND. cbn [map] in ND.
      apply NoDup_app_r in ND. rewrite <- app_assoc in ND. apply NoDup_app_r in ND. cbn [app] in ND. inversion ND; subst.
      intros I2. match goal with H : ~ In _ _ |- _ => apply H end. apply in_or_app. auto. }
  assert (NEW1 : forall n j, e0 n = Some j -> ~ In n touched1 -> In (n, Some j) seen1 \/ e1 n = Some j /\ In n (map c_key (post1 ++ concat B1))).
  { intros n j E NT. unfold touched1 in NT. rewrite in_app_iff in NT. destruct (NEW n j E) as [I|(E2 & I)]; [tauto| |].
    - left. apply in_or_app. auto.
    - apply in_map_iff in I. destruct I as (x & <- & I). destruct (Z6 x I) as [<-|I2]; [tauto| |].
      + left. rewrite EI in E2. inversion E2; subst j. apply in_or_app. right. now left.
      + right. split; [|now apply in_map]. unfold e1. rewrite spec_cops_other by tauto. exact E2. }
  destruct (buckets_split hash_key _ _ _ _ _ (r_b _ _ _ _ _ _ _ (g_rep _ _ _ _ _ _ G1))) as (P' & x & Q' & ET & LPr & FP & CH & FQ).
  destruct (chain_at hash_key _ _ _ _ _ CH) as (nx & En & CP).
  destruct (advance_gen hash_key (s_mem s1) h t1 A1 (pre1 ++ c :: post1) B1 (c_id c) (node_of hash_key c nx) post1 (i_parent it)
              (r_h _ _ _ _ _ _ _ (g_rep _ _ _ _ _ _ G1)) (r_len _ _ _ _ _ _ _ (g_rep _ _ _ _ _ _ G1)) (r_b _ _ _ _ _ _ _ (g_rep _ _ _ _ _ _ G1)) En CP)
    as (it' & ret & Y & IH & D).
  assert (STEP : forall fuel, roam body (S fuel) s it seen = if ret then roam body fuel s1 it' seen1 else Ok (s1, seen1)).
  { intros fuel. cbn [roam]. unfold arg_cmd_itr_key, arg_cmd_itr_value, arg_cmd_itr_advance, arg_hashtable_itr_key, arg_hashtable_itr_value.
    destruct (buckets_split hash_key _ _ _ _ _ (r_b _ _ _ _ _ _ _ (g_rep _ _ _ _ _ _ G))) as (P0 & x0 & Q0 & _ & _ & _ & CH0 & _).
    destruct (chain_at hash_key _ _ _ _ _ CH0) as (nx0 & En0 & _).
    rewrite (st_e _ _ _ _ ST), (sread_ok _ _ _ En0). cbn [bind node_of n_k n_v].
    rewrite (sread_ok _ _ _ (r_keys _ _ _ _ _ _ _ (g_rep _ _ _ _ _ _ G) c IC)). cbn [bind].
    rewrite (content_ok hash_key _ _ _ _ _ _ _ (g_rep _ _ _ _ _ _ G) IC). cbn [bind]. rewrite EC. fold seen1. rewrite X. cbn [bind].
    rewrite (itr_eta it), (st_h _ _ _ _ ST1), (st_e _ _ _ _ ST1), (st_i _ _ _ _ ST1), Y. cbn [bind]. reflexivity. }
  destruct D as [(d & post' & EP & -> & E1 & E2 & E3)|[(EP & CQ & -> & E1 & E2)|(EP & -> & E & d & post' & Q'' & EQ & CE & E1 & E2 & E3)]].
  - (* further down the same bucket *)
    subst post1. assert (EA : pre1 ++ c :: d :: post' = (pre1 ++ [c]) ++ d :: post') by (rewrite <- app_assoc; reflexivity).
    rewrite EA in G1, OLD1.
    destruct (IHp (length post') ltac:(cbn [length] in Z4; lia) s1 e1 h t1 l1 A1 (pre1 ++ [c]) d post' B1 it' seen1 touched1)
      as (k & s' & e' & t' & rows' & l' & seen' & touched' & R & GG & TT & FF); auto; try congruence.
    { constructor; auto. }
    exists (S k), s', e', t', rows', l', seen', touched'. split; [|auto]. intros [|fuel] HF; [lia|]. rewrite STEP. apply R. lia.
  - exists 1%nat, s1, e1, t1, (A1 ++ (pre1 ++ c :: post1) :: B1), l1, seen1, touched1. split; [intros [|fuel] HF; [lia|]; apply STEP|]. split; [exact G1|]. split; auto.
    intros n j E NT. destruct (NEW1 n j E NT) as [I|(_ & I)]; auto. rewrite EP, CQ in I. destruct I.
  - subst post1 B1.
    assert (ER : A1 ++ (pre1 ++ [c]) :: E ++ (d :: post') :: Q'' = (A1 ++ (pre1 ++ [c]) :: E) ++ ([] ++ d :: post') :: Q'')
      by (rewrite <- app_assoc; reflexivity).
    rewrite ER in *.
    assert (ZA : zlen A1 < zlen (A1 ++ (pre1 ++ [c]) :: E)) by (rewrite zlen_app, zlen_cons; pose proof (zlen_nonneg E); lia).
    destruct (IHq (length Q'') ltac:(rewrite app_length in Z3; cbn [length] in Z3; lia) (length post') s1 e1 h t1 l1 (A1 ++ (pre1 ++ [c]) :: E) [] d post' Q'' it' seen1 touched1)
      as (k & s' & e' & t' & rows' & l' & seen' & touched' & R & GG & TT & FF); auto.
    { constructor; auto. }
    { intros n I. destruct (OLD1 n I) as (O1 & _). split; [lia|]. intros I2. apply in_map_iff in I2. destruct I2 as (y & <- & I2).
      pose proof (cell_slot _ _ _ _ _ _ _ _ y G1 I2). lia. }
    { intros n j E0 NT. destruct (NEW1 n j E0 NT) as [I|(I1 & I2)]; auto. right. split; auto.
      rewrite concat_app, CE in I2. cbn [app concat] in I2. exact I2. }
    exists (S k), s', e', t', rows', l', seen', touched'. split; [|auto]. intros [|fuel] HF; [lia|]. rewrite STEP. apply R. lia.
Qed.

Lemma roam_all_ok s e h t rows l n0 : good s e h t rows l -> arg_cmd_count s = Ok n0 -> gentle body (Z.max 35 n0) e ->
  exists k s' e' t' rows' l' seen touched, (forall fuel, (k <= fuel)%nat -> roam_all body fuel s = Ok (s', seen)) /\
    good s' e' h t' rows' l' /\ tour body e e' seen touched /\
    (forall n i, e n = Some i -> ~ In n touched -> In (n, Some i) seen).
Proof.
  intros G CN GE. pose proof (load_35 _ _ _ _ _ _ G) as L35. destruct (listing _ _ _ _ _ _ G) as (_ & IN & CN'). cbn zeta in *.
  rewrite CN in CN'. inversion CN' as [EN]. clear CN'. unfold roam_all. rewrite CN. cbn [bind].
  assert (RO : roomy (Z.max 35 n0) t).
  { destruct (r_full _ _ _ _ _ _ _ (g_rep _ _ _ _ _ _ G)) as [F|F]; [left|right; exact F].
    rewrite (r_count _ _ _ _ _ _ _ (g_rep _ _ _ _ _ _ G)) in F. rewrite EN. unfold zlen in *. rewrite map_length. lia. }
  destruct (Z.eqb_spec n0 0) as [E0|N0].
  - exists O, s, e, t, rows, l, [], []. split; auto. split; auto. split; [constructor|]. intros n i E.
    assert (I : In n (map c_key (concat rows))) by (eapply registered_cell; eauto).
    destruct (concat rows) as [|c r]; [destruct I|]. exfalso. rewrite EN in E0. unfold zlen in E0. cbn [map length] in E0. lia.
  - unfold arg_cmd_itr_create, table_of. rewrite (g_h _ _ _ _ _ _ G). cbn [bind].
    destruct (itr_create_ok hash_key _ _ _ _ _ _ (g_rep _ _ _ _ _ _ G)) as (it & X & AT). rewrite X. cbn [bind].
    destruct AT as (EH & AT). destruct (i_e it) as [ie|] eqn:EE.
    2:{ exfalso. rewrite AT in EN. cbn in EN. lia. }
    destruct AT as (A & pre & c & post & B & ER & EI & EP & EX & EQ). subst rows.
    destruct (roam_ok (Z.max 35 n0) e GE (length B) (length post) s e h t l A pre c post B it [] []) as (k & s' & e' & t' & rows' & l' & seen & touched & R & GG & TT & FF); auto.
    + constructor; auto. congruence.
    + constructor.
    + intros n [].
    + intros n i E _. right. split; auto. pose proof (registered_cell _ _ _ _ _ _ _ _ G E) as I. rewrite EQ in I. exact I.
    + exists k, s', e', t', rows', l', seen, touched. auto.
Qed.
End Proofs.
