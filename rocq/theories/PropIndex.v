(** C94: the index of the long option that getopt_long stores. *)
From Verif Require Import Base IntModel GetoptModel ParseModel ParseSpec GetoptProofs GetoptSay PropGetopt GetoptIdx IndexSpec.
From Coq Require Import ZArith List Ascii String Bool Lia.
Import ListNotations.
Open Scope Z_scope.

(** ** The index changes nothing else *)
Lemma fst_nbind {A B} (m : noted A) (k : A -> noted B) : fst (nbind m k) = bind (fst m) (fun x => fst (k x)).
Proof. unfold nbind, bind. destruct (fst m); reflexivity. Qed.
Lemma fst_quiet {A} (m : res A) : fst (quiet m) = m.
Proof. reflexivity. Qed.
Lemma nbind_ok {A B} (x : A) (k : A -> noted B) : nbind (quiet (Ok x)) k = k x.
Proof. unfold nbind, quiet. cbn [fst snd app]. destruct (k x); reflexivity. Qed.

Lemma long_erase opts lo st longonly s : fst (parse_long_options_i opts lo st longonly s) = parse_long_options opts lo st longonly s.
Proof.
  unfold parse_long_options_i, parse_long_options. destruct (split_eq (place s)) as [nm he].
  destruct (long_search nm st longonly lo 0 None false) as [[mtch exact] second]. destruct (negb exact && second); [reflexivity|].
  destruct mtch as [[i m]|]; [|destruct st; reflexivity].
  destruct (lo_has_arg m =? 0), he as [v|]; try reflexivity; cbv zeta; rewrite fst_nbind, fst_quiet; apply bind_ext; intros x;
    destruct (lo_has_arg m =? 1), (optarg x); reflexivity.
Qed.
Lemma short_erase nargc lopts longonly opts s : fst (gi_short_i nargc lopts longonly opts s) = gi_short nargc lopts longonly opts s.
Proof.
  unfold gi_short_i, gi_short. destruct (place s) as [|c p]; [reflexivity|].
  set (atend := match p with [] => true | _ => false end). set (s1 := set_place _ p s).
  assert (Hbad : fst (if ceqb c "-" && atend then quiet (Ok (-1, s1))
        else quiet (Ok (BADCH, set_optopt (sc c) (if atend then set_optind (optind s1 + 1) s1 else s1)))) =
     if ceqb c "-" && atend then Ok (-1, s1) else Ok (BADCH, set_optopt (sc c) (if atend then set_optind (optind s1 + 1) s1 else s1)))
    by (destruct (ceqb c "-" && atend); reflexivity).
  cbv zeta. destruct (ceqb c ":" || (ceqb c "-" && negb atend)); [exact Hbad|]. destruct (strchr opts c) as [oli|]; [|exact Hbad].
  destruct (match lopts with Some _ => _ | None => false end).
  - destruct (negb atend).
    + rewrite fst_nbind, long_erase. apply bind_ext. intros [r x]. reflexivity.
    + destruct (nargc <=? _); [reflexivity|]. rewrite fst_nbind, fst_quiet. apply bind_ext. intros [a|]; [|reflexivity].
      rewrite fst_nbind, long_erase. apply bind_ext. intros [r x]. reflexivity.
  - destruct (negb (ceqb (hd0 (tl oli)) ":")); [reflexivity|]. destruct (negb atend); [reflexivity|].
    destruct (negb (ceqb (hd0 (tl (tl oli))) ":")); [|reflexivity]. destruct (nargc <=? _); [reflexivity|].
    rewrite fst_nbind, fst_quiet. apply bind_ext. intros v. reflexivity.
Qed.
Lemma scan_erase nargc lopts longonly opts s : fst (gi_scan_i nargc lopts longonly opts s) = gi_scan nargc lopts longonly opts s.
Proof.
  unfold gi_scan_i, gi_scan. destruct lopts as [lo|]; [|apply short_erase]. rewrite fst_nbind, fst_quiet. apply bind_ext. intros _.
  destruct (negb _ && _); [|apply short_erase]. destruct (ceqb (hd0 (place s)) "-").
  - cbv zeta. destruct (place (set_place _ _ s)); [reflexivity|]. rewrite fst_nbind, long_erase. apply bind_ext. intros [r x].
    destruct (negb (r =? -1)); [reflexivity|apply short_erase].
  - cbv zeta. rewrite fst_nbind, long_erase. apply bind_ext. intros [r x].
    destruct (negb (r =? -1)); [reflexivity|apply short_erase].
Qed.
Lemma start_erase nargc lopts longonly opts permute allargs : forall fuel s,
  fst (gi_start_i nargc lopts longonly fuel opts permute allargs s) = gi_start nargc lopts longonly fuel opts permute allargs s.
Proof.
  induction fuel as [|f IH]; intros s; [reflexivity|]. cbn [gi_start_i gi_start]. destruct (optreset s || _); [|apply scan_erase].
  cbv zeta. destruct (nargc <=? _).
  { rewrite fst_nbind, fst_quiet. apply bind_ext. intros x. reflexivity. }
  rewrite fst_nbind, fst_quiet. apply bind_ext. intros [p|]; [|reflexivity]. destruct (negb (ceqb (hd0 p) "-") || _).
  - destruct allargs; [reflexivity|]. destruct (negb permute); [reflexivity|]. rewrite fst_nbind, fst_quiet. apply bind_ext. intros x. apply IH.
  - destruct (ceqb (hd0 (tl p)) "-" && _).
    + rewrite fst_nbind, fst_quiet. apply bind_ext. intros x. reflexivity.
    + apply scan_erase.
Qed.
(** What is returned, and all variables, are the same with and without the index. *)
Theorem C94_index_changes_nothing : forall posix fuel nargc options lopts s,
  fst (getopt_long_i posix fuel nargc (Some options) lopts s) = getopt_long posix fuel nargc options lopts s /\
  fst (getopt_long_only_i posix fuel nargc (Some options) lopts s) = getopt_long_only posix fuel nargc options lopts s.
Proof.
  intros. unfold getopt_long_i, getopt_long_only_i, getopt_long, getopt_long_only, getopt_internal_i, getopt_internal. split; apply start_erase.
Qed.

(** ** Which option is found *)
Lemma is_prefix_begins a b : is_prefix a b = true <-> begins a b.
Proof.
  revert b. induction a as [|x a IH]; intros b; cbn.
  - split; [intros _; exists b; reflexivity|reflexivity].
  - destruct b as [|y b]; [split; [discriminate|intros (z & E); discriminate]|]. rewrite andb_true_iff, IH. split.
    + intros [E (z & ->)]. apply ceqb_eq in E. subst y. exists z. reflexivity.
    + intros (z & E). injection E as -> ->. split; [apply ceqb_refl|exists z; reflexivity].
Qed.
Lemma begins_same nm n : begins nm n -> List.length n = List.length nm -> n = nm.
Proof. intros (x & ->) H. rewrite app_length in H. destruct x; [apply app_nil_r|cbn in H; lia]. Qed.
Lemma nth_mid {A} (l1 : list A) x l2 : nth_error (l1 ++ x :: l2) (List.length l1) = Some x.
Proof. rewrite nth_error_app2 by lia. rewrite Nat.sub_diag. reflexivity. Qed.

Section Search.
Context (nm : str) (short_too only : bool).
Let whole := short_too && Nat.eqb (List.length nm) 1.
(** What is known after the options [l] have been looked at. *)
Definition looked (l : list lopt) (m : option (Z * lopt)) (second : bool) : Prop :=
  (forall o, In o l -> lo_name o <> nm) /\
  match m with
  | None => whole = false -> forall o, In o l -> ~ begins nm (lo_name o)
  | Some (z, o) => exists k, z = Z.of_nat k /\ nth_error l k = Some o /\ whole = false /\ begins nm (lo_name o) /\
      (forall j o', (j < k)%nat -> nth_error l j = Some o' -> ~ begins nm (lo_name o')) /\
      (second = false -> forall j o', (k < j)%nat -> nth_error l j = Some o' -> begins nm (lo_name o') -> only = false /\ alike o o')
  end.
Lemma looked_step l m second x m' second' : looked l m second -> lo_name x <> nm ->
  (m' = m /\ second' = second /\ (whole = false -> ~ begins nm (lo_name x)) \/
   whole = false /\ begins nm (lo_name x) /\
   match m with
   | None => m' = Some (zlen l, x)
   | Some (_, o) => m' = m /\ (second' = false -> second = false /\ only = false /\ alike o x)
   end) -> looked (l ++ [x]) m' second'.
Proof.
  intros [H1 H2] Hx H. split; [intros o Ho; apply in_app_iff in Ho as [Ho|[<-|[]]]; auto|].
  assert (Hn : forall j o', nth_error (l ++ [x]) j = Some o' -> nth_error l j = Some o' \/ (j = List.length l /\ o' = x)).
  { intros j o' Hj. destruct (Nat.lt_ge_cases j (List.length l)); [left; rewrite nth_error_app1 in Hj; auto|].
    rewrite nth_error_app2 in Hj by auto. right. destruct (j - List.length l)%nat as [|d] eqn:E; [injection Hj as <-; split; [lia|auto]|destruct d; discriminate]. }
  assert (Hlt : forall j o', nth_error l j = Some o' -> (j < List.length l)%nat) by (intros j o' Hj; apply nth_error_Some; congruence).
  destruct H as [(-> & -> & Hb)|(Hw & Hb & Hm)].
  - destruct m as [[z o]|].
    + destruct H2 as (k & -> & Hk & Hw & Hbo & Hf & Hl). exists k. split; auto. split; [rewrite nth_error_app1; eauto|]. split; auto. split; auto. split.
      * intros j o' Hj Hj'. destruct (Hn j o' Hj') as [?|[-> ->]]; eauto.
      * intros Hs j o' Hj Hj' Hbo'. destruct (Hn j o' Hj') as [?|[-> ->]]; eauto. destruct (Hb Hw Hbo').
    + intros Hw o Ho. apply in_app_iff in Ho as [Ho|[<-|[]]]; auto.
  - destruct m as [[z o]|].
    + destruct Hm as [-> Hm]. destruct H2 as (k & -> & Hk & _ & Hbo & Hf & Hl). exists k. split; auto. split; [rewrite nth_error_app1; eauto|]. split; auto. split; auto. split.
      * intros j o' Hj Hj'. destruct (Hn j o' Hj') as [?|[-> ->]]; [eauto|]. apply Hlt in Hk. lia.
      * intros Hs j o' Hj Hj' Hbo'. destruct (Hm Hs) as (M1 & M2 & M3). destruct (Hn j o' Hj') as [?|[-> ->]]; eauto.
    + subst m'. exists (List.length l). split; [reflexivity|]. split; [rewrite nth_error_app2, Nat.sub_diag by lia; reflexivity|]. split; auto. split; auto. split.
      * intros j o' Hj Hj'. destruct (Hn j o' Hj') as [Hj2|[-> ->]]; [|lia]. apply H2; auto. eapply nth_error_In; eauto.
      * intros _ j o' Hj Hj'. destruct (Hn j o' Hj') as [Hj2|[-> ->]]; [apply Hlt in Hj2; lia|lia].
Qed.
Lemma search_looked : forall lo l m second mt ex sec, looked l m second -> long_search nm short_too only lo (zlen l) m second = (mt, ex, sec) ->
  (ex = true /\ exists k o, mt = Some (Z.of_nat k, o) /\ nth_error (l ++ lo) k = Some o /\ lo_name o = nm /\ forall j o', (j < k)%nat -> nth_error (l ++ lo) j = Some o' -> lo_name o' <> nm) \/
  (ex = false /\ looked (l ++ lo) mt sec).
Proof.
  induction lo as [|x lo IH]; intros l m second mt ex sec L H; cbn [long_search] in H.
  - injection H as <- <- <-. right. rewrite app_nil_r. auto.
  - assert (El : l ++ x :: lo = (l ++ [x]) ++ lo) by (rewrite <- app_assoc; reflexivity).
    assert (Ez : zlen l + 1 = zlen (l ++ [x])) by (rewrite zlen_app; reflexivity). rewrite Ez in H. rewrite El.
    destruct (is_prefix nm (lo_name x)) eqn:Ep; cbn [negb] in H.
    + apply is_prefix_begins in Ep. destruct (Nat.eqb_spec (List.length (lo_name x)) (List.length nm)) as [Elen|Elen].
      * injection H as <- <- <-. left. split; auto. exists (List.length l), x. split; [reflexivity|]. rewrite <- El. split; [apply nth_mid|]. split; [apply begins_same; auto|].
        intros j o' Hj Hj'. rewrite nth_error_app1 in Hj' by auto. apply (proj1 L). eapply nth_error_In; eauto.
      * assert (Hx : lo_name x <> nm) by congruence. fold whole in H. destruct whole eqn:Ew.
        -- apply IH in H; auto. apply (looked_step l m second x); auto. left. split; auto. split; auto. rewrite Ew. discriminate.
        -- destruct m as [[z o]|].
           ++ apply IH in H; auto. apply (looked_step l (Some (z, o)) second x); auto. right. split; auto. split; auto. split; auto.
              intros Hs. apply orb_false_iff in Hs as [Hs1 Hs2]. apply orb_false_iff in Hs2 as [Hs2 S4]. apply orb_false_iff in Hs2 as [Hs2 S3]. apply orb_false_iff in Hs2 as [S1 S2].
              apply negb_false_iff in S2, S3, S4. apply Z.eqb_eq in S2, S4. apply eqb_prop in S3. split; auto. split; auto. unfold alike. auto.
           ++ apply IH in H; auto. apply (looked_step l None second x); auto.
    + assert (Hnb : ~ begins nm (lo_name x)) by (intros Hb; apply is_prefix_begins in Hb; congruence).
      apply IH in H; auto. apply (looked_step l m second x); auto. intros E. apply Hnb. exists []. rewrite app_nil_r. exact E.
Qed.
Lemma search_means lo z o ex sec : long_search nm short_too only lo 0 None false = (Some (z, o), ex, sec) -> negb ex && sec = false ->
  exists k, z = Z.of_nat k /\ nth_error lo k = Some o /\ means only whole lo nm k.
Proof.
  intros H He. destruct (search_looked lo [] None false _ _ _ ltac:(split; [intros ? []|intros _ ? []]) H) as [(-> & k & o' & E & Hk & Hn & Hf)|(-> & _ & L)].
  - injection E as -> <-. exists k. split; auto. split; auto. exists o. split; auto.
  - cbn in He. subst sec. pose proof (search_looked lo [] None false _ _ _ ltac:(split; [intros ? []|intros _ ? []]) H) as [(? & _)|(_ & Hno & L')]; [discriminate|].
    destruct L as (k & -> & Hk & Hw & Hb & Hf & Hl). exists k. split; auto. split; auto. exists o. split; auto. right. split; auto. split; auto. split; auto. split; [exact Hf|exact (Hl eq_refl)].
Qed.
End Search.

(** ** What a call stores *)
(** [index_ok only lo g x w]: a call of the scanner with the long options [lo] ended with [x], the value returned and the variables,
    and stored [w] in the index; [g] is what the variable for flags was before. Either no long option was found, and neither variable
    has changed; or one was, its number is stored, once, and its value is returned or stored in the variable for flags. *)
Definition index_ok (only : bool) (lo : list lopt) (g : Z) (x : Z * gst) (w : list Z) : Prop :=
  (w = [] /\ getoptval (snd x) = g /\ fst x <> 0) \/
  exists k o nm whole, w = [Z.of_nat k] /\ nth_error lo k = Some o /\ means only whole lo nm k /\
    (if lo_flag o then fst x = 0 /\ getoptval (snd x) = lo_val o else fst x = lo_val o /\ getoptval (snd x) = g).

Section Stores.
Context (nargc : Z) (lo : list lopt) (only : bool).
Hypothesis Hval : forall o, In o lo -> lo_flag o = false -> lo_val o <> -1.
Definition all_ok (g : Z) (m : noted (Z * gst)) : Prop := forall x w, m = (Ok x, w) -> index_ok only lo g x w.

Lemma ok_quiet g r s : getoptval s = g -> r <> 0 -> all_ok g (quiet (Ok (r, s))).
Proof. intros H1 H2 x w [= <- <-]. left. auto. Qed.
Lemma ok_ub g w : all_ok g (quiet (UB w)).
Proof. intros x w' [=]. Qed.
Lemma ok_bind {A} g (m : res A) k : (forall x, m = Ok x -> all_ok g (k x)) -> all_ok g (nbind (quiet m) k).
Proof.
  intros H x w. destruct m as [y|u|]; unfold nbind, quiet; cbn [fst snd app]; [|discriminate|discriminate]. specialize (H y eq_refl). intros E. apply H. rewrite <- E. destruct (k y); reflexivity.
Qed.
Lemma badarg_nz options : BADARG options <> 0.
Proof. unfold BADARG. destruct options as [|c l]; [discriminate|]. destruct (ceqb c ":"); discriminate. Qed.

(** parse_long_options: as above, with the name in question. *)
Lemma long_stores options st s x w : parse_long_options_i options lo st only s = (Ok x, w) ->
  index_ok only lo (getoptval s) x w /\ (fst x = -1 -> w = []) /\
  (w = [] \/ exists k, w = [Z.of_nat k] /\ means only (st && Nat.eqb (List.length (name_part (place s))) 1) lo (name_part (place s)) k).
Proof.
  unfold parse_long_options_i. rewrite split_eq_parts.
  assert (Q : forall r s', getoptval s' = getoptval s -> r <> 0 -> quiet (Ok (r, s')) = (Ok x, w) ->
    index_ok only lo (getoptval s) x w /\ (fst x = -1 -> w = []) /\
    (w = [] \/ exists k, w = [Z.of_nat k] /\ means only (st && Nat.eqb (List.length (name_part (place s))) 1) lo (name_part (place s)) k)).
  { intros r s' H1 H2 [= <- <-]. split; [left; auto|]. auto. }
  destruct (long_search (name_part (place s)) st only lo 0 None false) as [[mtch exact] second] eqn:Es. destruct (negb exact && second) eqn:En; [apply Q; [reflexivity|discriminate]|].
  destruct mtch as [[z m]|]; [|destruct st; apply Q; try reflexivity; discriminate].
  destruct (search_means (name_part (place s)) st only lo z m exact second Es En) as (k & -> & Hk & Hm).
  set (s0 := set_optind (optind s + 1) s).
  assert (K : forall s1 : gst, getoptval s1 = getoptval s ->
    (_ <! note (Z.of_nat k) ;; quiet (if lo_flag m then Ok (0, set_getoptval (lo_val m) s1) else Ok (lo_val m, s1))) = (Ok x, w) ->
    index_ok only lo (getoptval s) x w /\ (fst x = -1 -> w = []) /\
    (w = [] \/ exists k, w = [Z.of_nat k] /\ means only (st && Nat.eqb (List.length (name_part (place s))) 1) lo (name_part (place s)) k)).
  { intros s1 Hg. unfold nbind, note, quiet. cbn [fst snd app]. intros [= E <-]. split; [|split; [|right; eauto]].
    - right. exists k, m. do 2 eexists. split; [reflexivity|]. split; [exact Hk|]. split; [exact Hm|]. destruct (lo_flag m); injection E as <-; cbn [fst snd]; auto.
    - intros Hx. destruct (lo_flag m) eqn:Ef; injection E as <-; cbn [fst] in Hx; [discriminate|]. destruct (Hval m (nth_error_In _ _ Hk) Ef Hx). }
  assert (G : forall s1 : gst, getoptval s1 = getoptval s ->
    match lo_has_arg m =? 1, optarg s1 with
    | true, None => quiet (Ok (BADARG options, set_optind (optind s1 - 1) (set_optopt (if lo_flag m then 0 else lo_val m) s1)))
    | _, _ => _ <! note (Z.of_nat k) ;; quiet (if lo_flag m then Ok (0, set_getoptval (lo_val m) s1) else Ok (lo_val m, s1))
    end = (Ok x, w) ->
    index_ok only lo (getoptval s) x w /\ (fst x = -1 -> w = []) /\
    (w = [] \/ exists k, w = [Z.of_nat k] /\ means only (st && Nat.eqb (List.length (name_part (place s))) 1) lo (name_part (place s)) k)).
  { intros s1 Hg. destruct (lo_has_arg m =? 1), (optarg s1); try (apply K; assumption). apply Q; [exact Hg|apply badarg_nz]. }
  assert (B : forall (mm : res gst) (kk : gst -> noted (Z * gst)), (forall s1, mm = Ok s1 -> getoptval s1 = getoptval s) ->
    (forall s1, getoptval s1 = getoptval s -> kk s1 = (Ok x, w) -> index_ok only lo (getoptval s) x w /\ (fst x = -1 -> w = []) /\
    (w = [] \/ exists k, w = [Z.of_nat k] /\ means only (st && Nat.eqb (List.length (name_part (place s))) 1) lo (name_part (place s)) k)) ->
    nbind (quiet mm) kk = (Ok x, w) -> index_ok only lo (getoptval s) x w /\ (fst x = -1 -> w = []) /\
    (w = [] \/ exists k, w = [Z.of_nat k] /\ means only (st && Nat.eqb (List.length (name_part (place s))) 1) lo (name_part (place s)) k)).
  { intros mm kk Hg Hk' E. destruct mm as [s1|u|]; [|discriminate|discriminate]. rewrite nbind_ok in E. exact (Hk' s1 (Hg s1 eq_refl) E). }
  assert (A : forall s1, (if (lo_has_arg m =? 1) || (lo_has_arg m =? 2) then
                  match value_part (place s) with
                  | Some v => Ok (set_optarg (Some v) s0)
                  | None => if lo_has_arg m =? 1 then v <- nargv_get s0 (optind s0) ;; Ok (set_optarg v (set_optind (optind s0 + 1) s0)) else Ok s0
                  end
                else Ok s0) = Ok s1 -> getoptval s1 = getoptval s).
  { intros s1. destruct ((lo_has_arg m =? 1) || (lo_has_arg m =? 2)); [|intros [= <-]; reflexivity]. destruct (value_part (place s)); [intros [= <-]; reflexivity|].
    destruct (lo_has_arg m =? 1); [|intros [= <-]; reflexivity]. destruct (nargv_get s0 (optind s0)); [|discriminate|discriminate]. intros [= <-]. reflexivity. }
  destruct (lo_has_arg m =? 0), (value_part (place s)) as [v|]; try (exact (B _ _ A G)). apply Q; [reflexivity|discriminate].
Qed.
Lemma long_then options st s k : (forall r s', getoptval s' = getoptval s -> (r = -1 \/ r <> 0) -> all_ok (getoptval s) (k (r, s'))) ->
  (forall r s', fst (k (r, s')) = Ok (r, EMSG s') /\ snd (k (r, s')) = [] \/ r = -1) ->
  all_ok (getoptval s) (nbind (parse_long_options_i options lo st only s) k).
Proof.
  intros Hk He x w. destruct (parse_long_options_i options lo st only s) as [[[r s']|u|] w1] eqn:E; unfold nbind; cbn [fst snd]; [|discriminate|discriminate].
  destruct (long_stores options st s (r, s') w1 E) as (I & Hm & _). cbn [fst] in Hm. intros H. destruct (He r s') as [[E1 E2]|Er].
  - rewrite E1, E2, app_nil_r in H. injection H as <- <-. destruct I as [(I1 & I2 & I3)|I]; [left; auto|right; exact I].
  - specialize (Hm Er). subst w1. destruct I as [(_ & I2 & I3)|(k0 & o & nm & wh & I0 & _)]; [|discriminate]. cbn [snd] in I2. apply (Hk r s' I2 (or_introl Er)). rewrite <- H. destruct (k (r, s')). reflexivity.
Qed.

Lemma short_stores options s : cstr options -> all_ok (getoptval s) (gi_short_i nargc (Some lo) only options s).
Proof.
  intros Hc. unfold gi_short_i. destruct (place s) as [|c p]; [apply ok_ub|].
  set (atend := match p with [] => true | _ => false end). set (s1 := set_place _ p s).
  assert (Hbad : all_ok (getoptval s) (if ceqb c "-" && atend then quiet (Ok (-1, s1))
        else quiet (Ok (BADCH, set_optopt (sc c) (if atend then set_optind (optind s1 + 1) s1 else s1))))).
  { destruct (ceqb c "-" && atend); apply ok_quiet; try discriminate; try reflexivity. destruct atend; reflexivity. }
  cbv zeta. destruct (ceqb c ":" || (ceqb c "-" && negb atend)); [exact Hbad|]. destruct (strchr options c) as [oli|] eqn:Eo; [|exact Hbad].
  assert (Hnz : sc c <> 0) by (intros E; apply sc_zero in E; subst c; apply Hc; eapply strchr_in; exact Eo).
  destruct (ceqb c "W" && ceqb (hd0 (tl oli)) ";").
  - assert (T : forall st z, all_ok (getoptval z) ('(r, s) <! parse_long_options_i options lo st only z ;; quiet (Ok (r, EMSG s)))).
    { intros st z. apply long_then; [|intros r s'; left; split; reflexivity]. intros r s' Hg [->|Hr]; apply ok_quiet; auto. discriminate. }
    destruct (negb atend); [exact (T false s1)|]. destruct (nargc <=? _); [apply ok_quiet; [reflexivity|apply badarg_nz]|].
    apply ok_bind. intros [a|] _; [|apply ok_ub]. exact (T false (set_place 0 a (set_optind (optind s1 + 1) s1))).
  - destruct (negb (ceqb (hd0 (tl oli)) ":")); [apply ok_quiet; [destruct atend; reflexivity|exact Hnz]|].
    destruct (negb atend); [apply ok_quiet; [reflexivity|exact Hnz]|].
    destruct (negb (ceqb (hd0 (tl (tl oli))) ":")); [|apply ok_quiet; [reflexivity|exact Hnz]].
    destruct (nargc <=? _); [apply ok_quiet; [reflexivity|apply badarg_nz]|]. apply ok_bind. intros v _. apply ok_quiet; [reflexivity|exact Hnz].
Qed.
Lemma scan_stores options s : cstr options -> all_ok (getoptval s) (gi_scan_i nargc (Some lo) only options s).
Proof.
  intros Hc. unfold gi_scan_i. apply ok_bind. intros _ _. destruct (negb _ && _); [|apply short_stores; exact Hc].
  assert (T : forall st z, all_ok (getoptval z) ('(r, s) <! parse_long_options_i options lo st only z ;; if negb (r =? -1) then quiet (Ok (r, EMSG s)) else gi_short_i nargc (Some lo) only options s)).
  { intros st z. apply long_then.
    - intros r s' Hg Hr. destruct (Z.eqb_spec r (-1)); cbn [negb]; [rewrite <- Hg; apply short_stores; exact Hc|]. apply ok_quiet; auto. destruct Hr; [contradiction|auto].
    - intros r s'. destruct (Z.eqb_spec r (-1)); [right; auto|left; split; reflexivity]. }
  destruct (ceqb (hd0 (place s)) "-").
  - cbv zeta. set (s1 := set_place _ _ s). destruct (place s1) as [|c p]; [apply ok_quiet; [reflexivity|apply badarg_nz]|]. exact (T false s1).
  - cbv zeta. apply T.
Qed.
Lemma start_stores options permute allargs : cstr options -> forall fuel s, all_ok (getoptval s) (gi_start_i nargc (Some lo) only fuel options permute allargs s).
Proof.
  intros Hc. induction fuel as [|f IH]; intros s; [intros x w [=]|]. cbn [gi_start_i]. destruct (optreset s || _); [|apply scan_stores; exact Hc].
  cbv zeta. destruct (nargc <=? _).
  { apply ok_bind. intros s1 E. apply ok_quiet; [|discriminate]. cbn [getoptval set_nonopt].
    destruct (negb (nonopt_end _ =? -1)); [destruct (permute_args _ _ _ _); [|discriminate|discriminate]; injection E as <-; reflexivity|].
    destruct (negb (nonopt_start _ =? -1)); injection E as <-; reflexivity. }
  apply ok_bind. intros [p|] _; [|apply ok_ub]. destruct (negb (ceqb (hd0 p) "-") || _).
  - destruct allargs; [apply ok_quiet; [reflexivity|discriminate]|]. destruct (negb permute); [apply ok_quiet; [reflexivity|discriminate]|].
    apply ok_bind. intros s1 E. assert (Hg : getoptval s1 = getoptval s).
    { destruct (nonopt_start _ =? -1); [injection E as <-; reflexivity|]. destruct (negb (nonopt_end _ =? -1)); [|injection E as <-; reflexivity].
      destruct (permute_args _ _ _ _); [|discriminate|discriminate]. injection E as <-. reflexivity. }
    rewrite <- Hg. exact (IH (set_optind (optind s1 + 1) s1)).
  - set (s1 := if negb (nonopt_start (set_optreset false s) =? -1) && (nonopt_end (set_optreset false s) =? -1) then set_nonopt (nonopt_start (set_optreset false s)) (optind (set_optreset false s)) (set_optreset false s) else set_optreset false s).
    assert (Hg : getoptval s1 = getoptval s) by (unfold s1; destruct (negb _ && _); reflexivity). clearbody s1.
    destruct (ceqb (hd0 (tl p)) "-" && _).
    + apply ok_bind. intros s2 E. apply ok_quiet; [|discriminate]. cbn [getoptval set_nonopt].
      destruct (negb (nonopt_end _ =? -1)); [destruct (permute_args _ _ _ _); [|discriminate|discriminate]|]; injection E as <-; exact Hg.
    + rewrite <- Hg. exact (scan_stores options (set_place 1 (tl p) s1) Hc).
Qed.
End Stores.

(** For every call, whatever was scanned before: if a long option is found its number is stored, and only then; it is the one that
    some name means. A call that returns 0 has just stored it, so a program that uses the variable for flags knows the option. *)
Theorem C94_index : forall (only : bool) posix fuel nargc options lo s r s' w,
  cstr options -> (forall o, In o lo -> lo_flag o = false -> lo_val o <> -1) ->
  (if only then getopt_long_only_i else getopt_long_i) posix fuel nargc (Some options) lo s = (Ok (r, s'), w) ->
  (w = [] /\ getoptval s' = getoptval s /\ r <> 0) \/
  exists k o nm whole, w = [Z.of_nat k] /\ nth_error lo k = Some o /\ means only whole lo nm k /\
    (if lo_flag o then r = 0 /\ getoptval s' = lo_val o else r = lo_val o /\ getoptval s' = getoptval s).
Proof.
  intros only posix fuel nargc options lo s r s' w Hc Hval.
  assert (K : getopt_internal_i posix nargc (Some lo) only fuel (Some options) true s = (Ok (r, s'), w) -> index_ok only lo (getoptval s) (r, s') w).
  { unfold getopt_internal_i. set (s1 := if optind s =? 0 then set_optreset true (set_optind 1 s) else s). set (s2 := if (posixly s1 =? -1) || optreset s1 then set_posixly (if posix then 1 else 0) s1 else s1).
    set (s3 := if optreset (set_optarg None s2) then set_nonopt (-1) (-1) (set_optarg None s2) else set_optarg None s2).
    assert (Hg : getoptval s3 = getoptval s).
    { unfold s3. destruct (optreset (set_optarg None s2)); cbn; unfold s2; destruct ((posixly s1 =? -1) || optreset s1); cbn; unfold s1; destruct (optind s =? 0); reflexivity. }
    clearbody s3. rewrite <- Hg. apply start_stores; [exact Hval|].
    destruct (ceqb (hd0 options) "+" || ceqb (hd0 options) "-"); [|exact Hc]. intros H. apply Hc. destruct options; [destruct H|right; exact H]. }
  destruct only; exact K.
Qed.

(** ** The name in question *)
Lemma enter_word_i posix options lo pre p rest s n :
  at_word posix pre (@cons str ("-"%char :: p) rest) s -> p <> [] -> p <> ["-"%char] -> hd0 options <> "+"%char -> hd0 options <> "-"%char ->
  exists s', place_off s' = 1 /\ place s' = p /\ nargv s' = nargv s /\ optind s' = zlen pre /\ optarg s' = None /\
  forall only, getopt_internal_i posix (zlen (nargv s)) (Some lo) only (S n) (Some options) true s = gi_scan_i (zlen (nargv s)) (Some lo) only options s'.
Proof.
  intros [Ha Hi Hp Hx Hnew] Hp0 Hp1 H1 H2.
  set (s1 := if optreset (set_optarg None s) then set_nonopt (-1) (-1) (set_optarg None s) else set_optarg None s).
  assert (Es : nargv s1 = nargv s /\ optind s1 = optind s /\ (optreset s1 = true \/ place s1 = []) /\ optarg s1 = None /\ nonopt_start s1 = -1 /\ nonopt_end s1 = -1).
  { unfold s1. change (optreset (set_optarg None s)) with (optreset s). destruct (optreset s) eqn:Er; [repeat split; auto|].
    destruct Hnew as [?|(? & ? & ?)]; [congruence|]. repeat split; auto. }
  destruct Es as (En & Ei & Enew & Eo & Ens & Ene). exists (set_place 1 p (set_optreset false s1)). do 5 (split; [cbn; congruence|]). intros only.
  unfold getopt_internal_i. apply ceqb_neq in H1, H2. rewrite H1, H2. cbn [orb]. destruct (Z.eqb_spec (optind s) 0); [lia|].
  set (s2 := if (posixly s =? -1) || optreset s then set_posixly (if posix then 1 else 0) s else s).
  assert (E2 : s2 = s) by (unfold s2; destruct ((posixly s =? -1) || optreset s); [destruct s; cbn in *; subst; reflexivity|reflexivity]).
  rewrite E2. clear s2 E2. set (perm := if negb (posixly s =? 0) || false then false else true). fold s1. clearbody s1. cbn [gi_start_i].
  assert (Ecnd : optreset s1 || match place s1 with [] => true | _ => false end = true) by (destruct Enew as [->| ->]; [reflexivity|apply orb_true_r]).
  rewrite Ecnd. clear Ecnd Enew. change (optind (set_optreset false s1)) with (optind s1). rewrite Ei, Hi.
  assert (Hlen : zlen (nargv s) = zlen pre + 1 + zlen rest) by (rewrite Ha, zlen_app, zlen_cons; lia).
  pose proof (zlen_nonneg rest). destruct (Z.leb_spec (zlen (nargv s)) (zlen pre)); [lia|].
  rewrite (nargv_get_app (set_optreset false s1) pre ("-"%char :: p) rest) by (cbn [nargv set_optreset set_place]; rewrite En; exact Ha). rewrite nbind_ok.
  cbn [hd0 tl]. change (ceqb "-" "-") with true. change (nonopt_start (set_optreset false s1)) with (nonopt_start s1). rewrite Ens.
  cbn [negb orb andb Z.eqb Pos.eqb]. destruct p as [|b p']; [congruence|]. cbn iota. cbn [hd0 tl].
  assert (Ec : ceqb b "-" && match p' with [] => true | _ => false end = false).
  { destruct p'; [|apply andb_false_r]. rewrite andb_true_r. apply ceqb_neq. congruence. }
  rewrite Ec. reflexivity.
Qed.
(** What the answer of C84 stores. *)
Definition stores (only whole : bool) (lo : list lopt) (body : str) (ans : answer) (w : list Z) : Prop :=
  match ans with
  | Complains _ _ => w = []
  | Reports o _ _ => exists k, w = [Z.of_nat k] /\ nth_error lo k = Some o /\ means only whole lo (name_part body) k
  end.
Lemma long_index dash only short_too options lo pre body rest s :
  let whole := short_too && Nat.eqb (List.length (name_part body)) 1 in
  place s = body -> (exists w, nargv s = pre ++ w :: rest) -> optind s = zlen pre -> optarg s = None ->
  (forall o, In o lo -> lo_has_arg o = 0 \/ lo_has_arg o = 1 \/ lo_has_arg o = 2) ->
  stores only whole lo body (long_answer dash only whole lo body rest) (snd (parse_long_options_i options lo short_too only s)).
Proof.
  intros whole Epl (w & Ha) Hi Ho Hha. pose proof (search_found short_too only (name_part body) lo 0 None false) as Hsf. cbv zeta in Hsf. fold whole in Hsf.
  assert (Hfl : match find_long only whole lo (name_part body) with
    | Ambiguous => exists m, long_search (name_part body) short_too only lo 0 None false = (m, false, true)
    | NotFound => long_search (name_part body) short_too only lo 0 None false = (None, false, false)
    | Found o => In o lo /\ exists j ex sec, long_search (name_part body) short_too only lo 0 None false = (Some (j, o), ex, sec) /\ negb ex && sec = false
    end).
  { unfold find_long. destruct (find _ lo) as [o|] eqn:Ef.
    - split; [apply find_some in Ef; tauto|]. destruct Hsf as (j & sec & E). exists j, true, sec. auto.
    - destruct (filter _ lo) as [|o r] eqn:Efi; [exact Hsf|]. destruct Hsf as (j & E). cbn [orb] in E. destruct (forallb (fun o' => negb only && same_use o o') r).
      + split; [|exists j, false, false; auto]. assert (Hin : In o (o :: r)) by (left; reflexivity). rewrite <- Efi in Hin. apply filter_In in Hin. tauto.
      + exists (Some (j, o)). exact E. }
  clear Hsf. unfold parse_long_options_i, long_answer. rewrite Epl, split_eq_parts.
  destruct (find_long only whole lo (name_part body)) as [o| |].
  2:{ destruct Hfl as [m ->]. reflexivity. }
  2:{ rewrite Hfl. cbn [negb andb]. destruct short_too; reflexivity. }
  destruct Hfl as (Hin & j & ex & sec & Es & Ex). rewrite Es, Ex. specialize (Hha o Hin). cbv zeta.
  destruct (search_means (name_part body) short_too only lo j o ex sec Es Ex) as (k & -> & Hk & Hm). fold whole in Hm.
  set (s1 := set_optind (optind s + 1) s).
  assert (Hok : forall (x : gst) v u, stores only whole lo body (Reports o v u) (snd (_ <! note (Z.of_nat k) ;; quiet (if lo_flag o then Ok (0, set_getoptval (lo_val o) x) else Ok (lo_val o, x))))).
  { intros x v u. cbn. eauto. }
  destruct Hha as [E|[E|E]]; rewrite E; cbn [Z.eqb Pos.eqb orb].
  - destruct (value_part body) as [v|]; [reflexivity|]. rewrite nbind_ok. apply Hok.
  - destruct (value_part body) as [v|]; [rewrite nbind_ok; apply Hok|].
    assert (Eg : nargv_get s1 (optind s1) = Ok (hd_error rest)).
    { change (optind s1) with (optind s + 1). rewrite Hi. destruct rest as [|v rest].
      - replace (zlen pre + 1) with (zlen (nargv s1)) by (cbn; rewrite Ha, zlen_app, zlen_cons, zlen_nil; lia). apply nargv_get_end.
      - replace (zlen pre + 1) with (zlen (pre ++ [w])) by (rewrite zlen_app, zlen_cons, zlen_nil; lia). apply nargv_get_app with (rest := rest).
        cbn. rewrite Ha, <- app_assoc. reflexivity. }
    rewrite Eg. cbn [bind]. rewrite nbind_ok. cbn [optarg set_optarg]. destruct rest as [|v rest]; cbn [hd_error]; [reflexivity|apply Hok].
  - destruct (value_part body) as [v|]; rewrite nbind_ok; apply Hok.
Qed.
Lemma long_tells dash only short_too options lo pre body rest s :
  let whole := short_too && Nat.eqb (List.length (name_part body)) 1 in
  let ans := long_answer dash only whole lo body rest in
  place s = body -> (exists w, nargv s = pre ++ w :: rest) -> optind s = zlen pre -> optarg s = None ->
  (forall o, In o lo -> lo_has_arg o = 0 \/ lo_has_arg o = 1 \/ lo_has_arg o = 2) ->
  (forall o, In o lo -> lo_flag o = false -> lo_val o <> -1) ->
  (short_too = true -> find_long only whole lo (name_part body) <> NotFound) ->
  exists r s' w, parse_long_options_i options lo short_too only s = (Ok (r, s'), w) /\ r <> -1 /\ stores only whole lo body ans w /\ long_result options s r s' ans.
Proof.
  intros whole ans Epl Ha Hi Ho Hha Hval Hst.
  destruct (long_outcome dash only short_too false options lo pre body rest s Epl Ha Hi Ho Hha Hval Hst) as (r & s' & E & Hr & En & Hres).
  pose proof (long_index dash only short_too options lo pre body rest s Epl Ha Hi Ho Hha) as Hs. cbv zeta in Hs. fold whole in Hs, Hres. fold ans in Hs, Hres.
  pose proof (parse_long_erase false dash options lo short_too only s) as E1. rewrite E in E1. cbn [fst] in E1. rewrite <- (long_erase options lo short_too only s) in E1.
  exists r, s', (snd (parse_long_options_i options lo short_too only s)). split; [rewrite E1; destruct (parse_long_options_i options lo short_too only s); reflexivity|].
  split; [exact Hr|]. split; [exact Hs|]. split; [exact En|]. rewrite Hi. exact Hres.
Qed.

(** The argument --name or --name=value: both functions store the number of the option that the name means, if they report it. *)
Theorem C94_long_option (only posix : bool) options lo pre body rest s :
  at_word posix pre (@cons str (lit "--" ++ body) rest) s -> body <> [] ->
  hd0 options <> "+"%char -> hd0 options <> "-"%char ->
  (forall o, In o lo -> lo_has_arg o = 0 \/ lo_has_arg o = 1 \/ lo_has_arg o = 2) ->
  (forall o, In o lo -> lo_flag o = false -> lo_val o <> -1) ->
  let ans := long_answer (lit "--") only false lo body rest in
  exists r s' w, (if only then getopt_long_only_i else getopt_long_i) posix (S (List.length (nargv s))) (zlen (nargv s)) (Some options) lo s = (Ok (r, s'), w) /\
    stores only false lo body ans w /\ long_result options s r s' ans.
Proof.
  intros Hat Hbody H1 H2 Hha Hval ans.
  assert (K : exists r s' w, getopt_internal_i posix (zlen (nargv s)) (Some lo) only (S (List.length (nargv s))) (Some options) true s = (Ok (r, s'), w) /\
    stores only false lo body ans w /\ long_result options s r s' ans); [|destruct only; exact K].
  destruct (enter_word_i posix options lo pre ("-"%char :: body) rest s (List.length (nargv s)) Hat ltac:(discriminate) ltac:(congruence) H1 H2)
    as (s2 & Eoff & Ep2 & E2n & E2i & E2o & Eent).
  pose proof (w_argv _ _ _ _ Hat) as Ha. rewrite Eent. unfold gi_scan_i. rewrite E2i.
  rewrite (nargv_get_app _ pre (lit "--" ++ body) rest) by (rewrite E2n; exact Ha). rewrite nbind_ok, Eoff, Ep2.
  cbn [Z.eqb negb hd0 tl]. change (ceqb "-" "-") with true. cbn [orb andb].
  set (s3 := set_place (1 + 1) body s2). assert (Epl : place s3 = body) by reflexivity. rewrite Epl.
  destruct (long_tells (lit "--") only false options lo pre body rest s3 Epl ltac:(eexists; cbn; rewrite E2n; exact Ha) E2i E2o Hha Hval ltac:(discriminate))
    as (r & s4 & w & E & Hr & Hs & E4n & Hcase).
  exists r, (EMSG s4), w. destruct body as [|b body]; [congruence|]. split.
  - rewrite E. unfold nbind. cbn [fst snd]. apply Z.eqb_neq in Hr. rewrite Hr. cbn. rewrite app_nil_r. reflexivity.
  - split; [exact Hs|]. split; [cbn; rewrite E4n; exact E2n|]. rewrite (w_ind _ _ _ _ Hat). cbn [andb] in Hcase. change (optind s3) with (optind s2) in Hcase. rewrite E2i in Hcase. exact Hcase.
Qed.
(** The argument -name or -name=value and getopt_long_only, if it does not begin with an option letter. *)
Theorem C94_one_dash posix options lo pre body rest s :
  at_word posix pre (@cons str (lit "-" ++ body) rest) s -> body <> [] -> hd0 body <> "-"%char -> ~ short_option options (hd0 body) ->
  hd0 options <> "+"%char -> hd0 options <> "-"%char ->
  (forall o, In o lo -> lo_has_arg o = 0 \/ lo_has_arg o = 1 \/ lo_has_arg o = 2) ->
  (forall o, In o lo -> lo_flag o = false -> lo_val o <> -1) ->
  let ans := long_answer (lit "-") true false lo body rest in
  exists r s' w, getopt_long_only_i posix (S (List.length (nargv s))) (zlen (nargv s)) (Some options) lo s = (Ok (r, s'), w) /\
    stores true false lo body ans w /\ long_result options s r s' ans.
Proof.
  intros Hat Hbody Hb Hso H1 H2 Hha Hval ans. unfold getopt_long_only_i.
  destruct (enter_word_i posix options lo pre body rest s (List.length (nargv s)) Hat Hbody ltac:(intros ->; apply Hb; reflexivity) H1 H2)
    as (s2 & Eoff & Ep2 & E2n & E2i & E2o & Eent).
  pose proof (w_argv _ _ _ _ Hat) as Ha. rewrite Eent. unfold gi_scan_i. rewrite E2i.
  rewrite (nargv_get_app _ pre (lit "-" ++ body) rest) by (rewrite E2n; exact Ha). rewrite nbind_ok, Eoff, Ep2.
  apply ceqb_neq in Hb. rewrite Hb. cbn [Z.eqb negb orb andb]. rewrite (proj2 (short_option_b options (hd0 body)) Hso).
  destruct (long_tells (lit "-") true false options lo pre body rest s2 Ep2 ltac:(eexists; rewrite E2n; exact Ha) E2i E2o Hha Hval ltac:(discriminate))
    as (r & s4 & w & E & Hr & Hs & E4n & Hcase).
  exists r, (EMSG s4), w. split.
  - rewrite E. unfold nbind. cbn [fst snd]. apply Z.eqb_neq in Hr. rewrite Hr. cbn. rewrite app_nil_r. reflexivity.
  - split; [exact Hs|]. split; [cbn; rewrite E4n; exact E2n|]. rewrite (w_ind _ _ _ _ Hat). cbn [andb] in Hcase. rewrite E2i in Hcase. exact Hcase.
Qed.

(** ** What the variable does not tell *)
(** After an option letter the variable still holds the number of an earlier long option: here --output=x and then -v, which is not
    a long option at all. A program must look at what the call returns before it looks at the variable. *)
Theorem C94_stale_refuted : exists options lo words s1 s2 r2 w1 w2,
  getopt_long_i false 9 3 (Some options) lo (argv_state words) = (Ok (111, s1), w1) /\
  getopt_long_i false 9 3 (Some options) lo s1 = (Ok (r2, s2), w2) /\
  r2 = 118 /\ idx_after (idx_after 0 w1) w2 = 2.
Proof.
  exists (lit "v"), ex_lopts, ["prog"; "--output=x"; "-v"]%string. do 5 eexists. split; [vm_compute; reflexivity|]. split; [vm_compute; reflexivity|].
  split; reflexivity.
Qed.
(** An option whose value is -1: its number is stored, but the call takes the argument for a cluster of letters and reports one. *)
Theorem C94_minus_one_refuted : exists options lo words s' r w o,
  getopt_long_i false 9 2 (Some options) lo (argv_state words) = (Ok (r, s'), w) /\
  w = [0] /\ nth_error lo 0 = Some o /\ lo_flag o = false /\ r <> lo_val o /\ r = 118.
Proof.
  exists (lit "v"), [{| lo_name := lit "verbose"; lo_has_arg := 0; lo_flag := false; lo_val := -1 |}], ["prog"; "--verbose"]%string.
  do 4 eexists. split; [vm_compute; reflexivity|]. repeat split; try reflexivity. discriminate.
Qed.

(** ** Examples *)
(** All calls of a scan: what each returned and what it stored. *)
Fixpoint tells (call : gst -> noted (Z * gst)) (n : nat) (s : gst) : list (Z * list Z) :=
  match n with
  | O => []
  | S n => match call s with
           | (Ok (r, s'), w) => (r, w) :: (if r =? -1 then [] else tells call n s')
           | _ => []
           end
  end.
Definition flag_lopts : list lopt :=
  ex_lopts ++ [{| lo_name := lit "debug"; lo_has_arg := 0; lo_flag := true; lo_val := 7 |}; {| lo_name := lit "out"; lo_has_arg := 2; lo_flag := false; lo_val := 79 |}].
(** A beginning of two names, one of one name, a whole name that begins another, a name whose option has a flag, -W with a name, a
    letter, a missing value. *)
Example C94_index_case :
  tells (getopt_long_i false 20 9 (Some (lit "vW;")) flag_lopts) 20 (argv_state ["prog"; "--ver"; "--outp=y"; "--out"; "--deb"; "-Wvers"; "-v"; "x"; "--output"]%string) =
    [(63, []); (111, [2]); (79, [4]); (0, [3]); (86, [1]); (118, []); (63, []); (-1, [])] /\
  cstr (lit "vW;") /\ (forall o, In o flag_lopts -> lo_flag o = false -> lo_val o <> -1) /\
  means false false flag_lopts (lit "out") 4 /\ means false false flag_lopts (lit "outp") 2.
Proof.
  split; [vm_compute; reflexivity|]. split; [intros H; repeat (destruct H as [H|H]; [discriminate|]); destruct H|].
  split; [intros o H _; repeat (destruct H as [<-|H]; [discriminate|]); destruct H|]. split.
  - eexists. split; [reflexivity|]. left. split; [reflexivity|]. intros j o' Hj E.
    do 4 (destruct j as [|j]; [injection E as <-; discriminate|]). lia.
  - eexists. split; [reflexivity|]. right. split; [reflexivity|]. split; [intros o' H; repeat (destruct H as [<-|H]; [discriminate|]); destruct H|].
    split; [exists (lit "ut"); reflexivity|]. split; intros j o' Hj E.
    + do 2 (destruct j as [|j]; [injection E as <-; intros (x & Ex); discriminate|]). lia.
    + do 3 (destruct j as [|j]; [lia|]). intros (x & Ex). do 2 (destruct j as [|j]; [injection E as <-; discriminate|]). destruct j; discriminate.
Qed.
Example C94_long_option_case :
  at_word false [lit "prog"] (@cons str (lit "--" ++ lit "out=y") [lit "z"]) (begun false (argv_state ["prog"; "--out=y"; "z"]%string)) /\
  (forall o, In o flag_lopts -> lo_has_arg o = 0 \/ lo_has_arg o = 1 \/ lo_has_arg o = 2) /\
  snd (getopt_long_i false 4 3 (Some (lit "v")) flag_lopts (begun false (argv_state ["prog"; "--out=y"; "z"]%string))) = [4].
Proof.
  split; [apply (begun_at false (lit "prog") _ _ (argv_begins ["prog"; "--out=y"; "z"]%string))|]. split; [|vm_compute; reflexivity].
  intros o H. repeat (destruct H as [<-|H]; [cbn; auto|]). destruct H.
Qed.
Example C94_one_dash_case :
  tells (getopt_long_only_i false 20 5 (Some (lit "vxo:")) flag_lopts) 20 (argv_state ["prog"; "-vers"; "-debug"; "-o"; "z"]%string) =
    [(86, [1]); (0, [3]); (111, []); (-1, [])] /\
  at_word false [lit "prog"] (@cons str (lit "-" ++ lit "debug") []) (begun false (argv_state ["prog"; "-debug"]%string)) /\
  ~ short_option (lit "vxo:") "d".
Proof.
  split; [vm_compute; reflexivity|]. split; [apply (begun_at false (lit "prog") _ _ (argv_begins ["prog"; "-debug"]%string))|].
  intros [_ H]; vm_compute in H; intuition discriminate.
Qed.
Print Assumptions C94_index_changes_nothing.
Print Assumptions C94_index.
Print Assumptions C94_long_option.
Print Assumptions C94_one_dash.
Print Assumptions C94_stale_refuted.
Print Assumptions C94_minus_one_refuted.
