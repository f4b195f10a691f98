(** C78: the build in which one dash introduces long options too (ARGTABLE3_LONG_ONLY in CMakeLists.txt line 44, argtable3.c lines
    254-258). arg_parse is that of ParseModel.v with getopt_long_only in place of getopt_long. *)
From Verif Require Import Base IntModel IntSpec IntProofs FileModel FileSpec DateModel DateSpec GetoptModel ParseModel ParseSpec LongOnlySpec GetoptProofs ParseIdeal ParseProofs ParseFacts ParseObserve ParseSafe ParseLemmas LongOnlyFacts ArgModel KindsSpec KindsProofs PropKinds.
From Verif Require ExTable.
From Coq Require Import ZArith List Ascii String Bool Lia.
Import ListNotations.
Open Scope Z_scope.

(** ** What is implied, written out *)
(** The text behind the first dash of an argument, with a dash put in front of the long option in it, if there is one that has none. *)
Fixpoint explicit_cluster (t : list hdr) (cs : str) : str :=
  match cs with
  | [] => []
  | c :: cs' =>
      if ceqb c "-" then cs
      else match long_lookup true (declared t c) t (name_part cs) with
      | Is _ _ => "-"%char :: cs
      | _ =>
          match short_find t 0 c with
          | Some (_, h) => match short_takes h with TNo => c :: explicit_cluster t cs' | _ => cs end
          | None => cs
          end
      end
  end.
Definition explicit (t : list hdr) (a : str) : str := "-"%char :: explicit_cluster t (tl a).
(** The same for a command line; values of options and what follows the argument [--] stay as they are. *)
Fixpoint explicit_args (posix : bool) (t : list hdr) (args : list str) : list str :=
  match args with
  | [] => []
  | a :: rest =>
      if is_positional a then if posix then args else a :: explicit_args posix t rest
      else if str_eqb a (lit "--") then args
      else match snd (read_cluster_in true t a (tl a) (hd_error rest)), rest with
      | Some true, v :: rest' => explicit t a :: v :: explicit_args posix t rest'
      | _, _ => explicit t a :: explicit_args posix t rest
      end
  end.

Lemma lookup_weaken lo exactly t nm i h : long_lookup lo exactly t nm = Is i h -> long_lookup false false t nm = Is i h.
Proof.
  unfold long_lookup. cbn [andb]. destruct (find _ (long_names t 0)) as [[n [i' h']]|]; [auto|].
  destruct (exactly && (List.length nm =? 1)%nat); [discriminate|].
  destruct (filter _ (long_names t 0)) as [|[n [i' h']] r]; [auto|].
  destruct lo; [|auto]. destruct r; [|discriminate]. auto.
Qed.
Lemma read_found_explicit t a a' exactly body next : clean (fst (read_found (long_lookup true exactly t (name_part body)) a body next)) ->
  read_long t a' body next = read_found (long_lookup true exactly t (name_part body)) a body next.
Proof.
  intros H. destruct (read_found_is _ _ _ _ H) as (i & h & E). rewrite <- read_long_default, (lookup_weaken _ _ _ _ _ _ E).
  rewrite E in *. apply read_found_text, H.
Qed.
Lemma read_cluster_explicit t a a' next : forall cs ev u, read_cluster_in true t a cs next = (ev, Some u) -> clean ev ->
  read_cluster t a' (explicit_cluster t cs) next = (ev, Some u).
Proof.
  induction cs as [|c cs IH]; intros ev u; cbn [read_cluster_in explicit_cluster]; [auto|].
  destruct (ceqb c "-") eqn:Ec.
  { cbn [read_cluster]. rewrite Ec. destruct cs as [|c' cs']; [discriminate|].
    destruct (read_found _ a (c' :: cs') next) as [ev' u'] eqn:E. intros [= <- <-] H.
    rewrite (read_found_explicit t a a' false); rewrite E; [reflexivity|exact H]. }
  unfold as_long. cbn [hd0].
  destruct (long_lookup true (declared t c) t (name_part (c :: cs))) as [i h| |] eqn:El.
  { destruct (read_found (Is i h) a (c :: cs) next) as [ev' u'] eqn:E. intros [= <- <-] H.
    cbn [read_cluster]. change (ceqb "-" "-") with true. cbn iota.
    rewrite (read_found_explicit t a a' (declared t c)); rewrite El, E; [reflexivity|exact H]. }
  { intros [= <- <-] H. elim (not_clean _ _ _ H). }
  unfold declared in *. destruct (short_find t 0 c) as [[i h]|] eqn:Es.
  - destruct (short_takes h) eqn:Et.
    + destruct (read_cluster_in true t a cs next) as [ev' r']. intros [= <- ->] H. apply clean_cons in H.
      cbn [read_cluster]. rewrite Ec, Es, Et, (IH ev' u eq_refl H). reflexivity.
    + cbn [read_cluster]. rewrite Ec, Es, Et. destruct cs; [|auto]. destruct next; [auto|]. intros [= <- <-] H. elim (not_clean _ _ _ H).
    + cbn [read_cluster]. rewrite Ec, Es, Et. auto.
  - intros [= <- <-] H. elim (not_clean _ _ _ H).
Qed.
Lemma explicit_cluster_nil t cs : explicit_cluster t cs = [] -> cs = [].
Proof.
  destruct cs as [|c cs]; [auto|]. cbn [explicit_cluster]. destruct (ceqb c "-"); [discriminate|].
  destruct (long_lookup true _ t _); try discriminate; destruct (short_find t 0 c) as [[i h]|]; try discriminate; destruct (short_takes h); discriminate.
Qed.
Lemma explicit_cluster_dash t cs : explicit_cluster t cs = lit "-" -> cs = lit "-".
Proof.
  destruct cs as [|c cs]; [discriminate|]. cbn [explicit_cluster]. destruct (ceqb_spec c "-") as [->|Hc]; [auto|].
  destruct (long_lookup true _ t _); try discriminate; destruct (short_find t 0 c) as [[i h]|]; try (destruct (short_takes h)); intros E; injection E as -> _; contradiction.
Qed.
Lemma explicit_option t a : is_positional a = false -> str_eqb a (lit "--") = false ->
  is_positional (explicit t a) = false /\ str_eqb (explicit t a) (lit "--") = false.
Proof.
  intros Hp Hd. apply is_positional_false in Hp as (c & r & ->). unfold explicit. cbn [tl].
  destruct (explicit_cluster t (c :: r)) as [|x xs] eqn:E; [apply explicit_cluster_nil in E; discriminate|]. split; [reflexivity|].
  apply str_eqb_neq. intros Ex. injection Ex as -> ->. apply explicit_cluster_dash in E. injection E as -> ->. discriminate Hd.
Qed.
Lemma read_explicit posix t : forall args evs pos, read_args_in true posix t args = (evs, Finished pos) -> clean evs ->
  read_args posix t (explicit_args posix t args) = (evs, Finished pos).
Proof.
  induction args as [|a rest IH IH'] using args_ind; intros evs pos; cbn [read_args_in explicit_args]; [auto|].
  destruct (is_positional a) eqn:Ep.
  { destruct posix; [cbn [read_args]; rewrite Ep; auto|]. unfold add_positional. intros E H. cbn [read_args]. rewrite Ep.
    destruct (read_args_in true false t rest) as [ev1 [pos1|]]; cbn [fst snd] in E; [|discriminate]. injection E as <- <-.
    rewrite (IH ev1 pos1 eq_refl H). reflexivity. }
  destruct (str_eqb a (lit "--")) eqn:Ed; [cbn [read_args]; rewrite Ep, Ed; auto|].
  destruct (explicit_option t a Ep Ed) as [Ep' Ed'].
  destruct (read_cluster_in true t a (tl a) (hd_error rest)) as [ev [[]|]] eqn:Ec; cbn [snd].
  - destruct rest as [|v rest].
    + intros [= <- <-] H. cbn [explicit_args read_args hd_error]. rewrite Ep', Ed'. unfold explicit. cbn [tl].
      cbn [hd_error] in Ec. rewrite (read_cluster_explicit t a _ None (tl a) ev true Ec H). reflexivity.
    + unfold prepend. destruct (read_args_in true posix t rest) as [ev2 oc2] eqn:E2. cbn [fst snd]. intros [= <- ->] H. apply clean_app in H as [H1 H2].
      cbn [read_args hd_error]. rewrite Ep', Ed'. unfold explicit. cbn [tl]. cbn [hd_error] in Ec.
      rewrite (read_cluster_explicit t a _ (Some v) (tl a) ev true Ec H1), (IH' v rest eq_refl ev2 pos E2 H2). reflexivity.
  - unfold prepend. destruct (read_args_in true posix t rest) as [ev2 oc2] eqn:E2. cbn [fst snd]. intros [= <- ->] H. apply clean_app in H as [H1 H2].
    assert (Eq : read_args posix t (explicit t a :: explicit_args posix t rest) = (ev ++ ev2, Finished pos)).
    { cbn [read_args]. rewrite Ep', Ed'. change (tl (explicit t a)) with (explicit_cluster t (tl a)).
      assert (En : read_cluster t (explicit t a) (explicit_cluster t (tl a)) (hd_error (explicit_args posix t rest)) = (ev, Some false)).
      { destruct rest as [|v rest].
        - cbn [explicit_args hd_error] in *. apply (read_cluster_explicit t a _ None); auto.
        - apply (read_cluster_explicit t a (explicit t a)) in Ec; auto. clear - Ec. revert ev Ec. generalize (explicit_cluster t (tl a)) as cs.
          generalize (explicit t a) as a'. intros a' cs.
          assert (Hl : forall body ev, read_long t a' body (Some v) = (ev, false) -> forall n, n <> None -> read_long t a' body n = (ev, false)).
          { intros body ev E n Hn. unfold read_long in *. destruct (long_find t (name_part body)) as [[i h]|]; [|auto].
            destruct (long_takes h), (value_part body); auto. discriminate. }
          assert (Hn : hd_error (explicit_args posix t (v :: rest)) <> None).
          { cbn [explicit_args]. destruct (is_positional v); [destruct posix; discriminate|]. destruct (str_eqb v (lit "--")); [discriminate|].
            destruct (snd _) as [[]|]; destruct rest; discriminate. }
          generalize dependent (hd_error (explicit_args posix t (v :: rest))). intros n Hn. cbn [hd_error].
          induction cs as [|c cs IH]; intros ev; cbn [read_cluster]; [auto|].
          destruct (ceqb c "-").
          { destruct cs as [|c' cs']; [auto|]. destruct (read_long t a' (c' :: cs') (Some v)) as [ev' u] eqn:E. intros [= <- ->]. rewrite (Hl _ _ E n Hn). reflexivity. }
          destruct (short_find t 0 c) as [[i h]|].
          + destruct (short_takes h).
            * destruct (read_cluster t a' cs (Some v)) as [ev' r']. intros [= <- ->]. rewrite (IH ev' eq_refl). reflexivity.
            * destruct cs; [discriminate|auto].
            * auto.
          + destruct (read_cluster t a' cs (Some v)) as [ev' r']. intros [= <- ->]. rewrite (IH ev' eq_refl). reflexivity. }
      rewrite En, (IH ev2 pos eq_refl H2). reflexivity. }
    destruct rest as [|v rest]; exact Eq.
  - discriminate.
Qed.

(** ** Lines of the default build *)
Definition one_name_each (t : list hdr) : Prop := forall h, In h t -> (List.length (hdr_names h) <= 1)%nat.
Lemma one_name_index t : one_name_each t -> forall k n1 n2 i h1 h2 l1 l2 l3, long_names t k = l1 ++ (n1, (i, h1)) :: l2 ++ (n2, (i, h2)) :: l3 -> False.
Proof.
  intros Ht k n1 n2 i h1 h2 l1 l2 l3 E.
  assert (Hnd : NoDup (map (fun p => fst (snd p)) (long_names t k))).
  { clear E. revert k. induction t as [|h t IH]; intros k; cbn [long_names]; [constructor|].
    assert (Hh : (List.length (hdr_names h) <= 1)%nat) by (apply Ht; left; auto).
    assert (IH' : forall k, NoDup (map (fun p => fst (snd p)) (long_names t k))) by (apply IH; intros h' Hi; apply Ht; right; auto).
    destruct (hdr_names h) as [|n [|n' ns]]; cbn [map app]; [apply IH'| |cbn in Hh; lia]. constructor; [|apply IH']. cbn [fst snd].
    rewrite in_map_iff. intros ([m [j h']] & Ej & Hi). apply in_long_names in Hi as (q & -> & _). cbn in Ej. lia. }
  rewrite E in Hnd. rewrite !map_app in Hnd. cbn [map fst snd] in Hnd. rewrite map_app in Hnd. cbn [map fst snd] in Hnd.
  revert Hnd. generalize (map (fun p : str * (nat * hdr) => fst (snd p)) l1) as l. induction l as [|x l IH]; cbn [app]; intros Hnd.
  - inversion_clear Hnd as [|? ? Hn _]. apply Hn. apply in_elt.
  - apply IH. inversion Hnd. auto.
Qed.
Lemma lookup_strengthen t nm i h : one_name_each t -> long_lookup false false t nm = Is i h -> long_lookup true false t nm = Is i h.
Proof.
  intros Ht. unfold long_lookup. cbn [andb]. destruct (find _ (long_names t 0)) as [[n [i' h']]|]; [auto|].
  destruct (filter _ (long_names t 0)) as [|[n [i' h']] r] eqn:Ef; [auto|].
  destruct r as [|[n2 [i2 h2]] r]; [auto|]. cbn [forallb fst snd]. destruct (Nat.eqb_spec i2 i') as [->|]; [|discriminate]. cbn [andb].
  exfalso. assert (Hs : exists l1 l2 l3, long_names t 0 = l1 ++ (n, (i', h')) :: l2 ++ (n2, (i', h2)) :: l3).
  { clear - Ef. revert Ef. generalize (long_names t 0) as l. 
    assert (F : forall l x (r : list (str * (nat * hdr))) f, filter f l = x :: r -> exists l1 l2, l = l1 ++ x :: l2 /\ filter f l2 = r).
    { induction l as [|y l IH]; cbn; [discriminate|]. intros x r0 f. destruct (f y).
      - intros [= <- <-]. exists [], l. auto.
      - intros E. destruct (IH x r0 f E) as (l1 & l2 & -> & E2). exists (y :: l1), l2. auto. }
    intros l E. apply F in E as (l1 & l2 & -> & E). apply F in E as (l3 & l4 & -> & _). exists l1, l3, l4. reflexivity. }
  destruct Hs as (l1 & l2 & l3 & E). eapply one_name_index; eauto.
Qed.
(** No long name begins like a short option. *)
Definition apart (t : list hdr) : Prop :=
  forall h n c r, In h t -> In n (hdr_names h) -> n = c :: r -> declared t c = false.
Lemma apart_unknown t c cs exactly : apart t -> declared t c = true -> c <> "="%char -> long_lookup true exactly t (name_part (c :: cs)) = Unknown.
Proof.
  intros Ha Hd Hc. assert (En : name_part (c :: cs) = c :: name_part cs) by (cbn [name_part]; destruct (ceqb_spec c "="); [contradiction|auto]).
  rewrite En. unfold long_lookup.
  assert (Hno : forall p, In p (long_names t 0) -> starts_with (c :: name_part cs) (fst p) = false).
  { intros [n [i h]] Hi. apply in_long_names in Hi as (j & _ & Hj & Hn). cbn [fst]. destruct n as [|x n]; [reflexivity|]. cbn [starts_with].
    destruct (ceqb_spec c x) as [<-|]; [|reflexivity]. rewrite (Ha h (c :: n) c n (nth_error_In _ _ Hj) Hn eq_refl) in Hd. discriminate. }
  destruct (find (fun p => str_eqb (fst p) (c :: name_part cs)) (long_names t 0)) as [p|] eqn:Ef.
  { exfalso. apply find_some in Ef as [Hi He]. apply str_eqb_eq in He. apply Hno in Hi. rewrite He in Hi.
    rewrite (proj2 (starts_with_iff (c :: name_part cs) (c :: name_part cs))) in Hi; [discriminate|]. exists []. rewrite app_nil_r. auto. }
  destruct (exactly && _); [reflexivity|].
  assert (Efl : filter (fun p => starts_with (c :: name_part cs) (fst p)) (long_names t 0) = []).
  { induction (long_names t 0) as [|p l IH]; [reflexivity|]. cbn [filter]. rewrite (Hno p) by (left; auto). apply IH; [intros q Hq; apply Hno; right; auto|].
    cbn [find] in Ef. destruct (str_eqb (fst p) (c :: name_part cs)); [discriminate|auto]. }
  rewrite Efl. reflexivity.
Qed.
Lemma read_cluster_kept t a next : apart t -> declared t "="%char = false -> one_name_each t ->
  forall cs ev u, read_cluster t a cs next = (ev, u) -> clean ev -> read_cluster_in true t a cs next = (ev, u).
Proof.
  intros Ha He Ho. induction cs as [|c cs IH]; intros ev u; cbn [read_cluster_in read_cluster]; [auto|].
  destruct (ceqb c "-").
  { destruct cs as [|c' cs']; [auto|]. rewrite <- read_long_default.
    destruct (read_found (long_lookup false false t (name_part (c' :: cs'))) a (c' :: cs') next) as [ev' u'] eqn:E. intros [= <- <-] H.
    destruct (read_found_is (long_lookup false false t (name_part (c' :: cs'))) a (c' :: cs') next) as (i & h & Ei); [rewrite E; exact H|].
    rewrite (lookup_strengthen _ _ _ _ Ho Ei), <- Ei, E. reflexivity. }
  destruct (short_find t 0 c) as [[i h]|] eqn:Es.
  2:{ destruct (read_cluster t a cs next) as [ev' r']. intros [= <- <-] H. elim (not_clean _ _ _ H). }
  assert (Hd : declared t c = true) by (unfold declared; rewrite Es; auto).
  assert (Hc : c <> "="%char) by (intros ->; congruence).
  unfold as_long. cbn [hd0]. rewrite (apart_unknown t c cs _ Ha Hd Hc), Hd.
  destruct (short_takes h); auto. destruct (read_cluster t a cs next) as [ev' r']. intros [= <- <-] H. apply clean_cons in H.
  rewrite (IH ev' r' eq_refl H). reflexivity.
Qed.
Lemma read_args_kept posix t : apart t -> declared t "="%char = false -> one_name_each t ->
  forall args evs pos, read_args posix t args = (evs, Finished pos) -> clean evs -> read_args_in true posix t args = (evs, Finished pos).
Proof.
  intros Ha He Ho. induction args as [|a rest IH IH'] using args_ind; intros evs pos; cbn [read_args_in read_args]; [auto|].
  destruct (is_positional a).
  { destruct posix; [auto|]. unfold add_positional. destruct (read_args false t rest) as [ev1 [pos1|]]; [|discriminate].
    cbn [fst snd]. intros [= <- <-] H. rewrite (IH ev1 pos1 eq_refl H). reflexivity. }
  destruct (str_eqb a (lit "--")); [auto|].
  destruct (read_cluster t a (tl a) (hd_error rest)) as [ev [[]|]] eqn:Ec; [| |discriminate].
  - destruct rest as [|v rest].
    + intros [= <- <-] H. rewrite (read_cluster_kept t a _ Ha He Ho _ _ _ Ec H). reflexivity.
    + unfold prepend. destruct (read_args posix t rest) as [ev2 oc2] eqn:E2. cbn [fst snd]. intros [= <- ->] H. apply clean_app in H as [H1 H2].
      rewrite (read_cluster_kept t a _ Ha He Ho _ _ _ Ec H1), (IH' v rest eq_refl ev2 pos E2 H2). reflexivity.
  - unfold prepend. destruct (read_args posix t rest) as [ev2 oc2] eqn:E2. cbn [fst snd]. intros [= <- ->] H. apply clean_app in H as [H1 H2].
    rewrite (read_cluster_kept t a _ Ha He Ho _ _ _ Ec H1), (IH ev2 pos eq_refl H2). reflexivity.
Qed.

(** ** One dash or two *)
(** [nm] can be written behind one dash: it is a name of the table, or an abbreviation of one that is longer than a character or does
    not begin like a short option. *)
Definition nameable (t : list hdr) (nm : str) : Prop :=
  exists h n c r, In h t /\ In n (hdr_names h) /\ nm = c :: r /\ c <> "-"%char /\ ~ In "="%char nm /\ ParseLemmas.prefix nm n /\
    (nm = n \/ r <> [] \/ declared t c = false).
(** What may follow the name in its argument: nothing or a value. *)
Definition attached (s : str) : Prop := s = [] \/ exists v, s = "="%char :: v.
Lemma nameable_lookup t nm : nameable t nm -> exists c r, nm = c :: r /\ c <> "-"%char /\ ~ In "="%char nm /\
  long_lookup true (declared t c) t nm <> Unknown /\ long_lookup true (declared t c) t nm = long_lookup true false t nm.
Proof.
  intros (h & n & c & r & Hh & Hn & -> & Hc & He & Hp & Hl). exists c, r. split; [auto|]. split; [auto|]. split; [auto|].
  apply In_nth_error in Hh as (j & Hj).
  assert (Hi : In (n, (j, h)) (long_names t 0)) by (apply in_long_names; exists j; auto).
  unfold long_lookup. destruct (find (fun p => str_eqb (fst p) (c :: r)) (long_names t 0)) as [p|] eqn:Ef; [split; [discriminate|auto]|].
  assert (Ex : declared t c && (List.length (c :: r) =? 1)%nat = false).
  { destruct Hl as [<-|[Hr|Hd]].
    - exfalso. apply (find_none _ _ Ef) in Hi. cbn [fst] in Hi. rewrite (proj2 (str_eqb_eq _ _) eq_refl) in Hi. discriminate.
    - destruct r; [contradiction|]. apply andb_false_r.
    - rewrite Hd. reflexivity. }
  rewrite Ex. cbn [andb]. split; [|reflexivity].
  destruct (filter (fun p => starts_with (c :: r) (fst p)) (long_names t 0)) as [|[n' [i' h']] q] eqn:Efl.
  - exfalso. assert (Hf : In (n, (j, h)) []) by (rewrite <- Efl; apply filter_In; split; auto; apply starts_with_iff; auto). destruct Hf.
  - destruct q; discriminate.
Qed.
Lemma attached_name nm s : ~ In "="%char nm -> attached s -> name_part (nm ++ s) = nm.
Proof.
  intros H [->|(v & ->)]; [rewrite app_nil_r; apply name_part_plain; auto|apply name_part_eq; auto].
Qed.
Lemma one_or_two_cluster t nm s next : nameable t nm -> attached s -> forall a a' ev r,
  (read_cluster_in true t a (nm ++ s) next = (ev, r) -> clean ev -> read_cluster_in true t a' ("-"%char :: nm ++ s) next = (ev, r)) /\
  (read_cluster_in true t a' ("-"%char :: nm ++ s) next = (ev, r) -> clean ev -> read_cluster_in true t a (nm ++ s) next = (ev, r)).
Proof.
  intros Hn Hs a a' ev r0. destruct (nameable_lookup t nm Hn) as (c & r & -> & Hc & He & Hu & Eq).
  pose proof (attached_name (c :: r) s He Hs) as En. cbn [app] in *. cbn [read_cluster_in]. change (ceqb "-" "-") with true. cbn iota.
  destruct (ceqb_spec c "-") as [|_]; [contradiction|].
  assert (Ea : as_long t a (c :: r ++ s) next = Some (read_found (long_lookup true false t (c :: r)) a (c :: r ++ s) next)).
  { unfold as_long. cbn [hd0]. rewrite En. rewrite Eq in Hu. rewrite Eq. destruct (long_lookup true false t (c :: r)); [auto|auto|congruence]. }
  rewrite Ea, En. set (f := long_lookup true false t (c :: r)).
  destruct (read_found f a (c :: r ++ s) next) as [ev1 u1] eqn:E1, (read_found f a' (c :: r ++ s) next) as [ev2 u2] eqn:E2. split; intros [= <- <-] H.
  - pose proof (read_found_text f a a' (c :: r ++ s) next) as Hx. rewrite E1, E2 in Hx. specialize (Hx H). injection Hx as -> ->. reflexivity.
  - pose proof (read_found_text f a' a (c :: r ++ s) next) as Hx. rewrite E1, E2 in Hx. specialize (Hx H). injection Hx as -> ->. reflexivity.
Qed.
Definition after (posix : bool) (t : list hdr) (rest : list str) (p : list event * option bool) : list event * outcome :=
  match snd p with
  | None => (fst p, Hangs)
  | Some false => prepend (fst p) (read_args_in true posix t rest)
  | Some true => match rest with [] => (fst p, Finished []) | _ :: rest' => prepend (fst p) (read_args_in true posix t rest') end
  end.
Lemma read_option posix t a rest : is_positional a = false -> a <> lit "--" ->
  read_args_in true posix t (a :: rest) = after posix t rest (read_cluster_in true t a (tl a) (hd_error rest)).
Proof.
  intros Hp Hd. apply str_eqb_neq in Hd. cbn [read_args_in]. rewrite Hp, Hd. unfold after.
  destruct (read_cluster_in true t a (tl a) (hd_error rest)) as [ev [[]|]]; reflexivity.
Qed.
Lemma after_clean posix t rest p evs pos : after posix t rest p = (evs, Finished pos) -> clean evs -> clean (fst p).
Proof.
  unfold after, prepend. destruct (snd p) as [[]|]; [destruct rest| |discriminate]; intros [= <- _] H; auto; apply clean_app in H; tauto.
Qed.
Lemma one_or_two_read posix t nm s (post : list str) : nameable t nm -> attached s -> forall evs pos, clean evs ->
  read_args_in true posix t (("-"%char :: nm ++ s) :: post) = (evs, Finished pos) <->
  read_args_in true posix t ((lit "--" ++ nm ++ s) :: post) = (evs, Finished pos).
Proof.
  intros Hn Hs evs pos Hcl. destruct (nameable_lookup t nm Hn) as (c & r & E & Hc & _).
  rewrite (read_option posix t ("-"%char :: nm ++ s)); [|subst nm; reflexivity|subst nm; intros Ex; injection Ex as Ex _; contradiction].
  rewrite (read_option posix t (lit "--" ++ nm ++ s)); [|reflexivity|subst nm; discriminate].
  destruct (read_cluster_in true t ("-"%char :: nm ++ s) (tl ("-"%char :: nm ++ s)) (hd_error post)) as [ev1 r1] eqn:E1.
  destruct (read_cluster_in true t (lit "--" ++ nm ++ s) (tl (lit "--" ++ nm ++ s)) (hd_error post)) as [ev2 r2] eqn:E2.
  destruct (one_or_two_cluster t nm s (hd_error post) Hn Hs ("-"%char :: nm ++ s) (lit "--" ++ nm ++ s) ev1 r1) as [H1 _].
  destruct (one_or_two_cluster t nm s (hd_error post) Hn Hs ("-"%char :: nm ++ s) (lit "--" ++ nm ++ s) ev2 r2) as [_ H2].
  split; intros Ex; pose proof (after_clean _ _ _ _ _ _ Ex Hcl) as Hx; cbn [fst] in Hx.
  - specialize (H1 E1 Hx). change (read_cluster_in true t (lit "--" ++ nm ++ s) (tl (lit "--" ++ nm ++ s)) (hd_error post) = (ev1, r1)) in H1.
    rewrite H1 in E2. injection E2 as <- <-. exact Ex.
  - specialize (H2 E2 Hx). change (read_cluster_in true t ("-"%char :: nm ++ s) (tl ("-"%char :: nm ++ s)) (hd_error post) = (ev2, r2)) in H2.
    rewrite H2 in E1. injection E1 as <- <-. exact Ex.
Qed.

(** ** Any kinds of entries *)
Section Generic.
Context {B : Type}.
Context (scan : hdr -> B -> option (option str -> res (B * Z))).
Context (check : hdr -> B -> option Z).
Context (reset : hdr -> B -> res B).
(** arg_parse of the default build, and of the long-only build. *)
Notation parse := (arg_parse scan check reset).
Notation parse_lo posix jo jc jp := (arg_parse_in scan check reset posix jo jc jp true).

Lemma accepted_clean lo posix cap tab rest jo jc jp fuel argv h s en a0 tab' l :
  call cap tab en h argv a0 rest fuel ->
  observe (arg_parse_in scan check reset posix jo jc jp lo fuel (zlen (a0 :: rest)) argv h s tab en) = Ok (tab', 0, l) ->
  exists evs pos, read_args_in lo posix (map e_hdr tab) rest = (evs, Finished pos) /\ clean evs.
Proof.
  intros Hc Ho. destruct (read_args_in lo posix (map e_hdr tab) rest) as [evs [pos|]] eqn:E.
  2:{ exfalso. pose proof (observe_in_hangs scan check reset posix jo jc jp cap lo fuel argv h s tab en a0 rest evs Hc E fuel) as N.
      destruct (arg_parse_in scan check reset posix jo jc jp lo fuel (zlen (a0 :: rest)) argv h s tab en); [eapply N; eauto|discriminate|discriminate]. }
  exists evs, pos. split; [auto|]. intros c v Hi. rewrite (observe_in_finishes _ _ _ _ _ _ _ cap _ _ _ _ _ _ _ _ _ evs pos Hc E) in Ho.
  destruct (ideal_parse scan check reset evs pos tab) as [[t errs]| |] eqn:Ei; try discriminate. cbn in Ho. injection Ho as _ Hn _.
  unfold ideal_parse in Ei. apply bind_ok in Ei as (t0 & _ & Ei). apply bind_ok in Ei as ([t1 e1] & E1 & Ei).
  apply bind_ok in Ei as ([t2 e2] & _ & Ei). apply events_errors in E1 as (more & -> & Hm). cbn [snd app] in Ei.
  assert (Hx : more <> []) by (apply Hm; eauto).
  injection Ei as _ <-. pose proof (proj1 (c_end _ _ _ _ _ _ _ _ Hc)).
  destruct more as [|x more]; [contradiction|]. cbn [app] in Hn. rewrite zlen_cons in Hn. pose proof (zlen_nonneg (more ++ e2)). lia.
Qed.
Lemma same_reading lo lo' posix cap cap' tab args args' jo jc jp fuel argv h s en a0 jo' jc' jp' fuel' argv' h' s' en' a0' tab' l evs pos :
  call cap tab en h argv a0 args fuel -> call cap' tab en' h' argv' a0' args' fuel' ->
  read_args_in lo posix (map e_hdr tab) args = (evs, Finished pos) -> read_args_in lo' posix (map e_hdr tab) args' = (evs, Finished pos) ->
  observe (arg_parse_in scan check reset posix jo jc jp lo fuel (zlen (a0 :: args)) argv h s tab en) = Ok (tab', 0, l) ->
  observe (arg_parse_in scan check reset posix jo' jc' jp' lo' fuel' (zlen (a0' :: args')) argv' h' s' tab en') = Ok (tab', 0, l).
Proof.
  intros Hc Hc' E E' Ho. rewrite (observe_in_finishes _ _ _ _ _ _ _ cap _ _ _ _ _ _ _ _ _ evs pos Hc E) in Ho.
  rewrite (observe_in_finishes _ _ _ _ _ _ _ cap' _ _ _ _ _ _ _ _ _ evs pos Hc' E').
  destruct (ideal_parse scan check reset evs pos tab) as [[t errs]| |]; try discriminate. cbn in *. injection Ho as <- Hn Hl.
  pose proof (proj1 (c_end _ _ _ _ _ _ _ _ Hc)). pose proof (proj1 (c_end _ _ _ _ _ _ _ _ Hc')).
  destruct errs as [|e errs]; [|rewrite zlen_cons in Hn; pose proof (zlen_nonneg errs); lia].
  subst l. unfold visible, shown. cbn [fst snd]. change (zlen []) with 0 in *. rewrite !Z.min_r by lia.
  destruct (0 <=? cap) eqn:E1, (0 <=? cap') eqn:E2; try lia; reflexivity.
Qed.

(** The outcome depends on the table and the arguments only. *)
Theorem C78_history_independent :
  forall posix cap tab rest jo jc jp fuel argv h s en a0 jo' jc' jp' fuel' argv' h' s' en' a0',
  call cap tab en h argv a0 rest fuel -> call cap tab en' h' argv' a0' rest fuel' ->
  (forall a, In a rest -> ~ dash_tailed a) ->
  observe (parse_lo posix jo jc jp fuel (zlen (a0 :: rest)) argv h s tab en) =
  observe (parse_lo posix jo' jc' jp' fuel' (zlen (a0' :: rest)) argv' h' s' tab en').
Proof.
  intros posix cap tab rest jo jc jp fuel argv h s en a0 jo' jc' jp' fuel' argv' h' s' en' a0' H H' Hd.
  destruct (read_args_in true posix (map e_hdr tab) rest) as [evs [pos|]] eqn:E.
  - rewrite (observe_in_finishes _ _ _ _ _ _ _ cap _ _ _ _ _ _ _ _ _ evs pos H E).
    symmetry. apply (observe_in_finishes _ _ _ _ _ _ _ cap _ _ _ _ _ _ _ _ _ evs pos H' E).
  - exfalso. destruct (read_args_in_hangs true posix (map e_hdr tab) rest) as (a & Ha & Hda); [rewrite E; reflexivity|]. eapply Hd; eauto.
Qed.
(** The caller's arguments and memory are as before, and nothing allocated is left. *)
Theorem C78_arguments_unchanged :
  forall posix cap tab rest jo jc jp fuel argv h s en a0 h' s' tab' en',
  call cap tab en h argv a0 rest fuel ->
  parse_lo posix jo jc jp fuel (zlen (a0 :: rest)) argv h s tab en = Ok (h', s', tab', en') ->
  h' = h ++ [BFreed; BFreed; BFreed] /\ map e_hdr tab' = map e_hdr tab.
Proof. intros. eapply parse_in_heap; eauto. Qed.

(** A command line accepted by the long-only build is accepted by the default build with the implied dashes written out, and stores
    the same values. *)
Theorem C78_written_out :
  forall posix cap cap' tab args jo jc jp fuel argv h s en a0 jo' jc' jp' fuel' argv' h' s' en' a0' tab' l,
  call cap tab en h argv a0 args fuel -> call cap' tab en' h' argv' a0' (explicit_args posix (map e_hdr tab) args) fuel' ->
  observe (parse_lo posix jo jc jp fuel (zlen (a0 :: args)) argv h s tab en) = Ok (tab', 0, l) ->
  observe (parse posix jo' jc' jp' fuel' (zlen (a0' :: explicit_args posix (map e_hdr tab) args)) argv' h' s' tab en') = Ok (tab', 0, l).
Proof.
  intros posix cap cap' tab args jo jc jp fuel argv h s en a0 jo' jc' jp' fuel' argv' h' s' en' a0' tab' l Hc Hc' Ho.
  destruct (accepted_clean _ _ _ _ _ _ _ _ _ _ _ _ _ _ _ _ Hc Ho) as (evs & pos & E & Hcl).
  eapply (same_reading true false); [exact Hc|exact Hc'|exact E| |exact Ho].
  rewrite read_args_default. apply read_explicit; auto.
Qed.
(** If no long name begins like a short option, = is no short option and no entry has two long names, the long-only build accepts
    every command line the default build accepts, and stores the same values. *)
Theorem C78_default_lines_kept :
  forall posix cap cap' tab args jo jc jp fuel argv h s en a0 jo' jc' jp' fuel' argv' h' s' en' a0' tab' l,
  apart (map e_hdr tab) -> declared (map e_hdr tab) "="%char = false -> one_name_each (map e_hdr tab) ->
  call cap tab en h argv a0 args fuel -> call cap' tab en' h' argv' a0' args fuel' ->
  observe (parse posix jo jc jp fuel (zlen (a0 :: args)) argv h s tab en) = Ok (tab', 0, l) ->
  observe (parse_lo posix jo' jc' jp' fuel' (zlen (a0' :: args)) argv' h' s' tab en') = Ok (tab', 0, l).
Proof.
  intros posix cap cap' tab args jo jc jp fuel argv h s en a0 jo' jc' jp' fuel' argv' h' s' en' a0' tab' l Ha He H1 Hc Hc' Ho.
  destruct (accepted_clean false _ _ _ _ _ _ _ _ _ _ _ _ _ _ _ Hc Ho) as (evs & pos & E & Hcl).
  eapply (same_reading false true); [exact Hc|exact Hc'|exact E| |exact Ho].
  apply read_args_kept; auto. rewrite <- read_args_default. exact E.
Qed.
(** In the long-only build a long option that can be written behind one dash may be written behind two, and the other way round, in
    any place where an option can stand: [pre] reads without mistakes and does not end the options. *)
Theorem C78_one_or_two_dashes :
  forall posix cap cap' tab pre nm s post evs0 pos0 jo jc jp fuel argv h g en a0 jo' jc' jp' fuel' argv' h' g' en' a0' tab' l,
  nameable (map e_hdr tab) nm -> attached s ->
  read_args_in true posix (map e_hdr tab) pre = (evs0, Finished pos0) -> clean evs0 -> ~ In (lit "--") pre -> (posix = true -> pos0 = []) ->
  call cap tab en h argv a0 (pre ++ ("-"%char :: nm ++ s) :: post) fuel ->
  call cap' tab en' h' argv' a0' (pre ++ (lit "--" ++ nm ++ s) :: post) fuel' ->
  (observe (parse_lo posix jo jc jp fuel (zlen (a0 :: pre ++ ("-"%char :: nm ++ s) :: post)) argv h g tab en) = Ok (tab', 0, l) <->
   observe (parse_lo posix jo' jc' jp' fuel' (zlen (a0' :: pre ++ (lit "--" ++ nm ++ s) :: post)) argv' h' g' tab en') = Ok (tab', 0, l)).
Proof.
  intros posix cap cap' tab pre nm s post evs0 pos0 jo jc jp fuel argv h g en a0 jo' jc' jp' fuel' argv' h' g' en' a0' tab' l Hn Hs E0 Hc0 Hd Hp Hc Hc'.
  set (t := map e_hdr tab) in *.
  assert (Key : forall x y evs pos, (forall e q, clean e -> read_args_in true posix t (x :: post) = (e, Finished q) -> read_args_in true posix t (y :: post) = (e, Finished q)) ->
    clean evs -> read_args_in true posix t (pre ++ x :: post) = (evs, Finished pos) -> read_args_in true posix t (pre ++ y :: post) = (evs, Finished pos)).
  { intros x y evs pos Hxy Hcl Ex. rewrite (read_args_in_app true posix t (x :: post) pre evs0 pos0 E0 Hc0 Hd Hp) in Ex.
    rewrite (read_args_in_app true posix t (y :: post) pre evs0 pos0 E0 Hc0 Hd Hp).
    destruct (read_args_in true posix t (x :: post)) as [e [q|]]; cbn [fst snd] in Ex; [|discriminate]. injection Ex as <- <-.
    apply clean_app in Hcl as [_ Hcl]. rewrite (Hxy e q Hcl eq_refl). reflexivity. }
  split; intros Ho.
  - destruct (accepted_clean true _ _ _ _ _ _ _ _ _ _ _ _ _ _ _ Hc Ho) as (evs & pos & E & Hcl).
    eapply (same_reading true true); [exact Hc|exact Hc'|exact E| |exact Ho].
    revert E. apply Key; [|exact Hcl]. intros e q He. apply one_or_two_read; auto.
  - destruct (accepted_clean true _ _ _ _ _ _ _ _ _ _ _ _ _ _ _ Hc' Ho) as (evs & pos & E & Hcl).
    eapply (same_reading true true); [exact Hc'|exact Hc|exact E| |exact Ho].
    revert E. apply Key; [|exact Hcl]. intros e q He. apply one_or_two_read; auto.
Qed.
End Generic.

(** ** The library's kinds of entries *)
Section Kinds.
Context {D : Type}.
Context (strtod : str -> D * nat).
Context (rexmatch : str -> Z -> str -> res bool).
Context (lm : long_model) (sp : seps).
Notation scan := (kscan strtod rexmatch lm sp).
Notation safe_value := (safe_value lm).
(** arg_parse of the long-only build (argtable3.c lines 254-258). *)
Definition karg_parse_lo posix jo jc jp := arg_parse_in scan kcheck kreset posix jo jc jp true.
Notation parse_lo := karg_parse_lo.

(** Tables made by the constructors, then possibly given defaults and parsed with any number of times. *)
Inductive reached_lo (ints : bool) : list (entry (body D)) -> Prop :=
| rl_new tab : Forall (made rexmatch ints) tab -> reached_lo ints tab
| rl_preset tab tab' : reached_lo ints tab -> Forall2 preset tab tab' -> reached_lo ints tab'
| rl_parse posix cap tab rest jo jc jp fuel argv h s en a0 h' s' tab' en' : reached_lo ints tab ->
    call cap tab en h argv a0 rest fuel -> Forall (safe_value ints) rest ->
    parse_lo posix jo jc jp fuel (zlen (a0 :: rest)) argv h s tab en = Ok (h', s', tab', en') -> reached_lo ints tab'
| rl_parse_none posix cap tab jo jc jp fuel argv h s en h' s' tab' en' : reached_lo ints tab -> wf_end cap en ->
    parse_lo posix jo jc jp fuel 0 argv h s tab en = Ok (h', s', tab', en') -> reached_lo ints tab'.

Section Contract.
Hypothesis Hd : strtod_contract strtod.
Notation ready ints := (Forall (inv (Inv rexmatch ints))).

Lemma parse_lo_ok ints posix cap tab rest jo jc jp fuel argv h s en a0 h' s' tab' en' :
  ready ints tab -> call cap tab en h argv a0 rest fuel -> Forall (safe_value ints) rest ->
  parse_lo posix jo jc jp fuel (zlen (a0 :: rest)) argv h s tab en = Ok (h', s', tab', en') ->
  ready ints tab' /\ map e_hdr tab' = map e_hdr tab.
Proof.
  intros Ht Hc Hv Hp. unfold karg_parse_lo in Hp. destruct (read_args_in true posix (map e_hdr tab) rest) as [evs [pos|]] eqn:Hr.
  - destruct (ideal_in_safe scan kcheck kreset _ _ (kinds_safe strtod rexmatch lm sp Hd ints) true posix tab rest evs pos Ht Hv Hr) as (t & errs & Ei & Hi & Hh).
    pose proof (observe_in_finishes scan kcheck kreset posix jo jc jp cap true fuel argv h s tab en a0 rest evs pos Hc Hr) as Ho.
    rewrite Hp, Ei in Ho. cbn in Ho. injection Ho as -> E1 E2. auto.
  - exfalso. eapply observe_in_hangs; eauto.
Qed.
Lemma parse_lo_none ints posix cap tab jo jc jp fuel argv h s en : ready ints tab -> wf_end cap en ->
  exists h' s' tab' en', parse_lo posix jo jc jp fuel 0 argv h s tab en = Ok (h', s', tab', en') /\ ready ints tab' /\ map e_hdr tab' = map e_hdr tab.
Proof.
  intros Ht He. destruct (ideal_empty_safe scan kcheck kreset _ _ (kinds_safe strtod rexmatch lm sp Hd ints) tab Ht) as (t & errs & Ei & Hi & Hh).
  pose proof (observe_in_empty scan kcheck kreset posix jo jc jp cap true fuel argv h s tab en He) as Ho. rewrite Ei in Ho. unfold karg_parse_lo.
  destruct (arg_parse_in scan kcheck kreset posix jo jc jp true fuel 0 argv h s tab en) as [[[[h' s'] t'] en']| |]; try discriminate.
  cbn in Ho. injection Ho as -> E1 E2. exists h', s', t, en'. auto.
Qed.
Lemma reached_lo_ready ints (tab : list (entry (body D))) : reached_lo ints tab -> ready ints tab.
Proof.
  induction 1 as [tab H|tab tab' _ IH Hp|posix cap tab rest jo jc jp fuel argv h s en a0 h' s' tab' en' _ IH Hc Hv Hp|posix cap tab jo jc jp fuel argv h s en h' s' tab' en' _ IH He Hp].
  - eapply Forall_impl; [|exact H]. intros e (H1 & H2 & H3). split; auto. apply built_bounded; auto.
  - revert IH. induction Hp; intros Ht; constructor; inversion_clear Ht; auto. eapply preset_inv; eauto.
  - exact (proj1 (parse_lo_ok ints posix cap tab rest jo jc jp fuel argv h s en a0 h' s' tab' en' IH Hc Hv Hp)).
  - destruct (parse_lo_none ints posix cap tab jo jc jp fuel argv h s en IH He) as (h2 & s2 & t2 & en2 & E & Hr & _). rewrite Hp in E. injection E as _ _ <- _. auto.
Qed.
(** Parsing never does anything undefined and leaves every entry in order; it ends unless an option argument ends in a dash. *)
Theorem C78_parse_is_safe :
  forall ints posix cap tab rest jo jc jp fuel argv h s en a0,
  reached_lo ints tab -> call cap tab en h argv a0 rest fuel -> Forall (safe_value ints) rest ->
  match parse_lo posix jo jc jp fuel (zlen (a0 :: rest)) argv h s tab en with
  | Ok (_, _, tab', _) => map e_hdr tab' = map e_hdr tab /\ Forall (fun e => bounded (e_hdr e) (e_body e)) tab'
  | UB _ => False
  | OutOfFuel => exists a, In a rest /\ dash_tailed a
  end.
Proof.
  intros ints posix cap tab rest jo jc jp fuel argv h s en a0 Ht Hc Hv. apply reached_lo_ready in Ht.
  destruct (parse_lo posix jo jc jp fuel (zlen (a0 :: rest)) argv h s tab en) as [[[[h' s'] tab'] en']|u|] eqn:Hp.
  { destruct (parse_lo_ok _ _ _ _ _ _ _ _ _ _ _ _ _ _ _ _ _ _ Ht Hc Hv Hp) as [Hr Hh]. split; auto.
    eapply Forall_impl; [|exact Hr]. intros e H. exact (proj1 H). }
  all: unfold karg_parse_lo in Hp; destruct (read_args_in true posix (map e_hdr tab) rest) as [evs [pos|]] eqn:Hr.
  1,3: exfalso; destruct (ideal_in_safe scan kcheck kreset _ _ (kinds_safe strtod rexmatch lm sp Hd ints) true posix tab rest evs pos Ht Hv Hr) as (t & errs & Ei & _);
      pose proof (observe_in_finishes scan kcheck kreset posix jo jc jp cap true fuel argv h s tab en a0 rest evs pos Hc Hr) as Ho; rewrite Hp, Ei in Ho; cbn in Ho; discriminate Ho.
  - pose proof (hang_in_safe scan kcheck kreset _ _ (kinds_safe strtod rexmatch lm sp Hd ints) true posix jo jc jp cap fuel argv h s tab en a0 rest evs Ht Hv Hc Hr fuel) as H.
    rewrite Hp in H. discriminate.
  - apply (read_args_in_hangs true posix (map e_hdr tab) rest). rewrite Hr. reflexivity.
Qed.
End Contract.
End Kinds.

(** ** Examples *)
(** -v, -n <string>, --name, --count=<int>, at most one word. *)
Definition ex_tab : list (entry (body Z)) :=
  [arg_litn (ExTable.o "v") None 0 3 None; arg_strn (ExTable.o "n") None None 0 1 None; arg_litn None (ExTable.o "name") 0 1 None;
   arg_intn (fun _ => 7) None (ExTable.o "count") None 0 2 None; arg_strn None None None 0 1 None].
Notation ex_kinds := (kscan ExTable.strtod ExTable.rexmatch Long64 unix_seps).
Notation ex_default tab l := (observe (arg_parse ex_kinds kcheck kreset false ExTable.jo ExTable.jc ExTable.jp
  (S (total (map lit l))) (zlen (lit "p" :: map lit l)) 1 (ExTable.heap0 ("p"%string :: l)) ExTable.s0 tab (ExTable.en 4))).
Notation ex_lo tab l := (observe (arg_parse_in ex_kinds kcheck kreset false ExTable.jo ExTable.jc ExTable.jp true
  (S (total (map lit l))) (zlen (lit "p" :: map lit l)) 1 (ExTable.heap0 ("p"%string :: l)) ExTable.s0 tab (ExTable.en 4))).
Definition ex_counts (r : res (list (entry (body Z)) * Z * list err)) :=
  match r with Ok (t, n, _) => Some (map (fun e => match kcount (e_body e) with Some k => k | None => -1 end) t, n) | _ => None end.
Lemma ex_call (tab : list (entry (body Z))) rest : Forall good_hdr (map e_hdr tab) -> ExTable.strs_cstr (map lit rest) = true ->
  call 4 tab (ExTable.en 4) (ExTable.heap0 ("p"%string :: rest)) 1 (lit "p") (map lit rest) (S (total (map lit rest))).
Proof.
  intros Hg Hs. pose proof (ExTable.call_ok "p" rest 4 0 ltac:(lia) Hs) as [H1 H2 H3 H4 H5]. constructor; auto; lia.
Qed.
Lemma ex_good : Forall good_hdr (map e_hdr ex_tab).
Proof. apply ExTable.good_hdrs_ok. reflexivity. Qed.

Example C78_written_out_case :
  explicit_args false (map e_hdr ex_tab) (map lit ["-vname"; "-count=3"; "-co"; "4"; "f"; "-n"; "-x"]%string) =
  map lit ["-v-name"; "--count=3"; "--co"; "4"; "f"; "-n"; "-x"]%string /\
  ex_counts (ex_lo ex_tab ["-vname"; "-count=3"; "-co"; "4"; "f"; "-n"; "-x"]%string) = Some ([1; 1; 1; 2; 1], 0) /\
  ex_default ex_tab ["-v-name"; "--count=3"; "--co"; "4"; "f"; "-n"; "-x"]%string =
  ex_lo ex_tab ["-vname"; "-count=3"; "-co"; "4"; "f"; "-n"; "-x"]%string.
Proof. vm_compute. auto. Qed.
Example C78_written_out_case_by_theorem : exists t l,
  ex_lo ex_tab ["-vname"; "-count=3"]%string = Ok (t, 0, l) /\ ex_default ex_tab ["-v-name"; "--count=3"]%string = Ok (t, 0, l).
Proof.
  assert (H0 : match ex_lo ex_tab ["-vname"; "-count=3"]%string with Ok (_, n, _) => n = 0 | _ => False end) by (vm_compute; reflexivity).
  destruct (ex_lo ex_tab ["-vname"; "-count=3"]%string) as [[[t n] l]| |] eqn:E; [|destruct H0..]. subst n. exists t, l. split; [reflexivity|].
  assert (Ex : explicit_args false (map e_hdr ex_tab) (map lit ["-vname"; "-count=3"]%string) = map lit ["-v-name"; "--count=3"]%string) by (vm_compute; reflexivity).
  pose proof (C78_written_out ex_kinds kcheck kreset false 4 4 ex_tab (map lit ["-vname"; "-count=3"]%string)) as H.
  rewrite Ex in H.
  refine (H _ _ _ _ _ _ _ _ _ _ _ _ _ _ _ _ _ _ _ _ (ex_call ex_tab ["-vname"; "-count=3"]%string ex_good eq_refl)
    (ex_call ex_tab ["-v-name"; "--count=3"]%string ex_good eq_refl) E).
Qed.

(** -v, -q, --name, --count: a table whose default command lines mean the same in the long-only build. *)
Definition ex_apart : list (entry (body Z)) :=
  [arg_litn (ExTable.o "v") None 0 3 None; arg_strn (ExTable.o "q") None None 0 1 None; arg_litn None (ExTable.o "name") 0 1 None;
   arg_intn (fun _ => 7) None (ExTable.o "count") None 0 2 None; arg_strn None None None 0 1 None].
Example C78_default_lines_kept_case :
  (apart (map e_hdr ex_apart) /\ declared (map e_hdr ex_apart) "=" = false /\ one_name_each (map e_hdr ex_apart)) /\
  ex_counts (ex_default ex_apart ["-vvqname"; "--na"; "f"; "--count"; "-5"; "-v-count=7"]%string) = Some ([3; 1; 1; 2; 1], 0) /\
  ex_lo ex_apart ["-vvqname"; "--na"; "f"; "--count"; "-5"; "-v-count=7"]%string =
  ex_default ex_apart ["-vvqname"; "--na"; "f"; "--count"; "-5"; "-v-count=7"]%string.
Proof.
  split; [|vm_compute; auto]. split; [|split; [reflexivity|]].
  - intros h n c r Hi Hn En. cbn in Hi. repeat (destruct Hi as [<-|Hi]; [cbn in Hn; intuition (subst; injection H as <- <-; reflexivity)|]). destruct Hi.
  - intros h Hi. cbn in Hi. repeat (destruct Hi as [<-|Hi]; [cbn; lia|]). destruct Hi.
Qed.

Example C78_one_or_two_dashes_case :
  nameable (map e_hdr ex_tab) (lit "co") /\ attached (lit "=3") /\
  (exists evs, read_args_in true false (map e_hdr ex_tab) (map lit ["-v"; "f"]%string) = (evs, Finished [lit "f"]) /\ clean evs) /\
  ex_counts (ex_lo ex_tab ["-v"; "f"; "-co=3"; "-vv"]%string) = Some ([3; 0; 0; 1; 1], 0) /\
  ex_lo ex_tab ["-v"; "f"; "-co=3"; "-vv"]%string = ex_lo ex_tab ["-v"; "f"; "--co=3"; "-vv"]%string.
Proof.
  split; [|split; [right; exists (lit "3"); reflexivity|split; [|vm_compute; auto]]].
  - exists (e_hdr (arg_intn (fun _ => 7) None (ExTable.o "count") None 0 2 None : entry (body Z))), (lit "count"), "c"%char, (lit "o").
    split; [right; right; right; left; reflexivity|]. split; [left; reflexivity|]. split; [reflexivity|]. split; [discriminate|].
    split; [cbn; intuition discriminate|]. split; [exists (lit "unt"); reflexivity|]. right. left. discriminate.
  - eexists. split; [reflexivity|]. intros c v [E|[]]. discriminate E.
Qed.

(** The two builds may accept one command line and store different values. *)
Theorem C78_same_meaning_refuted :
  exists (tab : list (entry (body Z))) args t1 t2, call 4 tab (ExTable.en 4) (ExTable.heap0 ("p"%string :: args)) 1 (lit "p") (map lit args) (S (total (map lit args))) /\
    ex_default tab args = Ok (t1, 0, []) /\ ex_lo tab args = Ok (t2, 0, []) /\ t1 <> t2.
Proof.
  exists ex_tab, ["-vname"%string].
  eexists. eexists. split; [apply ex_call; [exact ex_good|reflexivity]|]. split; [vm_compute; reflexivity|]. split; [vm_compute; reflexivity|].
  intros E. injection E. intros. discriminate.
Qed.
(** Command lines of the default build may be refused: because a cluster of short options abbreviates two long names, and because one
    entry has two long names with a common beginning. *)
Definition ex_ab : list (entry (body Z)) :=
  [arg_litn (ExTable.o "a") (ExTable.o "abc") 0 1 None; arg_litn (ExTable.o "b") (ExTable.o "abd") 0 1 None].
Theorem C78_default_lines_kept_refuted :
  (one_name_each (map e_hdr ex_ab) /\ Forall good_hdr (map e_hdr ex_ab) /\
   ex_counts (ex_default ex_ab ["-ab"]%string) = Some ([1; 1], 0) /\ ex_counts (ex_lo ex_ab ["-ab"]%string) = Some ([0; 0], 1)) /\
  (ex_counts (ex_default ExTable.tab ["--ver"; "x"]%string) = Some ([1; 0; 0; 1], 0) /\
   ex_counts (ex_lo ExTable.tab ["--ver"; "x"]%string) = Some ([0; 0; 0; 1], 1)).
Proof.
  split; [|vm_compute; auto]. split; [|split; [apply ExTable.good_hdrs_ok; reflexivity|vm_compute; auto]].
  intros h Hi. cbn in Hi. repeat (destruct Hi as [<-|Hi]; [cbn; lia|]). destruct Hi.
Qed.
Lemma ex_reached_lo : reached_lo ExTable.strtod ExTable.rexmatch Long64 unix_seps true ex_tab.
Proof.
  apply rl_new. repeat constructor; try (vm_compute; discriminate); intros; auto.
Qed.
(** A dash at the end of a cluster keeps this build busy for ever too. *)
Theorem C78_termination_refuted :
  forall fuel, arg_parse_in ex_kinds kcheck kreset false ExTable.jo ExTable.jc ExTable.jp true
    fuel 2 1 (ExTable.heap0 ["p"; "-v-"]%string) ExTable.s0 ex_tab (ExTable.en 4) = OutOfFuel.
Proof.
  intros fuel.
  refine (hang_in_safe ex_kinds kcheck kreset _ _
    (kinds_safe ExTable.strtod ExTable.rexmatch Long64 unix_seps _ true) true false ExTable.jo ExTable.jc ExTable.jp 4 _ 1 (ExTable.heap0 ["p"; "-v-"]%string)
    ExTable.s0 ex_tab (ExTable.en 4) (lit "p") (map lit ["-v-"]%string) [EvScan 0 None] _ _ (ex_call ex_tab ["-v-"]%string ex_good eq_refl) eq_refl fuel).
  - exact ex_contract.
  - exact (reached_lo_ready _ _ _ _ ex_contract true ex_tab ex_reached_lo).
  - apply safe_values; vm_compute; reflexivity.
Qed.

Example C78_safe_case :
  ex_counts (ex_lo ex_tab ["-nam"; "-vvn"; "-coun"; "5"; "-zz"]%string) = Some ([2; 1; 1; 0; 1], 1).
Proof. vm_compute. auto. Qed.

Print Assumptions C78_history_independent.
Print Assumptions C78_arguments_unchanged.
Print Assumptions C78_written_out.
Print Assumptions C78_default_lines_kept.
Print Assumptions C78_one_or_two_dashes.
Print Assumptions C78_parse_is_safe.
Print Assumptions C78_same_meaning_refuted.
Print Assumptions C78_default_lines_kept_refuted.
Print Assumptions C78_termination_refuted.
