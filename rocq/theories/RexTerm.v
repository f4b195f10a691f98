(** RexTerm: trex_matchnode ends, and where it reads. *)
From Coq Require Import ZArith String List Ascii Bool Lia.
From Verif Require Import Base RexModel RexSpec RexMatch.
Import ListNotations.
Open Scope Z_scope.

Fixpoint sz_elem (e : elem) : nat :=
  match e with Repeat _ _ e => S (sz_elem e) | Group _ a => S (sz_alt a) | Set_ _ l => S (List.length l) | _ => 1 end
with sz_seq (s : seq) : nat := match s with One e => sz_elem e | More e s => sz_elem e + sz_seq s end
with sz_alt (a : alt) : nat :=
  match a with Just b s => (if b then 1 else 0) + sz_seq s | Or b s a => S ((if b then 1 else 0) + sz_seq s + sz_alt a) end.
Definition sz_nk (x : nk) : nat :=
  match x with NE e => sz_elem e | NB => 1 | NO b s a => S ((if b then 1 else 0) + sz_seq s + sz_alt a) end.
Definition sz_list (l : list nk) : nat := fold_right (fun x n => sz_nk x + n)%nat O l.

Lemma sz_seq_list s : sz_list (seq_list s) = sz_seq s.
Proof. induction s as [e|e s IH]; cbn [seq_list sz_list fold_right sz_nk sz_seq]; [lia|]. unfold sz_list in IH. lia. Qed.
Lemma sz_start b s : sz_list (start b s) = ((if b then 1 else 0) + sz_seq s)%nat.
Proof. rewrite <- sz_seq_list. destruct b; cbn [start sz_list fold_right sz_nk]; unfold sz_list; lia. Qed.
Lemma sz_alt_list a : sz_list (alt_list a) = sz_alt a.
Proof. destruct a as [b s|b s a]; cbn [alt_list sz_alt]; [apply sz_start|]. cbn [sz_list fold_right sz_nk]. lia. Qed.
Lemma sz_elem_pos e : (1 <= sz_elem e)%nat.
Proof. destruct e; cbn [sz_elem]; lia. Qed.
Lemma sz_nk_pos x : (1 <= sz_nk x)%nat.
Proof. destruct x; cbn [sz_nk]; try lia. apply sz_elem_pos. Qed.
Lemma sz_list_len l : (List.length l <= sz_list l)%nat.
Proof. induction l as [|x l IH]; cbn [sz_list fold_right List.length]; [lia|]. assert (P := sz_nk_pos x). unfold sz_list in IH. lia. Qed.

Section Run.
Context (T : list node) (nsub flags : Z) (text : str) (nf : bool).
Notation ic := (icase flags).
Notation mn := (trex_matchnode T nsub flags text).
Notation len := (List.length text).
Notation repl := (repl T nsub).
Notation rep := (rep T nsub).

(** The outcome from position s: it ends; the only possible fault is a read outside the text; none for expressions that do not
    match NUL, which moreover stay inside. *)
Definition fine (r : res (option nat)) : Prop :=
  match r with OutOfFuel => False | UB u => nf = false /\ u = OutsideText | Ok (Some j) => nf = true -> (j <= len)%nat | Ok None => True end.
Definition fineb {A} (r : res A) : Prop :=
  match r with OutOfFuel => False | UB u => nf = false /\ u = OutsideText | Ok _ => True end.
Definition clean (l : list nk) : Prop := nf = true -> Forall (all_nk (nul_free_on text)) l.
Definition inside (s : nat) : Prop := nf = true -> (s <= len)%nat.

(** What may be behind the node i, followed by chain l: nothing, the rest of its own chain, or a chain of size at most w *)
Definition next_ok (i : Z) (l : list nk) (w : nat) (next : option Z) : Prop :=
  match next with
  | None => True
  | Some nx => (l <> [] /\ exists n, aget T i = Ok n /\ n_next n = nx) \/ exists ch, repl nx ch /\ (sz_list ch <= w)%nat /\ clean ch
  end.

Definition runs (f : Z -> nat -> option Z -> res (option nat)) (m : nat) : Prop :=
  forall i x l w s next, repl i (x :: l) -> clean (x :: l) -> next_ok i l w next -> inside s -> (sz_list (x :: l) + w <= m)%nat -> fine (f i s next).

Lemma repl_get i x l : repl i (x :: l) -> exists n, aget T i = Ok n /\ rep i x /\ (l = [] /\ n_next n = -1 \/ l <> [] /\ n_next n <> -1 /\ repl (n_next n) l).
Proof.
  intro R. inversion R as [i' n y G X RX|i' n y l' G X RX RL]; subst; exists n; split; auto; split; auto.
  right. split; [|auto]. inversion RL; discriminate.
Qed.
Lemma repl_cons i l : repl i l -> exists x k, l = x :: k.
Proof. intro R. inversion R; eauto. Qed.

Lemma clean_tl x l : clean (x :: l) -> clean l.
Proof. intros C N. specialize (C N). inversion C; auto. Qed.

Lemma rd_fine s : inside s -> fineb (rd text s).
Proof.
  intro I. unfold rd. destruct (Nat.ltb_spec s len).
  - destruct (nth_error text s) eqn:E; [exact Logic.I|]. apply nth_error_None in E. lia.
  - destruct (Nat.eqb_spec s len); [exact Logic.I|]. cbn [fineb]. split; [|reflexivity]. unfold inside in I. destruct nf; [|reflexivity]. specialize (I eq_refl). lia.
Qed.
Lemma rd_nul s c : inside s -> nf = true -> rd text s = Ok c -> c <> NUL -> (S s <= len)%nat.
Proof.
  intros I N. specialize (I N). unfold rd. destruct (Nat.ltb_spec s len) as [L|L]; [lia|]. destruct (Nat.eqb_spec s len); [|discriminate].
  intros H NN. injection H as <-. congruence.
Qed.

Lemma eqb_m1 : (-1 =? -1) = true. Proof. reflexivity. Qed.

(** The chain behind a repetition: its own, or the one given *)
Lemma stop_chain m i l w next n g : aget T i = Ok n ->
  (l = [] /\ n_next n = -1 \/ l <> [] /\ n_next n <> -1 /\ repl (n_next n) l) -> clean l -> next_ok i l w next -> (sz_list l + w <= m)%nat ->
  (if n_next n =? -1 then next else Some (n_next n)) = Some g ->
  exists y k wg gn, repl g (y :: k) /\ clean (y :: k) /\ (sz_list (y :: k) + wg <= m)%nat /\ aget T g = Ok gn /\
    exists gnext, (if n_next gn =? -1 then match next with None => Ok None | Some x => xn <- aget T x ;; Ok (link (n_next xn)) end
                  else Ok (Some (n_next gn))) = Ok gnext /\ next_ok g k wg gnext.
Proof.
  intros G NX CL NO' SZ ES. destruct NX as [[-> X]|(LN & X & RN)].
  - rewrite X, eqb_m1 in ES. subst next. destruct NO' as [[NE' _]|(ch & RC & SC & CC)]; [congruence|].
    destruct (repl_cons _ _ RC) as (y & k & ->). destruct (repl_get _ _ _ RC) as (gn & GG & _ & KK).
    exists y, k, O, gn. repeat split; auto; [cbn [sz_list fold_right] in *; lia|].
    destruct KK as [[-> Y]|(KN & Y & RK)].
    + rewrite Y, eqb_m1, GG. cbn [bind]. rewrite Y. exists None. split; [reflexivity|exact Logic.I].
    + destruct (Z.eqb_spec (n_next gn) (-1)); [contradiction|]. eexists. split; [reflexivity|]. left. eauto.
  - destruct (Z.eqb_spec (n_next n) (-1)); [contradiction|]. injection ES as <-. destruct (repl_cons _ _ RN) as (y & k & ->).
    destruct (repl_get _ _ _ RN) as (gn & GG & _ & KK). exists y, k, w, gn. repeat split; auto.
    destruct KK as [[-> Y]|(KN & Y & RK)].
    + rewrite Y, eqb_m1. destruct next as [x|]; [|exists None; split; [reflexivity|exact Logic.I]].
      destruct NO' as [(_ & n' & G' & <-)|(ch & RC & SC & CC)].
      * assert (n' = n) by congruence. subst n'. rewrite GG. cbn [bind]. rewrite Y. exists None. split; [reflexivity|exact Logic.I].
      * destruct (repl_cons _ _ RC) as (z & k' & ->). destruct (repl_get _ _ _ RC) as (xn & GX & _ & KX). rewrite GX. cbn [bind].
        eexists. split; [reflexivity|]. unfold link. destruct KX as [[-> Z]|(KN & Z & RK)].
        -- rewrite Z, eqb_m1. exact Logic.I.
        -- destruct (Z.eqb_spec (n_next xn) (-1)); [exact Logic.I|]. right. exists k'. repeat split; auto.
           ++ cbn [sz_list fold_right] in SC. unfold sz_list. lia.
           ++ exact (clean_tl _ _ CC).
    + destruct (Z.eqb_spec (n_next gn) (-1)); [contradiction|]. eexists. split; [reflexivity|]. left. eauto.
Qed.

Lemma greedy_runs f m left e p0 p1 w i l next n :
  0 <= p1 <= 65535 -> runs f m -> repl left [NE e] -> clean [NE e] -> aget T i = Ok n ->
  (l = [] /\ n_next n = -1 \/ l <> [] /\ n_next n <> -1 /\ repl (n_next n) l) -> clean l -> next_ok i l w next ->
  (sz_elem e + sz_list l + w <= m)%nat ->
  forall fuel nm s, 0 <= nm <= p1 + 1 -> (nm = p1 + 1 -> p1 = 65535) -> (Z.to_nat (p1 + 2 - nm) <= fuel)%nat -> inside s ->
  fine (greedy T text f p0 p1 left (if n_next n =? -1 then next else Some (n_next n)) next fuel nm s s).
Proof.
  intros P1 F RL CE G NX CL NO' SZ.
  set (stop := if n_next n =? -1 then next else Some (n_next n)).
  assert (CALL1 : forall s, inside s -> fine (f left s stop)).
  { intros s IS. apply (F left (NE e) [] (sz_list l + w)%nat); auto.
    - unfold stop. destruct NX as [[-> X]|(LN & X & RN)].
      + rewrite X, eqb_m1. unfold next_ok in *. destruct next as [nx|]; [|exact Logic.I].
        destruct NO' as [[NE' _]|(ch & RC & SC & CC)]; [congruence|]. right. exists ch. repeat split; auto; cbn [sz_list fold_right] in *; lia.
      + destruct (Z.eqb_spec (n_next n) (-1)); [contradiction|]. right. exists l. repeat split; auto. lia.
    - unfold sz_list in *. cbn [fold_right sz_nk]. lia. }
  assert (CALL2 : forall nm s, inside s -> fineb (stop_here T f p0 p1 stop next nm s)).
  { intros nm s IS. unfold stop_here. destruct stop as [g|] eqn:ES; [|exact Logic.I].
    destruct (stop_chain m i l w next n g G NX CL NO' ltac:(lia) ES) as (y & k & wg & gn & RG & CG & SG & GG & gnext & EG & NG).
    rewrite GG. cbn [bind]. destruct (negb _ || negb _); [|exact Logic.I]. rewrite EG. cbn [bind].
    assert (H := F g y k wg s gnext RG CG NG IS SG). destruct (f g s gnext) as [[?|]|?|]; cbn [bind fine fineb] in *; auto. }
  clearbody stop.
  induction fuel as [|fuel IH]; intros nm s NM NP FU IS; cbn [greedy]; [lia|].
  assert (FIN : forall nm, fine (Ok (if enough p0 p1 nm then Some s else None))).
  { intro nm'. destruct (enough p0 p1 nm'); [exact IS|exact Logic.I]. }
  destruct ((nm =? 65535) || (nm <? p1)) eqn:C; [|apply FIN].
  assert (C' : nm = 65535 \/ nm < p1) by (apply orb_true_iff in C; rewrite Z.eqb_eq, Z.ltb_lt in C; exact C).
  assert (H := CALL1 s IS). destruct (f left s stop) as [[s'|]|u|]; cbn [bind fine] in *; auto; [|apply FIN].
  assert (H2 := CALL2 (nm + 1) s' H). destruct (stop_here T f p0 p1 stop next (nm + 1) s') as [b|u|]; cbn [bind fineb fine] in *; auto.
  destruct (b || (len <=? s')%nat).
  - destruct (enough p0 p1 (nm + 1)); [exact H|exact Logic.I].
  - apply IH; auto; lia.
Qed.

Lemma branch_runs f m : runs f m -> forall fuel l i s, repl i l -> clean l -> inside s -> (sz_list l <= m)%nat -> (List.length l <= fuel)%nat ->
  fine (branch T f fuel i s).
Proof.
  intros F. induction fuel as [|fuel IH]; intros l i s R C IS SZ LE.
  - destruct (repl_cons _ _ R) as (x & k & ->). cbn [List.length] in LE. lia.
  - cbn [branch]. destruct (repl_cons _ _ R) as (x & k & ->). destruct (repl_get _ _ _ R) as (n & G & RX & KK).
    assert (H := F i x k O s None R C Logic.I IS ltac:(lia)). destruct (f i s None) as [[s'|]|u|]; cbn [bind fine] in *; auto.
    rewrite G. cbn [bind]. destruct KK as [[-> X]|(KN & X & RK)].
    + rewrite X, eqb_m1. exact H.
    + destruct (Z.eqb_spec (n_next n) (-1)); [contradiction|]. apply (IH k); auto.
      * exact (clean_tl _ _ C).
      * cbn [sz_list fold_right] in SZ. unfold sz_list. lia.
      * cbn [List.length] in LE. lia.
Qed.
Lemma sequence_runs f m w next : runs f m -> match next with None => True | Some nx => exists ch, repl nx ch /\ (sz_list ch <= w)%nat /\ clean ch end ->
  forall fuel l i s, repl i l -> clean l -> inside s -> (sz_list l + w <= m)%nat -> (List.length l <= fuel)%nat ->
  fine (sequence T f fuel i s next).
Proof.
  intros F NO'. induction fuel as [|fuel IH]; intros l i s R C IS SZ LE.
  - destruct (repl_cons _ _ R) as (x & k & ->). cbn [List.length] in LE. lia.
  - cbn [sequence]. destruct (repl_cons _ _ R) as (x & k & ->). destruct (repl_get _ _ _ R) as (n & G & RX & KK).
    rewrite G. cbn [bind].
    assert (NX : next_ok i k w (if n_next n =? -1 then next else Some (n_next n))).
    { destruct KK as [[-> X]|(KN & X & RK)].
      - rewrite X, eqb_m1. destruct next as [nx|]; [|exact Logic.I]. right. exact NO'.
      - destruct (Z.eqb_spec (n_next n) (-1)); [contradiction|]. left. eauto. }
    assert (H := F i x k w s _ R C NX IS SZ). destruct (f i s _) as [[s'|]|u|]; cbn [bind fine] in *; auto.
    destruct KK as [[-> X]|(KN & X & RK)].
    + rewrite X, eqb_m1. exact H.
    + destruct (Z.eqb_spec (n_next n) (-1)); [contradiction|]. apply (IH k); auto.
      * exact (clean_tl _ _ C).
      * cbn [sz_list fold_right] in SZ. unfold sz_list. lia.
      * cbn [List.length] in LE. lia.
Qed.

Lemma matchclass_runs fuel i l x : items_at T i l -> (List.length l <= fuel)%nat -> exists b, trex_matchclass T flags fuel i x = Ok b /\
  (b = true -> exists it n, In it l /\ item_node it n /\ class_item flags n x = true).
Proof.
  intro R. revert fuel. induction R as [i n it G N X|i n it l G N X R IH]; intros fuel LE; (destruct fuel as [|fuel]; cbn [List.length] in LE; [lia|]);
    cbn [trex_matchclass]; rewrite G; cbn [bind]; destruct (class_item flags n x) eqn:E.
  - exists true. split; auto. intros _. exists it, n. repeat split; auto. left. auto.
  - rewrite X, eqb_m1. exists false. split; [auto|discriminate].
  - exists true. split; auto. intros _. exists it, n. repeat split; auto. left. auto.
  - destruct (Z.eqb_spec (n_next n) (-1)); [contradiction|]. destruct (IH fuel ltac:(lia)) as (b & -> & H). exists b. split; auto.
    intro B. destruct (H B) as (it' & n' & A1 & A2 & A3). exists it', n'. repeat split; auto. right. auto.
Qed.

(** NUL matches nothing that is free of it. *)
Lemma cclass_nul k : positive_class k -> trex_matchcclass (sc k) NUL = false.
Proof. unfold positive_class. cbn [lit list_ascii_of_string In]. intro H. repeat destruct H as [<-|H]; [..|contradiction]; reflexivity. Qed.
Lemma char_nul c : c <> NUL -> (if ic then (sc NUL =? lower (sc c)) || (sc NUL =? upper (sc c)) else sc NUL =? sc c) = false.
Proof.
  intro H. destruct (if ic then _ else _) eqn:E; [|reflexivity]. apply same_spec in E. destruct E as [E|[_ E]]; [congruence|].
  exfalso. apply H. assert (X : all_chars (fun c => implb (ceqb (tolower NUL) (tolower c)) (ceqb c NUL)) = true) by (vm_compute; reflexivity).
  assert (Y := every_char _ X c). cbn beta in Y. rewrite E in Y. rewrite (proj2 (ceqb_eq (tolower c) (tolower c)) eq_refl) in Y.
  apply ceqb_eq. exact Y.
Qed.
Lemma item_nul it n : item_node it n -> nul_free_item it -> class_item flags n NUL = false.
Proof.
  unfold class_item. destruct it as [c|k|a b]; cbn [item_node nul_free_item].
  - intros -> H. assert (R := sc_range c). destruct (Z.eqb_spec (sc c) OP_RANGE) as [X|_]; [unfold OP_RANGE in X; lia|].
    destruct (Z.eqb_spec (sc c) OP_CCLASS) as [X|_]; [unfold OP_CCLASS in X; lia|]. apply char_nul. exact H.
  - intros (-> & -> & _) H. cbn [Z.eqb OP_CCLASS OP_RANGE Pos.eqb]. apply cclass_nul. exact H.
  - intros (-> & -> & ->) H. cbn [Z.eqb OP_RANGE Pos.eqb]. rewrite lower_sc, upper_sc, lower_sc, upper_sc, !sc_tolower, !sc_toupper.
    change (sc NUL) with 0.
    assert (forall u v, u <= v -> (0 < u \/ v < 0 -> (u <=? 0) && (0 <=? v) = false)) by (intros; destruct (Z.leb_spec u 0); destruct (Z.leb_spec 0 v); cbn [andb]; auto; lia).
    assert (Q : forall u v, (0 < u \/ v < 0) -> (u <=? 0) && (0 <=? v) = false) by (intros; destruct (Z.leb_spec u 0); destruct (Z.leb_spec 0 v); cbn [andb]; auto; lia).
    destruct ic.
    + rewrite !Q; auto;
      destruct (Z.leb_spec 65 (sc a)); destruct (Z.leb_spec (sc a) 90); destruct (Z.leb_spec 97 (sc a)); destruct (Z.leb_spec (sc a) 122);
      destruct (Z.leb_spec 65 (sc b)); destruct (Z.leb_spec (sc b) 90); destruct (Z.leb_spec 97 (sc b)); destruct (Z.leb_spec (sc b) 122); cbn [andb]; lia.
    + apply Q. exact H.
Qed.

Lemma step_fine s c (b : bool) : inside s -> rd text s = Ok c -> (nf = true -> c = NUL -> b = false) -> fine (Ok (if b then Some (S s) else None)).
Proof.
  intros IS RD H. destruct b; [|exact Logic.I]. cbn [fine]. intro N. apply (rd_nul s c IS N RD). intro E. specialize (H N E). discriminate.
Qed.

Theorem matchnode_runs fuel : (fuel <= S (List.length T))%nat -> runs (mn fuel) (fuel - 1) /\ (fuel = O \/ runs (mn fuel) (fuel - 1)).
Proof.
  intro LT. assert (H : fuel = O \/ runs (mn fuel) (fuel - 1)). 2:{ split; [|exact H]. destruct H as [->|H]; [|exact H].
    intros i x l w s next R C N I SZ. exfalso. assert (P := sz_nk_pos x). cbn [sz_list fold_right] in SZ. lia. }
  induction fuel as [|fuel IH]; [left; reflexivity|right].
  assert (F : runs (mn fuel) (fuel - 1)).
  { destruct (IH ltac:(lia)) as [->|F]; [|exact F]. intros i x l w s next R C N I SZ. exfalso. assert (P := sz_nk_pos x). cbn [sz_list fold_right] in SZ. lia. }
  clear IH. replace (S fuel - 1)%nat with fuel by lia.
  intros i x l w s next R C NO' IS SZ. destruct (repl_get _ _ _ R) as (n & G & RX & KK).
  assert (CX : nf = true -> all_nk (nul_free_on text) x) by (intro N; specialize (C N); inversion C; auto).
  assert (CL : clean l) by (exact (clean_tl _ _ C)).
  cbn [sz_list fold_right] in SZ. fold (sz_list l) in SZ.
  inversion RX as [i' n' c G' E|i' n' k G' E E2 K|i' n' b G' E E2|i' n' G' E|i' n' G' E|i' n' neg li G' E IT|i' n' lo hi e G' E E2 RL|i' n' cap a G' E CP RL|i' n' G' E|i' n' b q a G' E RL RR];
    subst; assert (n' = n) by congruence; subst n'; cbn [trex_matchnode]; rewrite G; cbn [bind].
  - rewrite E. destruct (char_type c (sc_range c)) as (-> & -> & -> & -> & -> & -> & -> & -> & -> & -> & ->). cbn [orb].
    assert (RF := rd_fine s IS). destruct (rd text s) as [y|u|] eqn:RD; cbn [bind fineb] in *; auto.
    apply (step_fine s y); auto. intros N ->. apply char_nul. destruct (CX N) as [H _]. exact H.
  - settype E. rewrite E2. assert (RF := rd_fine s IS). destruct (rd text s) as [y|u|] eqn:RD; cbn [bind fineb] in *; auto.
    apply (step_fine s y); auto. intros N ->. apply cclass_nul. destruct (CX N) as [H _]. exact H.
  - settype E. destruct nf eqn:NF.
    { assert (L := IS NF). destruct (CX eq_refl) as [H _]. cbn [nul_free_on] in H.
      assert (RF : forall s', (s' <= len)%nat -> exists c, rd text s' = Ok c).
      { intros s' L'. unfold rd. destruct (Nat.ltb_spec s' len) as [L2|L2]; [|destruct (Nat.eqb_spec s' len); [eauto|lia]].
        destruct (nth_error text s') eqn:NE'; [eauto|]. apply nth_error_None in NE'. lia. }
      assert (B : exists c, boundary text s = Ok c).
      { unfold boundary. destruct (RF s L) as (c & RC). rewrite RC. cbn [bind]. destruct ((s =? 0)%nat && negb (isspaceb c)) eqn:Z0; [eauto|].
        destruct (Nat.eqb_spec s len) as [Z1|Z1].
        - destruct s as [|s'].
          + exfalso. unfold rd in RC. rewrite <- Z1 in RC. cbn in RC. injection RC as <-. cbn in Z0. discriminate.
          + destruct (RF s' ltac:(lia)) as (p & RP). rewrite RP. cbn [bind]. rewrite (H (firstn s' text) p).
            * cbn [negb]. eauto.
            * unfold rd in RP. destruct (Nat.ltb_spec s' len); [|lia]. destruct (nth_error text s') as [q|] eqn:NQ; [|discriminate]. injection RP as ->.
              rewrite <- (firstn_skipn s' text) at 1. f_equal. clear -NQ Z1. revert s' NQ Z1. induction text as [|a l IH]; intros s' NQ Z1; [discriminate|].
              destruct s' as [|s']; cbn in *; [injection NQ as ->; destruct l; [reflexivity|discriminate]|apply IH; [exact NQ|lia]].
        - cbn [bind]. destruct (RF (S s) ltac:(lia)) as (d & RD). rewrite RD. cbn [bind]. eauto. }
      destruct B as (c & ->). cbn [bind]. destruct (Bool.eqb _ _); cbn [fine]; auto. }
    unfold boundary.
    assert (RF : forall s, match rd text s with Ok _ => True | UB u => u = OutsideText | OutOfFuel => False end).
    { intro s'. unfold rd. destruct (Nat.ltb_spec s' len) as [L|L]; [|destruct (s' =? len)%nat; auto]. destruct (nth_error text s'); auto. }
    assert (R1 := RF s). destruct (rd text s) as [y|u|]; cbn [bind]; auto; [|split; auto].
    destruct ((s =? 0)%nat && negb (isspaceb y)); cbn [bind].
    { destruct (Bool.eqb _ _); cbn [fine]; auto; try (intro; discriminate). }
    destruct (s =? len)%nat.
    + destruct s as [|s']; cbn [bind fine]; [split; auto|]. assert (R2 := RF s'). destruct (rd text s') as [z|u|]; cbn [bind fine]; auto.
      destruct (negb (isspaceb z)); cbn [bind fine]; [destruct (Bool.eqb _ _); cbn [fine]; auto; try (intro; discriminate)|].
      assert (R3 := RF (S (S s'))). destruct (rd text (S (S s'))) as [z'|u|]; cbn [bind fine]; auto. destruct (Bool.eqb _ (n_left n =? _)); cbn [fine]; auto; try (intro; discriminate).
    + cbn [bind]. assert (R3 := RF (S s)). destruct (rd text (S s)) as [z'|u|]; cbn [bind fine]; auto. destruct (Bool.eqb _ (n_left n =? _)); cbn [fine]; auto; try (intro; discriminate).
  - settype E. cbn [fine]. intro N. destruct (CX N) as [H _]. destruct H.
  - settype E. destruct (Nat.eqb_spec s len); cbn [fine]; auto.
  - assert (SH : fine (c <- rd text s ;; b <- trex_matchclass T flags (List.length T) (n_left n) c ;; Ok (if Bool.eqb b (negb neg) then Some (S s) else None))).
    { assert (RF := rd_fine s IS). destruct (rd text s) as [y|u|] eqn:RD; cbn [bind fineb] in *; auto.
      cbn [sz_nk sz_elem] in SZ. destruct (matchclass_runs (List.length T) (n_left n) li y IT ltac:(lia)) as (b & -> & HB). cbn [bind].
      apply (step_fine s y); auto. intros N ->. destruct (CX N) as [[-> H] _]. cbn [negb]. destruct b; [|reflexivity].
      destruct (HB eq_refl) as (it & m & I1 & I2 & I3). rewrite (item_nul it m I2 (H it I1)) in I3. discriminate. }
    rewrite E. destruct neg; exact SH.
  - settype E.
    assert (P1 : 0 <= match hi with Some h => h mod 65536 | None => 65535 end < 65536) by (destruct hi as [h|]; [apply Z.mod_pos_bound; lia|lia]).
    destruct (low_pack _ _ _ E2 ltac:(apply Z.mod_pos_bound; lia) P1) as [-> ->].
    cbn [sz_nk sz_elem] in SZ. set (p1 := match hi with Some h => h mod 65536 | None => 65535 end) in *. clearbody p1.
    apply (greedy_runs (mn fuel) (fuel - 1) (n_left n) e _ p1 w i l next n); auto; try lia.
    + intro N. constructor; [|constructor]. destruct (CX N) as [_ H]. exact H.
  - assert (SH : fine (sequence T (mn fuel) (List.length T) (n_left n) s next)).
    { cbn [sz_nk sz_elem] in SZ. destruct (repl_cons _ _ RL) as (y & k & EA).
      apply (sequence_runs (mn fuel) (fuel - 1) (sz_list l + w) next) with (l := alt_list a); auto.
      - unfold next_ok in NO'. destruct next as [nx|]; [|exact Logic.I]. destruct NO' as [(LN & n' & G'' & <-)|(ch & RC & SC & CC)].
        + assert (n' = n) by congruence. subst n'. destruct KK as [[-> _]|(_ & _ & RK)]; [congruence|]. exists l. repeat split; auto. lia.
        + exists ch. repeat split; auto. lia.
      - intro N. apply all_alt_list. destruct (CX N) as [_ H]. exact H.
      - rewrite sz_alt_list. lia.
      - assert (Q := sz_list_len (alt_list a)). rewrite sz_alt_list in Q. lia. }
    rewrite E. destruct cap; settype E; [|exact SH]. specialize (CP eq_refl).
    destruct (Z.leb_spec 0 (n_right n)); [|lia]. destruct (Z.ltb_spec (n_right n) nsub); [|lia]. cbn [andb negb]. exact SH.
  - settype E. destruct (Nat.eqb_spec s 0); cbn [fine]; auto.
  - settype E. cbn [sz_nk] in SZ.
    assert (QS := sz_list_len (start b q)). rewrite sz_start in QS. assert (QA := sz_list_len (alt_list a)). rewrite sz_alt_list in QA.
    assert (H := branch_runs (mn fuel) (fuel - 1) F (List.length T) (start b q) (n_left n) s RL).
    assert (H2 := branch_runs (mn fuel) (fuel - 1) F (List.length T) (alt_list a) (n_right n) s RR).
    assert (X1 : fine (branch T (mn fuel) (List.length T) (n_left n) s)).
    { apply H; auto; [|rewrite sz_start; lia|lia]. intro N. apply all_start. apply (CX N). }
    assert (X2 : fine (branch T (mn fuel) (List.length T) (n_right n) s)).
    { apply H2; auto; [|rewrite sz_alt_list; lia|lia]. intro N. apply all_alt_list. apply (CX N). }
    destruct (branch T (mn fuel) (List.length T) (n_left n) s) as [[e|]|u|]; cbn [bind fine] in *; auto.
Qed.
End Run.
