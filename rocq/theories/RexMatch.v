(** RexMatch: what trex_matchnode does on a node table that represents an expression. *)
From Coq Require Import ZArith String List Ascii Bool Lia.
From Verif Require Import Base RexModel RexSpec.
Import ListNotations.
Open Scope Z_scope.

(** A chain of nodes as seen by the matcher: elements, the anchor, a choice *)
Inductive nk := NE (e : elem) | NB | NO (b : bool) (s : seq) (a : alt).
Fixpoint seq_list (s : seq) : list nk := match s with One e => [NE e] | More e s => NE e :: seq_list s end.
Definition start (b : bool) (s : seq) : list nk := if b then NB :: seq_list s else seq_list s.
Definition alt_list (a : alt) : list nk := match a with Just b s => start b s | Or b s a => [NO b s a] end.

Section Rep.
Context (T : list node) (nsub : Z).
Definition item_node (it : item) (n : node) : Prop :=
  match it with
  | IChar c => n_type n = sc c
  | INamed k => n_type n = OP_CCLASS /\ n_left n = sc k /\ class_name k
  | IRange a b => n_type n = OP_RANGE /\ n_left n = sc a /\ n_right n = sc b
  end.
Inductive items_at : Z -> list item -> Prop :=
| ia_one i n it : aget T i = Ok n -> item_node it n -> n_next n = -1 -> items_at i [it]
| ia_more i n it l : aget T i = Ok n -> item_node it n -> n_next n <> -1 -> items_at (n_next n) l -> items_at i (it :: l).
Inductive rep : Z -> nk -> Prop :=
| rep_char i n c : aget T i = Ok n -> n_type n = sc c -> rep i (NE (Char c))
| rep_named i n k : aget T i = Ok n -> n_type n = OP_CCLASS -> n_left n = sc k -> class_name k -> rep i (NE (Named k))
| rep_wb i n (b : bool) : aget T i = Ok n -> n_type n = OP_WB -> n_left n = sc (if b then "b" else "B")%char -> rep i (NE (Boundary b))
| rep_any i n : aget T i = Ok n -> n_type n = OP_DOT -> rep i (NE Any)
| rep_end i n : aget T i = Ok n -> n_type n = OP_EOL -> rep i (NE End)
| rep_set i n (neg : bool) l : aget T i = Ok n -> n_type n = (if neg then OP_NCLASS else OP_CLASS) -> items_at (n_left n) l -> rep i (NE (Set_ neg l))
| rep_repeat i n lo hi e : aget T i = Ok n -> n_type n = OP_GREEDY ->
    n_right n = pack (lo mod 65536) (match hi with Some h => h mod 65536 | None => 65535 end) -> repl (n_left n) [NE e] -> rep i (NE (Repeat lo hi e))
| rep_group i n (cap : bool) a : aget T i = Ok n -> n_type n = (if cap then OP_EXPR else OP_NOCAPEXPR) -> (cap = true -> 0 <= n_right n < nsub) ->
    repl (n_left n) (alt_list a) -> rep i (NE (Group cap a))
| rep_bol i n : aget T i = Ok n -> n_type n = OP_BOL -> rep i NB
| rep_or i n b s a : aget T i = Ok n -> n_type n = OP_OR -> repl (n_left n) (start b s) -> repl (n_right n) (alt_list a) -> rep i (NO b s a)
with repl : Z -> list nk -> Prop :=
| repl_one i n x : aget T i = Ok n -> n_next n = -1 -> rep i x -> repl i [x]
| repl_more i n x l : aget T i = Ok n -> n_next n <> -1 -> rep i x -> repl (n_next n) l -> repl i (x :: l).
End Rep.

(** ** Characters *)
Lemma uc_range c : 0 <= uc c < 256.
Proof. unfold uc. assert (H := N_ascii_bounded c). lia. Qed.
Lemma sc_range c : -128 <= sc c < 128.
Proof. unfold sc. assert (H := uc_range c). destruct (Z.ltb_spec (uc c) 128); lia. Qed.
Lemma uc_inj c d : uc c = uc d -> c = d.
Proof. unfold uc. intro H. apply N2Z.inj in H. rewrite <- (ascii_N_embedding c), <- (ascii_N_embedding d), H. reflexivity. Qed.
Lemma sc_inj c d : sc c = sc d -> c = d.
Proof.
  intro H. apply uc_inj. unfold sc in H. assert (A := uc_range c). assert (B := uc_range d).
  destruct (Z.ltb_spec (uc c) 128); destruct (Z.ltb_spec (uc d) 128); lia.
Qed.
Lemma chr_uc c : chr (uc c) = c.
Proof. unfold chr. rewrite Z.mod_small by apply uc_range. unfold uc. rewrite N2Z.id. apply ascii_N_embedding. Qed.
Lemma chr_sc c : chr (sc c) = c.
Proof.
  rewrite <- (chr_uc c) at 2. unfold sc. destruct (Z.ltb_spec (uc c) 128); auto. unfold chr.
  f_equal. f_equal. rewrite <- (Z.mod_add (uc c - 256) 1 256) by lia. f_equal. lia.
Qed.
Lemma sc_eqb c d : (sc c =? sc d) = ceqb c d.
Proof.
  destruct (ceqb c d) eqn:E.
  - apply ceqb_eq in E. subst. apply Z.eqb_refl.
  - apply Z.eqb_neq. intro H. apply sc_inj in H. subst. rewrite (proj2 (ceqb_eq d d) eq_refl) in E. discriminate.
Qed.
Lemma lower_sc c : lower (sc c) = sc (tolower c).
Proof. unfold lower. rewrite chr_sc. reflexivity. Qed.
Lemma upper_sc c : upper (sc c) = sc (toupper c).
Proof. unfold upper. rewrite chr_sc. reflexivity. Qed.
(** Facts about all characters, by inspection *)
Definition all_chars (p : ascii -> bool) : bool := forallb (fun n => p (ascii_of_nat n)) (List.seq 0 256).
Lemma every_char p : all_chars p = true -> forall c, p c = true.
Proof.
  unfold all_chars. rewrite forallb_forall. intros H c. rewrite <- (ascii_nat_embedding c). apply H.
  apply in_seq. split; [lia|]. apply nat_ascii_bounded.
Qed.
Ltac by_chars2 p c d := refine (every_char (fun c => all_chars (p c)) _ c); vm_compute; reflexivity.

Lemma fold_eq c x : (ceqb x (tolower c) || ceqb x (toupper c)) = ceqb (tolower x) (tolower c).
Proof.
  assert (H : all_chars (fun c => all_chars (fun x => Bool.eqb (ceqb x (tolower c) || ceqb x (toupper c)) (ceqb (tolower x) (tolower c)))) = true)
    by (vm_compute; reflexivity).
  apply Bool.eqb_prop. exact (every_char _ (every_char _ H c) x).
Qed.
Lemma same_spec (ic : bool) c x :
  (if ic then (sc x =? lower (sc c)) || (sc x =? upper (sc c)) else sc x =? sc c) = true <-> same ic c x.
Proof.
  rewrite lower_sc, upper_sc, !sc_eqb, fold_eq. unfold same. destruct ic; rewrite ceqb_eq; split; auto.
  - intros [->|[_ H]]; auto.
  - intros [H|[H _]]; [auto|discriminate].
Qed.
Lemma cclass_spec k x : class_name k -> trex_matchcclass (sc k) x = true <-> in_class k x.
Proof.
  unfold class_name, in_class, trex_matchcclass. rewrite !sc_eqb. cbn [lit list_ascii_of_string In]. intro H.
  repeat destruct H as [<-|H]; [..|contradiction]; cbn [ceqb Ascii.eqb Bool.eqb]; rewrite <- ?negb_orb; split; intro E;
    repeat match goal with
    | |- In _ _ => fail 1
    | _ => idtac
    end;
    try (rewrite E; cbn [In]; auto 20; fail);
    cbn [In] in E; repeat destruct E as [E|E]; try congruence; try contradiction.
Qed.
Lemma sc_tolower c : sc (tolower c) = if (65 <=? sc c) && (sc c <=? 90) then sc c + 32 else sc c.
Proof. apply Z.eqb_eq. refine (every_char (fun c => sc (tolower c) =? if (65 <=? sc c) && (sc c <=? 90) then sc c + 32 else sc c) _ c). vm_compute. reflexivity. Qed.
Lemma sc_toupper c : sc (toupper c) = if (97 <=? sc c) && (sc c <=? 122) then sc c - 32 else sc c.
Proof. apply Z.eqb_eq. refine (every_char (fun c => sc (toupper c) =? if (97 <=? sc c) && (sc c <=? 122) then sc c - 32 else sc c) _ c). vm_compute. reflexivity. Qed.
Lemma isupper_sc c : isupperb c = (65 <=? sc c) && (sc c <=? 90).
Proof. apply Bool.eqb_prop. refine (every_char (fun c => Bool.eqb (isupperb c) ((65 <=? sc c) && (sc c <=? 90))) _ c). vm_compute. reflexivity. Qed.
Lemma islower_sc c : islowerb c = (97 <=? sc c) && (sc c <=? 122).
Proof. apply Bool.eqb_prop. refine (every_char (fun c => Bool.eqb (islowerb c) ((97 <=? sc c) && (sc c <=? 122))) _ c). vm_compute. reflexivity. Qed.

Lemma range_even ic a b x : (ic = true -> even_range (IRange a b)) ->
  (if ic then ((upper (sc a) <=? sc x) && (sc x <=? upper (sc b))) || ((lower (sc a) <=? sc x) && (sc x <=? lower (sc b)))
   else (sc a <=? sc x) && (sc x <=? sc b)) = true <-> in_item ic (IRange a b) x.
Proof.
  intro E. cbn [in_item even_range] in *. unfold within in *. destruct ic.
  - specialize (E eq_refl). rewrite lower_sc, upper_sc, lower_sc, upper_sc.
    rewrite (sc_tolower a), (sc_tolower b), (sc_toupper a), (sc_toupper b), (sc_tolower x), (sc_toupper x).
    unfold isalphab in E. rewrite !isupper_sc, !islower_sc in E.
    change (sc "A") with 65 in E. change (sc "a") with 97 in E.
    rewrite orb_true_iff, !andb_true_iff, !Z.leb_le.
    rewrite ?orb_false_iff, ?andb_false_iff, ?andb_true_iff, ?Z.leb_le, ?Z.leb_gt in E.
    generalize dependent (sc a). generalize dependent (sc b). generalize dependent (sc x). clear. intros x b a E.
    destruct (Z.leb_spec 65 a); destruct (Z.leb_spec a 90); destruct (Z.leb_spec 97 a); destruct (Z.leb_spec a 122);
    try lia; cbn [andb];
    destruct (Z.leb_spec 65 b); destruct (Z.leb_spec b 90); destruct (Z.leb_spec 97 b); destruct (Z.leb_spec b 122); try lia; cbn [andb];
    destruct (Z.leb_spec 65 x); destruct (Z.leb_spec x 90); destruct (Z.leb_spec 97 x); destruct (Z.leb_spec x 122); try lia; cbn [andb]; lia.
  - rewrite andb_true_iff, !Z.leb_le. split; [auto|]. intros [H|[H _]]; [exact H|discriminate].
Qed.

Ltac settype E := rewrite ?E; cbn [Z.eqb Pos.eqb orb andb negb OP_GREEDY OP_OR OP_EXPR OP_NOCAPEXPR OP_DOT OP_CLASS OP_CCLASS OP_NCLASS OP_RANGE OP_EOL OP_BOL OP_WB].


Lemma char_type c : -128 <= sc c < 128 -> (sc c =? OP_GREEDY) = false /\ (sc c =? OP_OR) = false /\ (sc c =? OP_EXPR) = false /\ (sc c =? OP_NOCAPEXPR) = false /\
  (sc c =? OP_WB) = false /\ (sc c =? OP_BOL) = false /\ (sc c =? OP_EOL) = false /\ (sc c =? OP_DOT) = false /\ (sc c =? OP_NCLASS) = false /\ (sc c =? OP_CLASS) = false /\
  (sc c =? OP_CCLASS) = false.
Proof. intro H. repeat split; apply Z.eqb_neq; unfold OP_GREEDY, OP_OR, OP_EXPR, OP_NOCAPEXPR, OP_WB, OP_BOL, OP_EOL, OP_DOT, OP_NCLASS, OP_CLASS, OP_CCLASS; lia. Qed.

Lemma low_pack p0 p1 n : n_right n = pack p0 p1 -> 0 <= p0 < 65536 -> 0 <= p1 < 65536 -> low n = p0 /\ high n = p1.
Proof.
  intros E A B. unfold low, high, pack in *. rewrite E. split.
  - rewrite Z.div_add_l by lia. rewrite Z.div_small by lia. rewrite Z.add_0_r. apply Z.mod_small. lia.
  - rewrite Z.add_comm, Z.mod_add by lia. apply Z.mod_small. lia.
Qed.

(** ** Soundness *)
Section Sound.
Context (T : list node) (nsub flags : Z) (text : str) (edge : nat -> Prop).
Notation ic := (icase flags).
Notation mn := (trex_matchnode T nsub flags text).
Notation len := (List.length text).

Definition all_nk (P : elem -> Prop) (x : nk) : Prop :=
  match x with NE e => all_elem P e | NB => True | NO _ s a => all_seq P s /\ all_alt P a end.
Definition nk_in (x : nk) (i j : nat) : Prop :=
  match x with NE e => elem_in ic text edge e i j | NB => i = O /\ j = O | NO b s a => alt_in ic text edge (Or b s a) i j end.
Fixpoint list_in (l : list nk) (i j : nat) : Prop :=
  match l with [] => i = j | x :: l => exists k, (i <= k)%nat /\ (k <= j)%nat /\ nk_in x i k /\ list_in l k j end.

Lemma list_seq s i j : list_in (seq_list s) i j -> seq_in ic text edge s i j.
Proof.
  revert i. induction s as [e|e s IH]; intros i; cbn [seq_list list_in nk_in].
  - intros (k & _ & _ & H & ->). constructor. exact H.
  - intros (k & _ & _ & H & R). econstructor; [exact H|]. apply IH. exact R.
Qed.
Lemma list_start b s i j : list_in (start b s) i j -> (b = true -> i = O) /\ seq_in ic text edge s i j.
Proof.
  destruct b; cbn [start].
  - cbn [list_in nk_in]. intros (k & _ & _ & [-> ->] & R). split; [auto|]. apply list_seq. exact R.
  - intro R. split; [discriminate|]. apply list_seq. exact R.
Qed.
Lemma list_alt a i j : list_in (alt_list a) i j -> alt_in ic text edge a i j.
Proof.
  destruct a as [b s|b s a]; cbn [alt_list].
  - intro H. apply list_start in H. destruct H. constructor; auto.
  - cbn [list_in nk_in]. intros (k & _ & _ & H & ->). exact H.
Qed.
Lemma all_seq_list P s : all_seq P s -> Forall (all_nk P) (seq_list s).
Proof. induction s as [e|e s IH]; cbn [all_seq seq_list]; intro H; constructor; try apply H; auto. apply IH. apply H. Qed.
Lemma all_start P b s : all_seq P s -> Forall (all_nk P) (start b s).
Proof. intro H. apply all_seq_list in H. destruct b; cbn [start]; auto. constructor; [exact I|auto]. Qed.
Lemma all_alt_list P a : all_alt P a -> Forall (all_nk P) (alt_list a).
Proof. destruct a as [b s|b s a]; cbn [all_alt alt_list]; intro H; [apply all_start; exact H|]. constructor; [exact H|constructor]. Qed.

Lemma aget_fun i (n m : node) : aget T i = Ok n -> aget T i = Ok m -> n = m.
Proof. congruence. Qed.

(** Classes *)
Lemma item_spec it n x : item_node it n -> (ic = true -> even_range it) -> class_item flags n x = true <-> in_item ic it x.
Proof.
  unfold class_item. destruct it as [c|k|a b]; cbn [item_node].
  - intros E _. rewrite E. assert (R := sc_range c).
    destruct (Z.eqb_spec (sc c) OP_RANGE) as [X|_]; [unfold OP_RANGE in X; lia|]. destruct (Z.eqb_spec (sc c) OP_CCLASS) as [X|_]; [unfold OP_CCLASS in X; lia|].
    apply same_spec.
  - intros (E1 & E2 & E3) _. rewrite E1, E2. cbn [Z.eqb OP_CCLASS OP_RANGE Pos.eqb]. apply cclass_spec. exact E3.
  - intros (E1 & E2 & E3) EV. rewrite E1, E2, E3. cbn [Z.eqb OP_RANGE Pos.eqb]. apply range_even. exact EV.
Qed.
Lemma matchclass_spec fuel i l x b : items_at T i l -> (ic = true -> forall it, In it l -> even_range it) ->
  trex_matchclass T flags fuel i x = Ok b -> (b = true <-> in_set ic l x).
Proof.
  intro R. revert fuel. induction R as [i n it G N X|i n it l G N X R IH]; intros fuel EV; (destruct fuel as [|fuel]; cbn [trex_matchclass]; [discriminate|]);
    rewrite G; cbn [bind]; destruct (class_item flags n x) eqn:E; intro H.
  - injection H as <-. split; [intros _|auto]. exists it. split; [left; auto|]. apply (item_spec it n); auto. intro I. apply EV; auto. left. auto.
  - rewrite X in H. cbn [Z.eqb Pos.eqb] in H. injection H as <-. split; [discriminate|]. intros (it' & [<-|[]] & A).
    apply (item_spec it n) in A; auto; [congruence|]. intro I. apply EV; auto. left. auto.
  - injection H as <-. split; [intros _|auto]. exists it. split; [left; auto|]. apply (item_spec it n); auto. intro I. apply EV; auto. left. auto.
  - destruct (Z.eqb_spec (n_next n) (-1)); [contradiction|]. apply IH in H; [|intros I it' In'; apply EV; auto; right; auto].
    rewrite H. split.
    + intros (it' & In' & A). exists it'. split; [right; auto|auto].
    + intros (it' & [<-|In'] & A); [|exists it'; auto]. apply (item_spec it n) in A; auto; [congruence|]. intro I. apply EV; auto. left. auto.
Qed.

Lemma rd_inside i c : rd text i = Ok c -> (i < len)%nat -> nth_error text i = Some c.
Proof.
  unfold rd. intros H L. destruct (Nat.ltb_spec i len); [|lia]. destruct (nth_error text i); congruence.
Qed.

(** The boundaries are those that the program sees. *)
Definition edges_seen : Prop := forall s, (s <= len)%nat -> (edge s <-> seen_boundary text s).
Lemma boundary_seen s b : (s <= len)%nat -> boundary text s = Ok b -> (b = true <-> seen_boundary text s).
Proof.
  assert (RD : forall i c, rd text i = Ok c -> (i <= len)%nat -> isspaceb c = space_at text i).
  { intros i c H L. unfold rd in H. unfold space_at. destruct (Nat.ltb_spec i len) as [L1|L1].
    - destruct (nth_error text i); congruence.
    - destruct (Nat.eqb_spec i len) as [->|]; [|discriminate]. injection H as <-. rewrite (proj2 (nth_error_None text len)) by lia. reflexivity. }
  intros L. unfold boundary, seen_boundary. destruct (rd text s) as [c|u|] eqn:R1; cbn [bind]; try discriminate. rewrite (RD _ _ R1 L).
  destruct (Nat.eqb_spec s 0) as [Z0|Z0]; cbn [andb].
  - subst s. destruct (space_at text 0) eqn:SP; cbn [negb].
    + destruct (Nat.eqb_spec 0 len) as [Z1|Z1]; cbn [bind]; [discriminate|]. destruct (rd text 1) as [d|u|] eqn:R2; cbn [bind]; try discriminate.
      rewrite (RD _ _ R2) by lia. intro H. assert (B : b = negb (Bool.eqb true (space_at text 1))) by congruence. clear H. rewrite B, negb_true_iff, Bool.eqb_false_iff. split; [intro N; right; right; split; [lia|congruence]|].
      intros [[_ H]|[(j & H & _)|[_ H]]]; [discriminate|discriminate|congruence].
    + intro H. injection H as <-. split; auto.
  - destruct (Nat.eqb_spec s len) as [Z1|Z1].
    + destruct s as [|s']; [contradiction|]. destruct (rd text s') as [p|u|] eqn:R2; cbn [bind]; try discriminate. rewrite (RD _ _ R2) by lia.
      destruct (space_at text s') eqn:SP; cbn [negb].
      * destruct (rd text (S (S s'))) as [d|u|] eqn:R3; cbn [bind]; try discriminate. exfalso. unfold rd in R3.
        destruct (Nat.ltb_spec (S (S s')) len); [lia|]. destruct (Nat.eqb_spec (S (S s')) len); [lia|discriminate].
      * intro H. injection H as <-. split; [|auto]. intros _. right. left. exists s'. auto.
    + cbn [bind]. destruct (rd text (S s)) as [d|u|] eqn:R2; cbn [bind]; try discriminate. rewrite (RD _ _ R2) by lia.
      intro H. injection H as <-. rewrite negb_true_iff, Bool.eqb_false_iff. split; [intro N; right; right; split; [lia|congruence]|].
      intros [[H _]|[(j & _ & H & _)|[_ H]]]; [contradiction|contradiction|congruence].
Qed.

Definition good (e : elem) : Prop := small_counts e /\ (no_boundary e \/ edges_seen) /\ even_ranges ic e.

Definition sound_at (f : Z -> nat -> option Z -> res (option nat)) : Prop :=
  forall i x s next j, rep T nsub i x -> all_nk good x -> f i s next = Ok (Some j) -> (s <= j)%nat /\ ((j <= len)%nat -> nk_in x s j).

Lemma greedy_sound f e left p0 p1 stop next : sound_at f -> repl T nsub left [NE e] -> all_elem good e ->
  forall fuel nm s0 s j, 0 <= nm -> (s0 <= s)%nat -> ((s <= len)%nat -> times ic text edge e (Z.to_nat nm) s0 s) ->
  greedy T text f p0 p1 left stop next fuel nm s s = Ok (Some j) ->
  (s0 <= j)%nat /\ ((j <= len)%nat -> exists n, times ic text edge e (Z.to_nat n) s0 j /\ 0 <= n /\ enough p0 p1 n = true).
Proof.
  intros F R A. assert (RE : rep T nsub left (NE e)) by (inversion R; auto).
  induction fuel as [|fuel IH]; intros nm s0 s j N S0 TM; cbn [greedy]; [discriminate|].
  assert (FIN : Ok (if enough p0 p1 nm then Some s else None) = Ok (Some j) ->
     (s0 <= j)%nat /\ ((j <= len)%nat -> exists n, times ic text edge e (Z.to_nat n) s0 j /\ 0 <= n /\ enough p0 p1 n = true)).
  { destruct (enough p0 p1 nm) eqn:E; [|discriminate]. intro H. injection H as <-. split; [auto|]. intro L. exists nm. auto. }
  destruct ((nm =? 65535) || (nm <? p1)); [|exact FIN].
  destruct (f left s stop) as [[s'|]|u|] eqn:E; cbn [bind]; try discriminate; [|exact FIN].
  destruct (F _ _ _ _ _ RE A E) as [L1 M1]. cbn [nk_in] in M1.
  assert (TM' : (s' <= len)%nat -> times ic text edge e (Z.to_nat (nm + 1)) s0 s').
  { intro L. replace (Z.to_nat (nm + 1)) with (S (Z.to_nat nm)) by lia. econstructor; [apply TM; lia|]. apply M1. exact L. }
  destruct (stop_here T f p0 p1 stop next (nm + 1) s') as [b|u|]; cbn [bind]; try discriminate.
  destruct (b || (len <=? s')%nat).
  - destruct (enough p0 p1 (nm + 1)) eqn:E2; [|discriminate]. intro H. injection H as <-. split; [lia|]. intro L. exists (nm + 1). repeat split; auto. lia.
  - apply IH; auto; lia.
Qed.

Lemma branch_sound f : sound_at f -> forall fuel i l s j, repl T nsub i l -> Forall (all_nk good) l ->
  branch T f fuel i s = Ok (Some j) -> (s <= j)%nat /\ ((j <= len)%nat -> list_in l s j).
Proof.
  intros F. induction fuel as [|fuel IH]; intros i l s j R A; cbn [branch]; [discriminate|].
  destruct (f i s None) as [[s'|]|u|] eqn:E; cbn [bind]; try discriminate.
  inversion R as [i' n x G X RX|i' n x l' G X RX RL]; subst; inversion A as [|? ? AX AL]; subst; rewrite G; cbn [bind];
    destruct (F _ _ _ _ _ RX AX E) as [L1 M1].
  - rewrite X. cbn [Z.eqb Pos.eqb]. intro H. injection H as <-. split; [auto|]. intro L. cbn [list_in]. exists s'. repeat split; auto.
  - destruct (Z.eqb_spec (n_next n) (-1)); [contradiction|]. intro H. destruct (IH _ _ _ _ RL AL H) as [L2 M2]. split; [lia|].
    intro L. cbn [list_in]. exists s'. repeat split; auto. apply M1. lia.
Qed.
Lemma sequence_sound f : sound_at f -> forall fuel i l s next j, repl T nsub i l -> Forall (all_nk good) l ->
  sequence T f fuel i s next = Ok (Some j) -> (s <= j)%nat /\ ((j <= len)%nat -> list_in l s j).
Proof.
  intros F. induction fuel as [|fuel IH]; intros i l s next j R A; cbn [sequence]; [discriminate|].
  inversion R as [i' n x G X RX|i' n x l' G X RX RL]; subst; inversion A as [|? ? AX AL]; subst; rewrite G; cbn [bind].
  - rewrite X. cbn [Z.eqb Pos.eqb]. destruct (f i s next) as [[s'|]|u|] eqn:E; cbn [bind]; try discriminate.
    destruct (F _ _ _ _ _ RX AX E) as [L1 M1].
    intro H. injection H as <-. split; [auto|]. intro L. cbn [list_in]. exists s'. repeat split; auto.
  - destruct (Z.eqb_spec (n_next n) (-1)); [contradiction|].
    destruct (f i s (Some (n_next n))) as [[s'|]|u|] eqn:E; cbn [bind]; try discriminate.
    destruct (F _ _ _ _ _ RX AX E) as [L1 M1]. intro H. destruct (IH _ _ _ _ _ RL AL H) as [L2 M2]. split; [lia|].
    intro L. cbn [list_in]. exists s'. repeat split; auto. apply M1. lia.
Qed.

Theorem matchnode_sound fuel : sound_at (mn fuel).
Proof.
  induction fuel as [|fuel IH]; intros i x s next j R A; cbn [trex_matchnode]; [discriminate|].
  inversion R as [i' n c G E|i' n k G E E2 K|i' n b G E E2|i' n G E|i' n G E|i' n neg l G E IT|i' n lo hi e G E E2 RL|i' n cap a G E CP RL|i' n G E|i' n b q a G E RL RR];
    subst; rewrite G; cbn [bind].
  - rewrite E. destruct (char_type c (sc_range c)) as (-> & -> & -> & -> & -> & -> & -> & -> & -> & -> & ->). cbn [orb].
    destruct (rd text s) as [y|u|] eqn:RD; cbn [bind]; try discriminate.
    destruct (if ic then _ else _) eqn:SM; [|discriminate]. intro H. injection H as <-. split; [lia|]. intro L. apply same_spec in SM.
    apply rd_inside in RD; [|lia]. cbn [nk_in]. econstructor; eauto.
  - settype E. rewrite E2. destruct (rd text s) as [y|u|] eqn:RD; cbn [bind]; try discriminate.
    destruct (trex_matchcclass (sc k) y) eqn:SM; [|discriminate]. intro H. injection H as <-. split; [lia|]. intro L. apply cclass_spec in SM; auto.
    apply rd_inside in RD; [|lia]. cbn [nk_in]. econstructor; eauto.
  - destruct A as [(_ & [[]|EG] & _) _]. settype E.
    destruct (boundary text s) as [c|u|] eqn:BD; cbn [bind]; try discriminate.
    replace (n_left n =? sc "b") with b by (rewrite E2; destruct b; reflexivity).
    destruct (Bool.eqb c b) eqn:EB; [|discriminate]. intro H. injection H as <-. split; [auto|]. intro L. cbn [nk_in].
    apply Bool.eqb_prop in EB. subst c. assert (X := boundary_seen s b L BD). rewrite <- (EG s L) in X.
    destruct b; [constructor; apply X; reflexivity|constructor; intro Y; apply X in Y; discriminate].
  - settype E. intro H. injection H as <-. split; [lia|]. intro L. cbn [nk_in].
    destruct (nth_error text s) as [y|] eqn:NE'; [econstructor; eauto|]. apply nth_error_None in NE'. lia.
  - settype E. destruct (Nat.eqb_spec s len); [|discriminate]. intro H. injection H as <-. split; [auto|]. intros _. subst s. constructor.
  - destruct A as [(_ & _ & EV) _]. cbn [even_ranges] in EV.
    assert (EC : forall b, Bool.eqb b (n_type n =? OP_CLASS) = Bool.eqb b (negb neg)) by (intro b; rewrite E; destruct neg; reflexivity).
    assert (SH : mn (S fuel) i s next = (c <- rd text s ;; b <- trex_matchclass T flags (List.length T) (n_left n) c ;;
        Ok (if Bool.eqb b (negb neg) then Some (S s) else None))).
    { cbn [trex_matchnode]. rewrite G. cbn [bind]. rewrite E. destruct neg; reflexivity. }
    intro H. assert (H2 : mn (S fuel) i s next = Ok (Some j)) by (cbn [trex_matchnode]; rewrite G; cbn [bind]; exact H). clear H. rewrite SH in H2.
    destruct (rd text s) as [y|u|] eqn:RD; cbn [bind] in H2; try discriminate.
    destruct (trex_matchclass T flags (List.length T) (n_left n) y) as [b|u|] eqn:MC; cbn [bind] in H2; try discriminate.
    assert (M := matchclass_spec _ _ _ _ _ IT EV MC).
    destruct (Bool.eqb b (negb neg)) eqn:EB; [|discriminate]. injection H2 as <-. split; [lia|]. intro L. apply rd_inside in RD; [|lia].
    apply Bool.eqb_prop in EB. subst b. cbn [nk_in]. destruct neg; cbn [negb] in M.
    + eapply in_setn; [exact RD|]. intro X. apply M in X. discriminate.
    + eapply in_setp; [exact RD|]. apply M. reflexivity.
  - settype E. destruct A as [(SC & _ & _) AE]. cbn [small_counts] in SC. destruct SC as [LO HI].
    assert (P1 : 0 <= match hi with Some h => h mod 65536 | None => 65535 end < 65536) by (destruct hi as [h|]; [apply Z.mod_pos_bound; lia|lia]).
    destruct (low_pack _ _ _ E2 ltac:(apply Z.mod_pos_bound; lia) P1) as [-> ->]. rewrite (Z.mod_small lo) by lia.
    intro H. destruct (greedy_sound _ e (n_left n) _ _ _ _ IH RL AE _ 0 s s j ltac:(lia) ltac:(lia) ltac:(intro; constructor) H) as [L1 M1].
    split; [exact L1|]. intro L. destruct (M1 L) as (m & TM & M0 & EN). cbn [nk_in]. econstructor; [exact TM| |].
    + rewrite Z2Nat.id by lia. unfold enough in EN. rewrite !orb_true_iff, !andb_true_iff, !Z.eqb_eq, !Z.leb_le in EN. lia.
    + intros h ->. specialize (HI h eq_refl). rewrite Z2Nat.id by lia. rewrite (Z.mod_small h) in EN by lia.
      unfold enough in EN. rewrite !orb_true_iff, !andb_true_iff, !Z.eqb_eq, !Z.leb_le in EN. lia.
  - destruct A as [_ AA]. assert (AL := all_alt_list _ _ AA).
    assert (SH : mn (S fuel) i s next = if cap && negb ((0 <=? n_right n) && (n_right n <? nsub)) then UB OOBWrite else sequence T (mn fuel) (List.length T) (n_left n) s next).
    { cbn [trex_matchnode]. rewrite G. cbn [bind]. rewrite E. destruct cap; reflexivity. }
    intro H. assert (H2 : mn (S fuel) i s next = Ok (Some j)) by (cbn [trex_matchnode]; rewrite G; cbn [bind]; exact H). clear H. rewrite SH in H2.
    destruct (cap && _); [discriminate|]. destruct (sequence_sound _ IH _ _ _ _ _ _ RL AL H2) as [L1 M1]. split; [exact L1|]. intro L.
    cbn [nk_in]. constructor. apply list_alt. auto.
  - settype E. destruct (Nat.eqb_spec s 0); [|discriminate]. intro H. injection H as <-. split; [auto|]. intros _. subst s. cbn [nk_in]. auto.
  - settype E. destruct A as [AS AA]. assert (AS' := all_start _ b _ AS). assert (AA' := all_alt_list _ _ AA).
    destruct (branch T (mn fuel) (List.length T) (n_left n) s) as [[e|]|u|] eqn:B; cbn [bind]; try discriminate.
    + intro H. injection H as <-. destruct (branch_sound _ IH _ _ _ _ _ RL AS' B) as [L1 M1]. split; [exact L1|]. intro L. cbn [nk_in].
      destruct (list_start _ _ _ _ (M1 L)). apply in_left; auto.
    + intro H. destruct (branch_sound _ IH _ _ _ _ _ RR AA' H) as [L1 M1]. split; [exact L1|]. intro L. cbn [nk_in]. apply in_right. apply list_alt. auto.
Qed.
End Sound.
