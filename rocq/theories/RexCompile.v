(** RexCompile: what trex_compile does with any pattern. *)
From Coq Require Import ZArith String List Ascii Bool Lia.
From Verif Require Import Base RexModel RexSpec RexMatch RexTerm.
Import ListNotations.
Open Scope Z_scope.

(** ** Runs *)
Section Runs.
Context (bad : Prop).
(** [bad]: a failure or a signed overflow is possible. *)
Definition ends {A} (Q : A -> rst -> Prop) (r : crun A) : Prop :=
  match r with CDone a st => Q a st | CFail _ => bad | CUB u => u = SignedOverflow /\ bad | CFuel => False end.
Lemma out_bind {A B} (m : cm A) (k : A -> cm B) st (Q : A -> rst -> Prop) (Q' : B -> rst -> Prop) :
  ends Q (m st) -> (forall a st', Q a st' -> ends Q' (k a st')) -> ends Q' (cbind m k st).
Proof. unfold cbind. destruct (m st); cbn [ends]; auto. Qed.
Lemma out_weak {A} (Q Q' : A -> rst -> Prop) r : ends Q r -> (forall a st, Q a st -> Q' a st) -> ends Q' r.
Proof. destruct r; cbn [ends]; auto. Qed.
End Runs.

(** A backslash with nothing to escape: an odd number of them at the end *)
Fixpoint lone (s : str) : bool :=
  match s with
  | [] => false
  | c :: r => if ceqb c bs then match r with [] => true | _ :: r' => lone r' end else lone r
  end.

Section Compile.
Context (L : Z) (L1 : 1 <= L) (L2 : 2 * L <= INT_MAX) (bad : Prop).
Notation out := (ends bad).

(** The state between two steps: the rest of the pattern, the nodes, and enough room for a node per character *)
Record ready (st : rst) (t : str) (N : list node) (k : Z) (room : Z) : Prop := {
  rd_p : r_p st = Some t;
  rd_nodes : r_nodes st = N;
  rd_alloc : r_alloc st = L \/ r_alloc st = 2 * L;
  rd_nsub : r_nsub st = k;
  rd_room : zlen N + zlen t + room <= L + 1;
  rd_k : 0 <= k;
  rd_cstr : cstr t;
  rd_lone : lone t = false
}.

Lemma peek_out st t N k m (Q : ascii -> rst -> Prop) : ready st t N k m -> Q (hd0 t) st -> out Q (peek st).
Proof. intros R H. unfold peek. rewrite (rd_p _ _ _ _ _ R). exact H. Qed.

Lemma lone_cons c t : c <> bs -> lone (c :: t) = lone t.
Proof. intro H. cbn [lone]. rewrite (proj2 (ceqb_neq c bs) H). reflexivity. Qed.
Lemma cstr_tl c t : cstr (c :: t) -> cstr t.
Proof. unfold cstr. intros H I. apply H. right. exact I. Qed.
Lemma cstr_hd c t : cstr (c :: t) -> c <> NUL.
Proof. unfold cstr. intros H ->. apply H. left. reflexivity. Qed.

(** One step over a character that is no backslash gives room for a node. *)
Lemma advance_out st c t N k m (Q : unit -> rst -> Prop) : ready st (c :: t) N k m -> c <> bs ->
  (forall st', ready st' t N k (m + 1) -> Q tt st') -> out Q (advance st).
Proof.
  intros R NB H. unfold advance. rewrite (rd_p _ _ _ _ _ R). cbn [ends]. apply H.
  destruct R as [A B C D E F G I]. rewrite lone_cons in I by exact NB.
  constructor; cbn [r_p r_nodes r_alloc r_nsub]; auto; [|exact (cstr_tl _ _ G)].
  rewrite zlen_cons in E. lia.
Qed.

(** Two steps over an escaped character *)
Record escaping (st : rst) (c : ascii) (t : str) (N : list node) (k : Z) (room : Z) : Prop := {
  es_p : r_p st = Some (c :: t);
  es_nodes : r_nodes st = N;
  es_alloc : r_alloc st = L \/ r_alloc st = 2 * L;
  es_nsub : r_nsub st = k;
  es_room : zlen N + zlen t + 1 + room <= L + 1;
  es_k : 0 <= k;
  es_cstr : cstr (c :: t);
  es_lone : lone t = false
}.
Lemma advance_bs st t N k m (Q : unit -> rst -> Prop) : ready st (bs :: t) N k m ->
  (forall st' c t', t = c :: t' -> escaping st' c t' N k (m + 1) -> Q tt st') -> out Q (advance st).
Proof.
  intros R H. unfold advance. rewrite (rd_p _ _ _ _ _ R). cbn [ends]. destruct R as [A B C D E F G I].
  destruct t as [|c t]; [discriminate I|]. apply (H _ c t eq_refl). cbn [lone ceqb bs] in I. rewrite !zlen_cons in E.
  constructor; cbn [r_p r_nodes r_alloc r_nsub]; auto; [lia|exact (cstr_tl _ _ G)].
Qed.
Lemma peek_es st c t N k m (Q : ascii -> rst -> Prop) : escaping st c t N k m -> Q c st -> out Q (peek st).
Proof. intros R H. unfold peek. rewrite (es_p _ _ _ _ _ _ R). exact H. Qed.
Lemma advance_es st c t N k m (Q : unit -> rst -> Prop) : escaping st c t N k m ->
  (forall st', ready st' t N k (m + 1) -> Q tt st') -> out Q (advance st).
Proof.
  intros R H. unfold advance. rewrite (es_p _ _ _ _ _ _ R). cbn [ends]. apply H. destruct R as [A B C D E F G I].
  constructor; cbn [r_p r_nodes r_alloc r_nsub]; auto; [lia|exact (cstr_tl _ _ G)].
Qed.

(** A new node *)
Definition blank (type k : Z) : node := mknode type (-1) (if type =? OP_EXPR then k else -1) (-1).
Lemma alloc_ok a n : a = L \/ a = 2 * L -> 0 <= n -> n + 1 <= L + 1 ->
  let a' := if a <? n + 1 then a * 2 else a in in_intb a' = true /\ (n <? a') = true /\ (a' = L \/ a' = 2 * L).
Proof.
  intros A N NL a'. assert (X : (a' = L \/ a' = 2 * L) /\ n < a').
  { unfold a'. destruct (Z.ltb_spec a (n + 1)); destruct A as [->| ->]; lia. }
  destruct X as [X1 X2]. split; [|split; auto; apply Z.ltb_lt; lia].
  unfold in_intb, INT_MIN, INT_MAX in *. apply andb_true_iff. split; apply Z.leb_le; lia.
Qed.
Lemma newnode_out st t N k m type (Q : Z -> rst -> Prop) : ready st t N k m -> 1 <= m ->
  (forall st', ready st' t (N ++ [blank type k]) (if type =? OP_EXPR then k + 1 else k) (m - 1) -> Q (zlen N) st') -> out Q (trex_newnode type st).
Proof.
  intros R M H. unfold trex_newnode. destruct R as [A B C D E F G I]. rewrite B, D.
  assert (ZN := zlen_nonneg N). assert (ZT := zlen_nonneg t).
  destruct (alloc_ok (r_alloc st) (zlen N) C ltac:(lia) ltac:(lia)) as (I1 & I2 & I3). rewrite I1, I2. cbn [negb ends].
  apply H. constructor; cbn [r_p r_nodes r_alloc r_nsub]; auto.
  - rewrite zlen_app, zlen_cons, zlen_nil. lia.
  - destruct (type =? OP_EXPR); lia.
Qed.
Lemma newnode_es st c t N k m type (Q : Z -> rst -> Prop) : escaping st c t N k m -> 1 <= m -> type <> OP_EXPR ->
  (forall st', escaping st' c t (N ++ [blank type k]) k (m - 1) -> Q (zlen N) st') -> out Q (trex_newnode type st).
Proof.
  intros R M NE H. unfold trex_newnode. destruct R as [A B C D E F G I]. rewrite B, D.
  assert (ZN := zlen_nonneg N). assert (ZT := zlen_nonneg t).
  destruct (alloc_ok (r_alloc st) (zlen N) C ltac:(lia) ltac:(lia)) as (I1 & I2 & I3). rewrite I1, I2. cbn [negb ends].
  apply H. destruct (Z.eqb_spec type OP_EXPR); [contradiction|]. constructor; cbn [r_p r_nodes r_alloc r_nsub]; auto.
  - unfold blank. destruct (Z.eqb_spec type OP_EXPR); [contradiction|]. reflexivity.
  - rewrite zlen_app, zlen_cons, zlen_nil. lia.
Qed.

(** Changing a node *)
Lemma aget_range {A} (l : list A) i n : aget l i = Ok n -> 0 <= i < zlen l.
Proof.
  unfold aget, zlen. destruct (Z.ltb_spec i 0); [discriminate|]. destruct (nth_error l (Z.to_nat i)) eqn:E; [|discriminate]. intros _.
  assert (nth_error l (Z.to_nat i) <> None) as X by congruence. apply nth_error_Some in X. lia.
Qed.
Lemma aget_app1 {A} (l l' : list A) i : i < zlen l -> aget (l ++ l') i = aget l i.
Proof.
  unfold aget, zlen. intro H. destruct (Z.ltb_spec i 0); auto. rewrite nth_error_app1 by lia. reflexivity.
Qed.
Lemma aget_last {A} (l : list A) x l' : aget (l ++ x :: l') (zlen l) = Ok x.
Proof.
  unfold aget, zlen. destruct (Z.ltb_spec (Z.of_nat (List.length l)) 0); [lia|]. rewrite Nat2Z.id.
  rewrite nth_error_app2 by lia. rewrite Nat.sub_diag. reflexivity.
Qed.
Lemma aget_lupd_eq {A} (l : list A) i x : 0 <= i < zlen l -> aget (lupd l (Z.to_nat i) x) i = Ok x.
Proof.
  unfold aget, zlen. intro H. destruct (Z.ltb_spec i 0); [lia|]. rewrite nth_error_lupd_eq by lia. reflexivity.
Qed.
Lemma aget_lupd_ne {A} (l : list A) i j x : 0 <= i -> i <> j -> aget (lupd l (Z.to_nat i) x) j = aget l j.
Proof.
  unfold aget. intros H N. destruct (Z.ltb_spec j 0); auto. rewrite nth_error_lupd_neq by lia. reflexivity.
Qed.
Lemma zlen_lupd {A} (l : list A) i x : zlen (lupd l i x) = zlen l.
Proof. unfold zlen. rewrite lupd_length. reflexivity. Qed.
Lemma setn_out st t N k m i n f (Q : unit -> rst -> Prop) : ready st t N k m -> aget N i = Ok n ->
  (forall st', ready st' t (lupd N (Z.to_nat i) (f n)) k m -> Q tt st') -> out Q (setn i f st).
Proof.
  intros R G H. unfold setn. destruct R as [A B C D E F G' I]. rewrite B, G. cbn [ends]. apply H.
  constructor; cbn [r_p r_nodes r_alloc r_nsub]; auto. rewrite zlen_lupd. lia.
Qed.
Lemma setn_es st c t N k m i n f (Q : unit -> rst -> Prop) : escaping st c t N k m -> aget N i = Ok n ->
  (forall st', escaping st' c t (lupd N (Z.to_nat i) (f n)) k m -> Q tt st') -> out Q (setn i f st).
Proof.
  intros R G H. unfold setn. destruct R as [A B C D E F G' I]. rewrite B, G. cbn [ends]. apply H.
  constructor; cbn [r_p r_nodes r_alloc r_nsub]; auto. rewrite zlen_lupd. lia.
Qed.
Lemma getn_out st t N k m i n (Q : node -> rst -> Prop) : ready st t N k m -> aget N i = Ok n -> Q n st -> out Q (getn i st).
Proof. intros R G H. unfold getn. rewrite (rd_nodes _ _ _ _ _ R), G. exact H. Qed.
Lemma lupd_last {A} (l : list A) x y : lupd (l ++ [x]) (Z.to_nat (zlen l)) y = l ++ [y].
Proof. unfold zlen. rewrite Nat2Z.id. induction l as [|a l IH]; cbn [app List.length lupd]; [reflexivity|]. f_equal. exact IH. Qed.

Lemma ready_weak st t N k m m' : ready st t N k m -> m' <= m -> ready st t N k m'.
Proof. intros [A B C D E F G I] H. constructor; auto. lia. Qed.

(** ** Characters *)
Lemma inb_spec c l : inb c l = true <-> In c l.
Proof.
  unfold inb. rewrite existsb_exists. split.
  - intros (d & I & E). apply ceqb_eq in E. subst. exact I.
  - intro I. exists c. split; [exact I|]. apply ceqb_eq. reflexivity.
Qed.
Lemma not_named d : ceqb d "n" = false -> ceqb d "t" = false -> ceqb d "r" = false -> ceqb d "f" = false -> ceqb d "v" = false -> forall c, ~ named_char d c.
Proof.
  intros E1 E2 E3 E4 E5 c H. unfold named_char in H. cbn [In] in H.
  repeat destruct H as [H|H]; [..|contradiction]; injection H as <- _; discriminate.
Qed.

(** What a character (outside or inside a set) is compiled to *)
Inductive char_node (isclass : bool) : node -> str -> Prop :=
| cn_plain k c : isprintb c = true -> c <> bs -> char_node isclass (blank (sc c) k) [c]
| cn_named k d c : named_char d c -> char_node isclass (blank (sc c) k) [bs; d]
| cn_class k c : class_name c -> char_node isclass (set_left (sc c) (blank OP_CCLASS k)) [bs; c]
| cn_wb k (b : bool) : isclass = false -> char_node isclass (set_left (sc (if b then "b" else "B")%char) (blank OP_WB k)) [bs; if b then "b" else "B"]%char
| cn_escape k c : plain_escape c -> (isclass = false -> c <> "b"%char /\ c <> "B"%char) -> char_node isclass (blank (sc c) k) [bs; c].

Lemma sc_not_expr c : (sc c =? OP_EXPR) = false.
Proof. apply Z.eqb_neq. assert (H := sc_range c). unfold OP_EXPR. lia. Qed.

(** The same steps in front of a continuation *)
Section Steps.
Context {B : Type} (Q : B -> rst -> Prop).
Lemma b_peek st t N k m (K : ascii -> cm B) : ready st t N k m -> out Q (K (hd0 t) st) -> out Q (cbind peek K st).
Proof. intros R H. eapply out_bind; [eapply (peek_out st t N k m (fun c s => c = hd0 t /\ s = st)); eauto|]. intros a st' [-> ->]. exact H. Qed.
Lemma b_peek_es st c t N k m (K : ascii -> cm B) : escaping st c t N k m -> out Q (K c st) -> out Q (cbind peek K st).
Proof. intros R H. eapply out_bind; [eapply (peek_es st c t N k m (fun c' s => c' = c /\ s = st)); eauto|]. intros a st' [-> ->]. exact H. Qed.
Lemma b_advance st c t N k m (K : unit -> cm B) : ready st (c :: t) N k m -> c <> bs ->
  (forall st', ready st' t N k (m + 1) -> out Q (K tt st')) -> out Q (cbind advance K st).
Proof. intros R NB H. eapply out_bind; [eapply (advance_out st c t N k m (fun _ s => ready s t N k (m + 1))); eauto|]. intros [] st'. apply H. Qed.
Lemma b_advance_bs st t N k m (K : unit -> cm B) : ready st (bs :: t) N k m ->
  (forall st' c t', t = c :: t' -> escaping st' c t' N k (m + 1) -> out Q (K tt st')) -> out Q (cbind advance K st).
Proof.
  intros R H. eapply out_bind; [eapply (advance_bs st t N k m (fun _ s => exists c t', t = c :: t' /\ escaping s c t' N k (m + 1))); eauto|].
  intros [] st' (c & t' & E & X). eapply H; eauto.
Qed.
Lemma b_advance_es st c t N k m (K : unit -> cm B) : escaping st c t N k m ->
  (forall st', ready st' t N k (m + 1) -> out Q (K tt st')) -> out Q (cbind advance K st).
Proof. intros R H. eapply out_bind; [eapply (advance_es st c t N k m (fun _ s => ready s t N k (m + 1))); eauto|]. intros [] st'. apply H. Qed.
Lemma b_newnode st t N k m type (K : Z -> cm B) : ready st t N k m -> 1 <= m ->
  (forall st', ready st' t (N ++ [blank type k]) (if type =? OP_EXPR then k + 1 else k) (m - 1) -> out Q (K (zlen N) st')) -> out Q (cbind (trex_newnode type) K st).
Proof.
  intros R M H. eapply out_bind.
  - eapply (newnode_out st t N k m type (fun i s => i = zlen N /\ ready s t (N ++ [blank type k]) (if type =? OP_EXPR then k + 1 else k) (m - 1))); eauto.
  - intros i st' [-> X]. auto.
Qed.
Lemma b_newnode_es st c t N k m type (K : Z -> cm B) : escaping st c t N k m -> 1 <= m -> type <> OP_EXPR ->
  (forall st', escaping st' c t (N ++ [blank type k]) k (m - 1) -> out Q (K (zlen N) st')) -> out Q (cbind (trex_newnode type) K st).
Proof.
  intros R M NE H. eapply out_bind.
  - eapply (newnode_es st c t N k m type (fun i s => i = zlen N /\ escaping s c t (N ++ [blank type k]) k (m - 1))); eauto.
  - intros i st' [-> X]. auto.
Qed.
Lemma b_setn st t N k m i n f (K : unit -> cm B) : ready st t N k m -> aget N i = Ok n ->
  (forall st', ready st' t (lupd N (Z.to_nat i) (f n)) k m -> out Q (K tt st')) -> out Q (cbind (setn i f) K st).
Proof. intros R G H. eapply out_bind; [eapply (setn_out st t N k m i n f (fun _ s => ready s t (lupd N (Z.to_nat i) (f n)) k m)); eauto|]. intros [] st'. apply H. Qed.
Lemma b_setn_es st c t N k m i n f (K : unit -> cm B) : escaping st c t N k m -> aget N i = Ok n ->
  (forall st', escaping st' c t (lupd N (Z.to_nat i) (f n)) k m -> out Q (K tt st')) -> out Q (cbind (setn i f) K st).
Proof. intros R G H. eapply out_bind; [eapply (setn_es st c t N k m i n f (fun _ s => escaping s c t (lupd N (Z.to_nat i) (f n)) k m)); eauto|]. intros [] st'. apply H. Qed.
Lemma b_getn st t N k m i n (K : node -> cm B) : ready st t N k m -> aget N i = Ok n -> out Q (K n st) -> out Q (cbind (getn i) K st).
Proof. intros R G H. eapply out_bind; [eapply (getn_out st t N k m i n (fun x s => x = n /\ s = st)); eauto|]. intros x st' [-> ->]. exact H. Qed.
End Steps.

Context (bad_ok : bad).
Lemma charnode_out st t N k isclass (Q : Z -> rst -> Prop) : ready st t N k 0 ->
  (forall st' n u t', t = u ++ t' -> char_node isclass n u -> ready st' t' (N ++ [n]) k 0 -> Q (zlen N) st') -> out Q (trex_charnode isclass st).
Proof.
  intros R H. unfold trex_charnode. eapply b_peek; [exact R|]. destruct (ceqb (hd0 t) "\") eqn:EB.
  - apply ceqb_eq in EB. destruct t as [|c t]; [discriminate EB|]. cbn [hd0] in EB. subst c.
    eapply b_advance_bs; [exact R|]. intros st1 d t' -> R1. eapply b_peek_es; [exact R1|].
    assert (SIMPLE : forall type, type <> OP_EXPR -> char_node isclass (blank type k) [bs; d] ->
      out Q (cbind advance (fun _ => trex_newnode type) st1)).
    { intros type NE CN. eapply b_advance_es; [exact R1|]. intros st2 R2. eapply newnode_out; [exact R2|lia|]. intros st3 R3.
      destruct (Z.eqb_spec type OP_EXPR); [contradiction|].
      apply (H st3 (blank type k) [bs; d] t'); [reflexivity|exact CN|]. eapply ready_weak; [exact R3|lia]. }
    destruct (ceqb d "n") eqn:E1; [apply SIMPLE; [discriminate|]; apply cn_named; apply ceqb_eq in E1; subst; left; reflexivity|].
    destruct (ceqb d "t") eqn:E2; [apply SIMPLE; [discriminate|]; apply cn_named; apply ceqb_eq in E2; subst; right; left; reflexivity|].
    destruct (ceqb d "r") eqn:E3; [apply SIMPLE; [discriminate|]; apply cn_named; apply ceqb_eq in E3; subst; do 2 right; left; reflexivity|].
    destruct (ceqb d "f") eqn:E4; [apply SIMPLE; [discriminate|]; apply cn_named; apply ceqb_eq in E4; subst; do 3 right; left; reflexivity|].
    destruct (ceqb d "v") eqn:E5; [apply SIMPLE; [discriminate|]; apply cn_named; apply ceqb_eq in E5; subst; do 4 right; left; reflexivity|].
    destruct (inb d class_letters) eqn:E6.
    + apply inb_spec in E6. eapply b_advance_es; [exact R1|]. intros st2 R2. unfold trex_charclass.
      eapply b_newnode; [exact R2|lia|]. intros st3 R3. eapply b_setn; [exact R3|apply aget_last|]. intros st4 R4. rewrite lupd_last in R4.
      cbn [cret ends]. apply (H st4 (set_left (sc d) (blank OP_CCLASS k)) [bs; d] t'); [reflexivity|apply cn_class; exact E6|]. eapply ready_weak; [exact R4|lia].
    + assert (NC : ~ class_name d) by (unfold class_name; intro X; apply inb_spec in X; unfold class_letters in E6; congruence).
      destruct ((ceqb d "b" || ceqb d "B") && negb isclass) eqn:E7.
      * apply andb_true_iff in E7. destruct E7 as [E7 E8]. apply negb_true_iff in E8. subst isclass.
        assert (exists b : bool, d = (if b then "b" else "B")%char) as [b ->].
        { apply orb_true_iff in E7. destruct E7 as [E7|E7]; apply ceqb_eq in E7; [exists true|exists false]; exact E7. }
        eapply b_newnode_es; [exact R1|lia|discriminate|]. intros st2 R2. eapply b_setn_es; [exact R2|apply aget_last|]. intros st3 R3. rewrite lupd_last in R3.
        eapply b_advance_es; [exact R3|]. intros st4 R4.
        cbn [cret ends]. eapply (H st4 _ [bs; if b then "b" else "B"]%char t'); [destruct b; reflexivity|apply cn_wb; reflexivity|]. eapply ready_weak; [exact R4|lia].
      * apply SIMPLE; [intro X; assert (Y := sc_not_expr d); apply Z.eqb_neq in Y; contradiction|]. apply cn_escape.
        -- repeat split; auto; [apply not_named; auto|]. exact (cstr_hd _ _ (es_cstr _ _ _ _ _ _ R1)).
        -- intros ->. cbn [negb] in E7. rewrite andb_true_r in E7. apply orb_false_iff in E7. destruct E7 as [X Y]. apply ceqb_neq in X, Y. auto.
  - destruct (isprintb (hd0 t)) eqn:EP; cbn [negb]; [|exact bad_ok].
    destruct t as [|c t]; [discriminate EP|]. cbn [hd0] in *. apply ceqb_neq in EB.
    eapply b_advance; [exact R|exact EB|]. intros st2 R2. eapply newnode_out; [exact R2|lia|]. intros st3 R3. rewrite sc_not_expr in R3.
    apply (H st3 (blank (sc c) k) [c] t); [reflexivity|apply cn_plain; auto|]. eapply ready_weak; [exact R3|lia].
Qed.

(** The end of a range *)
Lemma escapechar_out st t N k m (Q : ascii -> rst -> Prop) : ready st t N k m ->
  (forall st' c u t', t = u ++ t' -> range_end c u -> ready st' t' N k m -> Q c st') -> out Q (trex_escapechar st).
Proof.
  intros R H. unfold trex_escapechar. eapply b_peek; [exact R|]. destruct (ceqb (hd0 t) "\") eqn:EB.
  - apply ceqb_eq in EB. destruct t as [|c t]; [discriminate EB|]. cbn [hd0] in EB. subst c.
    eapply b_advance_bs; [exact R|]. intros st1 d t' -> R1. eapply b_peek_es; [exact R1|]. eapply b_advance_es; [exact R1|]. intros st2 R2. cbn [cret ends].
    apply (H st2 _ [bs; d] t'); [reflexivity| |eapply ready_weak; [exact R2|lia]].
    destruct (ceqb d "v") eqn:E5; [apply re_named; apply ceqb_eq in E5; subst; do 4 right; left; reflexivity|].
    destruct (ceqb d "n") eqn:E1; [apply re_named; apply ceqb_eq in E1; subst; left; reflexivity|].
    destruct (ceqb d "t") eqn:E2; [apply re_named; apply ceqb_eq in E2; subst; right; left; reflexivity|].
    destruct (ceqb d "r") eqn:E3; [apply re_named; apply ceqb_eq in E3; subst; do 2 right; left; reflexivity|].
    destruct (ceqb d "f") eqn:E4; [apply re_named; apply ceqb_eq in E4; subst; do 3 right; left; reflexivity|].
    apply re_escape; [apply not_named; auto|]. exact (cstr_hd _ _ (es_cstr _ _ _ _ _ _ R1)).
  - destruct (isprintb (hd0 t)) eqn:EP; cbn [negb]; [|exact bad_ok].
    destruct t as [|c t]; [discriminate EP|]. cbn [hd0] in *. apply ceqb_neq in EB.
    eapply b_advance; [exact R|exact EB|]. intros st2 R2. cbn [cret ends]. apply (H st2 c [c] t); [reflexivity|apply re_plain; auto|]. eapply ready_weak; [exact R2|lia].
Qed.

(** ** Sets *)

(** The items [l] hang on node [i], the last one is node [j]. *)
Fixpoint path (N : list node) (i : Z) (l : list item) (j : Z) : Prop :=
  match l with
  | [] => i = j
  | it :: l => exists n m, aget N i = Ok n /\ i < n_next n /\ aget N (n_next n) = Ok m /\ item_node it m /\ path N (n_next n) l j
  end.
Lemma path_le N i l j : path N i l j -> i <= j.
Proof. revert i. induction l as [|it l IH]; intros i; cbn [path]; [lia|]. intros (n & m & _ & H & _ & _ & P). apply IH in P. lia. Qed.
Lemma path_frame N N' i l j : (forall x, x <= j -> aget N x <> UB OOBRead -> aget N' x = aget N x) -> path N i l j -> path N' i l j.
Proof.
  intros F. revert i. induction l as [|it l IH]; intros i; cbn [path]; [auto|]. intros (n & m & A & B & C & D & P).
  assert (LE := path_le _ _ _ _ P). exists n, m. repeat split; auto; rewrite F; auto; try lia; congruence.
Qed.
Lemma path_app N X i l j : path N i l j -> path (N ++ X) i l j.
Proof. apply path_frame. intros x _ H. destruct (aget N x) eqn:E; [|exfalso|].
  - assert (R := aget_range _ _ _ E). rewrite aget_app1 by lia. exact E.
  - unfold aget in E. destruct (x <? 0); [congruence|]. destruct (nth_error N (Z.to_nat x)); congruence.
  - unfold aget in E. destruct (x <? 0); [congruence|]. destruct (nth_error N (Z.to_nat x)); congruence.
Qed.
Lemma item_next it n x : item_node it (set_next x n) <-> item_node it n.
Proof. destruct it; cbn [item_node set_next n_type n_left n_right]; tauto. Qed.
Lemma path_snoc N i l j f n m it : 0 <= i -> path N i l j -> aget N j = Ok n -> j < f -> aget N f = Ok m -> item_node it m ->
  path (lupd N (Z.to_nat j) (set_next f n)) i (l ++ [it]) f.
Proof.
  intros P0 P G J F I. revert i P0 P. induction l as [|it' l IH]; intros i P0; cbn [path app].
  - intros ->. assert (R := aget_range _ _ _ G). exists (set_next f n), m. rewrite aget_lupd_eq by lia. cbn [set_next n_next].
    rewrite aget_lupd_ne by lia. auto 10.
  - intros (n' & m' & A & B & C & D & P). assert (LE := path_le _ _ _ _ P). 
    destruct (Z.eq_dec (n_next n') j) as [E|NE].
    + exists n', (set_next f n). rewrite E in *. assert (m' = n) by congruence. subst m'. assert (R := aget_range _ _ _ G).
      rewrite aget_lupd_ne by lia. rewrite aget_lupd_eq by lia. split; [exact A|]. split; [exact B|]. split; [reflexivity|].
      split; [apply item_next; exact D|]. apply IH; [lia|exact P].
    + exists n', m'. rewrite !aget_lupd_ne by lia. split; [exact A|]. split; [exact B|]. split; [exact C|]. split; [exact D|]. apply IH; [lia|exact P].
Qed.
(** The chain of a finished set *)
Lemma path_items N T i l j n : path N i l j -> l <> [] -> aget N i = Ok n -> (forall m, aget N j = Ok m -> n_next m = -1) ->
  (forall x, i < x -> aget N x <> UB OOBRead -> aget T x = aget N x) -> 0 <= i -> items_at T (n_next n) l.
Proof.
  intros P NE G J F. revert i n P G NE F. induction l as [|it l IH]; intros i n P G NE F I0; [congruence|].
  cbn [path] in P. destruct P as (n' & m & A & B & C & D & P). assert (n' = n) by congruence. subst n'.
  assert (CT : aget T (n_next n) = Ok m) by (rewrite F; auto; congruence).
  destruct l as [|it' l].
  - cbn [path] in P. apply ia_one with (n := m); auto. apply J. congruence.
  - assert (P' := P). cbn [path] in P'. destruct P' as (n2 & m2 & A2 & B2 & _). assert (n2 = m) by congruence. subst n2.
    apply ia_more with (n := m); auto; [lia|]. apply (IH (n_next n)); auto; [discriminate| |lia].
    intros x X. apply F. lia.
Qed.

(** What has been read of a set: the items hanging on the node of the set, and the last character, which is not yet there *)
Definition pend_text (d : bool) (it : item) (tp : str) : Prop :=
  match it with IChar c => set_char d c tp | INamed k => class_name k /\ tp = [bs; k] | IRange _ _ => False end.
Record reading (N0 : list node) (type : Z) (t0 : str) (st : rst) (t : str) (k : Z) (chain first : Z) (l : list item) (pend : option (item * str)) : Prop := {
  re_state : exists Y, ready st t (N0 ++ Y) k 0 /\ path (N0 ++ Y) (zlen N0) l chain /\
    (exists n0, aget (N0 ++ Y) (zlen N0) = Ok n0 /\ n_type n0 = type) /\
    (exists nc, aget (N0 ++ Y) chain = Ok nc /\ n_next nc = -1) /\
    1 + zlen l + (match pend with None => 0 | Some _ => 1 end) <= zlen Y /\
    match pend with
    | None => first = -1
    | Some (it, _) => chain < first /\ exists m, aget (N0 ++ Y) first = Ok m /\ item_node it m /\ n_next m = -1
    end;
  re_text : exists (d : bool) u tp, t0 = u ++ tp ++ t /\
    (forall l2 u2, set_text d l2 u2 -> set_text true (l ++ l2) (u ++ u2)) /\
    match pend with None => d = true /\ tp = [] | Some (it, tp') => tp = tp' /\ pend_text d it tp end
}.

Lemma char_item n u : char_node true n u -> n_next n = -1 /\ exists it, item_node it n /\ forall d, (hd0 u = "-"%char -> d = true) -> hd0 u <> "]"%char -> pend_text d it u.
Proof.
  intro C. destruct C as [k c P NB|k d c NM|k c CN|k b E|k c PE NBB]; cbn [blank set_left n_next]; (split; [reflexivity|]).
  - exists (IChar c). split; [reflexivity|]. cbn [hd0 pend_text]. intros d D NR. apply sc_plain; auto. cbn [lit list_ascii_of_string In]. intros [X|[X|[]]]; [apply NR; symmetry; exact X|apply NB; symmetry; exact X].
  - exists (IChar c). split; [reflexivity|]. intros. apply sc_named. exact NM.
  - exists (INamed c). split; [cbn [item_node]; auto|]. intros. split; auto.
  - discriminate.
  - exists (IChar c). split; [reflexivity|]. intros. apply sc_escape. exact PE.
Qed.

Lemma zlen_app1 {A} (l : list A) x : zlen (l ++ [x]) = zlen l + 1.
Proof. rewrite zlen_app, zlen_cons, zlen_nil. lia. Qed.
Lemma zlen_snoc_app {A} (a b : list A) x : zlen (a ++ (b ++ [x])) = zlen (a ++ b) + 1.
Proof. rewrite app_assoc. apply zlen_app1. Qed.
Lemma aget_snoc {A} (a b : list A) x : aget (a ++ (b ++ [x])) (zlen (a ++ b)) = Ok x.
Proof. rewrite app_assoc. apply aget_last. Qed.
Lemma lupd_app2 {A} (a b : list A) i x : zlen a <= i -> exists b', lupd (a ++ b) (Z.to_nat i) x = a ++ b' /\ zlen b' = zlen b.
Proof.
  intro H. exists (lupd b (Z.to_nat i - List.length a) x). split; [|apply zlen_lupd].
  unfold zlen in H. assert (LL : (List.length a <= Z.to_nat i)%nat) by lia. clear H. revert LL. generalize (Z.to_nat i). clear i.
  induction a as [|y a IH]; intros i LL; cbn [app List.length Nat.sub].
  - rewrite Nat.sub_0_r. reflexivity.
  - cbn [List.length] in LL. destruct i as [|i]; [lia|]. cbn [lupd Nat.sub]. f_equal. apply IH. lia.
Qed.

(** Hanging the last character on the chain *)
Lemma commit st t N0 Y k m chain first l it mm nc : ready st t (N0 ++ Y) k m -> path (N0 ++ Y) (zlen N0) l chain ->
  aget (N0 ++ Y) chain = Ok nc -> chain < first -> aget (N0 ++ Y) first = Ok mm -> item_node it mm -> n_next mm = -1 ->
  forall (n0 : node) type, aget (N0 ++ Y) (zlen N0) = Ok n0 -> n_type n0 = type ->
  exists Y', lupd (N0 ++ Y) (Z.to_nat chain) (set_next first nc) = N0 ++ Y' /\ zlen Y' = zlen Y /\
    path (N0 ++ Y') (zlen N0) (l ++ [it]) first /\ (exists n0, aget (N0 ++ Y') (zlen N0) = Ok n0 /\ n_type n0 = type) /\
    (exists nf, aget (N0 ++ Y') first = Ok nf /\ n_next nf = -1) /\ (forall x, x <> chain -> aget (N0 ++ Y') x = aget (N0 ++ Y) x).
Proof.
  intros R P G LT F I NX n0 type G0 TY. assert (LE := path_le _ _ _ _ P). assert (Z0 := zlen_nonneg N0).
  destruct (lupd_app2 N0 Y chain (set_next first nc) LE) as (Y' & E & ZY). exists Y'. rewrite <- E.
  assert (FR : forall x, x <> chain -> aget (lupd (N0 ++ Y) (Z.to_nat chain) (set_next first nc)) x = aget (N0 ++ Y) x) by (intros x X; apply aget_lupd_ne; lia).
  repeat split; auto.
  - eapply path_snoc; eauto.
  - destruct (Z.eq_dec chain (zlen N0)) as [->|NE].
    + assert (nc = n0) by congruence. subst nc. assert (RR := aget_range _ _ _ G0). rewrite aget_lupd_eq by lia. eexists. split; [reflexivity|]. exact TY.
    + rewrite FR by auto. eauto.
  - rewrite FR by lia. eauto.
Qed.

Lemma class_loop_out N0 type t0 k : forall fuel st t chain first l pend (Q : Z * Z -> rst -> Prop),
  reading N0 type t0 st t k chain first l pend -> (List.length t < fuel)%nat ->
  (forall st' t' chain' first' l' pend', hd0 t' = "]"%char -> reading N0 type t0 st' t' k chain' first' l' pend' ->
     (l <> [] \/ pend <> None \/ hd0 t <> "]"%char -> l' <> [] \/ pend' <> None) -> Q (chain', first') st') ->
  out Q (trex_class_loop fuel chain first st).
Proof.
  induction fuel as [|fuel IH]; intros st t chain first l pend Q R LT H; [lia|]. cbn [trex_class_loop].
  assert (Z0 := zlen_nonneg N0).
  destruct R as [(Y & RD & PA & (n0 & G0 & TY) & (nc & GC & NC) & CNT & PE) (d & u & tp & ET & KK & PT)].
  assert (CL := path_le _ _ _ _ PA).
  eapply b_peek; [exact RD|]. destruct (ceqb (hd0 t) "]") eqn:E1.
  { apply ceqb_eq in E1. cbn [cret ends]. apply (H st t chain first l pend); auto.
    - constructor; [exists Y; split; [exact RD|]; split; [exact PA|]; split; [eauto|]; split; [eauto|]; split; [exact CNT|exact PE]|exists d, u, tp; auto].
    - intros [X|[X|X]]; [left; exact X|right; exact X|congruence]. }
  apply ceqb_neq in E1.
  (* reading one more character *)
  assert (READ : forall st1 Y1 chain1 l1 d1 u1, ready st1 t (N0 ++ Y1) k 0 -> path (N0 ++ Y1) (zlen N0) l1 chain1 ->
      (exists n0, aget (N0 ++ Y1) (zlen N0) = Ok n0 /\ n_type n0 = type) -> (exists nc, aget (N0 ++ Y1) chain1 = Ok nc /\ n_next nc = -1) ->
      1 + zlen l1 <= zlen Y1 -> t0 = u1 ++ t -> (forall l2 u2, set_text d1 l2 u2 -> set_text true (l1 ++ l2) (u1 ++ u2)) ->
      (hd0 t = "-"%char -> d1 = true) ->
      out Q (cbind (trex_charnode true) (fun first' => trex_class_loop fuel chain1 first') st1)).
  { intros st1 Y1 chain1 l1 d1 u1 R1 P1 G1 C1 N1 T1 K1 D1.
    eapply (out_bind _ _ _ _ (fun i s => exists n v t', i = zlen (N0 ++ Y1) /\ t = v ++ t' /\ char_node true n v /\ ready s t' ((N0 ++ Y1) ++ [n]) k 0)).
    { eapply charnode_out; [exact R1|]. intros st' n v t' A B C. exists n, v, t'. auto. }
    intros i st2 (n & v & t' & -> & TV & CN & R2). destruct (char_item n v CN) as (NN & it & IT & PT').
    assert (HV : hd0 t = hd0 v) by (subst t; destruct CN; reflexivity). assert (VN : (1 <= List.length v)%nat) by (destruct CN; cbn [List.length]; lia).
    rewrite HV in *. rewrite <- app_assoc in R2.
    destruct C1 as (nc1 & C1 & C1'). destruct G1 as (n1 & G1 & G1').
    assert (RC := aget_range _ _ _ C1). assert (RG := aget_range _ _ _ G1).
    eapply (IH st2 t' chain1 _ l1 (Some (it, v))); [|subst t; rewrite app_length in LT; lia|].
    - constructor.
      + exists (Y1 ++ [n]). split; [exact R2|]. split; [rewrite app_assoc; apply path_app; exact P1|].
        split; [exists n1; rewrite app_assoc, aget_app1 by lia; auto|]. split; [exists nc1; rewrite app_assoc, aget_app1 by lia; auto|].
        split; [rewrite zlen_app1; lia|]. split; [lia|]. exists n. rewrite aget_snoc. auto.
      + exists d1, u1, v. split; [rewrite <- TV; exact T1|]. split; [exact K1|]. split; [reflexivity|]. apply PT'; auto.
    - intros st' t'' chain' first' l' pend' A B C. apply (H st' t'' chain' first' l' pend'); auto. intros _. apply C. right. left. discriminate. }
  destruct pend as [[it tp']|].
  - destruct PE as (LT1 & mf & GF & IF & NF). destruct PT as [-> PT].
    assert (FN : (first =? -1) = false) by (apply Z.eqb_neq; lia). rewrite FN. cbn [negb]. rewrite andb_true_r.
    destruct (ceqb (hd0 t) "-") eqn:E2.
    + (* a range *)
      apply ceqb_eq in E2. destruct t as [|c t]; [discriminate E2|]. cbn [hd0] in E2. subst c.
      eapply b_advance; [exact RD|discriminate|]. intros st1 R1. eapply b_newnode; [exact R1|lia|]. intros st2 R2. cbn [Z.eqb OP_RANGE OP_EXPR Pos.eqb] in R2.
      eapply b_peek; [exact R2|]. destruct (sc (hd0 t) <? first); [exact bad_ok|].
      assert (RF := aget_range _ _ _ GF).
      eapply b_getn; [exact R2|rewrite aget_app1 by lia; exact GF|]. destruct (Z.eqb_spec (n_type mf) OP_CCLASS) as [|NCC]; [exact bad_ok|].
      assert (exists a, it = IChar a) as [a ->].
      { destruct it as [a|kk|a b]; [eauto| |destruct PT]. destruct IF as (X & _). contradiction. }
      cbn [item_node pend_text] in IF, PT.
      eapply b_setn; [exact R2|apply aget_last|]. intros st3 R3. rewrite lupd_last in R3.
      set (r1 := set_left (n_type mf) (blank OP_RANGE k)) in *.
      eapply (out_bind _ _ _ _ (fun c s => exists v t', t = v ++ t' /\ range_end c v /\ ready s t' ((N0 ++ Y) ++ [r1]) k _)).
      { eapply escapechar_out; [exact R3|]. intros st' c v t' A B C. exists v, t'. eauto. }
      intros b st4 (v & t' & TV & RE & R4).
      eapply b_setn; [exact R4|apply aget_last|]. intros st5 R5. rewrite lupd_last in R5. set (r2 := set_right (sc b) r1) in *.
      rewrite <- app_assoc in R5.
      assert (RC := aget_range _ _ _ GC). assert (RG := aget_range _ _ _ G0).
      assert (GC2 : aget (N0 ++ Y ++ [r2]) chain = Ok nc) by (rewrite app_assoc, aget_app1 by lia; exact GC).
      assert (IR : item_node (IRange a b) r2) by (cbn [item_node r2 r1 set_right set_left n_type n_left n_right blank]; auto).
      eapply b_setn; [exact R5|exact GC2|]. intros st6 R6.
      destruct (commit st5 t' N0 (Y ++ [r2]) k _ chain (zlen (N0 ++ Y)) l (IRange a b) r2 nc R5) with (n0 := n0) (type := type) as (Y' & EY & ZY & P' & G' & C' & _); auto.
      { rewrite app_assoc. apply path_app. exact PA. } { lia. } { apply aget_snoc. } { rewrite app_assoc, aget_app1 by lia. exact G0. }
      rewrite EY in R6. eapply (IH st6 t' _ _ (l ++ [IRange a b]) None).
      * constructor.
        -- exists Y'. split; [eapply ready_weak; [exact R6|lia]|]. rewrite ZY, !zlen_app1. repeat split; auto. lia.
        -- exists true, (u ++ tp' ++ "-"%char :: v), []. split; [subst t0 t; rewrite <- !app_assoc; reflexivity|]. split; [|auto].
           intros l2 u2 S2. rewrite <- app_assoc. cbn [app]. 
           replace ((u ++ tp' ++ "-"%char :: v) ++ u2) with (u ++ (tp' ++ "-"%char :: v ++ u2)) by (rewrite <- !app_assoc; reflexivity).
           apply KK. apply st_range; auto.
      * subst t. cbn [List.length] in LT. rewrite app_length in LT. lia.
      * intros st' t'' chain' first' l' pend' A B C. apply (H st' t'' chain' first' l' pend'); auto. intros _. apply C. left. destruct l; discriminate.
    + (* the character is a member *)
      apply ceqb_neq in E2. eapply b_setn; [exact RD|exact GC|]. intros st1 R1.
      destruct (commit st t N0 Y k 0 chain first l it mf nc RD PA GC LT1 GF IF NF n0 type G0 TY) as (Y' & EY & ZY & P' & G' & C' & _).
      rewrite EY in R1. eapply (READ st1 Y' first (l ++ [it]) false (u ++ tp')); [exact R1|exact P'|exact G'|exact C'|..].
      * rewrite zlen_app1. lia.
      * rewrite <- app_assoc. exact ET.
      * intros l2 u2 S2. rewrite <- !app_assoc. cbn [app]. apply KK. destruct it as [a|kk|a b]; cbn [pend_text] in PT.
        -- apply st_char; auto.
        -- destruct PT as [CN ->]. apply (st_named d kk l2 u2); auto.
        -- destruct PT.
      * intro X. congruence.
  - subst first. destruct PT as [-> ->]. cbn [Z.eqb Pos.eqb negb]. rewrite andb_false_r.
    eapply (READ st Y chain l true u); [exact RD|exact PA|eauto|eauto|lia|exact ET|exact KK|reflexivity].
Qed.

(** A later table that still has the nodes from [a] on, but for what follows node [i] *)
Definition keeps (a : Z) (N T : list node) (i : Z) : Prop :=
  forall x n, a <= x -> aget N x = Ok n -> exists y, aget T x = Ok (set_next y n) /\ (x <> i -> y = n_next n).
Definition same_from (a : Z) (N T : list node) : Prop := forall x n, a <= x -> aget N x = Ok n -> aget T x = Ok n.
Lemma set_next_id n : set_next (n_next n) n = n.
Proof. destruct n. reflexivity. Qed.
Lemma same_keeps a N T i : same_from a N T -> keeps a N T i.
Proof. intros S x n X G. exists (n_next n). rewrite set_next_id. auto. Qed.
Lemma keeps_other a N T i x n : keeps a N T i -> a <= x -> x <> i -> aget N x = Ok n -> aget T x = Ok n.
Proof. intros K X NE G. destruct (K x n X G) as (y & E & Y). rewrite (Y NE), set_next_id in E. exact E. Qed.
Lemma keeps_app a N X T : forall i, keeps a (N ++ X) T i -> keeps a N T i.
Proof. intros i K x n L' G. apply K; auto. assert (R := aget_range _ _ _ G). rewrite aget_app1 by lia. exact G. Qed.

Lemma b_expect {B} (Q : B -> rst -> Prop) c st t N k m (K : unit -> cm B) : ready st t N k m -> c <> bs -> c <> NUL -> bad \/ hd0 t = c ->
  (forall st' t', t = c :: t' -> ready st' t' N k (m + 1) -> out Q (K tt st')) -> out Q (cbind (trex_expect c) K st).
Proof.
  intros R NB NN BD H. eapply (out_bind _ _ _ _ (fun _ s => exists t', t = c :: t' /\ ready s t' N k (m + 1))).
  - unfold trex_expect. eapply b_peek; [exact R|]. destruct (ceqb (hd0 t) c) eqn:E; cbn [negb].
    + apply ceqb_eq in E. destruct t as [|d t]; cbn [hd0] in E; [congruence|]. subst d. eapply advance_out; [exact R|exact NB|]. eauto.
    + apply ceqb_neq in E. destruct BD as [BD|BD]; [exact BD|contradiction].
  - intros [] st' (t' & E & R'). eapply H; eauto.
Qed.

Lemma set_text_nil d l u : set_text d l u -> u = [] -> l = [].
Proof.
  intros S. destruct S as [|c t l u C S|kk l u C S|a b t1 t2 l u C D S]; [reflexivity| |discriminate|].
  - destruct C; discriminate.
  - destruct t1; discriminate.
Qed.
(** The end of a set, once everything hangs on the chain *)
Lemma class_tail (N : list node) (k : Z) (neg : bool) st3 Y' l' ch t' (Q : Z -> rst -> Prop) : ready st3 t' (N ++ Y') k 0 -> path (N ++ Y') (zlen N) l' ch ->
  (exists n0, aget (N ++ Y') (zlen N) = Ok n0 /\ n_type n0 = (if neg then OP_NCLASS else OP_CLASS)) ->
  (exists nc, aget (N ++ Y') ch = Ok nc /\ n_next nc = -1) -> 1 + zlen l' <= zlen Y' -> l' <> [] ->
  (forall st' X n, ready st' t' (N ++ X) k 0 -> 1 + zlen l' <= zlen X -> aget (N ++ X) (zlen N) = Ok n -> n_next n = -1 ->
   n_type n = (if neg then OP_NCLASS else OP_CLASS) ->
   (forall T, keeps (zlen N) (N ++ X) T (zlen N) -> items_at T (n_left n) l') -> Q (zlen N) st') ->
  out Q (cbind (getn (zlen N)) (fun r => cbind (setn (zlen N) (set_left (n_next r))) (fun _ => cbind (setn (zlen N) (set_next (-1))) (fun _ => cret (zlen N)))) st3).
Proof.
  intros R3 P3 (n & G & T3) (nc & GC & NC) CNT NE H. assert (Z0 := zlen_nonneg N).
  assert (RG := aget_range _ _ _ G).
  eapply b_getn; [exact R3|exact G|]. eapply b_setn; [exact R3|exact G|]. intros st4 R4.
  eapply b_setn; [exact R4|apply aget_lupd_eq; lia|]. intros st5 R5. cbn [cret ends].
  set (nf := set_next (-1) (set_left (n_next n) n)) in *.
  set (M := lupd (lupd (N ++ Y') (Z.to_nat (zlen N)) (set_left (n_next n) n)) (Z.to_nat (zlen N)) nf) in *.
  assert (EM : exists X, M = N ++ X /\ zlen X = zlen Y').
  { unfold M. destruct (lupd_app2 N Y' (zlen N) (set_left (n_next n) n) ltac:(lia)) as (Y1 & E1 & Z1). rewrite E1.
    destruct (lupd_app2 N Y1 (zlen N) nf ltac:(lia)) as (Y2 & E2 & Z2). rewrite E2. exists Y2. split; [reflexivity|]. lia. }
  destruct EM as (X & EM & ZX).
  assert (GM : aget M (zlen N) = Ok nf) by (unfold M; apply aget_lupd_eq; rewrite zlen_lupd; lia).
  assert (GO : forall x, x <> zlen N -> aget M x = aget (N ++ Y') x).
  { intros x X'. unfold M. rewrite !aget_lupd_ne by lia. reflexivity. }
  rewrite EM in *. apply (H st5 X nf); auto.
  - lia.
  - intros T K. eapply (path_items (N ++ Y') T (zlen N) l' ch n); eauto.
    + intros m GM'. congruence.
    + intros x LX GX. destruct (aget (N ++ Y') x) as [v| |] eqn:EX.
      * apply (keeps_other (zlen N) (N ++ X) T (zlen N) x v); auto; try lia. rewrite GO by lia. exact EX.
      * exfalso. unfold aget in EX. destruct (x <? 0); [congruence|]. destruct (nth_error (N ++ Y') (Z.to_nat x)); congruence.
      * exfalso. unfold aget in EX. destruct (x <? 0); [congruence|]. destruct (nth_error (N ++ Y') (Z.to_nat x)); congruence.
Qed.

(** A set: [ret] is the node of the set *)
Lemma class_out st t N k fuel (Q : Z -> rst -> Prop) : ready st t N k 1 -> (List.length t < fuel)%nat ->
  (forall st' (neg : bool) l u t' X n, t = (if neg then ["^"%char] else []) ++ u ++ t' -> (neg = false -> hd0 u <> "^"%char) -> set_text true l u -> l <> [] ->
     ready st' t' (N ++ X) k 0 -> 1 + zlen l <= zlen X -> aget (N ++ X) (zlen N) = Ok n -> n_next n = -1 -> hd0 t' = "]"%char ->
     n_type n = (if neg then OP_NCLASS else OP_CLASS) ->
     (forall T, keeps (zlen N) (N ++ X) T (zlen N) -> items_at T (n_left n) l) -> Q (zlen N) st') ->
  out Q (trex_class fuel st).
Proof.
  intros R F H. unfold trex_class. eapply b_peek; [exact R|]. assert (Z0 := zlen_nonneg N).
  eapply (out_bind _ _ _ _ (fun i s => exists (neg : bool) t1, i = zlen N /\ t = (if neg then ["^"%char] else []) ++ t1 /\ (neg = false -> hd0 t1 <> "^"%char) /\
    ready s t1 (N ++ [blank (if neg then OP_NCLASS else OP_CLASS) k]) k 0)).
  { destruct (ceqb (hd0 t) "^") eqn:E.
    - apply ceqb_eq in E. eapply b_newnode; [exact R|lia|]. intros st1 R1. destruct t as [|c t]; [discriminate E|]. cbn [hd0] in E. subst c.
      eapply b_advance; [exact R1|discriminate|]. intros st2 R2. cbn [cret ends]. exists true, t. split; [reflexivity|]. split; [reflexivity|]. split; [discriminate|]. eapply ready_weak; [exact R2|lia].
    - apply ceqb_neq in E. eapply newnode_out; [exact R|lia|]. intros st1 R1. exists false, t. split; [reflexivity|]. split; [reflexivity|]. split; [auto|]. exact R1. }
  intros i st1 (neg & t1 & -> & TT & HD & R1). eapply b_peek; [exact R1|]. destruct (ceqb (hd0 t1) "]") eqn:E; [exact bad_ok|]. apply ceqb_neq in E.
  set (type := if neg then OP_NCLASS else OP_CLASS) in *.
  assert (BN : n_next (blank type k) = -1) by reflexivity. assert (BT : n_type (blank type k) = type) by reflexivity.
  eapply (out_bind _ _ _ _ (fun p s => exists t' l pend, hd0 t' = "]"%char /\ reading N type t1 s t' k (fst p) (snd p) l pend /\ (l <> [] \/ pend <> None))).
  { eapply class_loop_out with (t0 := t1) (l := []) (pend := None) (type := type) (N0 := N) (k := k) (t := t1).
    - constructor.
      + exists [blank type k]. split; [exact R1|]. split; [reflexivity|]. rewrite aget_last. split; [eauto|]. split; [eauto|]. split; [|reflexivity].
        unfold zlen. cbn [List.length]. lia.
      + exists true, [], []. split; [reflexivity|]. split; [|auto]. intros l2 u2 S2. exact S2.
    - subst t. rewrite app_length in F. lia.
    - intros st' t' chain' first' l' pend' A B C. exists t', l', pend'. cbn [fst snd]. split; [exact A|]. split; [exact B|]. apply C. right. right. exact E. }
  intros [chain first] st2 (t' & l & pend & HT & [(Y & RD & PA & (n0 & G0 & TY) & (nc & GC & NC) & CNT & PE) (d & u & tp & ET & KK & PT)] & NE). cbn [fst snd] in *.
  assert (CL := path_le _ _ _ _ PA).
  assert (CS : cstr t1) by (eapply rd_cstr; exact R1).
  assert (HN : forall u' l', t1 = u' ++ t' -> set_text true l' u' -> l' <> [] -> hd0 u' <> NUL).
  { intros u' l' E' S' NE'. rewrite E' in CS. destruct u' as [|c u']; [|exact (cstr_hd _ _ CS)]. exfalso.
    apply NE'. exact (set_text_nil _ _ _ S' eq_refl). }
  destruct pend as [[it tp']|].
  - destruct PE as (LT1 & mf & GF & IF & NF). destruct PT as [-> PT].
    assert (FN : (first =? -1) = false) by (apply Z.eqb_neq; lia). rewrite FN. cbn [negb].
    eapply b_setn; [exact RD|exact GC|]. intros st3 R3.
    destruct (commit st2 t' N Y k 0 chain first l it mf nc RD PA GC LT1 GF IF NF n0 type G0 TY) as (Y' & EY & ZY & P' & G' & C' & _).
    rewrite EY in R3.
    assert (ST : set_text true (l ++ [it]) (u ++ tp')).
    { apply KK. destruct it as [a|kk|a b]; cbn [pend_text] in PT.
      - rewrite <- (app_nil_r tp'). apply st_char; [exact PT|constructor].
      - destruct PT as [CN ->]. apply (st_named d kk [] []); [exact CN|constructor].
      - destruct PT. }
    eapply (class_tail N k neg st3 Y' (l ++ [it]) first); [exact R3|exact P'|exact G'|exact C'|..].
    + rewrite zlen_app1. lia.
    + destruct l; discriminate.
    + assert (HU : hd0 (u ++ tp') <> NUL) by (apply (HN _ (l ++ [it])); auto; [rewrite <- app_assoc; exact ET|destruct l; discriminate]).
      rewrite app_assoc in ET. intros. eapply (H st' neg (l ++ [it]) (u ++ tp') t' X n); auto.
      * rewrite TT, ET. reflexivity.
      * intros NG. specialize (HD NG). rewrite ET in HD. destruct (u ++ tp') as [|c u']; [exfalso; apply HU; reflexivity|]. exact HD.
      * destruct l; discriminate.
  - subst first. destruct PT as [-> ->]. cbn [Z.eqb Pos.eqb negb]. unfold cret at 1. cbn [cbind].
    assert (NL : l <> []) by (destruct NE; congruence).
    assert (ST : set_text true l u) by (rewrite <- (app_nil_r l), <- (app_nil_r u); apply KK; constructor).
    change (out Q (cbind (getn (zlen N)) (fun r => cbind (setn (zlen N) (set_left (n_next r))) (fun _ => cbind (setn (zlen N) (set_next (-1))) (fun _ => cret (zlen N)))) st2)).
    eapply (class_tail N k neg st2 Y l chain); [exact RD|exact PA|eauto|eauto|lia|exact NL|].
    assert (HU : hd0 u <> NUL) by (apply (HN _ l); auto). cbn [app] in ET.
    intros. eapply (H st' neg l u t' X n); auto.
    + rewrite TT, ET. reflexivity.
    + intros NG. specialize (HD NG). rewrite ET in HD. destruct u as [|c u']; [exfalso; apply HU; reflexivity|]. exact HD.
Qed.

(** ** Repetitions *)
Lemma digit_sc c : isdigitb c = true -> sc c - 48 = uc c - 48.
Proof. unfold isdigitb, sc. rewrite andb_true_iff, !Z.leb_le. intros. destruct (Z.ltb_spec (uc c) 128); lia. Qed.
Lemma value_snoc ds d : value_of (ds ++ [d]) = value_of ds * 10 + (uc d - 48).
Proof. unfold value_of. rewrite fold_left_app. reflexivity. Qed.
Lemma digit_bs c : isdigitb c = true -> c <> bs.
Proof. intros H ->. discriminate H. Qed.
Lemma number_loop_out N k m : forall fuel st t ret pos ds (Q : Z -> rst -> Prop), ready st t N k m -> (List.length t < fuel)%nat ->
  ret = value_of ds -> ds <> [] -> forallb isdigitb ds = true -> pos = 10 ^ zlen ds -> (List.length ds <= 9)%nat ->
  (forall st' ds' t', t = ds' ++ t' -> number (value_of (ds ++ ds')) (ds ++ ds') -> isdigitb (hd0 t') = false -> ready st' t' N k m -> Q (value_of (ds ++ ds')) st') ->
  out Q (trex_number_loop fuel ret pos st).
Proof.
  induction fuel as [|fuel IH]; intros st t ret pos ds Q R F E NE AD EP LD H; [lia|]. cbn [trex_number_loop]. eapply b_peek; [exact R|].
  destruct (isdigitb (hd0 t)) eqn:D.
  - destruct (negb (in_intb (ret * 10 + (sc (hd0 t) - 48)))); [split; [reflexivity|exact bad_ok]|]. destruct t as [|c t]; [discriminate D|]. cbn [hd0] in *.
    eapply b_advance; [exact R|apply digit_bs; exact D|]. intros st1 R1. destruct (Z.eqb_spec pos 1000000000) as [|P9]; [exact bad_ok|].
    assert (LD9 : List.length ds <> 9%nat) by (intro X; apply P9; rewrite EP; unfold zlen; rewrite X; reflexivity).
    eapply (IH st1 t _ _ (ds ++ [c])); [eapply ready_weak; [exact R1|lia]|cbn [List.length] in F; lia| | | | | |].
    + rewrite value_snoc, digit_sc by exact D. subst ret. reflexivity.
    + destruct ds; discriminate.
    + rewrite forallb_app, AD. cbn [forallb andb]. rewrite D. reflexivity.
    + rewrite zlen_app1, Z.pow_add_r, EP by (try apply zlen_nonneg; lia). reflexivity.
    + rewrite app_length. cbn [List.length]. lia.
    + intros st' ds' t' ET NB HD R'. rewrite <- !app_assoc in *. cbn [app] in *. apply (H st' (c :: ds') t'); auto. subst t. reflexivity.
  - cbn [cret ends]. rewrite E. rewrite <- (app_nil_r ds). apply (H st [] t); auto. rewrite app_nil_r. constructor; auto.
Qed.
Lemma number_out st t N k m fuel (Q : Z -> rst -> Prop) : ready st t N k m -> isdigitb (hd0 t) = true -> (List.length t <= fuel)%nat ->
  (forall st' n u t', t = u ++ t' -> number n u -> isdigitb (hd0 t') = false -> ready st' t' N k m -> Q n st') -> out Q (trex_parsenumber fuel st).
Proof.
  intros R D F H. unfold trex_parsenumber. eapply b_peek; [exact R|]. destruct t as [|c t]; [discriminate D|]. cbn [hd0] in *.
  eapply b_advance; [exact R|apply digit_bs; exact D|]. intros st1 R1.
  eapply (number_loop_out N k m fuel st1 t _ _ [c]); [eapply ready_weak; [exact R1|lia]|cbn [List.length] in F; lia| |discriminate| |reflexivity|cbn; lia|].
  - rewrite digit_sc by exact D. reflexivity.
  - cbn [forallb]. rewrite D. reflexivity.
  - intros st' ds' t' ET NB HD R'. apply (H st' _ (c :: ds') t'); auto. subst t. reflexivity.
Qed.

Definition count (hi : option Z) : Z := match hi with Some h => h mod 65536 | None => 65535 end.
Definition repeat_node (k lo : Z) (hi : option Z) (left : Z) : node := set_right (pack (lo mod 65536) (count hi)) (set_left left (blank OP_GREEDY k)).
Definition suffix_free (t : str) : Prop := ~ In (hd0 t) (lit "*+?{").
Lemma suffix_out st t N k fuel ret (Q : Z -> rst -> Prop) : ready st t N k 0 -> (List.length t <= fuel)%nat ->
  (suffix_free t -> Q ret st) ->
  (forall st' lo hi u t', t = u ++ t' -> suffix lo hi u -> ready st' t' (N ++ [repeat_node k lo hi ret]) k 0 -> Q (zlen N) st') ->
  out Q (trex_suffix fuel ret st).
Proof.
  intros R F H0 H. unfold trex_suffix. eapply b_peek; [exact R|].
  eapply (out_bind _ _ _ _ (fun g s => match g with None => s = st /\ suffix_free t | Some (p0, p1) =>
    exists lo hi u t', t = u ++ t' /\ suffix lo hi u /\ p0 = lo mod 65536 /\ p1 = count hi /\ ready s t' N k 1 end)).
  { assert (SIMPLE : forall c lo hi p0 p1, hd0 t = c -> c <> NUL -> c <> bs -> suffix lo hi [c] -> p0 = lo mod 65536 -> p1 = count hi ->
      out (fun g s => match g with None => s = st /\ suffix_free t | Some (p0, p1) =>
        exists lo hi u t', t = u ++ t' /\ suffix lo hi u /\ p0 = lo mod 65536 /\ p1 = count hi /\ ready s t' N k 1 end)
        (cbind advance (fun _ => cret (Some (p0, p1))) st)).
    { intros c lo hi p0 p1 E NN NB SX E0 E1. destruct t as [|d t]; cbn [hd0] in E; [congruence|]. subst d.
      eapply b_advance; [exact R|exact NB|]. intros st1 R1. cbn [cret ends]. exists lo, hi, [c], t. split; [reflexivity|]. auto. }
    destruct (ceqb (hd0 t) "*") eqn:E1; [apply ceqb_eq in E1; apply (SIMPLE "*"%char 0 None); auto; try discriminate; constructor|].
    destruct (ceqb (hd0 t) "+") eqn:E2; [apply ceqb_eq in E2; apply (SIMPLE "+"%char 1 None); auto; try discriminate; constructor|].
    destruct (ceqb (hd0 t) "?") eqn:E3; [apply ceqb_eq in E3; apply (SIMPLE "?"%char 0 (Some 1)); auto; try discriminate; constructor|].
    destruct (ceqb (hd0 t) "{") eqn:E4.
    - apply ceqb_eq in E4. destruct t as [|c t]; [discriminate E4|]. cbn [hd0] in *. subst c. clear E1 E2 E3 SIMPLE. cbn [List.length] in F.
      eapply b_advance; [exact R|discriminate|]. intros st1 R1. eapply b_peek; [exact R1|]. destruct (isdigitb (hd0 t)) eqn:D; cbn [negb]; [|exact bad_ok].
      eapply (out_bind _ _ _ _ (fun n s => exists u t', t = u ++ t' /\ number n u /\ ready s t' N k 1)).
      { eapply number_out; [exact R1|exact D|lia|]. intros. eexists _, _. split; [eassumption|]. auto. }
      intros n st2 (u & t' & ET & NB & R2). eapply b_peek; [exact R2|]. destruct (ceqb (hd0 t') "}") eqn:E5.
      + apply ceqb_eq in E5. destruct t' as [|c t']; [discriminate E5|]. cbn [hd0] in E5. subst c. eapply b_advance; [exact R2|discriminate|]. intros st3 R3.
        cbn [cret ends]. exists n, (Some n), (lit "{" ++ u ++ lit "}"), t'. split; [|split; [|split; [|split]]].
        * subst t. rewrite <- !app_assoc. reflexivity.
        * constructor. exact NB.
        * reflexivity.
        * reflexivity.
        * eapply ready_weak; [exact R3|lia].
      + destruct (ceqb (hd0 t') ",") eqn:E6; [|exact bad_ok]. apply ceqb_eq in E6. destruct t' as [|c t']; [discriminate E6|]. cbn [hd0] in E6, E5. subst c.
        eapply b_advance; [exact R2|discriminate|]. intros st3 R3. eapply b_peek; [exact R3|].
        eapply (out_bind _ _ _ _ (fun p1 s => exists hi u2 t2, t' = u2 ++ t2 /\ p1 = count hi /\ ready s t2 N k 1 /\ match hi with None => u2 = [] | Some h => number h u2 end)).
        { destruct (isdigitb (hd0 t')) eqn:D2.
          - eapply (out_bind _ _ _ _ (fun n s => exists u t2, t' = u ++ t2 /\ number n u /\ ready s t2 N k 1)).
            { eapply number_out; [exact R3|exact D2| |].
              - subst t. rewrite app_length in F. cbn [List.length] in F. lia.
              - intros st' n' u' t2 A B C R'. eexists _, _. split; [eassumption|]. split; [exact B|]. eapply ready_weak; [exact R'|lia]. }
            intros h st4 (u2 & t2 & A & B & C). cbn [cret ends]. exists (Some h), u2, t2. auto.
          - cbn [cret ends]. exists None, [], t'. split; [reflexivity|]. split; [reflexivity|]. split; [eapply ready_weak; [exact R3|lia]|reflexivity]. }
        intros p1 st4 (hi & u2 & t2 & E7 & -> & R4 & HH). eapply b_expect; [exact R4|discriminate|discriminate|left; exact bad_ok|]. intros st5 t3 -> R5. cbn [cret ends].
        destruct hi as [h|].
        * exists n, (Some h), (lit "{" ++ u ++ lit "," ++ u2 ++ lit "}"), t3. split; [|split; [|split; [|split]]].
          -- subst t t'. rewrite <- !app_assoc. reflexivity.
          -- apply sx_between; auto.
          -- reflexivity.
          -- reflexivity.
          -- eapply ready_weak; [exact R5|lia].
        * subst u2. exists n, None, (lit "{" ++ u ++ lit ",}"), t3. split; [|split; [|split; [|split]]].
          -- subst t t'. rewrite <- !app_assoc. reflexivity.
          -- apply sx_least; auto.
          -- reflexivity.
          -- reflexivity.
          -- eapply ready_weak; [exact R5|lia].
    - cbn [cret ends]. split; [reflexivity|]. unfold suffix_free. cbn [lit list_ascii_of_string In].
      apply ceqb_neq in E1, E2, E3, E4. intros [X|[X|[X|[X|[]]]]]; congruence. }
  intros [[p0 p1]|] st1; [|intros [-> SF]; cbn [cret ends]; auto].
  intros (lo & hi & u & t' & ET & SX & -> & -> & R1). eapply b_newnode; [exact R1|lia|]. intros st2 R2.
  eapply b_setn; [exact R2|apply aget_last|]. intros st3 R3. rewrite lupd_last in R3. destruct (32768 <=? lo mod 65536); [split; [reflexivity|exact bad_ok]|].
  eapply b_setn; [exact R3|apply aget_last|]. intros st4 R4. rewrite lupd_last in R4. cbn [cret ends]. apply (H st4 lo hi u t'); [exact ET|exact SX|exact R4].
Qed.

(** ** Elements and lists *)

(** Node [ret] in [N ++ X] stands for the element [e]: whatever is done later to the table, but for the link to the next element.
    [k] and [k'] count the capturing groups before and after. *)
Record made (e : elem) (N X : list node) (k k' ret : Z) : Prop := {
  md_k : k <= k';
  md_size : Z.of_nat (sz_elem e) <= zlen X;
  md_low : zlen N <= ret;
  md_last : exists n, aget (N ++ X) ret = Ok n /\ n_next n = -1;
  md_rep : forall T nsub, k' <= nsub -> keeps (zlen N) (N ++ X) T ret -> rep T nsub ret (NE e)
}.
Record chained (l : list nk) (N X : list node) (k k' ret : Z) : Prop := {
  ch_k : k <= k';
  ch_size : Z.of_nat (sz_list l) <= zlen X;
  ch_low : zlen N <= ret < zlen (N ++ X);
  ch_rep : forall T nsub, k' <= nsub -> same_from (zlen N) (N ++ X) T -> repl T nsub ret l
}.

Lemma lupd_mid {A} (l : list A) x y r : lupd (l ++ x :: r) (Z.to_nat (zlen l)) y = l ++ y :: r.
Proof. unfold zlen. rewrite Nat2Z.id. induction l as [|a l IH]; cbn [app List.length lupd]; [reflexivity|]. f_equal. exact IH. Qed.
Lemma aget_mid {A} (l : list A) x y r i : i <> zlen l -> aget (l ++ y :: r) i = aget (l ++ x :: r) i.
Proof. intro H. rewrite <- (lupd_mid l x y r). apply aget_lupd_ne; [apply zlen_nonneg|auto]. Qed.
Lemma zlen_app_lt {A} (l : list A) x r : zlen l < zlen (l ++ x :: r).
Proof. rewrite zlen_app, zlen_cons. assert (H := zlen_nonneg r). lia. Qed.

Lemma made_node e N n k : n_next n = -1 -> sz_elem e = 1%nat -> (forall T nsub i y, aget T i = Ok (set_next y n) -> rep T nsub i (NE e)) -> made e N [n] k k (zlen N).
Proof.
  intros NX SZ REP. constructor; [lia|rewrite SZ; cbn; lia|lia|exists n; split; [apply aget_last|exact NX]|].
  intros T nsub KN KP. destruct (KP (zlen N) n) as (y & GT & _); [lia|apply aget_last|]. eapply REP. exact GT.
Qed.
Lemma made_set (neg : bool) l N X k n : 1 + zlen l <= zlen X -> aget (N ++ X) (zlen N) = Ok n -> n_next n = -1 -> n_type n = (if neg then OP_NCLASS else OP_CLASS) ->
  (forall T, keeps (zlen N) (N ++ X) T (zlen N) -> items_at T (n_left n) l) -> made (Set_ neg l) N X k k (zlen N).
Proof.
  intros CNT G NX TY IT. constructor; [lia|cbn [sz_elem]; unfold zlen in CNT |- *; lia|lia|eauto|].
  intros T nsub KN KP. destruct (KP (zlen N) n) as (y & GT & _); [lia|exact G|].
  eapply rep_set; [exact GT|exact TY|]. cbn [set_next n_left]. apply IT. exact KP.
Qed.
Definition group_node (cap : bool) (k : Z) : node := blank (if cap then OP_EXPR else OP_NOCAPEXPR) k.
Definition group_k (cap : bool) (k : Z) : Z := if cap then k + 1 else k.
Lemma made_group cap a N X k k' newn : 0 <= k -> chained (alt_list a) (N ++ [group_node cap k]) X (group_k cap k) k' newn ->
  made (Group cap a) N (set_left newn (group_node cap k) :: X) k k' (zlen N).
Proof.
  intros K0 [KK SZ LO REP]. unfold group_k in KK. constructor.
  - destruct cap; lia.
  - rewrite zlen_cons. cbn [sz_elem]. rewrite sz_alt_list in SZ. lia.
  - lia.
  - eexists. split; [apply aget_last|reflexivity].
  - intros T nsub KN KP. destruct (KP (zlen N) (set_left newn (group_node cap k))) as (y & GT & _); [lia|apply aget_last|].
    eapply rep_group; [exact GT|destruct cap; reflexivity| |].
    + intros ->. cbn. lia.
    + cbn [set_next set_left n_left]. apply REP; [exact KN|]. intros x m LX GX. rewrite zlen_app1 in LX.
      apply (keeps_other (zlen N) (N ++ set_left newn (group_node cap k) :: X) T (zlen N) x m); auto; try lia.
      rewrite (aget_mid N (group_node cap k)) by lia. rewrite <- app_assoc in GX. exact GX.
Qed.
Lemma made_repeat lo hi e N X k k' ret : made e N X k k' ret -> made (Repeat lo hi e) N (X ++ [repeat_node k' lo hi ret]) k k' (zlen (N ++ X)).
Proof.
  intros [KK SZ LO (n & G & NX) REP]. set (g := repeat_node k' lo hi ret). assert (Z0 := zlen_nonneg X). assert (RG := aget_range _ _ _ G). constructor.
  - exact KK.
  - rewrite zlen_app1. cbn [sz_elem]. lia.
  - rewrite zlen_app. lia.
  - exists g. split; [apply aget_snoc|reflexivity].
  - intros T nsub KN KP. rewrite app_assoc in KP.
    destruct (KP (zlen (N ++ X)) g) as (y & GT & _); [rewrite zlen_app; lia|apply aget_last|].
    eapply rep_repeat; [exact GT|reflexivity|destruct hi; reflexivity|].
    assert (GR : aget T ret = Ok n).
    { apply (keeps_other (zlen N) ((N ++ X) ++ [g]) T (zlen (N ++ X)) ret); auto; try lia. rewrite aget_app1 by lia. exact G. }
    change (repl T nsub ret [NE e]). eapply repl_one; [exact GR|exact NX|]. apply REP; [exact KN|].
    intros x m LX GX. assert (RX := aget_range _ _ _ GX). exists (n_next m). rewrite set_next_id. split; [|reflexivity].
    apply (keeps_other (zlen N) ((N ++ X) ++ [g]) T (zlen (N ++ X)) x); auto; try lia. rewrite aget_app1 by lia. exact GX.
Qed.
Lemma chained_one e N X k k' ret : made e N X k k' ret -> chained [NE e] N X k k' ret.
Proof.
  intros [KK SZ LO (n & G & NX) REP]. assert (RG := aget_range _ _ _ G). constructor; [exact KK|cbn [sz_list fold_right sz_nk]; lia|lia|].
  intros T nsub KN SF. eapply repl_one; [apply SF; [exact LO|exact G]|exact NX|]. apply REP; [exact KN|apply same_keeps; exact SF].
Qed.
Lemma chained_more e l N X X2 k k' k2 ret nnode n : made e N X k k' ret -> chained l (N ++ X) X2 k' k2 nnode -> aget (N ++ X ++ X2) ret = Ok n ->
  exists Y, lupd (N ++ X ++ X2) (Z.to_nat ret) (set_next nnode n) = N ++ Y /\ chained (NE e :: l) N Y k k2 ret.
Proof.
  intros [KK SZ LO (n' & G & NX) REP] [K2 SZ2 LO2 REP2] G3. assert (RG := aget_range _ _ _ G). assert (Z0 := zlen_nonneg N).
  assert (n' = n) by (rewrite app_assoc, aget_app1 in G3 by lia; congruence). subst n'.
  destruct (lupd_app2 N (X ++ X2) ret (set_next nnode n) LO) as (Y & EY & ZY). exists Y. split; [exact EY|].
  assert (GY : aget (N ++ Y) ret = Ok (set_next nnode n)) by (rewrite <- EY; apply aget_lupd_eq; rewrite app_assoc, zlen_app; assert (ZZ := zlen_nonneg X2); lia).
  assert (GO : forall x, x <> ret -> aget (N ++ Y) x = aget (N ++ X ++ X2) x) by (intros x NE; rewrite <- EY; apply aget_lupd_ne; lia).
  rewrite zlen_app in LO2. constructor.
  - lia.
  - rewrite ZY, zlen_app. cbn [sz_list fold_right sz_nk]. unfold sz_list in SZ2. lia.
  - rewrite zlen_app, ZY, !zlen_app in *. assert (ZZ := zlen_nonneg X2). lia.
  - intros T nsub KN SF. eapply repl_more.
    + apply SF; [exact LO|exact GY].
    + cbn [set_next n_next]. lia.
    + apply REP; [lia|]. intros x m LX GX. assert (RX := aget_range _ _ _ GX). destruct (Z.eq_dec x ret) as [->|NE].
      * assert (m = n) by congruence. subst m. exists nnode. split; [apply SF; [exact LX|exact GY]|congruence].
      * exists (n_next m). rewrite set_next_id. split; [|reflexivity]. apply SF; [exact LX|]. rewrite GO by exact NE. rewrite app_assoc, aget_app1 by lia. exact GX.
    + cbn [set_next n_next]. apply REP2; [lia|]. intros x m LX GX. rewrite zlen_app in LX. apply SF; [assert (ZZ := zlen_nonneg X); lia|].
      rewrite GO; [|rewrite zlen_app in RG; lia]. rewrite app_assoc. exact GX.
Qed.
Lemma chained_anchor l N X k k' e : chained l (N ++ [blank OP_BOL k]) X k k' e -> chained (NB :: l) N (set_next e (blank OP_BOL k) :: X) k k' (zlen N).
Proof.
  intros [KK SZ LO REP]. assert (Z0 := zlen_nonneg N). set (b := blank OP_BOL k) in *. constructor.
  - exact KK.
  - rewrite zlen_cons. cbn [sz_list fold_right sz_nk]. unfold sz_list in SZ. lia.
  - split; [lia|apply zlen_app_lt].
  - intros T nsub KN SF. eapply repl_more; [apply SF; [lia|apply aget_last]|rewrite zlen_app1 in LO; cbn [set_next n_next]; lia| |].
    + eapply rep_bol; [apply SF; [lia|apply aget_last]|reflexivity].
    + cbn [set_next n_next]. apply REP; [exact KN|]. intros x m LX GX. rewrite zlen_app1 in LX. apply SF; [lia|].
      rewrite (aget_mid N b) by lia. rewrite <- app_assoc in GX. exact GX.
Qed.
Definition or_node (k left : Z) : node := set_left left (blank OP_OR k).
Lemma chained_or b s a N X X2 k k' k2 ret tright : chained (start b s) N X k k' ret -> chained (alt_list a) ((N ++ X) ++ [or_node k' ret]) X2 k' k2 tright ->
  chained (alt_list (Or b s a)) N (X ++ set_right tright (or_node k' ret) :: X2) k k2 (zlen (N ++ X)).
Proof.
  intros [KK SZ LO REP] [K2 SZ2 LO2 REP2]. set (o1 := or_node k' ret) in *. set (o2 := set_right tright o1).
  assert (ZZ := zlen_nonneg X2). assert (ZX := zlen_nonneg X). constructor.
  - lia.
  - rewrite zlen_app, zlen_cons. rewrite sz_start in SZ. rewrite sz_alt_list in SZ2. cbn [alt_list sz_list fold_right sz_nk]. destruct b; lia.
  - rewrite !zlen_app, !zlen_cons in *. lia.
  - intros T nsub KN SF. cbn [alt_list]. assert (GT : aget T (zlen (N ++ X)) = Ok o2).
    { apply SF; [rewrite zlen_app; lia|]. rewrite app_assoc. apply aget_last. }
    eapply repl_one; [exact GT|reflexivity|]. eapply rep_or; [exact GT|reflexivity| |].
    + change (n_left o2) with ret. apply REP; [lia|]. intros x m LX GX. assert (RX := aget_range _ _ _ GX). apply SF; [exact LX|]. rewrite app_assoc, aget_app1 by lia. exact GX.
    + change (n_right o2) with tright. apply REP2; [exact KN|]. intros x m LX GX. rewrite zlen_app1, zlen_app in LX. apply SF; [lia|].
      rewrite app_assoc, (aget_mid (N ++ X) o1) by (rewrite zlen_app; lia). rewrite <- app_assoc in GX. exact GX.
Qed.

Definition placed (p : place) (t : str) : Prop :=
  match p with First => hd0 t <> "^"%char | AfterAnchor => True | AfterAtom => ~ In (hd0 t) (lit "|)*+?{") | AfterRepeat => ~ In (hd0 t) (lit "|)*+") end.
(** What an atom, an element, a sequence and a choice are compiled to *)
Definition atom_done (p : place) (t : str) (N : list node) (k : Z) (ret : Z) (st : rst) : Prop :=
  exists e u t' X k', t = u ++ t' /\ atom_text p e u /\ ready st t' (N ++ X) k' 0 /\ made e N X k k' ret.
Definition elem_done (p : place) (t : str) (N : list node) (k : Z) (ret : Z) (st : rst) : Prop :=
  exists e u t' q X k', t = u ++ t' /\ elem_text p e u q /\ (1 <= List.length u)%nat /\ (inb (hd0 t') [ "|"; ")"; "*"; "+"; NUL ]%char = false -> placed q t') /\
    ready st t' (N ++ X) k' 0 /\ made e N X k k' ret.
Definition seq_done (p : place) (t : str) (N : list node) (k : Z) (ret : Z) (st : rst) : Prop :=
  exists s u t' X k', t = u ++ t' /\ seq_text p s u /\ ready st t' (N ++ X) k' 0 /\ chained (seq_list s) N X k k' ret.
Definition alt_done (t : str) (N : list node) (k : Z) (ret : Z) (st : rst) : Prop :=
  exists a u t' X k', t = u ++ t' /\ alt_text a u /\ ready st t' (N ++ X) k' 0 /\ chained (alt_list a) N X k k' ret.

Lemma char_atom p n u t : char_node false n u -> placed p (u ++ t) -> ~ In (hd0 u) (lit "([$.") -> n_next n = -1 /\
  exists e, atom_text p e u /\ sz_elem e = 1%nat /\ forall T nsub i y, aget T i = Ok (set_next y n) -> rep T nsub i (NE e).
Proof.
  intros C PL NS. destruct C as [k c P NB|k d c NM|k c CN|k b E|k c PE NBB]; (split; [reflexivity|]).
  - exists (Char c). split; [|split; [reflexivity|intros; eapply rep_char; [eassumption|reflexivity]]]. apply at_char. cbn [hd0 app] in *. split; [exact P|]. split.
    + cbn [lit list_ascii_of_string In] in *. unfold bs in NB. intuition congruence.
    + destruct p; exact PL.
  - exists (Char c). split; [apply at_named; exact NM|split; [reflexivity|intros; eapply rep_char; [eassumption|reflexivity]]].
  - exists (Named c). split; [apply at_class; exact CN|split; [reflexivity|intros; eapply rep_named; [eassumption|reflexivity|reflexivity|exact CN]]].
  - exists (Boundary b). split; [destruct b; [apply at_b|apply at_B]|split; [reflexivity|intros; eapply rep_wb; [eassumption|reflexivity|reflexivity]]].
  - destruct (NBB eq_refl) as [B1 B2]. exists (Char c). split; [apply at_escape; auto|split; [reflexivity|intros; eapply rep_char; [eassumption|reflexivity]]].
Qed.
Lemma atom_len p e u : atom_text p e u -> (1 <= List.length u)%nat.
Proof. intro A. destruct A; cbn [List.length lit list_ascii_of_string app]; lia. Qed.
Lemma not_inb c l : inb c l = false -> ~ In c l.
Proof. intros H I. apply inb_spec in I. congruence. Qed.
Lemma elem_suffix p t N k ret st fuel : atom_done p t N k ret st -> (List.length t <= fuel)%nat -> out (elem_done p t N k) (trex_suffix fuel ret st).
Proof.
  intros (e & u & t' & X & k' & ET & AT & R & M) F. assert (LU := atom_len _ _ _ AT).
  eapply suffix_out; [exact R|subst t; rewrite app_length in F; lia| |].
  - intros SF. exists e, u, t', AfterAtom, X, k'. split; [exact ET|]. split; [apply el_atom; exact AT|]. split; [exact LU|].
    split; [|split; [exact R|exact M]]. intros NI. apply not_inb in NI. unfold suffix_free in SF. cbn [placed lit list_ascii_of_string In] in *. intuition congruence.
  - intros st' lo hi u2 t2 E2 SX R2. rewrite <- app_assoc in R2.
    exists (Repeat lo hi e), (u ++ u2), t2, AfterRepeat, (X ++ [repeat_node k' lo hi ret]), k'. split; [subst; rewrite <- app_assoc; reflexivity|].
    split; [apply el_repeat; auto|]. split; [rewrite app_length; lia|].
    split; [intros NI; apply not_inb in NI; cbn [placed lit list_ascii_of_string In] in *; intuition congruence|].
    split; [exact R2|apply made_repeat; exact M].
Qed.

Lemma element_list_out : forall fuel,
  (forall st t N k p, ready st t N k 0 -> placed p t -> (2 * List.length t + 1 <= fuel)%nat -> out (seq_done p t N k) (trex_element fuel st)) /\
  (forall st t N k, ready st t N k 0 -> (2 * List.length t + 2 <= fuel)%nat -> out (alt_done t N k) (trex_list fuel st)).
Proof.
  induction fuel as [|fuel [IHe IHl]]; [split; intros; lia|]. split.
  - intros st t N k p R PL F. cbn [trex_element]. eapply b_peek; [exact R|].
    eapply (out_bind _ _ _ _ (atom_done p t N k)).
    { destruct (ceqb (hd0 t) "(") eqn:E1; [|destruct (ceqb (hd0 t) "[") eqn:E2; [|destruct (ceqb (hd0 t) "$") eqn:E3; [|destruct (ceqb (hd0 t) ".") eqn:E4]]].
      - apply ceqb_eq in E1. destruct t as [|c t]; [discriminate E1|]. cbn [hd0] in E1. subst c. cbn [List.length] in F.
        eapply b_advance; [exact R|discriminate|]. intros st1 R1. eapply b_peek; [exact R1|].
        eapply (out_bind _ _ _ _ (fun i s => exists (cap : bool) t1, i = zlen N /\ t = (if cap then [] else lit "?:") ++ t1 /\ (cap = true -> hd0 t1 <> "?"%char) /\
          ready s t1 (N ++ [group_node cap k]) (group_k cap k) 0)).
        { destruct (ceqb (hd0 t) "?") eqn:EQ.
          - apply ceqb_eq in EQ. destruct t as [|c t]; [discriminate EQ|]. cbn [hd0] in EQ. subst c.
            eapply b_advance; [exact R1|discriminate|]. intros st2 R2. eapply b_expect; [exact R2|discriminate|discriminate|left; exact bad_ok|]. intros st3 t1 -> R3.
            eapply newnode_out; [exact R3|lia|]. intros st4 R4. exists false, t1. split; [reflexivity|]. split; [reflexivity|]. split; [discriminate|].
            eapply ready_weak; [exact R4|lia].
          - apply ceqb_neq in EQ. eapply newnode_out; [exact R1|lia|]. intros st4 R4. exists true, t. split; [reflexivity|]. split; [reflexivity|]. split; [auto|]. exact R4. }
        intros i st2 (cap & t1 & -> & ET & HC & R2).
        eapply (out_bind _ _ _ _ (alt_done t1 (N ++ [group_node cap k]) (group_k cap k))).
        { apply IHl; [exact R2|]. subst t. rewrite app_length in F. lia. }
        intros newn st3 (a & u & t2 & X & k' & E2 & AT & R3 & CH). rewrite <- app_assoc in R3. cbn [app] in R3.
        eapply b_setn; [exact R3|apply aget_last|]. intros st4 R4. rewrite lupd_mid in R4.
        eapply b_expect; [exact R4|discriminate|discriminate|left; exact bad_ok|]. intros st5 t3 -> R5. cbn [cret ends].
        exists (Group cap a), ("("%char :: (if cap then [] else lit "?:") ++ u ++ lit ")"), t3, (set_left newn (group_node cap k) :: X), k'.
        split; [subst; cbn [app]; rewrite <- !app_assoc; reflexivity|].
        split.
        { destruct cap.
          - cbn [app]. apply at_group; [|exact AT]. specialize (HC eq_refl). rewrite E2 in HC. destruct u as [|c u]; [discriminate|exact HC].
          - exact (at_nocap p a u AT). }
        split; [eapply ready_weak; [exact R5|lia]|]. apply made_group; [exact (rd_k _ _ _ _ _ R)|exact CH].
      - apply ceqb_eq in E2. destruct t as [|c t]; [discriminate E2|]. cbn [hd0] in E2. subst c. cbn [List.length] in F.
        eapply b_advance; [exact R|discriminate|]. intros st1 R1.
        eapply (out_bind _ _ _ _ (fun i s => exists (neg : bool) l u t' X, t = (if neg then ["^"%char] else []) ++ u ++ t' /\ (neg = false -> hd0 u <> "^"%char) /\
          set_text true l u /\ l <> [] /\ ready s t' (N ++ X) k 0 /\ made (Set_ neg l) N X k k i)).
        { eapply class_out; [exact R1|lia|]. intros st' neg l u t' X n. intros. exists neg, l, u, t', X. do 5 (split; [auto|]). eapply made_set; eauto. }
        intros i st2 (neg & l & u & t' & X & ET & HD & ST & NL & R2 & M).
        eapply b_expect; [exact R2|discriminate|discriminate|left; exact bad_ok|]. intros st3 t2 -> R3. cbn [cret ends].
        exists (Set_ neg l), ("["%char :: (if neg then ["^"%char] else []) ++ u ++ lit "]"), t2, X, k.
        split; [subst; cbn [app]; rewrite <- !app_assoc; reflexivity|].
        split; [destruct neg; [exact (at_nset p l u NL ST)|exact (at_set p l u NL (HD eq_refl) ST)]|].
        split; [eapply ready_weak; [exact R3|lia]|exact M].
      - apply ceqb_eq in E3. destruct t as [|c t]; [discriminate E3|]. cbn [hd0] in E3. subst c.
        eapply b_advance; [exact R|discriminate|]. intros st1 R1. eapply newnode_out; [exact R1|lia|]. intros st2 R2.
        exists End, (lit "$"), t, [blank OP_EOL k], k. split; [reflexivity|]. split; [constructor|]. split; [exact R2|].
        apply made_node; [reflexivity|reflexivity|]. intros. eapply rep_end; [eassumption|reflexivity].
      - apply ceqb_eq in E4. destruct t as [|c t]; [discriminate E4|]. cbn [hd0] in E4. subst c.
        eapply b_advance; [exact R|discriminate|]. intros st1 R1. eapply newnode_out; [exact R1|lia|]. intros st2 R2.
        exists Any, (lit "."), t, [blank OP_DOT k], k. split; [reflexivity|]. split; [constructor|]. split; [exact R2|].
        apply made_node; [reflexivity|reflexivity|]. intros. eapply rep_any; [eassumption|reflexivity].
      - eapply charnode_out; [exact R|]. intros st' n u t' ET CN R'. 
        assert (HU : hd0 u = hd0 t) by (subst t; destruct CN; reflexivity).
        destruct (char_atom p n u t' CN) as (NX & e & AT & SZ & REP); [rewrite <- ET; exact PL| |].
        { rewrite HU. apply ceqb_neq in E1, E2, E3, E4. cbn [lit list_ascii_of_string In]. intuition congruence. }
        exists e, u, t', [n], k. split; [exact ET|]. split; [exact AT|]. split; [exact R'|]. apply made_node; auto. }
    intros atom st1 AD. eapply (out_bind _ _ _ _ (elem_done p t N k)); [apply elem_suffix; [exact AD|lia]|].
    intros ret st2 (e & u & t' & q & X & k' & ET & EL & LU & PQ & R2 & M).
    eapply b_peek; [exact R2|].
    destruct (inb (hd0 t') ["|"%char; ")"%char; "*"%char; "+"%char; NUL]) eqn:EI.
    + cbn [cret ends]. exists (One e), u, t', X, k'. split; [exact ET|]. split; [eapply sq_one; exact EL|]. split; [exact R2|]. apply chained_one. exact M.
    + eapply (out_bind _ _ _ _ (seq_done q t' (N ++ X) k')).
      { apply IHe; [exact R2|apply PQ; reflexivity|]. subst t. rewrite app_length in F. lia. }
      intros nnode st3 (s & u2 & t2 & X2 & k2 & E2 & SQ & R3 & CH). rewrite <- app_assoc in R3.
      destruct (md_last _ _ _ _ _ _ M) as (n & G & _). assert (RG := aget_range _ _ _ G).
      assert (G3 : aget (N ++ X ++ X2) ret = Ok n) by (rewrite app_assoc, aget_app1 by lia; exact G).
      eapply b_setn; [exact R3|exact G3|]. intros st4 R4. cbn [cret ends].
      destruct (chained_more e (seq_list s) N X X2 k k' k2 ret nnode n M CH G3) as (Y & EY & CY). rewrite EY in R4.
      exists (More e s), (u ++ u2), t2, Y, k2. split; [subst; rewrite <- app_assoc; reflexivity|]. split; [eapply sq_more; eauto|]. split; [exact R4|exact CY].
  - intros st t N k R F. cbn [trex_list]. eapply b_peek; [exact R|].
    eapply (out_bind _ _ _ _ (fun ret s => exists (b : bool) sq u t' X k', t = (if b then ["^"%char] else []) ++ u ++ t' /\ seq_text (if b then AfterAnchor else First) sq u /\
      ready s t' (N ++ X) k' 0 /\ chained (start b sq) N X k k' ret)).
    { destruct (ceqb (hd0 t) "^") eqn:E1.
      - apply ceqb_eq in E1. destruct t as [|c t]; [discriminate E1|]. cbn [hd0] in E1. subst c. cbn [List.length] in F.
        eapply b_advance; [exact R|discriminate|]. intros st1 R1. eapply b_newnode; [exact R1|lia|]. intros st2 R2. cbn [Z.eqb OP_BOL OP_EXPR Pos.eqb] in R2.
        eapply (out_bind _ _ _ _ (seq_done AfterAnchor t (N ++ [blank OP_BOL k]) k)); [apply IHe; [eapply ready_weak; [exact R2|lia]|exact I|lia]|].
        intros e st3 (s & u & t' & X & k' & ET & SQ & R3 & CH). rewrite <- app_assoc in R3. cbn [app] in R3.
        eapply b_setn; [exact R3|apply aget_last|]. intros st4 R4. rewrite lupd_mid in R4. cbn [cret ends].
        exists true, s, u, t', (set_next e (blank OP_BOL k) :: X), k'. split; [subst t; reflexivity|]. split; [exact SQ|]. split; [exact R4|].
        cbn [start]. apply chained_anchor. exact CH.
      - apply ceqb_neq in E1. eapply out_weak; [apply (IHe st t N k First); [exact R|exact E1|lia]|].
        intros ret st1 (s & u & t' & X & k' & ET & SQ & R3 & CH). exists false, s, u, t', X, k'. split; [exact ET|]. split; [exact SQ|]. auto 10. }
    intros ret st1 (b & sq & u & t' & X & k' & ET & SQ & R1 & CH). eapply b_peek; [exact R1|].
    destruct (ceqb (hd0 t') "|") eqn:E2.
    + apply ceqb_eq in E2. destruct t' as [|c t']; [discriminate E2|]. cbn [hd0] in E2. subst c.
      eapply b_advance; [exact R1|discriminate|]. intros st2 R2. eapply b_newnode; [exact R2|lia|]. intros st3 R3. cbn [Z.eqb OP_OR OP_EXPR Pos.eqb] in R3.
      eapply b_setn; [exact R3|apply aget_last|]. intros st4 R4. rewrite lupd_last in R4. fold (or_node k' ret) in R4.
      eapply (out_bind _ _ _ _ (alt_done t' ((N ++ X) ++ [or_node k' ret]) k')).
      { apply IHl; [eapply ready_weak; [exact R4|lia]|]. subst t. rewrite !app_length in F. cbn [List.length] in F. lia. }
      intros tright st5 (a & u2 & t2 & X2 & k2 & E3 & AT & R5 & CH2). rewrite <- app_assoc in R5. cbn [app] in R5.
      eapply b_setn; [exact R5|apply aget_last|]. intros st6 R6. rewrite lupd_mid in R6. cbn [cret ends].
      rewrite <- app_assoc in R6. 
      exists (Or b sq a), ((if b then ["^"%char] else []) ++ u ++ "|"%char :: u2), t2, (X ++ set_right tright (or_node k' ret) :: X2), k2.
      split; [subst t t'; rewrite <- !app_assoc; reflexivity|]. split; [destruct b; [exact (al_anchor_or sq u a u2 SQ AT)|exact (al_or sq u a u2 SQ AT)]|].
      split; [exact R6|]. apply chained_or; auto.
    + cbn [cret ends]. exists (Just b sq), ((if b then ["^"%char] else []) ++ u), t', X, k'. split; [rewrite <- app_assoc; exact ET|].
      split; [destruct b; [exact (al_anchor sq u SQ)|exact (al_just sq u SQ)]|]. split; [exact R1|exact CH].
Qed.

(** ** Whole patterns *)
(** The table of a compiled expression *)
Definition compiled (r : alt) (st : rst) : Prop :=
  rep (r_nodes st) (r_nsub st) 0 (NE (Group true r)) /\ repl (r_nodes st) (r_nsub st) 0 [NE (Group true r)] /\ (S (sz_alt r) <= List.length (r_nodes st))%nat.
Lemma made_compiled r st t X k : ready st t ([] ++ X) k 0 -> made (Group true r) [] X 0 k 0 -> compiled r st.
Proof.
  intros R M. destruct R as [A B C D E F G H]. cbn [app] in *. destruct M as [KK SZ LO (n & GN & NX) REP]. cbn [app] in *.
  assert (RP : rep X k 0 (NE (Group true r))).
  { apply REP; [lia|]. apply same_keeps. intros x m _ GX. exact GX. }
  unfold compiled. rewrite B, D. split; [exact RP|]. split; [eapply repl_one; eauto|]. unfold zlen in SZ. cbn [sz_elem] in SZ. lia.
Qed.
End Compile.

(** Whatever the pattern: compilation ends; if it succeeds the pattern spells an expression, which the table stands for. *)
Theorem compile_out pat : cstr pat -> pat <> [] -> lone pat = false -> 2 * zlen pat <= INT_MAX ->
  ends True (fun _ st => exists r, spells r pat /\ compiled r st) (trex_compile pat).
Proof.
  intros CS NE LN LM. assert (L1 : 1 <= zlen pat) by (destruct pat; [congruence|]; rewrite zlen_cons; assert (H := zlen_nonneg pat); lia).
  unfold trex_compile. assert (R0 : ready (zlen pat) {| r_p := Some pat; r_nodes := []; r_alloc := zlen pat; r_nsub := 0 |} pat [] 0 1).
  { constructor; cbn [r_p r_nodes r_alloc r_nsub]; auto; try lia. rewrite zlen_nil. lia. }
  eapply b_newnode; [exact L1|exact LM|exact R0|lia|]. intros st1 R1. cbn [Z.eqb OP_EXPR Pos.eqb app] in R1.
  change (blank OP_EXPR 0) with (group_node true 0) in R1.
  eapply (out_bind _ _ _ _ (alt_done (zlen pat) pat ([] ++ [group_node true 0]) 1)).
  { apply (element_list_out (zlen pat) L1 LM True I (compile_fuel pat)); [exact R1|unfold compile_fuel; lia]. }
  intros l st2 (a & u & t' & X & k' & ET & AT & R2 & CH). cbn [app] in R2.
  eapply b_setn; [exact R2|apply (aget_last [])|]. intros st3 R3. change (zlen (@nil node)) with 0 in R3. cbn [Z.to_nat lupd] in R3.
  eapply b_peek; [exact R3|]. destruct (ceqb (hd0 t') NUL) eqn:EN; [|exact I]. apply ceqb_eq in EN. cbn [cret ends].
  assert (t' = []).
  { destruct t' as [|c t']; [reflexivity|]. exfalso. apply (cstr_hd c t'); [exact (rd_cstr _ _ _ _ _ _ R3)|exact EN]. }
  subst t'. rewrite app_nil_r in ET. subst u. exists a. split; [exact AT|].
  eapply (made_compiled (zlen pat) a st3 [] _ k'); [exact R3|]. apply (made_group true a [] X 0 k' l); [lia|exact CH].
Qed.
