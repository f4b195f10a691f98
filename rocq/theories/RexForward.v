(** RexForward: every pattern that spells an expression is compiled to a table that stands for it. *)
From Coq Require Import ZArith String List Ascii Bool Lia.
From Verif Require Import Base RexModel RexSpec RexMatch RexTerm RexCompile.
Import ListNotations.
Open Scope Z_scope.

(** Node of a failing character range: beyond this length of a pattern it may be too large *)
Section Forward.
Context (L : Z) (L1 : 1 <= L) (L2 : 2 * L <= INT_MAX) (bad : Prop).
Notation out := (ends bad).
Notation ready := (ready L).
Notation escaping := (escaping L).

Lemma eqb_no (c d : ascii) : c <> d -> ceqb c d = false.
Proof. apply ceqb_neq. Qed.
Lemma eqb_yes (c : ascii) : ceqb c c = true.
Proof. apply ceqb_eq. reflexivity. Qed.
Lemma inb_no c l : ~ In c l -> inb c l = false.
Proof. intro H. destruct (inb c l) eqn:E; auto. apply inb_spec in E. contradiction. Qed.

Lemma b_escape {B} (Q : B -> rst -> Prop) st c t N k m (K : unit -> cm B) : ready st (bs :: c :: t) N k m ->
  (forall st1, escaping st1 c t N k (m + 1) -> out Q (K tt st1)) -> out Q (cbind advance K st).
Proof. intros R H. eapply b_advance_bs; [exact R|]. intros st1 d t1 E R1. injection E as <- <-. apply H. exact R1. Qed.

Lemma not_named_eqb d : (forall c, ~ named_char d c) -> ceqb d "n" = false /\ ceqb d "t" = false /\ ceqb d "r" = false /\ ceqb d "f" = false /\ ceqb d "v" = false.
Proof.
  intro H. repeat split; apply eqb_no; intros ->.
  - apply (H "010"%char). left. reflexivity.
  - apply (H "009"%char). right. left. reflexivity.
  - apply (H "013"%char). do 2 right. left. reflexivity.
  - apply (H "012"%char). do 3 right. left. reflexivity.
  - apply (H "011"%char). do 4 right. left. reflexivity.
Qed.

Lemma charnode_fwd st u t N k isclass n (Q : Z -> rst -> Prop) : char_node isclass n u -> ready st (u ++ t) N k 0 ->
  (forall st', ready st' t (N ++ [n]) k 0 -> Q (zlen N) st') -> out Q (trex_charnode isclass st).
Proof.
  intros C R H.
  assert (PL : forall type, type <> OP_EXPR -> forall k2 : Z, n = blank type k2 -> forall st1 c, escaping st1 c t N k 1 ->
    out Q (cbind advance (fun _ => trex_newnode type) st1)).
  { intros type NE k2 E st1 c R1. eapply b_advance_es; [exact R1|]. intros st2 R2. eapply newnode_out; [exact L1|exact L2|exact R2|lia|]. intros st3 R3.
    destruct (Z.eqb_spec type OP_EXPR) as [|NE2]; [contradiction|]. apply H. subst n. unfold blank in *. destruct (Z.eqb_spec type OP_EXPR); [contradiction|].
    eapply ready_weak; [exact R3|lia]. }
  unfold trex_charnode. eapply b_peek; [exact R|].
  destruct C as [k2 c P NB|k2 d c NM|k2 c CN|k2 b E|k2 c PE NBB]; cbn [app hd0] in *.
  - rewrite (eqb_no c "\" NB), P. cbn [negb]. eapply b_advance; [exact R|exact NB|]. intros st1 R1.
    eapply newnode_out; [exact L1|exact L2|exact R1|lia|]. intros st2 R2. rewrite sc_not_expr in R2. apply H. unfold blank in *. rewrite sc_not_expr in *.
    eapply ready_weak; [exact R2|lia].
  - change (ceqb bs "\") with true. cbn [negb]. eapply b_escape; [exact R|]. intros st1 R1. eapply b_peek_es; [exact R1|].
    unfold named_char in NM. cbn [In] in NM. repeat destruct NM as [NM|NM]; [..|contradiction]; injection NM as <- <-; cbn;
      (eapply PL; [discriminate|reflexivity|exact R1]).
  - change (ceqb bs "\") with true. cbn [negb]. eapply b_escape; [exact R|]. intros st1 R1. eapply b_peek_es; [exact R1|].
    assert (X : ceqb c "n" = false /\ ceqb c "t" = false /\ ceqb c "r" = false /\ ceqb c "f" = false /\ ceqb c "v" = false).
    { unfold class_name in CN. cbn [lit list_ascii_of_string In] in CN. repeat destruct CN as [CN|CN]; [..|contradiction]; subst c; repeat split; reflexivity. }
    destruct X as (-> & -> & -> & -> & ->). assert (I6 : inb c class_letters = true) by (apply inb_spec; exact CN). rewrite I6.
    eapply b_advance_es; [exact R1|]. intros st2 R2. unfold trex_charclass.
    eapply b_newnode; [exact L1|exact L2|exact R2|lia|]. intros st3 R3. eapply b_setn; [exact R3|apply aget_last|]. intros st4 R4. rewrite lupd_last in R4.
    cbn [cret ends]. apply H. eapply ready_weak; [exact R4|lia].
  - change (ceqb bs "\") with true. cbn [negb]. subst isclass.
    eapply b_escape; [exact R|]. intros st1 R1. eapply b_peek_es; [exact R1|].
    assert (X : ceqb (if b then "b" else "B") "n" = false /\ ceqb (if b then "b" else "B") "t" = false /\ ceqb (if b then "b" else "B") "r" = false /\
      ceqb (if b then "b" else "B") "f" = false /\ ceqb (if b then "b" else "B") "v" = false /\ inb (if b then "b" else "B")%char class_letters = false /\
      (ceqb (if b then "b" else "B") "b" || ceqb (if b then "b" else "B") "B") = true) by (destruct b; repeat split; reflexivity).
    destruct X as (-> & -> & -> & -> & -> & -> & ->). cbn [negb andb].
    eapply b_newnode_es; [exact L1|exact L2|exact R1|lia|discriminate|]. intros st2 R2. eapply b_setn_es; [exact R2|apply aget_last|]. intros st3 R3. rewrite lupd_last in R3.
    eapply b_advance_es; [exact R3|]. intros st4 R4. cbn [cret ends]. apply H. eapply ready_weak; [exact R4|lia].
  - change (ceqb bs "\") with true. cbn [negb]. eapply b_escape; [exact R|]. intros st1 R1. eapply b_peek_es; [exact R1|].
    destruct PE as (NN & NC & _). destruct (not_named_eqb c NN) as (-> & -> & -> & -> & ->).
    rewrite (inb_no c class_letters NC).
    assert (X : (ceqb c "b" || ceqb c "B") && negb isclass = false).
    { destruct isclass; [rewrite andb_false_r; reflexivity|]. destruct (NBB eq_refl) as [B1 B2]. rewrite (eqb_no c "b" B1), (eqb_no c "B" B2). reflexivity. }
    rewrite X. eapply PL; [|reflexivity|exact R1]. intro E. assert (Y := sc_not_expr c). apply Z.eqb_neq in Y. contradiction.
Qed.

Lemma escapechar_fwd st c u t N k m (Q : ascii -> rst -> Prop) : range_end c u -> ready st (u ++ t) N k m ->
  (forall st', ready st' t N k m -> Q c st') -> out Q (trex_escapechar st).
Proof.
  intros C R H. unfold trex_escapechar. eapply b_peek; [exact R|]. destruct C as [c P NB|d c NM|c NN NUL_]; cbn [app hd0] in *.
  - rewrite (eqb_no c "\" NB), P. cbn [negb]. eapply b_advance; [exact R|exact NB|]. intros st1 R1. cbn [cret ends]. apply H. eapply ready_weak; [exact R1|lia].
  - change (ceqb bs "\") with true. cbn [negb]. eapply b_escape; [exact R|]. intros st1 R1. eapply b_peek_es; [exact R1|]. eapply b_advance_es; [exact R1|]. intros st2 R2.
    cbn [cret ends]. assert (R3 : ready st2 t N k m) by (eapply ready_weak; [exact R2|lia]). apply H in R3.
    unfold named_char in NM. cbn [In] in NM. repeat destruct NM as [NM|NM]; [..|contradiction]; injection NM as <- <-; exact R3.
  - change (ceqb bs "\") with true. cbn [negb]. eapply b_escape; [exact R|]. intros st1 R1. eapply b_peek_es; [exact R1|]. eapply b_advance_es; [exact R1|]. intros st2 R2.
    cbn [cret ends]. destruct (not_named_eqb c NN) as (-> & -> & -> & -> & ->). apply H. eapply ready_weak; [exact R2|lia].
Qed.

(** ** Sets *)
Definition pending (pend : option item) : list item := match pend with None => [] | Some it => [it] end.
Definition holding (N0 : list node) (type : Z) (st : rst) (t : str) (k : Z) (chain first : Z) (l : list item) (pend : option item) : Prop :=
  exists Y, ready st t (N0 ++ Y) k 0 /\ path (N0 ++ Y) (zlen N0) l chain /\
    (exists n0, aget (N0 ++ Y) (zlen N0) = Ok n0 /\ n_type n0 = type) /\
    (exists nc, aget (N0 ++ Y) chain = Ok nc /\ n_next nc = -1) /\
    1 + zlen l + (match pend with None => 0 | Some _ => 1 end) <= zlen Y /\
    match pend with
    | None => first = -1
    | Some it => chain < first /\ exists m, aget (N0 ++ Y) first = Ok m /\ item_node it m /\ n_next m = -1
    end.

Lemma step_char N0 type k fuel st v t chain first l pend n it (Q : Z * Z -> rst -> Prop) : holding N0 type st (v ++ t) k chain first l pend ->
  char_node true n v -> hd0 v <> "]"%char -> (hd0 v = "-"%char -> pend = None) -> item_node it n -> n_next n = -1 ->
  (forall st' chain' first', holding N0 type st' t k chain' first' (l ++ pending pend) (Some it) -> out Q (trex_class_loop fuel chain' first' st')) ->
  out Q (trex_class_loop (S fuel) chain first st).
Proof.
  intros (Y & RD & PA & (n0 & G0 & TY) & (nc & GC & NC) & CNT & PE) CN NR ND IT NX H. cbn [trex_class_loop].
  assert (CL := path_le _ _ _ _ PA). assert (Z0 := zlen_nonneg N0).
  assert (HV : hd0 (v ++ t) = hd0 v) by (destruct CN; reflexivity).
  eapply b_peek; [exact RD|]. rewrite HV, (eqb_no _ _ NR).
  assert (READ : forall st1 Y1 chain1 l1, ready st1 (v ++ t) (N0 ++ Y1) k 0 -> path (N0 ++ Y1) (zlen N0) l1 chain1 ->
      (exists n0, aget (N0 ++ Y1) (zlen N0) = Ok n0 /\ n_type n0 = type) -> (exists nc, aget (N0 ++ Y1) chain1 = Ok nc /\ n_next nc = -1) ->
      1 + zlen l1 <= zlen Y1 -> l1 = l ++ pending pend ->
      out Q (cbind (trex_charnode true) (fun first' => trex_class_loop fuel chain1 first') st1)).
  { intros st1 Y1 chain1 l1 R1 P1 (n1 & G1 & G1') (nc1 & C1 & C1') N1 ->.
    eapply (out_bind _ _ _ _ (fun i s => i = zlen (N0 ++ Y1) /\ ready s t ((N0 ++ Y1) ++ [n]) k 0)).
    { eapply charnode_fwd; [exact CN|exact R1|]. auto. }
    intros i st2 (-> & R2). rewrite <- app_assoc in R2.
    assert (RC := aget_range _ _ _ C1). assert (RG := aget_range _ _ _ G1). apply H.
    exists (Y1 ++ [n]). split; [exact R2|]. split; [rewrite app_assoc; apply path_app; exact P1|].
    split; [exists n1; rewrite app_assoc, aget_app1 by lia; auto|]. split; [exists nc1; rewrite app_assoc, aget_app1 by lia; auto|].
    split; [rewrite zlen_app1; lia|]. split; [lia|]. exists n. rewrite aget_snoc. auto. }
  destruct pend as [it0|].
  - destruct PE as (LT1 & mf & GF & IF & NF). assert (NDS : hd0 v <> "-"%char) by (intro X; specialize (ND X); discriminate).
    rewrite (eqb_no _ _ NDS). cbn [andb]. assert (FN : (first =? -1) = false) by (apply Z.eqb_neq; lia). rewrite FN. cbn [negb].
    eapply b_setn; [exact RD|exact GC|]. intros st1 R1.
    destruct (commit L st (v ++ t) N0 Y k 0 chain first l it0 mf nc RD PA GC LT1 GF IF NF n0 type G0 TY) as (Y' & EY & ZY & P' & G' & C' & _).
    rewrite EY in R1. eapply (READ st1 Y' first (l ++ [it0])); [exact R1|exact P'|exact G'|exact C'| |reflexivity]. rewrite zlen_app1. lia.
  - subst first. cbn [Z.eqb Pos.eqb negb]. rewrite andb_false_r.
    eapply (READ st Y chain l); [exact RD|exact PA|eauto|eauto|lia|rewrite app_nil_r; reflexivity].
Qed.

Lemma print_sc c : isprintb c = true -> 32 <= sc c.
Proof. unfold isprintb, sc. rewrite andb_true_iff, !Z.leb_le. intros. destruct (Z.ltb_spec (uc c) 128); lia. Qed.

Lemma step_range N0 type k fuel st a b v t chain first l (Q : Z * Z -> rst -> Prop) : holding N0 type st ("-"%char :: v ++ t) k chain first l (Some (IChar a)) ->
  range_end b v -> bad \/ L <= 35 -> t <> [] ->
  (forall st' chain', holding N0 type st' t k chain' (-1) (l ++ [IRange a b]) None -> out Q (trex_class_loop fuel chain' (-1) st')) ->
  out Q (trex_class_loop (S fuel) chain first st).
Proof.
  intros (Y & RD & PA & (n0 & G0 & TY) & (nc & GC & NC) & CNT & (LT1 & mf & GF & IF & NF)) RE BD TN H. cbn [trex_class_loop].
  assert (CL := path_le _ _ _ _ PA). assert (Z0 := zlen_nonneg N0).
  eapply b_peek; [exact RD|]. cbn [hd0]. change (ceqb "-" "]") with false. change (ceqb "-" "-") with true.
  assert (FN : (first =? -1) = false) by (apply Z.eqb_neq; lia). rewrite FN. cbn [negb andb].
  eapply b_advance; [exact RD|discriminate|]. intros st1 R1. eapply b_newnode; [exact L1|exact L2|exact R1|lia|]. intros st2 R2. cbn [Z.eqb OP_RANGE OP_EXPR Pos.eqb] in R2.
  eapply b_peek; [exact R2|]. assert (RF := aget_range _ _ _ GF).
  destruct (Z.ltb_spec (sc (hd0 (v ++ t))) first) as [FAR|_].
  { destruct BD as [BD|BD]; [exact BD|]. exfalso. assert (RO := rd_room _ _ _ _ _ _ R1). rewrite (zlen_app v t) in RO.
    assert (ZT : 1 <= zlen t) by (destruct t; [congruence|rewrite zlen_cons; assert (X := zlen_nonneg t); lia]).
    assert (ZV : 1 <= zlen v) by (destruct RE; unfold zlen; cbn [List.length]; lia).
    assert (32 <= sc (hd0 (v ++ t))).
    { destruct RE as [c P NB|d c NM|c NN NUL_]; cbn [app hd0]; [apply print_sc; exact P|cbn; lia|cbn; lia]. }
    lia. }
  eapply b_getn; [exact R2|rewrite aget_app1 by lia; exact GF|]. cbn [item_node] in IF.
  assert (NCC : (n_type mf =? OP_CCLASS) = false) by (rewrite IF; apply Z.eqb_neq; assert (X := sc_range a); unfold OP_CCLASS; lia). rewrite NCC.
  eapply b_setn; [exact R2|apply aget_last|]. intros st3 R3. rewrite lupd_last in R3.
  set (r1 := set_left (n_type mf) (blank OP_RANGE k)) in *.
  eapply (out_bind _ _ _ _ (fun c s => c = b /\ ready s t ((N0 ++ Y) ++ [r1]) k _)).
  { eapply escapechar_fwd; [exact RE|exact R3|]. intros st' R'. split; [reflexivity|exact R']. }
  intros b' st4 (-> & R4).
  eapply b_setn; [exact R4|apply aget_last|]. intros st5 R5. rewrite lupd_last in R5. set (r2 := set_right (sc b) r1) in *.
  rewrite <- app_assoc in R5.
  assert (RC := aget_range _ _ _ GC). assert (RG := aget_range _ _ _ G0).
  assert (GC2 : aget (N0 ++ Y ++ [r2]) chain = Ok nc) by (rewrite app_assoc, aget_app1 by lia; exact GC).
  assert (IR : item_node (IRange a b) r2) by (cbn [item_node r2 r1 set_right set_left n_type n_left n_right blank]; auto).
  eapply b_setn; [exact R5|exact GC2|]. intros st6 R6.
  destruct (commit L st5 t N0 (Y ++ [r2]) k _ chain (zlen (N0 ++ Y)) l (IRange a b) r2 nc R5) with (n0 := n0) (type := type) as (Y' & EY & ZY & P' & G' & C' & _); auto.
  { rewrite app_assoc. apply path_app. exact PA. } { lia. } { apply aget_snoc. } { rewrite app_assoc, aget_app1 by lia. exact G0. }
  rewrite EY in R6. apply H. exists Y'. split; [eapply ready_weak; [exact R6|lia]|]. rewrite ZY, !zlen_app1.
  split; [exact P'|]. split; [exact G'|]. split; [exact C'|]. split; [lia|reflexivity].
Qed.

Lemma set_char_node d c v : set_char d c v -> exists n, char_node true n v /\ item_node (IChar c) n /\ n_next n = -1 /\ hd0 v <> "]"%char /\ (hd0 v = "-"%char -> d = true).
Proof.
  intro C. destruct C as [c P NI DD|kk c NM|c PE].
  - exists (blank (sc c) 0). split; [apply cn_plain; auto; intros ->; apply NI; right; left; reflexivity|]. repeat split; auto.
    cbn [hd0]. intros ->. apply NI. left. reflexivity.
  - exists (blank (sc c) 0). split; [apply cn_named; exact NM|]. repeat split; auto; cbn [hd0]; discriminate.
  - exists (blank (sc c) 0). split; [apply cn_escape; [exact PE|discriminate]|]. repeat split; auto; cbn [hd0]; discriminate.
Qed.

Lemma set_char_len d c v : set_char d c v -> (1 <= List.length v)%nat.
Proof. intro C. destruct C; cbn; lia. Qed.

Lemma class_loop_fwd N0 type k t : hd0 t = "]"%char -> forall d l2 u2, set_text d l2 u2 -> forall fuel st chain first l pend (Q : Z * Z -> rst -> Prop),
  holding N0 type st (u2 ++ t) k chain first l pend -> (List.length u2 < fuel)%nat -> (d = false -> pend <> None) -> (d = true -> pend = None) ->
  (forall a b, In (IRange a b) l2 -> bad \/ L <= 35) ->
  (forall st' chain' first' l' pend', holding N0 type st' t k chain' first' l' pend' -> l' ++ pending pend' = l ++ pending pend ++ l2 -> Q (chain', first') st') ->
  out Q (trex_class_loop fuel chain first st).
Proof.
  intros HT d l2 u2 S. induction S as [d|d c v l2 u2 C S IH|d kk l2 u2 C S IH|d a b v1 v2 l2 u2 C D S IH];
    intros fuel st chain first l pend Q HO F D1 D2 BD H; (destruct fuel as [|fuel]; [lia|]).
  - cbn [trex_class_loop]. destruct HO as (Y & RD & HO). eapply b_peek; [exact RD|]. cbn [app] in *. rewrite HT. cbn [cret ends].
    change (ceqb "]" "]") with true. cbn [cret ends]. apply (H st chain first l pend); [exists Y; auto|]. rewrite app_nil_r. reflexivity.
  - destruct (set_char_node d c v C) as (n & CN & IT & NX & NR & ND). assert (LV := set_char_len _ _ _ C). rewrite app_length in F. rewrite <- app_assoc in HO.
    eapply step_char; [exact HO|exact CN|exact NR|intro X; apply D2; auto|exact IT|exact NX|].
    intros st' chain' first' HO'. eapply IH; [exact HO'|lia|discriminate|discriminate| |].
    + intros. eapply BD. right. eassumption.
    + intros st2 chain2 first2 l' pend' HO2 EQ. eapply H; [exact HO2|]. rewrite EQ. cbn [pending]. rewrite <- app_assoc. reflexivity.
  - assert (exists n, char_node true n [bs; kk] /\ item_node (INamed kk) n /\ n_next n = -1) as (n & CN & IT & NX).
    { exists (set_left (sc kk) (blank OP_CCLASS 0)). split; [apply cn_class; exact C|]. split; [cbn [item_node]; auto|reflexivity]. }
    change ((bs :: kk :: u2) ++ t) with ([bs; kk] ++ (u2 ++ t)) in HO. cbn [List.length] in F.
    eapply step_char; [exact HO|exact CN|discriminate|discriminate|exact IT|exact NX|].
    intros st' chain' first' HO'. eapply IH; [exact HO'|lia|discriminate|discriminate| |].
    + intros. eapply BD. right. eassumption.
    + intros st2 chain2 first2 l' pend' HO2 EQ. eapply H; [exact HO2|]. rewrite EQ. cbn [pending]. rewrite <- app_assoc. reflexivity.
  - destruct (set_char_node d a v1 C) as (n & CN & IT & NX & NR & ND). assert (LV := set_char_len _ _ _ C).
    rewrite app_length in F. cbn [List.length] in F. rewrite app_length in F. rewrite <- app_assoc in HO. cbn [app] in HO. rewrite <- app_assoc in HO.
    eapply step_char; [exact HO|exact CN|exact NR|intro X; apply D2; auto|exact IT|exact NX|].
    intros st' chain' first' HO'. destruct fuel as [|fuel]; [lia|].
    eapply step_range; [exact HO'|exact D|eapply BD; left; reflexivity|intro X; apply app_eq_nil in X; destruct X as [_ ->]; discriminate HT|].
    intros st2 chain2 HO2. eapply IH; [exact HO2|lia|discriminate|reflexivity| |].
    + intros. eapply BD. right. eassumption.
    + intros st3 chain3 first3 l' pend' HO3 EQ. eapply H; [exact HO3|]. rewrite EQ. cbn [pending app]. rewrite <- !app_assoc. reflexivity.
Qed.

Lemma class_fwd st (neg : bool) u t N k l fuel (Q : Z -> rst -> Prop) : ready st ((if neg then ["^"%char] else []) ++ u ++ t) N k 1 -> (neg = false -> hd0 u <> "^"%char) ->
  set_text true l u -> l <> [] -> hd0 t = "]"%char -> (List.length u < fuel)%nat -> (forall a b, In (IRange a b) l -> bad \/ L <= 35) ->
  (forall st' X, ready st' t (N ++ X) k 0 -> made (Set_ neg l) N X k k (zlen N) -> Q (zlen N) st') ->
  out Q (trex_class fuel st).
Proof.
  intros R HC ST NE HT F BD H. unfold trex_class. eapply b_peek; [exact R|].
  assert (UN : u <> []) by (intro X; apply NE; exact (set_text_nil _ _ _ ST X)).
  set (type := if neg then OP_NCLASS else OP_CLASS) in *.
  eapply (out_bind _ _ _ _ (fun i s => i = zlen N /\ ready s (u ++ t) (N ++ [blank type k]) k 0)).
  { destruct neg; cbn [app hd0] in *.
    - change (ceqb "^" "^") with true. cbn [negb]. eapply b_newnode; [exact L1|exact L2|exact R|lia|]. intros st1 R1.
      eapply b_advance; [exact R1|discriminate|]. intros st2 R2. cbn [cret ends]. split; [reflexivity|]. eapply ready_weak; [exact R2|lia].
    - assert (X : ceqb (hd0 (u ++ t)) "^" = false).
      { apply eqb_no. destruct u as [|c u]; [congruence|]. apply HC. reflexivity. }
      rewrite X. eapply newnode_out; [exact L1|exact L2|exact R|lia|]. intros st1 R1. split; [reflexivity|exact R1]. }
  intros i st1 (-> & R1). eapply b_peek; [exact R1|].
  assert (X : ceqb (hd0 (u ++ t)) "]" = false).
  { apply eqb_no. clear - ST UN. destruct ST as [|c v l u C S|kk l u C S|a b v1 v2 l u C D S]; [congruence| |discriminate|].
    - destruct (set_char_node _ _ _ C) as (n & CN & _ & _ & NR & _). destruct v as [|x v]; [inversion CN|exact NR].
    - destruct (set_char_node _ _ _ C) as (n & CN & _ & _ & NR & _). destruct v1 as [|x v1]; [inversion CN|exact NR]. }
  rewrite X.
  eapply (out_bind _ _ _ _ (fun p s => exists l' pend, holding N type s t k (fst p) (snd p) l' pend /\ l' ++ pending pend = l)).
  { eapply (class_loop_fwd N type k t HT true l u ST fuel st1 (zlen N) (-1) [] None); [|exact F|discriminate|reflexivity|exact BD|].
    - exists [blank type k]. split; [exact R1|]. split; [reflexivity|]. rewrite aget_last.
      split; [exists (blank type k); auto|]. split; [exists (blank type k); auto|]. split; [|reflexivity]. unfold zlen. cbn [List.length]. lia.
    - intros st' chain' first' l' pend' HO EQ. exists l', pend'. cbn [fst snd]. split; [exact HO|exact EQ]. }
  intros [chain first] st2 (l' & pend & (Y & RD & PA & (n0 & G0 & TY) & (nc & GC & NC) & CNT & PE) & EQ). cbn [fst snd] in *.
  destruct pend as [it|]; cbn [pending] in EQ.
  - destruct PE as (LT1 & mf & GF & IF & NF). assert (Z0 := zlen_nonneg N). assert (CL := path_le _ _ _ _ PA).
    assert (FN : (first =? -1) = false) by (apply Z.eqb_neq; lia). rewrite FN. cbn [negb].
    eapply b_setn; [exact RD|exact GC|]. intros st3 R3.
    destruct (commit L st2 t N Y k 0 chain first l' it mf nc RD PA GC LT1 GF IF NF n0 type G0 TY) as (Y' & EY & ZY & P' & G' & C' & _).
    rewrite EY in R3. rewrite EQ in P'. subst l.
    eapply (class_tail L bad N k neg st3 Y' (l' ++ [it]) first); [exact R3|exact P'|exact G'|exact C'|rewrite zlen_app1; lia|exact NE|].
    intros st' Z n R' C1 C2 C3 C4 C5. apply (H st' Z); [exact R'|]. eapply made_set; eauto.
  - subst first. rewrite app_nil_r in EQ. subst l'. cbn [Z.eqb Pos.eqb negb].
    change (out Q (cbind (getn (zlen N)) (fun r => cbind (setn (zlen N) (set_left (n_next r))) (fun _ => cbind (setn (zlen N) (set_next (-1))) (fun _ => cret (zlen N)))) st2)).
    eapply (class_tail L bad N k neg st2 Y l chain); [exact RD|exact PA|eauto|eauto|lia|exact NE|].
    intros st' Z n R' C1 C2 C3 C4 C5. apply (H st' Z); [exact R'|]. eapply made_set; eauto.
Qed.

(** ** Repetitions *)
Lemma digit_range c : isdigitb c = true -> 0 <= uc c - 48 <= 9.
Proof. unfold isdigitb. rewrite andb_true_iff, !Z.leb_le. lia. Qed.
Lemma value_bound ds : forallb isdigitb ds = true -> 0 <= value_of ds < 10 ^ zlen ds.
Proof.
  induction ds as [|d ds IH] using rev_ind; [cbn; lia|]. rewrite forallb_app, andb_true_iff. cbn [forallb]. rewrite andb_true_r. intros [A D].
  rewrite value_snoc, zlen_app1, Z.pow_add_r by (try apply zlen_nonneg; lia). assert (X := digit_range d D). specialize (IH A). change (10 ^ 1) with 10. lia.
Qed.
Lemma pow9 n : (n <= 9)%nat -> 10 ^ Z.of_nat n <= 1000000000.
Proof. intro H. change 1000000000 with (10 ^ 9). apply Z.pow_le_mono_r; lia. Qed.

Lemma number_loop_fwd N k m t : isdigitb (hd0 t) = false -> forall ds' fuel st ret pos ds (Q : Z -> rst -> Prop), ready st (ds' ++ t) N k m -> (List.length ds' < fuel)%nat ->
  forallb isdigitb (ds ++ ds') = true -> (List.length (ds ++ ds') <= 9)%nat -> ret = value_of ds -> pos = 10 ^ zlen ds ->
  (forall st', ready st' t N k m -> Q (value_of (ds ++ ds')) st') -> out Q (trex_number_loop fuel ret pos st).
Proof.
  intros HT ds'. induction ds' as [|c ds' IH]; intros fuel st ret pos ds Q R F AD LD E EP H; (destruct fuel as [|fuel]; [lia|]); cbn [trex_number_loop].
  - eapply b_peek; [exact R|]. cbn [app]. rewrite HT. cbn [cret ends]. rewrite app_nil_r in H. subst ret. apply H. exact R.
  - eapply b_peek; [exact R|]. cbn [app hd0] in *. assert (AD2 := AD). rewrite forallb_app, andb_true_iff in AD2. destruct AD2 as [A1 A2]. cbn [forallb] in A2. apply andb_true_iff in A2. destruct A2 as [D A2].
    rewrite D. rewrite digit_sc by exact D.
    assert (V : ret * 10 + (uc c - 48) = value_of (ds ++ [c])) by (rewrite value_snoc; subst ret; reflexivity). rewrite V.
    assert (VB : 0 <= value_of (ds ++ [c]) < 10 ^ zlen (ds ++ [c])).
    { apply value_bound. rewrite forallb_app, A1. cbn [forallb]. rewrite D. reflexivity. }
    assert (P9 : 10 ^ zlen (ds ++ [c]) <= 1000000000). { apply pow9. rewrite app_length in LD |- *. cbn [List.length] in *. lia. }
    assert (IB : in_intb (value_of (ds ++ [c])) = true). { unfold in_intb, INT_MIN, INT_MAX. apply andb_true_iff. split; apply Z.leb_le; lia. }
    rewrite IB. cbn [negb]. eapply b_advance; [exact R|apply digit_bs; exact D|]. intros st1 R1.
    assert (PN : pos <> 1000000000).
    { rewrite EP. intro X. rewrite zlen_app1, Z.pow_add_r, X in P9 by (try apply zlen_nonneg; lia). change (1000000000 * 10 ^ 1) with 10000000000 in P9. lia. }
    apply Z.eqb_neq in PN. rewrite PN. eapply (IH fuel st1 _ _ (ds ++ [c])); [eapply ready_weak; [exact R1|lia]|cbn [List.length] in F; lia| | |reflexivity| |].
    + rewrite <- app_assoc. exact AD.
    + rewrite <- app_assoc. exact LD.
    + rewrite zlen_app1, Z.pow_add_r, EP by (try apply zlen_nonneg; lia). reflexivity.
    + intros st' R'. rewrite <- app_assoc. apply H. exact R'.
Qed.
Lemma number_fwd st n u t N k m fuel (Q : Z -> rst -> Prop) : number n u -> ready st (u ++ t) N k m -> isdigitb (hd0 t) = false -> (List.length u <= fuel)%nat ->
  (forall st', ready st' t N k m -> Q n st') -> out Q (trex_parsenumber fuel st).
Proof.
  intros [ds NE LD AD V] R HT F H. unfold trex_parsenumber. eapply b_peek; [exact R|]. destruct ds as [|c ds]; [congruence|]. cbn [app hd0] in *.
  assert (D : isdigitb c = true) by (cbn [forallb] in AD; apply andb_true_iff in AD; apply AD).
  eapply b_advance; [exact R|apply digit_bs; exact D|]. intros st1 R1.
  eapply (number_loop_fwd N k m t HT ds fuel st1 _ _ [c]); [eapply ready_weak; [exact R1|lia]|cbn [List.length] in F; lia|exact AD|exact LD| |reflexivity|].
  - rewrite digit_sc by exact D. reflexivity.
  - intros st' R'. cbn [app]. rewrite V. apply H. exact R'.
Qed.
Lemma number_hd n u t : number n u -> isdigitb (hd0 (u ++ t)) = true.
Proof. intros [ds NE LD AD V]. destruct ds as [|c ds]; [congruence|]. cbn [app hd0 forallb] in *. apply andb_true_iff in AD. apply AD. Qed.

Lemma suffix_none st t N k fuel ret (Q : Z -> rst -> Prop) : ready st t N k 0 -> suffix_free t -> Q ret st -> out Q (trex_suffix fuel ret st).
Proof.
  intros R SF H. unfold trex_suffix. eapply b_peek; [exact R|]. unfold suffix_free in SF. cbn [lit list_ascii_of_string In] in SF.
  rewrite (eqb_no (hd0 t) "*"), (eqb_no (hd0 t) "+"), (eqb_no (hd0 t) "?"), (eqb_no (hd0 t) "{") by (intro X; apply SF; rewrite X; auto).
  exact H.
Qed.
Lemma suffix_fwd st lo hi u t N k fuel ret (Q : Z -> rst -> Prop) : suffix lo hi u -> ready st (u ++ t) N k 0 -> (List.length u <= fuel)%nat -> bad \/ lo mod 65536 < 32768 ->
  (forall st', ready st' t (N ++ [repeat_node k lo hi ret]) k 0 -> Q (zlen N) st') -> out Q (trex_suffix fuel ret st).
Proof.
  intros SX R F BD H. unfold trex_suffix. eapply b_peek; [exact R|].
  eapply (out_bind _ _ _ _ (fun g s => g = Some (lo mod 65536, count hi) /\ ready s t N k 1)).
  { destruct SX as [| | |n v NB|n v NB|n m v w NB NB2]; cbn [app hd0 lit list_ascii_of_string] in *.
    - change (ceqb "*" "*") with true. eapply b_advance; [exact R|discriminate|]. intros st1 R1. cbn [cret ends]. split; [reflexivity|exact R1].
    - change (ceqb "+" "*") with false. change (ceqb "+" "+") with true. eapply b_advance; [exact R|discriminate|]. intros st1 R1. cbn [cret ends]. split; [reflexivity|exact R1].
    - change (ceqb "?" "*") with false. change (ceqb "?" "+") with false. change (ceqb "?" "?") with true. eapply b_advance; [exact R|discriminate|]. intros st1 R1. cbn [cret ends]. split; [reflexivity|exact R1].
    - change (ceqb "{" "*") with false. change (ceqb "{" "+") with false. change (ceqb "{" "?") with false. change (ceqb "{" "{") with true.
      cbn [List.length] in F. rewrite app_length in F. rewrite <- app_assoc in R. cbn [app] in R.
      eapply b_advance; [exact R|discriminate|]. intros st1 R1. eapply b_peek; [exact R1|]. rewrite (number_hd n v _ NB). cbn [negb].
      eapply (out_bind _ _ _ _ (fun x s => x = n /\ ready s ("}"%char :: t) N k 1)).
      { eapply number_fwd; [exact NB|exact R1|reflexivity|lia|]. auto. }
      intros x st2 [-> R2]. eapply b_peek; [exact R2|]. cbn [hd0]. change (ceqb "}" "}") with true. eapply b_advance; [exact R2|discriminate|]. intros st3 R3.
      cbn [cret ends]. split; [reflexivity|]. eapply ready_weak; [exact R3|lia].
    - change (ceqb "{" "*") with false. change (ceqb "{" "+") with false. change (ceqb "{" "?") with false. change (ceqb "{" "{") with true.
      cbn [List.length] in F. rewrite app_length in F. rewrite <- app_assoc in R. cbn [app] in R.
      eapply b_advance; [exact R|discriminate|]. intros st1 R1. eapply b_peek; [exact R1|]. rewrite (number_hd n v _ NB). cbn [negb].
      eapply (out_bind _ _ _ _ (fun x s => x = n /\ ready s (","%char :: "}"%char :: t) N k 1)).
      { eapply number_fwd; [exact NB|exact R1|reflexivity|lia|]. auto. }
      intros x st2 [-> R2]. eapply b_peek; [exact R2|]. cbn [hd0]. change (ceqb "," "}") with false. change (ceqb "," ",") with true. eapply b_advance; [exact R2|discriminate|]. intros st3 R3.
      eapply b_peek; [exact R3|]. cbn [hd0]. change (isdigitb "}") with false.
      eapply (out_bind _ _ _ _ (fun x s => x = 65535 /\ s = st3)); [cbn [cret ends]; auto|]. intros x s [-> ->].
      eapply b_expect; [exact R3|discriminate|discriminate|right; reflexivity|]. intros st4 t' E R4. injection E as <-. cbn [cret ends]. split; [reflexivity|]. eapply ready_weak; [exact R4|lia].
    - change (ceqb "{" "*") with false. change (ceqb "{" "+") with false. change (ceqb "{" "?") with false. change (ceqb "{" "{") with true.
      cbn [List.length] in F. rewrite app_length in F. cbn [List.length] in F. rewrite app_length in F. rewrite <- app_assoc in R. cbn [app] in R. rewrite <- app_assoc in R. cbn [app] in R.
      eapply b_advance; [exact R|discriminate|]. intros st1 R1. eapply b_peek; [exact R1|]. rewrite (number_hd n v _ NB). cbn [negb].
      eapply (out_bind _ _ _ _ (fun x s => x = n /\ ready s (","%char :: w ++ "}"%char :: t) N k 1)).
      { eapply number_fwd; [exact NB|exact R1|reflexivity|lia|]. auto. }
      intros x st2 [-> R2]. eapply b_peek; [exact R2|]. cbn [hd0]. change (ceqb "," "}") with false. change (ceqb "," ",") with true. eapply b_advance; [exact R2|discriminate|]. intros st3 R3.
      eapply b_peek; [exact R3|]. rewrite (number_hd m w _ NB2).
      eapply (out_bind _ _ _ _ (fun x s => x = count (Some m) /\ ready s ("}"%char :: t) N k 1)).
      { eapply (out_bind _ _ _ _ (fun x s => x = m /\ ready s ("}"%char :: t) N k 1)).
        - eapply number_fwd; [exact NB2|exact R3|reflexivity|lia|]. intros st' R'. split; [reflexivity|]. eapply ready_weak; [exact R'|lia].
        - intros x s [-> R']. cbn [cret ends]. auto. }
      intros x st4 [-> R4].
      eapply b_expect; [exact R4|discriminate|discriminate|right; reflexivity|]. intros st5 t' E R5. injection E as <-. cbn [cret ends]. split; [reflexivity|]. eapply ready_weak; [exact R5|lia]. }
  intros g st1 [-> R1]. eapply b_newnode; [exact L1|exact L2|exact R1|lia|]. intros st2 R2.
  eapply b_setn; [exact R2|apply aget_last|]. intros st3 R3. rewrite lupd_last in R3.
  destruct (Z.leb_spec 32768 (lo mod 65536)) as [BIG|_]; [destruct BD as [BD|BD]; [split; [reflexivity|exact BD]|lia]|].
  eapply b_setn; [exact R3|apply aget_last|]. intros st4 R4. rewrite lupd_last in R4. cbn [cret ends]. apply H. exact R4.
Qed.

(** ** Elements and lists *)
Definition tame (e : elem) : Prop :=
  match e with
  | Set_ _ l => (exists a b, In (IRange a b) l) -> bad \/ L <= 35
  | Repeat lo _ _ => bad \/ lo mod 65536 < 32768
  | _ => True
  end.
Definition closed (t : str) : Prop := In (hd0 t) ["|"; ")"; NUL]%char.
Definition shut (t : str) : Prop := In (hd0 t) [")"; NUL]%char.
Lemma shut_closed t : shut t -> closed t.
Proof. unfold shut, closed. cbn [In]. tauto. Qed.

Lemma atom_hd p e u t : atom_text p e u -> hd0 (u ++ t) <> NUL /\ (hd0 (u ++ t) = "("%char \/ hd0 (u ++ t) = "["%char \/ hd0 (u ++ t) = "$"%char \/ hd0 (u ++ t) = "."%char \/ hd0 (u ++ t) = bs \/
  exists c, u = [c] /\ literal_at p c /\ e = Char c).
Proof.
  intro A. destruct A; cbn [app hd0 lit list_ascii_of_string]; (split; [try discriminate|]); auto 10.
  - destruct H as [P _]. intros ->. discriminate P.
  - do 5 right. eauto.
Qed.
Lemma elem_hd p e u q t : elem_text p e u q -> hd0 (u ++ t) <> NUL /\ (hd0 (u ++ t) = "("%char \/ hd0 (u ++ t) = "["%char \/ hd0 (u ++ t) = "$"%char \/ hd0 (u ++ t) = "."%char \/ hd0 (u ++ t) = bs \/
  literal_at p (hd0 (u ++ t))).
Proof.
  intro A. destruct A as [p e u A|p e lo hi u v A S].
  - destruct (atom_hd p e u t A) as [X [Y|[Y|[Y|[Y|[Y|(c & -> & Y & _)]]]]]]; auto 10.
  - rewrite <- app_assoc. destruct (atom_hd p e u (v ++ t) A) as [X [Y|[Y|[Y|[Y|[Y|(c & -> & Y & _)]]]]]]; auto 10.
Qed.
Lemma seq_hd p s u t : seq_text p s u -> hd0 (u ++ t) <> NUL /\ (hd0 (u ++ t) = "("%char \/ hd0 (u ++ t) = "["%char \/ hd0 (u ++ t) = "$"%char \/ hd0 (u ++ t) = "."%char \/ hd0 (u ++ t) = bs \/
  literal_at p (hd0 (u ++ t))).
Proof. intro A. destruct A as [p e u q A|p e u q s v A S]; [|rewrite <- app_assoc]; eapply elem_hd; eauto. Qed.
Lemma hd_cases (c : ascii) (P : Prop) (l : list ascii) : (c = "("%char \/ c = "["%char \/ c = "$"%char \/ c = "."%char \/ c = bs \/ P) ->
  (P -> ~ In c l) -> (forall d, In d l -> d <> "("%char /\ d <> "["%char /\ d <> "$"%char /\ d <> "."%char /\ d <> bs) -> ~ In c l.
Proof.
  intros [->|[->|[->|[->|[->|H]]]]] HP HL I; try (apply HL in I; tauto). exact (HP H I).
Qed.
Lemma seq_more_hd q s u t : seq_text q s u -> q = AfterAtom \/ q = AfterRepeat -> inb (hd0 (u ++ t)) [ "|"; ")"; "*"; "+"; NUL ]%char = false /\
  (q = AfterAtom -> suffix_free (u ++ t)).
Proof.
  intros S Q. destruct (seq_hd q s u t S) as [NN C]. split.
  - apply inb_no. intro I. cbn [In] in I. assert (X : ~ In (hd0 (u ++ t)) (lit "|)*+")).
    { eapply hd_cases; [exact C| |].
      - intros (_ & _ & M). destruct Q as [-> | ->]; cbn [lit list_ascii_of_string In] in *; intuition congruence.
      - intros d D. cbn [lit list_ascii_of_string In] in D. repeat destruct D as [D|D]; [..|contradiction]; subst d; repeat split; discriminate. }
    cbn [lit list_ascii_of_string In] in X. intuition congruence.
  - intros ->. unfold suffix_free. eapply hd_cases; [exact C| |].
    + intros (_ & _ & M). cbn [lit list_ascii_of_string In] in *. intuition congruence.
    + intros d D. cbn [lit list_ascii_of_string In] in D. repeat destruct D as [D|D]; [..|contradiction]; subst d; repeat split; discriminate.
Qed.
Lemma closed_free t : closed t -> suffix_free t /\ inb (hd0 t) [ "|"; ")"; "*"; "+"; NUL ]%char = true.
Proof.
  unfold closed, suffix_free. cbn [In lit list_ascii_of_string]. intros [C|[C|[C|[]]]]; rewrite <- C; (split; [|reflexivity]); intros [X|[X|[X|[X|[]]]]]; discriminate.
Qed.

Definition alt_is (a : alt) (t : str) (N : list node) (k ret : Z) (st : rst) : Prop := exists X k', ready st t (N ++ X) k' 0 /\ chained (alt_list a) N X k k' ret.
Definition seq_is (s : seq) (t : str) (N : list node) (k ret : Z) (st : rst) : Prop := exists X k', ready st t (N ++ X) k' 0 /\ chained (seq_list s) N X k k' ret.
Definition elem_is (e : elem) (t : str) (N : list node) (k ret : Z) (st : rst) : Prop := exists X k', ready st t (N ++ X) k' 0 /\ made e N X k k' ret.

Lemma all_head P e : all_elem P e -> P e.
Proof. destruct e; cbn [all_elem]; tauto. Qed.

(** The code of trex_element up to the suffix *)
Definition atom_code (fuel : nat) : cm Z :=
  c <~ peek;
  (if ceqb c "(" then
     _ <~ advance;
     d <~ peek;
     expr <~ (if ceqb d "?" then _ <~ advance; _ <~ trex_expect ":"; trex_newnode OP_NOCAPEXPR else trex_newnode OP_EXPR);
     newn <~ trex_list fuel;
     _ <~ setn expr (set_left newn);
     _ <~ trex_expect ")";
     cret expr
   else if ceqb c "[" then _ <~ advance; r <~ trex_class (S fuel); _ <~ trex_expect "]"; cret r
   else if ceqb c "$" then _ <~ advance; trex_newnode OP_EOL
   else if ceqb c "." then _ <~ advance; trex_newnode OP_DOT
   else trex_charnode false).
Lemma element_code fuel st : trex_element (S fuel) st =
  (atom <~ atom_code fuel;
   ret <~ trex_suffix (S fuel) atom;
   e <~ peek;
   if inb e [ "|"; ")"; "*"; "+"; NUL ]%char then cret ret
   else nnode <~ trex_element fuel; _ <~ setn ret (set_next nnode); cret ret) st.
Proof. cbn [trex_element]. unfold atom_code, cbind. destruct (peek st); reflexivity. Qed.

Section Step.
Context (fuel : nat).
Hypothesis IHl : forall st a u t N k, alt_text a u -> shut t -> all_alt tame a -> ready st (u ++ t) N k 0 -> (2 * List.length u + 2 <= fuel)%nat ->
  out (alt_is a t N k) (trex_list fuel st).

Lemma atom_char p e n u t N k st : char_node false n u -> (forall T nsub i y, aget T i = Ok (set_next y n) -> rep T nsub i (NE e)) -> n_next n = -1 -> sz_elem e = 1%nat ->
  ~ In (hd0 u) (lit "([$.") -> atom_text p e u -> ready st (u ++ t) N k 0 -> out (elem_is e t N k) (atom_code fuel st).
Proof.
  intros CN REP NX SZ NI AT R. unfold atom_code. eapply b_peek; [exact R|].
  assert (HU : hd0 (u ++ t) = hd0 u) by (destruct CN; reflexivity). rewrite HU. cbn [lit list_ascii_of_string In] in NI.
  rewrite (eqb_no (hd0 u) "("), (eqb_no (hd0 u) "["), (eqb_no (hd0 u) "$"), (eqb_no (hd0 u) ".") by (intro X; apply NI; rewrite X; auto).
  eapply charnode_fwd; [exact CN|exact R|]. intros st' R'. exists [n], k. split; [exact R'|]. apply made_node; auto.
Qed.

Lemma atom_fwd p e u t N k st : atom_text p e u -> all_elem tame e -> ready st (u ++ t) N k 0 -> (2 * List.length u <= fuel)%nat ->
  out (elem_is e t N k) (atom_code fuel st).
Proof.
  intros A OK R F. assert (A' := A). destruct A as [p c LI|p kk c NM|p c PE B1 B2|p kk CN|p|p|p|p|p l u NL HC ST|p l u NL ST|p a u HC AT|p a u AT].
  - destruct LI as (P & NI & _). eapply (atom_char p (Char c) (blank (sc c) 0) [c]); [apply cn_plain; [exact P|]|intros; eapply rep_char; [eassumption|reflexivity]|reflexivity|reflexivity| |exact A'|exact R].
    + intros ->. apply NI. do 4 right. left. reflexivity.
    + intro X. apply NI. cbn [hd0 lit list_ascii_of_string In] in *. tauto.
  - eapply (atom_char p (Char c) (blank (sc c) 0) [bs; kk]); [apply cn_named; exact NM|intros; eapply rep_char; [eassumption|reflexivity]|reflexivity|reflexivity| |exact A'|exact R].
    cbn [hd0 lit list_ascii_of_string In]. intuition discriminate.
  - eapply (atom_char p (Char c) (blank (sc c) 0) [bs; c]); [apply cn_escape; [exact PE|auto]|intros; eapply rep_char; [eassumption|reflexivity]|reflexivity|reflexivity| |exact A'|exact R].
    cbn [hd0 lit list_ascii_of_string In]. intuition discriminate.
  - eapply (atom_char p (Named kk) (set_left (sc kk) (blank OP_CCLASS 0)) [bs; kk]); [apply cn_class; exact CN|intros; eapply rep_named; [eassumption|reflexivity|reflexivity|exact CN]|reflexivity|reflexivity| |exact A'|exact R].
    cbn [hd0 lit list_ascii_of_string In]. intuition discriminate.
  - eapply (atom_char p (Boundary true) (set_left (sc "b") (blank OP_WB 0)) [bs; "b"%char]); [apply (cn_wb false 0 true); reflexivity|intros; eapply rep_wb; [eassumption|reflexivity|reflexivity]|reflexivity|reflexivity| |exact A'|exact R].
    cbn [hd0 lit list_ascii_of_string In]. intuition discriminate.
  - eapply (atom_char p (Boundary false) (set_left (sc "B") (blank OP_WB 0)) [bs; "B"%char]); [apply (cn_wb false 0 false); reflexivity|intros; eapply rep_wb; [eassumption|reflexivity|reflexivity]|reflexivity|reflexivity| |exact A'|exact R].
    cbn [hd0 lit list_ascii_of_string In]. intuition discriminate.
  - unfold atom_code. eapply b_peek; [exact R|]. cbn [lit list_ascii_of_string app hd0] in *.
    change (ceqb "." "(") with false. change (ceqb "." "[") with false. change (ceqb "." "$") with false. change (ceqb "." ".") with true.
    eapply b_advance; [exact R|discriminate|]. intros st1 R1. eapply newnode_out; [exact L1|exact L2|exact R1|lia|]. intros st2 R2.
    exists [blank OP_DOT k], k. split; [exact R2|]. apply made_node; [reflexivity|reflexivity|]. intros. eapply rep_any; [eassumption|reflexivity].
  - unfold atom_code. eapply b_peek; [exact R|]. cbn [lit list_ascii_of_string app hd0] in *.
    change (ceqb "$" "(") with false. change (ceqb "$" "[") with false. change (ceqb "$" "$") with true.
    eapply b_advance; [exact R|discriminate|]. intros st1 R1. eapply newnode_out; [exact L1|exact L2|exact R1|lia|]. intros st2 R2.
    exists [blank OP_EOL k], k. split; [exact R2|]. apply made_node; [reflexivity|reflexivity|]. intros. eapply rep_end; [eassumption|reflexivity].
  - unfold atom_code. eapply b_peek; [exact R|]. cbn [app hd0] in *. cbn [List.length] in F. rewrite app_length in F.
    change (ceqb "[" "(") with false. change (ceqb "[" "[") with true. rewrite <- app_assoc in R.
    eapply b_advance; [exact R|discriminate|]. intros st1 R1.
    eapply (out_bind _ _ _ _ (fun i s => exists X, ready s (lit "]" ++ t) (N ++ X) k 0 /\ made (Set_ false l) N X k k i)).
    { eapply (class_fwd st1 false u (lit "]" ++ t) N k l); [exact R1|auto|exact ST|exact NL|reflexivity|lia| |].
      - intros a b I. apply all_head in OK. apply OK. eauto.
      - intros st' X R' M. eauto. }
    intros i st2 (X & R2 & M). eapply b_expect; [exact R2|discriminate|discriminate|right; reflexivity|]. intros st3 t' E R3. injection E as <-.
    cbn [cret ends]. exists X, k. split; [eapply ready_weak; [exact R3|lia]|exact M].
  - unfold atom_code. eapply b_peek; [exact R|]. cbn [app hd0] in *. cbn [List.length] in F. rewrite app_length in F.
    change (ceqb "[" "(") with false. change (ceqb "[" "[") with true. rewrite <- app_assoc in R.
    eapply b_advance; [exact R|discriminate|]. intros st1 R1.
    eapply (out_bind _ _ _ _ (fun i s => exists X, ready s (lit "]" ++ t) (N ++ X) k 0 /\ made (Set_ true l) N X k k i)).
    { eapply (class_fwd st1 true u (lit "]" ++ t) N k l); [exact R1|discriminate|exact ST|exact NL|reflexivity|lia| |].
      - intros a b I. apply all_head in OK. apply OK. eauto.
      - intros st' X R' M. eauto. }
    intros i st2 (X & R2 & M). eapply b_expect; [exact R2|discriminate|discriminate|right; reflexivity|]. intros st3 t' E R3. injection E as <-.
    cbn [cret ends]. exists X, k. split; [eapply ready_weak; [exact R3|lia]|exact M].
  - unfold atom_code. eapply b_peek; [exact R|]. cbn [app hd0] in *. cbn [List.length] in F. rewrite app_length in F.
    change (ceqb "(" "(") with true. rewrite <- app_assoc in R. eapply b_advance; [exact R|discriminate|]. intros st1 R1. eapply b_peek; [exact R1|].
    assert (HU : hd0 (u ++ lit ")" ++ t) <> "?"%char) by (destruct u; [discriminate|exact HC]). rewrite (eqb_no _ _ HU).
    eapply b_newnode; [exact L1|exact L2|exact R1|lia|]. intros st2 R2. change (blank OP_EXPR k) with (group_node true k) in R2. change (if OP_EXPR =? OP_EXPR then k + 1 else k) with (group_k true k) in R2.
    eapply (out_bind _ _ _ _ (alt_is a (lit ")" ++ t) (N ++ [group_node true k]) (group_k true k))).
    { eapply IHl; [exact AT|left; reflexivity|apply OK|exact R2|cbn [List.length lit list_ascii_of_string] in F; lia]. }
    intros newn st3 (X & k' & R3 & CH). rewrite <- app_assoc in R3. cbn [app] in R3.
    eapply b_setn; [exact R3|apply aget_last|]. intros st4 R4. rewrite lupd_mid in R4.
    eapply b_expect; [exact R4|discriminate|discriminate|right; reflexivity|]. intros st5 t3 E R5. injection E as <-. cbn [cret ends].
    exists (set_left newn (group_node true k) :: X), k'. split; [eapply ready_weak; [exact R5|lia]|]. apply made_group; [exact (rd_k _ _ _ _ _ _ R)|exact CH].
  - unfold atom_code. eapply b_peek; [exact R|]. cbn [app hd0 lit list_ascii_of_string] in *. cbn [List.length] in F. rewrite app_length in F.
    change (ceqb "(" "(") with true. rewrite <- app_assoc in R. eapply b_advance; [exact R|discriminate|]. intros st1 R1. eapply b_peek; [exact R1|]. cbn [hd0].
    change (ceqb "?" "?") with true.
    eapply (out_bind _ _ _ _ (fun i s => i = zlen N /\ ready s (u ++ lit ")" ++ t) (N ++ [group_node false k]) (group_k false k) 0)).
    { eapply b_advance; [exact R1|discriminate|]. intros st2 R2. eapply b_expect; [exact R2|discriminate|discriminate|right; reflexivity|]. intros st3 t1 E R3. injection E as <-.
      eapply newnode_out; [exact L1|exact L2|exact R3|lia|]. intros st4 R4. split; [reflexivity|]. eapply ready_weak; [exact R4|lia]. }
    intros i st2 (-> & R2).
    eapply (out_bind _ _ _ _ (alt_is a (lit ")" ++ t) (N ++ [group_node false k]) (group_k false k))).
    { eapply IHl; [exact AT|left; reflexivity|apply OK|exact R2|cbn [List.length lit list_ascii_of_string] in F; lia]. }
    intros newn st3 (X & k' & R3 & CH). rewrite <- app_assoc in R3. cbn [app] in R3.
    eapply b_setn; [exact R3|apply aget_last|]. intros st4 R4. rewrite lupd_mid in R4.
    eapply b_expect; [exact R4|discriminate|discriminate|right; reflexivity|]. intros st5 t3 E R5. injection E as <-. cbn [cret ends].
    exists (set_left newn (group_node false k) :: X), k'. split; [eapply ready_weak; [exact R5|lia]|]. apply made_group; [exact (rd_k _ _ _ _ _ _ R)|exact CH].
Qed.
End Step.

Lemma elem_place p e u q : elem_text p e u q -> q = AfterAtom \/ q = AfterRepeat.
Proof. intros []; auto. Qed.
Lemma elem_len p e u q : elem_text p e u q -> (1 <= List.length u)%nat.
Proof. intros [? ? ? A|? ? ? ? ? ? A S]; [|rewrite app_length]; apply atom_len in A; lia. Qed.

Lemma element_list_fwd : forall fuel,
  (forall st s u t N k p, seq_text p s u -> closed t -> all_seq tame s -> ready st (u ++ t) N k 0 -> (2 * List.length u + 1 <= fuel)%nat ->
     out (seq_is s t N k) (trex_element fuel st)) /\
  (forall st a u t N k, alt_text a u -> shut t -> all_alt tame a -> ready st (u ++ t) N k 0 -> (2 * List.length u + 2 <= fuel)%nat ->
     out (alt_is a t N k) (trex_list fuel st)).
Proof.
  induction fuel as [|fuel [IHe IHl]]; [split; intros; lia|]. split.
  - (* one element and what follows *)
    assert (ELEM : forall st e u t N k p q, elem_text p e u q -> (q = AfterAtom -> suffix_free t) -> all_elem tame e -> ready st (u ++ t) N k 0 -> (2 * List.length u + 1 <= S fuel)%nat ->
      forall (K : Z -> cm Z) Q, (forall ret st', elem_is e t N k ret st' -> out Q (K ret st')) ->
      out Q (cbind (atom_code fuel) (fun atom => cbind (trex_suffix (S fuel) atom) K) st)).
    { intros st e u t N k p q EL SF OK R F K Q HK. destruct EL as [p e u A|p e lo hi u v A S].
      - eapply out_bind; [eapply (atom_fwd fuel IHl); [exact A|exact OK|exact R|lia]|]. intros atom st1 (X & k' & R1 & M).
        eapply out_bind; [eapply (suffix_none st1 t _ k' _ atom (elem_is e t N k)); [exact R1|auto|exists X, k'; auto]|]. exact HK.
      - rewrite <- app_assoc in R. rewrite app_length in F. destruct OK as [OK1 OK2].
        eapply out_bind; [eapply (atom_fwd fuel IHl); [exact A|exact OK2|exact R|lia]|]. intros atom st1 (X & k' & R1 & M).
        eapply out_bind; [eapply (suffix_fwd st1 lo hi v t _ k' _ atom (elem_is (Repeat lo hi e) t N k)); [exact S|exact R1|lia|exact OK1|]|exact HK].
        intros st' R'. rewrite <- app_assoc in R'. eexists _, k'. split; [exact R'|]. apply made_repeat. exact M. }
    intros st s u t N k p SQ CL OK R F. rewrite element_code. destruct SQ as [p e u q EL|p e u q s v EL SQ].
    + eapply (ELEM st e u t N k p q); [exact EL|intros _; apply closed_free; exact CL|exact OK|exact R|lia|].
      intros ret st1 (X & k' & R1 & M). eapply b_peek; [exact R1|]. rewrite (proj2 (closed_free t CL)). cbn [cret ends]. exists X, k'. split; [exact R1|].
      apply chained_one. exact M.
    + rewrite <- app_assoc in R. rewrite app_length in F. destruct OK as [OK1 OK2]. assert (LU := elem_len _ _ _ _ EL).
      destruct (seq_more_hd q s v t SQ (elem_place _ _ _ _ EL)) as [NI SF].
      eapply (ELEM st e u (v ++ t) N k p q); [exact EL|exact SF|exact OK1|exact R|lia|].
      intros ret st1 (X & k' & R1 & M). eapply b_peek; [exact R1|]. rewrite NI.
      eapply (out_bind _ _ _ _ (seq_is s t (N ++ X) k')); [eapply IHe; [exact SQ|exact CL|exact OK2|exact R1|lia]|].
      intros nnode st3 (X2 & k2 & R3 & CH). rewrite <- app_assoc in R3.
      destruct (md_last _ _ _ _ _ _ M) as (n & G & _). assert (RG := aget_range _ _ _ G).
      assert (G3 : aget (N ++ X ++ X2) ret = Ok n) by (rewrite app_assoc, aget_app1 by lia; exact G).
      eapply b_setn; [exact R3|exact G3|]. intros st4 R4. cbn [cret ends].
      destruct (chained_more e (seq_list s) N X X2 k k' k2 ret nnode n M CH G3) as (Y & EY & CY). rewrite EY in R4.
      exists Y, k2. split; [exact R4|exact CY].
  - intros st a u t N k AT CL OK R F. cbn [trex_list]. eapply b_peek; [exact R|].
    assert (SEQ : forall (b : bool) s u t, seq_text (if b then AfterAnchor else First) s u -> closed t -> all_seq tame s -> ready st ((if b then ["^"%char] else []) ++ u ++ t) N k 0 ->
      (2 * List.length u + 1 <= fuel)%nat ->
      out (fun ret s' => exists X k', ready s' t (N ++ X) k' 0 /\ chained (start b s) N X k k' ret)
        ((if ceqb (hd0 ((if b then ["^"%char] else []) ++ u ++ t)) "^" then
            cbind advance (fun _ => cbind (trex_newnode OP_BOL) (fun bol => cbind (trex_element fuel) (fun e => cbind (setn bol (set_next e)) (fun _ => cret bol))))
          else trex_element fuel) st)).
    { clear R F AT CL OK t u. intros b s u t SQ CL OK R F. destruct b.
      - cbn [app hd0]. change (ceqb "^" "^") with true. cbn iota. eapply b_advance; [exact R|discriminate|]. intros st1 R1.
        eapply b_newnode; [exact L1|exact L2|exact R1|lia|]. intros st2 R2. cbn [Z.eqb OP_BOL OP_EXPR Pos.eqb] in R2.
        eapply (out_bind _ _ _ _ (seq_is s t (N ++ [blank OP_BOL k]) k)).
        { eapply IHe; [exact SQ|exact CL|exact OK|exact R2|lia]. }
        intros e st3 (X & k' & R3 & CH). rewrite <- app_assoc in R3. cbn [app] in R3.
        eapply b_setn; [exact R3|apply aget_last|]. intros st4 R4. rewrite lupd_mid in R4. cbn [cret ends].
        exists (set_next e (blank OP_BOL k) :: X), k'. split; [exact R4|]. cbn [start]. apply chained_anchor. exact CH.
      - cbn [app] in *. assert (X : hd0 (u ++ t) <> "^"%char).
        { destruct (seq_hd First s u t SQ) as [_ [Y|[Y|[Y|[Y|[Y|(_ & _ & Y)]]]]]]; try (rewrite Y; discriminate). exact Y. }
        rewrite (eqb_no _ _ X). eapply IHe; [exact SQ|exact CL|exact OK|exact R|lia]. }
    assert (CHOICE : forall (b : bool) s v a w, seq_text (if b then AfterAnchor else First) s v -> alt_text a w -> all_seq tame s -> all_alt tame a ->
      ready st ((if b then ["^"%char] else []) ++ v ++ "|"%char :: w ++ t) N k 0 -> (2 * (List.length v + S (List.length w)) + 2 <= S fuel)%nat ->
      out (alt_is (Or b s a) t N k)
        (cbind (if ceqb (hd0 ((if b then ["^"%char] else []) ++ v ++ "|"%char :: w ++ t)) "^" then
            cbind advance (fun _ => cbind (trex_newnode OP_BOL) (fun bol => cbind (trex_element fuel) (fun e => cbind (setn bol (set_next e)) (fun _ => cret bol))))
          else trex_element fuel)
          (fun ret => cbind peek (fun d => if ceqb d "|" then
             cbind advance (fun _ => cbind (trex_newnode OP_OR) (fun temp => cbind (setn temp (set_left ret)) (fun _ => cbind (trex_list fuel) (fun tright =>
               cbind (setn temp (set_right tright)) (fun _ => cret temp)))))
           else cret ret)) st)).
    { clear R F AT OK u a. intros b s v a w SQ AT OK1 OK2 R F. eapply out_bind; [eapply SEQ; [exact SQ|left; reflexivity|exact OK1|exact R|lia]|].
      intros ret st1 (X & k' & R1 & CH). eapply b_peek; [exact R1|]. cbn [hd0]. change (ceqb "|" "|") with true. cbn iota.
      eapply b_advance; [exact R1|discriminate|]. intros st2 R2. eapply b_newnode; [exact L1|exact L2|exact R2|lia|]. intros st3 R3. cbn [Z.eqb OP_OR OP_EXPR Pos.eqb] in R3.
      eapply b_setn; [exact R3|apply aget_last|]. intros st4 R4. rewrite lupd_last in R4. fold (or_node k' ret) in R4.
      eapply (out_bind _ _ _ _ (alt_is a t ((N ++ X) ++ [or_node k' ret]) k')).
      { eapply IHl; [exact AT|exact CL|exact OK2|exact R4|lia]. }
      intros tright st5 (X2 & k2 & R5 & CH2). rewrite <- app_assoc in R5. cbn [app] in R5.
      eapply b_setn; [exact R5|apply aget_last|]. intros st6 R6. rewrite lupd_mid in R6. cbn [cret ends].
      rewrite <- app_assoc in R6. exists (X ++ set_right tright (or_node k' ret) :: X2), k2. split; [exact R6|]. apply chained_or; auto. }
    assert (JUST : forall (b : bool) s v, seq_text (if b then AfterAnchor else First) s v -> all_seq tame s ->
      ready st ((if b then ["^"%char] else []) ++ v ++ t) N k 0 -> (2 * List.length v + 2 <= S fuel)%nat ->
      out (alt_is (Just b s) t N k)
        (cbind (if ceqb (hd0 ((if b then ["^"%char] else []) ++ v ++ t)) "^" then
            cbind advance (fun _ => cbind (trex_newnode OP_BOL) (fun bol => cbind (trex_element fuel) (fun e => cbind (setn bol (set_next e)) (fun _ => cret bol))))
          else trex_element fuel)
          (fun ret => cbind peek (fun d => if ceqb d "|" then
             cbind advance (fun _ => cbind (trex_newnode OP_OR) (fun temp => cbind (setn temp (set_left ret)) (fun _ => cbind (trex_list fuel) (fun tright =>
               cbind (setn temp (set_right tright)) (fun _ => cret temp)))))
           else cret ret)) st)).
    { clear R F AT OK u a CHOICE. intros b s v SQ OK1 R F. eapply out_bind; [eapply SEQ; [exact SQ|apply shut_closed; exact CL|exact OK1|exact R|lia]|].
      intros ret st1 (X & k' & R1 & CH). eapply b_peek; [exact R1|].
      assert (NB : hd0 t <> "|"%char) by (unfold shut in CL; cbn [In] in CL; intro Y; rewrite Y in CL; intuition discriminate).
      rewrite (eqb_no _ _ NB). cbn [cret ends]. exists X, k'. split; [exact R1|exact CH]. }
    destruct AT as [s v SQ|s v SQ|s v a w SQ AT|s v a w SQ AT]; cbn [app] in *.
    + apply (JUST false s v); [exact SQ|exact OK|exact R|lia].
    + apply (JUST true s v); [exact SQ|exact OK|exact R|cbn [List.length] in F; lia].
    + rewrite app_length in F. cbn [List.length] in F. rewrite <- app_assoc in *. cbn [app] in *.
      apply (CHOICE false s v a w); [exact SQ|exact AT|apply OK|apply OK|exact R|lia].
    + cbn [List.length] in F. rewrite app_length in F. cbn [List.length] in F. rewrite <- app_assoc in *. cbn [app] in *.
      apply (CHOICE true s v a w); [exact SQ|exact AT|apply OK|apply OK|exact R|lia].
Qed.
End Forward.

(** ** Patterns that spell something have no NUL and no lone backslash. *)
Definition tidy (u : str) : Prop := cstr u /\ forall t, lone (u ++ t) = lone t.
Lemma tidy_nil : tidy [].
Proof. split; [intros []|reflexivity]. Qed.
Lemma tidy_app u v : tidy u -> tidy v -> tidy (u ++ v).
Proof.
  intros [A B] [C D]. split.
  - unfold cstr in *. rewrite in_app_iff. tauto.
  - intro t. rewrite <- app_assoc, B, D. reflexivity.
Qed.
Lemma tidy_one c : c <> NUL -> c <> bs -> tidy [c].
Proof.
  intros A B. split; [intros [X|[]]; congruence|]. intro t. cbn [app]. apply lone_cons. exact B.
Qed.
Lemma tidy_esc c : c <> NUL -> tidy [bs; c].
Proof. intros A. split; [intros [X|[X|[]]]; [discriminate X|congruence]|]. intro t. reflexivity. Qed.
Lemma tidy_cons c u : c <> NUL -> c <> bs -> tidy u -> tidy (c :: u).
Proof. intros A B C. apply (tidy_app [c] u); [apply tidy_one|]; auto. Qed.
Lemma print_tidy c : isprintb c = true -> c <> NUL.
Proof. intros H ->. discriminate H. Qed.
Lemma named_nul d c : named_char d c -> d <> NUL.
Proof. unfold named_char. cbn [In]. intros H ->. repeat destruct H as [H|H]; [..|contradiction]; discriminate H. Qed.
Lemma class_nul c : class_name c -> c <> NUL.
Proof. unfold class_name. cbn [lit list_ascii_of_string In]. intros H ->. repeat destruct H as [H|H]; [..|contradiction]; discriminate H. Qed.
Lemma set_char_tidy d c v : set_char d c v -> tidy v.
Proof.
  intros [x P NI _|kk x NM|x (_ & _ & PE)].
  - apply tidy_one; [apply print_tidy; exact P|]. intros ->. apply NI. right. left. reflexivity.
  - apply tidy_esc. exact (named_nul _ _ NM).
  - apply tidy_esc. exact PE.
Qed.
Lemma set_tidy d l u : set_text d l u -> tidy u.
Proof.
  intro S. induction S as [d|d c v l u C S IH|d kk l u C S IH|d a b v1 v2 l u C D S IH].
  - exact tidy_nil.
  - apply tidy_app; [exact (set_char_tidy _ _ _ C)|exact IH].
  - apply (tidy_app [bs; kk] u); [apply tidy_esc; exact (class_nul _ C)|exact IH].
  - apply tidy_app; [exact (set_char_tidy _ _ _ C)|]. apply tidy_cons; [discriminate|discriminate|]. apply tidy_app; [|exact IH].
    destruct D as [x P NB|kk x NM|x NN NZ]; [apply tidy_one; [apply print_tidy|]; auto|apply tidy_esc; exact (named_nul _ _ NM)|apply tidy_esc; exact NZ].
Qed.
Lemma number_tidy n u : number n u -> tidy u.
Proof.
  intros [ds _ _ AD _]. induction ds as [|c ds IH]; [exact tidy_nil|]. cbn [forallb] in AD. apply andb_true_iff in AD. destruct AD as [D AD].
  apply tidy_cons; [intros ->; discriminate D|intros ->; discriminate D|auto].
Qed.
Lemma suffix_tidy lo hi u : suffix lo hi u -> tidy u.
Proof.
  assert (O : forall c, c <> NUL -> c <> bs -> tidy [c]) by exact tidy_one.
  intros [| | |n v NB|n v NB|n m v w NB NB2]; try (apply tidy_one; discriminate).
  - apply tidy_cons; [discriminate|discriminate|]. apply tidy_app; [exact (number_tidy _ _ NB)|apply tidy_one; discriminate].
  - apply tidy_cons; [discriminate|discriminate|]. apply tidy_app; [exact (number_tidy _ _ NB)|]. apply tidy_cons; [discriminate|discriminate|]. apply tidy_one; discriminate.
  - apply tidy_cons; [discriminate|discriminate|]. apply tidy_app; [exact (number_tidy _ _ NB)|]. apply tidy_cons; [discriminate|discriminate|].
    apply tidy_app; [exact (number_tidy _ _ NB2)|]. apply tidy_one; discriminate.
Qed.
Scheme atom_mut := Minimality for atom_text Sort Prop
with elem_mut := Minimality for elem_text Sort Prop
with seq_mut := Minimality for seq_text Sort Prop
with alt_mut := Minimality for alt_text Sort Prop.
Lemma alt_tidy a u : alt_text a u -> tidy u /\ u <> [].
Proof.
  apply (alt_mut (fun _ _ u => tidy u /\ u <> []) (fun _ _ u _ => tidy u /\ u <> []) (fun _ _ u => tidy u /\ u <> []) (fun _ u => tidy u /\ u <> [])).
  - intros p c (P & NI & _). split; [|discriminate]. apply tidy_one; [apply print_tidy; exact P|]. intros ->. apply NI. do 4 right. left. reflexivity.
  - intros p kk c NM. split; [|discriminate]. apply tidy_esc. exact (named_nul _ _ NM).
  - intros p c (_ & _ & PE) _ _. split; [|discriminate]. apply tidy_esc. exact PE.
  - intros p kk CN. split; [|discriminate]. apply tidy_esc. exact (class_nul _ CN).
  - intros p. split; [|discriminate]. apply tidy_esc. discriminate.
  - intros p. split; [|discriminate]. apply tidy_esc. discriminate.
  - intros p. split; [|discriminate]. apply tidy_one; discriminate.
  - intros p. split; [|discriminate]. apply tidy_one; discriminate.
  - intros p l t _ _ S. split; [|discriminate]. apply tidy_cons; [discriminate|discriminate|]. apply tidy_app; [exact (set_tidy _ _ _ S)|apply tidy_one; discriminate].
  - intros p l t _ S. split; [|discriminate]. do 2 (apply tidy_cons; [discriminate|discriminate|]). apply tidy_app; [exact (set_tidy _ _ _ S)|apply tidy_one; discriminate].
  - intros p a' t _ _ [T _]. split; [|discriminate]. apply tidy_cons; [discriminate|discriminate|]. apply tidy_app; [exact T|apply tidy_one; discriminate].
  - intros p a' t _ [T _]. split; [|discriminate]. do 3 (apply tidy_cons; [discriminate|discriminate|]). apply tidy_app; [exact T|apply tidy_one; discriminate].
  - auto.
  - intros p e lo hi t v _ [T N] S. split; [apply tidy_app; [exact T|exact (suffix_tidy _ _ _ S)]|]. intro X. apply app_eq_nil in X. tauto.
  - auto.
  - intros p e t q s t' _ [T N] _ [T' _]. split; [apply tidy_app; auto|]. intro X. apply app_eq_nil in X. tauto.
  - auto.
  - intros s t _ [T N]. split; [|discriminate]. apply tidy_cons; [discriminate|discriminate|exact T].
  - intros s t a' w _ [T N] _ [T' _]. split; [|intro X; apply app_eq_nil in X; tauto]. apply tidy_app; [exact T|]. apply tidy_cons; [discriminate|discriminate|exact T'].
  - intros s t a' w _ [T N] _ [T' _]. split; [|discriminate]. apply tidy_cons; [discriminate|discriminate|]. apply tidy_app; [exact T|]. apply tidy_cons; [discriminate|discriminate|exact T'].
Qed.
Lemma spells_tidy r pat : spells r pat -> cstr pat /\ pat <> [] /\ lone pat = false.
Proof. intro S. destruct (alt_tidy _ _ S) as [[A B] C]. split; [exact A|]. split; [exact C|]. rewrite <- (app_nil_r pat), B. reflexivity. Qed.

(** ** Whole patterns *)
Theorem compile_fwd bad r pat : spells r pat -> 2 * zlen pat <= INT_MAX -> all_alt (tame (zlen pat) bad) r ->
  ends bad (fun _ st => compiled r st) (trex_compile pat).
Proof.
  intros SP LM OK. destruct (spells_tidy r pat SP) as (CS & NE & LN).
  assert (L1 : 1 <= zlen pat) by (destruct pat; [congruence|]; rewrite zlen_cons; assert (H := zlen_nonneg pat); lia).
  unfold trex_compile. assert (R0 : ready (zlen pat) {| r_p := Some pat; r_nodes := []; r_alloc := zlen pat; r_nsub := 0 |} pat [] 0 1).
  { constructor; cbn [r_p r_nodes r_alloc r_nsub]; auto; try lia. rewrite zlen_nil. lia. }
  eapply b_newnode; [exact L1|exact LM|exact R0|lia|]. intros st1 R1. cbn [Z.eqb OP_EXPR Pos.eqb app] in R1.
  change (blank OP_EXPR 0) with (group_node true 0) in R1.
  eapply (out_bind _ _ _ _ (alt_is (zlen pat) r [] ([] ++ [group_node true 0]) 1)).
  { apply (element_list_fwd (zlen pat) L1 LM bad (compile_fuel pat)) with (u := pat); [exact SP|right; left; reflexivity|exact OK| |unfold compile_fuel; lia].
    rewrite app_nil_r. exact R1. }
  intros l st2 (X & k' & R2 & CH). cbn [app] in R2.
  eapply b_setn; [exact R2|apply (aget_last [])|]. intros st3 R3. change (zlen (@nil node)) with 0 in R3. cbn [Z.to_nat lupd] in R3.
  eapply b_peek; [exact R3|]. cbn [hd0]. change (ceqb NUL NUL) with true. cbn [cret ends].
  eapply (made_compiled (zlen pat) r st3 [] _ k'); [exact R3|]. apply (made_group true r [] X 0 k' l); [lia|exact CH].
Qed.
