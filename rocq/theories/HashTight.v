(** HashTight: as long as no request for memory is refused, the number of buckets of a table is the prime its index names. *)
From Coq Require Import ZArith List Bool Lia.
From Verif Require Import Base HashModel HashSpec.
Import ListNotations.
Open Scope Z_scope.

Section Tight.
Context {K V : Type}.
Context (hashfn : K -> Z) (eqfn : K -> K -> bool).
Notation W := (world K V).

Definition tight (w : W) : Prop := forall h t, sget (w_ht w) h = Some t -> aget primes (t_prime t) = Ok (t_len t).
Lemma tight_eq (w w' : W) : w_ht w' = w_ht w -> tight w -> tight w'.
Proof. intros E T h t. rewrite E. apply T. Qed.
Lemma tight_put (w w' : W) h t : w_ht w' = sput (w_ht w) h (Some t) -> aget primes (t_prime t) = Ok (t_len t) -> tight w -> tight w'.
Proof.
  intros E A T i u. rewrite E. cbn [sget sput]. destruct (Nat.eqb i h); [|apply T]. intros X. injection X as <-. exact A.
Qed.

Lemma sread_sget {A} (s : store A) i a : sread s i = Ok a -> sget s i = Some a.
Proof. unfold sread. destruct (sget s i); [|discriminate]. intros X. now injection X as ->. Qed.
Lemma swrite_put {A} (s s' : store A) i a : swrite s i a = Ok s' -> s' = sput s i (Some a).
Proof. unfold swrite. destruct (sget s i); [|discriminate]. intros X. now injection X as <-. Qed.
Lemma bset_ht (w w' : W) a i x : bset w a i x = Ok w' -> w_ht w' = w_ht w.
Proof.
  unfold bset. intros E. apply bind_ok in E. destruct E as (arr & _ & E). apply bind_ok in E. destruct E as (arr' & _ & E).
  apply bind_ok in E. destruct E as (s & _ & E). now injection E as <-.
Qed.
Lemma unlink_ht (w w' : W) a i p x : unlink w a i p x = Ok w' -> w_ht w' = w_ht w.
Proof.
  unfold unlink. destruct p as [p|]; [|apply bset_ht]. intros E. apply bind_ok in E. destruct E as (n & _ & E).
  apply bind_ok in E. destruct E as (s & _ & E). now injection E as <-.
Qed.
Lemma expand_bucket_ht fuel : forall (w w' : W) old new n i, expand_bucket fuel w old new n i = Ok w' -> w_ht w' = w_ht w.
Proof.
  induction fuel as [|fuel IH]; intros w w' old new n i E; cbn [expand_bucket] in E; [discriminate|].
  apply bind_ok in E. destruct E as ([e|] & _ & E); [|now injection E as <-].
  apply bind_ok in E. destruct E as (nd & _ & E). apply bind_ok in E. destruct E as (w1 & E1 & E).
  apply bind_ok in E. destruct E as (ix & _ & E). apply bind_ok in E. destruct E as (x & _ & E).
  apply bind_ok in E. destruct E as (s & _ & E). apply bind_ok in E. destruct E as (w2 & E2 & E).
  rewrite (IH _ _ _ _ _ _ E), (bset_ht _ _ _ _ _ E2). cbn [w_ht up_node]. apply (bset_ht _ _ _ _ _ E1).
Qed.
Lemma expand_loop_ht rows : forall (w w' : W) old new n i, expand_loop rows w old new n i = Ok w' -> w_ht w' = w_ht w.
Proof.
  induction rows as [|rows IH]; intros w w' old new n i E; cbn [expand_loop] in E; [now injection E as <-|].
  apply bind_ok in E. destruct E as (w1 & E1 & E). rewrite (IH _ _ _ _ _ _ E). apply (expand_bucket_ht _ _ _ _ _ _ _ E1).
Qed.
Lemma expand_tight (w w' : W) h : arg_hashtable_expand w h = Ok w' -> tight w -> tight w'.
Proof.
  unfold arg_hashtable_expand. intros E T. apply bind_ok in E. destruct E as (t & E0 & E).
  destruct (t_prime t =? prime_table_length - 1); [now injection E as <-|].
  apply bind_ok in E. destruct E as (n & AN & E). cbn [salloc] in E.
  apply bind_ok in E. destruct E as (w1 & E1 & E). apply bind_ok in E. destruct E as (s & _ & E).
  apply bind_ok in E. destruct E as (hs & E2 & E). injection E as <-. apply swrite_put in E2. subst hs.
  eapply (tight_put w1); [reflexivity|exact AN|]. apply (tight_eq w); [|exact T]. apply (expand_loop_ht _ _ _ _ _ _ _ E1).
Qed.
Lemma insert_tight (w w' : W) h k v : arg_hashtable_insert hashfn w h k v = Ok w' -> tight w -> tight w'.
Proof.
  unfold arg_hashtable_insert. intros E T. apply bind_ok in E. destruct E as (t0 & _ & E).
  apply bind_ok in E. destruct E as (w1 & E1 & E).
  assert (T1 : tight w1) by (destruct (t_load t0 <? t_count t0 + 1); [apply (expand_tight _ _ _ E1 T)|now injection E1 as <-]).
  apply bind_ok in E. destruct E as (t & ER & E). apply bind_ok in E. destruct E as (key & _ & E).
  apply bind_ok in E. destruct E as (ix & _ & E). apply bind_ok in E. destruct E as (x & _ & E). cbn [salloc] in E.
  apply bind_ok in E. destruct E as (w2 & E2 & E). apply bind_ok in E. destruct E as (hs & E3 & E). injection E as <-.
  apply swrite_put in E3. subst hs. eapply (tight_put w2); [reflexivity|exact (T1 _ _ (sread_sget _ _ _ ER))|].
  apply (tight_eq w1); [|exact T1]. rewrite (bset_ht _ _ _ _ _ E2). reflexivity.
Qed.
Lemma remove_tight (w w' : W) h key : arg_hashtable_remove hashfn eqfn w h key = Ok w' -> tight w -> tight w'.
Proof.
  unfold arg_hashtable_remove. intros E T. apply bind_ok in E. destruct E as ([[ix a] [[e p]|]] & _ & E); [|now injection E as <-].
  apply bind_ok in E. destruct E as (n & _ & E). apply bind_ok in E. destruct E as (w1 & E1 & E).
  apply bind_ok in E. destruct E as (t & ER & E). apply bind_ok in E. destruct E as (hs & E2 & E).
  apply bind_ok in E. destruct E as (ks & _ & E). apply bind_ok in E. destruct E as (vs & _ & E).
  apply bind_ok in E. destruct E as (ns & _ & E). injection E as <-. apply swrite_put in E2. subst hs.
  assert (T1 : tight w1) by (apply (tight_eq w); [apply (unlink_ht _ _ _ _ _ _ E1)|exact T]).
  eapply (tight_put w1); [reflexivity|exact (T1 _ _ (sread_sget _ _ _ ER))|exact T1].
Qed.
Lemma itr_remove_tight (w w' : W) it it' b : arg_hashtable_itr_remove w it = Ok (w', it', b) -> tight w -> tight w'.
Proof.
  unfold arg_hashtable_itr_remove. intros E T. destruct (i_e it) as [e|]; [|discriminate].
  apply bind_ok in E. destruct E as (n & _ & E). apply bind_ok in E. destruct E as (t0 & _ & E).
  apply bind_ok in E. destruct E as (w1 & E1 & E). apply bind_ok in E. destruct E as (t & ER & E).
  apply bind_ok in E. destruct E as (hs & E2 & E). apply bind_ok in E. destruct E as (ks & _ & E).
  apply bind_ok in E. destruct E as (vs & _ & E). apply bind_ok in E. destruct E as ([it1 r] & _ & E).
  apply bind_ok in E. destruct E as (ns & _ & E). injection E as <- _ _. apply swrite_put in E2. subst hs.
  assert (T1 : tight w1) by (apply (tight_eq w); [apply (unlink_ht _ _ _ _ _ _ E1)|exact T]).
  eapply (tight_put w1); [reflexivity|exact (T1 _ _ (sread_sget _ _ _ ER))|exact T1].
Qed.
Lemma visit_tight fuel : forall (w w' : W) it d l, visit fuel w it d = Ok (w', l) -> tight w -> tight w'.
Proof.
  induction fuel as [|fuel IH]; intros w w' it d l E T; cbn [visit] in E; [discriminate|].
  apply bind_ok in E. destruct E as (k & _ & E). apply bind_ok in E. destruct E as (v & _ & E).
  apply bind_ok in E. destruct E as (key & _ & E). apply bind_ok in E. destruct E as ([[w1 it1] more] & E1 & E).
  assert (T1 : tight w1).
  { destruct (d key); [apply (itr_remove_tight _ _ _ _ _ E1 T)|]. apply bind_ok in E1. destruct E1 as ([it2 m2] & _ & E1). now injection E1 as <- _ _. }
  destruct more; [|now injection E as <- _]. apply bind_ok in E. destruct E as ([w2 l2] & E2 & E). injection E as <- _.
  apply (IH _ _ _ _ _ E2 T1).
Qed.
Lemma change_tight (w w' : W) h key v b : arg_hashtable_change hashfn eqfn w h key v = Ok (w', b) -> tight w -> tight w'.
Proof.
  unfold arg_hashtable_change. intros E T. apply bind_ok in E. destruct E as ([[ix a] [[e p]|]] & _ & E); [|now injection E as <- _].
  apply bind_ok in E. destruct E as (n & _ & E). apply bind_ok in E. destruct E as (vs & _ & E).
  apply bind_ok in E. destruct E as (ns & _ & E). injection E as <- _. now apply (tight_eq w).
Qed.
Lemma hop_tight (w w' : W) h o : do_hop hashfn eqfn w h o = Ok w' -> tight w -> tight w'.
Proof.
  destruct o as [k v|k|k v|d]; cbn [do_hop]; intros E T.
  - cbn [salloc] in E. destruct (new_value (w_val w) v) as [vs vi]. apply (insert_tight _ _ _ _ _ E). now apply (tight_eq w).
  - apply (remove_tight _ _ _ _ E T).
  - destruct (new_value (w_val w) v) as [vs vi]. apply bind_ok in E. destruct E as ([w1 f] & E1 & E).
    assert (T1 : tight w1) by (apply (change_tight _ _ _ _ _ _ E1); now apply (tight_eq w)).
    destruct f; [now injection E as <-|]. apply bind_ok in E. destruct E as (x & _ & E). injection E as <-. now apply (tight_eq w1).
  - apply bind_ok in E. destruct E as ([w1 l] & E1 & E). injection E as <-. unfold sweep in E1.
    apply bind_ok in E1. destruct E1 as (n & _ & E1). destruct (n =? 0); [now injection E1 as <- _|].
    apply bind_ok in E1. destruct E1 as (it & _ & E1). apply (visit_tight _ _ _ _ _ _ E1 T).
Qed.
Lemma hops_tight os : forall (w w' : W) h, do_hops hashfn eqfn w h os = Ok w' -> tight w -> tight w'.
Proof.
  induction os as [|o os IH]; intros w w' h E T; cbn [do_hops] in E; [now injection E as <-|].
  apply bind_ok in E. destruct E as (w1 & E1 & E). apply (IH _ _ _ E). apply (hop_tight _ _ _ _ E1 T).
Qed.
Lemma create_tight minsize (w : W) h : arg_hashtable_create (@world0 K V) minsize = (w, Some h) -> tight w.
Proof.
  unfold arg_hashtable_create. destruct (1073741824 <? minsize) eqn:B; [discriminate|].
  assert (P : forall l i s j, pick minsize l i = (s, j) -> (exists x, In x l /\ minsize < x) -> 0 <= i ->
    i <= j /\ nth_error l (Z.to_nat (j - i)) = Some s).
  { induction l as [|p l IH]; intros i s j E (x & I & L) HI; cbn [pick] in E; [destruct I|].
    destruct (Z.ltb_spec minsize p).
    - injection E as <- <-. rewrite Z.sub_diag. split; [lia|reflexivity].
    - destruct I as [->|I]; [lia|]. destruct (IH _ _ _ E (ex_intro _ x (conj I L)) ltac:(lia)) as (Q1 & Q2). split; [lia|].
      replace (Z.to_nat (j - i)) with (S (Z.to_nat (j - (i + 1)))) by lia. exact Q2. }
  destruct (pick minsize primes 0) as [s j] eqn:E. apply Z.ltb_ge in B.
  destruct (P _ _ _ _ E) as (Q1 & Q2); [exists 1610612741; split; [cbn; tauto|lia]|lia|]. rewrite Z.sub_0_r in Q2.
  cbn [salloc]. intros X. injection X as <- <-. intros i t. cbn [w_ht up_ht sget].
  destruct (Nat.eqb _ _); [|discriminate]. intros X. injection X as <-. cbn [t_prime t_len]. unfold aget.
  destruct (Z.ltb_spec j 0); [lia|]. now rewrite Q2.
Qed.
End Tight.
