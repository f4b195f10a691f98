(** C95: what a program on Windows finds in opterrmsg, and what is printed there. *)
From Verif Require Import Base IntModel GetoptModel ParseModel ParseSpec GetoptProofs GetoptSay PropGetopt WarnModel WarnSpec.
From Coq Require Import ZArith List Ascii String Bool Lia.
Import ListNotations.
Open Scope Z_scope.

Lemma put_spec : forall n m a k, (n < k)%nat ->
  vsnprintf_win (a ++ repeat NUL k) (zlen a) n m = Ok (a ++ firstn n m ++ repeat NUL (k - List.length (firstn n m))).
Proof.
  induction n as [|n IH]; intros m a k Hk; cbn [vsnprintf_win].
  { cbn [firstn app List.length]. rewrite Nat.sub_0_r. reflexivity. }
  destruct k as [|k]; [lia|]. cbn [repeat]. assert (Hs : forall c, aset (a ++ NUL :: repeat NUL k) (zlen a) c = Ok (a ++ c :: repeat NUL k)).
  { intros c. unfold aset, zlen. rewrite app_length. cbn [List.length]. replace (_ && _) with true by (symmetry; apply andb_true_intro; split; [apply Z.leb_le|apply Z.ltb_lt]; lia).
    rewrite Nat2Z.id. f_equal. induction a as [|x a IHa]; [reflexivity|]. cbn. f_equal. apply IHa. }
  destruct m as [|c m]; [rewrite Hs; reflexivity|]. rewrite Hs. cbn [bind].
  replace (a ++ c :: repeat NUL k) with ((a ++ [c]) ++ repeat NUL k) by (rewrite <- app_assoc; reflexivity).
  replace (zlen a + 1) with (zlen (a ++ [c])) by (rewrite zlen_app; reflexivity). rewrite IH by lia. rewrite <- app_assoc. reflexivity.
Qed.
Lemma c_string_spec : forall x k, exists t, c_string (x ++ repeat NUL (S k)) = Ok t /\ holds_text (x ++ repeat NUL (S k)) t /\
  exists more, x = t ++ more /\ (more = [] \/ exists r, more = NUL :: r).
Proof.
  induction x as [|c x IH]; intros k.
  - exists []. split; [reflexivity|]. split; [split; [intros []|exists (repeat NUL k); reflexivity]|]. exists []. auto.
  - cbn [app c_string]. destruct (ceqb_spec c NUL) as [->|Hc].
    + exists []. split; [reflexivity|]. split; [split; [intros []|eexists; reflexivity]|]. exists (NUL :: x). split; [reflexivity|]. right. eauto.
    + destruct (IH k) as (t & -> & (Ht & junk & Ej) & more & -> & Hm). exists (c :: t). split; [reflexivity|]. split.
      * split; [intros [E|H]; [congruence|exact (Ht H)]|]. exists junk. rewrite Ej. reflexivity.
      * exists more. auto.
Qed.
Lemma holds_fun b t t' : holds_text b t -> holds_text b t' -> t = t'.
Proof.
  intros [H (j & ->)] [H' (j' & E)]. revert t' H' E. induction t as [|c t IH]; intros [|c' t'] H' E; cbn in E; try reflexivity.
  - injection E as <- _. destruct H'. left. reflexivity.
  - injection E as -> _. destruct H. left. reflexivity.
  - injection E as <- E. f_equal. apply IH; [intros Hi; apply H; right; exact Hi|intros Hi; apply H'; right; exact Hi|exact E].
Qed.
Lemma warnx_spec buf m : List.length buf = 128%nat -> exists buf' t, warnx buf m = Ok (buf', t ++ ["010"%char]) /\
  List.length buf' = 128%nat /\ holds_text buf' t /\ kept 127 m t.
Proof.
  intros Hl. unfold warnx. cbv zeta. replace (map (fun _ => NUL) buf) with ([] ++ repeat NUL 128).
  2:{ rewrite <- Hl. clear. induction buf as [|c b IH]; [reflexivity|]. cbn [map List.length repeat app] in *. f_equal. exact IH. }
  change (MAX_OPTERRMSG_SIZE - 1)%nat with 127%nat. change 0 with (zlen (@nil ascii)). rewrite put_spec by lia. cbn [bind app].
  pose proof (firstn_le_length 127 m) as Hf. set (x := firstn 127 m) in *. replace (128 - List.length x)%nat with (S (127 - List.length x)) by lia.
  destruct (c_string_spec x (127 - List.length x)) as (t & -> & Hh & more & Ex & Hm). cbn [bind]. eexists. exists t. split; [reflexivity|].
  split; [rewrite app_length, repeat_length; lia|]. split; [exact Hh|]. split; [exact (proj1 Hh)|].
  exists (more ++ skipn 127 m). split; [rewrite app_assoc, <- Ex; symmetry; apply firstn_skipn|].
  assert (Hlt : (List.length t <= 127)%nat) by (rewrite Ex, app_length in Hf; lia). destruct (Nat.eq_dec (List.length t) 127) as [E|E]; [left; exact E|right]. split; [lia|].
  destruct Hm as [-> |(r & ->)]; [|right; eexists; reflexivity]. left. rewrite app_nil_r in Ex. cbn [app]. apply skipn_all2. subst x. rewrite <- Ex in E, Hlt. rewrite firstn_length in E, Hlt. lia.
Qed.
Lemma warnings_app ms : forall buf ms', warnings buf (ms ++ ms') = ('(b, t) <- warnings buf ms ;; '(b, t') <- warnings b ms' ;; Ok (b, t ++ t')).
Proof.
  induction ms as [|m ms IH]; intros buf ms'; cbn [app warnings bind].
  - destruct (warnings buf ms') as [[b t]| |]; reflexivity.
  - destruct (warnx buf m) as [[b t]| |]; [|reflexivity|reflexivity]. cbn [bind]. rewrite IH. destruct (warnings b ms) as [[b1 t1]| |]; [|reflexivity|reflexivity].
    cbn [bind]. destruct (warnings b1 ms') as [[b2 t2]| |]; [|reflexivity|reflexivity]. cbn [bind]. rewrite app_assoc. reflexivity.
Qed.

(** Any number of messages of any length: no byte outside the array is touched, the array is a string at any time, it holds the last
    message, of which 127 bytes are kept, and each message is printed as a line, cut likewise. *)
Theorem C95_buffer : forall ms buf, List.length buf = 128%nat ->
  exists buf' texts, warnings buf ms = Ok (buf', flat_map (fun t => t ++ ["010"%char]) texts) /\ List.length buf' = 128%nat /\
    Forall2 (kept 127) ms texts /\ (ms = [] -> buf' = buf) /\ (forall l t, texts = l ++ [t] -> holds_text buf' t).
Proof.
  induction ms as [|m ms IH] using rev_ind; intros buf Hl.
  - exists buf, []. split; [reflexivity|]. split; [exact Hl|]. split; [constructor|]. split; [auto|]. intros l t E. destruct l; discriminate.
  - destruct (IH buf Hl) as (b1 & texts & E & Hl1 & HF & _ & _). destruct (warnx_spec b1 m Hl1) as (b2 & t & Ew & Hl2 & Hh & Hk).
    exists b2, (texts ++ [t]). split; [rewrite warnings_app, E; cbn [bind warnings]; rewrite Ew; cbn [bind]; rewrite flat_map_app; cbn [flat_map]; rewrite !app_nil_r; reflexivity|].
    split; [exact Hl2|]. split; [apply Forall2_app; [exact HF|constructor; [exact Hk|constructor]]|]. split; [intros E0; destruct ms; discriminate|].
    intros l t' E0. apply app_inj_tail in E0. destruct E0 as [_ <-]. exact Hh.
Qed.

(** The complaint of a call is in the array after it: if opterr is set and the option string does not ask for silence, a call
    that returns a question mark has put its message there, and any other call has left the array as it was. *)
Theorem C95_complaint : forall f posix options s r s' ms buf, List.length buf = 128%nat ->
  ~ quiet_options options -> ~ In "?"%char options -> (forall o, In o (long_options f) -> lo_flag o = false -> lo_val o <> sc "?") ->
  Forall tame (nargv s) -> optind s = 0 \/ optreset s = true \/ ~ ends_dash (place s) ->
  call f posix true options s = (Ok (r, s'), ms) ->
  if r =? sc "?" then exists m t buf', ms = [m] /\ kept 127 m t /\ warnings buf ms = Ok (buf', t ++ ["010"%char]) /\ holds_text buf' t
  else warnings buf ms = Ok (buf, []).
Proof.
  intros f posix options s r s' ms buf Hl Hq Hi Hlo Hw Hn E.
  pose proof (lines_call f posix options s Hq Hi Hlo Hw Hn) as Hc. rewrite E in Hc. destruct (Hc r s' eq_refl) as [_ Hm]. cbn [snd] in Hm.
  change (sc "?") with 63. destruct (r =? 63) eqn:Er.
  - destruct ms as [|m [|]]; cbn in Hm; try discriminate. destruct (warnx_spec buf m Hl) as (b & t & Ew & _ & Hh & Hk).
    exists m, t, b. split; [reflexivity|]. split; [exact Hk|]. split; [cbn [warnings]; rewrite Ew; cbn [bind]; rewrite app_nil_r; reflexivity|exact Hh].
  - destruct ms; [reflexivity|discriminate].
Qed.
(** The same for --name and --name=value: the text is that of C84. *)
Theorem C95_long_option : forall (only posix : bool) options lo pre body rest s buf, List.length buf = 128%nat ->
  at_word posix pre (@cons str (lit "--" ++ body) rest) s -> body <> [] ->
  hd0 options <> "+"%char -> hd0 options <> "-"%char -> hd0 options <> ":"%char ->
  (forall o, In o lo -> lo_has_arg o = 0 \/ lo_has_arg o = 1 \/ lo_has_arg o = 2) ->
  (forall o, In o lo -> lo_flag o = false -> lo_val o <> -1) ->
  exists r s' ms, (if only then call_getopt_long_only else call_getopt_long) posix true options lo s = (Ok (r, s'), ms) /\
    match long_answer (lit "--") only false lo body rest with
    | Complains m _ => exists t buf', r = sc "?" /\ kept 127 m t /\ warnings buf ms = Ok (buf', t ++ ["010"%char]) /\ holds_text buf' t
    | Reports _ _ _ => warnings buf ms = Ok (buf, [])
    end.
Proof.
  intros only posix options lo pre body rest s buf Hl Hat Hb H1 H2 H3 Hha Hval.
  assert (K : exists r s', (if only then call_getopt_long_only else call_getopt_long) posix true options lo s =
      (Ok (r, s'), printed true options (long_answer (lit "--") only false lo body rest)) /\ long_result options s r s' (long_answer (lit "--") only false lo body rest)).
  { destruct only; [apply (C84_long_only posix true options lo pre body rest s)|apply (C84_long_option posix true options lo pre body rest s)]; assumption. }
  destruct K as (r & s' & E & _ & Hr). exists r, s', (printed true options (long_answer (lit "--") only false lo body rest)). split; [exact E|]. clear E.
  destruct (long_answer (lit "--") only false lo body rest) as [m b|o v u]; [|reflexivity]. apply ceqb_neq in H3. cbn [printed andb]. rewrite H3. cbn [negb].
  destruct (warnx_spec buf m Hl) as (b' & t & Ew & _ & Hh & Hk). exists t, b'. split.
  - destruct Hr as [Hr _]. rewrite Hr, H3, andb_false_r. reflexivity.
  - split; [exact Hk|]. split; [cbn [warnings]; rewrite Ew; cbn [bind]; rewrite app_nil_r; reflexivity|exact Hh].
Qed.
(** With opterr 0, or an option string that asks for silence, a whole scan leaves the array alone and prints nothing. *)
Theorem C95_silent : forall f posix opterr options fuel s buf, opterr = false \/ quiet_options options ->
  warnings buf (snd (scan_all (call f posix opterr options) fuel s)) = Ok (buf, []).
Proof. intros f posix opterr options fuel s buf H. rewrite (C84_silent f posix opterr options fuel s H). reflexivity. Qed.

(** The comment in front of warnx says that opterrmsg is set whatever opterr is; it is not. *)
Theorem C95_always_set_refuted : exists options words r s' ms,
  call_getopt false false options (argv_state words) = (Ok (r, s'), ms) /\ r = sc "?" /\
  warnings opterrmsg_init ms = Ok (opterrmsg_init, []) /\ holds_text opterrmsg_init [].
Proof.
  exists (lit "v"), ["prog"; "-x"]%string. do 3 eexists. split; [vm_compute; reflexivity|]. split; [reflexivity|]. split; [reflexivity|].
  split; [intros []|]. exists (repeat NUL 127). reflexivity.
Qed.
(** Two different complaints with the same text: the options have names of more than 127 bytes. *)
Definition long_name : str := repeat "a"%char 130.
Definition long_lopts : list lopt :=
  [{| lo_name := long_name; lo_has_arg := 1; lo_flag := false; lo_val := 1 |}; {| lo_name := long_name ++ lit "b"; lo_has_arg := 0; lo_flag := false; lo_val := 2 |}].
Theorem C95_cut_refuted : exists w1 w2 r1 r2 s1 s2 m1 m2 buf text,
  call_getopt_long false true [] long_lopts (set_nargv [lit "prog"; w1] gst_init) = (Ok (r1, s1), [m1]) /\
  call_getopt_long false true [] long_lopts (set_nargv [lit "prog"; w2] gst_init) = (Ok (r2, s2), [m2]) /\
  optopt s1 <> optopt s2 /\ m1 <> m2 /\
  warnings opterrmsg_init [m1] = Ok (buf, text) /\ warnings opterrmsg_init [m2] = Ok (buf, text).
Proof.
  exists (lit "--" ++ long_name), (lit "--" ++ long_name ++ lit "b=x"). do 8 eexists. split; [vm_compute; reflexivity|]. split; [vm_compute; reflexivity|].
  split; [discriminate|]. split; [discriminate|]. split; vm_compute; reflexivity.
Qed.

(** ** Examples *)
(** Two complaints, the second shorter than the first: nothing of the first is left. *)
Example C95_buffer_case :
  let ms := snd (scan_all (call_getopt_long false true (lit "v") ex_lopts) 20 (argv_state ["prog"; "--verb=x"; "--out=y"; "-q"]%string)) in
  ms = [lit "option `--verb' doesn't allow an argument"; lit "invalid option -- q"] /\
  match warnings opterrmsg_init ms with
  | Ok (buf, out) => buf = lit "invalid option -- q" ++ repeat NUL 109 /\ out = lit "option `--verb' doesn't allow an argument" ++ ["010"%char] ++ lit "invalid option -- q" ++ ["010"%char]
  | _ => False
  end.
Proof. vm_compute. auto. Qed.
(** A message of 200 bytes. *)
Example C95_cut_case :
  match warnx opterrmsg_init (repeat "x"%char 200) with
  | Ok (buf, out) => buf = repeat "x"%char 127 ++ [NUL] /\ out = repeat "x"%char 127 ++ ["010"%char]
  | _ => False
  end /\ kept 127 (repeat "x"%char 200) (repeat "x"%char 127).
Proof.
  split; [vm_compute; auto|]. split; [intros H; apply repeat_spec in H; discriminate|]. exists (repeat "x"%char 73). split; [reflexivity|]. left. reflexivity.
Qed.
Example C95_complaint_case :
  Forall tame (nargv (argv_state ["prog"; "--ver"]%string)) /\ ~ quiet_options (lit "v") /\ ~ In "?"%char (lit "v") /\
  (forall o, In o (long_options (GetoptLong ex_lopts)) -> lo_flag o = false -> lo_val o <> sc "?") /\ ~ ends_dash (place (argv_state ["prog"; "--ver"]%string)) /\
  (exists s', call (GetoptLong ex_lopts) false true (lit "v") (argv_state ["prog"; "--ver"]%string) = (Ok (63, s'), [lit "option `--ver' is ambiguous"])).
Proof.
  split; [cbn; repeat (apply Forall_cons; [right; right; intros [r E]; apply (f_equal (@rev ascii)) in E; rewrite rev_app_distr in E; discriminate|]); apply Forall_nil|].
  split; [intros (rest & [E|[E|E]]); discriminate|]. split; [intros [E|[]]; discriminate|].
  split; [intros o H _; repeat (destruct H as [<-|H]; [discriminate|]); destruct H|]. split; [intros [r E]; destruct r; discriminate|].
  eexists. vm_compute. reflexivity.
Qed.
Example C95_long_option_case :
  at_word false [lit "prog"] (@cons str (lit "--" ++ lit "ver") []) (begun false (argv_state ["prog"; "--ver"]%string)) /\
  long_answer (lit "--") false false ex_lopts (lit "ver") [] = Complains (lit "option `--ver' is ambiguous") false.
Proof. split; [apply (begun_at false (lit "prog") _ _ (argv_begins ["prog"; "--ver"]%string))|vm_compute; reflexivity]. Qed.
Print Assumptions C95_buffer.
Print Assumptions C95_complaint.
Print Assumptions C95_long_option.
Print Assumptions C95_silent.
Print Assumptions C95_always_set_refuted.
Print Assumptions C95_cut_refuted.
