(** C84: the functions getopt, getopt_long and getopt_long_only, and what they print. *)
From Verif Require Import Base IntModel GetoptModel ParseModel ParseSpec GetoptProofs GetoptSay.
From Coq Require Import ZArith List Ascii String Bool Lia.
Import ListNotations.
Open Scope Z_scope.

(** ** The messages change nothing else *)
Lemma fst_sbind {A B} (m : said A) (k : A -> said B) : fst (sbind m k) = bind (fst m) (fun x => fst (k x)).
Proof. unfold sbind, bind. destruct (fst m); reflexivity. Qed.
Lemma fst_mute {A} (m : res A) : fst (mute m) = m.
Proof. reflexivity. Qed.
Lemma fst_warn o opts t : fst (warn o opts t) = Ok tt.
Proof. reflexivity. Qed.
Lemma sbind_ok {A B} (x : A) (k : A -> said B) : sbind (mute (Ok x)) k = k x.
Proof. unfold sbind, mute. cbn [fst snd app]. destruct (k x); reflexivity. Qed.
Lemma bind_ext {A B} (m : res A) (k k' : A -> res B) : (forall x, k x = k' x) -> bind m k = bind m k'.
Proof. intros H. destruct m; cbn [bind]; auto. Qed.

Lemma parse_long_erase o dash opts lo st longonly s : fst (parse_long_options_w o dash opts lo st longonly s) = parse_long_options opts lo st longonly s.
Proof.
  unfold parse_long_options_w, parse_long_options. destruct (split_eq (place s)) as [nm he].
  destruct (long_search nm st longonly lo 0 None false) as [[mtch exact] second]. destruct (negb exact && second); [reflexivity|].
  destruct mtch as [[i m]|]; [|destruct st; reflexivity].
  destruct (lo_has_arg m =? 0), he as [v|]; try reflexivity; cbv zeta; rewrite fst_sbind, fst_mute; apply bind_ext; intros x;
    destruct (lo_has_arg m =? 1), (optarg x); reflexivity.
Qed.
Lemma gi_short_erase o nargc lopts longonly opts s : fst (gi_short_w o nargc lopts longonly opts s) = gi_short nargc lopts longonly opts s.
Proof.
  unfold gi_short_w, gi_short. destruct (place s) as [|c p]; [reflexivity|].
  set (atend := match p with [] => true | _ => false end). set (s1 := set_place _ p s).
  assert (Hbad : fst (if ceqb c "-" && atend then mute (Ok (-1, s1))
        else _ <~ warn o opts (if negb (posixly s1 =? 0) then illoptchar c else gnuoptchar c) ;;
             mute (Ok (BADCH, set_optopt (sc c) (if atend then set_optind (optind s1 + 1) s1 else s1)))) =
     if ceqb c "-" && atend then Ok (-1, s1) else Ok (BADCH, set_optopt (sc c) (if atend then set_optind (optind s1 + 1) s1 else s1)))
    by (destruct (ceqb c "-" && atend); reflexivity).
  cbv zeta. destruct (ceqb c ":" || (ceqb c "-" && negb atend)); [exact Hbad|]. destruct (strchr opts c) as [oli|]; [|exact Hbad].
  destruct (match lopts with Some _ => _ | None => false end).
  - destruct (negb atend).
    + rewrite fst_sbind, parse_long_erase. apply bind_ext. intros [r x]. reflexivity.
    + destruct (nargc <=? _); [reflexivity|]. rewrite fst_sbind, fst_mute. apply bind_ext. intros [a|]; [|reflexivity].
      rewrite fst_sbind, parse_long_erase. apply bind_ext. intros [r x]. reflexivity.
  - destruct (negb (ceqb (hd0 (tl oli)) ":")); [reflexivity|]. destruct (negb atend); [reflexivity|].
    destruct (negb (ceqb (hd0 (tl (tl oli))) ":")); [|reflexivity]. destruct (nargc <=? _); [reflexivity|].
    rewrite fst_sbind, fst_mute. apply bind_ext. intros v. reflexivity.
Qed.
Lemma gi_scan_erase o nargc lopts longonly opts s : fst (gi_scan_w o nargc lopts longonly opts s) = gi_scan nargc lopts longonly opts s.
Proof.
  unfold gi_scan_w, gi_scan. destruct lopts as [lo|]; [|apply gi_short_erase]. rewrite fst_sbind, fst_mute. apply bind_ext. intros _.
  destruct (negb _ && _); [|apply gi_short_erase]. destruct (ceqb (hd0 (place s)) "-").
  - cbv zeta. destruct (place (set_place _ _ s)); [reflexivity|]. rewrite fst_sbind, parse_long_erase. apply bind_ext. intros [r x].
    destruct (negb (r =? -1)); [reflexivity|apply gi_short_erase].
  - cbv zeta. rewrite fst_sbind, parse_long_erase. apply bind_ext. intros [r x].
    destruct (negb (r =? -1)); [reflexivity|apply gi_short_erase].
Qed.
Lemma gi_start_erase o nargc lopts longonly opts permute allargs : forall fuel s,
  fst (gi_start_w o nargc lopts longonly fuel opts permute allargs s) = gi_start nargc lopts longonly fuel opts permute allargs s.
Proof.
  induction fuel as [|f IH]; intros s; [reflexivity|]. cbn [gi_start_w gi_start]. destruct (optreset s || _); [|apply gi_scan_erase].
  cbv zeta. destruct (nargc <=? _).
  { rewrite fst_sbind, fst_mute. apply bind_ext. intros x. reflexivity. }
  rewrite fst_sbind, fst_mute. apply bind_ext. intros [p|]; [|reflexivity]. destruct (negb (ceqb (hd0 p) "-") || _).
  - destruct allargs; [reflexivity|]. destruct (negb permute); [reflexivity|]. rewrite fst_sbind, fst_mute. apply bind_ext. intros x. apply IH.
  - destruct (ceqb (hd0 (tl p)) "-" && _).
    + rewrite fst_sbind, fst_mute. apply bind_ext. intros x. reflexivity.
    + apply gi_scan_erase.
Qed.
Lemma internal_erase posix o nargc lopts longonly fuel opts permute s :
  fst (getopt_internal_w posix o nargc lopts longonly fuel (Some opts) permute s) = getopt_internal posix nargc lopts longonly fuel opts permute s.
Proof. unfold getopt_internal_w, getopt_internal. apply gi_start_erase. Qed.

(** ** Nothing is printed if opterr is 0 or the options begin with a colon *)
Definition no_word {A} (m : said A) : Prop := snd m = [].
Lemma no_word_bind {A B} (m : said A) (k : A -> said B) : no_word m -> (forall x, no_word (k x)) -> no_word (sbind m k).
Proof. unfold no_word, sbind. intros Hm Hk. destruct (fst m); cbn [snd]; rewrite Hm; [apply Hk|reflexivity|reflexivity]. Qed.
Lemma no_word_mute {A} (m : res A) : no_word (mute m).
Proof. reflexivity. Qed.
Lemma no_word_warn o opts t : PRINT_ERROR o opts = false -> no_word (warn o opts t).
Proof. unfold no_word, warn. cbn [snd]. intros ->. reflexivity. Qed.
Ltac hush := repeat (first [ apply no_word_mute | apply no_word_warn; assumption | apply no_word_bind; [|intro]
  | match goal with |- no_word (match ?x with _ => _ end) => destruct x end ]).
Lemma parse_long_hush o dash opts lo st longonly s : PRINT_ERROR o opts = false -> no_word (parse_long_options_w o dash opts lo st longonly s).
Proof. intros H. unfold parse_long_options_w. hush. Qed.
Lemma gi_short_hush o nargc lopts longonly opts s : PRINT_ERROR o opts = false -> no_word (gi_short_w o nargc lopts longonly opts s).
Proof. intros H. unfold gi_short_w. cbv zeta. hush; apply parse_long_hush; assumption. Qed.
Lemma gi_scan_hush o nargc lopts longonly opts s : PRINT_ERROR o opts = false -> no_word (gi_scan_w o nargc lopts longonly opts s).
Proof. intros H. unfold gi_scan_w. cbv zeta. hush; first [apply parse_long_hush|apply gi_short_hush]; assumption. Qed.
Lemma gi_start_hush o nargc lopts longonly opts permute allargs : PRINT_ERROR o opts = false ->
  forall fuel s, no_word (gi_start_w o nargc lopts longonly fuel opts permute allargs s).
Proof.
  intros H. induction fuel as [|f IH]; intros s; [reflexivity|]. cbn [gi_start_w]. cbv zeta. hush; try (apply gi_scan_hush; assumption); apply IH.
Qed.

(** Options that begin with a colon, possibly behind a [+] or [-]. *)
Definition quiet_options (options : str) : Prop :=
  exists rest, options = ":"%char :: rest \/ options = "+"%char :: ":"%char :: rest \/ options = "-"%char :: ":"%char :: rest.
Lemma internal_hush posix o nargc lopts longonly fuel options permute s : o = false \/ (forall t, options = Some t -> quiet_options t) ->
  no_word (getopt_internal_w posix o nargc lopts longonly fuel options permute s).
Proof.
  intros H. unfold getopt_internal_w. destruct options as [opts|]; [|reflexivity]. apply gi_start_hush. unfold PRINT_ERROR.
  destruct H as [->|H]; [reflexivity|]. destruct (H opts eq_refl) as (rest & [->|[-> | ->]]); cbn; apply andb_false_r.
Qed.

(** ** What POSIX says a program that calls getopt in a loop sees *)
Inductive want := NoValue | Value | MaybeValue.
(** The option letters of a program, and its option string; [quiet] if it begins with a colon. *)
Definition optstring (quiet : bool) (ds : list (ascii * want)) : str :=
  (if quiet then [":"%char] else []) ++
  flat_map (fun d => fst d :: match snd d with NoValue => [] | Value => lit ":" | MaybeValue => lit "::" end) ds.
(** Characters that can be option letters. With a signed char the character 255 is -1, which means the end of the scan. *)
Definition letter (c : ascii) : Prop := c <> NUL /\ c <> ":"%char /\ c <> "-"%char /\ c <> "+"%char /\ uc c <> 255.
Fixpoint wanted (ds : list (ascii * want)) (c : ascii) : option want :=
  match ds with
  | [] => None
  | (d, w) :: ds' => if ceqb d c then Some w else wanted ds' c
  end.

Inductive event := Option_ (c : ascii) (value : option str) | Unknown (c : ascii) | Missing (c : ascii).
(** How reading goes on behind an argument with options: with the next argument, with the one after it, or not at all. *)
Inductive onward := Next | AfterNext | Stop.
(** An argument behind its dash; [next] is the argument that follows. The last clause but one: a dash at the end of an argument stops the
    scan. POSIX does not say so; see [C84_dash_refuted]. *)
Fixpoint cluster (ds : list (ascii * want)) (cs : str) (next : option str) : list event * onward :=
  match cs with
  | [] => ([], Next)
  | c :: r =>
      match wanted ds c with
      | Some NoValue => let '(ev, k) := cluster ds r next in (Option_ c None :: ev, k)
      | Some Value =>
          match r, next with
          | _ :: _, _ => ([Option_ c (Some r)], Next)
          | [], Some v => ([Option_ c (Some v)], AfterNext)
          | [], None => ([Missing c], Next)
          end
      | Some MaybeValue => ([Option_ c (match r with [] => None | _ => Some r end)], Next)
      | None =>
          if ceqb c "-" && match r with [] => true | _ => false end then ([], Stop)
          else let '(ev, k) := cluster ds r next in (Unknown c :: ev, k)
      end
  end.
(** An argument that is not made of options: it does not begin with a dash, or is only a dash. *)
Definition is_operand (w : str) : bool := match w with [] => true | c :: r => negb (ceqb c "-") || match r with [] => true | _ => false end end.
(** The arguments: events, and the operands that remain. *)
Fixpoint arguments (ds : list (ascii * want)) (ws : list str) : list event * list str :=
  match ws with
  | [] => ([], [])
  | w :: rest =>
      if is_operand w then ([], ws)
      else if str_eqb w (lit "--") then ([], rest)
      else let '(ev, k) := cluster ds (tl w) (hd_error rest) in
           match k, rest with
           | Stop, _ => (ev, ws)
           | AfterNext, _ :: rest' => let '(ev', ops) := arguments ds rest' in (ev ++ ev', ops)
           | _, _ => let '(ev', ops) := arguments ds rest in (ev ++ ev', ops)
           end
  end.

(** What the program sees of an event. *)
Definition shows (quiet : bool) (e : event) (o : seen) : Prop :=
  match e with
  | Option_ c v => seen_ret o = sc c /\ seen_optarg o = v
  | Unknown c => seen_ret o = sc "?" /\ seen_optopt o = sc c
  | Missing c => seen_ret o = sc (if quiet then ":" else "?") /\ seen_optopt o = sc c
  end.
(** What the user sees of it. *)
Definition message (posix : bool) (e : event) : list str :=
  match e with
  | Option_ _ _ => []
  | Unknown c => [lit (if posix then "illegal option -- " else "invalid option -- ") ++ [c]]
  | Missing c => [lit "option requires an argument -- " ++ [c]]
  end.

Section Loop.
Context (posix opterr quiet : bool) (ds : list (ascii * want)).
Hypothesis Hds : forall d, In d ds -> letter (fst d).
Let opts := optstring quiet ds.
Let heard (e : list event) : list str := if opterr && negb quiet then flat_map (message posix) e else [].

Lemma strchr_letters c : c <> ":"%char -> forall l, (forall d, In d l -> letter (fst d)) -> match wanted l c with
  | None => strchr (optstring false l) c = None
  | Some w => exists r, strchr (optstring false l) c = Some (c :: match w with NoValue => [] | Value => lit ":" | MaybeValue => lit "::" end ++ r) /\ hd0 r <> ":"%char
  end.
Proof.
  intros Hc. induction l as [|[d w] l IH]; intros Hl; [reflexivity|]. cbn [wanted optstring flat_map fst snd app strchr].
  assert (IH' := IH (fun d H => Hl d (or_intror H))). cbn [optstring app] in IH'.
  destruct (ceqb_spec d c) as [->|Hd].
  - exists (optstring false l). split; [reflexivity|]. destruct l as [|[d' w'] l']; [discriminate|].
    cbn. destruct (Hl (d', w')) as (_ & H & _); [right; left; reflexivity|exact H].
  - assert (E : strchr ((match w with NoValue => [] | Value => lit ":" | MaybeValue => lit "::" end) ++
        flat_map (fun d0 => fst d0 :: match snd d0 with NoValue => [] | Value => lit ":" | MaybeValue => lit "::" end) l) c =
      strchr (flat_map (fun d0 => fst d0 :: match snd d0 with NoValue => [] | Value => lit ":" | MaybeValue => lit "::" end) l) c).
    { assert (E1 : ceqb ":" c = false) by (apply ceqb_neq; congruence). destruct w; cbn [lit list_ascii_of_string app strchr]; rewrite ?E1; reflexivity. }
    rewrite E. exact IH'.
Qed.
Lemma strchr_opts c : c <> ":"%char -> match wanted ds c with
  | None => strchr opts c = None
  | Some w => exists r, strchr opts c = Some (c :: match w with NoValue => [] | Value => lit ":" | MaybeValue => lit "::" end ++ r) /\ hd0 r <> ":"%char
  end.
Proof.
  intros Hc. assert (E : strchr opts c = strchr (optstring false ds) c).
  { unfold opts, optstring. destruct quiet; [|reflexivity]. cbn [app strchr]. assert (E1 : ceqb ":" c = false) by (apply ceqb_neq; congruence). rewrite E1. reflexivity. }
  rewrite E. apply strchr_letters; auto.
Qed.
Lemma wanted_letter c w l : (forall d, In d l -> letter (fst d)) -> wanted l c = Some w -> letter c.
Proof.
  intros Hl. induction l as [|[d w'] l IH]; [discriminate|]. cbn [wanted]. destruct (ceqb_spec d c) as [->|Hd].
  - intros _. apply (Hl (c, w')). left. reflexivity.
  - apply IH. intros d' H. apply Hl. right. exact H.
Qed.
Lemma opts_print : PRINT_ERROR opterr opts = opterr && negb quiet.
Proof.
  unfold PRINT_ERROR, opts, optstring. destruct quiet; [reflexivity|]. destruct ds as [|[d w] l]; [reflexivity|]. cbn [flat_map app fst hd0].
  destruct (Hds (d, w)) as (_ & H & _); [left; reflexivity|]. cbn [fst] in H. apply ceqb_neq in H. rewrite H. reflexivity.
Qed.
Lemma opts_first : ceqb (hd0 opts) "+" = false /\ ceqb (hd0 opts) "-" = false.
Proof.
  unfold opts, optstring. destruct quiet; [split; reflexivity|]. destruct ds as [|[d w] l]; [split; reflexivity|]. cbn [flat_map app fst hd0].
  destruct (Hds (d, w)) as (_ & _ & H1 & H2 & _); [left; reflexivity|]. cbn [fst] in *. split; apply ceqb_neq; assumption.
Qed.
Lemma opts_badarg : BADARG opts = sc (if quiet then ":" else "?").
Proof.
  unfold BADARG, opts, optstring. destruct quiet; [reflexivity|]. destruct ds as [|[d w] l]; [reflexivity|]. cbn [flat_map app fst].
  destruct (Hds (d, w)) as (_ & H & _); [left; reflexivity|]. cbn [fst] in H. apply ceqb_neq in H. rewrite H. reflexivity.
Qed.

Record at_word (pre ws : list str) (s : gst) : Prop := {
  w_argv : nargv s = pre ++ ws; w_ind : optind s = zlen pre; w_pre : 0 < zlen pre;
  w_posix : posixly s = if posix then 1 else 0; w_new : optreset s = true \/ place s = [] /\ nonopt_start s = -1 /\ nonopt_end s = -1 }.
Record in_word (pre : list str) (w : str) (rest : list str) (cs : str) (s : gst) : Prop := {
  i_argv : nargv s = pre ++ w :: rest; i_ind : optind s = zlen pre; i_pre : 0 < zlen pre;
  i_posix : posixly s = (if posix then 1 else 0); i_reset : optreset s = false; i_place : place s = cs; i_arg : optarg s = None;
  i_start : nonopt_start s = -1; i_end : nonopt_end s = -1 }.

Lemma sc_one c : letter c -> sc c <> -1.
Proof. intros (_ & _ & _ & _ & H). unfold sc. pose proof (uc_range c). destruct (Z.ltb_spec (uc c) 128); lia. Qed.

(** One call in the middle of an argument. *)
Ltac at_next := repeat match goal with x := set_place _ _ _ |- _ => subst x end; constructor; [cbn; rewrite <- app_assoc; assumption | cbn [optind set_optind set_optopt set_optarg set_place EMSG]; rewrite zlen_app; unfold zlen in *; cbn [List.length]; lia |
  rewrite zlen_app; unfold zlen in *; cbn [List.length]; lia | assumption | right; repeat split; assumption].
Lemma short_step pre w rest c r s : in_word pre w rest (c :: r) s ->
  exists ret s', gi_short_w opterr (zlen (nargv s)) None false opts s = (Ok (ret, s'), heard (firstn 1 (fst (cluster ds (c :: r) (hd_error rest))))) /\
  nargv s' = nargv s /\
  match cluster ds (c :: r) (hd_error rest) with
  | ([], k) => ret = -1 /\ optind s' = zlen pre /\ k = Stop
  | (e :: ev, k) => ret <> -1 /\ shows quiet e (see ret s') /\
      ((exists r' , r' <> [] /\ r = r' /\ cluster ds r' (hd_error rest) = (ev, k) /\ in_word pre w rest r s') \/
       (ev = [] /\ k = Next /\ at_word (pre ++ [w]) rest s' /\ optreset s' = false) \/
       (ev = [] /\ k = AfterNext /\ exists v rest', rest = v :: rest' /\ at_word (pre ++ [w; v]) rest' s' /\ optreset s' = false))
  end.
Proof.
  intros [Ha Hi Hp Hx Hr Hpl Ho Hns Hne]. unfold gi_short_w. rewrite Hpl. cbv zeta.
  set (atend := match r with [] => true | _ => false end). set (s1 := set_place _ r s).
  assert (Hlen : zlen (nargv s) = zlen pre + 1 + zlen rest) by (rewrite Ha, zlen_app, zlen_cons; lia).
  (* an unknown character *)
  assert (Hunk : wanted ds c = None ->
    exists ret s', (if ceqb c "-" && atend then mute (Ok (-1, s1))
        else _ <~ warn opterr opts (if negb (posixly s1 =? 0) then illoptchar c else gnuoptchar c) ;;
             mute (Ok (BADCH, set_optopt (sc c) (if atend then set_optind (optind s1 + 1) s1 else s1)))) =
      (Ok (ret, s'), heard (firstn 1 (fst (cluster ds (c :: r) (hd_error rest))))) /\ nargv s' = nargv s /\
      match cluster ds (c :: r) (hd_error rest) with
      | ([], k) => ret = -1 /\ optind s' = zlen pre /\ k = Stop
      | (e :: ev, k) => ret <> -1 /\ shows quiet e (see ret s') /\
          ((exists r' , r' <> [] /\ r = r' /\ cluster ds r' (hd_error rest) = (ev, k) /\ in_word pre w rest r s') \/
           (ev = [] /\ k = Next /\ at_word (pre ++ [w]) rest s' /\ optreset s' = false) \/
           (ev = [] /\ k = AfterNext /\ exists v rest', rest = v :: rest' /\ at_word (pre ++ [w; v]) rest' s' /\ optreset s' = false))
      end).
  { intros Hn. cbn [cluster]. rewrite Hn. destruct (ceqb c "-" && atend) eqn:Ed.
    - unfold atend in Ed. rewrite Ed. exists (-1), s1. split; [|split; [reflexivity|split; [reflexivity|split; [exact Hi|reflexivity]]]]. unfold heard, mute. cbn. destruct (opterr && negb quiet); reflexivity.
    - unfold atend in Ed. rewrite Ed. destruct (cluster ds r (hd_error rest)) as [ev k] eqn:Ec. cbn [fst firstn].
      eexists _, _. split.
      { unfold sbind, warn, mute. cbn [fst snd app]. rewrite app_nil_r, opts_print. unfold heard. cbn [flat_map app].
        assert (Em : (if negb (posixly s1 =? 0) then illoptchar c else gnuoptchar c) = lit (if posix then "illegal option -- " else "invalid option -- ") ++ [c]).
        { change (posixly s1) with (posixly s). rewrite Hx. destruct posix; reflexivity. }
        rewrite Em. reflexivity. }
      destruct r as [|c' r'].
      + cbn [cluster] in Ec. injection Ec as <- <-. cbn [atend]. split; [reflexivity|]. split; [discriminate|]. split; [split; reflexivity|]. right. left.
        split; [reflexivity|]; split; [reflexivity|]; split; [at_next|exact Hr].
      + cbn [atend]. split; [reflexivity|]. split; [discriminate|]. split; [split; reflexivity|]. left. exists (c' :: r'). split; [discriminate|]. split; [reflexivity|].
        split; [exact Ec|]. constructor; cbn; auto. }
  destruct (ceqb_spec c ":") as [->|Hc].
  { cbn [orb]. apply Hunk. destruct (wanted ds ":") eqn:E; [|reflexivity]. destruct (wanted_letter _ _ _ Hds E) as (_ & H & _). congruence. }
  cbn [orb]. pose proof (strchr_opts c Hc) as Hs. destruct (wanted ds c) as [wt|] eqn:Ew.
  2:{ rewrite Hs. specialize (Hunk eq_refl). destruct (ceqb c "-" && negb atend); exact Hunk. }
  clear Hunk. pose proof (wanted_letter _ _ _ Hds Ew) as HL. pose proof (sc_one c HL) as Hone. destruct HL as (_ & _ & Hd & _).
  apply ceqb_neq in Hd. rewrite Hd. cbn [andb]. destruct Hs as (q & -> & Hq). cbn [tl]. cbn [cluster]. rewrite Ew.
  destruct wt; cbn [app lit list_ascii_of_string hd0 tl].
  - (* no value *)
    apply ceqb_neq in Hq. rewrite Hq. cbn [negb]. destruct (cluster ds r (hd_error rest)) as [ev k] eqn:Ec. cbn [fst firstn].
    eexists _, _. split; [unfold mute, heard; destruct (opterr && negb quiet); reflexivity|].
    destruct r as [|c' r'].
    + cbn [cluster] in Ec. injection Ec as <- <-. cbn [atend]. split; [reflexivity|]. split; [exact Hone|]. split; [split; [reflexivity|exact Ho]|]. right. left.
      split; [reflexivity|]; split; [reflexivity|]; split; [at_next|exact Hr].
    + cbn [atend]. split; [reflexivity|]. split; [exact Hone|]. split; [split; [reflexivity|exact Ho]|]. left. exists (c' :: r').
      split; [discriminate|]. split; [reflexivity|]. split; [exact Ec|]. constructor; cbn; auto.
  - (* a value *)
    change (ceqb ":" ":") with true. cbn [negb]. destruct r as [|c' r']; cbn [atend negb].
    + apply ceqb_neq in Hq. rewrite Hq. cbn [negb].
      change (nargv (set_place (place_off s + 1) [] s)) with (nargv s).
      change (optind (set_optind (optind (set_optarg None s1) + 1) (set_optarg None s1))) with (optind s + 1).
      rewrite Hlen, Hi. destruct rest as [|v rest].
      * cbn [hd_error]. rewrite zlen_nil. destruct (Z.leb_spec (zlen pre + 1 + 0) (zlen pre + 1)); [|lia].
        eexists _, _. split; [unfold sbind, warn, mute; cbn [fst snd app]; rewrite app_nil_r, opts_print; unfold heard; reflexivity|].
        cbn [fst]. split; [reflexivity|]. split; [rewrite opts_badarg; destruct quiet; discriminate|].
        split; [split; [apply opts_badarg|reflexivity]|]. right. left.
        split; [reflexivity|]; split; [reflexivity|]; split; [at_next|exact Hr].
      * cbn [hd_error]. rewrite zlen_cons. pose proof (zlen_nonneg rest). destruct (Z.leb_spec (zlen pre + 1 + (zlen rest + 1)) (zlen pre + 1)); [lia|].
        assert (Eg : nargv_get (set_optind (optind (set_optarg None s1) + 1) (set_optarg None s1)) (zlen pre + 1) = Ok (Some v)).
        { replace (zlen pre + 1) with (zlen (pre ++ [w])) by (rewrite zlen_app, zlen_cons, zlen_nil; lia). apply nargv_get_app with (rest := rest).
          cbn. rewrite Ha, <- app_assoc. reflexivity. }
        rewrite Eg. eexists _, _. split; [unfold sbind, mute; cbn [fst snd app]; unfold heard; destruct (opterr && negb quiet); reflexivity|].
        cbn [fst]. split; [reflexivity|]. split; [exact Hone|]. split; [split; reflexivity|]. right. right. split; [reflexivity|]. split; [reflexivity|].
        exists v, rest. split; [reflexivity|]. split; [at_next|exact Hr].
    + eexists _, _. split; [unfold mute, heard; destruct (opterr && negb quiet); reflexivity|].
      cbn [fst]. split; [reflexivity|]. split; [exact Hone|]. split; [split; reflexivity|]. right. left.
      split; [reflexivity|]; split; [reflexivity|]; split; [at_next|exact Hr].
  - (* an optional value *)
    change (ceqb ":" ":") with true. cbn [negb]. destruct r as [|c' r']; cbn [atend negb].
    + eexists _, _. split; [unfold mute, heard; destruct (opterr && negb quiet); reflexivity|].
      cbn [fst]. split; [reflexivity|]. split; [exact Hone|]. split; [split; reflexivity|]. right. left.
      split; [reflexivity|]; split; [reflexivity|]; split; [at_next|exact Hr].
    + eexists _, _. split; [unfold mute, heard; destruct (opterr && negb quiet); reflexivity|].
      cbn [fst]. split; [reflexivity|]. split; [exact Hone|]. split; [split; reflexivity|]. right. left.
      split; [reflexivity|]; split; [reflexivity|]; split; [at_next|exact Hr].
Qed.

Lemma call_in_word g pre w rest cs s : in_word pre w rest cs s -> cs <> [] ->
  getopt_w posix opterr (S g) (zlen (nargv s)) (Some opts) s = gi_short_w opterr (zlen (nargv s)) None false opts s.
Proof.
  intros [Ha Hi Hp Hx Hr Hpl Ho Hns Hne] Hcs. unfold getopt_w, getopt_internal_w. destruct opts_first as [-> ->]. cbn [orb].
  destruct (Z.eqb_spec (optind s) 0); [lia|]. rewrite Hr, Hx. replace ((if posix then 1 else 0) =? -1) with false by (destruct posix; reflexivity). cbn [orb].
  change (optreset (set_optarg None s)) with (optreset s). rewrite Hr. cbn iota.
  assert (Es : set_optarg None s = s) by (destruct s; cbn in *; subst; reflexivity). rewrite Es.
  cbn [gi_start_w]. rewrite Hr, Hpl. destruct cs; [congruence|]. reflexivity.
Qed.
Lemma call_at_word g pre ws s : at_word pre ws s ->
  match ws with
  | [] => exists s', getopt_w posix opterr (S g) (zlen (nargv s)) (Some opts) s = mute (Ok (-1, s')) /\ nargv s' = nargv s /\ optind s' = optind s
  | w :: rest =>
      if is_operand w then exists s', getopt_w posix opterr (S g) (zlen (nargv s)) (Some opts) s = mute (Ok (-1, s')) /\ nargv s' = nargv s /\ optind s' = optind s
      else if str_eqb w (lit "--") then exists s', getopt_w posix opterr (S g) (zlen (nargv s)) (Some opts) s = mute (Ok (-1, s')) /\ nargv s' = nargv s /\ optind s' = optind s + 1
      else exists s', in_word pre w rest (tl w) s' /\ nargv s' = nargv s /\
        getopt_w posix opterr (S g) (zlen (nargv s)) (Some opts) s = gi_short_w opterr (zlen (nargv s)) None false opts s'
  end.
Proof.
  intros [Ha Hi Hp Hx Hnew].
  assert (Eall : exists s1, getopt_w posix opterr (S g) (zlen (nargv s)) (Some opts) s =
      gi_start_w opterr (zlen (nargv s)) None false (S g) opts false false s1 /\
    nargv s1 = nargv s /\ optind s1 = optind s /\ posixly s1 = posixly s /\ (optreset s1 = true \/ place s1 = []) /\ optarg s1 = None /\
    nonopt_start s1 = -1 /\ nonopt_end s1 = -1).
  { unfold getopt_w, getopt_internal_w. destruct opts_first as [-> ->]. cbn [orb]. destruct (Z.eqb_spec (optind s) 0); [lia|].
    set (s2 := if (posixly s =? -1) || optreset s then set_posixly (if posix then 1 else 0) s else s).
    assert (E2 : s2 = s) by (unfold s2; destruct ((posixly s =? -1) || optreset s); [destruct s; cbn in *; subst; reflexivity|reflexivity]).
    rewrite E2. eexists. split; [destruct (negb (posixly s =? 0) || false); reflexivity|].
    change (optreset (set_optarg None s)) with (optreset s). destruct (optreset s) eqn:Er; [repeat split; auto|].
    destruct Hnew as [?|(? & ? & ?)]; [congruence|]. repeat split; auto. }
  destruct Eall as (s1 & -> & En & Ei & Epx & Enew & Eo & Ens & Ene). cbn [gi_start_w].
  assert (Ecnd : optreset s1 || match place s1 with [] => true | _ => false end = true) by (destruct Enew as [->| ->]; [reflexivity|apply orb_true_r]).
  rewrite Ecnd. clear Ecnd Enew. change (optind (set_optreset false s1)) with (optind s1). rewrite Ei, Hi.
  assert (Hlen : zlen (nargv s) = zlen pre + zlen ws) by (rewrite Ha, zlen_app; lia). 
  assert (Eend : forall s', nonopt_end s' = -1 -> nonopt_start s' = -1 -> optind s' = optind s1 -> nargv s' = nargv s1 ->
    forall k, (forall x, k x = mute (Ok (-1, set_nonopt (-1) (-1) x))) ->
    sbind (mute (if negb (nonopt_end s' =? -1) then
                  v <- permute_args (nonopt_start s') (nonopt_end s') (optind s') (nargv s') ;;
                  Ok (set_optind (optind s' - (nonopt_end s' - nonopt_start s')) (set_nargv v s'))
                else if negb (nonopt_start s' =? -1) then Ok (set_optind (nonopt_start s') s')
                else Ok s')) k = mute (Ok (-1, set_nonopt (-1) (-1) s'))).
  { intros s' E1 E2 _ _ k Hk. rewrite E1, E2. cbn [negb Z.eqb Pos.eqb]. unfold sbind, mute. cbn [fst snd app]. rewrite Hk. reflexivity. }
  destruct ws as [|w rest].
  { rewrite Hlen, zlen_nil. destruct (Z.leb_spec (zlen pre + 0) (zlen pre)); [|lia]. eexists. split; [apply Eend; auto|]. cbn. split; congruence. }
  rewrite Hlen, zlen_cons. pose proof (zlen_nonneg rest). destruct (Z.leb_spec (zlen pre + (zlen rest + 1)) (zlen pre)); [lia|].
  rewrite (nargv_get_app (set_optreset false s1) pre w rest) by (cbn; congruence). rewrite sbind_ok.
  destruct (is_operand w) eqn:Eop.
  { assert (Et : negb (ceqb (hd0 w) "-") || match tl w with [] => true | _ => false end = true).
    { destruct w as [|c r]; [reflexivity|exact Eop]. }
    rewrite Et. eexists. split; [reflexivity|]. cbn. split; congruence. }
  destruct w as [|c r]; [discriminate|]. cbn [is_operand] in Eop. cbn [hd0 tl]. rewrite Eop.
  change (nonopt_start (set_optreset false s1)) with (nonopt_start s1). rewrite Ens. cbn [negb Z.eqb Pos.eqb andb].
  apply orb_false_iff in Eop as [Ec Er]. apply negb_false_iff, ceqb_eq in Ec. subst c.
  assert (Edd : str_eqb ("-"%char :: r) (lit "--") = ceqb (hd0 r) "-" && match tl r with [] => true | _ => false end).
  { destruct r as [|c' r']; [discriminate|]. cbn. destruct (ceqb c' "-"); [|reflexivity]. destruct r'; reflexivity. }
  rewrite Edd. destruct (ceqb (hd0 r) "-" && _).
  - eexists. cbn [nonopt_end nonopt_start EMSG set_optind set_place set_optreset]. rewrite Ene. cbn [negb Z.eqb Pos.eqb]. rewrite sbind_ok. split; [reflexivity|].
    cbn. split; congruence.
  - eexists. split; [|split; [|reflexivity]].
    + constructor; cbn; try congruence. 
    + cbn. congruence.
Qed.


Definition carry_on (w : str) (rest : list str) (r : list event * onward) : list event * list str :=
  let '(ev, k) := r in
  match k, rest with
  | Stop, _ => (ev, w :: rest)
  | AfterNext, _ :: rest' => let '(ev', ops) := arguments ds rest' in (ev ++ ev', ops)
  | _, _ => let '(ev', ops) := arguments ds rest in (ev ++ ev', ops)
  end.
Definition outcome (m : said (list seen * gst)) (s : gst) (r : list event * list str) : Prop :=
  exists l s', m = (Ok (l, s'), heard (fst r)) /\ Forall2 (shows quiet) (fst r) l /\ nargv s' = nargv s /\ optind s' = zlen (nargv s) - zlen (snd r).
Lemma heard_nil : heard [] = [].
Proof. unfold heard. destruct (opterr && negb quiet); reflexivity. Qed.
Lemma heard_cons e ev : heard (e :: ev) = heard [e] ++ heard ev.
Proof. unfold heard. destruct (opterr && negb quiet); [|reflexivity]. cbn [flat_map]. rewrite app_nil_r. reflexivity. Qed.
Lemma outcome_cons m s s1 e o r : outcome m s1 r -> nargv s1 = nargv s -> shows quiet e o ->
  outcome ('(l, s') <~ (fst m, heard [e] ++ snd m) ;; mute (Ok (o :: l, s'))) s (e :: fst r, snd r).
Proof.
  intros (l & s' & -> & Hl & Hn & Hi) E He. exists (o :: l), s'. cbn [sbind fst snd mute]. rewrite app_nil_r, <- heard_cons.
  split; [reflexivity|]. split; [constructor; assumption|]. rewrite <- E. split; assumption.
Qed.
Lemma carry_cons w rest e ev k : carry_on w rest (e :: ev, k) = (e :: fst (carry_on w rest (ev, k)), snd (carry_on w rest (ev, k))).
Proof. unfold carry_on. destruct k, rest as [|v rest]; try reflexivity; destruct (arguments ds _); reflexivity. Qed.
Lemma run : forall f,
  (forall pre w rest cs s, in_word pre w rest cs s -> cs <> [] -> (List.length cs + List.length (List.concat rest) < f)%nat ->
     outcome (scan_all (call_getopt posix opterr opts) f s) s (carry_on w rest (cluster ds cs (hd_error rest)))) /\
  (forall pre ws s, at_word pre ws s -> (List.length (List.concat ws) < f)%nat ->
     outcome (scan_all (call_getopt posix opterr opts) f s) s (arguments ds ws)).
Proof.
  induction f as [|f [IHB IHA]]; [split; intros; lia|].
  assert (step : forall pre w rest cs s s0, in_word pre w rest cs s0 -> nargv s0 = nargv s -> cs <> [] -> (List.length cs + List.length (List.concat rest) < S f)%nat ->
    call_getopt posix opterr opts s = gi_short_w opterr (zlen (nargv s)) None false opts s0 ->
    outcome (scan_all (call_getopt posix opterr opts) (S f) s) s (carry_on w rest (cluster ds cs (hd_error rest)))).
  { intros pre w rest cs s s0 Hin En Hcs Hf Ecall. cbn [scan_all]. rewrite Ecall, <- En. destruct cs as [|c r]; [congruence|].
    destruct (short_step pre w rest c r s0 Hin) as (ret & s' & -> & Hn' & Hcase).
    destruct (cluster ds (c :: r) (hd_error rest)) as [[|e ev] k] eqn:Ecl.
    - destruct Hcase as (-> & Hi' & ->). cbn [fst firstn]. exists [], s'. cbn [carry_on fst snd].
      split; [unfold sbind, mute; cbn [fst snd]; change (-1 =? -1) with true; cbn [fst snd]; rewrite app_nil_r; reflexivity|]. split; [constructor|]. split; [congruence|].
      rewrite Hi', <- En, (i_argv _ _ _ _ _ Hin), zlen_app, zlen_cons. lia.
    - destruct Hcase as (Hret & Hsh & Hcase). apply Z.eqb_neq in Hret. rewrite carry_cons. cbn [fst firstn].
      assert (Hm : outcome (scan_all (call_getopt posix opterr opts) f s') s' (carry_on w rest (ev, k))).
      { destruct Hcase as [(r' & Hr' & -> & Ec & Hin')|[(-> & -> & Hat & _)|(-> & -> & v & rest' & -> & Hat & _)]].
        - rewrite <- Ec. apply (IHB pre); auto. cbn [List.length] in Hf. lia.
        - unfold carry_on. destruct (arguments ds rest) as [ev' ops] eqn:Ea. cbn [app]. rewrite <- Ea. apply (IHA (pre ++ [w])); auto. cbn [List.length] in Hf. lia.
        - unfold carry_on. destruct (arguments ds rest') as [ev' ops] eqn:Ea. cbn [app]. rewrite <- Ea. apply (IHA (pre ++ [w; v])); auto.
          cbn [List.length List.concat] in Hf. rewrite app_length in Hf. lia. }
      pose proof (outcome_cons _ s s' e (see ret s') _ Hm ltac:(congruence) Hsh) as Ho.
      assert (Eq : sbind (Ok (ret, s'), heard [e]) (fun x => let '(r0, s2) := x in
         if r0 =? -1 then mute (Ok ([], s2))
         else '(l, s'0) <~ scan_all (call_getopt posix opterr opts) f s2;; mute (Ok (see r0 s2 :: l, s'0))) =
        '(l, s'0) <~ (fst (scan_all (call_getopt posix opterr opts) f s'), heard [e] ++ snd (scan_all (call_getopt posix opterr opts) f s')) ;; mute (Ok (see ret s' :: l, s'0))).
      { cbn [sbind fst snd]. rewrite Hret. destruct (scan_all (call_getopt posix opterr opts) f s') as [[[l s2]| |] ms]; cbn [sbind fst snd mute]; rewrite ?app_nil_r; reflexivity. }
      rewrite Eq. exact Ho. }
  split.
  - intros pre w rest cs s Hin Hcs Hf. apply (step pre w rest cs s s Hin eq_refl Hcs Hf). apply call_in_word with (1 := Hin); assumption.
  - intros pre ws s Hat Hf. pose proof (call_at_word (List.length (nargv s)) pre ws s Hat) as Hc.
    assert (stop : forall s' ops, call_getopt posix opterr opts s = mute (Ok (-1, s')) ->
      nargv s' = nargv s -> optind s' = zlen (nargv s) - zlen ops -> outcome (scan_all (call_getopt posix opterr opts) (S f) s) s ([], ops)).
    { intros s' ops E1 E2 E3. exists [], s'. cbn [scan_all]. rewrite E1. cbn [fst snd]. rewrite heard_nil, sbind_ok. change (-1 =? -1) with true. split; [reflexivity|auto]. }
    assert (Hlen : zlen (nargv s) = zlen pre + zlen ws) by (rewrite (w_argv _ _ _ Hat), zlen_app; lia). pose proof (w_ind _ _ _ Hat) as Hi.
    destruct ws as [|w rest].
    + destruct Hc as (s' & E1 & E2 & E3). apply (stop s'); auto. rewrite zlen_nil in *. lia.
    + cbn [arguments]. destruct (is_operand w) eqn:Eop.
      { destruct Hc as (s' & E1 & E2 & E3). apply (stop s'); auto. rewrite zlen_cons in *. lia. }
      destruct (str_eqb w (lit "--")).
      { destruct Hc as (s' & E1 & E2 & E3). apply (stop s'); auto. rewrite zlen_cons in *. lia. }
      destruct Hc as (s0 & Hin & En & Ecall). apply (step pre w rest (tl w) s s0 Hin En); auto.
      * destruct w as [|c [|c' r]]; cbn in Eop; try discriminate. rewrite orb_true_r in Eop. discriminate.
      * cbn [List.concat] in Hf. rewrite app_length in Hf. destruct w; cbn [tl List.length] in *; [discriminate|lia].
Qed.
End Loop.

(** ** getopt *)
(** The state in which a program begins to scan [words], its main's argv: it has set optind to 0, or has set optreset, or calls for the first
    time. *)
Definition begins (words : list str) (s : gst) : Prop :=
  nargv s = words /\
  (optind s = 0 \/ optind s = 1 /\ (optreset s = true \/ posixly s = -1 /\ place s = [] /\ nonopt_start s = -1 /\ nonopt_end s = -1)).
(** The same state after the first lines of getopt_internal. *)
Definition begun (posix : bool) (s : gst) : gst :=
  set_posixly (if posix then 1 else 0) (if optind s =? 0 then set_optreset true (set_optind 1 s) else s).
Lemma begun_at posix prog args s : begins (prog :: args) s -> at_word posix [prog] args (begun posix s).
Proof.
  intros [Ha Hb]. unfold begun. destruct (Z.eqb_spec (optind s) 0) as [E|E].
  - constructor; cbn; auto; reflexivity.
  - destruct Hb as [?|[Hi Hb]]; [contradiction|]. constructor; cbn; auto; try reflexivity. destruct Hb as [?|(_ & ? & ? & ?)]; auto.
Qed.
Definition prologue (posix : bool) (s : gst) : gst :=
  let s := if optind s =? 0 then set_optreset true (set_optind 1 s) else s in
  if (posixly s =? -1) || optreset s then set_posixly (if posix then 1 else 0) s else s.
Lemma begun_prologue posix words s : begins words s -> prologue posix (begun posix s) = prologue posix s.
Proof.
  intros [Ha Hb]. unfold prologue, begun. destruct (Z.eqb_spec (optind s) 0) as [E|E].
  - cbn. rewrite !orb_true_r. reflexivity.
  - destruct Hb as [?|[Hi Hb]]; [contradiction|]. destruct s; cbn in *; subst. cbn. destruct Hb as [->|(-> & _)].
    + rewrite !orb_true_r. reflexivity.
    + destruct posix, optreset; reflexivity.
Qed.
Lemma begun_internal posix o nargc lopts longonly g options permute words s : begins words s ->
  getopt_internal_w posix o nargc lopts longonly g (Some options) permute (begun posix s) = getopt_internal_w posix o nargc lopts longonly g (Some options) permute s.
Proof. intros H. unfold getopt_internal_w. cbv zeta. fold (prologue posix s) (prologue posix (begun posix s)). rewrite (begun_prologue _ _ _ H). reflexivity. Qed.

Lemma arguments_suffix ds ws : exists pre, ws = pre ++ snd (arguments ds ws).
Proof.
  remember (List.length ws) as n eqn:En. assert (Hn : (List.length ws <= n)%nat) by lia. clear En. revert ws Hn. induction n as [|n IH]; intros ws Hn.
  { destruct ws; [exists []; reflexivity|cbn in Hn; lia]. }
  destruct ws as [|w rest]; [exists []; reflexivity|]. cbn [arguments]. destruct (is_operand w); [exists []; reflexivity|].
  destruct (str_eqb w (lit "--")); [exists [w]; reflexivity|]. destruct (cluster ds (tl w) (hd_error rest)) as [ev k].
  cbn [List.length] in Hn.
  assert (Hr : exists pre, w :: rest = pre ++ snd (let '(ev', ops) := arguments ds rest in (ev ++ ev', ops))).
  { destruct (IH rest ltac:(lia)) as [pre Ep]. exists (w :: pre). destruct (arguments ds rest). cbn [snd app] in *. congruence. }
  destruct k, rest as [|v rest']; try exact Hr; try (exists []; reflexivity).
  destruct (IH rest' ltac:(cbn in Hn; lia)) as [pre Ep]. exists (w :: v :: pre). destruct (arguments ds rest'). cbn [snd app] in *. congruence.
Qed.

Theorem C84_getopt posix opterr quiet ds prog args s fuel :
  (forall d, In d ds -> letter (fst d)) ->
  begins (prog :: args) s ->
  (List.length (List.concat args) < fuel)%nat ->
  exists l s',
    scan_all (call_getopt posix opterr (optstring quiet ds)) fuel s =
      (Ok (l, s'), if opterr && negb quiet then flat_map (message posix) (fst (arguments ds args)) else []) /\
    Forall2 (shows quiet) (fst (arguments ds args)) l /\
    nargv s' = prog :: args /\
    skipn (Z.to_nat (optind s')) (prog :: args) = snd (arguments ds args).
Proof.
  intros Hds Hb Hf. destruct (run posix opterr quiet ds Hds fuel) as [_ HA].
  destruct (HA [prog] args (begun posix s) (begun_at _ _ _ _ Hb) Hf) as (l & s' & E & Hl & Hn & Hi).
  exists l, s'. assert (En : nargv (begun posix s) = prog :: args).
  { destruct Hb as [<- _]. unfold begun. destruct (optind s =? 0); reflexivity. }
  rewrite En in *. split; [|split; [exact Hl|split; [exact Hn|]]].
  - destruct fuel as [|f]; [lia|]. rewrite <- E. cbn [scan_all].
    assert (Ec : call_getopt posix opterr (optstring quiet ds) s = call_getopt posix opterr (optstring quiet ds) (begun posix s)).
    { unfold call_getopt, getopt_w. rewrite (begun_internal _ _ _ _ _ _ _ _ _ _ Hb), En. destruct Hb as [-> _]. reflexivity. }
    rewrite Ec. reflexivity.
  - rewrite Hi. destruct (arguments_suffix ds args) as [pre Ep]. clear - Ep. revert Ep. generalize (snd (arguments ds args)) as ops. intros ops ->.
    rewrite zlen_cons, zlen_app. replace (zlen pre + zlen ops + 1 - zlen ops) with (zlen pre + 1) by lia.
    replace (Z.to_nat (zlen pre + 1)) with (S (List.length pre)) by (unfold zlen; lia). cbn [skipn]. rewrite skipn_app, skipn_all, Nat.sub_diag. reflexivity.
Qed.

(** ** One line for each question mark *)
(** An argument that ends in a dash though it is not the dash alone or the separator. *)
Definition ends_dash (w : str) : Prop := exists r, w = r ++ ["-"%char].
Definition tame (w : str) : Prop := w = lit "-" \/ w = lit "--" \/ ~ ends_dash w.
Definition keeps (s : gst) : Prop := Forall tame (nargv s) /\ ~ ends_dash (place s).
Lemma ends_nil : ~ ends_dash [].
Proof. intros [r E]. destruct r; discriminate. Qed.
Lemma ends_tl c w : ~ ends_dash (c :: w) -> ~ ends_dash w.
Proof. intros H [r ->]. apply H. exists (c :: r). reflexivity. Qed.
Lemma aget_in {A} (l : list A) i x : aget l i = Ok x -> In x l.
Proof. unfold aget. destruct (i <? 0); [discriminate|]. destruct (nth_error l (Z.to_nat i)) eqn:E; [|discriminate]. intros [= <-]. eapply nth_error_In; eauto. Qed.
Lemma lupd_in {A} (l : list A) i a x : In x (lupd l i a) -> x = a \/ In x l.
Proof.
  revert i. induction l as [|y l IH]; intros i; cbn [lupd]; [auto|]. destruct i; cbn [In]; [intros [->|]; auto|]. intros [->|H]; auto. destruct (IH _ H); auto.
Qed.
Lemma aset_forall {A} (P : A -> Prop) l i a l' : aset l i a = Ok l' -> Forall P l -> P a -> Forall P l'.
Proof.
  unfold aset. destruct (_ && _); [|discriminate]. intros [= <-] Hl Ha. rewrite Forall_forall in *. intros x Hx. destruct (lupd_in _ _ _ _ Hx); subst; auto.
Qed.
Lemma inner_forall {A} (P : A -> Prop) n : forall pe nn no cs pos v v', permute_inner n pe nn no cs pos v = Ok v' -> Forall P v -> Forall P v'.
Proof.
  induction n as [|n IH]; intros pe nn no cs pos v v'; cbn [permute_inner]; [intros [= <-]; auto|]. intros H Hv.
  apply bind_ok in H as (a & Ha & H). apply bind_ok in H as (b & Hb & H). apply bind_ok in H as (v1 & H1 & H). apply bind_ok in H as (v2 & H2 & H).
  pose proof Hv as Hv'. rewrite Forall_forall in Hv'. apply aget_in in Ha, Hb.
  eapply IH; [exact H|]. eapply aset_forall; [exact H2| |auto]. eapply aset_forall; [exact H1|auto|auto].
Qed.
Lemma permute_forall {A} (P : A -> Prop) a b c v v' : permute_args a b c v = Ok v' -> Forall P v -> Forall P v'.
Proof.
  unfold permute_args. intros H. apply bind_ok in H as (n & _ & H). destruct (n =? 0); [discriminate|]. revert H.
  generalize (Z.to_nat n) as m. generalize 0 as i. intros i m. revert i v. induction m as [|m IH]; intros i v; cbn [permute_outer]; [intros [= <-]; auto|].
  intros H Hv. apply bind_ok in H as (v1 & H1 & H). eapply IH; [exact H|]. eapply inner_forall; eauto.
Qed.

Section Lines.
Context (options : str) (lopts : option (list lopt)) (longonly : bool) (nargc : Z).
Hypothesis Hloud : ceqb (hd0 options) ":" = false.
Hypothesis Hq : ~ In "?"%char options.
Hypothesis Hlo : forall lo o, lopts = Some lo -> In o lo -> lo_flag o = false -> lo_val o <> 63.

Definition lines_to (K : gst -> Prop) (m : said (Z * gst)) : Prop :=
  forall r s', fst m = Ok (r, s') -> K s' /\ List.length (snd m) = if r =? 63 then 1%nat else 0%nat.
Notation lines := (lines_to keeps).
Lemma lines_mute (K : gst -> Prop) r s : K s -> r <> 63 -> lines_to K (mute (Ok (r, s))).
Proof. intros H Hr r' s' [= <- <-]. split; [exact H|]. apply Z.eqb_neq in Hr. rewrite Hr. reflexivity. Qed.
Lemma lines_warn (K : gst -> Prop) t r s : K s -> r = 63 -> lines_to K (_ <~ warn true options t ;; mute (Ok (r, s))).
Proof.
  intros H -> r' s' [= <- <-]. split; [exact H|]. unfold sbind, warn, PRINT_ERROR. rewrite Hloud. reflexivity.
Qed.
Lemma lines_fail {A} (K : gst -> Prop) (m : res A) k : (forall x, m = Ok x -> lines_to K (k x)) -> lines_to K (sbind (mute m) k).
Proof.
  intros H. destruct m as [x| |]; [rewrite sbind_ok; auto| |]; intros r s' E; discriminate.
Qed.
Lemma lines_bind (K K' : gst -> Prop) m k : lines_to K m -> (forall r s, K s -> r <> 63 -> lines_to K' (k (r, s))) ->
  (forall s, K s -> exists s', K' s' /\ k (63, s) = mute (Ok (63, s'))) -> lines_to K' (sbind m k).
Proof.
  intros Hm Hk Hk63 r' s' E. unfold sbind in *. destruct (fst m) as [[r s]| |] eqn:Em; [|discriminate|discriminate]. cbn [fst snd] in *.
  destruct (Hm r s Em) as [Hs Hn]. rewrite app_length, Hn. destruct (Z.eqb_spec r 63) as [->|Hr].
  - destruct (Hk63 s Hs) as (s2 & Hs2 & E2). rewrite E2 in *. injection E as <- <-. split; [exact Hs2|reflexivity].
  - destruct (Hk r s Hs Hr r' s' E) as [H1 H2]. split; [exact H1|exact H2].
Qed.
Lemma badarg : BADARG options = 63.
Proof. unfold BADARG. destruct options as [|c t]; [reflexivity|]. cbn in Hloud. rewrite Hloud. reflexivity. Qed.
Lemma long_search_in nm st lo : forall i m0 sec i' o ex sec', long_search nm st longonly lo i m0 sec = (Some (i', o), ex, sec') -> In o lo \/ m0 = Some (i', o).
Proof.
  induction lo as [|x lo IH]; intros i m0 sec i' o ex sec'; cbn [long_search].
  - intros [= -> _ _]. auto.
  - destruct (negb _); [intros H; destruct (IH _ _ _ _ _ _ _ H); [left; right; auto|auto]|].
    destruct (Nat.eqb _ _); [intros [= _ -> _ _]; left; left; reflexivity|].
    destruct (st && _); [intros H; destruct (IH _ _ _ _ _ _ _ H); [left; right; auto|auto]|].
    destruct m0 as [[j m]|]; intros H; destruct (IH _ _ _ _ _ _ _ H) as [H'|H']; [left; right; auto|right; auto|left; right; auto|].
    injection H' as -> ->. left. left. reflexivity.
Qed.
Definition stable (K : gst -> Prop) : Prop := forall s s', nargv s' = nargv s -> place s' = place s -> K s -> K s'.
Lemma lines_long (K : gst -> Prop) dash lo st s : stable K -> lopts = Some lo -> K s -> lines_to K (parse_long_options_w true dash options lo st longonly s).
Proof.
  intros HK Elo Hs.
  assert (HS : forall s', nargv s' = nargv s -> place s' = place s -> K s') by (intros s' H1 H2; exact (HK s s' H1 H2 Hs)). unfold parse_long_options_w. destruct (split_eq (place s)) as [nm he].
  destruct (long_search nm st longonly lo 0 None false) as [[mtch exact] second] eqn:Els. cbv zeta.
  destruct (negb exact && second); [apply lines_warn; [apply HS; reflexivity|reflexivity]|]. destruct mtch as [[i o]|].
  2:{ destruct st; [apply lines_mute; [apply HS; reflexivity|discriminate]|apply lines_warn; [apply HS; reflexivity|reflexivity]]. }
  assert (Ho : lo_flag o = false -> lo_val o <> 63).
  { apply long_search_in in Els as [H|H]; [|discriminate]. apply (Hlo lo); auto. }
  assert (Hrest : forall m, (forall x, m = Ok x -> K x) -> lines_to K (s0 <~ mute m ;; match lo_has_arg o =? 1, optarg s0 with
          | true, None => _ <~ warn true options (recargstring dash (place s)) ;;
              mute (Ok (BADARG options, set_optind (optind s0 - 1) (set_optopt (if lo_flag o then 0 else lo_val o) s0)))
          | _, _ => mute (if lo_flag o then Ok (0, set_getoptval (lo_val o) s0) else Ok (lo_val o, s0)) end)).
  { intros m Hm. apply lines_fail. intros x Hx. specialize (Hm x Hx).
    assert (lines_to K (mute (if lo_flag o then Ok (0, set_getoptval (lo_val o) x) else Ok (lo_val o, x)))).
    { destruct (lo_flag o) eqn:Ef; apply lines_mute; [apply (HK x); auto|discriminate|exact Hm|auto]. }
    destruct (lo_has_arg o =? 1), (optarg x); auto. apply lines_warn; [apply (HK x); auto|apply badarg]. }
  assert (Hm : forall x, (if (lo_has_arg o =? 1) || (lo_has_arg o =? 2) then
                  match he with
                  | Some v => Ok (set_optarg (Some v) (set_optind (optind s + 1) s))
                  | None => if lo_has_arg o =? 1 then
                              v <- nargv_get (set_optind (optind s + 1) s) (optind (set_optind (optind s + 1) s)) ;;
                              Ok (set_optarg v (set_optind (optind (set_optind (optind s + 1) s) + 1) (set_optind (optind s + 1) s)))
                            else Ok (set_optind (optind s + 1) s)
                  end
                else Ok (set_optind (optind s + 1) s)) = Ok x -> K x).
  { intros x. destruct (_ || _); [|intros [= <-]; apply HS; reflexivity]. destruct he; [intros [= <-]; apply HS; reflexivity|].
    destruct (lo_has_arg o =? 1); [|intros [= <-]; apply HS; reflexivity]. intros H. apply bind_ok in H as (v & _ & [= <-]). apply HS; reflexivity. }
  destruct (lo_has_arg o =? 0), he; [apply lines_warn; [apply HS; reflexivity|reflexivity]|apply Hrest, Hm|apply Hrest, Hm|apply Hrest, Hm].
Qed.
Lemma sc_question c : sc c = 63 -> c = "?"%char.
Proof. intros H. apply uc_inj. unfold sc in H. pose proof (uc_range c). change (uc "?") with 63. destruct (Z.ltb_spec (uc c) 128); lia. Qed.
Lemma strchr_in c t : forall l, strchr l c = Some t -> In c l.
Proof. induction l as [|x l IH]; [discriminate|]. cbn [strchr]. destruct (ceqb_spec x c); [subst; left; auto|right; auto]. Qed.
Definition words_tame (s : gst) : Prop := Forall tame (nargv s).
Lemma stable_tame : stable words_tame.
Proof. intros s s' E _. unfold words_tame. rewrite E. auto. Qed.
Lemma stable_keeps : stable keeps.
Proof. intros s s' E E'. unfold keeps. rewrite E, E'. auto. Qed.
Lemma tame_emsg s : words_tame s -> keeps (EMSG s).
Proof. intros H. split; [exact H|apply ends_nil]. Qed.
Lemma keeps_emsg s : keeps s -> keeps (EMSG s).
Proof. intros [H _]. split; [exact H|apply ends_nil]. Qed.
Lemma lines_short s : keeps s -> lines (gi_short_w true nargc lopts longonly options s).
Proof.
  intros Hs. unfold gi_short_w. destruct (place s) as [|c p] eqn:Ep; [intros r s' E; discriminate|]. cbv zeta.
  set (s1 := set_place _ p s). assert (Hs1 : keeps s1).
  { destruct Hs as [H1 H2]. split; [exact H1|]. rewrite Ep in H2. exact (ends_tl _ _ H2). }
  set (atend := match p with [] => true | _ => false end).
  assert (Hbad : lines (if ceqb c "-" && atend then mute (Ok (-1, s1))
        else _ <~ warn true options (if negb (posixly s1 =? 0) then illoptchar c else gnuoptchar c) ;;
             mute (Ok (BADCH, set_optopt (sc c) (if atend then set_optind (optind s1 + 1) s1 else s1))))).
  { destruct (_ && _); [apply lines_mute; [exact Hs1|discriminate]|apply lines_warn; [destruct atend; exact Hs1|reflexivity]]. }
  destruct (ceqb c ":" || _); [exact Hbad|]. destruct (strchr options c) as [oli|] eqn:Eo; [|exact Hbad].
  assert (Hc : sc c <> 63) by (intros E; apply sc_question in E; subst; apply Hq; eapply strchr_in; eauto).
  assert (Hlong : forall dash lo, lopts = Some lo -> forall x, words_tame x -> lines ('(r, s0) <~ parse_long_options_w true dash options lo false longonly x ;; mute (Ok (r, EMSG s0)))).
  { intros dash lo El x Hx. apply (lines_bind words_tame); [apply lines_long; auto using stable_tame| |].
    - intros r y Hy Hr. apply lines_mute; [apply tame_emsg; exact Hy|exact Hr].
    - intros y Hy. exists (EMSG y). split; [apply tame_emsg; exact Hy|reflexivity]. }
  destruct (match lopts with Some _ => _ | None => false end) eqn:EW.
  - destruct lopts as [lo|]; [|discriminate]. destruct (negb atend); [apply Hlong; [reflexivity|apply Hs1]|].
    destruct (nargc <=? _); [apply lines_warn; [apply (keeps_emsg s1 Hs1)|apply badarg]|]. apply lines_fail. intros [a|] _; [|intros r s' E; discriminate].
    apply Hlong; [reflexivity|exact (proj1 Hs1)].
  - destruct (negb (ceqb (hd0 (tl oli)) ":")); [apply lines_mute; [destruct atend; exact Hs1|exact Hc]|].
    destruct (negb atend); [apply lines_mute; [apply (keeps_emsg s1 Hs1)|exact Hc]|].
    destruct (negb (ceqb (hd0 (tl (tl oli))) ":")); [|apply lines_mute; [apply (keeps_emsg s1 Hs1)|exact Hc]].
    destruct (nargc <=? _); [apply lines_warn; [apply (keeps_emsg s1 Hs1)|apply badarg]|]. apply lines_fail. intros v _.
    apply lines_mute; [apply (keeps_emsg s1 Hs1)|exact Hc].
Qed.
Lemma lines_scan s : keeps s -> lines (gi_scan_w true nargc lopts longonly options s).
Proof.
  intros Hs. pose proof lines_short as Hshort.
  assert (Hlong : forall lo, lopts = Some lo -> forall dash st x, keeps x -> lines ('(r, s0) <~ parse_long_options_w true dash options lo st longonly x ;;
      if negb (r =? -1) then mute (Ok (r, EMSG s0)) else gi_short_w true nargc lopts longonly options s0)).
  { intros lo El dash st x Hx. apply (lines_bind keeps); [apply lines_long; auto using stable_keeps| |].
    - intros r y Hy Hr. destruct (negb (r =? -1)); [apply lines_mute; [apply keeps_emsg; exact Hy|exact Hr]|apply Hshort; exact Hy].
    - intros y Hy. exists (EMSG y). split; [apply keeps_emsg; exact Hy|reflexivity]. }
  unfold gi_scan_w. destruct lopts as [lo|]; [|apply Hshort; exact Hs]. apply lines_fail. intros _ _.
  destruct (negb _ && _); [|apply Hshort; exact Hs]. destruct (ceqb (hd0 (place s)) "-") eqn:Ed.
  - cbv zeta. cbn [place set_place]. destruct (place s) as [|c p] eqn:Ep; [discriminate|]. cbn [hd0 tl] in *. apply ceqb_eq in Ed. subst c.
    destruct Hs as [H1 H2]. rewrite Ep in H2. destruct p as [|c' p']; [elim H2; exists []; reflexivity|]. apply (Hlong lo eq_refl). split; [exact H1|exact (ends_tl _ _ H2)].
  - cbv zeta. apply (Hlong lo eq_refl). exact Hs.
Qed.
Lemma tame_at s i p : words_tame s -> nargv_get s i = Ok (Some p) -> tame p.
Proof.
  unfold nargv_get. destruct (i =? _); [discriminate|]. intros H E. apply bind_ok in E as (x & Hx & [= <-]). unfold words_tame in H.
  rewrite Forall_forall in H. apply H. eapply aget_in; eauto.
Qed.
Lemma lines_start permute allargs : forall f s, words_tame s -> optreset s = true \/ ~ ends_dash (place s) -> lines (gi_start_w true nargc lopts longonly f options permute allargs s).
Proof.
  induction f as [|f IH]; intros s Hs Hnew; [intros r s' E; discriminate|]. cbn [gi_start_w].
  destruct (optreset s || _) eqn:Enew; [clear Hnew|apply lines_scan; split; [exact Hs|]; destruct Hnew as [Hnew|Hnew]; [rewrite Hnew in Enew; discriminate|exact Hnew]].
  cbv zeta. set (s1 := set_optreset false s). assert (Hs1 : words_tame s1) by exact Hs. destruct (nargc <=? _).
  { apply lines_fail. intros x Hx. apply lines_mute; [|discriminate]. assert (Hk : words_tame x /\ place x = []).
    { destruct (negb (nonopt_end (EMSG s1) =? -1)).
      - apply bind_ok in Hx as (v & Hv & [= <-]). split; [|reflexivity]. apply permute_forall with (P := tame) in Hv; [exact Hv|exact Hs].
      - destruct (negb (nonopt_start (EMSG s1) =? -1)); injection Hx as <-; (split; [exact Hs|reflexivity]). }
    destruct Hk as [H1 H2]. split; [exact H1|]. cbn. rewrite H2. apply ends_nil. }
  apply lines_fail. intros [p|] Hp; [|intros r s' E; discriminate]. destruct (negb (ceqb (hd0 p) "-") || _) eqn:Eop.
  - destruct allargs; [apply lines_mute; [apply (tame_emsg s1 Hs1)|discriminate]|]. destruct (negb permute); [apply lines_mute; [apply (tame_emsg s1 Hs1)|discriminate]|].
    apply lines_fail. intros x Hx. assert (Hk : words_tame x /\ place x = []).
    { destruct (nonopt_start (EMSG s1) =? -1); [injection Hx as <-; split; [exact Hs|reflexivity]|].
      destruct (negb (nonopt_end (EMSG s1) =? -1)).
      - apply bind_ok in Hx as (v & Hv & [= <-]). split; [|reflexivity]. apply permute_forall with (P := tame) in Hv; [exact Hv|exact Hs].
      - injection Hx as <-. split; [exact Hs|reflexivity]. }
    destruct Hk as [H1 H2]. apply IH; [exact H1|]. right. cbn. rewrite H2. apply ends_nil.
  - set (s2 := if negb (nonopt_start s1 =? -1) && (nonopt_end s1 =? -1) then _ else s1).
    assert (Hs2 : words_tame s2) by (unfold s2; destruct (_ && _); exact Hs).
    destruct (ceqb (hd0 (tl p)) "-" && _) eqn:Edd.
    + apply lines_fail. intros x Hx. apply lines_mute; [|discriminate]. assert (Hk : words_tame x /\ place x = []).
      { destruct (negb (nonopt_end _ =? -1)).
        - apply bind_ok in Hx as (v & Hv & [= <-]). split; [|reflexivity]. apply permute_forall with (P := tame) in Hv; [exact Hv|exact Hs2].
        - injection Hx as <-. split; [exact Hs2|reflexivity]. }
      destruct Hk as [H1 H2]. split; [exact H1|]. cbn. rewrite H2. apply ends_nil.
    + apply lines_scan. split; [exact Hs2|]. cbn. pose proof (tame_at _ _ _ Hs1 Hp) as Ht.
      destruct p as [|c r]; [discriminate|]. cbn [hd0 tl] in *. destruct r as [|c' r']; [rewrite orb_true_r in Eop; discriminate|].
      destruct Ht as [E|[E|Ht]]; [discriminate| |exact (ends_tl _ _ Ht)]. injection E as -> -> ->. discriminate.
Qed.
End Lines.

Inductive function := Getopt | GetoptLong (lo : list lopt) | GetoptLongOnly (lo : list lopt).
Definition call (f : function) (posix opterr : bool) (options : str) : gst -> said (Z * gst) :=
  match f with
  | Getopt => call_getopt posix opterr options
  | GetoptLong lo => call_getopt_long posix opterr options lo
  | GetoptLongOnly lo => call_getopt_long_only posix opterr options lo
  end.
Definition long_options (f : function) : list lopt := match f with Getopt => [] | GetoptLong lo | GetoptLongOnly lo => lo end.
Lemma call_internal f posix opterr options s : exists lopts longonly permute, (lopts = None \/ lopts = Some (long_options f)) /\
  call f posix opterr options s = getopt_internal_w posix opterr (zlen (nargv s)) lopts longonly (S (List.length (nargv s))) (Some options) permute s /\
  (forall g n s1, getopt_internal_w posix opterr n lopts longonly g (Some options) permute s1 =
    match f with Getopt => getopt_w posix opterr g n (Some options) s1 | GetoptLong lo => getopt_long_w posix opterr g n (Some options) lo s1
    | GetoptLongOnly lo => getopt_long_only_w posix opterr g n (Some options) lo s1 end).
Proof.
  destruct f as [|lo|lo]; [exists None, false, false|exists (Some lo), false, true|exists (Some lo), true, true]; split; auto; split; reflexivity.
Qed.
Lemma not_quiet options : ~ quiet_options options ->
  ceqb (hd0 (if ceqb (hd0 options) "+" || ceqb (hd0 options) "-" then tl options else options)) ":" = false.
Proof.
  intros H. apply ceqb_neq. intros E. apply H. destruct options as [|c t]; [discriminate|]. cbn [hd0 tl] in E. destruct (ceqb_spec c "+") as [->|H1].
  - cbn [orb] in E. destruct t as [|c' t]; [discriminate|]. cbn in E. subst. exists t. auto.
  - destruct (ceqb_spec c "-") as [->|H2]; cbn [orb] in E.
    + destruct t as [|c' t]; [discriminate|]. cbn in E. subst. exists t. auto.
    + cbn in E. subst. exists t. auto.
Qed.
Lemma lines_call f posix options s : ~ quiet_options options -> ~ In "?"%char options ->
  (forall o, In o (long_options f) -> lo_flag o = false -> lo_val o <> 63) ->
  words_tame s -> optind s = 0 \/ optreset s = true \/ ~ ends_dash (place s) -> lines_to keeps (call f posix true options s).
Proof.
  intros Hl Hq Hlo Hs Hnew. destruct (call_internal f posix true options s) as (lopts & longonly & permute & Elo & -> & _).
  unfold getopt_internal_w. cbv zeta. fold (prologue posix s). apply lines_start.
  - apply not_quiet. exact Hl.
  - intros Hi. apply Hq. destruct (_ || _); [|exact Hi]. destruct options; [destruct Hi|right; exact Hi].
  - intros lo o E. destruct Elo as [->| ->]; [discriminate|]. injection E as <-. apply Hlo.
  - assert (E : nargv (prologue posix s) = nargv s) by (unfold prologue; destruct (optind s =? 0); cbn; destruct (_ || _); reflexivity).
    unfold words_tame in *. rewrite <- E in Hs. destruct (optreset (set_optarg None (prologue posix s))); exact Hs.
  - assert (E : optreset (prologue posix s) = true \/ ~ ends_dash (place (prologue posix s))).
    { unfold prologue. destruct (Z.eqb_spec (optind s) 0) as [Ez|Ez].
      - left. cbn. rewrite orb_true_r. reflexivity.
      - destruct Hnew as [?|Hnew]; [contradiction|]. destruct (_ || _); exact Hnew. }
    destruct E as [E|E]; [left|right]; destruct (optreset (set_optarg None (prologue posix s))); exact E.
Qed.

Theorem C84_one_line_each f posix options words s fuel l s' ms :
  begins words s -> Forall tame words ->
  ~ quiet_options options -> ~ In "?"%char options ->
  (forall o, In o (long_options f) -> lo_flag o = false -> lo_val o <> sc "?") ->
  scan_all (call f posix true options) fuel s = (Ok (l, s'), ms) ->
  List.length ms = List.length (filter (fun o => seen_ret o =? sc "?") l).
Proof.
  intros [Ha Hb] Hw Hl Hq Hlo. assert (Hs : words_tame s) by (unfold words_tame; rewrite Ha; exact Hw).
  assert (Hnew : optind s = 0 \/ optreset s = true \/ ~ ends_dash (place s)).
  { destruct Hb as [?|[_ [?|(_ & E & _)]]]; auto. right. right. rewrite E. apply ends_nil. }
  clear Ha Hb Hw. revert s Hs Hnew l s' ms. induction fuel as [|n IH]; intros s Hs Hnew l s' ms; [discriminate|]. cbn [scan_all].
  pose proof (lines_call f posix options s Hl Hq Hlo Hs Hnew) as Hc. unfold sbind at 1. destruct (call f posix true options s) as [[[r s1]| |] m1]; try discriminate.
  destruct (Hc r s1 eq_refl) as [Hk Hn]. cbn [fst snd] in *. change (sc "?") with 63 in *. destruct (Z.eqb_spec r (-1)) as [->|Hr].
  - cbn [fst snd mute]. intros [= <- <- <-]. rewrite app_nil_r. exact Hn.
  - unfold sbind. destruct (scan_all (call f posix true options) n s1) as [[[l2 s2]| |] m2] eqn:E2; try discriminate. cbn [fst snd mute].
    intros [= <- <- <-]. rewrite app_nil_r, app_length, Hn, (IH s1 (proj1 Hk) (or_intror (or_intror (proj2 Hk))) l2 s2 m2 E2). cbn [filter see seen_ret].
    destruct (r =? 63); reflexivity.
Qed.

Theorem C84_silent f posix opterr options fuel s :
  opterr = false \/ quiet_options options ->
  snd (scan_all (call f posix opterr options) fuel s) = [].
Proof.
  intros H. revert s. induction fuel as [|n IH]; intros s; [reflexivity|]. cbn [scan_all]. apply no_word_bind.
  - destruct (call_internal f posix opterr options s) as (lopts & longonly & permute & _ & -> & _). apply internal_hush.
    destruct H as [H|H]; [left; exact H|right]. intros t [= <-]. exact H.
  - intros [r s1]. destruct (r =? -1); [reflexivity|]. apply no_word_bind; [apply IH|]. intros [l s2]. reflexivity.
Qed.

(** ** arg_parse *)
Section Parse.
Context {B : Type}.
Context (scan : hdr -> B -> option (option str -> res (B * Z))) (check : hdr -> B -> option Z) (reset : hdr -> B -> res B).
Context (posix : bool) (junko : nat -> rawopt) (junkc : nat -> ascii) (junkp : nat -> option str).

Lemma getopt_in_erase (longonly : bool) g n shorts longs s :
  fst ((if longonly then getopt_long_only_w else getopt_long_w) posix false g n (Some shorts) longs s) = getopt_in longonly posix g n shorts longs s.
Proof. destruct longonly; apply internal_erase. Qed.
Lemma tagged_loop_erase (longonly : bool) : forall f nargc shorts longs s tab en,
  fst (tagged_loop_w scan posix false longonly f nargc shorts longs s tab en) = tagged_loop scan posix longonly f nargc shorts longs s tab en /\
  snd (tagged_loop_w scan posix false longonly f nargc shorts longs s tab en) = [].
Proof.
  induction f as [|f IH]; intros nargc shorts longs s tab en; [split; reflexivity|]. cbn [tagged_loop_w tagged_loop]. split.
  - rewrite fst_sbind, getopt_in_erase. apply bind_ext. intros [copt s1]. destruct (copt =? -1); [reflexivity|].
    rewrite fst_sbind, fst_mute. apply bind_ext. intros [tab1 en1]. apply IH.
  - apply no_word_bind.
    + destruct longonly; apply internal_hush; left; reflexivity.
    + intros [copt s1]. destruct (copt =? -1); [reflexivity|]. apply no_word_bind; [reflexivity|]. intros [tab1 en1]. apply IH.
Qed.

Theorem C84_parse_says_nothing opterr longonly fuel argc argv h s tab en :
  snd (arg_parse_w scan check reset posix junko junkc junkp opterr longonly fuel argc argv h s tab en) = [] /\
  fst (arg_parse_w scan check reset posix junko junkc junkp opterr longonly fuel argc argv h s tab en) =
    (r <- arg_parse_in scan check reset posix junko junkc junkp longonly fuel argc argv h s tab en ;;
     Ok (r, if argc =? 0 then opterr else false)).
Proof.
  assert (bind_assoc : forall A C D (m : res A) (k : A -> res C) (k' : C -> res D), bind (bind m k) k' = bind m (fun x => bind (k x) k')).
  { intros A C D m k k'. destruct m; reflexivity. }
  unfold arg_parse_w, arg_parse_in. split.
  - repeat first [ apply no_word_mute | apply no_word_bind; [|intro] | apply (proj2 (tagged_loop_erase _ _ _ _ _ _ _ _))
      | match goal with |- snd ?m = [] => change (no_word m) end
      | match goal with |- no_word (match ?x with _ => _ end) => destruct x end
      | progress unfold arg_parse_tagged_w ].
  - rewrite fst_sbind, fst_mute, bind_assoc. apply bind_ext. intros tab1. cbv zeta. destruct (argc =? 0).
    { rewrite fst_sbind, fst_mute, bind_assoc. apply bind_ext. intros en1. reflexivity. }
    destruct (halloc h _) as [h1 copy]. rewrite fst_sbind, fst_mute, bind_assoc. apply bind_ext. intros h2.
    rewrite fst_sbind, fst_mute, bind_assoc. apply bind_ext. intros h3.
    assert (Et : fst (arg_parse_tagged_w scan posix junko junkc opterr longonly fuel argc copy h3 s tab1 (arg_end_resetfn en)) =
      (r <- arg_parse_tagged scan posix junko junkc longonly fuel argc copy h3 s tab1 (arg_end_resetfn en) ;; Ok (r, false))).
    { unfold arg_parse_tagged_w, arg_parse_tagged. rewrite fst_sbind, fst_mute, bind_assoc. apply bind_ext. intros lo. destruct (halloc h3 BTemp) as [h4 pl].
      rewrite fst_sbind, fst_mute, bind_assoc. apply bind_ext. intros so. destruct (halloc h4 BTemp) as [h5 ps].
      rewrite fst_sbind, fst_mute, bind_assoc. apply bind_ext. intros args. cbv zeta.
      rewrite fst_sbind, (proj1 (tagged_loop_erase _ _ _ _ _ _ _ _)), bind_assoc. apply bind_ext. intros [[s1 tab2] en2].
      rewrite fst_sbind, fst_mute, bind_assoc. apply bind_ext. intros h6. rewrite fst_sbind, fst_mute, bind_assoc. apply bind_ext. intros h7.
      rewrite fst_sbind, fst_mute, bind_assoc. apply bind_ext. intros h8. reflexivity. }
    rewrite fst_sbind, Et, !bind_assoc. apply bind_ext. intros [[[h4 s1] tab2] en2]. cbn [bind].
    rewrite fst_sbind, fst_mute, bind_assoc. apply bind_ext. intros args.
    rewrite fst_sbind, fst_mute, bind_assoc. apply bind_ext. intros [tab3 en3].
    rewrite fst_sbind, fst_mute, bind_assoc. apply bind_ext. intros en4.
    rewrite fst_sbind, fst_mute, bind_assoc. apply bind_ext. intros h5. reflexivity.
Qed.
End Parse.

(** ** The texts for long options *)
Inductive found := Found (o : lopt) | Ambiguous | NotFound.
Definition same_use (o o' : lopt) : bool := (lo_has_arg o =? lo_has_arg o') && Bool.eqb (lo_flag o) (lo_flag o') && (lo_val o =? lo_val o').
(** An option is found by its name, or by the beginning of its name if no option with another use has such a name. With [only] no other option
    at all may have such a name, and with [whole] the beginning of a name is not enough. *)
Definition find_long (only whole : bool) (lo : list lopt) (nm : str) : found :=
  match find (fun o => str_eqb (lo_name o) nm) lo with
  | Some o => Found o
  | None =>
      match filter (fun o => negb whole && str_eqb (firstn (List.length nm) (lo_name o)) nm) lo with
      | [] => NotFound
      | o :: r => if forallb (fun o' => negb only && same_use o o') r then Found o else Ambiguous
      end
  end.
Lemma is_prefix_firstn a b : is_prefix a b = str_eqb (firstn (List.length a) b) a.
Proof.
  revert b. induction a as [|x a IH]; intros [|y b]; cbn; auto. rewrite IH. destruct (ceqb_spec x y) as [->|H]; [rewrite ceqb_refl; reflexivity|].
  assert (E : ceqb y x = false) by (apply ceqb_neq; congruence). rewrite E. reflexivity.
Qed.
Lemma exact_name nm n : is_prefix nm n = true -> Nat.eqb (List.length n) (List.length nm) = str_eqb n nm.
Proof.
  rewrite is_prefix_firstn. intros H. apply str_eqb_eq in H. destruct (str_eqb_spec n nm) as [->|E]; [apply Nat.eqb_refl|].
  apply Nat.eqb_neq. intros El. apply E. rewrite <- El, firstn_all in H. exact H.
Qed.
Lemma search_found (short_too only : bool) nm : forall lo i m sec,
  let whole := short_too && Nat.eqb (List.length nm) 1 in
  match find (fun o => str_eqb (lo_name o) nm) lo with
  | Some o => exists j sec', long_search nm short_too only lo i m sec = (Some (j, o), true, sec')
  | None =>
      match m, filter (fun o => negb whole && str_eqb (firstn (List.length nm) (lo_name o)) nm) lo with
      | None, [] => long_search nm short_too only lo i m sec = (None, false, sec)
      | None, o :: r =>
          exists j, long_search nm short_too only lo i m sec = (Some (j, o), false, sec || negb (forallb (fun o' => negb only && same_use o o') r))
      | Some (j, o), r => long_search nm short_too only lo i m sec = (Some (j, o), false, sec || negb (forallb (fun o' => negb only && same_use o o') r))
      end
  end.
Proof.
  cbv zeta. induction lo as [|x lo IH]; intros i m sec; cbn [find filter long_search].
  { destruct m as [[j o]|]; cbn [forallb negb]; rewrite ?orb_false_r; reflexivity. }
  pose proof (is_prefix_firstn nm (lo_name x)) as Ep. rewrite <- Ep. destruct (is_prefix nm (lo_name x)) eqn:E; cbn [negb].
  - rewrite (exact_name _ _ E). destruct (str_eqb (lo_name x) nm); [eauto|]. rewrite andb_true_r.
    set (whole := short_too && Nat.eqb (List.length nm) 1) in *. destruct whole; cbn [negb andb]; [apply IH|]. cbn [negb andb] in IH. destruct m as [[j o]|].
    + pose proof (IH (i + 1) (Some (j, o)) (sec || (only || negb (lo_has_arg x =? lo_has_arg o) || negb (Bool.eqb (lo_flag x) (lo_flag o)) || negb (lo_val x =? lo_val o)))) as H.
      destruct (find _ lo); [exact H|]. rewrite H. f_equal. cbn [forallb]. rewrite <- orb_assoc. f_equal. unfold same_use.
      rewrite (Z.eqb_sym (lo_has_arg x)), (Z.eqb_sym (lo_val x)).
      destruct only, (lo_has_arg o =? lo_has_arg x), (lo_flag x), (lo_flag o), (lo_val o =? lo_val x), (forallb _ _); reflexivity.
    + pose proof (IH (i + 1) (Some (i, x)) sec) as H. destruct (find _ lo); [exact H|]. exists i. exact H.
  - assert (En : str_eqb (lo_name x) nm = false).
    { destruct (str_eqb_spec (lo_name x) nm) as [E'|]; [|reflexivity]. rewrite E' in Ep. rewrite firstn_all, str_eqb_refl in Ep. congruence. }
    rewrite En, andb_false_r. apply IH.
Qed.

(** What a call makes of the argument [dash body], with [rest] behind it. *)
Inductive answer :=
| Complains (message : str) (missing : bool)           (* nothing but a message; [missing]: the value is missing *)
| Reports (o : lopt) (value : option str) (used : Z).  (* an option, its value, and how many arguments were used *)
Definition long_answer (dash : str) (only whole : bool) (lo : list lopt) (body : str) (rest : list str) : answer :=
  match find_long only whole lo (name_part body) with
  | Ambiguous => Complains (lit "option `" ++ dash ++ name_part body ++ lit "' is ambiguous") false
  | NotFound => Complains (lit "unrecognized option `" ++ dash ++ body ++ lit "'") false
  | Found o =>
      if lo_has_arg o =? 0 then
        match value_part body with
        | Some _ => Complains (lit "option `" ++ dash ++ name_part body ++ lit "' doesn't allow an argument") false
        | None => Reports o None 1
        end
      else if lo_has_arg o =? 1 then
        match value_part body, rest with
        | Some v, _ => Reports o (Some v) 1
        | None, v :: _ => Reports o (Some v) 2
        | None, [] => Complains (lit "option `" ++ dash ++ body ++ lit "' requires an argument") true
        end
      else Reports o (value_part body) 1
  end.

(** What is printed. *)
Definition printed (opterr : bool) (options : str) (ans : answer) : list str :=
  match ans with Complains m _ => if opterr && negb (ceqb (hd0 options) ":") then [m] else [] | Reports _ _ _ => [] end.
(** What is returned and stored. *)
Definition long_result (options : str) (s : gst) (r : Z) (s' : gst) (ans : answer) : Prop :=
  nargv s' = nargv s /\
  match ans with
  | Complains _ missing => r = sc (if missing && ceqb (hd0 options) ":" then ":" else "?") /\ optind s' = optind s + 1
  | Reports o v used => (if lo_flag o then r = 0 /\ getoptval s' = lo_val o else r = lo_val o) /\ optarg s' = v /\ optind s' = optind s + used
  end.

Lemma long_outcome dash only short_too opterr options lo pre body rest s :
  let whole := short_too && Nat.eqb (List.length (name_part body)) 1 in
  place s = body -> (exists w, nargv s = pre ++ w :: rest) -> optind s = zlen pre -> optarg s = None ->
  (forall o, In o lo -> lo_has_arg o = 0 \/ lo_has_arg o = 1 \/ lo_has_arg o = 2) ->
  (forall o, In o lo -> lo_flag o = false -> lo_val o <> -1) ->
  (short_too = true -> find_long only whole lo (name_part body) <> NotFound) ->
  exists r s', parse_long_options_w opterr dash options lo short_too only s =
    (Ok (r, s'), match long_answer dash only whole lo body rest with
                 | Complains m _ => if opterr && negb (ceqb (hd0 options) ":") then [m] else []
                 | Reports _ _ _ => []
                 end) /\ r <> -1 /\
  nargv s' = nargv s /\
  match long_answer dash only whole lo body rest with
  | Complains _ missing => r = sc (if missing && ceqb (hd0 options) ":" then ":" else "?") /\ optind s' = zlen pre + 1
  | Reports o v used => (if lo_flag o then r = 0 /\ getoptval s' = lo_val o else r = lo_val o) /\ optarg s' = v /\ optind s' = zlen pre + used
  end.
Proof.
  intros whole Epl (w & Ha) Hi Ho Hha Hval Hst. pose proof (search_found short_too only (name_part body) lo 0 None false) as Hsf. cbv zeta in Hsf. fold whole in Hsf.
  assert (Hfl : match find_long only whole lo (name_part body) with
    | Ambiguous => exists m, long_search (name_part body) short_too only lo 0 None false = (m, false, true)
    | NotFound => long_search (name_part body) short_too only lo 0 None false = (None, false, false)
    | Found o => In o lo /\ exists j ex sec, long_search (name_part body) short_too only lo 0 None false = (Some (j, o), ex, sec) /\ negb ex && sec = false
    end).
  { unfold find_long. destruct (find _ lo) as [o|] eqn:Ef.
    - split; [apply find_some in Ef; tauto|]. destruct Hsf as (j & sec & E). exists j, true, sec. auto.
    - destruct (filter _ lo) as [|o r] eqn:Efi; [exact Hsf|]. destruct Hsf as (j & E). cbn [orb] in E. destruct (forallb (fun o' => negb only && same_use o o') r).
      + split; [|exists j, false, false; auto]. assert (Hin : In o (o :: r)) by (left; reflexivity). rewrite <- Efi in Hin. apply filter_In in Hin. tauto.
      + exists (Some (j, o)). exact E. }
  clear Hsf. unfold parse_long_options_w, long_answer. rewrite Epl, split_eq_parts.
  assert (Hwarn : forall m (r : Z) (s' : gst), (_ <~ warn opterr options m ;; mute (Ok (r, s'))) = (Ok (r, s'), if opterr && negb (ceqb (hd0 options) ":") then [m] else [])).
  { intros m r s'. unfold sbind, warn, mute, PRINT_ERROR. cbn [fst snd]. rewrite app_nil_r. reflexivity. }
  destruct (find_long only whole lo (name_part body)) as [o| |].
  2:{ destruct Hfl as [m ->]. cbn [negb andb]. rewrite Hwarn. eexists _, _. split; [reflexivity|]. split; [discriminate|]. split; [reflexivity|].
      split; [reflexivity|]. cbn. lia. }
  2:{ rewrite Hfl. cbn [negb andb]. destruct short_too; [exfalso; apply Hst; reflexivity|]. rewrite Hwarn. eexists _, _. split; [reflexivity|]. split; [discriminate|]. split; [reflexivity|].
      split; [reflexivity|]. cbn. lia. }
  destruct Hfl as (Hin & j & ex & sec & -> & ->). specialize (Hha o Hin). specialize (Hval o Hin). cbv zeta.
  set (s1 := set_optind (optind s + 1) s).
  assert (Hok : forall x v k, nargv x = nargv s -> optarg x = v -> optind x = zlen pre + k ->
    exists r s', mute (if lo_flag o then Ok (0, set_getoptval (lo_val o) x) else Ok (lo_val o, x)) = (Ok (r, s'), []) /\ r <> -1 /\ nargv s' = nargv s /\
      (if lo_flag o then r = 0 /\ getoptval s' = lo_val o else r = lo_val o) /\ optarg s' = v /\ optind s' = zlen pre + k).
  { intros x v k E1 E2 E3. destruct (lo_flag o); eexists _, _; (split; [reflexivity|]); repeat split; auto; discriminate. }
  destruct Hha as [E|[E|E]]; rewrite E; cbn [Z.eqb Pos.eqb orb].
  - destruct (value_part body) as [v|].
    + rewrite Hwarn. eexists _, _. split; [reflexivity|]. split; [discriminate|]. split; [reflexivity|]. split; [reflexivity|]. cbn. lia.
    + rewrite sbind_ok. apply Hok; cbn; auto. lia.
  - destruct (value_part body) as [v|].
    + rewrite sbind_ok. cbn [optarg set_optarg]. apply Hok; cbn; auto. lia.
    + assert (Eg : nargv_get s1 (optind s1) = Ok (hd_error rest)).
      { change (optind s1) with (optind s + 1). rewrite Hi. destruct rest as [|v rest].
        - replace (zlen pre + 1) with (zlen (nargv s1)) by (cbn; rewrite Ha, zlen_app, zlen_cons, zlen_nil; lia). apply nargv_get_end.
        - replace (zlen pre + 1) with (zlen (pre ++ [w])) by (rewrite zlen_app, zlen_cons, zlen_nil; lia). apply nargv_get_app with (rest := rest).
          cbn. rewrite Ha, <- app_assoc. reflexivity. }
      rewrite Eg. cbn [bind]. rewrite sbind_ok. cbn [optarg set_optarg]. destruct rest as [|v rest]; cbn [hd_error].
      * rewrite Hwarn. eexists _, _. split; [reflexivity|]. assert (Eb : BADARG options = sc (if true && ceqb (hd0 options) ":" then ":" else "?")).
        { unfold BADARG. destruct options as [|c t]; [reflexivity|]. cbn. destruct (ceqb c ":"); reflexivity. }
        split; [rewrite Eb; destruct (true && _); discriminate|]. split; [reflexivity|]. split; [exact Eb|]. cbn. lia.
      * apply Hok; cbn; auto. lia.
  - destruct (value_part body) as [v|].
    + rewrite sbind_ok. apply Hok; cbn; auto. lia.
    + rewrite sbind_ok. apply Hok; cbn; auto. lia.
Qed.

(** The call comes to the word behind its first dash. *)
Lemma enter_word posix opterr options lo pre p rest s n :
  at_word posix pre (@cons str ("-"%char :: p) rest) s -> p <> [] -> p <> ["-"%char] -> hd0 options <> "+"%char -> hd0 options <> "-"%char ->
  exists s', place_off s' = 1 /\ place s' = p /\ nargv s' = nargv s /\ optind s' = zlen pre /\ optarg s' = None /\
  forall only, getopt_internal_w posix opterr (zlen (nargv s)) (Some lo) only (S n) (Some options) true s = gi_scan_w opterr (zlen (nargv s)) (Some lo) only options s'.
Proof.
  intros [Ha Hi Hp Hx Hnew] Hp0 Hp1 H1 H2.
  set (s1 := if optreset (set_optarg None s) then set_nonopt (-1) (-1) (set_optarg None s) else set_optarg None s).
  assert (Es : nargv s1 = nargv s /\ optind s1 = optind s /\ (optreset s1 = true \/ place s1 = []) /\ optarg s1 = None /\ nonopt_start s1 = -1 /\ nonopt_end s1 = -1).
  { unfold s1. change (optreset (set_optarg None s)) with (optreset s). destruct (optreset s) eqn:Er; [repeat split; auto|].
    destruct Hnew as [?|(? & ? & ?)]; [congruence|]. repeat split; auto. }
  destruct Es as (En & Ei & Enew & Eo & Ens & Ene). exists (set_place 1 p (set_optreset false s1)). do 5 (split; [cbn; congruence|]). intros only.
  unfold getopt_internal_w. apply ceqb_neq in H1, H2. rewrite H1, H2. cbn [orb]. destruct (Z.eqb_spec (optind s) 0); [lia|].
  set (s2 := if (posixly s =? -1) || optreset s then set_posixly (if posix then 1 else 0) s else s).
  assert (E2 : s2 = s) by (unfold s2; destruct ((posixly s =? -1) || optreset s); [destruct s; cbn in *; subst; reflexivity|reflexivity]).
  rewrite E2. clear s2 E2. set (perm := if negb (posixly s =? 0) || false then false else true). fold s1. clearbody s1. cbn [gi_start_w].
  assert (Ecnd : optreset s1 || match place s1 with [] => true | _ => false end = true) by (destruct Enew as [->| ->]; [reflexivity|apply orb_true_r]).
  rewrite Ecnd. clear Ecnd Enew. change (optind (set_optreset false s1)) with (optind s1). rewrite Ei, Hi.
  assert (Hlen : zlen (nargv s) = zlen pre + 1 + zlen rest) by (rewrite Ha, zlen_app, zlen_cons; lia).
  pose proof (zlen_nonneg rest). destruct (Z.leb_spec (zlen (nargv s)) (zlen pre)); [lia|].
  rewrite (nargv_get_app (set_optreset false s1) pre ("-"%char :: p) rest) by (cbn [nargv set_optreset set_place]; rewrite En; exact Ha). rewrite sbind_ok.
  cbn [hd0 tl]. change (ceqb "-" "-") with true. change (nonopt_start (set_optreset false s1)) with (nonopt_start s1). rewrite Ens.
  cbn [negb orb andb Z.eqb Pos.eqb]. destruct p as [|b p']; [congruence|]. cbn iota. cbn [hd0 tl].
  assert (Ec : ceqb b "-" && match p' with [] => true | _ => false end = false).
  { destruct p'; [|apply andb_false_r]. rewrite andb_true_r. apply ceqb_neq. congruence. }
  rewrite Ec. reflexivity.
Qed.

Lemma long_word (only posix opterr : bool) options lo pre body rest s :
  at_word posix pre (@cons str (lit "--" ++ body) rest) s -> body <> [] ->
  hd0 options <> "+"%char -> hd0 options <> "-"%char ->
  (forall o, In o lo -> lo_has_arg o = 0 \/ lo_has_arg o = 1 \/ lo_has_arg o = 2) ->
  (forall o, In o lo -> lo_flag o = false -> lo_val o <> -1) ->
  let ans := long_answer (lit "--") only false lo body rest in
  exists r s', getopt_internal_w posix opterr (zlen (nargv s)) (Some lo) only (S (List.length (nargv s))) (Some options) true s =
    (Ok (r, s'), printed opterr options ans) /\ long_result options s r s' ans.
Proof.
  intros Hat Hbody H1 H2 Hha Hval ans.
  destruct (enter_word posix opterr options lo pre ("-"%char :: body) rest s (List.length (nargv s)) Hat ltac:(discriminate) ltac:(congruence) H1 H2)
    as (s2 & Eoff & Ep2 & E2n & E2i & E2o & Eent).
  pose proof (w_argv _ _ _ _ Hat) as Ha. rewrite Eent. unfold gi_scan_w. rewrite E2i.
  rewrite (nargv_get_app _ pre (lit "--" ++ body) rest) by (rewrite E2n; exact Ha). rewrite sbind_ok, Eoff, Ep2.
  cbn [Z.eqb negb hd0 tl]. change (ceqb "-" "-") with true. cbn [orb andb].
  set (s3 := set_place (1 + 1) body s2). assert (Epl : place s3 = body) by reflexivity. rewrite Epl.
  destruct (long_outcome (lit "--") only false opterr options lo pre body rest s3 Epl ltac:(eexists; cbn; rewrite E2n; exact Ha) E2i E2o Hha Hval ltac:(discriminate))
    as (r & s4 & E & Hr & E4n & Hcase).
  exists r, (EMSG s4). destruct body as [|b body]; [congruence|]. split.
  - rewrite E. unfold sbind. cbn [fst snd]. apply Z.eqb_neq in Hr. rewrite Hr. cbn. rewrite app_nil_r. reflexivity.
  - split; [cbn; rewrite E4n; exact E2n|]. rewrite (w_ind _ _ _ _ Hat). exact Hcase.
Qed.

Theorem C84_long_option posix opterr options lo pre body rest s :
  at_word posix pre (@cons str (lit "--" ++ body) rest) s -> body <> [] ->
  hd0 options <> "+"%char -> hd0 options <> "-"%char ->
  (forall o, In o lo -> lo_has_arg o = 0 \/ lo_has_arg o = 1 \/ lo_has_arg o = 2) ->
  (forall o, In o lo -> lo_flag o = false -> lo_val o <> -1) ->
  let ans := long_answer (lit "--") false false lo body rest in
  exists r s', call_getopt_long posix opterr options lo s = (Ok (r, s'), printed opterr options ans) /\ long_result options s r s' ans.
Proof.
  intros Hat Hbody H1 H2 Hha Hval. apply (long_word false posix opterr options lo pre body rest s Hat); auto.
Qed.

(** getopt_long_only reads an option behind two dashes as getopt_long does, except that the beginning of a name must belong to one option only.
    Behind one dash it looks for a long option first, and its messages show one dash. If the first letter is that of a short option then one letter
    alone is not taken for the beginning of a name, and what is no long option is read as getopt_long reads it. *)
Theorem C84_long_only posix opterr options lo pre body rest s :
  at_word posix pre (@cons str (lit "--" ++ body) rest) s -> body <> [] ->
  hd0 options <> "+"%char -> hd0 options <> "-"%char ->
  (forall o, In o lo -> lo_has_arg o = 0 \/ lo_has_arg o = 1 \/ lo_has_arg o = 2) ->
  (forall o, In o lo -> lo_flag o = false -> lo_val o <> -1) ->
  let ans := long_answer (lit "--") true false lo body rest in
  exists r s', call_getopt_long_only posix opterr options lo s = (Ok (r, s'), printed opterr options ans) /\ long_result options s r s' ans.
Proof. intros Hat Hbody H1 H2 Hha Hval. apply (long_word true posix opterr options lo pre body rest s Hat); auto. Qed.

(** Whether the options name a letter. *)
Definition short_option (options : str) (c : ascii) : Prop := c <> ":"%char /\ In c options.
Lemma short_option_b options c : let b := negb (ceqb c ":") && match strchr options c with Some _ => true | None => false end in
  (short_option options c -> b = true) /\ (~ short_option options c -> b = false).
Proof.
  cbv zeta. unfold short_option. assert (Hs : match strchr options c with Some _ => In c options | None => ~ In c options end).
  { destruct (strchr options c) as [t|] eqn:E; [eapply strchr_in; exact E|]. revert E. induction options as [|x l IH]; cbn; [tauto|].
    destruct (ceqb_spec x c) as [|Hx]; [discriminate|]. intros E [->|H]; [congruence|apply IH; assumption]. }
  destruct (ceqb_spec c ":") as [->|Hc]; cbn [negb andb]; destruct (strchr options _); split; intuition congruence.
Qed.

Theorem C84_one_dash posix opterr options lo pre body rest s :
  at_word posix pre (@cons str (lit "-" ++ body) rest) s -> body <> [] -> hd0 body <> "-"%char ->
  hd0 options <> "+"%char -> hd0 options <> "-"%char ->
  (forall o, In o lo -> lo_has_arg o = 0 \/ lo_has_arg o = 1 \/ lo_has_arg o = 2) ->
  (forall o, In o lo -> lo_flag o = false -> lo_val o <> -1) ->
  (~ short_option options (hd0 body) ->
    let ans := long_answer (lit "-") true false lo body rest in
    exists r s', call_getopt_long_only posix opterr options lo s = (Ok (r, s'), printed opterr options ans) /\ long_result options s r s' ans) /\
  (short_option options (hd0 body) ->
    let whole := Nat.eqb (List.length (name_part body)) 1 in
    let ans := long_answer (lit "-") true whole lo body rest in
    (find_long true whole lo (name_part body) <> NotFound ->
      exists r s', call_getopt_long_only posix opterr options lo s = (Ok (r, s'), printed opterr options ans) /\ long_result options s r s' ans) /\
    (find_long true whole lo (name_part body) = NotFound -> hd0 body <> "W"%char ->
      call_getopt_long_only posix opterr options lo s = call_getopt_long posix opterr options lo s)).
Proof.
  intros Hat Hbody Hdash H1 H2 Hha Hval.
  assert (Hp : body <> ["-"%char]) by (intros ->; apply Hdash; reflexivity).
  destruct (short_option_b options (hd0 body)) as [Hyes Hno]. set (sb := negb (ceqb (hd0 body) ":") && _) in *.
  assert (Hscan : forall s3, place_off s3 = 1 -> place s3 = body -> (exists x, nargv_get s3 (optind s3) = Ok x) ->
    gi_scan_w opterr (zlen (nargv s)) (Some lo) true options s3 =
    ('(r, s0) <~ parse_long_options_w opterr (lit "-") options lo sb true s3 ;;
      if negb (r =? -1) then mute (Ok (r, EMSG s0)) else gi_short_w opterr (zlen (nargv s)) (Some lo) true options s0) /\
    gi_scan_w opterr (zlen (nargv s)) (Some lo) false options s3 = gi_short_w opterr (zlen (nargv s)) (Some lo) false options s3).
  { intros s3 Eoff Epl [x Ex]. unfold gi_scan_w. rewrite Ex, !sbind_ok, Eoff, Epl. apply ceqb_neq in Hdash. rewrite Hdash. split; reflexivity. }
  destruct (enter_word posix opterr options lo pre body rest s (List.length (nargv s)) Hat Hbody Hp H1 H2) as (s3 & Eoff & Epl & E3n & E3i & E3o & Eent).
  unfold call_getopt_long_only, getopt_long_only_w, call_getopt_long, getopt_long_w.
  pose proof (w_argv _ _ _ _ Hat) as Ha.
  assert (Eget : nargv_get s3 (optind s3) = Ok (Some (lit "-" ++ body))) by (rewrite E3i; apply nargv_get_app with (rest := rest); rewrite E3n; exact Ha).
  rewrite Eent. rewrite (proj1 (Hscan s3 Eoff Epl ltac:(eexists; exact Eget))).
  assert (Hlong : forall w, w = sb && Nat.eqb (List.length (name_part body)) 1 -> (sb = true -> find_long true w lo (name_part body) <> NotFound) ->
    exists r s', ('(r, s0) <~ parse_long_options_w opterr (lit "-") options lo sb true s3 ;;
      if negb (r =? -1) then mute (Ok (r, EMSG s0)) else gi_short_w opterr (zlen (nargv s)) (Some lo) true options s0) =
      (Ok (r, s'), printed opterr options (long_answer (lit "-") true w lo body rest)) /\ long_result options s r s' (long_answer (lit "-") true w lo body rest)).
  { intros w -> Hf. destruct (long_outcome (lit "-") true sb opterr options lo pre body rest s3 Epl ltac:(eexists; rewrite E3n; exact Ha) E3i E3o Hha Hval Hf)
      as (r & s4 & E & Hr & E4n & Hcase).
    exists r, (EMSG s4). split.
    - rewrite E. unfold sbind. cbn [fst snd]. apply Z.eqb_neq in Hr. rewrite Hr. cbn. rewrite app_nil_r. reflexivity.
    - split; [cbn; congruence|]. rewrite (w_ind _ _ _ _ Hat). exact Hcase. }
  split.
  - intros Hn. apply Hlong; [rewrite (Hno Hn); reflexivity|]. rewrite (Hno Hn). discriminate.
  - intros Hy. set (whole := Nat.eqb (List.length (name_part body)) 1). cbv zeta. specialize (Hyes Hy). split.
    + intros Hf. apply Hlong; [rewrite Hyes; reflexivity|]. intros _. exact Hf.
    + intros Hf HW.
      rewrite Eent, (proj2 (Hscan s3 Eoff Epl ltac:(eexists; exact Eget))).
      assert (Eno : parse_long_options_w opterr (lit "-") options lo sb true s3 = (Ok (-1, s3), [])).
      { pose proof (search_found sb true (name_part body) lo 0 None false) as Hsf. cbv zeta in Hsf. rewrite Hyes in Hsf. cbn [andb] in Hsf. fold whole in Hsf.
        unfold parse_long_options_w. rewrite Epl, split_eq_parts. unfold find_long in Hf. destruct (find _ lo); [discriminate|].
        destruct (filter _ lo); [|destruct (forallb _ _); discriminate]. rewrite Hyes, Hsf. cbn [negb andb]. unfold mute. f_equal. f_equal. f_equal.
        destruct s3; unfold set_optind; cbn. f_equal. lia. }
      rewrite Eno. change (@pair (res (Z * gst)) (list str) (Ok (-1, s3)) []) with (mute (Ok (-1, s3))). rewrite sbind_ok. cbn [Z.eqb Pos.eqb negb]. unfold gi_short_w. rewrite Epl. destruct body as [|c p]; [congruence|]. cbn [hd0] in HW. apply ceqb_neq in HW.
      rewrite HW. cbn [andb]. reflexivity.
Qed.

(** If the options have [W;] then getopt_long reads [-W name], in one argument or in two, like [--name]; in the messages [-W] stands in front. *)
Theorem C84_w_option posix opterr options lo pre s before after :
  options = before ++ lit "W;" ++ after -> ~ In "W"%char before -> hd0 options <> "+"%char -> hd0 options <> "-"%char ->
  (forall o, In o lo -> lo_has_arg o = 0 \/ lo_has_arg o = 1 \/ lo_has_arg o = 2) ->
  (forall o, In o lo -> lo_flag o = false -> lo_val o <> -1) ->
  (forall body rest, at_word posix pre (@cons str (lit "-W" ++ body) rest) s -> body <> [] ->
    let ans := long_answer (lit "-W ") false false lo body rest in
    exists r s', call_getopt_long posix opterr options lo s = (Ok (r, s'), printed opterr options ans) /\ long_result options s r s' ans) /\
  (forall body rest, at_word posix pre (@cons str (lit "-W") (body :: rest)) s ->
    let ans := long_answer (lit "-W ") false false lo body rest in
    exists r s', call_getopt_long posix opterr options lo s = (Ok (r, s'), printed opterr options ans) /\ long_result options (set_optind (optind s + 1) s) r s' ans) /\
  (at_word posix pre [lit "-W"] s ->
    let ans := Complains (lit "option requires an argument -- W") true in
    exists r s', call_getopt_long posix opterr options lo s = (Ok (r, s'), printed opterr options ans) /\ long_result options s r s' ans /\ optopt s' = sc "W").
Proof.
  intros Eopts HW H1 H2 Hha Hval.
  assert (Estr : exists t, strchr options "W" = Some ("W"%char :: ";"%char :: t)).
  { exists after. rewrite Eopts. clear - HW. induction before as [|x l IH]; [reflexivity|]. cbn [app strchr].
    assert (E : ceqb x "W" = false) by (apply ceqb_neq; intros ->; apply HW; left; reflexivity). rewrite E. apply IH. intros H. apply HW. right. exact H. }
  destruct Estr as (t & Estr).
  assert (Hent : forall p rest, at_word posix pre (@cons str ("-"%char :: "W"%char :: p) rest) s -> exists s3, place_off s3 = 1 /\ place s3 = "W"%char :: p /\ nargv s3 = nargv s /\ optind s3 = zlen pre /\ optarg s3 = None /\
    call_getopt_long posix opterr options lo s = gi_short_w opterr (zlen (nargv s)) (Some lo) false options s3).
  { intros p rest Hat. destruct (enter_word posix opterr options lo pre ("W"%char :: p) rest s (List.length (nargv s)) Hat ltac:(discriminate) ltac:(discriminate) H1 H2) as (s3 & Eoff & Epl & E3n & E3i & E3o & Eent).
    exists s3. do 5 (split; [assumption|]). unfold call_getopt_long, getopt_long_w. rewrite Eent. pose proof (w_argv _ _ _ _ Hat) as Ha. unfold gi_scan_w.
    rewrite E3i, (nargv_get_app _ pre _ rest) by (rewrite E3n; exact Ha). rewrite sbind_ok, Eoff, Epl. reflexivity. }
  split; [|split].
  - intros body rest Hat Hb ans. destruct (Hent body rest Hat) as (s3 & Eoff & Epl & E3n & E3i & E3o & ->). pose proof (w_argv _ _ _ _ Hat) as Ha.
    unfold gi_short_w. rewrite Epl. cbv zeta. rewrite Estr. destruct body as [|b body]; [congruence|]. cbn [tl hd0]. change (ceqb "W" ":" || ceqb "W" "-" && negb false) with false. change (ceqb "W" "W" && ceqb ";" ";") with true. cbv iota. cbn [negb].
    set (s4 := set_place (place_off s3 + 1) (b :: body) s3).
    destruct (long_outcome (lit "-W ") false false opterr options lo pre (b :: body) rest s4 eq_refl ltac:(eexists; cbn; rewrite E3n; exact Ha) E3i E3o Hha Hval ltac:(discriminate)) as (r & s5 & E & Hr & E5n & Hcase).
    exists r, (EMSG s5). split.
    + rewrite E. unfold sbind. cbn [fst snd]. cbn. rewrite app_nil_r. reflexivity.
    + split; [cbn; rewrite E5n; exact E3n|]. rewrite (w_ind _ _ _ _ Hat). exact Hcase.
  - intros body rest Hat ans. destruct (Hent [] (body :: rest) Hat) as (s3 & Eoff & Epl & E3n & E3i & E3o & ->). pose proof (w_argv _ _ _ _ Hat) as Ha.
    unfold gi_short_w. rewrite Epl. cbv zeta. rewrite Estr. cbn [tl hd0]. change (ceqb "W" ":" || ceqb "W" "-" && negb true) with false. change (ceqb "W" "W" && ceqb ";" ";") with true. cbv iota. cbn [negb].
    set (s4 := set_optind (optind (set_place (place_off s3 + 1) [] s3) + 1) (set_place (place_off s3 + 1) [] s3)).
    assert (E4 : optind s4 = zlen (pre ++ [lit "-W"])) by (cbn; rewrite E3i, zlen_app; reflexivity).
    assert (Ha4 : nargv s4 = (pre ++ [lit "-W"]) ++ body :: rest) by (cbn [s4 nargv set_optind set_place]; rewrite E3n, <- app_assoc; exact Ha).
    assert (Elt : (zlen (nargv s) <=? optind s4) = false).
    { apply Z.leb_gt. rewrite E4, Ha, !zlen_app, !zlen_cons. pose proof (zlen_nonneg rest). rewrite zlen_nil. lia. }
    rewrite Elt, E4. rewrite (nargv_get_app _ (pre ++ [lit "-W"]) body rest) by exact Ha4. rewrite sbind_ok.
    set (s5 := set_place 0 body s4).
    destruct (long_outcome (lit "-W ") false false opterr options lo (pre ++ [lit "-W"]) body rest s5 eq_refl ltac:(eexists; exact Ha4) E4 E3o Hha Hval ltac:(discriminate)) as (r & s6 & E & Hr & E6n & Hcase).
    exists r, (EMSG s6). split.
    + rewrite E. unfold sbind. cbn [fst snd]. cbn. rewrite app_nil_r. reflexivity.
    + split; [cbn; rewrite E6n; exact E3n|]. cbn [optind set_optind]. rewrite (w_ind _ _ _ _ Hat). replace (zlen pre + 1) with (zlen (pre ++ [lit "-W"])) by (rewrite zlen_app; reflexivity). exact Hcase.
  - intros Hat ans. destruct (Hent [] [] Hat) as (s3 & Eoff & Epl & E3n & E3i & E3o & ->). pose proof (w_argv _ _ _ _ Hat) as Ha.
    unfold gi_short_w. rewrite Epl. cbv zeta. rewrite Estr. cbn [tl hd0]. change (ceqb "W" ":" || ceqb "W" "-" && negb true) with false. change (ceqb "W" "W" && ceqb ";" ";") with true. cbv iota. cbn [negb].
    assert (Elt : (zlen (nargv s) <=? optind (set_optind (optind (set_place (place_off s3 + 1) [] s3) + 1) (set_place (place_off s3 + 1) [] s3))) = true).
    { apply Z.leb_le. cbn. rewrite E3i, Ha, zlen_app, zlen_cons, zlen_nil. lia. }
    rewrite Elt. eexists _, _. split.
    + unfold sbind, warn, mute, printed, PRINT_ERROR. cbn [fst snd ans]. rewrite app_nil_r. reflexivity.
    + split; [|reflexivity]. split; [cbn; exact E3n|]. split; [|cbn; rewrite E3i; rewrite (w_ind _ _ _ _ Hat); reflexivity].
      unfold BADARG. destruct options as [|c o]; [reflexivity|]. cbn. destruct (ceqb c ":"); reflexivity.
Qed.

(** The functions with messages return what those without them return. *)
Theorem C84_same_results posix opterr fuel nargc options lo s :
  fst (getopt_long_w posix opterr fuel nargc (Some options) lo s) = getopt_long posix fuel nargc options lo s /\
  fst (getopt_long_only_w posix opterr fuel nargc (Some options) lo s) = getopt_long_only posix fuel nargc options lo s /\
  fst (getopt_w posix opterr fuel nargc (Some options) s) = getopt_internal posix nargc None false fuel options false s.
Proof. repeat split; apply internal_erase. Qed.

(** ** Examples *)
Definition argv_state (words : list string) : gst := set_nargv (map lit words) gst_init.
Lemma argv_begins words : begins (map lit words) (argv_state words).
Proof. split; [reflexivity|]. right. split; [reflexivity|]. right. repeat split. Qed.
Definition digest (m : said (list seen * gst)) : option (list (Z * Z * option str) * Z * list str) :=
  match fst m with Ok (l, s) => Some (map (fun o => (seen_ret o, seen_optopt o, seen_optarg o)) l, optind s, snd m) | _ => None end.

(** A program with the options a, b with a value, c with an optional one. *)
Definition ex_ds : list (ascii * want) := [("a"%char, NoValue); ("b"%char, Value); ("c"%char, MaybeValue)].
Definition ex_line : list string := ["prog"; "-axb"; "one"; "-c"; "-ctwo"; "-"; "-a"]%string.
Example C84_letters_case : forall d, In d ex_ds -> letter (fst d).
Proof. intros d H. repeat (destruct H as [<-|H]; [repeat split; discriminate|]). destruct H. Qed.
Example C84_getopt_case :
  optstring false ex_ds = lit "ab:c::" /\
  digest (scan_all (call_getopt false true (lit "ab:c::")) 20 (argv_state ex_line)) =
    Some ([(97, 63, None); (63, 120, None); (98, 120, Some (lit "one")); (99, 120, None); (99, 120, Some (lit "two"))], 5, [lit "invalid option -- x"]) /\
  arguments ex_ds (map lit (tl ex_line)) =
    ([Option_ "a" None; Unknown "x"; Option_ "b" (Some (lit "one")); Option_ "c" None; Option_ "c" (Some (lit "two"))], [lit "-"; lit "-a"]).
Proof. repeat split; vm_compute; reflexivity. Qed.
Example C84_getopt_missing_case :
  digest (scan_all (call_getopt true true (lit "ab:")) 20 (argv_state ["prog"; "-z"; "-b"]%string)) =
    Some ([(63, 122, None); (63, 98, None)], 3, [lit "illegal option -- z"; lit "option requires an argument -- b"]) /\
  digest (scan_all (call_getopt true true (lit ":ab:")) 20 (argv_state ["prog"; "-z"; "-b"]%string)) = Some ([(63, 122, None); (58, 98, None)], 3, []).
Proof. split; vm_compute; reflexivity. Qed.

Definition ex_lopts : list lopt :=
  [{| lo_name := lit "verbose"; lo_has_arg := 0; lo_flag := false; lo_val := 118 |};
   {| lo_name := lit "version"; lo_has_arg := 0; lo_flag := false; lo_val := 86 |};
   {| lo_name := lit "output"; lo_has_arg := 1; lo_flag := false; lo_val := 111 |}].
Definition ex_long_line : list string := ["prog"; "--ver"; "--verb=x"; "x"; "--out=y"; "--quiet=1"; "--vers"; "--output"]%string.
Example C84_long_case :
  digest (scan_all (call_getopt_long false true (lit "v") ex_lopts) 20 (argv_state ex_long_line)) =
    Some ([(63, 0, None); (63, 118, None); (111, 118, Some (lit "y")); (63, 0, None); (86, 0, None); (63, 111, None)], 7,
      [lit "option `--ver' is ambiguous"; lit "option `--verb' doesn't allow an argument"; lit "unrecognized option `--quiet=1'"; lit "option `--output' requires an argument"]).
Proof. vm_compute. reflexivity. Qed.
Example C84_one_line_each_case :
  Forall tame (map lit ex_long_line) /\ ~ quiet_options (lit "v") /\ ~ In "?"%char (lit "v") /\
  (forall o, In o ex_lopts -> lo_flag o = false -> lo_val o <> sc "?").
Proof.
  split; [|split; [|split]].
  - unfold ex_long_line. cbn [map].
    repeat (apply Forall_cons; [right; right; intros [r E]; apply (f_equal (@rev ascii)) in E; rewrite rev_app_distr in E; discriminate|]). apply Forall_nil.
  - intros (rest & [E|[E|E]]); discriminate.
  - intros [E|[]]; discriminate.
  - intros o H _. repeat (destruct H as [<-|H]; [discriminate|]). destruct H.
Qed.
Example C84_silent_case :
  snd (scan_all (call_getopt_long false true (lit ":v") ex_lopts) 20 (argv_state ex_long_line)) = [] /\
  snd (scan_all (call_getopt_long false false (lit "v") ex_lopts) 20 (argv_state ex_long_line)) = [] /\
  quiet_options (lit ":v").
Proof. split; [vm_compute; reflexivity|]. split; [vm_compute; reflexivity|]. eexists. left. reflexivity. Qed.
(** The word [--output=file] at the start of a scan. *)
Example C84_long_option_case :
  at_word false [lit "prog"] (@cons str (lit "--" ++ lit "out=y") [lit "z"]) (begun false (argv_state ["prog"; "--out=y"; "z"]%string)) /\
  long_answer (lit "--") false false ex_lopts (lit "out=y") [lit "z"] = Reports {| lo_name := lit "output"; lo_has_arg := 1; lo_flag := false; lo_val := 111 |} (Some (lit "y")) 1.
Proof. split; [apply (begun_at false (lit "prog") _ _ (argv_begins ["prog"; "--out=y"; "z"]%string))|vm_compute; reflexivity]. Qed.

(** getopt_long_only: behind one dash; -ver begins two names, -quiet none, -o is an option letter and begins a name, -vx is a cluster of letters. *)
Example C84_one_dash_case :
  digest (scan_all (call_getopt_long_only false true (lit "vxo:") ex_lopts) 20 (argv_state ["prog"; "-ver"; "-quiet"; "-out=y"; "-o"; "z"; "-vx"; "-verbose=1"; "--outp"]%string)) =
    Some ([(63, 0, None); (63, 0, None); (111, 0, Some (lit "y")); (111, 0, Some (lit "z")); (118, 0, None); (120, 0, None); (63, 118, None); (63, 111, None)], 9,
      [lit "option `-ver' is ambiguous"; lit "unrecognized option `-quiet'"; lit "option `-verbose' doesn't allow an argument"; lit "option `--outp' requires an argument"]) /\
  at_word false [lit "prog"] (@cons str (lit "-" ++ lit "ver") []) (begun false (argv_state ["prog"; "-ver"]%string)) /\
  short_option (lit "vxo:") "v" /\ ~ short_option (lit "vxo:") "q" /\
  find_long true false ex_lopts (lit "ver") = Ambiguous /\ find_long true true ex_lopts (lit "o") = NotFound /\ find_long true false ex_lopts (lit "o") <> NotFound.
Proof.
  split; [vm_compute; reflexivity|]. split; [apply (begun_at false (lit "prog") _ _ (argv_begins ["prog"; "-ver"]%string))|].
  split; [split; [discriminate|vm_compute; auto]|]. split; [intros [_ H]; vm_compute in H; intuition discriminate|]. repeat split; vm_compute; congruence.
Qed.

(** -W with a name, in one argument and in two, and at the end. *)
Example C84_w_option_case :
  digest (scan_all (call_getopt_long false true (lit "vW;x") ex_lopts) 20 (argv_state ["prog"; "-Wout=y"; "-W"; "ver"; "-vW"; "output"; "z"; "-Wquiet"; "-W"]%string)) =
    Some ([(111, 63, Some (lit "y")); (63, 0, None); (118, 0, None); (111, 0, Some (lit "z")); (63, 0, None); (63, 87, None)], 9,
      [lit "option `-W ver' is ambiguous"; lit "unrecognized option `-W quiet'"; lit "option requires an argument -- W"]) /\
  at_word false [lit "prog"] (@cons str (lit "-W") [lit "ver"]) (begun false (argv_state ["prog"; "-W"; "ver"]%string)) /\
  lit "vW;x" = lit "v" ++ lit "W;" ++ lit "x" /\ ~ In "W"%char (lit "v") /\
  long_answer (lit "-W ") false false ex_lopts (lit "ver") [] = Complains (lit "option `-W ver' is ambiguous") false.
Proof.
  split; [vm_compute; reflexivity|]. split; [apply (begun_at false (lit "prog") _ _ (argv_begins ["prog"; "-W"; "ver"]%string))|].
  split; [reflexivity|]. split; [intros [H|[]]; discriminate|vm_compute; reflexivity].
Qed.

(** A table with one flag, given bad options by a program that has left opterr as it was: two errors are recorded, nothing is printed, and opterr
    is cleared. *)
Definition ex_flag : entry unit :=
  {| e_hdr := {| h_hasvalue := false; h_hasoptvalue := false; h_shortopts := Some (lit "a"); h_longopts := Some (lit "all"); h_datatype := None;
       h_glossary := None; h_mincount := 0; h_maxcount := 1 |}; e_body := tt |}.
Example C84_parse_says_nothing_case :
  match arg_parse_w (fun _ _ => None) (fun _ _ => None) (fun _ b => Ok b) false
    (fun _ => {| ro_name := None; ro_has_arg := 0; ro_flag := false; ro_val := 0 |}) (fun _ => NUL) (fun _ => None) true false 10 3 0
    [BArgv [Some (lit "prog"); Some (lit "-az"); Some (lit "--al=1"); None]] gst_init [ex_flag]
    {| end_max := 5; end_count := 0; end_error := repeat 0 5; end_parent := repeat PEnd 5; end_argval := repeat None 5 |} with
  | (Ok (_, _, _, en, opterr), ms) => end_count en = 2 /\ opterr = false /\ ms = []
  | _ => False
  end.
Proof. vm_compute. repeat split. Qed.

(** ** Findings *)
(** With getopt an argument whose last letter is a dash ends the scan: the dash is not reported as POSIX demands, and the argument, of which the
    options in front of the dash have been read, is left among the operands. *)
Theorem C84_dash_refuted : exists ds words,
  (forall d, In d ds -> letter (fst d)) /\ begins words (argv_state ["prog"; "-a-"; "-b"]%string) /\
  digest (scan_all (call_getopt false true (optstring false ds)) 10 (argv_state ["prog"; "-a-"; "-b"]%string)) = Some ([(97, 63, None)], 1, []).
Proof.
  exists [("a"%char, NoValue); ("b"%char, NoValue)], (map lit ["prog"; "-a-"; "-b"]%string). split; [|split; [apply argv_begins|vm_compute; reflexivity]].
  intros d H. repeat (destruct H as [<-|H]; [repeat split; discriminate|]). destruct H.
Qed.
(** With getopt_long the same argument is complained of without a message, and read again and again. *)
Theorem C84_one_line_each_refuted : exists fuel words,
  begins words (argv_state ["prog"; "-a-"]%string) /\ ~ quiet_options (lit "a") /\
  scan_all (call_getopt_long false true (lit "a") []) fuel (argv_state ["prog"; "-a-"]%string) = (OutOfFuel, []) /\
  match call_getopt_long false true (lit "a") [] (argv_state ["prog"; "-a-"]%string) with
  | (Ok (r, s), m) => r = sc "a" /\ m = [] /\
      match call_getopt_long false true (lit "a") [] s with
      | (Ok (r', s'), m') => r' = sc "?" /\ m' = [] /\ optind s' = 1 /\ place s' = []
      | _ => False
      end
  | _ => False
  end.
Proof.
  exists 50%nat, (map lit ["prog"; "-a-"]%string). split; [apply argv_begins|]. split; [intros (rest & [E|[E|E]]); discriminate|].
  split; [vm_compute; reflexivity|]. vm_compute. repeat split.
Qed.
(** The character 255 cannot be an option letter: where char is signed it is returned as -1, the end of the scan. *)
Theorem C84_letter_refuted :
  digest (scan_all (call_getopt false true (optstring false [(chr 255, NoValue); ("a"%char, NoValue)])) 10
    (set_nargv [lit "prog"; ["-"%char; chr 255]; lit "-a"] gst_init)) = Some ([], 2, []).
Proof. vm_compute. reflexivity. Qed.

Print Assumptions C84_getopt.
Print Assumptions C84_one_line_each.
Print Assumptions C84_silent.
Print Assumptions C84_long_option.
Print Assumptions C84_long_only.
Print Assumptions C84_one_dash.
Print Assumptions C84_w_option.
Print Assumptions C84_parse_says_nothing.
Print Assumptions C84_same_results.
Print Assumptions C84_dash_refuted.
Print Assumptions C84_one_line_each_refuted.
Print Assumptions C84_letter_refuted.
