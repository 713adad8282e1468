(** Properties of ignore patterns (C46-C49, C56). *)
From Coq Require Import String Ascii.
From Verif Require Import Util IgnoreModel PcreSpec IgnoreSpec IgnoreProofs.
Local Open Scope list_scope.
Local Open Scope N_scope.

(** ** C46: the last matching pattern decides *)
Section Match.
Context {R : Type} (exec : R -> str -> bool).

Definition verdict (p : pat R) : mres := if g_neg (p_flags p) then MWhite else MIgnored.

Lemma applies_dec p rel d : {applies R exec p rel d} + {~ applies R exec p rel d}.
Proof.
  unfold applies. destruct (g_dir (p_flags p)), d, (exec (p_re p) rel); try (left; intuition congruence); right; intuition congruence.
Qed.
Lemma match_pats_cons p ps rel d res :
  match_pats R exec (p :: ps) rel d res = match_pats R exec ps rel d (if applies_dec p rel d then verdict p else res).
Proof.
  cbn [match_pats]. destruct (applies_dec p rel d) as [[A B]|N].
  - rewrite B. destruct (g_dir (p_flags p)); [rewrite A by auto|]; reflexivity.
  - unfold applies in N. destruct (g_dir (p_flags p)) eqn:G, d; cbn [andb negb]; auto;
      destruct (exec (p_re p) rel) eqn:E; auto; exfalso; apply N; auto.
Qed.
Lemma match_pats_none ps rel d res : Forall (fun q => ~ applies R exec q rel d) ps -> match_pats R exec ps rel d res = res.
Proof.
  induction 1 as [|p ps N F IH]; auto. rewrite match_pats_cons. destruct (applies_dec p rel d); [tauto|auto].
Qed.
Lemma match_pats_last ps rel d res p : last_applying R exec ps rel d p -> match_pats R exec ps rel d res = verdict p.
Proof.
  intros (a & b & -> & A & F). revert res. induction a as [|x a IH]; intros res; cbn [app]; rewrite match_pats_cons; auto.
  destruct (applies_dec p rel d); [|tauto]. now apply match_pats_none.
Qed.
Lemma last_or_none ps rel d : Forall (fun q => ~ applies R exec q rel d) ps \/ exists p, last_applying R exec ps rel d p.
Proof.
  induction ps as [|x ps IH]; [left; constructor|]. destruct IH as [F|(p & a & b & -> & A & F)].
  - destruct (applies_dec x rel d); [right; exists x, [], ps; auto|left; constructor; auto].
  - right. exists p, (x :: a), b. auto.
Qed.

Lemma after_base_spec base rest : after_base base (base ++ rest) = Some rest.
Proof. induction base as [|b base IH]; cbn [after_base app]; auto. now rewrite N.eqb_refl. Qed.
Lemma after_base_inv base : forall path rest, after_base base path = Some rest -> path = base ++ rest.
Proof.
  induction base as [|b base IH]; intros [|x path] rest E; cbn [after_base] in E; try discriminate E;
    try (injection E as <-; reflexivity).
  destruct (N.eqb_spec b x) as [->|]; [|discriminate E]. cbn [app]. f_equal. now apply IH.
Qed.
Lemma skip_slashes_spec k rel : hd 0 rel <> chr "/" -> skip_slashes (repeat (chr "/") k ++ rel) = rel.
Proof.
  intros H. induction k as [|k IH]; cbn [repeat app skip_slashes]; auto.
  destruct rel as [|c rel]; auto. cbn [hd] in H. cbn [skip_slashes]. apply N.eqb_neq in H. now rewrite H.
Qed.
Lemma chain_cons c cs path rel d res : relative (c_base c) path rel ->
  match_chain R exec (c :: cs) path d res = match_chain R exec cs path d (match_pats R exec (c_pats c) rel d res).
Proof.
  intros (k & -> & H). cbn [match_chain]. rewrite after_base_spec. now rewrite skip_slashes_spec.
Qed.
End Match.

Theorem last_match_decides : forall R (exec : R -> str -> bool) base ps path rel is_dir,
  relative base path rel ->
  (ignore_match R exec [mkCtx base ps] path is_dir = MIgnored <->
     exists p, last_applying R exec ps rel is_dir p /\ g_neg (p_flags p) = false) /\
  (ignore_match R exec [mkCtx base ps] path is_dir = MWhite <->
     exists p, last_applying R exec ps rel is_dir p /\ g_neg (p_flags p) = true) /\
  (ignore_match R exec [mkCtx base ps] path is_dir = MNone <-> forall p, In p ps -> ~ applies R exec p rel is_dir).
Proof.
  intros R exec base ps path rel d RL. unfold ignore_match. rewrite (chain_cons exec (mkCtx base ps) [] path rel d MNone RL).
  cbn [match_chain c_pats]. destruct (last_or_none exec ps rel d) as [F|(p & L)].
  - rewrite match_pats_none by auto. rewrite Forall_forall in F.
    assert (NL : forall p, ~ last_applying R exec ps rel d p).
    { intros p (a & b & -> & A & _). apply (F p); auto. apply in_app_iff. right. now left. }
    split; [|split]; split; try discriminate; auto.
    + intros (p & L & _). now destruct (NL p).
    + intros (p & L & _). now destruct (NL p).
  - assert (L' := L). pose proof (match_pats_last exec ps rel d) as ML. rewrite (ML MNone p L). unfold verdict.
    assert (U : forall q, last_applying R exec ps rel d q -> g_neg (p_flags q) = g_neg (p_flags p)).
    { intros q Q. pose proof (ML MNone q Q) as E. rewrite (ML MNone p L) in E. unfold verdict in E.
      destruct (g_neg (p_flags p)), (g_neg (p_flags q)); auto; discriminate E. }
    destruct L' as (a & b & EQ & A & _).
    destruct (g_neg (p_flags p)) eqn:G; (split; [|split]); split; try discriminate; intros H;
      try (now exists p); try (destruct H as (q & Q & GQ); specialize (U q Q); congruence); auto.
    + exfalso. apply (H p); auto. rewrite EQ. apply in_app_iff. right. now left.
    + exfalso. apply (H p); auto. rewrite EQ. apply in_app_iff. right. now left.
Qed.

(** patterns are identified by what they match here: a prefix test *)
Fixpoint has_prefix (p s : str) : bool :=
  match p, s with [], _ => true | a :: p', b :: s' => (a =? b) && has_prefix p' s' | _, [] => false end.
Definition ex_pats : list (pat str) :=
  [mkPat (lit "log") (mkGf false false); mkPat (lit "log/keep") (mkGf true false); mkPat (lit "log/keep/x") (mkGf false true)].
Example last_match_ex :
  relative (lit "/home") (lit "/home//log/keep") (lit "log/keep") /\
  ignore_match str has_prefix [mkCtx (lit "/home") ex_pats] (lit "/home/log/a") false = MIgnored /\
  ignore_match str has_prefix [mkCtx (lit "/home") ex_pats] (lit "/home//log/keep") false = MWhite /\
  ignore_match str has_prefix [mkCtx (lit "/home") ex_pats] (lit "/home/log/keep/x") true = MIgnored /\
  ignore_match str has_prefix [mkCtx (lit "/home") ex_pats] (lit "/home/log/keep/x") false = MWhite /\
  ignore_match str has_prefix [mkCtx (lit "/home") ex_pats] (lit "/home/src") false = MNone.
Proof. split; [exists 2%nat; split; [reflexivity|discriminate]|]. vm_compute. auto. Qed.

(** ** C47: ignore files closer to the path take precedence *)

(** the context [c] has something to say about the path, and says [v] *)
Definition says {R} (exec : R -> str -> bool) (c : ctx R) (path : str) (is_dir : bool) (v : mres) : Prop :=
  exists rel p, relative (c_base c) path rel /\ last_applying R exec (c_pats c) rel is_dir p /\
    v = if g_neg (p_flags p) then MWhite else MIgnored.
Definition silent {R} (exec : R -> str -> bool) (c : ctx R) (path : str) (is_dir : bool) : Prop :=
  forall rel p, relative (c_base c) path rel -> In p (c_pats c) -> ~ applies R exec p rel is_dir.

Lemma relative_of base path rest : after_base base path = Some rest -> relative base path (skip_slashes rest).
Proof.
  intros E. apply after_base_inv in E as ->. assert (H : exists k, rest = repeat (chr "/") k ++ skip_slashes rest /\ hd 0 (skip_slashes rest) <> chr "/").
  { induction rest as [|c rest IH]; [exists 0%nat; split; [reflexivity|discriminate]|].
    cbn [skip_slashes]. destruct (N.eqb_spec c (chr "/")) as [->|NE].
    - destruct IH as (k & E & H). exists (S k). cbn [repeat app]. split; [now rewrite <- E|exact H].
    - exists 0%nat. split; auto. }
  destruct H as (k & E & H). exists k. split; [now rewrite <- E|exact H].
Qed.
Lemma relative_fun base path r1 r2 : relative base path r1 -> relative base path r2 -> r1 = r2.
Proof.
  intros (k & E1 & H1) (m & E2 & H2). rewrite E1 in E2. apply app_inv_head in E2.
  rewrite <- (skip_slashes_spec k r1 H1), <- (skip_slashes_spec m r2 H2). now rewrite E2.
Qed.
Lemma chain_silent {R} (exec : R -> str -> bool) c cs path d res : silent exec c path d ->
  match_chain R exec (c :: cs) path d res = match_chain R exec cs path d res.
Proof.
  intros S. cbn [match_chain]. destruct (after_base (c_base c) path) as [rest|] eqn:E; auto.
  rewrite match_pats_none; auto. apply Forall_forall. intros p I. eapply S; eauto. now apply relative_of.
Qed.
Lemma chain_says {R} (exec : R -> str -> bool) c cs path d res v : says exec c path d v ->
  match_chain R exec (c :: cs) path d res = match_chain R exec cs path d v.
Proof.
  intros (rel & p & RL & L & ->). rewrite (chain_cons exec c cs path rel d res RL).
  rewrite (match_pats_last exec _ _ _ res p L). reflexivity.
Qed.
Lemma says_or_silent {R} (exec : R -> str -> bool) c path d : silent exec c path d \/ exists v, says exec c path d v.
Proof.
  destruct (after_base (c_base c) path) as [rest|] eqn:E.
  - assert (RL := relative_of _ _ _ E). destruct (last_or_none exec (c_pats c) (skip_slashes rest) d) as [F|(p & L)].
    + left. intros rel p R2 I. rewrite (relative_fun _ _ _ _ R2 RL). rewrite Forall_forall in F. auto.
    + right. eexists. exists (skip_slashes rest), p. eauto.
  - left. intros rel p (k & -> & _). now rewrite after_base_spec in E.
Qed.

(** What the code does: the outermost context that has something to say decides. *)
Theorem outermost_decides : forall R (exec : R -> str -> bool) inner c outer path is_dir v,
  says exec c path is_dir v -> Forall (fun o => silent exec o path is_dir) outer ->
  ignore_match R exec (inner ++ c :: outer) path is_dir = v.
Proof.
  intros R exec inner c outer path d v S F. unfold ignore_match. generalize MNone as res.
  induction inner as [|x inner IH]; intros res; cbn [app].
  - rewrite (chain_says exec c outer path d res v S). clear -F. induction F as [|o outer SO F IH]; auto.
    rewrite chain_silent; auto.
  - cbn [match_chain]. destruct (after_base (c_base x) path); apply IH.
Qed.

(** C47 where it holds: the contexts further out are silent or agree.  Missing: an ignore
    file that overrides one further out, see the refutation. *)
Theorem closest_decides_partial : forall R (exec : R -> str -> bool) inner c outer path is_dir v,
  Forall (fun i => silent exec i path is_dir) inner -> says exec c path is_dir v ->
  Forall (fun o => silent exec o path is_dir \/ says exec o path is_dir v) outer ->
  ignore_match R exec (inner ++ c :: outer) path is_dir = v.
Proof.
  intros R exec inner c outer path d v I S F. unfold ignore_match. generalize MNone as res.
  induction I as [|x inner SX I IH]; intros res; cbn [app].
  - rewrite (chain_says exec c outer path d res v S). clear -F. induction F as [|o outer SO F IH]; auto.
    destruct SO as [SO|SO]; [rewrite chain_silent; auto|rewrite (chain_says exec o outer path d v v SO); auto].
  - rewrite chain_silent; auto.
Qed.
(** no context speaks: not ignored *)
Theorem silent_chain : forall R (exec : R -> str -> bool) cs path is_dir,
  Forall (fun i => silent exec i path is_dir) cs -> ignore_match R exec cs path is_dir = MNone.
Proof.
  intros R exec cs path d F. unfold ignore_match. induction F as [|x cs S F IH]; auto. rewrite chain_silent; auto.
Qed.

(** the child says keep, the parent says ignore: ignored *)
Theorem closest_decides_refuted : exists R (exec : R -> str -> bool) child parent path,
  says exec child path false MWhite /\ says exec parent path false MIgnored /\
  ignore_match R exec [child; parent] path false = MIgnored.
Proof.
  exists str, has_prefix, (mkCtx (lit "/a/b") [mkPat (lit "x") (mkGf true false)]),
    (mkCtx (lit "/a") [mkPat (lit "b/x") (mkGf false false)]), (lit "/a/b/x").
  split; [|split; [|vm_compute; reflexivity]].
  - exists (lit "x"), (mkPat (lit "x") (mkGf true false)). split; [exists 1%nat; split; [reflexivity|discriminate]|].
    split; auto. exists [], []. split; auto. split; [split; [discriminate|reflexivity]|constructor].
  - exists (lit "b/x"), (mkPat (lit "b/x") (mkGf false false)). split; [exists 1%nat; split; [reflexivity|discriminate]|].
    split; auto. exists [], []. split; auto. split; [split; [discriminate|reflexivity]|constructor].
Qed.

(** ** C48: the translation preserves the meaning *)

(** For the patterns described in IgnoreSpec.  Missing: paths with a newline, escaped letters
    and digits, negated and exotic bracket expressions, two stars before a final slash; see
    the refutations. *)
Theorem glob_translation_partial : forall neg anchored dir ts,
  toks_ok ts -> start_ok neg anchored ts -> end_ok dir ts -> glob_to_pcre (line neg anchored dir ts) <> GOver ->
  exists text r,
    glob_to_pcre (line neg anchored dir ts) = GOk (mkGf neg dir) text /\ pcre_read text = Some r /\
    forall path, ~ In 10 path -> (found r path <-> hits anchored dir ts path).
Proof.
  intros neg anch dir ts OK ST EN NO. unfold glob_to_pcre in *. rewrite handle_prefix_line in * by auto.
  cbn [g_dir] in *. rewrite convert_toks in *; auto.
  2, 3: intros ->; exact EN.
  destruct (_ <? MAX_PATTERN_LEN); [|congruence].
  eexists. eexists. split; [reflexivity|]. split; [now apply read_whole|]. intros path NL. now apply found_hits.
Qed.

(** "*.o", "/src/**/b?/", "!a[0-9x]" *)
Definition ex_star := [GStar; GLit 46; GLit 111].
Definition ex_deep := [GLit 115; GLit 47; GDirs; GLit 98; GOne].
Definition ex_set := [GLit 97; GSet [(48, 57); (120, 120)]].
Example glob_lines : line false false false ex_star = lit "*.o" /\ line false true true ex_deep = lit "/s/**/b?/" /\
  line true false false ex_set = lit "!a[0-9x]".
Proof. repeat split. Qed.
Example glob_hyps :
  (toks_ok ex_star /\ start_ok false false ex_star /\ end_ok false ex_star) /\
  (toks_ok ex_deep /\ start_ok false true ex_deep /\ end_ok true ex_deep) /\
  (toks_ok ex_set /\ start_ok true false ex_set /\ end_ok false ex_set).
Proof.
  repeat apply conj; cbn; try tauto; try discriminate; try (unfold letter_or_digit; intuition lia).
  - exists 42, (lit ".o"). split; auto. repeat split; discriminate.
  - exists (lit "*."), 111. repeat split; discriminate.
  - exists 115, (lit "/**/b?"). split; auto. discriminate.
  - repeat constructor; cbn; unfold letter_or_digit; lia.
  - exists 97, (lit "[0-9x]"). split; auto. repeat split; discriminate.
  - exists (lit "a[0-9x"), 93. repeat split; discriminate.
Qed.
Example hits_ex : hits false false ex_star (lit "dir/x.o") /\ hits true true ex_deep (lit "s/p/q/bz/file") /\
  ~ hits true true ex_deep (lit "t/s/bz").
Proof.
  split; [|split].
  - exists (lit "x.o"). split; [right; split; [auto|exists (lit "dir"); reflexivity]|].
    exists (lit "x"), (lit ".o"). split; auto. split; [cbn; intuition discriminate|].
    exists [46], [111]. split; auto. split; [reflexivity|]. exists [111], []. repeat split.
  - exists (lit "s/p/q/bz/file"). split; [left; auto|]. exists (lit "s/p/q/bz"), (lit "/file"). split; auto. split; [|right; eexists; reflexivity].
    exists [115], (lit "/p/q/bz"). split; auto. split; [reflexivity|]. exists [47], (lit "p/q/bz"). split; auto. split; [reflexivity|].
    exists (lit "p/q/"), (lit "bz"). split; auto. split; [right; exists (lit "p/q"); reflexivity|].
    exists [98], [122]. split; auto. split; [reflexivity|]. exists [122], []. split; auto. split; [|reflexivity]. exists 122. split; auto. discriminate.
  - intros (t & [->|[D _]] & H); [|discriminate D]. destruct H as (x & y & E & (u & v & -> & TM & _) & _).
    cbn in TM. subst u. discriminate E.
Qed.

(** *** Refutations of C48 *)
Definition translated (p : str) (r : re) : Prop := exists f text, glob_to_pcre p = GOk f text /\ pcre_read text = Some r.
Lemma found_suffix anch ts path t : ~ In 10 path -> tail_of anch path t -> means ts t -> found (Seq (head_re anch) (seqs ts (end_re false))) path.
Proof. intros NL T M. apply found_hits; auto. exists t. auto. Qed.

(** the dollar also matches before a final newline: "a" hits the file named "a\n" *)
Theorem glob_newline_refuted : exists ts r, toks_ok ts /\ start_ok false false ts /\ end_ok false ts /\
  translated (line false false false ts) r /\ exists path, found r path /\ ~ hits false false ts path.
Proof.
  exists [GLit 97]. eexists. split; [cbn; intuition discriminate|].
  split; [exists 97, []; repeat split; discriminate|]. split; [exists [], 97; repeat split; discriminate|].
  split; [eexists; eexists; split; [vm_compute; reflexivity|vm_compute; reflexivity]|].
  exists [97; 10]. split.
  - exists [], [97], [10]. split; auto. exists [], [97]. split; auto. split.
    + left. exists [], []. repeat split.
    + exists [97], []. split; auto. split; [reflexivity|]. exists [], []. split; auto. split; [|reflexivity]. split; auto.
  - intros (t & T & M). cbn in M. destruct M as (x & y & -> & -> & ->). destruct T as [E|(_ & b & E)]; [discriminate E|].
    apply (f_equal (@rev N)) in E. rewrite rev_app_distr in E. discriminate E.
Qed.
(** an escaped letter is not that letter: "\d" hits "5" and does not hit "d" *)
Theorem glob_escape_refuted : exists r, translated (lit "\d") r /\ found r (lit "5") /\ ~ found r (lit "d").
Proof.
  eexists. split; [eexists; eexists; split; [vm_compute; reflexivity|vm_compute; reflexivity]|]. split.
  - exists [], [53], []. split; auto. exists [], [53]. split; auto. split; [left; exists [], []; repeat split|].
    exists [53], []. split; auto. split; [exists 53; split; auto; exists 48, 57; split; [now left|lia]|].
    exists [], []. repeat split. now left.
  - intros (b & m & a & E & x & y & -> & _ & z & w & -> & (c & -> & lo & hi & [I|[]] & R) & _). injection I as <- <-.
    assert (IN : In c (lit "d")). { rewrite E. rewrite !in_app_iff. right. left. right. left. now left. }
    cbn in IN. destruct IN as [<-|[]]. lia.
Qed.
(** a negated bracket expression matches a slash: "a[!b]c" hits "a/c" *)
Theorem glob_negated_set_refuted : exists r, translated (lit "a[!b]c") r /\ found r (lit "a/c").
Proof.
  eexists. split; [eexists; eexists; split; [vm_compute; reflexivity|vm_compute; reflexivity]|].
  exists [], (lit "a/c"), []. split; auto. exists [], (lit "a/c"). split; auto. split; [left; exists [], []; repeat split|].
  exists [97], (lit "/c"). split; auto. split; [reflexivity|]. exists [47], [99]. split; auto. split.
  { exists 47. split; auto. intros (lo & hi & [I|[]] & R). injection I as <- <-. lia. }
  exists [99], []. split; auto. split; [reflexivity|]. exists [], []. repeat split. now left.
Qed.
(** a pattern with a slash inside is anchored for Git, not here: "a/b" hits "x/a/b" *)
Theorem glob_middle_slash_refuted : exists r, translated (lit "a/b") r /\ found r (lit "x/a/b").
Proof.
  eexists. split; [eexists; eexists; split; [vm_compute; reflexivity|vm_compute; reflexivity]|].
  apply (found_suffix false [GLit 97; GLit 47; GLit 98] _ (lit "a/b")).
  - cbn. intuition discriminate.
  - right. split; auto. exists (lit "x"). reflexivity.
  - exists [97], (lit "/b"). split; auto. split; [reflexivity|]. exists [47], [98]. split; auto. split; [reflexivity|].
    exists [98], []. repeat split.
Qed.
(** "a/**/" does not hit the directory "a/x" *)
Theorem glob_deep_dir_refuted : exists r, translated (lit "a/**/") r /\ ~ found r (lit "a/x").
Proof.
  eexists. split; [eexists; eexists; split; [vm_compute; reflexivity|vm_compute; reflexivity]|].
  intros F. assert (H : hits false true [GLit 97; GLit 47; GDirs] (lit "a/x")).
  { apply found_hits; [cbn; intuition discriminate|]. exact F. }
  destruct H as (t & T & x & y & E & M & Y). cbn in M.
  destruct M as (x1 & y1 & -> & -> & x2 & y2 & -> & -> & x3 & y3 & -> & D & ->).
  assert (T' : t = lit "a/x").
  { destruct T as [->|(_ & b & EB)]; auto. exfalso. rewrite E in EB. cbn in EB.
    destruct b as [|b1 [|b2 [|b3 [|b4 b]]]]; discriminate EB. }
  rewrite T' in E. rewrite app_nil_r in E. destruct D as [->|(d & ->)].
  - cbn in E. injection E as E. destruct Y as [->|(z & ->)]; discriminate E.
  - cbn in E. injection E as E. destruct d as [|d1 [|d2 d]]; discriminate E.
Qed.

(** ** C49: the translation stays inside its buffer *)

(** Missing: longer patterns; the loader passes lines of up to 4095 characters. *)
Theorem glob_buffer_partial : forall p, (length p <= 817)%nat -> exists f text,
  glob_to_pcre p = GOk f text /\ N.of_nat (S (length text)) <= 4096.
Proof.
  intros p L. assert (PL := prefix_len p). unfold glob_to_pcre. destruct (handle_prefix p) as [[f anch] cur]. cbn [snd] in PL.
  destruct (convert_len (g_dir f) (length cur) cur (le_n _)) as (o & -> & LO).
  assert (LE : (length ((if anch then lit "^" else lit "(^|/)") ++ o ++ (if g_dir f then lit "(/|$)" else lit "$")) <= 4095)%nat).
  { rewrite !app_length. assert (A : (length (if anch then lit "^" else lit "(^|/)") <= 5)%nat) by (destruct anch; cbn; lia).
    assert (B : (length (if g_dir f then lit "(/|$)" else lit "$") <= 5)%nat) by (destruct (g_dir f); cbn; lia). lia. }
  unfold MAX_PATTERN_LEN. destruct (N.ltb_spec (N.of_nat (length ((if anch then lit "^" else lit "(^|/)") ++ o ++ (if g_dir f then lit "(/|$)" else lit "$")))) 4096) as [LT|GE]; [|lia].
  eexists. eexists. split; [reflexivity|]. lia.
Qed.
Theorem glob_buffer_refuted : exists p, (length p <= 4095)%nat /\ glob_to_pcre p = GOver.
Proof.
  exists (repeat (chr "?") 1100). split; [rewrite repeat_length; lia|]. vm_compute. reflexivity.
Qed.
(** the bound of the model's loop is never reached *)
Theorem glob_total : forall p, glob_to_pcre p <> GFuel.
Proof.
  intros p. unfold glob_to_pcre. destruct (handle_prefix p) as [[f anch] cur].
  destruct (convert_len (g_dir f) (length cur) cur (le_n _)) as (o & -> & LO). destruct (_ <? _); discriminate.
Qed.
Example glob_buffer_ex : exists f text, glob_to_pcre (repeat (chr "*") 1) = GOk f text /\ text = lit "(^|/)[^/]*$".
Proof. eexists. eexists. split; [vm_compute; reflexivity|reflexivity]. Qed.

(** ** C56: the default patterns apply wherever the walk starts *)

(** they are attached to the directory "/": paths beginning with a slash are covered *)
Theorem default_ignores_absolute_partial : forall R (exec : R -> str -> bool) ps rel is_dir p,
  hd 0 rel <> chr "/" -> last_applying R exec ps rel is_dir p ->
  ignore_match R exec [mkCtx (lit "/") ps] (chr "/" :: rel) is_dir = if g_neg (p_flags p) then MWhite else MIgnored.
Proof.
  intros R exec ps rel d p H L.
  apply (outermost_decides R exec [] (mkCtx (lit "/") ps) [] (chr "/" :: rel) d); [|constructor].
  exists rel, p. split; [exists 0%nat; auto|]. auto.
Qed.
(** no other path is *)
Theorem default_ignores_relative_refuted : forall R (exec : R -> str -> bool) ps path is_dir,
  hd 0 path <> chr "/" -> ignore_match R exec [mkCtx (lit "/") ps] path is_dir = MNone.
Proof.
  intros R exec ps path d H. unfold ignore_match. cbn [match_chain c_base c_pats]. change (lit "/") with [47].
  destruct path as [|c path]; [reflexivity|]. cbn [after_base]. cbn [hd] in H. change (chr "/") with 47 in H.
  destruct (N.eqb_spec 47 c) as [E|E]; [congruence|reflexivity].
Qed.

(** what the default patterns mean: (for directories only, tokens) *)
Definition names (dir : bool) (l : list string) : list (bool * list tok) := map (fun n => (dir, map GLit (lit n))) l.
Definition endings (l : list string) : list (bool * list tok) := map (fun n => (false, GStar :: map GLit (lit n))) l.
Definition defaults : list (bool * list tok) :=
  names true [".git"; ".hg"; ".svn"; "build"; "dist"; "out"; "target"; "bin"]%string ++
  endings [".o"; ".class"; ".pyc"; ".pyo"]%string ++ names true ["node_modules"; "vendor"; ".venv"]%string ++
  names false [".DS_Store"; "Thumbs.db"]%string ++ endings [".swp"; "~"]%string ++ names true [".idea"; ".vscode"]%string.

Lemma means_lits s : forall t, means (map GLit s) t <-> t = s.
Proof.
  induction s as [|c s IH]; intros t; cbn [map means]; [reflexivity|]. split.
  - intros (x & y & -> & E & M). cbn in E. subst x. apply IH in M as ->. reflexivity.
  - intros ->. exists [c], s. split; auto. split; [reflexivity|]. now apply IH.
Qed.
(** each default pattern is translated to an expression with exactly that meaning *)
Theorem default_ignores_exact :
  Forall2 (fun p d => exists text r, p = line false false (fst d) (snd d) /\
      glob_to_pcre p = GOk (mkGf false (fst d)) text /\ pcre_read text = Some r /\
      forall path, ~ In 10 path -> (found r path <-> hits false (fst d) (snd d) path))
    default_ignores defaults.
Proof.
  assert (ONE : forall p d, p = line false false (fst d) (snd d) -> toks_ok (snd d) -> start_ok false false (snd d) ->
    end_ok (fst d) (snd d) -> (length p <= 817)%nat ->
    exists text r, p = line false false (fst d) (snd d) /\ glob_to_pcre p = GOk (mkGf false (fst d)) text /\ pcre_read text = Some r /\
      forall path, ~ In 10 path -> (found r path <-> hits false (fst d) (snd d) path)).
  { intros p [dir ts] -> OK ST EN L. cbn [fst snd] in *.
    destruct (glob_translation_partial false false dir ts OK ST EN) as (text & r & A & B & C).
    - destruct (glob_buffer_partial _ L) as (f & text & -> & _). discriminate.
    - exists text, r. auto. }
  repeat apply Forall2_cons; try apply Forall2_nil.
  all: apply ONE; cbn [fst snd]; [vm_compute; reflexivity| | | |vm_compute; lia].
  all: try (vm_compute; repeat (split; [intuition discriminate|]); exact Logic.I).
  all: try (eexists; eexists; split; [vm_compute; reflexivity|]; vm_compute; repeat split; discriminate).
  all: try (cbn; discriminate).
  all: match goal with |- end_ok _ ?ts => exists (removelast (src ts)), (last (src ts) 0); vm_compute; repeat split; discriminate end.
Qed.
Example defaults_ex : hits false true (map GLit (lit ".git")) (lit "src/.git") /\ hits false false (GStar :: map GLit (lit ".o")) (lit "lib/x.o").
Proof.
  split.
  - exists (lit ".git"). split; [right; split; auto; exists (lit "src"); reflexivity|].
    exists (lit ".git"), []. split; auto. split; [now apply means_lits|now left].
  - exists (lit "x.o"). split; [right; split; auto; exists (lit "lib"); reflexivity|].
    exists (lit "x"), (lit ".o"). split; auto. split; [cbn; intuition discriminate|]. now apply means_lits.
Qed.

Print Assumptions last_match_decides.

Print Assumptions outermost_decides.
Print Assumptions closest_decides_partial.
Print Assumptions silent_chain.
Print Assumptions closest_decides_refuted.
Print Assumptions glob_translation_partial.
Print Assumptions glob_newline_refuted.
Print Assumptions glob_escape_refuted.
Print Assumptions glob_negated_set_refuted.
Print Assumptions glob_middle_slash_refuted.
Print Assumptions glob_deep_dir_refuted.
Print Assumptions glob_buffer_partial.
Print Assumptions glob_buffer_refuted.
Print Assumptions glob_total.
Print Assumptions default_ignores_absolute_partial.
Print Assumptions default_ignores_relative_refuted.
Print Assumptions default_ignores_exact.
