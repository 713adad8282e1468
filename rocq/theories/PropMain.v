(** Whole runs of the program: exit status and report (C85), the kind of output (C86),
    absolute paths in the document (C87), independence of order (C88). *)
From Coq Require Import String Ascii Sorting.Permutation.
From Verif Require Import Util HeapModel IgnoreModel HumanModel CollectModel ProcessModel ReportSpec ReportProofs ReportGroups PropReport FileModel PropFile PropEnd WalkModel PropWalk PropIgnore PropIgnoreFile PropRun
  ConfigModel PropConfig OutputModel PropOutput ImageModel PropImage FormatModel JsonModel PropJson MainModel.
Local Open Scope list_scope.
Local Open Scope Z_scope.

(** * Specification *)

(** the arguments as the walk gets them: made absolute when a JSON document is asked for *)
Definition resolved {R vec} (w : world R vec) (os : list opt) (args bs : list path) : Prop :=
  (given os "J" -> Forall2 (fun a b => o_truename w a = Some b) args bs) /\ (~ given os "J" -> bs = args).
(** the files as the walk sees them *)
Definition files {R vec} (w : world R vec) (u : setup R) : fs := o_fs w (cf_fsyml (w_conf (u_conf u))).
(** the paths that take part, C58 *)
Definition compared {R vec} (w : world R vec) (u : setup R) (bs : list path) (p : path) : Prop :=
  selected R (o_compile w) (o_exec w) (u_conf u) (files w u) bs p.
(** what is assumed of the surroundings: library functions do what they promise, no read
    fails, no file changes, no two of the contents have the same hash *)
Record quiet {R vec} (w : world R vec) (u : setup R) (bs : list path) : Prop := {
  q_sort : sorts (o_qsort w);
  q_iter : visits_all (o_iter w);
  q_read : clean (o_huge w) (o_beh w) (o_hbeh w);
  q_size : sizes_true (o_content w) (files w u);
  q_hash : forall b, (o_xxh w b < 2 ^ 128)%N;
  q_coll : forall p q, compared w u bs p -> compared w u bs q -> o_xxh w (o_content w p) = o_xxh w (o_content w q) -> o_content w p = o_content w q }.

(** the groups of paths a reader finds in what was written: the printed groups, with their
    sizes if asked for, or the sets of the document *)
Inductive shows {R vec} (w : world R vec) (g : cfg) : output -> list (list path) -> Prop :=
| shows_text gs : shows w g (OText (concat (map (sized_text format_human_size (style_of (g_sep g) (is_set (g_mask g) OPTION_SIZED) (o_tty w))) gs)))
                        (map (map f_path) gs)
| shows_doc sets : shows w g (ODoc (JArr sets)) (map paths_of sets).
(** two paths stand in one group *)
Definition grouped (gs : list (list path)) (p q : path) : Prop := exists grp, In grp gs /\ In p grp /\ In q grp.

(** the command line is taken *)
Definition accepted {R vec} (w : world R vec) (os : list opt) (e : getopt_end) (args : list path) (u : setup R) : Prop :=
  parse_args (o_compile w) (o_pcre w) (o_cpus w) os e args (o_uid w) (o_groups w) (o_egid w) = SetOk u.

(** * Proofs *)

Lemma accepted_cfg {R vec} (w : world R vec) os e args u : accepted w os e args u -> parse_opts (cfg_create (o_cpus w)) os = POk (u_cfg u) /\ args <> [] /\ u_args u = args.
Proof.
  unfold accepted, parse_args. destruct (parse_opts _ os) as [g| | |] eqn:P; try discriminate.
  destruct args as [|a args]; [discriminate|]. destruct (fill_gids _ _); [|discriminate]. destruct (global_ignores _); [|discriminate].
  destruct (compile_opt _ _ (g_ig g)); [|discriminate]. destruct (compile_opt _ _ (g_wl g)); [|discriminate].
  destruct (compile_opt _ _ (g_ar g)); [|discriminate]. intros E. injection E as <-. cbn. split; [reflexivity|split; [discriminate|reflexivity]].
Qed.
Lemma asks_info_given g os : asks_info g os = true -> given os "h" \/ given os "V".
Proof.
  revert g. induction os as [|(o, a) os IH]; intros g H; cbn [asks_info fst] in H; [discriminate|].
  destruct (N.eqb_spec o (chr "h")) as [->|]; [left; exists a; now left|]. destruct (N.eqb_spec o (chr "V")) as [->|]; [right; exists a; now left|].
  cbn [orb] in H. destruct (process_option g (o, a)); try discriminate. destruct (IH _ H) as [(b & I)|(b & I)]; [left|right]; exists b; now right.
Qed.

Lemma main_processing {R vec} (w : world R vec) fuel os e args u : ~ given os "h" -> ~ given os "V" -> accepted w os e args u ->
  ftwin_main w fuel os e args = processing w fuel u.
Proof.
  intros H V A. destruct (accepted_cfg w os e args u A) as (P & NE & _). unfold ftwin_main.
  destruct (asks_info _ os) eqn:I; [apply asks_info_given in I; tauto|].
  unfold usage_error. rewrite P. destruct args as [|a args]; [congruence|]. unfold accepted in A. rewrite A. reflexivity.
Qed.

Lemma coll_in c l x : In x (collected c l) <->
  exists p i, In (p, i) l /\ within (cf_minsize c) (cf_maxsize c) (i_size i) /\ x = mkFile p (i_size i) (prioritized c p).
Proof. exact (collected_in unit (fun _ => None) (fun _ _ => true) (fun _ => []) (fun _ => 0%N) c l x). Qed.

Section W.
Context {R vec : Type}.
Variable w : world R vec.

Lemma traverse_walk fuel (c : wconf R) json : forall args l, traverse w fuel c json args = WOk l <->
  exists bs, Forall2 (fun a b => (if json then o_truename w a else Some a) = Some b) args bs /\
    walk_args (o_compile w) (o_exec w) fuel c (o_fs w (cf_fsyml (w_conf c))) bs = WOk l.
Proof.
  induction args as [|a args IH]; intros l; cbn [traverse].
  - split; [intros E; exists []; split; [constructor|exact E]|]. intros (bs & F & E). inversion F; subst. exact E.
  - split.
    + intros E. destruct (if json then _ else _) as [b|] eqn:B; [|discriminate].
      destruct (walk _ _ _ _ _ _ b) as [l1| | |] eqn:W; try discriminate.
      destruct (traverse w fuel c json args) as [l2| | |] eqn:T; try discriminate. injection E as <-.
      destruct (proj1 (IH l2) eq_refl) as (bs & F & X). exists (b :: bs). split; [now constructor|]. cbn [walk_args]. rewrite W, X. reflexivity.
    + intros (bs & F & E). inversion F as [|? b ? bs' B F']; subst. rewrite B. cbn [walk_args] in E.
      destruct (walk _ _ _ _ _ _ b) as [l1| | |] eqn:W; try discriminate.
      destruct (walk_args _ _ fuel c _ bs') as [l2| | |] eqn:T; try discriminate. injection E as <-.
      rewrite (proj2 (IH l2)); [reflexivity|]. exists bs'. auto.
Qed.
Lemma resolved_traverse os e args u bs fuel : accepted w os e args u -> resolved w os args bs -> forall l,
  (traverse w fuel (u_conf u) (is_set (g_mask (u_cfg u)) OPTION_JSON) (u_args u) = WOk l <->
   walk_args (o_compile w) (o_exec w) fuel (u_conf u) (files w u) bs = WOk l).
Proof.
  intros A (RJ & RN) l. destruct (accepted_cfg w os e args u A) as (P & _ & ->). destruct (settings_exact _ _ _ P) as [? ? ? ? ? ? ? ? SJ].
  rewrite traverse_walk. split.
  - intros (bs' & F & E). replace bs with bs'; [exact E|]. destruct (is_set _ OPTION_JSON).
    + specialize (RJ (proj1 SJ eq_refl)). clear -F RJ. revert bs RJ. induction F as [|a b args bs' B F IH]; intros bs RJ; inversion RJ; subst; [reflexivity|].
      f_equal; [congruence|auto].
    + rewrite RN by (intros X; apply SJ in X; discriminate). clear -F. induction F as [|a b args bs' B F IH]; [reflexivity|]. injection B as ->. now rewrite IH.
  - intros E. exists bs. split; [|exact E]. destruct (is_set _ OPTION_JSON); [now apply RJ, SJ|].
    rewrite RN by (intros X; apply SJ in X; discriminate). clear. induction args; constructor; auto.
Qed.

(** collected files and compared paths *)
Lemma compared_collected u bs l fuel : walk_args (o_compile w) (o_exec w) fuel (u_conf u) (files w u) bs = WOk l ->
  (forall p, compared w u bs p <-> exists x, In x (collected (w_conf (u_conf u)) l) /\ f_path x = p) /\
  (sizes_true (o_content w) (files w u) -> sized (bytes_of w) (collected (w_conf (u_conf u)) l) /\ sizes_ok l).
Proof.
  intros W. pose proof (walk_exact _ _ _ _ _ _ _ _ W) as WE. split.
  - intros p. split.
    + intros (a & cs & i & Ia & T & B). exists (mkFile p (i_size i) (prioritized (w_conf (u_conf u)) p)). split; [|reflexivity].
      apply coll_in. exists p, i. split; [apply WE; eauto|]. auto.
    + intros (x & I & <-). apply coll_in in I. destruct I as (q & i & I & B & ->). cbn [f_path].
      apply WE in I. destruct I as (a & cs & Ia & T). exists a, cs, i. auto.
  - intros ST. split.
    + intros x I. apply coll_in in I. destruct I as (p & i & I & _ & ->). unfold bytes_of. cbn [f_path f_size].
      apply WE in I. destruct I as (a & cs & _ & [_ S _ T]). destruct (ST p i S) as [E|E]; [exact E|]. rewrite E in T. destruct T as [T|(T & _)]; discriminate.
    + apply Forall_forall. intros (p & i) I. cbn [snd]. apply WE in I. destruct I as (a & cs & _ & [_ S _ T]).
      destruct (ST p i S) as [E|E]; [lia|]. rewrite E in T. destruct T as [T|(T & _)]; discriminate.
Qed.

(** a quiet run whose walk succeeds and that has something to compare *)
Lemma report_exact u bs l fuel : let g := u_cfg u in
  walk_args (o_compile w) (o_exec w) fuel (u_conf u) (files w u) bs = WOk l -> quiet w u bs -> (exists p, compared w u bs p) ->
  is_set (g_mask g) OPTION_PUZZL = false -> (is_set (g_mask g) OPTION_JSON = true -> forall p, compared w u bs p -> unicode p) ->
  exists out gs, report w g (w_conf (u_conf u)) l = Exit 0 out /\ shows w g out gs /\
    (forall grp, In grp gs -> (2 <= length grp)%nat) /\
    (if is_set (g_mask g) OPTION_JSON then exists d, out = ODoc d else exists t, out = OText t) /\
    forall p q, p <> q -> (grouped gs p q <-> compared w u bs p /\ compared w u bs q /\ o_content w p = o_content w q).
Proof.
  intros g W [QS QI QR QZ QH QC] (p0 & C0) NP UJ. destruct (compared_collected u bs l fuel W) as (CC & SZ). destruct (SZ QZ) as (SZ1 & SO).
  assert (NE : collected (w_conf (u_conf u)) l <> []).
  { apply CC in C0. destruct C0 as (x & I & _). intros E. rewrite E in I. destruct I. }
  assert (HJ : hash_injective (o_xxh w) (bytes_of w) (collected (w_conf (u_conf u)) l)).
  { intros x y Ix Iy E. unfold bytes_of in *. apply QC; auto; apply CC; eauto. }
  unfold report. cbv zeta. rewrite NP. destruct (is_set (g_mask g) OPTION_JSON) eqn:JS.
  - destruct (json_document_exact_partial (o_gmt w) (o_mtime w) (o_content w) (o_xxh w) (o_huge w) (Z.to_N (g_excess g)) (o_beh w) (o_hbeh w) (o_junk w)
      (o_qsort w) (o_iter w) (w_conf (u_conf u)) l QS QI SO NE SZ1 QR HJ QH) as (sets & RD & D1 & _ & D2).
    { intros f If. apply UJ; auto. apply CC. eauto. }
    exists (ODoc (JArr sets)), (map paths_of sets). change (hash_file (fun f => o_content w (f_path f)) (o_xxh w) (o_huge w) (Z.to_N (g_excess g)) (o_hbeh w)) with (hash w g) in RD.
    change (compare_files (fun f => o_content w (f_path f)) (o_huge w) (Z.to_N (g_excess g)) (o_beh w)) with (compare w g) in RD. rewrite RD.
    unfold run_document in RD. destruct (run_json _ _ _ _ _ _ l) as [js st]. destruct st; try discriminate. cbn [snd finish].
    split; [reflexivity|]. split; [constructor|]. split; [|split; [eauto|]].
    + intros grp I. apply in_map_iff in I as (o & <- & I). destruct (D1 o I) as (b & t & fl & _ & _ & _ & _ & M & L & X).
      unfold paths_of. rewrite M. clear -L X. assert (G : length (concat (map path_in fl)) = length fl); [|etransitivity; [exact L|rewrite <- G; apply Nat.le_refl]]. clear L.
      induction fl as [|x fl IH]; [reflexivity|]. cbn [map concat length]. rewrite app_length, IH by (intros y Iy; apply X; now right).
      destruct (X x ltac:(now left)) as (f & _ & _ & P & _). unfold path_in. rewrite P. reflexivity.
    + intros p q NE'. split.
      * intros (grp & I & Ip & Iq). apply in_map_iff in I as (o & <- & I). destruct (D1 o I) as (b & t & fl & _ & _ & _ & _ & M & _ & X).
        assert (PX : forall r, In r (paths_of o) -> exists f, In f (collected (w_conf (u_conf u)) l) /\ f_path f = r).
        { intros r Ir. unfold paths_of in Ir. rewrite M in Ir. apply in_concat in Ir as (z & Iz & Ir). apply in_map_iff in Iz as (x & <- & Ix).
          destruct (X x Ix) as (f & If & _ & P & _). unfold path_in in Ir. rewrite P in Ir. destruct Ir as [<-|[]]. eauto. }
        destruct (PX p Ip) as (f & If & <-), (PX q Iq) as (h & Ih & <-). split; [apply CC; eauto|]. split; [apply CC; eauto|].
        apply (D2 f h If Ih NE'). eauto.
      * intros (Cp & Cq & E). apply CC in Cp, Cq. destruct Cp as (f & If & <-), Cq as (h & Ih & <-).
        destruct (proj1 (D2 f h If Ih NE') E) as (o & Io & A & B). exists (paths_of o). split; [now apply in_map|auto].
  - assert (HI : forall p q, selected R (o_compile w) (o_exec w) (u_conf u) (files w u) bs p -> selected R (o_compile w) (o_exec w) (u_conf u) (files w u) bs q ->
      o_xxh w (o_content w p) = o_xxh w (o_content w q) -> o_content w p = o_content w q) by exact QC.
    destruct (run_exact_partial R (o_compile w) (o_exec w) (o_content w) (o_xxh w) (o_huge w) (Z.to_N (g_excess g)) (o_beh w) (o_hbeh w) (o_junk w)
      (o_qsort w) (o_iter w) fuel (u_conf u) (files w u) bs l QS QI QZ QR W (ex_intro _ p0 C0) HI) as (gs & WR & EX).
    unfold whole_run in WR. rewrite W in WR.
    destruct (text_exact _ _ _ _ _ format_human_size (style_of (g_sep g) (is_set (g_mask g) OPTION_SIZED) (o_tty w)) _ _ _ _ QS QI SO WR) as (t & RO & tail & TE & TT).
    destruct TT as [->|(_ & TT)]; [|congruence]. rewrite app_nil_r in TE. subst t.
    exists (OText (concat (map (sized_text format_human_size (style_of (g_sep g) (is_set (g_mask g) OPTION_SIZED) (o_tty w))) gs))), (map (map f_path) gs).
    split; [|split; [constructor|split; [|split; [eauto|]]]].
    + change (hash_file (file_content (o_content w)) (o_xxh w) (o_huge w) (Z.to_N (g_excess g)) (o_hbeh w)) with (hash w g) in RO.
      change (compare_files (file_content (o_content w)) (o_huge w) (Z.to_N (g_excess g)) (o_beh w)) with (compare w g) in RO. rewrite RO. reflexivity.
    + intros grp I. apply in_map_iff in I as (fs & <- & I). rewrite map_length.
      destruct (groups_sound (hash w g) (o_junk w) (compare w g) (o_qsort w) (o_iter w) (fun _ => []) (w_conf (u_conf u)) l QS QI SO (fun _ _ _ _ _ _ => eq_refl)) as [TS _].
      change (hash_file (file_content (o_content w)) (o_xxh w) (o_huge w) (Z.to_N (g_excess g)) (o_hbeh w)) with (hash w g) in WR.
      change (compare_files (file_content (o_content w)) (o_huge w) (Z.to_N (g_excess g)) (o_beh w)) with (compare w g) in WR.
      rewrite WR in TS. now apply TS.
    + intros p q NE'. rewrite <- (EX p q NE'). unfold together, grouped. split.
      * intros (grp & I & Ip & Iq). apply in_map_iff in I as (fs & <- & I). apply in_map_iff in Ip as (x & Px & Ix). apply in_map_iff in Iq as (y & Py & Iy).
        exists fs, x, y. auto.
      * intros (grp & x & y & I & Ix & Iy & <- & <-). exists (map f_path grp). split; [now apply in_map|]. split; now apply in_map.
Qed.
End W.

(** ** C85: exit status and report *)

Lemma empty_report {R vec} (w : world R vec) u bs l fuel :
  walk_args (o_compile w) (o_exec w) fuel (u_conf u) (files w u) bs = WOk l -> sorts (o_qsort w) -> visits_all (o_iter w) ->
  sizes_true (o_content w) (files w u) -> (~ exists p, compared w u bs p) ->
  is_set (g_mask (u_cfg u)) OPTION_PUZZL = false -> exists o, report w (u_cfg u) (w_conf (u_conf u)) l = Exit (-1) o.
Proof.
  intros W QS QI ST NC NP. destruct (compared_collected w u bs l fuel W) as (CC & SZ). destruct (SZ ST) as (_ & SO).
  assert (E : collected (w_conf (u_conf u)) l = []).
  { destruct (collected (w_conf (u_conf u)) l) as [|x r] eqn:E; [reflexivity|]. destruct NC. exists (f_path x). apply CC. exists x. split; [now left|reflexivity]. }
  unfold report. cbv zeta. rewrite NP. set (g := u_cfg u).
  destruct (runs_empty (hash w g) (o_junk w) (compare w g) (o_qsort w) (o_iter w) QI (w_conf (u_conf u)) l E) as [RT RJ].
  destruct (is_set (g_mask g) OPTION_JSON).
  - unfold run_document. rewrite RJ. cbn [snd finish]. eauto.
  - destruct (text_exact _ _ _ _ _ format_human_size (style_of (g_sep g) (is_set (g_mask g) OPTION_SIZED) (o_tty w)) _ _ _ _ QS QI SO RT) as (t & -> & _).
    cbn [finish]. eauto.
Qed.

Lemma not_image {R vec} (w : world R vec) os e args u : accepted w os e args u -> ~ given os "I" -> is_set (g_mask (u_cfg u)) OPTION_PUZZL = false.
Proof.
  intros A NI. destruct (accepted_cfg w os e args u A) as (P & _). destruct (settings_exact _ _ _ P). apply not_true_is_false. tauto.
Qed.
Lemma not_archive {R vec} (w : world R vec) os e args u : accepted w os e args u -> ~ given os "t" -> is_set (g_mask (u_cfg u)) OPTION_UNTAR = false.
Proof.
  intros A NI. destruct (accepted_cfg w os e args u A) as (P & _). destruct (settings_exact _ _ _ P). apply not_true_is_false. tauto.
Qed.
Lemma is_json {R vec} (w : world R vec) os e args u : accepted w os e args u -> (is_set (g_mask (u_cfg u)) OPTION_JSON = true <-> given os "J").
Proof. intros A. destruct (accepted_cfg w os e args u A) as (P & _). now destruct (settings_exact _ _ _ P). Qed.

(** the command line has no option that changes what is reported on *)
Definition plain_run (os : list opt) : Prop := ~ given os "h" /\ ~ given os "V" /\ ~ given os "t" /\ ~ given os "I".

Lemma main_quiet {R vec} (w : world R vec) fuel os e args u bs l : plain_run os -> accepted w os e args u -> resolved w os args bs -> quiet w u bs ->
  walk_args (o_compile w) (o_exec w) fuel (u_conf u) (files w u) bs = WOk l ->
  ftwin_main w fuel os e args = report w (u_cfg u) (w_conf (u_conf u)) l.
Proof.
  intros (Nh & NV & Nt & NI) A RS Q W. rewrite (main_processing w fuel os e args u Nh NV A). unfold processing. cbv zeta.
  rewrite (proj2 (resolved_traverse w os e args u bs fuel A RS l) W). rewrite (not_archive w os e args u A Nt). reflexivity.
Qed.
Lemma main_walked {R vec} (w : world R vec) fuel os e args u bs o : plain_run os -> accepted w os e args u -> resolved w os args bs ->
  ftwin_main w fuel os e args = Exit 0 o ->
  exists l, walk_args (o_compile w) (o_exec w) fuel (u_conf u) (files w u) bs = WOk l.
Proof.
  intros (Nh & NV & Nt & NI) A RS E. rewrite (main_processing w fuel os e args u Nh NV A) in E. unfold processing in E. cbv zeta in E.
  destruct (traverse w fuel _ _ _) as [l| | |] eqn:T; try discriminate. exists l. now apply (resolved_traverse w os e args u bs fuel A RS l).
Qed.

(** A run on quiet surroundings that ends with status 0 has written its report, and the
    report is exact.  Missing: files that cannot be read, collisions (q_read, q_coll), and
    names that are not text in a document. *)
Theorem exit_zero_complete_partial : forall R vec (w : world R vec) fuel os e args u bs o,
  plain_run os -> accepted w os e args u -> resolved w os args bs -> quiet w u bs ->
  (given os "J" -> forall p, compared w u bs p -> unicode p) ->
  ftwin_main w fuel os e args = Exit 0 o ->
  exists gs, shows w (u_cfg u) o gs /\ (forall grp, In grp gs -> (2 <= length grp)%nat) /\
    forall p q, p <> q -> (grouped gs p q <-> compared w u bs p /\ compared w u bs q /\ o_content w p = o_content w q).
Proof.
  intros R vec w fuel os e args u bs o PR A RS Q UJ E. destruct (main_walked w fuel os e args u bs o PR A RS E) as (l & W).
  rewrite (main_quiet w fuel os e args u bs l PR A RS Q W) in E.
  assert (NI : is_set (g_mask (u_cfg u)) OPTION_PUZZL = false) by (eapply not_image; eauto; apply PR).
  assert (D : (exists p, compared w u bs p) \/ ~ exists p, compared w u bs p).
  { destruct (compared_collected w u bs l fuel W) as (CC & _). destruct (collected (w_conf (u_conf u)) l) as [|x r].
    - right. intros (p & C). apply CC in C. destruct C as (x & [] & _).
    - left. exists (f_path x). apply CC. exists x. split; [now left|reflexivity]. }
  destruct D as [D|D].
  - destruct (report_exact w u bs l fuel W Q D NI) as (o' & gs & RE & S & L & _ & X); [intros J; apply UJ; now apply (is_json w os e args u A)|].
    rewrite RE in E. injection E as ->. exists gs. auto.
  - destruct Q. destruct (empty_report w u bs l fuel W) as (o' & E'); auto. rewrite E' in E. discriminate.
Qed.

(** Status 0 means: every argument, directory and entry met could be examined, and there was
    a file to compare. *)
Theorem exit_zero_exact_partial : forall R vec (w : world R vec) os e args u bs depth,
  plain_run os -> accepted w os e args u -> resolved w os args bs -> quiet w u bs ->
  (given os "J" -> forall p, compared w u bs p -> unicode p) -> finite_tree (u_conf u) (files w u) depth ->
  ((exists fuel o, ftwin_main w fuel os e args = Exit 0 o) <->
   (forall b, In b bs -> undisturbed (o_compile w) (o_exec w) (u_conf u) (files w u) b) /\ exists p, compared w u bs p).
Proof.
  intros R vec w os e args u bs depth PR A RS Q UJ FT.
  assert (NI : is_set (g_mask (u_cfg u)) OPTION_PUZZL = false) by (eapply not_image; eauto; apply PR).
  pose proof (walk_succeeds_partial R (o_compile w) (o_exec w) (u_conf u) (files w u) depth bs FT) as WS. split.
  - intros (fuel & o & E). destruct (main_walked w fuel os e args u bs o PR A RS E) as (l & W). split; [apply WS; eauto|].
    rewrite (main_quiet w fuel os e args u bs l PR A RS Q W) in E.
    destruct (compared_collected w u bs l fuel W) as (CC & _). destruct (collected (w_conf (u_conf u)) l) as [|x r] eqn:Ec.
    + destruct Q. destruct (empty_report w u bs l fuel W) as (o' & E'); auto.
      * intros (p & C). apply CC in C. destruct C as (x & [] & _).
      * rewrite E' in E. discriminate.
    + exists (f_path x). apply CC. exists x. split; [now left|reflexivity].
  - intros (U & D). destruct (proj2 WS U) as (fuel & l & W). exists fuel.
    rewrite (main_quiet w fuel os e args u bs l PR A RS Q W).
    destruct (report_exact w u bs l fuel W Q D NI) as (o' & gs & RE & _); [intros J; apply UJ; now apply (is_json w os e args u A)|].
    eauto.
Qed.

(** ** C86: the kind of output *)

(** With -J and without -I standard output holds one JSON document if the status is 0 and
    none otherwise; without -J it never holds one. *)
Theorem json_output_partial : forall R vec (w : world R vec) fuel os e args c o,
  ~ given os "h" -> ~ given os "V" -> ~ given os "I" -> ftwin_main w fuel os e args = Exit c o ->
  (given os "J" -> (c = 0 <-> exists d, o = ODoc d)) /\ (~ given os "J" -> c = 0 -> exists t, o = OText t) /\ (forall d, o = ODoc d -> given os "J" /\ c = 0).
Proof.
  intros R vec w fuel os e args c o Nh NV NI E. unfold ftwin_main in E.
  destruct (asks_info _ os) eqn:AI; [apply asks_info_given in AI; tauto|].
  destruct (usage_error _ os args).
  { injection E as <- <-. split; [intros _; split; [discriminate|intros (d & X); discriminate]|]. split; [discriminate|discriminate]. }
  destruct (parse_args _ _ _ os e args _ _ _) as [u| | |] eqn:A; try discriminate.
  2:{ injection E as <- <-. split; [intros _; split; [discriminate|intros (d & X); discriminate]|]. split; [discriminate|discriminate]. }
  change (accepted w os e args u) in A. pose proof (not_image w os e args u A NI) as NP. pose proof (is_json w os e args u A) as IJ.
  unfold processing in E. cbv zeta in E. destruct (traverse w fuel _ _ _) as [l| | |]; try discriminate.
  2:{ injection E as <- <-. split; [intros _; split; [discriminate|intros (d & X); discriminate]|]. split; [discriminate|discriminate]. }
  destruct (_ && _); [discriminate|]. unfold report in E. cbv zeta in E. rewrite NP in E.
  destruct (is_set (g_mask (u_cfg u)) OPTION_JSON).
  - pose proof (proj1 IJ eq_refl) as GJ. unfold run_document in E.
    destruct (run_json _ _ _ _ _ _ l) as [js [| | |]]; cbn [snd finish] in E; try discriminate; injection E as <- <-.
    + split; [intros _; split; eauto|]. split; [tauto|auto].
    + split; [intros _; split; [discriminate|intros (d & X); discriminate]|]. split; [tauto|discriminate].
  - assert (NJ : ~ given os "J") by (intros X; apply IJ in X; discriminate).
    destruct (run_output _ _ _ _ _ _ _ _ l) as [t [| | |]]; cbn [finish] in E; try discriminate; injection E as <- <-.
    + split; [tauto|]. split; [eauto|discriminate].
    + split; [tauto|]. split; [discriminate|discriminate].
Qed.

(** ** C87: absolute paths *)
Definition absolute (p : path) : Prop := hd_error p = Some (chr "/").

Lemma join_absolute d n : absolute d -> absolute (join d n).
Proof. unfold absolute, join. destruct d; [discriminate|]. auto. Qed.
Lemma fold_join_absolute : forall ns a, absolute a -> absolute (fold_left join ns a).
Proof. induction ns as [|n ns IH]; intros a A; [exact A|]. cbn [fold_left]. apply IH. now apply join_absolute. Qed.

Lemma document_paths gmt mtime js d sets p o : document gmt mtime js = d -> d = JArr sets -> In o sets -> In p (paths_of o) ->
  exists j f, In j js /\ In f (set_files j) /\ f_path f = p.
Proof.
  intros <- D Io Ip. unfold document in D. rewrite fold_append in D. cbn [app] in D. injection D as <-.
  apply in_map_iff in Io as (((s & h) & fs) & <- & Ij). exists (s, h, fs).
  assert (M : paths_of (set_object gmt mtime (s, h, fs)) = concat (map path_in (map (file_object gmt mtime) fs))).
  { unfold set_object. rewrite fold_append. unfold json_string. destruct (utf8 (hash_text h)); reflexivity. }
  rewrite M in Ip. apply in_concat in Ip as (z & Iz & Ip). apply in_map_iff in Iz as (x & <- & Ix). apply in_map_iff in Ix as (f & <- & If).
  exists f. split; [exact Ij|]. split; [exact If|].
  unfold path_in, file_object, json_string in Ip. rewrite time_text_utf8 in Ip.
  destruct (utf8 (f_path f)); cbn in Ip; [|destruct Ip]. destruct Ip as [<-|[]]. reflexivity.
Qed.

(** Every path in the document is absolute, whatever the arguments looked like, and whatever
    failed to be read. *)
Theorem json_paths_absolute : forall R vec (w : world R vec) fuel os e args c sets o p,
  sorts (o_qsort w) -> visits_all (o_iter w) -> (forall b q i, s_stat (o_fs w b) q = Some i -> 0 <= i_size i) ->
  (forall a b, o_truename w a = Some b -> absolute b) ->
  ftwin_main w fuel os e args = Exit c (ODoc (JArr sets)) -> In o sets -> In p (paths_of o) -> absolute p.
Proof.
  intros R vec w fuel os e args c sets o p QS QI SN TA E Io Ip. unfold ftwin_main in E.
  destruct (asks_info _ os); [discriminate|]. destruct (usage_error _ os args); [discriminate|].
  destruct (parse_args _ _ _ os e args _ _ _) as [u| | |] eqn:A; try discriminate.
  change (accepted w os e args u) in A. pose proof (is_json w os e args u A) as IJ.
  unfold processing in E. cbv zeta in E. destruct (traverse w fuel _ _ _) as [l| | |] eqn:T; try discriminate.
  destruct (_ && _); [discriminate|]. unfold report in E. cbv zeta in E.
  destruct (is_set (g_mask (u_cfg u)) OPTION_PUZZL).
  { destruct (run_image _ _ _ _ _ l) as [[x y] [| | |]]; discriminate. }
  destruct (is_set (g_mask (u_cfg u)) OPTION_JSON) eqn:JS.
  2:{ destruct (run_output _ _ _ _ _ _ _ _ l) as [t [| | |]]; discriminate. }
  unfold run_document in E.
  destruct (run_json _ _ _ _ _ (w_conf (u_conf u)) l) as [js st] eqn:RJ. destruct st; cbn [snd finish] in E; try discriminate. injection E as <- D.
  destruct (document_paths _ _ _ _ _ _ _ eq_refl D Io Ip) as (j & f & Ij & If & <-).
  apply traverse_walk in T as (bs & F & W).
  assert (SO : sizes_ok l).
  { apply Forall_forall. intros (q & i) I. cbn [snd]. apply (walk_exact _ _ _ _ _ _ _ _ W) in I. destruct I as (a & cs & _ & [_ S _ _]). eapply SN; eauto. }
  destruct (groups_sound (hash w (u_cfg u)) (o_junk w) (compare w (u_cfg u)) (o_qsort w) (o_iter w) (fun _ => []) (w_conf (u_conf u)) l QS QI SO (fun _ _ _ _ _ _ => eq_refl)) as [_ TS].
  rewrite RJ in TS. destruct (TS (set_files j) (in_map _ _ _ Ij)) as (_ & IC & _). specialize (IC f If).
  apply coll_in in IC as (q & i & Iq & _ & ->). cbn [f_path]. apply (walk_exact _ _ _ _ _ _ _ _ W) in Iq. destruct Iq as (a & cs & Ia & [Rc _ _ _]).
  destruct (hidden_skipped _ _ _ _ _ _ _ _ Rc) as (ns & -> & _). apply fold_join_absolute.
  destruct (Forall2_in_r _ _ _ F a Ia) as (a0 & _ & X). apply (TA a0). exact X.
Qed.

(** ** C88: order does not matter *)

(** the same files with the same contents: directories may be listed in another order *)
Record same_files {R vec} (w w' : world R vec) : Prop := {
  sf_compile : o_compile w = o_compile w';
  sf_exec : o_exec w = o_exec w';
  sf_pcre : o_pcre w = o_pcre w';
  sf_uid : o_uid w = o_uid w'; sf_groups : o_groups w = o_groups w'; sf_egid : o_egid w = o_egid w';
  sf_true : forall a, o_truename w a = o_truename w' a;
  sf_content : forall p, o_content w p = o_content w' p;
  sf_stat : forall b p, s_stat (o_fs w b) p = s_stat (o_fs w' b) p;
  sf_git : forall b p, s_gitignore (o_fs w b) p = s_gitignore (o_fs w' b) p;
  sf_dir : forall b p, match s_dir (o_fs w b) p, s_dir (o_fs w' b) p with
                       | Some es, Some es' => forall x, In x es <-> In x es' | None, None => True | _, _ => False end }.

(** the options that do not matter for what is grouped: threads, memory mapping threshold,
    verbosity, dry run, sizes and separator in the text *)
Definition neutral (x : opt) : bool := existsb (N.eqb (fst x)) (lit "jxovnds").
Definition same_options (os os' : list opt) : Prop :=
  filter (fun x => negb (neutral x)) os = filter (fun x => negb (neutral x)) os'.

Record alike (g h : cfg) : Prop := {
  al_hidden : is_set (g_mask h) OPTION_SHOW_HIDDEN = is_set (g_mask g) OPTION_SHOW_HIDDEN;
  al_icase : is_set (g_mask h) OPTION_ICASE = is_set (g_mask g) OPTION_ICASE;
  al_fsyml : is_set (g_mask h) OPTION_FSYML = is_set (g_mask g) OPTION_FSYML;
  al_recsd : is_set (g_mask h) OPTION_RECSD = is_set (g_mask g) OPTION_RECSD;
  al_names : g_names h = g_names g; al_ig : g_ig h = g_ig g; al_wl : g_wl h = g_wl g; al_ar : g_ar h = g_ar g;
  al_prio : g_prio h = g_prio g; al_min : g_min h = g_min g; al_max : g_max h = g_max g }.

Lemma alike_step g h x g1 h1 : alike g h -> process_option g x = POk g1 -> process_option h x = POk h1 -> alike g1 h1.
Proof.
  intros A P Q. apply process_step in P, Q. destruct A, P, Q. constructor; try congruence.
  - rewrite st_recsd, st_recsd0, al_recsd0. reflexivity.
  - rewrite st_names, st_names0, al_names0. reflexivity.
  - rewrite st_ig, st_ig0, al_ig0. reflexivity.
  - rewrite st_wl, st_wl0, al_wl0. reflexivity.
  - rewrite st_ar, st_ar0, al_ar0. reflexivity.
  - rewrite st_prio, st_prio0, al_prio0. reflexivity.
  - destruct (fst x =? chr "m")%N; [destruct st_min, st_min0|]; congruence.
  - destruct (fst x =? chr "M")%N; [destruct st_max, st_max0|]; congruence.
Qed.
Lemma neutral_step g x g1 : neutral x = true -> process_option g x = POk g1 -> alike g g1.
Proof.
  intros NT P. apply process_step in P. destruct P. unfold neutral in NT. apply existsb_exists in NT as (o & I & E). apply N.eqb_eq in E.
  cbn in I. repeat (destruct I as [<-|I]; [rewrite E in *; constructor; cbn in *; rewrite ?orb_false_r in *; assumption|]). destruct I.
Qed.
Lemma alike_trans g h k : alike g h -> alike h k -> alike g k.
Proof. intros [] []. constructor; congruence. Qed.
Lemma alike_sym g h : alike g h -> alike h g.
Proof. intros []. constructor; congruence. Qed.
Lemma parse_alike : forall os g h g1, alike g h -> parse_opts g os = POk g1 ->
  exists h1, parse_opts h (filter (fun x => negb (neutral x)) os) = POk h1 /\ alike g1 h1.
Proof.
  induction os as [|x os IH]; intros g h g1 A P; cbn [parse_opts filter] in *; [injection P as <-; eauto|].
  destruct (process_option g x) as [g2| | |] eqn:E; try discriminate. destruct (neutral x) eqn:NT; cbn [negb].
  - apply (IH g2); auto. apply (alike_trans _ g); [|exact A]. apply alike_sym. eapply neutral_step; eauto.
  - cbn [parse_opts]. destruct (proj2 (accept_one h x) (proj1 (accept_one g x) (ex_intro _ g2 E))) as (h2 & Eh). rewrite Eh.
    apply (IH g2); auto. eapply alike_step; eauto.
Qed.

Lemma in_ext_dec {A} (l l' : list A) : (forall x, In x l <-> In x l') -> l <> [] -> l' <> [].
Proof. intros H NE ->. destruct l as [|a l]; [congruence|]. destruct (proj1 (H a) ltac:(now left)). Qed.

Section Same.
Context {R vec : Type}.
Variables w w' : world R vec.
Hypothesis SF : same_files w w'.

Lemma same_conf os os' e e' args args' u u' : same_options os os' -> accepted w os e args u -> accepted w' os' e' args' u' -> u_conf u' = u_conf u.
Proof.
  intros SO A A'. destruct (accepted_cfg w os e args u A) as (P & NE & _). destruct (accepted_cfg w' os' e' args' u' A') as (P' & NE' & _).
  assert (A0 : alike (cfg_create (o_cpus w)) (cfg_create 1)) by (constructor; reflexivity).
  assert (A0' : alike (cfg_create (o_cpus w')) (cfg_create 1)) by (constructor; reflexivity).
  destruct (parse_alike _ _ _ _ A0 P) as (h & H & AL). destruct (parse_alike _ _ _ _ A0' P') as (h' & H' & AL').
  unfold same_options in SO. rewrite SO in H. rewrite H in H'. injection H' as <-.
  assert (AG : alike (u_cfg u) (u_cfg u')) by (eapply alike_trans; [exact AL|now apply alike_sym]).
  destruct SF as [F1 F2 F3 F4 F5 F6 F7 F8 F9 F10 F11].
  unfold accepted, parse_args in A, A'. rewrite P in A. rewrite P' in A'. destruct args as [|a args]; [congruence|]. destruct args' as [|a' args']; [congruence|].
  rewrite <- F1, <- F3, <- F4, <- F5, <- F6 in A'. destruct AG as [B1 B2 B3 B4 B5 B6 B7 B8 B9 B10 B11].
  rewrite B2, B6, B7, B8 in A'.
  destruct (fill_gids _ _); [|discriminate]. destruct (global_ignores _); [|discriminate].
  destruct (compile_opt _ _ (g_ig _)); [|discriminate]. destruct (compile_opt _ _ (g_wl _)); [|discriminate].
  destruct (compile_opt _ _ (g_ar _)); [|discriminate]. injection A as A. injection A' as A'.
  apply (f_equal u_conf) in A. apply (f_equal u_conf) in A'. cbn [u_conf] in A, A'. rewrite <- A, <- A'. congruence.
Qed.

Lemma same_in_force c b cs d cs' : in_force (o_compile w) c (o_fs w b) cs d cs' -> in_force (o_compile w') c (o_fs w' b) cs d cs'.
Proof.
  intros [G|G|s x G E L]; [now constructor 1|constructor 2; now rewrite <- (sf_git _ _ SF)|]. econstructor 3; eauto.
  - rewrite <- (sf_git _ _ SF). exact E.
  - rewrite <- (sf_compile _ _ SF). exact L.
Qed.
Lemma same_passes (c : wconf R) cs p i : passes (o_exec w) c cs p i -> passes (o_exec w') c cs p i.
Proof. rewrite (sf_exec _ _ SF). auto. Qed.
Lemma same_dir b d es : s_dir (o_fs w b) d = Some es -> exists es', s_dir (o_fs w' b) d = Some es' /\ forall x, In x es <-> In x es'.
Proof. intros E. pose proof (sf_dir _ _ SF b d) as X. rewrite E in X. destruct (s_dir (o_fs w' b) d); [eauto|destruct X]. Qed.
Lemma same_reached c b a cs p : reached (o_compile w) (o_exec w) c (o_fs w b) a cs p -> reached (o_compile w') (o_exec w') c (o_fs w' b) a cs p.
Proof.
  induction 1 as [|cs cs' d i es n ty B IH S T P D E I K]; [constructor|].
  destruct (same_dir b d es D) as (es' & D' & X). econstructor; eauto.
  - rewrite <- (sf_stat _ _ SF). exact S.
  - now apply same_passes.
  - now apply same_in_force.
  - now apply X.
Qed.
Lemma same_compared os os' e e' args args' u u' bs bs' : same_options os os' -> accepted w os e args u -> accepted w' os' e' args' u' ->
  (forall b, In b bs -> In b bs') -> forall p, compared w u bs p -> compared w' u' bs' p.
Proof.
  intros SO A A' SB p (a & cs & i & Ia & [T1 T2 T3 T4] & B). pose proof (same_conf os os' e e' args args' u u' SO A A') as E.
  exists a, cs, i. split; [auto|]. unfold files in *. rewrite E. split; [|exact B]. constructor; auto.
  - now apply same_reached.
  - rewrite <- (sf_stat _ _ SF). exact T2.
  - now apply same_passes.
Qed.
Lemma same_resolved os os' args args' bs bs' : same_options os os' -> (forall a, In a args -> In a args') -> resolved w os args bs -> resolved w' os' args' bs' ->
  forall b, In b bs -> In b bs'.
Proof.
  intros SO SA (RJ & RN) (RJ' & RN') b Ib.
  assert (G : given os "J" <-> given os' "J").
  { assert (X : forall l, given l "J" <-> given (filter (fun x => negb (neutral x)) l) "J").
    { intros l. unfold given. split; intros (a & I); exists a; [apply filter_In; split; [exact I|reflexivity]|now apply filter_In in I]. }
    rewrite (X os), (X os'), SO. tauto. }
  destruct (in_dec N.eq_dec (chr "J") (map fst os)) as [J|J].
  - assert (GJ : given os "J") by (apply in_map_iff in J as ((o & a) & X & I); cbn in X; subst o; exists a; exact I).
    specialize (RJ GJ). specialize (RJ' (proj1 G GJ)). destruct (Forall2_in_r _ _ _ RJ b Ib) as (a & Ia & T).
    destruct (Forall2_in_l _ _ _ RJ' a (SA a Ia)) as (b' & Ib' & T'). rewrite <- (sf_true _ _ SF) in T'. rewrite T in T'. injection T' as ->. exact Ib'.
  - assert (NJ : ~ given os "J") by (intros (a & I); apply J, in_map_iff; exists (chr "J", a); auto).
    rewrite RN in Ib by exact NJ. rewrite RN' by (intros X; now apply NJ, G). auto.
Qed.
Lemma same_undisturbed c b a : undisturbed (o_compile w') (o_exec w') c (o_fs w' b) a -> undisturbed (o_compile w) (o_exec w) c (o_fs w b) a.
Proof.
  intros U cs p Rc. destruct (U cs p (same_reached c b a cs p Rc)) as (i & S & X). exists i. rewrite (sf_stat _ _ SF). split; [exact S|].
  intros T P. destruct (X T (same_passes c cs p i P)) as (es & cs' & D & F).
  pose proof (sf_dir _ _ SF b p) as Y. rewrite D in Y. destruct (s_dir (o_fs w b) p) as [es0|]; [|destruct Y]. exists es0, cs'. split; [reflexivity|].
  destruct F as [G|G|s x G E L]; [now constructor 1|constructor 2; now rewrite (sf_git _ _ SF)|]. econstructor 3; eauto.
  - rewrite (sf_git _ _ SF). exact E.
  - rewrite (sf_compile _ _ SF). exact L.
Qed.
End Same.

Lemma same_files_sym {R vec} (w w' : world R vec) : same_files w w' -> same_files w' w.
Proof.
  intros []. constructor; auto. intros b p. specialize (sf_dir0 b p). destruct (s_dir (o_fs w b) p), (s_dir (o_fs w' b) p); auto. intros x. symmetry. auto.
Qed.

(** Two runs over the same files with the same selecting options find the same duplicates,
    in whatever order the arguments are given, directories are listed, files are sorted,
    hashed and compared. *)
Theorem order_irrelevant_partial : forall R vec (w w' : world R vec) fuel os os' e e' args args' u u' bs bs' depth o,
  same_files w w' -> same_options os os' -> (forall a, In a args <-> In a args') ->
  plain_run os -> plain_run os' -> accepted w os e args u -> accepted w' os' e' args' u' -> resolved w os args bs -> resolved w' os' args' bs' ->
  quiet w u bs -> quiet w' u' bs' -> (given os "J" -> forall p, compared w u bs p -> unicode p) -> finite_tree (u_conf u) (files w u) depth ->
  ftwin_main w fuel os e args = Exit 0 o ->
  exists fuel' o' gs gs', ftwin_main w' fuel' os' e' args' = Exit 0 o' /\ shows w (u_cfg u) o gs /\ shows w' (u_cfg u') o' gs' /\
    forall p q, p <> q -> (grouped gs p q <-> grouped gs' p q).
Proof.
  intros R vec w w' fuel os os' e e' args args' u u' bs bs' depth o SF SO SA PR PR' A A' RS RS' Q Q' UJ FT E.
  pose proof (same_files_sym _ _ SF) as SF'. assert (SO' : same_options os' os) by (symmetry; exact SO).
  pose proof (same_conf w w' SF os os' e e' args args' u u' SO A A') as CE.
  pose proof (same_resolved w w' SF os os' args args' bs bs' SO (fun a => proj1 (SA a)) RS RS') as B1.
  pose proof (same_resolved w' w SF' os' os args' args bs' bs SO' (fun a => proj2 (SA a)) RS' RS) as B2.
  assert (C1 : forall p, compared w u bs p -> compared w' u' bs' p) by (eapply (same_compared w w' SF os os'); eauto).
  assert (C2 : forall p, compared w' u' bs' p -> compared w u bs p) by (eapply (same_compared w' w SF' os' os); eauto).
  assert (UJ' : given os' "J" -> forall p, compared w' u' bs' p -> unicode p).
  { intros (a & J) p C. apply UJ; [|auto]. exists a.
    assert (I : In (chr "J", a) (filter (fun x => negb (neutral x)) os)) by (rewrite SO; apply filter_In; split; [exact J|reflexivity]).
    now apply filter_In in I. }
  assert (FT' : finite_tree (u_conf u') (files w' u') depth).
  { unfold files in *. rewrite CE. intros d es n ty D I K. destruct (same_dir w' w SF' _ d es D) as (es0 & D0 & X). eapply FT; eauto. now apply X. }
  destruct (proj1 (exit_zero_exact_partial R vec w os e args u bs depth PR A RS Q UJ FT)) as (U & p0 & C0); [eauto|].
  assert (X : exists fuel' o', ftwin_main w' fuel' os' e' args' = Exit 0 o').
  { apply (exit_zero_exact_partial R vec w' os' e' args' u' bs' depth); auto. split; [|exists p0; auto].
    intros b Ib. unfold files in *. rewrite CE. apply (same_undisturbed w' w SF'). apply U. auto. }
  destruct X as (fuel' & o' & E').
  destruct (exit_zero_complete_partial R vec w fuel os e args u bs o PR A RS Q UJ E) as (gs & S & _ & G).
  destruct (exit_zero_complete_partial R vec w' fuel' os' e' args' u' bs' o' PR' A' RS' Q' UJ' E') as (gs' & S' & _ & G').
  exists fuel', o', gs, gs'. split; [exact E'|]. split; [exact S|]. split; [exact S'|]. intros p q NE. rewrite (G p q NE), (G' p q NE), !(sf_content _ _ SF).
  split; intros (X & Y & Z); auto.
Qed.

(** ** C89: no undefined behaviour *)

(** no line of [s] is longer than 817 characters, the bound of C49 *)
Definition short_lines (s : str) : Prop := exists ls, has_lines s ls /\ Forall (fun l => (length l <= 817)%nat) ls.

Lemma until_nul_length : forall s, (length (until_nul s) <= length s)%nat.
Proof. induction s as [|c s IH]; cbn [until_nul]; auto. destruct (c =? 0)%N; cbn [length]; lia. Qed.
Lemma chop_length c l : (length (chop c l) <= length l)%nat.
Proof.
  unfold chop. destruct (rev l) as [|d r] eqn:E; [lia|]. destruct (d =? c)%N; [|lia]. rewrite rev_length.
  apply (f_equal (@length N)) in E. rewrite rev_length in E. cbn [length] in E. lia.
Qed.
Lemma skip_spaces_length : forall s, (length (skip_spaces s) <= length s)%nat.
Proof. induction s as [|c s IH]; cbn [skip_spaces]; auto. destruct (isspace c); cbn [length] in *; lia. Qed.
Lemma add_pattern_total R compile (c : ctx R) l : (length l <= 817)%nat -> exists c', add_pattern R compile c l = Some c'.
Proof.
  intros L. unfold add_pattern. pose proof (skip_spaces_length l) as K. destruct (skip_spaces l) as [|h t]; [eauto|]. destruct (h =? chr "#")%N; [eauto|].
  destruct (glob_buffer_partial (h :: t)) as (f & text & -> & _); [exact (Nat.le_trans _ _ _ K L)|]. destruct (compile text); eauto.
Qed.
Lemma line_length l : (length l <= 817)%nat -> (length (chop 13 (chop 10 (until_nul (l ++ [10%N])))) <= 817)%nat.
Proof.
  intros L. pose proof (chop_length 13 (chop 10 (until_nul (l ++ [10%N])))) as A.
  enough (B : (length (chop 10 (until_nul (l ++ [10%N]))) <= 817)%nat) by lia. clear A.
  destruct (in_dec N.eq_dec 0%N l) as [I|I].
  - assert (E : until_nul (l ++ [10%N]) = until_nul l).
    { clear L. induction l as [|c l IH]; [destruct I|]. cbn [app until_nul]. destruct (N.eqb_spec c 0) as [->|NE]; [reflexivity|].
      f_equal. apply IH. destruct I; [congruence|assumption]. }
    rewrite E. pose proof (chop_length 10 (until_nul l)). pose proof (until_nul_length l). lia.
  - rewrite until_nul_id by (rewrite in_app_iff; intros [X|[X|[]]]; [auto|discriminate]). rewrite chop_snoc. exact L.
Qed.
Lemma load_total R compile : forall s ls, has_lines s ls -> Forall (fun l => (length l <= 817)%nat) ls ->
  forall fu (c : ctx R), (length s <= fu)%nat -> exists c', load_lines R compile fu 4095 c s = Some c'.
Proof.
  induction 1 as [|l NE NL|l s ls NL H IH]; intros SH fu c F.
  - destruct fu; cbn; eauto.
  - apply Forall_inv in SH. destruct fu as [|fu]; [destruct l; [congruence|cbn [length] in F; lia]|].
    destruct l as [|x l]; [congruence|]. cbn [load_lines]. rewrite get_line_end by (auto; lia).
    destruct (add_pattern_total R compile c (chop 13 (chop 10 (until_nul (x :: l))))) as (c' & ->).
    { pose proof (chop_length 13 (chop 10 (until_nul (x :: l)))). pose proof (chop_length 10 (until_nul (x :: l))). pose proof (until_nul_length (x :: l)). lia. }
    destruct fu; cbn; eauto.
  - pose proof (Forall_inv SH) as SL. apply Forall_inv_tail in SH. rewrite app_length in F. cbn [length] in F. destruct fu as [|fu]; [lia|].
    assert (E : load_lines R compile (S fu) 4095 c (l ++ 10%N :: s) = match add_pattern R compile c (chop 13 (chop 10 (until_nul (l ++ [10%N])))) with Some c' => load_lines R compile fu 4095 c' s | None => None end).
    { assert (SL' : (length l < 4095)%nat) by (apply (Nat.le_lt_trans _ _ _ SL); lia). cbn [load_lines]. rewrite get_line_nl by auto. now destruct l. }
    rewrite E. destruct (add_pattern_total R compile c (chop 13 (chop 10 (until_nul (l ++ [10%N]))))) as (c' & ->); [now apply line_length|].
    apply IH; auto. lia.
Qed.

Lemma entries_defined R wk (c : wconf R) d : forall es, (forall n ty, In (n, ty) es -> entry_ok c d n ty -> wk (join d n) <> WUB) -> entries wk c d es <> WUB.
Proof.
  induction es as [|(n, ty) es IH]; intros H; cbn [entries fst]; [discriminate|].
  assert (IH' : entries wk c d es <> WUB) by (apply IH; intros n' ty' I; apply (H n' ty'); now right).
  destruct (skip_entry c (n, ty)) eqn:S1; [exact IH'|]. destruct (skip_full c (join d n)) eqn:S2; [exact IH'|].
  assert (X : wk (join d n) <> WUB) by (apply (H n ty); [now left|now apply skip_spec]).
  destruct (wk (join d n)); try discriminate; [|congruence]. destruct (entries wk c d es); try discriminate. congruence.
Qed.
(** with -f no link that is met is broken *)
Definition links_lead {R} compile exec (c : wconf R) f (a : path) : Prop :=
  forall cs p, reached compile exec c f a cs p -> s_stat f p <> None.
Lemma walk_defined R compile exec (c : wconf R) f a : (cf_fsyml (w_conf c) = true -> links_lead compile exec c f a) ->
  (forall d s, s_gitignore f d = Some s -> short_lines s) ->
  forall fuel cs p, reached compile exec c f a cs p -> walk compile exec fuel c f cs p <> WUB.
Proof.
  intros NF SL. induction fuel as [|fuel IH]; intros cs p Rc; cbn [walk]; [discriminate|].
  destruct (s_stat f p) as [i|] eqn:S; [|destruct (cf_fsyml (w_conf c)); [exfalso; exact (NF eq_refl cs p Rc S)|discriminate]].
  destruct (ignored exec c cs p i) eqn:G; [discriminate|]. destruct (check_permissions _ i) eqn:CP; [|discriminate]. cbn [negb].
  assert (P : passes exec c cs p i) by now apply passes_spec.
  destruct (i_type i) eqn:T; try discriminate; [|destruct (cf_fsyml _); discriminate].
  destruct (s_dir f p) as [es|] eqn:D; [|discriminate].
  destruct (enter compile c f cs p) as [cs'|] eqn:EN.
  - apply entries_defined. intros n ty I K. apply IH. econstructor; eauto. now apply enter_spec.
  - exfalso. unfold enter in EN. destruct (w_git c); [|discriminate]. destruct (s_gitignore f p) as [s|] eqn:GI; [|discriminate].
    destruct (SL p s GI) as (ls & HL & F). destruct (load_total R compile s ls HL F (length s) (mkCtx p []) (Nat.le_refl _)) as (c' & E).
    unfold load_file in EN. rewrite E in EN. discriminate.
Qed.
Lemma traverse_defined {R vec} (w : world R vec) fuel c (json : bool) : forall args bs : list path,
  (if json then Forall2 (fun a b => o_truename w a = Some b) args bs else bs = args) ->
  (forall b, In b bs -> walk (o_compile w) (o_exec w) fuel c (o_fs w (cf_fsyml (w_conf c))) (w_global c) b <> WUB) ->
  traverse w fuel c json args <> WUB.
Proof.
  induction args as [|a args IH]; intros bs RS H; cbn [traverse]; [discriminate|].
  assert (X : exists b bs', bs = b :: bs' /\ (if json then o_truename w a else Some a) = Some b /\
    (if json then Forall2 (fun a b => o_truename w a = Some b) args bs' else bs' = args)).
  { destruct json; [inversion RS as [|? b ? bs0 HB HF]; subst; exists b, bs0; auto|]. subst bs. exists a, args. auto. }
  destruct X as (b & bs' & -> & -> & RS'). pose proof (H b (or_introl eq_refl)) as X.
  assert (Y : traverse w fuel c json args <> WUB) by (apply (IH bs' RS'); intros b' I; apply H; now right).
  destruct (walk _ _ _ _ _ _ b); try discriminate; [|congruence]. destruct (traverse w fuel c json args); try discriminate. congruence.
Qed.
Lemma image_defined vec (decode : file -> option vec) close sep c l : forall gs t s, run_image vec decode close sep c l = (gs, t, s) -> s = SOk \/ s = SErr.
Proof.
  intros gs t s E. destruct (collected c l) as [|x r] eqn:Ec.
  - destruct (collect_files_inv c l [] _ collect_inv_empty) as (st & CF & I). cbn [app] in I. destruct I as (_ & HF & _). rewrite Ec in HF. apply Permutation_nil in HF.
    unfold run_image in E. rewrite CF, HF in E. cbn [length Nat.eqb] in E. injection E as <- <- <-. auto.
  - destruct (image_pairs_exact vec decode close sep (fun _ => []) c l ltac:(rewrite Ec; discriminate)) as (L & gs' & _ & _ & E' & _).
    rewrite E in E'. injection E' as _ _ ->. auto.
Qed.

(** Missing: archive mode, broken links with -f, long lines in ignore files, read errors
    and collisions. *)
Theorem run_defined_partial : forall R vec (w : world R vec) fuel os e args u bs,
  ~ given os "t" -> accepted w os e args u -> resolved w os args bs ->
  (given os "f" -> forall b, In b bs -> links_lead (o_compile w) (o_exec w) (u_conf u) (files w u) b) ->
  (~ given os "I" -> quiet w u bs) ->
  (forall d s, s_gitignore (files w u) d = Some s -> short_lines s) ->
  ftwin_main w fuel os e args = NoFuel \/ exists c o, ftwin_main w fuel os e args = Exit c o.
Proof.
  intros R vec w fuel os e args u bs Nt A RS LL Q SL. destruct (accepted_cfg w os e args u A) as (P & NE & UA).
  assert (NU := not_archive w os e args u A Nt).
  unfold ftwin_main. destruct (asks_info _ os); [eauto|]. destruct (usage_error _ os args); [eauto|].
  unfold accepted in A. rewrite A. change (accepted w os e args u) in A. unfold processing. cbv zeta.
  assert (FS : cf_fsyml (w_conf (u_conf u)) = true -> given os "f").
  { assert (X : cf_fsyml (w_conf (u_conf u)) = is_set (g_mask (u_cfg u)) OPTION_FSYML).
    { unfold accepted, parse_args in A. rewrite P in A. destruct args as [|a args]; [congruence|]. destruct (fill_gids _ _); [|discriminate]. destruct (global_ignores _); [|discriminate].
      destruct (compile_opt _ _ (g_ig _)); [|discriminate]. destruct (compile_opt _ _ (g_wl _)); [|discriminate].
      destruct (compile_opt _ _ (g_ar _)); [|discriminate]. injection A as A. apply (f_equal u_conf) in A. cbn [u_conf] in A. rewrite <- A. reflexivity. }
    rewrite X. destruct (settings_exact _ _ _ P). tauto. }
  assert (TD : traverse w fuel (u_conf u) (is_set (g_mask (u_cfg u)) OPTION_JSON) (u_args u) <> WUB).
  { apply (traverse_defined w fuel (u_conf u) _ (u_args u) bs).
    - destruct (is_json w os e args u A) as (J1 & J2). destruct RS as (RJ & RN). rewrite UA. destruct (is_set _ OPTION_JSON); [auto|]. apply RN. intros X. apply J2 in X. discriminate.
    - intros b Ib. apply (walk_defined R (o_compile w) (o_exec w) (u_conf u) (files w u) b); [|exact SL|constructor]. intros X. apply LL; auto. }
  destruct (traverse w fuel _ _ _) as [l|l| |] eqn:T; [|eauto|congruence|auto]. right. rewrite NU. cbn [andb].
  apply (resolved_traverse w os e args u bs fuel A RS) in T.
  destruct (is_set (g_mask (u_cfg u)) OPTION_PUZZL) eqn:NP.
  { unfold report. cbv zeta. rewrite NP. destruct (run_image _ _ _ _ _ _) as [[gs t] s] eqn:RI. apply image_defined in RI. destruct RI as [-> | ->]; cbn [finish]; eauto. }
  assert (NI : ~ given os "I"). { intros X. apply (se_puzzl _ _ _ (settings_exact _ _ _ P)) in X. congruence. }
  specialize (Q NI).
  destruct (compared_collected w u bs l fuel T) as (CC & SZ). destruct (collected (w_conf (u_conf u)) l) as [|x r] eqn:Ec.
  { destruct Q. destruct (empty_report w u bs l fuel T) as (o' & ->); eauto. intros (p & C). apply CC in C. destruct C as (x & [] & _). }
  destruct Q as [QS QI QR QZ QH QC]. destruct (SZ QZ) as (SZ1 & SO). rewrite <- Ec in *.
  destruct (duplicates_exact_partial (bytes_of w) (o_xxh w) (o_huge w) (Z.to_N (g_excess (u_cfg u))) (o_beh w) (o_hbeh w) (o_junk w) (o_qsort w) (o_iter w) (w_conf (u_conf u)) l)
    as (gs & js & RT & _ & RJ & _); auto; [rewrite Ec; discriminate| |].
  { intros f g If Ig E. unfold bytes_of in *. apply QC; auto; apply CC; eauto. }
  unfold report. cbv zeta. rewrite NP. destruct (is_set (g_mask (u_cfg u)) OPTION_JSON).
  - unfold hash, compare. rewrite RJ. cbn [snd finish]. eauto.
  - destruct (text_exact _ _ _ _ _ format_human_size (style_of (g_sep (u_cfg u)) (is_set (g_mask (u_cfg u)) OPTION_SIZED) (o_tty w)) _ _ _ _ QS QI SO RT) as (t & RO & _).
    unfold hash, compare. rewrite RO. cbn [finish]. eauto.
Qed.

(** ** C110: whole runs with -I *)

(** the file at [p] is an image with vector [v]; two paths are similar images *)
Definition pictured {R vec} (w : world R vec) (p : path) (v : vec) : Prop := forall f, f_path f = p -> o_decode w f = Some v.
Definition look_alike {R vec} (w : world R vec) (level : N) (p q : path) : Prop :=
  exists v v', pictured w p v /\ pictured w q v' /\ o_close w level v v' = true.
(** [q] stands behind [p] on a line that begins with [p] *)
Definition line_names (gs : list (list path)) (p q : path) : Prop := exists m, In (p :: m) gs /\ In q m.

(** Nothing is assumed of reads or hashes. *)
Theorem exit_zero_images : forall R vec (w : world R vec) fuel os e args u bs o,
  ~ given os "h" -> ~ given os "V" -> given os "I" -> accepted w os e args u -> resolved w os args bs ->
  (forall f g, f_path f = f_path g -> o_decode w f = o_decode w g) ->
  (forall v v', o_close w (g_level (u_cfg u)) v v' = o_close w (g_level (u_cfg u)) v' v) ->
  ftwin_main w fuel os e args = Exit 0 o ->
  exists gs, o = OImages (concat (map (sized_text format_human_size (style_of (g_sep (u_cfg u)) false false)) gs)) /\
    (forall g, In g gs -> (2 <= length g)%nat) /\
    forall p q, p <> q ->
      (line_names (map (map f_path) gs) p q \/ line_names (map (map f_path) gs) q p <->
       compared w u bs p /\ compared w u bs q /\ look_alike w (g_level (u_cfg u)) p q).
Proof.
  intros R vec w fuel os e args u bs o Nh NV GI A RS DP CS E. rewrite (main_processing w fuel os e args u Nh NV A) in E.
  destruct (accepted_cfg w os e args u A) as (P & _). assert (NP : is_set (g_mask (u_cfg u)) OPTION_PUZZL = true) by now apply (se_puzzl _ _ _ (settings_exact _ _ _ P)).
  unfold processing in E. cbv zeta in E. destruct (traverse w fuel _ _ _) as [l| | |] eqn:T; try discriminate. rewrite NP in E. cbn [negb andb] in E. rewrite andb_false_r in E. cbn [andb] in E.
  apply (resolved_traverse w os e args u bs fuel A RS) in T. destruct (compared_collected w u bs l fuel T) as (CC & _).
  unfold report in E. cbv zeta in E. rewrite NP in E.
  set (C := collected (w_conf (u_conf u)) l) in *.
  assert (NE : C <> []).
  { intros X. destruct (collect_files_inv (w_conf (u_conf u)) l [] _ collect_inv_empty) as (st & CF & I). cbn [app] in I. destruct I as (_ & HF & _). fold C in HF. rewrite X in HF. apply Permutation_nil in HF.
    unfold run_image in E. rewrite CF, HF in E. cbn [length Nat.eqb finish] in E. discriminate. }
  destruct (image_pairs_exact vec (o_decode w) (o_close w (g_level (u_cfg u))) (g_sep (u_cfg u)) format_human_size (w_conf (u_conf u)) l NE) as (L & gs & PL & _ & EI & G2 & pr & HP & N).
  rewrite EI in E. cbn [finish] in E. injection E as <-. exists gs. split; [reflexivity|]. split; [exact G2|].
  assert (SV : forall f g, similar (o_decode w) (o_close w (g_level (u_cfg u))) f g <-> look_alike w (g_level (u_cfg u)) (f_path f) (f_path g)).
  { intros f g. split.
    - intros (v & v' & Df & Dg & X). exists v, v'. split; [intros f' E'; rewrite (DP f' f E'); exact Df|]. split; [intros f' E'; rewrite (DP f' g E'); exact Dg|exact X].
    - intros (v & v' & Df & Dg & X). exists v, v'. split; [now apply Df|]. split; [now apply Dg|exact X]. }
  assert (LN : forall p q, line_names (map (map f_path) gs) p q <-> exists f g, f_path f = p /\ f_path g = q /\ In (f, g) (named gs)).
  { intros p q. split.
    - intros (m & I & J). apply in_map_iff in I as (grp & X & I). destruct grp as [|f mm]; [discriminate|]. injection X as <- <-.
      apply in_map_iff in J as (g & <- & J). exists f, g. split; [reflexivity|]. split; [reflexivity|]. apply in_flat_map. exists (f :: mm). split; [exact I|]. now apply in_map.
    - intros (f & g & <- & <- & I). apply in_flat_map in I as ([|f0 mm] & I & J); [destruct J|]. apply in_map_iff in J as (g0 & X & J). injection X as -> ->.
      exists (map f_path mm). split; [apply in_map_iff; exists (f :: mm); auto|now apply in_map]. }
  assert (SY : forall p q, look_alike w (g_level (u_cfg u)) p q -> look_alike w (g_level (u_cfg u)) q p).
  { intros p q (v & v' & X & Y & Z). exists v', v. split; [exact Y|]. split; [exact X|]. now rewrite CS. }
  assert (NM : forall f g, In (f, g) (named gs) <-> In (f, g) (ordered_pairs L) /\ look_alike w (g_level (u_cfg u)) (f_path f) (f_path g)).
  { intros f g. rewrite <- SV, <- HP. rewrite <- (filter_In pr (f, g) (ordered_pairs L)). split; apply Permutation_in; [exact N|now apply Permutation_sym]. }
  assert (CL : forall p, compared w u bs p <-> exists x, In x L /\ f_path x = p).
  { intros p. rewrite CC. fold C. split; intros (x & I & X); exists x; (split; [|exact X]); revert I; apply Permutation_in; [exact PL|now apply Permutation_sym]. }
  intros p q NEQ. rewrite !LN, !CL. split.
  - assert (H : forall a b, (exists f g, f_path f = a /\ f_path g = b /\ In (f, g) (named gs)) ->
      (exists x, In x L /\ f_path x = a) /\ (exists x, In x L /\ f_path x = b) /\ look_alike w (g_level (u_cfg u)) a b).
    { intros a b (f & g & <- & <- & I). apply NM in I as (I & X). apply ordered_pairs_in in I as (I & J). split; [now exists f|]. split; [now exists g|exact X]. }
    intros [I|I]; apply H in I as (X & Y & Z); eauto.
  - intros ((f & If & <-) & (g & Ig & <-) & AL). destruct (ordered_pairs_split L f g If Ig) as [I|I]; [congruence|left|right].
    + exists f, g. split; [reflexivity|]. split; [reflexivity|]. now apply NM.
    + exists g, f. split; [reflexivity|]. split; [reflexivity|]. apply NM. auto.
Qed.
Print Assumptions exit_zero_images.

(** ** C111: the exit status *)

(** help or the version is asked for before anything that is not acceptable *)
Definition help_reached (os : list opt) : Prop :=
  exists os1 x os2, os = os1 ++ x :: os2 /\ Forall acceptable os1 /\ (fst x = chr "h" \/ fst x = chr "V").
Lemma asks_info_exact : forall os g, asks_info g os = true <-> help_reached os.
Proof.
  induction os as [|(o, a) os IH]; intros g; cbn [asks_info fst].
  { split; [discriminate|]. intros ([|y l] & x & os2 & E & _); discriminate. }
  destruct ((o =? chr "h")%N || (o =? chr "V")%N) eqn:B.
  { split; [|reflexivity]. intros _. exists [], (o, a), os. split; [reflexivity|]. split; [constructor|]. apply orb_true_iff in B. rewrite !N.eqb_eq in B. exact B. }
  apply orb_false_iff in B. destruct B as (B1 & B2). apply N.eqb_neq in B1, B2.
  destruct (process_option g (o, a)) as [g'| | |] eqn:P.
  - rewrite (IH g'). assert (A : acceptable (o, a)) by (apply (accept_one g); eauto). split.
    + intros (os1 & x & os2 & -> & F & X). exists ((o, a) :: os1), x, os2. split; [reflexivity|]. split; [now constructor|exact X].
    + intros ([|y os1] & x & os2 & E & F & X); injection E as <- ->; [cbn [fst] in X; tauto|]. inversion F; subst. exists os1, x, os2. auto.
  - split; [discriminate|]. intros ([|y os1] & x & os2 & E & F & X); injection E as <- ->; [cbn [fst] in X; tauto|]. inversion F as [|? ? A]; subst.
    apply (accept_one g) in A. rewrite P in A. destruct A; discriminate.
  - split; [discriminate|]. intros ([|y os1] & x & os2 & E & F & X); injection E as <- ->; [cbn [fst] in X; tauto|]. inversion F as [|? ? A]; subst.
    apply (accept_one g) in A. rewrite P in A. destruct A; discriminate.
  - split; [discriminate|]. intros ([|y os1] & x & os2 & E & F & X); injection E as <- ->; [cbn [fst] in X; tauto|]. inversion F as [|? ? A]; subst.
    apply (accept_one g) in A. rewrite P in A. destruct A; discriminate.
Qed.
(** 0 after help; 1 exactly for a command line that is not acceptable, with the usage text;
    otherwise 0 with a report or -1, which the shell sees as 255 *)
Theorem exit_status_exact : forall R vec (w : world R vec) fuel os e args c o,
  ftwin_main w fuel os e args = Exit c o ->
  (c = 0 \/ c = 1 \/ c = -1) /\
  (c = 0 /\ o = OInfo <-> help_reached os) /\
  (c = 1 <-> ~ help_reached os /\ (~ Forall acceptable os \/ args = [])) /\
  (c = 1 -> o = OInfo) /\
  (c = 0 -> o <> ONothing) /\
  (c = -1 -> o = ONothing \/ (exists t, o = OText t) \/ exists t, o = OImages t).
Proof.
  intros R vec w fuel os e args c o E. unfold ftwin_main in E. rewrite <- !(asks_info_exact os (cfg_create (o_cpus w))).
  destruct (asks_info _ os).
  { injection E as <- <-. split; [auto|]. split; [tauto|]. split; [split; [discriminate|intros (X & _); congruence]|]. split; [discriminate|]. split; [discriminate|discriminate]. }
  pose proof (accepted_exact_partial (o_cpus w) os) as AC. unfold usage_error in E. destruct (parse_opts (cfg_create (o_cpus w)) os) as [g| | |] eqn:P.
  - destruct args as [|a args].
    { injection E as <- <-. split; [auto|]. split; [split; [intros (X & _); discriminate|discriminate]|]. split; [split; [intros _; split; [discriminate|auto]|auto]|]. split; [auto|]. split; discriminate. }
    assert (N1 : ~ (~ Forall acceptable os \/ a :: args = [])).
    { intros [X|X]; [apply X, AC; eauto|discriminate]. }
    assert (G : c <> 1 /\ (c = 0 \/ c = -1) /\ o <> OInfo /\ (c = 0 -> o <> ONothing) /\ (c = -1 -> o = ONothing \/ (exists t, o = OText t) \/ exists t, o = OImages t)).
    { destruct (parse_args _ _ _ os e (a :: args) _ _ _) as [u| | |]; try discriminate.
      2:{ injection E as <- <-. split; [discriminate|]. split; [auto|]. split; [discriminate|]. split; [discriminate|auto]. }
      unfold processing in E. cbv zeta in E. destruct (traverse w fuel _ _ _) as [l| | |]; try discriminate.
      2:{ injection E as <- <-. split; [discriminate|]. split; [auto|]. split; [discriminate|]. split; [discriminate|auto]. }
      destruct (_ && _ && _); [discriminate|]. unfold report in E. cbv zeta in E. destruct (is_set _ OPTION_PUZZL).
      { destruct (run_image _ _ _ _ _ _) as [[gs t] s]. destruct s; cbn [finish] in E; try discriminate; injection E as <- <-;
          (split; [discriminate|]; split; [auto|]; split; [discriminate|]; split; [discriminate|eauto]). }
      destruct (is_set _ OPTION_JSON).
      - unfold run_document in E. destruct (run_json _ _ _ _ _ _ l) as [js s]. cbn [snd] in E. destruct s; cbn [finish] in E; try discriminate; injection E as <- <-;
          (split; [discriminate|]; split; [auto|]; split; [discriminate|]; split; [discriminate|try discriminate; auto]).
      - destruct (run_output _ _ _ _ _ _ _ _ l) as [t s]. destruct s; cbn [finish] in E; try discriminate; injection E as <- <-;
          (split; [discriminate|]; split; [auto|]; split; [discriminate|]; split; [discriminate|eauto]). }
    destruct G as (G1 & G2 & G3 & G4 & G5). split; [tauto|]. split; [split; [tauto|discriminate]|]. split; [tauto|]. split; [tauto|]. auto.
  - assert (NA : ~ Forall acceptable os) by (intros X; apply AC in X; destruct X; discriminate).
    injection E as <- <-. split; [auto|]. split; [split; [intros (X & _); discriminate|discriminate]|]. split; [split; [intros _; split; [discriminate|auto]|auto]|]. split; [auto|]. split; discriminate.
  - unfold parse_args in E. rewrite P in E. discriminate.
  - unfold parse_args in E. rewrite P in E. discriminate.
Qed.
Print Assumptions exit_status_exact.

(** * The hypotheses hold, and what the program does otherwise *)

Definition main_tree (es : list (path * ftype)) : list (path * node) :=
  [ (lit "/d", NDir es); (lit "/d/a", NFile 3); (lit "/d/c", NFile 3);
    (lit "/d/sub", NDir [(lit "b", TReg)]); (lit "/d/sub/b", NFile 3); (lit "/e", NDir [(lit "gone", TReg)]) ].
Definition main_entries : list (path * ftype) := [(lit "a", TReg); (lit "c", TReg); (lit "sub", TDir)].
Definition main_content (p : path) : bytes :=
  if in_dec (list_eq_dec N.eq_dec) p [lit "/d/a"; lit "/d/sub/b"] then lit "abc" else lit "xyz".
Definition main_git : list (path * str) := [(lit "/d", lit "junk" ++ [10%N])].
Definition main_fs es := list_fs (main_tree es) main_git.
Definition main_true (a : path) : option path := Some (if (hd 0 a =? chr "/")%N then a else chr "/" :: a).
Definition main_world (cpus : Z) (f : fs) (hbeh : file -> bool * (nat -> option nat)) : world str unit :=
  mkWorld (fun r => Some r) toy (fun _ _ => Some (fun _ => true)) cpus 7 [] 5 (fun _ => f) main_true main_content doc_mtime
    capped 2 ok_beh hbeh ex_junk isort id_iter false calendar (fun _ => None) (fun _ _ _ => false).
(** one world, and the same files listed the other way round on another machine *)
Definition world1 := main_world 4 (main_fs main_entries) ok_hbeh.
Definition world2 := main_world 1 (main_fs (rev main_entries)) ok_hbeh.
Definition opt_J : opt := (chr "J", []).

Example text_run : ftwin_main world1 9 [] GEof [lit "/d"] = Exit 0 (OText (lit "/d/a" ++ [10%N] ++ lit "/d/sub/b" ++ [10; 10]%N)).
Proof. vm_compute. reflexivity. Qed.
Example json_run : exists sets, ftwin_main world1 9 [opt_J] GEof [lit "d"] = Exit 0 (ODoc (JArr sets)) /\ map paths_of sets = [[lit "/d/a"; lit "/d/sub/b"]].
Proof. eexists. split; [vm_compute; reflexivity|]. vm_compute. reflexivity. Qed.
Example true_ex : forall a b, o_truename world1 a = Some b -> absolute b.
Proof.
  intros a b E. cbn [o_truename world1 main_world] in E. unfold main_true in E. assert (B : b = if (hd 0 a =? chr "/")%N then a else chr "/" :: a) by congruence. subst b. unfold absolute.
  destruct (hd 0%N a =? chr "/")%N eqn:H; [|reflexivity]. apply N.eqb_eq in H. destruct a as [|c a]; [discriminate|]. cbn [hd] in H. subst c. reflexivity.
Qed.

Lemma main_sizes : forall es, sizes_true main_content (main_fs es).
Proof.
  intros es p i S. unfold main_fs, list_fs in S. cbn [s_stat] in S. destruct (look (main_tree es) p) as [n|] eqn:L; [|discriminate].
  apply look_in in L. cbn [main_tree In] in L.
  destruct L as [L|[L|[L|[L|[L|[L|[]]]]]]]; injection L as <- <-; injection S as <-; try (right; reflexivity); left; vm_compute; reflexivity.
Qed.
Lemma main_quiet_ex : forall cpus es u bs, quiet (main_world cpus (main_fs es) ok_hbeh) u bs.
Proof.
  intros cpus es u bs. constructor.
  - exact isort_sorts.
  - exact id_iter_all.
  - apply end_hyps.
  - apply main_sizes.
  - apply doc_hyps.
  - intros p q _ _. cbn [o_xxh o_content main_world]. unfold main_content.
    destruct (in_dec (list_eq_dec N.eq_dec) p _), (in_dec (list_eq_dec N.eq_dec) q _); intros E; try reflexivity; vm_compute in E; discriminate.
Qed.
Lemma main_accepted : forall cpus es hb os, (exists g, parse_opts (cfg_create cpus) os = POk g) -> exists u, accepted (main_world cpus (main_fs es) hb) os GEof [lit "/d"] u.
Proof.
  intros cpus es hb os (g & P). unfold accepted, parse_args. cbn [o_cpus main_world]. rewrite P.
  destruct (fill_gids _ _) eqn:F; [|discriminate F]. destruct (global_ignores _) eqn:G; [|vm_compute in G; discriminate G].
  destruct (g_ig g), (g_wl g), (g_ar g); cbn [compile_opt o_pcre main_world]; eauto.
Qed.
Definition main_depth (p : path) : nat := if list_eq_dec N.eq_dec p (lit "/d") then 3 else if list_eq_dec N.eq_dec p (lit "/d/sub") then 2 else if list_eq_dec N.eq_dec p (lit "/e") then 1 else 0.
Lemma main_finite : forall c : wconf str, finite_tree c (main_fs main_entries) main_depth.
Proof.
  intros c. apply forallb_dirs. cbn [forallb main_tree main_entries snd fst].
  repeat match goal with |- context [(main_depth ?a <? main_depth ?b)%nat] => let v := eval vm_compute in (main_depth a <? main_depth b)%nat in change (main_depth a <? main_depth b)%nat with v end.
  rewrite !orb_true_r. reflexivity.
Qed.
Lemma main_git_short : forall es d s, s_gitignore (main_fs es) d = Some s -> short_lines s.
Proof.
  intros es d s E. unfold main_fs, list_fs, main_git in E. cbn [s_gitignore find fst] in E. destruct (list_eq_dec N.eq_dec (lit "/d") d); [|discriminate]. injection E as <-. exists [lit "junk"]. split; [|repeat constructor; cbn; lia].
  change (has_lines (lit "junk" ++ 10%N :: []) [lit "junk"]). constructor; [cbn; intuition discriminate|constructor].
Qed.
Example main_hyps : exists u, plain_run [] /\ accepted world1 [] GEof [lit "/d"] u /\ resolved world1 [] [lit "/d"] [lit "/d"] /\ quiet world1 u [lit "/d"] /\
  finite_tree (u_conf u) (files world1 u) main_depth /\ (forall d s, s_gitignore (files world1 u) d = Some s -> short_lines s).
Proof.
  destruct (main_accepted 4 main_entries ok_hbeh []) as (u & A); [eexists; reflexivity|]. exists u.
  split; [unfold plain_run, given; firstorder|]. split; [exact A|]. split; [split; [intros (a & [])|reflexivity]|]. split; [apply main_quiet_ex|].
  split; [apply main_finite|]. apply main_git_short.
Qed.
Example links_ex : exists u, accepted world1 [(chr "f", [])] GEof [lit "/d"] u /\ cf_fsyml (w_conf (u_conf u)) = true /\
  links_lead (o_compile world1) (o_exec world1) (u_conf u) (files world1 u) (lit "/d").
Proof.
  destruct (main_accepted 4 main_entries ok_hbeh [(chr "f", [])]) as (u & A); [eexists; vm_compute; reflexivity|]. exists u. split; [exact A|].
  assert (W : cf_fsyml (w_conf (u_conf u)) = true /\ exists l, walk_args (o_compile world1) (o_exec world1) 9 (u_conf u) (files world1 u) [lit "/d"] = WOk l).
  { unfold accepted in A. vm_compute in A. injection A as <-. split; [reflexivity|]. eexists. vm_compute. reflexivity. }
  destruct W as (W0 & l & W). split; [exact W0|]. intros cs p Rc X. destruct (walk_args_ok _ _ _ _ _ _ _ _ W) as (ls & _ & F).
  inversion F as [|? ? ? ? W1]; subst. apply (walk_ok str) in W1. destruct W1 as (W1 & _). apply reached_below in Rc.
  destruct (W1 cs p Rc) as (i & S & _). congruence.
Qed.
(** a run with -I: the vector of an image is its first byte *)
Definition image_tree : list (path * node) :=
  [ (lit "/d", NDir [(lit "a.png", TReg); (lit "c.png", TReg); (lit "sub", TDir)]); (lit "/d/a.png", NFile 3); (lit "/d/c.png", NFile 3);
    (lit "/d/sub", NDir [(lit "b.png", TReg)]); (lit "/d/sub/b.png", NFile 3) ].
Definition image_world : world str N :=
  mkWorld (fun r => Some r) toy (fun _ _ => Some (fun _ => true)) 4 7 [] 5 (fun _ => list_fs image_tree []) main_true main_content doc_mtime
    capped 2 ok_beh ok_hbeh ex_junk isort id_iter false calendar
    (fun f => if in_dec (list_eq_dec N.eq_dec) (f_path f) [lit "/d/a.png"; lit "/d/sub/b.png"] then Some 1%N else Some 2%N) (fun _ v v' => (v =? v')%N).
Example images_ex : exists u, accepted image_world [(chr "I", [])] GEof [lit "/d"] u /\
  resolved image_world [(chr "I", [])] [lit "/d"] [lit "/d"] /\
  (forall f g, f_path f = f_path g -> o_decode image_world f = o_decode image_world g) /\
  (forall v v', o_close image_world (g_level (u_cfg u)) v v' = o_close image_world (g_level (u_cfg u)) v' v) /\
  exists o, ftwin_main image_world 9 [(chr "I", [])] GEof [lit "/d"] = Exit 0 (OImages o) /\ o <> [].
Proof.
  assert (A : exists u, accepted image_world [(chr "I", [])] GEof [lit "/d"] u) by (eexists; vm_compute; reflexivity).
  destruct A as (u & A). exists u. split; [exact A|]. split.
  { split; [intros (a & [X|[]]); discriminate X|reflexivity]. }
  split; [intros f g E; cbn [o_decode image_world]; rewrite E; reflexivity|]. split; [intros v v'; apply N.eqb_sym|].
  eexists. split; [vm_compute; reflexivity|discriminate].
Qed.
Example exit_status_ex :
  (exists o, ftwin_main world1 9 [(chr "R", [])] GEof [lit "/d"] = Exit 0 (OText o)) /\
  ftwin_main world1 9 [(chr "R", []); (chr "h", []); (chr "j", lit "0")] GEof [] = Exit 0 OInfo /\
  ftwin_main world1 9 [(chr "j", lit "0"); (chr "h", [])] GEof [lit "/d"] = Exit 1 OInfo /\
  ftwin_main world1 9 [(chr "R", [])] GEof [] = Exit 1 OInfo /\
  ftwin_main world1 9 [(chr "R", [])] GEof [lit "/e"] = Exit (-1) ONothing.
Proof. split; [eexists; vm_compute; reflexivity|]. split; [vm_compute; reflexivity|]. split; [vm_compute; reflexivity|]. split; vm_compute; reflexivity. Qed.
Example same_ex : same_files world1 world2 /\ same_options [] [(chr "j", lit "2"); (chr "d", [])] /\
  exists u, accepted world2 [(chr "j", lit "2"); (chr "d", [])] GEof [lit "/d"] u /\ quiet world2 u [lit "/d"].
Proof.
  split; [|split; [reflexivity|]].
  - assert (L : forall es p, p <> lit "/d" -> look (main_tree es) p = look (main_tree []) p).
    { intros es p NE. unfold main_tree. cbn [look]. destruct (list_eq_dec N.eq_dec (lit "/d") p); [congruence|reflexivity]. }
    constructor; try reflexivity; intros f p; destruct (list_eq_dec N.eq_dec (lit "/d") p) as [<-|NE]; try reflexivity.
    + change (o_fs world1 f) with (main_fs main_entries). change (o_fs world2 f) with (main_fs (rev main_entries)).
      unfold main_fs, list_fs. cbn [s_stat]. rewrite (L main_entries p), (L (rev main_entries) p) by congruence. reflexivity.
    + change (forall x, In x main_entries <-> In x (rev main_entries)). intros x. apply in_rev.
    + change (o_fs world1 f) with (main_fs main_entries). change (o_fs world2 f) with (main_fs (rev main_entries)).
      unfold main_fs, list_fs. cbn [s_dir]. rewrite (L main_entries p), (L (rev main_entries) p) by congruence. destruct (look (main_tree []) p) as [[es| |]|]; try exact I. reflexivity.
  - destruct (main_accepted 1 (rev main_entries) ok_hbeh [(chr "j", lit "2"); (chr "d", [])]) as (u & A); [eexists; vm_compute; reflexivity|].
    exists u. split; [exact A|apply main_quiet_ex].
Qed.

(** two files with the same bytes, one of which cannot be read: status 0 and no report *)
Definition bad_hbeh (f : file) : bool * (nat -> option nat) := if list_eq_dec N.eq_dec (f_path f) (lit "/d/a") then (false, fun _ => None) else ok_hbeh f.
Theorem exit_zero_complete_refuted : exists (w : world str unit) u p q,
  sorts (o_qsort w) /\ visits_all (o_iter w) /\ sizes_true (o_content w) (files w u) /\
  accepted w [] GEof [lit "/d"] u /\ compared w u [lit "/d"] p /\ compared w u [lit "/d"] q /\ p <> q /\ o_content w p = o_content w q /\
  ftwin_main w 9 [] GEof [lit "/d"] = Exit 0 (OText []).
Proof.
  destruct (main_accepted 4 main_entries bad_hbeh []) as (u & A); [eexists; reflexivity|].
  exists (main_world 4 (main_fs main_entries) bad_hbeh), u, (lit "/d/a"), (lit "/d/sub/b").
  split; [exact isort_sorts|]. split; [exact id_iter_all|]. split; [apply main_sizes|]. split; [exact A|].
  assert (W : exists l i j, walk_args (fun r => Some r) toy 9 (u_conf u) (main_fs main_entries) [lit "/d"] = WOk l /\ In (lit "/d/a", i) l /\ In (lit "/d/sub/b", j) l /\ i_size i = 3 /\ i_size j = 3
    /\ cf_minsize (w_conf (u_conf u)) = 0 /\ cf_maxsize (w_conf (u_conf u)) = 0).
  { unfold accepted in A. vm_compute in A. injection A as <-. do 3 eexists. split; [vm_compute; reflexivity|].
    split; [now left|]. split; [right; right; now left|]. repeat split; reflexivity. }
  destruct W as (l & i & j & W & Ii & Ij & Si & Sj & Mi & Ma). pose proof (walk_exact _ _ _ _ _ _ _ _ W) as WE.
  split; [apply WE in Ii; destruct Ii as (a & cs & Ia & T); exists a, cs, i; split; [exact Ia|]; split; [exact T|]; rewrite Mi, Ma, Si; unfold within; lia|].
  split; [apply WE in Ij; destruct Ij as (a & cs & Ia & T); exists a, cs, j; split; [exact Ia|]; split; [exact T|]; rewrite Mi, Ma, Sj; unfold within; lia|].
  split; [discriminate|]. split; [reflexivity|]. vm_compute. reflexivity.
Qed.
(** -I wins over -J: status 0 and no document *)
Theorem json_output_refuted : exists (w : world str unit) os t, given os "J" /\ (exists u, accepted w os GEof [lit "/d"] u) /\ ftwin_main w 9 os GEof [lit "/d"] = Exit 0 (OImages t).
Proof.
  exists world1, [opt_J; (chr "I", [])], []. split; [exists []; now left|]. split; [|vm_compute; reflexivity].
  apply (main_accepted 4 main_entries ok_hbeh). eexists. vm_compute. reflexivity.
Qed.
(** -t with two files of one size; -f and a directory entry that is gone *)
Theorem run_defined_refuted : exists (w : world str unit), (forall u bs, quiet w u bs) /\
  ftwin_main w 9 [(chr "t", [])] GEof [lit "/d"] = UndefSubpath /\ ftwin_main w 9 [(chr "f", [])] GEof [lit "/e"] = Undef.
Proof. exists world1. split; [apply main_quiet_ex|]. split; vm_compute; reflexivity. Qed.

Print Assumptions exit_zero_complete_partial.
Print Assumptions exit_zero_exact_partial.
Print Assumptions exit_zero_complete_refuted.
Print Assumptions json_output_partial.
Print Assumptions json_output_refuted.
Print Assumptions json_paths_absolute.
Print Assumptions order_irrelevant_partial.
Print Assumptions run_defined_partial.
Print Assumptions run_defined_refuted.
