(** C150: whatever a run writes, it names only files that were selected - in every world:
    reads that fail, hashes that collide, any options, any exit status. *)
From Coq Require Import String Ascii Sorting.Permutation.
From Verif Require Import Util HeapModel IgnoreModel HumanModel CollectModel ProcessModel ReportSpec ReportProofs ReportGroups PropReport FileModel PropFile PropEnd WalkModel PropWalk PropIgnore PropIgnoreFile PropRun
  ConfigModel PropConfig OutputModel PropOutput ImageModel PropImage FormatModel JsonModel PropJson MainModel PropMain.
Local Open Scope list_scope.
Local Open Scope Z_scope.

(** * Specification *)

(** the walk takes the file [p] from one of the arguments [bs] (C58), it has [z] bytes, and
    that is within the limits given *)
Definition chosen {R vec} (w : world R vec) (u : setup R) (bs : list path) (z : Z) (p : path) : Prop :=
  exists a cs i, In a bs /\ taken (o_compile w) (o_exec w) (u_conf u) (files w u) a p i cs /\ i_size i = z /\
    within (cf_minsize (w_conf (u_conf u))) (cf_maxsize (w_conf (u_conf u))) z.
(** [t] is the text of the groups [gs]; the empty line after the last one may lack *)
Definition text_of (y : style) (gs : list (list file)) (t : str) : Prop :=
  exists tail, t ++ tail = concat (map (sized_text format_human_size y) gs) /\ (tail = [] \/ tail = [10; 10]%N).

(** what may stand on standard output *)
Definition names_only_chosen {R vec} (w : world R vec) (os : list opt) (e : getopt_end) (args : list path) (o : output) : Prop :=
  match o with
  | ONothing | OInfo => True
  | OText t => exists u gs, accepted w os e args u /\ text_of (style_of (g_sep (u_cfg u)) (is_set (g_mask (u_cfg u)) OPTION_SIZED) (o_tty w)) gs t /\
      forall grp, In grp gs -> (2 <= length grp)%nat /\ exists z, forall f, In f grp -> f_size f = z /\ chosen w u args z (f_path f)
  | OImages t => exists u bs gs, accepted w os e args u /\ resolved w os args bs /\ text_of (style_of (g_sep (u_cfg u)) false false) gs t /\
      forall grp, In grp gs -> (2 <= length grp)%nat /\ forall f, In f grp -> chosen w u bs (f_size f) (f_path f)
  | ODoc d => exists u bs sets, accepted w os e args u /\ resolved w os args bs /\ d = JArr sets /\
      forall s, In s sets -> exists z, forall p, In p (paths_of s) -> chosen w u bs z p
  end.

(** * Proofs *)

Lemma traverse_resolved {R vec} (w : world R vec) fuel os e args u l : accepted w os e args u ->
  traverse w fuel (u_conf u) (is_set (g_mask (u_cfg u)) OPTION_JSON) (u_args u) = WOk l ->
  exists bs, resolved w os args bs /\ walk_args (o_compile w) (o_exec w) fuel (u_conf u) (files w u) bs = WOk l.
Proof.
  intros A T. destruct (accepted_cfg w os e args u A) as (_ & _ & UA). pose proof (is_json w os e args u A) as IJ. rewrite UA in T.
  apply traverse_walk in T as (bs & F & W). exists bs. split; [|exact W]. split.
  - intros J. apply IJ in J. rewrite J in F. exact F.
  - intros NJ. assert (J : is_set (g_mask (u_cfg u)) OPTION_JSON = false) by (apply not_true_is_false; tauto). rewrite J in F.
    clear -F. induction F as [|a b args bs B F IH]; [reflexivity|]. injection B as ->. now rewrite IH.
Qed.

Lemma collected_chosen {R vec} (w : world R vec) u bs l fuel f : walk_args (o_compile w) (o_exec w) fuel (u_conf u) (files w u) bs = WOk l ->
  In f (collected (w_conf (u_conf u)) l) -> chosen w u bs (f_size f) (f_path f).
Proof.
  intros W I. apply coll_in in I as (p & i & I & B & ->). cbn [f_path f_size].
  apply (walk_exact _ _ _ _ _ _ _ _ W) in I as (a & cs & Ia & T). exists a, cs, i. auto.
Qed.

Lemma image_empty vec (decode : file -> option vec) close sep c l gs t s : collected c l = [] ->
  run_image vec decode close sep c l = (gs, t, s) -> gs = [] /\ t = [] /\ s = SErr.
Proof.
  intros Ec E. destruct (collect_files_inv c l [] _ collect_inv_empty) as (st & CF & I). cbn [app] in I. destruct I as (_ & HF & _). rewrite Ec in HF. apply Permutation_nil in HF.
  unfold run_image in E. rewrite CF, HF in E. cbn [length Nat.eqb] in E. injection E as <- <- <-. auto.
Qed.

Theorem shown_chosen : forall R vec (w : world R vec) fuel os e args c o,
  sorts (o_qsort w) -> visits_all (o_iter w) -> (forall b q i, s_stat (o_fs w b) q = Some i -> 0 <= i_size i) ->
  ftwin_main w fuel os e args = Exit c o -> names_only_chosen w os e args o.
Proof.
  intros R vec w fuel os e args c o QS QI SN E. unfold ftwin_main in E.
  destruct (asks_info _ os); [injection E as <- <-; exact I|]. destruct (usage_error _ os args); [injection E as <- <-; exact I|].
  destruct (parse_args _ _ _ os e args _ _ _) as [u| | |] eqn:A; try discriminate; [|injection E as <- <-; exact I].
  change (accepted w os e args u) in A. pose proof (is_json w os e args u A) as IJ.
  unfold processing in E. cbv zeta in E. destruct (traverse w fuel _ _ _) as [l| | |] eqn:T; try discriminate; [|injection E as <- <-; exact I].
  destruct (_ && _); [discriminate|]. destruct (traverse_resolved w fuel os e args u l A T) as (bs & RS & W).
  assert (SO : sizes_ok l).
  { apply Forall_forall. intros (q & i) J. cbn [snd]. apply (walk_exact _ _ _ _ _ _ _ _ W) in J. destruct J as (a & cs & _ & [_ S _ _]). eapply SN; eauto. }
  unfold report in E. cbv zeta in E.
  destruct (is_set (g_mask (u_cfg u)) OPTION_PUZZL).
  { destruct (run_image _ _ _ _ _ l) as [[gs t] s] eqn:RI. assert (o = OImages t) as -> by (destruct s; cbn in E; congruence). clear E.
    exists u, bs, gs. split; [exact A|]. split; [exact RS|].
    assert (D : collected (w_conf (u_conf u)) l = [] \/ collected (w_conf (u_conf u)) l <> []) by (destruct (collected _ l); [now left|right; discriminate]).
    destruct D as [CN|CN].
    - destruct (image_empty _ _ _ _ _ _ _ _ _ CN RI) as (-> & -> & _). split; [exists []; auto|]. intros grp [].
    - destruct (run_image_ok vec (o_decode w) (o_close w (g_level (u_cfg u))) (g_sep (u_cfg u)) format_human_size _ l CN) as (L & gs' & P & _ & RW & E').
      rewrite E' in RI. injection RI as <- <- <-. split; [exists []; split; [now rewrite app_nil_r|auto]|].
      intros grp Ig. destruct (rows_nonempty _ _ _ _ _ RW grp Ig) as (f & m & ->). destruct (rows_in _ _ _ _ _ RW f m Ig) as (I1 & NM & I2).
      split; [destruct m; [congruence|cbn; lia]|]. intros x Ix. apply (collected_chosen w u bs l fuel x W).
      apply (Permutation_in x (Permutation_sym P)). destruct Ix as [<-|Ix]; [exact I1|now apply I2]. }
  destruct (groups_sound (hash w (u_cfg u)) (o_junk w) (compare w (u_cfg u)) (o_qsort w) (o_iter w) (fun _ => []) (w_conf (u_conf u)) l QS QI SO (fun _ _ _ _ _ _ => eq_refl)) as [TS JS].
  assert (ONE : forall grp, (2 <= length grp)%nat -> (forall f, In f grp -> In f (collected (w_conf (u_conf u)) l)) ->
    (forall f g, In f grp -> In g grp -> f_size f = f_size g /\ @nil N = []) -> exists z, forall f, In f grp -> f_size f = z /\ chosen w u bs z (f_path f)).
  { intros [|h grp] L IC SS; [cbn in L; lia|]. exists (f_size h). intros f If. destruct (SS f h If (or_introl eq_refl)) as (Z & _).
    split; [exact Z|]. rewrite <- Z. eapply collected_chosen; eauto. }
  destruct (is_set (g_mask (u_cfg u)) OPTION_JSON) eqn:J.
  - unfold run_document in E.
    destruct (run_json _ _ _ _ _ (w_conf (u_conf u)) l) as [js st] eqn:RJ. destruct st; cbn [snd finish] in E; try discriminate; injection E as <- <-; [|exact I].
    destruct (document (o_gmt w) (o_mtime w) js) as [| | | |sets|] eqn:D; try (unfold document in D; rewrite fold_append in D; discriminate D).
    exists u, bs, sets. split; [exact A|]. split; [exact RS|]. split; [reflexivity|]. intros s Is.
    assert (DP : exists j, In j js /\ forall p, In p (paths_of s) -> exists f, In f (set_files j) /\ f_path f = p).
    { unfold document in D. rewrite fold_append in D. cbn [app] in D. injection D as <-.
      apply in_map_iff in Is as (j & <- & Ij). exists j. split; [exact Ij|]. intros p Ip.
      assert (ID : In (set_object (o_gmt w) (o_mtime w) j) [set_object (o_gmt w) (o_mtime w) j]) by now left.
      destruct (document_paths (o_gmt w) (o_mtime w) [j] _ _ p _ eq_refl eq_refl ID Ip) as (j' & f & [<-|[]] & If & Ep). eauto. }
    destruct DP as (j & Ij & DP). destruct (JS (set_files j) (in_map _ _ _ Ij)) as (L & IC & SS). destruct (ONE _ L IC SS) as (z & Z).
    exists z. intros p Ip. destruct (DP p Ip) as (f & If & <-). now apply Z.
  - assert (bs = args) as -> by (apply RS; intros X; apply IJ in X; discriminate).
    destruct (run_text (hash w (u_cfg u)) (o_junk w) (compare w (u_cfg u)) (o_qsort w) (o_iter w) (w_conf (u_conf u)) l) as [gs st] eqn:RT.
    destruct (text_exact _ _ _ _ _ format_human_size (style_of (g_sep (u_cfg u)) (is_set (g_mask (u_cfg u)) OPTION_SIZED) (o_tty w)) _ _ _ _ QS QI SO RT) as (t & RO & tail & TE & TT).
    rewrite RO in E. assert (o = OText t) as -> by (destruct st; cbn in E; congruence).
    exists u, gs. split; [exact A|]. split; [exists tail; split; [exact TE|tauto]|].
    intros grp Ig. destruct (TS grp Ig) as (L & IC & SS). split; [exact L|]. now apply ONE.
Qed.
Print Assumptions shown_chosen.

(** Spelt out: the file is a regular one, or a link with -f; its size is within the limits;
    and unless it was given as an argument, its name is not an excluded or hidden one, the
    whitelist regex matches its path and the ignore regex does not. *)
Theorem chosen_obeys : forall R vec (w : world R vec) u bs z p, chosen w u bs z p ->
  exists a i, In a bs /\ s_stat (files w u) p = Some i /\ i_size i = z /\
    (i_type i = TReg \/ i_type i = TLnk /\ cf_fsyml (w_conf (u_conf u)) = true) /\
    cf_minsize (w_conf (u_conf u)) <= z /\ (cf_maxsize (w_conf (u_conf u)) = 0 \/ z <= cf_maxsize (w_conf (u_conf u))) /\
    (p = a \/ exists d n, p = join d n /\ ~ In n (w_names (u_conf u)) /\ (w_hidden (u_conf u) = true \/ hd_error n <> Some (chr ".")) /\
       (forall r, w_wl (u_conf u) = Some r -> r p = true) /\ (forall r, w_ig (u_conf u) = Some r -> r p = false)).
Proof.
  intros R vec w u bs z p (a & cs & i & Ia & [H S P T] & Z & B1 & B2). exists a, i. split; [exact Ia|]. split; [exact S|]. split; [exact Z|].
  split; [exact T|]. split; [exact B1|]. split; [exact B2|].
  destruct H as [|cs cs' d i0 es n ty Rc S0 T0 P0 D E I K]; [now left|]. right. destruct K as [[K1 K2] _ K3 K4]. exists d, n. auto 6.
Qed.
Print Assumptions chosen_obeys.

(** * Witnesses *)

(** a file that cannot be read and hashes that all collide: status 0, a group, and it names
    chosen files *)
Definition gone_hbeh (f : file) : bool * (nat -> option nat) := if list_eq_dec N.eq_dec (f_path f) (lit "/d/c") then (false, fun _ => None) else ok_hbeh f.
Definition rough_world : world str unit := main_world 4 (main_fs main_entries) gone_hbeh.
Example chosen_ex :
  sorts (o_qsort rough_world) /\ visits_all (o_iter rough_world) /\ (forall b q i, s_stat (o_fs rough_world b) q = Some i -> 0 <= i_size i) /\
  ~ clean (o_huge rough_world) (o_beh rough_world) (o_hbeh rough_world) /\
  ftwin_main rough_world 9 [] GEof [lit "/d"] = Exit 0 (OText (lit "/d/a" ++ [10%N] ++ lit "/d/sub/b" ++ [10; 10]%N)) /\
  names_only_chosen rough_world [] GEof [lit "/d"] (OText (lit "/d/a" ++ [10%N] ++ lit "/d/sub/b" ++ [10; 10]%N)) /\
  forall u z, ~ chosen rough_world u [lit "/d"] z (lit "/d/x").
Proof.
  assert (Z : forall b q i, s_stat (o_fs rough_world b) q = Some i -> 0 <= i_size i).
  { intros b q i S. unfold rough_world, main_world, main_fs, list_fs in S. cbn [o_fs s_stat] in S. destruct (look _ q) as [n|] eqn:L; [|discriminate].
    apply look_in in L. cbn [main_tree In] in L. destruct L as [L|[L|[L|[L|[L|[L|[]]]]]]]; injection L as <- <-; injection S as <-; cbn; lia. }
  assert (R : ftwin_main rough_world 9 [] GEof [lit "/d"] = Exit 0 (OText (lit "/d/a" ++ [10%N] ++ lit "/d/sub/b" ++ [10; 10]%N))) by (vm_compute; reflexivity).
  split; [exact isort_sorts|]. split; [exact id_iter_all|]. split; [exact Z|]. split.
  - intros (_ & H & _). apply (H (mkFile (lit "/d/c") 3 false) 0%nat). reflexivity.
  - split; [exact R|]. split; [exact (shown_chosen _ _ rough_world _ _ _ _ _ _ isort_sorts id_iter_all Z R)|].
    intros u z (a & cs & i & _ & [_ S _ _] & _). discriminate S.
Qed.
