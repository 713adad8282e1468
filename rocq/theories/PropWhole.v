(** Whole runs: C75 from the command line to the files that are left after the clean-up
    pipeline of the README, and what goes wrong in whole runs with C64, C73 and C88. *)
From Coq Require Import String Ascii Sorting.Permutation.
From Verif Require Import Util HeapModel IgnoreModel HumanModel CollectModel ProcessModel ReportSpec ReportProofs ReportGroups PropReport FileModel PropFile PropEnd PcreSpec IgnoreSpec WalkModel PropWalk PropIgnore PropIgnoreFile PropRun
  ConfigModel PropConfig OutputModel PropOutput ImageModel PropImage FormatModel JsonModel PropJson MainModel PropMain.
Local Open Scope list_scope.
Local Open Scope Z_scope.

(** Whatever the hash does - collisions included - and whatever the exit status: every content
    among the compared files is still there in a file the pipeline leaves alone.  Missing:
    separators and newlines in paths, arguments under each other, reads that fail. *)
Theorem run_cleanup_partial : forall R vec (w : world R vec) fuel os e args u z t,
  plain_run os -> ~ given os "J" -> ~ given os "d" -> o_tty w = false -> accepted w os e args u ->
  sorts (o_qsort w) -> visits_all (o_iter w) -> clean (o_huge w) (o_beh w) (o_hbeh w) ->
  sizes_true (o_content w) (files w u) -> names_ok (files w u) -> ForallOrdPairs apart args ->
  g_sep (u_cfg u) <> 10%N ->
  (forall a cs p i, In a args -> taken (o_compile w) (o_exec w) (u_conf u) (files w u) a p i cs -> plain (g_sep (u_cfg u)) p) ->
  ftwin_main w fuel os e args = Exit z (OText t) ->
  forall p, compared w u args p ->
    exists q, compared w u args q /\ o_content w q = o_content w p /\ ~ removed (g_sep (u_cfg u)) t q.
Proof.
  intros R vec w fuel os e args u z t (Nh & NV & Nt & NI) NJ Nd TT A QS QI QC QZ NO AP S10 PL E p C.
  rewrite (main_processing w fuel os e args u Nh NV A) in E. unfold processing in E. cbv zeta in E.
  destruct (traverse w fuel _ _ _) as [l| | |] eqn:T; try discriminate.
  assert (RS : resolved w os args args) by (split; [tauto|reflexivity]).
  apply (resolved_traverse w os e args u args fuel A RS) in T.
  rewrite (not_archive w os e args u A Nt) in E. cbn [andb] in E.
  destruct (compared_collected w u args l fuel T) as (CC & SZ). destruct (SZ QZ) as (SZ1 & SO).
  unfold report in E. cbv zeta in E. rewrite (not_image w os e args u A NI) in E.
  destruct (is_set (g_mask (u_cfg u)) OPTION_JSON) eqn:J; [exfalso; apply NJ; now apply (is_json w os e args u A)|].
  assert (D : is_set (g_mask (u_cfg u)) OPTION_SIZED = false).
  { destruct (accepted_cfg w os e args u A) as (P & _). destruct (settings_exact _ _ _ P). apply not_true_is_false. tauto. }
  rewrite D, TT in E.
  destruct (run_output _ _ _ _ _ _ _ _ l) as [t' s] eqn:RO. assert (t' = t) by (destruct s; cbn in E; congruence). subst t'.
  apply CC in C. destruct C as (f & If & <-).
  destruct (cleanup_safe_partial (hash w (u_cfg u)) (o_junk w) (compare w (u_cfg u)) (o_qsort w) (o_iter w) format_human_size (bytes_of w) (g_sep (u_cfg u)) (w_conf (u_conf u)) l t s) with (f := f) as (g & Ig & X & Y); auto.
  - apply Forall_forall. intros (p, i) I. apply (walk_exact _ _ _ _ _ _ _ _ T) in I. destruct I as (a & cs & Ia & Tk). eapply PL; eauto.
  - eapply walk_once_partial; eauto.
  - intros f0 g0 I1 I2 Ez Eq. destruct (list_eq_dec N.eq_dec (bytes_of w f0) (bytes_of w g0)) as [B|B]; auto.
    assert (EC : exact_compare (bytes_of w) (compare w (u_cfg u)) (collected (w_conf (u_conf u)) l)) by (eapply compare_files_exact; eauto).
    apply (EC f0 g0 I1 I2 Ez) in B. congruence.
  - exists (f_path g). split; [apply CC; eauto|]. split; [exact X|exact Y].
Qed.
Print Assumptions run_cleanup_partial.

(** The hypotheses hold for [ftwin -s , /d], which prints [/d/a,/d/sub/b]: the pipeline removes
    [/d/a], and [/d/sub/b] keeps its content. *)
Definition opt_comma : list opt := [(chr "s", lit ",")].
Lemma main_names : names_ok (main_fs main_entries).
Proof. apply names_okb_ok. vm_compute. reflexivity. Qed.
Example cleanup_hyps : exists u t,
  plain_run opt_comma /\ ~ given opt_comma "J" /\ ~ given opt_comma "d" /\ o_tty world1 = false /\ accepted world1 opt_comma GEof [lit "/d"] u /\
  sorts (o_qsort world1) /\ visits_all (o_iter world1) /\ clean (o_huge world1) (o_beh world1) (o_hbeh world1) /\
  sizes_true (o_content world1) (files world1 u) /\ names_ok (files world1 u) /\ ForallOrdPairs apart [lit "/d"] /\
  g_sep (u_cfg u) <> 10%N /\
  (forall a cs p i, In a [lit "/d"] -> taken (o_compile world1) (o_exec world1) (u_conf u) (files world1 u) a p i cs -> plain (g_sep (u_cfg u)) p) /\
  ftwin_main world1 9 opt_comma GEof [lit "/d"] = Exit 0 (OText t) /\ removed (g_sep (u_cfg u)) t (lit "/d/a") /\ compared world1 u [lit "/d"] (lit "/d/a").
Proof.
  destruct (main_accepted 4 main_entries ok_hbeh opt_comma) as (u & A); [eexists; vm_compute; reflexivity|].
  assert (W : g_sep (u_cfg u) = chr "," /\ exists l, walk_args (o_compile world1) (o_exec world1) 9 (u_conf u) (files world1 u) [lit "/d"] = WOk l /\
    map fst l = [lit "/d/a"; lit "/d/c"; lit "/d/sub/b"] /\ map f_path (collected (w_conf (u_conf u)) l) = [lit "/d/a"; lit "/d/c"; lit "/d/sub/b"]).
  { unfold accepted in A. vm_compute in A. injection A as <-. split; [reflexivity|]. eexists. split; [vm_compute; reflexivity|]. split; vm_compute; reflexivity. }
  destruct W as (SP & l & W & LP & CP). exists u, (lit "/d/a,/d/sub/b" ++ [10; 10]%N). rewrite SP.
  pose proof (main_quiet_ex 4 main_entries u [lit "/d"]) as Q. destruct Q.
  split; [unfold plain_run, given; repeat split; intros (a & [X|[]]); discriminate X|].
  split; [intros (a & [X|[]]); discriminate X|]. split; [intros (a & [X|[]]); discriminate X|].
  split; [reflexivity|]. split; [exact A|]. split; [assumption|]. split; [assumption|]. split; [assumption|]. split; [assumption|].
  split; [exact main_names|]. split; [repeat constructor|]. split; [discriminate|]. split.
  { intros a cs p i Ia T. assert (I : In (p, i) l) by (apply (walk_exact _ _ _ _ _ _ _ _ W); exists a, cs; auto).
    apply (in_map fst) in I. rewrite LP in I. cbn [fst] in I. unfold plain. destruct I as [<-|[<-|[<-|[]]]]; (split; [discriminate|]); split; cbn; intuition discriminate. }
  split; [vm_compute; reflexivity|]. split.
  - exists [lit "/d/a,/d/sub/b"; []], (lit "/d/a,/d/sub/b"), (lit "/d/sub/b"). split; [|split; [now left|split; [reflexivity|cbn; intuition discriminate]]].
    apply (lines_cons (lit "/d/a,/d/sub/b") [10%N] [[]]); [cbn; intuition discriminate|]. apply (lines_cons [] [] []); [intros []|constructor].
  - apply (compared_collected world1 u [lit "/d"] l 9 W). assert (I : In (lit "/d/a") (map f_path (collected (w_conf (u_conf u)) l))) by (rewrite CP; now left).
    apply in_map_iff in I as (x & E & I). eauto.
Qed.

(** * C88: the order of a directory matters when hashes collide *)

(** three files of one size and one hash value: the first and the last one listed are equal *)
Definition order_world (es : list (path * ftype)) : world str unit :=
  mkWorld (fun r => Some r) toy (fun _ _ => Some (fun _ => true)) 4 7 [] 5 (fun _ => main_fs es) main_true main_content doc_mtime
    (fun _ => 1%N) 2 ok_beh ok_hbeh ex_junk isort id_iter false calendar (fun _ => None) (fun _ _ _ => false).
Definition other_entries : list (path * ftype) := [(lit "a", TReg); (lit "sub", TDir); (lit "c", TReg)].

(** One listing gives status 0 and the report; the other one ends with a NULL pointer. *)
Theorem order_irrelevant_refuted : exists (w w' : world str unit) u u' o gs,
  same_files w w' /\ accepted w [] GEof [lit "/d"] u /\ accepted w' [] GEof [lit "/d"] u' /\
  (sorts (o_qsort w) /\ visits_all (o_iter w) /\ clean (o_huge w) (o_beh w) (o_hbeh w) /\ sizes_true (o_content w) (files w u)) /\
  o_qsort w' = o_qsort w /\ o_iter w' = o_iter w /\ o_huge w' = o_huge w /\ o_beh w' = o_beh w /\ o_hbeh w' = o_hbeh w /\
  finite_tree (u_conf u) (files w u) main_depth /\
  ftwin_main w 9 [] GEof [lit "/d"] = Exit 0 o /\ shows w (u_cfg u) o gs /\ grouped gs (lit "/d/a") (lit "/d/sub/b") /\
  forall fuel c o', ftwin_main w' fuel [] GEof [lit "/d"] <> Exit c o'.
Proof.
  set (w := order_world main_entries). set (w' := order_world other_entries).
  destruct (main_accepted 4 main_entries ok_hbeh []) as (u & A); [eexists; reflexivity|].
  destruct (main_accepted 4 other_entries ok_hbeh []) as (u' & A'); [eexists; reflexivity|].
  exists w, w', u, u', (OText (lit "/d/a" ++ [10%N] ++ lit "/d/sub/b" ++ [10; 10]%N)), [[lit "/d/a"; lit "/d/sub/b"]].
  split.
  { assert (L : forall es p, p <> lit "/d" -> look (main_tree es) p = look (main_tree []) p).
    { intros es p NE. unfold main_tree. cbn [look]. destruct (list_eq_dec N.eq_dec (lit "/d") p); [congruence|reflexivity]. }
    constructor; try reflexivity; intros f p; destruct (list_eq_dec N.eq_dec (lit "/d") p) as [<-|NE]; try reflexivity.
    + change (o_fs w f) with (main_fs main_entries). change (o_fs w' f) with (main_fs other_entries).
      unfold main_fs, list_fs. cbn [s_stat]. rewrite (L main_entries p), (L other_entries p) by congruence. reflexivity.
    + change (forall x, In x main_entries <-> In x other_entries). intros x. unfold main_entries, other_entries. cbn [In]. tauto.
    + change (o_fs w f) with (main_fs main_entries). change (o_fs w' f) with (main_fs other_entries).
      unfold main_fs, list_fs. cbn [s_dir]. rewrite (L main_entries p), (L other_entries p) by congruence. destruct (look (main_tree []) p) as [[es| |]|]; try exact I. reflexivity. }
  split; [exact A|]. split; [exact A'|]. destruct (main_quiet_ex 4 main_entries u []).
  split; [split; [assumption|]; split; [assumption|]; split; [assumption|]; assumption|].
  split; [reflexivity|]. split; [reflexivity|]. split; [reflexivity|]. split; [reflexivity|]. split; [reflexivity|].
  split; [apply main_finite|]. split; [vm_compute; reflexivity|]. split.
  - assert (C : u_cfg u = cfg_create 4) by (destruct (accepted_cfg _ _ _ _ _ A) as (P & _); cbn in P; congruence).
    pose (f := mkFile (lit "/d/a") 3 false). pose (g := mkFile (lit "/d/sub/b") 3 false).
    pose proof (shows_text w (u_cfg u) [[f; g]]) as S. rewrite C in S |- *. exact S.
  - split; [exists [lit "/d/a"; lit "/d/sub/b"]; split; [now left|]; split; [now left|right; now left]|].
    intros fuel c o'. do 9 (destruct fuel as [|fuel]; [vm_compute; discriminate|]). vm_compute. discriminate.
Qed.
Print Assumptions order_irrelevant_refuted.

(** * C64: four files of one size and one hash value, equal in pairs *)
Definition pair_tree : list (path * node) :=
  [ (lit "d", NDir [(lit "a", TReg); (lit "b", TReg); (lit "c", TReg); (lit "e", TReg)]);
    (lit "d/a", NFile 1); (lit "d/b", NFile 1); (lit "d/c", NFile 1); (lit "d/e", NFile 1) ].
Definition pair_content (p : path) : bytes := if in_dec (list_eq_dec N.eq_dec) p [lit "d/a"; lit "d/c"] then [1%N] else [2%N].

Theorem run_exact_refuted : exists xxh, let fs := list_fs pair_tree [] in
  let run := whole_run str (fun r => Some r) toy pair_content xxh 2 2 ok_beh ok_hbeh ex_junk isort id_iter 9 (wbase false) fs [lit "d"] in
  let sel := selected str (fun r => Some r) toy (wbase false) fs [lit "d"] in
  sizes_true pair_content fs /\ clean 2 ok_beh ok_hbeh /\ sel (lit "d/b") /\ sel (lit "d/e") /\ pair_content (lit "d/b") = pair_content (lit "d/e") /\
  ~ together (fst run) (lit "d/b") (lit "d/e").
Proof.
  exists (fun _ => 1%N). cbv zeta. split.
  { intros p i S. unfold list_fs in S. cbn [s_stat] in S. destruct (look pair_tree p) as [n|] eqn:L; [|discriminate].
    apply look_in in L. cbn [pair_tree In] in L.
    destruct L as [L|[L|[L|[L|[L|[]]]]]]; injection L as <- <-; injection S as <-; try (right; reflexivity); left; vm_compute; reflexivity. }
  split; [apply end_hyps|].
  destruct (walk_args (fun r => Some r) toy 9 (wbase false) (list_fs pair_tree []) [lit "d"]) as [l| | |] eqn:W; try (vm_compute in W; discriminate).
  assert (SEL : forall x, In x (collected (w_conf (wbase false)) l) -> selected str (fun r => Some r) toy (wbase false) (list_fs pair_tree []) [lit "d"] (f_path x)).
  { intros x I. apply (collected_in str (fun r => Some r) toy pair_content (fun _ => 1%N)) in I. destruct I as (p & i & I & B & ->). apply (walk_exact _ _ _ _ _ _ _ _ W) in I. destruct I as (a & cs & Ia & T).
    exists a, cs, i. auto. }
  vm_compute in W. injection W as <-.
  split; [apply (SEL (mkFile (lit "d/b") 1 false)); vm_compute; tauto|]. split; [apply (SEL (mkFile (lit "d/e") 1 false)); vm_compute; tauto|].
  split; [reflexivity|]. intros (grp & x & y & I & Ix & Iy & Ex & Ey).
  match type of I with In _ (fst ?r) => let v := eval vm_compute in r in change r with v in I end.
  cbn [fst In] in I. repeat match type of I with _ \/ _ => destruct I as [I|I] end; try contradiction; subst grp;
    cbn [In] in Ix; repeat match type of Ix with _ \/ _ => destruct Ix as [Ix|Ix] end; try contradiction; subst x; cbn [f_path] in Ex; try discriminate Ex;
    cbn [In] in Iy; repeat match type of Iy with _ \/ _ => destruct Iy as [Iy|Iy] end; try contradiction; subst y; cbn [f_path] in Ey; discriminate Ey.
Qed.
Print Assumptions run_exact_refuted.

(** * C73: the line "a" ignores the file whose name is "a" and a newline *)
Theorem gitignore_meaning_refuted : exists (exec : re -> str -> bool) base s ls srcs path rel c,
  has_lines s ls /\ Forall2 written ls srcs /\ relative base path rel /\
  load_file re pcre_read 4095 (mkCtx base []) s = Some c /\
  (forall p, In p (c_pats c) -> (exec (p_re p) rel = true <-> found (p_re p) rel)) /\
  ignore_match re exec [c] path false = MIgnored /\ forall x, In x srcs -> ~ hit_by x rel false.
Proof.
  exists (fun _ _ => true), (lit "/w"), [97; 10]%N, [[97%N]], [Pattern false false false [GLit 97]], (lit "/w/a" ++ [10%N]), [97; 10]%N. eexists.
  split; [apply (lines_cons [97%N] [] []); [cbn; intuition discriminate|constructor]|].
  split; [constructor; [|constructor]; apply (written_pattern [] [] false false false [GLit 97]); auto; [constructor|cbn; intuition discriminate| | |cbn; lia]|].
  { exists 97%N, []. repeat split; discriminate. }
  { exists [], 97%N. repeat split; discriminate. }
  split; [exists 1%nat; split; [reflexivity|discriminate]|].
  split; [vm_compute; reflexivity|]. split; [|split; [vm_compute; reflexivity|]].
  - intros p I. cbn [c_pats In] in I. destruct I as [<-|[]]. cbn [p_re]. split; [intros _|reflexivity].
    exists [], [97%N], [10%N]. split; auto. exists [], [97%N]. split; auto. split.
    + left. exists [], []. repeat split.
    + exists [97%N], []. split; auto. split; [reflexivity|]. exists [], []. split; auto. split; [|reflexivity]. split; auto.
  - intros x [<-|[]] (_ & t & T & M). cbn in M. destruct M as (y & z & -> & -> & ->). destruct T as [E|(_ & b & E)]; [discriminate E|].
    apply (f_equal (@rev N)) in E. rewrite rev_app_distr in E. discriminate E.
Qed.
Print Assumptions gitignore_meaning_refuted.
