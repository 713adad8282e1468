(** Property C161: a higher level of -T only adds similar images. *)
From Coq Require Import String Ascii QArith Sorting.Permutation.
From Verif Require Import Util HeapModel IgnoreModel HumanModel CollectModel ProcessModel ReportSpec ReportProofs ReportGroups PropReport FileModel PropFile PropEnd WalkModel PropWalk PropIgnore PropIgnoreFile PropRun
  ConfigModel PropConfig OutputModel PropOutput ImageModel PropImage FormatModel JsonModel PropJson MainModel PropMain PropWhole PropNarrow LevelModel.
Local Open Scope list_scope.
Local Open Scope Z_scope.

(** ** Specification *)
(** the world measures similarity by a distance, the constants of libpuzzle ascend *)
Record measures {R vec} (w : world R vec) (k : constants) (dist : vec -> vec -> option Q) : Prop := {
  ms_close : forall level v v', o_close w level v v' = closer k dist level v v';
  ms_sym : forall v v', dist v v' = dist v' v;
  ms_file : forall f g, f_path f = f_path g -> o_decode w f = o_decode w g;
  ms_low : (k_lower k <= k_low k)%Q; ms_default : (k_low k <= 1 # 2)%Q; ms_mid : (1 # 2 <= k_mid k)%Q; ms_high : (k_mid k <= k_high k)%Q }.
(** every size that the first run allows is allowed by the second *)
Definition wider {R} (u u' : setup R) : Prop := forall s,
  within (cf_minsize (w_conf (u_conf u))) (cf_maxsize (w_conf (u_conf u))) s -> within (cf_minsize (w_conf (u_conf u'))) (cf_maxsize (w_conf (u_conf u'))) s.
(** the two paths stand on one line, one of them first *)
Definition paired (gs : list (list file)) (p q : path) : Prop := line_names (map (map f_path) gs) p q \/ line_names (map (map f_path) gs) q p.
(** the two files are images whose distance is below [t] *)
Definition nearer {R vec} (w : world R vec) (dist : vec -> vec -> option Q) (t : Q) (p q : path) : Prop :=
  exists v v' d, pictured w p v /\ pictured w q v' /\ dist v v' = Some d /\ (d < t)%Q.

(** ** Proofs *)
Lemma threshold_mono {R vec} (w : world R vec) k dist a b : measures w k dist -> (1 <= a)%N -> (a <= b)%N -> (threshold k a <= threshold k b)%Q.
Proof.
  intros [_ _ _ L1 L2 L3 L4] A B. assert (X12 : (k_lower k <= k_low k)%Q) by exact L1. assert (X23 : (k_low k <= DEFAULT_THRESHOLD)%Q) by exact L2.
  assert (X34 : (DEFAULT_THRESHOLD <= k_mid k)%Q) by exact L3. assert (X13 := Qle_trans _ _ _ X12 X23). assert (X24 := Qle_trans _ _ _ X23 X34). assert (X14 := Qle_trans _ _ _ X12 X24).
  assert (X35 := Qle_trans _ _ _ X34 L4). assert (X25 := Qle_trans _ _ _ X24 L4). assert (X15 := Qle_trans _ _ _ X14 L4).
  assert (C : forall n, (1 <= n)%N -> n = 1%N \/ n = 2%N \/ n = 3%N \/ n = 4%N \/ (5 <= n)%N) by (intros; lia).
  assert (H : forall n, (5 <= n)%N -> threshold k n = k_high k).
  { intros n Hn. destruct n as [|[[p|p|]|[p|p|]|]]; try lia; try reflexivity; destruct p; try reflexivity; lia. }
  destruct (C a A) as [->|[->|[->|[->|A5]]]]; destruct (C b ltac:(lia)) as [->|[->|[->|[->|B5]]]]; try lia; rewrite ?(H _ A5), ?(H _ B5); cbn [threshold]; auto using Qle_refl.
Qed.
Lemma look_alike_near {R vec} (w : world R vec) k dist level p q : measures w k dist -> (look_alike w level p q <-> nearer w dist (threshold k level) p q).
Proof.
  intro M. split.
  - intros (v & v' & P & P' & C). rewrite (ms_close _ _ _ M) in C. unfold closer in C. destruct (dist v v') as [d|] eqn:D; [|discriminate].
    destruct (Qlt_le_dec d (threshold k level)) as [L|L]; [|discriminate]. exists v, v', d. auto.
  - intros (v & v' & d & P & P' & D & L). exists v, v'. split; [exact P|]. split; [exact P'|]. rewrite (ms_close _ _ _ M). unfold closer. rewrite D.
    destruct (Qlt_le_dec d (threshold k level)) as [X|X]; [reflexivity|]. exfalso. apply (Qlt_not_le _ _ L). exact X.
Qed.
Lemma level_range {R vec} (w : world R vec) os e args u : accepted w os e args u -> (1 <= g_level (u_cfg u))%N.
Proof.
  intro A. destruct (accepted_cfg w os e args u A) as (P & _). clear A. assert (X : (1 <= g_level (cfg_create (o_cpus w)))%N) by (cbn; lia).
  revert P X. generalize (cfg_create (o_cpus w)). induction os as [|x os IH]; intros g P X; cbn [parse_opts] in P; [injection P as <-; exact X|].
  destruct (process_option g x) as [g1| | |] eqn:E; try discriminate. apply (IH g1 P). apply process_step in E. destruct E. destruct (fst x =? chr "T")%N; [apply st_level|now rewrite st_level].
Qed.

(** With -I the pairs named are the pairs whose distance is below the threshold of the level;
    a second run with a higher level, the same or more arguments and the same or wider limits
    names every pair of the first. *)
Theorem level_exact : forall R vec (w : world R vec) k dist fuel os e args u bs o,
  measures w k dist -> ~ given os "h" -> ~ given os "V" -> given os "I" -> accepted w os e args u -> resolved w os args bs ->
  ftwin_main w fuel os e args = Exit 0 o ->
  exists gs, o = OImages (concat (map (sized_text format_human_size (style_of (g_sep (u_cfg u)) false false)) gs)) /\
    forall p q, p <> q -> (paired gs p q <-> compared w u bs p /\ compared w u bs q /\ nearer w dist (threshold k (g_level (u_cfg u))) p q).
Proof.
  intros R vec w k dist fuel os e args u bs o M Nh NV GI A RS E.
  destruct (exit_zero_images R vec w fuel os e args u bs o Nh NV GI A RS (ms_file _ _ _ M)) as (gs & EO & _ & X); [|exact E|].
  { intros v v'. rewrite !(ms_close _ _ _ M). unfold closer. now rewrite (ms_sym _ _ _ M). }
  exists gs. split; [exact EO|]. intros p q NE. unfold paired. rewrite (X p q NE), (look_alike_near w k dist _ p q M). tauto.
Qed.
Theorem higher_level_more : forall R vec (w : world R vec) k dist fuel fuel' os os' e e' args args' u u' bs bs' o o',
  measures w k dist -> same_but_limits os os' -> (forall a, In a args -> In a args') ->
  ~ given os "h" -> ~ given os "V" -> given os "I" -> ~ given os' "h" -> ~ given os' "V" -> given os' "I" ->
  accepted w os e args u -> accepted w os' e' args' u' -> resolved w os args bs -> resolved w os' args' bs' ->
  wider u u' -> (g_level (u_cfg u) <= g_level (u_cfg u'))%N ->
  ftwin_main w fuel os e args = Exit 0 o -> ftwin_main w fuel' os' e' args' = Exit 0 o' ->
  exists gs gs', o = OImages (concat (map (sized_text format_human_size (style_of (g_sep (u_cfg u)) false false)) gs)) /\
    o' = OImages (concat (map (sized_text format_human_size (style_of (g_sep (u_cfg u')) false false)) gs')) /\
    forall p q, p <> q -> paired gs p q -> paired gs' p q.
Proof.
  intros R vec w k dist fuel fuel' os os' e e' args args' u u' bs bs' o o' M SO SA Nh NV GI Nh' NV' GI' A A' RS RS' WI LV E E'.
  destruct (level_exact R vec w k dist fuel os e args u bs o M Nh NV GI A RS E) as (gs & EO & X).
  destruct (level_exact R vec w k dist fuel' os' e' args' u' bs' o' M Nh' NV' GI' A' RS' E') as (gs' & EO' & X').
  exists gs, gs'. split; [exact EO|]. split; [exact EO'|]. intros p q NE P. apply (X p q NE) in P. destruct P as (C1 & C2 & v & v' & d & P1 & P2 & D & L).
  pose proof (resolved_incl w os os' args args' bs bs' (same_J _ _ SO) SA RS RS') as BI.
  assert (CC : forall x, compared w u bs x -> compared w u' bs' x).
  { intros x (a & cs & i & Ia & T & B). exists a, cs, i. split; [auto|]. split; [|now apply WI].
    pose proof (near_conf w os os' e e' args args' u u' SO A A') as N. unfold files in *. rewrite N. cbn [relax w_conf cf_fsyml]. apply relax_taken. exact T. }
  apply (X' p q NE). split; [auto|]. split; [auto|]. exists v, v', d. split; [exact P1|]. split; [exact P2|]. split; [exact D|].
  eapply Qlt_le_trans; [exact L|]. eapply threshold_mono; eauto. eapply level_range; eauto.
Qed.
Print Assumptions level_exact.
Print Assumptions higher_level_more.

(** ** The hypotheses are met *)
(** the constants of libpuzzle; the vectors are numbers, the distance is their difference in
    twentieths.  Three pictures at 0, 5 and 11: level 1 names no pair, level 2 the first two,
    level 4 all of them *)
Definition puzzle : constants := mkConstants (2 # 10) (3 # 10) (6 # 10) (7 # 10).
Definition shade (f : file) : option Z :=
  if list_eq_dec N.eq_dec (f_path f) (lit "/d/a.png") then Some 0
  else if list_eq_dec N.eq_dec (f_path f) (lit "/d/c.png") then Some 5
  else if list_eq_dec N.eq_dec (f_path f) (lit "/d/sub/b.png") then Some 11 else None.
Definition twentieths (v v' : Z) : option Q := Some (Z.abs (v - v') # 20)%Q.
Definition shade_world : world str Z :=
  mkWorld (fun r => Some r) toy (fun _ _ => Some (fun _ => true)) 4 7 [] 5 (fun _ => list_fs image_tree []) main_true main_content doc_mtime
    capped 2 ok_beh ok_hbeh ex_junk isort id_iter false calendar shade (closer puzzle twentieths).
Definition level_opts (c : string) : list opt := [(chr "I", []); (chr "s", lit ","); (chr "T", lit c)].
Definition level_shows (c : string) : ending := ftwin_main shade_world 9 (level_opts c) GEof [lit "/d"].
Example level_case : measures shade_world puzzle twentieths /\ same_but_limits (level_opts "2") (level_opts "4") /\
  (exists u u', accepted shade_world (level_opts "2") GEof [lit "/d"] u /\ accepted shade_world (level_opts "4") GEof [lit "/d"] u' /\ wider u u' /\ (g_level (u_cfg u) < g_level (u_cfg u'))%N) /\
  level_shows "1" = Exit 0 (OImages []) /\ level_shows "2" = Exit 0 (OImages (lit "/d/a.png,/d/c.png" ++ [10; 10]%N)) /\
  level_shows "4" = Exit 0 (OImages (lit "/d/a.png,/d/sub/b.png,/d/c.png" ++ [10; 10]%N ++ lit "/d/sub/b.png,/d/c.png" ++ [10; 10]%N)).
Proof.
  split.
  { constructor; try (vm_compute; discriminate); try reflexivity.
    - intros v v'. unfold twentieths. do 2 f_equal. lia.
    - intros f g E. cbn [o_decode shade_world]. unfold shade. now rewrite E. }
  split; [reflexivity|]. split; [|split; [|split]; vm_compute; reflexivity].
  assert (A : exists u, accepted shade_world (level_opts "2") GEof [lit "/d"] u) by (eexists; vm_compute; reflexivity).
  assert (A' : exists u, accepted shade_world (level_opts "4") GEof [lit "/d"] u) by (eexists; vm_compute; reflexivity).
  destruct A as (u & A), A' as (u' & A'). exists u, u'. split; [exact A|]. split; [exact A'|].
  unfold accepted in A, A'. vm_compute in A, A'. injection A as <-. injection A' as <-. split; [intros s; cbn; auto|reflexivity].
Qed.
