(** Property C166: files come, go and change; what is reported about the others stays. *)
From Coq Require Import String Ascii Sorting.Permutation.
From Verif Require Import Util HeapModel IgnoreModel HumanModel CollectModel ProcessModel ReportSpec ReportProofs ReportGroups PropReport FileModel PropFile PropEnd WalkModel PropWalk PropIgnore PropIgnoreFile PropRun
  ConfigModel PropConfig OutputModel PropOutput ImageModel PropImage FormatModel JsonModel PropJson MainModel PropMain PropWhole.
Local Open Scope list_scope.
Local Open Scope Z_scope.

(** ** Specification *)
(** Between [w] and [w'] only paths in [D] are created, removed, written to or given other
    permissions, with everything below a directory in [D]; no ignore file of a directory outside
    [D] is touched.  Machines, listing orders and the rest of the surroundings may differ. *)
Record changed_in {R vec} (D : path -> Prop) (w w' : world R vec) : Prop := {
  ch_below : forall d n, D d -> D (join d n);
  ch_compile : o_compile w = o_compile w';
  ch_exec : o_exec w = o_exec w';
  ch_pcre : o_pcre w = o_pcre w';
  ch_uid : o_uid w = o_uid w'; ch_groups : o_groups w = o_groups w'; ch_egid : o_egid w = o_egid w';
  ch_true : forall a, o_truename w a = o_truename w' a;
  ch_content : forall p, ~ D p -> o_content w p = o_content w' p;
  ch_stat : forall b p, ~ D p -> s_stat (o_fs w b) p = s_stat (o_fs w' b) p;
  ch_git : forall b p, ~ D p -> s_gitignore (o_fs w b) p = s_gitignore (o_fs w' b) p;
  ch_dir : forall b p, ~ D p -> match s_dir (o_fs w b) p, s_dir (o_fs w' b) p with
                       | Some es, Some es' => forall n ty, ~ D (join p n) -> (In (n, ty) es <-> In (n, ty) es')
                       | None, None => True | _, _ => False end }.

(** ** Proofs *)
Lemma changed_sym {R vec} D (w w' : world R vec) : changed_in D w w' -> changed_in D w' w.
Proof.
  intros []. constructor; auto; intros.
  - symmetry. auto.
  - symmetry. auto.
  - symmetry. auto.
  - specialize (ch_dir0 b p H). destruct (s_dir (o_fs w b) p), (s_dir (o_fs w' b) p); auto. intros n ty N. symmetry. auto.
Qed.

(** the settings of a world with the files of the other *)
Definition with_files {R vec} (w w' : world R vec) : world R vec :=
  mkWorld (o_compile w') (o_exec w') (o_pcre w') (o_cpus w') (o_uid w') (o_groups w') (o_egid w') (o_fs w) (o_truename w') (o_content w) (o_mtime w')
    (o_xxh w') (o_huge w') (o_beh w') (o_hbeh w') (o_junk w') (o_qsort w') (o_iter w') (o_tty w') (o_gmt w') (o_decode w') (o_close w').
Lemma with_files_same {R vec} D (w w' : world R vec) : changed_in D w w' -> same_files w (with_files w w').
Proof.
  intros []. constructor; cbn [with_files o_compile o_exec o_pcre o_uid o_groups o_egid o_truename o_content o_fs]; auto.
  intros b p. destruct (s_dir (o_fs w b) p); tauto.
Qed.

Section Change.
Context {R vec : Type}.
Variable D : path -> Prop.
Variables w w' : world R vec.
Hypothesis CH : changed_in D w w'.

Lemma change_conf os os' e e' args args' u u' : same_options os os' -> accepted w os e args u -> accepted w' os' e' args' u' -> u_conf u' = u_conf u.
Proof. intros SO A A'. exact (same_conf w (with_files w w') (with_files_same D w w' CH) os os' e e' args args' u u' SO A A'). Qed.
Lemma change_resolved os os' args args' bs bs' : same_options os os' -> (forall a, In a args -> In a args') -> resolved w os args bs -> resolved w' os' args' bs' ->
  forall b, In b bs -> In b bs'.
Proof. intros SO SA RS RS'. exact (same_resolved w (with_files w w') (with_files_same D w w' CH) os os' args args' bs bs' SO SA RS RS'). Qed.

Lemma change_reached c b a cs p : reached (o_compile w) (o_exec w) c (o_fs w b) a cs p -> ~ D p -> reached (o_compile w') (o_exec w') c (o_fs w' b) a cs p.
Proof.
  induction 1 as [|cs cs' d i es n ty B IH S T P Dd E I K]; intros ND; [constructor|].
  assert (Nd : ~ D d) by (intros X; apply ND; now apply (ch_below _ _ _ CH)).
  pose proof (ch_dir _ _ _ CH b d Nd) as X. rewrite Dd in X. destruct (s_dir (o_fs w' b) d) as [es'|] eqn:Dd'; [|destruct X].
  eapply reached_entry with (d := d) (ty := ty) (es := es') (i := i).
  - apply IH. exact Nd.
  - rewrite <- (ch_stat _ _ _ CH) by exact Nd. exact S.
  - exact T.
  - rewrite <- (ch_exec _ _ _ CH). exact P.
  - exact Dd'.
  - destruct E as [G|G|s x G E L]; [now constructor 1|constructor 2; now rewrite <- (ch_git _ _ _ CH)|]. econstructor 3; eauto.
    + rewrite <- (ch_git _ _ _ CH) by exact Nd. exact E.
    + rewrite <- (ch_compile _ _ _ CH). exact L.
  - now apply X.
  - exact K.
Qed.
Lemma change_compared os os' e e' args args' u u' bs bs' : same_options os os' -> accepted w os e args u -> accepted w' os' e' args' u' ->
  (forall b, In b bs -> In b bs') -> forall p, ~ D p -> compared w u bs p -> compared w' u' bs' p.
Proof.
  intros SO A A' SB p ND (a & cs & i & Ia & [T1 T2 T3 T4] & B). pose proof (change_conf os os' e e' args args' u u' SO A A') as E.
  exists a, cs, i. split; [auto|]. unfold files in *. rewrite E. split; [|exact B]. constructor; auto.
  - now apply change_reached.
  - rewrite <- (ch_stat _ _ _ CH) by exact ND. exact T2.
  - rewrite <- (ch_exec _ _ _ CH). exact T3.
Qed.
End Change.

(** Two runs between which only paths in [D] changed: of the paths outside [D], the same are
    grouped with each other.  Missing: hash collisions, failing reads, -t and -I. *)
Theorem others_unaffected_partial : forall R vec (D : path -> Prop) (w w' : world R vec) fuel fuel' os os' e e' args args' u u' bs bs' o o',
  changed_in D w w' -> same_options os os' -> (forall a, In a args <-> In a args') -> plain_run os -> plain_run os' ->
  accepted w os e args u -> accepted w' os' e' args' u' -> resolved w os args bs -> resolved w' os' args' bs' ->
  quiet w u bs -> quiet w' u' bs' ->
  (given os "J" -> forall p, compared w u bs p -> unicode p) -> (given os' "J" -> forall p, compared w' u' bs' p -> unicode p) ->
  ftwin_main w fuel os e args = Exit 0 o -> ftwin_main w' fuel' os' e' args' = Exit 0 o' ->
  exists gs gs', shows w (u_cfg u) o gs /\ shows w' (u_cfg u') o' gs' /\
    (forall p q, p <> q -> ~ D p -> ~ D q -> (grouped gs p q <-> grouped gs' p q)) /\
    (* a path that changed joins those that have its new content, and no others *)
    (forall p q, p <> q -> D p -> ~ D q -> (grouped gs' p q <-> compared w' u' bs' p /\ compared w u bs q /\ o_content w' p = o_content w q)).
Proof.
  intros R vec D w w' fuel fuel' os os' e e' args args' u u' bs bs' o o' CH SO SA PR PR' A A' RS RS' Q Q' UJ UJ' E E'.
  pose proof (changed_sym _ _ _ CH) as CH'. assert (SO' : same_options os' os) by (symmetry; exact SO).
  pose proof (change_resolved D w w' CH os os' args args' bs bs' SO (fun a => proj1 (SA a)) RS RS') as B1.
  pose proof (change_resolved D w' w CH' os' os args' args bs' bs SO' (fun a => proj2 (SA a)) RS' RS) as B2.
  assert (C1 : forall p, ~ D p -> compared w u bs p -> compared w' u' bs' p) by (eapply (change_compared D w w' CH os os'); eauto).
  assert (C2 : forall p, ~ D p -> compared w' u' bs' p -> compared w u bs p) by (eapply (change_compared D w' w CH' os' os); eauto).
  destruct (exit_zero_complete_partial R vec w fuel os e args u bs o PR A RS Q UJ E) as (gs & S & _ & G).
  destruct (exit_zero_complete_partial R vec w' fuel' os' e' args' u' bs' o' PR' A' RS' Q' UJ' E') as (gs' & S' & _ & G').
  exists gs, gs'. split; [exact S|]. split; [exact S'|]. split.
  - intros p q NE Np Nq. rewrite (G p q NE), (G' p q NE), (ch_content _ _ _ CH p Np), (ch_content _ _ _ CH q Nq).
    split; intros (X & Y & Z); auto.
  - intros p q NE Dp Nq. rewrite (G' p q NE), (ch_content _ _ _ CH q Nq). split; intros (X & Y & Z); auto.
Qed.
Print Assumptions others_unaffected_partial.

(** ** When hashes collide *)
(** [c] and what is below it *)
Definition under (c p : path) : Prop := exists ns, p = fold_left join ns c.
Lemma under_join c d n : under c d -> under c (join d n).
Proof. intros (ns & ->). exists (ns ++ [n]). rewrite fold_left_app. reflexivity. Qed.
Lemma under_prefix : forall ns c, exists s, fold_left join ns c = c ++ s.
Proof.
  induction ns as [|n ns IH]; intros c; cbn [fold_left]; [exists []; now rewrite app_nil_r|].
  destruct (IH (join c n)) as (s & ->). unfold join.
  match goal with |- context [if ?b then _ else _] => destruct b | _ => idtac end; rewrite <- ?app_assoc; eexists; reflexivity.
Qed.
Lemma not_under c p : firstn (length c) p <> c -> ~ under c p.
Proof. intros NE (ns & ->). apply NE. destruct (under_prefix ns c) as (s & ->). rewrite firstn_app, Nat.sub_diag, firstn_all, app_nil_r. reflexivity. Qed.

(** Three files of one size and one hash value; the third one is new and has another content.
    The run that reported the first two ends with a NULL pointer. *)
Theorem others_unaffected_refuted : exists (w w' : world str unit) u u' o gs,
  changed_in (under (lit "/d/c")) w w' /\ ~ under (lit "/d/c") (lit "/d/a") /\ ~ under (lit "/d/c") (lit "/d/sub/b") /\
  accepted w [] GEof [lit "/d"] u /\ accepted w' [] GEof [lit "/d"] u' /\
  (sorts (o_qsort w) /\ visits_all (o_iter w) /\ clean (o_huge w) (o_beh w) (o_hbeh w) /\ sizes_true (o_content w) (files w u)) /\
  (sorts (o_qsort w') /\ visits_all (o_iter w') /\ clean (o_huge w') (o_beh w') (o_hbeh w') /\ sizes_true (o_content w') (files w' u')) /\
  ftwin_main w 9 [] GEof [lit "/d"] = Exit 0 o /\ shows w (u_cfg u) o gs /\ grouped gs (lit "/d/a") (lit "/d/sub/b") /\
  forall fuel c o', ftwin_main w' fuel [] GEof [lit "/d"] <> Exit c o'.
Proof.
  set (es := [(lit "a", TReg); (lit "sub", TDir)] : list (path * ftype)).
  set (w := order_world es). set (w' := order_world other_entries).
  destruct (main_accepted 4 es ok_hbeh []) as (u & A); [eexists; reflexivity|].
  destruct (main_accepted 4 other_entries ok_hbeh []) as (u' & A'); [eexists; reflexivity|].
  exists w, w', u, u', (OText (lit "/d/a" ++ [10%N] ++ lit "/d/sub/b" ++ [10; 10]%N)), [[lit "/d/a"; lit "/d/sub/b"]].
  split.
  { assert (L : forall es p, p <> lit "/d" -> look (main_tree es) p = look (main_tree []) p).
    { intros es0 p NE. unfold main_tree. cbn [look]. destruct (list_eq_dec N.eq_dec (lit "/d") p); [congruence|reflexivity]. }
    constructor; try reflexivity.
    - intros d n. apply under_join.
    - intros f p _. destruct (list_eq_dec N.eq_dec (lit "/d") p) as [<-|NE]; [reflexivity|].
      change (o_fs w f) with (main_fs es). change (o_fs w' f) with (main_fs other_entries).
      unfold main_fs, list_fs. cbn [s_stat]. rewrite (L es p), (L other_entries p) by congruence. reflexivity.
    - intros f p _. change (o_fs w f) with (main_fs es). change (o_fs w' f) with (main_fs other_entries).
      destruct (list_eq_dec N.eq_dec (lit "/d") p) as [<-|NE].
      + change (forall n ty, ~ under (lit "/d/c") (join (lit "/d") n) -> (In (n, ty) es <-> In (n, ty) other_entries)).
        intros n ty N. unfold es, other_entries. cbn [In]. split; [tauto|]. intros [X|[X|[X|[]]]]; auto.
        exfalso. apply N. injection X as <- _. exists []. reflexivity.
      + unfold main_fs, list_fs. cbn [s_dir]. rewrite (L es p), (L other_entries p) by congruence. destruct (look (main_tree []) p) as [[l| |]|]; try exact I. reflexivity. }
  split; [apply not_under; vm_compute; discriminate|]. split; [apply not_under; vm_compute; discriminate|].
  split; [exact A|]. split; [exact A'|]. destruct (main_quiet_ex 4 es u []), (main_quiet_ex 4 other_entries u' []).
  split; [split; [assumption|]; split; [assumption|]; split; [assumption|]; assumption|].
  split; [split; [assumption|]; split; [assumption|]; split; [assumption|]; assumption|].
  split; [vm_compute; reflexivity|]. split.
  - assert (C : u_cfg u = cfg_create 4) by (destruct (accepted_cfg _ _ _ _ _ A) as (P & _); cbn in P; congruence).
    pose (f := mkFile (lit "/d/a") 3 false). pose (g := mkFile (lit "/d/sub/b") 3 false).
    pose proof (shows_text w (u_cfg u) [[f; g]]) as S. rewrite C in S |- *. exact S.
  - split; [exists [lit "/d/a"; lit "/d/sub/b"]; split; [now left|]; split; [now left|right; now left]|].
    intros fuel c o'. do 9 (destruct fuel as [|fuel]; [vm_compute; discriminate|]). vm_compute. discriminate.
Qed.
Print Assumptions others_unaffected_refuted.

(** ** The hypotheses are met *)
(** Two pairs; then [/d/x] is given the content of the other pair and [/d/y] is removed. *)
Definition before_tree : list (path * node) :=
  [ (lit "/d", NDir [(lit "a", TReg); (lit "b", TReg); (lit "x", TReg); (lit "y", TReg)]);
    (lit "/d/x", NFile 5); (lit "/d/y", NFile 5); (lit "/d/a", NFile 3); (lit "/d/b", NFile 3) ].
Definition after_tree : list (path * node) :=
  [ (lit "/d", NDir [(lit "x", TReg); (lit "b", TReg); (lit "a", TReg)]);
    (lit "/d/x", NFile 3); (lit "/d/a", NFile 3); (lit "/d/b", NFile 3) ].
Definition before_content (p : path) : bytes :=
  if in_dec (list_eq_dec N.eq_dec) p [lit "/d/x"; lit "/d/y"] then lit "xyxyx" else lit "abc".
Definition after_content (_ : path) : bytes := lit "abc".
Definition moment (tr : list (path * node)) (ct : path -> bytes) : world str unit :=
  mkWorld (fun r => Some r) toy (fun _ _ => Some (fun _ => true)) 4 7 [] 5 (fun _ => list_fs tr []) main_true ct doc_mtime
    capped 2 ok_beh ok_hbeh ex_junk isort id_iter false calendar (fun _ => None) (fun _ _ _ => false).
Lemma moment_quiet : forall u bs, quiet (moment before_tree before_content) u bs /\ quiet (moment after_tree after_content) u bs.
Proof.
  intros u bs. split; constructor.
  - exact isort_sorts.
  - exact id_iter_all.
  - apply end_hyps.
  - intros p i S. unfold files, moment, list_fs in S. cbn [o_fs s_stat] in S. destruct (look before_tree p) as [n|] eqn:L; [|discriminate].
    apply look_in in L. cbn [before_tree In] in L.
    destruct L as [L|[L|[L|[L|[L|[]]]]]]; injection L as <- <-; injection S as <-; try (right; reflexivity); left; vm_compute; reflexivity.
  - apply doc_hyps.
  - intros p q _ _. cbn [o_xxh o_content moment]. unfold before_content.
    destruct (in_dec (list_eq_dec N.eq_dec) p _), (in_dec (list_eq_dec N.eq_dec) q _); intros E; try reflexivity; vm_compute in E; discriminate.
  - exact isort_sorts.
  - exact id_iter_all.
  - apply end_hyps.
  - intros p i S. unfold files, moment, list_fs in S. cbn [o_fs s_stat] in S. destruct (look after_tree p) as [n|] eqn:L; [|discriminate].
    apply look_in in L. cbn [after_tree In] in L.
    destruct L as [L|[L|[L|[L|[]]]]]; injection L as <- <-; injection S as <-; try (right; reflexivity); left; vm_compute; reflexivity.
  - apply doc_hyps.
  - reflexivity.
Qed.
Lemma moment_accepted tr ct : exists u, accepted (moment tr ct) [] GEof [lit "/d"] u.
Proof.
  unfold accepted, parse_args. cbn [o_cpus moment parse_opts].
  destruct (fill_gids _ _) eqn:F; [|discriminate F]. destruct (global_ignores _) eqn:G; [|vm_compute in G; discriminate G].
  cbn [compile_opt cfg_create g_ig g_wl g_ar]. eauto.
Qed.
Definition touched (p : path) : Prop := under (lit "/d/x") p \/ under (lit "/d/y") p.
Example change_case : exists u u', changed_in touched (moment before_tree before_content) (moment after_tree after_content) /\
  ~ touched (lit "/d/a") /\ ~ touched (lit "/d/b") /\ touched (lit "/d/x") /\ plain_run [] /\
  accepted (moment before_tree before_content) [] GEof [lit "/d"] u /\ accepted (moment after_tree after_content) [] GEof [lit "/d"] u' /\
  resolved (moment before_tree before_content) [] [lit "/d"] [lit "/d"] /\ resolved (moment after_tree after_content) [] [lit "/d"] [lit "/d"] /\
  quiet (moment before_tree before_content) u [lit "/d"] /\ quiet (moment after_tree after_content) u' [lit "/d"] /\
  ftwin_main (moment before_tree before_content) 9 [] GEof [lit "/d"] = Exit 0 (OText (lit "/d/x" ++ [10%N] ++ lit "/d/y" ++ [10; 10]%N ++ lit "/d/a" ++ [10%N] ++ lit "/d/b" ++ [10; 10]%N)) /\
  ftwin_main (moment after_tree after_content) 9 [] GEof [lit "/d"] = Exit 0 (OText (lit "/d/x" ++ [10%N] ++ lit "/d/a" ++ [10%N] ++ lit "/d/b" ++ [10; 10]%N)).
Proof.
  destruct (moment_accepted before_tree before_content) as (u & A). destruct (moment_accepted after_tree after_content) as (u' & A'). exists u, u'.
  assert (TX : touched (lit "/d/x")) by (left; exists []; reflexivity). assert (TY : touched (lit "/d/y")) by (right; exists []; reflexivity).
  split.
  { assert (L : forall p, p <> lit "/d" -> ~ touched p -> look before_tree p = look after_tree p).
    { intros p N1 N2. unfold before_tree, after_tree. cbn [look].
      destruct (list_eq_dec N.eq_dec (lit "/d") p); [congruence|]. destruct (list_eq_dec N.eq_dec (lit "/d/x") p); [subst; tauto|].
      destruct (list_eq_dec N.eq_dec (lit "/d/y") p); [subst; tauto|reflexivity]. }
    constructor; try reflexivity.
    - intros d n [X|X]; [left|right]; now apply under_join.
    - intros p N. cbn [o_content moment]. unfold before_content, after_content. destruct (in_dec (list_eq_dec N.eq_dec) p _) as [X|X]; [|reflexivity].
      destruct X as [<-|[<-|[]]]; tauto.
    - intros f p N. destruct (list_eq_dec N.eq_dec (lit "/d") p) as [<-|NE]; [reflexivity|].
      unfold moment, list_fs. cbn [o_fs s_stat]. rewrite (L p) by (auto; congruence). reflexivity.
    - intros f p N. unfold moment, list_fs. cbn [o_fs s_dir]. destruct (list_eq_dec N.eq_dec (lit "/d") p) as [<-|NE].
      + assert (X : look before_tree (lit "/d") = Some (NDir [(lit "a", TReg); (lit "b", TReg); (lit "x", TReg); (lit "y", TReg)])) by reflexivity.
        assert (Y : look after_tree (lit "/d") = Some (NDir [(lit "x", TReg); (lit "b", TReg); (lit "a", TReg)])) by reflexivity.
        rewrite X, Y. intros n ty NT. cbn [In]. split; intros H; repeat (destruct H as [H|H]; [|]); try tauto; exfalso; apply NT; injection H as <- _; assumption.
      + rewrite (L p) by (auto; congruence). destruct (look after_tree p) as [[l| |]|]; try exact I. reflexivity. }
  split; [intros [X|X]; revert X; apply not_under; vm_compute; discriminate|].
  split; [intros [X|X]; revert X; apply not_under; vm_compute; discriminate|]. split; [exact TX|].
  split; [unfold plain_run, given; repeat split; intros (a & [])|]. split; [exact A|]. split; [exact A'|].
  split; [split; [intros (a & [])|reflexivity]|]. split; [split; [intros (a & [])|reflexivity]|].
  split; [apply moment_quiet|]. split; [apply moment_quiet|]. split; vm_compute; reflexivity.
Qed.
