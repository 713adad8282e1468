(** Property C160: narrowing and widening a search. *)
From Coq Require Import String Ascii Sorting.Permutation.
From Verif Require Import Util HeapModel IgnoreModel HumanModel CollectModel ProcessModel ReportSpec ReportProofs ReportGroups PropReport FileModel PropFile PropEnd WalkModel PropWalk PropIgnore PropIgnoreFile PropRun
  ConfigModel PropConfig OutputModel PropOutput ImageModel PropImage FormatModel JsonModel PropJson MainModel PropMain PropWhole.
Local Open Scope list_scope.
Local Open Scope Z_scope.

(** ** Specification *)
(** the options -m, -M, -p and -T may differ, besides those that do not select files (C88) *)
Definition other (x : opt) : bool := existsb (N.eqb (fst x)) (lit "mMpT").
Definition same_but_limits (os os' : list opt) : Prop :=
  filter (fun x => negb (neutral x || other x)) os = filter (fun x => negb (neutral x || other x)) os'.
(** the length of the file lies between the limits of the run *)
Definition in_limits {R vec} (w : world R vec) (u : setup R) (p : path) : Prop :=
  within (cf_minsize (w_conf (u_conf u))) (cf_maxsize (w_conf (u_conf u))) (Z.of_nat (length (o_content w p))).

(** ** Proofs *)
Definition relax {R} (lo hi : Z) (pp : option (list N)) (c : wconf R) : wconf R :=
  let k := w_conf c in
  mkW (mkConf lo hi (cf_userid k) (cf_gids k) pp (cf_icase k) (cf_fsyml k)) (w_recurse c) (w_hidden c) (w_names c) (w_ig c) (w_wl c) (w_git c) (w_global c).

Record nearly (g h : cfg) : Prop := {
  ny_hidden : is_set (g_mask h) OPTION_SHOW_HIDDEN = is_set (g_mask g) OPTION_SHOW_HIDDEN;
  ny_icase : is_set (g_mask h) OPTION_ICASE = is_set (g_mask g) OPTION_ICASE;
  ny_fsyml : is_set (g_mask h) OPTION_FSYML = is_set (g_mask g) OPTION_FSYML;
  ny_recsd : is_set (g_mask h) OPTION_RECSD = is_set (g_mask g) OPTION_RECSD;
  ny_names : g_names h = g_names g; ny_ig : g_ig h = g_ig g; ny_wl : g_wl h = g_wl g; ny_ar : g_ar h = g_ar g }.
Lemma nearly_step g h x g1 h1 : nearly g h -> process_option g x = POk g1 -> process_option h x = POk h1 -> nearly g1 h1.
Proof.
  intros A P Q. apply process_step in P, Q. destruct A, P, Q. constructor; try congruence.
  - rewrite st_recsd, st_recsd0, ny_recsd0. reflexivity.
  - rewrite st_names, st_names0, ny_names0. reflexivity.
  - rewrite st_ig, st_ig0, ny_ig0. reflexivity.
  - rewrite st_wl, st_wl0, ny_wl0. reflexivity.
  - rewrite st_ar, st_ar0, ny_ar0. reflexivity.
Qed.
Lemma other_step g x g1 : neutral x || other x = true -> process_option g x = POk g1 -> nearly g g1.
Proof.
  intros NT P. apply process_step in P. destruct P. apply orb_true_iff in NT. unfold neutral, other in NT.
  destruct NT as [NT|NT]; apply existsb_exists in NT as (o & I & E); apply N.eqb_eq in E;
    cbn in I; repeat (destruct I as [<-|I]; [rewrite E in *; constructor; cbn in *; rewrite ?orb_false_r in *; assumption|]); destruct I.
Qed.
Lemma nearly_trans g h k : nearly g h -> nearly h k -> nearly g k.
Proof. intros [] []. constructor; congruence. Qed.
Lemma nearly_sym g h : nearly g h -> nearly h g.
Proof. intros []. constructor; congruence. Qed.
Lemma parse_nearly : forall os g h g1, nearly g h -> parse_opts g os = POk g1 ->
  exists h1, parse_opts h (filter (fun x => negb (neutral x || other x)) os) = POk h1 /\ nearly g1 h1.
Proof.
  induction os as [|x os IH]; intros g h g1 A P; cbn [parse_opts filter] in *; [injection P as <-; eauto|].
  destruct (process_option g x) as [g2| | |] eqn:E; try discriminate. destruct (neutral x || other x) eqn:NT; cbn [negb].
  - apply (IH g2); auto. apply (nearly_trans _ g); [|exact A]. apply nearly_sym. eapply other_step; eauto.
  - cbn [parse_opts]. destruct (proj2 (accept_one h x) (proj1 (accept_one g x) (ex_intro _ g2 E))) as (h2 & Eh). rewrite Eh.
    apply (IH g2); auto. eapply nearly_step; eauto.
Qed.
Lemma near_conf {R vec} (w : world R vec) os os' e e' args args' u u' : same_but_limits os os' -> accepted w os e args u -> accepted w os' e' args' u' ->
  u_conf u' = relax (cf_minsize (w_conf (u_conf u'))) (cf_maxsize (w_conf (u_conf u'))) (cf_ppath (w_conf (u_conf u'))) (u_conf u).
Proof.
  intros SO A A'. destruct (accepted_cfg w os e args u A) as (P & NE & _). destruct (accepted_cfg w os' e' args' u' A') as (P' & NE' & _).
  assert (A0 : nearly (cfg_create (o_cpus w)) (cfg_create (o_cpus w))) by (constructor; reflexivity).
  destruct (parse_nearly _ _ _ _ A0 P) as (h & H & AL). destruct (parse_nearly _ _ _ _ A0 P') as (h' & H' & AL').
  unfold same_but_limits in SO. rewrite SO in H. rewrite H in H'. injection H' as <-.
  assert (AG : nearly (u_cfg u) (u_cfg u')) by (eapply nearly_trans; [exact AL|now apply nearly_sym]).
  unfold accepted, parse_args in A, A'. rewrite P in A. rewrite P' in A'. destruct args as [|a args]; [congruence|]. destruct args' as [|a' args']; [congruence|].
  destruct AG as [B1 B2 B3 B4 B5 B6 B7 B8]. rewrite B2, B6, B7, B8 in A'.
  destruct (fill_gids _ _); [|discriminate]. destruct (global_ignores _); [|discriminate].
  destruct (compile_opt _ _ (g_ig _)); [|discriminate]. destruct (compile_opt _ _ (g_wl _)); [|discriminate].
  destruct (compile_opt _ _ (g_ar _)); [|discriminate]. injection A as A. injection A' as A'.
  apply (f_equal u_conf) in A. apply (f_equal u_conf) in A'. cbn [u_conf] in A, A'. rewrite <- A, <- A'. unfold relax. cbn [w_conf cf_minsize cf_maxsize cf_ppath cf_userid cf_gids cf_icase cf_fsyml w_recurse w_hidden w_names w_ig w_wl w_git w_global].
  congruence.
Qed.
Lemma relax_reached {R} compile exec lo hi pp (c : wconf R) f a cs p : reached compile exec c f a cs p -> reached compile exec (relax lo hi pp c) f a cs p.
Proof.
  induction 1 as [|cs cs' d i es n ty B IH S T P D E I K]; [exact (reached_arg _ compile exec (relax lo hi pp c) f a)|]. econstructor; eauto.
  - destruct P as [P1 P2]. constructor; [exact P1|exact P2].
  - destruct E; [now constructor 1|now constructor 2|]. econstructor 3; eauto.
  - destruct K as [[K1 K2] K3 K4 K5]. constructor; [constructor; [exact K1|exact K2]|exact K3|exact K4|exact K5].
Qed.
Lemma relax_taken {R} compile exec lo hi pp (c : wconf R) f a p i cs : taken compile exec c f a p i cs -> taken compile exec (relax lo hi pp c) f a p i cs.
Proof. intros [T1 T2 [P1 P2] T4]. constructor; [now apply relax_reached|exact T2|constructor; [exact P1|exact P2]|exact T4]. Qed.
Lemma near_compared {R vec} (w : world R vec) os os' e e' args args' u u' bs : same_but_limits os os' -> accepted w os e args u -> accepted w os' e' args' u' ->
  sizes_true (o_content w) (files w u) -> forall p, compared w u bs p -> in_limits w u' p -> compared w u' bs p.
Proof.
  intros SO A A' ST p (a & cs & i & Ia & T & B) L. pose proof (near_conf w os os' e e' args args' u u' SO A A') as E.
  exists a, cs, i. split; [exact Ia|]. split.
  - unfold files in *. rewrite E. cbn [relax w_conf cf_fsyml]. apply relax_taken. exact T.
  - unfold in_limits in L. destruct T as [_ S _ TY]. destruct (ST p i S) as [X|X]; [now rewrite <- X|]. rewrite X in TY. destruct TY as [TY|(TY & _)]; discriminate.
Qed.
Lemma compared_limits {R vec} (w : world R vec) u bs p : sizes_true (o_content w) (files w u) -> compared w u bs p -> in_limits w u p.
Proof.
  intros ST (a & cs & i & Ia & [_ S _ TY] & B). unfold in_limits. destruct (ST p i S) as [X|X]; [now rewrite X|]. rewrite X in TY. destruct TY as [TY|(TY & _)]; discriminate.
Qed.
Lemma resolved_incl {R vec} (w : world R vec) os os' args args' bs bs' : (given os "J" <-> given os' "J") -> (forall a, In a args -> In a args') ->
  resolved w os args bs -> resolved w os' args' bs' -> forall b, In b bs -> In b bs'.
Proof.
  intros G SA (RJ & RN) (RJ' & RN') b Ib. destruct (in_dec N.eq_dec (chr "J") (map fst os)) as [J|J].
  - assert (GJ : given os "J") by (apply in_map_iff in J as ((o & a) & X & I); cbn in X; subst o; exists a; exact I).
    specialize (RJ GJ). specialize (RJ' (proj1 G GJ)). destruct (Forall2_in_r _ _ _ RJ b Ib) as (a & Ia & T).
    destruct (Forall2_in_l _ _ _ RJ' a (SA a Ia)) as (b' & Ib' & T'). rewrite T in T'. injection T' as ->. exact Ib'.
  - assert (NJ : ~ given os "J") by (intros (a & I); apply J, in_map_iff; exists (chr "J", a); auto).
    rewrite RN in Ib by exact NJ. rewrite RN' by (intros X; now apply NJ, G). auto.
Qed.
Lemma same_J os os' : same_but_limits os os' -> (given os "J" <-> given os' "J").
Proof.
  intro SO. assert (X : forall l, given l "J" <-> given (filter (fun x => negb (neutral x || other x)) l) "J").
  { intros l. unfold given. split; intros (a & I); exists a; [apply filter_In; split; [exact I|reflexivity]|now apply filter_In in I]. }
  rewrite (X os), (X os'), SO. tauto.
Qed.

(** Two runs over the same files, the second with narrower size limits: it reports exactly the
    pairs of the first that lie within its limits.  -p may differ as well.  Missing: reads that
    fail, files that change and hash collisions (C38, C42). *)
Theorem limits_select_partial : forall R vec (w : world R vec) fuel fuel' os os' e e' args args' u u' bs bs' o o',
  same_but_limits os os' -> (forall a, In a args <-> In a args') -> plain_run os -> plain_run os' ->
  accepted w os e args u -> accepted w os' e' args' u' -> resolved w os args bs -> resolved w os' args' bs' ->
  quiet w u bs -> (given os "J" -> forall p, compared w u bs p -> unicode p) ->
  (forall p, in_limits w u' p -> in_limits w u p) ->
  ftwin_main w fuel os e args = Exit 0 o -> ftwin_main w fuel' os' e' args' = Exit 0 o' ->
  exists gs gs', shows w (u_cfg u) o gs /\ shows w (u_cfg u') o' gs' /\
    forall p q, p <> q -> (grouped gs' p q <-> grouped gs p q /\ in_limits w u' p).
Proof.
  intros R vec w fuel fuel' os os' e e' args args' u u' bs bs' o o' SO SA PR PR' A A' RS RS' Q UJ NL E E'.
  pose proof (same_J _ _ SO) as G. assert (SO' : same_but_limits os' os) by (symmetry; exact SO). destruct Q as [Q1 Q2 Q3 Q4 Q5 Q6].
  assert (ST' : sizes_true (o_content w) (files w u')). { unfold files in *. rewrite (near_conf w os os' e e' args args' u u' SO A A'). exact Q4. }
  assert (B1 : forall b, In b bs -> In b bs') by exact (resolved_incl w os os' args args' bs bs' G (fun a => proj1 (SA a)) RS RS').
  assert (B2 : forall b, In b bs' -> In b bs) by exact (resolved_incl w os' os args' args bs' bs (iff_sym G) (fun a => proj2 (SA a)) RS' RS).
  assert (MV : forall (v : setup R) cs cs', (forall b, In b cs -> In b cs') -> forall p, compared w v cs p -> compared w v cs' p).
  { intros v cs cs' I p (a & c & i & Ia & T). exists a, c, i. split; auto. }
  assert (C1 : forall p, compared w u' bs' p -> compared w u bs p).
  { intros p C. eapply (near_compared w os' os); eauto. apply NL. eapply compared_limits; eauto. }
  assert (C2 : forall p, compared w u bs p -> in_limits w u' p -> compared w u' bs' p).
  { intros p C L. apply (MV u' bs bs'); auto. eapply (near_compared w os os'); eauto. }
  assert (Q' : quiet w u' bs') by (constructor; auto).
  destruct (exit_zero_complete_partial R vec w fuel os e args u bs o PR A RS ltac:(constructor; auto) UJ E) as (gs & S & _ & X).
  destruct (exit_zero_complete_partial R vec w fuel' os' e' args' u' bs' o' PR' A' RS' Q' ltac:(intros J p C; apply UJ; [now apply G|auto]) E') as (gs' & S' & _ & X').
  exists gs, gs'. split; [exact S|]. split; [exact S'|]. intros p q NE. rewrite (X p q NE), (X' p q NE). split.
  - intros (P1 & P2 & P3). split; [auto|]. eapply compared_limits; eauto.
  - intros ((P1 & P2 & P3) & L). split; [auto|]. split; [|exact P3]. apply C2; auto. unfold in_limits in *. now rewrite <- P3.
Qed.
Print Assumptions limits_select_partial.

(** Two runs over the same files, the second with more arguments: every pair of the first is
    reported by the second, and what is new involves a file the first did not compare. *)
Theorem more_arguments_partial : forall R vec (w : world R vec) fuel fuel' os os' e e' args args' u u' bs bs' o o',
  same_options os os' -> (forall a, In a args -> In a args') -> plain_run os -> plain_run os' ->
  accepted w os e args u -> accepted w os' e' args' u' -> resolved w os args bs -> resolved w os' args' bs' ->
  quiet w u' bs' -> (given os "J" -> forall p, compared w u' bs' p -> unicode p) ->
  ftwin_main w fuel os e args = Exit 0 o -> ftwin_main w fuel' os' e' args' = Exit 0 o' ->
  exists gs gs', shows w (u_cfg u) o gs /\ shows w (u_cfg u') o' gs' /\
    forall p q, p <> q -> (grouped gs p q <-> grouped gs' p q /\ compared w u bs p /\ compared w u bs q).
Proof.
  intros R vec w fuel fuel' os os' e e' args args' u u' bs bs' o o' SO SA PR PR' A A' RS RS' Q UJ E E'.
  assert (SF : same_files w w). { constructor; try reflexivity. intros b p. destruct (s_dir (o_fs w b) p); tauto. }
  pose proof (same_conf w w SF os os' e e' args args' u u' SO A A') as CE.
  pose proof (same_resolved w w SF os os' args args' bs bs' SO SA RS RS') as BI.
  assert (C1 : forall p, compared w u bs p -> compared w u' bs' p) by (eapply (same_compared w w SF os os'); eauto).
  assert (G : given os "J" <-> given os' "J").
  { assert (X : forall l, given l "J" <-> given (filter (fun x => negb (neutral x)) l) "J").
    { intros l. unfold given. split; intros (a & I); exists a; [apply filter_In; split; [exact I|reflexivity]|now apply filter_In in I]. }
    rewrite (X os), (X os'), SO. tauto. }
  assert (Q0 : quiet w u bs). { destruct Q as [Q1 Q2 Q3 Q4 Q5 Q6]. constructor; auto. unfold files in *. now rewrite <- CE. }
  destruct (exit_zero_complete_partial R vec w fuel os e args u bs o PR A RS Q0 ltac:(intros J p C; apply UJ; auto) E) as (gs & S & _ & X).
  destruct (exit_zero_complete_partial R vec w fuel' os' e' args' u' bs' o' PR' A' RS' Q ltac:(intros J; apply UJ; now apply G) E') as (gs' & S' & _ & X').
  exists gs, gs'. split; [exact S|]. split; [exact S'|]. intros p q NE. rewrite (X p q NE), (X' p q NE). split; [|tauto].
  intros (P1 & P2 & P3). auto.
Qed.
Print Assumptions more_arguments_partial.

Lemma order_accepted args : args <> [] -> exists u, accepted (order_world main_entries) [] GEof args u.
Proof.
  intros NE. unfold accepted, parse_args. cbn [o_cpus order_world parse_opts]. destruct args as [|a args]; [congruence|].
  destruct (fill_gids _ _) eqn:F; [|discriminate F]. destruct (global_ignores _) eqn:G; [|vm_compute in G; discriminate G].
  cbn [compile_opt cfg_create g_ig g_wl g_ar]. eauto.
Qed.
(** With colliding hashes one more argument ends a run that reported a pair with a NULL pointer. *)
Theorem more_arguments_refuted : exists (w : world str unit) os args more u o gs,
  accepted w os GEof args u /\
  (sorts (o_qsort w) /\ visits_all (o_iter w) /\ clean (o_huge w) (o_beh w) (o_hbeh w) /\ sizes_true (o_content w) (files w u)) /\
  ftwin_main w 9 os GEof args = Exit 0 o /\ shows w (u_cfg u) o gs /\ grouped gs (lit "/d/a") (lit "/d/sub/b") /\
  (exists u', accepted w os GEof (args ++ [more]) u') /\ forall fuel c o', ftwin_main w fuel os GEof (args ++ [more]) <> Exit c o'.
Proof.
  set (w := order_world main_entries). destruct (order_accepted [lit "/d/a"; lit "/d/sub/b"]) as (u & A); [discriminate|].
  destruct (order_accepted [lit "/d/a"; lit "/d/sub/b"; lit "/d/c"]) as (u' & A'); [discriminate|].
  exists w, [], [lit "/d/a"; lit "/d/sub/b"], (lit "/d/c"), u, (OText (lit "/d/a" ++ [10%N] ++ lit "/d/sub/b" ++ [10; 10]%N)), [[lit "/d/a"; lit "/d/sub/b"]].
  split; [exact A|]. destruct (main_quiet_ex 4 main_entries u []).
  split; [split; [assumption|]; split; [assumption|]; split; [assumption|]; assumption|].
  split; [vm_compute; reflexivity|]. split.
  - assert (C : u_cfg u = cfg_create 4) by (destruct (accepted_cfg _ _ _ _ _ A) as (P & _); cbn in P; congruence).
    pose (f := mkFile (lit "/d/a") 3 false). pose (g := mkFile (lit "/d/sub/b") 3 false).
    pose proof (shows_text w (u_cfg u) [[f; g]]) as S. rewrite C in S |- *. exact S.
  - split; [exists [lit "/d/a"; lit "/d/sub/b"]; split; [now left|]; split; [now left|right; now left]|].
    split; [exists u'; exact A'|]. intros fuel c o'. do 9 (destruct fuel as [|fuel]; [vm_compute; discriminate|]). vm_compute. discriminate.
Qed.
Print Assumptions more_arguments_refuted.

(** ** The hypotheses are met *)
(** two pairs of three and of five bytes; -m 4 leaves the second *)
Definition pair_tree : list (path * node) :=
  [ (lit "/d", NDir [(lit "a", TReg); (lit "b", TReg); (lit "x", TReg); (lit "y", TReg)]);
    (lit "/d/a", NFile 3); (lit "/d/b", NFile 3); (lit "/d/x", NFile 5); (lit "/d/y", NFile 5) ].
Definition pair_content (p : path) : bytes :=
  if in_dec (list_eq_dec N.eq_dec) p [lit "/d/a"; lit "/d/b"] then lit "abc" else lit "xyxyx".
Definition pair_world : world str unit :=
  mkWorld (fun r => Some r) toy (fun _ _ => Some (fun _ => true)) 4 7 [] 5 (fun _ => list_fs pair_tree []) main_true pair_content doc_mtime
    capped 2 ok_beh ok_hbeh ex_junk isort id_iter false calendar (fun _ => None) (fun _ _ _ => false).
Lemma pair_quiet : forall u bs, quiet pair_world u bs.
Proof.
  intros u bs. constructor.
  - exact isort_sorts.
  - exact id_iter_all.
  - apply end_hyps.
  - intros p i S. unfold files, pair_world, list_fs in S. cbn [o_fs s_stat] in S. destruct (look pair_tree p) as [n|] eqn:L; [|discriminate].
    apply look_in in L. cbn [pair_tree In] in L.
    destruct L as [L|[L|[L|[L|[L|[]]]]]]; injection L as <- <-; injection S as <-; try (right; reflexivity); left; vm_compute; reflexivity.
  - apply doc_hyps.
  - intros p q _ _. cbn [o_xxh o_content pair_world]. unfold pair_content.
    destruct (in_dec (list_eq_dec N.eq_dec) p _), (in_dec (list_eq_dec N.eq_dec) q _); intros E; try reflexivity; vm_compute in E; discriminate.
Qed.
Definition from4 : list opt := [(chr "m", lit "4")].
Lemma pair_accepted os args : args <> [] -> (exists g, parse_opts (cfg_create 4) os = POk g) -> exists u, accepted pair_world os GEof args u.
Proof.
  intros NE (g & P). unfold accepted, parse_args. cbn [o_cpus pair_world]. rewrite P. destruct args as [|a args]; [congruence|].
  destruct (fill_gids _ _) eqn:F; [|discriminate F]. destruct (global_ignores _) eqn:G; [|vm_compute in G; discriminate G].
  destruct (g_ig g), (g_wl g), (g_ar g); cbn [compile_opt o_pcre pair_world]; eauto.
Qed.
Example limits_case : exists u u', same_but_limits [] from4 /\ plain_run [] /\ plain_run from4 /\
  accepted pair_world [] GEof [lit "/d"] u /\ accepted pair_world from4 GEof [lit "/d"] u' /\ resolved pair_world [] [lit "/d"] [lit "/d"] /\ resolved pair_world from4 [lit "/d"] [lit "/d"] /\
  quiet pair_world u [lit "/d"] /\ (forall p, in_limits pair_world u' p -> in_limits pair_world u p) /\
  ftwin_main pair_world 9 [] GEof [lit "/d"] = Exit 0 (OText (lit "/d/x" ++ [10%N] ++ lit "/d/y" ++ [10; 10]%N ++ lit "/d/a" ++ [10%N] ++ lit "/d/b" ++ [10; 10]%N)) /\
  ftwin_main pair_world 9 from4 GEof [lit "/d"] = Exit 0 (OText (lit "/d/x" ++ [10%N] ++ lit "/d/y" ++ [10; 10]%N)).
Proof.
  destruct (pair_accepted [] [lit "/d"]) as (u & A); [discriminate|eexists; reflexivity|].
  destruct (pair_accepted from4 [lit "/d"]) as (u' & A'); [discriminate|eexists; vm_compute; reflexivity|]. exists u, u'.
  assert (L : (cf_minsize (w_conf (u_conf u)), cf_maxsize (w_conf (u_conf u))) = (0, 0)) by (unfold accepted in A; vm_compute in A; injection A as <-; reflexivity).
  split; [reflexivity|]. split; [unfold plain_run, given; firstorder|].
  split; [unfold plain_run, given; repeat split; intros (a & [X|[]]); discriminate X|]. split; [exact A|]. split; [exact A'|].
  split; [split; [intros (a & [])|reflexivity]|]. split; [split; [intros (a & [X|[]]); discriminate X|reflexivity]|]. split; [apply pair_quiet|].
  split; [|split; vm_compute; reflexivity]. intros p _. unfold in_limits. injection L as -> ->. unfold within. lia.
Qed.
Example arguments_case : exists u u', same_options [] [] /\ accepted pair_world [] GEof [lit "/d/a"; lit "/d/b"] u /\ accepted pair_world [] GEof [lit "/d/x"; lit "/d/a"; lit "/d/b"] u' /\
  ftwin_main pair_world 9 [] GEof [lit "/d/a"; lit "/d/b"] = Exit 0 (OText (lit "/d/a" ++ [10%N] ++ lit "/d/b" ++ [10; 10]%N)) /\
  exists o, ftwin_main pair_world 9 [] GEof [lit "/d/x"; lit "/d/a"; lit "/d/b"] = Exit 0 o.
Proof.
  destruct (pair_accepted [] [lit "/d/a"; lit "/d/b"]) as (u & A); [discriminate|eexists; reflexivity|].
  destruct (pair_accepted [] [lit "/d/x"; lit "/d/a"; lit "/d/b"]) as (u' & A'); [discriminate|eexists; reflexivity|]. exists u, u'. split; [reflexivity|]. split; [exact A|]. split; [exact A'|].
  split; [vm_compute; reflexivity|]. eexists. vm_compute. reflexivity.
Qed.
