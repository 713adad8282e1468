(** Property C157: repeating the clean-up pipeline of the README leaves every content once. *)
From Coq Require Import String Ascii Sorting.Permutation.
From Verif Require Import Util HeapModel IgnoreModel HumanModel CollectModel ProcessModel ReportSpec ReportProofs ReportGroups PropReport FileModel PropFile PropEnd PcreSpec IgnoreSpec WalkModel PropWalk PropIgnore PropIgnoreFile PropRun
  ConfigModel PropConfig OutputModel PropOutput ImageModel PropImage FormatModel JsonModel PropJson MainModel PropMain PropWhole.
Local Open Scope list_scope.
Local Open Scope Z_scope.

(** ** Specification *)
(** A run on files that can be read, do not change meanwhile and have no separator or newline in
    their names, with the plain text output the pipeline wants. *)
Record steady {R vec} (w : world R vec) (os : list opt) (e : getopt_end) (args : list path) (u : setup R) : Prop := {
  st_opts : plain_run os /\ ~ given os "J" /\ ~ given os "d" /\ o_tty w = false;
  st_args : accepted w os e args u /\ ForallOrdPairs apart args /\ g_sep (u_cfg u) <> 10%N;
  st_quiet : quiet w u args;
  st_names : names_ok (files w u) /\
    forall a cs p i, In a args -> taken (o_compile w) (o_exec w) (u_conf u) (files w u) a p i cs -> plain (g_sep (u_cfg u)) p }.
(** [n] rounds of running the program and removing what the pipeline removes, from the files of
    [w] to those of [w']; nothing else changes the files that are compared *)
Inductive rounds {R vec} (os : list opt) (e : getopt_end) (args : list path) (u : setup R) : nat -> world R vec -> world R vec -> Prop :=
| rounds_none w : rounds os e args u 0 w w
| rounds_more n w w1 w' fuel t : steady w os e args u -> ftwin_main w fuel os e args = Exit 0 (OText t) ->
    o_content w1 = o_content w ->
    (forall p, compared w1 u args p <-> compared w u args p /\ ~ removed (g_sep (u_cfg u)) t p) ->
    rounds os e args u n w1 w' -> rounds os e args u (S n) w w'.
(** [l] lists the compared files with the content [c], each once *)
Definition copies {R vec} (w : world R vec) (u : setup R) (args : list path) (c : bytes) (l : list path) : Prop :=
  NoDup l /\ forall p, In p l <-> compared w u args p /\ o_content w p = c.

(** ** Proof *)
Lemma same_group {A B} (F : A -> B) : forall gs g1 g2 x, NoDup (map F (concat gs)) -> In g1 gs -> In g2 gs -> In x (map F g1) -> In x (map F g2) -> g1 = g2.
Proof.
  induction gs as [|g gs IH]; intros g1 g2 x ND I1 I2 X1 X2; [destruct I1|]. cbn [concat] in ND. rewrite map_app in ND.
  assert (K : forall z, In z (map F g) -> In z (map F (concat gs)) -> False).
  { clear -ND. induction (map F g) as [|a r IH]; intros z I J; [destruct I|]. cbn [app] in ND. inversion ND as [|? ? N1 N2]; subst.
    destruct I as [-> |I]; [apply N1; apply in_app_iff; now right|eauto]. }
  assert (ND2 : NoDup (map F (concat gs))).
  { clear -ND. induction (map F g) as [|a r IH]; [exact ND|]. cbn [app] in ND. inversion ND; auto. }
  assert (M : forall h, In h gs -> In x (map F h) -> In x (map F (concat gs))).
  { intros h Ih Xh. apply in_map_iff in Xh as (y & <- & Iy). apply in_map. apply in_concat. eauto. }
  destruct I1 as [<-|I1], I2 as [<-|I2]; auto.
  - exfalso. apply (K x); eauto.
  - exfalso. apply (K x); eauto.
  - eapply IH; eauto.
Qed.
Lemma run_groups {R vec} (w : world R vec) fuel os e args u t : steady w os e args u -> ftwin_main w fuel os e args = Exit 0 (OText t) ->
  exists gs, (forall p, removed (g_sep (u_cfg u)) t p <-> exists f m, In (f :: m) gs /\ f_path f = p) /\
    (forall g, In g gs -> (2 <= length g)%nat) /\ NoDup (map f_path (concat gs)) /\
    (gs = [] -> t = []) /\
    (forall p q, p <> q -> (together gs p q <-> compared w u args p /\ compared w u args q /\ o_content w p = o_content w q)) /\
    (forall P, cf_ppath (w_conf (u_conf u)) = Some P -> forall g, In g gs -> first_then (begins (cf_icase (w_conf (u_conf u))) P) g).
Proof.
  intros [((Nh & NV & Nt & NI) & NJ & Nd & TT) (A & AP & S10) Q (NO & PL)] E.
  assert (RS : resolved w os args args) by (split; [tauto|reflexivity]).
  destruct (main_walked w fuel os e args u args _ (conj Nh (conj NV (conj Nt NI))) A RS E) as (l & W).
  rewrite (main_quiet w fuel os e args u args l (conj Nh (conj NV (conj Nt NI))) A RS Q W) in E. pose proof Q as [QS QI QR QZ QH QC].
  destruct (compared_collected w u args l fuel W) as (CC & SZ). destruct (SZ QZ) as (SZ1 & SO).
  assert (J : is_set (g_mask (u_cfg u)) OPTION_JSON = false) by (apply not_true_is_false; intro X; apply NJ; now apply (is_json w os e args u A)).
  assert (D : is_set (g_mask (u_cfg u)) OPTION_SIZED = false).
  { destruct (accepted_cfg w os e args u A) as (P & _). destruct (settings_exact _ _ _ P). apply not_true_is_false. tauto. }
  assert (C0 : exists p, compared w u args p).
  { destruct (collected (w_conf (u_conf u)) l) as [|x r] eqn:Ec.
    - assert (NC : ~ exists p, compared w u args p) by (intros (p & C); apply CC in C; destruct C as (x & [] & _)).
      destruct (empty_report w u args l fuel W QS QI QZ NC (not_image w os e args u A NI)) as (o' & E'). rewrite E' in E. discriminate.
    - exists (f_path x). apply CC. exists x. split; [now left|reflexivity]. }
  destruct (run_exact_partial R (o_compile w) (o_exec w) (o_content w) (o_xxh w) (o_huge w) (Z.to_N (g_excess (u_cfg u))) (o_beh w) (o_hbeh w) (o_junk w)
      (o_qsort w) (o_iter w) fuel (u_conf u) (files w u) args l QS QI QZ QR W C0 QC) as (gs & WR & EX).
  unfold whole_run in WR. rewrite W in WR.
  destruct (text_exact _ _ _ _ _ format_human_size (style_of (g_sep (u_cfg u)) false false) _ _ _ _ QS QI SO WR) as (t' & RO & tail & TE & T2).
  assert (ND : NoDup (map f_path (concat gs))).
  { pose proof (reported_once (hash_file (file_content (o_content w)) (o_xxh w) (o_huge w) (Z.to_N (g_excess (u_cfg u))) (o_hbeh w)) (o_junk w)
      (compare_files (file_content (o_content w)) (o_huge w) (Z.to_N (g_excess (u_cfg u))) (o_beh w)) (o_qsort w) (o_iter w) (w_conf (u_conf u)) l QS QI SO) as RO1.
    rewrite WR in RO1. apply RO1. eapply walk_once_partial; eauto. }
  assert (ET : t' = t).
  { unfold report in E. cbv zeta in E. rewrite (not_image w os e args u A NI), J, D, TT in E.
    change (hash_file (file_content (o_content w)) (o_xxh w) (o_huge w) (Z.to_N (g_excess (u_cfg u))) (o_hbeh w)) with (hash w (u_cfg u)) in RO.
    change (compare_files (file_content (o_content w)) (o_huge w) (Z.to_N (g_excess (u_cfg u))) (o_beh w)) with (compare w (u_cfg u)) in RO.
    rewrite RO in E. cbn in E. congruence. }
  subst t'. exists gs. split; [|split; [|split; [exact ND|split; [|split; [exact EX|]]]]].
  - apply (cleanup_first_partial _ _ _ _ _ format_human_size (g_sep (u_cfg u)) _ _ _ _ _ _ QS QI SO S10) with (2 := WR) (3 := RO).
    apply Forall_forall. intros (p, i) I. apply (walk_exact _ _ _ _ _ _ _ _ W) in I. destruct I as (a & cs & Ia & Tk). eapply PL; eauto.
  - destruct (groups_sound (hash_file (file_content (o_content w)) (o_xxh w) (o_huge w) (Z.to_N (g_excess (u_cfg u))) (o_hbeh w)) (o_junk w)
      (compare_files (file_content (o_content w)) (o_huge w) (Z.to_N (g_excess (u_cfg u))) (o_beh w)) (o_qsort w) (o_iter w) (fun _ => []) (w_conf (u_conf u)) l QS QI SO (fun _ _ _ _ _ _ => eq_refl)) as [GS _].
    rewrite WR in GS. cbn [fst] in GS. intros g Ig. apply (GS g Ig).
  - intros ->. destruct T2 as [->|(_ & T2)]; [rewrite app_nil_r in TE; exact TE|congruence].
  - intros P HP g Ig. destruct (priority_first_partial (hash_file (file_content (o_content w)) (o_xxh w) (o_huge w) (Z.to_N (g_excess (u_cfg u))) (o_hbeh w)) (o_junk w)
      (compare_files (file_content (o_content w)) (o_huge w) (Z.to_N (g_excess (u_cfg u))) (o_beh w)) (o_qsort w) (o_iter w) (w_conf (u_conf u)) l P QS QI SO HP) as (F & _).
    rewrite WR in F. apply F. exact Ig.
Qed.

(** ** C157 *)
(** One round removes exactly one of the files with the same content, if there are several, and
    no file that has no twin. *)
Theorem one_round_partial : forall R vec (w : world R vec) fuel os e args u t, steady w os e args u -> ftwin_main w fuel os e args = Exit 0 (OText t) ->
  forall p, compared w u args p ->
    ((exists q, q <> p /\ compared w u args q /\ o_content w q = o_content w p) ->
     exists r, compared w u args r /\ o_content w r = o_content w p /\ removed (g_sep (u_cfg u)) t r /\
       forall r', o_content w r' = o_content w p -> removed (g_sep (u_cfg u)) t r' -> r' = r) /\
    ((forall q, compared w u args q -> o_content w q = o_content w p -> q = p) -> ~ removed (g_sep (u_cfg u)) t p).
Proof.
  intros R vec w fuel os e args u t ST E p C. destruct (run_groups w fuel os e args u t ST E) as (gs & RM & L2 & ND & _ & EX & _).
  assert (HD : forall f m x, In (f :: m) gs -> In x (f :: m) -> f_path x <> f_path f -> together gs (f_path f) (f_path x)).
  { intros f m x I Ix _. exists (f :: m), f, x. split; [exact I|]. split; [now left|]. auto. }
  assert (CP : forall r, removed (g_sep (u_cfg u)) t r -> compared w u args r).
  { intros r Rr. apply RM in Rr. destruct Rr as (f & m & I & <-). specialize (L2 _ I). destruct m as [|g m]; [cbn in L2; lia|].
    assert (NE : f_path g <> f_path f) by (eapply second_no_head; eauto).
    apply (EX (f_path f) (f_path g)); [congruence|]. apply (HD f (g :: m)); auto. right. now left. }
  split.
  - intros (q & NE & Cq & Eq). destruct (proj2 (EX p q ltac:(congruence)) (conj C (conj Cq (eq_sym Eq)))) as (grp & x & y & I & Ix & Iy & <- & <-).
    destruct grp as [|f m]; [destruct Ix|].
    assert (SF : o_content w (f_path f) = o_content w (f_path x)).
    { destruct (list_eq_dec N.eq_dec (f_path x) (f_path f)) as [->|N]; [reflexivity|]. apply (EX (f_path f) (f_path x)); [congruence|]. apply (HD f m); auto. }
    assert (RF : removed (g_sep (u_cfg u)) t (f_path f)) by (apply RM; eauto).
    exists (f_path f). split; [apply CP; exact RF|]. split; [exact SF|]. split; [exact RF|].
    intros r' E' Rr. destruct (list_eq_dec N.eq_dec r' (f_path f)) as [|N]; [assumption|]. exfalso.
    destruct (proj2 (EX r' (f_path f) N) (conj (CP _ Rr) (conj (CP _ RF) (eq_trans E' (eq_sym SF))))) as (g2 & a & b & I2 & Ia & Ib & Ea & Eb).
    apply RM in Rr. destruct Rr as (f' & m' & I' & Ef').
    assert (X1 : g2 = f :: m). { apply (same_group f_path gs g2 (f :: m) (f_path f)); auto; [rewrite <- Eb; apply in_map; exact Ib|now left]. }
    assert (X2 : g2 = f' :: m'). { apply (same_group f_path gs g2 (f' :: m') r'); auto; [rewrite <- Ea; apply in_map; exact Ia|left; exact Ef']. }
    rewrite X1 in X2. injection X2 as -> _. congruence.
  - intros U Rr. apply RM in Rr. destruct Rr as (f & m & I & <-). pose proof (L2 _ I) as L. destruct m as [|g m]; [cbn in L; lia|].
    assert (NE : f_path g <> f_path f) by (eapply second_no_head; eauto). apply NE.
    destruct (proj1 (EX (f_path f) (f_path g) ltac:(congruence))) as (_ & Cg & Eg); [apply (HD f (g :: m)); auto; right; now left|]. apply U; auto.
Qed.
Print Assumptions one_round_partial.

Lemma drop_one {R vec} (w w1 : world R vec) fuel os e args u t c l : steady w os e args u -> ftwin_main w fuel os e args = Exit 0 (OText t) ->
  o_content w1 = o_content w -> (forall p, compared w1 u args p <-> compared w u args p /\ ~ removed (g_sep (u_cfg u)) t p) -> copies w u args c l ->
  exists l1, copies w1 u args c l1 /\ incl l1 l /\ length l1 = Nat.max (Nat.min 1 (length l)) (length l - 1).
Proof.
  intros ST E EC CM (ND & HL). destruct l as [|p [|q l]].
  - exists []. split; [split; [constructor|]|split; [intros x []|reflexivity]]. intro p. split; [intros []|]. rewrite CM, EC. intros ((C & _) & X). apply HL. auto.
  - assert (I : In p [p]) by now left. apply HL in I. destruct I as (C & X). destruct (one_round_partial R vec w fuel os e args u t ST E p C) as (_ & U).
    exists [p]. split; [split; [exact ND|]|split; [intro; auto|reflexivity]]. intro r. rewrite CM, EC. split.
    + intros [<-|[]]. split; auto. split; auto. apply U. intros q Cq Eq. assert (Iq : In q [p]) by (apply HL; split; congruence). destruct Iq as [|[]]; auto.
    + intros ((Cr & _) & Er). apply HL. auto.
  - assert (I : In p (p :: q :: l)) by now left. apply HL in I. destruct I as (C & X). assert (Iq : In q (p :: q :: l)) by (right; now left). apply HL in Iq. destruct Iq as (Cq & Xq).
    destruct (one_round_partial R vec w fuel os e args u t ST E p C) as (S & _). destruct S as (r & Cr & Er & Rr & U).
    { exists q. split; [|split; congruence]. intro Eqp. subst. inversion ND as [|? ? N1 _]. apply N1. now left. }
    assert (Ir : In r (p :: q :: l)) by (apply HL; split; congruence). destruct (in_split r _ Ir) as (a & b & EL). rewrite EL in *.
    assert (N : ~ In r (a ++ b)) by (apply NoDup_remove_2; exact ND).
    exists (a ++ b). split; [split; [eapply NoDup_remove_1; exact ND|]|split].
    + intro x. rewrite CM, EC. split.
      * intro Ix. assert (Iy : In x (a ++ r :: b)) by (apply in_app_iff; apply in_app_iff in Ix; destruct Ix; [auto|right; now right]). apply HL in Iy. destruct Iy as (Cx & Ex).
        split; [split; [exact Cx|]|exact Ex]. intro Rx. apply N. rewrite (U x ltac:(congruence) Rx) in Ix. exact Ix.
      * intros ((Cx & Nx) & Ex). assert (Iy : In x (a ++ r :: b)) by (apply HL; auto). apply in_app_iff. apply in_app_iff in Iy. destruct Iy as [|[<-|]]; auto. contradiction.
    + intros x Ix. apply in_app_iff. apply in_app_iff in Ix. destruct Ix; [auto|right; now right].
    + assert (LL : length (a ++ r :: b) = S (length (a ++ b))) by (rewrite !app_length; cbn; lia). rewrite LL.
      assert (1 <= length (a ++ b))%nat. { rewrite <- EL in LL. cbn [length] in LL. lia. } lia.
Qed.
(** After [n] rounds a content of which there were [m] files has [m - n] files left, but at
    least one. *)
Theorem rounds_leave_one_partial : forall R vec os e args u n (w w' : world R vec) c l, rounds os e args u n w w' -> copies w u args c l ->
  exists l', copies w' u args c l' /\ incl l' l /\ length l' = Nat.max (Nat.min 1 (length l)) (length l - n).
Proof.
  intros R vec os e args u n w w' c l H. revert l. induction H as [w|n w w1 w' fuel t ST E EC CM H IH]; intros l HC.
  - exists l. split; [exact HC|]. split; [apply incl_refl|]. lia.
  - destruct (drop_one w w1 fuel os e args u t c l ST E EC CM HC) as (l1 & H1 & I1 & L1). destruct (IH l1 H1) as (l' & H' & I' & L').
    exists l'. split; [exact H'|]. split; [eapply incl_tran; eauto|]. lia.
Qed.
Print Assumptions rounds_leave_one_partial.
(** When every content is there once, the run prints nothing. *)
Theorem nothing_left_partial : forall R vec (w : world R vec) fuel os e args u t, steady w os e args u -> ftwin_main w fuel os e args = Exit 0 (OText t) ->
  (t = [] <-> forall p q, compared w u args p -> compared w u args q -> o_content w p = o_content w q -> p = q).
Proof.
  intros R vec w fuel os e args u t ST E. destruct (run_groups w fuel os e args u t ST E) as (gs & RM & L2 & ND & NE & EX & _). split.
  - intros -> p q Cp Cq Q. destruct (list_eq_dec N.eq_dec p q) as [|N]; [assumption|]. exfalso. destruct (proj2 (EX p q N) (conj Cp (conj Cq Q))) as (grp & x & y & I & Ix & _).
    destruct grp as [|f m]; [destruct Ix|]. assert (X : removed (g_sep (u_cfg u)) [] (f_path f)) by (apply RM; eauto). destruct X as (ls & k & rest & HL & Ik & -> & _).
    inversion HL as [Y|k0 Y1 Y2 Y3|k0 t0 ls0 Y1 Y2 Y3]; subst; [destruct Ik|congruence|destruct k0; discriminate].
  - intro U. apply NE. destruct gs as [|g gs]; [reflexivity|exfalso]. pose proof (L2 g ltac:(now left)) as L. destruct g as [|f [|h m]]; cbn in L; try lia.
    assert (N : f_path h <> f_path f) by (eapply second_no_head; [exact ND|left; reflexivity|left; reflexivity]).
    destruct (proj1 (EX (f_path f) (f_path h) ltac:(congruence))) as (A & B & C).
    { exists (f :: h :: m), f, h. split; [now left|]. split; [now left|]. split; [right; now left|auto]. }
    apply N. symmetry. apply U; auto.
Qed.
Print Assumptions nothing_left_partial.

(** A case: [ftwin -s , /d] prints [/d/a,/d/sub/b]; when [/d/a] is gone it prints nothing. *)
Definition less_entries : list (path * ftype) := [(lit "c", TReg); (lit "sub", TDir)].
Definition world_less := main_world 4 (main_fs less_entries) ok_hbeh.
Lemma less_names : names_ok (main_fs less_entries).
Proof. apply names_okb_ok. vm_compute. reflexivity. Qed.
Lemma steady_by es os u l ps : plain_run os -> ~ given os "J" -> ~ given os "d" -> accepted (main_world 4 (main_fs es) ok_hbeh) os GEof [lit "/d"] u -> names_ok (main_fs es) ->
  walk_args (fun r => Some r) toy 9 (u_conf u) (main_fs es) [lit "/d"] = WOk l -> map fst l = ps -> map f_path (collected (w_conf (u_conf u)) l) = ps ->
  Forall (plain (chr ",")) ps -> g_sep (u_cfg u) = chr "," ->
  steady (main_world 4 (main_fs es) ok_hbeh) os GEof [lit "/d"] u /\ forall p, compared (main_world 4 (main_fs es) ok_hbeh) u [lit "/d"] p <-> In p ps.
Proof.
  intros PR NJ Nd A NO W LP CP PL SP. split.
  - constructor.
    + split; [exact PR|]. split; [exact NJ|]. split; [exact Nd|reflexivity].
    + split; [exact A|]. split; [repeat constructor|]. rewrite SP. discriminate.
    + apply main_quiet_ex.
    + split; [exact NO|]. intros a cs p i Ia T. rewrite SP. assert (I : In (p, i) l) by (apply (walk_exact _ _ _ _ _ _ _ _ W); exists a, cs; auto).
      apply (in_map fst) in I. rewrite LP in I. rewrite Forall_forall in PL. apply PL. exact I.
  - intro p. rewrite (proj1 (compared_collected (main_world 4 (main_fs es) ok_hbeh) u [lit "/d"] l 9 W) p). rewrite <- CP. rewrite in_map_iff. split; intros (x & X & Y); eauto.
Qed.
Example rounds_case : exists u t, rounds opt_comma GEof [lit "/d"] u 1 world1 world_less /\ steady world_less opt_comma GEof [lit "/d"] u /\
  copies world1 u [lit "/d"] (lit "abc") [lit "/d/a"; lit "/d/sub/b"] /\ copies world_less u [lit "/d"] (lit "abc") [lit "/d/sub/b"] /\
  ftwin_main world1 9 opt_comma GEof [lit "/d"] = Exit 0 (OText t) /\ removed (g_sep (u_cfg u)) t (lit "/d/a") /\
  ftwin_main world_less 9 opt_comma GEof [lit "/d"] = Exit 0 (OText []).
Proof.
  destruct (main_accepted 4 main_entries ok_hbeh opt_comma) as (u & A); [eexists; vm_compute; reflexivity|].
  assert (W : g_sep (u_cfg u) = chr "," /\ (exists l, walk_args (fun r => Some r) toy 9 (u_conf u) (main_fs main_entries) [lit "/d"] = WOk l /\
      map fst l = [lit "/d/a"; lit "/d/c"; lit "/d/sub/b"] /\ map f_path (collected (w_conf (u_conf u)) l) = [lit "/d/a"; lit "/d/c"; lit "/d/sub/b"]) /\
    exists l, walk_args (fun r => Some r) toy 9 (u_conf u) (main_fs less_entries) [lit "/d"] = WOk l /\
      map fst l = [lit "/d/c"; lit "/d/sub/b"] /\ map f_path (collected (w_conf (u_conf u)) l) = [lit "/d/c"; lit "/d/sub/b"]).
  { unfold accepted in A. vm_compute in A. injection A as <-. split; [reflexivity|]. split; (eexists; split; [vm_compute; reflexivity|]; split; vm_compute; reflexivity). }
  destruct W as (SP & (l & W & LP & CP) & (l' & W' & LP' & CP')).
  assert (PA : Forall (plain (chr ",")) [lit "/d/a"; lit "/d/c"; lit "/d/sub/b"]).
  { unfold plain. repeat (apply Forall_cons; [split; [discriminate|]; split; cbn; intuition discriminate|]). apply Forall_nil. }
  assert (PR : plain_run opt_comma) by (unfold plain_run, given; repeat split; intros (a & [X|[]]); discriminate X).
  assert (NJ : ~ given opt_comma "J") by (intros (a & [X|[]]); discriminate X). assert (Nd : ~ given opt_comma "d") by (intros (a & [X|[]]); discriminate X).
  destruct (steady_by main_entries opt_comma u l _ PR NJ Nd A main_names W LP CP PA SP) as (S1 & C1).
  destruct (steady_by less_entries opt_comma u l' _ PR NJ Nd A less_names W' LP' CP' (Forall_inv_tail PA) SP) as (S2 & C2). fold world_less in S2, C2. fold world1 in S1, C1.
  set (t := lit "/d/a,/d/sub/b" ++ [10; 10]%N).
  assert (E : ftwin_main world1 9 opt_comma GEof [lit "/d"] = Exit 0 (OText t)) by (vm_compute; reflexivity).
  assert (RA : removed (g_sep (u_cfg u)) t (lit "/d/a")).
  { rewrite SP. exists [lit "/d/a,/d/sub/b"; []], (lit "/d/a,/d/sub/b"), (lit "/d/sub/b"). split; [|split; [now left|split; [reflexivity|cbn; intuition discriminate]]].
    apply (lines_cons (lit "/d/a,/d/sub/b") [10%N] [[]]); [cbn; intuition discriminate|]. apply (lines_cons [] [] []); [intros []|constructor]. }
  assert (RC : ~ removed (g_sep (u_cfg u)) t (lit "/d/c")).
  { apply (one_round_partial _ _ world1 9%nat opt_comma GEof [lit "/d"] u t S1 E (lit "/d/c")); [apply C1; right; now left|].
    intros q Cq Eq. apply C1 in Cq. destruct Cq as [<-|[<-|[<-|[]]]]; [vm_compute in Eq; discriminate Eq|reflexivity|vm_compute in Eq; discriminate Eq]. }
  assert (RB : ~ removed (g_sep (u_cfg u)) t (lit "/d/sub/b")).
  { intro RB. destruct (one_round_partial _ _ world1 9%nat opt_comma GEof [lit "/d"] u t S1 E (lit "/d/a") (proj2 (C1 _) (or_introl eq_refl))) as (X & _).
    destruct X as (r & _ & _ & _ & U). { exists (lit "/d/sub/b"). split; [discriminate|]. split; [apply C1; right; right; now left|reflexivity]. }
    pose proof (U _ eq_refl RA) as X1. pose proof (U (lit "/d/sub/b") eq_refl RB) as X2. rewrite <- X2 in X1. discriminate X1. }
  exists u, t. split; [|split; [exact S2|split; [|split; [|split; [exact E|split; [exact RA|vm_compute; reflexivity]]]]]].
  - apply (rounds_more _ _ _ _ 0%nat world1 world_less world_less 9%nat t); [exact S1|exact E|reflexivity| |apply rounds_none]. intro p. rewrite C2, C1. split.
    + intros [<-|[<-|[]]]; (split; [cbn [In]; tauto|assumption]).
    + intros ([<-|[<-|[<-|[]]]] & N); [contradiction|now left|right; now left].
  - split; [repeat constructor; cbn; intuition discriminate|]. intro p. rewrite C1. split.
    + intros [<-|[<-|[]]]; (split; [cbn [In]; tauto|reflexivity]).
    + intros ([<-|[<-|[<-|[]]]] & X); [now left|vm_compute in X; discriminate X|right; now left].
  - split; [repeat constructor; cbn; intuition discriminate|]. intro p. rewrite C2. split.
    + intros [<-|[]]; (split; [cbn [In]; tauto|reflexivity]).
    + intros ([<-|[<-|[]]] & X); [vm_compute in X; discriminate X|now left].
Qed.
