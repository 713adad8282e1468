(** Which runs with -t are undefined (C89). *)
From Coq Require Import String Ascii.
From Verif Require Import Util HeapModel IgnoreModel HumanModel CollectModel ProcessModel ReportSpec ReportProofs ReportGroups PropReport FileModel PropFile PropEnd WalkModel PropWalk PropIgnore PropIgnoreFile PropRun
  ConfigModel PropConfig OutputModel PropOutput ImageModel PropImage FormatModel JsonModel PropJson MainModel PropMain.
Local Open Scope list_scope.
Local Open Scope Z_scope.

(** * Specification *)

(** two places of the list hold files within the limits that have one size *)
Definition same_size_twice (c : conf) (l : list (path * finfo)) : Prop :=
  exists l1 x l2 y l3, l = l1 ++ x :: l2 ++ y :: l3 /\ i_size (snd x) = i_size (snd y) /\
    within (cf_minsize c) (cf_maxsize c) (i_size (snd x)).

(** * Proofs *)

Lemma nodup_length (l : list Z) : length (nodup Z.eq_dec l) = length l <-> NoDup l.
Proof.
  split.
  - induction l as [|a l IH]; intros H; [constructor|]. cbn [nodup] in H. destruct (in_dec Z.eq_dec a l) as [I|I].
    + exfalso. assert (length (nodup Z.eq_dec l) <= length l)%nat.
      { apply NoDup_incl_length; [apply NoDup_nodup|]. intros x X. now apply nodup_In in X. }
      cbn [length] in H. lia.
    + cbn [length] in H. constructor; auto.
  - intros H. now rewrite nodup_fixed_point.
Qed.
Lemma dup_split {A} (f : A -> Z) : forall l, ~ NoDup (map f l) <-> exists l1 x l2 y l3, l = l1 ++ x :: l2 ++ y :: l3 /\ f x = f y.
Proof.
  intros l. split.
  - induction l as [|a l IH]; intros H; [exfalso; apply H; constructor|]. cbn [map] in H.
    destruct (in_dec Z.eq_dec (f a) (map f l)) as [I|I].
    + apply in_map_iff in I as (y & E & I). apply in_split in I as (l2 & l3 & ->). exists [], a, l2, y, l3. auto.
    + destruct IH as (l1 & x & l2 & y & l3 & -> & E); [intros X; apply H; now constructor|]. exists (a :: l1), x, l2, y, l3. auto.
  - intros (l1 & x & l2 & y & l3 & -> & E) H. rewrite map_app in H. cbn [map] in H. apply NoDup_remove_2 in H. apply H.
    rewrite in_app_iff. right. rewrite map_app. rewrite in_app_iff. right. cbn [map]. rewrite E. now left.
Qed.
Lemma filter_split {A} (p : A -> bool) l : forall l1 x l2, filter p l = l1 ++ x :: l2 ->
  exists m1 m2, l = m1 ++ x :: m2 /\ filter p m1 = l1 /\ filter p m2 = l2 /\ p x = true.
Proof.
  induction l as [|a l IH]; intros l1 x l2 H; cbn [filter] in H; [destruct l1; discriminate|].
  destruct (p a) eqn:P.
  - destruct l1 as [|b l1]; cbn [app] in H.
    + injection H as <- <-. exists [], l. auto.
    + injection H as <- H. destruct (IH _ _ _ H) as (m1 & m2 & -> & <- & <- & Px). exists (a :: m1), m2. cbn [filter app]. rewrite P. auto.
  - destruct (IH _ _ _ H) as (m1 & m2 & -> & <- & <- & Px). exists (a :: m1), m2. cbn [filter app]. rewrite P. auto.
Qed.
Lemma size_twice_exact c l : size_twice c l = true <-> same_size_twice c l.
Proof.
  unfold size_twice. cbv zeta. match goal with |- context [filter ?p l] => set (p0 := p) end.
  assert (W : forall e, p0 e = true <-> within (cf_minsize c) (cf_maxsize c) (i_size (snd e))) by (intros e; unfold p0, within; lia).
  transitivity (~ NoDup (map (fun e => i_size (snd e)) (filter p0 l))).
  { rewrite <- nodup_length. destruct (Nat.eqb_spec (length (nodup Z.eq_dec (map (fun e => i_size (snd e)) (filter p0 l)))) (length (map (fun e => i_size (snd e)) (filter p0 l)))) as [E|E]; cbn [negb].
    - split; [discriminate|]. intros X. exfalso. exact (X E).
    - split; auto. }
  rewrite dup_split. split.
  - intros (l1 & x & l2 & y & l3 & E & S). destruct (filter_split _ _ _ _ _ E) as (m1 & m & -> & _ & F & Px).
    destruct (filter_split _ _ _ _ _ F) as (m2 & m3 & -> & _ & _ & Py). exists m1, x, m2, y, m3. split; [reflexivity|]. split; [exact S|]. now apply W.
  - intros (m1 & x & m2 & y & m3 & -> & S & Wx). assert (Px : p0 x = true) by now apply W. assert (Py : p0 y = true) by (apply W; now rewrite <- S).
    exists (filter p0 m1), x, (filter p0 m2), y, (filter p0 m3). split; [|exact S].
    rewrite filter_app. cbn [filter]. rewrite Px, filter_app. cbn [filter]. now rewrite Py.
Qed.

Lemma report_no_subpath {R vec} (w : world R vec) g c l : report w g c l <> UndefSubpath.
Proof.
  assert (F : forall s o, finish s o <> UndefSubpath) by (intros [] o; discriminate).
  unfold report. cbv zeta. destruct (is_set _ OPTION_PUZZL); [destruct (run_image _ _ _ _ _ _) as [[? ?] ?]; auto|].
  destruct (is_set _ OPTION_JSON); auto. destruct (run_output _ _ _ _ _ _ _ _ _); auto.
Qed.

(** The field that is never set is read exactly when archive mode is asked for, the run is
    not on images, and two places of what the walk found hold files of one size. *)
Theorem archive_mode_undefined : forall R vec (w : world R vec) fuel os e args u bs,
  ~ given os "h" -> ~ given os "V" -> accepted w os e args u -> resolved w os args bs ->
  (ftwin_main w fuel os e args = UndefSubpath <->
   given os "t" /\ ~ given os "I" /\ exists l, walk_args (o_compile w) (o_exec w) fuel (u_conf u) (files w u) bs = WOk l /\ same_size_twice (w_conf (u_conf u)) l).
Proof.
  intros R vec w fuel os e args u bs Nh NV A RS. rewrite (main_processing w fuel os e args u Nh NV A). unfold processing. cbv zeta.
  destruct (accepted_cfg w os e args u A) as (P & _). destruct (settings_exact _ _ _ P).
  pose proof (resolved_traverse w os e args u bs fuel A RS) as T.
  destruct (traverse w fuel _ _ _) as [l|l| |] eqn:TE.
  - assert (TL := proj1 (T l) eq_refl). destruct (is_set (g_mask (u_cfg u)) OPTION_UNTAR) eqn:U; cbn [andb].
    + destruct (is_set (g_mask (u_cfg u)) OPTION_PUZZL) eqn:I; cbn [negb andb].
      * split; [intros X; now apply report_no_subpath in X|]. intros (_ & X & _). exfalso. tauto.
      * assert (NI : ~ given os "I") by (intros X; apply se_puzzl in X; discriminate).
        destruct (size_twice (w_conf (u_conf u)) l) eqn:S.
        -- split; [|reflexivity]. intros _. split; [now apply se_untar|]. split; [exact NI|]. exists l. split; [exact TL|]. now apply size_twice_exact.
        -- split; [intros X; now apply report_no_subpath in X|]. intros (_ & _ & l' & W & X). exfalso. rewrite TL in W. injection W as <-.
           apply size_twice_exact in X. congruence.
    + split; [intros X; now apply report_no_subpath in X|]. intros (X & _). apply se_untar in X. discriminate.
  - split; [discriminate|]. intros (_ & _ & l' & W & _). apply T in W. discriminate.
  - split; [discriminate|]. intros (_ & _ & l' & W & _). apply T in W. discriminate.
  - split; [discriminate|]. intros (_ & _ & l' & W & _). apply T in W. discriminate.
Qed.

(** two files of three bytes *)
Example archive_mode_case : exists u, accepted world1 [(chr "t", [])] GEof [lit "/d"] u /\ resolved world1 [(chr "t", [])] [lit "/d"] [lit "/d"] /\
  ftwin_main world1 9 [(chr "t", [])] GEof [lit "/d"] = UndefSubpath.
Proof.
  destruct (main_accepted 4 main_entries ok_hbeh [(chr "t", [])]) as (u & A); [eexists; vm_compute; reflexivity|].
  exists u. split; [exact A|]. split; [|vm_compute; reflexivity]. split.
  - intros (a & [X|[]]). discriminate.
  - intros _. reflexivity.
Qed.

Print Assumptions archive_mode_undefined.
