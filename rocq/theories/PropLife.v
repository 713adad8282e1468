(** Opening and closing a database, several processes, the lock of the cache: properties
    C95-C99. *)
From Verif Require Import Util PageModel PageOps TxnModel CursorModel TreeModel TreeSpec DbModel SysModel DbSpec DbProofs PropDb LifeModel.
Local Open Scope N_scope.

(** * Specification *)

(** apr_stat told the truth and nobody interferes between apr_stat and apr_file_open *)
Definition undisturbed (a : answers) (w : world) : Prop :=
  match a_stat a with SFound => w_file w <> None | SAbsent => w_file w = None | SError => True end.
(** every call succeeds *)
Definition all_well (a : answers) : Prop :=
  a_stat a <> SError /\ a_open a = true /\ a_trunc a = true /\ a_map a = true /\ a_offset a = true /\
  a_sync a = true /\ a_wlock a = true /\ a_rlock a = true.
(** a handle that is not in use *)
Definition unused (h : handle) : Prop := h_file h = false /\ h_mmap h = false.
(** a file that can hold the two meta pages, and a map that covers them *)
Definition large_enough (h : handle) (w : world) : Prop :=
  4096 < h_mapsize h /\ match w_file w with Some x => 4096 < x_len x | None => True end.
(** what a transaction begun in a freshly opened database reads *)
Definition stored (d : disk) (k : bytes) : option (res bytes) :=
  match env_open d with Ok E => Some (read_now E k) | _ => None end.

(** ** C95 opening leaves an existing database as it is *)
Theorem open_leaves_file_partial : forall a f h w x r h' w',
  undisturbed a w -> w_file w = Some x -> open_file a f h w = Done r h' w' -> w_file w' = Some x.
Proof.
  intros a f h w x r h' w' U X H. unfold open_file, file_open, mmap_file, meta_init, undo in H. unfold undisturbed in U.
  destruct (h_mapsize h =? 0); [injection H as <- <- <-; exact X|].
  destruct (a_stat a); [|congruence|injection H as <- <- <-; exact X]. rewrite X in H.
  destruct (a_open a); [|injection H as <- <- <-; exact X].
  destruct (a_map a); [|injection H as <- <- <-; exact X].
  destruct (a_offset a); [|injection H as <- <- <-; exact X].
  cbn [add_map add_fd w_file w_fds w_maps] in H. rewrite X in H. destruct (negb (meta_in_reach _ _)); [discriminate|].
  destruct (select_live _ _); try (injection H as <- <- <-; exact X).
  destruct (negb (a_wlock a) || negb (a_rlock a)); injection H as <- <- <-; exact X.
Qed.
Print Assumptions open_leaves_file_partial.

(** what the opened handle shows is the database of the file: the state that DbModel starts with *)
Theorem open_shows_database : forall a f h w x h' w',
  undisturbed a w -> w_file w = Some x -> open_file a f h w = Done None h' w' ->
  exists E, env_of h' w' = Some E /\ env_open (x_disk x) = Ok E.
Proof.
  intros a f h w x h' w' U X H. unfold open_file, file_open, mmap_file, meta_init, undo in H. unfold undisturbed in U.
  destruct (h_mapsize h =? 0); [discriminate|].
  destruct (a_stat a); [|congruence|discriminate]. rewrite X in H.
  destruct (a_open a); [|discriminate]. destruct (a_map a); [|discriminate]. destruct (a_offset a); [|discriminate].
  cbn [add_map add_fd w_file w_fds w_maps] in H. rewrite X in H. destruct (negb (meta_in_reach _ _)); [discriminate|].
  destruct (select_live _ _) as [l|e| |] eqn:SL; try discriminate.
  destruct (negb (a_wlock a) || negb (a_rlock a)); [discriminate|]. injection H as <- <-.
  eexists. split; [unfold env_of; cbn [h_set_live h_live add_map add_fd w_file h_set_mmap h_mmap]; rewrite X; reflexivity|].
  unfold env_open. rewrite SL. reflexivity.
Qed.
Print Assumptions open_shows_database.

(** a database that was not there is made: nothing is stored in it, and opening it again
    shows the same *)
Theorem open_creates : forall a f h w h' w',
  undisturbed a w -> w_file w = None -> open_file a f h w = Done None h' w' ->
  fl_create f = true /\ fl_rdonly f = false /\
  exists x E, w_file w' = Some x /\ x_len x = 8192 /\ env_of h' w' = Some E /\ env_open (x_disk x) = Ok E /\
    forall k, read_now E k = Err NOTFOUND.
Proof.
  intros a f h w h' w' U X H. unfold open_file, file_open, mmap_file, meta_init, undo in H. unfold undisturbed in U.
  destruct (h_mapsize h =? 0); [discriminate|].
  destruct (a_stat a); [congruence| |discriminate].
  destruct (fl_create f); [|discriminate]. destruct (a_open a); [|discriminate]. cbn [negb] in H.
  destruct (a_trunc a && negb (fl_rdonly f)) eqn:T; [|discriminate]. apply andb_true_iff in T. destruct T as (_ & T). apply negb_true_iff in T.
  destruct (a_map a); [|discriminate]. destruct (a_offset a); [|discriminate].
  cbn [add_map add_fd set_file w_file w_fds w_maps h_set_mmap h_set_file h_rdonly h_mapsize] in H.
  destruct (negb (meta_in_reach _ _)); [discriminate|]. rewrite T in H.
  destruct (a_sync a); [|discriminate].
  destruct (negb (a_wlock a) || negb (a_rlock a)); [discriminate|]. injection H as <- <-.
  splits; auto. eexists. eexists. splits; [reflexivity|reflexivity|reflexivity|reflexivity|].
  intro k. reflexivity.
Qed.
Print Assumptions open_creates.

(** Another process makes the database between apr_stat and apr_file_open, and stores
    something; the open then empties the file and reports success. *)
Definition other : env := match history env_create [[Put [97] [49]]] with Ok E => E | _ => env_create end.
Definition good (s : stat) : answers := mkAns s true true true true true true true.
Theorem open_empties_refuted :
  stored (disk_of other) [97] = Some (Ok [49]) /\
  match open_file (good SAbsent) (mkFlags false true) (fresh_handle 65536) (mkWorld (Some (mkFile 12288 (disk_of other))) 0 0) with
  | Done None _ w => match w_file w with Some x => stored (x_disk x) [97] = Some (Err NOTFOUND) | None => False end
  | _ => False
  end.
Proof. split; vm_compute; reflexivity. Qed.
Print Assumptions open_empties_refuted.

(** opening a database with something in it *)
Example open_leaves_case :
  undisturbed (good SFound) (mkWorld (Some (mkFile 12288 (disk_of other))) 0 0) /\
  match open_file (good SFound) (mkFlags false true) (fresh_handle 65536) (mkWorld (Some (mkFile 12288 (disk_of other))) 0 0) with
  | Done None h w => match env_of h w with Some E => read_now E [97] = Ok [49] | None => False end
  | _ => False
  end.
Proof. split; [discriminate|vm_compute; reflexivity]. Qed.
Example open_creates_case :
  match open_file (good SAbsent) (mkFlags false true) (fresh_handle 65536) (mkWorld None 0 0) with
  | Done None h w => (w_fds w, w_maps w, h_live h) = (1%nat, 1%nat, Some true) | _ => False end.
Proof. reflexivity. Qed.

(** ** C96 nothing stays open, and a failed open can be repeated *)
Theorem failed_open_closes : forall a f h w e h' w',
  unused h -> open_file a f h w = Done (Some e) h' w' ->
  unused h' /\ w_fds w' = w_fds w /\ w_maps w' = w_maps w.
Proof.
  intros a f h w e h' w' (HF & HM) H. unfold unused.
  unfold open_file, file_open, mmap_file, meta_init, undo in H.
  destruct (h_mapsize h =? 0); [injection H as <- <- <-; auto|].
  destruct (a_stat a).
  - destruct (w_file w) as [x|] eqn:X; [|injection H as <- <- <-; auto].
    destruct (a_open a); [|injection H as <- <- <-; auto].
    destruct (a_map a); [|injection H as <- <- <-; cbn; splits; auto; lia].
    destruct (a_offset a); [|injection H as <- <- <-; cbn; splits; auto; lia].
    cbn [add_map add_fd w_file w_fds w_maps] in H. rewrite X in H. destruct (negb (meta_in_reach _ _)); [discriminate|].
    destruct (select_live _ _); try (injection H as <- <- <-; cbn; splits; auto; lia).
    destruct (negb (a_wlock a) || negb (a_rlock a)); [|discriminate]. injection H as <- <- <-; cbn; splits; auto; lia.
  - destruct (fl_create f); [|injection H as <- <- <-; auto]. destruct (a_open a); [|injection H as <- <- <-; auto]. cbn [negb] in H.
    destruct (a_trunc a && negb (fl_rdonly f)); [|injection H as <- <- <-; cbn; splits; auto; lia].
    destruct (a_map a); [|injection H as <- <- <-; cbn; splits; auto; lia].
    destruct (a_offset a); [|injection H as <- <- <-; cbn; splits; auto; lia].
    cbn [add_map add_fd set_file w_file w_fds w_maps h_set_mmap h_set_file h_rdonly h_mapsize] in H.
    destruct (negb (meta_in_reach _ _)); [discriminate|]. destruct (fl_rdonly f); [discriminate|].
    destruct (a_sync a); [|injection H as <- <- <-; cbn; splits; auto; lia].
    destruct (negb (a_wlock a) || negb (a_rlock a)); [|discriminate]. injection H as <- <- <-; cbn; splits; auto; lia.
  - injection H as <- <- <-; auto.
Qed.
Print Assumptions failed_open_closes.
Example failed_open_case :
  match open_file (mkAns SFound true true true true true true false) (mkFlags false false) (fresh_handle 65536)
          (mkWorld (Some (mkFile 12288 (disk_of other))) 3 2) with
  | Done (Some LSys) h w => unused h /\ (w_fds w, w_maps w) = (3, 2)%nat | _ => False end.
Proof. vm_compute. auto. Qed.

(** after open and close nothing is left; closing once more does no harm *)
Theorem close_closes : forall a f h w h' w',
  unused h -> open_file a f h w = Done None h' w' ->
  let (h2, w2) := close_file h' w' in
  unused h2 /\ h_live h2 = None /\ w_fds w2 = w_fds w /\ w_maps w2 = w_maps w /\ w_file w2 = w_file w' /\ close_file h2 w2 = (h2, w2).
Proof.
  intros a f h w h' w' (HF & HM) H.
  assert (G : h_file h' = true /\ h_mmap h' = true /\ w_fds w' = S (w_fds w) /\ w_maps w' = S (w_maps w)).
  { unfold open_file, file_open, mmap_file, meta_init, undo in H.
    destruct (h_mapsize h =? 0); [discriminate|].
    destruct (a_stat a); [| |discriminate].
    - destruct (w_file w) as [x|] eqn:X; [|discriminate].
      destruct (a_open a); [|discriminate]. destruct (a_map a); [|discriminate]. destruct (a_offset a); [|discriminate].
      cbn [add_map add_fd w_file w_fds w_maps] in H. rewrite X in H. destruct (negb (meta_in_reach _ _)); [discriminate|].
      destruct (select_live _ _); try discriminate.
      destruct (negb (a_wlock a) || negb (a_rlock a)); [discriminate|]. injection H as <- <-; cbn; auto.
    - destruct (fl_create f); [|discriminate]. destruct (a_open a); [|discriminate]. cbn [negb] in H.
      destruct (a_trunc a && negb (fl_rdonly f)); [|discriminate].
      destruct (a_map a); [|discriminate]. destruct (a_offset a); [|discriminate].
      cbn [add_map add_fd set_file w_file w_fds w_maps h_set_mmap h_set_file h_rdonly h_mapsize] in H.
      destruct (negb (meta_in_reach _ _)); [discriminate|]. destruct (fl_rdonly f); [discriminate|].
      destruct (a_sync a); [|discriminate].
      destruct (negb (a_wlock a) || negb (a_rlock a)); [discriminate|]. injection H as <- <-; cbn; auto. }
  destruct G as (A & B & C & D). destruct h' as [ms ro hf hm hl]. cbn [h_file h_mmap] in A, B. subst hf hm.
  unfold close_file. cbn. unfold unused. cbn. splits; auto; lia.
Qed.
Print Assumptions close_closes.

(** A failed open of an existing file, or one that made no file, left the file as it was, so a
    further open finds what the first one found. *)
Theorem retry_partial : forall a f h w e h' w' a2 f2 h2,
  undisturbed a w -> w_file w <> None \/ fl_create f = false -> open_file a f h w = Done (Some e) h' w' ->
  all_well a2 -> undisturbed a2 w -> large_enough h2 w ->
  (exists x, w_file w = Some x /\ (good_meta (d_meta0 (x_disk x)) \/ good_meta (d_meta1 (x_disk x)))) \/
  (w_file w = None /\ fl_create f2 = true /\ fl_rdonly f2 = false) ->
  w_file w' = w_file w /\ exists h3 w3, open_file a2 f2 h2 w' = Done None h3 w3.
Proof.
  intros a f h w e h' w' a2 f2 h2 U CR H AW U2 (LM & LX) GD.
  assert (WF : w_file w' = w_file w).
  { destruct (w_file w) as [x|] eqn:X; [exact (open_leaves_file_partial _ _ _ _ _ _ _ _ U X H)|].
    destruct CR as [CR|CR]; [exfalso; apply CR; reflexivity|].
    unfold open_file, file_open in H. unfold undisturbed in U. destruct (h_mapsize h =? 0); [injection H as <- <- <-; exact X|].
    destruct (a_stat a); [congruence| |injection H as <- <- <-; exact X]. rewrite CR in H. injection H as <- <- <-. exact X. }
  split; [exact WF|]. destruct AW as (AS & AO & AT & AM & AF & AY & AL & AR).
  unfold open_file, file_open, mmap_file, meta_init, undo. replace (h_mapsize h2 =? 0) with false by (symmetry; apply N.eqb_neq; lia).
  unfold undisturbed in U2. destruct GD as [(x & X & G)|(X & FC & FR)].
  - rewrite X in U2, LX. destruct (a_stat a2); [|congruence|congruence]. rewrite WF, X, AO, AM, AF.
    cbn [add_map add_fd w_file w_fds w_maps]. rewrite WF, X.
    assert (MR : forall r f m l, meta_in_reach (mkHandle (h_mapsize h2) r f m l) x = true).
    { intros. unfold meta_in_reach. cbn [h_mapsize]. rewrite !andb_true_iff, !N.ltb_lt. splits; lia. }
    unfold h_set_mmap, h_set_file. cbn [h_mapsize h_rdonly h_file h_mmap h_live]. rewrite MR. cbn [negb].
    assert (SL : exists l, select_live (d_meta0 (x_disk x)) (d_meta1 (x_disk x)) = Ok l).
    { unfold select_live. destruct G as [G|G]; apply valid_good in G; rewrite G; [|destruct (meta_valid (d_meta0 _)); eauto].
      destruct (meta_valid (d_meta1 _)); eauto. }
    destruct SL as (l & ->). rewrite AL, AR. cbn [negb orb]. eauto.
  - destruct (a_stat a2); [congruence| |congruence]. rewrite FC, AO, AT, FR, AM, AF. cbn [negb andb].
    cbn [add_map add_fd set_file w_file w_fds w_maps h_set_mmap h_set_file h_rdonly h_mapsize x_len].
    assert (MR : forall r f m l, meta_in_reach (mkHandle (h_mapsize h2) r f m l) (mkFile 8192 zero_disk) = true).
    { intros. unfold meta_in_reach. cbn [h_mapsize x_len]. rewrite !andb_true_iff, !N.ltb_lt. splits; lia. }
    unfold h_set_mmap, h_set_file. cbn [h_mapsize h_rdonly h_file h_mmap h_live]. rewrite MR. cbn [negb].
    rewrite AY, AL, AR. cbn [negb orb]. eauto.
Qed.
Print Assumptions retry_partial.

(** If making a database fails at or before the mapping, the file that is left can never be
    opened: not by any later call, whatever its flags and however well the system works. *)
Theorem failed_creation_is_final : forall a f h w e h' w',
  undisturbed a w -> w_file w = None -> open_file a f h w = Done (Some e) h' w' -> w_file w' <> None ->
  a_trunc a && a_map a && a_offset a && negb (fl_rdonly f) = false ->
  forall a2 f2 h2 h3 w3, undisturbed a2 w' -> open_file a2 f2 h2 w' <> Done None h3 w3.
Proof.
  intros a f h w e h' w' U X H L HB a2 f2 h2 h3 w3 U2 H2.
  assert (G : exists n, w_file w' = Some (mkFile n zero_disk)).
  { unfold open_file, file_open, mmap_file, meta_init, undo in H. unfold undisturbed in U.
    destruct (h_mapsize h =? 0); [injection H as <- <- <-; congruence|].
    destruct (a_stat a); [congruence| |injection H as <- <- <-; congruence].
    destruct (fl_create f); [|injection H as <- <- <-; congruence]. destruct (a_open a); [|injection H as <- <- <-; congruence]. cbn [negb] in H.
    destruct (a_trunc a); cbn [andb] in *.
    - destruct (fl_rdonly f); cbn [negb] in *; [injection H as <- <- <-; eexists; reflexivity|].
      destruct (a_map a); [|injection H as <- <- <-; eexists; reflexivity].
      destruct (a_offset a); [discriminate|injection H as <- <- <-; eexists; reflexivity].
    - injection H as <- <- <-; eexists; reflexivity. }
  destruct G as (n & G). destruct (open_shows_database _ _ _ _ _ _ _ U2 G H2) as (E & _ & O). vm_compute in O. discriminate.
Qed.
Print Assumptions failed_creation_is_final.
(** out of memory while mapping a new database: the file of zeros that is left *)
Theorem retry_refuted :
  match open_file (mkAns SAbsent true true false true true true true) (mkFlags false true) (fresh_handle 65536) (mkWorld None 0 0) with
  | Done (Some LSys) h w =>
    match open_file (good SFound) (mkFlags false true) h w with
    | Done (Some LInval) _ w2 => match w_file w2 with Some x => x_len x = 8192 | None => False end
    | _ => False
    end
  | _ => False
  end.
Proof. vm_compute. reflexivity. Qed.
Print Assumptions retry_refuted.

(** ** C97 opening never crashes *)
Theorem open_defined_partial : forall a f h w,
  undisturbed a w -> large_enough h w -> open_file a f h w <> Crash.
Proof.
  intros a f h w U (LM & LX) H. unfold open_file, file_open, mmap_file, meta_init, undo in H. unfold undisturbed in U.
  destruct (h_mapsize h =? 0); [discriminate|].
  destruct (a_stat a); [| |discriminate].
  - destruct (w_file w) as [x|] eqn:X; [|discriminate].
    destruct (a_open a); [|discriminate]. destruct (a_map a); [|discriminate]. destruct (a_offset a); [|discriminate].
    cbn [add_map add_fd w_file w_fds w_maps] in H. rewrite X in H.
    assert (MR : forall r f m l, meta_in_reach (mkHandle (h_mapsize h) r f m l) x = true).
    { intros. unfold meta_in_reach. cbn [h_mapsize]. rewrite !andb_true_iff, !N.ltb_lt. splits; lia. }
    unfold h_set_mmap, h_set_file in H. cbn [h_mapsize h_rdonly h_file h_mmap h_live] in H. rewrite MR in H. cbn [negb] in H.
    destruct (select_live _ _); try discriminate. destruct (negb (a_wlock a) || negb (a_rlock a)); discriminate.
  - destruct (fl_create f); [|discriminate]. destruct (a_open a); [|discriminate]. cbn [negb] in H.
    destruct (a_trunc a); [|discriminate]. destruct (fl_rdonly f); [discriminate|]. cbn [negb andb] in H.
    destruct (a_map a); [|discriminate]. destruct (a_offset a); [|discriminate].
    cbn [add_map add_fd set_file w_file w_fds w_maps h_set_mmap h_set_file h_rdonly h_mapsize] in H.
    assert (MR : forall r f m l, meta_in_reach (mkHandle (h_mapsize h) r f m l) (mkFile 8192 zero_disk) = true).
    { intros. unfold meta_in_reach. cbn [h_mapsize x_len]. rewrite !andb_true_iff, !N.ltb_lt. splits; lia. }
    unfold h_set_mmap, h_set_file in H. cbn [h_mapsize h_rdonly h_file h_mmap h_live] in H. rewrite MR in H. cbn [negb] in H.
    destruct (a_sync a); [|discriminate]. destruct (negb (a_wlock a) || negb (a_rlock a)); discriminate.
Qed.
Print Assumptions open_defined_partial.
(** an existing file of at most one page, e.g. an empty one, kills every process that opens it;
    so does a map of at most one page *)
Theorem open_crash_refuted : forall a f h w x,
  all_well a -> undisturbed a w -> w_file w = Some x -> h_mapsize h <> 0 ->
  (x_len x <= 4096 \/ h_mapsize h <= 4096) <-> open_file a f h w = Crash.
Proof.
  intros a f h w x (AS & AO & AT & AM & AF & AY & AL & AR) U X HM.
  unfold open_file, file_open, mmap_file, meta_init, undo. replace (h_mapsize h =? 0) with false by (symmetry; apply N.eqb_neq; exact HM).
  unfold undisturbed in U. rewrite X in *. destruct (a_stat a); [|congruence|congruence]. rewrite AO, AM, AF.
  cbn [add_map add_fd w_file w_fds w_maps]. rewrite X.
  unfold h_set_mmap, h_set_file. cbn [h_mapsize h_rdonly h_file h_mmap h_live].
  destruct (meta_in_reach _ x) eqn:MR; cbn [negb]; unfold meta_in_reach in MR; cbn [h_mapsize] in MR.
  - apply andb_true_iff in MR. destruct MR as (MR & M4). apply andb_true_iff in MR. destruct MR as (MR & M3). apply andb_true_iff in MR. destruct MR as (M1 & M2).
    apply N.ltb_lt in M1, M2, M3, M4. split; [lia|].
    destruct (select_live _ _); rewrite ?AL, ?AR; discriminate.
  - split; [reflexivity|]. intros _. rewrite !andb_false_iff, !N.ltb_ge in MR. lia.
Qed.
Print Assumptions open_crash_refuted.
(** how such a file arises: NAPR_DB_RDONLY | NAPR_DB_CREATE on a file that does not exist *)
Theorem read_only_creation_refuted :
  match open_file (good SAbsent) (mkFlags true true) (fresh_handle 65536) (mkWorld None 0 0) with
  | Done (Some LSys) h w =>
    w_file w <> None /\ open_file (good SFound) (mkFlags true false) h w = Crash /\ open_file (good SFound) (mkFlags false true) h w = Crash
  | _ => False
  end.
Proof. vm_compute. splits; [discriminate|reflexivity|reflexivity]. Qed.
Print Assumptions read_only_creation_refuted.

(** ** C98 several processes share a database *)
(** no operation on the file fails during a commit *)
Definition undamaged (a : act) : Prop := match a with CommitW _ (Some _) => False | _ => True end.
Definition reopens (E : env) : Prop :=
  exists E2, env_open (disk_of E) = Ok E2 /\ disk_of E2 = disk_of E /\ e_live1 E2 = e_live1 E.

Lemma step_reopens s a s' : inv s -> undamaged a -> step s a = Some s' -> reopens (y_env s) -> reopens (y_env s').
Proof.
  intros I UD H (E2 & A & B & C).
  assert (Q : disk_of (y_env s') = disk_of (y_env s) /\ e_live1 (y_env s') = e_live1 (y_env s) -> reopens (y_env s')).
  { intros (D & L). exists E2. rewrite D, L. auto. }
  destruct a as [h|h k v|h k d|h fl|h|h pid tid|h]; try (apply Q; exact (live_of_step _ _ _ H Logic.I)).
  destruct fl as [n|]; [destruct UD|]. cbn [step] in H.
  destruct (wget (y_writers s) h) as [t|] eqn:W; [|discriminate]. destruct (iv_id _ I _ _ (wget_in _ _ _ W)) as (Id & _).
  destruct (db_commit (y_env s) t None) as [E' r] eqn:DC.
  assert (S' : y_env s' = E' /\ ((exists x, r = Ok x) \/ (exists e, r = Err e))).
  { destruct r; try discriminate; injection H as <-; cbn; eauto. }
  destruct S' as (S1 & S2). pose proof (commit_cases _ _ _ _ _ DC S2) as CC. rewrite S1 in *. clear H S1.
  remember (y_env s) as E eqn:HE. clear Q.
  inversion CC as [X Y1 Y2|e X Y1 Y2|n fr t1 E1 X P0 X1 X2 L0 R K|fr t1 E1 X P0 X1 L0 R K].
  - exists E2. auto.
  - exists E2. auto.
  - subst r. exfalso. unfold db_commit in DC. destruct (t_dirty t); [congruence|]. rewrite P0 in DC. destruct (over_meta t1); discriminate.
  - destruct (populate_id _ _ _ _ P0) as (Id1 & _).
    pose proof (ios_all E t1 fr (disk_of E)) as AA. cbn zeta in AA. rewrite <- X1 in AA. destruct AA as (_ & A1 & A2).
    unfold reopens. apply reopen_newest; rewrite live_meta_at, L0, A1.
    + split; reflexivity.
    + rewrite negb_involutive, A2, <- live_meta_at. cbn [new_meta m_txnid]. lia.
Qed.
Lemma reaches_reopens s l s' : reaches s l s' -> inv s -> Forall undamaged l -> reopens (y_env s) -> reopens (y_env s').
Proof.
  intro R. induction R as [s|s a s1 l s2 H R IH]; intros I F RO; [exact RO|]. inversion F; subst.
  apply IH; [eapply step_inv; eauto|assumption|eapply step_reopens; eauto].
Qed.
Lemma opened_reopens E : opened E -> reopens E.
Proof.
  intros [->|(d & O)]; [exists env_create; splits; reflexivity|]. exists E. pose proof (open_selects_newest d) as H. rewrite O in H. destruct H as (D & _).
  rewrite D. auto.
Qed.
Lemma reopens_stored E : reopens E -> forall k, stored (disk_of E) k = Some (read_now E k).
Proof. intros (E2 & A & B & C) k. unfold stored. rewrite A. f_equal. apply read_now_same; assumption. Qed.

(** One process, whatever its threads did and whatever transactions were open when it stopped:
    the next one that opens the file sees exactly what a new transaction of the first would see. *)
Theorem handover : forall E0 l s, opened E0 -> reaches (start E0) l s -> Forall undamaged l ->
  forall k, stored (disk_of (y_env s)) k = Some (read_now (y_env s) k).
Proof.
  intros E0 l s O R F. apply reopens_stored. eapply reaches_reopens; [exact R|apply start_inv; exact O|exact F|apply opened_reopens; exact O].
Qed.
Print Assumptions handover.

(** Processes that take turns: each opens the file and acts, and is not active any more when the
    next one opens it. *)
Fixpoint turns (i : nat) (ls : list (list act)) : list mact :=
  match ls with [] => [] | l :: r => MOpen :: map (MAct i) l ++ turns (S i) r end.

Lemma mrun_app l1 : forall m l2 m', mrun m (l1 ++ l2) = Some m' -> exists m1, mrun m l1 = Some m1 /\ mrun m1 l2 = Some m'.
Proof.
  induction l1 as [|x l1 IH]; intros m l2 m' H; cbn [app mrun] in *; [eauto|]. destruct (mdo m x); [|discriminate]. apply IH. exact H.
Qed.
Lemma with_disk_self s : with_disk (disk_of (y_env s)) s = s.
Proof. destruct s as [[] ? ?]. reflexivity. Qed.
Lemma upd_app_last {A} (ps : list A) (x y : A) : upd (ps ++ [x]) (length ps) y = ps ++ [y].
Proof. induction ps as [|a ps IH]; cbn [app length upd]; [reflexivity|]. f_equal. exact IH. Qed.
Lemma nth_app_last {A} (ps : list A) (x : A) : nth_error (ps ++ [x]) (length ps) = Some x.
Proof. rewrite nth_error_app2 by lia. rewrite Nat.sub_diag. reflexivity. Qed.

Lemma one_turn l : forall ps s m, mrun (mkMulti (disk_of (y_env s)) (ps ++ [s])) (map (MAct (length ps)) l) = Some m ->
  exists s', reaches s l s' /\ m = mkMulti (disk_of (y_env s')) (ps ++ [s']).
Proof.
  induction l as [|a l IH]; intros ps s m H; cbn [map mrun] in H.
  - injection H as <-. exists s. split; [constructor|reflexivity].
  - cbn [mdo] in H. unfold mstep in H. cbn [u_procs u_disk] in H. rewrite nth_app_last, with_disk_self in H.
    destruct (step s a) as [s1|] eqn:ST; [|discriminate]. rewrite upd_app_last in H.
    destruct (IH ps s1 m H) as (s' & R & E). exists s'. split; [econstructor; eauto|exact E].
Qed.

Theorem taking_turns_partial : forall ls l d m,
  Forall (Forall undamaged) (ls ++ [l]) -> mrun (mkMulti d []) (turns 0 (ls ++ [l])) = Some m ->
  exists s, nth_error (u_procs m) (length ls) = Some s /\
    forall k, stored (u_disk m) k = Some (read_now (y_env s) k).
Proof.
  assert (G : forall ls l d ps m, Forall (Forall undamaged) (ls ++ [l]) ->
    mrun (mkMulti d ps) (turns (length ps) (ls ++ [l])) = Some m ->
    exists s, nth_error (u_procs m) (length ps + length ls) = Some s /\ forall k, stored (u_disk m) k = Some (read_now (y_env s) k)).
  { induction ls as [|l1 ls IH]; intros l d ps m F H; cbn [app turns mrun mdo] in H; unfold mopen in H; cbn [u_disk u_procs] in H.
    - destruct (env_open d) as [E| | |] eqn:O; try discriminate. rewrite app_nil_r in H.
      pose proof (open_selects_newest d) as OS. rewrite O in OS. destruct OS as (D & _).
      replace d with (disk_of (y_env (start E))) in H by exact D.
      destruct (one_turn _ _ _ _ H) as (s & R & ->). cbn [u_procs u_disk length]. exists s. rewrite Nat.add_0_r. split; [apply nth_app_last|].
      eapply handover; [right; eauto|exact R|]. inversion F; assumption.
    - destruct (env_open d) as [E| | |] eqn:O; try discriminate.
      destruct (mrun_app _ _ _ _ H) as (m1 & H1 & H2).
      pose proof (open_selects_newest d) as OS. rewrite O in OS. destruct OS as (D & _).
      replace d with (disk_of (y_env (start E))) in H1 by exact D.
      destruct (one_turn _ _ _ _ H1) as (s & R & ->).
      replace (S (length ps)) with (length (ps ++ [s])) in H2 by (rewrite app_length; cbn; lia).
      destruct (IH l _ _ m (Forall_inv_tail F) H2) as (s2 & A & B).
      exists s2. split; [|exact B]. rewrite app_length in A. cbn [length] in A |- *. replace (length ps + S (length ls))%nat with (length ps + 1 + length ls)%nat by lia. exact A. }
  intros ls l d m F H. exact (G ls l d [] m F H).
Qed.
Print Assumptions taking_turns_partial.

(** Any number of processes at once, in any order, as long as none of them commits: the file
    does not change, and what process [i] reads is what the file stores. *)
Definition quiet (x : mact) : Prop := match x with MOpen => True | MAct _ a => uncommitted a end.
Definition proc_reads (m : multi) (i : nat) (k : bytes) : option (res bytes) :=
  match nth_error (u_procs m) i with Some s => Some (read_now (y_env (with_disk (u_disk m) s)) k) | None => None end.

Theorem shared_reading_partial : forall l d m, Forall quiet l -> mrun (mkMulti d []) l = Some m ->
  u_disk m = d /\ forall i k r, proc_reads m i k = Some r -> stored d k = Some r.
Proof.
  assert (G : forall l m0 m, Forall quiet l -> mrun m0 l = Some m ->
    (forall s, In s (u_procs m0) -> exists E, env_open (u_disk m0) = Ok E /\ e_live1 (y_env s) = e_live1 E) ->
    u_disk m = u_disk m0 /\ forall s, In s (u_procs m) -> exists E, env_open (u_disk m) = Ok E /\ e_live1 (y_env s) = e_live1 E).
  { induction l as [|x l IH]; intros m0 m F H P; cbn [mrun] in H.
    - injection H as <-. auto.
    - inversion F as [|? ? Qx F']; subst. destruct (mdo m0 x) as [m1|] eqn:MD; [|discriminate].
      assert (K : u_disk m1 = u_disk m0 /\ forall s, In s (u_procs m1) -> exists E, env_open (u_disk m1) = Ok E /\ e_live1 (y_env s) = e_live1 E).
      { destruct x as [|i a]; cbn [mdo] in MD.
        - unfold mopen in MD. destruct (env_open (u_disk m0)) as [E| | |] eqn:O; try discriminate. injection MD as <-. cbn [u_disk u_procs]. split; [reflexivity|].
          intros s Hs. apply in_app_or in Hs. destruct Hs as [Hs|[<-|[]]]; [rewrite O; destruct (P s Hs) as (E' & O' & L); injection O' as <-; eauto|].
          rewrite O. exists E. split; reflexivity.
        - unfold mstep in MD. destruct (nth_error (u_procs m0) i) as [s|] eqn:NE; [|discriminate].
          destruct (step (with_disk (u_disk m0) s) a) as [s'|] eqn:ST; [|discriminate]. injection MD as <-. cbn [u_disk u_procs].
          destruct (live_of_step _ _ _ ST Qx) as (D & L). cbn [with_disk y_env e_live1] in L.
          assert (D0 : disk_of (y_env (with_disk (u_disk m0) s)) = u_disk m0) by (unfold with_disk, disk_of; cbn; destruct (u_disk m0); reflexivity).
          rewrite D0 in D. rewrite D. split; [reflexivity|]. intros s2 Hs.
          apply In_nth_error in Hs. destruct Hs as (j & Hj). destruct (Nat.eq_dec j i) as [->|N].
          + rewrite nth_error_upd_eq in Hj by (apply nth_error_Some; congruence). injection Hj as <-. destruct (P s (nth_error_In _ _ NE)) as (E & O & LE). exists E. rewrite L, LE. auto.
          + rewrite nth_error_upd_neq in Hj by congruence. apply P. eapply nth_error_In; eauto. }
      destruct K as (K1 & K2). destruct (IH m1 m F' H K2) as (A & B). rewrite A, K1. rewrite A, K1 in B. auto. }
  intros l d m F H. destruct (G l _ m F H) as (A & B); [intros s []|]. cbn [u_disk] in A. split; [exact A|].
  intros i k r PR. unfold proc_reads in PR. destruct (nth_error (u_procs m) i) as [s|] eqn:NE; [|discriminate]. injection PR as <-.
  destruct (B s (nth_error_In _ _ NE)) as (E & O & L). rewrite A in O. unfold stored. rewrite O. f_equal. symmetry.
  pose proof (open_selects_newest d) as OS. rewrite O in OS. destruct OS as (D & _).
  apply read_now_same; [|exact L]. rewrite D, A. unfold with_disk, disk_of. cbn. destruct d; reflexivity.
Qed.
Print Assumptions shared_reading_partial.

(** what the file stores after a schedule *)
Definition after (l : list mact) (k : bytes) : option (res bytes) :=
  match mrun (mkMulti (disk_of env_create) []) l with Some m => stored (u_disk m) k | None => None end.
Definition write_one (i : nat) (k v : bytes) : list mact := [MAct i (BeginW 1); MAct i (PutA 1 k v); MAct i (CommitW 1 None)].

(** taking turns works *)
Example turns_case :
  after (turns 0 [[BeginW 1; PutA 1 [97] [49]; CommitW 1 None]; [BeginW 1; PutA 1 [98] [50]; CommitW 1 None]]) [97] = Some (Ok [49]) /\
  after (turns 0 [[BeginW 1; PutA 1 [97] [49]; CommitW 1 None]; [BeginW 1; PutA 1 [98] [50]; CommitW 1 None]]) [98] = Some (Ok [50]).
Proof. split; vm_compute; reflexivity. Qed.

(** Two processes have the database open; each commits one transaction, one after the other.
    The first commit is there, then it is gone. *)
Theorem lost_update_refuted :
  after ([MOpen; MOpen] ++ write_one 0 [97] [49]) [97] = Some (Ok [49]) /\
  after ([MOpen; MOpen] ++ write_one 0 [97] [49] ++ write_one 1 [98] [50]) [97] = Some (Err NOTFOUND) /\
  after ([MOpen; MOpen] ++ write_one 0 [97] [49] ++ write_one 1 [98] [50]) [98] = Some (Ok [50]).
Proof. splits; vm_compute; reflexivity. Qed.
Print Assumptions lost_update_refuted.
(** both are inside a write transaction at the same time *)
Theorem two_writers_refuted :
  match mrun (mkMulti (disk_of env_create) []) [MOpen; MOpen; MAct 0 (BeginW 1); MAct 1 (BeginW 1)] with
  | Some m => map (fun s => length (y_writers s)) (u_procs m) = [1; 1]%nat | None => False end.
Proof. vm_compute. reflexivity. Qed.
Print Assumptions two_writers_refuted.
(** a process that has the database open does not see the commit of another one *)
Theorem stale_process_refuted :
  match mrun (mkMulti (disk_of env_create) []) ([MOpen; MOpen] ++ write_one 0 [97] [49]) with
  | Some m => proc_reads m 0 [97] = Some (Ok [49]) /\ proc_reads m 1 [97] = Some (Err NOTFOUND) | None => False end.
Proof. vm_compute. auto. Qed.
Print Assumptions stale_process_refuted.

(** ** C99 a cache is open at most once *)
Definition crun (l : list cact) : locks := fold_left cdo l cnone.
(** process [pid] has a cache open *)
Definition has_open (k : locks) (pid : N) : Prop := exists h, In (pid, h) (k_open k).
(** no process opens the cache while it has it open *)
Fixpoint once_each (k : locks) (l : list cact) : Prop :=
  match l with
  | [] => True
  | a :: r => (match a with COpen pid _ _ => ~ has_open k pid | _ => True end) /\
              (match a with CClose pid h => In (pid, h) (k_open k) | _ => True end) /\ once_each (cdo k a) r
  end.
Definition sound (k : locks) : Prop :=
  match k_open k with [] => k_owner k = None | [(p, _)] => k_owner k = Some p | _ => False end.

Lemma cdo_sound k a : sound k -> (match a with COpen pid _ _ => ~ has_open k pid | _ => True end) ->
  (match a with CClose pid h => In (pid, h) (k_open k) | _ => True end) -> sound (cdo k a).
Proof.
  intros HS HO HC. destruct k as [o l]. unfold sound in *. cbn [k_open k_owner] in HS.
  destruct l as [|[p h0] [|? ?]]; [subst o|subst o|destruct HS].
  - destruct a as [pid h db|pid h|pid]; cbn; [destruct db; reflexivity|destruct HC|reflexivity].
  - destruct a as [pid h db|pid h|pid]; cbn [cdo cache_open cache_close cache_exit k_owner k_open snd].
    + destruct (N.eqb_spec p pid) as [->|N]; [exfalso; apply HO; exists h0; left; reflexivity|]. unfold drop. apply N.eqb_neq in N. rewrite N. reflexivity.
    + destruct HC as [HC|[]]. cbn in HC. injection HC as -> ->. unfold handle_eqb, drop. cbn [fst snd filter]. rewrite !N.eqb_refl. reflexivity.
    + unfold drop. cbn [filter fst]. destruct (p =? pid); reflexivity.
Qed.
Theorem cache_exclusive_partial : forall l, once_each cnone l ->
  let k := crun l in
  (length (k_open k) <= 1)%nat /\
  forall pid h db,
    (~ has_open k pid -> (fst (cache_open pid h db k) = OBusy <-> exists q, q <> pid /\ has_open k q)) /\
    (k_open k = [] -> db = true -> fst (cache_open pid h db k) = OOpen).
Proof.
  intros l H k.
  assert (SK : sound k).
  { unfold k, crun. assert (G : forall l k0, sound k0 -> once_each k0 l -> sound (fold_left cdo l k0)).
    { clear. induction l as [|a l IH]; intros k0 HS HO; [exact HS|]. destruct HO as (A & B & C). cbn [fold_left]. apply IH; [apply cdo_sound; assumption|exact C]. }
    apply G; [reflexivity|exact H]. }
  clearbody k. clear H l. destruct k as [o l]. unfold sound in SK. cbn [k_open k_owner] in *.
  destruct l as [|[p h0] [|? ?]]; [subst o|subst o|destruct SK].
  - split; [cbn; lia|]. intros pid h db. split; [|intros _ ->; reflexivity]. intros _. cbn. split; [destruct db; discriminate|]. intros (q & _ & (h' & [])).
  - split; [cbn; lia|]. intros pid h db. split; [|discriminate]. intro NO. unfold cache_open. cbn [k_owner k_open].
    destruct (N.eqb_spec p pid) as [->|N]; [exfalso; apply NO; exists h0; left; reflexivity|]. cbn [fst]. split; [|reflexivity].
    intros _. exists p. split; [exact N|]. exists h0. left. reflexivity.
Qed.
Print Assumptions cache_exclusive_partial.
Example exclusive_case : once_each cnone [COpen 1 1 true; COpen 2 1 true; CClose 1 1; COpen 2 2 true; CExit 2] /\
  k_open (crun [COpen 1 1 true; COpen 2 1 true; CClose 1 1; COpen 2 2 true]) = [(2, 2)].
Proof.
  split; [|reflexivity]. cbn. unfold has_open. cbn. splits; auto; intros (h & Hh); try destruct Hh as [Hh|[]]; try contradiction; try discriminate.
Qed.
(** ** C112 a cache nobody uses can be opened *)
(** After any history whatsoever: an open is refused as busy only while another process has the
    cache open, fails otherwise only if the database cannot be opened, and what it returns is
    what it did. *)
Theorem cache_open_outcome : forall l pid h db,
  let k := crun l in let (r, k') := cache_open pid h db k in
  (r = OBusy -> exists q, q <> pid /\ has_open k q) /\
  (r = OFail -> db = false) /\
  (r = OOpen -> db = true /\ k_open k' = (pid, h) :: k_open k /\ k_owner k' = Some pid) /\
  (r <> OOpen -> k_open k' = k_open k /\ k_owner k' <> Some pid).
Proof.
  intros l pid h db k.
  assert (SK : forall p, k_owner k = Some p -> has_open k p).
  { unfold k, crun. assert (G : forall l k0, (forall p, k_owner k0 = Some p -> has_open k0 p) -> forall p, k_owner (fold_left cdo l k0) = Some p -> has_open (fold_left cdo l k0) p).
    { clear. induction l as [|a l IH]; intros k0 HS; [exact HS|]. cbn [fold_left]. apply IH. clear IH l. intros p.
      assert (D : forall pid0 o, drop pid0 o = Some p -> o = Some p /\ p <> pid0).
      { intros pid0 [x|] X; cbn in X; [|discriminate]. destruct (N.eqb_spec x pid0); [discriminate|]. injection X as ->. auto. }
      destruct a as [pid h db|pid h|pid]; cbn [cdo].
      - unfold cache_open. destruct (k_owner k0) as [p0|] eqn:O.
        + destruct (N.eqb_spec p0 pid) as [->|N].
          * destruct db; cbn [snd k_owner k_open]; [intros X; injection X as ->; exists h; now left|]. intros X. apply D in X. destruct X as (X & Y). congruence.
          * cbn [snd k_owner k_open]. intros X. apply D in X. destruct X as (X & Y). injection X as ->. destruct (HS p eq_refl) as (h0 & I). now exists h0.
        + destruct db; cbn [snd k_owner k_open]; [intros X; injection X as ->; exists h; now left|discriminate].
      - cbn [cache_close k_owner k_open]. intros X. apply D in X. destruct X as (X & Y). destruct (HS p X) as (h0 & I). exists h0. apply filter_In. split; [exact I|].
        unfold handle_eqb. cbn [fst snd]. apply N.eqb_neq in Y. rewrite Y. reflexivity.
      - cbn [cache_exit k_owner k_open]. intros X. apply D in X. destruct X as (X & Y). destruct (HS p X) as (h0 & I). exists h0. apply filter_In. split; [exact I|].
        cbn [fst]. apply N.eqb_neq in Y. rewrite Y. reflexivity. }
    apply G. discriminate. }
  unfold cache_open. destruct (k_owner k) as [p|] eqn:O.
  - destruct (N.eqb_spec p pid) as [->|N].
    + destruct db; cbn [k_open k_owner]; (split; [discriminate|]); split; try discriminate; try reflexivity; split; try discriminate; intros Q.
      * splits; reflexivity.
      * now destruct Q.
      * split; [reflexivity|]. cbn [drop]. rewrite N.eqb_refl. discriminate.
    + cbn [k_open k_owner]. splits; try discriminate; intros _; [exists p; auto|]. split; [reflexivity|]. unfold drop. destruct (p =? pid); congruence.
  - destruct db; cbn [k_open k_owner]; (split; [discriminate|]); split; try discriminate; try reflexivity; split; try discriminate; intros Q.
    + splits; reflexivity.
    + now destruct Q.
    + split; [reflexivity|discriminate].
Qed.
Print Assumptions cache_open_outcome.
Example open_outcome_case :
  fst (cache_open 2 1 true (crun [COpen 1 1 true])) = OBusy /\ fst (cache_open 2 1 true (crun [COpen 1 1 true; CExit 1])) = OOpen /\
  fst (cache_open 2 1 false (crun [COpen 1 1 true; CClose 1 1])) = OFail.
Proof. splits; reflexivity. Qed.
(** One process opens it twice and succeeds; once it has closed one of the two, another process
    gets in although the first cache is still open.  A second open that fails does the same. *)
Theorem cache_exclusive_refuted :
  k_open (crun [COpen 1 1 true; COpen 1 2 true]) = [(1, 2); (1, 1)] /\
  k_open (crun [COpen 1 1 true; COpen 1 2 true; CClose 1 2; COpen 2 1 true]) = [(2, 1); (1, 1)] /\
  k_open (crun [COpen 1 1 true; COpen 1 2 false; COpen 2 1 true]) = [(2, 1); (1, 1)].
Proof. splits; reflexivity. Qed.
Print Assumptions cache_exclusive_refuted.
