(** Property C169: a commit that fails has published nothing. *)
From Verif Require Import Util PageModel PageSpec PageProofs PageOps TxnModel CursorModel TreeModel TreeSpec PropPage TreeProofs TreeOps TreeSplit TreePut TreeShape TreeOrder TxnInv DbModel SysModel DbSpec DbProofs DbCommit PropCommit TreeTotal PropOrder PropTotal PropLoad PairInv PropPair PropFileLife PropTime PropFirst.
Local Open Scope N_scope.

(** ** Specification *)
(** this process reads as before, and so does the next one *)
Definition unpublished (E E' : env) : Prop :=
  (forall k, read_now E' k = read_now E k) /\
  exists E2, env_open (disk_of E') = Ok E2 /\ forall k, read_now E2 k = read_now E k.

(** ** Proof *)
(** A commit that is refused before it writes changes nothing. *)
Lemma refused_same E t fl E' e : db_commit E t fl = (E', Err e) -> (fl = None \/ fl = Some 0%nat) -> disk_of E' = disk_of E /\ e_live1 E' = e_live1 E.
Proof.
  unfold db_commit. intros H F. destruct (t_dirty t) as [|d0 ds]; [discriminate|]. destruct (populate_free_db page_alloc E t) as [fr t1|e1 t1| |]; try discriminate.
  - destruct (over_meta t1); [discriminate|]. destruct F as [->| ->]; [discriminate|]. destruct (Nat.ltb 0 _); [|discriminate]. cbv zeta in H. injection H as <- _.
    cbn [firstn fold_left disk_of e_file e_meta0 e_meta1 d_file d_meta0 d_meta1 e_live1]. auto.
  - injection H as <- _. auto.
Qed.
Lemma prefix_meta E t fr i b : (i <= length (t_dirty t) + 1)%nat -> meta_at (fold_left io_apply (firstn i (commit_ios E t fr)) (disk_of E)) b = meta_at (disk_of E) b.
Proof.
  intro L. apply pages_meta. unfold commit_ios. cbv zeta. rewrite firstn_app, map_length. apply Forall_app. split.
  - apply Forall_forall. intros o H. apply firstn_In in H. apply in_map_iff in H. destruct H as (x & <- & _). exact I.
  - assert (J : (i - length (t_dirty t) = 0 \/ i - length (t_dirty t) = 1)%nat) by lia. destruct J as [-> | ->]; cbn [firstn]; repeat constructor.
Qed.
Lemma same_unpublished E E' : good_metas (disk_of E) -> m_txnid (meta_at (disk_of E) (negb (e_live1 E))) < m_txnid (live_meta E) ->
  disk_of E' = disk_of E -> e_live1 E' = e_live1 E -> unpublished E E'.
Proof.
  intros G L D V. split; [intro k; apply read_now_same; assumption|]. destruct (reopen_newest E) as (E2 & O & D2 & V2); [rewrite live_meta_at; apply G|exact L|].
  exists E2. rewrite D. split; [exact O|]. intro k. apply read_now_same; assumption.
Qed.

(** ** C169 *)
(** Whatever has happened to the file before, if the newer meta page is the one in use: a commit
    that fails because it finds no room, or at its first file operation, has published nothing.
    If nothing is committed yet, this holds for a failure at any operation but the last. *)
Theorem failed_commit_partial : forall puts s h t fl E' e, life puts s -> wget (y_writers s) h = Some t ->
  m_txnid (meta_at (disk_of (y_env s)) (negb (e_live1 (y_env s)))) < m_txnid (live_meta (y_env s)) ->
  db_commit (y_env s) t fl = (E', Err e) ->
  (fl = None \/ fl = Some 0%nat -> unpublished (y_env s) E') /\
  (m_root (live_meta (y_env s)) = 0 ->
    (forall k, read_now E' k = Err NOTFOUND) /\
    (unpublished (y_env s) E' \/
     (* the sync after the new meta page has failed *)
     exists i E'' E2, fl = Some i /\ db_commit (y_env s) t (Some (S i)) = (E'', Ok tt) /\
       env_open (disk_of E') = Ok E2 /\ forall k, read_now E2 k = read_now E'' k)).
Proof.
  intros puts s h t fl E' e HL HW OL HC. pose proof (life_tinv _ _ HL) as T. pose proof (ti_good _ T) as G.
  destruct (DbProofs.iv_id _ (ti_inv _ T) _ _ (DbProofs.wget_in _ _ _ HW)) as (Id & _).
  split; [intro F; destruct (refused_same _ _ _ _ _ HC F); apply same_unpublished; assumption|]. intro R0.
  unfold db_commit in HC. destruct (t_dirty t) as [|d0 ds] eqn:HD; [discriminate|]. destruct (populate_free_db page_alloc (y_env s) t) as [fr t1|e1 t1| |] eqn:P; try discriminate.
  2: { injection HC as <- _. assert (U : unpublished (y_env s) (set_locked (y_env s) false)) by (apply same_unpublished; auto).
       split; [|left; exact U]. intro k. rewrite (proj1 U k). apply empty_reads, R0. }
  destruct (over_meta t1) eqn:OM; [discriminate|]. destruct fl as [i|]; [|discriminate]. cbv zeta in HC.
  destruct (Nat.ltb i (length (commit_ios (y_env s) t1 fr))) eqn:LI; [|discriminate]. apply Nat.ltb_lt in LI. injection HC as <- _.
  assert (LN : length (commit_ios (y_env s) t1 fr) = (length (t_dirty t1) + 3)%nat) by (rewrite ios_eq, app_length; unfold page_ios; rewrite map_length; reflexivity).
  set (D := fold_left io_apply (firstn i _) _). set (E' := mkEnv (d_file D) _ _ _ _ _).
  assert (DE : disk_of E' = D) by (unfold disk_of, E'; cbn [e_file e_meta0 e_meta1]; apply disk_eta).
  assert (LM : live_meta E' = live_meta (y_env s)).
  { rewrite !live_meta_at, DE. change (e_live1 E') with (e_live1 (y_env s)). apply ios_other. apply Forall_forall. intros o H. apply firstn_In in H.
    revert o H. apply Forall_forall. apply ios_touch. }
  assert (RE : forall k, read_now E' k = Err NOTFOUND) by (intro k; apply empty_reads; congruence).
  split; [exact RE|]. destruct (Nat.le_gt_cases i (length (t_dirty t1) + 1)) as [LE|GT].
  - left. split; [intro k; rewrite RE, empty_reads by exact R0; reflexivity|].
    destruct (reopen_mix (y_env s) D (older_settled _ G OL) (fun b => prefix_meta _ t1 fr i b LE)) as (E2 & O & LM2 & _).
    exists E2. rewrite DE. split; [exact O|]. intro k. rewrite !empty_reads by congruence. reflexivity.
  - right. assert (EI : (i = length (t_dirty t1) + 2)%nat) by lia.
    pose proof (ios_all (y_env s) t1 fr (disk_of (y_env s))) as A. cbn zeta in A. set (D' := fold_left _ (commit_ios _ _ _) _) in *. destruct A as (A1 & A2 & A3).
    assert (X : D = D').
    { unfold D, D'. rewrite ios_eq. replace i with (length (page_ios t1) + 2)%nat by (unfold page_ios; rewrite map_length; lia).
      rewrite firstn_app_2, !fold_left_app. reflexivity. }
    set (E'' := mkEnv (d_file D') (d_meta0 D') (d_meta1 D') (negb (e_live1 (y_env s))) (e_readers (y_env s)) false).
    assert (DE'' : disk_of E'' = D') by (unfold disk_of, E''; cbn [e_file e_meta0 e_meta1]; apply disk_eta).
    assert (LM'' : live_meta E'' = new_meta t1 fr) by (rewrite live_meta_at, DE''; exact A2).
    destruct (populate_id _ _ _ _ P) as (Id1 & _). destruct (reopen_newest E'') as (E2 & O & B & C).
    + rewrite LM''. apply new_meta_good.
    + rewrite LM'', DE''. cbn [E'' e_live1]. rewrite negb_involutive. cbn [new_meta m_txnid].
      assert (Y : meta_at D' (e_live1 (y_env s)) = live_meta (y_env s)) by (unfold D'; rewrite live_meta_at; apply ios_other; apply ios_touch). rewrite Y. lia.
    + exists i, E'', E2. split; [reflexivity|]. split.
      * unfold db_commit. rewrite P, OM, HD. cbv zeta. replace (Nat.ltb (S i) _) with false by (symmetry; apply Nat.ltb_ge; lia). reflexivity.
      * rewrite DE, X, <- DE''. split; [exact O|]. intro k. apply read_now_same; [rewrite B; reflexivity|exact C].
Qed.
Print Assumptions failed_commit_partial.

(** What is missing.  (1) The sync after the new meta page fails: the caller is told of an error
    and this process goes on with the old data, but the next process finds the new.  (2) A file
    that holds data: its pages are written in place, so that the failed change is seen at once. *)
Definition first_put : option sys := calls (start env_create) [BeginW 0; PutA 0 [97] [1]].
Definition second_put : option sys := calls (start env_create) [BeginW 0; PutA 0 [97] [1]; CommitW 0 None; BeginW 0; PutA 0 [97] [2]].
(** what [k] holds before the commit, what a commit failing at operation [i] returns, and what
    [k] then holds in this process and in the next one *)
Definition seen (s : sys) (i : nat) (k : bytes) : option (res bytes * res unit * res bytes * res bytes) :=
  match wget (y_writers s) 0 with
  | Some t => let c := db_commit (y_env s) t (Some i) in
    Some (read_now (y_env s) k, snd c, read_now (fst c) k, do E2 <- env_open (disk_of (fst c)) ;; read_now E2 k)
  | None => None
  end.
Definition newer_in_use (s : sys) : bool := m_txnid (meta_at (disk_of (y_env s)) (negb (e_live1 (y_env s)))) <? m_txnid (live_meta (y_env s)).
Lemma seen_is s i k a r b c : seen s i k = Some (a, Err r, b, Ok c) ->
  exists t E' E2, wget (y_writers s) 0 = Some t /\ read_now (y_env s) k = a /\ db_commit (y_env s) t (Some i) = (E', Err r) /\ read_now E' k = b /\
    env_open (disk_of E') = Ok E2 /\ read_now E2 k = Ok c.
Proof.
  unfold seen. destruct (wget (y_writers s) 0) as [t|]; [|discriminate]. cbv zeta. destruct (db_commit (y_env s) t (Some i)) as [E' q] eqn:C. cbn [fst snd]. intro H.
  destruct (env_open (disk_of E')) as [E2| | |] eqn:O; cbn [bindr] in H; try discriminate. assert (H1 := f_equal (fun o => match o with Some x => x | None => (a, Err r, b, Ok c) end) H).
  cbn iota in H1. apply pair_equal_spec in H1. destruct H1 as (H1 & H4). apply pair_equal_spec in H1. destruct H1 as (H1 & H3). apply pair_equal_spec in H1. destruct H1 as (H1 & H2).
  exists t, E', E2. rewrite H2 in C. auto 8.
Qed.
Lemma first_life s : first_put = Some s -> exists puts, life puts s.
Proof. unfold first_put. intro X. eexists. exact (calls_life _ _ _ _ life_new X). Qed.
Lemma second_life s : second_put = Some s -> exists puts, life puts s.
Proof. unfold second_put. intro X. eexists. exact (calls_life _ _ _ _ life_new X). Qed.
Lemma seen_in o i k a r b c : (forall s, o = Some s -> exists puts, life puts s) ->
  match o with Some s => seen s i k | None => None end = Some (a, Err r, b, Ok c) ->
  exists puts s t E' E2, life puts s /\ wget (y_writers s) 0 = Some t /\ read_now (y_env s) k = a /\ db_commit (y_env s) t (Some i) = (E', Err r) /\ read_now E' k = b /\
    env_open (disk_of E') = Ok E2 /\ read_now E2 k = Ok c.
Proof.
  intros L H. destruct o as [s|]; [|discriminate]. destruct (L s eq_refl) as (puts & HL). destruct (seen_is _ _ _ _ _ _ _ H) as (t & E' & E2 & X).
  exists puts, s, t, E', E2. split; [exact HL|exact X].
Qed.
Theorem failed_commit_refuted :
  (* the last operation of the first commit fails *)
  (exists puts s t E' E2, life puts s /\ wget (y_writers s) 0 = Some t /\ read_now (y_env s) [97] = Err NOTFOUND /\ db_commit (y_env s) t (Some 3%nat) = (E', Err EGENERAL) /\
     read_now E' [97] = Err NOTFOUND /\ env_open (disk_of E') = Ok E2 /\ read_now E2 [97] = Ok [1]) /\
  (* the sync of the pages of a later commit fails *)
  (exists puts s t E' E2, life puts s /\ wget (y_writers s) 0 = Some t /\ read_now (y_env s) [97] = Ok [1] /\ db_commit (y_env s) t (Some 2%nat) = (E', Err EGENERAL) /\
     read_now E' [97] = Ok [2] /\ env_open (disk_of E') = Ok E2 /\ read_now E2 [97] = Ok [2]).
Proof.
  assert (A : match first_put with Some s => seen s 3 [97] | None => None end = Some (Err NOTFOUND, Err EGENERAL, Err NOTFOUND, Ok [1])) by (vm_compute; reflexivity).
  assert (B : match second_put with Some s => seen s 2 [97] | None => None end = Some (Ok [1], Err EGENERAL, Ok [2], Ok [2])) by (vm_compute; reflexivity).
  split; [exact (seen_in first_put 3 [97] _ _ _ _ first_life A)|exact (seen_in second_put 2 [97] _ _ _ _ second_life B)].
Qed.
Print Assumptions failed_commit_refuted.

(** ** A concrete case *)
(** The first commit fails at each of its first three operations: the page, its sync and the
    meta page; and a commit on a file with data fails at its first. *)
Example failed_commit_case :
  match first_put, second_put with
  | Some s, Some s2 =>
      newer_in_use s = true /\ newer_in_use s2 = true /\ m_root (live_meta (y_env s)) = 0 /\
      map (fun i => seen s i [97]) [0%nat; 1%nat; 2%nat] = repeat (Some (Err NOTFOUND, Err EGENERAL, Err NOTFOUND, Err NOTFOUND)) 3 /\
      seen s 4 [97] = Some (Err NOTFOUND, Ok tt, Ok [1], Ok [1]) /\
      seen s2 0 [97] = Some (Ok [1], Err EGENERAL, Ok [1], Ok [1])
  | _, _ => False
  end.
Proof. vm_compute. repeat split; reflexivity. Qed.
