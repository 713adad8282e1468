(** Properties C13 to C21 and C53: the transaction life cycle of a database. *)
From Verif Require Import Util PageModel PageSpec PageOps TxnModel CursorModel TreeModel TreeSpec TreeProofs TreeOps TreeShape TxnInv DbModel SysModel DbSpec DbProofs DbCommit.
From Coq Require Import Permutation.
Local Open Scope N_scope.

(** ** C13 open selects the newest valid meta page *)
Theorem open_selects_newest : forall d,
  match env_open d with
  | Ok E => disk_of E = d /\ exists b, live_meta E = meta_at d b /\ good_meta (meta_at d b) /\
      (good_meta (meta_at d (negb b)) -> m_txnid (meta_at d (negb b)) <= m_txnid (meta_at d b))
  | Err e => e = EINVAL /\ ~ good_meta (d_meta0 d) /\ ~ good_meta (d_meta1 d)
  | UB | Fuel => False
  end.
Proof.
  intro d. assert (V : forall m, meta_valid m = true <-> good_meta m).
  { intro m. unfold meta_valid, good_meta. rewrite andb_true_iff, !N.eqb_eq. reflexivity. }
  unfold env_open, select_live. destruct d as [f m0 m1]. cbn [d_file d_meta0 d_meta1].
  destruct (meta_valid m0) eqn:V0, (meta_valid m1) eqn:V1; cbn [bindr].
  - split; [reflexivity|]. destruct (N.ltb_spec (m_txnid m1) (m_txnid m0)) as [L|L]; cbn [negb].
    + exists false. cbn. splits; [reflexivity|apply V; exact V0|intros _; lia].
    + exists true. cbn. splits; [reflexivity|apply V; exact V1|intros _; lia].
  - split; [reflexivity|]. exists false. cbn. splits; [reflexivity|apply V; exact V0|]. intro G. apply V in G. congruence.
  - split; [reflexivity|]. exists true. cbn. splits; [reflexivity|apply V; exact V1|]. intro G. apply V in G. congruence.
  - split; [reflexivity|]. split; intro G; apply V in G; congruence.
Qed.
Print Assumptions open_selects_newest.
(** a torn meta page 1 (wrong magic) leaves the older state *)
Example open_case : match env_open (mkDisk (fun _ => zero_page) (init_meta 7) (mkMeta 1 1 8 0 1 0)) with
  | Ok E => m_txnid (live_meta E) | _ => 0 end = 7.
Proof. reflexivity. Qed.

(** ** C14 commits alternate meta pages *)
(** Whatever happened before on an opened environment.  Missing: commits that write a tree
    page over a meta page, which the code can be brought to ([meta_page_overwritten_refuted],
    C133); their outcome in the model is UB. *)
Theorem commit_alternates_partial : forall E0 l s h t fail E' r,
  opened E0 -> reaches (start E0) l s -> In (h, t) (y_writers s) ->
  db_commit (y_env s) t fail = (E', r) -> r = Ok tt \/ (exists e, r = Err e) ->
  let E := y_env s in
  (* the live meta page is not touched, even if the commit fails half-way *)
  meta_at (disk_of E') (e_live1 E) = live_meta E /\
  (* nothing to write *)
  (t_dirty t = [] -> r = Ok tt /\ disk_of E' = disk_of E /\ live_meta E' = live_meta E) /\
  (* success: the other meta page becomes live, with the next transaction id *)
  (t_dirty t <> [] -> r = Ok tt ->
     e_live1 E' = negb (e_live1 E) /\ good_meta (live_meta E') /\ m_txnid (live_meta E') = m_txnid (live_meta E) + 1) /\
  (* failure: the old state stays live *)
  (r <> Ok tt -> live_meta E' = live_meta E).
Proof.
  intros E0 l s h t fail E' r O R W H Hr. cbn zeta.
  pose proof (reaches_inv _ _ _ R (start_inv _ O)) as I. destruct (iv_id _ I _ _ W) as (Id & _).
  assert (C : commit_case (y_env s) t E' r) by (eapply commit_cases; [exact H|destruct Hr as [->|Hr]; [left; eauto|right; exact Hr]]).
  pose proof (commit_lock _ _ _ _ C) as (_ & _ & M). pose proof (commit_live _ _ _ _ C) as CL.
  split; [exact M|]. split; [|split].
  - intro D. unfold db_commit in H. rewrite D in H. injection H as <- <-. auto.
  - intros D Hok. subst r. destruct CL as [CL|(fr & t1 & _ & _ & P & CM & L & _)].
    + exfalso. inversion C as [D0|e D0|n fr t1 E1 D0 P X Y L Rd K|fr t1 E1 D0 P X L Rd K]; subst; [congruence|].
      pose proof (ios_all (y_env s) t1 fr (disk_of (y_env s))) as A. cbn zeta in A. rewrite <- X in A. destruct A as (_ & A & _).
      rewrite live_meta_at, L, A in CL. apply (f_equal m_txnid) in CL. cbn [new_meta m_txnid] in CL. destruct (populate_id _ _ _ _ P). lia.
    + rewrite CM. split; [exact L|]. split; [split; reflexivity|]. cbn [new_meta m_txnid]. destruct (populate_id _ _ _ _ P). lia.
  - intro Hn. destruct CL as [CL|(fr & t1 & X & _)]; [exact CL|congruence].
Qed.
Print Assumptions commit_alternates_partial.

(** ** C19 one writer at a time *)
Theorem single_writer : forall E0 l s, opened E0 -> reaches (start E0) l s ->
  (length (y_writers s) <= 1)%nat /\ (begin_write (y_env s) = None <-> y_writers s <> []).
Proof.
  intros E0 l s O R. pose proof (reaches_inv _ _ _ R (start_inv _ O)) as I. split; [apply I|].
  unfold begin_write. rewrite (iv_lock _ I). destruct (y_writers s); split; congruence.
Qed.
Print Assumptions single_writer.
(** every way a commit or an abort can end releases the lock: the next begin does not block *)
Theorem lock_released : forall E0 l s a s', opened E0 -> reaches (start E0) l s -> step s a = Some s' ->
  (exists h, a = AbortW h) \/ (exists h fail, a = CommitW h fail) ->
  y_writers s' = [] /\ exists E1 t, begin_write (y_env s') = Some (E1, t).
Proof.
  intros E0 l s a s' O R H Ha. pose proof (reaches_inv _ _ _ R (start_inv _ O)) as I. pose proof (step_inv _ _ _ I H) as I'.
  assert (W : y_writers s' = []).
  { destruct Ha as [(h & ->)|(h & f & ->)]; cbn [step] in H; destruct (wget (y_writers s) h) as [t|] eqn:W; try discriminate.
    - injection H as <-. cbn [y_writers]. eapply wdel_one; [exact W|apply I].
    - destruct (db_commit (y_env s) t f) as [E' [x|e| |]]; try discriminate; injection H as <-; cbn [y_writers]; eapply wdel_one; try exact W; apply I. }
  split; [exact W|]. unfold begin_write. rewrite (iv_lock _ I'), W. eauto.
Qed.
Print Assumptions lock_released.

(** ** C18 uncommitted changes are private *)
Theorem uncommitted_private : forall s l s', reaches s l s' -> Forall uncommitted l ->
  disk_of (y_env s') = disk_of (y_env s) /\ live_meta (y_env s') = live_meta (y_env s) /\
  (forall k, read_now (y_env s') k = read_now (y_env s) k) /\
  (forall r k, t_rdonly r = true -> db_get (y_env s') r k = db_get (y_env s) r k).
Proof.
  intros s l s' R F. destruct (reaches_quiet _ _ _ R F) as (D & L). split; [exact D|]. split; [|split].
  - apply live_meta_same; assumption.
  - intro k. apply read_now_same; assumption.
  - intros r k Hr. apply db_get_view; [|reflexivity]. intro q. unfold get_page. rewrite Hr. injection D as D _ _. rewrite D. reflexivity.
Qed.
Print Assumptions uncommitted_private.

Definition op_of (h : N) (a : act) : Prop := match a with PutA h' _ _ | DelA h' _ _ => h' = h | _ => False end.
(** begin, any puts and deletes, abort: the environment is exactly the one before *)
Theorem abort_restores : forall E0 l0 s h l s', opened E0 -> reaches (start E0) l0 s ->
  reaches s (BeginW h :: l ++ [AbortW h]) s' -> Forall (op_of h) l -> s' = s.
Proof.
  intros E0 l0 s h l s' O R0 R F. pose proof (reaches_inv _ _ _ R0 (start_inv _ O)) as I.
  inversion R as [|s0 a s1 l1 s2 H R']; subst. clear R. cbn [step] in H.
  destruct (wget (y_writers s) h) eqn:W; [discriminate|]. unfold begin_write in H. destruct (e_locked (y_env s)) eqn:L; [discriminate|]. injection H as <-.
  pose proof (iv_lock _ I) as IL. rewrite L in IL. destruct (y_writers s) as [|w ws] eqn:Ws; [|discriminate]. clear IL.
  assert (G : forall t l s', Forall (op_of h) l -> reaches (mkSys (set_locked (y_env s) true) [(h, t)] (y_readers s)) (l ++ [AbortW h]) s' ->
    s' = mkSys (set_locked (y_env s) false) [] (y_readers s)).
  { clear. intros t l. revert t. induction l as [|a l IH]; intros t s' F R; cbn [app] in R; inversion R as [|s0 a0 s1 l1 s2 H R']; subst.
    - cbn [step y_writers y_env y_readers wget] in H. rewrite N.eqb_refl in H. injection H as <-. inversion R'; subst. unfold wdel. cbn [filter fst]. rewrite N.eqb_refl. reflexivity.
    - inversion F as [|? ? Ha F']; subst. destruct a as [h'|h' k v|h' k d|h' f|h'|h' p q|h']; cbn [op_of] in Ha; try destruct Ha.
      + cbn [step y_writers y_env y_readers wget] in H. rewrite N.eqb_refl in H.
        destruct (db_put _ t k v) as [x t'|e t'| |]; try discriminate; injection H as <-; unfold wset in R'; cbn [map fst] in R'; rewrite N.eqb_refl in R'; eapply IH; eauto.
      + cbn [step y_writers y_env y_readers wget] in H. rewrite N.eqb_refl in H.
        destruct (db_del _ t k d) as [x t'|e t'| |]; try discriminate; injection H as <-; unfold wset in R'; cbn [map fst] in R'; rewrite N.eqb_refl in R'; eapply IH; eauto. }
  rewrite (G _ _ _ F R'). destruct s as [E ws rs]. cbn [y_env y_writers y_readers] in *. subst ws. f_equal. destruct E. cbn in *. rewrite L. reflexivity.
Qed.
Print Assumptions abort_restores.

(** ** C16 committed data is durable *)
(** After a successful commit with changes, as long as no further commit starts, whatever
    else is called: reopening the file shows what a transaction begun right after the
    commit reads; so does a crash at the very end of the commit itself.  Missing: commits that
    write a tree page over a meta page (C133). *)
Theorem commit_durable_partial : forall E0 l s h t E1, opened E0 -> reaches (start E0) l s ->
  In (h, t) (y_writers s) -> t_dirty t <> [] -> db_commit (y_env s) t None = (E1, Ok tt) ->
  forall l2 s2, reaches (mkSys E1 (wdel (y_writers s) h) (y_readers s)) l2 s2 -> Forall uncommitted l2 ->
  exists E2, env_open (disk_of (y_env s2)) = Ok E2 /\ forall k, read_now E2 k = read_now E1 k.
Proof.
  intros E0 l s h t E1 O R W D H l2 s2 R2 F.
  pose proof (reaches_inv _ _ _ R (start_inv _ O)) as I. destruct (iv_id _ I _ _ W) as (Id & _).
  destruct (reaches_quiet _ _ _ R2 F) as (D2 & L2). cbn [y_env] in D2, L2. rewrite D2.
  destruct (commit_alternates_partial E0 l s h t None E1 (Ok tt) O R W H (or_introl eq_refl)) as (M & _ & S & _).
  destruct (S D eq_refl) as (A & B & C).
  destruct (reopen_newest E1) as (E2 & X & Y & Z).
  - exact B.
  - rewrite A, negb_involutive, M. lia.
  - exists E2. split; [exact X|]. intro k. apply read_now_same; assumption.
Qed.
Print Assumptions commit_durable_partial.
Theorem crash_at_end_durable_partial : forall E t fr t1 E' n keep,
  t_dirty t <> [] -> populate_free_db page_alloc E t = Ret fr t1 -> db_commit E t None = (E', Ok tt) ->
  (length (commit_ios E t1 fr) <= n)%nat -> crash_disk (disk_of E) (commit_ios E t1 fr) n keep = disk_of E'.
Proof.
  intros E t fr t1 E' n keep D P H L. rewrite crash_all by exact L.
  assert (C : commit_case E t E' (Ok tt)) by (eapply commit_cases; [exact H|left; eauto]).
  inversion C as [X|e X|n0 fr0 t0 E1 X P0 X1 X2 L0 R K|fr0 t0 E1 X P0 X1 L0 R K]; subst; [congruence|]. rewrite P in P0. injection P0 as <- <-. symmetry. exact X1.
Qed.
Print Assumptions crash_at_end_durable_partial.

(** ** C20 the reader table *)
Theorem reader_table_exact : forall E0 l s, opened E0 -> 0 < m_txnid (live_meta E0) -> reaches (start E0) l s ->
  Permutation (registered (y_env s)) (open_readers s) /\
  (length (open_readers s) <= 126)%nat /\
  (forall pid tid, (exists e, begin_read (y_env s) pid tid = Err e) <-> length (open_readers s) = 126%nat) /\
  (open_readers s = [] -> oldest_reader (e_readers (y_env s)) = 0) /\
  (open_readers s <> [] -> least (map s_txnid (open_readers s)) (oldest_reader (e_readers (y_env s)))).
Proof.
  intros E0 l s O Pz R. pose proof (reaches_inv _ _ _ R (start_inv _ O)) as I.
  destruct (reaches_rinv _ _ _ R (start_inv _ O) (start_rinv _ O Pz)) as (P1 & P2 & P3).
  assert (FL : forall rs : list rslot, (length (used rs) <= length rs)%nat /\ (length (used rs) = length rs -> used rs = rs)).
  { unfold used. induction rs as [|a rs IH]; cbn [filter length]; [auto|]. destruct IH as (A & B). destruct (negb (s_txnid a =? 0)%N); cbn [length]; split; try lia.
    intro H. f_equal. apply B. lia. }
  destruct (FL (e_readers (y_env s))) as (F1 & F2). pose proof (iv_len _ I) as IL. pose proof (Permutation_length P3) as PL. unfold registered in PL. fold (used (e_readers (y_env s))) in PL.
  assert (M126 : MAX_READERS = 126%nat) by reflexivity.
  splits.
  - exact P3.
  - rewrite <- PL. lia.
  - intros pid tid. unfold begin_read. split.
    + intros (e & H). destruct (fill_slot _ pid tid _) eqn:FS; [discriminate|]. apply fill_slot_none in FS. rewrite <- PL, FS. lia.
    + intro H. assert (U : used (e_readers (y_env s)) = e_readers (y_env s)) by (apply F2; lia).
      rewrite (proj2 (fill_slot_none (e_readers (y_env s)) pid tid (m_txnid (live_meta (y_env s)))) U). eauto.
  - intro H. rewrite H in P3. apply Permutation_sym, Permutation_nil in P3. unfold registered in P3. fold (used (e_readers (y_env s))) in P3.
    destruct (oldest_fold (e_readers (y_env s)) 0) as (_ & B). unfold oldest_reader. set (r := fold_left _ _ _) in *.
    destruct (N.eq_dec r 0) as [Z|Nz]; [exact Z|]. destruct (B Nz) as ([X|X] & _); [lia|]. rewrite P3 in X. destruct X.
  - intro H. destruct (oldest_fold (e_readers (y_env s)) 0) as (A & B). unfold oldest_reader. set (r := fold_left _ _ _) in *.
    unfold registered in P3. fold (used (e_readers (y_env s))) in P3.
    destruct (N.eq_dec r 0) as [Z|Nz].
    + exfalso. destruct (A Z) as (_ & U). rewrite U in P3. apply Permutation_nil in P3. congruence.
    + destruct (B Nz) as ([X|X] & _ & Y); [congruence|]. split.
      * apply (Permutation_in _ (Permutation_map s_txnid P3)). exact X.
      * intros x Hx. apply (Permutation_in _ (Permutation_sym (Permutation_map s_txnid P3))) in Hx. apply in_map_iff in Hx. destruct Hx as (z & <- & Hz). auto.
Qed.
Print Assumptions reader_table_exact.
(** three readers of two snapshots: the oldest is the first *)
Definition readers_run : list act :=
  [BeginR 1 5 1; BeginW 9; PutA 9 [97] [1]; CommitW 9 None; BeginR 2 5 2; BeginR 3 5 2].
Fixpoint run_acts (s : sys) (l : list act) : option sys :=
  match l with [] => Some s | a :: r => match step s a with Some s' => run_acts s' r | None => None end end.
Lemma run_reaches : forall l s s', run_acts s l = Some s' -> reaches s l s'.
Proof.
  induction l as [|a l IH]; intros s s' H; cbn [run_acts] in H; [injection H as <-; constructor|].
  destruct (step s a) as [s1|] eqn:S; [|discriminate]. econstructor; eauto.
Qed.
Definition get_sys (o : option sys) : sys := match o with Some s => s | None => start env_create end.
Definition is_some {T} (o : option T) : bool := match o with Some _ => true | None => false end.
Lemma some_sys o : is_some o = true -> o = Some (get_sys o).
Proof. destruct o; [reflexivity|discriminate]. Qed.
Definition readers_sys : sys := get_sys (run_acts (start env_create) readers_run).
Example readers_case : reaches (start env_create) readers_run readers_sys /\
  map s_txnid (open_readers readers_sys) = [2; 2; 1] /\ oldest_reader (e_readers (y_env readers_sys)) = 1.
Proof.
  split; [|split; vm_compute; reflexivity]. apply run_reaches. unfold readers_sys. apply some_sys. vm_compute. reflexivity.
Qed.
(** a writer with a changed page, with a reader beside it: a failing commit, a successful one
    whose file shows the data when reopened, and an abort all exist *)
Definition writer_run : list act := [BeginR 1 5 1; BeginW 9; PutA 9 [97] [1]; PutA 9 [98] [2]; DelA 9 [97] None].
Definition writer_sys : sys := get_sys (run_acts (start env_create) writer_run).
Definition first_writer (l : list (N * txn)) : txn := match l with (_, t) :: _ => t | [] => mkTxn true 0 0 0 [] 0 [] end.
Definition writer_txn : txn := first_writer (y_writers writer_sys).
Lemma first_in h l : match l with (h', _) :: _ => (h' =? h)%N | [] => false end = true -> In (h, first_writer l) l.
Proof. destruct l as [|(h', t) l]; intro H; [discriminate|]. apply N.eqb_eq in H. subst h'. left. reflexivity. Qed.
Definition commit_summary : bool :=
  match db_commit (y_env writer_sys) writer_txn None, db_commit (y_env writer_sys) writer_txn (Some 1%nat) with
  | (E', Ok tt), (E'', Err _) =>
      negb (Bool.eqb (e_live1 E') (e_live1 (y_env writer_sys))) && Bool.eqb (e_live1 E'') (e_live1 (y_env writer_sys)) &&
      match env_open (disk_of E') with
      | Ok E2 => match read_now E2 [98], read_now E2 [97] with Ok [2], Err _ => true | _, _ => false end
      | _ => false
      end
  | _, _ => false
  end.
Example writer_case : opened env_create /\ reaches (start env_create) writer_run writer_sys /\ In (9, writer_txn) (y_writers writer_sys) /\
  negb (match t_dirty writer_txn with [] => true | _ => false end) = true /\ commit_summary = true.
Proof.
  split; [left; reflexivity|]. split; [apply run_reaches; unfold writer_sys; apply some_sys; vm_compute; reflexivity|].
  split; [apply first_in|split]; vm_compute; reflexivity.
Qed.
Example abort_restores_case : exists s', reaches (start env_create) (BeginW 9 :: [PutA 9 [97] [1]; DelA 9 [97] None] ++ [AbortW 9]) s'.
Proof. exists (get_sys (run_acts (start env_create) (BeginW 9 :: [PutA 9 [97] [1]; DelA 9 [97] None] ++ [AbortW 9]))). apply run_reaches, some_sys. vm_compute. reflexivity. Qed.
