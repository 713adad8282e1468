(** Property C170: until a commit takes effect, a new database can be loaded, whatever failed. *)
From Verif Require Import Util PageModel PageSpec PageProofs PageOps TxnModel CursorModel TreeModel TreeSpec PropPage TreeProofs TreeOps TreeSplit TreePut TreeShape TreeOrder TxnInv DbModel SysModel DbSpec DbProofs DbCommit PropCommit TreeTotal PropOrder PropTotal PropLoad PairInv PropPair PropFileLife PropTime PropFirst PropFailedCommit.
From Coq Require Import Sorting.Sorted.
Local Open Scope N_scope.

(** ** Specification *)
(** a call that is not a commit, or a commit that returns an error *)
Definition no_success (s : sys) (a : act) : Prop :=
  match a with CommitW h fl => exists t E' e, wget (y_writers s) h = Some t /\ db_commit (y_env s) t fl = (E', Err e) | _ => True end.
(** What a new database can go through before a commit takes effect: calls of any threads, with
    every commit failing at whatever operation, in transactions that put and delete whatever;
    crashes in commits, and closing and opening, that find the state as it was. *)
Inductive unlucky : sys -> Prop :=
| un_new : unlucky (start env_create)
| un_call s a s' : unlucky s -> in_limits s a -> step s a = Some s' -> no_success s a -> unlucky s'
| un_reopen s E : unlucky s -> env_open (disk_of (y_env s)) = Ok E -> live_meta E = live_meta (y_env s) -> unlucky (start E)
| un_crash s h t fr t1 n keep E : unlucky s -> in_limits s (CommitW h None) -> wget (y_writers s) h = Some t ->
    populate_free_db page_alloc (y_env s) t = Ret fr t1 -> over_meta t1 = false ->
    env_open (crash_disk (disk_of (y_env s)) (commit_ios (y_env s) t1 fr) n keep) = Ok E -> live_meta E = live_meta (y_env s) -> unlucky (start E).

(** ** Proof *)
Lemma failed_live E t fl E' e : db_commit E t fl = (E', Err e) -> live_meta E' = live_meta E.
Proof.
  unfold db_commit. intro H. destruct (t_dirty t) as [|d0 ds]; [discriminate|]. destruct (populate_free_db page_alloc E t) as [fr t1|e1 t1| |]; try discriminate.
  2: { injection H as <- _. reflexivity. }
  destruct (over_meta t1); [discriminate|]. destruct fl as [i|]; [|discriminate]. cbv zeta in H. destruct (Nat.ltb i _); [|discriminate]. injection H as <- _.
  set (D := fold_left io_apply (firstn i _) _). set (E' := mkEnv (d_file D) _ _ _ _ _).
  assert (DE : disk_of E' = D) by (unfold disk_of, E'; cbn [e_file e_meta0 e_meta1]; apply disk_eta).
  rewrite !live_meta_at, DE. change (e_live1 E') with (e_live1 E). apply ios_other. apply Forall_forall. intros o Ho. apply firstn_In in Ho.
  revert o Ho. apply Forall_forall. apply ios_touch.
Qed.
Lemma call_live s a s' : step s a = Some s' -> no_success s a -> live_meta (y_env s') = live_meta (y_env s).
Proof.
  unfold step. destruct a as [h|h k v|h k data|h fl|h|h pid tid|h]; cbv zeta; intros H N.
  - destruct (wget _ h); [discriminate|]. destruct (begin_write (y_env s)) as [[E' t]|] eqn:B; [|discriminate]. injection H as <-. cbn [y_env].
    apply begin_fields in B. destruct B as (B & _). subst E'. reflexivity.
  - destruct (wget _ h) as [t|]; [|discriminate]. destruct (db_put _ _ _ _); try discriminate; injection H as <-; reflexivity.
  - destruct (wget _ h) as [t|]; [|discriminate]. destruct (db_del _ _ _ _); try discriminate; injection H as <-; reflexivity.
  - destruct N as (t & E' & e & W & C). rewrite W, C in H. injection H as <-. cbn [y_env]. exact (failed_live _ _ _ _ _ C).
  - destruct (wget _ h) as [t|]; [|discriminate]. injection H as <-. reflexivity.
  - destruct (rget _ h); [discriminate|]. destruct (begin_read (y_env s) pid tid) as [[E' t]| | |] eqn:B; try discriminate. injection H as <-. cbn [y_env].
    unfold begin_read in B. cbv zeta in B. destruct (fill_slot _ _ _ _) as [rs|]; [|discriminate]. injection B as <- _. reflexivity.
  - destruct (rget _ h) as [[[pid tid] t]|]; [|discriminate]. injection H as <-. reflexivity.
Qed.
Lemma unlucky_life s : unlucky s -> (exists puts, life puts s) /\ live_meta (y_env s) = live_meta env_create.
Proof.
  intro H. induction H as [|s a s' H ((puts & L) & M) IL S N|s E H ((puts & L) & M) O X|s h t fr t1 n keep E H ((puts & L) & M) IL W P OM O X].
  - split; [exists []; exact life_new|reflexivity].
  - split; [eexists; eapply life_call; eauto|]. rewrite (call_live _ _ _ S N). exact M.
  - split; [eexists; eapply life_reopen; eauto|]. cbn [start y_env]. congruence.
  - split; [eexists; eapply life_crash; eauto|]. cbn [start y_env]. congruence.
Qed.
Lemma life_file puts s : life puts s -> file_ok (e_file (y_env s)).
Proof.
  intro HL. pose proof (life_inv (fun _ _ => True) (fun _ _ _ => I) puts s HL (fun _ _ _ => I)) as [F _ _].
  intro q. destruct (F q) as [B|((W & _) & Q)]; [left; exact B|right; auto].
Qed.

(** ** C170 *)
(** The database then reads as empty, and when no write transaction is open, loading pairs in
    key order, of sizes that do not differ much, succeeds; afterwards exactly they are there. *)
Theorem load_after_failures : forall s, unlucky s ->
  (forall k, read_now (y_env s) k = Err NOTFOUND) /\
  (y_writers s = [] -> forall l ka kb sa sb, N.of_nat (length l) < 2 ^ 32 -> StronglySorted klt (map fst l) -> even_sizes ka kb sa sb l ->
     exists E', transact (y_env s) (puts l) = Ok E' /\
       forall k, blen k < 65536 -> read_now E' k = match lookup k l with Some v => Ok v | None => Err NOTFOUND end).
Proof.
  intros s H. destruct (unlucky_life s H) as ((ps & L) & M). split; [intro k; apply empty_reads; rewrite M; reflexivity|].
  intros W l ka kb sa sb Hc HS SZ. apply (bulk_load (y_env s) l ka kb sa sb); auto. pose proof (DbProofs.iv_lock _ (ti_inv _ (life_tinv _ _ L))) as LK. rewrite W in LK.
  unfold blank_db. rewrite M. change (m_root (live_meta env_create)) with 0. change (m_free (live_meta env_create)) with 0. change (m_last (live_meta env_create)) with 1.
  splits; auto; [exact (life_file _ _ L)|lia|lia].
Qed.
Print Assumptions load_after_failures.

(** ** A concrete case *)
(** A transaction puts a pair and its commit fails when the page is already written; a second
    one fails when the meta page is written, too; a third is aborted.  Then two pairs are
    loaded, of which one has the key of the failed ones. *)
Definition misfortunes : list act :=
  [BeginW 0; PutA 0 [97] [1]; CommitW 0 (Some 1%nat); BeginR 7 1 1; BeginW 0; PutA 0 [97] [2]; PutA 0 [98] [2]; CommitW 0 (Some 3%nat); BeginW 1; PutA 1 [99] [3]; AbortW 1].
Definition failsb (s : sys) (a : act) : bool :=
  match a with
  | CommitW h fl => match wget (y_writers s) h with Some t => match snd (db_commit (y_env s) t fl) with Err _ => true | _ => false end | None => false end
  | _ => true
  end.
Fixpoint bad_luck (s : sys) (l : list act) : option sys :=
  match l with
  | [] => Some s
  | a :: r => if limitsb s a && failsb s a then match step s a with Some s1 => bad_luck s1 r | None => None end else None
  end.
Lemma fails_ok s a : failsb s a = true -> no_success s a.
Proof.
  destruct a as [h|h k v|h k data|h fl|h|h pid tid|h]; cbn [failsb no_success]; auto. destruct (wget (y_writers s) h) as [t|]; [|discriminate].
  destruct (db_commit (y_env s) t fl) as [E' [ | e| | ]] eqn:C; cbn [snd]; try discriminate. intros _. exists t, E', e. auto.
Qed.
Lemma bad_luck_ok : forall l s s', unlucky s -> bad_luck s l = Some s' -> unlucky s'.
Proof.
  induction l as [|a l IH]; intros s s' U H; cbn [bad_luck] in H; [injection H as <-; exact U|].
  destruct (limitsb s a && failsb s a) eqn:B; [|discriminate]. apply andb_prop in B. destruct B as (B1 & B2). destruct (step s a) as [s1|] eqn:S; [|discriminate].
  apply (IH s1 s'); [|exact H]. exact (un_call s a s1 U (limitsb_ok _ _ B1) S (fails_ok _ _ B2)).
Qed.
Definition pair_list : list (bytes * bytes) := [([97], [5]); ([100], [6])].
Definition outcome (o : option sys) : option (list (res bytes) * list (res bytes)) :=
  match o with
  | Some s => match y_writers s, transact (y_env s) (puts pair_list) with
              | [], Ok E' => Some (map (read_now (y_env s)) [[97]; [98]], map (read_now E') [[97]; [98]; [100]])
              | _, _ => None
              end
  | None => None
  end.
Example retry_case : (forall s, bad_luck (start env_create) misfortunes = Some s -> unlucky s) /\
  StronglySorted klt (map fst pair_list) /\ even_sizes 1 1 2 2 pair_list /\
  outcome (bad_luck (start env_create) misfortunes) = Some ([Err NOTFOUND; Err NOTFOUND], [Ok [5]; Err NOTFOUND; Ok [6]]).
Proof.
  split; [intros s H; exact (bad_luck_ok misfortunes _ _ un_new H)|]. split; [cbn; repeat constructor|]. split; [|vm_compute; reflexivity].
  split; [apply balanced_same; lia|]. split; [apply balanced_same; lia|]. split; [lia|]. unfold pair_list. repeat (apply Forall_cons; [vm_compute; repeat split; discriminate|]). apply Forall_nil.
Qed.
