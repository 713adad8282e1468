(** C34, C35, C36: the thread pool.  All theorems quantify over every schedule [tr] of
    the transition system of PoolModel, started by napr_threadpool_init. *)
From Verif Require Import Util PoolModel PoolSpec PoolProofs PoolLive PoolSafe.

(** C34, the part that holds in every use whatsoever (any number of clients, calls and
    spurious wakeups): the tasks handed to the callback form a subsequence of the tasks
    queued, so none is handed out twice or out of order; every callback that was started
    has finished or is still running, and each worker runs one callback at a time. *)
Theorem handed_at_most_once n scripts tr p :
  exec (pool_init n scripts) tr = Some p ->
  subseq (starts (log p)) (adds (log p)) /\
  (exists now, Permutation (starts (log p)) (finishes (log p) ++ now) /\ length now <= n) /\
  forall w, alternates w (of_worker w (log p)).
Proof.
  intros H. pose proof (gen_exec _ _ _ (gen_init n scripts) H) as G. split; [|split].
  - eapply subseq_drop_tail. apply (g_sub _ G).
  - exists (inproc (workers p)). split; [apply (g_perm _ G)|].
    assert (L : length (workers p) = n).
    { clear G. revert H. assert (X : length (workers (pool_init n scripts)) = n) by apply repeat_length.
      revert X. generalize (pool_init n scripts). induction tr as [|a tr IH]; intros q X H; cbn [exec] in H; [injection H as <-; auto|].
      destruct (step q a) as [q'|] eqn:S; [|discriminate]. apply (IH q'); auto. rewrite <- X. clear -S.
      assert (WT : forall q i, length (workers (wait_for_task q i)) = length (workers q)).
      { intros r i. unfold wait_for_task. destruct (_ && _ && _); cbn [workers]; now rewrite length_upd, ?map_length. }
      assert (SE : forall q i, length (workers (section q i)) = length (workers q)).
      { intros r i. unfold section. destruct (shut r); [cbn [workers]; now rewrite length_upd|]. destruct (ended r); [apply WT|].
        destruct (drop_null (queue r)); [now rewrite WT | cbn [workers]; now rewrite length_upd]. }
      destruct a as [i|j|j ws cs|i|j]; cbn [step] in S.
      - unfold worker_step in S. destruct (nth_error (workers q) i) as [[]|]; try discriminate; injection S as <-; rewrite ?SE; auto.
        cbn [workers]. now rewrite length_upd.
      - unfold client_step in S. destruct (nth_error (clients q) j) as [[pc s]|]; [|discriminate]. cbn [c_pc c_script] in S.
        destruct pc; destruct s as [|[] s]; try discriminate; try (destruct (_ || _)); try (destruct (forallb _ _); [|discriminate]);
          injection S as <-; cbn [workers]; rewrite ?map_length; auto.
      - unfold signal_step in S. destruct (nth_error (clients q) j) as [[pc s]|]; [|discriminate]. destruct pc; try discriminate.
        destruct (_ || _); [|discriminate]. injection S as <-. cbn [workers]. apply (woken_length wake_w), woken_map_at, wake_w_idem.
      - destruct (at_pc _ _ _); [|discriminate]. injection S as <-. cbn [workers]. now rewrite length_upd.
      - destruct (nth_error (clients q) j) as [[pc s]|]; [|discriminate]. destruct pc; try discriminate. injection S as <-. auto. }
    rewrite <- L. clear. induction (workers p) as [|w l IH]; auto. cbn [inproc flat_map]. rewrite app_length. fold (inproc l). destruct w; cbn [ip length]; lia.
  - intros w. destruct (g_alt _ G w) as (m & P & ->). apply alternates_pair; auto.
    destruct (nth_error (workers p) w) as [[]|]; cbn; auto.
Qed.

(** C34 with completeness: one client thread makes all calls (ft_process.c:171-241), it
    waits before it shuts the pool down, its wait does not return spuriously and fewer
    than 2^32 tasks are queued.  When no thread can move any more, the tasks handed to
    the callback are exactly the tasks queued, in that order, and all have completed.
    Until then the tasks handed out are a prefix of those queued.
    Missing for the full claim: several client threads and spurious wakeups of the
    waiter; see [handed_exactly_once_refuted]. *)
Theorem handed_exactly_once_partial n s tr p :
  1 <= n -> waits_before_shutdown s -> (N.of_nat (nb_adds s) < 2 ^ 32)%N ->
  no_waiter_spurious tr -> exec (pool_init n [s]) tr = Some p ->
  (exists rest, adds (log p) = starts (log p) ++ rest) /\
  ((forall a, spurious a = false -> step p a = None) ->
   starts (log p) = adds (log p) /\ Permutation (finishes (log p)) (adds (log p))).
Proof.
  intros N1 W L NS H.
  destruct (safe_exec n tr (pool_init n [s]) p) as (I & G & S); auto using gen_init, safe_init.
  { apply init_inv; auto using wbs_shutdown_last. }
  split; [exists (nn (queue p)); apply (f_add _ S)|]. intros ST.
  destruct (progress n p N1 I) as [(a & p' & SA & E)|[AR A0]]; [rewrite ST in E by auto; discriminate|].
  destruct (f_one _ S) as [c OC].
  assert (C : c = mkC CRun []) by (apply AR; rewrite OC; now left). subst c.
  assert (Q : queue p = []).
  { destruct (shut p) eqn:SH; [now apply (f_quiet _ S); left|].
    destruct (queue p) eqn:Q; auto. exfalso. destruct (i_queue _ _ I) as [|[X|(s' & X)]]; try rewrite Q; try discriminate; auto; try lia.
    - rewrite OC in X. cbn in X. lia.
    - rewrite OC in X. discriminate. }
  assert (B : cnt busy (workers p) = 0) by (pose proof (busy_active (workers p)); lia).
  split.
  - rewrite (f_add _ S), Q. cbn [nn filter]. now rewrite app_nil_r.
  - symmetry. apply quiet_done; auto. + apply (f_add _ S). + split; auto.
Qed.

(** C35 under the same conditions: whenever napr_threadpool_wait has returned, the tasks
    completed before that moment are exactly the tasks added before it.
    Missing for the full claim: as above; see [wait_returns_after_all_refuted]. *)
Theorem wait_returns_after_all_partial n s tr p :
  1 <= n -> waits_before_shutdown s -> (N.of_nat (nb_adds s) < 2 ^ 32)%N ->
  no_waiter_spurious tr -> exec (pool_init n [s]) tr = Some p ->
  forall before after c, log p = before ++ EWaitRet c :: after ->
  Permutation (adds before) (finishes before).
Proof.
  intros N1 W L NS H before after c E.
  destruct (safe_exec n tr (pool_init n [s]) p) as (I & G & S); auto using gen_init, safe_init.
  { apply init_inv; auto using wbs_shutdown_last. }
  eapply (f_waits _ S); eauto.
Qed.

(** C36: one client may wait and finally shut the pool down, any number of others may add
    tasks at the same time, condition waits may return spuriously.  In every reachable
    state either some thread can take a step of its own, or every call has returned. *)
Theorem pool_progress n s0 ss tr p :
  1 <= n -> shutdown_last s0 -> Forall only_adds ss ->
  exec (pool_init n (s0 :: ss)) tr = Some p ->
  (exists a p', spurious a = false /\ step p a = Some p') \/ all_returned p.
Proof.
  intros N1 S0 SS H. destruct (progress n p N1) as [|[R _]]; auto.
  eapply exec_inv; [auto | | exact H]. now apply init_inv.
Qed.
(** ... and no schedule goes on for ever without spurious wakeups, whatever the clients
    do: a schedule is at most as long as a number computed from the calls, plus twice
    the number of its spurious wakeups. *)
Theorem pool_terminates n scripts tr p :
  exec (pool_init n scripts) tr = Some p ->
  length tr <= 2 * n + 1 + fold_right (fun c s => callm n c + s) 0 (concat scripts) +
               2 * length (filter spurious tr).
Proof.
  intros H. pose proof (exec_measure tr _ _ H) as M. unfold cnt in M.
  assert (X : measure (pool_init n scripts) = 2 * n + 1 + fold_right (fun c s => callm n c + s) 0 (concat scripts)).
  { unfold measure, pool_init. cbn [workers clients queue ended length]. rewrite repeat_length.
    assert (A : sum wm (repeat WStart n) = n) by (clear; induction n; cbn [repeat sum fold_right wm] in *; unfold sum in *; lia). rewrite A.
    assert (B : sum (clm n) (map (mkC CRun) scripts) = fold_right (fun c s => callm n c + s) 0 (concat scripts)).
    { clear. induction scripts as [|s l IH]; auto. cbn [map sum fold_right concat]. unfold sum in IH. rewrite IH. unfold clm. cbn [c_pc c_script pcm].
      rewrite fold_right_app. generalize (fold_right (fun c s0 => callm n c + s0) 0 (concat l)). intros k. unfold sum.
      induction s as [|c s IHs]; cbn [fold_right]; lia. }
    rewrite B. lia. }
  lia.
Qed.
(** Both together: from every reachable state all calls can still return, and every
    schedule that cannot be continued has made them return. *)
Theorem pool_completes n s0 ss tr p :
  1 <= n -> shutdown_last s0 -> Forall only_adds ss ->
  exec (pool_init n (s0 :: ss)) tr = Some p ->
  (exists tr' p', no_spurious tr' /\ exec p tr' = Some p' /\ all_returned p') /\
  ((forall a, spurious a = false -> step p a = None) -> all_returned p).
Proof.
  intros N1 S0 SS H. assert (I : Inv n p) by (eapply exec_inv; [auto | | exact H]; now apply init_inv).
  split.
  - now apply (completes n (measure p)).
  - intros ST. destruct (progress n p N1 I) as [(a & p' & SA & E)|[AR A0]]; auto. rewrite ST in E by auto. discriminate.
Qed.

(** * Where the claims fail *)
(** A spurious return of the condition wait in napr_threadpool_wait, which is not in a
    loop (napr_threadpool.c:294): wait returns at once and the queued task is deleted
    with the list (line 310), so it is never processed. *)
Definition spurious_run : list act :=
  [Client 0; Signal 0 [] []; Client 0; SpuriousClient 0; Client 0; Worker 0].
Theorem wait_returns_after_all_refuted :
  exists p, exec (pool_init 1 [[Add 7; Wait]]) spurious_run = Some p /\
    log p = [EAdd 0 7; EWaitRet 0] /\ queue p = [] /\ workers p = [WWait] /\ all_returned p /\
    forall a, spurious a = false -> step p a = None.
Proof.
  eexists. split; [vm_compute; reflexivity|]. repeat split; try reflexivity.
  - intros c [<-|[]]. reflexivity.
  - intros [[|[|i]]|[|[|j]]|[|[|j]] ws cs|i|j] H; try discriminate; reflexivity.
Qed.
(** The same loss without spurious wakeups when a second thread adds a task: the signal
    of napr_threadpool_add may wake the waiter instead of a worker. *)
Definition two_clients_run : list act :=
  [Client 0; Signal 0 [] []; Client 0; Client 1; Signal 1 [] [0]; Client 0; Worker 0].
Theorem handed_exactly_once_refuted :
  exists p, exec (pool_init 1 [[Add 7; Wait]; [Add 8]]) two_clients_run = Some p /\
    no_spurious two_clients_run /\
    log p = [EAdd 0 7; EAdd 1 8; EWaitRet 0] /\ queue p = [] /\ all_returned p /\
    forall a, spurious a = false -> step p a = None.
Proof.
  eexists. split; [vm_compute; reflexivity|]. repeat split; try reflexivity.
  - repeat constructor.
  - intros c [<-|[<-|[]]]; reflexivity.
  - intros [[|[|i]]|[|[|[|j]]]|[|[|[|j]]] ws cs|i|j] H; try discriminate; reflexivity.
Qed.
(** Two clients waiting at the same time can deadlock: the one woken by a signal clears
    [run], after which no worker wakes the other. *)
Definition two_waiters_run : list act :=
  [Client 0; Signal 0 [] []; Worker 0; Client 0; Client 1; Client 2; Signal 2 [] [0]; Client 0; Worker 0; Worker 0].
Theorem two_waiters_deadlock :
  exists p, exec (pool_init 1 [[Add 7; Wait]; [Wait]; [Add 8]]) two_waiters_run = Some p /\
    no_spurious two_waiters_run /\ nth_error (clients p) 1 = Some (mkC CWait []) /\
    forall a, spurious a = false -> step p a = None.
Proof.
  eexists. split; [vm_compute; reflexivity|]. repeat split; try reflexivity.
  - repeat constructor.
  - intros [[|[|i]]|[|[|[|[|j]]]]|[|[|[|[|j]]]] ws cs|i|j] H; try discriminate; reflexivity.
Qed.
(** A pool without workers never completes a wait; option -j rejects 0 (ft_config.c:449). *)
Theorem no_workers_deadlock :
  exists p, exec (pool_init 0 [[Add 7; Wait]]) [Client 0; Signal 0 [] []; Client 0] = Some p /\
    nth_error (clients p) 0 = Some (mkC CWait []) /\ forall a, spurious a = false -> step p a = None.
Proof.
  eexists. split; [vm_compute; reflexivity|]. repeat split; try reflexivity.
  intros [[|i]|[|[|j]]|[|[|j]] ws cs|i|j] H; try discriminate; reflexivity.
Qed.

(** * The hypotheses are met *)
(** two workers, three tasks, wait, shutdown; a schedule in which both workers take part *)
Definition run3 : list act :=
  [Worker 0; Client 0; Signal 0 [0] []; Client 0; Worker 1; Signal 0 [] []; Worker 0; Client 0; Signal 0 [] [];
   Client 0; Worker 1; Worker 1; Worker 0; Worker 1; Worker 1; Worker 0; Client 0; Client 0; Worker 0; Worker 1; Client 0].
Example run3_complete :
  exists p, exec (pool_init 2 [[Add 7; Add 8; Add 9; Wait; Shutdown]]) run3 = Some p /\
    log p = [EAdd 0 7; EAdd 0 8; EStart 1 7; EStart 0 8; EAdd 0 9; EFinish 1 7; EStart 1 9; EFinish 0 8;
             EFinish 1 9; EWaitRet 0; EJoined 0] /\
    waits_before_shutdown [Add 7; Add 8; Add 9; Wait; Shutdown] /\ no_waiter_spurious run3 /\
    (N.of_nat (nb_adds [Add 7; Add 8; Add 9; Wait; Shutdown]) < 2 ^ 32)%N /\
    all_returned p /\ forall a, spurious a = false -> step p a = None.
Proof.
  eexists. split; [vm_compute; reflexivity|]. split; [reflexivity|]. split; [cbn; auto|]. split; [repeat constructor|]. split; [reflexivity|].
  split; [intros c [<-|[]]; reflexivity|].
  intros [[|[|[|i]]]|[|[|j]]|[|[|j]] ws cs|i|j] H; try discriminate; reflexivity.
Qed.
(** adders next to the waiter, with spurious wakeups of worker and waiter *)
Example adders_run :
  exists p, exec (pool_init 1 [[Add 7; Wait]; [Add 8]]) [Worker 0; SpuriousWorker 0; Client 0; Client 1; Signal 0 [] []; Client 0; SpuriousClient 0] = Some p /\
    shutdown_last [Add 7; Wait] /\ Forall only_adds [[Add 8]] /\ ~ all_returned p.
Proof.
  eexists. split; [vm_compute; reflexivity|]. split; [exact I|]. split; [repeat constructor; eauto|].
  intros A. specialize (A _ (or_introl eq_refl)). discriminate.
Qed.

Print Assumptions handed_at_most_once.
Print Assumptions handed_exactly_once_partial.
Print Assumptions wait_returns_after_all_partial.
Print Assumptions pool_progress.
Print Assumptions pool_terminates.
Print Assumptions pool_completes.
