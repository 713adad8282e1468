(** Properties C124 and C125: threads that mark paths on one cache handle, and a begin while a
    transaction is open. *)
From Verif Require Import Util PageModel PageSpec PageProofs PageOps TxnModel CursorModel TreeModel TreeSpec PropPage TreeProofs TxnInv DbModel SysModel DbSpec DbProofs DbCommit CursorSpec CursorProofs PropTree PropCursor PropCommit CacheModel PropCache.
From Verif Require MarkModel.
From Verif Require Import MarkSpec MarkProofs.
Import MarkModel.
Local Open Scope N_scope.

(** ** C124 marks of several threads *)
(** Whatever the threads do and in whatever order: there is no access to a half-changed table;
    what was marked before stays marked; a path is marked once some thread was told so; nothing is
    marked that nobody asked for; and every thread makes exactly its calls, in their order. *)
Theorem concurrent_marks : forall v calls l,
  match play (start v calls) l with
  | Bad => False
  | Blocked => True
  | Next s =>
      (forall p, In p v -> In p (vis s)) /\
      (forall p, acknowledged s p -> In p (vis s)) /\
      (forall p, In p (vis s) -> In p v \/ acknowledged s p \/ under_way s p) /\
      map calls_of (threads s) = calls
  end.
Proof.
  intros v calls l. pose proof (play_inv v l _ (inv_start v calls)) as I. destruct (play (start v calls) l) as [s| |] eqn:E; auto.
  split; [|split; [|split]].
  - intros p H. apply (i_vis _ _ I). now left.
  - intros p (th & Ith & D). apply In_nth_error in Ith as (t & N). apply (i_vis _ _ I). right. exists t, th. split; [exact N|now left].
  - intros p H. apply (i_vis _ _ I) in H. destruct H as [H|(t & th & N & [D|D])]; [now left| |].
    + right. left. exists th. split; [eapply nth_error_In; eauto|exact D].
    + right. right. exists th. split; [eapply nth_error_In; eauto|]. now rewrite D.
  - rewrite (play_calls _ _ _ E). cbn [start threads]. rewrite map_map. rewrite <- (map_id calls) at 2. apply map_ext. reflexivity.
Qed.
Print Assumptions concurrent_marks.
(** No thread waits for ever: six steps per call are all there can be, and as long as a call is
    left some thread can go on, also when memory has run out. *)
Theorem marks_end : forall v calls l s, play (start v calls) l = Next s ->
  (length l <= 6 * length (concat calls))%nat /\ (finished s \/ forall mem, exists t s', step s t mem = Next s').
Proof.
  intros v calls l s E. split.
  - pose proof (play_weight _ _ _ E). rewrite total_start in H. lia.
  - pose proof (play_inv v l _ (inv_start v calls)) as I. rewrite E in I.
    assert (D : forall k : list thread, {Forall (fun th => t_todo th = [] /\ t_pos th = Between) k} + {~ Forall (fun th => t_todo th = [] /\ t_pos th = Between) k}).
    { intros k. apply Forall_dec. intros th. destruct (t_todo th); [|right; intros (X & _); discriminate].
      destruct (t_pos th); try (right; intros (_ & X); discriminate). left. auto. }
    destruct (D (threads s)) as [F|F]; [now left|]. right. intros mem. exact (progress v s mem I F).
Qed.
Print Assumptions marks_end.
(** When all calls have returned and memory was found, exactly the asked paths are marked. *)
Theorem all_marked : forall v calls l s, memory_lasts l -> play (start v calls) l = Next s -> finished s ->
  (forall p, In p (vis s) <-> In p v \/ In p (concat calls)) /\
  Forall (fun th => Forall (fun e => snd e = true) (t_done th)) (threads s).
Proof.
  intros v calls l s ML E F. pose proof (concurrent_marks v calls l) as C. rewrite E in C. destruct C as (C1 & C2 & C3 & C4).
  assert (G : Forall good (threads s)).
  { eapply play_good; eauto. cbn [start threads]. rewrite Forall_forall. intros th H. apply in_map_iff in H as (c & <- & _). split; constructor. }
  assert (K : forall th, In th (threads s) -> calls_of th = rev (map fst (t_done th)) /\ Forall (fun e => snd e = true) (t_done th)).
  { intros th H. unfold finished in F. rewrite Forall_forall in F, G. destruct (F th H) as (A & B). destruct (G th H) as (D & _).
    split; [|exact D]. unfold calls_of. rewrite A, B. cbn [app]. apply app_nil_r. }
  split.
  - intros p. split.
    + intros H. destruct (C3 p H) as [H'|[(th & Ith & D)|(th & Ith & D)]]; [now left| |].
      * right. rewrite <- C4. apply in_concat. exists (calls_of th). split; [now apply in_map|]. destruct (K th Ith) as (-> & _).
        rewrite <- in_rev. now apply (in_map fst) in D.
      * exfalso. unfold finished in F. rewrite Forall_forall in F. destruct (F th Ith) as (_ & B). now rewrite B in D.
    + intros [H|H]; [auto|]. rewrite <- C4 in H. apply in_concat in H as (c & Ic & Ip). apply in_map_iff in Ic as (th & <- & Ith).
      apply C2. exists th. split; [exact Ith|]. destruct (K th Ith) as (EC & D). rewrite EC, <- in_rev in Ip. apply in_map_iff in Ip as ((q & ok) & Eq & Iq).
      cbn [fst] in Eq. subst q. rewrite Forall_forall in D. specialize (D _ Iq). cbn [snd] in D. now subst ok.
  - rewrite Forall_forall. intros th H. apply (K th H).
Qed.
Print Assumptions all_marked.
(** Many threads mark, all return, one thread sweeps, as napr_cache.h:152-180 asks: a successful
    sweep keeps exactly the entries some thread marked.  As for C27, missing: trees with emptied
    leaves, and a Free DB leaf without room. *)
Theorem threads_then_sweep_partial : forall calls sched s E fuel l, memory_lasts sched -> play (start [] calls) sched = Next s -> finished s ->
  healthy E -> file_ok (e_file E) -> scannable E (reader E) -> bindings E (reader E) l -> (length l + 1 < fuel)%nat ->
  (forall E1 t, begin_write E = Some (E1, t) -> t_last t + 1 < 2 ^ 64 /\
     forall t', do_ops E1 t (map Del (unmarked (vis s) l)) = Ret tt t' -> free_room E1 t' /\ N.of_nat (length (t_freed t')) < 8000) ->
  exists c' r, cache_sweep fuel (mkCache E None (vis s)) = Some (c', r) /\
    (r = Ok tt -> forall path, blen path < 65536 ->
       read_now (c_env c') path = if in_dec key_dec path (concat calls) then read_now E path else Err NOTFOUND).
Proof.
  intros calls sched s E fuel l ML P F HH FO SC BL Hf HR. destruct (all_marked [] calls sched s ML P F) as (A & _).
  destruct (sweep_exact_partial fuel (mkCache E None (vis s)) l HH FO SC BL Hf HR) as (c' & r & X & Y). exists c', r. split; [exact X|].
  intros R path Hp. destruct (Y R) as (Z & _). rewrite (Z path Hp). cbn [c_visited c_env]. specialize (A path). cbn [In] in A.
  destruct (in_dec key_dec path (vis s)), (in_dec key_dec path (concat calls)); tauto.
Qed.
Print Assumptions threads_then_sweep_partial.

(** three threads, two of them marking the same path, interleaved; thread 1 runs out of memory in
    its second call *)
Definition three_calls : list (list bytes) := [[[97]; [98]]; [[98]; [99]]; [[100]]].
Definition three_sched : list (nat * bool) :=
  map (fun t => (t, true)) [0; 1; 2; 0; 0; 0; 0; 0; 2; 2; 2; 0; 2; 2; 1; 1; 1; 1; 1; 1; 0; 0; 0; 0; 0]%nat ++ [(1%nat, true); (1%nat, false); (1%nat, false)].
Example marks_case : exists s, play (start [[1]] three_calls) three_sched = Next s /\ finished s /\
  vis s = [[98]; [98]; [100]; [97]; [1]] /\ map t_done (threads s) = [[([98], true); ([97], true)]; [([99], false); ([98], true)]; [([100], true)]].
Proof. eexists. split; [vm_compute; reflexivity|]. split; [repeat constructor|]. split; reflexivity. Qed.
(** the same with memory throughout *)
Example marks_finish_case : exists l s, memory_lasts l /\ play (start [] three_calls) l = Next s /\ finished s.
Proof.
  exists (map (fun t => (t, true)) ([0; 1; 2] ++ repeat 0 5 ++ repeat 2 5 ++ repeat 1 5 ++ repeat 0 6 ++ repeat 1 6))%nat. eexists.
  split; [repeat constructor|]. split; [vm_compute; reflexivity|]. repeat constructor.
Qed.
(** two threads mark the middle one of three entries; the sweep that follows *)
Example threads_sweep_case : exists sched s, memory_lasts sched /\ play (start [] [[[98]]; [[98]]]) sched = Next s /\ finished s /\ vis s = [[98]; [98]].
Proof.
  exists (map (fun t => (t, true)) ([0; 1] ++ repeat 0 5 ++ repeat 1 5))%nat. eexists. split; [repeat constructor|]. split; [vm_compute; reflexivity|].
  split; [repeat constructor|]. reflexivity.
Qed.
(** (that the environment of [cache3] meets the other hypotheses is [sweep_case]) *)
Definition marked_twice : cache := mkCache (c_env cache3) None [[98]; [98]].
Example threads_sweep_data : read_now (c_env (swept marked_twice)) [97] = Err NOTFOUND /\ read_now (c_env (swept marked_twice)) [98] = Ok (fillb 1400 1).
Proof. split; vm_compute; reflexivity. Qed.

(** ** C125 a begin while a transaction is open *)

Lemma fill_in : forall rs pid tid x rs', fill_slot rs pid tid x = Some rs' -> In (mkSlot pid tid x) rs'.
Proof.
  induction rs as [|s rs IH]; intros pid tid x rs' H; cbn [fill_slot] in H; [discriminate|].
  destruct (s_txnid s =? 0); [injection H as <-; now left|]. destruct (fill_slot rs pid tid x) eqn:F; [|discriminate]. injection H as <-. right. eauto.
Qed.

(** One transaction at a time: a read transaction that is begun when none is open and ended by
    the same thread leaves the same readers registered as before. *)
Theorem one_at_a_time_partial : forall c pid tid c1 l c2, c_active c = None -> m_txnid (live_meta (c_env c)) <> 0 ->
  cache_begin_read c pid tid = Ok c1 -> cache_end_read (fold_left call_do l c1) pid tid = Ok c2 ->
  Permutation (registered (c_env c2)) (registered (c_env c)) /\ c_active c2 = None /\ set_readers (c_env c2) (e_readers (c_env c)) = c_env c.
Proof. intros c pid tid c1 l c2 _ NZ B H. apply (any_ending_read c c1 l pid tid c2 NZ B). now apply any_read. Qed.
Print Assumptions one_at_a_time_partial.

(** The full claim, that a begin while a transaction is open is refused or at least harmless,
    fails.  (1) A second read transaction is begun although one is open, in place of it: ending it
    ends one of the two, the other cannot be ended any more, and its reader stays registered. *)
Theorem second_begin_refuted : forall c pid tid c1 c2 c3, m_txnid (live_meta (c_env c)) <> 0 ->
  cache_begin_read c pid tid = Ok c1 -> cache_begin_read c1 pid tid = Ok c2 -> cache_end_read c2 pid tid = Ok c3 ->
  cache_end_read c3 pid tid = Err EINVAL /\
  Permutation (registered (c_env c3)) (mkSlot pid tid (m_txnid (live_meta (c_env c))) :: registered (c_env c)).
Proof.
  intros c pid tid c1 c2 c3 NZ B1 B2 EN. unfold cache_begin_read, begin_read in B1. cbv zeta in B1.
  destruct (fill_slot (e_readers (c_env c)) _ _ _) as [rs|] eqn:F1; [|discriminate]. cbn [bindr fst snd] in B1. injection B1 as <-.
  unfold cache_begin_read, begin_read in B2. cbv zeta in B2. cbn [c_env] in B2.
  change (live_meta (set_readers (c_env c) rs)) with (live_meta (c_env c)) in B2. change (e_readers (set_readers (c_env c) rs)) with rs in B2.
  destruct (fill_slot rs _ _ _) as [rs2|] eqn:F2; [|discriminate]. cbn [bindr fst snd] in B2. injection B2 as <-.
  unfold cache_end_read, abort_txn in EN. cbn [c_active c_env c_visited t_rdonly] in EN. injection EN as <-. split; [reflexivity|].
  cbn [c_env]. unfold registered, end_read. cbn [t_id]. cbn [set_readers e_readers].
  destruct (fill_slot_some _ _ _ _ _ NZ F1) as (P1 & _). destruct (fill_slot_some _ _ _ _ _ NZ F2) as (P2 & _).
  destruct (clear_slot_perm rs2 pid tid _ NZ (fill_in _ _ _ _ _ F2)) as (P3 & _). rewrite P2 in P3. apply Permutation_cons_inv in P3.
  unfold used in *. rewrite <- P3. exact P1.
Qed.
Print Assumptions second_begin_refuted.
(** (2) A thread that begins a write transaction while its own is open waits for itself for ever;
    so does one that sweeps. *)
Theorem begin_in_write_refuted : forall c c1 l, cache_begin_write c = Some c1 ->
  cache_begin_write (fold_left call_do l c1) = None /\ forall fuel, cache_sweep fuel (fold_left call_do l c1) = None.
Proof.
  intros c c1 l H. unfold cache_begin_write in H. destruct (begin_write (c_env c)) as [(E & t)|] eqn:B; [|discriminate]. injection H as <-.
  destruct (calls_inside l (mkCache E (Some t) (c_visited c)) t eq_refl) as (t' & _ & _ & EE & _). cbn [c_env] in EE.
  assert (L : e_locked E = true). { unfold begin_write in B. destruct (e_locked (c_env c)); [discriminate|]. cbv zeta in B. injection B as <- _. reflexivity. }
  assert (N : cache_begin_write (fold_left call_do l (mkCache E (Some t) (c_visited c))) = None).
  { unfold cache_begin_write. rewrite EE. unfold begin_write. rewrite L. reflexivity. }
  split; [exact N|]. intros fuel. unfold cache_sweep. now rewrite N.
Qed.
Print Assumptions begin_in_write_refuted.
Lemma sweep_rdonly E vis : forall fuel t r t', sweep_loop fuel E t vis r = Ret tt t' -> t_rdonly t' = t_rdonly t.
Proof.
  induction fuel as [|f IH]; intros t r t' H; cbn [sweep_loop] in H; [discriminate|]. destruct r as [(k & d) c|e c| |]; try discriminate.
  - destruct (visited vis k); [eauto|]. pose proof (db_del_lout E t k None) as L. destruct (db_del E t k None) as [x t1|e t1| |]; cbn [bindo] in H; try discriminate.
    rewrite (IH _ _ _ H). apply (la_ro _ _ L).
  - destruct e; try discriminate. injection H as <-. reflexivity.
Qed.
(** (3) A sweep while a read transaction is open succeeds, takes the place of the transaction and
    leaves its reader registered with nobody able to end it. *)
Theorem sweep_in_read_refuted : forall c pid tid c1 fuel c2, m_txnid (live_meta (c_env c)) <> 0 ->
  cache_begin_read c pid tid = Ok c1 -> cache_sweep fuel c1 = Some (c2, Ok tt) ->
  cache_end_read c2 pid tid = Err EINVAL /\ In (mkSlot pid tid (m_txnid (live_meta (c_env c)))) (registered (c_env c2)).
Proof.
  intros c pid tid c1 fuel c2 NZ B S. unfold cache_begin_read, begin_read in B. cbv zeta in B.
  destruct (fill_slot (e_readers (c_env c)) _ _ _) as [rs|] eqn:F; [|discriminate]. cbn [bindr fst snd] in B. injection B as <-.
  unfold cache_sweep, cache_begin_write in S. cbn [c_env] in S. destruct (begin_write (set_readers (c_env c) rs)) as [(E & t)|] eqn:BW; [|discriminate].
  cbn [c_active c_env c_visited] in S. destruct (sweep_loop _ _ _ _ _) as [[] t'|e t'| |] eqn:SL; try discriminate.
  apply sweep_rdonly in SL. assert (RD : t_rdonly t' = false) by (rewrite SL; unfold begin_write in BW; destruct (e_locked _); [discriminate|]; injection BW as _ <-; reflexivity).
  unfold set_active, cache_commit_write, commit_txn in S. cbn [c_active c_env c_visited] in S. rewrite RD in S. destruct (db_commit E t' None) as [E' r] eqn:C.
  destruct r as [u|e| |]; try discriminate. injection S as <-. split; [reflexivity|]. cbn [c_env].
  pose proof (commit_lock _ _ _ _ (commit_cases _ _ _ _ _ C ltac:(left; eauto))) as (_ & RT & _).
  unfold registered. rewrite RT. unfold begin_write in BW. destruct (e_locked _); [discriminate|]. cbv zeta in BW. injection BW as <- _.
  apply filter_In. split; [|cbn [s_txnid]; apply N.eqb_neq in NZ; rewrite NZ; reflexivity]. cbn. eapply fill_in; eauto.
Qed.
Print Assumptions sweep_in_read_refuted.

(** the three entries again: the calls succeed *)
Example second_begin_case : m_txnid (live_meta (c_env cache3)) = 2 /\
  (do c1 <- cache_begin_read cache3 10 1 ;; do c2 <- cache_end_read c1 10 1 ;; Ok (registered (c_env c2))) = Ok [] /\
  (do c1 <- cache_begin_read cache3 10 1 ;; do c2 <- cache_begin_read c1 10 1 ;; do c3 <- cache_end_read c2 10 1 ;; Ok (registered (c_env c3))) = Ok [mkSlot 10 1 2] /\
  (match cache_begin_read cache3 10 1 with Ok c1 => match cache_sweep 10 c1 with Some (c2, Ok tt) => registered (c_env c2) | _ => [] end | _ => [] end) = [mkSlot 10 1 2] /\
  (match cache_begin_write cache3 with Some _ => true | None => false end) = true.
Proof. vm_compute. repeat split. Qed.
