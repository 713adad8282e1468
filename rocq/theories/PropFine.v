(** Threads sharing one environment, at the level of single memory accesses: C115-C119. *)
From Verif Require Import Util PageModel PageOps TxnModel TreeModel DbModel SysModel DbSpec DbProofs FineModel FineSpec FineProofs.
From Coq Require Import Permutation.
Local Open Scope N_scope.

Section Play.
Variable who : nat -> N * N.

Definition good_cs (s : st) (cs : list quad) : Prop :=
  consecutive cs /\ exists r, cs = mem s (live s) :: r.
Lemma play_inv l : forall s cs s' cs', inv who s -> good_cs s cs -> play who s cs l = Some (s', cs') -> inv who s' /\ good_cs s' cs'.
Proof.
  induction l as [|[a c] l IH]; intros s cs s' cs' I G H; cbn [play] in H; [injection H as <- <-; auto|].
  destruct (step who s a c) as [s1|] eqn:S1; [|discriminate]. eapply IH; [eapply step_inv; eauto| |exact H].
  destruct G as (G1 & r & G2). destruct (step_live _ _ _ _ _ I S1) as [(E1 & E2)|(E1 & E2 & _)].
  - rewrite E1, Bool.eqb_reflx. split; [exact G1|]. exists r. rewrite E2. exact G2.
  - replace (Bool.eqb (live s1) (live s)) with false by (rewrite E1; destruct (live s); reflexivity).
    split; [|eexists; reflexivity]. rewrite G2 in *. cbn [consecutive]. split; [exact E2|exact G1].
Qed.
Lemma published_inv m0 m1 second n s cs : 0 < q_txn (if second : bool then m1 else m0) -> published who m0 m1 second n s cs ->
  inv who s /\ good_cs s cs.
Proof.
  intros Z (l & H). eapply play_inv; [apply start_inv; exact Z| |exact H]. split; [exact Logic.I|]. exists []. reflexivity.
Qed.
End Play.

Lemma writing_wr p : writing p <-> wr p = true.
Proof. destruct p as [| |[|]| | | | | | | | | | | | | | | | | | | |]; cbn; intuition discriminate. Qed.

(** ** C115 The write transactions of all threads form one chain *)
(** In every state of every execution: the live meta page holds what was published last and
    ids are consecutive; two agents are never in a write transaction at once; an open write
    transaction has the next id and root, Free DB and last page of what was published last. *)
Theorem write_chain : forall who m0 m1 (second : bool) n s cs,
  0 < q_txn (if second then m1 else m0) -> published who m0 m1 second n s cs ->
  consecutive cs /\
  (exists x r, cs = x :: r /\ mem s (live s) = x /\
    forall a t, at_pos s a (WOpen t) ->
      q_txn t = q_txn x + 1 /\ q_root t = q_root x /\ q_free t = q_free x /\ q_last t = q_last x) /\
  (forall a b p p', at_pos s a p -> at_pos s b p' -> writing p -> writing p' -> a = b).
Proof.
  intros who m0 m1 second n s cs Z H. destruct (published_inv _ _ _ _ _ _ _ Z H) as (I & G1 & r & G2).
  split; [exact G1|]. split.
  - exists (mem s (live s)), r. split; [exact G2|]. split; [reflexivity|]. intros a t A.
    pose proof (i_ag _ _ I _ _ A) as B. cbn [agok] in B. subst t. cbn. auto.
  - intros a b p p' A B W W'. apply writing_wr in W, W'. apply (i_w _ _ I _ _ A) in W. apply (i_w _ _ I _ _ B) in W'. congruence.
Qed.
Print Assumptions write_chain.

(** what a commit publishes is what it was given, however the other threads interfere: from
    the call on, as long as no file operation of it fails and nothing is published, and then
    the pointer moves, it is this commit that moved it *)
Definition own_steps_go (a : nat) (l : list (nat * choice)) : Prop := forall c, In (a, c) l -> c = Go.
Theorem commit_publishes_exactly : forall who m0 m1 (second : bool) n s cs a t r f w s1 l s2 cs2 b c s3,
  0 < q_txn (if second then m1 else m0) -> published who m0 m1 second n s cs ->
  at_pos s a (WOpen t) -> step who s a (Commit r f w) = Some s1 ->
  play who s1 cs l = Some (s2, cs2) -> calm who s1 l -> own_steps_go a l ->
  step who s2 b c = Some s3 -> live s3 <> live s2 ->
  b = a /\ mem s3 (live s3) = mkQ (q_txn t) r f w.
Proof.
  intros who m0 m1 second n s cs a t r f w s1 l s2 cs2 b c s3 Z H A S1 P C O S3 D.
  destruct (published_inv _ _ _ _ _ _ _ Z H) as (I & G). assert (I1 := step_inv _ _ _ _ _ I S1).
  assert (A1 : exists m sy td, at_pos s1 a (Pub (mkQ (q_txn t) r f w) m sy td)).
  { unfold step in S1. unfold at_pos in A. rewrite A in S1. injection S1 as <-. do 3 eexists. apply nth_error_upd_eq. apply nth_error_Some. unfold at_pos in A. congruence. }
  clear A S1 H G I. set (n0 := mkQ (q_txn t) r f w) in *. clearbody n0.
  assert (X : inv who s2 /\ exists m sy td, at_pos s2 a (Pub n0 m sy td)).
  { clear S3 D. revert s1 cs P C O I1 A1. induction l as [|[a' c'] l IH]; intros s1 cs1 P C O I1 A1; cbn [play] in P; [injection P as <- <-; auto|].
    cbn [calm] in C. destruct (step who s1 a' c') as [sx|] eqn:Sx; [|discriminate]. destruct (C _ eq_refl) as (C1 & C2).
    eapply IH; [exact P|exact C2|intros c0 H0; apply O; right; exact H0|eapply step_inv; eauto|].
    destruct A1 as (m & sy & td & A1). destruct (Nat.eq_dec a' a) as [->|N1].
    - rewrite (O c') in Sx by (left; reflexivity). pose proof (i_ag _ _ I1 _ _ A1) as (K & _).
      assert (La : (a < length (ags s1))%nat) by (apply nth_error_Some; unfold at_pos in A1; congruence).
      unfold step in Sx. unfold at_pos in A1. rewrite A1 in Sx. destruct sy, td as [|f0 td]; cbn zeta in Sx; injection Sx as <-.
      + cbn in C1. subst m. destruct (live s1); discriminate.
      + do 3 eexists. apply nth_error_upd_eq. exact La.
      + do 3 eexists. apply nth_error_upd_eq. exact La.
      + do 3 eexists. apply nth_error_upd_eq. exact La.
    - destruct (step_frame _ _ _ _ _ Sx) as (p & p' & _ & E & _). exists m, sy, td. unfold at_pos. rewrite E, nth_error_upd_neq by auto. exact A1. }
  destruct X as (I2 & m & sy & td & A2). destruct (step_live _ _ _ _ _ I2 S3) as [(E1 & _)|(_ & _ & E)]; [congruence|].
  assert (K : b = a) by (apply (i_w _ _ I2 _ _ A2) in E + (pose proof (proj1 (i_w _ _ I2 _ _ A2) eq_refl); congruence)). subst b. split; [reflexivity|].
  pose proof (i_ag _ _ I2 _ _ A2) as (K1 & K2 & K3). unfold step in S3. unfold at_pos in A2. rewrite A2 in S3.
  destruct sy, td as [|f0 td], c; try discriminate; cbn zeta in S3; injection S3 as <-; cbn in D |- *; try congruence.
Qed.
Print Assumptions commit_publishes_exactly.

(** ** C116 A reader's snapshot is one committed state *)
(** as long as nothing is published while it is taken - whatever else other threads do,
    including writing the other meta page *)
Theorem snapshot_consistent_partial : forall who m0 m1 (second : bool) n s cs a l s' cs' p q,
  0 < q_txn (if second then m1 else m0) -> published who m0 m1 second n s cs ->
  at_pos s a Idle -> play who s cs l = Some (s', cs') -> calm who s l ->
  at_pos s' a p -> snapshot_of p = Some q ->
  q = mem s (live s) /\ In q cs'.
Proof.
  intros who m0 m1 second n s cs a l s' cs' p q Z H A P C A' Q. destruct (published_inv _ _ _ _ _ _ _ Z H) as (I & G).
  remember (mem s (live s)) as x eqn:Ex.
  pose (ok := fun (s : st) (p : pos) => match p with
     | Snap false ptr q todo => (forall m, ptr = Some m -> m = live s) /\ fields q todo x
     | _ => match snapshot_of p with Some q => q = x | None => True end end).
  assert (X : forall l s cs p0, inv who s -> good_cs s cs -> play who s cs l = Some (s', cs') -> calm who s l -> mem s (live s) = x ->
     at_pos s a p0 -> ok s p0 -> mem s' (live s') = x /\ forall p, at_pos s' a p -> ok s' p).
  { clear I G C P A H Ex. clear s cs l. induction l as [|[b c] l IH]; intros s cs p0 I G P C M A O; cbn [play] in P.
    { injection P as <- <-. split; [exact M|]. intros p1 A1. unfold at_pos in *. replace p1 with p0 by congruence. exact O. }
    cbn [calm] in C. destruct (step who s b c) as [s1|] eqn:S1; [|discriminate]. destruct (C _ eq_refl) as (C1 & C2).
    assert (I1 := step_inv _ _ _ _ _ I S1).
    assert (G1 : good_cs s1 (if Bool.eqb (live s1) (live s) then cs else mem s1 (live s1) :: cs)).
    { apply (play_inv who [(b, c)] s cs); [exact I|exact G|]. cbn [play]. rewrite S1. reflexivity. }
    assert (M1 : mem s1 (live s1) = x).
    { destruct (step_live _ _ _ _ _ I S1) as [(_ & E)|(E & _)]; [congruence|]. rewrite E in C1. destruct (live s); discriminate. }
    assert (N1 : exists p1, at_pos s1 a p1 /\ ok s1 p1).
    { destruct (Nat.eq_dec b a) as [->|Nb].
      - assert (La : (a < length (ags s))%nat) by (apply nth_error_Some; unfold at_pos in A; congruence).
        clear IH P. unfold step in S1. unfold at_pos in A. rewrite A in S1.
        destruct p0; destruct c; try discriminate; cbn zeta in S1;
        repeat match type of S1 with
          | (match ?x with _ => _ end) = Some _ => destruct x eqn:?; try discriminate
          | (if ?x then _ else _) = Some _ => destruct x eqn:?; try discriminate
          end; injection S1 as <-; (eexists; split; [apply nth_error_upd_eq; exact La|]);
        cbn [ok snapshot_of] in O |- *; cbn [live mem set_ag set_wlock set_tlock set_table set_mem set_live]; auto.
        + split; [discriminate|]. intros f F. exfalso. apply F. destruct f; cbn; auto.
        + destruct O as (_ & O). apply fields_all in O. exact O.
        + destruct O as (O1 & O2). specialize (O1 _ eq_refl). split; [discriminate|]. apply fields_step; [exact O2|]. subst b. f_equal. exact M.
        + destruct O as (_ & O). apply fields_all in O. exact O.
        + destruct O as (_ & O). split; [congruence|exact O].
        + destruct O as (O1 & O2). specialize (O1 _ eq_refl). split; [congruence|]. apply fields_step; [exact O2|]. subst b. f_equal. exact M.
      - destruct (step_frame _ _ _ _ _ S1) as (p2 & p' & _ & E & _). exists p0. split; [unfold at_pos; rewrite E, nth_error_upd_neq by auto; exact A|].
        unfold ok in *. destruct p0; auto. destruct w; auto. rewrite C1. exact O. }
    destruct N1 as (p1 & N1 & N2). eapply IH; eauto. }
  destruct (X l s cs Idle I G P C (eq_sym Ex) A Logic.I) as (X1 & X2). specialize (X2 _ A').
  destruct (play_inv _ _ _ _ _ _ I G P) as (_ & _ & r & Er).
  assert (K : q = x). { unfold ok in X2. destruct p; cbn [snapshot_of] in *; try discriminate; injection Q as <-; exact X2. }
  split; [exact K|]. rewrite Er, X1. left. symmetry. exact K.
Qed.
Print Assumptions snapshot_consistent_partial.

(** two agents of two threads; every agent does [Go] [k] times *)
Definition me (a : nat) : N * N := (7, N.of_nat a).
Definition gos (a k : nat) : list (nat * choice) := repeat (a, Go) k.
Definition m_first := mkQ 1 0 0 1.
(** begin of a write transaction, commit of the given root, and the end: 2 + 9 and 4 + 1 + 4 + 1 + 1 steps *)
Definition write_all (a : nat) (root : N) : list (nat * choice) :=
  (a, BeginW) :: gos a 10 ++ (a, Commit root 0 9) :: gos a 11.
Definition res_of (o : option (st * list quad)) : st * list quad :=
  match o with Some x => x | None => (start m_first m_first true 0, []) end.
Lemma some_res o : match o with Some _ => true | None => false end = true -> o = Some (fst (res_of o), snd (res_of o)).
Proof. destruct o as [[s cs]|]; [reflexivity|discriminate]. Qed.
Definition run_two (l : list (nat * choice)) := play me (start (mkQ 0 0 0 1) m_first true 2) [m_first] l.

(** The code violates the full statement: a commit between the first and the second read
    gives the reader the id of the old state with the root of the new one, and nothing like
    it was ever published. *)
Theorem snapshot_consistent_refuted : exists who m0 m1 l s cs q,
  play who (start m0 m1 true 2) [m1] l = Some (s, cs) /\ 0 < q_txn m1 /\
  at_pos s 0 (ROpen q) /\ ~ In q cs /\ q = mkQ 1 5 0 9 /\ cs = [mkQ 2 5 0 9; mkQ 1 0 0 1].
Proof.
  set (l := ((0, BeginR) :: gos 0 2 ++ write_all 1 5 ++ gos 0 (6 + 6 + 1))%nat).
  set (o := play me (start (mkQ 0 0 0 1) m_first true 2) [m_first] l).
  exists me, (mkQ 0 0 0 1), m_first, l, (fst (res_of o)), (snd (res_of o)), (mkQ 1 5 0 9).
  split; [apply (some_res o); vm_compute; reflexivity|]. split; [reflexivity|]. split; [vm_compute; reflexivity|].
  replace (snd (res_of o)) with [mkQ 2 5 0 9; mkQ 1 0 0 1] by (vm_compute; reflexivity).
  split; [|split; reflexivity]. intros [X|[X|[]]]; discriminate.
Qed.
Print Assumptions snapshot_consistent_refuted.
(** non-vacuity: the writer writes half of the other meta page while the snapshot is taken *)
Definition calm_l := ((0, BeginR) :: gos 0 2 ++ gos 1 3 ++ gos 0 13)%nat.
Fixpoint calmb (who : nat -> N * N) (s : st) (l : list (nat * choice)) : bool :=
  match l with
  | [] => true
  | (a, c) :: r => match step who s a c with Some s' => Bool.eqb (live s') (live s) && calmb who s' r | None => true end
  end.
Lemma calmb_calm who l : forall s, calmb who s l = true -> calm who s l.
Proof.
  induction l as [|[a c] l IH]; intros s H; [exact Logic.I|]. cbn [calm calmb] in *. intros s' E. rewrite E in H.
  apply andb_prop in H. destruct H as (H1 & H2). apply Bool.eqb_prop in H1. auto.
Qed.
Example calm_case : exists s cs s' cs', published me (mkQ 0 0 0 1) m_first true 2 s cs /\ at_pos s 0 Idle /\
  play me s cs calm_l = Some (s', cs') /\ calm me s calm_l /\ at_pos s' 0 (ROpen m_first) /\ mem s' false <> mem s false.
Proof.
  set (l := ((1, BeginW) :: gos 1 10 ++ [(1, Commit 5 0 9)])%nat).
  set (calm_o := play me (start (mkQ 0 0 0 1) m_first true 2) [m_first] l).
  set (calm_o' := play me (fst (res_of calm_o)) (snd (res_of calm_o)) calm_l).
  exists (fst (res_of calm_o)), (snd (res_of calm_o)), (fst (res_of calm_o')), (snd (res_of calm_o')).
  split; [exists l; apply (some_res calm_o); vm_compute; reflexivity|].
  split; [vm_compute; reflexivity|]. split; [apply (some_res calm_o'); vm_compute; reflexivity|].
  split; [apply calmb_calm; vm_compute; reflexivity|]. split; [vm_compute; reflexivity|]. vm_compute. discriminate.
Qed.
(** ... and a chain of two commits by two threads *)
Example chain_case : exists s, run_two (write_all 0 5 ++ write_all 1 6)%nat = Some (s, [mkQ 3 6 0 9; mkQ 2 5 0 9; m_first]).
Proof.
  set (o := run_two (write_all 0 5 ++ write_all 1 6)%nat). exists (fst (res_of o)).
  replace [mkQ 3 6 0 9; mkQ 2 5 0 9; m_first] with (snd (res_of o)) by (vm_compute; reflexivity).
  apply some_res. vm_compute. reflexivity.
Qed.

(** ** C117 The reader table is exact at every moment *)
Theorem reader_table_always : forall who m0 m1 (second : bool) n s cs,
  0 < q_txn (if second then m1 else m0) -> published who m0 m1 second n s cs ->
  Permutation (filter (fun z => negb (s_txnid z =? 0)) (table s)) (registered_agents who s) /\
  (length (registered_agents who s) <= 126)%nat /\
  (forall a, at_pos s a RegFull -> length (registered_agents who s) = 126%nat) /\
  (forall a t x, at_pos s a (OldDone t x) ->
     (registered_agents who s = [] -> x = 0) /\
     (registered_agents who s <> [] -> least (map s_txnid (registered_agents who s)) x)).
Proof.
  intros who m0 m1 second n s cs Z H. destruct (published_inv _ _ _ _ _ _ _ Z H) as (I & _).
  pose proof (i_reg _ _ I) as R. fold (registered_agents who s) in R. pose proof (i_len _ _ I) as L.
  assert (FL : forall rs : list rslot, (length (used rs) <= length rs)%nat).
  { unfold used. induction rs as [|a rs IH]; cbn [filter length]; [auto|]. destruct (negb _); cbn [length]; lia. }
  pose proof (FL (table s)) as F. pose proof (Permutation_length R) as PL.
  split; [exact R|]. split; [|split].
  - rewrite <- PL. change 126%nat with MAX_READERS. lia.
  - intros a A. pose proof (i_ag _ _ I _ _ A) as B. cbn [agok] in B. rewrite <- PL. change 126%nat with MAX_READERS. rewrite <- L.
    f_equal. unfold used. assert (G : forall z, In z (table s) -> negb (s_txnid z =? 0) = true).
    { intros z Hz. apply (In_nth _ _ (mkSlot 0 0 0)) in Hz. destruct Hz as (j & J & <-). specialize (B j). unfold slot_at in B. rewrite L in J. specialize (B J).
      apply negb_true_iff. apply N.eqb_neq. exact B. }
    clear - G. induction (table s) as [|z T IH]; [reflexivity|]. cbn [filter]. rewrite G by (left; reflexivity). f_equal. apply IH. intros; apply G; right; assumption.
  - intros a t x A. pose proof (i_ag _ _ I _ _ A) as (_ & B). subst x. destruct (oldest_fold (table s) 0) as (O1 & O2). fold (oldest_reader (table s)) in O1, O2.
    set (r := oldest_reader (table s)) in *. split.
    + intro E. destruct (N.eq_dec r 0) as [Y|Y]; [exact Y|]. destruct (O2 Y) as ([X|X] & _); [congruence|]. rewrite E in R. apply Permutation_sym, Permutation_nil in R. rewrite R in X. destruct X.
    + intro E. destruct (N.eq_dec r 0) as [Y|Y].
      * exfalso. destruct (O1 Y) as (_ & U). rewrite U in R. apply Permutation_nil in R. congruence.
      * destruct (O2 Y) as ([X|X] & _ & K); [congruence|]. split.
        -- apply (Permutation_in _ (Permutation_map s_txnid R)). exact X.
        -- intros y Hy. apply (Permutation_in _ (Permutation_sym (Permutation_map s_txnid R))) in Hy. apply in_map_iff in Hy. destruct Hy as (z & <- & Hz). auto.
Qed.
Print Assumptions reader_table_always.

(** ** C118 A reader is protected from the moment it sees a state *)
(** Proved: once registered, no answer given to a writer exceeds its id. *)
Theorem reader_protected_partial : forall who m0 m1 (second : bool) n s cs a b p q t x,
  0 < q_txn (if second then m1 else m0) -> published who m0 m1 second n s cs ->
  at_pos s b p -> held p = Some q -> at_pos s a (OldDone t x) -> 0 < x <= q_txn q.
Proof.
  intros who m0 m1 second n s cs a b p q t x Z H B Hq A.
  destruct (published_inv _ _ _ _ _ _ _ Z H) as (I & _).
  destruct (reader_table_always _ _ _ _ _ _ _ Z H) as (R & _ & _ & K). destruct (K _ _ _ A) as (_ & K2).
  pose proof (in_regs who _ _ 0%nat _ _ B Hq) as X. fold (registered_agents who s) in X. cbn [Nat.add] in X.
  destruct K2 as (K2 & K3); [intro E; rewrite E in X; destruct X|]. split.
  - apply (Permutation_in _ (Permutation_sym (Permutation_map s_txnid R))) in K2. apply in_map_iff in K2. destruct K2 as (z & <- & Hz).
    apply filter_In in Hz. destruct Hz as (_ & Hz). apply negb_true_iff, N.eqb_neq in Hz. lia.
  - apply K3. apply in_map_iff. exists (own who b q). split; [reflexivity|exact X].
Qed.
Print Assumptions reader_protected_partial.
(** The code violates the full statement: the snapshot is taken before the registration, so
    a writer can be told that there is no reader (and reuse pages of older states) while a
    reader holds an older state, registers it afterwards and goes on to read. *)
Theorem reader_protected_refuted : exists who m0 m1 l l' s cs s' cs' q t,
  0 < q_txn m1 /\ play who (start m0 m1 true 3) [m1] l = Some (s, cs) /\ play who s cs l' = Some (s', cs') /\
  at_pos s 2 (OldDone t 0) /\ (exists p, at_pos s 0 p /\ snapshot_of p = Some q) /\ at_pos s' 0 (ROpen q) /\
  q_txn q + 1 < q_txn t.
Proof.
  set (l := ((0, BeginR) :: gos 0 9 ++ write_all 1 5 ++ (2, BeginW) :: gos 2 10 ++ (2, Oldest) :: gos 2 (1 + 126 + 1))%nat).
  set (l' := ((2, Go) :: gos 0 (2 + 3 + 1))%nat).
  set (o := play me (start (mkQ 0 0 0 1) m_first true 3) [m_first] l).
  set (o' := play me (fst (res_of o)) (snd (res_of o)) l').
  exists me, (mkQ 0 0 0 1), m_first, l, l', (fst (res_of o)), (snd (res_of o)), (fst (res_of o')), (snd (res_of o')), m_first, (mkQ 3 5 0 9).
  split; [reflexivity|]. split; [apply (some_res o); vm_compute; reflexivity|]. split; [apply (some_res o'); vm_compute; reflexivity|].
  split; [vm_compute; reflexivity|]. split; [exists (RegLock m_first); split; vm_compute; reflexivity|]. split; vm_compute; reflexivity.
Qed.
Print Assumptions reader_protected_refuted.
(** non-vacuity: a reader registered before the query is reported *)
Example protected_case : exists s cs, published me (mkQ 0 0 0 1) m_first true 3 s cs /\
  at_pos s 0 (ROpen m_first) /\ at_pos s 2 (OldDone (mkQ 3 5 0 9) 1).
Proof.
  set (l := ((0, BeginR) :: gos 0 15 ++ write_all 1 5 ++ (2, BeginW) :: gos 2 10 ++ (2, Oldest) :: gos 2 (1 + 126 + 1))%nat).
  set (o := play me (start (mkQ 0 0 0 1) m_first true 3) [m_first] l).
  exists (fst (res_of o)), (snd (res_of o)). split; [exists l; apply (some_res o); vm_compute; reflexivity|].
  split; vm_compute; reflexivity.
Qed.

(** ** C119 No call waits for ever *)
(** If some agent is inside a call, some agent inside a call can go on; or the agents that
    cannot go on wait for a write transaction that its owner has not ended. *)
Lemma lock_free_step who s b q : inv who s -> at_pos s b q ->
  match q with RegLock _ | EndLock _ | OldLock _ => True | _ => False end ->
  exists a p' s', at_pos s a p' /\ in_call p' /\ step who s a Go = Some s'.
Proof.
  intros I B F. destruct (tlock s) as [a|] eqn:T.
  - pose proof (i_tl _ _ I _ T) as La. apply nth_error_lt_Some in La. destruct La as (p' & A). pose proof (proj2 (i_t _ _ I _ _ A) T) as K.
    exists a, p'. unfold step. rewrite A. destruct p' as [| |[|] [|] ? [|]| | | | | | | | | | | | | | | | | | |? ? [|] [|]|]; cbn in K; try discriminate; cbn zeta;
      repeat match goal with |- context [if ?x then _ else _] => destruct x end; eexists; (split; [exact A|]); (split; [exact Logic.I|reflexivity]).
  - exists b, q. unfold step. unfold at_pos in B. rewrite B. destruct q; try contradiction; cbn zeta; rewrite T; eexists; (split; [exact B|]); (split; [exact Logic.I|reflexivity]).
Qed.
Lemma plain_step who s a q : at_pos s a q -> in_call q -> match q with WWait | RegLock _ | EndLock _ | OldLock _ => False | _ => True end ->
  exists s', step who s a Go = Some s'.
Proof.
  intros A Q F. unfold step. unfold at_pos in A. rewrite A.
  destruct q as [| |[|] [|] ? [|]| | | | | | | | | | | | | | | | | | |? ? [|] [|]|]; cbn in Q, F; try contradiction; cbn zeta;
    repeat match goal with |- context [if ?x then _ else _] => destruct x end; eauto.
Qed.
Theorem no_db_deadlock : forall who m0 m1 (second : bool) n s cs b p,
  0 < q_txn (if second then m1 else m0) -> published who m0 m1 second n s cs -> at_pos s b p -> in_call p ->
  (exists a p' s', at_pos s a p' /\ in_call p' /\ step who s a Go = Some s') \/
  (p = WWait /\ exists a t, at_pos s a (WOpen t)).
Proof.
  intros who m0 m1 second n s cs b p Z H B C. destruct (published_inv _ _ _ _ _ _ _ Z H) as (I & _).
  assert (D : forall a q, at_pos s a q -> in_call q -> q <> WWait -> exists a p' s', at_pos s a p' /\ in_call p' /\ step who s a Go = Some s').
  { intros a q A Q N. destruct q; try (destruct (plain_step who s a _ A Q Logic.I) as (s' & E); exists a; do 2 eexists; repeat split; [exact A|exact Q|exact E]);
      try (eapply lock_free_step; [exact I|exact A|exact Logic.I]); try contradiction; congruence. }
  destruct p; try (left; eapply D; [exact B|exact C|discriminate]); try contradiction.
  destruct (wlock s) as [a|] eqn:W.
  - pose proof (i_wl _ _ I _ W) as La. apply nth_error_lt_Some in La. destruct La as (p' & A). pose proof (proj2 (i_w _ _ I _ _ A) W) as K.
    destruct p'; cbn in K; try discriminate; try (left; eapply D; [exact A|exact Logic.I|discriminate]). right. split; [reflexivity|]. do 2 eexists. exact A.
  - left. exists b, WWait. unfold step. unfold at_pos in B. rewrite B. cbn zeta. rewrite W. eexists. split; [exact B|]. split; [exact Logic.I|reflexivity].
Qed.
Print Assumptions no_db_deadlock.
(** a call takes at most 320 steps of its own (it cannot go round in circles), and nobody
    else moves an agent *)
Theorem calls_end : exists rank : pos -> nat,
  forall who s a c s' p p', step who s a c = Some s' -> at_pos s a p -> at_pos s' a p' ->
    (in_call p -> in_call p' -> (rank p' < rank p)%nat) /\
    (~ in_call p -> (rank p' <= 320)%nat) /\
    (forall b, b <> a -> nth_error (ags s') b = nth_error (ags s) b).
Proof.
  pose (rank := (fun p => match p with
    | Idle | ROpen _ | WOpen _ => 0 | WWait => 320
    | Snap _ ptr _ todo => 300 + 2 * length todo + (match ptr with None => 1 | Some _ => 0 end)
    | RegLock _ | EndLock _ | OldLock _ => 250
    | RegScan _ i | EndScan _ i | OldScan _ i _ => 20 + (126 - i)
    | RegPid _ _ | EndTxn _ _ => 15 | RegTid _ _ | EndPid _ => 14 | RegTxn _ _ | EndTid _ => 13
    | RegDone _ | EndDone | OldDone _ _ => 12 | RegFull => 10
    | Pub _ _ false todo => 50 + length todo | Pub _ _ true todo => 20 + length todo
    | WDone => 5 end)%nat).
  exists rank. intros who s a c s' p p' H A A'. assert (La : (a < length (ags s))%nat) by (apply nth_error_Some; unfold at_pos in A; congruence).
  split; [|split].
  3: { intros b N. destruct (step_frame _ _ _ _ _ H) as (? & ? & _ & E & _). rewrite E. apply nth_error_upd_neq. auto. }
  all: unfold step in H; unfold at_pos in A, A'; rewrite A in H;
    destruct p; destruct c; try discriminate; cbn zeta in H;
    repeat match type of H with
      | (match ?x with _ => _ end) = Some _ => destruct x eqn:?; try discriminate
      | (if ?x then _ else _) = Some _ => destruct x eqn:?; try discriminate
      end; injection H as <-; cbn [ags set_ag set_wlock set_tlock set_table set_mem set_live] in A'; rewrite nth_error_upd_eq in A' by exact La;
    injection A' as <-; cbn [in_call]; intros; try contradiction;
    repeat match goal with
      | H : Nat.ltb _ _ = true |- _ => apply Nat.ltb_lt in H; change MAX_READERS with 126%nat in H
      end; cbn [rank length snap_order pub_order]; try lia; exfalso; auto.
Qed.
Print Assumptions calls_end.

(** ** C120 No data race *)
(** the reader table and the writers among themselves are free of races: every race is
    between napr_db_txn_begin of a reader and commit_meta_page of a writer *)
Theorem race_free_partial : forall who m0 m1 (second : bool) n s cs a b l,
  0 < q_txn (if second then m1 else m0) -> published who m0 m1 second n s cs -> race s a b l ->
  (exists n m sy todo, at_pos s a (Pub n m sy todo)) /\ (exists ptr q todo, at_pos s b (Snap false ptr q todo)) /\
  forall i, l <> LSlot i.
Proof.
  intros who m0 m1 second n s cs a b l Z H (N & p & q & w & A & B & X & Y).
  destruct (published_inv _ _ _ _ _ _ _ Z H) as (I & _).
  pose proof (i_w _ _ I _ _ A) as WA. pose proof (i_w _ _ I _ _ B) as WB.
  pose proof (i_t _ _ I _ _ A) as TA. pose proof (i_t _ _ I _ _ B) as TB.
  assert (W : wr p = true -> wr q = true -> False) by (intros U V; apply WA in U; apply WB in V; congruence).
  assert (T : tb p = true -> tb q = true -> False) by (intros U V; apply TA in U; apply TB in V; congruence).
  clear WA WB TA TB.
  assert (P : (exists n m sy todo, p = Pub n m sy todo) \/ (tb p = true /\ exists i, l = LSlot i)).
  { destruct p as [| |w0 [|] ? [|]| | | | | | | | | | | | | | | | | | |? ? [|] [|]|]; cbn in X |- *; try contradiction; try (destruct X as (_ & D); discriminate); try (destruct X as (_ & _ & D); discriminate);
      try (left; do 4 eexists; reflexivity); right; (split; [reflexivity|eexists; apply X]). }
  destruct P as [(n1 & m & sy & todo & ->)|(P & i & ->)].
  - assert (NL : forall i, l <> LSlot i).
    { intros i ->. destruct todo as [|f0 td]; destruct sy; cbn in X; try contradiction; destruct X as (D & _); discriminate. }
    split; [do 4 eexists; exact A|]. split; [|exact NL].
    destruct q as [| |[|] ptr q0 td| | | | | | | | | | | | | | | | | | |? ? ? ?|]; cbn [access] in Y; try contradiction; try (exfalso; apply W; reflexivity);
      try (exfalso; eapply NL; apply Y). do 3 eexists. exact B.
  - exfalso. destruct q as [| |w0 [|] ? [|]| | | | | | | | | | | | | | | | | | |? ? [|] [|]|]; cbn [access] in Y; try contradiction;
      try (apply T; [exact P|reflexivity]; fail); destruct Y as (D & _); discriminate.
Qed.
Print Assumptions race_free_partial.
(** The code violates the full statement: nothing orders the read of env->live_meta by a
    reader against its update by a commit *)
Theorem race_refuted : exists who m0 m1 s cs, 0 < q_txn m1 /\ published who m0 m1 true 2 s cs /\ race s 1 0 LLive.
Proof.
  set (l := ((0, BeginR) :: (1, BeginW) :: gos 1 10 ++ (1, Commit 5 0 9) :: gos 1 9)%nat).
  set (o := play me (start (mkQ 0 0 0 1) m_first true 2) [m_first] l).
  exists me, (mkQ 0 0 0 1), m_first, (fst (res_of o)), (snd (res_of o)). split; [reflexivity|].
  split; [exists l; apply (some_res o); vm_compute; reflexivity|]. split; [discriminate|].
  exists (Pub (mkQ 2 5 0 9) false true []), (Snap false None (mkQ 0 0 0 0) snap_order), false.
  split; [vm_compute; reflexivity|]. split; [vm_compute; reflexivity|]. split; split; reflexivity.
Qed.
Print Assumptions race_refuted.
