(** Property C128: the image mode with its threads gives the report of one thread. *)
From Coq Require Import String Ascii.
From Verif Require Import Util HeapModel CollectModel ProcessModel IgnoreModel PoolModel PoolSpec PoolProofs PoolSafe PropPool ParModel PropPar
  ReportSpec ReportProofs PropReport ImageModel PropImage ImgParModel.
From Coq Require Import Sorting.Permutation.
Local Open Scope list_scope.

(** ** Heaps of cells and heaps of files *)
Section Map.
Variables A B : Type.
Variable g : A -> B.
Variable cmp : B -> B -> Z.
Let cmpA (x y : A) : Z := cmp (g x) (g y).
Definition hmap (h : heap A) : heap B := mkHeap (map g (h_tree h)) (h_max h).
Definition rmap {T U} (f : T -> U) (r : hres T) : hres U := match r with HOk x => HOk (f x) | HUB => HUB | HFuel => HFuel end.
Lemma map_upd (l : list A) : forall i x, map g (upd l i x) = upd (map g l) i (g x).
Proof. induction l as [|y l IH]; intros [|i] x; cbn [upd map]; auto. now rewrite IH. Qed.
Lemma swap_map l i j : swap (map g l) i j = option_map (map g) (swap l i j).
Proof. unfold swap. rewrite !nth_error_map. destruct (nth_error l i), (nth_error l j); cbn; auto. now rewrite !map_upd. Qed.
Lemma choose_map l i : choose cmp (map g l) i = choose cmpA l i.
Proof.
  unfold choose. rewrite !map_length, !nth_error_map. destruct (_ <? _)%nat; auto. destruct (nth_error l (hleft i)) as [a|], (nth_error l i) as [b|]; cbn [option_map]; auto.
  unfold cmpA at 1. destruct (hright i <? length l)%nat; auto. rewrite !nth_error_map. destruct (nth_error l (hright i)) as [c|]; cbn [option_map]; auto.
  fold (cmpA a b). destruct (nth_error l (if (cmpA a b >? 0)%Z then hleft i else i)) as [d|]; cbn [option_map]; auto.
Qed.
Lemma sift_down_map : forall fuel l i, sift_down cmp fuel (map g l) i = rmap (map g) (sift_down cmpA fuel l i).
Proof.
  induction fuel as [|f IH]; intros l i; cbn [sift_down]; auto. rewrite choose_map. destruct (choose cmpA l i) as [m|]; auto.
  destruct (negb _); auto. rewrite swap_map. destruct (swap l m i); cbn [option_map]; auto.
Qed.
Lemma extract_map h : heap_extract cmp (hmap h) = rmap (fun r => (hmap (fst r), option_map g (snd r))) (heap_extract cmpA h).
Proof.
  destruct h as [tr mx]. unfold heap_extract, hmap. cbn [h_tree h_max]. destruct tr as [|r t]; [reflexivity|]. cbn [map]. change (g r :: map g t) with (map g (r :: t)).
  set (l := r :: t). rewrite map_length, nth_error_map. destruct (nth_error l _) as [x|]; cbn [option_map]; [|reflexivity].
  rewrite <- map_upd, firstn_map, sift_down_map. destruct (sift_down cmpA _ _ _); reflexivity.
Qed.
End Map.

Section Image.
Variable vec : Type.
Variable decode : file -> option vec.
Variable close : vec -> vec -> bool.
Variable sep : N.
Notation cell := (cell vec).
Definition dec (f : file) : cell := mkCell vec f (decode f).
Lemma cell_row_row f v : forall tree p, cell_row vec close sep p f v (map dec tree) = row vec decode close sep p f v tree.
Proof.
  induction tree as [|x r IH]; intros p; cbn [map cell_row row]; auto. cbn [dec ce_vec ce_file]. destruct (decode x) as [w|]; auto.
  destruct (close v w); auto. now rewrite IH.
Qed.
Lemma compare_loop : forall fuel h, compare_cells vec close sep fuel (hmap _ _ dec h) = image_loop vec decode close sep fuel h.
Proof.
  induction fuel as [|fu IH]; intros h; cbn [compare_cells image_loop]; auto. rewrite (extract_map file cell dec (cell_cmp vec) h).
  change (fun x y : file => cell_cmp vec (dec x) (dec y)) with file_cmp.
  destruct (heap_extract file_cmp h) as [(h' & o)| |]; cbn [rmap fst snd]; auto. destruct o as [f|]; cbn [option_map]; auto. cbn [dec ce_vec ce_file].
  destruct (decode f) as [v|]; auto. cbn [hmap h_tree]. rewrite cell_row_row, IH. reflexivity.
Qed.

(** ** The vectors *)
Definition at_place (m : list cell * N) (x : N) : list cell * N := compute_vector vec decode m (pred (N.to_nat x)).
Lemma vectors_finishes : forall l m, vectors vec decode m l = fold_left at_place (finishes l) m.
Proof. induction l as [|e l IH]; intros m; [reflexivity|]. cbn [vectors fold_left]. destruct e; cbn [finishes flat_map app fold_left]; apply IH. Qed.
Lemma upd_upd {T} (l : list T) : forall i a b, upd (upd l i a) i b = upd l i b.
Proof. induction l as [|x l IH]; intros [|i] a b; cbn [upd]; auto. now rewrite IH. Qed.
Lemma nth_upd {T} (l : list T) : forall i j a, nth_error (upd l i a) j = if Nat.eqb i j then match nth_error l j with Some _ => Some a | None => None end else nth_error l j.
Proof. induction l as [|x l IH]; intros [|i] [|j] a; cbn [upd nth_error Nat.eqb]; auto. now destruct (Nat.eqb i j). Qed.
Lemma compute_comm m i j : compute_vector vec decode (compute_vector vec decode m i) j = compute_vector vec decode (compute_vector vec decode m j) i.
Proof.
  destruct (Nat.eq_dec i j) as [->|NE]; auto. destruct m as [l c]. unfold compute_vector. cbn [fst snd].
  destruct (nth_error l i) as [a|] eqn:EI; cbn [fst snd]; destruct (nth_error l j) as [b|] eqn:EJ; cbn [fst snd]; rewrite ?EI, ?EJ; auto; rewrite ?nth_upd, ?EI, ?EJ;
    rewrite ?(proj2 (Nat.eqb_neq i j) NE), ?(proj2 (Nat.eqb_neq j i) (not_eq_sym NE)); auto.
  now rewrite (upd_comm l i j) by auto.
Qed.
Lemma all_places : forall fs pre c, fold_left at_place (map (fun k => N.of_nat (S k)) (seq (length pre) (length fs))) (pre ++ map (fresh vec) fs, c) = (pre ++ map dec fs, (c + N.of_nat (length fs))%N).
Proof.
  induction fs as [|f fs IH]; intros pre c; cbn [length seq map fold_left]; [rewrite N.add_0_r; reflexivity|].
  unfold at_place at 2. rewrite Nat2N.id. cbn [pred]. unfold compute_vector. cbn [fst snd]. rewrite nth_error_app2, Nat.sub_diag by lia. cbn [nth_error fresh ce_file ce_vec].
  assert (U : upd (pre ++ fresh vec f :: map (fresh vec) fs) (length pre) (mkCell vec f (match decode f with Some v => Some v | None => None end)) = (pre ++ [dec f]) ++ map (fresh vec) fs).
  { unfold dec. rewrite <- app_assoc. cbn [app]. clear. induction pre as [|a pre IH]; cbn [app length upd]; [now destruct (decode f)|now rewrite IH]. }
  unfold fresh in U at 1. unfold fresh at 1. rewrite U. replace (S (length pre)) with (length (pre ++ [dec f])) by (rewrite app_length; cbn; lia).
  rewrite IH. rewrite <- app_assoc. cbn [app]. f_equal. lia.
Qed.
End Image.

(** the pool sees the same calls as that of PropPar *)
Definition places (n : nat) : list task := map (fun i => (0%Z, i)) (seq 0 n).
Lemma image_calls_main n : image_calls n = main_calls (places n).
Proof. unfold image_calls, main_calls, addresses, places. now rewrite map_map, map_length, seq_length. Qed.
Lemma addresses_places n : addresses (places n) = map (fun k => N.of_nat (S k)) (seq 0 n).
Proof. unfold addresses, places. now rewrite map_length, seq_length. Qed.
Lemma finishes_app a b : finishes (a ++ b) = finishes a ++ finishes b.
Proof. unfold finishes. apply flat_map_app. Qed.
Lemma subseq_in {A} (l m : list A) x : PoolSpec.subseq l m -> In x l -> In x m.
Proof. induction 1; intros X; [contradiction| |right; auto]. destruct X; [now left|right; auto]. Qed.
(** once the wait has returned, the work done is that of every task once, also later on *)
Lemma all_done k n tr p c : 1 <= k -> (N.of_nat n < 2 ^ 32)%N -> no_waiter_spurious tr ->
  exec (pool_init k [image_calls n]) tr = Some p -> In (EWaitRet c) (log p) ->
  Permutation (map (fun k => N.of_nat (S k)) (seq 0 n)) (finishes (log p)).
Proof.
  intros K1 LT NS EX IW. rewrite image_calls_main in EX. apply in_split in IW. destruct IW as (b & a & LG).
  pose proof (J_exec _ _ _ _ (J_init k (places n)) EX) as JJ. pose proof (j_wait _ _ JJ _ _ _ LG) as AD. rewrite addresses_places in AD.
  assert (PM : Permutation (adds b) (finishes b)).
  { eapply (wait_returns_after_all_partial k (main_calls (places n)) tr p); eauto; [apply main_waits|].
    unfold main_calls. rewrite main_adds, addresses_length. unfold places. now rewrite map_length, seq_length. }
  rewrite AD in PM. rewrite LG, finishes_app. cbn [finishes flat_map app]. fold (finishes a).
  pose proof (gen_exec _ _ _ (gen_init k [main_calls (places n)]) EX) as G. destruct (j_one _ _ JJ) as (cl & _ & AD2 & _). rewrite addresses_places in AD2.
  set (A := map (fun k => N.of_nat (S k)) (seq 0 n)) in *.
  assert (NA : NoDup A) by (unfold A; rewrite <- addresses_places; apply addresses_nodup).
  assert (ND : NoDup (starts (log p))).
  { eapply nodup_sub; [eapply subseq_drop_tail; apply (g_sub _ G)|]. rewrite <- AD2 in NA. revert NA. generalize (adds (log p)) (cadds (c_script cl)). clear.
    induction l as [|x l IH]; intros m X; [constructor|]. cbn in X. inversion X; subst. constructor; [|eapply IH; eauto]. intros Y. apply H1. apply in_app_iff. now left. }
  apply (Permutation_NoDup (g_perm _ G)) in ND as ND2.
  assert (E : finishes a = []).
  { destruct (finishes a) as [|x r] eqn:Q; auto. exfalso.
    assert (IX : In x (finishes (log p))). { rewrite LG, finishes_app. cbn [finishes flat_map app]. fold (finishes a). rewrite Q. apply in_app_iff. right. now left. }
    assert (IA : In x A).
    { rewrite <- AD2. apply in_app_iff. left. eapply subseq_in; [eapply subseq_drop_tail; apply (g_sub _ G)|].
      eapply Permutation_in; [apply Permutation_sym, (g_perm _ G)|]. apply in_app_iff. now left. }
    assert (IB : In x (finishes b)) by (eapply Permutation_in; eauto).
    rewrite LG, finishes_app in ND2. cbn [finishes flat_map app] in ND2. fold (finishes a) in ND2. rewrite Q, <- app_assoc in ND2.
    revert ND2 IB. clear. generalize (inproc (workers p)). intros l. generalize (finishes b). induction l0 as [|y m IH]; intros N I; [contradiction|]. cbn [app] in N. inversion N; subst.
    destruct I as [->|I]; [|auto]. apply H1. apply in_app_iff. right. now left. }
  rewrite E, app_nil_r. exact PM.
Qed.

(** ** C128 *)
(** Whatever the number of threads and the schedule, once the wait has returned every file holds
    the vector libpuzzle computes for it, or none if it is no image, and every file has been
    counted once.  Missing for the full claim: a spurious return of the wait, see
    [image_threads_refuted], and 2^32 files and more. *)
Theorem parallel_vectors_partial : forall vec (decode : file -> option vec) files k tr p c,
  1 <= k -> (N.of_nat (length files) < 2 ^ 32)%N -> no_waiter_spurious tr ->
  exec (pool_init k [image_calls (length files)]) tr = Some p -> In (EWaitRet c) (log p) ->
  vectors vec decode (map (fun f => mkCell vec f None) files, 0%N) (log p) =
    (map (fun f => mkCell vec f (decode f)) files, N.of_nat (length files)).
Proof.
  intros vec decode files k tr p c K1 LT NS EX IW. pose proof (all_done k _ tr p c K1 LT NS EX IW) as PM.
  rewrite vectors_finishes, <- (fold_perm (at_place vec decode)) with (l := map (fun k => N.of_nat (S k)) (seq 0 (length files))) by (auto; intros; apply compute_comm).
  exact (all_places vec decode files [] 0%N).
Qed.
(** ... and the program prints what it prints when every vector is computed when needed *)
Theorem image_threads_partial : forall vec (decode : file -> option vec) close sep c l tr p cl,
  (N.of_nat (length (collected c l)) < 2 ^ 32)%N -> no_waiter_spurious tr ->
  exec (pool_init NB_WORKER [image_calls (length (collected c l))]) tr = Some p -> In (EWaitRet cl) (log p) ->
  run_threads vec decode close sep (log p) c l = run_image vec decode close sep c l.
Proof.
  intros vec decode close sep c l tr p cl LT NS EX IW. destruct (collect_files_inv c l [] _ collect_inv_empty) as (st & E & I). cbn [app] in I. destruct I as (H & P & _ & _).
  apply Permutation_length in P. unfold run_threads, run_image. rewrite E.
  destruct (_ =? 0)%nat; auto. rewrite P in *.
  rewrite (parallel_vectors_partial vec decode _ NB_WORKER tr p cl) by (auto; unfold NB_WORKER; lia). cbn [fst].
  exact (compare_loop vec decode close sep _ (co_heap st)).
Qed.
(** No two threads are ever at work on the same file, in any schedule whatsoever. *)
Theorem no_shared_image : forall k n tr p i j x y,
  exec (pool_init k [image_calls n]) tr = Some p ->
  nth_error (workers p) i = Some (WProc x) -> nth_error (workers p) j = Some (WProc y) -> i <> j ->
  pred (N.to_nat x) <> pred (N.to_nat y) /\ pred (N.to_nat x) < n /\ pred (N.to_nat y) < n.
Proof.
  intros k n tr p i j x y EX WI WJ NE. rewrite image_calls_main in EX.
  destruct (distinct_work k (places n) tr p i j x y EX WI WJ NE) as (NXY & a & b & -> & -> & LA & LB). rewrite !Nat2N.id. cbn [pred].
  unfold places in LA, LB. rewrite map_length, seq_length in LA, LB. split; [intros ->; congruence|auto].
Qed.

(** ** Where it fails *)
(** The wait returns at once and drops the list: no vector is computed, and nothing is printed
    although two pairs of images are similar. *)
Definition adds5 : list act := concat (repeat [Client 0; Signal 0 [] []] 5).
Definition early : list act := adds5 ++ [Client 0; SpuriousClient 0; Client 0; Client 0; Worker 0; Worker 1; Worker 2; Worker 3; Client 0].
Theorem image_threads_refuted :
  exists p, exec (pool_init NB_WORKER [image_calls (length (collected cf0 pics))]) early = Some p /\
    In (EWaitRet 0) (log p) /\ In (EJoined 0) (log p) /\
    run_threads Z pic near (chr ",") (log p) cf0 pics = ([], [], SOk) /\
    run_image Z pic near (chr ",") cf0 pics =
      ([[mkFile (lit "c") 3 false; mkFile (lit "b") 2 false]; [mkFile (lit "b") 2 false; mkFile (lit "a") 1 false]],
       lit "c,b" ++ [10%N; 10%N] ++ lit "b,a" ++ [10%N; 10%N], SOk).
Proof. eexists. split; [vm_compute; reflexivity|]. split; [vm_compute; auto 15|]. split; [vm_compute; auto 15|]. split; [vm_compute; reflexivity|exact pics_run]. Qed.

(** the hypotheses are met: four workers in turn, then the rest by the first *)
Definition orderly : list act :=
  adds5 ++ [Worker 3; Worker 1; Worker 2; Worker 0; Client 0; Worker 1; Worker 2; Worker 1; Worker 1; Worker 1; Worker 0; Worker 0; Worker 3; Worker 3; Worker 2; Client 0].
Example image_threads_case :
  exists p, exec (pool_init NB_WORKER [image_calls (length (collected cf0 pics))]) orderly = Some p /\ no_waiter_spurious orderly /\
    In (EWaitRet 0) (log p) /\ fst (fst (run_threads Z pic near (chr ",") (log p) cf0 pics)) <> [].
Proof.
  eexists. split; [vm_compute; reflexivity|]. split; [repeat constructor|]. split; [vm_compute; auto 20|vm_compute; discriminate].
Qed.

Print Assumptions parallel_vectors_partial.
Print Assumptions image_threads_partial.
Print Assumptions no_shared_image.
Print Assumptions image_threads_refuted.
