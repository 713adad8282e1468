(** Property C159: the progress lines. *)
From Coq Require Import QArith Qround Sorting.Permutation.
From Verif Require Import Util HeapModel HeapSpec HeapProofs CollectModel ProcessModel IgnoreModel PoolModel PoolSpec PoolProofs PoolSafe PropPool ParModel PropPar
  ReportSpec ReportProofs PropReport ImageModel PropImage ImgParModel PropImgPar ProgModel.
Local Open Scope list_scope.
Local Open Scope nat_scope.

(** ** Specification *)
(** the lines "[a/total]", "[a+1/total]", ..., [m] of them *)
Definition counting (a m : nat) (total : N) : list line := map (fun i => (N.of_nat i, total)) (seq a m).
(** what is used of float arithmetic, in every rounding mode: rounding is monotone, and 0, 1 and
    100 are floats *)
Record rounding (rnd : Q -> Q) : Prop := {
  r_mono : forall x y, (x <= y)%Q -> (rnd x <= rnd y)%Q;
  r_zero : (rnd 0 == 0)%Q; r_one : (rnd 1 == 1)%Q; r_hundred : (rnd (inject_Z 100) == inject_Z 100)%Q }.

(** ** Percentages *)
Section Percent.
Variable rnd : Q -> Q.
Hypothesis R : rounding rnd.
Let num (k : N) : Q := inject_Z (Z.of_N k).
Lemma num_le a b : (a <= b)%N -> (num a <= num b)%Q.
Proof. intro H. unfold num. rewrite <- Zle_Qle. lia. Qed.
Lemma total_pos n : (1 <= n)%N -> (0 < rnd (num n))%Q.
Proof.
  intro H. apply Qlt_le_trans with 1%Q; [reflexivity|]. rewrite <- (r_one _ R). apply (r_mono _ R). apply (num_le 1 n H).
Qed.
Lemma ratio_mono k k' n : (1 <= n)%N -> (k <= k')%N -> (rnd (rnd (num k) / rnd (num n)) <= rnd (rnd (num k') / rnd (num n)))%Q.
Proof.
  intros H L. apply (r_mono _ R). unfold Qdiv. apply Qmult_le_compat_r; [apply (r_mono _ R), num_le, L|]. apply Qlt_le_weak, Qinv_lt_0_compat, total_pos, H.
Qed.
Lemma percent_mono k k' n : (1 <= n)%N -> (k <= k')%N -> (percent rnd (k, n) <= percent rnd (k', n))%Z.
Proof.
  intros H L. unfold percent. cbn [fst snd]. apply Qfloor_resp_le. apply (r_mono _ R). apply Qmult_le_compat_r; [apply ratio_mono; auto|discriminate].
Qed.
Lemma resp x y : (x == y)%Q -> (rnd x == rnd y)%Q.
Proof. intro E. apply Qle_antisym; apply (r_mono _ R); rewrite E; apply Qle_refl. Qed.
Lemma percent_zero n : (1 <= n)%N -> percent rnd (0%N, n) = 0%Z.
Proof.
  intro H. unfold percent. cbn [fst snd]. change (inject_Z (Z.of_N 0)) with 0%Q.
  assert (E : (rnd (rnd (rnd 0 / rnd (inject_Z (Z.of_N n))) * inject_Z 100) == 0)%Q); [|rewrite E; reflexivity].
  apply Qeq_trans with (rnd 0); [|apply (r_zero _ R)]. apply resp. rewrite (resp (rnd 0 / rnd (inject_Z (Z.of_N n))) 0).
  - rewrite (r_zero _ R). ring.
  - rewrite (r_zero _ R). unfold Qdiv. ring.
Qed.
Lemma percent_full n : (1 <= n)%N -> percent rnd (n, n) = 100%Z.
Proof.
  intro H. unfold percent. cbn [fst snd].
  assert (E : (rnd (rnd (rnd (inject_Z (Z.of_N n)) / rnd (inject_Z (Z.of_N n))) * inject_Z 100) == inject_Z 100)%Q); [|rewrite E; reflexivity].
  apply Qeq_trans with (rnd (inject_Z 100)); [|apply (r_hundred _ R)]. apply resp. rewrite (resp (rnd (inject_Z (Z.of_N n)) / rnd (inject_Z (Z.of_N n))) 1).
  - rewrite (r_one _ R). ring.
  - unfold Qdiv. apply Qmult_inv_r. pose proof (total_pos n H) as P. unfold num in P. intro X. rewrite X in P. now apply Qlt_irrefl in P.
Qed.
End Percent.
(** Percentages lie between 0 and 100, do not go down, and are 100 at the end. *)
Theorem percent_sound : forall rnd k k' n, rounding rnd -> (k <= k')%N -> (k' <= n)%N -> (1 <= n)%N ->
  (0 <= percent rnd (k, n) <= percent rnd (k', n))%Z /\ (percent rnd (k', n) <= 100)%Z /\ percent rnd (n, n) = 100%Z.
Proof.
  intros rnd k k' n R L1 L2 N1. split; [split|split].
  - rewrite <- (percent_zero rnd R n N1). apply percent_mono; auto. lia.
  - apply percent_mono; auto.
  - rewrite <- (percent_full rnd R n N1). apply percent_mono; auto.
  - apply percent_full; auto.
Qed.
Print Assumptions percent_sound.

(** ** Hashing *)
Lemma tfind_split s : forall t e, tfind s t = Some e -> exists a b, t = a ++ e :: b /\ fs_val e = s /\
  (forall e', fs_val e' = s -> tupd e' t = a ++ e' :: b) /\ tremove s t = a ++ b.
Proof.
  induction t as [|d t IH]; intros e H; cbn [tfind] in H; [discriminate|]. destruct (Z.eqb_spec (fs_val d) s) as [E|E].
  - injection H as <-. exists [], t. cbn [app tupd tremove]. repeat split; auto; [|destruct (Z.eqb_spec (fs_val d) s); congruence].
    intros e' E'. destruct (Z.eqb_spec (fs_val d) (fs_val e')); [reflexivity|congruence].
  - destruct (IH e H) as (a & b & -> & EV & U & RM). exists (d :: a), b. cbn [app tupd tremove]. repeat split; auto.
    + intros e' E'. destruct (Z.eqb_spec (fs_val d) (fs_val e')); [congruence|]. now rewrite U.
    + destruct (Z.eqb_spec (fs_val d) s); [congruence|]. now rewrite RM.
Qed.
Definition weight (json : bool) (t : table) : nat := length (flat_map fs_arr (filter (should_hash json) t)).
Lemma weight_split json a e b : weight json (a ++ e :: b) = weight json (a ++ b) + (if should_hash json e then length (fs_arr e) else 0).
Proof.
  unfold weight. rewrite !filter_app. cbn [filter]. rewrite !flat_map_app, !app_length. destruct (should_hash json e); cbn [flat_map]; rewrite ?app_length; lia.
Qed.
Definition holds (P : file -> Prop) (t : table) : Prop := forall e, In e t -> Forall (fun k => exists f, k_file k = Some f /\ P f) (fs_arr e).
Lemma categorize_counts junk json (P : file -> Prop) : forall fuel h t th n t' th' n', hwf h -> Forall P (h_tree h) -> holds P t -> NoDup (map fs_val t) ->
  categorize junk fuel json h t th n = (SOk, t', th', n') -> holds P t' /\ NoDup (map fs_val t') /\ n' + weight json t = n + weight json t'.
Proof.
  induction fuel as [|fu IH]; intros h t th n t' th' n' W FP HT ND E; cbn [categorize] in E; [discriminate|].
  destruct (heap_extract_perm file_cmp h W) as (h' & r & EX & W' & PM). rewrite EX in E. destruct r as [f|]; [|injection E as <- _ <-; auto].
  destruct PM as (_ & PM). assert (FP' : P f /\ Forall P (h_tree h')).
  { apply (Permutation_Forall PM) in FP. inversion FP; auto. }
  destruct FP' as (Pf & FP'). destruct (tfind (f_size f) t) as [e|] eqn:TF; [|discriminate].
  destruct (tfind_split _ _ _ TF) as (a & b & -> & EV & U & RM). rewrite EV in E.
  assert (ND' : NoDup (map fs_val (a ++ b))). { rewrite map_app in *. cbn [map] in ND. eapply NoDup_remove_1; exact ND. }
  assert (HT' : holds P (a ++ b)). { intros d I. apply HT. apply in_app_iff. apply in_app_iff in I. destruct I; [auto|right; now right]. }
  destruct (Nat.eqb_spec (fs_nb e) 1) as [N1|N1].
  - rewrite RM in E. destruct (IH _ _ _ _ _ _ _ W' FP' HT' ND' E) as (A & B & C). split; [exact A|]. split; [exact B|]. rewrite weight_split.
    assert (SH : should_hash json e = false) by (unfold should_hash; rewrite N1; destruct json; reflexivity). rewrite SH. lia.
  - destruct (Nat.leb_spec (fs_nb e) (fs_ck e)) as [|LT]; [discriminate|]. assert (N2 : 2 <= fs_nb e) by lia.
    assert (GO : forall hv, let e' := mkFs (f_size f) (fs_arr e ++ [mkChk hv (Some f)]) (fs_nb e) in
      holds P (a ++ e' :: b) /\ NoDup (map fs_val (a ++ e' :: b)) /\ should_hash json e' = should_hash json e).
    { intros hv e'. split; [|split].
      - intros d I. apply in_app_iff in I. destruct I as [I|[<-|I]]; [apply HT'; apply in_app_iff; now left| |apply HT'; apply in_app_iff; now right].
        cbn [e' fs_arr]. apply Forall_app. split; [apply HT; apply in_app_iff; right; now left|]. constructor; [|constructor]. exists f. auto.
      - rewrite map_app in *. cbn [map fs_val e'] in *. rewrite <- EV. exact ND.
      - unfold should_hash. cbn [e' fs_nb fs_val]. now rewrite EV. }
    destruct (((fs_nb e =? 2) || (f_size f =? 0)%Z) && negb json)%bool eqn:DR.
    + destruct (heap_insert file_cmp th f) as [th1| |]; try discriminate. destruct (GO 0%N) as (A1 & A2 & A3). rewrite U in E by reflexivity.
      destruct (IH _ _ _ _ _ _ _ W' FP' A1 A2 E) as (A & B & C). split; [exact A|]. split; [exact B|]. rewrite weight_split in C. rewrite weight_split. rewrite A3 in C.
      assert (SH : should_hash json e = false).
      { apply andb_true_iff in DR. destruct DR as (D1 & D2). destruct json; [discriminate|]. unfold should_hash. rewrite EV. apply orb_true_iff in D1. destruct D1 as [D1|D1].
        - apply Nat.eqb_eq in D1. rewrite D1. reflexivity.
        - rewrite D1. apply andb_false_r. }
      rewrite SH in *. lia.
    + destruct (GO (junk f)) as (A1 & A2 & A3). rewrite U in E by reflexivity.
      destruct (IH _ _ _ _ _ _ _ W' FP' A1 A2 E) as (A & B & C). split; [exact A|]. split; [exact B|]. rewrite weight_split in C. rewrite weight_split. rewrite A3 in C. cbn [fs_arr] in C. rewrite app_length in C. cbn [length] in C.
      assert (SH : should_hash json e = true).
      { unfold should_hash. destruct json; [now apply Nat.leb_le|]. cbn [negb] in DR. rewrite andb_true_r in DR. apply orb_false_iff in DR. destruct DR as (D1 & D2). rewrite EV, D2. apply Nat.eqb_neq in D1. cbn [negb]. rewrite andb_true_r. apply Nat.ltb_lt. lia. }
      rewrite SH in *. lia.
Qed.
Lemma cell_tasks_full e : Forall (fun k => exists f, k_file k = Some f) (fs_arr e) -> length (cell_tasks e) = length (fs_arr e).
Proof.
  intro F. unfold cell_tasks. rewrite map_length.
  rewrite (proj2 (forallb_filter_id _ _)) || (replace (filter _ (seq 0 (length (fs_arr e)))) with (seq 0 (length (fs_arr e))); [apply seq_length|]).
  symmetry. assert (X : forall l, (forall i, In i l -> i < length (fs_arr e)) -> filter (fun i => match nth_error (fs_arr e) i with Some {| k_file := Some _ |} => true | _ => false end) l = l).
  { induction l as [|i l IHl]; intros H; [reflexivity|]. cbn [filter]. destruct (nth_error (fs_arr e) i) as [k|] eqn:Q.
    - rewrite Forall_forall in F. destruct (F k (nth_error_In _ _ Q)) as (f & K). destruct k as [hv o]. cbn in K. subst o. f_equal. apply IHl. intros j J. apply H. now right.
    - exfalso. apply nth_error_None in Q. specialize (H i ltac:(now left)). lia. }
  apply X. intros i I. apply in_seq in I. lia.
Qed.
Lemma tasks_weight iter json t : Permutation (iter t) t -> (forall e, In e t -> Forall (fun k => exists f, k_file k = Some f) (fs_arr e)) -> length (tasks_of iter json t) = weight json t.
Proof.
  intros PM F. unfold tasks_of. rewrite (Permutation_length (Permutation_flat_map _ PM)). unfold weight. clear PM. induction t as [|e t IH]; [reflexivity|]. cbn [flat_map filter]. rewrite app_length.
  rewrite IH by (intros d I; apply F; now right). destruct (should_hash json e); [|reflexivity]. cbn [flat_map]. rewrite app_length, cell_tasks_full; auto. apply F. now left.
Qed.
Section Lines.
Variable hash_of : file -> option N.
Lemma event_counts ts m e : (snd m <= snd (effect hash_of ts m [e]) <= snd m + N.of_nat (length (finishes [e])))%N.
Proof.
  unfold effect. cbn [fold_left]. destruct e; cbn [finishes flat_map length app]; try lia.
  destruct (nth_error ts _) as [[v i]|]; [|lia]. cbn [callback snd]. destruct (existsb _ _); lia.
Qed.
Lemma effect_cons ts m e l : effect hash_of ts m (e :: l) = effect hash_of ts (effect hash_of ts m [e]) l.
Proof. reflexivity. Qed.
Lemma hash_lines_count ts total : forall l m, (snd m <= snd (effect hash_of ts m l))%N /\
  hash_lines hash_of ts total m l = counting (S (N.to_nat (snd m))) (N.to_nat (snd (effect hash_of ts m l)) - N.to_nat (snd m)) total.
Proof.
  induction l as [|e l IH]; intros m.
  - unfold effect. cbn [fold_left hash_lines]. rewrite Nat.sub_diag. split; [lia|reflexivity].
  - cbn [hash_lines]. rewrite effect_cons. destruct (IH (effect hash_of ts m [e])) as (L1 & L2). rewrite L2. pose proof (event_counts ts m e) as EC.
    assert (F1 : length (finishes [e]) <= 1) by (destruct e; cbn; lia). set (m1 := effect hash_of ts m [e]) in *. split; [lia|].
    destruct (N.ltb_spec (snd m) (snd m1)) as [H|H].
    + assert (E1 : N.to_nat (snd m1) = S (N.to_nat (snd m))) by lia. rewrite E1.
      replace (N.to_nat (snd (effect hash_of ts m1 l)) - N.to_nat (snd m)) with (S (N.to_nat (snd (effect hash_of ts m1 l)) - S (N.to_nat (snd m)))) by lia.
      unfold counting. cbn [seq map app]. f_equal. f_equal. lia.
    + assert (E1 : snd m1 = snd m) by lia. rewrite E1. reflexivity.
Qed.
Lemma effect_bound ts : forall l m, (snd (effect hash_of ts m l) <= snd m + N.of_nat (length (finishes l)))%N.
Proof.
  induction l as [|e l IH]; intros m; [unfold effect; cbn; lia|]. rewrite effect_cons. pose proof (IH (effect hash_of ts m [e])) as X. pose proof (event_counts ts m e) as Y.
  change (finishes (e :: l)) with (finishes ([e] ++ l)). unfold finishes in *. rewrite flat_map_app, app_length. lia.
Qed.
End Lines.
Lemma subseq_length {A} (l m : list A) : PoolSpec.subseq l m -> length l <= length m.
Proof. induction 1; cbn [length]; lia. Qed.
Lemma finishes_bound n ts tr p : exec (pool_init n [main_calls ts]) tr = Some p -> length (finishes (log p)) <= length ts.
Proof.
  intro EX. destruct (handed_at_most_once n [main_calls ts] tr p EX) as (S & (now & PM & _) & _). apply subseq_length in S. apply Permutation_length in PM. rewrite app_length in PM.
  pose proof (J_exec _ _ _ _ (J_init n ts) EX) as JJ. destruct (j_one _ _ JJ) as (c & _ & AD & _). apply (f_equal (@length N)) in AD. rewrite app_length, addresses_length in AD. lia.
Qed.
Lemma collected_holds c l st : collect_files c l coll_empty = HOk st ->
  hwf (co_heap st) /\ Forall (fun f => In f (collected c l)) (h_tree (co_heap st)) /\ holds (fun f => In f (collected c l)) (co_sizes st) /\ NoDup (map fs_val (co_sizes st)) /\ forall json, weight json (co_sizes st) = 0.
Proof.
  intro E. destruct (collect_files_inv c l [] _ collect_inv_empty) as (st' & E' & I). rewrite E in E'. injection E' as <-. cbn [app] in I. destruct I as (H & P & ND & TF).
  assert (EM : forall e, In e (co_sizes st) -> fs_arr e = []).
  { intros e I. assert (X : tfind (fs_val e) (co_sizes st) = Some e).
    { clear -ND I. unfold keys in ND. induction (co_sizes st) as [|d t IH]; [destruct I|]. cbn [map] in ND. inversion ND; subst. cbn [tfind]. destruct I as [->|I]; [now rewrite Z.eqb_refl|].
      destruct (Z.eqb_spec (fs_val d) (fs_val e)) as [X|X]; [|auto]. exfalso. apply H1. rewrite X. now apply in_map. }
    rewrite TF in X. destruct (_ =? 0); [discriminate|]. injection X as <-. reflexivity. }
  split; [apply H|]. split; [|split; [|split; [exact ND|]]].
  - apply Forall_forall. intros f I. eapply Permutation_in; [apply Permutation_sym; exact P|exact I].
  - intros e I. rewrite EM by exact I. constructor.
  - intro json. unfold weight. clear -EM. induction (co_sizes st) as [|e t IH]; [reflexivity|]. cbn [filter]. destruct (should_hash json e); cbn [flat_map]; rewrite ?app_length, ?IH by (intros d I; apply EM; now right).
    + now rewrite EM by now left.
    + reflexivity.
Qed.

(** At every moment of every run of the pool the lines count 1, 2, 3, ... and stay within the
    total, which is the number of tasks. *)
Theorem hash_progress_counts : forall hash_of junk iter json c l st fuel t th total n tr p,
  collect_files c l coll_empty = HOk st -> categorize junk fuel json (co_heap st) (co_sizes st) heap_make 0 = (SOk, t, th, total) ->
  Permutation (iter t) t -> exec (pool_init n [main_calls (tasks_of iter json t)]) tr = Some p ->
  total = length (tasks_of iter json t) /\
  exists m, m <= total /\ hash_lines hash_of (tasks_of iter json t) (N.of_nat total) (t, 0%N) (log p) = counting 1 m (N.of_nat total).
Proof.
  intros hash_of junk iter json c l st fuel t th total n tr p CF CA IT EX. destruct (collected_holds c l st CF) as (W & FP & HT & ND & W0).
  destruct (categorize_counts junk json _ fuel _ _ _ _ _ _ _ W FP HT ND CA) as (HT' & _ & WT). rewrite W0 in WT.
  assert (TL : total = length (tasks_of iter json t)).
  { rewrite tasks_weight; auto; [lia|]. intros e I. eapply Forall_impl; [|apply (HT' e I)]. cbn. intros k (f & K & _). eauto. }
  split; [exact TL|]. destruct (hash_lines_count hash_of (tasks_of iter json t) (N.of_nat total) (log p) (t, 0%N)) as (_ & HL). rewrite HL. cbn [snd N.to_nat]. rewrite Nat.sub_0_r.
  eexists. split; [|reflexivity]. pose proof (effect_bound hash_of (tasks_of iter json t) (log p) (t, 0%N)) as B. cbn [snd] in B. pose proof (finishes_bound n _ tr p EX). lia.
Qed.
Print Assumptions hash_progress_counts.
(** When the wait returns, a line has been written for every file that could be hashed; if all
    could, the last one is "[total/total]". Missing: a spurious return of the wait (C35). *)
Theorem hash_progress_ends_partial : forall hash_of junk iter json c l st fuel t th total n tr p before cl after,
  collect_files c l coll_empty = HOk st -> categorize junk fuel json (co_heap st) (co_sizes st) heap_make 0 = (SOk, t, th, total) ->
  Permutation (iter t) t -> 1 <= n -> (N.of_nat total < 2 ^ 32)%N -> no_waiter_spurious tr ->
  exec (pool_init n [main_calls (tasks_of iter json t)]) tr = Some p -> log p = before ++ EWaitRet cl :: after ->
  (forall f, In f (collected c l) -> hash_of f <> None) ->
  hash_lines hash_of (tasks_of iter json t) (N.of_nat total) (t, 0%N) before = counting 1 total (N.of_nat total).
Proof.
  intros hash_of junk iter json c l st fuel t th total n tr p before cl after CF CA IT N1 LT NS EX LG ALL. destruct (collected_holds c l st CF) as (W & FP & HT & ND & W0).
  destruct (categorize_counts junk json _ fuel _ _ _ _ _ _ _ W FP HT ND CA) as (HT' & ND' & WT). rewrite W0 in WT.
  assert (TL : total = length (tasks_of iter json t)).
  { rewrite tasks_weight; auto; [lia|]. intros e I. eapply Forall_impl; [|apply (HT' e I)]. cbn. intros k (f & K & _). eauto. }
  pose proof (parallel_hashing_partial hash_of iter json t n tr p before cl after N1 IT ND' ltac:(rewrite <- TL; exact LT) NS EX LG) as PH.
  destruct (hash_lines_count hash_of (tasks_of iter json t) (N.of_nat total) before (t, 0%N)) as (_ & HL). rewrite HL. unfold table in *. rewrite PH. cbn [snd N.to_nat]. rewrite Nat.sub_0_r. f_equal. rewrite Nat2N.id.
  assert (X : total = weight json t) by lia. rewrite X. unfold weight. f_equal.
  assert (Y : forall ks, (forall k, In k ks -> exists f, k_file k = Some f /\ In f (collected c l)) ->
    filter (fun k => match k_file k with Some f => match hash_of f with Some _ => true | None => false end | None => false end) ks = ks).
  { induction ks as [|k ks IH]; intros H; [reflexivity|]. cbn [filter]. destruct (H k ltac:(now left)) as (f & -> & I). specialize (ALL f I). destruct (hash_of f); [|congruence]. f_equal. apply IH. intros k' J. apply H. now right. }
  apply Y. intros k I. apply in_flat_map in I. destruct I as (e & Ie & Ik). apply filter_In in Ie. destruct Ie as (Ie & _). specialize (HT' e Ie). rewrite Forall_forall in HT'. auto.
Qed.
Print Assumptions hash_progress_ends_partial.

(** ** Images *)
Section ImageLines.
Variable vec : Type.
Variable decode : file -> option vec.
Lemma vector_counts (m : list (cell vec) * N) e : (snd m <= snd (vectors vec decode m [e]) <= snd m + N.of_nat (length (finishes [e])))%N.
Proof.
  unfold vectors. cbn [fold_left]. destruct e; cbn [finishes flat_map length app]; try lia. unfold compute_vector. destruct (nth_error (fst m) _); cbn [snd]; lia.
Qed.
Lemma vector_lines_count total : forall l m, (snd m <= snd (vectors vec decode m l))%N /\
  vector_lines vec decode total m l = counting (N.to_nat (snd m)) (N.to_nat (snd (vectors vec decode m l)) - N.to_nat (snd m)) total.
Proof.
  induction l as [|e l IH]; intros m.
  - unfold vectors. cbn [fold_left vector_lines]. rewrite Nat.sub_diag. split; [lia|reflexivity].
  - cbn [vector_lines]. change (vectors vec decode m (e :: l)) with (vectors vec decode (vectors vec decode m [e]) l). destruct (IH (vectors vec decode m [e])) as (L1 & L2). rewrite L2. pose proof (vector_counts m e) as EC.
    assert (F1 : length (finishes [e]) <= 1) by (destruct e; cbn; lia). set (m1 := vectors vec decode m [e]) in *. split; [lia|].
    destruct (N.ltb_spec (snd m) (snd m1)) as [H|H].
    + assert (E1 : N.to_nat (snd m1) = S (N.to_nat (snd m))) by lia. rewrite E1.
      replace (N.to_nat (snd (vectors vec decode m1 l)) - N.to_nat (snd m)) with (S (N.to_nat (snd (vectors vec decode m1 l)) - S (N.to_nat (snd m)))) by lia.
      unfold counting. cbn [seq map app]. f_equal. f_equal. lia.
    + assert (E1 : snd m1 = snd m) by lia. rewrite E1. reflexivity.
Qed.
Lemma vectors_bound : forall l m, (snd (vectors vec decode m l) <= snd m + N.of_nat (length (finishes l)))%N.
Proof.
  induction l as [|e l IH]; intros m; [unfold vectors; cbn; lia|]. change (vectors vec decode m (e :: l)) with (vectors vec decode (vectors vec decode m [e]) l).
  pose proof (IH (vectors vec decode m [e])) as X. pose proof (vector_counts m e) as Y.
  change (finishes (e :: l)) with (finishes ([e] ++ l)). unfold finishes in *. rewrite flat_map_app, app_length. lia.
Qed.
(** decoded images *)
Definition decoded (tree : list (cell vec)) : nat := length (filter (fun c => match ce_vec vec c with Some _ => true | None => false end) tree).
Lemma row_count total : forall tree cnt, row_lines vec total cnt tree = (counting (N.to_nat cnt) (decoded tree) total, (cnt + N.of_nat (decoded tree))%N).
Proof.
  induction tree as [|g r IH]; intro cnt; cbn [row_lines].
  - unfold decoded, counting. cbn. f_equal. lia.
  - unfold decoded in *. cbn [filter]. destruct (ce_vec vec g); [|apply IH]. rewrite IH. cbn [length]. f_equal; [|lia]. unfold counting. cbn [seq map]. f_equal; [f_equal; lia|]. f_equal. f_equal. lia.
Qed.
Lemma decoded_perm a b : Permutation a b -> decoded a = decoded b.
Proof.
  unfold decoded. induction 1 as [|x l l' _ IH|x y l|l l' l'' _ IH1 _ IH2]; cbn [filter]; auto.
  - destruct (ce_vec vec x); cbn [length]; lia.
  - destruct (ce_vec vec x), (ce_vec vec y); reflexivity.
  - congruence.
Qed.
Fixpoint pairs (d : nat) : nat := match d with O => O | S k => k + pairs k end.
Lemma counting_app a m k total : counting a m total ++ counting (a + m) k total = counting a (m + k) total.
Proof. unfold counting. now rewrite seq_app, map_app. Qed.
Lemma compare_count total : forall fuel h cnt, hwf h -> length (h_tree h) < fuel ->
  compare_lines vec fuel total cnt h = (counting (N.to_nat cnt) (pairs (decoded (h_tree h))) total, (cnt + N.of_nat (pairs (decoded (h_tree h))))%N, SOk).
Proof.
  induction fuel as [|fu IH]; intros h cnt W LF; [lia|]. cbn [compare_lines]. destruct (heap_extract_perm (cell_cmp vec) h W) as (h' & r & EX & W' & PM). rewrite EX. destruct r as [c|].
  - destruct PM as (_ & PM). rewrite (decoded_perm _ _ PM). apply Permutation_length in PM. cbn [length] in PM. unfold decoded at 1 2. cbn [filter].
    destruct (ce_vec vec c); [|fold (decoded (h_tree h')); apply IH; auto; lia]. cbn [length]. fold (decoded (h_tree h')). rewrite row_count. rewrite IH by (auto; lia).
    cbn [pairs]. f_equal. f_equal; [|lia]. replace (N.to_nat (cnt + N.of_nat (decoded (h_tree h')))) with (N.to_nat cnt + decoded (h_tree h')) by lia. apply counting_app.
  - destruct PM as (-> & _). cbn. f_equal. f_equal. lia.
Qed.
End ImageLines.
Lemma decoded_le vec t : decoded vec t <= length t.
Proof. unfold decoded. induction t as [|c t IH]; [auto|]. cbn [filter]. destruct (ce_vec vec c); cbn [length]; lia. Qed.
Lemma pairs_double d : (2 * N.of_nat (pairs d) = N.of_nat d * (N.of_nat d - 1))%N.
Proof. induction d as [|d IH]; [reflexivity|]. cbn [pairs]. rewrite Nat2N.inj_add. nia. Qed.
(** While the vectors are computed the lines count 0, 1, 2, ... and stay below the number of
    files, which the line written after the wait shows. *)
Theorem vector_progress_counts : forall vec (decode : file -> option vec) files n tr p,
  exec (pool_init n [image_calls (length files)]) tr = Some p ->
  exists m, m <= length files /\ vector_lines vec decode (N.of_nat (length files)) (map (fun f => mkCell vec f None) files, 0%N) (log p) = counting 0 m (N.of_nat (length files)).
Proof.
  intros vec decode files n tr p EX. destruct (vector_lines_count vec decode (N.of_nat (length files)) (log p) (map (fun f => mkCell vec f None) files, 0%N)) as (_ & HL). rewrite HL. cbn [snd N.to_nat]. rewrite Nat.sub_0_r.
  eexists. split; [|reflexivity]. pose proof (vectors_bound vec decode (log p) (map (fun f => mkCell vec f None) files, 0%N)) as B. cbn [snd] in B. rewrite image_calls_main in EX.
  pose proof (finishes_bound n _ tr p EX) as F. unfold places in F. rewrite map_length, seq_length in F. lia.
Qed.
Print Assumptions vector_progress_counts.
(** The comparisons of up to 65536 files are counted 0, 1, 2, ... within the total, which is
    reached if all files are images. *)
Theorem compare_progress_partial : forall vec (h : heap (cell vec)) s, s = length (h_tree h) -> (N.of_nat s <= h_max h)%N -> (N.of_nat s <= 65536)%N ->
  exists m total, compare_progress vec h = (counting 0 m total, (N.of_nat m, total), SOk) /\ (2 * total = N.of_nat s * (N.of_nat s - 1))%N /\ (N.of_nat m <= total)%N /\
    ((forall c, In c (h_tree h) -> ce_vec vec c <> None) -> N.of_nat m = total).
Proof.
  intros vec h s Es W L. unfold compare_progress. rewrite <- Es. rewrite compare_count by (try exact W; unfold hwf; lia).
  assert (T : nb_cmp s = N.of_nat (pairs s)).
  { unfold nb_cmp. pose proof (pairs_double s) as PD. destruct s as [|s]; [reflexivity|].
    replace ((N.of_nat (S s) + 2 ^ 32 - 1) mod 2 ^ 32)%N with (N.of_nat (S s) - 1)%N.
    - rewrite <- PD. rewrite N.mod_small by nia. rewrite N.mul_comm. apply N.div_mul. discriminate.
    - replace (N.of_nat (S s) + 2 ^ 32 - 1)%N with ((N.of_nat (S s) - 1) + 1 * 2 ^ 32)%N by lia. rewrite N.mod_add by discriminate. rewrite N.mod_small; lia. }
  exists (pairs (decoded vec (h_tree h))), (nb_cmp s). split; [reflexivity|]. rewrite T. split; [apply pairs_double|].
  assert (DL : decoded vec (h_tree h) <= s) by (rewrite Es; apply decoded_le).
  split.
  - pose proof (pairs_double s). pose proof (pairs_double (decoded vec (h_tree h))). nia.
  - intro A. f_equal. f_equal. rewrite Es. unfold decoded. f_equal. clear -A. induction (h_tree h) as [|c t IH]; [reflexivity|]. cbn [filter]. pose proof (A c ltac:(now left)).
    destruct (ce_vec vec c); [|congruence]. f_equal. apply IH. intros d I. apply A. now right.
Qed.
Print Assumptions compare_progress_partial.
(** With more files the total is taken modulo 2^32 and the count runs past it. *)
Theorem compare_progress_refuted : forall s, (65537 <= N.of_nat s)%N -> (N.of_nat s < 2 ^ 32)%N ->
  exists (h : heap (cell unit)) m total ls, length (h_tree h) = s /\ (N.of_nat s <= h_max h)%N /\
    compare_progress unit h = (ls, (m, total), SOk) /\ (2 * m = N.of_nat s * (N.of_nat s - 1))%N /\ (total < m)%N.
Proof.
  intros s L H. set (c := mkCell unit (mkFile [] 0 false) (Some tt)). set (h := mkHeap (repeat c s) (N.of_nat s)).
  assert (D : decoded unit (h_tree h) = s) by (unfold decoded; cbn [h h_tree]; clear; induction s as [|s IH]; [reflexivity|]; cbn [repeat filter ce_vec c length]; now rewrite IH).
  assert (LH : length (h_tree h) = s) by apply repeat_length.
  exists h, (N.of_nat (pairs s)), (nb_cmp s), (counting 0 (pairs s) (nb_cmp s)). split; [exact LH|]. split; [cbn [h h_max]; lia|]. split.
  - unfold compare_progress. rewrite LH, compare_count, D by (try (unfold hwf; rewrite LH; cbn [h h_max]; lia); lia). reflexivity.
  - pose proof (pairs_double s) as PD. split; [exact PD|]. unfold nb_cmp.
    replace ((N.of_nat s + 2 ^ 32 - 1) mod 2 ^ 32)%N with (N.of_nat s - 1)%N.
    + rewrite <- PD. apply N.div_lt_upper_bound; [discriminate|]. pose proof (N.mod_upper_bound (2 * N.of_nat (pairs s)) (2 ^ 32) ltac:(discriminate)). nia.
    + replace (N.of_nat s + 2 ^ 32 - 1)%N with ((N.of_nat s - 1) + 1 * 2 ^ 32)%N by lia. rewrite N.mod_add by discriminate. rewrite N.mod_small; lia.
Qed.
Print Assumptions compare_progress_refuted.
(** When the wait returns, every file has its line. Missing: a spurious return (C35). *)
Theorem vector_progress_ends_partial : forall vec (decode : file -> option vec) files n tr p cl,
  1 <= n -> (N.of_nat (length files) < 2 ^ 32)%N -> no_waiter_spurious tr ->
  exec (pool_init n [image_calls (length files)]) tr = Some p -> In (EWaitRet cl) (log p) ->
  vector_lines vec decode (N.of_nat (length files)) (map (fun f => mkCell vec f None) files, 0%N) (log p) = counting 0 (length files) (N.of_nat (length files)).
Proof.
  intros vec decode files n tr p cl N1 LT NS EX IW. pose proof (parallel_vectors_partial vec decode files n tr p cl N1 LT NS EX IW) as PV.
  destruct (vector_lines_count vec decode (N.of_nat (length files)) (log p) (map (fun f => mkCell vec f None) files, 0%N)) as (_ & HL). rewrite HL, PV. cbn [snd N.to_nat]. rewrite Nat.sub_0_r, Nat2N.id. reflexivity.
Qed.
Print Assumptions vector_progress_ends_partial.

(** ** The hypotheses are met *)
(** three files of seven bytes, two workers, the third file cannot be hashed: two lines of three *)
Definition three : list (list N * finfo) :=
  [([1%N], mkInfo TReg 7 0 0 0xFFF); ([2%N], mkInfo TReg 7 0 0 0xFFF); ([3%N], mkInfo TReg 7 0 0 0xFFF)].
Definition two_workers : list act := add3 ++ [Worker 1; Worker 0; Client 0; Worker 0; Worker 0; Worker 1; Worker 0; Worker 1; Worker 0; Client 0].
Definition good_hash (_ : file) : option N := Some 5%N.
Definition shown (hash : file -> option N) : option (list line * nat * bool) :=
  match collect_files cf0 three coll_empty with
  | HOk st =>
    match categorize (fun _ => 9%N) 9 false (co_heap st) (co_sizes st) heap_make 0 with
    | (SOk, t, _, total) =>
      match exec (pool_init 2 [main_calls (tasks_of (fun t => t) false t)]) two_workers with
      | Some p => Some (hash_lines hash (tasks_of (fun t => t) false t) (N.of_nat total) (t, 0%N) (log p), total, existsb (fun e => match e with EWaitRet _ => true | _ => false end) (log p))
      | None => None end
    | _ => None end
  | _ => None end.
Example hash_progress_case : shown par_hash = Some ([(1%N, 3%N); (2%N, 3%N)], 3, true) /\ shown good_hash = Some ([(1%N, 3%N); (2%N, 3%N); (3%N, 3%N)], 3, true) /\
  (forall f, In f (collected cf0 three) -> good_hash f <> None) /\ length (collected cf0 three) = 3 /\ no_waiter_spurious two_workers.
Proof. split; [vm_compute; reflexivity|]. split; [vm_compute; reflexivity|]. split; [discriminate|]. split; [reflexivity|]. repeat constructor. Qed.
Example vector_progress_case : exists p, exec (pool_init NB_WORKER [image_calls (length (collected cf0 pics))]) orderly = Some p /\
  vector_lines Z pic 5%N (map (fun f => mkCell Z f None) (collected cf0 pics), 0%N) (log p) = [(0, 5); (1, 5); (2, 5); (3, 5); (4, 5)]%N.
Proof. eexists. split; [vm_compute; reflexivity|vm_compute; reflexivity]. Qed.
(** four files, one of them no image: three of the six comparisons are made *)
Definition four : heap (cell unit) :=
  let c p v := mkCell unit (mkFile [p] 7 false) v in mkHeap [c 1%N (Some tt); c 2%N (Some tt); c 3%N None; c 4%N (Some tt)] 8.
Example compare_progress_case : compare_progress unit four = ([(0, 6); (1, 6); (2, 6)]%N, (3%N, 6%N), SOk).
Proof. vm_compute. reflexivity. Qed.
(** a rounding to multiples of 2^-23, downwards *)
Definition grid (x : Q) : Q := (inject_Z (Qfloor (x * inject_Z 8388608)) / inject_Z 8388608)%Q.
Example percent_case : rounding grid /\ percent grid (1%N, 3%N) = 33%Z /\ percent grid (2%N, 3%N) = 66%Z /\ percent grid (3%N, 3%N) = 100%Z.
Proof.
  split; [|repeat split; vm_compute; reflexivity]. split; try (vm_compute; reflexivity). intros x y L. unfold grid, Qdiv. apply Qmult_le_compat_r; [|discriminate].
  rewrite <- Zle_Qle. apply Qfloor_resp_le. apply Qmult_le_compat_r; [exact L|discriminate].
Qed.
