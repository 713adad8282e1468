(** Property C147: what the commit of a very large transaction writes. *)
From Verif Require Import Util PageModel PageSpec PageProofs PageOps PropPage TxnModel CursorModel TreeModel TreeSpec TreeProofs TreeOps TreeSplit TreePut TreeShape TxnInv DbModel SysModel DbSpec DbProofs CursorSpec DbCommit PropTree PropCommit TreeTotal PropOrder PropTotal PropLoad PropCache PropMany.
From Coq Require Import Sorting.Sorted.
Local Open Scope N_scope.

(** ** Lemmas *)
(** a list of [n] pages in a new Free DB, when its size does not fit in 16 bits *)
Lemma commit_wide E t : t_rdonly t = false -> t_free_root t = 0 -> t_dirty t <> [] -> 8190 < N.of_nat (length (t_freed t)) ->
  db_commit E t None = if u16 (12 + 8 * N.of_nat (length (t_freed t))) <=? 4076 then (E, UB) else (set_locked E false, Err ENOSPC).
Proof.
  intros Hr Hz ND HN. set (n := N.of_nat (length (t_freed t))) in *.
  set (k := le_bytes 8 (t_id t)). set (v := enc_pgnos (t_freed t)).
  assert (SZ : leaf_size k v = 12 + 8 * n) by (unfold leaf_size, LEAF_BASE, k, v; rewrite blen_enc, blen_le; fold n; lia).
  assert (P : populate_free_db page_alloc E t = new_root_leaf page_alloc E t k v).
  { unfold populate_free_db. rewrite Hz. cbn [N.eqb orb]. destruct (t_freed t); [cbn in n; lia|reflexivity]. }
  unfold new_root_leaf in P. rewrite (Q_alloc0 E t Hz Hr) in P. cbn [bindo] in P. set (t1 := set_last t (t_last t + 1)) in *.
  pose proof (init_wf true (t_last t + 1)) as W. change (kind true) with P_LEAF in W. set (p := init_page (t_last t + 1) P_LEAF) in *.
  assert (PI : page_insert p 0 k (Some v) 0 = if u16 (12 + 8 * n) <=? 4076 then UB else Err ENOSPC).
  { unfold page_insert. rewrite (wf_is_leaf _ _ W). cbn [bindr].
    replace (LEAF_BASE + blen k + blen v) with (12 + 8 * n) by (unfold leaf_size in SZ; lia).
    assert (UP : pg_upper p = 4096) by apply init_upper. assert (LO : pg_lower p = 18) by apply init_lower. rewrite UP, LO.
    assert (NK : pg_nkeys p = 0) by apply init_nkeys. rewrite NK. change (sub16 4096 18) with 4078. set (s := u16 (12 + 8 * n)).
    assert (S1 : s < 65536) by (unfold s, u16; apply N.mod_lt; lia).
    destruct (N.leb_spec s 4076); destruct (N.ltb_spec 4078 (s + 2)); try lia; [|reflexivity].
    change (slot_in_page (N.max 0 0)) with true. cbv iota zeta. rewrite blen_leaf, SZ.
    destruct (N.leb_spec (sub16 4096 s + (12 + 8 * n)) PAGE_SIZE) as [Y|]; [unfold PAGE_SIZE in Y; lia|reflexivity]. }
  unfold db_commit. destruct (t_dirty t) as [|d0 dl]; [congruence|]. rewrite P, PI. destruct (_ <=? _); reflexivity.
Qed.

(** a deletion replaces at most one page per level *)
Lemma find_path_length E t k : forall f pg path leaf, find_path f E t pg k = Ok (path, leaf) -> (length path <= f)%nat.
Proof.
  induction f as [|f IH]; intros pg path leaf H; cbn [find_path] in H; [discriminate|]. destruct (_ <? _); [discriminate|]. cbv zeta in H.
  destruct (is_leaf _); [injection H as <- _; cbn; lia|]. destruct (negb _); [discriminate|].
  destruct (child_of _ k) as [c|e| |]; cbn [bindr] in H; try discriminate.
  destruct (find_path f E t c k) as [[path' leaf']|e| |] eqn:FP; cbn [bindr] in H; try discriminate. injection H as <- _. apply IH in FP. cbn [length]. lia.
Qed.
Lemma cow_path_freed E : forall l t t', cow_path E t l = Ret tt t' -> (length (t_freed t') <= length (t_freed t) + length l)%nat.
Proof.
  induction l as [|q l IH]; intros t t' H; cbn [cow_path] in H; [injection H as <-; lia|].
  assert (X : forall x t1, cow_page E t q = Ret x t1 -> (length (t_freed t1) <= length (t_freed t) + 1)%nat).
  { intros x t1. unfold cow_page, get_writable. destruct (dget (t_dirty t) q); [intros [= <- <-]; lia|]. destruct (t_rdonly t); [discriminate|]. cbv zeta.
    destruct (dget (t_dirty t) (pg_pgno _)); intros [= <- <-]; [lia|]. cbn [set_freed t_freed]. rewrite app_length. cbn. lia. }
  destruct (cow_page E t q) as [x t1|e t1| |]; cbn [bindo] in H; try discriminate. specialize (X _ _ eq_refl). apply IH in H. cbn [length]. lia.
Qed.
Lemma del_freed E t k t' : db_del E t k None = Ret tt t' -> (length (t_freed t') <= length (t_freed t) + 32)%nat.
Proof.
  intro H. unfold db_del in H. destruct (t_rdonly t); [discriminate|]. destruct (t_root t =? 0); [discriminate|].
  destruct (find_path _ _ _ _ _) as [[path leaf]|e| |] eqn:FP; cbn [lift bindo] in H; try discriminate. apply find_path_length in FP. unfold MAX_TREE_DEPTH in FP.
  destruct (page_search leaf k) as [[[] i]|e| |]; cbn [lift bindo] in H; try discriminate.
  destruct (cow_path E t (rev path)) as [[] t3|e t3| |] eqn:CP; cbn [bindo] in H; try discriminate. apply cow_path_freed in CP. rewrite rev_length in CP.
  destruct (dget (t_dirty t3) (leaf_of path)); [|discriminate]. destruct (page_delete _ _); cbn [lift bindo] in H; try discriminate.
  injection H as <-. cbn [put_dirty set_dirty t_freed]. lia.
Qed.

(** what a run of deletions has freed goes up in steps of at most 32 *)
Lemma dels_between E : forall ks t t' m, (length (t_freed t) < m)%nat -> do_ops E t (dels ks) = Ret tt t' -> (m <= length (t_freed t'))%nat ->
  exists j t2, do_ops E t (dels (firstn j ks)) = Ret tt t2 /\ (m <= length (t_freed t2) <= m + 31)%nat.
Proof.
  induction ks as [|k ks IH]; intros t t' m H0 H Hm; cbn [dels map do_ops do_op] in H.
  - injection H as <-. lia.
  - destruct (db_del E t k None) as [[] t1|e t1| |] eqn:D; cbn [bindo] in H; try discriminate. pose proof (del_freed _ _ _ _ D) as X.
    destruct (Nat.lt_ge_cases (length (t_freed t1)) m) as [L|L].
    + destruct (IH t1 t' m L H Hm) as (j & t2 & A & B). exists (S j), t2. cbn [firstn dels map do_ops do_op]. rewrite D. cbn [bindo]. auto.
    + exists 1%nat, t1. cbn [firstn dels map do_ops do_op]. rewrite D. cbn [bindo]. split; [reflexivity|]. lia.
Qed.
Lemma firstn_incl {T} n (l : list T) : incl (firstn n l) l.
Proof. intros x H. rewrite <- (firstn_skipn n l). apply in_or_app. auto. Qed.
Lemma firstn_NoDup {T} n (l : list T) : NoDup l -> NoDup (firstn n l).
Proof.
  revert n. induction l as [|x l IH]; intros [|n] H; cbn [firstn]; try constructor; inversion H; subst; auto. intro X. apply firstn_incl in X. tauto.
Qed.
Lemma sorted_keys l : StronglySorted klt l -> NoDup l.
Proof. intro C. induction C as [|k ks HS IH F]; constructor; auto. intro X. rewrite Forall_forall in F. exact (klt_irrefl _ (F _ X)). Qed.

(** the transaction that deletes the keys [ks], whatever their number *)
Lemma laid_defined E l ks : laid E l -> Forall (fun e => blen (fst e) < 65536) l -> NoDup ks -> incl ks (map fst l) ->
  (N.of_nat (length l) <= 4095 \/ m_last (live_meta E) <= 8191 -> (exists E', transact E (dels ks) = Ok E') \/ transact E (dels ks) = Err ENOSPC) /\
  (508 * 4078 < kcost l -> ks = map fst l -> transact E (dels ks) = Err ENOSPC \/ transact E (dels ks) = UB).
Proof.
  intros LD BK NK IK. pose proof LD as (LK & FO & _). pose proof (begun_is E LK) as B. destruct ks as [|k0 ks0].
  { split.
    - intros _. left. exists E. unfold transact, dels. rewrite B. cbn [map do_ops]. pose proof (begin_fields _ _ _ B) as (_ & Et).
      unfold db_commit. rewrite Et. cbn [t_dirty]. destruct E as [f a b c d lk]. cbn in LK. subst lk. reflexivity.
    - intros KC EQ. destruct l; [cbn in KC; lia|discriminate]. }
  set (ks := k0 :: ks0) in *. assert (NE : ks <> []) by (unfold ks; discriminate).
  destruct (laid_dels E l ks LD BK NK IK NE) as (t' & _ & DO & R1 & R2 & R3 & R4 & R5 & R6 & R7 & R8 & R9 & R10).
  assert (TR : transact E (dels ks) = match db_commit (set_locked E true) t' None with (E2, Ok _) => Ok E2 | (_, Err e) => Err e | (_, UB) => UB | (_, Fuel) => Fuel end).
  { unfold transact. rewrite B, DO. reflexivity. }
  split.
  - intro SM. pose proof (commit_first (set_locked E true) t' R1 R2 R3 R4 R5 R6 R7 ltac:(lia)) as CF.
    destruct (_ <=? 508); [destruct CF as (E' & CF); left; exists E'|right]; rewrite TR, CF; reflexivity.
  - intros KC EQ. specialize (R10 EQ). destruct (N.le_gt_cases (N.of_nat (length (t_freed t'))) 8190) as [L|L].
    + pose proof (commit_first (set_locked E true) t' R1 R2 R3 R4 R5 R6 R7 L) as CF. destruct (N.leb_spec (N.of_nat (length (t_freed t'))) 508); [lia|].
      left. rewrite TR, CF. reflexivity.
    + pose proof (commit_wide (set_locked E true) t' R1 R2 R4 L) as CF. destruct (_ <=? 4076); [right|left]; rewrite TR, CF; reflexivity.
Qed.

(** * C147 *)

(** After a load into a file of at most 8192 pages, or of at most 4095 pairs, deleting any set of keys in
    one transaction succeeds or is refused.  Missing for the full claim: larger files (see below). *)
Theorem delete_defined_partial : forall E l ka kb sa sb ks,
  blank_db E (length l) -> N.of_nat (length l) < 2 ^ 32 -> StronglySorted klt (map fst l) -> even_sizes ka kb sa sb l ->
  NoDup ks -> incl ks (map fst l) ->
  exists E', transact E (puts l) = Ok E' /\
    (N.of_nat (length l) <= 4095 \/ m_last (live_meta E') <= 8191 ->
       (exists E2, transact E' (map Del ks) = Ok E2) \/ transact E' (map Del ks) = Err ENOSPC).
Proof.
  intros E l ka kb sa sb ks HB HN HS SZ NK IK. destruct (loaded E l ka kb sa sb HB HN HS SZ) as (E' & TR & _ & (_ & BK & _) & LD).
  exists E'. split; [exact TR|]. apply (laid_defined E' l ks LD BK NK IK).
Qed.
Print Assumptions delete_defined_partial.

(** Deleting all keys of more than 508 leaves never succeeds, whatever the size. *)
Theorem delete_all_never : forall E l ka kb sa sb,
  blank_db E (length l) -> N.of_nat (length l) < 2 ^ 32 -> StronglySorted klt (map fst l) -> even_sizes ka kb sa sb l -> 508 * 4078 < kcost l ->
  exists E', transact E (puts l) = Ok E' /\ (transact E' (map Del (map fst l)) = Err ENOSPC \/ transact E' (map Del (map fst l)) = UB).
Proof.
  intros E l ka kb sa sb HB HN HS SZ KC. destruct (loaded E l ka kb sa sb HB HN HS SZ) as (E' & TR & _ & (_ & BK & _) & LD).
  exists E'. split; [exact TR|]. apply (laid_defined E' l (map fst l) LD BK); auto; [|apply incl_refl]. apply sorted_keys. exact HS.
Qed.
Print Assumptions delete_all_never.

(** Whenever the pairs loaded need more than 8192 leaves, there are keys the deletion of which makes
    the commit write outside the page it allocated: the 16 bits of the size of the list of freed
    pages overflow, so the list of more than 64 KiB is taken to fit. *)
Theorem delete_many_overflows : forall E l ka kb sa sb,
  blank_db E (length l) -> N.of_nat (length l) < 2 ^ 32 -> StronglySorted klt (map fst l) -> even_sizes ka kb sa sb l -> 8192 * 4078 < kcost l ->
  exists E' j, transact E (puts l) = Ok E' /\ transact E' (map Del (firstn j (map fst l))) = UB.
Proof.
  intros E l ka kb sa sb HB HN HS SZ KC. destruct (loaded E l ka kb sa sb HB HN HS SZ) as (E' & TR & _ & (_ & BK & _) & LD).
  assert (NK : NoDup (map fst l)) by (apply sorted_keys; exact HS). assert (NE : map fst l <> []) by (destruct l; [cbn in KC; lia|discriminate]).
  destruct (laid_dels E' l (map fst l) LD BK NK (incl_refl _) NE) as (t' & B & DO & _ & _ & _ & _ & _ & _ & _ & _ & _ & R10). specialize (R10 eq_refl).
  pose proof (begin_fields _ _ _ B) as (_ & Et).
  destruct (dels_between (set_locked E' true) (map fst l) (begun E') t' (N.to_nat 8192)) as (j & t2 & D2 & R); [rewrite Et; cbn [t_freed length]; lia|exact DO|lia|].
  exists E', j. split; [exact TR|].
  assert (NJ : firstn j (map fst l) <> []).
  { intro X. rewrite X in D2. cbn [dels map do_ops] in D2. injection D2 as <-. rewrite Et in R. cbn [t_freed length] in R. lia. }
  destruct (laid_dels E' l (firstn j (map fst l)) LD BK (firstn_NoDup _ _ NK) (firstn_incl _ _) NJ) as (t3 & _ & D3 & R1 & R2 & R3 & R4 & _).
  rewrite D2 in D3. injection D3 as <-.
  assert (RN : 8192 <= N.of_nat (length (t_freed t2)) <= 8223) by lia. clear R R10.
  pose proof (commit_wide (set_locked E' true) t2 R1 R2 R4 ltac:(lia)) as CF.
  replace (u16 (12 + 8 * N.of_nat (length (t_freed t2)))) with (12 + 8 * (N.of_nat (length (t_freed t2)) - 8192)) in CF.
  - destruct (N.leb_spec (12 + 8 * (N.of_nat (length (t_freed t2)) - 8192)) 4076); [|lia].
    unfold transact. rewrite B. unfold dels in D2. rewrite D2, CF. reflexivity.
  - unfold u16. replace (12 + 8 * N.of_nat (length (t_freed t2))) with ((12 + 8 * (N.of_nat (length (t_freed t2)) - 8192)) + 1 * 65536) by lia.
    rewrite N.mod_add by lia. rewrite N.mod_small; lia.
Qed.
Print Assumptions delete_many_overflows.

(** ** Cases *)
Lemma digits_lt i j : (i < j)%nat -> klt (digits i) (digits j).
Proof.
  intro H. apply kltb_spec. unfold digits. cbn [kltb]. rewrite andb_false_r, orb_false_r.
  pose proof (N.div_mod (N.of_nat i) 256 ltac:(lia)) as A. pose proof (N.div_mod (N.of_nat j) 256 ltac:(lia)) as B.
  pose proof (N.mod_lt (N.of_nat i) 256 ltac:(lia)) as C. pose proof (N.mod_lt (N.of_nat j) 256 ltac:(lia)) as D.
  destruct (N.ltb_spec (N.of_nat i / 256) (N.of_nat j / 256)); [reflexivity|]. cbn [orb].
  apply andb_true_iff. rewrite N.eqb_eq, N.ltb_lt. lia.
Qed.
Lemma pile_sorted : forall n a, StronglySorted klt (map fst (map (fun i => (digits i, fill 1900 1)) (seq a n))).
Proof.
  intros n a. rewrite map_map. cbn [fst]. revert a. induction n as [|n IH]; intro a; cbn [seq map]; constructor; [apply IH|].
  apply Forall_forall. intros x Hx. apply in_map_iff in Hx. destruct Hx as (i & <- & Hi). apply in_seq in Hi. apply digits_lt. lia.
Qed.
Lemma large_pile n : N.of_nat n < 2 ^ 32 -> blank_db env_create (length (pile n)) /\ N.of_nat (length (pile n)) < 2 ^ 32 /\
  StronglySorted klt (map fst (pile n)) /\ even_sizes 2 2 1902 1902 (pile n) /\ kcost (pile n) = 1908 * N.of_nat n.
Proof.
  intros Hn. assert (L : length (pile n) = n) by (unfold pile; rewrite map_length, seq_length; reflexivity). rewrite L.
  split.
  { assert (M : m_last (live_meta env_create) = 1) by (vm_compute; reflexivity). unfold blank_db. rewrite M.
    split; [vm_compute; reflexivity|]. split; [intro q; left; split; reflexivity|]. split; [vm_compute; reflexivity|]. split; [vm_compute; reflexivity|].
    split; [lia|]. clear - Hn. lia. }
  split; [exact Hn|]. split; [apply pile_sorted|]. split.
  { split; [apply balanced_same; lia|]. split; [apply balanced_same; lia|]. split; [lia|].
    apply Forall_forall. intros e He. apply in_map_iff in He. destruct He as (i & <- & Hi). cbn [fst snd].
    unfold blen. unfold fill. rewrite !repeat_length. cbn [length digits]. lia. }
  unfold kcost, pile. rewrite map_map. rewrite (map_ext _ (fun _ => 1908)).
  - clear. generalize 0%nat. induction n as [|n IH]; intro a; [reflexivity|]. cbn [seq map]. change (sumN (1908 :: map (fun _ => 1908) (seq (S a) n))) with (1908 + sumN (map (fun _ => 1908) (seq (S a) n))). rewrite IH. lia.
  - intro i. cbn [fst snd]. unfold leaf_size, LEAF_BASE, blen, fill. rewrite repeat_length. reflexivity.
Qed.
(** every pile of more than 17509 pairs of 1902 bytes (33 MB); 65536 is the number of keys of two bytes *)
Theorem delete_defined_refuted : forall n, 17510 <= N.of_nat n <= 65536 ->
  exists E' j, transact env_create (puts (pile n)) = Ok E' /\ transact E' (map Del (firstn j (map fst (pile n)))) = UB.
Proof.
  intros n Hn. destruct (large_pile n) as (A & B & C & D & F); [lia|]. apply (delete_many_overflows _ _ _ _ _ _ A B C D). rewrite F. lia.
Qed.
Print Assumptions delete_defined_refuted.

(** 4000 pairs *)
Example defined_case : forall n, n = N.to_nat 4000 -> blank_db env_create (length (pile n)) /\ N.of_nat (length (pile n)) <= 4095 /\
  StronglySorted klt (map fst (pile n)) /\ even_sizes 2 2 1902 1902 (pile n) /\ NoDup (map fst (pile n)) /\ 508 * 4078 < kcost (pile n).
Proof.
  intros n ->. destruct (large_pile (N.to_nat 4000)) as (A & B & C & D & F); [lia|]. split; [exact A|]. split; [unfold pile; rewrite map_length, seq_length; lia|].
  split; [exact C|]. split; [exact D|]. split; [apply sorted_keys; exact C|rewrite F; lia].
Qed.
