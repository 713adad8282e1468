(** Property C148: the database and the size of its memory map. *)
From Verif Require Import Util PageModel PageSpec PageProofs PageOps PropPage TxnModel CursorModel TreeModel TreeSpec TreeProofs TreeOps TreeSplit TreePut TreeShape TxnInv DbModel SysModel DbSpec DbProofs CursorSpec DbCommit PropTree PropCommit PropEnds TreeTotal PropOrder PropTotal PropLoad CacheModel PropCache PropMany PropWrap.
From Coq Require Import Sorting.Sorted.
Local Open Scope N_scope.

(** ** Specification *)
(** napr_db_get of [k] reads page [q] through the map: it comes to [q] from the root, and [q] is not
    one of the transaction's own copies; db_get_page, napr_db_tree.c:142-157 *)
Definition reads_page (E : env) (t : txn) (k : bytes) (q : N) : Prop :=
  t_root t <> 0 /\ (exists n, goes_in E t k n (t_root t) q) /\ (t_rdonly t = true \/ dget (t_dirty t) q = None).
(** page [q] lies in a map of [M] bytes, which is made once, when the file is opened;
    napr_db.c:227 and napr_db_tree.c:156 *)
Definition mapped (M q : N) : Prop := (q + 1) * 4096 <= M.

(** ** Lemmas *)
Lemma goes_tree E t k : forall n h pg q, shape (get_page E t) h pg -> goes_in E t k n pg q -> In q (tree_pages (get_page E t) h pg).
Proof.
  induction n as [|n IH]; intros h pg q S G; inversion G; subst.
  - destruct h; cbn [tree_pages]; now left.
  - match goal with H : goes E t k pg _ |- _ => destruct H as (L & _ & C) end. destruct h as [|h]; cbn [shape tree_pages] in *.
    + destruct S as (_ & W & _). rewrite (wf_is_leaf _ _ W) in L. discriminate.
    + destruct S as (_ & W & _ & NE & F). right. apply in_flat_map.
      destruct (child_of_entry (get_page E t pg) k W) as (c & C' & I).
      { destruct (N.eq_0_gt_0_cases (pg_nkeys (get_page E t pg))) as [Z|]; [|assumption]. exfalso. apply NE. apply length_zero_iff_nil.
        rewrite branch_entries_length. lia. }
      rewrite C in C'. injection C' as <-. apply in_map_iff in I. destruct I as (e & <- & I). exists e. split; [exact I|].
      rewrite Forall_forall in F. eapply IH; eauto.
Qed.
Lemma goes_leaf E t k : blen k < 65536 -> forall h pg, shape (get_page E t) h pg -> goes_in E t k h pg (leaf_on (get_page E t) k h pg).
Proof.
  intros Hk. induction h as [|h IH]; intros pg S; cbn [shape] in S; [constructor|].
  destruct S as (_ & W & S & Hne & F). destruct (child_of_ok _ k W S Hk Hne) as (pre & ki & c & post & Ee & _ & Ec & Hp & _ & Ho).
  assert (Sc : shape (get_page E t) h c). { rewrite Forall_forall in F. apply (F (ki, c)). rewrite Ee. apply in_app_iff; cbn; auto. }
  cbn [leaf_on]. rewrite (rank_route _ k pre ki c post S Ee Hp Ho), Ee, nth_error_mid. apply goes_on with (q := c); [|apply IH; exact Sc].
  split; [rewrite (wf_is_leaf _ _ W); reflexivity|]. split; [|exact Ec]. apply (wf_is_branch _ _ W).
Qed.
(** of [n] different page numbers from 2 on, one is greater than [n] *)
Lemma far_page : forall l, NoDup l -> Forall (fun q => 2 <= q) l -> l <> [] -> exists q, In q l /\ N.of_nat (length l) + 1 <= q.
Proof.
  intros l ND F NE. destruct (Exists_dec (fun q => N.of_nat (length l) + 1 <= q) l) as [X|X].
  - intro q. destruct (N.leb (N.of_nat (length l) + 1) q) eqn:X; [left; apply N.leb_le; exact X|right; apply N.leb_gt in X; lia].
  - apply Exists_exists in X. exact X.
  - exfalso. assert (I : incl l (map N.of_nat (seq 2 (length l - 1)))).
    { intros q Hq. rewrite Forall_forall in F. specialize (F q Hq). apply in_map_iff. exists (N.to_nat q). split; [lia|]. apply in_seq.
      destruct (N.le_gt_cases (N.of_nat (length l) + 1) q); [|lia]. exfalso. apply X. apply Exists_exists. eauto. }
    apply (NoDup_incl_length ND) in I. rewrite map_length, seq_length in I. destruct l; [congruence|]. cbn [length] in I. lia.
Qed.
(** a key is in one leaf only *)
Lemma one_home {T} (f : T -> list (bytes * bytes)) : forall L, NoDup (map fst (flat_map f L)) -> forall a b k, In a L -> In b L -> In k (map fst (f a)) -> In k (map fst (f b)) ->
  NoDup L -> a = b.
Proof.
  induction L as [|x L IH]; intros ND a b k Ha Hb Ka Kb NL; [destruct Ha|]. cbn [flat_map] in ND. rewrite map_app in ND. inversion NL; subst.
  assert (D : forall y, In y (map fst (f x)) -> In y (map fst (flat_map f L)) -> False).
  { clear - ND. induction (map fst (f x)) as [|z r IHr]; intros y [] Y; inversion ND; subst; [|eauto]. rewrite in_app_iff in *. tauto. }
  assert (D2 : NoDup (map fst (flat_map f L))) by (clear - ND; induction (map fst (f x)); [exact ND|inversion ND; auto]).
  assert (G : forall c, In c L -> In k (map fst (f c)) -> In k (map fst (flat_map f L))).
  { intros c Hc Kc. apply in_map_iff in Kc. destruct Kc as (e & <- & He). apply in_map. apply in_flat_map. eauto. }
  destruct Ha as [->|Ha], Hb as [->|Hb]; auto; try (exfalso; eapply D; [|eapply G]; eauto; fail). eapply IH; eauto.
Qed.

(** * C148 *)

(** In a healthy database every page a lookup reads lies in the map, as long as the pages
    committed do.  Missing for the full claim: nothing makes the pages committed do so. *)
Theorem reads_in_map_partial : forall E k q M, healthy E -> blen k < 65536 -> (m_last (live_meta E) + 1) * 4096 <= M ->
  reads_page E (reader E) k q -> mapped M q.
Proof.
  intros E k q M (LK & HH) Hk HM (Nz & (n & G) & _). pose proof (begun_is E LK) as B. destruct (HH _ _ B) as ((_ & SH) & _).
  pose proof (begin_fields _ _ _ B) as (_ & Et). destruct SH as [Z|(h & _ & _ & S & _ & F)].
  { exfalso. apply Nz. rewrite Et in Z. exact Z. }
  assert (V : forall x, get_page (set_locked E true) (begun E) x = get_page E (reader E) x) by (intro x; rewrite Et; reflexivity).
  assert (RR : t_root (begun E) = t_root (reader E)) by (rewrite Et; reflexivity). rewrite RR in S, F.
  assert (S' : shape (get_page E (reader E)) h (t_root (reader E))) by (eapply shape_frame; [|exact S]; intros; symmetry; apply V).
  pose proof (goes_tree E (reader E) k n h _ q S' G) as I. destruct (kvs_frame _ _ h (t_root (reader E)) (fun x _ => eq_sym (V x))) as (_ & P). rewrite P in I.
  rewrite Forall_forall in F. apply F in I. rewrite Et in I. cbn [t_last] in I. unfold mapped. lia.
Qed.
Print Assumptions reads_in_map_partial.

(** Whatever the size [M] of the map: a load of [M] bytes or more is committed without an error,
    and then reading some key loaded goes beyond the end of the map. *)
Theorem load_leaves_map : forall M E l ka kb sa sb,
  blank_db E (length l) -> N.of_nat (length l) < 2 ^ 32 -> StronglySorted klt (map fst l) -> even_sizes ka kb sa sb l -> 0 < kcost l -> M <= kcost l ->
  exists E' k v q, transact E (puts l) = Ok E' /\ In (k, v) l /\ reads_page E' (reader E') k q /\ ~ mapped M q.
Proof.
  intros M E l ka kb sa sb HB HN HS SZ K0 KM. destruct (loaded E l ka kb sa sb HB HN HS SZ) as (E' & TR & _ & (_ & BK & _) & LD).
  exists E'. destruct LD as (LK & FO & MF & L1 & L2 & [(_ & ->)|(h & Hh & Nz & T & BU & ND & PG & EK)]); [cbn in K0; lia|].
  pose proof (tree_shape _ _ _ _ _ _ T) as S. pose proof (leaves_cost _ _ _ S) as LC. rewrite EK in LC. set (L := leaves (e_file E') h (m_root (live_meta E'))) in *.
  assert (NL : NoDup L) by (apply NoDup_filter; exact ND).
  destruct (far_page L NL) as (q & Hq & Bq).
  { rewrite Forall_forall in *. intros x Hx. unfold L, leaves in Hx. apply filter_In in Hx. destruct Hx as (Hx & _). apply PG in Hx. lia. }
  { intro X. rewrite X in LC. cbn in LC. lia. }
  pose proof (bushy_leaf _ _ _ _ S BU Hq) as NE. destruct (leaf_entries (e_file E' q)) as [|(k, v) es] eqn:LE; [congruence|].
  assert (IE : In (k, v) l). { rewrite <- EK, (kvs_leaves _ _ _ S). apply in_flat_map. exists q. split; [exact Hq|]. rewrite LE. now left. }
  exists k, v, q. split; [exact TR|]. split; [exact IE|].
  assert (Hk : blen k < 65536) by (rewrite Forall_forall in BK; apply (BK _ IE)).
  assert (V : forall x, get_page E' (reader E') x = e_file E' x) by reflexivity.
  split.
  - split; [exact Nz|]. split; [|left; reflexivity]. exists h. change (t_root (reader E')) with (m_root (live_meta E')).
    pose proof (goes_leaf E' (reader E') k Hk h (m_root (live_meta E')) S) as G.
    replace (leaf_on (get_page E' (reader E')) k h (m_root (live_meta E'))) with q in G; [exact G|].
    destruct (shape_leaf (get_page E' (reader E')) k h _ S) as (IL & WL & _). set (q' := leaf_on (get_page E' (reader E')) k h (m_root (live_meta E'))) in *.
    assert (HQ : In q' L) by (unfold L, leaves; apply filter_In; split; [exact IL|apply (wf_is_leaf _ _ WL)]).
    assert (KQ : In k (map fst (leaf_entries (e_file E' q')))).
    { apply lookup_in_iff. destruct (shape_find E' (reader E') k Hk h _ S) as ((path & R & EL & _) & _).
      pose proof (route_leaf_lookup false (e_file E') k h _ path None None R T ND) as X. rewrite <- EL in X. fold q' in X. rewrite <- X. apply lookup_in_iff. rewrite EK. apply (in_map fst) in IE. exact IE. }
    apply (one_home (fun x => leaf_entries (e_file E' x)) L) with (k := k); auto.
    + unfold L. pose proof (kvs_leaves _ _ _ S) as KL. rewrite EK in KL. change (NoDup (map fst (flat_map (fun q0 => leaf_entries (e_file E' q0)) (leaves (e_file E') h (m_root (live_meta E')))))). rewrite <- KL. apply sorted_keys. exact HS.
    + rewrite LE. cbn [map fst]. now left.
  - unfold mapped. lia.
Qed.
Print Assumptions load_leaves_map.

(** ** Cases *)
(** keys of four bytes, most significant byte first *)
Fixpoint be (n : nat) (i : N) : bytes := match n with O => [] | S m => be m (i / 256) ++ [i mod 256] end.
Lemma be_length : forall n i, length (be n i) = n.
Proof. induction n as [|n IH]; intro i; cbn [be]; [reflexivity|]. rewrite app_length, IH. cbn. lia. Qed.
Lemma klt_app : forall a b x y, klt a b -> length a = length b -> klt (a ++ x) (b ++ y).
Proof.
  induction a as [|u a IH]; intros [|w b] x y H L; cbn [length app] in *; try lia; inversion H; subst; [apply klt_head; assumption|apply klt_tail; apply IH; auto].
Qed.
Lemma klt_same : forall a x y, klt x y -> klt (a ++ x) (a ++ y).
Proof. induction a as [|u a IH]; intros; cbn [app]; auto. apply klt_tail. auto. Qed.
Lemma be_lt : forall n i j, i < j -> j < 256 ^ N.of_nat n -> klt (be n i) (be n j).
Proof.
  induction n as [|n IH]; intros i j H Hj; [change (256 ^ N.of_nat 0) with 1 in Hj; lia|]. cbn [be].
  replace (N.of_nat (S n)) with (N.succ (N.of_nat n)) in Hj by lia. rewrite N.pow_succ_r' in Hj.
  pose proof (N.div_mod i 256 ltac:(lia)) as A. pose proof (N.div_mod j 256 ltac:(lia)) as B.
  pose proof (N.mod_lt i 256 ltac:(lia)) as C. pose proof (N.mod_lt j 256 ltac:(lia)) as D.
  destruct (N.lt_trichotomy (i / 256) (j / 256)) as [X|[X|X]]; [| |lia].
  - apply klt_app; [|rewrite !be_length; reflexivity]. apply IH; [exact X|]. apply N.div_lt_upper_bound; [lia|exact Hj].
  - rewrite X. apply klt_same. apply klt_head. lia.
Qed.
Definition heap_of (n : nat) : list (bytes * bytes) := map (fun i => (be 4 (N.of_nat i), fill 1900 1)) (seq 0 n).
Lemma heap_sorted : forall n a, N.of_nat (a + n) <= 2 ^ 32 -> StronglySorted klt (map fst (map (fun i => (be 4 (N.of_nat i), fill 1900 1)) (seq a n))).
Proof.
  intros n a. rewrite map_map. cbn [fst]. revert a. induction n as [|n IH]; intros a Ha; cbn [seq map]; constructor; [apply IH; lia|].
  apply Forall_forall. intros x Hx. apply in_map_iff in Hx. destruct Hx as (i & <- & Hi). apply in_seq in Hi. apply be_lt; [lia|].
  change (256 ^ N.of_nat 4) with (2 ^ 32). lia.
Qed.
Lemma heap_load n : N.of_nat n < 2 ^ 32 -> blank_db env_create (length (heap_of n)) /\ N.of_nat (length (heap_of n)) < 2 ^ 32 /\
  StronglySorted klt (map fst (heap_of n)) /\ even_sizes 4 4 1904 1904 (heap_of n) /\ kcost (heap_of n) = 1910 * N.of_nat n.
Proof.
  intros Hn. assert (L : length (heap_of n) = n) by (unfold heap_of; rewrite map_length, seq_length; reflexivity). rewrite L.
  split.
  { assert (M : m_last (live_meta env_create) = 1) by (vm_compute; reflexivity). unfold blank_db. rewrite M.
    split; [vm_compute; reflexivity|]. split; [intro q; left; split; reflexivity|]. split; [vm_compute; reflexivity|]. split; [vm_compute; reflexivity|].
    split; [lia|]. clear - Hn. lia. }
  split; [exact Hn|]. split; [apply heap_sorted; lia|]. split.
  { split; [apply balanced_same; lia|]. split; [apply balanced_same; lia|]. split; [lia|].
    apply Forall_forall. intros e He. apply in_map_iff in He. destruct He as (i & <- & Hi). cbn [fst snd].
    unfold blen. rewrite be_length. unfold fill. rewrite !repeat_length. lia. }
  unfold kcost, heap_of. rewrite map_map. rewrite (map_ext _ (fun _ => 1910)).
  - clear. generalize 0%nat. induction n as [|n IH]; intro a; [reflexivity|]. cbn [seq map]. change (sumN (1910 :: map (fun _ => 1910) (seq (S a) n))) with (1910 + sumN (map (fun _ => 1910) (seq (S a) n))). rewrite IH. lia.
  - intro i. cbn [fst snd]. unfold leaf_size, LEAF_BASE, blen. rewrite be_length. unfold fill. rewrite repeat_length. reflexivity.
Qed.
(** so no map size up to 4 TiB is enough; the one of the cache is 10 GB (napr_cache.c:102-103) *)
Theorem reads_in_map_refuted : forall M, M <= 2 ^ 42 ->
  exists l E' k v q, transact env_create (puts l) = Ok E' /\ In (k, v) l /\ reads_page E' (reader E') k q /\ ~ mapped M q.
Proof.
  intros M HM. set (n := N.to_nat (M / 1910 + 1)). exists (heap_of n).
  assert (D : M / 1910 < 2 ^ 32 - 1) by (apply N.div_lt_upper_bound; lia).
  destruct (heap_load n) as (A & B & C & DD & F); [unfold n; lia|].
  assert (X : M < 1910 * N.of_nat n). { unfold n. rewrite N2Nat.id. pose proof (N.div_mod M 1910 ltac:(lia)) as X. pose proof (N.mod_lt M 1910 ltac:(lia)). lia. }
  apply (load_leaves_map M _ _ _ _ _ _ A B C DD); rewrite F; lia.
Qed.
Print Assumptions reads_in_map_refuted.

(** a small database in a map of 64 KiB *)
Example reads_case : healthy (c_env cache3) /\ (m_last (live_meta (c_env cache3)) + 1) * 4096 <= 65536 /\
  reads_page (c_env cache3) (reader (c_env cache3)) [97] (t_root (reader (c_env cache3))).
Proof.
  split; [apply sweep_case|]. split; [vm_compute; discriminate|]. split; [vm_compute; discriminate|]. split; [|left; reflexivity]. exists 0%nat. constructor.
Qed.
