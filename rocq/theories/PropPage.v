(** Properties C01 to C06: the key order and the page functions. *)
From Verif Require Import Util PageModel PageSpec PageProofs PageOps.
Local Open Scope N_scope.

(** ** C01 *)
Theorem key_order_total :
  (forall a, key_compare a a = Eq) /\
  (forall a b, key_compare b a = CompOpp (key_compare a b)) /\
  (forall a b c, key_compare a b = Lt -> key_compare b c = Lt -> key_compare a c = Lt) /\
  (forall a b, key_compare a b = Eq -> a = b) /\
  (forall a x s, key_compare a (a ++ x :: s) = Lt) /\
  (forall a b, key_compare a b = Lt <-> klt a b).
Proof.
  splits.
  - intro a. apply key_compare_Eq. reflexivity.
  - intros a b. pose proof (key_compare_spec a b) as H. destruct (key_compare a b); cbn [CompOpp].
    + apply key_compare_Eq. auto.
    + apply key_compare_Gt. auto.
    + apply key_compare_Lt. auto.
  - intros a b c H1 H2. rewrite key_compare_Lt in *. eapply klt_trans; eauto.
  - intros a b. apply key_compare_Eq.
  - intros a x s. apply key_compare_Lt. induction a; cbn [app]; [apply klt_nil|apply klt_tail; auto].
  - apply key_compare_Lt.
Qed.
Print Assumptions key_order_total.

Example key_order_ex : key_compare [] [0] = Lt /\ key_compare [1; 2] [1; 2; 0] = Lt /\ key_compare [200] [3; 9] = Gt.
Proof. repeat split. Qed.

(** ** C02 *)
(** 'Not found' comes with the insertion point: the keys before it are smaller,
    those from it on are greater. *)
Theorem page_search_correct : forall leaf p k,
  wf_page leaf p -> ksorted (page_keys leaf p) -> blen k < 65536 ->
  exists found i, page_search p k = Ok (found, i) /\
    (found = true <-> In k (page_keys leaf p)) /\
    (found = true -> nth_error (page_keys leaf p) (N.to_nat i) = Some k) /\
    (found = false -> (N.to_nat i <= length (page_keys leaf p))%nat /\
       forall j x, nth_error (page_keys leaf p) j = Some x ->
         ((j < N.to_nat i)%nat -> klt x k) /\ ((N.to_nat i <= j)%nat -> klt k x)).
Proof.
  intros leaf p k W S Hk. destruct (page_search_ok leaf p k W S Hk) as (b & i & E & Hi & H).
  exists b, i. split; auto. destruct b.
  - destruct H as [Hi' Hkey].
    assert (Hn : nth_error (page_keys leaf p) (N.to_nat i) = Some k).
    { rewrite page_keys_nth by lia. rewrite N2Nat.id. f_equal. exact Hkey. }
    splits; try discriminate; auto. split; auto. intros _. eapply nth_error_In; eauto.
  - destruct H as [HL HR].
    assert (G : forall j x, nth_error (page_keys leaf p) j = Some x ->
         ((j < N.to_nat i)%nat -> klt x k) /\ ((N.to_nat i <= j)%nat -> klt k x)).
    { intros j x Hj. assert (Hl := nth_error_Some_lt _ _ _ Hj). rewrite page_keys_length in Hl.
      rewrite page_keys_nth in Hj by auto. injection Hj as <-. split; intro; [apply HL|apply HR]; lia. }
    splits; try discriminate.
    + split; [discriminate|]. intro Hin. exfalso. apply In_nth_error in Hin. destruct Hin as [j Hj].
      destruct (G _ _ Hj) as [G1 G2]. destruct (Nat.lt_ge_cases j (N.to_nat i)) as [C|C];
      [apply G1 in C|apply G2 in C]; eapply klt_irrefl; eauto.
    + intros _. split; [rewrite page_keys_length; lia|exact G].
Qed.
Print Assumptions page_search_correct.

(** A probe key of 65536 bytes or more is truncated (napr_db_tree.c:94, 100): on this
    page holding the single key [7], a 65537-byte key starting with 7 is 'found'. *)
Definition one_key_page : page :=
  match page_insert (init_page 2 P_LEAF) 0 [7] (Some [1]) 0 with Ok p => p | _ => zero_page end.

Theorem long_probe_mistaken_refuted : exists p k,
  wf_page true p /\ ksorted (page_keys true p) /\
  ~ In k (page_keys true p) /\ page_search p k = Ok (true, 0).
Proof.
  exists one_key_page, (7 :: repeat 1 (N.to_nat 65536)).
  assert (H := page_insert_ok true (init_page 2 P_LEAF) 0 [7] (Some [1]) 0 _ (init_wf true 2)
           ltac:(rewrite init_nkeys; lia) eq_refl ltac:(vm_compute; reflexivity)).
  change (page_free (init_page 2 P_LEAF) <? _) with false in H.
  destruct H as (p' & E & W & _). unfold one_key_page. rewrite E. split; [exact W|].
  assert (Hp : p' = one_key_page) by (unfold one_key_page; rewrite E; reflexivity).
  subst p'. assert (Ek : page_keys true one_key_page = [[7]]) by (vm_compute; reflexivity).
  rewrite Ek. splits.
  - repeat constructor.
  - intros [H|[]]. apply (f_equal (@length N)) in H. cbn [length] in H. rewrite repeat_length in H. lia.
  - vm_compute. reflexivity.
Qed.
Print Assumptions long_probe_mistaken_refuted.

(** ** C03 *)
Theorem page_insert_leaf_correct : forall p index k v child,
  wf_page true p -> index <= pg_nkeys p -> leaf_size k v < 65536 ->
  (page_free p < leaf_size k v + 2 /\ page_insert p index k (Some v) child = Err ENOSPC) \/
  (leaf_size k v + 2 <= page_free p /\
   exists p', page_insert p index k (Some v) child = Ok p' /\ wf_page true p' /\
     leaf_entries p' = insert_at (N.to_nat index) (k, v) (leaf_entries p) /\
     pg_pgno p' = pg_pgno p /\
     page_free p' = page_free p - (leaf_size k v + 2)).
Proof.
  intros p index k v child W Hi Hs.
  pose proof (page_insert_ok true p index k (Some v) child (leaf_node_bytes k v) W Hi eq_refl) as H.
  rewrite blen_leaf in H. specialize (H Hs).
  destruct (N.ltb_spec (page_free p) (leaf_size k v + 2)); [left; auto|right]. split; auto.
  destruct H as (p' & E & W' & R & _ & P & F & _). exists p'. splits; auto.
  rewrite !leaf_entries_raws, R, insert_at_map. f_equal.
  unfold leaf_size, LEAF_BASE in Hs. rewrite raw_key_leaf, raw_val_leaf by lia. reflexivity.
Qed.
Print Assumptions page_insert_leaf_correct.

Theorem page_insert_branch_correct : forall p index k child,
  wf_page false p -> index <= pg_nkeys p -> branch_size k < 65536 -> child < 2 ^ 64 ->
  (page_free p < branch_size k + 2 /\ page_insert p index k None child = Err ENOSPC) \/
  (branch_size k + 2 <= page_free p /\
   exists p', page_insert p index k None child = Ok p' /\ wf_page false p' /\
     branch_entries p' = insert_at (N.to_nat index) (k, child) (branch_entries p) /\
     pg_pgno p' = pg_pgno p /\
     page_free p' = page_free p - (branch_size k + 2)).
Proof.
  intros p index k child W Hi Hs Hc.
  pose proof (page_insert_ok false p index k None child (branch_node_bytes k child) W Hi eq_refl) as H.
  rewrite blen_branch in H. specialize (H Hs).
  destruct (N.ltb_spec (page_free p) (branch_size k + 2)); [left; auto|right]. split; auto.
  destruct H as (p' & E & W' & R & _ & P & F & _). exists p'. splits; auto.
  rewrite !branch_entries_raws, R, insert_at_map. f_equal.
  unfold branch_size, BRANCH_BASE in Hs. rewrite raw_key_branch, raw_child_branch by (auto; lia). reflexivity.
Qed.
Print Assumptions page_insert_branch_correct.

(** ** C04 *)
Theorem page_delete_leaf_correct : forall p index, wf_page true p ->
  (pg_nkeys p <= index /\ page_delete p index = Err EINVAL) \/
  (exists p' k v, page_delete p index = Ok p' /\ wf_page true p' /\
     nth_error (leaf_entries p) (N.to_nat index) = Some (k, v) /\
     leaf_entries p' = remove_at (N.to_nat index) (leaf_entries p) /\
     pg_pgno p' = pg_pgno p /\
     page_free p' = page_free p + leaf_size k v + 2).
Proof.
  intros p index W. destruct (N.le_gt_cases (pg_nkeys p) index) as [H|H].
  - left. split; auto. unfold page_delete. destruct (N.leb_spec (pg_nkeys p) index); [reflexivity|lia].
  - right. destruct (page_delete_ok true p index W H) as (p' & E & W' & R & _ & P & F).
    exists p', (node_key true p (slot p index)), (leaf_val p (slot p index)). splits; auto.
    + unfold leaf_entries. rewrite nth_error_map, slots_nth by lia. rewrite N2Nat.id. reflexivity.
    + rewrite !leaf_entries_raws, R. apply remove_at_map.
    + rewrite F. cbn [node_size]. unfold leaf_size, node_key, leaf_val, blen. rewrite !readn_length. cbn [node_ksize]. lia.
Qed.
Print Assumptions page_delete_leaf_correct.

Theorem page_delete_branch_correct : forall p index, wf_page false p ->
  (pg_nkeys p <= index /\ page_delete p index = Err EINVAL) \/
  (exists p' k c, page_delete p index = Ok p' /\ wf_page false p' /\
     nth_error (branch_entries p) (N.to_nat index) = Some (k, c) /\
     branch_entries p' = remove_at (N.to_nat index) (branch_entries p) /\
     pg_pgno p' = pg_pgno p /\
     page_free p' = page_free p + branch_size k + 2).
Proof.
  intros p index W. destruct (N.le_gt_cases (pg_nkeys p) index) as [H|H].
  - left. split; auto. unfold page_delete. destruct (N.leb_spec (pg_nkeys p) index); [reflexivity|lia].
  - right. destruct (page_delete_ok false p index W H) as (p' & E & W' & R & _ & P & F).
    exists p', (node_key false p (slot p index)), (branch_child p (slot p index)). splits; auto.
    + unfold branch_entries. rewrite nth_error_map, slots_nth by lia. rewrite N2Nat.id. reflexivity.
    + rewrite !branch_entries_raws, R. apply remove_at_map.
    + rewrite F. cbn [node_size]. unfold branch_size, node_key, blen. rewrite !readn_length. cbn [node_ksize]. lia.
Qed.
Print Assumptions page_delete_branch_correct.

(** ** C05 *)
Theorem page_split_correct : forall leaf p right_pgno, wf_page leaf p -> 1 <= pg_nkeys p -> right_pgno < 2 ^ 64 ->
  exists l r d, split_page leaf p right_pgno = Ok (l, r) /\ first_key leaf r = Ok d /\
    wf_page leaf l /\ wf_page leaf r /\
    (leaf = true -> leaf_entries l ++ leaf_entries r = leaf_entries p) /\
    (leaf = false -> branch_entries l ++ branch_entries r = branch_entries p) /\
    nth_error (page_keys leaf r) 0 = Some d /\
    (2 <= pg_nkeys p -> page_keys leaf l <> [] /\ page_keys leaf r <> []) /\
    pg_pgno l = pg_pgno p /\ pg_pgno r = right_pgno.
Proof.
  intros leaf p rp W H1 Hrp.
  destruct (split_page_ok leaf p rp W) as (l & r & E & Wl & Wr & Rl & Rr & Nl & Nr & Pl & Pr & _ & _).
  set (sp := pg_nkeys p / 2) in *.
  assert (Hsp : sp < pg_nkeys p) by (apply N.div_lt; lia).
  assert (Hnr : 0 < pg_nkeys r) by lia.
  exists l, r, (node_key leaf r (slot r 0)). splits; auto.
  - unfold first_key. pose proof (wf_key_in_page leaf r 0 Wr Hnr) as K. apply andb_true_iff in K. destruct K as [_ ->]. reflexivity.
  - intros ->. rewrite !leaf_entries_raws, Rl, Rr, <- map_app, firstn_skipn. reflexivity.
  - intros ->. rewrite !branch_entries_raws, Rl, Rr, <- map_app, firstn_skipn. reflexivity.
  - rewrite page_keys_nth by lia. reflexivity.
  - intro H2. assert (1 <= sp) by (change 1 with (2 / 2); apply N.div_le_mono; lia).
    split; intro Z; apply (f_equal (@length _)) in Z; rewrite page_keys_length in Z; cbn [length] in Z; rewrite ?Nl, ?Nr in Z; lia.
  - rewrite Pr. apply N.mod_small. auto.
Qed.
Print Assumptions page_split_correct.

(** ** C06 *)
(** Full statement (does not hold): for every page, index, key and value,
    [page_insert p index k (Some v) child <> UB].  It holds when the node size fits
    16 bits: *)
Theorem page_insert_in_bounds_partial : forall leaf p index k data child,
  wf_page leaf p -> index <= pg_nkeys p ->
  LEAF_BASE + blen k + match data with Some d => blen d | None => 0 end < 65536 ->
  BRANCH_BASE + blen k < 65536 ->
  page_insert p index k data child <> UB /\ page_insert p index k data child <> Fuel.
Proof.
  intros leaf p index k data child W Hi H1 H2.
  destruct (node_bytes leaf k data child) as [r|] eqn:E.
  - assert (Hb : blen r < 65536).
    { destruct leaf; cbn [node_bytes] in E.
      - destruct data; [|discriminate]. injection E as <-. rewrite blen_leaf. exact H1.
      - injection E as <-. rewrite blen_branch. exact H2. }
    pose proof (page_insert_ok leaf p index k data child r W Hi E Hb) as H.
    destruct (_ <? _); [rewrite H; split; discriminate|]. destruct H as (p' & -> & _). split; discriminate.
  - destruct leaf; cbn [node_bytes] in E; [|discriminate]. destruct data; [discriminate|].
    unfold page_insert. rewrite (wf_is_leaf _ _ W). split; discriminate.
Qed.
Print Assumptions page_insert_in_bounds_partial.

(** every other page function stays inside a well-formed page for all arguments *)
Theorem page_functions_in_bounds : forall leaf p, wf_page leaf p ->
  (forall k, page_search p k <> UB /\ page_search p k <> Fuel) /\
  (forall i, page_delete p i <> UB /\ page_delete p i <> Fuel) /\
  (forall n, split_page leaf p n <> UB /\ split_page leaf p n <> Fuel).
Proof.
  intros leaf p W. splits.
  - intro k. destruct (page_search_safe leaf p k W) as (b & i & -> & _). split; discriminate.
  - intro i. destruct (N.le_gt_cases (pg_nkeys p) i) as [H|H].
    + unfold page_delete. destruct (N.leb_spec (pg_nkeys p) i); [split; discriminate|lia].
    + destruct (page_delete_ok leaf p i W H) as (p' & -> & _). split; discriminate.
  - intro n. destruct (split_page_ok leaf p n W) as (l & r & -> & _). split; discriminate.
Qed.
Print Assumptions page_functions_in_bounds.

(** The uint16_t size computation wraps: a 1-byte key with a 65531-byte value has
    node size 65536, taken as 0; the copy then runs over the end of the page. *)
Theorem page_insert_out_of_bounds_refuted : exists p k v,
  wf_page true p /\ page_insert p 0 k (Some v) 0 = UB.
Proof.
  exists (init_page 2 P_LEAF), [7], (repeat 1 (N.to_nat 65531)).
  split; [apply (init_wf true)|]. vm_compute. reflexivity.
Qed.
Print Assumptions page_insert_out_of_bounds_refuted.

(** ** Non-vacuity: a concrete page with three entries satisfies the hypotheses *)
Definition ins (k v : bytes) (i : N) (p : page) : page :=
  match page_insert p i k (Some v) 0 with Ok p' => p' | _ => zero_page end.
Definition three_page : page := ins [5] [50; 51] 1 (ins [9; 1] [90] 1 (ins [2] [] 0 (init_page 7 P_LEAF))).

Example three_page_entries : leaf_entries three_page = [([2], []); ([5], [50; 51]); ([9; 1], [90])].
Proof. vm_compute. reflexivity. Qed.

Lemma three_page_wf : wf_page true three_page.
Proof.
  assert (G : forall p i k v, wf_page true p -> i <= pg_nkeys p -> leaf_size k v < 65536 ->
            leaf_size k v + 2 <= page_free p -> wf_page true (ins k v i p)).
  { intros p i k v W Hi Hs Hf. unfold ins.
    destruct (page_insert_leaf_correct p i k v 0 W Hi Hs) as [[H _]|[_ (p' & -> & W' & _)]]; auto. lia. }
  unfold three_page.
  assert (W0 := init_wf true 7). change (kind true) with P_LEAF in W0.
  assert (W1 : wf_page true (ins [2] [] 0 (init_page 7 P_LEAF))) by (apply G; [exact W0|vm_compute; congruence..]).
  assert (W2 : wf_page true (ins [9; 1] [90] 1 (ins [2] [] 0 (init_page 7 P_LEAF)))) by (apply G; [exact W1|vm_compute; congruence..]).
  apply G; [exact W2|vm_compute; congruence..].
Qed.

Example search_ex : page_search three_page [5] = Ok (true, 1) /\ page_search three_page [6] = Ok (false, 2).
Proof. split; vm_compute; reflexivity. Qed.
Example search_hyps : wf_page true three_page /\ ksorted (page_keys true three_page) /\ blen [5] < 65536.
Proof.
  splits; [apply three_page_wf| |vm_compute; reflexivity].
  assert (E : page_keys true three_page = [[2]; [5]; [9; 1]]) by (vm_compute; reflexivity).
  rewrite E. repeat constructor.
Qed.
Example insert_hyps : leaf_size [6] [1] + 2 <= page_free three_page /\ 3 <= pg_nkeys three_page.
Proof. split; vm_compute; congruence. Qed.
Example delete_ex : match page_delete three_page 1 with Ok p => leaf_entries p = [([2], []); ([9; 1], [90])] | _ => False end.
Proof. vm_compute. reflexivity. Qed.
Example split_ex : match split_page true three_page 11 with
  | Ok (l, r) => leaf_entries l = [([2], [])] /\ leaf_entries r = [([5], [50; 51]); ([9; 1], [90])] /\ first_key true r = Ok [5]
  | _ => False end.
Proof. vm_compute. repeat split. Qed.
