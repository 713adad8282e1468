(** Proofs about pages. *)
From Verif Require Import Util PageModel PageSpec.
Local Open Scope N_scope.
Ltac Zify.zify_post_hook ::= Z.div_mod_to_equations.

(** ** Memory lemmas *)
Lemma blen_app a b : blen (a ++ b) = blen a + blen b.
Proof. unfold blen. rewrite app_length. lia. Qed.

Lemma blen_le n v : blen (le_bytes n v) = N.of_nat n.
Proof. unfold blen. revert v; induction n; intro v; cbn [le_bytes length]; auto. specialize (IHn (v/256)). lia. Qed.

Lemma le_length n v : length (le_bytes n v) = n.
Proof. revert v; induction n; intro v; cbn; auto. Qed.

Lemma le_val_bytes n v : le_val (le_bytes n v) = v mod (256 ^ N.of_nat n).
Proof.
  revert v; induction n; intro v.
  - cbn. rewrite N.mod_1_r. reflexivity.
  - cbn [le_bytes le_val]. rewrite IHn. rewrite Nat2N.inj_succ, N.pow_succ_r'.
    rewrite N.mod_mod by lia.
    rewrite N.mod_mul_r by (try apply N.pow_nonzero; lia). reflexivity.
Qed.

Lemma readn_length p o n : length (readn p o n) = n.
Proof. unfold readn. rewrite map_length, seq_length. reflexivity. Qed.

Lemma readn_ext p q o o' n :
  (forall i, i < N.of_nat n -> p (o + i) = q (o' + i)) -> readn p o n = readn q o' n.
Proof.
  intro H. unfold readn. apply map_ext_in. intros a Ha. apply in_seq in Ha. apply H. lia.
Qed.

Lemma readn_app p o n m : readn p o (n + m) = readn p o n ++ readn p (o + N.of_nat n) m.
Proof.
  unfold readn. rewrite seq_app, map_app. f_equal.
  rewrite Nat.add_0_l.
  rewrite <- (Nat.add_0_r n) at 1. generalize 0%nat as s. induction m; intro s; cbn; auto.
  f_equal.
  - f_equal. lia.
  - rewrite <- Nat.add_succ_r. apply IHm.
Qed.

Lemma nth_readn p o n i d : (i < n)%nat -> nth i (readn p o n) d = p (o + N.of_nat i).
Proof.
  intro H. unfold readn.
  rewrite (nth_indep _ d (p (o + N.of_nat 0))) by (rewrite map_length, seq_length; lia).
  rewrite (map_nth (fun i => p (o + N.of_nat i))), seq_nth by lia. reflexivity.
Qed.

Lemma writeb_out p o b i : i < o \/ o + blen b <= i -> writeb p o b i = p i.
Proof.
  intro H. unfold writeb.
  destruct (N.leb_spec o i); destruct (N.ltb_spec i (o + blen b)); cbn; auto; lia.
Qed.

Lemma writeb_in p o b i : i < blen b -> writeb p o b (o + i) = nth (N.to_nat i) b 0.
Proof.
  intro H. unfold writeb.
  destruct (N.leb_spec o (o + i)); destruct (N.ltb_spec (o + i) (o + blen b)); cbn; try lia.
  f_equal. lia.
Qed.

Lemma readn_writeb_same p o b : readn (writeb p o b) o (length b) = b.
Proof.
  apply nth_ext with (d := 0) (d' := 0).
  - apply readn_length.
  - intros n Hn. rewrite readn_length in Hn. rewrite nth_readn by auto.
    rewrite writeb_in by (unfold blen; lia). f_equal. lia.
Qed.

Lemma readn_writeb_out p o b o' n :
  o' + N.of_nat n <= o \/ o + blen b <= o' -> readn (writeb p o b) o' n = readn p o' n.
Proof. intro H. apply readn_ext. intros i Hi. apply writeb_out. lia. Qed.

Lemma copyb_out dst d src s n i : i < d \/ d + n <= i -> copyb dst d src s n i = dst i.
Proof.
  intro H. unfold copyb.
  destruct (N.leb_spec d i); destruct (N.ltb_spec i (d + n)); cbn; auto; lia.
Qed.

Lemma copyb_in dst d src s n i : d <= i < d + n -> copyb dst d src s n i = src (i - d + s).
Proof.
  intro H. unfold copyb.
  destruct (N.leb_spec d i); destruct (N.ltb_spec i (d + n)); cbn; auto; lia.
Qed.

Lemma get16_unfold p o : get16 p o = p o mod 256 + 256 * (p (o + 1) mod 256).
Proof. unfold get16, readn. cbn [seq map le_val]. rewrite N.add_0_r. change (N.of_nat 1) with 1. lia. Qed.

Lemma get16_lt p o : get16 p o < 65536.
Proof. rewrite get16_unfold. lia. Qed.

Lemma get16_ext p q o o' : p o = q o' -> p (o + 1) = q (o' + 1) -> get16 p o = get16 q o'.
Proof. intros H1 H2. rewrite !get16_unfold, H1, H2. reflexivity. Qed.

Lemma get64_lt p o : get64 p o < 2 ^ 64.
Proof.
  unfold get64.
  assert (H : forall b, le_val b < 256 ^ blen b).
  { clear. induction b as [|x t IH]; [cbn; lia|]. cbn [le_val]. unfold blen in *. cbn [length].
    rewrite Nat2N.inj_succ, N.pow_succ_r'. assert (x mod 256 < 256) by lia. nia. }
  specialize (H (readn p o 8)). unfold blen in H. rewrite readn_length in H.
  exact H.
Qed.

Lemma get64_ext p q o o' : (forall i, i < 8 -> p (o + i) = q (o' + i)) -> get64 p o = get64 q o'.
Proof. intro H. unfold get64. f_equal. apply readn_ext. intros i Hi. apply H. lia. Qed.

Lemma put16_out p o v i : i < o \/ o + 2 <= i -> put16 p o v i = p i.
Proof. intro H. unfold put16. apply writeb_out. rewrite blen_le. lia. Qed.

Lemma put64_out p o v i : i < o \/ o + 8 <= i -> put64 p o v i = p i.
Proof. intro H. unfold put64. apply writeb_out. rewrite blen_le. lia. Qed.

Lemma get16_put16_same p o v : get16 (put16 p o v) o = u16 v.
Proof.
  unfold get16, put16. rewrite <- (le_length 2 v) at 2. rewrite readn_writeb_same, le_val_bytes. reflexivity.
Qed.

Lemma get16_put16_other p o v o' : o' + 2 <= o \/ o + 2 <= o' -> get16 (put16 p o v) o' = get16 p o'.
Proof. intro H. apply get16_ext; apply put16_out; lia. Qed.

Lemma get64_put16_other p o v o' : o' + 8 <= o \/ o + 2 <= o' -> get64 (put16 p o v) o' = get64 p o'.
Proof. intro H. apply get64_ext. intros i Hi. apply put16_out; lia. Qed.

Lemma get16_put64_other p o v o' : o' + 2 <= o \/ o + 8 <= o' -> get16 (put64 p o v) o' = get16 p o'.
Proof. intro H. apply get16_ext; apply put64_out; lia. Qed.

Lemma get64_put64_same p o v : get64 (put64 p o v) o = v mod 2 ^ 64.
Proof.
  unfold get64, put64. rewrite <- (le_length 8 v) at 2. rewrite readn_writeb_same, le_val_bytes. reflexivity.
Qed.

Lemma get16_writeb_out p o b o' : o' + 2 <= o \/ o + blen b <= o' -> get16 (writeb p o b) o' = get16 p o'.
Proof. intro H. apply get16_ext; apply writeb_out; lia. Qed.
Lemma get64_writeb_out p o b o' : o' + 8 <= o \/ o + blen b <= o' -> get64 (writeb p o b) o' = get64 p o'.
Proof. intro H. apply get64_ext. intros i Hi. apply writeb_out; lia. Qed.
Lemma get16_copyb_out p d q s n o' : o' + 2 <= d \/ d + n <= o' -> get16 (copyb p d q s n) o' = get16 p o'.
Proof. intro H. apply get16_ext; apply copyb_out; lia. Qed.
Lemma get64_copyb_out p d q s n o' : o' + 8 <= d \/ d + n <= o' -> get64 (copyb p d q s n) o' = get64 p o'.
Proof. intro H. apply get64_ext. intros i Hi. apply copyb_out; lia. Qed.

(** ** Agreement of two pages on a byte range, shifted by [d] *)
(** node at [o] in [p] has the same bytes as the node at [o'] in [q] *)
Definition same_bytes (p : page) (o : N) (q : page) (o' n : N) : Prop :=
  forall i, i < n -> p (o + i) = q (o' + i).

Lemma same_get16 p o q o' n d : same_bytes p o q o' n -> d + 2 <= n -> get16 p (o + d) = get16 q (o' + d).
Proof.
  intros H Hd. apply get16_ext.
  - apply H. lia.
  - rewrite <- !N.add_assoc. apply H. lia.
Qed.

Lemma node_base_le leaf p o : node_base leaf <= node_size leaf p o.
Proof. destruct leaf; cbn [node_base node_size]; lia. Qed.

Lemma node_size_same leaf p o q o' :
  same_bytes p o q o' (node_base leaf) -> node_size leaf p o = node_size leaf q o'.
Proof.
  intro H. destruct leaf; unfold node_size, node_base in *.
  - unfold LEAF_BASE in *. pose proof (same_get16 _ _ _ _ _ 0 H ltac:(lia)) as H0.
    pose proof (same_get16 _ _ _ _ _ 2 H ltac:(lia)) as H2. rewrite !N.add_0_r in H0. lia.
  - unfold BRANCH_BASE in *. pose proof (same_get16 _ _ _ _ _ 8 H ltac:(lia)) as H8. lia.
Qed.

Lemma same_weaken p o q o' n m : same_bytes p o q o' n -> m <= n -> same_bytes p o q o' m.
Proof. intros H Hm i Hi. apply H. lia. Qed.

Lemma node_ksize_same leaf p o q o' :
  same_bytes p o q o' (node_base leaf) -> node_ksize leaf p o = node_ksize leaf q o'.
Proof.
  intro H. destruct leaf; unfold node_ksize, node_base in *.
  - unfold LEAF_BASE in *. pose proof (same_get16 _ _ _ _ _ 0 H ltac:(lia)) as H0.
    rewrite !N.add_0_r in H0. lia.
  - unfold BRANCH_BASE in *. pose proof (same_get16 _ _ _ _ _ 8 H ltac:(lia)) as H8. lia.
Qed.

Lemma node_key_same leaf p o q o' n :
  same_bytes p o q o' n -> node_size leaf p o <= n -> node_key leaf p o = node_key leaf q o'.
Proof.
  intros H Hn. unfold node_key. pose proof (node_base_le leaf p o).
  assert (Hb : same_bytes p o q o' (node_base leaf)) by (eapply same_weaken; eauto; lia).
  rewrite <- (node_ksize_same leaf p o q o' Hb).
  apply readn_ext. intros i Hi. rewrite <- !N.add_assoc. apply H.
  destruct leaf; cbn [node_size node_base node_ksize] in *; unfold LEAF_BASE, BRANCH_BASE in *; lia.
Qed.

Lemma leaf_val_same p o q o' n :
  same_bytes p o q o' n -> node_size true p o <= n -> leaf_val p o = leaf_val q o'.
Proof.
  intros H Hn. cbn [node_size] in Hn. unfold leaf_val, LEAF_BASE in *.
  pose proof (same_get16 _ _ _ _ _ 0 H ltac:(lia)) as H0.
  pose proof (same_get16 _ _ _ _ _ 2 H ltac:(lia)) as H2. rewrite !N.add_0_r in H0.
  rewrite <- H0, <- H2. apply readn_ext. intros i Hi. rewrite <- !N.add_assoc. apply H. lia.
Qed.

Lemma branch_child_same p o q o' n :
  same_bytes p o q o' n -> node_size false p o <= n -> branch_child p o = branch_child q o'.
Proof.
  intros H Hn. cbn [node_size] in Hn. unfold branch_child, BRANCH_BASE in *.
  apply get64_ext. intros i Hi. apply H. lia.
Qed.

(** ** Raw nodes: the bytes of a node determine its key, value and child *)
Definition raw (leaf : bool) (p : page) (o : N) : bytes := readn p o (N.to_nat (node_size leaf p o)).
Definition raws (leaf : bool) (p : page) : list bytes := map (raw leaf p) (slots p).

Definition raw_mem (r : bytes) : page := fun i => nth (N.to_nat i) r 0.
Definition raw_key (leaf : bool) (r : bytes) : bytes := node_key leaf (raw_mem r) 0.
Definition raw_val (r : bytes) : bytes := leaf_val (raw_mem r) 0.
Definition raw_child (r : bytes) : N := branch_child (raw_mem r) 0.

Lemma raw_same leaf p o : same_bytes p o (raw_mem (raw leaf p o)) 0 (node_size leaf p o).
Proof. intros i Hi. unfold raw_mem, raw. rewrite nth_readn by lia. f_equal. lia. Qed.

Lemma raw_key_ok leaf p o : raw_key leaf (raw leaf p o) = node_key leaf p o.
Proof. symmetry. eapply node_key_same; [apply raw_same | lia]. Qed.
Lemma raw_val_ok p o : raw_val (raw true p o) = leaf_val p o.
Proof. symmetry. eapply leaf_val_same; [apply raw_same | lia]. Qed.
Lemma raw_child_ok p o : raw_child (raw false p o) = branch_child p o.
Proof. symmetry. eapply branch_child_same; [apply raw_same | lia]. Qed.

Lemma raw_length leaf p o : blen (raw leaf p o) = node_size leaf p o.
Proof. unfold raw, blen. rewrite readn_length. lia. Qed.

Lemma raw_eq leaf p o q o' :
  same_bytes p o q o' (node_size leaf p o) -> raw leaf p o = raw leaf q o'.
Proof.
  intro H. unfold raw. pose proof (node_base_le leaf p o).
  rewrite <- (node_size_same leaf p o q o') by (eapply same_weaken; eauto; lia).
  apply readn_ext. intros i Hi. apply H. lia.
Qed.

Lemma page_keys_raws leaf p : page_keys leaf p = map (raw_key leaf) (raws leaf p).
Proof. unfold page_keys, raws. rewrite map_map. apply map_ext. intro o. symmetry. apply raw_key_ok. Qed.
Lemma leaf_entries_raws p : leaf_entries p = map (fun r => (raw_key true r, raw_val r)) (raws true p).
Proof.
  unfold leaf_entries, raws. rewrite map_map. apply map_ext. intro o.
  rewrite raw_key_ok, raw_val_ok. reflexivity.
Qed.
Lemma branch_entries_raws p : branch_entries p = map (fun r => (raw_key false r, raw_child r)) (raws false p).
Proof.
  unfold branch_entries, raws. rewrite map_map. apply map_ext. intro o.
  rewrite raw_key_ok, raw_child_ok. reflexivity.
Qed.

(** encoding then decoding *)
Lemma raw_mem_app_l a b i : i < blen a -> raw_mem (a ++ b) i = raw_mem a i.
Proof. intro H. unfold raw_mem. apply app_nth1. unfold blen in H. lia. Qed.
Lemma raw_mem_app_r a b i : raw_mem (a ++ b) (blen a + i) = raw_mem b i.
Proof. unfold raw_mem. rewrite app_nth2 by (unfold blen; lia). f_equal. unfold blen. lia. Qed.

Lemma get16_raw_le v b : get16 (raw_mem (le_bytes 2 v ++ b)) 0 = u16 v.
Proof.
  transitivity (get16 (put16 (fun _ => 0) 0 v) 0); [|apply get16_put16_same].
  apply get16_ext.
  - rewrite raw_mem_app_l by (rewrite blen_le; lia).
    unfold put16. change 0 with (0 + 0) at 4. rewrite writeb_in by (rewrite blen_le; lia). reflexivity.
  - rewrite raw_mem_app_l by (rewrite blen_le; lia).
    unfold put16. change (0 + 1) with (0 + 1) at 2. rewrite writeb_in by (rewrite blen_le; lia). reflexivity.
Qed.

Lemma readn_raw_mem a b : readn (raw_mem (a ++ b)) 0 (length a) = a.
Proof.
  apply nth_ext with (d := 0) (d' := 0); [apply readn_length|].
  intros n Hn. rewrite readn_length in Hn. rewrite nth_readn by auto.
  rewrite raw_mem_app_l by (unfold blen; lia). unfold raw_mem. f_equal. lia.
Qed.

Lemma get16_raw_skip a b o : get16 (raw_mem (a ++ b)) (blen a + o) = get16 (raw_mem b) o.
Proof. apply get16_ext; [apply raw_mem_app_r|]. rewrite <- N.add_assoc. apply raw_mem_app_r. Qed.
Lemma readn_raw_skip a b o n : readn (raw_mem (a ++ b)) (blen a + o) n = readn (raw_mem b) o n.
Proof. apply readn_ext. intros i Hi. rewrite <- N.add_assoc. apply raw_mem_app_r. Qed.

Lemma leaf_raw_ksize k v : get16 (raw_mem (leaf_node_bytes k v)) 0 = u16 (blen k).
Proof. unfold leaf_node_bytes. apply get16_raw_le. Qed.
Lemma leaf_raw_vsize k v : get16 (raw_mem (leaf_node_bytes k v)) (0 + 2) = u16 (blen v).
Proof.
  unfold leaf_node_bytes. change (0 + 2) with (blen (le_bytes 2 (blen k)) + 0).
  rewrite get16_raw_skip. apply get16_raw_le.
Qed.
Lemma blen_leaf k v : blen (leaf_node_bytes k v) = leaf_size k v.
Proof. unfold leaf_node_bytes, leaf_size, LEAF_BASE. rewrite !blen_app, !blen_le. lia. Qed.
Lemma blen_branch k c : blen (branch_node_bytes k c) = branch_size k.
Proof. unfold branch_node_bytes, branch_size, BRANCH_BASE. rewrite !blen_app, !blen_le. lia. Qed.

Lemma u16_small x : x < 65536 -> u16 x = x.
Proof. intro. unfold u16. apply N.mod_small. auto. Qed.

Lemma raw_key_leaf k v : blen k < 65536 -> raw_key true (leaf_node_bytes k v) = k.
Proof.
  intro H. unfold raw_key, node_key. cbn [node_ksize node_base].
  rewrite leaf_raw_ksize, u16_small by auto.
  unfold leaf_node_bytes, LEAF_BASE. rewrite app_assoc.
  change (0 + 4) with (blen (le_bytes 2 (blen k) ++ le_bytes 2 (blen v)) + 0).
  rewrite readn_raw_skip. unfold blen. rewrite Nat2N.id. apply readn_raw_mem.
Qed.

Lemma raw_val_leaf k v : blen k < 65536 -> blen v < 65536 -> raw_val (leaf_node_bytes k v) = v.
Proof.
  intros H H'. unfold raw_val, leaf_val.
  rewrite leaf_raw_ksize, leaf_raw_vsize, !u16_small by auto.
  unfold leaf_node_bytes, LEAF_BASE. rewrite !app_assoc.
  replace (0 + 4 + blen k) with (blen ((le_bytes 2 (blen k) ++ le_bytes 2 (blen v)) ++ k) + 0)
    by (rewrite !blen_app, !blen_le; lia).
  rewrite readn_raw_skip. replace (N.to_nat (blen v)) with (length v) by (unfold blen; lia).
  rewrite <- (app_nil_r v) at 1. apply readn_raw_mem.
Qed.

Lemma node_size_leaf_raw k v :
  leaf_size k v < 65536 -> node_size true (raw_mem (leaf_node_bytes k v)) 0 = leaf_size k v.
Proof.
  unfold leaf_size, LEAF_BASE. intro H. cbn [node_size]. rewrite leaf_raw_ksize, leaf_raw_vsize, !u16_small by lia.
  reflexivity.
Qed.

Lemma branch_raw_ksize k c : get16 (raw_mem (branch_node_bytes k c)) (0 + 8) = u16 (blen k).
Proof.
  unfold branch_node_bytes. change (0 + 8) with (blen (le_bytes 8 c) + 0).
  rewrite get16_raw_skip. apply get16_raw_le.
Qed.

Lemma raw_key_branch k c : blen k < 65536 -> raw_key false (branch_node_bytes k c) = k.
Proof.
  intro H. unfold raw_key, node_key. cbn [node_ksize node_base].
  rewrite branch_raw_ksize, u16_small by auto.
  unfold branch_node_bytes, BRANCH_BASE. rewrite app_assoc.
  change (0 + 10) with (blen (le_bytes 8 c ++ le_bytes 2 (blen k)) + 0).
  rewrite readn_raw_skip. unfold blen. rewrite Nat2N.id.
  rewrite <- (app_nil_r k) at 1. apply readn_raw_mem.
Qed.

Lemma raw_child_branch k c : c < 2 ^ 64 -> raw_child (branch_node_bytes k c) = c.
Proof.
  intro H. unfold raw_child, branch_child, get64, branch_node_bytes.
  rewrite <- (le_length 8 c) at 2. rewrite readn_raw_mem, le_val_bytes. apply N.mod_small. exact H.
Qed.

Lemma node_size_branch_raw k c :
  branch_size k < 65536 -> node_size false (raw_mem (branch_node_bytes k c)) 0 = branch_size k.
Proof.
  unfold branch_size, BRANCH_BASE. intro H. cbn [node_size]. rewrite branch_raw_ksize, u16_small by lia. reflexivity.
Qed.

(** ** Key comparison *)
Lemma klt_irrefl a : ~ klt a a.
Proof. induction a; intro H; inversion H; subst; try lia; auto. Qed.
Lemma klt_trans a b c : klt a b -> klt b c -> klt a c.
Proof.
  intro H. revert c. induction H; intros c Hc; inversion Hc; subst; try (constructor; auto; lia).
Qed.
Lemma klt_asym a b : klt a b -> ~ klt b a.
Proof. intros H H'. apply (klt_irrefl a). eapply klt_trans; eauto. Qed.

Lemma key_compare_nil_r k : key_compare [] k = match k with [] => Eq | _ => Lt end.
Proof. unfold key_compare. destruct k; reflexivity. Qed.
Lemma key_compare_nil_l k : key_compare k [] = match k with [] => Eq | _ => Gt end.
Proof. unfold key_compare. destruct k; reflexivity. Qed.

Lemma key_compare_cons x a y b :
  key_compare (x :: a) (y :: b) = match x ?= y with Eq => key_compare a b | c => c end.
Proof.
  unfold key_compare. cbn [length].
  change (Nat.ltb (S (length a)) (S (length b))) with (Nat.ltb (length a) (length b)).
  change (Nat.ltb (S (length b)) (S (length a))) with (Nat.ltb (length b) (length a)).
  destruct (Nat.ltb (length a) (length b)); cbn [memcmp]; destruct (x ?= y); reflexivity.
Qed.

Lemma key_compare_spec a b :
  match key_compare a b with Lt => klt a b | Eq => a = b | Gt => klt b a end.
Proof.
  revert b; induction a as [|x a IH]; intros [|y b].
  - reflexivity.
  - rewrite key_compare_nil_r. constructor.
  - rewrite key_compare_nil_l. constructor.
  - rewrite key_compare_cons. destruct (N.compare_spec x y) as [E|E|E].
    + subst. specialize (IH b). destruct (key_compare a b); [congruence| |]; apply klt_tail; auto.
    + constructor; auto.
    + constructor; auto.
Qed.

Lemma klt_total a b : klt a b \/ a = b \/ klt b a.
Proof. pose proof (key_compare_spec a b). destruct (key_compare a b); auto. Qed.

Lemma key_compare_Lt a b : key_compare a b = Lt <-> klt a b.
Proof.
  pose proof (key_compare_spec a b). destruct (key_compare a b); split; intro; auto; try discriminate; exfalso.
  - subst. eapply klt_irrefl; eauto.
  - eapply klt_asym; eauto.
Qed.
Lemma key_compare_Gt a b : key_compare a b = Gt <-> klt b a.
Proof.
  pose proof (key_compare_spec a b). destruct (key_compare a b); split; intro; auto; try discriminate; exfalso.
  - subst. eapply klt_irrefl; eauto.
  - eapply klt_asym; eauto.
Qed.
Lemma key_compare_Eq a b : key_compare a b = Eq <-> a = b.
Proof.
  pose proof (key_compare_spec a b). destruct (key_compare a b); split; intro; auto; try discriminate; exfalso;
  subst; eapply klt_irrefl; eauto.
Qed.

Lemma key16_id k : blen k < 65536 -> key16 k = k.
Proof. intro H. unfold key16. rewrite u16_small by auto. unfold blen. rewrite Nat2N.id. apply firstn_all. Qed.
