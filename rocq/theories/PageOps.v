(** Correctness of db_page_search, db_page_insert, db_page_delete and the split
    of a page, for every well-formed page. *)
From Verif Require Import Util PageModel PageSpec PageProofs.
Local Open Scope N_scope.
Ltac Zify.zify_post_hook ::= Z.div_mod_to_equations.

Ltac splits := repeat match goal with |- _ /\ _ => split end.

Lemma wf_is_leaf leaf p : wf_page leaf p -> is_leaf p = leaf.
Proof. intro W. unfold is_leaf. rewrite (wf_flags _ _ W). destruct leaf; reflexivity. Qed.
Lemma wf_is_branch leaf p : wf_page leaf p -> is_branch p = negb leaf.
Proof. intro W. unfold is_branch. rewrite (wf_flags _ _ W). destruct leaf; reflexivity. Qed.

Lemma slots_length p : length (slots p) = N.to_nat (pg_nkeys p).
Proof. unfold slots. rewrite map_length, seq_length. reflexivity. Qed.
Lemma slots_nth p i : (i < N.to_nat (pg_nkeys p))%nat -> nth_error (slots p) i = Some (slot p (N.of_nat i)).
Proof.
  intro H. unfold slots. rewrite nth_error_map.
  rewrite (nth_error_nth' _ 0%nat) by (rewrite seq_length; lia). rewrite seq_nth by lia. reflexivity.
Qed.
Lemma slots_in p i : i < pg_nkeys p -> In (slot p i) (slots p).
Proof.
  intro H. apply nth_error_In with (n := N.to_nat i). rewrite slots_nth by lia. rewrite N2Nat.id. reflexivity.
Qed.
Lemma wf_nkeys_small leaf p : wf_page leaf p -> HDR + 2 * pg_nkeys p <= PAGE_SIZE.
Proof. intros W. pose proof (wf_lower _ _ W). pose proof (wf_free _ _ W). pose proof (wf_upper _ _ W). lia. Qed.

Lemma wf_slot leaf p i : wf_page leaf p -> i < pg_nkeys p ->
  pg_upper p <= slot p i /\ slot p i + node_size leaf p (slot p i) <= PAGE_SIZE.
Proof.
  intros W Hi. pose proof (wf_nodes _ _ W) as H. rewrite Forall_forall in H. apply H. apply slots_in; auto.
Qed.

Lemma node_size_key leaf p o : node_base leaf + node_ksize leaf p o <= node_size leaf p o.
Proof. destruct leaf; cbn [node_base node_ksize node_size]; lia. Qed.

Lemma wf_key_in_page leaf p i : wf_page leaf p -> i < pg_nkeys p ->
  slot_in_page i && key_in_page leaf p (slot p i) = true.
Proof.
  intros W Hi. pose proof (wf_nkeys_small _ _ W). destruct (wf_slot _ _ _ W Hi) as [H1 H2].
  pose proof (node_size_key leaf p (slot p i)).
  unfold slot_in_page, key_in_page, slot_addr.
  rewrite !andb_true_iff, !N.leb_le. lia.
Qed.

Lemma page_keys_nth leaf p i : (i < N.to_nat (pg_nkeys p))%nat ->
  nth_error (page_keys leaf p) i = Some (node_key leaf p (slot p (N.of_nat i))).
Proof. intro H. unfold page_keys. rewrite nth_error_map, slots_nth by auto. reflexivity. Qed.
Lemma page_keys_length leaf p : length (page_keys leaf p) = N.to_nat (pg_nkeys p).
Proof. unfold page_keys. rewrite map_length. apply slots_length. Qed.

(** ** Search *)
Definition keyat leaf p (i : N) := node_key leaf p (slot p i).

Lemma sorted_keyat leaf p i j : ksorted (page_keys leaf p) -> i < j -> j < pg_nkeys p ->
  klt (keyat leaf p i) (keyat leaf p j).
Proof.
  intros S Hij Hj.
  assert (G : forall (l : list bytes) a b x y, StronglySorted klt l -> (a < b)%nat ->
            nth_error l a = Some x -> nth_error l b = Some y -> klt x y).
  { clear. induction l; intros a0 b x y S Hab Ha Hb; [destruct a0; discriminate|].
    inversion S; subst. destruct b; [lia|]. destruct a0; cbn in Ha, Hb.
    - inversion Ha; subst. rewrite Forall_forall in H2. apply H2. eapply nth_error_In; eauto.
    - apply (IHl a0 b); auto. lia. }
  apply (G (page_keys leaf p) (N.to_nat i) (N.to_nat j)); auto; try lia.
  - rewrite page_keys_nth by lia. rewrite N2Nat.id. reflexivity.
  - rewrite page_keys_nth by lia. rewrite N2Nat.id. reflexivity.
Qed.

(** no out-of-page access, whatever the order of the keys *)
Lemma search_loop_safe leaf p k : wf_page leaf p -> forall fuel l r, l <= r -> r <= pg_nkeys p ->
  (N.to_nat (r - l) < fuel)%nat ->
  exists b i, search_loop fuel p k l r = Ok (b, i) /\ i <= pg_nkeys p /\ (b = true -> i < pg_nkeys p).
Proof.
  intro W. pose proof (wf_nkeys_small _ _ W) as Hn. unfold HDR, PAGE_SIZE in Hn.
  induction fuel as [|f IH]; intros l r Hlr Hr Hf; [lia|].
  cbn [search_loop]. destruct (N.ltb_spec l r) as [Hlt|]; [|exists false, l; splits; auto; [lia|discriminate]].
  set (mid := u16 (l + (r - l) / 2)).
  assert (Hm : l <= mid < r) by (unfold mid; rewrite u16_small by lia; lia).
  rewrite (wf_is_branch _ _ W), (wf_is_leaf _ _ W), negb_involutive.
  replace (negb leaf || leaf) with true by (destruct leaf; reflexivity).
  rewrite (wf_key_in_page leaf p mid W) by lia.
  destruct (key_compare _ _).
  - exists true, mid. splits; auto; lia.
  - apply IH; lia.
  - rewrite u16_small by lia. apply IH; lia.
Qed.

Lemma page_search_safe leaf p k : wf_page leaf p ->
  exists b i, page_search p k = Ok (b, i) /\ i <= pg_nkeys p /\ (b = true -> i < pg_nkeys p).
Proof.
  intro W. unfold page_search. destruct (N.eqb_spec (pg_nkeys p) 0).
  - exists false, 0. splits; auto; [lia|discriminate].
  - apply (search_loop_safe leaf); auto; lia.
Qed.

Lemma search_loop_ok leaf p k : wf_page leaf p -> ksorted (page_keys leaf p) -> blen k < 65536 ->
  forall fuel l r b i, r <= pg_nkeys p ->
  (forall j, j < l -> klt (keyat leaf p j) k) ->
  (forall j, r <= j -> j < pg_nkeys p -> klt k (keyat leaf p j)) ->
  search_loop fuel p k l r = Ok (b, i) ->
  if b then i < pg_nkeys p /\ keyat leaf p i = k
  else l <= r -> i <= pg_nkeys p /\ (forall j, j < i -> klt (keyat leaf p j) k) /\
       (forall j, i <= j -> j < pg_nkeys p -> klt k (keyat leaf p j)).
Proof.
  intros W S Hk. pose proof (wf_nkeys_small _ _ W) as Hn. unfold HDR, PAGE_SIZE in Hn.
  induction fuel as [|f IH]; intros l r b i Hr HL HR E; [discriminate|].
  cbn [search_loop] in E. destruct (N.ltb_spec l r) as [Hlt|Hge].
  2:{ inversion E; subst. intro Hle. assert (i = r) by lia. subst. splits; auto; try lia. }
  set (mid := u16 (l + (r - l) / 2)) in *.
  assert (Hm : l <= mid < r) by (unfold mid; rewrite u16_small by lia; lia).
  rewrite (wf_is_branch _ _ W), (wf_is_leaf _ _ W), negb_involutive in E.
  replace (negb leaf || leaf) with true in E by (destruct leaf; reflexivity).
  rewrite (wf_key_in_page leaf p mid W) in E by lia.
  rewrite key16_id in E by auto.
  fold (keyat leaf p mid) in E.
  pose proof (key_compare_spec k (keyat leaf p mid)) as C. destruct (key_compare k (keyat leaf p mid)).
  - inversion E; subst b. subst i. cbv iota. split; [lia|auto].
  - apply IH in E; auto; [|lia|].
    + destruct b; auto. intro. apply E. lia.
    + intros j Hj Hj'. destruct (N.eq_dec j mid) as [->|]; auto.
      eapply klt_trans; [apply C|]. apply sorted_keyat; auto. lia.
  - rewrite u16_small in E by lia. apply IH in E; auto.
    + destruct b; auto. intro. apply E. lia.
    + intros j Hj. destruct (N.eq_dec j mid) as [->|]; auto.
      eapply klt_trans; [|apply C]. apply sorted_keyat; auto; lia.
Qed.

Lemma page_search_ok leaf p k : wf_page leaf p -> ksorted (page_keys leaf p) -> blen k < 65536 ->
  exists b i, page_search p k = Ok (b, i) /\ i <= pg_nkeys p /\
    if b then i < pg_nkeys p /\ keyat leaf p i = k
    else (forall j, j < i -> klt (keyat leaf p j) k) /\
         (forall j, i <= j -> j < pg_nkeys p -> klt k (keyat leaf p j)).
Proof.
  intros W S Hk. destruct (page_search_safe leaf p k W) as (b & i & E & Hi & Hb).
  exists b, i. splits; auto. unfold page_search in E.
  destruct (N.eqb_spec (pg_nkeys p) 0).
  - inversion E; subst. split; intros; lia.
  - eapply (search_loop_ok leaf) in E; auto; try lia; try (intros; lia). destruct b; auto.
    apply E. lia.
Qed.

(** ** Lists *)
Lemma insert_at_map {A B} (f : A -> B) i x l : map f (insert_at i x l) = insert_at i (f x) (map f l).
Proof. unfold insert_at. rewrite map_app, firstn_map, skipn_map. reflexivity. Qed.
Lemma remove_at_map {A B} (f : A -> B) i l : map f (remove_at i l) = remove_at i (map f l).
Proof. unfold remove_at. rewrite map_app, firstn_map, skipn_map. reflexivity. Qed.
Lemma insert_at_Permutation {A} i (x : A) l : Permutation (x :: l) (insert_at i x l).
Proof. unfold insert_at. rewrite <- (firstn_skipn i l) at 1. apply Permutation_middle. Qed.
Lemma remove_at_Permutation {A} i (x : A) l : nth_error l i = Some x -> Permutation l (x :: remove_at i l).
Proof.
  intro H. destruct (nth_error_split _ _ H) as (a & b & -> & E). subst i. unfold remove_at.
  rewrite firstn_app, Nat.sub_diag, firstn_all. cbn [firstn]. rewrite app_nil_r.
  replace (skipn (S (length a)) (a ++ x :: b)) with b.
  - symmetry. apply Permutation_middle.
  - clear. induction a; cbn; auto.
Qed.

Lemma FOP_perm {A} (R : A -> A -> Prop) l l' : (forall x y, R x y -> R y x) ->
  Permutation l l' -> ForallOrdPairs R l -> ForallOrdPairs R l'.
Proof.
  intros Sy P. induction P; intro H; auto.
  - inversion H; subst. constructor; auto. eapply Permutation_Forall; eauto.
  - inversion H; subst. inversion H2; subst. inversion H3; subst.
    repeat constructor; auto.
Qed.

Lemma FOP_ext {A} (R S : A -> A -> Prop) l : (forall x y, In x l -> In y l -> R x y -> S x y) ->
  ForallOrdPairs R l -> ForallOrdPairs S l.
Proof.
  intros E H. induction H; constructor.
  - rewrite Forall_forall in *. intros y Hy. apply E; cbn; auto.
  - apply IHForallOrdPairs. intros; apply E; cbn; auto.
Qed.

Lemma FOP_map {A B} (f : A -> B) (R : B -> B -> Prop) l :
  ForallOrdPairs (fun x y => R (f x) (f y)) l -> ForallOrdPairs R (map f l).
Proof.
  induction 1; cbn; constructor; auto. rewrite Forall_forall in *. intros y Hy. apply in_map_iff in Hy.
  destruct Hy as (z & <- & Hz). auto.
Qed.

Lemma FOP_app_l {A} (R : A -> A -> Prop) l l' : ForallOrdPairs R (l ++ l') -> ForallOrdPairs R l.
Proof.
  induction l as [|a l IH]; cbn; intro H; constructor; inversion H; subst; auto.
  rewrite Forall_app in H2. tauto.
Qed.
Lemma FOP_app_r {A} (R : A -> A -> Prop) l l' : ForallOrdPairs R (l ++ l') -> ForallOrdPairs R l'.
Proof. induction l as [|a l IH]; cbn; intro H; auto. inversion H; subst; auto. Qed.

Lemma seq_insert {A} (f g : nat -> A) n i x :
  (i <= n)%nat -> (forall j, (j < i)%nat -> f j = g j) -> f i = x ->
  (forall j, (i <= j < n)%nat -> f (S j) = g j) ->
  map f (seq 0 (S n)) = insert_at i x (map g (seq 0 n)).
Proof.
  intros Hi H1 H2 H3. unfold insert_at.
  replace (S n) with (i + S (n - i))%nat by lia.
  replace (seq 0 n) with (seq 0 i ++ seq i (n - i)) by (rewrite <- seq_app; f_equal; lia).
  rewrite seq_app, !map_app. rewrite firstn_app, map_length, seq_length, Nat.sub_diag.
  rewrite firstn_all2 by (rewrite map_length, seq_length; lia). cbn [firstn]. rewrite app_nil_r.
  rewrite skipn_app, map_length, seq_length, Nat.sub_diag.
  rewrite skipn_all2 by (rewrite map_length, seq_length; lia). cbn [skipn app].
  f_equal.
  - apply map_ext_in. intros j Hj. apply in_seq in Hj. apply H1. lia.
  - cbn [seq map Nat.add]. f_equal; [auto|]. rewrite <- seq_shift, map_map.
    apply map_ext_in. intros j Hj. apply in_seq in Hj. apply H3. lia.
Qed.

Lemma seq_remove {A} (f g : nat -> A) n i :
  (i <= n)%nat -> (forall j, (j < i)%nat -> f j = g j) ->
  (forall j, (i <= j < n)%nat -> f j = g (S j)) ->
  map f (seq 0 n) = remove_at i (map g (seq 0 (S n))).
Proof.
  intros Hi H1 H2. rewrite (seq_insert g f n i (g i)); auto.
  - unfold insert_at, remove_at.
    rewrite firstn_app, firstn_firstn, firstn_length, map_length, seq_length.
    replace (Nat.min i i) with i by lia. replace (i - Nat.min i n)%nat with 0%nat by lia.
    cbn [firstn]. rewrite app_nil_r.
    rewrite skipn_app, firstn_length, map_length, seq_length.
    rewrite skipn_all2 by (rewrite firstn_length, map_length, seq_length; lia).
    replace (S i - Nat.min i n)%nat with 1%nat by lia. cbn [skipn app].
    symmetry. apply firstn_skipn.
  - intros j Hj. symmetry; auto.
  - intros j Hj. symmetry; auto.
Qed.

Lemma apart_sym leaf p a b : apart leaf p a b -> apart leaf p b a.
Proof. unfold apart. tauto. Qed.

(** ** Insert *)
Lemma same_refl_outside p q o n : (forall i, o <= i -> i < o + n -> p i = q i) -> same_bytes p o q o n.
Proof. intros H i Hi. apply H; lia. Qed.

Lemma same_sym p o q o' n : same_bytes p o q o' n -> same_bytes q o' p o n.
Proof. intros H i Hi. symmetry. apply H. auto. Qed.

(** the pages equal above the old node area keep their nodes *)
Lemma raw_kept leaf p q o :
  same_bytes p o q o (node_size leaf p o) ->
  raw leaf q o = raw leaf p o /\ node_size leaf q o = node_size leaf p o.
Proof.
  intro H. split.
  - symmetry. apply raw_eq. auto.
  - symmetry. apply node_size_same. eapply same_weaken; eauto. apply node_base_le.
Qed.

Definition node_bytes (leaf : bool) (k : bytes) (data : option bytes) (child : N) : option bytes :=
  if leaf then match data with Some d => Some (leaf_node_bytes k d) | None => None end
  else Some (branch_node_bytes k child).

Lemma sub16_ge x y : y <= x -> x < 65536 -> sub16 x y = x - y.
Proof. intros. unfold sub16. lia. Qed.

Lemma node_bytes_size leaf k data child r : node_bytes leaf k data child = Some r -> blen r < 65536 ->
  node_size leaf (raw_mem r) 0 = blen r.
Proof.
  intros E H. destruct leaf; cbn [node_bytes] in E.
  - destruct data as [d|]; [|discriminate]. inversion E; subst. rewrite blen_leaf in *. apply node_size_leaf_raw. auto.
  - inversion E; subst. rewrite blen_branch in *. apply node_size_branch_raw. auto.
Qed.

Lemma node_base_blen leaf k data child r : node_bytes leaf k data child = Some r -> node_base leaf <= blen r.
Proof.
  intro E. destruct leaf; cbn [node_bytes] in E.
  - destruct data as [d|]; [|discriminate]. inversion E; subst. rewrite blen_leaf. unfold leaf_size, node_base. lia.
  - inversion E; subst. rewrite blen_branch. unfold branch_size, node_base. lia.
Qed.

(** a page that gained one node below [upper] *)
Lemma insert_abs leaf p p' i off sz :
  wf_page leaf p -> pg_flags p' = pg_flags p -> pg_nkeys p' = pg_nkeys p + 1 ->
  pg_lower p' = pg_lower p + 2 -> pg_upper p' = off -> off + sz = pg_upper p -> pg_lower p + 2 <= off ->
  slots p' = insert_at i off (slots p) ->
  (forall i, pg_upper p <= i -> p' i = p i) -> node_size leaf p' off = sz ->
  wf_page leaf p' /\ raws leaf p' = insert_at i (raw leaf p' off) (raws leaf p).
Proof.
  intros W Hfl Hnk Hlow Hup Hoff Hofl Hslots Hhi Hrsz.
  pose proof (wf_lower _ _ W) as WL. pose proof (wf_free _ _ W) as WF. pose proof (wf_upper _ _ W) as WU.
  assert (Hkeep : forall o, In o (slots p) -> same_bytes p o p' o (node_size leaf p o)).
  { intros o Ho. apply same_refl_outside. intros j H1 H2. symmetry. apply Hhi.
    pose proof (wf_nodes _ _ W) as N1. rewrite Forall_forall in N1. apply N1 in Ho. lia. }
  assert (Hsz : forall o, In o (slots p) -> node_size leaf p' o = node_size leaf p o)
    by (intros o Ho; apply raw_kept; auto).
  split.
  2:{ unfold raws. rewrite Hslots, insert_at_map. f_equal.
      apply map_ext_in. intros o Ho. apply raw_kept; auto. }
  pose proof (wf_nodes _ _ W) as WN. rewrite Forall_forall in WN.
  constructor.
  - rewrite Hfl. apply (wf_flags _ _ W).
  - rewrite Hlow, Hnk. lia.
  - lia.
  - lia.
  - rewrite Hslots. eapply Permutation_Forall; [apply insert_at_Permutation|].
    constructor.
    + rewrite Hrsz, Hup. lia.
    + rewrite Forall_forall. intros o Ho. rewrite Hup, (Hsz _ Ho). specialize (WN _ Ho). lia.
  - rewrite Hslots. eapply FOP_perm; [intros; apply apart_sym; auto|apply insert_at_Permutation|].
    constructor.
    + rewrite Forall_forall. intros o Ho. left. rewrite Hrsz. specialize (WN _ Ho). lia.
    + eapply FOP_ext; [|apply (wf_apart _ _ W)]. intros x y Hx Hy. unfold apart. rewrite (Hsz _ Hx), (Hsz _ Hy). auto.
Qed.

Lemma page_insert_ok leaf p index k data child r :
  wf_page leaf p -> index <= pg_nkeys p -> node_bytes leaf k data child = Some r -> blen r < 65536 ->
  if page_free p <? blen r + 2 then page_insert p index k data child = Err ENOSPC
  else exists p', page_insert p index k data child = Ok p' /\ wf_page leaf p' /\
         raws leaf p' = insert_at (N.to_nat index) r (raws leaf p) /\
         pg_nkeys p' = pg_nkeys p + 1 /\ pg_pgno p' = pg_pgno p /\
         page_free p' = page_free p - (blen r + 2) /\
         pg_upper p' = pg_upper p - blen r.
Proof.
  intros W Hi Hr Hb.
  pose proof (wf_lower _ _ W) as WL. pose proof (wf_free _ _ W) as WF. pose proof (wf_upper _ _ W) as WU.
  pose proof (node_base_blen _ _ _ _ _ Hr) as Hbase.
  assert (E1 : (if is_leaf p then match data with
                | None => Err EINVAL
                | Some d => Ok (leaf_node_bytes k d, u16 (LEAF_BASE + blen k + blen d)) end
              else if is_branch p then Ok (branch_node_bytes k child, u16 (BRANCH_BASE + blen k))
              else Err EINVAL) = Ok (r, blen r)).
  { rewrite (wf_is_leaf _ _ W), (wf_is_branch _ _ W). destruct leaf; cbn [node_bytes negb] in Hr |- *.
    - destruct data as [d|]; [|discriminate]. inversion Hr; subst r.
      fold (leaf_size k d). rewrite <- (blen_leaf k d), u16_small by auto. reflexivity.
    - inversion Hr; subst r. fold (branch_size k). rewrite <- (blen_branch k child), u16_small by auto. reflexivity. }
  unfold page_insert. rewrite E1. cbn [bindr]. clear E1.
  unfold PAGE_SIZE, HDR in *.
  rewrite sub16_ge by lia. fold (page_free p).
  destruct (N.ltb_spec (page_free p) (blen r + 2)) as [|Hfree]; [reflexivity|].
  unfold page_free in Hfree.
  assert (Hin : slot_in_page (N.max (pg_nkeys p) index) = true).
  { unfold slot_in_page, slot_addr, HDR, PAGE_SIZE. rewrite N.leb_le. destruct leaf; cbn [node_base] in Hbase; lia. }
  rewrite Hin. rewrite sub16_ge by lia.
  set (off := pg_upper p - blen r).
  assert (Hoff : off + blen r = pg_upper p) by (unfold off; lia).
  assert (Hofl : pg_lower p + 2 <= off) by (unfold off; lia).
  replace (off + blen r <=? 4096) with true by (symmetry; rewrite N.leb_le; lia).
  set (p1 := if index <? pg_nkeys p then copyb p (slot_addr (index + 1)) p (slot_addr index) (2 * (pg_nkeys p - index)) else p).
  set (p' := put16 (put16 (put16 (put16 (writeb p1 off r) (slot_addr index) off) 10 (u16 (pg_nkeys p + 1))) 12 (u16 (pg_lower p + 2))) 14 off).
  exists p'. split; [reflexivity|].
  (* bytes of p1 outside the slot area *)
  assert (P1 : forall i, i < slot_addr index \/ pg_lower p + 2 <= i -> p1 i = p i).
  { intros i Hi'. unfold p1. destruct (N.ltb_spec index (pg_nkeys p)); auto.
    apply copyb_out. unfold slot_addr, HDR in *. lia. }
  (* bytes of p' *)
  assert (Hhi : forall i, pg_upper p <= i -> p' i = p i).
  { intros i Hi'. unfold p'. unfold slot_addr, HDR in *.
    rewrite !put16_out by lia. rewrite writeb_out by lia. apply P1. lia. }
  assert (Hraw : same_bytes p' off (raw_mem r) 0 (blen r)).
  { intros i Hi'. unfold p', slot_addr, HDR. rewrite !put16_out by lia.
    rewrite writeb_in by auto. reflexivity. }
  assert (Hnk : pg_nkeys p' = pg_nkeys p + 1).
  { unfold pg_nkeys at 1, p'. rewrite !get16_put16_other by lia. rewrite get16_put16_same.
    rewrite u16_small; [apply u16_small; lia|unfold u16; lia]. }
  assert (Hlow : pg_lower p' = pg_lower p + 2).
  { unfold pg_lower at 1, p'. rewrite !get16_put16_other by lia. rewrite get16_put16_same.
    rewrite u16_small; [apply u16_small; lia|unfold u16; lia]. }
  assert (Hup : pg_upper p' = off).
  { unfold pg_upper at 1, p'. rewrite get16_put16_same. apply u16_small. lia. }
  assert (Hfl : pg_flags p' = pg_flags p).
  { unfold pg_flags, p'. unfold slot_addr, HDR. rewrite !get16_put16_other by lia.
    rewrite get16_writeb_out by lia. apply get16_ext; apply P1; unfold slot_addr, HDR; lia. }
  assert (Hpg : pg_pgno p' = pg_pgno p).
  { unfold pg_pgno, p'. unfold slot_addr, HDR. rewrite !get64_put16_other by lia.
    rewrite get64_writeb_out by lia. apply get64_ext. intros i Hi'. apply P1; unfold slot_addr, HDR; lia. }
  assert (Hslots : slots p' = insert_at (N.to_nat index) off (slots p)).
  { unfold slots. rewrite Hnk. replace (N.to_nat (pg_nkeys p + 1)) with (S (N.to_nat (pg_nkeys p))) by lia.
    assert (G : forall j, j + 2 <= slot_addr index \/ slot_addr (index+1) <= j -> j + 2 <= off -> 18 <= j -> get16 p' j = get16 p1 j).
    { intros j Hj Hj2 Hj3. unfold p', slot_addr, HDR in *.
      rewrite !get16_put16_other by lia. rewrite get16_writeb_out by lia. reflexivity. }
    apply seq_insert.
    - lia.
    - intros j Hj. unfold slot. rewrite G by (unfold slot_addr, HDR; lia).
      apply get16_ext; apply P1; unfold slot_addr, HDR; lia.
    - unfold slot. rewrite N2Nat.id. unfold p'. unfold slot_addr, HDR in *.
      rewrite !(get16_put16_other _ 14), !(get16_put16_other _ 12), !(get16_put16_other _ 10) by lia.
      rewrite get16_put16_same. apply u16_small. lia.
    - intros j Hj. unfold slot. rewrite G by (unfold slot_addr, HDR; lia).
      unfold p1. destruct (N.ltb_spec index (pg_nkeys p)); [|lia].
      unfold slot_addr, HDR.
      apply get16_ext; rewrite copyb_in by (unfold slot_addr, HDR; lia); f_equal; unfold slot_addr, HDR; lia. }
  assert (Hrsz : node_size leaf p' off = blen r).
  { rewrite <- (node_bytes_size _ _ _ _ _ Hr Hb). apply node_size_same. eapply same_weaken; eauto. }
  destruct (insert_abs leaf p p' (N.to_nat index) off (blen r)) as [W' R']; auto.
  split; [exact W'|]. splits; auto; try (unfold page_free; lia).
  rewrite R'. f_equal. unfold raw. rewrite Hrsz. unfold blen. rewrite Nat2N.id.
  transitivity (readn (raw_mem r) 0 (length r)).
  - apply readn_ext. intros i Hi'. apply Hraw. exact Hi'.
  - rewrite <- (app_nil_r r) at 1. apply readn_raw_mem.
Qed.

(** ** Delete *)
Lemma adjust_slots_out n p off size i : i < HDR \/ HDR + 2 * N.of_nat n <= i -> adjust_slots n p off size i = p i.
Proof.
  revert i. induction n as [|n IH]; intros i H; [reflexivity|]. cbn [adjust_slots]. unfold HDR in *.
  destruct (_ <? off).
  - rewrite put16_out by (unfold slot_addr, HDR; lia). apply IH. lia.
  - apply IH. lia.
Qed.

Lemma adjust_slots_in n p off size j : (j < n)%nat ->
  slot (adjust_slots n p off size) (N.of_nat j) =
  (if slot p (N.of_nat j) <? off then u16 (slot p (N.of_nat j) + size) else slot p (N.of_nat j)).
Proof.
  induction n as [|n IH]; intro H; [lia|]. cbn [adjust_slots].
  assert (Hs : forall m, slot (adjust_slots m p off size) (N.of_nat m) = slot p (N.of_nat m)).
  { intro m. unfold slot, slot_addr. apply get16_ext; apply adjust_slots_out; unfold HDR; lia. }
  destruct (Nat.eq_dec j n) as [->|Hne].
  - rewrite Hs. destruct (slot p (N.of_nat n) <? off) eqn:E.
    + unfold slot at 1. rewrite get16_put16_same. unfold u16. rewrite N.mod_mod; lia.
    + apply Hs.
  - rewrite Hs. destruct (slot p (N.of_nat n) <? off).
    + unfold slot at 1. rewrite get16_put16_other by (unfold slot_addr, HDR; lia). apply IH. lia.
    + apply IH. lia.
Qed.

Lemma page_delete_ok leaf p index : wf_page leaf p -> index < pg_nkeys p ->
  exists p', page_delete p index = Ok p' /\ wf_page leaf p' /\
    raws leaf p' = remove_at (N.to_nat index) (raws leaf p) /\
    pg_nkeys p' = pg_nkeys p - 1 /\ pg_pgno p' = pg_pgno p /\
    page_free p' = page_free p + node_size leaf p (slot p index) + 2.
Proof.
  intros W Hi.
  pose proof (wf_lower _ _ W) as WL. pose proof (wf_free _ _ W) as WF. pose proof (wf_upper _ _ W) as WU.
  destruct (wf_slot _ _ _ W Hi) as [Hs1 Hs2].
  pose proof (node_base_le leaf p (slot p index)) as Hbase.
  pose proof (wf_nodes _ _ W) as WN. rewrite Forall_forall in WN.
  assert (Hb0 : 0 < node_base leaf) by (destruct leaf; reflexivity).
  unfold page_delete.
  destruct (N.leb_spec (pg_nkeys p) index); [lia|].
  replace (is_leaf p || is_branch p) with true
    by (rewrite (wf_is_leaf _ _ W), (wf_is_branch _ _ W); destruct leaf; reflexivity).
  rewrite (wf_is_leaf _ _ W).
  unfold HDR, PAGE_SIZE in *.
  replace (slot_in_page (pg_nkeys p - 1) && (slot p index + node_base leaf <=? 4096)) with true
    by (symmetry; unfold slot_in_page, slot_addr, HDR, PAGE_SIZE; rewrite andb_true_iff, !N.leb_le; lia).
  set (off := slot p index) in *. set (sz := node_size leaf p off) in *.
  rewrite (u16_small sz) by lia.
  set (p1 := copyb p (slot_addr index) p (slot_addr (index + 1)) (2 * (pg_nkeys p - 1 - index))).
  set (rest := remove_at (N.to_nat index) (slots p)).
  assert (Hperm : Permutation (slots p) (off :: rest)).
  { apply remove_at_Permutation. rewrite slots_nth by lia. rewrite N2Nat.id. reflexivity. }
  assert (Hfop : ForallOrdPairs (apart leaf p) (off :: rest))
    by (eapply FOP_perm; [apply apart_sym|exact Hperm|apply (wf_apart _ _ W)]).
  assert (Hin : forall o, In o rest -> In o (slots p))
    by (intros o Ho; eapply Permutation_in; [symmetry; exact Hperm|right; auto]).
  assert (Hside : forall o, In o rest -> (o < off /\ o + node_size leaf p o <= off) \/ off + sz <= o).
  { intros o Ho. inversion Hfop as [|? ? HF _]; subst. rewrite Forall_forall in HF. specialize (HF _ Ho).
    unfold apart in HF. fold sz in HF. pose proof (node_base_le leaf p o). destruct HF; [right|left]; lia. }
  set (sh := fun o => if o <? off then o + sz else o).
  (* the state of the page before the header is updated *)
  assert (P2 : exists p2, (if pg_upper p <? off then
                  if pg_upper p + sz + (off - pg_upper p) <=? 4096 then
                    Ok (adjust_slots (N.to_nat (pg_nkeys p - 1)) (copyb p1 (pg_upper p + sz) p1 (pg_upper p) (off - pg_upper p)) off sz)
                  else UB
                else Ok p1) = Ok p2 /\
     (forall i, i < 18 -> p2 i = p i) /\
     (forall i, off + sz <= i -> p2 i = p i) /\
     (forall i, pg_upper p <= i -> i < off -> p2 (i + sz) = p i) /\
     (forall j, j < pg_nkeys p - 1 -> slot p2 j = sh (if j <? index then slot p j else slot p (j + 1)))).
  { assert (P1s : forall j, j < pg_nkeys p - 1 -> slot p1 j = if j <? index then slot p j else slot p (j + 1)).
    { intros j Hj. unfold slot, p1. destruct (N.ltb_spec j index).
      - apply get16_copyb_out. unfold slot_addr, HDR. lia.
      - unfold slot_addr, HDR. apply get16_ext; rewrite copyb_in by lia; f_equal; lia. }
    assert (P1o : forall i, i < 18 \/ pg_lower p <= i -> p1 i = p i).
    { intros i Hi'. unfold p1. apply copyb_out. unfold slot_addr, HDR. lia. }
    destruct (N.ltb_spec (pg_upper p) off) as [Hlt|Hge].
    - destruct (N.leb_spec (pg_upper p + sz + (off - pg_upper p)) 4096); [|lia].
      eexists. split; [reflexivity|]. splits.
      + intros i Hi'. rewrite adjust_slots_out by (unfold HDR; lia). rewrite copyb_out by lia. apply P1o. lia.
      + intros i Hi'. rewrite adjust_slots_out by (unfold HDR; lia). rewrite copyb_out by lia. apply P1o. lia.
      + intros i Hi' Hi2. rewrite adjust_slots_out by (unfold HDR; lia). rewrite copyb_in by lia.
        rewrite P1o by lia. f_equal. lia.
      + intros j Hj. rewrite <- (N2Nat.id j) at 1. rewrite adjust_slots_in by lia. rewrite !N2Nat.id.
        assert (Es : forall q, slot (copyb p1 (pg_upper p + sz) q (pg_upper p) (off - pg_upper p)) j = slot p1 j).
        { intro q. unfold slot. apply get16_copyb_out. unfold slot_addr, HDR. lia. }
        rewrite Es. rewrite P1s by auto. unfold sh.
        destruct (_ <? off) eqn:E; auto. apply u16_small. rewrite N.ltb_lt in E. lia.
    - eexists. split; [reflexivity|]. assert (off = pg_upper p) by lia. splits.
      + intros i Hi'. apply P1o. lia.
      + intros i Hi'. apply P1o. lia.
      + intros; lia.
      + intros j Hj. rewrite P1s by auto. unfold sh. destruct (N.ltb_spec (if j <? index then slot p j else slot p (j + 1)) off) as [Hl|]; auto.
        exfalso. destruct (N.ltb_spec j index).
        * destruct (wf_slot _ _ j W) as [? ?]; lia.
        * destruct (wf_slot _ _ (j+1) W) as [? ?]; lia. }
  destruct P2 as (p2 & -> & Hhdr & Hhi & Hmid & Hsl). cbn [bindr]. unfold PAGE_SIZE.
  set (p' := put16 (put16 (put16 p2 10 (u16 (pg_nkeys p - 1))) 12 (sub16 (pg_lower p) 2)) 14 (u16 (pg_upper p + sz))).
  exists p'. split; [reflexivity|].
  assert (Ho : forall i, 18 <= i -> p' i = p2 i) by (intros i Hi'; unfold p'; rewrite !put16_out by lia; reflexivity).
  assert (Hnk : pg_nkeys p' = pg_nkeys p - 1).
  { unfold pg_nkeys at 1, p'. rewrite !get16_put16_other by lia. rewrite get16_put16_same.
    rewrite u16_small; [apply u16_small; lia|unfold u16; lia]. }
  assert (Hlow : pg_lower p' = pg_lower p - 2).
  { unfold pg_lower at 1, p'. rewrite !get16_put16_other by lia. rewrite get16_put16_same.
    rewrite sub16_ge by lia. apply u16_small. lia. }
  assert (Hup : pg_upper p' = pg_upper p + sz).
  { unfold pg_upper at 1, p'. rewrite get16_put16_same. rewrite u16_small; [apply u16_small; lia|unfold u16; lia]. }
  assert (Hfl : pg_flags p' = pg_flags p).
  { unfold pg_flags, p'. rewrite !get16_put16_other by lia. apply get16_ext; apply Hhdr; lia. }
  assert (Hpg : pg_pgno p' = pg_pgno p).
  { unfold pg_pgno, p'. rewrite !get64_put16_other by lia. apply get64_ext. intros; apply Hhdr; lia. }
  assert (Hslots : slots p' = map sh rest).
  { unfold rest. rewrite remove_at_map. unfold slots. rewrite Hnk, map_map.
    replace (N.to_nat (pg_nkeys p)) with (S (N.to_nat (pg_nkeys p - 1))) by lia.
    assert (Hsl' : forall j, j < pg_nkeys p - 1 -> slot p' j = sh (if j <? index then slot p j else slot p (j + 1))).
    { intros j Hj. rewrite <- Hsl by auto. unfold slot, slot_addr, HDR. apply get16_ext; apply Ho; lia. }
    apply seq_remove.
    - lia.
    - intros j Hj. rewrite Hsl' by lia. destruct (N.ltb_spec (N.of_nat j) index); [reflexivity|lia].
    - intros j Hj. rewrite Hsl' by lia. destruct (N.ltb_spec (N.of_nat j) index); [lia|].
      do 2 f_equal. lia. }
  assert (Hkeep : forall o, In o rest -> same_bytes p o p' (sh o) (node_size leaf p o)).
  { intros o Hor i Hi'. pose proof (WN _ (Hin _ Hor)). unfold sh.
    destruct (Hside _ Hor) as [[H1 H2]|H1].
    - destruct (N.ltb_spec o off); [|lia]. rewrite Ho by lia. replace (o + sz + i) with (o + i + sz) by lia.
      symmetry. apply Hmid; lia.
    - destruct (N.ltb_spec o off); [lia|]. rewrite Ho by lia. symmetry. apply Hhi. lia. }
  assert (Hsz : forall o, In o rest -> node_size leaf p' (sh o) = node_size leaf p o).
  { intros o Hor. symmetry. apply node_size_same. eapply same_weaken; [apply Hkeep; auto|apply node_base_le]. }
  split.
  2:{ splits; auto.
      - unfold raws. rewrite <- remove_at_map. fold rest. rewrite Hslots, map_map. apply map_ext_in.
        intros o Hor. symmetry. apply raw_eq. auto.
      - unfold page_free. rewrite Hlow, Hup. lia. }
  constructor.
  - rewrite Hfl. apply (wf_flags _ _ W).
  - rewrite Hlow, Hnk. unfold HDR. lia.
  - lia.
  - unfold PAGE_SIZE. lia.
  - rewrite Hslots, Forall_map. rewrite Forall_forall. intros o Hor. rewrite (Hsz _ Hor), Hup.
    pose proof (WN _ (Hin _ Hor)). unfold sh, PAGE_SIZE.
    destruct (Hside _ Hor) as [[H1 H2]|H1]; destruct (N.ltb_spec o off); lia.
  - rewrite Hslots. apply FOP_map. inversion Hfop as [|? ? _ HF]; subst.
    eapply FOP_ext; [|exact HF]. intros x y Hx Hy. unfold apart. rewrite (Hsz _ Hx), (Hsz _ Hy).
    unfold sh. destruct (Hside _ Hx) as [[H1 H2]|H1]; destruct (Hside _ Hy) as [[H3 H4]|H3];
    destruct (N.ltb_spec x off); destruct (N.ltb_spec y off); lia.
Qed.

(** ** Total size of the nodes *)
Definition sumN (l : list N) : N := fold_right N.add 0 l.
Lemma sumN_app a b : sumN (a ++ b) = sumN a + sumN b.
Proof. induction a; cbn; auto. unfold sumN in *. lia. Qed.

Lemma NoDup_app_intro {A} (a b : list A) : NoDup a -> NoDup b -> (forall x, In x a -> ~ In x b) -> NoDup (a ++ b).
Proof.
  intros Ha Hb H. induction Ha as [|x a Hx Ha IH]; cbn; auto. constructor.
  - rewrite in_app_iff. intros [?|?]; auto. apply (H x); cbn; auto.
  - apply IH. intros y Hy. apply H. cbn; auto.
Qed.

Lemma sum_ranges (sz : N -> N) (lo hi : N) (l : list N) :
  Forall (fun o => lo <= o /\ o + sz o <= hi) l ->
  ForallOrdPairs (fun a b => a + sz a <= b \/ b + sz b <= a) l ->
  (forall o, In o l -> 0 < sz o) ->
  lo <= hi -> sumN (map sz l) <= hi - lo.
Proof.
  intros HF HP Hpos Hle.
  set (rng := fun o => seq (N.to_nat o) (N.to_nat (sz o))).
  assert (Hlen : length (flat_map rng l) = N.to_nat (sumN (map sz l))).
  { clear. induction l as [|a l IH]; cbn; auto. rewrite app_length, IH. unfold rng at 1. rewrite seq_length.
    unfold sumN. lia. }
  assert (Hnd : NoDup (flat_map rng l)).
  { clear - HP Hpos. induction HP as [|a l HF HP IH]; cbn; [constructor|].
    assert (IH' : NoDup (flat_map rng l)) by (apply IH; intros; apply Hpos; cbn; auto).
    clear IH. apply NoDup_app_intro; auto.
    - apply seq_NoDup.
    - intros x Hx Hx'. apply in_flat_map in Hx'. destruct Hx' as (b & Hb & Hx').
      unfold rng in Hx, Hx'. apply in_seq in Hx, Hx'. rewrite Forall_forall in HF. specialize (HF _ Hb). lia. }
  assert (Hincl : incl (flat_map rng l) (seq (N.to_nat lo) (N.to_nat (hi - lo)))).
  { intros x Hx. apply in_flat_map in Hx. destruct Hx as (b & Hb & Hx).
    unfold rng in Hx. apply in_seq in Hx. rewrite Forall_forall in HF. specialize (HF _ Hb). apply in_seq. lia. }
  pose proof (NoDup_incl_length Hnd Hincl) as H. rewrite Hlen, seq_length in H. lia.
Qed.

Definition raw_sizes (l : list bytes) : N := sumN (map blen l).
(** node bytes plus slots *)
Definition raw_cost (l : list bytes) : N := sumN (map (fun r => blen r + 2) l).

Lemma raw_cost_sizes l : raw_cost l = raw_sizes l + 2 * N.of_nat (length l).
Proof. unfold raw_cost, raw_sizes, sumN. induction l; cbn [map fold_right length]; lia. Qed.
Lemma raw_cost_app a b : raw_cost (a ++ b) = raw_cost a + raw_cost b.
Proof. unfold raw_cost. rewrite map_app, sumN_app. reflexivity. Qed.

Lemma raws_length leaf p : length (raws leaf p) = N.to_nat (pg_nkeys p).
Proof. unfold raws. rewrite map_length. apply slots_length. Qed.

Lemma wf_raw_sizes leaf p : wf_page leaf p -> raw_sizes (raws leaf p) <= PAGE_SIZE - pg_upper p.
Proof.
  intro W. unfold raw_sizes, raws. rewrite map_map.
  rewrite (map_ext _ (node_size leaf p)) by (intro; apply raw_length).
  apply sum_ranges; try apply W.
  intros o _. pose proof (node_base_le leaf p o). destruct leaf; cbn [node_base] in *; unfold LEAF_BASE, BRANCH_BASE in *; lia.
Qed.

Lemma wf_raw_cost leaf p : wf_page leaf p -> raw_cost (raws leaf p) + page_free p <= PAGE_SIZE - HDR.
Proof.
  intro W. rewrite raw_cost_sizes, raws_length. pose proof (wf_raw_sizes _ _ W).
  pose proof (wf_lower _ _ W). pose proof (wf_free _ _ W). pose proof (wf_upper _ _ W).
  unfold page_free, HDR, PAGE_SIZE in *. lia.
Qed.

(** ** A freshly initialised page *)
Lemma init_nkeys n f : pg_nkeys (init_page n f) = 0.
Proof.
  unfold pg_nkeys, init_page. rewrite !get16_put16_other by lia. rewrite get16_put64_other by lia.
  rewrite get16_unfold. reflexivity.
Qed.
Lemma init_lower n f : pg_lower (init_page n f) = HDR.
Proof. unfold pg_lower, init_page. rewrite !get16_put16_other by lia. rewrite get16_put16_same. reflexivity. Qed.
Lemma init_upper n f : pg_upper (init_page n f) = PAGE_SIZE.
Proof. unfold pg_upper, init_page. rewrite get16_put16_same. reflexivity. Qed.
Lemma init_flags n f : f < 65536 -> pg_flags (init_page n f) = f.
Proof. intro. unfold pg_flags, init_page. rewrite !get16_put16_other by lia. rewrite get16_put16_same. apply u16_small; auto. Qed.
Lemma init_pgno n f : pg_pgno (init_page n f) = n mod 2 ^ 64.
Proof. unfold pg_pgno, init_page. rewrite !get64_put16_other by lia. apply get64_put64_same. Qed.
Lemma init_slots n f : slots (init_page n f) = [].
Proof. unfold slots. rewrite init_nkeys. reflexivity. Qed.

Definition kind (leaf : bool) : N := if leaf then P_LEAF else P_BRANCH.
Lemma init_wf leaf n : wf_page leaf (init_page n (kind leaf)).
Proof.
  constructor.
  - rewrite init_flags; destruct leaf; reflexivity.
  - rewrite init_lower, init_nkeys. reflexivity.
  - rewrite init_lower, init_upper. unfold HDR, PAGE_SIZE. lia.
  - rewrite init_upper. lia.
  - rewrite init_slots. constructor.
  - rewrite init_slots. constructor.
Qed.
Lemma init_raws leaf n f : raws leaf (init_page n f) = [].
Proof. unfold raws. rewrite init_slots. reflexivity. Qed.
Lemma init_free n f : page_free (init_page n f) = PAGE_SIZE - HDR.
Proof. unfold page_free. rewrite init_lower, init_upper. reflexivity. Qed.

(** ** Split *)
Lemma insert_at_end {A} (x : A) l : insert_at (length l) x l = l ++ [x].
Proof. unfold insert_at. rewrite firstn_all, skipn_all. reflexivity. Qed.

Lemma skipn_nth {A} (l : list A) i x : nth_error l i = Some x -> skipn i l = x :: skipn (S i) l.
Proof. revert l; induction i; intros [|a l] H; cbn in *; try discriminate; [congruence|auto]. Qed.

Lemma split_copy_ok leaf p : wf_page leaf p -> forall n idx r,
  idx + N.of_nat n = pg_nkeys p -> wf_page leaf r ->
  raw_cost (skipn (N.to_nat idx) (raws leaf p)) <= page_free r ->
  exists r', split_copy n leaf p r idx (pg_nkeys r) = Ok r' /\ wf_page leaf r' /\
    raws leaf r' = raws leaf r ++ skipn (N.to_nat idx) (raws leaf p) /\
    pg_pgno r' = pg_pgno r /\
    page_free r' = page_free r - raw_cost (skipn (N.to_nat idx) (raws leaf p)).
Proof.
  intro W. induction n as [|n IH]; intros idx r Hidx Wr Hcost.
  - exists r. cbn [split_copy].
    assert (E : skipn (N.to_nat idx) (raws leaf p) = []) by (apply skipn_all2; rewrite raws_length; lia).
    rewrite E in *. rewrite app_nil_r. splits; auto. change (raw_cost []) with 0. lia.
  - assert (Hi : idx < pg_nkeys p) by lia.
    destruct (wf_slot _ _ _ W Hi) as [Hs1 Hs2]. pose proof (wf_nkeys_small _ _ W) as Hnkp.
    pose proof (node_base_le leaf p (slot p idx)) as Hbase.
    pose proof (wf_lower _ _ Wr) as WL. pose proof (wf_free _ _ Wr) as WF. pose proof (wf_upper _ _ Wr) as WU.
    assert (Hnth : nth_error (raws leaf p) (N.to_nat idx) = Some (raw leaf p (slot p idx))).
    { unfold raws. rewrite nth_error_map, slots_nth by lia. rewrite N2Nat.id. reflexivity. }
    rewrite (skipn_nth _ _ _ Hnth) in Hcost |- *.
    assert (EC : forall a l, raw_cost (a :: l) = blen a + 2 + raw_cost l) by reflexivity.
    rewrite EC in *. rewrite raw_length in *.
    replace (S (N.to_nat idx)) with (N.to_nat (idx + 1)) in * by lia.
    cbn [split_copy]. unfold PAGE_SIZE, HDR in *.
    replace (slot_in_page idx && (slot p idx + node_base leaf <=? 4096)) with true
      by (symmetry; unfold slot_in_page, slot_addr, HDR, PAGE_SIZE; rewrite andb_true_iff, !N.leb_le; lia).
    set (src := slot p idx) in *. set (sz := node_size leaf p src) in *.
    rewrite (u16_small sz) by lia.
    unfold page_free in Hcost.
    rewrite sub16_ge by lia.
    set (off := pg_upper r - sz).
    assert (Hoff : off + sz = pg_upper r) by (unfold off; lia).
    assert (Hofl : pg_lower r + 2 <= off) by (unfold off; lia).
    replace ((src + sz <=? 4096) && (off + sz <=? 4096) && slot_in_page (pg_nkeys r)) with true
      by (symmetry; unfold slot_in_page, slot_addr, HDR, PAGE_SIZE; rewrite !andb_true_iff, !N.leb_le; lia).
    set (r' := put16 (put16 (put16 (put16 (copyb r off p src sz) (slot_addr (pg_nkeys r)) off) 10 (u16 (pg_nkeys r + 1))) 12 (u16 (pg_lower r + 2))) 14 off).
    assert (Hnk : pg_nkeys r' = pg_nkeys r + 1).
    { unfold pg_nkeys at 1, r'. rewrite !get16_put16_other by lia. rewrite get16_put16_same.
      rewrite u16_small; [apply u16_small; lia|unfold u16; lia]. }
    assert (Hlow : pg_lower r' = pg_lower r + 2).
    { unfold pg_lower at 1, r'. rewrite !get16_put16_other by lia. rewrite get16_put16_same.
      rewrite u16_small; [apply u16_small; lia|unfold u16; lia]. }
    assert (Hup : pg_upper r' = off).
    { unfold pg_upper at 1, r'. rewrite get16_put16_same. apply u16_small. lia. }
    assert (Hfl : pg_flags r' = pg_flags r).
    { unfold pg_flags, r'. unfold slot_addr, HDR. rewrite !get16_put16_other by lia.
      apply get16_copyb_out. lia. }
    assert (Hpg : pg_pgno r' = pg_pgno r).
    { unfold pg_pgno, r'. unfold slot_addr, HDR. rewrite !get64_put16_other by lia.
      apply get64_copyb_out. lia. }
    assert (Hslots : slots r' = insert_at (length (slots r)) off (slots r)).
    { rewrite slots_length. unfold slots. rewrite Hnk. replace (N.to_nat (pg_nkeys r + 1)) with (S (N.to_nat (pg_nkeys r))) by lia.
      apply seq_insert; try lia.
      - intros j Hj. unfold slot, r', slot_addr, HDR. rewrite !get16_put16_other by lia. apply get16_copyb_out. lia.
      - unfold slot. rewrite N2Nat.id. unfold r', slot_addr, HDR.
        rewrite !(get16_put16_other _ 14), !(get16_put16_other _ 12), !(get16_put16_other _ 10) by lia.
        rewrite get16_put16_same. apply u16_small. lia. }
    assert (Hsame : same_bytes p src r' off sz).
    { intros i Hi'. unfold r', slot_addr, HDR. rewrite !put16_out by lia. rewrite copyb_in by lia. f_equal. lia. }
    assert (Hhi : forall i, pg_upper r <= i -> r' i = r i).
    { intros i Hi'. unfold r', slot_addr, HDR. rewrite !put16_out by lia. apply copyb_out. lia. }
    assert (Hrsz : node_size leaf r' off = sz).
    { symmetry. apply node_size_same. eapply same_weaken; eauto. }
    destruct (insert_abs leaf r r' (length (slots r)) off sz) as [W' R']; auto.
    assert (ER : raw leaf r' off = raw leaf p src) by (symmetry; apply raw_eq; auto).
    rewrite ER in R'. replace (length (slots r)) with (length (raws leaf r)) in R' by (unfold raws; apply map_length).
    rewrite insert_at_end in R'.
    assert (Hfr : page_free r' = page_free r - (sz + 2)) by (unfold page_free; lia).
    destruct (IH (idx + 1) r') as (r2 & E2 & W2 & R2 & P2 & F2); auto.
    + lia.
    + rewrite Hfr. unfold page_free. lia.
    + exists r2. rewrite Hnk in E2. split; [exact E2|]. splits; auto.
      * rewrite R2, R', <- app_assoc. reflexivity.
      * congruence.
      * rewrite F2, Hfr. lia.
Qed.

Lemma min_offset_le n p i : (i < n)%nat -> min_offset n p <= slot p (N.of_nat i).
Proof.
  induction n as [|n IH]; intro H; [lia|]. cbn [min_offset].
  destruct (Nat.eq_dec i n) as [->|]; [lia|]. specialize (IH ltac:(lia)). lia.
Qed.
Lemma min_offset_ge n p b : b <= PAGE_SIZE -> (forall i, (i < n)%nat -> b <= slot p (N.of_nat i)) -> b <= min_offset n p.
Proof.
  intros Hb. induction n as [|n IH]; intro H; [exact Hb|]. cbn [min_offset].
  apply N.min_glb; [apply IH; intros; apply H; lia | apply H; lia].
Qed.
Lemma min_offset_max n p : min_offset n p <= PAGE_SIZE.
Proof. induction n; cbn [min_offset]; lia. Qed.

Lemma split_page_ok leaf p rp : wf_page leaf p ->
  exists l r, split_page leaf p rp = Ok (l, r) /\ wf_page leaf l /\ wf_page leaf r /\
    raws leaf l = firstn (N.to_nat (pg_nkeys p / 2)) (raws leaf p) /\
    raws leaf r = skipn (N.to_nat (pg_nkeys p / 2)) (raws leaf p) /\
    pg_nkeys l = pg_nkeys p / 2 /\ pg_nkeys r = pg_nkeys p - pg_nkeys p / 2 /\
    pg_pgno l = pg_pgno p /\ pg_pgno r = rp mod 2 ^ 64 /\
    page_free l = min_offset (N.to_nat (pg_nkeys p / 2)) p - (HDR + 2 * (pg_nkeys p / 2)) /\
    page_free p + 2 * (pg_nkeys p - pg_nkeys p / 2) <= page_free l /\
    page_free r = PAGE_SIZE - HDR - raw_cost (skipn (N.to_nat (pg_nkeys p / 2)) (raws leaf p)).
Proof.
  intro W. set (sp := pg_nkeys p / 2).
  pose proof (wf_lower _ _ W) as WL. pose proof (wf_free _ _ W) as WF. pose proof (wf_upper _ _ W) as WU.
  assert (Hsp : sp <= pg_nkeys p) by (unfold sp; lia).
  unfold split_page. fold sp.
  destruct (split_copy_ok leaf p W (N.to_nat (pg_nkeys p - sp)) sp (init_page rp (kind leaf))) as (r & E & Wr & Rr & Pr & Fr).
  { lia. }
  { apply init_wf. }
  { rewrite init_free. pose proof (wf_raw_cost _ _ W) as H.
    rewrite <- (firstn_skipn (N.to_nat sp) (raws leaf p)) in H. rewrite raw_cost_app in H. lia. }
  rewrite init_nkeys in E. unfold kind in E. rewrite E. cbn [bindr]. clear E.
  set (mo := min_offset (N.to_nat sp) p).
  set (l := put16 (put16 (put16 p 10 sp) 12 (u16 (HDR + 2 * sp))) 14 mo).
  pose proof (min_offset_max (N.to_nat sp) p) as Hmax. fold mo in Hmax.
  assert (Hmu : pg_upper p <= mo).
  { apply min_offset_ge; auto. intros i Hi. apply (wf_slot leaf); auto. lia. }
  unfold HDR, PAGE_SIZE in *.
  assert (Hnk : pg_nkeys l = sp).
  { unfold pg_nkeys, l. rewrite !get16_put16_other by lia. rewrite get16_put16_same. apply u16_small. lia. }
  assert (Hlow : pg_lower l = 18 + 2 * sp).
  { unfold pg_lower, l. rewrite !get16_put16_other by lia. rewrite get16_put16_same.
    rewrite u16_small; [apply u16_small; lia|unfold u16; lia]. }
  assert (Hup : pg_upper l = mo).
  { unfold pg_upper, l. rewrite get16_put16_same. apply u16_small. lia. }
  assert (Hfl : pg_flags l = pg_flags p).
  { unfold pg_flags, l. rewrite !get16_put16_other by lia. reflexivity. }
  assert (Hpg : pg_pgno l = pg_pgno p).
  { unfold pg_pgno, l. rewrite !get64_put16_other by lia. reflexivity. }
  assert (Ho : forall i, 18 <= i -> l i = p i) by (intros i Hi; unfold l; rewrite !put16_out by lia; reflexivity).
  assert (Hslots : slots l = firstn (N.to_nat sp) (slots p)).
  { unfold slots. rewrite Hnk, firstn_map.
    replace (firstn (N.to_nat sp) (seq 0 (N.to_nat (pg_nkeys p)))) with (seq 0 (N.to_nat sp)).
    - apply map_ext_in. intros j _. unfold slot, slot_addr, HDR. apply get16_ext; apply Ho; lia.
    - replace (N.to_nat (pg_nkeys p)) with (N.to_nat sp + N.to_nat (pg_nkeys p - sp))%nat by lia.
      rewrite seq_app, firstn_app, seq_length, Nat.sub_diag. cbn [firstn]. rewrite app_nil_r.
      rewrite firstn_all2; auto. rewrite seq_length; lia. }
  assert (Hsub : forall o, In o (slots l) -> In o (slots p)).
  { intros o Hin. rewrite Hslots in Hin. rewrite <- (firstn_skipn (N.to_nat sp) (slots p)). apply in_or_app. auto. }
  pose proof (wf_nodes _ _ W) as WN. rewrite Forall_forall in WN.
  assert (Hkeep : forall o, In o (slots l) -> same_bytes p o l o (node_size leaf p o)).
  { intros o Hin. apply same_refl_outside. intros i H1 H2. symmetry. apply Ho. specialize (WN _ (Hsub _ Hin)). lia. }
  assert (Hsz : forall o, In o (slots l) -> node_size leaf l o = node_size leaf p o)
    by (intros o Hin; apply raw_kept; auto).
  exists l, r. split; [reflexivity|]. split; [|split; [exact Wr|]].
  - constructor.
    + rewrite Hfl. apply (wf_flags _ _ W).
    + rewrite Hlow, Hnk. reflexivity.
    + lia.
    + unfold PAGE_SIZE. lia.
    + rewrite Forall_forall. intros o Hin. rewrite (Hsz _ Hin). split; [|apply (WN _ (Hsub _ Hin))].
      rewrite Hup. assert (Hin' := Hin). unfold slots in Hin'. rewrite Hnk in Hin'. apply in_map_iff in Hin'.
      destruct Hin' as (j & Hj & Hjs). apply in_seq in Hjs.
      replace o with (slot p (N.of_nat j)).
      * apply min_offset_le. lia.
      * subst o. unfold slot, slot_addr, HDR. apply get16_ext; symmetry; apply Ho; lia.
    + eapply FOP_ext with (R := apart leaf p).
      * intros x y Hx Hy. unfold apart. rewrite (Hsz _ Hx), (Hsz _ Hy). auto.
      * rewrite Hslots. apply FOP_app_l with (l' := skipn (N.to_nat sp) (slots p)). rewrite firstn_skipn. apply W.
  - rewrite init_raws in Rr. rewrite init_pgno in Pr. rewrite init_free in Fr.
    splits; auto.
    + unfold raws. rewrite firstn_map, <- Hslots. apply map_ext_in. intros o Hin. apply raw_kept; auto.
    + assert (H : length (raws leaf r) = length (skipn (N.to_nat sp) (raws leaf p))) by (rewrite Rr; reflexivity).
      rewrite skipn_length, !raws_length in H. lia.
    + unfold page_free. rewrite Hup, Hlow. reflexivity.
    + unfold page_free. rewrite Hup, Hlow. lia.
Qed.
