(** Properties C23 to C26: cursors. *)
From Verif Require Import Util PageModel PageSpec PageProofs PageOps TxnModel CursorModel TreeModel TreeSpec PropPage TreeProofs TreeOps TreeSplit TreePut TreeShape DbModel CursorSpec CursorProofs PropTree.
Local Open Scope N_scope.

Lemma page_key_small leaf p k : In k (page_keys leaf p) -> blen k < 65536.
Proof.
  unfold page_keys. intro H. apply in_map_iff in H. destruct H as (o & <- & _). unfold node_key, blen. rewrite readn_length, N2Nat.id.
  unfold node_ksize. destruct leaf; apply get16_lt.
Qed.
Lemma kvs_small V : forall h pg, Forall (fun kv => blen (fst kv) < 65536) (tree_kvs V h pg).
Proof.
  induction h as [|h IH]; intro pg; cbn [tree_kvs].
  - rewrite Forall_forall. intros kv H. apply (in_map fst) in H. rewrite leaf_entries_keys in H. eapply page_key_small; eauto.
  - rewrite Forall_forall. intros kv H. apply in_flat_map in H. destruct H as (e & _ & H). specialize (IH (snd e)). rewrite Forall_forall in IH. auto.
Qed.
Lemma tree_bindings E t h : (h < 64)%nat -> t_root t <> 0 -> tree false (get_page E t) h (t_root t) None None ->
  bindings E t (tree_kvs (get_page E t) h (t_root t)).
Proof.
  intros Hh Nz T. destruct (tree_content _ _ _ _ _ _ T) as (S & _). split; [exact S|]. split; [apply kvs_small|].
  intros k v Hk. rewrite (db_get_ok false E t k h Hk Hh Nz T). split.
  - intro H. rewrite (lookup_nth k v); auto. apply sorted_NoDup; auto.
  - destruct (lookup k _) as [v'|] eqn:E0; [|discriminate]. intros [= ->]. clear -E0. revert E0.
    generalize (tree_kvs (get_page E t) h (t_root t)). induction l as [|[k' v'] l IH]; cbn [lookup]; [discriminate|].
    destruct (key_dec k k') as [->|]; [intros [= ->]; cbn; auto|cbn; auto].
Qed.
Lemma empty_bindings E t : t_root t = 0 -> bindings E t [].
Proof.
  intro Z. split; [constructor|]. split; [constructor|]. intros k v _. unfold db_get. rewrite Z. cbn. split; [tauto|discriminate].
Qed.

Lemma scan_next E t : forall post c kv, ahead (get_page E t) c kv post -> scans E t NEXT (COk kv c) (kv :: post) NOTFOUND.
Proof.
  induction post as [|kv' post IH]; intros c kv A; apply scans_step; pose proof (next_ok E t c kv _ A) as N; unfold cursor_get.
  - destruct N as (c' & ->). constructor.
  - destruct N as (c' & -> & A' & _). rewrite (fetch_ok _ _ _ _ A'). apply IH. exact A'.
Qed.
Lemma scan_prev E t : forall pre c kv post, behind (get_page E t) c kv pre -> ahead (get_page E t) c kv post -> scans E t PREV (COk kv c) (kv :: rev pre) NOTFOUND.
Proof.
  induction pre as [|kv' pre IH] using rev_ind; intros c kv post B A; apply scans_step; destruct (prev_ok E t c kv _ B) as (P0 & P1); unfold cursor_get.
  - destruct (P0 eq_refl) as (c' & ->). constructor.
  - destruct (P1 pre kv' eq_refl) as (c' & -> & B' & A'). specialize (A' _ A). rewrite (fetch_ok _ _ _ _ A'). rewrite rev_app_distr. cbn [rev app]. eapply IH; eauto.
Qed.
Lemma root_leaf_empty E t op : op = FIRST \/ op = LAST -> t_root t <> 0 -> shape (get_page E t) 0 (t_root t) -> leaf_entries (get_page E t (t_root t)) = [] ->
  exists c, cursor_seek E t op = CErr NOTFOUND c.
Proof.
  intros Ho Nz S L. unfold cursor_seek. destruct (N.eqb_spec (t_root t) 0); [congruence|].
  assert (So : seek_op op) by (destruct Ho as [->| ->]; exact I).
  destruct (seek_down_ok E t op So 0 (t_root t) [] FIND_FUEL S ltac:(cbn; lia) ltac:(unfold FIND_FUEL; lia)) as (pl & r & X & _).
  unfold FIND_FUEL in *. cbn [seek_down] in *. cbn [shape] in S. destruct S as (_ & W & _). rewrite (wf_is_leaf true _ W) in *. clear X.
  pose proof (leaf_entries_length (get_page E t (t_root t))) as Q. rewrite L in Q. cbn [length] in Q.
  rewrite push_ok by (cbn; lia). unfold seek_leaf. cbn [c_stack].
  assert (Z : pg_nkeys (get_page E t (t_root t)) = 0) by lia. rewrite Z. destruct Ho as [->| ->]; cbn; eauto.
Qed.

(** ** C23 and C24 *)
(** Missing for the full claim: trees of more than one page with an empty leaf. *)
Theorem forward_scan_partial : forall E t, scannable E t -> exists l, bindings E t l /\
  scans E t NEXT (cursor_get E t cursor_open FIRST) l NOTFOUND.
Proof.
  intros E t [Z|(h & Hh & Nz & T & HN)].
  - exists []. split; [apply empty_bindings; auto|]. unfold cursor_get, cursor_seek. rewrite Z. cbn. constructor.
  - exists (tree_kvs (get_page E t) h (t_root t)). split; [apply tree_bindings; auto; lia|]. pose proof (tree_shape _ _ _ _ _ _ T) as S.
    assert (C : no_empty_leaf (get_page E t) h (t_root t) \/ (h = 0%nat /\ leaf_entries (get_page E t (t_root t)) = [])).
    { destruct HN as [->|]; auto. cbn [no_empty_leaf]. destruct (leaf_entries (get_page E t (t_root t))); auto. left. discriminate. }
    destruct C as [N|(-> & L)].
    + destruct (seek_first_ok E t h Nz Hh S N) as (c & kv & post & X & A & _ & ->). unfold cursor_get. rewrite X, (fetch_ok _ _ _ _ A). apply scan_next. exact A.
    + destruct (root_leaf_empty E t FIRST (or_introl eq_refl) Nz S L) as (c & X). unfold cursor_get. rewrite X. cbn [tree_kvs]. rewrite L. constructor.
Qed.
Print Assumptions forward_scan_partial.

Theorem backward_scan_partial : forall E t, scannable E t -> exists l, bindings E t l /\
  scans E t PREV (cursor_get E t cursor_open LAST) (rev l) NOTFOUND.
Proof.
  intros E t [Z|(h & Hh & Nz & T & HN)].
  - exists []. split; [apply empty_bindings; auto|]. unfold cursor_get, cursor_seek. rewrite Z. cbn. constructor.
  - exists (tree_kvs (get_page E t) h (t_root t)). split; [apply tree_bindings; auto; lia|]. pose proof (tree_shape _ _ _ _ _ _ T) as S.
    assert (C : no_empty_leaf (get_page E t) h (t_root t) \/ (h = 0%nat /\ leaf_entries (get_page E t (t_root t)) = [])).
    { destruct HN as [->|]; auto. cbn [no_empty_leaf]. destruct (leaf_entries (get_page E t (t_root t))); auto. left. discriminate. }
    destruct C as [N|(-> & L)].
    + destruct (seek_last_ok E t h Nz Hh S N) as (c & kv & pre & X & A & B & ->). unfold cursor_get. rewrite X, (fetch_ok _ _ _ _ A).
      rewrite rev_app_distr. cbn [rev app]. eapply scan_prev; eauto.
    + destruct (root_leaf_empty E t LAST (or_intror eq_refl) Nz S L) as (c & X). unfold cursor_get. rewrite X. cbn [tree_kvs]. rewrite L. constructor.
Qed.
Print Assumptions backward_scan_partial.

Lemma seek_position E t h op c0 kv c : (h < 32)%nat -> t_root t <> 0 -> shape (get_page E t) h (t_root t) -> no_empty_leaf (get_page E t) h (t_root t) ->
  is_seek op -> cursor_get E t c0 op = COk kv c ->
  exists pre post, ahead (get_page E t) c kv post /\ behind (get_page E t) c kv pre /\ tree_kvs (get_page E t) h (t_root t) = pre ++ kv :: post.
Proof.
  intros Hh Nz S N Hs H.
  assert (H1 : exists c1, cursor_seek E t op = COk tt c1 /\ cursor_fetch c1 = COk kv c).
  { unfold cursor_get in H. destruct op; try contradiction; (destruct (cursor_seek E t _) as [[] c1|e c1| |]; try discriminate; eauto). }
  destruct H1 as (c1 & X & F). unfold cursor_seek in X. destruct (N.eqb_spec (t_root t) 0); [congruence|].
  assert (So : seek_op op) by (destruct op; auto).
  destruct (seek_down_ok E t op So h (t_root t) [] FIND_FUEL S ltac:(cbn; lia) ltac:(unfold FIND_FUEL; lia)) as (pl & r & Y & Sp & Lr & _ & G).
  rewrite Y in X. destruct (G N [] [] eq_refl eq_refl) as (L' & R' & ZL & ZR & Ne & EQ & _). cbn [app] in EQ. rewrite app_nil_r in EQ.
  cbn [shape] in Sp. destruct Sp as (_ & W & _). unfold seek_leaf in X. cbn [c_stack] in X.
  assert (P : exists i, c1 = mkCur ((get_page E t pl, i) :: r) false).
  { destruct (match op with FIRST => Ok 0 | _ => _ end) as [i|e| |]; try discriminate.
    destruct (pg_nkeys (get_page E t pl) =? 0); [discriminate|]. injection X as <-. eauto. }
  destruct P as (i & ->). clear X. unfold cursor_fetch in F. cbn [c_stack c_eof] in F.
  destruct (N.leb_spec (pg_nkeys (get_page E t pl)) i); [discriminate|].
  destruct (nth_ex (leaf_entries (get_page E t pl)) (N.to_nat i)) as ((k, v) & Hn). { rewrite leaf_entries_length. lia. }
  destruct (leaf_value_ok _ i k v W Hn) as (V1 & V2). rewrite V1, V2 in F. injection F as <- <-.
  exists (L' ++ firstn (N.to_nat i) (leaf_entries (get_page E t pl))), (skipn (Datatypes.S (N.to_nat i)) (leaf_entries (get_page E t pl)) ++ R'). splits.
  - apply ahead_of; auto.
  - eapply behind_of; eauto.
  - rewrite <- EQ, <- app_assoc. f_equal. rewrite <- (firstn_skipn (N.to_nat i) (leaf_entries (get_page E t pl))) at 1.
    rewrite (skipn_nth _ _ _ Hn), <- app_assoc. reflexivity.
Qed.

Lemma bindings_unique E t l1 l2 : bindings E t l1 -> bindings E t l2 -> l1 = l2.
Proof.
  intros (S1 & M1 & I1) (S2 & M2 & I2).
    assert (EQ : forall kv, In kv l1 <-> In kv l2).
    { intros [k v]. rewrite Forall_forall in M1, M2. split; intro Hin; [pose proof (M1 _ Hin) as Hk|pose proof (M2 _ Hin) as Hk]; cbn in Hk;
        [apply I2|apply I1]; auto; [apply I1|apply I2]; auto. }
    clear I1 I2 M1 M2. revert l2 S2 EQ. induction l1 as [|a l1 IH]; intros [|b l2] S2 EQ; auto.
    - exfalso. apply (EQ b). cbn; auto.
    - exfalso. apply (EQ a). cbn; auto.
    - cbn [map] in *. apply sorted_cons_inv in S1, S2. destruct S1 as (S1 & F1), S2 as (S2 & F2). rewrite Forall_forall in F1, F2.
      assert (a = b).
      { destruct (proj1 (EQ a) (or_introl eq_refl)) as [|Ha]; auto. destruct (proj2 (EQ b) (or_introl eq_refl)) as [|Hb]; auto.
        exfalso. apply (klt_asym (fst a) (fst b)); [apply F1|apply F2]; apply in_map; auto. }
      subst b. f_equal. apply IH; auto. intro x. split; intro Hx.
      + destruct (proj1 (EQ x) (or_intror Hx)) as [<-|]; auto. exfalso. eapply klt_irrefl. apply F1. apply in_map. exact Hx.
      + destruct (proj2 (EQ x) (or_intror Hx)) as [<-|]; auto. exfalso. eapply klt_irrefl. apply F2. apply in_map. exact Hx.
Qed.

(** After any successful seek, every sequence of NEXT and PREV answers what the same
    moves in the sorted list of bindings answer. *)
Theorem navigation_partial : forall E t op c0 kv c l i ops,
  scannable E t -> bindings E t l -> is_seek op -> cursor_get E t c0 op = COk kv c -> nth_error l i = Some kv ->
  Forall is_move ops -> walk E t c ops (nav l i ops).
Proof.
  intros E t op c0 kv c l i ops SC BL Hs H Hi HM.
  destruct SC as [Z|(h & Hh & Nz & T & HN)].
  { rewrite (bindings_unique E t l [] BL (empty_bindings E t Z)) in Hi. destruct i; discriminate. }
  pose proof (tree_shape _ _ _ _ _ _ T) as S. pose proof (bindings_unique E t _ _ BL (tree_bindings E t h ltac:(lia) Nz T)) as EL.
  assert (N : no_empty_leaf (get_page E t) h (t_root t)).
  { destruct HN as [->|]; auto. cbn [no_empty_leaf]. cbn [tree_kvs] in EL. rewrite <- EL. intros ->. destruct i; discriminate. }
  destruct (seek_position E t h op c0 kv c Hh Nz S N Hs H) as (pre & post & A & B & EQ). rewrite <- EL in EQ.
  assert (I : i = length pre).
  { pose proof (proj1 BL) as Sl. apply sorted_NoDup in Sl. apply NoDup_map_inv in Sl. apply (proj1 (NoDup_nth_error l) Sl).
    - apply nth_error_Some. congruence.
    - rewrite Hi, EQ, nth_error_mid. reflexivity. }
  clear H Hi. subst i. revert c kv pre post A B EQ. induction HM as [|m ops M HM IH]; intros c kv pre post A B EQ; [constructor|].
  destruct m; try contradiction; cbn [nav].
  - pose proof (next_ok E t c kv post A) as NX. destruct post as [|kv' post].
    + rewrite EQ. replace (nth_error (pre ++ [kv]) (Datatypes.S (length pre))) with (@None (bytes * bytes)).
      * destruct NX as (c' & X). eapply walk_off. unfold cursor_get. rewrite X. reflexivity.
      * symmetry. apply nth_error_None. rewrite app_length. cbn [length]. lia.
    + destruct NX as (c' & X & A' & B'). specialize (B' pre B).
      assert (EQ' : l = (pre ++ [kv]) ++ kv' :: post) by (rewrite EQ, <- app_assoc; reflexivity).
      replace (Datatypes.S (length pre)) with (length (pre ++ [kv])) by (rewrite app_length; cbn [length]; lia).
      rewrite EQ' at 1. rewrite nth_error_mid. eapply walk_ok; [|eapply IH; eauto]. unfold cursor_get. rewrite X. eapply fetch_ok; eauto.
  - destruct (prev_ok E t c kv pre B) as (P0 & P1). destruct pre as [|p0 pre0] eqn:EP.
    + cbn [length]. destruct (P0 eq_refl) as (c' & X). eapply walk_off. unfold cursor_get. rewrite X. reflexivity.
    + destruct (@exists_last _ pre) as (pre' & kv' & E'). { rewrite EP. discriminate. } rewrite <- EP in *. clear EP.
      destruct (P1 pre' kv' E') as (c' & X & B' & A'). specialize (A' post A). rewrite E', app_length. cbn [length]. rewrite Nat.add_1_r.
      assert (EQ' : l = pre' ++ kv' :: kv :: post) by (rewrite EQ, E', <- app_assoc; reflexivity).
      rewrite EQ' at 1. rewrite nth_error_mid. eapply walk_ok; [|eapply IH; eauto]. unfold cursor_get. rewrite X. eapply fetch_ok; eauto.
Qed.
Print Assumptions navigation_partial.

(** ** C25 *)
Theorem set_exact : forall E t k c0, blen k < 65536 -> readable E t ->
  match db_get E t k with
  | Ok v => exists c, cursor_get E t c0 (SET k) = COk (k, v) c
  | Err e => e = NOTFOUND /\ exists c, cursor_get E t c0 (SET k) = CErr NOTFOUND c
  | _ => False
  end.
Proof.
  intros E t k c0 Hk RD. unfold db_get, cursor_get, cursor_seek. destruct RD as [Z|(h & Hh & Nz & S)].
  - rewrite Z. cbn. eauto.
  - destruct (N.eqb_spec (t_root t) 0); [congruence|].
    destruct (shape_find E t k Hk h (t_root t) S) as (_ & FL). rewrite (FL FIND_FUEL) by (unfold FIND_FUEL; lia). cbn [bindr].
    destruct (seek_down_ok E t (SET k) Hk h (t_root t) [] FIND_FUEL S ltac:(cbn; lia) ltac:(unfold FIND_FUEL; lia)) as (pl & r & -> & Sp & Lr & -> & _).
    set (p := get_page E t (leaf_on (get_page E t) k h (t_root t))) in *. cbn [shape] in Sp. destruct Sp as (_ & W & SK). fold p in W, SK.
    rewrite leaf_lookup by auto. unfold seek_leaf. cbn [c_stack].
    destruct (sorted_split_at k _ SK) as [(l1 & l2 & EK)|(l1 & l2 & EK & F1 & F2)].
    + rewrite (page_search_found true p k l1 l2) by auto. cbn [bindr].
      pose proof EK as E'. rewrite <- leaf_entries_keys in E'. apply map_eq_app in E'. destruct E' as (e1 & e2 & E' & E1 & E2).
      apply map_eq_cons in E2. destruct E2 as ([k' v] & post & -> & Ek & E2). cbn [fst] in Ek. subst k'.
      assert (Hn : nth_error (leaf_entries p) (N.to_nat (N.of_nat (length l1))) = Some (k, v)).
      { rewrite Nat2N.id, E', nth_error_app2; subst l1; rewrite map_length; [|lia]. rewrite Nat.sub_diag. reflexivity. }
      rewrite (lookup_nth k v); [|rewrite leaf_entries_keys; apply sorted_NoDup; auto|eapply nth_error_In; eauto].
      pose proof (leaf_entry_count _ _ _ Hn) as Hc. destruct (N.eqb_spec (pg_nkeys p) 0); [lia|]. unfold cursor_fetch. cbn [c_stack c_eof].
      destruct (N.leb_spec (pg_nkeys p) (N.of_nat (length l1))); [lia|]. destruct (leaf_value_ok p _ k v W Hn) as (-> & ->). eauto.
    + rewrite (page_search_at true p k l1 l2) by auto. cbn [bindr]. rewrite lookup_notin; [eauto|].
      rewrite leaf_entries_keys, EK, in_app_iff. rewrite Forall_forall in F1, F2.
      intros [Hi|Hi]; [apply F1 in Hi|apply F2 in Hi]; eapply klt_irrefl; eauto.
Qed.
Print Assumptions set_exact.

(** ** C26 *)
Lemma locate V k : forall h pg lo hi, blen k < 65536 -> tree false V h pg lo hi -> above lo k -> below hi k ->
  let p := V (leaf_on V k h pg) in
  wf_page true p /\ ksorted (page_keys true p) /\
  exists L R, tree_kvs V h pg = L ++ leaf_entries p ++ R /\ Forall (fun e => klt (fst e) k) L /\ Forall (fun e => klt k (fst e)) R.
Proof.
  induction h as [|h IH]; intros pg lo hi Hk T Ha Hb; cbn [tree leaf_on tree_kvs] in *.
  - destruct T as (_ & W & S & _). splits; auto. exists [], []. cbn [app]. rewrite app_nil_r. auto.
  - destruct T as (_ & W & K & _). pose proof (kids_sorted _ _ _ _ K) as S. rewrite branch_entries_keys in S.
    destruct (child_of_ok _ k W S Hk (kids_nonempty _ _ _ _ K)) as (pre & ki & c & post & Ee & _ & _ & Hp & _ & Ho).
    rewrite (rank_route _ k pre ki c post S Ee Hp Ho), Ee, nth_error_mid. rewrite Ee in K.
    pose proof (kids_mid _ _ _ _ _ _ _ K) as T1.
    assert (Ha' : above (nlo pre lo ki) k). { unfold nlo. destruct pre; auto. destruct Hp as [Hp|Hp]; [discriminate|exact Hp]. }
    assert (Hb' : below (nhi post hi) k). { unfold nhi. destruct post as [|[k1 c1] post]; auto. apply Forall_inv in Ho. exact Ho. }
    destruct (IH c _ _ Hk T1 Ha' Hb') as (W1 & S1 & L & R & EQ & FL & FR). splits; auto.
    exists (flat_map (fun e => tree_kvs V h (snd e)) pre ++ L), (R ++ flat_map (fun e => tree_kvs V h (snd e)) post). splits.
    + rewrite flat_map_app. cbn [flat_map snd]. rewrite EQ, <- !app_assoc. reflexivity.
    + apply Forall_app. split; auto. destruct pre as [|e0 pre]; [constructor|]. destruct Hp as [Hp|Hp]; [discriminate|].
      apply kids_app in K; [|discriminate]. destruct K as (K1 & _).
      destruct (kids_content _ (tree_kvs V h) (tree_content false V h) _ _ _ K1) as [_ F]. rewrite Forall_forall in F |- *. intros e He.
      apply (in_map fst) in He. apply F in He. destruct He as [_ He]. cbn in He. eapply klt_kle_trans; eauto.
    + apply Forall_app. split; auto. destruct post as [|[k1 c1] post]; [constructor|].
      assert (K1 : kids (tree false V h) ((k1, c1) :: post) (Some k1) hi).
      { replace (pre ++ (ki, c) :: (k1, c1) :: post) with ((pre ++ [(ki, c)]) ++ (k1, c1) :: post) in K by (rewrite <- app_assoc; reflexivity).
        apply kids_app in K; [tauto|]. destruct pre; discriminate. }
      destruct (kids_content _ (tree_kvs V h) (tree_content false V h) _ _ _ K1) as [_ F]. rewrite Forall_forall in F |- *. intros e He.
      apply (in_map fst) in He. apply F in He. destruct He as [He _]. cbn in He. apply Forall_inv in Ho. cbn in Ho. eapply klt_kle_trans; eauto.
Qed.

(** The answer, when there is one, is right; there is one whenever the leaf responsible
    for the probe holds a key not below it.  Missing for the full claim: the answer may
    lie in a later leaf. *)
Theorem set_range_partial : forall E t h k c0 l, ordered E t h -> blen k < 65536 -> bindings E t l ->
  match cursor_get E t c0 (SET_RANGE k) with
  | COk kv _ => In kv l /\ kle k (fst kv) /\ forall e, In e l -> kle k (fst e) -> kle (fst kv) (fst e)
  | CErr e _ => e = NOTFOUND /\
      forall k', In k' (page_keys true (get_page E t (leaf_on (get_page E t) k h (t_root t)))) -> klt k' k
  | _ => False
  end.
Proof.
  intros E t h k c0 l (Hh & Nz & T) Hk BL.
  assert (BT : forall e, In e l <-> In e (tree_kvs (get_page E t) h (t_root t))).
  { destruct (tree_bindings E t h ltac:(lia) Nz T) as (_ & M2 & I2). destruct BL as (_ & M1 & I1). rewrite Forall_forall in M1, M2.
    intros [k1 v1]. split; intro Hin; [pose proof (M1 _ Hin) as H1|pose proof (M2 _ Hin) as H1]; cbn in H1; [apply I2, I1|apply I1, I2]; auto. }
  pose proof (tree_shape _ _ _ _ _ _ T) as S. unfold cursor_get, cursor_seek. destruct (N.eqb_spec (t_root t) 0); [congruence|].
  destruct (seek_down_ok E t (SET_RANGE k) Hk h (t_root t) [] FIND_FUEL S ltac:(cbn; lia) ltac:(unfold FIND_FUEL; lia)) as (pl & r & -> & Sp & Lr & -> & _).
  destruct (locate _ k h _ _ _ Hk T I I) as (W & SK & L & R & EQ & FL & FR).
  set (p := get_page E t (leaf_on (get_page E t) k h (t_root t))) in *. unfold seek_leaf. cbn [c_stack].
  pose proof (leaf_entries_length p) as Q.
  assert (G : forall (i : N) es1 kv es2 b, page_search p k = Ok (b, i) -> leaf_entries p = es1 ++ kv :: es2 -> i = N.of_nat (length es1) ->
     kle k (fst kv) -> Forall (fun e => klt (fst e) k) es1 ->
     match match (do (_, i) <- page_search p k;; (if pg_nkeys p <=? i then Err NOTFOUND else Ok i)) with
     | Ok i => if pg_nkeys p =? 0 then CErr NOTFOUND (mkCur ((p, 0) :: r) true) else COk tt (mkCur ((p, i) :: r) false)
     | Err e => CErr e (mkCur ((p, 0) :: r) false) | UB => CUB | Fuel => CFuel end with
     | COk _ c' => cursor_fetch c' | CErr e c' => CErr e c' | CUB => CUB | CFuel => CFuel end = COk kv (mkCur ((p, i) :: r) false) /\
     In kv l /\ kle k (fst kv) /\ (forall e, In e l -> kle k (fst e) -> kle (fst kv) (fst e))).
  { intros i es1 kv es2 b -> LE -> Hkv F1. cbn [bindr]. rewrite LE, app_length in Q. cbn [length] in Q.
    destruct (N.leb_spec (pg_nkeys p) (N.of_nat (length es1))); [lia|]. destruct (N.eqb_spec (pg_nkeys p) 0); [lia|].
    assert (Hn : nth_error (leaf_entries p) (N.to_nat (N.of_nat (length es1))) = Some kv) by (rewrite Nat2N.id, LE, nth_error_mid; reflexivity).
    split.
    - unfold cursor_fetch. cbn [c_stack c_eof]. destruct (N.leb_spec (pg_nkeys p) (N.of_nat (length es1))); [lia|].
      destruct kv as [k1 v1]. destruct (leaf_value_ok p _ k1 v1 W Hn) as (-> & ->). reflexivity.
    - splits; auto.
      + apply BT. rewrite EQ, LE. rewrite !in_app_iff. cbn. auto.
      + intros e He Hle. apply BT in He. rewrite EQ, LE, !in_app_iff in He. rewrite Forall_forall in FL, FR, F1.
        assert (SE : ksorted (map fst (tree_kvs (get_page E t) h (t_root t)))) by (destruct (tree_content _ _ _ _ _ _ T); auto).
        rewrite EQ, LE, !map_app in SE. apply sorted_app_l in SE. destruct SE as (_ & SE). rewrite <- app_assoc in SE. apply sorted_app_l in SE. destruct SE as (_ & SE).
        cbn [map app] in SE. apply sorted_cons_inv in SE. destruct SE as (_ & SE). rewrite Forall_forall in SE.
        destruct He as [He|[[He|[<-|He]]|He]].
        * exfalso. eapply kle_not_klt; [exact Hle|]. auto.
        * exfalso. eapply kle_not_klt; [exact Hle|]. auto.
        * apply kle_refl.
        * apply klt_kle, SE. apply in_app_iff. left. apply in_map. exact He.
        * apply klt_kle, SE. apply in_app_iff. right. apply in_map. exact He. }
  destruct (sorted_split_at k _ SK) as [(l1 & l2 & EK)|(l1 & l2 & EK & F1 & F2)].
  - pose proof EK as E'. rewrite <- leaf_entries_keys in E'. apply map_eq_app in E'. destruct E' as (e1 & e2 & E' & E1 & E2).
    apply map_eq_cons in E2. destruct E2 as ([k' v] & post & -> & Ek & E2). cbn [fst] in Ek. subst k'.
    pose proof (page_search_found true p k l1 l2 W Hk EK SK) as PS.
    destruct (G _ e1 (k, v) post _ PS E' ltac:(subst l1; rewrite map_length; reflexivity) (kle_refl k)) as (X & Y).
    { rewrite EK in SK. apply sorted_app in SK. destruct SK as (_ & _ & SK). rewrite Forall_forall. intros e He. apply SK; [|cbn; auto]. subst l1. apply in_map. exact He. }
    cbv zeta. rewrite X. exact Y.
  - pose proof (page_search_at true p k l1 l2 W Hk EK SK F1 F2) as PS.
    pose proof EK as E'. rewrite <- leaf_entries_keys in E'. apply map_eq_app in E'. destruct E' as (e1 & e2 & E' & E1 & E2). destruct e2 as [|kv e2].
    + cbv zeta. rewrite PS. cbn [bindr]. rewrite E', app_nil_r in Q. subst l1. rewrite map_length. destruct (N.leb_spec (pg_nkeys p) (N.of_nat (length e1))); [|lia].
      split; [reflexivity|]. intros k' Hin. rewrite EK in Hin. subst l2. cbn [map] in Hin. rewrite app_nil_r in Hin. rewrite Forall_forall in F1. apply F1. exact Hin.
    + destruct (G _ e1 kv e2 _ PS E' ltac:(subst l1; rewrite map_length; reflexivity)) as (X & Y).
      { apply klt_kle. subst l2. cbn [map] in F2. apply Forall_inv in F2. exact F2. }
      { subst l1. rewrite Forall_forall in F1 |- *. intros e He. apply F1. apply in_map. exact He. }
      cbv zeta. rewrite X. exact Y.
Qed.
Print Assumptions set_range_partial.

(** ** Counterexamples to the full claims *)
Definition cres {T} (r : cout T) : option (option T * option status) :=
  match r with COk x _ => Some (Some x, None) | CErr e _ => Some (None, Some e) | _ => None end.
Definition ccur {T} (r : cout T) : cursor := match r with COk _ c | CErr _ c => c | _ => cursor_open end.
Lemma cres_notfound (r : cout (bytes * bytes)) : cres r = Some (None, Some NOTFOUND) -> r = CErr NOTFOUND (ccur r).
Proof. destruct r as [x c|e c| |]; intro H; cbn in H; try discriminate. injection H as ->. reflexivity. Qed.
(** three puts, leaves [97] and [98; 99]; then the first key is deleted *)
Definition emptied : txn := after (do_ops env_create first_txn (ascending_ops ++ [Del [97]])).
Theorem scan_refuted :
  do_ops env_create first_txn (ascending_ops ++ [Del [97]]) = Ret tt emptied /\
  db_get env_create emptied [98] = Ok (fill 1900 3) /\ db_get env_create emptied [99] = Ok (fill 1900 2) /\
  (exists c, cursor_get env_create emptied cursor_open FIRST = CErr NOTFOUND c).
Proof.
  split; [|split; [vm_compute; reflexivity|split; [vm_compute; reflexivity|]]].
  - apply ret_after. vm_compute. reflexivity.
  - exists (ccur (cursor_get env_create emptied cursor_open FIRST)).
    apply cres_notfound. vm_compute. reflexivity.
Qed.
Print Assumptions scan_refuted.
(** backwards: the last leaf is emptied *)
Definition emptied_last : txn := after (do_ops env_create first_txn (ascending_ops ++ [Del [98]; Del [99]])).
Theorem backward_scan_refuted :
  do_ops env_create first_txn (ascending_ops ++ [Del [98]; Del [99]]) = Ret tt emptied_last /\
  db_get env_create emptied_last [97] = Ok (fill 1900 1) /\
  (exists c, cursor_get env_create emptied_last cursor_open LAST = CErr NOTFOUND c).
Proof.
  split; [|split; [vm_compute; reflexivity|]].
  - apply ret_after. vm_compute. reflexivity.
  - exists (ccur (cursor_get env_create emptied_last cursor_open LAST)).
    apply cres_notfound. vm_compute. reflexivity.
Qed.
Print Assumptions backward_scan_refuted.
(** the smallest key not below [97; 1] is [98], in the next leaf *)
Theorem set_range_refuted :
  do_ops env_create first_txn ascending_ops = Ret tt split_txn /\
  db_get env_create split_txn [98] = Ok (fill 1900 3) /\
  (exists c, cursor_get env_create split_txn cursor_open (SET_RANGE [97; 1]) = CErr NOTFOUND c).
Proof.
  split; [exact ascending_runs|]. split; [vm_compute; reflexivity|].
  exists (ccur (cursor_get env_create split_txn cursor_open (SET_RANGE [97; 1]))).
  apply cres_notfound. vm_compute. reflexivity.
Qed.
Print Assumptions set_range_refuted.

(** ** The hypotheses are met *)
Fixpoint no_empty_leafb (V : view) (h : nat) (pg : N) : bool :=
  match h with
  | O => match leaf_entries (V pg) with [] => false | _ => true end
  | S h' => forallb (fun e => no_empty_leafb V h' (snd e)) (branch_entries (V pg))
  end.
Lemma no_empty_leafb_ok V : forall h pg, no_empty_leafb V h pg = true -> no_empty_leaf V h pg.
Proof.
  induction h as [|h IH]; intros pg H; cbn [no_empty_leaf no_empty_leafb] in *.
  - destruct (leaf_entries (V pg)); discriminate.
  - rewrite forallb_forall in H. rewrite Forall_forall. auto.
Qed.
Example split_txn_ordered : ordered env_create split_txn 1.
Proof.
  destruct split_txn_tree as (kvs & (R & [[H _]|(h & Hh & Hnz & T & _)]) & _); [vm_compute in H; discriminate|].
  pose proof (height_of_ok _ 33 h _ ltac:(lia) (tree_shape _ _ _ _ _ _ T)) as EH. rewrite split_txn_height in EH. subst h.
  split; [lia|]. split; [exact Hnz|]. apply tree_loose. exact T.
Qed.
Example split_txn_scannable : scannable env_create split_txn.
Proof.
  destruct split_txn_ordered as (A & B & C). right. exists 1%nat. split; [exact A|]. split; [exact B|]. split; [exact C|]. right.
  apply no_empty_leafb_ok. vm_compute. reflexivity.
Qed.
Example split_txn_scan : cres (cursor_get env_create split_txn cursor_open FIRST) = Some (Some ([97], fill 1900 1), None).
Proof. vm_compute. reflexivity. Qed.
Example split_txn_range : cres (cursor_get env_create split_txn cursor_open (SET_RANGE [98; 1])) = Some (Some ([99], fill 1900 2), None).
Proof. vm_compute. reflexivity. Qed.
