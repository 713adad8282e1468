(** Lemmas about put: leaf update, leaf split, propagation, root split. *)
From Verif Require Import Util PageModel PageSpec PageProofs PageOps TxnModel CursorModel TreeModel TreeSpec PropPage TreeProofs TreeOps.
Local Open Scope N_scope.

Lemma kltb_spec : forall a b, kltb a b = true <-> klt a b.
Proof.
  induction a as [|x a IH]; intros [|y b]; cbn [kltb].
  - split; [discriminate|intro H; inversion H].
  - split; [constructor|auto].
  - split; [discriminate|intro H; inversion H].
  - rewrite orb_true_iff, andb_true_iff, N.ltb_lt, N.eqb_eq, IH. split.
    + intros [H|[-> H]]; [apply klt_head|apply klt_tail]; auto.
    + intro H. inversion H; subst; auto.
Qed.
Lemma kltb_false a b : kltb a b = false <-> kle b a.
Proof.
  rewrite <- not_true_iff_false, kltb_spec. split; [apply not_klt_kle|]. intros H H'. eapply kle_not_klt; eauto.
Qed.

Lemma filter_all {A} (f : A -> bool) l : (forall x, In x l -> f x = true) -> filter f l = l.
Proof. induction l; cbn; intro H; auto. rewrite H, IHl; auto. Qed.
Lemma filter_none {A} (f : A -> bool) l : (forall x, In x l -> f x = false) -> filter f l = [].
Proof. induction l; cbn; intro H; auto. rewrite H, IHl; auto. Qed.

(** ** Put up to the insertion into the leaf *)
Definition finish (al : allocator) (E : env) (t : txn) (path : list N) (lpg : N) (i : N) (p : page) (k v : bytes) : out unit :=
  match page_insert p i k (Some v) 0 with
  | Ok p2 => Ret tt (put_dirty t lpg p2)
  | Err ENOSPC =>
    run new, t5 <- leaf_split al E t path lpg k v ;;
    Ret tt (match new with Some r => set_root t5 r | None => t5 end)
  | Err e => Fail e t
  | UB => Bad
  | Fuel => NoFuel
  end.

Lemma put_prepare al E t k v b h : blen k < 65536 -> t_rdonly t = false -> t_root t <> 0 ->
  tree b (get_page E t) h (t_root t) None None -> NoDup (tree_pages (get_page E t) h (t_root t)) ->
  Forall (fun q => 2 <= q <= t_last t) (tree_pages (get_page E t) h (t_root t)) -> (h < 32)%nat ->
  exists path, route (get_page E t) k h (t_root t) path /\
   ((lookup k (leaf_entries (get_page E t (leaf_of path))) <> None /\ dget (t_dirty t) (leaf_of path) <> None /\
     db_put_with al E t k v = Fail EEXIST t) \/
    exists t4 p1 l1 l2,
      db_put_with al E t k v = finish al E t4 path (leaf_of path) (N.of_nat (length l1)) p1 k v /\
      same_ctl t t4 /\ (forall q, get_page E t4 q = if leaf_of path =? q then p1 else get_page E t q) /\
      (forall q, In q path -> dget (t_dirty t4) q = Some (get_page E t4 q)) /\
      wf_page true p1 /\ pg_pgno p1 = leaf_of path /\ leaf_entries p1 = l1 ++ l2 /\
      Forall (fun e => klt (fst e) k) l1 /\ Forall (fun e => klt k (fst e)) l2 /\
      ((leaf_entries (get_page E t (leaf_of path)) = l1 ++ l2 /\ page_free p1 = page_free (get_page E t (leaf_of path))) \/
       (dget (t_dirty t) (leaf_of path) = None /\
        exists v0, leaf_entries (get_page E t (leaf_of path)) = l1 ++ (k, v0) :: l2 /\
        page_free p1 = page_free (get_page E t (leaf_of path)) + leaf_size k v0 + 2))).
Proof.
  intros Hk Hr Hnz T ND PG Hh. set (V := get_page E t) in *.
  assert (Hm : forall q, In q (tree_pages V h (t_root t)) -> q <= max_pgno E t).
  { unfold max_pgno. rewrite Hr. rewrite Forall_forall in PG. intros q Hq. apply PG in Hq. lia. }
  destruct (find_path_ok b E t k Hk h MAX_TREE_DEPTH (t_root t) None None ltac:(unfold MAX_TREE_DEPTH; lia) Hm T) as (path & EP & R).
  fold V in EP, R. exists path. split; auto.
  destruct (route_leaf_tree _ _ _ _ _ _ _ _ R T) as (Pl & Wl & Sl). set (lpg := leaf_of path) in *.
  pose proof Sl as Sl'. rewrite <- leaf_entries_keys in Sl'.
  destruct (cow_path_ok E (rev path) t Hr) as (t3 & EC & C3 & V3 & D3 & K3 & _).
  { intros q Hq. apply in_rev in Hq. eapply tree_page_pgno; eauto. eapply route_pages; eauto. }
  assert (Hin : In lpg (rev path)).
  { apply in_rev. rewrite rev_involutive. apply last_In. eapply route_nonempty; eauto. }
  assert (Hr3 : t_rdonly t3 = false) by (destruct C3; congruence).
  assert (Hlk : leaf_key E t lpg = lpg).
  { unfold leaf_key. destruct (dget (t_dirty t) lpg) eqn:D; auto. unfold V, get_page in Pl. rewrite Hr, D in Pl. exact Pl. }
  unfold db_put_with. rewrite Hr. destruct (N.eqb_spec (t_root t) 0) as [|_]; [tauto|].
  rewrite EP. cbn [lift bindo]. fold lpg.
  destruct (entries_split k (leaf_entries (V lpg)) Sl') as [(e1 & v0 & e2 & EE & F1 & F2)|(e1 & e2 & EE & F1 & F2)].
  - rewrite (leaf_search_found _ k v0 e1 e2) by auto. cbn [lift bindo andb].
    destruct (dget (t_dirty t) lpg) as [pd|] eqn:D.
    + left. splits; [|congruence|auto]. rewrite EE, lookup_mid; [discriminate|].
      rewrite <- lookup_in_iff. rewrite lookup_below; auto.
    + right. rewrite Hlk, EC. cbn [bindo]. rewrite (D3 _ Hin). fold V.
      destruct (leaf_delete_ok _ k v0 e1 e2 Wl EE) as (p' & ED & W' & E' & P' & F'). rewrite ED. cbn [lift bindo].
      exists (put_dirty t3 lpg p'), p', e1, e2. split; [reflexivity|]. splits; auto.
      * intro q. rewrite get_put, V3 by auto. reflexivity.
      * intros q Hq. rewrite dget_put, get_put by auto. destruct (N.eqb_spec lpg q); auto.
        rewrite (D3 q) by (apply -> in_rev; auto). rewrite V3. reflexivity.
      * congruence.
      * right. split; auto. exists v0. split; auto.
  - rewrite (leaf_search_absent _ k e1 e2) by auto. cbn [lift bindo andb].
    right. rewrite Hlk, EC. cbn [bindo]. rewrite (D3 _ Hin). fold V.
    exists t3, (V lpg), e1, e2. split; [reflexivity|]. splits; auto.
    + intro q. rewrite V3. destruct (N.eqb_spec lpg q) as [<-|]; auto.
    + intros q Hq. rewrite (D3 q) by (apply -> in_rev; auto). rewrite V3. reflexivity.
Qed.

(** a leaf with entries l1 ++ l2 instead of the ones of the routed leaf *)
Lemma put_leaf b E t t' k v h path p l1 l2 : t_rdonly t = false ->
  tree b (get_page E t) h (t_root t) None None -> NoDup (tree_pages (get_page E t) h (t_root t)) ->
  route (get_page E t) k h (t_root t) path ->
  inrange b (get_page E t) h (t_root t) None None k ->
  (leaf_entries (get_page E t (leaf_of path)) = l1 ++ l2 \/
   exists v0, leaf_entries (get_page E t (leaf_of path)) = l1 ++ (k, v0) :: l2) ->
  Forall (fun e => klt (fst e) k) l1 -> Forall (fun e => klt k (fst e)) l2 ->
  wf_page true p -> pg_pgno p = leaf_of path ->
  (leaf_entries p = l1 ++ (k, v) :: l2 \/ leaf_entries p = l1 ++ l2) ->
  (forall q, get_page E t' q = if leaf_of path =? q then p else get_page E t q) -> 
  tree b (get_page E t') h (t_root t) None None /\
  tree_pages (get_page E t') h (t_root t) = tree_pages (get_page E t) h (t_root t) /\
  route (get_page E t') k h (t_root t) path /\
  (forall k', lookup k' (tree_kvs (get_page E t') h (t_root t)) =
     if key_dec k' k then lookup k (leaf_entries p) else lookup k' (tree_kvs (get_page E t) h (t_root t))).
Proof.
  intros Hr T ND R IR EV F1 F2 W P EP HV. set (V := get_page E t) in *. set (lpg := leaf_of path) in *.
  assert (HVl : get_page E t' lpg = p) by (rewrite HV, N.eqb_refl; reflexivity).
  destruct (route_leaf_tree _ _ _ _ _ _ _ _ R T) as (Pl & Wl & Sl). fold lpg in Pl, Wl, Sl.
  assert (SS : ksorted (map fst (l1 ++ l2))).
  { rewrite <- leaf_entries_keys in Sl. destruct EV as [EV|(v0 & EV)]; rewrite EV in Sl; [exact Sl|eapply sorted_drop; eauto]. }
  destruct (route_update b V (get_page E t') k h (t_root t) path None None R T ND) as (T' & P' & m1 & m2 & EM1 & EM2 & M1 & M2 & _ & _);
    fold lpg; rewrite ?HVl; auto.
  - intros q Hq Hne. rewrite HV. destruct (N.eqb_spec lpg q); congruence.
  - rewrite <- leaf_entries_keys. destruct EP as [-> | ->]; auto. apply sorted_mid; auto.
  - intros x Hx. rewrite <- leaf_entries_keys in *.
    assert (Hx' : In x (map fst (l1 ++ l2)) \/ x = k).
    { destruct EP as [EP|EP]; rewrite EP in Hx; auto. rewrite map_app, in_app_iff in *. cbn in Hx. intuition. }
    destruct Hx' as [Hx'|]; auto. left.
    destruct EV as [EV|(v0 & EV)]; rewrite EV; auto. rewrite map_app, in_app_iff in *. cbn. tauto.
  - splits; auto.
    + eapply route_frame; eauto. intros q Hq Hne. rewrite HV. fold lpg in Hne. destruct (N.eqb_spec lpg q); congruence.
    + intro k'. fold lpg in EM1, EM2. rewrite HVl in EM2. rewrite EM1, EM2.
      destruct (key_dec k' k) as [->|Hne].
      * rewrite !lookup_app, (lookup_below k m1), (lookup_above k m2) by auto. destruct (lookup k (leaf_entries p)); auto.
      * assert (A : lookup k' (m1 ++ leaf_entries p ++ m2) = lookup k' ((m1 ++ l1) ++ (l2 ++ m2))).
        { destruct EP as [-> | ->]; [|rewrite <- !app_assoc; reflexivity].
          replace (m1 ++ (l1 ++ (k, v) :: l2) ++ m2) with ((m1 ++ l1) ++ (k, v) :: (l2 ++ m2)) by (rewrite <- !app_assoc; reflexivity).
          apply lookup_other; auto. }
        rewrite A. symmetry. destruct EV as [EV|(v0 & EV)]; rewrite EV.
        -- rewrite <- !app_assoc. reflexivity.
        -- replace (m1 ++ (l1 ++ (k, v0) :: l2) ++ m2) with ((m1 ++ l1) ++ (k, v0) :: (l2 ++ m2)) by (rewrite <- !app_assoc; reflexivity).
           apply lookup_other; auto.
Qed.

(** ** Splitting one page and inserting an entry *)
Lemma div2_N n : N.to_nat (n / 2) = Nat.div2 (N.to_nat n).
Proof. rewrite Nat.div2_div. rewrite N2Nat.inj_div. reflexivity. Qed.
Lemma div2_lt n : (1 <= n)%nat -> (Nat.div2 n < n)%nat.
Proof. intro. apply Nat.lt_div2. lia. Qed.
Lemma div2_pos n : (2 <= n)%nat -> (1 <= Nat.div2 n)%nat.
Proof. intro H. destruct n as [|[|n]]; [lia|lia|cbn; lia]. Qed.

Lemma hd_error_skipn {A} n (l : list A) : hd_error (skipn n l) = nth_error l n.
Proof. revert n. induction l as [|a l IH]; intros [|n]; cbn; auto. Qed.

Lemma node_split leaf p k data child r0 R1 R2 t lpg rpg l r :
  wf_page leaf p -> ksorted (page_keys leaf p) -> blen k < 65536 ->
  node_bytes leaf k data child = Some r0 -> blen r0 < 65536 -> raw_key leaf r0 = k ->
  raws leaf p = R1 ++ R2 ->
  Forall (fun x => klt (raw_key leaf x) k) R1 -> Forall (fun x => klt k (raw_key leaf x)) R2 ->
  (2 <= length (raws leaf p))%nat -> length R1 <> Nat.div2 (length (raws leaf p)) -> rpg < 2 ^ 64 ->
  split_page leaf p rpg = Ok (l, r) -> dget (t_dirty t) lpg = Some l -> dget (t_dirty t) rpg = Some r -> lpg <> rpg ->
  (exists e, insert_split t lpg rpg l r k data child = Fail e t) \/
  exists t' l' r', insert_split t lpg rpg l r k data child = Ret tt t' /\ same_ctl t t' /\
    (forall q, dget (t_dirty t') q = if rpg =? q then Some r' else if lpg =? q then Some l' else dget (t_dirty t) q) /\
    wf_page leaf l' /\ wf_page leaf r' /\ pg_pgno l' = pg_pgno p /\ pg_pgno r' = rpg /\
    raws leaf l' ++ raws leaf r' = R1 ++ r0 :: R2 /\ raws leaf l' <> [] /\
    hd_error (raws leaf r') = nth_error (raws leaf p) (Nat.div2 (length (raws leaf p))) /\
    (R1 <> [] -> hd_error (raws leaf l') = hd_error (raws leaf p)).
Proof.
  intros W S Hk Hnb Hb0 Hrk ER F1 F2 Hn Hgap Hrpg ES Dl Dr Hne.
  destruct (split_page_ok leaf p rpg W) as (l0 & r0' & E0 & Wl & Wr & Rl & Rr & Nl & Nr & Pl & Pr & _ & _ & _).
  rewrite ES in E0. injection E0 as <- <-.
  pose proof (raws_length leaf p) as HL. rewrite div2_N, <- HL in Rl, Rr.
  rewrite N.mod_small in Pr by auto.
  set (R := raws leaf p) in *. set (m := Nat.div2 (length R)) in *.
  assert (Hm : (1 <= m < length R)%nat) by (split; [apply div2_pos; auto|apply div2_lt; lia]).
  assert (HLR : length R = (length R1 + length R2)%nat) by (rewrite ER, app_length; reflexivity).
  assert (Hnl : N.to_nat (pg_nkeys l) = m) by (rewrite Nl, div2_N, <- HL; reflexivity).
  assert (SR : ksorted (map (raw_key leaf) R)) by (unfold R; rewrite <- page_keys_raws; exact S).
  assert (Sl : ksorted (page_keys leaf l)).
  { rewrite page_keys_raws, Rl. rewrite <- (firstn_skipn m R), map_app in SR. apply sorted_app in SR. tauto. }
  assert (Sr : ksorted (page_keys leaf r)).
  { rewrite page_keys_raws, Rr. rewrite <- (firstn_skipn m R), map_app in SR. apply sorted_app in SR. tauto. }
  assert (Hdm : exists x, nth_error R m = Some x) by (apply nth_error_lt_Some; lia). destruct Hdm as (dm & Hdm).
  assert (Hhr : hd_error (raws leaf r) = Some dm) by (rewrite Rr, hd_error_skipn; auto).
  assert (Hhl : hd_error (raws leaf l) = hd_error R).
  { rewrite Rl. destruct R as [|a R']; [cbn in Hm; lia|]. destruct m; [lia|reflexivity]. }
  assert (Hl0 : raws leaf l <> []).
  { intro Z. apply (f_equal (@length _)) in Z. rewrite raws_length, Hnl in Z. cbn in Z. lia. }
  unfold insert_split.
  destruct (Nat.lt_ge_cases (length R1) m) as [Hlt|Hge].
  - (* left *)
    assert (El : raws leaf l = R1 ++ firstn (m - length R1) R2).
    { rewrite Rl, ER, firstn_app. rewrite firstn_all2 by lia. reflexivity. }
    rewrite (page_search_at leaf l k (map (raw_key leaf) R1) (map (raw_key leaf) (firstn (m - length R1) R2))); auto.
    2:{ rewrite page_keys_raws, El, map_app. reflexivity. }
    2:{ rewrite Forall_map. auto. }
    2:{ rewrite Forall_map. rewrite <- (firstn_skipn (m - length R1) R2) in F2. apply Forall_app in F2. tauto. }
    rewrite map_length. cbn [lift bindo negb andb].
    destruct (N.leb_spec (pg_nkeys l) (N.of_nat (length R1))); [lia|].
    pose proof (page_insert_ok leaf l (N.of_nat (length R1)) k data child r0 Wl ltac:(lia) Hnb Hb0) as HI.
    destruct (page_free l <? blen r0 + 2).
    + left. rewrite HI. cbn [lift bindo]. eauto.
    + right. destruct HI as (l' & -> & Wl' & Rl' & _ & Pl' & _). cbn [lift bindo].
      destruct (N.eqb_spec lpg rpg); [tauto|].
      rewrite Nat2N.id, El, insert_at_mid in Rl'.
      exists (put_dirty t lpg l'), l', r. splits; auto using same_ctl_put.
      * intro q. rewrite dget_put. destruct (N.eqb_spec rpg q) as [<-|]; auto. destruct (N.eqb_spec lpg rpg); [tauto|auto].
      * congruence.
      * rewrite Rl', Rr, ER. rewrite skipn_app, (skipn_all2 R1) by lia. cbn [app]. rewrite <- app_assoc. cbn [app].
        rewrite firstn_skipn. reflexivity.
      * rewrite Rl'. destruct R1; discriminate.
      * rewrite Hhr. auto.
      * intro HR1. rewrite Rl', ER. destruct R1; [congruence|reflexivity].
  - (* right *)
    assert (Hgt : (m < length R1)%nat) by lia.
    assert (Er : raws leaf r = skipn m R1 ++ R2).
    { rewrite Rr, ER, skipn_app. replace (m - length R1)%nat with 0%nat by lia. reflexivity. }
    assert (El : raws leaf l = firstn m R1).
    { rewrite Rl, ER, firstn_app. replace (m - length R1)%nat with 0%nat by lia. cbn [firstn]. apply app_nil_r. }
    assert (FF : Forall (fun x => klt (raw_key leaf x) k) (firstn m R1) /\ Forall (fun x => klt (raw_key leaf x) k) (skipn m R1)).
    { rewrite <- (firstn_skipn m R1) in F1. apply Forall_app in F1. auto. }
    destruct FF as [FF1 FF2].
    rewrite (page_search_at leaf l k (map (raw_key leaf) (firstn m R1)) []); auto.
    2:{ rewrite page_keys_raws, El, app_nil_r. reflexivity. }
    2:{ rewrite Forall_map. auto. }
    rewrite map_length, firstn_length. cbn [lift bindo negb andb].
    destruct (N.leb_spec (pg_nkeys l) (N.of_nat (Nat.min m (length R1)))); [|lia].
    rewrite (page_search_at leaf r k (map (raw_key leaf) (skipn m R1)) (map (raw_key leaf) R2)); auto.
    2:{ rewrite page_keys_raws, Er, map_app. reflexivity. }
    2:{ rewrite Forall_map. auto. }
    2:{ rewrite Forall_map. auto. }
    rewrite map_length. cbn [lift bindo].
    assert (Hi : N.of_nat (length (skipn m R1)) <= pg_nkeys r).
    { pose proof (raws_length leaf r) as H'. rewrite Er, app_length in H'. lia. }
    pose proof (page_insert_ok leaf r (N.of_nat (length (skipn m R1))) k data child r0 Wr Hi Hnb Hb0) as HI.
    destruct (page_free r <? blen r0 + 2).
    + left. rewrite HI. cbn [lift bindo]. eauto.
    + right. destruct HI as (r' & -> & Wr' & Rr' & _ & Pr' & _). cbn [lift bindo].
      rewrite Nat2N.id, Er, insert_at_mid in Rr'.
      exists (put_dirty t rpg r'), l, r'. splits; auto using same_ctl_put.
      * intro q. rewrite dget_put. destruct (N.eqb_spec rpg q) as [<-|]; auto. destruct (N.eqb_spec lpg q) as [<-|]; auto.
      * congruence.
      * rewrite Rr', El, app_assoc, firstn_skipn. reflexivity.
      * rewrite Rr'. fold R m. rewrite Hdm. rewrite Er in Hhr.
        destruct (skipn m R1) eqn:Z; [|exact Hhr]. apply (f_equal (@length _)) in Z. rewrite skipn_length in Z. cbn in Z. lia.
Qed.

Lemma wf_key_len leaf p x : wf_page leaf p -> In x (page_keys leaf p) -> blen x <= 4096.
Proof.
  intros W H. unfold page_keys in H. apply in_map_iff in H. destruct H as (o & <- & Ho).
  pose proof (wf_nodes _ _ W) as WN. rewrite Forall_forall in WN. apply WN in Ho.
  pose proof (node_size_key leaf p o). unfold node_key, blen. rewrite readn_length. unfold PAGE_SIZE in Ho. lia.
Qed.

Lemma propagate_app al E : forall ps pg t k r,
  propagate al E t (ps ++ [pg]) k r =
  (run up, t' <- propagate al E t ps k r ;;
   match up with None => Ret None t' | Some (d, r') => propagate al E t' [pg] d r' end).
Proof.
  induction ps as [|pp ps IH]; intros pg t k r; [reflexivity|].
  change ((pp :: ps) ++ [pg]) with (pp :: (ps ++ [pg])).
  cbn [propagate]. fold (propagate al E).
  destruct (dget (t_dirty t) pp) as [p|]; [|reflexivity].
  destruct (page_search p k) as [[f i]|e| |]; cbn [lift bindo]; try reflexivity.
  destruct (page_insert p i k None r) as [p'|[]| |]; cbn [bindo]; try reflexivity.
  destruct (split_node al E t false pp) as [[[[rpg l] r'] d] t2|e t2| |]; cbn [bindo]; try reflexivity.
  destruct (insert_split t2 pp rpg l r' k None r) as [u t3|e t3| |]; cbn [bindo]; try reflexivity.
  rewrite IH. reflexivity.
Qed.

Lemma tree_tighten b V h pg lo hi k : tree true V h pg lo hi -> b = true ->
  (match h with O => Forall (kle k) (page_keys true (V pg)) | S _ => first_sep (V pg) = Some k end) ->
  tree true V h pg (Some k) hi.
Proof.
  intros T _ H. destruct h as [|h]; cbn [tree] in *.
  - destruct T as (A & W & S & F). splits; auto. rewrite Forall_forall in *. intros x Hx. split; [apply H; auto|apply F; auto].
  - destruct T as (A & W & K & B). splits; auto. intro Hb. destruct (B Hb) as [B1 B2]. split; auto.
    intros k0 Hk0. rewrite H in Hk0. injection Hk0 as <-. apply kle_refl.
Qed.

Section Split.
Variables (al : allocator) (E : env) (F : N -> Prop) (Q : txn -> Prop).
Hypothesis Q_alloc : forall t, Q t -> t_rdonly t = false -> al E t = Ret (t_last t + 1) (set_last t (t_last t + 1)).
Hypothesis Q_stable : forall t t', Q t -> t_rdonly t' = t_rdonly t -> t_id t' = t_id t -> t_free_root t' = t_free_root t ->
  (forall q, F q -> get_page E t' q = get_page E t q) -> Q t'.

(** [t'] comes from [t] by changes to the pages [O] and to new pages *)
Definition evolve (O : list N) (t t' : txn) : Prop :=
  t_rdonly t' = t_rdonly t /\ t_id t' = t_id t /\ t_root t' = t_root t /\ t_free_root t' = t_free_root t /\
  t_last t <= t_last t' /\
  (forall q, q <= t_last t -> ~ In q O -> dget (t_dirty t') q = dget (t_dirty t) q).

Lemma evolve_get O t t' q : evolve O t t' -> q <= t_last t -> ~ In q O -> get_page E t' q = get_page E t q.
Proof. intros (A & _ & _ & _ & _ & B) H H'. unfold get_page. rewrite A, B by auto. reflexivity. Qed.
Lemma evolve_trans O O' t t' t'' : evolve O t t' -> evolve O' t' t'' ->
  (forall q, In q O' -> In q O \/ t_last t < q) -> evolve O t t''.
Proof.
  intros (A1 & A2 & A3 & A4 & A5 & A6) (B1 & B2 & B3 & B4 & B5 & B6) H. unfold evolve. splits; try congruence; try lia.
  intros q Hq Hn. rewrite B6, A6; auto; try lia. intro HO. apply H in HO. destruct HO; [auto|lia].
Qed.
Lemma evolve_Q O t t' : evolve O t t' -> Q t -> (forall q, F q -> q <= t_last t /\ ~ In q O) -> Q t'.
Proof.
  intros Ev HQ HF. pose proof Ev as (A1 & A2 & A3 & A4 & A5 & A6). eapply Q_stable; eauto.
  intros q Hq. apply HF in Hq. eapply evolve_get; [exact Ev|tauto|tauto].
Qed.

Lemma split_node_ok t leaf lpg p : Q t -> t_rdonly t = false -> dget (t_dirty t) lpg = Some p -> wf_page leaf p ->
  1 <= pg_nkeys p -> t_last t + 1 < 2 ^ 64 ->
  exists l r d, split_node al E t leaf lpg =
      Ret (t_last t + 1, l, r, d) (put_dirty (put_dirty (set_last t (t_last t + 1)) lpg l) (t_last t + 1) r) /\
    split_page leaf p (t_last t + 1) = Ok (l, r) /\ pg_pgno r = t_last t + 1 /\
    nth_error (page_keys leaf p) (Nat.div2 (length (page_keys leaf p))) = Some d.
Proof.
  intros HQ Hr D W Hn Hl. unfold split_node. rewrite D.
  rewrite (wf_is_leaf _ _ W), (wf_is_branch _ _ W).
  replace (negb (if leaf then leaf else negb leaf)) with false by (destruct leaf; reflexivity).
  rewrite Hr, (Q_alloc t HQ Hr). cbn [bindo]. cbn [set_last t_dirty]. rewrite D.
  rewrite (wf_is_leaf _ _ W), (wf_is_branch _ _ W).
  replace (negb (if leaf then leaf else negb leaf)) with false by (destruct leaf; reflexivity).
  destruct (page_split_correct leaf p (t_last t + 1) W Hn Hl) as (l & r & d & E1 & E2 & Wl & Wr & _ & _ & Hd & _ & _ & Pr).
  destruct (split_page_ok leaf p (t_last t + 1) W) as (l0 & r0 & E0 & _ & _ & _ & Rr & _ & Nr & _ & _ & _ & _).
  rewrite E1 in E0. injection E0 as <- <-.
  rewrite E1. cbn [lift bindo].
  assert (Hnr : pg_nkeys r =? 0 = false).
  { apply N.eqb_neq. rewrite Nr. pose proof (N.div_lt (pg_nkeys p) 2 ltac:(lia) ltac:(lia)). lia. }
  rewrite Hnr, andb_false_r. rewrite E2. cbn [lift bindo].
  exists l, r, d. splits; auto.
  rewrite !page_keys_raws in *. rewrite Rr in Hd. rewrite map_length, raws_length, <- div2_N.
  rewrite <- Hd. rewrite nth_error_map, nth_error_map. rewrite <- hd_error_skipn.
  destruct (skipn (N.to_nat (pg_nkeys p / 2)) (raws leaf p)); reflexivity.
Qed.

Definition comp (t : txn) (path : list N) (k v : bytes) : out (option (bytes * N)) :=
  run (rpg, l, r, d), t1 <- split_node al E t true (leaf_of path) ;;
  run _, t2 <- insert_split t1 (leaf_of path) rpg l r k (Some v) 0 ;;
  propagate al E t2 (tl (rev path)) d (pg_pgno r).

Lemma comp_cons t pg path k v : path <> [] ->
  comp t (pg :: path) k v =
  (run up, t' <- comp t path k v ;;
   match up with None => Ret None t' | Some (d, r') => propagate al E t' [pg] d r' end).
Proof.
  intro Hne. unfold comp. rewrite leaf_of_cons by auto.
  destruct (split_node al E t true (leaf_of path)) as [[[[rpg l] r] d] t1|e t1| |]; cbn [bindo]; try reflexivity.
  destruct (insert_split t1 (leaf_of path) rpg l r k (Some v) 0) as [u t2|e t2| |]; cbn [bindo]; try reflexivity.
  cbn [rev]. assert (H : tl (rev path ++ [pg]) = tl (rev path) ++ [pg]).
  { destruct (rev path) as [|x y] eqn:Z; [|reflexivity]. apply (f_equal (@rev _)) in Z. rewrite rev_involutive in Z. cbn in Z. congruence. }
  rewrite H. apply propagate_app.
Qed.

(** every page on the way down to the last leaf has at least two entries *)
Fixpoint fat (V : view) (h : nat) (pg : N) : Prop :=
  match h with
  | O => (2 <= length (leaf_entries (V pg)))%nat
  | S h' => exists pre k c, branch_entries (V pg) = pre ++ [(k, c)] /\ pre <> [] /\ fat V h' c
  end.
(** [k] lies beyond everything on that way *)
Fixpoint beyond (V : view) (k : key) (h : nat) (pg : N) : Prop :=
  match h with
  | O => Forall (fun e => klt (fst e) k) (leaf_entries (V pg))
  | S h' => exists pre k0 c, branch_entries (V pg) = pre ++ [(k0, c)] /\ kle k0 k /\ beyond V k h' c
  end.
Lemma fat_frame V V' : forall h pg, (forall q, In q (tree_pages V h pg) -> V' q = V q) -> fat V h pg -> fat V' h pg.
Proof.
  induction h as [|h IH]; intros pg H Hf; cbn [fat] in *; rewrite (H pg) by (cbn; auto); [exact Hf|].
  destruct Hf as (pre & k & c & A & B & C). exists pre, k, c. splits; auto. apply IH; auto.
  intros q Hq. apply H. cbn [tree_pages]. right. rewrite A. apply in_flat_map. exists (k, c). split; auto. apply in_app_iff; cbn; auto.
Qed.
Lemma last_eq {A} (l1 l2 : list A) x y : l1 ++ [x] = l2 ++ [y] -> l1 = l2 /\ x = y.
Proof. intro H. apply app_inj_tail in H. exact H. Qed.
(** the way down to the leaf for [k] is that way *)
Lemma beyond_route V k h pg pre ki c post : beyond V k (S h) pg -> branch_entries (V pg) = pre ++ (ki, c) :: post ->
  Forall (fun e => klt k (fst e)) post -> post = [] /\ beyond V k h c.
Proof.
  intros (pre' & k0 & c0 & A & B & C) E' Ho. rewrite A in E'.
  destruct post as [|e post] using rev_ind.
  - apply last_eq in E'. destruct E' as [_ E']. injection E' as <- <-. auto.
  - exfalso. replace (pre ++ (ki, c) :: post ++ [e]) with ((pre ++ (ki, c) :: post) ++ [e]) in E' by (rewrite <- app_assoc; reflexivity).
    apply last_eq in E'. destruct E' as [_ <-]. rewrite Forall_app in Ho. destruct Ho as [_ Ho]. apply Forall_inv in Ho. cbn [fst] in Ho.
    exact (kle_not_klt _ _ B Ho).
Qed.

(** the pairs of the subtree with [k] added *)
Definition added (k : key) (v : bytes) (old new : list (key * bytes)) : Prop :=
  exists m1 m2, old = m1 ++ m2 /\ new = m1 ++ (k, v) :: m2 /\
    Forall (fun e => klt (fst e) k) m1 /\ Forall (fun e => klt k (fst e)) m2.

Definition absorbed (k v : bytes) (t t' : txn) (h : nat) (pg : N) (lo hi : option key) : Prop :=
  let V := get_page E t in let V' := get_page E t' in
  tree true V' h pg lo hi /\ NoDup (tree_pages V' h pg) /\
  (forall q, In q (tree_pages V' h pg) -> In q (tree_pages V h pg) \/ t_last t < q <= t_last t') /\
  added k v (tree_kvs V h pg) (tree_kvs V' h pg) /\
  (match h with O => True | S _ => first_sep (V' pg) = first_sep (V pg) end) /\
  (fat V h pg -> beyond V k h pg -> fat V' h pg).

Definition splitted (k v : bytes) (t t' : txn) (h : nat) (pg : N) (lo hi : option key) (d : key) (r : N) : Prop :=
  let V := get_page E t in let V' := get_page E t' in
  tree true V' h pg lo (Some d) /\ tree true V' h r (Some d) hi /\ below hi d /\
  (forall l, lo = Some l -> klt l d) /\
  NoDup (tree_pages V' h pg ++ tree_pages V' h r) /\
  (forall q, In q (tree_pages V' h pg ++ tree_pages V' h r) -> In q (tree_pages V h pg) \/ t_last t < q <= t_last t') /\
  t_last t < r /\ blen d <= 4096 /\
  added k v (tree_kvs V h pg) (tree_kvs V' h pg ++ tree_kvs V' h r) /\
  (match h with
   | O => page_keys true (V' pg) <> []
   | S _ => first_sep (V' pg) = first_sep (V pg) /\ first_sep (V' r) = Some d
   end) /\
  (beyond V k h pg -> fat V' h r).

Lemma leaf_plan p k : lookup k (leaf_entries p) = None -> leaf_others p k = page_keys true p /\ leaf_avail p k = page_free p.
Proof.
  intro H. split.
  - unfold leaf_others. apply filter_all. intros x Hx. destruct (key_dec x k) as [->|]; auto.
    rewrite <- leaf_entries_keys, <- lookup_in_iff in Hx. tauto.
  - unfold leaf_avail. rewrite H. lia.
Qed.

Lemma rank_split k l1 l2 : Forall (fun x => klt x k) l1 -> Forall (klt k) l2 ->
  length (filter (fun x => kltb x k) (l1 ++ l2)) = length l1.
Proof.
  intros F1 F2. rewrite Forall_forall in F1, F2. rewrite filter_app, filter_all, filter_none, app_nil_r; auto.
  - intros x Hx. apply kltb_false. left. auto.
  - intros x Hx. apply kltb_spec. auto.
Qed.

Lemma dget_view t q p : t_rdonly t = false -> dget (t_dirty t) q = Some p -> get_page E t q = p.
Proof. apply get_dirty. Qed.

Lemma comp_leaf t pg lo hi k v : Q t -> t_rdonly t = false -> leaf_size k v < 65536 ->
  tree true (get_page E t) 0 pg lo hi -> pg <= t_last t ->
  dget (t_dirty t) pg = Some (get_page E t pg) -> inrange true (get_page E t) 0 pg lo hi k ->
  lookup k (leaf_entries (get_page E t pg)) = None ->
  page_free (get_page E t pg) < leaf_size k v + 2 ->
  split_plan (get_page E t) k (leaf_size k v) 0 pg <> None ->
  t_last t + 1 < 2 ^ 64 ->
  (exists e t', comp t [pg] k v = Fail e t') \/
  exists d r t', comp t [pg] k v = Ret (Some (d, r)) t' /\ evolve [pg] t t' /\ t_last t' = t_last t + 1 /\
    splitted k v t t' 0 pg lo hi d r /\ split_plan (get_page E t) k (leaf_size k v) 0 pg = Some (Some d).
Proof.
  intros HQ Hr Hs T Hpg D IR HL Hfull HP Hlast.
  set (p := get_page E t pg) in *. cbn [tree] in T. fold p in T. destruct T as (Pp & W & S & FB).
  destruct (leaf_plan p k HL) as [LO LA].
  cbn [split_plan] in HP |- *. fold p in HP |- *. rewrite LO, LA in *.
  destruct (N.leb_spec (leaf_size k v + 2) (page_free p)); [lia|].
  pose proof S as S'. rewrite <- leaf_entries_keys in S'.
  destruct (entries_split k (leaf_entries p) S') as [(e1 & v0 & e2 & EE & F1 & F2)|(e1 & e2 & EE & F1 & F2)].
  { exfalso. rewrite EE, lookup_mid in HL; [discriminate|]. rewrite <- lookup_in_iff, lookup_below; auto. }
  assert (EK : page_keys true p = map fst e1 ++ map fst e2) by (rewrite <- leaf_entries_keys, EE, map_app; reflexivity).
  assert (Hrank : length (filter (fun x => kltb x k) (page_keys true p)) = length e1).
  { rewrite EK, rank_split, map_length; auto; rewrite Forall_map; auto. }
  rewrite Hrank in *.
  destruct (Nat.leb_spec 2 (length (page_keys true p))) as [Hn|]; cbn [andb] in *; [|congruence].
  destruct (Nat.eqb_spec (length e1) (Nat.div2 (length (page_keys true p)))) as [|Hgap]; cbn [negb] in *; [congruence|].
  pose proof (page_keys_length true p) as HKL.
  destruct (split_node_ok t true pg p HQ Hr D W ltac:(lia) Hlast) as (l & r & d & ES & ESP & Pr & Hd).
  unfold comp. change (leaf_of [pg]) with pg. rewrite ES. cbn [bindo].
  set (rpg := t_last t + 1) in *.
  set (t5 := put_dirty (put_dirty (set_last t rpg) pg l) rpg r).
  assert (Hne : pg <> rpg) by (unfold rpg; lia).
  assert (D5 : forall q, dget (t_dirty t5) q = if rpg =? q then Some r else if pg =? q then Some l else dget (t_dirty t) q).
  { intro q. unfold t5. rewrite !dget_put. reflexivity. }
  (* raws *)
  pose proof EE as ER. rewrite leaf_entries_raws in ER. apply map_eq_app in ER. destruct ER as (R1 & R2 & ER & Er1 & Er2).
  assert (HRL : length (raws true p) = length (page_keys true p)) by (rewrite page_keys_raws, map_length; reflexivity).
  assert (Hl1 : length R1 = length e1) by (rewrite <- Er1, map_length; reflexivity).
  pose proof (leaf_size_key k v Hs) as Hk.
  assert (Hv : blen v < 65536) by (unfold leaf_size in Hs; lia).
  destruct (node_split true p k (Some v) 0 (leaf_node_bytes k v) R1 R2 t5 pg rpg l r) as [(e & ->)|(t' & l' & r' & -> & C' & D' & Wl' & Wr' & Pl' & Pr' & RR & Hl0 & Hhr & Hhl)];
    auto; try (rewrite blen_leaf; auto); try (apply raw_key_leaf; auto).
  { rewrite <- Er1, Forall_map in F1. exact F1. }
  { rewrite <- Er2, Forall_map in F2. exact F2. }
  { lia. }
  { rewrite Hl1, HRL. auto. }
  { rewrite D5. destruct (N.eqb_spec rpg pg); [congruence|]. rewrite N.eqb_refl. reflexivity. }
  { rewrite D5, N.eqb_refl. reflexivity. }
  { left. cbn [bindo]. eauto. }
  right. cbn [bindo rev app tl propagate]. rewrite Pr. exists d, rpg, t'. split; [reflexivity|].
  assert (D'' : forall q, dget (t_dirty t') q = if rpg =? q then Some r' else if pg =? q then Some l' else dget (t_dirty t) q).
  { intro q. rewrite D', D5. destruct (rpg =? q); auto. destruct (pg =? q); auto. }
  destruct C' as (C1 & C2 & C3 & C4 & C5). cbn in C1, C2, C3, C4, C5.
  assert (Hr' : t_rdonly t' = false) by congruence.
  assert (Vl : get_page E t' pg = l').
  { apply get_dirty; auto. rewrite D''. destruct (N.eqb_spec rpg pg); [congruence|]. rewrite N.eqb_refl. reflexivity. }
  assert (Vr : get_page E t' rpg = r') by (apply get_dirty; auto; rewrite D'', N.eqb_refl; reflexivity).
  assert (Hd' : nth_error (page_keys true r') 0 = Some d).
  { rewrite page_keys_raws, nth_error_map. rewrite <- Hd, page_keys_raws, nth_error_map, map_length.
    rewrite <- Hhr. destruct (raws true r'); reflexivity. }
  assert (LE : leaf_entries l' ++ leaf_entries r' = e1 ++ (k, v) :: e2).
  { rewrite !leaf_entries_raws, <- map_app, RR, map_app. cbn [map]. rewrite Er1, Er2, raw_key_leaf, raw_val_leaf by auto. reflexivity. }
  assert (SS : ksorted (page_keys true l' ++ page_keys true r')).
  { rewrite <- !leaf_entries_keys, <- map_app, LE. apply sorted_mid; auto. rewrite <- EE; auto. }
  apply sorted_app in SS. destruct SS as (SS1 & SS2 & SS3).
  assert (Hdin : In d (page_keys true r')) by (eapply nth_error_In; eauto).
  assert (FB' : forall x, In x (page_keys true l' ++ page_keys true r') -> above lo x /\ below hi x).
  { intros x Hx. rewrite <- !leaf_entries_keys, <- map_app, LE, map_app, in_app_iff in Hx. cbn [map fst In] in Hx.
    destruct IR as (IR1 & IR2 & _). rewrite EK, Forall_forall in FB.
    destruct Hx as [Hx|[<-|Hx]]; auto; apply FB; apply in_app_iff; auto. }
  assert (Hdr : exists rest, page_keys true r' = d :: rest).
  { destruct (page_keys true r') as [|d0 rest]; [discriminate|]. injection Hd' as ->. eauto. }
  destruct Hdr as (rest & Hdr).
  assert (Hdlo : forall l0, lo = Some l0 -> klt l0 d).
  { intros l0 ->. destruct (page_keys true l') as [|x xs] eqn:Z.
    - apply (f_equal (@length _)) in Z. rewrite page_keys_raws, map_length in Z. cbn in Z. destruct (raws true l'); [congruence|discriminate].
    - destruct (FB' x) as [Hx _]; [cbn; auto|]. cbn in Hx. eapply kle_klt_trans; [exact Hx|]. apply SS3; cbn; auto. }
  assert (Hln : page_keys true l' <> []).
  { rewrite page_keys_raws. destruct (raws true l'); [congruence|discriminate]. }
  splits; auto.
  - unfold evolve. splits; try congruence; try lia. intros q Hq Hn'. rewrite D''.
    destruct (N.eqb_spec rpg q); [lia|]. destruct (N.eqb_spec pg q); auto. subst q. cbn in Hn'. tauto.
  - unfold splitted. cbn [tree tree_pages tree_kvs]. rewrite Vl, Vr, C5. fold p. splits; auto.
    + congruence.
    + rewrite Forall_forall. intros x Hx. split; [apply FB'; apply in_app_iff; auto|]. cbn. apply SS3; auto.
    + rewrite Forall_forall. intros x Hx. split; [|apply FB'; apply in_app_iff; auto]. cbn.
      rewrite Hdr in Hx, SS2. destruct Hx as [<-|Hx]; [apply kle_refl|]. apply sorted_cons_inv in SS2. destruct SS2 as [_ SS2].
      rewrite Forall_forall in SS2. left; auto.
    + apply FB'. apply in_app_iff. auto.
    + cbn [app]. repeat constructor; cbn; intuition.
    + intros q. cbn [app In]. intros [<-|[<-|[]]]; [left; cbn; auto|right; unfold rpg; lia].
    + unfold rpg. lia.
    + eapply wf_key_len; eauto.
    + exists e1, e2. splits; auto.
    + cbn [beyond fat]. fold p. rewrite Vr. intros FB2.
      assert (e2 = []) as ->.
      { destruct e2 as [|[x y] e2]; auto. exfalso. rewrite EE, Forall_app in FB2. destruct FB2 as [_ FB2]. apply Forall_inv in FB2. apply Forall_inv in F2.
        cbn [fst] in *. exact (klt_irrefl _ (klt_trans _ _ _ F2 FB2)). }
      rewrite app_nil_r in EE.
      destruct (leaf_entries r') as [|[x y] [|z l0]] eqn:ZR; [| |cbn [length]; lia]; exfalso.
      * rewrite <- leaf_entries_keys, ZR in Hdr. discriminate.
      * apply last_eq in LE. destruct LE as [_ [= <- <-]]. rewrite <- leaf_entries_keys, ZR in Hdr. cbn [map fst] in Hdr. injection Hdr as Hdk _.
        rewrite EE, Forall_forall in FB2. apply nth_error_In in Hd. rewrite <- leaf_entries_keys, EE in Hd. apply in_map_iff in Hd.
        destruct Hd as (e & He & Hi). apply FB2 in Hi. rewrite He, <- Hdk in Hi. exact (klt_irrefl _ Hi).
  - f_equal. exact Hd.
Qed.

(** children of a branch after a child split *)
Lemma assemble t t' V'' h pg pre ki c post lo hi k v d r :
  tree true (get_page E t) (S h) pg lo hi -> NoDup (tree_pages (get_page E t) (S h) pg) ->
  (forall q, In q (tree_pages (get_page E t) (S h) pg) -> q <= t_last t) ->
  branch_entries (get_page E t pg) = pre ++ (ki, c) :: post ->
  (pre = [] \/ kle ki k) -> Forall (fun e => klt k (fst e)) post ->
  evolve (tree_pages (get_page E t) h c) t t' ->
  splitted k v t t' h c (nlo pre (start true (get_page E t) pg lo) ki) (nhi post hi) d r ->
  (forall q, In q (tree_pages (get_page E t') h c ++ tree_pages (get_page E t') h r) -> V'' q = get_page E t' q) ->
  (forall k' c' q, In (k', c') (pre ++ post) -> In q (tree_pages (get_page E t) h c') -> V'' q = get_page E t q) ->
  let es := pre ++ (ki, c) :: (d, r) :: post in
  kids (tree true V'' h) es (first_sep (get_page E t pg)) hi /\
  NoDup (flat_map (fun e => tree_pages V'' h (snd e)) es) /\
  (forall q, In q (flat_map (fun e => tree_pages V'' h (snd e)) es) ->
     (In q (tree_pages (get_page E t) (S h) pg) \/ t_last t < q <= t_last t') /\ q <> pg) /\
  added k v (tree_kvs (get_page E t) (S h) pg) (flat_map (fun e => tree_kvs V'' h (snd e)) es) /\
  (match h with O => True | S _ => Forall (fun e => first_sep (V'' (snd e)) = Some (fst e)) es end) /\
  klt ki d /\ Forall (fun e => klt (fst e) d) pre /\ Forall (fun e => klt d (fst e)) post.
Proof.
  intros T ND PG Ebr Hp Ho Ev Sp HVc HVs es. set (V := get_page E t) in *. set (V' := get_page E t') in *.
  destruct (NoDup_kids _ _ _ _ _ _ _ ND Ebr) as (N1 & N2 & N3 & N4).
  pose proof T as T0. cbn [tree] in T. destruct T as (Ap & W & K & B). rewrite Ebr in K.
  destruct (B eq_refl) as [B1 B2].
  unfold splitted in Sp. fold V V' in Sp. destruct Sp as (Tc & Tr & Hbd & Hlo & NDcr & PGcr & Hrl & Hdl & AD & FS & _).
  assert (Hkid : klt ki d).
  { apply Hlo. unfold nlo, start. destruct pre; [|reflexivity]. unfold first_sep. rewrite Ebr. reflexivity. }
  assert (Hlod : above (nlo pre (start true V pg lo) ki) d).
  { unfold nlo, start. destruct pre; [|cbn; left; auto]. unfold first_sep. rewrite Ebr. cbn. left; auto. }
  (* pages of siblings *)
  assert (Hsib : forall k' c' q, In (k', c') (pre ++ post) -> In q (tree_pages V h c') -> In q (tree_pages V (S h) pg) /\ q <= t_last t).
  { intros k' c' q Hi Hq. assert (In q (tree_pages V (S h) pg)).
    { cbn [tree_pages]. right. rewrite Ebr. apply in_flat_map. exists (k', c'). split; auto. rewrite in_app_iff in *. cbn. tauto. }
    auto. }
  assert (FrS : forall e, In e (pre ++ post) -> tree_kvs V'' h (snd e) = tree_kvs V h (snd e) /\ tree_pages V'' h (snd e) = tree_pages V h (snd e)).
  { intros [k' c'] He. apply kvs_frame. intros q Hq. eapply HVs; eauto. }
  assert (FrC : tree_kvs V'' h c = tree_kvs V' h c /\ tree_pages V'' h c = tree_pages V' h c).
  { apply kvs_frame. intros q Hq. apply HVc. apply in_app_iff. auto. }
  assert (FrR : tree_kvs V'' h r = tree_kvs V' h r /\ tree_pages V'' h r = tree_pages V' h r).
  { apply kvs_frame. intros q Hq. apply HVc. apply in_app_iff. auto. }
  assert (Tc'' : tree true V'' h c (nlo pre (start true V pg lo) ki) (Some d)).
  { eapply tree_frame; [|exact Tc]. intros q Hq. apply HVc. apply in_app_iff. auto. }
  assert (Tr'' : tree true V'' h r (Some d) (nhi post hi)).
  { eapply tree_frame; [|exact Tr]. intros q Hq. apply HVc. apply in_app_iff. auto. }
  destruct FrC as [FrC1 FrC2]. destruct FrR as [FrR1 FrR2].
  assert (K' : kids (tree true V'' h) es (first_sep (V pg)) hi).
  { unfold es. change ((ki, c) :: (d, r) :: post) with ((ki, c) :: [(d, r)] ++ post).
    eapply kids_update; [exact K| |].
    - intros k' c' l0 h0 Hi. apply tree_frame. intros q Hq. eapply HVs; eauto.
    - rewrite kids_cons2. cbn [kids]. splits; auto. }
  assert (Hnew : forall q, In q (tree_pages V' h c ++ tree_pages V' h r) ->
     forall k' c', In (k', c') (pre ++ post) -> ~ In q (tree_pages V h c')).
  { intros q Hq k' c' Hi Hq'. destruct (PGcr q Hq) as [Hc|Hc].
    - eapply N3; eauto.
    - destruct (Hsib _ _ _ Hi Hq') as [_ Hle]. lia. }
  assert (ND0 : NoDup (flat_map (fun e => tree_pages V h (snd e)) pre) /\ NoDup (flat_map (fun e => tree_pages V h (snd e)) post) /\
     (forall x, In x (flat_map (fun e => tree_pages V h (snd e)) pre) -> ~ In x (flat_map (fun e => tree_pages V h (snd e)) post))).
  { cbn [tree_pages] in ND. inversion ND as [|? ? _ ND']; subst. rewrite Ebr, flat_map_app in ND'. cbn [flat_map snd] in ND'.
    apply NoDup_app_inv in ND'. destruct ND' as (D1 & D2 & D3). apply NoDup_app_inv in D2. destruct D2 as (D2 & D4 & D5).
    splits; auto. intros x Hx Hx'. apply (D3 x Hx). apply in_app_iff. auto. }
  destruct ND0 as (ND1 & ND2 & ND3).
  assert (EP : flat_map (fun e => tree_pages V'' h (snd e)) es =
     flat_map (fun e => tree_pages V h (snd e)) pre ++ (tree_pages V' h c ++ tree_pages V' h r) ++ flat_map (fun e => tree_pages V h (snd e)) post).
  { unfold es. rewrite flat_map_app. cbn [flat_map snd]. rewrite FrC2, FrR2, <- app_assoc. f_equal; [|do 2 f_equal];
      apply flat_map_ext_in; intros e He; apply FrS; apply in_app_iff; auto. }
  assert (EK : flat_map (fun e => tree_kvs V'' h (snd e)) es =
     flat_map (fun e => tree_kvs V h (snd e)) pre ++ (tree_kvs V' h c ++ tree_kvs V' h r) ++ flat_map (fun e => tree_kvs V h (snd e)) post).
  { unfold es. rewrite flat_map_app. cbn [flat_map snd]. rewrite FrC1, FrR1, <- app_assoc. f_equal; [|do 2 f_equal];
      apply flat_map_ext_in; intros e He; apply FrS; apply in_app_iff; auto. }
  splits; auto.
  - rewrite EP. apply NoDup_app_intro; auto.
    + apply NoDup_app_intro; auto. intros x Hx Hx'. apply in_flat_map in Hx'. destruct Hx' as ([k' c'] & Hi & Hq).
      eapply Hnew; eauto. apply in_app_iff; eauto.
    + intros x Hx Hx'. apply in_app_iff in Hx'. destruct Hx' as [Hx'|Hx'].
      * apply in_flat_map in Hx. destruct Hx as ([k' c'] & Hi & Hq). eapply Hnew; eauto. apply in_app_iff; eauto.
      * eapply ND3; eauto.
  - intros q. rewrite EP, in_app_iff, in_app_iff.
    assert (Hs : forall l, (forall e, In e l -> In e (pre ++ post)) -> In q (flat_map (fun e => tree_pages V h (snd e)) l) ->
        (In q (tree_pages V (S h) pg) \/ t_last t < q <= t_last t') /\ q <> pg).
    { intros l Hl Hq. apply in_flat_map in Hq. destruct Hq as ([k' c'] & Hi & Hq). apply Hl in Hi.
      split; [left; eapply Hsib; eauto|]. intros ->. eapply N4; eauto. }
    intros [Hq|[Hq|Hq]].
    + eapply Hs; [|exact Hq]. intros; apply in_app_iff; auto.
    + destruct (PGcr q Hq) as [Hc|Hc].
      * split; [left|intros ->; auto]. cbn [tree_pages]. right. rewrite Ebr. apply in_flat_map. exists (ki, c).
        split; auto. apply in_app_iff. cbn; auto.
      * split; auto. intros ->. assert (pg <= t_last t) by (apply PG; cbn; auto). lia.
    + eapply Hs; [|exact Hq]. intros; apply in_app_iff; auto.
  - destruct AD as (m1 & m2 & E1 & E2 & M1 & M2). destruct (kids_sides true V h pre ki c post _ _ k K Hp Ho) as [G1 G2].
    exists (flat_map (fun e => tree_kvs V h (snd e)) pre ++ m1), (m2 ++ flat_map (fun e => tree_kvs V h (snd e)) post).
    splits.
    + cbn [tree_kvs]. rewrite Ebr, flat_map_app. cbn [flat_map snd]. rewrite E1, <- !app_assoc. reflexivity.
    + rewrite EK, E2, <- !app_assoc. reflexivity.
    + apply Forall_app; auto.
    + apply Forall_app; auto.
  - destruct h as [|h']; auto. destruct FS as [FS1 FS2]. rewrite Ebr in B2. rewrite Forall_forall in B2 |- *.
    unfold es. intros e He. rewrite in_app_iff in He. cbn [In] in He.
    assert (Hroot : forall W0 x, In x (tree_pages W0 (S h') x)) by (intros; cbn; auto).
    destruct He as [He|[<-|[<-|He]]].
    + rewrite <- B2 by (apply in_app_iff; auto). f_equal. destruct e as [k' c']. eapply HVs; [apply in_app_iff; eauto|apply Hroot].
    + cbn [fst snd]. rewrite HVc by (apply in_app_iff; left; apply Hroot). rewrite FS1.
      apply (B2 (ki, c)). apply in_app_iff. cbn; auto.
    + cbn [fst snd]. rewrite HVc by (apply in_app_iff; right; apply Hroot). exact FS2.
    + rewrite <- B2 by (apply in_app_iff; cbn; auto). f_equal. destruct e as [k' c']. eapply HVs; [apply in_app_iff; eauto|apply Hroot].
  - apply kids_sorted in K'. unfold es in K'. rewrite map_app in K'. apply sorted_app in K'. destruct K' as (_ & _ & K').
    rewrite Forall_forall. intros e He. apply K'; [apply in_map; auto|cbn; auto].
  - apply kids_sorted in K'. unfold es in K'. rewrite map_app in K'. apply sorted_app in K'. destruct K' as (_ & K' & _).
    cbn [map fst] in K'. apply sorted_cons_inv in K'. destruct K' as [K' _]. apply sorted_cons_inv in K'. destruct K' as [_ K'].
    rewrite Forall_map in K'. exact K'.
Qed.

Lemma branch_step t t' h pg pre ki c post lo hi k v d r :
  Q t' -> t_rdonly t = false ->
  tree true (get_page E t) (S h) pg lo hi -> NoDup (tree_pages (get_page E t) (S h) pg) ->
  (forall q, In q (tree_pages (get_page E t) (S h) pg) -> q <= t_last t) ->
  branch_entries (get_page E t pg) = pre ++ (ki, c) :: post ->
  (pre = [] \/ kle ki k) -> Forall (fun e => klt k (fst e)) post ->
  evolve (tree_pages (get_page E t) h c) t t' ->
  splitted k v t t' h c (nlo pre (start true (get_page E t) pg lo) ki) (nhi post hi) d r ->
  dget (t_dirty t) pg = Some (get_page E t pg) ->
  t_last t' + 1 < 2 ^ 64 -> r <= t_last t' ->
  let p := get_page E t pg in let n := length (page_keys false p) in
  (branch_size d + 2 <= page_free p \/ ((2 <= n)%nat /\ S (length pre) <> Nat.div2 n)) ->
  (exists e t'', propagate al E t' [pg] d r = Fail e t'') \/
  (exists t'', propagate al E t' [pg] d r = Ret None t'' /\ evolve (tree_pages (get_page E t) (S h) pg) t t'' /\
     t_last t'' = t_last t' /\ absorbed k v t t'' (S h) pg lo hi /\ branch_size d + 2 <= page_free p) \/
  (exists d' r' t'', propagate al E t' [pg] d r = Ret (Some (d', r')) t'' /\
     evolve (tree_pages (get_page E t) (S h) pg) t t'' /\ t_last t'' = t_last t' + 1 /\
     splitted k v t t'' (S h) pg lo hi d' r' /\ page_free p < branch_size d + 2 /\
     nth_error (page_keys false p) (Nat.div2 n) = Some d').
Proof.
  intros HQ' Hr T ND PG Ebr Hp Ho Ev Sp D Hlast Hrle p n Hroom.
  destruct (NoDup_kids _ _ _ _ _ _ _ ND Ebr) as (N1 & N2 & N3 & N4).
  set (es := pre ++ (ki, c) :: (d, r) :: post).
  pose proof Ev as (Er & Eid & Eroot & Efr & Elast & Edg).
  assert (Hr' : t_rdonly t' = false) by congruence.
  assert (Hpgl : pg <= t_last t) by (apply PG; cbn; auto).
  assert (D' : dget (t_dirty t') pg = Some p) by (rewrite Edg by auto; exact D).
  pose proof T as T0. cbn [tree] in T0. fold p in T0. destruct T0 as (Ap & W & K & B).
  pose proof (kids_sorted _ _ _ _ K) as S. rewrite branch_entries_keys in S.
  pose proof Sp as Sp0. destruct Sp0 as (_ & _ & _ & _ & _ & PGcr & Hrl & Hdl & _ & _).
  assert (Hdk : blen d < 65536) by lia.
  assert (Hbs : branch_size d < 65536) by (unfold branch_size, BRANCH_BASE; lia).
  assert (Hr64 : r < 2 ^ 64) by lia.
  assert (Hsibpg : forall k' c' q, In (k', c') (pre ++ post) -> In q (tree_pages (get_page E t) h c') -> q <= t_last t /\ q <> pg).
  { intros k' c' q Hi Hq. split.
    - apply PG. cbn [tree_pages]. right. fold p. unfold p. rewrite Ebr. apply in_flat_map. exists (k', c'). split; auto.
      rewrite in_app_iff in *. cbn. tauto.
    - intros ->. eapply N4; eauto. }
  assert (Hcrpg : forall q, In q (tree_pages (get_page E t') h c ++ tree_pages (get_page E t') h r) -> q <= t_last t' /\ q <> pg).
  { intros q Hq. destruct (PGcr q Hq) as [Hc|Hc].
    - split; [|intros ->; auto]. assert (q <= t_last t); [|lia]. apply PG. cbn [tree_pages]. right. fold p. unfold p. rewrite Ebr.
      apply in_flat_map. exists (ki, c). split; auto. apply in_app_iff. cbn; auto.
    - split; lia. }
  (* facts which do not depend on the final pages *)
  destruct (assemble t t' (fun q => get_page E t' q) h pg pre ki c post lo hi k v d r T ND PG Ebr Hp Ho Ev Sp) as (_ & _ & _ & _ & _ & Hkid & Fpre & Fpost).
  { auto. }
  { intros k' c' q Hi Hq. apply (evolve_get _ _ _ _ Ev).
    - eapply Hsibpg; eauto.
    - eapply N3; eauto. }
  (* search and insertion *)
  assert (Hsrch : page_search p d = Ok (false, N.of_nat (length (pre ++ [(ki, c)])))).
  { rewrite (page_search_at false p d (map fst (pre ++ [(ki, c)])) (map fst post)); auto.
    - rewrite map_length. reflexivity.
    - rewrite <- branch_entries_keys. fold p in Ebr. rewrite Ebr, <- map_app, <- app_assoc. reflexivity.
    - rewrite Forall_map, Forall_app. split; auto.
    - rewrite Forall_map. auto. }
  assert (Elen : length (branch_entries p) = n) by (unfold n; rewrite <- branch_entries_keys, map_length; reflexivity).
  cbn [propagate]. rewrite D', Hsrch. cbn [lift bindo].
  assert (Hidx : N.of_nat (length (pre ++ [(ki, c)])) <= pg_nkeys p).
  { pose proof (branch_entries_length p) as HL. fold p in Ebr. rewrite Ebr in HL. rewrite app_length in *. cbn [length] in *. lia. }
  assert (Ees : insert_at (length (pre ++ [(ki, c)])) (d, r) (branch_entries p) = es).
  { fold p in Ebr. rewrite Ebr. replace (pre ++ (ki, c) :: post) with ((pre ++ [(ki, c)]) ++ post) by (rewrite <- app_assoc; reflexivity).
    rewrite insert_at_mid, <- app_assoc. reflexivity. }
  destruct (page_insert_branch_correct p _ d r W Hidx Hbs Hr64) as [[Hfull ->]|(Hfit & p' & -> & W' & E' & P' & _)].
  - (* split *)
    destruct Hroom as [|[Hn Hgap]]; [lia|].
    pose proof (page_keys_length false p) as HKL.
    destruct (split_node_ok t' false pg p HQ' Hr' D' W ltac:(fold n in HKL; lia) Hlast) as (l & r1 & d' & ES & ESP & Pr & Hd').
    rewrite ES. cbn [bindo]. set (rpg := t_last t' + 1) in *.
    set (t5 := put_dirty (put_dirty (set_last t' rpg) pg l) rpg r1).
    assert (Hne : pg <> rpg) by (unfold rpg; lia).
    assert (D5 : forall q, dget (t_dirty t5) q = if rpg =? q then Some r1 else if pg =? q then Some l else dget (t_dirty t') q).
    { intro q. unfold t5. rewrite !dget_put. reflexivity. }
    assert (Ebr' : branch_entries p = (pre ++ [(ki, c)]) ++ post) by (fold p in Ebr; rewrite Ebr, <- app_assoc; reflexivity).
    pose proof Ebr' as ER. rewrite branch_entries_raws in ER. apply map_eq_app in ER. destruct ER as (R1 & R2 & ER & Er1 & Er2).
    assert (HRL : length (raws false p) = n) by (unfold n; rewrite page_keys_raws, map_length; reflexivity).
    assert (Hl1 : length R1 = Datatypes.S (length pre)).
    { rewrite <- (map_length (fun r => (raw_key false r, raw_child r)) R1), Er1, app_length. cbn [length]. lia. }
    destruct (node_split false p d None r (branch_node_bytes d r) R1 R2 t5 pg rpg l r1) as [(e & ->)|(t6 & l' & r' & -> & C6 & D6 & Wl' & Wr' & Pl' & Pr' & RR & Hl0 & Hhr & Hhl)];
      auto; try (rewrite blen_branch; auto); try (apply raw_key_branch; auto).
    { assert (FF : Forall (fun e => klt (fst e) d) (pre ++ [(ki, c)])) by (apply Forall_app; split; auto).
      rewrite <- Er1, Forall_map in FF. exact FF. }
    { assert (FF : Forall (fun e => klt d (fst e)) post) by auto. rewrite <- Er2, Forall_map in FF. exact FF. }
    { lia. }
    { rewrite Hl1, HRL. auto. }
    { rewrite D5. destruct (N.eqb_spec rpg pg); [congruence|]. rewrite N.eqb_refl. reflexivity. }
    { rewrite D5, N.eqb_refl. reflexivity. }
    { left. cbn [bindo]. eauto. }
    right. right. cbn [bindo propagate]. rewrite Pr. exists d', rpg, t6. split; [reflexivity|].
    assert (D'' : forall q, dget (t_dirty t6) q = if rpg =? q then Some r' else if pg =? q then Some l' else dget (t_dirty t') q).
    { intro q. rewrite D6, D5. destruct (rpg =? q); auto. destruct (pg =? q); auto. }
    destruct C6 as (C1 & C2 & C3 & C4 & C5). cbn in C1, C2, C3, C4, C5.
    assert (Hr6 : t_rdonly t6 = false) by congruence.
    assert (Vl : get_page E t6 pg = l').
    { apply get_dirty; auto. rewrite D''. destruct (N.eqb_spec rpg pg); [congruence|]. rewrite N.eqb_refl. reflexivity. }
    assert (Vr : get_page E t6 rpg = r') by (apply get_dirty; auto; rewrite D'', N.eqb_refl; reflexivity).
    assert (Vo : forall q, q <> pg -> q <> rpg -> get_page E t6 q = get_page E t' q).
    { intros q Hq1 Hq2. unfold get_page. rewrite Hr6, Hr', D''. destruct (N.eqb_spec rpg q); [congruence|].
      destruct (N.eqb_spec pg q); [congruence|]. reflexivity. }
    assert (BE : branch_entries l' ++ branch_entries r' = es).
    { rewrite !branch_entries_raws, <- map_app, RR, map_app. cbn [map]. rewrite Er1, Er2, raw_key_branch, raw_child_branch by auto.
      rewrite <- app_assoc. reflexivity. }
    destruct (assemble t t' (get_page E t6) h pg pre ki c post lo hi k v d r T ND PG Ebr Hp Ho Ev Sp) as (K6 & ND6 & PG6 & AD6 & FS6 & _).
    { intros q Hq. destruct (Hcrpg q Hq). apply Vo; auto. unfold rpg. lia. }
    { intros k' c' q Hi Hq. destruct (Hsibpg _ _ _ Hi Hq) as [Hq1 Hq2]. rewrite Vo; auto; [|unfold rpg; lia].
      apply (evolve_get _ _ _ _ Ev); auto. eapply N3; eauto. }
    fold es in K6, ND6, PG6, AD6, FS6. rewrite <- BE in K6, ND6, PG6, AD6, FS6.
    assert (Hb1 : branch_entries l' <> []) by (rewrite branch_entries_raws; destruct (raws false l'); [congruence|discriminate]).
    assert (Hb2 : exists c2 rest, branch_entries r' = (d', c2) :: rest).
    { unfold n in Hd'. rewrite page_keys_raws, nth_error_map, map_length, <- Hhr in Hd'. rewrite branch_entries_raws.
      destruct (raws false r') as [|x xs]; [discriminate|]. cbn [hd_error option_map] in Hd'. injection Hd' as <-. do 2 eexists. reflexivity. }
    destruct Hb2 as (c2 & rest & Hb2).
    assert (Hfs : first_sep l' = first_sep p).
    { unfold first_sep. rewrite !branch_entries_raws.
      assert (Hh : hd_error (raws false l') = hd_error (raws false p)) by (apply Hhl; intros ->; cbn in Hl1; lia).
      destruct (raws false l'), (raws false p); cbn in Hh; try congruence. injection Hh as ->. reflexivity. }
    rewrite Hb2 in K6. apply kids_app in K6; auto. destruct K6 as (K6a & K6b & K6c & K6d & K6e).
    assert (Hd'in : In d' (page_keys false p)) by (eapply nth_error_In; eauto).
    rewrite flat_map_app in ND6. pose proof (NoDup_app_inv _ _ ND6) as (ND6a & ND6b & ND6c).
    assert (PGx : forall q, In q (tree_pages (get_page E t6) (Datatypes.S h) pg ++ tree_pages (get_page E t6) (Datatypes.S h) rpg) ->
       In q (tree_pages (get_page E t) (Datatypes.S h) pg) \/ t_last t < q <= t_last t6).
    { intros q Hq. cbn [tree_pages] in Hq. rewrite Vl, Vr in Hq. apply in_app_iff in Hq. cbn [In] in Hq.
      assert (Hq' : q = pg \/ q = rpg \/ In q (flat_map (fun e => tree_pages (get_page E t6) h (snd e)) (branch_entries l' ++ branch_entries r')))
        by (rewrite flat_map_app, in_app_iff; destruct Hq as [[Hq|Hq]|[Hq|Hq]]; auto).
      destruct Hq' as [->|[->|Hq']].
      - left. cbn; auto.
      - right. unfold rpg in *. lia.
      - apply PG6 in Hq'. destruct Hq' as [[Hq'|Hq'] _]; [left; auto|right; unfold rpg in *; lia]. }
    assert (NDx : NoDup (tree_pages (get_page E t6) (Datatypes.S h) pg ++ tree_pages (get_page E t6) (Datatypes.S h) rpg)).
    { cbn [tree_pages]. rewrite Vl, Vr.
      assert (Hx1 : forall q, In q (flat_map (fun e => tree_pages (get_page E t6) h (snd e)) (branch_entries l' ++ branch_entries r')) -> q <> pg /\ q <> rpg).
      { intros q Hq. apply PG6 in Hq. destruct Hq as [[Hq|Hq] Hqn]; split; auto; unfold rpg; [|lia]. apply PG in Hq. lia. }
      rewrite flat_map_app in Hx1.
      change (?a :: ?x ++ ?y) with ((a :: x) ++ y).
      apply NoDup_app_intro.
      - constructor; auto. intro Hi. destruct (Hx1 pg); [apply in_app_iff; auto|tauto].
      - constructor; auto. intro Hi. destruct (Hx1 rpg); [apply in_app_iff; auto|tauto].
      - intros x [<-|Hx] [Hy|Hy].
        + congruence.
        + destruct (Hx1 pg); [apply in_app_iff; auto|tauto].
        + destruct (Hx1 rpg); [apply in_app_iff; left; congruence|tauto].
        + eapply ND6c; eauto. }
    splits; auto.
    + unfold evolve. splits; try congruence; try lia.
      intros q Hq Hnq. rewrite D''. destruct (N.eqb_spec rpg q); [unfold rpg in *; lia|].
      destruct (N.eqb_spec pg q); [subst q; cbn in Hnq; tauto|]. apply Edg; auto. intro Hc. apply Hnq.
      cbn [tree_pages]. right. rewrite Ebr. apply in_flat_map. exists (ki, c). split; auto. apply in_app_iff; cbn; auto.
    + unfold splitted. splits; auto.
      * cbn [tree]. rewrite Vl. splits; auto; try congruence.
        -- rewrite Hfs. exact K6a.
        -- intros _. split.
           ++ rewrite Hfs. apply (proj1 (B eq_refl)).
           ++ destruct h; auto. apply Forall_app in FS6. tauto.
      * cbn [tree]. rewrite Vr. unfold first_sep. rewrite Hb2. splits; auto.
        intros _. split.
        -- intros k0 [= <-]. apply kle_refl.
        -- destruct h; auto. apply Forall_app in FS6. rewrite Hb2 in FS6. tauto.
      * intros l0 Hl0'. destruct (branch_entries l') as [|[k0 c0] rst] eqn:Zl; [congruence|].
        destruct (B eq_refl) as [B1 _]. assert (Hk0 : above lo k0).
        { apply B1. rewrite <- Hfs. unfold first_sep. rewrite Zl. reflexivity. }
        rewrite Hl0' in Hk0. cbn in Hk0. eapply kle_klt_trans; [exact Hk0|]. apply Forall_inv in K6e. exact K6e.
      * unfold rpg. lia.
      * apply (wf_key_len false p); auto.
      * cbn [tree_kvs]. rewrite Vl, Vr, <- flat_map_app. exact AD6.
      * rewrite Vl. exact Hfs.
      * rewrite Vr. unfold first_sep. rewrite Hb2. reflexivity.
      * intro By. destruct (beyond_route _ _ _ _ _ _ _ _ By Ebr Ho) as [-> Byc].
        cbn [fat]. rewrite Vr. assert (Etl : es = (pre ++ [(ki, c)]) ++ [(d, r)]) by (unfold es; rewrite <- app_assoc; reflexivity).
        rewrite Etl in BE. destruct (branch_entries r') as [|x xs] eqn:ZR using rev_ind; [discriminate|].
        clear IHxs. rewrite app_assoc in BE. apply last_eq in BE. destruct BE as [BE ->]. exists xs, d, r. splits; auto.
        -- intros ->. cbn [app] in Hb2. injection Hb2 as <- _ _.
           rewrite <- branch_entries_keys in Hd'in. apply in_map_iff in Hd'in. destruct Hd'in as ([x y] & Hx & Hi). cbn [fst] in Hx. subst x.
           fold p in Ebr. rewrite Ebr in Hi. apply in_app_iff in Hi. cbn [In] in Hi.
           rewrite Forall_forall in Fpre. destruct Hi as [Hi|[Hi|[]]].
           ++ apply Fpre in Hi. exact (klt_irrefl _ Hi).
           ++ injection Hi as -> _. exact (klt_irrefl _ Hkid).
        -- apply (fat_frame (get_page E t')).
           ++ intros q Hq. destruct (Hcrpg q) as [Hq1 Hq2]; [apply in_app_iff; auto|]. apply Vo; auto. unfold rpg. lia.
           ++ destruct Sp as (_ & _ & _ & _ & _ & _ & _ & _ & _ & _ & FT). apply FT. exact Byc.
  - (* fits *)
    right. left. exists (put_dirty t' pg p'). split; [reflexivity|].
    assert (Vp : get_page E (put_dirty t' pg p') pg = p') by (rewrite get_put, N.eqb_refl by auto; reflexivity).
    assert (Vo : forall q, q <> pg -> get_page E (put_dirty t' pg p') q = get_page E t' q).
    { intros q Hq. rewrite get_put by auto. destruct (N.eqb_spec pg q); congruence. }
    rewrite Nat2N.id, Ees in E'.
    destruct (assemble t t' (get_page E (put_dirty t' pg p')) h pg pre ki c post lo hi k v d r T ND PG Ebr Hp Ho Ev Sp) as (K6 & ND6 & PG6 & AD6 & FS6 & _).
    { intros q Hq. destruct (Hcrpg q Hq). apply Vo; auto. }
    { intros k' c' q Hi Hq. destruct (Hsibpg _ _ _ Hi Hq) as [Hq1 Hq2]. rewrite Vo; auto.
      apply (evolve_get _ _ _ _ Ev); auto. eapply N3; eauto. }
    fold es in K6, ND6, PG6, AD6, FS6.
    assert (Hfs : first_sep p' = first_sep p).
    { unfold first_sep. rewrite E'. fold p in Ebr. rewrite Ebr. unfold es. destruct pre as [|[? ?] ?]; reflexivity. }
    splits; auto.
    + unfold evolve. cbn [put_dirty set_dirty t_rdonly t_id t_root t_free_root t_last]. splits; try congruence.
      intros q Hq Hnq. change (dget (t_dirty (put_dirty t' pg p')) q = dget (t_dirty t) q). rewrite dget_put.
      destruct (N.eqb_spec pg q); [subst q; cbn in Hnq; tauto|]. apply Edg; auto. intro Hc. apply Hnq.
      cbn [tree_pages]. right. rewrite Ebr. apply in_flat_map. exists (ki, c). split; auto. apply in_app_iff; cbn; auto.
    + unfold absorbed. splits.
      * cbn [tree]. rewrite Vp, E', Hfs. splits; auto; try congruence.
        intros _. split; [apply (proj1 (B eq_refl))|]. destruct h; auto.
      * cbn [tree_pages]. rewrite Vp, E'. constructor; auto. intro Hi. apply PG6 in Hi. tauto.
      * cbn [tree_pages]. rewrite Vp, E'. intros q [<-|Hq]; [left; cbn; auto|]. apply PG6 in Hq. cbn [tree_pages] in Hq. tauto.
      * cbn [tree_kvs]. rewrite Vp, E'. exact AD6.
      * rewrite Vp. exact Hfs.
      * intros _ By. destruct (beyond_route _ _ _ _ _ _ _ _ By Ebr Ho) as [-> Byc].
        cbn [fat]. rewrite Vp, E'. exists (pre ++ [(ki, c)]), d, r. splits.
        -- unfold es. rewrite <- app_assoc. reflexivity.
        -- intro X. apply app_eq_nil in X. destruct X; discriminate.
        -- apply (fat_frame (get_page E t')).
           ++ intros q Hq. destruct (Hcrpg q) as [Hq1 Hq2]; [apply in_app_iff; auto|]. apply Vo; auto.
           ++ destruct Sp as (_ & _ & _ & _ & _ & _ & _ & _ & _ & _ & FT). apply FT. exact Byc.
Qed.
End Split.
