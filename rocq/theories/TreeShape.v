(** get, del and put without a split on any tree of the right shape. *)
From Verif Require Import Util PageModel PageSpec PageProofs PageOps TxnModel CursorModel TreeModel TreeSpec PropPage TreeProofs TreeOps TreeSplit TreePut.
Local Open Scope N_scope.

Lemma tree_shape b V : forall h pg lo hi, tree b V h pg lo hi -> shape V h pg.
Proof.
  induction h as [|h IH]; intros pg lo hi T; cbn [tree shape] in *.
  - tauto.
  - destruct T as (A & W & K & _). splits; auto.
    + rewrite <- branch_entries_keys. eapply kids_sorted; eauto.
    + eapply kids_nonempty; eauto.
    + rewrite Forall_forall. intros [ki c] Hin. apply in_split in Hin. destruct Hin as (pre & post & Hin).
      rewrite Hin in K. apply kids_mid in K. eapply IH; eauto.
Qed.

Lemma shape_height V : forall h h' pg, shape V h pg -> shape V h' pg -> h = h'.
Proof.
  assert (X : forall p, wf_page true p -> wf_page false p -> False).
  { intros p W1 W2. pose proof (wf_is_leaf _ _ W1) as A. rewrite (wf_is_leaf _ _ W2) in A. discriminate. }
  induction h as [|h IH]; intros [|h'] pg S S'; auto; cbn [shape] in *.
  - exfalso. apply (X (V pg)); tauto.
  - exfalso. apply (X (V pg)); tauto.
  - f_equal. destruct S as (_ & _ & _ & Hne & F). destruct S' as (_ & _ & _ & _ & F').
    destruct (branch_entries (V pg)) as [|e l]; [congruence|]. apply Forall_inv in F, F'. eauto.
Qed.

Lemma shape_pgno V : forall h pg, shape V h pg -> forall q, In q (tree_pages V h pg) -> pg_pgno (V q) = q.
Proof.
  induction h as [|h IH]; intros pg S q Hq; cbn [shape tree_pages] in *.
  - destruct Hq as [<-|[]]. tauto.
  - destruct S as (A & W & _ & _ & F). destruct Hq as [<-|Hq]; [exact A|].
    apply in_flat_map in Hq. destruct Hq as (e & Hin & Hq). rewrite Forall_forall in F. eapply IH; eauto.
Qed.

Lemma shape_find E t k : blen k < 65536 -> forall h pg, shape (get_page E t) h pg ->
  (exists path, route (get_page E t) k h pg path /\ leaf_on (get_page E t) k h pg = leaf_of path /\
    (forall fuel, (h < fuel)%nat -> (forall q, In q (tree_pages (get_page E t) h pg) -> q <= max_pgno E t) ->
       find_path fuel E t pg k = Ok (path, get_page E t (leaf_of path)))) /\
  (forall fuel, (h < fuel)%nat -> find_leaf fuel E t pg k = Ok (get_page E t (leaf_on (get_page E t) k h pg))).
Proof.
  intros Hk. induction h as [|h IH]; intros pg S; cbn [shape] in S.
  - destruct S as (_ & W & _). split.
    + exists [pg]. splits; [constructor|reflexivity|]. intros [|f] Hf Hm; [lia|]. cbn [find_path].
      pose proof (Hm pg (or_introl eq_refl)). destruct (N.ltb_spec (max_pgno E t) pg); [lia|]. rewrite (wf_is_leaf true _ W). reflexivity.
    + intros [|f] Hf; [lia|]. cbn [find_leaf]. rewrite (wf_is_leaf true _ W). reflexivity.
  - destruct S as (_ & W & S & Hne & F).
    destruct (child_of_ok _ k W S Hk Hne) as (pre & ki & c & post & Ee & _ & Ec & Hp & _ & Ho).
    assert (Sc : shape (get_page E t) h c).
    { rewrite Forall_forall in F. apply (F (ki, c)). rewrite Ee. apply in_app_iff; cbn; auto. }
    destruct (IH c Sc) as [(path & R & EL & FP) FL].
    assert (ELO : leaf_on (get_page E t) k (Datatypes.S h) pg = leaf_on (get_page E t) k h c).
    { cbn [leaf_on]. rewrite (rank_route _ k pre ki c post S Ee Hp Ho), Ee, nth_error_mid. reflexivity. }
    split.
    + exists (pg :: path). rewrite leaf_of_cons by (eapply route_nonempty; eauto). splits.
      * econstructor; eauto.
      * congruence.
      * intros [|f] Hf Hm; [lia|]. cbn [find_path]. pose proof (Hm pg (or_introl eq_refl)).
        destruct (N.ltb_spec (max_pgno E t) pg); [lia|]. rewrite (wf_is_leaf false _ W), (wf_is_branch false _ W). cbn [negb].
        rewrite Ec. cbn [bindr]. rewrite FP; [reflexivity|lia|].
        intros q Hq. apply Hm. cbn [tree_pages]. right. rewrite Ee. apply in_flat_map. exists (ki, c). split; auto. apply in_app_iff; cbn; auto.
    + intros [|f] Hf; [lia|]. cbn [find_leaf]. rewrite (wf_is_leaf false _ W), (wf_is_branch false _ W). cbn [negb].
      rewrite Ec. cbn [bindr]. rewrite FL by lia. rewrite ELO. reflexivity.
Qed.

Lemma shape_leaf V k : forall h pg, shape V h pg -> In (leaf_on V k h pg) (tree_pages V h pg) /\
  wf_page true (V (leaf_on V k h pg)) /\ ksorted (page_keys true (V (leaf_on V k h pg))).
Proof.
  induction h as [|h IH]; intros pg S; cbn [shape leaf_on tree_pages] in *.
  - splits; try tauto. left; auto.
  - destruct S as (_ & W & S & Hne & F).
    destruct (nth_error (branch_entries (V pg)) _) as [[ki c]|] eqn:En.
    + apply nth_error_In in En. rewrite Forall_forall in F. destruct (IH c (F _ En)) as (I1 & I2 & I3). splits; auto.
      right. apply in_flat_map. eauto.
    + exfalso. apply nth_error_None in En. rewrite <- branch_entries_keys in En.
      assert (length (filter (fun x => negb (kltb k x)) (map fst (branch_entries (V pg)))) <= length (map fst (branch_entries (V pg))))%nat
        by (clear; induction (map fst (branch_entries (V pg))) as [|a l IHl]; cbn; auto; destruct (negb _); cbn; lia).
      rewrite map_length in *. destruct (branch_entries (V pg)); [congruence|]. cbn [length] in *. lia.
Qed.

(** changing the routed leaf of [k] changes no route *)
Lemma shape_update V V' : forall h pg l, shape V h pg -> NoDup (tree_pages V h pg) ->
  In l (tree_pages V h pg) -> wf_page true (V l) ->
  (forall q, In q (tree_pages V h pg) -> q <> l -> V' q = V q) ->
  pg_pgno (V' l) = l -> wf_page true (V' l) -> ksorted (page_keys true (V' l)) ->
  shape V' h pg /\ tree_pages V' h pg = tree_pages V h pg /\ forall k, leaf_on V' k h pg = leaf_on V k h pg.
Proof.
  induction h as [|h IH]; intros pg l S ND Hl Wl HV P' W' S'; cbn [shape leaf_on tree_pages] in *.
  - destruct Hl as [<-|[]]. splits; auto.
  - destruct S as (A & W & S & Hne & F).
    assert (Hpl : pg <> l).
    { intros ->. pose proof (wf_is_leaf _ _ W) as X. rewrite (wf_is_leaf _ _ Wl) in X. discriminate. }
    rewrite (HV pg) by (auto; cbn; auto).
    inversion ND as [|? ? Hnin ND']; subst.
    assert (G : forall e, In e (branch_entries (V pg)) -> shape V' h (snd e) /\ tree_pages V' h (snd e) = tree_pages V h (snd e) /\
              forall k, leaf_on V' k h (snd e) = leaf_on V k h (snd e)).
    { intros [ki c] He. cbn [snd]. assert (Sc : shape V h c) by (rewrite Forall_forall in F; apply (F _ He)).
      apply in_split in He. destruct He as (pre & post & He).
      destruct (NoDup_kids V h pg pre ki c post ltac:(constructor; auto) He) as (N1 & N2 & N3 & N4).
      assert (Hsub : forall q, In q (tree_pages V h c) -> In q (flat_map (fun e => tree_pages V h (snd e)) (branch_entries (V pg)))).
      { intros q Hq. rewrite He. apply in_flat_map. exists (ki, c). split; auto. apply in_app_iff; cbn; auto. }
      destruct (in_dec N.eq_dec l (tree_pages V h c)) as [Hi|Hi].
      - apply (IH c l); auto. intros q Hq Hn. apply HV; auto. right. auto.
      - assert (Hq : forall q, In q (tree_pages V h c) -> V' q = V q) by (intros q Hq; apply HV; [right; auto|congruence]).
        clear - Hq Sc. revert c Sc Hq. induction h as [|h IHh]; intros c Sc Hq; cbn [shape tree_pages leaf_on] in *.
        + rewrite !(Hq c) by (cbn; auto). auto.
        + rewrite !(Hq c) by (cbn; auto). destruct Sc as (A & W & S & Hne & F).
          assert (G : forall e, In e (branch_entries (V c)) -> shape V' h (snd e) /\ tree_pages V' h (snd e) = tree_pages V h (snd e) /\
              forall k, leaf_on V' k h (snd e) = leaf_on V k h (snd e)).
          { intros e He. rewrite Forall_forall in F. apply IHh; [apply F; auto|]. intros q Hq'. apply Hq. right. apply in_flat_map. eauto. }
          splits; auto.
          * rewrite Forall_forall. intros e He. apply G; auto.
          * f_equal. apply flat_map_ext_in. intros e He. apply G; auto.
          * intro k. destruct (nth_error (branch_entries (V c)) _) as [[kk cc]|] eqn:En; auto. apply nth_error_In in En. apply (G _ En). }
    splits; auto.
    + rewrite Forall_forall. intros e He. apply G; auto.
    + f_equal. apply flat_map_ext_in. intros e He. apply G; auto.
    + intro k. destruct (nth_error (branch_entries (V pg)) _) as [[kk cc]|] eqn:En; auto. apply nth_error_In in En. apply (G _ En).
Qed.

Lemma get_shape E t k h : blen k < 65536 -> (h < 64)%nat -> t_root t <> 0 -> shape (get_page E t) h (t_root t) ->
  db_get E t k = match lookup k (leaf_entries (get_page E t (leaf_on (get_page E t) k h (t_root t)))) with
                 | Some v => Ok v | None => Err NOTFOUND end.
Proof.
  intros Hk Hh Hnz S. unfold db_get. destruct (N.eqb_spec (t_root t) 0); [tauto|].
  destruct (shape_find E t k Hk h _ S) as [_ FL]. rewrite FL by (unfold FIND_FUEL; lia). cbn [bindr].
  destruct (shape_leaf _ k h _ S) as (_ & W & SS). apply leaf_lookup; auto.
Qed.

(** only one page of the tree differs, and the tree keeps its pages *)
Definition one_leaf (E : env) (t t' : txn) : Prop :=
  exists h l, (h < 32)%nat /\ shape (get_page E t) h (t_root t) /\ shape (get_page E t') h (t_root t) /\
    tree_pages (get_page E t') h (t_root t) = tree_pages (get_page E t) h (t_root t) /\
    In l (tree_pages (get_page E t) h (t_root t)) /\ forall q, q <> l -> get_page E t' q = get_page E t q.

(** replacing the routed leaf of [k] by one that differs only in the binding of [k] *)
Lemma leaf_swap E t t' k o h p : blen k < 65536 -> (h < 32)%nat -> t_root t <> 0 ->
  shape (get_page E t) h (t_root t) -> NoDup (tree_pages (get_page E t) h (t_root t)) ->
  Forall (fun q => q <= t_last t) (tree_pages (get_page E t) h (t_root t)) ->
  t_rdonly t = false -> same_ctl t t' ->
  (forall q, get_page E t' q = if leaf_on (get_page E t) k h (t_root t) =? q then p else get_page E t q) ->
  pg_pgno p = leaf_on (get_page E t) k h (t_root t) -> wf_page true p -> ksorted (page_keys true p) ->
  (forall k', lookup k' (leaf_entries p) = if key_dec k' k then o
     else lookup k' (leaf_entries (get_page E t (leaf_on (get_page E t) k h (t_root t))))) ->
  shaped E t' /\ one_leaf E t t' /\ (forall k', blen k' < 65536 -> db_get E t' k' =
     if key_dec k' k then match o with Some v => Ok v | None => Err NOTFOUND end else db_get E t k').
Proof.
  intros Hk Hh Hnz S ND PG Hr (C1 & C2 & C3 & C4 & C5) HV P W SS HL.
  set (l := leaf_on (get_page E t) k h (t_root t)) in *.
  destruct (shape_leaf _ k h _ S) as (Hl & Wl & _). fold l in Hl, Wl.
  assert (Vl : get_page E t' l = p) by (rewrite HV, N.eqb_refl; reflexivity).
  destruct (shape_update (get_page E t) (get_page E t') h (t_root t) l S ND Hl Wl) as (S' & P' & L'); rewrite ?Vl; auto.
  { intros q _ Hq. rewrite HV. destruct (N.eqb_spec l q); congruence. }
  split; [|split].
  - split; [congruence|]. right. exists h. rewrite C3, P', C5. splits; auto.
  - exists h, l. splits; auto. intros q Hq. rewrite HV. destruct (N.eqb_spec l q); congruence.
  - intros k' Hk'. rewrite (get_shape E t' k' h), (get_shape E t k' h) by (auto; try lia; rewrite ?C3; auto).
    rewrite C3, L', HV. destruct (N.eqb_spec l (leaf_on (get_page E t) k' h (t_root t))) as [El|El].
    + rewrite <- El, HL. destruct (key_dec k' k); auto.
    + destruct (key_dec k' k) as [->|]; auto. exfalso; apply El; reflexivity.
Qed.

(** ** del *)
Lemma db_del_shape E t k data : blen k < 65536 -> shaped E t ->
  match db_get E t k with
  | Ok _ => exists t', db_del E t k data = Ret tt t' /\ same_ctl t t' /\ shaped E t' /\ one_leaf E t t' /\
      forall k', blen k' < 65536 -> db_get E t' k' = if key_dec k' k then Err NOTFOUND else db_get E t k'
  | Err e => e = NOTFOUND /\ db_del E t k data = Fail NOTFOUND t
  | _ => False
  end.
Proof.
  intros Hk (Hr & [H0|(h & Hh & Hnz & S & ND & PG)]).
  { unfold db_get, db_del. rewrite Hr, H0. cbn. auto. }
  rewrite (get_shape E t k h) by (auto; lia).
  unfold db_del. rewrite Hr. destruct (N.eqb_spec (t_root t) 0) as [|_]; [tauto|].
  destruct (shape_find E t k Hk h _ S) as [(path & R & EL & FP) _].
  rewrite FP; [|unfold MAX_TREE_DEPTH; lia|unfold max_pgno; rewrite Hr; rewrite Forall_forall in PG; auto].
  cbn [lift bindo]. destruct (shape_leaf _ k h _ S) as (Hl & Wl & Sl). rewrite EL in Hl, Wl, Sl |- *.
  set (lpg := leaf_of path) in *. set (V := get_page E t) in *.
  pose proof Sl as Sl'. rewrite <- leaf_entries_keys in Sl'.
  destruct (entries_split k (leaf_entries (V lpg)) Sl') as [(e1 & v0 & e2 & EE & F1 & F2)|(e1 & e2 & EE & F1 & F2)].
  - rewrite EE, lookup_mid by (rewrite <- lookup_in_iff, lookup_below by auto; tauto).
    rewrite (leaf_search_found _ k v0 e1 e2) by auto. cbn [bindo].
    destruct (cow_path_ok E (rev path) t Hr) as (t3 & EC & C3 & V3 & D3 & K3 & _).
    { intros q Hq. apply in_rev in Hq. eapply shape_pgno; eauto. eapply route_pages; eauto. }
    rewrite EC. cbn [bindo].
    assert (Hin : In lpg (rev path)).
    { apply in_rev. rewrite rev_involutive. apply last_In. eapply route_nonempty; eauto. }
    rewrite (D3 _ Hin). fold V.
    destruct (leaf_delete_ok _ k v0 e1 e2 Wl EE) as (p' & ED & W' & E' & P' & F'). rewrite ED. cbn [lift bindo].
    assert (Hr3 : t_rdonly t3 = false) by (destruct C3; congruence).
    exists (put_dirty t3 lpg p'). split; [reflexivity|].
    assert (C4 : same_ctl t (put_dirty t3 lpg p')) by (eapply same_ctl_trans; [exact C3|apply same_ctl_put]).
    split; auto.
    destruct (leaf_swap E t (put_dirty t3 lpg p') k None h p' Hk Hh Hnz S ND PG Hr C4) as (G1 & G3 & G2); auto; fold V; rewrite ?EL; fold lpg.
    + intro q. rewrite get_put by auto. rewrite V3. reflexivity.
    + rewrite P'. apply (shape_pgno V h (t_root t) S). auto.
    + rewrite <- leaf_entries_keys, E'. rewrite EE in Sl'. eapply sorted_drop; eauto.
    + intro k'. fold V. rewrite EL. fold lpg. rewrite E', EE. destruct (key_dec k' k) as [->|Hne].
      * rewrite lookup_app, lookup_below, lookup_above by auto. reflexivity.
      * rewrite lookup_other by auto. reflexivity.
  - rewrite EE, lookup_app, lookup_below, lookup_above by auto.
    rewrite (leaf_search_absent _ k e1 e2) by auto. auto.
Qed.

(** ** put when the entry fits *)
Lemma put_prepare_shape al E t k v h : blen k < 65536 -> t_rdonly t = false -> t_root t <> 0 ->
  shape (get_page E t) h (t_root t) -> NoDup (tree_pages (get_page E t) h (t_root t)) ->
  Forall (fun q => q <= t_last t) (tree_pages (get_page E t) h (t_root t)) -> (h < 32)%nat ->
  let l := leaf_on (get_page E t) k h (t_root t) in
  exists path, leaf_of path = l /\
   ((lookup k (leaf_entries (get_page E t l)) <> None /\ dget (t_dirty t) l <> None /\
     db_put_with al E t k v = Fail EEXIST t) \/
    exists t4 p1 l1 l2,
      db_put_with al E t k v = finish al E t4 path l (N.of_nat (length l1)) p1 k v /\
      same_ctl t t4 /\ (forall q, get_page E t4 q = if l =? q then p1 else get_page E t q) /\
      (forall q, In q path -> dget (t_dirty t4) q = Some (get_page E t4 q)) /\
      wf_page true p1 /\ pg_pgno p1 = l /\ leaf_entries p1 = l1 ++ l2 /\
      Forall (fun e => klt (fst e) k) l1 /\ Forall (fun e => klt k (fst e)) l2 /\
      ((leaf_entries (get_page E t l) = l1 ++ l2 /\ page_free p1 = page_free (get_page E t l)) \/
       (dget (t_dirty t) l = None /\
        exists v0, leaf_entries (get_page E t l) = l1 ++ (k, v0) :: l2 /\
        page_free p1 = page_free (get_page E t l) + leaf_size k v0 + 2))).
Proof.
  intros Hk Hr Hnz S ND PG Hh. set (V := get_page E t) in *. cbn zeta.
  destruct (shape_find E t k Hk h _ S) as [(path & R & EL & FP) _].
  assert (EP : find_path MAX_TREE_DEPTH E t (t_root t) k = Ok (path, V (leaf_of path))).
  { apply FP; [unfold MAX_TREE_DEPTH; lia|unfold max_pgno; rewrite Hr; rewrite Forall_forall in PG; auto]. }
  destruct (shape_leaf V k h _ S) as (Hl & Wl & Sl). fold V in EL. rewrite EL. exists path. split; auto. fold V in EL; rewrite EL in Hl, Wl, Sl.
  set (lpg := leaf_of path) in *. fold V in R.
  assert (Pl : pg_pgno (V lpg) = lpg) by (apply (shape_pgno V h (t_root t) S); auto).
  pose proof Sl as Sl'. rewrite <- leaf_entries_keys in Sl'.
  destruct (cow_path_ok E (rev path) t Hr) as (t3 & EC & C3 & V3 & D3 & K3 & _).
  { intros q Hq. apply in_rev in Hq. eapply shape_pgno; eauto. eapply route_pages; eauto. }
  assert (Hin : In lpg (rev path)).
  { apply in_rev. rewrite rev_involutive. apply last_In. eapply route_nonempty; eauto. }
  assert (Hr3 : t_rdonly t3 = false) by (destruct C3; congruence).
  assert (Hlk : leaf_key E t lpg = lpg).
  { unfold leaf_key. destruct (dget (t_dirty t) lpg) eqn:D; auto. unfold V, get_page in Pl. rewrite Hr, D in Pl. exact Pl. }
  unfold db_put_with. rewrite Hr. destruct (N.eqb_spec (t_root t) 0) as [|_]; [tauto|].
  rewrite EP. cbn [lift bindo]. fold lpg.
  destruct (entries_split k (leaf_entries (V lpg)) Sl') as [(e1 & v0 & e2 & EE & F1 & F2)|(e1 & e2 & EE & F1 & F2)].
  - rewrite (leaf_search_found _ k v0 e1 e2) by auto. cbn [lift bindo andb].
    destruct (dget (t_dirty t) lpg) as [pd|] eqn:D.
    + left. splits; [|congruence|auto]. rewrite EE, lookup_mid; [discriminate|].
      rewrite <- lookup_in_iff. rewrite lookup_below; auto.
    + right. rewrite Hlk, EC. cbn [bindo]. rewrite (D3 _ Hin). fold V.
      destruct (leaf_delete_ok _ k v0 e1 e2 Wl EE) as (p' & ED & W' & E' & P' & F'). rewrite ED. cbn [lift bindo].
      exists (put_dirty t3 lpg p'), p', e1, e2. split; [reflexivity|]. splits; auto.
      * intro q. rewrite get_put, V3 by auto. reflexivity.
      * intros q Hq. rewrite dget_put, get_put by auto. destruct (N.eqb_spec lpg q); auto.
        rewrite (D3 q) by (apply -> in_rev; auto). rewrite V3. reflexivity.
      * congruence.
      * right. split; auto. exists v0. split; auto.
  - rewrite (leaf_search_absent _ k e1 e2) by auto. cbn [lift bindo andb].
    right. rewrite Hlk, EC. cbn [bindo]. rewrite (D3 _ Hin). fold V.
    exists t3, (V lpg), e1, e2. split; [reflexivity|]. splits; auto.
    + intro q. rewrite V3. destruct (N.eqb_spec lpg q) as [<-|]; auto.
    + intros q Hq. rewrite (D3 q) by (apply -> in_rev; auto). rewrite V3. reflexivity.
Qed.

Lemma db_put_shape al E t k v : leaf_size k v < 65536 -> shaped E t -> t_root t <> 0 -> fits E t k v ->
  (leaf_is_dirty E t k /\ (exists v0, db_get E t k = Ok v0) /\ db_put_with al E t k v = Fail EEXIST t) \/
  (~ (leaf_is_dirty E t k /\ (exists v0, db_get E t k = Ok v0)) /\
   exists t', db_put_with al E t k v = Ret tt t' /\ same_ctl t t' /\ shaped E t' /\ one_leaf E t t' /\
   forall k', blen k' < 65536 -> db_get E t' k' = if key_dec k' k then Ok v else db_get E t k').
Proof.
  intros Hs (Hr & [H0|(h & Hh & Hnz & S & ND & PG)]) Hne Hfit; [tauto|]. pose proof (leaf_size_key _ _ Hs) as Hk.
  specialize (Hfit h S). rewrite (get_shape E t k h) by (auto; lia).
  assert (HD : leaf_is_dirty E t k <-> dget (t_dirty t) (leaf_on (get_page E t) k h (t_root t)) <> None).
  { split; [intros (h' & S' & D)|intro D; exists h; auto]. rewrite (shape_height _ _ _ _ S S'). exact D. }
  destruct (shape_leaf _ k h _ S) as (Hl & Wl & Sl).
  destruct (put_prepare_shape al E t k v h Hk Hr Hnz S ND PG Hh) as (path & EL & HX).
  set (l := leaf_on (get_page E t) k h (t_root t)) in *.
  destruct HX as [(H1 & H2 & H3)|(t4 & p1 & l1 & l2 & EQ & SC & HV & HDD & W1 & P1 & E1 & F1 & F2 & HE)].
  - left. rewrite HD. splits; auto. destruct (lookup k (leaf_entries (get_page E t l))); [eauto|congruence].
  - right. split.
    { rewrite HD. intros (D & v0 & HL). destruct HE as [(EE & _)|(Dn & _)]; [|congruence].
      rewrite EE, lookup_app, lookup_below, lookup_above in HL by auto. discriminate. }
    rewrite EQ. unfold finish.
    assert (Hfree : page_free p1 = leaf_avail (get_page E t l) k).
    { unfold leaf_avail. destruct HE as [(EE & ->)|(_ & v0 & EE & ->)]; rewrite EE.
      - rewrite lookup_app, lookup_below, lookup_above by auto. lia.
      - rewrite lookup_mid; [lia|]. rewrite <- lookup_in_iff, lookup_below by auto. tauto. }
    destruct (leaf_insert_cases p1 k v l1 l2 W1 Hs E1) as [[Hf _]|(Hf & p2 & -> & W2 & E2 & P2 & _)]; [lia|].
    assert (Hr4 : t_rdonly t4 = false) by (destruct SC; congruence).
    assert (C4 : same_ctl t (put_dirty t4 l p2)) by (eapply same_ctl_trans; [exact SC|apply same_ctl_put]).
    exists (put_dirty t4 l p2). split; [reflexivity|]. split; auto.
    assert (SS : ksorted (map fst (l1 ++ l2))).
    { rewrite <- leaf_entries_keys in Sl. destruct HE as [(EE & _)|(_ & v0 & EE & _)]; rewrite EE in Sl; [exact Sl|eapply sorted_drop; eauto]. }
    destruct (leaf_swap E t (put_dirty t4 l p2) k (Some v) h p2 Hk Hh Hnz S ND PG Hr C4) as (G1 & G3 & G2); auto; fold l.
    + intro q. rewrite get_put by auto. destruct (l =? q) eqn:Eq; auto. rewrite HV, Eq. reflexivity.
    + congruence.
    + rewrite <- leaf_entries_keys, E2. apply sorted_mid; auto.
    + intro k'. rewrite E2. destruct (key_dec k' k) as [->|Hn].
      * apply lookup_mid. rewrite <- lookup_in_iff, lookup_below by auto. tauto.
      * destruct HE as [(EE & _)|(_ & v0 & EE & _)]; rewrite EE, ?lookup_other by auto; reflexivity.
Qed.

(** ** The computable cleanness test *)
Lemma height_of_ok V : forall fuel h pg, (h < fuel)%nat -> shape V h pg -> height_of fuel V pg = h.
Proof.
  induction fuel as [|f IH]; intros h pg Hf S; [lia|]. cbn [height_of]. destruct h as [|h]; cbn [shape] in S.
  - destruct S as (_ & W & _). rewrite (wf_is_leaf true _ W). reflexivity.
  - destruct S as (_ & W & _ & Hne & F). rewrite (wf_is_leaf false _ W).
    destruct (branch_entries (V pg)) as [|[k c] l]; [congruence|]. apply Forall_inv in F. f_equal. apply IH; [lia|exact F].
Qed.
Lemma clean_putb_ok E t k v : clean_putb E t k v = true -> clean_put E t k v.
Proof.
  intros H h Hh T. apply andb_true_iff in H. destruct H as [H1 H2].
  rewrite (height_of_ok _ 33 h) in H1, H2 by (try lia; eapply tree_shape; eauto). split.
  - destruct h; auto. intros k0 E0. rewrite E0 in H1. apply kltb_false. destruct (kltb k k0); auto; discriminate.
  - destruct (split_plan _ _ _ _ _); congruence.
Qed.
Lemma clean_opsb_ok E : forall os t, clean_opsb E t os = true -> clean_ops E t os.
Proof.
  induction os as [|o r IH]; intros t H; cbn [clean_ops clean_opsb] in *; auto.
  apply andb_true_iff in H. destruct H as [H1 H2]. split.
  - destruct o as [k v|k].
    + apply andb_true_iff in H1. destruct H1 as [H0 H1]. split; [apply N.ltb_lt; auto|].
      apply orb_true_iff in H1. destruct H1 as [H1|H1]; [left; apply N.eqb_eq; auto|right; apply clean_putb_ok; auto].
    + apply N.ltb_lt; auto.
  - intros t1 E1. rewrite E1 in H2. auto.
Qed.

(** ** Sequences of operations *)
Section Instance.
Variable (E : env).
Let F : N -> Prop := fun _ => False.
Let Q (t : txn) : Prop := t_free_root t = 0.
Lemma Q_alloc0 t : Q t -> t_rdonly t = false -> page_alloc E t = Ret (t_last t + 1) (set_last t (t_last t + 1)).
Proof. intros HQ Hr. unfold page_alloc, ALLOC_FUEL. cbn [alloc_fuel]. unfold alloc_with, reclaim_with. rewrite Hr, HQ. reflexivity. Qed.
Lemma Q_stable0 t t' : Q t -> t_rdonly t' = t_rdonly t -> t_id t' = t_id t -> t_free_root t' = t_free_root t ->
  (forall q, F q -> get_page E t' q = get_page E t q) -> Q t'.
Proof. unfold Q. congruence. Qed.

(** A transaction with an empty Free DB that holds the pairs [kvs]. *)
Lemma put_clean t kvs k v : txn_holds true 32 E t kvs -> t_free_root t = 0 -> 1 <= t_last t -> t_last t + 40 < 2 ^ 64 ->
  leaf_size k v < 65536 -> (t_root t = 0 \/ clean_put E t k v) ->
  match db_put E t k v with
  | Ret _ t' => exists kvs', txn_holds true 32 E t' kvs' /\ t_free_root t' = 0 /\ t_last t <= t_last t' <= t_last t + 40 /\ t_id t' = t_id t /\
      (forall k', lookup k' kvs' = if key_dec k' k then Some v else lookup k' kvs)
  | Fail _ _ => True
  | Bad | NoFuel => False
  end.
Proof.
  intros (Hr & HT) HQ H1 Hl Hs HC. destruct HT as [[H0 ->]|(h & Hh & Hnz & T & ND & PG & EK)].
  - pose proof (db_put_empty page_alloc E F Q Q_alloc0 Q_stable0 t k v Hs Hl Hr H0 HQ H1) as P.
    specialize (P ltac:(intros q [])). unfold db_put.
    destruct (db_put_with page_alloc E t k v) as [u t'|e t'| |]; auto.
    destruct P as ((A1 & A2 & A3 & A4 & A5 & A6) & (B1 & B2 & B3 & B4 & B5) & _).
    exists [(k, v)]. splits; auto; try congruence; try lia.
    split; [auto|]. right. exists 0%nat. splits; auto; [lia|]. rewrite Forall_forall. intros q Hq. apply A5; auto.
  - destruct HC as [|HC]; [tauto|]. destruct (HC h Hh T) as [C1 C2].
    pose proof (db_put_sound page_alloc E F Q Q_alloc0 Q_stable0 h t kvs k v Hs Hl Hh) as P.
    assert (SD : sound E F h t kvs).
    { unfold sound. splits; auto. intros q Hq. rewrite Forall_forall in PG. split; [apply PG; auto|intros []]. }
    specialize (P SD HQ ltac:(intros q [])).
    assert (IR : inrange true (get_page E t) h (t_root t) None None k) by (unfold inrange; splits; cbn; auto).
    specialize (P IR C2). unfold db_put.
    destruct (db_put_with page_alloc E t k v) as [u t'|e t'| |]; auto.
    destruct P as (h' & kvs' & Hh' & (A1 & A2 & A3 & A4 & A5 & A6) & (B1 & B2 & B3 & B4 & B5) & L & _).
    exists kvs'. splits; auto; try congruence; try lia.
    split; [auto|]. right. exists h'. splits; auto. rewrite Forall_forall. intros q Hq. apply A5; auto.
Qed.

Lemma del_clean t kvs k : txn_holds true 32 E t kvs -> blen k < 65536 ->
  match db_del E t k None with
  | Ret _ t' => exists kvs', txn_holds true 32 E t' kvs' /\ same_ctl t t' /\
      (forall k', lookup k' kvs' = if key_dec k' k then None else lookup k' kvs)
  | Fail _ _ => True
  | Bad | NoFuel => False
  end.
Proof.
  intros HT Hk. pose proof HT as (Hr & [[H0 ->]|(h & Hh & Hnz & T & ND & PG & EK)]).
  - unfold db_del. rewrite Hr, H0. exact I.
  - destruct (Nat.eq_dec h 32) as [->|Hd].
    + unfold db_del. rewrite Hr. destruct (N.eqb_spec (t_root t) 0); [tauto|].
      destruct (find_path_too_deep true E t k Hk MAX_TREE_DEPTH 32 (t_root t) _ _ T ltac:(unfold MAX_TREE_DEPTH; lia)) as (e & ->). exact I.
    + assert (HT' : txn_holds true 31 E t kvs) by (split; auto; right; exists h; splits; auto; lia).
      pose proof (db_del_ok true 31 E t kvs k None Hk ltac:(lia) HT') as D.
      destruct (lookup k kvs); [|rewrite D; exact I].
      destruct D as (t' & kvs' & -> & C & (Hr' & HT2) & L & _). exists kvs'. splits; auto. split; auto.
      destruct HT2 as [|(h' & Hh' & X)]; [left; auto|right]. exists h'. split; [lia|auto].
Qed.

Lemma ops_clean : forall os t t' kvs, txn_holds true 32 E t kvs -> t_free_root t = 0 -> 1 <= t_last t ->
  t_last t + 40 * (1 + N.of_nat (length os)) < 2 ^ 64 ->
  clean_ops E t os -> do_ops E t os = Ret tt t' ->
  exists kvs', txn_holds true 32 E t' kvs' /\ t_free_root t' = 0 /\ t_id t' = t_id t /\
    forall k, lookup k kvs' = fold_left map_op os (fun x => lookup x kvs) k.
Proof.
  assert (Ext : forall os (m m' : kmap), (forall k, m k = m' k) -> forall k, fold_left map_op os m k = fold_left map_op os m' k).
  { induction os as [|o r IH]; intros m m' H k; cbn [fold_left]; auto. apply IH. intro x. destruct o; cbn [map_op]; rewrite H; reflexivity. }
  induction os as [|o r IH]; intros t t' kvs HT HQ H1 Hl HC HR; cbn [do_ops clean_ops fold_left length] in *.
  - injection HR as <-. exists kvs. splits; auto.
  - destruct HC as [HC1 HC2]. destruct o as [k v|k]; cbn [do_op] in *.
    + destruct HC1 as [Hs HC1]. pose proof (put_clean t kvs k v HT HQ H1 ltac:(lia) Hs HC1) as P.
      destruct (db_put E t k v) as [[] t1|e t1| |] eqn:EP; cbn [bindo] in HR; try discriminate.
      destruct P as (kvs1 & HT1 & HQ1 & Hl1 & Hid & L1).
      destruct (IH t1 t' kvs1 HT1 HQ1 ltac:(lia) ltac:(lia) (HC2 _ eq_refl) HR) as (kvs' & A & B & C & D).
      exists kvs'. splits; auto; [congruence|]. intro k0. rewrite D. apply Ext. intro x. apply L1.
    + pose proof (del_clean t kvs k HT HC1) as P.
      destruct (db_del E t k None) as [[] t1|e t1| |] eqn:EP; cbn [bindo] in HR; try discriminate.
      destruct P as (kvs1 & HT1 & (S1 & S2 & S3 & S4 & S5) & L1).
      destruct (IH t1 t' kvs1 HT1 ltac:(congruence) ltac:(lia) ltac:(lia) (HC2 _ eq_refl) HR) as (kvs' & A & B & C & D).
      exists kvs'. splits; auto; [congruence|]. intro k0. rewrite D. apply Ext. intro x. apply L1.
Qed.
End Instance.

Lemma holds_reads b E t kvs : txn_holds b 32 E t kvs -> reads E t (fun k => lookup k kvs).
Proof.
  intros (Hr & [[H0 ->]|(h & Hh & Hnz & T & ND & PG & EK)]) k Hk.
  - unfold db_get. rewrite H0. reflexivity.
  - rewrite (db_get_ok b E t k h Hk ltac:(lia) Hnz T), EK. reflexivity.
Qed.
