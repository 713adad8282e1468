(** Lemmas about copy-on-write, leaf updates, put and del. *)
From Verif Require Import Util PageModel PageSpec PageProofs PageOps TxnModel CursorModel TreeModel TreeSpec PropPage TreeProofs.
Local Open Scope N_scope.

(** ** The page table of a transaction *)
Lemma dget_filter d k q : dget (filter (fun e => negb (fst e =? k)) d) q = if k =? q then None else dget d q.
Proof.
  induction d as [|[k' p] d IH]; cbn [filter dget fst].
  - destruct (k =? q); reflexivity.
  - destruct (N.eqb_spec k' k) as [->|Hne]; cbn [negb].
    + rewrite IH. destruct (N.eqb_spec k q); reflexivity.
    + cbn [dget]. rewrite IH. destruct (N.eqb_spec k' q) as [->|]; auto. destruct (N.eqb_spec k q); congruence.
Qed.
Lemma dget_dset d k p q : dget (dset d k p) q = if k =? q then Some p else dget d q.
Proof. unfold dset. cbn [dget]. rewrite dget_filter. destruct (k =? q); reflexivity. Qed.
Lemma dget_put t k p q : dget (t_dirty (put_dirty t k p)) q = if k =? q then Some p else dget (t_dirty t) q.
Proof. unfold put_dirty, set_dirty. cbn [t_dirty]. apply dget_dset. Qed.

Lemma get_put E t k p q : t_rdonly t = false ->
  get_page E (put_dirty t k p) q = if k =? q then p else get_page E t q.
Proof.
  intro H. unfold get_page, put_dirty, set_dirty. cbn [t_rdonly t_dirty]. rewrite H, dget_dset. destruct (k =? q); reflexivity.
Qed.
Lemma get_dirty E t q p : t_rdonly t = false -> dget (t_dirty t) q = Some p -> get_page E t q = p.
Proof. intros H H'. unfold get_page. rewrite H, H'. reflexivity. Qed.
Lemma get_set_freed E t f q : get_page E (set_freed t f) q = get_page E t q.
Proof. reflexivity. Qed.
Lemma get_set_last E t n q : get_page E (set_last t n) q = get_page E t q.
Proof. reflexivity. Qed.
Lemma get_set_root E t n q : get_page E (set_root t n) q = get_page E t q.
Proof. reflexivity. Qed.

(** everything but the dirty pages and the freed list is unchanged *)
Definition same_ctl (t t' : txn) : Prop :=
  t_rdonly t' = t_rdonly t /\ t_id t' = t_id t /\ t_root t' = t_root t /\ t_free_root t' = t_free_root t /\ t_last t' = t_last t.
Lemma same_ctl_refl t : same_ctl t t. Proof. repeat split. Qed.
Lemma same_ctl_trans a b c : same_ctl a b -> same_ctl b c -> same_ctl a c.
Proof. unfold same_ctl. intuition congruence. Qed.
Lemma same_ctl_put t k p : same_ctl t (put_dirty t k p). Proof. repeat split. Qed.

Lemma cow_page_ok E t pg : t_rdonly t = false -> pg_pgno (get_page E t pg) = pg ->
  exists t', cow_page E t pg = Ret pg t' /\ same_ctl t t' /\
    (forall q, get_page E t' q = get_page E t q) /\
    dget (t_dirty t') pg = Some (get_page E t pg) /\
    (forall q p, dget (t_dirty t) q = Some p -> dget (t_dirty t') q = Some p) /\
    (forall q, dget (t_dirty t') q <> None -> dget (t_dirty t) q <> None \/ q = pg).
Proof.
  intros Hr Hp. unfold cow_page. destruct (dget (t_dirty t) pg) as [p|] eqn:D.
  - exists t. splits; auto; try apply same_ctl_refl. unfold get_page. rewrite Hr, D. reflexivity.
  - assert (Hv : get_page E t pg = e_file E pg) by (unfold get_page; rewrite Hr, D; reflexivity).
    rewrite Hv in Hp. unfold get_writable. rewrite Hr, Hp, D.
    eexists. split; [reflexivity|].
    assert (G : forall q, dget (t_dirty (set_freed (put_dirty t pg (e_file E pg)) (t_freed t ++ [pg]))) q =
       if pg =? q then Some (e_file E pg) else dget (t_dirty t) q).
    { intro q. cbn [set_freed t_dirty]. apply (dget_put t). }
    splits.
    + repeat split.
    + intro q. rewrite get_set_freed, get_put by auto. destruct (N.eqb_spec pg q) as [<-|]; auto.
    + rewrite G, N.eqb_refl, Hv. reflexivity.
    + intros q p Hq. rewrite G. destruct (N.eqb_spec pg q) as [<-|]; auto. congruence.
    + intros q. rewrite G. destruct (N.eqb_spec pg q) as [<-|]; auto.
Qed.

Lemma cow_path_ok E : forall rpath t, t_rdonly t = false ->
  (forall q, In q rpath -> pg_pgno (get_page E t q) = q) ->
  exists t', cow_path E t rpath = Ret tt t' /\ same_ctl t t' /\
    (forall q, get_page E t' q = get_page E t q) /\
    (forall q, In q rpath -> dget (t_dirty t') q = Some (get_page E t q)) /\
    (forall q p, dget (t_dirty t) q = Some p -> dget (t_dirty t') q = Some p) /\
    (forall q, dget (t_dirty t') q <> None -> dget (t_dirty t) q <> None \/ In q rpath).
Proof.
  induction rpath as [|pg r IH]; intros t Hr Hq; cbn [cow_path].
  - exists t. splits; auto; try apply same_ctl_refl. intros q [].
  - destruct (cow_page_ok E t pg Hr (Hq pg ltac:(cbn; auto))) as (t1 & -> & C1 & V1 & D1 & P1 & N1). cbn [bindo].
    destruct (IH t1) as (t2 & -> & C2 & V2 & D2 & P2 & N2).
    + destruct C1 as (C1 & _). congruence.
    + intros q Hin. rewrite V1. apply Hq. cbn; auto.
    + exists t2. splits; auto.
      * eapply same_ctl_trans; eauto.
      * intro q. rewrite V2, V1. reflexivity.
      * intros q [<-|Hin]; [apply P2; auto|]. rewrite <- V1. auto.
      * intros q H. apply N2 in H. destruct H as [H|H]; [|right; right; auto].
        apply N1 in H. destruct H; [left|right; left]; auto.
Qed.

(** ** The route of a key *)
Inductive route (V : view) (k : key) : nat -> N -> list N -> Prop :=
| route_leaf : forall pg, route V k 0 pg [pg]
| route_branch : forall h pg pre ki c post path,
    branch_entries (V pg) = pre ++ (ki, c) :: post -> (pre = [] \/ kle ki k) ->
    Forall (fun e => klt k (fst e)) post -> route V k h c path ->
    route V k (S h) pg (pg :: path).

Lemma route_nonempty V k h pg path : route V k h pg path -> path <> [].
Proof. destruct 1; discriminate. Qed.
Lemma route_hd V k h pg path : route V k h pg path -> hd 0 path = pg.
Proof. destruct 1; reflexivity. Qed.
Lemma route_pages V k h pg path : route V k h pg path -> forall q, In q path -> In q (tree_pages V h pg).
Proof.
  induction 1; intros q Hq; cbn [tree_pages]; auto. destruct Hq as [<-|Hq]; [left; auto|right].
  apply in_flat_map. exists (ki, c). rewrite H. split; [apply in_app_iff; cbn; auto|]. auto.
Qed.
Lemma last_In (l : list N) d : l <> [] -> In (last l d) l.
Proof. induction l as [|a l IH]; intro H; [congruence|]. destruct l; cbn; auto. right. apply IH. discriminate. Qed.
Lemma route_leaf_in V k h pg path : route V k h pg path -> In (leaf_of path) (tree_pages V h pg).
Proof. intro R. eapply route_pages; eauto. apply last_In. eapply route_nonempty; eauto. Qed.
Lemma leaf_of_cons a p : p <> [] -> leaf_of (a :: p) = leaf_of p.
Proof. intro H. unfold leaf_of. destruct p; [congruence|reflexivity]. Qed.

Lemma tree_page_pgno b V : forall h pg lo hi, tree b V h pg lo hi -> forall q, In q (tree_pages V h pg) -> pg_pgno (V q) = q.
Proof.
  induction h as [|h IH]; intros pg lo hi T q Hq; cbn [tree tree_pages] in *.
  - destruct Hq as [<-|[]]. tauto.
  - destruct T as (A & W & K & _). destruct Hq as [<-|Hq]; [exact A|].
    apply in_flat_map in Hq. destruct Hq as ([ki c] & Hin & Hq). apply in_split in Hin. destruct Hin as (pre & post & Hin).
    rewrite Hin in K. apply kids_mid in K. eapply IH; eauto.
Qed.

Lemma find_path_ok b E t k : blen k < 65536 -> forall h fuel pg lo hi, (h < fuel)%nat ->
  (forall q, In q (tree_pages (get_page E t) h pg) -> q <= max_pgno E t) ->
  tree b (get_page E t) h pg lo hi ->
  exists path, find_path fuel E t pg k = Ok (path, get_page E t (leaf_of path)) /\ route (get_page E t) k h pg path.
Proof.
  intros Hk. induction h as [|h IH]; intros fuel pg lo hi Hf Hm T; (destruct fuel as [|f]; [lia|]); cbn [tree find_path tree_pages] in *.
  - destruct T as (_ & W & S & _). pose proof (Hm pg (or_introl eq_refl)) as Hpg.
    destruct (N.ltb_spec (max_pgno E t) pg); [lia|]. rewrite (wf_is_leaf true _ W). exists [pg]. split; [reflexivity|constructor].
  - destruct T as (_ & W & K & _). pose proof (Hm pg (or_introl eq_refl)) as Hpg.
    destruct (N.ltb_spec (max_pgno E t) pg); [lia|]. rewrite (wf_is_leaf false _ W), (wf_is_branch false _ W). cbn [negb].
    pose proof (kids_sorted _ _ _ _ K) as S. rewrite branch_entries_keys in S.
    destruct (child_of_ok _ k W S Hk (kids_nonempty _ _ _ _ K)) as (pre & ki & c & post & Ee & _ & Ec & Hp & _ & Ho).
    rewrite Ec. cbn [bindr]. rewrite Ee in K, Hm.
    pose proof (kids_mid _ _ _ _ _ _ _ K) as Tc.
    assert (Hf' : (h < f)%nat) by lia. edestruct (fun H => IH f c _ _ Hf' H Tc) as (path & -> & R).
    + intros q Hq. apply Hm. right. apply in_flat_map. exists (ki, c). split; auto. apply in_app_iff. cbn; auto.
    + cbn [bindr]. exists (pg :: path). split.
      * rewrite leaf_of_cons by (eapply route_nonempty; eauto). reflexivity.
      * econstructor; eauto.
Qed.

Lemma find_path_deep E t k : forall fuel pg path p, find_path fuel E t pg k = Ok (path, p) -> (length path <= fuel)%nat.
Proof.
  induction fuel as [|f IH]; intros pg path p H; cbn [find_path] in H; [discriminate|].
  destruct (max_pgno E t <? pg); [discriminate|].
  destruct (is_leaf (get_page E t pg)).
  - inversion H; subst. cbn. lia.
  - destruct (negb _); [discriminate|]. destruct (child_of _ k) as [c| | |]; try discriminate. cbn [bindr] in H.
    destruct (find_path f E t c k) as [[path' p']| | |] eqn:F; try discriminate. cbn [bindr] in H.
    injection H as <- <-. apply IH in F. cbn [length]. lia.
Qed.
Lemma find_path_complete b E t k : blen k < 65536 -> forall h fuel pg lo hi path p,
  tree b (get_page E t) h pg lo hi -> find_path fuel E t pg k = Ok (path, p) ->
  p = get_page E t (leaf_of path) /\ route (get_page E t) k h pg path /\ (h < fuel)%nat.
Proof.
  intros Hk. induction h as [|h IH]; intros fuel pg lo hi path p T H; (destruct fuel as [|f]; [discriminate|]); cbn [tree find_path] in *.
  - destruct T as (_ & W & S & _). destruct (max_pgno E t <? pg); [discriminate|]. rewrite (wf_is_leaf true _ W) in H.
    injection H as <- <-. splits; auto; [constructor|lia].
  - destruct T as (_ & W & K & _). destruct (max_pgno E t <? pg); [discriminate|].
    rewrite (wf_is_leaf false _ W), (wf_is_branch false _ W) in H. cbn [negb] in H.
    pose proof (kids_sorted _ _ _ _ K) as S. rewrite branch_entries_keys in S.
    destruct (child_of_ok _ k W S Hk (kids_nonempty _ _ _ _ K)) as (pre & ki & c & post & Ee & _ & Ec & Hp & _ & Ho).
    rewrite Ec in H. cbn [bindr] in H. rewrite Ee in K.
    destruct (find_path f E t c k) as [[path' p']| | |] eqn:F; try discriminate. cbn [bindr] in H. injection H as <- <-.
    destruct (IH f c _ _ path' p' (kids_mid _ _ _ _ _ _ _ K) F) as (-> & R & Hf). splits; [|econstructor; eauto|lia].
    rewrite leaf_of_cons by (eapply route_nonempty; eauto). reflexivity.
Qed.

(** ** A key inside the bounds of a tree *)
Definition inrange (b : bool) (V : view) (h : nat) (pg : N) (lo hi : option key) (k : key) : Prop :=
  above lo k /\ below hi k /\
  (b = true -> match h with O => True | S _ => forall k0, first_sep (V pg) = Some k0 -> kle k0 k end).

Lemma inrange_child b V h pg lo hi k pre ki c post :
  tree b V (S h) pg lo hi -> inrange b V (S h) pg lo hi k ->
  branch_entries (V pg) = pre ++ (ki, c) :: post -> (pre = [] \/ kle ki k) -> Forall (fun e => klt k (fst e)) post ->
  inrange b V h c (nlo pre (start b V pg lo) ki) (nhi post hi) k /\ (b = true -> kle ki k).
Proof.
  intros T (R1 & R2 & R3) E Hp Ho. cbn [tree] in T. destruct T as (A & W & K & B).
  assert (Hki : b = true -> kle ki k).
  { intro Hb. destruct Hp as [->|]; auto. apply (R3 Hb). unfold first_sep. rewrite E. reflexivity. }
  split; auto. unfold inrange. splits.
  - unfold nlo, start. destruct pre as [|e pre]; [|destruct Hp; [discriminate|auto]].
    destruct b; auto. unfold first_sep. rewrite E. cbn. auto.
  - unfold nhi. destruct post as [|[k1 c1] post]; auto. apply Forall_inv in Ho. exact Ho.
  - intro Hb. destruct h as [|h]; auto. destruct (B Hb) as [_ F]. rewrite Forall_forall in F.
    specialize (F (ki, c)). rewrite E in F. cbn [snd fst] in F. rewrite F by (apply in_app_iff; cbn; auto).
    intros k0 [= <-]. auto.
Qed.

(** all keys of the subtrees before (after) the routed child are smaller (greater) *)
Lemma kids_sides b V h pre ki c post lo hi k :
  kids (tree b V h) (pre ++ (ki, c) :: post) lo hi ->
  (pre = [] \/ kle ki k) -> Forall (fun e => klt k (fst e)) post ->
  Forall (fun e => klt (fst e) k) (flat_map (fun e => tree_kvs V h (snd e)) pre) /\
  Forall (fun e => klt k (fst e)) (flat_map (fun e => tree_kvs V h (snd e)) post).
Proof.
  intros K Hp Ho. split.
  - destruct Hp as [->|Hp]; [constructor|]. destruct pre as [|e pre]; [constructor|].
    apply kids_app in K; [|discriminate]. destruct K as (K1 & _).
    destruct (kids_content _ (tree_kvs V h) (tree_content b V h) _ _ _ K1) as [_ F].
    rewrite Forall_map in F. eapply Forall_impl; [|exact F]. cbn beta. intros a [_ Ha]. cbn in Ha.
    eapply klt_kle_trans; eauto.
  - destruct post as [|[k1 c1] post]; [constructor|].
    assert (K1 : kids (tree b V h) ((k1, c1) :: post) (Some k1) hi).
    { replace (pre ++ (ki, c) :: (k1, c1) :: post) with ((pre ++ [(ki, c)]) ++ (k1, c1) :: post) in K
        by (rewrite <- app_assoc; reflexivity).
      apply kids_app in K; [tauto|]. destruct pre; discriminate. }
    destruct (kids_content _ (tree_kvs V h) (tree_content b V h) _ _ _ K1) as [_ F].
    rewrite Forall_map in F. eapply Forall_impl; [|exact F]. cbn beta. intros a [Ha _]. cbn in Ha.
    apply Forall_inv in Ho. eapply klt_kle_trans; eauto.
Qed.

Lemma NoDup_app_inv {A} (l1 l2 : list A) : NoDup (l1 ++ l2) -> NoDup l1 /\ NoDup l2 /\ (forall x, In x l1 -> ~ In x l2).
Proof.
  induction l1 as [|a l1 IH]; cbn [app]; intro H.
  - splits; auto. constructor.
  - inversion H as [|? ? H1 H2]; subst. apply IH in H2. destruct H2 as (A1 & A2 & A3). splits; auto.
    + constructor; auto. intro Hi. apply H1, in_app_iff. auto.
    + intros x [<-|Hx]; auto. intro Hi. apply H1, in_app_iff. auto.
Qed.

(** children have disjoint pages *)
Lemma NoDup_kids V h pg pre ki c post : NoDup (tree_pages V (S h) pg) ->
  branch_entries (V pg) = pre ++ (ki, c) :: post ->
  NoDup (tree_pages V h c) /\ ~ In pg (tree_pages V h c) /\
  (forall k' c' q, In (k', c') (pre ++ post) -> In q (tree_pages V h c') -> ~ In q (tree_pages V h c)) /\
  (forall k' c', In (k', c') (pre ++ post) -> ~ In pg (tree_pages V h c')).
Proof.
  intros ND E. cbn [tree_pages] in ND. rewrite E, flat_map_app in ND. cbn [flat_map snd] in ND.
  inversion ND as [|? ? Hn ND']; subst. apply NoDup_app_inv in ND'. destruct ND' as (D1 & D2 & D3).
  apply NoDup_app_inv in D2. destruct D2 as (D2 & D4 & D5).
  rewrite !in_app_iff in Hn. splits; auto.
  - intros k' c' q Hin Hq Hc. apply in_app_iff in Hin. destruct Hin as [Hin|Hin].
    + apply (D3 q); [apply in_flat_map; eauto|]. apply in_app_iff. auto.
    + apply (D5 q); auto. apply in_flat_map; eauto.
  - intros k' c' Hin Hq. apply Hn. apply in_app_iff in Hin. destruct Hin as [Hin|Hin]; [left|right; right]; apply in_flat_map; eauto.
Qed.

Lemma route_leaf_neq V k h pg path : route V k (S h) pg path -> NoDup (tree_pages V (S h) pg) -> pg <> leaf_of path.
Proof.
  intros R ND. inversion R as [|h0 pg0 pre ki c post path0 Ebr Hp Ho Rc]; subst.
  rewrite leaf_of_cons by (eapply route_nonempty; eauto). intro H.
  destruct (NoDup_kids _ _ _ _ _ _ _ ND Ebr) as (_ & N2 & _). apply N2. rewrite H at 1. eapply route_leaf_in; eauto.
Qed.

(** Replacing the leaf a key is routed to *)
Lemma route_update b V V' k : forall h pg path lo hi, route V k h pg path ->
  tree b V h pg lo hi -> NoDup (tree_pages V h pg) ->
  (forall q, In q (tree_pages V h pg) -> q <> leaf_of path -> V' q = V q) ->
  pg_pgno (V' (leaf_of path)) = leaf_of path -> wf_page true (V' (leaf_of path)) ->
  ksorted (page_keys true (V' (leaf_of path))) ->
  (forall x, In x (page_keys true (V' (leaf_of path))) ->
     In x (page_keys true (V (leaf_of path))) \/ (x = k /\ inrange b V h pg lo hi k)) ->
  tree b V' h pg lo hi /\ tree_pages V' h pg = tree_pages V h pg /\
  exists l1 l2, tree_kvs V h pg = l1 ++ leaf_entries (V (leaf_of path)) ++ l2 /\
    tree_kvs V' h pg = l1 ++ leaf_entries (V' (leaf_of path)) ++ l2 /\
    Forall (fun e => klt (fst e) k) l1 /\ Forall (fun e => klt k (fst e)) l2 /\
    wf_page true (V (leaf_of path)) /\ ksorted (page_keys true (V (leaf_of path))).
Proof.
  induction h as [|h IH]; intros pg path lo hi R T ND HV Hpg W' S' Hin;
    inversion R as [pg0 Hpg0|h0 pg0 pre ki c post path0 Ebr Hp Ho Rc]; subst.
  - unfold leaf_of in *. cbn [last tree tree_pages tree_kvs] in *. destruct T as (A & W & S & F).
    splits; auto.
    + rewrite Forall_forall in *. intros x Hx. apply Hin in Hx. destruct Hx as [Hx|[-> Hx]]; auto.
      unfold inrange in Hx. tauto.
    + exists [], []. cbn [app]. rewrite !app_nil_r. splits; auto.
  - rename path0 into path. pose proof (route_nonempty _ _ _ _ _ Rc) as Hne.
    rewrite leaf_of_cons in * by auto.
    pose proof (NoDup_kids V h pg pre ki c post ND Ebr) as (N1 & N2 & N3 & N4).
    pose proof (route_leaf_in _ _ _ _ _ Rc) as Hl.
    assert (HVpg : V' pg = V pg).
    { apply HV; [cbn; auto|]. intros ->. auto. }
    assert (Hsub : forall k' c' q, In (k', c') (pre ++ (ki, c) :: post) -> In q (tree_pages V h c') -> In q (tree_pages V (S h) pg)).
    { intros k' c' q Hkc Hq. cbn [tree_pages]. right. rewrite Ebr. apply in_flat_map. exists (k', c'). auto. }
    assert (Hoth : forall k' c', In (k', c') (pre ++ post) -> forall q, In q (tree_pages V h c') -> V' q = V q).
    { intros k' c' Hi q Hq. apply HV.
      - apply (Hsub k' c'); auto. rewrite in_app_iff in Hi |- *. cbn [In]. tauto.
      - intros ->. eapply N3; eauto. }
    pose proof T as T0. cbn [tree] in T. destruct T as (A & W & K & B). rewrite Ebr in K.
    pose proof (kids_mid _ _ _ _ _ _ _ K) as Tc.
    destruct (IH c path _ _ Rc Tc N1) as (T' & P' & l1 & l2 & E1 & E2 & F1 & F2 & Wl & Sl); auto.
    + intros q Hq. apply HV. apply (Hsub ki c); auto. apply in_app_iff. cbn; auto.
    + intros x Hx. apply Hin in Hx. destruct Hx as [Hx|[-> Hx]]; auto. right. split; auto.
      eapply inrange_child; eauto.
    + assert (Hk : forall e, In e (pre ++ post) -> tree_kvs V' h (snd e) = tree_kvs V h (snd e) /\ tree_pages V' h (snd e) = tree_pages V h (snd e)).
      { intros [k' c'] He. apply kvs_frame. intros q Hq. eapply Hoth; eauto. }
      splits.
      * cbn [tree]. rewrite HVpg. splits; auto.
        -- rewrite Ebr. change ((ki, c) :: post) with ((ki, c) :: [] ++ post).
           eapply kids_update; [exact K| |exact T'].
           intros k' c' l hh Hi. apply tree_frame. eapply Hoth; eauto.
        -- intro Hb. destruct (B Hb) as [B1 B2]. split; auto. destruct h as [|h']; auto.
           rewrite Forall_forall in *. intros [k' c'] He. rewrite <- (B2 _ He). cbn [snd]. f_equal.
           apply HV.
           ++ eapply Hsub; [rewrite <- Ebr; eauto|]. cbn; auto.
           ++ intro Hc. subst c'. rewrite Ebr in He. apply in_app_iff in He. cbn [In] in He.
              assert (Hd : In (k', leaf_of path) (pre ++ post) \/ c = leaf_of path).
              { destruct He as [He|[He|He]]; [left; apply in_app_iff; auto|right; congruence|left; apply in_app_iff; auto]. }
              destruct Hd as [Hd|Hd].
              ** apply (N3 _ _ (leaf_of path) Hd); [cbn; auto|auto].
              ** apply (route_leaf_neq _ _ _ _ _ Rc N1 Hd).
      * cbn [tree_pages]. rewrite HVpg, Ebr. f_equal. rewrite !flat_map_app. cbn [flat_map snd]. rewrite P'. f_equal; [|f_equal];
          apply flat_map_ext_in; intros e He; apply Hk; apply in_app_iff; auto.
      * destruct (kids_sides b V h pre ki c post _ _ k K Hp Ho) as [G1 G2].
        exists (flat_map (fun e => tree_kvs V h (snd e)) pre ++ l1), (l2 ++ flat_map (fun e => tree_kvs V h (snd e)) post).
        cbn [tree_kvs]. rewrite HVpg, Ebr, !flat_map_app. cbn [flat_map snd]. rewrite E1, E2.
        splits; auto.
        -- rewrite <- !app_assoc. reflexivity.
        -- rewrite <- !app_assoc.
           rewrite (flat_map_ext_in (fun e => tree_kvs V' h (snd e)) (fun e => tree_kvs V h (snd e)) pre)
             by (intros e He; apply Hk; apply in_app_iff; auto).
           rewrite (flat_map_ext_in (fun e => tree_kvs V' h (snd e)) (fun e => tree_kvs V h (snd e)) post)
             by (intros e He; apply Hk; apply in_app_iff; auto).
           reflexivity.
        -- apply Forall_app. auto.
        -- apply Forall_app. auto.
Qed.

Lemma route_frame V V' k : forall h pg path, route V k h pg path -> NoDup (tree_pages V h pg) ->
  (forall q, In q (tree_pages V h pg) -> q <> leaf_of path -> V' q = V q) -> route V' k h pg path.
Proof.
  induction h as [|h IH]; intros pg path R ND HV.
  - inversion R; subst. constructor.
  - pose proof (route_leaf_neq _ _ _ _ _ R ND) as Hn.
    inversion R as [|h0 pg0 pre ki c post path0 Ebr Hp Ho Rc]; subst.
    pose proof (route_nonempty _ _ _ _ _ Rc) as Hne. rewrite leaf_of_cons in HV, Hn by auto.
    destruct (NoDup_kids _ _ _ _ _ _ _ ND Ebr) as (N1 & N2 & N3 & N4).
    econstructor; eauto.
    + rewrite HV; eauto. cbn; auto.
    + apply IH; auto. intros q Hq. apply HV. cbn [tree_pages]. right. rewrite Ebr. apply in_flat_map. exists (ki, c).
      split; auto. apply in_app_iff. cbn; auto.
Qed.

Lemma route_leaf_tree b V k : forall h pg path lo hi, route V k h pg path -> tree b V h pg lo hi ->
  pg_pgno (V (leaf_of path)) = leaf_of path /\ wf_page true (V (leaf_of path)) /\ ksorted (page_keys true (V (leaf_of path))).
Proof.
  induction h as [|h IH]; intros pg path lo hi R T; inversion R as [pg0 Hpg0|h0 pg0 pre ki c post path0 Ebr Hp Ho Rc]; subst;
    cbn [tree] in T.
  - unfold leaf_of. cbn [last]. tauto.
  - destruct T as (A & W & K & B). rewrite Ebr in K. apply kids_mid in K.
    rewrite leaf_of_cons by (eapply route_nonempty; eauto). eapply IH; eauto.
Qed.

(** ** Entries of a leaf around a key *)
Lemma entries_split {T} k (l : list (key * T)) : ksorted (map fst l) ->
  (exists l1 v l2, l = l1 ++ (k, v) :: l2 /\ Forall (fun e => klt (fst e) k) l1 /\ Forall (fun e => klt k (fst e)) l2) \/
  (exists l1 l2, l = l1 ++ l2 /\ Forall (fun e => klt (fst e) k) l1 /\ Forall (fun e => klt k (fst e)) l2).
Proof.
  intro S. destruct (sorted_split_at k _ S) as [(l1 & l2 & E)|(l1 & l2 & E & F1 & F2)]; [left|right].
  - pose proof E as E'. apply map_eq_app in E. destruct E as (e1 & e2 & -> & <- & E2).
    apply map_eq_cons in E2. destruct E2 as ([k' v] & e3 & -> & Ek & <-). cbn in Ek. subst k'.
    exists e1, v, e3. splits; auto; rewrite map_app in S; apply sorted_app in S; destruct S as (S1 & S2 & S3).
    + rewrite Forall_forall. intros e He. apply S3; [apply in_map; auto|cbn; auto].
    + cbn [map fst] in S2. apply sorted_cons_inv in S2. rewrite Forall_map in S2. tauto.
  - apply map_eq_app in E. destruct E as (e1 & e2 & -> & <- & <-). rewrite Forall_map in *. exists e1, e2. auto.
Qed.

Lemma sorted_mid {T} k (v : T) l1 l2 : ksorted (map fst (l1 ++ l2)) -> Forall (fun e => klt (fst e) k) l1 ->
  Forall (fun e => klt k (fst e)) l2 -> ksorted (map fst (l1 ++ (k, v) :: l2)).
Proof.
  rewrite !map_app. cbn [map fst]. rewrite !sorted_app. intros (S1 & S2 & S3) F1 F2.
  splits; auto.
  - constructor; auto. rewrite Forall_map. auto.
  - intros x y Hx [<-|Hy]; auto. apply in_map_iff in Hx. destruct Hx as (e & <- & He). rewrite Forall_forall in F1. auto.
Qed.
Lemma sorted_drop {T} (e : key * T) l1 l2 : ksorted (map fst (l1 ++ e :: l2)) -> ksorted (map fst (l1 ++ l2)).
Proof.
  rewrite !map_app. cbn [map]. rewrite !sorted_app. intros (S1 & S2 & S3). apply sorted_cons_inv in S2. splits; try tauto.
  intros; apply S3; cbn; auto.
Qed.

Lemma lookup_above k (l : list (key * bytes)) : Forall (fun e => klt k (fst e)) l -> lookup k l = None.
Proof.
  intro F. apply lookup_notin. intro H. apply in_map_iff in H. destruct H as (e & <- & He). rewrite Forall_forall in F.
  apply F in He. eapply klt_irrefl; eauto.
Qed.
Lemma lookup_below k (l : list (key * bytes)) : Forall (fun e => klt (fst e) k) l -> lookup k l = None.
Proof.
  intro F. apply lookup_notin. intro H. apply in_map_iff in H. destruct H as (e & <- & He). rewrite Forall_forall in F.
  apply F in He. eapply klt_irrefl; eauto.
Qed.

Lemma insert_at_mid {A} (x : A) l1 l2 : insert_at (length l1) x (l1 ++ l2) = l1 ++ x :: l2.
Proof.
  unfold insert_at. rewrite firstn_app, Nat.sub_diag, firstn_all. cbn [firstn]. rewrite app_nil_r.
  rewrite skipn_app, skipn_all, Nat.sub_diag. reflexivity.
Qed.
Lemma remove_at_mid {A} (x : A) l1 l2 : remove_at (length l1) (l1 ++ x :: l2) = l1 ++ l2.
Proof.
  unfold remove_at. rewrite firstn_app, Nat.sub_diag, firstn_all. cbn [firstn]. rewrite app_nil_r.
  rewrite skipn_app, skipn_all2 by lia. replace (S (length l1) - length l1)%nat with 1%nat by lia. reflexivity.
Qed.
Lemma nth_error_mid {A} (x : A) l1 l2 : nth_error (l1 ++ x :: l2) (length l1) = Some x.
Proof. rewrite nth_error_app2, Nat.sub_diag by lia. reflexivity. Qed.

(** search in a leaf, in terms of its entries *)
Lemma leaf_search_found p k v l1 l2 : wf_page true p -> blen k < 65536 -> ksorted (page_keys true p) ->
  leaf_entries p = l1 ++ (k, v) :: l2 -> page_search p k = Ok (true, N.of_nat (length l1)).
Proof.
  intros W Hk S E. rewrite (page_search_found true p k (map fst l1) (map fst l2)); auto.
  - rewrite map_length. reflexivity.
  - rewrite <- leaf_entries_keys, E, map_app. reflexivity.
Qed.
Lemma leaf_search_absent p k l1 l2 : wf_page true p -> blen k < 65536 -> ksorted (page_keys true p) ->
  leaf_entries p = l1 ++ l2 -> Forall (fun e => klt (fst e) k) l1 -> Forall (fun e => klt k (fst e)) l2 ->
  page_search p k = Ok (false, N.of_nat (length l1)).
Proof.
  intros W Hk S E F1 F2. rewrite (page_search_at true p k (map fst l1) (map fst l2)); auto.
  - rewrite map_length. reflexivity.
  - rewrite <- leaf_entries_keys, E, map_app. reflexivity.
  - rewrite Forall_map. auto.
  - rewrite Forall_map. auto.
Qed.

Lemma leaf_delete_ok p k v l1 l2 : wf_page true p -> leaf_entries p = l1 ++ (k, v) :: l2 ->
  exists p', page_delete p (N.of_nat (length l1)) = Ok p' /\ wf_page true p' /\ leaf_entries p' = l1 ++ l2 /\
    pg_pgno p' = pg_pgno p /\ page_free p' = page_free p + leaf_size k v + 2.
Proof.
  intros W E. destruct (page_delete_leaf_correct p (N.of_nat (length l1)) W) as [[H _]|(p' & k' & v' & E1 & W' & Hn & E2 & P & F)].
  - exfalso. pose proof (leaf_entries_length p) as L. rewrite E, app_length in L. cbn [length] in L. lia.
  - rewrite Nat2N.id, E in *. rewrite nth_error_mid in Hn. injection Hn as <- <-. rewrite remove_at_mid in E2. eauto 10.
Qed.

Lemma leaf_insert_cases p k v l1 l2 : wf_page true p -> leaf_size k v < 65536 -> leaf_entries p = l1 ++ l2 ->
  (page_free p < leaf_size k v + 2 /\ page_insert p (N.of_nat (length l1)) k (Some v) 0 = Err ENOSPC) \/
  (leaf_size k v + 2 <= page_free p /\
   exists p', page_insert p (N.of_nat (length l1)) k (Some v) 0 = Ok p' /\ wf_page true p' /\
     leaf_entries p' = l1 ++ (k, v) :: l2 /\ pg_pgno p' = pg_pgno p /\
     page_free p' = page_free p - (leaf_size k v + 2)).
Proof.
  intros W Hs E. pose proof (leaf_entries_length p) as L. rewrite E, app_length in L.
  destruct (page_insert_leaf_correct p (N.of_nat (length l1)) k v 0 W ltac:(lia) Hs) as [H|(H & p' & E1 & W' & E2 & P & F)]; [left; auto|right].
  split; auto. exists p'. splits; auto. rewrite Nat2N.id, E, insert_at_mid in E2. exact E2.
Qed.

Lemma leaf_size_key k v : leaf_size k v < 65536 -> blen k < 65536.
Proof. unfold leaf_size. lia. Qed.

(** ** del *)
Lemma txn_holds_sorted b h E t kvs : txn_holds b h E t kvs -> ksorted (map fst kvs).
Proof.
  intros (_ & [[_ ->]|(h' & _ & _ & T & _ & _ & <-)]); [constructor|]. apply (tree_content b) in T. tauto.
Qed.

(** dirty pages after CoW of a path and a change of its leaf *)
Lemma db_del_ok b h E t kvs k data : blen k < 65536 -> (h < 32)%nat -> txn_holds b h E t kvs ->
  match lookup k kvs with
  | None => db_del E t k data = Fail NOTFOUND t
  | Some _ => exists t' kvs', db_del E t k data = Ret tt t' /\ same_ctl t t' /\ txn_holds b h E t' kvs' /\
      (forall k', lookup k' kvs' = if key_dec k' k then None else lookup k' kvs) /\
      exists h', (h' <= h)%nat /\ tree b (get_page E t) h' (t_root t) None None /\
        tree b (get_page E t') h' (t_root t) None None /\ tree_kvs (get_page E t') h' (t_root t) = kvs' /\
        tree_pages (get_page E t') h' (t_root t) = tree_pages (get_page E t) h' (t_root t) /\
        (forall q, ~ In q (tree_pages (get_page E t) h' (t_root t)) -> get_page E t' q = get_page E t q)
  end.
Proof.
  intros Hk Hh HT. pose proof (txn_holds_sorted _ _ _ _ _ HT) as SK.
  destruct HT as (Hr & [[R0 ->]|(h' & Hh' & Hnz & T & ND & PG & EK)]); unfold db_del; rewrite Hr.
  { rewrite R0. reflexivity. }
  destruct (N.eqb_spec (t_root t) 0) as [|_]; [tauto|].
  set (V := get_page E t) in *.
  assert (Hm : forall q, In q (tree_pages V h' (t_root t)) -> q <= max_pgno E t).
  { unfold max_pgno. rewrite Hr. rewrite Forall_forall in PG. intros q Hq. apply PG in Hq. lia. }
  destruct (find_path_ok b E t k Hk h' MAX_TREE_DEPTH (t_root t) None None ltac:(unfold MAX_TREE_DEPTH; lia) Hm T) as (path & -> & R).
  fold V in R. fold V. cbn [lift bindo].
  destruct (route_leaf_tree _ _ _ _ _ _ _ _ R T) as (Pl & Wl & Sl). set (lpg := leaf_of path) in *.
  destruct (route_update b V V k h' (t_root t) path None None R T ND) as (_ & _ & l1 & l2 & EK1 & _ & G1 & G2 & _ & _); auto.
  fold lpg in EK1. rewrite EK in EK1.
  pose proof Sl as Sl'. rewrite <- leaf_entries_keys in Sl'.
  destruct (entries_split k (leaf_entries (V lpg)) Sl') as [(e1 & v & e2 & EE & F1 & F2)|(e1 & e2 & EE & F1 & F2)].
  - assert (HL : lookup k kvs = Some v).
    { rewrite EK1, EE, <- app_assoc, app_assoc. cbn [app]. apply lookup_mid. rewrite map_app, in_app_iff.
      rewrite <- (lookup_in_iff k l1), <- (lookup_in_iff k e1), (lookup_below k l1), (lookup_below k e1) by auto. tauto. }
    rewrite HL. rewrite (leaf_search_found _ k v e1 e2) by auto. cbn [bindo].
    destruct (cow_path_ok E (rev path) t Hr) as (t3 & -> & C3 & V3 & D3 & _ & _).
    { intros q Hq. apply in_rev in Hq. eapply tree_page_pgno; eauto. eapply route_pages; eauto. }
    cbn [bindo].
    assert (Hin : In lpg (rev path)).
    { apply in_rev. rewrite rev_involutive. apply last_In. eapply route_nonempty; eauto. }
    rewrite (D3 _ Hin). fold V.
    destruct (leaf_delete_ok _ k v e1 e2 Wl EE) as (p' & -> & W' & E' & P' & _). cbn [lift bindo].
    assert (Hr3 : t_rdonly t3 = false) by (destruct C3; congruence).
    set (t4 := put_dirty t3 lpg p').
    assert (V4 : forall q, get_page E t4 q = if lpg =? q then p' else V q).
    { intro q. unfold t4. rewrite get_put by auto. rewrite V3. reflexivity. }
    destruct (route_update b V (get_page E t4) k h' (t_root t) path None None R T ND) as (T4 & P4 & m1 & m2 & EM1 & EM2 & M1 & M2 & _ & _);
      fold lpg; try (rewrite V4, N.eqb_refl).
    + intros q Hq Hne. rewrite V4. destruct (N.eqb_spec lpg q); congruence.
    + congruence.
    + auto.
    + rewrite <- leaf_entries_keys, E'. eapply sorted_drop. rewrite EE in Sl'. exact Sl'.
    + intros x Hx. left. rewrite <- leaf_entries_keys in *. rewrite E' in Hx. rewrite EE.
      rewrite map_app, in_app_iff in *. cbn. tauto.
    + exists t4, (tree_kvs (get_page E t4) h' (t_root t)).
      assert (C4 : same_ctl t t4) by (eapply same_ctl_trans; [exact C3|apply same_ctl_put]).
      splits; auto.
      * destruct C4 as (C41 & _ & C43 & _ & C45). unfold txn_holds. split; [congruence|right]. exists h'.
        rewrite C43, C45. splits; auto; rewrite P4; auto.
      * intro k'. rewrite EM2. fold lpg. rewrite V4, N.eqb_refl, E'.
        rewrite EK in EM1. fold lpg in EM1. rewrite EM1, EE.
        replace (m1 ++ (e1 ++ e2) ++ m2) with ((m1 ++ e1) ++ (e2 ++ m2)) by (rewrite !app_assoc; reflexivity).
        replace (m1 ++ (e1 ++ (k, v) :: e2) ++ m2) with ((m1 ++ e1) ++ (k, v) :: (e2 ++ m2)) by (rewrite <- !app_assoc; reflexivity).
        destruct (key_dec k' k) as [->|Hne].
        -- rewrite !lookup_app, (lookup_below k m1), (lookup_below k e1), (lookup_above k e2), (lookup_above k m2) by auto. reflexivity.
        -- symmetry. apply lookup_other. auto.
      * exists h'. fold V. splits; auto. intros q Hq. rewrite V4. destruct (N.eqb_spec lpg q) as [<-|]; auto.
        exfalso. apply Hq. eapply route_pages; eauto. apply in_rev. exact Hin.
  - assert (HL : lookup k kvs = None).
    { rewrite EK1, EE, !lookup_app, (lookup_below k l1), (lookup_below k e1), (lookup_above k e2), (lookup_above k l2) by auto. reflexivity. }
    rewrite HL. rewrite (leaf_search_absent _ k e1 e2) by auto. reflexivity.
Qed.
