(** Property C149: sorted pairs may be loaded in several transactions. *)
From Verif Require Import Util PageModel PageSpec PageProofs PageOps TxnModel CursorModel TreeModel TreeSpec PropPage TreeProofs TreeOps TreeSplit TreePut TreeShape TreeOrder TxnInv DbModel SysModel DbSpec DbProofs CursorSpec CursorProofs DbCommit PropTree PropCursor PropCommit PropReuse TreeTotal PropOrder PropTotal PropLoad PropMany.
From Coq Require Import Sorting.Sorted.
Local Open Scope N_scope.

(** ** Pages and their children *)
(** [c] is a child of the branch [q] of the tree below [pg] *)
Definition kid (V : view) (h : nat) (pg q c : N) : Prop :=
  In q (tree_pages V h pg) /\ wf_page false (V q) /\ In c (map snd (branch_entries (V q))).

Lemma root_in V h pg : In pg (tree_pages V h pg). Proof. destruct h; cbn; auto. Qed.
Lemma not_both p : wf_page true p -> wf_page false p -> False.
Proof. intros A B. pose proof (wf_is_leaf _ _ A). pose proof (wf_is_leaf _ _ B). congruence. Qed.

Lemma kid_in b V : forall h pg lo hi q c, tree b V h pg lo hi -> kid V h pg q c -> In c (tl (tree_pages V h pg)).
Proof.
  induction h as [|h IH]; intros pg lo hi q c T (A & W & B); cbn [tree tree_pages tl] in *.
  - destruct A as [<-|[]]. exfalso. eapply not_both; [|exact W]. tauto.
  - destruct T as (_ & _ & K & _). destruct A as [<-|A].
    + apply in_map_iff in B. destruct B as (e & <- & He). apply in_flat_map. exists e. split; auto. apply root_in.
    + apply in_flat_map in A. destruct A as ([ki x] & He & A). apply in_flat_map. exists (ki, x). split; auto.
      apply in_split in He. destruct He as (pre & post & He). rewrite He in K. apply kids_mid in K. cbn [snd] in *.
      specialize (IH x _ _ q c K (conj A (conj W B))). destruct (tree_pages V h x); [destruct IH|]. right. exact IH.
Qed.
Lemma kid_page b V h pg lo hi q c : tree b V h pg lo hi -> kid V h pg q c -> In c (tree_pages V h pg).
Proof. intros T K. apply (kid_in _ _ _ _ _ _ _ _ T) in K. destruct (tree_pages V h pg); [destruct K|right; exact K]. Qed.
Lemma kid_sub V h pg e q c : In e (branch_entries (V pg)) -> kid V h (snd e) q c -> kid V (S h) pg q c.
Proof. intros He (A & B). split; auto. cbn [tree_pages]. right. apply in_flat_map. eauto. Qed.

(** the parent of a page on a way lies on that way *)
Lemma route_parent b V k : forall h pg path lo hi q c, route V k h pg path -> tree b V h pg lo hi -> NoDup (tree_pages V h pg) ->
  kid V h pg q c -> In c path -> In q path.
Proof.
  induction h as [|h IH]; intros pg path lo hi q c R T ND K Hc.
  - exfalso. destruct K as (A & W & _). cbn [tree tree_pages] in *. destruct A as [<-|[]]. eapply not_both; [|exact W]. tauto.
  - pose proof (kid_in _ _ _ _ _ _ _ _ T K) as KI. inversion R as [|h0 pg0 pre ki x post path0 Ebr Hp Ho Rc]; subst.
    destruct (NoDup_kids _ _ _ _ _ _ _ ND Ebr) as (N1 & N2 & N3 & N4). destruct K as (A & W & B). cbn [tree_pages] in A. destruct A as [->|A]; [now left|].
    right. assert (Cn : c <> pg).
    { intros ->. cbn [tree_pages tl] in KI, ND. inversion ND; subst. tauto. }
    destruct Hc as [Hc|Hc]; [congruence|]. cbn [tree] in T. destruct T as (_ & _ & KK & _).
    apply in_flat_map in A. destruct A as ([k' x'] & He & A). cbn [snd] in A. rewrite Ebr in He, KK.
    pose proof (route_pages _ _ _ _ _ Rc c Hc) as Hx. apply in_app_iff in He. destruct He as [He|[He|He]].
    + exfalso. pose proof KK as K2. apply in_split in He. destruct He as (p1 & p2 & ->). rewrite <- app_assoc in K2. cbn [app] in K2. apply kids_mid in K2.
      apply (N3 k' x' c); [rewrite <- app_assoc; apply in_app_iff; cbn; auto| |exact Hx]. eapply kid_page; [exact K2|]. split; [exact A|]. auto.
    + injection He as <- <-. apply kids_mid in KK. eapply IH; [exact Rc|exact KK|exact N1| |exact Hc]. split; auto.
    + exfalso. pose proof KK as K2. apply in_split in He. destruct He as (p1 & p2 & ->).
      replace (pre ++ (ki, x) :: p1 ++ (k', x') :: p2) with ((pre ++ (ki, x) :: p1) ++ (k', x') :: p2) in K2 by (rewrite <- app_assoc; reflexivity). apply kids_mid in K2.
      apply (N3 k' x' c); [apply in_app_iff; right; apply in_app_iff; cbn; auto| |exact Hx]. eapply kid_page; [exact K2|]. split; [exact A|]. auto.
Qed.
(** what holds for the last page of a way and goes over to the parent holds for the whole way *)
Lemma route_up b V k (D : N -> Prop) : forall h pg path lo hi, route V k h pg path -> tree b V h pg lo hi ->
  (forall q c, kid V h pg q c -> D c -> D q) -> D (leaf_of path) -> forall q, In q path -> D q.
Proof.
  induction h as [|h IH]; intros pg path lo hi R T U L; inversion R as [|h0 pg0 pre ki x post path0 Ebr Hp Ho Rc]; subst.
  - intros q [<-|[]]. exact L.
  - rewrite leaf_of_cons in L by (eapply route_nonempty; eauto). cbn [tree] in T. destruct T as (_ & W & K & _). rewrite Ebr in K. apply kids_mid in K.
    assert (He : In (ki, x) (branch_entries (V pg))) by (rewrite Ebr; apply in_app_iff; cbn; auto).
    assert (G : forall q, In q path0 -> D q).
    { apply (IH x path0 _ _ Rc K); auto. intros q c Kc. apply U. eapply (kid_sub V h pg (ki, x)); eauto. }
    intros q [<-|Hq]; [|auto]. apply (U pg x); [|apply G; rewrite <- (route_hd _ _ _ _ _ Rc); pose proof (route_nonempty _ _ _ _ _ Rc); destruct path0; [congruence|now left]].
    split; [apply root_in|]. split; [exact W|]. apply in_map_iff. exists (ki, x). auto.
Qed.
Lemma leaf_content b V : forall h pg lo hi q e, tree b V h pg lo hi -> In q (tree_pages V h pg) -> wf_page true (V q) ->
  In e (leaf_entries (V q)) -> In e (tree_kvs V h pg).
Proof.
  induction h as [|h IH]; intros pg lo hi q e T Hq W He; cbn [tree tree_pages tree_kvs] in *.
  - destruct Hq as [<-|[]]. exact He.
  - destruct T as (_ & W' & K & _). destruct Hq as [<-|Hq]; [exfalso; eapply not_both; eauto|]. apply in_flat_map in Hq. destruct Hq as ([ki x] & Hi & Hq).
    apply in_flat_map. exists (ki, x). split; auto. apply in_split in Hi. destruct Hi as (pre & post & Hi). rewrite Hi in K. apply kids_mid in K. cbn [snd] in *. eauto.
Qed.
Lemma route_len V k : forall h pg path, route V k h pg path -> length path = S h.
Proof. induction 1; cbn [length]; auto. Qed.
Lemma bushy_route V k : forall h pg path, route V k h pg path -> bushy V h pg -> leaf_entries (V (leaf_of path)) <> [].
Proof.
  induction 1 as [pg|h pg pre ki c post path Ebr Hp Ho Rc IH]; intro B; cbn [bushy] in B; [exact B|].
  rewrite leaf_of_cons by (eapply route_nonempty; eauto). apply IH. destruct B as (_ & B). rewrite Forall_forall in B. apply (B (ki, c)). rewrite Ebr. apply in_app_iff. cbn. auto.
Qed.

(** ** What a put makes dirty and what it frees *)
Section Effect.
Variable E : env.
Definition dirty (t : txn) (q : N) : Prop := dget (t_dirty t) q <> None.

Lemma cow_page_freed t pg x t' : cow_page E t pg = Ret x t' -> exists fr, t_freed t' = t_freed t ++ fr /\ (length fr <= 1)%nat.
Proof.
  unfold cow_page, get_writable. destruct (dget (t_dirty t) pg); [intros [= <- <-]; exists []; rewrite app_nil_r; cbn; auto|].
  destruct (t_rdonly t); [discriminate|]. cbv zeta. destruct (dget (t_dirty t) _).
  - intros [= <- <-]. exists []. rewrite app_nil_r. cbn. auto.
  - intros [= <- <-]. cbn [set_freed t_freed]. eexists. split; [reflexivity|]. cbn. auto.
Qed.
Lemma cow_path_freed : forall l t t', cow_path E t l = Ret tt t' -> exists fr, t_freed t' = t_freed t ++ fr /\ (length fr <= length l)%nat.
Proof.
  induction l as [|pg l IH]; intros t t' H; cbn [cow_path length] in *; [injection H as <-; exists []; rewrite app_nil_r; auto|].
  destruct (cow_page E t pg) as [x t1|e t1| |] eqn:C; cbn [bindo] in H; try discriminate.
  destruct (cow_page_freed _ _ _ _ C) as (f1 & A1 & B1). destruct (IH _ _ H) as (f2 & A2 & B2).
  exists (f1 ++ f2). rewrite A2, A1, app_assoc, app_length. split; [reflexivity|lia].
Qed.

Lemma finish_fresh t3 path lkey i p0 k v : quiet t3 -> dget (t_dirty t3) lkey <> None -> fout t3 (finish page_alloc E t3 path lkey i p0 k v).
Proof.
  intros Q3 D. unfold finish. destruct (page_insert p0 i k (Some v) 0) as [p2|e| |]; try exact I; [apply fresh_put; exact D|].
  destruct e; try exact I. apply bind_fout.
  - unfold leaf_split. apply bind_fout; [apply split_node_fout; exact Q3|]. intros [[[rpg l] r] d] t1 S1 F1. pose proof (quiet_fresh _ _ Q3 F1) as Q1.
    destruct (split_node_dirty _ _ _ _ _ _ _ _ _ S1) as (Dl & Dr). apply bind_fout; [apply insert_split_fout; auto|]. intros _ t2 _ F2. pose proof (quiet_fresh _ _ Q1 F2) as Q2.
    apply bind_fout; [apply propagate_fout; exact Q2|]. intros [[d' rpg']|] t4 _ F3; [|apply fresh_refl].
    apply bind_fout; [apply root_split_fout; eauto using quiet_fresh|]. intros new t5 _ _. apply fresh_refl.
  - intros [new|] t5 _ _; [apply fresh_root|apply fresh_refl].
Qed.

Lemma append_effect t k v h t' : blen k < 65536 -> quiet t -> t_root t <> 0 ->
  tree true (get_page E t) h (t_root t) None None -> NoDup (tree_pages (get_page E t) h (t_root t)) ->
  Forall (fun q => 2 <= q <= t_last t) (tree_pages (get_page E t) h (t_root t)) -> (h < 32)%nat ->
  Forall (fun e => klt (fst e) k) (tree_kvs (get_page E t) h (t_root t)) -> db_put E t k v = Ret tt t' ->
  exists path, route (get_page E t) k h (t_root t) path /\ later t t' /\
    (forall q, In q path -> dirty t' q) /\ (forall q, dirty t' q -> dirty t q \/ In q path \/ t_last t < q) /\
    (forall q, t_last t < q <= t_last t' -> dirty t' q) /\
    exists fr, t_freed t' = t_freed t ++ fr /\ (length fr <= 32)%nat /\ ((forall q, In q path -> dirty t q) -> fr = []).
Proof.
  intros Hk (Hf & Hr) Hnz T ND PG Hh HB HP. set (V := get_page E t) in *.
  assert (Hm : forall q, In q (tree_pages V h (t_root t)) -> q <= max_pgno E t).
  { unfold max_pgno. rewrite Hr. rewrite Forall_forall in PG. intros q Hq. apply PG in Hq. lia. }
  destruct (find_path_ok true E t k Hk h MAX_TREE_DEPTH (t_root t) None None ltac:(unfold MAX_TREE_DEPTH; lia) Hm T) as (path & EP & R).
  fold V in EP, R. destruct (route_leaf_tree _ _ _ _ _ _ _ _ R T) as (Pl & Wl & Sl). set (lpg := leaf_of path) in *.
  destruct (cow_path_ok E (rev path) t Hr) as (t3 & EC & C3 & V3 & D3 & K3 & O3).
  { intros q Hq. apply in_rev in Hq. eapply tree_page_pgno; eauto. eapply route_pages; eauto. }
  assert (Hin : In lpg (rev path)) by (apply -> in_rev; apply last_In; eapply route_nonempty; eauto).
  assert (Hlk : leaf_key E t lpg = lpg).
  { unfold leaf_key. destruct (dget (t_dirty t) lpg) eqn:D; auto. unfold V, get_page in Pl. rewrite Hr, D in Pl. exact Pl. }
  assert (HBl : Forall (fun e => klt (fst e) k) (leaf_entries (V lpg))).
  { destruct (route_update true V V k h (t_root t) path None None R T ND) as (_ & _ & m1 & m2 & EM1 & _); auto.
    rewrite EM1, !Forall_app in HB. apply HB. }
  assert (SR : page_search (V lpg) k = Ok (false, pg_nkeys (V lpg))).
  { rewrite (page_search_at true (V lpg) k (page_keys true (V lpg)) []); auto.
    - rewrite page_keys_length, N2Nat.id. reflexivity.
    - rewrite app_nil_r. reflexivity.
    - rewrite <- leaf_entries_keys, Forall_map. exact HBl. }
  assert (EQ : db_put E t k v = finish page_alloc E t3 path lpg (pg_nkeys (V lpg)) (V lpg) k v).
  { unfold db_put, db_put_with. rewrite Hr. destruct (N.eqb_spec (t_root t) 0) as [|_]; [tauto|].
    rewrite EP. cbn [lift bindo]. fold lpg. rewrite SR. cbn [lift bindo andb]. rewrite Hlk, EC. cbn [bindo]. rewrite (D3 _ Hin). reflexivity. }
  pose proof C3 as (C1 & C2 & C4 & C5 & C6). assert (Q3 : quiet t3) by (split; congruence).
  assert (D3l : dget (t_dirty t3) lpg <> None) by (rewrite (D3 _ Hin); discriminate).
  pose proof (finish_fresh t3 path lpg (pg_nkeys (V lpg)) (V lpg) k v Q3 D3l) as FO. rewrite <- EQ, HP in FO. cbn [fout] in FO.
  destruct FO as (LA & FE & NW & OD). exists path. split; [exact R|].
  assert (L3 : later t t3) by (pose proof (cow_path_lout E (rev path) t) as X; rewrite EC in X; exact X).
  split; [eapply later_trans; eauto|]. splits.
  - intros q Hq. apply (la_dirty _ _ LA). rewrite (D3 q) by (apply -> in_rev; exact Hq). discriminate.
  - intros q Hq. destruct (OD q Hq) as [X|X]; [|right; right; rewrite <- C6; exact X]. destruct (O3 q X) as [Y|Y]; [left; exact Y|right; left; apply in_rev; exact Y].
  - intros q Hq. apply NW. rewrite C6. exact Hq.
  - destruct (cow_path_freed (rev path) t t3 EC) as (fr & A & B). exists fr. rewrite FE. split; [exact A|]. split.
    + rewrite rev_length, (route_len _ _ _ _ _ R) in B. lia.
    + intros AD. rewrite (cow_path_dirty E (rev path) t) in EC by (intros q Hq; apply AD; apply in_rev; exact Hq). injection EC as <-.
      rewrite <- (app_nil_r (t_freed t)) in A at 1. apply app_inv_head in A. auto.
Qed.
End Effect.

(** ** Puts behind the last key *)
Section Append.
Variables (ka kb sa sb : N).
Hypothesis SP : forall leaf, spread (low ka (4 + sa) leaf) (high kb (4 + sb) leaf).
Hypothesis KB : kb <= 1007.
Hypothesis SS : 4 + sb <= 2037.
Variable E : env.
Let Q (t : txn) : Prop := t_free_root t = 0.
Definition closed (t : txn) : Prop := forall h, tree true (get_page E t) h (t_root t) None None ->
  forall q c, kid (get_page E t) h (t_root t) q c -> dirty t c -> dirty t q.
(** every page on the way of a key behind all others is dirty *)
Definition primed (t : txn) (kvs : list (bytes * bytes)) : Prop := forall h k path, tree true (get_page E t) h (t_root t) None None ->
  Forall (fun e => klt (fst e) k) kvs -> route (get_page E t) k h (t_root t) path -> forall q, In q path -> dirty t q.
Definition stands (t : txn) (kvs : list (bytes * bytes)) : Prop :=
  quiet t /\ t_root t <> 0 /\ grown E (fun _ => False) t kvs /\ laden ka kb (4 + sa) (4 + sb) E t /\ closed t /\ forall q, dirty t q -> 2 <= q.

Lemma grown_any F F' t kvs h : sound E F h t kvs -> (forall q, In q (tree_pages (get_page E t) h (t_root t)) -> ~ F' q) -> sound E F' h t kvs.
Proof. intros (A & B & C & D & G & H) X. unfold sound. split; [exact A|]. split; [exact B|]. split; [exact C|]. split; [exact D|]. split; [|exact H]. intros q Hq. split; [apply G; exact Hq|auto]. Qed.

Lemma append_step t kvs k v : stands t kvs -> 1 <= t_last t -> t_last t + 40 < 2 ^ 64 -> N.of_nat (length kvs) < 2 ^ 32 ->
  keyed ka kb k -> 4 + sa <= leaf_size k v <= 4 + sb -> Forall (fun e => klt (fst e) k) kvs ->
  exists t' fr, db_put E t k v = Ret tt t' /\ stands t' (kvs ++ [(k, v)]) /\ primed t' (kvs ++ [(k, v)]) /\
    t_last t <= t_last t' <= t_last t + 40 /\ t_id t' = t_id t /\ t_freed t' = t_freed t ++ fr /\ (length fr <= 32)%nat /\ (primed t kvs -> fr = []) /\
    (exists q, dirty t' q) /\ forall q, dirty t q -> dirty t' q.
Proof.
  intros (HQ & Hnz & G & LD & CL & DB) H1 Hl Hc Kk Ks HB. pose proof HQ as (Hf & Hr).
  assert (Hk : blen k < 65536) by (destruct Kk; lia). assert (Hs : leaf_size k v <= 2037) by lia.
  destruct (put_total ka kb (4 + sa) (4 + sb) SP KB E (fun _ => False) (fun t => t_free_root t = 0) (Q_alloc0 E) (Q_stable0 E) SS t kvs k v G LD Hf
    ltac:(intros q []) H1 Hl Hc Kk Ks HB) as (t' & EP & LD').
  destruct G as (_ & [[X _]|(h & Hh & SD & G)]); [congruence|].
  pose proof SD as (_ & _ & T & ND & PG & EK).
  assert (Hd : (h < 32)%nat).
  { destruct LD as [|(h' & GD)]; [congruence|]. assert (h' = h) as -> by (symmetry; eapply stout_height; [exact T|apply GD]).
    destruct (le_lt_dec 32 h) as [X|]; auto. exfalso. pose proof (bushy_count _ _ _ (proj2 GD)) as BC. rewrite EK in BC.
    assert (Y : (2 ^ 32 <= 2 ^ h)%nat) by (apply Nat.pow_le_mono_r; lia).
    assert (Z : N.of_nat (2 ^ 32) <= N.of_nat (length kvs)) by lia. rewrite Nat2N.inj_pow in Z. change (N.of_nat 2 ^ N.of_nat 32) with (2 ^ 32) in Z. lia. }
  set (V := get_page E t) in *. set (F := fun q => q <= t_last t /\ ~ In q (tree_pages V h (t_root t))).
  assert (GF : grown E F t kvs).
  { split; [exact Hr|]. right. exists h. splits; auto. eapply grown_any; [exact SD|]. intros q Hq (_ & X). exact (X Hq). }
  pose proof (put_grown E F (fun t => t_free_root t = 0) (fun t0 A B => Q_alloc0 E t0 A B)) as PF.
  specialize (PF ltac:(intros; congruence) t kvs k v GF Hf ltac:(intros q (X & _); exact X) H1 Hl Hs HB). rewrite EP in PF.
  destruct PF as (G' & (A1 & A2 & A3 & A4 & A5) & Q').
  destruct (append_effect E t k v h t' Hk HQ Hnz T ND) as (path & R & LA & PD & OD & NW & fr & FR & FL & FN); auto.
  { rewrite Forall_forall. intros q Hq. apply PG. exact Hq. } { fold V. rewrite EK. exact HB. }
  assert (Hr' : t_rdonly t' = false) by apply G'. assert (HQ' : quiet t') by (split; [exact Q'|exact Hr']).
  assert (Hnz' : t_root t' <> 0).
  { destruct G' as (_ & [[_ X]|(h' & _ & (_ & X & _) & _)]); [destruct kvs; discriminate|exact X]. }
  destruct G' as (_ & [[X _]|(h' & Hh' & SD' & FT')]); [congruence|]. pose proof SD' as (_ & _ & T' & ND' & PG' & EK').
  set (V' := get_page E t') in *.
  (* a page of the new tree that is not dirty is a page of the old tree *)
  assert (OLD : forall q, In q (tree_pages V' h' (t_root t')) -> ~ dirty t' q -> In q (tree_pages V h (t_root t)) /\ V' q = V q /\ ~ dirty t q).
  { intros q Hq ND1. destruct (PG' q Hq) as (B1 & B2). assert (Le : q <= t_last t) by (destruct (N.le_gt_cases q (t_last t)); auto; exfalso; apply ND1; apply NW; lia).
    assert (ND2 : ~ dirty t q) by (intro X; apply ND1; apply (la_dirty _ _ LA); exact X). splits; auto.
    - destruct (in_dec N.eq_dec q (tree_pages V h (t_root t))); auto. exfalso. apply B2. split; auto.
    - unfold V', V, get_page. rewrite Hr, Hr'. unfold dirty in *. destruct (dget (t_dirty t') q); [exfalso; apply ND1; discriminate|].
      destruct (dget (t_dirty t) q); [exfalso; apply ND2; discriminate|reflexivity]. }
  assert (DEC : forall q, dirty t' q \/ ~ dirty t' q) by (intro q; unfold dirty; destruct (dget (t_dirty t') q); [left; discriminate|right; congruence]).
  assert (CL' : closed t').
  { intros h2 T2 q c K Dc. assert (h2 = h') as ->.
    { destruct LD' as [|(h3 & GD)]; [congruence|]. transitivity h3; [|symmetry]; eapply stout_height; try apply GD; eassumption. }
    fold V' in K. destruct (DEC q) as [|Nq]; auto. exfalso. pose proof K as (K1 & K2 & K3). destruct (OLD q K1 Nq) as (I1 & I2 & I3).
    rewrite I2 in K2, K3. assert (KO : kid V h (t_root t) q c) by (split; auto).
    pose proof (kid_page _ _ _ _ _ _ _ _ T KO) as Ic. destruct (OD c Dc) as [X|[X|X]].
    - apply I3. eapply CL; eauto.
    - apply Nq. apply PD. eapply route_parent; eauto.
    - apply PG in Ic. lia. }
  assert (ST : stands t' (kvs ++ [(k, v)])).
  { unfold stands. split; [exact HQ'|]. split; [exact Hnz'|]. split; [|split; [exact LD'|split; [exact CL'|]]].
    { split; [exact Hr'|]. right. exists h'. splits; auto. eapply grown_any; [exact SD'|]; auto. }
    intros q Hq. destruct (OD q Hq) as [X|[X|X]]; [auto| |lia]. apply (route_pages _ _ _ _ _ R) in X. apply PG in X. lia. }
  exists t', fr. splits; auto; try lia.
  - intros h2 k2 path2 T2 B2 R2. fold V' in T2, R2. assert (h2 = h') as ->.
    { destruct LD' as [|(h3 & GD)]; [congruence|]. transitivity h3; [|symmetry]; eapply stout_height; try apply GD; eassumption. }
    apply (route_up true V' k2 (dirty t') h' (t_root t') path2 None None R2 T').
    + intros q c. apply CL'. exact T2.
    + destruct (DEC (leaf_of path2)) as [|Nq]; auto. exfalso.
      destruct (route_leaf_tree _ _ _ _ _ _ _ _ R2 T') as (Pl & Wl & Sl).
      destruct (OLD _ (route_leaf_in _ _ _ _ _ R2) Nq) as (I1 & I2 & I3).
      destruct (route_update true V' V' k2 h' (t_root t') path2 None None R2 T' ND') as (_ & _ & m1 & m2 & EM1 & _ & M1 & M2 & _); auto.
      rewrite EK' in EM1. assert (m2 = []) as ->.
      { destruct m2 as [|e m2]; auto. exfalso. rewrite EM1, !Forall_app in B2. destruct B2 as (_ & _ & B2). apply Forall_inv in B2. apply Forall_inv in M2.
        exact (klt_irrefl _ (klt_trans _ _ _ B2 M2)). }
      rewrite app_nil_r in EM1. destruct LD' as [|(h3 & GD)]; [congruence|].
      assert (h3 = h') as -> by (symmetry; eapply stout_height; [exact T'|apply GD]).
      pose proof (bushy_route _ _ _ _ _ R2 (proj2 GD)) as NE. fold V' in NE.
      assert (IL : In (k, v) (leaf_entries (V' (leaf_of path2)))).
      { destruct (leaf_entries (V' (leaf_of path2))) as [|e es] using rev_ind; [congruence|]. rewrite app_assoc in EM1. apply last_eq in EM1. destruct EM1 as (_ & <-).
        apply in_app_iff. cbn. auto. }
      rewrite I2 in IL, Wl. pose proof (leaf_content _ _ _ _ _ _ _ _ T I1 Wl IL) as X. rewrite EK in X. rewrite Forall_forall in HB. exact (klt_irrefl _ (HB _ X)).
  - intro PR. apply FN. intros q Hq. eapply PR; eauto.
  - pose proof (route_nonempty _ _ _ _ _ R) as NE. destruct path as [|q path]; [congruence|]. exists q. apply PD. now left.
  - intros q Hq. apply (la_dirty _ _ LA). exact Hq.
Qed.

Lemma append_all : forall l t kvs, stands t kvs -> primed t kvs -> 1 <= t_last t ->
  t_last t + 40 * (1 + N.of_nat (length l)) < 2 ^ 64 -> N.of_nat (length (kvs ++ l)) < 2 ^ 32 ->
  Forall (fun e => keyed ka kb (fst e) /\ 4 + sa <= leaf_size (fst e) (snd e) <= 4 + sb) l -> ksorted (map fst (kvs ++ l)) ->
  exists t', do_ops E t (puts l) = Ret tt t' /\ stands t' (kvs ++ l) /\ primed t' (kvs ++ l) /\ t_freed t' = t_freed t /\
    t_last t <= t_last t' <= t_last t + 40 * N.of_nat (length l) /\ t_id t' = t_id t /\ forall q, dirty t q -> dirty t' q.
Proof.
  induction l as [|[k v] l IH]; intros t kvs ST PR H1 Hl Hc Hs S.
  { cbn [puts map do_ops length]. rewrite app_nil_r. exists t. splits; auto; lia. }
  assert (HB : Forall (fun e => klt (fst e) k) kvs).
  { rewrite map_app in S. apply sorted_app in S. destruct S as (_ & _ & S). rewrite Forall_forall. intros e He. apply S; [apply in_map; auto|cbn; auto]. }
  pose proof (Forall_inv Hs) as (Kk & Ks). cbn [fst snd length] in *.
  destruct (append_step t kvs k v ST H1 ltac:(lia)) as (t1 & fr & E1 & ST1 & PR1 & L1 & I1 & FR & _ & FN & _ & DM); auto.
  { rewrite app_length in Hc. lia. }
  replace (kvs ++ (k, v) :: l) with ((kvs ++ [(k, v)]) ++ l) in * by (rewrite <- app_assoc; reflexivity).
  destruct (IH t1 (kvs ++ [(k, v)]) ST1 PR1 ltac:(lia) ltac:(lia) Hc (Forall_inv_tail Hs) S) as (t' & B1 & B2 & B3 & B4 & B5 & B6 & B7).
  exists t'. split; [cbn [puts map do_ops do_op fst snd]; rewrite E1; exact B1|]. rewrite (FN PR), app_nil_r in FR. splits; auto; try lia; congruence.
Qed.

Lemma append_most l t kvs : stands t kvs -> 1 <= t_last t ->
  t_last t + 40 * (1 + N.of_nat (length l)) < 2 ^ 64 -> N.of_nat (length (kvs ++ l)) < 2 ^ 32 ->
  Forall (fun e => keyed ka kb (fst e) /\ 4 + sa <= leaf_size (fst e) (snd e) <= 4 + sb) l -> ksorted (map fst (kvs ++ l)) ->
  exists t' fr, do_ops E t (puts l) = Ret tt t' /\ stands t' (kvs ++ l) /\ t_freed t' = t_freed t ++ fr /\ (length fr <= 32)%nat /\
    t_last t <= t_last t' <= t_last t + 40 * N.of_nat (length l) /\ t_id t' = t_id t /\ (l <> [] -> exists q, dirty t' q).
Proof.
  destruct l as [|[k v] l]; intros ST H1 Hl Hc Hs S.
  { cbn [puts map do_ops length]. exists t, []. rewrite !app_nil_r. cbn [length]. splits; auto; try lia; congruence. }
  assert (HB : Forall (fun e => klt (fst e) k) kvs).
  { rewrite map_app in S. apply sorted_app in S. destruct S as (_ & _ & S). rewrite Forall_forall. intros e He. apply S; [apply in_map; auto|cbn; auto]. }
  pose proof (Forall_inv Hs) as (Kk & Ks). cbn [fst snd length] in *.
  destruct (append_step t kvs k v ST H1 ltac:(lia)) as (t1 & fr & E1 & ST1 & PR1 & L1 & I1 & FR & FL & _ & (q0 & Dq) & _); auto.
  { rewrite app_length in Hc. lia. }
  replace (kvs ++ (k, v) :: l) with ((kvs ++ [(k, v)]) ++ l) in * by (rewrite <- app_assoc; reflexivity).
  destruct (append_all l t1 (kvs ++ [(k, v)]) ST1 PR1 ltac:(lia) ltac:(lia) Hc (Forall_inv_tail Hs) S) as (t' & B1 & B2 & B3 & B4 & B5 & B6 & B7).
  exists t', fr. split; [cbn [puts map do_ops do_op fst snd]; rewrite E1; exact B1|]. splits; auto; try lia; try congruence. eauto.
Qed.
End Append.

(** ** C149 *)
(** Everything a reader gets from [E] is the list [l]: by lookup, and by cursor in both directions. *)
Definition holds_all (E : env) (l : list (bytes * bytes)) : Prop :=
  (forall k, blen k < 65536 -> read_now E k = match lookup k l with Some v => Ok v | None => Err NOTFOUND end) /\
  forall pid tid E2 t, begin_read E pid tid = Ok (E2, t) ->
    scans E2 t NEXT (cursor_get E2 t cursor_open FIRST) l NOTFOUND /\
    scans E2 t PREV (cursor_get E2 t cursor_open LAST) (rev l) NOTFOUND.

Lemma held E l : scannable E (reader E) -> bindings E (reader E) l ->
  (forall k, blen k < 65536 -> read_now E k = match lookup k l with Some v => Ok v | None => Err NOTFOUND end) -> holds_all E l.
Proof.
  intros S B R. split; [exact R|]. intros pid tid E2 t BR. destruct (loaded_reader _ _ _ _ _ _ BR S B) as (S2 & B2).
  destruct (forward_scan_partial E2 t S2) as (l1 & B1 & F). destruct (backward_scan_partial E2 t S2) as (l3 & B3 & K).
  rewrite (bindings_unique _ _ _ _ B2 B1) at 1. rewrite (bindings_unique _ _ _ _ B2 B3). split; assumption.
Qed.
Lemma no_change E : e_locked E = false -> transact E [] = Ok E.
Proof.
  intro L. unfold transact. rewrite (begun_is E L). cbn [do_ops]. unfold db_commit. cbn [begun t_dirty].
  destruct E; cbn in *; subst; reflexivity.
Qed.

Lemma tree_height b b' V : forall h h' pg lo hi lo' hi', tree b V h pg lo hi -> bushy V h pg -> tree b' V h' pg lo' hi' -> h = h'.
Proof.
  induction h as [|h IH]; intros [|h'] pg lo hi lo' hi' T B T'; cbn [tree] in T, T'; auto.
  - exfalso. apply (not_both (V pg)); tauto.
  - exfalso. apply (not_both (V pg)); tauto.
  - f_equal. destruct T as (_ & _ & K & _). destruct T' as (_ & _ & K' & _). cbn [bushy] in B. destruct B as (B1 & B2).
    destruct (branch_entries (V pg)) as [|[k c] es]; [cbn in B1; lia|]. apply Forall_inv in B2. cbn [snd] in B2.
    apply (kids_mid _ []) in K. apply (kids_mid _ []) in K'. eapply IH; eauto.
Qed.
Lemma batch_second E1 l1 l2 ka kb sa sb :
  laid E1 l1 -> stacked ka kb sa sb E1 l1 -> l1 <> [] -> l2 <> [] -> m_last (live_meta E1) + 40 * (2 + N.of_nat (length l2)) < 2 ^ 64 ->
  N.of_nat (length (l1 ++ l2)) < 2 ^ 32 -> StronglySorted klt (map fst (l1 ++ l2)) -> even_sizes ka kb sa sb (l1 ++ l2) ->
  exists E2, transact E1 (puts l2) = Ok E2 /\ holds_all E2 (l1 ++ l2).
Proof.
  intros (LK & FO & MF & L1 & L2 & TR) SK N1 N2 Hl Hc HS (BL & BB & KB & SZ).
  destruct TR as [(_ & X)|(h & Hh & Nz & Tf & Bf & ND & PG & EK)]; [congruence|]. destruct SK as [|(h0 & T & GD & FT)]; [congruence|].
  assert (h0 = h) as -> by (symmetry; eapply tree_height; eauto).
  assert (SS : 4 + sb <= 2037) by (destruct BL as (X & _); lia).
  assert (SP : forall leaf, spread (low ka (4 + sa) leaf) (high kb (4 + sb) leaf)).
  { change (forall leaf, balanced (low ka (4 + sa) leaf) (high kb (4 + sb) leaf)). intros [|]; unfold low, high; [|exact BB].
    replace (4 + sa + 2) with (6 + sa) by lia. replace (4 + sb + 2) with (6 + sb) by lia. exact BL. }
  apply Forall_app in SZ. destruct SZ as (_ & SZ).
  assert (SZ' : Forall (fun e => keyed ka kb (fst e) /\ 4 + sa <= leaf_size (fst e) (snd e) <= 4 + sb) l2).
  { eapply Forall_impl; [|exact SZ]. intros [a b]. cbn [fst snd]. unfold keyed, leaf_size, LEAF_BASE. lia. }
  assert (SZ2 : Forall (fun e => leaf_size (fst e) (snd e) <= 2037) l2) by (eapply Forall_impl; [|exact SZ']; intros e; cbn beta; lia).
  pose proof (begun_is E1 LK) as B. pose proof (begin_fields _ _ _ B) as (_ & Et). set (E := set_locked E1 true) in *. set (t := begun E1) in *.
  assert (V : forall q, get_page E t q = e_file E1 q) by (intro q; rewrite Et; reflexivity).
  destruct (kvs_frame (e_file E1) (get_page E t) h (m_root (live_meta E1)) (fun q _ => V q)) as (K & KP).
  assert (F1 : t_rdonly t = false /\ t_root t = m_root (live_meta E1) /\ t_last t = m_last (live_meta E1) /\ t_free_root t = 0 /\ t_freed t = [] /\ t_dirty t = []).
  { rewrite Et. cbn. auto 10. }
  destruct F1 as (Hr & HR & HLa & HF & HFr & HD).
  assert (ST : stands ka kb sa sb E t l1).
  { split; [split; assumption|]. split; [congruence|]. split; [|split; [|split]].
    - split; [exact Hr|]. right. exists h. split; [lia|]. split.
      + unfold sound. rewrite HR, HLa, KP, K. split; [exact Hr|]. split; [exact Nz|]. split; [eapply tree_frame; [intros q _; apply V|exact T]|]. split; [exact ND|].
        split; [|exact EK]. intros q Hq. rewrite Forall_forall in PG. split; [apply PG; exact Hq|auto].
      + rewrite HR. destruct FT as [FT|(-> & k & v & FA & FB & FC)]; [left; eapply fat_frame; [intros q _; apply V|exact FT]|right]. split; [reflexivity|]. exists k, v. rewrite V. auto.
    - right. exists h. rewrite HR. split; [eapply stout_frame|eapply bushy_frame]; try (intros q _; apply V); apply GD.
    - intros h' _ q c _ X. exfalso. apply X. rewrite HD. reflexivity.
    - intros q X. exfalso. apply X. rewrite HD. reflexivity. }
  destruct (append_most ka kb sa sb SP KB SS E l2 t l1 ST ltac:(lia) ltac:(lia) Hc SZ' HS) as (t' & fr & DO & ST' & FR & FL & LL & ID & DX).
  rewrite HFr in FR. cbn [app] in FR. subst fr. destruct ST' as ((HF' & Hr') & Hnz' & (_ & G') & LD' & CL' & DB').
  destruct G' as [[X _]|(h' & Hh' & SD' & _)]; [congruence|]. pose proof SD' as (_ & _ & T' & ND' & PG' & EK').
  assert (DI' : DI t').
  { apply (puts_DI E l2 t t'); auto. intros _. rewrite Et. constructor; cbn; [constructor|discriminate]. }
  assert (DK : dirty_ok t') by (apply DI'; lia).
  destruct LD' as [|(h3 & GD')]; [congruence|]. assert (h3 = h') as -> by (symmetry; eapply stout_height; [exact T'|apply GD']).
  assert (Hd' : (h' < 32)%nat).
  { destruct (le_lt_dec 32 h') as [X|]; auto. exfalso. pose proof (bushy_count _ _ _ (proj2 GD')) as BC. rewrite EK' in BC.
    assert (Y : (2 ^ 32 <= 2 ^ h')%nat) by (apply Nat.pow_le_mono_r; lia).
    assert (Z : N.of_nat (2 ^ 32) <= N.of_nat (length (l1 ++ l2))) by lia. rewrite Nat2N.inj_pow in Z. change (N.of_nat 2 ^ N.of_nat 32) with (2 ^ 32) in Z. lia. }
  assert (ND2 : t_dirty t' <> []) by (intro X; destruct (DX N2) as (q & Dq); apply Dq; rewrite X; reflexivity).
  assert (OM : over_meta t' = false).
  { apply not_true_iff_false. intro X. apply existsb_exists in X. destruct X as ([q p] & X1 & X2). cbn [snd] in X2. apply N.ltb_lt in X2.
    rewrite (dirty_pgno t' q p DK X1) in X2. assert (Y : dirty t' q) by (unfold dirty; rewrite (in_dget _ q p (do_nodup _ DK) X1); discriminate). apply DB' in Y. lia. }
  assert (CM : exists E2, db_commit E t' None = (E2, Ok tt)).
  { destruct (t_freed t') as [|x r] eqn:EF.
    - unfold db_commit, populate_free_db. rewrite EF, OM. destruct (t_dirty t'); [congruence|]. eauto.
    - pose proof (commit_first E t' Hr' HF' ltac:(congruence) ND2 ltac:(lia) ltac:(lia) OM) as CF. rewrite EF in CF.
      specialize (CF ltac:(lia)). destruct (N.leb_spec (N.of_nat (length (x :: r))) 508); [exact CF|lia]. }
  destruct CM as (E2 & CM). exists E2. split; [unfold transact; rewrite B, DO, CM; reflexivity|].
  destruct (published E t' E2 CM ND2) as (fr & t1 & P & PB).
  assert (P1 : DI t1 /\ t_root t1 = t_root t' /\ t_rdonly t1 = false /\ t_last t1 <= t_last t' + 1 /\ forall q, q <= t_last t' -> get_page E t1 q = get_page E t' q).
  { unfold populate_free_db in P. destruct (t_freed t') as [|x r] eqn:EF; [injection P as <- <-; splits; auto; lia|]. rewrite HF' in P. cbn [N.eqb orb] in P.
    pose proof (populate_iout E t' FO Hr' DI' ltac:(rewrite EF; lia)) as NI. unfold populate_free_db in NI. rewrite EF, HF' in NI. cbn [N.eqb orb] in NI. cbv zeta in P, NI.
    rewrite P in NI. cbn [iout] in NI. unfold new_root_leaf in P. rewrite (Q_alloc0 E t' HF' Hr') in P. cbn [bindo] in P.
    destruct (page_insert _ _ _ _ _) as [p|e| |]; cbn [lift bindo] in P; try discriminate. injection P as <- <-.
    split; [exact NI|]. split; [reflexivity|]. split; [exact Hr'|]. split; [cbn; lia|]. intros q Hq. rewrite get_put by exact Hr'.
    destruct (N.eqb_spec (t_last t' + 1) q); [lia|reflexivity]. }
  destruct P1 as (DI1 & R1 & Hr1 & LL1 & V1). destruct (PB Hr' ltac:(apply DI1; lia)) as (VE & M).
  assert (RT : t_root (reader E2) = t_root t') by (unfold reader; cbn [t_root]; rewrite M; cbn [m_root]; congruence).
  assert (VW : forall q, In q (tree_pages (get_page E t') h' (t_root t')) -> get_page E2 (reader E2) q = get_page E t' q).
  { intros q Hq. unfold get_page at 1. cbn [reader t_rdonly]. rewrite VE. apply V1. apply PG' in Hq. lia. }
  assert (T2 : tree false (get_page E2 (reader E2)) h' (t_root (reader E2)) None None).
  { rewrite RT. eapply tree_frame; [exact VW|]. apply tree_loose. exact T'. }
  destruct (kvs_frame (get_page E t') (get_page E2 (reader E2)) h' (t_root t') VW) as (K2 & KP2).
  apply held.
  - right. exists h'. splits; auto; [congruence|]. right. rewrite RT. apply bushy_full. eapply bushy_frame; [exact VW|]. apply GD'.
  - pose proof (tree_bindings E2 (reader E2) h' ltac:(lia) ltac:(congruence) T2) as BI. rewrite RT, K2, EK' in BI. exact BI.
  - intros k Hk. unfold read_now. rewrite (db_get_ok false E2 (reader E2) k h' Hk ltac:(lia) ltac:(congruence) T2), RT, K2, EK'. reflexivity.
Qed.

(** Two transactions are safe: the second finds no list of free pages yet. *)
Theorem load_in_batches_partial : forall E l1 l2 ka kb sa sb,
  blank_db E (S (length (l1 ++ l2))) -> N.of_nat (length (l1 ++ l2)) < 2 ^ 32 -> StronglySorted klt (map fst (l1 ++ l2)) -> even_sizes ka kb sa sb (l1 ++ l2) ->
  exists E1 E2, transact E (puts l1) = Ok E1 /\ holds_all E1 l1 /\ transact E1 (puts l2) = Ok E2 /\ holds_all E2 (l1 ++ l2).
Proof.
  intros E l1 l2 ka kb sa sb (B1 & B2 & B3 & B4 & B5 & B6) Hc HS SZ. rewrite app_length in B6, Hc.
  assert (HS1 : StronglySorted klt (map fst l1)) by (rewrite map_app in HS; apply sorted_app in HS; tauto).
  assert (SZ1 : even_sizes ka kb sa sb l1) by (destruct SZ as (X1 & X2 & X3 & X4); apply Forall_app in X4; unfold even_sizes; tauto).
  assert (BD : forall l : list (bytes * bytes), (length l <= length l1 + length l2)%nat -> blank_db E (length l)) by (intros l Hx; unfold blank_db; splits; auto; lia).
  destruct (loaded_full E l1 ka kb sa sb (BD l1 ltac:(lia)) ltac:(lia) HS1 SZ1) as (E1 & T1 & S1 & BI1 & LD & SK & LM).
  destruct (bulk_load E l1 ka kb sa sb (BD l1 ltac:(lia)) ltac:(lia) HS1 SZ1) as (E1' & T1' & R1). rewrite T1 in T1'. injection T1' as <-.
  pose proof (held E1 l1 S1 BI1 R1) as H1.
  destruct l1 as [|e1 l1'] eqn:EL.
  - (* the first transaction was empty *)
    rewrite no_change in T1 by exact B1. injection T1 as <-. cbn [app] in *.
    destruct (loaded_full E l2 ka kb sa sb (BD l2 ltac:(cbn; lia)) ltac:(lia) HS SZ) as (E2 & T2 & S2 & BI2 & _).
    destruct (bulk_load E l2 ka kb sa sb (BD l2 ltac:(cbn; lia)) ltac:(lia) HS SZ) as (E2' & T2' & R2). rewrite T2 in T2'. injection T2' as <-.
    exists E, E2. splits; auto. { apply no_change. exact B1. } apply held; assumption.
  - rewrite <- EL in *. destruct l2 as [|e2 l2'] eqn:EL2.
    + exists E1, E1. rewrite app_nil_r. split; [exact T1|]. split; [exact H1|]. split; [|exact H1]. apply no_change. apply LD.
    + rewrite <- EL2 in *. destruct (batch_second E1 l1 l2 ka kb sa sb LD SK) as (E2 & T2 & H2); auto; try congruence; try lia.
      { rewrite app_length. lia. }
      exists E1, E2. auto.
Qed.
Print Assumptions load_in_batches_partial.

(** A third transaction is not: loading three pairs one by one, each transaction is committed
    without an error, and the first pair is gone.  Two pairs first and then one after the other
    lose more with every transaction. *)
Definition one (i : N) : list (bytes * bytes) := [([i], fill 1900 i)].
Definition batches (E : env) (ls : list (list (bytes * bytes))) : res env :=
  fold_left (fun r l => match r with Ok E => transact E (puts l) | x => x end) ls (Ok E).
Lemma one_even ls : even_sizes 1 1 1901 1901 (concat (map one ls)).
Proof.
  assert (F : forall l, Forall (fun e => 1 <= blen (fst e) <= 1 /\ 1901 <= blen (fst e) + blen (snd e) <= 1901) (concat (map one l))).
  { induction l as [|i l IH]; cbn [map concat one app]; constructor; auto. cbn [fst snd]. unfold blen, fill. rewrite repeat_length. cbn [length]. lia. }
  split; [apply balanced_same; lia|]. split; [apply balanced_same; lia|]. split; [lia|apply F].
Qed.
Lemma ok_then {A B} (r : res A) (f : A -> option B) (x : B) : match r with Ok e => f e | _ => None end = Some x -> exists e, r = Ok e /\ f e = Some x.
Proof. destruct r; try discriminate. eauto. Qed.
Definition after_three (E' : env) : option (list (res bytes) * list (res bytes)) :=
  match transact E' (puts (one 100)) with
  | Ok E'' => Some (map (fun k => read_now E' [k]) [97; 98; 99], map (fun k => read_now E'' [k]) [97; 98; 99; 100])
  | _ => None
  end.
Theorem load_in_batches_refuted :
  StronglySorted klt (map fst (concat (map one [97; 98; 99]))) /\ even_sizes 1 1 1901 1901 (concat (map one [97; 98; 99])) /\
  exists E', batches env_create (map one [97; 98; 99]) = Ok E' /\
    map (fun k => read_now E' [k]) [97; 98; 99] = [Err NOTFOUND; Ok (fill 1900 98); Ok (fill 1900 99)] /\
    exists E'', transact E' (puts (one 100)) = Ok E'' /\
      map (fun k => read_now E'' [k]) [97; 98; 99; 100] = [Err NOTFOUND; Err NOTFOUND; Ok (fill 1900 99); Ok (fill 1900 100)].
Proof.
  split; [|split; [apply one_even|]].
  { cbn [map one concat app fst]. repeat constructor. }
  destruct (ok_then (batches env_create (map one [97; 98; 99])) after_three
    ([Err NOTFOUND; Ok (fill 1900 98); Ok (fill 1900 99)], [Err NOTFOUND; Err NOTFOUND; Ok (fill 1900 99); Ok (fill 1900 100)])) as (E' & A & B).
  { vm_compute. reflexivity. }
  exists E'. split; [exact A|]. unfold after_three in B. destruct (transact E' (puts (one 100))) as [E''| | |]; try discriminate B.
  injection B as B1 B2 B3 B4 B5 B6 B7. cbn [map]. rewrite B1, B2, B3. split; [reflexivity|]. exists E''. rewrite B4, B5, B6, B7. split; reflexivity.
Qed.
Print Assumptions load_in_batches_refuted.

(** The thousand pairs of [thousand_case] may be loaded in two parts. *)
Example batches_case : exists l1 l2 E1 E2, l1 ++ l2 = thousand /\ length l1 = 400%nat /\ transact env_create (puts l1) = Ok E1 /\ transact E1 (puts l2) = Ok E2 /\
  holds_all E2 thousand.
Proof.
  destruct thousand_case as (A & B & C & D). exists (firstn 400 thousand), (skipn 400 thousand). rewrite <- (firstn_skipn 400 thousand) in B, C, D.
  assert (A' : blank_db env_create (S (length (firstn 400 thousand ++ skipn 400 thousand)))).
  { rewrite firstn_skipn. replace (length thousand) with 1000%nat by (unfold thousand; rewrite map_length, seq_length; reflexivity).
    destruct A as (A1 & A2 & A3 & A4 & A5 & A6). unfold blank_db. splits; auto. }
  destruct (load_in_batches_partial _ _ _ _ _ _ _ A' B C D) as (E1 & E2 & T1 & _ & T2 & H2). exists E1, E2. rewrite (firstn_skipn 400 thousand) in *. splits; auto.
Qed.
