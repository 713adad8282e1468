(** Lemmas about puts in ascending order of the keys: every split is clean. *)
From Verif Require Import Util PageModel PageSpec PageProofs PageOps TxnModel CursorModel TreeModel TreeSpec PropPage TreeProofs TreeOps TreeSplit TreePut TreeShape.
Local Open Scope N_scope.

Lemma div2_lt n : (2 <= n)%nat -> (Nat.div2 n < n)%nat.
Proof. intro H. apply Nat.lt_div2. lia. Qed.

(** a fat way has keys at its end *)
Lemma fat_nonempty V : forall h pg, fat V h pg -> tree_kvs V h pg <> [].
Proof.
  induction h as [|h IH]; intros pg F; cbn [fat tree_kvs] in *.
  - intro X. rewrite X in F. cbn in F. lia.
  - destruct F as (pre & k & c & -> & _ & F). apply IH in F. rewrite flat_map_app. cbn [flat_map snd]. rewrite app_nil_r.
    intro X. apply app_eq_nil in X. tauto.
Qed.

Lemma fat_beyond V k : forall h pg lo hi, tree true V h pg lo hi -> fat V h pg ->
  Forall (fun e => klt (fst e) k) (tree_kvs V h pg) -> beyond V k h pg.
Proof.
  induction h as [|h IH]; intros pg lo hi T F A.
  - exact A.
  - cbn [fat] in F. destruct F as (pre & k0 & c & Eb & Hne & F). cbn [tree] in T. destruct T as (_ & _ & K & _). rewrite Eb in K.
    apply kids_mid in K. cbn [beyond]. exists pre, k0, c. cbn [tree_kvs] in A. rewrite Eb, flat_map_app, Forall_app in A. cbn [flat_map snd] in A.
    rewrite app_nil_r in A. destruct A as [_ A]. splits; auto.
    + pose proof (fat_nonempty _ _ _ F) as N. destruct (tree_content _ _ _ _ _ _ K) as [_ B].
      destruct (tree_kvs V h c) as [|e l]; [congruence|]. cbn [map] in B. apply Forall_inv in A, B. destruct B as [B _].
      destruct pre as [|e0 pre]; [congruence|]. cbn [nlo above] in B. left. eapply kle_klt_trans; eauto.
    + eapply IH; eauto.
Qed.

(** a key beyond a fat way needs no unclean split *)
Lemma fat_plan V k need : forall h pg lo hi, tree true V h pg lo hi -> fat V h pg -> beyond V k h pg ->
  split_plan V k need h pg <> None /\
  (match h with O => True | S _ => forall k0, first_sep (V pg) = Some k0 -> kle k0 k end).
Proof.
  induction h as [|h IH]; intros pg lo hi T F B.
  - split; auto. cbn [fat beyond split_plan tree] in *. destruct T as (_ & _ & S & _).
    assert (HL : lookup k (leaf_entries (V pg)) = None) by (apply lookup_below; exact B).
    destruct (leaf_plan (V pg) k HL) as [-> _].
    destruct (need + 2 <=? leaf_avail (V pg) k); [discriminate|].
    assert (HN : length (page_keys true (V pg)) = length (leaf_entries (V pg))) by (rewrite <- leaf_entries_keys, map_length; reflexivity).
    rewrite filter_all.
    2:{ intros x Hx. rewrite <- leaf_entries_keys in Hx. apply in_map_iff in Hx. destruct Hx as (e & <- & He).
        rewrite Forall_forall in B. apply kltb_spec, B, He. }
    rewrite HN. destruct (Nat.leb_spec 2 (length (leaf_entries (V pg)))); [|lia].
    pose proof (div2_lt (length (leaf_entries (V pg)))). destruct (Nat.eqb_spec (length (leaf_entries (V pg))) (Nat.div2 (length (leaf_entries (V pg))))); [lia|].
    discriminate.
  - pose proof F as F0. pose proof B as B0. cbn [fat] in F. destruct F as (pre & k0 & c & Eb & Hne & F).
    cbn [beyond] in B. destruct B as (pre' & k0' & c' & Eb' & Hk & B). rewrite Eb in Eb'. apply last_eq in Eb'. destruct Eb' as [<- X]. injection X as <- <-.
    cbn [tree] in T. destruct T as (_ & W & K & _). pose proof (kids_sorted _ _ _ _ K) as S. rewrite branch_entries_keys in S.
    rewrite Eb in K. apply kids_mid in K. destruct (IH c _ _ K F B) as [P _]. split.
    + cbn [split_plan]. rewrite (rank_route _ k pre k0 c [] S Eb (or_intror Hk) (Forall_nil _)), Eb, nth_error_mid.
      destruct (split_plan V k need h c) as [[d|]|]; try congruence.
      destruct (branch_size d + 2 <=? page_free (V pg)); [congruence|].
      assert (HN : length (page_keys false (V pg)) = Datatypes.S (length pre)).
      { rewrite <- branch_entries_keys, map_length, Eb, app_length. cbn. lia. }
      rewrite HN. destruct pre as [|e pre]; [congruence|]. cbn [length].
      pose proof (div2_lt (Datatypes.S (Datatypes.S (length pre))) ltac:(lia)).
      destruct (Nat.leb_spec 2 (Datatypes.S (Datatypes.S (length pre)))); [|lia].
      destruct (Nat.eqb_spec (Datatypes.S (Datatypes.S (length pre))) (Nat.div2 (Datatypes.S (Datatypes.S (length pre))))); [lia|].
      discriminate.
    + intros f Hf. unfold first_sep in Hf. rewrite Eb in Hf. rewrite <- branch_entries_keys, Eb, map_app in S. apply sorted_app in S. destruct S as (_ & _ & S).
      destruct pre as [|[x y] pre]; [congruence|]. cbn in Hf. injection Hf as <-.
      eapply kle_trans; [|exact Hk]. left. apply S; cbn; auto.
Qed.

(** equal lookups in two ascending lists *)
Lemma sorted_lookup_eq : forall l1 l2 : list (key * bytes), ksorted (map fst l1) -> ksorted (map fst l2) ->
  (forall k, lookup k l1 = lookup k l2) -> l1 = l2.
Proof.
  assert (N : forall k (l : list (key * bytes)), Forall (klt k) (map fst l) -> lookup k l = None).
  { intros k l H. apply lookup_above. rewrite Forall_map in H. exact H. }
  induction l1 as [|[k1 v1] l1 IH]; intros [|[k2 v2] l2] S1 S2 H; auto.
  - specialize (H k2). cbn in H. destruct (key_dec k2 k2); congruence.
  - specialize (H k1). cbn in H. destruct (key_dec k1 k1); congruence.
  - cbn [map fst] in *. apply sorted_cons_inv in S1, S2. destruct S1 as [S1 A1]. destruct S2 as [S2 A2].
    assert (k1 = k2) as <-.
    { destruct (key_dec k1 k2) as [|Hne]; auto. exfalso. destruct (klt_total k1 k2) as [L|[L|L]]; auto.
      - pose proof (H k1) as X. cbn in X. destruct (key_dec k1 k1); [|congruence]. destruct (key_dec k1 k2); [congruence|].
        rewrite N in X; [discriminate|]. eapply Forall_impl; [|exact A2]. intros a Ha. eapply klt_trans; eauto.
      - pose proof (H k2) as X. cbn in X. destruct (key_dec k2 k2); [|congruence]. destruct (key_dec k2 k1); [congruence|].
        rewrite N in X; [discriminate|]. eapply Forall_impl; [|exact A1]. intros a Ha. eapply klt_trans; eauto. }
    assert (v1 = v2) as <-. { pose proof (H k1) as X. cbn in X. destruct (key_dec k1 k1); congruence. }
    f_equal. apply IH; auto. intro k. pose proof (H k) as X. cbn in X. destruct (key_dec k k1) as [->|]; auto.
    rewrite !N; auto.
Qed.

Section Ascending.
Variables (E : env) (F : N -> Prop) (Q : txn -> Prop).
Hypothesis Q_alloc : forall t, Q t -> t_rdonly t = false -> page_alloc E t = Ret (t_last t + 1) (set_last t (t_last t + 1)).
Hypothesis Q_stable : forall t t', Q t -> t_rdonly t' = t_rdonly t -> t_id t' = t_id t -> t_free_root t' = t_free_root t ->
  (forall q, F q -> get_page E t' q = get_page E t q) -> Q t'.

(** What a transaction looks like after puts in ascending order. *)
Definition grown (t : txn) (kvs : list (key * bytes)) : Prop :=
  t_rdonly t = false /\
  ((t_root t = 0 /\ kvs = []) \/
   exists h, (h <= 32)%nat /\ sound E F h t kvs /\
     (fat (get_page E t) h (t_root t) \/
      (h = 0%nat /\ exists k v, kvs = [(k, v)] /\ leaf_size k v <= 2037 /\
        page_free (get_page E t (t_root t)) = PAGE_SIZE - HDR - (leaf_size k v + 2)))).

Lemma put_grown t kvs k v : grown t kvs -> Q t -> (forall q, F q -> q <= t_last t) -> 1 <= t_last t -> t_last t + 40 < 2 ^ 64 ->
  leaf_size k v <= 2037 -> Forall (fun e => klt (fst e) k) kvs ->
  match db_put E t k v with
  | Ret _ t' => grown t' (kvs ++ [(k, v)]) /\ put_frame E F t t' /\ Q t'
  | Fail _ _ => True
  | Bad | NoFuel => False
  end.
Proof.
  intros (Hr & G) HQ HF H1 Hl Hs HB. assert (Hs' : leaf_size k v < 65536) by lia.
  assert (QQ : forall t', put_frame E F t t' -> Q t').
  { intros t' (A1 & A2 & A3 & A4 & A5). eapply Q_stable; eauto. }
  assert (EQ : forall h kvs', sound E F h t kvs -> ksorted (map fst kvs') ->
     (forall k', lookup k' kvs' = if key_dec k' k then Some v else lookup k' kvs) -> kvs' = kvs ++ [(k, v)]).
  { intros h kvs' (_ & _ & T & _ & _ & EK) S' L. destruct (tree_content _ _ _ _ _ _ T) as [S _]. rewrite EK in S.
    apply sorted_lookup_eq; auto.
    - rewrite map_app. cbn [map fst]. apply sorted_app. splits; auto; [repeat constructor|]. intros x y Hx [<-|[]]. apply in_map_iff in Hx. destruct Hx as (e & <- & He). rewrite Forall_forall in HB. auto.
    - intro k'. rewrite L, lookup_app. destruct (key_dec k' k) as [->|Hne].
      + rewrite lookup_below by auto. cbn. destruct (key_dec k k); congruence.
      + destruct (lookup k' kvs); auto. cbn. destruct (key_dec k' k); congruence. }
  unfold db_put. destruct G as [[H0 ->]|(h & Hh & SD & G)].
  - pose proof (db_put_empty page_alloc E F Q Q_alloc Q_stable t k v Hs' Hl Hr H0 HQ H1 HF) as P.
    destruct (db_put_with page_alloc E t k v) as [u t'|e t'| |]; auto. destruct P as (S' & FR & PF). splits; auto.
    split; [apply S'|]. right. exists 0%nat. splits; auto; [lia|]. right. split; auto. exists k, v. splits; auto.
  - pose proof SD as (_ & Hnz & T & ND & PG & EK).
    destruct G as [Hf|(-> & k0 & v0 & -> & Hs0 & PF)].
    + assert (By : beyond (get_page E t) k h (t_root t)) by (eapply fat_beyond; [exact T|exact Hf|rewrite EK; exact HB]).
      destruct (fat_plan _ k (leaf_size k v) _ _ _ _ T Hf By) as [P1 P2].
      assert (IR : inrange true (get_page E t) h (t_root t) None None k) by (unfold inrange; splits; cbn; auto).
      pose proof (db_put_sound page_alloc E F Q Q_alloc Q_stable h t kvs k v Hs' Hl Hh SD HQ HF IR P1) as P.
      destruct (db_put_with page_alloc E t k v) as [u t'|e t'| |]; auto.
      destruct P as (h' & kvs' & Hh' & S' & FR & L & FT).
      assert (kvs' = kvs ++ [(k, v)]) as ->.
      { apply (EQ h); auto. destruct S' as (_ & _ & T' & _ & _ & EK'). destruct (tree_content _ _ _ _ _ _ T') as [X _]. rewrite EK' in X. exact X. }
      splits; auto. split; [apply S'|]. right. exists h'. splits; auto.
    + assert (EL : leaf_entries (get_page E t (t_root t)) = [(k0, v0)]) by exact EK.
      assert (By : beyond (get_page E t) k 0 (t_root t)) by (cbn [beyond]; rewrite EL; exact HB).
      assert (IR : inrange true (get_page E t) 0 (t_root t) None None k) by (unfold inrange; splits; cbn; auto).
      assert (PG2 : Forall (fun q => 2 <= q <= t_last t) (tree_pages (get_page E t) 0 (t_root t))).
      { rewrite Forall_forall. intros q Hq. apply PG; auto. }
      destruct (db_put_fits page_alloc E F Q Q_alloc Q_stable true 0 t _ k v Hs' ltac:(lia) Hr Hnz T ND PG2 EK IR) as [(_ & HL & _)|(t' & -> & SC' & FR & T' & P' & L' & FT)]; auto.
      * intros q Hq. apply PG; auto.
      * cbn [leaf_on]. unfold leaf_avail. rewrite EL, PF. apply Forall_inv in HB. cbn [fst] in HB. cbn [lookup].
        destruct (key_dec k k0) as [->|]; [exfalso; exact (klt_irrefl _ HB)|]. unfold PAGE_SIZE, HDR. lia.
      * exfalso. apply HL. apply lookup_below. exact HB.
      * destruct SC' as (S1 & S2 & S3 & S4 & S5).
        assert (KE : tree_kvs (get_page E t') 0 (t_root t) = [(k0, v0)] ++ [(k, v)]).
        { apply (EQ 0%nat); auto. destruct (tree_content _ _ _ _ _ _ T') as [X _]. exact X. }
        splits; auto. split; [congruence|]. right. exists 0%nat. splits; auto.
        -- unfold sound. rewrite S3, P', S5. splits; auto; congruence.
        -- left. rewrite S3. apply FT; auto. rewrite EL. discriminate.
Qed.

Lemma puts_grown : forall l t t' kvs, grown t kvs -> Q t -> (forall q, F q -> q <= t_last t) -> 1 <= t_last t ->
  t_last t + 40 * (1 + N.of_nat (length l)) < 2 ^ 64 ->
  Forall (fun e => leaf_size (fst e) (snd e) <= 2037) l -> ksorted (map fst (kvs ++ l)) ->
  do_ops E t (map (fun e => Put (fst e) (snd e)) l) = Ret tt t' ->
  grown t' (kvs ++ l) /\ Q t' /\ t_id t' = t_id t /\ t_free_root t' = t_free_root t /\ (forall q, F q -> get_page E t' q = get_page E t q).
Proof.
  induction l as [|[k v] l IH]; intros t t' kvs G HQ HF H1 Hl Hs S HR.
  - cbn in HR. injection HR as <-. rewrite app_nil_r. splits; auto.
  - cbn [map do_ops do_op fst snd length] in *.
    assert (HB : Forall (fun e => klt (fst e) k) kvs).
    { rewrite map_app in S. apply sorted_app in S. destruct S as (_ & _ & S). rewrite Forall_forall. intros e He. apply S; [apply in_map; auto|cbn; auto]. }
    pose proof (put_grown t kvs k v G HQ HF H1 ltac:(lia) (Forall_inv Hs) HB) as P.
    destruct (db_put E t k v) as [[] t1|e t1| |] eqn:EP; cbn [bindo] in HR; try discriminate.
    destruct P as (G1 & (A1 & A2 & A3 & A4 & A5) & Q1).
    assert (HF1 : forall q, F q -> q <= t_last t1) by (intros q Hq; apply HF in Hq; lia).
    replace (kvs ++ (k, v) :: l) with ((kvs ++ [(k, v)]) ++ l) in * by (rewrite <- app_assoc; reflexivity).
    destruct (IH t1 t' (kvs ++ [(k, v)]) G1 Q1 HF1 ltac:(lia) ltac:(lia) (Forall_inv_tail Hs) S HR) as (B1 & B2 & B3 & B4 & B5).
    splits; auto; try congruence. intros q Hq. rewrite B5 by auto. auto.
Qed.
End Ascending.

(** ** Operations beside pages that are not to be touched *)
Section Beside.
Variables (E : env) (F : N -> Prop) (Q : txn -> Prop).
Hypothesis Q_alloc : forall t, Q t -> t_rdonly t = false -> page_alloc E t = Ret (t_last t + 1) (set_last t (t_last t + 1)).
Hypothesis Q_stable : forall t t', Q t -> t_rdonly t' = t_rdonly t -> t_id t' = t_id t -> t_free_root t' = t_free_root t ->
  (forall q, F q -> get_page E t' q = get_page E t q) -> Q t'.

Definition holds_off (t : txn) (kvs : list (key * bytes)) : Prop :=
  t_rdonly t = false /\ ((t_root t = 0 /\ kvs = []) \/ exists h, (h <= 32)%nat /\ sound E F h t kvs).

Lemma put_off t kvs k v : holds_off t kvs -> Q t -> (forall q, F q -> q <= t_last t) -> 1 <= t_last t -> t_last t + 40 < 2 ^ 64 ->
  leaf_size k v < 65536 -> (t_root t = 0 \/ clean_put E t k v) ->
  match db_put E t k v with
  | Ret _ t' => exists kvs', holds_off t' kvs' /\ put_frame E F t t' /\ Q t' /\
      (forall k', lookup k' kvs' = if key_dec k' k then Some v else lookup k' kvs)
  | Fail _ _ => True
  | Bad | NoFuel => False
  end.
Proof.
  intros (Hr & HT) HQ HF H1 Hl Hs HC.
  assert (QQ : forall t', put_frame E F t t' -> Q t').
  { intros t' (A1 & A2 & A3 & A4 & A5). eapply Q_stable; eauto. }
  destruct HT as [[H0 ->]|(h & Hh & SD)].
  - pose proof (db_put_empty page_alloc E F Q Q_alloc Q_stable t k v Hs Hl Hr H0 HQ H1 HF) as P. unfold db_put.
    destruct (db_put_with page_alloc E t k v) as [u t'|e t'| |]; auto.
    destruct P as (S' & FR & _). exists [(k, v)]. splits; auto.
    split; [apply S'|]. right. exists 0%nat. split; [lia|exact S'].
  - destruct HC as [HC|HC]; [destruct SD as (_ & X & _); congruence|]. destruct (HC h Hh ltac:(apply SD)) as [C1 C2].
    assert (IR : inrange true (get_page E t) h (t_root t) None None k) by (unfold inrange; splits; cbn; auto).
    pose proof (db_put_sound page_alloc E F Q Q_alloc Q_stable h t kvs k v Hs Hl Hh SD HQ HF IR C2) as P. unfold db_put.
    destruct (db_put_with page_alloc E t k v) as [u t'|e t'| |]; auto.
    destruct P as (h' & kvs' & Hh' & S' & FR & L & _).
    exists kvs'. splits; auto. split; [apply S'|]. right. exists h'. auto.
Qed.

Lemma del_off t kvs k : holds_off t kvs -> Q t -> blen k < 65536 ->
  match db_del E t k None with
  | Ret _ t' => exists kvs', holds_off t' kvs' /\ same_ctl t t' /\ Q t' /\ (forall q, F q -> get_page E t' q = get_page E t q) /\
      (forall k', lookup k' kvs' = if key_dec k' k then None else lookup k' kvs)
  | Fail _ _ => True
  | Bad | NoFuel => False
  end.
Proof.
  intros (Hr & HT) HQ Hk. destruct HT as [[H0 ->]|(h & Hh & SD)].
  - unfold db_del. rewrite Hr, H0. exact I.
  - pose proof SD as (_ & Hnz & T & ND & PG & EK). destruct (Nat.eq_dec h 32) as [->|Hd].
    + unfold db_del. rewrite Hr. destruct (N.eqb_spec (t_root t) 0); [tauto|].
      destruct (find_path_too_deep true E t k Hk MAX_TREE_DEPTH 32 (t_root t) _ _ T ltac:(unfold MAX_TREE_DEPTH; lia)) as (e & ->). exact I.
    + assert (HT' : txn_holds true 31 E t kvs).
      { split; auto. right. exists h. splits; auto; [lia|]. rewrite Forall_forall. intros q Hq. apply PG; auto. }
      pose proof (db_del_ok true 31 E t kvs k None Hk ltac:(lia) HT') as D.
      destruct (lookup k kvs); [|rewrite D; exact I].
      destruct D as (t' & kvs' & -> & C & _ & L & h' & Hh' & Ta & Tb & Ekv & Epg & Fr).
      assert (h' = h) as -> by (exact (shape_height _ _ _ _ (tree_shape _ _ _ _ _ _ Ta) (tree_shape _ _ _ _ _ _ T))).
      assert (FrF : forall q, F q -> get_page E t' q = get_page E t q).
      { intros q Hq. apply Fr. intro Hi. apply PG in Hi. tauto. }
      pose proof C as (C1 & C2 & C3 & C4 & C5).
      exists kvs'. splits; auto.
      * split; [congruence|]. right. exists h. split; [lia|]. unfold sound. rewrite C3, C5, Epg. splits; auto; congruence.
      * eapply Q_stable; eauto.
Qed.

Lemma ops_off : forall os t t' kvs, holds_off t kvs -> Q t -> (forall q, F q -> q <= t_last t) -> 1 <= t_last t ->
  t_last t + 40 * (1 + N.of_nat (length os)) < 2 ^ 64 ->
  clean_ops E t os -> do_ops E t os = Ret tt t' ->
  exists kvs', holds_off t' kvs' /\ Q t' /\ t_id t' = t_id t /\ t_free_root t' = t_free_root t /\
    (forall q, F q -> get_page E t' q = get_page E t q) /\
    forall k, lookup k kvs' = fold_left map_op os (fun x => lookup x kvs) k.
Proof.
  assert (Ext : forall os (m m' : kmap), (forall k, m k = m' k) -> forall k, fold_left map_op os m k = fold_left map_op os m' k).
  { induction os as [|o r IH]; intros m m' H k; cbn [fold_left]; auto. apply IH. intro x. destruct o; cbn [map_op]; rewrite H; reflexivity. }
  induction os as [|o r IH]; intros t t' kvs HT HQ HF H1 Hl HC HR; cbn [do_ops clean_ops fold_left length] in *.
  - injection HR as <-. exists kvs. splits; auto.
  - destruct HC as [HC1 HC2]. destruct o as [k v|k]; cbn [do_op] in *.
    + destruct HC1 as [Hs HC1]. pose proof (put_off t kvs k v HT HQ HF H1 ltac:(lia) Hs HC1) as P.
      destruct (db_put E t k v) as [[] t1|e t1| |] eqn:EP; cbn [bindo] in HR; try discriminate.
      destruct P as (kvs1 & HT1 & (A1 & A2 & A3 & A4 & A5) & HQ1 & L1).
      assert (HF1 : forall q, F q -> q <= t_last t1) by (intros q Hq; apply HF in Hq; lia).
      destruct (IH t1 t' kvs1 HT1 HQ1 HF1 ltac:(lia) ltac:(lia) (HC2 _ eq_refl) HR) as (kvs' & A & B & C & D & G & L).
      exists kvs'. splits; auto; try congruence.
      * intros q Hq. rewrite G by auto. auto.
      * intro k0. rewrite L. apply Ext. intro x. apply L1.
    + pose proof (del_off t kvs k HT HQ HC1) as P.
      destruct (db_del E t k None) as [[] t1|e t1| |] eqn:EP; cbn [bindo] in HR; try discriminate.
      destruct P as (kvs1 & HT1 & (S1 & S2 & S3 & S4 & S5) & HQ1 & Fr & L1).
      assert (HF1 : forall q, F q -> q <= t_last t1) by (intros q Hq; rewrite S5; auto).
      destruct (IH t1 t' kvs1 HT1 HQ1 HF1 ltac:(lia) ltac:(lia) (HC2 _ eq_refl) HR) as (kvs' & A & B & C & D & G & L).
      exists kvs'. splits; auto; try congruence.
      * intros q Hq. rewrite G by auto. auto.
      * intro k0. rewrite L. apply Ext. intro x. apply L1.
Qed.
End Beside.

(** ** Ascending puts are clean *)
Lemma grown_clean E F t kvs k v : grown E F t kvs -> leaf_size k v <= 2037 -> Forall (fun e => klt (fst e) k) kvs ->
  t_root t = 0 \/ clean_put E t k v.
Proof.
  intros (Hr & [[H0 ->]|(h & Hh & SD & G)]) Hs HB; auto. right. pose proof SD as (_ & Hnz & T & ND & PG & EK).
  intros h' Hh' T'. assert (h' = h) as -> by (exact (shape_height _ _ _ _ (tree_shape _ _ _ _ _ _ T') (tree_shape _ _ _ _ _ _ T))).
  destruct G as [Hf|(-> & k0 & v0 & -> & Hs0 & PF)].
  - assert (By : beyond (get_page E t) k h (t_root t)) by (eapply fat_beyond; [exact T|exact Hf|rewrite EK; exact HB]).
    destruct (fat_plan _ k (leaf_size k v) _ _ _ _ T Hf By). auto.
  - split; auto. cbn [split_plan tree_kvs] in *. unfold leaf_avail. rewrite EK, PF. apply Forall_inv in HB. cbn [fst] in HB. cbn [lookup].
    destruct (key_dec k k0) as [->|]; [exfalso; exact (klt_irrefl _ HB)|]. unfold PAGE_SIZE, HDR.
    destruct (N.leb_spec (leaf_size k v + 2) (4096 - 18 - (leaf_size k0 v0 + 2) + 0)); [discriminate|lia].
Qed.

Lemma ascending_clean_ops E : forall l t kvs, grown E (fun _ => False) t kvs -> t_free_root t = 0 -> 1 <= t_last t ->
  t_last t + 40 * (1 + N.of_nat (length l)) < 2 ^ 64 ->
  Forall (fun e => leaf_size (fst e) (snd e) <= 2037) l -> ksorted (map fst (kvs ++ l)) ->
  clean_ops E t (map (fun e => Put (fst e) (snd e)) l).
Proof.
  induction l as [|[k v] l IH]; intros t kvs G HQ H1 Hl Hs S; [exact I|].
  assert (HB : Forall (fun e => klt (fst e) k) kvs).
  { rewrite map_app in S. apply sorted_app in S. destruct S as (_ & _ & S). rewrite Forall_forall. intros e He. apply S; [apply in_map; auto|cbn; auto]. }
  pose proof (Forall_inv Hs) as Hk. cbn [map clean_ops fst snd do_op length] in *. split.
  - split; [lia|]. eapply grown_clean; eauto.
  - intros t1 E1. pose proof (put_grown E (fun _ => False) (fun t => t_free_root t = 0) (Q_alloc0 E) (Q_stable0 E) t kvs k v G HQ) as P.
    specialize (P ltac:(intros q []) H1 ltac:(lia) Hk HB). rewrite E1 in P. destruct P as (G1 & (A1 & A2 & A3 & A4 & A5) & Q1).
    apply (IH t1 (kvs ++ [(k, v)])); auto; try lia; [exact (Forall_inv_tail Hs)|]. rewrite <- app_assoc. exact S.
Qed.
