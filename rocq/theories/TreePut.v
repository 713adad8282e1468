(** Lemmas about put: induction along the path, root split, the complete put. *)
From Verif Require Import Util PageModel PageSpec PageProofs PageOps TxnModel CursorModel TreeModel TreeSpec PropPage TreeProofs TreeOps TreeSplit.
Local Open Scope N_scope.

Lemma rank_route p k pre ki c post : ksorted (page_keys false p) ->
  branch_entries p = pre ++ (ki, c) :: post -> (pre = [] \/ kle ki k) -> Forall (fun e => klt k (fst e)) post ->
  pred (length (filter (fun x => negb (kltb k x)) (page_keys false p))) = length pre.
Proof.
  intros S E Hp Ho. rewrite <- branch_entries_keys, E, map_app in *. cbn [map fst] in *.
  rewrite filter_app. cbn [filter].
  rewrite (filter_none _ (map fst post)).
  2:{ intros x Hx. apply in_map_iff in Hx. destruct Hx as (e & <- & He). rewrite Forall_forall in Ho.
      rewrite (proj2 (kltb_spec _ _) (Ho _ He)). reflexivity. }
  destruct Hp as [->|Hp].
  - cbn [map filter app]. destruct (negb (kltb k ki)); reflexivity.
  - rewrite (proj2 (kltb_false k ki) Hp). cbn [negb]. rewrite filter_all, app_length, map_length.
    + cbn [length]. lia.
    + intros x Hx. apply sorted_app in S. destruct S as (_ & _ & S).
      assert (Hlt : kltb k x = false).
      { apply kltb_false. left. eapply klt_kle_trans; [apply (S x ki Hx); cbn; auto|auto]. }
      rewrite Hlt. reflexivity.
Qed.

(** the changes stay inside the child *)
Lemma absorbed_up E t t' h pg pre ki c post lo hi k v : t_rdonly t = false ->
  tree true (get_page E t) (S h) pg lo hi -> NoDup (tree_pages (get_page E t) (S h) pg) ->
  (forall q, In q (tree_pages (get_page E t) (S h) pg) -> q <= t_last t) ->
  branch_entries (get_page E t pg) = pre ++ (ki, c) :: post ->
  (pre = [] \/ kle ki k) -> Forall (fun e => klt k (fst e)) post ->
  evolve (tree_pages (get_page E t) h c) t t' ->
  absorbed E k v t t' h c (nlo pre (start true (get_page E t) pg lo) ki) (nhi post hi) ->
  absorbed E k v t t' (S h) pg lo hi.
Proof.
  intros Hr T ND PG Ebr Hp Ho Ev Ab. set (V := get_page E t) in *. set (V' := get_page E t') in *.
  destruct (NoDup_kids _ _ _ _ _ _ _ ND Ebr) as (N1 & N2 & N3 & N4).
  cbn [tree] in T. destruct T as (Ap & W & K & B). rewrite Ebr in K.
  destruct Ab as (Tc & NDc & PGc & AD & FS & FT). fold V V' in Tc, NDc, PGc, AD, FS, FT.
  assert (Hpgl : pg <= t_last t) by (apply PG; cbn; auto).
  assert (HVpg : V' pg = V pg) by (apply (evolve_get E _ _ _ _ Ev); auto).
  assert (Hsib : forall k' c' q, In (k', c') (pre ++ post) -> In q (tree_pages V h c') -> In q (tree_pages V (S h) pg) /\ q <= t_last t /\ V' q = V q).
  { intros k' c' q Hi Hq. assert (Hin : In q (tree_pages V (S h) pg)).
    { cbn [tree_pages]. right. rewrite Ebr. apply in_flat_map. exists (k', c'). split; auto. rewrite in_app_iff in *. cbn. tauto. }
    splits; auto. apply (evolve_get E _ _ _ _ Ev); auto. eapply N3; eauto. }
  assert (FrS : forall e, In e (pre ++ post) -> tree_kvs V' h (snd e) = tree_kvs V h (snd e) /\ tree_pages V' h (snd e) = tree_pages V h (snd e)).
  { intros [k' c'] He. apply kvs_frame. intros q Hq. eapply Hsib; eauto. }
  assert (EP : flat_map (fun e => tree_pages V' h (snd e)) (branch_entries (V pg)) =
     flat_map (fun e => tree_pages V h (snd e)) pre ++ tree_pages V' h c ++ flat_map (fun e => tree_pages V h (snd e)) post).
  { rewrite Ebr, flat_map_app. cbn [flat_map snd]. f_equal; [|f_equal];
      apply flat_map_ext_in; intros e He; apply FrS; apply in_app_iff; auto. }
  assert (Hnew : forall q, In q (tree_pages V' h c) -> forall k' c', In (k', c') (pre ++ post) -> ~ In q (tree_pages V h c')).
  { intros q Hq k' c' Hi Hq'. destruct (PGc q Hq) as [Hc|Hc].
    - eapply N3; eauto.
    - destruct (Hsib _ _ _ Hi Hq') as (_ & Hle & _). lia. }
  assert (ND0 : NoDup (flat_map (fun e => tree_pages V h (snd e)) pre) /\ NoDup (flat_map (fun e => tree_pages V h (snd e)) post) /\
     (forall x, In x (flat_map (fun e => tree_pages V h (snd e)) pre) -> ~ In x (flat_map (fun e => tree_pages V h (snd e)) post))).
  { cbn [tree_pages] in ND. inversion ND as [|? ? _ ND']; subst. rewrite Ebr, flat_map_app in ND'. cbn [flat_map snd] in ND'.
    apply NoDup_app_inv in ND'. destruct ND' as (D1 & D2 & D3). apply NoDup_app_inv in D2. destruct D2 as (D2 & D4 & D5).
    splits; auto. intros x Hx Hx'. apply (D3 x Hx). apply in_app_iff. auto. }
  destruct ND0 as (ND1 & ND2 & ND3).
  assert (PGn : forall q, In q (flat_map (fun e => tree_pages V' h (snd e)) (branch_entries (V pg))) ->
     (In q (tree_pages V (S h) pg) \/ t_last t < q <= t_last t') /\ q <> pg).
  { intros q. rewrite EP, !in_app_iff. intros [Hq|[Hq|Hq]].
    - apply in_flat_map in Hq. destruct Hq as ([k' c'] & Hi & Hq). assert (Hi' : In (k', c') (pre ++ post)) by (apply in_app_iff; auto).
      split; [left; eapply Hsib; eauto|]. intros ->. eapply N4; eauto.
    - destruct (PGc q Hq) as [Hc|Hc].
      + split; [left|intros ->; auto]. cbn [tree_pages]. right. rewrite Ebr. apply in_flat_map. exists (ki, c). split; auto. apply in_app_iff; cbn; auto.
      + split; [right; auto|]. lia.
    - apply in_flat_map in Hq. destruct Hq as ([k' c'] & Hi & Hq). assert (Hi' : In (k', c') (pre ++ post)) by (apply in_app_iff; auto).
      split; [left; eapply Hsib; eauto|]. intros ->. eapply N4; eauto. }
  unfold absorbed. fold V V'. splits.
  - cbn [tree]. rewrite HVpg, Ebr. splits; auto.
    + change ((ki, c) :: post) with ((ki, c) :: [] ++ post). eapply kids_update; [exact K| |exact Tc].
      intros k' c' l0 h0 Hi. apply tree_frame. intros q Hq. eapply Hsib; eauto.
    + intro Hb. destruct (B Hb) as [B1 B2]. split; auto. destruct h as [|h']; auto. rewrite Ebr in B2. rewrite Forall_forall in *.
      intros e He. rewrite <- (B2 e He). apply in_app_iff in He. cbn [In] in He.
      assert (Hroot : forall x, In x (tree_pages V (S h') x)) by (intros; cbn; auto).
      destruct He as [He|[<-|He]].
      * f_equal. destruct e as [k' c']. eapply Hsib; [apply in_app_iff; eauto|apply Hroot].
      * exact FS.
      * f_equal. destruct e as [k' c']. eapply Hsib; [apply in_app_iff; eauto|apply Hroot].
  - cbn [tree_pages]. rewrite HVpg. constructor.
    + intro Hi. apply PGn in Hi. tauto.
    + rewrite EP. apply NoDup_app_intro; auto.
      * apply NoDup_app_intro; auto. intros x Hx Hx'. apply in_flat_map in Hx'. destruct Hx' as ([k' c'] & Hi & Hq).
        eapply Hnew; eauto. apply in_app_iff; eauto.
      * intros x Hx Hx'. apply in_app_iff in Hx'. destruct Hx' as [Hx'|Hx'].
        -- apply in_flat_map in Hx. destruct Hx as ([k' c'] & Hi & Hq). eapply Hnew; eauto. apply in_app_iff; eauto.
        -- eapply ND3; eauto.
  - intros q Hq. cbn [tree_pages] in Hq. rewrite HVpg in Hq. destruct Hq as [<-|Hq]; [left; cbn; auto|]. apply PGn in Hq. tauto.
  - destruct AD as (m1 & m2 & E1 & E2 & M1 & M2). destruct (kids_sides true V h pre ki c post _ _ k K Hp Ho) as [G1 G2].
    exists (flat_map (fun e => tree_kvs V h (snd e)) pre ++ m1), (m2 ++ flat_map (fun e => tree_kvs V h (snd e)) post).
    cbn [tree_kvs]. rewrite HVpg, Ebr, !flat_map_app. cbn [flat_map snd].
    rewrite (flat_map_ext_in (fun e => tree_kvs V' h (snd e)) (fun e => tree_kvs V h (snd e)) pre)
      by (intros e He; apply FrS; apply in_app_iff; auto).
    rewrite (flat_map_ext_in (fun e => tree_kvs V' h (snd e)) (fun e => tree_kvs V h (snd e)) post)
      by (intros e He; apply FrS; apply in_app_iff; auto).
    splits.
    + rewrite E1, <- !app_assoc. reflexivity.
    + rewrite E2, <- !app_assoc. reflexivity.
    + apply Forall_app; auto.
    + apply Forall_app; auto.
  - rewrite HVpg. reflexivity.
  - intros Hf By. destruct (beyond_route _ _ _ _ _ _ _ _ By Ebr Ho) as [-> Byc].
    cbn [fat] in Hf |- *. destruct Hf as (pre' & k0 & c0 & Ef & Hne & Hf). rewrite Ebr in Ef. apply last_eq in Ef. destruct Ef as [-> Ef].
    injection Ef as <- <-. exists pre', ki, c. rewrite HVpg. splits; auto.
Qed.

Section Put.
Variables (al : allocator) (E : env) (F : N -> Prop) (Q : txn -> Prop).
Hypothesis Q_alloc : forall t, Q t -> t_rdonly t = false -> al E t = Ret (t_last t + 1) (set_last t (t_last t + 1)).
Hypothesis Q_stable : forall t t', Q t -> t_rdonly t' = t_rdonly t -> t_id t' = t_id t -> t_free_root t' = t_free_root t ->
  (forall q, F q -> get_page E t' q = get_page E t q) -> Q t'.

Lemma comp_ok k v : leaf_size k v < 65536 -> forall h pg path lo hi t,
  Q t -> t_rdonly t = false -> route (get_page E t) k h pg path ->
  tree true (get_page E t) h pg lo hi -> NoDup (tree_pages (get_page E t) h pg) ->
  (forall q, In q (tree_pages (get_page E t) h pg) -> q <= t_last t /\ ~ F q) ->
  (forall q, F q -> q <= t_last t) ->
  (forall q, In q path -> dget (t_dirty t) q = Some (get_page E t q)) ->
  inrange true (get_page E t) h pg lo hi k ->
  lookup k (leaf_entries (get_page E t (leaf_of path))) = None ->
  page_free (get_page E t (leaf_of path)) < leaf_size k v + 2 ->
  split_plan (get_page E t) k (leaf_size k v) h pg <> None ->
  t_last t + N.of_nat (S h) < 2 ^ 64 ->
  match comp al E t path k v with
  | Ret up t' => evolve (tree_pages (get_page E t) h pg) t t' /\ t_last t' <= t_last t + N.of_nat (S h) /\
      match up with
      | None => absorbed E k v t t' h pg lo hi /\ split_plan (get_page E t) k (leaf_size k v) h pg = Some None
      | Some (d, r) => splitted E k v t t' h pg lo hi d r /\ r <= t_last t' /\
          split_plan (get_page E t) k (leaf_size k v) h pg = Some (Some d)
      end
  | Fail _ _ => True
  | Bad | NoFuel => False
  end.
Proof.
  intro Hs. induction h as [|h IH]; intros pg path lo hi t HQ Hr R T ND PG HF HD IR HL Hfull HP Hlast.
  - inversion R; subst. unfold leaf_of in HL, Hfull. cbn [last] in HL, Hfull.
    destruct (comp_leaf al E F Q Q_alloc Q_stable t pg lo hi k v) as [(e & t' & ->)|(d & r & t' & -> & Ev & El & Sp & Pl)]; auto.
    + apply PG. cbn; auto.
    + apply HD. cbn; auto.
    + cbn [tree_pages]. splits; auto; [lia|].
      destruct Sp as (_ & _ & _ & _ & _ & PGx & _). specialize (PGx r). cbn [tree_pages] in PGx.
      destruct PGx as [Hx|Hx]; [cbn; auto| |lia]. destruct Hx as [<-|[]].
      assert (pg <= t_last t) by (apply PG; cbn; auto). lia.
  - inversion R as [|h0 pg0 pre ki c post path0 Ebr Hp Ho Rc]; subst.
    rewrite comp_cons by (eapply route_nonempty; eauto).
    rewrite leaf_of_cons in HL, Hfull by (eapply route_nonempty; eauto).
    destruct (inrange_child _ _ _ _ _ _ _ _ _ _ _ T IR Ebr Hp Ho) as [IRc _].
    destruct (NoDup_kids _ _ _ _ _ _ _ ND Ebr) as (N1 & N2 & N3 & N4).
    pose proof T as T0. cbn [tree] in T0. destruct T0 as (Ap & W & K & B).
    pose proof (kids_sorted _ _ _ _ K) as SK. rewrite branch_entries_keys in SK.
    rewrite Ebr in K. pose proof (kids_mid _ _ _ _ _ _ _ K) as Tc.
    assert (Hcp : forall q, In q (tree_pages (get_page E t) h c) -> In q (tree_pages (get_page E t) (S h) pg)).
    { intros q Hq. cbn [tree_pages]. right. rewrite Ebr. apply in_flat_map. exists (ki, c). split; auto. apply in_app_iff; cbn; auto. }
    (* the plan of the child *)
    cbn [split_plan] in HP |- *.
    rewrite (rank_route _ k pre ki c post SK Ebr Hp Ho) in HP |- *.
    rewrite Ebr, nth_error_mid in HP |- *.
    specialize (IH c path0 _ _ t HQ Hr Rc Tc N1 (fun q Hq => PG q (Hcp q Hq)) HF (fun q Hq => HD q (or_intror Hq)) IRc HL Hfull).
    assert (HPc : split_plan (get_page E t) k (leaf_size k v) h c <> None) by (destruct (split_plan _ k _ h c); congruence).
    specialize (IH HPc ltac:(lia)).
    destruct (comp al E t path0 k v) as [up t'|e t'| |]; cbn [bindo]; auto.
    destruct IH as (Ev & El & Hup).
    assert (Ev' : evolve (tree_pages (get_page E t) (S h) pg) t t').
    { destruct Ev as (A1 & A2 & A3 & A4 & A5 & A6). unfold evolve. splits; auto. }
    destruct up as [[d r]|].
    + destruct Hup as (Sp & Hrl & Pl). rewrite Pl in HP |- *.
      assert (HQ' : Q t').
      { eapply evolve_Q; [exact Q_stable|exact Ev|exact HQ|]. intros q Hq. split; [auto|]. intro Hi. apply Hcp in Hi. apply PG in Hi. tauto. }
      assert (PG' : forall q, In q (tree_pages (get_page E t) (S h) pg) -> q <= t_last t) by (intros q Hq; apply PG; auto).
      destruct (branch_step al E F Q Q_alloc Q_stable t t' h pg pre ki c post lo hi k v d r) as
        [(e & t'' & ->)|[(t'' & -> & Ev'' & El'' & Ab & Hfit)|(d' & r' & t'' & -> & Ev'' & El'' & Sp'' & Hfull' & Hd')]]; auto.
      * apply HD. cbn; auto.
      * lia.
      * destruct (N.leb_spec (branch_size d + 2) (page_free (get_page E t pg))); [left; auto|right].
        destruct (Nat.leb_spec 2 (length (page_keys false (get_page E t pg)))); cbn [andb] in HP; [|congruence].
        destruct (Nat.eqb_spec (S (length pre)) (Nat.div2 (length (page_keys false (get_page E t pg))))); cbn [negb] in HP; [congruence|auto].
      * destruct (N.leb_spec (branch_size d + 2) (page_free (get_page E t pg))); [|lia]. splits; auto; try lia.
      * destruct (N.leb_spec (branch_size d + 2) (page_free (get_page E t pg))); [lia|].
        destruct (Nat.leb_spec 2 (length (page_keys false (get_page E t pg)))); cbn [andb] in HP |- *; [|congruence].
        destruct (Nat.eqb_spec (S (length pre)) (Nat.div2 (length (page_keys false (get_page E t pg))))); cbn [negb] in HP |- *; [congruence|].
        rewrite Hd'. splits; auto; try lia.
        destruct Sp'' as (_ & _ & _ & _ & _ & PGx & Hlt & _). specialize (PGx r'). cbn [tree_pages] in PGx.
        destruct PGx as [Hx|Hx]; [apply in_app_iff; cbn; auto| |lia].
        assert (r' <= t_last t) by (apply PG'; exact Hx). lia.
    + destruct Hup as (Ab & Pl). rewrite Pl in HP |- *. splits; auto; try lia.
      eapply absorbed_up; eauto. intros q Hq; apply PG; auto.
Qed.

Lemma leaf_split_comp t path k v : leaf_split al E t path (leaf_of path) k v =
  (run up, t3 <- comp al E t path k v ;;
   match up with
   | None => Ret None t3
   | Some (d', rpg') => run new, t4 <- root_split al E t3 (hd 0 path) rpg' d' ;; Ret (Some new) t4
   end).
Proof.
  unfold leaf_split, comp. destruct (split_node al E t true (leaf_of path)) as [[[[rpg l] r] d] t1|? ?| |]; cbn [bindo]; auto.
  destruct (insert_split t1 (leaf_of path) rpg l r k (Some v) 0) as [? t2|? ?| |]; cbn [bindo]; auto.
Qed.

Lemma plan_sep V k need h pg lo hi d : tree true V (S h) pg lo hi -> split_plan V k need (S h) pg = Some (Some d) ->
  exists k0, first_sep (V pg) = Some k0 /\ klt k0 d.
Proof.
  intros T P. cbn [tree] in T. destruct T as (_ & W & K & _). pose proof (kids_sorted _ _ _ _ K) as S. rewrite branch_entries_keys in S.
  unfold first_sep. cbn [split_plan] in P.
  destruct (nth_error (branch_entries (V pg)) _) as [[? c]|]; [|discriminate].
  destruct (split_plan V k need h c) as [[d0|]|]; try discriminate.
  destruct (branch_size d0 + 2 <=? page_free (V pg)); [discriminate|].
  destruct (Nat.leb_spec 2 (length (page_keys false (V pg)))) as [Hn|]; cbn [andb] in P; [|discriminate].
  destruct (negb _); [|discriminate]. injection P as P.
  rewrite <- branch_entries_keys in P, S, Hn.
  destruct (branch_entries (V pg)) as [|[k0 c0] rest]; cbn [map fst length] in *; [lia|].
  exists k0. split; [reflexivity|].
  destruct (Nat.div2 (Datatypes.S (length (map fst rest)))) as [|m] eqn:Ed.
  { destruct (length (map fst rest)) as [|[|?]]; cbn in Ed; lia. }
  cbn [nth_error] in P. apply nth_error_In in P. apply sorted_cons_inv in S. destruct S as [_ S].
  rewrite Forall_forall in S. auto.
Qed.

Lemma first_key_ok leaf p k ks : wf_page leaf p -> page_keys leaf p = k :: ks -> first_key leaf p = Ok k.
Proof.
  intros W H. assert (Hn : 0 < pg_nkeys p) by (pose proof (page_keys_length leaf p) as L; rewrite H in L; cbn [length] in L; lia).
  pose proof (wf_key_in_page leaf p 0 W Hn) as X. unfold first_key.
  destruct (key_in_page leaf p (slot p 0)); [|rewrite andb_false_r in X; discriminate].
  f_equal. unfold page_keys, slots in H. destruct (N.to_nat (pg_nkeys p)) as [|n] eqn:En; [lia|].
  cbn in H. injection H as H _. exact H.
Qed.

Lemma leaf_split_ok k v h path t : leaf_size k v < 65536 ->
  Q t -> t_rdonly t = false -> t_root t <> 0 -> route (get_page E t) k h (t_root t) path ->
  tree true (get_page E t) h (t_root t) None None -> NoDup (tree_pages (get_page E t) h (t_root t)) ->
  (forall q, In q (tree_pages (get_page E t) h (t_root t)) -> 2 <= q <= t_last t /\ ~ F q) ->
  (forall q, F q -> q <= t_last t) ->
  (forall q, In q path -> dget (t_dirty t) q = Some (get_page E t q)) ->
  inrange true (get_page E t) h (t_root t) None None k ->
  lookup k (leaf_entries (get_page E t (leaf_of path))) = None ->
  page_free (get_page E t (leaf_of path)) < leaf_size k v + 2 ->
  split_plan (get_page E t) k (leaf_size k v) h (t_root t) <> None ->
  t_last t + N.of_nat (S (S h)) < 2 ^ 64 ->
  match leaf_split al E t path (leaf_of path) k v with
  | Ret new t' => exists h', (h' <= S h)%nat /\
      let root' := match new with Some r => r | None => t_root t end in
      evolve (tree_pages (get_page E t) h (t_root t)) t t' /\ root' <> 0 /\
      tree true (get_page E t') h' root' None None /\ NoDup (tree_pages (get_page E t') h' root') /\
      (forall q, In q (tree_pages (get_page E t') h' root') ->
         In q (tree_pages (get_page E t) h (t_root t)) \/ t_last t < q <= t_last t') /\
      added k v (tree_kvs (get_page E t) h (t_root t)) (tree_kvs (get_page E t') h' root') /\
      t_last t' <= t_last t + N.of_nat (S (S h)) /\
      (fat (get_page E t) h (t_root t) -> beyond (get_page E t) k h (t_root t) -> fat (get_page E t') h' root')
  | Fail _ _ => True
  | Bad | NoFuel => False
  end.
Proof.
  intros Hs HQ Hr Hnz R T ND PG HF HD IR HL Hfull HP Hlast. rewrite leaf_split_comp.
  pose proof (comp_ok k v Hs h (t_root t) path None None t HQ Hr R T ND
    (fun q Hq => conj (proj2 (proj1 (PG q Hq))) (proj2 (PG q Hq))) HF HD IR HL Hfull HP ltac:(lia)) as C.
  destruct (comp al E t path k v) as [up t'|e t'| |]; cbn [bindo]; auto.
  destruct C as (Ev & El & C). destruct up as [[d r]|].
  2:{ destruct C as [Ab _]. destruct Ab as (T' & ND' & PG' & AD & _ & FT). exists h. splits; auto. lia. }
  destruct C as (Sp & Hrl & Pl).
  pose proof Ev as (Er & Eid & Eroot & Efr & Elast & Edg).
  assert (HQ' : Q t').
  { eapply evolve_Q; [exact Q_stable|exact Ev|exact HQ|]. intros q Hq. split; [auto|]. intro Hi. apply PG in Hi. tauto. }
  assert (Hr' : t_rdonly t' = false) by congruence.
  assert (Hpath : hd 0 path = t_root t).
  { pose proof (route_hd _ _ _ _ _ R) as X. destruct path; cbn in *; congruence. }
  rewrite Hpath. unfold root_split. rewrite (Q_alloc t' HQ' Hr'). cbn [bindo]. set (n := t_last t' + 1).
  cbn [set_last t_dirty]. destruct (dget (t_dirty t') (t_root t)) as [p|] eqn:Dp; [|exact I].
  assert (Vp : get_page E t' (t_root t) = p) by (apply get_dirty; auto).
  destruct Sp as (TL & TR & _ & _ & NDs & PGs & Hrt & Hdl & AD & FS & FT). rewrite Vp in FS.
  set (V' := get_page E t') in *.
  (* first key of the old root *)
  assert (HK : exists lk rest, page_keys (match h with O => true | S _ => false end) p = lk :: rest /\ klt lk d /\
     wf_page (match h with O => true | S _ => false end) p /\ tree true V' h (t_root t) (Some lk) (Some d)).
  { destruct h as [|h'].
    - pose proof TL as T0. cbn [tree] in T0. rewrite Vp in T0. destruct T0 as (_ & W & Srt & FB).
      destruct (page_keys true p) as [|lk rest] eqn:EK; [congruence|]. exists lk, rest. splits; auto.
      + apply Forall_inv in FB. apply FB.
      + eapply tree_tighten; eauto. rewrite Vp, EK. apply sorted_cons_inv in Srt. destruct Srt as [_ Hall].
        constructor; [right; auto|]. eapply Forall_impl; [|exact Hall]. intros a Ha. left. exact Ha.
    - destruct FS as [F1 F2]. destruct (plan_sep _ _ _ _ _ _ _ _ T Pl) as (k0 & E0 & Hlt).
      pose proof TL as T0. cbn [tree] in T0. rewrite Vp in T0. destruct T0 as (_ & W & _ & _).
      rewrite E0 in F1. exists k0. unfold first_sep in F1.
      rewrite <- branch_entries_keys. destruct (branch_entries p) as [|[k1 c1] rest] eqn:EB; [discriminate|].
      cbn [hd_error option_map fst] in F1. injection F1 as ->. exists (map fst rest). splits; auto.
      eapply tree_tighten; eauto. rewrite Vp. unfold first_sep. rewrite EB. reflexivity. }
  destruct HK as (lk & rest & EK & Hlt & W & TL').
  set (lf := match h with O => true | S _ => false end) in *.
  assert (Hlf : negb (is_branch p) = lf) by (rewrite (wf_is_branch _ _ W); destruct lf; reflexivity).
  rewrite Hlf, (first_key_ok lf p lk rest W EK). cbn [lift bindo].
  assert (Hlk : blen lk <= 4096) by (eapply wf_key_len; [exact W|rewrite EK; cbn; auto]).
  assert (Hroot64 : t_root t < 2 ^ 64).
  { assert (In (t_root t) (tree_pages (get_page E t) h (t_root t))) by (destruct h; cbn; auto). apply PG in H. lia. }
  destruct (page_insert_branch_correct (init_page n P_BRANCH) 0 lk (t_root t) (init_wf false n)) as [[_ ->]|(_ & n1 & -> & W1 & E1 & P1 & _)];
    cbn [lift bindo]; auto.
  { rewrite init_nkeys. lia. } { unfold branch_size, BRANCH_BASE. lia. }
  assert (EI : branch_entries (init_page n P_BRANCH) = []) by (rewrite branch_entries_raws, init_raws; reflexivity).
  rewrite EI in E1. cbn in E1.
  destruct (page_insert_branch_correct n1 1 d r W1) as [[_ ->]|(_ & n2 & -> & W2 & E2 & P2 & _)]; cbn [lift bindo]; auto.
  { pose proof (branch_entries_length n1) as HL1. rewrite E1 in HL1. cbn [length] in HL1. lia. }
  { unfold branch_size, BRANCH_BASE. lia. } { lia. }
  rewrite E1 in E2. change (N.to_nat 1) with 1%nat in E2. cbn in E2.
  assert (Pn : pg_pgno n2 = n) by (rewrite P2, P1, init_pgno; apply N.mod_small; unfold n; lia).
  set (t4 := put_dirty (set_last t' n) n n2).
  assert (V4 : forall q, get_page E t4 q = if n =? q then n2 else V' q).
  { intro q. unfold t4. rewrite get_put by auto. reflexivity. }
  assert (V4n : get_page E t4 n = n2) by (rewrite V4, N.eqb_refl; reflexivity).
  assert (Fr : forall q, In q (tree_pages V' h (t_root t) ++ tree_pages V' h r) -> get_page E t4 q = V' q).
  { intros q Hq. rewrite V4. destruct (N.eqb_spec n q); auto. apply PGs in Hq. destruct Hq as [Hq|Hq].
    - apply PG in Hq. lia.
    - lia. }
  assert (FrL : forall q, In q (tree_pages V' h (t_root t)) -> get_page E t4 q = V' q) by (intros; apply Fr, in_app_iff; auto).
  assert (FrR : forall q, In q (tree_pages V' h r) -> get_page E t4 q = V' q) by (intros; apply Fr, in_app_iff; auto).
  destruct (kvs_frame V' (get_page E t4) h (t_root t) FrL) as [KL PL].
  destruct (kvs_frame V' (get_page E t4) h r FrR) as [KR PR].
  assert (Hn : n <> 0) by (unfold n; lia).
  exists (S h). cbn zeta.
  assert (EP : tree_pages (get_page E t4) (S h) n = n :: tree_pages V' h (t_root t) ++ tree_pages V' h r).
  { cbn [tree_pages]. rewrite V4n, E2. cbn [flat_map snd]. rewrite PL, PR, app_nil_r. reflexivity. }
  assert (EKV : tree_kvs (get_page E t4) (S h) n = tree_kvs V' h (t_root t) ++ tree_kvs V' h r).
  { cbn [tree_kvs]. rewrite V4n, E2. cbn [flat_map snd]. rewrite KL, KR, app_nil_r. reflexivity. }
  splits; auto.
  - unfold evolve, t4. cbn [put_dirty set_last set_dirty t_rdonly t_id t_root t_free_root t_last]. splits; auto; try lia.
    intros q Hq Hin. rewrite dget_put. destruct (N.eqb_spec n q); [lia|]. apply Edg; auto.
  - cbn [tree]. rewrite V4n, E2. splits; auto.
    + unfold first_sep. rewrite E2. cbn [hd_error option_map fst kids]. splits; auto.
      * eapply tree_frame; eauto.
      * left. exact Hlt.
      * exact I.
      * eapply tree_frame; eauto.
    + intros _. split; [intros; exact I|]. destruct h as [|h']; auto. destruct FS as [_ F2].
      repeat constructor; cbn [fst snd].
      * rewrite FrL by (cbn; auto). rewrite Vp. unfold first_sep, lf in *. rewrite <- branch_entries_keys in EK.
        destruct (branch_entries p); cbn in EK |- *; [discriminate|]. destruct p0; cbn [fst] in EK; congruence.
      * rewrite FrR by (cbn; auto). exact F2.
  - rewrite EP. constructor; auto. intro Hi. apply PGs in Hi. destruct Hi as [Hi|Hi]; [apply PG in Hi|]; unfold n in Hi; lia.
  - rewrite EP. intros q [<-|Hq].
    + right. unfold t4, n. cbn. lia.
    + apply PGs in Hq. destruct Hq as [Hq|Hq]; [left; auto|right]. unfold t4, n. cbn. lia.
  - rewrite EKV. exact AD.
  - unfold t4, n. cbn. lia.
  - intros _ By. cbn [fat]. rewrite V4n, E2. exists [(lk, t_root t)], d, r. splits; auto; [discriminate|].
    eapply fat_frame; [exact FrR|]. apply FT. exact By.
Qed.
End Put.

(** entries added to the leaf for [k] leave the way to it fat *)
Lemma fat_update V V' k : forall h pg path, route V k h pg path -> NoDup (tree_pages V h pg) ->
  (forall q, In q (tree_pages V h pg) -> q <> leaf_of path -> V' q = V q) ->
  (2 <= length (leaf_entries (V' (leaf_of path))))%nat ->
  (match h with O => True | S _ => fat V h pg end) -> beyond V k h pg -> fat V' h pg.
Proof.
  induction h as [|h IH]; intros pg path R ND HV HN Hf By.
  - inversion R; subst. exact HN.
  - pose proof (route_leaf_neq _ _ _ _ _ R ND) as Hn.
    inversion R as [|h0 pg0 pre ki c post path0 Ebr Hp Ho Rc]; subst.
    rewrite leaf_of_cons in HV, HN, Hn by (eapply route_nonempty; eauto).
    destruct (NoDup_kids _ _ _ _ _ _ _ ND Ebr) as (N1 & N2 & N3 & N4).
    destruct (beyond_route _ _ _ _ _ _ _ _ By Ebr Ho) as [-> Byc].
    cbn [fat] in Hf |- *. destruct Hf as (pre' & k0 & c0 & Ef & Hne & Hf). rewrite Ebr in Ef. apply last_eq in Ef. destruct Ef as [-> Ef].
    injection Ef as <- <-. exists pre', ki, c. rewrite (HV pg) by (auto; cbn; auto). splits; auto.
    eapply IH; eauto.
    + intros q Hq Hne'. apply HV; auto. cbn [tree_pages]. right. rewrite Ebr. apply in_flat_map. exists (ki, c). split; auto.
      apply in_app_iff; cbn; auto.
    + destruct h; auto.
Qed.
Lemma beyond_update V V' k : forall h pg path, route V k h pg path -> NoDup (tree_pages V h pg) ->
  (forall q, In q (tree_pages V h pg) -> q <> leaf_of path -> V' q = V q) ->
  Forall (fun e => klt (fst e) k) (leaf_entries (V' (leaf_of path))) ->
  beyond V k h pg -> beyond V' k h pg.
Proof.
  induction h as [|h IH]; intros pg path R ND HV HN By.
  - inversion R; subst. exact HN.
  - pose proof (route_leaf_neq _ _ _ _ _ R ND) as Hn.
    inversion R as [|h0 pg0 pre ki c post path0 Ebr Hp Ho Rc]; subst.
    rewrite leaf_of_cons in HV, HN, Hn by (eapply route_nonempty; eauto).
    destruct (NoDup_kids _ _ _ _ _ _ _ ND Ebr) as (N1 & N2 & N3 & N4).
    destruct (beyond_route _ _ _ _ _ _ _ _ By Ebr Ho) as [-> Byc].
    cbn [beyond] in By |- *. destruct By as (pre' & k0 & c0 & Ef & Hk0 & _). rewrite Ebr in Ef. apply last_eq in Ef. destruct Ef as [-> Ef].
    injection Ef as <- <-. exists pre', ki, c. rewrite (HV pg) by (auto; cbn; auto). splits; auto.
    eapply IH; eauto.
    intros q Hq Hne'. apply HV; auto. cbn [tree_pages]. right. rewrite Ebr. apply in_flat_map. exists (ki, c). split; auto.
    apply in_app_iff; cbn; auto.
Qed.
(** a fat way ends in a leaf with two entries *)
Lemma fat_leaf V k : forall h pg path, route V k h pg path -> fat V h pg -> beyond V k h pg ->
  (2 <= length (leaf_entries (V (leaf_of path))))%nat /\ Forall (fun e => klt (fst e) k) (leaf_entries (V (leaf_of path))).
Proof.
  induction h as [|h IH]; intros pg path R Hf By.
  - inversion R; subst. auto.
  - inversion R as [|h0 pg0 pre ki c post path0 Ebr Hp Ho Rc]; subst.
    rewrite leaf_of_cons by (eapply route_nonempty; eauto).
    destruct (beyond_route _ _ _ _ _ _ _ _ By Ebr Ho) as [-> Byc].
    cbn [fat] in Hf. destruct Hf as (pre' & k0 & c0 & Ef & Hne & Hf). rewrite Ebr in Ef. apply last_eq in Ef. destruct Ef as [-> Ef].
    injection Ef as <- <-. eapply IH; eauto.
Qed.

Lemma find_path_too_deep b E t k : blen k < 65536 -> forall fuel h pg lo hi,
  tree b (get_page E t) h pg lo hi -> (fuel <= h)%nat -> exists e, find_path fuel E t pg k = Err e.
Proof.
  intros Hk. induction fuel as [|f IH]; intros h pg lo hi T Hf; cbn [find_path]; eauto.
  destruct h as [|h]; [lia|]. destruct (max_pgno E t <? pg); eauto.
  cbn [tree] in T. destruct T as (_ & W & K & _).
  rewrite (wf_is_leaf false _ W), (wf_is_branch false _ W). cbn [negb].
  pose proof (kids_sorted _ _ _ _ K) as S. rewrite branch_entries_keys in S.
  destruct (child_of_ok _ k W S Hk (kids_nonempty _ _ _ _ K)) as (pre & ki & c & post & Ee & _ & Ec & Hp & _ & Ho).
  rewrite Ec. cbn [bindr]. rewrite Ee in K. pose proof (kids_mid _ _ _ _ _ _ _ K) as Tc.
  destruct (IH h c _ _ Tc ltac:(lia)) as (e & ->). exists e. reflexivity.
Qed.

Lemma split_plan_frame V V' k need : forall h pg path lo hi, route V k h pg path -> tree true V h pg lo hi -> NoDup (tree_pages V h pg) ->
  (forall q, In q (tree_pages V h pg) -> q <> leaf_of path -> V' q = V q) ->
  leaf_avail (V' (leaf_of path)) k = leaf_avail (V (leaf_of path)) k ->
  leaf_others (V' (leaf_of path)) k = leaf_others (V (leaf_of path)) k ->
  split_plan V' k need h pg = split_plan V k need h pg.
Proof.
  induction h as [|h IH]; intros pg path lo hi R T ND HV HA HO.
  - inversion R; subst. unfold leaf_of in HA, HO. cbn [last] in HA, HO. cbn [split_plan]. rewrite HA, HO. reflexivity.
  - pose proof (route_leaf_neq _ _ _ _ _ R ND) as Hn.
    inversion R as [|h0 pg0 pre ki c post path0 Ebr Hp Ho Rc]; subst.
    rewrite leaf_of_cons in HV, Hn, HA, HO by (eapply route_nonempty; eauto).
    destruct (NoDup_kids _ _ _ _ _ _ _ ND Ebr) as (N1 & N2 & N3 & N4).
    cbn [tree] in T. destruct T as (_ & W & K & _).
    pose proof (kids_sorted _ _ _ _ K) as S. rewrite branch_entries_keys in S.
    rewrite Ebr in K. pose proof (kids_mid _ _ _ _ _ _ _ K) as Tc.
    cbn [split_plan]. rewrite (HV pg) by (auto; cbn; auto).
    rewrite (rank_route _ k pre ki c post S Ebr Hp Ho), Ebr, nth_error_mid.
    rewrite (IH c path0 _ _ Rc Tc N1); auto.
    intros q Hq Hne. apply HV; auto. cbn [tree_pages]. right. rewrite Ebr. apply in_flat_map. exists (ki, c). split; auto.
    apply in_app_iff; cbn; auto.
Qed.

Lemma added_lookup k v l l' : ksorted (map fst l') -> lookup k l = None -> added k v l l' ->
  forall k', lookup k' l' = if key_dec k' k then Some v else lookup k' l.
Proof.
  intros S HL (m1 & m2 & -> & -> & M1 & M2) k'. destruct (key_dec k' k) as [->|Hne].
  - rewrite lookup_app, lookup_below by auto. cbn. destruct (key_dec k k); congruence.
  - apply lookup_other. auto.
Qed.

Section PutAll.
Variables (al : allocator) (E : env) (F : N -> Prop) (Q : txn -> Prop).
Hypothesis Q_alloc : forall t, Q t -> t_rdonly t = false -> al E t = Ret (t_last t + 1) (set_last t (t_last t + 1)).
Hypothesis Q_stable : forall t t', Q t -> t_rdonly t' = t_rdonly t -> t_id t' = t_id t -> t_free_root t' = t_free_root t ->
  (forall q, F q -> get_page E t' q = get_page E t q) -> Q t'.

(** the control fields a put does not touch, and the pages it leaves alone *)
Definition put_frame (t t' : txn) : Prop :=
  t_rdonly t' = t_rdonly t /\ t_id t' = t_id t /\ t_free_root t' = t_free_root t /\
  t_last t <= t_last t' <= t_last t + 40 /\ (forall q, F q -> get_page E t' q = get_page E t q).

Lemma new_root_leaf_ok t k v : Q t -> t_rdonly t = false -> leaf_size k v < 65536 -> t_last t + 1 < 2 ^ 64 ->
  (forall q, F q -> q <= t_last t) ->
  match new_root_leaf al E t k v with
  | Ret n t' => n = t_last t + 1 /\ put_frame t t' /\ t_last t' = t_last t + 1 /\
      pg_pgno (get_page E t' n) = n /\ wf_page true (get_page E t' n) /\ leaf_entries (get_page E t' n) = [(k, v)] /\
      t_root t' = t_root t /\ (forall q, q <> n -> get_page E t' q = get_page E t q) /\
      page_free (get_page E t' n) = PAGE_SIZE - HDR - (leaf_size k v + 2)
  | Fail _ _ => True
  | _ => False
  end.
Proof.
  intros HQ Hr Hs Hl HF. unfold new_root_leaf. rewrite (Q_alloc t HQ Hr). cbn [bindo]. set (n := t_last t + 1).
  assert (EI : leaf_entries (init_page n P_LEAF) = []) by (rewrite leaf_entries_raws, init_raws; reflexivity).
  destruct (page_insert_leaf_correct (init_page n P_LEAF) 0 k v 0 (init_wf true n)) as [[_ ->]|(_ & p & -> & W & Ee & P & Fp)]; cbn [lift bindo]; auto.
  { rewrite init_nkeys. lia. }
  rewrite EI in Ee. cbn in Ee.
  assert (V4 : forall q, get_page E (put_dirty (set_last t n) n p) q = if n =? q then p else get_page E t q).
  { intro q. rewrite get_put by auto. reflexivity. }
  rewrite V4, N.eqb_refl. splits; auto.
  - unfold put_frame. cbn. splits; auto; try (unfold n; lia). intros q Hq. apply HF in Hq.
    change (get_page E (put_dirty (set_last t n) n p) q = get_page E t q). rewrite V4. destruct (N.eqb_spec n q); auto. unfold n in *. lia.
  - rewrite P, init_pgno. apply N.mod_small. unfold n. lia.
  - intros q Hq. rewrite V4. destruct (N.eqb_spec n q); congruence.
Qed.


Lemma route_leaf_on V k : forall h pg path lo hi b, route V k h pg path -> tree b V h pg lo hi -> leaf_on V k h pg = leaf_of path.
Proof.
  induction h as [|h IH]; intros pg path lo hi b R T.
  - inversion R; subst. reflexivity.
  - inversion R as [|h0 pg0 pre ki c post path0 Ebr Hp Ho Rc]; subst.
    rewrite leaf_of_cons by (eapply route_nonempty; eauto).
    cbn [tree] in T. destruct T as (_ & W & K & _).
    pose proof (kids_sorted _ _ _ _ K) as S. rewrite branch_entries_keys in S.
    rewrite Ebr in K. pose proof (kids_mid _ _ _ _ _ _ _ K) as Tc.
    cbn [leaf_on]. rewrite (rank_route _ k pre ki c post S Ebr Hp Ho), Ebr, nth_error_mid. eapply IH; eauto.
Qed.

Lemma route_leaf_lookup b V k h pg path lo hi : route V k h pg path -> tree b V h pg lo hi -> NoDup (tree_pages V h pg) ->
  lookup k (tree_kvs V h pg) = lookup k (leaf_entries (V (leaf_of path))).
Proof.
  intros R T ND. destruct (route_leaf_tree _ _ _ _ _ _ _ _ R T) as (Pl & Wl & Sl).
  destruct (route_update b V V k h pg path lo hi R T ND) as (_ & _ & m1 & m2 & EM1 & _ & M1 & M2 & _ & _); auto.
  rewrite EM1, !lookup_app, lookup_below by auto. destruct (lookup k (leaf_entries (V (leaf_of path)))); auto. apply lookup_above. auto.
Qed.

(** put without a split *)
Lemma db_put_fits b h t kvs k v : leaf_size k v < 65536 -> (h < 32)%nat -> t_rdonly t = false -> t_root t <> 0 ->
  tree b (get_page E t) h (t_root t) None None -> NoDup (tree_pages (get_page E t) h (t_root t)) ->
  Forall (fun q => 2 <= q <= t_last t) (tree_pages (get_page E t) h (t_root t)) ->
  tree_kvs (get_page E t) h (t_root t) = kvs ->
  inrange b (get_page E t) h (t_root t) None None k ->
  (forall q, In q (tree_pages (get_page E t) h (t_root t)) -> ~ F q) ->
  leaf_size k v + 2 <= leaf_avail (get_page E t (leaf_on (get_page E t) k h (t_root t))) k ->
  (dget (t_dirty t) (leaf_on (get_page E t) k h (t_root t)) <> None /\ lookup k kvs <> None /\ db_put_with al E t k v = Fail EEXIST t) \/
  exists t', db_put_with al E t k v = Ret tt t' /\ same_ctl t t' /\ put_frame t t' /\
    tree b (get_page E t') h (t_root t) None None /\
    tree_pages (get_page E t') h (t_root t) = tree_pages (get_page E t) h (t_root t) /\
    (forall k', lookup k' (tree_kvs (get_page E t') h (t_root t)) = if key_dec k' k then Some v else lookup k' kvs) /\
    (match h with O => leaf_entries (get_page E t (t_root t)) <> [] | S _ => fat (get_page E t) h (t_root t) end ->
     beyond (get_page E t) k h (t_root t) -> fat (get_page E t') h (t_root t)).
Proof.
  intros Hs Hh Hr Hnz T ND PG EK IR NF. pose proof (leaf_size_key _ _ Hs) as Hk.
  destruct (put_prepare al E t k v b h Hk Hr Hnz T ND PG Hh) as (path & R & HP).
  rewrite (route_leaf_on _ _ _ _ _ _ _ _ R T). intro Hav.
  destruct HP as [(H1 & H2 & H3)|(t4 & p1 & l1 & l2 & EQ & SC & HV & HD & W1 & P1 & E1 & F1 & F2 & HE)].
  - left. splits; auto. rewrite <- EK, (route_leaf_lookup b _ k h (t_root t) path None None R T ND). auto.
  - right. rewrite EQ. unfold finish.
    assert (Hfree : page_free p1 = leaf_avail (get_page E t (leaf_of path)) k).
    { unfold leaf_avail. destruct HE as [(EE & ->)|(_ & v0 & EE & ->)]; rewrite EE.
      - rewrite lookup_app, lookup_below, lookup_above by auto. lia.
      - rewrite lookup_mid; [lia|]. rewrite <- lookup_in_iff, lookup_below by auto. tauto. }
    destruct (leaf_insert_cases p1 k v l1 l2 W1 Hs E1) as [[Hf _]|(Hf & p2 & -> & W2 & E2 & P2 & _)]; [lia|].
    destruct SC as (S1 & S2 & S3 & S4 & S5).
    assert (Hr4 : t_rdonly t4 = false) by congruence.
    exists (put_dirty t4 (leaf_of path) p2). split; [reflexivity|].
    assert (HV' : forall q, get_page E (put_dirty t4 (leaf_of path) p2) q = if leaf_of path =? q then p2 else get_page E t q).
    { intro q. rewrite get_put by auto. destruct (leaf_of path =? q) eqn:Eq; auto. rewrite HV, Eq. reflexivity. }
    destruct (put_leaf b E t (put_dirty t4 (leaf_of path) p2) k v h path p2 l1 l2 Hr T ND R IR) as (T' & P' & _ & L'); auto; try congruence.
    { destruct HE as [(EE & _)|(_ & v0 & EE & _)]; eauto. }
    assert (Hleaf : In (leaf_of path) (tree_pages (get_page E t) h (t_root t))) by (eapply route_leaf_in; eauto).
    splits; auto.
    + unfold same_ctl. cbn. splits; auto.
    + unfold put_frame. cbn [put_dirty set_dirty t_rdonly t_id t_free_root t_last]. splits; auto; try lia.
      intros q Hq. rewrite HV'. destruct (N.eqb_spec (leaf_of path) q) as [<-|]; auto. exfalso. eapply NF; eauto.
    + intro k'. rewrite L', EK, E2, lookup_mid; auto. rewrite <- lookup_in_iff, lookup_below by auto. tauto.
    + intros Hft By. assert (Hlen : (1 <= length (leaf_entries (get_page E t (leaf_of path))))%nat /\
         Forall (fun e => klt (fst e) k) (leaf_entries (get_page E t (leaf_of path)))).
      { destruct h as [|h'].
        - inversion R; subst. unfold leaf_of. cbn [last]. split; [|exact By]. cbn in Hft. destruct (leaf_entries (get_page E t (t_root t))); [congruence|cbn; lia].
        - destruct (fat_leaf _ _ _ _ _ R Hft By). split; auto; lia. }
      destruct Hlen as [Hlen Hall].
      eapply fat_update; eauto.
      * intros q Hq Hne. rewrite HV'. destruct (N.eqb_spec (leaf_of path) q); congruence.
      * rewrite HV', N.eqb_refl, E2, app_length. cbn [length].
        destruct HE as [(EE & _)|(_ & v0 & EE & _)].
        -- rewrite EE, app_length in Hlen. lia.
        -- exfalso. rewrite EE, Forall_app in Hall. destruct Hall as [_ Hall]. apply Forall_inv in Hall. exact (klt_irrefl _ Hall).
      * destruct h; auto.
Qed.


Definition sound (h : nat) (t : txn) (kvs : list (key * bytes)) : Prop :=
  t_rdonly t = false /\ t_root t <> 0 /\ tree true (get_page E t) h (t_root t) None None /\
  NoDup (tree_pages (get_page E t) h (t_root t)) /\
  (forall q, In q (tree_pages (get_page E t) h (t_root t)) -> 2 <= q <= t_last t /\ ~ F q) /\
  tree_kvs (get_page E t) h (t_root t) = kvs.

(** the general put into a non-empty tree *)
Lemma db_put_sound h t kvs k v : leaf_size k v < 65536 -> t_last t + 40 < 2 ^ 64 -> (h <= 32)%nat -> sound h t kvs -> Q t ->
  (forall q, F q -> q <= t_last t) ->
  inrange true (get_page E t) h (t_root t) None None k ->
  split_plan (get_page E t) k (leaf_size k v) h (t_root t) <> None ->
  match db_put_with al E t k v with
  | Ret _ t' => exists h' kvs', (h' <= 32)%nat /\ sound h' t' kvs' /\ put_frame t t' /\
     (forall k', lookup k' kvs' = if key_dec k' k then Some v else lookup k' kvs) /\
     (fat (get_page E t) h (t_root t) -> beyond (get_page E t) k h (t_root t) -> fat (get_page E t') h' (t_root t'))
  | Fail _ _ => True
  | Bad | NoFuel => False
  end.
Proof.
  intros Hs Hl Hh (Hr & Hnz & T & ND & PG & EK) HQ HF IR HP. pose proof (leaf_size_key _ _ Hs) as Hk.
  destruct (le_lt_dec 32 h) as [Hd|Hd].
  { unfold db_put_with. rewrite Hr. destruct (N.eqb_spec (t_root t) 0); [tauto|].
    destruct (find_path_too_deep true E t k Hk MAX_TREE_DEPTH h (t_root t) _ _ T Hd) as (e & ->). exact I. }
  assert (PG2 : Forall (fun q => 2 <= q <= t_last t) (tree_pages (get_page E t) h (t_root t))).
  { rewrite Forall_forall. intros q Hq. apply PG; auto. }
  destruct (put_prepare al E t k v true h Hk Hr Hnz T ND PG2 Hd) as (path & R & [(_ & _ & ->)|HX]); auto.
  destruct HX as (t4 & p1 & l1 & l2 & EQ & SC & HV & HD & W1 & P1 & E1 & F1 & F2 & HE).
  assert (Havail : page_free p1 = leaf_avail (get_page E t (leaf_of path)) k).
  { unfold leaf_avail. destruct HE as [(EE & ->)|(_ & v0 & EE & ->)]; rewrite EE.
    - rewrite lookup_app, lookup_below, lookup_above by auto. lia.
    - rewrite lookup_mid; [lia|]. rewrite <- lookup_in_iff, lookup_below by auto. tauto. }
  destruct (N.le_gt_cases (leaf_size k v + 2) (page_free p1)) as [Hfit|Hfull].
  { destruct (db_put_fits true h t kvs k v Hs Hd Hr Hnz T ND PG2 EK IR) as [(_ & _ & ->)|(t' & -> & SC' & FR & T' & P' & L' & FT)]; auto.
    - intros q Hq. apply PG; auto.
    - rewrite (route_leaf_on _ _ _ _ _ _ _ _ R T). lia.
    - destruct SC' as (S1 & S2 & S3 & S4 & S5). exists h, (tree_kvs (get_page E t') h (t_root t)). splits; auto.
      + unfold sound. rewrite S3, P', S5. splits; auto; congruence.
      + intros Hf By. rewrite S3. apply FT; auto. destruct h; auto. cbn [fat] in Hf. intro X. rewrite X in Hf. cbn in Hf. lia. }
  rewrite EQ. unfold finish.
  destruct (leaf_insert_cases p1 k v l1 l2 W1 Hs E1) as [[_ ->]|[Hc _]]; [|lia].
  pose proof SC as (S1 & S2 & S3 & S4 & S5). assert (Hr4 : t_rdonly t4 = false) by congruence.
  destruct (put_leaf true E t t4 k v h path p1 l1 l2 Hr T ND R IR) as (T4 & P4 & R4 & L4); auto.
  { destruct HE as [(EE & _)|(_ & v0 & EE & _)]; eauto. }
  assert (Hleaf : In (leaf_of path) (tree_pages (get_page E t) h (t_root t))) by (eapply route_leaf_in; eauto).
  assert (Vl : get_page E t4 (leaf_of path) = p1) by (rewrite HV, N.eqb_refl; reflexivity).
  assert (HL4 : lookup k (leaf_entries p1) = None) by (rewrite E1, lookup_app, lookup_below, lookup_above by auto; reflexivity).
  assert (FR4 : forall q, F q -> get_page E t4 q = get_page E t q).
  { intros q Hq. rewrite HV. destruct (N.eqb_spec (leaf_of path) q) as [<-|]; auto. apply PG in Hleaf. tauto. }
  assert (HQ4 : Q t4) by (eapply Q_stable; eauto).
  assert (IR4 : inrange true (get_page E t4) h (t_root t4) None None k).
  { rewrite S3. destruct IR as (I1 & I2 & I3). unfold inrange. splits; auto. intro Hb. specialize (I3 Hb). destruct h as [|h']; auto.
    rewrite HV. destruct (N.eqb_spec (leaf_of path) (t_root t)) as [Hx|]; auto.
    exfalso. pose proof (route_leaf_neq _ _ _ _ _ R ND). congruence. }
  assert (HP4 : split_plan (get_page E t4) k (leaf_size k v) h (t_root t4) <> None).
  { rewrite S3, (split_plan_frame (get_page E t) (get_page E t4) k (leaf_size k v) h (t_root t) path None None R T ND); auto.
    - intros q Hq Hne. rewrite HV. destruct (N.eqb_spec (leaf_of path) q); congruence.
    - rewrite Vl. destruct (leaf_plan p1 k HL4) as [_ ->]. auto.
    - rewrite Vl. destruct (leaf_plan p1 k HL4) as [-> _]. unfold leaf_others. rewrite <- !leaf_entries_keys, E1.
      destruct HE as [(EE & _)|(_ & v0 & EE & _)]; rewrite EE, !map_app, !filter_app; cbn [map fst filter];
      rewrite !filter_all; auto;
      try (intros x Hx; apply in_map_iff in Hx; destruct Hx as (e & <- & He); destruct (key_dec (fst e) k) as [Hxk|]; auto;
           rewrite Forall_forall in F1, F2; exfalso; first [apply F1 in He|apply F2 in He]; rewrite Hxk in He; eapply klt_irrefl; eauto).
      destruct (key_dec k k); [|congruence]. auto. }
  pose proof (leaf_split_ok al E F Q Q_alloc Q_stable k v h path t4 Hs HQ4 Hr4) as LS.
  rewrite S3, P4, S5, Vl in LS. rewrite S3 in IR4, HP4.
  specialize (LS Hnz R4 T4 ND PG HF HD IR4 HL4 ltac:(lia) HP4 ltac:(lia)).
  destruct (leaf_split al E t4 path (leaf_of path) k v) as [new t5|e t5| |]; cbn [bindo]; auto.
  destruct LS as (h' & Hh' & Ev & Hnz' & T' & ND' & PG' & AD & Hl' & FT).
  set (root' := match new with Some r => r | None => t_root t end) in *.
  pose proof Ev as (A1 & A2 & A3 & A4 & A5 & A6).
  set (t6 := match new with Some r => set_root t5 r | None => t5 end).
  assert (Hroot6 : t_root t6 = root') by (unfold t6, root'; destruct new; cbn; congruence).
  assert (HV6 : forall q, get_page E t6 q = get_page E t5 q) by (intro q; unfold t6; destruct new; reflexivity).
  assert (FR6 : forall q, F q -> get_page E t6 q = get_page E t q).
  { intros q Hq. rewrite HV6, (evolve_get E _ _ _ _ Ev); auto.
    - rewrite S5. auto.
    - intro Hi. apply PG in Hi. tauto. }
  exists h', (tree_kvs (get_page E t5) h' root').
  destruct (kvs_frame (get_page E t5) (get_page E t6) h' root' (fun q _ => HV6 q)) as [KV6 PG6].
  splits; auto; [lia| | | |].
  - unfold sound. rewrite Hroot6, KV6, PG6. splits; auto.
    + unfold t6. destruct new; cbn; congruence.
    + eapply tree_frame; [|exact T']. intros; auto.
    + assert (El6 : t_last t6 = t_last t5) by (unfold t6; destruct new; reflexivity). rewrite El6, S5 in *.
      intros q Hq. apply PG' in Hq. destruct Hq as [Hq|Hq].
      * apply PG in Hq. split; [lia|tauto].
      * split; [|intro HFq; apply HF in HFq; lia].
        assert (1 <= t_last t) by (assert (In (t_root t) (tree_pages (get_page E t) h (t_root t))) as Hr0 by (destruct h; cbn; auto); apply PG in Hr0; lia). lia.
  - unfold put_frame. assert (El6 : t_last t6 = t_last t5 /\ t_rdonly t6 = t_rdonly t5 /\ t_id t6 = t_id t5 /\ t_free_root t6 = t_free_root t5)
      by (unfold t6; destruct new; cbn; auto). destruct El6 as (-> & -> & -> & ->). splits; auto; try congruence; lia.
  - intro k'. destruct (tree_content _ _ _ _ _ _ T') as [Srt _].
    rewrite (added_lookup k v (tree_kvs (get_page E t4) h (t_root t)) _ Srt); auto.
    + destruct (key_dec k' k); auto. rewrite L4, EK. destruct (key_dec k' k); congruence.
    + rewrite L4. destruct (key_dec k k); congruence.
  - intros Hf By. rewrite Hroot6. apply (fat_frame (get_page E t5)); [auto|].
    destruct (fat_leaf _ _ _ _ _ R Hf By) as [Hlen Hall].
    assert (EE' : leaf_entries (get_page E t (leaf_of path)) = l1 ++ l2).
    { destruct HE as [(EE & _)|(_ & v0 & EE & _)]; auto.
      exfalso. rewrite EE, Forall_app in Hall. destruct Hall as [_ Hall]. apply Forall_inv in Hall. exact (klt_irrefl _ Hall). }
    assert (HN : (2 <= length (leaf_entries (get_page E t4 (leaf_of path))))%nat) by (rewrite Vl, E1, <- EE'; exact Hlen).
    assert (Ho4 : forall q, In q (tree_pages (get_page E t) h (t_root t)) -> q <> leaf_of path -> get_page E t4 q = get_page E t q).
    { intros q _ Hne. rewrite HV. destruct (N.eqb_spec (leaf_of path) q); congruence. }
    apply FT.
    + apply (fat_update (get_page E t) _ k h (t_root t) path R ND Ho4 HN); [destruct h; auto|exact By].
    + apply (beyond_update (get_page E t) _ k h (t_root t) path R ND Ho4); [|exact By]. rewrite Vl, E1, <- EE'. exact Hall.
Qed.

(** put into an empty tree *)
Lemma db_put_empty t k v : leaf_size k v < 65536 -> t_last t + 40 < 2 ^ 64 -> t_rdonly t = false -> t_root t = 0 -> Q t ->
  1 <= t_last t -> (forall q, F q -> q <= t_last t) ->
  match db_put_with al E t k v with
  | Ret _ t' => sound 0 t' [(k, v)] /\ put_frame t t' /\ page_free (get_page E t' (t_root t')) = PAGE_SIZE - HDR - (leaf_size k v + 2)
  | Fail _ _ => True
  | Bad | NoFuel => False
  end.
Proof.
  intros Hs Hl Hr H0 HQ H1 HF. unfold db_put_with. rewrite Hr, H0. cbn [N.eqb].
  pose proof (new_root_leaf_ok t k v HQ Hr Hs ltac:(lia) HF) as NR.
  destruct (new_root_leaf al E t k v) as [n t1|? ?| |]; cbn [bindo]; auto.
  destruct NR as (-> & FR & L1 & P1 & W1 & E1 & R1 & O1 & Fp). destruct FR as (A1 & A2 & A3 & A4 & A5).
  set (n := t_last t + 1) in *.
  assert (HV : forall q, get_page E (set_root t1 n) q = get_page E t1 q) by reflexivity.
  assert (KK : page_keys true (get_page E t1 n) = [k]) by (rewrite <- leaf_entries_keys, E1; reflexivity).
  split; [|split; [|exact Fp]].
  - unfold sound. cbn [set_root t_rdonly t_root t_last]. cbn [tree tree_pages tree_kvs]. rewrite !HV, KK. splits; auto; try congruence.
    + unfold n; lia.
    + repeat constructor.
    + repeat constructor.
    + repeat constructor; cbn; auto.
    + intros q [<-|[]]. unfold n in *. split; [lia|]. intro Hq. apply HF in Hq. lia.
  - unfold put_frame. cbn [set_root t_rdonly t_root t_last t_id t_free_root]. splits; auto; lia.
Qed.
End PutAll.
