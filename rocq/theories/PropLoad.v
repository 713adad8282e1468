(** Property C144: a database loaded in ascending order of the keys is listed completely and in
    order by a cursor. *)
From Verif Require Import Util PageModel PageSpec PageProofs PageOps TxnModel CursorModel TreeModel TreeSpec PropPage TreeProofs TreeOps TreeSplit TreePut TreeShape TreeOrder TxnInv DbModel SysModel DbSpec DbProofs CursorSpec CursorProofs DbCommit PropTree PropCursor PropCommit PropReuse TreeTotal PropOrder PropTotal.
From Coq Require Import Sorting.Sorted.
Local Open Scope N_scope.

(** ** Lemmas *)
Lemma bushy_full V : forall h pg, bushy V h pg -> no_empty_leaf V h pg.
Proof.
  induction h as [|h IH]; intros pg B; cbn [bushy no_empty_leaf] in *; [exact B|]. destruct B as (_ & B).
  eapply Forall_impl; [|exact B]. intros e. apply IH.
Qed.
Lemma full_frame V V' : (forall q, V' q = V q) -> forall h pg, no_empty_leaf V h pg -> no_empty_leaf V' h pg.
Proof.
  intro H. induction h as [|h IH]; intros pg N; cbn [no_empty_leaf] in *; rewrite H; [exact N|].
  eapply Forall_impl; [|exact N]. intros e. apply IH.
Qed.

Lemma ops_lout E : forall os t, lout t (do_ops E t os).
Proof. induction os as [|o r IH]; intro t; cbn [do_ops]; [apply later_refl|]. apply bind_lout; [destruct o; [apply put_later|apply db_del_lout]|]. intros; apply IH. Qed.
(** the pairs [l] stand in a well-formed tree without empty leaves, no page has been freed *)
Definition laid (E : env) (l : list (bytes * bytes)) : Prop :=
  e_locked E = false /\ file_ok (e_file E) /\ m_free (live_meta E) = 0 /\ 1 <= m_last (live_meta E) /\ m_last (live_meta E) + 1 < 2 ^ 64 /\
  ((m_root (live_meta E) = 0 /\ l = []) \/
   exists h, (h < 32)%nat /\ m_root (live_meta E) <> 0 /\ tree false (e_file E) h (m_root (live_meta E)) None None /\
     bushy (e_file E) h (m_root (live_meta E)) /\ NoDup (tree_pages (e_file E) h (m_root (live_meta E))) /\
     Forall (fun q => 2 <= q <= m_last (live_meta E)) (tree_pages (e_file E) h (m_root (live_meta E))) /\
     tree_kvs (e_file E) h (m_root (live_meta E)) = l).
(** and the way to its last leaf is as a load leaves it *)
Definition stacked (ka kb sa sb : N) (E : env) (l : list (bytes * bytes)) : Prop :=
  m_root (live_meta E) = 0 \/
  exists h, tree true (e_file E) h (m_root (live_meta E)) None None /\ good ka kb (4 + sa) (4 + sb) (e_file E) h (m_root (live_meta E)) /\
    (fat (e_file E) h (m_root (live_meta E)) \/
     (h = 0%nat /\ exists k v, l = [(k, v)] /\ leaf_size k v <= 2037 /\
        page_free (e_file E (m_root (live_meta E))) = PAGE_SIZE - HDR - (leaf_size k v + 2))).
(** What the commit of such a load leaves for every reader. *)
Lemma loaded_full E l ka kb sa sb :
  blank_db E (length l) -> N.of_nat (length l) < 2 ^ 32 -> StronglySorted klt (map fst l) -> even_sizes ka kb sa sb l ->
  exists E', transact E (puts l) = Ok E' /\ scannable E' (reader E') /\ bindings E' (reader E') l /\ laid E' l /\ stacked ka kb sa sb E' l /\
    m_last (live_meta E') <= m_last (live_meta E) + 40 * N.of_nat (length l).
Proof.
  intros HB Hc HS SZ0. pose proof HB as (HU & FO & H0 & HQ & H1 & Hl). pose proof SZ0 as (BL & BB & KB & SZ).
  destruct (bulk_load E l ka kb sa sb HB Hc HS SZ0) as (E' & TR & RD). exists E'. split; [exact TR|].
  assert (SS : 4 + sb <= 2037) by (destruct BL as (X & _); lia).
  assert (HA : ascending l).
  { split; auto. eapply Forall_impl; [|exact SZ]. intros [a b]. cbn [fst snd]. lia. }
  pose proof (begun_is E HU) as B. pose proof (begin_fields _ _ _ B) as (_ & Et). set (t := begun E) in *. set (E1 := set_locked E true) in *.
  assert (TF : t_rdonly t = false /\ t_root t = 0 /\ t_free_root t = 0 /\ t_last t = m_last (live_meta E) /\ t_freed t = [] /\ t_dirty t = []) by (rewrite Et; cbn; auto 10).
  destruct TF as (Hr & H0' & HQ' & HL' & HF' & HD').
  assert (SP : forall leaf, spread (low ka (4 + sa) leaf) (high kb (4 + sb) leaf)).
  { change (forall leaf, balanced (low ka (4 + sa) leaf) (high kb (4 + sb) leaf)). intros [|]; unfold low, high; [|exact BB].
    replace (4 + sa + 2) with (6 + sa) by lia. replace (4 + sb + 2) with (6 + sb) by lia. exact BL. }
  assert (SZ' : Forall (fun e => keyed ka kb (fst e) /\ 4 + sa <= leaf_size (fst e) (snd e) <= 4 + sb) l).
  { eapply Forall_impl; [|exact SZ]. intros [a b]. cbn [fst snd]. unfold keyed, leaf_size, LEAF_BASE. lia. }
  destruct (puts_total ka kb (4 + sa) (4 + sb) SP KB E1 (fun _ => False) (fun t => t_free_root t = 0) (Q_alloc0 E1) (Q_stable0 E1) SS l t []) as (t' & ET & LD); auto; try lia.
  { apply grown_empty; auto. } { left. exact H0'. }
  destruct (puts_grown E1 (fun _ => False) (fun t => t_free_root t = 0) (Q_alloc0 E1) (Q_stable0 E1) l t t' []) as ((Hr' & G) & QF & _); auto; try lia.
  { apply grown_empty; auto. } { apply ascending_sizes; exact HA. }
  cbn [app] in G. fold (puts l) in ET. pose proof (ops_lout E1 (puts l) t) as LT. rewrite ET in LT. apply la_last in LT.
  assert (FR : t_freed t' = [] /\ t_last t' + 1 < 2 ^ 64 /\ t_last t' <= t_last t + 40 * N.of_nat (length l)).
  { destruct (puts_fresh E1 (t_last t) l t t' []) as (X & Y & _); auto; try lia; try (splits; [congruence|lia|lia]).
    - apply grown_empty; auto.
    - split; auto.
    - apply ascending_sizes; exact HA. }
  destruct FR as (FR & FL & FL2).
  assert (DT : dirty_ok t').
  { apply (puts_DI E1 l t t'); auto; [|apply ascending_sizes; exact HA|]. { intros _. rewrite Et. constructor; cbn; [constructor|discriminate]. } lia. }
  unfold transact in TR. rewrite B in TR. fold E1 in TR. rewrite ET in TR.
  assert (VW : t_root (reader E') = t_root t' /\ (t_root t' <> 0 -> forall q, get_page E' (reader E') q = get_page E1 t' q) /\
    e_locked E' = false /\ file_ok (e_file E') /\ m_free (live_meta E') = 0 /\ 1 <= m_last (live_meta E') /\ m_last (live_meta E') + 1 < 2 ^ 64 /\
    (t_root t' <> 0 -> m_last (live_meta E') = t_last t') /\ m_last (live_meta E') <= m_last (live_meta E) + 40 * N.of_nat (length l)).
  { destruct (t_dirty t') as [|d0 dl] eqn:DD.
    - assert (Z : t_root t' = 0).
      { destruct G as [[Z _]|(h & _ & SD & _)]; [exact Z|exfalso].
        assert (NE : l <> []).
        { intros ->. cbn [puts map do_ops] in ET. injection ET as <-. destruct SD as (_ & X & _). congruence. }
        destruct l as [|[k v] l']; [congruence|]. cbn [puts map fst snd do_ops do_op] in ET.
        destruct (db_put E1 t k v) as [[] t1|e t1| |] eqn:EP; cbn [bindo] in ET; try discriminate. fold (puts l') in ET.
        pose proof (ops_lout E1 (puts l') t1) as L1. rewrite ET in L1. cbn [lout] in L1.
        unfold db_put, db_put_with, new_root_leaf in EP. rewrite Hr, H0', (Q_alloc0 E1 t HQ' Hr) in EP. cbn [N.eqb bindo] in EP.
        destruct (page_insert _ _ _ _ _) as [p| | |]; try discriminate. cbn [lift bindo] in EP. injection EP as <-.
        apply (la_dirty _ _ L1 (t_last t + 1)); [|rewrite DD; reflexivity].
        cbn [set_root t_dirty]. rewrite dget_put, N.eqb_refl. discriminate. }
      unfold db_commit in TR. rewrite DD in TR. injection TR as <-. split; [|split; [congruence|]].
      + rewrite Z. unfold reader. cbn. exact H0.
      + change (live_meta (set_locked E1 false)) with (live_meta E). splits; auto; try congruence; lia.
    - destruct (db_commit E1 t' None) as [E2 [[]|e| |]] eqn:C; try discriminate. injection TR as ->.
      destruct (published E1 t' E' C ltac:(congruence)) as (fr & t1 & P & PB).
      unfold populate_free_db in P. rewrite FR in P. injection P as <- <-. destruct (PB Hr' DT) as (V & M).
      assert (LK : e_locked E' = false).
      { assert (CC : commit_case E1 t' E' (Ok tt)) by (eapply commit_cases; [exact C|left; eauto]). apply (commit_lock _ _ _ _ CC). }
      unfold reader. rewrite M. cbn [m_root t_root m_free m_last]. split; [reflexivity|]. split; [intros _ q; unfold get_page; cbn [t_rdonly]; apply V|].
      splits; auto; try lia.
      + intro q. rewrite V. unfold get_page. rewrite Hr'. destruct (dget (t_dirty t') q) as [p|] eqn:DG; [right; eapply do_pages; eauto|apply FO]. }
  destruct VW as (RT & VW & LK & FO' & MF & ML1 & ML2 & ML3 & ML4).
  destruct G as [[Z ->]|(h & Hh & SD & FT)].
  - split; [left; congruence|]. split; [apply empty_bindings; congruence|]. assert (Z0 : m_root (live_meta E') = 0) by (change (t_root (reader E') = 0); congruence).
    split; [|split; [left; exact Z0|exact ML4]]. unfold laid. splits; auto.
  - destruct SD as (_ & Hnz & T & ND & PG & EK). specialize (VW Hnz).
    destruct LD as [|(h' & GD)]; [congruence|].
    assert (h' = h) as -> by (symmetry; eapply stout_height; [exact T|apply GD]).
    assert (Hd : (h < 32)%nat).
    { destruct (le_lt_dec 32 h) as [X|]; auto. exfalso. pose proof (bushy_count _ _ _ (proj2 GD)) as BC. rewrite EK in BC.
      assert (Y : (2 ^ 32 <= 2 ^ h)%nat) by (apply Nat.pow_le_mono_r; lia).
      assert (Z : N.of_nat (2 ^ 32) <= N.of_nat (length l)) by lia. rewrite Nat2N.inj_pow in Z. change (N.of_nat 2 ^ N.of_nat 32) with (2 ^ 32) in Z. lia. }
    assert (T' : tree false (get_page E' (reader E')) h (t_root (reader E')) None None).
    { rewrite RT. eapply tree_frame; [intros q _; apply VW|]. apply tree_loose. exact T. }
    destruct (kvs_frame (get_page E1 t') (get_page E' (reader E')) h (t_root t') (fun q _ => VW q)) as (K & KP).
    split; [|split; [|split; [|split; [|exact ML4]]]].
    + right. exists h. splits; auto; [congruence|]. right. rewrite RT. eapply full_frame; [exact VW|]. apply bushy_full. apply GD.
    + pose proof (tree_bindings E' (reader E') h ltac:(lia) ltac:(congruence) T') as BI.
      rewrite RT in BI. rewrite K, EK in BI. exact BI.
    + unfold laid. splits; auto. right. exists h. change (m_root (live_meta E')) with (t_root (reader E')).
      rewrite RT. rewrite RT in T'. specialize (ML3 Hnz). splits; auto.
      * eapply bushy_frame; [intros q _; apply VW|]. apply GD.
      * change (NoDup (tree_pages (get_page E' (reader E')) h (t_root t'))). rewrite KP. exact ND.
      * change (Forall (fun q => 2 <= q <= m_last (live_meta E')) (tree_pages (get_page E' (reader E')) h (t_root t'))). rewrite KP.
        apply Forall_forall. intros q Hq. rewrite ML3. apply PG. exact Hq.
      * change (tree_kvs (get_page E' (reader E')) h (t_root t') = l). rewrite K. exact EK.
    + right. exists h. change (m_root (live_meta E')) with (t_root (reader E')). rewrite RT. split; [|split].
      * eapply tree_frame; [intros q _; apply VW|exact T].
      * split; [eapply stout_frame|eapply bushy_frame]; try (intros q _; apply VW); apply GD.
      * destruct FT as [FT|(-> & k & v & FA & FB & FC)]; [left; eapply fat_frame; [intros q _; apply VW|exact FT]|right]. split; [reflexivity|].
        exists k, v. splits; auto. change (page_free (get_page E' (reader E') (t_root t')) = PAGE_SIZE - HDR - (leaf_size k v + 2)). rewrite VW. exact FC.
Qed.
Lemma loaded E l ka kb sa sb :
  blank_db E (length l) -> N.of_nat (length l) < 2 ^ 32 -> StronglySorted klt (map fst l) -> even_sizes ka kb sa sb l ->
  exists E', transact E (puts l) = Ok E' /\ scannable E' (reader E') /\ bindings E' (reader E') l /\ laid E' l.
Proof. intros A B C D. destruct (loaded_full E l ka kb sa sb A B C D) as (E' & P & Q & R & S & _). eauto. Qed.

Lemma transact_readers E os E' : transact E os = Ok E' -> e_readers E' = e_readers E.
Proof.
  unfold transact. destruct (begin_write E) as [[E1 t]|] eqn:B; [|discriminate].
  assert (R : e_readers E1 = e_readers E).
  { unfold begin_write in B. destruct (e_locked E); [discriminate|]. injection B as <- _. reflexivity. }
  destruct (do_ops E1 t os) as [[] t'|e t'| |]; try discriminate. unfold db_commit.
  destruct (t_dirty t'); [intros [= <-]; exact R|].
  destruct (populate_free_db page_alloc E1 t') as [fr t1|e t1| |]; try discriminate. destruct (over_meta t1); [discriminate|].
  intros [= <-]. exact R.
Qed.
(** registering another reader changes no page *)
Lemma loaded_reader E pid tid E2 t l : begin_read E pid tid = Ok (E2, t) -> scannable E (reader E) -> bindings E (reader E) l ->
  scannable E2 t /\ bindings E2 t l.
Proof.
  unfold begin_read. destruct (fill_slot _ _ _ _) as [rs|]; [|discriminate]. intros [= <- <-] S B. split; [exact S|exact B].
Qed.

(** ** C144
    The pairs of a load come back from a cursor, each once, in ascending order with NEXT and in
    descending order with PREV. *)
Theorem load_then_list : forall E l ka kb sa sb,
  blank_db E (length l) -> N.of_nat (length l) < 2 ^ 32 -> StronglySorted klt (map fst l) -> even_sizes ka kb sa sb l ->
  exists E', transact E (puts l) = Ok E' /\
    forall pid tid E2 t, begin_read E' pid tid = Ok (E2, t) ->
      scans E2 t NEXT (cursor_get E2 t cursor_open FIRST) l NOTFOUND /\
      scans E2 t PREV (cursor_get E2 t cursor_open LAST) (rev l) NOTFOUND.
Proof.
  intros E l ka kb sa sb HB Hc HS SZ. destruct (loaded E l ka kb sa sb HB Hc HS SZ) as (E' & TR & S & B & _). exists E'. split; [exact TR|].
  intros pid tid E2 t BR. destruct (loaded_reader _ _ _ _ _ _ BR S B) as (S2 & B2).
  destruct (forward_scan_partial E2 t S2) as (l1 & B1 & F). destruct (backward_scan_partial E2 t S2) as (l3 & B3 & K).
  rewrite (bindings_unique _ _ _ _ B2 B1) at 1. rewrite (bindings_unique _ _ _ _ B2 B3). split; assumption.
Qed.
Print Assumptions load_then_list.

(** the thousand pairs of [thousand_case] meet the hypotheses; after the load a reader gets a slot and sees them all *)
Example load_then_list_case : exists E' E2 t, transact env_create (puts thousand) = Ok E' /\ begin_read E' 7 9 = Ok (E2, t) /\
  scans E2 t NEXT (cursor_get E2 t cursor_open FIRST) thousand NOTFOUND /\ length thousand = 1000%nat.
Proof.
  destruct thousand_case as (A & B & C & D). destruct (load_then_list _ _ _ _ _ _ A B C D) as (E' & TR & H).
  pose proof (transact_readers _ _ _ TR) as R.
  assert (X : exists p, begin_read E' 7 9 = Ok p).
  { unfold begin_read. rewrite R. destruct (fill_slot (e_readers env_create) 7 9 (m_txnid (live_meta E'))) as [rs|] eqn:FS; [eauto|].
    cbn [env_create e_readers] in FS. unfold MAX_READERS in FS. cbn in FS. discriminate. }
  destruct X as ([E2 t] & X). exists E', E2, t. split; [exact TR|]. split; [exact X|]. split; [apply (H _ _ _ _ X)|].
  unfold thousand. rewrite map_length, seq_length. reflexivity.
Qed.
