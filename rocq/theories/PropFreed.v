(** Property C165: what a transaction gave up can be looked up. *)
From Verif Require Import Util PageModel PageSpec PageProofs PageOps TxnModel CursorModel TreeModel TreeSpec PropPage TreeProofs TreeOps TreeSplit TreePut TreeShape TxnInv DbModel SysModel DbSpec DbProofs DbCommit PropTree PropCommit FreedModel.
Local Open Scope N_scope.

Lemma pgnos_enc : forall l, Forall (fun x => x < 2 ^ 64) l -> pgnos_of (length l) (enc_pgnos l) = l.
Proof.
  induction 1 as [|x l Hx F IH]; [reflexivity|]. cbn [length pgnos_of]. unfold enc_pgnos. cbn [flat_map].
  change (flat_map (le_bytes 8) l) with (enc_pgnos l). assert (L : length (le_bytes 8 x) = 8%nat) by (pose proof (blen_le 8 x) as Q; unfold blen in Q; lia).
  rewrite firstn_app, L, firstn_all2 by lia. rewrite skipn_app, L, skipn_all2 by lia. cbn [Nat.sub firstn skipn app]. rewrite app_nil_r, IH.
  f_equal. rewrite le_val_bytes. apply N.mod_small. exact Hx.
Qed.

(** what is stored under [k] in the Free DB of the transaction, as napr_db_get would find it *)
Definition free_get (E : env) (t : txn) (k : bytes) : res bytes := db_get E (set_root t (t_free_root t)) k.
Lemma read_freed_get E t id : t_free_root t = 0 \/ (exists h, (h < 32)%nat /\ t_free_root t <> 0 /\ shape (get_page E t) h (t_free_root t)) ->
  read_freed E t id = do v <- free_get E t (le_bytes 8 id) ;; if blen v mod 8 =? 0 then Ok (pgnos_of (N.to_nat (blen v / 8)) v) else Err EGENERAL.
Proof.
  intro S. unfold read_freed, free_get, db_get. cbn [set_root t_root t_last].
  destruct (N.eqb_spec (t_free_root t) 0) as [Z|Nz]; [reflexivity|]. destruct S as [Z|(h & Hh & _ & S)]; [congruence|].
  assert (Hk : blen (le_bytes 8 id) < 65536) by (rewrite blen_le; lia). cbv zeta.
  destruct (shape_find E t (le_bytes 8 id) Hk h _ S) as [_ FL]. destruct (shape_find E (set_root t (t_free_root t)) (le_bytes 8 id) Hk h (t_free_root t) S) as [_ FL'].
  rewrite FL, FL' by (unfold FIND_FUEL; lia). cbn [bindr]. change (get_page E (set_root t (t_free_root t))) with (get_page E t).
  destruct (shape_leaf _ (le_bytes 8 id) h _ S) as (_ & W & SS).
  destruct (page_search _ _) as [[[] i]|e| |] eqn:PS; cbn [bindr]; try reflexivity.
  pose proof (leaf_lookup _ (le_bytes 8 id) W SS Hk) as X. rewrite PS in X. cbn [bindr] in X. destruct (lookup _ _); [discriminate|]. injection X as ->. reflexivity.
Qed.

(** the insertion into the Free DB when it fits, with what is found afterwards *)
Lemma insert_free_lookup al E t k v h : leaf_size k v < 65536 -> t_rdonly t = false ->
  shape (get_page E t) h (t_free_root t) -> NoDup (tree_pages (get_page E t) h (t_free_root t)) ->
  Forall (fun q => q <= t_last t) (tree_pages (get_page E t) h (t_free_root t)) -> (h < 32)%nat ->
  let l := leaf_on (get_page E t) k h (t_free_root t) in
  lookup k (leaf_entries (get_page E t l)) = None -> leaf_size k v + 2 <= page_free (get_page E t l) ->
  exists t', insert_into_free_db al E t k v = Ret (t_free_root t) t' /\ shape (get_page E t') h (t_free_root t) /\
    forall k', lookup k' (leaf_entries (get_page E t' (leaf_on (get_page E t') k' h (t_free_root t)))) =
      if key_dec k' k then Some v else lookup k' (leaf_entries (get_page E t (leaf_on (get_page E t) k' h (t_free_root t)))).
Proof.
  intros Hs Hr S ND PG Hh l HL HF. pose proof (leaf_size_key _ _ Hs) as Hk. set (V := get_page E t) in *.
  destruct (shape_find E t k Hk h _ S) as [(path & R & EL & FP) _]. fold V in R, EL, FP.
  unfold insert_into_free_db. rewrite FP; [|unfold MAX_TREE_DEPTH; lia|unfold max_pgno; rewrite Hr; rewrite Forall_forall in PG; auto].
  destruct (shape_leaf V k h _ S) as (Hl & Wl & Sl). fold l in EL, Hl, Wl, Sl. rewrite <- EL.
  assert (Pl : pg_pgno (V l) = l) by (apply (shape_pgno V h (t_free_root t) S); auto).
  pose proof Sl as Sl'. rewrite <- leaf_entries_keys in Sl'.
  destruct (entries_split k (leaf_entries (V l)) Sl') as [(e1 & v0 & e2 & EE & F1 & F2)|(e1 & e2 & EE & F1 & F2)].
  { exfalso. rewrite EE, lookup_mid in HL; [discriminate|]. rewrite <- lookup_in_iff, lookup_below by auto. tauto. }
  rewrite (leaf_search_absent _ k e1 e2) by auto. cbn [lift bindo].
  destruct (cow_path_ok E (rev path) t Hr) as (t3 & EC & C3 & V3 & D3 & K3 & _).
  { intros q Hq. apply in_rev in Hq. eapply shape_pgno; eauto. eapply route_pages; eauto. }
  assert (Hin : In l (rev path)). { apply in_rev. rewrite rev_involutive, EL. apply last_In. eapply route_nonempty; eauto. }
  assert (Hr3 : t_rdonly t3 = false) by (destruct C3; congruence).
  assert (Hlk : leaf_key E t l = l).
  { unfold leaf_key. destruct (dget (t_dirty t) l) eqn:D; auto. unfold V, get_page in Pl. rewrite Hr, D in Pl. exact Pl. }
  rewrite Hlk, EC. cbn [bindo]. rewrite (D3 _ Hin). fold V.
  destruct (leaf_insert_cases (V l) k v e1 e2 Wl Hs EE) as [[Hf _]|(Hf & p2 & -> & W2 & E2 & P2 & _)]; [lia|].
  exists (put_dirty t3 l p2). rewrite (route_hd _ _ _ _ _ R).
  assert (HV : forall q, get_page E (put_dirty t3 l p2) q = if l =? q then p2 else V q).
  { intro q. rewrite get_put by auto. rewrite V3. reflexivity. }
  assert (HVl : get_page E (put_dirty t3 l p2) l = p2) by (rewrite HV, N.eqb_refl; reflexivity).
  assert (HO : forall q, q <> l -> get_page E (put_dirty t3 l p2) q = V q).
  { intros q Hq. rewrite HV. destruct (N.eqb_spec l q); congruence. }
  split; [reflexivity|].
  destruct (shape_update V (get_page E (put_dirty t3 l p2)) h (t_free_root t) l S ND Hl Wl) as (S' & P' & LO); auto; rewrite ?HVl; auto; try congruence.
  { rewrite <- leaf_entries_keys, E2. apply sorted_mid; auto. rewrite <- EE. exact Sl'. }
  split; [exact S'|]. intro k'. rewrite LO. destruct (key_dec k' k) as [->|Nk].
  - fold l. rewrite HVl, E2. apply lookup_mid. rewrite <- lookup_in_iff, lookup_below by auto. tauto.
  - destruct (N.eq_dec (leaf_on V k' h (t_free_root t)) l) as [->|Nl]; [|rewrite HO by auto; reflexivity].
    rewrite HVl, E2, EE. apply lookup_other. exact Nk.
Qed.

(** the Free DB after its update by the commit, in terms of what is found in it *)
Lemma populate_lookup E t fr t1 k : t_rdonly t = false -> shaped E (set_root t (t_free_root t)) -> t_last t + 1 < 2 ^ 64 ->
  N.of_nat (length (t_freed t)) < 8000 -> free_room E t -> populate_free_db page_alloc E t = Ret fr t1 -> blen k < 65536 ->
  db_get E (set_root t1 fr) k =
    match t_freed t with
    | [] => free_get E t k
    | _ => if key_dec k (le_bytes 8 (t_id t)) then Ok (enc_pgnos (t_freed t)) else free_get E t k
    end.
Proof.
  intros Hr SF Hl Hn FR P Hk. unfold free_get. unfold populate_free_db in P. destruct SF as (_ & SF). cbn [set_root t_root t_last] in SF.
  change (get_page E (set_root t (t_free_root t))) with (get_page E t) in SF.
  destruct (t_freed t) as [|x l] eqn:EF; [injection P as <- <-; reflexivity|].
  rewrite <- EF in *. cbv zeta in P.
  assert (Hsz : leaf_size (le_bytes 8 (t_id t)) (enc_pgnos (t_freed t)) = 12 + 8 * N.of_nat (length (t_freed t))).
  { unfold leaf_size, LEAF_BASE. rewrite blen_enc, blen_le. lia. }
  destruct (N.eqb_spec (t_free_root t) 0) as [Z|Nz0].
  - cbn [orb] in P.
    pose proof (new_root_leaf_ok page_alloc E (fun _ => False) (fun t => t_free_root t = 0) (Q_alloc0 E) (Q_stable0 E) t (le_bytes 8 (t_id t)) (enc_pgnos (t_freed t)) Z Hr ltac:(rewrite Hsz; lia) Hl) as NR.
    specialize (NR ltac:(intros q [])). rewrite P in NR. destruct NR as (-> & FRM & L1 & P1 & W1 & E1 & R1 & O1 & _).
    rewrite (get_shape E (set_root t1 (t_last t + 1)) k 0 Hk ltac:(lia)); cbn [set_root t_root]; [|lia|].
    + cbn [leaf_on]. change (get_page E (set_root t1 (t_last t + 1))) with (get_page E t1). rewrite E1. cbn [lookup].
      destruct (key_dec k (le_bytes 8 (t_id t))); [reflexivity|]. unfold db_get. cbn [set_root t_root]. rewrite Z. reflexivity.
    + cbn [shape]. change (get_page E (set_root t1 (t_last t + 1))) with (get_page E t1). splits; auto. rewrite <- leaf_entries_keys, E1. repeat constructor.
  - destruct SF as [Z|(h & Hh & _ & S & ND & PG)]; [congruence|].
    assert (Hm : max_pgno E t <? t_free_root t = false).
    { apply N.ltb_ge. unfold max_pgno. rewrite Hr. rewrite Forall_forall in PG. apply PG. destruct h; left; reflexivity. }
    rewrite Hm in P. cbn [orb] in P. destruct FR as [FR|[FR|FR]]; [congruence|congruence|]. destruct (FR h S) as (HL & HF).
    destruct (insert_free_lookup page_alloc E t (le_bytes 8 (t_id t)) (enc_pgnos (t_freed t)) h) as (t' & Q & S' & LO); auto.
    { rewrite Hsz; lia. } { rewrite Hsz. exact HF. }
    rewrite Q in P. injection P as <- <-.
    rewrite (get_shape E (set_root t' (t_free_root t)) k h Hk ltac:(lia)); cbn [set_root t_root]; [|exact Nz0|exact S'].
    change (get_page E (set_root t' (t_free_root t))) with (get_page E t'). rewrite LO.
    destruct (key_dec k (le_bytes 8 (t_id t))); [reflexivity|].
    rewrite (get_shape E (set_root t (t_free_root t)) k h Hk ltac:(lia)); cbn [set_root t_root]; [|exact Nz0|exact S]. reflexivity.
Qed.

(** ** C165
    After a commit the number of the transaction leads to the pages it gave up, in the order in
    which it did, and every other number to what it led to before.  Missing for the full claim: a
    list for which the leaf of the Free DB has no room. *)
Theorem freed_listed_partial : forall E t E', file_ok (e_file E) -> t_rdonly t = false -> dirty_ok t ->
  shaped E (set_root t (t_free_root t)) -> t_last t + 1 < 2 ^ 64 -> N.of_nat (length (t_freed t)) < 8000 -> free_room E t ->
  t_dirty t <> [] -> t_id t < 2 ^ 64 -> Forall (fun q => q < 2 ^ 64) (t_freed t) ->
  db_commit E t None = (E', Ok tt) ->
  (t_freed t <> [] -> read_freed E' (reader E') (t_id t) = Ok (t_freed t)) /\
  (forall id, id < 2 ^ 64 -> id <> t_id t \/ t_freed t = [] -> read_freed E' (reader E') id = read_freed E t id).
Proof.
  intros E t E' FO Hr DO SF Hl Hn FR ND HI HF H. destruct (commit_done E t E' FO Hr DO SF Hl Hn FR ND H) as (fr & t1 & D).
  assert (FRD : t_free_root (reader E') = fr) by (unfold reader; rewrite (dn_meta _ _ _ _ _ D); reflexivity).
  assert (VW : forall k, free_get E' (reader E') k = db_get E (set_root t1 fr) k).
  { intro k. unfold free_get. apply db_get_view; [|cbn [set_root t_root]; exact FRD].
    intro q. change (get_page E (set_root t1 fr) q) with (get_page E t1 q). rewrite <- (dn_file _ _ _ _ _ D). reflexivity. }
  assert (GV : forall q, get_page E' (reader E') q = get_page E t1 q) by (intro q; rewrite <- (dn_file _ _ _ _ _ D); reflexivity).
  assert (R1 : forall id, read_freed E' (reader E') id = do v <- db_get E (set_root t1 fr) (le_bytes 8 id) ;; if blen v mod 8 =? 0 then Ok (pgnos_of (N.to_nat (blen v / 8)) v) else Err EGENERAL).
  { intro id. rewrite <- VW. apply read_freed_get. rewrite FRD. destruct (dn_free _ _ _ _ _ D) as [->|(h & Hh & Nz & S & _)]; [left; reflexivity|right].
    exists h. splits; auto. apply (shape_frame (get_page E t1)); auto. }
  assert (R0 : forall id, read_freed E t id = do v <- free_get E t (le_bytes 8 id) ;; if blen v mod 8 =? 0 then Ok (pgnos_of (N.to_nat (blen v / 8)) v) else Err EGENERAL).
  { intro id. apply read_freed_get. destruct SF as (_ & [Z|(h & Hh & Nz & S & _)]); [left; exact Z|right; exists h; auto]. }
  assert (PL : forall id, blen (le_bytes 8 id) < 65536) by (intro id; rewrite blen_le; lia).
  split.
  - intro NF. rewrite R1, (populate_lookup E t fr t1 _ Hr SF Hl Hn FR (dn_pop _ _ _ _ _ D) (PL _)).
    destruct (t_freed t) as [|x l] eqn:EF; [congruence|]. rewrite <- EF in *. destruct (key_dec _ _) as [_|X]; [|congruence]. cbn [bindr].
    rewrite blen_enc. replace (8 * N.of_nat (length (t_freed t))) with (N.of_nat (length (t_freed t)) * 8) by lia.
    rewrite N.mod_mul, N.div_mul, Nat2N.id by lia. cbn [N.eqb]. rewrite pgnos_enc by exact HF. reflexivity.
  - intros id Hid NI. rewrite R1, R0, (populate_lookup E t fr t1 _ Hr SF Hl Hn FR (dn_pop _ _ _ _ _ D) (PL _)).
    destruct (t_freed t) as [|x l] eqn:EF; [reflexivity|]. destruct NI as [NI|NI]; [|discriminate].
    destruct (key_dec _ _) as [X|_]; [|reflexivity]. exfalso. apply NI. apply (f_equal le_val) in X. rewrite !le_val_bytes in X.
    change (256 ^ N.of_nat 8) with (2 ^ 64) in X. rewrite !N.mod_small in X by assumption. exact X.
Qed.
Print Assumptions freed_listed_partial.

(** ** The same over a history of transactions *)
(** the pages the transaction with the operations [os] gives up, beginning on [E] *)
Definition given (E : env) (os : list op) : list N :=
  match begin_write E with
  | Some (E1, t) => match do_ops E1 t os with Ret _ t' => t_freed t' | _ => [] end
  | None => []
  end.

Lemma op_free_get E t o t' m k : file_ok (e_file E) -> DI t -> two_trees E t ->
  match o with Put k v => 10 + blen k + blen v < 65536 /\ t_root t <> 0 /\ fits E t k v | Del k => blen k < 65536 end ->
  do_op E t o = Ret tt t' -> reads E t m -> blen k < 65536 -> free_get E t' k = free_get E t k.
Proof.
  intros FO HD TT HF H HR Hk. pose proof TT as (SM & (_ & SF) & DJ).
  assert (OL : same_ctl t t' /\ t_root t <> 0 /\ one_leaf E t t').
  { destruct o as [k0 v|k0]; cbn [do_op] in H.
    - destruct HF as (Hs & Nz & Hf). assert (Hs' : leaf_size k0 v < 65536) by (unfold leaf_size, LEAF_BASE; lia).
      destruct (db_put_shape page_alloc E t k0 v Hs' SM Nz Hf) as [(_ & _ & X)|(_ & t2 & X & SC & SH & OL & G)].
      { unfold db_put in H. rewrite X in H. discriminate. }
      unfold db_put in H. rewrite X in H. injection H as ->. split; [exact SC|]. auto.
    - pose proof (db_del_shape E t k0 None HF SM) as DS. destruct (db_get E t k0) as [v|e| |] eqn:G0; try destruct DS; [|congruence].
      destruct H0 as (X & SC & SH & OL & G). rewrite X in H. injection H as ->. split; [exact SC|]. split; [|exact OL].
      intro Z. unfold db_get in G0. rewrite Z in G0. discriminate. }
  destruct OL as ((C1 & C2 & C3 & C4 & C5) & N0 & (h & l & Hh & S & S1 & P1 & Il & O)).
  unfold free_get. cbn [set_root t_root t_last] in SF. change (get_page E (set_root t (t_free_root t))) with (get_page E t) in SF.
  destruct SF as [Z|(hf & Hf & Nf & Sf & NDf & PGf)].
  - unfold db_get. cbn [set_root t_root]. rewrite C4, Z. reflexivity.
  - apply (get_frame E (set_root t (t_free_root t)) E (set_root t' (t_free_root t')) hf k); cbn [set_root t_root]; auto; [lia|].
    intros q Hq. change (get_page E t' q = get_page E t q). apply O. intros ->.
    apply (DJ l); [apply (in_tree_height _ h)|apply (in_tree_height _ hf)]; auto.
Qed.
Lemma ops_free_get E k : blen k < 65536 -> forall os t t' m, file_ok (e_file E) -> DI t -> two_trees E t -> fit_ops E t os ->
  do_ops E t os = Ret tt t' -> reads E t m -> free_get E t' k = free_get E t k.
Proof.
  intro Hk. induction os as [|o r IH]; intros t t' m FO HD TT HF H HR; cbn [do_ops fold_left] in *.
  - injection H as <-. reflexivity.
  - destruct (do_op E t o) as [[] t1|e t1| |] eqn:X; try discriminate. cbn [bindo] in H. destruct HF as (H1 & H2).
    destruct (op_fits E t o t1 m FO HD TT H1 X HR) as (A & B & C & D).
    rewrite (IH t1 t' (map_op m o) FO C B (H2 t1 X) H D). exact (op_free_get E t o t1 m k FO HD TT H1 X HR Hk).
Qed.

(** an operation that succeeds leaves a changed page *)
Lemma some_dirty t t' q p : later t t' -> dget (t_dirty t) q = Some p -> t_dirty t' <> [].
Proof. intros L D Z. pose proof (la_dirty _ _ L q) as X. rewrite D, Z in X. apply X; [discriminate|reflexivity]. Qed.
Lemma op_dirty E t o t' : match o with Put _ _ => t_root t <> 0 | Del _ => True end -> do_op E t o = Ret tt t' -> t_dirty t' <> [].
Proof.
  destruct o as [k v|k]; cbn [do_op]; intros Nz H.
  - unfold db_put, db_put_with in H. destruct (t_rdonly t); [discriminate|]. destruct (N.eqb_spec (t_root t) 0); [contradiction|].
    destruct (find_path _ _ _ _ _) as [[path leaf]| | |]; cbn [lift bindo] in H; try discriminate. cbv zeta in H.
    destruct (page_search leaf k) as [[found i]| | |]; cbn [lift bindo] in H; try discriminate. destruct (found && _); [discriminate|].
    destruct (cow_path _ _ _) as [[] t3| | |]; cbn [bindo] in H; try discriminate. destruct (dget (t_dirty t3) _) as [p0|] eqn:D0; [|discriminate].
    revert H. match goal with |- bindo ?a ?f = _ -> _ => assert (L : lout t3 (bindo a f)) end; [|intro H; rewrite H in L; exact (some_dirty _ _ _ _ L D0)].
    apply bind_lout.
    + destruct found; [|apply later_refl]. apply bind_lout; [apply lift_lout|]. intros p1 t4 _. apply later_put.
    + intros p1 t4 _. destruct (page_insert _ _ _ _ _) as [p2|e| |]; try exact I; [apply later_put|].
      destruct e; try apply later_refl. apply bind_lout; [apply leaf_split_lout; apply page_alloc_lout|]. intros [r|] t5 _; [apply later_root|apply later_refl].
  - unfold db_del in H. destruct (t_rdonly t); [discriminate|]. destruct (t_root t =? 0); [discriminate|].
    destruct (find_path _ _ _ _ _) as [[path leaf]| | |]; cbn [lift bindo] in H; try discriminate.
    destruct (page_search leaf k) as [[[] i]| | |]; cbn [bindo] in H; try discriminate.
    destruct (cow_path _ _ _) as [[] t3| | |]; cbn [bindo] in H; try discriminate. destruct (dget (t_dirty t3) _) as [p0|] eqn:D0; [|discriminate].
    destruct (page_delete p0 i) as [p1| | |]; cbn [lift bindo] in H; try discriminate. injection H as <-. exact (some_dirty _ _ _ _ (later_put _ _ _) D0).
Qed.
Lemma op_later E t o t' : do_op E t o = Ret tt t' -> later t t'.
Proof.
  destruct o as [k v|k]; cbn [do_op]; intro H; [pose proof (put_later E t k v) as L|pose proof (db_del_lout E t k None) as L]; rewrite H in L; exact L.
Qed.
Lemma ops_dirty E : forall os t t', fit_ops E t os -> do_ops E t os = Ret tt t' -> t_dirty t' = [] -> t_dirty t = [] /\ t' = t.
Proof.
  induction os as [|o r IH]; intros t t' HF H Z; cbn [do_ops fit_ops] in *; [injection H as <-; auto|].
  destruct (do_op E t o) as [[] t1|e t1| |] eqn:X; try discriminate. cbn [bindo] in H. destruct HF as (H1 & H2).
  destruct (IH t1 t' (H2 t1 eq_refl) H Z) as (Z1 & _). exfalso. refine (op_dirty E t o t1 _ X Z1). destruct o; [apply H1|exact I].
Qed.

(** one transaction *)
Lemma transact_freed E E' os m : healthy E -> file_ok (e_file E) ->
  (forall E1 t, begin_write E = Some (E1, t) ->
       fit_ops E1 t os /\ t_last t + 1 < 2 ^ 64 /\
       forall t', do_ops E1 t os = Ret tt t' -> free_room E1 t' /\ N.of_nat (length (t_freed t')) < 8000) ->
  transact E os = Ok E' -> reads E (reader E) m -> m_txnid (live_meta E) + 1 < 2 ^ 64 -> Forall (fun q => q < 2 ^ 64) (given E os) ->
  (given E os <> [] -> m_txnid (live_meta E') = m_txnid (live_meta E) + 1 /\ read_freed E' (reader E') (m_txnid (live_meta E) + 1) = Ok (given E os)) /\
  (m_txnid (live_meta E') <= m_txnid (live_meta E) + 1) /\
  (forall id, id <= m_txnid (live_meta E) -> id <= m_txnid (live_meta E') /\ read_freed E' (reader E') id = read_freed E (reader E) id).
Proof.
  intros (HU & HH) FO HF H HR HI HG. unfold transact, given in *. destruct (begin_write E) as [(E1, t)|] eqn:B; [|discriminate].
  specialize (HH E1 t eq_refl). destruct (HF E1 t eq_refl) as (F1 & F2 & F3). clear HF.
  apply (reader_reads_begin E E1 t m B) in HR. pose proof (begin_fields _ _ _ B) as (EE & Et).
  assert (FO1 : file_ok (e_file E1)) by (subst E1; exact FO).
  assert (HD : DI t). { intros _. rewrite Et. constructor; cbn; [constructor|discriminate]. }
  destruct (do_ops E1 t os) as [[] t'|e t'| |] eqn:X; try discriminate.
  destruct (ops_fit E1 os t t' m FO1 HD HH F1 X HR) as (SC & TT & DI' & RR). destruct (F3 t' eq_refl) as (F4 & F5).
  assert (L' : t_last t' = t_last t) by apply SC.
  assert (I' : t_id t' = m_txnid (live_meta E) + 1). { transitivity (t_id t); [apply SC|rewrite Et; reflexivity]. }
  assert (R0 : forall id, read_freed E1 t' id = read_freed E (reader E) id).
  { intro id. rewrite !read_freed_get.
    - rewrite (ops_free_get E1 (le_bytes 8 id) ltac:(rewrite blen_le; lia) os t t' m FO1 HD HH F1 X HR). unfold free_get.
      rewrite (db_get_view E1 (set_root t (t_free_root t)) E (set_root (reader E) (t_free_root (reader E)))); [reflexivity| |].
      + intro q. rewrite Et. subst E1. reflexivity.
      + rewrite Et. reflexivity.
    - destruct HH as (_ & (_ & SF) & _). rewrite Et in SF. subst E1. destruct SF as [Z|(h & A1 & A2 & A3 & _)]; [left; exact Z|right; exists h; auto].
    - destruct TT as (_ & (_ & [Z|(h & A1 & A2 & A3 & _)]) & _); [left; exact Z|right; exists h; auto]. }
  destruct (db_commit E1 t' None) as [E2 [[]|e| |]] eqn:C; try discriminate. injection H as ->.
  destruct (t_dirty t') as [|d0 dl] eqn:DT.
  - unfold db_commit in C. rewrite DT in C. injection C as <-. subst E1.
    assert (FE : t_freed t' = []).
    { destruct (ops_dirty _ _ _ _ F1 X DT) as (_ & ->). rewrite Et. reflexivity. }
    change (live_meta (set_locked (set_locked E true) false)) with (live_meta E).
    rewrite FE. split; [congruence|]. split; [lia|]. intros id Hid. split; [exact Hid|]. reflexivity.
  - assert (DN : t_dirty t' <> []) by (rewrite DT; discriminate).
    pose proof TT as ((Hr & _) & SF & _).
    destruct (commit_done E1 t' E' FO1 Hr ltac:(apply DI'; lia) SF ltac:(lia) F5 F4 DN C) as (fr & t1 & DD).
    destruct (freed_listed_partial E1 t' E' FO1 Hr ltac:(apply DI'; lia) SF ltac:(lia) F5 F4 DN ltac:(lia) HG C) as (P1 & P2).
    assert (MI : m_txnid (live_meta E') = m_txnid (live_meta E) + 1) by (rewrite (dn_meta _ _ _ _ _ DD); exact I').
    rewrite MI. split; [|split; [lia|]].
    + intro NF. split; [reflexivity|]. rewrite <- I'. apply P1. exact NF.
    + intros id Hid. split; [lia|]. rewrite <- R0. apply P2; [lia|]. left. lia.
Qed.

Lemma history_kept : forall txns E E' m, healthy E -> file_ok (e_file E) -> fit_history E txns -> history E txns = Ok E' -> reads E (reader E) m ->
  m_txnid (live_meta E) + N.of_nat (length txns) < 2 ^ 64 ->
  (forall pre os post E1, txns = pre ++ os :: post -> history E pre = Ok E1 -> Forall (fun q => q < 2 ^ 64) (given E1 os)) ->
  forall id, id <= m_txnid (live_meta E) -> read_freed E' (reader E') id = read_freed E (reader E) id.
Proof.
  induction txns as [|os r IH]; intros E E' m HH FO HF H HR HN HG id Hid; cbn [history fit_history] in *; [injection H as <-; reflexivity|].
  destruct (transact E os) as [E1| | |] eqn:T; try discriminate. destruct HF as (F1 & F2). cbn [length] in HN.
  destruct (transact_freed E E1 os m HH FO F1 T HR ltac:(lia) (HG [] os r E eq_refl eq_refl)) as (_ & A2 & A3). destruct (A3 id Hid) as (A4 & A5).
  destruct (transact_fits E E1 os m HH FO F1 T HR) as (B1 & B2 & B3).
  rewrite (IH E1 E' _ B1 B2 (F2 E1 eq_refl) H B3); auto; [lia|].
  intros pre o2 post E2 -> P. apply (HG (os :: pre) o2 post E2 eq_refl). cbn [history]. rewrite T. exact P.
Qed.
Lemma history_app : forall pre r E E', history E (pre ++ r) = Ok E' -> exists E1, history E pre = Ok E1 /\ history E1 r = Ok E'.
Proof.
  induction pre as [|os pre IH]; intros r E E' H; cbn [app history] in *; [eauto|]. destruct (transact E os); try discriminate. apply IH. exact H.
Qed.
Lemma fit_app : forall pre r E E1, fit_history E (pre ++ r) -> history E pre = Ok E1 -> fit_history E1 r /\ fit_history E pre.
Proof.
  induction pre as [|os pre IH]; intros r E E1 F H; cbn [app history fit_history] in *; [injection H as <-; auto|].
  destruct (transact E os) as [E2| | |] eqn:T; try discriminate. destruct F as (F1 & F2). destruct (IH r E2 E1 (F2 E2 eq_refl) H) as (A & B).
  split; [exact A|]. split; [exact F1|]. intros E3 X. injection X as <-. exact B.
Qed.
Lemma history_ids : forall txns E E' m, healthy E -> file_ok (e_file E) -> fit_history E txns -> history E txns = Ok E' -> reads E (reader E) m ->
  m_txnid (live_meta E) + N.of_nat (length txns) < 2 ^ 64 ->
  (forall pre os post E1, txns = pre ++ os :: post -> history E pre = Ok E1 -> Forall (fun q => q < 2 ^ 64) (given E1 os)) ->
  m_txnid (live_meta E') <= m_txnid (live_meta E) + N.of_nat (length txns).
Proof.
  induction txns as [|os r IH]; intros E E' m HH FO HF H HR HN HG; cbn [history fit_history] in *; [injection H as <-; lia|].
  destruct (transact E os) as [E1| | |] eqn:T; try discriminate. destruct HF as (F1 & F2). cbn [length] in *.
  destruct (transact_freed E E1 os m HH FO F1 T HR ltac:(lia) (HG [] os r E eq_refl eq_refl)) as (_ & A2 & A3).
  destruct (transact_fits E E1 os m HH FO F1 T HR) as (B1 & B2 & B3).
  pose proof (IH E1 E' _ B1 B2 (F2 E1 eq_refl) H B3 ltac:(lia)) as X. 
  assert (Y : forall pre o2 post E2, r = pre ++ o2 :: post -> history E1 pre = Ok E2 -> Forall (fun q => q < 2 ^ 64) (given E2 o2)).
  { intros pre o2 post E2 -> P. apply (HG (os :: pre) o2 post E2 eq_refl). cbn [history]. rewrite T. exact P. }
  specialize (X Y). lia.
Qed.

(** In a history of transactions whose changes fit the pages, the pages any of them gave up are
    found under its number, whatever was committed after it. *)
Theorem freed_found_partial : forall E pre os post E1 E' m, healthy E -> file_ok (e_file E) -> reads E (reader E) m ->
  fit_history E (pre ++ os :: post) -> m_txnid (live_meta E) + N.of_nat (length (pre ++ os :: post)) < 2 ^ 64 ->
  (forall p o q E2, pre ++ os :: post = p ++ o :: q -> history E p = Ok E2 -> Forall (fun q => q < 2 ^ 64) (given E2 o)) ->
  history E (pre ++ os :: post) = Ok E' -> history E pre = Ok E1 -> given E1 os <> [] ->
  read_freed E' (reader E') (m_txnid (live_meta E1) + 1) = Ok (given E1 os).
Proof.
  intros E pre os post E1 E' m HH FO HR HF HN HG H H1 NG. rewrite app_length in HN. cbn [length] in HN.
  destruct (history_app _ _ _ _ H) as (E1' & P & Q). rewrite H1 in P. injection P as <-. destruct (fit_app _ _ _ _ HF H1) as (F1 & F0).
  destruct (history_is_map_partial pre E E1 m HH FO F0 H1 HR) as (R1 & HH1 & FO1).
  pose proof (history_ids pre E E1 m HH FO F0 H1 HR ltac:(lia)) as ID.
  assert (G0 : forall p o q E2, pre = p ++ o :: q -> history E p = Ok E2 -> Forall (fun q => q < 2 ^ 64) (given E2 o)).
  { intros p o q E2 -> X. apply (HG p o (q ++ os :: post) E2); [rewrite <- app_assoc; reflexivity|exact X]. }
  specialize (ID G0). cbn [history fit_history] in Q, F1. destruct (transact E1 os) as [E2| | |] eqn:T; try discriminate. destruct F1 as (F1 & F2).
  destruct (transact_freed E1 E2 os _ HH1 FO1 F1 T R1 ltac:(lia) (HG pre os post E1 eq_refl H1)) as (A1 & A2 & _). destruct (A1 NG) as (A3 & A4).
  destruct (transact_fits E1 E2 os _ HH1 FO1 F1 T R1) as (B1 & B2 & B3).
  rewrite <- A4. apply (history_kept post E2 E' _ B1 B2 (F2 E2 eq_refl) Q B3); [lia| |lia].
  intros p o q E3 -> X. apply (HG (pre ++ os :: p) o q E3); [rewrite <- app_assoc; reflexivity|].
  clear - H1 T X. revert E H1. induction pre as [|o1 pre IH]; intros E H1; cbn [app history] in *.
  - injection H1 as ->. rewrite T. exact X.
  - destruct (transact E o1); try discriminate. apply IH. exact H1.
Qed.
Print Assumptions freed_found_partial.

(** ** Not listed: the pages of the Free DB itself that the commit copies *)
Definition E_two : env := get_env (history E3 (firstn 2 hist3)).
Definition T_two : txn := ret_txn (do_ops (set_locked E_two true) (begun E_two) [Put [98; 1] [8]]).
Definition T_full : txn := ret_txn (populate_free_db page_alloc (set_locked E_two true) T_two).
Definition E_last : env := fst (db_commit (set_locked E_two true) T_two None).
Theorem freed_listed_refuted :
  history E3 (firstn 2 hist3) = Ok E_two /\ begin_write E_two = Some (set_locked E_two true, begun E_two) /\
  do_ops (set_locked E_two true) (begun E_two) [Put [98; 1] [8]] = Ret tt T_two /\
  populate_free_db page_alloc (set_locked E_two true) T_two = Ret (t_free_root T_two) T_full /\
  snd (db_commit (set_locked E_two true) T_two None) = Ok tt /\
  t_freed T_full = [3; 4; 5] /\ read_freed E_last (reader E_last) (t_id T_two) = Ok [3; 4].
Proof.
  split; [apply ok_env; vm_compute; reflexivity|]. split; [apply begun_is; vm_compute; reflexivity|].
  split; [apply ret_unit; vm_compute; reflexivity|]. split; [apply ret_is; vm_compute; reflexivity|].
  split; [vm_compute; reflexivity|]. split; vm_compute; reflexivity.
Qed.
Print Assumptions freed_listed_refuted.

(** ** The hypotheses are met: the history of PropCommit *)
Fixpoint small_given (E : env) (txns : list (list op)) : bool :=
  match txns with
  | [] => true
  | os :: r => forallb (fun q => q <? 2 ^ 64) (given E os) && match transact E os with Ok E' => small_given E' r | _ => true end
  end.
Lemma small_given_ok : forall txns E, small_given E txns = true ->
  forall p o q E2, txns = p ++ o :: q -> history E p = Ok E2 -> Forall (fun q => q < 2 ^ 64) (given E2 o).
Proof.
  induction txns as [|os r IH]; intros E H p o q E2 EQ HP; [destruct p; discriminate|].
  cbn [small_given] in H. apply andb_prop in H. destruct H as (H1 & H2). destruct p as [|o1 p]; cbn [app history] in *.
  - injection EQ as -> ->. injection HP as <-. rewrite Forall_forall. rewrite forallb_forall in H1. intros x Hx. apply N.ltb_lt. auto.
  - injection EQ as -> ->. destruct (transact E o1) as [E1| | |]; try discriminate. exact (IH E1 H2 p o q E2 eq_refl HP).
Qed.
Definition E_one : env := get_env (history E3 (firstn 1 hist3)).
Lemma given_is l E os : (if list_eq_dec N.eq_dec (given E os) l then true else false) = true -> given E os = l.
Proof. destruct (list_eq_dec _ _ _); [auto|discriminate]. Qed.
Example freed_found_case : history E3 (firstn 1 hist3) = Ok E_one /\ given E_one [Put [99] [7]; Del [98]] = [3; 4] /\
  read_freed E6 (reader E6) (m_txnid (live_meta E_one) + 1) = Ok [3; 4].
Proof.
  destruct history_case as (A & B & _). destruct early_case as (C & D & F).
  assert (H1 : history E3 (firstn 1 hist3) = Ok E_one) by (apply ok_env; vm_compute; reflexivity). split; [exact H1|].
  assert (G : given E_one [Put [99] [7]; Del [98]] = [3; 4]) by (apply given_is; vm_compute; reflexivity). split; [exact G|].
  rewrite <- G. apply (freed_found_partial E3 (firstn 1 hist3) [Put [99] [7]; Del [98]] [[Put [98; 1] [8]]] E_one E6 _ F D C B); [|apply small_given_ok; vm_compute; reflexivity|exact A|exact H1|rewrite G; discriminate].
  vm_compute. reflexivity.
Qed.
