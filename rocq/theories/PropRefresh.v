(** Property C155: a cache of a few files can be refreshed any number of times. *)
From Verif Require Import Util PageModel PageSpec PageProofs PageOps PropPage TxnModel CursorModel TreeModel TreeSpec TreeProofs TreeOps TxnInv DbModel SysModel DbSpec DbProofs DbCommit CacheModel PropCache PropTiny.
Local Open Scope N_scope.

(** ** Specification *)
(** One refresh: begin a write transaction, store the entry of each file, commit.
    [None] if a call blocks or fails. *)
Fixpoint store_all (c : cache) (l : list (bytes * entry)) : option cache :=
  match l with
  | [] => Some c
  | (p, e) :: r => match cache_upsert c p e with (c', Ok _) => store_all c' r | _ => None end
  end.
Definition refresh (c : cache) (l : list (bytes * entry)) : option cache :=
  match cache_begin_write c with
  | None => None
  | Some c1 => match store_all c1 l with
               | None => None
               | Some c2 => match cache_commit_write c2 0 0 with (c3, Ok _) => Some c3 | _ => None end
               end
  end.
Fixpoint refreshes (c : cache) (ls : list (list (bytes * entry))) : option cache :=
  match ls with [] => Some c | l :: r => match refresh c l with Some c' => refreshes c' r | None => None end end.
(** a new cache *)
Definition new_cache : cache := mkCache env_create None [].
(** the entry stored last under a path *)
Fixpoint latest (p : bytes) (l : list (bytes * entry)) : option entry :=
  match l with
  | [] => None
  | (q, e) :: r => match latest p r with Some x => Some x | None => if key_dec p q then Some e else None end
  end.
(** The paths of all files together with 46 bytes for each file are not more than one
    page holds: forty of the entry and six of its place in the page. *)
Definition few (paths : list bytes) : Prop := fold_right (fun p n => 46 + blen p + n) 0 paths <= 4096 - 18.

(** ** Proof *)
Definition puts_of (l : list (bytes * entry)) : list op := map (fun x => Put (fst x) (entry_bytes (snd x))) l.
Lemma store_ops : forall l E t vis c', store_all (mkCache E (Some t) vis) l = Some c' ->
  exists t', do_ops E t (puts_of l) = Ret tt t' /\ c' = mkCache E (Some t') vis.
Proof.
  induction l as [|[p e] l IH]; intros E t vis c' H; cbn [store_all puts_of map do_ops fst snd do_op] in *.
  - injection H as <-. eauto.
  - unfold cache_upsert in H. cbn [c_active c_env] in H. destruct (db_put E t p (entry_bytes e)) as [[] t1|er t1| |]; try discriminate.
    cbn [bindo]. exact (IH E t1 vis c' H).
Qed.
Lemma do_ops_rw E : forall os t t', t_rdonly t = false -> do_ops E t os = Ret tt t' -> t_rdonly t' = false.
Proof.
  induction os as [|o os IH]; intros t t' R H; cbn [do_ops] in H; [injection H as <-; exact R|].
  destruct (do_op E t o) as [[] t1|e t1| |] eqn:X; try discriminate. cbn [bindo] in H. apply (IH t1 t'); auto.
  destruct o; cbn [do_op] in X; [pose proof (put_later E t k v) as L|pose proof (db_del_lout E t k None) as L]; rewrite X in L; destruct L; congruence.
Qed.
Lemma refresh_transact c l c' : c_active c = None -> refresh c l = Some c' -> transact (c_env c) (puts_of l) = Ok (c_env c') /\ c_active c' = None.
Proof.
  intros A H. unfold refresh, cache_begin_write in H. unfold transact. destruct (begin_write (c_env c)) as [(E1, t)|] eqn:B; [|discriminate].
  destruct (store_all _ l) as [c2|] eqn:S; [|discriminate]. destruct (store_ops l E1 t _ c2 S) as (t' & X & ->). rewrite X.
  unfold cache_commit_write in H. cbn [c_active c_env] in H. unfold commit_txn in H.
  assert (R : t_rdonly t' = false) by (apply (do_ops_rw E1 (puts_of l) t t'); [apply begin_fields in B; destruct B as (_ & ->); reflexivity|exact X]).
  rewrite R in H. destruct (db_commit E1 t' None) as [E2 [[]|e| |]]; try discriminate. injection H as <-. split; reflexivity.
Qed.
Lemma refreshes_history : forall ls c c', c_active c = None -> refreshes c ls = Some c' -> history (c_env c) (map puts_of ls) = Ok (c_env c') /\ c_active c' = None.
Proof.
  induction ls as [|l ls IH]; intros c c' A H; cbn [refreshes map history] in *; [injection H as <-; auto|].
  destruct (refresh c l) as [c1|] eqn:R; [|discriminate]. destruct (refresh_transact c l c1 A R) as (T & A1). rewrite T. apply IH; auto.
Qed.
Definition cost (p : bytes) : N := 46 + blen p.
Lemma sum_incl : forall ks ps, NoDup ks -> incl ks ps -> fold_right (fun p n => cost p + n) 0 ks <= fold_right (fun p n => cost p + n) 0 ps.
Proof.
  induction ks as [|k ks IH]; intros ps ND I; cbn [fold_right]; [lia|]. inversion ND as [|? ? N1 N2]; subst.
  destruct (in_split k ps (I k (or_introl eq_refl))) as (a & b & ->).
  assert (J : incl ks (a ++ b)).
  { intros x Hx. assert (Y : In x (a ++ k :: b)) by (apply I; right; exact Hx). apply in_app_iff in Y. apply in_app_iff. destruct Y as [Y|[Y|Y]]; auto. subst. tauto. }
  specialize (IH _ N2 J). assert (Q : forall x y, fold_right (fun p n => cost p + n) 0 (x ++ y) = fold_right (fun p n => cost p + n) 0 x + fold_right (fun p n => cost p + n) 0 y).
  { induction x as [|z x IX]; intro y; cbn [app fold_right]; [reflexivity|]. rewrite IX. lia. }
  rewrite Q in IH. rewrite Q. cbn [fold_right]. lia.
Qed.
Lemma weight_cost l : Forall (fun e => blen (snd e) = 40) l -> weight l = fold_right (fun p n => cost p + n) 0 (map fst l).
Proof. induction 1 as [|e l H F IH]; [reflexivity|]. cbn [map fold_right]. rewrite weight_cons, IH. unfold leaf_size, LEAF_BASE, cost. lia. Qed.
Lemma without_nodup k l : NoDup (map fst l) -> NoDup (map fst (without k l)) /\ ~ In k (map fst (without k l)) /\ incl (map fst (without k l)) (map fst l).
Proof.
  intro ND. induction l as [|e l IH]; cbn [map without filter]; [split; [constructor|split; [intros []|intros x []]]|]. fold (without k l).
  cbn [map] in ND. inversion ND as [|? ? N1 N2]; subst. destruct (IH N2) as (A & B & C). destruct (key_dec (fst e) k) as [Q|Q].
  - split; [exact A|]. split; [exact B|]. intros x Hx. right. apply C. exact Hx.
  - cbn [map]. split; [constructor; auto|]. split; [intros [X|X]; [congruence|tauto]|]. intros x [X|X]; [left; exact X|right; auto].
Qed.
Lemma lookup_without k k' l : lookup k' (without k l) = if key_dec k' k then None else lookup k' l.
Proof.
  induction l as [|[q v] l IH]; cbn [without filter lookup fst]; [destruct (key_dec k' k); reflexivity|]. fold (without k l).
  destruct (key_dec q k) as [->|Q].
  - rewrite IH. destruct (key_dec k' k); reflexivity.
  - cbn [lookup]. destruct (key_dec k' q) as [->|]; [destruct (key_dec q k); [congruence|reflexivity]|exact IH].
Qed.
Lemma puts_tiny ps : few ps -> forall x l, Forall (fun e => blen (snd e) = 40) l -> NoDup (map fst l) -> incl (map fst l) ps -> Forall (fun e => In (fst e) ps) x ->
  tiny l (puts_of x) /\ forall p, lookup p (fold_left list_op (puts_of x) l) = match latest p x with Some e => Some (entry_bytes e) | None => lookup p l end.
Proof.
  intros FW. induction x as [|[q e] x IH]; intros l HV ND HI HX; cbn [puts_of map tiny fold_left latest fst snd]; [split; auto|].
  inversion HX as [|? ? X1 X2]; subst. cbn [fst] in X1. set (l' := list_op l (Put q (entry_bytes e))).
  destruct (without_nodup q l ND) as (A & B & C).
  assert (HV' : Forall (fun e => blen (snd e) = 40) l').
  { constructor; [apply entry_blen|]. apply Forall_forall. intros y Hy. apply filter_In in Hy. rewrite Forall_forall in HV. apply HV, Hy. }
  assert (ND' : NoDup (map fst l')) by (constructor; auto).
  assert (HI' : incl (map fst l') ps). { intros y [Y|Y]; [cbn in Y; subst; exact X1|]. apply HI, C, Y. }
  destruct (IH l' HV' ND' HI' X2) as (T & L). split.
  - split; [exact I|]. split; [|exact T]. rewrite weight_cost by exact HV'. eapply N.le_trans; [apply sum_incl; eauto|]. exact FW.
  - intro p. fold (puts_of x). rewrite (L p). destruct (latest p x) as [e0|]; [reflexivity|]. unfold l'. cbn [list_op lookup]. destruct (key_dec p q); [reflexivity|].
    rewrite lookup_without. destruct (key_dec p q); [congruence|reflexivity].
Qed.
Lemma concat_puts ls : concat (map puts_of ls) = puts_of (concat ls).
Proof. induction ls as [|l ls IH]; cbn [map concat]; [reflexivity|]. rewrite IH. unfold puts_of. rewrite map_app. reflexivity. Qed.
Lemma read_lookup c pid tid c1 p : cache_begin_read c pid tid = Ok c1 ->
  cache_lookup c1 p = (do v <- read_now (c_env c) p ;; if blen v =? ENTRY_SIZE then Ok (entry_of v) else Err EGENERAL).
Proof.
  intro H. unfold cache_begin_read, begin_read in H. destruct (fill_slot _ _ _ _) as [rs|]; [|discriminate]. cbn [bindr fst snd] in H. injection H as <-.
  unfold cache_lookup. cbn [c_active c_env]. rewrite (db_get_view _ _ (c_env c) (reader (c_env c)) p); [reflexivity|intro q; reflexivity|reflexivity].
Qed.
Lemma nonempty_puts ls : Forall (fun l : list (bytes * entry) => l <> []) ls -> Forall (fun os => os <> []) (map puts_of ls).
Proof. induction 1 as [|l ls H F IH]; cbn [map]; constructor; auto. destruct l; [congruence|discriminate]. Qed.

(** ** C155 *)
(** After up to 186 refreshes every lookup answers the entry stored last, or that there is
    none.  Missing for the full claim: any further refresh; see the next theorem. *)
Theorem cache_refreshed_partial : forall ps ls c pid tid c1,
  few ps -> Forall (fun x => In (fst x) ps /\ entry_ok (snd x)) (concat ls) -> Forall (fun l => l <> []) ls -> (length ls <= 186)%nat ->
  refreshes new_cache ls = Some c -> cache_begin_read c pid tid = Ok c1 ->
  forall p, blen p < 65536 -> cache_lookup c1 p = match latest p (concat ls) with Some e => Ok e | None => Err NOTFOUND end.
Proof.
  intros ps ls c pid tid c1 FW HP HN HL HR HB p Hp. destruct (refreshes_history ls new_cache c eq_refl HR) as (HH & _).
  assert (HP1 : Forall (fun x : bytes * entry => In (fst x) ps) (concat ls)) by (eapply Forall_impl; [|exact HP]; cbn; tauto).
  destruct (puts_tiny ps FW (concat ls) [] ltac:(constructor) ltac:(constructor) ltac:(intros x []) HP1) as (T & L).
  rewrite <- concat_puts in T. rewrite (read_lookup c pid tid c1 p HB).
  rewrite (small_database_updates_partial (map puts_of ls) (c_env c) ltac:(rewrite map_length; exact HL) (nonempty_puts ls HN) T HH p Hp).
  rewrite concat_puts, L. destruct (latest p (concat ls)) as [e|] eqn:Q; [|reflexivity]. cbn [bindr]. rewrite entry_blen. cbn [N.eqb Pos.eqb ENTRY_SIZE]. rewrite entry_round; [reflexivity|].
  assert (I : exists q, In (q, e) (concat ls)).
  { clear -Q. induction (concat ls) as [|[q x] l IH]; cbn [latest] in Q; [discriminate|]. destruct (latest p l) as [y|]; [injection Q as ->; destruct (IH eq_refl) as (q0 & Hq); exists q0; right; exact Hq|].
    destruct (key_dec p q); [injection Q as ->; exists q; left; reflexivity|discriminate]. }
  destruct I as (q & I). rewrite Forall_forall in HP. apply (HP _ I).
Qed.
Print Assumptions cache_refreshed_partial.

(** After the 187th refresh, which succeeds, no lookup finds any entry, whatever the files. *)
Theorem cache_refreshed_refuted : forall ps ls c pid tid c1,
  few ps -> Forall (fun x => In (fst x) ps) (concat ls) -> Forall (fun l => l <> []) ls -> length ls = 187%nat ->
  refreshes new_cache ls = Some c -> cache_begin_read c pid tid = Ok c1 ->
  forall p, blen p < 65536 -> forall e, cache_lookup c1 p <> Ok e.
Proof.
  intros ps ls c pid tid c1 FW HP HN HL HR HB p Hp e. destruct (refreshes_history ls new_cache c eq_refl HR) as (HH & _).
  destruct (puts_tiny ps FW (concat ls) [] ltac:(constructor) ltac:(constructor) ltac:(intros x []) HP) as (T & _).
  rewrite <- concat_puts in T. rewrite (read_lookup c pid tid c1 p HB).
  destruct (small_database_updates_refuted (map puts_of ls) (c_env c) ltac:(rewrite map_length; exact HL) (nonempty_puts ls HN) T HH p Hp) as [X|[X|(_ & X)]].
  - unfold read_now, db_get. destruct (t_root (reader (c_env c)) =? 0); [discriminate|]. rewrite X. discriminate.
  - rewrite X. discriminate.
  - rewrite X. discriminate.
Qed.
Print Assumptions cache_refreshed_refuted.

(** ** Cases *)
Lemma ops_store : forall l E t vis t', do_ops E t (puts_of l) = Ret tt t' -> store_all (mkCache E (Some t) vis) l = Some (mkCache E (Some t') vis).
Proof.
  induction l as [|[p e] l IH]; intros E t vis t' H; cbn [store_all puts_of map do_ops fst snd do_op] in *; [injection H as <-; reflexivity|].
  unfold cache_upsert. cbn [c_active c_env]. destruct (db_put E t p (entry_bytes e)) as [[] t1|er t1| |]; try discriminate. cbn [bindo] in H. apply IH. exact H.
Qed.
Lemma history_refreshes : forall ls c E', c_active c = None -> history (c_env c) (map puts_of ls) = Ok E' -> exists c', refreshes c ls = Some c' /\ c_env c' = E' /\ c_active c' = None.
Proof.
  induction ls as [|l ls IH]; intros c E' A H; cbn [refreshes map history] in *; [injection H as <-; eauto|].
  destruct (transact (c_env c) (puts_of l)) as [E1|e| |] eqn:T; try discriminate.
  assert (R : refresh c l = Some (mkCache E1 None (c_visited c))).
  { unfold transact in T. unfold refresh, cache_begin_write. destruct (begin_write (c_env c)) as [(E0, t)|] eqn:B; [|discriminate].
    destruct (do_ops E0 t (puts_of l)) as [[] t'|e t'| |] eqn:X; try discriminate. rewrite (ops_store l E0 t _ t' X). unfold cache_commit_write. cbn [c_active c_env]. unfold commit_txn.
    assert (R : t_rdonly t' = false) by (apply (do_ops_rw E0 (puts_of l) t t'); [apply begin_fields in B; destruct B as (_ & ->); reflexivity|exact X]).
    rewrite R. destruct (db_commit E0 t' None) as [E2 [[]|e| |]]; try discriminate. injection T as ->. reflexivity. }
  rewrite R. apply (IH (mkCache E1 None (c_visited c)) E' eq_refl H).
Qed.
Definition same_file (n : nat) : list (list (bytes * entry)) := repeat [([47; 97], mkEntry 1 2 3 4 5)] n.
Lemma same_puts n : map puts_of (same_file n) = again [47; 97] (entry_bytes (mkEntry 1 2 3 4 5)) n.
Proof. unfold same_file, again. induction n as [|n IH]; cbn [repeat map]; [reflexivity|]. rewrite IH. reflexivity. Qed.
Lemma same_hyps n : few [[47; 97]] /\ Forall (fun x => In (fst x) [[47; 97]] /\ entry_ok (snd x)) (concat (same_file n)) /\ Forall (fun l => l <> []) (same_file n) /\ length (same_file n) = n.
Proof.
  split; [vm_compute; discriminate|]. split; [|split; [apply Forall_forall; intros x Hx; apply repeat_spec in Hx; subst x; discriminate|apply repeat_length]].
  unfold same_file. induction n as [|n IH]; cbn [repeat concat app]; constructor; auto. split; [left; reflexivity|]. repeat split; reflexivity.
Qed.
Lemma same_latest n : (0 < n)%nat -> latest [47; 97] (concat (same_file n)) = Some (mkEntry 1 2 3 4 5).
Proof. destruct n as [|n]; [lia|]. intros _. unfold same_file. induction n as [|n IH]; [reflexivity|]. change (repeat ?x (S (S n))) with (x :: repeat x (S n)). cbn [concat app latest]. rewrite IH. reflexivity. Qed.
Lemma same_weight : weight [([47; 97], entry_bytes (mkEntry 1 2 3 4 5))] <= 4078.
Proof. vm_compute. discriminate. Qed.
Lemma begin_ok c : begin_read (c_env c) 1 1 <> Err ENOMEM -> exists c1, cache_begin_read c 1 1 = Ok c1.
Proof. intro H. unfold cache_begin_read, begin_read in *. destruct (fill_slot _ _ _ _); [cbn [bindr]; eauto|congruence]. Qed.
Lemma history_idle : forall txns E E', e_readers E = idle -> history E txns = Ok E' -> e_readers E' = idle.
Proof.
  induction txns as [|os r IH]; intros E E' HI H; cbn [history] in H; [injection H as <-; exact HI|]. destruct (transact E os) as [E1|e| |] eqn:T; try discriminate.
  apply (IH E1 E'); auto. unfold transact in T. destruct (begin_write E) as [(E0, t)|] eqn:B; [|discriminate]. apply begin_fields in B. destruct B as (-> & _).
  destruct (do_ops _ t os) as [[] t'|e t'| |]; try discriminate. destruct (db_commit _ t' None) as [E2 [[]|e| |]] eqn:C; try discriminate. injection T as <-.
  unfold db_commit in C. destruct (t_dirty t'); [injection C as <-; exact HI|]. destruct (populate_free_db _ _ _); try discriminate. destruct (over_meta _); [discriminate|]. injection C as <-. exact HI.
Qed.
Lemma same_goes n : (exists E, history env_create (again [47; 97] (entry_bytes (mkEntry 1 2 3 4 5)) n) = Ok E) ->
  exists c c1, refreshes new_cache (same_file n) = Some c /\ cache_begin_read c 1 1 = Ok c1.
Proof.
  intros (E & H). rewrite <- same_puts in H. pose proof (history_idle _ env_create _ eq_refl H) as HI.
  destruct (history_refreshes (same_file n) new_cache E eq_refl H) as (c & R & <- & _). exists c.
  destruct (begin_ok c) as (c1 & B); [|eauto]. unfold begin_read. rewrite HI. unfold idle, MAX_READERS. cbn [repeat fill_slot s_txnid N.eqb]. discriminate.
Qed.
Example refreshed_case : exists c c1, refreshes new_cache (same_file 186) = Some c /\ cache_begin_read c 1 1 = Ok c1 /\ cache_lookup c1 [47; 97] = Ok (mkEntry 1 2 3 4 5).
Proof.
  assert (G : forall n, n = 186%nat -> exists c c1, refreshes new_cache (same_file n) = Some c /\ cache_begin_read c 1 1 = Ok c1 /\ cache_lookup c1 [47; 97] = Ok (mkEntry 1 2 3 4 5)).
  { intros n Hn. destruct (again_reads _ _ n same_weight ltac:(lia)) as (E & H & _). destruct (same_goes n (ex_intro _ E H)) as (c & c1 & R & B). exists c, c1. split; [exact R|]. split; [exact B|].
    destruct (same_hyps n) as (A1 & A2 & A3 & A4). rewrite (cache_refreshed_partial _ _ _ _ _ _ A1 A2 A3 ltac:(lia) R B [47; 97] ltac:(vm_compute; reflexivity)). rewrite same_latest by lia. reflexivity. }
  apply G. reflexivity.
Qed.
(** one refresh more *)
Example refreshed_ruin : exists c c1, refreshes new_cache (same_file 187) = Some c /\ cache_begin_read c 1 1 = Ok c1 /\ cache_lookup c1 [47; 97] <> Ok (mkEntry 1 2 3 4 5).
Proof.
  assert (G : forall n, n = 187%nat -> exists c c1, refreshes new_cache (same_file n) = Some c /\ cache_begin_read c 1 1 = Ok c1 /\ cache_lookup c1 [47; 97] <> Ok (mkEntry 1 2 3 4 5)).
  { intros n Hn. destruct (again_more _ _ 186 same_weight eq_refl) as (E & H). rewrite <- Hn in H. destruct (same_goes n (ex_intro _ E H)) as (c & c1 & R & B). exists c, c1. split; [exact R|]. split; [exact B|].
    destruct (same_hyps n) as (A1 & A2 & A3 & A4). apply (cache_refreshed_refuted _ _ _ _ _ _ A1 ltac:(eapply Forall_impl; [|exact A2]; cbv beta; tauto) A3 ltac:(lia) R B [47; 97] ltac:(vm_compute; reflexivity)). }
  apply G. reflexivity.
Qed.
