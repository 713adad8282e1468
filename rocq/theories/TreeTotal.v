(** Lemmas about puts in ascending order of pairs whose sizes do not differ too much: no put
    fails for want of room. *)
From Verif Require Import Util PageModel PageSpec PageProofs PageOps TxnModel CursorModel TreeModel TreeSpec PropPage TreeProofs TreeOps TreeSplit TreePut TreeShape TreeOrder TxnInv.
Local Open Scope N_scope.

Lemma Forall_skipn {A} (P : A -> Prop) n l : Forall P l -> Forall P (skipn n l).
Proof. intro H. rewrite <- (firstn_skipn n l) in H. apply Forall_app in H. tauto. Qed.
Lemma Forall_firstn {A} (P : A -> Prop) n l : Forall P l -> Forall P (firstn n l).
Proof. intro H. rewrite <- (firstn_skipn n l) in H. apply Forall_app in H. tauto. Qed.
Lemma cost_bounds lo hi l : Forall (fun r => lo <= blen r + 2 <= hi) l ->
  N.of_nat (length l) * lo <= raw_cost l <= N.of_nat (length l) * hi.
Proof.
  unfold raw_cost, sumN. induction 1 as [|r l H _ IH]; cbn [map fold_right length]; [lia|].
  rewrite Nat2N.inj_succ, !N.mul_succ_l. lia.
Qed.

Definition lf (h : nat) : bool := match h with O => true | S _ => false end.
(** node area of a page *)
Definition CAP : N := PAGE_SIZE - HDR.
(** of nodes that take between [lo] and [hi] bytes: the upper half of a full page and one
    more fit in a page *)
Definition spread (lo hi : N) : Prop := 2 * hi <= CAP /\ forall n, 2 <= n -> n * lo <= CAP -> (n - n / 2 + 1) * hi <= CAP.

Section Sizes.
Variables (ka kb sa sb : N).
Definition low (leaf : bool) : N := if leaf then sa + 2 else 12 + ka.
Definition high (leaf : bool) : N := if leaf then sb + 2 else 12 + kb.
Definition keyed (k : bytes) : Prop := ka <= blen k <= kb.
Definition rawok (leaf : bool) (r : bytes) : Prop := keyed (raw_key leaf r) /\ low leaf <= blen r + 2 <= high leaf.
Definition tight (leaf : bool) (p : page) : Prop := page_free p + raw_cost (raws leaf p) = CAP.
(** the pages on the way down to the last leaf have no gaps *)
Fixpoint stout (V : view) (h : nat) (pg : N) : Prop :=
  wf_page (lf h) (V pg) /\ tight (lf h) (V pg) /\ Forall (rawok (lf h)) (raws (lf h) (V pg)) /\
  match h with O => True | S h' => forall pre k c, branch_entries (V pg) = pre ++ [(k, c)] -> stout V h' c end.
(** every branch has two children and every leaf an entry *)
Fixpoint bushy (V : view) (h : nat) (pg : N) : Prop :=
  match h with
  | O => leaf_entries (V pg) <> []
  | S h' => (2 <= length (branch_entries (V pg)))%nat /\ Forall (fun e => bushy V h' (snd e)) (branch_entries (V pg))
  end.
Lemma stout_frame V V' : forall h pg, (forall q, In q (tree_pages V h pg) -> V' q = V q) -> stout V h pg -> stout V' h pg.
Proof.
  induction h as [|h IH]; intros pg H S; cbn [stout] in *; rewrite (H pg) by (cbn; auto); [exact S|].
  destruct S as (W & A & B & C). splits; auto. intros pre k c Eb. apply IH; [|eapply C; eauto].
  intros q Hq. apply H. cbn [tree_pages]. right. rewrite Eb. apply in_flat_map. exists (k, c). split; auto. apply in_app_iff; cbn; auto.
Qed.
Lemma bushy_frame V V' : forall h pg, (forall q, In q (tree_pages V h pg) -> V' q = V q) -> bushy V h pg -> bushy V' h pg.
Proof.
  induction h as [|h IH]; intros pg H S; cbn [bushy] in *; rewrite (H pg) by (cbn; auto); [exact S|].
  destruct S as (A & B). split; auto. rewrite Forall_forall in *. intros e He. apply IH; auto.
  intros q Hq. apply H. cbn [tree_pages]. right. apply in_flat_map. eauto.
Qed.
(** many pairs *)
Lemma bushy_count V : forall h pg, bushy V h pg -> (2 ^ h <= length (tree_kvs V h pg))%nat.
Proof.
  induction h as [|h IH]; intros pg B; cbn [bushy tree_kvs] in *.
  - destruct (leaf_entries (V pg)); [congruence|cbn; lia].
  - destruct B as (A & B). assert (G : forall l, Forall (fun e : key * N => bushy V h (snd e)) l -> (length l * 2 ^ h <= length (flat_map (fun e => tree_kvs V h (snd e)) l))%nat).
    { induction 1 as [|e l He _ IHl]; cbn [length flat_map]; [lia|]. rewrite app_length. apply IH in He. lia. }
    apply G in B. cbn [Nat.pow]. nia.
Qed.
Lemma rawok_keys leaf p : Forall (rawok leaf) (raws leaf p) -> Forall keyed (page_keys leaf p).
Proof. intro H. rewrite page_keys_raws, Forall_map. eapply Forall_impl; [|exact H]. intros r (A & _). exact A. Qed.

Hypothesis SB : forall leaf, spread (low leaf) (high leaf).
Hypothesis KB : kb <= 1007.

(** insertion behind the last entry *)
Lemma insert_last leaf p k data child r : wf_page leaf p -> ksorted (page_keys leaf p) -> blen k < 65536 ->
  Forall (fun x => klt x k) (page_keys leaf p) -> node_bytes leaf k data child = Some r -> blen r < 65536 ->
  page_search p k = Ok (false, pg_nkeys p) /\
  ((page_free p < blen r + 2 /\ page_insert p (pg_nkeys p) k data child = Err ENOSPC) \/
   (blen r + 2 <= page_free p /\ exists p', page_insert p (pg_nkeys p) k data child = Ok p' /\ wf_page leaf p' /\
      raws leaf p' = raws leaf p ++ [r] /\ pg_pgno p' = pg_pgno p /\ (tight leaf p -> tight leaf p'))).
Proof.
  intros W S Hk HB Hn Hb. split.
  { rewrite (page_search_at leaf p k (page_keys leaf p) []); auto; [|rewrite app_nil_r; reflexivity].
    rewrite page_keys_length, N2Nat.id. reflexivity. }
  pose proof (page_insert_ok leaf p (pg_nkeys p) k data child r W ltac:(lia) Hn Hb) as H.
  destruct (N.ltb_spec (page_free p) (blen r + 2)); [left; auto|right]. split; auto.
  destruct H as (p' & -> & W' & R' & _ & P' & F' & _). exists p'. rewrite <- (raws_length leaf p), insert_at_end in R'. splits; auto.
  unfold tight. rewrite R', raw_cost_app, F'. assert (X : raw_cost [r] = blen r + 2) by (unfold raw_cost, sumN; cbn [map fold_right]; lia). rewrite X. lia.
Qed.

(** splitting a full page and inserting behind its last entry *)
Lemma split_last leaf p k data child r0 t lpg rpg l r : wf_page leaf p -> ksorted (page_keys leaf p) -> blen k < 65536 ->
  Forall (fun x => klt x k) (page_keys leaf p) -> node_bytes leaf k data child = Some r0 -> blen r0 < 65536 ->
  tight leaf p -> Forall (rawok leaf) (raws leaf p) -> rawok leaf r0 -> (2 <= length (raws leaf p))%nat -> rpg < 2 ^ 64 ->
  split_page leaf p rpg = Ok (l, r) ->
  exists r', insert_split t lpg rpg l r k data child = Ret tt (put_dirty t rpg r') /\ wf_page leaf r' /\ wf_page leaf l /\
    raws leaf l = firstn (Nat.div2 (length (raws leaf p))) (raws leaf p) /\
    raws leaf r' = skipn (Nat.div2 (length (raws leaf p))) (raws leaf p) ++ [r0] /\ tight leaf r' /\ pg_pgno r' = rpg.
Proof.
  intros W S Hk HB Hn Hb TI RO RO0 H2 Hrpg ES.
  destruct (split_page_ok leaf p rpg W) as (l0 & r1 & E0 & Wl & Wr & Rl & Rr & Nl & Nr & Pl & Pr & _ & _ & FR).
  rewrite ES in E0. injection E0 as <- <-. rewrite N.mod_small in Pr by auto.
  assert (Em : N.to_nat (pg_nkeys p / 2) = Nat.div2 (length (raws leaf p))) by (rewrite div2_N, raws_length; reflexivity).
  rewrite Em in Rl, Rr, FR. set (R := raws leaf p) in *. set (m := Nat.div2 (length R)) in *.
  assert (Hm : (m < length R)%nat) by (apply div2_lt; lia).
  rewrite page_keys_raws in S, HB. fold R in S, HB.
  assert (Sl : ksorted (page_keys leaf l) /\ ksorted (page_keys leaf r)).
  { rewrite !page_keys_raws, Rl, Rr. rewrite <- (firstn_skipn m R), map_app in S. apply sorted_app in S. tauto. }
  assert (Bl : Forall (fun x => klt x k) (page_keys leaf l) /\ Forall (fun x => klt x k) (page_keys leaf r)).
  { rewrite !page_keys_raws, Rl, Rr. rewrite <- (firstn_skipn m R), map_app in HB. apply Forall_app in HB. tauto. }
  destruct Sl as (Sl & Sr). destruct Bl as (Bl & Br).
  destruct (insert_last leaf l k data child r0 Wl Sl Hk Bl Hn Hb) as (QL & _).
  destruct (insert_last leaf r k data child r0 Wr Sr Hk Br Hn Hb) as (QR & HI).
  unfold insert_split. rewrite QL. cbn [lift bindo negb andb]. rewrite N.leb_refl, QR. cbn [lift bindo].
  assert (RM : raw_cost (skipn m R) + (blen r0 + 2) <= CAP).
  { assert (A : Forall (fun r => low leaf <= blen r + 2 <= high leaf) R) by (eapply Forall_impl; [|exact RO]; intros x (_ & X); exact X).
    pose proof (cost_bounds _ _ _ A) as (A1 & _). pose proof (cost_bounds _ _ _ (Forall_skipn _ m _ A)) as (_ & A2). rewrite skipn_length in A2.
    destruct RO0 as (_ & _ & A3). unfold tight in TI. fold R in TI. destruct (SB leaf) as (_ & SP). specialize (SP (N.of_nat (length R)) ltac:(lia) ltac:(lia)).
    assert (Q : N.of_nat (length R) / 2 = N.of_nat m) by (unfold m; rewrite Nat.div2_div, Nat2N.inj_div; reflexivity). rewrite Q in SP.
    replace (N.of_nat (length R - m)) with (N.of_nat (length R) - N.of_nat m) in A2 by lia. rewrite N.mul_add_distr_r in SP. lia. }
  assert (FR' : page_free r + raw_cost (skipn m R) = CAP) by (rewrite FR; unfold CAP in *; lia).
  destruct HI as [(Hf & _)|(_ & r' & -> & W' & R' & P' & TI')]; [lia|]. cbn [lift bindo].
  exists r'. rewrite R', Rr, P'. splits; auto. apply TI'. unfold tight. rewrite Rr. exact FR'.
Qed.

Section Total.
Variables (al : allocator) (E : env) (F : N -> Prop) (Q : txn -> Prop).
Hypothesis Q_alloc : forall t, Q t -> t_rdonly t = false -> al E t = Ret (t_last t + 1) (set_last t (t_last t + 1)).
Hypothesis Q_stable : forall t t', Q t -> t_rdonly t' = t_rdonly t -> t_id t' = t_id t -> t_free_root t' = t_free_root t ->
  (forall q, F q -> get_page E t' q = get_page E t q) -> Q t'.

Definition good (V : view) (h : nat) (pg : N) : Prop := stout V h pg /\ bushy V h pg.

Lemma comp_leaf_total t pg lo hi k v : Q t -> t_rdonly t = false -> leaf_size k v < 65536 ->
  tree true (get_page E t) 0 pg lo hi -> pg <= t_last t -> dget (t_dirty t) pg = Some (get_page E t pg) ->
  (2 <= length (leaf_entries (get_page E t pg)))%nat -> Forall (fun e => klt (fst e) k) (leaf_entries (get_page E t pg)) ->
  stout (get_page E t) 0 pg -> keyed k -> sa <= leaf_size k v <= sb -> t_last t + 1 < 2 ^ 64 ->
  exists d r t', comp al E t [pg] k v = Ret (Some (d, r)) t' /\
    good (get_page E t') 0 r /\ bushy (get_page E t') 0 pg /\ Forall keyed (page_keys true (get_page E t' pg)) /\ dget (t_dirty t') pg <> None /\ keyed d.
Proof.
  intros HQ Hr Hs T Hpg D H2 HB ST Kk Ks Hl. set (p := get_page E t pg) in *. cbn [tree] in T. fold p in T. destruct T as (Pp & W & S & FB).
  cbn [stout lf] in ST. fold p in ST. destruct ST as (_ & TI & RO & _).
  assert (HN : length (raws true p) = length (leaf_entries p)) by (rewrite leaf_entries_raws, map_length; reflexivity).
  destruct (split_node_ok al E F Q Q_alloc Q_stable t true pg p HQ Hr D W ltac:(pose proof (raws_length true p); lia) Hl) as (l & r & d & ES & ESP & Pr & Hd).
  unfold comp. change (leaf_of [pg]) with pg. rewrite ES. cbn [bindo]. set (rpg := t_last t + 1) in *.
  set (t5 := put_dirty (put_dirty (set_last t rpg) pg l) rpg r).
  pose proof (leaf_size_key k v Hs) as Hk. assert (Hv : blen v < 65536) by (unfold leaf_size in Hs; lia).
  assert (RO0 : rawok true (leaf_node_bytes k v)).
  { unfold rawok. rewrite raw_key_leaf, blen_leaf by auto. split; auto. unfold low, high. lia. }
  destruct (split_last true p k (Some v) 0 (leaf_node_bytes k v) t5 pg rpg l r W S Hk) as (r' & EI & Wr' & Wl & Rl & Rr & TI' & Pr'); auto.
  { rewrite <- leaf_entries_keys, Forall_map. exact HB. }
  { rewrite blen_leaf. exact Hs. } { lia. }
  rewrite EI. cbn [bindo rev app tl propagate]. rewrite Pr. exists d, rpg, (put_dirty t5 rpg r'). split; [reflexivity|].
  assert (D5 : forall q, dget (t_dirty (put_dirty t5 rpg r')) q = if rpg =? q then Some r' else if pg =? q then Some l else dget (t_dirty t) q).
  { intro q. unfold t5. rewrite !dget_put. destruct (rpg =? q); reflexivity. }
  assert (Vl : get_page E (put_dirty t5 rpg r') pg = l).
  { apply get_dirty; auto. rewrite D5. destruct (N.eqb_spec rpg pg); [unfold rpg in *; lia|]. rewrite N.eqb_refl. reflexivity. }
  assert (Vr : get_page E (put_dirty t5 rpg r') rpg = r') by (apply get_dirty; auto; rewrite D5, N.eqb_refl; reflexivity).
  assert (Hm : (1 <= Nat.div2 (length (raws true p)) < length (raws true p))%nat) by (split; [apply div2_pos; lia|apply div2_lt; lia]).
  splits.
  - split; cbn [stout bushy lf]; rewrite Vr.
    + splits; auto. rewrite Rr. apply Forall_app. split; [apply Forall_skipn; exact RO|repeat constructor; apply RO0].
    + rewrite leaf_entries_raws, Rr, map_app. intro X. apply app_eq_nil in X. destruct X; discriminate.
  - cbn [bushy]. rewrite Vl, leaf_entries_raws, Rl. intro X. apply (f_equal (@length _)) in X. rewrite map_length, firstn_length in X. cbn in X. lia.
  - rewrite Vl. apply rawok_keys. rewrite Rl. apply Forall_firstn. exact RO.
  - rewrite D5. destruct (N.eqb_spec rpg pg); [discriminate|]. rewrite N.eqb_refl. discriminate.
  - apply nth_error_In in Hd. pose proof (rawok_keys true p RO) as X. rewrite Forall_forall in X. auto.
Qed.

Lemma branch_total t h pg pre ki c d r : let V := get_page E t in let p := V pg in
  Q t -> t_rdonly t = false -> dget (t_dirty t) pg = Some p -> wf_page false p -> ksorted (page_keys false p) ->
  branch_entries p = pre ++ [(ki, c)] -> (2 <= length (branch_entries p))%nat -> tight false p -> Forall (rawok false) (raws false p) ->
  keyed d -> klt ki d -> r < 2 ^ 64 -> pg <= t_last t -> t_last t + 1 < 2 ^ 64 ->
  Forall (fun e => bushy V h (snd e)) (branch_entries p) -> good V h r ->
  (forall q, In q (flat_map (fun e => tree_pages V h (snd e)) (branch_entries p) ++ tree_pages V h r) -> q <> pg /\ q <= t_last t) ->
  exists up t', propagate al E t [pg] d r = Ret up t' /\
    match up with
    | None => good (get_page E t') (S h) pg
    | Some (d', r') => good (get_page E t') (S h) r' /\ bushy (get_page E t') (S h) pg /\ Forall keyed (page_keys false (get_page E t' pg)) /\
        dget (t_dirty t') pg <> None /\ keyed d'
    end.
Proof.
  intros V p HQ Hr D W S Eb H2 TI RO Kd Hd Hr64 Hpg Hl BU (SR & BR) PG.
  assert (Hdk : blen d < 65536) by (unfold keyed in Kd; lia).
  assert (RO0 : rawok false (branch_node_bytes d r)).
  { unfold rawok. rewrite raw_key_branch, blen_branch by auto. split; auto. unfold low, high, branch_size, BRANCH_BASE. unfold keyed in Kd. lia. }
  assert (B0 : blen (branch_node_bytes d r) < 65536) by (rewrite blen_branch; unfold branch_size, BRANCH_BASE; unfold keyed in Kd; lia).
  assert (HB : Forall (fun x => klt x d) (page_keys false p)).
  { rewrite <- branch_entries_keys in S |- *. rewrite Eb, map_app in S |- *. cbn [map fst] in S |- *. apply sorted_app in S. destruct S as (_ & _ & S).
    apply Forall_app. split; [|repeat constructor; auto]. apply Forall_forall. intros x Hx. eapply klt_trans; [apply S; cbn; eauto|auto]. }
  destruct (insert_last false p d None r (branch_node_bytes d r) W S Hdk HB eq_refl B0) as (QS & HI).
  assert (BEr : forall a b, raws false b = a ++ [branch_node_bytes d r] -> branch_entries b = map (fun x => (raw_key false x, raw_child x)) a ++ [(d, r)]).
  { intros a b Hb. rewrite branch_entries_raws, Hb, map_app. cbn [map]. rewrite raw_key_branch, raw_child_branch by auto. reflexivity. }
  cbn [propagate]. rewrite D, QS. cbn [lift bindo]. destruct HI as [(Hfull & ->)|(Hfit & p' & -> & W' & R' & P' & TI')].
  - (* split *)
    assert (HN : length (raws false p) = length (branch_entries p)) by (rewrite branch_entries_raws, map_length; reflexivity).
    destruct (split_node_ok al E F Q Q_alloc Q_stable t false pg p HQ Hr D W ltac:(pose proof (raws_length false p); lia) Hl) as (l & r1 & d' & ES & ESP & Pr & Hd').
    rewrite ES. cbn [bindo]. set (rpg := t_last t + 1) in *. set (t5 := put_dirty (put_dirty (set_last t rpg) pg l) rpg r1).
    destruct (split_last false p d None r (branch_node_bytes d r) t5 pg rpg l r1 W S Hdk HB eq_refl B0 TI RO RO0 ltac:(lia) Hl ESP) as (r' & EI & Wr' & Wl & Rl & Rr & TI' & Pr').
    rewrite EI. cbn [bindo propagate]. rewrite Pr. exists (Some (d', rpg)), (put_dirty t5 rpg r'). split; [reflexivity|].
    assert (D5 : forall q, dget (t_dirty (put_dirty t5 rpg r')) q = if rpg =? q then Some r' else if pg =? q then Some l else dget (t_dirty t) q).
    { intro q. unfold t5. rewrite !dget_put. destruct (rpg =? q); reflexivity. }
    set (V' := get_page E (put_dirty t5 rpg r')) in *.
    assert (Vl : V' pg = l).
    { apply get_dirty; auto. rewrite D5. destruct (N.eqb_spec rpg pg); [unfold rpg in *; lia|]. rewrite N.eqb_refl. reflexivity. }
    assert (Vr : V' rpg = r') by (apply get_dirty; auto; rewrite D5, N.eqb_refl; reflexivity).
    assert (Vo : forall q, q <> pg -> q <= t_last t -> V' q = V q).
    { intros q H1 H3. unfold V', V, get_page. change (t_rdonly (put_dirty t5 rpg r')) with (t_rdonly t). rewrite Hr, D5.
      destruct (N.eqb_spec rpg q); [unfold rpg in *; lia|]. destruct (N.eqb_spec pg q); [congruence|]. reflexivity. }
    assert (HM : (4 <= length (raws false p))%nat).
    { assert (A : Forall (fun r => low false <= blen r + 2 <= high false) (raws false p)) by (eapply Forall_impl; [|exact RO]; intros x (_ & X); exact X).
      pose proof (cost_bounds _ _ _ A) as (_ & A2). unfold tight, CAP, PAGE_SIZE, HDR in TI. destruct RO0 as (_ & _ & A3). unfold high in A2, A3.
      destruct (Nat.le_gt_cases 4 (length (raws false p))); auto. exfalso.
      assert (X : N.of_nat (length (raws false p)) * (12 + kb) <= 3 * (12 + kb)) by (apply N.mul_le_mono_r; lia). lia. }
    assert (BUf : forall e, In e (branch_entries p) -> bushy V' h (snd e)).
    { intros e He. rewrite Forall_forall in BU. eapply bushy_frame; [|apply BU; exact He]. intros q Hq. destruct (PG q); [apply in_app_iff; left; apply in_flat_map; eauto|]. apply Vo; auto. }
    assert (BRf : bushy V' h r) by (eapply bushy_frame; [|exact BR]; intros q Hq; destruct (PG q); [apply in_app_iff; auto|]; apply Vo; auto).
    assert (SRf : stout V' h r) by (eapply stout_frame; [|exact SR]; intros q Hq; destruct (PG q); [apply in_app_iff; auto|]; apply Vo; auto).
    set (m := Nat.div2 (length (raws false p))) in *.
    assert (Hm : (2 <= m < length (raws false p))%nat).
    { split; [|apply div2_lt; lia]. unfold m. rewrite Nat.div2_div. apply (Nat.div_le_lower_bound); lia. }
    apply BEr in Rr as Br.
    assert (Bl : branch_entries l = firstn m (branch_entries p)) by (rewrite !branch_entries_raws, Rl, firstn_map; reflexivity).
    assert (Br' : branch_entries r' = skipn m (branch_entries p) ++ [(d, r)]) by (rewrite Br, branch_entries_raws, skipn_map; reflexivity).
    splits.
    + split; cbn [stout bushy lf]; rewrite Vr.
      * splits; auto.
        -- rewrite Rr. apply Forall_app. split; [apply Forall_skipn; exact RO|repeat constructor; apply RO0].
        -- intros pre' k' c' X. rewrite Br' in X. apply last_eq in X. destruct X as (_ & X). injection X as <- <-. exact SRf.
      * rewrite Br'. split; [rewrite app_length, skipn_length; cbn [length]; lia|]. apply Forall_app. split; [|repeat constructor; exact BRf].
        apply Forall_skipn. apply Forall_forall. exact BUf.
    + cbn [bushy]. rewrite Vl, Bl. split; [rewrite firstn_length; lia|]. apply Forall_firstn. apply Forall_forall. exact BUf.
    + rewrite Vl. apply rawok_keys. rewrite Rl. apply Forall_firstn. exact RO.
    + rewrite D5. destruct (N.eqb_spec rpg pg); [discriminate|]. rewrite N.eqb_refl. discriminate.
    + apply nth_error_In in Hd'. pose proof (rawok_keys false p RO) as X. rewrite Forall_forall in X. auto.
  - (* fits *)
    exists None, (put_dirty t pg p'). split; [reflexivity|]. set (V' := get_page E (put_dirty t pg p')).
    assert (Vp : V' pg = p') by (apply get_dirty; auto; rewrite dget_put, N.eqb_refl; reflexivity).
    assert (Vo : forall q, q <> pg -> V' q = V q).
    { intros q Hq. unfold V', V, get_page. change (t_rdonly (put_dirty t pg p')) with (t_rdonly t). rewrite Hr, dget_put. destruct (N.eqb_spec pg q); [congruence|reflexivity]. }
    apply BEr in R' as Br. rewrite <- branch_entries_raws in Br. split; cbn [stout bushy lf]; rewrite Vp.
    + splits; auto.
      * rewrite R'. apply Forall_app. split; auto.
      * intros pre' k' c' X. rewrite Br in X. apply last_eq in X. destruct X as (_ & X). injection X as <- <-.
        eapply stout_frame; [|exact SR]. intros q Hq. destruct (PG q); [apply in_app_iff; auto|]. apply Vo; auto.
    + rewrite Br. split; [rewrite app_length; lia|]. apply Forall_app. split.
      * apply Forall_forall. intros e He. rewrite Forall_forall in BU. eapply bushy_frame; [|apply BU; exact He].
        intros q Hq. destruct (PG q); [apply in_app_iff; left; apply in_flat_map; eauto|]. apply Vo; auto.
      * repeat constructor. cbn [snd]. eapply bushy_frame; [|exact BR]. intros q Hq. destruct (PG q); [apply in_app_iff; auto|]. apply Vo; auto.
Qed.

(** the whole way up *)
Lemma comp_total k v : leaf_size k v < 65536 -> keyed k -> sa <= leaf_size k v <= sb -> forall h pg path lo hi t,
  Q t -> t_rdonly t = false -> route (get_page E t) k h pg path ->
  tree true (get_page E t) h pg lo hi -> NoDup (tree_pages (get_page E t) h pg) ->
  (forall q, In q (tree_pages (get_page E t) h pg) -> q <= t_last t /\ ~ F q) ->
  (forall q, F q -> q <= t_last t) ->
  (forall q, In q path -> dget (t_dirty t) q = Some (get_page E t q)) ->
  inrange true (get_page E t) h pg lo hi k ->
  lookup k (leaf_entries (get_page E t (leaf_of path))) = None ->
  page_free (get_page E t (leaf_of path)) < leaf_size k v + 2 ->
  split_plan (get_page E t) k (leaf_size k v) h pg <> None ->
  t_last t + N.of_nat (S h) < 2 ^ 64 ->
  beyond (get_page E t) k h pg -> fat (get_page E t) h pg -> good (get_page E t) h pg ->
  exists up t', comp al E t path k v = Ret up t' /\
    match up with
    | None => good (get_page E t') h pg
    | Some (d, r) => good (get_page E t') h r /\ bushy (get_page E t') h pg /\ Forall keyed (page_keys (lf h) (get_page E t' pg)) /\
        dget (t_dirty t') pg <> None /\ keyed d
    end.
Proof.
  intros Hs Kk Ks. induction h as [|h IH]; intros pg path lo hi t HQ Hr R T ND PG HF HD IR HL Hfull HP Hlast By Ft (St & Bu).
  - inversion R; subst. cbn [beyond fat] in By, Ft.
    destruct (comp_leaf_total t pg lo hi k v) as (d & r & t' & -> & X); auto.
    + apply PG. cbn; auto.
    + apply HD. cbn; auto.
    + do 2 eexists. split; [reflexivity|]. exact X.
  - inversion R as [|h0 pg0 pre ki c post path0 Ebr Hp Ho Rc]; subst.
    rewrite comp_cons by (eapply route_nonempty; eauto).
    rewrite leaf_of_cons in HL, Hfull by (eapply route_nonempty; eauto).
    destruct (inrange_child _ _ _ _ _ _ _ _ _ _ _ T IR Ebr Hp Ho) as [IRc _].
    destruct (NoDup_kids _ _ _ _ _ _ _ ND Ebr) as (N1 & N2 & N3 & N4).
    pose proof T as T0. cbn [tree] in T0. destruct T0 as (Ap & W & K & B).
    pose proof (kids_sorted _ _ _ _ K) as SK. rewrite branch_entries_keys in SK.
    rewrite Ebr in K. pose proof (kids_mid _ _ _ _ _ _ _ K) as Tc.
    assert (Hcp : forall q, In q (tree_pages (get_page E t) h c) -> In q (tree_pages (get_page E t) (S h) pg)).
    { intros q Hq. cbn [tree_pages]. right. rewrite Ebr. apply in_flat_map. exists (ki, c). split; auto. apply in_app_iff; cbn; auto. }
    destruct (beyond_route _ _ _ _ _ _ _ _ By Ebr Ho) as [-> Byc].
    cbn [fat] in Ft. destruct Ft as (pre' & k0 & c0 & Ef & Hne & Ftc). rewrite Ebr in Ef. apply last_eq in Ef. destruct Ef as [-> Ef]. injection Ef as <- <-.
    cbn [stout bushy lf] in St, Bu. destruct St as (_ & TI & RO & Stc). specialize (Stc _ _ _ Ebr). destruct Bu as (H2 & Bu).
    assert (Buc : bushy (get_page E t) h c) by (rewrite Forall_forall in Bu; apply (Bu (ki, c)); rewrite Ebr; apply in_app_iff; cbn; auto).
    cbn [split_plan] in HP.
    rewrite (rank_route _ k pre' ki c [] SK Ebr Hp Ho) in HP. rewrite Ebr, nth_error_mid in HP.
    assert (HPc : split_plan (get_page E t) k (leaf_size k v) h c <> None) by (destruct (split_plan _ k _ h c); congruence).
    pose proof (comp_ok al E F Q Q_alloc Q_stable k v Hs h c path0 _ _ t HQ Hr Rc Tc N1 (fun q Hq => PG q (Hcp q Hq)) HF (fun q Hq => HD q (or_intror Hq)) IRc HL Hfull HPc ltac:(lia)) as CO.
    destruct (IH c path0 _ _ t HQ Hr Rc Tc N1 (fun q Hq => PG q (Hcp q Hq)) HF (fun q Hq => HD q (or_intror Hq)) IRc HL Hfull HPc ltac:(lia) Byc Ftc (conj Stc Buc)) as (up & t' & EC & HU).
    rewrite EC in CO |- *. cbn [bindo]. destruct CO as (Ev & El & CO).
    assert (Hpgl : pg <= t_last t) by (apply PG; cbn; auto).
    assert (HVpg : get_page E t' pg = get_page E t pg) by (apply (evolve_get E _ _ _ _ Ev); auto).
    assert (Hsib : forall e q, In e pre' -> In q (tree_pages (get_page E t) h (snd e)) -> q <= t_last t /\ q <> pg /\ get_page E t' q = get_page E t q).
    { intros [k' c'] q Hi Hq. assert (Hi' : In (k', c') (pre' ++ [])) by (rewrite app_nil_r; auto). cbn [snd] in Hq.
      assert (Hin : In q (tree_pages (get_page E t) (S h) pg)).
      { cbn [tree_pages]. right. rewrite Ebr. apply in_flat_map. exists (k', c'). split; auto. apply in_app_iff; auto. }
      splits; [apply PG; auto|intros ->; eapply N4; eauto|]. apply (evolve_get E _ _ _ _ Ev); [apply PG; auto|]. eapply N3; eauto. }
    assert (Bpre : Forall (fun e => bushy (get_page E t') h (snd e)) pre').
    { rewrite Ebr in Bu. apply Forall_app in Bu. destruct Bu as (Bu & _). rewrite Forall_forall in *. intros e He. eapply bushy_frame; [|apply Bu; exact He].
      intros q Hq. eapply Hsib; eauto. }
    assert (Hpage : forall q, In q (tree_pages (get_page E t) h c) \/ t_last t < q <= t_last t' -> q <> pg /\ q <= t_last t').
    { intros q [Hq|Hq]; [|split; lia]. split; [intros ->; auto|]. apply Hcp in Hq. apply PG in Hq. pose proof Ev as (_ & _ & _ & _ & ? & _). lia. }
    destruct up as [[d r]|].
    + destruct CO as (Sp & Hrl & _). destruct HU as (Gr & Bc & Kc & Dc & Kd).
      pose proof Sp as (_ & _ & _ & Hlt & _ & PGcr & Hrlt & _).
      assert (Hki : klt ki d) by (apply Hlt; unfold nlo; destruct pre'; [congruence|reflexivity]).
      assert (HQ' : Q t').
      { eapply evolve_Q; [exact Q_stable|exact Ev|exact HQ|]. intros q Hq. split; [auto|]. intro Hi. apply Hcp in Hi. apply PG in Hi. tauto. }
      destruct Ev as (E1 & E2 & E3 & E4 & E5 & E6).
      apply (branch_total t' h pg pre' ki c d r); rewrite ?HVpg; auto; try lia; try congruence.
      * rewrite E6 by auto. apply HD. cbn; auto.
      * rewrite Ebr. apply Forall_app. split; auto.
      * intros q Hq. rewrite Ebr, flat_map_app, <- app_assoc in Hq. cbn [flat_map snd] in Hq. rewrite app_nil_r, in_app_iff in Hq. destruct Hq as [Hq|Hq].
        -- apply in_flat_map in Hq. destruct Hq as (e & He & Hq).
           assert (X : tree_pages (get_page E t') h (snd e) = tree_pages (get_page E t) h (snd e)) by (apply kvs_frame; intros q' Hq'; eapply Hsib; eauto).
           rewrite X in Hq. destruct (Hsib _ _ He Hq) as (? & ? & _). split; auto. lia.
        -- apply Hpage. apply PGcr. exact Hq.
    + exists None, t'. split; [reflexivity|]. destruct HU as (Sc & Bc). split; cbn [stout bushy lf]; rewrite HVpg.
      * splits; auto. intros pre0 k0 c0 X. rewrite Ebr in X. apply last_eq in X. destruct X as (_ & X). injection X as <- <-. exact Sc.
      * split; auto. rewrite Ebr. apply Forall_app. split; auto.
Qed.

Lemma good_update V V' k : forall h pg path, route V k h pg path -> NoDup (tree_pages V h pg) ->
  (forall q, In q (tree_pages V h pg) -> q <> leaf_of path -> V' q = V q) ->
  stout V' 0 (leaf_of path) -> bushy V' 0 (leaf_of path) -> beyond V k h pg -> good V h pg -> good V' h pg.
Proof.
  induction h as [|h IH]; intros pg path R ND HV HS HB By (St & Bu).
  - inversion R; subst. split; auto.
  - pose proof (route_leaf_neq _ _ _ _ _ R ND) as Hn.
    inversion R as [|h0 pg0 pre ki c post path0 Ebr Hp Ho Rc]; subst.
    rewrite leaf_of_cons in HV, HS, HB, Hn by (eapply route_nonempty; eauto).
    destruct (NoDup_kids _ _ _ _ _ _ _ ND Ebr) as (N1 & N2 & N3 & N4).
    destruct (beyond_route _ _ _ _ _ _ _ _ By Ebr Ho) as [-> Byc].
    cbn [stout bushy] in St, Bu. destruct St as (W & TI & RO & Stc). destruct Bu as (H2 & Bu). specialize (Stc _ _ _ Ebr).
    assert (Buc : bushy V h c) by (rewrite Forall_forall in Bu; apply (Bu (ki, c)); rewrite Ebr; apply in_app_iff; cbn; auto).
    assert (Hl : In (leaf_of path0) (tree_pages V h c)) by (eapply route_leaf_in; eauto).
    destruct (IH c path0 Rc N1) as (Sc & Bc); auto.
    { intros q Hq Hne. apply HV; auto. cbn [tree_pages]. right. rewrite Ebr. apply in_flat_map. exists (ki, c). split; auto. apply in_app_iff; cbn; auto. }
    { split; auto. }
    split; cbn [stout bushy]; rewrite (HV pg) by (auto; cbn; auto).
    + splits; auto. intros pre0 k0 c0 X. rewrite Ebr in X. apply last_eq in X. destruct X as (_ & X). injection X as <- <-. exact Sc.
    + split; auto. rewrite Ebr in Bu |- *. apply Forall_app in Bu. destruct Bu as (Bu & _). apply Forall_app. split; auto.
      rewrite Forall_forall in *. intros [k' c'] He. cbn [snd]. eapply bushy_frame; [|apply (Bu _ He)]. intros q Hq. cbn [snd] in Hq. apply HV.
      * cbn [tree_pages]. right. rewrite Ebr. apply in_flat_map. exists (k', c'). split; auto. apply in_app_iff; auto.
      * intros ->. eapply N3; [|exact Hq|exact Hl]. rewrite app_nil_r. eauto.
Qed.
(** the height of a tree is that of the way *)
Lemma stout_height V : forall h h' pg lo hi, tree true V h pg lo hi -> stout V h' pg -> h = h'.
Proof.
  induction h as [|h IH]; intros [|h'] pg lo hi T S; auto; cbn [tree stout lf] in *.
  - destruct T as (_ & W & _). destruct S as (W' & _). apply wf_is_leaf in W, W'. congruence.
  - destruct T as (_ & W & _). destruct S as (W' & _). apply wf_is_leaf in W, W'. congruence.
  - destruct T as (_ & _ & K & _). destruct S as (_ & _ & _ & S). f_equal.
    pose proof (kids_nonempty _ _ _ _ K) as Hne. destruct (exists_last Hne) as (pre & (k & c) & Eb).
    rewrite Eb in K. apply kids_mid in K. eapply IH; [exact K|]. eapply S; eauto.
Qed.

(** put of the largest key up to the insertion into the leaf *)
Lemma prepare_last t k v h : blen k < 65536 -> t_rdonly t = false -> t_root t <> 0 ->
  tree true (get_page E t) h (t_root t) None None -> NoDup (tree_pages (get_page E t) h (t_root t)) ->
  Forall (fun q => 2 <= q <= t_last t) (tree_pages (get_page E t) h (t_root t)) -> (h < 32)%nat ->
  Forall (fun e => klt (fst e) k) (tree_kvs (get_page E t) h (t_root t)) ->
  exists path t3, route (get_page E t) k h (t_root t) path /\
    let p := get_page E t (leaf_of path) in
    db_put_with al E t k v = finish al E t3 path (leaf_of path) (pg_nkeys p) p k v /\
    same_ctl t t3 /\ (forall q, get_page E t3 q = get_page E t q) /\
    (forall q, In q path -> dget (t_dirty t3) q = Some (get_page E t q)) /\
    wf_page true p /\ ksorted (page_keys true p) /\ Forall (fun e => klt (fst e) k) (leaf_entries p).
Proof.
  intros Hk Hr Hnz T ND PG Hh HB. set (V := get_page E t) in *.
  assert (Hm : forall q, In q (tree_pages V h (t_root t)) -> q <= max_pgno E t).
  { unfold max_pgno. rewrite Hr. rewrite Forall_forall in PG. intros q Hq. apply PG in Hq. lia. }
  destruct (find_path_ok true E t k Hk h MAX_TREE_DEPTH (t_root t) None None ltac:(unfold MAX_TREE_DEPTH; lia) Hm T) as (path & EP & R).
  fold V in EP, R. destruct (route_leaf_tree _ _ _ _ _ _ _ _ R T) as (Pl & Wl & Sl). set (lpg := leaf_of path) in *.
  destruct (cow_path_ok E (rev path) t Hr) as (t3 & EC & C3 & V3 & D3 & K3 & _).
  { intros q Hq. apply in_rev in Hq. eapply tree_page_pgno; eauto. eapply route_pages; eauto. }
  exists path, t3. split; auto. cbn zeta. fold lpg.
  assert (Hin : In lpg (rev path)) by (apply in_rev; rewrite rev_involutive; apply last_In; eapply route_nonempty; eauto).
  assert (Hlk : leaf_key E t lpg = lpg).
  { unfold leaf_key. destruct (dget (t_dirty t) lpg) eqn:D; auto. unfold V, get_page in Pl. rewrite Hr, D in Pl. exact Pl. }
  assert (HBl : Forall (fun e => klt (fst e) k) (leaf_entries (V lpg))).
  { destruct (route_update true V V k h (t_root t) path None None R T ND) as (_ & _ & m1 & m2 & EM1 & _); auto.
    rewrite EM1, !Forall_app in HB. apply HB. }
  assert (SR : page_search (V lpg) k = Ok (false, pg_nkeys (V lpg))).
  { rewrite (page_search_at true (V lpg) k (page_keys true (V lpg)) []); auto.
    - rewrite page_keys_length, N2Nat.id. reflexivity.
    - rewrite app_nil_r. reflexivity.
    - rewrite <- leaf_entries_keys, Forall_map. exact HBl. }
  splits; auto.
  - unfold db_put_with. rewrite Hr. destruct (N.eqb_spec (t_root t) 0) as [|_]; [tauto|].
    rewrite EP. cbn [lift bindo]. fold lpg. rewrite SR. cbn [lift bindo andb]. rewrite Hlk, EC. cbn [bindo]. rewrite (D3 _ Hin). reflexivity.
  - intros q Hq. apply D3. apply -> in_rev. exact Hq.
Qed.

(** the new root *)
Lemma root_total t h pg r d : let V := get_page E t in
  Q t -> t_rdonly t = false -> t_last t + 1 < 2 ^ 64 -> pg <= t_last t -> r <= t_last t ->
  wf_page (lf h) (V pg) -> bushy V h pg -> Forall keyed (page_keys (lf h) (V pg)) -> dget (t_dirty t) pg <> None -> keyed d -> good V h r ->
  (forall q, In q (tree_pages V h pg ++ tree_pages V h r) -> q <= t_last t) ->
  exists n t', root_split al E t pg r d = Ret n t' /\ good (get_page E t') (S h) n.
Proof.
  intros V HQ Hr Hl Hpg Hrl W Bu Kp D Kd (St & Br) PG. unfold root_split. rewrite (Q_alloc t HQ Hr). cbn [bindo]. set (n := t_last t + 1) in *.
  cbn [set_last t_dirty]. destruct (dget (t_dirty t) pg) as [p|] eqn:Dp; [|congruence].
  assert (Vp : V pg = p) by (apply get_dirty; auto). rewrite Vp in *.
  rewrite (wf_is_branch _ _ W), negb_involutive.
  destruct (page_keys (lf h) p) as [|lk rest] eqn:EK.
  { exfalso. destruct h; cbn [bushy lf] in *; rewrite Vp in Bu.
    - rewrite <- leaf_entries_keys in EK. apply map_eq_nil in EK. congruence.
    - rewrite <- branch_entries_keys in EK. apply map_eq_nil in EK. rewrite EK in Bu. cbn in Bu. lia. }
  rewrite (first_key_ok (lf h) p lk rest W EK). cbn [lift bindo]. apply Forall_inv in Kp.
  destruct (SB false) as (S2 & _). unfold high in S2.
  assert (Hbs : forall x c, keyed x -> blen (branch_node_bytes x c) < 65536 /\ rawok false (branch_node_bytes x c)).
  { intros x c Kx. unfold keyed in Kx. unfold rawok. rewrite raw_key_branch, blen_branch by lia. unfold keyed, low, high, branch_size, BRANCH_BASE. lia. }
  assert (Hc2 : forall x c, keyed x -> 2 * (blen (branch_node_bytes x c) + 2) <= CAP).
  { intros x c Kx. unfold keyed in Kx. rewrite blen_branch. unfold branch_size, BRANCH_BASE. lia. }
  pose proof (Hc2 lk pg Kp) as C1. pose proof (Hc2 d r Kd) as C2.
  pose proof (page_insert_ok false (init_page n P_BRANCH) 0 lk None pg (branch_node_bytes lk pg) (init_wf false n)) as I1.
  rewrite init_nkeys, init_free, init_raws in I1. specialize (I1 ltac:(lia) eq_refl (proj1 (Hbs lk pg Kp))). fold CAP in I1.
  destruct (N.ltb_spec CAP (blen (branch_node_bytes lk pg) + 2)); [lia|].
  destruct I1 as (n1 & -> & W1 & R1 & N1 & _ & F1 & _). cbn [lift bindo].
  pose proof (page_insert_ok false n1 1 d None r (branch_node_bytes d r) W1) as I2.
  rewrite N1, F1, R1 in I2. specialize (I2 ltac:(lia) eq_refl (proj1 (Hbs d r Kd))).
  destruct (N.ltb_spec (CAP - (blen (branch_node_bytes lk pg) + 2)) (blen (branch_node_bytes d r) + 2)); [lia|].
  destruct I2 as (n2 & -> & W2 & R2 & _ & _ & F2 & _). cbn [lift bindo].
  change (insert_at (N.to_nat 1) (branch_node_bytes d r) (insert_at (N.to_nat 0) (branch_node_bytes lk pg) [])) with [branch_node_bytes lk pg; branch_node_bytes d r] in R2.
  exists n, (put_dirty (set_last t n) n n2). split; [reflexivity|].
  assert (HV : forall q, get_page E (put_dirty (set_last t n) n n2) q = if n =? q then n2 else V q) by (intro q; rewrite get_put by auto; reflexivity).
  assert (Vn : get_page E (put_dirty (set_last t n) n n2) n = n2) by (rewrite HV, N.eqb_refl; reflexivity).
  assert (Fr : forall q, In q (tree_pages V h pg ++ tree_pages V h r) -> get_page E (put_dirty (set_last t n) n n2) q = V q).
  { intros q Hq. rewrite HV. destruct (N.eqb_spec n q); auto. apply PG in Hq. unfold n in *. lia. }
  assert (EB : branch_entries n2 = [(lk, pg); (d, r)]).
  { unfold keyed in Kp, Kd. rewrite branch_entries_raws, R2. cbn [map]. rewrite !raw_key_branch, !raw_child_branch by lia. reflexivity. }
  split; cbn [stout bushy lf]; rewrite Vn.
  - splits; auto.
    + unfold tight. rewrite R2, F2. unfold raw_cost, sumN. cbn [map fold_right]. lia.
    + rewrite R2. constructor; [|constructor; [|constructor]]; apply Hbs; auto.
    + intros pre k0 c0 X. rewrite EB in X. apply (last_eq [(lk, pg)]) in X. destruct X as (_ & X). injection X as <- <-.
      eapply stout_frame; [|exact St]. intros q Hq. apply Fr, in_app_iff. auto.
  - rewrite EB. split; [cbn; lia|]. constructor; [|constructor; [|constructor]]; cbn [snd].
    + eapply bushy_frame; [|exact Bu]. intros q Hq. apply Fr, in_app_iff. auto.
    + eapply bushy_frame; [|exact Br]. intros q Hq. apply Fr, in_app_iff. auto.
Qed.

Lemma leaf_split_total k v h path t : leaf_size k v < 65536 -> keyed k -> sa <= leaf_size k v <= sb ->
  Q t -> t_rdonly t = false -> route (get_page E t) k h (t_root t) path ->
  tree true (get_page E t) h (t_root t) None None -> NoDup (tree_pages (get_page E t) h (t_root t)) ->
  (forall q, In q (tree_pages (get_page E t) h (t_root t)) -> q <= t_last t /\ ~ F q) ->
  (forall q, F q -> q <= t_last t) ->
  (forall q, In q path -> dget (t_dirty t) q = Some (get_page E t q)) ->
  lookup k (leaf_entries (get_page E t (leaf_of path))) = None ->
  page_free (get_page E t (leaf_of path)) < leaf_size k v + 2 ->
  t_last t + N.of_nat (S (S h)) < 2 ^ 64 ->
  beyond (get_page E t) k h (t_root t) -> fat (get_page E t) h (t_root t) -> good (get_page E t) h (t_root t) ->
  exists new t', leaf_split al E t path (leaf_of path) k v = Ret new t' /\
    exists h', good (get_page E t') h' (match new with Some r => r | None => t_root t' end).
Proof.
  intros Hs Kk Ks HQ Hr R T ND PG HF HD HL Hfull Hlast By Ft G.
  destruct (fat_plan _ k (leaf_size k v) _ _ _ _ T Ft By) as [P1 P2].
  assert (IR : inrange true (get_page E t) h (t_root t) None None k) by (unfold inrange; splits; cbn; auto).
  pose proof (comp_ok al E F Q Q_alloc Q_stable k v Hs h _ path None None t HQ Hr R T ND PG HF HD IR HL Hfull P1 ltac:(lia)) as CO.
  destruct (comp_total k v Hs Kk Ks h _ path None None t HQ Hr R T ND PG HF HD IR HL Hfull P1 ltac:(lia) By Ft G) as (up & t' & EC & HU).
  rewrite leaf_split_comp, EC in *. cbn [bindo]. destruct CO as (Ev & El & CO). destruct up as [[d r]|].
  2:{ exists None, t'. split; [reflexivity|]. exists h. destruct Ev as (_ & _ & -> & _). exact HU. }
  destruct CO as (Sp & Hrl & _). destruct HU as (Gr & Bc & Kc & Dc & Kd). pose proof Sp as (TL & _ & _ & _ & _ & PGs & _).
  assert (HQ' : Q t').
  { eapply evolve_Q; [exact Q_stable|exact Ev|exact HQ|]. intros q Hq. split; [auto|]. intro Hi. apply PG in Hi. tauto. }
  assert (Hpath : hd 0 path = t_root t) by (exact (route_hd _ _ _ _ _ R)).
  destruct Ev as (E1 & _ & _ & _ & E5 & _).
  assert (Hroot : t_root t <= t_last t) by (apply PG; destruct h; cbn; auto).
  rewrite Hpath. destruct (root_total t' h (t_root t) r d) as (n & t'' & -> & Gn); auto; try congruence; try lia.
  - destruct h; cbn [tree lf] in TL |- *; apply TL.
  - intros q Hq. apply PGs in Hq. destruct Hq as [Hq|Hq]; [apply PG in Hq|]; lia.
  - cbn [bindo]. exists (Some n), t''. split; [reflexivity|]. eauto.
Qed.
End Total.

Section Puts.
Variables (E : env) (F : N -> Prop) (Q : txn -> Prop).
Hypothesis Q_alloc : forall t, Q t -> t_rdonly t = false -> page_alloc E t = Ret (t_last t + 1) (set_last t (t_last t + 1)).
Hypothesis Q_stable : forall t t', Q t -> t_rdonly t' = t_rdonly t -> t_id t' = t_id t -> t_free_root t' = t_free_root t ->
  (forall q, F q -> get_page E t' q = get_page E t q) -> Q t'.
Hypothesis SS : sb <= 2037.

Definition laden (t : txn) : Prop := t_root t = 0 \/ exists h, good (get_page E t) h (t_root t).

Lemma put_total t kvs k v : grown E F t kvs -> laden t -> Q t -> (forall q, F q -> q <= t_last t) -> 1 <= t_last t -> t_last t + 40 < 2 ^ 64 ->
  N.of_nat (length kvs) < 2 ^ 32 -> keyed k -> sa <= leaf_size k v <= sb -> Forall (fun e => klt (fst e) k) kvs ->
  exists t', db_put E t k v = Ret tt t' /\ laden t'.
Proof.
  intros (Hr & G) LD HQ HF H1 Hl Hc Kk Ks HB. assert (Hs : leaf_size k v < 65536) by lia. pose proof (leaf_size_key k v Hs) as Hk.
  assert (Hv : blen v < 65536) by (unfold leaf_size in Hs; lia).
  assert (RO0 : rawok true (leaf_node_bytes k v)).
  { unfold rawok. rewrite raw_key_leaf, blen_leaf by auto. split; auto. unfold low, high. lia. }
  unfold db_put. destruct G as [[H0 ->]|(h & Hh & SD & G)].
  - unfold db_put_with, new_root_leaf. rewrite Hr, H0, (Q_alloc t HQ Hr). cbn [N.eqb bindo]. set (n := t_last t + 1).
    pose proof (page_insert_ok true (init_page n P_LEAF) 0 k (Some v) 0 (leaf_node_bytes k v) (init_wf true n)) as I1.
    rewrite init_nkeys, init_free, init_raws, blen_leaf in I1. specialize (I1 ltac:(lia) eq_refl Hs).
    destruct (N.ltb_spec (PAGE_SIZE - HDR) (leaf_size k v + 2)) as [X|_]; [unfold PAGE_SIZE, HDR in X; lia|].
    destruct I1 as (p & -> & W & R1 & _ & _ & F1 & _). cbn [lift bindo]. eexists. split; [reflexivity|]. right. exists 0%nat. cbn [set_root t_root].
    assert (Vp : get_page E (set_root (put_dirty (set_last t n) n p) n) n = p).
    { apply get_dirty; auto. cbn [set_root t_dirty]. rewrite dget_put, N.eqb_refl. reflexivity. }
    change (insert_at (N.to_nat 0) (leaf_node_bytes k v) []) with [leaf_node_bytes k v] in R1.
    split; cbn [stout bushy lf]; rewrite Vp.
    + splits; auto; [|rewrite R1; constructor; [auto|constructor]]. unfold tight. rewrite R1, F1. unfold raw_cost, sumN, CAP. cbn [map fold_right]. rewrite blen_leaf. unfold PAGE_SIZE, HDR. lia.
    + rewrite leaf_entries_raws, R1. discriminate.
  - pose proof SD as (_ & Hnz & T & ND & PG & EK). destruct LD as [|(h' & GD)]; [congruence|].
    assert (h' = h) as -> by (symmetry; eapply stout_height; [exact T|apply GD]).
    assert (Hd : (h < 32)%nat).
    { destruct (le_lt_dec 32 h) as [X|]; auto. exfalso. pose proof (bushy_count _ _ _ (proj2 GD)) as BC. rewrite EK in BC.
      assert (Y : (2 ^ 32 <= 2 ^ h)%nat) by (apply Nat.pow_le_mono_r; lia).
      assert (Z : N.of_nat (2 ^ 32) <= N.of_nat (length kvs)) by lia. rewrite Nat2N.inj_pow in Z. change (N.of_nat 2 ^ N.of_nat 32) with (2 ^ 32) in Z. lia. }
    assert (PG2 : Forall (fun q => 2 <= q <= t_last t) (tree_pages (get_page E t) h (t_root t))).
    { rewrite Forall_forall. intros q Hq. apply PG; auto. }
    destruct (prepare_last page_alloc E F Q Q_alloc Q_stable t k v h Hk Hr Hnz T ND PG2 Hd ltac:(rewrite EK; exact HB)) as (path & t3 & R & EQ & SC & HV & HD & Wl & Sl & HBl).
    set (p := get_page E t (leaf_of path)) in *. rewrite EQ. unfold finish.
    assert (By : beyond (get_page E t) k h (t_root t)).
    { destruct G as [Hf|(-> & _)]; [eapply fat_beyond; [exact T|exact Hf|rewrite EK; exact HB]|]. cbn [beyond]. cbn [tree_kvs] in EK. rewrite EK. exact HB. }
    pose proof SC as (C1 & C2 & C3 & C4 & C5). assert (Hr3 : t_rdonly t3 = false) by congruence.
    destruct (insert_last true p k (Some v) 0 (leaf_node_bytes k v) Wl Sl Hk) as (_ & HI); auto.
    { rewrite <- leaf_entries_keys, Forall_map. exact HBl. } { rewrite blen_leaf. exact Hs. }
    rewrite blen_leaf in HI.
    assert (SL : stout (get_page E t) 0 (leaf_of path)).
    { clear - GD R By. destruct GD as (St & _). revert R St By. generalize (get_page E t) as V. intro V. generalize (t_root t) as pg. revert path.
      induction h as [|h IH]; intros path pg R St By.
      - inversion R; subst. exact St.
      - inversion R as [|h0 pg0 pre ki c post path0 Ebr Hp Ho Rc]; subst. rewrite leaf_of_cons by (eapply route_nonempty; eauto).
        destruct (beyond_route _ _ _ _ _ _ _ _ By Ebr Ho) as [-> Byc]. cbn [stout] in St. destruct St as (_ & _ & _ & St). eapply IH; eauto. }
    destruct SL as (_ & TI & RO & _). cbn [lf] in TI, RO. fold p in TI, RO.
    destruct HI as [(Hfull & ->)|(Hfit & p' & -> & W' & R' & _ & TI')].
    + destruct G as [Hf|(-> & k0 & v0 & -> & Hs0 & PF)].
      2:{ exfalso. inversion R; subst. unfold leaf_of in *. cbn [last] in *. fold p in PF. rewrite PF in Hfull. unfold PAGE_SIZE, HDR in Hfull. lia. }
      assert (Fr : forall q, get_page E t3 q = get_page E t q) by exact HV.
      destruct (leaf_split_total page_alloc E F Q Q_alloc Q_stable k v h path t3 Hs Kk Ks) as (new & t5 & -> & h' & G'); rewrite ?C3, ?C5, ?HV; auto; try lia.
      all: try (eapply Q_stable; eauto; fail).
      * clear - R Fr. revert R. generalize (t_root t) as pg. revert path. induction h as [|h IH]; intros path pg R; inversion R; subst; [constructor|].
        econstructor; eauto. rewrite Fr. eauto.
      * eapply tree_frame; [|exact T]. auto.
      * rewrite (proj2 (kvs_frame (get_page E t) (get_page E t3) h (t_root t) (fun q _ => Fr q))). exact ND.
      * intros q Hq. rewrite (proj2 (kvs_frame (get_page E t) (get_page E t3) h (t_root t) (fun q _ => Fr q))) in Hq. apply PG in Hq. split; [lia|tauto].
      * intros q Hq. rewrite HV. apply HD. exact Hq.
      * apply lookup_below. exact HBl.
      * clear - By Fr. revert By. generalize (t_root t) as pg. induction h as [|h IH]; intros pg By; cbn [beyond] in *; rewrite Fr; auto.
        destruct By as (pre & k0 & c & A & B & C). exists pre, k0, c. splits; auto.
      * eapply fat_frame; [|exact Hf]. auto.
      * split; [eapply stout_frame; [|apply GD]; auto|eapply bushy_frame; [|apply GD]; auto].
      * cbn [bindo]. eexists. split; [reflexivity|]. right. exists h'.
        destruct new as [r|]; exact G'.
    + eexists. split; [reflexivity|]. right. exists h. change (t_root (put_dirty t3 (leaf_of path) p')) with (t_root t3). rewrite C3.
      assert (HV' : forall q, get_page E (put_dirty t3 (leaf_of path) p') q = if leaf_of path =? q then p' else get_page E t q).
      { intro q. rewrite get_put by auto. rewrite HV. reflexivity. }
      assert (Vl : get_page E (put_dirty t3 (leaf_of path) p') (leaf_of path) = p') by (rewrite HV', N.eqb_refl; reflexivity).
      eapply good_update; [exact R|exact ND| | | |exact By|exact GD].
      * intros q _ Hne. rewrite HV'. destruct (N.eqb_spec (leaf_of path) q); congruence.
      * cbn [stout lf]. rewrite Vl. splits; auto. rewrite R'. apply Forall_app. split; auto.
      * cbn [bushy]. rewrite Vl, leaf_entries_raws, R', map_app. intro X. apply app_eq_nil in X. destruct X; discriminate.
Qed.

Lemma puts_total : forall l t kvs, grown E F t kvs -> laden t -> Q t -> (forall q, F q -> q <= t_last t) -> 1 <= t_last t ->
  t_last t + 40 * (1 + N.of_nat (length l)) < 2 ^ 64 -> N.of_nat (length (kvs ++ l)) < 2 ^ 32 ->
  Forall (fun e => keyed (fst e) /\ sa <= leaf_size (fst e) (snd e) <= sb) l -> ksorted (map fst (kvs ++ l)) ->
  exists t', do_ops E t (map (fun e => Put (fst e) (snd e)) l) = Ret tt t' /\ laden t'.
Proof.
  induction l as [|[k v] l IH]; intros t kvs G LD HQ HF H1 Hl Hc Hs S; cbn [map do_ops do_op fst snd length] in *; eauto.
  assert (HB : Forall (fun e => klt (fst e) k) kvs).
  { rewrite map_app in S. apply sorted_app in S. destruct S as (_ & _ & S). rewrite Forall_forall. intros e He. apply S; [apply in_map; auto|cbn; auto]. }
  pose proof (Forall_inv Hs) as (Kk & Ks). cbn [fst snd] in Kk, Ks.
  destruct (put_total t kvs k v G LD HQ HF H1 ltac:(lia)) as (t1 & E1 & LD1); auto.
  { rewrite app_length in Hc. lia. }
  pose proof (put_grown E F Q Q_alloc Q_stable t kvs k v G HQ HF H1 ltac:(lia) ltac:(lia) HB) as P.
  rewrite E1 in *. cbn [bindo]. destruct P as (G1 & (A1 & A2 & A3 & A4 & A5) & Q1).
  replace (kvs ++ (k, v) :: l) with ((kvs ++ [(k, v)]) ++ l) in * by (rewrite <- app_assoc; reflexivity).
  apply (IH t1 (kvs ++ [(k, v)])); auto; try lia; [intros q Hq; apply HF in Hq; lia|exact (Forall_inv_tail Hs)].
Qed.
End Puts.
End Sizes.

(** ** Nothing is freed when every page of the tree is new *)
Section Fresh.
Variable E : env.
(** [t'] follows [t]; all pages allocated in between are dirty, none was freed, and no old page became dirty *)
Definition fresh (t t' : txn) : Prop :=
  later t t' /\ t_freed t' = t_freed t /\ (forall q, t_last t < q <= t_last t' -> dget (t_dirty t') q <> None) /\
  forall q, dget (t_dirty t') q <> None -> dget (t_dirty t) q <> None \/ t_last t < q.
Definition fout {T} (t : txn) (o : out T) : Prop := match o with Ret _ t' => fresh t t' | _ => True end.
Lemma fresh_refl t : fresh t t. Proof. split; [apply later_refl|]. split; auto. split; auto. intros q Hq. lia. Qed.
Lemma fresh_trans a b c : fresh a b -> fresh b c -> fresh a c.
Proof.
  intros (A1 & A2 & A3 & A4) (B1 & B2 & B3 & B4). split; [eapply later_trans; eauto|]. split; [congruence|]. split; intros q Hq.
  - destruct (N.le_gt_cases q (t_last b)); [|apply B3; lia]. apply (la_dirty _ _ B1). apply A3. lia.
  - destruct (B4 q Hq) as [H|H]; [apply A4; exact H|right]. pose proof (la_last _ _ A1). lia.
Qed.
Lemma fresh_put t k p : dget (t_dirty t) k <> None -> fresh t (put_dirty t k p).
Proof.
  intro D. split; [apply later_put|]. split; [reflexivity|]. split; intros q Hq; [cbn in Hq; lia|]. left.
  rewrite dget_put in Hq. destruct (N.eqb_spec k q) as [Eq|]; [rewrite <- Eq; exact D|exact Hq].
Qed.
Lemma fresh_root t r : fresh t (set_root t r).
Proof. split; [apply later_root|]. split; [reflexivity|]. split; intros q Hq; [cbn in Hq; lia|left; exact Hq]. Qed.
Lemma fresh_new t n p : n = t_last t + 1 -> fresh t (put_dirty (set_last t n) n p).
Proof.
  intros ->. split; [eapply later_trans; [apply later_last|apply later_put]; lia|]. split; [reflexivity|]. split; intros q Hq.
  - cbn [put_dirty set_dirty set_last t_last] in Hq. assert (q = t_last t + 1) as -> by lia. rewrite dget_put, N.eqb_refl. discriminate.
  - rewrite dget_put in Hq. destruct (N.eqb_spec (t_last t + 1) q) as [Eq|]; [right; lia|left; exact Hq].
Qed.
Lemma bind_fout {T U} t (o : out T) (k : T -> txn -> out U) :
  fout t o -> (forall x t1, o = Ret x t1 -> fresh t t1 -> fout t1 (k x t1)) -> fout t (bindo o k).
Proof.
  intros H K. destruct o as [x t1|e t1| |]; cbn [bindo fout] in *; auto. specialize (K x t1 eq_refl H).
  destruct (k x t1); cbn [fout] in *; auto; eapply fresh_trans; eauto.
Qed.
Lemma lift_fout {T} t (r : res T) : fout t (lift t r).
Proof. destruct r; cbn; auto using fresh_refl. Qed.
Definition quiet (t : txn) : Prop := t_free_root t = 0 /\ t_rdonly t = false.
Lemma quiet_fresh t t' : quiet t -> fresh t t' -> quiet t'.
Proof. intros (A & B) ([_ C D _ _] & _). split; congruence. Qed.
Lemma quiet_alloc t : quiet t -> page_alloc E t = Ret (t_last t + 1) (set_last t (t_last t + 1)).
Proof. intros (A & B). apply Q_alloc0; auto. Qed.
Lemma fresh_two t n a pa pb : n = t_last t + 1 -> dget (t_dirty t) a <> None -> fresh t (put_dirty (put_dirty (set_last t n) a pa) n pb).
Proof.
  intros -> D. split.
  - eapply later_trans; [apply later_last|eapply later_trans; apply later_put]. lia.
  - split; [reflexivity|]. split; intros q Hq.
    + cbn [put_dirty set_dirty set_last t_last] in Hq. assert (q = t_last t + 1) as -> by lia. rewrite dget_put, N.eqb_refl. discriminate.
    + rewrite !dget_put in Hq. destruct (N.eqb_spec (t_last t + 1) q) as [Eq|]; [right; lia|left].
      destruct (N.eqb_spec a q) as [Eq|]; [rewrite <- Eq; exact D|exact Hq].
Qed.
Lemma split_node_fout t leaf lpg : quiet t -> fout t (split_node page_alloc E t leaf lpg).
Proof.
  intro HQ. unfold split_node. pose proof (fun pa pb => fresh_two t _ lpg pa pb eq_refl) as FT.
  destruct (dget (t_dirty t) lpg) as [l0|]; [|exact I]. assert (FT' : forall pa pb, fresh t (put_dirty (put_dirty (set_last t (t_last t + 1)) lpg pa) (t_last t + 1) pb)) by (intros; apply FT; discriminate). clear FT. destruct (negb _); [exact I|].
  destruct (t_rdonly t); [exact I|]. rewrite (quiet_alloc t HQ). cbn [bindo]. set (n := t_last t + 1).
  destruct (dget _ _) as [l1|]; [|exact I]. destruct (negb (if leaf then is_leaf l1 else is_branch l1)); [exact I|].
  destruct (split_page leaf l1 n) as [[l r]|e| |]; cbn [lift bindo]; try exact I.
  destruct (negb leaf && _); [exact I|]. destruct (first_key leaf r); cbn [lift bindo]; try exact I. cbn [fout]. apply FT'.
Qed.
Lemma split_node_dirty t leaf lpg rpg l r d t' : split_node page_alloc E t leaf lpg = Ret (rpg, l, r, d) t' ->
  dget (t_dirty t') lpg <> None /\ dget (t_dirty t') rpg <> None.
Proof.
  unfold split_node. destruct (dget (t_dirty t) lpg) as [l0|]; [|discriminate]. destruct (negb _); [discriminate|].
  destruct (t_rdonly t); [discriminate|]. destruct (page_alloc E t) as [n t1|e t1| |]; cbn [bindo]; try discriminate.
  destruct (dget _ _) as [l1|]; [|discriminate]. destruct (negb (if leaf then is_leaf l1 else is_branch l1)); [discriminate|].
  destruct (split_page leaf l1 n) as [[l' r']|e| |]; cbn [lift bindo]; try discriminate.
  destruct (negb leaf && _); [discriminate|]. destruct (first_key leaf r'); cbn [lift bindo]; try discriminate. intro H. injection H as <- <- <- <- <-.
  rewrite !dget_put, !N.eqb_refl. split; [destruct (_ =? _); discriminate|discriminate].
Qed.
Lemma insert_split_fout t lpg rpg l r k data child : dget (t_dirty t) lpg <> None -> dget (t_dirty t) rpg <> None ->
  fout t (insert_split t lpg rpg l r k data child).
Proof.
  intros Dl Dr. unfold insert_split. destruct (page_search l k) as [[found i]|e| |]; cbn [lift bindo]; try exact I. destruct (negb found && _).
  - destruct (page_search r k) as [[? j]|e| |]; cbn [lift bindo]; try exact I. destruct (page_insert r _ _ _ _); cbn [lift bindo]; try exact I. apply fresh_put. exact Dr.
  - destruct (page_insert l _ _ _ _); cbn [lift bindo]; try exact I. cbn [fout]. destruct (lpg =? rpg); [apply fresh_refl|apply fresh_put; exact Dl].
Qed.
Lemma propagate_fout : forall ps t k rpg, quiet t -> fout t (propagate page_alloc E t ps k rpg).
Proof.
  induction ps as [|pp ps IH]; intros t k rpg HQ; cbn [propagate]; [apply fresh_refl|].
  destruct (dget (t_dirty t) pp) as [p|] eqn:D; [|exact I]. destruct (page_search p k) as [[? i]|e| |]; cbn [lift bindo]; try exact I.
  destruct (page_insert _ _ _ _ _) as [p'|e| |]; try exact I; [apply fresh_put; congruence|].
  destruct e; try exact I. apply bind_fout; [apply split_node_fout; auto|]. intros [[[rpg2 l] r] d] t2 S2 F2.
  pose proof (quiet_fresh _ _ HQ F2) as Q2. destruct (split_node_dirty _ _ _ _ _ _ _ _ S2) as (Dl & Dr).
  apply bind_fout; [apply insert_split_fout; auto|]. intros _ t3 _ F3. apply IH. eauto using quiet_fresh.
Qed.
Lemma root_split_fout t old rpg d : quiet t -> fout t (root_split page_alloc E t old rpg d).
Proof.
  intro HQ. unfold root_split. rewrite (quiet_alloc t HQ). cbn [bindo]. set (n := t_last t + 1). destruct (dget _ _) as [p|]; [|exact I].
  destruct (first_key _ p); cbn [lift bindo]; try exact I. destruct (page_insert _ 0 _ _ _); cbn [lift bindo]; try exact I.
  destruct (page_insert _ 1 _ _ _); cbn [lift bindo]; try exact I. cbn [fout]. apply fresh_new. reflexivity.
Qed.
Lemma cow_path_dirty : forall l t, (forall q, In q l -> dget (t_dirty t) q <> None) -> cow_path E t l = Ret tt t.
Proof.
  induction l as [|pg l IH]; intros t H; cbn [cow_path]; auto. unfold cow_page. destruct (dget (t_dirty t) pg) eqn:D.
  - cbn [bindo]. apply IH. intros q Hq. apply H. cbn; auto.
  - exfalso. apply (H pg); cbn; auto.
Qed.
Lemma put_fresh t k v : quiet t ->
  (t_root t <> 0 -> forall path leaf, find_path MAX_TREE_DEPTH E t (t_root t) k = Ok (path, leaf) -> path <> [] /\ forall q, In q path -> dget (t_dirty t) q <> None) ->
  fout t (db_put E t k v).
Proof.
  intros HQ HP. unfold db_put, db_put_with. pose proof HQ as (Hf & Hr). rewrite Hr. destruct (N.eqb_spec (t_root t) 0) as [|Hnz].
  - unfold new_root_leaf. rewrite (quiet_alloc t HQ). cbn [bindo]. destruct (page_insert _ _ _ _ _); cbn [lift bindo]; try exact I. cbn [fout].
    eapply fresh_trans; [|apply fresh_root]. apply fresh_new. reflexivity.
  - specialize (HP Hnz). destruct (find_path MAX_TREE_DEPTH E t (t_root t) k) as [[path leaf]|e| |]; cbn [lift bindo]; try exact I.
    destruct (HP _ _ eq_refl) as (Hne & HD). destruct (page_search leaf k) as [[found i]|e| |]; cbn [lift bindo]; try exact I.
    assert (HL : dget (t_dirty t) (leaf_of path) <> None) by (apply HD; apply last_In; exact Hne).
    destruct (dget (t_dirty t) (leaf_of path)) as [p0|] eqn:D0; [|congruence]. rewrite andb_true_r. destruct found; [exact I|].
    rewrite cow_path_dirty by (intros q Hq; apply HD; apply in_rev; exact Hq). cbn [bindo].
    unfold leaf_key. rewrite D0, D0. cbn [bindo]. destruct (page_insert p0 i k (Some v) 0) as [p2|e| |]; try exact I; [apply fresh_put; congruence|].
    destruct e; try exact I. apply bind_fout.
    + unfold leaf_split. apply bind_fout; [apply split_node_fout; exact HQ|]. intros [[[rpg l] r] d] t1 S1 F1. pose proof (quiet_fresh _ _ HQ F1) as Q1.
      destruct (split_node_dirty _ _ _ _ _ _ _ _ S1) as (Dl & Dr). apply bind_fout; [apply insert_split_fout; auto|]. intros _ t2 _ F2. pose proof (quiet_fresh _ _ Q1 F2) as Q2.
      apply bind_fout; [apply propagate_fout; exact Q2|]. intros [[d' rpg']|] t3 _ F3; [|apply fresh_refl].
      apply bind_fout; [apply root_split_fout; eauto using quiet_fresh|]. intros new t4 _ _. apply fresh_refl.
    + intros [new|] t5 _ _; [apply fresh_root|apply fresh_refl].
Qed.

(** ascending puts into a new tree free nothing *)
Lemma puts_fresh L : forall l t t' kvs, grown E (fun q => q <= L) t kvs -> quiet t -> L <= t_last t -> 1 <= t_last t ->
  (forall q, L < q <= t_last t -> dget (t_dirty t) q <> None) ->
  t_last t + 40 * (1 + N.of_nat (length l)) < 2 ^ 64 ->
  Forall (fun e => leaf_size (fst e) (snd e) <= 2037) l -> ksorted (map fst (kvs ++ l)) ->
  do_ops E t (map (fun e => Put (fst e) (snd e)) l) = Ret tt t' ->
  t_freed t' = t_freed t /\ t_last t' <= t_last t + 40 * N.of_nat (length l) /\
  forall q, dget (t_dirty t') q <> None -> dget (t_dirty t) q <> None \/ t_last t < q.
Proof.
  assert (QA : forall t, t_free_root t = 0 -> t_rdonly t = false -> page_alloc E t = Ret (t_last t + 1) (set_last t (t_last t + 1))) by (intros; apply Q_alloc0; auto).
  induction l as [|[k v] l IH]; intros t t' kvs G HQ HL H1 HD Hl Hs S HR; cbn [map do_ops do_op fst snd length] in *.
  { injection HR as <-. split; auto. split; [lia|auto]. }
  assert (HB : Forall (fun e => klt (fst e) k) kvs).
  { rewrite map_app in S. apply sorted_app in S. destruct S as (_ & _ & S). rewrite Forall_forall. intros e He. apply S; [apply in_map; auto|cbn; auto]. }
  pose proof (Forall_inv Hs) as Hk. cbn [fst snd] in Hk. pose proof HQ as (Hf & Hr).
  pose proof (put_grown E (fun q => q <= L) (fun t => t_free_root t = 0) QA) as P.
  specialize (P ltac:(intros; congruence) t kvs k v G Hf ltac:(intros q Hq; cbn beta in Hq; lia) H1 ltac:(lia) Hk HB).
  assert (PF : fout t (db_put E t k v)).
  { apply put_fresh; auto. intros Hnz path leaf EP. destruct G as (_ & [[H0 _]|(h & Hh & (_ & _ & T & ND & PG & _) & _)]); [congruence|].
    destruct (le_lt_dec 32 h) as [Hd|Hd].
    { destruct (find_path_too_deep true E t k ltac:(unfold leaf_size in Hk; lia) MAX_TREE_DEPTH h (t_root t) _ _ T Hd) as (e & X). congruence. }
    destruct (find_path_ok true E t k ltac:(unfold leaf_size in Hk; lia) h MAX_TREE_DEPTH (t_root t) None None) as (path' & X & R); auto.
    { intros q Hq. unfold max_pgno. rewrite Hr. apply PG in Hq. lia. }
    rewrite EP in X. injection X as <- _. split; [eapply route_nonempty; eauto|]. intros q Hq. apply HD. pose proof (route_pages _ _ _ _ _ R q Hq) as Hi. apply PG in Hi. lia. }
  destruct (db_put E t k v) as [[] t1|e t1| |] eqn:EP; cbn [bindo] in HR; try discriminate.
  destruct P as (G1 & (A1 & A2 & A3 & A4 & A5) & Q1). cbn [fout] in PF. pose proof (quiet_fresh _ _ HQ PF) as HQ1. destruct PF as (LA & FE & NW & OD).
  replace (kvs ++ (k, v) :: l) with ((kvs ++ [(k, v)]) ++ l) in * by (rewrite <- app_assoc; reflexivity).
  destruct (IH t1 t' (kvs ++ [(k, v)]) G1 HQ1 ltac:(lia) ltac:(lia)) as (B1 & B2 & B3); auto; try lia.
  - intros q Hq. destruct (N.le_gt_cases q (t_last t)); [apply (la_dirty _ _ LA); apply HD; lia|apply NW; lia].
  - exact (Forall_inv_tail Hs).
  - split; [congruence|]. split; [lia|]. intros q Hq. destruct (B3 q Hq) as [X|X]; [apply OD; exact X|right; lia].
Qed.
End Fresh.
