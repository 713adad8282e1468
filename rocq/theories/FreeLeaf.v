(** Taking pages out of a Free DB of one leaf, whatever the aliased key pointer of
    update_or_delete_reclaimed_entry does to the keys: the lists of pages only shrink. *)
From Verif Require Import Util PageModel PageSpec PageProofs PageOps TxnModel CursorModel TreeModel TreeSpec PropPage TreeProofs TreeOps TreeSplit TreePut TreeShape TxnInv DbModel SysModel DbSpec DbProofs CursorSpec CursorProofs DbCommit PropTree PropCursor PropCommit PropReuse.
Local Open Scope N_scope.
Ltac Zify.zify_post_hook ::= Z.div_mod_to_equations.

(** ** Bytes *)
Definition bytes_ok (p : page) : Prop := forall i, i < PAGE_SIZE -> p i < 256.
Lemma writeb_bytes p o b : bytes_ok p -> Forall (fun x => x < 256) b -> bytes_ok (writeb p o b).
Proof.
  intros P F i Hi. unfold writeb. destruct (_ && _); [|apply P; exact Hi]. rewrite Forall_forall in F.
  destruct (Nat.ltb_spec (N.to_nat (i - o)) (length b)); [apply F, nth_In; auto|rewrite nth_overflow by auto; lia].
Qed.
Lemma copyb_bytes d o s o' n : o' + n <= PAGE_SIZE -> bytes_ok d -> bytes_ok s -> bytes_ok (copyb d o s o' n).
Proof.
  intros B D S i Hi. unfold copyb. destruct (N.leb_spec o i); cbn [andb]; [|apply D; exact Hi].
  destruct (N.ltb_spec i (o + n)); [apply S; lia|apply D; exact Hi].
Qed.
Lemma le_bytes_ok n : forall v, Forall (fun x => x < 256) (le_bytes n v).
Proof. induction n as [|n IH]; intro v; cbn [le_bytes]; constructor; [lia|apply IH]. Qed.
Lemma put16_bytes p o v : bytes_ok p -> bytes_ok (put16 p o v).
Proof. intro P. apply writeb_bytes; auto. apply le_bytes_ok. Qed.
Lemma readn_bytes p o n : o + N.of_nat n <= PAGE_SIZE -> bytes_ok p -> Forall (fun x => x < 256) (readn p o n).
Proof. intros B P. unfold readn. rewrite Forall_map, Forall_forall. intros i Hi. apply in_seq in Hi. apply P. lia. Qed.
Lemma adjust_bytes off size : forall n p, bytes_ok p -> bytes_ok (adjust_slots n p off size).
Proof. induction n as [|n IH]; intros p P; cbn [adjust_slots]; auto. destruct (_ <? off); auto. apply put16_bytes; auto. Qed.
Lemma delete_bytes p i p' : bytes_ok p -> page_delete p i = Ok p' -> bytes_ok p'.
Proof.
  intros P. unfold page_delete. destruct (N.leb_spec (pg_nkeys p) i) as [|Hi]; [discriminate|]. destruct (_ || _); [|discriminate].
  destruct (slot_in_page (pg_nkeys p - 1)) eqn:SP; [|discriminate]. cbn [andb]. destruct (_ <=? PAGE_SIZE); [|discriminate].
  assert (B : slot_addr (i + 1) + 2 * (pg_nkeys p - 1 - i) <= PAGE_SIZE).
  { unfold slot_in_page, slot_addr, HDR, PAGE_SIZE in *. apply N.leb_le in SP. lia. }
  destruct (_ <? _).
  - destruct (N.leb_spec (pg_upper p + u16 (node_size (is_leaf p) p (slot p i)) + (slot p i - pg_upper p)) PAGE_SIZE) as [B2|]; cbn [bindr]; [|discriminate].
    intros [= <-]. repeat apply put16_bytes. apply adjust_bytes. apply copyb_bytes; [lia| |]; apply copyb_bytes; auto.
  - cbn [bindr]. intros [= <-]. repeat apply put16_bytes. apply copyb_bytes; auto.
Qed.
Lemma insert_bytes p i k v p' : bytes_ok p -> Forall (fun x => x < 256) k -> Forall (fun x => x < 256) v -> is_leaf p = true ->
  page_insert p i k (Some v) 0 = Ok p' -> bytes_ok p'.
Proof.
  intros P K V L. unfold page_insert. rewrite L. cbn [bindr]. destruct (_ <? _); [discriminate|].
  destruct (slot_in_page (N.max (pg_nkeys p) i)) eqn:SP; [|discriminate].
  destruct (_ <=? _); [|discriminate]. intros [= <-]. repeat apply put16_bytes. apply writeb_bytes.
  - destruct (N.ltb_spec i (pg_nkeys p)); auto. apply copyb_bytes; auto.
    unfold slot_in_page in SP. apply N.leb_le in SP. rewrite N.max_l in SP by lia. unfold slot_addr, HDR, PAGE_SIZE in *. destruct (pg_nkeys p - i) eqn:Q; lia.
  - unfold leaf_node_bytes. rewrite !Forall_app. splits; auto; apply le_bytes_ok.
Qed.

(** ** An order of the keys that survives *)
Definition kpre (a b : bytes) : Prop :=
  klt (firstn 4 a) (firstn 4 b) \/ (firstn 4 a = firstn 4 b /\ skipn 4 b <> [0; 0; 0; 0]).
Lemma kpre_trans a b c : kpre a b -> kpre b c -> kpre a c.
Proof.
  unfold kpre. intros [A|(A & A')] [B|(B & B')].
  - left. eapply klt_trans; eauto.
  - left. rewrite <- B. exact A.
  - left. rewrite A. exact B.
  - right. split; [congruence|exact B'].
Qed.
Lemma klt_split : forall a1 b1 a2 b2, length a1 = length b1 -> klt (a1 ++ a2) (b1 ++ b2) -> klt a1 b1 \/ (a1 = b1 /\ klt a2 b2).
Proof.
  induction a1 as [|x a1 IH]; intros [|y b1] a2 b2 L H; cbn [length app] in *; try discriminate; [right; auto|].
  inversion H; subst.
  - left. apply klt_head. auto.
  - destruct (IH b1 a2 b2 ltac:(lia) ltac:(assumption)) as [A|(-> & A)]; [left; apply klt_tail; exact A|right; auto].
Qed.
Lemma klt_zero a : length a = 4%nat -> klt a [0; 0; 0; 0] -> False.
Proof.
  intros L H. destruct a as [|x1 [|x2 [|x3 [|x4 [|x5 a]]]]]; try discriminate.
  repeat match goal with K : klt _ _ |- _ => inversion K; clear K; subst end; lia.
Qed.
Lemma blen8 (a : bytes) : blen a = 8 -> length a = 8%nat.
Proof. unfold blen. lia. Qed.
Lemma klt_kpre a b : blen a = 8 -> blen b = 8 -> klt a b -> kpre a b.
Proof.
  intros A B H. apply blen8 in A, B. rewrite <- (firstn_skipn 4 a), <- (firstn_skipn 4 b) in H.
  apply klt_split in H; [|rewrite !firstn_length; lia]. destruct H as [H|(E & H)]; [left; exact H|right]. split; [exact E|].
  intro Z. rewrite Z in H. apply (klt_zero (skipn 4 a)); auto. rewrite skipn_length. lia.
Qed.
Lemma kpre_zero k : skipn 4 k = [0; 0; 0; 0] -> ~ kpre k k.
Proof. intros Z [H|(_ & H)]; [apply (klt_irrefl (firstn 4 k)); exact H|congruence]. Qed.
(** keys of transactions below 2^32 *)
Lemma small_tail k b : blen k = 8 -> Forall (fun x => x < 256) k -> le_val k < b -> b <= 2 ^ 32 -> skipn 4 k = [0; 0; 0; 0].
Proof.
  intros L F H B. apply blen8 in L. destruct k as [|x1 [|x2 [|x3 [|x4 [|x5 [|x6 [|x7 [|x8 [|x9 k]]]]]]]]]; try discriminate.
  repeat match goal with K : Forall _ (_ :: _) |- _ => inversion K; clear K; subst end.
  cbn [le_val] in H. cbn [skipn]. change (2 ^ 32) with 4294967296 in B.
  repeat rewrite N.mod_small in H by assumption.
  assert (x5 = 0 /\ x6 = 0 /\ x7 = 0 /\ x8 = 0) as (-> & -> & -> & ->) by lia. reflexivity.
Qed.

(** ** The search in a page whose keys need not be sorted *)
Lemma search_loop_edge leaf p k : wf_page leaf p -> blen k < 65536 ->
  forall fuel l r b i, r <= pg_nkeys p -> l <= r ->
  (0 < l -> klt (keyat leaf p (l - 1)) k) -> (r < pg_nkeys p -> klt k (keyat leaf p r)) ->
  search_loop fuel p k l r = Ok (b, i) ->
  i <= pg_nkeys p /\
  if b then i < pg_nkeys p /\ keyat leaf p i = k
  else (0 < i -> klt (keyat leaf p (i - 1)) k) /\ (i < pg_nkeys p -> klt k (keyat leaf p i)).
Proof.
  intros W Hk. pose proof (wf_nkeys_small _ _ W) as Hn. unfold HDR, PAGE_SIZE in Hn.
  induction fuel as [|f IH]; intros l r b i Hr Hl HL HR E; [discriminate|].
  cbn [search_loop] in E. destruct (N.ltb_spec l r) as [Hlt|Hge].
  2:{ inversion E; subst. assert (i = r) by lia. subst. auto. }
  set (mid := u16 (l + (r - l) / 2)) in *.
  assert (Hm : l <= mid < r) by (unfold mid; rewrite u16_small by lia; lia).
  rewrite (wf_is_branch _ _ W), (wf_is_leaf _ _ W), negb_involutive in E.
  replace (negb leaf || leaf) with true in E by (destruct leaf; reflexivity).
  rewrite (wf_key_in_page leaf p mid W) in E by lia. rewrite key16_id in E by auto. fold (keyat leaf p mid) in E.
  pose proof (key_compare_spec k (keyat leaf p mid)) as C. destruct (key_compare k (keyat leaf p mid)).
  - inversion E; subst b. subst i. split; [lia|]. split; [lia|auto].
  - apply IH in E; auto; lia.
  - rewrite u16_small in E by lia. apply IH in E; auto; try lia. intros _. replace (mid + 1 - 1) with mid by lia. exact C.
Qed.
Lemma search_edge leaf p k b i : wf_page leaf p -> blen k < 65536 -> page_search p k = Ok (b, i) ->
  i <= pg_nkeys p /\
  if b then i < pg_nkeys p /\ keyat leaf p i = k
  else (0 < i -> klt (keyat leaf p (i - 1)) k) /\ (i < pg_nkeys p -> klt k (keyat leaf p i)).
Proof.
  intros W Hk E. unfold page_search in E. destruct (N.eqb_spec (pg_nkeys p) 0).
  - inversion E; subst. split; [lia|]. split; intros; lia.
  - eapply (search_loop_edge leaf) in E; auto; lia.
Qed.
Lemma keyat_entry p i kv : wf_page true p -> nth_error (leaf_entries p) (N.to_nat i) = Some kv -> keyat true p i = fst kv.
Proof.
  intros W H. pose proof (leaf_entry_count _ _ _ H) as Hi. unfold leaf_entries in H. rewrite nth_error_map, slots_nth in H by lia.
  rewrite N2Nat.id in H. injection H as <-. reflexivity.
Qed.
Lemma leaf_search p k b i : wf_page true p -> blen k < 65536 -> page_search p k = Ok (b, i) ->
  exists e1 e2, leaf_entries p = e1 ++ e2 /\ i = N.of_nat (length e1) /\
  if b then exists v e3, e2 = (k, v) :: e3
  else (forall kv e, e1 = e ++ [kv] -> klt (fst kv) k) /\ (forall kv e, e2 = kv :: e -> klt k (fst kv)).
Proof.
  intros W Hk E. destruct (search_edge true p k b i W Hk E) as (Hi & H). pose proof (leaf_entries_length p) as Q.
  exists (firstn (N.to_nat i) (leaf_entries p)), (skipn (N.to_nat i) (leaf_entries p)).
  assert (L : length (firstn (N.to_nat i) (leaf_entries p)) = N.to_nat i) by (rewrite firstn_length; lia).
  split; [symmetry; apply firstn_skipn|]. split; [lia|]. destruct b.
  - destruct H as (Hl & Kk). destruct (nth_ex (leaf_entries p) (N.to_nat i) ltac:(lia)) as ((k0, v) & X).
    rewrite (keyat_entry p i _ W X) in Kk. cbn [fst] in Kk. subst k0. rewrite (skipn_nth _ _ _ X). eauto.
  - destruct H as (H1 & H2). split.
    + intros kv e Ee. rewrite Ee, app_length in L. cbn [length] in L.
      assert (X : nth_error (leaf_entries p) (N.to_nat (i - 1)) = Some kv).
      { rewrite <- (firstn_skipn (N.to_nat i) (leaf_entries p)), Ee, nth_error_app1 by (rewrite app_length; cbn [length]; lia).
        rewrite nth_error_app2 by lia. replace (N.to_nat (i - 1) - length e)%nat with 0%nat by lia. reflexivity. }
      rewrite <- (keyat_entry p _ _ W X). apply H1. lia.
    + intros kv e Ee. assert (X : nth_error (leaf_entries p) (N.to_nat i) = Some kv).
      { rewrite <- (firstn_skipn (N.to_nat i) (leaf_entries p)), Ee, nth_error_app2 by lia. rewrite L, Nat.sub_diag. reflexivity. }
      rewrite <- (keyat_entry p _ _ W X). apply H2. eapply leaf_entry_count; eauto.
Qed.

(** ** Arrays of page numbers *)
Lemma enc_cons x l : enc_pgnos (x :: l) = le_bytes 8 x ++ enc_pgnos l. Proof. reflexivity. Qed.
Lemma enc_len l : blen (enc_pgnos l) = 8 * N.of_nat (length l).
Proof.
  induction l as [|x l IH]; [reflexivity|]. rewrite enc_cons. unfold blen in *. rewrite app_length, Nat2N.inj_add, IH, le_length.
  cbn [length]. lia.
Qed.
Lemma enc_head x l : x < 2 ^ 64 -> le_val (firstn 8 (enc_pgnos (x :: l))) mod 2 ^ 64 = x.
Proof.
  intro H. rewrite enc_cons, firstn_app, le_length, Nat.sub_diag, firstn_O, app_nil_r, firstn_all2 by (rewrite le_length; lia).
  rewrite le_val_bytes. change (256 ^ N.of_nat 8) with (2 ^ 64). rewrite N.mod_mod by discriminate. apply N.mod_small. exact H.
Qed.
Lemma enc_tail x l : skipn 8 (enc_pgnos (x :: l)) = enc_pgnos l.
Proof. rewrite enc_cons, skipn_app, le_length, Nat.sub_diag, skipn_all2 by (rewrite le_length; lia). reflexivity. Qed.
Lemma enc_inj : forall l l', Forall (fun x => x < 2 ^ 64) l -> enc_pgnos l = enc_pgnos l' -> Forall (fun x => x < 2 ^ 64) l' -> l = l'.
Proof.
  induction l as [|x l IH]; intros [|y l'] F E F'; auto.
  - apply (f_equal blen) in E. rewrite !enc_len in E. cbn [length] in E. lia.
  - apply (f_equal blen) in E. rewrite !enc_len in E. cbn [length] in E. lia.
  - inversion F; inversion F'; subst. f_equal.
    + rewrite <- (enc_head x l), <- (enc_head y l') by auto. rewrite E. reflexivity.
    + apply IH; auto. rewrite <- (enc_tail x l), <- (enc_tail y l'), E. reflexivity.
Qed.

(** ** The leaf of the Free DB *)
Definition entry (e : bytes * list N) : bytes * bytes := (fst e, enc_pgnos (snd e)).
(** [p] is page [fr], a leaf whose entries are the lists [es], no page being listed twice *)
Record free_leaf (n fr : N) (p : page) (es : list (bytes * list N)) : Prop := {
  fl_pgno : pg_pgno p = fr;
  fl_wf : wf_page true p;
  fl_bytes : bytes_ok p;
  fl_ent : leaf_entries p = map entry es;
  fl_ord : StronglySorted kpre (map fst es);
  fl_keys : Forall (fun e => blen (fst e) = 8) es;
  fl_pages : Forall (fun x => x <= n /\ x < 2 ^ 64) (flat_map snd es);
  fl_once : NoDup (flat_map snd es) }.

Lemma sorted_mid {A} (R : A -> A -> Prop) x a b : StronglySorted R (a ++ x :: b) -> Forall (fun y => R y x) a /\ Forall (R x) b /\ StronglySorted R (a ++ b).
Proof.
  induction a as [|y a IH]; cbn [app]; intro H; inversion H as [|? ? H1 H2]; subst; [split; [constructor|auto]|].
  destruct (IH H1) as (I1 & I2 & I3). apply Forall_app in H2. destruct H2 as (F1 & F2). inversion F2; subst. splits; auto.
  constructor; auto. apply Forall_app. auto.
Qed.
Lemma sorted_put {A} (R : A -> A -> Prop) x a b : (forall u v w, R u v -> R v w -> R u w) -> StronglySorted R (a ++ b) ->
  (forall y e, a = e ++ [y] -> R y x) -> (forall y e, b = y :: e -> R x y) -> StronglySorted R (a ++ x :: b).
Proof.
  intros T S HA HB.
  assert (FA : Forall (fun y => R y x) a).
  { destruct a as [|z a0] using rev_ind; [constructor|]. specialize (HA z a0 eq_refl). rewrite <- app_assoc in S. apply sorted_mid in S.
    destruct S as (F & _). apply Forall_app. split; [|repeat constructor; exact HA]. eapply Forall_impl; [|exact F]. cbn beta. intros y Hy. eapply T; eauto. }
  assert (FB : Forall (R x) b).
  { destruct b as [|z b]; [constructor|]. specialize (HB z b eq_refl). apply sorted_mid in S. destruct S as (_ & F & _). constructor; [exact HB|].
    eapply Forall_impl; [|exact F]. cbn beta. intros y Hy. eapply T; eauto. }
  clear HA HB. induction a as [|y a IH]; cbn [app] in *.
  - constructor; auto.
  - inversion S as [|? ? S1 S2]; subst. inversion FA; subst. constructor; [auto|]. apply Forall_app in S2. destruct S2. apply Forall_app. auto.
Qed.
Lemma flat_app {A B} (f : A -> list B) a b : flat_map f (a ++ b) = flat_map f a ++ flat_map f b.
Proof. apply flat_map_app. Qed.
Lemma map_split {A B} (f : A -> B) l a b : map f l = a ++ b -> exists a' b', l = a' ++ b' /\ map f a' = a /\ map f b' = b.
Proof.
  revert a. induction l as [|x l IH]; intros [|y a] H; cbn [map app] in *.
  - exists [], []. auto.
  - discriminate.
  - exists [], (x :: l). auto.
  - injection H as <- H. destruct (IH a H) as (a' & b' & -> & <- & <-). exists (x :: a'), b'. auto.
Qed.
Lemma enc_bytes : forall l, Forall (fun x => x < 256) (enc_pgnos l).
Proof. induction l as [|x l IH]; [constructor|]. unfold enc_pgnos in *. cbn [flat_map]. apply Forall_app. split; [apply le_bytes_ok|exact IH]. Qed.
Lemma perm_mid {A} (l a b : list A) : Permutation (a ++ l ++ b) (l ++ a ++ b).
Proof. rewrite !app_assoc. apply Permutation_app_tail. apply Permutation_app_comm. Qed.

Lemma NoDup_drop {A} (a b : list A) : NoDup (a ++ b) -> NoDup b.
Proof. induction a as [|x a IH]; cbn [app]; auto. intro H. inversion H; auto. Qed.
Lemma free_leaf_delete n fr p a k l b : free_leaf n fr p (a ++ (k, l) :: b) ->
  exists p', page_delete p (N.of_nat (length a)) = Ok p' /\ free_leaf n fr p' (a ++ b) /\ page_free p' = page_free p + leaf_size k (enc_pgnos l) + 2.
Proof.
  intros [F1 F2 F3 F4 F5 F6 F7 F8]. rewrite map_app in F4. cbn [map] in F4. unfold entry at 2 in F4. cbn [fst snd] in F4.
  destruct (leaf_delete_ok p k (enc_pgnos l) _ _ F2 F4) as (p' & E & W & L & P & Fr). rewrite map_length in E. exists p'. split; [exact E|]. split; [|exact Fr].
  rewrite map_app in F5. cbn [map fst] in F5. apply sorted_mid in F5. destruct F5 as (_ & _ & F5).
  rewrite flat_app in F7, F8. cbn [flat_map snd] in F7, F8. rewrite !Forall_app in F7. constructor; auto.
  - congruence.
  - eapply delete_bytes; eauto.
  - rewrite L, map_app. reflexivity.
  - rewrite map_app. exact F5.
  - apply Forall_app in F6. destruct F6 as (A & B). inversion B; subst. apply Forall_app. auto.
  - rewrite flat_app, Forall_app. tauto.
  - rewrite flat_app. eapply Permutation_NoDup in F8; [|apply perm_mid]. apply NoDup_drop in F8. exact F8.
Qed.
Lemma free_leaf_insert n fr p a b k k2 l : free_leaf n fr p (a ++ b) -> blen k2 = 8 -> Forall (fun x => x < 256) k2 ->
  (forall e y, a = e ++ [y] -> kpre (fst y) k) -> (forall e y, b = y :: e -> kpre k (fst y)) ->
  (k2 = k \/ (firstn 4 k2 = firstn 4 k /\ skipn 4 k2 <> [0; 0; 0; 0])) ->
  Forall (fun x => x <= n /\ x < 2 ^ 64) l -> NoDup (l ++ flat_map snd (a ++ b)) -> leaf_size k2 (enc_pgnos l) + 2 <= page_free p ->
  exists p', page_insert p (N.of_nat (length a)) k2 (Some (enc_pgnos l)) 0 = Ok p' /\ free_leaf n fr p' (a ++ (k2, l) :: b).
Proof.
  intros [F1 F2 F3 F4 F5 F6 F7 F8] K8 KB Ha Hb K2 Fl ND Room. rewrite map_app in F4.
  assert (S : leaf_size k2 (enc_pgnos l) < 65536).
  { pose proof (wf_upper _ _ F2) as U. unfold page_free, PAGE_SIZE in *. lia. }
  destruct (leaf_insert_cases p k2 (enc_pgnos l) _ _ F2 S F4) as [(C & _)|(_ & p' & E & W & L & P & _)]; [lia|]. rewrite map_length in E.
  exists p'. split; [exact E|]. constructor; auto.
  - congruence.
  - exact (insert_bytes _ _ _ _ _ F3 KB (enc_bytes l) (wf_is_leaf true p F2) E).
  - rewrite L, map_app. reflexivity.
  - rewrite map_app in F5 |- *. cbn [map fst]. apply sorted_put; auto.
    + exact kpre_trans.
    + intros y e Q. destruct a as [|z a0 _] using rev_ind; [destruct e; discriminate|]. rewrite map_app in Q. cbn [map] in Q. apply app_inj_tail in Q.
      destruct Q as (_ & <-). specialize (Ha a0 z eq_refl). destruct K2 as [->|(K2 & K3)]; [exact Ha|]. unfold kpre in *. rewrite K2. tauto.
    + intros y e Q. destruct b as [|z b0]; [discriminate|]. cbn [map] in Q. injection Q as <- _. specialize (Hb b0 z eq_refl).
      destruct K2 as [->|(K2 & _)]; [exact Hb|]. unfold kpre in *. rewrite K2. exact Hb.
  - apply Forall_app in F6. destruct F6. apply Forall_app. split; auto.
  - rewrite flat_app in F7 |- *. cbn [flat_map snd]. rewrite !Forall_app in *. tauto.
  - rewrite flat_app in ND |- *. cbn [flat_map snd]. eapply Permutation_NoDup; [|exact ND]. symmetry. apply perm_mid.
Qed.

(** what the search of a key tells about the lists *)
Lemma free_leaf_search n fr p es k b i : free_leaf n fr p es -> blen k = 8 -> page_search p k = Ok (b, i) ->
  exists a c, es = a ++ c /\ i = N.of_nat (length a) /\
  if b then exists l c', c = (k, l) :: c'
  else (forall e y, a = e ++ [y] -> kpre (fst y) k) /\ (forall e y, c = y :: e -> kpre k (fst y)).
Proof.
  intros [F1 F2 F3 F4 F5 F6 F7 F8] K H. destruct (leaf_search p k b i F2 ltac:(lia) H) as (e1 & e2 & E & I & C). rewrite F4 in E.
  destruct (map_split _ _ _ _ E) as (a & c & -> & <- & <-). exists a, c. split; [reflexivity|]. split; [rewrite map_length in I; exact I|].
  apply Forall_app in F6. destruct F6 as (K1 & K2). destruct b.
  - destruct C as (v & e3 & Q). destruct c as [|(k0, l) c]; [discriminate|]. injection Q as Q _ _. cbn [fst] in Q. subst k0. eauto.
  - destruct C as (C1 & C2). split.
    + intros e y ->. apply klt_kpre; auto.
      * apply Forall_app in K1. destruct K1 as (_ & K1). inversion K1; auto.
      * rewrite map_app in C1. exact (C1 _ _ eq_refl).
    + intros e y ->. apply klt_kpre; auto.
      * inversion K2; auto.
      * exact (C2 _ _ eq_refl).
Qed.
(** keys of old transactions occur once *)
Lemma free_leaf_unique n fr p es k l l' : free_leaf n fr p es -> skipn 4 k = [0; 0; 0; 0] -> In (k, l) es -> In (k, l') es -> l = l'.
Proof.
  intros F Z A B. apply in_split in A. destruct A as (a & b & ->). pose proof (fl_ord _ _ _ _ F) as S. rewrite map_app in S. cbn [map fst] in S.
  apply sorted_mid in S. destruct S as (S1 & S2 & _). rewrite Forall_forall in S1, S2.
  apply in_app_iff in B. destruct B as [B|[B|B]]; [|congruence|]; exfalso; apply (kpre_zero k Z).
  - apply S1. apply in_map_iff. exists (k, l'). auto.
  - apply S2. apply in_map_iff. exists (k, l'). auto.
Qed.

(** ** One entry loses its first page *)
Section Step.
Variables (E : env) (fr : N).
Hypothesis Nz : fr <> 0.

Lemma leaf_path t k p : t_rdonly t = false -> fr <= t_last t -> get_page E t fr = p -> wf_page true p ->
  find_path MAX_TREE_DEPTH E t fr k = Ok ([fr], p).
Proof.
  intros R L G W. unfold MAX_TREE_DEPTH. cbn [find_path]. unfold max_pgno. rewrite R, G, (wf_is_leaf true p W).
  destruct (N.ltb_spec (t_last t) fr); [lia|reflexivity].
Qed.

Lemma del_step t p es k : t_rdonly t = false -> t_root t = fr -> fr <= t_last t -> get_page E t fr = p -> free_leaf (t_last t) fr p es -> blen k = 8 ->
  db_del E t k None = Fail NOTFOUND t \/
  exists a l b p' t', es = a ++ (k, l) :: b /\ db_del E t k None = Ret tt t' /\ same_ctl t t' /\ dget (t_dirty t') fr = Some p' /\
    free_leaf (t_last t) fr p' (a ++ b) /\ page_free p' = page_free p + leaf_size k (enc_pgnos l) + 2 /\ pg_upper p' = pg_upper p + leaf_size k (enc_pgnos l).
Proof.
  intros R Rt L G F K. unfold db_del. rewrite R, Rt. destruct (N.eqb_spec fr 0); [congruence|].
  rewrite (leaf_path t k p R L G (fl_wf _ _ _ _ F)). cbn [lift bindo].
  destruct (page_search_safe true p k (fl_wf _ _ _ _ F)) as (b & i & S & _ & _). rewrite S. destruct b; [right|left; reflexivity].
  destruct (free_leaf_search _ _ _ _ _ _ _ F K S) as (a & c & -> & I & l & c' & ->). cbn [bindo rev app].
  destruct (cow_path_ok E [fr] t R) as (t3 & EC & C3 & V3 & D3 & _).
  { intros q [<-|[]]. rewrite G. apply (fl_pgno _ _ _ _ F). }
  rewrite EC. cbn [bindo]. unfold leaf_of. cbn [last]. rewrite (D3 fr ltac:(cbn; auto)), G.
  destruct (free_leaf_delete _ _ _ _ _ _ _ F) as (p' & EP & F' & Fr). rewrite I, EP. cbn [lift bindo].
  exists a, l, c', p', (put_dirty t3 fr p'). split; [reflexivity|]. split; [reflexivity|].
  split; [eapply same_ctl_trans; [exact C3|apply same_ctl_put]|]. split; [rewrite dget_put, N.eqb_refl; reflexivity|]. split; [exact F'|]. split; [exact Fr|].
  pose proof (wf_lower _ _ (fl_wf _ _ _ _ F)) as L1. pose proof (wf_lower _ _ (fl_wf _ _ _ _ F')) as L2.
  pose proof (wf_free _ _ (fl_wf _ _ _ _ F)) as W1. pose proof (wf_free _ _ (fl_wf _ _ _ _ F')) as W2.
  pose proof (leaf_entries_length p) as N1. pose proof (leaf_entries_length p') as N2.
  rewrite (fl_ent _ _ _ _ F), map_length, app_length in N1. rewrite (fl_ent _ _ _ _ F'), map_length, app_length in N2. cbn [length] in N1.
  unfold page_free in Fr. unfold HDR in *. lia.
Qed.

(** napr_db_put of the remaining pages, the key given by value *)
Lemma put_step al t p es k l : t_rdonly t = false -> t_root t = fr -> fr <= t_last t -> dget (t_dirty t) fr = Some p -> free_leaf (t_last t) fr p es ->
  blen k = 8 -> Forall (fun x => x < 256) k ->
  Forall (fun x => x <= t_last t /\ x < 2 ^ 64) l -> NoDup (l ++ flat_map snd es) -> leaf_size k (enc_pgnos l) + 2 <= page_free p ->
  db_put_with al E t k (enc_pgnos l) = Fail EEXIST t \/
  exists a b p2, db_put_with al E t k (enc_pgnos l) = Ret tt (put_dirty t fr p2) /\ es = a ++ b /\ free_leaf (t_last t) fr p2 (a ++ (k, l) :: b).
Proof.
  intros R Rt L D F K KB Fl ND Room. unfold db_put_with. rewrite R, Rt. destruct (N.eqb_spec fr 0); [congruence|].
  rewrite (leaf_path t k p R L (get_dirty E t fr p R D) (fl_wf _ _ _ _ F)). cbn [lift bindo]. unfold leaf_of. cbn [last].
  destruct (page_search_safe true p k (fl_wf _ _ _ _ F)) as (b & i & S & _ & _). rewrite S. cbn [lift bindo]. unfold leaf_key. rewrite D.
  destruct b; cbn [andb]; [left; reflexivity|right]. destruct (free_leaf_search _ _ _ _ _ _ _ F K S) as (a & c & -> & I & C1 & C2).
  cbn [rev app cow_path]. unfold cow_page. rewrite D. cbn [bindo]. rewrite D.
  destruct (free_leaf_insert _ _ _ _ _ k k l F K KB C1 C2 (or_introl eq_refl) Fl ND Room) as (p2 & EI & F2). rewrite I, EI.
  exists a, c, p2. auto.
Qed.

(** the same with the aliased key: whatever the key becomes *)
Lemma put_alias_step al t p es o l : o + 8 <= PAGE_SIZE -> t_rdonly t = false -> t_root t = fr -> fr <= t_last t -> dget (t_dirty t) fr = Some p -> free_leaf (t_last t) fr p es ->
  (copy_overlaps p (blen (enc_pgnos l)) o = false ->
   bytes_after_sizes p (blen (enc_pgnos l)) o = readn p o 8 \/
   (firstn 4 (bytes_after_sizes p (blen (enc_pgnos l)) o) = firstn 4 (readn p o 8) /\ skipn 4 (bytes_after_sizes p (blen (enc_pgnos l)) o) <> [0; 0; 0; 0])) ->
  Forall (fun x => x <= t_last t /\ x < 2 ^ 64) l -> NoDup (l ++ flat_map snd es) -> 12 + blen (enc_pgnos l) + 2 <= page_free p ->
  put_aliased (db_put_with al) E t fr o (enc_pgnos l) = Bad \/
  put_aliased (db_put_with al) E t fr o (enc_pgnos l) = Fail EEXIST t \/
  exists a b k2 p2, put_aliased (db_put_with al) E t fr o (enc_pgnos l) = Ret tt (put_dirty t fr p2) /\ es = a ++ b /\ free_leaf (t_last t) fr p2 (a ++ (k2, l) :: b).
Proof.
  intros OB R Rt L D F HK Fl ND Room. unfold put_aliased. rewrite D, R, Rt. destruct (N.eqb_spec fr 0); [congruence|]. cbn [orb].
  set (k := readn p o 8) in *. assert (K : blen k = 8) by reflexivity.
  assert (KB : Forall (fun x => x < 256) k) by (apply readn_bytes; [exact OB|apply (fl_bytes _ _ _ _ F)]).
  assert (PS : db_put_with al E t k (enc_pgnos l) = Fail EEXIST t \/
     exists a b k2 p2, db_put_with al E t k (enc_pgnos l) = Ret tt (put_dirty t fr p2) /\ es = a ++ b /\ free_leaf (t_last t) fr p2 (a ++ (k2, l) :: b)).
  { destruct (put_step al t p es k l R Rt L D F K KB Fl ND ltac:(unfold leaf_size, LEAF_BASE; lia)) as [H|(a & b & p2 & H)]; [left; exact H|right].
    exists a, b, k, p2. exact H. }
  rewrite (leaf_path t k p R L (get_dirty E t fr p R D) (fl_wf _ _ _ _ F)).
  destruct (page_search_safe true p k (fl_wf _ _ _ _ F)) as (b & i & S & _ & _). rewrite S. destruct b; [right; exact PS|].
  unfold leaf_of. cbn [last]. rewrite N.eqb_refl. destruct (copy_overlaps p (blen (enc_pgnos l)) o); [left; reflexivity|right]. specialize (HK eq_refl).
  destruct (free_leaf_search _ _ _ _ _ _ _ F K S) as (a & c & -> & I & C1 & C2).
  set (k2 := bytes_after_sizes p (blen (enc_pgnos l)) o) in *.
  assert (K2 : blen k2 = 8) by reflexivity.
  assert (KB2 : Forall (fun x => x < 256) k2).
  { apply readn_bytes; [exact OB|]. apply writeb_bytes; [apply (fl_bytes _ _ _ _ F)|]. apply Forall_app. split; apply le_bytes_ok. }
  destruct (free_leaf_insert _ _ _ _ _ k k2 l F K2 KB2 C1 C2 HK Fl ND ltac:(unfold leaf_size, LEAF_BASE; lia)) as (p2 & EI & F2). rewrite I, EI.
  cbn [rev app cow_path]. unfold cow_page. rewrite D. cbn [bindo]. right. exists a, c, k2, p2. auto.
Qed.

End Step.

(** the key after the size fields of the new node have been written *)
Lemma key_after p u o n : pg_upper p = u + 20 + n -> u + 20 + n <= 4096 -> u + 4 <= o -> copy_overlaps p n o = false ->
  bytes_after_sizes p n o = readn p o 8 \/
  (firstn 4 (bytes_after_sizes p n o) = firstn 4 (readn p o 8) /\ skipn 4 (bytes_after_sizes p n o) <> [0; 0; 0; 0]).
Proof.
  intros U B Ho C.
  assert (NN : new_node_at p n = u + 8).
  { unfold new_node_at, LEAF_BASE. rewrite U. rewrite (u16_small (4 + 8 + n)) by lia. rewrite sub16_ge by lia. lia. }
  unfold bytes_after_sizes, copy_overlaps, LEAF_BASE in *. rewrite NN in *.
  assert (Q : o = u + 4 \/ u + 20 <= o).
  { apply andb_false_iff in C. rewrite !N.ltb_ge in C. lia. }
  clear C. set (b := le_bytes 2 8 ++ le_bytes 2 n). assert (Lb : blen b = 4) by reflexivity. destruct Q as [->|Q].
  - right. unfold readn. cbn [seq map firstn skipn]. split.
    + rewrite !writeb_out by (rewrite ?Lb; lia). reflexivity.
    + intro Z. assert (X : writeb p (u + 8) b (u + 4 + N.of_nat 4) = 8).
      { unfold writeb. rewrite Lb. change (N.of_nat 4) with 4. replace (u + 4 + 4 - (u + 8)) with 0 by lia.
        replace (u + 8 <=? u + 4 + 4) with true by (symmetry; rewrite N.leb_le; lia). replace (u + 4 + 4 <? u + 8 + 4) with true by (symmetry; rewrite N.ltb_lt; lia).
        reflexivity. }
      rewrite X in Z. discriminate.
  - left. unfold readn. apply map_ext_in. intros i Hi. apply writeb_out. rewrite Lb. lia.
Qed.

(** ** The scan of a leaf *)
Definition on_leaf (p : page) (kv : bytes * bytes) (c : cursor) : Prop :=
  exists i, c = mkCur [(p, i)] false /\ nth_error (leaf_entries p) (N.to_nat i) = Some kv.
Lemma fetch_leaf p i kv c : wf_page true p -> cursor_fetch (mkCur [(p, i)] false) = COk kv c -> on_leaf p kv c.
Proof.
  intros W H. unfold cursor_fetch in H. cbn [c_stack c_eof] in H. destruct (N.leb_spec (pg_nkeys p) i); [discriminate|].
  pose proof (leaf_entries_length p) as Q. destruct (nth_ex (leaf_entries p) (N.to_nat i) ltac:(lia)) as ((k, v) & X).
  destruct (leaf_value_ok p i k v W X) as (A & B). rewrite A, B in H. injection H as <- <-. exists i. auto.
Qed.
Lemma first_leaf E t p kv c : get_page E t (t_root t) = p -> wf_page true p -> cursor_get E t cursor_open FIRST = COk kv c -> on_leaf p kv c.
Proof.
  intros G W H. unfold cursor_get, cursor_seek in H. destruct (t_root t =? 0); [discriminate|]. unfold FIND_FUEL in H. cbn [seek_down] in H.
  rewrite G, (wf_is_leaf true p W), push_ok in H by (cbn; lia). unfold seek_leaf in H. cbn [c_stack] in H. destruct (pg_nkeys p =? 0); [discriminate|].
  eapply fetch_leaf; eauto.
Qed.
Lemma next_leaf E t p kv c kv' c' : wf_page true p -> on_leaf p kv c -> cursor_get E t c NEXT = COk kv' c' -> on_leaf p kv' c'.
Proof.
  intros W (i & -> & _) H. unfold cursor_get, cursor_next in H. cbn [c_stack c_eof] in H. destruct (_ <? _); [|discriminate]. eapply fetch_leaf; eauto.
Qed.
Lemma scan_leaf E t p b : wf_page true p -> forall fuel r k d c, (forall kv c0, r = COk kv c0 -> on_leaf p kv c0) ->
  reclaim_scan fuel E t b r = Ok (k, d, c) -> on_leaf p (k, d) c /\ reclaimable b (k, d).
Proof.
  intro W. induction fuel as [|f IH]; intros r k d c HR H; cbn [reclaim_scan] in H; [discriminate|]. destruct r as [(k1, d1) c1|e c1| |]; try discriminate.
  specialize (HR _ _ eq_refl) as H1. destruct (_ && _) eqn:T.
  - injection H as <- <- <-. split; [exact H1|]. apply test_ok. exact T.
  - eapply IH; [|exact H]. intros kv c0 X. eapply next_leaf; eauto.
Qed.

(** ** One allocation *)
Definition leaf_txn (E : env) (t : txn) (es : list (bytes * list N)) : Prop :=
  t_rdonly t = false /\ t_free_root t <> 0 /\ t_free_root t <= t_last t /\ free_leaf (t_last t) (t_free_root t) (get_page E t (t_free_root t)) es.
Lemma free_leaf_last n n' fr p es : n <= n' -> free_leaf n fr p es -> free_leaf n' fr p es.
Proof. intros L [F1 F2 F3 F4 F5 F6 F7 F8]. constructor; auto. eapply Forall_impl; [|exact F7]. cbn beta. lia. Qed.
Lemma in_flat_drop (a b : list (bytes * list N)) k l x : In x (flat_map snd (a ++ b)) -> In x (flat_map snd (a ++ (k, l) :: b)).
Proof. rewrite !flat_app. cbn [flat_map snd]. rewrite !in_app_iff. tauto. Qed.

Lemma update_step al E t p es k d i b0 : t_rdonly t = false -> t_root t <> 0 -> t_root t <= t_last t -> get_page E t (t_root t) = p ->
  free_leaf (t_last t) (t_root t) p es -> nth_error (leaf_entries p) (N.to_nat i) = Some (k, d) -> reclaimable b0 (k, d) -> b0 <= 2 ^ 32 ->
  exists x, le_val (firstn 8 d) mod 2 ^ 64 = x /\ In x (flat_map snd es) /\
  match update_reclaimed (db_put_with al) E t k d (key_place (mkCur [(p, i)] false)) with
  | Ret _ t' => exists es', same_ctl t t' /\ free_leaf (t_last t) (t_root t) (get_page E t' (t_root t)) es' /\ ~ In x (flat_map snd es') /\ incl (flat_map snd es') (flat_map snd es)
  | Fail _ t' => exists es', same_ctl t t' /\ free_leaf (t_last t) (t_root t) (get_page E t' (t_root t)) es' /\ incl (flat_map snd es') (flat_map snd es)
  | Bad | NoFuel => True
  end.
Proof.
  intros R Nz L G F Hn (K & Kb & M & Pd) B. cbn [fst snd] in *.
  assert (KB : Forall (fun x => x < 256) k).
  { pose proof (keyat_entry p i _ (fl_wf _ _ _ _ F) Hn) as KE. cbn [fst] in KE. rewrite <- KE. apply readn_bytes; [|apply (fl_bytes _ _ _ _ F)].
    destruct (wf_slot _ _ _ (fl_wf _ _ _ _ F) (leaf_entry_count _ _ _ Hn)) as (_ & Q). cbn [node_size node_ksize node_base] in *. lia. }
  assert (Z : skipn 4 k = [0; 0; 0; 0]) by (eapply small_tail; eauto).
  pose proof Hn as Hn0. rewrite (fl_ent _ _ _ _ F), nth_error_map in Hn. destruct (nth_error es (N.to_nat i)) as [(k0, l0)|] eqn:Hn1; [|discriminate].
  cbn [option_map] in Hn. unfold entry in Hn. cbn [fst snd] in Hn.
  assert (k0 = k) as -> by congruence. assert (D : d = enc_pgnos l0) by congruence. clear Hn.
  pose proof (nth_error_In _ _ Hn1) as I0. destruct l0 as [|x l']; [subst d; cbn in Pd; lia|].
  assert (Fx : x < 2 ^ 64).
  { pose proof (fl_pages _ _ _ _ F) as FP. rewrite Forall_forall in FP. apply FP. apply in_flat_map. exists (k, x :: l'). split; [exact I0|left; reflexivity]. }
  exists x. split; [subst d; apply enc_head; exact Fx|]. split; [apply in_flat_map; exists (k, x :: l'); split; [exact I0|left; reflexivity]|].
  unfold update_reclaimed. assert (BD : blen d = 8 + 8 * N.of_nat (length l')) by (subst d; rewrite enc_len; cbn [length]; lia).
  destruct (del_step E (t_root t) Nz t p es k R eq_refl L G F K) as [X|(a & l & b & p' & t' & Ees & X & SC & D' & F' & Fr & Up)].
  { rewrite X. destruct (_ =? 1); cbn [bindo]; exists es; rewrite G; (split; [apply same_ctl_refl|]); (split; [exact F|apply incl_refl]). }
  assert (l = x :: l') as ->.
  { eapply (free_leaf_unique _ _ _ _ k); [exact F|exact Z| |exact I0]. rewrite Ees. apply in_app_iff. right. left. reflexivity. }
  rewrite X. pose proof SC as (S1 & S2 & S3 & S4 & S5).
  assert (R' : t_rdonly t' = false) by congruence.
  pose proof (fl_once _ _ _ _ F) as ND. rewrite Ees, flat_app in ND. cbn [flat_map snd] in ND. eapply Permutation_NoDup in ND; [|apply perm_mid].
  rewrite <- flat_app in ND. cbn [app] in ND. inversion ND as [|? ? NX ND']; subst x0 l. rewrite in_app_iff in NX.
  assert (IN : incl (flat_map snd (a ++ b)) (flat_map snd es)) by (intros y Hy; rewrite Ees; apply in_flat_drop; exact Hy).
  assert (Del : exists es', same_ctl t t' /\ free_leaf (t_last t) (t_root t) (get_page E t' (t_root t)) es' /\ ~ In x (flat_map snd es') /\ incl (flat_map snd es') (flat_map snd es)).
  { exists (a ++ b). rewrite (get_dirty E t' _ _ R' D'). splits; auto. }
  destruct (N.eqb_spec (blen d / 8) 1) as [Q1|Q1]; [exact Del|]. cbn [bindo].
  assert (SK : skipn 8 d = enc_pgnos l') by (subst d; apply enc_tail). rewrite SK.
  assert (Put : forall p2 k2 u v, same_ctl t t' -> a ++ b = u ++ v -> free_leaf (t_last t') (t_root t) p2 (u ++ (k2, l') :: v) ->
    exists es', same_ctl t (put_dirty t' (t_root t) p2) /\ free_leaf (t_last t) (t_root t) (get_page E (put_dirty t' (t_root t) p2) (t_root t)) es' /\
      ~ In x (flat_map snd es') /\ incl (flat_map snd es') (flat_map snd es)).
  { intros p2 k2 u v _ Euv FF. exists (u ++ (k2, l') :: v). split; [eapply same_ctl_trans; [exact SC|apply same_ctl_put]|].
    rewrite get_put, N.eqb_refl by exact R'. split; [rewrite <- S5; exact FF|].
    assert (J : forall y, In y (flat_map snd (u ++ (k2, l') :: v)) -> In y l' \/ In y (flat_map snd (a ++ b))).
    { intros y. rewrite Euv, !flat_app. cbn [flat_map snd]. rewrite !in_app_iff. tauto. }
    split; [intro Hx; apply J in Hx; tauto|]. intros y Hy. apply J in Hy. destruct Hy as [Hy|Hy]; [|apply IN; exact Hy].
    rewrite Ees, flat_app. cbn [flat_map snd]. rewrite !in_app_iff. right. left. right. exact Hy. }
  assert (FL : Forall (fun y => y <= t_last t' /\ y < 2 ^ 64) l').
  { pose proof (fl_pages _ _ _ _ F) as FP. rewrite Ees, flat_app in FP. cbn [flat_map snd] in FP. rewrite !Forall_app in FP. destruct FP as (_ & FP & _).
    inversion FP; subst. rewrite S5. assumption. }
  assert (Room : 12 + blen (enc_pgnos l') + 2 <= page_free p').
  { rewrite Fr. unfold leaf_size, LEAF_BASE. rewrite !enc_len. cbn [length]. lia. }
  rewrite <- S5 in F'.
  destruct (dget (t_dirty t) (fst (key_place (mkCur [(p, i)] false)))) as [p0|].
  - unfold key_place. cbn [c_stack fst snd]. rewrite (fl_pgno _ _ _ _ F).
    pose proof (leaf_entry_count _ _ _ Hn0) as Hi. destruct (wf_slot _ _ _ (fl_wf _ _ _ _ F) Hi) as (Ho & Hs).
    assert (OB : slot p i + LEAF_BASE + 8 <= PAGE_SIZE).
    { pose proof (keyat_entry p i _ (fl_wf _ _ _ _ F) Hn0) as KE. cbn [fst] in KE. rewrite <- KE in K.
      unfold keyat, node_key, blen, readn in K. rewrite map_length, seq_length, N2Nat.id in K. cbn [node_size node_ksize] in *. lia. }
    pose proof (wf_upper _ _ (fl_wf _ _ _ _ F')) as WU. unfold PAGE_SIZE in WU.
    assert (UU : pg_upper p' = pg_upper p + 20 + blen (enc_pgnos l')).
    { rewrite Up. unfold leaf_size, LEAF_BASE. rewrite K, !enc_len. cbn [length]. lia. }
    destruct (put_alias_step E (t_root t) Nz al t' p' (a ++ b) (slot p i + LEAF_BASE) l' OB R' S3 ltac:(lia) D' F') as [H|[H|(u & v & k2 & p2 & H & Euv & FF)]];
      try (rewrite H; cbv beta iota; auto).
    + apply (key_after p' (pg_upper p)); [exact UU|lia|unfold LEAF_BASE; lia].
    + exact FL.
    + rewrite Ees in *. exact ND'.
    + exact Room.
    + destruct Del as (es' & A1 & A2 & _ & A3). exists es'. auto.
    + eapply Put; eauto.
  - destruct (put_step E (t_root t) Nz al t' p' (a ++ b) k l' R' S3 ltac:(lia) D' F' K KB FL ND' ltac:(unfold leaf_size, LEAF_BASE; lia)) as [H|(u & v & p2 & H & Euv & FF)];
      rewrite H; cbv beta iota.
    + destruct Del as (es' & A1 & A2 & _ & A3). exists es'. auto.
    + eapply Put; eauto.
Qed.

Lemma alloc_leaf E t b es pg t' : horizon E t b -> b <= 2 ^ 32 -> leaf_txn E t es -> db_page_alloc E t 1 = Ret pg t' ->
  exists es', leaf_txn E t' es' /\ t_id t' = t_id t /\ t_last t <= t_last t' /\ pg <= t_last t' /\
    (pg = t_last t + 1 \/ In pg (flat_map snd es)) /\ ~ In pg (flat_map snd es') /\ incl (flat_map snd es') (flat_map snd es).
Proof.
  intros Hb Lb (R & Nz & L & F) H. pose proof (fl_pages _ _ _ _ F) as FP. rewrite Forall_forall in FP.
  assert (FR : forall tx es', same_ctl t tx -> free_leaf (t_last t) (t_free_root t) (get_page E tx (t_free_root t)) es' -> incl (flat_map snd es') (flat_map snd es) ->
    Ret (t_last tx + 1) (set_last tx (t_last tx + 1)) = Ret pg t' ->
    exists es', leaf_txn E t' es' /\ t_id t' = t_id t /\ t_last t <= t_last t' /\ pg <= t_last t' /\
    (pg = t_last t + 1 \/ In pg (flat_map snd es)) /\ ~ In pg (flat_map snd es') /\ incl (flat_map snd es') (flat_map snd es)).
  { intros tx es' (S1 & S2 & S3 & S4 & S5) F' I Y. assert (pg = t_last tx + 1) as -> by congruence. assert (t' = set_last tx (t_last tx + 1)) as -> by congruence. clear Y.
    exists es'. split.
    - unfold leaf_txn. rewrite get_set_last. cbn [set_last t_rdonly t_free_root t_last]. rewrite S1, S4, S5. splits; auto; [lia|].
      eapply free_leaf_last; [|exact F']. lia.
    - cbn [set_last t_id t_last]. rewrite S5. splits; auto; try lia. intro J. apply I, FP in J. lia. }
  unfold db_page_alloc, alloc_with in H. rewrite R in H. cbn [orb] in H. replace (1 =? 0) with false in H by reflexivity.
  replace (1 =? 1) with true in H by reflexivity. cbn [orb] in H. set (al := page_alloc) in *.
  unfold reclaim_with in H. destruct (N.eqb_spec (t_free_root t) 0) as [|_]; [congruence|].
  rewrite (horizon_oldest E t b Hb) in H. change (set_root t (t_free_root t)) with (free_view t) in H.
  set (p := get_page E t (t_free_root t)) in *. assert (W : wf_page true p) by (apply (fl_wf _ _ _ _ F)).
  destruct (reclaim_scan SCAN_FUEL E (free_view t) b (cursor_get E (free_view t) cursor_open FIRST)) as [((k, d), c)|e| |] eqn:RS; try discriminate.
  - eapply (scan_leaf E (free_view t) p b W) in RS; [|intros kv c0 X; exact (first_leaf E (free_view t) p kv c0 eq_refl W X)]. destruct RS as ((i & -> & Hn) & Rc).
    destruct (update_step al E (free_view t) p es k d i b R Nz L eq_refl F Hn Rc Lb) as (x & Ex & Ix & U). rewrite Ex in H.
    destruct (update_reclaimed (db_put_with al) E (free_view t) k d (key_place (mkCur [(p, i)] false))) as [u t2|e t2| |]; try discriminate.
    + destruct U as (es' & (S1 & S2 & S3 & S4 & S5) & F' & Nx & I). cbn [free_view set_root t_rdonly t_id t_root t_free_root t_last] in *.
      assert (pg = x) as -> by congruence. assert (t' = set_root t2 (t_root t)) as -> by congruence. clear H.
      exists es'. split.
      * unfold leaf_txn. rewrite get_set_root. cbn [set_root t_rdonly t_free_root t_last]. rewrite S1, S4, S5. auto.
      * cbn [set_root t_id t_last]. rewrite S5. splits; auto; try lia. apply FP in Ix. lia.
    + destruct U as (es' & (S1 & S2 & S3 & S4 & S5) & F' & I). cbn [free_view set_root t_rdonly t_id t_root t_free_root t_last] in *.
      eapply (FR (set_root t2 (t_root t)) es'); auto. repeat split; auto.
  - eapply (FR (set_root t (t_root t)) es); eauto; [repeat split|apply incl_refl].
Qed.
