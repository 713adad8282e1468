(** Property C114: loading a new database in ascending order of the keys succeeds. *)
From Verif Require Import Util PageModel PageSpec PageProofs PageOps TxnModel CursorModel TreeModel TreeSpec PropPage TreeProofs TreeOps TreeSplit TreePut TreeShape TreeOrder TxnInv DbModel SysModel DbSpec DbProofs CursorSpec CursorProofs DbCommit PropTree PropCursor PropCommit PropReuse TreeTotal PropOrder.
From Coq Require Import Sorting.Sorted.
Local Open Scope N_scope.

(** ** Specification *)
(** A page has 4096 - 18 = 4078 bytes for nodes and slots.  [balanced lo hi]: whenever some
    number of nodes of [lo] bytes or more fills a page, its upper half by number and one node
    more fit in a page even if each takes [hi] bytes. *)
Definition balanced (lo hi : N) : Prop :=
  2 * hi <= 4078 /\ forall n, 2 <= n -> n * lo <= 4078 -> (n - n / 2 + 1) * hi <= 4078.
(** A pair takes its bytes and 4 + 2 more in a leaf, a key its bytes and 10 + 2 more in a
    branch.  Keys of [ka] to [kb] bytes, pairs of [sa] to [sb] bytes: *)
Definition even_sizes (ka kb sa sb : N) (l : list (bytes * bytes)) : Prop :=
  balanced (6 + sa) (6 + sb) /\ balanced (12 + ka) (12 + kb) /\ kb <= 1007 /\
  Forall (fun e => ka <= blen (fst e) <= kb /\ sa <= blen (fst e) + blen (snd e) <= sb) l.
(** a database that holds nothing and has no Free DB yet, with room for page numbers *)
Definition blank_db (E : env) (n : nat) : Prop :=
  e_locked E = false /\ file_ok (e_file E) /\ m_root (live_meta E) = 0 /\ m_free (live_meta E) = 0 /\ 1 <= m_last (live_meta E) /\
  m_last (live_meta E) + 40 * (1 + N.of_nat n) < 2 ^ 64.

Lemma puts_DI E : forall l t t', file_ok (e_file E) -> DI t -> Forall (fun e => leaf_size (fst e) (snd e) <= 2037) l ->
  do_ops E t (puts l) = Ret tt t' -> DI t'.
Proof.
  induction l as [|[k v] l IH]; intros t t' FO HD HS H; cbn [puts map do_ops do_op fst snd] in H; [injection H as <-; exact HD|].
  pose proof (Forall_inv HS) as Hk. cbn [fst snd] in Hk. unfold leaf_size, LEAF_BASE in Hk.
  pose proof (put_iout E t k v FO HD ltac:(lia)) as P. destruct (db_put E t k v) as [[] t1|e t1| |]; cbn [bindo] in H; try discriminate.
  apply (IH t1 t' FO P (Forall_inv_tail HS) H).
Qed.

(** ** C114 *)
Theorem bulk_load : forall E l ka kb sa sb,
  blank_db E (length l) -> N.of_nat (length l) < 2 ^ 32 -> StronglySorted klt (map fst l) -> even_sizes ka kb sa sb l ->
  exists E', transact E (puts l) = Ok E' /\
    forall k, blen k < 65536 -> read_now E' k = match lookup k l with Some v => Ok v | None => Err NOTFOUND end.
Proof.
  intros E l ka kb sa sb (HU & FO & H0 & HQ & H1 & Hl) Hc HS (BL & BB & KB & SZ).
  assert (SS : 4 + sb <= 2037) by (destruct BL as (X & _); lia).
  assert (HA : ascending l).
  { split; auto. eapply Forall_impl; [|exact SZ]. intros [a b]. cbn [fst snd]. lia. }
  pose proof (begun_is E HU) as B. pose proof (begin_fields _ _ _ B) as (_ & Et). set (t := begun E) in *. set (E1 := set_locked E true) in *.
  assert (TF : t_rdonly t = false /\ t_root t = 0 /\ t_free_root t = 0 /\ t_last t = m_last (live_meta E) /\ t_freed t = []) by (rewrite Et; cbn; auto).
  destruct TF as (Hr & H0' & HQ' & HL' & HF').
  assert (SP : forall leaf, spread (low ka (4 + sa) leaf) (high kb (4 + sb) leaf)).
  { change (forall leaf, balanced (low ka (4 + sa) leaf) (high kb (4 + sb) leaf)). intros [|]; unfold low, high; [|exact BB].
    replace (4 + sa + 2) with (6 + sa) by lia. replace (4 + sb + 2) with (6 + sb) by lia. exact BL. }
  assert (SZ' : Forall (fun e => keyed ka kb (fst e) /\ 4 + sa <= leaf_size (fst e) (snd e) <= 4 + sb) l).
  { eapply Forall_impl; [|exact SZ]. intros [a b]. cbn [fst snd]. unfold keyed, leaf_size, LEAF_BASE. lia. }
  destruct (puts_total ka kb (4 + sa) (4 + sb) SP KB E1 (fun _ => False) (fun t => t_free_root t = 0) (Q_alloc0 E1) (Q_stable0 E1) SS l t []) as (t' & ET & _); auto; try lia.
  { apply grown_empty; auto. } { left. exact H0'. }
  fold (puts l) in ET.
  assert (FR : forall t', do_ops E1 t (puts l) = Ret tt t' -> t_freed t' = [] /\ t_last t' + 1 < 2 ^ 64 /\ over_meta t' = false).
  { intros t2 E2. destruct (puts_fresh E1 (t_last t) l t t2 []) as (X & Y & Z); auto; try lia.
    - apply grown_empty; auto.
    - split; auto.
    - apply ascending_sizes; exact HA.
    - split; [congruence|]. split; [lia|].
      assert (DT : dirty_ok t2).
      { apply (puts_DI E1 l t t2); auto; [|apply ascending_sizes; exact HA|lia]. intros _. rewrite Et. constructor; cbn; [constructor|discriminate]. }
      apply not_true_iff_false. unfold over_meta. rewrite existsb_exists. intros ([q p] & I & L). cbn [snd] in L. apply N.ltb_lt in L.
      rewrite (dirty_pgno t2 q p DT I) in L. destruct (Z q) as [D|D]; [rewrite (in_dget _ q p (do_nodup _ DT) I); discriminate| |lia].
      rewrite Et in D. cbn in D. congruence. }
  assert (TR : exists E', transact E (puts l) = Ok E').
  { destruct (FR t' ET) as (Fr & _ & OM). unfold transact. rewrite B. fold E1. rewrite ET. unfold db_commit, populate_free_db. rewrite Fr, OM.
    destruct (t_dirty t'); eauto. }
  destruct TR as (E' & TR). exists E'. split; [exact TR|].
  apply (ascending_committed E l E'); auto. intros t2 E2. destruct (FR t2 E2) as (X & Y & _). rewrite X. split; [cbn; lia|exact Y].
Qed.
Print Assumptions bulk_load.

(** Keys of one length and values of one length. *)
Lemma balanced_same n : n <= 2039 -> balanced n n.
Proof.
  intro H. split; [lia|]. intros m Hm Hf. eapply N.le_trans; [|exact Hf]. apply N.mul_le_mono_r.
  assert (1 <= m / 2) by (apply N.div_le_lower_bound; lia). lia.
Qed.
Theorem bulk_load_uniform : forall E l nk nv,
  blank_db E (length l) -> N.of_nat (length l) < 2 ^ 32 -> StronglySorted klt (map fst l) ->
  Forall (fun e => blen (fst e) = nk /\ blen (snd e) = nv) l -> nk <= 1007 -> nk + nv <= 2033 ->
  exists E', transact E (puts l) = Ok E' /\
    forall k, blen k < 65536 -> read_now E' k = match lookup k l with Some v => Ok v | None => Err NOTFOUND end.
Proof.
  intros E l nk nv HB Hc HS SZ HK HV. apply (bulk_load E l nk nk (nk + nv) (nk + nv)); auto.
  split; [apply balanced_same; lia|]. split; [apply balanced_same; lia|]. split; auto.
  eapply Forall_impl; [|exact SZ]. cbn beta. intros [a b] (X & Y). cbn [fst snd] in *. lia.
Qed.
Print Assumptions bulk_load_uniform.

(** Small keys and values whose sizes differ by up to three fifths. *)
Lemma balanced_near lo hi : hi <= 582 -> 5 * hi <= 8 * lo -> balanced lo hi.
Proof.
  intros H1 H2. split; [lia|]. intros n Hn Hf.
  assert (X : 2 * (n - n / 2 + 1) <= n + 3) by (pose proof (N.div_mod n 2 ltac:(lia)); pose proof (N.mod_lt n 2 ltac:(lia)); lia).
  destruct (N.le_gt_cases n 12) as [Hs|Hs].
  - assert (Y : (n - n / 2 + 1) * hi <= 7 * hi) by (apply N.mul_le_mono_r; lia). lia.
  - assert (Y : 2 * (n - n / 2 + 1) * hi <= (n + 3) * hi) by (apply N.mul_le_mono_r; exact X).
    assert (Z : 5 * ((n + 3) * hi) <= 8 * ((n + 3) * lo)) by (replace (5 * ((n + 3) * hi)) with ((n + 3) * (5 * hi)) by lia; replace (8 * ((n + 3) * lo)) with ((n + 3) * (8 * lo)) by lia; apply N.mul_le_mono_l; lia).
    assert (U : 4 * ((n + 3) * lo) <= 5 * (n * lo)) by (replace (4 * ((n + 3) * lo)) with ((4 * (n + 3)) * lo) by lia; replace (5 * (n * lo)) with ((5 * n) * lo) by lia; apply N.mul_le_mono_r; lia).
    lia.
Qed.
Theorem bulk_load_varied : forall E l ka kb sa sb,
  blank_db E (length l) -> N.of_nat (length l) < 2 ^ 32 -> StronglySorted klt (map fst l) ->
  Forall (fun e => ka <= blen (fst e) <= kb /\ sa <= blen (fst e) + blen (snd e) <= sb) l ->
  kb <= 570 -> sb <= 576 -> 5 * (12 + kb) <= 8 * (12 + ka) -> 5 * (6 + sb) <= 8 * (6 + sa) ->
  exists E', transact E (puts l) = Ok E' /\
    forall k, blen k < 65536 -> read_now E' k = match lookup k l with Some v => Ok v | None => Err NOTFOUND end.
Proof.
  intros E l ka kb sa sb HB Hc HS SZ HK HV R1 R2. apply (bulk_load E l ka kb sa sb); auto.
  split; [apply balanced_near; lia|]. split; [apply balanced_near; lia|]. split; auto. lia.
Qed.
Print Assumptions bulk_load_varied.

(** ** A case: a thousand pairs *)
Definition digits (i : nat) : bytes := [N.of_nat i / 256; N.of_nat i mod 256].
Definition thousand : list (bytes * bytes) := map (fun i => (digits i ++ fill 198 7, fill (100 + N.of_nat i mod 50) 1)) (seq 0 1000).
Example thousand_case : blank_db env_create (length thousand) /\ N.of_nat (length thousand) < 2 ^ 32 /\ StronglySorted klt (map fst thousand) /\
  even_sizes 200 200 300 349 thousand.
Proof.
  split.
  { unfold blank_db. splits; try reflexivity; try (vm_compute; discriminate). intro q. left. split; reflexivity. }
  split; [vm_compute; reflexivity|]. split.
  { apply Sorted_StronglySorted; [intros x y z; apply klt_trans|].
    assert (G : forall l : list bytes, (fix chk (l : list bytes) : bool := match l with x :: (y :: _) as r => kltb x y && chk r | _ => true end) l = true -> Sorted klt l).
    { induction l as [|x [|y r] IH]; intro H; [constructor|repeat constructor|]. apply andb_prop in H. destruct H as (A & Bq). constructor; [apply IH; exact Bq|].
      constructor. apply kltb_spec. exact A. }
    apply G. vm_compute. reflexivity. }
  split; [apply balanced_near; lia|]. split; [apply balanced_near; lia|]. split; [lia|].
  apply Forall_forall. intros e He. apply in_map_iff in He. destruct He as (i & <- & Hi). apply in_seq in Hi. cbn [fst snd].
  unfold blen. rewrite app_length. unfold fill. rewrite !repeat_length. cbn [length digits].
  pose proof (N.mod_lt (N.of_nat i) 50 ltac:(lia)). lia.
Qed.
