(** The tables of the program with the keys it uses: property C100. *)
From Verif Require Import Util HeapModel PageModel PageProofs PageOps HashModel HashSpec HashProofs PropHash KeyModel.
Local Open Scope N_scope.

(** ** The comparisons *)
Lemma off_keq_spec a b : off_keq a b = true <-> a = b.
Proof.
  unfold off_keq, off_cmp. cbn [N.eqb andb Pos.eqb]. destruct (Z.eqb_spec a b) as [->|N]; [split; reflexivity|].
  destruct (a <? b)%Z; split; intro H; try discriminate; congruence.
Qed.
Lemma gid_keq_spec a b : gid_keq a b = true <-> a = b.
Proof.
  unfold gid_keq, gid_cmp. cbn [N.eqb andb Pos.eqb]. destruct (N.eqb_spec a b) as [->|N]; [split; reflexivity|].
  destruct (a <? b); split; intro H; try discriminate; congruence.
Qed.
Lemma str_keq_spec a b : str_keq a b = true <-> a = b.
Proof.
  unfold str_keq. split.
  - intro H. apply andb_true_iff in H. destruct H as (L & M). apply Nat.eqb_eq in L. apply Z.eqb_eq in M.
    revert b L M. induction a as [|x a IH]; intros [|y b] L M; cbn [length memcmp] in *; try discriminate; [reflexivity|].
    injection L as L. destruct (N.eqb_spec x y) as [->|N]; [f_equal; apply IH; assumption|]. destruct (x <? y); discriminate.
  - intros ->. rewrite Nat.eqb_refl. cbn [andb]. apply Z.eqb_eq. induction b as [|x b IH]; cbn [length memcmp]; [reflexivity|]. rewrite N.eqb_refl. exact IH.
Qed.

Lemma map_run_ext {A K} (key_of : A -> K) (e1 e2 : K -> K -> bool) : (forall a b, e1 a b = e2 a b) ->
  forall ops m m', (forall k, m k = m' k) ->
  snd (map_run key_of e1 m ops) = snd (map_run key_of e2 m' ops) /\
  forall k, fst (map_run key_of e1 m ops) k = fst (map_run key_of e2 m' ops) k.
Proof.
  intros HE. induction ops as [|o ops IH]; intros m m' HM; cbn [map_run]; [cbn; auto|].
  assert (S : snd (map_step key_of e1 m o) = snd (map_step key_of e2 m' o) /\ forall k, fst (map_step key_of e1 m o) k = fst (map_step key_of e2 m' o) k).
  { destruct o as [x|k|x]; cbn [map_step].
    - rewrite <- HM. destruct (m (key_of x)); cbn; split; auto. intro k. rewrite HE, HM. reflexivity.
    - cbn. auto.
    - cbn. split; [reflexivity|]. intro k. rewrite HE, HM. reflexivity. }
  destruct (map_step key_of e1 m o) as [m1 r1], (map_step key_of e2 m' o) as [m2 r2]. cbn [fst snd] in S. destruct S as (-> & S).
  destruct (IH m1 m2 S) as (A1 & A2). destruct (map_run key_of e1 m1 ops), (map_run key_of e2 m2 ops). cbn [fst snd] in *. subst. auto.
Qed.
Lemma bool_ext (b c : bool) : (b = true <-> c = true) -> b = c.
Proof. destruct b, c; intros (A & B); auto; symmetry; auto. Qed.

(** ** The tables are maps on sizes, groups and names *)
Section Map.
Context {A K : Type} (key_of : A -> K) (keq eqd : K -> K -> bool) (hash : K -> N).
Hypothesis keq_spec : forall a b, keq a b = true <-> a = b.
Hypothesis eqd_spec : forall a b, eqd a b = true <-> a = b.
Lemma refines n ff fuel ops : (0 < ff)%nat ->
  hash_run key_of keq hash fuel (hash_make n ff) ops <> HUB /\
  forall t rs, hash_run key_of keq hash fuel (hash_make n ff) ops = HOk (t, rs) ->
    rs = snd (map_run key_of eqd amap_empty ops) /\
    forall k, hash_search key_of keq hash t k = HOk (fst (map_run key_of eqd amap_empty ops) k).
Proof.
  intro Hff. destruct (hash_refines_map key_of keq hash keq_spec n ff fuel ops Hff) as (U & O). split; [exact U|].
  intros t rs E. destruct (O t rs E) as (-> & Sr).
  destruct (map_run_ext key_of keq eqd (fun a b => bool_ext _ _ (iff_trans (keq_spec a b) (iff_sym (eqd_spec a b)))) ops amap_empty amap_empty (fun k => eq_refl)) as (X & Y).
  split; [exact X|]. intro k. rewrite Sr, Y. reflexivity.
Qed.
Lemma adds_diverge fuel l : forall m t, R key_of hash m t -> NoDup (map key_of l) -> (forall x, In x l -> m (key_of x) = None) ->
  hash_set_all key_of hash fuel t l = HFuel -> hash_run key_of keq hash fuel t (map (fun x => OAdd x) l) = HFuel.
Proof.
  induction l as [|x l IH]; intros m t HR ND HN H; cbn [map hash_run hash_set_all] in *; [discriminate|].
  inversion ND as [|? ? NI ND']; subst.
  destruct (step_R key_of keq hash keq_spec fuel m t (OAdd x) HR) as (_ & O). cbn [hash_step] in *.
  rewrite (search_R key_of keq hash keq_spec m t _ HR) in *. rewrite (HN x (or_introl eq_refl)) in *.
  destruct (hash_set key_of hash fuel t x (hash (key_of x))) as [t1| |]; try discriminate; [|reflexivity].
  destruct (O t1 None eq_refl) as (_ & R1 & _). cbn [map_step] in R1. rewrite (HN x (or_introl eq_refl)) in R1. cbn [fst] in R1.
  rewrite (IH _ t1 R1 ND'); [reflexivity| |exact H].
  intros y Hy. destruct (keq (key_of y) (key_of x)) eqn:KE; [|apply HN; right; exact Hy]. exfalso. apply keq_spec in KE. apply NI. rewrite <- KE. apply in_map. exact Hy.
Qed.
End Map.

(** File sizes over the whole range of apr_off_t: whatever is added, searched and removed, the
    table answers as a map whose keys are numbers. *)
Theorem sizes_exact : forall fuel ops,
  sizes_run fuel sizes_make ops <> HUB /\
  forall t rs, sizes_run fuel sizes_make ops = HOk (t, rs) ->
    rs = snd (map_run fst Z.eqb amap_empty ops) /\
    forall z, hash_search fsize_key off_keq off_hash t z = HOk (fst (map_run fst Z.eqb amap_empty ops) z).
Proof. intros fuel ops. apply (refines fsize_key off_keq Z.eqb off_hash off_keq_spec Z.eqb_eq). lia. Qed.
Print Assumptions sizes_exact.

(** two sizes that agree in their lower 32 bits are different keys *)
Example sizes_case : exists t,
  sizes_run 33 sizes_make [OAdd (4294967297%Z, 1); OSearch 1%Z; OAdd (1%Z, 2); OSearch 4294967297%Z; OSearch (-1)%Z]
  = HOk (t, [None; None; None; Some (4294967297%Z, 1); None]).
Proof. eexists. vm_compute. reflexivity. Qed.

(** ** XXH32 of four bytes is one to one *)
Lemma mul32_inj p q x y : (p * q) mod 2 ^ 32 = 1 -> x < 2 ^ 32 -> y < 2 ^ 32 -> mul32 x p = mul32 y p -> x = y.
Proof.
  intros HI Hx Hy E. unfold mul32 in E.
  assert (G : forall z, z < 2 ^ 32 -> (((z * p) mod 2 ^ 32) * q) mod 2 ^ 32 = z).
  { intros z Hz. rewrite N.mul_mod_idemp_l by discriminate. rewrite <- N.mul_assoc, <- N.mul_mod_idemp_r, HI, N.mul_1_r by discriminate. apply N.mod_small. exact Hz. }
  rewrite <- (G x Hx), <- (G y Hy), E. reflexivity.
Qed.
Lemma add32_inj c x y : c < 2 ^ 32 -> x < 2 ^ 32 -> y < 2 ^ 32 -> add32 c x = add32 c y -> x = y.
Proof.
  intros Hc Hx Hy E. unfold add32 in E.
  assert (G : forall z, z < 2 ^ 32 -> ((c + z) mod 2 ^ 32 + (2 ^ 32 - c)) mod 2 ^ 32 = z).
  { intros z Hz. rewrite N.add_mod_idemp_l by discriminate. replace (c + z + (2 ^ 32 - c)) with (z + 1 * 2 ^ 32) by lia. rewrite N.mod_add by discriminate. apply N.mod_small. exact Hz. }
  rewrite <- (G x Hx), <- (G y Hy), E. reflexivity.
Qed.
Lemma mul32_lt x p : mul32 x p < 2 ^ 32. Proof. apply N.mod_lt. discriminate. Qed.
Lemma add32_lt x p : add32 x p < 2 ^ 32. Proof. apply N.mod_lt. discriminate. Qed.
Lemma testbit_high x i : x < 2 ^ 32 -> 32 <= i -> N.testbit x i = false.
Proof.
  intros Hx Hi. destruct (N.eq_dec x 0) as [->|NZ]; [apply N.bits_0|]. apply N.bits_above_log2. apply N.log2_lt_pow2; [lia|].
  apply N.lt_le_trans with (2 ^ 32); [exact Hx|]. apply N.pow_le_mono_r; [discriminate|exact Hi].
Qed.
Lemma lt_testbit x : (forall i, 32 <= i -> N.testbit x i = false) -> x < 2 ^ 32.
Proof.
  intro H. destruct (N.eq_dec x 0) as [->|NZ]; [reflexivity|]. apply N.log2_lt_pow2; [lia|].
  destruct (N.lt_ge_cases (N.log2 x) 32) as [L|L]; [exact L|]. pose proof (H _ L) as T. rewrite N.bit_log2 in T by exact NZ. discriminate.
Qed.
Lemma rotl_bit x r i : x < 2 ^ 32 -> 0 < r < 32 -> i < 32 ->
  N.testbit (rotl32 x r) i = if i <? r then N.testbit x (i + (32 - r)) else N.testbit x (i - r).
Proof.
  intros Hx Hr Hi. unfold rotl32. rewrite N.lor_spec, N.shiftr_spec' , N.mod_pow2_bits_low by exact Hi.
  destruct (N.ltb_spec i r) as [L|L].
  - rewrite N.shiftl_spec_low by exact L. reflexivity.
  - rewrite N.shiftl_spec_high' by exact L. rewrite (testbit_high x (i + (32 - r))) by (auto; lia). apply orb_false_r.
Qed.
Lemma rotl_lt x r : x < 2 ^ 32 -> 0 < r < 32 -> rotl32 x r < 2 ^ 32.
Proof.
  intros Hx Hr. apply lt_testbit. intros i Hi. unfold rotl32. rewrite N.lor_spec, N.shiftr_spec', N.mod_pow2_bits_high by exact Hi. cbn [orb]. apply testbit_high; [exact Hx|lia].
Qed.
Lemma rotl_inj x y r : x < 2 ^ 32 -> y < 2 ^ 32 -> 0 < r < 32 -> rotl32 x r = rotl32 y r -> x = y.
Proof.
  intros Hx Hy Hr E. apply N.bits_inj. intro i. destruct (N.lt_ge_cases i 32) as [L|L]; [|rewrite !testbit_high by assumption; reflexivity].
  destruct (N.lt_ge_cases i (32 - r)) as [L2|L2].
  - pose proof (f_equal (fun z => N.testbit z (i + r)) E) as B. cbn beta in B. rewrite !rotl_bit in B by (try assumption; lia).
    destruct (N.ltb_spec (i + r) r); [lia|]. rewrite N.add_sub in B. exact B.
  - pose proof (f_equal (fun z => N.testbit z (i - (32 - r))) E) as B. cbn beta in B. rewrite !rotl_bit in B by (try assumption; lia).
    destruct (N.ltb_spec (i - (32 - r)) r); [|lia]. rewrite N.sub_add in B by exact L2. exact B.
Qed.
Lemma xorshift_inj k x y : 0 < k -> xorshift x k = xorshift y k -> x = y.
Proof.
  intros Hk E. unfold xorshift in E. apply N.lxor_eq. set (z := N.lxor x y).
  assert (Z : z = N.shiftr z k).
  { apply N.lxor_eq. unfold z. rewrite N.shiftr_lxor. rewrite <- N.lxor_assoc. rewrite (N.lxor_assoc x y), (N.lxor_comm y (N.shiftr x k)), <- (N.lxor_assoc x).
    rewrite N.lxor_assoc, E. apply N.lxor_nilpotent. }
  destruct (N.eq_dec z 0) as [|NZ]; [assumption|exfalso].
  rewrite N.shiftr_div_pow2 in Z. assert (z / 2 ^ k < z); [|lia]. apply N.div_lt; [lia|]. change 1 with (2 ^ 0). apply N.pow_lt_mono_r; lia.
Qed.
Lemma xorshift_lt k x : x < 2 ^ 32 -> xorshift x k < 2 ^ 32.
Proof. intro Hx. apply lt_testbit. intros i Hi. unfold xorshift. rewrite N.lxor_spec, N.shiftr_spec', !testbit_high by (auto; lia). reflexivity. Qed.

Lemma avalanche_lt h : avalanche h < 2 ^ 32.
Proof. unfold avalanche. apply xorshift_lt, mul32_lt. Qed.
Lemma avalanche_inj x y : x < 2 ^ 32 -> y < 2 ^ 32 -> avalanche x = avalanche y -> x = y.
Proof.
  intros Hx Hy E. unfold avalanche in E. apply xorshift_inj in E; [|lia].
  apply (mul32_inj P3 2828982549) in E; [|reflexivity|apply xorshift_lt, mul32_lt|apply xorshift_lt, mul32_lt].
  apply xorshift_inj in E; [|lia].
  apply (mul32_inj P2 3066638151) in E; [|reflexivity|apply xorshift_lt, Hx|apply xorshift_lt, Hy].
  apply xorshift_inj in E; [exact E|lia].
Qed.
Lemma process4_inj h x y : h < 2 ^ 32 -> x < 2 ^ 32 -> y < 2 ^ 32 -> process4 h x = process4 h y -> x = y.
Proof.
  intros Hh Hx Hy E. unfold process4 in E.
  apply (mul32_inj P4 2701016015) in E; [|reflexivity|apply rotl_lt; [apply add32_lt|lia]|apply rotl_lt; [apply add32_lt|lia]].
  apply rotl_inj in E; [|apply add32_lt|apply add32_lt|lia].
  apply add32_inj in E; [|exact Hh|apply mul32_lt|apply mul32_lt].
  apply (mul32_inj P3 2828982549) in E; [exact E|reflexivity|exact Hx|exact Hy].
Qed.
Lemma gid_hash_eq g : gid_hash g = avalanche (process4 (add32 P5 4) (le_val (le_bytes 4 g))).
Proof. reflexivity. Qed.
Lemma gid_hash_inj x y : x < 2 ^ 32 -> y < 2 ^ 32 -> gid_hash x = gid_hash y -> x = y.
Proof.
  intros Hx Hy E. rewrite !gid_hash_eq, !le_val_bytes in E. change (256 ^ N.of_nat 4) with (2 ^ 32) in E. rewrite !N.mod_small in E by assumption.
  apply avalanche_inj in E; [|apply mul32_lt|apply mul32_lt]. apply process4_inj in E; auto. apply add32_lt.
Qed.

(** Groups: no list of groups makes the table fail or loop, and a group is found exactly if it
    was added. *)
Theorem groups_exact : forall ops, (forall g, In g (added ops) -> g < 2 ^ 32) ->
  exists t, gids_run 33 gids_make ops = HOk (t, snd (map_run (fun g => g) N.eqb amap_empty ops)) /\
    forall g, hash_search (fun g => g) gid_keq gid_hash t g = HOk (fst (map_run (fun g => g) N.eqb amap_empty ops) g).
Proof.
  intros ops B.
  destruct (hash_set_terminates_partial (fun g => g) gid_keq gid_hash gid_keq_spec 4096 8 33 ops) as (t & rs & E); try lia.
  - intros x Hx. rewrite gid_hash_eq. apply avalanche_lt.
  - intros h d ND I HD. rewrite map_id in ND. assert (length d <= 1)%nat; [|lia].
    destruct d as [|a [|b d]]; cbn [length]; try lia. exfalso. inversion ND as [|? ? NI _]; subst. apply NI. left.
    apply gid_hash_inj; [apply B, I; right; left; reflexivity|apply B, I; left; reflexivity|]. rewrite !HD; cbn; auto.
  - exists t. destruct (refines (fun g => g) gid_keq N.eqb gid_hash gid_keq_spec N.eqb_eq 4096 8 33 ops) as (_ & O); [lia|].
    destruct (O t rs E) as (-> & S). split; [exact E|exact S].
Qed.
Print Assumptions groups_exact.
(** fill_gids_ht (ft_config.c:105-138) and the test of ft_traverse.c:52 *)
Theorem group_member_exact : forall gs g, Forall (fun x => x < 2 ^ 32) gs ->
  exists t, gids_run 33 gids_make (map (fun x => OAdd x) gs) = HOk t /\
    (hash_search (fun g => g) gid_keq gid_hash (fst t) g = HOk (Some g) <-> In g gs) /\
    (hash_search (fun g => g) gid_keq gid_hash (fst t) g = HOk None <-> ~ In g gs).
Proof.
  intros gs g F.
  assert (AD : forall l : list N, added (K := N) (map (fun x => OAdd x) l) = l).
  { induction l as [|x l IH]; [reflexivity|]. cbn [map added flat_map app]. f_equal. exact IH. }
  destruct (groups_exact (map (fun x => OAdd x) gs)) as (t & E & S).
  { rewrite AD. rewrite Forall_forall in F. exact F. }
  exists (t, snd (map_run (fun g => g) N.eqb amap_empty (map (fun x => OAdd x) gs))). split; [exact E|]. cbn [fst]. rewrite S.
  assert (G : forall l m, (forall k x, m k = Some x -> x = k) ->
    fst (map_run (fun g : N => g) N.eqb m (map (fun x => OAdd x) l)) g = if in_dec N.eq_dec g l then Some g else m g).
  { clear. induction l as [|x l IH]; intros m Hm; cbn [map map_run].
    - destruct (in_dec N.eq_dec g []) as [[]|_]. reflexivity.
    - cbn [map_step]. destruct (m x) as [y|] eqn:Mx.
      + pose proof (IH m Hm) as I. destruct (map_run (fun g => g) N.eqb m (map (fun x => OAdd x) l)). cbn [fst] in *. rewrite I.
        destruct (in_dec N.eq_dec g l) as [Y|Y], (in_dec N.eq_dec g (x :: l)) as [Z|Z]; try reflexivity.
        * destruct Z. right. exact Y.
        * destruct Z as [->|Z]; [|contradiction]. rewrite Mx. f_equal. eapply Hm. exact Mx.
      + set (m' := fun k : N => if k =? x then Some x else m k).
        assert (Hm' : forall k z, m' k = Some z -> z = k).
        { intros k z. unfold m'. destruct (N.eqb_spec k x) as [->|]; [congruence|apply Hm]. }
        pose proof (IH m' Hm') as I. destruct (map_run (fun g => g) N.eqb m' (map (fun x => OAdd x) l)). cbn [fst] in *. rewrite I.
        destruct (in_dec N.eq_dec g l) as [Y|Y], (in_dec N.eq_dec g (x :: l)) as [Z|Z]; try reflexivity; unfold m'.
        * destruct Z. right. exact Y.
        * destruct Z as [->|Z]; [|contradiction]. rewrite N.eqb_refl. reflexivity.
        * destruct (N.eqb_spec g x) as [->|]; [|reflexivity]. destruct Z. left. reflexivity. }
  rewrite G by discriminate. destruct (in_dec N.eq_dec g gs) as [Y|Y]; split; split; intro H; try reflexivity; try discriminate; try contradiction; try assumption.
Qed.
Print Assumptions group_member_exact.
Example groups_case : Forall (fun x => x < 2 ^ 32) [0; 100; 100; 4294967295] /\
  match gids_run 33 gids_make (map (fun x => OAdd x) [0; 100; 100; 4294967295]) with
  | HOk (t, rs) => rs = [None; None; Some 100; None] /\ hash_search (fun g => g) gid_keq gid_hash t 4294967295 = HOk (Some 4294967295)
  | _ => False end.
Proof. split; [repeat constructor|vm_compute; auto]. Qed.

(** Names: as sizes. *)
Theorem names_exact : forall fuel ops (eqd : bytes -> bytes -> bool), (forall a b, eqd a b = true <-> a = b) ->
  names_run fuel names_make ops <> HUB /\
  forall t rs, names_run fuel names_make ops = HOk (t, rs) ->
    rs = snd (map_run (fun s => s) eqd amap_empty ops) /\
    forall s, hash_search (fun s => s) str_keq str_hash t s = HOk (fst (map_run (fun s => s) eqd amap_empty ops) s).
Proof. intros fuel ops eqd HE. apply (refines (fun s => s) str_keq eqd str_hash str_keq_spec HE). lia. Qed.
Print Assumptions names_exact.

(** ** Termination for sizes *)
(** fewer than eight different sizes with one hash value: the table is filled *)
Lemma off_hash_lt z : off_hash z < 2 ^ 32.
Proof. unfold off_hash, xxh32, off_bytes. cbn [le_bytes length Nat.leb finalize fold_left]. apply avalanche_lt. Qed.
Theorem sizes_terminate_partial : forall ops,
  (forall h d, NoDup (map fst d) -> incl d (added ops) -> (forall x, In x d -> off_hash (fst x) = h) -> (length d < 8)%nat) ->
  exists t, sizes_run 33 sizes_make ops = HOk (t, snd (map_run fst Z.eqb amap_empty ops)).
Proof.
  intros ops H. destruct (hash_set_terminates_partial fsize_key off_keq off_hash off_keq_spec 4096 8 33 ops) as (t & rs & E); try lia.
  - intros x _. apply off_hash_lt.
  - exact H.
  - exists t. destruct (sizes_exact 33 ops) as (_ & O). destruct (O t rs E) as (-> & _). exact E.
Qed.
Print Assumptions sizes_terminate_partial.
(** in particular, files of at most seven different sizes *)
Theorem seven_sizes : forall ops, (length (nodup Z.eq_dec (map fst (added ops))) <= 7)%nat ->
  exists t, sizes_run 33 sizes_make ops = HOk (t, snd (map_run fst Z.eqb amap_empty ops)).
Proof.
  intros ops H. apply sizes_terminate_partial. intros h d ND I _. rewrite <- (map_length fst). apply Nat.lt_succ_r. eapply Nat.le_trans; [|exact H].
  apply NoDup_incl_length; [exact ND|]. intros z Hz. apply nodup_In. apply in_map_iff in Hz. destruct Hz as (x & <- & Hx). apply in_map. apply I, Hx.
Qed.
Print Assumptions seven_sizes.

(** Eight files of these sizes, from 3.4 GiB to 28 GiB: however much time and memory there is,
    the table is never finished. *)
Definition hanging : list Z :=
  [3662812456; 5485833988; 11248791499; 13071813031; 19189801859; 24952759370; 26775780902; 30064787181]%Z.
Theorem sizes_hang_refuted : forall fuel, sizes_run fuel sizes_make (map (fun z => OAdd (z, 1)) hanging) = HFuel.
Proof.
  intro fuel. unfold sizes_run, sizes_make. rewrite <- (map_map (fun z => (z, 1)) (fun x => OAdd x)).
  apply (adds_diverge fsize_key off_keq off_hash off_keq_spec fuel _ amap_empty).
  - apply R_make. lia.
  - rewrite map_map. cbn [fsize_key fst map hanging]. repeat constructor; cbn; intuition discriminate.
  - reflexivity.
  - apply (hash_set_terminates_refuted fsize_key off_hash 4096 8 1747027334); [lia|cbn; lia|].
    intros x Hx. cbn [map hanging In] in Hx. repeat (destruct Hx as [<-|Hx]; [vm_compute; reflexivity|]). destruct Hx.
Qed.
Print Assumptions sizes_hang_refuted.
(** the first seven of them are no trouble *)
Example seven_case : exists t, sizes_run 33 sizes_make (map (fun z => OAdd (z, 1)) (firstn 7 hanging)) = HOk t.
Proof. destruct (seven_sizes (map (fun z => OAdd (z, 1)) (firstn 7 hanging))) as (t & E); [vm_compute; lia|]. eauto. Qed.

(** published values of XXH32 with seed 0, to test [xxh32]: "", "a", "abc",
    "Nobody inspects the spammish repetition" *)
Example xxh32_values : map xxh32 [[]; [97]; [97; 98; 99];
  [78;111;98;111;100;121;32;105;110;115;112;101;99;116;115;32;116;104;101;32;115;112;97;109;109;105;115;104;32;114;101;112;101;116;105;116;105;111;110]]
  = [46947589; 1426945110; 852579327; 3794352943].
Proof. vm_compute. reflexivity. Qed.
