From Verif Require Import Util HeapModel HeapSpec.
Local Open Scope nat_scope.
Ltac Zify.zify_post_hook ::= Z.div_mod_to_equations.

Section P.
Context {A : Type} (cmp : A -> A -> Z).

Lemma swap_some (l : list A) i j a b :
  nth_error l i = Some a -> nth_error l j = Some b ->
  swap l i j = Some (upd (upd l i b) j a).
Proof. intros H1 H2. unfold swap. now rewrite H1, H2. Qed.

Lemma nth_swap (l : list A) i j a b k :
  i <> j -> nth_error l i = Some a -> nth_error l j = Some b ->
  nth_error (upd (upd l i b) j a) k =
    if Nat.eqb k i then Some b else if Nat.eqb k j then Some a else nth_error l k.
Proof.
  intros Hij Hi Hj.
  pose proof (nth_error_Some_lt _ _ _ Hi). pose proof (nth_error_Some_lt _ _ _ Hj).
  destruct (Nat.eqb_spec k i); [subst|destruct (Nat.eqb_spec k j); [subst|]].
  - rewrite nth_error_upd_neq by lia. apply nth_error_upd_eq; auto.
  - apply nth_error_upd_eq. now rewrite length_upd.
  - rewrite !nth_error_upd_neq by lia. reflexivity.
Qed.

(** ** Safety and permutation: any comparison function *)
Lemma sift_up_perm fuel l i :
  i < length l -> i < fuel -> exists l', sift_up cmp fuel l i = HOk l' /\ Permutation l l'.
Proof.
  revert l i; induction fuel as [|f IH]; intros l i Hi Hf; [lia|].
  cbn [sift_up]. destruct (Nat.eqb_spec i 0); [eauto|].
  assert (Hp : hparent i < length l) by (unfold hparent; lia).
  destruct (nth_error_lt_Some l (hparent i) Hp) as [p Ep].
  destruct (nth_error_lt_Some l i Hi) as [x Ex].
  rewrite Ep, Ex. destruct (cmp p x <? 0)%Z; [|eauto].
  rewrite (swap_some _ _ _ _ _ Ep Ex).
  destruct (IH (upd (upd l (hparent i) x) i p) (hparent i)) as [l' [E P]].
  - rewrite !length_upd; auto.
  - unfold hparent; lia.
  - exists l'; split; auto. etransitivity; [|exact P].
    apply upd_upd_Permutation; auto. unfold hparent; lia.
Qed.

Lemma choose_some (l : list A) i : i < length l ->
  exists m, choose cmp l i = Some m /\ m < length l /\ (m = i \/ i < m).
Proof.
  intros Hi. unfold choose, hleft, hright.
  destruct (Nat.ltb_spec (2*i+1) (length l)); [|eauto].
  destruct (nth_error_lt_Some l (2*i+1)) as [a Ea]; auto.
  destruct (nth_error_lt_Some l i) as [b Eb]; auto.
  rewrite Ea, Eb.
  set (mp := if (cmp a b >? 0)%Z then 2*i+1 else i).
  assert (Hmp : mp < length l /\ (mp = i \/ i < mp)) by (unfold mp; destruct (cmp a b >? 0)%Z; lia).
  destruct (Nat.ltb_spec (2*(i+1)) (length l)).
  - destruct (nth_error_lt_Some l (2*(i+1))) as [c Ec]; auto.
    destruct (nth_error_lt_Some l mp) as [d Ed]; [tauto|].
    rewrite Ec, Ed. destruct (cmp c d >? 0)%Z; eexists; split; eauto; lia.
  - eauto.
Qed.

Lemma sift_down_perm fuel l i :
  (i < length l \/ l = []) -> length l - i < fuel ->
  exists l', sift_down cmp fuel l i = HOk l' /\ Permutation l l'.
Proof.
  revert l i; induction fuel as [|f IH]; intros l i Hi Hf; [lia|].
  cbn [sift_down].
  destruct Hi as [Hi|Hi].
  2:{ subst l. unfold choose. simpl. rewrite Nat.eqb_refl. simpl. eauto. }
  destruct (choose_some l i Hi) as [m [Em [Hm Hmi]]]. rewrite Em.
  destruct (Nat.eqb_spec m i); simpl; [eauto|].
  destruct (nth_error_lt_Some l m Hm) as [a Ea].
  destruct (nth_error_lt_Some l i Hi) as [b Eb].
  rewrite (swap_some _ _ _ _ _ Ea Eb).
  destruct (IH (upd (upd l m b) i a) m) as [l' [E P]].
  - left. rewrite !length_upd; auto.
  - rewrite !length_upd; lia.
  - exists l'; split; auto. etransitivity; [|exact P]. apply upd_upd_Permutation; auto.
Qed.

Lemma grow_gt m : (m < grow m)%N.
Proof.
  unfold grow. destruct (N.eqb_spec m 0); [lia|].
  assert (H := N.log2_spec m). rewrite N.add_1_r. lia.
Qed.

Definition hwf (h : heap A) : Prop := (N.of_nat (length (h_tree h)) <= h_max h)%N.

Lemma heap_insert_perm h x : hwf h ->
  exists h', heap_insert cmp h x = HOk h' /\ hwf h' /\ Permutation (x :: h_tree h) (h_tree h').
Proof.
  intros W. unfold heap_insert.
  set (mx := if (h_max h <=? _)%N then _ else _).
  assert (Hmx : (N.of_nat (length (h_tree h)) < mx)%N).
  { unfold mx. destruct (N.leb_spec (h_max h) (N.of_nat (length (h_tree h)))).
    - unfold hwf in W. pose proof (grow_gt (h_max h)). lia.
    - lia. }
  destruct (N.ltb_spec (N.of_nat (length (h_tree h))) mx); [|lia].
  destruct (sift_up_perm (S (length (h_tree h))) (h_tree h ++ [x]) (length (h_tree h))) as [l' [E P]].
  - rewrite app_length; simpl; lia.
  - lia.
  - rewrite E. exists (mkHeap l' mx). split; [reflexivity|]. split.
    + unfold hwf. simpl. rewrite <- (Permutation_length P), app_length. simpl. lia.
    + simpl. rewrite <- P. apply Permutation_cons_append.
Qed.

Lemma firstn_last_eq (l : list A) n x :
  length l = S n -> nth_error l n = Some x -> l = firstn n l ++ [x].
Proof.
  revert n; induction l as [|y l IH]; intros n L H; simpl in L; [lia|].
  destruct n as [|n]; simpl in *.
  - destruct l; [congruence | simpl in L; lia].
  - f_equal. apply IH; auto; lia.
Qed.

Lemma firstn_upd0 (r last : A) t : nth_error (r :: t) (length t) = Some last ->
  Permutation (r :: firstn (length t) (upd (r :: t) 0 last)) (r :: t).
Proof.
  intros H. simpl. destruct t as [|y t]; [reflexivity|]. cbn [length firstn] in *.
  simpl in H. constructor.
  rewrite (firstn_last_eq (y :: t) (length t) last) at 2; auto.
  apply Permutation_cons_append.
Qed.

Lemma heap_extract_perm h : hwf h ->
  exists h' r, heap_extract cmp h = HOk (h', r) /\ hwf h' /\
    match r with None => h_tree h = [] /\ h_tree h' = []
            | Some x => nth_error (h_tree h) 0 = Some x /\ Permutation (h_tree h) (x :: h_tree h') end.
Proof.
  intros W. unfold heap_extract. destruct (h_tree h) as [|r t] eqn:T.
  - exists h, None. rewrite T. auto.
  - cbn [length]. replace (S (length t) - 1) with (length t) by lia.
    destruct (nth_error_lt_Some (r :: t) (length t)) as [last E]; [simpl; lia|].
    rewrite E.
    pose proof (firstn_upd0 _ _ _ E) as P0.
    set (l := firstn (length t) (upd (r :: t) 0 last)) in *.
    assert (L : length l = length t) by (apply Permutation_length in P0; simpl in P0; lia).
    destruct (sift_down_perm (S (S (length t))) l 0) as [l' [E' P]].
    + destruct l; [right; auto | left; simpl; lia].
    + lia.
    + rewrite E'. exists (mkHeap l' (h_max h)), (Some r). split; [reflexivity|].
      split; [|split; [reflexivity|]].
      * unfold hwf in *. rewrite T in W. simpl in *. rewrite <- (Permutation_length P). lia.
      * simpl. rewrite <- P. now rewrite <- P0.
Qed.

Lemma heap_step_perm h o : hwf h -> exists h' r, heap_step cmp h o = HOk (h', r) /\ hwf h' /\
  match o, r with
  | HInsert x, None => Permutation (x :: h_tree h) (h_tree h')
  | HExtract, None => h_tree h = [] /\ h_tree h' = []
  | HExtract, Some x => nth_error (h_tree h) 0 = Some x /\ Permutation (h_tree h) (x :: h_tree h')
  | HInsert _, Some _ => False
  end.
Proof.
  intros W. destruct o as [x|]; simpl.
  - destruct (heap_insert_perm h x W) as [h' [E [W' P]]]. rewrite E. exists h', None. auto.
  - destruct (heap_extract_perm h W) as [h' [r [E [W' P]]]]. rewrite E. exists h', r. auto.
Qed.

Lemma heap_run_conserve_gen ops h : hwf h ->
  exists h' rs, heap_run cmp h ops = HOk (h', rs) /\ hwf h' /\ length rs = length ops /\
    Permutation (h_tree h ++ inserted ops) (outputs rs ++ h_tree h').
Proof.
  revert h; induction ops as [|o ops IH]; intros h W.
  - simpl. exists h, []. rewrite app_nil_r. auto.
  - destruct (heap_step_perm h o W) as [h1 [r [E [W1 P1]]]].
    destruct (IH h1 W1) as [h2 [rs [E2 [W2 [L P2]]]]].
    exists h2, (r :: rs). cbn [heap_run]. rewrite E, E2. repeat split; auto; [simpl; lia|].
    destruct o as [x|]; destruct r as [y|]; try contradiction; cbn [inserted outputs flat_map].
    + simpl. rewrite <- P2, <- P1. simpl. symmetry. apply Permutation_middle.
    + destruct P1 as [_ P1]. rewrite P1. simpl. constructor. exact P2.
    + destruct P1 as [P1 P1']. rewrite P1, P1' in *. exact P2.
Qed.

(** ** Order: total preorders *)
Hypothesis TP : total_preorder cmp.

Definition ge (a b : A) : Prop := (cmp b a <= 0)%Z.  (* a is at least b *)

Lemma ge_refl a : ge a a.
Proof. unfold ge. destruct TP as [H _]. specialize (H a a). lia. Qed.
Lemma ge_trans a b c : ge a b -> ge b c -> ge a c.
Proof. unfold ge. destruct TP as [_ H]. intros; eapply H; eauto. Qed.
Lemma not_lt_ge a b : (cmp a b <? 0)%Z = false -> ge a b.
Proof. unfold ge. destruct TP as [H _]. specialize (H a b). lia. Qed.
Lemma lt_ge a b : (cmp a b <? 0)%Z = true -> ge b a.
Proof. unfold ge. lia. Qed.
Lemma gt_ge a b : (cmp a b >? 0)%Z = true -> ge a b.
Proof. unfold ge. destruct TP as [H _]. specialize (H a b). lia. Qed.
Lemma not_gt_ge a b : (cmp a b >? 0)%Z = false -> ge b a.
Proof. unfold ge. lia. Qed.

Definition rel (l : list A) (i j : nat) : Prop :=
  forall a b, nth_error l i = Some a -> nth_error l j = Some b -> ge a b.

(** heap order: every cell is dominated by its parent *)
Definition hord (l : list A) : Prop := forall i, 0 < i -> i < length l -> rel l (hparent i) i.

Lemma hparent_lt i : 0 < i -> hparent i < i.
Proof. unfold hparent; lia. Qed.

Lemma hord_root l i : hord l -> rel l 0 i.
Proof.
  intros H. induction i as [i IH] using lt_wf_ind. intros a b Ha Hb.
  destruct (Nat.eq_dec i 0) as [->|Hi].
  - assert (a = b) by congruence. subst. apply ge_refl.
  - pose proof (nth_error_Some_lt _ _ _ Hb).
    destruct (nth_error_lt_Some l (hparent i)) as [p Ep]; [unfold hparent; lia|].
    apply ge_trans with p.
    + apply (IH (hparent i)); auto. apply hparent_lt; lia.
    + apply (H i); auto; lia.
Qed.

(** invariant of sift_up at position i: heap order except possibly between i and
    its parent; the children of i are dominated by the parent of i. *)
Definition up_inv (l : list A) (i : nat) : Prop :=
  (forall j, 0 < j -> j < length l -> j <> i -> rel l (hparent j) j) /\
  (forall j, 0 < i -> 0 < j -> j < length l -> hparent j = i -> rel l (hparent i) j).

Lemma sift_up_ord fuel l i l' :
  i < length l -> up_inv l i -> sift_up cmp fuel l i = HOk l' -> hord l'.
Proof.
  revert l i; induction fuel as [|f IH]; intros l i Hi [I1 I2] E; [discriminate|].
  cbn [sift_up] in E. destruct (Nat.eqb_spec i 0) as [->|Hi0].
  - inversion E; subst. intros j Hj Hl. apply I1; auto; lia.
  - pose proof (hparent_lt i ltac:(lia)) as Hpi.
    destruct (nth_error l (hparent i)) as [p|] eqn:Ep; [|discriminate].
    destruct (nth_error l i) as [x|] eqn:Ex; [|discriminate].
    destruct (cmp p x <? 0)%Z eqn:C.
    + rewrite (swap_some _ _ _ _ _ Ep Ex) in E.
      assert (Hne : hparent i <> i) by lia.
      revert E. apply IH; [rewrite !length_upd; lia|].
      pose proof (fun k => nth_swap l (hparent i) i p x k Hne Ep Ex) as NS.
      set (l1 := upd (upd l (hparent i) x) i p) in *.
      assert (L1 : length l1 = length l) by (unfold l1; now rewrite !length_upd).
      split.
      * intros j Hj Hl Hjp a b Ha Hb. rewrite L1 in Hl. rewrite NS in Ha, Hb.
        assert (hparent j < j) by (apply hparent_lt; auto).
        destruct (Nat.eqb_spec j (hparent i)); [congruence|].
        destruct (Nat.eqb_spec j i) as [->|Hji].
        -- inversion Hb; subst b. rewrite Nat.eqb_refl in Ha. inversion Ha; subst a.
           apply lt_ge; auto.
        -- destruct (Nat.eqb_spec (hparent j) (hparent i)) as [Epp|Npp].
           ++ inversion Ha; subst a. apply ge_trans with p; [apply lt_ge; auto|].
              apply (I1 j); auto. now rewrite Epp.
           ++ destruct (Nat.eqb_spec (hparent j) i) as [Epi|Npi].
              ** inversion Ha; subst a. apply (I2 j); auto; lia.
              ** apply (I1 j); auto.
      * intros j Hp0 Hj Hl Hjp a b Ha Hb. rewrite L1 in Hl. rewrite NS in Ha, Hb.
        assert (hparent (hparent i) < hparent i) by (apply hparent_lt; auto).
        assert (hparent j < j) by (apply hparent_lt; auto).
        destruct (Nat.eqb_spec (hparent (hparent i)) (hparent i)); [lia|].
        destruct (Nat.eqb_spec (hparent (hparent i)) i); [lia|].
        destruct (Nat.eqb_spec j (hparent i)); [lia|].
        destruct (Nat.eqb_spec j i) as [->|Hji].
        -- inversion Hb; subst b. apply (I1 (hparent i)); auto; lia.
        -- apply ge_trans with p.
           ++ apply (I1 (hparent i)); auto; lia.
           ++ apply (I1 j); auto; congruence.
    + inversion E; subst l'. intros j Hj Hl. destruct (Nat.eq_dec j i) as [->|Hji].
      * intros a b Ha Hb. rewrite Ep in Ha. rewrite Ex in Hb.
        inversion Ha; inversion Hb; subst. apply not_lt_ge; auto.
      * apply I1; auto.
Qed.

Lemma heap_insert_ord h x h' : hord (h_tree h) -> heap_insert cmp h x = HOk h' -> hord (h_tree h').
Proof.
  intros H. unfold heap_insert.
  destruct (_ <? _)%N; [|discriminate].
  destruct (sift_up _ _ _ _) as [l| |] eqn:E; try discriminate.
  intros [= <-]. simpl. revert E. apply sift_up_ord.
  - rewrite app_length; simpl; lia.
  - split.
    + intros j Hj Hl Hne a b Ha Hb. rewrite app_length in Hl. simpl in Hl.
      assert (hparent j < j) by (apply hparent_lt; auto).
      rewrite nth_error_app1 in Ha, Hb by lia. apply (H j); auto; lia.
    + intros j Hp Hj Hl Hjp. rewrite app_length in Hl. simpl in Hl.
      assert (hparent j < j) by (apply hparent_lt; auto). lia.
Qed.

(** invariant of sift_down at position i *)
Definition down_inv (l : list A) (i : nat) : Prop :=
  (forall j, 0 < j -> j < length l -> hparent j <> i -> rel l (hparent j) j) /\
  (forall j, 0 < i -> 0 < j -> j < length l -> hparent j = i -> rel l (hparent i) j).

Lemma hparent_inv j i : 0 < j -> hparent j = i -> j = hleft i \/ j = hright i.
Proof. unfold hparent, hleft, hright. lia. Qed.

Lemma choose_dom l i m : choose cmp l i = Some m -> i < length l ->
  (m = i \/ (hparent m = i /\ 0 < m /\ m < length l)) /\
  rel l m i /\
  (forall j, 0 < j -> j < length l -> hparent j = i -> rel l m j).
Proof.
  unfold choose. intros E Hi.
  assert (PL : hparent (hleft i) = i) by (unfold hparent, hleft; lia).
  assert (PR : hparent (hright i) = i) by (unfold hparent, hright; lia).
  assert (L0 : 0 < hleft i < hright i) by (unfold hleft, hright; lia).
  assert (RR : forall k, rel l k k).
  { intros k a b Ha Hb. assert (a = b) by congruence. subst. apply ge_refl. }
  destruct (Nat.ltb_spec (hleft i) (length l)) as [HL|HL].
  2:{ inversion E; subst m. split; [auto|]. split; [apply RR|].
      intros j Hj Hl Hp. destruct (hparent_inv j i Hj Hp); lia. }
  destruct (nth_error_lt_Some l _ HL) as [a Ea]. rewrite Ea in E.
  destruct (nth_error_lt_Some l _ Hi) as [b Eb]. rewrite Eb in E.
  set (mp := if (cmp a b >? 0)%Z then hleft i else i) in *.
  assert (M1 : (mp = i \/ mp = hleft i) /\ rel l mp i /\ rel l mp (hleft i)).
  { unfold mp. destruct (cmp a b >? 0)%Z eqn:C; (split; [auto|]); split.
    - intros u v Hu Hv. assert (u = a) by congruence; assert (v = b) by congruence; subst u v.
      apply gt_ge; auto.
    - apply RR.
    - apply RR.
    - intros u v Hu Hv. assert (u = b) by congruence; assert (v = a) by congruence; subst u v.
      apply not_gt_ge; auto. }
  destruct M1 as [Mc [Mi Ml]].
  assert (Hmp : mp < length l) by lia.
  destruct (Nat.ltb_spec (hright i) (length l)) as [HR|HR].
  - destruct (nth_error_lt_Some l _ HR) as [c Ec]. rewrite Ec in E.
    destruct (nth_error_lt_Some l _ Hmp) as [d Ed]. rewrite Ed in E.
    destruct (cmp c d >? 0)%Z eqn:C; inversion E; subst m.
    + assert (G : ge c d) by (apply gt_ge; auto).
      split; [right; repeat split; auto; lia|]. split.
      * intros u v Hu Hv. assert (u = c) by congruence; subst u.
        apply ge_trans with d; solve [auto | apply (Mi d v); auto].
      * intros j Hj Hl Hp u v Hu Hv. assert (u = c) by congruence; subst u.
        destruct (hparent_inv j i Hj Hp) as [->| ->].
        -- apply ge_trans with d; solve [auto | apply (Ml d v); auto].
        -- assert (v = c) by congruence; subst v. apply ge_refl.
    + assert (G : ge d c) by (apply not_gt_ge; auto).
      split; [destruct Mc as [->| ->]; auto; right; repeat split; auto; lia|]. split; auto.
      intros j Hj Hl Hp u v Hu Hv.
      destruct (hparent_inv j i Hj Hp) as [->| ->]; [apply (Ml u v); auto|].
      assert (u = d) by congruence; assert (v = c) by congruence; now subst u v.
  - inversion E; subst m.
    split; [destruct Mc as [->| ->]; auto; right; repeat split; auto; lia|]. split; auto.
    intros j Hj Hl Hp. destruct (hparent_inv j i Hj Hp) as [->| ->]; [auto|lia].
Qed.

Lemma sift_down_ord fuel l i l' :
  i < length l -> down_inv l i -> sift_down cmp fuel l i = HOk l' -> hord l'.
Proof.
  revert l i; induction fuel as [|f IH]; intros l i Hi [I1 I2] E; [discriminate|].
  cbn [sift_down] in E. destruct (choose cmp l i) as [m|] eqn:C; [|discriminate].
  destruct (choose_dom _ _ _ C Hi) as [Hm [Dmi Dmc]].
  destruct (Nat.eqb_spec m i) as [->|Hmi]; cbn [negb] in E.
  - inversion E; subst l'. intros j Hj Hl. destruct (Nat.eq_dec (hparent j) i) as [Hp|Hp].
    + rewrite Hp. apply Dmc; auto.
    + apply I1; auto.
  - destruct Hm as [|[Hpm [Hm0 Hml]]]; [contradiction|].
    destruct (nth_error_lt_Some l m Hml) as [a Ea].
    destruct (nth_error_lt_Some l i Hi) as [b Eb].
    rewrite (swap_some _ _ _ _ _ Ea Eb) in E.
    revert E. apply IH; [rewrite !length_upd; lia|].
    pose proof (fun k => nth_swap l m i a b k Hmi Ea Eb) as NS.
    set (l1 := upd (upd l m b) i a) in *.
    assert (L1 : length l1 = length l) by (unfold l1; now rewrite !length_upd).
    assert (Him : i < m) by (rewrite <- Hpm; apply hparent_lt; auto).
    split.
    + intros j Hj Hl Hjm u v Hu Hv. rewrite L1 in Hl. rewrite NS in Hu, Hv.
      assert (hparent j < j) by (apply hparent_lt; auto).
      destruct (Nat.eqb_spec (hparent j) m); [contradiction|].
      destruct (Nat.eqb_spec (hparent j) i) as [Epi|Npi].
      * inversion Hu; subst u.
        destruct (Nat.eqb_spec j m) as [->|Njm].
        -- inversion Hv; subst v. apply (Dmi a b); auto.
        -- destruct (Nat.eqb_spec j i); [lia|]. apply (Dmc j); auto.
      * destruct (Nat.eqb_spec j m) as [->|Njm]; [contradiction|].
        destruct (Nat.eqb_spec j i) as [->|Nji].
        -- inversion Hv; subst v. apply (I2 m); auto; lia.
        -- apply (I1 j); auto.
    + intros j Hm1 Hj Hl Hjm u v Hu Hv. rewrite L1 in Hl. rewrite NS in Hu, Hv.
      assert (hparent j < j) by (apply hparent_lt; auto).
      rewrite Hpm in Hu. destruct (Nat.eqb_spec i m); [lia|]. rewrite Nat.eqb_refl in Hu.
      inversion Hu; subst u.
      destruct (Nat.eqb_spec j m); [lia|]. destruct (Nat.eqb_spec j i); [lia|].
      apply (I1 j); auto; [lia|]. now rewrite Hjm.
Qed.

Lemma heap_extract_ord h h' r : hord (h_tree h) -> heap_extract cmp h = HOk (h', r) -> hord (h_tree h').
Proof.
  intros H. unfold heap_extract. destruct (h_tree h) as [|x t] eqn:T.
  - intros [= <- <-]. now rewrite T.
  - cbn [length]. replace (S (length t) - 1) with (length t) by lia.
    destruct (nth_error (x :: t) (length t)) as [last|] eqn:EL; [|discriminate].
    destruct (sift_down _ _ _ _) as [l'| |] eqn:E; try discriminate.
    intros [= <- <-]. cbn [h_tree].
    set (l := firstn (length t) (upd (x :: t) 0 last)) in *.
    assert (L : length l = length t).
    { unfold l. rewrite firstn_length, length_upd. simpl. lia. }
    destruct l as [|y l0] eqn:El.
    + cbn in E. unfold choose in E; simpl in E. inversion E; subst. intros j _ Hj; simpl in Hj; lia.
    + rewrite <- El in *. revert E. apply sift_down_ord; [rewrite El; simpl; lia|].
      assert (NE : forall k, 0 < k -> k < length t -> nth_error l k = nth_error (x :: t) k).
      { intros k K1 K2. unfold l. change (upd (x :: t) 0 last) with (last :: t).
        destruct k as [|k]; [lia|].
        change (nth_error (x :: t) (S k)) with (nth_error (last :: t) (S k)).
        rewrite <- (firstn_skipn (length t) (last :: t)) at 2.
        rewrite nth_error_app1; [reflexivity|]. rewrite firstn_length. simpl. lia. }
      split.
      * intros j Hj Hl Hp a b Ha Hb.
        assert (hparent j < j) by (apply hparent_lt; auto).
        rewrite NE in Ha, Hb by lia. apply (H j); auto. simpl. lia.
      * intros; lia.
Qed.

Lemma hord_max l m : hord l -> nth_error l 0 = Some m -> forall y, In y l -> (cmp y m <= 0)%Z.
Proof.
  intros H E y Hy. apply In_nth_error in Hy as [n Hn]. exact (hord_root l n H m y E Hn).
Qed.

Lemma heap_run_bag ops h : hwf h -> hord (h_tree h) ->
  exists h' rs, heap_run cmp h ops = HOk (h', rs) /\ bag_trace cmp (h_tree h) ops rs (h_tree h').
Proof.
  revert h; induction ops as [|o ops IH]; intros h W O.
  - exists h, []. split; [reflexivity|]. constructor.
  - destruct (heap_step_perm h o W) as [h1 [r [E [W1 P1]]]].
    assert (O1 : hord (h_tree h1)).
    { destruct o as [x|]; simpl in E.
      - destruct (heap_insert cmp h x) eqn:EI; try discriminate. inversion E; subst.
        eapply heap_insert_ord; eauto.
      - eapply heap_extract_ord; eauto. }
    destruct (IH h1 W1 O1) as [h2 [rs [E2 C]]].
    exists h2, (r :: rs). cbn [heap_run]. rewrite E, E2. split; [reflexivity|].
    econstructor; [|exact C].
    destruct o as [x|]; destruct r as [y|]; simpl; try contradiction.
    + split; auto. now symmetry.
    + destruct P1 as [P0 P1]. split; auto. eapply hord_max; eauto.
    + auto.
Qed.

Lemma hwf_make : hwf (@heap_make A).
Proof. unfold hwf; simpl; lia. Qed.
Lemma hord_make : hord (h_tree (@heap_make A)).
Proof. intros i H1 H2; simpl in H2; lia. Qed.

(** draining *)
Lemma bag_trace_nil_inv s rs s2 : bag_trace cmp s [] rs s2 -> rs = [] /\ s2 = s.
Proof. intros H. inversion H. auto. Qed.
Lemma bag_trace_cons_inv s o ops rs s2 : bag_trace cmp s (o :: ops) rs s2 ->
  exists r s1 rs', rs = r :: rs' /\ bag_step cmp s o r s1 /\ bag_trace cmp s1 ops rs' s2.
Proof. intros H. inversion H. subst. eauto 10. Qed.

Lemma bag_trace_app_inv s ops1 ops2 rs s2 :
  bag_trace cmp s (ops1 ++ ops2) rs s2 ->
  exists rs1 rs2 s1, rs = rs1 ++ rs2 /\ bag_trace cmp s ops1 rs1 s1 /\ bag_trace cmp s1 ops2 rs2 s2.
Proof.
  revert s rs; induction ops1 as [|o ops1 IH]; intros s rs H; simpl in H.
  - exists [], rs, s. repeat split; auto. constructor.
  - apply bag_trace_cons_inv in H as [r [s1 [rs' [-> [B H]]]]].
    apply IH in H as [rs1 [rs2 [s1' [-> [H6 H7]]]]].
    exists (r :: rs1), rs2, s1'. repeat split; auto. econstructor; eauto.
Qed.

Lemma bag_trace_inserts s xs rs s2 :
  bag_trace cmp s (map HInsert xs) rs s2 -> rs = map (fun _ => None) xs /\ Permutation s2 (xs ++ s).
Proof.
  revert s rs; induction xs as [|x xs IH]; intros s rs H; simpl in H.
  - apply bag_trace_nil_inv in H as [-> ->]. auto.
  - apply bag_trace_cons_inv in H as [r [s1 [rs' [-> [[-> P] H]]]]].
    apply IH in H as [-> P2]. split; auto.
    rewrite P2, P. simpl. symmetry. apply Permutation_middle.
Qed.

Lemma bag_trace_extracts n s rs s2 :
  length s = n -> bag_trace cmp s (repeat HExtract n) rs s2 ->
  s2 = [] /\ exists ys, rs = map Some ys /\ Permutation s ys /\
    StronglySorted (fun a b => (cmp b a <= 0)%Z) ys.
Proof.
  revert s rs; induction n as [|n IH]; intros s rs L H; simpl in H.
  - apply bag_trace_nil_inv in H as [-> ->].
    destruct s; [|discriminate]. split; auto. exists []. repeat split; auto. constructor.
  - apply bag_trace_cons_inv in H as [r [s1 [rs' [-> [B H]]]]]. destruct r as [m|]; simpl in B.
    + destruct B as [P M]. assert (L1 : length s1 = n) by (apply Permutation_length in P; simpl in P; lia).
      destruct (IH s1 rs' L1 H) as [-> [ys [-> [P2 S]]]].
      split; auto. exists (m :: ys). repeat split; auto.
      * now rewrite P, P2.
      * constructor; auto. apply Forall_forall. intros y Hy. apply M.
        rewrite P. right. now rewrite P2.
    + destruct B as [-> _]. discriminate.
Qed.
End P.
