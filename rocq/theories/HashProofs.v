From Verif Require Import Util HeapModel HashModel HashSpec.
Local Open Scope nat_scope.

Section P.
Context {A K : Type} (key_of : A -> K) (keq : K -> K -> bool) (hash : K -> N).

Notation kh x := (hash (key_of x)).
Definition elems (t : htab A) : list A := concat (buckets t).

Record hwf (t : htab A) : Prop := {
  wf_len : length (buckets t) = 2 ^ power t;
  wf_fill : forall i b, nth_error (buckets t) i = Some b -> length b < ffactor t;
  wf_idx : forall i b x, nth_error (buckets t) i = Some b -> In x b -> bidx (kh x) (power t) = i;
  wf_nel : nel t = length (elems t) }.

Lemma bidx_lt h p : bidx h p < 2 ^ p.
Proof.
  unfold bidx. rewrite N.land_ones.
  assert (H : (h mod 2 ^ N.of_nat p < 2 ^ N.of_nat p)%N) by (apply N.mod_lt; apply N.pow_nonzero; lia).
  apply Nat2Z.inj_lt. rewrite N_nat_Z, Nat2Z.inj_pow.
  apply N2Z.inj_lt in H. rewrite N2Z.inj_pow, nat_N_Z in H. exact H.
Qed.

Lemma bidx_inj_32 h1 h2 p : (h1 < 2 ^ 32)%N -> (h2 < 2 ^ 32)%N -> 32 <= p ->
  bidx h1 p = bidx h2 p -> h1 = h2.
Proof.
  intros H1 H2 Hp. unfold bidx. rewrite !N.land_ones. intros E. apply N2Nat.inj in E.
  assert (H : (2 ^ 32 <= 2 ^ N.of_nat p)%N) by (apply N.pow_le_mono_r; lia).
  rewrite !N.mod_small in E by lia. exact E.
Qed.

Lemma concat_upd (bs : list (list A)) i b b' :
  nth_error bs i = Some b -> Permutation (b ++ concat (upd bs i b')) (b' ++ concat bs).
Proof.
  revert i; induction bs as [|c bs IH]; intros [|i] H; simpl in *; try discriminate.
  - inversion H; subst. rewrite !app_assoc. apply Permutation_app_tail. apply Permutation_app_comm.
  - rewrite !app_assoc. rewrite (Permutation_app_comm b c), (Permutation_app_comm b' c).
    rewrite <- !app_assoc. apply Permutation_app_head. auto.
Qed.

Lemma concat_repeat_nil n : concat (repeat (@nil A) n) = [].
Proof. induction n; simpl; auto. Qed.

Lemma nth_error_repeat_inv {B} (x y : B) n i : nth_error (repeat x n) i = Some y -> y = x.
Proof. intros H. apply nth_error_In in H. now apply repeat_spec in H. Qed.

Lemma hwf_empty ff p : 0 < ff -> hwf (mkH (repeat [] (2 ^ p)) 0 ff p).
Proof.
  intros Hf. constructor; simpl.
  - apply repeat_length.
  - intros i b H. apply nth_error_repeat_inv in H. subst. simpl; lia.
  - intros i b x H. apply nth_error_repeat_inv in H. subst. simpl; tauto.
  - unfold elems; simpl. now rewrite concat_repeat_nil.
Qed.

Lemma bucket_at t h : hwf t -> exists b, nth_error (buckets t) (bidx h (power t)) = Some b.
Proof. intros W. apply nth_error_lt_Some. rewrite (wf_len _ W). apply bidx_lt. Qed.

Lemma go_set_all f l tmp :
  (fix go (l : list A) (tmp : htab A) : hres (htab A) :=
            match l with
            | [] => HOk tmp
            | y :: l' => match hash_set key_of hash f tmp y (kh y) with
                         | HOk tmp' => go l' tmp'
                         | HUB => HUB
                         | HFuel => HFuel
                         end
            end) l tmp = hash_set_all key_of hash f tmp l.
Proof. revert tmp; induction l as [|y l IH]; intros tmp; simpl; auto.
       destruct (hash_set key_of hash f tmp y (kh y)); auto. Qed.

Lemma hash_set_unfold f t x hv :
  hash_set key_of hash (S f) t x hv =
    match nth_error (buckets t) (bidx hv (power t)) with
    | None => HUB
    | Some b =>
      if length b <? ffactor t then
        let t1 := mkH (upd (buckets t) (bidx hv (power t)) (b ++ [x])) (S (nel t)) (ffactor t) (power t) in
        if ffactor t <=? length (b ++ [x]) then
          hash_set_all key_of hash f (mkH (repeat [] (2 ^ S (power t))) 0 (ffactor t) (S (power t))) (elems t1)
        else HOk t1
      else HUB
    end.
Proof.
  cbn [hash_set]. destruct (nth_error _ _); auto. destruct (_ <? _); auto.
  destruct (_ <=? _); auto. apply go_set_all.
Qed.

(** appending to one bucket *)
Lemma wf_append t x b :
  hwf t -> nth_error (buckets t) (bidx (kh x) (power t)) = Some b ->
  let t1 := mkH (upd (buckets t) (bidx (kh x) (power t)) (b ++ [x])) (S (nel t)) (ffactor t) (power t) in
  Permutation (elems t1) (x :: elems t) /\ (length (b ++ [x]) < ffactor t -> hwf t1).
Proof.
  intros W E t1. set (i := bidx (kh x) (power t)) in *.
  assert (P : Permutation (elems t1) (x :: elems t)).
  { apply Permutation_app_inv_l with b. unfold elems, t1; simpl.
    rewrite (concat_upd _ _ _ (b ++ [x]) E). rewrite <- app_assoc. reflexivity. }
  split; auto. intros L. constructor; simpl.
  - rewrite length_upd. apply (wf_len _ W).
  - intros j c H. destruct (Nat.eq_dec i j) as [<-|N].
    + rewrite nth_error_upd_eq in H by (eapply nth_error_Some_lt; eauto). inversion H; subst; auto.
    + rewrite nth_error_upd_neq in H by auto. eapply (wf_fill _ W); eauto.
  - intros j c y H Hy. destruct (Nat.eq_dec i j) as [<-|N].
    + rewrite nth_error_upd_eq in H by (eapply nth_error_Some_lt; eauto). inversion H; subst c.
      apply in_app_iff in Hy as [Hy|[<-|[]]]; auto. eapply (wf_idx _ W); eauto.
    + rewrite nth_error_upd_neq in H by auto. eapply (wf_idx _ W); eauto.
  - rewrite (wf_nel _ W). symmetry. exact (Permutation_length P).
Qed.

Lemma hash_set_ok : forall fuel,
  (forall t x, hwf t ->
     hash_set key_of hash fuel t x (kh x) <> HUB /\
     forall t', hash_set key_of hash fuel t x (kh x) = HOk t' ->
       hwf t' /\ ffactor t' = ffactor t /\ Permutation (elems t') (x :: elems t)) /\
  (forall l t, hwf t ->
     hash_set_all key_of hash fuel t l <> HUB /\
     forall t', hash_set_all key_of hash fuel t l = HOk t' ->
       hwf t' /\ ffactor t' = ffactor t /\ Permutation (elems t') (l ++ elems t)).
Proof.
  induction fuel as [|f [IHs IHa]].
  - assert (S0 : forall t x, hwf t ->
     hash_set key_of hash 0 t x (kh x) <> HUB /\
     forall t', hash_set key_of hash 0 t x (kh x) = HOk t' ->
       hwf t' /\ ffactor t' = ffactor t /\ Permutation (elems t') (x :: elems t)).
    { intros t x W. cbn. split; [discriminate|]. intros; discriminate. }
    split; [exact S0|]. intros [|x l] t W; cbn.
    + split; [discriminate|]. intros t' [= <-]. auto.
    + split; [discriminate|]. intros; discriminate.
  - assert (SS : forall t x, hwf t ->
     hash_set key_of hash (S f) t x (kh x) <> HUB /\
     forall t', hash_set key_of hash (S f) t x (kh x) = HOk t' ->
       hwf t' /\ ffactor t' = ffactor t /\ Permutation (elems t') (x :: elems t)).
    { intros t x W. rewrite hash_set_unfold.
      destruct (bucket_at t (kh x) W) as [b E]. rewrite E.
      pose proof (wf_fill _ W _ _ E) as F.
      destruct (Nat.ltb_spec (length b) (ffactor t)); [|lia].
      destruct (wf_append t x b W E) as [P W1]. cbv zeta in *.
      set (t1 := mkH (upd (buckets t) (bidx (kh x) (power t)) (b ++ [x])) (S (nel t)) (ffactor t) (power t)) in *.
      destruct (Nat.leb_spec (ffactor t) (length (b ++ [x]))).
      - destruct (IHa (elems t1) (mkH (repeat [] (2 ^ S (power t))) 0 (ffactor t) (S (power t)))
           ltac:(apply hwf_empty; lia)) as [U O].
        split; auto. intros t' Et. destruct (O _ Et) as [W' [Ff P']].
        split; auto. split; auto. rewrite P'. unfold elems at 2. cbn [buckets]. rewrite concat_repeat_nil, app_nil_r. exact P.
      - split; [discriminate|]. intros t' [= <-]. auto. }
    split; [exact SS|]. induction l as [|x l IHl]; intros t W.
    + cbn. split; [discriminate|]. intros t' [= <-]. auto.
    + cbn [hash_set_all]. destruct (SS t x W) as [U O].
      destruct (hash_set key_of hash (S f) t x (kh x)) as [t1| |] eqn:E; [|congruence|].
      * destruct (O _ eq_refl) as [W1 [F1 P1]]. destruct (IHl t1 W1) as [U2 O2].
        split; auto. intros t' Et. destruct (O2 _ Et) as [W2 [F2 P2]].
        split; auto. split; [congruence|]. rewrite P2, P1. simpl. symmetry. apply Permutation_middle.
      * split; [discriminate|]. intros; discriminate.
Qed.

(** ** Termination *)
Definition same_hash (h : N) (l : list A) : nat := length (filter (fun x => (kh x =? h)%N) l).

Lemma same_hash_perm h l l' : Permutation l l' -> same_hash h l = same_hash h l'.
Proof.
  intros P. unfold same_hash. induction P; simpl; auto; try congruence.
  - destruct (_ =? _)%N; simpl; auto.
  - destruct (_ =? _)%N, (_ =? _)%N; simpl; auto.
Qed.

Lemma same_hash_app h l l' : same_hash h (l ++ l') = same_hash h l + same_hash h l'.
Proof. unfold same_hash. now rewrite filter_app, app_length. Qed.

Lemma same_hash_all h l : (forall x, In x l -> kh x = h) -> same_hash h l = length l.
Proof.
  intros H. unfold same_hash. f_equal. induction l as [|x l IH]; simpl; auto.
  rewrite (H x (or_introl eq_refl)), N.eqb_refl. f_equal. apply IH. intros; apply H; now right.
Qed.

Lemma bucket_sub (bs : list (list A)) i b : nth_error bs i = Some b -> exists r, Permutation (concat bs) (b ++ r).
Proof.
  intros H. exists (concat (upd bs i [])).
  pose proof (concat_upd bs i b [] H) as P. simpl in P. now symmetry.
Qed.

Lemma hash_set_terminates : forall fuel,
  (forall t x, hwf t -> 1 <= fuel -> 33 <= fuel + power t ->
     (forall y, In y (x :: elems t) -> (kh y < 2 ^ 32)%N) ->
     (forall h, same_hash h (x :: elems t) < ffactor t) ->
     hash_set key_of hash fuel t x (kh x) <> HFuel /\
     forall t', hash_set key_of hash fuel t x (kh x) = HOk t' -> power t <= power t') /\
  (forall l t, hwf t -> 1 <= fuel -> 33 <= fuel + power t ->
     (forall y, In y (l ++ elems t) -> (kh y < 2 ^ 32)%N) ->
     (forall h, same_hash h (l ++ elems t) < ffactor t) ->
     hash_set_all key_of hash fuel t l <> HFuel /\
     forall t', hash_set_all key_of hash fuel t l = HOk t' -> power t <= power t').
Proof.
  induction fuel as [|f [IHs IHa]]; [split; intros; lia|].
  assert (SS : forall t x, hwf t -> 1 <= S f -> 33 <= S f + power t ->
     (forall y, In y (x :: elems t) -> (kh y < 2 ^ 32)%N) ->
     (forall h, same_hash h (x :: elems t) < ffactor t) ->
     hash_set key_of hash (S f) t x (kh x) <> HFuel /\
     forall t', hash_set key_of hash (S f) t x (kh x) = HOk t' -> power t <= power t').
  { intros t x W _ Hfp B32 SH. rewrite hash_set_unfold.
    destruct (bucket_at t (kh x) W) as [b E]. rewrite E.
    pose proof (wf_fill _ W _ _ E) as F.
    destruct (Nat.ltb_spec (length b) (ffactor t)); [|lia].
    destruct (wf_append t x b W E) as [P W1]. cbv zeta in *.
    set (t1 := mkH (upd (buckets t) (bidx (kh x) (power t)) (b ++ [x])) (S (nel t)) (ffactor t) (power t)) in *.
    destruct (Nat.leb_spec (ffactor t) (length (b ++ [x]))) as [HF|HF].
    2:{ split; [discriminate|]. intros t' [= <-]. simpl. lia. }
    assert (Hp : power t < 32).
    { destruct (Nat.lt_ge_cases (power t) 32) as [|Hge]; auto. exfalso.
      destruct (bucket_sub _ _ _ E) as [r Pr].
      assert (AllH : forall y, In y (b ++ [x]) -> kh y = kh x).
      { intros y Hy. apply in_app_iff in Hy as [Hy|[<-|[]]]; auto.
        apply bidx_inj_32 with (power t); auto.
        - apply B32. right. unfold elems. rewrite Pr. apply in_app_iff; auto.
        - apply B32. now left.
        - eapply (wf_idx _ W); eauto. }
      specialize (SH (kh x)).
      rewrite (same_hash_perm _ (x :: elems t) ((b ++ [x]) ++ r)) in SH.
      - rewrite same_hash_app, same_hash_all in SH by auto. lia.
      - unfold elems. rewrite Pr. rewrite <- app_assoc. simpl. apply Permutation_middle. }
    destruct (IHa (elems t1) (mkH (repeat [] (2 ^ S (power t))) 0 (ffactor t) (S (power t)))) as [N1 N2].
    - apply hwf_empty; lia.
    - lia.
    - cbn [power]. lia.
    - intros y Hy. unfold elems at 2 in Hy. cbn [buckets] in Hy. rewrite concat_repeat_nil, app_nil_r in Hy.
      apply B32. now rewrite <- P.
    - intros h. unfold elems at 2. cbn [buckets ffactor]. rewrite concat_repeat_nil, app_nil_r.
      rewrite (same_hash_perm _ _ _ P). apply SH.
    - split; auto. intros t' Et. apply N2 in Et. cbn [power] in Et. lia. }
  split; [exact SS|].
  induction l as [|x l IHl]; intros t W H1 Hfp B32 SH.
  - cbn. split; [discriminate|]. intros t' [= <-]. lia.
  - cbn [hash_set_all].
    destruct (SS t x W H1 Hfp) as [N1 N2].
    + intros y [<-|Hy]; apply B32; [now left|]. simpl. right. apply in_app_iff; auto.
    + intros h. specialize (SH h). change (x :: elems t) with ([x] ++ elems t).
      change ((x :: l) ++ elems t) with ([x] ++ l ++ elems t) in SH. rewrite !same_hash_app in *. lia.
    + destruct (proj1 (hash_set_ok (S f)) t x W) as [U O].
      destruct (hash_set key_of hash (S f) t x (kh x)) as [t1| |] eqn:E; [|congruence|congruence].
      destruct (O _ eq_refl) as [W1 [F1 P1]]. pose proof (N2 _ eq_refl) as Pw.
      assert (PP : Permutation (l ++ elems t1) ((x :: l) ++ elems t)).
      { rewrite P1. simpl. symmetry. apply Permutation_middle. }
      destruct (IHl t1 W1 H1) as [M1 M2].
      * lia.
      * intros y Hy. apply B32. now rewrite <- PP.
      * intros h. rewrite (same_hash_perm _ _ _ PP), F1. apply SH.
      * split; auto. intros t' Et. apply M2 in Et. lia.
Qed.

(** divergence: ffactor elements with one hash value *)
Lemma hash_set_all_diverges : forall fuel (ff p : nat) h l,
  1 <= ff -> ff <= length l -> (forall x, In x l -> kh x = h) ->
  forall t, hwf t -> ffactor t = ff -> (forall x, In x (elems t) -> kh x = h) ->
  hash_set_all key_of hash fuel t l = HFuel.
Proof.
  induction fuel as [|f IH]; intros ff p h l Hff Hl Hh.
  - intros t W F HE. destruct l as [|x l]; simpl in *; [lia|reflexivity].
  - (* generalise over the number already stored *)
    assert (G : forall l t, hwf t -> ffactor t = ff -> (forall x, In x (elems t) -> kh x = h) ->
              (forall x, In x l -> kh x = h) -> ff <= length l + length (elems t) -> length (elems t) < ff ->
              hash_set_all key_of hash (S f) t l = HFuel).
    { clear l Hl Hh. induction l as [|x l IHl]; intros t W F HE Hh Hl Hlt; simpl in Hl; [lia|].
      cbn [hash_set_all]. pose proof (proj1 (hash_set_ok (S f)) t x W) as [U O].
      rewrite hash_set_unfold in *. destruct (bucket_at t (kh x) W) as [b E]. rewrite E in *.
      pose proof (wf_fill _ W _ _ E) as Fl.
      destruct (Nat.ltb_spec (length b) (ffactor t)); [|lia].
      destruct (wf_append t x b W E) as [P W1]. cbv zeta in *.
      set (t1 := mkH (upd (buckets t) (bidx (kh x) (power t)) (b ++ [x])) (S (nel t)) (ffactor t) (power t)) in *.
      assert (HE1 : forall y, In y (elems t1) -> kh y = h).
      { intros y Hy. rewrite P in Hy. destruct Hy as [<-|Hy]; auto. apply Hh; now left. }
      destruct (Nat.leb_spec (ffactor t) (length (b ++ [x]))) as [HF|HF].
      - rewrite (IH ff 0 h (elems t1)); auto.
        + destruct (bucket_sub (buckets t1) (bidx (kh x) (power t)) (b ++ [x])) as [r Pr].
          { unfold t1; simpl. apply nth_error_upd_eq. eapply nth_error_Some_lt; eauto. }
          unfold elems. apply Permutation_length in Pr. rewrite app_length in Pr. lia.
        + apply hwf_empty; lia.
        + intros y Hy. unfold elems in Hy. cbn [buckets] in Hy. rewrite concat_repeat_nil in Hy. destruct Hy.
      - assert (L1 : length (elems t1) = S (length (elems t))) by (apply Permutation_length in P; exact P).
        apply IHl; auto.
        + intros y Hy; apply Hh; now right.
        + lia.
        + (* still below ff: all elements are in one bucket *)
          rewrite L1. apply Nat.lt_le_trans with (S (length (b ++ [x]))); [|simpl; lia].
          assert (Eb : Permutation (elems t) b).
          { destruct (bucket_sub _ _ _ E) as [r Pr]. fold (elems t) in Pr.
            destruct r as [|y r]; [now rewrite app_nil_r in Pr|]. exfalso.
            (* y lives in another bucket although its hash is the same *)
            assert (Hy : In y (concat (upd (buckets t) (bidx (kh x) (power t)) []))).
            { assert (Pc : Permutation (b ++ concat (upd (buckets t) (bidx (kh x) (power t)) [])) (b ++ y :: r)).
              { rewrite (concat_upd _ _ _ [] E). simpl. exact Pr. }
              apply Permutation_app_inv_l in Pc. rewrite Pc. now left. }
            apply in_concat in Hy as [c [Hc Hy]]. apply In_nth_error in Hc as [j Hj].
            destruct (Nat.eq_dec (bidx (kh x) (power t)) j) as [Ej|Nj].
            - rewrite <- Ej in Hj. rewrite nth_error_upd_eq in Hj by (eapply nth_error_Some_lt; eauto).
              inversion Hj; subst. destruct Hy.
            - rewrite nth_error_upd_neq in Hj by auto.
              pose proof (wf_idx _ W _ _ _ Hj Hy) as I1. apply Nj. rewrite <- I1.
              f_equal. rewrite (Hh x (or_introl eq_refl)). symmetry. apply HE.
              unfold elems. apply in_concat. exists c. split; auto. eapply nth_error_In; eauto. }
          rewrite (Permutation_length Eb), app_length. simpl. lia. }
    intros t W F HE. destruct (Nat.lt_ge_cases (length (elems t)) ff) as [Hlt|Hge].
    + apply G; auto. lia.
    + (* impossible or immediate: a wf table with all equal hashes holds fewer than ff *)
      exfalso. destruct (bucket_at t h W) as [b E].
      assert (Eb : length (elems t) <= length b).
      { destruct (bucket_sub _ _ _ E) as [r Pr]. fold (elems t) in Pr.
        destruct r as [|y r]; [rewrite app_nil_r in Pr; now rewrite (Permutation_length Pr)|]. exfalso.
        assert (Hy : In y (concat (upd (buckets t) (bidx h (power t)) []))).
        { assert (Pc : Permutation (b ++ concat (upd (buckets t) (bidx h (power t)) [])) (b ++ y :: r)).
          { rewrite (concat_upd _ _ _ [] E). simpl. exact Pr. }
          apply Permutation_app_inv_l in Pc. rewrite Pc. now left. }
        apply in_concat in Hy as [c [Hc Hy]]. apply In_nth_error in Hc as [j Hj].
        destruct (Nat.eq_dec (bidx h (power t)) j) as [Ej|Nj].
        - rewrite <- Ej in Hj. rewrite nth_error_upd_eq in Hj by (eapply nth_error_Some_lt; eauto).
          inversion Hj; subst. destruct Hy.
        - rewrite nth_error_upd_neq in Hj by auto.
          pose proof (wf_idx _ W _ _ _ Hj Hy) as I1. apply Nj. rewrite <- I1.
          f_equal. symmetry. apply HE. unfold elems. apply in_concat. exists c. split; auto. eapply nth_error_In; eauto. }
      pose proof (wf_fill _ W _ _ E). lia.
Qed.

(** ** Map semantics *)
Hypothesis keq_spec : forall a b, keq a b = true <-> a = b.

Lemma bucket_find_some k b x : bucket_find key_of keq k b = Some x -> In x b /\ key_of x = k.
Proof.
  induction b as [|y b IH]; simpl; [discriminate|]. destruct (keq k (key_of y)) eqn:E.
  - intros [= <-]. apply keq_spec in E. auto.
  - intros H. apply IH in H. tauto.
Qed.
Lemma bucket_find_none k b x : bucket_find key_of keq k b = None -> In x b -> key_of x <> k.
Proof.
  induction b as [|y b IH]; simpl; [tauto|]. destruct (keq k (key_of y)) eqn:E; [discriminate|].
  intros H [<-|Hx]; auto. intros <-. assert (keq (key_of y) (key_of y) = true) by now apply keq_spec. congruence.
Qed.

(** refinement relation *)
Record R (m : amap) (t : htab A) : Prop := {
  R_wf : hwf t;
  R_nodup : NoDup (map key_of (elems t));
  R_map : forall k x, m k = Some x <-> In x (elems t) /\ key_of x = k }.

Lemma in_elems_bucket t x b : hwf t -> In x (elems t) ->
  nth_error (buckets t) (bidx (kh x) (power t)) = Some b -> In x b.
Proof.
  intros W H E. apply in_concat in H as [c [Hc Hx]]. apply In_nth_error in Hc as [j Hj].
  pose proof (wf_idx _ W _ _ _ Hj Hx). congruence.
Qed.

Lemma search_R m t k : R m t -> hash_search key_of keq hash t k = HOk (m k).
Proof.
  intros [W N M]. unfold hash_search. destruct (bucket_at t (hash k) W) as [b E]. rewrite E. f_equal.
  destruct (bucket_find key_of keq k b) as [x|] eqn:F.
  - apply bucket_find_some in F as [Hx Hk]. symmetry. apply M. split; auto.
    unfold elems. apply in_concat. exists b. split; auto. eapply nth_error_In; eauto.
  - destruct (m k) as [x|] eqn:Em; auto. exfalso. apply M in Em as [Hx Hk].
    eapply bucket_find_none; eauto. eapply in_elems_bucket; eauto. now rewrite Hk.
Qed.

Lemma find_pos_some k b p : find_pos key_of keq k b = Some p ->
  exists x, nth_error b p = Some x /\ key_of x = k.
Proof.
  revert p; induction b as [|y b IH]; simpl; intros p; [discriminate|].
  destruct (keq k (key_of y)) eqn:E.
  - intros [= <-]. apply keq_spec in E. simpl. eauto.
  - destruct (find_pos key_of keq k b) as [q|]; [|discriminate]. intros [= <-]. simpl. auto.
Qed.
Lemma find_pos_none k b x : find_pos key_of keq k b = None -> In x b -> key_of x <> k.
Proof.
  induction b as [|y b IH]; simpl; [tauto|]. destruct (keq k (key_of y)) eqn:E; [discriminate|].
  destruct (find_pos key_of keq k b); [discriminate|].
  intros _ [<-|Hx]; auto. intros <-. assert (keq (key_of y) (key_of y) = true) by now apply keq_spec. congruence.
Qed.

Lemma firstn_last_eq (l : list A) n x :
  length l = S n -> nth_error l n = Some x -> l = firstn n l ++ [x].
Proof.
  revert n; induction l as [|y l IH]; intros n L H; simpl in L; [lia|].
  destruct n as [|n]; simpl in *.
  - destruct l; [congruence | simpl in L; lia].
  - f_equal. apply IH; auto; lia.
Qed.

Lemma swap_remove_perm (b : list A) pos x last :
  nth_error b pos = Some x -> nth_error b (length b - 1) = Some last ->
  Permutation b (x :: firstn (length b - 1) (upd b pos last)).
Proof.
  intros Hx Hl. pose proof (nth_error_Some_lt _ _ _ Hx) as Hp.
  destruct (Nat.eq_dec pos (length b - 1)) as [->|Hne].
  - assert (x = last) by congruence. subst.
    rewrite (firstn_last_eq b (length b - 1) last) at 1; auto; try lia.
    rewrite Permutation_app_comm. simpl. constructor.
    assert (E : firstn (length b - 1) (upd b (length b - 1) last) = firstn (length b - 1) b).
    { clear. generalize (length b - 1). induction b as [|y b IH]; intros [|n]; simpl; auto. now rewrite IH. }
    now rewrite E.
  - pose proof (upd_Permutation b pos x last Hx) as P.
    assert (E : upd b pos last = firstn (length b - 1) (upd b pos last) ++ [last]).
    { apply firstn_last_eq; [rewrite length_upd; lia|]. rewrite nth_error_upd_neq; auto. }
    apply Permutation_cons_inv with last. rewrite P. rewrite E at 1.
    rewrite (Permutation_app_comm _ [last]). simpl. apply perm_swap.
Qed.

Lemma remove_ok t x : hwf t -> exists t', hash_remove key_of keq t x (kh x) = HOk t' /\ hwf t' /\
  ffactor t' = ffactor t /\ power t' = power t /\
  ((exists y, key_of y = key_of x /\ Permutation (elems t) (y :: elems t')) \/
   (t' = t /\ forall y, In y (elems t) -> key_of y <> key_of x)).
Proof.
  intros W. unfold hash_remove. destruct (bucket_at t (kh x) W) as [b E]. rewrite E.
  set (i := bidx (kh x) (power t)) in *.
  destruct (find_pos key_of keq (key_of x) b) as [pos|] eqn:Fp.
  - destruct (find_pos_some _ _ _ Fp) as [y [Hy Ky]].
    pose proof (nth_error_Some_lt _ _ _ Hy) as Hpos.
    destruct (nth_error_lt_Some b (length b - 1)) as [last Hl]; [lia|]. rewrite Hl.
    pose proof (swap_remove_perm b pos y last Hy Hl) as P.
    set (b' := firstn (length b - 1) (upd b pos last)) in *.
    assert (PE : Permutation (elems t) (y :: concat (upd (buckets t) i b'))).
    { apply Permutation_app_inv_l with b'. unfold elems.
      rewrite <- (concat_upd _ _ _ b' E). rewrite P at 1. simpl. apply Permutation_middle. }
    eexists. split; [reflexivity|]. split; [|split; [reflexivity|split; [reflexivity|]]].
    + constructor; simpl.
      * rewrite length_upd. apply (wf_len _ W).
      * intros j c H. destruct (Nat.eq_dec i j) as [<-|N].
        -- rewrite nth_error_upd_eq in H by (eapply nth_error_Some_lt; eauto). inversion H; subst c.
           pose proof (wf_fill _ W _ _ E). apply Permutation_length in P. simpl in P. lia.
        -- rewrite nth_error_upd_neq in H by auto. eapply (wf_fill _ W); eauto.
      * intros j c z H Hz. destruct (Nat.eq_dec i j) as [<-|N].
        -- rewrite nth_error_upd_eq in H by (eapply nth_error_Some_lt; eauto). inversion H; subst c.
           eapply (wf_idx _ W); eauto. rewrite P. now right.
        -- rewrite nth_error_upd_neq in H by auto. eapply (wf_idx _ W); eauto.
      * rewrite (wf_nel _ W). apply Permutation_length in PE. simpl in PE. unfold elems in *. simpl in *. lia.
    + left. exists y. split; auto.
  - exists t. repeat split; auto; try apply W. right. split; auto.
    intros y Hy Ey. eapply find_pos_none; eauto. eapply in_elems_bucket; eauto. unfold i in E. now rewrite Ey.
Qed.

Lemma step_R fuel m t o : R m t ->
  hash_step key_of keq hash fuel t o <> HUB /\
  forall t' r, hash_step key_of keq hash fuel t o = HOk (t', r) ->
    r = snd (map_step key_of keq m o) /\ R (fst (map_step key_of keq m o)) t' /\ ffactor t' = ffactor t.
Proof.
  intros HR. pose proof HR as [W N M]. destruct o as [x|k|x]; cbn [hash_step map_step].
  - rewrite (search_R m t _ HR). destruct (m (key_of x)) as [y|] eqn:Em.
    + split; [discriminate|]. intros t' r [= <- <-]. auto.
    + destruct (proj1 (hash_set_ok fuel) t x W) as [U O].
      destruct (hash_set key_of hash fuel t x (kh x)) as [t1| |] eqn:E; [|congruence|split; [discriminate|intros; discriminate]].
      split; [discriminate|]. intros t' r [= <- <-]. destruct (O _ eq_refl) as [W1 [F1 P1]].
      split; auto. split; auto. cbn [fst].
      assert (Fresh : forall y, In y (elems t) -> key_of y <> key_of x).
      { intros y Hy Ey. assert (m (key_of x) = Some y) by (apply M; auto). congruence. }
      constructor; auto.
      * rewrite P1. simpl. constructor; auto. intros Hin. apply in_map_iff in Hin as [y [Ey Hy]]. eapply Fresh; eauto.
      * intros k y. rewrite P1. destruct (keq k (key_of x)) eqn:Ek.
        -- apply keq_spec in Ek. subst k. split.
           ++ intros [= <-]. split; auto. now left.
           ++ intros [[<-|Hy] Ey]; auto. exfalso. eapply Fresh; eauto.
        -- rewrite M. split; [intros [? ?]; split; auto; now right|].
           intros [[<-|Hy] Ey]; auto. exfalso. subst k.
           assert (keq (key_of x) (key_of x) = true) by now apply keq_spec. congruence.
  - rewrite (search_R m t _ HR). split; [discriminate|]. intros t' r [= <- <-]. auto.
  - destruct (remove_ok t x W) as [t1 [E [W1 [F1 [_ D]]]]]. rewrite E.
    split; [discriminate|]. intros t' r [= <- <-]. split; auto. split; auto. cbn [fst].
    destruct D as [[y [Ky P]]|[-> NK]].
    + assert (N1 : NoDup (map key_of (y :: elems t1))) by now rewrite <- P.
      simpl in N1. inversion N1 as [|? ? Nin N1']; subst.
      constructor; auto. intros k z. destruct (keq k (key_of x)) eqn:Ek.
      * apply keq_spec in Ek. subst k. split; [discriminate|]. intros [Hz Ez]. exfalso.
        apply Nin. rewrite Ky, <- Ez. now apply in_map.
      * rewrite M. rewrite P. split; [|intros [? ?]; split; auto; now right].
        intros [[<-|Hz] Ez]; auto. exfalso. subst k. rewrite Ky in Ek.
        assert (keq (key_of x) (key_of x) = true) by now apply keq_spec. congruence.
    + constructor; auto. intros k z. destruct (keq k (key_of x)) eqn:Ek.
      * apply keq_spec in Ek. subst k. split; [discriminate|]. intros [Hz Ez]. exfalso. eapply NK; eauto.
      * apply M.
Qed.

Lemma run_R fuel ops : forall m t, R m t ->
  hash_run key_of keq hash fuel t ops <> HUB /\
  forall t' rs, hash_run key_of keq hash fuel t ops = HOk (t', rs) ->
    rs = snd (map_run key_of keq m ops) /\ R (fst (map_run key_of keq m ops)) t' /\ ffactor t' = ffactor t.
Proof.
  induction ops as [|o ops IH]; intros m t HR; cbn [hash_run map_run].
  - split; [discriminate|]. intros t' rs [= <- <-]. auto.
  - destruct (step_R fuel m t o HR) as [U O].
    destruct (hash_step key_of keq hash fuel t o) as [[t1 r1]| |] eqn:E; [|congruence|split; [discriminate|intros; discriminate]].
    destruct (O _ _ eq_refl) as [-> [R1 F1]].
    destruct (map_step key_of keq m o) as [m1 r]; simpl in *.
    destruct (IH m1 t1 R1) as [U2 O2].
    destruct (hash_run key_of keq hash fuel t1 ops) as [[t2 rs2]| |] eqn:E2; [|congruence|split; [discriminate|intros; discriminate]].
    split; [discriminate|]. intros t' rs [= <- <-]. destruct (O2 _ _ eq_refl) as [-> [R2 F2]].
    destruct (map_run key_of keq m1 ops) as [m2 rs]; simpl in *. split; auto. split; auto. congruence.
Qed.

Lemma R_make n ff : 0 < ff -> R amap_empty (hash_make n ff).
Proof.
  intros H. constructor; [apply hwf_empty; auto| |].
  - unfold elems, hash_make; simpl. rewrite concat_repeat_nil. constructor.
  - intros k x. unfold elems, hash_make; simpl. rewrite concat_repeat_nil. split; [discriminate|]. intros [[] _].
Qed.

(** ** Termination of runs *)
Definition few (h : N) (l : list A) (n : nat) : Prop :=
  forall d, NoDup (map key_of d) -> incl d l -> (forall x, In x d -> kh x = h) -> length d < n.
Lemma few_incl h l l' n : incl l' l -> few h l n -> few h l' n.
Proof. intros I F d ND ID HD. apply F; auto. intros x Hx. apply I, ID, Hx. Qed.
Lemma few_same h l n : NoDup (map key_of l) -> few h l n -> same_hash h l < n.
Proof.
  intros ND F. unfold same_hash. apply F.
  - clear F. induction l as [|x l IH]; cbn [map filter] in *; [constructor|]. inversion ND as [|? ? NI ND']; subst.
    destruct (kh x =? h)%N; [|apply IH; assumption]. cbn [map]. constructor; [|apply IH; assumption].
    intro H. apply NI. apply in_map_iff in H. destruct H as (y & Ky & Hy). apply filter_In in Hy. apply in_map_iff. exists y. tauto.
  - intros x Hx. apply filter_In in Hx. tauto.
  - intros x Hx. apply filter_In in Hx. apply N.eqb_eq. tauto.
Qed.
Lemma run_terminates fuel ops : 33 <= fuel ->
  forall m t, R m t ->
  (forall x, In x (added ops ++ elems t) -> (kh x < 2 ^ 32)%N) ->
  (forall h, few h (added ops ++ elems t) (ffactor t)) ->
  hash_run key_of keq hash fuel t ops <> HFuel.
Proof.
  intros HF. induction ops as [|o ops IH]; intros m t HR B SH; cbn [hash_run]; [discriminate|].
  destruct (step_R fuel m t o HR) as [U O].
  pose proof HR as [W N M].
  assert (Hstep : hash_step key_of keq hash fuel t o <> HFuel /\
     forall t1 r1, hash_step key_of keq hash fuel t o = HOk (t1, r1) -> incl (added ops ++ elems t1) (added (o :: ops) ++ elems t)).
  { destruct o as [x|k|x]; cbn [hash_step] in *.
    - cbn [added flat_map app] in B, SH |- *. fold (added ops) in B, SH |- *.
      rewrite (search_R m t _ HR) in *. destruct (m (key_of x)) as [y|] eqn:MK.
      + split; [discriminate|]. intros t1 r1 [= <- <-]. intros z Hz. now right.
      + destruct (proj1 (hash_set_terminates fuel) t x W) as [T1 T2]; try lia.
        * intros y [<-|Hy]; apply B; [now left|]. right. apply in_app_iff; auto.
        * intros h. apply few_same.
          -- cbn [map]. constructor; [|exact N]. intro H. apply in_map_iff in H. destruct H as (y & Ky & Hy).
             destruct (M (key_of x) y) as [_ M2]. rewrite MK in M2. discriminate M2. auto.
          -- eapply few_incl; [|apply SH]. intros y [<-|Hy]; [now left|]. right. apply in_app_iff; auto.
        * destruct (proj1 (hash_set_ok fuel) t x W) as [_ O3].
          destruct (hash_set key_of hash fuel t x (kh x)) as [t1| |] eqn:E; [|split; [discriminate|intros; discriminate]|congruence].
          split; [discriminate|]. intros t2 r2 [= <- <-]. destruct (O3 _ eq_refl) as [_ [_ P3]].
          intros z Hz. apply in_app_iff in Hz. destruct Hz as [Hz|Hz]; [right; apply in_app_iff; auto|].
          rewrite P3 in Hz. destruct Hz as [<-|Hz]; [now left|right; apply in_app_iff; auto].
    - rewrite (search_R m t _ HR) in *. split; [discriminate|]. intros t1 r1 [= <- <-]. apply incl_refl.
    - destruct (remove_ok t x W) as [t1 [E [W1 [F1 [_ D]]]]]. rewrite E in *.
      split; [discriminate|]. intros t2 r2 [= <- <-]. cbn [added flat_map app] in *. fold (added ops) in *.
      destruct D as [[y [Ky P]]|[-> NK]]; [|apply incl_refl].
      intros z Hz. rewrite in_app_iff in *. rewrite P. simpl. tauto. }
  destruct Hstep as [HS1 HS2].
  destruct (hash_step key_of keq hash fuel t o) as [[t1 r1]| |] eqn:E; [|discriminate|congruence].
  destruct (O _ _ eq_refl) as [_ [R1 F1]]. pose proof (HS2 _ _ eq_refl) as I1.
  specialize (IH _ t1 R1 ltac:(intros z Hz; apply B, I1, Hz) ltac:(intros h; rewrite F1; eapply few_incl; [exact I1|apply SH])).
  destruct (hash_run key_of keq hash fuel t1 ops) as [[]| |]; try discriminate. congruence.
Qed.
End P.

Section Iter.
Context {A : Type}.
(** ** Iteration *)
Lemma nth_fill (t : htab A) b c : nth_error (buckets t) b = Some c -> fill t b = length c.
Proof. intros H. unfold fill. erewrite nth_error_nth; eauto. Qed.

Lemma skipn_nth (bs : list (list A)) b c : nth_error bs b = Some c -> skipn b bs = c :: skipn (S b) bs.
Proof.
  revert b; induction bs as [|d bs IH]; intros [|b] H; simpl in *; try discriminate; [congruence|].
  apply IH in H. exact H.
Qed.

Lemma next_bucket_spec (t : htab A) : forall n b, n + b = length (buckets t) ->
  match next_bucket t n b with
  | Some b' => exists c, nth_error (buckets t) b' = Some c /\ c <> [] /\ b <= b' /\
               concat (skipn b (buckets t)) = concat (skipn b' (buckets t))
  | None => concat (skipn b (buckets t)) = []
  end.
Proof.
  induction n as [|n IH]; intros b H; cbn [next_bucket].
  - rewrite skipn_all2 by lia. reflexivity.
  - destruct (nth_error_lt_Some (buckets t) b) as [c Hc]; [lia|].
    rewrite (nth_fill _ _ _ Hc). destruct (Nat.eqb_spec (length c) 0) as [E|E].
    + specialize (IH (S b) ltac:(lia)). destruct c; [|discriminate].
      rewrite (skipn_nth _ _ _ Hc). cbn [concat app].
      destruct (next_bucket t n (S b)) as [b'|]; auto.
      destruct IH as [c' [H1 [H2 [H3 H4]]]]. exists c'. repeat split; auto; lia.
    + exists c. repeat split; auto. destruct c; simpl in *; congruence.
Qed.

Definition rest (t : htab A) (ix : nat * nat) : list A :=
  match nth_error (buckets t) (fst ix) with
  | Some c => skipn (snd ix) c ++ concat (skipn (S (fst ix)) (buckets t))
  | None => []
  end.

Lemma skipn_cons_nth {B} (l : list B) n x : nth_error l n = Some x -> skipn n l = x :: skipn (S n) l.
Proof. revert n; induction l as [|y l IH]; intros [|n] H; simpl in *; try discriminate; [congruence|]. now apply IH in H. Qed.

Lemma iter_rest (t : htab A) : forall fuel b e c, nth_error (buckets t) b = Some c -> e < length c ->
  length (rest t (b, e)) <= fuel -> hash_iter fuel t (Some (b, e)) = HOk (rest t (b, e)).
Proof.
  induction fuel as [|f IH]; intros b e c Hc He Hl.
  - exfalso. unfold rest in Hl. cbn [fst snd] in Hl. rewrite Hc in Hl. rewrite app_length, skipn_length in Hl. lia.
  - cbn [hash_iter]. unfold hash_this. cbn [fst snd]. rewrite Hc.
    destruct (nth_error_lt_Some c e He) as [x Hx]. rewrite Hx.
    assert (RE : rest t (b, e) = x :: skipn (S e) c ++ concat (skipn (S b) (buckets t))).
    { unfold rest. cbn [fst snd]. rewrite Hc. now rewrite (skipn_cons_nth _ _ _ Hx). }
    rewrite RE in *. cbn [length] in Hl. unfold hash_next. rewrite (nth_fill _ _ _ Hc).
    destruct (Nat.eqb_spec (length c) 0); [lia|]. cbn [negb andb].
    destruct (Nat.ltb_spec e (length c - 1)) as [H1|H1].
    + assert (RS : rest t (b, S e) = skipn (S e) c ++ concat (skipn (S b) (buckets t))).
      { unfold rest. cbn [fst snd]. now rewrite Hc. }
      rewrite (IH b (S e) c); auto; [now rewrite RS|lia|rewrite RS; lia].
    + pose proof (nth_error_Some_lt _ _ _ Hc) as Hb.
      pose proof (next_bucket_spec t (length (buckets t) - S b) (S b) ltac:(lia)) as NB.
      rewrite (skipn_all2 c) in * by lia. cbn [app] in *.
      destruct (next_bucket t (length (buckets t) - S b) (S b)) as [b'|].
      * destruct NB as [c' [H2 [H3 [H4 H5]]]].
        assert (RS : rest t (b', 0) = concat (skipn (S b) (buckets t))).
        { unfold rest. cbn [fst snd]. rewrite H2, H5. now rewrite (skipn_nth _ _ _ H2). }
        rewrite (IH b' 0 c'); auto; [now rewrite RS| |rewrite RS; lia].
        destruct c'; simpl; [congruence|lia].
      * rewrite NB. destruct f; reflexivity.
Qed.

Lemma iter_all (t : htab A) fuel : 0 < length (buckets t) -> length (elems t) <= fuel ->
  hash_iter fuel t (hash_first t) = HOk (elems t).
Proof.
  intros Hb Hf. unfold hash_first.
  destruct (nth_error_lt_Some (buckets t) 0 Hb) as [c Hc]. rewrite (nth_fill _ _ _ Hc).
  assert (EE : elems t = c ++ concat (skipn 1 (buckets t))).
  { unfold elems. rewrite <- (skipn_O (buckets t)) at 1. now rewrite (skipn_nth _ _ _ Hc). }
  destruct (Nat.ltb_spec 0 (length c)) as [H|H].
  - assert (RS : rest t (0, 0) = elems t) by (unfold rest; cbn [fst snd]; now rewrite Hc, EE).
    rewrite (iter_rest t fuel 0 0 c); auto; now rewrite RS.
  - destruct c; simpl in H; [|lia]. unfold hash_next. rewrite (nth_fill _ _ _ Hc). simpl length.
    cbn [Nat.eqb negb andb].
    pose proof (next_bucket_spec t (length (buckets t) - 1) 1 ltac:(lia)) as NB.
    cbn [app] in EE.
    destruct (next_bucket t (length (buckets t) - 1) 1) as [b'|].
    + destruct NB as [c' [H2 [H3 [H4 H5]]]].
      assert (RS : rest t (b', 0) = elems t).
      { unfold rest. cbn [fst snd]. rewrite H2, EE, H5. now rewrite (skipn_nth _ _ _ H2). }
      rewrite (iter_rest t fuel b' 0 c'); auto; [now rewrite RS| |now rewrite RS].
      destruct c'; simpl; [congruence|lia].
    + rewrite EE, NB. destruct fuel; reflexivity.
Qed.

End Iter.
