(** Proofs about one array of cells: which groups are printed from it. *)
From Verif Require Import Util HeapModel CollectModel ProcessModel ReportSpec ReportProofs ReportGroups.
From Coq Require Import Sorting.Permutation Sorting.Sorted.
Local Open Scope Z_scope.

(** ** Subsequences *)
Lemma subseq_refl {A} (l : list A) : subseq l l.
Proof. induction l; constructor; auto. Qed.
Lemma subseq_in {A} (a b : list A) x : subseq a b -> In x a -> In x b.
Proof. induction 1; cbn; intuition. Qed.
Lemma subseq_trans {A} (b c : list A) : subseq b c -> forall a, subseq a b -> subseq a c.
Proof.
  induction 1 as [c|x b c S IH|x b c S IH]; intros a H.
  - inversion H. constructor.
  - inversion H; subst; constructor; auto.
  - constructor. auto.
Qed.
Lemma subseq_sorted {A} (R : A -> A -> Prop) a b : subseq a b -> StronglySorted R b -> StronglySorted R a.
Proof.
  induction 1 as [c|x b c S IH|x b c S IH]; intros H; [constructor| |]; inversion H as [|? ? H1 H2]; subst; auto.
  constructor; auto. rewrite Forall_forall in *. intros y I. apply H2. eapply subseq_in; eauto.
Qed.
Lemma subseq_map {A B} (g : A -> B) a b : subseq a b -> subseq (map g a) (map g b).
Proof. induction 1; cbn; constructor; auto. Qed.
Lemma subseq_nodup {A} (a b : list A) : subseq a b -> NoDup b -> NoDup a.
Proof.
  induction 1 as [c|x b c S IH|x b c S IH]; intros H; [constructor| |]; inversion H; subst; auto.
  constructor; auto. intros I. eapply subseq_in in I; eauto.
Qed.

(** cells with some files set to NULL *)
Definition marked (a b : chk) : Prop := a = b \/ (k_hash a = k_hash b /\ k_file a = None).
Lemma marked_refl l : Forall2 marked l l.
Proof. induction l; constructor; auto. now left. Qed.
Lemma marked_trans a b : Forall2 marked a b -> forall c, Forall2 marked b c -> Forall2 marked a c.
Proof.
  induction 1 as [|x y a b M F IH]; intros c H; inversion H as [|? z ? ? M2 F2]; subst; constructor; auto.
  destruct M as [->|[M1 M3]]; auto. destruct M2 as [<-|[M4 M5]].
  - right. auto.
  - right. split; [congruence|auto].
Qed.
Lemma marked_subseq a b g : Forall2 marked a b -> Forall (fun k => k_file k <> None) g -> subseq g a -> subseq g b.
Proof.
  intros F. revert g. induction F as [|x y a b M F IH]; intros g N S.
  - exact S.
  - inversion S as [|z zs ? S1|z zs ? S1]; subst.
    + constructor.
    + inversion N; subst. destruct M as [->|[_ M]]; [|contradiction]. constructor. auto.
    + constructor. auto.
Qed.
Lemma marked_files a b : Forall2 marked a b -> subseq (cell_files a) (cell_files b).
Proof.
  induction 1 as [|x y a b M F IH]; [constructor|]. cbn [cell_files flat_map].
  fold (cell_files a) (cell_files b). destruct M as [->|[_ M]].
  - destruct (k_file y); cbn [app]; [constructor|]; auto.
  - rewrite M. destruct (k_file y); cbn [app]; [apply sub_skip|]; auto.
Qed.

Section Ar.
Variable compare : file -> file -> cmpres.

Lemma pairs_inv hv f cells : forall r' m s, pairs compare hv f cells = (r', m, s) ->
  Forall2 marked r' cells /\
  subseq (map (fun g => mkChk hv (Some g)) m) cells /\
  Permutation (cell_files cells) (m ++ cell_files r') /\
  Forall (fun g => compare f g = Equal) m.
Proof.
  induction cells as [|k r IH]; intros r' m s; cbn [pairs].
  - intros [= <- <- <-]. repeat split; constructor.
  - destruct (k_hash k =? hv)%N eqn:H.
    2:{ intros [= <- <- <-]. repeat split; try constructor; auto using marked_refl. now left. }
    assert (HK : k_hash k = hv) by lia.
    destruct (k_file k) as [g|] eqn:K.
    2:{ intros [= <- <- <-]. repeat split; try constructor; auto using marked_refl. now left. }
    assert (KE : k = mkChk hv (Some g)) by (destruct k; cbn in *; now subst).
    destruct (pairs compare hv f r) as [[r1 m1] s1]. destruct (IH _ _ _ eq_refl) as (A & B & C & D).
    destruct (compare f g) eqn:CM.
    + intros [= <- <- <-]. repeat split; try constructor; auto using marked_refl. now left.
    + intros [= <- <- <-]. repeat split; auto.
      * constructor; auto. now left.
      * now constructor.
      * cbn [cell_files flat_map]. rewrite K. cbn [app]. fold (cell_files r) (cell_files r1).
        rewrite C. apply Permutation_middle.
    + intros [= <- <- <-]. repeat split; auto.
      * constructor; auto. now left.
      * now constructor.
      * cbn [cell_files flat_map]. rewrite K. cbn [app]. fold (cell_files r) (cell_files r1).
        rewrite C. apply Permutation_middle.
    + intros [= <- <- <-]. repeat split; auto.
      * constructor; auto. right. auto.
      * cbn [map]. rewrite KE. now constructor.
      * cbn [cell_files flat_map]. rewrite K. cbn [app k_file]. fold (cell_files r) (cell_files r1).
        now constructor.
Qed.

(** what every printed group satisfies, whatever the comparisons return *)
Definition good_group (cells : list chk) (g : list file) : Prop :=
  exists f m hv, g = f :: m /\ m <> [] /\ Forall (fun x => compare f x = Equal) m /\
    subseq (map (fun x => mkChk hv (Some x)) g) cells.

Lemma report_array_inv fuel : forall cells gs s, report_array compare fuel cells = (gs, s) ->
  Forall (good_group cells) gs /\
  exists rest, Permutation (cell_files cells) (concat gs ++ rest).
Proof.
  induction fuel as [|fu IH]; intros [|k r] gs s; cbn [report_array];
    try (intros [= <- <-]; split; [constructor|exists (cell_files []); auto]; fail).
  - intros [= <- <-]. split; [constructor|]. exists (cell_files (k :: r)). auto.
  - destruct (k_file k) as [f|] eqn:K.
    + destruct (pairs compare (k_hash k) f r) as [[r' m] s1] eqn:P.
      destruct (pairs_inv _ _ _ _ _ _ P) as (A & B & C & D).
      assert (KE : k = mkChk (k_hash k) (Some f)) by (destruct k; cbn in *; now subst).
      assert (G : Forall (good_group (k :: r)) (if m then [] else [f :: m])).
      { destruct m as [|x m]; constructor; [|constructor]. exists f, (x :: m), (k_hash k).
        repeat split; auto; [discriminate|]. cbn [map] in *. rewrite <- KE. now constructor. }
      assert (CC : exists rest, Permutation (cell_files (k :: r)) (concat (if m then [] else [f :: m]) ++ rest ++ cell_files r')).
      { cbn [cell_files flat_map]. rewrite K. cbn [app]. fold (cell_files r).
        destruct m as [|x m]; cbn [concat app] in *.
        - exists [f]. cbn [app]. now constructor.
        - exists []. rewrite app_nil_r. cbn [app]. now constructor. }
      destruct CC as (rest & CC).
      destruct s1.
      * destruct (report_array compare fu r') as [gs1 s1] eqn:R. intros [= <- <-].
        destruct (IH _ _ _ R) as (GI & rest2 & PI). split.
        -- apply Forall_app. split; auto. eapply Forall_impl; [|exact GI].
           intros g (f' & m' & hv & E1 & E2 & E3 & E4). exists f', m', hv. repeat split; auto.
           apply sub_skip. eapply marked_subseq; eauto. apply Forall_forall.
           intros x I. apply in_map_iff in I as (y & <- & _). cbn. discriminate.
        -- exists (rest ++ rest2). rewrite CC, concat_app, <- app_assoc. apply Permutation_app_head.
           rewrite PI. rewrite !app_assoc. apply Permutation_app_tail. apply Permutation_app_comm.
      * intros [= <- <-]. split; auto. exists (rest ++ cell_files r'). exact CC.
      * intros [= <- <-]. split; auto. exists (rest ++ cell_files r'). exact CC.
      * intros [= <- <-]. split; auto. exists (rest ++ cell_files r'). exact CC.
    + intros E. destruct (IH _ _ _ E) as (GI & rest2 & PI). split.
      * eapply Forall_impl; [|exact GI].
        intros g (f' & m' & hv & E1 & E2 & E3 & E4). exists f', m', hv. repeat split; auto. now constructor.
      * exists rest2. cbn [cell_files flat_map]. rewrite K. exact PI.
Qed.

(** ** JSON arrays *)
Lemma json_pairs_eq hv f cells : json_pairs compare hv f cells = pairs compare hv f cells.
Proof.
  induction cells as [|k r IH]; cbn [json_pairs pairs]; auto. rewrite N.eqb_sym.
  destruct (_ =? _)%N; auto. destruct (k_file k); auto. destruct (compare f f0); auto; now rewrite IH.
Qed.
Definition jfiles (j : jset) : list file := snd j.
Lemma json_array_eq size fuel : forall cells,
  snd (json_array compare fuel size cells) = snd (report_array compare fuel cells) /\
  (snd (report_array compare fuel cells) = SOk ->
     map jfiles (fst (json_array compare fuel size cells)) = fst (report_array compare fuel cells)).
Proof.
  induction fuel as [|fu IH]; intros [|k r]; cbn [json_array report_array].
  - split; reflexivity.
  - split; [reflexivity|discriminate].
  - split; reflexivity.
  - destruct (k_file k) as [f|]; auto. rewrite json_pairs_eq.
    destruct (pairs compare (k_hash k) f r) as [[r' m] s1].
    destruct s1; cbn [fst snd]; try (split; [auto|discriminate]).
    destruct (IH r') as [A B]. destruct (json_array compare fu size r') as [g1 s1].
    destruct (report_array compare fu r') as [g2 s2]. cbn [fst snd] in *. split; auto.
    intros E. rewrite map_app. f_equal; auto. now destruct m.
Qed.

(** ** Complete arrays: equal hashes mean equal files *)
Definition with_hash (hv : N) (cells : list chk) : list file :=
  cell_files (filter (fun k => (k_hash k =? hv)%N) cells).

Definition hsorted (cells : list chk) : Prop := StronglySorted (fun a b => (k_hash a <= k_hash b)%N) cells.
(** all cells of a hash are set, or all are NULL *)
Definition uniform (cells : list chk) : Prop :=
  forall a b, In a cells -> In b cells -> k_hash a = k_hash b -> k_file a = None -> k_file b = None.
Definition all_equal (cells : list chk) : Prop :=
  forall a b f g, In a cells -> In b cells -> k_hash a = k_hash b ->
    k_file a = Some f -> k_file b = Some g -> compare f g = Equal.

Lemma pairs_complete hv f r : hsorted r -> (forall k, In k r -> (hv <= k_hash k)%N) ->
  (forall k, In k r -> k_hash k = hv -> exists g, k_file k = Some g /\ compare f g = Equal) ->
  exists r', pairs compare hv f r = (r', with_hash hv r, SOk) /\ Forall2 marked r' r /\
    (forall k, In k r' -> k_hash k = hv -> k_file k = None) /\
    (forall h, h <> hv -> filter (fun k => (k_hash k =? h)%N) r' = filter (fun k => (k_hash k =? h)%N) r).
Proof.
  induction r as [|k r IH]; intros S B E; cbn [pairs].
  - exists []. repeat split; auto. intros k [].
  - inversion S as [|? ? S1 S2]; subst. rewrite Forall_forall in S2.
    destruct (k_hash k =? hv)%N eqn:H.
    + destruct (E k (or_introl eq_refl)) as (g & K & CE); [lia|]. rewrite K, CE.
      destruct IH as (r' & P & M & N & F); auto.
      { intros x I. apply B. now right. } { intros x I. apply E. now right. }
      rewrite P. exists (mkChk (k_hash k) None :: r'). repeat split.
      * unfold with_hash. cbn [filter]. rewrite H. cbn [cell_files flat_map]. rewrite K. reflexivity.
      * constructor; auto. right. auto.
      * intros x [<-|I]; auto.
      * intros h NE. cbn [filter k_hash]. replace (k_hash k =? h)%N with false by lia. now apply F.
    + assert (X : forall x, In x (k :: r) -> k_hash x <> hv).
      { intros x [->|I]; [lia|]. apply S2 in I. specialize (B k (or_introl eq_refl)). lia. }
      exists (k :: r). repeat split; auto using marked_refl.
      * unfold with_hash. replace (filter _ (k :: r)) with (@nil chk); [reflexivity|].
        symmetry. clear -X. induction (k :: r) as [|y l IH]; auto. cbn [filter].
        assert (k_hash y <> hv) by (apply X; now left).
        replace (k_hash y =? hv)%N with false by lia. apply IH. intros z I. apply X. now right.
      * intros x I Y. destruct (X _ I Y).
Qed.

Lemma marked_length a b : Forall2 marked a b -> length a = length b.
Proof. induction 1; cbn; auto. Qed.
Lemma marked_in a b x : Forall2 marked a b -> In x a -> exists y, In y b /\ marked x y.
Proof.
  induction 1 as [|x' y a b M F IH]; [contradiction|]. intros [->|I].
  - exists y. split; [now left|auto].
  - destruct (IH I) as (z & I2 & M2). exists z. split; [now right|auto].
Qed.
Lemma marked_hsorted a b : Forall2 marked a b -> hsorted b -> hsorted a.
Proof.
  induction 1 as [|x y a b M F IH]; intros S; [constructor|]. inversion S as [|? ? S1 S2]; subst.
  constructor; [now apply IH|]. rewrite Forall_forall in *. intros z I.
  destruct (marked_in _ _ _ F I) as (w & I2 & M2). apply S2 in I2.
  assert (k_hash x = k_hash y) by (destruct M as [->|[]]; auto).
  assert (k_hash z = k_hash w) by (destruct M2 as [->|[]]; auto). lia.
Qed.

Lemma report_array_complete fuel : forall cells, (length cells <= fuel)%nat ->
  hsorted cells -> uniform cells -> all_equal cells ->
  exists gs, report_array compare fuel cells = (gs, SOk) /\
    (forall g, In g gs <-> exists hv, g = with_hash hv cells /\ (2 <= length g)%nat).
Proof.
  induction fuel as [|fu IH]; intros [|k r] L S U A; cbn [report_array].
  - exists []. split; auto. intros g. split; [intros []|]. intros (hv & -> & H). cbn in H. lia.
  - simpl in L. lia.
  - exists []. split; auto. intros g. split; [intros []|]. intros (hv & -> & H). cbn in H. lia.
  - inversion S as [|? ? S1 S2]; subst. rewrite Forall_forall in S2. simpl in L.
    destruct (k_file k) as [f|] eqn:K.
    + destruct (pairs_complete (k_hash k) f r S1 S2) as (r' & P & M & N & F).
      { intros x I E. destruct (k_file x) as [g|] eqn:X.
        - exists g. split; auto. apply (A k x); auto; [now left|now right].
        - exfalso. assert (k_file k = None); [|congruence]. apply (U x k); auto; [now right|now left]. }
      rewrite P. destruct (IH r') as (gs & R & G).
      { apply marked_length in M. lia. }
      { eapply marked_hsorted; eauto. }
      { intros a b Ia Ib E Na. destruct (N.eq_dec (k_hash a) (k_hash k)) as [Q|Q].
        - apply N; auto. congruence.
        - assert (Ia' : In a r).
          { apply (filter_In (fun x => (k_hash x =? k_hash a)%N)). rewrite <- F by auto.
            apply filter_In. split; auto. lia. }
          assert (Ib' : In b r).
          { apply (filter_In (fun x => (k_hash x =? k_hash a)%N)). rewrite <- F by auto.
            apply filter_In. split; auto. lia. }
          apply (U a b); auto; now right. }
      { intros a b x y Ia Ib E Fa Fb.
        destruct (marked_in _ _ _ M Ia) as (a' & Ia' & [->|[_ Q]]); [|congruence].
        destruct (marked_in _ _ _ M Ib) as (b' & Ib' & [->|[_ Q]]); [|congruence].
        eapply (A a' b'); eauto; now right. }
      rewrite R. eexists. split; [reflexivity|].
      assert (WK : with_hash (k_hash k) (k :: r) = f :: with_hash (k_hash k) r).
      { unfold with_hash. cbn [filter]. rewrite N.eqb_refl. cbn [cell_files flat_map]. rewrite K. reflexivity. }
      assert (WN : with_hash (k_hash k) r' = []).
      { unfold with_hash. clear -N. induction r' as [|x r' IHr]; auto. cbn [filter].
        destruct (k_hash x =? k_hash k)%N eqn:E.
        - cbn [cell_files flat_map]. rewrite (N x) by (try (now left); lia). apply IHr.
          intros y I. apply N. now right.
        - apply IHr. intros y I. apply N. now right. }
      assert (WO : forall hv, hv <> k_hash k -> with_hash hv (k :: r) = with_hash hv r').
      { intros hv NE. unfold with_hash. rewrite F by auto. cbn [filter].
        now replace (k_hash k =? hv)%N with false by lia. }
      intros g. rewrite in_app_iff, G. split.
      * intros [I|(hv & -> & LG)].
        -- exists (k_hash k). rewrite WK. destruct (with_hash (k_hash k) r); [destruct I|].
           destruct I as [<-|[]]. cbn. split; [auto|lia].
        -- destruct (N.eq_dec hv (k_hash k)) as [->|NE]; [rewrite WN in LG; cbn in LG; lia|].
           exists hv. now rewrite WO.
      * intros (hv & -> & LG). destruct (N.eq_dec hv (k_hash k)) as [->|NE].
        -- left. rewrite WK in *. destruct (with_hash (k_hash k) r); [cbn in LG; lia|]. now left.
        -- right. exists hv. rewrite <- WO by auto. auto.
    + destruct (IH r) as (gs & R & G); auto; [lia| | |].
      { intros a b Ia Ib. apply U; now right. } { intros a b x y Ia Ib. apply A; now right. }
      exists gs. split; auto. intros g. rewrite G.
      assert (W : forall hv, with_hash hv (k :: r) = with_hash hv r).
      { intros hv. unfold with_hash. cbn [filter]. destruct (_ =? _)%N; auto.
        cbn [cell_files flat_map]. now rewrite K. }
      split; intros (hv & E & LG); exists hv; [rewrite W|rewrite W in E]; auto.
Qed.
End Ar.
