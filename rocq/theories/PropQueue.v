(** C82: the task list of the thread pool is a queue. *)
From Verif Require Import Util QueueModel.
Local Open Scope N_scope.

(** * Specification: a queue as the sequence of its elements *)
Fixpoint queue_answers (q : list N) (us : list use) : list outcome :=
  match us with
  | [] => []
  | Enqueue x :: r => Done :: queue_answers (q ++ [x]) r
  | Take :: r => match q with [] => Empty :: queue_answers [] r | x :: q' => Took x :: queue_answers q' r end
  | Renew :: r => Done :: queue_answers [] r
  end.

(** * Proof *)
(** the cells from [a] to [z], which is the last one *)
Fixpoint chain (m : mem) (a : N) (xs : list N) (as_ : list N) : Prop :=
  match xs, as_ with
  | [], [] => a = 0
  | x :: xs', a' :: as' => a' = a /\ exists n, m_cell m a = Some (mkCell n x) /\ chain m n xs' as'
  | _, _ => False
  end.
Definition rep (m : mem) (l : llist) (q : list N) : Prop :=
  exists as_, chain m (l_head l) q as_ /\ l_nb l = N.of_nat (length q) /\ NoDup as_ /\
    Forall (fun a => a <> 0 /\ a < m_free m) as_ /\ (q <> [] -> last as_ 0 = l_tail l) /\ m_cell m 0 = None /\ 0 < m_free m.

Lemma chain_ext m m' : forall xs a as_, (forall x, In x as_ -> m_cell m' x = m_cell m x) -> chain m a xs as_ -> chain m' a xs as_.
Proof.
  induction xs as [|x xs IH]; intros a [|a' as_] E C; cbn [chain] in *; auto.
  destruct C as (-> & n & F & C). split; auto. exists n. rewrite E by now left. split; auto. apply IH; auto. intros y Y. apply E. now right.
Qed.
Lemma chain_nil m xs a as_ : chain m a xs as_ -> length as_ = length xs.
Proof.
  revert a as_. induction xs as [|x xs IH]; intros a [|a' as_] C; cbn [chain] in C; try contradiction; auto.
  destruct C as (_ & n & _ & C). cbn [length]. f_equal. eauto.
Qed.
(** linking a new last cell *)
Lemma chain_snoc m b x : m_cell m b = Some (mkCell 0 x) -> forall xs a as_ t y, chain m a xs as_ -> NoDup as_ -> ~ In b as_ -> xs <> [] -> last as_ 0 = t ->
  m_cell m t = Some y -> t <> 0 ->
  chain (store m t (mkCell b (c_data y))) a (xs ++ [x]) (as_ ++ [b]).
Proof.
  intros B. induction xs as [|z xs IH]; intros a [|a' as_] t y C ND NI NE L Y T0; cbn [chain] in C; try contradiction.
  destruct C as (-> & n & F & C). inversion ND; subst. cbn [app chain]. split; auto.
  destruct xs as [|z' xs].
  - destruct as_ as [|? ?]; cbn [chain] in C; [|contradiction]. subst n. cbn [last] in *. rewrite F in Y. injection Y as <-. cbn [c_data].
    exists b. cbn [m_cell store]. rewrite N.eqb_refl. split; auto. cbn [app chain]. split; auto.
    exists 0. cbn [m_cell store]. destruct (N.eqb_spec b a); [subst; exfalso; apply NI; now left|]. rewrite B. auto.
  - destruct as_ as [|a2 as_]; [cbn [chain] in C; contradiction|].
    assert (LA : last (a :: a2 :: as_) 0 = last (a2 :: as_) 0) by reflexivity. rewrite LA in *.
    exists n. cbn [m_cell store]. destruct (N.eqb_spec a (last (a2 :: as_) 0)) as [E|E].
    { exfalso. apply H1. rewrite E. clear. revert a2. induction as_ as [|u v IHv]; intros a2; [now left|]. right. apply IHv. }
    split; auto. apply (IH n (a2 :: as_) (last (a2 :: as_) 0) y); auto; [|discriminate]. intros X. apply NI. now right.
Qed.

Lemma rep_make m : m_cell m 0 = None -> 0 < m_free m -> rep m list_make [].
Proof. intros. exists []. cbn. repeat split; auto; try constructor. Qed.

Lemma last_in (l : list N) d : l <> [] -> In (last l d) l.
Proof. induction l as [|a [|b l] IH]; intros H; [congruence|now left|]. right. apply IH. discriminate. Qed.

Lemma rep_enqueue m l q x : rep m l q -> exists m' l', list_enqueue m l x = Some (m', l') /\ rep m' l' (q ++ [x]).
Proof.
  intros (as_ & C & NB & ND & RG & T & Z & FP). unfold list_enqueue. destruct (N.eqb_spec (l_nb l) 0) as [E|E].
  - destruct q as [|y q]; [|cbn [length] in NB; lia]. unfold list_cons, alloc. eexists _, _. split; [reflexivity|].
    destruct as_; cbn [chain] in C; [|contradiction]. rewrite C. unfold rep. cbn [l_head l_tail l_nb m_cell m_free app].
    exists [m_free m]. cbn [chain m_cell]. rewrite N.eqb_refl, E.
    split; [split; auto; exists 0; auto|]. split; [reflexivity|]. split; [repeat constructor; auto|]. split; [constructor; [split; lia|constructor]|].
    split; [intros _; reflexivity|]. split; [|lia]. destruct (N.eqb_spec 0 (m_free m)); [lia|auto].
  - assert (NE : q <> []) by (intros ->; cbn in NB; lia).
    pose proof (chain_nil _ _ _ _ C) as LN.
    assert (NA : as_ <> []) by (intros ->; destruct q; cbn in LN; congruence).
    specialize (T NE). pose proof (last_in as_ 0 NA) as LI. rewrite T in LI.
    rewrite Forall_forall in RG. destruct (RG _ LI) as (T0 & TF).
    assert (EX : forall y, m_cell (fst (alloc m (mkCell 0 x))) y = if y =? m_free m then Some (mkCell 0 x) else m_cell m y) by reflexivity.
    assert (HT : exists y, m_cell m (l_tail l) = Some y).
    { rewrite <- T. clear - C NA. revert C. generalize (l_head l). revert NA. revert q.
      induction as_ as [|a as_ IH]; intros q NA h C; [congruence|]. destruct q as [|y q]; cbn [chain] in C; [contradiction|].
      destruct C as (-> & n & F & C). destruct as_ as [|b as_]; [cbn [last]; eauto|]. change (last (h :: b :: as_) 0) with (last (b :: as_) 0). eapply IH; eauto. discriminate. }
    destruct HT as (y & HY). unfold alloc. cbn [m_cell]. destruct (N.eqb_spec (l_tail l) (m_free m)); [lia|]. rewrite HY.
    eexists _, _. split; [reflexivity|]. exists (as_ ++ [m_free m]). cbn [l_head l_tail l_nb store m_free m_cell].
    assert (NI : ~ In (m_free m) as_) by (intros X; apply RG in X; lia).
    split; [|split; [|split; [|split; [|split; [|split]]]]].
    + apply (chain_snoc (mkMem (fun z => if z =? m_free m then Some (mkCell 0 x) else m_cell m z) (m_free m + 1)) (m_free m) x); auto.
      * cbn [m_cell]. now rewrite N.eqb_refl.
      * eapply chain_ext; [|exact C]. intros z HZ. cbn [m_cell]. destruct (N.eqb_spec z (m_free m)); [subst; contradiction|auto].
      * cbn [m_cell]. destruct (N.eqb_spec (l_tail l) (m_free m)); [lia|auto].
    + rewrite app_length. cbn [length]. lia.
    + apply NoDup_rev in ND. rewrite <- (rev_involutive (as_ ++ [m_free m])). apply NoDup_rev. rewrite rev_app_distr. cbn [rev app].
      constructor; auto. now rewrite <- in_rev.
    + rewrite Forall_forall. intros z HZ. apply in_app_iff in HZ. destruct HZ as [HZ|[<-|[]]]; [apply RG in HZ; lia|lia].
    + intros _. apply last_last.
    + destruct (N.eqb_spec 0 (l_tail l)); [congruence|]. destruct (N.eqb_spec 0 (m_free m)); [lia|auto].
    + lia.
Qed.
Lemma rep_take m l x q : rep m l (x :: q) ->
  list_first m l = Some x /\ exists l', list_cdr m l = Some l' /\ rep m l' q /\ l_nb l' = l_nb l - 1.
Proof.
  intros (as_ & C & NB & ND & RG & T & Z & FP). destruct as_ as [|a as_]; cbn [chain] in C; [contradiction|]. destruct C as (-> & n & F & C).
  unfold list_first, list_cdr. rewrite F. split; auto. eexists. split; [reflexivity|]. split; [|reflexivity].
  exists as_. cbn [l_head l_tail l_nb c_next]. inversion ND; inversion RG; subst. split; auto. split; [cbn [length] in NB; lia|]. split; auto. split; auto. split; [|auto].
  intros NE. destruct as_ as [|b as_]; [destruct q; cbn [chain] in C; contradiction|]. apply T. discriminate.
Qed.
Lemma rep_delete : forall q m l, rep m l q ->
  exists m', list_delete (length q) m l = Some m' /\ m_cell m' 0 = None /\ 0 < m_free m'.
Proof.
  induction q as [|x q IH]; intros m l R.
  - destruct R as (as_ & C & _ & _ & _ & _ & _ & FP). destruct as_; cbn [chain] in C; [|contradiction]. cbn [length list_delete]. rewrite C. cbn. eauto.
  - cbn [length list_delete]. destruct (rep_take _ _ _ _ R) as (_ & l' & E & R' & _).
    assert (H0 : l_head l <> 0).
    { destruct R as (as_ & C & _ & _ & RG & _). destruct as_ as [|a as_]; cbn [chain] in C; [contradiction|]. destruct C as (-> & _). inversion RG; tauto. }
    destruct (N.eqb_spec (l_head l) 0); [contradiction|]. rewrite E. auto.
Qed.
Lemma use_all_queue : forall us m l q, rep m l q -> use_all m l us = Some (queue_answers q us).
Proof.
  induction us as [|u us IH]; intros m l q R; [reflexivity|]. cbn [use_all]. destruct u as [x| |]; cbn [use_list queue_answers].
  - destruct (rep_enqueue m l q x R) as (m' & l' & -> & R'). now rewrite (IH _ _ _ R').
  - pose proof R as R0. destruct R0 as (as_ & C & NB & _). destruct q as [|x q].
    + cbn [length] in NB. rewrite NB. cbn. now rewrite (IH _ _ _ R).
    + destruct (N.ltb_spec 0 (l_nb l)); [|cbn [length] in NB; lia]. destruct (rep_take _ _ _ _ R) as (-> & l' & -> & R' & _). now rewrite (IH _ _ _ R').
  - pose proof R as R0. destruct R0 as (as_ & C & NB & _). rewrite NB, Nat2N.id.
    destruct (rep_delete _ _ _ R) as (m' & -> & Z & FP). now rewrite (IH _ _ _ (rep_make m' Z FP)).
Qed.

(** Every sequence of uses gets the answers of a queue; no cell is used that is not there. *)
Theorem task_list_is_queue : forall us, use_all mem_init list_make us = Some (queue_answers [] us).
Proof. intros us. apply use_all_queue, rep_make; reflexivity. Qed.

Example queue_case : use_all mem_init list_make [Enqueue 5; Enqueue 6; Take; Take; Take; Enqueue 7; Enqueue 8; Take; Renew; Take; Enqueue 9; Take] =
  Some [Done; Done; Took 5; Took 6; Empty; Done; Done; Took 7; Done; Empty; Done; Took 9].
Proof. reflexivity. Qed.

Print Assumptions task_list_is_queue.
