(** Invariants of the fine-grained model of FineModel. *)
From Verif Require Import Util PageModel PageOps TxnModel TreeModel DbModel SysModel DbProofs FineModel FineSpec.
From Coq Require Import Permutation.
Local Open Scope N_scope.

Definition wr (p : pos) : bool :=
  match p with
  | Snap true _ _ _ | WOpen _ | OldLock _ | OldScan _ _ _ | OldDone _ _ | Pub _ _ _ _ | WDone => true
  | _ => false
  end.
Definition tb (p : pos) : bool :=
  match p with
  | RegScan _ _ | RegPid _ _ | RegTid _ _ | RegTxn _ _ | RegDone _ | RegFull
  | EndScan _ _ | EndTxn _ _ | EndPid _ | EndTid _ | EndDone | OldScan _ _ _ | OldDone _ _ => true
  | _ => false
  end.
Definition fields (q : quad) (todo : list fld) (x : quad) : Prop := forall f, ~ In f todo -> getf q f = getf x f.
Definition bump (x : quad) : quad := setf x Ftxn (q_txn x + 1).
Lemma getf_setf q f x g : getf (setf q f x) g = getf q g \/ (g = f /\ getf (setf q f x) g = x).
Proof. destruct f, g; cbn; auto. Qed.
Lemma getf_set q f x : getf (setf q f x) f = x.
Proof. destruct f; reflexivity. Qed.
Lemma quad_ext p q : (forall f, getf p f = getf q f) -> p = q.
Proof.
  intro H. destruct p, q. pose proof (H Ftxn); pose proof (H Froot); pose proof (H Ffree); pose proof (H Flast). cbn in *. congruence.
Qed.
Lemma fields_step q f r x y : fields q (f :: r) x -> y = getf x f -> fields (setf q f y) r x.
Proof.
  intros H -> g G. destruct (getf_setf q f (getf x f) g) as [E|[E1 E2]].
  - destruct (getf_setf q f (getf x f) g) as [_|[-> E2]]; [|exact E2]. rewrite E.
    destruct f, g; try (apply H; intros [D|D]; [discriminate|contradiction]); cbn in *; try congruence; exact E.
  - rewrite E2, E1. reflexivity.
Qed.
Lemma fields_all q x : fields q [] x -> q = x.
Proof. intro H. apply quad_ext. intro f. apply H. intros []. Qed.
Lemma setf_self q f : setf q f (getf q f) = q.
Proof. destruct q, f; reflexivity. Qed.

Section Inv.
Variable who : nat -> N * N.

Notation regs := (regs who).

Definition agok (s : st) (b : nat) (p : pos) : Prop :=
  let x := mem s (live s) in
  let T := table s in
  match p with
  | Idle | WWait | WDone | EndDone => True
  | Snap true ptr q todo => (forall m, ptr = Some m -> m = live s) /\ fields q todo x
  | Snap false ptr q todo => (forall m, ptr = Some m -> 0 < q_txn (mem s m)) /\ (~ In Ftxn todo -> 0 < q_txn q)
  | RegLock q | RegDone q | ROpen q | EndLock q => 0 < q_txn q
  | RegScan q i => 0 < q_txn q /\ (i <= MAX_READERS)%nat /\ forall j, (j < i)%nat -> s_txnid (slot_at T j) <> 0
  | RegPid q i => 0 < q_txn q /\ (i < MAX_READERS)%nat /\ s_txnid (slot_at T i) = 0
  | RegTid q i => 0 < q_txn q /\ (i < MAX_READERS)%nat /\ s_txnid (slot_at T i) = 0 /\ s_pid (slot_at T i) = fst (who b)
  | RegTxn q i => 0 < q_txn q /\ (i < MAX_READERS)%nat /\ s_txnid (slot_at T i) = 0 /\ s_pid (slot_at T i) = fst (who b) /\ s_tid (slot_at T i) = snd (who b)
  | RegFull => forall j, (j < MAX_READERS)%nat -> s_txnid (slot_at T j) <> 0
  | EndScan q i => 0 < q_txn q /\ (i <= MAX_READERS)%nat /\ forall j, (j < i)%nat -> slot_at T j <> own who b q
  | EndTxn q i => 0 < q_txn q /\ (i < MAX_READERS)%nat /\ slot_at T i = own who b q
  | EndPid i | EndTid i => (i < MAX_READERS)%nat /\ s_txnid (slot_at T i) = 0
  | WOpen t | OldLock t => t = bump x
  | OldScan t i acc => t = bump x /\ (i <= MAX_READERS)%nat /\ acc = oldest_reader (firstn i T)
  | OldDone t acc => t = bump x /\ acc = oldest_reader T
  | Pub n m sy todo => m = negb (live s) /\ q_txn n = q_txn x + 1 /\ if sy then mem s m = n else fields (mem s m) todo n
  end.

Record inv (s : st) : Prop := {
  i_pos : 0 < q_txn (mem s (live s));
  i_w : forall b p, nth_error (ags s) b = Some p -> (wr p = true <-> wlock s = Some b);
  i_t : forall b p, nth_error (ags s) b = Some p -> (tb p = true <-> tlock s = Some b);
  i_wl : forall b, wlock s = Some b -> (b < length (ags s))%nat;
  i_tl : forall b, tlock s = Some b -> (b < length (ags s))%nat;
  i_len : length (table s) = MAX_READERS;
  i_ag : forall b p, nth_error (ags s) b = Some p -> agok s b p;
  i_reg : Permutation (used (table s)) (regs 0 (ags s)) }.

(** what a step does to locks, table and meta pages *)
Lemma step_frame s a c s' : step who s a c = Some s' ->
  exists p p', nth_error (ags s) a = Some p /\ ags s' = upd (ags s) a p' /\
  ((wlock s' = wlock s /\ wr p' = wr p) \/ (wlock s = None /\ wlock s' = Some a /\ wr p' = true) \/ (wlock s' = None /\ wr p = true /\ wr p' = false)) /\
  ((tlock s' = tlock s /\ tb p' = tb p) \/ (tlock s = None /\ tlock s' = Some a /\ tb p' = true) \/ (tlock s' = None /\ tb p = true /\ tb p' = false)) /\
  (table s' = table s \/ (tb p = true /\ exists i z, table s' = upd (table s) i z)) /\
  ((mem s' = mem s /\ live s' = live s) \/ wr p = true).
Proof.
  intro H. unfold step in H. destruct (nth_error (ags s) a) as [p|] eqn:P; [|discriminate]. exists p.
  destruct p; destruct c; try discriminate; cbn zeta in H;
  repeat match type of H with
    | (match ?x with _ => _ end) = Some _ => destruct x eqn:?; try discriminate
    | (if ?x then _ else _) = Some _ => destruct x eqn:?; try discriminate
    end; injection H as <-;
  (eexists; split; [reflexivity|]; split; [reflexivity|]);
  cbn [wlock tlock table mem live set_ag set_wlock set_tlock set_table set_mem set_live wr tb];
  repeat match goal with
    | |- context [if ?w then true else false] => destruct w
    end;
  intuition eauto.
Qed.

Lemma agok_frame s s' b p : agok s b p ->
  (wr p = false \/ (mem s' = mem s /\ live s' = live s)) -> (tb p = false \/ table s' = table s) ->
  (forall m, 0 < q_txn (mem s m) -> 0 < q_txn (mem s' m)) -> agok s' b p.
Proof.
  intros A W T M. destruct p as [| |[|] ptr q todo| | | | | | | | | | | | | | | | | | | |]; cbn [wr tb agok] in *;
    destruct W as [W|(W1 & W2)]; try discriminate; destruct T as [T|T]; try discriminate;
    rewrite ?W1, ?W2, ?T; auto;
    try (destruct A as (A1 & A2); split; auto; fail).
Qed.

Lemma nth_error_slot (T : list rslot) i : (i < length T)%nat -> nth_error T i = Some (slot_at T i).
Proof. intro H. unfold slot_at. apply nth_error_nth'. exact H. Qed.
Lemma slot_at_upd_eq T i z : (i < length T)%nat -> slot_at (upd T i z) i = z.
Proof. intro H. unfold slot_at. apply nth_error_nth. apply nth_error_upd_eq. exact H. Qed.

(** the pages of the meta pair stay positive in their id *)
Lemma step_mem_pos s a c s' : inv s -> step who s a c = Some s' ->
  (forall m, 0 < q_txn (mem s m) -> 0 < q_txn (mem s' m)).
Proof.
  intros I H m M. unfold step in H. destruct (nth_error (ags s) a) as [p|] eqn:P; [|discriminate].
  pose proof (i_ag _ I _ _ P) as A.
  destruct p; destruct c; try discriminate; cbn zeta in H;
  repeat match type of H with
    | (match ?x with _ => _ end) = Some _ => destruct x eqn:?; try discriminate
    | (if ?x then _ else _) = Some _ => destruct x eqn:?; try discriminate
    end; injection H as <-; cbn [mem set_ag set_wlock set_tlock set_table set_mem set_live]; try exact M.
  all: destruct (Bool.eqb m stale) eqn:E; [|exact M]; apply Bool.eqb_prop in E; subst;
  cbn [agok] in A; destruct A as (_ & A & _); destruct f; cbn [setf getf q_txn]; try exact M; lia.
Qed.

Lemma oldest_snoc T i : (i < length T)%nat ->
  oldest_reader (firstn (S i) T) =
  (let x := s_txnid (slot_at T i) in let acc := oldest_reader (firstn i T) in
   if (0 <? x) && ((acc =? 0) || (x <? acc)) then x else acc).
Proof.
  intro H. assert (E : firstn (S i) T = firstn i T ++ [slot_at T i]).
  { revert i H. induction T as [|z T IH]; intros i H; cbn [length] in H; [lia|]. destruct i as [|i]; [reflexivity|].
    cbn [firstn app]. f_equal. rewrite <- IH by lia. reflexivity. }
  rewrite E. unfold oldest_reader. rewrite fold_left_app. reflexivity.
Qed.

(** an agent keeps its own condition *)
Lemma step_own s a c s' : inv s -> step who s a c = Some s' ->
  exists p', nth_error (ags s') a = Some p' /\ agok s' a p'.
Proof.
  intros I H. unfold step in H. destruct (nth_error (ags s) a) as [p|] eqn:P; [|discriminate].
  pose proof (i_ag _ I _ _ P) as A. pose proof (i_len _ I) as L. pose proof (i_pos _ I) as Z.
  assert (La : (a < length (ags s))%nat) by (apply nth_error_Some; congruence).
  assert (U : forall s0 p', ags s0 = ags s -> nth_error (ags (set_ag s0 a p')) a = Some p').
  { intros s0 p' E. cbn [ags set_ag]. rewrite E. apply nth_error_upd_eq. exact La. }
  destruct p; destruct c; try discriminate; cbn zeta in H;
  repeat match type of H with
    | (match ?x with _ => _ end) = Some _ => destruct x eqn:?; try discriminate
    | (if ?x then _ else _) = Some _ => destruct x eqn:?; try discriminate
    end; injection H as <-; (eexists; split; [apply U; reflexivity|]);
  cbn [agok] in A |- *; cbn [wlock tlock table mem live set_ag set_wlock set_tlock set_table set_mem set_live];
  repeat match goal with
    | H : Nat.ltb _ _ = true |- _ => apply Nat.ltb_lt in H
    | H : Nat.ltb _ _ = false |- _ => apply Nat.ltb_ge in H
    end; auto.
  - split; [discriminate|]. intro X. exfalso. apply X. left. reflexivity.
  - split; [discriminate|]. intros f F. exfalso. apply F. destruct f; cbn; auto.
  - destruct A as (_ & A). apply fields_all in A. subst q. reflexivity.
  - destruct A as (A1 & A2). specialize (A1 _ eq_refl). subst b. split; [discriminate|]. apply fields_step; auto.
  - destruct A as (_ & A). apply fields_all in A. subst q. reflexivity.
  - destruct A as (A1 & A2). split; [congruence|exact A2].
  - apply A. intros [].
  - destruct A as (A1 & A2). specialize (A1 _ eq_refl). split; [discriminate|]. intro X.
    destruct f; cbn [setf getf q_txn]; try exact A1; apply A2; intros [D|D]; try discriminate; contradiction.
  - apply A. intros [].
  - destruct A as (A1 & A2). split; [|exact A2]. intros m E. injection E as <-. exact Z.
  - destruct A as (A1 & A2). specialize (A1 _ eq_refl). subst b. split; [congruence|]. apply fields_step; auto.
  - destruct A as (A1 & A2). specialize (A1 _ eq_refl). split; [intros m E; injection E as <-; exact A1|]. intro X.
    destruct f; cbn [setf getf q_txn]; try exact A1; apply A2; intros [D|D]; try discriminate; contradiction.
  - split; [exact A|]. split; [lia|]. intros j J. lia.
  - apply N.eqb_eq in Heqb0. tauto.
  - apply N.eqb_neq in Heqb0. destruct A as (A1 & A2 & A3). split; [exact A1|]. split; [lia|]. intros j J.
    destruct (Nat.eq_dec j i) as [->|D]; [exact Heqb0|]. apply A3. lia.
  - destruct A as (A1 & A2 & A3). intros j J. apply A3. lia.
  - destruct A as (A1 & A2 & A3). rewrite slot_at_upd_eq by (rewrite L; exact A2). cbn [s_txnid s_pid]. auto.
  - destruct A as (A1 & A2 & A3 & A4). rewrite slot_at_upd_eq by (rewrite L; exact A2). cbn [s_txnid s_pid s_tid]. auto.
  - apply A.
  - split; [exact A|]. split; [lia|]. intros j J. lia.
  - apply andb_prop in Heqb0. destruct Heqb0 as (B1 & B3). apply andb_prop in B1. destruct B1 as (B1 & B2).
    apply N.eqb_eq in B1, B2, B3. destruct A as (A1 & A2 & A3). split; [exact A1|]. split; [exact Heqb|].
    unfold own. destruct (slot_at (table s) i). cbn in *. congruence.
  - destruct A as (A1 & A2 & A3). split; [exact A1|]. split; [lia|]. intros j J.
    destruct (Nat.eq_dec j i) as [->|D]; [|apply A3; lia]. intro X. rewrite X in Heqb0. cbn in Heqb0. rewrite !N.eqb_refl in Heqb0. discriminate.
  - destruct A as (A1 & A2 & A3). rewrite slot_at_upd_eq by (rewrite L; exact A2). auto.
  - destruct A as (A1 & A2). rewrite slot_at_upd_eq by (rewrite L; exact A1). auto.
  - split; [reflexivity|]. split; [subst t; reflexivity|]. intros f F. exfalso. apply F. destruct f; cbn; auto.
  - split; [exact A|]. split; [lia|reflexivity].
  - destruct A as (A1 & A2 & A3). split; [exact A1|]. split; [lia|]. rewrite oldest_snoc by (rewrite L; exact Heqb). cbn zeta. subst acc. reflexivity.
  - destruct A as (A1 & A2 & A3). split; [exact A1|]. subst acc. rewrite firstn_all2 by (rewrite L; lia). reflexivity.
  - apply A.
  - destruct A as (A1 & A2 & A3). rewrite A1. replace (Bool.eqb (live s) (negb (live s))) with false by (destruct (live s); reflexivity).
    rewrite Bool.eqb_reflx. subst stale. split; [reflexivity|]. split; [exact A2|]. rewrite A3. apply setf_self.
  - destruct A as (A1 & A2 & A3). split; [exact A1|]. split; [exact A2|]. apply fields_all. exact A3.
  - destruct A as (A1 & A2 & A3). rewrite A1. replace (Bool.eqb (live s) (negb (live s))) with false by (destruct (live s); reflexivity).
    rewrite Bool.eqb_reflx. subst stale. split; [reflexivity|]. split; [exact A2|]. apply fields_step; auto.
Qed.

(** ** The registered readers *)
Definition slot_of (n : nat) (p : pos) : list rslot := match held p with Some q => [own who n q] | None => [] end.
Definition us (z : rslot) : list rslot := if negb (s_txnid z =? 0) then [z] else [].

Lemma regs_upd p' : forall l a n p, nth_error l a = Some p ->
  Permutation (slot_of (n + a) p ++ regs n (upd l a p')) (slot_of (n + a) p' ++ regs n l).
Proof.
  induction l as [|z l IH]; intros a n p H; [destruct a; discriminate|]. destruct a as [|a]; cbn [nth_error upd regs] in *.
  - injection H as ->. rewrite Nat.add_0_r. fold (slot_of n p) (slot_of n p').
    rewrite !app_assoc. apply Permutation_app_tail. apply Permutation_app_comm.
  - replace (n + S a)%nat with (S n + a)%nat by lia. specialize (IH a (S n) p H). fold (slot_of n z).
    rewrite !app_assoc. etransitivity; [apply Permutation_app_tail; apply Permutation_app_comm|].
    etransitivity; [|apply Permutation_app_tail; apply Permutation_app_comm].
    rewrite <- !app_assoc. apply Permutation_app_head. exact IH.
Qed.
Lemma used_upd y : forall T i x, nth_error T i = Some x ->
  Permutation (us x ++ used (upd T i y)) (us y ++ used T).
Proof.
  assert (C : forall z T, used (z :: T) = us z ++ used T).
  { intros z T. unfold used, us. cbn [filter]. destruct (negb _); reflexivity. }
  induction T as [|z T IH]; intros i x H; [destruct i; discriminate|]. destruct i as [|i]; cbn [nth_error upd] in *.
  - injection H as ->. rewrite !C. rewrite !app_assoc. apply Permutation_app_tail. apply Permutation_app_comm.
  - rewrite !C. rewrite !app_assoc. etransitivity; [apply Permutation_app_tail; apply Permutation_app_comm|].
    etransitivity; [|apply Permutation_app_tail; apply Permutation_app_comm].
    rewrite <- !app_assoc. apply Permutation_app_head. apply IH. exact H.
Qed.
(** changing an agent without touching what it has registered *)
Lemma regs_same l a p p' : nth_error l a = Some p -> held p' = held p -> regs 0 (upd l a p') = regs 0 l.
Proof.
  intros H E. generalize 0%nat. revert a H. induction l as [|z l IH]; intros a H n; [reflexivity|]. destruct a as [|a]; cbn [nth_error upd regs] in *.
  - injection H as ->. rewrite E. reflexivity.
  - f_equal. apply IH. exact H.
Qed.
Lemma in_regs l : forall a n p q, nth_error l a = Some p -> held p = Some q -> In (own who (n + a) q) (regs n l).
Proof.
  induction l as [|z l IH]; intros a n p q H E; [destruct a; discriminate|]. destruct a as [|a]; cbn [nth_error regs] in *.
  - injection H as ->. rewrite E, Nat.add_0_r. left. reflexivity.
  - apply in_or_app. right. replace (n + S a)%nat with (S n + a)%nat by lia. eapply IH; eauto.
Qed.

(** an agent that looks for its slot finds it *)
Lemma slot_found s a q i : inv s -> nth_error (ags s) a = Some (EndScan q i) -> (i < MAX_READERS)%nat.
Proof.
  intros I P. pose proof (i_ag _ I _ _ P) as (A1 & A2 & A3). pose proof (in_regs _ _ 0 _ _ P eq_refl) as R.
  apply (Permutation_in _ (Permutation_sym (i_reg _ I))) in R. unfold used in R. apply filter_In in R. destruct R as (R & _).
  apply (In_nth _ _ (mkSlot 0 0 0)) in R. destruct R as (j & J & E). rewrite (i_len _ I) in J. change (slot_at (table s) j = own who a q) in E.
  destruct (Nat.lt_ge_cases i MAX_READERS) as [X|X]; [exact X|]. exfalso. apply (A3 j); [lia|exact E].
Qed.

Lemma step_reg s a c s' : inv s -> step who s a c = Some s' -> Permutation (used (table s')) (regs 0 (ags s')).
Proof.
  intros I H. pose proof (i_reg _ I) as R. unfold step in H. destruct (nth_error (ags s) a) as [p|] eqn:P; [|discriminate].
  pose proof (i_ag _ I _ _ P) as A. pose proof (i_len _ I) as L.
  assert (U : forall i z x y, (i < MAX_READERS)%nat -> us (slot_at (table s) i) = x -> us z = y -> 
    forall p', slot_of a p = x -> slot_of a p' = y -> Permutation (used (upd (table s) i z)) (regs 0 (upd (ags s) a p'))).
  { intros i z x y Hi X Y p' X' Y'.
    assert (Ni : nth_error (table s) i = Some (slot_at (table s) i)) by (apply nth_error_slot; rewrite L; exact Hi).
    pose proof (used_upd z _ _ _ Ni) as U1. rewrite X, Y in U1.
    pose proof (regs_upd p' _ a 0 _ P) as U2. cbn [Nat.add] in U2. rewrite X', Y' in U2.
    apply (Permutation_app_inv_l x). rewrite U1, U2. apply Permutation_app_head. exact R. }
  assert (Z : forall z, s_txnid z = 0 -> us z = []) by (intros z E; unfold us; rewrite E; reflexivity).
  destruct p; destruct c; try discriminate; cbn zeta in H;
  repeat match type of H with
    | (match ?x with _ => _ end) = Some _ => destruct x eqn:?; try discriminate
    | (if ?x then _ else _) = Some _ => destruct x eqn:?; try discriminate
    end; injection H as <-;
  cbn [agok] in A; cbn [ags table mem live set_ag set_wlock set_tlock set_table set_mem set_live];
  try (rewrite (regs_same _ _ _ _ P) by reflexivity; exact R).
  - destruct A as (A1 & A2 & A3). apply (U _ _ [] []); auto.
  - destruct A as (A1 & A2 & A3 & A4). apply (U _ _ [] []); auto.
  - destruct A as (A1 & A2 & A3 & A4 & A5). rewrite A4, A5. apply (U _ _ [] [own who a q]); auto.
    unfold us, own. cbn [s_txnid]. replace (q_txn q =? 0) with false by (symmetry; apply N.eqb_neq; lia). reflexivity.
  - exfalso. pose proof (slot_found _ _ _ _ I P). apply Nat.ltb_ge in Heqb. lia.
  - destruct A as (A1 & A2 & A3). apply (U _ _ [own who a q] []); auto. rewrite A3. unfold us, own. cbn [s_txnid].
    replace (q_txn q =? 0) with false by (symmetry; apply N.eqb_neq; lia). reflexivity.
  - destruct A as (A1 & A2). apply (U _ _ [] []); auto.
  - destruct A as (A1 & A2). apply (U _ _ [] []); auto.
Qed.

Theorem step_inv s a c s' : inv s -> step who s a c = Some s' -> inv s'.
Proof.
  intros I H. pose proof (step_own _ _ _ _ I H) as (p1 & P1 & A1). pose proof (step_mem_pos _ _ _ _ I H) as MP.
  pose proof (step_reg _ _ _ _ I H) as R.
  destruct (step_frame _ _ _ _ H) as (p & p' & P & E & W & T & Tb & M).
  assert (La : (a < length (ags s))%nat) by (apply nth_error_Some; congruence).
  assert (E1 : p1 = p') by (rewrite E, nth_error_upd_eq in P1 by exact La; congruence). subst p1.
  pose proof (i_w _ I _ _ P) as Wa. pose proof (i_t _ I _ _ P) as Ta.
  assert (LL : length (ags s') = length (ags s)) by (rewrite E; apply length_upd).
  assert (Oth : forall b q, nth_error (ags s') b = Some q -> b = a /\ q = p' \/ b <> a /\ nth_error (ags s) b = Some q).
  { intros b q B. destruct (Nat.eq_dec b a) as [->|D]; [left; split; congruence|right]. split; [exact D|]. rewrite E, nth_error_upd_neq in B by auto. exact B. }
  constructor.
  - destruct M as [(M1 & M2)|M]; [rewrite M1, M2; apply I|].
    clear - I H MP. pose proof (i_pos _ I) as Z. unfold step in H. destruct (nth_error (ags s) a) as [p|] eqn:P; [|discriminate].
    pose proof (i_ag _ I _ _ P) as A.
    destruct p; destruct c; try discriminate; cbn zeta in H;
    repeat match type of H with
      | (match ?x with _ => _ end) = Some _ => destruct x eqn:?; try discriminate
      | (if ?x then _ else _) = Some _ => destruct x eqn:?; try discriminate
      end; injection H as <-; cbn [agok] in A; cbn [mem live set_ag set_wlock set_tlock set_table set_mem set_live] in *; try exact Z; try (apply MP; exact Z).
    destruct A as (A1 & A2 & A3). rewrite A3, A2. lia.
  - intros b q B. destruct (Oth _ _ B) as [(-> & ->)|(D & B')].
    + destruct W as [(W1 & W2)|[(W1 & W2 & W3)|(W1 & W2 & W3)]].
      * rewrite W1, W2. exact Wa.
      * rewrite W2, W3. tauto.
      * rewrite W1, W3. split; discriminate.
    + pose proof (i_w _ I _ _ B') as Wb. destruct W as [(W1 & W2)|[(W1 & W2 & W3)|(W1 & W2 & W3)]].
      * rewrite W1. exact Wb.
      * rewrite W2. rewrite W1 in Wb. split; intro X; [apply Wb in X; discriminate|congruence].
      * rewrite W1. apply Wa in W2. split; intro X; [apply Wb in X; congruence|discriminate].
  - intros b q B. destruct (Oth _ _ B) as [(-> & ->)|(D & B')].
    + destruct T as [(W1 & W2)|[(W1 & W2 & W3)|(W1 & W2 & W3)]].
      * rewrite W1, W2. exact Ta.
      * rewrite W2, W3. tauto.
      * rewrite W1, W3. split; discriminate.
    + pose proof (i_t _ I _ _ B') as Wb. destruct T as [(W1 & W2)|[(W1 & W2 & W3)|(W1 & W2 & W3)]].
      * rewrite W1. exact Wb.
      * rewrite W2. rewrite W1 in Wb. split; intro X; [apply Wb in X; discriminate|congruence].
      * rewrite W1. apply Ta in W2. split; intro X; [apply Wb in X; congruence|discriminate].
  - intros b B. rewrite LL. destruct W as [(W1 & W2)|[(W1 & W2 & W3)|(W1 & W2 & W3)]].
    + apply (i_wl _ I). congruence.
    + assert (b = a) by congruence. subst. exact La.
    + congruence.
  - intros b B. rewrite LL. destruct T as [(W1 & W2)|[(W1 & W2 & W3)|(W1 & W2 & W3)]].
    + apply (i_tl _ I). congruence.
    + assert (b = a) by congruence. subst. exact La.
    + congruence.
  - destruct Tb as [Tb|(_ & i & z & Tb)]; rewrite Tb; [|rewrite length_upd]; apply I.
  - intros b q B. destruct (Oth _ _ B) as [(-> & ->)|(D & B')]; [exact A1|].
    apply (agok_frame s); [apply I; exact B'| | |exact MP].
    + destruct M as [M|M]; [right; exact M|]. left. destruct (wr q) eqn:X; [|reflexivity]. exfalso.
      apply (i_w _ I _ _ B') in X. apply Wa in M. congruence.
    + destruct Tb as [Tb|(Tb & _)]; [right; exact Tb|]. left. destruct (tb q) eqn:X; [|reflexivity]. exfalso.
      apply (i_t _ I _ _ B') in X. apply Ta in Tb. congruence.
  - exact R.
Qed.

Lemma start_inv m0 m1 (second : bool) n : 0 < q_txn (if second then m1 else m0) -> inv (start m0 m1 second n).
Proof.
  intro Z. assert (Id : forall b p, nth_error (repeat Idle n) b = Some p -> p = Idle).
  { intros b p H. apply nth_error_In in H. apply repeat_spec in H. exact H. }
  constructor; cbn [start mem live wlock tlock table ags].
  - exact Z.
  - intros b p H. rewrite (Id _ _ H). split; discriminate.
  - intros b p H. rewrite (Id _ _ H). split; discriminate.
  - discriminate.
  - discriminate.
  - apply repeat_length.
  - intros b p H. rewrite (Id _ _ H). exact Logic.I.
  - replace (used (repeat (mkSlot 0 0 0) MAX_READERS)) with (@nil rslot) by reflexivity.
    replace (regs 0 (repeat Idle n)) with (@nil rslot); [constructor|]. generalize 0%nat. clear. induction n; intro m; [reflexivity|]. cbn [repeat regs held app]. apply IHn.
Qed.

(** the published meta page changes only by a commit, which advances the id by one *)
Lemma step_live s a c s' : inv s -> step who s a c = Some s' ->
  (live s' = live s /\ mem s' (live s') = mem s (live s)) \/
  (live s' = negb (live s) /\ q_txn (mem s' (live s')) = q_txn (mem s (live s)) + 1 /\ wlock s = Some a).
Proof.
  intros I H. destruct (step_frame _ _ _ _ H) as (p & p' & P & E & W & T & Tb & M).
  destruct M as [(M1 & M2)|M]; [left; rewrite M1, M2; auto|]. apply (i_w _ I _ _ P) in M.
  clear - I H M. unfold step in H. destruct (nth_error (ags s) a) as [p|] eqn:P; [|discriminate].
  pose proof (i_ag _ I _ _ P) as A.
  destruct p; destruct c; try discriminate; cbn zeta in H;
  repeat match type of H with
    | (match ?x with _ => _ end) = Some _ => destruct x eqn:?; try discriminate
    | (if ?x then _ else _) = Some _ => destruct x eqn:?; try discriminate
    end; injection H as <-; cbn [agok] in A; cbn [mem live set_ag set_wlock set_tlock set_table set_mem set_live] in *; auto.
  - right. destruct A as (A1 & A2 & A3). split; [exact A1|]. split; [rewrite A3; exact A2|exact M].
  - left. split; [reflexivity|]. destruct A as (A1 & _). rewrite A1. destruct (live s); reflexivity.
  - left. split; [reflexivity|]. destruct A as (A1 & _). rewrite A1. destruct (live s); reflexivity.
Qed.
End Inv.
