(** Shared list lemmas (no model content). *)
From Coq Require Export List Arith ZArith NArith Lia Bool Permutation Sorting.Sorted.
From Coq Require Export ZifyBool ZifyNat ZifyN.
Export ListNotations.

(** Functional update of a list cell; out of range leaves the list unchanged. *)
Fixpoint upd {A} (l : list A) (i : nat) (x : A) : list A :=
  match l, i with
  | [], _ => []
  | _ :: t, O => x :: t
  | y :: t, S j => y :: upd t j x
  end.

Lemma length_upd {A} (l : list A) i x : length (upd l i x) = length l.
Proof. revert i; induction l as [|y l IH]; intros [|i]; simpl; auto. Qed.

Lemma nth_error_upd_eq {A} (l : list A) i x :
  i < length l -> nth_error (upd l i x) i = Some x.
Proof. revert i; induction l as [|y l IH]; intros [|i] H; simpl in *; try lia; auto.
       apply IH; lia. Qed.

Lemma nth_error_upd_neq {A} (l : list A) i j x :
  i <> j -> nth_error (upd l i x) j = nth_error l j.
Proof. revert i j; induction l as [|y l IH]; intros [|i] [|j] H; simpl; auto; try congruence. Qed.

Lemma upd_app_r {A} (l1 l2 : list A) i x :
  upd (l1 ++ l2) (length l1 + i) x = l1 ++ upd l2 i x.
Proof. induction l1 as [|y l1 IH]; simpl; [auto | now rewrite IH]. Qed.

Lemma upd_Permutation {A} (l : list A) i a x :
  nth_error l i = Some a -> Permutation (x :: l) (a :: upd l i x).
Proof.
  revert i; induction l as [|y l IH]; intros [|i] H; simpl in *; try discriminate.
  - inversion H; subst. apply perm_swap.
  - rewrite perm_swap. rewrite (IH _ H). apply perm_swap.
Qed.

Lemma nth_error_Some_lt {A} (l : list A) i a : nth_error l i = Some a -> i < length l.
Proof. intros H. apply nth_error_Some. congruence. Qed.

Lemma nth_error_lt_Some {A} (l : list A) i : i < length l -> exists a, nth_error l i = Some a.
Proof. intros H. destruct (nth_error l i) eqn:E; [eauto|]. apply nth_error_None in E. lia. Qed.

Lemma upd_upd_Permutation {A} (l : list A) i j a b :
  i <> j -> nth_error l i = Some a -> nth_error l j = Some b ->
  Permutation l (upd (upd l i b) j a).
Proof.
  intros Hij Hi Hj.
  assert (H1 : Permutation (b :: l) (a :: upd l i b)) by (apply upd_Permutation; auto).
  assert (H2 : Permutation (a :: upd l i b) (b :: upd (upd l i b) j a)).
  { apply upd_Permutation. rewrite nth_error_upd_neq; auto. }
  apply Permutation_cons_inv with b. now rewrite H1.
Qed.
