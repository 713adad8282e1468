(** Property theorems for /repo/src/napr_heap.c (C29, C30). *)
From Verif Require Import Util HeapModel HeapSpec HeapProofs.

(** C30: no element is lost or duplicated and no cell outside the array is
    touched, for any callback whatsoever and any number of growths. *)
Theorem heap_conservation : forall (A : Type) (cmp : A -> A -> Z) (ops : list (hop A)),
  exists h rs, heap_run cmp heap_make ops = HOk (h, rs) /\ length rs = length ops /\
    Permutation (inserted ops) (outputs rs ++ h_tree h).
Proof.
  intros A cmp ops.
  destruct (heap_run_conserve_gen cmp ops heap_make hwf_make) as [h [rs [E [_ [L P]]]]].
  exists h, rs. auto.
Qed.
Print Assumptions heap_conservation.

(** C29: every call behaves as on a bag whose extraction returns a maximum. *)
Theorem heap_extracts_maximum : forall (A : Type) (cmp : A -> A -> Z),
  total_preorder cmp -> forall ops : list (hop A),
  exists h rs, heap_run cmp heap_make ops = HOk (h, rs) /\
    bag_trace cmp [] ops rs (h_tree h) /\ heap_size h = length (h_tree h).
Proof.
  intros A cmp TP ops.
  destruct (heap_run_bag cmp TP ops heap_make hwf_make (hord_make cmp)) as [h [rs [E B]]].
  exists h, rs. auto.
Qed.
Print Assumptions heap_extracts_maximum.

(** C30: draining yields a descending permutation, then nothing. *)
Theorem heap_drain_sorted : forall (A : Type) (cmp : A -> A -> Z),
  total_preorder cmp -> forall xs : list A,
  exists h ys, heap_run cmp heap_make (map HInsert xs ++ repeat HExtract (length xs) ++ [HExtract])
      = HOk (h, map (fun _ => None) xs ++ map Some ys ++ [None]) /\
    Permutation xs ys /\ StronglySorted (fun a b => (cmp b a <= 0)%Z) ys /\ h_tree h = [].
Proof.
  intros A cmp TP xs.
  destruct (heap_run_bag cmp TP (map HInsert xs ++ repeat HExtract (length xs) ++ [HExtract])
              heap_make hwf_make (hord_make cmp)) as [h [rs [E B]]].
  apply bag_trace_app_inv in B as [r1 [r2 [s1 [-> [B1 B2]]]]].
  apply bag_trace_app_inv in B2 as [r3 [r4 [s2 [-> [B2 B3]]]]].
  apply bag_trace_inserts in B1 as [-> P1]. simpl in P1. rewrite app_nil_r in P1.
  apply bag_trace_extracts in B2; [|now rewrite (Permutation_length P1)].
  destruct B2 as [-> [ys [-> [P2 S]]]].
  apply bag_trace_cons_inv in B3 as [r [s3 [rs' [-> [B3 B4]]]]].
  apply bag_trace_nil_inv in B4 as [-> B4].
  assert (r = None /\ h_tree h = []) as [-> Hh].
  { destruct r; simpl in B3; [destruct B3 as [B3 _]; apply Permutation_nil_cons in B3; tauto |].
    split; [auto|]. rewrite B4. tauto. }
  exists h, ys. split; [exact E|]. split; [now rewrite <- P2|]. auto.
Qed.
Print Assumptions heap_drain_sorted.

(** Non-vacuity: a non-trivial preorder with ties (comparison by first component,
    as ft_file_cmp compares by size) and a run on it. *)
Definition cmp_fst (a b : Z * Z) : Z :=
  if (fst a =? fst b)%Z then 0 else if (fst a <? fst b)%Z then -1 else 1.
Example cmp_fst_preorder : total_preorder cmp_fst.
Proof.
  unfold total_preorder, cmp_fst; split; intros.
  - destruct (Z.eqb_spec (fst a) (fst b)), (Z.eqb_spec (fst b) (fst a)),
      (Z.ltb_spec (fst a) (fst b)), (Z.ltb_spec (fst b) (fst a)); simpl; lia.
  - destruct (Z.eqb_spec (fst a) (fst b)), (Z.eqb_spec (fst b) (fst c)), (Z.eqb_spec (fst a) (fst c)),
      (Z.ltb_spec (fst a) (fst b)), (Z.ltb_spec (fst b) (fst c)), (Z.ltb_spec (fst a) (fst c)); lia.
Qed.
Example heap_run_example :
  exists h, heap_run cmp_fst heap_make
    [HInsert (1,0); HInsert (3,1); HInsert (2,2); HInsert (3,3); HExtract; HExtract; HExtract]%Z
  = HOk (h, [None; None; None; None; Some (3,1); Some (3,3); Some (2,2)])%Z.
Proof. eexists. vm_compute. reflexivity. Qed.
