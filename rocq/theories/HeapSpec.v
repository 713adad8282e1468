(** Specification of the priority queue, independent of the array layout:
    a bag from which extraction removes some maximal element. *)
From Verif Require Import Util HeapModel.

Section Spec.
Context {A : Type} (cmp : A -> A -> Z).

(** The callback is the three-way comparison of a total preorder. *)
Definition total_preorder : Prop :=
  (forall a b, Z.sgn (cmp a b) = - Z.sgn (cmp b a))%Z /\
  (forall a b c, cmp a b <= 0 -> cmp b c <= 0 -> cmp a c <= 0)%Z.

(** What one call may do to the bag [s]. *)
Definition bag_step (s : list A) (o : hop A) (r : option A) (s' : list A) : Prop :=
  match o with
  | HInsert x => r = None /\ Permutation s' (x :: s)
  | HExtract => match r with
                | None => s = [] /\ s' = []
                | Some m => Permutation s (m :: s') /\ forall y, In y s -> (cmp y m <= 0)%Z
                end
  end.

Inductive bag_trace : list A -> list (hop A) -> list (option A) -> list A -> Prop :=
| bt_nil s : bag_trace s [] [] s
| bt_cons s o r s1 ops rs s2 :
    bag_step s o r s1 -> bag_trace s1 ops rs s2 -> bag_trace s (o :: ops) (r :: rs) s2.

(** elements given to insert, and elements returned by extract *)
Definition inserted (ops : list (hop A)) : list A :=
  flat_map (fun o => match o with HInsert x => [x] | HExtract => [] end) ops.
Definition outputs (rs : list (option A)) : list A :=
  flat_map (fun r => match r with Some x => [x] | None => [] end) rs.
End Spec.
