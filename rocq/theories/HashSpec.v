(** Specification of the hash table: a finite map from keys to elements. *)
From Verif Require Import Util HeapModel HashModel.

Section Spec.
Context {A K : Type} (key_of : A -> K) (keq : K -> K -> bool).

Definition amap := K -> option A.
Definition amap_empty : amap := fun _ => None.

(** search-then-set returns the element already stored under the key (and keeps
    it), or stores the new one; remove drops the binding of the element's key. *)
Definition map_step (m : amap) (o : hashop A K) : amap * option A :=
  match o with
  | OSearch k => (m, m k)
  | OAdd x => match m (key_of x) with
              | Some y => (m, Some y)
              | None => (fun k => if keq k (key_of x) then Some x else m k, None)
              end
  | ORemove x => (fun k => if keq k (key_of x) then None else m k, None)
  end.

Fixpoint map_run (m : amap) (ops : list (hashop A K)) : amap * list (option A) :=
  match ops with
  | [] => (m, [])
  | o :: l => let (m', r) := map_step m o in
              let (m'', rs) := map_run m' l in (m'', r :: rs)
  end.

(** the elements ever handed to add *)
Definition added (ops : list (hashop A K)) : list A :=
  flat_map (fun o => match o with OAdd x => [x] | _ => [] end) ops.
End Spec.
