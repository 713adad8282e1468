(** Specification vocabulary for threads that insert into one heap. *)
From Verif Require Import Util HeapModel HeapSpec HeapLockModel.
Local Open Scope nat_scope.

Section Spec.
Context {A : Type}.
Variable cmp : A -> A -> Z.

(** An execution: the threads named in [l] act one after the other; the flag tells whether an
    allocation in this step would succeed. *)
Fixpoint play (s : st A) (l : list (nat * bool)) : outcome A :=
  match l with
  | [] => Next s
  | (t, mem) :: r => match step cmp s t mem with Next s' => play s' r | o => o end
  end.
(** memory was always found *)
Definition memory_lasts (l : list (nat * bool)) : Prop := Forall (fun e => snd e = true) l.
(** every call is one of napr_heap_insert_r *)
Definition all_safe (calls : list (list (bool * A))) : Prop := Forall (Forall (fun e => fst e = true)) calls.

(** the cells in use *)
Definition contents (s : st A) : list (option A) := map (cells s) (seq 0 (count s)).
(** all calls of thread [t] have returned *)
Definition finished (s : st A) : Prop := Forall (fun th => t_todo th = [] /\ t_pos th = Between) (threads s).

(** [order] is a list of insertions with the threads that made them: the data of thread [t],
    newest first *)
Definition by_thread (t : nat) (order : list (nat * A)) : list A := rev (map snd (filter (fun e => Nat.eqb (fst e) t) order)).
(** the heap holds what a single thread would have left there by inserting [order] *)
Definition as_if (s : st A) (order : list (nat * A)) : Prop :=
  exists l, heap_run cmp heap_make (map (fun e => HInsert (snd e)) order) = HOk (mkHeap l (maxi s), map (fun _ => None) order) /\
    contents s = map Some l /\ (N.of_nat (length l) <= size s)%N.
End Spec.
