(** Model of the binary heap, /repo/src/napr_heap.c.
    The live prefix [tree[0..count)] is a list; cells at and beyond [count] are
    never read by the code and are not represented.  Allocation failure, the
    mutex of the [_r] variants and the overflow of new_max are in HeapLockModel. *)
From Verif Require Import Util.
Local Open Scope nat_scope.

(** Outcome of a modelled call: [UB] marks an out-of-range array access,
    [Fuel] an exhausted loop bound. *)
Inductive hres (T : Type) : Type := HOk (x : T) | HUB | HFuel.
Arguments HOk {T} x. Arguments HUB {T}. Arguments HFuel {T}.

(** napr_heap.c:33-46 *)
Definition hparent (p : nat) : nat := (p - 1) / 2.
Definition hleft (p : nat) : nat := 2 * p + 1.
Definition hright (p : nat) : nat := 2 * (p + 1).

Section Heap.
Context {A : Type}.
Variable cmp : A -> A -> Z.   (* the user callback, napr_heap.c:53 *)

(** struct napr_heap_t, napr_heap.c:48-57: [count] is [length tree]. *)
Record heap := mkHeap { h_tree : list A; h_max : N }.

(** napr_heap_make, napr_heap.c:63-83 (INITIAL_MAX, line 30) *)
Definition heap_make : heap := mkHeap [] 256%N.

(** napr_heap.c:127-129 and 185-187: exchange two cells. *)
Definition swap (l : list A) (i j : nat) : option (list A) :=
  match nth_error l i, nth_error l j with
  | Some a, Some b => Some (upd (upd l i b) j a)
  | _, _ => None
  end.

(** the loop of napr_heap.c:123-133 *)
Fixpoint sift_up (fuel : nat) (l : list A) (ipos : nat) : hres (list A) :=
  match fuel with
  | O => HFuel
  | S f =>
    if Nat.eqb ipos 0 then HOk l
    else
      let ppos := hparent ipos in
      match nth_error l ppos, nth_error l ipos with
      | Some p, Some x =>
        if (cmp p x <? 0)%Z then
          match swap l ppos ipos with
          | Some l' => sift_up f l' ppos
          | None => HUB
          end
        else HOk l
      | _, _ => HUB
      end
  end.

(** napr_heap.c:97-99: smallest power of two strictly above [max]
    (the 32-bit overflow of new_max for max >= 2^31 is in HeapLockModel). *)
Definition grow (max : N) : N := if (max =? 0)%N then 1%N else (2 ^ (N.log2 max + 1))%N.

(** napr_heap_insert, napr_heap.c:85-138 *)
Definition heap_insert (h : heap) (x : A) : hres heap :=
  let count := length (h_tree h) in
  let max := if (h_max h <=? N.of_nat count)%N then grow (h_max h) else h_max h in
  if (N.of_nat count <? max)%N then
    match sift_up (S count) (h_tree h ++ [x]) count with
    | HOk l => HOk (mkHeap l max)
    | HUB => HUB
    | HFuel => HFuel
    end
  else HUB.

(** napr_heap.c:163-179: choice of mpos *)
Definition choose (l : list A) (ipos : nat) : option nat :=
  let lpos := hleft ipos in
  let rpos := hright ipos in
  if lpos <? length l then
    match nth_error l lpos, nth_error l ipos with
    | Some a, Some b =>
      let mpos := if (cmp a b >? 0)%Z then lpos else ipos in
      if rpos <? length l then
        match nth_error l rpos, nth_error l mpos with
        | Some c, Some d => Some (if (cmp c d >? 0)%Z then rpos else mpos)
        | _, _ => None
        end
      else Some mpos
    | _, _ => None
    end
  else Some ipos.

(** the loop of napr_heap.c:162-193 *)
Fixpoint sift_down (fuel : nat) (l : list A) (ipos : nat) : hres (list A) :=
  match fuel with
  | O => HFuel
  | S f =>
    match choose l ipos with
    | None => HUB
    | Some mpos =>
      if negb (Nat.eqb mpos ipos) then
        match swap l mpos ipos with
        | Some l' => sift_down f l' mpos
        | None => HUB
        end
      else HOk l
    end
  end.

(** napr_heap_extract, napr_heap.c:140-197 *)
Definition heap_extract (h : heap) : hres (heap * option A) :=
  match h_tree h with
  | [] => HOk (h, None)
  | r :: _ =>
    let n := length (h_tree h) in
    match nth_error (h_tree h) (n - 1) with
    | None => HUB
    | Some last =>
      (* tree[0] = tree[count-1]; count-- (lines 157-159) *)
      let l := firstn (n - 1) (upd (h_tree h) 0 last) in
      match sift_down (S n) l 0 with
      | HOk l' => HOk (mkHeap l' (h_max h), Some r)
      | HUB => HUB
      | HFuel => HFuel
      end
    end
  end.

(** napr_heap_get_nth, napr_heap.c:199-205 *)
Definition heap_get_nth (h : heap) (n : nat) : option A := nth_error (h_tree h) n.
(** napr_heap_size, napr_heap.c:207-210 *)
Definition heap_size (h : heap) : nat := length (h_tree h).

Inductive hop := HInsert (x : A) | HExtract.

Definition heap_step (h : heap) (o : hop) : hres (heap * option A) :=
  match o with
  | HInsert x => match heap_insert h x with HOk h' => HOk (h', None) | HUB => HUB | HFuel => HFuel end
  | HExtract => heap_extract h
  end.

(** run a sequence of operations, collecting the result of every call *)
Fixpoint heap_run (h : heap) (ops : list hop) : hres (heap * list (option A)) :=
  match ops with
  | [] => HOk (h, [])
  | o :: t =>
    match heap_step h o with
    | HOk (h', r) =>
      match heap_run h' t with
      | HOk (h'', rs) => HOk (h'', r :: rs)
      | HUB => HUB
      | HFuel => HFuel
      end
    | HUB => HUB
    | HFuel => HFuel
    end
  end.
End Heap.
Arguments heap A : clear implicits.
Arguments hop A : clear implicits.
