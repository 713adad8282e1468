(** Threads inserting into one heap: napr_heap_make_r and napr_heap_insert_r
    (/repo/src/napr_heap.c:215-251) and, access by access, napr_heap_insert
    (/repo/src/napr_heap.c:85-138) on shared memory.

    Every step is one access to the shared structure or one lock operation; the accesses of
    different threads interleave in any order.  Reads that an access needs for its address
    (heap->tree, heap->count) are taken together with it.  The lock functions do not fail.
    Memory is sequentially consistent. *)
From Verif Require Import Util HeapModel.
Local Open Scope nat_scope.

(** The loop that looks for the new size, napr_heap.c:97-99, with new_max an unsigned int of
    32 bits; [None]: not left after [fuel] rounds.  HeapModel has its result below 2^31. *)
Fixpoint grow_loop (fuel : nat) (new_max max : N) : option N :=
  match fuel with
  | O => None
  | S f => if (new_max <=? max)%N then grow_loop f ((new_max * 2) mod 2 ^ 32)%N max else Some new_max
  end.

Section Threads.
Context {A : Type}.
Variable cmp : A -> A -> Z.

(** where a thread is; [x] is the datum of its call.
    [safe] is true for napr_heap_insert_r and false for napr_heap_insert *)
Inductive pos :=
| Between                                   (* between two calls *)
| Lock (x : A)                              (* napr_heap.c:238 *)
| Check (safe : bool) (x : A)               (* line 90 *)
| Alloc (safe : bool) (x : A)               (* lines 97-101 *)
| Copy (safe : bool) (x : A) (m : N)        (* lines 103-104 *)
| SetTree (safe : bool) (x : A) (m : N) (t : nat -> option A)   (* line 105 *)
| SetMax (safe : bool) (x : A) (m : N)      (* line 106 *)
| Store (safe : bool) (x : A)               (* line 118 *)
| GetPos (safe : bool) (x : A)              (* lines 120-121 *)
| Loop (safe : bool) (x : A) (i : nat)      (* line 123 *)
| Swap1 (safe : bool) (x : A) (i : nat)     (* line 127 *)
| Swap2 (safe : bool) (x : A) (i : nat) (tmp : A)   (* line 128 *)
| Swap3 (safe : bool) (x : A) (i : nat) (tmp : A)   (* line 129 *)
| GetCount (safe : bool) (x : A)            (* line 135, the read *)
| SetCount (safe : bool) (x : A) (c : nat)  (* line 135, the write *)
| Unlock (x : A)                            (* lines 242-244 *)
| NoMemory (x : A).                         (* line 111 of a locked call: -1 is returned *)

(** a thread: the calls it has still to make (with or without lock), where it is, and the data
    of the calls that have returned 0, newest first *)
Record thread := mkThread { t_todo : list (bool * A); t_pos : pos; t_done : list A }.
(** struct napr_heap_t, napr_heap.c:48-57.  [cells] is what heap->tree points to, [size] how
    many cells were allocated for it; [lock] is the owner of heap->mutex.  A cell that holds
    NULL or was never written is [None].  [lost]: heap->tree is NULL. *)
Record st := mkSt { cells : nat -> option A; size : N; maxi : N; count : nat; lock : option nat; lost : bool; threads : list thread }.

(** result of a step: the next state; the thread waits or has nothing to do; undefined
    behaviour *)
Inductive outcome := Next (s : st) | Blocked | Bad.

Definition setc (f : nat -> option A) (i : nat) (v : option A) : nat -> option A := fun j => if Nat.eqb i j then v else f j.
(** thread [t] of [s] moves to [p] *)
Definition goto (s : st) (t : nat) (th : thread) (p : pos) : st :=
  mkSt (cells s) (size s) (maxi s) (count s) (lock s) (lost s) (upd (threads s) t (mkThread (t_todo th) p (t_done th))).

(** One step of thread [t]; [mem] tells whether apr_palloc finds memory.  napr_heap.c:85-138
    and 233-251. *)
Definition step (s : st) (t : nat) (mem : bool) : outcome :=
  match nth_error (threads s) t with
  | None => Blocked
  | Some th =>
    let go p := goto s t th p in
    let with_cells f p := mkSt f (size s) (maxi s) (count s) (lock s) (lost s) (threads (go p)) in
    let fin x := mkThread (t_todo th) Between (x :: t_done th) in
    match t_pos th with
    | Between =>
        match t_todo th with
        | [] => Blocked
        | (safe, x) :: r =>
            Next (mkSt (cells s) (size s) (maxi s) (count s) (lock s) (lost s)
                    (upd (threads s) t (mkThread r (if safe then Lock x else Check false x) (t_done th))))
        end
    | Lock x =>
        match lock s with
        | None => Next (mkSt (cells s) (size s) (maxi s) (count s) (Some t) (lost s) (threads (go (Check true x))))
        | Some _ => Blocked
        end
    | Check b x => Next (go (if (maxi s <=? N.of_nat (count s))%N then Alloc b x else Store b x))
    | Alloc b x =>
        if mem then Next (go (Copy b x (grow (maxi s))))
        else Next (mkSt (cells s) (size s) (maxi s) (count s) (lock s) true
                     (threads (go (if b then NoMemory x else Between))))
    | Copy b x m =>
        if lost s then Bad
        else if (N.of_nat (count s) <=? size s)%N && (N.of_nat (count s) <? m)%N
        then Next (go (SetTree b x m (fun i => if i <? count s then cells s i else None)))
        else Bad
    | SetTree b x m f => Next (mkSt f m (maxi s) (count s) (lock s) (lost s) (threads (go (SetMax b x m))))
    | SetMax b x m => Next (mkSt (cells s) (size s) m (count s) (lock s) (lost s) (threads (go (Store b x))))
    | Store b x =>
        if lost s then Bad
        else if (N.of_nat (count s) <? size s)%N then Next (with_cells (setc (cells s) (count s) (Some x)) (GetPos b x)) else Bad
    | GetPos b x => Next (go (Loop b x (count s)))
    | Loop b x i =>
        if Nat.eqb i 0 then Next (go (GetCount b x))
        else match cells s (hparent i), cells s i with
             | Some p, Some c => Next (go (if (cmp p c <? 0)%Z then Swap1 b x i else GetCount b x))
             | _, _ => Bad
             end
    | Swap1 b x i => match cells s (hparent i) with Some v => Next (go (Swap2 b x i v)) | None => Bad end
    | Swap2 b x i tmp => Next (with_cells (setc (cells s) (hparent i) (cells s i)) (Swap3 b x i tmp))
    | Swap3 b x i tmp => Next (with_cells (setc (cells s) i (Some tmp)) (Loop b x (hparent i)))
    | GetCount b x => Next (go (SetCount b x (count s)))
    | SetCount b x c =>
        Next (mkSt (cells s) (size s) (maxi s) (S c) (lock s) (lost s)
                (if b then threads (go (Unlock x)) else upd (threads s) t (fin x)))
    | Unlock x => Next (mkSt (cells s) (size s) (maxi s) (count s) None (lost s) (upd (threads s) t (fin x)))
    | NoMemory x => Next (go Between)
    end
  end.

(** napr_heap_make_r, napr_heap.c:215-231, and threads about to make the given calls *)
Definition start (calls : list (list (bool * A))) : st :=
  mkSt (fun _ => None) 256 256 0 None false (map (fun l => mkThread l Between []) calls).
End Threads.
Arguments pos A : clear implicits.
Arguments thread A : clear implicits.
Arguments st A : clear implicits.
Arguments outcome A : clear implicits.
