(** Threads marking paths on one cache handle: napr_cache_mark_visited
    (/repo/src/napr_cache.c:360-396), access by access.

    Every step is one access to the shared structure or one lock operation; the accesses of
    different threads interleave in any order.  The lock functions do not fail.  Memory is
    sequentially consistent.  apr_hash_set of APR is two accesses, one that looks at the table
    and one that writes it; a thread that comes to the table between the two accesses of another
    thread meets a half-changed table, which is undefined behaviour. *)
From Verif Require Import Util PageModel.

(** where a thread is in its call with the path [p] *)
Inductive pos :=
| Between                                   (* between two calls *)
| MLock (p : bytes)                         (* napr_cache.c:371 *)
| MDup (p : bytes)                          (* line 378, apr_pstrdup *)
| MLook (p : bytes)                         (* line 387, first access *)
| MStore (p : bytes) (seen : list bytes)    (* line 387, second access *)
| MUnlock (p : bytes) (ok : bool).          (* lines 381 and 390 *)

(** a thread: the paths it has still to mark, where it is, and the calls that have returned,
    newest first, with [true] for APR_SUCCESS and [false] for APR_ENOMEM *)
Record thread := mkThread { t_todo : list bytes; t_pos : pos; t_done : list (bytes * bool) }.
(** cache->visited_set as the list of its keys and cache->visited_mutex with its owner
    (napr_cache.c:24-32); [busy] is the thread that is changing the table *)
Record st := mkSt { vis : list bytes; busy : option nat; lock : option nat; threads : list thread }.

(** the next state; the thread waits or has nothing to do; undefined behaviour *)
Inductive outcome := Next (s : st) | Blocked | Bad.

(** One step of thread [t]; [mem] tells whether apr_pstrdup finds memory.
    napr_cache.c:360-396 *)
Definition step (s : st) (t : nat) (mem : bool) : outcome :=
  match nth_error (threads s) t with
  | None => Blocked
  | Some th =>
    let go p := upd (threads s) t (mkThread (t_todo th) p (t_done th)) in
    match t_pos th with
    | Between =>
        match t_todo th with
        | [] => Blocked
        | p :: r => Next (mkSt (vis s) (busy s) (lock s) (upd (threads s) t (mkThread r (MLock p) (t_done th))))
        end
    | MLock p =>
        match lock s with
        | None => Next (mkSt (vis s) (busy s) (Some t) (go (MDup p)))
        | Some _ => Blocked
        end
    | MDup p => Next (mkSt (vis s) (busy s) (lock s) (go (if mem then MLook p else MUnlock p false)))
    | MLook p =>
        match busy s with
        | None => Next (mkSt (vis s) (Some t) (lock s) (go (MStore p (vis s))))
        | Some _ => Bad
        end
    | MStore p seen => Next (mkSt (p :: seen) None (lock s) (go (MUnlock p true)))
    | MUnlock p ok =>
        Next (mkSt (vis s) (busy s) None (upd (threads s) t (mkThread (t_todo th) Between ((p, ok) :: t_done th))))
    end
  end.

(** threads about to mark the given paths, with the marks [v] already there *)
Definition start (v : list bytes) (calls : list (list bytes)) : st :=
  mkSt v None None (map (fun l => mkThread l Between []) calls).
