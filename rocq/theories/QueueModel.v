(** Model of the linked list of /repo/src/napr_threadpool.c:33-155 with its cells in memory.

    A pointer is a number, 0 is NULL; [m_cell] is what an address holds, [None] if it was
    never allocated or has been given back.  apr_palloc returns the next unused address and
    does not fail.  nb_cells does not reach 2^64. *)
From Verif Require Import Util.
Local Open Scope N_scope.

(** napr_cell_t, napr_threadpool.c:36-40 *)
Record cell := mkCell { c_next : N; c_data : N }.
Record mem := mkMem { m_cell : N -> option cell; m_free : N }.
Definition mem_init : mem := mkMem (fun _ => None) 1.
Definition store (m : mem) (a : N) (c : cell) : mem :=
  mkMem (fun x => if x =? a then Some c else m_cell m x) (m_free m).
(** napr_list_t, napr_threadpool.c:44-50, without the pool *)
Record llist := mkL { l_head : N; l_tail : N; l_nb : N }.

(** napr_list_make, napr_threadpool.c:52-68 *)
Definition list_make : llist := mkL 0 0 0.
(** apr_palloc of a cell, then its two fields *)
Definition alloc (m : mem) (c : cell) : mem * N :=
  (mkMem (fun x => if x =? m_free m then Some c else m_cell m x) (m_free m + 1), m_free m).
(** napr_list_cons, napr_threadpool.c:76-96 *)
Definition list_cons (m : mem) (l : llist) (x : N) : mem * llist :=
  let '(m', a) := alloc m (mkCell (l_head l) x) in
  let nb := l_nb l + 1 in
  (m', mkL a (if nb =? 1 then a else l_tail l) nb).
(** napr_list_cdr, napr_threadpool.c:98-105; [None]: the head is NULL or not a cell *)
Definition list_cdr (m : mem) (l : llist) : option llist :=
  match m_cell m (l_head l) with
  | Some c => Some (mkL (c_next c) (l_tail l) (l_nb l - 1))
  | None => None
  end.
(** napr_list_delete, napr_threadpool.c:107-114: the loop, then the pool with the cells is
    destroyed; [fuel] bounds the loop *)
Fixpoint list_delete (fuel : nat) (m : mem) (l : llist) : option mem :=
  if l_head l =? 0 then Some (mkMem (fun _ => None) (m_free m))
  else match fuel with
       | O => None
       | S f => match list_cdr m l with Some l' => list_delete f m l' | None => None end
       end.
(** napr_list_enqueue, napr_threadpool.c:116-139; [None]: the tail is not a cell *)
Definition list_enqueue (m : mem) (l : llist) (x : N) : option (mem * llist) :=
  if l_nb l =? 0 then Some (list_cons m l x)
  else
    let '(m', a) := alloc m (mkCell 0 x) in
    match m_cell m' (l_tail l) with
    | Some c => Some (store m' (l_tail l) (mkCell a (c_data c)), mkL (l_head l) a (l_nb l + 1))
    | None => None
    end.
(** napr_list_first and napr_list_get, napr_threadpool.c:141-155, as used on lines 326-327 *)
Definition list_first (m : mem) (l : llist) : option N :=
  match m_cell m (l_head l) with Some c => Some (c_data c) | None => None end.

(** The uses of the list by the pool, each under the mutex: line 257; lines 326-328 behind
    the test 0 < napr_list_size of line 390; lines 310-311. *)
Inductive use := Enqueue (x : N) | Take | Renew.
Inductive outcome := Done | Took (x : N) | Empty.
Definition use_list (m : mem) (l : llist) (u : use) : option (mem * llist * outcome) :=
  match u with
  | Enqueue x => match list_enqueue m l x with Some (m', l') => Some (m', l', Done) | None => None end
  | Take => if 0 <? l_nb l then
              match list_first m l with
              | Some x => match list_cdr m l with Some l' => Some (m, l', Took x) | None => None end
              | None => None
              end
            else Some (m, l, Empty)
  | Renew => match list_delete (N.to_nat (l_nb l)) m l with
             | Some m' => Some (m', list_make, Done)
             | None => None
             end
  end.
Fixpoint use_all (m : mem) (l : llist) (us : list use) : option (list outcome) :=
  match us with
  | [] => Some []
  | u :: r => match use_list m l u with
              | Some (m', l', o) => match use_all m' l' r with Some os => Some (o :: os) | None => None end
              | None => None
              end
  end.
