(** Model of /repo/src/napr_threadpool.c: a transition system whose states are the
    fields of the pool, the position of every worker in napr_threadpool_loop and the
    position of every client thread in its sequence of calls.

    Granularity: every field is read and written with threadpool_mutex held
    (napr_threadpool.c:163), so what a thread does from one acquisition of the mutex to
    the next release is one step; the mutex itself therefore does not appear in the
    state.  cond_signal in napr_threadpool_add happens after the unlock (line 262) and is
    a step of its own.  Failing APR calls are left out. *)
From Verif Require Import Util.

(** Position of a worker: before the lock of line 381, in the callback (line 337), after
    it and before the lock of line 339, blocked in the condition wait of line 365, woken
    there but without the mutex yet, returned. *)
Inductive wpc := WStart | WProc (x : N) | WRelock | WWait | WWoken | WDone.

(** calls made by a client thread; the argument is the data pointer, 0 is NULL *)
Inductive call := Add (x : N) | Wait | Shutdown.
(** Position of a client: between calls, in napr_threadpool_add before the signal of line
    262, blocked in the condition wait of line 294 of napr_threadpool_wait, woken there
    but without the mutex yet, joining the workers (lines 441-447 of
    napr_threadpool_shutdown). *)
Inductive cpc := CRun | CSignal | CWait | CWoken | CJoin.
Record client := mkC { c_pc : cpc; c_script : list call }.

(** Ghost record of what happened, oldest first. *)
Inductive event :=
| EAdd (c : nat) (x : N)       (* client c queued x *)
| EStart (w : nat) (x : N)     (* worker w calls process_data on x *)
| EFinish (w : nat) (x : N)    (* that call returns *)
| EWaitRet (c : nat)           (* napr_threadpool_wait returns to client c *)
| EJoined (c : nat).           (* napr_threadpool_shutdown returns to client c *)

(** struct napr_threadpool_t, napr_threadpool.c:159-198; nb_thread is the length of
    [workers], the linked list of lines 38-155 is the sequence of its elements. *)
Record pool := mkPool {
  workers : list wpc; clients : list client;
  queue : list N; nb_waiting : nat;
  running : bool; ended : bool; shut : bool;
  log : list event }.

(** napr_threadpool_init, napr_threadpool.c:203-243, with the scripts of the clients *)
Definition pool_init (n : nat) (scripts : list (list call)) : pool :=
  mkPool (repeat WStart n) (map (mkC CRun) scripts) [] 0 false false false [].

(** apr_thread_cond_broadcast: all blocked threads are woken *)
Definition wake_w (w : wpc) : wpc := match w with WWait => WWoken | _ => w end.
Definition wake_c (c : client) : client :=
  match c_pc c with CWait => mkC CWoken (c_script c) | _ => c end.

(** napr_threadpool.c:391 with 326-330 and 347: elements that are NULL are taken off the
    list without giving up the mutex *)
Fixpoint drop_null (q : list N) : list N :=
  match q with
  | 0%N :: t => drop_null t
  | _ => q
  end.

(** wait_for_task, napr_threadpool.c:349-365, up to the release of the mutex in
    apr_thread_cond_wait *)
Definition wait_for_task (p : pool) (i : nat) : pool :=
  let nb := S (nb_waiting p) in
  if negb (ended p) && running p && (nb =? length (workers p)) then
    mkPool (upd (map wake_w (workers p)) i WWait) (map wake_c (clients p))
           (queue p) nb (running p) true (shut p) (log p)
  else
    mkPool (upd (workers p) i WWait) (clients p) (queue p) nb (running p) (ended p) (shut p) (log p).

(** the body of napr_threadpool_loop, napr_threadpool.c:389-402, from the test of the
    loop to the next release of the mutex; process_task is lines 320-333 *)
Definition section (p : pool) (i : nat) : pool :=
  if shut p then
    mkPool (upd (workers p) i WDone) (clients p) (queue p) (nb_waiting p) (running p) (ended p) (shut p) (log p)
  else if ended p then wait_for_task p i
  else match drop_null (queue p) with
       | x :: r => mkPool (upd (workers p) i (WProc x)) (clients p) r (nb_waiting p) (running p)
                          (ended p) (shut p) (log p ++ [EStart i x])
       | [] => wait_for_task (mkPool (workers p) (clients p) [] (nb_waiting p) (running p)
                                     (ended p) (shut p) (log p)) i
       end.

(** One step of worker [i].  Acquiring the mutex is always possible, see above. *)
Definition worker_step (p : pool) (i : nat) : option pool :=
  match nth_error (workers p) i with
  | Some WStart | Some WRelock => Some (section p i)
  | Some (WProc x) =>
      Some (mkPool (upd (workers p) i WRelock) (clients p) (queue p) (nb_waiting p) (running p)
                   (ended p) (shut p) (log p ++ [EFinish i x]))
  | Some WWoken => (* line 371: nb_waiting-- *)
      Some (section (mkPool (workers p) (clients p) (queue p) (nb_waiting p - 1) (running p)
                            (ended p) (shut p) (log p)) i)
  | _ => None
  end.

(** napr_threadpool.c:282: the length of the list is cast to int, so it counts modulo 2^32 *)
Definition int_is_zero (n : nat) : bool := (N.of_nat n mod 2 ^ 32 =? 0)%N.

(** One step of client [j] other than the signal: lines 250-261 of napr_threadpool_add;
    lines 278-294 of napr_threadpool_wait and, when it does not block or has been woken,
    lines 301-317; lines 416-440 of napr_threadpool_shutdown and the join. *)
Definition client_step (p : pool) (j : nat) : option pool :=
  match nth_error (clients p) j with
  | None => None
  | Some c =>
    match c_pc c, c_script c with
    | CRun, Add x :: s =>
        Some (mkPool (workers p) (upd (clients p) j (mkC CSignal s)) (queue p ++ [x]) (nb_waiting p)
                     (running p) false (shut p) (log p ++ [EAdd j x]))
    | CRun, Wait :: s =>
        if negb (int_is_zero (length (queue p))) || negb (nb_waiting p =? length (workers p)) then
          Some (mkPool (workers p) (upd (clients p) j (mkC CWait s)) (queue p) (nb_waiting p)
                       true (ended p) (shut p) (log p))
        else
          Some (mkPool (workers p) (upd (clients p) j (mkC CRun s)) [] (nb_waiting p)
                       (running p) (ended p) (shut p) (log p ++ [EWaitRet j]))
    | CWoken, s =>
        Some (mkPool (workers p) (upd (clients p) j (mkC CRun s)) [] (nb_waiting p)
                     false (ended p) (shut p) (log p ++ [EWaitRet j]))
    | CRun, Shutdown :: s =>
        Some (mkPool (map wake_w (workers p)) (upd (map wake_c (clients p)) j (mkC CJoin s)) (queue p)
                     (nb_waiting p) (running p) (ended p) true (log p))
    | CJoin, s =>
        if forallb (fun w => match w with WDone => true | _ => false end) (workers p) then
          Some (mkPool (workers p) (upd (clients p) j (mkC CRun s)) (queue p) (nb_waiting p)
                       (running p) (ended p) (shut p) (log p ++ [EJoined j]))
        else None
    | _, _ => None
    end
  end.

(** apr_thread_cond_signal, napr_threadpool.c:262: wakes at least one of the blocked
    threads, here the workers whose index is in [ws] and the clients whose index is in
    [cs]; workers and waiting clients block on the same condition variable. *)
Definition blocked_w (w : wpc) : bool := match w with WWait => true | _ => false end.
Definition blocked_c (c : client) : bool := match c_pc c with CWait => true | _ => false end.
Definition at_pc {A} (f : A -> bool) (l : list A) (i : nat) : bool :=
  match nth_error l i with Some a => f a | None => false end.
Definition map_at {A} (g : A -> A) (is : list nat) (l : list A) : list A :=
  fold_left (fun l i => match nth_error l i with Some a => upd l i (g a) | None => l end) is l.
Definition signal_step (p : pool) (j : nat) (ws cs : list nat) : option pool :=
  match nth_error (clients p) j with
  | Some (mkC CSignal s) =>
      if (existsb (at_pc blocked_w (workers p)) ws || existsb (at_pc blocked_c (clients p)) cs)
         || (negb (existsb blocked_w (workers p)) && negb (existsb blocked_c (clients p)))
      then Some (mkPool (map_at wake_w ws (workers p)) (upd (map_at wake_c cs (clients p)) j (mkC CRun s))
                        (queue p) (nb_waiting p) (running p) (ended p) (shut p) (log p))
      else None
  | _ => None
  end.

(** Actions of the scheduler; the last two are spurious returns of apr_thread_cond_wait
    in a worker and in a waiting client. *)
Inductive act :=
| Worker (i : nat) | Client (j : nat) | Signal (j : nat) (ws cs : list nat)
| SpuriousWorker (i : nat) | SpuriousClient (j : nat).

Definition step (p : pool) (a : act) : option pool :=
  match a with
  | Worker i => worker_step p i
  | Client j => client_step p j
  | Signal j ws cs => signal_step p j ws cs
  | SpuriousWorker i =>
      if at_pc blocked_w (workers p) i then
        Some (mkPool (upd (workers p) i WWoken) (clients p) (queue p) (nb_waiting p) (running p)
                     (ended p) (shut p) (log p))
      else None
  | SpuriousClient j =>
      match nth_error (clients p) j with
      | Some (mkC CWait s) =>
          Some (mkPool (workers p) (upd (clients p) j (mkC CWoken s)) (queue p) (nb_waiting p) (running p)
                       (ended p) (shut p) (log p))
      | _ => None
      end
  end.

Fixpoint exec (p : pool) (tr : list act) : option pool :=
  match tr with
  | [] => Some p
  | a :: t => match step p a with Some p' => exec p' t | None => None end
  end.
