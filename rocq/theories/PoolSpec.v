(** What a user of the thread pool observes, stated over the record of events and the
    calls the client threads make. *)
From Verif Require Import Util PoolModel.

(** tasks queued (a NULL pointer is not a task), handed to the callback, completed *)
Definition adds (l : list event) : list N :=
  flat_map (fun e => match e with EAdd _ x => if (x =? 0)%N then [] else [x] | _ => [] end) l.
Definition starts (l : list event) : list N :=
  flat_map (fun e => match e with EStart _ x => [x] | _ => [] end) l.
Definition finishes (l : list event) : list N :=
  flat_map (fun e => match e with EFinish _ x => [x] | _ => [] end) l.
(** what worker [w] did: it must alternate start and finish of the same task *)
Definition of_worker (w : nat) (l : list event) : list event :=
  filter (fun e => match e with EStart v _ | EFinish v _ => v =? w | _ => false end) l.
Fixpoint alternates (w : nat) (l : list event) : Prop :=
  match l with
  | [] => True
  | [EStart v x] => v = w
  | EStart v x :: EFinish v' x' :: t => v = w /\ v' = w /\ x = x' /\ alternates w t
  | _ => False
  end.

(** [l] can be obtained from [m] by leaving elements out *)
Inductive subseq {A} : list A -> list A -> Prop :=
| sub_nil m : subseq [] m
| sub_take x l m : subseq l m -> subseq (x :: l) (x :: m)
| sub_skip x l m : subseq l m -> subseq l (x :: m).

(** Scripts.  The thread that waits may shut the pool down as its last call; in the
    stricter form, that call comes right after a wait, as in ft_process.c:224-235. *)
Fixpoint shutdown_last (s : list call) : Prop :=
  match s with
  | [] => True
  | Shutdown :: t => t = []
  | _ :: t => shutdown_last t
  end.
Fixpoint waits_before_shutdown (s : list call) : Prop :=
  match s with
  | [] => True
  | Add _ :: t => waits_before_shutdown t
  | Wait :: t => t = [Shutdown] \/ waits_before_shutdown t
  | Shutdown :: _ => False
  end.
Definition only_adds (s : list call) : Prop := Forall (fun c => exists x, c = Add x) s.
Definition nb_adds (s : list call) : nat :=
  length (filter (fun c => match c with Add _ => true | _ => false end) s).

(** every call of every client has returned *)
Definition all_returned (p : pool) : Prop := forall c, In c (clients p) -> c = mkC CRun [].

Definition spurious (a : act) : bool :=
  match a with SpuriousWorker _ | SpuriousClient _ => true | _ => false end.
Definition waiter_spurious (a : act) : bool :=
  match a with SpuriousClient _ => true | _ => false end.
Definition no_spurious (tr : list act) : Prop := Forall (fun a => spurious a = false) tr.
Definition no_waiter_spurious (tr : list act) : Prop := Forall (fun a => waiter_spurious a = false) tr.
