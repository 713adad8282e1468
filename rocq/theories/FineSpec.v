(** Specification vocabulary for the fine-grained model of FineModel. *)
From Verif Require Import Util PageModel TxnModel FineModel.
Local Open Scope N_scope.

(** An execution from [s]: the agents [l] act one after the other in the order of the list.
    [cs] records what was published, newest first: whenever the pointer to the live meta
    page moves, the contents of the page it then points to. *)
Fixpoint play (who : nat -> N * N) (s : st) (cs : list quad) (l : list (nat * choice)) : option (st * list quad) :=
  match l with
  | [] => Some (s, cs)
  | (a, c) :: r =>
    match step who s a c with
    | None => None
    | Some s' => play who s' (if Bool.eqb (live s') (live s) then cs else mem s' (live s') :: cs) r
    end
  end.
(** [s] can be reached from a freshly opened environment with meta pages [m0], [m1], the
    second one live if [second], and then [cs] was published *)
Definition published (who : nat -> N * N) (m0 m1 : quad) (second : bool) (n : nat) (s : st) (cs : list quad) : Prop :=
  exists l, play who (start m0 m1 second n) [if second then m1 else m0] l = Some (s, cs).

Definition at_pos (s : st) (a : nat) (p : pos) : Prop := nth_error (ags s) a = Some p.

(** the snapshot of a read transaction, from the last of the four reads until it is ended *)
Definition snapshot_of (p : pos) : option quad :=
  match p with
  | RegLock q | RegScan q _ | RegPid q _ | RegTid q _ | RegTxn q _ | RegDone q | ROpen q | EndLock q | EndScan q _ | EndTxn q _ => Some q
  | _ => None
  end.
(** the agent has a read transaction that is registered: its slot is written, and it has not
    begun to clear it *)
Definition held (p : pos) : option quad :=
  match p with RegDone q | ROpen q | EndLock q | EndScan q _ | EndTxn q _ => Some q | _ => None end.
Definition own (who : nat -> N * N) (b : nat) (q : quad) : rslot := mkSlot (fst (who b)) (snd (who b)) (q_txn q).
(** the slots of the registered agents, numbered from [n] *)
Fixpoint regs (who : nat -> N * N) (n : nat) (l : list pos) : list rslot :=
  match l with
  | [] => []
  | p :: r => (match held p with Some q => [own who n q] | None => [] end) ++ regs who (S n) r
  end.
Definition registered_agents (who : nat -> N * N) (s : st) : list rslot := regs who 0 (ags s).

(** from begin to end of a write transaction, seen from the lock *)
Definition writing (p : pos) : Prop :=
  match p with
  | Snap true _ _ _ | WOpen _ | OldLock _ | OldScan _ _ _ | OldDone _ _ | Pub _ _ _ _ | WDone => True
  | _ => False
  end.
(** inside a call *)
Definition in_call (p : pos) : Prop := match p with Idle | ROpen _ | WOpen _ => False | _ => True end.

(** newest first, every id is one more than the one before *)
Fixpoint consecutive (cs : list quad) : Prop :=
  match cs with
  | x :: ((y :: _) as r) => q_txn x = q_txn y + 1 /\ consecutive r
  | _ => True
  end.

(** the live pointer does not move during an execution *)
Fixpoint calm (who : nat -> N * N) (s : st) (l : list (nat * choice)) : Prop :=
  match l with
  | [] => True
  | (a, c) :: r => forall s', step who s a c = Some s' -> live s' = live s /\ calm who s' r
  end.

(** ** Data races (C11, 5.1.2.4): two agents are about to access the same location, at least
    one of them writes, and nothing orders them *)
Inductive loc := LLive | LMeta (m : bool) (f : fld) | LSlot (i : nat).
(** what the next step of an agent at [p] accesses; [true]: writes *)
Definition access (p : pos) (l : loc) (w : bool) : Prop :=
  match p with
  | Snap _ None _ (f :: _) => l = LLive /\ w = false
  | Snap _ (Some m) _ (f :: _) => l = LMeta m f /\ w = false
  | RegScan _ i | EndScan _ i | OldScan _ i _ => (i < 126)%nat /\ l = LSlot i /\ w = false
  | RegPid _ i | RegTid _ i | RegTxn _ i | EndTxn _ i | EndPid i | EndTid i => l = LSlot i /\ w = true
  | WOpen _ => l = LLive /\ w = false
  | Pub _ m _ (f :: _) => l = LMeta m f /\ w = true
  | Pub _ _ true [] => l = LLive /\ w = true
  | _ => False
  end.
Definition race (s : st) (a b : nat) (l : loc) : Prop :=
  a <> b /\ exists p q w, at_pos s a p /\ at_pos s b q /\ access p l true /\ access q l w.
