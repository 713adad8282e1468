(** Specification vocabulary for threads that mark paths on one cache handle. *)
From Verif Require Import Util PageModel MarkModel.

(** An execution: the threads named in [l] act one after the other; the flag tells whether an
    allocation in this step would succeed. *)
Fixpoint play (s : st) (l : list (nat * bool)) : outcome :=
  match l with
  | [] => Next s
  | (t, mem) :: r => match step s t mem with Next s' => play s' r | o => o end
  end.
(** memory was always found *)
Definition memory_lasts (l : list (nat * bool)) : Prop := Forall (fun e => snd e = true) l.
(** every call of every thread has returned *)
Definition finished (s : st) : Prop := Forall (fun th => t_todo th = [] /\ t_pos th = Between) (threads s).
(** some thread has been told that [p] is marked *)
Definition acknowledged (s : st) (p : bytes) : Prop := exists th, In th (threads s) /\ In (p, true) (t_done th).
(** some thread is in a call that is to mark [p] *)
Definition under_way (s : st) (p : bytes) : Prop :=
  exists th, In th (threads s) /\
    match t_pos th with Between => False | MLock q | MDup q | MLook q | MStore q _ | MUnlock q _ => q = p end.
(** thread number [t] has made, or is making, or has to make these calls *)
Definition calls_of (th : thread) : list bytes :=
  rev (map fst (t_done th)) ++
  match t_pos th with Between => [] | MLock q | MDup q | MLook q | MStore q _ | MUnlock q _ => [q] end ++ t_todo th.
