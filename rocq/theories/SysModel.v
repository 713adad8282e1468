(** Interleavings of any number of threads using one database environment
    (/repo/src/napr_db.c).  One step is one API call; the calls of a step are taken
    as atomic.  For the write side this is what the writer lock gives; for readers
    it leaves out that napr_db_txn_begin takes its snapshot (lines 536-542) before it
    registers in the reader table (lines 579-589); FineModel takes the accesses one by
    one. *)
From Verif Require Import Util PageModel TxnModel CursorModel TreeModel DbModel.
Local Open Scope N_scope.

(** Open transactions carry a handle chosen by the caller (the txn pointer); a reader
    also has the process and thread id it was begun with. *)
Record sys := mkSys {
  y_env : env;
  y_writers : list (N * txn);
  y_readers : list (N * (N * N) * txn) }.

Inductive act :=
| BeginW (h : N) | PutA (h : N) (k v : bytes) | DelA (h : N) (k : bytes) (data : option bytes)
| CommitW (h : N) (fail : option nat) | AbortW (h : N)
| BeginR (h pid tid : N) | EndR (h : N).

Fixpoint wget (l : list (N * txn)) (h : N) : option txn :=
  match l with [] => None | (h', t) :: r => if h' =? h then Some t else wget r h end.
Definition wdel (l : list (N * txn)) (h : N) : list (N * txn) := filter (fun e => negb (fst e =? h)) l.
Definition wset (l : list (N * txn)) (h : N) (t : txn) : list (N * txn) :=
  map (fun e => if fst e =? h then (h, t) else e) l.
Fixpoint rget (l : list (N * (N * N) * txn)) (h : N) : option (N * N * txn) :=
  match l with [] => None | (h', who, t) :: r => if h' =? h then Some (who, t) else rget r h end.
Fixpoint rdel (l : list (N * (N * N) * txn)) (h : N) : list (N * (N * N) * txn) :=
  match l with [] => [] | e :: r => if fst (fst e) =? h then r else e :: rdel r h end.

(** [None]: the call blocks, its handle is not valid, or it runs into undefined behaviour. *)
Definition step (s : sys) (a : act) : option sys :=
  let E := y_env s in
  match a with
  | BeginW h =>
    match wget (y_writers s) h, begin_write E with
    | None, Some (E', t) => Some (mkSys E' ((h, t) :: y_writers s) (y_readers s))
    | _, _ => None
    end
  | PutA h k v =>
    match wget (y_writers s) h with
    | Some t => match db_put E t k v with
                | Ret _ t' | Fail _ t' => Some (mkSys E (wset (y_writers s) h t') (y_readers s))
                | _ => None
                end
    | None => None
    end
  | DelA h k data =>
    match wget (y_writers s) h with
    | Some t => match db_del E t k data with
                | Ret _ t' | Fail _ t' => Some (mkSys E (wset (y_writers s) h t') (y_readers s))
                | _ => None
                end
    | None => None
    end
  | CommitW h fail =>
    match wget (y_writers s) h with
    | Some t => match db_commit E t fail with
                | (E', Ok _) | (E', Err _) => Some (mkSys E' (wdel (y_writers s) h) (y_readers s))
                | _ => None
                end
    | None => None
    end
  | AbortW h =>
    match wget (y_writers s) h with
    | Some t => Some (mkSys (abort_write E t) (wdel (y_writers s) h) (y_readers s))
    | None => None
    end
  | BeginR h pid tid =>
    match rget (y_readers s) h, begin_read E pid tid with
    | None, Ok (E', t) => Some (mkSys E' (y_writers s) ((h, (pid, tid), t) :: y_readers s))
    | _, _ => None
    end
  | EndR h =>
    match rget (y_readers s) h with
    | Some (pid, tid, t) => Some (mkSys (end_read E t pid tid) (y_writers s) (rdel (y_readers s) h))
    | None => None
    end
  end.

(** an environment that has just been opened *)
Definition opened (E : env) : Prop := E = env_create \/ exists d, env_open d = Ok E.
Definition start (E : env) : sys := mkSys E [] [].
Inductive reaches : sys -> list act -> sys -> Prop :=
| reaches_nil s : reaches s [] s
| reaches_cons s a s1 l s2 : step s a = Some s1 -> reaches s1 l s2 -> reaches s (a :: l) s2.
