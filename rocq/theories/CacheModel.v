(** Model of /repo/src/napr_cache.c: the file hash cache on top of napr_db.  NULL
    arguments and allocation failure are left out; napr_cache_open and close
    (napr_cache.c:38-184) reduce to opening the database, see DbModel. *)
From Verif Require Import Util PageModel TxnModel CursorModel TreeModel DbModel.
Local Open Scope N_scope.

(** napr_cache_entry_t, napr_cache.h:44-50; the five fields are eight bytes each *)
Record entry := mkEntry { ce_mtime : N; ce_ctime : N; ce_size : N; ce_hash_lo : N; ce_hash_hi : N }.
Definition ENTRY_SIZE : N := 40.
Definition entry_bytes (e : entry) : bytes :=
  le_bytes 8 (ce_mtime e) ++ le_bytes 8 (ce_ctime e) ++ le_bytes 8 (ce_size e) ++ le_bytes 8 (ce_hash_lo e) ++ le_bytes 8 (ce_hash_hi e).
(** the memory read through a pointer to such a structure *)
Definition entry_of (b : bytes) : entry :=
  let f i := le_val (firstn 8 (skipn (8 * i) b)) in mkEntry (f 0%nat) (f 1%nat) (f 2%nat) (f 3%nat) (f 4%nat).

(** napr_cache_t, napr_cache.c:24-32.  The APR hash table used as the visited set is
    the list of its keys. *)
Record cache := mkCache { c_env : env; c_active : option txn; c_visited : list bytes }.
Definition set_active (c : cache) (t : option txn) : cache := mkCache (c_env c) t (c_visited c).

(** napr_cache_begin_write, napr_cache.c:209-225; [None]: blocks on the writer lock *)
Definition cache_begin_write (c : cache) : option cache :=
  match begin_write (c_env c) with
  | Some (E, t) => Some (mkCache E (Some t) (c_visited c))
  | None => None
  end.
(** napr_cache_begin_read, napr_cache.c:191-208 *)
Definition cache_begin_read (c : cache) (pid tid : N) : res cache :=
  do Et <- begin_read (c_env c) pid tid ;; Ok (mkCache (fst Et) (Some (snd Et)) (c_visited c)).
(** napr_db_txn_abort, napr_db.c:1270-1318, by the thread [tid] of process [pid]: a reader is
    unregistered, a writer releases the lock *)
Definition abort_txn (E : env) (t : txn) (pid tid : N) : env := if t_rdonly t then end_read E t pid tid else abort_write E t.
(** napr_db_txn_commit, napr_db.c:1183-1258: for a reader it only unregisters *)
Definition commit_txn (E : env) (t : txn) (pid tid : N) : env * res unit :=
  if t_rdonly t then (end_read E t pid tid, Ok tt) else db_commit E t None.
(** napr_cache_end_read, napr_cache.c:227-245.  None of the three functions checks which kind of
    transaction it ends. *)
Definition cache_end_read (c : cache) (pid tid : N) : res cache :=
  match c_active c with
  | None => Err EINVAL
  | Some t => Ok (mkCache (abort_txn (c_env c) t pid tid) None (c_visited c))
  end.
(** napr_cache_commit_write, napr_cache.c:247-265 *)
Definition cache_commit_write (c : cache) (pid tid : N) : cache * res unit :=
  match c_active c with
  | None => (c, Err EINVAL)
  | Some t => let (E, r) := commit_txn (c_env c) t pid tid in (mkCache E None (c_visited c), r)
  end.
(** napr_cache_abort_write, napr_cache.c:267-285 *)
Definition cache_abort_write (c : cache) (pid tid : N) : cache * res unit :=
  match c_active c with
  | None => (c, Err EINVAL)
  | Some t => (mkCache (abort_txn (c_env c) t pid tid) None (c_visited c), Ok tt)
  end.

(** napr_cache_lookup_in_txn, napr_cache.c:291-329 *)
Definition cache_lookup (c : cache) (path : bytes) : res entry :=
  match c_active c with
  | None => Err EINVAL
  | Some t =>
    do v <- db_get (c_env c) t path ;;
    if blen v =? ENTRY_SIZE then Ok (entry_of v) else Err EGENERAL
  end.
(** napr_cache_upsert_in_txn, napr_cache.c:330-354 *)
Definition cache_upsert (c : cache) (path : bytes) (e : entry) : cache * res unit :=
  match c_active c with
  | None => (c, Err EINVAL)
  | Some t =>
    match db_put (c_env c) t path (entry_bytes e) with
    | Ret _ t' => (set_active c (Some t'), Ok tt)
    | Fail er t' => (set_active c (Some t'), Err er)
    | Bad => (c, UB)
    | NoFuel => (c, Fuel)
    end
  end.

(** napr_cache_mark_visited, napr_cache.c:360-396, by one thread; several threads are
    MarkModel *)
Definition cache_mark (c : cache) (path : bytes) : cache := mkCache (c_env c) (c_active c) (path :: c_visited c).
(** apr_hash_get on the visited set: same length and same bytes *)
Definition visited (vis : list bytes) (path : bytes) : bool := existsb (fun p => if list_eq_dec N.eq_dec path p then true else false) vis.

(** the loop of napr_cache_sweep, napr_cache.c:437-473; [r] is the answer of the
    cursor.  [fuel]: number of iterations *)
Fixpoint sweep_loop (fuel : nat) (E : env) (t : txn) (vis : list bytes) (r : cout (bytes * bytes)) : out unit :=
  match fuel with
  | O => NoFuel
  | S f =>
    match r with
    | COk (k, _) c =>
      if visited vis k then sweep_loop f E t vis (cursor_get E t c NEXT)
      else run _, t1 <- db_del E t k None ;; sweep_loop f E t1 vis (cursor_get E t1 c NEXT)
    | CErr NOTFOUND _ => Ret tt t
    | CErr e _ => Fail e t
    | CUB => Bad
    | CFuel => NoFuel
    end
  end.
(** napr_cache_sweep, napr_cache.c:398-513; [None]: blocks on the writer lock.  Its transaction
    is one for writing, so it does not matter which thread ends it: thread 0 of process 0. *)
Definition cache_sweep (fuel : nat) (c : cache) : option (cache * res unit) :=
  match cache_begin_write c with
  | None => None
  | Some c1 =>
    match c_active c1 with
    | None => None
    | Some t =>
      match sweep_loop fuel (c_env c1) t (c_visited c) (cursor_get (c_env c1) t cursor_open FIRST) with
      | Ret _ t' =>
        match cache_commit_write (set_active c1 (Some t')) 0 0 with
        | (c2, Ok _) => Some (mkCache (c_env c2) None [], Ok tt)     (* apr_hash_clear *)
        | (c2, r) => Some (c2, r)
        end
      | Fail e t' => Some (fst (cache_abort_write (set_active c1 (Some t')) 0 0), Err e)
      | Bad => Some (c1, UB)
      | NoFuel => Some (c1, Fuel)
      end
    end
  end.
