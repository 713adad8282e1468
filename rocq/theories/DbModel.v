(** Model of the environment and of the transaction life cycle of
    /repo/src/napr_db.c: open, begin, commit, abort, and of what a crash leaves
    on the disk.  Pool and allocation failures, argument NULL checks and failures
    of the mutex calls are not modelled. *)
From Verif Require Import Util PageModel TxnModel CursorModel TreeModel.
Local Open Scope N_scope.

(** init_meta_page, napr_db.c:92-101 *)
Definition init_meta (txnid : N) : meta := mkMeta DB_MAGIC DB_VERSION txnid 0 1 0.
(** validate_meta_page, napr_db.c:111-120 *)
Definition meta_valid (m : meta) : bool := (m_magic m =? DB_MAGIC) && (m_version m =? DB_VERSION).
(** select_live_meta, napr_db.c:128-162: [Ok true] when meta1 is taken *)
Definition select_live (m0 m1 : meta) : res bool :=
  match meta_valid m0, meta_valid m1 with
  | false, false => Err EINVAL
  | true, false => Ok false
  | false, true => Ok true
  | true, true => Ok (negb (m_txnid m1 <? m_txnid m0))
  end.

(** contents of the database file: the two meta pages and the other pages *)
Record disk := mkDisk { d_file : N -> page; d_meta0 : meta; d_meta1 : meta }.
Definition disk_of (E : env) : disk := mkDisk (e_file E) (e_meta0 E) (e_meta1 E).

(** napr_db_env_open on an existing file, napr_db.c:299-360, 248-266 *)
Definition env_open (d : disk) : res env :=
  do l <- select_live (d_meta0 d) (d_meta1 d) ;;
  Ok (mkEnv (d_file d) (d_meta0 d) (d_meta1 d) l (repeat (mkSlot 0 0 0) MAX_READERS) false).
(** napr_db_env_open creating the file, napr_db.c:199-215, 248-261 *)
Definition env_create : env :=
  mkEnv (fun _ => zero_page) (init_meta 0) (init_meta 1) true (repeat (mkSlot 0 0 0) MAX_READERS) false.

Definition set_readers (E : env) (r : list rslot) : env :=
  mkEnv (e_file E) (e_meta0 E) (e_meta1 E) (e_live1 E) r (e_locked E).
Definition set_locked (E : env) (b : bool) : env :=
  mkEnv (e_file E) (e_meta0 E) (e_meta1 E) (e_live1 E) (e_readers E) b.

(** napr_db_txn_begin, write transaction, napr_db.c:518-567.  [None]: the call
    blocks on the writer lock. *)
Definition begin_write (E : env) : option (env * txn) :=
  if e_locked E then None
  else let m := live_meta E in
       Some (set_locked E true, mkTxn false (m_txnid m + 1) (m_root m) (m_free m) [] (m_last m) []).

(** napr_db_txn_begin, read transaction, napr_db.c:533-548, 568-596: the snapshot
    is taken first, then the first slot with txnid 0 is filled *)
Fixpoint fill_slot (rs : list rslot) (pid tid x : N) : option (list rslot) :=
  match rs with
  | [] => None
  | s :: r =>
    if s_txnid s =? 0 then Some (mkSlot pid tid x :: r)
    else match fill_slot r pid tid x with Some r' => Some (s :: r') | None => None end
  end.
Definition begin_read (E : env) (pid tid : N) : res (env * txn) :=
  let m := live_meta E in
  match fill_slot (e_readers E) pid tid (m_txnid m) with
  | Some rs => Ok (set_readers E rs, mkTxn true (m_txnid m) (m_root m) (m_free m) [] (m_last m) [])
  | None => Err ENOMEM
  end.

(** Unregistering, napr_db.c:1197-1215 (commit) and 1283-1301 (abort) *)
Fixpoint clear_slot (rs : list rslot) (pid tid x : N) : list rslot :=
  match rs with
  | [] => []
  | s :: r =>
    if (s_txnid s =? x) && (s_pid s =? pid) && (s_tid s =? tid) then mkSlot 0 0 0 :: r
    else s :: clear_slot r pid tid x
  end.
Definition end_read (E : env) (t : txn) (pid tid : N) : env :=
  set_readers E (clear_slot (e_readers E) pid tid (t_id t)).

(** napr_db_txn_abort of a write transaction, napr_db.c:1304-1311 *)
Definition abort_write (E : env) (t : txn) : env := set_locked E false.

(** build_pgno_map, napr_db.c:618-655, and update_dirty_page_pointers, 663-696:
    children and root are translated from dirty-page key to header page number.
    (A child that maps to itself is not rewritten here; the C code writes back the
    same bytes.) *)
Definition pgno_map (d : list (N * page)) : list (N * N) := map (fun e => (fst e, pg_pgno (snd e))) d.
Fixpoint mget (m : list (N * N)) (k : N) : option N :=
  match m with [] => None | (k', v) :: r => if k' =? k then Some v else mget r k end.
Definition mapped (m : list (N * N)) (k : N) : N := match mget m k with Some v => v | None => k end.
Definition fix_child (m : list (N * N)) (p : page) (i : nat) : page :=
  let o := slot p (N.of_nat i) in
  let c := branch_child p o in
  if mapped m c =? c then p else put64 p o (mapped m c).
Definition fix_page (m : list (N * N)) (p : page) : page :=
  if is_branch p then fold_left (fix_child m) (seq 0 (N.to_nat (pg_nkeys p))) p else p.

(** File operations of a commit, in order: write_dirty_pages_to_disk, napr_db.c:743-774,
    and commit_meta_page, 1135-1182.  The pages are written in the order of the list
    (in C: the iteration order of the hash table).  extend_database_file, 703-736,
    only makes the file longer and is left out.  The operations are applied only if no
    written page has the number 0 or 1 (see [db_commit]). *)
Inductive io := WPage (pg : N) (p : page) | WMeta (second : bool) (m : meta) | Sync.

Definition commit_ios (E : env) (t : txn) (free_root : N) : list io :=
  let m := pgno_map (t_dirty t) in
  map (fun e => WPage (pg_pgno (snd e)) (fix_page m (snd e))) (t_dirty t)
  ++ [Sync; WMeta (negb (e_live1 E)) (mkMeta DB_MAGIC DB_VERSION (t_id t) (mapped m (t_root t)) (t_last t) free_root); Sync].

(** does the commit write a tree page over a meta page? write_dirty_pages_to_disk takes
    the offset from the header of the page, napr_db.c:757-760 *)
Definition over_meta (t : txn) : bool := existsb (fun e => pg_pgno (snd e) <? 2) (t_dirty t).

Definition io_apply (d : disk) (o : io) : disk :=
  match o with
  | WPage pg p => mkDisk (fun q => if q =? pg then p else d_file d q) (d_meta0 d) (d_meta1 d)
  | WMeta false m => mkDisk (d_file d) m (d_meta1 d)
  | WMeta true m => mkDisk (d_file d) (d_meta0 d) m
  | Sync => d
  end.

(** napr_db_txn_commit of a write transaction, napr_db.c:1184-1262.  [fail]: the index
    of the first file operation that reports an error (it is assumed to have had no
    effect), if any.  File writes show up in the shared memory map at once, so a
    failed commit leaves the pages written so far; live_meta moves only after the last
    sync (lines 1178-1179).  The lock is always released.

    Nothing in the code keeps page numbers 0 and 1 out of a tree: once a page in use has
    been handed out again (C21), bytes of a user's value are read as free page numbers.
    A commit that would then write a page over a meta page is set apart with the outcome
    [UB]; what the file looks like afterwards is not modelled.  The witness that this is
    reached is [meta_page_overwritten_refuted] (C133). *)
Definition db_commit (E : env) (t : txn) (fail : option nat) : env * res unit :=
  match t_dirty t with
  | [] => (set_locked E false, Ok tt)
  | _ =>
    match populate_free_db page_alloc E t with
    | Fail e _ => (set_locked E false, Err e)
    | Bad => (E, UB)
    | NoFuel => (E, Fuel)
    | Ret free_root t1 =>
      if over_meta t1 then (E, UB) else
      let ios := commit_ios E t1 free_root in
      match fail with
      | Some i =>
        if Nat.ltb i (length ios) then
          let d := fold_left io_apply (firstn i ios) (disk_of E) in
          (mkEnv (d_file d) (d_meta0 d) (d_meta1 d) (e_live1 E) (e_readers E) false, Err EGENERAL)
        else
          let d := fold_left io_apply ios (disk_of E) in
          (mkEnv (d_file d) (d_meta0 d) (d_meta1 d) (negb (e_live1 E)) (e_readers E) false, Ok tt)
      | None =>
        let d := fold_left io_apply ios (disk_of E) in
        (mkEnv (d_file d) (d_meta0 d) (d_meta1 d) (negb (e_live1 E)) (e_readers E) false, Ok tt)
      end
    end
  end.

(** ** Crashes
    A crash after the first [n] operations: everything up to the last completed sync
    is on the disk, of the operations after it any subset ([keep]) is. *)
Fixpoint crash_tail (d : disk) (ops : list io) (keep : list bool) : disk :=
  match ops, keep with
  | o :: r, b :: ks => crash_tail (if b then io_apply d o else d) r ks
  | _, _ => d
  end.
(** split the executed operations at the last [Sync] *)
Fixpoint after_sync (ops : list io) : list io * list io :=
  match ops with
  | [] => ([], [])
  | o :: r =>
    match after_sync r with
    | ([], tl) => match o with Sync => ([Sync], tl) | _ => ([], o :: tl) end
    | (s, tl) => (o :: s, tl)
    end
  end.
Definition crash_disk (d : disk) (ops : list io) (n : nat) (keep : list bool) : disk :=
  let (s, tl) := after_sync (firstn n ops) in crash_tail (fold_left io_apply s d) tl keep.
