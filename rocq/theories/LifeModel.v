(** Model of how a database is opened and closed (/repo/src/napr_db.c:34-390), of several
    processes that use one database file, and of the lock file of the cache
    (/repo/src/napr_cache.c:38-184).

    The system calls are described by their answers.  NULL arguments and allocation failures
    are left out.  [x_disk] of a file is its content continued by zeros (a page is mapped as a
    whole, and the part behind the end of the file reads as zero); a page that begins behind
    the end of the file cannot be touched (SIGBUS). *)
From Verif Require Import Util PageModel TxnModel CursorModel TreeModel DbModel SysModel.
Local Open Scope N_scope.

(** * Opening and closing *)

Definition zero_meta : meta := mkMeta 0 0 0 0 0 0.
Definition zero_disk : disk := mkDisk (fun _ => zero_page) zero_meta zero_meta.
Record file := mkFile { x_len : N; x_disk : disk }.
(** the file at the path, the open file descriptors and the mappings of the process *)
Record world := mkWorld { w_file : option file; w_fds : nat; w_maps : nat }.
(** napr_db_env_t, napr_db_internal.h:278-304, as far as open and close use it; [h_live]: the
    pointer live_meta, [Some true] for the second meta page *)
Record handle := mkHandle { h_mapsize : N; h_rdonly : bool; h_file : bool; h_mmap : bool; h_live : option bool }.

(** napr_db_env_create and napr_db_env_set_mapsize, napr_db.c:34-60, 72-84 *)
Definition fresh_handle (mapsize : N) : handle := mkHandle mapsize false false false None.

(** answer of apr_stat (napr_db.c:184) and of the other calls *)
Inductive stat := SFound | SAbsent | SError.
Record answers := mkAns { a_stat : stat; a_open : bool; a_trunc : bool; a_map : bool; a_offset : bool;
                          a_sync : bool; a_wlock : bool; a_rlock : bool }.
(** the flags NAPR_DB_RDONLY and NAPR_DB_CREATE, napr_db.h:64-67 *)
Record flags := mkFlags { fl_rdonly : bool; fl_create : bool }.
Inductive lstat := LEnoEnt | LInval | LSys.
(** a call returns a status ([None]: APR_SUCCESS), or the process dies *)
Inductive lres := Done (r : option lstat) (h : handle) (w : world) | Crash.

Definition set_file (w : world) (f : option file) : world := mkWorld f (w_fds w) (w_maps w).
Definition add_fd (w : world) : world := mkWorld (w_file w) (S (w_fds w)) (w_maps w).
Definition del_fd (w : world) : world := mkWorld (w_file w) (w_fds w - 1) (w_maps w).
Definition add_map (w : world) : world := mkWorld (w_file w) (w_fds w) (S (w_maps w)).
Definition del_map (w : world) : world := mkWorld (w_file w) (w_fds w) (w_maps w - 1).
Definition h_set_file (h : handle) (b : bool) : handle := mkHandle (h_mapsize h) (h_rdonly h) b (h_mmap h) (h_live h).
Definition h_set_mmap (h : handle) (b : bool) : handle := mkHandle (h_mapsize h) (h_rdonly h) (h_file h) b (h_live h).
Definition h_set_live (h : handle) (l : option bool) : handle := mkHandle (h_mapsize h) (h_rdonly h) (h_file h) (h_mmap h) l.

(** db_file_open, napr_db.c:171-215; the result is (status, is_new_file).  Opening with
    APR_CREATE | APR_TRUNCATE empties whatever is there; apr_file_trunc fails on a
    file opened for reading only *)
Definition file_open (a : answers) (f : flags) (h : handle) (w : world) : option lstat * bool * handle * world :=
  match a_stat a with
  | SError => (Some LSys, false, h, w)
  | SFound =>
    match w_file w with
    | Some _ => if a_open a then (None, false, h_set_file h true, add_fd w) else (Some LSys, false, h, w)
    | None => (Some LSys, false, h, w)
    end
  | SAbsent =>
    if negb (fl_create f) then (Some LEnoEnt, false, h, w)
    else if negb (a_open a) then (Some LSys, true, h, w)
    else
      let w1 := add_fd (set_file w (Some (mkFile 0 zero_disk))) in
      if a_trunc a && negb (fl_rdonly f) then
        (None, true, h_set_file h true, set_file w1 (Some (mkFile 8192 zero_disk)))
      else (Some LSys, true, h, del_fd w1)
  end.

(** db_mmap_file, napr_db.c:223-239 *)
Definition mmap_file (a : answers) (h : handle) (w : world) : option lstat * handle * world :=
  if a_map a then
    if a_offset a then (None, h_set_mmap h true, add_map w) else (Some LSys, h, w)
  else (Some LSys, h, w).

(** db_init_meta, napr_db.c:248-268; [None]: a meta page that is not mapped or lies behind the
    end of the file is touched *)
Definition meta_in_reach (h : handle) (x : file) : bool :=
  (0 <? h_mapsize h) && (4096 <? h_mapsize h) && (0 <? x_len x) && (4096 <? x_len x).
Definition meta_init (a : answers) (is_new : bool) (h : handle) (w : world) : option (option lstat * handle * world) :=
  match w_file w with
  | None => None
  | Some x =>
    if negb (meta_in_reach h x) then None
    else if is_new then
      if h_rdonly h then None
      else
        let w1 := set_file w (Some (mkFile (x_len x) (mkDisk (d_file (x_disk x)) (init_meta 0) (init_meta 1)))) in
        if a_sync a then Some (None, h_set_live h (Some true), w1) else Some (Some LSys, h, w1)
    else
      match select_live (d_meta0 (x_disk x)) (d_meta1 (x_disk x)) with
      | Ok l => Some (None, h_set_live h (Some l), w)
      | _ => Some (Some LInval, h, w)
      end
  end.

(** the clean-up of napr_db.c:324-330, 334-340, 346-352 *)
Definition undo (h : handle) (w : world) : handle * world :=
  (h_set_file (h_set_mmap h false) false, del_fd (del_map w)).

(** napr_db_env_open, napr_db.c:296-356; line 309 stores the flags in the handle *)
Definition open_file (a : answers) (f : flags) (h0 : handle) (w0 : world) : lres :=
  if h_mapsize h0 =? 0 then Done (Some LInval) h0 w0
  else
    let h := mkHandle (h_mapsize h0) (fl_rdonly f) (h_file h0) (h_mmap h0) (h_live h0) in
    match file_open a f h w0 with
    | (Some e, _, h1, w1) => Done (Some e) h1 w1
    | (None, is_new, h1, w1) =>
      match mmap_file a h1 w1 with
      | (Some e, h2, w2) => Done (Some e) (h_set_file h2 false) (del_fd w2)
      | (None, h2, w2) =>
        match meta_init a is_new h2 w2 with
        | None => Crash
        | Some (Some e, h3, w3) => let (h4, w4) := undo h3 w3 in Done (Some e) h4 w4
        | Some (None, h3, w3) =>
          if negb (a_wlock a) || negb (a_rlock a) then let (h4, w4) := undo h3 w3 in Done (Some LSys) h4 w4
          else Done None h3 w3
        end
      end
    end.

(** napr_db_env_close, napr_db.c:367-390 *)
Definition close_file (h : handle) (w : world) : handle * world :=
  let (h1, w1) := if h_mmap h then (h_set_live (h_set_mmap h false) None, del_map w) else (h, w) in
  if h_file h1 then (h_set_file h1 false, del_fd w1) else (h1, w1).

(** the environment of DbModel that a successfully opened handle stands for, with the reader
    table cleared at napr_db.c:343 *)
Definition env_of (h : handle) (w : world) : option env :=
  match h_live h, w_file w with
  | Some l, Some x =>
    if h_mmap h then
      Some (mkEnv (d_file (x_disk x)) (d_meta0 (x_disk x)) (d_meta1 (x_disk x)) l (repeat (mkSlot 0 0 0) MAX_READERS) false)
    else None
  | _, _ => None
  end.

(** * Several processes *)

(** Every process has its own napr_db_env_t, hence its own live_meta and reader table
    (napr_db_internal.h:278-304), and its own writer lock: apr_proc_mutex_create is called
    without a name (napr_db.c:285), so the mutexes of two processes that open the file
    independently are different ones.  The file is mapped shared: what one process writes is
    what the others read. *)
Record multi := mkMulti { u_disk : disk; u_procs : list sys }.
Definition with_disk (d : disk) (s : sys) : sys :=
  let E := y_env s in
  mkSys (mkEnv (d_file d) (d_meta0 d) (d_meta1 d) (e_live1 E) (e_readers E) (e_locked E)) (y_writers s) (y_readers s).
(** process [i] calls a function *)
Definition mstep (m : multi) (i : nat) (a : act) : option multi :=
  match nth_error (u_procs m) i with
  | Some s =>
    match step (with_disk (u_disk m) s) a with
    | Some s' => Some (mkMulti (disk_of (y_env s')) (upd (u_procs m) i s'))
    | None => None
    end
  | None => None
  end.
(** one more process opens the file *)
Definition mopen (m : multi) : option multi :=
  match env_open (u_disk m) with
  | Ok E => Some (mkMulti (u_disk m) (u_procs m ++ [start E]))
  | _ => None
  end.
Inductive mact := MOpen | MAct (i : nat) (a : act).
Definition mdo (m : multi) (x : mact) : option multi :=
  match x with MOpen => mopen m | MAct i a => mstep m i a end.
Fixpoint mrun (m : multi) (l : list mact) : option multi :=
  match l with
  | [] => Some m
  | x :: r => match mdo m x with Some m' => mrun m' r | None => None end
  end.

(** * The lock file of the cache *)

(** apr_file_lock is fcntl(2): the lock belongs to the process; unlocking it, or closing any
    descriptor of the file, gives it up.  [k_owner]: the process that has the lock;
    [k_open]: the open caches, as (process, handle) *)
Record locks := mkLocks { k_owner : option N; k_open : list (N * N) }.
Definition drop (pid : N) (o : option N) : option N :=
  match o with Some p => if p =? pid then None else o | None => None end.
(** napr_cache_open, napr_cache.c:38-147; [db]: the database and the rest could be opened *)
Inductive ores := OOpen | OBusy | OFail.
Definition cache_open (pid h : N) (db : bool) (k : locks) : ores * locks :=
  match k_owner k with
  | Some p =>
    if p =? pid then
      if db then (OOpen, mkLocks (Some pid) ((pid, h) :: k_open k))
      else (OFail, mkLocks (drop pid (Some pid)) (k_open k))
    else (OBusy, mkLocks (drop pid (k_owner k)) (k_open k))
  | None =>
    if db then (OOpen, mkLocks (Some pid) ((pid, h) :: k_open k))
    else (OFail, mkLocks None (k_open k))
  end.
Definition handle_eqb (a b : N * N) : bool := (fst a =? fst b) && (snd a =? snd b).
(** napr_cache_close, napr_cache.c:149-184 *)
Definition cache_close (pid h : N) (k : locks) : locks :=
  mkLocks (drop pid (k_owner k)) (filter (fun e => negb (handle_eqb e (pid, h))) (k_open k)).
(** the end of a process closes its files *)
Definition cache_exit (pid : N) (k : locks) : locks :=
  mkLocks (drop pid (k_owner k)) (filter (fun e => negb (fst e =? pid)) (k_open k)).
Inductive cact := COpen (pid h : N) (db : bool) | CClose (pid h : N) | CExit (pid : N).
Definition cdo (k : locks) (a : cact) : locks :=
  match a with
  | COpen pid h db => snd (cache_open pid h db k)
  | CClose pid h => cache_close pid h k
  | CExit pid => cache_exit pid k
  end.
Definition cnone : locks := mkLocks None [].
