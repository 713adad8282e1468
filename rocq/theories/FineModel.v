(** Fine-grained model of how threads use one open environment (/repo/src/napr_db.c):
    napr_db_txn_begin, commit and abort and db_get_oldest_reader_txnid, one step for every
    lock or unlock and for every read or write of a field that threads share: the pointer
    env->live_meta, the two meta pages in the memory map, the reader table.  Memory is
    sequentially consistent.  The other pages, what a write transaction does to them, the
    creation of pools and failing calls on mutexes are left out; magic and version of a
    meta page never change and are left out too. *)
From Verif Require Import Util PageModel TxnModel.
Local Open Scope N_scope.

(** the fields of DB_MetaPage that change, napr_db_internal.h:202-216 *)
Inductive fld := Ftxn | Froot | Ffree | Flast.
Record quad := mkQ { q_txn : N; q_root : N; q_free : N; q_last : N }.
Definition getf (q : quad) (f : fld) : N :=
  match f with Ftxn => q_txn q | Froot => q_root q | Ffree => q_free q | Flast => q_last q end.
Definition setf (q : quad) (f : fld) (x : N) : quad :=
  match f with
  | Ftxn => mkQ x (q_root q) (q_free q) (q_last q)
  | Froot => mkQ (q_txn q) x (q_free q) (q_last q)
  | Ffree => mkQ (q_txn q) (q_root q) x (q_last q)
  | Flast => mkQ (q_txn q) (q_root q) (q_free q) x
  end.

(** order of the reads in napr_db_txn_begin, napr_db.c:536-542 *)
Definition snap_order : list fld := [Ftxn; Froot; Ffree; Flast].
(** order of the fields in the page written by commit_meta_page, napr_db.c:1153-1159;
    apr_file_write_full (1168) and memcpy (1178) go through the page in this order *)
Definition pub_order : list fld := [Ftxn; Froot; Flast; Ffree].

(** Position of an agent.  An agent is one transaction handle at a time: a thread with
    several open transactions is several agents with the same process and thread id. *)
Inductive pos :=
| Idle
| WWait                                              (* db_writer_lock, 523 *)
| Snap (w : bool) (ptr : option bool) (q : quad) (todo : list fld)   (* 536-542; [ptr]: the value of live_meta in a register *)
| RegLock (q : quad)                                 (* apr_thread_mutex_lock, 572 *)
| RegScan (q : quad) (i : nat)                       (* 579-580 *)
| RegPid (q : quad) (i : nat) | RegTid (q : quad) (i : nat) | RegTxn (q : quad) (i : nat)   (* 581-583 *)
| RegDone (q : quad) | RegFull                       (* apr_thread_mutex_unlock, 589 *)
| ROpen (q : quad)                                   (* between calls *)
| EndLock (q : quad)                                 (* 1203 or 1289 *)
| EndScan (q : quad) (i : nat)                       (* 1206-1207 or 1292-1293 *)
| EndTxn (q : quad) (i : nat) | EndPid (i : nat) | EndTid (i : nat)   (* 1208-1210 or 1294-1296 *)
| EndDone                                            (* 1215 or 1301 *)
| WOpen (t : quad)                                   (* between calls *)
| OldLock (t : quad)                                 (* db_get_oldest_reader_txnid, 460 *)
| OldScan (t : quad) (i : nat) (acc : N)             (* 466-473 *)
| OldDone (t : quad) (acc : N)                       (* 475 *)
| Pub (n : quad) (stale : bool) (synced : bool) (todo : list fld)   (* commit_meta_page, 1161-1179 *)
| WDone.                                             (* db_writer_unlock, 1259 or 1306 *)

Record st := mkSt {
  mem : bool -> quad;         (* meta0 ([false]) and meta1 ([true]) in the map *)
  live : bool;                (* env->live_meta *)
  wlock : option nat;         (* holder of the writer mutex *)
  tlock : option nat;         (* holder of reader_table_mutex *)
  table : list rslot;         (* env->reader_table *)
  ags : list pos }.

Definition set_ag (s : st) (a : nat) (p : pos) : st :=
  mkSt (mem s) (live s) (wlock s) (tlock s) (table s) (upd (ags s) a p).
Definition set_wlock (s : st) (o : option nat) : st :=
  mkSt (mem s) (live s) o (tlock s) (table s) (ags s).
Definition set_tlock (s : st) (o : option nat) : st :=
  mkSt (mem s) (live s) (wlock s) o (table s) (ags s).
Definition set_table (s : st) (t : list rslot) : st :=
  mkSt (mem s) (live s) (wlock s) (tlock s) t (ags s).
Definition set_mem (s : st) (m : bool) (q : quad) : st :=
  mkSt (fun x => if Bool.eqb x m then q else mem s x) (live s) (wlock s) (tlock s) (table s) (ags s).
Definition set_live (s : st) (m : bool) : st :=
  mkSt (mem s) m (wlock s) (tlock s) (table s) (ags s).

(** What an agent does next where it has a choice: [Keep] reads a field of the meta page
    and keeps the pointer for the next field (the compiler may load env->live_meta once or
    each time), [IoFail] is a write or sync that reports an error, [EndW] an abort, a commit
    without changes, or a commit that fails before commit_meta_page. *)
Inductive choice := Go | Keep | BeginR | BeginW | EndR | Oldest | EndW | IoFail
| Commit (root free last : N).

Definition slot_at (T : list rslot) (i : nat) : rslot := nth i T (mkSlot 0 0 0).

(** One step of agent [a]; [who] gives its process and thread id.  [None]: not possible
    now, in particular a lock that is taken. *)
Definition step (who : nat -> N * N) (s : st) (a : nat) (c : choice) : option st :=
  match nth_error (ags s) a with
  | None => None
  | Some p =>
    let go p' := Some (set_ag s a p') in
    let T := table s in
    match p, c with
    | Idle, BeginR => go (Snap false None (mkQ 0 0 0 0) snap_order)
    | Idle, BeginW => go WWait
    | WWait, Go =>
      match wlock s with
      | None => Some (set_ag (set_wlock s (Some a)) a (Snap true None (mkQ 0 0 0 0) snap_order))
      | Some _ => None
      end
    | Snap w None q (f :: r), Go => go (Snap w (Some (live s)) q (f :: r))
    | Snap w (Some m) q (f :: r), Go => go (Snap w None (setf q f (getf (mem s m) f)) r)
    | Snap w (Some m) q (f :: r), Keep => go (Snap w (Some m) (setf q f (getf (mem s m) f)) r)
    | Snap false _ q [], Go => go (RegLock q)
    | Snap true _ q [], Go => go (WOpen (setf q Ftxn (q_txn q + 1)))           (* 547 *)
    | RegLock q, Go =>
      match tlock s with None => Some (set_ag (set_tlock s (Some a)) a (RegScan q 0)) | Some _ => None end
    | RegScan q i, Go =>
      if Nat.ltb i MAX_READERS
      then if s_txnid (slot_at T i) =? 0 then go (RegPid q i) else go (RegScan q (S i))
      else go RegFull
    | RegPid q i, Go =>
      Some (set_ag (set_table s (upd T i (mkSlot (fst (who a)) (s_tid (slot_at T i)) (s_txnid (slot_at T i))))) a (RegTid q i))
    | RegTid q i, Go =>
      Some (set_ag (set_table s (upd T i (mkSlot (s_pid (slot_at T i)) (snd (who a)) (s_txnid (slot_at T i))))) a (RegTxn q i))
    | RegTxn q i, Go =>
      Some (set_ag (set_table s (upd T i (mkSlot (s_pid (slot_at T i)) (s_tid (slot_at T i)) (q_txn q)))) a (RegDone q))
    | RegDone q, Go => Some (set_ag (set_tlock s None) a (ROpen q))
    | RegFull, Go => Some (set_ag (set_tlock s None) a Idle)                    (* APR_ENOMEM, 591-594 *)
    | ROpen q, EndR => go (EndLock q)
    | EndLock q, Go =>
      match tlock s with None => Some (set_ag (set_tlock s (Some a)) a (EndScan q 0)) | Some _ => None end
    | EndScan q i, Go =>
      if Nat.ltb i MAX_READERS
      then if (s_txnid (slot_at T i) =? q_txn q) && (s_pid (slot_at T i) =? fst (who a)) && (s_tid (slot_at T i) =? snd (who a))
           then go (EndTxn q i) else go (EndScan q (S i))
      else go EndDone
    | EndTxn q i, Go =>
      Some (set_ag (set_table s (upd T i (mkSlot (s_pid (slot_at T i)) (s_tid (slot_at T i)) 0))) a (EndPid i))
    | EndPid i, Go =>
      Some (set_ag (set_table s (upd T i (mkSlot 0 (s_tid (slot_at T i)) (s_txnid (slot_at T i))))) a (EndTid i))
    | EndTid i, Go =>
      Some (set_ag (set_table s (upd T i (mkSlot (s_pid (slot_at T i)) 0 (s_txnid (slot_at T i))))) a EndDone)
    | EndDone, Go => Some (set_ag (set_tlock s None) a Idle)
    | WOpen t, Oldest => go (OldLock t)
    | OldLock t, Go =>
      match tlock s with None => Some (set_ag (set_tlock s (Some a)) a (OldScan t 0 0)) | Some _ => None end
    | OldScan t i acc, Go =>
      if Nat.ltb i MAX_READERS
      then let x := s_txnid (slot_at T i) in
           go (OldScan t (S i) (if (0 <? x) && ((acc =? 0) || (x <? acc)) then x else acc))
      else go (OldDone t acc)
    | OldDone t acc, Go => Some (set_ag (set_tlock s None) a (WOpen t))
    | WOpen t, EndW => go WDone
    | WOpen t, Commit r f l => go (Pub (mkQ (q_txn t) r f l) (negb (live s)) false pub_order)   (* 1144-1159 *)
    | Pub n m sy (f :: r), Go =>
      Some (set_ag (set_mem s m (setf (mem s m) f (getf n f))) a (Pub n m sy r))
    | Pub n m false [], Go => go (Pub n m true pub_order)                       (* the sync, 1173-1176 *)
    | Pub n m false _, IoFail => go WDone
    | Pub n m true [], Go => Some (set_ag (set_live s m) a WDone)               (* 1179 *)
    | WDone, Go => Some (set_ag (set_wlock s None) a Idle)
    | _, _ => None
    end
  end.

(** an environment as napr_db_env_open leaves it, napr_db.c:296-360, with [n] agents *)
Definition start (m0 m1 : quad) (second : bool) (n : nat) : st :=
  mkSt (fun x => if x then m1 else m0) second None None (repeat (mkSlot 0 0 0) MAX_READERS) (repeat Idle n).
