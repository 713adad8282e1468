(** Model of the transaction state and of the tree traversals of
    /repo/src/napr_db_tree.c and /repo/src/napr_db.c.  The memory map and the
    file are one function from page number to page ([e_file]); a write
    transaction keeps its modified pages in [t_dirty]. *)
From Verif Require Import Util PageModel.
Local Open Scope N_scope.

Definition DB_MAGIC : N := 3737844653.            (* 0xDECAFBAD, napr_db_internal.h:131 *)
Definition DB_VERSION : N := 1.                   (* napr_db_internal.h:134 *)
Definition MAX_TREE_DEPTH : nat := 32.            (* napr_db_internal.h:19 *)
Definition MAX_READERS : nat := 126.              (* napr_db_internal.h:57 *)

(** DB_MetaPage, napr_db_internal.h:202-216.  The two meta pages (file pages 0
    and 1) are kept decoded, in fields of [env], not in [e_file]. *)
Record meta := mkMeta {
  m_magic : N; m_version : N; m_txnid : N; m_root : N; m_last : N; m_free : N }.

(** DB_ReaderSlot, napr_db_internal.h:72-78 *)
Record rslot := mkSlot { s_pid : N; s_tid : N; s_txnid : N }.

(** napr_db_env_t, napr_db_internal.h:278-304.  [e_live1]: live_meta points to
    meta1.  [e_locked]: the writer mutex is held.  Pages of the map beyond the end
    of the file are not distinguished (every page number has contents). *)
Record env := mkEnv {
  e_file : N -> page; e_meta0 : meta; e_meta1 : meta; e_live1 : bool;
  e_readers : list rslot; e_locked : bool }.

Definition live_meta (E : env) : meta := if e_live1 E then e_meta1 E else e_meta0 E.

(** napr_db_txn_t, napr_db_internal.h:317-335.  [t_dirty] is the dirty_pages hash
    table as an association list with at most one entry per key. *)
Record txn := mkTxn {
  t_rdonly : bool; t_id : N; t_root : N; t_free_root : N;
  t_dirty : list (N * page); t_last : N; t_freed : list N }.

Definition set_root (t : txn) (r : N) : txn :=
  mkTxn (t_rdonly t) (t_id t) r (t_free_root t) (t_dirty t) (t_last t) (t_freed t).
Definition set_dirty (t : txn) (d : list (N * page)) : txn :=
  mkTxn (t_rdonly t) (t_id t) (t_root t) (t_free_root t) d (t_last t) (t_freed t).
Definition set_last (t : txn) (n : N) : txn :=
  mkTxn (t_rdonly t) (t_id t) (t_root t) (t_free_root t) (t_dirty t) n (t_freed t).
Definition set_freed (t : txn) (f : list N) : txn :=
  mkTxn (t_rdonly t) (t_id t) (t_root t) (t_free_root t) (t_dirty t) (t_last t) f.

(** apr_hash_get / apr_hash_set on dirty_pages *)
Fixpoint dget (d : list (N * page)) (k : N) : option page :=
  match d with [] => None | (k', p) :: r => if k' =? k then Some p else dget r k end.
Definition dset (d : list (N * page)) (k : N) (p : page) : list (N * page) :=
  (k, p) :: filter (fun e => negb (fst e =? k)) d.
Definition put_dirty (t : txn) (k : N) (p : page) : txn := set_dirty t (dset (t_dirty t) k p).

(** db_get_page, napr_db_tree.c:143-157 (also napr_db_cursor.c:17-31) *)
Definition get_page (E : env) (t : txn) (pg : N) : page :=
  if t_rdonly t then e_file E pg
  else match dget (t_dirty t) pg with Some p => p | None => e_file E pg end.

(** The child selection shared by the descents (napr_db_tree.c:206-233, 886-900):
    search, step back on "not found", clamp to the last entry, read the child
    pointer.  On an empty branch the clamped index is 65535: out of the page. *)
Definition child_index (p : page) (k : bytes) : res N :=
  do (found, i) <- page_search p k ;;
  let i1 := if negb found && (0 <? i) then i - 1 else i in
  Ok (if pg_nkeys p <=? i1 then sub16 (pg_nkeys p) 1 else i1).
Definition child_at (p : page) (i : N) : res N :=
  if slot_in_page i && (slot p i + 8 <=? PAGE_SIZE) then Ok (branch_child p (slot p i)) else UB.
Definition child_of (p : page) (k : bytes) : res N := do i <- child_index p k ;; child_at p i.

(** db_find_leaf_page_in_tree, napr_db_tree.c:172-238.  The C loop has no depth
    bound; [fuel] bounds it with the distinct outcome [Fuel]. *)
Fixpoint find_leaf (fuel : nat) (E : env) (t : txn) (pg : N) (k : bytes) : res page :=
  match fuel with
  | O => Fuel
  | S f =>
    let p := get_page E t pg in
    if is_leaf p then Ok p
    else if negb (is_branch p) then Err EINVAL
    else do c <- child_of p k ;; find_leaf f E t c k
  end.
(** loop bound used by the callers below: trees are at most 33 levels deep *)
Definition FIND_FUEL : nat := 64.

(** largest page number accepted by the descent, napr_db_tree.c:864-867 *)
Definition max_pgno (E : env) (t : txn) : N := if t_rdonly t then m_last (live_meta E) else t_last t.

(** db_find_leaf_page_with_path_in_tree, napr_db_tree.c:838-904.  [fuel] is
    MAX_TREE_DEPTH - depth, so running out is the EGENERAL of lines 857-859.  Returns
    the page numbers from the root to the leaf, and the leaf. *)
Fixpoint find_path (fuel : nat) (E : env) (t : txn) (pg : N) (k : bytes) : res (list N * page) :=
  match fuel with
  | O => Err EGENERAL
  | S f =>
    if max_pgno E t <? pg then Err EINVAL
    else
      let p := get_page E t pg in
      if is_leaf p then Ok ([pg], p)
      else if negb (is_branch p) then Err EINVAL
      else
        do c <- child_of p k ;;
        do (path, leaf) <- find_path f E t c k ;;
        Ok (pg :: path, leaf)
  end.

(** napr_db_get, napr_db.c:1329-1370 (the NULL argument checks are not modelled) *)
Definition leaf_value (p : page) (i : N) : res bytes :=
  if slot_in_page i && key_in_page true p (slot p i)
     && (slot p i + node_size true p (slot p i) <=? PAGE_SIZE)
  then Ok (leaf_val p (slot p i)) else UB.
Definition db_get (E : env) (t : txn) (k : bytes) : res bytes :=
  if t_root t =? 0 then Err NOTFOUND
  else
    do leaf <- find_leaf FIND_FUEL E t (t_root t) k ;;
    do (found, i) <- page_search leaf k ;;
    if found then leaf_value leaf i else Err NOTFOUND.
