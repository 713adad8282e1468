(** Specification vocabulary for the transaction life cycle, independent of the code
    of napr_db.c. *)
From Verif Require Import Util PageModel PageSpec TxnModel TreeModel TreeSpec DbModel SysModel.
From Coq Require Import Permutation.
Local Open Scope N_scope.

(** the meta page of a file: [false] is page 0, [true] page 1 *)
Definition meta_at (d : disk) (second : bool) : meta := if second then d_meta1 d else d_meta0 d.
(** a meta page carries the right magic number and version *)
Definition good_meta (m : meta) : Prop := m_magic m = 3737844653 /\ m_version m = 1.

(** what a read transaction begun now on an environment sees *)
Definition reader (E : env) : txn :=
  mkTxn true (m_txnid (live_meta E)) (m_root (live_meta E)) (m_free (live_meta E)) [] (m_last (live_meta E)) [].
(** the answer to every key of a transaction begun now *)
Definition read_now (E : env) (k : bytes) : res bytes := db_get E (reader E) k.

(** registered snapshots: the occupied slots of the reader table *)
Definition registered (E : env) : list rslot := filter (fun s => negb (s_txnid s =? 0)) (e_readers E).
(** the open read transactions of a system, as (process, thread, snapshot) triples *)
Definition open_readers (s : sys) : list rslot :=
  map (fun e => mkSlot (fst (snd (fst e))) (snd (snd (fst e))) (t_id (snd e))) (y_readers s).

(** [m] is the least element of [l] *)
Definition least (l : list N) (m : N) : Prop := In m l /\ forall x, In x l -> m <= x.

(** a call that does not end a write transaction by commit *)
Definition uncommitted (a : act) : Prop := match a with CommitW _ _ => False | _ => True end.

(** ** The two trees of a transaction *)
(** page [q] belongs to the tree rooted at [r] *)
Definition in_tree (V : view) (r q : N) : Prop := r <> 0 /\ exists h, shape V h r /\ In q (tree_pages V h r).
(** the transaction sees a data tree and a Free DB tree without a common page *)
Definition two_trees (E : env) (t : txn) : Prop :=
  shaped E t /\ shaped E (set_root t (t_free_root t)) /\
  forall q, in_tree (get_page E t) (t_root t) q -> in_tree (get_page E t) (t_free_root t) q -> False.

(** room for the list of freed pages in the Free DB: nothing was freed, or there is no
    Free DB yet, or the leaf responsible for this transaction's id has room *)
Definition free_room (E : env) (t : txn) : Prop :=
  t_freed t = [] \/ t_free_root t = 0 \/
  forall h, shape (get_page E t) h (t_free_root t) ->
    let leaf := get_page E t (leaf_on (get_page E t) (le_bytes 8 (t_id t)) h (t_free_root t)) in
    lookup (le_bytes 8 (t_id t)) (leaf_entries leaf) = None /\
    12 + 8 * N.of_nat (length (t_freed t)) + 2 <= page_free leaf.

(** ** Histories *)
(** one write transaction: begin, the operations, commit; [Err]/[UB]/[Fuel] if a call
    does not succeed *)
Definition transact (E : env) (os : list op) : res env :=
  match begin_write E with
  | None => Err EINVAL
  | Some (E1, t) =>
    match do_ops E1 t os with
    | Ret _ t' => match db_commit E1 t' None with
                  | (E2, Ok _) => Ok E2 | (_, Err e) => Err e | (_, UB) => UB | (_, Fuel) => Fuel
                  end
    | Fail e _ => Err e | Bad => UB | NoFuel => Fuel
    end
  end.
Fixpoint history (E : env) (txns : list (list op)) : res env :=
  match txns with
  | [] => Ok E
  | os :: r => match transact E os with Ok E' => history E' r | Err e => Err e | UB => UB | Fuel => Fuel end
  end.

(** every put finds room in the leaf responsible for its key *)
Fixpoint fit_ops (E : env) (t : txn) (os : list op) : Prop :=
  match os with
  | [] => True
  | o :: r =>
    match o with
    | Put k v => 10 + blen k + blen v < 65536 /\ t_root t <> 0 /\ fits E t k v
    | Del k => blen k < 65536
    end /\
    (forall t1, do_op E t o = Ret tt t1 -> fit_ops E t1 r)
  end.
(** no page of the data tree or the Free DB has to be split in any of the transactions *)
Fixpoint fit_history (E : env) (txns : list (list op)) : Prop :=
  match txns with
  | [] => True
  | os :: r =>
    (forall E1 t, begin_write E = Some (E1, t) ->
       fit_ops E1 t os /\ t_last t + 1 < 2 ^ 64 /\
       forall t', do_ops E1 t os = Ret tt t' -> free_room E1 t' /\ N.of_nat (length (t_freed t')) < 8000) /\
    (forall E', transact E os = Ok E' -> fit_history E' r)
  end.
(** the write transaction begun now sees two disjoint trees *)
Definition healthy (E : env) : Prop :=
  e_locked E = false /\ forall E1 t, begin_write E = Some (E1, t) -> two_trees E1 t.

(** [P]-pages are not written by any commit of the run *)
Fixpoint spares (P : N -> Prop) (s : sys) (l : list act) : Prop :=
  match l with
  | [] => True
  | a :: r =>
    match a with
    | CommitW h _ => forall t fr t1, wget (y_writers s) h = Some t -> populate_free_db page_alloc (y_env s) t = Ret fr t1 ->
        forall q p, In (q, p) (t_dirty t1) -> ~ P (pg_pgno p)
    | _ => True
    end /\
    (forall s', step s a = Some s' -> spares P s' r)
  end.
