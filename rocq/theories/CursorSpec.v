(** Specification vocabulary for cursors. *)
From Verif Require Import Util PageModel PageSpec TxnModel CursorModel TreeModel TreeSpec.
Local Open Scope N_scope.

(** every leaf below [pg] holds at least one pair *)
Fixpoint no_empty_leaf (V : view) (h : nat) (pg : N) : Prop :=
  match h with
  | O => leaf_entries (V pg) <> []
  | S h' => Forall (fun e => no_empty_leaf V h' (snd e)) (branch_entries (V pg))
  end.

(** the transaction (reading or writing) sees no tree, or an ordered tree that is a
    single leaf or has no empty leaf *)
Definition scannable (E : env) (t : txn) : Prop :=
  t_root t = 0 \/
  exists h, (h < 32)%nat /\ t_root t <> 0 /\ tree false (get_page E t) h (t_root t) None None /\
    (h = O \/ no_empty_leaf (get_page E t) h (t_root t)).

(** [scans E t op r l e]: starting with the answer [r] and calling [cursor_get] with
    [op] as long as it answers with a pair yields the pairs [l], then the error [e] *)
Inductive scans (E : env) (t : txn) (op : cop) : cout (bytes * bytes) -> list (bytes * bytes) -> status -> Prop :=
| scans_end e c : scans E t op (CErr e c) [] e
| scans_step kv c l e : scans E t op (cursor_get E t c op) l e -> scans E t op (COk kv c) (kv :: l) e.

(** the pairs readable in the transaction, as a list in ascending key order *)
Definition bindings (E : env) (t : txn) (l : list (bytes * bytes)) : Prop :=
  ksorted (map fst l) /\ Forall (fun kv => blen (fst kv) < 65536) l /\
  forall k v, blen k < 65536 -> (In (k, v) l <-> db_get E t k = Ok v).

(** [walk E t c ops rs]: the answers of [cursor_get] to the moves [ops], a pair or
    "not found"; the walk ends at the first "not found" *)
Inductive walk (E : env) (t : txn) : cursor -> list cop -> list (option (bytes * bytes)) -> Prop :=
| walk_nil c : walk E t c [] []
| walk_ok c op ops kv c' rs : cursor_get E t c op = COk kv c' -> walk E t c' ops rs -> walk E t c (op :: ops) (Some kv :: rs)
| walk_off c op ops c' : cursor_get E t c op = CErr NOTFOUND c' -> walk E t c (op :: ops) [None].
(** the same moves in a list, starting at position [i] *)
Fixpoint nav (l : list (bytes * bytes)) (i : nat) (ops : list cop) : list (option (bytes * bytes)) :=
  match ops with
  | NEXT :: r => match nth_error l (S i) with Some kv => Some kv :: nav l (S i) r | None => [None] end
  | PREV :: r => match i with S j => nth_error l j :: nav l j r | O => [None] end
  | _ => []
  end.
Definition is_move (op : cop) : Prop := match op with NEXT | PREV => True | _ => False end.
Definition is_seek (op : cop) : Prop := match op with FIRST | LAST => True | SET k | SET_RANGE k => blen k < 65536 | _ => False end.

(** the transaction sees no tree or a tree of well-formed sorted pages *)
Definition readable (E : env) (t : txn) : Prop :=
  t_root t = 0 \/ exists h, (h < 32)%nat /\ t_root t <> 0 /\ shape (get_page E t) h (t_root t).
(** ... whose keys moreover respect the separators *)
Definition ordered (E : env) (t : txn) (h : nat) : Prop :=
  (h < 32)%nat /\ t_root t <> 0 /\ tree false (get_page E t) h (t_root t) None None.
