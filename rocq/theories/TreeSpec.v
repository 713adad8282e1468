(** Specification vocabulary for the B+ tree: which pages form a well-formed tree
    and which list of (key, value) pairs the tree holds.  A tree is described over
    a [view], the page contents by page number. *)
From Verif Require Import Util PageModel PageSpec TxnModel TreeModel.
Local Open Scope N_scope.

Definition view := N -> page.
Notation key := bytes (only parsing).

(** [lo <= k] and [k < hi], [None] being no bound *)
Definition above (lo : option key) (k : key) : Prop := match lo with None => True | Some l => kle l k end.
Definition below (hi : option key) (k : key) : Prop := match hi with None => True | Some h => klt k h end.

(** Children of a branch: the child of entry [i] holds the keys from its own
    separator (for the first child: from [lo]) up to the next separator. *)
Fixpoint kids (T : N -> option key -> option key -> Prop) (es : list (key * N)) (lo hi : option key) : Prop :=
  match es with
  | [] => False
  | (k, c) :: rest =>
    match rest with
    | [] => T c lo hi
    | (k', _) :: _ =>
      T c lo (Some k') /\ klt k k' /\ above lo k' /\ below hi k' /\ kids T rest (Some k') hi
    end
  end.

(** first separator of a branch page *)
Definition first_sep (p : page) : option key := match branch_entries p with (k, _) :: _ => Some k | [] => None end.

(** [tree b V h pg lo hi]: page [pg] is the root of a tree of height [h] (0 = leaf)
    whose keys lie in [lo, hi).  With [b = true] the first separator of every
    branch is moreover a lower bound of the first child's keys, and the separator
    of a child branch equals that branch's own first separator. *)
Fixpoint tree (b : bool) (V : view) (h : nat) (pg : N) (lo hi : option key) : Prop :=
  pg_pgno (V pg) = pg /\
  match h with
  | O =>
    wf_page true (V pg) /\ ksorted (page_keys true (V pg)) /\
    Forall (fun k => above lo k /\ below hi k) (page_keys true (V pg))
  | S h' =>
    wf_page false (V pg) /\
    kids (tree b V h') (branch_entries (V pg)) (if b then first_sep (V pg) else lo) hi /\
    (b = true ->
       (forall k0, first_sep (V pg) = Some k0 -> above lo k0) /\
       match h' with
       | O => True
       | S _ => Forall (fun e => first_sep (V (snd e)) = Some (fst e)) (branch_entries (V pg))
       end)
  end.

(** the pairs stored in the tree, in key order *)
Fixpoint tree_kvs (V : view) (h : nat) (pg : N) : list (key * bytes) :=
  match h with
  | O => leaf_entries (V pg)
  | S h' => flat_map (fun e => tree_kvs V h' (snd e)) (branch_entries (V pg))
  end.

(** the page numbers of the tree *)
Fixpoint tree_pages (V : view) (h : nat) (pg : N) : list N :=
  match h with
  | O => [pg]
  | S h' => pg :: flat_map (fun e => tree_pages V h' (snd e)) (branch_entries (V pg))
  end.

(** lookup in a list of pairs *)
Definition key_dec : forall a b : key, {a = b} + {a <> b} := list_eq_dec N.eq_dec.
Fixpoint lookup (k : key) (l : list (key * bytes)) : option bytes :=
  match l with
  | [] => None
  | (k', v) :: r => if key_dec k k' then Some v else lookup k r
  end.

(** [txn_holds b h E t kvs]: the write transaction [t] sees a well-formed tree of
    height at most [h], on pages 2 to [t_last t], holding the pairs [kvs]. *)
Definition txn_holds (b : bool) (h : nat) (E : env) (t : txn) (kvs : list (key * bytes)) : Prop :=
  t_rdonly t = false /\
  ((t_root t = 0 /\ kvs = []) \/
   exists h', (h' <= h)%nat /\ t_root t <> 0 /\
     tree b (get_page E t) h' (t_root t) None None /\
     NoDup (tree_pages (get_page E t) h' (t_root t)) /\
     Forall (fun q => 2 <= q <= t_last t) (tree_pages (get_page E t) h' (t_root t)) /\
     tree_kvs (get_page E t) h' (t_root t) = kvs).

(** ** When a split keeps every key reachable *)
(** boolean form of [klt], for counting *)
Fixpoint kltb (a b : bytes) : bool :=
  match a, b with
  | [], [] => false
  | [], _ :: _ => true
  | _ :: _, [] => false
  | x :: a', y :: b' => (x <? y) || ((x =? y) && kltb a' b')
  end.

(** bytes a leaf can offer to key [k]: the free gap, and the entry [k] already has *)
Definition leaf_avail (p : page) (k : key) : N :=
  page_free p + match lookup k (leaf_entries p) with Some v0 => leaf_size k v0 + 2 | None => 0 end.
(** the other keys of the leaf *)
Definition leaf_others (p : page) (k : key) : list key :=
  filter (fun x => if key_dec x k then false else true) (page_keys true p).

(** [split_plan V k need h pg]: what putting key [k] with an entry of [need] bytes
    does to the subtree of page [pg].  [Some None]: the page absorbs the change;
    [Some (Some d)]: the page splits, [d] being the first key of its upper half;
    [None]: the page would have to be split although it holds fewer than two entries
    or the new entry belongs exactly between the two halves. *)
Fixpoint split_plan (V : view) (k : key) (need : N) (h : nat) (pg : N) : option (option key) :=
  match h with
  | O =>
    let ks := leaf_others (V pg) k in
    let n := length ks in
    if need + 2 <=? leaf_avail (V pg) k then Some None
    else if Nat.leb 2 n && negb (Nat.eqb (length (filter (fun x => kltb x k) ks)) (Nat.div2 n))
    then Some (nth_error ks (Nat.div2 n)) else None
  | S h' =>
    let ks := page_keys false (V pg) in
    let n := length ks in
    let i := pred (length (filter (fun x => negb (kltb k x)) ks)) in
    match nth_error (branch_entries (V pg)) i with
    | None => None
    | Some (_, c) =>
      match split_plan V k need h' c with
      | None => None
      | Some None => Some None
      | Some (Some d) =>
        if branch_size d + 2 <=? page_free (V pg) then Some None
        else if Nat.leb 2 n && negb (Nat.eqb (S i) (Nat.div2 n))
        then Some (nth_error ks (Nat.div2 n)) else None
      end
    end
  end.

(** the leaf of the subtree of page [pg] responsible for key [k] *)
Fixpoint leaf_on (V : view) (k : key) (h : nat) (pg : N) : N :=
  match h with
  | O => pg
  | S h' =>
    let i := pred (length (filter (fun x => negb (kltb k x)) (page_keys false (V pg)))) in
    match nth_error (branch_entries (V pg)) i with
    | Some (_, c) => leaf_on V k h' c
    | None => pg
    end
  end.

(** ** Mere shape of a tree
    [shape V h pg]: page [pg] is the root of a tree of height [h] made of well-formed
    pages with strictly increasing keys.  Nothing is said about how the keys of a
    child relate to the separators above it. *)
Fixpoint shape (V : view) (h : nat) (pg : N) : Prop :=
  pg_pgno (V pg) = pg /\
  match h with
  | O => wf_page true (V pg) /\ ksorted (page_keys true (V pg))
  | S h' =>
    wf_page false (V pg) /\ ksorted (page_keys false (V pg)) /\ branch_entries (V pg) <> [] /\
    Forall (fun e => shape V h' (snd e)) (branch_entries (V pg))
  end.

(** the write transaction sees nothing, or a tree of that shape whose pages all differ *)
Definition shaped (E : env) (t : txn) : Prop :=
  t_rdonly t = false /\
  (t_root t = 0 \/
   exists h, (h < 32)%nat /\ t_root t <> 0 /\ shape (get_page E t) h (t_root t) /\
     NoDup (tree_pages (get_page E t) h (t_root t)) /\
     Forall (fun q => q <= t_last t) (tree_pages (get_page E t) h (t_root t))).

(** the bytes available for key [k] in the leaf responsible for it *)
Definition fits (E : env) (t : txn) (k v : bytes) : Prop :=
  forall h, shape (get_page E t) h (t_root t) ->
    leaf_size k v + 2 <= leaf_avail (get_page E t (leaf_on (get_page E t) k h (t_root t))) k.
(** that leaf already has a writable copy in the transaction *)
Definition leaf_is_dirty (E : env) (t : txn) (k : bytes) : Prop :=
  exists h, shape (get_page E t) h (t_root t) /\
    dget (t_dirty t) (leaf_on (get_page E t) k h (t_root t)) <> None.

(** no page that would have to be split is unclean, and the key is not below the
    root's first separator *)
Definition clean_put (E : env) (t : txn) (k v : bytes) : Prop :=
  forall h, (h <= 32)%nat -> tree true (get_page E t) h (t_root t) None None ->
    (match h with O => True | S _ => forall k0, first_sep (get_page E t (t_root t)) = Some k0 -> kle k0 k end) /\
    split_plan (get_page E t) k (leaf_size k v) h (t_root t) <> None.

(** ** Sequences of operations and the map they stand for *)
Inductive op := Put (k v : bytes) | Del (k : bytes).
Definition kmap := bytes -> option bytes.
Definition map_op (m : kmap) (o : op) : kmap :=
  match o with
  | Put k v => fun k' => if key_dec k' k then Some v else m k'
  | Del k => fun k' => if key_dec k' k then None else m k'
  end.
Definition do_op (E : env) (t : txn) (o : op) : out unit :=
  match o with Put k v => db_put E t k v | Del k => db_del E t k None end.
(** run the operations, stopping at the first that fails *)
Fixpoint do_ops (E : env) (t : txn) (os : list op) : out unit :=
  match os with
  | [] => Ret tt t
  | o :: r => run _, t1 <- do_op E t o ;; do_ops E t1 r
  end.
(** every put of the sequence is clean when its turn comes *)
Fixpoint clean_ops (E : env) (t : txn) (os : list op) : Prop :=
  match os with
  | [] => True
  | o :: r =>
    match o with
    | Put k v => leaf_size k v < 65536 /\ (t_root t = 0 \/ clean_put E t k v)
    | Del k => blen k < 65536
    end /\
    (forall t1, do_op E t o = Ret tt t1 -> clean_ops E t1 r)
  end.
(** what [get] answers agrees with the map *)
Definition reads (E : env) (t : txn) (m : kmap) : Prop :=
  forall k, blen k < 65536 -> db_get E t k = match m k with Some v => Ok v | None => Err NOTFOUND end.

(** computable versions, for examples *)
Fixpoint height_of (fuel : nat) (V : view) (pg : N) : nat :=
  match fuel with
  | O => O
  | S f =>
    if is_leaf (V pg) then O
    else match branch_entries (V pg) with (_, c) :: _ => S (height_of f V c) | [] => O end
  end.
Definition clean_putb (E : env) (t : txn) (k v : bytes) : bool :=
  let V := get_page E t in
  let h := height_of 33 V (t_root t) in
  (match h with
   | O => true
   | S _ => match first_sep (V (t_root t)) with Some k0 => negb (kltb k k0) | None => true end
   end) &&
  (match split_plan V k (leaf_size k v) h (t_root t) with Some _ => true | None => false end).
Fixpoint clean_opsb (E : env) (t : txn) (os : list op) : bool :=
  match os with
  | [] => true
  | o :: r =>
    (match o with
     | Put k v => (leaf_size k v <? 65536) && ((t_root t =? 0) || clean_putb E t k v)
     | Del k => blen k <? 65536
     end) &&
    (match do_op E t o with Ret _ t1 => clean_opsb E t1 r | _ => true end)
  end.
