(** Specification vocabulary for pages: the lexicographic order on byte strings,
    the well-formed slotted page, and the list of entries a page stores.  Nothing
    here depends on the functions being verified, only on the on-disk layout. *)
From Verif Require Import Util PageModel.
Local Open Scope N_scope.

(** lexicographic order on unsigned bytes, a proper prefix being smaller *)
Inductive klt : bytes -> bytes -> Prop :=
| klt_nil : forall y b, klt [] (y :: b)
| klt_head : forall x y a b, x < y -> klt (x :: a) (y :: b)
| klt_tail : forall x a b, klt a b -> klt (x :: a) (x :: b).
Definition kle (a b : bytes) : Prop := klt a b \/ a = b.

(** strictly increasing list of keys *)
Definition ksorted (l : list bytes) : Prop := StronglySorted klt l.

(** the slots of a page, in order *)
Definition slots (p : page) : list N := map (fun i => slot p (N.of_nat i)) (seq 0 (N.to_nat (pg_nkeys p))).

(** the keys of a page, in slot order *)
Definition page_keys (leaf : bool) (p : page) : list bytes := map (node_key leaf p) (slots p).
(** the (key, value) pairs of a leaf and the (key, child) pairs of a branch, in slot order *)
Definition leaf_entries (p : page) : list (bytes * bytes) :=
  map (fun o => (node_key true p o, leaf_val p o)) (slots p).
Definition branch_entries (p : page) : list (bytes * N) :=
  map (fun o => (node_key false p o, branch_child p o)) (slots p).

(** two node offsets whose byte ranges do not overlap *)
Definition apart (leaf : bool) (p : page) (a b : N) : Prop :=
  a + node_size leaf p a <= b \/ b + node_size leaf p b <= a.

(** a well-formed slotted page *)
Record wf_page (leaf : bool) (p : page) : Prop := {
  wf_flags : pg_flags p = if leaf then P_LEAF else P_BRANCH;
  wf_lower : pg_lower p = HDR + 2 * pg_nkeys p;
  wf_free  : pg_lower p <= pg_upper p;
  wf_upper : pg_upper p <= PAGE_SIZE;
  wf_nodes : Forall (fun o => pg_upper p <= o /\ o + node_size leaf p o <= PAGE_SIZE) (slots p);
  wf_apart : ForallOrdPairs (apart leaf p) (slots p)
}.

(** free bytes between the slot array and the node area *)
Definition page_free (p : page) : N := pg_upper p - pg_lower p.

(** insertion into and removal from a list at a position *)
Definition insert_at {T} (i : nat) (x : T) (l : list T) : list T := firstn i l ++ x :: skipn i l.
Definition remove_at {T} (i : nat) (l : list T) : list T := firstn i l ++ skipn (S i) l.
Definition set_at {T} (i : nat) (x : T) (l : list T) : list T := firstn i l ++ x :: skipn (S i) l.

(** bytes an entry of a leaf / branch occupies, slot excluded *)
Definition leaf_size (k v : bytes) : N := LEAF_BASE + blen k + blen v.
Definition branch_size (k : bytes) : N := BRANCH_BASE + blen k.
