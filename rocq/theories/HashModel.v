(** Model of the growing hash table, /repo/src/napr_hash.c.
    Memory is unbounded: allocation failure (which the code turns into
    APR_EGENERAL) is not modelled.  [power] is a [nat]; the wrap of the C
    [unsigned char] at 256 and of [1<<power] at 64 are out of reach of any real
    allocation and not modelled. *)
From Verif Require Import Util HeapModel.
Local Open Scope nat_scope.

Section Hash.
Context {A K : Type}.
Variable key_of : A -> K.          (* get_key / get_key_len, napr_hash.c:80-82 *)
Variable keq : K -> K -> bool.     (* equal length and key_cmp = 0, lines 197-198 *)
Variable hash : K -> N.            (* the 32-bit hash callback, line 86 *)

(** struct napr_hash_t, napr_hash.c:69-99.  [table[b][0..filling_table[b])] is the
    list [nth b buckets]; every allocated bucket array has [ffactor] cells. *)
Record htab := mkH { buckets : list (list A); nel : nat; ffactor : nat; power : nat }.

(** napr_hash.c:141-143: smallest power with 2^power >= nel *)
Definition make_power (n : N) : nat := N.to_nat (N.log2_up n).

(** napr_hash_make_ex, napr_hash.c:130-176 *)
Definition hash_make (n : N) (ff : nat) : htab :=
  let p := make_power n in mkH (repeat [] (2 ^ p)) 0 ff p.

(** [key_hash & hash->mask], napr_hash.c:192, 267, 303 *)
Definition bidx (h : N) (p : nat) : nat := N.to_nat (N.land h (N.ones (N.of_nat p))).

(** loop of napr_hash.c:195-202 *)
Fixpoint bucket_find (k : K) (b : list A) : option A :=
  match b with
  | [] => None
  | x :: t => if keq k (key_of x) then Some x else bucket_find k t
  end.

(** napr_hash_search, napr_hash.c:178-206 *)
Definition hash_search (t : htab) (k : K) : hres (option A) :=
  match nth_error (buckets t) (bidx (hash k) (power t)) with
  | Some b => HOk (bucket_find k b)
  | None => HUB
  end.

(** napr_hash_set, napr_hash.c:296-331, and napr_hash_rebuild, 208-256.
    [fuel] bounds the depth of nested rebuilds (the C recursion depth). *)
Fixpoint hash_set (fuel : nat) (t : htab) (x : A) (hv : N) : hres htab :=
  match fuel with
  | O => HFuel
  | S f =>
    let i := bidx hv (power t) in
    match nth_error (buckets t) i with
    | None => HUB
    | Some b =>
      (* line 310: write into an array of ffactor cells *)
      if length b <? ffactor t then
        let t1 := mkH (upd (buckets t) i (b ++ [x])) (S (nel t)) (ffactor t) (power t) in
        if ffactor t <=? length (b ++ [x]) then
          (* napr_hash_rebuild: new table of hashsize(power+1) buckets, re-insert
             all elements in bucket order, lines 226-245 *)
          let fix go (l : list A) (tmp : htab) : hres htab :=
            match l with
            | [] => HOk tmp
            | y :: l' => match hash_set f tmp y (hash (key_of y)) with
                         | HOk tmp' => go l' tmp'
                         | HUB => HUB
                         | HFuel => HFuel
                         end
            end in
          go (concat (buckets t1)) (mkH (repeat [] (2 ^ S (power t))) 0 (ffactor t) (S (power t)))
        else HOk t1
      else HUB
    end
  end.

(** loop of napr_hash.c:272-289: first equal element replaced by the last one *)
Fixpoint find_pos (k : K) (b : list A) : option nat :=
  match b with
  | [] => None
  | x :: t => if keq k (key_of x) then Some 0 else option_map S (find_pos k t)
  end.

(** napr_hash_remove, napr_hash.c:258-294 *)
Definition hash_remove (t : htab) (x : A) (hv : N) : hres htab :=
  let i := bidx hv (power t) in
  match nth_error (buckets t) i with
  | None => HUB
  | Some b =>
    match find_pos (key_of x) b with
    | None => HOk t
    | Some pos =>
      match nth_error b (length b - 1) with
      | None => HUB
      | Some last =>
        HOk (mkH (upd (buckets t) i (firstn (length b - 1) (upd b pos last)))
                 (nel t - 1) (ffactor t) (power t))
      end
    end
  end.

(** napr_hash_first / napr_hash_next, napr_hash.c:338-371: an index is
    (bucket, element); [None] is the NULL index. *)
Definition fill (t : htab) (b : nat) : nat := length (nth b (buckets t) []).

Fixpoint next_bucket (t : htab) (n b : nat) : option nat :=  (* loop of 361-365, n = size - b *)
  match n with
  | O => None
  | S n' => if fill t b =? 0 then next_bucket t n' (S b) else Some b
  end.

Definition hash_next (t : htab) (ix : nat * nat) : option (nat * nat) :=
  let '(b, e) := ix in
  if negb (fill t b =? 0) && (e <? fill t b - 1) then Some (b, S e)
  else match next_bucket t (length (buckets t) - S b) (S b) with
       | Some b' => Some (b', 0)
       | None => None
       end.

Definition hash_first (t : htab) : option (nat * nat) :=
  if 0 <? fill t 0 then Some (0, 0) else hash_next t (0, 0).

(** napr_hash_this, napr_hash.c:373-384 *)
Definition hash_this (t : htab) (ix : nat * nat) : option A :=
  match nth_error (buckets t) (fst ix) with
  | Some b => nth_error b (snd ix)
  | None => None
  end.

(** the client loop [for (ix = first; ix; ix = next(ix)) this(ix)] *)
Fixpoint hash_iter (fuel : nat) (t : htab) (ix : option (nat * nat)) : hres (list A) :=
  match ix with
  | None => HOk []
  | Some ix =>
    match fuel with
    | O => HFuel
    | S f =>
      match hash_this t ix with
      | None => HUB
      | Some x => match hash_iter f t (hash_next t ix) with
                  | HOk l => HOk (x :: l) | HUB => HUB | HFuel => HFuel end
      end
    end
  end.

(** Client operations.  [OAdd] is the idiom used by the callers
    (ft_traverse.c process_file, ft_config.c fill_gids_ht): search, set if absent. *)
Inductive hashop := OAdd (x : A) | OSearch (k : K) | ORemove (x : A).

Definition hash_step (fuel : nat) (t : htab) (o : hashop) : hres (htab * option A) :=
  match o with
  | OSearch k => match hash_search t k with HOk r => HOk (t, r) | HUB => HUB | HFuel => HFuel end
  | OAdd x =>
    match hash_search t (key_of x) with
    | HOk (Some y) => HOk (t, Some y)
    | HOk None => match hash_set fuel t x (hash (key_of x)) with
                  | HOk t' => HOk (t', None) | HUB => HUB | HFuel => HFuel end
    | HUB => HUB
    | HFuel => HFuel
    end
  | ORemove x => match hash_remove t x (hash (key_of x)) with
                 | HOk t' => HOk (t', None) | HUB => HUB | HFuel => HFuel end
  end.

Fixpoint hash_run (fuel : nat) (t : htab) (ops : list hashop) : hres (htab * list (option A)) :=
  match ops with
  | [] => HOk (t, [])
  | o :: l =>
    match hash_step fuel t o with
    | HOk (t', r) => match hash_run fuel t' l with
                     | HOk (t'', rs) => HOk (t'', r :: rs) | HUB => HUB | HFuel => HFuel end
    | HUB => HUB
    | HFuel => HFuel
    end
  end.

(** Unconditional insertion of a list of elements, as done by
    ft_hash_add_ignore_list, ft_config.c:140-165 (no search before set). *)
Fixpoint hash_set_all (fuel : nat) (t : htab) (l : list A) : hres htab :=
  match l with
  | [] => HOk t
  | x :: l' => match hash_set fuel t x (hash (key_of x)) with
               | HOk t' => hash_set_all fuel t' l' | HUB => HUB | HFuel => HFuel end
  end.
End Hash.
Arguments htab A : clear implicits.
Arguments hashop A K : clear implicits.
