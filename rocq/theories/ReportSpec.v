(** Specification vocabulary for the collection, hashing and reporting of files. *)
From Verif Require Import Util HeapModel CollectModel ProcessModel.
From Coq Require Import Sorting.Permutation Sorting.Sorted.
Local Open Scope Z_scope.

(** the files a run works on: the regular files met, within the size limits *)
Definition within (lo hi size : Z) : Prop := lo <= size /\ (hi = 0 \/ size <= hi).
Definition collected (c : conf) (l : list (list N * finfo)) : list file :=
  map (fun e => mkFile (fst e) (i_size (snd e)) (prioritized c (fst e)))
    (filter (fun e => (cf_minsize c <=? i_size (snd e))
                      && ((cf_maxsize c =? 0) || (i_size (snd e) <=? cf_maxsize c))) l).
(** file sizes are not negative *)
Definition sizes_ok (l : list (list N * finfo)) : Prop := Forall (fun e => 0 <= i_size (snd e)) l.

(** how many of the files [l] have size [s] *)
Definition of_size (s : Z) (l : list file) : list file := filter (fun f => f_size f =? s) l.

(** [subseq xs ys]: [xs] is [ys] with some elements left out *)
Inductive subseq {A} : list A -> list A -> Prop :=
| sub_nil l : subseq [] l
| sub_keep x xs ys : subseq xs ys -> subseq (x :: xs) (x :: ys)
| sub_skip x xs ys : subseq xs ys -> subseq xs (x :: ys).

(** What is used of qsort(3): a permutation, in order when the comparison is a total
    preorder on the elements; and the result depends on the elements only through the
    results of the comparisons. *)
Definition sorts (q : (chk -> chk -> Z) -> list chk -> list chk) : Prop :=
  forall cmp l, Permutation l (q cmp l) /\
    ((forall a b, In a l -> In b l -> cmp a b <= 0 \/ cmp b a <= 0) ->
     (forall a b d, In a l -> In b l -> In d l -> cmp a b <= 0 -> cmp b d <= 0 -> cmp a d <= 0) ->
     StronglySorted (fun a b => cmp a b <= 0) (q cmp l)).
Definition natural (q : (chk -> chk -> Z) -> list chk -> list chk) : Prop :=
  forall cmp g l, (forall a b, In a l -> In b l -> cmp (g a) (g b) = cmp a b) ->
    q cmp (map g l) = map g (q cmp l).
(** the iteration over a hash table visits each entry once (C32) *)
Definition visits_all (iter : table -> table) : Prop := forall t, Permutation t (iter t).

(** every file can be read, and comparison and hash depend on the bytes only *)
Definition exact_compare (content : file -> list N) (compare : file -> file -> cmpres) (l : list file) : Prop :=
  forall f g, In f l -> In g l -> f_size f = f_size g ->
    (content f = content g -> compare f g = Equal) /\ (content f <> content g -> compare f g = Differ).
Definition no_collision (content : file -> list N) (hash_of : file -> option N) (l : list file) : Prop :=
  forall f g, In f l -> In g l -> f_size f = f_size g ->
    (exists h, hash_of f = Some h) /\ (hash_of f = hash_of g <-> content f = content g).
(** the size recorded for a file is the length of its content *)
Definition sized (content : file -> list N) (l : list file) : Prop :=
  forall f, In f l -> Z.of_nat (length (content f)) = f_size f.
