(** Model of the progress lines written to stderr with -v: /repo/src/ft_process.c (hashing) and
    ft_image.c (vectors, comparisons).  A line "[k/n]" is the pair (k, n).  Float arithmetic is
    a parameter: [rnd] rounds a rational number to a float. *)
From Coq Require Import QArith Qround.
From Verif Require Import Util HeapModel CollectModel ProcessModel PoolModel IgnoreModel ParModel ImgParModel.
Local Open Scope list_scope.

Definition line := (N * N)%type.
(** (int) ((float) k / (float) n * 100.0F), ft_process.c:65 and ft_image.c:80; the conversion to
    int drops the fraction of a number that is not negative *)
Definition percent (rnd : Q -> Q) (l : line) : Z :=
  Qfloor (rnd (rnd (rnd (inject_Z (Z.of_N (fst l))) / rnd (inject_Z (Z.of_N (snd l)))) * inject_Z 100)%Q).

Section Hash.
Variable hash_of : file -> option N.
(** hashing_worker_callback, ft_process.c:57-69: under stats_mutex the counter is incremented and
    the line is written; a callback that fails writes none.  [total]: total_hash_tasks *)
Fixpoint hash_lines (ts : list task) (total : N) (m : memory) (l : list event) : list line :=
  match l with
  | [] => []
  | e :: r =>
    let m' := effect hash_of ts m [e] in
    (if (snd m <? snd m')%N then [(snd m', total)] else []) ++ hash_lines ts total m' r
  end.
End Hash.

Section Image.
Variable vec : Type.
Variable decode : file -> option vec.
(** compute_vector, ft_image.c:74-82: the line is written before the counter is incremented *)
Fixpoint vector_lines (total : N) (m : list (cell vec) * N) (l : list event) : list line :=
  match l with
  | [] => []
  | e :: r =>
    let m' := vectors vec decode m [e] in
    (if (snd m <? snd m')%N then [(snd m, total)] else []) ++ vector_lines total m' r
  end.
(** nb_cmp, ft_image.c:191: napr_heap_size is unsigned int, so the product is taken modulo 2^32 *)
Definition nb_cmp (size : nat) : N := ((N.of_nat size * ((N.of_nat size + 2 ^ 32 - 1) mod 2 ^ 32)) mod 2 ^ 32 / 2)%N.
(** the lines of compare_image_vectors, ft_image.c:189-235, without the last one: [cnt] is
    cnt_cmp, which counts the pairs of decoded images; the last line is (cnt_cmp, nb_cmp) with
    100.0 for the percentage *)
Fixpoint row_lines (total cnt : N) (tree : list (cell vec)) : list line * N :=
  match tree with
  | [] => ([], cnt)
  | g :: r =>
    match ce_vec _ g with
    | None => row_lines total cnt r
    | Some _ => let '(ls, c) := row_lines total (cnt + 1) r in ((cnt, total) :: ls, c)
    end
  end.
Fixpoint compare_lines (fuel : nat) (total cnt : N) (h : heap (cell vec)) : list line * N * status :=
  match fuel with
  | O => ([], cnt, SFuel)
  | S fu =>
    match heap_extract (cell_cmp vec) h with
    | HOk (h', None) => ([], cnt, SOk)
    | HOk (h', Some c) =>
      match ce_vec _ c with
      | None => compare_lines fu total cnt h'
      | Some _ =>
        let '(ls, n) := row_lines total cnt (h_tree h') in
        let '(ls', n', s) := compare_lines fu total n h' in (ls ++ ls', n', s)
      end
    | HUB => ([], cnt, SUB)
    | HFuel => ([], cnt, SFuel)
    end
  end.
Definition compare_progress (h : heap (cell vec)) : list line * line * status :=
  let total := nb_cmp (length (h_tree h)) in
  let '(ls, n, s) := compare_lines (S (length (h_tree h))) total 0 h in (ls, (n, total), s).
End Image.
