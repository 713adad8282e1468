(** Model of the image mode with its threads, /repo/src/ft_image.c: the vectors are computed by
    the pool of PoolModel and stored in the files, then compared from there.  ImageModel reads
    the vector of a file straight from libpuzzle.  Failing APR calls are left out, and so is
    libpuzzle's own use of the PuzzleContext the threads share. *)
From Verif Require Import Util HeapModel CollectModel ProcessModel PoolModel IgnoreModel.
Local Open Scope list_scope.

Section Image.
Variable vec : Type.
Variable decode : file -> option vec.    (* puzzle_fill_cvec_from_file, as in ImageModel *)
Variable close : vec -> vec -> bool.
Variable sep : N.

(** the fields of ft_file_t used here, ft_types.h:57-66: cvec, [None] while cvec_ok is 0 *)
Record cell := mkCell { ce_file : file; ce_vec : option vec }.
(** ft_traverse.c:74: cvec_ok is 0 at first *)
Definition fresh (f : file) : cell := mkCell f None.
Definition cell_cmp (a b : cell) : Z := file_cmp (ce_file a) (ce_file b).

(** NB_WORKER, ft_image.c:38 *)
Definition NB_WORKER : nat := 4.
(** compute_image_vectors, ft_image.c:129-187: a task for every place of the heap, its address
    being 1, 2, ...; then the wait and the shutdown *)
Definition image_calls (n : nat) : list call := map (fun k => Add (N.of_nat (S k))) (seq 0 n) ++ [Wait; Shutdown].
(** compute_vector, ft_image.c:56-90: the cells, and nb_processed *)
Definition compute_vector (m : list cell * N) (i : nat) : list cell * N :=
  match nth_error (fst m) i with
  | Some c => (upd (fst m) i (mkCell (ce_file c) (match decode (ce_file c) with Some v => Some v | None => ce_vec c end)), (snd m + 1)%N)
  | None => m
  end.
(** the memory after the events [l]: a callback has done its work when it returns *)
Definition vectors (m : list cell * N) (l : list event) : list cell * N :=
  fold_left (fun m e => match e with EFinish _ x => compute_vector m (pred (N.to_nat x)) | _ => m end) l m.

(** the for loop, ft_image.c:202-223 *)
Fixpoint cell_row (printed : bool) (f : file) (v : vec) (tree : list cell) : list file * bool * str :=
  match tree with
  | [] => ([], printed, [])
  | g :: r =>
    match ce_vec g with
    | None => cell_row printed f v r
    | Some w =>
      if close v w then
        let '(m, p, t) := cell_row true f v r in
        (ce_file g :: m, p, (if printed then [sep] else f_path f ++ [sep]) ++ f_path (ce_file g) ++ t)
      else cell_row printed f v r
    end
  end.
(** compare_image_vectors, ft_image.c:189-239 *)
Fixpoint compare_cells (fuel : nat) (h : heap cell) : list (list file) * str * status :=
  match fuel with
  | O => ([], [], SFuel)
  | S fu =>
    match heap_extract cell_cmp h with
    | HOk (h', None) => ([], [], SOk)
    | HOk (h', Some c) =>
      match ce_vec c with
      | None => compare_cells fu h'
      | Some v =>
        let '(m, p, t) := cell_row false (ce_file c) v (h_tree h') in
        let '(gs, t', s) := compare_cells fu h' in
        ((if p then [ce_file c :: m] else []) ++ gs, t ++ (if p then [10%N; 10%N] else []) ++ t', s)
      end
    | HUB => ([], [], SUB)
    | HFuel => ([], [], SFuel)
    end
  end.

(** run_ftwin_processing, ftwin.c:104-128, with OPTION_PUZZL; ft_image_twin_report,
    ft_image.c:102-120.  [events] are those
    of the pool up to the return of the shutdown. *)
Definition run_threads (events : list event) (c : conf) (l : list (list N * finfo)) : list (list file) * str * status :=
  match collect_files c l coll_empty with
  | HOk st =>
      let h := co_heap st in
      if (length (h_tree h) =? 0)%nat then ([], [], SErr)
      else compare_cells (S (length (h_tree h)))
             (mkHeap (fst (vectors (map fresh (h_tree h), 0%N) events)) (h_max h))
  | HUB => ([], [], SUB)
  | HFuel => ([], [], SFuel)
  end.
End Image.
