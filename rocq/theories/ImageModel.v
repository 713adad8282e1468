(** Model of the image mode, /repo/src/ft_image.c.  libpuzzle is a parameter: [decode] is
    the vector puzzle_fill_cvec_from_file computes for a file, if it succeeds, [close] the
    test distance < threshold of line 209.  That every file is decoded once, whatever the
    schedule of the threads, is ImgParModel (C128); sharing one PuzzleContext between threads is not
    modelled, nor are the messages on stderr. *)
From Verif Require Import Util HeapModel CollectModel ProcessModel IgnoreModel.
Local Open Scope list_scope.
Local Open Scope Z_scope.

Section Image.
Variable vec : Type.
Variable decode : file -> option vec.
Variable close : vec -> vec -> bool.
Variable sep : N.

(** the for loop, ft_image.c:202-223: the twins printed, already_printed, the text *)
Fixpoint row (printed : bool) (f : file) (v : vec) (tree : list file) : list file * bool * str :=
  match tree with
  | [] => ([], printed, [])
  | g :: r =>
    match decode g with
    | None => row printed f v r
    | Some w =>
      if close v w then
        let '(m, p, t) := row true f v r in
        (g :: m, p, (if printed then [sep] else f_path f ++ [sep]) ++ f_path g ++ t)
      else row printed f v r
    end
  end.

(** compare_image_vectors, ft_image.c:189-239: the groups and the text *)
Fixpoint image_loop (fuel : nat) (h : heap file) : list (list file) * str * status :=
  match fuel with
  | O => ([], [], SFuel)
  | S fu =>
    match heap_extract file_cmp h with
    | HOk (h', None) => ([], [], SOk)
    | HOk (h', Some f) =>
      match decode f with
      | None => image_loop fu h'
      | Some v =>
        let '(m, p, t) := row false f v (h_tree h') in
        let '(gs, t', s) := image_loop fu h' in
        ((if p then [f :: m] else []) ++ gs, t ++ (if p then [10%N; 10%N] else []) ++ t', s)
      end
    | HUB => ([], [], SUB)
    | HFuel => ([], [], SFuel)
    end
  end.

(** run_ftwin_processing, ftwin.c:104-128, with OPTION_PUZZL; ft_image_twin_report,
    ft_image.c:102-120 *)
Definition run_image (c : conf) (l : list (list N * finfo)) : list (list file) * str * status :=
  match collect_files c l coll_empty with
  | HOk st =>
      if (length (h_tree (co_heap st)) =? 0)%nat then ([], [], SErr)
      else image_loop (S (length (h_tree (co_heap st)))) (co_heap st)
  | HUB => ([], [], SUB)
  | HFuel => ([], [], SFuel)
  end.
End Image.
