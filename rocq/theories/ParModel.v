(** Model of the parallel hashing of /repo/src/ft_process.c: the tasks queued, the work done
    by the callback, on the pool of PoolModel. *)
From Verif Require Import Util HeapModel CollectModel ProcessModel PoolModel.

Section Par.
Variable hash_of : file -> option N.   (* as in ProcessModel *)
Variable iter : table -> table.

(** hashing_task_t, ft_process.h: the size and the number of the cell *)
Definition task := (Z * nat)%type.
(** the cells of an array that get a task, ft_process.c:206-207 *)
Definition cell_tasks (e : fsize) : list task :=
  map (pair (fs_val e))
    (filter (fun i => match nth_error (fs_arr e) i with Some (mkChk _ (Some _)) => true | _ => false end)
            (seq 0 (length (fs_arr e)))).
(** the loop of dispatch_hashing_tasks, ft_process.c:196-222; cells beyond nb_checksumed are
    left out, see ProcessModel *)
Definition tasks_of (json : bool) (t : table) : list task :=
  flat_map (fun e => if should_hash json e then cell_tasks e else []) (iter t).
(** apr_palloc gives every task an address of its own: 1, 2, ... *)
Definition addresses (ts : list task) : list N := map (fun k => N.of_nat (S k)) (seq 0 (length ts)).
(** the calls of dispatch_hashing_tasks, ft_process.c:212, 224 and 235 *)
Definition main_calls (ts : list task) : list call := map Add (addresses ts) ++ [Wait; Shutdown].

(** hashing_worker_callback, ft_process.c:20-80: checksum_file stores the hash in the cell of
    the task; the counter behind stats_mutex is the number of files hashed *)
Definition memory := (table * N)%type.
Definition hash_at (v : Z) (i : nat) (e : fsize) : fsize :=
  if (fs_val e =? v)%Z then
    match nth_error (fs_arr e) i with
    | Some k => mkFs (fs_val e) (upd (fs_arr e) i (hash_cell hash_of k)) (fs_nb e)
    | None => e
    end
  else e.
Definition hashed (v : Z) (i : nat) (e : fsize) : bool :=
  (fs_val e =? v)%Z &&
  match nth_error (fs_arr e) i with
  | Some (mkChk _ (Some f)) => match hash_of f with Some _ => true | None => false end
  | _ => false
  end.
Definition callback (m : memory) (tk : task) : memory :=
  let '(v, i) := tk in
  (map (hash_at v i) (fst m), if existsb (hashed v i) (fst m) then (snd m + 1)%N else snd m).
(** the memory after the events [l]: a callback has done its work when it returns *)
Definition effect (ts : list task) (m : memory) (l : list event) : memory :=
  fold_left (fun m e => match e with
                        | EFinish _ x => match nth_error ts (pred (N.to_nat x)) with Some tk => callback m tk | None => m end
                        | _ => m
                        end) l m.
End Par.
