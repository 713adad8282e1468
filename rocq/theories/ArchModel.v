(** Model of archive mode (-t): extraction of a member to a temporary file
    (/repo/src/ft_archive.c), hashing it (/repo/src/ft_process.c:20-85) and comparing two
    of them (/repo/src/ft_report.c:157-208, /repo/src/ft_report_json.c:79-116).

    The functions are modelled for ft_file_t structures whose field subpath is set, as
    ft_file_make (ft_file.c:307-340) sets it; the traversal of the program leaves it
    uninitialised, see MainModel.UndefSubpath.  libarchive is described by its answers
    ([lib]).  apr_file_remove of a file or link succeeds, of a directory fails; its status
    is ignored by the code.  Mode, owner and times of the extracted file are left out. *)
From Verif Require Import Util FileModel.
Local Open Scope nat_scope.

Definition path := list N.
Definition path_dec : forall a b : path, {a = b} + {a <> b} := list_eq_dec N.eq_dec.

(** what a path leads to *)
Inductive node := Absent | File (c : bytes) | Link (to : path) | Dir.
(** type of an archive member; one answer of archive_read_data_block with the answer of
    archive_write_data_block to it; a member; an answer of archive_read_next_header *)
Inductive kind := KFile | KLink (to : path) | KDir.
Inductive block := BData (off : nat) (d : bytes) (ok : bool) | BErr.
Record member := mkMember { m_name : option path; m_kind : kind; m_header : bool; m_blocks : list block }.
Inductive header := HEntry (m : member) | HErr.
(** the answers of libarchive while one archive is read, in the order of the calls of
    ft_archive.c:75-99; the headers end with ARCHIVE_EOF; [l_temp]: the name chosen by
    mkstemp, which looks for one that does not exist *)
Record lib := mkLib { l_new : bool; l_filter : bool; l_format : bool; l_open : bool; l_disk : bool;
                      l_headers : list header; l_temp : (path -> bool) -> option path }.
(** files, file creation mask of the process, archive handles in use *)
Record world := mkWorld { w_fs : path -> node; w_umask : N; w_handles : nat }.
(** the two fields of ft_file_t read here, ft_types.h:58-70 *)
Record afile := mkAFile { f_path : path; f_sub : option path }.

Definition set_node (w : world) (p : path) (n : node) : world :=
  mkWorld (fun q => if path_dec p q then n else w_fs w q) (w_umask w) (w_handles w).
Definition set_mask (w : world) (m : N) : world := mkWorld (w_fs w) m (w_handles w).
Definition set_handles (w : world) (n : nat) : world := mkWorld (w_fs w) (w_umask w) n.
Definition exists_ (w : world) (p : path) : bool := match w_fs w p with Absent => false | _ => true end.

(** unlink(2) behind apr_file_remove *)
Definition remove (w : world) (p : path) : world :=
  match w_fs w p with Dir | Absent => w | _ => set_node w p Absent end.
(** the bytes read through a path; one link is followed *)
Definition contents (w : world) (p : path) : option bytes :=
  match w_fs w p with
  | File c => Some c
  | Link q => match w_fs w q with File c => Some c | _ => None end
  | _ => None
  end.

(** writing [d] at offset [off]; a gap reads as zero *)
Definition write_at (c : bytes) (off : nat) (d : bytes) : bytes :=
  firstn off (c ++ repeat 0%N (off - length c)) ++ d ++ skipn (off + length d) c.
(** copy_data, ft_archive.c:44-65; data for a link or directory is refused *)
Fixpoint copy_data (bs : list block) (t : path) (w : world) : bool * world :=
  match bs with
  | [] => (true, w)
  | BErr :: _ => (false, w)
  | BData off d ok :: r =>
    match w_fs w t with
    | File c => if ok then copy_data r t (set_node w t (File (write_at c off d))) else (false, w)
    | _ => (false, w)
    end
  end.

(** mkstemp(3), ft_archive.c:121: a file that did not exist *)
Definition mkstemp (L : lib) (w : world) : option (path * world) :=
  match l_temp L (exists_ w) with
  | Some t => if exists_ w t then None else Some (t, set_node w t (File []))
  | None => None
  end.
(** archive_write_header, ft_archive.c:131: the entry, renamed to the temporary file,
    replaces it *)
Definition write_header (m : member) (t : path) (w : world) : world :=
  set_node w t (match m_kind m with KFile => File [] | KLink q => Link q | KDir => Dir end).

(** the search loop, ft_archive.c:101-112; archive_entry_pathname may return NULL *)
Inductive found := Found (m : member) | NotFound | BadArchive | NullName.
Fixpoint find_member (sub : path) (hs : list header) : found :=
  match hs with
  | [] => NotFound
  | HErr :: _ => BadArchive
  | HEntry m :: r =>
    match m_name m with
    | None => NullName
    | Some n => if path_dec sub n then Found m else find_member sub r
    end
  end.
(** opening the archive and the disk writer, ft_archive.c:75-99, then the search; the
    handles stay in use when a later call fails *)
Definition open_and_find (L : lib) (sub : path) (w : world) : found * world :=
  if negb (l_new L) then (NotFound, w)
  else
    let w1 := set_handles w (w_handles w + 1) in
    if negb (l_filter L && l_format L && l_open L) then (BadArchive, w1)
    else if negb (l_disk L) then (BadArchive, w1)
    else (find_member sub (l_headers L), set_handles w (w_handles w + 2)).

(** S_IRWXG | S_IRWXO *)
Definition PRIVATE : N := 63.

(** header and data of the member, ft_archive.c:129-145 *)
Definition extract (m : member) (t : path) (w : world) : bool * world :=
  if m_header m then
    let (ok, w1) := copy_data (m_blocks m) t (write_header m t w) in
    if ok then (true, w1) else (false, remove w1 t)
  else (false, remove w t).

(** ft_archive_untar_file, ft_archive.c:67-155 *)
Inductive ures := UPath (t : path) | UNull | UUndef.
Definition untar (L : lib) (sub : path) (w : world) : ures * world :=
  match open_and_find L sub w with
  | (Found m, w1) =>
    let old := w_umask w1 in
    let w2 := set_mask w1 PRIVATE in
    match mkstemp L w2 with
    | None => (UNull, w2)
    | Some (t, w3) =>
      match extract m t (set_mask w3 old) with
      | (true, w4) => (UPath t, set_handles w4 (w_handles w4 - 2))
      | (false, w4) => (UNull, w4)
      end
    end
  | (NullName, w1) => (UUndef, w1)
  | (_, w1) => (UNull, w1)
  end.

Section Work.
Context {X : Type}.
Variable chk : option bytes -> X.       (* checksum_file on what is read through the path *)

(** hashing_worker_callback, ft_process.c:20-85, with -t; the mutex, the counter and the
    messages are left out (see ParModel); allocation succeeds *)
Inductive wres := RFail | RSum (x : X) | RUndef.
Definition hash_task (L : lib) (f : afile) (w : world) : wres * world :=
  match f_sub f with
  | None => (RSum (chk (contents w (f_path f))), w)
  | Some sub =>
    match untar L sub w with
    | (UPath t, w1) => (RSum (chk (contents w1 t)), remove w1 t)
    | (UNull, w1) => (RFail, w1)
    | (UUndef, w1) => (RUndef, w1)
    end
  end.

(** The same callback cut into the steps that touch what the worker threads share: the
    files, the mask, the handles. *)
Inductive pc :=
| PStart
| PMasked (old : N) (m : member)               (* behind line 114 *)
| PMade (old : N) (t : path) (m : member)      (* behind line 122 *)
| PTemp (t : path) (m : member)                (* behind line 127 *)
| PReady (t : path)                            (* behind line 152 *)
| PSummed (t : path) (x : X)                   (* behind ft_process.c:50 *)
| PDone (r : wres).
Definition work_step (L : lib) (f : afile) (c : pc) (w : world) : pc * world :=
  match c with
  | PStart =>
    match f_sub f with
    | None => (PDone (RSum (chk (contents w (f_path f)))), w)
    | Some sub =>
      match open_and_find L sub w with
      | (Found m, w1) => (PMasked (w_umask w1) m, set_mask w1 PRIVATE)
      | (NullName, w1) => (PDone RUndef, w1)
      | (_, w1) => (PDone RFail, w1)
      end
    end
  | PMasked old m => match mkstemp L w with Some (t, w1) => (PMade old t m, w1) | None => (PDone RFail, w) end
  | PMade old t m => (PTemp t m, set_mask w old)
  | PTemp t m =>
    match extract m t w with
    | (true, w1) => (PReady t, set_handles w1 (w_handles w1 - 2))
    | (false, w1) => (PDone RFail, w1)
    end
  | PReady t => (PSummed t (chk (contents w t)), w)
  | PSummed t x => (PDone (RSum x), remove w t)
  | PDone r => (PDone r, w)
  end.
(** worker threads in any order: [s] names the thread that takes the next step *)
Fixpoint work (jobs : list (lib * afile)) (s : list nat) (cs : list pc) (w : world) : list pc * world :=
  match s with
  | [] => (cs, w)
  | i :: r =>
    match nth_error jobs i, nth_error cs i with
    | Some (L, f), Some c => let (c', w') := work_step L f c w in work jobs r (upd cs i c') w'
    | _, _ => work jobs r cs w
    end
  end.

(** get_comparison_paths, ft_report.c:157-190, with -t; [None]: APR_EGENERAL *)
Inductive gres := GPaths (p1 p2 : path) | GFail | GUndef.
Definition get_paths (L1 L2 : lib) (f1 f2 : afile) (w : world) : gres * world :=
  let second p1 w1 :=
    match f_sub f2 with
    | None => (GPaths p1 (f_path f2), w1)
    | Some s2 =>
      match untar L2 s2 w1 with
      | (UPath p2, w2) => (GPaths p1 p2, w2)
      | (UNull, w2) => (GFail, match f_sub f1 with Some _ => remove w2 p1 | None => w2 end)
      | (UUndef, w2) => (GUndef, w2)
      end
    end in
  match f_sub f1 with
  | None => second (f_path f1) w
  | Some s1 =>
    match untar L1 s1 w with
    | (UPath p1, w1) => second p1 w1
    | (UNull, w1) => (GFail, w1)
    | (UUndef, w1) => (GUndef, w1)
    end
  end.
(** cleanup_comparison_paths, ft_report.c:197-208 and ft_report_json.c:79-89 *)
Definition cleanup (f1 f2 : afile) (p1 p2 : path) (w : world) : world :=
  let w1 := match f_sub f1 with Some _ => remove w p1 | None => w end in
  match f_sub f2 with Some _ => remove w1 p2 | None => w1 end.
(** the comparison of two files, ft_report.c:235-241 and ft_report_json.c:99-105 *)
Variable cmp : option bytes -> option bytes -> X.
Definition compare_pair (L1 L2 : lib) (f1 f2 : afile) (w : world) : wres * world :=
  match get_paths L1 L2 f1 f2 w with
  | (GPaths p1 p2, w1) => (RSum (cmp (contents w1 p1) (contents w1 p2)), cleanup f1 f2 p1 p2 w1)
  | (GFail, w1) => (RFail, w1)
  | (GUndef, w1) => (RUndef, w1)
  end.
End Work.
Arguments wres : clear implicits. Arguments pc : clear implicits.
