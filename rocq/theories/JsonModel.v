(** Model of the document built by /repo/src/ft_report_json.c.  The loops that choose the
    files of a set are in ProcessModel (json_array, report_json); here is what is put into
    the document for them.

    From jansson: json_string gives NULL for text that is not UTF-8, and the functions
    that put a value into an object or an array do nothing when the value is NULL.  Memory
    does not run out.  json_dumpf, which writes the document as text, is not modelled, nor
    is OPTION_UNTAR (ArchModel). *)
From Coq Require Import String Ascii.
From Verif Require Import Util HeapModel IgnoreModel CollectModel ProcessModel FormatModel.
Local Open Scope list_scope.
Local Open Scope Z_scope.

(** json_t *)
Inductive json :=
| JNull | JBool (b : bool) | JInt (z : Z) | JStr (s : str) | JArr (l : list json) | JObj (m : list (str * json)).

(** utf8_check_string of jansson *)
Definition cont (b : N) : bool := ((128 <=? b) && (b <=? 191))%N.
Fixpoint utf8 (s : str) : bool :=
  match s with
  | [] => true
  | a :: t =>
    if (a <? 128)%N then utf8 t
    else match t with
    | [] => false
    | b :: t1 =>
      if ((194 <=? a) && (a <=? 223))%N then cont b && utf8 t1
      else match t1 with
      | [] => false
      | c :: t2 =>
        if ((224 <=? a) && (a <=? 239))%N
        then cont b && cont c && negb ((a =? 224) && (b <? 160))%N && negb ((a =? 237) && (160 <=? b))%N && utf8 t2
        else match t2 with
        | [] => false
        | d :: t3 =>
          ((240 <=? a) && (a <=? 244))%N && cont b && cont c && cont d
          && negb ((a =? 240) && (b <? 144))%N && negb ((a =? 244) && (144 <=? b))%N && utf8 t3
        end
      end
    end
  end.
Definition json_string (s : str) : option json := if utf8 s then Some (JStr s) else None.
(** json_object_set_new with a new key; json_array_append_new *)
Definition set_new (o : json) (k : string) (v : option json) : json :=
  match o, v with
  | JObj m, Some x => JObj (m ++ [(lit k, x)])
  | _, _ => o
  end.
Definition append_new (a : json) (v : json) : json :=
  match a with JArr l => JArr (l ++ [v]) | _ => a end.

(** "%0wd" and "%0wx" of apr_psprintf, for numbers that are not negative: base [b] *)
Definition digit_char (d : Z) : N := Z.to_N (if d <? 10 then d + 48 else d + 87).
Fixpoint digits_of (fuel : nat) (b z : Z) (acc : str) : str :=
  match fuel with
  | O => acc
  | S fu => let acc' := digit_char (z mod b) :: acc in if z <? b then acc' else digits_of fu b (z / b) acc'
  end.
Definition padded (b : Z) (w : nat) (z : Z) : str :=
  let s := digits_of 20 b z [] in repeat 48%N (w - length s) ++ s.

(** the fields of apr_time_exp_t that are printed *)
Record exploded := mkExp { tm_year : Z; tm_mon : Z; tm_mday : Z; tm_hour : Z; tm_min : Z; tm_sec : Z }.

Section Doc.
Variable gmt : Z -> option exploded.        (* apr_time_exp_gmt *)
Variable mtime : file -> Z.                 (* file->mtime, ft_traverse.c:70; not kept in CollectModel *)

(** ft_format_time_iso8601_utc, ft_report_json.c:47-55, EPOCH_YEAR_START of line 44 *)
Definition time_text (t : Z) : str :=
  match gmt t with
  | None => lit "UNKNOWN_TIME"
  | Some e => padded 10 4 (tm_year e + 1900) ++ lit "-" ++ padded 10 2 (tm_mon e + 1) ++ lit "-" ++ padded 10 2 (tm_mday e)
              ++ lit "T" ++ padded 10 2 (tm_hour e) ++ lit ":" ++ padded 10 2 (tm_min e) ++ lit ":" ++ padded 10 2 (tm_sec e) ++ lit "Z"
  end.

(** ft_hash_to_hex, ft_report_json.c:58-62; the hash is high64 * 2^64 + low64 *)
Definition hash_text (h : N) : str :=
  padded 16 16 (Z.of_N (h / 2 ^ 64)) ++ padded 16 16 (Z.of_N (h mod 2 ^ 64)).

(** create_file_json_object, ft_report_json.c:65-77 *)
Definition file_object (f : file) : json :=
  let o := set_new (JObj []) "path" (json_string (f_path f)) in
  let o := set_new o "mtime_utc" (json_string (time_text (mtime f))) in
  set_new o "prioritized" (Some (JBool (f_prio f))).

(** create_duplicate_set_json, ft_report_json.c:119-131, and the appends of line 156.  The
    array is put into the object first and filled later; the model puts in the full one. *)
Definition set_object (j : jset) : json :=
  let '(size, h, fs) := j in
  let a := fold_left (fun a f => append_new a (file_object f)) fs (JArr []) in
  let o := set_new (JObj []) "size_bytes" (Some (JInt size)) in
  let o := set_new o "hash_xxh128" (json_string (hash_text h)) in
  set_new o "duplicates" (Some a).

(** root_array, ft_report_json.c:166-168 and 198 *)
Definition document (js : list jset) : json :=
  fold_left (fun a j => append_new a (set_object j)) js (JArr []).

(** the document written at the end of a JSON run, if one is written *)
Definition run_document (hash_of : file -> option N) (junk : file -> N) (compare : file -> file -> cmpres)
    (qsort : (chk -> chk -> Z) -> list chk -> list chk) (iter : table -> table)
    (c : conf) (l : list (list N * finfo)) : option json :=
  match run_json hash_of junk compare qsort iter c l with
  | (js, SOk) => Some (document js)
  | _ => None
  end.
End Doc.
