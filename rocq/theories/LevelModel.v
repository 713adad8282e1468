(** Model of the similarity thresholds of the image mode: /repo/src/ft_config.c (-T) and
    ft_image.c (the comparison).  The constants PUZZLE_CVEC_SIMILARITY_... and the distance
    belong to libpuzzle and are parameters; a distance that is not a number is [None]. *)
From Coq Require Import QArith.
From Verif Require Import Util.

(** the four constants of puzzle.h, which is not part of /repo *)
Record constants := mkConstants { k_lower : Q; k_low : Q; k_mid : Q; k_high : Q }.
(** DEFAULT_THRESHOLD, ft_config.c:274 *)
Definition DEFAULT_THRESHOLD : Q := 1 # 2.
(** the threshold of level 1, ..., 5: ft_config.c:269 and 499-514; other levels do not pass -T *)
Definition threshold (k : constants) (level : N) : Q :=
  match level with
  | 1%N => k_lower k
  | 2%N => k_low k
  | 3%N => DEFAULT_THRESHOLD
  | 4%N => k_mid k
  | _ => k_high k
  end.
(** distance < conf->threshold, ft_image.c:208-209 *)
Definition closer {vec} (k : constants) (dist : vec -> vec -> option Q) (level : N) (v v' : vec) : bool :=
  match dist v v' with
  | Some d => if Qlt_le_dec d (threshold k level) then true else false
  | None => false
  end.
