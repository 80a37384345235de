(** Names and descriptions of a status, /repo/source/c-precompiled/sph-sp/main.c:67-126 (cited as main.c) and
    /repo/source/c/foreign/sph-sc-lib/sph-sp/helper.c:5-20. A status is a group, a string, and an id, an int. strcmp is zero exactly for equal strings. *)
From Coq Require Import ZArith String Bool.
Open Scope Z_scope.
Open Scope string_scope.

(** helper.c:5-12: the function ends without return statement. [None]: the value is indeterminate and using it is undefined *)
Definition helper_status_description (id : Z) : option string := None.
(** sp_status_description, main.c:68-97. The ids are those of main.h:13-22 *)
Definition status_description (group : string) (id : Z) : option string :=
  if String.eqb "sp" group then Some (
    if (6 =? id)%Z then "end of file"
    else if (7 =? id)%Z then "input argument is of wrong type"
    else if (10 =? id)%Z then "not implemented"
    else if (8 =? id)%Z then "memory allocation error"
    else if (2 =? id)%Z then "invalid file write"
    else if (3 =? id)%Z then "invalid file read"
    else if (4 =? id)%Z then "unsupported format (only 32 bit float supported)"
    else if (5 =? id)%Z then "end of file"
    else if (9 =? id)%Z then "invalid argument"
    else "")
  else if String.eqb "sph" group then helper_status_description id
  else Some "".
(** sp_status_name, main.c:100-126 *)
Definition status_name (group : string) (id : Z) : string :=
  if String.eqb "sp" group then
    if (7 =? id)%Z then "input-type"
    else if (10 =? id)%Z then "not-implemented"
    else if (8 =? id)%Z then "memory"
    else if (2 =? id)%Z then "invalid-file-write"
    else if (3 =? id)%Z then "invalid-file-read"
    else if (4 =? id)%Z then "not-implemented"
    else if (5 =? id)%Z then "end-of-file"
    else if (9 =? id)%Z then "invalid-argument"
    else "unknown"
  else "unknown".
