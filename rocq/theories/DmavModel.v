(** sp_moving_average, P/filter.c:314-345, with doubles *)
From Coq Require Import ZArith List.
From Verif Require Import Base DblModel MavModel.

(** the unsigned width is converted to double, the product with -1 is a double *)
Definition moving_average64 : list f64 -> option (list f64) -> option (list f64) -> nat -> list f64 -> option (list f64) :=
  moving_average_of f64 fadd fsub (fun x => fmul x (f_of_Z (-1))) (fun sum width => fdiv sum (f_of_Z width)).
