(** sp_path_times, the functions for paths with two to five points and the envelopes of /repo/source/c-precompiled/sph-sp/path.c.

    Samples are exact rationals as in PathModel. Allocation succeeds. The functions that sp_define_path_n makes have no return
    statement: they write the result, and the status that they return is indeterminate. *)
From Coq Require Import QArith Qround.
From Verif Require Import Base MiscModel ScaleModel PathModel.
Close Scope Q_scope.

(** what a call does: the array written to the out argument, and the returned status. [None]: indeterminate *)
Record outcome (A : Type) := mkoutcome { written : list A; status : option Z }.
Arguments mkoutcome {A}. Arguments written {A}. Arguments status {A}.

Section Env.
Variable root : Q -> Q.
Variable fuel : nat.
(** sp_path_samples, path.c:10-31, as a call that ended: a path whose sampling does not end within [fuel] is [None] *)
Definition samples_call (size : Z) (n : nat) (x y : list Q) (c : option (list Q)) : option (outcome Q) :=
  '(ended, out) <- path_samples root fuel size n x y c ;; _ <- need ended ;; Some (mkoutcome out (Some 0%Z)).
(** sp_path_times, path.c:34-41 *)
Definition times_call (size : Z) (n : nat) (x y : list Q) (c : option (list Q)) : option (outcome Z) :=
  temp <- samples_call size n x y c ;;
  out <- samples_to_times (written temp) (Z.to_nat size) (repeat 0%Z (Z.to_nat size)) ;;
  Some (mkoutcome out (Some 0%Z)).
(** the end of a function without return statement *)
Definition no_return {A : Type} (r : option (outcome A)) : option (outcome A) := r <- r ;; Some (mkoutcome (written r) None).

(** sp_define_path_n, path.c:42-130, once for samples and once for times: [call] is sp_path_samples or sp_path_times *)
Section PathN.
Context {A : Type}.
Variable call : Z -> nat -> list Q -> list Q -> option (list Q) -> option (outcome A).
Definition path2 (size : Z) (y1 y2 : Q) := no_return (call size 2 [] [y1; y2] None).
Definition path3 (size : Z) (x1 y1 y2 y3 : Q) := no_return (call size 3 [x1] [y1; y2; y3] None).
Definition path4 (size : Z) (x1 x2 y1 y2 y3 y4 : Q) := no_return (call size 4 [x1; x2] [y1; y2; y3; y4] None).
Definition path5 (size : Z) (x1 x2 x3 y1 y2 y3 y4 y5 : Q) := no_return (call size 5 [x1; x2; x3] [y1; y2; y3; y4; y5] None).
Definition path_c2 (size : Z) (y1 y2 c1 : Q) := no_return (call size 2 [] [y1; y2] (Some [c1])).
Definition path_c3 (size : Z) (x1 y1 y2 y3 c1 c2 : Q) := no_return (call size 3 [x1] [y1; y2; y3] (Some [c1; c2])).
Definition path_c4 (size : Z) (x1 x2 y1 y2 y3 y4 c1 c2 c3 : Q) := no_return (call size 4 [x1; x2] [y1; y2; y3; y4] (Some [c1; c2; c3])).
Definition path_c5 (size : Z) (x1 x2 x3 y1 y2 y3 y4 y5 c1 c2 c3 c4 : Q) :=
  no_return (call size 5 [x1; x2; x3] [y1; y2; y3; y4; y5] (Some [c1; c2; c3; c4])).
End PathN.

(** an automatic array of samples, elements can be indeterminate *)
Fixpoint initialised (l : list (option Q)) : option (list Q) :=
  match l with [] => Some [] | a :: l => a <- a ;; l <- initialised l ;; Some (a :: l) end.
(** the loop of sp_envelope_zero, path.c:140-143, and of sp_envelope_scaled, 174-177. [f]: applied to the y values *)
Definition envelope_loop (f : Q -> Q) (size : Z) (n : nat) (x y : list Q) (path_y : list (option Q)) : option (list Q * list (option Q)) :=
  for_ 2 (n - 1) (fun i '(x, path_y) =>
    a <- aget x (i - 1) ;; b <- aget x i ;; x <- aset x i (a + b * inject_Z size)%Q ;;
    v <- aget y i ;; path_y <- aset path_y i (Some (f v)) ;; Some (x, path_y)) (x, path_y).
(** sp_envelope_zero, path.c:135-145. sp_path_samples reads all elements of path_y below the number of points *)
Definition envelope_zero (size : Z) (n : nat) (x y : list Q) (c : option (list Q)) : option (outcome Q) :=
  let path_y := repeat (@None Q) 24 in
  a <- aget x 1 ;; x <- aset x 1 (a * inject_Z size)%Q ;;
  path_y <- aset path_y 0 (Some 0%Q) ;;
  path_y <- aset path_y (n - 1) (Some 0%Q) ;;
  '(x, path_y) <- envelope_loop (fun v => v) size n x y path_y ;;
  path_y <- initialised (firstn n path_y) ;;
  samples_call size n x path_y c.
(** sp_envelope_scaled, path.c:169-179 *)
Definition envelope_scaled (size : Z) (n : nat) (y_scalar : Q) (x y : list Q) (c : option (list Q)) : option (outcome Z) :=
  let path_y := repeat (@None Q) 24 in
  a <- aget x 1 ;; x <- aset x 1 (a * inject_Z size)%Q ;;
  y0 <- aget y 0 ;; path_y <- aset path_y 0 (Some (y_scalar * y0)%Q) ;;
  yn <- aget y (n - 1) ;; path_y <- aset path_y (n - 1) (Some (y_scalar * yn)%Q) ;;
  '(x, path_y) <- envelope_loop (fun v => (y_scalar * v)%Q) size n x y path_y ;;
  path_y <- initialised (firstn n path_y) ;;
  times_call size n x path_y c.

(** sp_define_envelope_zero_n, path.c:146-163. The parts of the length are rationals, length is converted *)
Definition envelope_zero3 (size : Z) (x1 y1 : Q) := path3 samples_call size (x1 * inject_Z size)%Q 0 y1 0.
Definition envelope_zero4 (size : Z) (x1 x2 y1 y2 : Q) :=
  path4 samples_call size (x1 * inject_Z size)%Q (x1 * inject_Z size + x2 * inject_Z size)%Q 0 y1 y2 0.
Definition envelope_zero5 (size : Z) (x1 x2 x3 y1 y2 y3 : Q) :=
  let x1 := (x1 * inject_Z size)%Q in
  let x2 := (x1 + x2 * inject_Z size)%Q in
  let x3 := (x2 + x3 * inject_Z size)%Q in
  path5 samples_call size x1 x2 x3 0 y1 y2 y3 0.
Definition envelope_zero_c3 (size : Z) (x1 y1 c1 c2 : Q) := path_c3 samples_call size (x1 * inject_Z size)%Q 0 y1 0 c1 c2.
Definition envelope_zero_c4 (size : Z) (x1 x2 y1 y2 c1 c2 c3 : Q) :=
  path_c4 samples_call size (x1 * inject_Z size)%Q (x1 * inject_Z size + x2 * inject_Z size)%Q 0 y1 y2 0 c1 c2 c3.
Definition envelope_zero_c5 (size : Z) (x1 x2 x3 y1 y2 y3 c1 c2 c3 c4 : Q) :=
  let x1 := (x1 * inject_Z size)%Q in
  let x2 := (x1 + x2 * inject_Z size)%Q in
  let x3 := (x2 + x3 * inject_Z size)%Q in
  path_c5 samples_call size x1 x2 x3 0 y1 y2 y3 0 c1 c2 c3 c4.
(** sp_define_envelope_scaled_n, path.c:180-189 *)
Definition envelope_scaled3 (size : Z) (s x1 y1 y2 y3 : Q) := path3 times_call size (x1 * inject_Z size)%Q (y1 * s)%Q (y2 * s)%Q (y3 * s)%Q.
Definition envelope_scaled4 (size : Z) (s x1 x2 y1 y2 y3 y4 : Q) :=
  path4 times_call size (x1 * inject_Z size)%Q (x1 * inject_Z size + x2 * inject_Z size)%Q (s * y1)%Q (s * y2)%Q (s * y3)%Q (s * y4)%Q.
Definition envelope_scaled5 (size : Z) (s x1 x2 x3 y1 y2 y3 y4 y5 : Q) :=
  let x1 := (x1 * inject_Z size)%Q in
  let x2 := (x1 + x2 * inject_Z size)%Q in
  let x3 := (x2 + x3 * inject_Z size)%Q in
  path5 times_call size x1 x2 x3 (s * y1)%Q (s * y2)%Q (s * y3)%Q (s * y4)%Q (s * y5)%Q.
End Env.
