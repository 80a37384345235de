(** Small libraries under F = /repo/source/c/foreign/sph-sc-lib/sph-sp: memreg.h, the comparisons of float.c, filesystem.h. *)
From Verif Require Import Base.
From Coq Require Import QArith Qabs.
Open Scope nat_scope.

(** ** memreg, F/memreg.h:13-28, and memreg2, 52-68
    A register is an array and an index. Elements are addresses, or for memreg2 pairs of an address and a handler; [A] stands for both.
    The named variants (35-48) are the same with separate variables. Array elements that have not been set are [None]. *)
Section Memreg.
Context {A : Type}.
Record register := mkregister { slots : list (option A); index : nat }.
(** memreg_init *)
Definition memreg_init (size : nat) : register := mkregister (repeat None size) 0.
(** memreg_add *)
Definition memreg_add (r : register) (a : A) : option register := s <- aset (slots r) (index r) (Some a) ;; Some (mkregister s (index r + 1)).
(** memreg_free. Result: the elements in the order in which they are freed, or in which their handlers are called *)
Fixpoint free_loop (s : list (option A)) (i : nat) : option (list A) :=
  match i with O => Some [] | S i => a <- aget s i ;; a <- a ;; rest <- free_loop s i ;; Some (a :: rest) end.
Definition memreg_free (r : register) : option (list A * register) := l <- free_loop (slots r) (index r) ;; Some (l, mkregister (slots r) 0).
(** uses of a register one after the other *)
Inductive use := Add (a : A) | FreeAll.
Fixpoint run_uses (r : register) (l : list use) : option (list A * register) :=
  match l with
  | [] => Some ([], r)
  | Add a :: l => r <- memreg_add r a ;; run_uses r l
  | FreeAll :: l => '(freed, r) <- memreg_free r ;; '(rest, r) <- run_uses r l ;; Some (freed ++ rest, r)
  end.
End Memreg.
Arguments register : clear implicits. Arguments use : clear implicits.

(** ** sph_f64_nearly_equal and sph_f32_nearly_equal, F/float.c:5-8, and the array versions, F/float.h:22-35. Numbers are rationals *)
Definition nearly_equal (a b margin : Q) : bool := negb (Qle_bool margin (Qabs (a - b))).
Fixpoint nearly_loop (a b : list Q) (margin : Q) (i n : nat) : option bool :=
  match n with
  | O => Some true
  | S n => x <- aget a i ;; y <- aget b i ;; if nearly_equal x y margin then nearly_loop a b margin (S i) n else Some false
  end.
Definition array_nearly_equal (a : list Q) (a_len : nat) (b : list Q) (b_len : nat) (margin : Q) : option bool :=
  if negb (a_len =? b_len) then Some false else nearly_loop a b margin 0 a_len.

(** ** filesystem.h
    A path is how it begins, and its components from the last to the first. Repeated and trailing slashes are left out.
    The names are natural numbers. The file system is the set of existing paths. Other processes can create paths at any time:
    [others t] are those that exist in addition when the system call with number t is made. [permitted p]: mkdir p is allowed and there is space. *)
Inductive beginning := Absolute | Dotted | Relative.
Record path := mkpath { begins : beginning; components : list nat }.
Record world := mkworld { present : path -> bool; time : nat; errno : Z }.
Definition ENOENT : Z := 2.
Definition EACCES : Z := 13.
Definition EEXIST : Z := 17.
Definition path_eqb (p q : path) : bool :=
  match begins p, begins q with Absolute, Absolute | Dotted, Dotted | Relative, Relative => true | _, _ => false end && (if list_eq_dec Nat.eq_dec (components p) (components q) then true else false).
(** the directory that contains a path *)
Definition parent (p : path) : path := mkpath (begins p) (tl (components p)).
Section Files.
Variable others : nat -> path -> bool.
Variable permitted : path -> bool.
Definition pass (w : world) : world := mkworld (fun p => present w p || others (time w) p) (S (time w)) (errno w).
(** file_exists, F/filesystem.h:8: access *)
Definition file_exists (p : path) (w : world) : bool * world :=
  let w := pass w in if present w p then (true, w) else (false, mkworld (present w) (time w) ENOENT).
(** mkdir of the system *)
Definition mkdir (p : path) (w : world) : bool * world :=
  let w := pass w in
  if present w p then (false, mkworld (present w) (time w) EEXIST)
  else if negb (present w (parent p)) then (false, mkworld (present w) (time w) ENOENT)
  else if negb (permitted p) then (false, mkworld (present w) (time w) EACCES)
  else (true, mkworld (fun q => path_eqb q p || present w q) (time w) (errno w)).
(** ensure_directory_structure, F/filesystem.h:17-26, with dirname_2, 11-14. dirname returns a part of the copied path, or for a path without
    slashes a constant string, which must not be freed ([None]). The recursion ends at the beginning of the path, which exists *)
Fixpoint ensure (b : beginning) (c : list nat) (w : world) : option (bool * world) :=
  let p := mkpath b c in
  let '(e, w) := file_exists p w in
  if e then Some (true, w)
  else
    match c with
    | [] => None
    | _ :: c =>
      '(status, w) <- ensure b c w ;;
      _ <- need (match b, c with Relative, [] => false | _, _ => true end) ;;
      if status : bool then if (errno w =? EEXIST)%Z then Some (true, w) else Some (mkdir p w) else Some (false, w)
    end.
End Files.
