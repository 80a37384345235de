(** Fourier transform: /repo/source/c/foreign/nayuki-fft/fft.c and sp_fft, sp_ffti in /repo/source/c-precompiled/sph-sp/main.c.

    - The functions are given for any type of numbers (names that end with _of): with real numbers here, where rounding is left out, and with doubles in
      DfftModel.v.
    - [None] is undefined behaviour or a loop that does not end.
    - Results of malloc and calloc are arguments. [ok path]: whether all allocations of the call succeed. The path is the list of the call sites from
      the outermost function on; the transform that a convolution calls first has 0, the second 1, the third 2, and the convolution in a transform 0.
    - [junk]: contents of memory from malloc.
    - Lengths are below 2^32, as with sp_fft, so that no size_t expression overflows. The checks for that are left out (fft.c:62, 120, 126, 214). *)
From Coq Require Import Reals.
From Verif Require Import Base.

(** reverse_bits, fft.c:253-258 *)
Fixpoint reverse_bits_loop (n : nat) (x result : nat) : nat :=
  match n with
  | O => result
  | S n => reverse_bits_loop n (Nat.shiftr x 1) (Nat.lor (Nat.shiftl result 1) (Nat.land x 1))
  end.
Definition reverse_bits (x n : nat) : nat := reverse_bits_loop n x 0.

(** the loop that computes levels, fft.c:55-57 *)
Fixpoint levels_loop (fuel temp levels : nat) : option nat :=
  if 1 <? temp then match fuel with O => None | S fuel => levels_loop fuel (Nat.shiftr temp 1) (S levels) end else Some levels.
(** the loop that searches the convolution length, fft.c:118-123 *)
Fixpoint length_loop (fuel n m : nat) : option nat :=
  if m / 2 <=? n then match fuel with O => None | S fuel => length_loop fuel n (m * 2) end else Some m.

Section Fft_of.
(** numbers and their operations *)
Variable V : Type.
Variable zero : V.
Variable add sub mul : V -> V -> V.
Variable neg : V -> V.
(** division by a length *)
Variable over : V -> nat -> V.
(** entry i of the tables for the length n: cosine and sine of 2 * M_PI * i / n, and of M_PI * i / n *)
Variable cos_turn sin_turn cos_half sin_half : nat -> nat -> V.
Variable junk : nat -> list V.

Definition arrays_of : Type := list V * list V.
(** fft.c:69-72 *)
Definition table_of (f : nat -> V) (size : nat) : option (list V) := for_ 0 size (fun i t => aset t i (f i)) (junk size).
(** the exchange of elements [i] and [j], fft.c:78-83 *)
Definition swap_of (i j : nat) (a : list V) : option (list V) := x <- aget a i ;; y <- aget a j ;; a <- aset a i y ;; aset a j x.
(** fft.c:75-85 *)
Definition permute_of (n levels : nat) (s : arrays_of) : option arrays_of :=
  for_ 0 n (fun i '(re, im) =>
    let j := reverse_bits i levels in
    if i <? j then re <- swap_of i j re ;; im <- swap_of i j im ;; Some (re, im) else Some (re, im)) s.
(** the body of the innermost loop, fft.c:94-99 *)
Definition butterfly_of (cos_table sin_table : list V) (j l k : nat) (s : arrays_of) : option arrays_of :=
  let '(re, im) := s in
  rl <- aget re l ;; il <- aget im l ;; c <- aget cos_table k ;; si <- aget sin_table k ;;
  let tpre := add (mul rl c) (mul il si) in
  let tpim := add (mul (neg rl) si) (mul il c) in
  rj <- aget re j ;; ij <- aget im j ;;
  re <- aset re l (sub rj tpre) ;; im <- aset im l (sub ij tpim) ;;
  rj <- aget re j ;; re <- aset re j (add rj tpre) ;;
  ij <- aget im j ;; im <- aset im j (add ij tpim) ;;
  Some (re, im).
(** one size, fft.c:89-101. The loop over i = 0, size, 2 size ... < n *)
Definition stage_of (n size : nat) (cos_table sin_table : list V) (s : arrays_of) : option arrays_of :=
  let halfsize := size / 2 in
  let tablestep := n / size in
  for_ 0 ((n + size - 1) / size) (fun b s =>
    let i := b * size in
    for_ i (i + halfsize) (fun j s => butterfly_of cos_table sin_table j (j + halfsize) ((j - i) * tablestep) s) s) s.
(** fft.c:88-104 *)
Fixpoint stages_of (fuel n size : nat) (cos_table sin_table : list V) (s : arrays_of) : option arrays_of :=
  if size <=? n then
    match fuel with
    | O => None
    | S fuel => s <- stage_of n size cos_table sin_table s ;; if size =? n then Some s else stages_of fuel n (size * 2) cos_table sin_table s
    end
  else Some s.
(** Fft_transformRadix2, fft.c:52-111 *)
Definition transform_radix2_of (ok : list nat -> bool) (n : nat) (s : arrays_of) : option (bool * arrays_of) :=
  levels <- levels_loop n n 0 ;;
  if negb (Nat.shiftl 1 levels =? n) then Some (false, s)
  else if ok [] then
    cos_table <- table_of (fun i => cos_turn i n) (n / 2) ;;
    sin_table <- table_of (fun i => sin_turn i n) (n / 2) ;;
    s <- permute_of n levels s ;;
    s <- stages_of n n 2 cos_table sin_table s ;;
    Some (true, s)
  else Some (false, s).

(** the function that Fft_transform calls, see [transform_of] *)
Section Convolve.
Variable transform : (list nat -> bool) -> nat -> arrays_of -> option (bool * arrays_of).
(** Fft_inverseTransform, fft.c:47-49 *)
Definition inverse_of (ok : list nat -> bool) (n : nat) (s : arrays_of) : option (bool * arrays_of) :=
  '(st, (im, re)) <- transform ok n (snd s, fst s) ;; Some (st, (re, im)).
(** Fft_convolveComplex, fft.c:208-250. memdup copies the first n elements. Result: status and the output arrays. *)
Definition convolve_complex_of (ok : list nat -> bool) (x y out : arrays_of) (n : nat) : option (bool * arrays_of) :=
  if negb (ok []) then Some (false, out)
  else
    xr <- slice (fst x) 0 n ;; xi <- slice (snd x) 0 n ;; yr <- slice (fst y) 0 n ;; yi <- slice (snd y) 0 n ;;
    '(st, (xr, xi)) <- transform (fun p => ok (0 :: p)) n (xr, xi) ;;
    if negb st then Some (false, out)
    else
      '(st, (yr, yi)) <- transform (fun p => ok (1 :: p)) n (yr, yi) ;;
      if negb st then Some (false, out)
      else
        '(xr, xi) <- for_ 0 n (fun i '(xr, xi) =>
          a <- aget xr i ;; b <- aget yr i ;; c <- aget xi i ;; d <- aget yi i ;;
          xi <- aset xi i (add (mul c b) (mul a d)) ;;
          xr <- aset xr i (sub (mul a b) (mul c d)) ;; Some (xr, xi)) (xr, xi) ;;
        '(st, (xr, xi)) <- inverse_of (fun p => ok (2 :: p)) n (xr, xi) ;;
        if negb st then Some (false, out)
        else
          out <- for_ 0 n (fun i '(re, im) =>
            a <- aget xr i ;; re <- aset re i (over a n) ;;
            b <- aget xi i ;; im <- aset im i (over b n) ;; Some (re, im)) out ;;
          Some (true, out).
(** Fft_transformBluestein, fft.c:114-188 *)
Definition transform_bluestein_of (ok : list nat -> bool) (n : nat) (s : arrays_of) : option (bool * arrays_of) :=
  m <- length_loop (n + 2) n 1 ;;
  if negb (ok []) then Some (false, s)
  else
    cos_table <- table_of (fun i => cos_half ((i * i) mod (n * 2)) n) n ;;
    sin_table <- table_of (fun i => sin_half ((i * i) mod (n * 2)) n) n ;;
    let '(re, im) := s in
    a <- for_ 0 n (fun i '(areal, aimag) =>
      x <- aget re i ;; y <- aget im i ;; c <- aget cos_table i ;; si <- aget sin_table i ;;
      areal <- aset areal i (add (mul x c) (mul y si)) ;;
      aimag <- aset aimag i (add (mul (neg x) si) (mul y c)) ;; Some (areal, aimag)) (repeat zero m, repeat zero m) ;;
    c0 <- aget cos_table 0 ;; s0 <- aget sin_table 0 ;;
    breal <- aset (repeat zero m) 0 c0 ;; bimag <- aset (repeat zero m) 0 s0 ;;
    b <- for_ 1 n (fun i '(breal, bimag) =>
      c <- aget cos_table i ;; si <- aget sin_table i ;;
      breal <- aset breal (m - i) c ;; breal <- aset breal i c ;;
      bimag <- aset bimag (m - i) si ;; bimag <- aset bimag i si ;; Some (breal, bimag)) (breal, bimag) ;;
    '(st, (creal, cimag)) <- convolve_complex_of (fun p => ok (0 :: p)) a b (junk m, junk m) m ;;
    if negb st then Some (false, s)
    else
      s <- for_ 0 n (fun i '(re, im) =>
        x <- aget creal i ;; y <- aget cimag i ;; c <- aget cos_table i ;; si <- aget sin_table i ;;
        re <- aset re i (add (mul x c) (mul y si)) ;;
        im <- aset im i (add (mul (neg x) si) (mul y c)) ;; Some (re, im)) s ;;
      Some (true, s).
End Convolve.

(** Fft_transform, fft.c:37-44. The functions call each other; [depth]: bound for that, [None] if it is not enough *)
Fixpoint transform_of (depth : nat) (ok : list nat -> bool) (n : nat) (s : arrays_of) : option (bool * arrays_of) :=
  if n =? 0 then Some (true, s)
  else if (Nat.land n (n - 1) =? 0) then transform_radix2_of ok n s
  else match depth with O => None | S depth => transform_bluestein_of (transform_of depth) ok n s end.
(** Fft_convolveReal, fft.c:191-205 *)
Definition convolve_real_of (depth : nat) (ok : list nat -> bool) (x y out : list V) (n : nat) : option (bool * list V) :=
  if negb (ok []) then Some (false, out)
  else '(st, (out, _)) <- convolve_complex_of (transform_of depth) (fun p => ok (0 :: p)) (x, repeat zero n) (y, repeat zero n) (out, repeat zero n) n ;; Some (st, out).
(** sp_fft and sp_ffti, main.c:221, 227: 0 for success. *)
Definition fft_of (ok : list nat -> bool) (n : nat) (s : arrays_of) : option (Z * arrays_of) :=
  '(st, s) <- transform_of 1 ok n s ;; Some (if (st : bool) then 0%Z else 1%Z, s).
Definition ffti_of (ok : list nat -> bool) (n : nat) (s : arrays_of) : option (Z * arrays_of) :=
  '(st, s) <- inverse_of (transform_of 1) ok n s ;; Some (if (st : bool) then 0%Z else 1%Z, s).
End Fft_of.

(** ** With real numbers *)
Open Scope R_scope.
Definition arrays : Type := arrays_of R.
Definition permute : nat -> nat -> arrays -> option arrays := permute_of R.
Section Fft.
Variable junk : nat -> list R.
Definition transform : nat -> (list nat -> bool) -> nat -> arrays -> option (bool * arrays) :=
  transform_of R 0 Rplus Rminus Rmult Ropp (fun x n => x / INR n) (fun i n => cos (2 * PI * INR i / INR n)) (fun i n => sin (2 * PI * INR i / INR n))
    (fun i n => cos (PI * INR i / INR n)) (fun i n => sin (PI * INR i / INR n)) junk.
Definition convolve_complex : ((list nat -> bool) -> nat -> arrays -> option (bool * arrays)) -> (list nat -> bool) -> arrays -> arrays -> arrays -> nat -> option (bool * arrays) :=
  convolve_complex_of R Rplus Rminus Rmult (fun x n => x / INR n).
Definition convolve_real : nat -> (list nat -> bool) -> list R -> list R -> list R -> nat -> option (bool * list R) :=
  convolve_real_of R 0 Rplus Rminus Rmult Ropp (fun x n => x / INR n) (fun i n => cos (2 * PI * INR i / INR n)) (fun i n => sin (2 * PI * INR i / INR n))
    (fun i n => cos (PI * INR i / INR n)) (fun i n => sin (PI * INR i / INR n)) junk.
Definition sp_fft : (list nat -> bool) -> nat -> arrays -> option (Z * arrays) :=
  fft_of R 0 Rplus Rminus Rmult Ropp (fun x n => x / INR n) (fun i n => cos (2 * PI * INR i / INR n)) (fun i n => sin (2 * PI * INR i / INR n))
    (fun i n => cos (PI * INR i / INR n)) (fun i n => sin (PI * INR i / INR n)) junk.
Definition sp_ffti : (list nat -> bool) -> nat -> arrays -> option (Z * arrays) :=
  ffti_of R 0 Rplus Rminus Rmult Ropp (fun x n => x / INR n) (fun i n => cos (2 * PI * INR i / INR n)) (fun i n => sin (2 * PI * INR i / INR n))
    (fun i n => cos (PI * INR i / INR n)) (fun i n => sin (PI * INR i / INR n)) junk.
End Fft.
