(** Scaling, limiting, interpolating, summing and converting arrays.

    - Input and output arrays are separate lists. A call with the same array for both is the call with equal lists where the
      function reads only elements it has not written; the functions here do.
    - Times are 32 bit words in Z, samples are exact rationals (see MiscModel.v). *)
From Verif Require Import Base MiscModel ArrModel.
From Coq Require Import QArith Qround Qminmax Qabs.
Open Scope nat_scope.

(** sp_time_interpolate_linear, /repo/source/c-precompiled/sph-sp/arrays.h:6 *)
Definition time_interpolate (a b : Z) (t : Q) : option Z := cheap_round ((1 - t) * inject_Z a + t * inject_Z b)%Q.
(** sp_sample_interpolate_linear, arrays.h:7 *)
Definition sample_interpolate (a b t : Q) : Q := ((1 - t) * a + t * b)%Q.

(** sp_times_blend, /repo/source/c-precompiled/sph-sp/arrays.c:360-364 *)
Definition times_blend (a b : list Z) (fraction : Q) (size : nat) (out : list Z) : option (list Z) :=
  for_ 0 size (fun i out =>
    x <- aget a i ;; y <- aget b i ;; v <- time_interpolate x y fraction ;; v <- cheap_round (inject_Z v) ;; aset out i v) out.
(** sp_times_mask, arrays.c:367-371 *)
Definition times_mask (a b : list Z) (coefficients : list Q) (size : nat) (out : list Z) : option (list Z) :=
  for_ 0 size (fun i out =>
    x <- aget a i ;; y <- aget b i ;; t <- aget coefficients i ;; v <- time_interpolate x y t ;; v <- cheap_round (inject_Z v) ;; aset out i v) out.
(** sp_samples_blend, arrays.c:564-568 *)
Definition samples_blend (a b : list Q) (fraction : Q) (size : nat) (out : list Q) : option (list Q) :=
  for_ 0 size (fun i out => x <- aget a i ;; y <- aget b i ;; aset out i (sample_interpolate x y fraction)) out.
(** sp_times_scale, arrays.c:282-296. The allocation of temp succeeds. *)
Definition times_scale (input : list Z) (count factor : nat) (out : list Z) : option (list Z) :=
  temp <- slice input 0 count ;;
  let temp := map (fun x => t_mul x (Z.of_nat factor)) temp in
  for_ 1 count (fun i out =>
    for_ 0 factor (fun i2 out =>
      x <- aget temp (i - 1) ;; y <- aget temp i ;;
      v <- time_interpolate x y (inject_Z (Z.of_nat i2) / inject_Z (Z.of_nat factor))%Q ;;
      aset out (factor * (i - 1) + i2) v) out) out.
(** sp_times_make_seamless_right, arrays.c:386-397. [(1 + i) / count] is an integer division. *)
Definition seamless_right (a b out : list Z) : option (list Z) :=
  let count := Nat.min (length a) (length b / 2) in
  let start := length a - count in
  out <- for_ 0 start (fun i out => x <- aget a i ;; aset out i x) out ;;
  for_ 0 count (fun i out =>
    x <- aget a (i + start) ;; y <- aget b (count - (1 + i)) ;;
    v <- time_interpolate x y (inject_Z (Z.of_nat ((1 + i) / count))) ;; aset out (i + start) v) out.
(** sp_times_make_seamless_left, arrays.c:400-412. [count - 1] wraps for count zero, the second loop then does nothing. *)
Definition seamless_left (a b out : list Z) : option (list Z) :=
  let count := Nat.min (length b) (length a / 2) in
  out <- for_ 0 count (fun i out =>
    x <- aget b i ;; y <- aget a (length a - i) ;;
    v <- time_interpolate x y (inject_Z (Z.of_nat ((1 + i) / count))) ;; aset out i v) out ;;
  if count =? 0 then Some out else for_ (count - 1) (length b) (fun i out => x <- aget b i ;; aset out i x) out.

(** sp_times_absolute_max, arrays-template.c:38-49: times are never negative *)
Definition times_absolute_max (l : list Z) (count : nat) : option Z :=
  for_ 0 count (fun i max => x <- aget l i ;; Some (if (max <? x)%Z then x else max)) 0%Z.
(** sp_samples_absolute_max, arrays-template.c:38-49. temp and max have the type sp_time_t *)
Definition samples_absolute_max (l : list Q) (count : nat) : option Z :=
  for_ 0 count (fun i max => x <- aget l i ;; temp <- time_of (if Qlt_bool x 0 then (-1) * x else x)%Q ;; Some (if (max <? temp)%Z then temp else max)) 0%Z.
(** sp_times_sum, arrays.c:13-19 *)
Definition sum_times (l : list Z) (count : nat) : option Z := for_ 0 count (fun i s => x <- aget l i ;; Some (t_add s x)) 0%Z.
(** sph_f64_sum, /repo/source/c/foreign/sph-sc-lib/sph-sp/float.h:6-21. The countdown loop visits len - 2 .. 0. *)
Definition f64_sum (l : list Q) (count : nat) : option Q :=
  last <- aget l (count - 1) ;;
  _ <- need (0 <? count) ;;
  '(result, correction) <- for_ 0 (count - 1) (fun k '(result, correction) =>
    element <- aget l (count - 2 - k) ;;
    let temp := (result + element)%Q in
    Some (temp, correction + (if Qle_bool element result then (result - temp) + element else (element - temp) + result))%Q) (last, 0%Q) ;;
  Some (correction + result)%Q.
(** sp_times_scale_sum, arrays.c:308-313. Result: out *)
Definition times_scale_sum (input : list Z) (count : nat) (sum : Z) (out : list Z) : option (list Z) :=
  s <- sum_times input count ;;
  if (s =? 0)%Z then if count =? 0 then Some out else None
  else for_ 0 count (fun i out => x <- aget out i ;; v <- cheap_round (inject_Z x * (inject_Z sum / inject_Z s))%Q ;; aset out i v) out.
(** sp_times_scale_y, arrays.c:423-426. Result: in; out is not used *)
Definition times_scale_y (input : list Z) (count : nat) (target : Z) : option (list Z) :=
  max <- times_absolute_max input count ;;
  if (max =? 0)%Z then None
  else arr_multiply Z t_mul input 0 count (target / max)%Z.
(** sp_samples_scale_y, arrays.c:551-554. Result: in. Division by zero gives infinity in C, [None] here. *)
Definition samples_scale_y (input : list Q) (count : nat) (target : Q) : option (list Q) :=
  max <- samples_absolute_max input count ;;
  if (max =? 0)%Z then None
  else arr_multiply Q Qmult input 0 count (inject_Z (Z.of_nat count) / inject_Z max)%Q.
(** sp_samples_scale_sum, arrays.c:558-561. Result: in; out is not used *)
Definition samples_scale_sum (input : list Q) (count : nat) (target : Q) : option (list Q) :=
  sum <- f64_sum input count ;;
  if Qeq_bool sum 0 then None
  else arr_multiply Q Qmult input 0 count (target / sum)%Q.
(** sp_samples_set_gain, arrays.c:514-527 *)
Definition samples_set_gain (input : list Q) (count : nat) (amp : Q) : option (list Q) :=
  in_max <- samples_absolute_max input count ;;
  if Qeq_bool 0 amp || (0 =? in_max)%Z then Some input
  else
    let difference := (inject_Z in_max / amp)%Q in
    let correction := (1 + ((1 - difference) / difference))%Q in
    for_ 0 count (fun i l => x <- aget l i ;; aset l i (x * correction)%Q) input.
(** sp_samples_set_unity_gain, arrays.c:531 *)
Definition samples_set_unity_gain (input reference : list Q) (count : nat) : option (list Q) :=
  m <- samples_absolute_max reference count ;; samples_set_gain input count (inject_Z m).
(** sp_samples_limit_abs, arrays.c:572-582 *)
Definition samples_limit_abs (input : list Q) (count : nat) (limit : Q) (out : list Q) : option (list Q) :=
  for_ 0 count (fun i out =>
    value <- aget input i ;;
    aset out i (if Qlt_bool value 0 then if Qlt_bool value ((-1) * limit) then ((-1) * limit)%Q else value
                else if Qlt_bool limit value then limit else value)) out.
(** sp_samples_limit, arrays.c:583-589 *)
Definition samples_limit (l : list Q) (count : nat) (limit : Q) : option (list Q) :=
  for_ 0 count (fun i l => x <- aget l i ;; if Qlt_bool limit x then aset l i limit else Some l) l.
(** sp_samples_to_units, arrays.c:498-502 *)
Definition samples_to_units (l : list Q) (count : nat) : option (list Q) :=
  for_ 0 count (fun i l => x <- aget l i ;; aset l i ((x + 1) / 2)%Q) l.
(** sp_samples_to_times, arrays.c:493-497 and the loop of sp_samples_to_times_replace, 503-513 *)
Definition samples_to_times (input : list Q) (count : nat) (out : list Z) : option (list Z) :=
  for_ 0 count (fun i out => x <- aget input i ;; v <- cheap_round x ;; aset out i v) out.
(** sp_times_to_samples, arrays.c:466-470 and the loop of sp_times_to_samples_replace *)
Definition times_to_samples (input : list Z) (count : nat) (out : list Q) : option (list Q) :=
  for_ 0 count (fun i out => x <- aget input i ;; aset out i (inject_Z x)) out.
(** sp_times_multiplications, arrays.c:316-321 *)
Definition times_multiplications (start factor : Z) (count : nat) (out : list Z) : option (list Z) :=
  '(out, _) <- for_ 0 count (fun i '(out, start) => out <- aset out i start ;; Some (out, t_mul start factor)) (out, start) ;; Some out.
(** sp_samples_divisions, arrays.c:542-547. Division by zero gives infinity in C and is outside of the model. *)
Definition samples_divisions (start divisor : Q) (count : nat) (out : list Q) : option (list Q) :=
  '(out, _) <- for_ 0 count (fun i '(out, start) => out <- aset out i start ;; Some (out, (start / divisor)%Q)) (out, start) ;; Some out.

(** sp_u64_from_array, arrays.c:604-622. Little endian byte order; other counts return nothing ([None]). *)
Definition read16 (a : list Z) (i : nat) : option Z := x <- aget a i ;; y <- aget a (i + 1) ;; Some (x + 256 * y)%Z.
Definition read32 (a : list Z) (i : nat) : option Z := x <- read16 a i ;; y <- read16 a (i + 2) ;; Some (x + 65536 * y)%Z.
Definition read64 (a : list Z) (i : nat) : option Z := x <- read32 a i ;; y <- read32 a (i + 4) ;; Some (x + two32 * y)%Z.
Definition u64_from_array (a : list Z) (count : nat) : option Z :=
  match count with
  | 1 => aget a 0
  | 2 => read16 a 0
  | 3 => x <- read16 a 0 ;; y <- aget a 2 ;; Some (u64 (x + Z.shiftl y 16))
  | 4 => read32 a 0
  | 5 => x <- read32 a 0 ;; y <- aget a 4 ;; Some (u64 (x + Z.shiftl y 32))
  | 6 => x <- read32 a 0 ;; y <- read16 a 4 ;; Some (u64 (x + Z.shiftl y 32))
  | 7 => x <- read32 a 0 ;; y <- read16 a 4 ;; z <- aget a 6 ;; Some (u64 (x + Z.shiftl y 32 + Z.shiftl z 48))
  | 8 => read64 a 0
  | _ => None
  end.

(** sp_interleave and sp_deinterleave, /repo/source/c-precompiled/sph-sp/main.c:41-61. The loops count down; b_size is
    sp_time_t and wraps. Channels may have any count (uint8 in C). *)
Section Interleave.
Variable V : Type.
Fixpoint interleave_channels (a : list (list V)) (frame channel : nat) (b : list V) (b_size : Z) : option (list V * Z) :=
  match channel with
  | O => Some (b, b_size)
  | S channel =>
    let b_size := u32 (b_size - 1) in
    x <- aget a channel ;; x <- aget x frame ;;
    b <- aset b (Z.to_nat b_size) x ;;
    interleave_channels a frame channel b b_size
  end.
Fixpoint interleave_frames (a : list (list V)) (frames channel_count : nat) (b : list V) (b_size : Z) : option (list V) :=
  match frames with
  | O => Some b
  | S frame => '(b, b_size) <- interleave_channels a frame channel_count b b_size ;; interleave_frames a frame channel_count b b_size
  end.
Definition interleave (a : list (list V)) (b : list V) (frames channel_count : nat) : option (list V) :=
  interleave_frames a frames channel_count b (u32 (u32 (Z.of_nat frames) * Z.of_nat channel_count)).
Fixpoint deinterleave_channels (b : list V) (frame channel : nat) (a : list (list V)) (b_size : Z) : option (list (list V) * Z) :=
  match channel with
  | O => Some (a, b_size)
  | S channel =>
    let b_size := u32 (b_size - 1) in
    x <- aget b (Z.to_nat b_size) ;;
    c <- aget a channel ;; c <- aset c frame x ;; a <- aset a channel c ;;
    deinterleave_channels b frame channel a b_size
  end.
Fixpoint deinterleave_frames (b : list V) (frames channel_count : nat) (a : list (list V)) (b_size : Z) : option (list (list V)) :=
  match frames with
  | O => Some a
  | S frame => '(a, b_size) <- deinterleave_channels b frame channel_count a b_size ;; deinterleave_frames b frame channel_count a b_size
  end.
Definition deinterleave (a : list (list V)) (b : list V) (frames channel_count : nat) : option (list (list V)) :=
  deinterleave_frames b frames channel_count a (u32 (u32 (Z.of_nat frames) * Z.of_nat channel_count)).
End Interleave.
