(** Pseudo random numbers: /repo/source/c/foreign/sph-sc-lib/sph-sp/random.c (cited as random.c) and the uses in
    /repo/source/c-precompiled/sph-sp/main.c.

    - 64 bit words are numbers in Z from 0 to 2^64 - 1.
    - floating point results are exact rationals. The integers, the factor 2^-53, and the results for the ranges 1 and 2 are
      exact in binary64; for other ranges the rounding of one product is left out. *)
From Verif Require Import Base MiscModel.
From Coq Require Import QArith.
Open Scope nat_scope.

(** sph_rotl, random.c:2 *)
Definition rotl (x k : Z) : Z := Z.lor (u64 (Z.shiftl x k)) (Z.shiftr x (64 - k)).

(** sph_random_state_t: data[4] *)
Definition rstate : Type := Z * Z * Z * Z.

(** one pass of the loop of sph_random_state_new, random.c:14-20 (splitmix64). [seed] is already incremented. *)
Definition splitmix (seed : Z) : Z :=
  let z := seed in
  let z := u64 (Z.lxor z (Z.shiftr z 30) * 13787848793156543929) in
  let z := u64 (Z.lxor z (Z.shiftr z 27) * 10723151780598845931) in
  Z.lxor z (Z.shiftr z 31).
(** sph_random_state_new, random.c:11-22. The four passes are written out. *)
Definition random_state_new (seed : Z) : rstate :=
  let increment := 11400714819323198485%Z in
  let seed0 := u64 (seed + increment) in
  let seed1 := u64 (seed0 + increment) in
  let seed2 := u64 (seed1 + increment) in
  let seed3 := u64 (seed2 + increment) in
  (splitmix seed0, splitmix seed1, splitmix seed2, splitmix seed3).

(** the state update, the same in sph_random_u64 (random.c:35-41) and sph_random_f64_bounded (random.c:81-87) *)
Definition state_step (s : rstate) : rstate :=
  let '(s0, s1, s2, s3) := s in
  let t := u64 (Z.shiftl s1 17) in
  let s2 := Z.lxor s2 s0 in
  let s3 := Z.lxor s3 s1 in
  let s1 := Z.lxor s1 s2 in
  let s0 := Z.lxor s0 s3 in
  let s2 := Z.lxor s2 t in
  let s3 := rotl s3 45 in
  (s0, s1, s2, s3).

(** sph_random_u64, random.c:29-43 (xoshiro256 starstar) *)
Definition random_u64 (s : rstate) : Z * rstate :=
  let '(s0, s1, s2, s3) := s in (u64 (9 * rotl (u64 (5 * s1)) 7), state_step s).
(** the integer in sph_random_f64_bounded, random.c:75-87 (xoshiro256+) *)
Definition random_u64_plus (s : rstate) : Z * rstate :=
  let '(s0, s1, s2, s3) := s in (u64 (s0 + s3), state_step s).

(** sph_random_f64_from_u64, random.c:7 *)
Definition f64_from_u64 (a : Z) : Q := inject_Z (Z.shiftr a 11) * (1 # (2 ^ 53)).
(** sph_random_f64, random.c:90 *)
Definition random_f64 (s : rstate) : Q * rstate := let '(a, s) := random_u64 s in (f64_from_u64 a, s).
(** sph_random_f64_bounded, random.c:75-89 *)
Definition random_f64_bounded (range : Q) (s : rstate) : Q * rstate := let '(a, s) := random_u64_plus s in ((range * f64_from_u64 a)%Q, s).
(** sph_random_f64_1to1, random.c:125 *)
Definition random_f64_1to1 (s : rstate) : Q * rstate := let '(x, s) := random_f64_bounded 2 s in ((x - 1)%Q, s).
(** sph_random_f64_0to1, random.c:133 *)
Definition random_f64_0to1 (s : rstate) : Q * rstate := random_f64_bounded 1 s.
(** sph_random_u32, random.c:111 *)
Definition random_u32 (s : rstate) : Z * rstate := let '(a, s) := random_u64 s in (Z.shiftr a 32, s).

(** sph_random_u64_bounded, random.c:48-71, for any source of 64 bit numbers. [fuel] bounds the passes of the loop; [None]: the
    source has not yielded an accepted number yet. *)
Section Bounded.
Variable St : Type.
Variable next : St -> Z * St.
(** the threshold, random.c:57-63 *)
Definition threshold (range : Z) : Z :=
  let t := u64 (- range) in
  if (range <=? t)%Z then
    let t := u64 (t - range) in
    if (range <=? t)%Z then (t mod range)%Z else t
  else t.
(** the loop, random.c:64-68, and the result m >> 64 *)
Fixpoint bounded_loop (fuel : nat) (range t m : Z) (st : St) : option (Z * St) :=
  match fuel with
  | O => None
  | S fuel =>
    if (u64 m <? t)%Z then let '(x, st) := next st in bounded_loop fuel range t (x * range)%Z st
    else Some (Z.shiftr m 64, st)
  end.
Definition random_u64_bounded (fuel : nat) (range : Z) (st : St) : option (Z * St) :=
  let '(x, st) := next st in
  let m := (x * range)%Z in
  if (u64 m <? range)%Z then bounded_loop fuel range (threshold range) m st
  else Some (Z.shiftr m 64, st).
End Bounded.
(** sph_random_u32_bounded, random.c:112: conversion to uint32 *)
Definition random_u32_bounded (fuel : nat) (range : Z) (s : rstate) : option (Z * rstate) :=
  '(x, s) <- random_u64_bounded rstate random_u64 fuel range s ;; Some (u32 x, s).

(** the array functions, random.c:91-110, 113-122, 126-138: all have the same loop with one of the functions above *)
Definition random_array {St V : Type} (draw : St -> option (V * St)) (st : St) (size : nat) (out : list V) : option (list V * St) :=
  for_ 0 size (fun i '(out, st) => '(x, st) <- draw st ;; out <- aset out i x ;; Some (out, st)) (out, st).

(** sp_random_state_new, main.c:413-419 *)
Definition sp_random_state_new (seed : Z) : rstate :=
  let s := random_state_new seed in
  let s := snd (random_u32 s) in
  snd (random_u32 s).

(** sp_normal_random, main.c:479-486. sp_stat_times_mean (statistics.c:159-167) adds in sp_time_t. *)
Definition normal_random {St : Type} (draw : Z -> St -> option (Z * St)) (min max : Z) (st : St) : option (Z * St) :=
  '(samples, st) <- random_array (draw (u32 (max - min))) st 32 (repeat 0%Z 32) ;;
  let samples := map (fun x => u32 (x + min)) samples in
  let sum := fold_left (fun s x => u32 (s + x)) samples 0%Z in
  r <- time_of (inject_Z sum / inject_Z 32)%Q ;; Some (r, st).
