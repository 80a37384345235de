(** Initialisation of the library and the sine functions that use its tables, /repo/source/c-precompiled/sph-sp/main.c.

    - Samples are real numbers; sin is that of the standard library.
    - The global variables are a record; memory, pointers and status are those of BlockModel. [None] as a pointer is the null pointer.
    - The results of sph_future_init and of the two calls of calloc are arguments. *)
From Verif Require Import Base BlockModel RandModel MiscModel.
From Coq Require Import Reals.
Open Scope nat_scope.

(** the global variables, main.h:117-125. [threads]: the thread pool of F/futures.c is running *)
Record library := { sine_table : option pointer; sine_table_lfo : option pointer; cpu_count : Z; rate : Z; channel_count : Z; random_state : rstate; sine_lfo_factor : Z; threads : bool }.
(** free of a possibly null pointer *)
Definition free_pointer (m : mem R) (p : option pointer) : option (mem R) := match p with Some p => free R m p | None => Some m end.
(** sp_deinitialize, main.c:449-455. The pointers keep their values *)
Definition deinitialize (g : library) (m : mem R) : option (library * mem R) :=
  let g := {| sine_table := sine_table g; sine_table_lfo := sine_table_lfo g; cpu_count := cpu_count g; rate := rate g; channel_count := channel_count g;
              random_state := random_state g; sine_lfo_factor := sine_lfo_factor g; threads := if (cpu_count g =? 0)%Z then threads g else false |} in
  m <- free_pointer m (sine_table g) ;;
  m <- free_pointer m (sine_table_lfo g) ;;
  Some (g, m).
(** sp_sine_period, main.c:191-195: the loop writes to memory. The quotient by zero for size 1 is not a number *)
Definition sine_period_to (size : nat) (p : option pointer) (m : mem R) : option (mem R) :=
  for_ 0 size (fun i m => _ <- need (negb (size / 2 =? 0)) ;; p <- p ;; store R m p i (sin (INR i * (PI / INR (size / 2))))%R) m.
(** sp_samples_new, arrays-template.c, that is sph_helper_calloc. [ok]: calloc succeeds *)
Definition samples_new (memory_id : Z) (ok : bool) (size : nat) (result : option pointer) (m : mem R) : status * option pointer * mem R :=
  let '(a, m1) := alloc R m (repeat 0%R size) in
  let '(st, p) := helper_alloc memory_id (if ok then Some (a, 0) else None) result in
  (st, p, if ok then m1 else m).
(** sp_initialize, main.c:439-447, after the variables are set *)
Definition set_tables (t l : option pointer) (g : library) : library :=
  {| sine_table := t; sine_table_lfo := l; cpu_count := cpu_count g; rate := rate g; channel_count := channel_count g; random_state := random_state g;
     sine_lfo_factor := sine_lfo_factor g; threads := threads g |}.
Definition create_tables (memory_id : Z) (ok ok_lfo : bool) (g : library) (m : mem R) : option (status * library * mem R) :=
  let lfo_size := Z.to_nat (u32 (rate g * sine_lfo_factor g)) in
  let '(st, table, m) := samples_new memory_id ok (Z.to_nat (rate g)) None m in
  if is_failure st then '(g, m) <- deinitialize (set_tables table None g) m ;; Some (st, g, m)
  else
    let '(st, lfo, m) := samples_new memory_id ok_lfo lfo_size None m in
    if is_failure st then '(g, m) <- deinitialize (set_tables table lfo g) m ;; Some (st, g, m)
    else
      m <- sine_period_to (Z.to_nat (rate g)) table m ;;
      m <- sine_period_to lfo_size lfo m ;;
      Some (st, set_tables table lfo g, m).
(** sp_initialize, main.c:424-448. sp_random_seed is 1557083953, sph-sp.h:29 *)
Definition initialize (memory_id future_result : Z) (ok ok_lfo : bool) (cpus channels r : Z) (g : library) (m : mem R) : option (status * library * mem R) :=
  if negb (cpus =? 0)%Z && negb (future_result =? 0)%Z then Some ({| s_id := future_result; s_group := group_undefined |}, g, m)
  else create_tables memory_id ok ok_lfo
    {| sine_table := None; sine_table_lfo := None; cpu_count := cpus; rate := r; channel_count := channels; random_state := sp_random_state_new 1557083953;
       sine_lfo_factor := 100; threads := if (cpus =? 0)%Z then threads g else true |} m.
(** sp_sine, main.c:211, and sp_sine_lfo, 215. The arrays of the caller are separate from the tables *)
Definition table_of (m : mem R) (p : option pointer) : option (list R) := p <- p ;; a <- cells R m (fst p) ;; Some (skipn (snd p) a).
Definition sine (g : library) (m : mem R) (size : nat) (amp : R) (amod : option (list R)) (frq : Z) (fmod : option (list Z)) (phs : option Z) (out : list R) : option (list R * option Z) :=
  table <- table_of m (sine_table g) ;; wave R Rplus Rmult size table (rate g) amp amod frq fmod phs out.
Definition sine_lfo (g : library) (m : mem R) (size : nat) (amp : R) (amod : option (list R)) (frq : Z) (fmod : option (list Z)) (phs : option Z) (out : list R) : option (list R * option Z) :=
  table <- table_of m (sine_table_lfo g) ;; wave R Rplus Rmult size table (u32 (rate g * sine_lfo_factor g)) amp amod frq fmod phs out.
