(** What plots show. *)
From Verif Require Import Base FftModel FftSpec PlotModel.
From Coq Require Import Reals.
Open Scope nat_scope.

(** one line for each element *)
Definition lines {V : Type} (format : V -> list Z) (a : list V) : list Z := concat (map (fun x => format x ++ [10]%Z) a).
(** the number that decimal digits denote *)
Definition number (l : list Z) : Z := fold_left (fun n d => 10 * n + (d - 48))%Z l 0%Z.
(** twice the magnitude of a frequency divided by the number of samples *)
Definition magnitude (n : nat) (a : list R) (k : nat) : R :=
  (2 * (sqrt (dft_re n a (repeat 0 n) k * dft_re n a (repeat 0 n) k + dft_im n a (repeat 0 n) k * dft_im n a (repeat 0 n) k) / INR n))%R.

(** the three kinds of plots *)
Inductive graph := GSamples (a : list R) | GTimes (a : list Z) | GSpectrum (a : list R).
(** what is in the file of a plot *)
Definition content (format : R -> list Z) (g : graph) : list Z :=
  match g with GSamples a => lines format a | GTimes a => lines decimal a | GSpectrum a => lines format (map (magnitude (length a) a) (seq 0 (length a))) end.
(** samples are shown with lines, other data with steps *)
Definition style (g : graph) : list Z * list Z := match g with GSamples _ => pattern_lines | _ => pattern_steps end.
(** the calls; all allocations succeed *)
Definition draw (format : R -> list Z) can_open junk (g : graph) (w : desk) : option desk :=
  match g with
  | GSamples a => plot_samples format can_open a (length a) w
  | GTimes a => plot_times can_open a (length a) w
  | GSpectrum a => plot_spectrum format can_open junk true true (fun _ => true) a (length a) w
  end.
(** plots one after the other *)
Fixpoint plots (format : R -> list Z) can_open junk (l : list graph) (w : desk) : option desk :=
  match l with [] => Some w | g :: l => w <- draw format can_open junk g w ;; plots format can_open junk l w end.
