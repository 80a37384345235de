(** Specification of discrete linear convolution, independent of the program. *)
From Verif Require Import Base.

Section Spec.
Variable V : Type.
Variables (zero : V) (add mul : V -> V -> V).

(** the term a[i] * b[k - i], if both indices exist *)
Definition conv_term (a b : list V) (k i : nat) : list V :=
  match nth_error a i, nth_error b (k - i) with
  | Some x, Some y => [mul x y]
  | _, _ => []
  end.

(** [conv_sample acc a b k] = acc + sum over i = 0..k, ascending, of a[i] * b[k - i] *)
Definition conv_sample (acc : V) (a b : list V) (k : nat) : V :=
  fold_left add (flat_map (conv_term a b k) (seq 0 (S k))) acc.

(** the first [n] samples of the convolution from index [from] *)
Definition conv_samples (a b : list V) (from n : nat) : list V :=
  map (conv_sample zero a b) (seq from n).

(** Overlap-add: the response to a signal that arrives in segments, each processed with its own impulse response.
    Sample [t] collects, segment by segment in order of arrival, the convolution of every segment that started at or
    before [t]. *)
Fixpoint overlap_add (acc : V) (segments : list (list V * list V)) (t : nat) : V :=
  match segments with
  | [] => acc
  | (a, b) :: rest =>
    if t <? length a then conv_sample acc a b t else overlap_add (conv_sample acc a b t) rest (t - length a)
  end.
End Spec.
