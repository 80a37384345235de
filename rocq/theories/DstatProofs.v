(** Proofs about statistics with doubles *)
From Coq Require Import ZArith Reals List Bool Lia Lra Psatz.
From Flocq Require Import Core BinarySingleNaN.
From Verif Require Import Base DblModel DblSpec DblProofs Dbl2Proofs ArrProofs DlineProofs DfftModel DfftProofs DkerProofs Dker2Proofs DconvProofs SortModel DstatModel DstatSpec.
Import ListNotations.
Open Scope R_scope.

(** ** loops *)
Lemma firstn_next {A} (l : list A) k x : nth_error l k = Some x -> firstn (S k) l = firstn k l ++ [x].
Proof. revert l. induction k as [|k IH]; intros [|y l] h; cbn in h; try discriminate; [injection h as ->; reflexivity|]. cbn [firstn app]. f_equal. apply IH. exact h. Qed.
Lemma loop_fold {S} (F : f64 -> S -> S) (a : list f64) n s : (n <= length a)%nat -> for_ 0 n (fun i s => x <- aget a i ;; Some (F x s)) s = Some (fold_left (fun s x => F x s) (firstn n a) s).
Proof.
  intros hn. destruct (for_inv (fun k t => t = fold_left (fun s x => F x s) (firstn k a) s) (fun i s => x <- aget a i ;; Some (F x s)) 0 n s) as [t [e h]]; [lia|reflexivity| |rewrite e, h; reflexivity].
  intros i t hi ht. unfold aget. destruct (nth_error a i) as [x|] eqn:ex; [|apply nth_error_None in ex; lia]. cbn [bind]. eexists. split; [reflexivity|].
  rewrite (firstn_next a i x ex), fold_left_app, <- ht. reflexivity.
Qed.
Lemma flt_ok a b : finite a -> finite b -> flt a b = Rlt_bool (real a) (real b).
Proof. intros. now apply Bltb_correct. Qed.

(** ** range *)
Lemma range_fold l : forall lo hi, Forall finite l -> finite lo -> finite hi -> real lo <= real hi ->
  let '(mn, mx) := fold_left (fun (s : f64 * f64) (b : f64) => let '(mn, mx) := s in if flt mx b then (mn, b) else if flt b mn then (b, mx) else (mn, mx)) l (lo, hi) in
  finite mn /\ finite mx /\ (In mn l \/ mn = lo) /\ (In mx l \/ mx = hi) /\ real mn <= real lo /\ real hi <= real mx /\ Forall (fun x => real mn <= real x <= real mx) l.
Proof.
  induction l as [|x l IH]; intros lo hi fl f1 f2 hle; cbn [fold_left].
  - splits; auto; lra.
  - apply Forall_cons_iff in fl as [fx fl]. rewrite (flt_ok hi x f2 fx), (flt_ok x lo fx f1).
    destruct (Rlt_bool_spec (real hi) (real x)) as [h|h]; [|destruct (Rlt_bool_spec (real x) (real lo)) as [h'|h']].
    + specialize (IH lo x fl f1 fx ltac:(lra)). destruct (fold_left _ l (lo, x)) as [mn mx]. destruct IH as (a & b & c & d & e & f & g). splits; auto; try lra.
      * destruct c; [left; right; assumption|right; assumption].
      * left. destruct d as [d| ->]; [right; exact d|left; reflexivity].
      * constructor; [lra|exact g].
    + specialize (IH x hi fl fx f2 ltac:(lra)). destruct (fold_left _ l (x, hi)) as [mn mx]. destruct IH as (a & b & c & d & e & f & g). splits; auto; try lra.
      * left. destruct c as [c| ->]; [right; exact c|left; reflexivity].
      * destruct d; [left; right; assumption|right; assumption].
      * constructor; [lra|exact g].
    + specialize (IH lo hi fl f1 f2 hle). destruct (fold_left _ l (lo, hi)) as [mn mx]. destruct IH as (a & b & c & d & e & f & g). splits; auto; try lra.
      * destruct c; [left; right; assumption|right; assumption].
      * destruct d; [left; right; assumption|right; assumption].
      * constructor; [lra|exact g].
Qed.
Lemma range_ok a n : (1 <= n <= length a)%nat -> Forall finite (firstn n a) ->
  exists mn mx, samples_range64 a n = Some (mn, mx, fsub mx mn) /\ finite mn /\ finite mx /\ smallest (firstn n a) mn /\ greatest (firstn n a) mx.
Proof.
  intros hn hf. unfold samples_range64, stat_range. destruct a as [|x a]; [cbn in hn; lia|]. cbn [aget nth_error bind].
  assert (fx : finite x) by (destruct n; [lia|]; cbn [firstn] in hf; apply Forall_cons_iff in hf; apply hf).
  set (F := fun (b : f64) (s : f64 * f64) => let '(mn, mx) := s in if flt mx b then (mn, b) else if flt b mn then (b, mx) else (mn, mx)).
  assert (e : for_ 0 n (fun i '(mn, mx) => b <- aget (x :: a) i ;; Some (if flt mx b then (mn, b) else if flt b mn then (b, mx) else (mn, mx))) (x, x) = Some (fold_left (fun s b => F b s) (firstn n (x :: a)) (x, x))).
  { rewrite <- (loop_fold F (x :: a) n (x, x)) by lia. apply for_ext. intros i [mn mx]. reflexivity. }
  rewrite e. pose proof (range_fold (firstn n (x :: a)) x x hf fx fx (Rle_refl _)) as h.
  unfold F.
  destruct (fold_left _ _ (x, x)) as [mn mx]. cbn [bind]. destruct h as (h1 & h2 & h3 & h4 & h5 & h6 & h7). exists mn, mx.
  assert (ix : In x (firstn n (x :: a))) by (destruct n; [lia|left; reflexivity]). splits; auto.
  - split; [destruct h3 as [h3| ->]; assumption|]. eapply Forall_impl; [|exact h7]. intros y hy. apply hy.
  - split; [destruct h4 as [h4| ->]; assumption|]. eapply Forall_impl; [|exact h7]. intros y hy. apply hy.
Qed.
