(** Properties of futures. *)
From Verif Require Import Base QueueModel PoolModel PoolSpec FutModel FutSpec FutProofs.

(** C55: once finished is seen for a future, then and at any later time until the future is used again, the data is the given function applied to the given data.
    For any number of threads, futures, and any schedule in which futures are used again only after they have been finished. *)
Theorem c55_touch : forall D n h f m es1 es2 es3 t g x s2 s3, (Z.of_nat n < two32)%Z ->
  proper D (es1 ++ Enqueue _ t (g, x) :: es2 ++ es3) [] (init _ n h f m) -> no_new D t es2 -> no_new D t es3 ->
  fexec D (es1 ++ Enqueue _ t (g, x) :: es2) (init _ n h f m) = Next _ s2 -> is_finished D s2 t = true -> fexec D es3 s2 = Next _ s3 ->
  is_finished D s3 t = true /\ result D s3 t = g x.
Proof. exact future_result. Qed.
Print Assumptions c55_touch.
(** C55: touch ends: if no thread of the pool can make a step, which by c54_terminates is reached after a bounded number of steps, then all futures are finished. *)
Theorem c55_all_finished : forall D n h f m es s t, (Z.of_nat n < two32)%Z -> fexec D es (init _ n h f m) = Next _ s -> proper D es [] (init _ n h f m) ->
  (forall e, outside e = false -> fstep D e s = Blocked _) -> 0 < n -> fin _ s = FIdle -> ~ In ODiscarded (trace _ s) -> given D t es None <> None -> is_finished D s t = true.
Proof. exact future_done. Qed.
Print Assumptions c55_all_finished.
(** C55: calling init when the pool exists changes nothing. *)
Theorem c55_init_twice : forall n k a, initialized a = true -> future_init n (future_init k a) = a.
Proof. intros n k a h. unfold future_init. rewrite h. rewrite h. reflexivity. Qed.
Print Assumptions c55_init_twice.

Lemma join_all i v : forall k z, k <= z -> 0 < k -> v = true -> join_threads k (mklife i z z v) = Some (mklife i (z - k) (z - k) (negb (z - k =? 0))).
Proof.
  induction k as [|k IH]; intros z hz hk ->; [lia|]. cbn [join_threads initialized threads psize valid]. destruct (Nat.eqb_spec (z - 1) 0) as [e|e].
  - assert (k = 0) as -> by lia. assert (z = 1) as -> by lia. reflexivity.
  - cbn [bind]. destruct k as [|k]; [cbn [join_threads]; rewrite (proj2 (Nat.eqb_neq (z - 1) 0) e); reflexivity|]. rewrite IH by (auto; lia). replace (z - S (S k)) with (z - 1 - S k) by lia. reflexivity.
Qed.
(** C55 does not hold for deinit: for any number of threads but zero the mutex and the condition variable are destroyed by finish and then again by deinit. *)
Theorem c55_deinit_refuted : forall n, 0 < n -> future_deinit (future_init n life_start) = None.
Proof.
  intros n hn. unfold future_deinit, future_init, pool_finish_wait. cbn [initialized life_start psize valid]. rewrite Bool.orb_true_r. cbn [need bind]. rewrite (join_all true true n n) by (auto; lia). rewrite Nat.sub_diag. reflexivity.
Qed.
Print Assumptions c55_deinit_refuted.
(** C55 does not hold for a second init: even if destroying twice does nothing, init after deinit returns without creating threads, there is then no thread to evaluate futures
    and the mutex is not initialised. *)
Theorem c55_reinit_refuted : forall n k, 0 < n -> exists a, future_deinit_lenient (future_init n life_start) = Some a /\ threads (future_init k a) = 0 /\ valid (future_init k a) = false.
Proof.
  intros n k hn. exists (mklife true 0 0 false). split; [|split; reflexivity]. unfold future_deinit_lenient, future_init, pool_finish_wait. cbn [initialized life_start psize valid]. rewrite Bool.orb_true_r. cbn [need bind]. rewrite (join_all true true n n) by (auto; lia). rewrite Nat.sub_diag. reflexivity.
Qed.
Print Assumptions c55_reinit_refuted.

(** one thread, future 5 is evaluated and then used again with another function *)
Notation ev := (event ((nat -> nat) * nat)).
Definition fx_call (t : nat) : list ev := [Call _ t None; Call _ t None; Call _ t None; Call _ t None].
Definition fx_eval : list ev := [Work _ 0; Work _ 0; Work _ 0; Work _ 0; Work _ 0; Work _ 0; Work _ 0].
Definition fx : list ev := Enqueue _ 5 (fun x => x * x, 4) :: fx_call 5 ++ fx_eval ++ Enqueue _ 5 (fun x => x + 1, 6) :: fx_call 5 ++ [Work _ 0; Work _ 0; Work _ 0; Work _ 0; Work _ 0].
Notation fx_init := (init _ 1 (fun _ => 77) (fun _ => true) (fun _ => mkfuture nat (fun x => x) 0 true)).
Example c55_instance :
  proper nat fx [] fx_init /\
  (exists s, fexec nat (Enqueue _ 5 (fun x => x * x, 4) :: fx_call 5 ++ fx_eval) fx_init = Next _ s /\ is_finished nat s 5 = true /\ result nat s 5 = 16) /\
  (exists s, fexec nat fx fx_init = Next _ s /\ is_finished nat s 5 = false) /\
  (exists s, fexec nat (fx ++ [Work _ 0]) fx_init = Next _ s /\ is_finished nat s 5 = true /\ result nat s 5 = 7) /\
  (exists s, fexec nat (fx ++ [Work _ 0; Work _ 0; Work _ 0; Work _ 0]) fx_init = Next _ s /\ (forall e, outside e = false -> fstep nat e s = Blocked _) /\ fin _ s = FIdle).
Proof.
  split; [vm_compute; tauto|]. repeat split; eexists; (split; [vm_compute; reflexivity|]); repeat split; try reflexivity.
  intros [| | |t w|[|[|i]]|v] h; try discriminate; reflexivity.
Qed.
