(** C99, C100: the memory of events. *)
From Verif Require Import Base ResModel ResSpec ResProofs.

(** ** C99 *)
(** Events made of plain events, groups and maps in any nesting, with prepare functions that succeed: after generating and freeing, exactly the memory of before is allocated, and freeing
    again changes nothing. Noise events are missing, see c99_noise_refuted *)
Theorem c99_released_partial : forall r d s, valid s -> regular r = true -> depth r <= d ->
  exists e s1 e2 s2 e3 s3, build r s = Some (e, s1) /\ play d e s1 = Some (true, e2, s2) /\ free_event e2 s2 = Some (e3, s3) /\
    (forall q, live s1 q = true <-> live s q = true \/ In q (owned e)) /\
    (forall q, live s2 q = true <-> live s q = true \/ In q (owned e2)) /\
    (forall q, live s3 q = live s q) /\ (forall s, free_event e3 s = Some (e3, s)).
Proof. exact released. Qed.
Print Assumptions c99_released_partial.

(** Every noise event keeps its buffers and filter states after it has been freed *)
Theorem c99_noise_refuted : forall n f d s, valid s -> 1 <= f ->
  exists e s1 h temps states s2 e3 s3, build (MakeNoise n f) s = Some (e, s1) /\ play d e s1 = Some (true, Noise h f temps states, s2) /\ free_event (Noise h f temps states) s2 = Some (e3, s3) /\
    length temps = (if f =? 1 then 2 else 3) /\ length states = f /\ NoDup (temps ++ states) /\
    (forall q, In q (temps ++ states) -> live s q = false) /\ (forall q, live s3 q = true <-> live s q = true \/ In q (temps ++ states)).
Proof. exact noise_leak. Qed.
Print Assumptions c99_noise_refuted.

(** Every group freed before it has been prepared keeps its list and all that belongs to the events in it *)
Theorem c99_unprepared_refuted : forall n rs s, valid s ->
  exists h es s1 e3 s3, build (MakeGroup n rs) s = Some (Group h es, s1) /\ length es = length rs /\ free_event (Group h es) s1 = Some (e3, s3) /\
    (forall q, live s3 q = true <-> live s q = true \/ In q (flat_map (fun x => fst x :: owned (snd x)) es)) /\
    (forall q, In q (flat_map (fun x => fst x :: owned (snd x)) es) -> live s q = false).
Proof. exact unprepared_leak. Qed.
Print Assumptions c99_unprepared_refuted.

(** Freeing a list with two copies of an event that has registered memory is undefined *)
Theorem c99_copies_refuted : forall n k b s e s1, valid s -> build (MakePlain (S n) k b) s = Some (e, s1) -> forall x y s2, list_free [(x, e); (y, e)] s2 = None.
Proof. exact copies_undefined. Qed.
Print Assumptions c99_copies_refuted.

Definition empty : store := mkstore (fun _ => false) 0.
Example c99_instance :
  let r := MakeGroup 2 [MakePlain 1 2 true; MakeMap 1 (MakePlain 5 0 true); MakeGroup 0 [MakePlain 9 1 true]] in
  valid empty /\ regular r = true /\ depth r = 2 /\
  match build r empty with
  | Some (e, s1) =>
    length (owned e) = 27 /\
    match play 2 e s1 with
    | Some (true, e2, s2) => length (owned e2) = 30 /\ match free_event e2 s2 with Some (_, s3) => filter (live s3) (seq 0 (next s3)) = [] /\ next s3 = 33 | None => False end
    | _ => False
    end
  | None => False
  end.
Proof. split; [intros q H; discriminate |]. vm_compute. repeat split. Qed.
Example c99_noise_instance :
  match build (MakeNoise 1 2) empty with
  | Some (e, s1) => match play 0 e s1 with Some (true, e2, s2) => match free_event e2 s2 with Some (_, s3) => filter (live s3) (seq 0 (next s3)) = [2; 3; 4; 5; 6] | None => False end | _ => False end
  | None => False
  end.
Proof. reflexivity. Qed.
Example c99_unprepared_instance :
  match build (MakeGroup 1 [MakePlain 1 0 true]) empty with
  | Some (e, s1) => match free_event e s1 with Some (_, s3) => filter (live s3) (seq 0 (next s3)) = [2; 3; 4] | None => False end
  | None => False
  end.
Proof. reflexivity. Qed.
Example c99_copies_instance :
  match build_list [MakePlain 1 0 true; MakePlain 1 0 true] empty with
  | Some ([(x, e); (y, e')], s1) => (exists s2, list_free [(x, e); (y, e')] s1 = Some s2) /\ list_free [(x, e); (y, e)] s1 = None
  | _ => False
  end.
Proof. cbn. split; [eexists; reflexivity | reflexivity]. Qed.

(** ** C100 *)
(** Lists of plain events whose prepare functions register nothing when they fail: a failing call frees all that the list had and leaves it empty; after a successful one freeing the list
    gives the memory of before. Prepare functions that register memory before they fail, and nested events, are missing *)
Theorem c100_failure_partial : forall rs d s, valid s -> forallb flat rs = true ->
  exists es s1 es2 s2 s3, build_list rs s = Some (es, s1) /\ play_list (play d) [] es s1 = Some (forallb succeeds rs, es2, s2) /\
    (forallb succeeds rs = false -> es2 = []) /\ list_free es2 s2 = Some s3 /\ (forall q, live s3 q = live s q).
Proof. exact failure_flat. Qed.
Print Assumptions c100_failure_partial.

(** An event with [n] registered regions whose prepare function registers [k] more and then fails: the call is undefined if the register had to grow for them (it uses the old array, which
    has been freed), otherwise the [k] regions, and the register if it was new, stay allocated and nothing refers to them *)
Theorem c100_failure_refuted : forall n k d s, valid s -> 1 <= k ->
  exists es s1, build_list [MakePlain n k false] s = Some (es, s1) /\
    ((exists j, 1 <= n <= 4 * 2 ^ j /\ 4 * 2 ^ j < n + k) -> play_list (play d) [] es s1 = None) /\
    (~ (exists j, 1 <= n <= 4 * 2 ^ j /\ 4 * 2 ^ j < n + k) ->
      exists s2, play_list (play d) [] es s1 = Some (false, [], s2) /\ left_behind s s2 (if n =? 0 then S k else k)).
Proof. exact failure_leak. Qed.
Print Assumptions c100_failure_refuted.

Definition live_after (rs : list recipe) : option (bool * nat * list nat) :=
  match build_list rs empty with
  | Some (es, s1) => match play_list (play 3) [] es s1 with Some (ok, es2, s2) => Some (ok, length es2, filter (live s2) (seq 0 (next s2))) | None => None end
  | None => None
  end.
Example c100_instance :
  forallb flat [MakePlain 3 2 true; MakePlain 5 0 false; MakePlain 1 7 true] = true /\
  live_after [MakePlain 3 2 true; MakePlain 5 0 false; MakePlain 1 7 true] = Some (false, 0, []) /\
  live_after [MakePlain 1 1 true; MakePlain 0 0 true] = Some (true, 2, [0; 1; 2; 3; 4]).
Proof. vm_compute. repeat split. Qed.
(** a new register; room in the register; the register grows *)
Example c100_failure_instance :
  live_after [MakePlain 0 1 false] = Some (false, 0, [1; 2]) /\ live_after [MakePlain 3 1 false] = Some (false, 0, [5]) /\ live_after [MakePlain 3 2 false] = None /\
  (exists j, 1 <= 3 <= 4 * 2 ^ j /\ 4 * 2 ^ j < 3 + 2).
Proof. split; [reflexivity |]. split; [reflexivity |]. split; [reflexivity |]. exists 0. cbn. lia. Qed.
