(** sp_seq_parallel: the calling thread and the worker threads as an interleaved machine.

    - A worker evaluates the callbacks of one event on its own output block. How it does so is an arbitrary deterministic
      machine [K] with arbitrarily small steps ([init], [step], [done], [result]); it can only touch its own event and its
      own block, which is what the code gives it. Global state used by callbacks (the noise events use the global random
      state) is not covered.
    - A schedule is an arbitrary sequence of steps of the caller and of the workers.
    - Allocation of the future array and of the blocks succeeds. *)
From Verif Require Import Base SeqModel SeqSpec.

Section Par.
Variables (F D K : Type).
Variables (zero : F) (add : F -> F -> F).
Notation event := (event D).
Variable init : nat -> nat -> list F -> event -> K.
Variable step : K -> K.
Variable done : K -> bool.
Variable result : K -> list F * event * bool.

(** sp_seq_future_t, /repo/source/c-precompiled/sph-sp/sequencer.c:277-285 *)
Record task := { tk_out_start : nat; tk_size : nat; tk_state : K }.

Inductive phase := Distributing | Merging | Finished | Failed.
(** [ps_list]: events not yet distributed; [ps_tasks]: futures in list order; [ps_merged]: number of merged futures *)
Record pstate := { ps_phase : phase; ps_list : list event; ps_tasks : list task; ps_merged : nat; ps_out : list F; ps_freed : list event }.

Definition par_init (out : list F) (l : list event) : pstate :=
  {| ps_phase := Distributing; ps_list := l; ps_tasks := []; ps_merged := 0; ps_out := out; ps_freed := [] |}.

(** out[o + i] += block[i], sequencer.c:359-363 *)
Fixpoint add_into (out block : list F) {struct block} : option (list F) :=
  match block, out with
  | [], _ => Some out
  | b :: block, x :: out => r <- add_into out block ;; Some (add x b :: r)
  | _ :: _, [] => None
  end.
Definition merge_at (out : list F) (o : nat) (block : list F) : option (list F) :=
  _ <- need (o <=? length out) ;; r <- add_into (skipn o out) block ;; Some (firstn o out ++ r).

(** the body of the distribute loop for an active event, sequencer.c:340-350 *)
Definition spawn (start end_ : nat) (e : event) : option task :=
  let e_start := if ev_start D e <? start then start - ev_start D e else 0 in
  _ <- need (ev_start D e <=? Nat.min end_ (ev_end D e)) ;;
  let e_end := Nat.min end_ (ev_end D e) - ev_start D e in
  _ <- need (e_start <=? e_end) ;;
  Some {| tk_out_start := if start <? ev_start D e then ev_start D e - start else 0; tk_size := e_end - e_start;
          tk_state := init e_start e_end (repeat zero (e_end - e_start)) e |}.

(** one step of the calling thread, sequencer.c:328-376. Waiting for a future that is not finished does nothing. *)
Definition main_step (start end_ : nat) (s : pstate) : option pstate :=
  match ps_phase s with
  | Distributing =>
    match ps_list s with
    | [] => Some {| ps_phase := Merging; ps_list := []; ps_tasks := ps_tasks s; ps_merged := 0; ps_out := ps_out s; ps_freed := ps_freed s |}
    | e :: rest =>
      if ev_end D e <=? start then
        Some {| ps_phase := Distributing; ps_list := rest; ps_tasks := ps_tasks s; ps_merged := 0; ps_out := ps_out s; ps_freed := ps_freed s ++ [e] |}
      else if end_ <=? ev_start D e then
        Some {| ps_phase := Merging; ps_list := e :: rest; ps_tasks := ps_tasks s; ps_merged := 0; ps_out := ps_out s; ps_freed := ps_freed s |}
      else
        t <- spawn start end_ e ;;
        Some {| ps_phase := Distributing; ps_list := rest; ps_tasks := ps_tasks s ++ [t]; ps_merged := 0; ps_out := ps_out s; ps_freed := ps_freed s |}
    end
  | Merging =>
    match nth_error (ps_tasks s) (ps_merged s) with
    | None => Some {| ps_phase := Finished; ps_list := ps_list s; ps_tasks := ps_tasks s; ps_merged := ps_merged s; ps_out := ps_out s; ps_freed := ps_freed s |}
    | Some t =>
      if done (tk_state t) then
        let '(block, _, ok) := result (tk_state t) in
        if (ok : bool) then
          out <- merge_at (ps_out s) (tk_out_start t) (firstn (tk_size t) block) ;;
          Some {| ps_phase := Merging; ps_list := ps_list s; ps_tasks := ps_tasks s; ps_merged := S (ps_merged s); ps_out := out; ps_freed := ps_freed s |}
        else Some {| ps_phase := Failed; ps_list := ps_list s; ps_tasks := ps_tasks s; ps_merged := ps_merged s; ps_out := ps_out s; ps_freed := ps_freed s |}
      else Some s
    end
  | Finished | Failed => Some s
  end.

(** one step of the worker that evaluates future [i], sp_seq_parallel_future_f, sequencer.c:286-297 *)
Definition worker_step (i : nat) (s : pstate) : option pstate :=
  match nth_error (ps_tasks s) i with
  | None => Some s
  | Some t =>
    if done (tk_state t) then Some s
    else
      ts <- aset (ps_tasks s) i {| tk_out_start := tk_out_start t; tk_size := tk_size t; tk_state := step (tk_state t) |} ;;
      Some {| ps_phase := ps_phase s; ps_list := ps_list s; ps_tasks := ts; ps_merged := ps_merged s; ps_out := ps_out s; ps_freed := ps_freed s |}
  end.

Inductive choice := Main | Worker (i : nat).
Fixpoint par_run (start end_ : nat) (schedule : list choice) (s : pstate) : option pstate :=
  match schedule with
  | [] => Some s
  | Main :: rest => s <- main_step start end_ s ;; par_run start end_ rest s
  | Worker i :: rest => s <- worker_step i s ;; par_run start end_ rest s
  end.

(** the events that stay in the list *)
Definition par_events (s : pstate) : list event := map (fun t => snd (fst (result (tk_state t)))) (ps_tasks s) ++ ps_list s.
End Par.
