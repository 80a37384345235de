(** What the theorems of ResProps.v say about memory. *)
From Verif Require Import Base ResModel.

(** regions that have not been allocated yet are not live *)
Definition valid (s : store) : Prop := forall q, live s q = true -> q < next s.
(** the regions that belong to an event: the array of its register and the registered addresses, and what is below it *)
Definition registered (h : header) : list nat := match array (memory_of h) with Some d => d :: entries (memory_of h) | None => [] end.
Fixpoint owned (e : event) : list nat :=
  match e with
  | Plain h _ _ => registered h
  | Group h l => registered h ++ flat_map (fun x => fst x :: owned (snd x)) l
  | MapOf h inner => registered h ++ owned inner
  | Noise h _ temps states => registered h ++ temps ++ states
  end.
(** programs without noise events and without failing prepare functions *)
Fixpoint regular (r : recipe) : bool :=
  match r with
  | MakePlain _ _ b => b
  | MakeGroup _ l => forallb regular l
  | MakeMap _ r => regular r
  | MakeNoise _ _ => false
  end.
Fixpoint depth (r : recipe) : nat :=
  match r with
  | MakeGroup _ l => S (fold_right (fun r d => Nat.max (depth r) d) 0 l)
  | MakeMap _ r => S (depth r)
  | _ => 0
  end.
(** a plain event that registers nothing in its prepare function if that fails *)
Definition flat (r : recipe) : bool := match r with MakePlain _ k b => b || (k =? 0) | _ => false end.
Definition succeeds (r : recipe) : bool := match r with MakePlain _ _ b => b | _ => true end.
(** after a call exactly [k] regions more than before are live *)
Definition left_behind (s s2 : store) (k : nat) : Prop := exists lost, length lost = k /\ NoDup lost /\ (forall q, In q lost -> live s q = false) /\ (forall q, live s2 q = true <-> live s q = true \/ In q lost).
