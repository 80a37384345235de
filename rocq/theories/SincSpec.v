(** What a request to a windowed sinc filter asks for. *)
From Coq Require Import Reals.
From Verif Require Import Base KerModel SincModel.

Section Spec.
Variable D : Type.
Variable val : D -> R.
Variable junk : nat -> list R.
(** the input and the kernel for the settings of the request *)
Definition asks (q : request D) (s : list R * list R) : Prop :=
  match q with
  | LpHp input c t b => fst s = input /\ lp_hp_ir junk (val c) (val t) (negb (b =? 0)%Z) = Some (snd s)
  | BpBr input cl ch tl th b => fst s = input /\ bp_br_ir junk (val cl) (val ch) (val tl) (val th) (negb (b =? 0)%Z) = Some (snd s)
  end.
Definition is_lp_hp (q : request D) : Prop := match q with LpHp _ _ _ _ => True | _ => False end.
Definition is_bp_br (q : request D) : Prop := match q with BpBr _ _ _ _ _ _ => True | _ => False end.
(** reading gives back what was written *)
Definition encoding (enc : D -> list Z) (dec : list Z -> D) : Prop := forall x, length (enc x) = 8 /\ dec (enc x) = x.
End Spec.
