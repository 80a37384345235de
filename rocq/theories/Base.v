(** Common vocabulary of the model: the "undefined behaviour" monad, arrays, loops, machine words.
    Everything here is a modelling device for C constructs; no function of the library is defined here. *)
From Coq Require Export List Arith ZArith NArith Lia Bool Permutation.
From Coq Require Import ZifyBool ZifyNat ZifyN.
Export ListNotations.
Global Set Asymmetric Patterns.

(** ** Undefined behaviour monad: [None] is undefined behaviour (out of bounds access, division by zero, use of a dead object). *)
Definition bind {A B : Type} (m : option A) (f : A -> option B) : option B :=
  match m with Some a => f a | None => None end.
Declare Scope ub_scope.
Delimit Scope ub_scope with ub.
Notation "x <- m ;; k" := (bind m (fun x => k)) (at level 61, m at next level, right associativity) : ub_scope.
Notation "' p <- m ;; k" := (bind m (fun x => match x with p => k end))
  (at level 61, p pattern, m at next level, right associativity) : ub_scope.
Open Scope ub_scope.

(** a run-time requirement whose violation is undefined behaviour *)
Definition need (b : bool) : option unit := if b then Some tt else None.

(** ** Arrays *)
Definition aget {A : Type} (a : list A) (i : nat) : option A := nth_error a i.
Fixpoint aset {A : Type} (a : list A) (i : nat) (x : A) : option (list A) :=
  match a, i with
  | [], _ => None
  | _ :: t, O => Some (x :: t)
  | h :: t, S i' => match aset t i' x with Some t' => Some (h :: t') | None => None end
  end.
(** memcpy/memmove of [n] elements: reads [src[so..so+n)] and writes [dst[do..do+n)] *)
Definition slice {A : Type} (a : list A) (o n : nat) : option (list A) :=
  if o + n <=? length a then Some (firstn n (skipn o a)) else None.
Definition splice {A : Type} (a : list A) (o : nat) (xs : list A) : option (list A) :=
  if o + length xs <=? length a then Some (firstn o a ++ xs ++ skipn (o + length xs) a) else None.
Definition blit {A : Type} (src : list A) (so : nat) (dst : list A) (d n : nat) : option (list A) :=
  xs <- slice src so n ;; splice dst d xs.
(** memset of [n] elements to [v] *)
Definition fill {A : Type} (a : list A) (o n : nat) (v : A) : option (list A) := splice a o (repeat v n).

(** ** Loops: [for (i = lo; i < lo + n; i += 1) body] *)
Fixpoint for_from {S : Type} (lo n : nat) (body : nat -> S -> option S) (s : S) : option S :=
  match n with
  | O => Some s
  | S n' => bind (body lo s) (for_from (Datatypes.S lo) n' body)
  end.
(** [for (i = lo; i < hi; i += 1) body] *)
Definition for_ {S : Type} (lo hi : nat) (body : nat -> S -> option S) (s : S) : option S :=
  for_from lo (hi - lo) body s.

(** ** Machine words *)
Definition two32 : Z := 4294967296.
Definition two64 : Z := 18446744073709551616.
Definition u32 (x : Z) : Z := (x mod two32)%Z.
Definition u64 (x : Z) : Z := (x mod two64)%Z.

(** ** Lemmas *)
Lemma bind_some {A B} (m : option A) (f : A -> option B) b :
  bind m f = Some b -> exists a, m = Some a /\ f a = Some b.
Proof. destruct m as [a|]; simpl; intros H; [exists a; auto | discriminate]. Qed.

Lemma nth_error_ext {A} (a b : list A) : (forall i, nth_error a i = nth_error b i) -> a = b.
Proof.
  revert b; induction a as [|x a IH]; intros [|y b] H; auto.
  - specialize (H 0); discriminate.
  - specialize (H 0); discriminate.
  - f_equal.
    + specialize (H 0); simpl in H; congruence.
    + apply IH; intros i; exact (H (S i)).
Qed.

Lemma nth_error_length_eq {A} (a b : list A) :
  length a = length b -> (forall i, i < length a -> nth_error a i = nth_error b i) -> a = b.
Proof.
  intros HL H; apply nth_error_ext; intros i.
  destruct (Nat.lt_ge_cases i (length a)) as [Hi|Hi]; [auto|].
  rewrite (proj2 (nth_error_None a i)) by lia.
  rewrite (proj2 (nth_error_None b i)) by lia; reflexivity.
Qed.

Lemma nth_error_some {A} (a : list A) i : i < length a -> exists x, nth_error a i = Some x.
Proof.
  intros H; destruct (nth_error a i) as [x|] eqn:E; [eauto|].
  apply nth_error_None in E; lia.
Qed.

Lemma nth_error_lt {A} (a : list A) i x : nth_error a i = Some x -> i < length a.
Proof. intros H; apply nth_error_Some; congruence. Qed.

Lemma aset_some {A} (a : list A) i x : i < length a -> exists a', aset a i x = Some a'.
Proof.
  revert i; induction a as [|h t IH]; intros [|i] H; simpl in *; try lia; [eauto|].
  destruct (IH i) as [t' Ht]; [lia|]; rewrite Ht; eauto.
Qed.

Lemma aset_none {A} (a : list A) i x : length a <= i -> aset a i x = None.
Proof.
  revert i; induction a as [|h t IH]; intros [|i] H; simpl in *; auto; try lia.
  rewrite IH by lia; reflexivity.
Qed.

Lemma aset_lt {A} (a : list A) i x a' : aset a i x = Some a' -> i < length a.
Proof.
  intros H; destruct (Nat.lt_ge_cases i (length a)); auto.
  rewrite aset_none in H by lia; discriminate.
Qed.

Lemma aset_length {A} (a : list A) i x a' : aset a i x = Some a' -> length a' = length a.
Proof.
  revert i a'; induction a as [|h t IH]; intros [|i] a' H; simpl in *; try discriminate.
  - injection H as <-; reflexivity.
  - destruct (aset t i x) as [t'|] eqn:E; [|discriminate]; injection H as <-; simpl; f_equal; eauto.
Qed.

Lemma aset_get {A} (a : list A) i x a' j :
  aset a i x = Some a' -> nth_error a' j = if j =? i then Some x else nth_error a j.
Proof.
  revert i j a'; induction a as [|h t IH]; intros [|i] j a' H; simpl in *; try discriminate.
  - injection H as <-; destruct j; reflexivity.
  - destruct (aset t i x) as [t'|] eqn:E; [|discriminate]; injection H as <-.
    destruct j as [|j]; simpl; [reflexivity|]; eauto.
Qed.

Lemma slice_some {A} (a : list A) o n : o + n <= length a -> slice a o n = Some (firstn n (skipn o a)).
Proof. unfold slice; intros H; rewrite (proj2 (Nat.leb_le _ _)); auto. Qed.

Lemma slice_none {A} (a : list A) o n : length a < o + n -> slice a o n = None.
Proof. unfold slice; intros H; rewrite (proj2 (Nat.leb_gt _ _)); auto. Qed.

Lemma nth_error_firstn {A} (a : list A) n i : i < n -> nth_error (firstn n a) i = nth_error a i.
Proof.
  revert n i; induction a as [|h t IH]; intros [|n] [|i] H; simpl; auto; try lia.
  apply IH; lia.
Qed.

Lemma nth_error_firstn_ge {A} (a : list A) n i : n <= i -> nth_error (firstn n a) i = None.
Proof. intros H; apply nth_error_None; rewrite firstn_length; lia. Qed.

Lemma nth_error_skipn {A} (a : list A) n i : nth_error (skipn n a) i = nth_error a (n + i).
Proof. revert a; induction n as [|n IH]; intros [|h t]; simpl; auto; destruct i; auto. Qed.

Lemma slice_get {A} (a : list A) o n l i : slice a o n = Some l -> i < n -> nth_error l i = nth_error a (o + i).
Proof.
  unfold slice; destruct (o + n <=? length a); [|discriminate]; intros H Hi; injection H as <-.
  rewrite nth_error_firstn, nth_error_skipn; auto.
Qed.

Lemma slice_length {A} (a : list A) o n l : slice a o n = Some l -> length l = n.
Proof.
  unfold slice; destruct (Nat.leb_spec (o + n) (length a)); [|discriminate]; intros H'; injection H' as <-.
  rewrite firstn_length, skipn_length; lia.
Qed.

Lemma splice_some {A} (a : list A) o xs : o + length xs <= length a -> exists a', splice a o xs = Some a'.
Proof. unfold splice; intros H; rewrite (proj2 (Nat.leb_le _ _)); eauto. Qed.

Lemma splice_none {A} (a : list A) o xs : length a < o + length xs -> splice a o xs = None.
Proof. unfold splice; intros H; rewrite (proj2 (Nat.leb_gt _ _)); auto. Qed.

Lemma splice_length {A} (a : list A) o xs a' : splice a o xs = Some a' -> length a' = length a.
Proof.
  unfold splice; destruct (Nat.leb_spec (o + length xs) (length a)); [|discriminate]; intros H'; injection H' as <-.
  rewrite !app_length, firstn_length, skipn_length; lia.
Qed.

Lemma splice_get {A} (a : list A) o xs a' i :
  splice a o xs = Some a' ->
  nth_error a' i = if (o <=? i) && (i <? o + length xs) then nth_error xs (i - o) else nth_error a i.
Proof.
  unfold splice; destruct (Nat.leb_spec (o + length xs) (length a)) as [Hl|]; [|discriminate].
  intros H'; injection H' as <-.
  assert (Hf : length (firstn o a) = o) by (rewrite firstn_length; lia).
  destruct (Nat.leb_spec o i) as [Ho|Ho]; simpl.
  - rewrite nth_error_app2 by lia; rewrite Hf.
    destruct (Nat.ltb_spec i (o + length xs)) as [Hx|Hx].
    + rewrite nth_error_app1 by lia; reflexivity.
    + rewrite nth_error_app2 by lia; rewrite nth_error_skipn; f_equal; lia.
  - rewrite nth_error_app1 by lia; apply nth_error_firstn; lia.
Qed.

Lemma fill_some {A} (a : list A) o n v : o + n <= length a -> exists a', fill a o n v = Some a'.
Proof. intros H; apply splice_some; rewrite repeat_length; auto. Qed.

Lemma fill_length {A} (a : list A) o n v a' : fill a o n v = Some a' -> length a' = length a.
Proof. apply splice_length. Qed.

Lemma nth_error_repeat {A} (v : A) n i : i < n -> nth_error (repeat v n) i = Some v.
Proof. revert i; induction n as [|n IH]; intros [|i] H; simpl; auto; try lia; apply IH; lia. Qed.

Lemma fill_get {A} (a : list A) o n v a' i :
  fill a o n v = Some a' -> nth_error a' i = if (o <=? i) && (i <? o + n) then Some v else nth_error a i.
Proof.
  intros H; unfold fill in H; rewrite (splice_get _ _ _ _ _ H), repeat_length.
  destruct (Nat.leb_spec o i); simpl; auto.
  destruct (Nat.ltb_spec i (o + n)); auto.
  apply nth_error_repeat; lia.
Qed.

Lemma blit_some {A} (src : list A) so dst d n :
  so + n <= length src -> d + n <= length dst -> exists dst', blit src so dst d n = Some dst'.
Proof.
  intros Hs Hd; unfold blit.
  destruct (slice src so n) as [l|] eqn:E; [|rewrite slice_some in E by auto; discriminate].
  simpl; apply splice_some; rewrite (slice_length _ _ _ _ E); auto.
Qed.

Lemma blit_length {A} (src : list A) so dst d n dst' : blit src so dst d n = Some dst' -> length dst' = length dst.
Proof.
  unfold blit; destruct (slice src so n) eqn:E; simpl; [|discriminate]; apply splice_length.
Qed.

Lemma blit_get {A} (src : list A) so dst d n dst' i :
  blit src so dst d n = Some dst' ->
  nth_error dst' i = if (d <=? i) && (i <? d + n) then nth_error src (so + (i - d)) else nth_error dst i.
Proof.
  unfold blit; destruct (slice src so n) as [l|] eqn:E; simpl; [|discriminate]; intros H.
  rewrite (splice_get _ _ _ _ _ H), (slice_length _ _ _ _ E).
  destruct (Nat.leb_spec d i); simpl; auto.
  destruct (Nat.ltb_spec i (d + n)); auto.
  eapply slice_get; [exact E|lia].
Qed.

(** total-correctness rule for loops *)
Lemma for_from_inv {S} (P : nat -> S -> Prop) (body : nat -> S -> option S) n :
  forall lo s,
  P lo s ->
  (forall i s, lo <= i < lo + n -> P i s -> exists s', body i s = Some s' /\ P (Datatypes.S i) s') ->
  exists s', for_from lo n body s = Some s' /\ P (lo + n) s'.
Proof.
  induction n as [|n IH]; intros lo s H0 Hstep; simpl.
  - exists s; split; [reflexivity|]; replace (lo + 0) with lo by lia; exact H0.
  - destruct (Hstep lo s) as [s1 [E1 P1]]; [lia|exact H0|].
    rewrite E1; simpl.
    destruct (IH (Datatypes.S lo) s1 P1) as [s' [E' P']].
    + intros i s2 Hi; apply Hstep; lia.
    + exists s'; split; auto; replace (lo + Datatypes.S n) with (Datatypes.S lo + n) by lia; exact P'.
Qed.

Lemma for_inv {S} (P : nat -> S -> Prop) (body : nat -> S -> option S) lo hi s :
  lo <= hi ->
  P lo s ->
  (forall i s, lo <= i < hi -> P i s -> exists s', body i s = Some s' /\ P (Datatypes.S i) s') ->
  exists s', for_ lo hi body s = Some s' /\ P hi s'.
Proof.
  intros Hle H0 Hstep; unfold for_.
  destruct (for_from_inv P body (hi - lo) lo s H0) as [s' [E Hp]].
  - intros i s1 Hi; apply Hstep; lia.
  - exists s'; split; auto; replace hi with (lo + (hi - lo)) by lia; exact Hp.
Qed.

(** partial-correctness rule for loops *)
Lemma for_from_inv_partial {S} (P : nat -> S -> Prop) (body : nat -> S -> option S) n :
  forall lo s s',
  P lo s ->
  (forall i s s', lo <= i < lo + n -> P i s -> body i s = Some s' -> P (Datatypes.S i) s') ->
  for_from lo n body s = Some s' -> P (lo + n) s'.
Proof.
  induction n as [|n IH]; intros lo s s' H0 Hstep E; simpl in E.
  - injection E as <-; replace (lo + 0) with lo by lia; exact H0.
  - apply bind_some in E; destruct E as [s1 [E1 E2]].
    replace (lo + Datatypes.S n) with (Datatypes.S lo + n) by lia.
    apply (IH (Datatypes.S lo) s1 s'); auto.
    + apply (Hstep lo s s1); auto; lia.
    + intros i s2 s3 Hi; apply Hstep; lia.
Qed.

Lemma for_inv_partial {S} (P : nat -> S -> Prop) (body : nat -> S -> option S) lo hi s s' :
  lo <= hi -> P lo s ->
  (forall i s s', lo <= i < hi -> P i s -> body i s = Some s' -> P (Datatypes.S i) s') ->
  for_ lo hi body s = Some s' -> P hi s'.
Proof.
  intros Hle H0 Hstep E; unfold for_ in E.
  replace hi with (lo + (hi - lo)) by lia.
  eapply for_from_inv_partial; eauto; intros i s1 s2 Hi; apply Hstep; lia.
Qed.

Lemma for_from_app {S} (body : nat -> S -> option S) n m lo s :
  for_from lo (n + m) body s = bind (for_from lo n body s) (for_from (lo + n) m body).
Proof.
  revert lo s; induction n as [|n IH]; intros lo s; simpl.
  - f_equal; lia.
  - destruct (body lo s) as [s1|]; simpl; auto.
    rewrite IH; f_equal; f_equal; lia.
Qed.

Lemma for_split {S} (body : nat -> S -> option S) lo mid hi s :
  lo <= mid -> mid <= hi -> for_ lo hi body s = bind (for_ lo mid body s) (for_ mid hi body).
Proof.
  intros H1 H2; unfold for_; replace (hi - lo) with ((mid - lo) + (hi - mid)) by lia.
  rewrite for_from_app; replace (lo + (mid - lo)) with mid by lia; reflexivity.
Qed.

Lemma for_from_ext {S} (b1 b2 : nat -> S -> option S) n :
  forall lo s, (forall i s, lo <= i < lo + n -> b1 i s = b2 i s) -> for_from lo n b1 s = for_from lo n b2 s.
Proof.
  induction n as [|n IH]; intros lo s H; simpl; auto.
  rewrite H by lia; destruct (b2 lo s) as [s1|]; simpl; auto.
  apply IH; intros i s2 Hi; apply H; lia.
Qed.

Lemma for_empty {S} (body : nat -> S -> option S) lo hi s : hi <= lo -> for_ lo hi body s = Some s.
Proof. intros H; unfold for_; replace (hi - lo) with 0 by lia; reflexivity. Qed.

Lemma u32_range x : (0 <= u32 x < two32)%Z.
Proof. unfold u32, two32; apply Z.mod_pos_bound; lia. Qed.
Lemma u32_small x : (0 <= x < two32)%Z -> u32 x = x.
Proof. unfold u32, two32; intros; apply Z.mod_small; lia. Qed.
Lemma u64_range x : (0 <= u64 x < two64)%Z.
Proof. unfold u64, two64; apply Z.mod_pos_bound; lia. Qed.
Lemma u64_small x : (0 <= x < two64)%Z -> u64 x = x.
Proof. unfold u64, two64; intros; apply Z.mod_small; lia. Qed.

(** case analysis on every boolean comparison of naturals in the goal *)
Ltac bd := repeat match goal with
  | |- context [?a <? ?b] => destruct (Nat.ltb_spec a b)
  | |- context [?a <=? ?b] => destruct (Nat.leb_spec a b)
  | |- context [?a =? ?b] => destruct (Nat.eqb_spec a b)
  end; cbn [andb orb negb].

(** split conjunctions only *)
Ltac splits := repeat match goal with |- _ /\ _ => split end.

Lemma fold_left_ext_in {A B} (f g : A -> B -> A) l : forall acc,
  (forall acc i, In i l -> f acc i = g acc i) -> fold_left f l acc = fold_left g l acc.
Proof.
  induction l as [|x l IH]; intros acc H; simpl; auto.
  rewrite H by (left; auto); apply IH; intros; apply H; right; auto.
Qed.

Lemma fold_left_id_in {A B} (f : A -> B -> A) l : forall acc,
  (forall acc i, In i l -> f acc i = acc) -> fold_left f l acc = acc.
Proof.
  induction l as [|x l IH]; intros acc H; simpl; auto.
  rewrite H by (left; auto); apply IH; intros; apply H; right; auto.
Qed.

Lemma map_nth_error_seq {A} (f : nat -> A) from n i : i < n -> nth_error (map f (seq from n)) i = Some (f (from + i)).
Proof.
  intros H; apply map_nth_error.
  rewrite (nth_error_nth' (seq from n) 0) by (rewrite seq_length; auto).
  rewrite seq_nth; auto.
Qed.

Lemma list_eq_tab {A} (l : list A) f from n :
  length l = n -> (forall i, i < n -> nth_error l i = Some (f (from + i))) -> l = map f (seq from n).
Proof.
  intros HL HG; apply nth_error_length_eq.
  - rewrite map_length, seq_length; auto.
  - intros i Hi; rewrite HG by lia; symmetry; apply map_nth_error_seq; lia.
Qed.

Lemma length_pos {A} (l : list A) : l <> [] -> 0 < length l.
Proof. destruct l; simpl; [congruence|lia]. Qed.

