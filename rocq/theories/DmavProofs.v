(** Proofs about the moving average with doubles *)
From Coq Require Import ZArith Reals List Bool Lia Lra.
From Flocq Require Import Core BinarySingleNaN Relative.
From Verif Require Import Base DblModel DblSpec DblProofs Dbl2Proofs DlineProofs MavModel DmavModel DmavSpec.
Import ListNotations.
Open Scope nat_scope.

(** ** The order of operations, for any type of samples *)
Section Running.
Variable D : Type.
Variable d : D.
Variable add sub : D -> D -> D.
Variable neg : D -> D.
Variable over : D -> Z -> D.
Definition get (l : list D) (i : Z) : D := if (i <? 0)%Z then d else nth (Z.to_nat i) l d.
Definition signal (input : list D) (prev next : option (list D)) (i : Z) : D :=
  let n := Z.of_nat (length input) in
  if (i <? 0)%Z then match prev with Some p => get p (n + i) | None => neg (get input (- i)) end
  else if (i <? n)%Z then get input i
  else match next with Some p => get p (i - n) | None => neg (get input (i + 1 - n)) end.
Fixpoint first_sum (f : Z -> D) (k : nat) : D := match k with O => f 0%Z | S k => add (first_sum f k) (add (f (- Z.of_nat k - 1)%Z) (f (Z.of_nat k + 1)%Z)) end.
Fixpoint running (f : Z -> D) (radius : nat) (start : D) (i : nat) : D :=
  match i with O => start | S j => sub (add (running f radius start j) (f (Z.of_nat i + Z.of_nat radius)%Z)) (f (Z.of_nat i - Z.of_nat radius - 1)%Z) end.
Lemma get_some l i : i < length l -> nth_error l i = Some (get l (Z.of_nat i)).
Proof. intros h. unfold get. destruct (Z.ltb_spec (Z.of_nat i) 0); [lia|]. rewrite Nat2Z.id. apply nth_error_nth'. exact h. Qed.
Definition filled (w : Z) (s : nat -> D) (out0 out : list D) (k : nat) : Prop :=
  length out = length out0 /\ forall i, i < k -> nth_error out i = Some (over (s i) w).
Lemma filled_set w s out0 out k : filled w s out0 out k -> k < length out0 -> exists out', aset out k (over (s k) w) = Some out' /\ filled w s out0 out' (S k).
Proof.
  intros (h1 & h2) hk. destruct (aset_some out k (over (s k) w)) as [o e]; [lia|]. exists o. split; [exact e|]. split; [rewrite (aset_length _ _ _ _ e); exact h1|].
  intros i hi. rewrite (aset_get _ _ _ _ i e). destruct (Nat.eqb_spec i k) as [->|ne]; [reflexivity|]. apply h2. lia.
Qed.
Lemma part w f radius start out0 lo hi (fx fy : nat -> option D) out :
  let s := running f radius start in
  1 <= lo <= hi -> hi <= length out0 ->
  (forall i, lo <= i < hi -> fx i = Some (f (Z.of_nat i + Z.of_nat radius)%Z)) -> (forall i, lo <= i < hi -> fy i = Some (f (Z.of_nat i - Z.of_nat radius - 1)%Z)) ->
  filled w s out0 out lo ->
  exists out', for_ lo hi (fun i '(out, sum) => x <- fx i ;; y <- fy i ;; out <- aset out i (over (sub (add sum x) y) w) ;; Some (out, sub (add sum x) y)) (out, s (lo - 1)) = Some (out', s (hi - 1)) /\
    filled w s out0 out' hi.
Proof.
  intros s hl hh hx hy hm.
  match goal with |- context [for_ lo hi ?body _] => destruct (for_inv (fun k '(o, x) => filled w s out0 o k /\ x = s (k - 1)) body lo hi (out, s (lo - 1))) as [[o x] [e [h1 h2]]] end.
  - lia.
  - auto.
  - intros i [o x] hi' [h1 ->]. rewrite (hx i hi'), (hy i hi'). cbn [bind].
    assert (es : sub (add (s (i - 1)) (f (Z.of_nat i + Z.of_nat radius)%Z)) (f (Z.of_nat i - Z.of_nat radius - 1)%Z) = s i). { destruct i as [|j]; [lia|]. replace (S j - 1) with j by lia. reflexivity. }
    rewrite es. destruct (filled_set w s out0 o i h1 ltac:(lia)) as (o' & e & h1'). rewrite e. cbn [bind]. eexists (_, _). split; [reflexivity|]. split; [exact h1'|]. f_equal. lia.
  - subst x. exists o. auto.
Qed.
Lemma running_sums input prev next radius out :
  2 * radius + 1 <= length input -> (Z.of_nat (length input) < Base.two32)%Z -> length input <= length out ->
  (forall p, prev = Some p -> length p = length input) -> (forall p, next = Some p -> radius <= length p) ->
  let f := signal input prev next in let start := match prev with Some _ => first_sum f radius | None => f 0%Z end in
  exists out', moving_average_of D add sub neg over input prev next radius out = Some out' /\ length out' = length out /\
    forall i, i < length input -> nth_error out' i = Some (over (running f radius start i) (2 * Z.of_nat radius + 1)).
Proof.
  intros hw hn ho hp hx f start. set (n := length input) in *. unfold moving_average_of. fold n. cbv zeta.
  assert (hwid : u32 (u32 (Z.of_nat radius * 2) + 1) = (2 * Z.of_nat radius + 1)%Z).
  { rewrite (u32_small (Z.of_nat radius * 2)) by (unfold Base.two32 in *; lia). rewrite u32_small by (unfold Base.two32 in *; lia). lia. }
  rewrite hwid. set (w := (2 * Z.of_nat radius + 1)%Z). set (s := running f radius start).
  assert (hin : forall i, i < n -> nth_error input i = Some (f (Z.of_nat i))).
  { intros i hi. rewrite (get_some input i hi). f_equal. unfold f, signal. fold n. destruct (Z.ltb_spec (Z.of_nat i) 0); [lia|]. destruct (Z.ltb_spec (Z.of_nat i) (Z.of_nat n)); [reflexivity|lia]. }
  assert (hget : forall i, i < n -> get input (Z.of_nat i) = f (Z.of_nat i)).
  { intros i hi. pose proof (hin i hi) as e. rewrite (get_some input i hi) in e. congruence. }
  assert (hneg : forall i, (i < 0)%Z -> f i = match prev with Some p => get p (Z.of_nat n + i) | None => neg (get input (- i)) end).
  { intros i hi. unfold f, signal. fold n. destruct (Z.ltb_spec i 0); [reflexivity|lia]. }
  assert (hbig : forall i, (Z.of_nat n <= i)%Z -> f i = match next with Some p => get p (i - Z.of_nat n) | None => neg (get input (i + 1 - Z.of_nat n)) end).
  { intros i hi. unfold f, signal. fold n. destruct (Z.ltb_spec i 0); [lia|]. destruct (Z.ltb_spec i (Z.of_nat n)); [lia|reflexivity]. }
  unfold aget at 1. rewrite hin by lia. cbn [bind]. change (Z.of_nat 0) with 0%Z in *.
  assert (h0 : match prev with
    | Some prev => for_ 0 radius (fun i sum => x <- aget prev (n - i - 1) ;; y <- aget input (i + 1) ;; Some (add sum (add x y))) (f 0%Z)
    | None => aget input 0 end = Some (s 0)).
  { unfold s. cbn [running]. unfold start. destruct prev as [p|].
    - specialize (hp p eq_refl). destruct (for_inv (fun k x => x = first_sum f k) (fun i sum => x <- aget p (n - i - 1) ;; y <- aget input (i + 1) ;; Some (add sum (add x y))) 0 radius (f 0%Z)) as (x & e & ex).
      + lia.
      + reflexivity.
      + intros i x hi ->. unfold aget. rewrite (get_some p) by lia. cbn [bind]. rewrite hin by lia. cbn [bind]. eexists. split; [reflexivity|]. cbn [first_sum].
        rewrite (hneg (- Z.of_nat i - 1)%Z) by lia. replace (Z.of_nat n + (- Z.of_nat i - 1))%Z with (Z.of_nat (n - i - 1)) by lia. replace (Z.of_nat (i + 1)) with (Z.of_nat i + 1)%Z by lia. reflexivity.
      + rewrite e, ex. reflexivity.
    - unfold aget. rewrite hin by lia. reflexivity. }
  rewrite h0. cbn [bind].
  destruct (filled_set w s out out 0) as (o1 & e1 & m1); [split; [reflexivity|intros; lia]|lia|]. rewrite e1. cbn [bind].
  destruct (part w f radius start out 1 (radius + 1) (fun i => aget input (i + radius))
    (fun i => match prev with Some prev => aget prev (n - radius - 1 + i) | None => y <- aget input (radius - i + 1) ;; Some (neg y) end) o1) as (o2 & e2 & m2); [lia|lia| | |exact m1|].
  { intros i hi. unfold aget. rewrite hin by lia. f_equal. f_equal. lia. }
  { intros i hi. rewrite hneg by lia. destruct prev as [p|].
    - specialize (hp p eq_refl). unfold aget. rewrite (get_some p) by lia. do 2 f_equal. lia.
    - unfold aget. rewrite (get_some input) by lia. cbn [bind]. do 3 f_equal. lia. }
  change (1 - 1) with 0 in e2. fold s in e2. rewrite e2. cbn [bind].
  destruct (part w f radius start out (radius + 1) (n - radius) (fun i => aget input (i + radius)) (fun i => aget input (i - radius - 1)) o2) as (o3 & e3 & m3); [lia|lia| | |exact m2|].
  { intros i hi. unfold aget. rewrite hin by lia. f_equal. f_equal. lia. }
  { intros i hi. unfold aget. rewrite hin by lia. f_equal. f_equal. lia. }
  fold s in e3. rewrite e3. cbn [bind].
  destruct (part w f radius start out (n - radius) n
    (fun i => match next with Some next => aget next (i - (n - radius)) | None => x <- aget input (i + radius + 1 - n) ;; Some (neg x) end) (fun i => aget input (i - radius - 1)) o3) as (o4 & e4 & m4); [lia|lia| | |exact m3|].
  { intros i hi. rewrite hbig by lia. destruct next as [p|].
    - specialize (hx p eq_refl). unfold aget. rewrite (get_some p) by lia. do 2 f_equal. lia.
    - unfold aget. rewrite (get_some input) by lia. cbn [bind]. do 3 f_equal. lia. }
  { intros i hi. unfold aget. rewrite hin by lia. f_equal. f_equal. lia. }
  fold s in e4. rewrite e4. cbn [bind]. exists o4. destruct m4 as [g1 g2]. split; [reflexivity|]. split; [exact g1|exact g2].
Qed.
End Running.

(** ** Rounding *)
Open Scope R_scope.
Notation neg64 := (fun x => fmul x (f_of_Z (-1))).
Notation sig64 := (signal f64 fzero (fun x => fmul x (f_of_Z (-1)))).
Lemma neg_ok x : finite x -> finite (neg64 x) /\ real (neg64 x) = - real x.
Proof.
  intros f. destruct (f_of_Z_exact (-1) ltac:(lia)) as [f1 e1]. pose proof (Bmult_correct 53 1024 _ _ mode_NE x (f_of_Z (-1))) as p. change (round_mode mode_NE) with ZnearestE in p. rewrite fexp64_eq in p.
  fold (real x) (real (f_of_Z (-1))) in p. rewrite e1 in p. replace (real x * -1) with (- real x) in p by ring. rewrite (round_generic _ _ _ (- real x)) in p by (apply generic_format_opp, format_real).
  rewrite Rlt_bool_true in p; [destruct p as (p1 & p2 & _); split; [unfold finite in *; unfold fmul; rewrite p2, f, f1; reflexivity|exact p1]|].
  rewrite Rabs_Ropp. apply abs_B2R_lt_emax.
Qed.
Lemma within_get A l i : 0 <= A -> within A l -> finite (get f64 fzero l i) /\ Rabs (real (get f64 fzero l i)) <= A.
Proof.
  intros ha h. assert (z : finite fzero /\ Rabs (real fzero) <= A). { split; [reflexivity|]. change (real fzero) with 0. rewrite Rabs_R0. exact ha. }
  unfold get. destruct (i <? 0)%Z; [exact z|]. destruct (Nat.lt_ge_cases (Z.to_nat i) (length l)) as [c|c].
  - apply (proj1 (Forall_forall _ _) h). apply nth_In. exact c.
  - rewrite nth_overflow by exact c. exact z.
Qed.
Lemma get_real l i : real (get f64 fzero l i) = rsample l i.
Proof. unfold get, rsample. destruct (i <? 0)%Z; reflexivity. Qed.
Lemma signal_ok A input prev next i : 0 <= A -> within A input -> (forall p, prev = Some p -> within A p) -> (forall p, next = Some p -> within A p) ->
  finite (sig64 input prev next i) /\ real (sig64 input prev next i) = continued input prev next i /\ Rabs (continued input prev next i) <= A.
Proof.
  intros ha h1 h2 h3. pose proof (within_get A) as g.
  assert (n1 : forall j, finite (neg64 (get f64 fzero input j)) /\ real (neg64 (get f64 fzero input j)) = - rsample input j /\ Rabs (- rsample input j) <= A).
  { intros j. destruct (g input j ha h1) as [a b]. destruct (neg_ok _ a) as [c e]. rewrite get_real in *. rewrite Rabs_Ropp. auto. }
  assert (n2 : forall l j, within A l -> finite (get f64 fzero l j) /\ real (get f64 fzero l j) = rsample l j /\ Rabs (rsample l j) <= A).
  { intros l j hl. destruct (g l j ha hl) as [a b]. rewrite get_real in *. auto. }
  unfold signal, continued. cbv zeta. destruct (i <? 0)%Z; [destruct prev as [p|]; [apply n2, h2; reflexivity|apply n1]|].
  destruct (i <? Z.of_nat (length input))%Z; [apply n2, h1|]. destruct next as [p|]; [apply n2, h3; reflexivity|apply n1].
Qed.
Lemma sum_from_snoc f n : forall i, sum_from f i (S n) = sum_from f i n + f (i + Z.of_nat n)%Z.
Proof.
  induction n as [|n IH]; intros i; [cbn [sum_from Z.of_nat]; rewrite Z.add_0_r; ring|]. change (sum_from f i (S (S n))) with (f i + sum_from f (i + 1) (S n)). rewrite IH.
  cbn [sum_from]. replace (i + 1 + Z.of_nat n)%Z with (i + Z.of_nat (S n))%Z by lia. ring.
Qed.
Lemma sum_from_next f n i : sum_from f (i + 1) n = sum_from f i n + f (i + Z.of_nat n)%Z - f i.
Proof. pose proof (sum_from_snoc f n i) as h. cbn [sum_from] in h. lra. Qed.
Lemma sum_from_bound f A n : (forall i, Rabs (f i) <= A) -> forall i, Rabs (sum_from f i n) <= INR n * A.
Proof.
  intros h. induction n as [|n IH]; intros i; [cbn [sum_from INR]; rewrite Rabs_R0; lra|]. cbn [sum_from]. rewrite S_INR.
  eapply Rle_trans; [apply Rabs_triang|]. specialize (h i). specialize (IH (i + 1)%Z). lra.
Qed.

Section Errors.
Variable f : Z -> f64.
Variable g : Z -> R.
Variable radius : nat.
Variable A : R.
Hypothesis fg : forall i, finite (f i) /\ real (f i) = g i /\ Rabs (g i) <= A.
Hypothesis hA : 0 <= A.
Let w := (2 * radius + 1)%nat.
Let G := (INR w + 2) * A.
Hypothesis hG : G <= B 1000.
(** the exact sum of the window *)
Let W (i : nat) := sum_from g (Z.of_nat i - Z.of_nat radius) w.

Lemma G_facts : 0 <= INR w * A /\ G = INR w * A + 2 * A /\ 3 * A <= G /\ 4 * G <= B 1022.
Proof.
  assert (hw : 1 <= INR w) by (apply (le_INR 1); unfold w; lia). splits.
  - apply Rmult_le_pos; lra.
  - unfold G. ring.
  - unfold G. apply Rmult_le_compat_r; lra.
  - assert (b : 4 * B 1000 <= B 1022). { change 4 with (B 2). rewrite <- bpow_plus. apply bpow_le. lia. } lra.
Qed.
Lemma u_8 : 8 * u <= 1. Proof. pose proof (u_bound 8 ltac:(lia) ltac:(lia)). lra. Qed.
Lemma add_error a b M : finite a -> finite b -> Rabs (real a + real b) <= M -> M <= B 1022 ->
  finite (fadd a b) /\ Rabs (real (fadd a b) - (real a + real b)) <= u * M.
Proof.
  intros fa fb h hm. destruct (fadd_ok a b fa fb ltac:(lra)) as (h1 & _ & e & he & h2). split; [exact h1|]. rewrite h2. replace ((real a + real b) * (1 + e) - (real a + real b)) with (e * (real a + real b)) by ring.
  rewrite Rabs_mult. apply Rmult_le_compat; try apply Rabs_pos; assumption.
Qed.
Lemma sub_error a b M : finite a -> finite b -> Rabs (real a - real b) <= M -> M <= B 1022 ->
  finite (fsub a b) /\ Rabs (real (fsub a b) - (real a - real b)) <= u * M.
Proof.
  intros fa fb h hm. destruct (fsub_ok a b fa fb ltac:(lra)) as (h1 & _ & e & he & h2). split; [exact h1|]. rewrite h2. replace ((real a - real b) * (1 + e) - (real a - real b)) with (e * (real a - real b)) by ring.
  rewrite Rabs_mult. apply Rmult_le_compat; try apply Rabs_pos; assumption.
Qed.
(** one step of the running sum *)
Lemma step_error s v x y e : finite s -> finite x -> finite y -> Rabs (real x) <= A -> Rabs (real y) <= A -> Rabs v <= INR w * A -> Rabs (real s - v) <= e -> e <= G ->
  finite (fsub (fadd s x) y) /\ Rabs (real (fsub (fadd s x) y) - (v + real x - real y)) <= e + 8 * u * G.
Proof.
  intros fs fx fy hx hy hv hs he. destruct G_facts as (g1 & g2 & g3 & g4). pose proof u_pos as up. pose proof u_8 as u8.
  apply Rabs_le_inv in hx. apply Rabs_le_inv in hy. apply Rabs_le_inv in hv. pose proof hs as hs'. apply Rabs_le_inv in hs'.
  destruct (add_error s x (2 * G) fs fx) as [f1 e1]; [apply Rabs_le; lra|lra|]. assert (uG : u * G <= G / 8) by nra.
  pose proof e1 as e1'. apply Rabs_le_inv in e1'.
  destruct (sub_error (fadd s x) y (4 * G) f1 fy) as [f2 e2]; [apply Rabs_le; nra|lra|]. split; [exact f2|].
  apply Rabs_le_inv in e2. apply Rabs_le_inv in e1. apply Rabs_le_inv in hs. apply Rabs_le. nra.
Qed.
Lemma running_error start e : finite start -> Rabs (real start - W 0) <= e -> forall i, e + 8 * INR i * u * G <= G ->
  finite (running f64 fadd fsub f radius start i) /\ Rabs (real (running f64 fadd fsub f radius start i) - W i) <= e + 8 * INR i * u * G.
Proof.
  intros fs hs. destruct G_facts as (g1 & g2 & g3 & g4). pose proof u_pos as up. assert (ug : 0 <= u * G) by (apply Rmult_le_pos; lra).
  induction i as [|i IH]; intros hb.
  - cbn [INR running]. split; [exact fs|]. eapply Rle_trans; [exact hs|]. lra.
  - rewrite S_INR in hb. destruct IH as [f1 e1]; [nra|]. cbn [running].
    destruct (fg (Z.of_nat (S i) + Z.of_nat radius)%Z) as (fx & ex & hx). destruct (fg (Z.of_nat (S i) - Z.of_nat radius - 1)%Z) as (fy & ey & hy).
    destruct (step_error (running f64 fadd fsub f radius start i) (W i) (f (Z.of_nat (S i) + Z.of_nat radius)%Z) (f (Z.of_nat (S i) - Z.of_nat radius - 1)%Z) (e + 8 * INR i * u * G) f1 fx fy) as [f2 e2].
    + rewrite ex. exact hx.
    + rewrite ey. exact hy.
    + apply sum_from_bound. intros j. apply fg.
    + exact e1.
    + nra.
    + split; [exact f2|]. assert (ew : W (S i) = W i + real (f (Z.of_nat (S i) + Z.of_nat radius)%Z) - real (f (Z.of_nat (S i) - Z.of_nat radius - 1)%Z)).
      { rewrite ex, ey. unfold W. replace (Z.of_nat (S i) - Z.of_nat radius - 1)%Z with (Z.of_nat i - Z.of_nat radius)%Z by lia. replace (Z.of_nat (S i) - Z.of_nat radius)%Z with (Z.of_nat i - Z.of_nat radius + 1)%Z by lia.
        rewrite sum_from_next. replace (Z.of_nat i - Z.of_nat radius + Z.of_nat w)%Z with (Z.of_nat (S i) + Z.of_nat radius)%Z by (unfold w; lia). reflexivity. }
      rewrite ew. eapply Rle_trans; [exact e2|]. rewrite S_INR. lra.
Qed.
Lemma first_error k : (k <= radius)%nat -> 8 * INR radius * u <= 1 ->
  finite (first_sum f64 fadd f k) /\ Rabs (real (first_sum f64 fadd f k) - sum_from g (- Z.of_nat k) (2 * k + 1)) <= 8 * INR k * u * G.
Proof.
  intros hk hr. destruct G_facts as (g1 & g2 & g3 & g4). pose proof u_pos as up. assert (ug : 0 <= u * G) by (apply Rmult_le_pos; lra). pose proof u_8 as u8.
  induction k as [|k IH].
  - cbn [first_sum]. destruct (fg 0%Z) as (f0 & e0 & _). split; [exact f0|]. rewrite e0. cbn [INR sum_from Z.of_nat Z.opp Nat.mul Nat.add]. replace (g 0%Z - (g 0%Z + 0)) with 0 by ring. rewrite Rabs_R0. lra.
  - destruct IH as [f1 e1]; [lia|]. cbn [first_sum]. set (s := first_sum f64 fadd f k) in *.
    destruct (fg (- Z.of_nat k - 1)%Z) as (fx & ex & hx). destruct (fg (Z.of_nat k + 1)%Z) as (fy & ey & hy). pose proof hx as hx'. pose proof hy as hy'. apply Rabs_le_inv in hx'. apply Rabs_le_inv in hy'.
    destruct (add_error (f (- Z.of_nat k - 1)%Z) (f (Z.of_nat k + 1)%Z) (2 * A) fx fy) as [f2 e2]; [rewrite ex, ey; apply Rabs_le; lra|lra|].
    pose proof (sum_from_bound g A (2 * k + 1) (fun i => proj2 (proj2 (fg i))) (- Z.of_nat k)%Z) as hv.
    assert (kw : INR (2 * k + 1) * A <= INR w * A). { apply Rmult_le_compat_r; [exact hA|]. apply le_INR. unfold w. lia. }
    assert (ke : 8 * INR k * u * G <= G). { assert (INR k <= INR radius) by (apply le_INR; lia). assert (8 * INR k * u <= 1) by nra. nra. }
    assert (uA : u * (2 * A) <= A) by nra. assert (uA2 : u * (2 * A) <= u * G) by (apply Rmult_le_compat_l; lra).
    apply Rabs_le_inv in hv. apply Rabs_le_inv in e2. rewrite ex, ey in e2. apply Rabs_le_inv in e1.
    destruct (add_error s (fadd (f (- Z.of_nat k - 1)%Z) (f (Z.of_nat k + 1)%Z)) (4 * G) f1 f2) as [f3 e3]; [apply Rabs_le; lra|lra|].
    split; [exact f3|]. apply Rabs_le_inv in e3.
    assert (es : sum_from g (- Z.of_nat (S k)) (2 * S k + 1) = sum_from g (- Z.of_nat k) (2 * k + 1) + (g (- Z.of_nat k - 1)%Z + g (Z.of_nat k + 1)%Z)).
    { replace (2 * S k + 1)%nat with (S (S (2 * k + 1))) by lia. rewrite sum_from_snoc. cbn [sum_from]. replace (- Z.of_nat (S k) + 1)%Z with (- Z.of_nat k)%Z by lia.
      replace (- Z.of_nat (S k) + Z.of_nat (S (2 * k + 1)))%Z with (Z.of_nat k + 1)%Z by lia. replace (- Z.of_nat (S k))%Z with (- Z.of_nat k - 1)%Z by lia. ring. }
    rewrite es, S_INR. apply Rabs_le. lra.
Qed.
(** the quotient *)
Lemma quotient_error s v e : finite s -> Rabs v <= INR w * A -> Rabs (real s - v) <= e -> e <= G -> (Z.of_nat w < 2 ^ 53)%Z ->
  finite (fdiv s (f_of_Z (2 * Z.of_nat radius + 1))) /\ Rabs (real (fdiv s (f_of_Z (2 * Z.of_nat radius + 1))) - v / IZR (2 * Z.of_nat radius + 1)) <= e / INR w + 4 * u * A + B (-1022).
Proof.
  intros fs hv hs he hw. destruct G_facts as (g1 & g2 & g3 & g4). pose proof u_pos as up. destruct (f_of_Z_exact (2 * Z.of_nat radius + 1)) as [fw ew]; [unfold w in hw; lia|].
  assert (ew' : IZR (2 * Z.of_nat radius + 1) = INR w). { rewrite INR_IZR_INZ. f_equal. unfold w. lia. }
  assert (hw1 : 1 <= INR w) by (apply (le_INR 1); unfold w; lia). rewrite ew' in *.
  assert (q : forall r, Rabs (r / INR w) = Rabs r / INR w). { intros r. unfold Rdiv. rewrite Rabs_mult, (Rabs_pos_eq (/ INR w)); [reflexivity|]. apply Rlt_le, Rinv_0_lt_compat. lra. }
  assert (bs : Rabs (real s / INR w) <= 4 * A).
  { rewrite q. apply (Rmult_le_reg_r (INR w)); [lra|]. unfold Rdiv. rewrite Rmult_assoc, Rinv_l, Rmult_1_r by lra. apply Rabs_le_inv in hv. apply Rabs_le_inv in hs. apply Rabs_le. nra. }
  destruct (fdiv_fin s (f_of_Z (2 * Z.of_nat radius + 1)) fs) as [f1 e1]; [rewrite ew; lra|rewrite ew; lra|]. rewrite ew in e1. split; [exact f1|]. rewrite e1.
  pose proof (rnd_any (real s / INR w)) as r. replace (rnd (real s / INR w) - v / INR w) with ((rnd (real s / INR w) - real s / INR w) + (real s - v) / INR w) by (field; lra).
  eapply Rle_trans; [apply Rabs_triang|]. rewrite (q (real s - v)). assert (Rabs (real s - v) / INR w <= e / INR w). { apply Rmult_le_compat_r; [apply Rlt_le, Rinv_0_lt_compat; lra|exact hs]. }
  assert (u * Rabs (real s / INR w) <= u * (4 * A)) by (apply Rmult_le_compat_l; lra). lra.
Qed.
End Errors.

(** the mirrored window around the start *)
Lemma mirrored (g : Z -> R) n : (forall i, (0 < i <= Z.of_nat n)%Z -> g (- i)%Z = - g i) -> sum_from g (- Z.of_nat n) (2 * n + 1) = g 0%Z.
Proof.
  induction n as [|n IH]; intros h; [cbn; ring|]. replace (2 * S n + 1)%nat with (S (S (2 * n + 1))) by lia. rewrite sum_from_snoc. cbn [sum_from].
  replace (- Z.of_nat (S n) + 1)%Z with (- Z.of_nat n)%Z by lia. rewrite IH by (intros i hi; apply h; lia).
  replace (- Z.of_nat (S n) + Z.of_nat (S (2 * n + 1)))%Z with (Z.of_nat (S n)) by lia. rewrite h by lia. ring.
Qed.
Lemma average_error A input prev next radius out : 0 <= A -> (2 * INR radius + 3) * A <= B 1000 ->
  (2 * radius + 1 <= length input)%nat -> (Z.of_nat (length input) < 2 ^ 32)%Z -> (length input <= length out)%nat ->
  (forall p, prev = Some p -> length p = length input /\ within A p) -> (forall p, next = Some p -> (radius <= length p)%nat /\ within A p) -> within A input ->
  exists out', moving_average64 input prev next radius out = Some out' /\ length out' = length out /\
    forall i, (i < length input)%nat -> exists x, nth_error out' i = Some x /\ finite x /\
      Rabs (real x - window_mean (continued input prev next) radius i) <= (24 * INR (i + radius) + 4) * u * A + B (-1022).
Proof.
  intros hA hG h1 h2 h3 h4 h5 h6.
  destruct (running_sums f64 fzero fadd fsub neg64 (fun s w => fdiv s (f_of_Z w)) input prev next radius out h1) as (o & e & hl & ho); [exact h2|exact h3|intros p hp; apply h4, hp|intros p hp; apply h5, hp|].
  exists o. split; [exact e|]. split; [exact hl|]. intros i hi. specialize (ho i hi). set (f := sig64 input prev next) in *. set (g := continued input prev next).
  set (start := match prev with Some _ => first_sum f64 fadd f radius | None => f 0%Z end) in *.
  assert (fg : forall j, finite (f j) /\ real (f j) = g j /\ Rabs (g j) <= A). { intros j. apply signal_ok; auto; intros p hp; [apply h4, hp|apply h5, hp]. }
  assert (ew : INR (2 * radius + 1) = 2 * INR radius + 1). { rewrite plus_INR, mult_INR. cbn [INR]. lra. }
  set (G := (INR (2 * radius + 1) + 2) * A). assert (hG' : G <= B 1000). { unfold G. rewrite ew. replace (2 * INR radius + 1 + 2) with (2 * INR radius + 3) by ring. exact hG. }
  pose proof u_pos as up. destruct (G_facts g radius A hA hG') as (g1 & g2 & g3 & g4). fold G in g2, g3, g4.
  assert (ug : 0 <= u * G) by (apply Rmult_le_pos; lra).
  assert (small : 8 * INR (i + radius) * u <= 1).
  { assert (INR (i + radius) <= IZR (2 ^ 33)). { rewrite INR_IZR_INZ. apply IZR_le. lia. } pose proof (u_bound (2 ^ 36) ltac:(lia) ltac:(lia)) as ub. change (2 ^ 36)%Z with (8 * 2 ^ 33)%Z in ub. rewrite mult_IZR in ub. nra. }
  rewrite (plus_INR i radius) in *. assert (i0 : 0 <= INR i) by apply pos_INR. assert (r0 : 0 <= INR radius) by apply pos_INR.
  assert (st : finite start /\ Rabs (real start - sum_from g (Z.of_nat 0 - Z.of_nat radius) (2 * radius + 1)) <= 8 * INR radius * u * G).
  { change (Z.of_nat 0 - Z.of_nat radius)%Z with (- Z.of_nat radius)%Z. destruct prev as [p|].
    - apply (first_error f g radius A fg hA hG' radius); [lia|nra].
    - unfold start. destruct (fg 0%Z) as (f0 & e0 & _). split; [exact f0|]. rewrite mirrored.
      + rewrite e0. replace (g 0%Z - g 0%Z) with 0 by ring. rewrite Rabs_R0. apply Rmult_le_pos; [apply Rmult_le_pos; lra|]. lra.
      + intros j hj. unfold g, continued. cbv zeta. destruct (Z.ltb_spec (- j) 0); [|lia]. rewrite Z.opp_involutive. destruct (Z.ltb_spec j 0); [lia|]. destruct (Z.ltb_spec j (Z.of_nat (length input))); [reflexivity|lia]. }
  destruct st as [fs es].
  assert (tot : 8 * INR radius * u * G + 8 * INR i * u * G <= G) by nra.
  destruct (running_error f g radius A fg hA hG' start _ fs es i tot) as [fr er].
  destruct (quotient_error f g radius A fg hA hG' _ _ _ fr (sum_from_bound g A (2 * radius + 1) (fun j => proj2 (proj2 (fg j))) (Z.of_nat i - Z.of_nat radius)) er tot ltac:(lia)) as [fq eq].
  eexists. split; [exact ho|]. split; [exact fq|]. fold (window_mean g radius i) in eq. eapply Rle_trans; [exact eq|].
  fold G. assert (q3 : G / INR (2 * radius + 1) <= 3 * A).
  { unfold G. rewrite ew. apply (Rmult_le_reg_r (2 * INR radius + 1)); [lra|]. unfold Rdiv. rewrite Rmult_assoc, Rinv_l, Rmult_1_r by lra. nra. }
  replace ((8 * INR radius * u * G + 8 * INR i * u * G) / INR (2 * radius + 1)) with (8 * (INR i + INR radius) * u * (G / INR (2 * radius + 1))) by (field; rewrite ew; lra).
  assert (8 * (INR i + INR radius) * u * (G / INR (2 * radius + 1)) <= 8 * (INR i + INR radius) * u * (3 * A)). { apply Rmult_le_compat_l; [apply Rmult_le_pos; lra|exact q3]. }
  lra.
Qed.

(** ** Absorption *)
Lemma absorb k t : (-900 <= k)%Z -> 0 <= t < B (k - 53) -> rnd (B k + t) = B k.
Proof.
  intros hk ht. pose proof (format_bpow k ltac:(lia)) as fk. apply Rle_antisym; [|rewrite <- (rnd_id _ fk) at 1; apply rnd_le; lra].
  apply (round_N_le_midp radix2 fexp64 (fun z => negb (Z.even z))); [exact fk|].
  rewrite succ_eq_pos by apply bpow_ge_0. rewrite ulp_bpow. assert (e : fexp64 (k + 1) = (k - 52)%Z) by (unfold FLT_exp; lia). rewrite e.
  assert (B (k - 52) = 2 * B (k - 53)). { replace (k - 52)%Z with (1 + (k - 53))%Z by lia. rewrite bpow_plus. reflexivity. } lra.
Qed.
(** adding a small number to a power of two, and taking the power away *)
Lemma add_absorbed a b k : finite a -> finite b -> (-900 <= k <= 1000)%Z -> real a + real b = B k + real a -> 0 <= real a < B (k - 53) -> finite (fadd a b) /\ real (fadd a b) = B k.
Proof.
  intros fa fb hk hs ht. pose proof (bpow_gt_0 radix2 k) as p. pose proof (bpow_gt_0 radix2 (k - 53)) as p'. assert (l1 : B (k - 53) <= B k) by (apply bpow_le; lia). assert (l2 : 2 * B k <= B 1022). { change 2 with (B 1). rewrite <- bpow_plus. apply bpow_le. lia. }
  destruct (fadd_ok a b fa fb) as (h1 & h2 & _); [rewrite hs; apply Rabs_le; lra|]. split; [exact h1|]. rewrite h2, hs. apply absorb; [lia|exact ht].
Qed.
Lemma sub_equal a b : finite a -> finite b -> real a = real b -> finite (fsub a b) /\ real (fsub a b) = 0.
Proof.
  intros fa fb e. destruct (fsub_ok a b fa fb) as (h1 & h2 & _). { rewrite e. replace (real b - real b) with 0 by ring. rewrite Rabs_R0. apply bpow_ge_0. }
  split; [exact h1|]. rewrite h2, e. replace (real b - real b) with 0 by ring. apply round_0. auto with typeclass_instances.
Qed.
Lemma add_exact0 a b : finite a -> finite b -> Rabs (real b) <= B 1022 -> real a = 0 -> finite (fadd a b) /\ real (fadd a b) = real b.
Proof.
  intros fa fb hb e. destruct (fadd_ok a b fa fb) as (h1 & h2 & _). { rewrite e, Rplus_0_l. exact hb. } split; [exact h1|]. rewrite h2, e, Rplus_0_l. apply rnd_id. apply format_real.
Qed.
Section Loud.
Variable k : Z.
Variable big c : f64.
Variable m : nat.
Hypothesis hk : (-900 <= k <= 1000)%Z.
Hypothesis fbig : finite big.
Hypothesis ebig : real big = B k.
Hypothesis fc : finite c.
Hypothesis ec : 0 < real c < B (k - 53).
Let input := fzero :: big :: repeat c m.
Let f := sig64 input None None.
Lemma loud_ones i : (2 <= i < Z.of_nat m + 2)%Z -> f i = c.
Proof.
  intros hi. unfold f, signal, get. cbv zeta. unfold input. cbn [length]. rewrite repeat_length. destruct (Z.ltb_spec i 0); [lia|]. destruct (Z.ltb_spec i (Z.of_nat (S (S m)))); [|lia].
  destruct (Z.to_nat i) as [|[|j]] eqn:e; [lia|lia|]. cbn [nth]. apply (repeat_spec m c). apply nth_In. rewrite repeat_length. lia.
Qed.
Lemma loud_running i : (3 <= i)%nat -> (i < m + 1)%nat -> finite (running f64 fadd fsub f 1 (f 0%Z) i) /\ real (running f64 fadd fsub f 1 (f 0%Z) i) = 0.
Proof.
  intros h3. pose proof (bpow_gt_0 radix2 k) as p. pose proof (bpow_gt_0 radix2 (k - 53)) as p'. assert (l1 : B (k - 53) <= B k) by (apply bpow_le; lia). assert (l2 : 2 * B k <= B 1022). { change 2 with (B 1). rewrite <- bpow_plus. apply bpow_le. lia. }
  assert (cb : Rabs (real c) <= B 1022) by (apply Rabs_le; lra).
  induction i as [|i IH]; intros hi; [lia|]. cbn [running]. destruct (Nat.eq_dec i 2) as [->|ne].
  - (* the loud sample leaves the window *)
    assert (f0 : f 0%Z = fzero) by reflexivity. assert (f1 : f 1%Z = big) by (unfold f, signal, get, input; cbn [length]; rewrite repeat_length; cbv zeta; destruct (Z.ltb_spec 1 (Z.of_nat (S (S m)))); [reflexivity|lia]).
    assert (f_1 : f (-1)%Z = neg64 big) by reflexivity. destruct (neg_ok big fbig) as [fn en].
    cbn [running]. change (Z.of_nat 1 + Z.of_nat 1)%Z with 2%Z. change (Z.of_nat 1 - Z.of_nat 1 - 1)%Z with (-1)%Z. change (Z.of_nat 2 + Z.of_nat 1)%Z with 3%Z. change (Z.of_nat 2 - Z.of_nat 1 - 1)%Z with 0%Z.
    change (Z.of_nat 3 + Z.of_nat 1)%Z with 4%Z. change (Z.of_nat 3 - Z.of_nat 1 - 1)%Z with 1%Z. rewrite f0, f1, f_1, !loud_ones by lia.
    destruct (add_exact0 fzero c eq_refl fc cb eq_refl) as [a1 a2]. set (s0 := fadd fzero c) in *.
    assert (s1ok : finite (fsub s0 (neg64 big)) /\ real (fsub s0 (neg64 big)) = B k).
    { destruct (fsub_ok s0 (neg64 big) a1 fn) as (h1 & h2 & _); [rewrite en, ebig, a2; apply Rabs_le; lra|]. split; [exact h1|]. rewrite h2, en, ebig, a2. replace (real c - - B k) with (B k + real c) by ring. apply absorb; [lia|lra]. }
    destruct s1ok as [b1 b2]. set (s1 := fsub s0 (neg64 big)) in *.
    assert (ad : forall s, finite s -> real s = B k -> finite (fadd s c) /\ real (fadd s c) = B k).
    { intros s fs es. destruct (fadd_ok s c fs fc) as (h1 & h2 & _); [rewrite es; apply Rabs_le; lra|]. split; [exact h1|]. rewrite h2, es. apply absorb; [lia|lra]. }
    destruct (ad s1 b1 b2) as [c1 c2]. assert (s2ok : finite (fsub (fadd s1 c) fzero) /\ real (fsub (fadd s1 c) fzero) = B k).
    { assert (es : real (fadd s1 c) - real fzero = B k) by (rewrite c2; change (real fzero) with 0; ring). destruct (fsub_ok (fadd s1 c) fzero c1 eq_refl) as (h1 & h2 & _); [rewrite es; apply Rabs_le; lra|]. split; [exact h1|]. rewrite h2, es. apply rnd_id, format_bpow. lia. }
    destruct s2ok as [d1 d2]. destruct (ad _ d1 d2) as [e1 e2]. apply sub_equal; [exact e1|exact fbig|]. rewrite e2. symmetry. exact ebig.
  - destruct IH as [h1 h2]; [lia|lia|]. rewrite (loud_ones (Z.of_nat (S i) + Z.of_nat 1)), (loud_ones (Z.of_nat (S i) - Z.of_nat 1 - 1)) by lia. destruct (add_exact0 _ c h1 fc cb h2) as [a1 a2]. apply sub_equal; assumption.
Qed.
Lemma loud_average out : (2 <= m)%nat -> (Z.of_nat m + 2 < 2 ^ 32)%Z -> (m + 2 <= length out)%nat ->
  exists out', moving_average64 input None None 1 out = Some out' /\
    forall i, (3 <= i < m + 1)%nat -> window_mean (continued input None None) 1 i = real c /\ exists x, nth_error out' i = Some x /\ finite x /\ real x = 0.
Proof.
  intros hm h2 h3. assert (hl : length input = (m + 2)%nat) by (unfold input; cbn [length]; rewrite repeat_length; lia).
  destruct (running_sums f64 fzero fadd fsub neg64 (fun s w => fdiv s (f_of_Z w)) input None None 1 out) as (o & e & hlo & ho); [lia|unfold Base.two32; lia|lia|discriminate|discriminate|].
  exists o. split; [exact e|]. intros i hi. split.
  - unfold window_mean. cbn [Nat.mul Nat.add sum_from].
    assert (g : forall j, (2 <= j < Z.of_nat m + 2)%Z -> continued input None None j = real c).
    { intros j hj. destruct (signal_ok (2 * B k) input None None j) as (_ & <- & _); try discriminate.
      - pose proof (bpow_gt_0 radix2 k). lra.
      - pose proof (bpow_gt_0 radix2 k). pose proof (bpow_gt_0 radix2 (k - 53)). assert (l1 : B (k - 53) <= B k) by (apply bpow_le; lia). unfold within, input. constructor; [split; [reflexivity|]; change (real fzero) with 0; rewrite Rabs_R0; lra|].
        constructor; [split; [exact fbig|]; rewrite ebig; apply Rabs_le; lra|]. apply Forall_forall. intros x hx. apply repeat_spec in hx. subst x. split; [exact fc|apply Rabs_le; lra].
      - f_equal. apply loud_ones. exact hj. }
    rewrite !g by lia. change (IZR (2 * Z.of_nat 1 + 1)) with 3. field.
  - specialize (ho i ltac:(lia)). cbv zeta in ho. destruct (loud_running i ltac:(lia) ltac:(lia)) as [r1 r2]. eexists. split; [exact ho|].
    destruct (f_of_Z_exact 3 ltac:(lia)) as [f3 e3]. change (2 * Z.of_nat 1 + 1)%Z with 3%Z. fold f. set (s := running f64 fadd fsub f 1 (f 0%Z) i) in *.
    assert (z : real s / real (f_of_Z 3) = 0) by (rewrite r2; unfold Rdiv; ring).
    destruct (fdiv_fin s (f_of_Z 3) r1) as [q1 q2]; [rewrite e3; lra|rewrite z, Rabs_R0; apply bpow_ge_0|]. split; [exact q1|]. rewrite q2, z. apply round_0. auto with typeclass_instances.
Qed.
End Loud.
