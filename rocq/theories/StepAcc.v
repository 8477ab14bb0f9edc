(** Accuracy of the tableaux and runs that miss their specification *)
From Coq Require Import ZArith List Bool Reals Lra Lia FunctionalExtensionality.
From Verif Require Import StepModel StepSpec StepProofs StepErk StepImex StepFlow.
Import ListNotations.
Local Open Scope Z_scope.

(** ** Explicit schemes *)
Section Erk.
Context {X : Type} (dt : R) (u : X -> R).
Lemma erk_const e (c : X -> R) : e <> SSPRK53 ->
  forall x, erk_spec e (fun _ => c) dt u x = (u x + dt * c x)%R.
Proof. intros H x. destruct e; try congruence; cbn [erk_spec]; vs; field. Qed.

Lemma fe_linear l x : erk_spec ForwardEuler (fun v y => l * v y)%R dt u x = ((1 + dt * l) * u x)%R.
Proof. cbn [erk_spec]; vs; field. Qed.
Lemma rk4_linear l x : erk_spec RungeKutta4 (fun v y => l * v y)%R dt u x =
  ((1 + dt * l + (dt * l) ^ 2 / 2 + (dt * l) ^ 3 / 6 + (dt * l) ^ 4 / 24) * u x)%R.
Proof. cbn [erk_spec]; vs; field. Qed.
Lemma ssp3_linear l x : erk_spec RungeKuttaSSP3 (fun v y => l * v y)%R dt u x =
  ((1 + dt * l + (dt * l) ^ 2 / 2 + (dt * l) ^ 3 / 6) * u x)%R.
Proof. cbn [erk_spec]; vs; field. Qed.
Lemma kgu_linear l x : erk_spec KGU35 (fun v y => l * v y)%R dt u x =
  ((1 + dt * l + (dt * l) ^ 2 / 2 + (dt * l) ^ 3 / 6 + (dt * l) ^ 4 / 30 + (dt * l) ^ 5 / 150) * u x)%R.
Proof. cbn [erk_spec]; vs; field. Qed.
End Erk.

(** Shu-Osher form with symbolic coefficients, linear tendency *)
Lemma so_linear {X} A B C D E F b b3 b4 b5 l dt (u : X -> R) x :
  let z := (dt * l)%R in
  let p0 := (A + B)%R in let p1 := (2 * b * B + b3)%R in let p2 := (B * b * b + 2 * b * b3)%R in let p3 := (b3 * b * b)%R in
  let q0 := (C + D * p0)%R in let q1 := (D * p1 + b4 * p0)%R in let q2 := (D * p2 + b4 * p1)%R in
  let q3 := (D * p3 + b4 * p2)%R in let q4 := (b4 * p3)%R in
  shu_osher [([1], b); ([0; 1], b); ([A; 0; B], b3); ([C; 0; 0; D], b4); ([0; 0; E; 0; F], b5)]%R
    (fun v y => l * v y)%R dt [u] x =
  ((E + F * q0 + (2 * b * E + F * q1 + b5 * q0) * z + (b * b * E + F * q2 + b5 * q1) * z ^ 2
    + (F * q3 + b5 * q2) * z ^ 3 + (F * q4 + b5 * q3) * z ^ 4 + b5 * q4 * z ^ 5) * u x)%R.
Proof. cbn [shu_osher at_ map dot app last]. ring. Qed.

Lemma ssp53_linear {X} l dt (u : X -> R) :
  exists c0 c1 c2 c3 c4 c5 : R,
    (forall x, erk_spec SSPRK53 (fun v y => l * v y)%R dt u x =
       (c0 + c1 * (dt * l) + c2 * (dt * l) ^ 2 + c3 * (dt * l) ^ 3 + c4 * (dt * l) ^ 4 + c5 * (dt * l) ^ 5) * u x)%R /\
    (Rabs (c0 - 1) <= 1 / 10 ^ 14 /\ Rabs (c1 - 1) <= 1 / 10 ^ 14 /\
     Rabs (c2 - 1 / 2) <= 1 / 10 ^ 14 /\ Rabs (c3 - 1 / 6) <= 1 / 10 ^ 14 /\
     Rabs c4 <= 1 / 24 /\ Rabs c5 <= 1 / 120)%R.
Proof.
  eexists _, _, _, _, _, _. split.
  - intros x. unfold erk_spec, ssp53. rewrite so_linear. reflexivity.
  - cbv zeta. split; [|split; [|split; [|split; [|split]]]]; apply Rabs_le; lra.
Qed.
Lemma ssp53_zero {X} dt (u : X -> R) x :
  erk_spec SSPRK53 (fun _ _ => 0%R) dt u x = ((1 + 0.632066208361863 * 0.762406163401431 / 10 ^ 15) * u x)%R.
Proof.
  unfold erk_spec, ssp53. cbn [shu_osher at_ map dot app last]. lra.
Qed.

(** ** Order conditions *)
Ltac oc := unfold order1, order2, order3, order4, rsums; cbn [map fold_right dot combine fst snd].
Lemma rk4_order : order1 rk4_b /\ order2 rk4_A rk4_b /\ order3 rk4_A rk4_b /\
  order4 [[0; 0; 0; 0]; [1/2; 0; 0; 0]; [0; 1/2; 0; 0]; [0; 0; 1; 0]]%R rk4_b.
Proof. unfold rk4_A, rk4_b. oc. repeat split; lra. Qed.
Lemma rk4_full_order4 : order4 rk4_A rk4_b.
Proof. unfold rk4_A, rk4_b. oc. repeat split; lra. Qed.
Lemma ssp3_order : order1 ssp3_b /\ order2 ssp3_A ssp3_b /\ order3 ssp3_A ssp3_b.
Proof. unfold ssp3_A, ssp3_b. oc. repeat split; lra. Qed.
Lemma kgu_order : order1 kgu_b /\ order2 kgu_A kgu_b /\ order3 kgu_A kgu_b.
Proof. unfold kgu_A, kgu_b. oc. repeat split; lra. Qed.

Ltac cases := repeat match goal with H : In _ (_ :: _) |- _ => destruct H as [<-|H] | H : In _ [] |- _ => destruct H end.
Ltac oc2 := unfold ark_order1, ark_order2, ark_order3, gark_order2, order1, rsums; cbn [map fold_right dot combine fst snd].

Lemma a222_sq : (a222_g * a222_g = 2 * a222_g - 1 / 2)%R.
Proof. unfold a222_g. rewrite d05. pose proof s2. nra. Qed.
Lemma ars222_order : ark_order1 (ars222_b a222_d) (ars222_bh a222_g) /\
  ark_order2 (ars222_A a222_g a222_d) (ars222_Ah a222_g) (ars222_b a222_d) (ars222_bh a222_g).
Proof.
  pose proof a222_sq as Q. pose proof a222_g0 as G0.
  assert ((1 - a222_d) * a222_g = 1 / 2)%R as D by (unfold a222_d; field; exact G0).
  unfold ars222_b, ars222_bh, ars222_A, ars222_Ah. split.
  - oc2. split; lra.
  - intros w M Hw HM. cases; oc2; nra.
Qed.
Lemma a232_sq : (a232_g * a232_g = 2 * a232_g - 1 / 2)%R.
Proof. unfold a232_g. rewrite inv_s2. pose proof s2. nra. Qed.
Lemma ars232_order : ark_order1 (ars232_b a232_g) (ars232_bh a232_g) /\
  ark_order2 (ars232_A a232_g a232_d) (ars232_Ah a232_g) (ars232_b a232_g) (ars232_bh a232_g).
Proof.
  pose proof a232_sq as Q. unfold ars232_b, ars232_bh, ars232_A, ars232_Ah. split.
  - oc2. split; lra.
  - intros w M Hw HM. cases; oc2; nra.
Qed.
(** the explicit part is of third order for linear problems *)
Lemma ars232_linear3 : dot (ars232_b a232_g) (map (fun a => dot a (rsums (ars232_A a232_g a232_d))) (ars232_A a232_g a232_d)) = (1 / 6)%R.
Proof.
  unfold ars232_b, ars232_A. oc2. unfold a232_d, a232_g. rewrite inv_s2. pose proof s2 as Q.
  set (r := sqrt 2) in *. clearbody r.
  assert (r * r * r = 2 * r)%R as Q3 by (rewrite Q; ring). lra.
Qed.
Lemma ars443_order : ark_order1 ars443_b ars443_bh /\ ark_order2 ars443_A ars443_Ah ars443_b ars443_bh /\
  ark_order3 ars443_A ars443_Ah ars443_b ars443_bh.
Proof.
  unfold ars443_b, ars443_bh, ars443_A, ars443_Ah. split; [|split].
  - oc2. split; lra.
  - intros w M Hw HM. cases; oc2; lra.
  - intros w M N Hw HM HN. cases; oc2; split; lra.
Qed.
Lemma ssp332_order : ark_order1 ssp332_b ssp332_b /\ ark_order2 ssp332_A (ssp332_Ah s332_g) ssp332_b ssp332_b /\
  order3 ssp332_A ssp332_b.
Proof.
  unfold ssp332_b, ssp332_A, ssp332_Ah. split; [|split].
  - oc2. split; lra.
  - intros w M Hw HM. cases; oc2; lra.
  - oc. split; lra.
Qed.
Lemma gark2_order : ark_order1 gark2_b (gark2_bh gk_g) /\
  gark_order2 gark2_EE gark2_EI (gark2_IE gk_g) (gark2_II gk_g) gark2_b (gark2_bh gk_g).
Proof.
  pose proof a222_sq as Q. change a222_g with gk_g in Q.
  unfold gark2_b, gark2_bh, gark2_EE, gark2_EI, gark2_IE, gark2_II. split; [|split].
  - oc2. split; lra.
  - intros M HM. cases; oc2; lra.
  - intros M HM. cases; oc2; nra.
Qed.
Lemma ark232_order : ark_order1 (ark232_b k232_g k232_d) (ark232_b k232_g k232_d) /\
  ark_order2 (ark232_A k232_g k232_a) (ark232_Ah k232_g k232_d) (ark232_b k232_g k232_d) (ark232_b k232_g k232_d).
Proof.
  assert (k232_d = sqrt 2 / 4)%R as D. { unfold k232_d. replace (1 / (2 * sqrt 2))%R with (1 / sqrt 2 / 2)%R by (field; pose proof s2_lo; lra). rewrite inv_s2. field. }
  assert (k232_g = 1 - sqrt 2 / 2)%R as Ge. { unfold k232_g. rewrite inv_s2. reflexivity. }
  pose proof s2 as Q. unfold ark232_b, ark232_A, ark232_Ah. rewrite D, Ge. split.
  - oc2. split; lra.
  - intros w M Hw HM. cases; oc2; nra.
Qed.

(** ARS(3,4,3) is of third order exactly for the roots of the cubic *)
Section A343.
Context (g a42 a43 : R).
Notation A := (ars343_A g (a343_a31 g a42 a43) (a343_a32 g a42 a43) (a343_a41 a42 a43) a42 a43).
Notation Ah := (ars343_Ah g (a343_b1 g) (a343_b2 g)).
Notation b := (ars343_b g (a343_b1 g) (a343_b2 g)).
Ltac dec := replace (-1.5)%R with (- 3 / 2)%R by lra; replace 1.5%R with (3 / 2)%R by lra; replace 4.5%R with (9 / 2)%R by lra;
  replace 2.75%R with (11 / 4)%R by lra; replace (-2.75)%R with (- 11 / 4)%R by lra; replace 10.5%R with (21 / 2)%R by lra;
  replace 3.75%R with (15 / 4)%R by lra; replace 3.5%R with (7 / 2)%R by lra; replace 12.5%R with (25 / 2)%R by lra;
  replace 1.25%R with (5 / 4)%R by lra; rewrite ?d025, ?d05.
Lemma a343_order1 : ark_order1 b b.
Proof. unfold ars343_b. oc2. unfold a343_b1, a343_b2. split; lra. Qed.
Lemma a343_order23 : (6 * g ^ 3 - 18 * g ^ 2 + 9 * g - 1 = 0)%R -> ark_order2 A Ah b b /\ ark_order3 A Ah b b.
Proof.
  intros Q. assert (g ^ 3 = 3 * g ^ 2 - 3 / 2 * g + 1 / 6)%R as Q3 by lra.
  assert (g ^ 4 = 15 / 2 * g ^ 2 - 13 / 3 * g + 1 / 2)%R as Q4.
  { replace (g ^ 4)%R with (g * g ^ 3)%R by ring. rewrite Q3. replace (g * (3 * g ^ 2 - 3 / 2 * g + 1 / 6))%R with (3 * g ^ 3 - 3 / 2 * g ^ 2 + 1 / 6 * g)%R by field. rewrite Q3. field. }
  assert (g ^ 5 = 109 / 6 * g ^ 2 - 43 / 4 * g + 5 / 4)%R as Q5.
  { replace (g ^ 5)%R with (g * g ^ 4)%R by ring. rewrite Q4. replace (g * (15 / 2 * g ^ 2 - 13 / 3 * g + 1 / 2))%R with (15 / 2 * g ^ 3 - 13 / 3 * g ^ 2 + 1 / 2 * g)%R by field. rewrite Q3. field. }
  assert (forall a, a * g ^ 3 = a * (3 * g ^ 2 - 3 / 2 * g + 1 / 6))%R as R3 by (intros; rewrite Q3; reflexivity).
  assert (forall a, a * g ^ 4 = a * (15 / 2 * g ^ 2 - 13 / 3 * g + 1 / 2))%R as R4 by (intros; rewrite Q4; reflexivity).
  pose proof (R3 a42). pose proof (R3 a43). pose proof (R4 a42). pose proof (R4 a43). clear R3 R4.
  assert (forall a, a * g ^ 5 = a * (109 / 6 * g ^ 2 - 43 / 4 * g + 5 / 4))%R as R5 by (intros; rewrite Q5; reflexivity).
  pose proof (R5 a42). pose proof (R5 a43). clear R5.
  unfold ars343_b, ars343_A, ars343_Ah. split.
  - intros w M Hw HM. cases; oc2; unfold a343_b1, a343_b2, a343_a31, a343_a32, a343_a41; dec; lra.
  - intros w M N Hw HM HN. cases; oc2; unfold a343_b1, a343_b2, a343_a31, a343_a32, a343_a41; dec; (split; [lra|lra]).
Qed.
(** every residual is a multiple of the cubic *)
Notation cubic := (6 * g ^ 3 - 18 * g ^ 2 + 9 * g - 1)%R.
Notation quots := [- 1 / 8; - 3 / 16 * g + 1 / 48; - 3 / 8 * g + 1 / 6;
  - 3 / 8 * g ^ 2 * a42 - 15 / 16 * g ^ 2 * a43 + 9 / 8 * g ^ 2 + 5 / 4 * g * a42 + 47 / 16 * g * a43 - 7 / 2 * g + 1 / 6]%R.
Ltac q1 := exists (- 1 / 8)%R; split; [cbn [In]; tauto|lra].
Ltac q2 := exists (- 3 / 16 * g + 1 / 48)%R; split; [cbn [In]; tauto|lra].
Ltac q3 := exists (- 3 / 8 * g + 1 / 6)%R; split; [cbn [In]; tauto|lra].
Ltac q4 := eexists; split; [cbn [In]; do 3 right; left; reflexivity|lra].
Lemma a343_resid2 M : In M [A; Ah] -> exists q, In q quots /\ (dot b (rsums M) - 1 / 2 = q * cubic)%R.
Proof.
  unfold ars343_b, ars343_A, ars343_Ah. intros HM.
  cases; oc2; unfold a343_b1, a343_b2, a343_a31, a343_a32, a343_a41; dec; q1.
Qed.
Lemma a343_resid3a M N : In M [A; Ah] -> In N [A; Ah] -> exists q, In q quots /\
  (dot b (map (fun p => fst p * snd p) (combine (rsums M) (rsums N))) - 1 / 3 = q * cubic)%R.
Proof.
  unfold ars343_b, ars343_A, ars343_Ah. intros HM HN.
  cases; oc2; unfold a343_b1, a343_b2, a343_a31, a343_a32, a343_a41; dec; q2.
Qed.
Lemma a343_resid3b M N : In M [A; Ah] -> In N [A; Ah] -> exists q, In q quots /\
  (dot b (map (fun a => dot a (rsums N)) M) - 1 / 6 = q * cubic)%R.
Proof.
  unfold ars343_b, ars343_A, ars343_Ah. intros HM HN.
  cases; oc2; unfold a343_b1, a343_b2, a343_a31, a343_a32, a343_a41; dec; first [q3 | q4].
Qed.
End A343.
(** the decimal constant *)
Lemma a343_root : (Rabs (6 * a343_gamma ^ 3 - 18 * a343_gamma ^ 2 + 9 * a343_gamma - 1) <= 1 / 10 ^ 14)%R.
Proof. unfold a343_gamma. apply Rabs_le. split; lra. Qed.
Lemma a343_nz : (a343_gamma <> 0 /\ a343_A43 <> 0 /\ a343_a32 a343_gamma a343_A42 a343_A43 <> 0)%R.
Proof. unfold a343_a32, a343_gamma, a343_A42, a343_A43. split; [lra|]. split; lra. Qed.
Lemma a343_near :
  let A := ars343_A a343_gamma (a343_a31 a343_gamma a343_A42 a343_A43) (a343_a32 a343_gamma a343_A42 a343_A43)
             (a343_a41 a343_A42 a343_A43) a343_A42 a343_A43 in
  let Ah := ars343_Ah a343_gamma (a343_b1 a343_gamma) (a343_b2 a343_gamma) in
  let b := ars343_b a343_gamma (a343_b1 a343_gamma) (a343_b2 a343_gamma) in
  (forall M, In M [A; Ah] -> Rabs (dot b (rsums M) - 1 / 2) <= 1 / 10 ^ 14)%R /\
  (forall M N, In M [A; Ah] -> In N [A; Ah] ->
    Rabs (dot b (map (fun p => fst p * snd p) (combine (rsums M) (rsums N))) - 1 / 3) <= 1 / 10 ^ 14 /\
    Rabs (dot b (map (fun a => dot a (rsums N)) M) - 1 / 6) <= 1 / 10 ^ 14)%R.
Proof.
  intros A Ah b.
  assert (forall q z : R, In q [- 1 / 8; - 3 / 16 * a343_gamma + 1 / 48; - 3 / 8 * a343_gamma + 1 / 6;
    - 3 / 8 * a343_gamma ^ 2 * a343_A42 - 15 / 16 * a343_gamma ^ 2 * a343_A43 + 9 / 8 * a343_gamma ^ 2
    + 5 / 4 * a343_gamma * a343_A42 + 47 / 16 * a343_gamma * a343_A43 - 7 / 2 * a343_gamma + 1 / 6]%R ->
    (z = q * (6 * a343_gamma ^ 3 - 18 * a343_gamma ^ 2 + 9 * a343_gamma - 1))%R -> (Rabs z <= 1 / 10 ^ 14)%R) as K.
  { intros q z Hq ->. assert (Rabs q <= 1)%R as Q1.
    { cases; try (unfold a343_gamma, a343_A42, a343_A43; apply Rabs_le; split; lra). }
    rewrite Rabs_mult. pose proof a343_root as Q2. pose proof (Rabs_pos q). revert Q2.
    pose proof (Rabs_pos (6 * a343_gamma ^ 3 - 18 * a343_gamma ^ 2 + 9 * a343_gamma - 1)).
    set (e := Rabs (6 * _ ^ 3 - _ + _ - 1)) in *. clearbody e. intros Q2. nra. }
  split; [|split].
  - intros M HM. destruct (a343_resid2 _ _ _ M HM) as (q & Hq & E). exact (K q _ Hq E).
  - destruct (a343_resid3a _ _ _ M N H H0) as (q & Hq & E). exact (K q _ Hq E).
  - destruct (a343_resid3b _ _ _ M N H H0) as (q & Hq & E). exact (K q _ Hq E).
Qed.

