(** * Terminator chemistry: the properties *)
From Coq Require Import Reals Lra Lia List ZArith.
From Verif Require Import ChemModel ChemSpec ChemProofs.
Import ListNotations.
Local Open Scope R_scope.

(** total chlorine cl + 2 cl2 never changes *)
Theorem C100_conserves : forall lat lon cl cl2 dt, let f := tendency lat lon cl cl2 dt in fst f + 2 * snd f = 0.
Proof. intros lat lon cl cl2 dt. unfold tendency. cbv zeta. cbn [fst snd]. field. Qed.
Print Assumptions C100_conserves.

(** the step is the exact solution of the reaction, in darkness and wherever
    det k2 dt > 1e-16 *)
Theorem C100_exact : forall a b cl cl2, 0 <= a -> 0 < b -> 0 <= cl -> 0 <= cl2 ->
  exists X, solution a b (cl + 2 * cl2) cl X /\
    forall dt, 0 < dt -> a = 0 \/ / 10 ^ 16 < det (ratio a b) (cl + 2 * cl2) * b * dt -> cl + dt * cl_rate a b cl cl2 dt = X dt.
Proof.
  intros a b cl cl2 [A|A] B C C2.
  - exists (flow a b cl cl2). split; [split; [apply flow_zero; assumption|intros; apply flow_lim; assumption]|].
    intros dt D [H|H]; [lra|]. apply rate_flow; assumption.
  - subst a. exists (dark b cl). split; [split|].
    + unfold dark. field.
    + intros s S. apply dark_lim; assumption.
    + intros dt D _. apply dark_rate; lra.
Qed.
Print Assumptions C100_exact.

Lemma k1_range lat lon : 0 <= k1 lat lon <= 1.
Proof.
  unfold k1. rewrite Rmult_1_l. pose proof (sin2_cos2 lat) as P. pose proof (sin2_cos2 lat_center) as Q. unfold Rsqr in P, Q.
  pose proof (COS_bound (lon - lon_center)) as M. set (m := cos (lon - lon_center)) in *.
  set (s := sin lat) in *. set (c := cos lat) in *. set (s0 := sin lat_center) in *. set (c0 := cos lat_center) in *.
  assert (s * s0 + c * c0 * m <= 1) as H.
  { assert (0 <= (s - s0) * (s - s0)) by apply Rle_0_sqr. assert (0 <= (c - c0 * m) * (c - c0 * m)) by apply Rle_0_sqr.
    assert (m * m <= 1) by nra. assert (0 <= c0 * c0) by apply Rle_0_sqr. nra. }
  split; [apply Rmax_l|]. apply Rmax_lub; lra.
Qed.
Lemma small_bounds a b cl cl2 dt : 0 < a -> a <= b -> 0 < b -> 0 <= cl -> 0 <= cl2 -> 0 <= dt -> det (ratio a b) (cl + 2 * cl2) * b * dt <= / 10 ^ 16 ->
  0 <= cl + dt * cl_rate a b cl cl2 dt <= cl + 2 * cl2.
Proof.
  intros A AB B C C2 T H. unfold cl_rate. cbv zeta.
  pose proof (r_pos a b A B) as R0. pose proof (d_ge a b cl cl2 A B C C2) as G. pose proof (d_sqr a b cl cl2 A B C C2) as Q.
  pose proof (exp_range a b cl cl2 A B C C2 dt T) as (E0 & E1).
  set (r := ratio a b) in *. set (d := det r (cl + 2 * cl2)) in *. set (e := exp (-4 * b * d * dt)) in *.
  assert (0 <= d * b * dt) as NN by (apply Rmult_le_pos; [apply Rmult_le_pos|]; lra).
  unfold el. rewrite Rabs_right by lra. destruct (Rlt_dec (/ 10 ^ 16) (d * b * dt)); [lra|].
  assert (/ 10 ^ 16 <= 1 / 4) as I. { apply (Rmult_le_reg_r (10 ^ 16)); [apply pow_lt; lra|]. rewrite Rinv_l by (apply pow_nonzero; lra). lra. }
  assert (r * (b * dt) <= 1 / 4) as RB. { assert (0 <= b * dt) by nra. assert (r * (b * dt) <= d * (b * dt)) by (apply Rmult_le_compat_r; lra). lra. }
  set (t := b * dt) in *. assert (0 <= t) as T0 by (unfold t; nra).
  assert (0 < 1 + e + 4 * t * (cl + r)) as P by nra.
  assert (0 < / (1 + e + 4 * t * (cl + r))) as IP by (apply Rinv_0_lt_compat; lra).
  replace (cl + dt * (- (4 * b) * (cl - d + r) * (cl + d + r) / (1 + e + dt * (4 * b) * (cl + r))))
    with (cl - 4 * t * ((cl + r) * (cl + r) - d * d) * / (1 + e + 4 * t * (cl + r))).
  2:{ unfold t. replace (1 + e + 4 * (b * dt) * (cl + r)) with (1 + e + dt * (4 * b) * (cl + r)) by ring. unfold Rdiv. ring. }
  set (i := / (1 + e + 4 * t * (cl + r))) in *. rewrite Q.
  assert ((1 + e + 4 * t * (cl + r)) * i = 1) as U by (unfold i; field; lra).
  set (D := 1 + e + 4 * t * (cl + r)) in *. split.
  - replace (cl - 4 * t * ((cl + r) * (cl + r) - (r * r + 2 * r * (cl + 2 * cl2))) * i)
      with (i * (cl * D - 4 * t * ((cl + r) * (cl + r) - (r * r + 2 * r * (cl + 2 * cl2)))) + cl * (1 - D * i)) by ring.
    rewrite U. replace (cl * (1 - 1)) with 0 by ring. rewrite Rplus_0_r. apply Rmult_le_pos; [lra|].
    replace (cl * D - 4 * t * ((cl + r) * (cl + r) - (r * r + 2 * r * (cl + 2 * cl2)))) with (cl * (1 + e) + 4 * t * r * (cl + 4 * cl2)) by (unfold D; ring).
    assert (0 <= t * r * (cl + 4 * cl2)) by (apply Rmult_le_pos; [apply Rmult_le_pos|]; lra). nra.
  - apply Rminus_le.
    replace (cl - 4 * t * ((cl + r) * (cl + r) - (r * r + 2 * r * (cl + 2 * cl2))) * i - (cl + 2 * cl2))
      with (- (i * (2 * cl2 * D + 4 * t * ((cl + r) * (cl + r) - (r * r + 2 * r * (cl + 2 * cl2))))) - 2 * cl2 * (1 - D * i)) by ring.
    rewrite U. assert (0 <= i * (2 * cl2 * D + 4 * t * ((cl + r) * (cl + r) - (r * r + 2 * r * (cl + 2 * cl2))))) as W; [|lra].
    apply Rmult_le_pos; [lra|].
    replace (2 * cl2 * D + 4 * t * ((cl + r) * (cl + r) - (r * r + 2 * r * (cl + 2 * cl2))))
      with (2 * cl2 * (1 + e - 4 * (r * t)) + 4 * t * (2 * cl2 * cl + cl * cl)) by (unfold D; ring).
    assert (0 <= cl2 * (1 + e - 4 * (r * t))) by (apply Rmult_le_pos; lra).
    assert (0 <= t * (2 * cl2 * cl + cl * cl)) by (apply Rmult_le_pos; nra). lra.
Qed.
(** both species stay nonnegative, for every position and step *)
Theorem C100_positive : forall lat lon cl cl2 dt, 0 <= cl -> 0 <= cl2 -> 0 <= dt ->
  let f := tendency lat lon cl cl2 dt in 0 <= cl + dt * fst f /\ 0 <= cl2 + dt * snd f.
Proof.
  intros lat lon cl cl2 dt C C2 T. unfold tendency. cbv zeta. cbn [fst snd]. set (a := k1 _ _).
  assert (0 <= a <= 1) as (A0 & A1) by apply k1_range.
  assert (0 <= cl + dt * cl_rate a k2 cl cl2 dt <= cl + 2 * cl2) as (L & U).
  { destruct A0 as [A|A].
    - destruct (Rlt_dec (/ 10 ^ 16) (det (ratio a k2) (cl + 2 * cl2) * k2 * dt)) as [H|H].
      + assert (0 < dt) as T2. { destruct T as [T|T]; [exact T|]. subst dt. rewrite Rmult_0_r in H. pose proof (Rinv_0_lt_compat (10 ^ 16) ltac:(apply pow_lt; lra)). lra. }
        rewrite rate_flow by (unfold k2 in *; assumption || lra). apply flow_bounds; unfold k2; lra.
      + apply small_bounds; unfold k2 in *; lra.
    - rewrite <- A. rewrite dark_rate by (unfold k2; lra). unfold dark. pose proof (dark_den k2 cl ltac:(unfold k2; lra) C dt T) as P.
      assert (0 < / (1 + 2 * k2 * cl * dt) <= 1) as (I1 & I2). { split; [apply Rinv_0_lt_compat, P|]. rewrite <- Rinv_1. apply Rinv_le_contravar; [lra|].
        unfold k2. assert (0 <= cl * dt) by nra. lra. }
      unfold Rdiv. split; nra. }
  split; [exact L|]. set (f := cl_rate a k2 cl cl2 dt) in *. replace (dt * (- f / 2)) with (- (dt * f) / 2) by field. lra.
Qed.
Print Assumptions C100_positive.

(** the initial values are nonnegative, carry the prescribed chlorine and are
    at equilibrium: the reaction and the tendencies vanish *)
Theorem C100_equilibrium : forall lat lon dt, 0 <= dt ->
  let v := initial_value lat lon in let f := tendency lat lon (fst v) (snd v) dt in
  0 <= fst v /\ 0 <= snd v /\ fst v + 2 * snd v = 4 / 1000000 /\
  reaction (k1 (lat * degrees) (lon * degrees)) k2 (fst v) (snd v) = 0 /\ fst f = 0 /\ snd f = 0.
Proof.
  intros lat lon dt T. unfold initial_value. cbv zeta. set (a := k1 _ _). assert (0 <= a <= 1) as (A0 & A1) by apply k1_range.
  cbn [fst snd]. set (r := ratio a k2). assert (r = a / 4) as Hr by (unfold r, ratio, k2; field). assert (0 <= r) as R0 by lra.
  replace (r * r + 2 * cly_constant * r) with (r * r + 2 * r * cly_constant) by ring.
  set (d := sqrt (r * r + 2 * r * cly_constant)). assert (0 <= r * r + 2 * r * cly_constant) as P by (unfold cly_constant; nra).
  assert (d * d = r * r + 2 * r * cly_constant) as Q by (apply sqrt_sqrt, P). assert (0 <= d) as D0 by apply sqrt_pos.
  assert (r <= d) as G by (unfold cly_constant in *; nra). assert (d <= r + cly_constant) as U by (unfold cly_constant in *; nra).
  split; [lra|]. split; [lra|]. split; [unfold cly_constant; field|].
  split. { unfold reaction, k2. rewrite (ltac:(lra) : a = 4 * r). replace (2 * 1 * (d - r) * (d - r)) with (2 * (d * d) - 4 * r * d + 2 * r * r) by ring. rewrite Q. field. }
  assert (cl_rate a k2 (d - r) (cly_constant / 2 - (d - r) / 2) dt = 0) as Z0.
  { unfold cl_rate. cbv zeta. fold r. replace (d - r + 2 * (cly_constant / 2 - (d - r) / 2)) with cly_constant by field.
    unfold det. fold d. unfold Rdiv. replace (d - r - d + r) with 0 by ring. ring. }
  unfold tendency. cbv zeta. cbn [fst snd]. fold a. rewrite Z0. split; [reflexivity|field].
Qed.
Print Assumptions C100_equilibrium.

(** a step approaches equilibrium without passing it *)
Theorem C100_monotone : forall a b cl cl2 dt, 0 < a -> 0 < b -> 0 <= cl -> 0 <= cl2 -> 0 < dt ->
  let r := ratio a b in let d := det r (cl + 2 * cl2) in / 10 ^ 16 < d * b * dt ->
  reaction a b (d - r) ((cl + 2 * cl2 - (d - r)) / 2) = 0 /\
  exists q, 0 < q <= 1 /\ cl + dt * cl_rate a b cl cl2 dt - (d - r) = q * (cl - (d - r)).
Proof.
  intros a b cl cl2 dt A B C C2 T. cbv zeta. intros H. pose proof (d_sqr a b cl cl2 A B C C2) as Q. pose proof (a_is a b B) as Aa. split.
  - unfold reaction. set (r := ratio a b) in *. set (d := det r (cl + 2 * cl2)) in *. rewrite Aa.
    replace (2 * b * (d - r) * (d - r)) with (2 * b * (d * d - 2 * d * r + r * r)) by ring. rewrite Q. field.
  - rewrite rate_flow by assumption. apply flow_distance; try assumption. lra.
Qed.
Print Assumptions C100_monotone.

(** two steps in a row are one long step *)
Theorem C100_compose : forall a b cl cl2 s t, 0 < a -> 0 < b -> 0 <= cl -> 0 <= cl2 -> 0 < s -> 0 < t ->
  let d := det (ratio a b) (cl + 2 * cl2) in / 10 ^ 16 < d * b * s -> / 10 ^ 16 < d * b * t ->
  let x := cl + s * cl_rate a b cl cl2 s in let y := cl2 - s * cl_rate a b cl cl2 s / 2 in
  x + t * cl_rate a b x y t = cl + (s + t) * cl_rate a b cl cl2 (s + t).
Proof.
  intros a b cl cl2 s t A B C C2 Hs Ht. cbv zeta. intros H1 H2.
  pose proof (rate_flow a b cl cl2 A B C C2 s Hs H1) as F1.
  pose proof (flow_bounds a b cl cl2 A B C C2 s ltac:(lra)) as (L & U). rewrite <- F1 in L, U.
  set (x := cl + s * cl_rate a b cl cl2 s) in *.
  assert (cl2 - s * cl_rate a b cl cl2 s / 2 = (cl + 2 * cl2 - x) / 2) as -> by (unfold x; field).
  set (y := (cl + 2 * cl2 - x) / 2). assert (x + 2 * y = cl + 2 * cl2) as XY by (unfold y; field).
  assert (0 <= y) as Y by (unfold y; lra).
  rewrite (rate_flow a b x y A B L Y t Ht) by (rewrite XY; exact H2).
  assert (/ 10 ^ 16 < det (ratio a b) (cl + 2 * cl2) * b * (s + t)) as H3.
  { pose proof (Rinv_0_lt_compat (10 ^ 16) ltac:(apply pow_lt; lra)). lra. }
  rewrite (rate_flow a b cl cl2 A B C C2 (s + t) ltac:(lra) H3).
  pose proof (d_ge a b cl cl2 A B C C2) as G. pose proof (r_pos a b A B) as R0.
  pose proof (exp_range a b cl cl2 A B C C2 s ltac:(lra)) as (E1 & E2). pose proof (exp_range a b cl cl2 A B C C2 t ltac:(lra)) as (E3 & E4).
  pose proof (den_pos a b cl cl2 A B C C2 (exp (-4 * b * det (ratio a b) (cl + 2 * cl2) * s)) ltac:(lra)) as P1.
  pose proof (den_pos a b x y A B L Y (exp (-4 * b * det (ratio a b) (cl + 2 * cl2) * t)) ltac:(lra)) as P2.
  unfold flow. cbv zeta. rewrite XY in *.
  replace (-4 * b * det (ratio a b) (cl + 2 * cl2) * (s + t)) with (-4 * b * det (ratio a b) (cl + 2 * cl2) * s + -4 * b * det (ratio a b) (cl + 2 * cl2) * t) by ring.
  rewrite exp_plus. 
  assert (0 < exp (-4 * b * det (ratio a b) (cl + 2 * cl2) * s) * exp (-4 * b * det (ratio a b) (cl + 2 * cl2) * t) <= 1) as E5 by nra.
  pose proof (den_pos a b cl cl2 A B C C2 _ (conj (Rlt_le _ _ (proj1 E5)) (proj2 E5))) as P3.
  unfold flow in F1. cbv zeta in F1.
  set (r := ratio a b) in *. set (d := det r (cl + 2 * cl2)) in *.
  set (e := exp (-4 * b * d * s)) in *. set (g := exp (-4 * b * d * t)) in *.
  assert (x + r = d * (cl + r + d + (cl + r - d) * e) / (cl + r + d - (cl + r - d) * e)) as Xr by lra.
  rewrite Xr in *. set (u := cl + r) in *. f_equal. clearbody u d e g. clear Xr XY F1 L U H1 H2 H3 Y.
  assert (u + d - (u - d) * e <> 0) by lra. assert (u + d - (u - d) * (e * g) <> 0) by lra.
  field. repeat split; try lra.
  - replace (d * (u + d + (u - d) * e) + d * (u + d - (u - d) * e) - (d * (u + d + (u - d) * e) - d * (u + d - (u - d) * e)) * g)
      with (2 * d * (u + d - (u - d) * (e * g))) by ring. apply Rmult_integral_contrapositive_currified; lra.
Qed.
Print Assumptions C100_compose.

(** the wrapper: in one cell the chlorine mass is unchanged and both tracers
    stay nonnegative *)
Lemma cell_mass dt lat lon rho a b : let v := cell dt lat lon rho a b in fst v + 2 * snd v = a + 2 * b.
Proof.
  unfold cell. cbv zeta. cbn [fst snd]. set (f := tendency _ _ _ _ _). pose proof (C100_conserves (lat * 180 / PI) (lon * 180 / PI) (a / rho) (b / rho) dt) as H.
  cbv zeta in H. fold f in H. replace (a + dt * rho * fst f + 2 * (b + dt * rho * snd f)) with (a + 2 * b + dt * rho * (fst f + 2 * snd f)) by ring. rewrite H. ring.
Qed.
Lemma cell_positive dt lat lon rho a b : 0 <= dt -> 0 < rho -> 0 <= a -> 0 <= b -> let v := cell dt lat lon rho a b in 0 <= fst v /\ 0 <= snd v.
Proof.
  intros T R0 A B. unfold cell. cbv zeta. cbn [fst snd].
  assert (forall x, 0 <= x -> 0 <= x / rho) as Q by (intros x X; apply Rmult_le_pos; [exact X|left; apply Rinv_0_lt_compat, R0]).
  destruct (C100_positive (lat * 180 / PI) (lon * 180 / PI) (a / rho) (b / rho) dt (Q a A) (Q b B) T) as (L & U). set (f := tendency _ _ _ _ _) in *.
  apply (Rmult_le_compat_l rho) in L; [|lra]. apply (Rmult_le_compat_l rho) in U; [|lra]. rewrite Rmult_0_r in L, U.
  replace (rho * (a / rho + dt * fst f)) with (a + dt * rho * fst f) in L by (field; lra).
  replace (rho * (b / rho + dt * snd f)) with (b + dt * rho * snd f) in U by (field; lra). split; assumption.
Qed.
(** whatever cells are visited, in whatever order and however often *)
Theorem C101_run : forall dt rho l s, 0 <= dt -> (forall n, 0 < rho n) -> (forall n, 0 <= m1 s n /\ 0 <= m2 s n) ->
  let s' := perform dt rho l s in
  forall n, m1 s' n + 2 * m2 s' n = m1 s n + 2 * m2 s n /\ 0 <= m1 s' n /\ 0 <= m2 s' n /\
    ((forall p, In p l -> fst p <> n) -> m1 s' n = m1 s n /\ m2 s' n = m2 s n).
Proof.
  intros dt rho l s T R0. cbv zeta. unfold perform. revert s. induction l as [|[m [lat lon]] l IH]; intros s P n.
  - cbn. destruct (P n). repeat split; try assumption.
  - cbn [fold_left]. set (s1 := visit_cell dt rho s (m, (lat, lon))).
    assert (forall n, m1 s1 n + 2 * m2 s1 n = m1 s n + 2 * m2 s n) as S1.
    { intros x. unfold s1, visit_cell, put. cbn [m1 m2]. destruct (Nat.eqb_spec x m) as [->|]; [apply cell_mass|reflexivity]. }
    assert (forall n, 0 <= m1 s1 n /\ 0 <= m2 s1 n) as S2.
    { intros x. unfold s1, visit_cell, put. cbn [m1 m2]. destruct (Nat.eqb_spec x m) as [->|]; [|apply P]. destruct (P m). apply cell_positive; auto. }
    destruct (IH s1 S2 n) as (I1 & I2 & I3 & I4). rewrite I1, S1. repeat split; try assumption; try (apply I4; intros; apply H; now right).
    + rewrite (proj1 (I4 (fun p I => H p (or_intror I)))). unfold s1, visit_cell, put. cbn [m1]. destruct (Nat.eqb_spec n m) as [->|]; [|reflexivity].
      exfalso. exact (H _ (or_introl eq_refl) eq_refl).
    + rewrite (proj2 (I4 (fun p I => H p (or_intror I)))). unfold s1, visit_cell, put. cbn [m2]. destruct (Nat.eqb_spec n m) as [->|]; [|reflexivity].
      exfalso. exact (H _ (or_introl eq_refl) eq_refl).
Qed.
Print Assumptions C101_run.

(** the loop indexes level, alpha, beta although the storage is alpha, beta,
    level: with more levels than nodes along alpha the last tracer is written
    outside the array; and within the array a node is its own entry only if
    all three indices are equal *)
Theorem C101_index_refuted : forall nA nB nR i j k : Z, (0 < nA)%Z -> (0 < nB)%Z -> (0 < nR)%Z -> (0 <= i < nA)%Z -> (0 <= j < nB)%Z -> (0 <= k < nR)%Z ->
  ((nA <= k)%Z -> (5 * nA * nB * nR <= visit nA nB nR 4 i j k)%Z) /\
  ((k < nA)%Z -> (i < nB)%Z -> (j < nR)%Z -> (visit nA nB nR 4 i j k = offset nA nB nR 4 i j k <-> i = k /\ j = i)).
Proof.
  intros nA nB nR i j k A B R0 I J K. unfold visit, offset. split.
  - intros H. replace (5 * nA * nB * nR)%Z with (((4 * nA + nA) * nB + 0) * nR + 0)%Z by ring.
    apply Z.add_le_mono; [|lia]. apply Z.mul_le_mono_nonneg_r; [lia|]. apply Z.add_le_mono; [|lia]. apply Z.mul_le_mono_nonneg_r; lia.
  - intros H1 H2 H3. split; [|intros (-> & ->); reflexivity]. intros E.
    assert (((4 * nA + k) * nB + i) = ((4 * nA + i) * nB + j) /\ j = k)%Z as (E1 & E2).
    { assert (nR * ((4 * nA + k) * nB + i) + j = nR * ((4 * nA + i) * nB + j) + k)%Z as F by lia.
      destruct (Z.div_mod_unique nR _ _ j k (or_introl (conj (proj1 J) H3)) (or_introl K) F) as (F1 & F2). split; assumption. }
    assert (nB * (4 * nA + k) + i = nB * (4 * nA + i) + j)%Z as F by lia.
    destruct (Z.div_mod_unique nB _ _ i j (or_introl (conj (proj1 I) H2)) (or_introl J) F) as (F1 & F2). lia.
Qed.
Print Assumptions C101_index_refuted.
(** thirty levels on a patch of six by six nodes *)
Example C101_case : (0 <= 4 < 6)%Z /\ (0 <= 29 < 30)%Z /\ (5 * 6 * 6 * 30 <= visit 6 6 30 4 4 4 29)%Z.
Proof. repeat split; try lia. vm_compute. discriminate. Qed.
(** the degrees given to the chemistry are the radians of the grid *)
Theorem C101_degrees : forall x, x * 180 / PI * degrees = x.
Proof. intros x. unfold degrees. pose proof PI_RGT_0. field. lra. Qed.
Print Assumptions C101_degrees.
(** the light: the cosine of the angle to the point at 20 N, 300 E, zero on the
    other hemisphere *)
Theorem C100_source : forall lat lon,
  k1 lat lon = Rmax 0 (dot3 (direction lat lon) (direction (PI / 9) (5 * PI / 3))) /\
  k1 (PI / 9) (5 * PI / 3) = 1.
Proof.
  assert (forall lat lon, k1 lat lon = Rmax 0 (dot3 (direction lat lon) (direction (PI / 9) (5 * PI / 3)))) as E.
  { intros lat lon. unfold k1, dot3, direction. rewrite Rmult_1_l, cos_minus.
    replace lat_center with (PI / 9) by (unfold lat_center, degrees; field).
    replace lon_center with (5 * PI / 3) by (unfold lon_center, degrees; field). f_equal. ring. }
  intros lat lon. split; [apply E|]. rewrite E. unfold dot3, direction.
  pose proof (sin2_cos2 (PI / 9)) as A. pose proof (sin2_cos2 (5 * PI / 3)) as B. unfold Rsqr in A, B.
  set (x := cos (PI / 9)) in *. set (u := sin (PI / 9)) in *. set (y := cos (5 * PI / 3)) in *. set (v := sin (5 * PI / 3)) in *.
  replace (x * y * (x * y) + x * v * (x * v) + u * u) with (x * x * (v * v + y * y) + u * u) by ring.
  rewrite B. replace (x * x * 1 + u * u) with (u * u + x * x) by ring. rewrite A. apply Rmax_right. lra.
Qed.
Print Assumptions C100_source.
Example C100_case : exists cl cl2 dt, 0 < cl /\ 0 < cl2 /\ 0 < dt /\ / 10 ^ 16 < det (ratio 1 1) (cl + 2 * cl2) * 1 * dt.
Proof.
  exists 1, 1, 1. repeat (split; [lra|]). unfold ratio, det. replace (1 / (4 * 1) * (1 / (4 * 1)) + 2 * (1 / (4 * 1)) * (1 + 2 * 1)) with ((5 / 4) * (5 / 4)) by field.
  rewrite sqrt_square by lra. apply (Rmult_lt_reg_r (10 ^ 16)); [apply pow_lt; lra|]. rewrite Rinv_l by (apply pow_nonzero; lra). lra.
Qed.
