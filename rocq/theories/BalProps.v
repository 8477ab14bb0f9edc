(** * C111, C112: the initial states on the sphere *)
From Coq Require Import Reals List Lra.
From Verif Require Import PhysModel PhysSpec PhysProps InitModel InitSpec InitProps DlimProofs BalModel BalSpec BalProofs.
Import ListNotations.
Local Open Scope R_scope.

(** a column of states [st] is hydrostatic at [z], with the temperature [t] there *)
Definition at_rest (c : constants) (st : R -> state) (t z : R) : Prop :=
  hydrostatic (g c) (fun z => pressure c (st z)) (fun z => srho (st z)) z /\
  pressure c (st z) = srho (st z) * gas c * t /\ 0 < srho (st z) /\ 0 < stheta (st z) /\ sw (st z) = 0.
(** a meridian of states is in gradient wind balance at [lat] *)
Definition zonal (c : constants) (st : R -> state) (lat : R) : Prop :=
  gradient_wind (earth_radius c) (omega c) (su (st lat)) (srho (st lat)) (fun l => pressure c (st l)) lat /\ sv (st lat) = 0.
(** constants after any setters, with usable values *)
Definition usable (c : constants) : Prop :=
  (exists k y s l, c = sets l (construct k y s)) /\ 0 < gas c /\ gas c < cp c /\ 0 < p0 c /\ 0 < g c /\ 0 < earth_radius c.

Local Lemma inv c : usable c -> forall p, 0 < p -> 0 < rhotheta_from_pressure c p /\ poisson (gas c) (cp c) (p0 c) (rhotheta_from_pressure c p) = p.
Proof. intros ((k & y & s & l & ->) & H1 & H2 & H3 & _). apply reachable; assumption. Qed.
Local Lemma rest c (u p t : R -> R) z T' : usable c -> (forall y, 0 < p y) -> derivable_pt_lim t z T' -> 0 < t z ->
  derivable_pt_lim p z (- p z * g c / (gas c * t z)) -> at_rest c (fun y => from_pressure c (u y) (p y) (t y)) (t z) z.
Proof.
  intros U P HT Pt HD. pose proof (inv c U) as I. destruct U as (_ & H1 & H2 & H3 & H4 & H5). unfold at_rest.
  split; [exact (hydro_from c H1 I u p t z T' P HT Pt HD)|].
  split; [exact (of_pressure_gas c H1 I (u z) (p z) (t z) (P z) Pt)|].
  destruct (of_pressure_pos c H1 I (u z) (p z) (t z) (P z) Pt) as (A & B). split; [exact A|]. split; [exact B|reflexivity].
Qed.
Local Lemma zon c (u p t : R -> R) lat D T' : usable c -> (forall y, 0 < p y) -> derivable_pt_lim t lat T' -> 0 < t lat ->
  derivable_pt_lim p lat D ->
  u lat * u lat * tan lat + 2 * omega c * sin lat * u lat * earth_radius c + D / p lat * gas c * t lat = 0 ->
  zonal c (fun y => from_pressure c (u y) (p y) (t y)) lat.
Proof.
  intros U P HT Pt HD E. pose proof (inv c U) as I. destruct U as (_ & H1 & H2 & H3 & H4 & H5). split; [|reflexivity].
  apply (grad_from c H1 I (u lat) p t u lat D T' P HT Pt HD); [lra|exact E].
Qed.
Local Lemma wave_from c t0 u0 z lat : gas c <> 0 -> t0 <> 0 -> g c <> 0 ->
  wave_state c t0 u0 z lat = from_pressure c (u0 * cos lat) (wave_pressure c t0 u0 z lat) t0.
Proof.
  intros H1 H2 H3. unfold wave_state, from_pressure. cbv zeta.
  assert (g c * wave_h c t0 = gas c * t0) as -> by (unfold wave_h; field; exact H3). reflexivity.
Qed.
Local Lemma sc2 a lat : 0 < cos lat -> (a * cos lat) * (a * cos lat) * tan lat = a * a * (sin lat * cos lat).
Proof. intros H. unfold tan. field. lra. Qed.

(** ** C111: hydrostatic balance and the equation of state *)
Theorem C111_rossby : forall c pp t0 u0 z lat, usable c -> 0 < pp -> 0 < t0 ->
  at_rest c (fun z => rossby_state c pp t0 u0 z lat) t0 z /\
  (lat = PI / 2 \/ lat = - (PI / 2) -> pressure c (rossby_state c pp t0 u0 0 lat) = pp).
Proof.
  intros c pp t0 u0 z lat U Hp Ht. pose proof U as (_ & H1 & H2 & H3 & H4 & H5). split.
  - apply (rest c (fun _ => u0 * cos lat) (fun z => rossby_pressure c pp t0 u0 z lat) (fun _ => t0) z 0 U).
    + intros y. apply rossby_pos, Hp.
    + apply D_const.
    + exact Ht.
    + apply rossby_dz; lra.
  - intros L. unfold rossby_state. change (pressure c) with (press_of c). rewrite (of_pressure c H1 (inv c U)) by (try apply rossby_pos; assumption).
    unfold rossby_pressure. assert (sin lat * sin lat = 1) as -> by (destruct L as [-> | ->]; rewrite ?sin_neg, sin_PI2; ring).
    rewrite Rmult_0_r. unfold Rdiv. replace (- u0 * / (2 * gas c * t0) * (1 - 1) * (u0 + 2 * omega c * earth_radius c) - 0 * / (gas c * t0)) with 0 by ring. rewrite exp_0. ring.
Qed.
Print Assumptions C111_rossby.
Theorem C111_wave : forall c t0 u0 z lat, usable c -> 0 < t0 -> at_rest c (fun z => wave_state c t0 u0 z lat) t0 z.
Proof.
  intros c t0 u0 z lat U Ht. pose proof U as (_ & H1 & H2 & H3 & H4 & H5).
  assert (forall y, wave_state c t0 u0 y lat = from_pressure c (u0 * cos lat) (wave_pressure c t0 u0 y lat) t0) as E by (intros; apply wave_from; lra).
  pose proof (rest c (fun _ => u0 * cos lat) (fun z => wave_pressure c t0 u0 z lat) (fun _ => t0) z 0 U) as (A & B & C & D & F).
  - intros y. apply wave_pos, H3.
  - apply D_const.
  - exact Ht.
  - apply wave_dz; lra.
  - unfold at_rest. rewrite !E. split; [|split; [exact B|split; [exact C|split; [exact D|exact F]]]].
    unfold hydrostatic in *. rewrite E. eapply D_ext; [|exact A]. intros y. cbv beta. rewrite E. reflexivity.
Qed.
Print Assumptions C111_wave.
Theorem C111_schar : forall c teq ueq cs z lat, usable c -> 0 < teq -> cs * (ueq * ueq) < g c -> 0 <= cs ->
  at_rest c (fun z => schar_state c teq ueq cs z lat) (teq * (1 - cs * (ueq * ueq) / g c * (sin lat * sin lat))) z /\
  0 < teq * (1 - cs * (ueq * ueq) / g c * (sin lat * sin lat)) <= teq.
Proof.
  intros c teq ueq cs z lat U Ht Hs H0. pose proof U as (_ & H1 & H2 & H3 & H4 & H5).
  assert (schar_t c teq ueq cs lat = teq * (1 - cs * (ueq * ueq) / g c * (sin lat * sin lat))) as E by (unfold schar_t; field; lra).
  assert (0 <= sin lat * sin lat <= 1) as S by (pose proof (sin2_cos2 lat) as X; unfold Rsqr in X; pose proof (Rle_0_sqr (cos lat)); pose proof (Rle_0_sqr (sin lat)); unfold Rsqr in *; lra).
  assert (0 <= cs * (ueq * ueq) / g c < 1) as Q.
  { split; [apply Rmult_le_pos; [apply Rmult_le_pos; [exact H0|apply Rle_0_sqr]|left; apply Rinv_0_lt_compat, H4]|].
    apply (Rmult_lt_reg_r (g c)); [exact H4|]. unfold Rdiv. rewrite Rmult_assoc, Rinv_l by lra. lra. }
  assert (0 < teq * (1 - cs * (ueq * ueq) / g c * (sin lat * sin lat)) <= teq) as P by (set (a := cs * (ueq * ueq) / g c) in *; set (b := sin lat * sin lat) in *; assert (0 <= a * b) by (apply Rmult_le_pos; lra); assert (a * b <= a * 1) by (apply Rmult_le_compat_l; lra); split; [apply Rmult_lt_0_compat; lra|]; rewrite <- (Rmult_1_r teq) at 2; apply Rmult_le_compat_l; lra).
  split; [|exact P]. rewrite <- E in *.
  apply (rest c (fun z => schar_u c teq ueq cs z lat) (fun z => schar_pressure c teq ueq cs z lat) (fun _ => schar_t c teq ueq cs lat) z 0 U).
  - intros y. apply schar_pos, H3.
  - apply D_const.
  - lra.
  - apply schar_dz; lra.
Qed.
Print Assumptions C111_schar.
Local Lemma kap c : usable c -> kappa c = gas c / cp c.
Proof. intros ((k & y & s & l & ->) & _). apply C38_cached. Qed.
(** the inertia-gravity wave: defined wherever surface and air temperature are
    positive, and of the given buoyancy frequency *)
Theorem C111_inert : forall c u0 n teq z lat, usable c -> n <> 0 -> 0 < teq ->
  0 < inert_ts c u0 n teq lat -> 0 < inert_t c u0 n teq z lat ->
  (forall z, inert_state c u0 n teq z lat <> None) /\
  exists st, (forall z, inert_state c u0 n teq z lat = Some (st z)) /\ at_rest c st (inert_t c u0 n teq z lat) z /\
    inert_t c u0 n teq 0 0 = teq /\ pressure c (st 0) = inert_ps c u0 n teq lat /\ inert_ps c u0 n teq 0 = p0 c.
Proof.
  intros c u0 n teq z lat U Hn Ht H6 H7. pose proof U as (_ & H1 & H2 & H3 & H4 & H5).
  assert (forall z, inert_state c u0 n teq z lat = Some (from_pressure c (u0 * cos lat) (inert_pressure c u0 n teq z lat) (inert_t c u0 n teq z lat))) as E.
  { intros y. unfold inert_state. destruct Rlt_dec as [L|_]; [|reflexivity]. pose proof (inert_pos c u0 n teq y lat H3). lra. }
  split; [intros y; rewrite E; discriminate|].
  exists (fun z => from_pressure c (u0 * cos lat) (inert_pressure c u0 n teq z lat) (inert_t c u0 n teq z lat)).
  split; [exact E|].
  assert (forall l, inert_t c u0 n teq 0 l = inert_ts c u0 n teq l) as E0.
  { intros l. unfold inert_t. rewrite Rmult_0_r. unfold Rdiv. rewrite Rmult_0_l, exp_0. ring. }
  assert (inert_ts c u0 n teq 0 = teq) as E1.
  { unfold inert_ts. rewrite Rmult_0_r, cos_0. rewrite (Rminus_diag_eq 1 1) by reflexivity. rewrite Rmult_0_r, exp_0. ring. }
  split; [|split; [|split]].
  - apply (rest c (fun _ => u0 * cos lat) (fun z => inert_pressure c u0 n teq z lat) (fun z => inert_t c u0 n teq z lat) z
             ((inert_ts c u0 n teq lat - inert_g c n) * (exp (n * n * z / g c) * (n * n / g c))) U).
    + intros y. apply inert_pos, H3.
    + unfold inert_t. dlim; [lra|]. field. lra.
    + exact H7.
    + apply (inert_dz c u0 n teq H1 H2); try assumption; [lra|apply kap, U].
  - rewrite E0. exact E1.
  - change (pressure c) with (press_of c). rewrite (of_pressure c H1 (inv c U)); [|apply inert_pos, H3|rewrite E0; exact H6].
    unfold inert_pressure. assert (inert_vert c u0 n teq 0 lat = 1) as ->.
    { unfold inert_vert. rewrite Rmult_0_r. unfold Rdiv at 2. rewrite Rmult_0_l, exp_0. ring. }
    unfold Rpower. rewrite ln_1, Rmult_0_r, exp_0. ring.
  - unfold inert_ps. rewrite E1. rewrite Rmult_0_r, cos_0. rewrite (Rminus_diag_eq 1 1) by reflexivity. rewrite Rmult_0_r, exp_0.
    replace (teq / teq) with 1 by (field; lra). unfold Rpower. rewrite ln_1, Rmult_0_r, exp_0. ring.
Qed.
Print Assumptions C111_inert.
(** constant lapse rate *)
Theorem C111_still : forall c t0 gam z, usable c -> 0 < t0 -> gam <> 0 -> gam * z < t0 ->
  at_rest c (still_state c t0 gam) (t0 - gam * z) z /\ pressure c (still_state c t0 gam 0) = p0 c /\ su (still_state c t0 gam z) = 0.
Proof.
  intros c t0 gam z U Ht Hg Hz. pose proof U as (_ & H1 & H2 & H3 & H4 & H5). split; [|split; [|reflexivity]].
  - apply (rest c (fun _ => 0) (still_pressure c t0 gam) (fun z => t0 - gam * z) z (- gam) U).
    + intros y. apply still_pos, H3.
    + dlim. ring.
    + lra.
    + apply still_dz; try lra. replace (1 - gam / t0 * z) with ((t0 - gam * z) / t0) by (field; lra). apply Rdiv_lt_0_compat; lra.
  - unfold still_state. rewrite Rmult_0_r, Rminus_0_r. change (pressure c) with (press_of c).
    rewrite (of_pressure c H1 (inv c U)) by (try apply still_pos; assumption).
    unfold still_pressure. rewrite Rmult_0_r, Rminus_0_r. unfold Rpower. rewrite ln_1, Rmult_0_r, exp_0. ring.
Qed.
Print Assumptions C111_still.
(** the gravity wave of Baldauf: reference state, and an initial state of the same
    pressure with the temperature disturbance put into it exactly *)
Theorem C111_baldauf : forall c t0 mag ztop z lat, usable c -> 0 < t0 ->
  at_rest c (baldauf_reference c t0) t0 z /\
  (0 < t0 + mag * exp (- (100 * (lat * lat))) * sin (PI * z / ztop) ->
   pressure c (baldauf_state c t0 mag ztop z lat) = pressure c (baldauf_reference c t0 z) /\
   pressure c (baldauf_state c t0 mag ztop z lat) = srho (baldauf_state c t0 mag ztop z lat) * gas c * (t0 + mag * exp (- (100 * (lat * lat))) * sin (PI * z / ztop)) /\
   su (baldauf_state c t0 mag ztop z lat) = 0 /\ sv (baldauf_state c t0 mag ztop z lat) = 0 /\ sw (baldauf_state c t0 mag ztop z lat) = 0).
Proof.
  intros c t0 mag ztop z lat U Ht. pose proof U as (_ & H1 & H2 & H3 & H4 & H5). split.
  - apply (rest c (fun _ => 0) (baldauf_pressure c t0) (fun _ => t0) z 0 U); [intros; apply baldauf_pos, H3|apply D_const|exact Ht|apply baldauf_dz; lra].
  - intros P. pose proof (baldauf_pos c t0 z H3) as Q.
    assert (baldauf_state c t0 mag ztop z lat = from_pressure c 0 (baldauf_pressure c t0 z) (t0 + mag * exp (- (100 * (lat * lat))) * sin (PI * z / ztop))) as ->.
    { unfold baldauf_state. cbv zeta. f_equal. replace (- (100) * lat * lat) with (- (100 * (lat * lat))) by ring. field. repeat split; lra. }
    change (pressure c) with (press_of c). unfold baldauf_reference. rewrite !(of_pressure c H1 (inv c U)) by assumption.
    split; [reflexivity|]. split; [|split; [reflexivity|split; reflexivity]]. cbn [srho from_pressure]. field. lra.
Qed.
Print Assumptions C111_baldauf.
(** the shallow-atmosphere baroclinic wave.  At the ground its temperature runs from
    that of the equator to, at most, that of the pole, and the pressure is p0 *)
Local Lemma young th a : 0 <= th <= 1 -> exp (th * a) <= th * exp a + (1 - th).
Proof.
  intros H. assert (forall t, 1 + t <= exp t) as E.
  { intros t. destruct (Req_dec t 0) as [-> |N]; [rewrite exp_0; lra|left; apply exp_ineq1, N]. }
  pose proof (E ((1 - th) * a)) as A. pose proof (E (- (th * a))) as B. pose proof (exp_pos (th * a)) as P.
  assert (exp a = exp (th * a) * exp ((1 - th) * a)) as -> by (rewrite <- exp_plus; f_equal; ring).
  assert (1 = exp (th * a) * exp (- (th * a))) as O by (rewrite <- exp_plus, Rplus_opp_r, exp_0; reflexivity).
  assert (exp (th * a) * (1 + (1 - th) * a) <= exp (th * a) * exp ((1 - th) * a)) as A' by (apply Rmult_le_compat_l; lra).
  assert (exp (th * a) * (1 - th * a) <= exp (th * a) * exp (- (th * a))) as B' by (apply Rmult_le_compat_l; lra).
  rewrite <- O in B'. set (x := exp (th * a)) in *. set (w := exp ((1 - th) * a)) in *.
  assert (th * (x * (1 + (1 - th) * a)) <= th * (x * w)) by (apply Rmult_le_compat_l; lra).
  assert ((1 - th) * (x * (1 - th * a)) <= (1 - th) * 1) by (apply Rmult_le_compat_l; lra). lra.
Qed.
Local Lemma interior_range q lat : 0 < cos lat -> 0 < pk q -> 0 <= um_interior q lat <= 2 / (pk q + 2).
Proof.
  intros Hc Hk. unfold um_interior. rewrite Rmult_1_l. set (x := cos lat) in *. assert (x <= 1) as X by apply COS_bound.
  assert (ln x <= 0) as L by (destruct X as [X| ->]; [left; rewrite <- ln_1; apply ln_increasing; assumption|rewrite ln_1; lra]).
  assert (pk q / (pk q + 2) * (pk q + 2) = pk q) as K by (field; lra).
  assert (0 < pk q / (pk q + 2) < 1) as T.
  { split; [apply Rdiv_lt_0_compat; lra|]. apply (Rmult_lt_reg_r (pk q + 2)); [lra|]. rewrite K. lra. }
  split.
  - assert (Rpower x (pk q + 2) <= Rpower x (pk q)) as M.
    { unfold Rpower. assert ((pk q + 2) * ln x <= pk q * ln x) as [A|A] by lra; [left; apply exp_increasing, A|rewrite A; lra]. }
    pose proof (Rpower_pos x (pk q + 2)). set (y := Rpower x (pk q + 2)) in *. set (th := pk q / (pk q + 2)) in *.
    assert (th * y <= 1 * y) by (apply Rmult_le_compat_r; lra). lra.
  - pose proof (young (pk q / (pk q + 2)) ((pk q + 2) * ln x) ltac:(lra)) as Y.
    replace (pk q / (pk q + 2) * ((pk q + 2) * ln x)) with (pk q * ln x) in Y by (field; lra).
    fold (Rpower x (pk q)) in Y. fold (Rpower x (pk q + 2)) in Y.
    replace (2 / (pk q + 2)) with (1 - pk q / (pk q + 2)) by (field; lra). lra.
Qed.
Local Lemma inv_le a b : 0 < a -> a <= b -> 1 / b <= 1 / a.
Proof. intros H1 H2. unfold Rdiv. rewrite !Rmult_1_l. apply Rinv_le_contravar; assumption. Qed.
Theorem C111_surface : forall c q lat, 0 < t0p q -> t0p q <= t0e q -> 0 < pk q -> lapse q <> 0 -> 0 < cos lat ->
  t0p q <= um_temperature c q 0 lat <= t0e q /\ (lat = 0 -> um_temperature c q 0 lat = t0e q).
Proof.
  intros c q lat H1 H2 H3 H4 H5.
  assert (um_temperature c q 0 lat = 1 / (1 / t0p q - (pk q + 2) / 2 * (1 / t0p q - 1 / t0e q) * um_interior q lat)) as E.
  { unfold um_temperature, um_tau1, um_tau2, um_scaled. replace (1 / (1 * 1)) with 1 by field. f_equal.
    replace (0 / (pb q * um_h c q)) with 0 by (unfold Rdiv; ring). rewrite !Rmult_0_r, exp_0. unfold um_a, um_b, um_c.
    assert (um_t0 q <> 0) by (unfold um_t0; lra). field. repeat split; lra. }
  pose proof (interior_range q lat H5 H3) as R. rewrite E.
  assert (0 <= 1 / t0p q - 1 / t0e q) as D.
  { replace (1 / t0p q - 1 / t0e q) with ((t0e q - t0p q) / (t0p q * t0e q)) by (field; lra). apply Rmult_le_pos; [lra|]. left. apply Rinv_0_lt_compat, Rmult_lt_0_compat; lra. }
  set (d := 1 / t0p q - 1 / t0e q) in *. set (I := um_interior q lat) in *.
  assert (0 <= (pk q + 2) / 2 * d * I <= d) as B.
  { split; [apply Rmult_le_pos; [apply Rmult_le_pos|]; lra|].
    assert ((pk q + 2) / 2 * d * I <= (pk q + 2) / 2 * d * (2 / (pk q + 2))) as M by (apply Rmult_le_compat_l; [apply Rmult_le_pos|]; lra).
    replace ((pk q + 2) / 2 * d * (2 / (pk q + 2))) with d in M by (field; lra). exact M. }
  assert (0 < 1 / t0e q) as P by (apply Rdiv_lt_0_compat; lra). assert (0 < 1 / t0p q) as P' by (apply Rdiv_lt_0_compat; lra).
  split; [split|].
  - apply Rle_trans with (1 / (1 / t0p q)); [right; field; lra|]. apply inv_le; unfold d in *; lra.
  - apply Rle_trans with (1 / (1 / t0e q)); [|right; field; lra]. apply inv_le; unfold d in *; lra.
  - intros L. assert (I = 2 / (pk q + 2)) as ->.
    { unfold I, um_interior. rewrite L, cos_0, Rmult_1_r. unfold Rpower. rewrite ln_1, !Rmult_0_r, exp_0. field. lra. }
    unfold d. field. repeat split; lra.
Qed.
Print Assumptions C111_surface.
Theorem C111_umjs : forall c q z lat, usable c -> 0 < t0p q -> t0p q <= t0e q -> 0 < pk q -> pb q <> 0 -> lapse q <> 0 -> 0 < cos lat ->
  pressure c (um_reference c q 0 lat) = p0 c /\
  (0 < um_tau1 c q z - um_tau2 c q z * um_interior q lat -> at_rest c (fun z => um_reference c q z lat) (um_temperature c q z lat) z).
Proof.
  intros c q z lat U H6 H7 Hk H8 H9 Hcos. pose proof U as (_ & H1 & H2 & H3 & H4 & H5).
  assert (um_t0 q <> 0) as N by (unfold um_t0; lra). split.
  - assert (0 < um_temperature c q 0 lat) as T0 by (pose proof (C111_surface c q lat H6 H7 Hk H9 Hcos); lra).
    change (pressure c) with (press_of c). unfold um_reference. rewrite (of_pressure c H1 (inv c U)) by (try apply um_pos; assumption).
    unfold um_pressure, um_int1, um_int2. rewrite !Rmult_0_r, exp_0. rewrite (Rminus_diag_eq 1 1) by reflexivity. rewrite !Rmult_0_r, !Rmult_0_l.
    rewrite Rplus_0_r, Rminus_0_r, Rmult_0_r, exp_0. ring.
  - intros H10. destruct (um_tz_lim c q z lat N H8 ltac:(lra) ltac:(lra) ltac:(lra)) as (T' & HT).
    apply (rest c (fun _ => 0) (fun z => um_pressure c q z lat) (fun z => um_temperature c q z lat) z T' U).
    + intros y. apply um_pos, H3.
    + exact HT.
    + apply um_t_pos, H10.
    + apply um_dz; lra.
Qed.
Print Assumptions C111_umjs.

(** ** C112: gradient wind balance away from the poles *)
Theorem C112_rossby : forall c pp t0 u0 z lat, usable c -> 0 < pp -> 0 < t0 -> 0 < cos lat ->
  zonal c (fun l => rossby_state c pp t0 u0 z l) lat.
Proof.
  intros c pp t0 u0 z lat U Hp Ht Hl. pose proof U as (_ & H1 & H2 & H3 & H4 & H5).
  apply (zon c (fun l => u0 * cos l) (fun l => rossby_pressure c pp t0 u0 z l) (fun _ => t0) lat
    (rossby_pressure c pp t0 u0 z lat * (- u0 * (u0 + 2 * omega c * earth_radius c) / (gas c * t0) * (sin lat * cos lat))) 0 U).
  - intros y. apply rossby_pos, Hp.
  - apply D_const.
  - exact Ht.
  - apply rossby_dl; lra.
  - rewrite sc2 by exact Hl. pose proof (rossby_pos c pp t0 u0 z lat Hp). field. repeat split; lra.
Qed.
Print Assumptions C112_rossby.
Theorem C112_wave : forall c t0 u0 z lat, usable c -> 0 < t0 -> u0 <> 0 -> 0 < cos lat ->
  zonal c (fun l => wave_state c t0 u0 z l) lat.
Proof.
  intros c t0 u0 z lat U Ht Hu Hl. pose proof U as (_ & H1 & H2 & H3 & H4 & H5).
  assert (forall l, wave_state c t0 u0 z l = from_pressure c (u0 * cos l) (wave_pressure c t0 u0 z l) t0) as E by (intros; apply wave_from; lra).
  pose proof (zon c (fun l => u0 * cos l) (fun l => wave_pressure c t0 u0 z l) (fun _ => t0) lat
    (wave_pressure c t0 u0 z lat * (- u0 * (u0 + 2 * omega c * earth_radius c) / (gas c * t0) * (sin lat * cos lat))) 0 U) as ((D & A & B) & C).
  - intros y. apply wave_pos, H3.
  - apply D_const.
  - exact Ht.
  - apply wave_dl; lra.
  - rewrite sc2 by exact Hl. pose proof (wave_pos c t0 u0 z lat H3). field. repeat split; lra.
  - unfold zonal. rewrite !E. split; [|exact C]. exists D. split; [|exact B]. eapply D_ext; [|exact A]. intros y. cbv beta. rewrite E. reflexivity.
Qed.
Print Assumptions C112_wave.
(** the Schar mountain flow: on a planet at rest *)
Theorem C112_schar : forall c teq ueq cs z lat, usable c -> 0 < teq -> cs * (ueq * ueq) < g c -> 0 <= cs -> 0 <= z -> 0 < cos lat -> omega c = 0 ->
  zonal c (fun l => schar_state c teq ueq cs z l) lat.
Proof.
  intros c teq ueq cs z lat U Ht Hs H0 Hz Hl Ho. pose proof U as (_ & H1 & H2 & H3 & H4 & H5).
  destruct (C111_schar c teq ueq cs z lat U Ht Hs H0) as (_ & P & _).
  assert (schar_t c teq ueq cs lat = teq * (1 - cs * (ueq * ueq) / g c * (sin lat * sin lat))) as E by (unfold schar_t; field; lra). rewrite <- E in P.
  apply (zon c (fun l => schar_u c teq ueq cs z l) (fun l => schar_pressure c teq ueq cs z l) (fun l => schar_t c teq ueq cs l) lat
     (schar_pressure c teq ueq cs z lat * (- ueq * ueq * (sin lat * cos lat) / gas c * (1 / teq + 2 * teq * cs * z / (schar_t c teq ueq cs lat * schar_t c teq ueq cs lat))))
     (- teq * (cs * ueq * ueq / g c) * (2 * sin lat * cos lat)) U).
  - intros y. apply schar_pos, H3.
  - apply schar_t_lim.
  - exact P.
  - apply schar_dl; lra.
  - rewrite Ho. unfold schar_u. set (T := schar_t c teq ueq cs lat) in *. clearbody T. pose proof (schar_pos c teq ueq cs z lat H3) as Q. set (p := schar_pressure c teq ueq cs z lat) in *.
    assert (0 <= 2 * teq / T * cs * z + T / teq) as S.
    { apply Rplus_le_le_0_compat; [repeat apply Rmult_le_pos; try lra; left; apply Rinv_0_lt_compat; lra|].
      left; apply Rdiv_lt_0_compat; lra. }
    pose proof (sqrt_sqrt _ S) as SS. set (r := sqrt _) in *. clearbody r p.
    replace (ueq * cos lat * r * (ueq * cos lat * r) * tan lat) with (ueq * ueq * (sin lat * cos lat) * (r * r)) by (unfold tan; field; lra).
    rewrite SS. field. repeat split; lra.
Qed.
Print Assumptions C112_schar.
(** refuted for a rotating one, which the test accepts (--omega): the state is the same
    and an acceleration by the Coriolis force is left over *)
Theorem C112_rotation_refuted : forall c teq ueq cs z lat, usable c -> 0 < teq -> cs * (ueq * ueq) < g c -> 0 <= cs -> 0 <= z -> 0 < cos lat ->
  omega c <> 0 -> ueq <> 0 -> sin lat <> 0 -> ~ zonal c (fun l => schar_state c teq ueq cs z l) lat.
Proof.
  intros c teq ueq cs z lat U Ht Hs H0 Hz Hl Ho Hu Hsin. pose proof U as (_ & H1 & H2 & H3 & H4 & H5).
  destruct (C111_schar c teq ueq cs z lat U Ht Hs H0) as (_ & P & _).
  assert (schar_t c teq ueq cs lat = teq * (1 - cs * (ueq * ueq) / g c * (sin lat * sin lat))) as E by (unfold schar_t; field; lra). rewrite <- E in P.
  intros ((D & HD & EQ) & _).
  pose proof (schar_dl c teq ueq cs z lat ltac:(lra) ltac:(lra) ltac:(lra) ltac:(lra)) as D0.
  set (d0 := schar_pressure c teq ueq cs z lat * _) in D0.
  destruct (near_pos _ lat _ (schar_t_lim c teq ueq cs lat) P) as (r & Hr & N).
  assert (derivable_pt_lim (fun l => pressure c (schar_state c teq ueq cs z l)) lat d0) as D1.
  { apply (D_near (fun l => schar_pressure c teq ueq cs z l) _ lat d0 r Hr); [|exact D0]. intros y Hy. symmetry.
    apply (of_pressure c H1 (inv c U)); [apply schar_pos, H3|apply N, Hy]. }
  rewrite (uniqueness_limite _ _ _ _ HD D1) in EQ. unfold d0 in EQ. cbn [schar_state from_pressure su srho] in EQ.
  unfold schar_u in EQ. set (T := schar_t c teq ueq cs lat) in *. clearbody T. pose proof (schar_pos c teq ueq cs z lat H3) as Q. set (p := schar_pressure c teq ueq cs z lat) in *.
  assert (0 < 2 * teq / T * cs * z + T / teq) as S.
  { apply Rplus_le_lt_0_compat; [repeat apply Rmult_le_pos; try lra; left; apply Rinv_0_lt_compat; lra|apply Rdiv_lt_0_compat; lra]. }
  pose proof (sqrt_lt_R0 _ S) as SP. pose proof (sqrt_sqrt _ (Rlt_le _ _ S)) as SS. set (w := sqrt _) in *. clearbody w p.
  replace (ueq * cos lat * w * (ueq * cos lat * w) * tan lat) with (ueq * ueq * (sin lat * cos lat) * (w * w)) in EQ by (unfold tan; field; lra).
  rewrite SS in EQ.
  assert (2 * omega c * sin lat * (ueq * cos lat * w) = 0) as Z.
  { rewrite <- EQ at 1. field. repeat split; lra. }
  repeat (apply Rmult_integral in Z; destruct Z as [Z|Z]); try lra; contradiction.
Qed.
Print Assumptions C112_rotation_refuted.
Theorem C112_inert : forall c u0 n teq z lat, usable c -> n <> 0 -> 0 < teq -> 0 < cos lat ->
  0 < inert_ts c u0 n teq lat -> 0 < inert_t c u0 n teq z lat ->
  exists st, (forall l, inert_state c u0 n teq z l = Some (st l)) /\ zonal c st lat.
Proof.
  intros c u0 n teq z lat U Hn Ht Hl H6 H7. pose proof U as (_ & H1 & H2 & H3 & H4 & H5).
  exists (fun l => from_pressure c (u0 * cos l) (inert_pressure c u0 n teq z l) (inert_t c u0 n teq z l)). split.
  - intros l. unfold inert_state. destruct Rlt_dec as [L|_]; [|reflexivity]. pose proof (inert_pos c u0 n teq z l H3). lra.
  - apply (zon c (fun l => u0 * cos l) (fun l => inert_pressure c u0 n teq z l) (fun l => inert_t c u0 n teq z l) lat
       (inert_pressure c u0 n teq z lat * (- u0 * (u0 + 2 * omega c * earth_radius c) * sin (2 * lat) / (2 * gas c * inert_t c u0 n teq z lat)))
       ((inert_ts c u0 n teq lat - inert_g c n) * (u0 * n * n / 2 / (g c * g c) * (u0 + 2 * omega c * earth_radius c) * sin (2 * lat)) * exp (n * n * z / g c)) U).
    + intros y. apply inert_pos, H3.
    + apply inert_t_lim. lra.
    + exact H7.
    + apply inert_dl; try assumption; [lra|apply kap, U].
    + rewrite sc2, sin_2a by exact Hl. pose proof (inert_pos c u0 n teq z lat H3). set (T := inert_t c u0 n teq z lat) in *. set (p := inert_pressure c u0 n teq z lat) in *.
      field. repeat split; lra.
Qed.
Print Assumptions C112_inert.
(** the baroclinic wave: its wind solves the quadratic equation of the balance, and the
    exception for a negative discriminant is never thrown *)
Theorem C112_umjs : forall c q z lat, usable c -> 0 < t0p q -> t0p q <= t0e q -> 0 < pk q -> 0 < cos lat -> 0 <= z ->
  0 < um_tau1 c q z - um_tau2 c q z * um_interior q lat ->
  exists st, um_state c q z lat = Some st /\ sv st = 0 /\ srho st = srho (um_reference c q z lat) /\ stheta st = stheta (um_reference c q z lat) /\
    gradient_wind (earth_radius c) (omega c) (su st) (srho st) (fun l => pressure c (um_reference c q z l)) lat /\
    (0 <= omega c -> 0 <= su st).
Proof.
  intros c q z lat U H6 H7 Hk Hl Hz Hpos. pose proof U as (_ & H1 & H2 & H3 & H4 & H5).
  pose proof (um_t_pos c q z lat Hpos) as TP.
  assert (0 <= Rpower (1 * cos lat) (pk q - 1) - Rpower (1 * cos lat) (pk q + 1)) as B1.
  { rewrite Rmult_1_l. set (x := cos lat) in *. assert (x <= 1) as X by apply COS_bound.
    assert (ln x <= 0) as L by (destruct X as [X| ->]; [left; rewrite <- ln_1; apply ln_increasing; assumption|rewrite ln_1; lra]).
    unfold Rpower. assert ((pk q + 1) * ln x <= (pk q - 1) * ln x) as [A|A] by lra; [apply exp_increasing in A; lra|rewrite A; lra]. }
  assert (0 <= um_int2 c q z) as B2.
  { unfold um_int2. apply Rmult_le_pos; [apply Rmult_le_pos; [|exact Hz]|left; apply exp_pos]. unfold um_c.
    apply Rmult_le_pos; [apply Rmult_le_pos; lra|left; apply Rinv_0_lt_compat, Rmult_lt_0_compat; lra]. }
  assert (0 <= um_big_u c q z lat) as B3.
  { unfold um_big_u. apply Rmult_le_pos; [|lra]. apply Rmult_le_pos; [|exact B1]. apply Rmult_le_pos; [|exact B2].
    apply Rmult_le_pos; [|lra]. left. apply Rdiv_lt_0_compat; lra. }
  assert (0 < earth_radius c * cos lat) as RC by (apply Rmult_lt_0_compat; lra).
  assert (0 <= um_disc c q z lat) as B4 by (unfold um_disc; cbv zeta; apply Rplus_le_le_0_compat; [apply Rle_0_sqr|apply Rmult_le_pos; lra]).
  unfold um_state, um_u. destruct Rlt_dec as [L|_]; [lra|]. cbn [option_map]. eexists. split; [reflexivity|].
  split; [reflexivity|]. split; [reflexivity|]. split; [reflexivity|].
  pose proof (sqrt_sqrt _ B4) as SS. split.
  - cbn [su from_pressure]. destruct (um_t_lim c q z lat Hl ltac:(lra) ltac:(lra)) as (T' & HT).
    apply (grad_from c H1 (inv c U) (- (omega c * (earth_radius c * cos lat)) + sqrt (um_disc c q z lat)) (fun l => um_pressure c q z l) (fun l => um_temperature c q z l) (fun _ => 0) lat
      (um_pressure c q z lat * (- g c / gas c * (um_int2 c q z * (pk q * sin lat * (Rpower (1 * cos lat) (pk q - 1) - Rpower (1 * cos lat) (pk q + 1)))))) T').
    + intros y. apply um_pos, H3.
    + exact HT.
    + exact TP.
    + apply um_dl; lra.
    + lra.
    + set (s := sqrt _) in *. unfold um_disc, um_big_u in SS. cbv zeta in SS.
      pose proof (um_pos c q z lat H3) as P. set (p := um_pressure c q z lat) in *. set (T := um_temperature c q z lat) in *.
      set (b := Rpower (1 * cos lat) (pk q - 1) - Rpower (1 * cos lat) (pk q + 1)) in *. set (i2 := um_int2 c q z) in *. clearbody s p T b i2.
      set (a := earth_radius c) in *. set (om := omega c) in *. unfold tan.
      replace (p * (- g c / gas c * (i2 * (pk q * sin lat * b))) / p * gas c * T) with (- g c * i2 * pk q * sin lat * b * T) by (field; split; lra).
      replace ((- (om * (a * cos lat)) + s) * (- (om * (a * cos lat)) + s) * (sin lat / cos lat) + 2 * om * sin lat * (- (om * (a * cos lat)) + s) * a)
        with (sin lat / cos lat * (s * s - om * (a * cos lat) * (om * (a * cos lat)))) by (field; lra).
      rewrite SS. field. split; lra.
  - cbn [su from_pressure]. intros O. assert (omega c * (earth_radius c * cos lat) <= sqrt (um_disc c q z lat)); [|lra].
    apply Rsqr_incr_0_var; [|apply sqrt_pos]. rewrite Rsqr_sqrt by exact B4. unfold um_disc, Rsqr. cbv zeta.
    assert (0 <= earth_radius c * cos lat * um_big_u c q z lat) by (apply Rmult_le_pos; lra). lra.
Qed.
Print Assumptions C112_umjs.
(** states at rest on a planet of any rotation rate *)
Theorem C112_still : forall c t0 gam z lat, usable c -> 0 < t0 ->
  (gam * z < t0 -> zonal c (fun _ => still_state c t0 gam z) lat) /\ zonal c (fun _ => baldauf_reference c t0 z) lat.
Proof.
  intros c t0 gam z lat U Ht. pose proof U as (_ & H1 & H2 & H3 & H4 & H5). unfold zonal, gradient_wind. cbn [su sv still_state baldauf_reference from_pressure].
  split; [intros _|]; (split; [|reflexivity]); exists 0; (split; [apply D_const|]); unfold Rdiv; ring.
Qed.
Print Assumptions C112_still.
(** the constants of the class and values of the tests meet the hypotheses *)
Example C112_case : exists c q, usable c /\ 0 < omega c /\ 0 < t0p q /\ t0p q <= t0e q /\ 0 < pk q /\ pb q <> 0 /\ lapse q <> 0 /\
  0 < um_tau1 c q 0 - um_tau2 c q 0 * um_interior q (PI / 4) /\ 0 < cos (PI / 4) /\ sin (PI / 4) <> 0 /\
  0 < inert_ts c 20 (1 / 100) 300 0 /\ 0 < inert_t c 20 (1 / 100) 300 0 0 /\ 1 / 4000 * (20 * 20) < g c.
Proof.
  exists (sets [] (construct 0 0 0)), (Umjs 310 240 2 3 (5 / 1000)).
  assert (0 < cos (PI / 4)) as C by (apply cos_gt_0; pose proof PI_RGT_0; lra).
  assert (0 < sin (PI / 4)) as S by (apply sin_gt_0; pose proof PI_RGT_0; lra).
  assert (usable (sets [] (construct 0 0 0))) as U by (split; [exists 0, 0, 0, []; reflexivity|cbn; repeat split; lra]).
  split; [exact U|]. split; [cbn; lra|]. split; [cbn; lra|]. split; [cbn; lra|]. split; [cbn; lra|]. split; [cbn; lra|]. split; [cbn; lra|].
  split; [|split; [exact C|split; [lra|]]].
  - destruct (C111_surface (sets [] (construct 0 0 0)) (Umjs 310 240 2 3 (5 / 1000)) (PI / 4)) as ((A & _) & _); cbn [t0p t0e pk lapse] in *; try lra.
    unfold um_temperature in A. replace (1 / (1 * 1)) with 1 in A by field. set (x := um_tau1 _ _ _ - _) in *.
    destruct (Rlt_or_le 0 x) as [L|L]; [exact L|]. exfalso. destruct L as [L|L].
    + pose proof (Rinv_lt_0_compat x L). unfold Rdiv in A. lra.
    + assert (x * (1 / x) = 0) by (rewrite L; ring). unfold Rdiv in A.
      (* x = 0: the temperature would be 1 * / 0, excluded through the value below *)
      unfold x in L. revert L. unfold um_tau1, um_tau2, um_scaled. replace (0 / _) with 0 by (unfold Rdiv; ring).
      rewrite !Rmult_0_r, exp_0. pose proof (interior_range (Umjs 310 240 2 3 (5 / 1000)) (PI / 4) C ltac:(cbn; lra)) as R. cbn [pk] in R.
      unfold um_a, um_b, um_c, um_t0. cbn [t0p t0e pk lapse]. intros L. lra.
  - split; [|split; [|cbn; lra]].
    + unfold inert_ts. rewrite Rmult_0_r, cos_0, (Rminus_diag_eq 1 1) by reflexivity. rewrite Rmult_0_r, exp_0. lra.
    + unfold inert_t, inert_ts. rewrite !Rmult_0_r, cos_0, (Rminus_diag_eq 1 1) by reflexivity. rewrite Rmult_0_r, exp_0. replace (0 / g (sets [] (construct 0 0 0))) with 0 by (unfold Rdiv; ring). rewrite exp_0. lra.
Qed.
