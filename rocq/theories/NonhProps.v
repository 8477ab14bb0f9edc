(** * C71 - C75: the horizontal step of the nonhydrostatic equations *)
From Coq Require FunctionalExtensionality.
From Coq Require Import ZArith Reals List Bool Lia Lra Psatz.
From Verif Require Import QuadModel QuadSpec InterpModel ColModel PhysSpec ShallowModel ShallowSpec ShallowProofs ShallowProps
  ViscModel ViscSpec ViscProofs NonhModel NonhSpec NonhProofs.
From Verif Require PhysModel PhysProps ViscProps.
Import ListNotations.
Local Open Scope R_scope.
Local Notation z := Z.of_nat.
Local Ltac reference n Hn HB B w W HD HA :=
  let B' := fresh in let E := fresh in
  destruct (C55_reference n Hn) as (B' & w & E & W & Sy & HD & HA);
  rewrite HB in E; injection E as <-; exists w; split; [exact W|]; clear Sy.

(** ** C71: conservation *)
(** On every level of every element the mass, rho theta and each tracer, summed with
    w_i w_j J, do not change: for every state, metric, staggering and update array, with
    and without uniform diffusion. *)
Theorem C71_element : forall n B, (2 <= n <= 10)%nat -> gll_basis n = Some B -> exists w, weights_of n (bW B) w /\
  forall G S init u s dt h nA nB a b k, (a < nA)%nat -> (b < nB)%nat -> (k < levels_ S)%nat ->
  in_element n h a b (fun x y => J3 G k x y <> 0) -> nonhydro_step n B G S init dt h nA nB u = Some s ->
  let total f := element_sum n w (h + z (a * n))%Z (h + z (b * n))%Z (fun x y => J3 G k x y * f x y) in
  total (vR s k) = total (vR u k) /\ total (vP s k) = total (vP u k) /\
  (forall c, (c < tracers S)%nat -> total (vT s c k) = total (vT u c k)).
Proof.
  intros n B Hn HB. reference n Hn HB B w W HD HA. intros G S init u s dt h nA nB a b k Ha Hb Hk NJ E total. unfold total.
  split; [|split; [|intros c Hc]].
  - apply (flux_conserved n B (base2 G) w _ _ (flux_a G S init (vR init) k) (flux_b G S init (vR init) k) (J3 G k) (vR u k) (vR s k) dt HD HA).
    intros i j Hi Hj. split; [apply NJ; assumption|apply (at_r n B G S init u s dt h nA nB E); assumption].
  - apply (flux_conserved n B (base2 G) w _ _ (flux_a G S init (init_p S init) k) (flux_b G S init (init_p S init) k) (J3 G k) (vP u k) (vP s k) dt HD HA).
    intros i j Hi Hj. split; [apply NJ; assumption|apply (at_p n B G S init u s dt h nA nB E); assumption].
  - apply (flux_conserved n B (base2 G) w _ _ (tflux_a n B G S init c k (h + z (a * n)) (h + z (b * n))) (tflux_b n B G S init c k (h + z (a * n)) (h + z (b * n))) (J3 G k) (vT u c k) (vT s c k) dt HD HA).
    intros i j Hi Hj. split; [apply NJ; assumption|apply (at_t n B G S init u s dt h nA nB E); assumption].
Qed.

(** ** C72: constant ratios *)
(** A tracer that is a constant multiple of the density in an element stays so, and
    rho theta with a constant potential temperature keeps it. *)
Theorem C72_tracer : forall n B G S init u s dt h nA nB a b k c r, annihilates_constants n (bD B) ->
  (a < nA)%nat -> (b < nB)%nat -> (k < levels_ S)%nat -> (c < tracers S)%nat ->
  nonhydro_step n B G S init dt h nA nB u = Some s ->
  in_element n h a b (fun x y => vR init k x y <> 0 /\ vT init c k x y = r * vR init k x y /\ vT u c k x y = r * vR u k x y) ->
  in_element n h a b (fun x y => vT s c k x y = r * vR s k x y).
Proof.
  intros n B G S init u s dt h nA nB a b k c r HD Ha Hb Hk Hc E H i j Hi Hj.
  rewrite (at_t n B G S init u s dt h nA nB E a b Ha Hb c k i j Hc Hk Hi Hj), (at_r n B G S init u s dt h nA nB E a b Ha Hb k i j Hk Hi Hj).
  set (p := (h + z (a * n))%Z) in *. set (q := (h + z (b * n))%Z) in *.
  assert (HM : forall i j, (i < n)%nat -> (j < n)%nat -> mix init c k (p + z i)%Z (q + z j)%Z = r).
  { intros i' j' Hi' Hj'. destruct (H i' j' Hi' Hj') as (N0 & T0 & _). fold p q in N0, T0. unfold mix. rewrite T0. field. exact N0. }
  assert (FA : forall i j, (i < n)%nat -> (j < n)%nat ->
    tflux_a n B G S init c k p q (p + z i)%Z (q + z j)%Z = r * flux_a G S init (vR init) k (p + z i)%Z (q + z j)%Z /\
    tflux_b n B G S init c k p q (p + z i)%Z (q + z j)%Z = r * flux_b G S init (vR init) k (p + z i)%Z (q + z j)%Z).
  { intros i' j' Hi' Hj'. destruct (H i' j' Hi' Hj') as (_ & T0 & _). fold p q in T0.
    unfold tflux_a, tflux_b, grad_a, grad_b. replace (Z.to_nat (p + z i' - p)) with i' by lia. replace (Z.to_nat (q + z j' - q)) with j' by lia.
    rewrite (d_alpha_const n B (base2 G) p q (mix init c k) r i' j' HD Hi' Hj' HM).
    rewrite (d_beta_const n B (base2 G) p q (mix init c k) r i' j' HD Hi' Hj' HM).
    unfold flux_a, flux_b. rewrite T0. destruct (diffuse S); split; ring. }
  rewrite (v_alpha_ext n B (base2 G) p q (tflux_a n B G S init c k p q) (fun x y => r * flux_a G S init (vR init) k x y) i j Hj)
    by (intros; apply FA; assumption).
  rewrite (v_beta_ext n B (base2 G) p q (tflux_b n B G S init c k p q) (fun x y => r * flux_b G S init (vR init) k x y) i j Hi)
    by (intros; apply FA; assumption).
  rewrite v_alpha_scal, v_beta_scal. destruct (H i j Hi Hj) as (_ & _ & E3). fold p q in E3. rewrite E3. unfold Rdiv. ring.
Qed.
Theorem C72_theta : forall n B G S init u s dt h nA nB a b k t,
  (a < nA)%nat -> (b < nB)%nat -> (k < levels_ S)%nat -> p_edge S = false ->
  nonhydro_step n B G S init dt h nA nB u = Some s ->
  in_element n h a b (fun x y => vP init k x y = t * vR init k x y /\ vP u k x y = t * vR u k x y) ->
  in_element n h a b (fun x y => vP s k x y = t * vR s k x y).
Proof.
  intros n B G S init u s dt h nA nB a b k t Ha Hb Hk Pe E H i j Hi Hj.
  rewrite (at_p n B G S init u s dt h nA nB E a b Ha Hb k i j Hk Hi Hj), (at_r n B G S init u s dt h nA nB E a b Ha Hb k i j Hk Hi Hj).
  set (p := (h + z (a * n))%Z) in *. set (q := (h + z (b * n))%Z) in *.
  assert (FA : forall i j, (i < n)%nat -> (j < n)%nat ->
    flux_a G S init (init_p S init) k (p + z i)%Z (q + z j)%Z = t * flux_a G S init (vR init) k (p + z i)%Z (q + z j)%Z /\
    flux_b G S init (init_p S init) k (p + z i)%Z (q + z j)%Z = t * flux_b G S init (vR init) k (p + z i)%Z (q + z j)%Z).
  { intros i' j' Hi' Hj'. destruct (H i' j' Hi' Hj') as (T0 & _). fold p q in T0.
    unfold flux_a, flux_b, init_p. rewrite Pe, T0. split; ring. }
  rewrite (v_alpha_ext n B (base2 G) p q (flux_a G S init (init_p S init) k) (fun x y => t * flux_a G S init (vR init) k x y) i j Hj)
    by (intros; apply FA; assumption).
  rewrite (v_beta_ext n B (base2 G) p q (flux_b G S init (init_p S init) k) (fun x y => t * flux_b G S init (vR init) k x y) i j Hi)
    by (intros; apply FA; assumption).
  rewrite v_alpha_scal, v_beta_scal. destruct (H i j Hi Hj) as (_ & E3). fold p q in E3. rewrite E3. unfold Rdiv. ring.
Qed.

(** ** C73: energy *)
(** The Exner function of the code is the derivative of the internal energy per
    volume with respect to rho theta. *)
Definition dry (c : PhysModel.constants) : Prop := 0 < PhysModel.gas c /\ PhysModel.gas c < PhysModel.cp c /\ 0 < PhysModel.p0 c.
Theorem C73_exner : forall c x, dry c -> 0 < x ->
  derivable_pt_lim (internal (PhysModel.gas c) (PhysModel.cp c) (PhysModel.p0 c)) x (PhysModel.exner_from_rhotheta c x).
Proof.
  intros c x (Hr & Hc & Hp) Hx.
  replace (PhysModel.exner_from_rhotheta c x) with (exner (PhysModel.gas c) (PhysModel.cp c) (PhysModel.p0 c) (poisson (PhysModel.gas c) (PhysModel.cp c) (PhysModel.p0 c) x)).
  { apply internal_deriv; assumption. }
  unfold PhysModel.exner_from_rhotheta, exner, poisson.
  replace (PhysModel.p0 c * Rpower (PhysModel.gas c * x / PhysModel.p0 c) (PhysModel.cp c / (PhysModel.cp c - PhysModel.gas c)) / PhysModel.p0 c)
    with (Rpower (PhysModel.gas c * x / PhysModel.p0 c) (PhysModel.cp c / (PhysModel.cp c - PhysModel.gas c))) by (field; lra).
  rewrite Rpower_mult. unfold Rpower. f_equal. f_equal.
  replace (PhysModel.gas c * x / PhysModel.p0 c) with (PhysModel.gas c / PhysModel.p0 c * x) by (field; lra). field. lra.
Qed.

(** The energy of a level of an element, with the vertical velocity held fixed, as a
    function of the length of a forward step from the state itself.  Its derivative
    at 0 is the work of the vertical velocity in the rotational terms and nothing
    else: pressure, kinetic energy gradient, gravity, mass and heat flux exchange energy
    without loss and the Coriolis terms do no work, for every state.  [r] is the
    height, whose derivative within the element the code reads as dDerivRNode. *)
Theorem C73_energy : forall n B, (2 <= n <= 10)%nat -> gll_basis n = Some B -> exists w, weights_of n (bW B) w /\
  forall G S init h nA nB a b k (r : Z -> Z -> R), (a < nA)%nat -> (b < nB)%nat -> (k < levels_ S)%nat ->
  w_edge S = true -> p_edge S = false -> xz S = false -> dry (phys S) ->
  let p := (h + z (a * n))%Z in let q := (h + z (b * n))%Z in
  in_element n h a b (fun x y => J3 G k x y <> 0 /\ vR init k x y <> 0 /\ 0 < vP init k x y) ->
  (forall i j, (i < n)%nat -> (j < n)%nat ->
    dRa G k (p + z i)%Z (q + z j)%Z = ddx n (bD B) (gDeltaA (base2 G)) r p q i j /\
  dRb G k (p + z i)%Z (q + z j)%Z = ddy n (bD B) (gDeltaB (base2 G)) r p q i j) ->
  let W := fun x y => apply1 (op_en S) (fun l => eW init l x y) k in
  let energy := fun s => element_sum n w p q (fun x y => J3 G k x y *
    energy3 (kinetic (m0 G k x y) (m1 G k x y) (m2 G k x y) (m3 G k x y) (m4 G k x y) (m5 G k x y) (vU s k x y) (vV s k x y) (W x y))
      (PhysModel.g (phys S) * r x y) (vR s k x y) (internal (PhysModel.gas (phys S)) (PhysModel.cp (phys S)) (PhysModel.p0 (phys S)) (vP s k x y))) in
  let con := fun a b c x y => a k x y * vU init k x y + b k x y * vV init k x y + c k x y * W x y in
  derivable_pt_lim (fun dt => match nonhydro_step n B G S init dt h nA nB init with Some s => energy s | None => 0 end) 0
    (node_sum n w (fun i j => let x := (p + z i)%Z in let y := (q + z j)%Z in
       J3 G k x y * vR init k x y * con (m2 G) (m4 G) (m5 G) x y *
       (con (m1 G) (m3 G) (m4 G) x y * (ddy n (bD B) (gDeltaB (base2 G)) W p q i j - apply1 (op_dnn S) (fun l => vV init l x y) k) -
        con (m0 G) (m1 G) (m2 G) x y * (apply1 (op_dnn S) (fun l => vU init l x y) k - ddx n (bD B) (gDeltaA (base2 G)) W p q i j)))).
Proof.
  intros n B Hn HB. reference n Hn HB B w Wt HD HA. intros G S init h nA nB a b k r Ha Hb Hk We Pe Xz Dry p q Hg Hr W energy con.
  set (X := fun i => (p + z i)%Z). set (Y := fun j => (q + z j)%Z).
  set (gr := PhysModel.g (phys S)) in *.
  set (psi := fun x y => kin G S init k x y + gr * r x y).
  set (FA := flux_a G S init (vR init) k). set (FB := flux_b G S init (vR init) k).
  set (PA := flux_a G S init (init_p S init) k). set (PB := flux_b G S init (init_p S init) k).
  set (dm := fun i j => v_alpha n B (base2 G) FA p q i j + v_beta n B (base2 G) FB p q i j).
  set (dp := fun i j => v_alpha n B (base2 G) PA p q i j + v_beta n B (base2 G) PB p q i j).
  set (rem := fun i j => J3 G k (X i) (Y j) * vR init k (X i) (Y j) * cx G S init k (X i) (Y j) *
    (cb G S init k (X i) (Y j) * zeta_a n B G S init k p q i j - ca G S init k (X i) (Y j) * zeta_b n B G S init k p q i j)).
  set (l := fun i j => J3 G k (X i) (Y j) * vR init k (X i) (Y j) *
      (ca G S init k (X i) (Y j) * upd_u n B G S init k p q i j + cb G S init k (X i) (Y j) * upd_v n B G S init k p q i j) -
    psi (X i) (Y j) * dm i j - exn S init k (X i) (Y j) * dp i j).
  assert (DA : forall i j, d_alpha n B (base2 G) psi p q i j = d_alpha n B (base2 G) (kin G S init k) p q i j + gr * d_alpha n B (base2 G) r p q i j).
  { intros i j. unfold psi. rewrite (d_alpha_plus n B (base2 G) p q (kin G S init k) (fun x y => gr * r x y)), d_alpha_scal. reflexivity. }
  assert (DB : forall i j, d_beta n B (base2 G) psi p q i j = d_beta n B (base2 G) (kin G S init k) p q i j + gr * d_beta n B (base2 G) r p q i j).
  { intros i j. unfold psi. rewrite (d_beta_plus n B (base2 G) p q (kin G S init k) (fun x y => gr * r x y)), d_beta_scal. reflexivity. }
  assert (Wn : init_w S init k = W).
  { unfold init_w. rewrite We. reflexivity. }
  assert (Sum : esum n w l = esum n w rem).
  { rewrite (esum_ext n w l (fun i j => rem i j +
      (-1 * (FA (X i) (Y j) * d_alpha n B (base2 G) psi p q i j) + (-1 * (FB (X i) (Y j) * d_beta n B (base2 G) psi p q i j) +
       (-1 * (PA (X i) (Y j) * d_alpha n B (base2 G) (exn S init k) p q i j) + (-1 * (PB (X i) (Y j) * d_beta n B (base2 G) (exn S init k) p q i j) +
       (-1 * (psi (X i) (Y j) * v_alpha n B (base2 G) FA p q i j) + (-1 * (psi (X i) (Y j) * v_beta n B (base2 G) FB p q i j) +
       (-1 * (exn S init k (X i) (Y j) * v_alpha n B (base2 G) PA p q i j) +
        -1 * (exn S init k (X i) (Y j) * v_beta n B (base2 G) PB p q i j)))))))))).
    - rewrite !esum_plus, !esum_scal. unfold X, Y.
      rewrite (v_alpha_parts n B (base2 G) w p q HA psi FA), (v_beta_parts n B (base2 G) w p q HA psi FB),
        (v_alpha_parts n B (base2 G) w p q HA (exn S init k) PA), (v_beta_parts n B (base2 G) w p q HA (exn S init k) PB). ring.
    - intros i j Hi Hj. rewrite DA, DB. destruct (Hg i j Hi Hj) as (NJ & NR & PP). destruct (Hr i j Hi Hj) as (Ra & Rb).
      fold p q in NJ, NR, PP. fold (X i) (Y j) in NJ, NR, PP, Ra, Rb.
      rewrite <- (d_alpha_ddx n B (base2 G)) in Ra. rewrite <- (d_beta_ddy n B (base2 G)) in Rb.
      unfold l, rem, dm, dp, upd_u, upd_v, cross_a, cross_b, FA, FB, PA, PB, flux_a, flux_b. fold (X i) (Y j). fold gr.
      rewrite Ra, Rb. field. exact NR. }
  replace (node_sum n w _) with (esum n w l).
  2:{ rewrite Sum. apply esum_ext. intros i j Hi Hj. unfold rem, con, zeta_a, zeta_b, dxua, dxub, cx, cb, ca. cbv beta zeta. fold (X i) (Y j).
      rewrite !Wn, d_alpha_ddx, d_beta_ddy. ring. }
  unfold energy. 
  apply (deriv_ext _ (fun dt => nsum n (fun i => nsum n (fun j => w i * w j * (J3 G k (X i) (Y j) *
    energy3 (kinetic (m0 G k (X i) (Y j)) (m1 G k (X i) (Y j)) (m2 G k (X i) (Y j)) (m3 G k (X i) (Y j)) (m4 G k (X i) (Y j)) (m5 G k (X i) (Y j))
        (vU init k (X i) (Y j) + dt * upd_u n B G S init k p q i j) (vV init k (X i) (Y j) + dt * upd_v n B G S init k p q i j) (W (X i) (Y j)))
      (gr * r (X i) (Y j)) (vR init k (X i) (Y j) - dt * (1 / J3 G k (X i) (Y j)) * dm i j)
      (internal (PhysModel.gas (phys S)) (PhysModel.cp (phys S)) (PhysModel.p0 (phys S)) (vP init k (X i) (Y j) - dt * (1 / J3 G k (X i) (Y j)) * dp i j))))))).
  { intros dt. destruct (nonhydro_step n B G S init dt h nA nB init) as [s|] eqn:E.
    2:{ exfalso. unfold nonhydro_step in E. rewrite We in E. discriminate. }
    unfold element_sum. apply nsum_ext. intros i Hi. apply nsum_ext. intros j Hj. unfold X, Y, p, q.
    rewrite (at_u n B G S init init s dt h nA nB E a b Ha Hb k i j Hk Hi Hj), (at_v n B G S init init s dt h nA nB E a b Ha Hb k i j Xz Hk Hi Hj),
      (at_r n B G S init init s dt h nA nB E a b Ha Hb k i j Hk Hi Hj), (at_p n B G S init init s dt h nA nB E a b Ha Hb k i j Hk Hi Hj). reflexivity. }
  unfold esum. apply (nsum_deriv n (fun i dt => nsum n (fun j => w i * w j * _)) (fun i => nsum n (fun j => w i * w j * l i j))).
  intros i Hi. apply (nsum_deriv n (fun j dt => w i * w j * _) (fun j => w i * w j * l i j)). intros j Hj.
  apply derivable_pt_lim_scal. destruct (Hg i j Hi Hj) as (NJ & NR & PP). fold p q in NJ, NR, PP. fold (X i) (Y j) in NJ, NR, PP.
  set (J := J3 G k (X i) (Y j)) in *. set (ua := vU init k (X i) (Y j)). set (ub := vV init k (X i) (Y j)). set (wz := W (X i) (Y j)).
  set (rho := vR init k (X i) (Y j)) in *. set (P := vP init k (X i) (Y j)) in *.
  set (al := upd_u n B G S init k p q i j). set (be := upd_v n B G S init k p q i j).
  set (d := - (1 / J) * dm i j). set (e := - (1 / J) * dp i j).
  set (g0 := m0 G k (X i) (Y j)). set (g1 := m1 G k (X i) (Y j)). set (g2 := m2 G k (X i) (Y j)).
  set (g3 := m3 G k (X i) (Y j)). set (g4 := m4 G k (X i) (Y j)). set (g5 := m5 G k (X i) (Y j)).
  set (K0 := kinetic g0 g1 g2 g3 g4 g5 ua ub wz + gr * r (X i) (Y j)).
  set (K1 := al * (g0 * ua + g1 * ub + g2 * wz) + be * (g1 * ua + g3 * ub + g4 * wz)).
  set (K2 := 1 / 2 * (g0 * (al * al) + g3 * (be * be)) + g1 * (al * be)).
  set (I := internal (PhysModel.gas (phys S)) (PhysModel.cp (phys S)) (PhysModel.p0 (phys S))).
  set (ex := PhysModel.exner_from_rhotheta (phys S) P).
  assert (L : l i j = (J * (rho * K1 + d * K0)) + J * (ex * e)).
  { unfold l. replace (exn S init k (X i) (Y j)) with ex by (unfold exn, init_p; rewrite Pe; reflexivity).
    fold al be rho J. unfold d, e, K1, K0, psi, kin, ca, cb, cx, kinetic. rewrite Wn. fold ua ub wz g0 g1 g2 g3 g4 g5. field. exact NJ. }
  rewrite L. apply (deriv_ext _ (fun t => (J * (rho * K0) + J * (rho * K1 + d * K0) * t + J * (rho * K2 + d * K1) * (t * t) + J * (d * K2) * (t * t * t)) + J * I (P + e * t))).
  { intros t. unfold energy3. replace (P - t * (1 / J) * dp i j) with (P + e * t) by (unfold e; ring). unfold K0, K1, K2, d, kinetic. field. exact NJ. }
  apply (derivable_pt_lim_plus (fun t => J * (rho * K0) + J * (rho * K1 + d * K0) * t + J * (rho * K2 + d * K1) * (t * t) + J * (d * K2) * (t * t * t)) (fun t => J * I (P + e * t))).
  - apply cubic_deriv.
  - apply (derivable_pt_lim_scal (fun t => I (P + e * t))).
    apply (derivable_pt_lim_comp (fun t => P + e * t) I 0 e ex).
    + apply (deriv_ext _ (fun t => P + e * t + 0 * (t * t) + 0 * (t * t * t))); [intros; ring|apply cubic_deriv].
    + replace (P + e * 0) with P by ring. apply C73_exner; assumption.
Qed.
(** In particular the energy does not change when the contravariant vertical velocity
    vanishes on the level. *)
Theorem C73_level : forall n B, (2 <= n <= 10)%nat -> gll_basis n = Some B -> exists w, weights_of n (bW B) w /\
  forall G S init h nA nB a b k (r : Z -> Z -> R), (a < nA)%nat -> (b < nB)%nat -> (k < levels_ S)%nat ->
  w_edge S = true -> p_edge S = false -> xz S = false -> dry (phys S) ->
  let p := (h + z (a * n))%Z in let q := (h + z (b * n))%Z in
  let W := fun x y => apply1 (op_en S) (fun l => eW init l x y) k in
  in_element n h a b (fun x y => J3 G k x y <> 0 /\ vR init k x y <> 0 /\ 0 < vP init k x y /\
  m2 G k x y * vU init k x y + m4 G k x y * vV init k x y + m5 G k x y * W x y = 0) ->
  (forall i j, (i < n)%nat -> (j < n)%nat ->
    dRa G k (p + z i)%Z (q + z j)%Z = ddx n (bD B) (gDeltaA (base2 G)) r p q i j /\
  dRb G k (p + z i)%Z (q + z j)%Z = ddy n (bD B) (gDeltaB (base2 G)) r p q i j) ->
  let energy := fun s => element_sum n w p q (fun x y => J3 G k x y *
    energy3 (kinetic (m0 G k x y) (m1 G k x y) (m2 G k x y) (m3 G k x y) (m4 G k x y) (m5 G k x y) (vU s k x y) (vV s k x y) (W x y))
      (PhysModel.g (phys S) * r x y) (vR s k x y) (internal (PhysModel.gas (phys S)) (PhysModel.cp (phys S)) (PhysModel.p0 (phys S)) (vP s k x y))) in
  derivable_pt_lim (fun dt => match nonhydro_step n B G S init dt h nA nB init with Some s => energy s | None => 0 end) 0 0.
Proof.
  intros n B Hn HB. destruct (C73_energy n B Hn HB) as (w & Wt & H). exists w. split; [exact Wt|].
  intros G S init h nA nB a b k r Ha Hb Hk We Pe Xz Dry p q W Hg Hr energy.
  assert (Hg' : in_element n h a b (fun x y => J3 G k x y <> 0 /\ vR init k x y <> 0 /\ 0 < vP init k x y)).
  { intros i j Hi Hj. destruct (Hg i j Hi Hj) as (H1 & H2 & H3 & _). auto. }
  pose proof (H G S init h nA nB a b k r Ha Hb Hk We Pe Xz Dry Hg' Hr) as D. cbv zeta in D. fold W p q in D.
  match type of D with derivable_pt_lim ?f _ ?x => assert (Q : x = 0); [|exact (eq_rect x (fun v => derivable_pt_lim f 0 v) D 0 Q)] end.
  change (node_sum n w) with (esum n w). apply esum_zero. intros i j Hi Hj. destruct (Hg i j Hi Hj) as (_ & _ & _ & Z0). fold p q in Z0.
  cbv beta. rewrite Z0. ring.
Qed.

(** ** C74: boundary, frame, rest *)
(** The vertical velocity between the bottom and the top is advected by the horizontal
    contravariant velocity of the levels. *)
Theorem C73_vertical : forall n B G S init u s dt h nA nB a b k i j, (a < nA)%nat -> (b < nB)%nat -> w_edge S = true ->
  (0 < k < levels_ S)%nat -> (i < n)%nat -> (j < n)%nat -> nonhydro_step n B G S init dt h nA nB u = Some s ->
  let p := (h + z (a * n))%Z in let q := (h + z (b * n))%Z in let x := (p + z i)%Z in let y := (q + z j)%Z in
  let W := fun l x y => apply1 (op_en S) (fun e => eW init e x y) l in
  eW s k x y = eW u k x y + dt * apply1 (op_ne S) (fun l =>
    - (m0 G l x y * vU init l x y + m1 G l x y * vV init l x y + m2 G l x y * W l x y) * ddx n (bD B) (gDeltaA (base2 G)) (W l) p q i j
    - (m1 G l x y * vU init l x y + m3 G l x y * vV init l x y + m4 G l x y * W l x y) * ddy n (bD B) (gDeltaB (base2 G)) (W l) p q i j) k.
Proof.
  intros n B G S init u s dt h nA nB a b k i j Ha Hb We Hk Hi Hj E. cbv zeta.
  rewrite (at_edge n B G S init u s dt h nA nB E a b Ha Hb k i j We (proj1 Hk) (proj2 Hk) Hi Hj). f_equal. f_equal. f_equal.
  apply FunctionalExtensionality.functional_extensionality; intros l. unfold cross_x, ca, cb. rewrite d_alpha_ddx, d_beta_ddy.
  replace (init_w S init l) with (fun x y => apply1 (op_en S) (fun e => eW init e x y) l) by (unfold init_w; rewrite We; reflexivity).
  ring.
Qed.
(** With W on interfaces no air crosses the bottom after the step: the contravariant
    vertical component of the updated velocity at the surface is zero. *)
Theorem C74_bottom : forall n B G S init u s dt h nA nB a b, (a < nA)%nat -> (b < nB)%nat -> w_edge S = true ->
  nonhydro_step n B G S init dt h nA nB u = Some s ->
  in_element n h a b (fun x y => xi2 G x y <> 0 ->
    xi0 G x y * apply1 (op_ne S) (fun l => vU s l x y) 0 + xi1 G x y * apply1 (op_ne S) (fun l => vV s l x y) 0 + xi2 G x y * eW s 0%nat x y = 0).
Proof.
  intros n B G S init u s dt h nA nB a b Ha Hb We E i j Hi Hj N0. cbv beta in *.
  rewrite (at_bottom n B G S init u s dt h nA nB E a b Ha Hb i j We Hi Hj). field. exact N0.
Qed.
(** Nothing is written outside the interior of the patch, above the last level, on
    the top interface, or in the second velocity component of a slice model; with W
    on interfaces the array of W on levels is left alone, and so are the tracers
    beyond the tracer count. *)
Theorem C74_frame : forall n B G S init u s dt h nA nB x y, nonhydro_step n B G S init dt h nA nB u = Some s ->
  (xz S = true -> vV s = vV u) /\ (w_edge S = true -> vW s = vW u /\ forall k, (0 < k)%nat -> (levels_ S <= k)%nat -> eW s k = eW u k) /\
  (w_edge S = false -> eW s = eW u) /\ (forall c, (tracers S <= c)%nat -> vT s c = vT u c) /\
  (forall k, (levels_ S <= k)%nat -> vU s k = vU u k /\ vV s k = vV u k /\ vP s k = vP u k /\ vW s k = vW u k /\ vR s k = vR u k /\ forall c, vT s c k = vT u c k) /\
  (~ interior n h nA nB x y -> forall k, vU s k x y = vU u k x y /\ vV s k x y = vV u k x y /\ vP s k x y = vP u k x y /\
     vW s k x y = vW u k x y /\ vR s k x y = vR u k x y /\ eW s k x y = eW u k x y /\ forall c, vT s c k x y = vT u c k x y).
Proof.
  intros n B G S init u s dt h nA nB x y E.
  pose proof (step_u n B G S init u s dt h nA nB E) as EU. pose proof (step_v n B G S init u s dt h nA nB E) as EV.
  pose proof (step_r n B G S init u s dt h nA nB E) as ER. pose proof (step_p n B G S init u s dt h nA nB E) as EP.
  pose proof (step_t n B G S init u s dt h nA nB E) as ET. pose proof (step_w n B G S init u s dt h nA nB E) as EW.
  pose proof (step_ew n B G S init u s dt h nA nB E) as EE.
  assert (WN : w_edge S = false -> eW s = eW u /\ exists F, vW s = each_level S (fun k => patch_loop n h nA nB (F k)) (vW u)).
  { intros We. unfold nonhydro_step in E. rewrite We in E. destruct (all_nodes _ _ _ _ _); [|discriminate]. injection E as <-.
    split; [reflexivity|]. cbn [vW]. exists (fun k p q i j v => v + dt * value (upd_w n B G S init k p q i j)). reflexivity. }
  assert (Above : forall F f k, (levels_ S <= k)%nat -> each_level S F f k = f k).
  { intros F f k Hk. unfold each_level. rewrite (proj2 (Nat.ltb_ge _ _) Hk). reflexivity. }
  split; [intros X; rewrite EV, X; reflexivity|]. split.
  { intros We. split; [apply EW; exact We|]. intros k K0 Hk. rewrite (EE We k). destruct k; [lia|]. rewrite (proj2 (Nat.ltb_ge _ _) Hk). reflexivity. }
  split; [intros We; apply WN; exact We|]. split; [intros c Hc; rewrite ET, (proj2 (Nat.ltb_ge _ _) Hc); reflexivity|]. split.
  { intros k Hk. rewrite EU, EV, EP, ER, !Above by exact Hk. split; [reflexivity|]. split; [destruct (xz S); [reflexivity|apply Above; exact Hk]|].
    split; [reflexivity|]. split.
    { destruct (w_edge S) eqn:We; [rewrite EW by reflexivity; reflexivity|]. destruct (WN eq_refl) as (_ & F & ->). apply Above; exact Hk. }
    split; [reflexivity|]. intros c. rewrite ET. destruct (Nat.ltb c (tracers S)); [apply Above; exact Hk|reflexivity]. }
  intros Ho k.
  assert (Out : forall a b i j, (a < nA)%nat -> (b < nB)%nat -> (i < n)%nat -> (j < n)%nat -> ~ (x = h + z (a * n) + z i /\ y = h + z (b * n) + z j)%Z).
  { intros a b i j Ha Hb Hi Hj (-> & ->). apply Ho. unfold interior. rewrite !Nat2Z.inj_mul. nia. }
  assert (L : forall F f, each_level S (fun k => patch_loop n h nA nB (F k)) f k x y = f k x y).
  { intros F f. unfold each_level. destruct (Nat.ltb k (levels_ S)); [|reflexivity]. apply (patch_away n h nA nB (F k)); exact Out. }
  rewrite EU, EV, EP, ER. split; [apply (L (fun k p q i j v => _))|]. split; [destruct (xz S); [reflexivity|apply (L (fun k p q i j v => _))]|].
  split; [apply (L (fun k p q i j v => _))|]. split.
  { destruct (w_edge S) eqn:We; [rewrite EW by reflexivity; reflexivity|]. destruct (WN eq_refl) as (_ & F & ->). apply L. }
  split; [apply (L (fun k p q i j v => _))|]. split.
  { destruct (w_edge S) eqn:We; [|destruct (WN eq_refl) as (-> & _); reflexivity]. rewrite (EE eq_refl k).
    destruct k; [apply patch_away; exact Out|]. destruct (Nat.ltb _ _); [apply patch_away; exact Out|reflexivity]. }
  intros c. rewrite ET. destruct (Nat.ltb c (tracers S)); [apply (L (fun k p q i j v => _))|reflexivity].
Qed.

(** An atmosphere at rest with no terrain and one pressure per level stays as it is,
    whatever the density and the tracers (without uniform diffusion of the latter). *)
Theorem C74_rest : forall n B G S init s dt h nA nB a b, annihilates_constants n (bD B) ->
  (a < nA)%nat -> (b < nB)%nat -> w_edge S = true -> p_edge S = false -> diffuse S = false ->
  (forall k x y, vU init k x y = 0 /\ vV init k x y = 0 /\ eW init k x y = 0) ->
  (forall k, in_element n h a b (fun x y => dRa G k x y = 0 /\ dRb G k x y = 0)) ->
  (forall k, exists P0, in_element n h a b (fun x y => vP init k x y = P0)) ->
  nonhydro_step n B G S init dt h nA nB init = Some s ->
  forall k, in_element n h a b (fun x y => vU s k x y = 0 /\ vV s k x y = 0 /\ eW s k x y = 0 /\
    vP s k x y = vP init k x y /\ vR s k x y = vR init k x y /\ forall c, vT s c k x y = vT init c k x y).
Proof.
  intros n B G S init s dt h nA nB a b HD Ha Hb We Pe Df R0 T0 P0 E.
  set (p := (h + z (a * n))%Z). set (q := (h + z (b * n))%Z).
  assert (W0 : forall k x y, init_w S init k x y = 0).
  { intros k x y. unfold init_w. rewrite We. apply apply1_zero. intros l. apply R0. }
  assert (C0 : forall k x y, ca G S init k x y = 0 /\ cb G S init k x y = 0 /\ cx G S init k x y = 0 /\ kin G S init k x y = 0).
  { intros k x y. destruct (R0 k x y) as (U0 & V0 & _). unfold kin, ca, cb, cx. rewrite U0, V0, W0. repeat split; ring. }
  assert (Va : forall f i j, (j < n)%nat -> (forall x y, f x y = 0) -> v_alpha n B (base2 G) f p q i j = 0).
  { intros f i j Hj F0. rewrite v_alpha_sum, (nsum_zero n); [ring|]. intros; rewrite F0; ring. }
  assert (Vb : forall f i j, (j < n)%nat -> (forall x y, f x y = 0) -> v_beta n B (base2 G) f p q i j = 0).
  { intros f i j Hj F0. rewrite v_beta_sum, (nsum_zero n); [ring|]. intros; rewrite F0; ring. }
  assert (FA : forall f k x y, flux_a G S init f k x y = 0) by (intros f k x y; unfold flux_a; destruct (C0 k x y) as (-> & _); ring).
  assert (FB : forall f k x y, flux_b G S init f k x y = 0) by (intros f k x y; unfold flux_b; destruct (C0 k x y) as (_ & -> & _); ring).
  assert (UV : forall k i j, (i < n)%nat -> (j < n)%nat -> upd_u n B G S init k p q i j = 0 /\ upd_v n B G S init k p q i j = 0 /\ cross_x n B G S init k p q i j = 0).
  { intros k i j Hi Hj. destruct (P0 k) as (pk & Hp). destruct (T0 k i j Hi Hj) as (Ra & Rb). fold p q in Ra, Rb.
    destruct (C0 k (p + z i)%Z (q + z j)%Z) as (A0 & B0 & X0 & _).
    assert (Ex : forall i j, (i < n)%nat -> (j < n)%nat -> exn S init k (p + z i)%Z (q + z j)%Z = PhysModel.exner_from_rhotheta (phys S) pk).
    { intros i' j' Hi' Hj'. unfold exn, init_p. rewrite Pe. pose proof (Hp i' j' Hi' Hj') as Q. cbv beta in Q. fold p q in Q. rewrite Q. reflexivity. }
    unfold upd_u, upd_v, cross_a, cross_b, cross_x. rewrite A0, B0, X0, Ra, Rb.
    rewrite (d_alpha_const n B (base2 G) p q (exn S init k) _ i j HD Hi Hj Ex), (d_beta_const n B (base2 G) p q (exn S init k) _ i j HD Hi Hj Ex).
    rewrite (d_alpha_const n B (base2 G) p q (kin G S init k) 0 i j HD Hi Hj), (d_beta_const n B (base2 G) p q (kin G S init k) 0 i j HD Hi Hj)
      by (intros; apply C0).
    unfold Rdiv. repeat split; ring. }
  assert (UZ : forall k i j, (i < n)%nat -> (j < n)%nat -> vU s k (p + z i)%Z (q + z j)%Z = 0 /\ vV s k (p + z i)%Z (q + z j)%Z = 0).
  { intros k i j Hi Hj. destruct (UV k i j Hi Hj) as (U0 & V0 & _). destruct (R0 k (p + z i)%Z (q + z j)%Z) as (U1 & V1 & _).
    destruct (C74_frame n B G S init init s dt h nA nB 0%Z 0%Z E) as (FX & _ & _ & _ & FK & _).
    destruct (Nat.lt_ge_cases k (levels_ S)) as [Hk|Hk].
    - split.
      + unfold p, q in *. rewrite (at_u n B G S init init s dt h nA nB E a b Ha Hb k i j Hk Hi Hj), U0, U1. ring.
      + destruct (xz S) eqn:Xz; [rewrite (FX eq_refl); exact V1|].
        unfold p, q in *. rewrite (at_v n B G S init init s dt h nA nB E a b Ha Hb k i j Xz Hk Hi Hj), V0, V1. ring.
    - destruct (FK k Hk) as (-> & -> & _). split; assumption. }
  intros k i j Hi Hj. fold p q. split; [apply UZ; assumption|]. split; [apply UZ; assumption|].
  destruct (C74_frame n B G S init init s dt h nA nB 0%Z 0%Z E) as (_ & FW & _ & FT & FK & _).
  split.
  { destruct k as [|k].
    - unfold p, q. rewrite (at_bottom n B G S init init s dt h nA nB E a b Ha Hb i j We Hi Hj). fold p q.
      rewrite !apply1_zero by (intros; apply UZ; assumption). unfold Rdiv. ring.
    - destruct (Nat.lt_ge_cases (Datatypes.S k) (levels_ S)) as [Hk|Hk].
      + unfold p, q. rewrite (at_edge n B G S init init s dt h nA nB E a b Ha Hb (Datatypes.S k) i j We (Nat.lt_0_succ k) Hk Hi Hj). fold p q.
        rewrite apply1_zero by (intros; apply UV; assumption). destruct (R0 (Datatypes.S k) (p + z i)%Z (q + z j)%Z) as (_ & _ & ->). ring.
      + rewrite (proj2 (FW We) (Datatypes.S k) (Nat.lt_0_succ k) Hk). apply R0. }
  destruct (Nat.lt_ge_cases k (levels_ S)) as [Hk|Hk].
  2:{ destruct (FK k Hk) as (_ & _ & -> & _ & -> & H). repeat split; try reflexivity. intros c. rewrite H. reflexivity. }
  split; [|split; [|intros c; destruct (Nat.lt_ge_cases c (tracers S)) as [Hc|Hc]]].
  - unfold p, q. rewrite (at_p n B G S init init s dt h nA nB E a b Ha Hb k i j Hk Hi Hj). fold p q. rewrite Va, Vb by (assumption || apply FA || apply FB). ring.
  - unfold p, q. rewrite (at_r n B G S init init s dt h nA nB E a b Ha Hb k i j Hk Hi Hj). fold p q. rewrite Va, Vb by (assumption || apply FA || apply FB). ring.
  - unfold p, q. rewrite (at_t n B G S init init s dt h nA nB E a b Ha Hb c k i j Hc Hk Hi Hj). fold p q.
    rewrite Va, Vb; [ring|assumption| |assumption|]; intros; unfold tflux_a, tflux_b; rewrite Df; [apply FB|apply FA].
  - rewrite (FT c Hc). reflexivity.
Qed.

(** Over terrain: an atmosphere at rest with one potential temperature [t] on a level
    of an element and t Pi + g r constant there (hydrostatic balance of an isentropic
    atmosphere) feels no horizontal force, exactly, when dDerivRNode is the
    derivative of the height r within the element. *)
Theorem C74_isentropic : forall n B G S init u s dt h nA nB a b k t e0 (r : Z -> Z -> R), annihilates_constants n (bD B) ->
  (a < nA)%nat -> (b < nB)%nat -> (k < levels_ S)%nat -> w_edge S = true -> p_edge S = false ->
  let p := (h + z (a * n))%Z in let q := (h + z (b * n))%Z in
  (forall l x y, vU init l x y = 0 /\ vV init l x y = 0 /\ eW init l x y = 0) ->
  in_element n h a b (fun x y => vR init k x y <> 0 /\ vP init k x y = t * vR init k x y /\
    t * PhysModel.exner_from_rhotheta (phys S) (vP init k x y) + PhysModel.g (phys S) * r x y = e0) ->
  (forall i j, (i < n)%nat -> (j < n)%nat ->
    dRa G k (p + z i)%Z (q + z j)%Z = ddx n (bD B) (gDeltaA (base2 G)) r p q i j /\
    dRb G k (p + z i)%Z (q + z j)%Z = ddy n (bD B) (gDeltaB (base2 G)) r p q i j) ->
  nonhydro_step n B G S init dt h nA nB u = Some s ->
  in_element n h a b (fun x y => vU s k x y = vU u k x y /\ vV s k x y = vV u k x y).
Proof.
  intros n B G S init u s dt h nA nB a b k t e0 r HD Ha Hb Hk We Pe p q R0 Hg Hr E i j Hi Hj.
  assert (W0 : forall x y, init_w S init k x y = 0).
  { intros x y. unfold init_w. rewrite We. apply apply1_zero. intros l. apply R0. }
  assert (C0 : forall x y, ca G S init k x y = 0 /\ cb G S init k x y = 0 /\ cx G S init k x y = 0 /\ kin G S init k x y = 0).
  { intros x y. destruct (R0 k x y) as (U0 & V0 & _). unfold kin, ca, cb, cx. rewrite U0, V0, W0. repeat split; ring. }
  set (phi := fun x y => t * exn S init k x y + PhysModel.g (phys S) * r x y).
  assert (F0 : forall i j, (i < n)%nat -> (j < n)%nat -> phi (p + z i)%Z (q + z j)%Z = e0).
  { intros i' j' Hi' Hj'. destruct (Hg i' j' Hi' Hj') as (_ & _ & Q). unfold phi, exn, init_p. rewrite Pe. exact Q. }
  assert (DA : t * d_alpha n B (base2 G) (exn S init k) p q i j + PhysModel.g (phys S) * d_alpha n B (base2 G) r p q i j = 0).
  { rewrite <- (d_alpha_const n B (base2 G) p q phi e0 i j HD Hi Hj F0). unfold phi.
    rewrite (d_alpha_plus n B (base2 G) p q (fun x y => t * exn S init k x y) (fun x y => PhysModel.g (phys S) * r x y)), !d_alpha_scal. reflexivity. }
  assert (DB : t * d_beta n B (base2 G) (exn S init k) p q i j + PhysModel.g (phys S) * d_beta n B (base2 G) r p q i j = 0).
  { rewrite <- (d_beta_const n B (base2 G) p q phi e0 i j HD Hi Hj F0). unfold phi.
    rewrite (d_beta_plus n B (base2 G) p q (fun x y => t * exn S init k x y) (fun x y => PhysModel.g (phys S) * r x y)), !d_beta_scal. reflexivity. }
  destruct (Hg i j Hi Hj) as (NR & Th & _). destruct (Hr i j Hi Hj) as (Ra & Rb). fold p q in NR, Th.
  rewrite <- (d_alpha_ddx n B (base2 G)) in Ra. rewrite <- (d_beta_ddy n B (base2 G)) in Rb.
  destruct (C0 (p + z i)%Z (q + z j)%Z) as (A0 & B0 & X0 & _).
  assert (UV : upd_u n B G S init k p q i j = 0 /\ upd_v n B G S init k p q i j = 0).
  { unfold upd_u, upd_v, cross_a, cross_b. rewrite A0, B0, X0, Ra, Rb. unfold init_p. rewrite Pe, Th.
    rewrite (d_alpha_const n B (base2 G) p q (kin G S init k) 0 i j HD Hi Hj), (d_beta_const n B (base2 G) p q (kin G S init k) 0 i j HD Hi Hj)
      by (intros; apply C0).
    set (ra := vR init k (p + z i)%Z (q + z j)%Z) in *. split.
    - transitivity (- (t * d_alpha n B (base2 G) (exn S init k) p q i j + PhysModel.g (phys S) * d_alpha n B (base2 G) r p q i j)); [field; exact NR|rewrite DA; ring].
    - transitivity (- (t * d_beta n B (base2 G) (exn S init k) p q i j + PhysModel.g (phys S) * d_beta n B (base2 G) r p q i j)); [field; exact NR|rewrite DB; ring]. }
  destruct UV as (U0 & V0). split.
  - unfold p, q in *. rewrite (at_u n B G S init u s dt h nA nB E a b Ha Hb k i j Hk Hi Hj), U0. ring.
  - destruct (xz S) eqn:Xz; [destruct (C74_frame n B G S init u s dt h nA nB 0%Z 0%Z E) as (FX & _); rewrite (FX Xz); reflexivity|].
    unfold p, q in *. rewrite (at_v n B G S init u s dt h nA nB E a b Ha Hb k i j Xz Hk Hi Hj), V0. ring.
Qed.

(** The same bottom condition with W on levels: the code uses patch indices for the
    metric of the element and reads outside the array in every patch with a halo. *)
Theorem C74_levels_refuted : forall n B G S init u dt h nA nB, (0 < n)%nat -> (0 < levels_ S)%nat -> (0 < nA)%nat -> (0 < nB)%nat ->
  (1 <= h)%Z -> w_edge S = false -> nonhydro_step n B G S init dt h nA nB u = None.
Proof.
  intros n B G S init u dt h nA nB Hn HK HA HB Hh We. unfold nonhydro_step. rewrite We.
  match goal with |- (if ?c then _ else _) = None => assert (c = false) as -> end; [|reflexivity].
  destruct (all_nodes n nA nB h _) eqn:E; [exfalso|reflexivity]. unfold all_nodes in E. rewrite forallb_forall in E.
  assert (I : forall m, (0 < m)%nat -> In 0%nat (seq 0 m)) by (intros m Hm; apply in_seq; lia).
  assert (L : In (n - 1)%nat (seq 0 n)) by (apply in_seq; lia).
  specialize (E _ (I nA HA)). rewrite forallb_forall in E. specialize (E _ (I nB HB)). rewrite forallb_forall in E.
  specialize (E _ L). rewrite forallb_forall in E. specialize (E _ L). rewrite forallb_forall in E. specialize (E _ (I _ HK)).
  unfold upd_w in E. cbn [Nat.eqb] in E. unfold local_read at 1 in E.
  set (p := first_node n h 0) in *.
  assert (O : (z n * z n * z (levels_ S) * 6 <= local_offset n S (p + z (n - 1)) (p + z (n - 1)) 0 2)%Z).
  { unfold local_offset, p, first_node. replace (z 0 * z n + h + z (n - 1))%Z with (z n + (h - 1))%Z by lia.
    set (N := z n). set (K := z (levels_ S)). set (d := (h - 1)%Z). assert (0 < N)%Z by lia. assert (0 < K)%Z by lia. assert (0 <= d)%Z by lia.
    clear - H H0 H1. assert (0 <= d * (N * K * 6))%Z by (apply Z.mul_nonneg_nonneg; nia). assert (0 <= (N + d) * (K * 6))%Z by (apply Z.mul_nonneg_nonneg; nia). nia. }
  rewrite (proj2 (Z.ltb_ge _ _) O), andb_false_r in E. discriminate.
Qed.
(** With rho theta kept on interfaces the step never changes it: the transport goes to
    the copy on levels. *)
Theorem C74_interface_heat_refuted : forall n B G S init u s dt h nA nB,
  nonhydro_step n B G S init dt h nA nB u = Some s -> eP s = eP u.
Proof. intros n B G S init u s dt h nA nB E. apply (step_ep n B G S init u s dt h nA nB E). Qed.

(** ** C75: uniform diffusion *)
(** A tracer tested against any function K: dt times the transport of K by the
    contravariant velocity minus dt times the coefficient times the integral of
    J rho grad q . grad K, q being the mixing ratio. *)
Theorem C75_tracer : forall n B, (2 <= n <= 10)%nat -> gll_basis n = Some B -> exists w, weights_of n (bW B) w /\
  forall G S init u s dt h nA nB a b k c K, (a < nA)%nat -> (b < nB)%nat -> (k < levels_ S)%nat -> (c < tracers S)%nat -> w_edge S = true ->
  in_element n h a b (fun x y => J3 G k x y <> 0) -> nonhydro_step n B G S init dt h nA nB u = Some s ->
  let p := (h + z (a * n))%Z in let q := (h + z (b * n))%Z in
  let W := fun x y => apply1 (op_en S) (fun l => eW init l x y) k in
  let con := fun (f0 f1 f2 : nat -> Z -> Z -> R) x y => f0 k x y * vU init k x y + f1 k x y * vV init k x y + f2 k x y * W x y in
  let ratio := fun x y => vT init c k x y / vR init k x y in
  element_sum n w p q (fun x y => J3 G k x y * (K x y * (vT s c k x y - vT u c k x y))) =
  dt * node_sum n w (fun i j => let x := (p + z i)%Z in let y := (q + z j)%Z in J3 G k x y * vT init c k x y *
    (con (m0 G) (m1 G) (m2 G) x y * ddx n (bD B) (gDeltaA (base2 G)) K p q i j + con (m1 G) (m3 G) (m4 G) x y * ddy n (bD B) (gDeltaB (base2 G)) K p q i j)) -
  dt * (if diffuse S then coeff S else 0) *
    dirichlet n w (bD B) (gDeltaA (base2 G)) (gDeltaB (base2 G)) p q (fun x y => J3 G k x y * vR init k x y) (m0 G k) (m1 G k) (m3 G k) ratio K.
Proof.
  intros n B Hn HB. reference n Hn HB B w Wt HD HA. intros G S init u s dt h nA nB a b k c K Ha Hb Hk Hc We NJ E p q W con ratio.
  set (g := base2 G). set (TA := tflux_a n B G S init c k p q). set (TB := tflux_b n B G S init c k p q).
  transitivity (- dt * (esum n w (fun i j => K (p + z i)%Z (q + z j)%Z * v_alpha n B g TA p q i j) + esum n w (fun i j => K (p + z i)%Z (q + z j)%Z * v_beta n B g TB p q i j))).
  { rewrite <- esum_plus, <- esum_scal. change (element_sum n w p q (fun x y => J3 G k x y * (K x y * (vT s c k x y - vT u c k x y)))) with
      (esum n w (fun i j => J3 G k (p + z i)%Z (q + z j)%Z * (K (p + z i)%Z (q + z j)%Z * (vT s c k (p + z i)%Z (q + z j)%Z - vT u c k (p + z i)%Z (q + z j)%Z)))).
    apply esum_ext. intros i j Hi Hj. unfold p, q. rewrite (at_t n B G S init u s dt h nA nB E a b Ha Hb c k i j Hc Hk Hi Hj). fold p q. fold TA TB g.
    field. apply (NJ i j Hi Hj). }
  rewrite (v_alpha_parts n B g w p q HA K TA), (v_beta_parts n B g w p q HA K TB).
  unfold dirichlet. change (node_sum n w) with (esum n w).
  rewrite <- Ropp_plus_distr, Rmult_opp_opp, <- esum_plus.
  match goal with |- _ = dt * esum n w ?f - dt * ?c0 * esum n w ?g0 => replace (dt * esum n w f - dt * c0 * esum n w g0) with (dt * (esum n w f + - c0 * esum n w g0)) by ring end.
  f_equal. rewrite <- (esum_scal n w (- _)), <- esum_plus. apply esum_ext. intros i j Hi Hj. cbv zeta.
  rewrite <- !(d_alpha_ddx n B g), <- !(d_beta_ddy n B g). unfold TA, TB, tflux_a, tflux_b, grad_a, grad_b.
  replace (Z.to_nat (p + z i - p)) with i by lia. replace (Z.to_nat (q + z j - q)) with j by lia.
  change (mix init c k) with ratio. fold g. unfold flux_a, flux_b, ca, cb, init_w. rewrite We. unfold con, W. destruct (diffuse S); ring.
Qed.
(** At rest the tracer spreads: the sum of J q (change) is not positive. *)
Theorem C75_tracer_dissipation : forall n B, (2 <= n <= 10)%nat -> gll_basis n = Some B -> exists w, weights_of n (bW B) w /\
  forall G S init u s dt h nA nB a b k c, (a < nA)%nat -> (b < nB)%nat -> (k < levels_ S)%nat -> (c < tracers S)%nat -> w_edge S = true ->
  0 <= dt * coeff S -> (forall l x y, vU init l x y = 0 /\ vV init l x y = 0 /\ eW init l x y = 0) ->
  in_element n h a b (fun x y => 0 < J3 G k x y /\ 0 < vR init k x y /\ definite (m0 G k x y) (m1 G k x y) (m3 G k x y)) ->
  nonhydro_step n B G S init dt h nA nB u = Some s ->
  element_sum n w (h + z (a * n))%Z (h + z (b * n))%Z (fun x y => J3 G k x y * (vT init c k x y / vR init k x y * (vT s c k x y - vT u c k x y))) <= 0.
Proof.
  intros n B Hn HB. destruct (C75_tracer n B Hn HB) as (w & Wt & H). exists w. split; [exact Wt|].
  assert (Wp : forall i, (i < n)%nat -> 0 < w i) by (intros; apply Wt; assumption).
  intros G S init u s dt h nA nB a b k c Ha Hb Hk Hc We Hd R0 Hg E.
  rewrite (H G S init u s dt h nA nB a b k c (fun x y => vT init c k x y / vR init k x y) Ha Hb Hk Hc We);
    [|intros i j Hi Hj; destruct (Hg i j Hi Hj) as (HJ & _); lra|exact E].
  cbv zeta. unfold dirichlet. change (node_sum n w) with (esum n w).
  rewrite (esum_zero n w).
  2:{ intros i j Hi Hj. rewrite (apply1_zero (op_en S)) by (intros; apply R0). destruct (R0 k (h + z (a * n) + z i)%Z (h + z (b * n) + z j)%Z) as (-> & -> & _). ring. }
  match goal with |- dt * 0 - dt * _ * ?X <= 0 => assert (0 <= X) end.
  { apply esum_nonneg; [exact Wp|]. intros i j Hi Hj. cbv zeta. destruct (Hg i j Hi Hj) as (HJ & HR & D1 & D2).
    apply Rmult_le_pos; [apply Rmult_le_pos; lra|].
    set (x := (h + z (a * n) + z i)%Z) in *. set (y := (h + z (b * n) + z j)%Z) in *.
    set (fa := ddx _ _ _ _ _ _ _ _). set (fb := ddy _ _ _ _ _ _ _ _).
    apply (Rmult_le_reg_l (m0 G k x y)); [exact D1|]. rewrite Rmult_0_r.
    replace (m0 G k x y * _) with ((m0 G k x y * fa + m1 G k x y * fb) * (m0 G k x y * fa + m1 G k x y * fb) + (m0 G k x y * m3 G k x y - m1 G k x y * m1 G k x y) * (fb * fb)) by ring.
    apply Rplus_le_le_0_compat; [apply Rle_0_sqr|apply Rmult_le_pos; [lra|apply Rle_0_sqr]]. }
  destruct (diffuse S); nra.
Qed.
(** U and V: tested against any velocity (k, l), the two calls together give minus dt
    nu times the products of its divergence and curl with those of the difference of
    the initial and the reference state; so the difference loses energy. *)
Lemma div_of_minus n D dA dB J gaa gab gbb u v u' v' p q i j :
  div_of n D dA dB J gaa gab gbb (fun x y => u x y - u' x y) (fun x y => v x y - v' x y) p q i j =
  div_of n D dA dB J gaa gab gbb u v p q i j - div_of n D dA dB J gaa gab gbb u' v' p q i j.
Proof.
  unfold div_of, ddx, ddy.
  rewrite (nsum_ext n (fun s => J (p + z s)%Z (q + z j)%Z * (gaa (p + z s)%Z (q + z j)%Z * (u (p + z s)%Z (q + z j)%Z - u' (p + z s)%Z (q + z j)%Z) + gab (p + z s)%Z (q + z j)%Z * (v (p + z s)%Z (q + z j)%Z - v' (p + z s)%Z (q + z j)%Z)) * D s i)
    (fun s => J (p + z s)%Z (q + z j)%Z * (gaa (p + z s)%Z (q + z j)%Z * u (p + z s)%Z (q + z j)%Z + gab (p + z s)%Z (q + z j)%Z * v (p + z s)%Z (q + z j)%Z) * D s i +
      -1 * (J (p + z s)%Z (q + z j)%Z * (gaa (p + z s)%Z (q + z j)%Z * u' (p + z s)%Z (q + z j)%Z + gab (p + z s)%Z (q + z j)%Z * v' (p + z s)%Z (q + z j)%Z) * D s i))) by (intros; ring).
  rewrite (nsum_ext n (fun s => J (p + z i)%Z (q + z s)%Z * (gab (p + z i)%Z (q + z s)%Z * (u (p + z i)%Z (q + z s)%Z - u' (p + z i)%Z (q + z s)%Z) + gbb (p + z i)%Z (q + z s)%Z * (v (p + z i)%Z (q + z s)%Z - v' (p + z i)%Z (q + z s)%Z)) * D s j)
    (fun s => J (p + z i)%Z (q + z s)%Z * (gab (p + z i)%Z (q + z s)%Z * u (p + z i)%Z (q + z s)%Z + gbb (p + z i)%Z (q + z s)%Z * v (p + z i)%Z (q + z s)%Z) * D s j +
      -1 * (J (p + z i)%Z (q + z s)%Z * (gab (p + z i)%Z (q + z s)%Z * u' (p + z i)%Z (q + z s)%Z + gbb (p + z i)%Z (q + z s)%Z * v' (p + z i)%Z (q + z s)%Z) * D s j))) by (intros; ring).
  rewrite !nsum_plus, !nsum_scal. unfold Rdiv. ring.
Qed.
Lemma curl_of_minus n D dA dB J u v u' v' p q i j :
  curl_of n D dA dB J (fun x y => u x y - u' x y) (fun x y => v x y - v' x y) p q i j =
  curl_of n D dA dB J u v p q i j - curl_of n D dA dB J u' v' p q i j.
Proof.
  unfold curl_of, ddx, ddy.
  rewrite (nsum_ext n (fun s => (v _ _ - _) * _) (fun s => v (p + z s)%Z (q + z j)%Z * D s i + -1 * (v' (p + z s)%Z (q + z j)%Z * D s i))) by (intros; ring).
  rewrite (nsum_ext n (fun s => (u _ _ - _) * _) (fun s => u (p + z i)%Z (q + z s)%Z * D s j + -1 * (u' (p + z i)%Z (q + z s)%Z * D s j))) by (intros; ring).
  rewrite !nsum_plus, !nsum_scal. unfold Rdiv. ring.
Qed.
Theorem C75_velocity : forall n B, (2 <= n <= 10)%nat -> gll_basis n = Some B -> exists w, weights_of n (bW B) w /\
  forall g cs iu iv ru rv dt nu h nA nB od oc u v k l a b, (a < nA)%nat -> (b < nB)%nat ->
  in_element n h a b (fun x y => gJ g x y <> 0 /\ gA1 g x y = gB0 g x y /\
    gJ g x y * gJ g x y * (gA0 g x y * gB1 g x y - gA1 g x y * gA1 g x y) = 1) ->
  let p := (h + z (a * n))%Z in let q := (h + z (b * n))%Z in
  let r := uniform_velocity n B g h nA nB cs false nu dt iu iv ru rv od oc u v in
  let J := gJ g in let gaa := gA0 g in let gab := gA1 g in let gbb := gB1 g in
  let du := fun x y => iu x y - ru x y in let ev := fun x y => iv x y - rv x y in
  let dv := fun u v => div_of n (bD B) (gDeltaA g) (gDeltaB g) J gaa gab gbb u v p q in
  let cu := fun u v => curl_of n (bD B) (gDeltaA g) (gDeltaB g) J u v p q in
  element_sum n w p q (fun x y => J x y *
    ((gaa x y * k x y + gab x y * l x y) * (fst r x y - u x y) + (gab x y * k x y + gbb x y * l x y) * (snd r x y - v x y))) =
  - (dt * nu * node_sum n w (fun i j => J (p + z i)%Z (q + z j)%Z * (dv du ev i j * dv k l i j + cu du ev i j * cu k l i j))).
Proof.
  intros n B Hn HB. destruct (ViscProps.C67_weak n B Hn HB) as (w & Wt & H). exists w. split; [exact Wt|].
  intros g cs iu iv ru rv dt nu h nA nB od oc u v k l a b Ha Hb Hg p q r J gaa gab gbb du ev dv cu.
  set (r1 := vector_level n B g cs false iu iv dt (- nu) (- nu) h nA nB od oc u v).
  pose proof (H g cs iu iv dt (- nu) (- nu) h nA nB od oc u v k l a b Ha Hb Hg) as H1.
  pose proof (H g cs ru rv dt nu nu h nA nB (divergence n B g cs iu iv h nA nB od) (vorticity n B g cs iu iv h nA nB oc) (fst r1) (snd r1) k l a b Ha Hb Hg) as H2.
  cbv zeta in H1, H2. fold r1 in H1. fold p q J gaa gab gbb in H1, H2.
  change (vector_level n B g cs false ru rv dt nu nu h nA nB (divergence n B g cs iu iv h nA nB od) (vorticity n B g cs iu iv h nA nB oc) (fst r1) (snd r1)) with r in H2.
  match type of H1 with element_sum n w p q ?f1 = _ => match type of H2 with element_sum n w p q ?f2 = _ =>
    transitivity (element_sum n w p q f1 + element_sum n w p q f2);
    [change (element_sum n w p q f1) with (esum n w (fun i j => f1 (p + z i)%Z (q + z j)%Z));
     change (element_sum n w p q f2) with (esum n w (fun i j => f2 (p + z i)%Z (q + z j)%Z))|] end end.
  - rewrite <- esum_plus. match goal with |- element_sum n w p q ?f = _ => change (element_sum n w p q f) with (esum n w (fun i j => f (p + z i)%Z (q + z j)%Z)) end.
    apply esum_ext. intros i j Hi Hj. cbv beta. ring.
  - rewrite H1, H2. change (node_sum n w) with (esum n w). unfold dv, cu, du, ev.
    rewrite (esum_ext n w (fun i j => J _ _ * (_ + _)) (fun i j =>
      (J (p + z i)%Z (q + z j)%Z * (div_of n (bD B) (gDeltaA g) (gDeltaB g) J gaa gab gbb iu iv p q i j * div_of n (bD B) (gDeltaA g) (gDeltaB g) J gaa gab gbb k l p q i j) +
       J (p + z i)%Z (q + z j)%Z * (curl_of n (bD B) (gDeltaA g) (gDeltaB g) J iu iv p q i j * curl_of n (bD B) (gDeltaA g) (gDeltaB g) J k l p q i j)) +
      -1 * (J (p + z i)%Z (q + z j)%Z * (div_of n (bD B) (gDeltaA g) (gDeltaB g) J gaa gab gbb ru rv p q i j * div_of n (bD B) (gDeltaA g) (gDeltaB g) J gaa gab gbb k l p q i j) +
       J (p + z i)%Z (q + z j)%Z * (curl_of n (bD B) (gDeltaA g) (gDeltaB g) J ru rv p q i j * curl_of n (bD B) (gDeltaA g) (gDeltaB g) J k l p q i j)))).
    + rewrite esum_plus, esum_scal, !esum_plus. ring.
    + intros i j Hi Hj. rewrite (div_of_minus n (bD B) _ _ J gaa gab gbb iu iv ru rv), (curl_of_minus n (bD B) _ _ J iu iv ru rv). ring.
Qed.
Theorem C75_velocity_dissipation : forall n B, (2 <= n <= 10)%nat -> gll_basis n = Some B -> exists w, weights_of n (bW B) w /\
  forall g cs iu iv ru rv dt nu h nA nB od oc u v a b, (a < nA)%nat -> (b < nB)%nat -> 0 <= dt * nu ->
  in_element n h a b (fun x y => 0 < gJ g x y /\ gA1 g x y = gB0 g x y /\
    gJ g x y * gJ g x y * (gA0 g x y * gB1 g x y - gA1 g x y * gA1 g x y) = 1) ->
  let p := (h + z (a * n))%Z in let q := (h + z (b * n))%Z in
  let r := uniform_velocity n B g h nA nB cs false nu dt iu iv ru rv od oc u v in
  let du := fun x y => iu x y - ru x y in let ev := fun x y => iv x y - rv x y in
  element_sum n w p q (fun x y => gJ g x y *
    ((gA0 g x y * du x y + gA1 g x y * ev x y) * (fst r x y - u x y) + (gA1 g x y * du x y + gB1 g x y * ev x y) * (snd r x y - v x y))) <= 0.
Proof.
  intros n B Hn HB. destruct (C75_velocity n B Hn HB) as (w & Wt & H). exists w. split; [exact Wt|].
  assert (Wp : forall i, (i < n)%nat -> 0 < w i) by (intros; apply Wt; assumption).
  intros g cs iu iv ru rv dt nu h nA nB od oc u v a b Ha Hb Hd Hg p q r du ev. unfold r, p, q.
  rewrite (H g cs iu iv ru rv dt nu h nA nB od oc u v du ev a b Ha Hb). 2:{ intros i j Hi Hj. destruct (Hg i j Hi Hj) as (HJ & HS). split; [lra|exact HS]. }
  change (node_sum n w) with (esum n w).
  match goal with |- - (_ * ?X) <= 0 => assert (0 <= X) end; [|nra].
  apply esum_nonneg; [exact Wp|]. intros i j Hi Hj. apply Rmult_le_pos; [pose proof (proj1 (Hg i j Hi Hj)); cbv beta in *; lra|].
  apply Rplus_le_le_0_compat; apply Rle_0_sqr.
Qed.
(** A state equal to the reference state in an element is left alone there; the
    second velocity component of a slice model is never touched. *)
Theorem C75_velocity_steady : forall n B g cs xz iu iv ru rv dt nu h nA nB od oc u v a b, (a < nA)%nat -> (b < nB)%nat ->
  in_element n h a b (fun x y => iu x y = ru x y /\ iv x y = rv x y) ->
  let r := uniform_velocity n B g h nA nB cs xz nu dt iu iv ru rv od oc u v in
  in_element n h a b (fun x y => fst r x y = u x y /\ snd r x y = v x y) /\ (xz = true -> snd r = v).
Proof.
  intros n B g cs xz iu iv ru rv dt nu h nA nB od oc u v a b Ha Hb Hs r. split.
  2:{ intros ->. reflexivity. }
  intros i j Hi Hj. set (p := (h + z (a * n))%Z). set (q := (h + z (b * n))%Z).
  unfold r, uniform_velocity, vector_level. cbn [fst snd].
  set (d1 := divergence n B g cs iu iv h nA nB od). set (c1 := vorticity n B g cs iu iv h nA nB oc).
  set (d2 := divergence n B g cs ru rv h nA nB d1). set (c2 := vorticity n B g cs ru rv h nA nB c1).
  assert (X : forall i j, (i < n)%nat -> (j < n)%nat -> d2 (p + z i)%Z (q + z j)%Z = d1 (p + z i)%Z (q + z j)%Z /\ c2 (p + z i)%Z (q + z j)%Z = c1 (p + z i)%Z (q + z j)%Z).
  { intros i' j' Hi' Hj'. unfold d2, c2, d1, c1, divergence, vorticity, p, q. rewrite !(patch_there n h nA nB _ _ a b i' j' Ha Hb Hi' Hj'). fold p q.
    assert (Q : forall i j, (i < n)%nat -> (j < n)%nat -> ru (p + z i)%Z (q + z j)%Z = iu (p + z i)%Z (q + z j)%Z /\ rv (p + z i)%Z (q + z j)%Z = iv (p + z i)%Z (q + z j)%Z)
      by (intros i0 j0 Hi0 Hj0; destruct (Hs i0 j0 Hi0 Hj0) as (E1 & E2); split; symmetry; [exact E1|exact E2]).
    assert (C : div_cs n B g ru rv p q i' j' 0 = div_cs n B g iu iv p q i' j' 0 /\ curl_cs n B g ru rv p q i' j' 0 = curl_cs n B g iu iv p q i' j' 0).
    { split; [|rewrite !curl_cs_of; unfold curl_of, ddx, ddy; do 2 f_equal; f_equal; apply nsum_ext; intros s Hs'; [rewrite (proj2 (Q s j' Hs' Hj'))|rewrite (proj1 (Q i' s Hi' Hs'))]; reflexivity].
      unfold div_cs. cbv zeta. rewrite !inc_sum. unfold vcon_a, vcon_b.
      rewrite (nsum_ext n (fun s => gJ g (p + z s)%Z (q + z j')%Z * (gA0 g _ _ * ru _ _ + _) * _)
        (fun s => gJ g (p + z s)%Z (q + z j')%Z * (gA0 g (p + z s)%Z (q + z j')%Z * iu (p + z s)%Z (q + z j')%Z + gA1 g (p + z s)%Z (q + z j')%Z * iv (p + z s)%Z (q + z j')%Z) * bD B s i'))
        by (intros s Hs'; destruct (Q s j' Hs' Hj') as (-> & ->); reflexivity).
      rewrite (nsum_ext n (fun s => gJ g (p + z i')%Z (q + z s)%Z * (gB0 g _ _ * ru _ _ + _) * _)
        (fun s => gJ g (p + z i')%Z (q + z s)%Z * (gB0 g (p + z i')%Z (q + z s)%Z * iu (p + z i')%Z (q + z s)%Z + gB1 g (p + z i')%Z (q + z s)%Z * iv (p + z i')%Z (q + z s)%Z) * bD B s j'))
        by (intros s Hs'; destruct (Q i' s Hi' Hs') as (-> & ->); reflexivity).
      reflexivity. }
    destruct cs; [exact C|]. rewrite !(div_cart_cs n B g p q _ _ i' j' _ 0), !(curl_cart_cs n B g p q _ _ i' j' _ 0). exact C. }
  rewrite !(patch_there n h nA nB _ _ a b i j Ha Hb Hi Hj). fold p q.
  assert (Wk : forall f f' : field, (forall i j, (i < n)%nat -> (j < n)%nat -> f (p + z i)%Z (q + z j)%Z = f' (p + z i)%Z (q + z j)%Z) ->
    weak_a n B g f p q i j = weak_a n B g f' p q i j /\ weak_b n B g f p q i j = weak_b n B g f' p q i j).
  { intros f f' Hf. rewrite !weak_a_sum, !weak_b_sum. split; f_equal; f_equal; apply nsum_ext; intros s Hs'; rewrite Hf by assumption; reflexivity. }
  destruct (Wk d2 d1) as (D1 & D2); [intros; apply X; assumption|]. destruct (Wk c2 c1) as (C1 & C2); [intros; apply X; assumption|].
  split; [unfold vector_a; cbv zeta; rewrite D1, C1, C2; ring|].
  destruct xz; [reflexivity|]. rewrite !(patch_there n h nA nB _ _ a b i j Ha Hb Hi Hj). fold p q. unfold vector_b. cbv zeta. rewrite D2, C1, C2. ring.
Qed.
(** rho theta and W: the difference to the reference state is diffused. *)
Theorem C75_scalar : forall n B, (2 <= n <= 10)%nat -> gll_basis n = Some B -> exists w, weights_of n (bW B) w /\
  forall g J init ref dt nu h nA nB u a b, (a < nA)%nat -> (b < nB)%nat ->
  let p := (h + z (a * n))%Z in let q := (h + z (b * n))%Z in
  let d := fun x y => init x y - ref x y in
  let r := uniform_scalar n B g h nA nB J nu dt init ref u in
  (in_element n h a b (fun x y => J x y <> 0 /\ gA1 g x y = gB0 g x y) -> forall k,
     element_sum n w p q (fun x y => J x y * (k x y * (r x y - u x y))) =
     - (dt * nu * dirichlet n w (bD B) (gDeltaA g) (gDeltaB g) p q J (gA0 g) (gA1 g) (gB1 g) d k)) /\
  (forall c, in_element n h a b (fun x y => init x y = ref x y + c) -> in_element n h a b (fun x y => r x y = u x y)).
Proof.
  intros n B Hn HB. destruct (ViscProps.C66_weak n B Hn HB) as (w & Wt & H). exists w. split; [exact Wt|].
  intros g J init ref dt nu h nA nB u a b Ha Hb p q d r. split.
  - intros Hg k. apply (H g J d dt nu h nA nB u k a b Ha Hb Hg).
  - intros c Hc. apply (ViscProps.C66_constant n B Hn HB g J d dt nu h nA nB u a b c Ha Hb).
    intros i j Hi Hj. unfold d. rewrite (Hc i j Hi Hj). ring.
Qed.

(** ** The hypotheses hold *)
Definition ex_id : op := Op 2 [[1; 0]; [0; 1]] [0%nat; 0%nat] [2%nat; 2%nat].
Definition ex_phys : PhysModel.constants := PhysModel.construct (2 / 7) (7 / 5) 1.
Definition ex_set : settings := Settings true false 2 false true 3 2 ex_phys ex_id ex_id ex_id.
(** height and its derivative in the element at (1, 1) *)
Definition ex_r (x y : Z) : R := IZR x + IZR y * IZR x.
Definition ex_g3 : geometry3 :=
  Geometry3 ex_geo (fun _ _ _ => 2) (fun _ _ _ => 1) (fun _ _ _ => 0) (fun _ _ _ => 1 / 2) (fun _ _ _ => 1) (fun _ _ _ => 1 / 4) (fun _ _ _ => 2)
    (fun _ x y => ddx 4 (bD basis4) 1 ex_r 1 1 (Z.to_nat (x - 1)) (Z.to_nat (y - 1)))
    (fun _ x y => ddy 4 (bD basis4) 1 ex_r 1 1 (Z.to_nat (x - 1)) (Z.to_nat (y - 1)))
    (fun _ _ => 1 / 2) (fun _ _ => 1 / 4) (fun _ _ => 2).
Lemma ex_height k i j : (i < 4)%nat -> (j < 4)%nat ->
  dRa ex_g3 k (1 + z i)%Z (1 + z j)%Z = ddx 4 (bD basis4) 1 ex_r 1 1 i j /\ dRb ex_g3 k (1 + z i)%Z (1 + z j)%Z = ddy 4 (bD basis4) 1 ex_r 1 1 i j.
Proof.
  intros Hi Hj. cbn [dRa dRb ex_g3]. replace (Z.to_nat (1 + z i - 1)) with i by lia. replace (Z.to_nat (1 + z j - 1)) with j by lia. split; reflexivity.
Qed.
(** one node moves on the first level *)
Definition ex_move : state3 :=
  State3 (fun _ x y => if andb (Z.eqb x 1) (Z.eqb y 1) then 1 else 0) (fun _ _ _ => 0) (fun _ _ _ => 300) (fun _ _ _ => 0) (fun _ _ _ => 1)
    (fun _ _ _ => 0) (fun _ _ _ => 0) (fun _ _ _ _ => 3).
Lemma ex_some (G : geometry3) (S : settings) init dt u : w_edge S = true -> exists s, nonhydro_step 4 basis4 G S init dt 1 1 1 u = Some s.
Proof. intros We. unfold nonhydro_step. rewrite We. eexists. reflexivity. Qed.
Lemma ex_sum : annihilates_constants 4 (bD basis4).
Proof. apply basis4_sum. Qed.
Example C71_case : exists w, weights_of 4 (bW basis4) w /\
  (forall init dt, exists s, nonhydro_step 4 basis4 ex_g3 ex_set init dt 1 1 1 init = Some s /\
     element_sum 4 w 1 1 (fun x y => J3 ex_g3 1%nat x y * vR s 1%nat x y) = element_sum 4 w 1 1 (fun x y => J3 ex_g3 1%nat x y * vR init 1%nat x y)) /\
  exists s, nonhydro_step 4 basis4 ex_g3 ex_set ex_move 1 1 1 1 ex_move = Some s /\ vR s 0%nat 1%Z 1%Z = -5.
Proof.
  destruct (C71_element 4 basis4 ltac:(lia) eq_refl) as (w & Wt & H). exists w. split; [exact Wt|]. split.
  - intros init dt. destruct (ex_some ex_g3 ex_set init dt init eq_refl) as (s & E). exists s. split; [exact E|].
    apply (H ex_g3 ex_set init init s dt 1%Z 1%nat 1%nat 0%nat 0%nat 1%nat); try (cbn; lia); [|exact E]. intros i j _ _. cbn. lra.
  - destruct (ex_some ex_g3 ex_set ex_move 1 ex_move eq_refl) as (s & E). exists s. split; [exact E|].
    pose proof (at_r 4 basis4 ex_g3 ex_set ex_move ex_move s 1 1 1 1 E 0 0 ltac:(lia) ltac:(lia) 0 0 0 ltac:(cbn; lia) ltac:(lia) ltac:(lia)) as Q.
    change (1 + z (0 * 4) + z 0)%Z with 1%Z in Q. rewrite Q. rewrite v_alpha_sum, v_beta_sum. cbn. unfold flux_a, flux_b, ca, cb, init_w, dbl. cbn. lra.
Qed.
Example C72_case : forall dt, exists s, nonhydro_step 4 basis4 ex_g3 ex_set ex_move dt 1 1 1 ex_move = Some s /\
  in_element 4 1 0 0 (fun x y => vT s 1%nat 0%nat x y = 3 * vR s 0%nat x y /\ vP s 0%nat x y = 300 * vR s 0%nat x y).
Proof.
  intros dt. destruct (ex_some ex_g3 ex_set ex_move dt ex_move eq_refl) as (s & E). exists s. split; [exact E|].
  intros i j Hi Hj. split.
  - apply (C72_tracer 4 basis4 ex_g3 ex_set ex_move ex_move s dt 1 1 1 0 0 0 1 3 ex_sum); try (cbn; lia); try assumption.
    intros i' j' _ _. cbn. repeat split; lra.
  - apply (C72_theta 4 basis4 ex_g3 ex_set ex_move ex_move s dt 1 1 1 0 0 0 300); try (cbn; lia); try assumption; try reflexivity.
    intros i' j' _ _. cbn. repeat split; lra.
Qed.
Lemma ex_dry : dry ex_phys.
Proof. unfold dry, ex_phys, PhysModel.construct. cbn. lra. Qed.
Example C73_case : 0 < 300 /\ dry ex_phys /\ exists w, weights_of 4 (bW basis4) w /\
  let W := fun x y => apply1 ex_id (fun l => eW ex_move l x y) 0 in
  let energy := fun s => element_sum 4 w 1 1 (fun x y => J3 ex_g3 0%nat x y *
    energy3 (kinetic 1 0 (1 / 2) 1 (1 / 4) 2 (vU s 0%nat x y) (vV s 0%nat x y) (W x y))
      (PhysModel.g ex_phys * ex_r x y) (vR s 0%nat x y) (internal (PhysModel.gas ex_phys) (PhysModel.cp ex_phys) (PhysModel.p0 ex_phys) (vP s 0%nat x y))) in
  exists e, derivable_pt_lim (fun dt => match nonhydro_step 4 basis4 ex_g3 ex_set ex_move dt 1 1 1 ex_move with Some s => energy s | None => 0 end) 0 e.
Proof.
  split; [lra|]. split; [exact ex_dry|]. destruct (C73_energy 4 basis4 ltac:(lia) eq_refl) as (w & Wt & H). exists w. split; [exact Wt|]. intros W energy.
  eexists. apply (H ex_g3 ex_set ex_move 1%Z 1%nat 1%nat 0%nat 0%nat 0%nat ex_r); try (cbn; lia); try reflexivity; [exact ex_dry| |].
  - intros i j _ _. cbn. repeat split; lra.
  - intros i j Hi Hj. apply ex_height; assumption.
Qed.
(** air moving along the levels only *)
Definition ex_along : state3 :=
  State3 (fun _ x _ => 4 * IZR x) (fun _ _ _ => 0) (fun _ _ _ => 300) (fun _ _ _ => 0) (fun _ _ _ => 1) (fun _ _ _ => 0) (fun _ x _ => - IZR x) (fun _ _ _ _ => 3).
Example C73_level_case : in_element 4 1 0 0 (fun x y => J3 ex_g3 0%nat x y <> 0 /\ vR ex_along 0%nat x y <> 0 /\ 0 < vP ex_along 0%nat x y /\
  m2 ex_g3 0%nat x y * vU ex_along 0%nat x y + m4 ex_g3 0%nat x y * vV ex_along 0%nat x y +
  m5 ex_g3 0%nat x y * apply1 (op_en ex_set) (fun l => eW ex_along l x y) 0 = 0).
Proof. intros i j _ _. cbn. unfold apply1, accumulate, getc. cbn. repeat split; lra. Qed.
(** an isentropic atmosphere at rest over the terrain *)
Definition ex_rest : state3 :=
  let P := fun (k : nat) x y => PhysModel.rhotheta_from_exner ex_phys (1000 - 980616 / 100000 / 300 * ex_r x y) in
  State3 (fun _ _ _ => 0) (fun _ _ _ => 0) P (fun _ _ _ => 0) (fun k x y => P k x y / 300) (fun _ _ _ => 0) (fun _ _ _ => 0) (fun _ _ _ _ => 3).
Example C74_case : (forall init dt, exists s, nonhydro_step 4 basis4 ex_g3 ex_set init dt 1 1 1 init = Some s /\
    in_element 4 1 0 0 (fun x y => 1 / 2 * vU s 0%nat x y + 1 / 4 * vV s 0%nat x y + 2 * eW s 0%nat x y = 0)) /\
  (exists s, nonhydro_step 4 basis4 ex_g3 ex_set ex_rest 10 1 1 1 ex_rest = Some s /\ in_element 4 1 0 0 (fun x y => vU s 0%nat x y = 0 /\ vV s 0%nat x y = 0)).
Proof.
  split.
  - intros init dt. destruct (ex_some ex_g3 ex_set init dt init eq_refl) as (s & E). exists s. split; [exact E|]. intros i j Hi Hj.
    pose proof (C74_bottom 4 basis4 ex_g3 ex_set init init s dt 1 1 1 0 0 ltac:(lia) ltac:(lia) eq_refl E i j Hi Hj ltac:(cbn; lra)) as Q.
    cbn [op_ne ex_set xi0 xi1 xi2 ex_g3] in Q. unfold apply1, accumulate, getc in Q. cbn [beg fin ex_id nth seq Nat.sub fold_left coef] in Q. cbv beta in *. lra.
  - destruct (ex_some ex_g3 ex_set ex_rest 10 ex_rest eq_refl) as (s & E). exists s. split; [exact E|]. intros i j Hi Hj.
    refine (C74_isentropic 4 basis4 ex_g3 ex_set ex_rest ex_rest s 10 1 1 1 0 0 0 300 300000 ex_r ex_sum _ _ _ eq_refl eq_refl _ _ _ E i j Hi Hj); try (cbn; lia).
    + intros; repeat split; reflexivity.
    + intros i' j' Hi' Hj'. cbn [vR vP ex_rest]. change (1 + z (0 * 4))%Z with 1%Z.
      set (x := (1 + z i')%Z). set (y := (1 + z j')%Z).
      assert (Hx : 1 <= IZR x <= 4) by (unfold x; split; apply IZR_le; lia). assert (Hy : 1 <= IZR y <= 4) by (unfold y; split; apply IZR_le; lia).
      assert (HE : 0 < 1000 - 980616 / 100000 / 300 * ex_r x y) by (unfold ex_r; nra).
      set (e := 1000 - 980616 / 100000 / 300 * ex_r x y) in *.
      destruct ex_dry as (D1 & D2 & D3).
      assert (HP : 0 < PhysModel.rhotheta_from_exner ex_phys e).
      { unfold PhysModel.rhotheta_from_exner. apply Rmult_lt_0_compat; [apply Rdiv_lt_0_compat; assumption|apply exp_pos]. }
      split; [|split].
      * assert (0 < PhysModel.rhotheta_from_exner ex_phys e / 300) by (apply Rdiv_lt_0_compat; lra). lra.
      * field.
      * change (phys ex_set) with ex_phys. destruct (PhysProps.C38_inverse (2 / 7) (7 / 5) 1 [] D1 D2 D3) as (_ & _ & I).
        destruct (I e HE) as (_ & _ & _ & I2). change (PhysModel.sets [] (PhysModel.construct (2 / 7) (7 / 5) 1)) with ex_phys in I2. rewrite I2. unfold e. change (PhysModel.g ex_phys) with (980616 / 100000). field.
    + intros i' j' Hi' Hj'. apply ex_height; assumption.
Qed.
Example C75_case : exists w, weights_of 4 (bW basis4) w /\ forall q dt, 0 <= dt ->
  let init := State3 (fun _ _ _ => 0) (fun _ _ _ => 0) (fun _ _ _ => 300) (fun _ _ _ => 0) (fun _ _ _ => 1) (fun _ _ _ => 0) (fun _ _ _ => 0) (fun _ => q) in
  exists s, nonhydro_step 4 basis4 ex_g3 ex_set init dt 1 1 1 init = Some s /\
  element_sum 4 w 1 1 (fun x y => J3 ex_g3 0%nat x y * (q 0%nat x y / 1 * (vT s 0%nat 0%nat x y - q 0%nat x y))) <= 0.
Proof.
  destruct (C75_tracer_dissipation 4 basis4 ltac:(lia) eq_refl) as (w & Wt & H). exists w. split; [exact Wt|]. intros q dt Hd init.
  destruct (ex_some ex_g3 ex_set init dt init eq_refl) as (s & E). exists s. split; [exact E|].
  refine (H ex_g3 ex_set init init s dt 1%Z 1%nat 1%nat 0%nat 0%nat 0%nat 0%nat _ _ _ _ eq_refl _ _ _ E); try (cbn; lia); [cbn; lra|intros; repeat split; reflexivity|].
  intros i j _ _. cbn. unfold definite. repeat split; lra.
Qed.
Example C75_velocity_case : exists w, weights_of 4 (bW basis4) w /\
  let g := Geometry (fun _ _ => 1 / 2) (fun _ _ => 2) (fun _ _ => 0) (fun _ _ => 0) (fun _ _ => 2) (fun _ _ => 0) (fun _ _ => 0) 1 1 1 in
  forall iu iv ru rv, let r := uniform_velocity 4 basis4 g 1 1 1 true false 3 10 iu iv ru rv (fun _ _ => 0) (fun _ _ => 0) iu iv in
  element_sum 4 w 1 1 (fun x y => gJ g x y * ((gA0 g x y * (iu x y - ru x y) + gA1 g x y * (iv x y - rv x y)) * (fst r x y - iu x y) +
    (gA1 g x y * (iu x y - ru x y) + gB1 g x y * (iv x y - rv x y)) * (snd r x y - iv x y))) <= 0.
Proof.
  destruct (C75_velocity_dissipation 4 basis4 ltac:(lia) eq_refl) as (w & Wt & H). exists w. split; [exact Wt|]. intros g iu iv ru rv.
  apply (H g true iu iv ru rv 10 3 1%Z 1%nat 1%nat (fun _ _ => 0) (fun _ _ => 0) iu iv 0%nat 0%nat); try lia; try lra.
  intros i j _ _. cbn. repeat split; lra.
Qed.

Print Assumptions C71_element.
Print Assumptions C72_tracer.
Print Assumptions C72_theta.
Print Assumptions C73_exner.
Print Assumptions C73_energy.
Print Assumptions C73_level.
Print Assumptions C73_vertical.
Print Assumptions C74_bottom.
Print Assumptions C74_frame.
Print Assumptions C74_rest.
Print Assumptions C74_isentropic.
Print Assumptions C74_levels_refuted.
Print Assumptions C74_interface_heat_refuted.
Print Assumptions C75_tracer.
Print Assumptions C75_tracer_dissipation.
Print Assumptions C75_velocity.
Print Assumptions C75_velocity_dissipation.
Print Assumptions C75_velocity_steady.
Print Assumptions C75_scalar.
