(** * C130: the matrix of the column equations against their derivative *)
From Coq Require Import Reals List Bool Lia Lra.
From Verif Require Import SchurModel SchurJacModel SchurFModel SchurFSpec SchurFProofs DlimProofs.
From Verif Require PhysModel.
Import ListNotations.
Local Open Scope R_scope.

(** positive constants, rho theta positive where it is differentiated, density and radial
    derivatives different from zero inside the column *)
Definition regular (F : frame) (x : unknowns) : Prop :=
  0 < PhysModel.gas (f_phys F) /\ 0 < PhysModel.p0 (f_phys F) /\ PhysModel.cp (f_phys F) - PhysModel.gas (f_phys F) <> 0 /\
  (forall k, (1 <= k < f_levels F)%nat -> (forall q, In q (columns (f_dne F) k) -> 0 < x FP q) /\
     apply_op (f_ine F) (x FR) k <> 0 /\ f_der_e F k <> 0 /\ f_der_n F k <> 0).
(** the interface velocity is not zero where its absolute value is differentiated *)
Definition moving (F : frame) (x : unknowns) (c1 k1 c0 k0 : nat) : Prop :=
  c1 <> FW -> c0 = FW -> upwinds (prepare F x) c1 = true -> (1 <= k0 < f_levels F)%nat -> (k0 = k1 \/ k0 = k1 + 1)%nat -> xi (prepare F x) k0 <> 0.

(** what the matrix misses.  The pressure gradient: der_n in place of der_e. *)
Definition gap_gradient (C : column) (i q : nat) : R :=
  if has (columns (d_ne C) i) q then p_e C i * gas C / (r_e C i * cv C) * co (d_ne C) i q * exner C q / p_n C q * (/ der_e C i - / der_n C i) else 0.
(** the upwinding: 1 / der_e in place of con_e times der_e *)
Definition gap_upwind (C : column) (c k m : nat) : R :=
  sign_of (xi C m) * (/ der_e C m - con_e C m * der_e C m) *
  ((if Nat.eqb (k + 1) m then apply_op (pen_l C) (state_n C c) k else 0) + (if Nat.eqb k m then apply_op (pen_r C) (state_n C c) k else 0)).
Definition gap (C : column) (c1 k1 c0 k0 : nat) : R :=
  if Nat.eqb c1 FW then if (Nat.eqb c0 FP && within (levels_ C) k1)%bool then gap_gradient C k1 k0 else 0
  else if (Nat.eqb c0 FW && upwinds C c1 && within (levels_ C) k0 && Nat.ltb k1 (levels_ C))%bool then gap_upwind C c1 k1 k0 else 0.

Lemma within_spec n k : within n k = true <-> (1 <= k < n)%nat.
Proof. unfold within. rewrite andb_true_iff, Nat.leb_le, Nat.ltb_lt. reflexivity. Qed.

Lemma time_part F (old x : unknowns) c0 k0 c k :
  derivable_pt_lim (fun t => (moved_by x c0 k0 t c k - old c k) * (1 / f_step F)) 0 (unit_at c0 k0 c k * (1 / f_step F)).
Proof.
  pose proof (D_minus _ (fun _ => old c k) 0 _ _ (D_x x c0 k0 c k) (D_const _ 0)) as D1.
  pose proof (D_mult _ (fun _ => 1 / f_step F) 0 _ _ D1 (D_const _ 0)) as D2. apply (D_eq _ _ _ _ D2). ring.
Qed.

Lemma velocity_row F x k c0 k0 : (c0 < 3)%nat -> PhysModel.cp (f_phys F) - PhysModel.gas (f_phys F) <> 0 -> (forall q, In q (columns (f_dne F) k) -> 0 < x FP q) -> apply_op (f_ine F) (x FR) k <> 0 -> f_der_e F k <> 0 -> f_der_n F k <> 0 ->
  within (f_levels F) k = true ->
  velocity' F x c0 k0 k = (if Nat.eqb c0 FW then 0 else velocity_level (prepare F x) c0 k k0) + (if Nat.eqb c0 FP then gap_gradient (prepare F x) k k0 else 0).
Proof.
  intros C3 V Q RE DE DN W. unfold velocity', velocity_level, edge', n_. change (levels_ (prepare F x)) with (f_levels F). unfold within in W. rewrite W.
  assert (c0 = FP \/ c0 = FW \/ c0 = FR) as [->|[->| ->]] by (unfold FP, FW, FR; lia); cbn [Nat.eqb FP FW FR].
  - assert (apply_op (f_dne F) (exner' F x FP k0) k = if has (columns (f_dne F) k) k0 then co (f_dne F) k k0 * (exner (prepare F x) k0 * PhysModel.gas (f_phys F) / (PhysModel.cp (f_phys F) - PhysModel.gas (f_phys F)) / x FP k0) else 0) as ->.
    { rewrite <- (apply_one (f_dne F) k k0 (fun q => exner (prepare F x) q * PhysModel.gas (f_phys F) / (PhysModel.cp (f_phys F) - PhysModel.gas (f_phys F)) / x FP q)).
      unfold apply_op. apply add_over_ext. intros q _. unfold exner', unit_at. cbn [Nat.eqb FP FW FR andb]. destruct (Nat.eqb q k0); ring. }
    unfold gap_gradient, coefficient_a, coefficient_b. cbn [prepare d_ne i_ne der_e der_n p_e r_e dp_e gas cv p_n exner].
    destruct (has (columns (f_dne F) k) k0) eqn:H; destruct (has (columns (f_ine F) k) k0); try (field; tauto).
    all: assert (x FP k0 <> 0) as NX by (unfold has in H; apply existsb_exists in H; destruct H as (y & I & E); apply Nat.eqb_eq in E; subst y; specialize (Q k0 I); lra).
    all: field; tauto.
  - rewrite (apply_zero _ k (exner' F x FW k0)); [|intros q _; unfold exner', unit_at; cbn [Nat.eqb FP FW FR andb]; ring]. unfold Rdiv. ring.
  - rewrite (apply_zero _ k (exner' F x FR k0)); [|intros q _; unfold exner', unit_at; cbn [Nat.eqb FP FW FR andb]; ring].
    unfold coefficient_b. cbn [prepare i_ne der_e p_e r_e dp_e]. destruct (has (columns (f_ine F) k) k0); field; tauto.
Qed.

Lemma unit_other c0 k0 c k : c <> c0 -> unit_at c0 k0 c k = 0.
Proof. intros N. unfold unit_at. apply Nat.eqb_neq in N. rewrite N. reflexivity. Qed.
Lemma xi_outside F x m : within (f_levels F) m = false -> xi (prepare F x) m = 0.
Proof. intros W. unfold prepare. cbn [xi]. rewrite W. reflexivity. Qed.

(** against the velocity *)
Lemma level_row_velocity F x c k k0 : c = FP \/ c = FR -> (k0 <= f_levels F)%nat -> (k < f_levels F)%nat -> 
  level' F x FW k0 c k = level_velocity (prepare F x) c k k0 + (if (upwinds (prepare F x) c && within (f_levels F) k0)%bool then gap_upwind (prepare F x) c k k0 else 0).
Proof.
  intros Hc K K1. assert (c <> FW) as NC by (destruct Hc as [->| ->]; unfold FP, FW, FR; lia).
  assert (state_n (prepare F x) c = x c) as SN by (destruct Hc as [->| ->]; reflexivity).
  unfold level', level_velocity, n_. change (levels_ (prepare F x)) with (f_levels F).
  assert (forall m, flux' F x FW k0 c m = if Nat.eqb m k0 then (if within (f_levels F) m then f_jac_e F m * (state_e (prepare F x) c m * (f_con_e F m * f_der_e F m)) else 0) else 0) as EF.
  { intros m. unfold flux', edge', xi', unit_at. apply Nat.eqb_neq in NC. rewrite NC. rewrite Nat.eqb_refl. cbn [andb]. destruct (within (f_levels F) m), (Nat.eqb m k0); ring. }
  assert (apply_op (f_den F) (flux' F x FW k0 c) k = if has (columns (f_den F) k) k0 then co (f_den F) k k0 * (if within (f_levels F) k0 then f_jac_e F k0 * (state_e (prepare F x) c k0 * (f_con_e F k0 * f_der_e F k0)) else 0) else 0) as ->.
  { rewrite <- (apply_one (f_den F) k k0 (fun m => if within (f_levels F) m then f_jac_e F m * (state_e (prepare F x) c m * (f_con_e F m * f_der_e F m)) else 0)). unfold apply_op. apply add_over_ext. intros m _. rewrite EF. reflexivity. }
  assert ((has (columns (d_en (prepare F x)) k) k0 && negb (Nat.eqb k0 0) && negb (Nat.eqb k0 (f_levels F)))%bool = (has (columns (f_den F) k) k0 && within (f_levels F) k0)%bool) as ->.
  { cbn [d_en prepare]. rewrite <- andb_assoc. f_equal. unfold within. destruct (Nat.eqb_spec k0 0), (Nat.eqb_spec k0 (f_levels F)), (Nat.leb_spec 1 k0), (Nat.ltb_spec k0 (f_levels F)); cbn; try reflexivity; lia. }
  assert (forall o m, side' F x FW k0 o c k m = if (within (f_levels F) m && Nat.eqb m k0)%bool then apply_op o (x c) k * sign_of (xi (prepare F x) m) * (f_con_e F m * f_der_e F m) else 0) as ES.
  { intros o m. unfold side'. rewrite (apply_zero o k (unit_at FW k0 c)) by (intros q _; apply unit_other; exact NC). unfold xi', unit_at. rewrite Nat.eqb_refl. cbn [andb].
    destruct (within (f_levels F) m), (Nat.eqb m k0); cbn [andb]; ring. }
  rewrite !ES. unfold gap_upwind, flux_coefficient. rewrite SN. cbn [prepare pen_l pen_r der_e con_e d_en jac_e ijac].
  assert (forall o s, add_over (columns o k) (fun q => s / f_der_e F k0 * co o k q * x c q) = apply_op o (x c) k * (s / f_der_e F k0)) as EA.
  { intros o s. unfold apply_op. rewrite <- add_over_scal. apply add_over_ext. intros q _. ring. }
  rewrite !EA. change (xi (Column _ _ _ _ _ _ _ _ _ _ _ _ _ _ _ _ _ _ _ _ _ _ _)) with (xi (prepare F x)).
  rewrite <- (andb_assoc (upwinds _ c)). change (Nat.leb 1 k0 && Nat.ltb k0 (f_levels F))%bool with (within (f_levels F) k0).
  change (upwinds (Column _ _ _ _ _ _ _ _ _ _ _ _ _ _ _ _ _ _ _ _ _ _ _)) with (upwinds (prepare F x)). change (state_e (Column _ _ _ _ _ _ _ _ _ _ _ _ _ _ _ _ _ _ _ _ _ _ _)) with (state_e (prepare F x)).
  destruct (upwinds (prepare F x) c); cbn [andb]; [|destruct (has (columns (f_den F) k) k0), (within (f_levels F) k0); cbn [andb]; ring].
  destruct (Nat.eqb_spec (k + 1) k0) as [<-|N1]; [|destruct (Nat.eqb_spec k k0) as [<-|N2]].
  - destruct (Nat.eqb_spec k (k + 1)) as [E|_]; [lia|]. rewrite !andb_true_r, !andb_false_r. destruct (within (f_levels F) (k + 1)) eqn:W.
    + apply within_spec in W. destruct (Nat.ltb_spec (k + 1) (f_levels F)) as [_|L]; [|lia]. destruct (Nat.leb 1 k); destruct (has (columns (f_den F) k) (k + 1)); cbn [andb]; unfold Rdiv; ring.
    + destruct (Nat.ltb (k + 1) (f_levels F)), (Nat.leb 1 k); destruct (has (columns (f_den F) k) (k + 1)); cbn [andb]; ring.
  - rewrite !andb_true_r, !andb_false_r. destruct (within (f_levels F) k) eqn:W.
    + apply within_spec in W. destruct (Nat.leb_spec 1 k) as [_|L]; [|lia]. destruct (Nat.ltb (k + 1) (f_levels F)); destruct (has (columns (f_den F) k) k); cbn [andb]; unfold Rdiv; ring.
    + destruct (Nat.ltb (k + 1) (f_levels F)), (Nat.leb 1 k); destruct (has (columns (f_den F) k) k); cbn [andb]; ring.
  - rewrite !andb_false_r. destruct (Nat.ltb (k + 1) (f_levels F)), (Nat.leb 1 k); destruct (within (f_levels F) k0); destruct (has (columns (f_den F) k) k0); cbn [andb]; ring.
Qed.

(** against the components on levels *)
Lemma level_row_level F x c k c0 k0 : c = FP \/ c = FR -> c0 <> FW ->
  level' F x c0 k0 c k + unit_at c0 k0 c k * (1 / f_step F) = if Nat.eqb c0 c then level_level (prepare F x) c k k0 else 0.
Proof.
  intros Hc N0. assert (forall m, xi' F c0 k0 m = 0) as EX by (intros m; unfold xi'; rewrite unit_other by congruence; destruct (within (f_levels F) m); ring).
  unfold level'. destruct (Nat.eqb_spec c0 c) as [->|N].
  - unfold level_level, n_. change (levels_ (prepare F x)) with (f_levels F). change (d_en (prepare F x)) with (f_den F). change (i_ne (prepare F x)) with (f_ine F).
    assert (apply_op (f_den F) (flux' F x c k0 c) k * f_ijac F k = add_over (columns (f_den F) k) (fun m => if has (columns (f_ine F) m) k0 then co (f_den F) k m * jac_e (prepare F x) m * ijac (prepare F x) k * co (f_ine F) m k0 * xi (prepare F x) m else 0)) as ->.
    { unfold apply_op. rewrite <- add_over_scal. apply add_over_ext. intros m _. unfold flux', edge'. rewrite EX, Nat.eqb_refl. cbn [jac_e ijac prepare].
      change (xi (Column _ _ _ _ _ _ _ _ _ _ _ _ _ _ _ _ _ _ _ _ _ _ _)) with (xi (prepare F x)).
      destruct (within (f_levels F) m) eqn:W; [destruct (has (columns (f_ine F) m) k0); ring|]. rewrite (xi_outside F x m W). destruct (has (columns (f_ine F) m) k0); ring. }
    assert (forall o m, side' F x c k0 o c k m = (if has (columns o k) k0 then co o k k0 else 0) * Rabs (xi (prepare F x) m)) as ES.
    { intros o m. unfold side'. rewrite EX. replace (apply_op o (unit_at c k0 c) k) with (if has (columns o k) k0 then co o k k0 else 0); [ring|].
      unfold unit_at. rewrite Nat.eqb_refl. cbn [andb]. rewrite (apply_one o k k0 (fun _ => 1)). destruct (has (columns o k) k0); ring. }
    rewrite !ES. unfold unit_at. rewrite Nat.eqb_refl. cbn [andb]. cbn [pen_l pen_r step prepare].
    change (xi (Column _ _ _ _ _ _ _ _ _ _ _ _ _ _ _ _ _ _ _ _ _ _ _)) with (xi (prepare F x)). change (upwinds (Column _ _ _ _ _ _ _ _ _ _ _ _ _ _ _ _ _ _ _ _ _ _ _)) with (upwinds (prepare F x)).
    destruct (upwinds (prepare F x) c), (Nat.ltb (k + 1) (f_levels F)), (Nat.leb 1 k), (Nat.eqb k k0), (has (columns (f_penl F) k) k0), (has (columns (f_penr F) k) k0); cbn [andb]; ring.
  - rewrite (apply_zero (f_den F)); [|intros m _; unfold flux', edge'; rewrite EX; destruct (Nat.eqb_spec c c0) as [E|_]; [congruence|]; destruct (within (f_levels F) m); ring].
    assert (forall o m, side' F x c0 k0 o c k m = 0) as ES.
    { intros o m. unfold side'. rewrite EX, (apply_zero o k (unit_at c0 k0 c)); [ring|]. intros q _. apply unit_other. congruence. }
    rewrite !ES, unit_other by congruence. destruct (upwinds (prepare F x) c), (Nat.ltb (k + 1) (f_levels F)), (Nat.leb 1 k); ring.
Qed.

(** ** Every partial derivative of the column equations is the entry of the matrix and a
    term for each of the two places where the geometry differs. *)
Theorem C130_derivative : forall F old x c1 k1 c0 k0, regular F x -> (c1 < 3)%nat -> (c0 < 3)%nat -> (k0 <= f_levels F)%nat -> moving F x c1 k1 c0 k0 ->
  partial_derivative (build_f F old) x c1 k1 c0 k0 (entry_of (prepare F x) c1 k1 c0 k0 + gap (prepare F x) c1 k1 c0 k0).
Proof.
  intros F old x c1 k1 c0 k0 (G & P & V & In_) H1 H0 K0 MV. unfold partial_derivative, build_f. cbv zeta.
  assert (c1 = FW \/ c1 <> FW) as [->|N1] by (unfold FW; lia).
  - unfold entry_of, gap. rewrite Nat.eqb_refl. change (levels_ (prepare F x)) with (f_levels F).
    destruct (within (f_levels F) k1) eqn:W.
    + destruct (In_ k1 (proj1 (within_spec _ _) W)) as (Q & RE & DE & DN).
      pose proof (D_plus _ _ 0 _ _ (D_velocity F x c0 k0 k1 G P V Q RE DE) (time_part F old x c0 k0 FW k1)) as D.
      eapply D_ext; [|apply (D_eq _ _ _ _ D)]; [intros t; cbn [levels_ prepare]; rewrite W; reflexivity|].
      rewrite (velocity_row F x k1 c0 k0 H0 V Q RE DE DN W). unfold unit_at. change (step (prepare F x)) with (f_step F). rewrite andb_true_r, (Nat.eqb_sym FW c0).
      destruct (Nat.eqb_spec c0 FW) as [->|N0]; cbn [andb Nat.eqb FW FP]; [destruct (Nat.eqb k1 k0); ring|ring].
    + eapply D_ext; [|apply (D_eq _ _ _ _ (D_plus (fun _ => 0) _ 0 _ _ (D_const 0 0) (time_part F old x c0 k0 FW k1)))]; [intros t; cbn [levels_ prepare]; rewrite W; reflexivity|].
      rewrite andb_false_r. unfold unit_at, velocity_level, n_. change (levels_ (prepare F x)) with (f_levels F). unfold within in W. rewrite W. change (step (prepare F x)) with (f_step F).
      rewrite (Nat.eqb_sym FW c0). destruct (Nat.eqb c0 FW), (Nat.eqb k1 k0); cbn [andb]; ring.
  - assert (c1 = FP \/ c1 = FR) as Hc by (unfold FP, FR, FW in *; lia). unfold entry_of, gap, n_. change (levels_ (prepare F x)) with (f_levels F). change (step (prepare F x)) with (f_step F).
    apply Nat.eqb_neq in N1 as N1'. rewrite N1'. destruct (Nat.ltb_spec k1 (f_levels F)) as [L|L].
    + eapply D_ext with (f := fun t => level_equation (prepare F (moved_by x c0 k0 t)) c1 k1 + (moved_by x c0 k0 t c1 k1 - old c1 k1) * (1 / f_step F)).
      { intros t. cbn [levels_ prepare]. destruct (Nat.ltb_spec k1 (f_levels F)) as [_|L']; [reflexivity|lia]. }
      pose proof (D_plus _ _ 0 _ _ (D_level F x c0 k0 c1 k1 Hc (fun U A W I => MV N1 A U (proj1 (within_spec _ _) W) I)) (time_part F old x c0 k0 c1 k1)) as D.
      apply (D_eq _ _ _ _ D). clear D. destruct (Nat.eqb_spec c0 FW) as [->|N0].
      * rewrite (level_row_velocity F x c1 k1 k0 Hc K0 L), (unit_other FW k0 c1 k1 N1). rewrite andb_true_r. cbn [andb]. ring.
      * rewrite (level_row_level F x c1 k1 c0 k0 Hc N0). cbn [andb]. ring.
    + eapply D_ext; [|apply (D_eq _ _ _ _ (D_plus (fun _ => 0) _ 0 _ _ (D_const 0 0) (time_part F old x c0 k0 c1 k1)))].
      { intros t. cbn [levels_ prepare]. destruct (Nat.ltb_spec k1 (f_levels F)) as [L'|_]; [lia|reflexivity]. }
      rewrite andb_false_r. unfold unit_at. rewrite (Nat.eqb_sym c1 c0), (Nat.eqb_sym k1 k0). destruct (Nat.eqb c0 c1 && Nat.eqb k0 k1)%bool; ring.
Qed.
Print Assumptions C130_derivative.

(** ** Over flat ground (con_e times der_e squared is one) with the same radial derivative
    on the level as on the interface below it, the matrix is the derivative. *)
Theorem C130_matrix : forall F old x c1 k1 c0 k0, regular F x -> (c1 < 3)%nat -> (c0 < 3)%nat -> (k0 <= f_levels F)%nat -> moving F x c1 k1 c0 k0 ->
  (forall k, (1 <= k < f_levels F)%nat -> f_der_n F k = f_der_e F k /\ f_con_e F k * (f_der_e F k * f_der_e F k) = 1) ->
  partial_derivative (build_f F old) x c1 k1 c0 k0 (entry_of (prepare F x) c1 k1 c0 k0).
Proof.
  intros F old x c1 k1 c0 k0 RG H1 H0 K0 MV FL. apply (D_eq _ _ _ _ (C130_derivative F old x c1 k1 c0 k0 RG H1 H0 K0 MV)).
  assert (gap (prepare F x) c1 k1 c0 k0 = 0) as ->; [|ring]. unfold gap. change (levels_ (prepare F x)) with (f_levels F). destruct (Nat.eqb c1 FW).
  - destruct (Nat.eqb c0 FP && within (f_levels F) k1)%bool eqn:E; [|reflexivity]. apply andb_prop in E. destruct E as (_ & W). apply within_spec in W. destruct (FL k1 W) as (E & _).
    unfold gap_gradient. cbn [prepare der_e der_n]. rewrite E. match goal with |- (if ?b then _ else _) = _ => destruct b end; ring.
  - destruct (Nat.eqb c0 FW && upwinds (prepare F x) c1 && within (f_levels F) k0 && Nat.ltb k1 (f_levels F))%bool eqn:E; [|reflexivity]. rewrite !andb_true_iff in E. destruct E as ((_ & W) & _). apply within_spec in W. destruct (FL k0 W) as (_ & E).
    assert (/ f_der_e F k0 - f_con_e F k0 * f_der_e F k0 = 0) as Z. { assert (f_der_e F k0 <> 0) as N by (intros Q; rewrite Q in E; lra). apply (Rmult_eq_reg_r (f_der_e F k0)); [|exact N]. rewrite Rmult_minus_distr_r, Rinv_l by exact N. lra. }
    unfold gap_upwind. cbn [prepare der_e con_e]. rewrite Z. ring.
Qed.
Print Assumptions C130_matrix.

(** ** Only the columns of the velocity in the upwinded rows and of rho theta in the rows
    of the velocity depend on the geometry: all the others are always right. *)
Theorem C130_other : forall F old x c1 k1 c0 k0, regular F x -> (c1 < 3)%nat -> (c0 < 3)%nat -> (k0 <= f_levels F)%nat ->
  ~ (c1 = FW /\ c0 = FP) -> ~ (c1 <> FW /\ c0 = FW /\ upwinds (prepare F x) c1 = true) ->
  partial_derivative (build_f F old) x c1 k1 c0 k0 (entry_of (prepare F x) c1 k1 c0 k0).
Proof.
  intros F old x c1 k1 c0 k0 RG H1 H0 K0 NA NB.
  assert (moving F x c1 k1 c0 k0) as MV by (intros A B U _ _; exfalso; apply NB; repeat split; assumption).
  apply (D_eq _ _ _ _ (C130_derivative F old x c1 k1 c0 k0 RG H1 H0 K0 MV)).
  assert (gap (prepare F x) c1 k1 c0 k0 = 0) as ->; [|ring]. unfold gap. destruct (Nat.eqb_spec c1 FW) as [A|A].
  - destruct (Nat.eqb_spec c0 FP) as [B|B]; [exfalso; tauto|reflexivity].
  - destruct (Nat.eqb_spec c0 FW) as [B|B]; [|reflexivity]. destruct (upwinds (prepare F x) c1) eqn:U; [exfalso; tauto|reflexivity].
Qed.
Print Assumptions C130_other.

(** ** The matrix is not the derivative of the velocity equation where the radial
    derivative differs between level and interface. *)
Theorem C130_gradient_refuted : forall F old x k q, regular F x -> (1 <= k < f_levels F)%nat -> (q <= f_levels F)%nat ->
  has (columns (f_dne F) k) q = true -> co (f_dne F) k q <> 0 -> PhysModel.cp (f_phys F) <> 0 -> apply_op (f_ine F) (x FP) k <> 0 -> f_der_n F k <> f_der_e F k ->
  ~ partial_derivative (build_f F old) x FW k FP q (entry_of (prepare F x) FW k FP q).
Proof.
  intros F old x k q RG K Q H CO CP PE DN D. assert (moving F x FW k FP q) as MV by (intros A; exfalso; apply A; reflexivity).
  pose proof (C130_derivative F old x FW k FP q RG ltac:(unfold FW; lia) ltac:(unfold FP; lia) Q MV) as D'.
  pose proof (uniqueness_limite _ _ _ _ D D') as E. destruct RG as (G & P & V & In_). destruct (In_ k K) as (PQ & RE & DE & DN0).
  assert (gap (prepare F x) FW k FP q = 0) as Z by lra. unfold gap in Z. change (levels_ (prepare F x)) with (f_levels F) in Z. rewrite !Nat.eqb_refl, (proj2 (within_spec _ _) K) in Z. cbn [andb] in Z.
  unfold gap_gradient in Z. change (d_ne (prepare F x)) with (f_dne F) in Z. rewrite H in Z. cbn [prepare p_e r_e gas cv exner p_n der_e der_n] in Z.
  assert (0 < x FP q) as XP. { apply PQ. unfold has in H. apply existsb_exists in H. destruct H as (y & I & E'). apply Nat.eqb_eq in E'. subst y. exact I. }
  assert (PhysModel.exner_from_rhotheta (f_phys F) (x FP q) <> 0) as EX. { unfold PhysModel.exner_from_rhotheta. apply Rmult_integral_contrapositive_currified; [exact CP|]. apply Rgt_not_eq, exp_pos. }
  revert Z. unfold Rdiv. repeat apply Rmult_integral_contrapositive_currified; try apply Rinv_neq_0_compat; try apply Rmult_integral_contrapositive_currified; try assumption; try (apply Rgt_not_eq; assumption).
  apply Rgt_not_eq, exp_pos. intros Z. apply DN. assert (/ f_der_e F k = / f_der_n F k) as E2 by lra. rewrite <- (Rinv_inv (f_der_n F k)), <- E2, Rinv_inv. reflexivity.
Qed.
Print Assumptions C130_gradient_refuted.

(** ** Nor of an upwinded equation over sloping ground. *)
Theorem C130_upwind_refuted : forall F old x c k, regular F x -> c = FP \/ c = FR -> upwinds (prepare F x) c = true -> (1 <= k < f_levels F)%nat ->
  xi (prepare F x) k <> 0 -> apply_op (f_penr F) (x c) k <> 0 -> f_con_e F k * (f_der_e F k * f_der_e F k) <> 1 ->
  ~ partial_derivative (build_f F old) x c k FW k (entry_of (prepare F x) c k FW k).
Proof.
  intros F old x c k RG Hc U K X PR CD D. assert (moving F x c k FW k) as MV by (intros _ _ _ _ _; exact X).
  assert (c <> FW) as NC by (destruct Hc as [->| ->]; unfold FP, FR, FW; lia).
  pose proof (C130_derivative F old x c k FW k RG ltac:(destruct Hc as [->| ->]; unfold FP, FR; lia) ltac:(unfold FW; lia) ltac:(lia) MV) as D'.
  pose proof (uniqueness_limite _ _ _ _ D D') as E. destruct RG as (G & P & V & In_). destruct (In_ k K) as (_ & _ & DE & _).
  assert (gap (prepare F x) c k FW k = 0) as Z by lra. unfold gap in Z. change (levels_ (prepare F x)) with (f_levels F) in Z.
  apply Nat.eqb_neq in NC. rewrite NC, U, Nat.eqb_refl, (proj2 (within_spec _ _) K), (proj2 (Nat.ltb_lt k _) (proj2 K)) in Z. cbn [andb] in Z.
  unfold gap_upwind in Z. rewrite Nat.eqb_refl in Z. destruct (Nat.eqb_spec (k + 1) k) as [A|_]; [lia|].
  assert (state_n (prepare F x) c = x c) as SN by (destruct Hc as [->| ->]; reflexivity). rewrite SN in Z. change (pen_r (prepare F x)) with (f_penr F) in Z. change (der_e (prepare F x)) with (f_der_e F) in Z. change (con_e (prepare F x)) with (f_con_e F) in Z.
  rewrite Rplus_0_l in Z. revert Z. repeat apply Rmult_integral_contrapositive_currified; [| |exact PR].
  - unfold sign_of. destruct (Rlt_dec 0 _); [lra|]. destruct (Rlt_dec _ 0); [lra|]. exfalso. apply X. lra.
  - intros Z. apply CD. rewrite <- Rmult_assoc. replace (f_con_e F k * f_der_e F k) with (/ f_der_e F k) by lra. apply Rinv_l. exact DE.
Qed.
Print Assumptions C130_upwind_refuted.

(** ** A resting column with the discrete pressure gradient against gravity solves the
    equations, and no other resting column does. *)
Theorem C130_rest : forall F x, (forall k, (1 <= k < f_levels F)%nat -> xi (prepare F x) k = 0) ->
  ((forall c k, (c < 3)%nat -> build_f F x x c k = 0) <->
   forall k, (1 <= k < f_levels F)%nat ->
     apply_op (f_dne F) (fun q => PhysModel.exner_from_rhotheta (f_phys F) (x FP q)) k * (apply_op (f_ine F) (x FP) k / apply_op (f_ine F) (x FR) k) / f_der_e F k = - PhysModel.g (f_phys F)).
Proof.
  intros F x H. assert (forall m, xi (prepare F x) m = 0) as H'. { intros m. destruct (within (f_levels F) m) eqn:W; [apply H, within_spec, W|apply xi_outside; exact W]. }
  assert (forall c k, level_equation (prepare F x) c k = 0) as HL.
  { intros c k. unfold level_equation. rewrite (apply_zero _ k (flux (prepare F x) c)); [|intros m _; unfold flux; rewrite H'; destruct (within (levels_ (prepare F x)) m); ring].
    unfold penalty, weight. rewrite !H', Rabs_R0. destruct (upwinds (prepare F x) c), (Nat.ltb (k + 1) (levels_ (prepare F x))), (Nat.leb 1 k); ring. }
  split.
  - intros A k K. specialize (A FW k ltac:(unfold FW; lia)). unfold build_f in A. rewrite Nat.eqb_refl in A. change (levels_ (prepare F x)) with (f_levels F) in A. rewrite (proj2 (within_spec _ _) K) in A.
    unfold velocity_equation in A. cbn [prepare dp_e p_e r_e der_e] in A. unfold Rdiv in *. rewrite Rmult_assoc in A. lra.
  - intros A c k _. unfold build_f. rewrite HL. change (levels_ (prepare F x)) with (f_levels F). destruct (within (f_levels F) k) eqn:W.
    + apply within_spec in W. specialize (A k W). unfold velocity_equation. cbn [prepare dp_e p_e r_e der_e]. unfold Rdiv in *. rewrite (Rmult_assoc _ (apply_op (f_ine F) (x FP) k)). destruct (Nat.eqb c FW), (Nat.ltb k (f_levels F)); lra.
    + destruct (Nat.eqb c FW), (Nat.ltb k (f_levels F)); ring.
Qed.
Print Assumptions C130_rest.

(** two levels with operators of second order over flat ground, in uniform motion *)
Definition ground (d e c : R) : frame :=
  Frame 2 1 (PhysModel.Constants 1 1 1 0 1 2 1 1 1 1 1 1 1 1 1) (divergence_op (fun k m => if Nat.eqb m k then -1 else 1)) (gradient_op 1 2 (fun k m => if Nat.eqb (S m) k then -1 else 1))
    (interpolation_op 1 2 (fun _ _ => 1 / 2)) (left_op 1 2 (fun _ _ => 1)) (right_op 1 2 (fun _ _ => 1)) (fun _ => 1) (fun _ => 1) (fun _ => c) (fun _ => e) (fun _ => d) (fun _ => 1) true true.
Lemma ground_regular d e c : d <> 0 -> e <> 0 -> regular (ground d e c) (fun _ _ => 1).
Proof.
  intros D E. unfold regular, ground. cbn. repeat split; try lra; try assumption; replace k with 1%nat by lia; [intros q _; lra|cbn; lra].
Qed.
Example C130_case : exists F x, regular F x /\ (forall c1 k1 c0 k0, moving F x c1 k1 c0 k0) /\
  (forall k, (1 <= k < f_levels F)%nat -> f_der_n F k = f_der_e F k /\ f_con_e F k * (f_der_e F k * f_der_e F k) = 1).
Proof.
  exists (ground 2 2 (1 / 4)), (fun _ _ => 1). split; [apply ground_regular; lra|]. split.
  - intros c1 k1 c0 k0 _ _ _ K _. cbn in K. replace k0 with 1%nat by lia. cbn. lra.
  - intros k _. cbn. lra.
Qed.
Example C130_gradient_case : exists F x, regular F x /\ f_der_n F 1 <> f_der_e F 1 /\ forall old, ~ partial_derivative (build_f F old) x FW 1 FP 0 (entry_of (prepare F x) FW 1 FP 0).
Proof.
  exists (ground 1 2 (1 / 4)), (fun _ _ => 1). pose proof (ground_regular 1 2 (1 / 4) ltac:(lra) ltac:(lra)) as RG. split; [exact RG|]. split; [cbn; lra|]. intros old.
  apply C130_gradient_refuted; try exact RG; cbn; try lia; try lra; try reflexivity.
Qed.
Example C130_upwind_case : exists F x, regular F x /\ forall old, ~ partial_derivative (build_f F old) x FR 1 FW 1 (entry_of (prepare F x) FR 1 FW 1).
Proof.
  exists (ground 2 2 (1 / 2)), (fun _ _ => 1). pose proof (ground_regular 2 2 (1 / 2) ltac:(lra) ltac:(lra)) as RG. split; [exact RG|]. intros old.
  apply C130_upwind_refuted; try exact RG; [right; reflexivity|reflexivity|cbn; lia|cbn; lra| |cbn; lra]. unfold apply_op, add_over, columns. cbn. lra.
Qed.
(** a resting column of uniform rho theta without gravity *)
Example C130_rest_case : exists F x, (1 < f_levels F)%nat /\ (forall k, (1 <= k < f_levels F)%nat -> xi (prepare F x) k = 0) /\ forall c k, (c < 3)%nat -> build_f F x x c k = 0.
Proof.
  set (F := Frame 2 1 (PhysModel.Constants 1 0 1 0 1 2 1 1 1 1 1 1 1 1 1) (divergence_op (fun k m => if Nat.eqb m k then -1 else 1)) (gradient_op 1 2 (fun k m => if Nat.eqb (S m) k then -1 else 1))
    (interpolation_op 1 2 (fun _ _ => 1 / 2)) (left_op 1 2 (fun _ _ => 1)) (right_op 1 2 (fun _ _ => 1)) (fun _ => 1) (fun _ => 1) (fun _ => 1) (fun _ => 1) (fun _ => 1) (fun _ => 0) true true).
  set (x := fun c k : nat => if Nat.eqb c FW then 0 else 1).
  assert (forall k, (1 <= k < f_levels F)%nat -> xi (prepare F x) k = 0) as H by (intros k K; cbn in K; replace k with 1%nat by lia; cbn; lra).
  exists F, x. split; [cbn; lia|]. split; [exact H|]. apply (proj2 (C130_rest F x H)). intros k K. cbn in K. replace k with 1%nat by lia.
  unfold apply_op, add_over, columns. cbn. unfold x, FP, FR, FW. cbn. generalize (PhysModel.exner_from_rhotheta (PhysModel.Constants 1 0 1 0 1 2 1 1 1 1 1 1 1 1 1) 1). intros e. field.
Qed.
