(** * The column equations
    PrepareColumn and BuildF, src/atm/VerticalDynamicsSchur.cpp:2165-2513 and 2515-3126,
    as compiled: FORMULATION_RHOTHETA_PI, EXPLICIT_VERTICAL_VELOCITY_ADVECTION, no
    EXPLICIT_THERMO, finite volumes, velocity on interfaces, rho theta and rho on levels,
    no forced mass flux on levels.  Uniform diffusion and flow-dependent hyperviscosity
    (2928-2975, 3060-3088) are taken off: they have no place in BuildJacobianF either. *)
From Coq Require Import ZArith Reals List Bool.
From Verif Require Import SchurModel SchurJacModel.
From Verif Require PhysModel.
Import ListNotations.
Local Open Scope R_scope.

(** what stays fixed in the solve: sizes, constants, operators, geometry, the part of
    u^xi from the horizontal velocities ([f_across]: m_dColumnContraMetricXiREdge[k][0]
    times U plus [1] times V, 2398-2399), the components upwinded *)
Record frame := Frame { f_levels : nat; f_step : R; f_phys : PhysModel.constants;
  f_den : column_op; f_dne : column_op; f_ine : column_op; f_penl : column_op; f_penr : column_op;
  f_jac_e : nat -> R; f_ijac : nat -> R; f_con_e : nat -> R; f_der_e : nat -> R; f_der_n : nat -> R; f_across : nat -> R;
  f_up_p : bool; f_up_r : bool }.
(** the unknowns by component and place *)
Definition unknowns := nat -> nat -> R.
(** interfaces inside the column *)
Definition within (n k : nat) : bool := (Nat.leb 1 k && Nat.ltb k n)%bool.
(** LinearColumnOperator::Apply, src/atm/LinearColumnOperator.h:153-172 *)
Definition apply_op (o : column_op) (h : nat -> R) (k : nat) : R := add_over (columns o k) (fun m => co o k m * h m).

(** PrepareColumn: interpolation 2281-2284 and 2305-2308, Exner pressure 2311-2315, its
    derivative 2318-2320, u^xi on interfaces 2393-2404 *)
Definition prepare (F : frame) (x : unknowns) : column :=
  let ex := fun k => PhysModel.exner_from_rhotheta (f_phys F) (x FP k) in
  Column (f_levels F) (f_step F) (PhysModel.gas (f_phys F)) (PhysModel.cp (f_phys F) - PhysModel.gas (f_phys F))
    (f_den F) (f_dne F) (f_ine F) (f_penl F) (f_penr F)
    (f_jac_e F) (f_ijac F) (f_con_e F) (f_der_e F) (f_der_n F)
    (fun k => if within (f_levels F) k then f_across F k + f_con_e F k * (x FW k * f_der_e F k) else 0)
    (apply_op (f_ine F) (x FP)) (apply_op (f_ine F) (x FR)) (x FP) (x FR) ex (apply_op (f_dne F) ex)
    (f_up_p F) (f_up_r F).

(** the flux of a component on levels, 2551-2562 and 2634-2645: the entries at the ends
    of the array stay zero *)
Definition flux (C : column) (c : nat) (m : nat) : R :=
  if within (levels_ C) m then jac_e C m * state_e C c m * xi C m else 0.
(** the weight of the interface above level [a], 2996-2999 *)
Definition weight (C : column) (a : nat) : R := Rabs (xi C (a + 1)%nat).
(** LinearColumnDiscPenaltyFEM::Apply, src/atm/LinearColumnOperatorFEM.cpp:1863-1888,
    one node in an element *)
Definition penalty (C : column) (h : nat -> R) (k : nat) : R :=
  (if Nat.ltb (k + 1) (levels_ C) then apply_op (pen_l C) h k * weight C k else 0)
  + (if Nat.leb 1 k then apply_op (pen_r C) h k * weight C (k - 1)%nat else 0).
(** the equation of a component on level [k], 2564-2570, 2647-2652, 3046-3058 *)
Definition level_equation (C : column) (c k : nat) : R :=
  apply_op (d_en C) (flux C c) k * ijac C k - (if upwinds C c then penalty C (state_n C c) k else 0).
(** the equation of the velocity at an inner interface, 2866-2895 *)
Definition velocity_equation (C : column) (g : R) (k : nat) : R := dp_e C k * p_e C k / r_e C k / der_e C k + g.
(** BuildF; the boundary rows of the velocity are zero, 3090-3102; the places of the
    level components at the number of levels are never written; the time derivative
    3121-3125.  [old] is m_dColumnState *)
Definition build_f (F : frame) (old x : unknowns) (c k : nat) : R :=
  let C := prepare F x in
  (if Nat.eqb c FW then if within (levels_ C) k then velocity_equation C (PhysModel.g (f_phys F)) k else 0
   else if Nat.ltb k (levels_ C) then level_equation C c k else 0)
  + (x c k - old c k) * (1 / f_step F).
