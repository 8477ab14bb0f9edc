(** * The matrix of the column equations
    BuildJacobianF and BuildJacobianF_Diffusion, src/atm/VerticalDynamicsSchur.cpp:3130-3554,
    as compiled: FORMULATION_RHOTHETA_PI, EXPLICIT_VERTICAL_VELOCITY_ADVECTION, no
    EXPLICIT_THERMO, finite volumes (one node in an element), Lorenz staggering with the
    velocity on interfaces, rho theta and rho on levels.  The additions to dDG are
    collected by entry. *)
From Coq Require Import ZArith Reals List Bool.
From Verif Require Import SchurModel.
Import ListNotations.
Local Open Scope R_scope.

(** a LinearColumnOperator: row [k] has coefficients for the columns from [lo k] up to
    but without [hi k] *)
Record column_op := ColumnOp { lo : nat -> nat; hi : nat -> nat; co : nat -> nat -> R }.
Definition columns (o : column_op) (k : nat) : list nat := seq (lo o k) (hi o k - lo o k).
Definition add_over (l : list nat) (h : nat -> R) : R := fold_left (fun s m => s + h m) l 0.
Definition has (l : list nat) (m : nat) : bool := existsb (Nat.eqb m) l.

(** the rows of the operators of the finite volumes for 2 [off] as vertical order, with
    any coefficients: src/atm/LinearColumnOperatorFEM.cpp, flux divergence 950-965,
    interpolation to interfaces 248-320, gradient at interfaces 1019-1048, penalties
    1781-1838 (the rows without an interior edge are empty) *)
Definition divergence_op (w : nat -> nat -> R) : column_op := ColumnOp (fun k => k) (fun k => k + 2)%nat w.
Definition interpolation_op (off n : nat) (w : nat -> nat -> R) : column_op :=
  ColumnOp (fun k => if Nat.eqb k 0 then 0 else k - off)%nat (fun k => if Nat.eqb k n then n else S (Nat.min (k + off - 1) (n - 1))) w.
Definition gradient_op (off n : nat) (w : nat -> nat -> R) : column_op :=
  ColumnOp (fun k => k - off)%nat (fun k => S (Nat.min (k + off - 1) (n - 1))) w.
Definition left_op (off n : nat) (w : nat -> nat -> R) : column_op :=
  ColumnOp (fun k => if Nat.ltb (k + 1) n then k + 1 - off else 0)%nat (fun k => if Nat.ltb (k + 1) n then S (Nat.min (k + 1 + off - 1) (n - 1)) else 0)%nat w.
Definition right_op (off n : nat) (w : nat -> nat -> R) : column_op :=
  ColumnOp (fun k => if Nat.eqb k 0 then 0 else k - off)%nat (fun k => if Nat.eqb k 0 then 0 else S (Nat.min (k + off - 1) (n - 1)))%nat w.

(** the column: sizes, operators, geometry on levels ([_n]) and interfaces ([_e]), state.
    jac_e m_dColumnJacobianREdge, ijac m_dColumnInvJacobianNode, con_e
    m_dColumnContraMetricXiREdge[.][2], der_e m_dColumnDerivRREdge[.][2], der_n
    m_dColumnDerivRNode[.][2], xi m_dXiDotREdge, p_e and r_e m_dStateREdge, p_n and r_n
    m_dStateNode, exner m_dExnerNode, dp_e m_dDiffPREdge; upwinding of component 2 and 4:
    m_fUpwindVar *)
Record column := Column { levels_ : nat; step : R; gas : R; cv : R;
  d_en : column_op; d_ne : column_op; i_ne : column_op; pen_l : column_op; pen_r : column_op;
  jac_e : nat -> R; ijac : nat -> R; con_e : nat -> R; der_e : nat -> R; der_n : nat -> R; xi : nat -> R;
  p_e : nat -> R; r_e : nat -> R; p_n : nat -> R; r_n : nat -> R; exner : nat -> R; dp_e : nat -> R;
  up_p : bool; up_r : bool }.

Section Entries.
Context (C : column).
Definition n_ := levels_ C.
(** sign of the interface velocity, 3273-3280 *)
Definition sign_of (v : R) : R := if Rlt_dec 0 v then 1 else if Rlt_dec v 0 then -1 else 0.
Definition upwinds (c : nat) : bool := if Nat.eqb c FP then up_p C else up_r C.
Definition state_n (c : nat) : nat -> R := if Nat.eqb c FP then p_n C else r_n C.
Definition state_e (c : nat) : nat -> R := if Nat.eqb c FP then p_e C else r_e C.

(** level [k] against velocity [m]: the flux, 3431-3449, and the upwinding, 3288-3310,
    at the upper interface (left operator) or the lower one (right operator) *)
Definition flux_coefficient (k m : nat) : R := co (d_en C) k m * jac_e C m * ijac C k * con_e C m * der_e C m.
Definition level_velocity (c k m : nat) : R :=
  (if (has (columns (d_en C) k) m && negb (Nat.eqb m 0) && negb (Nat.eqb m n_))%bool then flux_coefficient k m * state_e c m else 0)
  - (if (upwinds c && Nat.leb 1 m && Nat.ltb m n_ && Nat.eqb (k + 1) m)%bool
     then add_over (columns (pen_l C) k) (fun q => sign_of (xi C m) / der_e C m * co (pen_l C) k q * state_n c q) else 0)
  - (if (upwinds c && Nat.leb 1 m && Nat.ltb m n_ && Nat.eqb k m)%bool
     then add_over (columns (pen_r C) k) (fun q => sign_of (xi C m) / der_e C m * co (pen_r C) k q * state_n c q) else 0).
(** level [k] against the same variable of level [q]: the flux, 3451-3465, the
    upwinding, 3312-3328, and the identity, 3536-3541 *)
Definition level_level (c k q : nat) : R :=
  add_over (columns (d_en C) k) (fun m => if has (columns (i_ne C) m) q then co (d_en C) k m * jac_e C m * ijac C k * co (i_ne C) m q * xi C m else 0)
  - (if (upwinds c && Nat.ltb (k + 1) n_ && has (columns (pen_l C) k) q)%bool then Rabs (xi C (k + 1)%nat) * co (pen_l C) k q else 0)
  - (if (upwinds c && Nat.leb 1 k && has (columns (pen_r C) k) q)%bool then Rabs (xi C k) * co (pen_r C) k q else 0)
  + (if Nat.eqb k q then 1 / step C else 0).
(** velocity [i] against level [q], 3470-3508 *)
Definition coefficient_a (i : nat) : R := p_e C i * gas C / (der_n C i * r_e C i * cv C).
Definition coefficient_b (i : nat) : R := 1 / der_e C i / (r_e C i * r_e C i) * dp_e C i.
Definition velocity_level (c i q : nat) : R :=
  if (Nat.leb 1 i && Nat.ltb i n_)%bool then
    if Nat.eqb c FP then
      (if has (columns (d_ne C) i) q then coefficient_a i * co (d_ne C) i q * exner C q / p_n C q else 0)
      + (if has (columns (i_ne C) i) q then coefficient_b i * co (i_ne C) i q * r_e C i else 0)
    else (if has (columns (i_ne C) i) q then - (coefficient_b i * co (i_ne C) i q) * p_e C i else 0)
  else 0.

(** the operators of the grid, src/atm/GridGLL.cpp:194-252 *)
Definition built (off : nat) : Prop := exists w1 w2 w3 w4 w5,
  d_en C = divergence_op w1 /\ i_ne C = interpolation_op off (levels_ C) w2 /\ d_ne C = gradient_op off (levels_ C) w3 /\
  pen_l C = left_op off (levels_ C) w4 /\ pen_r C = right_op off (levels_ C) w5.

(** row [c1], [k1], column [c0], [k0] *)
Definition entry_of (c1 k1 c0 k0 : nat) : R :=
  if Nat.eqb c1 FW then
    if Nat.eqb c0 FW then (if Nat.eqb k1 k0 then 1 / step C else 0) else velocity_level c0 k1 k0
  else if Nat.ltb k1 n_ then
    if Nat.eqb c0 FW then level_velocity c1 k1 k0 else if Nat.eqb c0 c1 then level_level c1 k1 k0 else 0
  else if (Nat.eqb c0 c1 && Nat.eqb k0 k1)%bool then 1 / step C else 0.
(** the matrix by numbers of equation and unknown *)
Definition jacobian (r c : Z) : R :=
  if ((0 <=? r) && (r <? 3 * Z.of_nat (S n_)) && (0 <=? c) && (c <? 3 * Z.of_nat (S n_)))%Z%bool
  then entry_of (Z.to_nat (r mod 3)) (Z.to_nat (r / 3)) (Z.to_nat (c mod 3)) (Z.to_nat (c / 3)) else 0.
(** the array dDG: [fo] places on either side of the diagonal *)
Definition band_array (fo : Z) : Z -> R :=
  fun a => let c := (a / (2 * fo + 1))%Z in jacobian (a mod (2 * fo + 1) - fo + c)%Z c.
End Entries.
