(** * HighSpeedDynamics
    StepImplicitCombine and StepExplicitCombine
    (src/atm/HighSpeedDynamics.cpp:363-1525) on one patch; double is R.  The prognostic
    variables are rho u^a, rho u^b, rho theta, rho on levels and rho w on interfaces.
    FORMULATION_RHOTHETA_PI is on (src/atm/Defines.h:37-67).  The buffers of an element
    are refilled before they are read, so they are functions of the node; entries that
    no loop fills keep the zero of Allocate (src/base/DataArray3D.h:131-166), except
    m_dA, which the solver overwrites.  iDataUpdate differs from iDataArgument; the
    combination of the data instances (661-684, 1424-1448) is an input, and reads only
    the node it then writes. *)
From Coq Require Import ZArith Reals List Bool.
From Verif Require Import ShallowModel ViscModel.
From Verif Require PhysModel.
Import ListNotations.
Local Open Scope R_scope.
Local Notation z := Z.of_nat.

(** ** The implicit step of a column, 1135-1515 *)
(** dataZn, dataZi; W, rho and rho theta of the argument; what the argument's
    interface arrays hold of theta before the step; the old contents of m_dA *)
Record hcol := Hcol { zn : nat -> R; zi : nat -> R; aW : nat -> R; aR : nat -> R; aP : nat -> R;
  oldP : nat -> R; oldA : nat -> R }.
(** the combination of rho u^a, rho u^b, rho theta, rho and rho w in a column *)
Record hvec := Hvec { cU : nat -> R; cV : nat -> R; cP : nat -> R; cR : nat -> R; cW : nat -> R }.

Section Implicit.
Context (c : PhysModel.constants) (N : nat) (dt : R) (X : hcol).
(** 1152-1160 *)
Definition hp (k : nat) : R := PhysModel.pressure_from_rhotheta c (aP X k).
Definition hdp (k : nat) : R := hp k * PhysModel.gamma c / aP X k.
(** 1170-1190, loop 1 <= k < nRElements *)
Definition inner_edge (k : nat) : bool := Nat.leb 1 k && Nat.ltb k N.
Definition hre (k : nat) : R := 1 / 2 * (aR X k + aR X (k - 1)).
Definition hth (k : nat) : R := if inner_edge k then 1 / 2 * (1 / hre k) * (aP X k + aP X (k - 1)) else oldP X k.
(** 1229-1243 *)
Definition inv_dz (k : nat) : R := 1 / (zi X (k + 1) - zi X k).
Definition inv_hat (k : nat) : R := 1 / (zn X k - zn X (k - 1)).
(** the coefficients of row k, 1245-1303 *)
Definition row_a (k : nat) : R := - (dt * dt) * inv_dz (k - 1) * (inv_hat k * hdp (k - 1) * hth (k - 1) - 1 / 2 * PhysModel.g c).
Definition row_b (k : nat) : R :=
  1 + dt * dt * (inv_hat k * hth k * (hdp k * inv_dz k + hdp (k - 1) * inv_dz (k - 1)) +
                 1 / 2 * PhysModel.g c * (inv_dz k - inv_dz (k - 1))).
Definition row_c (k : nat) : R := - (dt * dt) * inv_dz k * (inv_hat k * hdp k * hth (k + 1) + 1 / 2 * PhysModel.g c).
Definition row_d (k : nat) : R := aW X k - dt * (inv_hat k * (hp k - hp (k - 1)) + PhysModel.g c * hre k).

(** the arrays handed to dgtsv, 1206-1218, 1245-1303 with USE_LAPACK_TRIDIAGONAL_SOLVE
    (32): m_dA(i,j,k-1) belongs to row k, and the entry of the last row is not filled *)
Definition arr_a (k : nat) : R := if inner_edge (k + 1) then row_a (k + 1) else if Nat.eqb k 0 then 0 else oldA X k.
Definition arr_b (k : nat) : R := if inner_edge k then row_b k else 1.
Definition arr_c (k : nat) : R := if inner_edge k then row_c k else 0.
Definition arr_d (k : nat) : R := if inner_edge k then row_d k else 0.
(** with USE_VECTOR_TRIDIAGONAL_SOLVE, 1194-1204, 1245-1248: m_dA(k) belongs to row k *)
Definition vec_a (k : nat) : R := if inner_edge k then row_a k else 0.

(** 1417-1514, [x] is m_dD after the solve *)
Definition himplicit (u o : hvec) (x : nat -> R) : hvec :=
  let rho := fun k => cR u k + - dt * (inv_dz k * (x (k + 1)%nat - x k)) in
  let p := fun k => cP u k + - dt * (inv_dz k * (x (k + 1)%nat * hth (k + 1) - x k * hth k)) in
  let w := fun k => if Nat.eqb k 0 then 0 else cW u k + (x k - aW X k) in
  let lvl := fun (f g : nat -> R) k => if Nat.ltb k N then f k else g k in
  Hvec (lvl (cU u) (cU o)) (lvl (cV u) (cV o)) (lvl p (cP o)) (lvl rho (cR o)) (lvl w (cW o)).
End Implicit.

(** what dgtsv is asked for: the solution of the tridiagonal system of order m with
    sub-diagonal l, diagonal d and super-diagonal u *)
Definition solves (m : nat) (l d u r x : nat -> R) : Prop :=
  forall k, (k < m)%nat ->
    (if Nat.eqb k 0 then 0 else l (k - 1)%nat * x (k - 1)%nat) + d k * x k + (if Nat.eqb (k + 1) m then 0 else u k * x (k + 1)%nat) = r k.

(** USE_VECTOR_TRIDIAGONAL_SOLVE, 1318-1352: elimination for the rows below
    nRElements, then back substitution from the last entry of m_dD; here the
    sub-diagonal of row k is m_dA(k).  [None]: a division by zero *)
Section Thomas.
Context (a b c d : nat -> R).
Fixpoint forward (k : nat) : option (R * R) :=
  match k with
  | O => if Req_EM_T (b O) 0 then None else Some (c O / b O, d O / b O)
  | S j => match forward j with
           | Some (c', d') =>
               if Req_EM_T (b k - a k * c') 0 then None
               else Some (c k / (b k - a k * c'), (d k - a k * d') / (b k - a k * c'))
           | None => None
           end
  end.
(** the entries m_dD(k), .., m_dD(nRElements) from m_dC(k), m_dD(k), .. *)
Fixpoint backward (N k : nat) : option (list R) :=
  match k with
  | O => Some [d N]
  | S j => match backward N j, forward (N - S j) with
           | Some (x :: r), Some (c', d') => Some ((d' - c' * x) :: x :: r)
           | _, _ => None
           end
  end.
End Thomas.
Definition thomas (N : nat) (a b c d : nat -> R) : option (list R) := backward a b c d N N.

(** ** The explicit step, 400-1000 *)
Definition field3 := nat -> field.
Record hstate := Hstate { hU : field3; hV : field3; hP : field3; hR : field3; hW : field3 }.
(** [base2]: dJacobian2D, dContraMetric2DA and B, dCoriolisF, the element spacings;
    dJacobian, dJacobianREdge, dCovMetric2DA(..,0), (..,1), B(..,0), (..,1),
    dDerivRNode(..,0), (..,1), dDerivRREdge(..,0), (..,1), dataZn, dataZi *)
Record hgeom := Hgeom { base2 : geometry; J3 : field3; JE : field3;
  ka0 : field; ka1 : field; kb0 : field; kb1 : field;
  dRa : field3; dRb : field3; eRa : field3; eRb : field3; Zn : field3; Zi : field3 }.

Section Explicit.
Context (c : PhysModel.constants) (n : nat) (B : basis) (G : hgeom) (N : nat) (arg : hstate).
Local Notation D_a := (d_alpha n B (base2 G)).
Local Notation D_b := (d_beta n B (base2 G)).
Local Notation V_a := (v_alpha n B (base2 G)).
Local Notation V_b := (v_beta n B (base2 G)).

(** GridPatch::ComputePressure, src/atm/GridPatch.cpp:588-639 *)
Definition xp : field3 := fun k x y => PhysModel.pressure_from_rhotheta c (hP arg k x y).
(** interfaces 1 <= k < nRElements, 518-580 *)
Definition mean (f : field3) : field3 := fun k x y => 1 / 2 * (f (k - 1)%nat x y + f k x y).
Definition inv_re : field3 := fun k x y => 1 / mean (hR arg) k x y.
Definition sdot : field3 := fun k x y =>
  hW arg k x y - mean (hU arg) k x y * eRa G k x y - mean (hV arg) k x y * eRb G k x y.
Definition on_edges (f : field3) : field3 := fun k x y => if inner_edge N k then f k x y else 0.
Definition sdot_ua : field3 := on_edges (fun k x y => sdot k x y * inv_re k x y * mean (hU arg) k x y).
Definition sdot_ub : field3 := on_edges (fun k x y => sdot k x y * inv_re k x y * mean (hV arg) k x y).
Definition vflux_a : field3 := fun k x y => JE G k x y * hW arg k x y * inv_re k x y * mean (hU arg) k x y.
Definition vflux_b : field3 := fun k x y => JE G k x y * hW arg k x y * inv_re k x y * mean (hV arg) k x y.
(** levels, 583-650 *)
Definition con_a : field3 := fun k x y => 1 / hR arg k x y * hU arg k x y.
Definition con_b : field3 := fun k x y => 1 / hR arg k x y * hV arg k x y.
Definition cov_a : field3 := fun k x y => ka0 G x y * con_a k x y + ka1 G x y * con_b k x y.
Definition cov_b : field3 := fun k x y => kb0 G x y * con_a k x y + kb1 G x y * con_b k x y.
Definition mass_a : field3 := fun k x y => J3 G k x y * hU arg k x y.
Definition mass_b : field3 := fun k x y => J3 G k x y * hV arg k x y.
Definition pres_a : field3 := fun k x y => mass_a k x y * hP arg k x y * (1 / hR arg k x y).
Definition pres_b : field3 := fun k x y => mass_b k x y * hP arg k x y * (1 / hR arg k x y).
Definition kin2 : field3 := fun k x y => 1 / 2 * (cov_a k x y * con_a k x y + cov_b k x y * con_b k x y).
Definition sdot_w : field3 := fun k x y =>
  1 / 2 * (hW arg k x y + hW arg (k + 1)%nat x y) - dRa G k x y * hU arg k x y - dRb G k x y * hV arg k x y.

(** dDzP, 795-817 *)
Definition dz_p (k : nat) (x y : Z) : R :=
  if Nat.eqb k 0 then (xp (k + 1)%nat x y - xp k x y) / (Zn G (k + 1)%nat x y - Zn G k x y)
  else if Nat.eqb (k + 1) N then (xp k x y - xp (k - 1)%nat x y) / (Zn G k x y - Zn G (k - 1)%nat x y)
  else (xp (k + 1)%nat x y - xp (k - 1)%nat x y) / (Zn G (k + 1)%nat x y - Zn G (k - 1)%nat x y).
(** at node (i, j) of the element at (p, q), 686-894 *)
Definition da_p (k : nat) (p q : Z) (i j : nat) : R := D_a (xp k) p q i j - dRa G k (p + z i)%Z (q + z j)%Z * dz_p k (p + z i) (q + z j).
Definition db_p (k : nat) (p q : Z) (i j : nat) : R := D_b (xp k) p q i j - dRb G k (p + z i)%Z (q + z j)%Z * dz_p k (p + z i) (q + z j).
Definition con_da (fa fb : nat -> Z -> Z -> nat -> nat -> R) (k : nat) (p q : Z) (i j : nat) : R :=
  gA0 (base2 G) (p + z i)%Z (q + z j)%Z * fa k p q i j + gA1 (base2 G) (p + z i)%Z (q + z j)%Z * fb k p q i j.
Definition con_db (fa fb : nat -> Z -> Z -> nat -> nat -> R) (k : nat) (p q : Z) (i j : nat) : R :=
  gB0 (base2 G) (p + z i)%Z (q + z j)%Z * fa k p q i j + gB1 (base2 G) (p + z i)%Z (q + z j)%Z * fb k p q i j.
Definition hdiv (fa fb : field3) (k : nat) (p q : Z) (i j : nat) : R :=
  1 / J3 G k (p + z i)%Z (q + z j)%Z * (V_a (fa k) p q i j + V_b (fb k) p q i j).
Definition dz_edge (f : field3) (k : nat) (x y : Z) : R :=
  1 / (Zi G (k + 1)%nat x y - Zi G k x y) * (f (k + 1)%nat x y - f k x y).
Definition abs_vort (k : nat) (p q : Z) (i j : nat) : R :=
  gF (base2 G) (p + z i)%Z (q + z j)%Z +
  1 / gJ (base2 G) (p + z i)%Z (q + z j)%Z * (D_a (cov_b k) p q i j - D_b (cov_a k) p q i j).
Definition vort_a (k : nat) (p q : Z) (i j : nat) : R :=
  - abs_vort k p q i j * (1 / gJ (base2 G) (p + z i)%Z (q + z j)%Z) * cov_b k (p + z i)%Z (q + z j)%Z.
Definition vort_b (k : nat) (p q : Z) (i j : nat) : R :=
  abs_vort k p q i j * (1 / gJ (base2 G) (p + z i)%Z (q + z j)%Z) * cov_a k (p + z i)%Z (q + z j)%Z.
Definition ten_u (k : nat) (p q : Z) (i j : nat) : R :=
  let x := (p + z i)%Z in let y := (q + z j)%Z in
  - con_da da_p db_p k p q i j
  - hR arg k x y * (con_da (fun k => D_a (kin2 k)) (fun k => D_b (kin2 k)) k p q i j + vort_a k p q i j)
  - hdiv mass_a mass_b k p q i j * con_a k x y - dz_edge sdot_ua k x y.
Definition ten_v (k : nat) (p q : Z) (i j : nat) : R :=
  let x := (p + z i)%Z in let y := (q + z j)%Z in
  - con_db da_p db_p k p q i j
  - hR arg k x y * (con_db (fun k => D_a (kin2 k)) (fun k => D_b (kin2 k)) k p q i j + vort_b k p q i j)
  - hdiv mass_a mass_b k p q i j * con_b k x y - dz_edge sdot_ub k x y.
(** interfaces 1 <= k < nRElements, 934-996 *)
Definition ten_w (k : nat) (p q : Z) (i j : nat) : R :=
  let x := (p + z i)%Z in let y := (q + z j)%Z in
  - (1 / JE G k x y * (V_a (vflux_a k) p q i j + V_b (vflux_b k) p q i j) +
     1 / (Zn G k x y - Zn G (k - 1)%nat x y) * (sdot_w k x y - sdot_w (k - 1)%nat x y)).

(** the whole patch, 505-998; [u] is the combination, [o] the former contents of the
    update; the loops over levels also combine rho w, so only on the interfaces below
    nRElements *)
Definition hexplicit (dt : R) (h : Z) (nA nB : nat) (u o : hstate) : hstate :=
  let lvl := fun (F : nat -> Z -> Z -> nat -> nat -> R) (f g : field3) k =>
    if Nat.ltb k N then patch_loop n h nA nB (fun p q i j _ => f k (p + z i)%Z (q + z j)%Z + F k p q i j) (g k) else g k in
  Hstate (lvl (fun k p q i j => dt * ten_u k p q i j) (hU u) (hU o))
         (lvl (fun k p q i j => dt * ten_v k p q i j) (hV u) (hV o))
         (lvl (fun k p q i j => - dt * hdiv pres_a pres_b k p q i j) (hP u) (hP o))
         (lvl (fun k p q i j => - dt * hdiv mass_a mass_b k p q i j) (hR u) (hR o))
         (lvl (fun k p q i j => if inner_edge N k then dt * ten_w k p q i j else 0) (hW u) (hW o)).
End Explicit.
