(** * Topography and metric terms at the nodes
    GridPatchCSGLL and GridPatchCartesianGLL: EvaluateTopography, EvaluateGeometricTerms
    and the heights and friction strengths of EvaluateTestCase
    (src/atm/GridPatchCSGLL.cpp:227-574, 620-683,
    src/atm/GridPatchCartesianGLL.cpp:130-459, 490-566), and
    GridPatch::ComputeSurfacePressure (src/atm/GridPatch.cpp:542-590).  double is R.
    The loops over the elements, nodes and levels write each entry once from data that
    they do not write, so the values are functions of the data at the node; the
    exceptions are kept.  A division by zero is R's, theorems exclude it. *)
From Coq Require Import ZArith Reals List Bool.
From Verif Require Import ShallowModel DiagModel LevModel.
Import ListNotations.
Local Open Scope R_scope.
Local Notation z := Z.of_nat.

(** m_dataJacobian2D, the rows of m_dataContraMetric2D and m_dataCovMetric2D *)
Record metric2 := Metric2 { h_j : R; h_a0 : R; h_a1 : R; h_b0 : R; h_b1 : R;
  c_a0 : R; c_a1 : R; c_b0 : R; c_b1 : R }.
(** m_dataJacobian, the rows A, B, Xi of m_dataContraMetric and m_dataDerivRNode; the
    same on interfaces *)
Record metric3 := Metric3 { v_j : R; v_a0 : R; v_a1 : R; v_a2 : R; v_b0 : R; v_b1 : R; v_b2 : R;
  v_x0 : R; v_x1 : R; v_x2 : R; r_a : R; r_b : R; r_x : R }.

(** ** The cubed sphere.  [R0]: the radius of the Earth; [X], [Y]: m_dXNode, m_dYNode *)
(** GridPatchCSGLL.cpp:370-425 *)
Definition cs_scale (R0 X Y : R) : R := (1 + X * X + Y * Y) / (1 + X * X) / (1 + Y * Y) / (R0 * R0).
Definition cs2 (R0 X Y : R) : metric2 :=
  let d2 := 1 + X * X + Y * Y in let d := sqrt d2 in
  let s := cs_scale R0 X Y in
  let c := R0 * R0 * (1 + X * X) * (1 + Y * Y) / (d2 * d2) in
  Metric2 ((1 + X * X) * (1 + Y * Y) / (d * d * d) * (R0 * R0))
    (s * (1 + Y * Y)) (s * X * Y) (s * X * Y) (s * (1 + X * X))
    (c * (1 + X * X)) (c * (- X * Y)) (c * (- X * Y)) (c * (1 + Y * Y)).
(** levels, 427-491 *)
Definition cs_level (R0 Ztop X Y Zs Da Db eta : R) : metric3 :=
  let m := cs2 R0 X Y in let s := cs_scale R0 X Y in
  let ra := (1 - eta) * Da in let rb := (1 - eta) * Db in let rx := Ztop - Zs in
  let a2 := - s / rx * ((1 + Y * Y) * ra + X * Y * rb) in
  let b2 := - s / rx * (X * Y * ra + (1 + X * X) * rb) in
  Metric3 (rx * h_j m) (h_a0 m) (h_a1 m) a2 (h_b0 m) (h_b1 m) b2
    a2 b2 (1 / (rx * rx) - 1 / rx * (a2 * ra + b2 * rb)) ra rb rx.
(** interfaces, 493-568 *)
Definition cs_interface (R0 Ztop X Y Zs Da Db eta : R) : metric3 :=
  let m := cs2 R0 X Y in let s := cs_scale R0 X Y in
  let d := sqrt (1 + X * X + Y * Y) in
  let ra := (1 - eta) * Da in let rb := (1 - eta) * Db in let rx := Ztop - Zs in
  let x0 := - s / rx * ((1 + Y * Y) * ra + X * Y * rb) in
  let x1 := - s / rx * (X * Y * ra + (1 + X * X) * rb) in
  Metric3 ((1 + X * X) * (1 + Y * Y) / (d * d * d) * (rx * R0 * R0))
    (h_a0 m) (h_a1 m) (- s / rx * ((1 + Y * Y) * ra + X * Y * rb))
    (h_b0 m) (h_b1 m) (- s / rx * (X * Y * ra + (1 + X * X) * rb))
    x0 x1 (1 / (rx * rx) - 1 / rx * (x0 * ra + x1 * rb)) ra rb rx.
(** m_dataCoriolisF, 349-354 *)
Definition cs_coriolis (omega lat : R) : R := 2 * omega * sin lat.
(** the values that the metric uses for Zs and its derivatives, 376-386 *)
Definition cs_surface (dim : nat) (v : R) : R := if (dim =? 2)%nat then 0 else v.
(** m_dataZLevels and m_dataZInterfaces of EvaluateTestCase, 620-661 *)
Definition cs_height (Ztop Zs eta : R) : R := Zs + eta * (Ztop - Zs).
Definition cs_z_level (dim : nat) (Ztop Zs : R) (lev : nat -> R) (k : nat) : R :=
  if (dim =? 2)%nat then 0 else cs_height Ztop Zs (lev k).
Definition cs_z_interface (dim : nat) (Ztop Zs : R) (itf : nat -> R) (k : nat) : R :=
  if (dim =? 2)%nat then if (k =? 0)%nat then 0 else 1 else cs_height Ztop Zs (itf k).

(** ** The Cartesian grid *)
(** the decay of the topography, GridPatchCartesianGLL.cpp:310-323 *)
Definition decay (eta : R) : R :=
  (1 - 1 * eta) * (cos (1 / 2 * PI * eta) ^ 6 + 1 / 4 * eta * sin (1 / 2 * PI * eta)).
(** 325-335 *)
Definition decay_x (eta : R) : R :=
  - cos (1 / 2 * PI * eta) ^ 6 - 1 / 4 * eta * sin (1 / 2 * PI * eta)
  + (1 - 1 * eta) * (-3 * PI * cos (1 / 2 * PI * eta) ^ 5 * sin (1 / 2 * PI * eta)
      + 1 / 4 * sin (1 / 2 * PI * eta) + PI / 8 * eta * cos (1 / 2 * PI * eta)).
(** 281-296 *)
Definition cart2 : metric2 := Metric2 1 1 0 0 1 1 0 0 1.
(** levels, 298-375 *)
Definition cart_level (Ztop Zs Da Db eta : R) : metric3 :=
  let ra := decay eta * Da in let rb := decay eta * Db in let rx := Ztop + Zs * decay_x eta in
  Metric3 (rx * h_j cart2) (h_a0 cart2) (h_a1 cart2) (- ra / rx) (h_b0 cart2) (h_b1 cart2) (- rb / rx)
    (- ra / rx) (- rb / rx) ((1 + ra * ra + rb * rb) / (rx * rx)) ra rb rx.
(** interfaces, 377-454: the same formulas, written again in the code *)
Definition cart_interface (Ztop Zs Da Db eta : R) : metric3 :=
  let ra := decay eta * Da in let rb := decay eta * Db in let rx := Ztop + Zs * decay_x eta in
  Metric3 (rx * h_j cart2) (h_a0 cart2) (h_a1 cart2) (- ra / rx) (h_b0 cart2) (h_b1 cart2) (- rb / rx)
    (- ra / rx) (- rb / rx) ((1 + ra * ra + rb * rb) / (rx * rx)) ra rb rx.
(** heights, 521-541 *)
Definition cart_height (Ztop Zs eta : R) : R := Ztop * eta + decay eta * Zs.
(** m_dataCoriolisF, 241-261; m_dataLat is y *)
Definition cart_coriolis (xz : bool) (omega R0 lat0 Ymin Ymax y : R) : R :=
  let y0 := 1 / 2 * Rabs (Ymax - Ymin) in
  if xz then 0 else 2 * omega * sin lat0 + 2 * omega * cos lat0 / R0 * (y - y0).

(** ** Element areas of levels and interfaces, GridPatchCSGLL.cpp:454-458, 525-529,
    GridPatchCartesianGLL.cpp:341-347, 420-426 *)
Definition area (J wi dA wj dB wk : R) : R := J * wi * dA * wj * dB * wk.

(** ** The checks of EvaluateGeometricTerms: true if no exception.
    GridPatchCSGLL.cpp:300-341, GridPatchCartesianGLL.cpp:215-234 *)
Definition cs_geometry_ok (dim : nat) (Ztop : R) (st : staggering) (K : nat) (c : vcoord) : bool :=
  (if (dim =? 2)%nat then if Req_EM_T Ztop 1 then true else false else true) && areas_pass st K c.

(** ** EvaluateTopography, GridPatchCSGLL.cpp:227-291, GridPatchCartesianGLL.cpp:130-193:
    [topo] is m_dataTopography by patch index; the derivatives at node (i, j) of the
    element with first node (p, q) *)
Section Topography.
Context (n : nat) (B : basis) (dA dB : R) (topo : Z -> Z -> R).
Definition topo_a (p q : Z) (i j : nat) : R := inc n (fun s => bD B s i * topo (p + z s)%Z (q + z j)%Z) / dA.
Definition topo_b (p q : Z) (i j : nat) : R := inc n (fun s => bD B s j * topo (p + z i)%Z (q + z s)%Z) / dB.
(** what m_dataTopographyDeriv receives *)
Definition topo_slopes (p q : Z) (i j : nat) : R * R := (topo_a p q i j, topo_b p q i j).
(** the Cartesian grid stops if the topography reaches the top, over the whole patch
    with its halo, GridPatchCartesianGLL.cpp:140-153; None: exception *)
Definition cart_topography (Ztop : R) (wA wB : nat) : option (Z -> Z -> R) :=
  if forallb (fun i => forallb (fun j => if Rle_dec Ztop (topo (z i) (z j)) then false else true) (seq 0 wB)) (seq 0 wA)
  then Some topo else None.
End Topography.

(** ** Rayleigh friction strengths on interfaces: GridPatchCSGLL.cpp:674-680,
    GridPatchCartesianGLL.cpp:557-563; [old] is what the array held *)
Definition cs_strength (K : nat) (f : R -> R) (zi old : nat -> R) (k : nat) : R := if (k <=? K)%nat then f (zi k) else old k.
Definition cart_strength (K : nat) (f : R -> R) (zi old : nat -> R) (k : nat) : R := if (k <? K)%nat then f (zi k) else old k.

(** ** ComputeSurfacePressure, GridPatch.cpp:570-587, one column *)
Definition surface_pressure (g : R) (rho zi : nat -> R) (K : nat) : R :=
  fold_left (fun s k => s + g * rho k * (zi (k + 1)%nat - zi k)) (seq 0 K) 0.
