(** * SplitExplicitDynamics
    CalculateTendencies, FirstAcousticLoop, PerformAcousticLoop and StepExplicit
    (src/atm/SplitExplicitDynamics.cpp:347-2320) on one patch; double is R.  The
    prognostic variables are rho u^a, rho u^b, rho theta, rho on levels and rho w on
    interfaces; FORMULATION_RHOTHETA_PI and Lorenz staggering, which StepExplicit
    asks for (2118-2144).  Expressions that read the same in HighSpeedDynamics are those
    of HsModel.  The buffers of an element are refilled before they are read and an
    element reads only its own nodes, so the buffers are functions of the node and every
    array of the patch is written before the next; entries that no loop fills keep the
    zero of Allocate (src/base/DataArray3D.h:131-166), except m_dA, which the solver
    overwrites.  Direct stiffness summation (927, 1441, 2092) is an argument. *)
From Coq Require Import ZArith Reals List Bool.
From Verif Require Import ShallowModel ViscModel HsModel.
From Verif Require PhysModel.
Import ListNotations.
Local Open Scope R_scope.
Local Notation z := Z.of_nat.

(** a data instance: [st] the five variables where they belong, [nW] the entries of W
    in the array of the levels, which Lorenz staggering leaves unused *)
Record inst := Inst { st : hstate; nW : field3 }.

Section Tendencies.
Context (c : PhysModel.constants) (n : nat) (B : basis) (G : hgeom) (N : nat) (arg : hstate).
(** theta on interfaces, left in the array of the initial data, 475-479; [oldT] is what
    its end interfaces hold *)
Definition theta_e (oldT : field3) : field3 := fun k x y =>
  if inner_edge N k then inv_re arg k x y * (1 / 2) * (hP arg (k - 1)%nat x y + hP arg k x y) else oldT k x y.
(** m_dSDotREdge, m_dSDotThetaREdge, 481-504 *)
Definition s_mass : field3 := on_edges N (sdot G arg).
Definition s_theta (oldT : field3) : field3 := on_edges N (fun k x y => sdot G arg k x y * theta_e oldT k x y).
(** rho and rho theta, 828-852; rho u^a and rho u^b (792-814) read as in HsModel *)
Definition spl_r (k : nat) (p q : Z) (i j : nat) : R :=
  - hdiv n B G (mass_a G arg) (mass_b G arg) k p q i j - dz_edge G s_mass k (p + z i) (q + z j).
Definition spl_p (oldT : field3) (k : nat) (p q : Z) (i j : nat) : R :=
  - hdiv n B G (pres_a G arg) (pres_b G arg) k p q i j - dz_edge G (s_theta oldT) k (p + z i) (q + z j).
(** rho w, 884-920 *)
Definition spl_w (k : nat) (p q : Z) (i j : nat) : R :=
  let x := (p + z i)%Z in let y := (q + z j)%Z in
  let inv := 1 / (Zn G k x y - Zn G (k - 1)%nat x y) in
  - (inv * (xp c arg k x y - xp c arg (k - 1)%nat x y))
  - mean (hR arg) k x y * PhysModel.g c
  - 1 / JE G k x y * (v_alpha n B (base2 G) (vflux_a G arg k) p q i j + v_beta n B (base2 G) (vflux_b G arg k) p q i j)
  - inv * (sdot_w G arg k x y - sdot_w G arg (k - 1)%nat x y).
(** CalculateTendencies before the summation; [o] is what the instance held *)
Definition tendencies (oldT : field3) (h : Z) (nA nB : nat) (o : hstate) : hstate :=
  let lvl := fun (F : nat -> Z -> Z -> nat -> nat -> R) (g : field3) k =>
    if Nat.ltb k N then patch_loop n h nA nB (fun p q i j _ => F k p q i j) (g k) else g k in
  Hstate (lvl (ten_u c n B G N arg) (hU o)) (lvl (ten_v c n B G N arg) (hV o))
         (lvl (spl_p oldT) (hP o)) (lvl spl_r (hR o))
         (fun k => if inner_edge N k then patch_loop n h nA nB (fun p q i j _ => spl_w k p q i j) (hW o k) else hW o k).
(** the slope of the pressure kept in dataPressure, 929-956 *)
Definition slope : field3 := fun k x y => xp c arg k x y * (PhysModel.gamma c / hP arg k x y).
End Tendencies.

(** ** One acoustic step: [init] the initial data, [th] theta on interfaces, [s] the slope
    of the pressure, [ten] the tendencies, m_dBs and m_dBd (49-50), the length [dt] *)
Section Acoustic.
Context (grav : R) (n : nat) (B : basis) (G : hgeom) (N : nat) (init : hstate) (th s : field3) (ten : hstate).
Context (bs bd dt : R) (h : Z) (nA nB : nat).

(** 1564-1567 *)
Definition apt (a0 a1 : hstate) : field3 := fun k x y =>
  s k x y * ((1 + bd) * hP a1 k x y - bd * hP a0 k x y).
(** 1599-1618 *)
Definition dz_level (f : field3) (k : nat) (x y : Z) : R :=
  if Nat.eqb k 0 then (f (k + 1)%nat x y - f k x y) / (Zn G (k + 1)%nat x y - Zn G k x y)
  else if Nat.eqb (k + 1) N then (f k x y - f (k - 1)%nat x y) / (Zn G k x y - Zn G (k - 1)%nat x y)
  else (f (k + 1)%nat x y - f (k - 1)%nat x y) / (Zn G (k + 1)%nat x y - Zn G (k - 1)%nat x y).
(** 1583-1630 *)
Definition ap_a (f : field3) (k : nat) (p q : Z) (i j : nat) : R :=
  d_alpha n B (base2 G) (f k) p q i j - dRa G k (p + z i)%Z (q + z j)%Z * dz_level f k (p + z i) (q + z j).
Definition ap_b (f : field3) (k : nat) (p q : Z) (i j : nat) : R :=
  d_beta n B (base2 G) (f k) p q i j - dRb G k (p + z i)%Z (q + z j)%Z * dz_level f k (p + z i) (q + z j).
(** rho u^a, rho u^b: 1632-1641 and, in the first step, 1067-1072 *)
Definition loop_u (a0 a1 : hstate) (k : nat) (p q : Z) (i j : nat) : R :=
  hU a1 k (p + z i)%Z (q + z j)%Z - dt * con_da G (ap_a (apt a0 a1)) (ap_b (apt a0 a1)) k p q i j + dt * hU ten k (p + z i)%Z (q + z j)%Z.
Definition loop_v (a0 a1 : hstate) (k : nat) (p q : Z) (i j : nat) : R :=
  hV a1 k (p + z i)%Z (q + z j)%Z - dt * con_db G (ap_a (apt a0 a1)) (ap_b (apt a0 a1)) k p q i j + dt * hV ten k (p + z i)%Z (q + z j)%Z.
Definition first_u (k : nat) (p q : Z) (i j : nat) : R := dt * hU ten k (p + z i)%Z (q + z j)%Z.
Definition first_v (k : nat) (p q : Z) (i j : nat) : R := dt * hV ten k (p + z i)%Z (q + z j)%Z.
Definition write (F : nat -> Z -> Z -> nat -> nat -> R) (o : field3) : field3 := fun k =>
  if Nat.ltb k N then patch_loop n h nA nB (fun p q i j _ => F k p q i j) (o k) else o k.

(** horizontal fluxes of the new momentum U, V, 1146-1179, 1721-1757 *)
Definition am_a (U : field3) : field3 := fun k x y => J3 G k x y * U k x y.
Definition am_b (V : field3) : field3 := fun k x y => J3 G k x y * V k x y.
Definition ax_a (U : field3) : field3 := fun k x y => J3 G k x y * (1 / hR init k x y) * U k x y * hP init k x y.
Definition ax_b (V : field3) : field3 := fun k x y => J3 G k x y * (1 / hR init k x y) * V k x y * hP init k x y.
(** their divergence, 1200-1231, 1811-1843 *)
Definition adiv (fa fb : field3) (k : nat) (p q : Z) (i j : nat) : R :=
  let inv := 1 / J3 G k (p + z i)%Z (q + z j)%Z in
  v_alpha n B (base2 G) (fa k) p q i j * inv + v_beta n B (base2 G) (fb k) p q i j * inv.
(** vertical fluxes, 1760-1798; W of the former step is read through
    dataAcoustic1REdge, which is bound to the array of the levels (1522-1523) *)
Definition z1 (a1 : inst) : field3 := on_edges N (fun k x y =>
  nW a1 k x y - eRa G k x y * (1 / 2) * (hU (st a1) (k - 1)%nat x y + hU (st a1) k x y)
              - eRb G k x y * (1 / 2) * (hV (st a1) (k - 1)%nat x y + hV (st a1) k x y)).
Definition z2 (a1 : inst) : field3 := on_edges N (fun k x y =>
  - eRa G k x y * (1 / 2) * (hU (st a1) (k - 1)%nat x y + hU (st a1) k x y)
  - eRb G k x y * (1 / 2) * (hV (st a1) (k - 1)%nat x y + hV (st a1) k x y)).
Definition timesth (f : field3) : field3 := fun k x y => f k x y * th k x y.
(** m_dNodalMassUpdate, m_dNodalPressureUpdate: 1845-1875, 1233-1241; [fa], [fb] the
    horizontal fluxes, [f1], [f2] the vertical ones, [t] the tendency *)
Definition loop_nodal (f1 f2 : field3) (fa fb t : field3) (k : nat) (p q : Z) (i j : nat) : R :=
  let x := (p + z i)%Z in let y := (q + z j)%Z in
  - dt * (adiv fa fb k p q i j + 1 / 2 * (1 - bs) * dz_edge G f1 k x y + 1 / 2 * (1 + bs) * dz_edge G f2 k x y - t k x y).
Definition first_nodal (fa fb t : field3) (k : nat) (p q : Z) (i j : nat) : R :=
  dt * (- adiv fa fb k p q i j + t k (p + z i)%Z (q + z j)%Z).

(** the tridiagonal system, 1246-1318, 1880-1967 *)
Definition tscale : R := dt * (1 / 2) * (1 + bs).
Definition iz (k : nat) (x y : Z) : R := 1 / (Zi G (k + 1)%nat x y - Zi G k x y).
Definition ih (k : nat) (x y : Z) : R := 1 / (Zn G k x y - Zn G (k - 1)%nat x y).
Definition tri_a (k : nat) (x y : Z) : R :=
  - (tscale * tscale) * iz (k - 1) x y * (ih k x y * s (k - 1)%nat x y * th (k - 1)%nat x y - 1 / 2 * grav).
Definition tri_b (k : nat) (x y : Z) : R :=
  1 + tscale * tscale * (ih k x y * th k x y * (s k x y * iz k x y + s (k - 1)%nat x y * iz (k - 1) x y) +
                         1 / 2 * grav * (iz k x y - iz (k - 1) x y)).
Definition tri_c (k : nat) (x y : Z) : R :=
  - (tscale * tscale) * iz k x y * (ih k x y * s k x y * th (k + 1)%nat x y + 1 / 2 * grav).
(** right-hand sides; [nm], [np] are the nodal updates *)
Definition upd_part (nm np : field3) (k : nat) (x y : Z) : R :=
  tscale * (ih k x y * (np k x y - np (k - 1)%nat x y) + 1 / 2 * grav * (nm k x y + nm (k - 1)%nat x y)).
Definition loop_d (a1 : inst) (nm np : field3) (k : nat) (x y : Z) : R :=
  nW a1 k x y
  - dt * (ih k x y * (s k x y * hP (st a1) k x y - s (k - 1)%nat x y * hP (st a1) (k - 1)%nat x y)
          + 1 / 2 * grav * (hR (st a1) k x y + hR (st a1) (k - 1)%nat x y) - hW ten k x y)
  - upd_part nm np k x y.
Definition first_d (nm np : field3) (k : nat) (x y : Z) : R := dt * hW ten k x y - upd_part nm np k x y.
(** the arrays handed to dgtsv at a node: m_dA(i,j,k-1) belongs to row k, the entry of
    the last row is not filled and holds [oldA] *)
Definition sys_a (oldA : R) (x y : Z) (k : nat) : R :=
  if inner_edge N (k + 1) then tri_a (k + 1) x y else if Nat.eqb k 0 then 0 else oldA.
Definition sys_b (x y : Z) (k : nat) : R := if inner_edge N k then tri_b k x y else 1.
Definition sys_c (x y : Z) (k : nat) : R := if inner_edge N k then tri_c k x y else 0.
Definition sys_d (D : nat -> Z -> Z -> R) (x y : Z) (k : nat) : R := if inner_edge N k then D k x y else 0.

(** 1386-1436, 2035-2087: [X] is m_dD after the solve, [r1], [p1] the former rho and
    rho theta (zero in the first step), [o] what the instance held *)
Definition finish (U V nm np r1 p1 X : field3) (o : inst) : inst :=
  let lvl := fun (F : field3) (g : field3) k =>
    if Nat.ltb k N then patch_loop n h nA nB (fun p q i j _ => F k (p + z i)%Z (q + z j)%Z) (g k) else g k in
  Inst (Hstate U V
    (lvl (fun k x y => p1 k x y + np k x y + dt * (- (1 / 2) * (1 + bs) * (iz k x y * (X (k + 1)%nat x y * th (k + 1)%nat x y - X k x y * th k x y)))) (hP (st o)))
    (lvl (fun k x y => r1 k x y + nm k x y + dt * (- (1 / 2) * (1 + bs) * (iz k x y * (X (k + 1)%nat x y - X k x y)))) (hR (st o)))
    (lvl (fun k x y => if Nat.eqb k 0 then 0 else X k x y) (hW (st o)))) (nW o).

(** the two functions up to the summation; the nodal updates are kept as arrays over
    the patch.  [X] is required to solve the systems ([loop_solves], [first_solves]). *)
Definition zero3 : field3 := fun _ _ _ => 0.
Definition loop_U (a0 a1 o : inst) : field3 := write (loop_u (st a0) (st a1)) (hU (st o)).
Definition loop_V (a0 a1 o : inst) : field3 := write (loop_v (st a0) (st a1)) (hV (st o)).
Definition loop_nm (a0 a1 o : inst) : field3 :=
  write (loop_nodal (z1 a1) (z2 a1) (am_a (loop_U a0 a1 o)) (am_b (loop_V a0 a1 o)) (hR ten)) zero3.
Definition loop_np (a0 a1 o : inst) : field3 :=
  write (loop_nodal (timesth (z1 a1)) (timesth (z2 a1)) (ax_a (loop_U a0 a1 o)) (ax_b (loop_V a0 a1 o)) (hP ten)) zero3.
Definition acoustic_loop (a0 a1 o : inst) (X : field3) : inst :=
  finish (loop_U a0 a1 o) (loop_V a0 a1 o) (loop_nm a0 a1 o) (loop_np a0 a1 o) (hR (st a1)) (hP (st a1)) X o.
Definition loop_solves (oldA : Z -> Z -> R) (a0 a1 o : inst) (X : field3) (x y : Z) : Prop :=
  solves (N + 1) (sys_a (oldA x y) x y) (sys_b x y) (sys_c x y) (sys_d (loop_d a1 (loop_nm a0 a1 o) (loop_np a0 a1 o)) x y) (fun k => X k x y).
Definition first_U (o : inst) : field3 := write first_u (hU (st o)).
Definition first_V (o : inst) : field3 := write first_v (hV (st o)).
Definition first_nm (o : inst) : field3 := write (first_nodal (am_a (first_U o)) (am_b (first_V o)) (hR ten)) zero3.
Definition first_np (o : inst) : field3 := write (first_nodal (ax_a (first_U o)) (ax_b (first_V o)) (hP ten)) zero3.
Definition acoustic_first (o : inst) (X : field3) : inst :=
  finish (first_U o) (first_V o) (first_nm o) (first_np o) zero3 zero3 X o.
Definition first_solves (oldA : Z -> Z -> R) (o : inst) (X : field3) (x y : Z) : Prop :=
  solves (N + 1) (sys_a (oldA x y) x y) (sys_b x y) (sys_c x y) (sys_d (first_d (first_nm o) (first_np o)) x y) (fun k => X k x y).
End Acoustic.

(** ** StepExplicit, 2244-2315: three steps of a third of the length from zero, the
    instances 0, 1, 2 taking turns, and the sum; [X1], [X2], [X3] are the solutions *)
Definition nothing : inst := Inst (Hstate zero3 zero3 zero3 zero3 zero3) zero3.
Section Step.
Context (grav : R) (n : nat) (B : basis) (G : hgeom) (N : nat) (init : hstate) (th s : field3) (ten : hstate).
Context (bs bd dt : R) (h : Z) (nA nB : nat) (dss : inst -> inst).
Definition ac1 (X1 : field3) : inst := dss (acoustic_first n B G N init th ten bs (dt / 3) h nA nB nothing X1).
Definition ac2 (X1 X2 : field3) : inst :=
  dss (acoustic_loop n B G N init th s ten bs bd (dt / 3) h nA nB nothing (ac1 X1) nothing X2).
Definition ac3 (X1 X2 X3 : field3) : inst :=
  dss (acoustic_loop n B G N init th s ten bs bd (dt / 3) h nA nB (ac1 X1) (ac2 X1 X2) nothing X3).
Definition add_to (f g : field3) : field3 := fun k =>
  if Nat.ltb k N then patch_loop n h nA nB (fun p q i j v => v + f k (p + z i)%Z (q + z j)%Z) (g k) else g k.
Definition split_step (X1 X2 X3 : field3) (u : hstate) : hstate :=
  let a := st (ac3 X1 X2 X3) in
  Hstate (add_to (hU a) (hU u)) (add_to (hV a) (hV u)) (add_to (hP a) (hP u)) (add_to (hR a) (hR u)) (add_to (hW a) (hW u)).
End Step.
