(** * The horizontal step of the nonhydrostatic equations
    HorizontalDynamicsFEM::StepNonhydrostaticPrimitive and the uniform diffusion of
    StepExplicit (src/atm/HorizontalDynamicsFEM.cpp:701-1863) on one patch.  double is R.
    iDataInitial and iDataUpdate are different arrays.  FORMULATION_RHOTHETA_PI is on,
    DISABLE_UNIFORM_DIFFUSION_CHECKS, FIX_ELEMENT_MASS_NONHYDRO and
    INSTEP_DIVERGENCE_DAMPING are off (src/atm/Defines.h:37-67,
    HorizontalDynamicsFEM.cpp:34-36).  The element-local copies of the data are
    refilled for every element before they are read, so they are written as functions
    of the node, except where they are read at other indices (see [local_read]).
    Every array is written once per node from the initial data, so the loops are
    written one array after the other; the vertical velocity at the bottom uses the
    velocity that has just been written at the same nodes.  The copies of the initial
    data made at the other vertical location (816-833) are not kept. *)
From Coq Require Import ZArith Reals List Bool.
From Verif Require Import ColModel ShallowModel ViscModel.
From Verif Require PhysModel.
Import ListNotations.
Local Open Scope R_scope.
Local Notation z := Z.of_nat.

(** arrays by level *)
Definition field3 := nat -> field.
(** U, V, rho theta, W and rho on levels, rho theta and W on interfaces, tracers *)
Record state3 := State3 { vU : field3; vV : field3; vP : field3; vW : field3; vR : field3;
  eP : field3; eW : field3; vT : nat -> field3 }.
(** [base2]: dJacobian2D, the two-dimensional metric, dCoriolisF and the
    element spacings; dJacobian;
    dContraMetricA(..,0), A(..,1), A(..,2), B(..,1), B(..,2), Xi(..,2);
    dDerivRNode(..,0), (..,1); dContraMetricXiREdge(..,0,c) at the bottom *)
Record geometry3 := Geometry3 { base2 : geometry; J3 : field3;
  m0 : field3; m1 : field3; m2 : field3; m3 : field3; m4 : field3; m5 : field3;
  dRa : field3; dRb : field3; xi0 : field; xi1 : field; xi2 : field }.
(** where W and rho theta are kept (true: interfaces), nRElements, GetIsCartesianXZ,
    HasUniformDiffusion, GetScalarUniformDiffusionCoeff, nTracerCount, the physical
    constants and the three column operators *)
Record settings := Settings { w_edge : bool; p_edge : bool; levels_ : nat; xz : bool;
  diffuse : bool; coeff : R; tracers : nat; phys : PhysModel.constants;
  op_dnn : op; op_ne : op; op_en : op }.

Section Nonhydro.
Context (n : nat) (B : basis) (G : geometry3) (S : settings) (init : state3).
Local Notation D_a := (d_alpha n B (base2 G)).
Local Notation D_b := (d_beta n B (base2 G)).
Local Notation V_a := (v_alpha n B (base2 G)).
Local Notation V_b := (v_beta n B (base2 G)).

(** W and rho theta on levels, 816-833 *)
Definition init_w : field3 := fun k x y =>
  if w_edge S then apply1 (op_en S) (fun l => eW init l x y) k else vW init k x y.
Definition init_p : field3 := fun k x y =>
  if p_edge S then apply1 (op_en S) (fun l => eP init l x y) k else vP init k x y.

(** ConUa, ConUb, ConUx, K, 883-935, and the Exner pressure, 948-953 *)
Definition ca : field3 := fun k x y => m0 G k x y * vU init k x y + m1 G k x y * vV init k x y + m2 G k x y * init_w k x y.
Definition cb : field3 := fun k x y => m1 G k x y * vU init k x y + m3 G k x y * vV init k x y + m4 G k x y * init_w k x y.
Definition cx : field3 := fun k x y => m2 G k x y * vU init k x y + m4 G k x y * vV init k x y + m5 G k x y * init_w k x y.
Definition kin : field3 := fun k x y =>
  1 / 2 * (ca k x y * vU init k x y + cb k x y * vV init k x y + cx k x y * init_w k x y).
Definition exn : field3 := fun k x y => PhysModel.exner_from_rhotheta (phys S) (init_p k x y).

(** vertical derivatives, 973-982 *)
Definition dxua (k : nat) (x y : Z) : R := apply1 (op_dnn S) (fun l => vU init l x y) k.
Definition dxub (k : nat) (x y : Z) : R := apply1 (op_dnn S) (fun l => vV init l x y) k.
(** dJZetaA, dJZetaB, dJZetaX, 984-1026 *)
Definition zeta_a (k : nat) (p q : Z) (i j : nat) : R := D_b (init_w k) p q i j - dxub k (p + z i)%Z (q + z j)%Z.
Definition zeta_b (k : nat) (p q : Z) (i j : nat) : R := dxua k (p + z i)%Z (q + z j)%Z - D_a (init_w k) p q i j.
Definition zeta_x (k : nat) (p q : Z) (i j : nat) : R := D_a (vV init k) p q i j - D_b (vU init k) p q i j.
(** UCrossZeta, 1028-1036 *)
Definition cross_a (k : nat) (p q : Z) (i j : nat) : R :=
  cb k (p + z i)%Z (q + z j)%Z * zeta_x k p q i j - cx k (p + z i)%Z (q + z j)%Z * zeta_b k p q i j.
Definition cross_b (k : nat) (p q : Z) (i j : nat) : R :=
  cx k (p + z i)%Z (q + z j)%Z * zeta_a k p q i j - ca k (p + z i)%Z (q + z j)%Z * zeta_x k p q i j.
Definition cross_x (k : nat) (p q : Z) (i j : nat) : R :=
  - ca k (p + z i)%Z (q + z j)%Z * D_a (init_w k) p q i j - cb k (p + z i)%Z (q + z j)%Z * D_b (init_w k) p q i j.

(** fluxes, 1049-1100 *)
Definition flux_a (f : field3) (k : nat) : field := fun x y => J3 G k x y * ca k x y * f k x y.
Definition flux_b (f : field3) (k : nat) : field := fun x y => J3 G k x y * cb k x y * f k x y.
(** gradient of the mixing ratio at a node of the element at (p, q), 1108-1136 *)
Definition mix (c k : nat) : field := fun x y => vT init c k x y / vR init k x y.
Definition grad_a (c k : nat) (p q : Z) (i j : nat) : R :=
  m0 G k (p + z i)%Z (q + z j)%Z * D_a (mix c k) p q i j + m1 G k (p + z i)%Z (q + z j)%Z * D_b (mix c k) p q i j.
Definition grad_b (c k : nat) (p q : Z) (i j : nat) : R :=
  m1 G k (p + z i)%Z (q + z j)%Z * D_a (mix c k) p q i j + m3 G k (p + z i)%Z (q + z j)%Z * D_b (mix c k) p q i j.
(** tracer fluxes with uniform diffusion, 1092-1151 *)
Definition tflux_a (c k : nat) (p q : Z) : field := fun x y =>
  if diffuse S
  then flux_a (vT init c) k x y - coeff S * J3 G k x y * vR init k x y * grad_a c k p q (Z.to_nat (x - p)) (Z.to_nat (y - q))
  else flux_a (vT init c) k x y.
Definition tflux_b (c k : nat) (p q : Z) : field := fun x y =>
  if diffuse S
  then flux_b (vT init c) k x y - coeff S * J3 G k x y * vR init k x y * grad_b c k p q (Z.to_nat (x - p)) (Z.to_nat (y - q))
  else flux_b (vT init c) k x y.

(** dLocalUpdateUa, dLocalUpdateUb, 1321-1375 *)
Definition upd_u (k : nat) (p q : Z) (i j : nat) : R :=
  let x := (p + z i)%Z in let y := (q + z j)%Z in
  0 + cross_a k p q i j + gF (base2 G) x y * gJ (base2 G) x y * cb k x y -
  (D_a (exn k) p q i j * init_p k x y / vR init k x y + D_a (kin k) p q i j + PhysModel.g (phys S) * dRa G k x y).
Definition upd_v (k : nat) (p q : Z) (i j : nat) : R :=
  let x := (p + z i)%Z in let y := (q + z j)%Z in
  0 + cross_b k p q i j - gF (base2 G) x y * gJ (base2 G) x y * ca k x y -
  (D_b (exn k) p q i j * init_p k x y / vR init k x y + D_b (kin k) p q i j + PhysModel.g (phys S) * dRb G k x y).
(** the weak divergence of a flux over the Jacobian, 1193-1194, 1397-1422, 1531-1553 *)
Definition divergence3 (k : nat) (fa fb : field) (p q : Z) (i j : nat) : R :=
  1 / J3 G k (p + z i)%Z (q + z j)%Z * (V_a fa p q i j + V_b fb p q i j).

(** m_dLocalContraMetric(i', j', k', c), allocated as n x n x nRElements x 6
    (190-194), for the element at (p, q); operator() adds the strides without
    checking (src/base/DataArray4D.h:507-515).  [None]: outside the allocation. *)
Definition local_offset (i' j' k' c : Z) : Z :=
  (i' * (z n * z (levels_ S) * 6) + j' * (z (levels_ S) * 6) + k' * 6 + c)%Z.
Definition local_read (p q : Z) (i' j' k' c : Z) : option R :=
  let o := local_offset i' j' k' c in
  if ((0 <=? o) && (o <? z n * z n * z (levels_ S) * 6))%Z then
    let k := Z.to_nat (Z.modulo (o / 6) (z (levels_ S))) in
    let i := (o / (6 * z (levels_ S) * z n))%Z in
    let j := Z.modulo (o / (6 * z (levels_ S))) (z n) in
    let x := (p + i)%Z in let y := (q + j)%Z in
    Some (match Z.modulo o 6 with
          | 0 => m0 G k x y | 1 => m1 G k x y | 2 => m2 G k x y
          | 3 => m3 G k x y | 4 => m4 G k x y | _ => m5 G k x y
          end%Z)
  else None.
(** dLocalUpdateUr, 1424-1446: the patch indices iA, iB in the element-local array *)
Definition upd_w (k : nat) (p q : Z) (i j : nat) : option R :=
  if Nat.eqb k 0 then
    match local_read p q (p + z i) (q + z j) 0 2, local_read p q (p + z i) (q + z j) 0 4,
          local_read p q (p + z i) (q + z j) 0 5 with
    | Some a, Some b, Some c => Some (- (a * upd_u k p q i j + b * upd_v k p q i j) / c)
    | _, _, _ => None
    end
  else if Z.eqb (z k) (z (levels_ S) - 1) then Some 0
  else Some (cross_x k p q i j).

(** the loop over levels k < nRElements *)
Definition each_level (F : nat -> field -> field) (u : field3) : field3 :=
  fun k => if Nat.ltb k (levels_ S) then F k (u k) else u k.
Definition all_nodes (nA nB : nat) (h : Z) (P : Z -> Z -> nat -> nat -> bool) : bool :=
  forallb (fun a => forallb (fun b => forallb (fun i => forallb (fun j =>
    P (first_node n h a) (first_node n h b) i j) (seq 0 n)) (seq 0 n)) (seq 0 nB)) (seq 0 nA).
Definition value (o : option R) : R := match o with Some r => r | None => 0 end.
Definition some (o : option R) : bool := match o with Some _ => true | None => false end.

(** StepNonhydrostaticPrimitive.  [None]: undefined behaviour. *)
Definition nonhydro_step (dt : R) (h : Z) (nA nB : nat) (u : state3) : option state3 :=
  let loop := patch_loop n h nA nB in
  (* 1376-1386 *)
  let U := each_level (fun k => loop (fun p q i j v => v + dt * upd_u k p q i j)) (vU u) in
  let V := if xz S then vV u else each_level (fun k => loop (fun p q i j v => v + dt * upd_v k p q i j)) (vV u) in
  (* 1397-1403, 1416-1422 *)
  let Rn := each_level (fun k => loop (fun p q i j v => v - dt * divergence3 k (flux_a (vR init) k) (flux_b (vR init) k) p q i j)) (vR u) in
  let Pn := each_level (fun k => loop (fun p q i j v => v - dt * divergence3 k (flux_a init_p k) (flux_b init_p k) p q i j)) (vP u) in
  (* 1530-1553 *)
  let T := fun c => if Nat.ltb c (tracers S)
    then each_level (fun k => loop (fun p q i j v => v - dt * divergence3 k (tflux_a c k p q) (tflux_b c k p q) p q i j)) (vT u c)
    else vT u c in
  if w_edge S then
    (* 1611-1660 *)
    let W := fun k => match k with
      | O => loop (fun p q i j _ =>
          let x := (p + z i)%Z in let y := (q + z j)%Z in
          - (xi0 G x y * apply1 (op_ne S) (fun l => U l x y) 0 + xi1 G x y * apply1 (op_ne S) (fun l => V l x y) 0) / xi2 G x y) (eW u 0%nat)
      | _ => if Nat.ltb k (levels_ S)
             then loop (fun p q i j v => v + dt * apply1 (op_ne S) (fun l => cross_x l p q i j) k) (eW u k)
             else eW u k
      end in
    Some (State3 U V Pn (vW u) Rn (eP u) W T)
  else
    (* 1424-1446 *)
    if all_nodes nA nB h (fun p q i j => forallb (fun k => some (upd_w k p q i j)) (seq 0 (levels_ S))) then
      Some (State3 U V Pn (each_level (fun k => loop (fun p q i j v => v + dt * value (upd_w k p q i j))) (vW u)) Rn (eP u) (eW u) T)
    else None.
End Nonhydro.

(** ** Uniform diffusion in StepExplicit, 1816-1858, one level *)
Section Uniform.
Context (n : nat) (B : basis) (g : geometry) (h : Z) (nA nB : nat).
(** U and V: the initial state [iu], [iv] with the negative coefficient, then the
    reference state [ru], [rv] with the positive one, 1819-1833; [od], [oc] are the
    former contents of the buffers of divergence and vorticity *)
Definition uniform_velocity (cs xz : bool) (nu dt : R) (iu iv ru rv od oc u v : field) : field * field :=
  let r := vector_level n B g cs xz iu iv dt (- nu) (- nu) h nA nB od oc u v in
  vector_level n B g cs xz ru rv dt nu nu h nA nB
    (divergence n B g cs iu iv h nA nB od) (vorticity n B g cs iu iv h nA nB oc) (fst r) (snd r).
(** rho theta with the scalar coefficient and W with the vector coefficient, both
    without the reference state, 1837-1857; [J] is the Jacobian on the levels or
    interfaces of the variable *)
Definition uniform_scalar (J : field) (nu dt : R) (init ref u : field) : field :=
  scalar_level n B g J (buffer init ref true) dt nu h nA nB u.
End Uniform.
