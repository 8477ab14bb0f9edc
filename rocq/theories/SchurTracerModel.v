(** * Tracers in the column solve by elimination
    UpdateColumnTracers, src/atm/VerticalDynamicsSchur.cpp:3571-4077, for one tracer in a
    semi-implicit step, finite volumes, velocity on interfaces, without uniform diffusion
    (which throws there, 3703-3705).  The band solver is not part of it: the equations
    are given by their coefficients. *)
From Coq Require Import ZArith Reals List Bool.
From Verif Require Import SchurModel SchurJacModel SchurFModel.
Import ListNotations.
Local Open Scope R_scope.

Section Tracer.
(** the column as it is at the start of the step (m_dColumnState), the Jacobian on its
    levels and whether tracers are upwinded *)
Context (F : frame) (x : unknowns) (jn : nat -> R) (up : bool).
Let C := prepare F x.
Let n := f_levels F.

(** dTracersLUDF by row and column, 3750-3813: flux, upwinding and identity.  [rd] is what
    dJacobianREdge[m][m_iA][m_iB] reads, 3761 *)
Definition tracer_entry (rd : nat -> R) (k q : nat) : R :=
  add_over (columns (d_en C) k) (fun m => if has (columns (i_ne C) m) q then co (d_en C) k m * rd m / jn k * co (i_ne C) m q * xi C m else 0)
  - (if (up && Nat.ltb (k + 1) n && has (columns (pen_l C) k) q)%bool then Rabs (xi C (k + 1)%nat) * co (pen_l C) k q else 0)
  - (if (up && Nat.leb 1 k && has (columns (pen_r C) k) q)%bool then Rabs (xi C k) * co (pen_r C) k q else 0)
  + (if Nat.eqb k q then 1 / f_step F else 0).

(** u^xi with the velocity [w] of the updated state, 3876-3890 *)
Definition xi_new (w : nat -> R) (k : nat) : R := if within n k then f_across F k + f_con_e F k * (w k * f_der_e F k) else 0.
(** the flux, 3900-3911 and 3936-3938 *)
Definition tracer_flux (w t : nat -> R) (m : nat) : R := if within n m then jac_e C m * apply_op (i_ne C) t m * xi_new w m else 0.
(** the correction of the upwinding for the new velocity, 3985-4040: the jump at an
    inner interface [a] and its part for level [k] *)
Definition jump (w : nat -> R) (a : nat) : R := sign_of (xi C a) * (w a - x FW a) / der_e C a.
Definition tracer_correction (w t : nat -> R) (k : nat) : R :=
  (if Nat.ltb (k + 1) n then apply_op (pen_l C) t k * jump w (k + 1)%nat else 0)
  + (if (Nat.leb 1 k && Nat.ltb k n)%bool then apply_op (pen_r C) t k * jump w k else 0).
(** m_vecTracersF, 3940-4040, for the initial density [t] of the tracer *)
Definition tracer_rhs (w t : nat -> R) (k : nat) : R :=
  apply_op (d_en C) (tracer_flux w t) k / jn k - (if up then penalty C t k + tracer_correction w t k else 0).
End Tracer.

(** the array dJacobianREdge has the sizes (A, B, levels plus one),
    src/atm/GridPatch.cpp:136-140; the places that line 3761 reads for the column [iA],
    [iB] are ([m], [iA], [iB]) for the interfaces [m].  [None]: one of them is outside. *)
Record block := Block { size_a : nat; size_b : nat; size_r : nat; data : site -> R }.
Definition holds (b : block) (s : site) : bool :=
  let '(i, j, r) := s in (Nat.ltb i (size_a b) && Nat.ltb j (size_b b) && Nat.ltb r (size_r b))%bool.
Definition areas_read (b : block) (iA iB n : nat) : option (nat -> R) :=
  if forallb (fun m => holds b (m, iA, iB)) (seq 0 (S n)) then Some (fun m => data b (m, iA, iB)) else None.
(** the Jacobian of the column, 2142 and 3906 *)
Definition areas_of (b : block) (iA iB : nat) (m : nat) : R := data b (iA, iB, m).
