(** Model of the lateral boundary conditions of the Cartesian grid:
    GridPatchCartesianGLL::ApplyBoundaryConditions,
    GridPatchCartesianGLL.cpp:785-1313, and Grid::SetBoundaryCondition,
    Grid.cpp:177-188.  Reals stand for doubles.  The arrays are functions of
    the local indices; a side acting on a patch fewer than two nodes wide
    would read index -1 or 1 outside the array, [BUndef]. *)
From Coq Require Import ZArith Bool List Reals.
From Verif Require Import LayoutModel.
Import ListNotations.
Local Open Scope Z_scope.

(** Staggering codes, Grid.h:70-73 *)
Definition StagLevels : Z := 0.
Definition StagInterfaces : Z := 1.
Definition StagCharneyPhillips : Z := 2.
Definition StagLorenz : Z := 3.
(** Boundary condition codes, Grid.h:88-91 *)
Definition Periodic : Z := 0.
Definition NoFlux : Z := 1.
Definition NoSlip : Z := 2.
(** Components of the state, GridPatchCartesianGLL.cpp:791-795 *)
Definition UIx : Z := 0.
Definition VIx : Z := 1.
Definition TIx : Z := 2.
Definition WIx : Z := 3.
Definition RIx : Z := 4.

(** State of one patch: [s e c i j k], node data for [e = false]
    (m_datavecStateNode), interface data for [e = true]
    (m_datavecStateREdge). *)
Definition state := bool -> Z -> Z -> Z -> Z -> R.
Definition upd (s : state) (e : bool) (c i j k : Z) (v : R) : state :=
  fun e' c' i' j' k' =>
    if Bool.eqb e' e && (c' =? c) && (i' =? i) && (j' =? j) && (k' =? k) then v else s e' c' i' j' k'.

Inductive bres := BThrow | BUndef | BOk (s : state).

(** m_eBoundaryCondition; directions 0..3 are right, top, left, bottom
    (Direction.h), Grid.cpp:177-188; [None]: exception. *)
Definition conds := Z -> Z.
Definition set_boundary_condition (bc : conds) (dir code : Z) : option conds :=
  if (dir <? 0) || (3 <? dir) then None
  else Some (fun d => if d =? dir then code else bc d).

(** Reflection of the velocity at node (i, j), from node (i', j'),
    GridPatchCartesianGLL.cpp:1010-1017 *)
Definition slip (s : state) (e : bool) (i j i' j' k : Z) : state :=
  let s := upd s e UIx i j k (- s e UIx i' j' k)%R in
  let s := upd s e VIx i j k (- s e VIx i' j' k)%R in
  upd s e WIx i j k (- s e WIx i' j' k)%R.

Section Side.
(** m_dataContraMetricA, m_dataContraMetricB ([e = false]) and their REdge
    versions; the last argument is the column. *)
Context (GA GB : bool -> Z -> Z -> Z -> Z -> R).

(** No flux through an alpha side, GridPatchCartesianGLL.cpp:1018-1036 *)
Definition flux_alpha (s : state) (e : bool) (i j i' j' k : Z) : state :=
  (let ub := (1 / 2) * (s e VIx i j k + s e VIx i' j' k) in
   let ux := (1 / 2) * (s e WIx i j k + s e WIx i' j' k) in
   let ua := - (1) / GA e i' j' k 0%Z * (GA e i' j' k 1%Z * ub + GA e i' j' k 2%Z * ux) in
   upd s e UIx i j k (2 * ua - s e UIx i' j' k))%R.
(** No flux through a beta side, GridPatchCartesianGLL.cpp:1096-1115 *)
Definition flux_beta (s : state) (e : bool) (i j i' j' k : Z) : state :=
  (let ua := (1 / 2) * (s e UIx i j k + s e UIx i' j' k) in
   let ux := (1 / 2) * (s e WIx i j k + s e WIx i' j' k) in
   let ub := - (1) / GB e i' j' k 1%Z * (GB e i' j' k 0%Z * ua + GB e i' j' k 2%Z * ux) in
   upd s e VIx i j k (2 * ub - s e VIx i' j' k))%R.

(** The choice inside the loops: equality tests (left and bottom sides, all
    sides with W on interfaces, e.g. GridPatchCartesianGLL.cpp:1009, 1018,
    1038) *)
Definition hit (flux : state -> bool -> Z -> Z -> Z -> Z -> Z -> state)
  (code : Z) (s : state) (e : bool) (i j i' j' k : Z) : bres :=
  if code =? NoSlip then BOk (slip s e i j i' j' k)
  else if code =? NoFlux then BOk (flux s e i j i' j' k)
  else BThrow.
(** and the inequality tests of the right and top sides with everything on
    interfaces, GridPatchCartesianGLL.cpp:830, 839, 859 and 874, 883, 904 *)
Definition hit_neq (flux : state -> bool -> Z -> Z -> Z -> Z -> Z -> state)
  (code : Z) (s : state) (e : bool) (i j i' j' k : Z) : bres :=
  if negb (code =? NoSlip) then BOk (slip s e i j i' j' k)
  else if negb (code =? NoFlux) then BOk (flux s e i j i' j' k)
  else BThrow.

(** Points visited along a side of [w] nodes: (interface data?, position
    along the side, vertical index).  Everything on interfaces,
    GridPatchCartesianGLL.cpp:827-828 *)
Definition visits_interfaces (w K : Z) : list (bool * Z * Z) :=
  flat_map (fun k => map (fun t => (false, t, k)) (zseq w)) (zseq K).
(** Otherwise, GridPatchCartesianGLL.cpp:1007-1008, 1042 *)
Definition visits_other (w K : Z) : list (bool * Z * Z) :=
  flat_map (fun t => map (fun k => (false, t, k)) (zseq K) ++ map (fun k => (true, t, k)) (zseq (K + 1)))
    (zseq w).

(** The loop over the points of a side *)
Fixpoint loop (act : state -> bool -> Z -> Z -> bres) (vs : list (bool * Z * Z)) (s : state) : bres :=
  match vs with
  | [] => BOk s
  | (e, t, k) :: vs' =>
    match act s e t k with BOk s' => loop act vs' s' | r => r end
  end.

(** One side; [acts]: the test on the indices of the patch, [w]: its width
    across the side. *)
Definition side (code : Z) (acts : bool) (w : Z)
  (act : state -> bool -> Z -> Z -> bres) (vs : list (bool * Z * Z)) (s : state) : bres :=
  if negb (code =? Periodic) && acts
  then if w <? 2 then BUndef else loop act vs s
  else BOk s.

Definition bind (r : bres) (f : state -> bres) : bres :=
  match r with BOk s => f s | _ => r end.

(** ApplyBoundaryConditions for a patch with box [b] of a grid of [resA] by
    [resB] elements of order [np], with [K] levels. *)
Definition apply_bc (stag np resA resB K : Z) (bc : conds) (b : box) (s : state) : bres :=
  let A := a_total b in let B := b_total b in
  if stag =? StagLevels then BThrow
  else
    let ifc := stag =? StagInterfaces in
    let visits := if ifc then visits_interfaces else visits_other in
    let choice := if ifc then hit_neq else hit in
    let right s := side (bc 0) (bA1 b =? np * resA) A
      (fun s e j k => choice flux_alpha (bc 0) s e (A - 1) j (A - 2) j k) (visits B K) s in
    let top s := side (bc 1) (bB1 b =? np * resB) B
      (fun s e i k => choice flux_beta (bc 1) s e i (B - 1) i (B - 2) k) (visits A K) s in
    let left s := side (bc 2) (bA0 b =? 0) A
      (fun s e j k => hit flux_alpha (bc 2) s e 0 j 1 j k) (visits B K) s in
    let bottom s := side (bc 3) (bB0 b =? 0) B
      (fun s e i k => hit flux_beta (bc 3) s e i 0 i 1 k) (visits A K) s in
    bind (bind (bind (right s) top) left) bottom.
End Side.
