(** * Direct stiffness summation of velocities on the cubed sphere
    GridPatchCSGLL::TransformHaloVelocities (src/atm/GridPatchCSGLL.cpp:1783-1925)
    followed by the summation of GridCSGLL::ApplyDSS (DssModel).  double is R.
    One level of one patch; the levels are independent.  TransformTopographyDeriv
    (GridPatchCSGLL.cpp:1928-2008) is the same function on another pair of
    arrays.  The covariant branch (PROGNOSTIC_CONTRAVARIANT_MOMENTA is not
    defined, src/atm/Defines.h). *)
From Coq Require Import ZArith Reals List Bool.
From Verif Require Import PanelModel LayoutModel ExchModel DssModel SpacModel CsTransModel.
Import ListNotations.
Local Open Scope Z_scope.

(** m_dXNode and m_dYNode at a global index, from InitializeCoordinateData,
    GridPatchCSGLL.cpp:181-218 *)
Definition coord (np e k : Z) : res R :=
  match make_repeated (1 / 2 * PI / IZR e)%R (- (1 / 4) * PI)%R np with
  | Some s => match repeated_node s k with Value a => Val (tan a) | _ => Exc end
  | None => Exc
  end.

(** m_ixNeighborPanel, GridPatchCSGLL.cpp:63-109; without an answer of
    RelativeCoord the zero of resize stays *)
Definition toward (n : Z) (b : box) (i j : Z) : Z :=
  match relative_coord n (bpanel b) i j with Some r => rp r | None => 0 end.
Definition right_panel (n : Z) (b : box) : Z := toward n b (a_int_end b) (b_int_begin b).
Definition top_panel (n : Z) (b : box) : Z := toward n b (a_int_begin b) (b_int_end b).
Definition left_panel (n : Z) (b : box) : Z := toward n b (a_int_begin b - 1) (b_int_begin b).
Definition bottom_panel (n : Z) (b : box) : Z := toward n b (a_int_begin b) (b_int_begin b - 1).

(** the two components at one level *)
Definition wind : Type := (@fld R * @fld R)%type.
(** the body of the four loops, GridPatchCSGLL.cpp:1826-1832 *)
Definition turn (np e : Z) (b : box) (q : Z) (w : res wind) (c : Z * Z) : res wind :=
  match w, coord np e (fst c + bA0 b), coord np e (snd c + bB0 b) with
  | Val (u, v), Val x, Val y =>
      match covec_panel q (bpanel b) (u (fst c) (snd c)) (v (fst c) (snd c)) x y with
      | Val (u1, v1) => Val (put u (fst c) (snd c) u1, put v (fst c) (snd c) v1)
      | Exc => Exc
      | NotFinite => NotFinite
      end
  | Val _, _, _ => Exc
  | r, _, _ => r
  end.
Definition side (np e : Z) (b : box) (q : Z) (cells : list (Z * Z)) (w : res wind) : res wind :=
  if q =? bpanel b then w else fold_left (turn np e b q) cells w.
Definition transform_halo (np e : Z) (b : box) (w : wind) : res wind :=
  let n := np * e in
  let js := up (ib0 b - 1) (ib1 b + 1) in
  let is := up (ia0 b - 1) (ia1 b + 1) in
  let w := side np e b (right_panel n b) (map (fun j => (ia1 b, j)) js) (Val w) in
  let w := side np e b (top_panel n b) (map (fun i => (i, ib1 b)) is) w in
  let w := side np e b (left_panel n b) (map (fun j => (ia0 b - 1, j)) js) w in
  side np e b (bottom_panel n b) (map (fun i => (i, ib0 b - 1)) is) w.

(** ApplyDSS after the exchange, velocities: GridCSGLL.cpp:455-457, then the
    components one by one, 501-783 *)
Definition velocity_dss (avg : R -> R -> R) (third : R -> R -> R -> R) (np e : Z) (b : box) (w : wind) : res wind :=
  match transform_halo np e b w with
  | Val (u, v) => Val (cs_dss avg third np (np * e) b u, cs_dss avg third np (np * e) b v)
  | r => r
  end.
