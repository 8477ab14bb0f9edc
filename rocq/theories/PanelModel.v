(** Model of src/atm/Direction.{h,cpp} and of the panel adjacency tables of
    src/atm/CubedSphereTrans.h and GridCSGLL.cpp.  [None] is a thrown
    exception (or, for RelativeCoord, outputs left unset). *)
From Coq Require Import ZArith Bool.
Local Open Scope Z_scope.

(** enum Direction, Direction.h:33-46 *)
Inductive direction :=
| Unreachable | Middle | Right | Top | Left | Bottom
| TopRight | TopLeft | BottomLeft | BottomRight.

(** DirectionOpposite, Direction.cpp:23-59 *)
Definition direction_opposite (d : direction) : direction :=
  match d with
  | Unreachable => Unreachable | Middle => Middle
  | Right => Left | Top => Bottom | Left => Right | Bottom => Top
  | TopRight => BottomLeft | TopLeft => BottomRight
  | BottomLeft => TopRight | BottomRight => TopLeft
  end.

(** DirectionIncrement, Direction.cpp:63-104 *)
Definition direction_increment (d : direction) (i j : Z) : option (Z * Z) :=
  match d with
  | Unreachable => None
  | Middle => Some (i, j)
  | Right => Some (i + 1, j)
  | Top => Some (i, j + 1)
  | Left => Some (i - 1, j)
  | Bottom => Some (i, j - 1)
  | TopRight => Some (i + 1, j + 1)
  | TopLeft => Some (i - 1, j + 1)
  | BottomLeft => Some (i - 1, j - 1)
  | BottomRight => Some (i + 1, j - 1)
  end.

(** RelativePanel, CubedSphereTrans.h:318-460 *)
Definition relative_panel (p : Z) (d : direction) : option (Z * direction) :=
  if p =? 0 then
    match d with
    | Right => Some (1, Left) | Top => Some (4, Bottom)
    | Left => Some (3, Right) | Bottom => Some (5, Top) | _ => None end
  else if p =? 1 then
    match d with
    | Right => Some (2, Left) | Top => Some (4, Right)
    | Left => Some (0, Right) | Bottom => Some (5, Right) | _ => None end
  else if p =? 2 then
    match d with
    | Right => Some (3, Left) | Top => Some (4, Top)
    | Left => Some (1, Right) | Bottom => Some (5, Bottom) | _ => None end
  else if p =? 3 then
    match d with
    | Right => Some (0, Left) | Top => Some (4, Left)
    | Left => Some (2, Right) | Bottom => Some (5, Left) | _ => None end
  else if p =? 4 then
    match d with
    | Right => Some (1, Top) | Top => Some (2, Top)
    | Left => Some (3, Top) | Bottom => Some (0, Top) | _ => None end
  else if p =? 5 then
    match d with
    | Right => Some (1, Bottom) | Top => Some (0, Bottom)
    | Left => Some (3, Bottom) | Bottom => Some (2, Bottom) | _ => None end
  else None.

(** Result of RelativeCoord *)
Record rel := mkRel { rp : Z; ri : Z; rj : Z; sw_ab : bool; sw_par : bool; sw_perp : bool }.

(** RelativeCoord, CubedSphereTrans.h:481-725 *)
Definition relative_coord (Nc p ix jx : Z) : option rel :=
  if (0 <=? jx) && (0 <=? ix) && (jx <? Nc) && (ix <? Nc) then
    Some (mkRel p ix jx false false false)
  else if ((ix <? 0) || (Nc <=? ix)) && ((jx <? 0) || (Nc <=? jx)) then
    Some (mkRel (-1) (-1) (-1) false false false)
  else if p =? 0 then
    if Nc <=? ix then Some (mkRel 1 (ix - Nc) jx false false false)
    else if Nc <=? jx then Some (mkRel 4 ix (jx - Nc) false false false)
    else if ix <? 0 then Some (mkRel 3 (ix + Nc) jx false false false)
    else if jx <? 0 then Some (mkRel 5 ix (jx + Nc) false false false)
    else None
  else if p =? 1 then
    if Nc <=? ix then Some (mkRel 2 (ix - Nc) jx false false false)
    else if Nc <=? jx then Some (mkRel 4 (2 * Nc - 1 - jx) ix true false true)
    else if ix <? 0 then Some (mkRel 0 (ix + Nc) jx false false false)
    else if jx <? 0 then Some (mkRel 5 (Nc + jx) (Nc - 1 - ix) true true false)
    else None
  else if p =? 2 then
    if Nc <=? ix then Some (mkRel 3 (ix - Nc) jx false false false)
    else if Nc <=? jx then Some (mkRel 4 (Nc - ix - 1) (2 * Nc - 1 - jx) false true true)
    else if ix <? 0 then Some (mkRel 1 (ix + Nc) jx false false false)
    else if jx <? 0 then Some (mkRel 5 (Nc - ix - 1) (- jx - 1) false true true)
    else None
  else if p =? 3 then
    if Nc <=? ix then Some (mkRel 0 (ix - Nc) jx false false false)
    else if Nc <=? jx then Some (mkRel 4 (jx - Nc) (Nc - ix - 1) true true false)
    else if ix <? 0 then Some (mkRel 2 (ix + Nc) jx false false false)
    else if jx <? 0 then Some (mkRel 5 (- jx - 1) ix true false true)
    else None
  else if p =? 4 then
    if Nc <=? ix then Some (mkRel 1 jx (2 * Nc - 1 - ix) true false true)
    else if Nc <=? jx then Some (mkRel 2 (Nc - 1 - ix) (2 * Nc - 1 - jx) false true true)
    else if ix <? 0 then Some (mkRel 3 (Nc - 1 - jx) (ix + Nc) true true false)
    else if jx <? 0 then Some (mkRel 0 ix (jx + Nc) false false false)
    else None
  else if p =? 5 then
    if Nc <=? ix then Some (mkRel 1 (Nc - 1 - jx) (ix - Nc) true true false)
    else if Nc <=? jx then Some (mkRel 0 ix (jx - Nc) false false false)
    else if ix <? 0 then Some (mkRel 3 jx (- ix - 1) true false true)
    else if jx <? 0 then Some (mkRel 2 (Nc - 1 - ix) (- jx - 1) false true true)
    else None
  else None.

(** PanelFromDirection, CubedSphereTrans.h:729-785 *)
Definition panel_from_direction (p : Z) (d : direction) : option Z :=
  if p <? 4 then
    match d with
    | Middle => Some p
    | Right => Some (Z.rem (p + 1) 4)
    | Top => Some 4
    | Left => Some (Z.rem (p + 3) 4)
    | Bottom => Some 5
    | _ => None end
  else if p =? 4 then
    match d with
    | Middle => Some 4 | Right => Some 1 | Top => Some 2 | Left => Some 3 | Bottom => Some 0
    | _ => None end
  else if p =? 5 then
    match d with
    | Middle => Some 5 | Right => Some 1 | Top => Some 0 | Left => Some 3 | Bottom => Some 2
    | _ => None end
  else None.

Definition pick6 (q : Z) (d0 d1 d2 d3 d4 d5 : direction) : option direction :=
  if q =? 0 then Some d0 else if q =? 1 then Some d1 else if q =? 2 then Some d2
  else if q =? 3 then Some d3 else if q =? 4 then Some d4 else if q =? 5 then Some d5 else None.
(** DirectionFromPanel, CubedSphereTrans.h:793-893 *)
Definition direction_from_panel (p q : Z) : option direction :=
  if 5 <? q then None
  else if p =? 0 then pick6 q Middle Right Unreachable Left Top Bottom
  else if p =? 1 then pick6 q Left Middle Right Unreachable Top Bottom
  else if p =? 2 then pick6 q Unreachable Left Middle Right Top Bottom
  else if p =? 3 then pick6 q Right Unreachable Left Middle Top Bottom
  else if p =? 4 then pick6 q Bottom Right Top Left Middle Unreachable
  else if p =? 5 then pick6 q Top Right Bottom Left Unreachable Middle
  else None.

Definition two (q : Z) (q1 : Z) (d1 : direction) (q2 : Z) (d2 : direction) : option direction :=
  if q =? q1 then Some d1 else if q =? q2 then Some d2 else None.
(** OpposingDirection, CubedSphereTrans.h:898-1203 *)
Definition opposing_direction (p q : Z) (d : direction) : option direction :=
  match d with
  | Unreachable => Some Unreachable
  | Middle => if p =? q then Some Middle else None
  | _ =>
    if p =? q then Some (direction_opposite d)
    else if p =? 0 then
      match d with
      | Right => Some Left | Top => Some Bottom | Left => Some Right | Bottom => Some Top
      | TopRight => two q 1 BottomLeft 4 BottomLeft
      | TopLeft => two q 3 BottomRight 4 BottomRight
      | BottomLeft => two q 3 TopRight 5 TopRight
      | BottomRight => two q 1 TopLeft 5 TopLeft
      | _ => None end
    else if p =? 1 then
      match d with
      | Right => Some Left | Top => Some Right | Left => Some Right | Bottom => Some Right
      | TopRight => two q 4 BottomRight 2 BottomLeft
      | TopLeft => two q 4 TopRight 0 BottomRight
      | BottomLeft => two q 5 BottomRight 0 TopRight
      | BottomRight => two q 5 TopRight 2 TopLeft
      | _ => None end
    else if p =? 2 then
      match d with
      | Right => Some Left | Top => Some Top | Left => Some Right | Bottom => Some Bottom
      | TopRight => two q 4 TopRight 3 BottomLeft
      | TopLeft => two q 4 TopLeft 1 BottomRight
      | BottomLeft => two q 5 BottomLeft 1 TopRight
      | BottomRight => two q 5 BottomRight 3 TopLeft
      | _ => None end
    else if p =? 3 then
      match d with
      | Right => Some Left | Top => Some Left | Left => Some Right | Bottom => Some Left
      | TopRight => two q 4 TopLeft 0 BottomLeft
      | TopLeft => two q 4 BottomLeft 2 BottomRight
      | BottomLeft => two q 5 TopLeft 2 TopRight
      | BottomRight => two q 5 BottomLeft 0 TopLeft
      | _ => None end
    else if p =? 4 then
      match d with
      | Right => Some Top | Top => Some Top | Left => Some Top | Bottom => Some Top
      | TopRight => two q 1 TopLeft 2 TopRight
      | TopLeft => two q 2 TopLeft 3 TopRight
      | BottomLeft => two q 3 TopLeft 0 TopRight
      | BottomRight => two q 0 TopLeft 1 TopRight
      | _ => None end
    else if p =? 5 then
      match d with
      | Right => Some Bottom | Top => Some Bottom | Left => Some Bottom | Bottom => Some Bottom
      | TopRight => two q 1 BottomRight 0 BottomLeft
      | TopLeft => two q 0 BottomRight 3 BottomLeft
      | BottomLeft => two q 3 BottomRight 2 BottomLeft
      | BottomRight => two q 2 BottomRight 1 BottomLeft
      | _ => None end
    else None
  end.

(** GridCSGLL::GetOpposingDirection, GridCSGLL.cpp:364-431:
    opposing direction, fSwitchParallel, fSwitchPerpendicular *)
Definition cs_opposing (p q : Z) (d : direction) : option (direction * bool * bool) :=
  if (p <? 0) || (5 <? p) then None else
  if (q <? 0) || (5 <? q) then None else
  match opposing_direction p q d with
  | None => None
  | Some o =>
    let par :=
      ((p =? 1) && (q =? 5)) || ((p =? 2) && (3 <? q)) || ((p =? 3) && (q =? 4))
      || ((p =? 4) && ((q =? 2) || (q =? 3))) || ((p =? 5) && ((q =? 2) || (q =? 1))) in
    let perp :=
      ((p =? 1) && (q =? 4)) || ((p =? 2) && (3 <? q)) || ((p =? 3) && (q =? 5))
      || ((p =? 4) && ((q =? 1) || (q =? 2))) || ((p =? 5) && ((q =? 3) || (q =? 2))) in
    Some (o, par, perp)
  end.
