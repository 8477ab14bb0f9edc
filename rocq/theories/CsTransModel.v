(** * Cubed-sphere coordinate and vector conversions
    src/atm/CubedSphereTrans.cpp and the inline functions of
    src/atm/CubedSphereTrans.h.  double is R, M_PI is PI, the libm functions are
    the real ones. *)
From Coq Require Import ZArith Reals Bool.
Local Open Scope R_scope.

(** [Exc]: an exception is thrown.  [NotFinite]: a division by zero. *)
Inductive res (A : Type) := Val (a : A) | Exc | NotFinite.
Arguments Val {A}. Arguments Exc {A}. Arguments NotFinite {A}.
Definition over {A} (d : R) (r : res A) : res A := if Req_EM_T d 0 then NotFinite else r.
Definition rltb (a b : R) : bool := if Rlt_dec a b then true else false.
Definition rleb (a b : R) : bool := if Rle_dec a b then true else false.
Definition reqb (a b : R) : bool := if Req_EM_T a b then true else false.

(** the switch from panel-centred to global coordinates, CubedSphereTrans.cpp:43-82
    (and 105-144): (xx, yy, zz) *)
Definition to_global (np : Z) (sx sy sz : R) : res (R * R * R) :=
  match np with
  | 0%Z => Val (sz, sx, sy)
  | 1%Z => Val (- sx, sz, sy)
  | 2%Z => Val (- sz, - sx, sy)
  | 3%Z => Val (sx, - sz, sy)
  | 4%Z => Val (- sy, sx, sz)
  | 5%Z => Val (sy, sx, - sz)
  | _ => Exc
  end.
(** the switch back, 147-186 (and 328-362): (sx, sy, sz) *)
Definition to_panel (np : Z) (v : R * R * R) : res (R * R * R) :=
  let '(xx, yy, zz) := v in
  match np with
  | 0%Z => Val (yy, zz, xx)
  | 1%Z => Val (- xx, zz, yy)
  | 2%Z => Val (- yy, zz, - xx)
  | 3%Z => Val (xx, zz, - yy)
  | 4%Z => Val (yy, - xx, zz)
  | 5%Z => Val (yy, xx, - zz)
  | _ => Exc
  end.

(** XYZFromXYP, CubedSphereTrans.cpp:25-83 *)
Definition xyz_from_xyp (x y : R) (np : Z) : res (R * R * R) :=
  let sz := 1 / sqrt (1 + x * x + y * y) in to_global np (sz * x) (sz * y) sz.

(** XYPFromXYP, 87-196 *)
Definition xyp_from_xyp (x y : R) (src dst : Z) : res (R * R) :=
  let sz := 1 / sqrt (1 + x * x + y * y) in
  match to_global src (sz * x) (sz * y) sz with
  | Val v =>
      match to_panel dst v with
      | Val (tx, ty, tz) => if rleb tz 0 then Exc else Val (tx / tz, ty / tz)
      | _ => Exc
      end
  | _ => Exc
  end.

(** atan2 of the C library *)
Definition atan2 (y x : R) : R :=
  if rltb 0 x then atan (y / x)
  else if rltb x 0 then (if rleb 0 y then atan (y / x) + PI else atan (y / x) - PI)
  else if rltb 0 y then PI / 2 else if rltb y 0 then - (PI / 2) else 0.
(** DBL_EPSILON *)
Definition eps : R := / 2 ^ 52.

(** RLLFromXYP, 200-266: (lon, lat) *)
Definition rll_from_xyp (x y : R) (np : Z) : res (R * R) :=
  let wrap (lon : R) := if rltb lon 0 then lon + 2 * PI else lon in
  let equatorial (shift : R) := Val (wrap (atan x + shift), atan (y / sqrt (1 + x * x))) in
  match np with
  | 0%Z => Val (wrap (atan x), atan (y / sqrt (1 + x * x)))
  | 1%Z => equatorial (1 / 2 * PI)
  | 2%Z => equatorial PI
  | 3%Z => equatorial (3 / 2 * PI)
  | 4%Z =>
      let lon := if rltb eps (Rabs x) then atan2 x (- y) else if rleb y 0 then 0 else PI in
      Val (wrap lon, 1 / 2 * PI - atan (sqrt (x * x + y * y)))
  | 5%Z =>
      let lon := if rltb eps (Rabs x) then atan2 x y else if rltb 0 y then 0 else PI in
      Val (wrap lon, - (1 / 2) * PI + atan (sqrt (x * x + y * y)))
  | _ => Exc
  end.
(** RLLFromABP, 270-278 *)
Definition rll_from_abp (a b : R) (np : Z) : res (R * R) := rll_from_xyp (tan a) (tan b) np.

(** XYPFromRLL, 282-367: (dX, dY, nP); Max is src/base/MathHelper.h:30-32 *)
Definition xyp_from_rll (lon lat : R) : res (R * R * Z) :=
  let xx := cos lon * cos lat in let yy := sin lon * cos lat in let zz := sin lat in
  let pm := Rmax (Rabs xx) (Rmax (Rabs yy) (Rabs zz)) in
  let n0 := 6%Z in
  let n1 := if reqb pm (Rabs xx) then (if rltb 0 xx then 0%Z else 2%Z) else n0 in
  let n2 := if reqb pm (Rabs yy) then (if rltb 0 yy then 1%Z else 3%Z) else n1 in
  let n3 := if reqb pm (Rabs zz) then (if rltb 0 zz then 4%Z else 5%Z) else n2 in
  match to_panel n3 (xx, yy, zz) with
  | Val (sx, sy, sz) => over sz (Val (sx / sz, sy / sz, n3))
  | _ => Exc
  end.
(** ABPFromRLL, 371-381 *)
Definition abp_from_rll (lon lat : R) : res (R * R * Z) :=
  match xyp_from_rll lon lat with
  | Val (x, y, p) => Val (atan x, atan y, p)
  | Exc => Exc | NotFinite => NotFinite
  end.

(** ** Vector components *)
Definition equatorial (np : Z) : bool := (0 <=? np)%Z && (np <=? 3)%Z.
(** the guard at the poles, 399-407, 563-571, 655-663; the double 1.0e-13 is taken
    to be exactly 10^-13 *)
Definition at_pole (x y : R) (np : Z) : bool :=
  (3 <? np)%Z && rltb (Rabs x) (/ 10 ^ 13) && rltb (Rabs y) (/ 10 ^ 13).
(** lat as computed in the switches; the last one, line 719, is that of the north
    panel *)
Definition lat_eq (x y : R) : R := atan (y / sqrt (1 + x * x)).
Definition lat_north (x y : R) : R := 1 / 2 * PI - atan (sqrt (x * x + y * y)).
Definition lat_south (x y : R) : R := - (1 / 2) * PI + atan (sqrt (x * x + y * y)).

(** VecTransABPFromRLL, 385-467 *)
Definition vec_abp_from_rll (x y : R) (np : Z) (ulon ulat : R) : res (R * R) :=
  let d2 := 1 + x * x + y * y in
  let r := sqrt (x * x + y * y) in
  if at_pole x y np then Val (if (np =? 4)%Z then ulon else - ulon, ulat)
  else if equatorial np then
    let c := cos (lat_eq x y) in over c (
    let ul := ulon / c in
    Val (ul, x * y / (1 + y * y) * ul + d2 / ((1 + y * y) * sqrt (1 + x * x)) * ulat))
  else if (np =? 4)%Z then
    let c := cos (lat_north x y) in over c (over r (
    let ul := ulon / c in
    Val (- y / (1 + x * x) * ul - d2 * x / ((1 + x * x) * r) * ulat,
         x / (1 + y * y) * ul - d2 * y / ((1 + y * y) * r) * ulat)))
  else if (np =? 5)%Z then
    let c := cos (lat_south x y) in over c (over r (
    let ul := ulon / c in
    Val (y / (1 + x * x) * ul + d2 * x / ((1 + x * x) * r) * ulat,
         - x / (1 + y * y) * ul + d2 * y / ((1 + y * y) * r) * ulat)))
  else Exc.

(** VecTransRLLFromABP, 471-545: no guard at the poles *)
Definition vec_rll_from_abp (x y : R) (np : Z) (ua ub : R) : res (R * R) :=
  let d2 := 1 + x * x + y * y in
  let r := sqrt (x * x + y * y) in
  if equatorial np then
    Val (ua * cos (lat_eq x y),
         - x * y * sqrt (1 + x * x) / d2 * ua + (1 + y * y) * sqrt (1 + x * x) / d2 * ub)
  else if (np =? 4)%Z then over r (
    Val ((- y * (1 + x * x) / (r * r) * ua + x * (1 + y * y) / (r * r) * ub) * cos (lat_north x y),
         - x * (1 + x * x) / (d2 * r) * ua - y * (1 + y * y) / (d2 * r) * ub))
  else if (np =? 5)%Z then over r (
    Val ((y * (1 + x * x) / (r * r) * ua - x * (1 + y * y) / (r * r) * ub) * cos (lat_south x y),
         x * (1 + x * x) / (d2 * r) * ua + y * (1 + y * y) / (d2 * r) * ub))
  else Exc.

(** CoVecTransABPFromRLL, 549-636 *)
Definition covec_abp_from_rll (x y : R) (np : Z) (ulon ulat : R) : res (R * R) :=
  let d2 := 1 + x * x + y * y in
  let r := sqrt (x * x + y * y) in
  if at_pole x y np then Val (if (np =? 4)%Z then ulon else - ulon, ulat)
  else if equatorial np then
    let c := cos (lat_eq x y) in over c (
    let ul := ulon / c in
    Val ((1 + x * x) / d2 * ul - x * y * sqrt (1 + x * x) / d2 * ulat,
         sqrt (1 + x * x) * (1 + y * y) / d2 * ulat))
  else if (np =? 4)%Z then
    let c := cos (lat_north x y) in over c (over r (
    let ul := ulon / c in
    Val (- y * (1 + x * x) / d2 * ul - x * (1 + x * x) / (d2 * r) * ulat,
         x * (1 + y * y) / d2 * ul - y * (1 + y * y) / (d2 * r) * ulat)))
  else if (np =? 5)%Z then
    let c := cos (lat_south x y) in over c (over r (
    let ul := ulon / c in
    Val (y * (1 + x * x) / d2 * ul + x * (1 + x * x) / (d2 * r) * ulat,
         - x * (1 + y * y) / d2 * ul + y * (1 + y * y) / (d2 * r) * ulat)))
  else Exc.

(** CoVecTransRLLFromABP, 640-729 *)
Definition covec_rll_from_abp (x y : R) (np : Z) (ua ub : R) : res (R * R) :=
  let d2 := 1 + x * x + y * y in
  let r2 := x * x + y * y in
  let r := sqrt r2 in
  if at_pole x y np then Val (if (np =? 4)%Z then ua else - ua, ub)
  else if equatorial np then
    Val ((d2 / (1 + x * x) * ua + d2 * x * y / (1 + x * x) / (1 + y * y) * ub) * cos (lat_eq x y),
         d2 / sqrt (1 + x * x) / (1 + y * y) * ub)
  else if (np =? 4)%Z then over r (
    Val ((- d2 * y / (1 + x * x) / r2 * ua + d2 * x / (1 + y * y) / r2 * ub) * cos (lat_north x y),
         - d2 * x / (1 + x * x) / r * ua - d2 * y / (1 + y * y) / r * ub))
  else if (np =? 5)%Z then over r (
    Val ((d2 * y / (1 + x * x) / r2 * ua - d2 * x / (1 + y * y) / r2 * ub) * cos (lat_north x y),
         d2 * x / (1 + x * x) / r * ua + d2 * y / (1 + y * y) / r * ub))
  else Exc.

(** ** Between panels, CubedSphereTrans.h.  [x], [y] are the coordinates on the
    destination panel; the names count panels from 1 as in the code. *)
Definition vec_p2_p1 x y a b : res (R * R) := over x (Val   (* 1423-1432 *)
  (a, y * (1 + x * x) / (x * (1 + y * y)) * a - (x * x + y * y) / (x * (1 + y * y)) * b)).
Definition vec_p1_p2 x y a b : res (R * R) := over x (Val   (* 1438-1447 *)
  (a, y * (1 + x * x) / (x * (1 + y * y)) * a + (x * x + y * y) / (x * (1 + y * y)) * b)).
Definition vec_p5_p1 x y a b : res (R * R) := over y (Val   (* 1453-1462 *)
  (- (x * x + y * y) / (y * (x * x + 1)) * a + x * (1 + y * y) / (y * (x * x + 1)) * b, b)).
Definition vec_p1_p5 x y a b : res (R * R) := over y (Val   (* 1468-1477 *)
  ((x * x + y * y) / (y * (1 + x * x)) * a + x * (1 + y * y) / (y * (1 + x * x)) * b, b)).
Definition vec_p5_p2 x y a b : res (R * R) := over x (Val   (* 1483-1496 *)
  (- b, (x * x + y * y) / (x * (1 + y * y)) * a - (y * (x * x + 1)) / (x * (1 + y * y)) * b)).
Definition vec_p2_p5 x y a b : res (R * R) := over y (Val   (* 1502-1515 *)
  (- (x * (1 + y * y)) / (y * (1 + x * x)) * a + (x * x + y * y) / (y * (1 + x * x)) * b, - a)).
Definition vec_p5_p3 x y a b : res (R * R) := over y (Val   (* 1521-1532 *)
  (- (x * x + y * y) / (y * (x * x + 1)) * a - x * (1 + y * y) / (y * (x * x + 1)) * b, - b)).
Definition vec_p3_p5 x y a b : res (R * R) := over y (Val   (* 1538-1549 *)
  (- (x * x + y * y) / (y * (x * x + 1)) * a - x * (y * y + 1) / (y * (x * x + 1)) * b, - b)).
Definition vec_p5_p4 x y a b : res (R * R) := over x (Val   (* 1555-1568 *)
  (b, (x * x + y * y) / (x * (1 + y * y)) * a + y * (x * x + 1) / (x * (1 + y * y)) * b)).
Definition vec_p4_p5 x y a b : res (R * R) := over y (Val   (* 1574-1587 *)
  ((x * (1 + y * y)) / (y * (1 + x * x)) * a - (x * x + y * y) / (y * (1 + x * x)) * b, a)).
Definition vec_p6_p1 x y a b : res (R * R) := over y (Val   (* 1593-1602 *)
  ((x * x + y * y) / (y * (1 + x * x)) * a + x * (1 + y * y) / (y * (1 + x * x)) * b, b)).
Definition vec_p1_p6 x y a b : res (R * R) := over y (Val   (* 1608-1617 *)
  (- (x * x + y * y) / (y * (1 + x * x)) * a + x * (1 + y * y) / (y * (1 + x * x)) * b, b)).
Definition vec_p6_p2 x y a b : res (R * R) := over x (Val   (* 1623-1636 *)
  (b, - (x * x + y * y) / (x * (1 + y * y)) * a + (y * (1 + x * x)) / (x * (1 + y * y)) * b)).
Definition vec_p2_p6 x y a b : res (R * R) := over y (Val   (* 1642-1655 *)
  ((x * (1 + y * y)) / (y * (1 + x * x)) * a + (x * x + y * y) / (y * (1 + x * x)) * b, a)).
Definition vec_p6_p3 x y a b : res (R * R) := over y (Val   (* 1661-1672 *)
  ((x * x + y * y) / (y * (1 + x * x)) * a - (x * (1 + y * y)) / (y * (1 + x * x)) * b, - b)).
Definition vec_p3_p6 x y a b : res (R * R) := over y (Val   (* 1678-1689 *)
  ((x * x + y * y) / (y * (x * x + 1)) * a - x * (y * y + 1) / (y * (x * x + 1)) * b, - b)).
Definition vec_p6_p4 x y a b : res (R * R) := over x (Val   (* 1695-1708 *)
  (- b, - (x * x + y * y) / (x * (1 + y * y)) * a - (y * (1 + x * x)) / (x * (1 + y * y)) * b)).
Definition vec_p4_p6 x y a b : res (R * R) := over y (Val   (* 1714-1727 *)
  (- (x * (1 + y * y)) / (y * (1 + x * x)) * a - (y * y + x * x) / (y * (1 + x * x)) * b, - a)).

(** the dispatch shared by VecPanelTrans (1333-1405) and CoVecPanelTrans
    (1751-1823); % truncates *)
Definition dispatch {F} (p2_p1 p1_p2 p1_p5 p2_p5 p3_p5 p4_p5 p5_p1 p5_p2 p5_p3 p5_p4 p1_p6 p2_p6 p3_p6 p4_p6
    p6_p1 p6_p2 p6_p3 p6_p4 : F) (src dst : Z) : option F :=
  if ((dst <? 4) && (src <? 4))%Z then
    if (Z.rem (dst + 7 - src) 4 =? 0)%Z then Some p2_p1
    else if (Z.rem (dst + 5 - src) 4 =? 0)%Z then Some p1_p2 else None
  else if (src =? 4)%Z then
    if (dst =? 0)%Z then Some p1_p5 else if (dst =? 1)%Z then Some p2_p5
    else if (dst =? 2)%Z then Some p3_p5 else if (dst =? 3)%Z then Some p4_p5 else None
  else if (dst =? 4)%Z then
    if (src =? 0)%Z then Some p5_p1 else if (src =? 1)%Z then Some p5_p2
    else if (src =? 2)%Z then Some p5_p3 else if (src =? 3)%Z then Some p5_p4 else None
  else if (src =? 5)%Z then
    if (dst =? 0)%Z then Some p1_p6 else if (dst =? 1)%Z then Some p2_p6
    else if (dst =? 2)%Z then Some p3_p6 else if (dst =? 3)%Z then Some p4_p6 else None
  else if (dst =? 5)%Z then
    if (src =? 0)%Z then Some p6_p1 else if (src =? 1)%Z then Some p6_p2
    else if (src =? 2)%Z then Some p6_p3 else if (src =? 3)%Z then Some p6_p4 else None
  else None.
Definition vec_panel (src dst : Z) (a b x y : R) : res (R * R) :=
  match dispatch vec_p2_p1 vec_p1_p2 vec_p1_p5 vec_p2_p5 vec_p3_p5 vec_p4_p5 vec_p5_p1 vec_p5_p2 vec_p5_p3 vec_p5_p4
      vec_p1_p6 vec_p2_p6 vec_p3_p6 vec_p4_p6 vec_p6_p1 vec_p6_p2 vec_p6_p3 vec_p6_p4 src dst with
  | Some f => f x y a b
  | None => Exc
  end.

(** covariant components; dMag = x x + y y *)
Definition covec_p2_p1 x y a b : res (R * R) := let m := x * x + y * y in over m (Val   (* 1841-1859 *)
  (a + y * (1 + x * x) / m * b, - x * (1 + y * y) / m * b)).
Definition covec_p1_p2 x y a b : res (R * R) := let m := x * x + y * y in over m (Val   (* 1865-1883 *)
  (a - y * (1 + x * x) / m * b, x * (1 + y * y) / m * b)).
Definition covec_p5_p1 x y a b : res (R * R) := let m := x * x + y * y in over m (Val   (* 1889-1907 *)
  (- y * (1 + x * x) / m * a, x * (1 + y * y) / m * a + b)).
Definition covec_p1_p5 x y a b : res (R * R) := let m := x * x + y * y in over m (Val   (* 1913-1931 *)
  (y * (1 + x * x) / m * a, - x * (1 + y * y) / m * a + b)).
Definition covec_p5_p2 x y a b : res (R * R) := let m := x * x + y * y in over m (Val   (* 1937-1958 *)
  (- y * (1 + x * x) / m * a - b, x * (1 + y * y) / m * a)).
Definition covec_p2_p5 x y a b : res (R * R) := let m := x * x + y * y in over m (Val   (* 1964-1985 *)
  (y * (1 + x * x) / m * b, - a - x * (1 + y * y) / m * b)).
Definition covec_p5_p3 x y a b : res (R * R) := let m := x * x + y * y in over m (Val   (* 1991-2008 *)
  (- y * (1 + x * x) / m * a, x * (1 + y * y) / m * a - b)).
Definition covec_p3_p5 x y a b : res (R * R) := let m := x * x + y * y in over m (Val   (* 2014-2031 *)
  (- y * (1 + x * x) / m * a, x * (1 + y * y) / m * a - b)).
Definition covec_p5_p4 x y a b : res (R * R) := let m := x * x + y * y in over m (Val   (* 2037-2056 *)
  (- y * (1 + x * x) / m * a + b, x * (1 + y * y) / m * a)).
Definition covec_p4_p5 x y a b : res (R * R) := let m := x * x + y * y in over m (Val   (* 2062-2082 *)
  (- y * (1 + x * x) / m * b, a + x * (1 + y * y) / m * b)).
Definition covec_p6_p1 x y a b : res (R * R) := let m := x * x + y * y in over m (Val   (* 2088-2103 *)
  (y * (1 + x * x) / m * a, - x * (1 + y * y) / m * a + b)).
Definition covec_p1_p6 x y a b : res (R * R) := let m := x * x + y * y in over m (Val   (* 2109-2124 *)
  (- y * (1 + x * x) / m * a, x * (1 + y * y) / m * a + b)).
Definition covec_p6_p2 x y a b : res (R * R) := let m := x * x + y * y in over m (Val   (* 2130-2149 *)
  (y * (1 + x * x) / m * a + b, - x * (1 + y * y) / m * a)).
Definition covec_p2_p6 x y a b : res (R * R) := let m := x * x + y * y in over m (Val   (* 2155-2174 *)
  (y * (1 + x * x) / m * b, a - x * (1 + y * y) / m * b)).
Definition covec_p6_p3 x y a b : res (R * R) := let m := x * x + y * y in over m (Val   (* 2180-2197 *)
  (y * (1 + x * x) / m * a, - x * (1 + y * y) / m * a - b)).
Definition covec_p3_p6 x y a b : res (R * R) := let m := x * x + y * y in over m (Val   (* 2203-2220 *)
  (y * (1 + x * x) / m * a, - x * (1 + y * y) / m * a - b)).
Definition covec_p6_p4 x y a b : res (R * R) := let m := x * x + y * y in over m (Val   (* 2226-2245 *)
  (y * (1 + x * x) / m * a - b, - x * (1 + y * y) / m * a)).
Definition covec_p4_p6 x y a b : res (R * R) := let m := x * x + y * y in over m (Val   (* 2251-2270 *)
  (- y * (1 + x * x) / m * b, - a + x * (1 + y * y) / m * b)).
Definition covec_panel (src dst : Z) (a b x y : R) : res (R * R) :=
  match dispatch covec_p2_p1 covec_p1_p2 covec_p1_p5 covec_p2_p5 covec_p3_p5 covec_p4_p5 covec_p5_p1 covec_p5_p2
      covec_p5_p3 covec_p5_p4 covec_p1_p6 covec_p2_p6 covec_p3_p6 covec_p4_p6 covec_p6_p1 covec_p6_p2 covec_p6_p3
      covec_p6_p4 src dst with
  | Some f => f x y a b
  | None => Exc
  end.
