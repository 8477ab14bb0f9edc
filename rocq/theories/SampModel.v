(** * Interpolation of the state to output points
    GridPatchCSGLL::InterpolateData (src/atm/GridPatchCSGLL.cpp:1365-1780), the
    body shared with GridPatchCartesianGLL::InterpolateData
    (GridPatchCartesianGLL.cpp:1498-1830), ConvertReferenceToPatchCoord
    (GridCSGLL.cpp:182-269, GridCartesianGLL.cpp:264-344) and
    Grid::ReduceInterpolate (Grid.cpp:867-991).  double is R, int is Z and does
    not overflow.  The vertical operator applied to the column afterwards is
    LinearColumnInterpFEM, modelled in the Fem area; the conversion of the two
    horizontal velocities at the end is the covector map of the Vel area. *)
From Coq Require Import Reals ZArith List Bool.
From Verif Require Import InterpModel ColSpec LayoutModel SpacModel CsTransModel.
Import ListNotations.
Local Open Scope R_scope.

(** conversion of a double to int *)
Definition trunc (x : R) : Z := if Rle_dec 0 x then Int_part x else (- Int_part (- x))%Z.
Definition ltr (a b : R) : bool := if Rlt_dec a b then true else false.
Definition ler (a b : R) : bool := if Rle_dec a b then true else false.

(** one direction of a patch: GetAInteriorWidth() / m_nHorizontalOrder and m_dAEdge *)
Record axis := Axis { elements : Z; edge : nat -> R }.

(** InitializeCoordinateData, GridPatchCSGLL.cpp:178-198,
    GridPatchCartesianGLL.cpp:99-117: the edge array of a patch whose
    global interior begins at [b0]; an exception of GetEdge ends the run, here 0
    stands in its place *)
Definition edges (s : spacing) (halo : nat) (b0 : Z) (i : nat) : R :=
  match repeated_node s (b0 - Z.of_nat halo + Z.of_nat i)%Z with Value x => x | _ => 0 end.

Section Patch.
Context (np halo : nat).

(** m_dElementDeltaA, GridPatchGLL.cpp:70-76 *)
Definition element_delta (ax : axis) : R := edge ax (halo + np)%nat - edge ax halo.
(** Eps and the range check of one direction, GridPatchCSGLL.cpp:1595-1602,
    GridPatchCartesianGLL.cpp:1728-1735 *)
Definition eps : R := / 10 ^ 10.
Definition in_range (ax : axis) (x : R) : bool :=
  negb (ltr x (edge ax halo - eps)
        || ltr (edge ax (halo + Z.to_nat (elements ax) * np)%nat + eps) x).
(** the element index and its bounds, GridPatchCSGLL.cpp:1605-1625 *)
Definition element (ax : axis) (x : R) : Z :=
  let i := trunc ((x - edge ax halo) / element_delta ax) in
  let i := if (i <? 0)%Z then 0%Z else i in
  if (elements ax <=? i)%Z then (elements ax - 1)%Z else i.
(** the array index of its first node, GridPatchCSGLL.cpp:1627-1628 *)
Definition offset (ax : axis) (x : R) : Z := (Z.of_nat halo + element ax x * Z.of_nat np)%Z.
Definition start (ax : axis) (x : R) : nat := Z.to_nat (offset ax x).
(** GridPatchCSGLL.cpp:1631-1641 *)
Definition coeffs (ax : axis) (x : R) : option (list R) := lagrange np (fun m => edge ax (start ax x + m)%nat) x.

(** the double loops, GridPatchCSGLL.cpp:1688-1695 *)
Definition blend (la lb : list R) (ia ib : nat) (d : nat -> nat -> R) : R :=
  sum (fun m => sum (fun n => nth m la 0 * nth n lb 0 * d (ia + m)%nat (ib + n)%nat) np) np.

Inductive data_type := State | Tracers | Other.
(** one level of the column, GridPatchCSGLL.cpp:1644-1711; [dr] is the third
    component of m_dataDerivRREdge or m_dataDerivRNode, as GetVarLocation(3)
    says *)
Definition level_value (ty : data_type) (c : Z) (include_ref primitive : bool) (la lb : list R) (ia ib : nat)
    (data ref dr : nat -> nat -> R) : R :=
  (if (c =? 3)%Z && primitive
   then sum (fun m => sum (fun n => nth m la 0 * nth n lb 0 * data (ia + m)%nat (ib + n)%nat / dr ia ib) np) np
   else blend la lb ia ib data)
  - (match ty with State => if include_ref then 0 else blend la lb ia ib ref | _ => 0 end).

(** [OutOfRange] is the exception, [OutOfBounds] a negative array index *)
Inductive sres := OutOfRange | OutOfBounds | NotFinite | Column (v : nat -> R).
(** the body of the loop over points for a point of this patch,
    GridPatchCSGLL.cpp:1586-1712; arrays are indexed level, alpha, beta *)
Definition sample (ty : data_type) (c : Z) (include_ref primitive : bool) (axa axb : axis)
    (data ref dr : nat -> nat -> nat -> R) (a b : R) : sres :=
  if negb (in_range axa a && in_range axb b) then OutOfRange else
  if (offset axa a <? 0)%Z || (offset axb b <? 0)%Z then OutOfBounds else
  match coeffs axa a, coeffs axb b with
  | Some la, Some lb => Column (fun k =>
      level_value ty c include_ref primitive la lb (start axa a) (start axb b) (data k) (ref k) (dr k))
  | _, _ => NotFinite
  end.
End Patch.

(** ** Which patch holds a point: the loop over patches, GridCSGLL.cpp:211-261,
    GridCartesianGLL.cpp:291-335.  [same] is the test of the panel (absent, so
    constantly true, on the Cartesian grid); the elements of the grid start at
    [a0], [b0] and have widths [da], [db]. *)
Inductive pres := Patch (n : nat) | Misaligned | NotFound.
Definition holds_point (np : Z) (a0 da b0 db : R) (b : box) (x y : R) : bool :=
  let e i := IZR (Z.quot i np) in
  ler (a0 + e (a_int_begin b) * da) x && ler x (a0 + e (a_int_end b) * da) &&
  ler (b0 + e (b_int_begin b) * db) y && ler y (b0 + e (b_int_end b) * db).
Definition misaligned (np : Z) (b : box) : bool :=
  negb ((Z.rem (a_int_begin b) np =? 0) && (Z.rem (a_int_end b) np =? 0) &&
        (Z.rem (b_int_begin b) np =? 0) && (Z.rem (b_int_end b) np =? 0))%Z.
Fixpoint find_patch (same : box -> bool) (np : Z) (a0 da b0 db x y : R) (n : nat) (bs : list box) : pres :=
  match bs with
  | [] => NotFound
  | b :: r =>
      if negb (same b) then find_patch same np a0 da b0 db x y (S n) r
      else if misaligned np b then Misaligned
      else if holds_point np a0 da b0 db b x y then Patch n
      else find_patch same np a0 da b0 db x y (S n) r
  end.
(** one point of GridCSGLL::ConvertReferenceToPatchCoord, longitude and
    latitude in degrees, GridCSGLL.cpp:198-267 *)
Definition cs_convert (np res : Z) (bs : list box) (xr yr : R) : CsTransModel.res (R * R * pres) :=
  match abp_from_rll (xr * PI / 180) (yr * PI / 180) with
  | Val (a, b, p) =>
      let d := 1 / 2 * PI / IZR res in
      Val (a, b, find_patch (fun bx => (p =? bpanel bx)%Z) np (- (1 / 4) * PI) d (- (1 / 4) * PI) d a b 0 bs)
  | Exc => Exc
  | CsTransModel.NotFinite => CsTransModel.NotFinite
  end.
(** one point of GridCartesianGLL::ConvertReferenceToPatchCoord *)
Definition cart_convert (np resA resB : Z) (g0 g1 g2 g3 : R) (bs : list box) (x y : R) : pres :=
  find_patch (fun _ => true) np g0 ((g1 - g0) / IZR resA) g2 ((g3 - g2) / IZR resB) x y 0 bs.

(** ** Grid::ReduceInterpolate, Grid.cpp:940-989, for one entry of the output
    array: every rank zeroes it, its active patches write their own points, and
    the entries of the ranks are added.  [v n] is what patch n would write. *)
Definition rank_entry (patch : Z) (v : Z -> R) (active : list Z) : R :=
  fold_left (fun acc n => if (patch =? n)%Z then v n else acc) active 0.
Definition reduced (patch : Z) (v : Z -> R) (ranks : list (list Z)) : R :=
  fold_right Rplus 0 (map (rank_entry patch v) ranks).
