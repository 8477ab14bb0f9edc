(** * Positions and normalised areas of levels and interfaces
    Grid::InitializeVerticalCoordinate (src/atm/Grid.cpp:219-347), its override in
    GridGLL (src/atm/GridGLL.cpp:367-553) and the check of the areas in
    EvaluateGeometricTerms (src/atm/GridPatchCSGLL.cpp:315-341, the same in
    src/atm/GridPatchCartesianGLL.cpp:208-234).  double is R; m_nRElements and
    m_nVerticalOrder are not negative, m_nRElements is positive.  The locations of the variables are in
    DiagModel. *)
From Coq Require Import Reals List Arith Bool.
From Verif Require Import DiagModel.
Import ListNotations.
Local Open Scope R_scope.

(** m_dREtaLevels, m_dREtaInterfaces, m_dREtaLevelsNormArea, m_dREtaInterfacesNormArea *)
Record vcoord := VCoord { lev : nat -> R; itf : nat -> R; lar : nat -> R; iar : nat -> R }.
(** exception; integer division by zero; 1.0 / 0.0; access outside an array *)
Inductive made := Throws | Zero_divide | Infinite | Outside | Made (c : vcoord).

(** a write to element k of an array with len elements *)
Definition put (len : nat) (A : nat -> R) (k : nat) (x : R) : option (nat -> R) :=
  if (k <? len)%nat then Some (fun j => if (j =? k)%nat then x else A j) else None.
(** for (int i = 0; i < n; i++) *)
Definition loop {S : Type} (n : nat) (f : nat -> S -> option S) (s : S) : option S :=
  fold_left (fun o i => match o with Some s => f i s | None => None end) (seq 0 n) (Some s).

(** Grid::InitializeVerticalCoordinate for three dimensions, Grid.cpp:303-324, with
    GridSpacingUniform; K is m_nRElements *)
Definition base (ints : bool) (K : nat) : vcoord :=
  let avg := 1 / INR K in
  VCoord (fun k => (INR k + 1 / 2) * avg) (fun k => INR k * avg)
    (fun k => if (ints && ((k =? 0) || (k =? K - 1)))%bool%nat
              then if ((k =? 0) && (k =? K - 1))%bool%nat then avg / 2 / 2 else avg / 2 else avg)
    (fun k => if ((k =? 0) || (k =? K))%bool%nat
              then if ((k =? 0) && (k =? K))%bool%nat then avg / 2 / 2 else avg / 2 else avg).
(** two dimensions, Grid.cpp:246-253; one level *)
Definition base2d : vcoord :=
  VCoord (fun _ => 1 / 2) (fun k => if (k =? 0)%nat then 0 else 1) (fun _ => 1) (fun _ => 1 / 2).

Section Lev.
Context (gauss lobatto : nat -> R -> R -> option (list R * list R)).
(** m_pVerticalStretchF: NULL, or the function; only dREtaStretch is used *)
Context (stretch : option (R -> R)).

(** dREta0 and dREta1 when element a is filled, GridGLL.cpp:424-433, 445-451 and
    507-516, 537-543: dREta0 starts at zero, dREta1 at the function of dAvgDeltaElement *)
Fixpoint bounds (F : R -> R) (avg : R) (a : nat) : R * R :=
  match a with
  | O => (0, F avg)
  | S a' => (snd (bounds F avg a'), F (INR (a' + 2) * avg))
  end.
(** an inner loop: for k < n entry off + k of the first array becomes f k and entry
    off + k of the second changes by h k *)
Definition fill (len n off : nat) (f : nat -> R) (h : nat -> R -> R) (s : (nat -> R) * (nat -> R)) : option ((nat -> R) * (nat -> R)) :=
  loop n (fun k s =>
    match put len (fst s) (off + k) (f k), put len (snd s) (off + k) (h k (snd s (off + k)%nat)) with
    | Some l, Some w => Some (l, w)
    | _, _ => None
    end) s.

(** the loop a = 1 .. ne - 1 that doubles the areas at shared nodes, GridGLL.cpp:417-419, 500-502 *)
Definition double_shared (len ne m : nat) (A : nat -> R) : option (nat -> R) :=
  loop (ne - 1) (fun a A => put len A (S a * m) (A (S a * m)%nat * 2)) A.

(** VerticalStaggering_Interfaces, GridGLL.cpp:384-454; n is nNodesPerFiniteElement *)
Definition interfaces_coord (K n : nat) : made :=
  if (n =? 1)%nat then Zero_divide
  else if (n =? 0)%nat then Throws
  else if negb ((K - 1) mod (n - 1) =? 0)%nat then Throws
  else match lobatto n 0 1 with
  | None => Throws
  | Some (GL, WL) =>
    let ne := ((K - 1) / (n - 1))%nat in
    if (ne =? 0)%nat then Infinite
    else let avg := 1 / INR ne in
    let b := base true K in
    match stretch with
    | None =>
      let l k := (nth (k mod (n - 1)) GL 0 + INR (k / (n - 1))) * avg in
      let w k := nth (k mod (n - 1)) WL 0 * avg in
      match double_shared K ne (n - 1) w with
      | Some w' => Made (VCoord l (itf b) w' (iar b))
      | None => Outside
      end
    | Some F =>
      match loop ne (fun a s =>
              let '(r0, r1) := bounds F avg a in
              fill K n (a * (n - 1)) (fun k => r0 + nth k GL 0 * (r1 - r0)) (fun k x => x + nth k WL 0 * (r1 - r0)) s)
              (lev b, fun _ => 0) with
      | Some (l, w) => Made (VCoord l (itf b) w (iar b))
      | None => Outside
      end
    end
  end.

(** the other staggerings, GridGLL.cpp:457-547 *)
Definition levels_coord (K n : nat) : made :=
  if (n =? 0)%nat then Zero_divide
  else if negb (K mod n =? 0)%nat then Throws
  else match gauss n 0 1, lobatto (n + 1)%nat 0 1 with
  | Some (G, W), Some (GL, WL) =>
    let ne := (K / n)%nat in
    if (ne =? 0)%nat then Infinite
    else let avg := 1 / INR ne in
    let b := base false K in
    match stretch with
    | None =>
      let l k := (nth (k mod n) G 0 + INR (k / n)) * avg in
      let w k := nth (k mod n) W 0 * avg in
      let e k := (nth (k mod n) GL 0 + INR (k / n)) * avg in
      let v k := nth (k mod n) WL 0 * avg in
      match double_shared (K + 1) ne n v with
      | Some v' => Made (VCoord l e w v')
      | None => Outside
      end
    | Some F =>
      match loop ne (fun a s =>
              let '(r0, r1) := bounds F avg a in
              match fill K n (a * n) (fun k => r0 + nth k G 0 * (r1 - r0)) (fun k _ => nth k W 0 * (r1 - r0)) (fst s),
                    fill (K + 1) (n + 1) (a * n) (fun k => r0 + nth k GL 0 * (r1 - r0)) (fun k x => x + nth k WL 0 * (r1 - r0)) (snd s) with
              | Some s1, Some s2 => Some (s1, s2)
              | _, _ => None
              end) ((lev b, fun _ => 0), (itf b, fun _ => 0)) with
      | Some ((l, w), (e, v)) => Made (VCoord l e w v)
      | None => Outside
      end
    end
  | _, _ => Throws
  end.

(** GridGLL::InitializeVerticalCoordinate; [volumes]: m_eVerticalDiscretization is
    VerticalDiscretization_FiniteVolume *)
Definition make_coord (dim : nat) (st : staggering) (volumes : bool) (order K : nat) : made :=
  if (dim =? 2)%nat then Made base2d
  else if negb (dim =? 3)%nat then Throws
  else match st with
  | StOther => Throws
  | StInterfaces => interfaces_coord K (if volumes then 1 else order)
  | _ => levels_coord K (if volumes then 1 else order)
  end.
End Lev.

(** the check at the beginning of EvaluateGeometricTerms, GridPatchCSGLL.cpp:322-341,
    GridPatchCartesianGLL.cpp:215-234: true if no exception *)
Definition total (A : nat -> R) (n : nat) : R := fold_left (fun s k => s + A k) (seq 0 n) 0.
Definition far (x : R) : bool := if Rlt_dec (/ 10 ^ 13) (Rabs (x - 1)) then true else false.
Definition areas_pass (st : staggering) (K : nat) (c : vcoord) : bool :=
  negb (far (total (lar c) K)) &&
  match st with StInterfaces => true | _ => negb (far (total (iar c) (K + 1))) end.
