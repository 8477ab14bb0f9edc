(** Model of the patch layout: src/atm/PatchBox.h, the two
    ApplyDefaultPatchLayout functions, Grid::DistributePatches and patch
    activation, and the two GetPatchFromCoordinateIndex functions. *)
From Coq Require Import ZArith Bool List.
From Verif Require Import MathModel PanelModel.
Import ListNotations.
Local Open Scope Z_scope.

(** PatchBox fields, PatchBox.h:227-250 *)
Record box := mkBox { bpanel : Z; blevel : Z; bhalo : Z; bA0 : Z; bA1 : Z; bB0 : Z; bB1 : Z }.
(** Constructor from interior bounds, PatchBox.h:30-46 *)
Definition patch_box (panel level halo a0 a1 b0 b1 : Z) : box :=
  mkBox panel level halo (a0 - halo) (a1 + halo) (b0 - halo) (b1 + halo).
(** Accessors, PatchBox.h:98-240 *)
Definition a_int_begin (b : box) : Z := bA0 b + bhalo b.
Definition a_int_end (b : box) : Z := bA1 b - bhalo b.
Definition b_int_begin (b : box) : Z := bB0 b + bhalo b.
Definition b_int_end (b : box) : Z := bB1 b - bhalo b.
Definition a_total (b : box) : Z := bA1 b - bA0 b.
Definition b_total (b : box) : Z := bB1 b - bB0 b.
Definition a_int_width (b : box) : Z := bA1 b - bA0 b - 2 * bhalo b.
Definition b_int_width (b : box) : Z := bB1 b - bB0 b - 2 * bhalo b.
Definition a_loc_begin (b : box) : Z := bhalo b.
Definition a_loc_end (b : box) : Z := bA1 b - bA0 b - bhalo b.
Definition total_nodes (b : box) : Z := a_total b * b_total b.
Definition interior_perimeter (b : box) : Z := 2 * a_int_width b + 2 * b_int_width b.
(** ContainsGlobalPoint, PatchBox.h:52-70 *)
Definition contains (b : box) (p i j : Z) : bool :=
  if negb (p =? bpanel b) then false else
  (a_int_begin b <=? i) && (i <? a_int_end b) && (b_int_begin b <=? j) && (j <? b_int_end b).

Inductive layout_res :=
| LThrow                          (* exception *)
| LOverrun (bs : list box)        (* more boxes written than m_aPatchBoxes has rows *)
| LOk (bs : list box).
Definition finish (maxp : nat) (bs : list box) : layout_res :=
  if (length bs <=? maxp)%nat then LOk bs else LOverrun bs.

(** iBoxBegin: first index 0, last index the resolution, E elements per
    processor in between (GridCSGLL.cpp:119-126, GridCartesianGLL.cpp:182-194) *)
Definition box_begin (P E res : Z) (n : Z) : Z :=
  if n =? P then res else if n =? 0 then 0 else n * E.
Definition zseq (n : Z) : list Z := map Z.of_nat (seq 0 (Z.to_nat n)).

(** GridCSGLL::ApplyDefaultPatchLayout, GridCSGLL.cpp:92-148 *)
Definition cs_procs (nPatch : Z) : Z := Max (ISqrt (wrap32 (Z.quot nPatch 6))) 1.
Definition cs_layout (maxp : nat) (np halo res ninit nPatch : Z) : layout_res :=
  if negb (ninit =? 0) then LThrow else
  let P := cs_procs nPatch in
  if negb (Z.rem res P =? 0) then LThrow else
  let E := Z.quot res P in
  let bb := box_begin P E res in
  finish maxp
    (flat_map (fun n => flat_map (fun i => map (fun j =>
        patch_box n 0 halo (np * bb i) (np * bb (i + 1)) (np * bb j) (np * bb (j + 1)))
      (zseq P)) (zseq P)) (zseq 6)).

(** GridCartesianGLL::ApplyDefaultPatchLayout, GridCartesianGLL.cpp:119-230 *)
Definition cart_layout (maxp : nat) (np halo resA resB ninit nPatch : Z) : layout_res :=
  if nPatch <? 1 then LThrow else
  if negb (ninit =? 0) then LThrow else
  if negb (Z.rem (resA * resB) nPatch =? 0) then LThrow else
  let PA := nPatch in let PB := 1 in
  let bbA := box_begin PA (Z.quot resA PA) resA in
  let bbB := box_begin PB (Z.quot resB PB) resB in
  finish maxp
    (flat_map (fun i => map (fun j =>
        patch_box 0 0 halo (np * bbA i) (np * bbA (i + 1)) (np * bbB j) (np * bbB (j + 1)))
      (zseq PB)) (zseq PA)).

(** Grid::DistributePatches, Grid.cpp:1038-1065, for one rank: processor of
    each of the [rows] rows of m_aPatchBoxes, and the patches activated. *)
Definition patch_processor (rows size : Z) : list Z := map (fun n => Z.rem n size) (zseq rows).
Definition activated (rows size rank : Z) : list Z :=
  filter (fun n => Z.rem n size =? rank) (zseq rows).

(** ActivateEmptyPatch, Grid.cpp:1008-1018, and DeactivatePatch,
    Grid.cpp:1022-1035, on the vector of active indices.  The loop keeps [i]
    after an erase and then increments it, so the element moved into place
    [i] is not examined. *)
Definition activate (ix : Z) (act : list Z) : list Z := act ++ [ix].
Fixpoint deactivate (ix : Z) (act : list Z) : list Z :=
  match act with
  | [] => []
  | a :: act' =>
    if a =? ix then
      match act' with [] => [] | b :: act'' => b :: deactivate ix act'' end
    else a :: deactivate ix act'
  end.

(** Search of all boxes, GridCSGLL.cpp:345-358 *)
Fixpoint search (n : Z) (bs : list box) (p i j : Z) : option Z :=
  match bs with
  | [] => None
  | b :: bs' => if contains b p i j then Some n else search (n + 1) bs' p i j
  end.
(** Cached box test, GridCSGLL.cpp:335-343 *)
Definition cached (bs : list box) (last : option Z) (p i j : Z) : bool :=
  match last with
  | None => false
  | Some l => match nth_error bs (Z.to_nat l) with Some b => contains b p i j | None => false end
  end.

(** GridPatch::InvalidIndex = -1 *)
Definition invalid : Z := -1.
(** One entry of the loop of GridCSGLL::GetPatchFromCoordinateIndex,
    GridCSGLL.cpp:300-359: result and new value of iLastPatch.  [None]:
    RelativeCoord leaves its outputs unset (panel out of range). *)
Definition cs_entry (bs : list box) (nloc : Z) (last : option Z) (q : Z * Z * Z)
  : option (Z * option Z) :=
  let '(p, a, b) := q in
  match (if (a <? 0) || (nloc <=? a) || (b <? 0) || (nloc <=? b)
         then match relative_coord nloc p a b with
              | Some r => Some (rp r, ri r, rj r) | None => None end
         else Some (p, a, b)) with
  | None => None
  | Some (p', a', b') =>
    if ((a <? 0) || (nloc <=? a) || (b <? 0) || (nloc <=? b)) && (a' =? -1) && (b' =? -1)
    then Some (invalid, last)
    else if cached bs last p' a' b' then
      match last with Some l => Some (l, last) | None => None end
    else match search 0 bs p' a' b' with
         | Some n => Some (n, Some n)
         | None => Some (invalid, last)
         end
  end.
Fixpoint cs_lookup_loop (bs : list box) (nloc : Z) (last : option Z) (qs : list (Z * Z * Z))
  : option (list Z) :=
  match qs with
  | [] => Some []
  | q :: qs' =>
    match cs_entry bs nloc last q with
    | None => None
    | Some (r, last') =>
      match cs_lookup_loop bs nloc last' qs' with Some rs => Some (r :: rs) | None => None end
    end
  end.
(** GetABaseResolution(level), Grid.h:647-652 *)
Definition base_res (res ratio level : Z) : option Z :=
  match IntPow ratio level with Some x => Some (res * x) | None => None end.
Definition cs_lookup (bs : list box) (np res ratio level : Z) (qs : list (Z * Z * Z)) : option (list Z) :=
  if level <? 0 then None else
  match base_res res ratio level with
  | Some r => cs_lookup_loop bs (np * r) None qs
  | None => None
  end.

(** Cartesian: wrap once per periodic side, GridCartesianGLL.cpp:383-428;
    [inl]: out of the domain. *)
Definition wrap_axis (n : Z) (lo_periodic hi_periodic : bool) (i : Z) : option Z :=
  match (if i <? 0 then if lo_periodic then Some (i + n) else None else Some i) with
  | None => None
  | Some i' => if n <=? i' then if hi_periodic then Some (i' - n) else None else Some i'
  end.
Record bcs := mkBC { per_right : bool; per_top : bool; per_left : bool; per_bottom : bool }.
Inductive entry_res := EIdx (r : Z) (last : option Z) | EThrow.
Definition cart_entry (bs : list box) (nA nB : Z) (bc : bcs) (last : option Z) (a b : Z) : entry_res :=
  match wrap_axis nA (per_left bc) (per_right bc) a with
  | None => EIdx invalid last
  | Some a' =>
    match wrap_axis nB (per_bottom bc) (per_top bc) b with
    | None => EIdx invalid last
    | Some b' =>
      if cached bs last 0 a' b' then
        match last with Some l => EIdx l last | None => EThrow end
      else match search 0 bs 0 a' b' with
           | Some n => EIdx n (Some n)
           | None => EThrow
           end
    end
  end.
Fixpoint cart_lookup_loop (bs : list box) (nA nB : Z) (bc : bcs) (last : option Z) (qs : list (Z * Z))
  : option (list Z) :=
  match qs with
  | [] => Some []
  | (a, b) :: qs' =>
    match cart_entry bs nA nB bc last a b with
    | EThrow => None
    | EIdx r last' =>
      match cart_lookup_loop bs nA nB bc last' qs' with Some rs => Some (r :: rs) | None => None end
    end
  end.
