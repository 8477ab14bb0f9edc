(** Model of direct stiffness summation: GridCartesianGLL::ApplyDSS
    (GridCartesianGLL.cpp:507-655) and GridCSGLL::ApplyDSS
    (GridCSGLL.cpp:435-784), after the exchange and the velocity transforms,
    for one component at one level of one patch.  Levels and components are
    independent: every statement of the loops uses a single (c, k). *)
From Coq Require Import ZArith Bool List.
From Verif Require Import PanelModel LayoutModel ExchModel.
Import ListNotations.
Local Open Scope Z_scope.

Section Dss.
Context {V : Type}.
(** [avg x y] is 0.5 * (x + y); [third x y z] is (1.0/3.0) * (x + y + z). *)
Context (avg : V -> V -> V) (third : V -> V -> V -> V).

(** pDataUpdate at one level, by local (alpha, beta) index *)
Definition fld : Type := Z -> Z -> V.
Definition put (u : fld) (i j : Z) (v : V) : fld :=
  fun a b => if (a =? i) && (b =? j) then v else u a b.

(** Body of the alpha loops, GridCartesianGLL.cpp:626-630,
    GridCSGLL.cpp:566-571 *)
Definition node_a (iA : Z) (u : fld) (j : Z) : fld :=
  let u1 := put u iA j (avg (u iA j) (u (iA - 1) j)) in
  put u1 (iA - 1) j (u1 iA j).
Definition node_b (iB : Z) (u : fld) (i : Z) : fld :=
  let u1 := put u i iB (avg (u i iB) (u i (iB - 1))) in
  put u1 i (iB - 1) (u1 i iB).
(** One edge line: index, first and one past last lateral index *)
Definition line_a (u : fld) (l : Z * Z * Z) : fld :=
  fold_left (node_a (fst (fst l))) (up (snd (fst l)) (snd l)) u.
Definition line_b (u : fld) (l : Z * Z * Z) : fld :=
  fold_left (node_b (fst (fst l))) (up (snd (fst l)) (snd l)) u.

(** m_nElementCountA, m_nElementCountB: GridPatchGLL.cpp:52-56 *)
Definition elements_a (np : Z) (b : box) : Z := Z.quot (a_int_width b) np.
Definition elements_b (np : Z) (b : box) : Z := Z.quot (b_int_width b) np.
(** Local interior bounds, PatchBox.h:160-195 *)
Definition ia0 (b : box) : Z := bhalo b.
Definition ia1 (b : box) : Z := bA1 b - bA0 b - bhalo b.
Definition ib0 (b : box) : Z := bhalo b.
Definition ib1 (b : box) : Z := bB1 b - bB0 b - bhalo b.

(** GridCartesianGLL.cpp:615-651 *)
Definition cart_lines_a (np : Z) (b : box) : list (Z * Z * Z) :=
  map (fun a => (a * np + bhalo b, ib0 b - 1, ib1 b + 1)) (up 0 (elements_a np b + 1)).
Definition cart_lines_b (np : Z) (b : box) : list (Z * Z * Z) :=
  map (fun a => (a * np + bhalo b, ia0 b - 1, ia1 b + 1)) (up 0 (elements_b np b + 1)).
Definition cart_dss (np : Z) (b : box) (u : fld) : fld :=
  fold_left line_b (cart_lines_b np b) (fold_left line_a (cart_lines_a np b) u).

(** m_ixNeighborPanel towards the four corners, GridPatchCSGLL.cpp:111-141;
    [true] when it is InvalidPanel.  [n] is
    m_nHorizontalOrder * GetABaseResolution(). *)
Definition no_panel (n : Z) (b : box) (i j : Z) : bool :=
  match relative_coord n (bpanel b) i j with Some r => rp r =? -1 | None => false end.
Definition c_tr (n : Z) (b : box) : bool := no_panel n b (a_int_end b) (b_int_end b).
Definition c_tl (n : Z) (b : box) : bool := no_panel n b (a_int_begin b - 1) (b_int_end b).
Definition c_bl (n : Z) (b : box) : bool := no_panel n b (a_int_begin b - 1) (b_int_begin b - 1).
Definition c_br (n : Z) (b : box) : bool := no_panel n b (a_int_end b) (b_int_begin b - 1).
Definition by2 (c : bool) : Z := if c then 2 else 0.

(** Loop nests 1 and 2: interior lines, then the two edges of the patch,
    GridCSGLL.cpp:554-640 and 644-720 *)
Definition cs_lines_a (np n : Z) (b : box) : list (Z * Z * Z) :=
  map (fun a => (a * np + bhalo b, ib0 b - 1, ib1 b + 1)) (up 1 (elements_a np b)) ++
  [(bhalo b, ib0 b - 1 + by2 (c_bl n b), ib1 b + 1 - by2 (c_tl n b));
   (elements_a np b * np + bhalo b, ib0 b - 1 + by2 (c_br n b), ib1 b + 1 - by2 (c_tr n b))].
Definition cs_lines_b (np n : Z) (b : box) : list (Z * Z * Z) :=
  map (fun a => (a * np + bhalo b, ia0 b - 1, ia1 b + 1)) (up 1 (elements_b np b)) ++
  [(bhalo b, ia0 b - 1 + by2 (c_bl n b), ia1 b + 1 - by2 (c_br n b));
   (elements_b np b * np + bhalo b, ia0 b - 1 + by2 (c_tl n b), ia1 b + 1 - by2 (c_tr n b))].
(** Loop nest 3: patch corners that are panel corners,
    GridCSGLL.cpp:728-781 *)
Definition corner (c : bool) (i j si sj : Z) (u : fld) : fld :=
  if c then put u i j (third (u i j) (u (i + si) j) (u i (j + sj))) else u.
Definition cs_corners (n : Z) (b : box) (u : fld) : fld :=
  let u := corner (c_tr n b) (ia1 b - 1) (ib1 b - 1) 1 1 u in
  let u := corner (c_tl n b) (ia0 b) (ib1 b - 1) (-1) 1 u in
  let u := corner (c_bl n b) (ia0 b) (ib0 b) (-1) (-1) u in
  corner (c_br n b) (ia1 b - 1) (ib0 b) 1 (-1) u.
Definition cs_dss (np n : Z) (b : box) (u : fld) : fld :=
  cs_corners n b (fold_left line_b (cs_lines_b np n b) (fold_left line_a (cs_lines_a np n b) u)).

End Dss.
