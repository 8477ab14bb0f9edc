(** Geometry of exchanges, for C22 and C24. *)
From Coq Require Import ZArith List.
From Verif Require Import PanelModel PanelSpec LayoutModel ExchModel.
Import ListNotations.
Local Open Scope Z_scope.

Definition is_edge (d : direction) : Prop := d = Right \/ d = Top \/ d = Left \/ d = Bottom.
Definition is_corner (d : direction) : Prop :=
  d = TopRight \/ d = TopLeft \/ d = BottomLeft \/ d = BottomRight.

(** Patch of sA x sB nodes with a halo of width h: the interior column at
    depth d (1 = first column) inside side [dir], and the halo column at depth
    d outside it, at lateral index [l]. *)
Definition edge_src (dir : direction) (sA sB h : Z) (d l : Z) : Z * Z :=
  match dir with
  | Right => (sA - h - d, l) | Left => (h - 1 + d, l)
  | Top => (l, sB - h - d) | Bottom => (l, h - 1 + d) | _ => (0, 0) end.
Definition edge_dst (dir : direction) (sA sB h : Z) (d l : Z) : Z * Z :=
  match dir with
  | Right => (sA - h - 1 + d, l) | Left => (h - d, l)
  | Top => (l, sB - h - 1 + d) | Bottom => (l, h - d) | _ => (0, 0) end.
(** Columns at alpha depth da and beta depth db inside / outside the corner
    whose innermost node is (f, s). *)
Definition corner_src (dir : direction) (f s : Z) (da db : Z) : Z * Z :=
  match dir with
  | TopRight => (f + 1 - da, s + 1 - db) | TopLeft => (f - 1 + da, s + 1 - db)
  | BottomLeft => (f - 1 + da, s - 1 + db) | BottomRight => (f + 1 - da, s - 1 + db) | _ => (0, 0) end.
Definition corner_dst (dir : direction) (f s : Z) (da db : Z) : Z * Z :=
  match dir with
  | TopRight => (f + da, s + db) | TopLeft => (f - da, s + db)
  | BottomLeft => (f - da, s - db) | BottomRight => (f + da, s - db) | _ => (0, 0) end.

(** The halo column of the receiver [r] that corresponds to the interior
    column of the sender [e]. *)
Inductive linked (e r : exbuf) (sA sB rA rB : Z) : Z * Z -> Z * Z -> Prop :=
| link_edge : forall d l, is_edge (x_dir e) -> is_edge (x_dir r) ->
    1 <= d <= x_halo e -> 0 <= l < x_second e - x_first e ->
    linked e r sA sB rA rB
      (edge_src (x_dir e) sA sB (x_halo e) d (if x_rev e then x_second e - 1 - l else x_first e + l))
      (edge_dst (x_dir r) rA rB (x_halo r) d (x_first r + l))
| link_corner : forall da db, is_corner (x_dir e) -> is_corner (x_dir r) ->
    1 <= da <= x_halo e -> 1 <= db <= x_halo e ->
    linked e r sA sB rA rB
      (if x_rev e then corner_src (x_dir e) (x_first e) (x_second e) db da
       else corner_src (x_dir e) (x_first e) (x_second e) da db)
      (corner_dst (x_dir r) (x_first r) (x_second r) da db).

(** Buffers that face each other: same halo, same kind, same length. *)
Definition facing (e r : exbuf) : Prop :=
  0 <= x_halo e /\ x_halo r = x_halo e /\
  ((is_edge (x_dir e) /\ is_edge (x_dir r) /\
    x_first e <= x_second e /\ x_second r - x_first r = x_second e - x_first e) \/
   (is_corner (x_dir e) /\ is_corner (x_dir r))).

(** The receiver's array afterwards: linked columns hold the sender's values,
    all other entries are untouched. *)
Definition delivered {V} (e r : exbuf) (sA sB rA rB sR : Z) (a old new : arr3 V) : Prop :=
  (forall i j i' j' k, linked e r sA sB rA rB (i, j) (i', j') -> 0 <= k < sR -> new i' j' k = a i j k) /\
  (forall i' j' k, (forall i j, ~ linked e r sA sB rA rB (i, j) (i', j')) \/ ~ (0 <= k < sR) ->
     new i' j' k = old i' j' k).

(** A buffer registered for a patch of sA x sB nodes: lateral range within
    the interior, or a corner node on the side. *)
Definition on_patch (e : exbuf) (sA sB : Z) : Prop :=
  let h := x_halo e in let f := x_first e in let s := x_second e in
  1 <= h /\ 2 * h < sA /\ 2 * h < sB /\
  match x_dir e with
  | Right | Left => h <= f /\ f <= s /\ s <= sB - h
  | Top | Bottom => h <= f /\ f <= s /\ s <= sA - h
  | TopRight => h <= f < sA - h /\ h <= s < sB - h /\ (f = sA - h - 1 \/ s = sB - h - 1)
  | TopLeft => h <= f < sA - h /\ h <= s < sB - h /\ (f = h \/ s = sB - h - 1)
  | BottomLeft => h <= f < sA - h /\ h <= s < sB - h /\ (f = h \/ s = h)
  | BottomRight => h <= f < sA - h /\ h <= s < sB - h /\ (f = sA - h - 1 \/ s = h)
  | _ => False
  end.
Definition interior (h sA sB i j : Z) : Prop := h <= i < sA - h /\ h <= j < sB - h.

(** The columns a buffer takes its values from lie inside the patch: the
    interior is at least a halo wide behind the edge or the corner node. *)
Definition deep_enough (e : exbuf) (sA sB : Z) : Prop :=
  let h := x_halo e in let f := x_first e in let s := x_second e in
  match x_dir e with
  | Right | Left => 3 * h <= sA
  | Top | Bottom => 3 * h <= sB
  | TopRight => 2 * h - 1 <= f /\ 2 * h - 1 <= s
  | TopLeft => f <= sA - 2 * h /\ 2 * h - 1 <= s
  | BottomLeft => f <= sA - 2 * h /\ s <= sB - 2 * h
  | BottomRight => 2 * h - 1 <= f /\ s <= sB - 2 * h
  | _ => True
  end.

(** Every array of an exchange delivered: same levels on both sides, one
    result per array. *)
Fixpoint delivered_all {V} (e r : exbuf) (sA sB rA rB : Z) (items olds news : list (Z * arr3 V)) : Prop :=
  match items, olds, news with
  | [], [], [] => True
  | (sR, a) :: items', (sR1, old) :: olds', (sR2, new) :: news' =>
    sR1 = sR /\ sR2 = sR /\ delivered e r sA sB rA rB sR a old new /\ delivered_all e r sA sB rA rB items' olds' news'
  | _, _, _ => False
  end.

(** Two byte ranges do not meet. *)
Definition apart (o n o' n' : Z) : Prop := o + n <= o' \/ o' + n' <= o.

(** The buffer stores value [v] of its message at place [p] (column, level). *)
Definition wrote {V} (e : exbuf) (sA sB sR : Z) (vals : list V) (p : Z * Z * Z) (v : V) : Prop :=
  exists cells n, unpack_cells e sA sB = Some cells /\ nth_error (places cells sR) n = Some p /\ nth_error vals n = Some v.

(** Position of a node of the patch in its panel. *)
Definition glob (b : box) (c : Z * Z) : Z * Z := (fst c + bA0 b, snd c + bB0 b).
(** The patch ends at edge [d] of a panel with n x n nodes. *)
Definition touches (b : box) (n : Z) (d : direction) : Prop :=
  match d with
  | Right => bA1 b - bhalo b = n | Left => bA0 b + bhalo b = 0
  | Top => bB1 b - bhalo b = n | Bottom => bB0 b + bhalo b = 0 | _ => False end.
(** Lateral position in the panel of lateral index [l] along edge [d]. *)
Definition lateral (b : box) (d : direction) (l : Z) : Z := if vertical d then l + bB0 b else l + bA0 b.
(** The lateral index of [e] sent first. *)
Definition first_sent (e : exbuf) : Z := if x_rev e then x_second e - 1 else x_first e.
(** The boundary node a buffer starts from: the first column of an edge, or
    the corner node. *)
Definition lead_node (b : box) (e : exbuf) : Z * Z :=
  match x_dir e with
  | Right | Top | Left | Bottom => edge_src (x_dir e) (a_total b) (b_total b) (x_halo e) 1 (x_first e)
  | _ => (x_first e, x_second e)
  end.

(** Sum of a list, and pairs listed by strictly increasing first component. *)
Fixpoint zsum (l : list Z) : Z := match l with [] => 0 | x :: l' => x + zsum l' end.
Fixpoint ascending (m : list (Z * Z)) : Prop :=
  match m with
  | [] => True
  | (p, _) :: m' => (forall q k, In (q, k) m' -> p < q) /\ ascending m'
  end.
