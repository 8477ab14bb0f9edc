(** Specification of patch layouts, for C16-C19. *)
From Coq Require Import ZArith List.
From Verif Require Import PanelModel PanelSpec LayoutModel.
Import ListNotations.
Local Open Scope Z_scope.

(** Node (i, j) of panel [p] is an interior node of the box. *)
Definition in_box (b : box) (p i j : Z) : Prop :=
  bpanel b = p /\ bA0 b + bhalo b <= i < bA1 b - bhalo b /\ bB0 b + bhalo b <= j < bB1 b - bhalo b.
(** Box number [k] owns the node. *)
Definition owns (bs : list box) (k : Z) (p i j : Z) : Prop :=
  exists b, 0 <= k /\ nth_error bs (Z.to_nat k) = Some b /\ in_box b p i j.
(** Every node of [dom] is owned by exactly one box, other nodes by none. *)
Definition tiles (bs : list box) (dom : Z -> Z -> Z -> Prop) : Prop :=
  (forall p i j, dom p i j -> exists k, owns bs k p i j /\ forall k', owns bs k' p i j -> k' = k) /\
  (forall p i j k, owns bs k p i j -> dom p i j).
(** Interior widths and element alignment *)
Definition width_a (b : box) : Z := (bA1 b - bhalo b) - (bA0 b + bhalo b).
Definition width_b (b : box) : Z := (bB1 b - bhalo b) - (bB0 b + bhalo b).
Definition aligned (np : Z) (b : box) : Prop :=
  (np | bA0 b + bhalo b) /\ (np | bA1 b - bhalo b) /\ (np | bB0 b + bhalo b) /\ (np | bB1 b - bhalo b).

Definition cs_domain (n : Z) (p i j : Z) : Prop := 0 <= p < 6 /\ 0 <= i < n /\ 0 <= j < n.
Definition cart_domain (nA nB : Z) (p i j : Z) : Prop := p = 0 /\ 0 <= i < nA /\ 0 <= j < nB.

(** Answer expected for one cubed-sphere query: a node of the panel, a halo
    node across an edge (which names the node at the same depth behind the
    same edge of the neighbouring panel), or a corner halo node. *)
Definition cs_answer (bs : list box) (n : Z) (q : Z * Z * Z) (r : Z) : Prop :=
  let '(p, i, j) := q in
  (0 <= i < n /\ 0 <= j < n /\ owns bs r p i j) \/
  (exists e d k p' o k', edge e /\ edge o /\ 1 <= d <= n /\ 0 <= k < n /\ 0 <= k' < n /\ 0 <= p' < 6 /\
     (i, j) = outer n e d k /\ p' <> p /\ edge_point n p e k = edge_point n p' o k' /\
     owns bs r p' (fst (inner n o d k')) (snd (inner n o d k'))) \/
  ((i < 0 \/ n <= i) /\ (j < 0 \/ n <= j) /\ r = -1).
(** Cartesian queries: [perlo], [perhi] tell whether the low and high sides
    are periodic. *)
Definition wrapped (n : Z) (perlo perhi : bool) (i : Z) (i' : Z) : Prop :=
  0 <= i' < n /\ (i' = i \/ (i < 0 /\ perlo = true /\ i' = i mod n) \/ (n <= i /\ perhi = true /\ i' = i mod n)).
Definition outside (n : Z) (perlo perhi : bool) (i : Z) : Prop :=
  (i < 0 /\ perlo = false) \/ (n <= i /\ perhi = false).
Definition cart_answer (bs : list box) (nA nB : Z) (bc : bcs) (q : Z * Z) (r : Z) : Prop :=
  (exists a b, wrapped nA (per_left bc) (per_right bc) (fst q) a /\
               wrapped nB (per_bottom bc) (per_top bc) (snd q) b /\ owns bs r 0 a b) \/
  ((outside nA (per_left bc) (per_right bc) (fst q) \/ outside nB (per_bottom bc) (per_top bc) (snd q)) /\ r = -1).
