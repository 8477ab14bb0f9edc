(** Specification of variable slots and global reductions, for C45 and C46. *)
From Coq Require Import ZArith List Reals.
From Verif Require Import LayoutModel LayoutSpec DiagModel.
Import ListNotations.
Local Open Scope Z_scope.

(** ** Slots *)
(** Every variable has its own slot; the slots used at a location are
    0, 1, ..., number of variables there minus one, in the order of the
    variables. *)
Record slots_ok (locs ix count : list Z) : Prop := {
  so_len : length ix = length locs;
  so_distinct : forall c c', (c < c' < length locs)%nat ->
    nth c locs 0 = nth c' locs 0 -> nth c ix 0 < nth c' ix 0;
  so_range : forall c, (c < length locs)%nat ->
    0 <= nth c locs 0 < 4 /\ 0 <= nth c ix 0 < nth (Z.to_nat (nth c locs 0)) count 0;
  so_full : forall l m, 0 <= l < 4 -> 0 <= m < nth (Z.to_nat l) count 0 ->
    exists c, (c < length locs)%nat /\ nth c locs 0 = l /\ nth c ix 0 = m;
  so_count : forall l, 0 <= l < 4 -> nth (Z.to_nat l) count 0 = Z.of_nat (count_occ Z.eq_dec locs l) }.

(** ** Reductions over the whole domain *)
(** a node of the undivided grid: panel, two horizontal indices, level *)
Definition gnode : Set := Z * Z * Z * Z.
(** [l] lists the nodes of the domain with [nk] levels, each once *)
Definition enumerates (l : list gnode) (dom : Z -> Z -> Z -> Prop) (nk : Z) : Prop :=
  NoDup l /\ forall p i j k, In (p, i, j, k) l <-> dom p i j /\ 0 <= k < nk.
(** interior data of the patch agrees with the global fields [G] on model
    levels and [E] on interfaces *)
Definition holds (G : gnode -> node_data) (E : gnode -> edge_data) (nR : Z) (p : patch) : Prop :=
  forall i j k, in_box (pbox p) (bpanel (pbox p)) i j ->
    (0 <= k < nR -> pnode p (i - bA0 (pbox p)) (j - bB0 (pbox p)) k = G (bpanel (pbox p), i, j, k)) /\
    (0 <= k < nR + 1 -> pedge p (i - bA0 (pbox p)) (j - bB0 (pbox p)) k = E (bpanel (pbox p), i, j, k)).
Definition total {A} (f : A -> R) (l : list A) : R := fold_right (fun n s => (f n + s)%R) 0%R l.
(** the requested norm of a field with nodal values [f] and areas [w] *)
Definition reduction {A} (t : checksum_type) (f w : A -> R) (l : list A) (x : R) : Prop :=
  match t with
  | CSum => x = total (fun n => f n * w n)%R l
  | CL1 => x = total (fun n => Rabs (f n) * w n)%R l
  | CL2 => x = sqrt (total (fun n => f n ^ 2 * w n)%R l)
  | CLinf => (forall n, In n l -> Rabs (f n) <= x)%R /\ ((exists n, In n l /\ x = Rabs (f n)) \/ (l = [] /\ x = 0%R))
  | COther => False
  end.
(** kinetic energy density of a vector with covariant components [u] in the
    metric with contravariant coefficients [m] *)
Definition quad3 (m : nat -> nat -> R) (u : nat -> R) : R :=
  total (fun a => total (fun b => m a b * u a * u b)%R [0; 1; 2]%nat) [0; 1; 2]%nat.
Definition comp3 (x : R * R * R) (b : nat) : R :=
  match b with O => fst (fst x) | S O => snd (fst x) | _ => snd x end.
Definition metric3 (d : node_data) (a b : nat) : R :=
  match a with O => comp3 (nd_cona d) b | S O => comp3 (nd_conb d) b | _ => comp3 (nd_conx d) b end.
Definition velocity3 (d : node_data) (a : nat) : R :=
  match a with O => nd_state d 0 | S O => nd_state d 1 | _ => nd_state d 3 end.
