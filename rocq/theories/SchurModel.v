(** * The implicit column solve by elimination of the vertical velocity
    src/atm/VerticalDynamicsSchur.cpp and .h as compiled: USE_DIRECTSOLVE and
    USE_JACOBIAN_DIAGONAL (src/atm/Defines.h:28, 35).  double is R.  Levels and
    components are nat, places in the matrices are Z; an array is a function of the
    place.  The band solver is a parameter. *)
From Coq Require Import ZArith Reals List.
Import ListNotations.
Local Open Scope R_scope.

(** components, VerticalDynamicsSchur.h:80-90 *)
Definition FP : nat := 0.
Definition FW : nat := 1.
Definition FR : nat := 2.
Definition SP : nat := 0.
Definition SR : nat := 1.

(** Initialize, 164-226, for the finite volume discretisation (the other throws, 226):
    m_nOffDiagonals, m_nJacobianFOffD, m_nJacobianFSchurOffD for m_nVerticalOrder *)
Definition settings (order : Z) : option (nat * Z * Z) :=
  let common f := Some (Z.to_nat (Z.quot order 2), f, (order + 1)%Z) in
  if (order <=? 2)%Z then common 4%Z
  else if (order =? 4)%Z then common 7%Z
  else if (order =? 6)%Z then common 10%Z
  else None.

Section Column.
(** m_nRElements, m_nOffDiagonals, m_nJacobianFOffD, m_nJacobianFSchurOffD, dDeltaT *)
Context (n off : nat) (fo so : Z) (dt : R).
(** m_nJacobianFBandwidth and m_nJacobianFSchurWidth, 222-223 *)
Definition fw : Z := (2 * fo + 1)%Z.
Definition sw : Z := (3 * so + 1)%Z.

(** VecFIx and VecSIx, VerticalDynamicsSchur.h:103-126 *)
Definition vec_f (c k : nat) : Z := (3 * Z.of_nat k + Z.of_nat c)%Z.
Definition vec_s (c k : nat) : Z := (2 * Z.of_nat k + Z.of_nat c)%Z.
(** MatFIx and MatSIx, VerticalDynamicsSchur.h:132-159 *)
Definition mat_f (c0 k0 c1 k1 : nat) : Z := ((fo + vec_f c1 k1 - vec_f c0 k0) + fw * vec_f c0 k0)%Z.
Definition mat_s (c0 k0 c1 k1 : nat) : Z := ((2 * so + vec_s c1 k1 - vec_s c0 k0) + sw * vec_s c0 k0)%Z.

(** the interfaces joined to level k, 1589-1598, and the levels joined to interface i,
    1614-1621 and 1738-1745 *)
Definition ibegin (k : nat) : nat := if Nat.ltb k 1 then 1 else k.
Definition iend (k : nat) : nat := if Nat.ltb n (k + 2) then n else k + 2.
Definition joined (k : nat) : list nat := seq (ibegin k) (iend k - ibegin k).
Definition lend (i : nat) : nat := if Nat.ltb n (i + off + 1) then n else i + off + 1.
Definition reach (i : nat) : list nat := seq (i - off) (lend i - (i - off)).

(** m_dSolnSchur, 1580-1612; [g] is m_dDG, [f] is m_dSoln after BuildF *)
Definition rhs (g f : Z -> R) (sc k : nat) : R :=
  let c := if Nat.eqb sc SP then FP else FR in
  fold_left (fun b i => b - dt * g (mat_f FW i c k) * f (vec_f FW i)) (joined k) (f (vec_f c k)).

(** the assignments to dDGSchur in the order of the program: [Put], 1623-1634, and
    [Take], a subtraction, 1636-1660 *)
Inductive write := Put (at_ : Z) (v : R) | Take (at_ : Z) (v : R).
Definition place (w : write) : Z := match w with Put a _ => a | Take a _ => a end.
Definition act (w : write) (old : R) : R := match w with Put _ v => v | Take _ v => old - v end.
Definition run (ws : list write) (m : Z -> R) : Z -> R :=
  fold_left (fun m w a => if Z.eqb a (place w) then act w (m a) else m a) ws m.

Definition puts (g : Z -> R) (k l : nat) : list write :=
  [ Put (mat_s SP l SP k) (g (mat_f FP l FP k)); Put (mat_s SP l SR k) (g (mat_f FP l FR k));
    Put (mat_s SR l SP k) (g (mat_f FR l FP k)); Put (mat_s SR l SR k) (g (mat_f FR l FR k)) ].
Definition takes (g : Z -> R) (k i l : nat) : list write :=
  [ Take (mat_s SP l SP k) (dt * g (mat_f FW i FP k) * g (mat_f FP l FW i));
    Take (mat_s SP l SR k) (dt * g (mat_f FW i FR k) * g (mat_f FP l FW i));
    Take (mat_s SR l SP k) (dt * g (mat_f FW i FP k) * g (mat_f FR l FW i));
    Take (mat_s SR l SR k) (dt * g (mat_f FW i FR k) * g (mat_f FR l FW i)) ].
Definition writes (g : Z -> R) : list write :=
  flat_map (fun k => flat_map (fun i =>
    (if Nat.eqb i (ibegin k) then flat_map (puts g k) (reach i) else []) ++ flat_map (takes g k i) (reach i))
    (joined k)) (seq 0 n).
(** m_matJacobianFSchur.Zero() and the loops, 1578-1662 *)
Definition schur (g : Z -> R) : Z -> R := run (writes g) (fun _ => 0).

(** the full correction, 1726-1758; [x] is m_dSolnSchur after the solve *)
Definition back (g f x : Z -> R) (c k : nat) : R :=
  if Nat.eqb c FW then
    if Nat.eqb k n then 0
    else
      let w0 := f (vec_f FW k) * dt in
      if Nat.eqb k 0 then w0
      else fold_left (fun w l => w - dt * g (mat_f FP l FW k) * x (vec_s SP l)
                                   - dt * g (mat_f FR l FW k) * x (vec_s SR l)) (reach k) w0
  else if Nat.ltb k n then x (vec_s (if Nat.eqb c FP then SP else SR) k)
  else f (vec_f c k).

(** the step of one column, 1561-1792: DGBSV first compares the number of unknowns with
    the width of the band (src/base/LinearAlgebra.cpp:163-166) and a return value
    different from zero throws (1721-1723).  [None]: an exception. *)
Context (gbsv : (Z -> R) -> (Z -> R) -> option (Z -> R)).
Definition rhs_vector (g f : Z -> R) : Z -> R :=
  fun a => if Z.even a then rhs g f SP (Z.to_nat (a / 2)) else rhs g f SR (Z.to_nat (a / 2)).
Definition correction (g f : Z -> R) : option (nat -> nat -> R) :=
  if (2 * Z.of_nat n <? 2 * so + so + 1)%Z then None
  else match gbsv (schur g) (rhs_vector g f) with
       | None => None
       | Some x => Some (back g f x)
       end.
End Column.

(** ** The copies on shared nodes, 1869-1960.  The entry of a component at the places
    [a], [b], [r] of the last three indices, which are in this order the first
    horizontal, the second horizontal and the vertical one: the arrays have the sizes
    (components, A, B, levels) (src/atm/GridPatch.cpp:344-348). *)
Definition site : Type := nat * nat * nat.
Definition field := site -> R.
Definition site_eqb (p q : site) : bool :=
  let '(a, b, r) := p in let '(a', b', r') := q in (Nat.eqb a a' && Nat.eqb b b' && Nat.eqb r r')%bool.
(** a patch: first interior place, elements and order in either direction, sizes of the
    three dimensions *)
Record patch := Patch { a0 : nat; b0 : nat; ea : nat; eb : nat; order_h : nat; na : nat; nb : nat; nr : nat }.
Definition inside (P : patch) (p : site) : bool :=
  let '(a, b, r) := p in (Nat.ltb a (na P) && Nat.ltb b (nb P) && Nat.ltb r (nr P))%bool.
(** edges of constant alpha, 1870-1926: target and source of the assignments to one
    component, in the order of the program *)
Definition moves_alpha (P : patch) : list (site * site) :=
  flat_map (fun a => let iA := (a0 P + a * order_h P - 1)%nat in
    flat_map (fun b => let jEnd := if Nat.eqb b (eb P - 1) then order_h P else (order_h P - 1)%nat in
      flat_map (fun j => let iB := (b0 P + b * order_h P + j)%nat in
        map (fun k => ((iA, iB, k), (k, iA + 1, iB)))%nat (seq 0 (nr P)))
      (seq 0 jEnd)) (seq 0 (eb P))) (seq 1 (ea P - 1)).
(** edges of constant beta, 1929-1960 *)
Definition moves_beta (P : patch) : list (site * site) :=
  flat_map (fun b => flat_map (fun i => let iB := (b0 P + b * order_h P - 1)%nat in
      map (fun k => ((k, i, iB), (k, i, iB + 1)))%nat (seq 0 (nr P)))
    (seq (a0 P) (ea P * order_h P))) (seq 1 (eb P - 1)).
(** one assignment.  [None]: a place outside the array (an exception with the checks of
    the debug build, otherwise undefined). *)
Definition move (P : patch) (d : option field) (m : site * site) : option field :=
  match d with
  | None => None
  | Some d => if (inside P (fst m) && inside P (snd m))%bool
              then Some (fun p => if site_eqb p (fst m) then d (snd m) else d p) else None
  end.
Definition copies (P : patch) (d : field) : option field := fold_left (move P) (moves_alpha P ++ moves_beta P) (Some d).
