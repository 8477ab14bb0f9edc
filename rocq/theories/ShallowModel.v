(** * Shallow-water dynamics
    The reference element of GridGLL::Initialize (src/atm/GridGLL.cpp:95-178) and
    HorizontalDynamicsFEM::StepShallowWater
    (src/atm/HorizontalDynamicsFEM.cpp:321-640).  double is R; the literals of the
    fourth order tables are the doubles the compiler reads from the decimals. *)
From Coq Require Import ZArith Reals List.
From Verif Require Import QuadModel InterpModel.
Import ListNotations.
Local Open Scope R_scope.

(** dGL, dWL, m_dDxBasis1D, m_dStiffness1D *)
Record basis := Basis { bG : nat -> R; bW : nat -> R; bD : nat -> nat -> R; bS : nat -> nat -> R }.

(** the double m / 2^e *)
Definition dbl (m : Z) (e : nat) : R := IZR m / 2 ^ e.
(** the literals, GridGLL.cpp:111-161: decimal in units of 10^-30 and double *)
Definition lit_gl1 := (276393202250021063903773210768%Z, dbl 1244764322660933 52).
Definition lit_gl2 := (723606797749978936096226789232%Z, dbl 3258835304709563 52).
Definition lit_w0 := (83333333333333314829616256247%Z, dbl 1501199875790165 54).
Definition lit_w1 := (416666666666666685170383743753%Z, dbl 7505999378950827 54).
Definition lit_809 := (8090169943749474512628694355950%Z, dbl 4554360793004265 49).
Definition lit_309 := (3090169943749474512628694355950%Z, dbl 1739611025897705 49).
Definition lit_161 := (1618033988749894902525738871190%Z, dbl 910872158600853 49).
Definition lit_223 := (2236067977499789805051477742380%Z, dbl 629397181890197 48).
Definition lit_061 := (618033988749894902525738871191%Z, dbl 347922205179541 49).

Definition at2 (t : list (list R)) (m i : nat) : R := nth i (nth m t []) 0.
(** GridGLL.cpp:106-161; row m of a table lists [m][0] .. [m][3] *)
Definition basis4 : basis :=
  let a := snd lit_809 in let b := snd lit_309 in let c := snd lit_161 in
  let d := snd lit_223 in let e := snd lit_061 in
  Basis (fun i => nth i [0; snd lit_gl1; snd lit_gl2; 1] 0)
    (fun i => nth i [snd lit_w0; snd lit_w1; snd lit_w1; snd lit_w0] 0)
    (at2 [[-6; - c; e; -1];
          [a; 0; - d; b];
          [- b; d; 0; - a];
          [1; - e; c; 6]])
    (at2 [[-6; - a; b; -1];
          [c; 0; - d; e];
          [- e; d; 0; - c];
          [1; - b; a; 6]]).

(** GridGLL.cpp:163-178: column i of m_dDxBasis1D holds the coefficients of the
    derivative at dGL[i] *)
Fixpoint columns (n : nat) (g : list R) (l : list nat) : option (list (list R)) :=
  match l with
  | [] => Some []
  | i :: r => match diff n (fun k => nth k g 0) (nth i g 0), columns n g r with
              | Some c, Some cs => Some (c :: cs)
              | _, _ => None
              end
  end.
Definition basis_any (n : nat) (r : rule) : option basis :=
  match get_points r 0 1 with
  | Some (g, w) =>
      match columns n g (seq 0 n) with
      | Some cs =>
          let W := fun i => nth i w 0 in
          let D := fun m i => nth m (nth i cs []) 0 in
          Some (Basis (fun i => nth i g 0) W D (fun m i => D m i * W i / W m))
      | None => None
      end
  | None => None
  end.
Definition gll_basis (n : nat) : option basis :=
  if Nat.eqb n 4 then Some basis4 else basis_any n (lobatto_table (Z.of_nat n)).

(** ** StepShallowWater, for one patch and one level k.  Levels do not interact.
    iDataInitial and iDataUpdate are different arrays. *)
Definition field := Z -> Z -> R.
Record state := State { sU : field; sV : field; sH : field; sT : nat -> field }.
(** dJacobian2D, dContraMetric2DA(..,0), (..,1), dContraMetric2DB, dCoriolisF,
    dTopography, GetElementDeltaA, GetElementDeltaB, phys.GetG() *)
Record geometry := Geometry { gJ : field; gA0 : field; gA1 : field; gB0 : field; gB1 : field;
  gF : field; gTopo : field; gDeltaA : R; gDeltaB : R; gGrav : R }.

(** the loops "x += .." and "x -= .." over s *)
Definition inc (n : nat) (f : nat -> R) : R := fold_left (fun x s => x + f s) (seq 0 n) 0.
Definition dec_by (n : nat) (f : nat -> R) : R := fold_left (fun x s => x - f s) (seq 0 n) 0.

Section Shallow.
Context (n : nat) (B : basis) (g : geometry) (init : state).
Local Notation z := Z.of_nat.

(** auxiliary data, HorizontalDynamicsFEM.cpp:420-448 *)
Definition con_ua (x y : Z) : R := gA0 g x y * sU init x y + gA1 g x y * sV init x y.
Definition con_ub (x y : Z) : R := gB0 g x y * sU init x y + gB1 g x y * sV init x y.
Definition kpot (x y : Z) : R :=
  1 / 2 * (con_ua x y * sU init x y + con_ub x y * sV init x y) + gGrav g * sH init x y.
(** fluxes, 455-489 *)
Definition base_a (x y : Z) : R := gJ g x y * con_ua x y.
Definition base_b (x y : Z) : R := gJ g x y * con_ub x y.
Definition mass_a (x y : Z) : R := base_a x y * (sH init x y - gTopo g x y).
Definition mass_b (x y : Z) : R := base_b x y * (sH init x y - gTopo g x y).
Definition trac_a (c : nat) (x y : Z) : R := base_a x y * sT init c x y.
Definition trac_b (c : nat) (x y : Z) : R := base_b x y * sT init c x y.

(** derivatives at node (i, j) of the element with first node (p, q), 499-590:
    collocation derivative and variational form (DIFFERENTIAL_FORM is off) *)
Definition d_alpha (f : field) (p q : Z) (i j : nat) : R :=
  inc n (fun s => f (p + z s)%Z (q + z j)%Z * bD B s i) * (1 / gDeltaA g).
Definition d_beta (f : field) (p q : Z) (i j : nat) : R :=
  inc n (fun s => f (p + z i)%Z (q + z s)%Z * bD B s j) * (1 / gDeltaB g).
Definition v_alpha (f : field) (p q : Z) (i j : nat) : R :=
  dec_by n (fun s => f (p + z s)%Z (q + z j)%Z * bS B i s) * (1 / gDeltaA g).
Definition v_beta (f : field) (p q : Z) (i j : nat) : R :=
  dec_by n (fun s => f (p + z i)%Z (q + z s)%Z * bS B j s) * (1 / gDeltaB g).

(** dZetaXi, 583 *)
Definition zeta (p q : Z) (i j : nat) : R := d_alpha (sV init) p q i j - d_beta (sU init) p q i j.
(** dLocalUpdateUa, dLocalUpdateUb, 579-603 *)
Definition upd_ua (p q : Z) (i j : nat) : R :=
  let x := (p + z i)%Z in let y := (q + z j)%Z in
  0 + gF g x y * gJ g x y * con_ub x y + (- d_alpha kpot p q i j + con_ub x y * zeta p q i j).
Definition upd_ub (p q : Z) (i j : nat) : R :=
  let x := (p + z i)%Z in let y := (q + z j)%Z in
  0 - gF g x y * gJ g x y * con_ua x y + (- d_beta kpot p q i j + - con_ua x y * zeta p q i j).

Definition put (f : field) (x y : Z) (v : R) : field :=
  fun x' y' => if andb (Z.eqb x' x) (Z.eqb y' y) then v else f x' y'.
(** the writes at one node, 605-640; the loop over the tracers c < nTracerCount *)
Definition node_step (nt : nat) (dt : R) (u : state) (p q : Z) (i j : nat) : state :=
  let x := (p + z i)%Z in let y := (q + z j)%Z in
  let inv := 1 / gJ g x y in
  State (put (sU u) x y (sU u x y + dt * upd_ua p q i j))
    (put (sV u) x y (sV u x y + dt * upd_ub p q i j))
    (put (sH u) x y (sH u x y - dt * inv * (v_alpha mass_a p q i j + v_beta mass_b p q i j)))
    (fold_left (fun t c c' => if Nat.eqb c' c
       then put (t c) x y (t c x y - dt * inv * (v_alpha (trac_a c) p q i j + v_beta (trac_b c) p q i j))
       else t c') (seq 0 nt) (sT u)).

(** loops over elements a, b and nodes i, j, 405-412 and 493-496; [h] is
    box.GetHaloElements() *)
Definition first_node (h : Z) (a : nat) : Z := (z a * z n + h)%Z.
Definition element_step (nt : nat) (dt : R) (p q : Z) (u : state) : state :=
  fold_left (fun u i => fold_left (fun u j => node_step nt dt u p q i j) (seq 0 n) u) (seq 0 n) u.
Definition step (nt : nat) (dt : R) (h : Z) (nA nB : nat) (u : state) : state :=
  fold_left (fun u a => fold_left (fun u b => element_step nt dt (first_node h a) (first_node h b) u)
    (seq 0 nB) u) (seq 0 nA) u.
End Shallow.
