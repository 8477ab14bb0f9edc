(** * The vertical step of a column
    VerticalDynamicsFEM, src/atm/VerticalDynamicsFEM.{h,cpp}, for W on interfaces and rho
    theta and rho on levels.  double is R, int is nat.  USE_DIRECTSOLVE,
    USE_JACOBIAN_DIAGONAL and FORMULATION_RHOTHETA_PI are on (src/atm/Defines.h:27-44),
    VERTICAL_VELOCITY_ADVECTION_CLARK, the UPWIND_ and UNIFORM_DIFFUSION_ switches are on,
    EXPLICIT_VERTICAL_VELOCITY_ADVECTION and the HYPERVISC_ switches off
    (VerticalDynamicsFEM.cpp:33-47), so m_fHypervisVar is false throughout and the
    hyperviscosity blocks do nothing.  An entry of dF is written once by each term; the
    model adds the terms in the same order.  LAPACK is not modelled: its solution is a
    parameter. *)
From Coq Require Import ZArith Reals List Arith Bool.
From Verif Require Import ColModel FemModel FluxModel.
From Verif Require PhysModel.
Import ListNotations.
Local Open Scope R_scope.

(** FPIx, FWIx, FRIx, VecFIx, VerticalDynamicsFEM.h:76-106 *)
Inductive comp := FP | FW | FR.
Definition number (c : comp) : nat := match c with FP => 0 | FW => 1 | FR => 2 end.
Definition vec_ix (c : comp) (k : nat) : nat := (3 * k + number c)%nat.
Definition same (c d : comp) : bool := (number c =? number d)%nat.
(** a vector of length m_nColumnStateSize by component and level *)
Definition vector := comp -> nat -> R.

(** the operators of GridGLL used here, GridGLL.cpp:188-363: m_opInterpNodeToREdge,
    m_opInterpREdgeToNode, m_opDiffNodeToREdge, m_opDiffREdgeToNode,
    m_opDiffNodeToNodeZeroBoundaries, m_opDiffDiffNodeToNode, m_opDiffDiffREdgeToREdge,
    m_opPenaltyNodeToNode *)
Record operators := Operators { i_ne : op; i_en : op; d_ne : op; d_en : op; d_nn0 : op; dd_nn : op; dd_ee : op; pnl : penalty }.
(** GridGLL::Initialize, GridGLL.cpp:183-253 for finite volumes and 279-363 for finite
    elements on levels, Lorenz or Charney-Phillips staggering; None: an exception or
    undefined behaviour in one of them.  Finite volumes leave
    m_opDiffNodeToNodeZeroBoundaries empty.  [sol] is what LAPACK returns for the
    flux correction, [lev], [itf] are m_dREtaLevels and m_dREtaInterfaces, [slev],
    [sitf] their stretched values. *)
Definition no_op : op := Op 0 [] [] [].
Definition bundle (a b c d e f g : outcome) (p : pen_outcome) : option operators :=
  match a, b, c, d, e, f, g, p with
  | Built a, Built b, Built c, Built d, Built e, Built f, Built g, PenBuilt p => Some (Operators a b c d e f g p)
  | _, _, _, _, _, _, _, _ => None
  end.
Section Sets.
Context (sol : nat -> nat -> nat -> R) (gauss lobatto : nat -> R -> R -> option (list R * list R)).
Definition volume_operators (vo : nat) (lev itf : list R) : option operators :=
  bundle (interp_rec vo lev itf) (average_rec vo lev itf) (diff_rec Levels Interfaces vo lev itf) (diff_rec Interfaces Levels vo lev itf)
    (Built no_op) (diffusion_levels sol gauss 1 lev itf) (diffusion_edges lobatto 1 lev itf) (penalty_rec vo lev itf).
Definition element_operators (vo : nat) (lev itf slev sitf : list R) : option operators :=
  bundle (interp Levels vo slev sitf sitf false) (interp Interfaces vo slev sitf slev false)
    (flux_diff sol Levels vo lev itf itf true) (diff_interface Interfaces vo lev itf lev false) (diff_interface Levels vo lev itf lev true)
    (diffusion_levels sol gauss vo lev itf) (diffusion_edges lobatto vo lev itf) (penalty_fem sol vo lev itf).
End Sets.
(** nRElements, nFiniteElements, nNodesPerFiniteElement, m_fUpwindVar and
    m_fUniformDiffusionVar by component, m_fUpwindVar[UIx], m_fUniformDiffusionVar[UIx],
    m_fUpwindVar[TracerIx], m_fUniformDiffusionVar[TracerIx], m_dUpwindCoeff,
    GetScalarUniformDiffusionCoeff, GetVectorUniformDiffusionCoeff, GetZtop,
    m_fForceMassFluxOnLevels, m_fFullyExplicit, m_dDeltaT, the physical constants *)
Record settings := Settings { rlev : nat; nfe : nat; npe : nat; upw : comp -> bool; uni : comp -> bool;
  upw_u : bool; uni_u : bool; upw_t : bool; uni_t : bool; ucoef : R; sdiff : R; vdiff : R; ztop : R;
  on_levels : bool; explicit : bool; dt : R; phys : PhysModel.constants }.
(** the data of SetupReferenceColumn, VerticalDynamicsFEM.cpp:1643-1836: Jacobians on levels and
    interfaces, DerivRREdge(..,2), rows A, B, Xi of the contravariant metric on levels and
    interfaces, U and V on levels, the reference profiles of rho theta on levels and W on
    interfaces (zero without reference state), m_dColumnState *)
Record column := Column { jn : nat -> R; je : nat -> R; dr : nat -> R;
  ca : nat -> nat -> R; cb : nat -> nat -> R; cx : nat -> nat -> R;
  cae : nat -> nat -> R; cbe : nat -> nat -> R; cxe : nat -> nat -> R;
  u : nat -> R; v : nat -> R; ref_p : nat -> R; ref_w : nat -> R; start : vector }.

Section Column.
Context (S : settings) (O : operators) (Q : column).
Local Notation K := (rlev S).

(** U and V on interfaces, m_dDiffUa, m_dDiffUb, VerticalDynamicsFEM.cpp:1676-1712 *)
Definition ue (k : nat) : R := apply1 (i_ne O) (u Q) k.
Definition ve (k : nat) : R := apply1 (i_ne O) (v Q) k.
Definition dua (k : nat) : R := apply1 (d_ne O) (u Q) k.
Definition dub (k : nat) : R := apply1 (d_ne O) (v Q) k.

(** ** PrepareColumn, VerticalDynamicsFEM.cpp:1839-2177 *)
Definition wn (X : vector) (k : nat) : R := apply1 (i_en O) (X FW) k.
Definition re (X : vector) (k : nat) : R := apply1 (i_ne O) (X FR) k.
Definition pe (X : vector) (k : nat) : R := apply1 (i_ne O) (X FP) k.
Definition exner (X : vector) (k : nat) : R := PhysModel.exner_from_rhotheta (phys S) (X FP k).
Definition dpe (X : vector) (k : nat) : R := apply1 (d_ne O) (exner X) k.
(** m_dXiDotNode, m_dXiDotREdge, 2053-2072 *)
Definition xin (X : vector) (k : nat) : R := cx Q k 0%nat * u Q k + cx Q k 1%nat * v Q k + cx Q k 2%nat * wn X k.
Definition xie (X : vector) (k : nat) : R :=
  if ((1 <=? k) && (k <? K))%nat then cxe Q k 0%nat * ue k + cxe Q k 1%nat * ve k + cxe Q k 2%nat * X FW k else 0.
(** m_dDiffDiffStateUpwind[WIx] and m_dDiffDiffStateUniform as BuildF uses them, i.e. with
    the entries of W at both ends set to zero, 2087-2153, 2600-2604, 2685-2689 *)
Definition inner (k : nat) (x : R) : R := if ((k =? 0) || (k =? K))%bool%nat then 0 else x.
Definition ddw (X : vector) (k : nat) : R := inner k (apply1 (dd_ee O) (X FW) k).
Definition duw (X : vector) (k : nat) : R := inner k (apply1 (dd_ee O) (X FW) k - apply1 (dd_ee O) (ref_w Q) k).
Definition dup (X : vector) (k : nat) : R := apply1 (dd_nn O) (X FP) k - apply1 (dd_nn O) (ref_p Q) k.

(** ** BuildF, VerticalDynamicsFEM.cpp:2183-2781 *)
(** flux of a quantity with values f on levels and fe on interfaces, differentiated,
    2219-2244, 2299-2333.  The entries of the interface fluxes at both ends are not
    written here; they keep the zero of Allocate and of line 4141. *)
Definition flux_e (fe : nat -> R) (X : vector) (k : nat) : R := if ((1 <=? k) && (k <? K))%nat then je Q k * fe k * xie X k else 0.
Definition flux_n (f : nat -> R) (X : vector) (k : nat) : R := jn Q k * f k * xin X k.
Definition div_flux (f fe : nat -> R) (X : vector) (k : nat) : R :=
  (if on_levels S then apply1 (d_nn0 O) (flux_n f X) k else apply1 (d_en O) (flux_e fe X) k) * (1 / jn Q k).
(** kinetic energy on levels, 2433-2457, and its derivative *)
Definition kin (X : vector) (k : nat) : R :=
  1 / 2 * ((ca Q k 0%nat * u Q k + ca Q k 1%nat * v Q k + ca Q k 2%nat * wn X k) * u Q k
         + (cb Q k 0%nat * u Q k + cb Q k 1%nat * v Q k + cb Q k 2%nat * wn X k) * v Q k
         + (cx Q k 0%nat * u Q k + cx Q k 1%nat * v Q k + cx Q k 2%nat * wn X k) * wn X k).
(** dCurlTerm, 2562-2580 *)
Definition curl (X : vector) (k : nat) : R :=
  - (cae Q k 0%nat * ue k + cae Q k 1%nat * ve k + cae Q k 2%nat * X FW k) * dua k
  - (cbe Q k 0%nat * ue k + cbe Q k 1%nat * ve k + cbe Q k 2%nat * X FW k) * dub k.
(** tendency of W at an interior interface, 2532-2591 *)
Definition w_force (X : vector) (k : nat) : R :=
  dpe X k * pe X k / re X k + PhysModel.g (phys S) * dr Q k + (apply1 (d_ne O) (kin X) k + curl X k).
(** m_dUpwindWeights, 2656-2660 *)
Definition weights (xi : nat -> R) (a : nat) : R := Rabs (xi ((a + 1) * npe S)%nat).
Definition pen (xi f : nat -> R) (k : nat) : R := pen_apply (pnl O) (weights xi) f (fun _ => 0) k.
(** the entries before the last loop, 2216-2773; entry K of rho theta and rho is unused *)
Definition tendency (X : vector) (c : comp) (k : nat) : R :=
  match c with
  | FR => if (k <? K)%nat then div_flux (X FR) (re X) X k - (if upw S FR then pen (xie X) (X FR) k else 0) else 0
  | FP => if (k <? K)%nat then
            div_flux (X FP) (pe X) X k
            - (if uni S FP then sdiff S / (ztop S * ztop S) * dup X k else 0)
            - (if upw S FP then pen (xie X) (X FP) k else 0)
          else 0
  | FW => inner k (w_force X k
            - (if uni S FW then vdiff S / (ztop S * ztop S) * duw X k else 0)
            - (if upw S FW then ucoef S * Rabs (xie X k) * ddw X k else 0))
  end.
(** 2776-2780 *)
Definition build_f (X : vector) (c : comp) (k : nat) : R := tendency X c k + (X c k - start Q c k) * (1 / dt S).

(** ** The Jacobian: the additions to dDG in the order of the loops.  [Entry c0 k0 c1 k1 x]
    adds x at MatFIx(c0, k0, c1, k1), the derivative of component (c1, k1) of F by
    (c0, k0). *)
Record entry := Entry { e_c0 : comp; e_k0 : nat; e_c1 : comp; e_k1 : nat; e_x : R }.
Definition loop {A : Type} (b e : nat) (f : nat -> list A) : list A := flat_map f (seq b (e - b)).
(** over the columns of row r of an operator *)
Definition row {A : Type} (D : op) (r : nat) (f : nat -> list A) : list A := loop (nth r (beg D) 0%nat) (nth r (fin D) 0%nat) f.

(** BuildJacobianF_LOR_RhoTheta_Pi, VerticalDynamicsFEM.cpp:3070-3107 *)
Definition jac_flux (X : vector) : list entry :=
  loop 0 K (fun k => row (d_en O) k (fun m =>
    (if (negb (m =? 0) && negb (m =? K))%bool%nat then
       let c := getc (d_en O) k m * je Q m * (1 / jn Q k) * cxe Q m 2%nat in
       [Entry FW m FP k (c * pe X m); Entry FW m FR k (c * re X m)]
     else []) ++
    row (i_ne O) m (fun n =>
      let c := getc (d_en O) k m * je Q m * (1 / jn Q k) * getc (i_ne O) m n * xie X m in
      [Entry FR n FR k c; Entry FP n FP k c]))).
(** 3110-3147 *)
Definition jac_w (X : vector) : list entry :=
  loop 1 K (fun k =>
    let a := pe X k * PhysModel.gas (phys S) / (re X k * PhysModel.get_cv (phys S)) in
    row (d_ne O) k (fun m => [Entry FP m FW k (a * getc (d_ne O) k m * exner X m / X FP m)]) ++
    let b := 1 / (re X k * re X k) * dpe X k in
    row (i_ne O) k (fun n => let c := b * getc (i_ne O) k n in
      [Entry FP n FW k (c * re X k); Entry FR n FW k (- c * pe X k)])).
(** 3151-3166 *)
Definition jac_clark (X : vector) : list entry :=
  loop 1 K (fun k => row (d_ne O) k (fun l => row (i_en O) l (fun m =>
    [Entry FW m FW k (getc (i_en O) l m * getc (d_ne O) k l * xin X l)]))).
(** BuildJacobianF_Diffusion, VerticalDynamicsFEM.cpp:2858-2971 *)
Definition sign_weight (xi : nat -> R) (k : nat) : R :=
  if Rlt_dec 0 (xi k) then 1 * cxe Q k 2%nat else if Rlt_dec (xi k) 0 then -1 * cxe Q k 2%nat else 0.
Definition jac_up_edge (X : vector) : list entry :=
  loop 0 (K + 1) (fun k => [Entry FW k FW k (- (ucoef S * sign_weight (xie X) k * ddw X k))]) ++
  loop 0 (K + 1) (fun k => row (dd_ee O) k (fun n => [Entry FW n FW k (- (ucoef S * Rabs (xie X k) * getc (dd_ee O) k n))])).
Definition jac_up_level (X : vector) (c : comp) : list entry :=
  match pops (pnl O) with
  | None => []
  | Some (L, R_) =>
      loop 1 (nfe S) (fun a =>
        let w := Rabs (xie X (a * npe S)) in let s := sign_weight (xie X) (a * npe S) in
        loop ((a - 1) * npe S) (a * npe S) (fun k => row L k (fun n => [Entry FW (a * npe S) c k (- (s * getc L k n * X c n))])) ++
        loop (a * npe S) ((a + 1) * npe S) (fun k => row R_ k (fun n => [Entry FW (a * npe S) c k (- (s * getc R_ k n * X c n))])) ++
        loop ((a - 1) * npe S) (a * npe S) (fun k => row L k (fun n => [Entry c n c k (- (w * getc L k n))])) ++
        loop (a * npe S) ((a + 1) * npe S) (fun k => row R_ k (fun n => [Entry c n c k (- (w * getc R_ k n))])))
  end.
Definition jac_diffusion (X : vector) : list entry :=
  (if upw S FP then jac_up_level X FP else []) ++ (if upw S FW then jac_up_edge X else []) ++ (if upw S FR then jac_up_level X FR else []).
(** 3172-3176 *)
Definition jac_identity : list entry :=
  loop 0 (K + 1) (fun k => [Entry FP k FP k (1 / dt S); Entry FW k FW k (1 / dt S); Entry FR k FR k (1 / dt S)]).
Definition jacobian (X : vector) : list entry := jac_flux X ++ jac_w X ++ jac_clark X ++ jac_diffusion X ++ jac_identity.

(** ** UpdateColumnTracers, VerticalDynamicsFEM.cpp:3783-4281, for one tracer.
    [TEntry k0 k1 x] adds x at TracerMatFIx(k0, k1). *)
Record tentry := TEntry { t_k0 : nat; t_k1 : nat; t_x : R }.
(** 3939-3957, 3960-4003, 4009-4011; the velocity is that of m_dColumnState *)
Definition tjac_flux (xi : nat -> R) : list tentry :=
  loop 0 K (fun k => row (d_en O) k (fun m => row (i_ne O) m (fun n =>
    [TEntry n k (getc (d_en O) k m * je Q m / jn Q k * getc (i_ne O) m n * xi m)]))).
Definition tjac_upwind (xi : nat -> R) : list tentry :=
  match pops (pnl O) with
  | None => []
  | Some (L, R_) =>
      loop 1 (nfe S) (fun a =>
        let w := Rabs (xi (a * npe S)%nat) in
        loop ((a - 1) * npe S) (a * npe S) (fun k => row L k (fun n => [TEntry n k (- (w * getc L k n))])) ++
        loop (a * npe S) ((a + 1) * npe S) (fun k => row R_ k (fun n => [TEntry n k (- (w * getc R_ k n))])))
  end.
Definition tracer_jacobian : list tentry :=
  (if explicit S then []
   else tjac_flux (xie (start Q)) ++ (if upw_t S then tjac_upwind (xie (start Q)) else [])) ++
  loop 0 K (fun k => [TEntry k k (1 / dt S)]).
(** m_vecTracersF, 4085-4236.  [W]: the vertical velocity that is used, of the initial
    state if fully explicit and of the updated state otherwise; [q]: the initial tracer
    density; [qr]: its reference.  The uniform diffusion (4107-4138) uses rho on levels and
    interfaces as the last PrepareColumn left it, which is [X]; [rr] is the reference density. *)
Definition with_w (X : vector) (W : nat -> R) : vector := fun c k => match c with FW => W k | _ => X c k end.
Definition tracer_flux (X : vector) (W q qr rr : nat -> R) (k : nat) : R :=
  if ((1 <=? k) && (k <? K))%nat then
    je Q k * apply1 (i_ne O) q k * xie (with_w X W) k
    - (if uni_t S then sdiff S * re X k * apply1 (d_ne O) (fun l => q l / X FR l - qr l / rr l) k else 0)
  else 0.
(** 4194-4236: what the change of W adds to the upwinding *)
Definition tracer_correction (W q : nat -> R) (k : nat) : R :=
  match pops (pnl O) with
  | None => 0
  | Some (L, R_) =>
      fold_left (fun s a =>
        let jump := sign_weight (xie (start Q)) (a * npe S) * (W (a * npe S)%nat - start Q FW (a * npe S)%nat) in
        let s1 := if ((a - 1) * npe S <=? k)%nat && (k <? a * npe S)%nat then
                    accumulate (fun n => - (getc L k n * q n * jump)) s (nth k (beg L) 0%nat) (nth k (fin L) 0%nat) else s in
        if (a * npe S <=? k)%nat && (k <? (a + 1) * npe S)%nat then
          accumulate (fun n => - (getc R_ k n * q n * jump)) s1 (nth k (beg R_) 0%nat) (nth k (fin R_) 0%nat) else s1)
        (seq 1 (nfe S - 1)) 0
  end.
Definition tracer_f (X : vector) (W q qr rr : nat -> R) (k : nat) : R :=
  apply1 (d_en O) (tracer_flux X W q qr rr) k / jn Q k
  - (if upw_t S then pen (if explicit S then xie (with_w X W) else xie (start Q)) q k else 0)
  + (if (upw_t S && negb (explicit S))%bool then tracer_correction W q k else 0).
(** implicit uniform diffusion of tracers is refused, 3899-3901 *)
Definition tracer_throws : bool := (negb (explicit S) && uni_t S)%bool.
End Column.

(** ** What LAPACK reads.  MatFIx, VerticalDynamicsFEM.h:112-122, and DGBSV's place of the matrix
    entry (row i, column j) in the band array with kl = ku = offd *)
Definition width (offd : Z) : Z := (3 * offd + 1)%Z.
Definition mat_ix (offd : Z) (c0 : comp) (k0 : nat) (c1 : comp) (k1 : nat) : Z :=
  (2 * offd + Z.of_nat (vec_ix c1 k1) - Z.of_nat (vec_ix c0 k0) + width offd * Z.of_nat (vec_ix c0 k0))%Z.
Definition band_ix (kl ku ldab i j : Z) : Z := (kl + ku + i - j + ldab * j)%Z.
(** TracerMatFIx, VerticalDynamicsFEM.h:128-137; the array is nRElements by nRElements *)
Definition tracer_ix (vo K : Z) (k0 k1 : nat) : Z :=
  (2 * (2 * vo - 1) + Z.of_nat k1 - Z.of_nat k0 + K * Z.of_nat k0)%Z.
(** dDG after all additions *)
Definition store (offd : Z) (l : list entry) (i : Z) : R :=
  fold_left (fun s e => if (mat_ix offd (e_c0 e) (e_k0 e) (e_c1 e) (e_k1 e) =? i)%Z then s + e_x e else s) l 0.
(** dTracersLUDF after all additions, VerticalDynamicsFEM.cpp:3907-4023 *)
Definition tstore (vo K : Z) (l : list tentry) (i : Z) : R :=
  fold_left (fun s e => if (tracer_ix vo K (t_k0 e) (t_k1 e) =? i)%Z then s + t_x e else s) l 0.
(** m_nJacobianFOffD, VerticalDynamicsFEM.cpp:177-202; None: exception *)
Definition off_diagonals (finite_volume : bool) (order : nat) : option nat :=
  if finite_volume then
    if (order <=? 2)%nat then Some 4%nat else if (order =? 4)%nat then Some 7%nat else if (order =? 6)%nat then Some 10%nat else None
  else match order with
       | 1 => Some 4%nat | 2 => Some 9%nat | 3 => Some 15%nat | 4 => Some 22%nat | 5 => Some 30%nat | _ => None
       end%nat.

(** ** StepImplicit on one column, VerticalDynamicsFEM.cpp:1330-1500: [d] is what DGBSV leaves in
    m_dSoln, [dq] what DGBTRS leaves in m_vecTracersF *)
Definition new_state (Q : column) (d : vector) : vector := fun c k => start Q c k - d c k.
Definition new_tracer (old dq : nat -> R) (k : nat) : R := old k - dq k.
(** StepImplicitTermsExplicitly and StepExplicit on one column, 545-610, 769-817; [old]: dataUpdate *)
Definition explicit_state (S : settings) (O : operators) (Q : column) (old : vector) : vector :=
  fun c k => old c k - dt S * build_f S O Q (start Q) c k.

(** ** StepExplicit, horizontal velocities, 817-834, 1000-1090.  The columns of a patch are
    visited one after the other; [su], [sv] are m_dStateNode[UIx] and [VIx], which only
    SetupReferenceColumn fills, and that is only called if m_fFullyExplicit. *)
Record wind := Wind { c_u : nat -> R; c_v : nat -> R; c_ru : nat -> R; c_rv : nat -> R; c_xi : nat -> R }.
Definition diffuse_wind (S : settings) (O : operators) (st ref : nat -> R) (k : nat) : R :=
  dt S * (vdiff S / (ztop S * ztop S)) * (apply1 (dd_nn O) st k - apply1 (dd_nn O) ref k).
Definition wind_step (S : settings) (O : operators) (xi init st ref old : nat -> R) (k : nat) : R :=
  let a := if upw_u S then pen_apply (pnl O) (fun a => dt S * Rabs (xi ((a + 1) * npe S)%nat)) init old k else old k in
  if uni_u S then if (k <? rlev S)%nat then a + diffuse_wind S O st ref k else a else a.
Fixpoint wind_columns (S : settings) (O : operators) (su sv : nat -> R) (l : list (wind * ((nat -> R) * (nat -> R))))
  : list ((nat -> R) * (nat -> R)) :=
  match l with
  | [] => []
  | (C, (oldu, oldv)) :: r =>
      let '(su', sv') := if explicit S then (c_u C, c_v C) else (su, sv) in
      (wind_step S O (c_xi C) (c_u C) su' (c_ru C) oldu, wind_step S O (c_xi C) (c_v C) sv' (c_rv C) oldv)
        :: wind_columns S O su' sv' r
  end.

(** ** StepImplicit over the interior of a patch, VerticalDynamicsFEM.cpp:1312-1334, 1534-1634:
    each of the columns that several elements share is solved once and copied.  Columns
    are numbered from GetAInteriorBegin and GetBInteriorBegin; [p] is m_nHorizontalOrder,
    [solve i j] what the column step leaves at (i, j).  A column is one value. *)
Section Patch.
Context {A : Type} (p na nb : nat) (solve : nat -> nat -> A).
Definition put2 (f : nat -> nat -> A) (i j : nat) (x : A) : nat -> nat -> A :=
  fun i' j' => if ((i' =? i) && (j' =? j))%bool%nat then x else f i' j'.
Definition run {B : Type} (b e : nat) (f : nat -> B -> B) (x : B) : B := fold_left (fun s k => f k s) (seq b (e - b)) x.
Definition last_end (a n : nat) : nat := if (a =? n - 1)%nat then p else (p - 1)%nat.
Definition solve_columns (old : nat -> nat -> A) : nat -> nat -> A :=
  run 0 na (fun a => run 0 nb (fun b => run 0 (last_end a na) (fun i => run 0 (last_end b nb) (fun j f =>
    put2 f (a * p + i) (b * p + j) (solve (a * p + i)%nat (b * p + j)%nat))))) old.
Definition copy_alpha (f : nat -> nat -> A) : nat -> nat -> A :=
  run 1 na (fun a => run 0 nb (fun b => run 0 (last_end b nb) (fun j f =>
    put2 f (a * p - 1) (b * p + j) (f (a * p - 1 + 1)%nat (b * p + j)%nat)))) f.
Definition copy_beta (f : nat -> nat -> A) : nat -> nat -> A :=
  run 1 nb (fun b => run 0 (na * p) (fun i f => put2 f i (b * p - 1) (f i (b * p - 1 + 1)%nat))) f.
Definition implicit_patch (old : nat -> nat -> A) : nat -> nat -> A := copy_beta (copy_alpha (solve_columns old)).
End Patch.
