(** * Diffusion, tracer filters and friction
    HorizontalDynamicsFEM::FilterNegativeTracers, ApplyScalarHyperdiffusion,
    ApplyVectorHyperdiffusion, ApplyRayleighFriction, SubStepAfterSubCycle and
    StepAfterSubCycle (src/atm/HorizontalDynamicsFEM.cpp:213-317, 1867-2726),
    ComputeCurlAndDiv (src/atm/GridPatchCSGLL.cpp:1132-1305,
    src/atm/GridPatchCartesianGLL.cpp:1317-1438) and
    VerticalDynamicsFEM::FilterNegativeTracers (src/atm/VerticalDynamicsFEM.cpp:4286-4347)
    on one patch.  double is R.  iDataInitial, iDataUpdate and iDataWorking name
    different arrays.  Loops over levels do not interact and are written outside
    the loops over elements.  POSITIVE_DEFINITE_FILTER_TRACERS and
    APPLY_RAYLEIGH_WITH_HYPERVIS are on, FIX_ELEMENT_MASS_NONHYDRO and
    PROGNOSTIC_CONTRAVARIANT_MOMENTA are off (src/atm/Defines.h:59-80,
    HorizontalDynamicsFEM.cpp:36). *)
From Coq Require Import ZArith Reals List Bool.
From Verif Require Import ShallowModel.
Import ListNotations.
Local Open Scope R_scope.
Local Notation z := Z.of_nat.

(** the loops "for a, for b, for i, for j" over the nodes of a patch, writing one
    array; [F] gets the first node of the element, the node and the old value *)
Definition node_loop (n : nat) (p q : Z) (F : Z -> Z -> nat -> nat -> R -> R) (u : field) : field :=
  fold_left (fun u i => fold_left (fun u j =>
    put u (p + z i)%Z (q + z j)%Z (F p q i j (u (p + z i)%Z (q + z j)%Z))) (seq 0 n) u) (seq 0 n) u.
Definition patch_loop (n : nat) (h : Z) (nA nB : nat) (F : Z -> Z -> nat -> nat -> R -> R) (u : field) : field :=
  fold_left (fun u a => fold_left (fun u b => node_loop n (first_node n h a) (first_node n h b) F u) (seq 0 nB) u) (seq 0 nA) u.

(** ** Scalar diffusion *)
Section Scalar.
Context (n : nat) (B : basis) (g : geometry) (J : field).
(** m_dBufferState, HorizontalDynamicsFEM.cpp:2051-2073 *)
Definition buffer (init ref : field) (remove : bool) : field :=
  fun x y => if remove then init x y - ref x y else init x y.
(** m_dJGradientA, m_dJGradientB, 2075-2108 *)
Definition jgrad_a (psi : field) (p q : Z) (i j : nat) : R :=
  let x := (p + z i)%Z in let y := (q + z j)%Z in
  J x y * (gA0 g x y * d_alpha n B g psi p q i j + gA1 g x y * d_beta n B g psi p q i j).
Definition jgrad_b (psi : field) (p q : Z) (i j : nat) : R :=
  let x := (p + z i)%Z in let y := (q + z j)%Z in
  J x y * (gB0 g x y * d_alpha n B g psi p q i j + gB1 g x y * d_beta n B g psi p q i j).
(** dUpdateA, dUpdateB, 2124-2141 *)
Definition upd_a (psi : field) (p q : Z) (i j : nat) : R :=
  inc n (fun s => jgrad_a psi p q s j * bS B i s) * (1 / gDeltaA g).
Definition upd_b (psi : field) (p q : Z) (i j : nat) : R :=
  inc n (fun s => jgrad_b psi p q i s * bS B j s) * (1 / gDeltaB g).
(** 2162-2165 *)
Definition scalar_node (psi : field) (dt nu : R) (p q : Z) (i j : nat) (v : R) : R :=
  v - dt * (1 / J (p + z i)%Z (q + z j)%Z) * nu * (upd_a psi p q i j + upd_b psi p q i j).
(** one component on one level, 2041-2203 *)
Definition scalar_level (psi : field) (dt nu : R) (h : Z) (nA nB : nat) (u : field) : field :=
  patch_loop n h nA nB (scalar_node psi dt nu) u.
End Scalar.

(** dLocalNu, 1967-1975, and dLocalNuDiv, dLocalNuVort, 2325-2337; pow is the real
    power, dElementDeltaA / dReferenceLength > 0 *)
Definition local_nu (g : geometry) (nu : R) (scale : bool) (len : R) : R :=
  if scale then (if Req_EM_T len 0 then nu else nu * Rpower (gDeltaA g / len) (32 / 10)) else nu.

(** the data of a patch: component, level; nodes, interfaces, tracers *)
Record data := Data { dNode : nat -> nat -> field; dEdge : nat -> nat -> field; dTrac : nat -> nat -> field }.
Inductive place := OnNode | OnEdge | Elsewhere.
Inductive result := Done (d : data) | Throws | Undefined.
Definition set2 (f : nat -> nat -> field) (c k : nat) (v : field) : nat -> nat -> field :=
  fun c' k' => if andb (Nat.eqb c' c) (Nat.eqb k' k) then v else f c' k'.
(** GetComponents, GetTracers, GetRElements, GetVarLocation, GetIsCartesianXZ *)
Record config := Config { nComp : nat; nTrac : nat; nLev : nat; varloc : nat -> place; isXZ : bool }.

Section Patch.
Context (n : nat) (B : basis) (g : geometry) (cfg : config) (h : Z) (nA nB : nat).
(** dJacobianNode, dJacobianREdge *)
Context (jacN jacE : nat -> field).
Definition levels (m : nat) (J : nat -> field) (psi : nat -> field) (dt nu : R) (c : nat) (u : nat -> nat -> field) : nat -> nat -> field :=
  fold_left (fun u k => set2 u c k (scalar_level n B g (J k) (psi k) dt nu h nA nB (u c k))) (seq 0 m) u.
(** one state component, 2015-2032; one tracer, 2034-2039.  For a tracer pDataRef is
    not set; it is read at 2070 when the reference state is removed (the patch has
    an element and a level). *)
Definition state_component (init ref : data) (remove : bool) (dt nu : R) (d : data) (c : nat) : result :=
  match varloc cfg c with
  | OnNode => Done (Data (levels (nLev cfg) jacN (fun k => buffer (dNode init c k) (dNode ref c k) remove) dt nu c (dNode d)) (dEdge d) (dTrac d))
  | OnEdge => Done (Data (dNode d) (levels (S (nLev cfg)) jacE (fun k => buffer (dEdge init c k) (dEdge ref c k) remove) dt nu c (dEdge d)) (dTrac d))
  | Elsewhere => Throws
  end.
Definition tracer_component (init : data) (remove : bool) (dt nu : R) (d : data) (c : nat) : result :=
  if remove then Undefined else
  Done (Data (dNode d) (dEdge d) (levels (nLev cfg) jacN (fun k => buffer (dTrac init c k) (dTrac init c k) false) dt nu c (dTrac d))).
Fixpoint each (f : data -> nat -> result) (l : list nat) (d : data) : result :=
  match l with
  | [] => Done d
  | c :: r => match f d c with Done d' => each f r d' | other => other end
  end.
Definition apply_scalar (init ref : data) (dt nu : R) (scale : bool) (len : R) (comp : Z) (remove : bool) (d : data) : result :=
  let nu' := local_nu g nu scale len in
  (** 1904-1907 *)
  if Z.ltb comp (-1) then Throws else
  (** 1977-2004 *)
  if Z.eqb comp (-1) then
    match each (state_component init ref remove dt nu') (seq 2 (nComp cfg - 2)) d with
    | Done d' => each (tracer_component init remove dt nu') (seq 0 (nTrac cfg)) d'
    | other => other
    end
  else if Z.leb (z (nComp cfg)) comp then Throws
  else each (state_component init ref remove dt nu') [Z.to_nat comp] d.
End Patch.

(** ** Curl, divergence and vector diffusion, one level *)
Section Vector.
Context (n : nat) (B : basis) (g : geometry).
(** m_dBufferConU, GridPatchCSGLL.cpp:1207-1217; dConUa, dConUb,
    GridPatchCartesianGLL.cpp:1349-1359 *)
Definition vcon_a (u v : field) : field := fun x y => gA0 g x y * u x y + gA1 g x y * v x y.
Definition vcon_b (u v : field) : field := fun x y => gB0 g x y * u x y + gB1 g x y * v x y.
(** GridPatchCSGLL.cpp:1267-1299 *)
Definition div_cs (u v : field) (p q : Z) (i j : nat) (_ : R) : R :=
  let da := inc n (fun s => gJ g (p + z s)%Z (q + z j)%Z * vcon_a u v (p + z s)%Z (q + z j)%Z * bD B s i) * (1 / gDeltaA g) in
  let db := inc n (fun s => gJ g (p + z i)%Z (q + z s)%Z * vcon_b u v (p + z i)%Z (q + z s)%Z * bD B s j) * (1 / gDeltaB g) in
  (da + db) * (1 / gJ g (p + z i)%Z (q + z j)%Z).
Definition curl_cs (u v : field) (p q : Z) (i j : nat) (_ : R) : R :=
  let da := inc n (fun s => v (p + z s)%Z (q + z j)%Z * bD B s i) * (1 / gDeltaA g) in
  let db := inc n (fun s => u (p + z i)%Z (q + z s)%Z * bD B s j) * (1 / gDeltaB g) in
  (da - db) * (1 / gJ g (p + z i)%Z (q + z j)%Z).
(** GridPatchCartesianGLL.cpp:1367-1403 *)
Definition div_cart (u v : field) (p q : Z) (i j : nat) (_ : R) : R :=
  let da := inc n (fun s => bD B s i * gJ g (p + z s)%Z (q + z j)%Z * vcon_a u v (p + z s)%Z (q + z j)%Z) / gDeltaA g in
  let db := inc n (fun s => bD B s j * gJ g (p + z i)%Z (q + z s)%Z * vcon_b u v (p + z i)%Z (q + z s)%Z) / gDeltaB g in
  (da + db) / gJ g (p + z i)%Z (q + z j)%Z.
Definition curl_cart (u v : field) (p q : Z) (i j : nat) (_ : R) : R :=
  let da := inc n (fun s => bD B s i * v (p + z s)%Z (q + z j)%Z) / gDeltaA g in
  let db := inc n (fun s => bD B s j * u (p + z i)%Z (q + z s)%Z) / gDeltaB g in
  (da - db) / gJ g (p + z i)%Z (q + z j)%Z.
(** m_dataDivergence and m_dataVorticity after ComputeCurlAndDiv; [cs] selects the
    cubed sphere *)
Definition divergence (cs : bool) (u v : field) (h : Z) (nA nB : nat) (old : field) : field :=
  patch_loop n h nA nB (if cs then div_cs u v else div_cart u v) old.
Definition vorticity (cs : bool) (u v : field) (h : Z) (nA nB : nat) (old : field) : field :=
  patch_loop n h nA nB (if cs then curl_cs u v else curl_cart u v) old.

(** dUpdateUa, dUpdateUb, HorizontalDynamicsFEM.cpp:2358-2402 *)
Definition weak_a (f : field) (p q : Z) (i j : nat) : R :=
  dec_by n (fun s => bS B i s * f (p + z s)%Z (q + z j)%Z) * (1 / gDeltaA g).
Definition weak_b (f : field) (p q : Z) (i j : nat) : R :=
  dec_by n (fun s => bS B j s * f (p + z i)%Z (q + z s)%Z) * (1 / gDeltaB g).
Definition vector_a (div curl : field) (nud nuv : R) (p q : Z) (i j : nat) : R :=
  let x := (p + z i)%Z in let y := (q + z j)%Z in
  nud * weak_a div p q i j - nuv * gJ g x y * (gB0 g x y * weak_a curl p q i j + gB1 g x y * weak_b curl p q i j).
Definition vector_b (div curl : field) (nud nuv : R) (p q : Z) (i j : nat) : R :=
  let x := (p + z i)%Z in let y := (q + z j)%Z in
  nud * weak_b div p q i j + nuv * gJ g x y * (gA0 g x y * weak_a curl p q i j + gA1 g x y * weak_b curl p q i j).
(** 2319-2410 for one level: the new arrays U and V; [u0], [v0] are the initial
    velocities or, for iDataInitial = DATA_INDEX_REFERENCE (2249-2253, 2308-2316),
    those of the reference state.  [od], [oc] are the former contents of the
    buffers of divergence and vorticity. *)
Definition vector_level (cs xz : bool) (u0 v0 : field) (dt nud nuv : R) (h : Z) (nA nB : nat) (od oc : field) (u v : field) : field * field :=
  let div := divergence cs u0 v0 h nA nB od in
  let curl := vorticity cs u0 v0 h nA nB oc in
  (patch_loop n h nA nB (fun p q i j w => w - dt * vector_a div curl nud nuv p q i j) u,
   if xz then v else patch_loop n h nA nB (fun p q i j w => w - dt * vector_b div curl nud nuv p q i j) v).
End Vector.

(** ** Tracer filters *)
(** dTotalMass and dNonNegativeMass over a list of tracer value and area,
    HorizontalDynamicsFEM.cpp:266-287, VerticalDynamicsFEM.cpp:4317-4330 *)
Definition masses (l : list (R * R)) : R * R :=
  fold_left (fun s e => let m := fst e * snd e in
    (fst s + m, if Rle_dec 0 (fst e) then snd s + m else snd s)) l (0, 0).
(** dR = dTotalMass / dNonNegativeMass; no value when the divisor is 0 *)
Definition ratio (l : list (R * R)) : option R :=
  let (t, m) := masses l in if Req_EM_T m 0 then None else Some (t / m).
(** the new value of one node, HorizontalDynamicsFEM.cpp:304-308; None: not a number *)
Definition filter_value (r : option R) (v : R) : option R :=
  if Rlt_dec 0 v then match r with Some r => Some (v * r) | None => None end else Some 0.

(** VerticalDynamicsFEM.cpp:4315-4342, one column; levels 0 .. m-1.  Each entry is
    read and written once after the ratio is known. *)
Definition filter_column (l : list (R * R)) : list (option R) := map (fun e => filter_value (ratio l) (fst e)) l.
(** HorizontalDynamicsFEM.cpp:262-312, one element, tracer and level *)
Definition element_nodes (n : nat) (p q : Z) : list (Z * Z) :=
  flat_map (fun i => map (fun j => (p + z i, q + z j)%Z) (seq 0 n)) (seq 0 n).
Definition put_option (u : option field) (x y : Z) (v : option R) : option field :=
  match u, v with Some f, Some w => Some (put f x y w) | _, _ => None end.
Definition filter_element (n : nat) (area : field) (p q : Z) (u : option field) : option field :=
  match u with
  | None => None
  | Some f =>
      let r := ratio (map (fun e => (f (fst e) (snd e), area (fst e) (snd e))) (element_nodes n p q)) in
      fold_left (fun w e => match w with
        | None => None
        | Some f' => put_option w (fst e) (snd e) (filter_value r (f' (fst e) (snd e))) end) (element_nodes n p q) (Some f)
  end.
(** 258-260: all elements of a patch *)
Definition filter_patch (n : nat) (area : field) (h : Z) (nA nB : nat) (f : field) : option field :=
  fold_left (fun u a => fold_left (fun u b => filter_element n area (first_node n h a) (first_node n h b) u) (seq 0 nB) u) (seq 0 nA) (Some f).

(** ** Friction *)
(** nEffectiveC[0..nComponents-1], HorizontalDynamicsFEM.cpp:2455-2476; the
    nonhydrostatic equations have five components (src/atm/EquationSet.cpp:50-53) *)
Definition effective (nonhydro xz : bool) (nc : nat) : list nat :=
  if nonhydro then (if xz then [0; 2; 3] else [0; 1; 2; 3])%nat else seq 0 nc.
(** 2519-2536: one value, ten cycles *)
Definition friction_cycle (dt nu ref v : R) : R :=
  let c := 1 / (1 + 1 / 10 * dt * nu) in c * v + (1 - c) * ref.
Definition friction_value (dt nu ref v : R) : R :=
  if Req_EM_T nu 0 then v else Nat.iter 10 (friction_cycle dt nu ref) v.
(** the components stored at [loc] of one node (i,j,k) of the interior, 2514-2566:
    [v] and [ref] by component *)
Definition place_eqb (a b : place) : bool :=
  match a, b with OnNode, OnNode | OnEdge, OnEdge | Elsewhere, Elsewhere => true | _, _ => false end.
Definition friction_cell (cfg : config) (nonhydro : bool) (loc : place) (dt nu : R) (ref v : nat -> R) : nat -> R :=
  fold_left (fun v c => if place_eqb (varloc cfg c) loc
      then fun c' => if Nat.eqb c' c then friction_value dt nu (ref c) (v c) else v c' else v)
    (effective nonhydro (isXZ cfg) (nComp cfg)) v.

(** ** The steps after the sub-cycles, over the operations on a whole grid *)
Section After.
(** contents (state and tracers) of one data index of all patches *)
Context {D : Type}.
(** ZeroData; ApplyScalarHyperdiffusion and ApplyVectorHyperdiffusion as functions
    of initial data, updated data, time step, coefficients and fScaleNuLocally;
    FilterNegativeTracers; ApplyDSS; ApplyRayleighFriction *)
Context (zero : D -> D) (scal : D -> R -> R -> bool -> D -> D) (vect : D -> R -> R -> R -> bool -> D -> D)
        (filt dss : D -> D) (fric : R -> D -> D).
(** m_nHyperviscosityOrder, m_dNuScalar, m_dNuDiv, m_dNuVort, HasRayleighFriction() *)
Record setup := Setup { order : Z; nuS : R; nuD : R; nuV : R; friction : bool }.
Definition store := Z -> D.
Definition write (s : store) (i : Z) (d : D) : store := fun k => if Z.eqb k i then d else s k.
Definition edit (s : store) (i : Z) (f : D -> D) : store := write s i (f (s i)).
Inductive outcome := Stored (s : store) | Refused.

Definition all_zero (c : setup) : bool :=
  if Req_EM_T (nuS c) 0 then if Req_EM_T (nuD c) 0 then if Req_EM_T (nuV c) 0 then true else false else false else false.
(** HorizontalDynamicsFEM.cpp:2637-2726 *)
Definition step_after (c : setup) (i u w : Z) (dt : R) (s : store) : outcome :=
  if Z.eqb i w then Refused else if Z.eqb u w then Refused else
  let s := write s u (s i) in
  match
    (if all_zero c then Stored s
     else if Z.eqb (order c) 0 then Stored s
     else if Z.eqb (order c) 2 then
       let s := edit s u (scal (s i) dt (nuS c) false) in
       let s := edit s u (vect (s i) (- dt) (nuD c) (nuV c) false) in
       let s := edit s u filt in
       Stored (edit s u dss)
     else if Z.eqb (order c) 4 then
       let s := edit s w zero in
       let s := edit s w (scal (s i) 1 1 false) in
       let s := edit s w (vect (s i) 1 1 1 false) in
       let s := edit s w dss in
       let s := edit s u (scal (s w) (- dt) (nuS c) true) in
       let s := edit s u (vect (s w) (- dt) (nuD c) (nuV c) true) in
       let s := edit s u filt in
       Stored (edit s u dss)
     else Refused)
  with
  | Stored s => Stored (if friction c then edit s u (fric dt) else s)
  | Refused => Refused
  end.
(** 2574-2578; C++ division truncates *)
Definition substeps (c : setup) : Z := Z.quot (order c) 2.
(** 2582-2633: the index returned and the data *)
Definition sub_step (c : setup) (i u w : Z) (dt : R) (k : Z) (s : store) : option (Z * store) :=
  if Z.eqb k 0 then
    let s := edit s w zero in
    let s := edit s w (scal (s i) 1 1 false) in
    Some (w, edit s w (vect (s i) 1 1 1 false))
  else if Z.eqb k 1 then
    let s := write s u (s i) in
    let s := edit s u (scal (s w) (- dt) (nuS c) true) in
    let s := edit s u (vect (s w) (- dt) (nuD c) (nuV c) true) in
    let s := edit s u filt in
    Some (u, if friction c then edit s u (fric dt) else s)
  else None.
End After.
