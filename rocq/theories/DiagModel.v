(** * Variable slots and global diagnostics
    Grid::InitializeVerticalCoordinate (placement of variables), the reductions
    of GridPatch.cpp and Grid.cpp.  double is R. *)
From Coq Require Import ZArith List Bool Reals.
From Verif Require Import LayoutModel PhysModel.
Import ListNotations.
Local Open Scope Z_scope.

(** ** Placement of variables *)
(** DataLocation.h:25-33 *)
Definition loc_node : Z := 0.
Definition loc_aedge : Z := 1.
Definition loc_bedge : Z := 2.
Definition loc_redge : Z := 3.
Definition loc_count : nat := 4.
(** Grid.h:69-73 and any other value of the enumeration type *)
Inductive staggering := StLevels | StInterfaces | StLorenz | StCharneyPhillips | StOther.
(** EquationSet::Type and the constructor, EquationSet.cpp:23-120:
    dimensionality and number of components *)
Inductive eqset := Advection | ShallowWater | Nonhydrostatic | NonhydrostaticMassCoord.
Definition dimensionality (e : eqset) : Z :=
  match e with Advection => 3 | ShallowWater => 2 | Nonhydrostatic => 3 | NonhydrostaticMassCoord => 3 end.
Definition components (e : eqset) : nat :=
  match e with Advection => 0 | ShallowWater => 3 | Nonhydrostatic => 5 | NonhydrostaticMassCoord => 6 end.

Inductive vres (T : Type) := VThrow | VOut | VOk (x : T).   (* exception; write or read outside an array; value *)
Arguments VThrow {T}. Arguments VOut {T}. Arguments VOk {T} x.
(** m_vecVarLocation[i] = v; ... ; [mem] is what the attached memory holds *)
Fixpoint write_all (vs : list Z) (i : nat) (mem : list Z) : vres (list Z) :=
  match vs with
  | [] => VOk mem
  | v :: vs' =>
    if (i <? length mem)%nat then write_all vs' (S i) (firstn i mem ++ v :: skipn (S i) mem) else VOut
  end.
(** Grid.cpp:255-258, 264-301 *)
Definition assign_locations (dim : Z) (st : staggering) (mem : list Z) : vres (list Z) :=
  if dim =? 2 then write_all [loc_node; loc_node; loc_node] 0 mem
  else if dim =? 3 then
    match st with
    | StLevels => write_all [loc_node; loc_node; loc_node; loc_node; loc_node] 0 mem
    | StInterfaces => write_all [loc_node; loc_node; loc_node; loc_node; loc_node] 0 mem
    | StLorenz => write_all [loc_node; loc_node; loc_node; loc_redge; loc_node] 0 mem
    | StCharneyPhillips => write_all [loc_node; loc_node; loc_redge; loc_redge; loc_node] 0 mem
    | StOther => VThrow
    end
  else VThrow.
(** Grid.cpp:353-379: counters at zero, then one slot per component *)
Fixpoint number_slots (locs : list Z) (count : list Z) (ix : list Z) : vres (list Z * list Z) :=
  match locs with
  | [] => VOk (ix, count)
  | l :: locs' =>
    if (l =? loc_node) || (l =? loc_aedge) || (l =? loc_bedge) || (l =? loc_redge)
    then let n := nth (Z.to_nat l) count 0 in
         number_slots locs' (firstn (Z.to_nat l) count ++ (n + 1) :: skipn (S (Z.to_nat l)) count) (ix ++ [n])
    else VThrow
  end.
(** Grid::InitializeVerticalCoordinate, the parts that concern the variables:
    locations, indices and number of variables at each location *)
Definition place_variables (dim : Z) (st : staggering) (mem : list Z) : vres (list Z * list Z * list Z) :=
  match assign_locations dim st mem with
  | VThrow => VThrow
  | VOut => VOut
  | VOk locs =>
    match number_slots locs (repeat 0 loc_count) [] with
    | VThrow => VThrow
    | VOut => VOut
    | VOk (ix, count) => VOk (locs, ix, count)
    end
  end.

(** ** Data of a patch
    Node arrays are given as one record per local index (i, j, k), interface
    arrays as another; only the arrays read by the diagnostics appear. *)
Record node_data := NodeData {
  nd_state : Z -> R;       (* m_datavecStateNode[iDataIndex](c,i,j,k) *)
  nd_tracer : Z -> R;      (* m_datavecTracers[iDataIndex](c,i,j,k) *)
  nd_area : R;             (* m_dataElementAreaNode(i,j,k) *)
  nd_jac2d : R;            (* m_dataJacobian2D(i,j) *)
  nd_con2a0 : R; nd_con2a1 : R;                 (* m_dataContraMetric2DA(i,j,0..1) *)
  nd_con2b1 : R;                                (* m_dataContraMetric2DB(i,j,1) *)
  nd_cona : R * R * R; nd_conb : R * R * R; nd_conx : R * R * R;  (* m_dataContraMetricA, B, Xi(i,j,k,0..2) *)
  nd_topo : R;             (* m_dataTopography(i,j) *)
  nd_z : R;                (* m_dataZLevels(i,j,k) *)
  nd_lat : R;              (* m_dataLat(i,j) *)
  nd_vort : R }.           (* m_dataVorticity(i,j,k) *)
Record edge_data := EdgeData {
  ed_state : Z -> R;       (* m_datavecStateREdge[iDataIndex](c,i,j,k) *)
  ed_area : R;             (* m_dataElementAreaREdge(i,j,k) *)
  ed_conx2 : R }.          (* m_dataContraMetricXiREdge(i,j,k,2) *)
Record patch := Patch { pbox : box; pnode : Z -> Z -> Z -> node_data; pedge : Z -> Z -> Z -> edge_data }.

(** loop nest over the interior nodes, e.g. GridPatch.cpp:814-816;
    GetAInteriorBegin etc., PatchBox.h:186-212 *)
Definition zrange (a b : Z) : list Z := map (fun n => a + n) (zseq (b - a)).
Definition interior (b : box) (nk : Z) : list (Z * Z * Z) :=
  flat_map (fun i => flat_map (fun j => map (fun k => (i, j, k)) (zseq nk))
    (zrange (bhalo b) (bB1 b - bB0 b - bhalo b))) (zrange (bhalo b) (bA1 b - bA0 b - bhalo b)).

(** ** Checksums *)
Inductive checksum_type := CSum | CL1 | CL2 | CLinf | COther.
Inductive data_type := DState | DTracers | DOther.
(** loop bodies, GridPatch.cpp:817-819, 843-845, 869-871, 895-898 *)
Definition accumulate (t : checksum_type) (acc v area : R) : R :=
  match t with
  | CSum => acc + v * area
  | CL1 => acc + Rabs v * area
  | CL2 => acc + v * v * area
  | CLinf => if Rlt_dec acc (Rabs v) then Rabs v else acc
  | COther => acc
  end%R.
Definition update (a : list R) (c : Z) (f : R -> R) : list R :=
  firstn (Z.to_nat c) a ++ f (nth (Z.to_nat c) a 0%R) :: skipn (S (Z.to_nat c)) a.
Definition node_loop (t : checksum_type) (nR : Z) (val : node_data -> Z -> R) (p : patch) (a : list R) (c : Z) : list R :=
  fold_left (fun a n => let '(i, j, k) := n in
    update a c (fun x => accumulate t x (val (pnode p i j k) c) (nd_area (pnode p i j k)))) (interior (pbox p) nR) a.
Definition edge_loop (t : checksum_type) (nR : Z) (p : patch) (a : list R) (c : Z) : list R :=
  fold_left (fun a n => let '(i, j, k) := n in
    update a c (fun x => accumulate t x (ed_state (pedge p i j k) c) (ed_area (pedge p i j k)))) (interior (pbox p) (nR + 1)) a.
(** GridPatch::Checksum, GridPatch.cpp:744-921; [locs] is m_vecVarLocation.
    The check m_fContainsData is not modelled. *)
Definition patch_checksum (locs : list Z) (ntr nR : Z) (d : data_type) (t : checksum_type) (p : patch) (a : list R)
  : vres (list R) :=
  let vars := zseq (Z.of_nat (length locs)) in
  let at_ l := filter (fun c => nth (Z.to_nat c) locs 0 =? l) vars in
  match d with
  | DState =>
    if forallb (fun l => (l =? loc_node) || (l =? loc_redge)) locs then
      if (length a <? length locs)%nat then VThrow else
      match t with
      | COther => VThrow
      | _ => VOk (fold_left (edge_loop t nR p) (at_ loc_redge) (fold_left (node_loop t nR nd_state p) (at_ loc_node) a))
      end
    else VThrow
  | DTracers =>
    if Z.of_nat (length a) <? ntr then VThrow else
    match t with
    | COther => VThrow
    | _ => VOk (fold_left (node_loop t nR nd_tracer p) (zseq ntr) a)
    end
  | DOther => VThrow
  end.
(** patches of one rank, Grid.cpp:490-494 *)
Fixpoint rank_checksum (locs : list Z) (ntr nR : Z) (d : data_type) (t : checksum_type) (ps : list patch) (a : list R)
  : vres (list R) :=
  match ps with
  | [] => VOk a
  | p :: ps' =>
    match patch_checksum locs ntr nR d t p a with
    | VOk a' => rank_checksum locs ntr nR d t ps' a'
    | VThrow => VThrow
    | VOut => VOut
    end
  end.
(** MPI_Reduce to the root with MPI_SUM or MPI_MAX, Grid.cpp:502-517;
    [locals]: contributions in the order in which they are combined *)
Definition mpi_op (t : checksum_type) (x y : R) : R := match t with CLinf => Rmax x y | _ => (x + y)%R end.
Definition mpi_reduce (t : checksum_type) (locals : list (list R)) : list R :=
  match locals with
  | [] => []
  | l :: ls => fold_left (fun a b => map (fun xy => mpi_op t (fst xy) (snd xy)) (combine a b)) ls l
  end.
Fixpoint sequence {T} (l : list (vres T)) : vres (list T) :=
  match l with
  | [] => VOk []
  | x :: l' => match x, sequence l' with
               | VOk y, VOk ys => VOk (y :: ys)
               | VOut, _ => VOut
               | VOk _, VOut => VOut
               | _, _ => VThrow
               end
  end.
(** Grid::Checksum, Grid.cpp:460-525, value at the root; [ranks]: active
    patches of each rank in the order of the reduction *)
Definition grid_checksum (locs : list Z) (ntr nR : Z) (d : data_type) (t : checksum_type) (ranks : list (list patch))
  : vres (list R) :=
  match d with
  | DOther => VThrow
  | _ =>
    let rows := match d with DTracers => Z.to_nat ntr | _ => length locs end in
    match sequence (map (fun ps => rank_checksum locs ntr nR d t ps (repeat 0%R rows)) ranks) with
    | VOk ls =>
      let r := mpi_reduce t ls in
      VOk (match t with CL2 => map sqrt r | _ => r end)
    | VThrow => VThrow
    | VOut => VOut
    end
  end.

(** ** Integrals *)
Local Open Scope R_scope.
Definition UIx : Z := 0%Z. Definition VIx : Z := 1%Z. Definition HIx : Z := 2%Z.
Definition PIx : Z := 2%Z. Definition WIx : Z := 3%Z. Definition RIx : Z := 4%Z.
Definition fst3 (x : R * R * R) : R := fst (fst x).
Definition snd3 (x : R * R * R) : R := snd (fst x).
Definition thd3 (x : R * R * R) : R := snd x.
(** shallow water, GridPatch.cpp:968-994 *)
Definition sw_energy (ph : constants) (d : node_data) : R :=
  let u := nd_state d UIx in let v := nd_state d VIx in let h := nd_state d HIx in
  let dot := (nd_con2b1 d * u * u - 2 * nd_con2a1 d * u * v + nd_con2a0 d * v * v) * (nd_jac2d d * nd_jac2d d) in
  nd_area d * (0.5 * dot * (h - nd_topo d) + 0.5 * g ph * (h * h - nd_topo d * nd_topo d)).
(** vertical velocity on nodes, GridPatch.cpp:1007-1053;
    FORMULATION_RHOTHETA_PI, Defines.h *)
Definition nh_energy_node (ph : constants) (d : node_data) : R :=
  let ua := nd_state d UIx in let ub := nd_state d VIx in let ux := nd_state d WIx in let rho := nd_state d RIx in
  let ca := fst3 (nd_cona d) * ua + snd3 (nd_cona d) * ub + thd3 (nd_cona d) * ux in
  let cb := fst3 (nd_conb d) * ua + snd3 (nd_conb d) * ub + thd3 (nd_conb d) * ux in
  let cx := fst3 (nd_conx d) * ua + snd3 (nd_conx d) * ub + thd3 (nd_conx d) * ux in
  let dot := ca * ua + cb * ub + cx * ux in
  nd_area d * (0.5 * rho * dot + pressure_from_rhotheta ph (nd_state d PIx) / (gamma ph - 1) + g ph * rho * nd_z d).
(** vertical velocity on interfaces, GridPatch.cpp:1070-1113 and 1118-1132 *)
Definition nh_energy_split (ph : constants) (d : node_data) : R :=
  let ua := nd_state d UIx in let ub := nd_state d VIx in let ux := nd_state d WIx in let rho := nd_state d RIx in
  let ca := fst3 (nd_cona d) * ua + snd3 (nd_cona d) * ub + thd3 (nd_cona d) * ux in
  let cb := fst3 (nd_conb d) * ua + snd3 (nd_conb d) * ub + thd3 (nd_conb d) * ux in
  let dot := ca * ua + cb * ub + fst3 (nd_conx d) * ua * ux + snd3 (nd_conx d) * ub * ux in
  nd_area d * (0.5 * rho * dot + pressure_from_rhotheta ph (nd_state d PIx) / (gamma ph - 1) + g ph * rho * nd_z d).
Definition nh_energy_edge (d : edge_data) : R :=
  ed_area d * (0.5 * ed_state d RIx * ed_conx2 d * ed_state d WIx * ed_state d WIx).
Definition node_sum (nR : Z) (f : node_data -> R) (p : patch) (acc : R) : R :=
  fold_left (fun s n => let '(i, j, k) := n in s + f (pnode p i j k)) (interior (pbox p) nR) acc.
Definition edge_sum (nR : Z) (f : edge_data -> R) (p : patch) (acc : R) : R :=
  fold_left (fun s n => let '(i, j, k) := n in s + f (pedge p i j k)) (interior (pbox p) (nR + 1)) acc.
(** GridPatch::ComputeTotalEnergy, GridPatch.cpp:925-1138; [wloc] is the
    location of variable WIx.  The range check of iDataIndex is not modelled. *)
Definition patch_energy (ph : constants) (e : eqset) (wloc nR : Z) (p : patch) : R :=
  match e with
  | ShallowWater => node_sum nR (sw_energy ph) p 0
  | _ => if (wloc =? loc_node)%Z then node_sum nR (nh_energy_node ph) p 0
         else edge_sum nR nh_energy_edge p (node_sum nR (nh_energy_split ph) p 0)
  end.
(** GridPatch::ComputeTotalPotentialEnstrophy, GridPatch.cpp:1142-1222 *)
Definition sw_enstrophy (ph : constants) (d : node_data) : R :=
  let av := nd_vort d + 2 * omega ph * sin (nd_lat d) in
  nd_area d * 0.5 * av * av / (nd_state d HIx - nd_topo d).
Definition patch_enstrophy (ph : constants) (e : eqset) (nR : Z) (p : patch) : R :=
  match e with
  | ShallowWater => node_sum nR (sw_enstrophy ph) p 0
  | _ => node_sum nR (fun d => nd_area d * nd_state d RIx * nd_state d UIx) p 0
  end.
(** GridPatch::ComputeTotalVerticalMomentum, GridPatch.cpp:1226-1288 *)
Definition patch_momentum (e : eqset) (nR : Z) (p : patch) : vres R :=
  match e with
  | ShallowWater => VThrow
  | _ => VOk (node_sum nR (fun d => nd_area d * nd_state d RIx * nd_state d WIx) p 0)
  end.
(** Grid::ComputeTotalEnergy, ComputeTotalPotentialEnstrophy and
    ComputeTotalVerticalMomentum, Grid.cpp:529-623, value returned on [rank];
    [ranks]: number and active patches of each rank in the order of the
    reduction *)
Definition grid_total (f : patch -> R) (ranks : list (Z * list patch)) (rank : Z) : R :=
  if (rank =? 0)%Z
  then match map (fun r => fold_left (fun s p => s + f p) (snd r) 0) ranks with
       | [] => 0
       | x :: xs => fold_left Rplus xs x
       end
  else 0.
