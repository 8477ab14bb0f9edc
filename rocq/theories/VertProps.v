(** * VerticalDynamicsFEM: properties C76-C83 *)
From Coq Require Import Reals List Arith Bool Lia Lra ZArith.
From Verif Require PhysModel PhysProps.
From Verif Require Import VertModel VertSpec VertProofs VertProofs2 VertProofs3 VertProofs4 VertProofs5.
From Verif Require Import QuadSpec InterpModel InterpSpec InterpProofs ColModel ColSpec ColProofs FemModel FemSpec FemProofs FemProofs2 FemProps.
From Verif Require Import FluxModel FluxSpec FluxProofs FluxProofs2 FluxProofs3 FluxProofs6 FluxProofs7 FluxProps VertOps VertBand VertBand2 QuadModel.
Import ListNotations.
Local Open Scope R_scope.

(** the operators and settings of a column as Grid and GridGLL set them up, with the
    weights of the levels: finite volumes of even order, or elements whose level weights
    integrate polynomials of degree o + 1 *)
Inductive grid (S : settings) : operators -> (nat -> R) -> Prop :=
| Volumes : forall sol gauss lobatto o lev itf O, column 1 (length lev) lev itf -> solved sol 1 -> gives gauss 1 -> scaled gauss 1 -> gives lobatto 2 -> scaled lobatto 2 ->
    (2 <= o)%nat -> (o mod 2 = 0)%nat -> (o / 2 <= length lev)%nat -> nfe S = length lev -> npe S = 1%nat -> rlev S = length lev ->
    volume_operators sol gauss lobatto o lev itf = Some O -> grid S O (fun k => FluxSpec.width 1 itf k)
| Elements : forall sol gauss lobatto o ne lev itf slev sitf omega O, column o ne lev itf -> column o ne slev sitf -> solved sol o -> gives gauss o -> scaled gauss o ->
    gives lobatto (o + 1) -> scaled lobatto (o + 1) -> levels_inside o ne lev itf -> (o = 1%nat -> (2 <= ne)%nat) ->
    (forall a, (a < ne)%nat -> integrates_on (o + 2) o lev (a * o) (edge o itf a) (edge o itf (a + 1)) (omega a)) ->
    nfe S = ne -> npe S = o -> rlev S = (ne * o)%nat ->
    element_operators sol gauss lobatto o lev itf slev sitf = Some O -> grid S O (by_element o omega).
Lemma grid_sound S O om : grid S O om -> sound S O om.
Proof.
  intros []; [destruct (volumes_sound sol gauss lobatto S o lev itf) as (O' & EO & H'); try assumption|
    destruct (elements_sound sol gauss lobatto S o ne lev itf slev sitf omega) as (O' & EO & H'); try assumption];
  match goal with H1 : ?a = Some ?x, H2 : ?a = Some ?y |- sound _ ?y _ => assert (E : x = y) by congruence; rewrite <- E end; exact H'.
Qed.
(** rho theta or rho *)
Definition density (c : comp) : Prop := c = FP \/ c = FR.
Lemma density_scalar c : density c -> scalar c = true.
Proof. intros [->| ->]; reflexivity. Qed.

(** ** C76: the operators exist, and what a column contains changes by upwinding over
    varying Jacobians and by diffusion towards the reference state only *)
Theorem C76_operators : forall S,
  (forall sol gauss lobatto o lev itf, column 1 (length lev) lev itf -> solved sol 1 -> gives gauss 1 -> scaled gauss 1 -> gives lobatto 2 -> scaled lobatto 2 ->
    (2 <= o)%nat -> (o mod 2 = 0)%nat -> (o / 2 <= length lev)%nat -> nfe S = length lev -> npe S = 1%nat -> rlev S = length lev ->
    exists O, volume_operators sol gauss lobatto o lev itf = Some O /\ grid S O (fun k => FluxSpec.width 1 itf k)) /\
  (forall sol gauss lobatto o ne lev itf slev sitf omega, column o ne lev itf -> column o ne slev sitf -> solved sol o -> gives gauss o -> scaled gauss o ->
    gives lobatto (o + 1) -> scaled lobatto (o + 1) -> levels_inside o ne lev itf -> (o = 1%nat -> (2 <= ne)%nat) ->
    (forall a, (a < ne)%nat -> integrates_on (o + 2) o lev (a * o) (edge o itf a) (edge o itf (a + 1)) (omega a)) ->
    nfe S = ne -> npe S = o -> rlev S = (ne * o)%nat ->
    exists O, element_operators sol gauss lobatto o lev itf slev sitf = Some O /\ grid S O (by_element o omega)).
Proof.
  intros S. split.
  - intros. destruct (volumes_sound sol gauss lobatto S o lev itf) as (O & EO & _); try assumption. exists O. split; [exact EO|]. apply (Volumes S sol gauss lobatto o lev itf O); assumption.
  - intros. destruct (elements_sound sol gauss lobatto S o ne lev itf slev sitf omega) as (O & EO & _); try assumption. exists O. split; [exact EO|]. apply (Elements S sol gauss lobatto o ne lev itf slev sitf omega O); assumption.
Qed.
Theorem C76_budget : forall S O om Q X c, grid S O om -> (forall k, (k < rlev S)%nat -> jn Q k <> 0) -> on_levels S = false -> density c ->
  content (rlev S) om (jn Q) (build_f S O Q X c) =
  (content (rlev S) om (jn Q) (X c) - content (rlev S) om (jn Q) (start Q c)) * (1 / dt S)
  - (if upw S c then content (rlev S) om (jn Q) (fun k => pen_apply (pnl O) (fun a => Rabs (xie S O Q X ((a + 1) * npe S)%nat)) (X c) (fun _ => 0) k) else 0)
  - (match c with FP => if uni S FP then sdiff S / (ztop S * ztop S) *
       content (rlev S) om (jn Q) (fun k => apply1 (dd_nn O) (X FP) k - apply1 (dd_nn O) (ref_p Q) k) else 0 | _ => 0 end).
Proof.
  intros S O om Q X c G HJ HL Hc. destruct (grid_sound _ _ _ G) as (T & Rd & Pf & Re). rewrite content_build.
  rewrite (content_tendency S O Q om X c T HJ HL (density_scalar c Hc)). unfold pen, weights, dup. ring.
Qed.
Theorem C76_root : forall S O om Q X c, grid S O om -> (forall k, (k < rlev S)%nat -> jn Q k <> 0) -> on_levels S = false -> dt S <> 0 -> density c ->
  (upw S c = false \/ forall k, (k < rlev S)%nat -> jn Q k = jn Q 0%nat) -> (c = FP -> uni S FP = false) ->
  (forall k, (k < rlev S)%nat -> build_f S O Q X c k = 0) ->
  content (rlev S) om (jn Q) (X c) = content (rlev S) om (jn Q) (start Q c).
Proof.
  intros S O om Q X c G HJ HL Hd Hc U1 U2 H. destruct (grid_sound _ _ _ G) as (T & Rd & Pf & Re).
  assert (E : content (rlev S) om (jn Q) (build_f S O Q X c) = 0) by (unfold content; apply sum_zero; intros k Hk; rewrite H by exact Hk; ring).
  rewrite content_build, (content_unforced S O Q om X c T Rd HJ HL (density_scalar c Hc) (conj U1 U2)) in E.
  rewrite Rplus_0_l in E. apply Rmult_integral in E. destruct E as [E|E]; [lra|]. exfalso. revert E. unfold Rdiv. rewrite Rmult_1_l. apply Rinv_neq_0_compat, Hd.
Qed.

(** ** C77: one Newton step, whatever DGBSV's solution, conserves the same and keeps W at both ends *)
Theorem C77_newton : forall S O om Q d c, grid S O om -> (forall k, (k < rlev S)%nat -> jn Q k <> 0) -> on_levels S = false -> dt S <> 0 -> density c ->
  (upw S c = false \/ forall k, (k < rlev S)%nat -> jn Q k = jn Q 0%nat) -> (c = FP -> uni S FP = false) ->
  solves_system (rlev S) (jacobian S O Q (start Q)) (build_f S O Q (start Q)) d ->
  content (rlev S) om (jn Q) (new_state Q d c) = content (rlev S) om (jn Q) (start Q c).
Proof.
  intros S O om Q d c G HJ HL Hd Hc U1 U2 H. destruct (grid_sound _ _ _ G) as (T & Rd & Pf & Re). unfold new_state. rewrite content_minus.
  rewrite (content_newton S O Q om d c T Rd Pf Re HJ HL Hd (density_scalar c Hc) (conj U1 U2)); [ring|]. intros k Hk. apply H. lia.
Qed.
Theorem C77_ends : forall S O om Q d, grid S O om -> dt S <> 0 ->
  solves_system (rlev S) (jacobian S O Q (start Q)) (build_f S O Q (start Q)) d ->
  new_state Q d FW 0%nat = start Q FW 0%nat /\ new_state Q d FW (rlev S) = start Q FW (rlev S).
Proof.
  intros S O om Q d G Hd H. destruct (grid_sound _ _ _ G) as (T & Rd & Pf & Re).
  assert (Z : forall k, k = 0%nat \/ k = rlev S -> d FW k = 0).
  { intros k Hk. assert (Hk' : (k <= rlev S)%nat) by lia. pose proof (H FW k Hk') as E. rewrite dot_boundary in E; [|exact Pf|exact Hk'|destruct Hk; [right; split; [assumption|reflexivity]|left; assumption]].
    unfold build_f in E. replace (tendency S O Q (start Q) FW k) with 0 in E.
    - rewrite Rplus_0_l in E. replace (start Q FW k - start Q FW k) with 0 in E by ring. rewrite Rmult_0_l in E. apply Rmult_integral in E. destruct E as [E|E]; [exact E|].
      exfalso. revert E. unfold Rdiv. rewrite Rmult_1_l. apply Rinv_neq_0_compat, Hd.
    - unfold tendency, VertModel.inner. destruct Hk as [->| ->]; rewrite ?Nat.eqb_refl, ?orb_true_r; reflexivity. }
  unfold new_state. rewrite (Z 0%nat), (Z (rlev S)) by lia. split; ring.
Qed.
Theorem C77_explicit : forall S O om Q old c, grid S O om -> (forall k, (k < rlev S)%nat -> jn Q k <> 0) -> on_levels S = false -> density c ->
  (upw S c = false \/ forall k, (k < rlev S)%nat -> jn Q k = jn Q 0%nat) -> (c = FP -> uni S FP = false) ->
  content (rlev S) om (jn Q) (explicit_state S O Q old c) = content (rlev S) om (jn Q) (old c) /\
  explicit_state S O Q old FW 0%nat = old FW 0%nat /\ explicit_state S O Q old FW (rlev S) = old FW (rlev S).
Proof.
  intros S O om Q old c G HJ HL Hc U1 U2. destruct (grid_sound _ _ _ G) as (T & Rd & Pf & Re). unfold explicit_state. split; [|split].
  - rewrite content_minus. assert (E : content (rlev S) om (jn Q) (build_f S O Q (start Q) c) = 0).
    { rewrite content_build, (content_unforced S O Q om (start Q) c T Rd HJ HL (density_scalar c Hc) (conj U1 U2)). ring. }
    rewrite (content_scal (rlev S) om (jn Q) (dt S) (build_f S O Q (start Q) c)), E. ring.
  - unfold build_f, tendency, VertModel.inner. cbn [Nat.eqb orb]. ring.
  - unfold build_f, tendency, VertModel.inner. rewrite Nat.eqb_refl, orb_true_r. ring.
Qed.

(** ** C78: the matrix is the derivative of F *)
(** rows of rho theta and rho; the uniform diffusion of rho theta has no entries *)
Theorem C78_density : forall S O om Q X h c k, grid S O om -> on_levels S = false -> (k < rlev S)%nat -> density c ->
  (upw S c = true -> forall m, (1 <= m < rlev S)%nat -> xie S O Q X m <> 0) ->
  derivable_pt_lim (fun t => build_f S O Q (along X h t) c k) 0
    (row_dot (jacobian S O Q X) h c k - match c with FP => if uni S FP then sdiff S / (ztop S * ztop S) * apply1 (dd_nn O) (h FP) k else 0 | _ => 0 end).
Proof.
  intros S O om Q X h c k G HL Hk Hc N. destruct (grid_sound _ _ _ G) as (_ & _ & Pf & Re). apply D_scalar; try assumption. apply density_scalar, Hc.
Qed.
(** rows of W at interior interfaces; the shear in terrain-following coordinates and the
    uniform diffusion have no entries *)
Theorem C78_velocity : forall S O om Q X h k, grid S O om -> symmetric Q -> (1 <= k < rlev S)%nat ->
  0 < PhysModel.gas (phys S) -> PhysModel.gas (phys S) < PhysModel.cp (phys S) -> 0 < PhysModel.p0 (phys S) ->
  (forall l, 0 < X FP l) -> re O X k <> 0 -> (upw S FW = true -> xie S O Q X k <> 0) ->
  derivable_pt_lim (fun t => build_f S O Q (along X h t) FW k) 0
    (row_dot (jacobian S O Q X) h FW k - (cae Q k 2%nat * dua O Q k + cbe Q k 2%nat * dub O Q k) * h FW k
     - (if uni S FW then vdiff S / (ztop S * ztop S) * apply1 (dd_ee O) (h FW) k else 0)).
Proof. intros S O om Q X h k G. destruct (grid_sound _ _ _ G) as (_ & _ & Pf & Re). intros. apply D_velocity; assumption. Qed.
Theorem C78_ends : forall S O om Q X h c k, grid S O om -> (k <= rlev S)%nat -> k = rlev S \/ (k = 0%nat /\ c = FW) ->
  derivable_pt_lim (fun t => build_f S O Q (along X h t) c k) 0 (row_dot (jacobian S O Q X) h c k).
Proof. intros S O om Q X h c k G. destruct (grid_sound _ _ _ G) as (_ & _ & Pf & Re). intros. apply D_boundary; assumption. Qed.
(** so without uniform diffusion and terrain it is the derivative, all rows *)
Theorem C78_exact : forall S O om Q X h, grid S O om -> on_levels S = false -> (forall c, uni S c = false) -> symmetric Q ->
  (forall k, cae Q k 2%nat = 0 /\ cbe Q k 2%nat = 0) ->
  0 < PhysModel.gas (phys S) -> PhysModel.gas (phys S) < PhysModel.cp (phys S) -> 0 < PhysModel.p0 (phys S) ->
  (forall l, 0 < X FP l) -> (forall k, (1 <= k < rlev S)%nat -> re O X k <> 0 /\ xie S O Q X k <> 0) ->
  forall c k, (k <= rlev S)%nat -> derivable_pt_lim (fun t => build_f S O Q (along X h t) c k) 0 (row_dot (jacobian S O Q X) h c k).
Proof.
  intros S O om Q X h G HL U Sy T g1 g2 g3 PX NX c k Hk.
  destruct (Nat.eq_dec k (rlev S)) as [Ek|Nk]; [apply (C78_ends S O om); [exact G|exact Hk|left; exact Ek]|]. destruct c.
  - pose proof (C78_density S O om Q X h FP k G HL ltac:(lia) ltac:(left; reflexivity) (fun _ m Hm => proj2 (NX m Hm))) as D. rewrite U, Rminus_0_r in D. exact D.
  - destruct (Nat.eq_dec k 0) as [E0|N0]; [apply (C78_ends S O om); [exact G|exact Hk|right; split; [exact E0|reflexivity]]|].
    destruct (NX k ltac:(lia)) as (N1 & N2). pose proof (C78_velocity S O om Q X h k G Sy ltac:(lia) g1 g2 g3 PX N1 (fun _ => N2)) as D. destruct (T k) as (-> & ->) in D. rewrite U in D.
    replace (row_dot (jacobian S O Q X) h FW k) with (row_dot (jacobian S O Q X) h FW k - (0 * dua O Q k + 0 * dub O Q k) * h FW k - 0) by ring. exact D.
  - pose proof (C78_density S O om Q X h FR k G HL ltac:(lia) ltac:(right; reflexivity) (fun _ m Hm => proj2 (NX m Hm))) as D. rewrite Rminus_0_r in D. exact D.
Qed.

(** ** C79: what DGBSV reads of the band array is the matrix, for every order the table
    of half-widths lists; the system it solves is that of C77 *)
Theorem C79_volumes : forall S sol gauss lobatto o lev itf O w Q X, column 1 (length lev) lev itf -> solved sol 1 -> gives gauss 1 -> scaled gauss 1 -> gives lobatto 2 -> scaled lobatto 2 ->
  (2 <= o)%nat -> (o mod 2 = 0)%nat -> (o / 2 <= length lev)%nat -> nfe S = length lev -> npe S = 1%nat -> rlev S = length lev ->
  volume_operators sol gauss lobatto o lev itf = Some O -> off_diagonals true o = Some w ->
  (forall i j, (Z.abs (Z.of_nat i - Z.of_nat j) <= Z.of_nat w)%Z ->
    store (Z.of_nat w) (jacobian S O Q X) (band_ix (Z.of_nat w) (Z.of_nat w) (3 * Z.of_nat w + 1) (Z.of_nat i) (Z.of_nat j)) = matrix (jacobian S O Q X) i j) /\
  (forall i j, (Z.of_nat w < Z.abs (Z.of_nat i - Z.of_nat j))%Z -> matrix (jacobian S O Q X) i j = 0) /\
  (forall h c k, row_dot (jacobian S O Q X) h c k = sum (fun j => matrix (jacobian S O Q X) (vec_ix c k) j * flat h j) (3 * (rlev S + 1))).
Proof.
  intros S sol gauss lobatto o lev itf O w Q X C Sv GG SG GL SL O2 Om Oh E1 E2 E3 EO Ew.
  destruct (grid_sound S O _ (Volumes S sol gauss lobatto o lev itf O C Sv GG SG GL SL O2 Om Oh E1 E2 E3 EO)) as (_ & _ & Pf & _).
  apply (banded_ok S O w); [apply (volumes_band sol gauss lobatto S o lev itf); try assumption; apply volume_table; assumption|exact Pf|apply (volumes_inside sol gauss lobatto S o lev itf); assumption].
Qed.
Theorem C79_elements : forall S sol gauss lobatto o ne lev itf slev sitf omega P O w Q X, column o ne lev itf -> column o ne slev sitf -> solved sol o -> gives gauss o -> scaled gauss o ->
  gives lobatto (o + 1) -> scaled lobatto (o + 1) -> levels_inside o ne lev itf -> levels_inside o ne slev sitf -> (o = 1%nat -> (2 <= ne)%nat) ->
  (forall a, (a < ne)%nat -> integrates_on (o + 2) o lev (a * o) (edge o itf a) (edge o itf (a + 1)) (omega a)) ->
  correction 2 (o + 1) P -> lumped o ne P itf -> nfe S = ne -> npe S = o -> rlev S = (ne * o)%nat ->
  element_operators sol gauss lobatto o lev itf slev sitf = Some O -> off_diagonals false o = Some w ->
  (forall i j, (Z.abs (Z.of_nat i - Z.of_nat j) <= Z.of_nat w)%Z ->
    store (Z.of_nat w) (jacobian S O Q X) (band_ix (Z.of_nat w) (Z.of_nat w) (3 * Z.of_nat w + 1) (Z.of_nat i) (Z.of_nat j)) = matrix (jacobian S O Q X) i j) /\
  (forall i j, (Z.of_nat w < Z.abs (Z.of_nat i - Z.of_nat j))%Z -> matrix (jacobian S O Q X) i j = 0) /\
  (forall h c k, row_dot (jacobian S O Q X) h c k = sum (fun j => matrix (jacobian S O Q X) (vec_ix c k) j * flat h j) (3 * (rlev S + 1))).
Proof.
  intros S sol gauss lobatto o ne lev itf slev sitf omega P O w Q X C C' Sv GG SG GL SL I I' O1 Hw HP Lu E1 E2 E3 EO Ew.
  destruct (grid_sound S O _ (Elements S sol gauss lobatto o ne lev itf slev sitf omega O C C' Sv GG SG GL SL I O1 Hw E1 E2 E3 EO)) as (_ & _ & Pf & _).
  destruct (element_table o w Ew). apply (banded_ok S O w); [apply (elements_band sol gauss lobatto S o ne lev itf slev sitf P); assumption|exact Pf|apply (elements_inside sol gauss lobatto S o ne lev itf slev sitf P); assumption].
Qed.

(** the tracers share a square array of K rows with DGBTRF: what it reads is their matrix
    if the column has more than 3 (2 o - 1) levels *)
Theorem C79_tracers : forall S O om Q vo i j, (0 < vo)%nat ->
  (exists sol gauss lobatto lev itf, column 1 (length lev) lev itf /\ solved sol 1 /\ (gives gauss 1 /\ scaled gauss 1 /\ gives lobatto 2 /\ scaled lobatto 2) /\
     (2 <= vo)%nat /\ (vo mod 2 = 0)%nat /\ (vo / 2 <= length lev)%nat /\ nfe S = length lev /\ npe S = 1%nat /\ rlev S = length lev /\ volume_operators sol gauss lobatto vo lev itf = Some O) \/
  (exists sol gauss lobatto ne lev itf slev sitf P, column vo ne lev itf /\ column vo ne slev sitf /\ solved sol vo /\ (gives lobatto (vo + 1) /\ scaled lobatto (vo + 1)) /\ levels_inside vo ne lev itf /\ levels_inside vo ne slev sitf /\
     (vo = 1%nat -> (2 <= ne)%nat) /\ correction 2 (vo + 1) P /\ lumped vo ne P itf /\ npe S = vo /\ rlev S = (ne * vo)%nat /\ element_operators sol gauss lobatto vo lev itf slev sitf = Some O) ->
  grid S O om -> (3 * (2 * vo - 1) < rlev S)%nat ->
  ((Z.abs (Z.of_nat i - Z.of_nat j) <= 2 * Z.of_nat vo - 1)%Z ->
    tstore (Z.of_nat vo) (Z.of_nat (rlev S)) (tracer_jacobian S O Q) (band_ix (2 * Z.of_nat vo - 1) (2 * Z.of_nat vo - 1) (Z.of_nat (rlev S)) (Z.of_nat i) (Z.of_nat j)) = tmatrix (tracer_jacobian S O Q) i j) /\
  ((2 * Z.of_nat vo - 1 < Z.abs (Z.of_nat i - Z.of_nat j))%Z -> tmatrix (tracer_jacobian S O Q) i j = 0) /\
  (forall h, trow_dot (tracer_jacobian S O Q) h i = sum (fun l => tmatrix (tracer_jacobian S O Q) i l * h l) (rlev S)) /\
  (forall e, In e (tracer_jacobian S O Q) -> t_x e <> 0 -> (0 <= tracer_ix (Z.of_nat vo) (Z.of_nat (rlev S)) (t_k0 e) (t_k1 e) < Z.of_nat (rlev S) * Z.of_nat (rlev S))%Z).
Proof.
  intros S O om Q vo i j Hv H G HK. destruct (grid_sound _ _ _ G) as (_ & _ & Pf & _).
  assert (B : exists w, band_fits S O (Z.of_nat w) /\ reads_inside S O /\ (w < 3 * (2 * vo))%nat).
  { destruct H as [(sol & gauss & lobatto & lev & itf & C & Sv & (GG & SG & GL & SL) & O2 & Om & Oh & E1 & E2 & E3 & EO)|
      (sol & gauss & lobatto & ne & lev & itf & slev & sitf & P & C & C' & Sv & (GL & SL) & I & I' & O1 & HP & Lu & E2 & E3 & EO)].
    - exists (3 * (vo / 2) + 1)%nat. split; [apply (volumes_band sol gauss lobatto S vo lev itf); try assumption; lia|]. split; [apply (volumes_inside sol gauss lobatto S vo lev itf); assumption|].
      pose proof (Nat.div_lt vo 2 ltac:(lia) ltac:(lia)). lia.
    - exists (Nat.max (3 * (2 * vo - 1)) (3 * vo + 1)). split; [apply (elements_band sol gauss lobatto S vo ne lev itf slev sitf P); try assumption; lia|].
      split; [apply (elements_inside sol gauss lobatto S vo ne lev itf slev sitf P); assumption|]. lia. }
  destruct B as (w & Bf & In & Hw).
  assert (Hl : forall e, List.In e (tracer_jacobian S O Q) -> t_x e = 0 \/ (Z.abs (Z.of_nat (t_k1 e) - Z.of_nat (t_k0 e)) <= 2 * Z.of_nat vo - 1)%Z).
  { intros e He. destruct (tjac_band S O Q _ e Bf Pf He) as [Z0|N]; [left; exact Z0|right]. unfold near0 in N. lia. }
  split; [|split; [|split]].
  - intros Hij. apply tstore_tmatrix; assumption.
  - intros Hij. apply (tmatrix_far (2 * Z.of_nat vo - 1)%Z); assumption.
  - intros h. apply tmatrix_row. intros e He. apply (tjac_range S O Q e In Pf He).
  - intros e He Nz. destruct (Hl e He) as [Z0|D]; [contradiction|]. destruct (tjac_range S O Q e In Pf He). unfold tracer_ix. nia.
Qed.
(** with fewer levels the last entry of the diagonal is written beyond the array *)
Theorem C79_short_columns_refuted : forall S O Q vo, (0 < rlev S)%nat -> (rlev S <= 2 * (2 * vo - 1))%nat -> dt S <> 0 ->
  exists e, In e (tracer_jacobian S O Q) /\ t_x e <> 0 /\ (Z.of_nat (rlev S) * Z.of_nat (rlev S) <= tracer_ix (Z.of_nat vo) (Z.of_nat (rlev S)) (t_k0 e) (t_k1 e))%Z.
Proof.
  intros S O Q vo HK H Hd. exists (TEntry (rlev S - 1) (rlev S - 1) (1 / dt S)). split; [|split].
  - unfold tracer_jacobian. apply in_app_iff. right. unfold loop. apply in_flat_map. exists (rlev S - 1)%nat. split; [apply in_seq; lia|left; reflexivity].
  - cbn [t_x]. unfold Rdiv. rewrite Rmult_1_l. apply Rinv_neq_0_compat, Hd.
  - cbn [t_k0 t_k1]. unfold tracer_ix. nia.
Qed.

(** ** C80: columns at rest *)
(** F vanishes exactly if the discrete column is hydrostatic *)
Theorem C80_balance : forall S O Q, at_rest (rlev S) Q ->
  (uni S FP = true -> forall l, start Q FP l = ref_p Q l) -> (uni S FW = true -> forall l, ref_w Q l = 0) ->
  ((forall c k, (k <= rlev S)%nat -> build_f S O Q (start Q) c k = 0) <->
   (forall k, (0 < k < rlev S)%nat ->
      apply1 (d_ne O) (fun l => PhysModel.exner_from_rhotheta (phys S) (start Q FP l)) k * (apply1 (i_ne O) (start Q FP) k / apply1 (i_ne O) (start Q FR) k)
      = - (PhysModel.g (phys S) * dr Q k))).
Proof.
  intros S O Q R0 U1 U2. split.
  - intros H k Hk. specialize (H FW k ltac:(lia)). rewrite (rest_velocity S O Q k R0 U2) in H. destruct (Nat.eqb_spec k 0); [lia|]. destruct (Nat.eqb_spec k (rlev S)); [lia|]. cbn [orb] in H.
    unfold dpe, pe, re, exner in H. unfold Rdiv in *. rewrite <- Rmult_assoc. lra.
  - intros H c k Hk. destruct c; [apply rest_scalar; [exact R0|reflexivity|intros _; exact U1]| |apply rest_scalar; [exact R0|reflexivity|discriminate]].
    rewrite (rest_velocity S O Q k R0 U2). destruct (Nat.eqb_spec k 0); [reflexivity|]. destruct (Nat.eqb_spec k (rlev S)); [reflexivity|]. cbn [orb].
    specialize (H k ltac:(lia)). unfold dpe, pe, re, exner. unfold Rdiv in *. rewrite <- Rmult_assoc in H. lra.
Qed.
(** then both steps keep it: the explicit one always, the implicit one if the matrix is
    not singular *)
Lemma row_dot_zero l c k : row_dot l (fun _ _ => 0) c k = 0.
Proof.
  induction l as [|e l IH]; [reflexivity|]. change (row_dot (e :: l) (fun _ _ => 0) c k) with
    (if (same (e_c1 e) c && (e_k1 e =? k)%nat)%bool then e_x e * 0 + row_dot l (fun _ _ => 0) c k else row_dot l (fun _ _ => 0) c k).
  rewrite IH. destruct (_ && _)%bool; ring.
Qed.
Theorem C80_keeps : forall S O Q, (forall c k, (k <= rlev S)%nat -> build_f S O Q (start Q) c k = 0) ->
  (forall old c k, (k <= rlev S)%nat -> explicit_state S O Q old c k = old c k) /\
  (forall d, (forall e, solves_system (rlev S) (jacobian S O Q (start Q)) (build_f S O Q (start Q)) e -> forall c k, (k <= rlev S)%nat -> e c k = d c k) ->
    forall c k, (k <= rlev S)%nat -> new_state Q d c k = start Q c k).
Proof.
  intros S O Q H. split.
  - intros old c k Hk. unfold explicit_state. rewrite H by exact Hk. ring.
  - intros d Hd c k Hk. unfold new_state. rewrite <- (Hd (fun _ _ => 0)); [ring| |exact Hk]. intros c' k' Hk'. rewrite H by exact Hk'. apply row_dot_zero.
Qed.

(** ** C81: tracers *)
(** a tracer proportional to density moves with it in the implicit step *)
Theorem C81_follows : forall S O om Q d a X qr rr, grid S O om -> on_levels S = false -> explicit S = false -> uni_t S = false -> upw_t S = upw S FR ->
  solves_system (rlev S) (jacobian S O Q (start Q)) (build_f S O Q (start Q)) d ->
  solves_tracer (rlev S) (tracer_jacobian S O Q) (tracer_f S O Q X (new_state Q d FW) (fun l => a * start Q FR l) qr rr) (fun l => a * d FR l).
Proof.
  intros S O om Q d a X qr rr G HL E U Eu H k Hk. destruct (grid_sound _ _ _ G) as (_ & _ & Pf & Re). apply tracer_follows; try assumption. apply H. lia.
Qed.
(** and in the explicit one *)
Theorem C81_explicit : forall S O om Q a X qr rr dq, grid S O om -> on_levels S = false -> explicit S = true -> uni_t S = false -> upw_t S = upw S FR -> dt S <> 0 ->
  solves_tracer (rlev S) (tracer_jacobian S O Q) (tracer_f S O Q X (start Q FW) (fun l => a * start Q FR l) qr rr) dq ->
  forall k, (k < rlev S)%nat -> new_tracer (fun l => a * start Q FR l) dq k = a * explicit_state S O Q (start Q) FR k.
Proof.
  intros S O om Q a X qr rr dq G HL E U Eu Hd H k Hk. destruct (grid_sound _ _ _ G) as (_ & _ & Pf & _). unfold new_tracer, explicit_state.
  rewrite (tracer_explicit S O Q a X qr rr dq k Pf HL E U Eu Hd Hk (H k Hk)). ring.
Qed.
(** what the column contains of it does not change *)
Theorem C81_content : forall S O om Q X W q qr rr dq, grid S O om -> (forall k, (k < rlev S)%nat -> jn Q k <> 0) -> dt S <> 0 -> uni_t S = false ->
  (upw_t S = false \/ forall k, (k < rlev S)%nat -> jn Q k = jn Q 0%nat) ->
  solves_tracer (rlev S) (tracer_jacobian S O Q) (tracer_f S O Q X W q qr rr) dq ->
  forall old, content (rlev S) om (jn Q) (new_tracer old dq) = content (rlev S) om (jn Q) old.
Proof.
  intros S O om Q X W q qr rr dq G HJ Hd U UJ H old. destruct (grid_sound _ _ _ G) as (T & Rd & Pf & _). unfold new_tracer. rewrite content_minus.
  rewrite (tracer_content S O Q om dq X W q qr rr T Rd Pf HJ Hd U UJ H). ring.
Qed.

(** ** C82: the wind of a column depends on that column only, without uniform diffusion or
    if all is explicit *)
Theorem C82_local : forall S O su sv l, explicit S = true \/ uni_u S = false ->
  wind_columns S O su sv l = map (fun x => let '(C, (ou, ov)) := x in
    (wind_step S O (c_xi C) (c_u C) (c_u C) (c_ru C) ou, wind_step S O (c_xi C) (c_v C) (c_v C) (c_rv C) ov)) l.
Proof. intros S O su sv l. apply winds_local. Qed.

(** the diffusion acts on the difference from the reference wind: a column at its reference is
    left alone, and only differences count *)
Theorem C82_reference : forall S O xi init st ref old k, upw_u S = false ->
  ((forall j, st j = ref j) -> wind_step S O xi init st ref old k = old k) /\
  (forall st' ref', (forall j, st j - ref j = st' j - ref' j) -> wind_step S O xi init st ref old k = wind_step S O xi init st' ref' old k).
Proof.
  intros S O xi init st ref old k U. unfold wind_step. rewrite U. unfold diffuse_wind. split.
  - intros E. destruct (uni_u S); [|reflexivity]. destruct (k <? rlev S)%nat; [|reflexivity].
    rewrite <- ap_minus, ap_zero by (intros l; rewrite E; ring). ring.
  - intros st' ref' E. rewrite <- !ap_minus. rewrite (ap_ext _ _ (fun l => st' l - ref' l) k) by (intros; apply E). reflexivity.
Qed.

(** ** C83: shared columns of a patch *)
Theorem C83_shared : forall {A} p na nb (solve : nat -> nat -> A) old i j i' j', (2 <= p)%nat -> (i < na * p)%nat -> (i' < na * p)%nat -> (j < nb * p)%nat -> (j' < nb * p)%nat ->
  same_point p na i i' -> same_point p nb j j' -> implicit_patch p na nb solve old i j = implicit_patch p na nb solve old i' j'.
Proof.
  intros A p na nb solve old i j i' j' P2 Hi Hi' Hj Hj' Si Sj. rewrite !patch_at by assumption. rewrite (lead_same p P2 na i i' Hi Hi' Si), (lead_same p P2 nb j j' Hj Hj' Sj). reflexivity.
Qed.
Theorem C83_solved : forall {A} p na nb (solve : nat -> nat -> A) old i j, (2 <= p)%nat -> (i < na * p)%nat -> (j < nb * p)%nat ->
  exists i' j', same_point p na i i' /\ same_point p nb j j' /\ implicit_patch p na nb solve old i j = solve i' j'.
Proof.
  intros A p na nb solve old i j P2 Hi Hj. exists (lead p na i), (lead p nb j). split; [apply lead_is; assumption|]. split; [apply lead_is; assumption|]. apply patch_at; assumption.
Qed.

(** ** A column of two layers, finite volumes of order two *)
Lemma two_layers : exists O, (forall S, rlev S = 2%nat -> nfe S = 2%nat -> npe S = 1%nat -> grid S O (fun k => FluxSpec.width 1 [0; 1; 3] k)) /\
  (exists sol, solved sol 1 /\ volume_operators sol gauss_rule lobatto_rule 2 [1/2; 2] [0; 1; 3] = Some O) /\
  (forall f, apply1 (d_en O) f 0 = f 1%nat - f 0%nat /\ apply1 (d_en O) f 1 = (f 2%nat - f 1%nat) / 2) /\
  (forall f c, f 0%nat = c -> f 1%nat = c -> apply1 (i_ne O) f 1 = c) /\
  (forall f, apply1 (d_ne O) f 1 = (f 1%nat - f 0%nat) / (3 / 2)) /\
  (forall w f, pen_apply (pnl O) w f (fun _ => 0) 0 = 1 / 2 * w 0%nat * (f 1%nat - f 0%nat) /\
     pen_apply (pnl O) w f (fun _ => 0) 1 = - (1 / 2 * w 0%nat * (f 1%nat - f 0%nat)) / 2) /\
  apply1 (dd_nn O) INR 0 + 2 * apply1 (dd_nn O) INR 1 = 1 / 2.
Proof.
  destruct C59_case as (_ & _ & (sol & Sv) & _). destruct (C60_tables 1 ltac:(lia)) as (G1 & _). destruct (C60_tables 2 ltac:(lia)) as (_ & L2).
  destruct (G1 ltac:(lia)) as (GG & SG). destruct (L2 ltac:(lia)) as (GL & SL & _).
  pose proof uneven as C. pose proof C as (_ & _ & Ln & Le & Sn & Se).
  set (s0 := Settings 2 2 1 (fun _ => false) (fun _ => false) false false false false 1 1 1 1 false false 1 (PhysModel.construct 1 1 1)).
  destruct (proj1 (C76_operators s0) sol gauss_rule lobatto_rule 2%nat [1/2; 2] [0; 1; 3] C Sv GG SG GL SL) as (O & EO & _); try (cbn; lia); try reflexivity.
  exists O. split; [|split; [exists sol; split; [exact Sv|exact EO]|]].
  { intros S E1 E2 E3. apply (Volumes S sol gauss_rule lobatto_rule 2 [1/2; 2] [0; 1; 3] O); try assumption; try (cbn; lia); try reflexivity. }
  unfold volume_operators, bundle in EO.
  destruct (C50_reconstructed 2 [1/2; 2] [0; 1; 3] ltac:(lia) eq_refl Sn ltac:(cbn; lia) eq_refl) as (Ai & Ei & _ & _ & _ & Hi).
  destruct (C51_levels_reconstructed 2 [1/2; 2] [0; 1; 3] ltac:(lia) eq_refl Sn ltac:(cbn; lia) eq_refl) as (Ad & Ed & _ & _ & _ & Hd).
  destruct (C61_levels_refuted sol Sv) as (Al & El & Hl).
  destruct (C62_reconstructed 2 [1/2; 2] [0; 1; 3] ltac:(lia) Sn Se eq_refl ltac:(cbn; lia)) as (P & EP & HP).
  rewrite Ei, Ed, El, EP in EO.
  destruct (average_rec 2 [1/2; 2] [0; 1; 3]) as [Aa| | ]; try discriminate EO.
  destruct (diff_rec Interfaces Levels 2 [1/2; 2] [0; 1; 3]) as [De| | ] eqn:EDe; try discriminate EO.
  destruct (diffusion_edges lobatto_rule 1 [1/2; 2] [0; 1; 3]) as [Dd| | ]; try discriminate EO.
  injection EO as <-. cbn [d_en i_ne d_ne pnl dd_nn].
  split; [|split; [|split; [|split]]].
  - intros f. split; (rewrite (slope_value 2 [1/2; 2] [0; 1; 3] De f) by (try assumption; try reflexivity; try discriminate; cbn; lia)); cbn [nth Nat.add]; field.
  - intros f c E0 E1. destruct (Hi 1%nat ltac:(cbn; lia)) as (X & _ & Loc). rewrite (Loc f (fun l => peval [c] (nth l [1/2; 2] 0))).
    + rewrite (X [c] (fun _ => c)); [reflexivity|cbn; lia|]. intros t. cbn. ring.
    + intros [|[|l]] Hlt; cbn in Hlt; [rewrite E0|rewrite E1|lia]; cbn; ring.
  - intros f. destruct (Hd 1%nat ltac:(cbn; lia)) as (_ & X & Loc). specialize (X ltac:(cbn; lia) ltac:(cbn; lia)).
    set (b := (f 1%nat - f 0%nat) / (3 / 2)). set (a := f 0%nat - b * (1 / 2)).
    rewrite (Loc f (fun l => peval [a; b] (nth l [1/2; 2] 0))).
    + rewrite (X [a; b] (fun _ => b)); [reflexivity|cbn; lia|]. exists (fun _ => b). split; [|intros t; reflexivity].
      intros x. apply derivable_ext with (f := fun x => a + b * x); [intros; cbn; ring|apply affine_derive].
    + intros [|[|l]] Hlt; cbn in Hlt; [| |lia]; cbn [nth peval]; unfold a, b; field.
  - intros w f. destruct (HP w f (fun c => [f c]) (fun _ => 0)) as (V & _).
    { intros c Hc. unfold reconstructs. destruct c as [|[|c]]; [| |cbn in Hc; lia]; (split; [cbn; lia|]); intros i Hi'; cbn in Hi'; assert (i = 0%nat) by lia; subst i; cbn; ring. }
    pose proof (V 0%nat ltac:(cbn; lia)) as V0. pose proof (V 1%nat ltac:(cbn; lia)) as V1. unfold FluxSpec.width, edge, penalty_high, penalty_low, step in V0, V1.
    cbn [length Nat.add Nat.mul nth Nat.eqb Nat.sub peval] in V0, V1. split; lra.
  - unfold over_levels in Hl. rewrite !sum_S, !sum_0 in Hl. unfold level_weight, rule_weight, edge in Hl.
    assert (R1 : forall a b, gauss_rule 1 a b = get_points (Table [0%Z] [20000000000000000%Z]) a b) by (intros; vm_compute; reflexivity).
    rewrite !R1 in Hl. cbn [get_points map nth Nat.mul Nat.add] in Hl. unfold scale_weight, dec in Hl. change (10 ^ 16)%Z with 10000000000000000%Z in Hl. simpl INR in Hl. lra.
Qed.

Definition ex_phys : PhysModel.constants := PhysModel.construct (2 / 7) (7 / 5) 1.
(** time step 1, all coefficients 1; [up]: upwinding of all components, [un]: uniform
    diffusion of rho theta and of the wind, [ex]: fully explicit *)
Definition ex_set (up un ex : bool) : settings :=
  Settings 2 2 1 (fun _ => up) (fun c => match c with FP => un | _ => false end) false un up false 1 1 1 1 false ex 1 ex_phys.
(** Jacobian J on levels, slope sl of the levels, wind w0, state s *)
Definition ex_col (J : nat -> R) (sl : R) (w0 : nat -> R) (s : vector) : VertModel.column :=
  Column J (fun _ => 1) (fun _ => 1) (fun _ j => nth j [1; 0; sl] 0) (fun _ j => nth j [0; 1; 0] 0) (fun _ j => nth j [sl; 0; 1] 0)
    (fun _ j => nth j [1; 0; sl] 0) (fun _ j => nth j [0; 1; 0] 0) (fun _ j => nth j [sl; 0; 1] 0) w0 (fun _ => 0) (fun _ => 1) (fun _ => 0) s.
(** rho theta is 1 and 2 on the two levels, rho r and r + s, and W is w on the interface *)
Definition ex_state (p r s w : R) : vector := fun c k => match c with FW => if (k =? 1)%nat then w else 0 | FP => 1 + INR k * p | FR => r + INR k * s end.
(** the column from which the step leads to X *)
Definition ex_before (S : settings) (O : operators) (J : nat -> R) (X : vector) : VertModel.column :=
  ex_col J 0 (fun _ => 0) (fun c k => X c k + tendency S O (ex_col J 0 (fun _ => 0) X) X c k).
Lemma ex_root up un ex O J X c k : build_f (ex_set up un ex) O (ex_before (ex_set up un ex) O J X) X c k = 0.
Proof.
  unfold build_f. change (tendency (ex_set up un ex) O (ex_before (ex_set up un ex) O J X) X c k) with (tendency (ex_set up un ex) O (ex_col J 0 (fun _ => 0) X) X c k).
  cbn [start ex_before ex_col dt ex_set]. field.
Qed.
Lemma ex_xi up un ex O J sl X k : xie (ex_set up un ex) O (ex_col J sl (fun _ => 0) X) X 1 = X FW 1%nat /\ (k <> 1%nat -> xie (ex_set up un ex) O (ex_col J sl (fun _ => 0) X) X k = 0).
Proof.
  unfold xie, ue, ve. cbn [rlev ex_set u v ex_col cxe nth]. split.
  - cbn [Nat.leb Nat.ltb andb]. rewrite !(ap_zero _ (fun _ => 0)) by reflexivity. ring.
  - intros N. destruct (Nat.leb_spec 1 k), (Nat.ltb_spec k 2); cbn [andb]; try reflexivity. lia.
Qed.

Example C76_case : exists S O om Q X, grid S O om /\ (forall k, (k < rlev S)%nat -> 0 < jn Q k) /\ on_levels S = false /\ 0 < dt S /\
  (forall c, upw S c = true /\ uni S c = false) /\ (forall k, jn Q k = jn Q 0%nat) /\ (forall c k, build_f S O Q X c k = 0) /\ X FR 0%nat <> start Q FR 0%nat.
Proof.
  destruct two_layers as (O & G & _ & De & Ie & Dn & Pn & Dd). set (X := ex_state 1 1 0 1).
  exists (ex_set true false false), O, (fun k => FluxSpec.width 1 [0; 1; 3] k), (ex_before (ex_set true false false) O (fun _ => 1) X), X.
  split; [apply G; reflexivity|]. split; [intros; cbn; lra|]. split; [reflexivity|]. split; [cbn; lra|]. split; [intros []; split; reflexivity|]. split; [reflexivity|].
  split; [intros; apply ex_root|]. cbn [ex_before ex_col start]. unfold tendency. cbn [rlev ex_set Nat.ltb Nat.leb upw]. unfold div_flux. cbn [on_levels ex_set].
  rewrite (proj1 (De _)). unfold pen. rewrite (proj1 (Pn _ _)). unfold weights, flux_e. cbn [rlev ex_set Nat.ltb Nat.leb andb npe Nat.mul Nat.add jn je ex_col].
  rewrite !(proj1 (ex_xi _ _ _ _ _ _ _ 0)). unfold re. rewrite (Ie _ 1) by (cbn; ring). cbn. rewrite Rabs_R1. lra.
Qed.
(** where the Jacobian varies, upwinding creates density *)
Theorem C76_upwind_refuted : exists S O om Q X, grid S O om /\ (forall k, (k < rlev S)%nat -> 0 < jn Q k) /\ on_levels S = false /\ 0 < dt S /\
  (forall c, uni S c = false) /\ (forall c k, (k < rlev S)%nat -> density c -> 0 < X c k) /\ (forall c k, build_f S O Q X c k = 0) /\
  content (rlev S) om (jn Q) (X FR) = content (rlev S) om (jn Q) (start Q FR) - 1 / 2.
Proof.
  destruct two_layers as (O & G & _ & De & Ie & Dn & Pn & Dd). set (X := ex_state 1 1 1 1). set (S := ex_set true false false). set (Q := ex_before S O (fun k => 1 + INR k) X).
  assert (GS : grid S O (fun k => FluxSpec.width 1 [0; 1; 3] k)) by (apply G; reflexivity).
  assert (HJ : forall k, (k < rlev S)%nat -> 0 < jn Q k) by (intros k _; cbn; pose proof (pos_INR k); lra).
  exists S, O, (fun k => FluxSpec.width 1 [0; 1; 3] k), Q, X.
  split; [exact GS|]. split; [exact HJ|]. split; [reflexivity|]. split; [cbn; lra|]. split; [intros []; reflexivity|].
  split; [intros c k Hk [->| ->]; cbn; pose proof (pos_INR k); lra|]. split; [intros; apply ex_root|].
  pose proof (C76_budget S O _ Q X FR GS (fun k Hk => Rgt_not_eq _ _ (HJ k Hk)) eq_refl ltac:(right; reflexivity)) as B. cbn [upw S ex_set] in B.
  assert (Z : content (rlev S) (fun k => FluxSpec.width 1 [0; 1; 3] k) (jn Q) (build_f S O Q X FR) = 0) by (unfold content; apply sum_zero; intros; unfold S, Q; rewrite ex_root; ring).
  rewrite Z in B. clear Z. revert B. generalize (content (rlev S) (fun k => FluxSpec.width 1 [0; 1; 3] k) (jn Q) (X FR)) (content (rlev S) (fun k => FluxSpec.width 1 [0; 1; 3] k) (jn Q) (start Q FR)). intros x y B. unfold content in B. cbn [rlev S ex_set] in B. rewrite !sum_S, sum_0 in B. rewrite (proj1 (Pn _ _)), (proj2 (Pn _ _)) in B.
  cbn [npe S ex_set Nat.mul Nat.add] in B. change (xie S O Q X 1) with (xie (ex_set true false false) O (ex_col (fun k => 1 + INR k) 0 (fun _ => 0) X) X 1) in B. rewrite (proj1 (ex_xi _ _ _ _ _ _ _ 0)) in B.
  cbn [dt S ex_set] in B. unfold FluxSpec.width, edge in B. cbn in B. rewrite Rabs_R1 in B. lra.
Qed.
(** uniform diffusion creates rho theta, even where the Jacobian is constant *)
Theorem C76_uniform_refuted : exists S O om Q X, grid S O om /\ (forall k, jn Q k = 1) /\ on_levels S = false /\ 0 < dt S /\
  (forall c, upw S c = false) /\ (forall c k, (k < rlev S)%nat -> density c -> 0 < X c k) /\ (forall k, 0 < ref_p Q k) /\ (forall c k, build_f S O Q X c k = 0) /\
  content (rlev S) om (jn Q) (X FP) = content (rlev S) om (jn Q) (start Q FP) + 1 / 2.
Proof.
  destruct two_layers as (O & G & _ & De & Ie & Dn & Pn & Dd). set (X := ex_state 1 1 1 1). set (S := ex_set false true false). set (Q := ex_before S O (fun k => 1) X).
  assert (GS : grid S O (fun k => FluxSpec.width 1 [0; 1; 3] k)) by (apply G; reflexivity).
  exists S, O, (fun k => FluxSpec.width 1 [0; 1; 3] k), Q, X.
  split; [exact GS|]. split; [reflexivity|]. split; [reflexivity|]. split; [cbn; lra|]. split; [intros []; reflexivity|].
  split; [intros c k Hk [->| ->]; cbn; pose proof (pos_INR k); lra|]. split; [intros; cbn; lra|]. split; [intros; apply ex_root|].
  pose proof (C76_budget S O _ Q X FP GS (fun k Hk => R1_neq_R0) eq_refl ltac:(left; reflexivity)) as B. cbn [upw uni S ex_set] in B.
  assert (Z : content (rlev S) (fun k => FluxSpec.width 1 [0; 1; 3] k) (jn Q) (build_f S O Q X FP) = 0) by (unfold content; apply sum_zero; intros; unfold S, Q; rewrite ex_root; ring).
  rewrite Z in B. clear Z. revert B. generalize (content (rlev S) (fun k => FluxSpec.width 1 [0; 1; 3] k) (jn Q) (X FP)) (content (rlev S) (fun k => FluxSpec.width 1 [0; 1; 3] k) (jn Q) (start Q FP)). intros x y B. unfold content in B. cbn [rlev S ex_set] in B. rewrite !sum_S, sum_0 in B. rewrite <- !ap_minus in B.
  rewrite !(ap_ext (dd_nn O) (fun l => X FP l - ref_p Q l) INR) in B by (intros; cbn; ring).
  cbn [dt sdiff ztop S ex_set jn Q ex_before ex_col] in B. unfold FluxSpec.width, edge in B. cbn [nth Nat.mul Nat.add] in B. lra.
Qed.

(** a column at rest that falls: the pressure is constant *)
Definition ex_still : VertModel.column := ex_col (fun _ => 1) 0 (fun _ => 0) (ex_state 0 1 0 0).
Lemma ex_still_rest S : at_rest (rlev S) ex_still.
Proof. split; [reflexivity|]. split; [reflexivity|]. intros k. cbn. destruct (k =? 1)%nat; reflexivity. Qed.
Lemma ex_g : PhysModel.g ex_phys = 980616 / 100000.
Proof. reflexivity. Qed.
Lemma ex_still_f up un ex O c k : (forall f c, f 0%nat = c -> f 1%nat = c -> apply1 (i_ne O) f 1 = c) -> (forall f, apply1 (d_ne O) f 1 = (f 1%nat - f 0%nat) / (3 / 2)) -> (k <= 2)%nat ->
  build_f (ex_set up un ex) O ex_still (start ex_still) c k = match c with FW => if (k =? 1)%nat then 980616 / 100000 else 0 | _ => 0 end.
Proof.
  intros Ie Dn Hk. pose proof (ex_still_rest (ex_set up un ex)) as R0. destruct c.
  - apply rest_scalar; [exact R0|reflexivity|]. intros _ _ l. cbn. ring.
  - rewrite rest_velocity; [|exact R0|intros _ l; reflexivity]. destruct k as [|[|[|k]]]; cbn [Nat.eqb orb rlev ex_set]; try reflexivity; [|lia].
    unfold dpe, pe, re, exner. rewrite Dn. rewrite !(Ie _ 1) by (cbn; ring).
    replace (start ex_still FP 1%nat) with 1 by (cbn; ring). replace (start ex_still FP 0%nat) with 1 by (cbn; ring). cbn [phys ex_set dr ex_still ex_col]. rewrite ex_g. field.
  - apply rest_scalar; [exact R0|reflexivity|discriminate].
Qed.
Definition ex_fall : R := 980616 / 100000 / (1 + PhysModel.gas ex_phys / PhysModel.get_cv ex_phys * PhysModel.exner_from_rhotheta ex_phys 1).
Lemma ex_fall_pos : 0 < ex_fall /\ ex_fall * (1 + PhysModel.gas ex_phys / PhysModel.get_cv ex_phys * PhysModel.exner_from_rhotheta ex_phys 1) = 980616 / 100000.
Proof.
  assert (P : 0 < PhysModel.gas ex_phys / PhysModel.get_cv ex_phys * PhysModel.exner_from_rhotheta ex_phys 1).
  { unfold PhysModel.get_cv, PhysModel.exner_from_rhotheta. apply Rmult_lt_0_compat; [apply Rdiv_lt_0_compat; cbn; lra|]. apply Rmult_lt_0_compat; [cbn; lra|apply exp_pos]. }
  unfold ex_fall. revert P. generalize (PhysModel.gas ex_phys / PhysModel.get_cv ex_phys * PhysModel.exner_from_rhotheta ex_phys 1). intros q P. split; [apply Rdiv_lt_0_compat; lra|field; lra].
Qed.
(** its Newton step *)
Definition ex_step : vector := fun c k => match c with
  | FW => if (k =? 1)%nat then ex_fall else 0
  | _ => if (k =? 0)%nat then - ex_fall else if (k =? 1)%nat then ex_fall / 2 else 0 end.
Lemma ex_step_solves un : exists O, grid (ex_set true un false) O (fun k => FluxSpec.width 1 [0; 1; 3] k) /\
  solves_system (rlev (ex_set true un false)) (jacobian (ex_set true un false) O ex_still (start ex_still)) (build_f (ex_set true un false) O ex_still (start ex_still)) ex_step.
Proof.
  destruct two_layers as (O & G & _ & De & Ie & Dn & Pn & Dd). exists O. set (S := ex_set true un false).
  assert (GS : grid S O (fun k => FluxSpec.width 1 [0; 1; 3] k)) by (apply G; reflexivity). split; [exact GS|].
  destruct (grid_sound _ _ _ GS) as (_ & _ & Pf & Re). intros c k Hk. rewrite (ex_still_f true un false O c k Ie Dn Hk : build_f S O ex_still (start ex_still) c k = _).
  destruct (ex_xi true un false O (fun _ => 1) 0 (start ex_still) 0) as (X1 & _). change (xie S O ex_still (start ex_still) 1 = 0) in X1.
  assert (XZ : forall m, xie S O ex_still (start ex_still) m = 0).
  { intros m. destruct (Nat.eq_dec m 1) as [->|N]; [exact X1|]. apply (proj2 (ex_xi true un false O (fun _ => 1) 0 (start ex_still) m) N). }
  assert (Sg : forall m, sign_weight ex_still (xie S O ex_still (start ex_still)) m = 0).
  { intros m. unfold sign_weight. rewrite XZ. destruct (Rlt_dec 0 0); [lra|reflexivity]. }
  assert (pen_none : forall f hc hw m, pen_row S O (xie S O ex_still (start ex_still)) (sign_weight ex_still (xie S O ex_still (start ex_still))) f hc hw m = 0).
  { intros f hc hw m. unfold pen_row. destruct (pops (pnl O)) as [[L Rt]|]; [|reflexivity]. rewrite !Sg, !XZ, Rabs_R0. destruct (_ <? _)%nat, (_ <? _)%nat; cbv zeta; ring. }
  assert (FL : forall c, density c -> forall m, je ex_still m * (dxi S ex_still ex_step m * apply1 (i_ne O) (start ex_still c) m + xie S O ex_still (start ex_still) m * apply1 (i_ne O) (ex_step c) m) = if (m =? 1)%nat then ex_fall else 0).
  { intros c' Hc m. rewrite XZ. unfold dxi. destruct (Nat.eqb_spec m 1) as [->|N].
    - rewrite (Ie _ 1) by (destruct Hc as [->| ->]; cbn; ring). cbn. ring.
    - destruct (Nat.leb_spec 1 m), (Nat.ltb_spec m (rlev S)); cbn [andb]; try ring. cbn in H0. lia. }
  assert (Dens : forall c', density c' -> row_dot (jacobian S O ex_still (start ex_still)) ex_step c' k = 0).
  { intros c' Hc. destruct (Nat.eq_dec k 2) as [->|Nk]; [rewrite dot_boundary by (try assumption; left; reflexivity); destruct Hc as [->| ->]; cbn; ring|].
    rewrite (dot_scalar S O ex_still (start ex_still) ex_step c' k Re Pf) by (try (apply density_scalar; exact Hc); cbn in Hk |- *; lia). rewrite pen_none.
    rewrite (ap_ext (d_en O) _ (fun m => if (m =? 1)%nat then ex_fall else 0)) by (intros; apply FL; exact Hc).
    assert (Ed : forall m, (k = m -> (m < 2)%nat -> apply1 (d_en O) (fun m => if (m =? 1)%nat then ex_fall else 0) m = if (m =? 0)%nat then ex_fall else - ex_fall / 2)).
    { intros m _ Hm. destruct m as [|[|m]]; [rewrite (proj1 (De _))|rewrite (proj2 (De _))|lia]; cbn; field. }
    rewrite (Ed k eq_refl) by (cbn in Hk; lia). destruct k as [|[|k]]; [| |cbn in Hk; lia]; destruct Hc as [->| ->]; cbn; field. }
  destruct c; [apply Dens; left; reflexivity| |apply Dens; right; reflexivity].
  destruct k as [|[|[|k]]]; [rewrite dot_boundary by (try assumption; right; split; reflexivity); cbn; ring| |rewrite dot_boundary by (try assumption; left; reflexivity); cbn; ring|cbn in Hk; lia].
  rewrite (dot_velocity S O ex_still (start ex_still) ex_step 1 Pf) by (cbn; lia). rewrite Sg, XZ, Rabs_R0. unfold dpe. rewrite !Dn. unfold exner.
  unfold xin, wn. unfold pe, re. rewrite (Ie (start ex_still FP) 1), (Ie (start ex_still FR) 1) by (cbn; ring).
  rewrite !(ap_zero (i_en O) (start ex_still FW)) by (intros l; cbn; destruct (l =? 1)%nat; reflexivity).
  replace (start ex_still FP 1%nat) with 1 by (cbn; ring). replace (start ex_still FP 0%nat) with 1 by (cbn; ring).
  destruct ex_fall_pos as (_ & F). cbn [phys S ex_set upw dt cx u v ex_still ex_col nth ex_step Nat.eqb]. rewrite <- F. field. unfold PhysModel.get_cv. cbn. lra.
Qed.
Example C77_case : exists S O om Q d, grid S O om /\ (forall k, (k < rlev S)%nat -> jn Q k <> 0) /\ on_levels S = false /\ dt S <> 0 /\ (forall c, upw S c = true /\ uni S c = false) /\
  (forall k, jn Q k = jn Q 0%nat) /\ solves_system (rlev S) (jacobian S O Q (start Q)) (build_f S O Q (start Q)) d /\ new_state Q d FW 1%nat < start Q FW 1%nat /\ start Q FR 0%nat < new_state Q d FR 0%nat.
Proof.
  destruct (ex_step_solves false) as (O & G & H). exists (ex_set true false false), O, (fun k => FluxSpec.width 1 [0; 1; 3] k), ex_still, ex_step.
  split; [exact G|]. split; [intros; cbn; lra|]. split; [reflexivity|]. split; [cbn; lra|]. split; [intros []; split; reflexivity|]. split; [reflexivity|]. split; [exact H|].
  destruct ex_fall_pos as (F & _). unfold new_state, ex_step. cbn [Nat.eqb]. split; lra.
Qed.

(** the matrix lacks the shear term over sloping levels, and uniform diffusion *)
Theorem C78_shear_refuted : exists S O om Q X h, grid S O om /\ symmetric Q /\ (forall c, uni S c = false) /\ (forall l, 0 < X FP l /\ 0 < X FR l) /\
  ~ derivable_pt_lim (fun t => build_f S O Q (along X h t) FW 1) 0 (row_dot (jacobian S O Q X) h FW 1).
Proof.
  destruct two_layers as (O & G & _ & De & Ie & Dn & Pn & Dd). set (X := ex_state 0 1 0 0). set (Q := ex_col (fun _ => 1) 1 INR X). set (S := ex_set false false false).
  assert (GS : grid S O (fun k => FluxSpec.width 1 [0; 1; 3] k)) by (apply G; reflexivity).
  assert (Sy : symmetric Q) by (intros k; split; reflexivity).
  assert (PX : forall l, 0 < X FP l) by (intros l; cbn; lra).
  exists S, O, (fun k => FluxSpec.width 1 [0; 1; 3] k), Q, X, (fun _ _ => 1). split; [exact GS|]. split; [exact Sy|]. split; [intros []; reflexivity|]. split; [intros l; split; cbn; lra|]. intros D.
  assert (RE : re O X 1 <> 0) by (unfold re; rewrite (Ie _ 1) by (cbn; ring); lra).
  pose proof (C78_velocity S O _ Q X (fun _ _ => 1) 1 GS Sy ltac:(cbn; lia) ltac:(cbn; lra) ltac:(cbn; lra) ltac:(cbn; lra) PX RE ltac:(discriminate)) as D'.
  pose proof (uniqueness_limite _ _ _ _ D D') as E. cbn [uni S ex_set cae cbe Q ex_col nth] in E. unfold dua in E. rewrite Dn in E. change (u Q) with INR in E. simpl INR in E. lra.
Qed.
Theorem C78_uniform_refuted : exists S O om Q X h k, grid S O om /\ symmetric Q /\ (forall l, 0 < X FP l /\ 0 < X FR l) /\ (forall l, cae Q l 2%nat = 0 /\ cbe Q l 2%nat = 0) /\ (k < rlev S)%nat /\
  ~ derivable_pt_lim (fun t => build_f S O Q (along X h t) FP k) 0 (row_dot (jacobian S O Q X) h FP k).
Proof.
  destruct two_layers as (O & G & _ & De & Ie & Dn & Pn & Dd). set (X := ex_state 0 1 0 0). set (Q := ex_col (fun _ => 1) 0 (fun _ => 0) X). set (S := ex_set false true false).
  assert (GS : grid S O (fun k => FluxSpec.width 1 [0; 1; 3] k)) by (apply G; reflexivity).
  assert (K : exists k, (k < 2)%nat /\ apply1 (dd_nn O) INR k <> 0).
  { destruct (Req_dec (apply1 (dd_nn O) INR 0) 0) as [Z|N]; [exists 1%nat|exists 0%nat]; split; try lia; [intros E; rewrite Z, E in Dd; lra|exact N]. }
  destruct K as (k & Hk & N). exists S, O, (fun k => FluxSpec.width 1 [0; 1; 3] k), Q, X, (fun _ => INR), k. split; [exact GS|]. split; [intros l; split; reflexivity|]. split; [intros l; split; cbn; lra|].
  split; [intros l; split; reflexivity|]. split; [exact Hk|]. intros D.
  pose proof (C78_density S O _ Q X (fun _ => INR) FP k GS eq_refl Hk ltac:(left; reflexivity) ltac:(discriminate)) as D'.
  pose proof (uniqueness_limite _ _ _ _ D D') as E. cbn [uni S ex_set sdiff ztop] in E. lra.
Qed.
Example C78_case : exists S O om Q X, grid S O om /\ on_levels S = false /\ (forall c, upw S c = true /\ uni S c = false) /\ symmetric Q /\ (forall k, cae Q k 2%nat = 0 /\ cbe Q k 2%nat = 0) /\
  0 < PhysModel.gas (phys S) /\ PhysModel.gas (phys S) < PhysModel.cp (phys S) /\ 0 < PhysModel.p0 (phys S) /\
  (forall l, 0 < X FP l) /\ (forall k, (1 <= k < rlev S)%nat -> re O X k <> 0 /\ xie S O Q X k <> 0).
Proof.
  destruct two_layers as (O & G & _ & De & Ie & Dn & Pn & Dd). set (X := ex_state 1 1 0 1).
  exists (ex_set true false false), O, (fun k => FluxSpec.width 1 [0; 1; 3] k), (ex_col (fun _ => 1) 0 (fun _ => 0) X), X.
  split; [apply G; reflexivity|]. split; [reflexivity|]. split; [intros []; split; reflexivity|]. split; [intros k; split; reflexivity|]. split; [intros k; split; reflexivity|].
  do 3 (split; [cbn; lra|]). split; [intros l; cbn; pose proof (pos_INR l); lra|]. intros k Hk. cbn in Hk. assert (k = 1%nat) by lia. subst k.
  rewrite (proj1 (ex_xi _ _ _ _ _ _ _ 0)). unfold re. rewrite (Ie _ 1) by (cbn; ring). cbn. lra.
Qed.

Example C79_case : exists S sol O w, column 1 (length [1/2; 2]) [1/2; 2] [0; 1; 3] /\ solved sol 1 /\ (2 / 2 <= length [1/2; 2])%nat /\ nfe S = 2%nat /\ npe S = 1%nat /\ rlev S = 2%nat /\
  volume_operators sol gauss_rule lobatto_rule 2 [1/2; 2] [0; 1; 3] = Some O /\ off_diagonals true 2 = Some w /\ w = 4%nat.
Proof.
  destruct two_layers as (O & G & (sol & Sv & E) & _). exists (ex_set true true false), sol, O, 4%nat. split; [exact uneven|]. split; [exact Sv|]. split; [cbn; lia|]. do 3 (split; [reflexivity|]). split; [exact E|]. split; reflexivity.
Qed.
Lemma cubic_correction : correction 2 3 [-1/4; 0; 3/4; 1/2].
Proof.
  split; [cbn; lia|]. split; [cbn; field|]. split.
  - exists [-1/4; 1/2]. split; [cbn; lia|]. intros x. cbn. field.
  - intros n F Hn D. assert (n = 0%nat) by lia. subst n.
    set (H := fun x => F x - (-1/4 * x + 1/4 * (x * (x * x)) + 1/8 * ((x * x) * (x * x)))).
    assert (DH : forall x, derivable_pt_lim H x 0).
    { intros x. unfold H. replace 0 with (peval [-1/4; 0; 3/4; 1/2] x * x ^ 0 - (-1/4 * 1 + 1/4 * (1 * (x * x) + x * (1 * x + x * 1)) + 1/8 * ((1 * x + x * 1) * (x * x) + (x * x) * (1 * x + x * 1)))) by (cbn; field).
      apply (derivable_pt_lim_minus F (fun x => -1/4 * x + 1/4 * (x * (x * x)) + 1/8 * ((x * x) * (x * x)))); [apply D|].
      pose proof (derivable_pt_lim_id x) as I. pose proof (derivable_pt_lim_mult id id x 1 1 I I) as I2. unfold id in I2.
      apply (derivable_pt_lim_plus (fun x => -1/4 * x + 1/4 * (x * (x * x))) (fun x => 1/8 * ((x * x) * (x * x)))).
      - apply (derivable_pt_lim_plus (fun x => -1/4 * x) (fun x => 1/4 * (x * (x * x)))); [apply (derivable_pt_lim_scal (fun x => x)), I|]. apply (derivable_pt_lim_scal (fun x => x * (x * x))).
        apply (derivable_pt_lim_mult (fun x => x) (fun x => x * x)); [exact I|exact I2].
      - apply (derivable_pt_lim_scal (fun x => (x * x) * (x * x))). apply (derivable_pt_lim_mult (fun x => x * x) (fun x => x * x)); exact I2. }
    destruct (MVT_cor2 H (fun _ => 0) (-1) 1 ltac:(lra) (fun c _ => DH c)) as (c & E & _). unfold H in E. lra.
Qed.
(** two elements of order two, levels at rational points of degree two *)
Definition ex_lev := [1/2; 5/3; 5/2; 11/3].
Definition ex_itf := [0; 1; 2; 3; 4].
Example C79_elements_case : exists S sol O omega w, column 2 2 ex_lev ex_itf /\ solved sol 2 /\ levels_inside 2 2 ex_lev ex_itf /\
  (forall a, (a < 2)%nat -> integrates_on (2 + 2) 2 ex_lev (a * 2) (edge 2 ex_itf a) (edge 2 ex_itf (a + 1)) (omega a)) /\
  correction 2 (2 + 1) [-1/4; 0; 3/4; 1/2] /\ lumped 2 2 [-1/4; 0; 3/4; 1/2] ex_itf /\ nfe S = 2%nat /\ npe S = 2%nat /\ rlev S = (2 * 2)%nat /\
  element_operators sol gauss_rule lobatto_rule 2 ex_lev ex_itf ex_lev ex_itf = Some O /\ off_diagonals false 2 = Some w /\ w = 9%nat.
Proof.
  destruct (van_solvable 2 3 rhs ltac:(lia)) as (x & Hx). set (sol := fun _ _ : nat => x). assert (Sv : solved sol 2) by exact Hx.
  assert (C : column 2 2 ex_lev ex_itf).
  { split; [lia|]. split; [lia|]. split; [reflexivity|]. split; [reflexivity|].
    split; [|apply spaced_case; intros [|[|[|[|i]]]] H; cbn in H |- *; try lia; lra].
    intros i j Hij. cbn in Hij. assert (/ 10 ^ 11 <= / 10) by (apply Rinv_le_contravar; [lra|]; rewrite <- (pow_1 10) at 1; apply Rle_pow; [lra|lia]).
    destruct i as [|[|[|[|i]]]], j as [|[|[|[|j]]]]; try lia; cbn [nth ex_lev]; lra. }
  assert (I : levels_inside 2 2 ex_lev ex_itf).
  { intros a i Ha Hi. assert (/ 10 ^ 12 <= / 10) by (apply Rinv_le_contravar; [lra|]; rewrite <- (pow_1 10) at 1; apply Rle_pow; [lra|lia]).
    destruct a as [|[|a]], i as [|[|i]]; try lia; unfold edge; cbn [nth ex_lev ex_itf Nat.mul Nat.add]; lra. }
  set (omega := fun (_ j : nat) => match j with O => 8/7 | _ => 6/7 end).
  assert (W : forall a, (a < 2)%nat -> integrates_on (2 + 2) 2 ex_lev (a * 2) (edge 2 ex_itf a) (edge 2 ex_itf (a + 1)) (omega a)).
  { intros a Ha F f LF Hf. rewrite !sum_S, sum_0.
    assert (K : exists c0 c1 c2 c3, forall x, peval F x = c0 + c1 * x + c2 * (x * x) + c3 * (x * (x * x))).
    { destruct F as [|c0 [|c1 [|c2 [|c3 [|c4 F]]]]]; cbn in LF; try lia; [exists 0, 0, 0, 0|exists c0, 0, 0, 0|exists c0, c1, 0, 0|exists c0, c1, c2, 0|exists c0, c1, c2, c3]; intros; cbn; ring. }
    destruct K as (c0 & c1 & c2 & c3 & K).
    assert (D : forall x, f x = c1 + c2 * (1 * x + x * 1) + c3 * (1 * (x * x) + x * (1 * x + x * 1))).
    { intros y. apply (uniqueness_limite (peval F) y); [apply Hf|]. apply derivable_ext with (f := fun x => (c0 + c1 * x) + c2 * (x * x) + c3 * (x * (x * x))); [intros; rewrite K; ring|].
      pose proof (derivable_pt_lim_id y) as Id. pose proof (derivable_pt_lim_mult id id y 1 1 Id Id) as I2. unfold id in I2.
      apply (derivable_pt_lim_plus (fun x => (c0 + c1 * x) + c2 * (x * x)) (fun x => c3 * (x * (x * x)))); [apply (derivable_pt_lim_plus (fun x => c0 + c1 * x) (fun x => c2 * (x * x))); [apply affine_derive|apply (derivable_pt_lim_scal (fun x => x * x)), I2]|].
      apply (derivable_pt_lim_scal (fun x => x * (x * x))). apply (derivable_pt_lim_mult (fun x => x) (fun x => x * x)); [exact Id|exact I2]. }
    rewrite !D, !K. unfold edge. destruct a as [|[|a]]; [| |lia]; cbn [omega nth ex_lev ex_itf Nat.mul Nat.add]; field. }
  destruct (C60_tables 2 ltac:(lia)) as (G2 & _). destruct (C60_tables 3 ltac:(lia)) as (_ & L3). destruct (G2 ltac:(lia)) as (GG & SG). destruct (L3 ltac:(lia)) as (GL & SL & _).
  set (S := Settings 4 2 2 (fun _ => true) (fun _ => true) true true true false 1 1 1 1 false false 1 ex_phys).
  destruct (proj2 (C76_operators S) sol gauss_rule lobatto_rule 2%nat 2%nat ex_lev ex_itf ex_lev ex_itf omega C C Sv GG SG GL SL I ltac:(lia) W eq_refl eq_refl eq_refl) as (O & EO & _).
  exists S, sol, O, omega, 9%nat. split; [exact C|]. split; [exact Sv|]. split; [exact I|]. split; [exact W|]. split; [exact cubic_correction|]. split; [|do 3 (split; [reflexivity|]); split; [exact EO|]; split; reflexivity].
  intros a j Ha Hj. assert (j = 1%nat) by lia. subst j. unfold local.
  set (e := edge 2 ex_itf a). assert (E1 : edge 2 ex_itf (a + 1) = e + 2) by (unfold e, edge; destruct a as [|[|a]]; [| |lia]; cbn; ring).
  assert (E2 : nth (a * 2 + 1) ex_itf 0 = e + 1) by (unfold e, edge; destruct a as [|[|a]]; [| |lia]; cbn; ring). rewrite E1, E2.
  assert (P : forall s, (s = 1 \/ s = -1) -> derivable_pt_lim (fun x => -1/4 + 3/4 * ((x - (e + 1)) * (x - (e + 1))) + 1/2 * s * ((x - (e + 1)) * ((x - (e + 1)) * (x - (e + 1))))) (e + 1) 0).
  { intros s _. set (c := e + 1). assert (I1 : derivable_pt_lim (fun x => x - c) c 1).
    { replace 1 with (1 - 0) by ring. apply (derivable_pt_lim_minus (fun x => x) (fun _ => c)); [apply derivable_pt_lim_id|apply derivable_pt_lim_const]. }
    pose proof (derivable_pt_lim_mult _ _ _ _ _ I1 I1) as I2. pose proof (derivable_pt_lim_mult _ _ _ _ _ I1 I2) as I3. unfold mult_fct in I2, I3.
    replace 0 with (0 + 3/4 * (1 * (c - c) + (c - c) * 1) + 1/2 * s * (1 * ((c - c) * (c - c)) + (c - c) * (1 * (c - c) + (c - c) * 1))) by ring.
    apply (derivable_pt_lim_plus (fun x => -1/4 + 3/4 * ((x - c) * (x - c))) (fun x => 1/2 * s * ((x - c) * ((x - c) * (x - c))))); [|apply (derivable_pt_lim_scal (fun x => (x - c) * ((x - c) * (x - c)))), I3].
    apply (derivable_pt_lim_plus (fun _ => -1/4) (fun x => 3/4 * ((x - c) * (x - c)))); [apply derivable_pt_lim_const|apply (derivable_pt_lim_scal (fun x => (x - c) * (x - c))), I2]. }
  split; [apply derivable_ext with (2 := P 1 (or_introl eq_refl))|apply derivable_ext with (2 := P (-1) (or_intror eq_refl))]; intros y; unfold local; cbn [peval]; field; lra.
Qed.

(** a column at rest with its metric chosen to balance *)
Example C80_case : exists S O Q, (exists om, grid S O om) /\ at_rest (rlev S) Q /\ (forall c, upw S c = true) /\ uni S FP = true /\ (forall l, start Q FP l = ref_p Q l) /\ (forall l, ref_w Q l = 0) /\
  (forall k, (0 < k < rlev S)%nat ->
      apply1 (d_ne O) (fun l => PhysModel.exner_from_rhotheta (phys S) (start Q FP l)) k * (apply1 (i_ne O) (start Q FP) k / apply1 (i_ne O) (start Q FR) k)
      = - (PhysModel.g (phys S) * dr Q k)) /\ start Q FP 1%nat < start Q FP 0%nat /\ (forall c, density c -> forall k, (k < rlev S)%nat -> 0 < start Q c k).
Proof.
  destruct two_layers as (O & G & _ & De & Ie & Dn & Pn & Dd). set (S := ex_set true true false). set (X := ex_state (-1/2) 1 0 0).
  set (d := fun k => - (apply1 (d_ne O) (fun l => PhysModel.exner_from_rhotheta (phys S) (X FP l)) k * (apply1 (i_ne O) (X FP) k / apply1 (i_ne O) (X FR) k)) / PhysModel.g (phys S)).
  exists S, O, (Column (fun _ => 1) (fun _ => 1) d (ca ex_still) (cb ex_still) (cx ex_still) (cae ex_still) (cbe ex_still) (cxe ex_still) (fun _ => 0) (fun _ => 0) (X FP) (fun _ => 0) X).
  split; [eexists; apply G; reflexivity|]. split; [split; [reflexivity|]; split; [reflexivity|]; intros k; cbn; destruct (k =? 1)%nat; reflexivity|].
  split; [intros []; reflexivity|]. split; [reflexivity|]. split; [reflexivity|]. split; [reflexivity|]. split; [|split].
  - intros k _. cbn [start dr]. unfold d. generalize (apply1 (d_ne O) (fun l => PhysModel.exner_from_rhotheta (phys S) (X FP l)) k * (apply1 (i_ne O) (X FP) k / apply1 (i_ne O) (X FR) k)). intros t. field. cbn. lra.
  - cbn. lra.
  - intros c Hc k Hk. cbn in Hk. destruct k as [|[|k]]; [| |lia]; destruct Hc as [->| ->]; cbn; lra.
Qed.

(** the tracer of the falling column follows, in either step *)
Example C81_case : exists S O om Q d, grid S O om /\ on_levels S = false /\ explicit S = false /\ uni_t S = false /\ upw_t S = upw S FR /\ upw_t S = true /\
  solves_system (rlev S) (jacobian S O Q (start Q)) (build_f S O Q (start Q)) d /\ d FR 0%nat <> 0.
Proof.
  destruct (ex_step_solves false) as (O & G & H). exists (ex_set true false false), O, (fun k => FluxSpec.width 1 [0; 1; 3] k), ex_still, ex_step.
  split; [exact G|]. do 5 (split; [reflexivity|]). split; [exact H|]. destruct ex_fall_pos as (F & _). cbn. lra.
Qed.
Example C81_explicit_case : exists S O om Q X dq, grid S O om /\ on_levels S = false /\ explicit S = true /\ uni_t S = false /\ upw_t S = upw S FR /\ upw_t S = true /\ dt S <> 0 /\
  solves_tracer (rlev S) (tracer_jacobian S O Q) (tracer_f S O Q X (start Q FW) (fun l => 3 * start Q FR l) (fun _ => 0) (fun _ => 1)) dq /\ dq 0%nat <> 0.
Proof.
  destruct two_layers as (O & G & _ & De & Ie & Dn & Pn & Dd). set (S := ex_set true false true). set (X := ex_state 0 1 0 1). set (Q := ex_col (fun _ => 1) 0 (fun _ => 0) X).
  exists S, O, (fun k => FluxSpec.width 1 [0; 1; 3] k), Q, X, (tracer_f S O Q X (start Q FW) (fun l => 3 * start Q FR l) (fun _ => 0) (fun _ => 1)).
  split; [apply G; reflexivity|]. do 5 (split; [reflexivity|]). split; [cbn; lra|]. split.
  - intros k Hk. cbn in Hk. unfold tracer_jacobian. cbn [explicit S ex_set app rlev]. destruct k as [|[|k]]; [| |lia]; cbn; field.
  - unfold tracer_f. cbn [upw_t explicit S ex_set andb negb]. rewrite (proj1 (De _)). unfold pen. rewrite (proj1 (Pn _ _)). unfold tracer_flux. cbn [rlev S ex_set Nat.leb Nat.ltb andb uni_t].
    rewrite (Ie _ 3) by (cbn; ring). unfold with_w. assert (E : xie S O Q (fun c k => match c with FW => start Q FW k | _ => X c k end) 1 = 1).
    { unfold xie, ue, ve. cbn [rlev S ex_set Nat.leb Nat.ltb andb u v Q ex_col cxe nth start]. rewrite !(ap_zero _ (fun _ => 0)) by reflexivity. cbn. ring. }
    rewrite E. cbn. lra.
Qed.
(** StepImplicitTermsExplicitly moves density with the velocity before the update but
    tracers with the one after it: a tracer equal to the density leaves it *)
Theorem C81_terms_refuted : exists S O om Q dq, grid S O om /\ explicit S = false /\ uni_t S = false /\ upw_t S = upw S FR /\ (forall k, jn Q k = 1) /\
  solves_tracer (rlev S) (tracer_jacobian S O Q) (tracer_f S O Q (start Q) (explicit_state S O Q (start Q) FW) (start Q FR) (fun _ => 0) (fun _ => 1)) dq /\
  (forall k, (k < rlev S)%nat -> explicit_state S O Q (start Q) FR k = start Q FR k) /\
  new_tracer (start Q FR) dq 0%nat <> explicit_state S O Q (start Q) FR 0%nat.
Proof.
  destruct two_layers as (O & G & _ & De & Ie & Dn & Pn & Dd). set (S := ex_set false false false). set (Q := ex_still).
  assert (W1 : explicit_state S O Q (start Q) FW 1%nat = - (980616 / 100000)).
  { unfold explicit_state. rewrite (ex_still_f false false false O FW 1 Ie Dn ltac:(lia) : build_f S O Q (start Q) FW 1 = _). cbn. field. }
  assert (Rk : forall k, (k < rlev S)%nat -> explicit_state S O Q (start Q) FR k = start Q FR k).
  { intros k Hk. cbn in Hk. unfold explicit_state. rewrite (ex_still_f false false false O FR k Ie Dn ltac:(lia) : build_f S O Q (start Q) FR k = _). ring. }
  set (F := tracer_f S O Q (start Q) (explicit_state S O Q (start Q) FW) (start Q FR) (fun _ => 0) (fun _ => 1)).
  exists S, O, (fun k => FluxSpec.width 1 [0; 1; 3] k), Q, F. split; [apply G; reflexivity|]. do 4 (split; [reflexivity|]). fold F.
  assert (XZ : forall m, xie S O Q (start Q) m = 0).
  { intros m. destruct (ex_xi false false false O (fun _ => 1) 0 (start ex_still) m) as (X1 & X2). destruct (Nat.eq_dec m 1) as [->|N]; [exact X1|exact (X2 N)]. }
  split; [|split; [exact Rk|]].
  - assert (GS : grid S O (fun k => FluxSpec.width 1 [0; 1; 3] k)) by (apply G; reflexivity). destruct (grid_sound _ _ _ GS) as (_ & _ & Pf & _).
    intros k Hk. cbn in Hk. unfold tracer_jacobian. cbn [explicit S ex_set upw_t]. rewrite app_nil_r, trow_dot_app.
    assert (Z : trow_dot (tjac_flux S O Q (xie S O Q (start Q))) F k = 0).
    { assert (A : forall e, In e (tjac_flux S O Q (xie S O Q (start Q))) -> t_x e = 0).
      { intros e He. unfold tjac_flux, loop, row in He. apply in_flat_map in He. destruct He as (? & _ & He). apply in_flat_map in He. destruct He as (? & _ & He). apply in_flat_map in He. destruct He as (? & _ & [<-|[]]).
        cbn [t_x]. rewrite XZ. ring. }
      revert A. generalize (tjac_flux S O Q (xie S O Q (start Q))). induction l as [|e l IH]; intros A; [reflexivity|].
      change (trow_dot (e :: l) F k) with (if (t_k1 e =? k)%nat then t_x e * F (t_k0 e) + trow_dot l F k else trow_dot l F k). rewrite IH by (intros; apply A; right; assumption).
      rewrite (A e (or_introl eq_refl)). destruct (_ =? _)%nat; ring. }
    rewrite Z. destruct k as [|[|k]]; [| |lia]; cbn; field.
  - rewrite Rk by (cbn; lia). unfold new_tracer, F, tracer_f. cbn [upw_t explicit S ex_set andb negb]. rewrite (proj1 (De _)). unfold tracer_flux. cbn [rlev S ex_set Nat.leb Nat.ltb andb uni_t].
    rewrite (Ie _ 1) by (cbn; ring). unfold with_w, xie, ue, ve. cbn [rlev S ex_set Nat.leb Nat.ltb andb u v Q ex_still ex_col cxe nth jn je]. rewrite !(ap_zero _ (fun _ => 0)) by reflexivity.
    rewrite (W1 : explicit_state S O Q (start Q) FW 1%nat = _). cbn. lra.
Qed.
(** implicit uniform diffusion of tracers is refused *)
Theorem C81_refused : forall S, tracer_throws S = true <-> explicit S = false /\ uni_t S = true.
Proof. intros S. unfold tracer_throws. destruct (explicit S), (uni_t S); cbn; split; intros H; try discriminate; try (destruct H; discriminate); try reflexivity. split; reflexivity. Qed.

(** with it the wind of a column depends on what another call left behind *)
Theorem C82_stale_refuted : exists S O om C ou ov, grid S O om /\ explicit S = false /\ uni_u S = true /\ exists su su' k, (k < rlev S)%nat /\
  match wind_columns S O su su [(C, (ou, ov))], wind_columns S O su' su' [(C, (ou, ov))] with
  | [(a, _)], [(b, _)] => a k <> b k | _, _ => False end.
Proof.
  destruct two_layers as (O & G & _ & De & Ie & Dn & Pn & Dd). set (Z := fun _ : nat => 0).
  exists (ex_set true true false), O, (fun k => FluxSpec.width 1 [0; 1; 3] k), (Wind Z Z Z Z Z), Z, Z. split; [apply G; reflexivity|]. split; [reflexivity|]. split; [reflexivity|].
  assert (K : exists k, (k < 2)%nat /\ apply1 (dd_nn O) INR k <> 0).
  { destruct (Req_dec (apply1 (dd_nn O) INR 0) 0) as [E0|N]; [exists 1%nat|exists 0%nat]; split; try lia; [intros E; rewrite E0, E in Dd; lra|exact N]. }
  destruct K as (k & Hk & N). exists Z, INR, k. split; [exact Hk|]. cbn [wind_columns explicit ex_set]. unfold wind_step. cbn [uni_u upw_u ex_set rlev].
  destruct (Nat.ltb_spec k 2); [|lia]. unfold diffuse_wind. rewrite (ap_zero _ Z) by reflexivity. cbn [dt vdiff ztop ex_set]. unfold Z. lra.
Qed.
Example C82_case : explicit (ex_set true true true) = true /\ uni_u (ex_set true true true) = true.
Proof. split; reflexivity. Qed.
Example C83_case : same_point 4 3 3 4 /\ same_point 4 3 7 8 /\ implicit_patch 4 3 2 (fun i j => (i + 100 * j)%nat) (fun _ _ => 0%nat) 3 4 = 404%nat /\
  implicit_patch 4 3 2 (fun i j => (i + 100 * j)%nat) (fun _ _ => 0%nat) 4 3 = 404%nat.
Proof. split; [right; exists 1%nat; lia|]. split; [right; exists 2%nat; lia|]. split; vm_compute; reflexivity. Qed.

Print Assumptions C76_operators.
Print Assumptions C76_budget.
Print Assumptions C76_root.
Print Assumptions C77_newton.
Print Assumptions C77_ends.
Print Assumptions C77_explicit.
Print Assumptions C78_density.
Print Assumptions C78_velocity.
Print Assumptions C78_ends.
Print Assumptions C78_exact.
Print Assumptions C79_volumes.
Print Assumptions C79_elements.
Print Assumptions C79_tracers.
Print Assumptions C79_short_columns_refuted.
Print Assumptions C80_balance.
Print Assumptions C80_keeps.
Print Assumptions C81_follows.
Print Assumptions C81_explicit.
Print Assumptions C81_content.
Print Assumptions C82_local.
Print Assumptions C82_reference.
Print Assumptions C83_shared.
Print Assumptions C83_solved.
Print Assumptions C76_upwind_refuted.
Print Assumptions C76_uniform_refuted.
Print Assumptions C78_shear_refuted.
Print Assumptions C78_uniform_refuted.
Print Assumptions C81_terms_refuted.
Print Assumptions C81_refused.
Print Assumptions C82_stale_refuted.
