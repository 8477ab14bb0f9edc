(** * The split explicit dynamics: theorems *)
From Coq Require Import FunctionalExtensionality.
From Coq Require Import ZArith Reals List Bool Lia Lra.
From Verif Require Import QuadModel ShallowModel ShallowSpec ShallowProofs ShallowProps ViscModel ViscSpec ViscProofs
  NonhSpec NonhProofs HsModel HsSpec HsProofs HsExplProps SplModel SplSpec SplProofs.
From Verif Require PhysModel PhysProps.
Import ListNotations.
Local Open Scope R_scope.
Local Notation z := Z.of_nat.
Local Ltac reference n Hn HB B w W HD HA :=
  let B' := fresh in let E := fresh in
  destruct (C55_reference n Hn) as (B' & w & E & W & Sy & HD & HA);
  rewrite HB in E; injection E as <-; exists w; split; [exact W|]; clear Sy.

(** the values of the tendencies at a node of element (a, b) *)
Section At.
Context (c : PhysModel.constants) (n : nat) (B : basis) (G : hgeom) (N : nat) (arg o : hstate) (T : field3) (h : Z) (nA nB a b : nat).
Context (Ha : (a < nA)%nat) (Hb : (b < nB)%nat).
Local Notation p := (h + z (a * n))%Z.
Local Notation q := (h + z (b * n))%Z.
Local Notation s := (tendencies c n B G N arg T h nA nB o).
Ltac go F := intros Hk Hi Hj; apply Nat.ltb_lt in Hk; unfold tendencies; cbn [hU hV hP hR hW]; rewrite Hk; apply (patch_there n h nA nB F); assumption.
Lemma at_tu k i j : (k < N)%nat -> (i < n)%nat -> (j < n)%nat -> hU s k (p + z i)%Z (q + z j)%Z = ten_u c n B G N arg k p q i j.
Proof. go (fun p q i j (_ : R) => ten_u c n B G N arg k p q i j). Qed.
Lemma at_tv k i j : (k < N)%nat -> (i < n)%nat -> (j < n)%nat -> hV s k (p + z i)%Z (q + z j)%Z = ten_v c n B G N arg k p q i j.
Proof. go (fun p q i j (_ : R) => ten_v c n B G N arg k p q i j). Qed.
Lemma at_tp k i j : (k < N)%nat -> (i < n)%nat -> (j < n)%nat -> hP s k (p + z i)%Z (q + z j)%Z = spl_p n B G N arg T k p q i j.
Proof. go (fun p q i j (_ : R) => spl_p n B G N arg T k p q i j). Qed.
Lemma at_tr k i j : (k < N)%nat -> (i < n)%nat -> (j < n)%nat -> hR s k (p + z i)%Z (q + z j)%Z = spl_r n B G N arg k p q i j.
Proof. go (fun p q i j (_ : R) => spl_r n B G N arg k p q i j). Qed.
Lemma at_tw k i j : (1 <= k < N)%nat -> (i < n)%nat -> (j < n)%nat -> hW s k (p + z i)%Z (q + z j)%Z = spl_w c n B G arg k p q i j.
Proof.
  intros Hk Hi Hj. unfold tendencies; cbn [hW]. rewrite (inner_in N k Hk).
  apply (patch_there n h nA nB (fun p q i j (_ : R) => spl_w c n B G arg k p q i j)); assumption.
Qed.
End At.

(** ** C119: the explicit tendencies *)
(** the volume of a node: the Jacobian times a weight per layer, and also an area times
    the depth of the layer *)
Definition volumes (n : nat) (h : Z) (a b N : nat) (G : hgeom) (V : nat -> Z -> Z -> R) : Prop :=
  exists (d : nat -> R) (area : Z -> Z -> R), forall k, (k < N)%nat -> in_element n h a b (fun x y =>
    J3 G k x y <> 0 /\ Zi G (S k) x y - Zi G k x y <> 0 /\ V k x y = J3 G k x y * d k /\ V k x y = area x y * (Zi G (S k) x y - Zi G k x y)).
(** the air over an element neither gains nor loses mass or rho theta *)
Theorem C119_mass : forall n B, (2 <= n <= 10)%nat -> gll_basis n = Some B -> exists w, weights_of n (bW B) w /\
  forall c G N arg o T h nA nB a b V, (a < nA)%nat -> (b < nB)%nat -> volumes n h a b N G V ->
  let t := tendencies c n B G N arg T h nA nB o in
  let total := block_total N n w (h + z (a * n))%Z (h + z (b * n))%Z V in
  total (hR t) = 0 /\ total (hP t) = 0.
Proof.
  intros n B Hn HB. reference n Hn HB B w W HD HA. intros c G N arg o T h nA nB a b V Ha Hb (d & area & HV) t total.
  assert (Z0 : total (fun k x y => 0 + 0) = 0).
  { unfold total, block_total. apply nsum_zero. intros k _. unfold element_sum. apply nsum_zero. intros i _. apply nsum_zero. intros. ring. }
  assert (E0 : forall (F : field3) M x y, on_edges M F O x y = 0 /\ on_edges M F M x y = 0).
  { intros F M x y. unfold on_edges. rewrite !inner_out by lia. auto. }
  split.
  - rewrite <- Z0. unfold total.
    apply (block_budget N n B (base2 G) w _ _ V (J3 G) (fun _ _ _ => 0) _ (fun _ _ _ => 0) (mass_a G arg) (mass_b G arg) (s_mass G N arg) (Zi G) (-1) (-1) area d HD HA).
    + intros k i j Hk Hi Hj x y. destruct (HV k Hk i j Hi Hj) as (A1 & A2 & A3 & A4). repeat (split; [assumption|]).
      unfold t, x, y. rewrite at_tr by assumption. unfold spl_r, hdiv, dz_edge. ring.
    + intros i j Hi Hj. apply E0.
  - rewrite <- Z0. unfold total.
    apply (block_budget N n B (base2 G) w _ _ V (J3 G) (fun _ _ _ => 0) _ (fun _ _ _ => 0) (pres_a G arg) (pres_b G arg) (s_theta G N arg T) (Zi G) (-1) (-1) area d HD HA).
    + intros k i j Hk Hi Hj x y. destruct (HV k Hk i j Hi Hj) as (A1 & A2 & A3 & A4). repeat (split; [assumption|]).
      unfold t, x, y. rewrite at_tp by assumption. unfold spl_p, hdiv, dz_edge. ring.
    + intros i j Hi Hj. apply E0.
Qed.
Print Assumptions C119_mass.

(** air of one potential temperature keeps it *)
Theorem C119_theta : forall c n B G N arg o T h nA nB a b t, (a < nA)%nat -> (b < nB)%nat ->
  (forall k, (k < N)%nat -> in_element n h a b (fun x y => 0 < hR arg k x y /\ hP arg k x y = t * hR arg k x y)) ->
  let s := tendencies c n B G N arg T h nA nB o in
  forall k, (k < N)%nat -> in_element n h a b (fun x y => hP s k x y = t * hR s k x y).
Proof.
  intros c n B G N arg o T h nA nB a b t Ha Hb H s k Hk i j Hi Hj. unfold s. rewrite at_tp, at_tr by assumption.
  set (p := (h + z (a * n))%Z) in *. set (q := (h + z (b * n))%Z) in *.
  assert (FA : forall i j, (i < n)%nat -> (j < n)%nat ->
    pres_a G arg k (p + z i)%Z (q + z j)%Z = t * mass_a G arg k (p + z i)%Z (q + z j)%Z /\
    pres_b G arg k (p + z i)%Z (q + z j)%Z = t * mass_b G arg k (p + z i)%Z (q + z j)%Z).
  { intros i' j' Hi' Hj'. destruct (H k Hk i' j' Hi' Hj') as (N0 & T0). fold p q in N0, T0.
    unfold pres_a, pres_b. rewrite T0. split; field; lra. }
  unfold spl_p, spl_r, hdiv.
  rewrite (v_alpha_ext n B (base2 G) p q (pres_a G arg k) (fun x y => t * mass_a G arg k x y) i j Hj) by (intros; apply FA; assumption).
  rewrite (v_beta_ext n B (base2 G) p q (pres_b G arg k) (fun x y => t * mass_b G arg k x y) i j Hi) by (intros; apply FA; assumption).
  rewrite v_alpha_scal, v_beta_scal.
  assert (E : forall l, s_theta G N arg T l (p + z i)%Z (q + z j)%Z = t * s_mass G N arg l (p + z i)%Z (q + z j)%Z).
  { intro l. unfold s_theta, s_mass, on_edges, theta_e. destruct (inner_edge N l) eqn:EI; [|ring]. apply inner_edge_true in EI.
    destruct (H l ltac:(lia) i j Hi Hj) as (N0 & T0). destruct (H (l - 1)%nat ltac:(lia) i j Hi Hj) as (N1 & T1). fold p q in N0, N1, T0, T1.
    rewrite T0, T1. unfold inv_re, mean. field. lra. }
  unfold dz_edge. rewrite !E. ring.
Qed.
Print Assumptions C119_theta.

(** air at rest, in balance with its weight, stays at rest over any terrain *)
Theorem C119_rest : forall c n B G N arg o T h nA nB a b al be, annihilates_constants n (bD B) ->
  (a < nA)%nat -> (b < nB)%nat -> (1 < N)%nat ->
  (forall l, in_element n h a b (fun x y => hU arg l x y = 0 /\ hV arg l x y = 0 /\ hW arg l x y = 0 /\
     PhysModel.pressure_from_rhotheta c (hP arg l x y) = al + be * Zn G l x y /\
     forall m, (l < m < N)%nat -> Zn G m x y <> Zn G l x y)) ->
  (forall l, (S l < N)%nat -> in_element n h a b (fun x y => be = - (PhysModel.g c * ((hR arg l x y + hR arg (S l) x y) / 2)))) ->
  (forall k i j, (i < n)%nat -> (j < n)%nat -> let p := (h + z (a * n))%Z in let q := (h + z (b * n))%Z in
     dRa G k (p + z i)%Z (q + z j)%Z = ddx n (bD B) (gDeltaA (base2 G)) (Zn G k) p q i j /\
     dRb G k (p + z i)%Z (q + z j)%Z = ddy n (bD B) (gDeltaB (base2 G)) (Zn G k) p q i j) ->
  let s := tendencies c n B G N arg T h nA nB o in
  forall k, (k < N)%nat -> in_element n h a b (fun x y => hU s k x y = 0 /\ hV s k x y = 0 /\ hP s k x y = 0 /\ hR s k x y = 0 /\
    (k <> O -> hW s k x y = 0)).
Proof.
  intros c n B G N arg o T h nA nB a b al be HD Ha Hb HN H HB HT s k Hk i j Hi Hj. unfold s.
  destruct (C96_rest c n B G N arg arg arg 1 h nA nB a b k al be HD Ha Hb Hk HN H (HT k) i j Hi Hj) as (EU & EV & EP & ER & EW).
  rewrite at_hu in EU by assumption. rewrite at_hv in EV by assumption. rewrite at_hp in EP by assumption. rewrite at_hr in ER by assumption. rewrite at_hw in EW by assumption.
  rewrite at_tu, at_tv, at_tp, at_tr by assumption.
  set (p := (h + z (a * n))%Z) in *. set (q := (h + z (b * n))%Z) in *.
  assert (SD : forall l, sdot G arg l (p + z i)%Z (q + z j)%Z = 0).
  { intro l. unfold sdot, mean. destruct (H l i j Hi Hj) as (A1 & A2 & A3 & _). destruct (H (l - 1)%nat i j Hi Hj) as (B1 & B2 & _).
    fold p q in A1, A2, A3, B1, B2. rewrite A1, A2, A3, B1, B2. ring. }
  split; [lra|]. split; [lra|]. split; [|split].
  - unfold spl_p, dz_edge, s_theta, on_edges. rewrite !SD. replace (hdiv n B G (pres_a G arg) (pres_b G arg) k p q i j) with 0 by lra.
    destruct (inner_edge N (k + 1)), (inner_edge N k); ring.
  - unfold spl_r, dz_edge, s_mass, on_edges. rewrite !SD. replace (hdiv n B G (mass_a G arg) (mass_b G arg) k p q i j) with 0 by lra.
    destruct (inner_edge N (k + 1)), (inner_edge N k); ring.
  - intro K. rewrite inner_in in EW by lia. unfold p, q. rewrite at_tw by (assumption || lia). fold p q.
    unfold ten_w in EW. unfold spl_w. cbv zeta in *.
    set (rest := 1 / JE G k (p + z i)%Z (q + z j)%Z * _ ) in *.
    destruct k as [|k]; [contradiction|]. rewrite Nat.sub_succ, Nat.sub_0_r in *.
    destruct (H k i j Hi Hj) as (_ & _ & _ & P0 & NZ). destruct (H (S k) i j Hi Hj) as (_ & _ & _ & P1 & _). fold p q in P0, P1, NZ.
    specialize (NZ (S k) ltac:(lia)). pose proof (HB k Hk i j Hi Hj) as Q. fold p q in Q.
    unfold xp. rewrite P0, P1. unfold mean. rewrite Nat.sub_succ, Nat.sub_0_r.
    replace (1 / (Zn G (S k) (p + z i)%Z (q + z j)%Z - Zn G k (p + z i)%Z (q + z j)%Z) *
      (al + be * Zn G (S k) (p + z i)%Z (q + z j)%Z - (al + be * Zn G k (p + z i)%Z (q + z j)%Z))) with be by (field; lra).
    match type of EW with _ + 1 * - (rest + ?t) = _ => assert (EW' : rest + t = 0) by lra; set (u := t) in * end.
    rewrite Q. lra.
Qed.
Print Assumptions C119_rest.

(** the unit of time: momenta and densities scale as they should *)
Theorem C119_units : forall l c d n B G N arg o o' T h nA nB a b k, faster_air l c d ->
  (a < nA)%nat -> (b < nB)%nat -> (k < N)%nat ->
  let s := tendencies c n B G N arg T h nA nB o in
  let s' := tendencies d n B (faster_earth l G) N (faster l arg) T h nA nB o' in
  in_element n h a b (fun x y => hU s' k x y = l * l * hU s k x y /\ hV s' k x y = l * l * hV s k x y /\
    hP s' k x y = l * hP s k x y /\ hR s' k x y = l * hR s k x y).
Proof.
  intros l c d n B G N arg o o' T h nA nB a b k Air Ha Hb Hk s s' i j Hi Hj. unfold s, s'.
  rewrite !at_tu, !at_tv, !at_tp, !at_tr by assumption.
  rewrite (sc_ten_u l c d), (sc_ten_v l c d) by exact Air. unfold spl_p, spl_r.
  rewrite (sc_hdiv l n B G l _ _ _ _ k _ _ i j (sc_mass_a l G arg) (sc_mass_b l G arg)).
  rewrite (sc_hdiv l n B G l _ _ _ _ k _ _ i j (sc_pres_a l G arg) (sc_pres_b l G arg)).
  split; [reflexivity|]. split; [reflexivity|].
  unfold dz_edge, s_mass, s_theta, on_edges. rewrite !(sc_sdot l G arg). cbn [Zi faster_earth].
  change (theta_e N (faster l arg) T) with (theta_e N arg T).
  destruct (inner_edge N (k + 1)), (inner_edge N k); split; ring.
Qed.
Print Assumptions C119_units.
(** rho w does not: as in HighSpeedDynamics its vertical transport is the difference of
    a mass flux *)
Theorem C119_vertical : forall l c d n B G N arg o o' T h nA nB a b k, faster_air l c d -> PhysModel.g d = l * l * PhysModel.g c ->
  (a < nA)%nat -> (b < nB)%nat -> (0 < k < N)%nat ->
  let s := tendencies c n B G N arg T h nA nB o in
  let s' := tendencies d n B (faster_earth l G) N (faster l arg) T h nA nB o' in
  in_element n h a b (fun x y => hW s' k x y = l * l * hW s k x y +
    l * (l - 1) * ((sdot_w G arg k x y - sdot_w G arg (k - 1)%nat x y) / (Zn G k x y - Zn G (k - 1)%nat x y))).
Proof.
  intros l c d n B G N arg o o' T h nA nB a b k Air Grav Ha Hb Hk s s' i j Hi Hj. unfold s, s'.
  rewrite !at_tw by (assumption || lia). unfold spl_w. cbv zeta.
  rewrite (sc_vflux_a l G arg), (sc_vflux_b l G arg), (sc_sdot_w l G arg), v_alpha_scal, v_beta_scal, (sc_xp l c d arg Air), Grav.
  change (v_alpha n B (base2 (faster_earth l G))) with (v_alpha n B (base2 G)).
  change (v_beta n B (base2 (faster_earth l G))) with (v_beta n B (base2 G)).
  unfold mean. cbn [JE Zn hR faster faster_earth]. unfold Rdiv. ring.
Qed.
Print Assumptions C119_vertical.
Theorem C119_vertical_refuted : forall l c d n B G N arg o o' T h nA nB a b k i j, faster_air l c d -> PhysModel.g d = l * l * PhysModel.g c ->
  l <> 0 -> l <> 1 -> (a < nA)%nat -> (b < nB)%nat -> (0 < k < N)%nat -> (i < n)%nat -> (j < n)%nat ->
  let s := tendencies c n B G N arg T h nA nB o in
  let s' := tendencies d n B (faster_earth l G) N (faster l arg) T h nA nB o' in
  let x := (h + z (a * n) + z i)%Z in let y := (h + z (b * n) + z j)%Z in
  hU arg k x y = 0 -> hV arg k x y = 0 -> hU arg (k - 1)%nat x y = 0 -> hV arg (k - 1)%nat x y = 0 ->
  Zn G k x y <> Zn G (k - 1)%nat x y -> hW arg (k + 1)%nat x y <> hW arg (k - 1)%nat x y ->
  hW s' k x y <> l * l * hW s k x y.
Proof.
  intros l c d n B G N arg o o' T h nA nB a b k i j Air Grav L L1 Ha Hb Hk Hi Hj s s' x y U0 V0 U1 V1 HZ HW E.
  assert (P : hW s' k x y = l * l * hW s k x y +
    l * (l - 1) * ((sdot_w G arg k x y - sdot_w G arg (k - 1)%nat x y) / (Zn G k x y - Zn G (k - 1)%nat x y)))
    by exact (C119_vertical l c d n B G N arg o o' T h nA nB a b k Air Grav Ha Hb Hk i j Hi Hj).
  rewrite E in P. unfold sdot_w in P. rewrite U0, V0, U1, V1 in P.
  replace (k - 1 + 1)%nat with k in P by lia.
  assert (Q : l * (l - 1) * ((1 / 2 * (hW arg (k + 1)%nat x y - hW arg (k - 1)%nat x y)) / (Zn G k x y - Zn G (k - 1)%nat x y)) = 0).
  { rewrite <- (Rplus_0_r (l * l * hW s k x y)) in P at 1. apply Rplus_eq_reg_l in P. symmetry.
    refine (eq_trans P _). unfold Rdiv. ring. }
  apply Rmult_integral in Q as [Q|Q]; [apply Rmult_integral in Q as [Q|Q]; lra|].
  unfold Rdiv in Q. apply Rmult_integral in Q as [Q|Q]; [lra|]. revert Q. apply Rinv_neq_0_compat. lra.
Qed.
Print Assumptions C119_vertical_refuted.
(** the slope of the coordinate surfaces times the momentum of the two adjacent levels *)
Definition along (G : hgeom) (s : hstate) (x y : Z) (k : nat) : R :=
  eRa G k x y * ((hU s (k - 1)%nat x y + hU s k x y) / 2) + eRb G k x y * ((hV s (k - 1)%nat x y + hV s k x y) / 2).
(** continuity: rho and rho theta change by the divergence of the mass flux, across the
    coordinate surfaces too *)
Theorem C119_continuity : forall c n B G N arg o T h nA nB a b k i j, (a < nA)%nat -> (b < nB)%nat -> (k < N)%nat -> (i < n)%nat -> (j < n)%nat ->
  let t := tendencies c n B G N arg T h nA nB o in
  let p := (h + z (a * n))%Z in let q := (h + z (b * n))%Z in let x := (p + z i)%Z in let y := (q + z j)%Z in
  let m := crossing N (fun k => hW arg k x y) (along G arg x y) in
  let th k := ((hP arg (k - 1)%nat x y + hP arg k x y) / 2) / ((hR arg (k - 1)%nat x y + hR arg k x y) / 2) in
  let div := weak_div n (bS B) (gDeltaA (base2 G)) (gDeltaB (base2 G)) (J3 G k) in
  hR t k x y = - div (fun x y => J3 G k x y * hU arg k x y) (fun x y => J3 G k x y * hV arg k x y) p q i j - (m (S k) - m k) / (Zi G (S k) x y - Zi G k x y) /\
  hP t k x y = - div (fun x y => J3 G k x y * hU arg k x y * (hP arg k x y / hR arg k x y)) (fun x y => J3 G k x y * hV arg k x y * (hP arg k x y / hR arg k x y)) p q i j
    - (th (S k) * m (S k) - th k * m k) / (Zi G (S k) x y - Zi G k x y).
Proof.
  intros c n B G N arg o T h nA nB a b k i j Ha Hb Hk Hi Hj t p q x y m th div.
  assert (M : forall l, (l <= N)%nat -> s_mass G N arg l x y = m l).
  { intros l Hl. unfold s_mass, on_edges, m, crossing.
    destruct (Nat.eqb_spec l 0); [rewrite inner_out by lia; reflexivity|]. destruct (Nat.eqb_spec l N); [rewrite inner_out by lia; reflexivity|].
    rewrite inner_in by lia. unfold sdot, mean, along. field. }
  assert (P : forall l, (l <= N)%nat -> s_theta G N arg T l x y = th l * m l).
  { intros l Hl. rewrite <- M by exact Hl. unfold s_theta, s_mass, on_edges, theta_e. destruct (inner_edge N l); [|ring].
    unfold th, inv_re, mean, Rdiv. rewrite !Rmult_1_l. rewrite (Rmult_comm (/ 2) (hR arg (l - 1)%nat x y + hR arg l x y)). ring. }
  unfold t, x, y, p, q. rewrite at_tr, at_tp by assumption. unfold spl_r, spl_p, dz_edge, hdiv. fold p q. fold x y.
  rewrite !Nat.add_1_r, !M, !P by lia. rewrite !v_alpha_sum, !v_beta_sum. unfold div, weak_div, pres_a, pres_b, mass_a, mass_b. fold x y.
  split; [unfold Rdiv; ring|].
  rewrite (nsum_ext n (fun s => J3 G k (p + z s)%Z y * hU arg k (p + z s)%Z y * hP arg k (p + z s)%Z y * (1 / hR arg k (p + z s)%Z y) * bS B i s)
    (fun s => J3 G k (p + z s)%Z y * hU arg k (p + z s)%Z y * (hP arg k (p + z s)%Z y / hR arg k (p + z s)%Z y) * bS B i s)) by (intros; unfold Rdiv; ring).
  rewrite (nsum_ext n (fun s => J3 G k x (q + z s)%Z * hV arg k x (q + z s)%Z * hP arg k x (q + z s)%Z * (1 / hR arg k x (q + z s)%Z) * bS B j s)
    (fun s => J3 G k x (q + z s)%Z * hV arg k x (q + z s)%Z * (hP arg k x (q + z s)%Z / hR arg k x (q + z s)%Z) * bS B j s)) by (intros; unfold Rdiv; ring).
  unfold Rdiv; ring.
Qed.
Print Assumptions C119_continuity.
(** without wind rho w is driven by the pressure gradient and the weight *)
Theorem C119_weight : forall c n B G N arg o T h nA nB a b k, (a < nA)%nat -> (b < nB)%nat -> (S k < N)%nat ->
  (forall l, in_element n h a b (fun x y => hU arg l x y = 0 /\ hV arg l x y = 0 /\ hW arg l x y = 0)) ->
  in_element n h a b (fun x y => hW (tendencies c n B G N arg T h nA nB o) (S k) x y =
    - (PhysModel.pressure_from_rhotheta c (hP arg (S k) x y) - PhysModel.pressure_from_rhotheta c (hP arg k x y)) / (Zn G (S k) x y - Zn G k x y)
    - PhysModel.g c * ((hR arg k x y + hR arg (S k) x y) / 2)).
Proof.
  intros c n B G N arg o T h nA nB a b k Ha Hb Hk H i j Hi Hj. rewrite at_tw by (assumption || lia).
  set (p := (h + z (a * n))%Z) in *. set (q := (h + z (b * n))%Z) in *.
  unfold spl_w. cbv zeta. rewrite Nat.sub_succ, Nat.sub_0_r.
  rewrite (v_alpha_ext n B (base2 G) p q (vflux_a G arg (S k)) (fun x y => 0 * 0) i j Hj).
  2:{ intros i' j' Hi' Hj'. unfold vflux_a. destruct (H (S k) i' j' Hi' Hj') as (_ & _ & E). fold p q in E. rewrite E. ring. }
  rewrite (v_beta_ext n B (base2 G) p q (vflux_b G arg (S k)) (fun x y => 0 * 0) i j Hi).
  2:{ intros i' j' Hi' Hj'. unfold vflux_b. destruct (H (S k) i' j' Hi' Hj') as (_ & _ & E). fold p q in E. rewrite E. ring. }
  rewrite (v_alpha_scal n B (base2 G) p q 0 (fun _ _ => 0)), (v_beta_scal n B (base2 G) p q 0 (fun _ _ => 0)).
  assert (S0 : forall l, sdot_w G arg l (p + z i)%Z (q + z j)%Z = 0).
  { intro l. unfold sdot_w. destruct (H l i j Hi Hj) as (A1 & A2 & A3). destruct (H (l + 1)%nat i j Hi Hj) as (_ & _ & A4). fold p q in A1, A2, A3, A4.
    rewrite A1, A2, A3, A4. ring. }
  rewrite !S0. unfold xp, mean. rewrite Nat.sub_succ, Nat.sub_0_r. unfold Rdiv. ring.
Qed.
Print Assumptions C119_weight.

(** ** C120: one acoustic step in a column *)
(** the entry of m_dA that no loop fills *)
Definition clean (N : nat) (oldA : R) : Prop := N <> 1%nat -> oldA = 0.
Section Column.
Context (grav : R) (n : nat) (B : basis) (G : hgeom) (N : nat) (init : hstate) (th s : field3) (ten : hstate).
Context (bs bd dt : R) (h : Z) (nA nB : nat) (a0 a1 o : inst) (X : field3) (oldA : Z -> Z -> R).
Context (a b i j : nat) (Ha : (a < nA)%nat) (Hb : (b < nB)%nat) (Hi : (i < n)%nat) (Hj : (j < n)%nat).
Local Notation p := (h + z (a * n))%Z.
Local Notation q := (h + z (b * n))%Z.
Local Notation x := (p + z i)%Z.
Local Notation y := (q + z j)%Z.
Local Notation a2 := (acoustic_loop n B G N init th s ten bs bd dt h nA nB a0 a1 o X).
Local Notation nm := (loop_nm n B G N s ten bs bd dt h nA nB a0 a1 o).
Local Notation np := (loop_np n B G N init th s ten bs bd dt h nA nB a0 a1 o).
Local Notation div := (fun k => weak_div n (bS B) (gDeltaA (base2 G)) (gDeltaB (base2 G)) (J3 G k)).
(** the divergence of the new horizontal momentum and the tendencies: what drives rho
    and rho theta from outside the column *)
Definition drive_r (k : nat) : R := hR ten k x y -
  div k (fun x y => J3 G k x y * hU (st a2) k x y) (fun x y => J3 G k x y * hV (st a2) k x y) p q i j.
Definition drive_x (k : nat) : R := hP ten k x y -
  div k (fun x y => J3 G k x y * hU (st a2) k x y * (hP init k x y / hR init k x y))
        (fun x y => J3 G k x y * hV (st a2) k x y * (hP init k x y / hR init k x y)) p q i j.
Lemma a2_u : hU (st a2) = loop_U n B G N s ten bd dt h nA nB a0 a1 o.
Proof. reflexivity. Qed.
Lemma a2_v : hV (st a2) = loop_V n B G N s ten bd dt h nA nB a0 a1 o.
Proof. reflexivity. Qed.
Lemma a2_r k : (k < N)%nat -> hR (st a2) k x y = hR (st a1) k x y + nm k x y + dt * (- (1 / 2) * (1 + bs) * (iz G k x y * (X (k + 1)%nat x y - X k x y))).
Proof. intro Hk. exact (lvl_there n N h nA nB (fun k x y => hR (st a1) k x y + nm k x y + dt * (- (1 / 2) * (1 + bs) * (iz G k x y * (X (k + 1)%nat x y - X k x y)))) (hR (st o)) a b k i j Ha Hb Hk Hi Hj). Qed.
Lemma a2_p k : (k < N)%nat -> hP (st a2) k x y = hP (st a1) k x y + np k x y + dt * (- (1 / 2) * (1 + bs) * (iz G k x y * (X (k + 1)%nat x y * th (k + 1)%nat x y - X k x y * th k x y))).
Proof. intro Hk. exact (lvl_there n N h nA nB (fun k x y => hP (st a1) k x y + np k x y + dt * (- (1 / 2) * (1 + bs) * (iz G k x y * (X (k + 1)%nat x y * th (k + 1)%nat x y - X k x y * th k x y)))) (hP (st o)) a b k i j Ha Hb Hk Hi Hj). Qed.
Lemma a2_w k : (k < N)%nat -> hW (st a2) k x y = if Nat.eqb k 0 then 0 else X k x y.
Proof. intro Hk. exact (lvl_there n N h nA nB (fun k x y => if Nat.eqb k 0 then 0 else X k x y) (hW (st o)) a b k i j Ha Hb Hk Hi Hj). Qed.
Lemma drive_div (fa fb : field3) k : adiv n B G fa fb k p q i j = div k (fa k) (fb k) p q i j.
Proof. unfold adiv, weak_div. cbv zeta. rewrite v_alpha_sum, v_beta_sum. unfold Rdiv. ring. Qed.
Lemma div_ext k fa fb ga gb : (forall x y, fa x y = ga x y) -> (forall x y, fb x y = gb x y) -> div k fa fb p q i j = div k ga gb p q i j.
Proof. intros E E'. unfold weak_div. rewrite (nsum_ext n _ (fun s => ga (p + z s)%Z (q + z j)%Z * bS B i s)) by (intros; rewrite E; reflexivity).
  rewrite (nsum_ext n (fun s => fb _ _ * _) (fun s => gb (p + z i)%Z (q + z s)%Z * bS B j s)) by (intros; rewrite E'; reflexivity). reflexivity. Qed.
Definition z1' k := crossing N (fun k => nW a1 k x y) (along G (st a1) x y) k.
Definition z2' k := crossing N (fun k => 0) (along G (st a1) x y) k.
Lemma z1_at k : (k <= N)%nat -> z1 G N a1 k x y = z1' k.
Proof. intro Hk. unfold z1, z1', on_edges, crossing. destruct (Nat.eqb_spec k 0); [rewrite inner_out by lia; reflexivity|]. destruct (Nat.eqb_spec k N); [rewrite inner_out by lia; reflexivity|].
  rewrite inner_in by lia. unfold along. field. Qed.
Lemma z2_at k : (k <= N)%nat -> z2 G N a1 k x y = z2' k.
Proof. intro Hk. unfold z2, z2', on_edges, crossing. destruct (Nat.eqb_spec k 0); [rewrite inner_out by lia; reflexivity|]. destruct (Nat.eqb_spec k N); [rewrite inner_out by lia; reflexivity|].
  rewrite inner_in by lia. unfold along. field. Qed.
Lemma nm_at k : (k < N)%nat -> nm k x y = dt * (drive_r k - ((1 - bs) / 2 * (z1' (S k) - z1' k) + (1 + bs) / 2 * (z2' (S k) - z2' k)) / (Zi G (S k) x y - Zi G k x y)).
Proof.
  intro Hk. unfold loop_nm. rewrite write_there by assumption. unfold loop_nodal. cbv zeta. unfold dz_edge.
  rewrite !Nat.add_1_r, !z1_at, !z2_at by lia. rewrite drive_div. unfold drive_r. rewrite a2_u, a2_v. unfold am_a, am_b. unfold Rdiv. ring.
Qed.
Lemma np_at k : (k < N)%nat -> np k x y = dt * (drive_x k - ((1 - bs) / 2 * (z1' (S k) * th (S k) x y - z1' k * th k x y) + (1 + bs) / 2 * (z2' (S k) * th (S k) x y - z2' k * th k x y)) / (Zi G (S k) x y - Zi G k x y)).
Proof.
  intro Hk. unfold loop_np. rewrite write_there by assumption. unfold loop_nodal. cbv zeta. unfold dz_edge, timesth.
  rewrite !Nat.add_1_r, !z1_at, !z2_at by lia. rewrite drive_div. unfold drive_x. rewrite a2_u, a2_v.
  rewrite (div_ext k (fun x y => J3 G k x y * loop_U n B G N s ten bd dt h nA nB a0 a1 o k x y * (hP init k x y / hR init k x y)) _
    (ax_a G init (loop_U n B G N s ten bd dt h nA nB a0 a1 o) k) (ax_b G init (loop_V n B G N s ten bd dt h nA nB a0 a1 o) k)).
  - unfold Rdiv. ring.
  - intros. unfold ax_a, Rdiv. ring.
  - intros. unfold ax_b, Rdiv. ring.
Qed.
End Column.

(** depths that are not zero *)
Definition deep (N : nat) (G : hgeom) (x y : Z) : Prop :=
  (forall k, (k < N)%nat -> Zi G (S k) x y - Zi G k x y <> 0) /\ (forall k, (S k < N)%nat -> Zn G (S k) x y - Zn G k x y <> 0).
(** What the step solves: with [read] for the former rho w, the off-centred equations,
    but for two terms.  The pressure change of the part that does not depend on the new
    rho w is taken as np and not as s np, and the air that follows the slopes is that of
    the former step at both ends. *)
Section Meets.
Context (grav : R) (n : nat) (B : basis) (G : hgeom) (N : nat) (init : hstate) (th s : field3) (ten : hstate).
Context (bs bd dt : R) (h : Z) (nA nB : nat) (a0 a1 o : inst) (X : field3) (a b i j : nat).
Definition node_x : Z := (h + z (a * n) + z i)%Z.
Definition node_y : Z := (h + z (b * n) + z j)%Z.
Definition after : hstate := st (acoustic_loop n B G N init th s ten bs bd dt h nA nB a0 a1 o X).
Definition meets (read : nat -> R) : Prop :=
  let at_node (f : field3) := fun k => f k node_x node_y in
  offcentred N (at_node (Zn G)) (at_node (Zi G)) grav dt bs (at_node s) (at_node th)
    (at_node (hR (st a1))) (at_node (hP (st a1))) read (along G (st a1) node_x node_y)
    (at_node (hR after)) (at_node (hP after)) (at_node X) (along G after node_x node_y)
    (drive_r n B G N init th s ten bs bd dt h nA nB a0 a1 o X a b i j)
    (drive_x n B G N init th s ten bs bd dt h nA nB a0 a1 o X a b i j) (at_node (hW ten)).
(** the pressure that the code takes amiss *)
Definition amiss (k : nat) : R :=
  (s k node_x node_y - 1) * loop_np n B G N init th s ten bs bd dt h nA nB a0 a1 o k node_x node_y.
End Meets.

Section Rows.
Context (grav : R) (n : nat) (B : basis) (G : hgeom) (N : nat) (init : hstate) (th s : field3) (ten : hstate).
Context (bs bd dt : R) (h : Z) (nA nB : nat) (a0 a1 o : inst) (X : field3) (oldA : Z -> Z -> R).
Context (a b i j : nat) (Ha : (a < nA)%nat) (Hb : (b < nB)%nat) (Hi : (i < n)%nat) (Hj : (j < n)%nat).
Context (HN : (0 < N)%nat) (Hdt : dt <> 0).
Local Notation x := (node_x n h a i).
Local Notation y := (node_y n h b j).
Local Notation aft := (after n B G N init th s ten bs bd dt h nA nB a0 a1 o X).
Local Notation am := (amiss n B G N init th s ten bs bd dt h nA nB a0 a1 o a b i j).
Context (A : clean N (oldA x y)) (D : deep N G x y).
(** the balance of rho w that the step solves *)
Definition w_row (k : nat) : Prop := (X (S k) x y - nW a1 (S k) x y) / dt = hW ten (S k) x y -
  (s (S k) x y * between bs (hP (st a1) (S k) x y) (hP aft (S k) x y) - s k x y * between bs (hP (st a1) k x y) (hP aft k x y)) / (Zn G (S k) x y - Zn G k x y)
  - grav * ((between bs (hR (st a1) k x y) (hR aft k x y) + between bs (hR (st a1) (S k) x y) (hR aft (S k) x y)) / 2)
  + (1 + bs) / 2 * ((am (S k) - am k) / (Zn G (S k) x y - Zn G k x y)).
Lemma solves_w : loop_solves grav n B G N init th s ten bs bd dt h nA nB oldA a0 a1 o X x y <->
  X O x y = 0 /\ X N x y = 0 /\ (forall k, (S k < N)%nat -> w_row k).
Proof.
  unfold loop_solves. rewrite spl_rows by exact HN.
  assert (T : (if Nat.eqb N 1 then 0 else oldA x y * X (N - 1)%nat x y) = 0).
  { destruct (Nat.eqb_spec N 1); [reflexivity|]. rewrite A by assumption. lra. }
  rewrite T, Rplus_0_l.
  assert (Row : forall k, (S k < N)%nat ->
    (tri_a grav G th s bs dt (S k) x y * X k x y + tri_b grav G th s bs dt (S k) x y * X (S k) x y + tri_c grav G th s bs dt (S k) x y * X (S (S k)) x y =
     loop_d grav G s ten bs dt a1 (loop_nm n B G N s ten bs bd dt h nA nB a0 a1 o) (loop_np n B G N init th s ten bs bd dt h nA nB a0 a1 o) (S k) x y <-> w_row k)).
  { intros k Hk. destruct D as [_ Ln].
    pose proof (a2_r n B G N init th s ten bs bd dt h nA nB a0 a1 o X a b i j Ha Hb Hi Hj) as LR.
    pose proof (a2_p n B G N init th s ten bs bd dt h nA nB a0 a1 o X a b i j Ha Hb Hi Hj) as LP.
    pose proof (spl_row grav G th s bs dt (nW a1 (S k) x y) (hW ten (S k) x y) (fun l => hR (st a1) l x y) (fun l => hP (st a1) l x y)
      (fun l => loop_nm n B G N s ten bs bd dt h nA nB a0 a1 o l x y) (fun l => loop_np n B G N init th s ten bs bd dt h nA nB a0 a1 o l x y)
      (fun l => hR aft l x y) (fun l => hP aft l x y) (fun l => X l x y) k x y Hdt (Ln k Hk)) as Q. cbv beta in Q.
    assert (Q1 := Q ltac:(intros l [->| ->]; apply LR; lia) ltac:(intros l [->| ->]; apply LP; lia)). clear Q.
    unfold w_row, amiss. rewrite <- Q1. unfold loop_d, upd_part. rewrite !Nat.sub_succ, !Nat.sub_0_r. reflexivity. }
  split; intros (H0 & H1 & H); repeat split; try assumption.
  - intros k Hk. apply Row; [exact Hk|]. specialize (H (S k) ltac:(lia)). rewrite Nat.sub_succ, Nat.sub_0_r, Nat.add_1_r in H. exact H.
  - intros [|k] Hk; [lia|]. rewrite Nat.sub_succ, Nat.sub_0_r, Nat.add_1_r. apply Row; [lia|]. apply H. lia.
Qed.
(** rho and rho theta follow the new rho w, whatever it is; but the air that follows the
    slopes is the former one at both ends *)
Lemma mass_w k : (k < N)%nat -> X O x y = 0 -> X N x y = 0 -> 
  let m k := between bs (crossing N (fun k => nW a1 k x y) (along G (st a1) x y) k) (crossing N (fun k => X k x y) (along G (st a1) x y) k) in
  (hR aft k x y - hR (st a1) k x y) / dt = drive_r n B G N init th s ten bs bd dt h nA nB a0 a1 o X a b i j k - (m (S k) - m k) / (Zi G (S k) x y - Zi G k x y) /\
  (hP aft k x y - hP (st a1) k x y) / dt = drive_x n B G N init th s ten bs bd dt h nA nB a0 a1 o X a b i j k - (th (S k) x y * m (S k) - th k x y * m k) / (Zi G (S k) x y - Zi G k x y).
Proof.
  intros Hk X0 XN m. destruct D as [Lz _].
  pose proof (a2_r n B G N init th s ten bs bd dt h nA nB a0 a1 o X a b i j Ha Hb Hi Hj k Hk) as LR.
  pose proof (a2_p n B G N init th s ten bs bd dt h nA nB a0 a1 o X a b i j Ha Hb Hi Hj k Hk) as LP.
  pose proof (nm_at n B G N init th s ten bs bd dt h nA nB a0 a1 o X a b i j Ha Hb Hi Hj k Hk) as LM.
  pose proof (np_at n B G N init th s ten bs bd dt h nA nB a0 a1 o X a b i j Ha Hb Hi Hj k Hk) as LQ.
  fold (node_x n h a i) (node_y n h b j) in LR, LP, LM, LQ. unfold after. rewrite LR, LP, LM, LQ. clear LR LP LM LQ. rewrite !Nat.add_1_r.
  assert (E : forall l, (l <= N)%nat -> m l = (1 - bs) / 2 * z1' n G N h a1 a b i j l + (1 + bs) / 2 * (z2' n G N h a1 a b i j l + X l x y)).
  { intros l Hl. unfold m, between, z1', z2', crossing. fold (node_x n h a i) (node_y n h b j).
    destruct (Nat.eqb_spec l 0) as [->|]; [rewrite X0; ring|]. destruct (Nat.eqb_spec l N) as [->|]; [rewrite XN; ring|]. ring. }
  rewrite !E by lia. unfold iz. rewrite !Nat.add_1_r. specialize (Lz k Hk).
  split; field; (split; assumption).
Qed.
End Rows.

Theorem C120_column : forall grav n B G N init th s ten bs bd dt h nA nB a0 a1 o X oldA a b i j,
  (a < nA)%nat -> (b < nB)%nat -> (i < n)%nat -> (j < n)%nat -> (0 < N)%nat -> dt <> 0 ->
  let x := node_x n h a i in let y := node_y n h b j in
  let aft := after n B G N init th s ten bs bd dt h nA nB a0 a1 o X in
  clean N (oldA x y) -> deep N G x y ->
  (forall k, (0 < k < N)%nat -> along G aft x y k = along G (st a1) x y k) ->
  (forall k, (S k < N)%nat -> amiss n B G N init th s ten bs bd dt h nA nB a0 a1 o a b i j (S k) =
                              amiss n B G N init th s ten bs bd dt h nA nB a0 a1 o a b i j k) ->
  (loop_solves grav n B G N init th s ten bs bd dt h nA nB oldA a0 a1 o X x y <->
   meets grav n B G N init th s ten bs bd dt h nA nB a0 a1 o X a b i j (fun k => nW a1 k x y)) /\
  hW aft O x y = 0 /\ (forall k, (0 < k < N)%nat -> hW aft k x y = X k x y).
Proof.
  intros grav n B G N init th s ten bs bd dt h nA nB a0 a1 o X oldA a b i j Ha Hb Hi Hj HN Hdt x y aft A L HS HP.
  split.
  2:{ split; [|intros k Hk]; unfold aft, after, x, y, node_x, node_y; rewrite (a2_w n B G N init th s ten bs bd dt h nA nB a0 a1 o X a b i j) by (assumption || lia); [reflexivity|].
      destruct (Nat.eqb_spec k 0); [lia|reflexivity]. }
  unfold x, y. rewrite solves_w by assumption. fold x y.
  unfold meets, offcentred. cbv zeta. fold x y. fold aft.
  assert (C : forall k, crossing N (fun k => X k x y) (along G aft x y) k = crossing N (fun k => X k x y) (along G (st a1) x y) k \/ (N < k)%nat).
  { intro k. destruct (Nat.lt_ge_cases N k); [right; assumption|left]. unfold crossing. destruct (Nat.eqb_spec k 0); [reflexivity|]. destruct (Nat.eqb_spec k N); [reflexivity|].
    rewrite HS by lia. reflexivity. }
  assert (W : forall k, (S k < N)%nat -> w_row grav n B G N init th s ten bs bd dt h nA nB a0 a1 o X a b i j k <->
    (X (S k) x y - nW a1 (S k) x y) / dt = hW ten (S k) x y -
     (s (S k) x y * between bs (hP (st a1) (S k) x y) (hP aft (S k) x y) - s k x y * between bs (hP (st a1) k x y) (hP aft k x y)) / (Zn G (S k) x y - Zn G k x y)
     - grav * ((between bs (hR (st a1) k x y) (hR aft k x y) + between bs (hR (st a1) (S k) x y) (hR aft (S k) x y)) / 2)).
  { intros k Hk. unfold w_row. rewrite (HP k Hk). fold x y aft.
    match goal with |- _ = _ + ?t <-> _ => assert (T0 : t = 0) by (unfold Rdiv; ring); rewrite T0, Rplus_0_r end. reflexivity. }
  split.
  - intros (X0 & XN & H). repeat split; try assumption.
    + intros k Hk. pose proof (mass_w n B G N init th s ten bs bd dt h nA nB a0 a1 o X a b i j Ha Hb Hi Hj HN Hdt L k Hk X0 XN) as [E _]. cbv zeta in E.
      destruct (C k) as [->|]; [|lia]. destruct (C (S k)) as [->|]; [|lia]. exact E.
    + intros k Hk. pose proof (mass_w n B G N init th s ten bs bd dt h nA nB a0 a1 o X a b i j Ha Hb Hi Hj HN Hdt L k Hk X0 XN) as [_ E]. cbv zeta in E.
      destruct (C k) as [->|]; [|lia]. destruct (C (S k)) as [->|]; [|lia]. exact E.
    + intros k Hk. apply W; [exact Hk|]. apply H. exact Hk.
  - intros (X0 & XN & _ & _ & H). repeat split; try assumption. intros k Hk. apply W; [exact Hk|]. apply H. exact Hk.
Qed.
Print Assumptions C120_column.
