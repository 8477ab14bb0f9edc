(** * C116, C117, C118: states of the shallow-water tests *)
From Coq Require Import Reals Lra.
From Verif Require Import PhysModel DlimProofs GeomModel SwtModel SwtSpec SwtProofs SwtWaveProofs.
Local Open Scope R_scope.

Local Lemma zonal_unique a g f u v h lon lat A B : zonal_rate a g f u v h lon lat A -> zonal_rate a g f u v h lon lat B -> A = B.
Proof.
  intros (d1 & d2 & d3 & H1 & H2 & H3 & ->) (e1 & e2 & e3 & K1 & K2 & K3 & ->).
  rewrite (uniqueness_limite _ _ _ _ H1 K1), (uniqueness_limite _ _ _ _ H2 K2), (uniqueness_limite _ _ _ _ H3 K3). reflexivity.
Qed.
Local Lemma merid_unique a g f u v h lon lat A B : merid_rate a g f u v h lon lat A -> merid_rate a g f u v h lon lat B -> A = B.
Proof.
  intros (d1 & d2 & d3 & H1 & H2 & H3 & ->) (e1 & e2 & e3 & K1 & K2 & K3 & ->).
  rewrite (uniqueness_limite _ _ _ _ H1 K1), (uniqueness_limite _ _ _ _ H2 K2), (uniqueness_limite _ _ _ _ H3 K3). reflexivity.
Qed.

(** ** C116: the inclined flow *)
(** with the Coriolis parameter of the inclined axis it is steady for every inclination;
    poles excluded with the neighbourhood the code moves *)
Theorem C116_steady : forall c h0 u0 al lon lat, g c <> 0 -> earth_radius c <> 0 -> clear lat -> 0 < cos lat ->
  let u x y := hu (sw2_state c h0 u0 al x y) in let v x y := hv (sw2_state c h0 u0 al x y) in let h x y := hh (sw2_state c h0 u0 al x y) in
  let f := 2 * omega c * (sin lat * cos al - cos lon * cos lat * sin al) in
  zonal_rate (earth_radius c) (g c) f u v h lon lat 0 /\ merid_rate (earth_radius c) (g c) f u v h lon lat 0 /\ depth_rate (earth_radius c) u v h lon lat 0.
Proof.
  intros c h0 u0 al lon lat Hg Ha Hc Hp u v h f. destruct (sw2_rates c h0 u0 al lon lat Hg Ha Hc Hp f) as (A & B).
  assert (f - 2 * omega c * sw2_t al lon lat = 0) as E by (unfold f, sw2_t; ring). rewrite E in A, B.
  rewrite Rmult_0_l in A. rewrite Ropp_0, Rmult_0_l in B. split; [exact A|]. split; [exact B|]. apply sw2_depth; assumption.
Qed.
Print Assumptions C116_steady.
(** with the Coriolis parameter the grid stores, which does not know the inclination, the
    wind accelerates by the difference of the two parameters *)
Theorem C116_grid : forall c h0 u0 al lon lat, g c <> 0 -> earth_radius c <> 0 -> clear lat -> 0 < cos lat ->
  let u x y := hu (sw2_state c h0 u0 al x y) in let v x y := hv (sw2_state c h0 u0 al x y) in let h x y := hh (sw2_state c h0 u0 al x y) in
  let d := cs_coriolis (omega c) lat - 2 * omega c * (sin lat * cos al - cos lon * cos lat * sin al) in
  zonal_rate (earth_radius c) (g c) (cs_coriolis (omega c) lat) u v h lon lat (d * v lon lat) /\
  merid_rate (earth_radius c) (g c) (cs_coriolis (omega c) lat) u v h lon lat (- d * u lon lat) /\ depth_rate (earth_radius c) u v h lon lat 0.
Proof.
  intros c h0 u0 al lon lat Hg Ha Hc Hp u v h d. destruct (sw2_rates c h0 u0 al lon lat Hg Ha Hc Hp (cs_coriolis (omega c) lat)) as (A & B).
  assert (cs_coriolis (omega c) lat - 2 * omega c * sw2_t al lon lat = d) as E by (unfold d, sw2_t; ring). rewrite E in A, B.
  split; [exact A|]. split; [exact B|]. apply sw2_depth; assumption.
Qed.
Print Assumptions C116_grid.
Local Lemma clear_quarter : clear (PI / 4).
Proof.
  pose proof PI_RGT_0 as P. pose proof PI2_1 as Q. unfold clear. rewrite (Rabs_left (PI / 4 - PI / 2)), (Rabs_right (PI / 4 + PI / 2)) by lra. split; lra.
Qed.
(** refuted: steady in the model for every inclination.  It is steady exactly when there is
    no inclination, no rotation or no flow *)
Theorem C116_inclination_refuted : forall c h0 u0 al, g c <> 0 -> earth_radius c <> 0 ->
  let u x y := hu (sw2_state c h0 u0 al x y) in let v x y := hv (sw2_state c h0 u0 al x y) in let h x y := hh (sw2_state c h0 u0 al x y) in
  (forall lon lat, clear lat -> 0 < cos lat ->
     zonal_rate (earth_radius c) (g c) (cs_coriolis (omega c) lat) u v h lon lat 0 /\ merid_rate (earth_radius c) (g c) (cs_coriolis (omega c) lat) u v h lon lat 0)
  <-> (cos al = 1 \/ omega c = 0 \/ u0 = 0).
Proof.
  intros c h0 u0 al Hg Ha u v h. split.
  - intros H. pose proof clear_quarter as C. pose proof PI_RGT_0 as P.
    assert (0 < cos (PI / 4)) as K by (apply cos_gt_0; lra). assert (0 < sin (PI / 4)) as S by (apply sin_gt_0; lra).
    destruct (H (PI / 2) (PI / 4) C K) as (A & B). destruct (C116_grid c h0 u0 al (PI / 2) (PI / 4) Hg Ha C K) as (A' & B' & _).
    pose proof (zonal_unique _ _ _ _ _ _ _ _ _ _ A A') as EA. pose proof (merid_unique _ _ _ _ _ _ _ _ _ _ B B') as EB.
    destruct (sw2_fields c h0 u0 al (PI / 2) (PI / 4) (clear_id _ C) (Rgt_not_eq _ _ K)) as (Fu & Fv & _). cbv beta in EA, EB.
    rewrite Fv in EA. rewrite Fu in EB. unfold sw2_u, sw2_v, cs_coriolis in EA, EB. rewrite cos_PI2 in EA, EB. rewrite sin_PI2 in EA.
    set (s := sin (PI / 4)) in *. set (k := cos (PI / 4)) in *. set (x := omega c * u0 * (1 - cos al)).
    assert (x * sin al = 0) as X1.
    { apply (Rmult_eq_reg_l (2 * s)); [|lra]. rewrite Rmult_0_r. unfold x. rewrite <- Ropp_0. rewrite EA. ring. }
    assert (x * cos al = 0) as X2.
    { apply (Rmult_eq_reg_l (2 * s * k)); [|apply Rmult_integral_contrapositive_currified; lra]. rewrite Rmult_0_r. unfold x. rewrite <- Ropp_0. rewrite EB. ring. }
    assert (x = 0) as X.
    { pose proof (sin2_cos2 al) as Q. unfold Rsqr in Q. replace x with (x * sin al * sin al + x * cos al * cos al) by (transitivity (x * (sin al * sin al + cos al * cos al)); [ring|rewrite Q; ring]). rewrite X1, X2. ring. }
    unfold x in X. apply Rmult_integral in X. destruct X as [X|X]; [|left; lra]. apply Rmult_integral in X. tauto.
  - intros H lon lat C K. destruct (C116_grid c h0 u0 al lon lat Hg Ha C K) as (A & B & _). cbv zeta beta in A, B.
    set (d := cs_coriolis (omega c) lat - 2 * omega c * (sin lat * cos al - cos lon * cos lat * sin al)) in *.
    assert (d * hv (sw2_state c h0 u0 al lon lat) = 0 /\ - d * hu (sw2_state c h0 u0 al lon lat) = 0) as (E1 & E2).
    { destruct (sw2_fields c h0 u0 al lon lat (clear_id _ C) (Rgt_not_eq _ _ K)) as (Fu & Fv & _). rewrite Fu, Fv. unfold sw2_u, sw2_v.
      destruct H as [H|[H|H]].
      - assert (sin al = 0) as Z by (pose proof (sin2_cos2 al) as Q; unfold Rsqr in Q; rewrite H in Q; apply Rsqr_0_uniq; unfold Rsqr; lra).
        assert (d = 0) as D by (unfold d, cs_coriolis; rewrite H, Z; ring). rewrite D. split; ring.
      - assert (d = 0) as D by (unfold d, cs_coriolis; rewrite H; ring). rewrite D. split; ring.
      - rewrite H. split; ring. }
    cbv beta in A, B. rewrite E1 in A. rewrite E2 in B. split; assumption.
Qed.
Print Assumptions C116_inclination_refuted.
(** the mountain: between nothing and its height, the height in its centre *)
Theorem C116_mountain : forall z0 rc lonc latc lon lat, 0 < rc -> 0 <= z0 ->
  0 <= sw_mountain z0 rc lonc latc lon lat <= z0 /\ sw_mountain z0 rc lonc latc lonc latc = z0 /\
  (rc * rc <= (lon - lonc) * (lon - lonc) + (lat - latc) * (lat - latc) -> sw_mountain z0 rc lonc latc lon lat = 0).
Proof.
  intros z0 rc lonc latc lon lat Hr Hz. unfold sw_mountain. cbv zeta. set (d := (lon - lonc) * (lon - lonc) + (lat - latc) * (lat - latc)).
  assert (0 <= d) as Hd by (unfold d; pose proof (Rle_0_sqr (lon - lonc)); pose proof (Rle_0_sqr (lat - latc)); unfold Rsqr in *; lra).
  split; [|split].
  - assert (0 <= (if Rlt_dec (rc * rc) d then rc else sqrt d) / rc <= 1) as Q.
    { assert (0 <= (if Rlt_dec (rc * rc) d then rc else sqrt d) <= rc) as X.
      { destruct Rlt_dec as [L|L]; [lra|]. split; [apply sqrt_pos|]. rewrite <- (sqrt_square rc) by lra. apply sqrt_le_1; lra || nra. }
      split; [apply Rmult_le_pos; [lra|apply Rlt_le, Rinv_0_lt_compat, Hr]|]. apply (Rmult_le_reg_r rc); [exact Hr|]. unfold Rdiv. rewrite Rmult_assoc, Rinv_l by lra. lra. }
    set (x := (if Rlt_dec (rc * rc) d then rc else sqrt d) / rc) in *. nra.
  - replace ((lonc - lonc) * (lonc - lonc) + (latc - latc) * (latc - latc)) with 0 by ring.
    destruct Rlt_dec as [L|_]; [nra|]. rewrite sqrt_0. unfold Rdiv. ring.
  - intros H. destruct Rlt_dec as [L|L]; [field; lra|]. assert (d = rc * rc) as -> by lra. rewrite sqrt_square by lra. field. lra.
Qed.
Print Assumptions C116_mountain.
(** refuted: the mountain is a function of the point of the sphere.  Once round the
    sphere it is gone *)
Theorem C116_wrap_refuted : forall z0 rc lonc latc, 0 < rc <= 2 * PI -> 0 < z0 ->
  sw_mountain z0 rc lonc latc (lonc - 2 * PI) latc = 0 /\ sw_mountain z0 rc lonc latc lonc latc = z0.
Proof.
  intros z0 rc lonc latc Hr Hz. destruct (C116_mountain z0 rc lonc latc (lonc - 2 * PI) latc ltac:(lra) ltac:(lra)) as (_ & A & B).
  split; [|exact A]. apply B. replace ((lonc - 2 * PI - lonc) * (lonc - 2 * PI - lonc) + (latc - latc) * (latc - latc)) with (2 * PI * (2 * PI)) by ring. nra.
Qed.
Print Assumptions C116_wrap_refuted.

(** the Earth, the winds and the inclination of the test *)
Example C116_case : let c := construct (1 / 5) 0 1 in g c <> 0 /\ earth_radius c <> 0 /\ clear (PI / 4) /\ 0 < cos (PI / 4) /\
  sw_mountain 2000 (PI / 9) (3 * PI / 2) (PI / 6) 0 0 = 0.
Proof.
  intros c. pose proof PI_RGT_0. split; [cbn; lra|]. split; [cbn; lra|]. split; [exact clear_quarter|]. split; [apply cos_gt_0; lra|].
  apply C116_mountain; nra.
Qed.

(** ** C117: the Rossby-Haurwitz wave *)
Local Lemma cos_near lat : 0 < cos lat -> exists o, 0 < o /\ forall y, Rabs (y - lat) < o -> 0 < cos y.
Proof.
  intros P. destruct (continuity_cos lat (cos lat) P) as (r & Hr & K). exists r. split; [exact Hr|]. intros y Hy.
  destruct (Req_dec lat y) as [<-|Ne]; [exact P|].
  assert (R_dist (cos y) (cos lat) < cos lat) as L by (apply K; split; [split; [exact I|exact Ne]|exact Hy]).
  unfold R_dist in L. apply Rabs_def2 in L. lra.
Qed.
Local Lemma clear_open lat : clear lat -> exists o, 0 < o /\ forall y, Rabs (y - lat) < o -> clear y.
Proof.
  intros (H1 & H2). set (e := 1 / 1000000000000) in *.
  exists (Rmin (Rabs (lat - PI / 2) - e) (Rabs (lat + PI / 2) - e)). split; [apply Rmin_glb_lt; lra|].
  intros y Hy. pose proof (Rmin_l (Rabs (lat - PI / 2) - e) (Rabs (lat + PI / 2) - e)). pose proof (Rmin_r (Rabs (lat - PI / 2) - e) (Rabs (lat + PI / 2) - e)).
  split; fold e.
  - pose proof (Rabs_triang (lat - y) (y - PI / 2)) as T. replace (lat - y + (y - PI / 2)) with (lat - PI / 2) in T by ring. rewrite (Rabs_minus_sym lat y) in T. lra.
  - pose proof (Rabs_triang (lat - y) (y + PI / 2)) as T. replace (lat - y + (y + PI / 2)) with (lat + PI / 2) in T by ring. rewrite (Rabs_minus_sym lat y) in T. lra.
Qed.
Local Lemma near_lat' (f h : R -> R -> R) lon lat d : clear lat -> 0 < cos lat -> (forall y, nudge y = y -> 0 < cos y -> f lon y = h lon y) ->
  d_lat h lon lat d -> d_lat f lon lat d.
Proof.
  intros C P E D. destruct (clear_near lat C) as (r & Hr & N). destruct (cos_near lat P) as (r' & Hr' & N').
  apply (D_near (fun y => h lon y) (fun y => f lon y) lat d (Rmin r r')); [apply Rmin_glb_lt; assumption| |exact D].
  intros y Hy. pose proof (Rmin_l r r'). pose proof (Rmin_r r r'). symmetry. apply E; [apply N|apply N']; lra.
Qed.
(** the wind is nondivergent and the height keeps it so: the accelerations have no
    divergence either *)
Theorem C117_wave : forall c h0 r w k lon lat, g c <> 0 -> earth_radius c <> 0 -> r + 1 <> 0 -> r + 2 <> 0 -> clear lat -> 0 < cos lat ->
  let u x y := hu (haur_state c h0 r w k x y) in let v x y := hv (haur_state c h0 r w k x y) in let h x y := hh (haur_state c h0 r w k x y) in
  divergence (earth_radius c) u v lon lat 0 /\ divergence_rate (earth_radius c) (g c) (cs_coriolis (omega c)) u v h lon lat 0.
Proof.
  intros c h0 r w k lon lat Hg Ha H1 H2 C P u v h.
  assert (forall x y, nudge y = y -> 0 < cos y -> u x y = ha_u c r w k x y) as Eu by (intros; apply ha_fields; assumption).
  assert (forall x y, nudge y = y -> 0 < cos y -> v x y = ha_v c r k x y) as Ev by (intros; apply (ha_fields c h0 r w k); assumption).
  assert (forall x y, nudge y = y -> 0 < cos y -> h x y = ha_h c h0 r w k x y) as Eh by (intros; apply (ha_fields c h0 r w k); assumption).
  assert (forall x y, clear y -> 0 < cos y -> d_lon u x y (ha_ul c r k x y)) as D1.
  { intros x y Cy Py. apply (near_lon u (ha_u c r w k)); [intros; apply Eu; [apply clear_id|]; assumption|apply ha_ul_lim, Py]. }
  assert (forall x y, clear y -> 0 < cos y -> d_lat u x y (ha_uf c r w k x y)) as D2.
  { intros x y Cy Py. apply (near_lat' u (ha_u c r w k)); try assumption; [intros; apply Eu; assumption|apply ha_uf_lim; assumption]. }
  assert (forall x y, clear y -> 0 < cos y -> d_lon v x y (ha_vl c r k x y)) as D3.
  { intros x y Cy Py. apply (near_lon v (ha_v c r k)); [intros; apply Ev; [apply clear_id|]; assumption|apply ha_vl_lim, Py]. }
  assert (forall x y, clear y -> 0 < cos y -> d_lat v x y (ha_vf c r k x y)) as D4.
  { intros x y Cy Py. apply (near_lat' v (ha_v c r k)); try assumption; [intros; apply Ev; assumption|apply ha_vf_lim; assumption]. }
  assert (forall x y, clear y -> 0 < cos y -> d_lon h x y (ha_hl c r w k x y)) as D5.
  { intros x y Cy Py. apply (near_lon h (ha_h c h0 r w k)); [intros; apply Eh; [apply clear_id|]; assumption|apply ha_hl_lim; assumption]. }
  assert (forall x y, clear y -> 0 < cos y -> d_lat h x y (ha_hf c r w k x y)) as D6.
  { intros x y Cy Py. apply (near_lat' h (ha_h c h0 r w k)); try assumption; [intros; apply Eh; assumption|apply ha_hf_lim; assumption]. }
  split.
  - do 2 eexists. split; [apply D1; assumption|]. split; [exact (D_mult _ _ _ _ _ (D4 lon lat C P) (D_cos _ _ _ (D_id lat)))|].
    cbv beta. rewrite Ev by (try apply clear_id; assumption). unfold ha_ul, ha_vf, ha_v. field. split; [lra|exact Ha].
  - exists (ha_mu c r w k), (ha_mv c r w k). split.
    + destruct (clear_open lat C) as (o1 & O1 & N1). destruct (cos_near lat P) as (o2 & O2 & N2).
      exists (Rmin o1 o2). split; [apply Rmin_glb_lt; assumption|]. intros x y Hy. pose proof (Rmin_l o1 o2). pose proof (Rmin_r o1 o2).
      assert (clear y) as Cy by (apply N1; lra). assert (0 < cos y) as Py by (apply N2; lra).
      split.
      * do 3 eexists. split; [apply D1; assumption|]. split; [apply D2; assumption|]. split; [apply D5; assumption|].
        rewrite Eu, Ev by (try apply clear_id; assumption). unfold ha_mu, cs_coriolis, tan. reflexivity.
      * do 3 eexists. split; [apply D3; assumption|]. split; [apply D4; assumption|]. split; [apply D6; assumption|].
        rewrite Eu, Ev by (try apply clear_id; assumption). unfold ha_mv, cs_coriolis, tan. reflexivity.
    + destruct (ha_w_f c r w k Hg Ha H1 H2 lon lat P) as (D & HD & E).
      do 2 eexists. split; [apply (ha_mu_l c r w k Hg Ha H1 H2 lon lat P)|]. split.
      * apply (near_lat' (fun x y => ha_mv c r w k x y * cos y) (ha_w c r w k)); try assumption; [|exact HD].
        intros y _ Py. apply ha_w_mv; assumption.
      * rewrite E. field. split; lra.
Qed.
Print Assumptions C117_wave.
(** the case of the code: wave number four on the Earth *)
Example C117_case : let c := construct (1 / 5) 0 1 in
  divergence (earth_radius c) (fun x y => hu (haur_state c 8000 4 (7848 / 1000000000) (7848 / 1000000000) x y))
    (fun x y => hv (haur_state c 8000 4 (7848 / 1000000000) (7848 / 1000000000) x y)) 1 (PI / 4) 0.
Proof.
  intros c. apply (C117_wave c 8000 4 (7848 / 1000000000) (7848 / 1000000000) 1 (PI / 4)); try lra.
  - cbn. lra.
  - cbn. lra.
  - exact clear_quarter.
  - pose proof PI_RGT_0. apply cos_gt_0; lra.
Qed.

(** ** C118: the jet in rotated coordinates *)
Local Lemma triple (a b d a' b' d' : R) : a = a' -> b = b' -> d = d' -> (a, b, d) = (a', b', d').
Proof. intros -> -> ->. reflexivity. Qed.
(** away from the pole of the turned sphere CalculateRLLPrime gives the longitude and
    latitude of the point there *)
Theorem C118_turn : forall al lon lat, let lonp := fst (rotated al lon lat) in let latp := snd (rotated al lon lat) in
  cos latp <> 0 -> position lonp latp = turn al (position lon lat) /\
  (al <> 0 -> 0 <= lonp < 2 * PI /\ - (PI / 2) <= latp <= PI / 2).
Proof.
  intros al lon lat. unfold rotated. destruct (Req_EM_T al 0) as [->|Na]; cbn [fst snd].
  - intros _. split; [|lra]. unfold position, turn. rewrite cos_0, sin_0. apply triple; ring.
  - pose proof (sin2_cos2 al) as Qa. pose proof (sin2_cos2 lon) as Ql. pose proof (sin2_cos2 lat) as Qf. unfold Rsqr in Qa, Ql, Qf.
    set (Z := sin lat * cos al - cos lat * cos lon * sin al). set (X := cos al * cos lon * cos lat + sin al * sin lat). set (Y := sin lon * cos lat).
    assert (X * X + Y * Y + Z * Z = 1) as Q.
    { transitivity ((sin al * sin al + cos al * cos al) * (cos lon * cos lon * (cos lat * cos lat) + sin lat * sin lat) + sin lon * sin lon * (cos lat * cos lat)); [unfold X, Y, Z; ring|].
      rewrite Qa. transitivity ((sin lon * sin lon + cos lon * cos lon) * (cos lat * cos lat) + sin lat * sin lat); [ring|]. rewrite Ql. lra. }
    assert (-1 <= Z <= 1) as BZ by (split; nra).
    pose proof (asin_bound Z) as Bl. set (latp := asin Z) in *.
    assert (sin latp = Z) as Es by (apply sin_asin, BZ). assert (0 <= cos latp) as Pc by (apply cos_ge_0; lra).
    intros Nc. assert (0 < cos latp) as Pc' by lra. assert (cos latp * cos latp = X * X + Y * Y) as Ec by (pose proof (sin2_cos2 latp) as Qp; unfold Rsqr in Qp; rewrite Es in Qp; lra).
    set (y := Y / cos latp). set (x := X / cos latp). assert (x * x + y * y = 1) as Qy.
    { unfold x, y. replace (X / cos latp * (X / cos latp) + Y / cos latp * (Y / cos latp)) with ((X * X + Y * Y) / (cos latp * cos latp)) by (field; lra). rewrite Ec. field. rewrite <- Ec. nra. }
    assert (-1 <= y <= 1) as By by (split; nra). pose proof (asin_bound y) as Bm. set (m := asin y) in *.
    assert (sin m = y) as Em by (apply sin_asin, By). assert (0 <= cos m) as Pm by (apply cos_ge_0; lra).
    assert (cos m * cos m = x * x) as Cm by (pose proof (sin2_cos2 m) as Qm; unfold Rsqr in Qm; rewrite Em in Qm; lra).
    assert (X = x * cos latp) as EX by (unfold x; field; lra). assert (Y = y * cos latp) as EY by (unfold y; field; lra).
    pose proof PI_RGT_0 as PP.
    set (l := if Rlt_dec X 0 then PI - m else m).
    assert (sin l = y /\ cos l = x /\ - (PI / 2) <= l <= 3 * (PI / 2)) as (Sl & Cl & Bl').
    { unfold l. destruct (Rlt_dec X 0) as [L|L].
      - assert (x < 0) as Lx by nra. split; [rewrite sin_PI_x; exact Em|]. split; [|lra].
        replace (PI - m) with (- m + PI) by ring. rewrite neg_cos, cos_neg.
        assert ((cos m + x) * (cos m - x) = 0) as F by lra. apply Rmult_integral in F. lra.
      - assert (0 <= x) as Lx by nra. split; [exact Em|]. split; [|lra].
        assert ((cos m + x) * (cos m - x) = 0) as F by lra. apply Rmult_integral in F. lra. }
    clearbody l. set (l3 := if Rlt_dec l 0 then l + 2 * PI else l).
    assert (sin l3 = y /\ cos l3 = x /\ 0 <= l3 < 2 * PI) as (Sl3 & Cl3 & Bl3).
    { unfold l3. destruct (Rlt_dec l 0) as [L|L]; [|repeat split; (assumption || lra)].
      rewrite sin_plus, cos_plus, sin_2PI, cos_2PI, Sl, Cl. repeat split; lra. }
    split; [|intros _; split; [exact Bl3|lra]]. unfold position, turn. rewrite Sl3, Cl3, Es.
    apply triple; [rewrite Rmult_comm, <- EX; unfold X; ring|rewrite Rmult_comm, <- EY; unfold Y; ring|unfold Z; ring].
Qed.
Print Assumptions C118_turn.
Local Lemma untriple (a b d a' b' d' : R) : (a, b, d) = (a', b', d') -> a = a' /\ b = b' /\ d = d'.
Proof. intros E. injection E. auto. Qed.
(** away from the poles and from the meridians at ninety degrees the wind is the zonal jet
    of the turned sphere *)
Theorem C118_wind : forall al up lonp latp lon lat, position lonp latp = turn al (position lon lat) -> cos lat <> 0 -> 1 / 10000000000000 <= Rabs (cos lon) ->
  turn al (tangent_vector lon lat (fst (jet_wind al up lonp lon lat)) (snd (jet_wind al up lonp lon lat))) = tangent_vector lonp latp up 0.
Proof.
  intros al up lonp latp lon lat H Nf Nl. unfold jet_wind. destruct Rlt_dec as [L|_]; [lra|]. cbn [fst snd].
  assert (cos lon <> 0) as Nl' by (intros Z; rewrite Z, Rabs_R0 in Nl; lra).
  apply untriple in H. destruct H as (Hx & Hy & Hz). unfold turn, tangent_vector.
  pose proof (sin2_cos2 al) as Qa. pose proof (sin2_cos2 lon) as Ql. unfold Rsqr in Qa, Ql.
  assert (sin al * sin lonp * sin lat - cos lonp * (sin lon * cos lat) + cos al * sin lonp * (cos lat * cos lon) = 0) as K.
  { transitivity (sin lonp * (cos al * (cos lat * cos lon) + sin al * sin lat) - cos lonp * (cos lat * sin lon)); [ring|]. rewrite <- Hx, <- Hy. ring. }
  set (v := - up * sin al * sin lonp / cos lat). set (u := (v * sin lat * sin lon + up * cos lonp) / cos lon).
  assert (v * cos lat = - up * sin al * sin lonp) as Ev by (unfold v; field; exact Nf).
  assert (- u * sin lon - v * sin lat * cos lon = - up * cos al * sin lonp) as Ew.
  { apply (Rmult_eq_reg_r (cos lat * cos lon)); [|apply Rmult_integral_contrapositive_currified; assumption].
    transitivity (up * (sin al * sin lonp * sin lat * (sin lon * sin lon + cos lon * cos lon) - cos lonp * (sin lon * cos lat))).
    - unfold u, v. field. split; assumption.
    - rewrite Ql. transitivity (up * (sin al * sin lonp * sin lat - cos lonp * (sin lon * cos lat) + cos al * sin lonp * (cos lat * cos lon)) - up * (cos al * sin lonp * (cos lat * cos lon))); [ring|]. rewrite K. ring. }
  assert (u * cos lon - v * sin lat * sin lon = up * cos lonp) as Ey by (unfold u; field; exact Nl').
  rewrite Ew, Ev, Ey. apply triple; [|ring|ring].
  transitivity (- up * sin lonp * (sin al * sin al + cos al * cos al)); [ring|]. rewrite Qa. ring.
Qed.
Print Assumptions C118_wind.
(** refuted: also on the meridian at ninety degrees east.  There the eastward wind has the
    wrong sign *)
Theorem C118_meridian_refuted : forall al up lonp latp lat, position lonp latp = turn al (position (PI / 2) lat) -> cos lat <> 0 ->
  1 / 10000000000000 < Rabs al -> cos al <> 0 -> sin al <> 0 -> up <> 0 ->
  fst (jet_wind al up lonp (PI / 2) lat) = - (up * cos al * sin lonp) /\
  turn al (tangent_vector (PI / 2) lat (up * cos al * sin lonp) (snd (jet_wind al up lonp (PI / 2) lat))) = tangent_vector lonp latp up 0 /\
  fst (jet_wind al up lonp (PI / 2) lat) <> up * cos al * sin lonp.
Proof.
  intros al up lonp latp lat H Nf Na Nc Ns Nu. apply untriple in H. destruct H as (Hx & Hy & Hz). rewrite cos_PI2, sin_PI2 in *.
  pose proof (sin2_cos2 al) as Qa. unfold Rsqr in Qa.
  assert (sin lonp <> 0) as Np by (intros Z; rewrite Z in Hy; lra).
  unfold jet_wind. rewrite cos_PI2, Rabs_R0. destruct Rlt_dec as [_|L]; [|lra]. destruct Rlt_dec as [_|L]; [|lra]. destruct Rlt_dec as [L|_]; [lra|].
  cbn [fst snd]. assert (- up * sin al * sin lonp / cos lat * cos lat / tan al = - (up * cos al * sin lonp)) as E by (unfold tan; field; repeat split; assumption).
  split; [exact E|]. split.
  - unfold turn, tangent_vector. rewrite cos_PI2, sin_PI2.
    assert (cos latp * sin lonp = cos lat) as Hy' by lra.
    assert (sin al * sin lonp * sin lat = cos lonp * cos lat) as K.
    { transitivity (sin lonp * (cos al * (cos lat * 0) + sin al * sin lat)); [ring|]. rewrite <- Hx, <- Hy'. ring. }
    apply triple.
    + transitivity (- (up * sin lonp) * (sin al * sin al + cos al * cos al)); [field; exact Nf|]. rewrite Qa. ring.
    + transitivity (up * (sin al * sin lonp * sin lat) / cos lat); [field; exact Nf|]. rewrite K. field. exact Nf.
    + field. exact Nf.
  - rewrite E. intros F. assert (up * cos al * sin lonp = 0) as G by lra. apply Rmult_integral in G. destruct G as [G|G]; [|exact (Np G)]. apply Rmult_integral in G. destruct G; contradiction.
Qed.
Print Assumptions C118_meridian_refuted.
(** the profile: nothing outside its belt, at most its strength inside and that in the
    middle; on the two edges the code divides by zero *)
Theorem C118_profile : forall u0 th0 th1 latp, 0 < u0 -> th0 < th1 ->
  match jet u0 th0 th1 latp with
  | None => latp = th0 \/ latp = th1
  | Some x => 0 <= x <= u0 /\ (x = 0 <-> latp < th0 \/ th1 < latp) /\ (x = u0 <-> latp = (th0 + th1) / 2)
  end /\ jet u0 th0 th1 th0 = None /\ jet u0 th0 th1 th1 = None.
Proof.
  intros u0 th0 th1 latp Hu Ht. split.
  - unfold jet. destruct Rlt_dec as [L|L]; [repeat split; lra|]. destruct Rlt_dec as [K|K]; [repeat split; lra|].
    destruct Req_EM_T as [E|N0]; [tauto|]. destruct Req_EM_T as [E|N1]; [tauto|].
    set (d := th1 - th0). set (p := latp - th0). set (q := th1 - latp). assert (0 < p) as Pp by (unfold p; lra). assert (0 < q) as Pq by (unfold q; lra).
    assert (d = p + q) as Ed by (unfold d, p, q; ring). assert (0 < d) as Pd by lra.
    assert (0 < / (d * d)) as I1 by (apply Rinv_0_lt_compat; nra). assert (0 < / (p * q)) as I2 by (apply Rinv_0_lt_compat; nra).
    assert (u0 / exp (- (4) / d / d) * exp (1 / p / (latp - th1)) = u0 * exp (4 / (d * d) - 1 / (p * q))) as E.
    { replace (4 / (d * d) - 1 / (p * q)) with (- (- (4) / d / d) + 1 / p / (latp - th1)) by (unfold q; field; repeat split; lra).
      rewrite exp_plus, exp_Ropp. field. apply Rgt_not_eq, exp_pos. }
    rewrite E. set (z := 4 / (d * d) - 1 / (p * q)). pose proof (exp_pos z) as Pe.
    assert (z = - ((p - q) * (p - q)) * / (d * d) * / (p * q)) as Ez by (unfold z; rewrite Ed; field; repeat split; lra).
    assert (0 <= (p - q) * (p - q)) as Sq by apply Rle_0_sqr.
    assert (z <= 0) as Lz by (rewrite Ez; assert (0 < / (d * d) * / (p * q)) by nra; nra).
    assert (exp z <= 1) as Le by (rewrite <- exp_0; destruct Lz as [Lz| ->]; [apply Rlt_le, exp_increasing, Lz|lra]).
    split; [split; nra|]. split; [split; [nra|lra]|]. split.
    + intros F. assert (exp z = 1) as G by nra. rewrite <- exp_0 in G. apply exp_inv in G. rewrite Ez in G.
      assert (p - q = 0) as D.
      { apply Rmult_integral in G. destruct G as [G|G]; [|lra]. apply Rmult_integral in G. destruct G as [G|G]; [|lra]. apply Rsqr_0_uniq. unfold Rsqr. lra. }
      unfold p, q in D. lra.
    + intros F. assert (z = 0) as ->; [|rewrite exp_0; ring]. rewrite Ez. replace (p - q) with 0 by (unfold p, q; lra). ring.
  - split; unfold jet.
    + destruct Rlt_dec as [L|_]; [lra|]. destruct Rlt_dec as [L|_]; [lra|]. destruct Req_EM_T as [_|N]; [reflexivity|lra].
    + destruct Rlt_dec as [L|_]; [lra|]. destruct Rlt_dec as [L|_]; [lra|]. destruct Req_EM_T as [_|N]; [reflexivity|]. destruct Req_EM_T as [_|N']; [reflexivity|lra].
Qed.
Print Assumptions C118_profile.
(** the integral that gives the height is exact for cubic integrands on any number of
    intervals: it is a quadrature over the arc from the south pole *)
Theorem C118_integral : forall a0 a1 a2 a3 n latp, n <> 0%nat ->
  let H x := a0 * x + a1 / 2 * x ^ 2 + a2 / 3 * x ^ 3 + a3 / 4 * x ^ 4 in
  jet_integral (fun x => a0 + a1 * x + a2 * x ^ 2 + a3 * x ^ 3) n latp = H latp - H (- PI / 2).
Proof.
  intros a0 a1 a2 a3 n latp Nn H. set (G := fun x => a0 + a1 * x + a2 * x ^ 2 + a3 * x ^ 3).
  assert (INR n <> 0) as Nr by (apply not_0_INR, Nn).
  assert (sqrt (1 / 3) * sqrt (1 / 3) = 1 / 3) as Q by (apply sqrt_sqrt; lra).
  assert (forall a b, gauss_two G a b * (1 / 2 * (b - a)) = H b - H a) as One.
  { intros a b. unfold gauss_two, G, H. set (t := sqrt (1 / 3)) in *. cbv beta. clearbody t. assert (t ^ 2 = 1 / 3) as Q2 by (rewrite <- Q; ring). clear - Q2.
    transitivity ((2 * a0 + 2 * a1 * ((a + b) / 2) + a2 * (2 * ((a + b) / 2) ^ 2 + 2 * t ^ 2 * ((b - a) / 2) ^ 2) + a3 * (2 * ((a + b) / 2) ^ 3 + 6 * ((a + b) / 2) * t ^ 2 * ((b - a) / 2) ^ 2)) * ((b - a) / 2)); [field|].
    rewrite Q2. field. }
  set (h := (latp + 1 / 2 * PI) / INR n).
  assert (forall i, lat_x n latp (S i) - lat_x n latp i = h) as Step by (intros i; unfold lat_x; fold h; rewrite S_INR; ring).
  assert (forall i, gauss_sum G n latp i * (1 / 2 * h) = H (lat_x n latp i) - H (lat_x n latp 0)) as Sum.
  { induction i as [|i IH]; cbn [gauss_sum]; [ring|]. rewrite Rmult_plus_distr_r, IH, <- (Step i), One. ring. }
  unfold jet_integral. rewrite Step, Sum.
  replace (lat_x n latp n) with latp by (unfold lat_x; field; exact Nr).
  replace (lat_x n latp 0) with (- PI / 2) by (unfold lat_x; cbn [INR]; field; exact Nr). reflexivity.
Qed.
Print Assumptions C118_integral.
(** with an exact integral of the integrand of the code any zonal profile is a steady flow *)
Theorem C118_balance : forall c h0 U U' H lon lat, g c <> 0 -> earth_radius c <> 0 -> 0 < cos lat ->
  derivable_pt_lim U lat U' -> derivable_pt_lim H lat (jet_integrand c U lat) ->
  let u (_ y : R) := U y in let v (_ _ : R) := 0 in let h (_ y : R) := h0 - H y / g c in
  zonal_rate (earth_radius c) (g c) (cs_coriolis (omega c) lat) u v h lon lat 0 /\
  merid_rate (earth_radius c) (g c) (cs_coriolis (omega c) lat) u v h lon lat 0 /\ depth_rate (earth_radius c) u v h lon lat 0.
Proof.
  intros c h0 U U' H lon lat Hg Ha P DU DH u v h.
  assert (derivable_pt_lim (fun y => h0 - H y / g c) lat (- jet_integrand c U lat / g c)) as Dh.
  { eapply D_eq; [eapply D_minus; [apply D_const|eapply (D_mult H (fun _ => / g c)); [exact DH|apply D_const]]|]. field. exact Hg. }
  split; [|split].
  - exists 0, U', 0. split; [exact (D_const (U lat) lon)|]. split; [exact DU|]. split; [exact (D_const (h0 - H lat / g c) lon)|]. unfold u, v. field. split; lra.
  - exists 0, 0, (- jet_integrand c U lat / g c). split; [exact (D_const 0 lon)|]. split; [exact (D_const 0 lat)|]. split; [exact Dh|].
    unfold u, v, cs_coriolis, jet_integrand. field. repeat split; (assumption || lra).
  - exists 0, 0. split; [apply (D_ext (fun _ => h lon lat * u lon lat)); [reflexivity|apply D_const]|]. split.
    + apply (D_ext (fun _ => 0)); [|apply D_const]. intros y. unfold v. ring.
    + field. split; lra.
Qed.
Print Assumptions C118_balance.
(** a point off the equator, a turn by an eighth: the hypotheses are met *)
Example C118_case : let lonp := fst (rotated (PI / 4) 0 0) in let latp := snd (rotated (PI / 4) 0 0) in
  cos latp <> 0 /\ jet 80 (PI / 7) (5 * PI / 14) (PI / 4) = Some 80 /\ jet_integral (fun _ => 1) 3 0 = PI / 2.
Proof.
  cbv zeta. split; [|split].
  - unfold rotated. pose proof PI_RGT_0 as P. destruct Req_EM_T as [E|_]; [lra|]. cbn [snd].
    rewrite sin_0, cos_0. replace (0 * cos (PI / 4) - 1 * 1 * sin (PI / 4)) with (- sin (PI / 4)) by ring. rewrite asin_opp, cos_neg, asin_sin by lra.
    apply Rgt_not_eq, cos_gt_0; lra.
  - pose proof PI_RGT_0 as P. pose proof (C118_profile 80 (PI / 7) (5 * PI / 14) (PI / 4) ltac:(lra) ltac:(lra)) as (A & _). destruct jet as [x|].
    + destruct A as (_ & _ & A). f_equal. apply A. field.
    + lra.
  - pose proof (C118_integral 1 0 0 0 3 0 ltac:(discriminate)) as E. cbv zeta in E.
    unfold jet_integral, gauss_sum, gauss_two in *. rewrite ?Rmult_0_l in E. etransitivity; [|etransitivity; [exact E|field]]. ring.
Qed.
