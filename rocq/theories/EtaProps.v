(** * C113, C114, C115: initial states on pressure levels *)
From Coq Require Import Reals Arith Lra Lia.
From Verif Require Import PhysModel PhysSpec InitModel InitSpec InitProps DlimProofs BalModel BalSpec BalProofs BalProps GeomModel EtaModel EtaSpec EtaProofs.
Local Open Scope R_scope.

Local Lemma inv c : usable c -> forall p, 0 < p -> 0 < rhotheta_from_pressure c p /\ poisson (gas c) (cp c) (p0 c) (rhotheta_from_pressure c p) = p.
Proof. intros ((k & y & s & l & ->) & H1 & H2 & H3 & _). apply reachable; assumption. Qed.

(** ** C113: the baroclinic wave of Jablonowski and Williamson *)
(** geopotential and temperature are hydrostatic at every level, the tropopause included,
    so the derivative of the Newton iteration is the right one *)
Theorem C113_levels : forall c q eta lat, gas c <> 0 -> g c <> 0 -> jlapse q <> 0 -> 0 < eta0 q < 1 -> 0 < etat q -> 0 < eta <= 1 ->
  hydrostatic_eta (gas c) (fun e => jw_phi c q e lat) (fun e => jw_temp c q e lat) eta.
Proof. intros. apply jw_levels; assumption. Qed.
Print Assumptions C113_levels.
(** the reference pressure is the pressure on the topography *)
Theorem C113_ground : forall c q lat, g c <> 0 -> etat q <= 1 -> jw_phi c q 1 lat = g c * jw_topography c q lat.
Proof.
  intros c q lat Hg Ht. unfold jw_phi, jw_topography, jw_avg_phi. cbv zeta. destruct Rlt_dec as [N|_]; [lra|].
  replace (Rpower 1 (gas c * jlapse q / g c)) with 1 by (unfold Rpower; rewrite ln_1, Rmult_0_r, exp_0; reflexivity).
  fold (jw_aux q 1). fold (jw_cos q 1). rewrite (Rminus_diag_eq 1 1) by reflexivity. rewrite Rmult_0_r. field. exact Hg.
Qed.
Print Assumptions C113_ground.
(** where the temperature is positive a height has one level at most *)
Theorem C113_unique : forall c q lat a b, 0 < gas c -> g c <> 0 -> jlapse q <> 0 -> 0 < eta0 q < 1 -> 0 < etat q ->
  0 < a -> a <= 1 -> 0 < b -> b <= 1 -> (forall e, 0 < e <= 1 -> 0 < jw_temp c q e lat) ->
  jw_phi c q a lat = jw_phi c q b lat -> a = b.
Proof.
  intros c q lat a b Hr Hg Hl H0 Ht Ha Ha1 Hb Hb1 T E.
  assert (forall x y, 0 < x -> y <= 1 -> x < y -> jw_phi c q y lat < jw_phi c q x lat) as M.
  { intros x y Hx Hy L.
    destruct (MVT_cor2 (fun e => jw_phi c q e lat) (fun e => - gas c * jw_temp c q e lat / e) x y L) as (e & E1 & E2).
    - intros e He. apply jw_levels; try assumption; lra.
    - assert (0 < gas c * jw_temp c q e lat / e * (y - x)) as P.
      { apply Rmult_lt_0_compat; [|lra]. apply Rdiv_lt_0_compat; [|lra]. apply Rmult_lt_0_compat; [exact Hr|apply T; lra]. }
      replace (- gas c * jw_temp c q e lat / e * (y - x)) with (- (gas c * jw_temp c q e lat / e * (y - x))) in E1 by (field; lra). lra. }
  destruct (Rtotal_order a b) as [L|[L|L]]; [|exact L|].
  - pose proof (M a b Ha Hb1 L). lra.
  - pose proof (M b a Hb Ha1 L). lra.
Qed.
Print Assumptions C113_unique.
(** the state built from the level of each height is hydrostatic and obeys the equation of
    state *)
Theorem C113_hydrostatic : forall c q old lat (E : R -> R) z, usable c -> jlapse q <> 0 -> 0 < eta0 q < 1 -> 0 < etat q ->
  0 < E z <= 1 -> 0 < jw_temp c q (E z) lat -> continuity_pt E z ->
  (exists o, 0 < o /\ forall y, Rabs (y - z) < o -> jw_phi c q (E y) lat = g c * y) ->
  let st y := jw_point c q old lat (E y) (jw_temp c q (E y) lat) in
  hydrostatic (g c) (fun y => pressure c (st y)) (fun y => srho (st y)) z /\
  pressure c (st z) = p0 c * E z /\ pressure c (st z) = srho (st z) * gas c * jw_temp c q (E z) lat /\
  0 < srho (st z) /\ 0 < stheta (st z).
Proof.
  intros c q old lat E z U Hl H0 Ht He T C S st. pose proof (inv c U) as I. destruct U as (_ & H1 & H2 & H3 & H4 & H5).
  destruct (jw_temp_lim c q (E z) lat H0 He) as (T' & DT).
  assert (0 < p0 c * E z) as P by (apply Rmult_lt_0_compat; lra).
  set (u := fun y => ju0 q * Rpower (cos (1 / 2 * PI * (E y - eta0 q))) (3 / 2) * sin (2 * lat) * sin (2 * lat)).
  split; [|split; [|split]].
  - apply (column_hydrostatic c H1 H3 (Rgt_not_eq _ _ H4) I (fun e => jw_phi c q e lat) (fun e => jw_temp c q e lat) E u z T'); try assumption; [|lra].
    apply jw_levels; try assumption; lra.
  - apply (of_pressure c H1 I (u z) _ _ P T).
  - apply (of_pressure_gas c H1 I (u z) _ _ P T).
  - apply (of_pressure_pos c H1 I (u z) _ _ P T).
Qed.
Print Assumptions C113_hydrostatic.
(** the wind balances the geopotential on every level of constant pressure, the poles
    excluded *)
Theorem C113_wind : forall c q old eta t lat, earth_radius c <> 0 -> 0 < cos lat ->
  gradient_wind_eta (earth_radius c) (omega c) (su (jw_point c q old lat eta t)) (fun l => jw_phi c q eta l) lat.
Proof.
  intros c q old eta t lat Ha Hc. eexists. split; [apply jw_lat|]. cbn [su jw_point from_pressure].
  change (Rpower (cos (1 / 2 * PI * (eta - eta0 q))) (3 / 2)) with (jw_cos q eta).
  rewrite sin_2a. unfold tan. set (s := sin lat). set (k := cos lat) in *. set (x := ju0 q * jw_cos q eta). field. split; lra.
Qed.
Print Assumptions C113_wind.

(** ** C114: the channel and the sheared jet *)
Theorem C114_levels : forall c q beta eta y, gas c <> 0 -> g c <> 0 -> clapse q <> 0 -> cb q <> 0 -> 0 < eta ->
  hydrostatic_eta (gas c) (fun e => chan_phi c q beta e y) (fun e => chan_temp c q beta e y) eta.
Proof. intros. apply chan_levels; assumption. Qed.
Print Assumptions C114_levels.
(** the wind is geostrophic for the Coriolis parameter the Cartesian grid stores *)
Theorem C114_wind : forall c q eta t y, ymin q < ymax q ->
  geostrophic (cart_coriolis false (omega c) (earth_radius c) (reflat q) (ymin q) (ymax q) y)
    (su (chan_point c q y eta t)) (fun y => chan_phi c q (chan_beta c q) eta y) y.
Proof.
  intros c q eta t y H. eexists. split; [apply chan_wind; unfold chan_ly; lra|]. cbn [su chan_point from_pressure].
  unfold cart_coriolis. cbv zeta. rewrite Rabs_right by lra. unfold chan_beta, chan_y0. ring.
Qed.
Print Assumptions C114_wind.
(** refuted: the same for the channel with a ridge, whose beta shrinks with height.  The
    residual vanishes on the ground, half way across and where there is no wind only *)
Theorem C114_ridge_refuted : forall c q eta t y z, ymin q < ymax q -> 0 < earth_radius c -> 0 <= z ->
  (geostrophic (cart_coriolis false (omega c) (earth_radius c) (reflat q) (ymin q) (ymax q) y)
    (su (chan_point c q y eta t)) (fun y => chan_phi c q (ridge_beta c q z) eta y) y <->
   z = 0 \/ y = (ymax q - ymin q) / 2 \/ omega c * cos (reflat q) = 0 \/ su (chan_point c q y eta t) = 0).
Proof.
  intros c q eta t y z H Ha Hz. set (u := su (chan_point c q y eta t)).
  pose proof (chan_wind c q (ridge_beta c q z) eta y ltac:(unfold chan_ly; lra)) as D. change (chan_u q eta y) with u in D.
  set (f := cart_coriolis false (omega c) (earth_radius c) (reflat q) (ymin q) (ymax q) y).
  assert (f * u + - ((2 * omega c * sin (reflat q) + ridge_beta c q z * (y - chan_y0 q)) * u)
    = 2 * (omega c * cos (reflat q)) * z / (earth_radius c * (earth_radius c + z)) * (y - (ymax q - ymin q) / 2) * u) as R.
  { unfold f, cart_coriolis. cbv zeta. rewrite Rabs_right by lra. unfold ridge_beta, chan_y0. field. split; lra. }
  split.
  - intros (D' & HD & B). rewrite (uniqueness_limite _ _ _ _ HD D), R in B.
    apply Rmult_integral in B. destruct B as [B|B]; [|tauto].
    apply Rmult_integral in B. destruct B as [B|B]; [|right; left; lra].
    assert (2 * (omega c * cos (reflat q)) * z = 0) as Z.
    { apply (Rmult_eq_compat_r (earth_radius c * (earth_radius c + z))) in B. rewrite Rmult_0_l in B. rewrite <- B. field. split; lra. }
    apply Rmult_integral in Z. destruct Z as [Z|Z]; [right; right; left; lra|tauto].
  - intros B. eexists. split; [exact D|]. rewrite R. unfold Rdiv. destruct B as [B|[B|[B|B]]].
    + rewrite B. ring.
    + rewrite B. field. split; lra.
    + rewrite B. ring.
    + rewrite B. ring.
Qed.
Print Assumptions C114_ridge_refuted.
(** ** The constants of the channel are chosen so that wind and slope of the ground leave the
    means across it alone. *)
Lemma chan_xy_mean c q beta : chan_ly q <> 0 -> mean_is (chan_xy c q beta) 0 (chan_ly q) 0.
Proof.
  intros H. pose proof PI_RGT_0 as HP. pose proof PI_neq0 as HN. set (l := chan_ly q) in *. set (f0 := 2 * omega c * sin (reflat q)).
  assert (chan_y0 q = l / 2) as Y by (unfold chan_y0, l, chan_ly; field).
  exists (fun y => 1 / 2 * cu0 q *
    ((f0 - beta * (l / 2)) * (y * y / 2 - l / 2 * y + l / 2 / PI * (l / (2 * PI) * cos (2 * PI * y / l)))
     + 1 / 2 * beta * (y * y * y / 3 - l / PI * (- (y * (l / (2 * PI)) * cos (2 * PI * y / l)) + l / (2 * PI) * (l / (2 * PI)) * sin (2 * PI * y / l))
                       - 1 / 2 * l * l / (PI * PI) * (l / (2 * PI) * sin (2 * PI * y / l)) - (l * l / 3 + 1 / 2 * l * l / (PI * PI)) * y))).
  split.
  - intros y. unfold chan_xy. cbv zeta. fold l. fold f0. rewrite Y. dlim; try exact H; try exact HN; try lra; try (apply Rmult_integral_contrapositive_currified; lra).
    set (sn := sin (2 * PI * y / l)). set (cs := cos (2 * PI * y / l)). clearbody l sn cs f0. field. repeat split; lra.
  - replace (2 * PI * l / l) with (2 * PI) by (field; exact H). replace (2 * PI * 0 / l) with 0 by (unfold Rdiv; ring). rewrite cos_2PI, sin_2PI, cos_0, sin_0. clearbody l f0. field. repeat split; lra.
Qed.
Theorem C114_mean : forall c q beta eta, chan_ly q <> 0 -> gas c <> 0 ->
  mean_is (chan_phi c q beta eta) 0 (chan_ly q) (ct0 q * g c / clapse q * (1 - Rpower eta (gas c * clapse q / g c))) /\
  mean_is (chan_temp c q beta eta) 0 (chan_ly q) (ct0 q * Rpower eta (gas c * clapse q / g c)).
Proof.
  intros c q beta eta H Hg. destruct (chan_xy_mean c q beta H) as (P & D & E).
  assert (forall m k, mean_is (fun y => m + chan_xy c q beta y * k) 0 (chan_ly q) m) as M.
  { intros m k. exists (fun y => m * y + P y * k). split.
    - intros y. eapply D_eq; [repeat (exact (D y) || dstep)|]. cbv beta. ring.
    - replace (m * chan_ly q + P (chan_ly q) * k - (m * 0 + P 0 * k)) with (m * chan_ly q + (P (chan_ly q) - P 0) * k) by ring. rewrite E. ring. }
  split.
  - destruct (M (ct0 q * g c / clapse q * (1 - Rpower eta (gas c * clapse q / g c))) (ln eta * chan_decay q eta)) as (Q & DQ & EQ). exists Q. split; [|exact EQ]. intros y. specialize (DQ y). unfold chan_phi. rewrite (Rmult_assoc (chan_xy c q beta y)). exact DQ.
  - destruct (M (ct0 q * Rpower eta (gas c * clapse q / g c)) (/ gas c * (2 / (cb q * cb q) * ln eta * ln eta - 1) * chan_decay q eta)) as (Q & DQ & EQ). exists Q. split; [|exact EQ]. intros y. specialize (DQ y). cbv beta in DQ. unfold chan_temp.
    replace (chan_xy c q beta y / gas c * (2 / (cb q * cb q) * ln eta * ln eta - 1) * chan_decay q eta) with (chan_xy c q beta y * (/ gas c * (2 / (cb q * cb q) * ln eta * ln eta - 1) * chan_decay q eta)) by (unfold Rdiv; ring). exact DQ.
Qed.
Print Assumptions C114_mean.
(** ** The side layers are switched by x, which has nothing to do with the sides: at the side
    there is no friction at all for an x between, and the full friction for an x beyond. *)
Theorem C114_sides_refuted : forall s depth width ylo yhi top x x' z, 0 < s -> 0 < width -> z <= top - depth -> ylo + width <= x <= yhi - width -> yhi - width < x' ->
  chan_strength s depth width ylo yhi top x yhi z = 0 /\ chan_strength s depth width ylo yhi top x ylo z = 0 /\ s <= chan_strength s depth width ylo yhi top x' yhi z.
Proof.
  intros s depth width ylo yhi top x x' z Hs Hw Hz Hx Hx'. unfold chan_strength. cbv zeta. destruct (Rlt_dec (top - depth) z) as [B|_]; [lra|].
  destruct (Rlt_dec (yhi - width) x) as [B|_]; [lra|]. destruct (Rlt_dec x (ylo + width)) as [B|_]; [lra|]. destruct (Rlt_dec (yhi - width) x') as [_|B]; [|lra].
  replace ((yhi - yhi) / width) with 0 by (unfold Rdiv; ring). rewrite Rmult_0_r, cos_0. set (l := if Rlt_dec x' (ylo + width) then _ else 0). clearbody l.
  unfold nu_choose. repeat split; repeat (destruct Rge_dec; cbn; try lra).
Qed.
Print Assumptions C114_sides_refuted.
(** refuted: the side layers of the channel act near the sides only.  With a layer wider
    than the channel and the comparison made with x, the whole domain up to a width from
    the origin is damped, at half the strength at least *)
Theorem C114_sponge_refuted : forall s depth width ylo yhi top x y z, 0 < s -> 0 < depth -> 0 < width ->
  ylo <= y <= yhi -> yhi - width < x -> 2 * (yhi - y) <= width -> z <= top ->
  s / 2 <= chan_strength s depth width ylo yhi top x y z.
Proof.
  intros s depth width ylo yhi top x y z Hs Hd Hw Hy Hx H2 Hz. pose proof PI_RGT_0 as P. unfold chan_strength. cbv zeta.
  set (d := if Rlt_dec (top - depth) z then _ else 0). set (l := if Rlt_dec x (ylo + width) then _ else 0). clearbody d l.
  destruct Rlt_dec as [_|N]; [|lra]. set (r := 1 / 2 * s * (1 + cos (PI * ((yhi - y) / width)))).
  assert (0 <= (yhi - y) / width <= 1 / 2) as Q.
  { split; [apply Rmult_le_pos; [lra|apply Rlt_le, Rinv_0_lt_compat, Hw]|].
    apply (Rmult_le_reg_r width); [exact Hw|]. unfold Rdiv. rewrite Rmult_assoc, Rinv_l by lra. lra. }
  assert (0 <= cos (PI * ((yhi - y) / width))) as K.
  { apply cos_ge_0.
    - assert (0 <= PI * ((yhi - y) / width)) by (apply Rmult_le_pos; lra). lra.
    - assert (PI * ((yhi - y) / width) <= PI * (1 / 2)) by (apply Rmult_le_compat_l; lra). lra. }
  assert (s / 2 <= r) as L by (unfold r; assert (0 <= s * cos (PI * ((yhi - y) / width))) by (apply Rmult_le_pos; lra); lra).
  unfold nu_choose. destruct (Rge_dec d r) as [G|G]; destruct (Rge_dec d l); cbn; try lra; destruct (Rge_dec r l); lra.
Qed.
Print Assumptions C114_sponge_refuted.

(** the three layers of the sheared jet are hydrostatic in eta *)
Theorem C114_shear : forall c q z eta, 0 < gas c -> g c <> 0 -> slapse q <> 0 -> sstrato q <> 0 -> 0 < level2 q -> 0 < eta ->
  hydrostatic_eta (gas c) (fun e => fst (shear_calc c q z e)) (fun e => snd (shear_calc c q z e)) eta.
Proof.
  intros c q z eta Hr Hg H1 H2 Hl He. unfold hydrostatic_eta, shear_calc.
  destruct Rle_dec as [_|_]; [|destruct Rle_dec as [_|_]]; cbn [fst snd].
  - apply avg_low; assumption.
  - dlim; [exact He|]. field. lra.
  - assert (0 < eta / level2 q) as P by (apply Rdiv_lt_0_compat; assumption).
    dlim; [apply Rgt_not_eq, Hl|exact P|].
    rewrite <- (Rpower_pred (eta / level2 q) (gas c * sstrato q / g c) P) at 2. field. repeat split; lra.
Qed.
Print Assumptions C114_shear.
(** they join: if the constructor's levels solve the layer below, geopotential and
    temperature of the layer above are the same there *)
Theorem C114_join : forall c q z1 z2 z3, z1 <= height1 q < z2 -> z2 <= height1 q + mixed q < z3 -> 0 < level2 q ->
  (shear_calc c q z1 (level1 q) = (phi1 q, temp1 q) -> shear_calc c q z2 (level1 q) = (phi1 q, temp1 q)) /\
  (fst (shear_calc c q z2 (level2 q)) = phi2 q -> shear_calc c q z3 (level2 q) = (phi2 q, temp1 q) /\ snd (shear_calc c q z2 (level2 q)) = temp1 q).
Proof.
  intros c q z1 z2 z3 H1 H2 Hl. unfold shear_calc.
  destruct (Rle_dec z1 _); [|lra]. destruct (Rle_dec z2 (height1 q)); [lra|]. destruct (Rle_dec z2 _); [|lra].
  destruct (Rle_dec z3 (height1 q)); [lra|]. destruct (Rle_dec z3 _); [lra|]. cbn [fst snd]. split.
  - intros _. f_equal. ring.
  - intros _. split; [|reflexivity]. replace (level2 q / level2 q) with 1 by (field; lra).
    unfold Rpower. rewrite ln_1, Rmult_0_r, exp_0. f_equal; ring.
Qed.
Print Assumptions C114_join.

(** ** C115: the Newton iteration for the level *)
Local Lemma seq calc r g z init : newton_sequence (fun e => fst (calc e)) (fun e => snd (calc e)) r g z init (fun n => iter (newton calc r g z) n init).
Proof.
  split; [reflexivity|]. intros n. rewrite iter_out. unfold newton at 1. set (e := iter (newton calc r g z) n init). destruct (calc e) as (phi, t). cbn [fst snd].
  replace (- g * z + phi) with (phi - g * z) by ring. f_equal. f_equal. unfold Rdiv. ring.
Qed.
(** it returns the image of the first iterate that moves by less than the tolerance, with
    geopotential and temperature of that iterate, or throws for want of one; the check of
    the range of eta is never reached *)
Theorem C115_outcome : forall most init conv calc r g z,
  exists e, newton_sequence (fun x => fst (calc x)) (fun x => snd (calc x)) r g z init e /\
  ((exists n, (n < most)%nat /\ Rabs (e n - e (S n)) < conv /\ (forall m, (m < n)%nat -> conv <= Rabs (e m - e (S m))) /\
     eta_from most init conv calc r g z = Converged (e (S n)) (fst (calc (e n))) (snd (calc (e n)))) \/
   ((forall m, (m < most)%nat -> conv <= Rabs (e m - e (S m))) /\ eta_from most init conv calc r g z = TooMany)) /\
  eta_from most init conv calc r g z <> Invalid /\ (forall x, eta_from most init conv calc r g z <> Plain x).
Proof.
  intros most init conv calc r g z. exists (fun n => iter (newton calc r g z) n init). split; [apply seq|].
  unfold eta_from. destruct (search_spec calc r g z conv most 0 init) as [(n & H1 & H2 & H3 & H4)|(H1 & H2)].
  - rewrite H4. split; [|split; discriminate]. left. exists n. split; [exact H1|]. cbv zeta in H2. rewrite iter_out. split; [exact H2|]. split; [exact H3|]. reflexivity.
  - rewrite H2. rewrite Nat.add_0_l, Nat.eqb_refl. split; [|split; discriminate]. right. split; [exact H1|reflexivity].
Qed.
Print Assumptions C115_outcome.
(** the geopotential returned misses the height by less than the tolerance times the slope *)
Theorem C115_residual : forall most init conv calc r g z eta phi t, eta_from most init conv calc r g z = Converged eta phi t ->
  exists e, calc e = (phi, t) /\ Rabs (e - eta) < conv /\ (e <> 0 -> t <> 0 -> r <> 0 -> Rabs (phi - g * z) < conv * Rabs (r * t / e)).
Proof.
  intros most init conv calc r g z eta phi t H. destruct (C115_outcome most init conv calc r g z) as (e & S & [(n & _ & H2 & _ & H4)|(_ & H4)] & _); rewrite H in H4; [|discriminate].
  injection H4 as H5 H6 H7. exists (e n). split; [rewrite H6, H7; apply surjective_pairing|]. rewrite H5. split; [exact H2|].
  intros N1 N2 N3. destruct S as (_ & S). specialize (S n). rewrite <- H6, <- H7 in S. rewrite S in H2.
  assert (r * t / e n <> 0) as N by (unfold Rdiv; repeat apply Rmult_integral_contrapositive_currified; try assumption; apply Rinv_neq_0_compat; assumption).
  apply (Rmult_lt_compat_r (Rabs (r * t / e n))) in H2; [|apply Rabs_pos_lt, N].
  rewrite <- Rabs_mult in H2. replace (phi - g * z) with (- ((e n - (e n - (phi - g * z) / - (r * t / e n))) * (r * t / e n))); [rewrite Rabs_Ropp; exact H2|].
  field. repeat split; assumption.
Qed.
Print Assumptions C115_residual.
(** for the sheared jet, started below the level sought, the iterates never decrease and
    never pass it; given enough iterations the search returns a level between the two *)
Theorem C115_shear : forall c q z root init conv, 0 < gas c -> 0 < g c -> 0 < st0 q -> slapse q <> 0 -> gas c * slapse q <= g c ->
  0 < temp1 q -> 0 < level2 q -> sstrato q <> 0 -> gas c * sstrato q <= g c -> 0 < init <= root -> 0 < conv ->
  fst (shear_calc c q z root) = g c * z ->
  (forall e, newton_sequence (fun x => fst (shear_calc c q z x)) (fun x => snd (shear_calc c q z x)) (gas c) (g c) z init e ->
     forall n, init <= e n <= e (S n) /\ e (S n) <= root) /\
  (forall most eta phi t, eta_from most init conv (shear_calc c q z) (gas c) (g c) z = Converged eta phi t -> init <= eta <= root) /\
  exists N, forall most, (N <= most)%nat -> eta_from most init conv (shear_calc c q z) (gas c) (g c) z <> TooMany.
Proof.
  intros c q z root init conv Hr Hg Ht Hl H1 Ht1 Hl2 Hs H2 Hi Hc Er.
  pose proof (shear_convex c q z Hr Hg Ht Hl H1 Ht1 Hl2 Hs H2) as C.
  assert (forall e, newton_sequence (fun x => fst (shear_calc c q z x)) (fun x => snd (shear_calc c q z x)) (gas c) (g c) z init e ->
     forall n, init <= e n <= e (S n) /\ e (S n) <= root) as A.
  { intros e (S0 & S1) n. assert (forall k, e k = iter (newton (shear_calc c q z) (gas c) (g c) z) k init) as U.
    { induction k as [|k IH]; [exact S0|]. destruct (seq (shear_calc c q z) (gas c) (g c) z init) as (_ & S2). rewrite S1, S2, <- IH. reflexivity. }
    rewrite !U. pose proof (iter_below (gas c) (g c) z (shear_calc c q z) root init n Hr C Er Hi). lra. }
  split; [exact A|]. split.
  - intros most eta phi t H. destruct (C115_outcome most init conv (shear_calc c q z) (gas c) (g c) z) as (e & S & [(n & _ & _ & _ & H4)|(_ & H4)] & _); rewrite H in H4; [|discriminate].
    injection H4 as H5 _ _. rewrite H5. pose proof (A e S n). lra.
  - destruct (C115_outcome 0 init conv (shear_calc c q z) (gas c) (g c) z) as (e & S & _).
    destruct (growing_gap e root conv) as (N & G); [intros n; apply (A e S)|intros n; pose proof (A e S n); lra|exact Hc|].
    exists (1 + N)%nat. intros most Hm F.
    destruct (C115_outcome most init conv (shear_calc c q z) (gas c) (g c) z) as (e' & S' & [(n & _ & _ & _ & H4)|(H3 & _)] & _); [rewrite F in H4; discriminate|].
    assert (forall k, e' k = e k) as U.
    { destruct S as (S0 & S1). destruct S' as (S0' & S1'). induction k as [|k IH]; [lra|]. rewrite S1, S1', IH. reflexivity. }
    specialize (H3 N ltac:(lia)). rewrite !U in H3. rewrite Rabs_minus_sym, Rabs_right in H3; [lra|]. pose proof (A e S N). lra.
Qed.
Print Assumptions C115_shear.
(** the state of the baroclinic wave: components 1 and 3 are left as found; pressure and
    density belong to the level returned and the temperature of the iterate before it *)
Theorem C115_state : forall c q old z lat s, jw_state c q old z lat = Some s ->
  exists eta e, Rabs (e - eta) < 1 / 10000000000000 /\ sv s = sv old /\ sw s = sw old /\
    su s = ju0 q * Rpower (cos (PI / 2 * (eta - eta0 q))) (3 / 2) * (sin (2 * lat) * sin (2 * lat)) /\
    (usable c -> 0 < eta -> 0 < jw_temp c q e lat ->
     pressure c s = p0 c * eta /\ pressure c s = srho s * gas c * jw_temp c q e lat).
Proof.
  intros c q old z lat s. unfold jw_state. destruct eta_from as [eta phi t| | |] eqn:F; try discriminate. intros H. injection H as <-.
  apply C115_residual in F. destruct F as (e & E1 & E2 & _). injection E1 as _ E1. exists eta, e. split; [exact E2|].
  split; [reflexivity|]. split; [reflexivity|]. split.
  - cbn. replace (PI / 2 * (eta - eta0 q)) with (1 / 2 * PI * (eta - eta0 q)) by field. ring.
  - intros U He Ht. pose proof (inv c U) as I. destruct U as (_ & H1 & H2 & H3 & H4 & H5). rewrite E1 in *.
    assert (0 < p0 c * eta) as P by (apply Rmult_lt_0_compat; assumption).
    set (u := su (jw_point c q old lat eta t)).
    split; [exact (of_pressure c H1 I u _ _ P Ht)|exact (of_pressure_gas c H1 I u _ _ P Ht)].
Qed.
Print Assumptions C115_state.

(** ** a case of each *)
(** the wave without wind: a column with the lapse rate g/R, its level at each height *)
Example C113_case : let c := construct 1 0 1 in let c := sets nil c in
  forall (old : state), let q := Jw (252 / 1000) (1 / 5) 288 0 (g c / gas c) 0 in
  let E z := 1 - g c * z / (gas c * 288) in
  hydrostatic (g c) (fun y => pressure c (jw_point c q old 1 (E y) (jw_temp c q (E y) 1)))
    (fun y => srho (jw_point c q old 1 (E y) (jw_temp c q (E y) 1))) (gas c * 144 / g c).
Proof.
  intros c0 c old q E.
  assert (0 < gas c) as H1 by (cbn; lra). assert (gas c < cp c) as H2 by (cbn; lra). assert (0 < p0 c) as H3 by (cbn; lra).
  assert (0 < g c) as H4 by (cbn; lra). assert (0 < earth_radius c) as H5 by (cbn; lra).
  assert (E (gas c * 144 / g c) = 1 / 2) as Ez by (unfold E; field; split; lra).
  assert (gas c * (g c / gas c) / g c = 1) as K by (field; split; lra).
  assert (forall e, 0 < e -> jw_temp c q e 1 = 288 * e) as T.
  { intros e He. unfold jw_temp, jw_avg_t. cbn [ju0 jdt jt0 jlapse eta0 etat q]. cbv zeta. rewrite K, (Rpower_1 e He).
    destruct Rlt_dec; field; lra. }
  apply (C113_hydrostatic c q old 1 E (gas c * 144 / g c)).
  - split; [exists 1, 0, 1, nil; reflexivity|repeat split; assumption].
  - cbn. apply Rgt_not_eq, Rdiv_lt_0_compat; assumption.
  - cbn. lra.
  - cbn. lra.
  - rewrite Ez. lra.
  - rewrite Ez, T; lra.
  - apply derivable_continuous_pt. exists (- (g c / (gas c * 288))). unfold E. dlim; [lra|]. field. lra.
  - exists (gas c * 144 / g c). split; [apply Rdiv_lt_0_compat; lra|]. intros y Hy. apply Rabs_def2 in Hy.
    assert (0 < E y) as P.
    { unfold E. assert (g c * y < gas c * 288) as L; [|apply (Rmult_lt_reg_r (gas c * 288)); [lra|]; replace ((1 - g c * y / (gas c * 288)) * (gas c * 288)) with (gas c * 288 - g c * y) by (field; lra); lra].
      assert (y < gas c * 288 / g c) as L by (replace (gas c * 288 / g c) with (gas c * 144 / g c + gas c * 144 / g c) by (field; lra); lra).
      apply (Rmult_lt_compat_l (g c)) in L; [|exact H4]. replace (g c * (gas c * 288 / g c)) with (gas c * 288) in L by (field; lra). exact L. }
    unfold jw_phi, jw_avg_phi, jw_strato. cbn [ju0 jdt jt0 jlapse eta0 etat q]. cbv zeta. rewrite K, (Rpower_1 _ P).
    assert (288 * g c / (g c / gas c) * (1 - E y) = g c * y) as F by (unfold E; field; split; lra).
    destruct Rlt_dec; rewrite F; ring.
Qed.
(** the jet found at a height of the isothermal layer *)
Example C115_case : let c := construct 1 0 1 in
  let q := Shear 2 5 10 280 (65 / 10000) (- 1) 0 10 200 1 (1 / 2) 0 0 in
  exists N, forall most, (N <= most)%nat ->
    eta_from most (1 / 100000) (1 / 10000000000000) (shear_calc c q 5) (gas c) (g c) 5 <> TooMany.
Proof.
  intros c q. assert (gas c = 287) as H1 by reflexivity. assert (g c = 980616 / 100000) as H2 by reflexivity.
  set (root := exp (- (g c * 5 / (gas c * 200)))).
  assert (1 / 100000 <= root) as L.
  { unfold root. eapply Rle_trans; [|apply exp_ineq1_le]. rewrite H1, H2. lra. }
  destruct (C115_shear c q 5 root (1 / 100000) (1 / 10000000000000)) as (_ & _ & N & H); cbn [st0 slapse temp1 level2 sstrato q]; try (rewrite ?H1, ?H2; lra).
  - unfold shear_calc. cbn [height1 mixed temp1 level1 phi1 q]. destruct Rle_dec; [lra|]. destruct Rle_dec; [|lra].
    cbn [fst]. unfold root. rewrite ln_exp, ln_1, H1. field.
  - exists N. exact H.
Qed.
(** the whole of the channel is damped *)
Example C114_case : forall x y z, 0 <= x <= 30000000 -> 0 <= y <= 6000000 -> z <= 30000 ->
  1 / 400 <= chan_strength (5 / 1000) 5000 50000000 0 6000000 30000 x y z.
Proof.
  intros x y z Hx Hy Hz. replace (1 / 400) with (5 / 1000 / 2) by lra. apply C114_sponge_refuted; lra.
Qed.
(** a channel of 6000 km with a layer of 1000 km; 30 km deep *)
Example C114_sides_case : exists x x' z : R, 0 + 1000000 <= x <= 6000000 - 1000000 /\ 6000000 - 1000000 < x' /\ z <= 30000 - 5000.
Proof. exists 2000000, 5500000, 0. lra. Qed.
Example C114_mean_case : exists q, chan_ly q <> 0 /\ cu0 q = 35.
Proof. exists (Channel 2 35 (5 / 1000) 288 (PI / 4) 0 6000000). unfold chan_ly. cbn. lra. Qed.
