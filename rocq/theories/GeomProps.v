(** * Topography and metric terms at the nodes *)
From Coq Require Import ZArith Reals List Bool Lra Lia.
From Verif Require Import ColSpec ColProofs QuadSpec InterpModel CsTransSpec CsTransModel CsTransProofs CsTransVecProofs CsTransProps GeomSpec ShallowModel ShallowSpec ShallowProofs ShallowProps DiagModel LevModel GeomModel GeomProofs GeomProofs2.
From Verif Require LevProofs2 LegProofs.
Import ListNotations.
Local Open Scope R_scope.
Local Notation z := Z.of_nat.

(** ** C85: the cubed sphere *)
(** For the coordinate vectors of the map (alpha, beta, eta) -> point of the sphere and
    height, levels and interfaces hold the vertical parts of these vectors, the rows that
    turn covariant into contravariant components, and the volume they span. *)
Definition cs_map (R0 : R) (p : Z) (Ztop : R) (Zs : R -> R -> R) (a b e : R) : GeomSpec.place :=
  (scale R0 (sphere_point p (tan a) (tan b)), Zs a b + e * (Ztop - Zs a b)).
Theorem C85_metric : forall R0 p Ztop Zs a b e Da Db ea eb ex, 0 < R0 -> panel p -> - PI / 2 < a < PI / 2 -> - PI / 2 < b < PI / 2 ->
  derivable_pt_lim (fun s => Zs s b) a Da -> derivable_pt_lim (fun s => Zs a s) b Db -> Zs a b < Ztop ->
  moves (fun s => cs_map R0 p Ztop Zs s b e) a ea -> moves (fun s => cs_map R0 p Ztop Zs a s e) b eb -> moves (cs_map R0 p Ztop Zs a b) e ex ->
  forall m, m = cs_level R0 Ztop (tan a) (tan b) (Zs a b) Da Db e \/ m = cs_interface R0 Ztop (tan a) (tan b) (Zs a b) Da Db e ->
  raises ea eb ex (v_a0 m, v_a1 m, v_a2 m) (v_b0 m, v_b1 m, v_b2 m) (v_x0 m, v_x1 m, v_x2 m) /\
  gram3 ea eb ex = v_j m * v_j m /\ 0 < v_j m /\ (r_a m, r_b m, r_x m) = (snd ea, snd eb, snd ex).
Proof.
  intros R0 p Ztop Zs a b e Da Db ea eb ex HR Hp Ha Hb DA DB HZ EA EB EX m Hm.
  assert (m = cs_level R0 Ztop (tan a) (tan b) (Zs a b) Da Db e) as -> by (destruct Hm as [-> | ->]; [reflexivity | apply same_rows]). clear Hm.
  rewrite (moves_unique _ _ _ _ EA (place_a R0 p Hp Ztop Zs a b e Da Ha DA)), (moves_unique _ _ _ _ EB (place_b R0 p Hp Ztop Zs a b e Db Hb DB)),
    (moves_unique _ _ _ _ EX (place_x R0 p Ztop Zs a b e)).
  destruct (level_frame R0 HR p Hp (tan a) (tan b) Ztop (Zs a b) Da Db e ltac:(lra)) as (H1 & H2 & H3).
  split; [exact H1|]. split; [exact H2|]. split; [|exact H3].
  cbn [cs_level v_j]. apply Rmult_lt_0_compat; [lra | apply j_pos; auto].
Qed.
(** the coordinate vectors exist *)
Theorem C85_vectors : forall R0 p Ztop Zs a b e Da Db, panel p -> - PI / 2 < a < PI / 2 -> - PI / 2 < b < PI / 2 ->
  derivable_pt_lim (fun s => Zs s b) a Da -> derivable_pt_lim (fun s => Zs a s) b Db ->
  (exists v, moves (fun s => cs_map R0 p Ztop Zs s b e) a v) /\ (exists v, moves (fun s => cs_map R0 p Ztop Zs a s e) b v) /\
  (exists v, moves (cs_map R0 p Ztop Zs a b) e v).
Proof.
  intros R0 p Ztop Zs a b e Da Db Hp Ha Hb DA DB.
  split; [eexists; apply (place_a R0 p Hp Ztop Zs a b e Da Ha DA) |]. split; [eexists; apply (place_b R0 p Hp Ztop Zs a b e Db Hb DB) |].
  eexists; apply (place_x R0 p Ztop Zs a b e).
Qed.
(** the two-dimensional metric *)
Theorem C85_flat : forall R0 p x y va vb, 0 < R0 -> panel p -> alpha_vector p x y va -> beta_vector p x y vb -> let m := cs2 R0 x y in
  let a := scale R0 va in let b := scale R0 vb in
  raises2 a b (h_a0 m, h_a1 m) (h_b0 m, h_b1 m) /\ lowers2 a b (c_a0 m, c_a1 m) (c_b0 m, c_b1 m) /\
  gram2 a b = h_j m * h_j m /\ 0 < h_j m.
Proof.
  intros R0 p x y va vb HR Hp A B. cbv zeta. tangents.
  destruct (inv_rows R0 HR p Hp x y) as (G1 & G2 & G3 & G4). destruct (low_rows R0 p Hp x y) as (L1 & L2 & L3 & L4).
  split; [|split; [|split]].
  - intros u v. cbv zeta. cbn [fst snd]. rewrite !dot_plus_l. rewrite !(dot_scale_l u), !(dot_scale_l v). rewrite (dot_sym (scale R0 (beta_at p x y)) (scale R0 (alpha_at p x y))).
    split.
    + match goal with |- ?g * (u * ?aa + v * ?ab) + ?h * (u * _ + v * ?bb) = _ => transitivity (u * (g * aa + h * ab) + v * (g * ab + h * bb)); [ring|] end. rewrite G1, G2; ring.
    + match goal with |- ?g * (u * ?aa + v * ?ab) + ?h * (u * _ + v * ?bb) = _ => transitivity (u * (g * aa + h * ab) + v * (g * ab + h * bb)); [ring|] end. rewrite G3, G4; ring.
  - intros u v. cbv zeta. cbn [fst snd]. rewrite !dot_plus_l. rewrite !(dot_scale_l u), !(dot_scale_l v). rewrite (dot_sym (scale R0 (beta_at p x y)) (scale R0 (alpha_at p x y))).
    rewrite L1, L2, L3, L4. split; ring.
  - symmetry. apply j_sq; auto.
  - apply j_pos; auto.
Qed.
(** without a check against the top the Jacobian vanishes or is negative *)
Theorem C85_top_refuted : forall R0 Ztop x y Zs Da Db e dim st K c, 0 < R0 -> Ztop <= Zs -> dim <> 2%nat -> areas_pass st K c = true ->
  cs_geometry_ok dim Ztop st K c = true /\ v_j (cs_level R0 Ztop x y Zs Da Db e) <= 0.
Proof.
  intros R0 Ztop x y Zs Da Db e dim st K c HR HZ N P. split.
  - unfold cs_geometry_ok. rewrite P. destruct (Nat.eqb_spec dim 2); [congruence | reflexivity].
  - cbn [cs_level v_j]. pose proof (j_pos R0 HR x y). nra.
Qed.
Theorem C85_two_dimensional : forall Ztop st K c, cs_geometry_ok 2 Ztop st K c = true -> Ztop = 1.
Proof. intros Ztop st K c H. unfold cs_geometry_ok in H. cbn in H. destruct (Req_EM_T Ztop 1); auto; discriminate. Qed.

(** ** C86: copies of a point on several panels *)
Theorem C86_edges : forall R0 p q x y x' y', panel p -> panel q -> on_face x y -> on_face x' y' ->
  sphere_point p x y = sphere_point q x' y' ->
  h_j (cs2 R0 x y) = h_j (cs2 R0 x' y') /\
  (forall Ztop Zs Da Db Da' Db' e, v_j (cs_level R0 Ztop x y Zs Da Db e) = v_j (cs_level R0 Ztop x' y' Zs Da' Db' e) /\
     v_j (cs_interface R0 Ztop x y Zs Da Db e) = v_j (cs_interface R0 Ztop x' y' Zs Da' Db' e)) /\
  (forall omega a b a' b' lon lat lon' lat', tan a = x -> tan b = y -> tan a' = x' -> tan b' = y' ->
     rll_from_abp a b p = Val (lon, lat) -> rll_from_abp a' b' q = Val (lon', lat') ->
     cs_coriolis omega lat = cs_coriolis omega lat').
Proof.
  intros R0 p q x y x' y' Hp Hq A B E. pose proof (edge_j R0 p q x y x' y' Hp Hq A B E) as J.
  split; [exact J|]. split.
  - intros. rewrite !same_rows. cbn [cs_level v_j]. rewrite J. split; reflexivity.
  - intros omega a b a' b' lon lat lon' lat' Ea Eb Ea' Eb' L L'. unfold rll_from_abp in *. rewrite Ea, Eb in L. rewrite Ea', Eb' in L'.
    destruct (C35_lonlat x y p Hp) as (o & l & X & _ & _ & _ & Y). destruct (C35_lonlat x' y' q Hq) as (o' & l' & X' & _ & _ & _ & Y').
    rewrite X in L. rewrite X' in L'. injection L; intros; injection L'; intros; subst o l o' l'.
    unfold geo_point in *. rewrite E in Y. destruct (sphere_point q x' y') as [[u v] w].
    unfold cs_coriolis. destruct Y as (_ & _ & ->). destruct Y' as (_ & _ & ->). reflexivity.
Qed.
(** twice the rotation rate times the height above the plane of the equator *)
Theorem C86_coriolis : forall omega a b p lon lat, panel p -> rll_from_abp a b p = Val (lon, lat) ->
  cs_coriolis omega lat = 2 * omega * north_part (sphere_point p (tan a) (tan b)).
Proof.
  intros omega a b p lon lat Hp L. unfold rll_from_abp in L. destruct (C35_lonlat (tan a) (tan b) p Hp) as (o & l & X & _ & _ & _ & Y).
  rewrite X in L. injection L; intros; subst o l. unfold geo_point, north_part in *. destruct (sphere_point p (tan a) (tan b)) as [[u v] w].
  unfold cs_coriolis. destruct Y as (_ & _ & ->). reflexivity.
Qed.

(** ** C87: the Cartesian grid *)
Definition cart_map (Ztop : R) (Zs : R -> R -> R) (a b e : R) : GeomSpec.place := ((a, b, 0), cart_height Ztop (Zs a b) e).
Theorem C87_metric : forall Ztop Zs a b e Da Db ea eb ex,
  derivable_pt_lim (fun s => Zs s b) a Da -> derivable_pt_lim (fun s => Zs a s) b Db ->
  moves (fun s => cart_map Ztop Zs s b e) a ea -> moves (fun s => cart_map Ztop Zs a s e) b eb -> moves (cart_map Ztop Zs a b) e ex -> snd ex <> 0 ->
  forall m, m = cart_level Ztop (Zs a b) Da Db e \/ m = cart_interface Ztop (Zs a b) Da Db e ->
  raises ea eb ex (v_a0 m, v_a1 m, v_a2 m) (v_b0 m, v_b1 m, v_b2 m) (v_x0 m, v_x1 m, v_x2 m) /\
  gram3 ea eb ex = v_j m * v_j m /\ v_j m = snd ex /\ (r_a m, r_b m, r_x m) = (snd ea, snd eb, snd ex).
Proof.
  intros Ztop Zs a b e Da Db ea eb ex DA DB EA EB EX N m Hm.
  assert (m = cart_level Ztop (Zs a b) Da Db e) as -> by (destruct Hm as [-> | ->]; reflexivity). clear Hm.
  rewrite (moves_unique _ _ _ _ EA (cart_a Ztop Zs a b e Da DA)), (moves_unique _ _ _ _ EB (cart_b Ztop Zs a b e Db DB)).
  pose proof (moves_unique _ _ _ _ EX (cart_x Ztop Zs a b e)) as X. rewrite X in *. cbn [snd] in N.
  destruct (cart_frame Ztop (Zs a b) Da Db e N) as (H1 & H2 & H3).
  split; [exact H1|]. split; [exact H2|]. split; [cbn [cart_level v_j cart2 h_j snd]; ring | exact H3].
Qed.
(** the coordinate surfaces run from the ground to the top *)
Theorem C87_ends : forall Ztop Zs, cart_height Ztop Zs 0 = Zs /\ cart_height Ztop Zs 1 = Ztop /\ cs_height Ztop Zs 0 = Zs /\ cs_height Ztop Zs 1 = Ztop.
Proof. intros. unfold cart_height, cs_height. rewrite decay_0, decay_1. repeat split; ring. Qed.
(** they do not cross if no mountain is higher than a third of the top and no valley
    deeper than twice its height *)
Theorem C87_positive : forall Ztop Zs Da Db e, 0 < Ztop -> -2 * Ztop <= Zs <= Ztop / 3 -> 0 <= e <= 1 ->
  0 < v_j (cart_level Ztop Zs Da Db e) /\ 0 < v_j (cart_interface Ztop Zs Da Db e).
Proof.
  intros Ztop Zs Da Db e HT HZ He. cbn [cart_level cart_interface v_j cart2 h_j]. destruct (decay_x_bounds e He) as [L U].
  assert (0 < Ztop + Zs * decay_x e); [|split; lra].
  destruct (Rle_or_lt 0 Zs); destruct (Rle_or_lt 0 (decay_x e)); nra.
Qed.
Theorem C87_ordered : forall Ztop Zs e e', 0 < Ztop -> -2 * Ztop <= Zs <= Ztop / 3 -> 0 <= e < e' -> e' <= 1 ->
  cart_height Ztop Zs e < cart_height Ztop Zs e'.
Proof.
  intros Ztop Zs e e' HT HZ He He'.
  destruct (MVT_cor2 (cart_height Ztop Zs) (fun t => Ztop + Zs * decay_x t) e e' ltac:(lra)) as (c & E & I).
  { intros c _. exact (proj2 (cart_x Ztop (fun _ _ => Zs) 0 0 c)). }
  pose proof (proj1 (C87_positive Ztop Zs 0 0 c HT HZ ltac:(lra))) as P. cbn [cart_level v_j cart2 h_j] in P. rewrite Rmult_1_r in P. nra.
Qed.
(** ... but mountains that EvaluateTopography accepts can fold them *)
Theorem C87_fold_refuted : forall Ztop Da Db wA wB, 0 < Ztop -> let topo := fun _ _ : Z => 3 / 5 * Ztop in
  cart_topography topo Ztop wA wB = Some topo /\ v_j (cart_level Ztop (3 / 5 * Ztop) Da Db (1 / 3)) < 0 /\
  exists e e', 0 <= e < e' /\ e' <= 1 /\ cart_height Ztop (3 / 5 * Ztop) e' < cart_height Ztop (3 / 5 * Ztop) e.
Proof.
  intros Ztop Da Db wA wB HT topo. pose proof decay_x_third as T. split; [|split].
  - unfold cart_topography. replace (forallb _ _) with true; [reflexivity|]. symmetry. apply forallb_forall. intros i _. apply forallb_forall. intros j _.
    unfold topo. destruct (Rle_dec _ _); [lra | reflexivity].
  - cbn [cart_level v_j cart2 h_j]. nra.
  - pose proof (proj2 (cart_x Ztop (fun _ _ => 3 / 5 * Ztop) 0 0 (1 / 3))) as D. cbn [snd] in D.
    assert (Sl : Ztop + 3 / 5 * Ztop * decay_x (1 / 3) < 0) by nra. set (l := Ztop + 3 / 5 * Ztop * decay_x (1 / 3)) in *.
    destruct (D (- l / 2) ltac:(lra)) as (d & Hd). pose proof (cond_pos d) as Pd.
    set (h := Rmin (d / 2) (1 / 3)). assert (Hh : 0 < h /\ h <= 1 / 3 /\ h < d) by (unfold h; pose proof (Rmin_l (d / 2) (1 / 3)); pose proof (Rmin_r (d / 2) (1 / 3)); repeat split; try lra; apply Rmin_pos; lra).
    specialize (Hd h ltac:(lra) ltac:(rewrite Rabs_right; lra)). unfold cart_map, cart_place in Hd. cbn [snd] in Hd. apply Rabs_def2 in Hd.
    exists (1 / 3), (1 / 3 + h). split; [lra|]. split; [lra|].
    set (A := cart_height Ztop (3 / 5 * Ztop) (1 / 3 + h)) in *. set (B := cart_height Ztop (3 / 5 * Ztop) (1 / 3)) in *.
    assert (Q : (A - B) / h < 0) by lra. assert (A - B < 0); [|lra]. replace (A - B) with ((A - B) / h * h) by (field; lra). nra.
Qed.
(** higher mountains than the top are refused *)
Theorem C87_refused : forall topo Ztop wA wB, (forall i j, (i < wA)%nat -> (j < wB)%nat -> topo (z i) (z j) < Ztop) <-> cart_topography topo Ztop wA wB = Some topo.
Proof.
  intros topo Ztop wA wB. unfold cart_topography. destruct (forallb _ _) eqn:E.
  - split; [reflexivity|]. intros _ i j Hi Hj. rewrite forallb_forall in E. specialize (E i ltac:(apply in_seq; lia)). rewrite forallb_forall in E.
    specialize (E j ltac:(apply in_seq; lia)). destruct (Rle_dec _ _); [discriminate | lra].
  - split; [|discriminate]. intros H. exfalso. apply not_true_iff_false in E. apply E. apply forallb_forall. intros i Hi. apply in_seq in Hi.
    apply forallb_forall. intros j Hj. apply in_seq in Hj. specialize (H i j ltac:(lia) ltac:(lia)). destruct (Rle_dec _ _); [lra | reflexivity].
Qed.

(** ** C88: volumes and weights of columns *)
Lemma fold_total f n : fold_left (fun s k => s + f k) (seq 0 n) 0 = sum f n.
Proof. apply (LevProofs2.total_sum f n). Qed.
(** on the cubed sphere the volumes of the levels, and of the interfaces, fill the column *)
Theorem C88_volume : forall R0 Ztop x y Zs Da Db e W wi dA wj dB K, sum W K = 1 ->
  sum (fun k => area (v_j (cs_level R0 Ztop x y Zs Da Db (e k))) wi dA wj dB (W k)) K = (h_j (cs2 R0 x y) * wi * dA * wj * dB) * (Ztop - Zs) /\
  sum (fun k => area (v_j (cs_interface R0 Ztop x y Zs Da Db (e k))) wi dA wj dB (W k)) K = (h_j (cs2 R0 x y) * wi * dA * wj * dB) * (Ztop - Zs).
Proof.
  intros R0 Ztop x y Zs Da Db e W wi dA wj dB K H.
  assert (E : sum (fun k => area (v_j (cs_level R0 Ztop x y Zs Da Db (e k))) wi dA wj dB (W k)) K = (h_j (cs2 R0 x y) * wi * dA * wj * dB) * (Ztop - Zs)).
  { rewrite (sum_ext _ (fun k => ((h_j (cs2 R0 x y) * wi * dA * wj * dB) * (Ztop - Zs)) * W k)) by (intros k _; unfold area; cbn [cs_level v_j]; ring). rewrite sum_scale, H. ring. }
  split; [exact E|]. rewrite <- E. apply sum_ext. intros k _. rewrite same_rows. reflexivity.
Qed.
(** on the Cartesian grid one level in the middle does not fill the column *)
Theorem C88_volume_refuted : forall Ztop Zs Da Db, 0 < Zs ->
  sum (fun k => area (v_j (cart_level Ztop Zs Da Db (1 / 2))) 1 1 1 1 1) 1 <> Ztop - Zs.
Proof. intros Ztop Zs Da Db H. pose proof decay_x_half. rewrite sum_S, sum_0. unfold area. cbn [cart_level v_j cart2 h_j]. nra. Qed.
(** the hydrostatic surface pressure of a column of constant density, on both grids *)
Theorem C88_pressure : forall g r Ztop Zs itf K, itf 0%nat = 0 -> itf K = 1 ->
  surface_pressure g (fun _ => r) (fun k => cs_height Ztop Zs (itf k)) K = g * r * (Ztop - Zs) /\
  surface_pressure g (fun _ => r) (fun k => cart_height Ztop Zs (itf k)) K = g * r * (Ztop - Zs).
Proof.
  intros g r Ztop Zs itf K H0 H1. destruct (C87_ends Ztop Zs) as (A & B & C & D).
  assert (T : forall zi, surface_pressure g (fun _ => r) zi K = g * r * (zi K - zi 0%nat)).
  { intros zi. unfold surface_pressure. rewrite (fold_total (fun k => g * r * (zi (k + 1)%nat - zi k)) K).
    clear. induction K as [|K IH]; [rewrite sum_0; ring|]. rewrite sum_S, IH. rewrite Nat.add_1_r. ring. }
  rewrite !T, H0, H1, A, B, C, D. split; reflexivity.
Qed.
(** ... and bounds for any density *)
Theorem C88_pressure_bounds : forall g rho lo hi zi K, 0 <= g -> (forall k, (k < K)%nat -> lo <= rho k <= hi /\ zi k <= zi (k + 1)%nat) ->
  g * lo * (zi K - zi 0%nat) <= surface_pressure g rho zi K <= g * hi * (zi K - zi 0%nat).
Proof.
  intros g rho lo hi zi K Hg H. unfold surface_pressure. rewrite (fold_total (fun k => g * rho k * (zi (k + 1)%nat - zi k)) K).
  induction K as [|K IH]; [rewrite sum_0; lra|]. destruct IH as [L U]; [intros; apply H; lia|]. rewrite sum_S. destruct (H K ltac:(lia)) as [[P Q] M].
  rewrite Nat.add_1_r in *. assert (0 <= g * (zi (Datatypes.S K) - zi K)) by (apply Rmult_le_pos; lra).
  set (w := zi (Datatypes.S K) - zi K) in *.
  assert (g * lo * w <= g * rho K * w) by (replace (g * lo * w) with (lo * (g * w)) by ring; replace (g * rho K * w) with (rho K * (g * w)) by ring; apply Rmult_le_compat_r; lra).
  assert (g * rho K * w <= g * hi * w) by (replace (g * hi * w) with (hi * (g * w)) by ring; replace (g * rho K * w) with (rho K * (g * w)) by ring; apply Rmult_le_compat_r; lra).
  unfold w in *. split; lra.
Qed.
(** it is the weight of the mass that the discretisation holds in the column, if the
    normalized areas are the distances of the interfaces *)
Theorem C88_weight : forall g R0 Ztop x y Zs Da Db e W itf rho K wi dA wj dB, (forall k, (k < K)%nat -> W k = itf (k + 1)%nat - itf k) ->
  (h_j (cs2 R0 x y) * wi * dA * wj * dB) * surface_pressure g rho (fun k => cs_height Ztop Zs (itf k)) K =
  g * sum (fun k => rho k * area (v_j (cs_level R0 Ztop x y Zs Da Db (e k))) wi dA wj dB (W k)) K.
Proof.
  intros g R0 Ztop x y Zs Da Db e W itf rho K wi dA wj dB H. unfold surface_pressure. rewrite (fold_total (fun k => g * rho k * (cs_height Ztop Zs (itf (k + 1)%nat) - cs_height Ztop Zs (itf k))) K).
  rewrite <- !sum_scale. apply sum_ext. intros k Hk. unfold area, cs_height. cbn [cs_level v_j]. rewrite (H k Hk). ring.
Qed.

(** ** C89: derivatives of the topography *)
Lemma d_chain p a0 d t f' : d <> 0 -> (forall t, derivable_pt_lim (peval p) t (f' t)) ->
  derivable_pt_lim (fun a => peval p ((a - a0) / d)) t (f' ((t - a0) / d) / d).
Proof.
  intros N H. replace (f' ((t - a0) / d) / d) with (f' ((t - a0) / d) * (/ d * (1 - 0))) by (unfold Rdiv; ring).
  apply (derivable_pt_lim_comp (fun a => (a - a0) / d) (peval p)); [|apply H].
  pose proof (derivable_pt_lim_scal (fun a => a - a0) (/ d) t (1 - 0) (derivable_pt_lim_minus _ _ t _ _ (derivable_pt_lim_id t) (derivable_pt_lim_const a0 t))) as X.
  refine (derivable_pt_lim_ext _ _ _ _ _ X). intros s. unfold mult_real_fct, Rdiv. ring.
Qed.
(** exact for polynomials of degree below the order along the lines of an element *)
Theorem C89_exact : forall n, (2 <= n <= 10)%nat -> n <> 4%nat -> exists B, gll_basis n = Some B /\
  forall topo p q i j c a0 d D, (i < n)%nat -> (j < n)%nat -> (length c <= n)%nat -> d <> 0 ->
  let f := fun a => peval c ((a - a0) / d) in
  ((forall s, (s < n)%nat -> topo (p + z s)%Z (q + z j)%Z = f (a0 + d * bG B s)) -> derivable_pt_lim f (a0 + d * bG B i) D ->
     topo_a n B d topo p q i j = D) /\
  ((forall s, (s < n)%nat -> topo (p + z i)%Z (q + z s)%Z = f (a0 + d * bG B s)) -> derivable_pt_lim f (a0 + d * bG B j) D ->
     topo_b n B d topo p q i j = D).
Proof.
  intros n Hn N4. destruct (C55_exact n Hn N4) as (B & E & X). exists B. split; [exact E|].
  intros topo p q i j c a0 d D Hi Hj Lc Nd f.
  assert (Df : exists f', forall t, derivable_pt_lim (peval c) t (f' t)) by (eexists; intros t; apply LegProofs.pdiff_eval).
  destruct Df as (f' & Hf').
  assert (V : forall t, f (a0 + d * t) = peval c t) by (intros t; unfold f; f_equal; field; auto).
  assert (Y : forall m D, (m < n)%nat -> derivable_pt_lim f (a0 + d * bG B m) D -> nsum n (fun s => peval c (bG B s) * bD B s m) / d = D).
  { intros m D' Hm HD. rewrite (X m c f' Hm Lc Hf').
    pose proof (d_chain c a0 d (a0 + d * bG B m) f' Nd Hf') as Z1. replace ((a0 + d * bG B m - a0) / d) with (bG B m) in Z1 by (field; auto).
    exact (uniqueness_limite _ _ _ _ Z1 HD). }
  split.
  - intros H HD. unfold topo_a. rewrite inc_sum. rewrite <- (Y i D Hi HD). f_equal.
    apply nsum_ext. intros s Hs. rewrite (H s Hs), V. ring.
  - intros H HD. unfold topo_b. rewrite inc_sum. rewrite <- (Y j D Hj HD). f_equal.
    apply nsum_ext. intros s Hs. rewrite (H s Hs), V. ring.
Qed.
(** flat ground has no slope, for every tabulated order *)
Theorem C89_flat : forall n, (2 <= n <= 10)%nat -> exists B, gll_basis n = Some B /\
  forall topo p q i j dA dB h, (i < n)%nat -> (j < n)%nat -> (forall s t, (s < n)%nat -> (t < n)%nat -> topo (p + z s)%Z (q + z t)%Z = h) ->
  topo_a n B dA topo p q i j = 0 /\ topo_b n B dB topo p q i j = 0.
Proof.
  intros n Hn. destruct (C55_reference n Hn) as (B & w & E & _ & _ & HD & _). exists B. split; [exact E|].
  intros topo p q i j dA dB h Hi Hj H. unfold topo_a, topo_b. rewrite !inc_sum.
  assert (Z1 : forall m, (m < n)%nat -> nsum n (fun s => bD B s m * h) = 0).
  { intros m Hm. rewrite (nsum_ext n _ (fun s => h * bD B s m)) by (intros; ring). rewrite nsum_scal, (HD m Hm). ring. }
  split.
  - rewrite (nsum_ext n _ (fun s => bD B s i * h)) by (intros s Hs; rewrite H; auto). rewrite Z1 by auto. unfold Rdiv; ring.
  - rewrite (nsum_ext n _ (fun s => bD B s j * h)) by (intros s Hs; rewrite H; auto). rewrite Z1 by auto. unfold Rdiv; ring.
Qed.
(** over flat ground the levels are flat and the metric is that of the sphere or plane
    with one vertical scale *)
Theorem C89_level : forall R0 Ztop x y Zs e, 0 < R0 -> Zs < Ztop ->
  let m := cs_level R0 Ztop x y Zs 0 0 e in v_a2 m = 0 /\ v_b2 m = 0 /\ v_x2 m = / (Ztop - Zs) ^ 2 /\ r_a m = 0 /\ r_b m = 0 /\
  let c := cart_level Ztop 0 0 0 e in v_a2 c = 0 /\ v_b2 c = 0 /\ v_j c = Ztop /\ v_x2 c = / Ztop ^ 2 /\ cart_height Ztop 0 e = Ztop * e.
Proof.
  intros R0 Ztop x y Zs e HR HZ. cbn [cs_level cart_level cart2 h_j v_a2 v_b2 v_x2 v_j r_a r_b]. unfold cart_height.
  repeat match goal with |- _ /\ _ => split end; try ring; try (unfold Rdiv; ring).
  - unfold Rdiv. simpl. rewrite !Rmult_0_r, !Rplus_0_r, Rmult_0_r. replace (Ztop - Zs) with (Ztop - Zs) by reflexivity. rewrite Rmult_1_l, Rmult_1_r. ring.
  - unfold Rdiv. rewrite !Rmult_0_l, !Rmult_0_r, !Rplus_0_r. simpl. rewrite Rmult_1_r, Rmult_1_l. reflexivity.
Qed.

(** a plane has its own slopes, along each axis with the width of the element there *)
Theorem C89_plane : forall n, (2 <= n <= 10)%nat -> n <> 4%nat -> exists B, gll_basis n = Some B /\
  forall topo p q i j a0 b0 dA dB c0 ca cb, (i < n)%nat -> (j < n)%nat -> dA <> 0 -> dB <> 0 ->
  (forall s t, (s < n)%nat -> (t < n)%nat -> topo (p + z s)%Z (q + z t)%Z = c0 + ca * (a0 + dA * bG B s) + cb * (b0 + dB * bG B t)) ->
  topo_slopes n B dA dB topo p q i j = (ca, cb).
Proof.
  intros n Hn N4. destruct (C89_exact n Hn N4) as (B & E & X). exists B. split; [exact E|].
  intros topo p q i j a0 b0 dA dB c0 ca cb Hi Hj Na Nb H. unfold topo_slopes. f_equal.
  - destruct (X topo p q i j [c0 + ca * a0 + cb * (b0 + dB * bG B j); ca * dA] a0 dA ca Hi Hj ltac:(cbn; lia) Na) as (Y & _). apply Y.
    + intros s Hs. rewrite H by assumption. cbn. field. exact Na.
    + pose proof (derivable_pt_lim_plus _ _ (a0 + dA * bG B i) _ _ (derivable_pt_lim_const (c0 + cb * (b0 + dB * bG B j)) (a0 + dA * bG B i)) (d_lin ca (a0 + dA * bG B i))) as D.
      rewrite Rplus_0_l in D. refine (derivable_pt_lim_ext _ _ _ _ _ D). intros t. unfold plus_fct, fct_cte. cbn. field. exact Na.
  - destruct (X topo p q i j [c0 + ca * (a0 + dA * bG B i) + cb * b0; cb * dB] b0 dB cb Hi Hj ltac:(cbn; lia) Nb) as (_ & Y). apply Y.
    + intros s Hs. rewrite H by assumption. cbn. field. exact Nb.
    + pose proof (derivable_pt_lim_plus _ _ (b0 + dB * bG B j) _ _ (derivable_pt_lim_const (c0 + ca * (a0 + dA * bG B i)) (b0 + dB * bG B j)) (d_lin cb (b0 + dB * bG B j))) as D.
      rewrite Rplus_0_l in D. refine (derivable_pt_lim_ext _ _ _ _ _ D). intros t. unfold plus_fct, fct_cte. cbn. field. exact Nb.
Qed.
(** the shallow-water grid does not see the terrain: no slope, one layer between 0 and 1;
    in three dimensions interfaces run from the terrain to the top in the order of the
    coordinate *)
Theorem C89_shallow : forall R0 x y Zs Da Db lev itf K e,
  let m := cs_level R0 1 x y (cs_surface 2 Zs) (cs_surface 2 Da) (cs_surface 2 Db) e in
  v_a2 m = 0 /\ v_b2 m = 0 /\ v_x2 m = 1 /\ r_a m = 0 /\ r_b m = 0 /\ r_x m = 1 /\
  cs_z_level 2 1 Zs lev 0 = 0 /\ cs_z_interface 2 1 Zs itf 0 = 0 /\ cs_z_interface 2 1 Zs itf 1 = 1 /\
  (forall Ztop, Zs < Ztop -> itf O = 0 -> itf K = 1 ->
     cs_surface 3 Zs = Zs /\ cs_z_interface 3 Ztop Zs itf 0 = Zs /\ cs_z_interface 3 Ztop Zs itf K = Ztop /\
     forall i k, itf i < lev k < itf (S i) -> cs_z_interface 3 Ztop Zs itf i < cs_z_level 3 Ztop Zs lev k < cs_z_interface 3 Ztop Zs itf (S i)).
Proof.
  intros R0 x y Zs Da Db lev itf K e m. unfold m, cs_surface, cs_z_level, cs_z_interface. cbn [cs_level h_j v_a2 v_b2 v_x2 v_j r_a r_b r_x Nat.eqb].
  repeat match goal with |- _ /\ _ => split end; try ring; try (unfold Rdiv; ring); try reflexivity.
  - field.
  - intros Ztop HZ H0 H1. unfold cs_height. rewrite H0, H1. split; [reflexivity|]. split; [ring|]. split; [ring|]. intros i k H. nra.
Qed.

(** ** C90: Coriolis parameter and friction strengths of the Cartesian grid *)
(** the parameter has its reference value in the middle of a domain that starts at zero *)
Theorem C90_middle : forall omega R0 lat0 Ymax y, 0 <= Ymax -> R0 <> 0 ->
  cart_coriolis false omega R0 lat0 0 Ymax (Ymax / 2) = 2 * omega * sin lat0 /\
  derivable_pt_lim (cart_coriolis false omega R0 lat0 0 Ymax) y (2 * omega * cos lat0 / R0).
Proof.
  intros omega R0 lat0 Ymax y H N. split.
  - unfold cart_coriolis. rewrite Rminus_0_r, Rabs_right by lra. field. exact N.
  - unfold cart_coriolis. set (b := 2 * omega * cos lat0 / R0). set (f0 := 2 * omega * sin lat0). set (y0 := 1 / 2 * Rabs (Ymax - 0)).
    pose proof (derivable_pt_lim_plus _ _ y _ _ (derivable_pt_lim_const (f0 - b * y0) y) (d_lin b y)) as D. rewrite Rplus_0_l in D.
    refine (derivable_pt_lim_ext _ _ _ _ _ D). intros t. unfold plus_fct, fct_cte. ring.
Qed.
(** ... and not in the middle of any other *)
Theorem C90_middle_refuted : forall omega R0 lat0 Ymin Ymax, omega <> 0 -> R0 <> 0 -> cos lat0 <> 0 -> Ymin <> 0 -> Ymin <= Ymax ->
  cart_coriolis false omega R0 lat0 Ymin Ymax ((Ymin + Ymax) / 2) <> 2 * omega * sin lat0.
Proof.
  intros omega R0 lat0 Ymin Ymax No Nr Nc Ny H E. unfold cart_coriolis in E. rewrite Rabs_right in E by lra.
  assert (K : 2 * omega * cos lat0 / R0 * Ymin = 0) by lra.
  unfold Rdiv in K. repeat (apply Rmult_integral in K; destruct K as [K | K]); try lra. revert K. apply Rinv_neq_0_compat. exact Nr.
Qed.
(** the friction strength is set on all interfaces of the cubed sphere, and on all but
    the top one of the Cartesian grid *)
Theorem C90_strength : forall K f zi old k, (k <= K)%nat -> cs_strength K f zi old k = f (zi k) /\
  ((k < K)%nat -> cart_strength K f zi old k = f (zi k)).
Proof.
  intros K f zi old k H. unfold cs_strength, cart_strength. rewrite (proj2 (Nat.leb_le _ _) H). split; [reflexivity|].
  intros L. rewrite (proj2 (Nat.ltb_lt _ _) L). reflexivity.
Qed.
Theorem C90_strength_refuted : forall K f zi old, cart_strength K f zi old K = old K.
Proof. intros. unfold cart_strength. rewrite Nat.ltb_irrefl. reflexivity. Qed.

(** ** Cases *)
(** a slope on the cubed sphere *)
Example C85_case : let Zs := fun a b => 1 / 5 + a / 5 in exists ea eb ex,
  moves (fun s => cs_map 2 0 1 Zs s 0 (1 / 2)) 0 ea /\ moves (fun s => cs_map 2 0 1 Zs 0 s (1 / 2)) 0 eb /\ moves (cs_map 2 0 1 Zs 0 0) (1 / 2) ex /\
  let m := cs_level 2 1 (tan 0) (tan 0) (Zs 0 0) (1 / 5) 0 (1 / 2) in
  raises ea eb ex (v_a0 m, v_a1 m, v_a2 m) (v_b0 m, v_b1 m, v_b2 m) (v_x0 m, v_x1 m, v_x2 m) /\ v_a2 m = -1 / 32.
Proof.
  intros Zs. pose proof PI_RGT_0. assert (Hp : panel 0) by (unfold panel; lia).
  assert (DA : derivable_pt_lim (fun s => Zs s 0) 0 (1 / 5)).
  { pose proof (derivable_pt_lim_plus _ _ 0 _ _ (derivable_pt_lim_const (1 / 5) 0) (d_lin (1 / 5) 0)) as D. rewrite Rplus_0_l in D.
    refine (derivable_pt_lim_ext _ _ _ _ _ D). intros t. unfold plus_fct, fct_cte, Zs. field. }
  assert (DB : derivable_pt_lim (fun s => Zs 0 s) 0 0) by (apply (derivable_pt_lim_const (1 / 5 + 0 / 5))).
  destruct (C85_vectors 2 0 1 Zs 0 0 (1 / 2) (1 / 5) 0 Hp ltac:(lra) ltac:(lra) DA DB) as ((ea & A) & (eb & B) & (ex & C)).
  exists ea, eb, ex. split; [exact A|]. split; [exact B|]. split; [exact C|]. cbv zeta. split.
  - apply (C85_metric 2 0 1 Zs 0 0 (1 / 2) (1 / 5) 0 ea eb ex ltac:(lra) Hp ltac:(lra) ltac:(lra) DA DB ltac:(unfold Zs; lra) A B C _ (or_introl eq_refl)).
  - cbn [cs_level v_a2]. unfold cs_scale, Zs. rewrite tan_0. field.
Qed.
(** the middle of the edge between panels 0 and 1 *)
Example C86_case : sphere_point 0 1 0 = sphere_point 1 (-1) 0 /\ on_face 1 0 /\ on_face (-1) 0.
Proof.
  split; [|unfold on_face; split; lra]. unfold sphere_point. replace (dot (cube_point 1 (-1) 0) (cube_point 1 (-1) 0)) with (dot (cube_point 0 1 0) (cube_point 0 1 0)) by (cbn; ring).
  cbn. apply vec3_eq; ring.
Qed.
Example C88_case : sum (fun k => area (v_j (cs_level 2 10 0 0 1 0 0 (INR k / 4 + 1 / 8))) 1 1 1 1 (1 / 4)) 4 = 4 * 9.
Proof.
  rewrite (proj1 (C88_volume 2 10 0 0 1 0 0 (fun k => INR k / 4 + 1 / 8) (fun _ => 1 / 4) 1 1 1 1 4 ltac:(rewrite !sum_S, sum_0; lra))).
  cbn [cs2 h_j]. rewrite !Rmult_0_l, !Rplus_0_r, sqrt_1. field.
Qed.

Print Assumptions C85_metric.
Print Assumptions C85_vectors.
Print Assumptions C85_flat.
Print Assumptions C85_top_refuted.
Print Assumptions C85_two_dimensional.
Print Assumptions C86_edges.
Print Assumptions C86_coriolis.
Print Assumptions C87_metric.
Print Assumptions C87_ends.
Print Assumptions C87_positive.
Print Assumptions C87_ordered.
Print Assumptions C87_fold_refuted.
Print Assumptions C87_refused.
Print Assumptions C88_volume.
Print Assumptions C88_volume_refuted.
Print Assumptions C88_pressure.
Print Assumptions C88_pressure_bounds.
Print Assumptions C88_weight.
Print Assumptions C89_exact.
Print Assumptions C89_flat.
Print Assumptions C89_level.
Print Assumptions C89_plane.
Print Assumptions C89_shallow.
Print Assumptions C90_middle.
Print Assumptions C90_middle_refuted.
Print Assumptions C90_strength.
Print Assumptions C90_strength_refuted.
