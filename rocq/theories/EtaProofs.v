(** * Proofs for the states on pressure levels *)
From Coq Require Import Reals Arith Lra Lia.
From Verif Require Import PhysModel PhysSpec InitModel InitSpec DlimProofs BalModel BalSpec BalProofs EtaModel EtaSpec.
Local Open Scope R_scope.

Lemma Rpower_5 x : 0 < x -> Rpower x 5 = x * x * x * x * x.
Proof. intros H. replace 5 with (INR 5) by (cbn; ring). rewrite (Rpower_pow 5 x H). ring. Qed.
Lemma Rpower_half x : 0 < x -> Rpower x (3 / 2 - 1) = sqrt x.
Proof. intros H. replace (3 / 2 - 1) with (/ 2) by lra. apply Rpower_sqrt, H. Qed.

(** a continuous solution of phi (E z) = k z is derivable *)
Lemma solution_derivable phi (E : R -> R) k z d : derivable_pt_lim phi (E z) d -> d <> 0 -> k <> 0 ->
  (exists o, 0 < o /\ forall y, Rabs (y - z) < o -> phi (E y) = k * y) -> continuity_pt E z -> derivable_pt_lim E z (k / d).
Proof.
  intros D Hd Hk (o & Ho & H) C e He.
  pose proof (Rabs_pos_lt d Hd) as Pd. pose proof (Rabs_pos_lt k Hk) as Pk.
  set (ep := Rmin (Rabs d / 2) (e * (Rabs d * Rabs d) / (4 * Rabs k))).
  assert (0 < ep) as Pe.
  { apply Rmin_glb_lt; [lra|]. apply Rdiv_lt_0_compat; [|lra]. apply Rmult_lt_0_compat; [exact He|]. apply Rmult_lt_0_compat; exact Pd. }
  destruct (D ep Pe) as (r & Hr). destruct (C r (cond_pos r)) as (s & Hs & K).
  assert (0 < Rmin s o) as Hm by (apply Rmin_glb_lt; assumption).
  exists (mkposreal _ Hm). cbn. intros h Hh Hh'. pose proof (Rmin_l s o). pose proof (Rmin_r s o).
  set (w := E (z + h) - E z).
  assert (phi (E z + w) - phi (E z) = k * h) as F by (unfold w; replace (E z + (E (z + h) - E z)) with (E (z + h)) by ring; rewrite (H (z + h)), (H z); [ring|replace (z - z) with 0 by ring; rewrite Rabs_R0; exact Ho|replace (z + h - z) with h by ring; lra]).
  assert (w <> 0) as Hw.
  { intros W. rewrite W, Rplus_0_r in F. apply (Rmult_integral_contrapositive_currified k h Hk Hh). lra. }
  assert (Rabs w < r) as Lw.
  { assert (R_dist (E (z + h)) (E z) < r) as L; [|exact L]. apply K. split; [split; [exact I|]|].
    - intros X. apply Hh. lra.
    - cbn. unfold R_dist. replace (z + h - z) with h by ring. lra. }
  specialize (Hr w Hw Lw). rewrite F in Hr.
  set (q := k * h / w) in *. assert (w / h = k / q) as Q by (unfold q; field; repeat split; assumption).
  rewrite Q.
  assert (Rabs (q - d) < Rabs d / 2) as L1 by (eapply Rlt_le_trans; [exact Hr|apply Rmin_l]).
  assert (Rabs (q - d) < e * (Rabs d * Rabs d) / (4 * Rabs k)) as L2 by (eapply Rlt_le_trans; [exact Hr|apply Rmin_r]).
  assert (Rabs d / 2 < Rabs q) as Lq.
  { pose proof (Rabs_triang (d - q) q) as T. replace (d - q + q) with d in T by ring. rewrite (Rabs_minus_sym d q) in T. lra. }
  assert (q <> 0) as Nq by (intros X; rewrite X, Rabs_R0 in Lq; lra).
  replace (k / q - k / d) with (k * (d - q) / (q * d)) by (field; split; assumption).
  unfold Rdiv. rewrite !Rabs_mult, Rabs_inv, Rabs_mult.
  apply (Rmult_lt_reg_r (Rabs q * Rabs d)); [apply Rmult_lt_0_compat; lra|].
  replace (Rabs k * Rabs (d - q) * / (Rabs q * Rabs d) * (Rabs q * Rabs d)) with (Rabs k * Rabs (d - q)) by (field; lra).
  rewrite (Rabs_minus_sym d q).
  assert (Rabs k * Rabs (q - d) < e * (Rabs d * Rabs d) / 4) as L3.
  { apply (Rmult_lt_compat_l (Rabs k)) in L2; [|exact Pk].
    replace (Rabs k * (e * (Rabs d * Rabs d) / (4 * Rabs k))) with (e * (Rabs d * Rabs d) / 4) in L2 by (field; lra). exact L2. }
  assert (e * (Rabs d * Rabs d) / 2 < e * (Rabs q * Rabs d)) as L4.
  { replace (e * (Rabs d * Rabs d) / 2) with (e * (Rabs d / 2 * Rabs d)) by field.
    apply Rmult_lt_compat_l; [exact He|]. apply Rmult_lt_compat_r; assumption. }
  assert (0 < e * (Rabs d * Rabs d)) by (apply Rmult_lt_0_compat; [exact He|apply Rmult_lt_0_compat; exact Pd]).
  lra.
Qed.

(** ** BaroclinicWaveJWTest *)
Lemma jw_cos_pos q eta : 0 < eta0 q < 1 -> 0 < eta <= 1 -> 0 < cos (jw_aux q eta).
Proof.
  intros H1 H2. pose proof PI_RGT_0 as P. unfold jw_aux. apply cos_gt_0.
  - assert (- (1) < eta - eta0 q) as L by lra. apply (Rmult_lt_compat_l (PI / 2)) in L; [|lra]. lra.
  - assert (eta - eta0 q < 1) as L by lra. apply (Rmult_lt_compat_l (PI / 2)) in L; [|lra]. lra.
Qed.
Lemma avg_low c t0 lapse eta : 0 < eta -> g c <> 0 -> lapse <> 0 ->
  derivable_pt_lim (fun e => t0 * g c / lapse * (1 - Rpower e (gas c * lapse / g c))) eta (- gas c * (t0 * Rpower eta (gas c * lapse / g c)) / eta).
Proof.
  intros He Hg Hl. dlim; [exact He|].
  rewrite <- (Rpower_pred eta (gas c * lapse / g c) He) at 2. field. repeat split; lra.
Qed.
Lemma jw_strato_lim c q eta : 0 < eta -> 0 < etat q ->
  derivable_pt_lim (jw_strato c q) eta (gas c * jdt q * ((etat q - eta) * (etat q - eta) * (etat q - eta) * (etat q - eta) * (etat q - eta)) / eta).
Proof.
  intros He Ht. unfold jw_strato. cbv zeta. dlim.
  - apply Rgt_not_eq, Ht.
  - apply Rdiv_lt_0_compat; assumption.
  - field. repeat split; lra.
Qed.
Lemma jw_avg_lim c q eta : 0 < eta -> 0 < etat q -> g c <> 0 -> jlapse q <> 0 ->
  derivable_pt_lim (jw_avg_phi c q) eta (- gas c * jw_avg_t c q eta / eta).
Proof.
  intros He Ht Hg Hl.
  pose proof (avg_low c (jt0 q) (jlapse q) eta He Hg Hl) as A. pose proof (jw_strato_lim c q eta He Ht) as B.
  pose proof (D_minus _ _ _ _ _ A B) as AB. cbv beta in AB.
  destruct (Rtotal_order eta (etat q)) as [L|[L|L]].
  - apply (D_near (fun e => jt0 q * g c / jlapse q * (1 - Rpower e (gas c * jlapse q / g c)) - jw_strato c q e) _ eta _ (etat q - eta)); [lra| |].
    + intros y Hy. apply Rabs_def2 in Hy. unfold jw_avg_phi. cbv zeta. destruct Rlt_dec as [_|N]; [reflexivity|lra].
    + eapply D_eq; [exact AB|]. unfold jw_avg_t. cbv zeta. destruct Rlt_dec as [_|N]; [|lra].
      rewrite Rpower_5 by lra. field. lra.
  - apply (D_glue (fun e => jt0 q * g c / jlapse q * (1 - Rpower e (gas c * jlapse q / g c)))
        (fun e => jt0 q * g c / jlapse q * (1 - Rpower e (gas c * jlapse q / g c)) - jw_strato c q e)).
    + unfold jw_avg_t. cbv zeta. destruct Rlt_dec as [N|_]; [lra|]. exact A.
    + unfold jw_avg_t. cbv zeta. destruct Rlt_dec as [N|_]; [lra|]. eapply D_eq; [exact AB|]. rewrite L. field. lra.
    + unfold jw_avg_phi. cbv zeta. destruct Rlt_dec as [N|_]; [lra|reflexivity].
    + unfold jw_avg_phi. cbv zeta. destruct Rlt_dec as [N|_]; [lra|].
      unfold jw_strato. cbv zeta beta. rewrite <- L. replace (eta / eta) with 1 by (field; lra). rewrite ln_1. field.
      (* 137/60 - 5 + 5 - 10/3 + 5/4 - 1/5 = 0 *) lra.
    + intros y. unfold jw_avg_phi. cbv zeta. destruct Rlt_dec; [right|left]; reflexivity.
  - apply (D_near (fun e => jt0 q * g c / jlapse q * (1 - Rpower e (gas c * jlapse q / g c))) _ eta _ (eta - etat q)); [lra| |].
    + intros y Hy. apply Rabs_def2 in Hy. unfold jw_avg_phi. cbv zeta. destruct Rlt_dec as [N|_]; [lra|reflexivity].
    + unfold jw_avg_t. cbv zeta. destruct Rlt_dec as [N|_]; [lra|]. exact A.
Qed.
(** the profiles of latitude *)
Definition jw_a (lat : R) : R := - (2) * (sin lat * (sin lat * (sin lat * (sin lat * (sin lat * sin lat))))) * (cos lat * cos lat + 1 / 3) + 10 / 63.
Lemma jw_p1_a q eta lat : jw_p1 q eta lat = ju0 q * jw_cos q eta * jw_a lat.
Proof. reflexivity. Qed.
Lemma jw_cos_lim q (E : R -> R) x E' : derivable_pt_lim E x E' -> 0 < cos (jw_aux q (E x)) ->
  derivable_pt_lim (fun y => jw_cos q (E y)) x (- (3 / 4 * PI * sin (jw_aux q (E x)) * sqrt (cos (jw_aux q (E x)))) * E').
Proof.
  intros D P. unfold jw_cos, jw_aux in *. eapply D_eq; [repeat (exact D || dstep); cbv beta; exact P|]. cbv beta.
  rewrite Rpower_half by exact P. field.
Qed.
Lemma jw_wind_lim q (E : R -> R) x E' A B : derivable_pt_lim E x E' -> 0 < cos (jw_aux q (E x)) ->
  derivable_pt_lim (fun y => ju0 q * jw_cos q (E y) * (ju0 q * jw_cos q (E y) * A + B)) x
    (- (3 / 4 * PI * ju0 q * sin (jw_aux q (E x)) * sqrt (cos (jw_aux q (E x))) * (2 * (ju0 q * jw_cos q (E x) * A) + B)) * E').
Proof.
  intros D P. pose proof (jw_cos_lim q E x E' D P) as J.
  eapply D_eq; [repeat (exact J || dstep); cbv beta|]. cbv beta. ring.
Qed.
Lemma jw_a_lim lat : derivable_pt_lim jw_a lat (- (16) * (sin lat * (sin lat * (sin lat * (sin lat * sin lat)))) * (cos lat * cos lat * cos lat)).
Proof.
  unfold jw_a. dlim. pose proof (sin2_cos2 lat) as Q. unfold Rsqr in Q. assert (sin lat * sin lat = 1 - cos lat * cos lat) as S by lra.
  set (s := sin lat) in *. set (k := cos lat) in *. clearbody s k.
  replace (- (2)) with (-2) by ring. 
  transitivity (s * (s * s) * (s * s) * (4 * k * (s * s) - 12 * k * (k * k) - 4 * k)); [field|]. rewrite S. 
  transitivity (s * (1 - k * k) * (1 - k * k) * (- 16 * k * (k * k))); [field|]. rewrite <- S. ring.
Qed.
Lemma jw_p2_lim c lat : derivable_pt_lim (jw_p2 c) lat (- (8) * earth_radius c * omega c * (sin lat * sin lat * sin lat) * (cos lat * cos lat)).
Proof.
  unfold jw_p2. cbv zeta. dlim. pose proof (sin2_cos2 lat) as Q. unfold Rsqr in Q. assert (cos lat * cos lat = 1 - sin lat * sin lat) as S by lra.
  set (s := sin lat) in *. set (k := cos lat) in *. clearbody s k.
  transitivity (earth_radius c * omega c * (8 / 5) * s * (k * k) * (2 * (k * k) - 3 * (s * s) - 2)); [field|].
  rewrite S. field.
Qed.

Lemma jw_levels c q eta lat : gas c <> 0 -> g c <> 0 -> jlapse q <> 0 -> 0 < eta0 q < 1 -> 0 < etat q -> 0 < eta <= 1 ->
  derivable_pt_lim (fun e => jw_phi c q e lat) eta (- gas c * jw_temp c q eta lat / eta).
Proof.
  intros Hr Hg Hl H0 Ht He. pose proof (jw_cos_pos q eta H0 He) as P.
  pose proof (jw_avg_lim c q eta (proj1 He) Ht Hg Hl) as A.
  pose proof (jw_wind_lim q (fun e => e) eta 1 (jw_a lat) (jw_p2 c lat) (D_id eta) P) as B.
  eapply D_eq; [exact (D_plus _ _ _ _ _ A B)|]. unfold jw_temp. rewrite jw_p1_a. field. lra.
Qed.
Lemma jw_lat c q eta lat :
  derivable_pt_lim (fun l => jw_phi c q eta l) lat
    (ju0 q * jw_cos q eta * (ju0 q * jw_cos q eta * (- (16) * (sin lat * (sin lat * (sin lat * (sin lat * sin lat)))) * (cos lat * cos lat * cos lat))
      + - (8) * earth_radius c * omega c * (sin lat * sin lat * sin lat) * (cos lat * cos lat))).
Proof.
  pose proof (jw_a_lim lat) as A. pose proof (jw_p2_lim c lat) as B. unfold jw_phi.
  change (derivable_pt_lim (fun l => jw_avg_phi c q eta + ju0 q * jw_cos q eta * (ju0 q * jw_cos q eta * jw_a l + jw_p2 c l)) lat
    (ju0 q * jw_cos q eta * (ju0 q * jw_cos q eta * (- (16) * (sin lat * (sin lat * (sin lat * (sin lat * sin lat)))) * (cos lat * cos lat * cos lat))
      + - (8) * earth_radius c * omega c * (sin lat * sin lat * sin lat) * (cos lat * cos lat)))).
  eapply D_eq; [repeat (exact A || exact B || dstep)|]. cbv beta. ring.
Qed.

Lemma jw_avg_t_lim c q eta : 0 < eta -> exists D, derivable_pt_lim (jw_avg_t c q) eta D.
Proof.
  intros He. set (lo := fun e => jt0 q * Rpower e (gas c * jlapse q / g c)).
  set (up := fun e => lo e + jdt q * ((etat q - e) * (etat q - e) * (etat q - e) * (etat q - e) * (etat q - e))).
  set (d := jt0 q * (gas c * jlapse q / g c * Rpower eta (gas c * jlapse q / g c - 1))).
  assert (derivable_pt_lim lo eta d) as A by (unfold lo; dlim; [exact He|unfold d; ring]).
  assert (derivable_pt_lim up eta (d - 5 * jdt q * ((etat q - eta) * (etat q - eta) * (etat q - eta) * (etat q - eta)))) as B.
  { unfold up. eapply D_eq; [repeat (exact A || dstep)|]. cbv beta. ring. }
  assert (forall e, jw_avg_t c q e = lo e \/ jw_avg_t c q e = up e) as C.
  { intros e. unfold jw_avg_t, up, lo. cbv zeta. destruct Rlt_dec; [right; rewrite Rpower_5 by lra|left]; reflexivity. }
  destruct (Rtotal_order eta (etat q)) as [L|[L|L]].
  - eexists. apply (D_near up _ eta _ (etat q - eta)); [lra| |exact B].
    intros y Hy. apply Rabs_def2 in Hy. unfold up, lo, jw_avg_t. cbv zeta. destruct Rlt_dec; [rewrite Rpower_5 by lra; reflexivity|lra].
  - exists d. apply (D_glue lo up).
    + exact A.
    + eapply D_eq; [exact B|]. rewrite L. ring.
    + unfold jw_avg_t. cbv zeta. destruct Rlt_dec; [lra|reflexivity].
    + unfold jw_avg_t. cbv zeta. destruct Rlt_dec; [lra|]. unfold up, lo. rewrite <- L. ring.
    + exact C.
  - exists d. apply (D_near lo _ eta _ (eta - etat q)); [lra| |exact A].
    intros y Hy. apply Rabs_def2 in Hy. unfold lo, jw_avg_t. cbv zeta. destruct Rlt_dec; [lra|reflexivity].
Qed.
Lemma jw_temp_lim c q eta lat : 0 < eta0 q < 1 -> 0 < eta <= 1 -> exists D, derivable_pt_lim (fun e => jw_temp c q e lat) eta D.
Proof.
  intros H0 He. pose proof (jw_cos_pos q eta H0 He) as P. destruct (jw_avg_t_lim c q eta (proj1 He)) as (D & A).
  pose proof (jw_cos_lim q (fun e => e) eta 1 (D_id eta) P) as B. cbv beta in B.
  assert (exists D, derivable_pt_lim (fun e => jw_avg_t c q e
    + 3 / 4 * e * PI * ju0 q / gas c * sin (1 / 2 * PI * (e - eta0 q)) * sqrt (cos (1 / 2 * PI * (e - eta0 q))) * (2 * (ju0 q * jw_cos q e * jw_a lat) + jw_p2 c lat)) eta D) as K; [eexists|exact K].
  repeat (exact A || exact B || match goal with |- derivable_pt_lim (fun y => @?f y / ?k) _ _ => eapply (D_mult f (fun _ => / k)) end || dstep).
  cbv beta. exact P.
Qed.

(** ** the channel *)
Lemma chan_levels c q beta eta y : gas c <> 0 -> g c <> 0 -> clapse q <> 0 -> cb q <> 0 -> 0 < eta ->
  derivable_pt_lim (fun e => chan_phi c q beta e y) eta (- gas c * chan_temp c q beta eta y / eta).
Proof.
  intros Hr Hg Hl Hb He. pose proof (avg_low c (ct0 q) (clapse q) eta He Hg Hl) as A.
  unfold chan_phi. eapply D_eq; [eapply D_plus; [exact A|]|].
  - unfold chan_decay. repeat dstep; cbv beta; try exact He; exact Hb.
  - cbv beta. unfold chan_temp, chan_decay. field. repeat split; lra.
Qed.
Lemma chan_xy_lim c q beta y : chan_ly q <> 0 ->
  derivable_pt_lim (chan_xy c q beta) y
    (cu0 q * (sin (PI * y / chan_ly q) * sin (PI * y / chan_ly q)) * (2 * omega c * sin (reflat q) + beta * (y - chan_y0 q))).
Proof.
  intros H. pose proof PI_RGT_0. unfold chan_xy. cbv zeta.
  assert (chan_y0 q = chan_ly q / 2) as Y by (unfold chan_y0, chan_ly; field). rewrite Y.
  assert (cos (2 * PI * y / chan_ly q) = 1 - 2 * (sin (PI * y / chan_ly q) * sin (PI * y / chan_ly q))) as K.
  { replace (2 * PI * y / chan_ly q) with (2 * (PI * y / chan_ly q)) by (field; exact H). rewrite cos_2a_sin. ring. }
  dlim; try exact H; try apply PI_neq0. set (l := chan_ly q) in *. set (sn := sin (2 * PI * y / l)). rewrite K. set (s2 := sin (PI * y / l) * sin (PI * y / l)).
  set (f0 := 2 * omega c * sin (reflat q)). clearbody l sn s2 f0. field. repeat split; lra.
Qed.
Lemma chan_wind c q beta eta y : chan_ly q <> 0 -> 
  derivable_pt_lim (fun y => chan_phi c q beta eta y) y (- ((2 * omega c * sin (reflat q) + beta * (y - chan_y0 q)) * chan_u q eta y)).
Proof.
  intros H. pose proof (chan_xy_lim c q beta y H) as A. unfold chan_phi. eapply D_eq; [repeat (exact A || dstep)|].
  cbv beta. unfold chan_u. ring.
Qed.

(** ** the state found at a height *)
Section column.
  Context (c : constants) (Hr : 0 < gas c) (Hc : gas c < cp c) (Hp : 0 < p0 c) (Hg : g c <> 0).
  Context (Inv : forall p, 0 < p -> 0 < rhotheta_from_pressure c p /\ poisson (gas c) (cp c) (p0 c) (rhotheta_from_pressure c p) = p).
  Lemma column_hydrostatic (phi t E u : R -> R) z T' : 
    derivable_pt_lim phi (E z) (- gas c * t (E z) / E z) -> derivable_pt_lim t (E z) T' -> 0 < E z -> 0 < t (E z) ->
    (exists o, 0 < o /\ forall y, Rabs (y - z) < o -> phi (E y) = g c * y) -> continuity_pt E z ->
    hydrostatic (g c) (fun y => press_of c (from_pressure c (u y) (p0 c * E y) (t (E y)))) (fun y => srho (from_pressure c (u y) (p0 c * E y) (t (E y)))) z.
  Proof.
    intros D DT He Ht S C.
    assert (- gas c * t (E z) / E z <> 0) as N.
    { unfold Rdiv. rewrite Ropp_mult_distr_l_reverse, Ropp_mult_distr_l_reverse. apply Ropp_neq_0_compat.
      apply Rgt_not_eq. apply Rmult_lt_0_compat; [apply Rmult_lt_0_compat; assumption|apply Rinv_0_lt_compat, He]. }
    pose proof (solution_derivable phi E (g c) z _ D N Hg S C) as DE.
    destruct (near_pos E z _ DE He) as (r1 & P1 & N1).
    destruct (near_pos (fun y => t (E y)) z _ (derivable_pt_lim_comp E t z _ _ DE DT) Ht) as (r2 & P2 & N2).
    unfold hydrostatic. apply (D_near (fun y => p0 c * E y) _ z _ (Rmin r1 r2)).
    - apply Rmin_glb_lt; assumption.
    - intros y Hy. pose proof (Rmin_l r1 r2). pose proof (Rmin_r r1 r2). symmetry. apply of_pressure; try assumption.
      + apply Rmult_lt_0_compat; [exact Hp|apply N1; lra].
      + apply N2; lra.
    - eapply D_eq; [repeat (exact DE || dstep)|]. cbv beta. cbn [srho from_pressure]. field. repeat split; lra.
  Qed.
End column.

(** ** the Newton iteration *)
Fixpoint iter (f : R -> R) (n : nat) (x : R) : R := match n with O => x | S k => iter f k (f x) end.
Lemma iter_out f n x : iter f (S n) x = f (iter f n x).
Proof. revert x. induction n as [|n IH]; intros x; [reflexivity|]. change (iter f (S n) (f x) = f (iter f n (f x))). apply IH. Qed.
Lemma search_spec calc r g z conv most : forall i eta,
  (exists n, (n < most)%nat /\ let e := iter (newton calc r g z) n eta in
     Rabs (e - newton calc r g z e) < conv /\
     (forall m, (m < n)%nat -> conv <= Rabs (iter (newton calc r g z) m eta - iter (newton calc r g z) (S m) eta)) /\
     search calc r g z conv most i eta = inl (Converged (newton calc r g z e) (fst (calc e)) (snd (calc e)))) \/
  ((forall m, (m < most)%nat -> conv <= Rabs (iter (newton calc r g z) m eta - iter (newton calc r g z) (S m) eta)) /\
   search calc r g z conv most i eta = inr ((i + most)%nat, iter (newton calc r g z) most eta)).
Proof.
  induction most as [|k IH]; intros i eta.
  - right. split; [lia|]. cbn. f_equal. f_equal. lia.
  - cbn [search]. cbv zeta. destruct Rlt_dec as [L|L].
    + left. exists 0%nat. split; [lia|]. cbn. repeat split; [exact L|lia].
    + destruct (IH (S i) (newton calc r g z eta)) as [(n & H1 & H2 & H3 & H4)|(H1 & H2)].
      * left. exists (S n). split; [lia|]. cbn. split; [exact H2|]. split; [|exact H4].
        intros [|m] Hm; [apply Rnot_lt_le; exact L|]. apply (H3 m). lia.
      * right. split.
        -- intros [|m] Hm; [apply Rnot_lt_le; exact L|]. apply (H1 m). lia.
        -- rewrite H2. replace (S i + k)%nat with (i + S k)%nat by lia. reflexivity.
Qed.
(** powers lie below their tangents *)
Lemma tangent t k : 0 < t -> 0 <= k <= 1 -> Rpower t k <= 1 + k * (t - 1).
Proof.
  intros Ht Hk. unfold Rpower. set (m := k * ln t). pose proof (exp_pos m) as Pm.
  assert (forall a, exp m * (1 + (a - m)) <= exp a) as C.
  { intros a. replace a with (m + (a - m)) at 2 by ring. rewrite exp_plus. apply Rmult_le_compat_l; [lra|]. apply exp_ineq1_le. }
  pose proof (C (ln t)) as C1. rewrite (exp_ln t Ht) in C1. pose proof (C 0) as C2. rewrite exp_0 in C2.
  apply (Rmult_le_compat_l k) in C1; [|lra]. apply (Rmult_le_compat_l (1 - k)) in C2; [|lra].
  unfold m in *. nra.
Qed.
Lemma power_tangent t k : 0 < t -> k <> 0 -> k <= 1 -> 1 - t <= (1 - Rpower t k) / k.
Proof.
  intros Ht Hk H1. destruct (Rle_or_lt 0 k) as [L|L].
  - pose proof (tangent t k Ht (conj L H1)) as T. apply (Rmult_le_reg_r k); [lra|].
    unfold Rdiv. rewrite Rmult_assoc, Rinv_l by exact Hk. lra.
  - assert (1 + k * (t - 1) <= Rpower t k) as T.
    { unfold Rpower. eapply Rle_trans; [|apply exp_ineq1_le]. pose proof (exp_ineq1_le (ln t)) as X. rewrite (exp_ln t Ht) in X.
      assert (ln t <= t - 1) as Y by lra. apply (Rmult_le_compat_neg_l k) in Y; lra. }
    apply (Rmult_le_reg_r (- k)); [lra|]. replace ((1 - Rpower t k) / k * - k) with (Rpower t k - 1) by (field; exact Hk). lra.
Qed.
Lemma Rpower_ratio a b k : 0 < a -> 0 < b -> Rpower b k = Rpower a k * Rpower (b / a) k.
Proof. intros Ha Hb. rewrite Rpower_mult_distr; [f_equal; field; lra|exact Ha|apply Rdiv_lt_0_compat; assumption]. Qed.
(** a column whose geopotential lies above its tangents *)
Definition convex_column (r : R) (calc : R -> R * R) : Prop :=
  forall a b, 0 < a -> 0 < b -> 0 < snd (calc a) /\ fst (calc a) - r * snd (calc a) / a * (b - a) <= fst (calc b).
Lemma layer_convex r gg t0 lapse a b : 0 < r -> 0 < gg -> 0 < t0 -> lapse <> 0 -> r * lapse <= gg -> 0 < a -> 0 < b ->
  t0 * gg / lapse * (1 - Rpower a (r * lapse / gg)) - r * (t0 * Rpower a (r * lapse / gg)) / a * (b - a)
    <= t0 * gg / lapse * (1 - Rpower b (r * lapse / gg)).
Proof.
  intros Hr Hg Ht Hl H1 Ha Hb. set (k := r * lapse / gg).
  assert (k <> 0) as Hk by (unfold k, Rdiv; apply Rmult_integral_contrapositive_currified; [apply Rmult_integral_contrapositive_currified; lra|apply Rinv_neq_0_compat; lra]).
  assert (k <= 1) as K1.
  { unfold k. apply (Rmult_le_reg_r gg); [exact Hg|]. unfold Rdiv. rewrite Rmult_assoc, Rinv_l by lra. lra. }
  pose proof (power_tangent (b / a) k ltac:(apply Rdiv_lt_0_compat; assumption) Hk K1) as T.
  rewrite (Rpower_ratio a b k Ha Hb). pose proof (Rpower_pos a k) as P. set (x := Rpower a k) in *. set (y := Rpower (b / a) k) in *.
  assert (gg / lapse = r / k) as G by (unfold k; field; repeat split; lra).
  replace (t0 * gg / lapse) with (t0 * (r / k)) by (rewrite <- G; field; exact Hl).
  assert (0 <= t0 * r * x) as Q by (repeat apply Rmult_le_pos; lra).
  apply (Rmult_le_compat_l (t0 * r * x)) in T; [|exact Q].
  replace (t0 * r * x * (1 - b / a)) with (- (r * (t0 * x) / a * (b - a))) in T by (field; lra).
  replace (t0 * (r / k) * (1 - x * y)) with (t0 * (r / k) * (1 - x) + t0 * r * x * ((1 - y) / k)) by (field; exact Hk). lra.
Qed.
Lemma shear_convex c q z : 0 < gas c -> 0 < g c -> 0 < st0 q -> slapse q <> 0 -> gas c * slapse q <= g c ->
  0 < temp1 q -> 0 < level2 q -> sstrato q <> 0 -> gas c * sstrato q <= g c -> convex_column (gas c) (shear_calc c q z).
Proof.
  intros Hr Hg Ht Hl H1 Ht1 Hl2 Hs H2 a b Ha Hb. unfold shear_calc.
  destruct Rle_dec as [_|_]; [|destruct Rle_dec as [_|_]]; cbn [fst snd].
  - split; [apply Rmult_lt_0_compat; [exact Ht|apply Rpower_pos]|]. apply layer_convex; assumption.
  - split; [exact Ht1|]. assert (ln b <= ln a + (b / a - 1)) as T.
    { pose proof (exp_ineq1_le (ln (b / a))) as X. assert (0 < b / a) as Y by (apply Rdiv_lt_0_compat; assumption).
      rewrite (exp_ln _ Y) in X. unfold Rdiv in X at 1. rewrite ln_mult in X; [|exact Hb|apply Rinv_0_lt_compat, Ha]. rewrite (ln_Rinv a Ha) in X. lra. }
    assert (0 <= gas c * temp1 q) as Q by (apply Rmult_le_pos; lra). apply (Rmult_le_compat_l _ _ _ Q) in T.
    replace (gas c * temp1 q / a * (b - a)) with (gas c * temp1 q * (b / a - 1)) by (field; lra). lra.
  - assert (0 < a / level2 q) as A by (apply Rdiv_lt_0_compat; assumption). assert (0 < b / level2 q) as B by (apply Rdiv_lt_0_compat; assumption).
    split; [apply Rmult_lt_0_compat; [exact Ht1|apply Rpower_pos]|].
    pose proof (layer_convex (gas c) (g c) (temp1 q) (sstrato q) _ _ Hr Hg Ht1 Hs H2 A B) as L.
    set (x := Rpower (a / level2 q) (gas c * sstrato q / g c)) in *. set (y := Rpower (b / level2 q) (gas c * sstrato q / g c)) in *.
    replace (gas c * (temp1 q * x) / (a / level2 q) * (b / level2 q - a / level2 q)) with (gas c * (temp1 q * x) / a * (b - a)) in L by (field; lra). lra.
Qed.
Lemma newton_below r gg z calc root e : 0 < r -> convex_column r calc -> 0 < root -> fst (calc root) = gg * z -> 0 < e <= root ->
  e <= newton calc r gg z e <= root.
Proof.
  intros Hr C Hroot Er (He & Hle). destruct (C e root He Hroot) as (T & A). destruct (C root e Hroot He) as (T' & B).
  unfold newton. destruct (calc e) as (phi, t) eqn:E. destruct (calc root) as (phi', t') eqn:E'. cbn [fst snd] in *. subst phi'.
  assert (0 < r * t) as P by (apply Rmult_lt_0_compat; assumption).
  assert (0 <= r * t' / root * (root - e)) as P'.
  { apply Rmult_le_pos; [|lra]. apply Rlt_le, Rdiv_lt_0_compat; [apply Rmult_lt_0_compat; assumption|exact Hroot]. }
  replace (r * t' / root * (e - root)) with (- (r * t' / root * (root - e))) in B by ring.
  replace (e - (- gg * z + phi) / (- r / e * t)) with (e + (phi - gg * z) * (e / (r * t))) by (field; lra).
  assert (0 < e / (r * t)) as K by (apply Rdiv_lt_0_compat; assumption).
  split.
  - assert (0 <= (phi - gg * z) * (e / (r * t))) by (apply Rmult_le_pos; lra). lra.
  - assert ((phi - gg * z) * (e / (r * t)) <= r * t / e * (root - e) * (e / (r * t))) as L by (apply Rmult_le_compat_r; lra).
    replace (r * t / e * (root - e) * (e / (r * t))) with (root - e) in L by (field; lra). lra.
Qed.
Lemma iter_below r gg z calc root init n : 0 < r -> convex_column r calc -> fst (calc root) = gg * z -> 0 < init <= root ->
  init <= iter (newton calc r gg z) n init /\
  iter (newton calc r gg z) n init <= iter (newton calc r gg z) (S n) init <= root.
Proof.
  intros Hr C Er Hi. assert (init <= iter (newton calc r gg z) n init <= root) as I.
  { induction n as [|n IH]; [cbn; lra|]. rewrite iter_out. pose proof (newton_below r gg z calc root (iter (newton calc r gg z) n init) Hr C ltac:(lra) Er ltac:(lra)). lra. }
  split; [lra|]. rewrite iter_out. apply newton_below; try assumption; lra.
Qed.
Lemma growing_gap (u : nat -> R) (b conv : R) : (forall n, u n <= u (S n)) -> (forall n, u n <= b) -> 0 < conv -> exists n, u (S n) - u n < conv.
Proof.
  intros G B Hc. destruct (growing_cv u G) as (l & L).
  - exists b. intros x (n & ->). apply B.
  - destruct (L (conv / 2) ltac:(lra)) as (N & H). exists N.
    pose proof (H N ltac:(lia)) as H1. pose proof (H (S N) ltac:(lia)) as H2. unfold R_dist in *. apply Rabs_def2 in H1. apply Rabs_def2 in H2. lra.
Qed.
