(** * Proofs for the initial states on the sphere *)
From Coq Require Import Reals List Lra.
From Verif Require Import PhysModel PhysSpec PhysProps InitModel InitSpec DlimProofs BalModel BalSpec.
Import ListNotations.
Local Open Scope R_scope.

Lemma near_pos f x D : derivable_pt_lim f x D -> 0 < f x -> exists r, 0 < r /\ forall y, Rabs (y - x) < r -> 0 < f y.
Proof.
  intros H P. assert (continuity_pt f x) as C by (apply derivable_continuous_pt; exists D; exact H).
  destruct (C (f x) P) as (r & Hr & K). exists r. split; [exact Hr|]. intros y Hy.
  destruct (Req_dec x y) as [<-|N]; [exact P|].
  assert (R_dist (f y) (f x) < f x) as L by (apply K; split; [split; [exact I|exact N]|exact Hy]).
  unfold R_dist in L. apply Rabs_def2 in L. lra.
Qed.

Section states.
  Context (c : constants) (Hr : 0 < gas c) (Hc : gas c < cp c) (Hp : 0 < p0 c).
  (** what C38 provides for every reachable set of constants *)
  Context (Inv : forall p, 0 < p -> 0 < rhotheta_from_pressure c p /\ poisson (gas c) (cp c) (p0 c) (rhotheta_from_pressure c p) = p).
  Definition press_of (s : state) : R := poisson (gas c) (cp c) (p0 c) (srho s * stheta s).
  Lemma of_pressure u p t : 0 < p -> 0 < t -> press_of (from_pressure c u p t) = p.
  Proof.
    intros H1 H2. unfold press_of, from_pressure. cbn [srho stheta].
    replace (p / (gas c * t) * (rhotheta_from_pressure c p / (p / (gas c * t)))) with (rhotheta_from_pressure c p) by (field; lra).
    apply Inv, H1.
  Qed.
  Lemma of_pressure_gas u p t : 0 < p -> 0 < t -> press_of (from_pressure c u p t) = srho (from_pressure c u p t) * gas c * t.
  Proof. intros H1 H2. rewrite of_pressure by assumption. cbn. field. lra. Qed.
  Lemma of_pressure_pos u p t : 0 < p -> 0 < t -> 0 < srho (from_pressure c u p t) /\ 0 < stheta (from_pressure c u p t).
  Proof.
    intros H1 H2. cbn. assert (0 < p / (gas c * t)) by (apply Rdiv_lt_0_compat; [exact H1|apply Rmult_lt_0_compat; assumption]).
    split; [assumption|]. apply Rdiv_lt_0_compat; [apply Inv, H1|assumption].
  Qed.
  (** a pressure with dp/dz = - p g / (R T) *)
  Lemma hydro_from (u p t : R -> R) z T' : (forall y, 0 < p y) -> derivable_pt_lim t z T' -> 0 < t z ->
    derivable_pt_lim p z (- p z * g c / (gas c * t z)) ->
    hydrostatic (g c) (fun y => press_of (from_pressure c (u y) (p y) (t y))) (fun y => srho (from_pressure c (u y) (p y) (t y))) z.
  Proof.
    intros P HT Pt HD. destruct (near_pos t z T' HT Pt) as (r & Hr0 & N).
    unfold hydrostatic. apply (D_near p _ z _ r Hr0).
    - intros y Hy. symmetry. apply of_pressure; [apply P|apply N, Hy].
    - cbn [srho from_pressure]. eapply D_eq; [exact HD|]. field. split; lra.
  Qed.
  Lemma grad_from (u : R) (p t : R -> R) (v : R -> R) lat D T' : (forall y, 0 < p y) -> derivable_pt_lim t lat T' -> 0 < t lat ->
    derivable_pt_lim p lat D -> earth_radius c <> 0 ->
    u * u * tan lat + 2 * omega c * sin lat * u * earth_radius c + D / p lat * gas c * t lat = 0 ->
    gradient_wind (earth_radius c) (omega c) u (srho (from_pressure c u (p lat) (t lat)))
      (fun y => press_of (from_pressure c (v y) (p y) (t y))) lat.
  Proof.
    intros P HT Pt HD A E. destruct (near_pos t lat T' HT Pt) as (r & Hr0 & N).
    exists D. split.
    - apply (D_near p _ lat _ r Hr0); [|exact HD]. intros y Hy. symmetry. apply of_pressure; [apply P|apply N, Hy].
    - cbn [srho from_pressure]. pose proof (P lat).
      replace (u * u * tan lat / earth_radius c + 2 * omega c * sin lat * u + D / (p lat / (gas c * t lat) * earth_radius c))
        with ((u * u * tan lat + 2 * omega c * sin lat * u * earth_radius c + D / p lat * gas c * t lat) / earth_radius c) by (field; repeat split; lra).
      rewrite E. unfold Rdiv. ring.
  Qed.
End states.
Lemma reachable k y s l : let c := sets l (construct k y s) in 0 < gas c -> gas c < cp c -> 0 < p0 c ->
  forall p, 0 < p -> 0 < rhotheta_from_pressure c p /\ poisson (gas c) (cp c) (p0 c) (rhotheta_from_pressure c p) = p.
Proof.
  intros c H1 H2 H3 p Hp. destruct (C38_inverse k y s l H1 H2 H3) as (I & _). fold c in I. destruct (I p Hp) as (_ & A & _ & B).
  split; [exact A|]. destruct (C38_values k y s l H1 H2 H3 (rhotheta_from_pressure c p) A) as (V & _). fold c in V. rewrite <- V. exact B.
Qed.
Lemma tan_cos lat : cos lat <> 0 -> cos lat * tan lat = sin lat.
Proof. intros H. unfold tan. field. exact H. Qed.

(** ** the pressures are positive *)
Lemma rossby_pos c pp t0 u0 z lat : 0 < pp -> 0 < rossby_pressure c pp t0 u0 z lat.
Proof. intros H. apply Rmult_lt_0_compat; [exact H|apply exp_pos]. Qed.
Lemma wave_pos c t0 u0 z lat : 0 < p0 c -> 0 < wave_pressure c t0 u0 z lat.
Proof. intros H. unfold wave_pressure. cbv zeta. apply Rmult_lt_0_compat; [apply Rmult_lt_0_compat; [exact H|]|]; apply exp_pos. Qed.
Lemma schar_pos c teq ueq cs z lat : 0 < p0 c -> 0 < schar_pressure c teq ueq cs z lat.
Proof. intros H. apply Rmult_lt_0_compat; [exact H|apply exp_pos]. Qed.
Lemma inert_pos c u0 n teq z lat : 0 < p0 c -> 0 < inert_pressure c u0 n teq z lat.
Proof. intros H. unfold inert_pressure, inert_ps. repeat apply Rmult_lt_0_compat; try apply exp_pos. exact H. Qed.
Lemma still_pos c t0 gam z : 0 < p0 c -> 0 < still_pressure c t0 gam z.
Proof. intros H. apply Rmult_lt_0_compat; [exact H|apply exp_pos]. Qed.
Lemma baldauf_pos c t0 z : 0 < p0 c -> 0 < baldauf_pressure c t0 z.
Proof. intros H. apply Rmult_lt_0_compat; [exact H|apply exp_pos]. Qed.
Lemma um_pos c q z lat : 0 < p0 c -> 0 < um_pressure c q z lat.
Proof. intros H. apply Rmult_lt_0_compat; [exact H|apply exp_pos]. Qed.

(** ** vertical derivatives *)
Lemma rossby_dz c pp t0 u0 lat z : gas c <> 0 -> t0 <> 0 ->
  derivable_pt_lim (fun z => rossby_pressure c pp t0 u0 z lat) z (- rossby_pressure c pp t0 u0 z lat * g c / (gas c * t0)).
Proof. intros H1 H2. unfold rossby_pressure. dlim; [nra|]. field. split; assumption. Qed.
Lemma wave_dz c t0 u0 lat z : gas c <> 0 -> t0 <> 0 -> g c <> 0 ->
  derivable_pt_lim (fun z => wave_pressure c t0 u0 z lat) z (- wave_pressure c t0 u0 z lat * g c / (gas c * t0)).
Proof.
  intros H1 H2 H3. assert (wave_h c t0 <> 0) as N.
  { unfold wave_h, Rdiv. repeat apply Rmult_integral_contrapositive_currified; try assumption. apply Rinv_neq_0_compat, H3. }
  unfold wave_pressure. cbv zeta. set (k := exp (- (1 / 2) * _ * _ * sin lat * sin lat)).
  dlim; [exact N|]. unfold wave_h in N |- *. field. repeat split; assumption.
Qed.
Lemma schar_dz c teq ueq cs lat z : gas c <> 0 -> schar_t c teq ueq cs lat <> 0 ->
  derivable_pt_lim (fun z => schar_pressure c teq ueq cs z lat) z (- schar_pressure c teq ueq cs z lat * g c / (gas c * schar_t c teq ueq cs lat)).
Proof.
  intros H1 H2. unfold schar_pressure. set (T := schar_t c teq ueq cs lat) in *. set (k := - ueq * ueq / (2 * gas c * teq) * (sin lat * sin lat)).
  dlim; [apply Rmult_integral_contrapositive_currified; assumption|]. field. split; assumption.
Qed.
Lemma baldauf_dz c t0 z : gas c <> 0 -> t0 <> 0 ->
  derivable_pt_lim (baldauf_pressure c t0) z (- baldauf_pressure c t0 z * g c / (gas c * t0)).
Proof. intros H1 H2. unfold baldauf_pressure. dlim; [apply Rmult_integral_contrapositive_currified; assumption|]. field. split; assumption. Qed.
Lemma still_dz c t0 gam z : gas c <> 0 -> t0 <> 0 -> gam <> 0 -> 0 < 1 - gam / t0 * z ->
  derivable_pt_lim (still_pressure c t0 gam) z (- still_pressure c t0 gam z * g c / (gas c * (t0 - gam * z))).
Proof.
  intros H1 H2 H3 H4. unfold still_pressure. dlim; [exact H4|].
  pose proof (Rpower_pred (1 - gam / t0 * z) (g c / (gas c * gam)) H4) as E. rewrite <- E.
  assert (t0 - gam * z <> 0) as N by (replace (t0 - gam * z) with (t0 * (1 - gam / t0 * z)) by (field; exact H2); apply Rmult_integral_contrapositive_currified; [exact H2|lra]).
  field. repeat split; assumption.
Qed.
Lemma um_int1_lim c q z : um_t0 q <> 0 -> pb q <> 0 -> gas c <> 0 -> g c <> 0 -> lapse q <> 0 -> derivable_pt_lim (um_int1 c q) z (um_tau1 c q z).
Proof.
  intros H1 H2 H3 H4 H5. assert (um_h c q <> 0) as H6.
  { unfold um_h, Rdiv. apply Rmult_integral_contrapositive_currified; [apply Rmult_integral_contrapositive_currified; assumption|]. apply Rinv_neq_0_compat, H4. }
  unfold um_int1, um_tau1, um_scaled. dlim; try (apply Rmult_integral_contrapositive_currified; assumption). field. repeat split; assumption.
Qed.
Lemma um_int2_lim c q z : um_t0 q <> 0 -> pb q <> 0 -> gas c <> 0 -> g c <> 0 -> derivable_pt_lim (um_int2 c q) z (um_tau2 c q z).
Proof.
  intros H1 H2 H3 H4. assert (um_h c q <> 0) as H6.
  { unfold um_h, Rdiv. apply Rmult_integral_contrapositive_currified; [apply Rmult_integral_contrapositive_currified; assumption|]. apply Rinv_neq_0_compat, H4. }
  unfold um_int2, um_tau2, um_scaled. dlim; try (apply Rmult_integral_contrapositive_currified; assumption). field. repeat split; assumption.
Qed.
Lemma um_dz c q z lat : um_t0 q <> 0 -> pb q <> 0 -> gas c <> 0 -> g c <> 0 -> lapse q <> 0 -> um_tau1 c q z - um_tau2 c q z * um_interior q lat <> 0 ->
  derivable_pt_lim (fun z => um_pressure c q z lat) z (- um_pressure c q z lat * g c / (gas c * um_temperature c q z lat)).
Proof.
  intros H1 H2 H3 H4 H5 H6. pose proof (um_int1_lim c q z H1 H2 H3 H4 H5) as D1. pose proof (um_int2_lim c q z H1 H2 H3 H4) as D2.
  unfold um_pressure, um_temperature. set (k := um_interior q lat) in *.
  eapply D_eq.
  - eapply D_mult; [apply D_const|]. eapply D_exp. eapply D_mult; [apply D_const|]. eapply D_minus; [exact D1|]. eapply D_mult; [exact D2|apply D_const].
  - cbv beta. field. repeat split; assumption.
Qed.

(** ** the inertia-gravity wave *)
Section inert.
  Context (c : constants) (u0 n teq : R) (Hr : 0 < gas c) (Hc : gas c < cp c) (Hg : g c <> 0) (Hn : n <> 0) (Ht : 0 < teq).
  Context (K : kappa c = gas c / cp c).
  Local Notation G := (inert_g c n).
  Local Notation ts := (inert_ts c u0 n teq).
  Local Notation t := (inert_t c u0 n teq).
  Local Notation vert := (inert_vert c u0 n teq).
  Lemma inert_split z lat : ts lat <> 0 -> t z lat = exp (n * n * z / g c) * (ts lat * vert z lat).
  Proof.
    intros N. unfold inert_t, inert_vert. replace (- n * n * z / g c) with (- (n * n * z / g c)) by (field; exact Hg).
    rewrite exp_Ropp. pose proof (exp_pos (n * n * z / g c)). field. repeat split; (exact N || lra).
  Qed.
  Lemma inert_vert_pos z lat : 0 < ts lat -> 0 < t z lat -> 0 < vert z lat.
  Proof.
    intros H1 H2. rewrite inert_split in H2 by lra. pose proof (exp_pos (n * n * z / g c)) as P.
    destruct (Rlt_or_le 0 (vert z lat)) as [L|L]; [exact L|]. exfalso.
    assert (0 <= ts lat * - vert z lat) by (apply Rmult_le_pos; lra).
    assert (0 <= exp (n * n * z / g c) * (ts lat * - vert z lat)) by (apply Rmult_le_pos; lra). lra.
  Qed.
  Lemma inert_g_eq : G * (n * n * cp c) = g c * g c.
  Proof. unfold inert_g. field. split; [lra|exact Hn]. Qed.
  Lemma inert_dz z lat : 0 < ts lat -> 0 < t z lat ->
    derivable_pt_lim (fun z => inert_pressure c u0 n teq z lat) z (- inert_pressure c u0 n teq z lat * g c / (gas c * t z lat)).
  Proof.
    intros H1 H2. pose proof (inert_vert_pos z lat H1 H2) as V. unfold inert_pressure. set (ps := inert_ps c u0 n teq lat).
    assert (derivable_pt_lim (fun z => vert z lat) z (- (G * n * n / g c) / ts lat * exp (- n * n * z / g c))) as D.
    { unfold inert_vert. set (tl := ts lat) in *. dlim; try exact Hg. field. split; [exact Hg|lra]. }
    eapply D_eq; [eapply D_mult; [apply D_const|eapply D_power; [exact D|exact V]]|].
    cbv beta. rewrite <- (Rpower_pred (vert z lat) (1 / kappa c) V). rewrite inert_split by lra. rewrite K.
    set (w := Rpower (vert z lat) _). replace (- n * n * z / g c) with (- (n * n * z / g c)) by (field; exact Hg). rewrite exp_Ropp.
    pose proof (exp_pos (n * n * z / g c)). set (e := exp (n * n * z / g c)) in *. set (v := vert z lat) in *. set (tl := ts lat) in *.
    unfold inert_g. field. repeat split; try lra; assumption.
  Qed.
  Local Notation K0 := (u0 + 2 * omega c * earth_radius c).
  Lemma inert_ts_lim lat : derivable_pt_lim ts lat ((ts lat - G) * (u0 * n * n / 2 / (g c * g c) * K0 * sin (2 * lat))).
  Proof.
    unfold inert_ts. dlim. set (e := exp _). field. exact Hg.
  Qed.
  Lemma inert_t_lim z lat : derivable_pt_lim (fun l => t z l) lat ((ts lat - G) * (u0 * n * n / 2 / (g c * g c) * K0 * sin (2 * lat)) * exp (n * n * z / g c)).
  Proof.
    unfold inert_t. eapply D_eq.
    - eapply D_plus; [apply D_const|]. eapply D_mult; [|apply D_const]. eapply D_minus; [apply inert_ts_lim|apply D_const].
    - cbv beta. ring.
  Qed.
  Lemma inert_dl z lat : 0 < ts lat -> 0 < t z lat ->
    derivable_pt_lim (fun l => inert_pressure c u0 n teq z l) lat
      (inert_pressure c u0 n teq z lat * (- u0 * K0 * sin (2 * lat) / (2 * gas c * t z lat))).
  Proof.
    intros H1 H2. pose proof (inert_vert_pos z lat H1 H2) as V. pose proof (inert_ts_lim lat) as D.
    assert (0 < G) as GP.
    { unfold inert_g. apply Rdiv_lt_0_compat; [|apply Rmult_lt_0_compat; [|lra]]; apply Rsqr_pos_lt; assumption. }
    set (ts' := (ts lat - G) * _) in D.
    unfold inert_pressure, inert_ps. eapply D_eq.
    - eapply D_mult; [eapply D_mult; [|eapply D_power]|eapply D_power; [|exact V]].
      + eapply D_mult; [apply D_const|]. eapply D_exp. eapply D_mult; [apply D_const|].
        eapply D_minus; [|apply D_const]. eapply D_cos. eapply D_mult; [apply D_const|apply D_id].
      + eapply D_div; [exact D|apply D_const|]. cbv beta. lra.
      + cbv beta. apply Rdiv_lt_0_compat; assumption.
      + unfold inert_vert. eapply D_minus; [eapply D_plus; [eapply D_mult; [|apply D_const]|apply D_const]|].
        * eapply D_div; [apply D_const|exact D|]. cbv beta. lra.
        * eapply D_div; [apply D_const|exact D|]. cbv beta. lra.
    - cbv beta. set (y := exp (u0 / (4 * G * gas c) * K0 * (cos (2 * lat) - 1))).
      rewrite <- (Rpower_pred (ts lat / teq) (1 / kappa c)) by (apply Rdiv_lt_0_compat; assumption).
      rewrite <- (Rpower_pred (vert z lat) (1 / kappa c) V).
      set (w1 := Rpower (ts lat / teq) _). set (w2 := Rpower (vert z lat) _).
      assert (exp (- n * n * z / g c) = / exp (n * n * z / g c)) as X by (rewrite <- exp_Ropp; f_equal; field; exact Hg).
      assert (vert z lat = (G / exp (n * n * z / g c) + ts lat - G) / ts lat) as V1 by (unfold inert_vert; rewrite X; pose proof (exp_pos (n * n * z / g c)); field; lra).
      assert (t z lat = G + (ts lat - G) * exp (n * n * z / g c)) as T1 by reflexivity.
      rewrite X. rewrite T1 in *. rewrite V1 in *. pose proof (exp_pos (n * n * z / g c)) as EP. set (e := exp (n * n * z / g c)) in *.
      clearbody w1 w2 y. unfold ts'. rewrite K. pose proof inert_g_eq as GE.
      assert (n * n = g c * g c / (G * cp c)) as NE by (rewrite <- GE; field; lra).
      replace (u0 * n * n / 2 / (g c * g c)) with (u0 / (2 * G * cp c)) by (replace (u0 * n * n) with (u0 * (n * n)) by ring; rewrite NE; field; repeat split; lra).
      generalize (sin (2 * lat)). intros s2. generalize dependent (ts lat). intros tl. intros. generalize dependent G. intros G0. intros. field. repeat split; try lra.
  Qed.
End inert.

(** ** meridional derivatives *)
Lemma rossby_dl c pp t0 u0 z lat : gas c <> 0 -> t0 <> 0 ->
  derivable_pt_lim (fun l => rossby_pressure c pp t0 u0 z l) lat
    (rossby_pressure c pp t0 u0 z lat * (- u0 * (u0 + 2 * omega c * earth_radius c) / (gas c * t0) * (sin lat * cos lat))).
Proof. intros H1 H2. unfold rossby_pressure. dlim. set (e := exp _). field. split; assumption. Qed.
Lemma wave_dl c t0 u0 z lat : gas c <> 0 -> t0 <> 0 -> g c <> 0 -> u0 <> 0 ->
  derivable_pt_lim (fun l => wave_pressure c t0 u0 z l) lat
    (wave_pressure c t0 u0 z lat * (- u0 * (u0 + 2 * omega c * earth_radius c) / (gas c * t0) * (sin lat * cos lat))).
Proof.
  intros H1 H2 H3 H4. unfold wave_pressure. cbv zeta. set (k := exp (- z / wave_h c t0)). dlim. set (e := exp _). unfold wave_h. field. repeat split; assumption.
Qed.
Lemma schar_t_lim c teq ueq cs lat : derivable_pt_lim (schar_t c teq ueq cs) lat (- teq * (cs * ueq * ueq / g c) * (2 * sin lat * cos lat)).
Proof. unfold schar_t. dlim. ring. Qed.
Lemma schar_dl c teq ueq cs z lat : gas c <> 0 -> teq <> 0 -> g c <> 0 -> schar_t c teq ueq cs lat <> 0 ->
  derivable_pt_lim (fun l => schar_pressure c teq ueq cs z l) lat
    (schar_pressure c teq ueq cs z lat
       * (- ueq * ueq * (sin lat * cos lat) / gas c * (1 / teq + 2 * teq * cs * z / (schar_t c teq ueq cs lat * schar_t c teq ueq cs lat)))).
Proof.
  intros H1 H2 H3 H4. pose proof (schar_t_lim c teq ueq cs lat) as D. unfold schar_pressure. eapply D_eq.
  - eapply D_mult; [apply D_const|]. eapply D_exp. eapply D_minus.
    + eapply D_mult; [apply D_const|]. eapply D_mult; eapply D_sin, D_id.
    + eapply D_div; [apply D_const|eapply D_mult; [apply D_const|exact D]|].
      cbv beta. apply Rmult_integral_contrapositive_currified; assumption.
  - cbv beta. set (e := exp _). set (T := schar_t c teq ueq cs lat) in *. field. repeat split; assumption.
Qed.
Lemma um_interior_lim q lat : 0 < cos lat -> pk q + 2 <> 0 ->
  derivable_pt_lim (um_interior q) lat (- pk q * sin lat * (Rpower (1 * cos lat) (pk q - 1) - Rpower (1 * cos lat) (pk q + 1))).
Proof.
  intros H1 H2. unfold um_interior. dlim; try lra. replace (pk q + 2 - 1) with (pk q + 1) by ring.
  generalize (Rpower (1 * cos lat) (pk q - 1)) (Rpower (1 * cos lat) (pk q + 1)). intros a b. field. exact H2.
Qed.
Lemma um_dl c q z lat : 0 < cos lat -> pk q + 2 <> 0 -> gas c <> 0 ->
  derivable_pt_lim (fun l => um_pressure c q z l) lat
    (um_pressure c q z lat * (- g c / gas c * (um_int2 c q z * (pk q * sin lat * (Rpower (1 * cos lat) (pk q - 1) - Rpower (1 * cos lat) (pk q + 1)))))).
Proof.
  intros H1 H2 H3. unfold um_pressure. eapply D_eq.
  - eapply D_mult; [apply D_const|]. eapply D_exp. eapply D_mult; [apply D_const|]. eapply D_minus; [apply D_const|].
    eapply D_mult; [apply D_const|apply um_interior_lim; assumption].
  - cbv beta. set (e := exp _). set (a := Rpower _ _). set (b := Rpower _ (pk q + 1)). field. exact H3.
Qed.
Lemma um_t_lim c q z lat : 0 < cos lat -> pk q + 2 <> 0 -> um_tau1 c q z - um_tau2 c q z * um_interior q lat <> 0 ->
  exists D, derivable_pt_lim (fun l => um_temperature c q z l) lat D.
Proof.
  intros H1 H2 H3. eexists. unfold um_temperature. eapply D_div; [apply D_const| |exact H3].
  eapply D_minus; [apply D_const|]. eapply D_mult; [apply D_const|apply um_interior_lim; assumption].
Qed.
Lemma um_tz_lim c q z lat : um_t0 q <> 0 -> pb q <> 0 -> gas c <> 0 -> g c <> 0 -> um_tau1 c q z - um_tau2 c q z * um_interior q lat <> 0 ->
  exists D, derivable_pt_lim (fun z => um_temperature c q z lat) z D.
Proof.
  intros H1 H2 H3 H4 H5. assert (um_h c q <> 0) as H6.
  { unfold um_h, Rdiv. apply Rmult_integral_contrapositive_currified; [apply Rmult_integral_contrapositive_currified; assumption|]. apply Rinv_neq_0_compat, H4. }
  eexists. unfold um_temperature. set (k := um_interior q lat) in *. eapply D_div; [apply D_const| |exact H5].
  unfold um_tau1, um_tau2, um_scaled. repeat dstep; cbv beta; apply Rmult_integral_contrapositive_currified; assumption.
Qed.
Lemma um_t_pos c q z lat : 0 < um_tau1 c q z - um_tau2 c q z * um_interior q lat -> 0 < um_temperature c q z lat.
Proof. intros H. unfold um_temperature. apply Rdiv_lt_0_compat; [lra|exact H]. Qed.
