(** * The explicit step of HighSpeedDynamics: theorems *)
From Coq Require Import FunctionalExtensionality.
From Coq Require Import ZArith Reals List Bool Lia Lra.
From Verif Require Import QuadModel ShallowModel ShallowSpec ShallowProofs ShallowProps ViscModel ViscSpec ViscProofs
  NonhSpec NonhProofs HsModel HsSpec HsProofs.
From Verif Require PhysModel PhysProps.
Import ListNotations.
Local Open Scope R_scope.
Local Notation z := Z.of_nat.
Local Ltac reference n Hn HB B w W HD HA :=
  let B' := fresh in let E := fresh in
  destruct (C55_reference n Hn) as (B' & w & E & W & Sy & HD & HA);
  rewrite HB in E; injection E as <-; exists w; split; [exact W|]; clear Sy.

(** the values of the step at a node of element (a, b) *)
Section At.
Context (c : PhysModel.constants) (n : nat) (B : basis) (G : hgeom) (N : nat) (arg u o : hstate) (dt : R) (h : Z) (nA nB a b : nat).
Context (Ha : (a < nA)%nat) (Hb : (b < nB)%nat).
Local Notation p := (h + z (a * n))%Z.
Local Notation q := (h + z (b * n))%Z.
Local Notation s := (hexplicit c n B G N arg dt h nA nB u o).
Ltac go F := intros Hk Hi Hj; apply Nat.ltb_lt in Hk; unfold hexplicit; cbn [hU hV hP hR hW]; rewrite Hk; apply (patch_there n h nA nB F); assumption.
Lemma at_hu k i j : (k < N)%nat -> (i < n)%nat -> (j < n)%nat ->
  hU s k (p + z i)%Z (q + z j)%Z = hU u k (p + z i)%Z (q + z j)%Z + dt * ten_u c n B G N arg k p q i j.
Proof. go (fun p q i j (_ : R) => hU u k (p + z i)%Z (q + z j)%Z + dt * ten_u c n B G N arg k p q i j). Qed.
Lemma at_hv k i j : (k < N)%nat -> (i < n)%nat -> (j < n)%nat ->
  hV s k (p + z i)%Z (q + z j)%Z = hV u k (p + z i)%Z (q + z j)%Z + dt * ten_v c n B G N arg k p q i j.
Proof. go (fun p q i j (_ : R) => hV u k (p + z i)%Z (q + z j)%Z + dt * ten_v c n B G N arg k p q i j). Qed.
Lemma at_hp k i j : (k < N)%nat -> (i < n)%nat -> (j < n)%nat ->
  hP s k (p + z i)%Z (q + z j)%Z = hP u k (p + z i)%Z (q + z j)%Z + - dt * hdiv n B G (pres_a G arg) (pres_b G arg) k p q i j.
Proof. go (fun p q i j (_ : R) => hP u k (p + z i)%Z (q + z j)%Z + - dt * hdiv n B G (pres_a G arg) (pres_b G arg) k p q i j). Qed.
Lemma at_hr k i j : (k < N)%nat -> (i < n)%nat -> (j < n)%nat ->
  hR s k (p + z i)%Z (q + z j)%Z = hR u k (p + z i)%Z (q + z j)%Z + - dt * hdiv n B G (mass_a G arg) (mass_b G arg) k p q i j.
Proof. go (fun p q i j (_ : R) => hR u k (p + z i)%Z (q + z j)%Z + - dt * hdiv n B G (mass_a G arg) (mass_b G arg) k p q i j). Qed.
Lemma at_hw k i j : (k < N)%nat -> (i < n)%nat -> (j < n)%nat ->
  hW s k (p + z i)%Z (q + z j)%Z = hW u k (p + z i)%Z (q + z j)%Z + (if inner_edge N k then dt * ten_w n B G arg k p q i j else 0).
Proof. go (fun p q i j (_ : R) => hW u k (p + z i)%Z (q + z j)%Z + (if inner_edge N k then dt * ten_w n B G arg k p q i j else 0)). Qed.
End At.

(** ** C94: conservation *)
(** on every level of every element mass and rho theta, summed with w_i w_j J, are those
    of the combination; so is rho w on inner interfaces but for its vertical transport *)
Theorem C94_element : forall n B, (2 <= n <= 10)%nat -> gll_basis n = Some B -> exists w, weights_of n (bW B) w /\
  forall c G N arg u o dt h nA nB a b k, (a < nA)%nat -> (b < nB)%nat -> (k < N)%nat ->
  in_element n h a b (fun x y => J3 G k x y <> 0) ->
  let s := hexplicit c n B G N arg dt h nA nB u o in
  let total f := element_sum n w (h + z (a * n))%Z (h + z (b * n))%Z (fun x y => J3 G k x y * f x y) in
  total (hR s k) = total (hR u k) /\ total (hP s k) = total (hP u k).
Proof.
  intros n B Hn HB. reference n Hn HB B w W HD HA. intros c G N arg u o dt h nA nB a b k Ha Hb Hk NJ s total. unfold total. split.
  - apply (flux_conserved n B (base2 G) w _ _ (mass_a G arg k) (mass_b G arg k) (J3 G k) (hR u k) (hR s k) dt HD HA).
    intros i j Hi Hj. split; [apply NJ; assumption|]. unfold s. rewrite at_hr by assumption. unfold hdiv. ring.
  - apply (flux_conserved n B (base2 G) w _ _ (pres_a G arg k) (pres_b G arg k) (J3 G k) (hP u k) (hP s k) dt HD HA).
    intros i j Hi Hj. split; [apply NJ; assumption|]. unfold s. rewrite at_hp by assumption. unfold hdiv. ring.
Qed.
Print Assumptions C94_element.

Theorem C94_vertical : forall n B, (2 <= n <= 10)%nat -> gll_basis n = Some B -> exists w, weights_of n (bW B) w /\
  forall c G N arg u o dt h nA nB a b k, (a < nA)%nat -> (b < nB)%nat -> (0 < k < N)%nat ->
  in_element n h a b (fun x y => JE G k x y <> 0) ->
  let s := hexplicit c n B G N arg dt h nA nB u o in
  let total f := element_sum n w (h + z (a * n))%Z (h + z (b * n))%Z (fun x y => JE G k x y * f x y) in
  total (hW s k) = total (fun x y => hW u k x y - dt * ((sdot_w G arg k x y - sdot_w G arg (k - 1)%nat x y) / (Zn G k x y - Zn G (k - 1)%nat x y))).
Proof.
  intros n B Hn HB. reference n Hn HB B w W HD HA. intros c G N arg u o dt h nA nB a b k Ha Hb Hk NJ s total. unfold total.
  apply (flux_conserved n B (base2 G) w _ _ (vflux_a G arg k) (vflux_b G arg k) (JE G k)
    (fun x y => hW u k x y - dt * ((sdot_w G arg k x y - sdot_w G arg (k - 1)%nat x y) / (Zn G k x y - Zn G (k - 1)%nat x y))) (hW s k) dt HD HA).
  intros i j Hi Hj. split; [apply NJ; assumption|]. unfold s. rewrite at_hw by (assumption || lia).
  rewrite inner_in by lia. unfold ten_w. unfold Rdiv. ring.
Qed.
Print Assumptions C94_vertical.

(** air of one potential temperature keeps it *)
Theorem C94_theta : forall c n B G N arg u o dt h nA nB a b k t, (a < nA)%nat -> (b < nB)%nat -> (k < N)%nat ->
  in_element n h a b (fun x y => hR arg k x y <> 0 /\ hP arg k x y = t * hR arg k x y /\ hP u k x y = t * hR u k x y) ->
  let s := hexplicit c n B G N arg dt h nA nB u o in
  in_element n h a b (fun x y => hP s k x y = t * hR s k x y).
Proof.
  intros c n B G N arg u o dt h nA nB a b k t Ha Hb Hk H s i j Hi Hj. unfold s. rewrite at_hp, at_hr by assumption.
  set (p := (h + z (a * n))%Z) in *. set (q := (h + z (b * n))%Z) in *.
  assert (FA : forall i j, (i < n)%nat -> (j < n)%nat ->
    pres_a G arg k (p + z i)%Z (q + z j)%Z = t * mass_a G arg k (p + z i)%Z (q + z j)%Z /\
    pres_b G arg k (p + z i)%Z (q + z j)%Z = t * mass_b G arg k (p + z i)%Z (q + z j)%Z).
  { intros i' j' Hi' Hj'. destruct (H i' j' Hi' Hj') as (N0 & T0 & _). fold p q in N0, T0.
    unfold pres_a, pres_b. rewrite T0. split; field; exact N0. }
  unfold hdiv.
  rewrite (v_alpha_ext n B (base2 G) p q (pres_a G arg k) (fun x y => t * mass_a G arg k x y) i j Hj) by (intros; apply FA; assumption).
  rewrite (v_beta_ext n B (base2 G) p q (pres_b G arg k) (fun x y => t * mass_b G arg k x y) i j Hi) by (intros; apply FA; assumption).
  rewrite v_alpha_scal, v_beta_scal. destruct (H i j Hi Hj) as (_ & _ & E). fold p q in E. rewrite E. ring.
Qed.
Print Assumptions C94_theta.

(** ** C95: the unit of time *)
(** the same state and the same Earth with time counted in units l times longer:
    velocities and the Coriolis parameter are l times, pressures l^2 times larger *)
Definition faster (l : R) (s : hstate) : hstate :=
  Hstate (fun k x y => l * hU s k x y) (fun k x y => l * hV s k x y) (hP s) (hR s) (fun k x y => l * hW s k x y).
Definition faster_earth (l : R) (G : hgeom) : hgeom :=
  let g := base2 G in
  Hgeom (Geometry (gJ g) (gA0 g) (gA1 g) (gB0 g) (gB1 g) (fun x y => l * gF g x y) (gTopo g) (gDeltaA g) (gDeltaB g) (gGrav g))
    (J3 G) (JE G) (ka0 G) (ka1 G) (kb0 G) (kb1 G) (dRa G) (dRb G) (eRa G) (eRb G) (Zn G) (Zi G).
Definition faster_air (l : R) (c d : PhysModel.constants) : Prop :=
  forall x, PhysModel.pressure_from_rhotheta d x = l * l * PhysModel.pressure_from_rhotheta c x.

Section Scaled.
Context (l : R) (c d : PhysModel.constants) (n : nat) (B : basis) (G : hgeom) (N : nat) (arg : hstate).
Context (Air : faster_air l c d).
Local Notation G' := (faster_earth l G).
Local Notation arg' := (faster l arg).
Ltac ext := let k := fresh in let x := fresh in let y := fresh in extensionality k; extensionality x; extensionality y.
Lemma sc_xp : xp d arg' = fun k x y => l * l * xp c arg k x y.
Proof. ext. apply Air. Qed.
Lemma sc_con_a : con_a arg' = fun k x y => l * con_a arg k x y.
Proof. ext. unfold con_a. cbn [hR hU faster]. ring. Qed.
Lemma sc_con_b : con_b arg' = fun k x y => l * con_b arg k x y.
Proof. ext. unfold con_b. cbn [hR hV faster]. ring. Qed.
Lemma sc_cov_a : cov_a G' arg' = fun k x y => l * cov_a G arg k x y.
Proof. ext. unfold cov_a. rewrite sc_con_a, sc_con_b. cbn [ka0 ka1 faster_earth]. ring. Qed.
Lemma sc_cov_b : cov_b G' arg' = fun k x y => l * cov_b G arg k x y.
Proof. ext. unfold cov_b. rewrite sc_con_a, sc_con_b. cbn [kb0 kb1 faster_earth]. ring. Qed.
Lemma sc_kin2 : kin2 G' arg' = fun k x y => l * l * kin2 G arg k x y.
Proof. ext. unfold kin2. rewrite sc_con_a, sc_con_b, sc_cov_a, sc_cov_b. ring. Qed.
Lemma sc_mass_a : mass_a G' arg' = fun k x y => l * mass_a G arg k x y.
Proof. ext. unfold mass_a. cbn [J3 hU faster faster_earth]. ring. Qed.
Lemma sc_mass_b : mass_b G' arg' = fun k x y => l * mass_b G arg k x y.
Proof. ext. unfold mass_b. cbn [J3 hV faster faster_earth]. ring. Qed.
Lemma sc_pres_a : pres_a G' arg' = fun k x y => l * pres_a G arg k x y.
Proof. ext. unfold pres_a. rewrite sc_mass_a. cbn [hP hR faster]. ring. Qed.
Lemma sc_pres_b : pres_b G' arg' = fun k x y => l * pres_b G arg k x y.
Proof. ext. unfold pres_b. rewrite sc_mass_b. cbn [hP hR faster]. ring. Qed.
Lemma sc_sdot k x y : sdot G' arg' k x y = l * sdot G arg k x y.
Proof. unfold sdot, mean. cbn [hU hV hW eRa eRb faster faster_earth]. ring. Qed.
Lemma sc_sdot_ua : sdot_ua G' N arg' = fun k x y => l * l * sdot_ua G N arg k x y.
Proof. ext. unfold sdot_ua, on_edges. rewrite sc_sdot. unfold inv_re, mean. cbn [hU hR faster]. destruct (inner_edge _ _); ring. Qed.
Lemma sc_sdot_ub : sdot_ub G' N arg' = fun k x y => l * l * sdot_ub G N arg k x y.
Proof. ext. unfold sdot_ub, on_edges. rewrite sc_sdot. unfold inv_re, mean. cbn [hV hR faster]. destruct (inner_edge _ _); ring. Qed.
Lemma sc_vflux_a : vflux_a G' arg' = fun k x y => l * l * vflux_a G arg k x y.
Proof. ext. unfold vflux_a, inv_re, mean. cbn [hU hW hR JE faster faster_earth]. ring. Qed.
Lemma sc_vflux_b : vflux_b G' arg' = fun k x y => l * l * vflux_b G arg k x y.
Proof. ext. unfold vflux_b, inv_re, mean. cbn [hV hW hR JE faster faster_earth]. ring. Qed.
Lemma sc_sdot_w : sdot_w G' arg' = fun k x y => l * sdot_w G arg k x y.
Proof. ext. unfold sdot_w. cbn [hU hV hW dRa dRb faster faster_earth]. ring. Qed.
Lemma sc_dz_p k x y : dz_p d G' N arg' k x y = l * l * dz_p c G N arg k x y.
Proof. unfold dz_p. rewrite sc_xp. cbn [Zn faster_earth]. destruct (Nat.eqb k 0); [|destruct (Nat.eqb (k + 1) N)]; unfold Rdiv; ring. Qed.
Lemma sc_da_p k p q i j : da_p d n B G' N arg' k p q i j = l * l * da_p c n B G N arg k p q i j.
Proof. unfold da_p. rewrite sc_dz_p, sc_xp. rewrite (d_alpha_scal n B (base2 G') p q (l * l)). cbn [dRa faster_earth].
  change (d_alpha n B (base2 G')) with (d_alpha n B (base2 G)). ring. Qed.
Lemma sc_db_p k p q i j : db_p d n B G' N arg' k p q i j = l * l * db_p c n B G N arg k p q i j.
Proof. unfold db_p. rewrite sc_dz_p, sc_xp. rewrite (d_beta_scal n B (base2 G') p q (l * l)). cbn [dRb faster_earth].
  change (d_beta n B (base2 G')) with (d_beta n B (base2 G)). ring. Qed.
Lemma sc_hdiv (e : R) fa fb fa' fb' k p q i j : fa' = (fun k x y => e * fa k x y) -> fb' = (fun k x y => e * fb k x y) ->
  hdiv n B G' fa' fb' k p q i j = e * hdiv n B G fa fb k p q i j.
Proof.
  intros -> ->. unfold hdiv. rewrite v_alpha_scal, v_beta_scal. cbn [J3 faster_earth].
  change (v_alpha n B (base2 G')) with (v_alpha n B (base2 G)). change (v_beta n B (base2 G')) with (v_beta n B (base2 G)). ring.
Qed.
Lemma sc_vort k p q i j : abs_vort n B G' arg' k p q i j = l * abs_vort n B G arg k p q i j.
Proof.
  unfold abs_vort. rewrite sc_cov_a, sc_cov_b, d_alpha_scal, d_beta_scal.
  change (d_alpha n B (base2 G')) with (d_alpha n B (base2 G)). change (d_beta n B (base2 G')) with (d_beta n B (base2 G)).
  cbn [base2 gF gJ faster_earth]. ring.
Qed.
Lemma sc_ten_u k p q i j : ten_u d n B G' N arg' k p q i j = l * l * ten_u c n B G N arg k p q i j.
Proof.
  unfold ten_u. cbv zeta. rewrite (sc_hdiv l _ _ _ _ k p q i j sc_mass_a sc_mass_b). unfold con_da, dz_edge, vort_a.
  rewrite sc_da_p, sc_db_p, sc_vort, sc_kin2, sc_sdot_ua, sc_con_a, sc_cov_b, d_alpha_scal, d_beta_scal.
  change (d_alpha n B (base2 G')) with (d_alpha n B (base2 G)). change (d_beta n B (base2 G')) with (d_beta n B (base2 G)).
  cbn [base2 gA0 gA1 gJ Zi hR faster faster_earth]. ring.
Qed.
Lemma sc_ten_v k p q i j : ten_v d n B G' N arg' k p q i j = l * l * ten_v c n B G N arg k p q i j.
Proof.
  unfold ten_v. cbv zeta. rewrite (sc_hdiv l _ _ _ _ k p q i j sc_mass_a sc_mass_b). unfold con_db, dz_edge, vort_b.
  rewrite sc_da_p, sc_db_p, sc_vort, sc_kin2, sc_sdot_ub, sc_con_b, sc_cov_a, d_alpha_scal, d_beta_scal.
  change (d_alpha n B (base2 G')) with (d_alpha n B (base2 G)). change (d_beta n B (base2 G')) with (d_beta n B (base2 G)).
  cbn [base2 gB0 gB1 gJ Zi hR faster faster_earth]. ring.
Qed.
End Scaled.

(** a step of length dt / l of the faster state is the faster image of the step of
    length dt: horizontal momentum, rho theta and density *)
Theorem C95_units : forall l c d n B G N arg u o dt h nA nB a b k, l <> 0 -> faster_air l c d ->
  (a < nA)%nat -> (b < nB)%nat -> (k < N)%nat ->
  let s := hexplicit c n B G N arg dt h nA nB u o in
  let s' := hexplicit d n B (faster_earth l G) N (faster l arg) (dt / l) h nA nB (faster l u) (faster l o) in
  in_element n h a b (fun x y => hU s' k x y = l * hU s k x y /\ hV s' k x y = l * hV s k x y /\
    hP s' k x y = hP s k x y /\ hR s' k x y = hR s k x y).
Proof.
  intros l c d n B G N arg u o dt h nA nB a b k L Air Ha Hb Hk s s' i j Hi Hj. unfold s, s'.
  rewrite !at_hu, !at_hv, !at_hp, !at_hr by assumption.
  rewrite (sc_ten_u l c d), (sc_ten_v l c d) by exact Air.
  rewrite (sc_hdiv l n B G l _ _ _ _ k _ _ i j (sc_mass_a l G arg) (sc_mass_b l G arg)).
  rewrite (sc_hdiv l n B G l _ _ _ _ k _ _ i j (sc_pres_a l G arg) (sc_pres_b l G arg)).
  cbn [hU hV hP hR faster]. repeat split; field; exact L.
Qed.
Print Assumptions C95_units.

(** rho w: the horizontal transport scales, but what is differenced in the vertical is
    the mass flux and not a momentum flux, so the two parts scale differently *)
Theorem C95_vertical : forall l n B G N arg u o dt c d h nA nB a b k, l <> 0 -> (a < nA)%nat -> (b < nB)%nat -> (0 < k < N)%nat ->
  let s := hexplicit c n B G N arg dt h nA nB u o in
  let s' := hexplicit d n B (faster_earth l G) N (faster l arg) (dt / l) h nA nB (faster l u) (faster l o) in
  in_element n h a b (fun x y => hW s' k x y = l * hW s k x y +
    (l - 1) * dt * ((sdot_w G arg k x y - sdot_w G arg (k - 1)%nat x y) / (Zn G k x y - Zn G (k - 1)%nat x y))).
Proof.
  intros l n B G N arg u o dt c d h nA nB a b k L Ha Hb Hk s s' i j Hi Hj. unfold s, s'.
  rewrite !at_hw by (assumption || lia). rewrite inner_in by lia. unfold ten_w. cbv zeta.
  rewrite (sc_vflux_a l G arg), (sc_vflux_b l G arg), (sc_sdot_w l G arg), v_alpha_scal, v_beta_scal.
  change (v_alpha n B (base2 (faster_earth l G))) with (v_alpha n B (base2 G)).
  change (v_beta n B (base2 (faster_earth l G))) with (v_beta n B (base2 G)).
  cbn [JE Zn hW faster faster_earth]. unfold Rdiv. rewrite !Rmult_1_l.
  generalize (/ (Zn G k (h + z (a * n) + z i)%Z (h + z (b * n) + z j)%Z - Zn G (k - 1)%nat (h + z (a * n) + z i)%Z (h + z (b * n) + z j)%Z)).
  generalize (/ JE G k (h + z (a * n) + z i)%Z (h + z (b * n) + z j)%Z). intros. field. exact L.
Qed.
Print Assumptions C95_vertical.
(** so the law fails for every vertical motion whose mass flux varies with height *)
Theorem C95_vertical_refuted : forall l n B G N arg u o dt c d h nA nB a b k i j, l <> 0 -> l <> 1 -> dt <> 0 ->
  (a < nA)%nat -> (b < nB)%nat -> (0 < k < N)%nat -> (i < n)%nat -> (j < n)%nat ->
  let s := hexplicit c n B G N arg dt h nA nB u o in
  let s' := hexplicit d n B (faster_earth l G) N (faster l arg) (dt / l) h nA nB (faster l u) (faster l o) in
  let x := (h + z (a * n) + z i)%Z in let y := (h + z (b * n) + z j)%Z in
  hU arg k x y = 0 -> hV arg k x y = 0 -> hU arg (k - 1)%nat x y = 0 -> hV arg (k - 1)%nat x y = 0 ->
  Zn G k x y <> Zn G (k - 1)%nat x y -> hW arg (k + 1)%nat x y <> hW arg (k - 1)%nat x y ->
  hW s' k x y <> l * hW s k x y.
Proof.
  intros l n B G N arg u o dt c d h nA nB a b k i j L L1 D Ha Hb Hk Hi Hj s s' x y U0 V0 U1 V1 HZ HW E.
  assert (P : hW s' k x y = l * hW s k x y +
    (l - 1) * dt * ((sdot_w G arg k x y - sdot_w G arg (k - 1)%nat x y) / (Zn G k x y - Zn G (k - 1)%nat x y)))
    by exact (C95_vertical l n B G N arg u o dt c d h nA nB a b k L Ha Hb Hk i j Hi Hj).
  rewrite E in P. unfold sdot_w in P. rewrite U0, V0, U1, V1 in P.
  replace (k - 1 + 1)%nat with k in P by lia.
  assert (Q : (l - 1) * dt * ((1 / 2 * (hW arg (k + 1)%nat x y - hW arg (k - 1)%nat x y)) / (Zn G k x y - Zn G (k - 1)%nat x y)) = 0).
  { rewrite <- (Rplus_0_r (l * hW s k x y)) in P at 1. apply Rplus_eq_reg_l in P. symmetry.
    refine (eq_trans P _). unfold Rdiv. ring. }
  apply Rmult_integral in Q as [Q|Q]; [apply Rmult_integral in Q as [Q|Q]; lra|].
  unfold Rdiv in Q. apply Rmult_integral in Q as [Q|Q]; [lra|]. revert Q. apply Rinv_neq_0_compat. lra.
Qed.
Print Assumptions C95_vertical_refuted.

(** ** C96: balances *)
(** The Coriolis parameter does no work: it changes the tendencies of rho u^a and
    rho u^b only at right angles to the velocity. *)
Definition spun (f : Z -> Z -> R) (G : hgeom) : hgeom :=
  let g := base2 G in
  Hgeom (Geometry (gJ g) (gA0 g) (gA1 g) (gB0 g) (gB1 g) f (gTopo g) (gDeltaA g) (gDeltaB g) (gGrav g))
    (J3 G) (JE G) (ka0 G) (ka1 G) (kb0 G) (kb1 G) (dRa G) (dRb G) (eRa G) (eRb G) (Zn G) (Zi G).
Theorem C96_work : forall c n B G N arg u o dt h nA nB a b k f, (a < nA)%nat -> (b < nB)%nat -> (k < N)%nat ->
  let s := hexplicit c n B G N arg dt h nA nB u o in
  let s' := hexplicit c n B (spun f G) N arg dt h nA nB u o in
  in_element n h a b (fun x y => hR arg k x y <> 0 -> gJ (base2 G) x y <> 0 -> 
    let ua := ka0 G x y * hU arg k x y + ka1 G x y * hV arg k x y in
    let ub := kb0 G x y * hU arg k x y + kb1 G x y * hV arg k x y in
    ua * hU s' k x y + ub * hV s' k x y = ua * hU s k x y + ub * hV s k x y /\
    gJ (base2 G) x y * (hU s' k x y - hU s k x y) = dt * (f x y - gF (base2 G) x y) * ub /\
    gJ (base2 G) x y * (hV s' k x y - hV s k x y) = - dt * (f x y - gF (base2 G) x y) * ua).
Proof.
  intros c n B G N arg u o dt h nA nB a b k f Ha Hb Hk s s' i j Hi Hj HR HJ ua ub. unfold s, s'.
  rewrite !at_hu, !at_hv by assumption.
  set (p := (h + z (a * n))%Z) in *. set (q := (h + z (b * n))%Z) in *.
  assert (EU : gJ (base2 G) (p + z i)%Z (q + z j)%Z * ten_u c n B (spun f G) N arg k p q i j =
    gJ (base2 G) (p + z i)%Z (q + z j)%Z * ten_u c n B G N arg k p q i j + (f (p + z i)%Z (q + z j)%Z - gF (base2 G) (p + z i)%Z (q + z j)%Z) * ub).
  { unfold ten_u. cbv zeta. unfold vort_a, abs_vort.
    change (con_da (spun f G)) with (con_da G). change (da_p c n B (spun f G)) with (da_p c n B G). change (db_p c n B (spun f G)) with (db_p c n B G).
    change (d_alpha n B (base2 (spun f G))) with (d_alpha n B (base2 G)). change (d_beta n B (base2 (spun f G))) with (d_beta n B (base2 G)).
    change (cov_a (spun f G)) with (cov_a G). change (cov_b (spun f G)) with (cov_b G). change (kin2 (spun f G)) with (kin2 G).
    change (hdiv n B (spun f G)) with (hdiv n B G). change (dz_edge (spun f G)) with (dz_edge G).
    change (mass_a (spun f G)) with (mass_a G). change (mass_b (spun f G)) with (mass_b G). change (sdot_ua (spun f G)) with (sdot_ua G).
    cbn [base2 gF gJ spun].
    set (D := d_alpha n B (base2 G) (cov_b G arg k) p q i j - d_beta n B (base2 G) (cov_a G arg k) p q i j).
    unfold ub. unfold cov_b, con_a, con_b. 
    generalize (con_da G (da_p c n B G N arg) (db_p c n B G N arg) k p q i j)
      (con_da G (fun k => d_alpha n B (base2 G) (kin2 G arg k)) (fun k => d_beta n B (base2 G) (kin2 G arg k)) k p q i j)
      (hdiv n B G (mass_a G arg) (mass_b G arg) k p q i j) (dz_edge G (sdot_ua G N arg) k (p + z i) (q + z j)).
    intros. field. split; assumption. }
  assert (EV : gJ (base2 G) (p + z i)%Z (q + z j)%Z * ten_v c n B (spun f G) N arg k p q i j =
    gJ (base2 G) (p + z i)%Z (q + z j)%Z * ten_v c n B G N arg k p q i j - (f (p + z i)%Z (q + z j)%Z - gF (base2 G) (p + z i)%Z (q + z j)%Z) * ua).
  { unfold ten_v. cbv zeta. unfold vort_b, abs_vort.
    change (con_db (spun f G)) with (con_db G). change (da_p c n B (spun f G)) with (da_p c n B G). change (db_p c n B (spun f G)) with (db_p c n B G).
    change (d_alpha n B (base2 (spun f G))) with (d_alpha n B (base2 G)). change (d_beta n B (base2 (spun f G))) with (d_beta n B (base2 G)).
    change (cov_a (spun f G)) with (cov_a G). change (cov_b (spun f G)) with (cov_b G). change (kin2 (spun f G)) with (kin2 G).
    change (hdiv n B (spun f G)) with (hdiv n B G). change (dz_edge (spun f G)) with (dz_edge G).
    change (mass_a (spun f G)) with (mass_a G). change (mass_b (spun f G)) with (mass_b G). change (sdot_ub (spun f G)) with (sdot_ub G).
    cbn [base2 gF gJ spun].
    set (D := d_alpha n B (base2 G) (cov_b G arg k) p q i j - d_beta n B (base2 G) (cov_a G arg k) p q i j).
    unfold ua. unfold cov_a, con_a, con_b.
    generalize (con_db G (da_p c n B G N arg) (db_p c n B G N arg) k p q i j)
      (con_db G (fun k => d_alpha n B (base2 G) (kin2 G arg k)) (fun k => d_beta n B (base2 G) (kin2 G arg k)) k p q i j)
      (hdiv n B G (mass_a G arg) (mass_b G arg) k p q i j) (dz_edge G (sdot_ub G N arg) k (p + z i) (q + z j)).
    intros. field. split; assumption. }
  generalize dependent (ten_u c n B (spun f G) N arg k p q i j). generalize dependent (ten_v c n B (spun f G) N arg k p q i j).
  generalize dependent (ten_u c n B G N arg k p q i j). generalize dependent (ten_v c n B G N arg k p q i j).
  clearbody ua ub. intros tv tu tv' EV tu' EU. split; [|split].
  - apply (Rmult_eq_reg_l (gJ (base2 G) (p + z i)%Z (q + z j)%Z)); [|exact HJ].
    apply Rminus_diag_uniq.
    match goal with |- ?l - ?r = 0 => transitivity (dt * ua * (gJ (base2 G) (p + z i)%Z (q + z j)%Z * tu') + dt * ub * (gJ (base2 G) (p + z i)%Z (q + z j)%Z * tv')
      - dt * ua * (gJ (base2 G) (p + z i)%Z (q + z j)%Z * tu) - dt * ub * (gJ (base2 G) (p + z i)%Z (q + z j)%Z * tv)); [ring|] end.
    rewrite EU, EV. ring.
  - transitivity (dt * (gJ (base2 G) (p + z i)%Z (q + z j)%Z * tu') - dt * (gJ (base2 G) (p + z i)%Z (q + z j)%Z * tu)); [ring|]. rewrite EU. ring.
  - transitivity (dt * (gJ (base2 G) (p + z i)%Z (q + z j)%Z * tv') - dt * (gJ (base2 G) (p + z i)%Z (q + z j)%Z * tv)); [ring|]. rewrite EV. ring.
Qed.
Print Assumptions C96_work.

(** Air at rest whose pressure is an affine function of height in every element stays
    at rest over any terrain, when the slopes of the coordinate surfaces are the
    discrete derivatives of their heights. *)
Theorem C96_rest : forall c n B G N arg u o dt h nA nB a b k al be, annihilates_constants n (bD B) ->
  (a < nA)%nat -> (b < nB)%nat -> (k < N)%nat -> (1 < N)%nat ->
  (forall l, in_element n h a b (fun x y => hU arg l x y = 0 /\ hV arg l x y = 0 /\ hW arg l x y = 0 /\
     PhysModel.pressure_from_rhotheta c (hP arg l x y) = al + be * Zn G l x y /\
     forall m, (l < m < N)%nat -> Zn G m x y <> Zn G l x y)) ->
  (forall i j, (i < n)%nat -> (j < n)%nat -> let p := (h + z (a * n))%Z in let q := (h + z (b * n))%Z in
     dRa G k (p + z i)%Z (q + z j)%Z = ddx n (bD B) (gDeltaA (base2 G)) (Zn G k) p q i j /\
     dRb G k (p + z i)%Z (q + z j)%Z = ddy n (bD B) (gDeltaB (base2 G)) (Zn G k) p q i j) ->
  let s := hexplicit c n B G N arg dt h nA nB u o in
  in_element n h a b (fun x y => hU s k x y = hU u k x y /\ hV s k x y = hV u k x y /\ hP s k x y = hP u k x y /\
    hR s k x y = hR u k x y /\ hW s k x y = hW u k x y).
Proof.
  intros c n B G N arg u o dt h nA nB a b k al be HD Ha Hb Hk HN H HT s i j Hi Hj. unfold s.
  rewrite at_hu, at_hv, at_hp, at_hr, at_hw by assumption.
  set (p := (h + z (a * n))%Z) in *. set (q := (h + z (b * n))%Z) in *.
  assert (R0 : forall l i j, (i < n)%nat -> (j < n)%nat -> hU arg l (p + z i)%Z (q + z j)%Z = 0 /\ hV arg l (p + z i)%Z (q + z j)%Z = 0 /\ hW arg l (p + z i)%Z (q + z j)%Z = 0).
  { intros l i' j' Hi' Hj'. destruct (H l i' j' Hi' Hj') as (A1 & A2 & A3 & _). auto. }
  assert (P0 : forall l i j, (i < n)%nat -> (j < n)%nat -> xp c arg l (p + z i)%Z (q + z j)%Z = al + be * Zn G l (p + z i)%Z (q + z j)%Z).
  { intros l i' j' Hi' Hj'. destruct (H l i' j' Hi' Hj') as (_ & _ & _ & A & _). exact A. }
  assert (Z0 : forall F, (forall i j, (i < n)%nat -> (j < n)%nat -> F (p + z i)%Z (q + z j)%Z = 0) -> 
    v_alpha n B (base2 G) F p q i j = 0 /\ v_beta n B (base2 G) F p q i j = 0 /\ d_alpha n B (base2 G) F p q i j = 0 /\ d_beta n B (base2 G) F p q i j = 0).
  { intros F HF. rewrite (v_alpha_ext n B (base2 G) p q F (fun _ _ => 0 * 0) i j Hj) by (intros; rewrite HF by assumption; ring).
    rewrite (v_beta_ext n B (base2 G) p q F (fun _ _ => 0 * 0) i j Hi) by (intros; rewrite HF by assumption; ring).
    rewrite (d_alpha_const n B (base2 G) p q F 0 i j HD Hi Hj HF), (d_beta_const n B (base2 G) p q F 0 i j HD Hi Hj HF).
    rewrite (v_alpha_scal n B (base2 G) p q 0 (fun _ _ => 0)), (v_beta_scal n B (base2 G) p q 0 (fun _ _ => 0)). repeat split; ring. }
  assert (DZ : dz_p c G N arg k (p + z i) (q + z j) = be).
  { unfold dz_p. rewrite !P0 by assumption.
    assert (NZ : forall l m, (l < m < N)%nat -> Zn G m (p + z i)%Z (q + z j)%Z - Zn G l (p + z i)%Z (q + z j)%Z <> 0).
    { intros l m Hm. destruct (H l i j Hi Hj) as (_ & _ & _ & _ & A). specialize (A m Hm). unfold p, q. lra. }
    destruct (Nat.eqb_spec k 0); [|destruct (Nat.eqb_spec (k + 1) N)]; field; apply NZ; lia. }
  assert (DA : da_p c n B G N arg k p q i j = 0).
  { unfold da_p. rewrite DZ. destruct (HT i j Hi Hj) as [-> _].
    rewrite (d_alpha_ext n B (base2 G) p q (xp c arg k) (fun x y => (fun _ _ => al) x y + (fun x y => be * Zn G k x y) x y) i j Hj) by (intros; apply P0; assumption).
    rewrite d_alpha_plus, d_alpha_scal, (d_alpha_const n B (base2 G) p q (fun _ _ => al) al i j HD Hi Hj) by reflexivity.
    rewrite d_alpha_ddx. ring. }
  assert (DB : db_p c n B G N arg k p q i j = 0).
  { unfold db_p. rewrite DZ. destruct (HT i j Hi Hj) as [_ ->].
    rewrite (d_beta_ext n B (base2 G) p q (xp c arg k) (fun x y => (fun _ _ => al) x y + (fun x y => be * Zn G k x y) x y) i j Hi) by (intros; apply P0; assumption).
    rewrite d_beta_plus, d_beta_scal, (d_beta_const n B (base2 G) p q (fun _ _ => al) al i j HD Hi Hj) by reflexivity.
    rewrite d_beta_ddy. ring. }
  assert (C0 : forall l i j, (i < n)%nat -> (j < n)%nat -> con_a arg l (p + z i)%Z (q + z j)%Z = 0 /\ con_b arg l (p + z i)%Z (q + z j)%Z = 0).
  { intros l i' j' Hi' Hj'. destruct (R0 l i' j' Hi' Hj') as (A1 & A2 & _). unfold con_a, con_b. rewrite A1, A2. split; ring. }
  assert (V0 : forall l i j, (i < n)%nat -> (j < n)%nat -> cov_a G arg l (p + z i)%Z (q + z j)%Z = 0 /\ cov_b G arg l (p + z i)%Z (q + z j)%Z = 0).
  { intros l i' j' Hi' Hj'. destruct (C0 l i' j' Hi' Hj') as (A1 & A2). unfold cov_a, cov_b. rewrite A1, A2. split; ring. }
  assert (K0 : forall i j, (i < n)%nat -> (j < n)%nat -> kin2 G arg k (p + z i)%Z (q + z j)%Z = 0).
  { intros i' j' Hi' Hj'. destruct (C0 k i' j' Hi' Hj') as (A1 & A2). unfold kin2. rewrite A1, A2. ring. }
  assert (M0 : forall i j, (i < n)%nat -> (j < n)%nat -> mass_a G arg k (p + z i)%Z (q + z j)%Z = 0 /\ mass_b G arg k (p + z i)%Z (q + z j)%Z = 0).
  { intros i' j' Hi' Hj'. destruct (R0 k i' j' Hi' Hj') as (A1 & A2 & _). unfold mass_a, mass_b. rewrite A1, A2. split; ring. }
  destruct (Z0 (mass_a G arg k)) as (Ma & _ & _ & _); [intros; apply M0; assumption|].
  destruct (Z0 (mass_b G arg k)) as (_ & Mb & _ & _); [intros; apply M0; assumption|].
  destruct (Z0 (pres_a G arg k)) as (Pa & _ & _ & _); [intros i' j' Hi' Hj'; unfold pres_a; rewrite (proj1 (M0 i' j' Hi' Hj')); ring|].
  destruct (Z0 (pres_b G arg k)) as (_ & Pb & _ & _); [intros i' j' Hi' Hj'; unfold pres_b; rewrite (proj2 (M0 i' j' Hi' Hj')); ring|].
  destruct (Z0 (kin2 G arg k) K0) as (_ & _ & Ka & Kb).
  destruct (R0 k i j Hi Hj) as (U0 & W0 & _). destruct (C0 k i j Hi Hj) as (Ca & Cb). destruct (V0 k i j Hi Hj) as (Va & Vb).
  assert (S0 : forall l, sdot_ua G N arg l (p + z i)%Z (q + z j)%Z = 0 /\ sdot_ub G N arg l (p + z i)%Z (q + z j)%Z = 0).
  { intro l. unfold sdot_ua, sdot_ub, on_edges, mean. destruct (inner_edge N l); [|split; reflexivity].
    destruct (R0 l i j Hi Hj) as (A1 & A2 & _). destruct (R0 (l - 1)%nat i j Hi Hj) as (A3 & A4 & _). rewrite A1, A2, A3, A4. split; ring. }
  assert (Su : forall l, sdot_ua G N arg l (p + z i)%Z (q + z j)%Z = 0) by (intro l; apply S0).
  assert (Sv : forall l, sdot_ub G N arg l (p + z i)%Z (q + z j)%Z = 0) by (intro l; apply S0).
  unfold ten_u, ten_v, con_da, con_db, vort_a, vort_b, hdiv, dz_edge. cbv zeta.
  rewrite DA, DB, Ma, Mb, Pa, Pb, Ka, Kb, Ca, Cb, Va, Vb, !Su, !Sv.
  split; [ring|]. split; [ring|]. split; [ring|]. split; [ring|].
  destruct (inner_edge N k) eqn:EI; [|ring]. unfold ten_w. cbv zeta.
  destruct (Z0 (vflux_a G arg k)) as (Fa & _); [intros i' j' Hi' Hj'; unfold vflux_a; destruct (R0 k i' j' Hi' Hj') as (_ & _ & ->); ring|].
  destruct (Z0 (vflux_b G arg k)) as (_ & Fb & _); [intros i' j' Hi' Hj'; unfold vflux_b; destruct (R0 k i' j' Hi' Hj') as (_ & _ & ->); ring|].
  assert (Sw : forall l, sdot_w G arg l (p + z i)%Z (q + z j)%Z = 0).
  { intro l. unfold sdot_w. destruct (R0 l i j Hi Hj) as (A1 & A2 & A3). destruct (R0 (l + 1)%nat i j Hi Hj) as (_ & _ & A4).
    rewrite A1, A2, A3, A4. ring. }
  rewrite Fa, Fb, !Sw. ring.
Qed.
Print Assumptions C96_rest.

(** Uniform wind: what carries mass carries momentum.  With one velocity (v, w) in the
    element on all levels, no rotation and a horizontal metric that does not vary, the
    tendency of rho u^a is v times that of rho, less the pressure gradient, where the
    coordinate surfaces are flat and nothing crosses them. *)
Theorem C96_uniform : forall c n B G N arg u o dt h nA nB a b k v w, annihilates_constants n (bD B) ->
  (a < nA)%nat -> (b < nB)%nat -> (k < N)%nat ->
  (forall l, in_element n h a b (fun x y => hR arg l x y <> 0 /\ hU arg l x y = v * hR arg l x y /\ hV arg l x y = w * hR arg l x y /\
     hW arg l x y = 0 /\ eRa G l x y = 0 /\ eRb G l x y = 0)) ->
  in_element n h a b (fun x y => gF (base2 G) x y = 0) ->
  (exists k0 k1 k2 k3, in_element n h a b (fun x y => ka0 G x y = k0 /\ ka1 G x y = k1 /\ kb0 G x y = k2 /\ kb1 G x y = k3)) ->
  let s := hexplicit c n B G N arg dt h nA nB u o in
  forall i j, (i < n)%nat -> (j < n)%nat ->
  let p := (h + z (a * n))%Z in let q := (h + z (b * n))%Z in
  let x := (p + z i)%Z in let y := (q + z j)%Z in
  let pa := da_p c n B G N arg k p q i j in let pb := db_p c n B G N arg k p q i j in
  hU s k x y - hU u k x y = v * (hR s k x y - hR u k x y) - dt * (gA0 (base2 G) x y * pa + gA1 (base2 G) x y * pb) /\
  hV s k x y - hV u k x y = w * (hR s k x y - hR u k x y) - dt * (gB0 (base2 G) x y * pa + gB1 (base2 G) x y * pb).
Proof.
  intros c n B G N arg u o dt h nA nB a b k v w HD Ha Hb Hk H HF (k0 & k1 & k2 & k3 & HK) s i j Hi Hj p q x y pa pb. unfold s, x, y, p, q.
  rewrite at_hu, at_hv, at_hr by assumption. fold p q. fold x y.
  assert (C0 : forall i j, (i < n)%nat -> (j < n)%nat -> con_a arg k (p + z i)%Z (q + z j)%Z = v /\ con_b arg k (p + z i)%Z (q + z j)%Z = w).
  { intros i' j' Hi' Hj'. destruct (H k i' j' Hi' Hj') as (A0 & A1 & A2 & _). fold p q in A0, A1, A2. unfold con_a, con_b. rewrite A1, A2. split; field; exact A0. }
  assert (V0 : forall i j, (i < n)%nat -> (j < n)%nat -> cov_a G arg k (p + z i)%Z (q + z j)%Z = k0 * v + k1 * w /\ cov_b G arg k (p + z i)%Z (q + z j)%Z = k2 * v + k3 * w).
  { intros i' j' Hi' Hj'. destruct (C0 i' j' Hi' Hj') as (A1 & A2). destruct (HK i' j' Hi' Hj') as (B0 & B1 & B2 & B3). fold p q in B0, B1, B2, B3.
    unfold cov_a, cov_b. rewrite A1, A2, B0, B1, B2, B3. split; reflexivity. }
  assert (K0 : forall i j, (i < n)%nat -> (j < n)%nat -> kin2 G arg k (p + z i)%Z (q + z j)%Z = 1 / 2 * ((k0 * v + k1 * w) * v + (k2 * v + k3 * w) * w)).
  { intros i' j' Hi' Hj'. destruct (C0 i' j' Hi' Hj') as (A1 & A2). destruct (V0 i' j' Hi' Hj') as (B1 & B2). unfold kin2. rewrite A1, A2, B1, B2. reflexivity. }
  assert (VA : d_alpha n B (base2 G) (cov_b G arg k) p q i j = 0) by (apply (d_alpha_const n B (base2 G) p q _ (k2 * v + k3 * w) i j HD Hi Hj); intros; apply V0; assumption).
  assert (VB : d_beta n B (base2 G) (cov_a G arg k) p q i j = 0) by (apply (d_beta_const n B (base2 G) p q _ (k0 * v + k1 * w) i j HD Hi Hj); intros; apply V0; assumption).
  assert (KA : d_alpha n B (base2 G) (kin2 G arg k) p q i j = 0) by (apply (d_alpha_const n B (base2 G) p q _ _ i j HD Hi Hj K0)).
  assert (KB : d_beta n B (base2 G) (kin2 G arg k) p q i j = 0) by (apply (d_beta_const n B (base2 G) p q _ _ i j HD Hi Hj K0)).
  assert (S0 : forall l, sdot_ua G N arg l x y = 0 /\ sdot_ub G N arg l x y = 0).
  { intro l. unfold sdot_ua, sdot_ub, on_edges, sdot. destruct (inner_edge N l); [|split; reflexivity].
    destruct (H l i j Hi Hj) as (_ & _ & _ & A1 & A2 & A3). fold p q in A1, A2, A3. fold x y in A1, A2, A3. rewrite A1, A2, A3. split; ring. }
  assert (Su : forall l, sdot_ua G N arg l x y = 0) by (intro l; apply S0).
  assert (Sv : forall l, sdot_ub G N arg l x y = 0) by (intro l; apply S0).
  pose proof (HF i j Hi Hj) as F0. fold p q in F0. destruct (C0 i j Hi Hj) as (Ca & Cb).
  unfold ten_u, ten_v, con_da, con_db, vort_a, vort_b, abs_vort, dz_edge. cbv zeta. fold x y pa pb. fold x y in F0, Ca, Cb.
  rewrite VA, VB, KA, KB, !Su, !Sv, F0, Ca, Cb. split; ring.
Qed.
Print Assumptions C96_uniform.

(** The same with air crossing the coordinate surfaces: momentum crosses them with the
    mass, [m] being the flux of mass through interface l, which no air passes at the
    ground and the lid. *)
Theorem C96_crossing : forall c n B G N arg u o dt h nA nB a b k v w m, annihilates_constants n (bD B) ->
  (a < nA)%nat -> (b < nB)%nat -> (k < N)%nat ->
  (forall l, in_element n h a b (fun x y => 0 < hR arg l x y /\ hU arg l x y = v * hR arg l x y /\ hV arg l x y = w * hR arg l x y)) ->
  in_element n h a b (fun x y => gF (base2 G) x y = 0) ->
  (exists k0 k1 k2 k3, in_element n h a b (fun x y => ka0 G x y = k0 /\ ka1 G x y = k1 /\ kb0 G x y = k2 /\ kb1 G x y = k3)) ->
  let s := hexplicit c n B G N arg dt h nA nB u o in
  forall i j, (i < n)%nat -> (j < n)%nat ->
  let p := (h + z (a * n))%Z in let q := (h + z (b * n))%Z in
  let x := (p + z i)%Z in let y := (q + z j)%Z in
  m O = 0 -> m N = 0 ->
  (forall l, (0 < l < N)%nat -> m l = hW arg l x y - (v * eRa G l x y + w * eRb G l x y) * ((hR arg (l - 1)%nat x y + hR arg l x y) / 2)) ->
  let lost := hR u k x y - hR s k x y + dt * ((m (S k) - m k) / (Zi G (S k) x y - Zi G k x y)) in
  let pa := da_p c n B G N arg k p q i j in let pb := db_p c n B G N arg k p q i j in
  hU s k x y = hU u k x y - v * lost - dt * (gA0 (base2 G) x y * pa + gA1 (base2 G) x y * pb) /\
  hV s k x y = hV u k x y - w * lost - dt * (gB0 (base2 G) x y * pa + gB1 (base2 G) x y * pb).
Proof.
  intros c n B G N arg u o dt h nA nB a b k v w m HD Ha Hb Hk H HF (k0 & k1 & k2 & k3 & HK) s i j Hi Hj p q x y M0 MN M lost pa pb. unfold lost, s, x, y, p, q.
  rewrite at_hu, at_hv, at_hr by assumption. fold p q. fold x y.
  assert (C0 : forall i j, (i < n)%nat -> (j < n)%nat -> con_a arg k (p + z i)%Z (q + z j)%Z = v /\ con_b arg k (p + z i)%Z (q + z j)%Z = w).
  { intros i' j' Hi' Hj'. destruct (H k i' j' Hi' Hj') as (A0 & A1 & A2). fold p q in A0, A1, A2. unfold con_a, con_b. rewrite A1, A2. split; field; lra. }
  assert (V0 : forall i j, (i < n)%nat -> (j < n)%nat -> cov_a G arg k (p + z i)%Z (q + z j)%Z = k0 * v + k1 * w /\ cov_b G arg k (p + z i)%Z (q + z j)%Z = k2 * v + k3 * w).
  { intros i' j' Hi' Hj'. destruct (C0 i' j' Hi' Hj') as (A1 & A2). destruct (HK i' j' Hi' Hj') as (B0 & B1 & B2 & B3). fold p q in B0, B1, B2, B3.
    unfold cov_a, cov_b. rewrite A1, A2, B0, B1, B2, B3. split; reflexivity. }
  assert (K0 : forall i j, (i < n)%nat -> (j < n)%nat -> kin2 G arg k (p + z i)%Z (q + z j)%Z = 1 / 2 * ((k0 * v + k1 * w) * v + (k2 * v + k3 * w) * w)).
  { intros i' j' Hi' Hj'. destruct (C0 i' j' Hi' Hj') as (A1 & A2). destruct (V0 i' j' Hi' Hj') as (B1 & B2). unfold kin2. rewrite A1, A2, B1, B2. reflexivity. }
  assert (VA : d_alpha n B (base2 G) (cov_b G arg k) p q i j = 0) by (apply (d_alpha_const n B (base2 G) p q _ (k2 * v + k3 * w) i j HD Hi Hj); intros; apply V0; assumption).
  assert (VB : d_beta n B (base2 G) (cov_a G arg k) p q i j = 0) by (apply (d_beta_const n B (base2 G) p q _ (k0 * v + k1 * w) i j HD Hi Hj); intros; apply V0; assumption).
  assert (KA : d_alpha n B (base2 G) (kin2 G arg k) p q i j = 0) by (apply (d_alpha_const n B (base2 G) p q _ _ i j HD Hi Hj K0)).
  assert (KB : d_beta n B (base2 G) (kin2 G arg k) p q i j = 0) by (apply (d_beta_const n B (base2 G) p q _ _ i j HD Hi Hj K0)).
  assert (S0 : forall l, (l <= N)%nat -> sdot_ua G N arg l x y = v * m l /\ sdot_ub G N arg l x y = w * m l).
  { intros l Hl. unfold sdot_ua, sdot_ub, on_edges, sdot, inv_re, mean. destruct (Nat.eq_dec l 0) as [->|N0]; [rewrite inner_out, M0 by lia; split; ring|].
    destruct (Nat.eq_dec l N) as [->|N1]; [rewrite inner_out, MN by lia; split; ring|]. rewrite inner_in, M by lia.
    destruct (H l i j Hi Hj) as (A1 & A2 & A3). destruct (H (l - 1)%nat i j Hi Hj) as (B1 & B2 & B3). fold p q in A1, A2, A3, B1, B2, B3. fold x y in A1, A2, A3, B1, B2, B3.
    rewrite A2, A3, B2, B3. split; field; lra. }
  pose proof (HF i j Hi Hj) as F0. fold p q in F0. destruct (C0 i j Hi Hj) as (Ca & Cb).
  destruct (S0 k ltac:(lia)) as (Su & Sv). destruct (S0 (S k) ltac:(lia)) as (Su' & Sv').
  unfold ten_u, ten_v, con_da, con_db, vort_a, vort_b, abs_vort, dz_edge. cbv zeta. fold x y pa pb. fold x y in F0, Ca, Cb.
  rewrite !Nat.add_1_r, VA, VB, KA, KB, Su, Sv, Su', Sv', F0, Ca, Cb. unfold Rdiv. split; ring.
Qed.
Print Assumptions C96_crossing.

(** Shear: a wind that varies across a uniform wind is carried by it.  On a plane with
    straight coordinates, flat surfaces and no rotation, the wind u^a = f(y) in a uniform
    u^b = w gains - rho w df/dy beside what the mass takes with it and the pressure
    gradient; and the same with the directions exchanged. *)
Theorem C96_shear : forall c n B G N arg u o dt h nA nB a b k, annihilates_constants n (bD B) ->
  (a < nA)%nat -> (b < nB)%nat -> (k < N)%nat ->
  (forall l, in_element n h a b (fun x y => hR arg l x y <> 0 /\ hW arg l x y = 0 /\ eRa G l x y = 0 /\ eRb G l x y = 0)) ->
  in_element n h a b (fun x y => gF (base2 G) x y = 0 /\ gJ (base2 G) x y = 1 /\ ka0 G x y = 1 /\ ka1 G x y = 0 /\ kb0 G x y = 0 /\ kb1 G x y = 1 /\
     gA0 (base2 G) x y = 1 /\ gA1 (base2 G) x y = 0 /\ gB0 (base2 G) x y = 0 /\ gB1 (base2 G) x y = 1) ->
  let s := hexplicit c n B G N arg dt h nA nB u o in
  forall i j, (i < n)%nat -> (j < n)%nat ->
  let p := (h + z (a * n))%Z in let q := (h + z (b * n))%Z in
  let x := (p + z i)%Z in let y := (q + z j)%Z in
  (forall f w, in_element n h a b (fun x y => hU arg k x y = f y * hR arg k x y /\ hV arg k x y = w * hR arg k x y) ->
   hU s k x y - hU u k x y = f y * (hR s k x y - hR u k x y)
     - dt * (hR arg k x y * w * ddy n (bD B) (gDeltaB (base2 G)) (fun _ y => f y) p q i j + da_p c n B G N arg k p q i j)) /\
  (forall f v, in_element n h a b (fun x y => hV arg k x y = f x * hR arg k x y /\ hU arg k x y = v * hR arg k x y) ->
   hV s k x y - hV u k x y = f x * (hR s k x y - hR u k x y)
     - dt * (hR arg k x y * v * ddx n (bD B) (gDeltaA (base2 G)) (fun x _ => f x) p q i j + db_p c n B G N arg k p q i j)).
Proof.
  intros c n B G N arg u o dt h nA nB a b k HD Ha Hb Hk H HG s i j Hi Hj p q x y.
  assert (S0 : forall l, sdot_ua G N arg l x y = 0 /\ sdot_ub G N arg l x y = 0).
  { intro l. unfold sdot_ua, sdot_ub, on_edges, sdot. destruct (inner_edge N l); [|split; reflexivity].
    destruct (H l i j Hi Hj) as (_ & A1 & A2 & A3). fold p q in A1, A2, A3. fold x y in A1, A2, A3. rewrite A1, A2, A3. split; ring. }
  assert (Su : forall l, sdot_ua G N arg l x y = 0) by (intro l; apply S0).
  assert (Sv : forall l, sdot_ub G N arg l x y = 0) by (intro l; apply S0).
  pose proof (HG i j Hi Hj) as G0. fold p q in G0. fold x y in G0. destruct G0 as (F0 & J0 & _ & _ & _ & _ & a0 & a1 & b0 & b1).
  assert (KV : forall i j, (i < n)%nat -> (j < n)%nat -> cov_a G arg k (p + z i)%Z (q + z j)%Z = con_a arg k (p + z i)%Z (q + z j)%Z /\ cov_b G arg k (p + z i)%Z (q + z j)%Z = con_b arg k (p + z i)%Z (q + z j)%Z).
  { intros i' j' Hi' Hj'. destruct (HG i' j' Hi' Hj') as (_ & _ & B0 & B1 & B2 & B3 & _). fold p q in B0, B1, B2, B3. unfold cov_a, cov_b. rewrite B0, B1, B2, B3. split; ring. }
  split.
  - intros f w HU.
    assert (C0 : forall i j, (i < n)%nat -> (j < n)%nat -> con_a arg k (p + z i)%Z (q + z j)%Z = f (q + z j)%Z /\ con_b arg k (p + z i)%Z (q + z j)%Z = w).
    { intros i' j' Hi' Hj'. destruct (HU i' j' Hi' Hj') as (A1 & A2). destruct (H k i' j' Hi' Hj') as (A0 & _). fold p q in A0, A1, A2. unfold con_a, con_b. rewrite A1, A2. split; field; exact A0. }
    assert (VA : d_alpha n B (base2 G) (cov_b G arg k) p q i j = 0).
    { apply (d_alpha_const n B (base2 G) p q _ w i j HD Hi Hj). intros i' j' Hi' Hj'. rewrite (proj2 (KV i' j' Hi' Hj')). apply C0; assumption. }
    assert (VB : d_beta n B (base2 G) (cov_a G arg k) p q i j = ddy n (bD B) (gDeltaB (base2 G)) (fun _ y => f y) p q i j).
    { rewrite d_beta_ddy. unfold ddy. f_equal. apply nsum_ext. intros t Ht. rewrite (proj1 (KV i t Hi Ht)), (proj1 (C0 i t Hi Ht)). reflexivity. }
    assert (KA : d_alpha n B (base2 G) (kin2 G arg k) p q i j = 0).
    { rewrite d_alpha_ddx. apply (ddx_const n (bD B) (gDeltaA (base2 G)) _ p q i j (1 / 2 * (f y * f y + w * w)) HD Hi).
      intros t Ht. unfold kin2. rewrite (proj1 (KV t j Ht Hj)), (proj2 (KV t j Ht Hj)), (proj1 (C0 t j Ht Hj)), (proj2 (C0 t j Ht Hj)). reflexivity. }
    unfold s, x, y, p, q. rewrite at_hu, at_hr by assumption. fold p q. fold x y.
    destruct (C0 i j Hi Hj) as (Ca & Cb). destruct (KV i j Hi Hj) as (_ & Vb). fold x y in Ca, Cb, Vb.
    unfold ten_u, con_da, vort_a, abs_vort, dz_edge. cbv zeta. fold x y.
    rewrite VA, VB, KA, !Su, F0, Vb, Ca, Cb, J0, a0, a1. unfold Rdiv. rewrite Rinv_1. ring.
  - intros f v HU.
    assert (C0 : forall i j, (i < n)%nat -> (j < n)%nat -> con_b arg k (p + z i)%Z (q + z j)%Z = f (p + z i)%Z /\ con_a arg k (p + z i)%Z (q + z j)%Z = v).
    { intros i' j' Hi' Hj'. destruct (HU i' j' Hi' Hj') as (A1 & A2). destruct (H k i' j' Hi' Hj') as (A0 & _). fold p q in A0, A1, A2. unfold con_a, con_b. rewrite A1, A2. split; field; exact A0. }
    assert (VB : d_beta n B (base2 G) (cov_a G arg k) p q i j = 0).
    { apply (d_beta_const n B (base2 G) p q _ v i j HD Hi Hj). intros i' j' Hi' Hj'. rewrite (proj1 (KV i' j' Hi' Hj')). apply C0; assumption. }
    assert (VA : d_alpha n B (base2 G) (cov_b G arg k) p q i j = ddx n (bD B) (gDeltaA (base2 G)) (fun x _ => f x) p q i j).
    { rewrite d_alpha_ddx. unfold ddx. f_equal. apply nsum_ext. intros t Ht. rewrite (proj2 (KV t j Ht Hj)), (proj1 (C0 t j Ht Hj)). reflexivity. }
    assert (KB : d_beta n B (base2 G) (kin2 G arg k) p q i j = 0).
    { rewrite d_beta_ddy. apply (ddy_const n (bD B) (gDeltaB (base2 G)) _ p q i j (1 / 2 * (v * v + f x * f x)) HD Hj).
      intros t Ht. unfold kin2. rewrite (proj1 (KV i t Hi Ht)), (proj2 (KV i t Hi Ht)), (proj1 (C0 i t Hi Ht)), (proj2 (C0 i t Hi Ht)). reflexivity. }
    unfold s, x, y, p, q. rewrite at_hv, at_hr by assumption. fold p q. fold x y.
    destruct (C0 i j Hi Hj) as (Cb & Ca). destruct (KV i j Hi Hj) as (Va & _). fold x y in Ca, Cb, Va.
    unfold ten_v, con_db, vort_b, abs_vort, dz_edge. cbv zeta. fold x y.
    rewrite VA, VB, KB, !Sv, F0, Va, Ca, Cb, J0, b0, b1. unfold Rdiv. rewrite Rinv_1. ring.
Qed.
Print Assumptions C96_shear.

(** Nothing is written outside the interior or above the last level; in particular the
    top interface keeps what the update held, whatever the combination says. *)
Theorem C96_frame : forall c n B G N arg u o dt h nA nB,
  let s := hexplicit c n B G N arg dt h nA nB u o in
  (forall k, (N <= k)%nat -> hU s k = hU o k /\ hV s k = hV o k /\ hP s k = hP o k /\ hR s k = hR o k /\ hW s k = hW o k) /\
  (forall x y k, ~ interior n h nA nB x y -> hU s k x y = hU o k x y /\ hV s k x y = hV o k x y /\ hP s k x y = hP o k x y /\
     hR s k x y = hR o k x y /\ hW s k x y = hW o k x y) /\
  (forall a b, (a < nA)%nat -> (b < nB)%nat -> (0 < N)%nat -> in_element n h a b (fun x y => hW s O x y = hW u O x y)).
Proof.
  intros c n B G N arg u o dt h nA nB s. split; [|split].
  - intros k Hk. unfold s, hexplicit. cbn [hU hV hP hR hW]. rewrite (proj2 (Nat.ltb_ge _ _) Hk). auto.
  - intros x y k Ho. unfold s, hexplicit. cbn [hU hV hP hR hW].
    assert (Out : forall a b i j, (a < nA)%nat -> (b < nB)%nat -> (i < n)%nat -> (j < n)%nat -> ~ (x = h + z (a * n) + z i /\ y = h + z (b * n) + z j)%Z).
    { intros a b i j Ha Hb Hi Hj (-> & ->). apply Ho. unfold interior. rewrite !Nat2Z.inj_mul. nia. }
    destruct (Nat.ltb k N); [|auto]. rewrite !patch_away by exact Out. auto.
  - intros a b Ha Hb HN i j Hi Hj. unfold s. rewrite at_hw by assumption. rewrite inner_out by lia. ring.
Qed.
Print Assumptions C96_frame.
Theorem C96_top_refuted : forall c n B G N arg u o dt h nA nB x y,
  hW o N x y <> hW u N x y -> hW (hexplicit c n B G N arg dt h nA nB u o) N x y <> hW u N x y.
Proof.
  intros c n B G N arg u o dt h nA nB x y H. destruct (C96_frame c n B G N arg u o dt h nA nB) as (F & _).
  destruct (F N (Nat.le_refl N)) as (_ & _ & _ & _ & ->). exact H.
Qed.
Print Assumptions C96_top_refuted.

(** ** A patch of one element, two levels, over terrain *)
Definition ex_air (e : R) : PhysModel.constants := PhysModel.Constants 0 1 0 0 0 0 0 0 0 0 0 0 0 1 e.
Lemma ex_air_pressure e x : 0 < x -> PhysModel.pressure_from_rhotheta (ex_air e) x = e * x.
Proof. intro H. unfold PhysModel.pressure_from_rhotheta. cbn [PhysModel.scaling PhysModel.gamma ex_air]. rewrite Rmult_1_r, exp_ln by exact H. reflexivity. Qed.
Definition ex_hill (x y : Z) : R := IZR x + IZR y * IZR x.
Definition ex_z (k : nat) (x y : Z) : R := ex_hill x y + (if Nat.eqb k 0 then 0 else 1).
Definition ex_hg : hgeom := Hgeom ex_geo (fun _ _ _ => 2) (fun _ _ _ => 2) (fun _ _ => 1) (fun _ _ => 0) (fun _ _ => 0) (fun _ _ => 1)
  (fun k x y => ddx 4 (bD basis4) 1 (ex_z k) 1 1 (Z.to_nat (x - 1)) (Z.to_nat (y - 1)))
  (fun k x y => ddy 4 (bD basis4) 1 (ex_z k) 1 1 (Z.to_nat (x - 1)) (Z.to_nat (y - 1)))
  (fun _ _ _ => 0) (fun _ _ _ => 0) ex_z (fun k _ _ => INR k).
Definition ex_moving : hstate := Hstate (fun _ x y => if andb (Z.eqb x 1) (Z.eqb y 1) then 1 else 0) (fun _ _ _ => 0) (fun _ _ _ => 3) (fun _ _ _ => 1)
  (fun k _ _ => if Nat.eqb k 2 then 1 else 0).
Definition ex_still : hstate := Hstate (fun _ _ _ => 0) (fun _ _ _ => 0) (fun k x y => 100 - ex_z k x y) (fun k _ _ => 5 - INR k) (fun _ _ _ => 0).
Definition ex_wind : hstate := Hstate (fun k x y => 2 * (1 + ex_hill x y * ex_hill x y)) (fun k x y => 3 * (1 + ex_hill x y * ex_hill x y))
  (fun _ _ _ => 3) (fun k x y => 1 + ex_hill x y * ex_hill x y) (fun _ _ _ => 0).
Example C94_case : in_element 4 1 0 0 (fun x y => J3 ex_hg 0%nat x y <> 0 /\ JE ex_hg 1%nat x y <> 0 /\
    hR ex_moving 0%nat x y <> 0 /\ hP ex_moving 0%nat x y = 3 * hR ex_moving 0%nat x y) /\
  hR (hexplicit (ex_air 1) 4 basis4 ex_hg 2 ex_moving 1 1 1 1 ex_moving ex_moving) 0%nat 1%Z 1%Z = -5.
Proof.
  split.
  - intros i j _ _. cbn. repeat split; lra.
  - pose proof (at_hr (ex_air 1) 4 basis4 ex_hg 2 ex_moving ex_moving ex_moving 1 1 1 1 0 0 ltac:(lia) ltac:(lia) 0 0 0 ltac:(lia) ltac:(lia) ltac:(lia)) as Q.
    change (1 + z (0 * 4) + z 0)%Z with 1%Z in Q. rewrite Q. unfold hdiv. rewrite v_alpha_sum, v_beta_sum. cbn. unfold mass_a, mass_b, dbl. cbn. lra.
Qed.
Example C95_case : faster_air 2 (ex_air 1) (ex_air 4) /\ hW ex_moving 2%nat 2%Z 2%Z <> hW ex_moving 0%nat 2%Z 2%Z /\
  Zn ex_hg 1%nat 2%Z 2%Z <> Zn ex_hg 0%nat 2%Z 2%Z /\ hU ex_moving 1%nat 2%Z 2%Z = 0.
Proof.
  split; [|cbn; unfold ex_z; cbn; repeat split; lra].
  intro x. unfold PhysModel.pressure_from_rhotheta. cbn [PhysModel.scaling PhysModel.gamma ex_air]. ring.
Qed.
Example C96_case : (forall k i j, (i < 4)%nat -> (j < 4)%nat ->
    dRa ex_hg k (1 + z i)%Z (1 + z j)%Z = ddx 4 (bD basis4) (gDeltaA (base2 ex_hg)) (Zn ex_hg k) 1 1 i j /\
    dRb ex_hg k (1 + z i)%Z (1 + z j)%Z = ddy 4 (bD basis4) (gDeltaB (base2 ex_hg)) (Zn ex_hg k) 1 1 i j) /\
  (forall l, in_element 4 1 0 0 (fun x y => hU ex_still l x y = 0 /\ hV ex_still l x y = 0 /\ hW ex_still l x y = 0 /\
     PhysModel.pressure_from_rhotheta (ex_air 1) (hP ex_still l x y) = 100 + -1 * Zn ex_hg l x y /\
     forall m, (l < m < 2)%nat -> Zn ex_hg m x y <> Zn ex_hg l x y)) /\
  (forall l, in_element 4 1 0 0 (fun x y => hR ex_wind l x y <> 0 /\ hU ex_wind l x y = 2 * hR ex_wind l x y /\ hV ex_wind l x y = 3 * hR ex_wind l x y /\
     hW ex_wind l x y = 0 /\ eRa ex_hg l x y = 0 /\ eRb ex_hg l x y = 0)) /\
  in_element 4 1 0 0 (fun x y => gF (base2 ex_hg) x y = 0 /\ gJ (base2 ex_hg) x y <> 0).
Proof.
  split; [|split; [|split]].
  - intros k i j _ _. cbn [dRa dRb Zn base2 gDeltaA gDeltaB ex_hg ex_geo].
    replace (Z.to_nat (1 + z i - 1)) with i by lia. replace (Z.to_nat (1 + z j - 1)) with j by lia. split; reflexivity.
  - intros l i j Hi Hj. set (x := (1 + z (0 * 4) + z i)%Z). set (y := (1 + z (0 * 4) + z j)%Z).
    assert (Hx : 1 <= IZR x <= 4) by (split; apply IZR_le; unfold x; lia).
    assert (Hy : 1 <= IZR y <= 4) by (split; apply IZR_le; unfold y; lia).
    assert (Hxy : 1 <= IZR y * IZR x <= 16).
    { split; [rewrite <- (Rmult_1_l 1)|replace 16 with (4 * 4) by lra]; apply Rmult_le_compat; lra. }
    cbn [hU hV hW hP ex_still Zn ex_hg]. split; [reflexivity|]. split; [reflexivity|]. split; [reflexivity|]. split.
    + rewrite ex_air_pressure; [ring|]. unfold ex_z, ex_hill. destruct (Nat.eqb l 0); lra.
    + intros m Hm. assert (m = 1%nat) by lia. assert (l = 0%nat) by lia. subst. unfold ex_z. cbn. lra.
  - intros l i j _ _. cbn [hR hU hV hW eRa eRb ex_wind ex_hg]. split; [|repeat split; reflexivity].
    match goal with |- 1 + ?t * ?t <> 0 => pose proof (Rle_0_sqr t) as Q; unfold Rsqr in Q; lra end.
  - intros i j _ _. cbn. split; lra.
Qed.
