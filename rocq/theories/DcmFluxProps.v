(** * C128-C129: surface fluxes, turbulent mixing and the routine as a whole *)
From Coq Require Import Reals ZArith Lra Lia Bool.
From Verif Require Import DlimProofs.
From Verif Require Import DcmModel DcmSpec DcmProofs DcmProps.
Local Open Scope R_scope.

(** ** C128: coefficients and surface fluxes *)
(** the drag coefficient grows from Cd0 to Cm and has no jump at 20 m/s *)
Theorem C128_drag : forall w x, 0 <= w <= x -> cd0 <= drag w <= cm /\ 0 <= drag x - drag w <= cd1 * (x - w).
Proof. intros w x H. unfold drag. consts. destruct (Rlt_dec w 20), (Rlt_dec x 20); lra. Qed.
Print Assumptions C128_drag.

Lemma interface_pos F k : column_ok (nz F) (rho F) (zm F) (zi F) (dtime F) -> (k <= nz F)%nat -> 0 <= zi F k.
Proof.
  intros (_ & _ & G0 & _ & _ & G & _). induction k; intros K; [exact G0|]. assert (zi F k < zi F (S k)) by (apply G; lia). assert (0 <= zi F k) by (apply IHk; lia). lra.
Qed.
Lemma Rabs_def2_le x b : Rabs x <= b -> - b <= x <= b.
Proof. intros H. pose proof (Rle_abs x). pose proof (Rle_abs (- x)) as X. rewrite Rabs_Ropp in X. lra. Qed.
Lemma speed_pos s : 0 <= speed s. Proof. apply sqrt_pos. Qed.

(** mixing coefficients: not negative, none at the ground and the top; in between the
    profiles of the two schemes *)
Theorem C128_mixing : forall F s c pbl K, column_ok (nz F) (rho F) (zm F) (zi F) (dtime F) -> 0 <= c -> mixing F pbl s c = Some K ->
  K 0%nat = 0 /\ K (nz F) = 0 /\ (forall k, (k <= nz F)%nat -> 0 <= K k) /\
  forall k, (0 < k < nz F)%nat ->
    (pbl = 0%Z -> let d := Rmax 0 (pbltop - (p s (k - 1)%nat + p s k) / 2) in
                  K k = c * speed s * zm F 0 * exp (- ((d / pblconst) * (d / pblconst)))) /\
    (pbl = 1%Z -> let x := Rmin (zi F k) zpbltop / zpbltop in
                  K k = karman * sqrt c * speed s * (zpbltop * x) * ((1 - x) * (1 - x))).
Proof.
  intros F s c pbl K O C E. pose proof O as (N & DT & G0 & H0 & RP & GP & HP). pose proof (speed_pos s) as W. unfold mixing in E.
  assert (0 <= c * speed s * zm F 0) as CW by (apply Rmult_le_pos; [apply Rmult_le_pos|]; lra).
  destruct (Z.eqb_spec pbl 0) as [->|P0]; [|destruct (Z.eqb_spec pbl 1) as [->|P1]; [|discriminate]]; injection E as <-.
  - unfold mixing_rj. cbn [Nat.eqb orb]. rewrite Nat.eqb_refl, orb_true_r. split; [reflexivity|]. split; [reflexivity|]. split.
    + intros k _. destruct (_ || _)%bool; [lra|]. destruct (Rle_dec _ _); [exact CW|]. apply Rmult_le_pos; [exact CW|left; apply exp_pos].
    + intros k I. split; [|lia]. intros _. cbv zeta. destruct (Nat.eqb_spec k 0); [lia|]. destruct (Nat.eqb_spec k (nz F)); [lia|]. cbn [orb].
      replace ((p s (k - 1)%nat + p s k) / 2) with (1 / 2 * (p s (k - 1)%nat + p s k)) by field. set (q := 1 / 2 * _).
      destruct (Rle_dec pbltop q) as [L|L].
      * rewrite Rmax_left by lra. replace (0 / pblconst) with 0 by (unfold Rdiv; ring). rewrite Rmult_0_l, Ropp_0, exp_0. ring.
      * rewrite Rmax_right by lra. f_equal. f_equal. field. unfold pblconst. lra.
  - unfold mixing_bryan. cbn [Nat.eqb orb]. rewrite Nat.eqb_refl, orb_true_r. split; [reflexivity|]. split; [reflexivity|]. split.
    + intros k I. destruct (_ || _)%bool; [lra|]. destruct (Rle_dec _ _); [|lra]. pose proof (interface_pos F k O I). pose proof (sqrt_pos c).
      rewrite Rmult_assoc. apply Rmult_le_pos; [|apply Rle_0_sqr]. repeat apply Rmult_le_pos; consts; lra.
    + intros k I. split; [lia|]. intros _. cbv zeta. destruct (Nat.eqb_spec k 0); [lia|]. destruct (Nat.eqb_spec k (nz F)); [lia|]. cbn [orb].
      destruct (Rle_dec (zi F k) zpbltop) as [L|L].
      * rewrite Rmin_left by lra. field. unfold zpbltop; lra.
      * rewrite Rmin_right by lra. replace (zpbltop / zpbltop) with 1 by (field; unfold zpbltop; lra). ring.
Qed.
Print Assumptions C128_mixing.

Lemma relax c dt b x : 0 < dt -> 0 <= c -> let y := (x + c * b * dt) / (1 + c * dt) in relaxed c dt b x y /\ between x b y.
Proof.
  intros D C y. assert (0 <= c * dt) as CD by (apply Rmult_le_pos; lra).
  assert (y * (1 + c * dt) = x + c * b * dt) as E by (unfold y; field; lra). split.
  - unfold relaxed. apply Rmult_eq_reg_r with dt; [|lra]. replace ((y - x) / dt * dt) with (y - x) by (field; lra). lra.
  - assert ((y - x) * (1 + c * dt) = c * dt * (b - x)) as E1 by lra. assert ((b - y) * (1 + c * dt) = b - x) as E2 by lra.
    destruct (Rle_dec x b).
    + left. split.
      * apply Rmult_le_reg_r with (1 + c * dt); [lra|]. assert (0 <= c * dt * (b - x)) by (apply Rmult_le_pos; lra). lra.
      * apply Rmult_le_reg_r with (1 + c * dt); [lra|]. lra.
    + right. split.
      * apply Rmult_le_reg_r with (1 + c * dt); [lra|]. lra.
      * apply Rmult_le_reg_r with (1 + c * dt); [lra|]. assert (0 <= c * dt * (x - b)) by (apply Rmult_le_pos; lra). lra.
Qed.
Lemma surface_total F s n : surface_pressure F s n = gravit * total n (fun k => rhom s k * (zi F (S k) - zi F k)).
Proof. induction n; cbn; [ring|]. rewrite IHn. ring. Qed.
Lemma put_same f k x : put f k x k = x. Proof. unfold put. rewrite Nat.eqb_refl. reflexivity. Qed.
Lemma put_other f k x j : j <> k -> put f k x j = f j. Proof. intros N. unfold put. destruct (Nat.eqb_spec j k); [contradiction|reflexivity]. Qed.

(** the lowest level is relaxed implicitly: the wind towards rest, temperature and
    humidity towards the sea's; nothing above it changes, and it stays a state *)
Theorem C128_fluxes : forall F s w cd ts, column_ok (nz F) (rho F) (zm F) (zi F) (dtime F) -> state_ok (nz F) (rho F) s ->
  0 <= w -> 0 <= cd -> 0 < ts ->
  let weight := gravit * total (nz F) (fun k => rhom s k * (zi F (S k) - zi F k)) in
  let qs := saturation weight ts in
  qs < 1 ->
  let s' := fluxes F s w cd ts in let za := zm F 0 in
  (relaxed (cd * w / za) (dtime F) 0 (u s 0) (u s' 0) /\ between (u s 0) 0 (u s' 0)) /\
  (relaxed (cd * w / za) (dtime F) 0 (v s 0) (v s' 0) /\ between (v s 0) 0 (v s' 0)) /\
  (relaxed (c_heat * w / za) (dtime F) ts (t s 0) (t s' 0) /\ between (t s 0) ts (t s' 0)) /\
  (relaxed (c_heat * w / za) (dtime F) qs (qsv s 0) (qsv s' 0) /\ between (qsv s 0) qs (qsv s' 0)) /\
  (u s 0 * v s' 0 = u s' 0 * v s 0) /\
  state_ok (nz F) (rho F) s' /\
  (forall k, k <> 0%nat -> (u s' k, v s' k, p s' k, qv s' k, rhom s' k, qsv s' k, t s' k) = (u s k, v s k, p s k, qv s k, rhom s k, qsv s k, t s k)).
Proof.
  intros F s w cd ts O SO W CD TS weight qs QS s' za. pose proof O as (N & DT & G0 & H0 & RP & GP & HP).
  assert (0 <= cd * w / za) as R1 by (apply Rmult_le_pos; [apply Rmult_le_pos; lra|left; apply Rinv_0_lt_compat; exact H0]).
  assert (0 <= c_heat * w / za) as R2 by (apply Rmult_le_pos; [apply Rmult_le_pos; [unfold c_heat|]; lra|left; apply Rinv_0_lt_compat; exact H0]).
  assert (za <> 0) as ZA by (unfold za; lra).
  assert (0 < 1 + cd * w / za * dtime F) as B1 by (assert (0 <= cd * w / za * dtime F) by (apply Rmult_le_pos; lra); lra).
  assert (0 < 1 + c_heat * w / za * dtime F) as B2 by (assert (0 <= c_heat * w / za * dtime F) by (apply Rmult_le_pos; lra); lra).
  assert (u s' 0 = (u s 0 + cd * w / za * 0 * dtime F) / (1 + cd * w / za * dtime F)) as EU.
  { unfold s', fluxes. cbn [u]. rewrite put_same. fold za. f_equal; [ring|]. f_equal. unfold Rdiv. ring. }
  assert (v s' 0 = (v s 0 + cd * w / za * 0 * dtime F) / (1 + cd * w / za * dtime F)) as EV.
  { unfold s', fluxes. cbn [v]. rewrite put_same. fold za. f_equal; [ring|]. f_equal. unfold Rdiv. ring. }
  assert (t s' 0 = (t s 0 + c_heat * w / za * ts * dtime F) / (1 + c_heat * w / za * dtime F)) as ET.
  { unfold s', fluxes. cbn [t]. rewrite put_same. fold za. f_equal; f_equal; unfold Rdiv; ring. }
  assert (qsv s' 0 = (qsv s 0 + c_heat * w / za * qs * dtime F) / (1 + c_heat * w / za * dtime F)) as EQ.
  { unfold s', fluxes. cbn [qsv]. rewrite put_same. rewrite surface_total. fold weight qs za. f_equal; f_equal; unfold Rdiv; ring. }
  pose proof (relax _ (dtime F) 0 (u s 0) DT R1) as LU. pose proof (relax _ (dtime F) 0 (v s 0) DT R1) as LV.
  pose proof (relax _ (dtime F) ts (t s 0) DT R2) as LT. pose proof (relax _ (dtime F) qs (qsv s 0) DT R2) as LQ. cbv zeta in LU, LV, LT, LQ.
  rewrite <- EU in LU. rewrite <- EV in LV. rewrite <- ET in LT. rewrite <- EQ in LQ.
  split; [exact LU|]. split; [exact LV|]. split; [exact LT|]. split; [exact LQ|]. split; [rewrite EU, EV; field; split; [assumption|]; intros Z; apply (Rlt_not_eq _ _ B1); symmetry; replace (1 + cd * w / za * dtime F) with ((za + cd * w * dtime F) / za) by (field; assumption); rewrite Z; unfold Rdiv; ring|].
  assert (forall k, k <> 0%nat -> (u s' k, v s' k, p s' k, qv s' k, rhom s' k, qsv s' k, t s' k) = (u s k, v s k, p s k, qv s k, rhom s k, qsv s k, t s k)) as OT.
  { intros k K. unfold s', fluxes. cbn [u v p qv rhom qsv t]. rewrite !put_other by exact K. reflexivity. }
  split; [|exact OT]. intros k K. destruct k as [|k].
  2: { specialize (OT (S k) (Nat.neq_succ_0 k)). assert (p s' (S k) = p s (S k) /\ qv s' (S k) = qv s (S k) /\ rhom s' (S k) = rhom s (S k) /\ qsv s' (S k) = qsv s (S k) /\ t s' (S k) = t s (S k)) as (-> & -> & -> & -> & ->) by (repeat split; congruence). exact (SO (S k) K). }
  destruct (SO 0%nat K) as (P & T & Q & MO & ID). destruct (moist_q _ _ _ _ (RP _ K) Q MO) as (QB & QE & MP & ME).
  assert (0 < weight) as WP.
  { unfold weight. apply Rmult_lt_0_compat; [unfold gravit; lra|]. assert (total (nz F) (fun _ => 0) = 0) as Z by (clear; induction (nz F); cbn; [|rewrite IHn]; lra). rewrite <- Z.
    apply (total_lt _ _ _ 0%nat K); [|apply Rmult_lt_0_compat; [exact MP|specialize (GP _ K); lra]].
    intros j J. destruct (SO j J) as (_ & _ & Qj & MOj & _). destruct (moist_q _ _ _ _ (RP _ J) Qj MOj) as (_ & _ & MPj & _). specialize (GP _ J). left. apply Rmult_lt_0_compat; lra. }
  pose proof (saturation_pos weight ts WP) as QS0. fold qs in QS0.
  assert (0 <= qsv s' 0 < 1) as Q1 by (destruct LQ as [_ [X|X]]; lra).
  assert (0 < t s' 0) as T1 by (destruct LT as [_ [X|X]]; lra).
  assert (qv s' 0 = qsv s' 0 / (1 - qsv s' 0)) as V1 by (unfold s', fluxes; cbn [qv qsv]; rewrite !put_same; reflexivity).
  assert (rhom s' 0 = rho F 0 / (1 - qsv s' 0)) as M1 by (unfold s', fluxes; cbn [rhom qsv]; rewrite !put_same; reflexivity).
  assert (p s' 0 = t s' 0 * rhom s' 0 * rair * (1 + zvir * qv s' 0)) as P1 by (unfold s', fluxes; cbn [rhom qsv qv t p]; rewrite !put_same; reflexivity).
  pose proof (RP _ K) as R0. assert (0 <= qv s' 0) as V0 by (rewrite V1; apply Rmult_le_pos; [lra|left; apply Rinv_0_lt_compat; lra]).
  assert (0 < rhom s' 0) as M0 by (rewrite M1; apply Rdiv_lt_0_compat; lra). pose proof zvir_pos as ZV.
  assert (0 <= zvir * qv s' 0) by (apply Rmult_le_pos; lra).
  split; [rewrite P1; apply Rmult_lt_0_compat; [apply Rmult_lt_0_compat; [apply Rmult_lt_0_compat; assumption|unfold rair; lra]|lra]|]. split; [exact T1|]. split; [exact V0|].
  split; [split; [rewrite M1, V1|rewrite M1, V1]; field; lra|]. unfold ideal. rewrite P1. ring.
Qed.
Print Assumptions C128_fluxes.
(** the hypotheses are met: one damp layer over warm water *)
Example C128_case : saturation (gravit * total (nz one_layer) (fun k => rhom damp k * (zi one_layer (S k) - zi one_layer k))) t_0 < 1 /\
  exists K, mixing one_layer 1 damp c_heat = Some K.
Proof.
  split; [|eexists; reflexivity].
  assert (gravit * total (nz one_layer) (fun k => rhom damp k * (zi one_layer (S k) - zi one_layer k)) = gravit * 200) as ->.
  { unfold damp, prepare, one_layer. cbn [nz total rhom zi rho]. rewrite S_INR. cbn [INR]. ring. }
  unfold saturation. replace (1 / t_0 - 1 / t_0) with 0 by ring. rewrite Rmult_0_r, exp_0. unfold epsilo. consts. lra.
Qed.

(** ** C129: mixing and the routine *)
Section Mix.
  Context (F : fixed) (m K x : nat -> R).
  Context (O : column_ok (nz F) (rho F) (zm F) (zi F) (dtime F)) (M : forall k, (k < nz F)%nat -> 0 < m k) (KP : forall k, (k <= nz F)%nat -> 0 <= K k).
  Let n := nz F.
  Let mass k := m k * (zi F (S k) - zi F k).
  (** any solution of the mixing equation loses variance *)
  Lemma flux_down (y : nat -> R) j : (j < n)%nat ->
    total (S j) (fun k => y k * (flux n m K (zm F) y k - flux n m K (zm F) y (S k))) <= - (y j * flux n m K (zm F) y (S j)).
  Proof.
    destruct O as (_ & _ & _ & _ & _ & _ & H). induction j as [|j IH]; intros J; [cbn [total flux]; lra|].
    cbn [total] in *. assert (J' : (j < n)%nat) by lia. specialize (IH J').
    assert (flux n m K (zm F) y (S j) * (y (S j) - y j) <= 0) as D.
    { unfold flux at 1. destruct (Nat.ltb_spec (S j) n) as [L|L]; [|lia]. pose proof (M j J'). pose proof (M (S j) J). assert (0 <= K (S j)) by (apply KP; fold n; lia). pose proof (H j J).
      replace (- (K (S j) * ((m j + m (S j)) / 2) * (y (S j) - y j) / (zm F (S j) - zm F j)) * (y (S j) - y j)) with
        (- (K (S j) * ((m j + m (S j)) / 2) * ((y (S j) - y j) * (y (S j) - y j)) / (zm F (S j) - zm F j))) by (unfold Rdiv; ring).
      assert (0 <= K (S j) * ((m j + m (S j)) / 2) * ((y (S j) - y j) * (y (S j) - y j)) / (zm F (S j) - zm F j)); [|lra].
      apply Rmult_le_pos; [apply Rmult_le_pos; [apply Rmult_le_pos; lra|apply Rle_0_sqr]|left; apply Rinv_0_lt_compat; lra]. }
    lra.
  Qed.
  Lemma mixed_work y z : mixed n m K (zm F) (zi F) (dtime F) z y -> total n (fun k => mass k * (y k * (y k - z k))) <= 0.
  Proof.
    intros E. pose proof O as (N & DT & _). rewrite (total_ext n _ (fun k => dtime F * (y k * (flux n m K (zm F) y k - flux n m K (zm F) y (S k))))).
    - rewrite total_scale. fold n in N. pose proof (flux_down y (n - 1)) as FD. replace (S (n - 1)) with n in FD by lia.
      assert (flux n m K (zm F) y n = 0) as Z by (destruct n; [reflexivity|]; cbn [flux]; rewrite Nat.ltb_irrefl; reflexivity).
      rewrite Z in FD. assert (n - 1 < n)%nat as L by lia. specialize (FD L).
      assert (0 <= dtime F * - total n (fun k => y k * (flux n m K (zm F) y k - flux n m K (zm F) y (S k)))) by (apply Rmult_le_pos; lra). lra.
    - intros k L. rewrite <- (E k L). unfold mass. field. lra.
  Qed.
  Lemma mass_pos k : (k < n)%nat -> 0 < mass k.
  Proof. intros L. destruct O as (_ & _ & _ & _ & _ & G & _). specialize (G k L). apply Rmult_lt_0_compat; [apply M, L|lra]. Qed.
  Lemma mixed_energy y z : mixed n m K (zm F) (zi F) (dtime F) z y -> total n (fun k => mass k * (y k * y k)) <= total n (fun k => mass k * (z k * z k)).
  Proof.
    intros E. pose proof (mixed_work y z E) as W.
    assert (total n (fun k => / 2 * (mass k * (y k * y k) - mass k * (z k * z k))) <= total n (fun k => mass k * (y k * (y k - z k)))) as L.
    { apply total_le. intros k K'. pose proof (mass_pos k K') as MP.
      replace (mass k * (y k * (y k - z k))) with (/ 2 * (mass k * (y k * y k) - mass k * (z k * z k)) + / 2 * (mass k * ((y k - z k) * (y k - z k)))) by field.
      assert (0 <= mass k * ((y k - z k) * (y k - z k))) by (apply Rmult_le_pos; [lra|apply Rle_0_sqr]). lra. }
    rewrite total_scale, total_minus in L. lra.
  Qed.
  Lemma mixed_unique y y' : mixed n m K (zm F) (zi F) (dtime F) x y -> mixed n m K (zm F) (zi F) (dtime F) x y' -> forall k, (k < n)%nat -> y k = y' k.
  Proof.
    intros E E' k L. pose proof O as (_ & DT & _). set (d := fun k => y k - y' k).
    assert (mixed n m K (zm F) (zi F) (dtime F) (fun _ => 0) d) as ED.
    { intros j J. specialize (E j J). specialize (E' j J). unfold d.
      assert (forall i, flux n m K (zm F) (fun k => y k - y' k) i = flux n m K (zm F) y i - flux n m K (zm F) y' i) as FL.
      { intros i. unfold flux. destruct i; [ring|]. destruct (Nat.ltb (S i) n); [unfold Rdiv|]; ring. }
      rewrite !FL. replace (m j * (zi F (S j) - zi F j) * (y j - y' j - 0) / dtime F) with
        (m j * (zi F (S j) - zi F j) * (y j - x j) / dtime F - m j * (zi F (S j) - zi F j) * (y' j - x j) / dtime F) by (field; lra). rewrite E, E'. ring. }
    pose proof (mixed_energy d _ ED) as W.
    destruct (Req_dec (d k) 0) as [Z|Z]; [unfold d in Z; lra|]. exfalso.
    assert (total n (fun k => mass k * (0 * 0)) < total n (fun k => mass k * (d k * d k))) as S; [|lra].
    apply (total_lt _ _ _ k L).
    - intros j J. pose proof (mass_pos j J). apply Rmult_le_compat_l; [lra|]. rewrite Rmult_0_l. apply Rle_0_sqr.
    - pose proof (mass_pos k L). apply Rmult_lt_compat_l; [lra|]. rewrite Rmult_0_l. apply Rlt_0_sqr, Z.
  Qed.
End Mix.

(** what mixing computes: the one solution of the implicit equation.  Mass times value is
    kept, variance does not grow, and no new extremes appear *)
Theorem C129_mixing : forall F m K x, column_ok (nz F) (rho F) (zm F) (zi F) (dtime F) ->
  (forall k, (k < nz F)%nat -> 0 < m k) -> (forall k, (k <= nz F)%nat -> 0 <= K k) ->
  let n := nz F in let y := mix F m K x in let mass k := m k * (zi F (S k) - zi F k) in
  mixed n m K (zm F) (zi F) (dtime F) x y /\
  (forall y', mixed n m K (zm F) (zi F) (dtime F) x y' -> forall k, (k < n)%nat -> y' k = y k) /\
  total n (fun k => mass k * y k) = total n (fun k => mass k * x k) /\
  total n (fun k => mass k * (y k * y k)) <= total n (fun k => mass k * (x k * x k)) /\
  (forall a b, (forall k, (k < n)%nat -> a <= x k <= b) -> forall k, (k < n)%nat -> a <= y k <= b).
Proof.
  intros F m K x O M KP n y mass. pose proof (mix_mixed F m K O M KP x) as E. pose proof O as (N & DT & _). fold n y in E.
  split; [exact E|]. split; [intros y' E' k L; exact (mixed_unique F m K x O M KP y' y E' E k L)|]. split; [exact (mixed_total _ _ _ _ _ _ _ _ (Rgt_not_eq _ _ DT) E)|].
  split; [exact (mixed_energy F m K O M KP y x E)|]. intros a b B k L.
  pose proof (coef_a_ok F m K O M KP) as CA. pose proof (coef_c_ok F m K O M KP) as CC. split.
  - apply mix_ge; auto. intros j J. apply B, J.
  - apply mix_le; auto. intros j J. apply B, J.
Qed.
Print Assumptions C129_mixing.

(** moist density, potential temperature and mixing ratio give the pressure whose
    temperature has that potential temperature *)
Theorem C129_pressure : forall m theta q, 0 < m -> 0 < theta -> 0 <= q ->
  let p := poisson m theta q in
  0 < p /\ exists T, 0 < T /\ ideal rair zvir p m T q /\ theta = T * Rpower (p_0 / p) (rair / cpair).
Proof.
  intros m theta q M T Q p. pose proof zvir_pos as Z. assert (0 <= zvir * q) as ZQ by (apply Rmult_le_pos; lra).
  set (X := m * rair * (theta * (1 + zvir * q)) / p_0).
  assert (0 < X) as XP. { unfold X, rair, p_0. apply Rdiv_lt_0_compat; [|lra]. apply Rmult_lt_0_compat; [lra|]. apply Rmult_lt_0_compat; lra. }
  assert (p = p_0 * Rpower X (cpair / (cpair - rair))) as EP by reflexivity. pose proof (Rpower_pos X (cpair / (cpair - rair))) as RP.
  assert (0 < p_0) as P0 by (unfold p_0; lra). assert (0 < p) as PP by (rewrite EP; apply Rmult_lt_0_compat; lra).
  assert (0 < rair) as RA by (unfold rair; lra).
  split; [exact PP|]. exists (theta * Rpower (p / p_0) (rair / cpair)).
  pose proof (Rpower_pos (p / p_0) (rair / cpair)) as RQ. split; [apply Rmult_lt_0_compat; lra|].
  assert (p / p_0 = Rpower X (cpair / (cpair - rair))) as E1 by (rewrite EP; field; lra).
  assert (Rpower (p / p_0) (rair / cpair) = Rpower X (cpair / (cpair - rair) - 1)) as E2.
  { rewrite E1, Rpower_mult. f_equal. consts. field. }
  split.
  - unfold ideal. rewrite E2, EP. rewrite <- (Rpower_pred X (cpair / (cpair - rair)) XP). unfold X at 1. field. lra.
  - assert (Rpower (p_0 / p) (rair / cpair) = / Rpower (p / p_0) (rair / cpair)) as ->; [|field; lra].
    rewrite <- Rpower_Ropp. unfold Rpower. f_equal. replace (p_0 / p) with (/ (p / p_0)) by (field; lra).
    rewrite ln_Rinv by (apply Rdiv_lt_0_compat; lra). ring.
Qed.
Print Assumptions C129_pressure.

(** the boundary layer of a state: winds, humidity and potential temperature are mixed;
    the result has a pressure and belongs together *)
Theorem C129_layer : forall F s km ke, column_ok (nz F) (rho F) (zm F) (zi F) (dtime F) -> state_ok (nz F) (rho F) s ->
  (forall k, (k <= nz F)%nat -> 0 <= km k /\ 0 <= ke k) ->
  let s' := boundary_layer F s km ke in let n := nz F in let theta k := t s k * Rpower (p_0 / p s k) (rair / cpair) in
  mixed n (rhom s) km (zm F) (zi F) (dtime F) (u s) (u s') /\ mixed n (rhom s) km (zm F) (zi F) (dtime F) (v s) (v s') /\
  mixed n (rhom s) ke (zm F) (zi F) (dtime F) (qsv s) (qsv s') /\
  exists theta', mixed n (rhom s) ke (zm F) (zi F) (dtime F) theta theta' /\
  forall k, (k < n)%nat -> 0 < theta' k /\ 0 < p s' k /\ 0 <= qv s' k /\ moist (rho F k) (qv s' k) (qsv s' k) (rhom s' k) /\
    exists T, 0 < T /\ ideal rair zvir (p s' k) (rhom s' k) T (qv s' k) /\ theta' k = T * Rpower (p_0 / p s' k) (rair / cpair).
Proof.
  intros F s km ke O SO KP s' n theta. pose proof O as (N & DT & G0 & H0 & RP & GP & HP).
  assert (forall k, (k < nz F)%nat -> 0 < rhom s k) as M.
  { intros k K. destruct (SO k K) as (_ & _ & Q & MO & _). apply (moist_q _ _ _ _ (RP _ K) Q MO). }
  assert (forall k, (k <= nz F)%nat -> 0 <= km k) as K1 by (intros; apply KP; assumption).
  assert (forall k, (k <= nz F)%nat -> 0 <= ke k) as K2 by (intros; apply KP; assumption).
  split; [exact (mix_mixed F _ _ O M K1 (u s))|]. split; [exact (mix_mixed F _ _ O M K1 (v s))|]. split; [exact (mix_mixed F _ _ O M K2 (qsv s))|].
  exists (mix F (rhom s) ke theta). split; [exact (mix_mixed F _ _ O M K2 theta)|]. intros k L.
  assert (forall k, (k < n)%nat -> 0 <= coef_a F (rhom s) ke k) as CA by exact (coef_a_ok F _ _ O M K2).
  assert (forall k, (k < n)%nat -> 0 <= coef_c F (rhom s) ke k) as CC by exact (coef_c_ok F _ _ O M K2).
  assert (exists a, 0 < a /\ forall j, (j < n)%nat -> a <= theta j) as (a & A0 & A1).
  { assert (forall j, (j < n)%nat -> 0 < theta j) as TP.
    { intros j J. destruct (SO j J) as (_ & T & _). apply Rmult_lt_0_compat; [exact T|apply Rpower_pos]. }
    clear -TP. induction n as [|i IH]; [exists 1; split; [lra|lia]|]. destruct IH as (a & A & B); [intros; apply TP; lia|].
    exists (Rmin a (theta i)). split; [apply Rmin_glb_lt; [exact A|apply TP; lia]|]. intros j J. destruct (Nat.eq_dec j i) as [->|NE]; [apply Rmin_r|].
    eapply Rle_trans; [apply Rmin_l|apply B; lia]. }
  assert (exists b, b < 1 /\ forall j, (j < n)%nat -> qsv s j <= b) as (b & B0 & B1).
  { assert (forall j, (j < n)%nat -> qsv s j < 1) as TP.
    { intros j J. destruct (SO j J) as (_ & _ & Q & MO & _). destruct (moist_q _ _ _ _ (RP _ J) Q MO) as (X & _). lra. }
    clear -TP. induction n as [|i IH]; [exists 0; split; [lra|lia]|]. destruct IH as (a & A & B); [intros; apply TP; lia|].
    exists (Rmax a (qsv s i)). split; [apply Rmax_lub_lt; [exact A|apply TP; lia]|]. intros j J. destruct (Nat.eq_dec j i) as [->|NE]; [apply Rmax_r|].
    eapply Rle_trans; [apply B; lia|apply Rmax_l]. }
  assert (a <= mix F (rhom s) ke theta k) as T1 by (apply mix_ge; assumption).
  assert (qsv s' k <= b) as Q1 by (apply (mix_le F (rhom s) ke (qsv s)); assumption).
  assert (0 <= qsv s' k) as Q0.
  { apply (mix_ge F (rhom s) ke (qsv s)); try assumption. intros j J. destruct (SO j J) as (_ & _ & Q & MO & _). apply (moist_q _ _ _ _ (RP _ J) Q MO). }
  assert (qv s' k = qsv s' k / (1 - qsv s' k)) as V1 by reflexivity. assert (rhom s' k = rho F k / (1 - qsv s' k)) as M1 by reflexivity.
  assert (p s' k = poisson (rhom s' k) (mix F (rhom s) ke theta k) (qv s' k)) as P1 by reflexivity.
  pose proof (RP k L) as RK. assert (0 <= qv s' k) as V0 by (rewrite V1; apply Rmult_le_pos; [exact Q0|left; apply Rinv_0_lt_compat; lra]).
  assert (0 < rhom s' k) as M0 by (rewrite M1; apply Rdiv_lt_0_compat; lra).
  assert (0 < mix F (rhom s) ke theta k) as T0 by lra. destruct (C129_pressure _ _ _ M0 T0 V0) as (PP & T & TH). rewrite <- P1 in PP, TH.
  split; [exact T0|]. split; [exact PP|]. split; [exact V0|]. split; [|exists T; exact TH].
  split; rewrite M1, V1; field; lra.
Qed.
Print Assumptions C129_layer.

(** two layers, dry below, with as much vapour as dry air above *)
Definition two_layers : fixed := Fixed 2 (fun _ => 1) (fun k => INR k + 1 / 2) INR 1.
Definition stack : air := prepare two_layers (fun _ => 3) (fun _ => 4) (fun _ => 80000) INR (fun _ => 0) (fun _ => 0).
Lemma two_layers_ok : column_ok (nz two_layers) (rho two_layers) (zm two_layers) (zi two_layers) (dtime two_layers).
Proof.
  unfold column_ok, two_layers. cbn [nz rho zm zi dtime]. split; [lia|]. split; [lra|]. split; [cbn [INR]; lra|]. split; [cbn [INR]; lra|]. split; [intros; lra|].
  split; intros k _; rewrite S_INR; lra.
Qed.
Lemma stack_ok : state_ok (nz two_layers) (rho two_layers) stack.
Proof. apply prepare_ok. intros k K. cbn [two_layers rho]. split; [lra|]. split; [lra|apply pos_INR]. Qed.
(** mixing keeps humidity times the moist density from before, not the vapour *)
Theorem C129_vapour_refuted : ~ (forall F s km ke, column_ok (nz F) (rho F) (zm F) (zi F) (dtime F) -> state_ok (nz F) (rho F) s ->
  (forall k, (k <= nz F)%nat -> 0 <= km k /\ 0 <= ke k) -> ke 0%nat = 0 -> ke (nz F) = 0 ->
  vapour (nz F) (rho F) (zi F) (qv (boundary_layer F s km ke)) = vapour (nz F) (rho F) (zi F) (qv s)).
Proof.
  intros H. set (K := fun k : nat => if Nat.eqb k 1 then 2 / 3 else 0).
  assert (forall k, (k <= nz two_layers)%nat -> 0 <= K k /\ 0 <= K k) as KP by (intros k _; unfold K; destruct (Nat.eqb k 1); lra).
  specialize (H two_layers stack K K two_layers_ok stack_ok KP eq_refl eq_refl).
  assert (forall k, (k < nz two_layers)%nat -> 0 < rhom stack k) as M.
  { intros k _. unfold stack, prepare. cbn [rhom two_layers rho]. pose proof (pos_INR k). lra. }
  assert (forall k, (k <= nz two_layers)%nat -> 0 <= K k) as KQ by (intros; apply KP; assumption).
  destruct (C129_mixing two_layers (rhom stack) K (qsv stack) two_layers_ok M KQ) as (_ & U & _).
  assert (forall k, (k < 2)%nat -> (fun k : nat => if Nat.eqb k 0 then 1 / 5 else 2 / 5) k = qsv (boundary_layer two_layers stack K K) k) as Y.
  { apply U. intros k L. unfold flux, stack, prepare, K. cbn [rhom qsv two_layers rho zi zm nz dtime].
    destruct k as [|[|k]]; [| |cbn in L; lia]; cbn [Nat.eqb Nat.ltb Nat.leb]; rewrite ?S_INR; cbn [INR]; field. }
  unfold vapour in H. cbn [nz two_layers total rho zi] in H. unfold stack at 3 4 in H. cbn [qv prepare] in H.
  assert (forall k, qv (boundary_layer two_layers stack K K) k = qsv (boundary_layer two_layers stack K K) k / (1 - qsv (boundary_layer two_layers stack K K) k)) as V by reflexivity.
  rewrite !V, <- !Y in H by lia. cbn [Nat.eqb] in H. rewrite ?S_INR in H. cbn [INR] in H. lra.
Qed.
Print Assumptions C129_vapour_refuted.
Example C129_case : column_ok (nz two_layers) (rho two_layers) (zm two_layers) (zi two_layers) (dtime two_layers) /\ state_ok (nz two_layers) (rho two_layers) stack /\
  ~ (qsv stack 0 = qsv stack 1).
Proof.
  split; [exact two_layers_ok|]. split; [exact stack_ok|]. unfold stack, prepare. cbn [qsv two_layers rho]. rewrite ?S_INR. cbn [INR]. lra.
Qed.

Section Whole.
  Context (F : fixed) (kessler : (nat -> R) -> (nat -> R) -> (nat -> R) -> (nat -> R) -> (nat -> R) -> (nat -> R) * (nat -> R) * (nat -> R) * (nat -> R) * R).
  Lemma mixing_some pbl s c : (exists K, mixing F pbl s c = Some K) <-> pbl = 0%Z \/ pbl = 1%Z.
  Proof.
    unfold mixing. destruct (Z.eqb_spec pbl 0); [split; [intros _; left; assumption|intros _; eexists; reflexivity]|].
    destruct (Z.eqb_spec pbl 1); [split; [intros _; right; assumption|intros _; eexists; reflexivity]|]. split; [intros (K & E); discriminate|intros [E|E]; contradiction].
  Qed.
  (** the routine stops exactly on unknown settings *)
  Theorem C129_stops : forall test pbl prec ts u0 v0 p0 q0 c0 r0,
    physics F kessler test pbl prec ts u0 v0 p0 q0 c0 r0 = None <->
    ~ (1 <= test <= 3)%Z \/ ~ (0 <= prec <= 1)%Z \/ (test <> 3%Z /\ ~ (0 <= pbl <= 1)%Z).
  Proof.
    intros test pbl prec ts u0 v0 p0 q0 c0 r0. unfold physics, sea.
    destruct (Z.eqb_spec test 1) as [->|T1]; [|destruct (Z.eqb_spec test 2) as [->|T2]; [|destruct (Z.eqb_spec test 3) as [->|T3]]].
    4: { split; [intros _; left; lia|reflexivity]. }
    all: destruct (Z.eqb_spec prec 1) as [->|P1]; [destruct (precipitate _ _ _) as [s rain]|destruct (Z.eqb_spec prec 0) as [->|P0]; [destruct (kessler _ _ _ _ _) as [[[[th qv'] qc'] qr'] rain]|split; [intros _; right; left; lia|reflexivity]]]; cbn [Z.eqb Pos.eqb];
      try (split; [discriminate|intros [X|[X|[X _]]]; [lia|lia|contradiction]]).
    all: unfold mixing; destruct (Z.eqb_spec pbl 0) as [->|B0]; [split; [discriminate|intros [X|[X|[_ X]]]; lia]|]; destruct (Z.eqb_spec pbl 1) as [->|B1];
      [split; [discriminate|intros [X|[X|[_ X]]]; lia]|split; [intros _; right; right; lia|reflexivity]].
  Qed.
  (** the supercell test has no surface and no boundary layer: winds are untouched *)
  Theorem C129_supercell : forall pbl prec ts u0 v0 p0 q0 c0 r0 s rain,
    physics F kessler 3 pbl prec ts u0 v0 p0 q0 c0 r0 = Some (s, rain) -> u s = u0 /\ v s = v0.
  Proof.
    intros pbl prec ts u0 v0 p0 q0 c0 r0 s rain E. unfold physics in E. cbn [sea Z.eqb Pos.eqb] in E.
    destruct (Z.eqb_spec prec 1).
    - pose proof (precipitate_wind F (prepare F u0 v0 p0 q0 c0 r0) (nz F)) as W. destruct (precipitate F _ _) as [s1 r1]. cbn [fst] in W.
      assert (s1 = s) as -> by congruence. destruct W as (-> & -> & _). split; reflexivity.
    - destruct (Z.eqb_spec prec 0); [|discriminate]. destruct (kessler _ _ _ _ _) as [[[[th qv'] qc'] qr'] r1].
      assert (s = from_theta F (prepare F u0 v0 p0 q0 c0 r0) th qv' qc' qr') as -> by congruence. split; reflexivity.
  Qed.
End Whole.
Print Assumptions C129_stops.
Print Assumptions C129_supercell.

Lemma saturation_mono p p' t : 0 < p <= p' -> saturation p' t <= saturation p t.
Proof.
  intros [P L]. unfold saturation. apply Rmult_le_compat_r; [left; apply exp_pos|]. unfold epsilo. consts.
  apply Rmult_le_compat_l; [lra|]. apply Rinv_le_contravar; lra.
Qed.
(** with large-scale precipitation: from any column of positive density and pressure the
    routine returns one, with rain that is not negative and winds that do not grow *)
Theorem C129_physics : forall F kessler test pbl ts u0 v0 p0 q0 c0 r0,
  column_ok (nz F) (rho F) (zm F) (zi F) (dtime F) -> (forall k, (k < nz F)%nat -> 0 < p0 k /\ 0 <= q0 k) ->
  (test = 1%Z \/ test = 2%Z /\ ts = sst_tc) -> (pbl = 0%Z \/ pbl = 1%Z) -> 0 < ts ->
  saturation (gravit * total (nz F) (fun k => rho F k * (zi F (S k) - zi F k))) ts < 1 ->
  exists s rain, physics F kessler test pbl 1 ts u0 v0 p0 q0 c0 r0 = Some (s, rain) /\ 0 <= rain /\
    (forall k, (k < nz F)%nat -> 0 < p s k /\ 0 <= qv s k /\ moist (rho F k) (qv s k) (qsv s k) (rhom s k)) /\
    (forall B, (forall k, (k < nz F)%nat -> Rabs (u0 k) <= B) -> forall k, (k < nz F)%nat -> Rabs (u s k) <= B) /\
    (forall B, (forall k, (k < nz F)%nat -> Rabs (v0 k) <= B) -> forall k, (k < nz F)%nat -> Rabs (v s k) <= B).
Proof.
  intros F kessler test pbl ts u0 v0 p0 q0 c0 r0 O I TEST PBL TS SAT. pose proof O as (N & DT & G0 & H0 & RP & GP & HP).
  assert (sea ts test = Some ts) as ES by (destruct TEST as [->|[-> ->]]; reflexivity). assert (Z.eqb test 3 = false) as E3 by (destruct TEST as [->|[-> _]]; reflexivity).
  unfold physics. rewrite ES, E3. cbn [Z.eqb Pos.eqb].
  assert (state_ok (nz F) (rho F) (prepare F u0 v0 p0 q0 c0 r0)) as S0.
  { apply prepare_ok. intros k K. destruct (I k K). specialize (RP k K). repeat split; assumption. }
  pose proof (C127_column F _ O S0) as C1. destruct (precipitate F (prepare F u0 v0 p0 q0 c0 r0) (nz F)) as [s rain].
  destruct C1 as (S1 & EU & EV & _ & RAIN & _). cbn [prepare u v] in EU, EV.
  pose proof (speed_pos s) as W. destruct (C128_drag (speed s) (speed s)) as [CD _]; [lra|]. assert (0 <= drag (speed s)) as CD0 by (consts; lra).
  assert (0 <= c_heat) as CH by (consts; lra).
  destruct (proj2 (mixing_some F pbl s (drag (speed s))) PBL) as (km & EM). destruct (proj2 (mixing_some F pbl s c_heat) PBL) as (ke & EE). rewrite EM, EE.
  destruct (C128_mixing F s _ pbl km O CD0 EM) as (_ & _ & KM & _). destruct (C128_mixing F s _ pbl ke O CH EE) as (_ & _ & KE & _).
  assert (forall k, (k < nz F)%nat -> 0 < rho F k <= rhom s k) as RM.
  { intros k K. destruct (S1 k K) as (_ & _ & Q & [E _] & _). specialize (RP k K). split; [exact RP|]. rewrite E. assert (0 <= rho F k * qv s k) by (apply Rmult_le_pos; lra). lra. }
  assert (saturation (gravit * total (nz F) (fun k => rhom s k * (zi F (S k) - zi F k))) ts < 1) as SAT'.
  { eapply Rle_lt_trans; [apply saturation_mono|exact SAT]. split.
    - apply Rmult_lt_0_compat; [unfold gravit; lra|]. assert (total (nz F) (fun _ => 0) = 0) as Z by (clear; induction (nz F); cbn; [|rewrite IHn]; lra). rewrite <- Z.
      apply (total_lt _ _ _ 0%nat N); [intros j J; left|]; (apply Rmult_lt_0_compat; [apply RP; assumption|]); [specialize (GP j J)|specialize (GP _ N)]; lra.
    - apply Rmult_le_compat_l; [unfold gravit; lra|]. apply total_le. intros k K. specialize (GP k K). apply Rmult_le_compat_r; [lra|apply RM, K]. }
  destruct (C128_fluxes F s (speed s) (drag (speed s)) ts O S1 W CD0 TS SAT') as ((_ & BU) & (_ & BV) & _ & _ & _ & S2 & OT).
  set (s2 := fluxes F s (speed s) (drag (speed s)) ts) in *.
  assert (forall k, (k <= nz F)%nat -> 0 <= km k /\ 0 <= ke k) as KP by (intros k K; split; auto).
  destruct (C129_layer F s2 km ke O S2 KP) as (_ & _ & _ & th & _ & L).
  exists (boundary_layer F s2 km ke), rain. split; [reflexivity|]. split; [exact RAIN|]. split.
  - intros k K. destruct (L k K) as (_ & P & Q & MO & _). split; [exact P|]. split; [exact Q|exact MO].
  - assert (forall k, (k < nz F)%nat -> 0 < rhom s2 k) as M2.
    { intros k K. destruct (S2 k K) as (_ & _ & Q & MO & _). apply (moist_q _ _ _ _ (RP _ K) Q MO). }
    split; intros B HB.
    + assert (forall k, (k < nz F)%nat -> - B <= u s2 k <= B) as X.
      { intros k K. destruct k as [|k].
        - pose proof (Rabs_def2_le _ _ (HB _ K)) as HB0. rewrite EU in BU. destruct BU; lra.
        - assert (u s2 (S k) = u s (S k)) as -> by (specialize (OT (S k) (Nat.neq_succ_0 k)); congruence). rewrite EU. apply Rabs_def2_le, HB, K. }
      destruct (C129_mixing F (rhom s2) km (u s2) O M2 KM) as (_ & _ & _ & _ & BB). intros k K. apply Rabs_le. exact (BB _ _ X k K).
    + assert (forall k, (k < nz F)%nat -> - B <= v s2 k <= B) as X.
      { intros k K. destruct k as [|k].
        - pose proof (Rabs_def2_le _ _ (HB _ K)) as HB0. rewrite EV in BV. destruct BV; lra.
        - assert (v s2 (S k) = v s (S k)) as -> by (specialize (OT (S k) (Nat.neq_succ_0 k)); congruence). rewrite EV. apply Rabs_def2_le, HB, K. }
      destruct (C129_mixing F (rhom s2) km (v s2) O M2 KM) as (_ & _ & _ & _ & BB). intros k K. apply Rabs_le. exact (BB _ _ X k K).
Qed.
Print Assumptions C129_physics.
Example C129_physics_case : (forall k : nat, (k < nz one_layer)%nat -> 0 < 80000 /\ 0 <= 1 / 100) /\
  saturation (gravit * total (nz one_layer) (fun k => rho one_layer k * (zi one_layer (S k) - zi one_layer k))) t_0 < 1.
Proof.
  split; [intros; lra|].
  assert (gravit * total (nz one_layer) (fun k => rho one_layer k * (zi one_layer (S k) - zi one_layer k)) = gravit * 100) as ->.
  { unfold one_layer. cbn [nz total zi rho]. rewrite S_INR. cbn [INR]. ring. }
  unfold saturation. replace (1 / t_0 - 1 / t_0) with 0 by ring. rewrite Rmult_0_r, exp_0. unfold epsilo. consts. lra.
Qed.
