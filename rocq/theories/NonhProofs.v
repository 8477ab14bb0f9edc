From Coq Require Import ZArith Reals List Bool Lia Lra Psatz.
From Verif Require Import QuadModel QuadSpec InterpModel ColModel PhysSpec ShallowModel ShallowSpec ShallowProofs ViscModel ViscSpec ViscProofs NonhModel NonhSpec.
From Verif Require PhysModel.
Import ListNotations.
Local Open Scope R_scope.
Local Notation z := Z.of_nat.

(** ** Values after the step *)
Section After.
Context (n : nat) (B : basis) (G : geometry3) (S : settings) (init u s : state3) (dt : R) (h : Z) (nA nB : nat).
Context (E : nonhydro_step n B G S init dt h nA nB u = Some s).
Local Notation loop := (patch_loop n h nA nB).
Lemma step_u : vU s = each_level S (fun k => loop (fun p q i j v => v + dt * upd_u n B G S init k p q i j)) (vU u).
Proof. unfold nonhydro_step in E. destruct (w_edge S); [|destruct (all_nodes _ _ _ _ _)]; try discriminate; injection E as <-; reflexivity. Qed.
Lemma step_v : vV s = if xz S then vV u else each_level S (fun k => loop (fun p q i j v => v + dt * upd_v n B G S init k p q i j)) (vV u).
Proof. unfold nonhydro_step in E. destruct (w_edge S); [|destruct (all_nodes _ _ _ _ _)]; try discriminate; injection E as <-; reflexivity. Qed.
Lemma step_r : vR s = each_level S (fun k => loop (fun p q i j v => v - dt * divergence3 n B G k (flux_a G S init (vR init) k) (flux_b G S init (vR init) k) p q i j)) (vR u).
Proof. unfold nonhydro_step in E. destruct (w_edge S); [|destruct (all_nodes _ _ _ _ _)]; try discriminate; injection E as <-; reflexivity. Qed.
Lemma step_p : vP s = each_level S (fun k => loop (fun p q i j v => v - dt * divergence3 n B G k (flux_a G S init (init_p S init) k) (flux_b G S init (init_p S init) k) p q i j)) (vP u).
Proof. unfold nonhydro_step in E. destruct (w_edge S); [|destruct (all_nodes _ _ _ _ _)]; try discriminate; injection E as <-; reflexivity. Qed.
Lemma step_t c : vT s c = if Nat.ltb c (tracers S)
    then each_level S (fun k => loop (fun p q i j v => v - dt * divergence3 n B G k (tflux_a n B G S init c k p q) (tflux_b n B G S init c k p q) p q i j)) (vT u c)
    else vT u c.
Proof. unfold nonhydro_step in E. destruct (w_edge S); [|destruct (all_nodes _ _ _ _ _)]; try discriminate; injection E as <-; reflexivity. Qed.
Lemma step_ep : eP s = eP u.
Proof. unfold nonhydro_step in E. destruct (w_edge S); [|destruct (all_nodes _ _ _ _ _)]; try discriminate; injection E as <-; reflexivity. Qed.
Lemma step_w : w_edge S = true -> vW s = vW u.
Proof. intros H. unfold nonhydro_step in E. rewrite H in E. injection E as <-. reflexivity. Qed.
Lemma step_ew : w_edge S = true -> forall k, eW s k = match k with
      | O => loop (fun p q i j _ =>
          let x := (p + z i)%Z in let y := (q + z j)%Z in
          - (xi0 G x y * apply1 (op_ne S) (fun l => vU s l x y) 0 + xi1 G x y * apply1 (op_ne S) (fun l => vV s l x y) 0) / xi2 G x y) (eW u 0%nat)
      | _ => if Nat.ltb k (levels_ S)
             then loop (fun p q i j v => v + dt * apply1 (op_ne S) (fun l => cross_x n B G S init l p q i j) k) (eW u k)
             else eW u k
      end.
Proof. intros H k. rewrite step_u, step_v. unfold nonhydro_step in E. rewrite H in E. injection E as <-. reflexivity. Qed.

Context (a b : nat) (Ha : (a < nA)%nat) (Hb : (b < nB)%nat).
Local Notation p := (h + z (a * n))%Z.
Local Notation q := (h + z (b * n))%Z.
Lemma level_there F f k i j : (k < levels_ S)%nat -> (i < n)%nat -> (j < n)%nat ->
  each_level S (fun k => loop (F k)) f k (p + z i)%Z (q + z j)%Z = F k p q i j (f k (p + z i)%Z (q + z j)%Z).
Proof. intros Hk Hi Hj. unfold each_level. rewrite (proj2 (Nat.ltb_lt _ _) Hk). apply (patch_there n h nA nB (F k)); assumption. Qed.
Lemma at_u k i j : (k < levels_ S)%nat -> (i < n)%nat -> (j < n)%nat ->
  vU s k (p + z i)%Z (q + z j)%Z = vU u k (p + z i)%Z (q + z j)%Z + dt * upd_u n B G S init k p q i j.
Proof. intros. rewrite step_u. apply (level_there (fun k p q i j v => v + dt * upd_u n B G S init k p q i j)); assumption. Qed.
Lemma at_v k i j : xz S = false -> (k < levels_ S)%nat -> (i < n)%nat -> (j < n)%nat ->
  vV s k (p + z i)%Z (q + z j)%Z = vV u k (p + z i)%Z (q + z j)%Z + dt * upd_v n B G S init k p q i j.
Proof. intros X **. rewrite step_v, X. apply (level_there (fun k p q i j v => v + dt * upd_v n B G S init k p q i j)); assumption. Qed.
Local Notation weak := (fun k fa fb i j => dt * (1 / J3 G k (p + z i)%Z (q + z j)%Z) * (v_alpha n B (base2 G) fa p q i j + v_beta n B (base2 G) fb p q i j)).
Lemma at_r k i j : (k < levels_ S)%nat -> (i < n)%nat -> (j < n)%nat ->
  vR s k (p + z i)%Z (q + z j)%Z = vR u k (p + z i)%Z (q + z j)%Z - weak k (flux_a G S init (vR init) k) (flux_b G S init (vR init) k) i j.
Proof.
  intros. rewrite step_r, (level_there (fun k p q i j v => v - dt * divergence3 n B G k (flux_a G S init (vR init) k) (flux_b G S init (vR init) k) p q i j)) by assumption.
  unfold divergence3. ring.
Qed.
Lemma at_p k i j : (k < levels_ S)%nat -> (i < n)%nat -> (j < n)%nat ->
  vP s k (p + z i)%Z (q + z j)%Z = vP u k (p + z i)%Z (q + z j)%Z - weak k (flux_a G S init (init_p S init) k) (flux_b G S init (init_p S init) k) i j.
Proof.
  intros. rewrite step_p, (level_there (fun k p q i j v => v - dt * divergence3 n B G k (flux_a G S init (init_p S init) k) (flux_b G S init (init_p S init) k) p q i j)) by assumption.
  unfold divergence3. ring.
Qed.
Lemma at_t c k i j : (c < tracers S)%nat -> (k < levels_ S)%nat -> (i < n)%nat -> (j < n)%nat ->
  vT s c k (p + z i)%Z (q + z j)%Z = vT u c k (p + z i)%Z (q + z j)%Z - weak k (tflux_a n B G S init c k p q) (tflux_b n B G S init c k p q) i j.
Proof.
  intros Hc **. rewrite step_t, (proj2 (Nat.ltb_lt _ _) Hc).
  rewrite (level_there (fun k p q i j v => v - dt * divergence3 n B G k (tflux_a n B G S init c k p q) (tflux_b n B G S init c k p q) p q i j)) by assumption.
  unfold divergence3. ring.
Qed.
Lemma at_bottom i j : w_edge S = true -> (i < n)%nat -> (j < n)%nat ->
  let x := (p + z i)%Z in let y := (q + z j)%Z in
  eW s 0%nat x y = - (xi0 G x y * apply1 (op_ne S) (fun l => vU s l x y) 0 + xi1 G x y * apply1 (op_ne S) (fun l => vV s l x y) 0) / xi2 G x y.
Proof.
  intros W Hi Hj x y. rewrite (step_ew W 0%nat).
  apply (patch_there n h nA nB (fun p q i j _ => - (xi0 G (p + z i)%Z (q + z j)%Z * apply1 (op_ne S) (fun l => vU s l (p + z i)%Z (q + z j)%Z) 0 +
    xi1 G (p + z i)%Z (q + z j)%Z * apply1 (op_ne S) (fun l => vV s l (p + z i)%Z (q + z j)%Z) 0) / xi2 G (p + z i)%Z (q + z j)%Z)); assumption.
Qed.
Lemma at_edge k i j : w_edge S = true -> (0 < k)%nat -> (k < levels_ S)%nat -> (i < n)%nat -> (j < n)%nat ->
  eW s k (p + z i)%Z (q + z j)%Z = eW u k (p + z i)%Z (q + z j)%Z + dt * apply1 (op_ne S) (fun l => cross_x n B G S init l p q i j) k.
Proof.
  intros W K0 Hk Hi Hj. rewrite (step_ew W k). destruct k as [|k]; [lia|]. rewrite (proj2 (Nat.ltb_lt _ _) Hk).
  apply (patch_there n h nA nB (fun p q i j v => v + dt * apply1 (op_ne S) (fun l => cross_x n B G S init l p q i j) (Datatypes.S k))); assumption.
Qed.
End After.

(** ** Derivatives read only the nodes of the element *)
Section Local.
Context (n : nat) (B : basis) (g : geometry) (p q : Z).
Lemma d_alpha_ext f f' i j : (j < n)%nat -> (forall i j, (i < n)%nat -> (j < n)%nat -> f (p + z i)%Z (q + z j)%Z = f' (p + z i)%Z (q + z j)%Z) ->
  d_alpha n B g f p q i j = d_alpha n B g f' p q i j.
Proof. intros Hj H. rewrite !d_alpha_sum. f_equal. apply nsum_ext. intros s Hs. rewrite H by assumption. reflexivity. Qed.
Lemma d_beta_ext f f' i j : (i < n)%nat -> (forall i j, (i < n)%nat -> (j < n)%nat -> f (p + z i)%Z (q + z j)%Z = f' (p + z i)%Z (q + z j)%Z) ->
  d_beta n B g f p q i j = d_beta n B g f' p q i j.
Proof. intros Hj H. rewrite !d_beta_sum. f_equal. apply nsum_ext. intros s Hs. rewrite H by assumption. reflexivity. Qed.
Lemma v_alpha_ext f f' i j : (j < n)%nat -> (forall i j, (i < n)%nat -> (j < n)%nat -> f (p + z i)%Z (q + z j)%Z = f' (p + z i)%Z (q + z j)%Z) ->
  v_alpha n B g f p q i j = v_alpha n B g f' p q i j.
Proof. intros Hj H. rewrite !v_alpha_sum. f_equal. apply nsum_ext. intros s Hs. rewrite H by assumption. reflexivity. Qed.
Lemma v_beta_ext f f' i j : (i < n)%nat -> (forall i j, (i < n)%nat -> (j < n)%nat -> f (p + z i)%Z (q + z j)%Z = f' (p + z i)%Z (q + z j)%Z) ->
  v_beta n B g f p q i j = v_beta n B g f' p q i j.
Proof. intros Hj H. rewrite !v_beta_sum. f_equal. apply nsum_ext. intros s Hs. rewrite H by assumption. reflexivity. Qed.
Lemma d_alpha_const f c i j : annihilates_constants n (bD B) -> (i < n)%nat -> (j < n)%nat ->
  (forall i j, (i < n)%nat -> (j < n)%nat -> f (p + z i)%Z (q + z j)%Z = c) -> d_alpha n B g f p q i j = 0.
Proof. intros HD Hi Hj H. rewrite d_alpha_ddx. apply (ddx_const n (bD B) (gDeltaA g) f p q i j c HD Hi). intros s Hs. apply H; assumption. Qed.
Lemma d_beta_const f c i j : annihilates_constants n (bD B) -> (i < n)%nat -> (j < n)%nat ->
  (forall i j, (i < n)%nat -> (j < n)%nat -> f (p + z i)%Z (q + z j)%Z = c) -> d_beta n B g f p q i j = 0.
Proof. intros HD Hi Hj H. rewrite d_beta_ddy. apply (ddy_const n (bD B) (gDeltaB g) f p q i j c HD Hj). intros s Hs. apply H; assumption. Qed.
Lemma v_alpha_scal c f i j : v_alpha n B g (fun x y => c * f x y) p q i j = c * v_alpha n B g f p q i j.
Proof.
  rewrite !v_alpha_sum. rewrite (nsum_ext n _ (fun s => c * (f (p + z s)%Z (q + z j)%Z * bS B i s))) by (intros; ring). rewrite nsum_scal. ring.
Qed.
Lemma v_beta_scal c f i j : v_beta n B g (fun x y => c * f x y) p q i j = c * v_beta n B g f p q i j.
Proof.
  rewrite !v_beta_sum. rewrite (nsum_ext n _ (fun s => c * (f (p + z i)%Z (q + z s)%Z * bS B j s))) by (intros; ring). rewrite nsum_scal. ring.
Qed.
Lemma d_alpha_scal c f i j : d_alpha n B g (fun x y => c * f x y) p q i j = c * d_alpha n B g f p q i j.
Proof.
  rewrite !d_alpha_sum. rewrite (nsum_ext n _ (fun s => c * (f (p + z s)%Z (q + z j)%Z * bD B s i))) by (intros; ring). rewrite nsum_scal. ring.
Qed.
Lemma d_beta_scal c f i j : d_beta n B g (fun x y => c * f x y) p q i j = c * d_beta n B g f p q i j.
Proof.
  rewrite !d_beta_sum. rewrite (nsum_ext n _ (fun s => c * (f (p + z i)%Z (q + z s)%Z * bD B s j))) by (intros; ring). rewrite nsum_scal. ring.
Qed.
Lemma d_alpha_plus f f' i j : d_alpha n B g (fun x y => f x y + f' x y) p q i j = d_alpha n B g f p q i j + d_alpha n B g f' p q i j.
Proof. rewrite !d_alpha_sum, <- Rmult_plus_distr_l, <- nsum_plus. f_equal. apply nsum_ext. intros; ring. Qed.
Lemma d_beta_plus f f' i j : d_beta n B g (fun x y => f x y + f' x y) p q i j = d_beta n B g f p q i j + d_beta n B g f' p q i j.
Proof. rewrite !d_beta_sum, <- Rmult_plus_distr_l, <- nsum_plus. f_equal. apply nsum_ext. intros; ring. Qed.
End Local.

(** ** Column operators *)
Lemma accumulate_ext f f' x b e : (forall l, f l = f' l) -> accumulate f x b e = accumulate f' x b e.
Proof.
  intros H. unfold accumulate. generalize (seq b (e - b)). intros l. revert x.
  induction l as [|c l IH]; intros x; cbn; [reflexivity|]. rewrite H. apply IH.
Qed.
Lemma apply1_ext A f f' r : (forall l, f l = f' l) -> apply1 A f r = apply1 A f' r.
Proof. intros H. unfold apply1. apply accumulate_ext. intros l. rewrite H. reflexivity. Qed.
Lemma apply1_zero A f r : (forall l, f l = 0) -> apply1 A f r = 0.
Proof.
  intros H. unfold apply1. rewrite (accumulate_ext _ (fun _ => 0)) by (intros; rewrite H; ring). unfold accumulate.
  generalize (seq (nth r (beg A) 0%nat) (nth r (fin A) 0%nat - nth r (beg A) 0%nat)). intros l.
  induction l as [|c l IH]; cbn; [reflexivity|]. rewrite Rplus_0_l. exact IH.
Qed.

(** ** Thermodynamics *)
Lemma internal_deriv r c p0 x : 0 < r -> r < c -> 0 < p0 -> 0 < x ->
  derivable_pt_lim (internal r c p0) x (exner r c p0 (poisson r c p0 x)).
Proof.
  intros Hr Hc Hp Hx. set (ga := c / (c - r)).
  assert (Q : 0 < r * x / p0) by (apply Rdiv_lt_0_compat; [nra|lra]).
  assert (D : derivable_pt_lim (fun t => Rpower (r * t / p0) ga) x (ga * Rpower (r * x / p0) (ga - 1) * (r / p0))).
  { apply (derivable_pt_lim_comp (fun t => r * t / p0) (fun y => Rpower y ga) x).
    - apply (deriv_ext _ (fun t => r / p0 * t)); [intros; field; lra|].
      pose proof (derivable_pt_lim_scal id (r / p0) x 1 (derivable_pt_lim_id x)) as H. rewrite Rmult_1_r in H. exact H.
    - apply derivable_pt_lim_power. exact Q. }
  apply (deriv_ext _ (fun t => (c - r) / r * p0 * Rpower (r * t / p0) ga)).
  { intros t. unfold internal, poisson. fold ga. ring. }
  replace (exner r c p0 (poisson r c p0 x)) with ((c - r) / r * p0 * (ga * Rpower (r * x / p0) (ga - 1) * (r / p0))).
  { apply derivable_pt_lim_scal. exact D. }
  unfold exner, poisson. fold ga.
  replace (p0 * Rpower (r * x / p0) ga / p0) with (Rpower (r * x / p0) ga) by (field; lra).
  rewrite Rpower_mult. replace (ga * (r / c)) with (ga - 1) by (unfold ga; field; lra). unfold ga. field. lra.
Qed.
