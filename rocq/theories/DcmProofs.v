(** Lemmas for DcmProps *)
From Coq Require Import Reals ZArith Lra Lia.
From Verif Require Import DcmModel DcmSpec.
Local Open Scope R_scope.

Lemma total_ext n f h : (forall k, (k < n)%nat -> f k = h k) -> total n f = total n h.
Proof. induction n; intros E; cbn; [reflexivity|]. rewrite IHn, E by auto with arith. reflexivity. Qed.
Lemma total_pos n f : (forall k, (k < n)%nat -> 0 <= f k) -> 0 <= total n f.
Proof. induction n; intros E; cbn; [lra|]. assert (0 <= total n f) by auto with arith. specialize (E n (Nat.lt_succ_diag_r n)). lra. Qed.
Lemma total_le n f h : (forall k, (k < n)%nat -> f k <= h k) -> total n f <= total n h.
Proof. induction n; intros E; cbn; [lra|]. assert (total n f <= total n h) by auto with arith. specialize (E n (Nat.lt_succ_diag_r n)). lra. Qed.
Lemma total_minus n f h : total n (fun k => f k - h k) = total n f - total n h.
Proof. induction n; cbn; [lra|]. rewrite IHn. lra. Qed.
Lemma total_scale n c f : total n (fun k => c * f k) = c * total n f.
Proof. induction n; cbn; [lra|]. rewrite IHn. lra. Qed.
Lemma total_telescope n f : total n (fun k => f k - f (S k)) = f 0%nat - f n.
Proof. induction n; cbn; [lra|]. rewrite IHn. lra. Qed.
Lemma total_lt n f h k : (k < n)%nat -> (forall j, (j < n)%nat -> f j <= h j) -> f k < h k -> total n f < total n h.
Proof.
  revert k. induction n; intros k K E L; [lia|]. cbn. destruct (Nat.eq_dec k n) as [->|N].
  - assert (total n f <= total n h) by (apply total_le; auto with arith). lra.
  - assert (total n f < total n h) by (apply (IHn k); auto with arith; lia). specialize (E n (Nat.lt_succ_diag_r n)). lra.
Qed.

Section Sweep.
  Context (F : fixed) (m K x : nat -> R).
  Let n := nz F.
  Context (N : (0 < n)%nat) (A : forall k, (k < n)%nat -> 0 <= coef_a F m K k) (C : forall k, (k < n)%nat -> 0 <= coef_c F m K k).
  Let e k := fst (sweep F m K x k).
  Let f k := snd (sweep F m K x k).
  Let piv k := match k with O => coef_b F m K 0 | S j => coef_b F m K k - coef_a F m K k * e j end.
  Lemma sweep_e k : e k = coef_c F m K k / piv k.
  Proof. destruct k; [reflexivity|]. unfold e, piv, e. cbn [sweep]. destruct (sweep F m K x k). reflexivity. Qed.
  Lemma sweep_f k : f k = match k with O => x 0%nat / piv 0 | S j => (x k + coef_a F m K k * f j) / piv k end.
  Proof. destruct k; [reflexivity|]. unfold f, piv, e. cbn [sweep]. destruct (sweep F m K x k). reflexivity. Qed.
  Lemma a_0 : coef_a F m K 0 = 0. Proof. unfold coef_a. cbn. ring. Qed.
  Lemma c_top : coef_c F m K (n - 1) = 0.
  Proof. unfold coef_c. replace (S (n - 1)) with n by lia. fold n. rewrite Nat.eqb_refl. ring. Qed.
  Lemma pivot k : (k < n)%nat -> 1 + coef_c F m K k <= piv k /\ 0 <= e k < 1.
  Proof.
    induction k as [|k IH]; intros L.
    - pose proof (C 0 L) as C0. assert (piv 0 = 1 + coef_c F m K 0) as P by (unfold piv, coef_b; rewrite a_0; ring).
      split; [lra|]. rewrite sweep_e, P. split.
      + apply Rmult_le_pos; [lra|]. left. apply Rinv_0_lt_compat. lra.
      + apply Rmult_lt_reg_r with (1 + coef_c F m K 0); [lra|]. unfold Rdiv. rewrite Rmult_assoc, Rinv_l; lra.
    - destruct IH as [_ E]; [lia|]. pose proof (C _ L) as CK. pose proof (A _ L) as AK.
      assert (1 + coef_c F m K (S k) <= piv (S k)) as P.
      { unfold piv, coef_b. assert (coef_a F m K (S k) * e k <= coef_a F m K (S k) * 1) by (apply Rmult_le_compat_l; lra). lra. }
      split; [exact P|]. rewrite sweep_e. split.
      + apply Rmult_le_pos; [lra|]. left. apply Rinv_0_lt_compat. lra.
      + apply Rmult_lt_reg_r with (piv (S k)); [lra|]. unfold Rdiv. rewrite Rmult_assoc, Rinv_l; lra.
  Qed.
  Let y := mix F m K x.
  Lemma mix_top : y (n - 1)%nat = f (n - 1)%nat.
  Proof. unfold y, mix. fold n. rewrite Nat.sub_diag. reflexivity. Qed.
  Lemma mix_down k : (S k < n)%nat -> y k = e k * y (S k) + f k.
  Proof.
    intros L. unfold y, mix. fold n. replace (n - 1 - k)%nat with (S (n - 1 - S k)) by lia. cbn [descend]. fold n.
    replace (n - 1 - S (n - 1 - S k))%nat with k by lia. reflexivity.
  Qed.
  Lemma mix_any k : (k < n)%nat -> y k = e k * y (S k) + f k.
  Proof.
    intros L. destruct (Nat.eq_dec (S k) n) as [E|E]; [|apply mix_down; lia].
    assert (k = n - 1)%nat as -> by lia. rewrite mix_top. assert (e (n - 1)%nat = 0) as -> by (rewrite sweep_e, c_top; unfold Rdiv; ring). ring.
  Qed.
  Lemma mix_row k : (k < n)%nat -> coef_b F m K k * y k - coef_a F m K k * y (k - 1)%nat - coef_c F m K k * y (S k) = x k.
  Proof.
    intros L. destruct (pivot k L) as [P _]. pose proof (C _ L) as CK. pose proof (mix_any k L) as Y.
    rewrite sweep_e, sweep_f in Y. destruct k as [|j].
    - rewrite a_0. unfold piv in *. rewrite Y. field. lra.
    - cbn [Nat.sub]. rewrite Nat.sub_0_r. rewrite (mix_any j) by lia. set (D := piv (S j)) in *.
      assert (D = coef_b F m K (S j) - coef_a F m K (S j) * e j) as ED by reflexivity.
      assert (D * y (S j) = coef_c F m K (S j) * y (S (S j)) + x (S j) + coef_a F m K (S j) * f j) as W by (rewrite Y; field; lra).
      rewrite ED in W. lra.
  Qed.
  Lemma f_bound M : (forall k, (k < n)%nat -> x k <= M) -> forall k, (k < n)%nat -> f k <= (1 - e k) * M.
  Proof.
    intros B. induction k as [|k IH]; intros L; destruct (pivot _ L) as [P _]; pose proof (C _ L) as CK; pose proof (B _ L) as BK; rewrite sweep_f, sweep_e.
    - apply Rmult_le_reg_r with (piv 0); [lra|]. replace (x 0%nat / piv 0 * piv 0) with (x 0%nat) by (field; lra).
      replace ((1 - coef_c F m K 0 / piv 0) * M * piv 0) with ((piv 0 - coef_c F m K 0) * M) by (field; lra).
      assert (piv 0 - coef_c F m K 0 = 1) as -> by (unfold piv, coef_b; rewrite a_0; ring). lra.
    - set (D := piv (S k)) in *. apply Rmult_le_reg_r with D; [lra|].
      replace ((x (S k) + coef_a F m K (S k) * f k) / D * D) with (x (S k) + coef_a F m K (S k) * f k) by (field; lra).
      replace ((1 - coef_c F m K (S k) / D) * M * D) with ((D - coef_c F m K (S k)) * M) by (field; lra).
      assert (D - coef_c F m K (S k) = 1 + coef_a F m K (S k) * (1 - e k)) as -> by (unfold D, piv, coef_b; ring).
      pose proof (A _ L) as AK. assert (coef_a F m K (S k) * f k <= coef_a F m K (S k) * ((1 - e k) * M)) by (apply Rmult_le_compat_l; [lra|apply IH; lia]). lra.
  Qed.
  Lemma mix_le M : (forall k, (k < n)%nat -> x k <= M) -> forall k, (k < n)%nat -> y k <= M.
  Proof.
    intros B. assert (forall j k, (k < n)%nat -> (n - 1 - k = j)%nat -> y k <= M) as H; [|intros k L; exact (H _ k L eq_refl)].
    induction j; intros k L J; pose proof (f_bound M B k L) as FB; destruct (pivot k L) as [_ E].
    - assert (k = n - 1)%nat as -> by lia. rewrite mix_top. assert (e (n - 1)%nat = 0) as Z by (rewrite sweep_e, c_top; unfold Rdiv; ring). rewrite Z in FB. lra.
    - rewrite mix_down by lia. assert (y (S k) <= M) by (apply IHj; lia). assert (e k * y (S k) <= e k * M) by (apply Rmult_le_compat_l; lra). lra.
  Qed.
End Sweep.

Lemma sweep_opp F m K x k : sweep F m K (fun j => - x j) k = (fst (sweep F m K x k), - snd (sweep F m K x k)).
Proof. induction k; cbn; [f_equal; unfold Rdiv; ring|]. rewrite IHk. destruct (sweep F m K x k). cbn. f_equal. unfold Rdiv. ring. Qed.
Lemma mix_opp F m K x k : mix F m K (fun j => - x j) k = - mix F m K x k.
Proof.
  unfold mix. generalize (nz F - 1 - k)%nat. induction n; cbn; [rewrite sweep_opp; reflexivity|]. rewrite IHn, sweep_opp. cbn. ring.
Qed.
Lemma mix_ge F m K x M : (0 < nz F)%nat -> (forall k, (k < nz F)%nat -> 0 <= coef_a F m K k) -> (forall k, (k < nz F)%nat -> 0 <= coef_c F m K k) ->
  (forall k, (k < nz F)%nat -> M <= x k) -> forall k, (k < nz F)%nat -> M <= mix F m K x k.
Proof.
  intros N A C B k L. assert (mix F m K (fun j => - x j) k <= - M) as H.
  { apply mix_le; [exact N|exact A|exact C| |exact L]. intros j J. specialize (B j J). lra. }
  rewrite mix_opp in H. lra.
Qed.

Section Column.
  Context (F : fixed) (m K : nat -> R).
  Let n := nz F.
  Context (O : column_ok n (rho F) (zm F) (zi F) (dtime F)) (M : forall k, (k < n)%nat -> 0 < m k) (KP : forall k, (k <= n)%nat -> 0 <= K k).
  Lemma coef_a_ok k : (k < n)%nat -> 0 <= coef_a F m K k.
  Proof.
    destruct O as (N & DT & _ & _ & _ & G & H). intros L. unfold coef_a. destruct (Nat.eqb_spec k 0) as [E|E]; [rewrite Rmult_0_l; lra|].
    pose proof (M k L). assert (0 < m (k - 1)%nat) by (apply M; lia). pose proof (G k L). specialize (H (k - 1)%nat). replace (S (k - 1)) with k in H by lia. specialize (H L).
    apply Rmult_le_pos; [|apply KP; lia]. unfold Rdiv. repeat apply Rmult_le_pos; try (left; apply Rinv_0_lt_compat); lra.
  Qed.
  Lemma coef_c_ok k : (k < n)%nat -> 0 <= coef_c F m K k.
  Proof.
    destruct O as (N & DT & _ & _ & _ & G & H). intros L. unfold coef_c. fold n. destruct (Nat.eqb_spec (S k) n) as [E|E]; [rewrite Rmult_0_l; lra|].
    pose proof (M k L). assert (0 < m (S k)) by (apply M; lia). pose proof (G k L). assert (zm F k < zm F (S k)) by (apply H; lia).
    apply Rmult_le_pos; [|apply KP; lia]. unfold Rdiv. repeat apply Rmult_le_pos; try (left; apply Rinv_0_lt_compat); lra.
  Qed.
  Lemma mix_mixed x : mixed n m K (zm F) (zi F) (dtime F) x (mix F m K x).
  Proof.
    pose proof O as (N & DT & _ & _ & _ & G & H). intros k L. pose proof (mix_row F m K x N coef_a_ok coef_c_ok k L) as R.
    pose proof (M k L) as MK. pose proof (G k L) as GK. set (y := mix F m K x) in *. clearbody y. rewrite <- R. clear R. unfold coef_b.
    assert (flux n m K (zm F) y k = coef_a F m K k * (y (k - 1)%nat - y k) * (m k * (zi F (S k) - zi F k)) / dtime F) as E1.
    { unfold flux, coef_a. destruct k as [|j]; [cbn; unfold Rdiv; ring|]. cbn [Nat.eqb Nat.sub]. rewrite Nat.sub_0_r.
      destruct (Nat.ltb_spec (S j) n); [|lia]. pose proof (H j L). field. repeat split; lra. }
    assert (flux n m K (zm F) y (S k) = coef_c F m K k * (y k - y (S k)) * (m k * (zi F (S k) - zi F k)) / dtime F) as E2.
    { unfold flux, coef_c. fold n. destruct (Nat.ltb_spec (S k) n); destruct (Nat.eqb_spec (S k) n); try lia.
      - pose proof (H k). assert (zm F k < zm F (S k)) by auto. field. repeat split; lra.
      - unfold Rdiv. ring. }
    rewrite E1, E2. field. lra.
  Qed.
End Column.

Lemma mixed_total n m K h g dt x y : dt <> 0 -> mixed n m K h g dt x y ->
  total n (fun k => m k * (g (S k) - g k) * y k) = total n (fun k => m k * (g (S k) - g k) * x k).
Proof.
  intros D E. assert (total n (fun k => m k * (g (S k) - g k) * y k - m k * (g (S k) - g k) * x k) = 0) as Z; [|rewrite total_minus in Z; lra].
  rewrite (total_ext n _ (fun k => dt * (flux n m K h y k - flux n m K h y (S k)))).
  - rewrite total_scale, total_telescope. assert (flux n m K h y n = 0) as ->; [|cbn; ring].
    destruct n; [reflexivity|]. cbn [flux]. rewrite Nat.ltb_irrefl. reflexivity.
  - intros k L. rewrite <- (E k L). field. exact D.
Qed.

Lemma exp_two y : 0 <= y -> 1 + y + y * y / 2 <= exp y.
Proof.
  intros Y. destruct Y as [Y|<-]; [|rewrite exp_0; lra].
  assert (forall z, 0 < z -> exp z - (1 + z + z * z / 2) > 0) as H; [|specialize (H y Y); lra].
  intros z Z. set (w := fun x => exp x - (1 + x + x * x / 2)).
  assert (forall c, derivable_pt_lim w c (exp c - (1 + c))) as D.
  { intros c. apply derivable_pt_lim_minus; [apply derivable_pt_lim_exp|].
    replace (1 + c) with (0 + 1 + (1 * c + c * 1) * / 2) by field.
    apply (derivable_pt_lim_plus (fun x => 1 + x) (fun x => x * x / 2)).
    - apply (derivable_pt_lim_plus (fun _ => 1) (fun x => x)); [apply derivable_pt_lim_const|apply derivable_pt_lim_id].
    - replace ((1 * c + c * 1) * / 2) with ((1 * c + c * 1) * / 2 + c * c * 0) by ring.
      apply (derivable_pt_lim_mult (fun x => x * x) (fun _ => / 2)); [apply (derivable_pt_lim_mult (fun x => x) (fun x => x)); apply derivable_pt_lim_id|apply derivable_pt_lim_const]. }
  destruct (MVT_cor2 w (fun c => exp c - (1 + c)) 0 z Z (fun c _ => D c)) as (c & E & I).
  assert (w 0 = 0) as W0 by (unfold w; rewrite exp_0; lra). fold (w z). rewrite W0 in E.
  assert (1 + c < exp c) by (apply exp_ineq1; lra). assert (0 < (exp c - (1 + c)) * (z - 0)) by (apply Rmult_lt_0_compat; lra). lra.
Qed.
