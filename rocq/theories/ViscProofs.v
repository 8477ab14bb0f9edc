From Coq Require Import ZArith Reals List Lia Lra Psatz Bool.
From Verif Require Import ShallowModel ShallowSpec ShallowProofs ViscModel ViscSpec.
Import ListNotations.
Local Open Scope R_scope.
Local Notation z := Z.of_nat.

(** ** The loops write every node of the patch once *)
Section Loop.
Context (n : nat) (h : Z) (nA nB : nat) (F : Z -> Z -> nat -> nat -> R -> R).
Let body := fun (u : field) t => put u (px n h t) (py n h t)
  (F (first_node n h (pa t)) (first_node n h (pb t)) (pi t) (pj t) (u (px n h t) (py n h t))).
Lemma patch_loop_spots u : patch_loop n h nA nB F u = fold_left body (spots n nA nB) u.
Proof.
  unfold patch_loop, spots. rewrite <- fold_flat. apply fold_ext. intros v a. rewrite <- fold_flat. apply fold_ext.
  intros v' b. unfold node_loop. rewrite <- fold_flat. apply fold_ext. intros v'' i. rewrite <- fold_map. reflexivity.
Qed.
Lemma loop_away l : forall u x y, (forall t, In t l -> ~ (x = px n h t /\ y = py n h t)) -> fold_left body l u x y = u x y.
Proof.
  induction l as [|t l IH]; intros u x y H; cbn; [reflexivity|]. rewrite IH by (intros s Hs; apply H; right; exact Hs).
  apply put_other. apply H. left. reflexivity.
Qed.
Lemma loop_there l : NoDup l -> (forall s, In s l -> In s (spots n nA nB)) -> forall u t, In t l ->
  fold_left body l u (px n h t) (py n h t) =
  F (first_node n h (pa t)) (first_node n h (pb t)) (pi t) (pj t) (u (px n h t) (py n h t)).
Proof.
  induction 1 as [|s l Hs N IH]; intros P u t Ht; [destruct Ht|]. cbn. destruct Ht as [->|Ht].
  - rewrite loop_away; [apply put_same|]. intros s Hs' (Ex & Ey). apply Hs.
    rewrite (spot_inj n nA nB h t s); auto; apply P; [left; reflexivity|right; exact Hs'].
  - rewrite IH by (auto; intros r Hr; apply P; right; exact Hr). f_equal. unfold body. rewrite put_other; [reflexivity|].
    intros (Ex & Ey). apply Hs. rewrite <- (spot_inj n nA nB h t s); auto; apply P; [right; exact Ht|left; reflexivity].
Qed.
Lemma first_place a : first_node n h a = (h + z (a * n))%Z.
Proof. unfold first_node. lia. Qed.
Lemma patch_there u a b i j : (a < nA)%nat -> (b < nB)%nat -> (i < n)%nat -> (j < n)%nat ->
  let p := (h + z (a * n))%Z in let q := (h + z (b * n))%Z in
  patch_loop n h nA nB F u (p + z i)%Z (q + z j)%Z = F p q i j (u (p + z i)%Z (q + z j)%Z).
Proof.
  intros Ha Hb Hi Hj p q. rewrite patch_loop_spots.
  pose proof (loop_there (spots n nA nB) (nodup_spots n nA nB) (fun s H => H) u (Spot a b i j)) as E.
  unfold px, py in E. cbn [pa pb pi pj] in E. rewrite !first_place in E. apply E. apply in_spots. cbn. auto.
Qed.
Lemma patch_away u x y : (forall a b i j, (a < nA)%nat -> (b < nB)%nat -> (i < n)%nat -> (j < n)%nat ->
    ~ (x = h + z (a * n) + z i /\ y = h + z (b * n) + z j)%Z) ->
  patch_loop n h nA nB F u x y = u x y.
Proof.
  intros H. rewrite patch_loop_spots. apply loop_away. intros t Ht. apply in_spots in Ht.
  destruct Ht as (H1 & H2 & H3 & H4). unfold px, py. rewrite !first_place. apply H; assumption.
Qed.
End Loop.

(** ** Element sums *)
Section Element.
Context (n : nat) (B : basis) (g : geometry) (w : nat -> R) (p q : Z).
Context (HA : adjoint n w (bD B) (bS B)).
Lemma node_esum f : node_sum n w f = esum n w f.
Proof. reflexivity. Qed.
Lemma d_alpha_ddx f i j : d_alpha n B g f p q i j = ddx n (bD B) (gDeltaA g) f p q i j.
Proof. rewrite d_alpha_sum. unfold ddx, Rdiv. ring. Qed.
Lemma d_beta_ddy f i j : d_beta n B g f p q i j = ddy n (bD B) (gDeltaB g) f p q i j.
Proof. rewrite d_beta_sum. unfold ddy, Rdiv. ring. Qed.
(** the weak derivative of an element-wise array, against a test array *)
Lemma weak_x (K : field) (F : nat -> nat -> R) :
  esum n w (fun i j => K (p + z i)%Z (q + z j)%Z * (nsum n (fun s => F s j * bS B i s) / gDeltaA g)) =
  esum n w (fun i j => F i j * ddx n (bD B) (gDeltaA g) K p q i j).
Proof.
  rewrite !esum_rows. apply nsum_ext. intros j _. f_equal.
  rewrite (nsum_ext n _ (fun i => / gDeltaA g * (w i * (K (p + z i)%Z (q + z j)%Z * nsum n (fun s => F s j * bS B i s))))) by (intros; unfold Rdiv; ring).
  rewrite nsum_scal, (weak_parts n w (bD B) (bS B) (fun i => K (p + z i)%Z (q + z j)%Z) (fun s => F s j) HA), <- nsum_scal.
  apply nsum_ext. intros i _. unfold ddx, Rdiv. ring.
Qed.
Lemma weak_y (K : field) (F : nat -> nat -> R) :
  esum n w (fun i j => K (p + z i)%Z (q + z j)%Z * (nsum n (fun s => F i s * bS B j s) / gDeltaB g)) =
  esum n w (fun i j => F i j * ddy n (bD B) (gDeltaB g) K p q i j).
Proof.
  rewrite !esum_cols. apply nsum_ext. intros i _. f_equal.
  rewrite (nsum_ext n _ (fun j => / gDeltaB g * (w j * (K (p + z i)%Z (q + z j)%Z * nsum n (fun s => F i s * bS B j s))))) by (intros; unfold Rdiv; ring).
  rewrite nsum_scal, (weak_parts n w (bD B) (bS B) (fun j => K (p + z i)%Z (q + z j)%Z) (fun s => F i s) HA), <- nsum_scal.
  apply nsum_ext. intros j _. unfold ddy, Rdiv. ring.
Qed.
End Element.

(** ** Scalar diffusion *)
Section ScalarSums.
Context (n : nat) (B : basis) (g : geometry) (J : field) (w : nat -> R) (p q : Z).
Context (HA : adjoint n w (bD B) (bS B)).
Lemma upd_a_sum psi i j : upd_a n B g J psi p q i j = nsum n (fun s => jgrad_a n B g J psi p q s j * bS B i s) / gDeltaA g.
Proof. unfold upd_a. rewrite inc_sum. unfold Rdiv. ring. Qed.
Lemma upd_b_sum psi i j : upd_b n B g J psi p q i j = nsum n (fun s => jgrad_b n B g J psi p q i s * bS B j s) / gDeltaB g.
Proof. unfold upd_b. rewrite inc_sum. unfold Rdiv. ring. Qed.
Lemma scalar_weak psi K : (forall i j, (i < n)%nat -> (j < n)%nat -> gA1 g (p + z i)%Z (q + z j)%Z = gB0 g (p + z i)%Z (q + z j)%Z) ->
  esum n w (fun i j => K (p + z i)%Z (q + z j)%Z * (upd_a n B g J psi p q i j + upd_b n B g J psi p q i j)) =
  dirichlet n w (bD B) (gDeltaA g) (gDeltaB g) p q J (gA0 g) (gA1 g) (gB1 g) psi K.
Proof.
  intros Sy. rewrite (esum_ext n w _ (fun i j => K (p + z i)%Z (q + z j)%Z * (nsum n (fun s => jgrad_a n B g J psi p q s j * bS B i s) / gDeltaA g) +
    K (p + z i)%Z (q + z j)%Z * (nsum n (fun s => jgrad_b n B g J psi p q i s * bS B j s) / gDeltaB g)))
    by (intros; rewrite upd_a_sum, upd_b_sum; ring).
  rewrite esum_plus, (weak_x n B g w p q HA K (jgrad_a n B g J psi p q)), (weak_y n B g w p q HA K (jgrad_b n B g J psi p q)), <- esum_plus.
  unfold dirichlet. change (node_sum n w) with (esum n w). apply esum_ext. intros i j Hi Hj. unfold jgrad_a, jgrad_b.
  rewrite !d_alpha_ddx, !d_beta_ddy. cbv zeta. rewrite <- (Sy i j Hi Hj). ring.
Qed.
End ScalarSums.
Lemma ddx_const n D dA f p q i j c : annihilates_constants n D -> (i < n)%nat -> (forall s, (s < n)%nat -> f (p + z s)%Z (q + z j)%Z = c) ->
  ddx n D dA f p q i j = 0.
Proof.
  intros HD Hi Hf. unfold ddx. rewrite (nsum_ext n _ (fun s => c * D s i)) by (intros s Hs; rewrite Hf by exact Hs; reflexivity).
  rewrite nsum_scal, HD by exact Hi. unfold Rdiv. ring.
Qed.
Lemma ddy_const n D dB f p q i j c : annihilates_constants n D -> (j < n)%nat -> (forall s, (s < n)%nat -> f (p + z i)%Z (q + z s)%Z = c) ->
  ddy n D dB f p q i j = 0.
Proof.
  intros HD Hj Hf. unfold ddy. rewrite (nsum_ext n _ (fun s => c * D s j)) by (intros s Hs; rewrite Hf by exact Hs; reflexivity).
  rewrite nsum_scal, HD by exact Hj. unfold Rdiv. ring.
Qed.
Lemma esum_nonneg n w f : (forall i, (i < n)%nat -> 0 < w i) -> (forall i j, (i < n)%nat -> (j < n)%nat -> 0 <= f i j) -> 0 <= esum n w f.
Proof.
  intros Hw Hf. assert (S0 : forall m k, (forall i, (i < m)%nat -> 0 <= k i) -> 0 <= nsum m k).
  { induction m as [|m IH]; intros k Hk; cbn; [lra|]. pose proof (IH k ltac:(intros; apply Hk; lia)). pose proof (Hk m ltac:(lia)). lra. }
  apply S0. intros i Hi. apply S0. intros j Hj. pose proof (Hw i Hi). pose proof (Hw j Hj). pose proof (Hf i j Hi Hj).
  apply Rmult_le_pos; [|assumption]. apply Rmult_le_pos; lra.
Qed.
Lemma esum_null n w f : (forall i, (i < n)%nat -> 0 < w i) -> (forall i j, (i < n)%nat -> (j < n)%nat -> 0 <= f i j) -> esum n w f = 0 ->
  forall i j, (i < n)%nat -> (j < n)%nat -> f i j = 0.
Proof.
  intros Hw Hf. assert (S0 : forall m k, (forall i, (i < m)%nat -> 0 <= k i) -> 0 <= nsum m k /\ (nsum m k = 0 -> forall i, (i < m)%nat -> k i = 0)).
  { induction m as [|m IH]; intros k Hk; cbn; [split; [lra|intros; lia]|]. destruct (IH k ltac:(intros; apply Hk; lia)) as (A & C).
    pose proof (Hk m ltac:(lia)). split; [lra|]. intros E i Hi. destruct (Nat.eq_dec i m) as [->|Ne]; [lra|apply C; [lra|lia]]. }
  intros E i j Hi Hj. assert (P : forall i j, (i < n)%nat -> (j < n)%nat -> 0 <= w i * w j * f i j).
  { intros i' j' Hi' Hj'. pose proof (Hw i' Hi'). pose proof (Hw j' Hj'). apply Rmult_le_pos; [apply Rmult_le_pos; lra|apply Hf; assumption]. }
  assert (E1 : nsum n (fun j => w i * w j * f i j) = 0).
  { apply (proj2 (S0 n (fun i => nsum n (fun j => w i * w j * f i j)) ltac:(intros; apply S0; intros; apply P; assumption)) E i Hi). }
  pose proof (proj2 (S0 n (fun j => w i * w j * f i j) ltac:(intros; apply P; assumption)) E1 j Hj) as E2. cbn in E2.
  pose proof (Hw i Hi). pose proof (Hw j Hj). apply Rmult_integral in E2. destruct E2 as [E2|E2]; [|exact E2].
  apply Rmult_integral in E2. lra.
Qed.
Lemma form_nonneg gaa gab gbb a b : definite gaa gab gbb -> 0 <= gaa * a * a + gab * (a * b + b * a) + gbb * b * b.
Proof.
  intros (P & Dt). apply (Rmult_le_reg_l gaa); [exact P|]. rewrite Rmult_0_r.
  replace (gaa * (gaa * a * a + gab * (a * b + b * a) + gbb * b * b)) with
    ((gaa * a + gab * b) * (gaa * a + gab * b) + (gaa * gbb - gab * gab) * (b * b)) by ring.
  apply Rplus_le_le_0_compat; [apply Rle_0_sqr|]. apply Rmult_le_pos; [lra|apply Rle_0_sqr].
Qed.
Lemma form_null gaa gab gbb a b : definite gaa gab gbb -> gaa * a * a + gab * (a * b + b * a) + gbb * b * b = 0 -> a = 0 /\ b = 0.
Proof.
  intros (P & Dt) E. assert (E2 : (gaa * a + gab * b) * (gaa * a + gab * b) + (gaa * gbb - gab * gab) * (b * b) = 0).
  { replace ((gaa * a + gab * b) * (gaa * a + gab * b) + (gaa * gbb - gab * gab) * (b * b)) with
      (gaa * (gaa * a * a + gab * (a * b + b * a) + gbb * b * b)) by ring. rewrite E. ring. }
  pose proof (Rle_0_sqr (gaa * a + gab * b)) as S1. unfold Rsqr in S1. pose proof (Rle_0_sqr b) as S2. unfold Rsqr in S2.
  assert (B0 : b = 0) by (apply Rsqr_0_uniq; unfold Rsqr; nra). split; [|exact B0]. subst b. apply Rsqr_0_uniq. unfold Rsqr.
  assert (gaa * a * (gaa * a) = 0) by nra. assert (0 < gaa * gaa) by nra. nra.
Qed.

(** ** Curl, divergence and vector diffusion *)
Section VectorSums.
Context (n : nat) (B : basis) (g : geometry) (w : nat -> R) (p q : Z).
Context (HA : adjoint n w (bD B) (bS B)).
Lemma weak_a_sum f i j : weak_a n B g f p q i j = - (nsum n (fun s => f (p + z s)%Z (q + z j)%Z * bS B i s) / gDeltaA g).
Proof.
  unfold weak_a. rewrite dec_sum, (nsum_ext n (fun s => bS B i s * _) (fun s => f (p + z s)%Z (q + z j)%Z * bS B i s)) by (intros; ring).
  unfold Rdiv. ring.
Qed.
Lemma weak_b_sum f i j : weak_b n B g f p q i j = - (nsum n (fun s => f (p + z i)%Z (q + z s)%Z * bS B j s) / gDeltaB g).
Proof.
  unfold weak_b. rewrite dec_sum, (nsum_ext n (fun s => bS B j s * _) (fun s => f (p + z i)%Z (q + z s)%Z * bS B j s)) by (intros; ring).
  unfold Rdiv. ring.
Qed.
Lemma weak_a_parts K f : esum n w (fun i j => K (p + z i)%Z (q + z j)%Z * weak_a n B g f p q i j) =
  - esum n w (fun i j => f (p + z i)%Z (q + z j)%Z * ddx n (bD B) (gDeltaA g) K p q i j).
Proof.
  rewrite <- (weak_x n B g w p q HA K (fun i j => f (p + z i)%Z (q + z j)%Z)).
  replace (- esum n w (fun i j : nat => K (p + z i)%Z (q + z j)%Z * (nsum n (fun s : nat => f (p + z s)%Z (q + z j)%Z * bS B i s) / gDeltaA g)))
    with (-1 * esum n w (fun i j : nat => K (p + z i)%Z (q + z j)%Z * (nsum n (fun s : nat => f (p + z s)%Z (q + z j)%Z * bS B i s) / gDeltaA g))) by ring.
  rewrite <- esum_scal. apply esum_ext. intros i j _ _. rewrite weak_a_sum. ring.
Qed.
Lemma weak_b_parts K f : esum n w (fun i j => K (p + z i)%Z (q + z j)%Z * weak_b n B g f p q i j) =
  - esum n w (fun i j => f (p + z i)%Z (q + z j)%Z * ddy n (bD B) (gDeltaB g) K p q i j).
Proof.
  rewrite <- (weak_y n B g w p q HA K (fun i j => f (p + z i)%Z (q + z j)%Z)).
  replace (- esum n w (fun i j : nat => K (p + z i)%Z (q + z j)%Z * (nsum n (fun s : nat => f (p + z i)%Z (q + z s)%Z * bS B j s) / gDeltaB g)))
    with (-1 * esum n w (fun i j : nat => K (p + z i)%Z (q + z j)%Z * (nsum n (fun s : nat => f (p + z i)%Z (q + z s)%Z * bS B j s) / gDeltaB g))) by ring.
  rewrite <- esum_scal. apply esum_ext. intros i j _ _. rewrite weak_b_sum. ring.
Qed.
Context (Sy : forall i j, (i < n)%nat -> (j < n)%nat -> gA1 g (p + z i)%Z (q + z j)%Z = gB0 g (p + z i)%Z (q + z j)%Z).
Lemma div_cs_of u v i j o : (i < n)%nat -> (j < n)%nat ->
  div_cs n B g u v p q i j o = div_of n (bD B) (gDeltaA g) (gDeltaB g) (gJ g) (gA0 g) (gA1 g) (gB1 g) u v p q i j.
Proof.
  intros Hi Hj. unfold div_cs, div_of, ddx, ddy. cbv zeta. rewrite !inc_sum. unfold vcon_a, vcon_b.
  rewrite (nsum_ext n (fun s => gJ g (p + z i)%Z (q + z s)%Z * (gB0 g _ _ * _ + _) * _)
    (fun s => gJ g (p + z i)%Z (q + z s)%Z * (gA1 g (p + z i)%Z (q + z s)%Z * u (p + z i)%Z (q + z s)%Z + gB1 g (p + z i)%Z (q + z s)%Z * v (p + z i)%Z (q + z s)%Z) * bD B s j))
    by (intros s Hs; rewrite (Sy i s Hi Hs); ring).
  unfold Rdiv. ring.
Qed.
Lemma curl_cs_of u v i j o : curl_cs n B g u v p q i j o = curl_of n (bD B) (gDeltaA g) (gDeltaB g) (gJ g) u v p q i j.
Proof. unfold curl_cs, curl_of, ddx, ddy. cbv zeta. rewrite !inc_sum. unfold Rdiv. ring. Qed.
Lemma div_cart_cs u v i j o o' : div_cart n B g u v p q i j o = div_cs n B g u v p q i j o'.
Proof.
  unfold div_cart, div_cs. cbv zeta. rewrite !inc_sum.
  rewrite (nsum_ext n (fun s => bD B s i * _ * _) (fun s => gJ g (p + z s)%Z (q + z j)%Z * vcon_a g u v (p + z s)%Z (q + z j)%Z * bD B s i)) by (intros; ring).
  rewrite (nsum_ext n (fun s => bD B s j * _ * _) (fun s => gJ g (p + z i)%Z (q + z s)%Z * vcon_b g u v (p + z i)%Z (q + z s)%Z * bD B s j)) by (intros; ring).
  unfold Rdiv. ring.
Qed.
Lemma curl_cart_cs u v i j o o' : curl_cart n B g u v p q i j o = curl_cs n B g u v p q i j o'.
Proof.
  unfold curl_cart, curl_cs. cbv zeta. rewrite !inc_sum.
  rewrite (nsum_ext n (fun s => bD B s i * _) (fun s => v (p + z s)%Z (q + z j)%Z * bD B s i)) by (intros; ring).
  rewrite (nsum_ext n (fun s => bD B s j * _) (fun s => u (p + z i)%Z (q + z s)%Z * bD B s j)) by (intros; ring).
  unfold Rdiv. ring.
Qed.
(** the update of the velocity against a test velocity (k, l) *)
Lemma vector_weak dv cu nud nuv k l :
  (forall i j, (i < n)%nat -> (j < n)%nat -> let x := (p + z i)%Z in let y := (q + z j)%Z in
     gJ g x y <> 0 /\ gJ g x y * gJ g x y * (gA0 g x y * gB1 g x y - gA1 g x y * gA1 g x y) = 1) ->
  esum n w (fun i j => let x := (p + z i)%Z in let y := (q + z j)%Z in
    gJ g x y * ((gA0 g x y * k x y + gA1 g x y * l x y) * vector_a n B g dv cu nud nuv p q i j +
                (gA1 g x y * k x y + gB1 g x y * l x y) * vector_b n B g dv cu nud nuv p q i j)) =
  - (nud * esum n w (fun i j => let x := (p + z i)%Z in let y := (q + z j)%Z in
       gJ g x y * (dv x y * div_of n (bD B) (gDeltaA g) (gDeltaB g) (gJ g) (gA0 g) (gA1 g) (gB1 g) k l p q i j)) +
     nuv * esum n w (fun i j => let x := (p + z i)%Z in let y := (q + z j)%Z in
       gJ g x y * (cu x y * curl_of n (bD B) (gDeltaA g) (gDeltaB g) (gJ g) k l p q i j))).
Proof.
  intros Hg. cbv zeta in *.
  set (Ka := fun x y => gJ g x y * (gA0 g x y * k x y + gA1 g x y * l x y)).
  set (Kb := fun x y => gJ g x y * (gA1 g x y * k x y + gB1 g x y * l x y)).
  rewrite (esum_ext n w _ (fun i j =>
    nud * (Ka (p + z i)%Z (q + z j)%Z * weak_a n B g dv p q i j + Kb (p + z i)%Z (q + z j)%Z * weak_b n B g dv p q i j) +
    nuv * (l (p + z i)%Z (q + z j)%Z * weak_a n B g cu p q i j + -1 * (k (p + z i)%Z (q + z j)%Z * weak_b n B g cu p q i j)))).
  - rewrite esum_plus, !esum_scal, !esum_plus, esum_scal, !weak_a_parts, !weak_b_parts.
    set (X := esum n w (fun i j => cu _ _ * ddx n (bD B) (gDeltaA g) l p q i j)).
    set (Y := esum n w (fun i j => cu _ _ * ddy n (bD B) (gDeltaB g) k p q i j)).
    set (U := esum n w (fun i j => dv _ _ * ddx n (bD B) (gDeltaA g) Ka p q i j)).
    set (V := esum n w (fun i j => dv _ _ * ddy n (bD B) (gDeltaB g) Kb p q i j)).
    rewrite (esum_ext n w (fun i j => gJ g _ _ * (dv _ _ * _)) (fun i j =>
      dv (p + z i)%Z (q + z j)%Z * ddx n (bD B) (gDeltaA g) Ka p q i j + dv (p + z i)%Z (q + z j)%Z * ddy n (bD B) (gDeltaB g) Kb p q i j)).
    2:{ intros i j Hi Hj. unfold div_of. fold Ka Kb. field. apply (Hg i j Hi Hj). }
    rewrite (esum_ext n w (fun i j => gJ g _ _ * (cu _ _ * _)) (fun i j =>
      cu (p + z i)%Z (q + z j)%Z * ddx n (bD B) (gDeltaA g) l p q i j + -1 * (cu (p + z i)%Z (q + z j)%Z * ddy n (bD B) (gDeltaB g) k p q i j))).
    2:{ intros i j Hi Hj. unfold curl_of. field. apply (Hg i j Hi Hj). }
    rewrite !esum_plus, esum_scal. fold X Y U V. ring.
  - intros i j Hi Hj. unfold vector_a, vector_b, Ka, Kb. cbv zeta. destruct (Hg i j Hi Hj) as (_ & Hd). rewrite <- (Sy i j Hi Hj).
    set (x := (p + z i)%Z) in *. set (y := (q + z j)%Z) in *. set (WA := weak_a n B g cu p q i j). set (WB := weak_b n B g cu p q i j).
    set (DA := weak_a n B g dv p q i j). set (DB := weak_b n B g dv p q i j).
    transitivity (nud * (gJ g x y * (gA0 g x y * k x y + gA1 g x y * l x y) * DA + gJ g x y * (gA1 g x y * k x y + gB1 g x y * l x y) * DB) +
      nuv * (gJ g x y * gJ g x y * (gA0 g x y * gB1 g x y - gA1 g x y * gA1 g x y) * (l x y * WA - k x y * WB))); [ring|].
    rewrite Hd. ring.
Qed.
End VectorSums.
(** derivatives along the two axes commute *)
Lemma mixed n (D : nat -> nat -> R) dA dB (f : field) p q i j :
  nsum n (fun s => (nsum n (fun t => f (p + z s)%Z (q + z t)%Z * D t j) / dB) * D s i) / dA =
  nsum n (fun t => (nsum n (fun s => f (p + z s)%Z (q + z t)%Z * D s i) / dA) * D t j) / dB.
Proof.
  rewrite (nsum_ext n (fun s => _ / dB * D s i) (fun s => / dB * nsum n (fun t => f (p + z s)%Z (q + z t)%Z * D t j * D s i))).
  2:{ intros s _. rewrite (nsum_ext n (fun t => f _ _ * D t j * D s i) (fun t => D s i * (f (p + z s)%Z (q + z t)%Z * D t j))) by (intros; ring).
      rewrite nsum_scal. unfold Rdiv. ring. }
  rewrite (nsum_ext n (fun t => _ / dA * D t j) (fun t => / dA * nsum n (fun s => f (p + z s)%Z (q + z t)%Z * D t j * D s i))).
  2:{ intros t _. rewrite (nsum_ext n (fun s => f _ _ * D t j * D s i) (fun s => D t j * (f (p + z s)%Z (q + z t)%Z * D s i))) by (intros; ring).
      rewrite nsum_scal. unfold Rdiv. ring. }
  rewrite !nsum_scal, nsum_swap. unfold Rdiv. ring.
Qed.

(** ** Tracer filters *)
Definition part (l : list (R * R)) : R := total (filter (fun e => if Rle_dec 0 (fst e) then true else false) l).
Lemma masses_ok l : masses l = (total l, part l).
Proof.
  assert (A : forall s t, fold_left (fun s e => let m := fst e * snd e in
    (fst s + m, if Rle_dec 0 (fst e) then snd s + m else snd s)) l (s, t) = (s + total l, t + part l)).
  { unfold part, total. induction l as [|(v, a) l IH]; intros s t; cbn [fold_left filter fold_right fst snd]; [f_equal; lra|].
    cbv zeta. rewrite IH. destruct (Rle_dec 0 v); cbn [fold_right fst snd]; f_equal; ring. }
  unfold masses. rewrite A. f_equal; ring.
Qed.
Lemma part_bounds l : (forall e, In e l -> 0 < snd e) -> 0 <= part l /\ total l <= part l /\
  (forall e, In e l -> 0 < fst e -> 0 < part l) /\ ((forall e, In e l -> 0 <= fst e) -> part l = total l).
Proof.
  unfold part, total. induction l as [|(v, a) l IH]; intros H; cbn [filter fold_right fst snd].
  - cbn. repeat split; try lra; intros; try contradiction.
  - destruct (IH ltac:(intros e He; apply H; right; exact He)) as (I1 & I2 & I3 & I4).
    pose proof (H (v, a) (or_introl eq_refl)) as Ha. cbn in Ha. cbn [fst]. destruct (Rle_dec 0 v) as [Hv|Hv]; cbn [fold_right fst snd].
    + assert (0 <= v * a) by (apply Rmult_le_pos; lra). repeat apply conj; try lra.
      * intros e [<-|He] Hp; cbn in Hp; [assert (0 < v * a) by (apply Rmult_lt_0_compat; lra); lra|]. pose proof (I3 e He Hp). lra.
      * intros Hn. rewrite I4 by (intros e He; apply Hn; right; exact He). reflexivity.
    + assert (v * a < 0) by nra. repeat apply conj; try lra.
      * intros e [<-|He] Hp; cbn in Hp; [lra|]. exact (I3 e He Hp).
      * intros Hn. specialize (Hn (v, a) (or_introl eq_refl)). cbn in Hn. lra.
Qed.
(** values after the filter: l with new values in place of the old *)
Definition filtered (r : R) (v : R) : R := if Rlt_dec 0 v then v * r else 0.
Lemma filter_value_ok l e : (forall e, In e l -> 0 < snd e) -> In e l ->
  filter_value (ratio l) (fst e) = Some (filtered (total l / part l) (fst e)).
Proof.
  intros Ha He. unfold filter_value, filtered, ratio. rewrite masses_ok. destruct (Rlt_dec 0 (fst e)) as [Hv|Hv]; [|reflexivity].
  pose proof (proj1 (proj2 (proj2 (part_bounds l Ha))) e He Hv). destruct (Req_EM_T (part l) 0); [lra|reflexivity].
Qed.
Lemma filtered_sum r l : total (map (fun e => (filtered r (fst e), snd e)) l) = r * part l.
Proof.
  unfold part, total, filtered. induction l as [|(v, a) l IH]; cbn [map filter fold_right fst snd]; [ring|]. rewrite IH.
  destruct (Rlt_dec 0 v), (Rle_dec 0 v); cbn [fold_right fst snd]; try ring; [exfalso; lra|].
  assert (v = 0) as -> by lra. ring.
Qed.

(** ** Friction *)
Lemma cycle_contracts dt nu ref v : 1 + 1 / 10 * dt * nu <> 0 ->
  friction_cycle dt nu ref v - ref = 1 / (1 + 1 / 10 * dt * nu) * (v - ref).
Proof. intros N. unfold friction_cycle. cbv zeta. ring. Qed.
Lemma cycles_contract dt nu ref v m : 1 + 1 / 10 * dt * nu <> 0 ->
  Nat.iter m (friction_cycle dt nu ref) v - ref = (1 / (1 + 1 / 10 * dt * nu)) ^ m * (v - ref).
Proof.
  intros N. induction m as [|m IH]; [cbn; ring|].
  change (Nat.iter (S m) (friction_cycle dt nu ref) v) with (friction_cycle dt nu ref (Nat.iter m (friction_cycle dt nu ref) v)).
  rewrite cycle_contracts by exact N. rewrite IH. cbn [pow]. ring.
Qed.

(** ** The filter of a patch *)
Lemma total_app l l' : total (l ++ l') = total l + total l'.
Proof. unfold total. induction l as [|e l IH]; cbn [app fold_right]; [ring|rewrite IH; ring]. Qed.
Lemma total_flat (k : nat -> list (R * R)) m : total (flat_map k (seq 0 m)) = nsum m (fun i => total (k i)).
Proof. induction m as [|m IH]; [reflexivity|]. rewrite seq_S, flat_map_app, total_app, IH. cbn. rewrite app_nil_r. reflexivity. Qed.
Lemma total_map (k : nat -> R * R) m : total (map k (seq 0 m)) = nsum m (fun i => fst (k i) * snd (k i)).
Proof. induction m as [|m IH]; [reflexivity|]. rewrite seq_S, map_app, total_app, IH. unfold total. cbn. ring. Qed.
Lemma map_flat {A B C} (f : B -> C) (k : A -> list B) l : map f (flat_map k l) = flat_map (fun a => map f (k a)) l.
Proof. induction l as [|a l IH]; cbn; [reflexivity|]. rewrite map_app, IH. reflexivity. Qed.
Lemma total_element n p q area f :
  total (map (fun e => (f (fst e) (snd e), area (fst e) (snd e))) (element_nodes n p q)) = element_mass n p q area f.
Proof.
  unfold element_nodes. rewrite map_flat, total_flat. unfold element_mass. apply nsum_ext. intros i _.
  rewrite map_map, total_map. reflexivity.
Qed.
Lemma in_element_nodes n p q e : In e (element_nodes n p q) <-> exists i j, (i < n)%nat /\ (j < n)%nat /\ e = (p + z i, q + z j)%Z.
Proof.
  unfold element_nodes. rewrite in_flat_map. split.
  - intros (i & Hi & H). apply in_map_iff in H. destruct H as (j & <- & Hj). apply in_seq in Hi, Hj. exists i, j. repeat split; lia.
  - intros (i & j & Hi & Hj & ->). exists i. split; [apply in_seq; lia|]. apply in_map_iff. exists j. split; [reflexivity|apply in_seq; lia].
Qed.
Lemma nodup_element_nodes n p q : NoDup (element_nodes n p q).
Proof.
  unfold element_nodes. apply (nodup_flat _ (fun e => Z.to_nat (fst e - p))); [apply seq_NoDup| |].
  - intros i _. apply FinFun.Injective_map_NoDup; [|apply seq_NoDup]. intros a b E. injection E as E. lia.
  - intros i e H. apply in_map_iff in H. destruct H as (j & <- & _). cbn. lia.
Qed.
Lemma node_eq_dec (e e' : Z * Z) : {e = e'} + {e <> e'}.
Proof. decide equality; apply Z.eq_dec. Qed.
Definition has (l : list (Z * Z)) (e : Z * Z) : bool := if in_dec node_eq_dec e l then true else false.
Lemma filter_fold r (s : R) l : NoDup l -> forall f0,
  (forall e, In e l -> filter_value r (f0 (fst e) (snd e)) = Some (filtered s (f0 (fst e) (snd e)))) ->
  exists f', fold_left (fun w e => match w with
      | None => None
      | Some f' => put_option w (fst e) (snd e) (filter_value r (f' (fst e) (snd e))) end) l (Some f0) = Some f' /\
    forall x y, f' x y = if has l (x, y) then filtered s (f0 x y) else f0 x y.
Proof.
  induction 1 as [|e l He N IH]; intros f0 H; cbn [fold_left].
  - exists f0. split; [reflexivity|]. intros x y. reflexivity.
  - rewrite (H e) by (left; reflexivity). cbn [put_option].
    destruct (IH (put f0 (fst e) (snd e) (filtered s (f0 (fst e) (snd e))))) as (f' & E & V).
    { intros e' He'. rewrite put_other; [apply H; right; exact He'|]. intros (Ex & Ey). apply He.
      replace e with e' by (destruct e, e'; cbn in *; congruence). exact He'. }
    exists f'. split; [exact E|]. intros x y. rewrite V. unfold has. destruct (in_dec node_eq_dec (x, y) l) as [I|I].
    + destruct (in_dec node_eq_dec (x, y) (e :: l)) as [_|I']; [|elim I'; right; exact I].
      rewrite put_other; [reflexivity|]. intros (-> & ->). apply He. destruct e. exact I.
    + destruct (in_dec node_eq_dec (x, y) (e :: l)) as [[->|I']|I']; [| contradiction|].
      * cbn. rewrite put_same. reflexivity.
      * rewrite put_other; [reflexivity|]. intros (-> & ->). apply I'. left. destruct e. reflexivity.
Qed.
Definition scale (n : nat) (p q : Z) (area f : field) : R :=
  let l := map (fun e => (f (fst e) (snd e), area (fst e) (snd e))) (element_nodes n p q) in total l / part l.
Lemma filter_element_ok n area p q f : (forall i j, (i < n)%nat -> (j < n)%nat -> 0 < area (p + z i)%Z (q + z j)%Z) ->
  exists f', filter_element n area p q (Some f) = Some f' /\
    forall x y, f' x y = if has (element_nodes n p q) (x, y) then filtered (scale n p q area f) (f x y) else f x y.
Proof.
  intros Ha. unfold filter_element, scale.
  set (l := map (fun e => (f (fst e) (snd e), area (fst e) (snd e))) (element_nodes n p q)).
  assert (Pl : forall e, In e l -> 0 < snd e).
  { intros e He. apply in_map_iff in He. destruct He as (e' & <- & He). apply in_element_nodes in He. destruct He as (i & j & Hi & Hj & ->).
    cbn. apply Ha; assumption. }
  apply filter_fold; [apply nodup_element_nodes|]. intros e He.
  change (f (fst e) (snd e)) with (fst (f (fst e) (snd e), area (fst e) (snd e))).
  apply (filter_value_ok l); [exact Pl|]. unfold l. apply in_map_iff. exists e. split; [reflexivity|exact He].
Qed.
Lemma scale_ext n p q area f f' : (forall e, In e (element_nodes n p q) -> f (fst e) (snd e) = f' (fst e) (snd e)) ->
  scale n p q area f = scale n p q area f'.
Proof.
  intros H. unfold scale. replace (map (fun e => (f' (fst e) (snd e), area (fst e) (snd e))) (element_nodes n p q)) with
    (map (fun e => (f (fst e) (snd e), area (fst e) (snd e))) (element_nodes n p q)); [reflexivity|].
  apply map_ext_in. intros e He. rewrite (H e He). reflexivity.
Qed.

Definition corner (n : nat) (h : Z) (ab : nat * nat) : list (Z * Z) := element_nodes n (first_node n h (fst ab)) (first_node n h (snd ab)).
Lemma corner_inj n h e ab ab' : In e (corner n h ab) -> In e (corner n h ab') -> ab = ab'.
Proof.
  unfold corner. rewrite !in_element_nodes. intros (i & j & Hi & Hj & ->) (i' & j' & Hi' & Hj' & E). injection E as Ex Ey.
  unfold first_node in *. destruct (split_index n _ _ i i' h Hi Hi' Ex) as (E1 & _).
  destruct (split_index n _ _ j j' h Hj Hj' Ey) as (E2 & _). destruct ab, ab'; cbn in *; congruence.
Qed.
Lemma filter_elements n area h l : NoDup l -> forall f,
  (forall ab e, In ab l -> In e (corner n h ab) -> 0 < area (fst e) (snd e)) ->
  exists f', fold_left (fun u ab => filter_element n area (first_node n h (fst ab)) (first_node n h (snd ab)) u) l (Some f) = Some f' /\
    (forall ab e, In ab l -> In e (corner n h ab) ->
       f' (fst e) (snd e) = filtered (scale n (first_node n h (fst ab)) (first_node n h (snd ab)) area f) (f (fst e) (snd e))) /\
    (forall x y, (forall ab, In ab l -> ~ In (x, y) (corner n h ab)) -> f' x y = f x y).
Proof.
  induction 1 as [|ab l Hab N IH]; intros f Ha; cbn [fold_left].
  - exists f. split; [reflexivity|]. split; [intros ab e []|reflexivity].
  - destruct (filter_element_ok n area (first_node n h (fst ab)) (first_node n h (snd ab)) f) as (f1 & -> & V1).
    { intros i j Hi Hj. apply (Ha ab (first_node n h (fst ab) + z i, first_node n h (snd ab) + z j)%Z); [left; reflexivity|].
      apply in_element_nodes. exists i, j. auto. }
    destruct (IH f1 ltac:(intros ab' e H; apply Ha; right; exact H)) as (f' & -> & V & O). exists f'. split; [reflexivity|].
    fold (corner n h ab) in V1.
    assert (Out : forall ab' e, In ab' l -> In e (corner n h ab') -> f1 (fst e) (snd e) = f (fst e) (snd e)).
    { intros ab' e H He. rewrite V1. unfold has. destruct (in_dec node_eq_dec _ (corner n h ab)) as [I|I]; [|reflexivity].
      replace (fst e, snd e) with e in I by (destruct e; reflexivity). elim Hab. rewrite (corner_inj n h e ab ab' I He). exact H. }
    split.
    + intros ab' e [<-|H] He.
      * destruct e as (x, y). cbn [fst snd] in *. rewrite O.
        -- rewrite V1. unfold has. destruct (in_dec node_eq_dec (x, y) (corner n h ab)) as [_|I]; [reflexivity|contradiction].
        -- intros ab' H I. apply Hab. rewrite (corner_inj n h (x, y) ab ab' He I). exact H.
      * rewrite (V ab' e H He), (Out ab' e H He). f_equal. apply scale_ext. intros e' He'. apply (Out ab' e' H He').
    + intros x y H. rewrite O by (intros ab' Hl; apply H; right; exact Hl). rewrite V1. unfold has.
      destruct (in_dec node_eq_dec (x, y) (corner n h ab)) as [I|_]; [|reflexivity]. elim (H ab (or_introl eq_refl) I).
Qed.
Lemma filter_patch_ok n area h nA nB f :
  (forall a b i j, (a < nA)%nat -> (b < nB)%nat -> (i < n)%nat -> (j < n)%nat -> 0 < area (h + z (a * n) + z i)%Z (h + z (b * n) + z j)%Z) ->
  exists f', filter_patch n area h nA nB f = Some f' /\
    (forall a b i j, (a < nA)%nat -> (b < nB)%nat -> (i < n)%nat -> (j < n)%nat ->
       let p := (h + z (a * n))%Z in let q := (h + z (b * n))%Z in
       f' (p + z i)%Z (q + z j)%Z = filtered (scale n p q area f) (f (p + z i)%Z (q + z j)%Z)) /\
    (forall x y, (forall a b i j, (a < nA)%nat -> (b < nB)%nat -> (i < n)%nat -> (j < n)%nat ->
       ~ (x = h + z (a * n) + z i /\ y = h + z (b * n) + z j)%Z) -> f' x y = f x y).
Proof.
  intros Ha. set (l := flat_map (fun a => map (fun b => (a, b)) (seq 0 nB)) (seq 0 nA)).
  assert (Il : forall ab, In ab l <-> (fst ab < nA /\ snd ab < nB)%nat).
  { intros (a, b). unfold l. rewrite in_flat_map. cbn. split.
    - intros (a' & H1 & H2). apply in_map_iff in H2. destruct H2 as (b' & E & H2). injection E as -> ->. apply in_seq in H1, H2. lia.
    - intros (H1 & H2). exists a. split; [apply in_seq; lia|]. apply in_map_iff. exists b. split; [reflexivity|apply in_seq; lia]. }
  assert (Nl : NoDup l).
  { unfold l. apply (nodup_flat _ fst); [apply seq_NoDup| |].
    - intros a _. apply FinFun.Injective_map_NoDup; [|apply seq_NoDup]. intros b b' E. congruence.
    - intros a e H. apply in_map_iff in H. destruct H as (b & <- & _). reflexivity. }
  assert (Fl : filter_patch n area h nA nB f =
    fold_left (fun u ab => filter_element n area (first_node n h (fst ab)) (first_node n h (snd ab)) u) l (Some f)).
  { unfold filter_patch, l. rewrite <- fold_flat. apply fold_ext. intros u a. rewrite <- fold_map. reflexivity. }
  assert (fp : forall a, first_node n h a = (h + z (a * n))%Z) by (intros; unfold first_node; lia).
  destruct (filter_elements n area h l Nl f) as (f' & E & V & O).
  { intros (a, b) e H He. apply Il in H. cbn in H. unfold corner in He. apply in_element_nodes in He. cbn [fst snd] in He.
    destruct He as (i & j & Hi & Hj & ->). cbn [fst snd]. rewrite !fp. apply Ha; tauto. }
  exists f'. split; [rewrite Fl; exact E|]. split.
  - intros a b i j HA HB Hi Hj p q. pose proof (V (a, b) (p + z i, q + z j)%Z) as Q. cbn [fst snd] in Q. rewrite !fp in Q. apply Q.
    + apply Il. cbn. auto.
    + unfold corner. cbn [fst snd]. rewrite !fp. apply in_element_nodes. exists i, j. auto.
  - intros x y H. apply O. intros (a, b) Hl He. apply Il in Hl. unfold corner in He. apply in_element_nodes in He. cbn [fst snd] in *.
    destruct He as (i & j & Hi & Hj & Ee). injection Ee as -> ->. rewrite !fp in H. destruct Hl as (HA & HB). exact (H a b i j HA HB Hi Hj (conj eq_refl eq_refl)).
Qed.

(** ** Components and levels *)
Lemma set2_same f c k v : set2 f c k v c k = v.
Proof. unfold set2. rewrite !Nat.eqb_refl. reflexivity. Qed.
Lemma set2_other f c k v c' k' : c' <> c \/ k' <> k -> set2 f c k v c' k' = f c' k'.
Proof. intros H. unfold set2. destruct (Nat.eqb_spec c' c), (Nat.eqb_spec k' k); cbn; try reflexivity. lia. Qed.
Section Comp.
Context (n : nat) (B : basis) (g : geometry) (cfg : config) (h : Z) (nA nB : nat) (jacN jacE : nat -> field).
Local Notation lev := (levels n B g h nA nB).
Lemma levels_other m J psi dt nu c u c' k : c' <> c \/ (m <= k)%nat -> lev m J psi dt nu c u c' k = u c' k.
Proof.
  unfold levels. induction m as [|m IH]; intros H; [reflexivity|]. rewrite seq_S, fold_left_app. cbn [fold_left].
  rewrite set2_other by lia. apply IH. lia.
Qed.
Lemma levels_at m J psi dt nu c u k : (k < m)%nat ->
  lev m J psi dt nu c u c k = scalar_level n B g (J k) (psi k) dt nu h nA nB (u c k).
Proof.
  induction m as [|m IH]; intros H; [lia|]. destruct (Nat.eq_dec k m) as [->|Ne].
  - unfold levels. rewrite seq_S, fold_left_app. cbn [fold_left]. rewrite set2_same. f_equal. apply levels_other. lia.
  - rewrite <- IH by lia. unfold levels. rewrite seq_S, fold_left_app. cbn [fold_left]. apply set2_other. lia.
Qed.
(** what a loop over the components in l has done *)
Definition state_done (l : list nat) (init ref : data) (remove : bool) (dt nu : R) (d d' : data) : Prop :=
  dTrac d' = dTrac d /\
  (forall c k, In c l -> varloc cfg c = OnNode -> (k < nLev cfg)%nat ->
     dNode d' c k = scalar_level n B g (jacN k) (buffer (dNode init c k) (dNode ref c k) remove) dt nu h nA nB (dNode d c k)) /\
  (forall c k, In c l -> varloc cfg c = OnEdge -> (k <= nLev cfg)%nat ->
     dEdge d' c k = scalar_level n B g (jacE k) (buffer (dEdge init c k) (dEdge ref c k) remove) dt nu h nA nB (dEdge d c k)) /\
  (forall c k, ~ (In c l /\ varloc cfg c = OnNode /\ (k < nLev cfg)%nat) -> dNode d' c k = dNode d c k) /\
  (forall c k, ~ (In c l /\ varloc cfg c = OnEdge /\ (k <= nLev cfg)%nat) -> dEdge d' c k = dEdge d c k).
Lemma each_state l init ref remove dt nu : NoDup l -> (forall c, In c l -> varloc cfg c <> Elsewhere) -> forall d,
  exists d', each (state_component n B g cfg h nA nB jacN jacE init ref remove dt nu) l d = Done d' /\ state_done l init ref remove dt nu d d'.
Proof.
  induction 1 as [|c l Hc N IH]; intros Hl d; cbn [each].
  - exists d. split; [reflexivity|]. split; [reflexivity|]. repeat split; intros; try contradiction.
  - pose proof (Hl c (or_introl eq_refl)) as Lc. unfold state_component at 1. destruct (varloc cfg c) eqn:E; [| |congruence].
    + match goal with |- exists d', each _ l ?d1 = _ /\ _ => destruct (IH ltac:(intros; apply Hl; right; assumption) d1) as (d' & -> & T & P1 & P2 & P3 & P4) end.
      cbn [dNode dEdge dTrac] in *. exists d'. split; [reflexivity|]. split; [exact T|]. repeat apply conj.
      * intros c' k [<-|H] Lo Hk; [rewrite P3 by tauto; apply levels_at; exact Hk|].
        rewrite (P1 c' k H Lo Hk). f_equal. apply levels_other. left. congruence.
      * intros c' k [<-|H] Lo Hk; [congruence|]. apply P2; assumption.
      * intros c' k H. rewrite P3 by (intros (H1 & H2); apply H; split; [right; exact H1|exact H2]). apply levels_other.
        destruct (Nat.eq_dec c' c) as [->|Ne]; [|left; exact Ne]. right. destruct (Nat.le_gt_cases (nLev cfg) k); [assumption|]. elim H. split; [left; reflexivity|auto].
      * intros c' k H. apply P4. intros (H1 & H2). apply H. split; [right; exact H1|exact H2].
    + match goal with |- exists d', each _ l ?d1 = _ /\ _ => destruct (IH ltac:(intros; apply Hl; right; assumption) d1) as (d' & -> & T & P1 & P2 & P3 & P4) end.
      cbn [dNode dEdge dTrac] in *. exists d'. split; [reflexivity|]. split; [exact T|]. repeat apply conj.
      * intros c' k [<-|H] Lo Hk; [congruence|]. apply P1; assumption.
      * intros c' k [<-|H] Lo Hk; [rewrite P4 by tauto; apply levels_at; lia|].
        rewrite (P2 c' k H Lo Hk). f_equal. apply levels_other. left. congruence.
      * intros c' k H. apply P3. intros (H1 & H2). apply H. split; [right; exact H1|exact H2].
      * intros c' k H. rewrite P4 by (intros (H1 & H2); apply H; split; [right; exact H1|exact H2]). apply levels_other.
        destruct (Nat.eq_dec c' c) as [->|Ne]; [|left; exact Ne]. right. destruct (Nat.le_gt_cases (S (nLev cfg)) k); [assumption|]. elim H. split; [left; reflexivity|split; [exact E|lia]].
Qed.
Lemma each_tracer l init dt nu : NoDup l -> forall d,
  exists d', each (tracer_component n B g cfg h nA nB jacN init false dt nu) l d = Done d' /\ dNode d' = dNode d /\ dEdge d' = dEdge d /\
    (forall c k, In c l -> (k < nLev cfg)%nat -> dTrac d' c k = scalar_level n B g (jacN k) (dTrac init c k) dt nu h nA nB (dTrac d c k)) /\
    (forall c k, ~ (In c l /\ (k < nLev cfg)%nat) -> dTrac d' c k = dTrac d c k).
Proof.
  induction 1 as [|c l Hc N IH]; intros d; cbn [each].
  - exists d. repeat split; intros; try contradiction.
  - unfold tracer_component at 1.
    match goal with |- exists d', each _ l ?d1 = _ /\ _ => destruct (IH d1) as (d' & -> & T1 & T2 & P1 & P2) end.
    cbn [dNode dEdge dTrac] in *. exists d'. split; [reflexivity|]. split; [exact T1|]. split; [exact T2|]. split.
    + intros c' k [<-|H] Hk; [rewrite P2 by tauto; apply levels_at; exact Hk|].
      rewrite (P1 c' k H Hk). f_equal. apply levels_other. left. congruence.
    + intros c' k H. rewrite P2 by (intros (H1 & H2); apply H; split; [right; exact H1|exact H2]). apply levels_other.
      destruct (Nat.eq_dec c' c) as [->|Ne]; [|left; exact Ne]. right. destruct (Nat.le_gt_cases (nLev cfg) k); [assumption|]. elim H. split; [left; reflexivity|auto].
Qed.
Lemma each_tracer_removed init dt nu l d : l <> [] -> each (tracer_component n B g cfg h nA nB jacN init true dt nu) l d = Undefined.
Proof. destruct l; [congruence|]. reflexivity. Qed.
Lemma each_throws init ref remove dt nu l : (exists c, In c l /\ varloc cfg c = Elsewhere) -> forall d,
  each (state_component n B g cfg h nA nB jacN jacE init ref remove dt nu) l d = Throws.
Proof.
  induction l as [|c l IH]; intros (c0 & H & E) d; [destruct H|]. cbn [each]. unfold state_component at 1.
  destruct (varloc cfg c) eqn:Ec; [| |reflexivity]; apply IH; (destruct H as [<-|H]; [congruence|exists c0; auto]).
Qed.
End Comp.
