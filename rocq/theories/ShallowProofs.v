From Coq Require Import ZArith Reals List Lia Lra Psatz FinFun.
From Verif Require Import QuadModel QuadSpec InterpModel InterpSpec InterpProps ShallowModel ShallowSpec.
Import ListNotations.
Local Open Scope R_scope.

(** ** Sums *)
Lemma nsum_ext n f h : (forall i, (i < n)%nat -> f i = h i) -> nsum n f = nsum n h.
Proof. induction n as [|n IH]; cbn; intros H; [reflexivity|]. rewrite IH, H by (intros; try apply H; lia). reflexivity. Qed.
Lemma nsum_0 n : nsum n (fun _ => 0) = 0.
Proof. induction n as [|n IH]; cbn; [|rewrite IH]; lra. Qed.
Lemma nsum_zero n f : (forall i, (i < n)%nat -> f i = 0) -> nsum n f = 0.
Proof. intros H. rewrite (nsum_ext n f (fun _ => 0)) by exact H. apply nsum_0. Qed.
Lemma nsum_plus n f h : nsum n (fun i => f i + h i) = nsum n f + nsum n h.
Proof. induction n as [|n IH]; cbn; [|rewrite IH]; lra. Qed.
Lemma nsum_scal n c f : nsum n (fun i => c * f i) = c * nsum n f.
Proof. induction n as [|n IH]; cbn; [|rewrite IH]; lra. Qed.
Lemma nsum_minus n f h : nsum n (fun i => f i - h i) = nsum n f - nsum n h.
Proof. induction n as [|n IH]; cbn; [|rewrite IH]; lra. Qed.
Lemma nsum_swap n m f : nsum n (fun i => nsum m (fun j => f i j)) = nsum m (fun j => nsum n (fun i => f i j)).
Proof. induction n as [|n IH]; cbn; [symmetry; apply nsum_0|]. rewrite IH, <- nsum_plus. reflexivity. Qed.
Lemma fold_inc (f : nat -> R) l : forall x, fold_left (fun x s => x + f s) l x = x + fold_left (fun x s => x + f s) l 0.
Proof.
  induction l as [|a l IH]; intros x; cbn; [lra|]. rewrite (IH (x + f a)), (IH (0 + f a)). lra.
Qed.
Lemma inc_sum n f : inc n f = nsum n f.
Proof.
  unfold inc. induction n as [|n IH]; [reflexivity|]. rewrite seq_S, fold_left_app, IH. reflexivity.
Qed.
Lemma dec_sum n f : dec_by n f = - nsum n f.
Proof.
  unfold dec_by. induction n as [|n IH]; [cbn; lra|]. rewrite seq_S, fold_left_app, IH. cbn. lra.
Qed.

(** ** The loops write every node of the patch once *)
Lemma fold_flat {A B C} (f : C -> B -> C) (h : A -> list B) l : forall u,
  fold_left (fun u a => fold_left f (h a) u) l u = fold_left f (flat_map h l) u.
Proof. induction l as [|a l IH]; intros u; cbn; [reflexivity|]. rewrite fold_left_app. apply IH. Qed.
Lemma fold_map {A B C} (f : C -> B -> C) (h : A -> B) l : forall u,
  fold_left (fun u a => f u (h a)) l u = fold_left f (map h l) u.
Proof. induction l as [|a l IH]; intros u; cbn; [reflexivity|]. apply IH. Qed.
Lemma fold_ext {A C} (f h : C -> A -> C) l : (forall u a, f u a = h u a) -> forall u, fold_left f l u = fold_left h l u.
Proof. intros E. induction l as [|a l IH]; intros u; cbn; [reflexivity|]. rewrite E. apply IH. Qed.

Record spot := Spot { pa : nat; pb : nat; pi : nat; pj : nat }.
Definition spots (n nA nB : nat) : list spot :=
  flat_map (fun a => flat_map (fun b => flat_map (fun i => map (fun j => Spot a b i j) (seq 0 n)) (seq 0 n)) (seq 0 nB)) (seq 0 nA).
Lemma in_spots n nA nB t : In t (spots n nA nB) <-> (pa t < nA /\ pb t < nB /\ pi t < n /\ pj t < n)%nat.
Proof.
  unfold spots. rewrite in_flat_map. split.
  - intros (a & Ha & H). apply in_flat_map in H. destruct H as (b & Hb & H). apply in_flat_map in H.
    destruct H as (i & Hi & H). apply in_map_iff in H. destruct H as (j & <- & Hj). rewrite in_seq in *. cbn. lia.
  - intros (Ha & Hb & Hi & Hj). exists (pa t). split; [apply in_seq; lia|]. apply in_flat_map. exists (pb t).
    split; [apply in_seq; lia|]. apply in_flat_map. exists (pi t). split; [apply in_seq; lia|]. apply in_map_iff.
    exists (pj t). split; [destruct t; reflexivity|apply in_seq; lia].
Qed.

Lemma nodup_app {A} (l l' : list A) : NoDup l -> NoDup l' -> (forall x, In x l -> In x l' -> False) -> NoDup (l ++ l').
Proof.
  intros N N' D. induction N as [|a l Ha N IH]; cbn; [exact N'|]. constructor.
  - rewrite in_app_iff. intros [H|H]; [exact (Ha H)|]. apply (D a); [left; reflexivity|exact H].
  - apply IH. intros x Hx. apply D. right. exact Hx.
Qed.
Lemma nodup_flat {A B} (f : A -> list B) (tag : B -> A) l : NoDup l -> (forall a, In a l -> NoDup (f a)) ->
  (forall a b, In b (f a) -> tag b = a) -> NoDup (flat_map f l).
Proof.
  intros N Nf T. induction N as [|a l Ha N IH]; cbn; [constructor|]. apply nodup_app.
  - apply Nf. left. reflexivity.
  - apply IH. intros b Hb. apply Nf. right. exact Hb.
  - intros x Hx Hx'. apply in_flat_map in Hx'. destruct Hx' as (b & Hb & Hx'). apply T in Hx, Hx'. congruence.
Qed.
Lemma nodup_spots n nA nB : NoDup (spots n nA nB).
Proof.
  unfold spots. apply (nodup_flat _ pa); [apply seq_NoDup| |].
  - intros a _. apply (nodup_flat _ pb); [apply seq_NoDup| |].
    + intros b _. apply (nodup_flat _ pi); [apply seq_NoDup| |].
      * intros i _. apply FinFun.Injective_map_NoDup; [|apply seq_NoDup]. intros x y E. congruence.
      * intros i t H. apply in_map_iff in H. destruct H as (j & <- & _). reflexivity.
    + intros b t H. apply in_flat_map in H. destruct H as (i & _ & H). apply in_map_iff in H.
      destruct H as (j & <- & _). reflexivity.
  - intros a t H. apply in_flat_map in H. destruct H as (b & _ & H). apply in_flat_map in H.
    destruct H as (i & _ & H). apply in_map_iff in H. destruct H as (j & <- & _). reflexivity.
Qed.

Definition px (n : nat) (h : Z) (t : spot) : Z := (first_node n h (pa t) + Z.of_nat (pi t))%Z.
Definition py (n : nat) (h : Z) (t : spot) : Z := (first_node n h (pb t) + Z.of_nat (pj t))%Z.
Lemma split_index (n a a' i i' : nat) (h : Z) : (i < n)%nat -> (i' < n)%nat ->
  (Z.of_nat a * Z.of_nat n + h + Z.of_nat i = Z.of_nat a' * Z.of_nat n + h + Z.of_nat i')%Z -> a = a' /\ i = i'.
Proof.
  intros Hi Hi' E. assert (a = a') as ->; [|split; [reflexivity|lia]].
  destruct (Nat.lt_trichotomy a a') as [L|[L|L]]; [exfalso|exact L|exfalso]; nia.
Qed.
Lemma spot_inj n nA nB h t t' : In t (spots n nA nB) -> In t' (spots n nA nB) ->
  px n h t = px n h t' -> py n h t = py n h t' -> t = t'.
Proof.
  rewrite !in_spots. unfold px, py, first_node. destruct t as [a b i j], t' as [a' b' i' j']. cbn.
  intros (_ & _ & Hi & Hj) (_ & _ & Hi' & Hj') Ex Ey.
  destruct (split_index n a a' i i' h Hi Hi' Ex) as (-> & ->).
  destruct (split_index n b b' j j' h Hj Hj' Ey) as (-> & ->). reflexivity.
Qed.

Lemma put_same f x y v : put f x y v x y = v.
Proof. unfold put. rewrite !Z.eqb_refl. reflexivity. Qed.
Lemma put_other f x y v x' y' : ~ (x' = x /\ y' = y) -> put f x y v x' y' = f x' y'.
Proof.
  intros H. unfold put. destruct (Z.eqb_spec x' x), (Z.eqb_spec y' y); cbn; try reflexivity. tauto.
Qed.

Section Step.
Context (n : nat) (B : basis) (g : geometry) (init : state) (nt : nat) (dt : R) (h : Z) (nA nB : nat).
Let body := fun u t => node_step n B g init nt dt u (first_node n h (pa t)) (first_node n h (pb t)) (pi t) (pj t).
Lemma step_spots u : step n B g init nt dt h nA nB u = fold_left body (spots n nA nB) u.
Proof.
  unfold step, spots. rewrite <- fold_flat. apply fold_ext. intros v a. rewrite <- fold_flat. apply fold_ext.
  intros v' b. unfold element_step. rewrite <- fold_flat. apply fold_ext. intros v'' i. rewrite <- fold_map. reflexivity.
Qed.

Section Project.
Context (prj : state -> field) (delta : spot -> R).
Context (Hbody : forall u t, prj (body u t) = put (prj u) (px n h t) (py n h t) (prj u (px n h t) (py n h t) + delta t)).
Lemma fold_away l : forall u x y, (forall t, In t l -> ~ (x = px n h t /\ y = py n h t)) ->
  prj (fold_left body l u) x y = prj u x y.
Proof.
  induction l as [|t l IH]; intros u x y H; cbn; [reflexivity|]. rewrite IH by (intros s Hs; apply H; right; exact Hs).
  rewrite Hbody. apply put_other. apply H. left. reflexivity.
Qed.
Lemma fold_there l : NoDup l -> (forall s, In s l -> In s (spots n nA nB)) -> forall u t, In t l ->
  prj (fold_left body l u) (px n h t) (py n h t) = prj u (px n h t) (py n h t) + delta t.
Proof.
  induction 1 as [|s l Hs N IH]; intros P u t Ht; [destruct Ht|]. cbn. destruct Ht as [->|Ht].
  - rewrite fold_away.
    + rewrite Hbody. apply put_same.
    + intros s Hs' (Ex & Ey). apply Hs. rewrite (spot_inj n nA nB h t s); auto; apply P; [left; reflexivity|right; exact Hs'].
  - rewrite IH by (auto; intros r Hr; apply P; right; exact Hr). rewrite Hbody. rewrite put_other; [reflexivity|].
    intros (Ex & Ey). apply Hs. rewrite <- (spot_inj n nA nB h t s); auto; apply P; [right; exact Ht|left; reflexivity].
Qed.
Lemma step_there u t : In t (spots n nA nB) ->
  prj (step n B g init nt dt h nA nB u) (px n h t) (py n h t) = prj u (px n h t) (py n h t) + delta t.
Proof. intros Ht. rewrite step_spots. apply fold_there; auto using nodup_spots. Qed.
Lemma step_away u x y : (forall t, In t (spots n nA nB) -> ~ (x = px n h t /\ y = py n h t)) ->
  prj (step n B g init nt dt h nA nB u) x y = prj u x y.
Proof. intros H. rewrite step_spots. apply fold_away. exact H. Qed.
End Project.

Lemma tracer_loop (F : nat -> field -> R) x y : forall l t c, NoDup l ->
  fold_left (fun t c c' => if Nat.eqb c' c then put (t c) x y (F c (t c)) else t c') l t c =
  if existsb (Nat.eqb c) l then put (t c) x y (F c (t c)) else t c.
Proof.
  induction l as [|a l IH]; intros t c N; cbn; [reflexivity|]. inversion N as [|? ? Ha N']; subst.
  rewrite IH by exact N'. destruct (Nat.eqb_spec c a) as [->|Hc]; cbn; [|reflexivity].
  destruct (existsb (Nat.eqb a) l) eqn:E; [exfalso|reflexivity].
  apply existsb_exists in E. destruct E as (b & Hb & E). apply Nat.eqb_eq in E. subst b. exact (Ha Hb).
Qed.

Definition du t : R := dt * upd_ua n B g init (first_node n h (pa t)) (first_node n h (pb t)) (pi t) (pj t).
Definition dv t : R := dt * upd_ub n B g init (first_node n h (pa t)) (first_node n h (pb t)) (pi t) (pj t).
Definition dh t : R := - (dt * (1 / gJ g (px n h t) (py n h t)) *
  (v_alpha n B g (mass_a g init) (first_node n h (pa t)) (first_node n h (pb t)) (pi t) (pj t) +
   v_beta n B g (mass_b g init) (first_node n h (pa t)) (first_node n h (pb t)) (pi t) (pj t))).
Definition dq c t : R := - (dt * (1 / gJ g (px n h t) (py n h t)) *
  (v_alpha n B g (trac_a g init c) (first_node n h (pa t)) (first_node n h (pb t)) (pi t) (pj t) +
   v_beta n B g (trac_b g init c) (first_node n h (pa t)) (first_node n h (pb t)) (pi t) (pj t))).
Lemma body_u u t : sU (body u t) = put (sU u) (px n h t) (py n h t) (sU u (px n h t) (py n h t) + du t).
Proof. reflexivity. Qed.
Lemma body_v u t : sV (body u t) = put (sV u) (px n h t) (py n h t) (sV u (px n h t) (py n h t) + dv t).
Proof. reflexivity. Qed.
Lemma body_h u t : sH (body u t) = put (sH u) (px n h t) (py n h t) (sH u (px n h t) (py n h t) + dh t).
Proof. reflexivity. Qed.
Lemma body_t c u t : (c < nt)%nat ->
  sT (body u t) c = put (sT u c) (px n h t) (py n h t) (sT u c (px n h t) (py n h t) + dq c t).
Proof.
  intros Hc. unfold body, node_step. cbn [sT].
  etransitivity; [exact (tracer_loop (fun c f => f (px n h t) (py n h t) + dq c t) (px n h t) (py n h t) (seq 0 nt) (sT u) c (seq_NoDup nt 0))|].
  replace (existsb (Nat.eqb c) (seq 0 nt)) with true; [reflexivity|]. symmetry. apply existsb_exists. exists c.
  split; [apply in_seq; lia|apply Nat.eqb_refl].
Qed.
Lemma body_t_other c u t : (nt <= c)%nat -> sT (body u t) c = sT u c.
Proof.
  intros Hc. unfold body, node_step. cbn [sT].
  etransitivity; [exact (tracer_loop (fun c f => f (px n h t) (py n h t) + dq c t) (px n h t) (py n h t) (seq 0 nt) (sT u) c (seq_NoDup nt 0))|].
  replace (existsb (Nat.eqb c) (seq 0 nt)) with false; [reflexivity|]. symmetry. apply Bool.not_true_is_false. intros E.
  apply existsb_exists in E. destruct E as (b & Hb & E). apply in_seq in Hb. apply Nat.eqb_eq in E. lia.
Qed.
End Step.

(** ** Element algebra *)
Lemma weak_zero n w D S F : annihilates_constants n D -> adjoint n w D S ->
  nsum n (fun i => w i * nsum n (fun s => F s * S i s)) = 0.
Proof.
  intros HD HA. rewrite (nsum_ext n _ (fun i => nsum n (fun s => F s * w s * D i s))).
  - rewrite nsum_swap. apply nsum_zero. intros s Hs. rewrite nsum_scal, HD by exact Hs. ring.
  - intros i Hi. rewrite <- nsum_scal. apply nsum_ext. intros s Hs.
    replace (F s * w s * D i s) with (F s * (w s * D i s)) by ring. rewrite <- HA by assumption. ring.
Qed.
Lemma weak_parts n w D S K F : adjoint n w D S ->
  nsum n (fun i => w i * (K i * nsum n (fun s => F s * S i s))) = nsum n (fun i => w i * (F i * nsum n (fun s => K s * D s i))).
Proof.
  intros HA. rewrite (nsum_ext n _ (fun i => nsum n (fun s => w s * F s * (K i * D i s)))).
  - rewrite nsum_swap. apply nsum_ext. intros s Hs. rewrite nsum_scal. ring.
  - intros i Hi. rewrite <- !nsum_scal. apply nsum_ext. intros s Hs.
    replace (w s * F s * (K i * D i s)) with (F s * K i * (w s * D i s)) by ring. rewrite <- HA by assumption. ring.
Qed.

Section Element.
Context (n : nat) (B : basis) (g : geometry) (w : nat -> R) (p q : Z).
Context (HA : adjoint n w (bD B) (bS B)).
Local Notation z := Z.of_nat.
(** sum of w_i w_j f(i,j) *)
Definition esum (f : nat -> nat -> R) : R := nsum n (fun i => nsum n (fun j => w i * w j * f i j)).
Lemma esum_ext f k : (forall i j, (i < n)%nat -> (j < n)%nat -> f i j = k i j) -> esum f = esum k.
Proof. intros H. apply nsum_ext. intros i Hi. apply nsum_ext. intros j Hj. rewrite H by assumption. reflexivity. Qed.
Lemma esum_plus f k : esum (fun i j => f i j + k i j) = esum f + esum k.
Proof.
  unfold esum. rewrite <- nsum_plus. apply nsum_ext. intros i _. rewrite <- nsum_plus. apply nsum_ext. intros j _. ring.
Qed.
Lemma esum_scal c f : esum (fun i j => c * f i j) = c * esum f.
Proof.
  unfold esum. rewrite <- nsum_scal. apply nsum_ext. intros i _. rewrite <- nsum_scal. apply nsum_ext. intros j _. ring.
Qed.
Lemma esum_zero f : (forall i j, (i < n)%nat -> (j < n)%nat -> f i j = 0) -> esum f = 0.
Proof. intros H. apply nsum_zero. intros i Hi. apply nsum_zero. intros j Hj. rewrite H by assumption. ring. Qed.
Lemma esum_rows f : esum f = nsum n (fun j => w j * nsum n (fun i => w i * f i j)).
Proof.
  unfold esum. rewrite nsum_swap. apply nsum_ext. intros j _. rewrite <- nsum_scal. apply nsum_ext. intros; ring.
Qed.
Lemma esum_cols f : esum f = nsum n (fun i => w i * nsum n (fun j => w j * f i j)).
Proof. unfold esum. apply nsum_ext. intros i _. rewrite <- nsum_scal. apply nsum_ext. intros; ring. Qed.

Lemma v_alpha_sum F i j : v_alpha n B g F p q i j = - / gDeltaA g * nsum n (fun s => F (p + z s)%Z (q + z j)%Z * bS B i s).
Proof. unfold v_alpha. rewrite dec_sum. unfold Rdiv. ring. Qed.
Lemma v_beta_sum F i j : v_beta n B g F p q i j = - / gDeltaB g * nsum n (fun s => F (p + z i)%Z (q + z s)%Z * bS B j s).
Proof. unfold v_beta. rewrite dec_sum. unfold Rdiv. ring. Qed.
Lemma d_alpha_sum F i j : d_alpha n B g F p q i j = / gDeltaA g * nsum n (fun s => F (p + z s)%Z (q + z j)%Z * bD B s i).
Proof. unfold d_alpha. rewrite inc_sum. unfold Rdiv. ring. Qed.
Lemma d_beta_sum F i j : d_beta n B g F p q i j = / gDeltaB g * nsum n (fun s => F (p + z i)%Z (q + z s)%Z * bD B s j).
Proof. unfold d_beta. rewrite inc_sum. unfold Rdiv. ring. Qed.

Lemma v_alpha_zero F : annihilates_constants n (bD B) -> esum (v_alpha n B g F p q) = 0.
Proof.
  intros HD. rewrite esum_rows. apply nsum_zero. intros j _.
  rewrite (nsum_ext n _ (fun i => - / gDeltaA g * (w i * nsum n (fun s => F (p + z s)%Z (q + z j)%Z * bS B i s)))).
  - rewrite nsum_scal, (weak_zero n w (bD B) (bS B) (fun s => F (p + z s)%Z (q + z j)%Z) HD HA). ring.
  - intros i _. rewrite v_alpha_sum. ring.
Qed.
Lemma v_beta_zero F : annihilates_constants n (bD B) -> esum (v_beta n B g F p q) = 0.
Proof.
  intros HD. rewrite esum_cols. apply nsum_zero. intros i _.
  rewrite (nsum_ext n _ (fun j => - / gDeltaB g * (w j * nsum n (fun s => F (p + z i)%Z (q + z s)%Z * bS B j s)))).
  - rewrite nsum_scal, (weak_zero n w (bD B) (bS B) (fun s => F (p + z i)%Z (q + z s)%Z) HD HA). ring.
  - intros j _. rewrite v_beta_sum. ring.
Qed.
Lemma v_alpha_parts (K F : field) :
  esum (fun i j => K (p + z i)%Z (q + z j)%Z * v_alpha n B g F p q i j) =
  - esum (fun i j => F (p + z i)%Z (q + z j)%Z * d_alpha n B g K p q i j).
Proof.
  rewrite !esum_rows. apply (Rplus_eq_reg_r (nsum n (fun j => w j * nsum n (fun i => w i * (F (p + z i)%Z (q + z j)%Z * d_alpha n B g K p q i j))))).
  rewrite Rplus_opp_l, <- nsum_plus. apply nsum_zero. intros j _. rewrite <- Rmult_plus_distr_l.
  rewrite (nsum_ext n _ (fun i => - / gDeltaA g * (w i * (K (p + z i)%Z (q + z j)%Z * nsum n (fun s => F (p + z s)%Z (q + z j)%Z * bS B i s))))).
  - rewrite nsum_scal, (weak_parts n w (bD B) (bS B) (fun i => K (p + z i)%Z (q + z j)%Z) (fun s => F (p + z s)%Z (q + z j)%Z) HA).
    rewrite <- nsum_scal, <- nsum_plus. rewrite nsum_zero; [ring|]. intros i _. rewrite d_alpha_sum. ring.
  - intros i _. rewrite v_alpha_sum. ring.
Qed.
Lemma v_beta_parts (K F : field) :
  esum (fun i j => K (p + z i)%Z (q + z j)%Z * v_beta n B g F p q i j) =
  - esum (fun i j => F (p + z i)%Z (q + z j)%Z * d_beta n B g K p q i j).
Proof.
  rewrite !esum_cols. apply (Rplus_eq_reg_r (nsum n (fun i => w i * nsum n (fun j => w j * (F (p + z i)%Z (q + z j)%Z * d_beta n B g K p q i j))))).
  rewrite Rplus_opp_l, <- nsum_plus. apply nsum_zero. intros i _. rewrite <- Rmult_plus_distr_l.
  rewrite (nsum_ext n _ (fun j => - / gDeltaB g * (w j * (K (p + z i)%Z (q + z j)%Z * nsum n (fun s => F (p + z i)%Z (q + z s)%Z * bS B j s))))).
  - rewrite nsum_scal, (weak_parts n w (bD B) (bS B) (fun j => K (p + z i)%Z (q + z j)%Z) (fun s => F (p + z i)%Z (q + z s)%Z) HA).
    rewrite <- nsum_scal, <- nsum_plus. rewrite nsum_zero; [ring|]. intros j _. rewrite d_beta_sum. ring.
  - intros j _. rewrite v_beta_sum. ring.
Qed.
End Element.

(** ** Derivatives of polynomials in the time step *)
Lemma cubic_deriv c0 c1 c2 c3 : derivable_pt_lim (fun t => c0 + c1 * t + c2 * (t * t) + c3 * (t * t * t)) 0 c1.
Proof.
  intros eps He. assert (Hd : 0 < Rmin 1 (eps / (Rabs c2 + Rabs c3 + 1))).
  { apply Rmin_pos; [lra|]. apply Rdiv_lt_0_compat; [exact He|]. pose proof (Rabs_pos c2). pose proof (Rabs_pos c3). lra. }
  exists (mkposreal _ Hd). intros t Ht Hs. cbn in Hs.
  replace ((c0 + c1 * (0 + t) + c2 * ((0 + t) * (0 + t)) + c3 * ((0 + t) * (0 + t) * (0 + t)) -
    (c0 + c1 * 0 + c2 * (0 * 0) + c3 * (0 * 0 * 0))) / t - c1) with (t * (c2 + c3 * t)) by (field; exact Ht).
  rewrite Rabs_mult. pose proof (Rabs_pos c2). pose proof (Rabs_pos c3). pose proof (Rabs_pos t).
  assert (T1 : Rabs t < 1) by (eapply Rlt_le_trans; [exact Hs|apply Rmin_l]).
  assert (T2 : Rabs t < eps / (Rabs c2 + Rabs c3 + 1)) by (eapply Rlt_le_trans; [exact Hs|apply Rmin_r]).
  assert (T3 : Rabs t * (Rabs c2 + Rabs c3 + 1) < eps).
  { apply (Rmult_lt_compat_r (Rabs c2 + Rabs c3 + 1)) in T2; [|lra].
    replace (eps / (Rabs c2 + Rabs c3 + 1) * (Rabs c2 + Rabs c3 + 1)) with eps in T2 by (field; lra). exact T2. }
  assert (T4 : Rabs (c2 + c3 * t) <= Rabs c2 + Rabs c3).
  { eapply Rle_trans; [apply Rabs_triang|]. rewrite Rabs_mult. nra. }
  pose proof (Rabs_pos (c2 + c3 * t)). nra.
Qed.
Lemma deriv_ext f h x l : (forall t, f t = h t) -> derivable_pt_lim h x l -> derivable_pt_lim f x l.
Proof. intros E H eps He. destruct (H eps He) as (d & Hd). exists d. intros t Ht Hs. rewrite !E. apply Hd; assumption. Qed.
Lemma nsum_deriv n (f : nat -> R -> R) l x : (forall i, (i < n)%nat -> derivable_pt_lim (f i) x (l i)) ->
  derivable_pt_lim (fun t => nsum n (fun i => f i t)) x (nsum n l).
Proof.
  induction n as [|n IH]; intros H; cbn; [apply derivable_pt_lim_const|].
  apply (derivable_pt_lim_plus (fun t => nsum n (fun i => f i t)) (f n)); [apply IH; intros; apply H; lia|apply H; lia].
Qed.

(** ** The reference element *)
Lemma fold_nth (c : list R) : fold_right Rplus 0 c = nsum (length c) (fun m => nth m c 0).
Proof.
  induction c as [|a c IH]; [reflexivity|]. cbn [fold_right length]. rewrite IH. clear IH.
  generalize (length c) as k. induction k as [|k IH]; cbn [nsum]; [cbn; lra|].
  cbn [nsum] in IH. replace (nth (S k) (a :: c) 0) with (nth k c 0) by reflexivity. lra.
Qed.
Lemma columns_ok n g (c : nat -> list R) l : (forall i, In i l -> diff n (fun k => nth k g 0) (nth i g 0) = Some (c i)) ->
  columns n g l = Some (map c l).
Proof.
  induction l as [|i l IH]; intros H; cbn; [reflexivity|]. rewrite (H i) by (left; reflexivity).
  rewrite IH by (intros j Hj; apply H; right; exact Hj). reflexivity.
Qed.
(** increasing by at least 200 units *)
Fixpoint gaps (l : list Z) : bool :=
  match l with
  | a :: (b :: _) as r => andb (Z.leb (a + 200) b) (gaps r)
  | _ => true
  end.
Lemma gaps_nth l : gaps l = true -> forall i j, (i < j)%nat -> (j < length l)%nat -> (nth i l 0 + 200 <= nth j l 0)%Z.
Proof.
  induction l as [|a l IH]; intros G i j Hij Hj; [cbn in Hj; lia|]. destruct l as [|b r]; [cbn in Hj; lia|].
  cbn [gaps] in G. apply andb_prop in G. destruct G as (G1 & G2). apply Z.leb_le in G1.
  destruct j as [|j]; [lia|]. assert (A : (a + 200 <= nth j (b :: r) 0)%Z).
  { destruct j as [|j]; [exact G1|]. pose proof (IH G2 0%nat (S j) ltac:(lia) ltac:(cbn in *; lia)) as Q.
    change (nth 0 (b :: r) 0%Z) with b in Q. lia. }
  destruct i as [|i]; [exact A|]. apply (IH G2 i j); [lia|cbn in *; lia].
Qed.
Lemma nth_scaled g i : (i < length g)%nat -> nth i (map (fun z => scale_node 0 1 (dec z)) g) 0 = scale_node 0 1 (dec (nth i g 0%Z)).
Proof. intros H. rewrite (nth_indep _ 0 (scale_node 0 1 (dec 0))) by (rewrite map_length; exact H). apply (map_nth (fun z => scale_node 0 1 (dec z))). Qed.
Lemma nth_scaled_w w i : (i < length w)%nat -> nth i (map (fun z => scale_weight 0 1 (dec z)) w) 0 = scale_weight 0 1 (dec (nth i w 0%Z)).
Proof. intros H. rewrite (nth_indep _ 0 (scale_weight 0 1 (dec 0))) by (rewrite map_length; exact H). apply (map_nth (fun z => scale_weight 0 1 (dec z))). Qed.
Lemma gaps_separated g : gaps g = true -> separated (length g) (fun k => nth k (map (fun z => scale_node 0 1 (dec z)) g) 0).
Proof.
  intros G. assert (A : forall i j, (i < j)%nat -> (j < length g)%nat ->
    tol <= nth j (map (fun z => scale_node 0 1 (dec z)) g) 0 - nth i (map (fun z => scale_node 0 1 (dec z)) g) 0).
  { intros i j Hij Hj. rewrite !nth_scaled by lia. pose proof (gaps_nth g G i j Hij Hj) as Q. apply IZR_le in Q.
    rewrite plus_IZR in Q. unfold tol, scale_node, dec.
    replace (/ 10 ^ 14) with (1 / 100000000000000) by field. change (10 ^ 16)%Z with 10000000000000000%Z. lra. }
  intros i j Hi Hj N. destruct (Nat.lt_ge_cases i j) as [L|L].
  - pose proof (A i j L Hj). rewrite Rabs_minus_sym. eapply Rle_trans; [eassumption|]. apply Rle_abs.
  - pose proof (A j i ltac:(lia) Hi). eapply Rle_trans; [eassumption|]. apply Rle_abs.
Qed.
Lemma positive_nth w i : forallb (Z.ltb 0) w = true -> (i < length w)%nat -> 0 < nth i (map (fun z => scale_weight 0 1 (dec z)) w) 0.
Proof.
  intros P H. rewrite nth_scaled_w by exact H. rewrite forallb_forall in P.
  pose proof (P _ (nth_In w 0%Z H)) as Q. apply Z.ltb_lt, IZR_lt in Q. unfold scale_weight, dec.
  change (10 ^ 16)%Z with 10000000000000000%Z. lra.
Qed.

Lemma nsum_list n f : nsum n f = fold_right Rplus 0 (map f (seq 0 n)).
Proof.
  induction n as [|n IH]; [reflexivity|]. rewrite seq_S, map_app, fold_right_app. cbn [nsum]. rewrite IH. cbn.
  generalize (map f (seq 0 n)) as l. induction l as [|a l IHl]; cbn; lra.
Qed.
Lemma basis_any_ok n g w : gaps g = true -> forallb (Z.ltb 0) w = true -> length g = n -> length w = n -> (0 < n)%nat ->
  exists B, basis_any n (Table g w) = Some B /\ (rev w = w -> symmetric n (bW B)) /\ annihilates_constants n (bD B) /\ adjoint n (bW B) (bD B) (bS B) /\
    (forall i, (i < n)%nat -> 0 < bW B i) /\
    (forall i p f', (i < n)%nat -> (length p <= n)%nat -> (forall t, derivable_pt_lim (peval p) t (f' t)) ->
       nsum n (fun m => peval p (bG B m) * bD B m i) = f' (bG B i)).
Proof.
  intros G P Lg Lw Hn. pose proof (gaps_separated g G) as Sx. rewrite Lg in Sx.
  set (x := fun k => nth k (map (fun z => scale_node 0 1 (dec z)) g) 0) in *.
  set (c := fun i => match diff n x (x i) with Some c => c | None => [] end).
  assert (C : forall i, diff n x (x i) = Some (c i) /\ exact_derivative 1 n x (x i) (c i)).
  { intros i. destruct (C33_diff n x (x i) Sx) as (d & E & X). unfold c. rewrite E. split; [reflexivity|exact X]. }
  unfold basis_any, get_points. rewrite (columns_ok n _ c) by (intros i _; apply C).
  eexists. split; [reflexivity|]. cbn [bD bW bS bG].
  assert (N : forall i m, (i < n)%nat -> nth m (nth i (map c (seq 0 n)) []) 0 = nth m (c i) 0).
  { intros i m Hi. rewrite (nth_indep _ [] (c 0%nat)) by (rewrite map_length, seq_length; exact Hi).
    rewrite map_nth, seq_nth by exact Hi. reflexivity. }
  assert (Wp : forall i, (i < n)%nat -> 0 < nth i (map (fun z => scale_weight 0 1 (dec z)) w) 0).
  { intros i Hi. apply positive_nth; [exact P|lia]. }
  repeat apply conj.
  - intros Rw i Hi. rewrite <- Rw at 1. rewrite map_rev, rev_nth by (rewrite map_length; lia). rewrite map_length, Lw.
    f_equal. lia.
  - intros i Hi. rewrite (nsum_ext n _ (fun m => nth m (c i) 0)) by (intros; apply N; exact Hi).
    destruct (C i) as (E & L & _). rewrite <- L at 1. rewrite <- fold_nth. eapply C33_diff_sum; eauto.
  - intros m i Hm Hi. field. pose proof (Wp m Hm). lra.
  - exact Wp.
  - intros i p f' Hi Lp Hd. rewrite (nsum_ext n _ (fun m => nth m (c i) 0 * peval p (x m))).
    + destruct (C i) as (_ & L & X). specialize (X p f' Lp). transitivity (weighted (c i) x (peval p)).
      * unfold weighted. rewrite L. apply nsum_list.
      * apply X. exists f'. split; [exact Hd|]. intros t. reflexivity.
    + intros m Hm. rewrite N by exact Hi. unfold x. ring.
Qed.
