(** Lemmas about Legendre polynomials. *)
From Coq Require Import ZArith Reals List Lia Lra Psatz.
From Verif Require Import QuadSpec QuadProofs InterpSpec InterpProofs FluxProofs LegModel LegSpec.
Import ListNotations.
Local Open Scope R_scope.

(** ** integrals *)
Lemma integral_unique f v w : integral f v -> integral f w -> v = w.
Proof. intros (F & HF & ->) (G & HG & ->). exact (same_increment F G f HF HG (-1) 1). Qed.
Lemma integral_ext f g v : (forall x, f x = g x) -> integral f v -> integral g v.
Proof. intros E (F & HF & ->). exists F. split; [|reflexivity]. intros x. rewrite <- E. apply HF. Qed.
Lemma integral_val f v w : v = w -> integral f v -> integral f w.
Proof. intros ->. auto. Qed.
Lemma integral_add f g v w : integral f v -> integral g w -> integral (fun x => f x + g x) (v + w).
Proof.
  intros (F & HF & ->) (G & HG & ->). exists (fun x => F x + G x). split; [|ring]. intros x. apply (derivable_pt_lim_plus F G); auto.
Qed.
Lemma integral_scale a f v : integral f v -> integral (fun x => a * f x) (a * v).
Proof. intros (F & HF & ->). exists (fun x => a * F x). split; [|ring]. intros x. apply (derivable_pt_lim_scal F); auto. Qed.
Lemma integral_diff F f : (forall x, derivable_pt_lim F x (f x)) -> integral f (F 1 - F (-1)).
Proof. intros H. exists F. auto. Qed.
Lemma integral_poly p : exists v, integral (peval p) v.
Proof.
  exists (pint 0 p 1 - pint 0 p (-1)). apply (integral_ext (fun x => x ^ 0 * peval p x)); [intros; cbn; ring|].
  apply (integral_diff (pint 0 p)). apply pint_derive.
Qed.
Lemma integral_sum {A} (f : A -> R -> R) (v : A -> R) l : (forall a, In a l -> integral (f a) (v a)) ->
  integral (fun x => fold_right Rplus 0 (map (fun a => f a x) l)) (fold_right Rplus 0 (map v l)).
Proof.
  induction l as [|a l IH]; intros H; cbn [map fold_right].
  - exists (fun _ => 0). split; [intros; apply derivable_pt_lim_const|ring].
  - apply integral_add; [apply H; left; reflexivity|]. apply IH. intros b Hb. apply H. right. exact Hb.
Qed.

(** ** the polynomials by recurrence *)
Fixpoint LL (n : nat) (x : R) : R * R :=
  match n with
  | O => (1, x)
  | S m => let '(a, b) := LL m x in (b, ((2 * INR m + 3) * x * b - (INR m + 1) * a) / (INR m + 2))
  end.
Definition L (n : nat) (x : R) : R := fst (LL n x).
Lemma LL_snd n x : snd (LL n x) = L (S n) x.
Proof. unfold L. cbn [LL]. destruct (LL n x). reflexivity. Qed.
Lemma L_rec n x : L (S (S n)) x = ((2 * INR n + 3) * x * L (S n) x - (INR n + 1) * L n x) / (INR n + 2).
Proof.
  rewrite <- (LL_snd (S n)). cbn [LL]. unfold L. cbn [LL]. destruct (LL n x) as (a & b). reflexivity.
Qed.
Lemma L_0 x : L 0 x = 1. Proof. reflexivity. Qed.
Lemma L_1 x : L 1 x = x. Proof. reflexivity. Qed.
Fixpoint DD (n : nat) (x : R) : R * R :=
  match n with
  | O => (0, 1)
  | S m => let '(a, b) := DD m x in (b, ((2 * INR m + 3) * (L (S m) x + x * b) - (INR m + 1) * a) / (INR m + 2))
  end.
Definition dL (n : nat) (x : R) : R := fst (DD n x).
Lemma DD_snd n x : snd (DD n x) = dL (S n) x.
Proof. unfold dL. cbn [DD]. destruct (DD n x). reflexivity. Qed.
Lemma dL_rec n x : dL (S (S n)) x = ((2 * INR n + 3) * (L (S n) x + x * dL (S n) x) - (INR n + 1) * dL n x) / (INR n + 2).
Proof.
  rewrite <- (DD_snd (S n)). cbn [DD]. unfold dL. cbn [DD]. destruct (DD n x) as (a & b). reflexivity.
Qed.
Lemma dL_0 x : dL 0 x = 0. Proof. reflexivity. Qed.
Lemma dL_1 x : dL 1 x = 1. Proof. reflexivity. Qed.
Lemma INR_nneg n : 0 <= INR n. Proof. apply pos_INR. Qed.
(** induction two at a time *)
Lemma two_step (P : nat -> Prop) : P 0%nat -> P 1%nat -> (forall n, P n -> P (S n) -> P (S (S n))) -> forall n, P n.
Proof. intros A B C n. assert (P n /\ P (S n)) as (H & _); [|exact H]. induction n as [|n (H1 & H2)]; auto. Qed.
Lemma L_derive n x : derivable_pt_lim (L n) x (dL n x).
Proof.
  revert n x. apply (two_step (fun n => forall x, derivable_pt_lim (L n) x (dL n x))).
  - intros x. apply (derivable_ext (fun _ => 1)); [reflexivity|]. apply derivable_pt_lim_const.
  - intros x. apply (derivable_ext id); [reflexivity|]. apply derivable_pt_lim_id.
  - intros n H1 H2 x. pose proof (INR_nneg n) as Hn.
    apply (derivable_ext (fun x => (2 * INR n + 3) / (INR n + 2) * (x * L (S n) x) + - (INR n + 1) / (INR n + 2) * L n x)).
    { intros u. rewrite L_rec. field. lra. }
    replace (dL (S (S n)) x) with ((2 * INR n + 3) / (INR n + 2) * (1 * L (S n) x + x * dL (S n) x) + - (INR n + 1) / (INR n + 2) * dL n x)
      by (rewrite dL_rec; field; lra).
    apply (derivable_pt_lim_plus (fun x => (2 * INR n + 3) / (INR n + 2) * (x * L (S n) x)) (fun x => - (INR n + 1) / (INR n + 2) * L n x)).
    + apply (derivable_pt_lim_scal (fun x => x * L (S n) x)). apply (derivable_pt_lim_mult id (L (S n))); [apply derivable_pt_lim_id|apply H2].
    + apply (derivable_pt_lim_scal (L n)), H1.
Qed.
Lemma relations n x : (1 - x * x) * dL (S n) x = (INR n + 1) * (L n x - x * L (S n) x) /\
  x * dL (S n) x - dL n x = (INR n + 1) * L (S n) x /\ dL (S n) x - x * dL n x = (INR n + 1) * L n x.
Proof.
  induction n as [|n (A & B & C)].
  - rewrite dL_1, dL_0, L_1, L_0. cbn [INR]. repeat split; ring.
  - pose proof (INR_nneg n) as Hn. rewrite S_INR.
    assert (dL (S (S n)) x - x * dL (S n) x = (INR n + 1 + 1) * L (S n) x) as C'.
    { rewrite dL_rec. replace (dL n x) with (x * dL (S n) x - (INR n + 1) * L (S n) x) by lra. field. lra. }
    assert (x * dL (S (S n)) x - dL (S n) x = (INR n + 1 + 1) * L (S (S n)) x) as B'.
    { replace (dL (S (S n)) x) with (x * dL (S n) x + (INR n + 1 + 1) * L (S n) x) by lra.
      transitivity (- ((1 - x * x) * dL (S n) x) + (INR n + 1 + 1) * (x * L (S n) x)); [ring|]. rewrite A, L_rec. field. lra. }
    split; [|split; assumption].
    transitivity (dL (S (S n)) x - x * (x * dL (S (S n)) x)); [ring|].
    replace (x * dL (S (S n)) x) with (dL (S n) x + (INR n + 1 + 1) * L (S (S n)) x) by lra.
    replace (dL (S (S n)) x) with (x * dL (S n) x + (INR n + 1 + 1) * L (S n) x) by lra. ring.
Qed.
(** the differential equation *)
Lemma L_ode n x : derivable_pt_lim (fun x => (1 - x * x) * dL n x) x (- (INR n * (INR n + 1)) * L n x).
Proof.
  destruct n as [|n].
  - apply (derivable_ext (fun _ => 0)); [intros; rewrite dL_0; ring|]. replace (- (INR 0 * (INR 0 + 1)) * L 0 x) with 0 by (cbn [INR]; ring). apply derivable_pt_lim_const.
  - apply (derivable_ext (fun x => (INR n + 1) * (L n x - x * L (S n) x))).
    { intros u. symmetry. apply (relations n u). }
    replace (- (INR (S n) * (INR (S n) + 1)) * L (S n) x) with ((INR n + 1) * (dL n x - (1 * L (S n) x + x * dL (S n) x))).
    2:{ destruct (relations n x) as (_ & B & _). rewrite S_INR. replace (dL n x) with (x * dL (S n) x - (INR n + 1) * L (S n) x) by lra. ring. }
    apply (derivable_pt_lim_scal (fun x => L n x - x * L (S n) x)). apply (derivable_pt_lim_minus (L n) (fun x => x * L (S n) x)); [apply L_derive|].
    apply (derivable_pt_lim_mult id (L (S n))); [apply derivable_pt_lim_id|apply L_derive].
Qed.
(** ends *)
Lemma L_end s n : s * s = 1 -> L n s = s ^ n.
Proof.
  intros H. revert n. apply two_step; [reflexivity|rewrite L_1; cbn; ring|]. intros n A B. pose proof (INR_nneg n). rewrite L_rec, A, B. cbn [pow].
  replace (s * (s * s ^ n)) with (s * s * s ^ n) by ring. replace ((2 * INR n + 3) * s * (s * s ^ n)) with ((2 * INR n + 3) * (s * s) * s ^ n) by ring. rewrite H. field. lra.
Qed.
Lemma dL_end s n : s * s = 1 -> dL n s = s ^ (S n) * (INR n * (INR n + 1) / 2).
Proof.
  intros H. induction n as [|n IH]; [rewrite dL_0; cbn; field|].
  destruct (relations n s) as (_ & _ & C). rewrite IH, (L_end s n H) in C. rewrite S_INR. cbn [pow] in *.
  assert (dL (S n) s = (s * s) * s ^ n * (INR n * (INR n + 1) / 2) + (INR n + 1) * s ^ n) as -> by lra.
  replace (s * (s * s ^ n)) with (s * s * s ^ n) by ring. rewrite H. field.
Qed.
Lemma L_p1 n : L n 1 = 1. Proof. rewrite L_end by ring. apply pow1. Qed.
Lemma dL_p1 n : dL n 1 = INR n * (INR n + 1) / 2. Proof. rewrite dL_end by ring. rewrite pow1. ring. Qed.
Lemma parity n x : L n (- x) = (-1) ^ n * L n x /\ dL n (- x) = (-1) ^ S n * dL n x.
Proof.
  revert n. apply (two_step (fun n => L n (- x) = (-1) ^ n * L n x /\ dL n (- x) = (-1) ^ S n * dL n x)).
  - rewrite !L_0, !dL_0. cbn. split; ring.
  - rewrite !L_1, !dL_1. cbn. split; ring.
  - intros n (A & B) (A' & B'). pose proof (INR_nneg n). rewrite !L_rec, !dL_rec, A, A', B, B'. cbn [pow]. split; field; lra.
Qed.
(** ** polynomials *)
Lemma poly_const n a : is_poly (S n) (fun _ => a).
Proof. exists [a]. split; [cbn; lia|]. intros; cbn; ring. Qed.
Lemma poly_mul_list p : forall n f, is_poly (S n) f -> is_poly (length p + n) (fun t => peval p t * f t).
Proof.
  induction p as [|a p IH]; intros n f Hf; cbn [length peval].
  - exists []. split; [cbn; lia|]. intros; cbn; ring.
  - apply (is_poly_ext _ (fun t => a * f t + t * (peval p t * f t))); [intros; ring|].
    apply is_poly_add; [apply is_poly_scale; apply (is_poly_le (S n)); [lia|exact Hf]|].
    change (S (length p) + n)%nat with (S (length p + n)). apply is_poly_shift, IH, Hf.
Qed.
Lemma poly_mul m n f g : is_poly m f -> is_poly (S n) g -> is_poly (m + n) (fun t => f t * g t).
Proof.
  intros (p & Lp & Ep) Hg. apply (is_poly_ext _ (fun t => peval p t * g t)); [intros; rewrite Ep; reflexivity|].
  apply (is_poly_le (length p + n)); [lia|]. apply poly_mul_list, Hg.
Qed.
Fixpoint pdiff (p : list R) : list R := match p with [] => [] | a :: r => match r with [] => [] | _ => padd r (0 :: pdiff r) end end.
Lemma pdiff_eval p : forall x, derivable_pt_lim (peval p) x (peval (pdiff p) x).
Proof.
  induction p as [|a p IH]; intros x; [apply (derivable_pt_lim_const 0)|].
  assert (peval (pdiff (a :: p)) x = peval p x + (0 + x * peval (pdiff p) x)) as -> by (destruct p; [cbn; ring|change (pdiff (a :: r :: p)) with (padd (r :: p) (0 :: pdiff (r :: p))); rewrite padd_eval; reflexivity]).
  cbn [peval].
  replace (peval p x + (0 + x * peval (pdiff p) x)) with (0 + (1 * peval p x + x * peval (pdiff p) x)) by ring.
  apply (derivable_pt_lim_plus (fun _ => a) (fun x => x * peval p x)); [apply derivable_pt_lim_const|].
  apply (derivable_pt_lim_mult id (peval p)); [apply derivable_pt_lim_id|apply IH].
Qed.
Lemma pdiff_length p : (length (pdiff p) <= pred (length p))%nat.
Proof.
  induction p as [|a [|b p] IH]; [cbn; lia|cbn; lia|]. change (pdiff (a :: b :: p)) with (padd (b :: p) (0 :: pdiff (b :: p))).
  rewrite padd_length. cbn [length pred] in *. lia.
Qed.
Lemma L_poly n : is_poly (S n) (L n).
Proof.
  revert n. apply two_step.
  - apply (is_poly_ext _ (fun _ => 1)); [reflexivity|apply poly_const].
  - exists [0; 1]. split; [cbn; lia|]. intros; rewrite L_1; cbn; ring.
  - intros n A B. pose proof (INR_nneg n).
    apply (is_poly_ext _ (fun x => (2 * INR n + 3) / (INR n + 2) * (x * L (S n) x) + - (INR n + 1) / (INR n + 2) * L n x)).
    { intros u. rewrite L_rec. field. lra. }
    apply is_poly_add; apply is_poly_scale; [apply is_poly_shift, B|apply (is_poly_le (S n)); [lia|exact A]].
Qed.
Lemma dL_poly n : is_poly n (dL n).
Proof.
  destruct (L_poly n) as (p & Lp & Ep). exists (pdiff p). split; [pose proof (pdiff_length p); lia|].
  intros x. eapply uniqueness_limite; [apply L_derive|]. apply (derivable_ext (peval p)); [intros; rewrite Ep; reflexivity|apply pdiff_eval].
Qed.
(** ** orthogonality *)
Lemma pow_derive k x : derivable_pt_lim (fun x => x ^ k) x (INR k * x ^ pred k).
Proof. apply derivable_pt_lim_pow. Qed.
Lemma orth_pow n j : (j < n)%nat -> integral (fun x => L n x * x ^ j) 0.
Proof.
  revert j. apply (two_step (fun j => (j < n)%nat -> integral (fun x => L n x * x ^ j) 0)).
  - intros Hn. assert (0 < INR n) as Pn by (apply lt_0_INR; lia).
    apply (integral_ext (fun x => - / (INR n * (INR n + 1)) * (- (INR n * (INR n + 1)) * L n x))); [intros; cbn [pow]; field; split; lra|].
    apply (integral_val _ (- / (INR n * (INR n + 1)) * (((1 - 1 * 1) * dL n 1) - ((1 - (-1) * (-1)) * dL n (-1))))); [ring|].
    apply integral_scale. apply (integral_diff (fun x => (1 - x * x) * dL n x)). apply L_ode.
  - intros Hn. assert (0 < INR n) as Pn by (apply lt_0_INR; lia). assert (1 < INR n) as Pn1 by (apply (lt_INR 1); lia).
    apply (integral_ext (fun x => - / (INR n * (INR n + 1) - 2) * ((- (INR n * (INR n + 1)) * L n x * x + (1 - x * x) * dL n x * 1) - ((0 - (1 * x + x * 1)) * L n x + (1 - x * x) * dL n x)))).
    { intros. cbn [pow]. field. nra. }
    apply (integral_val _ (- / (INR n * (INR n + 1) - 2) * (((1 - 1 * 1) * dL n 1 * 1 - (1 - 1 * 1) * L n 1) - ((1 - (-1) * (-1)) * dL n (-1) * (-1) - (1 - (-1) * (-1)) * L n (-1))))); [ring|].
    apply integral_scale. apply (integral_diff (fun x => (1 - x * x) * dL n x * x - (1 - x * x) * L n x)). intros x.
    apply (derivable_pt_lim_minus (fun x => (1 - x * x) * dL n x * x) (fun x => (1 - x * x) * L n x)).
    + apply (derivable_pt_lim_mult (fun x => (1 - x * x) * dL n x) id); [apply L_ode|apply derivable_pt_lim_id].
    + apply (derivable_pt_lim_mult (fun x => 1 - x * x) (L n)); [|apply L_derive].
      apply (derivable_pt_lim_minus (fun _ => 1) (fun x => x * x)); [apply derivable_pt_lim_const|].
      apply (derivable_pt_lim_mult id id); apply derivable_pt_lim_id.
  - intros j H _ Hn. specialize (H ltac:(lia)). set (k := S (S j)). set (c := INR n * (INR n + 1) - INR k * (INR k + 1)).
    assert (INR k < INR n) as Hk by (apply lt_INR; exact Hn). assert (0 <= INR k) by apply INR_nneg.
    assert (0 < c) as Pc by (unfold c; nra).
    apply (integral_ext (fun x => - / c * (((- (INR n * (INR n + 1)) * L n x * x ^ k + (1 - x * x) * dL n x * (INR k * x ^ pred k)) -
      INR k * (((0 - (1 * x + x * 1)) * x ^ S j + (1 - x * x) * (INR (S j) * x ^ pred (S j))) * L n x + (1 - x * x) * x ^ S j * dL n x)) + INR k * INR (S j) * (L n x * x ^ j)))).
    { intros x. change (pred (S j)) with j. replace (x ^ pred k) with (x * x ^ j) by reflexivity. replace (x ^ S j) with (x * x ^ j) by reflexivity. assert (INR (S j) = INR k - 1) as -> by (unfold k; rewrite !S_INR; ring).
      change (x ^ S (S j)) with (x ^ k). replace (x ^ k) with (x * (x * x ^ j)) by reflexivity.
      transitivity (/ c * ((INR n * (INR n + 1) - INR k * (INR k + 1)) * (L n x * (x * (x * x ^ j))))); [ring|]. fold c. field. lra. }
    apply (integral_val _ (- / c * ((((1 - 1 * 1) * dL n 1 * 1 ^ k - INR k * ((1 - 1 * 1) * 1 ^ S j * L n 1)) - ((1 - (-1) * (-1)) * dL n (-1) * (-1) ^ k - INR k * ((1 - (-1) * (-1)) * (-1) ^ S j * L n (-1)))) + INR k * INR (S j) * 0))); [ring|].
    apply integral_scale. apply (integral_add (fun x => _ - _) (fun x => INR k * INR (S j) * (L n x * x ^ j))); [|apply integral_scale, H].
    apply (integral_diff (fun x => (1 - x * x) * dL n x * x ^ k - INR k * ((1 - x * x) * x ^ S j * L n x))). intros x.
    apply (derivable_pt_lim_minus (fun x => (1 - x * x) * dL n x * x ^ k) (fun x => INR k * ((1 - x * x) * x ^ S j * L n x))).
    + apply (derivable_pt_lim_mult (fun x => (1 - x * x) * dL n x) (fun x => x ^ k)); [apply L_ode|apply pow_derive].
    + apply (derivable_pt_lim_scal (fun x => (1 - x * x) * x ^ S j * L n x)).
      apply (derivable_pt_lim_mult (fun x => (1 - x * x) * x ^ S j) (L n)); [|apply L_derive].
      apply (derivable_pt_lim_mult (fun x => 1 - x * x) (fun x => x ^ S j)); [|apply pow_derive].
      apply (derivable_pt_lim_minus (fun _ => 1) (fun x => x * x)); [apply derivable_pt_lim_const|].
      apply (derivable_pt_lim_mult id id); apply derivable_pt_lim_id.
Qed.
Lemma orth_list n q : forall i, (i + length q <= n)%nat -> integral (fun x => L n x * (x ^ i * peval q x)) 0.
Proof.
  induction q as [|a q IH]; intros i Hi; cbn [peval length] in *.
  - apply (integral_ext (fun _ => 0 * 0)); [intros; ring|]. exists (fun _ => 0). split; [intros; replace (0 * 0) with 0 by ring; apply derivable_pt_lim_const|ring].
  - apply (integral_ext (fun x => a * (L n x * x ^ i) + L n x * (x ^ S i * peval q x))); [intros; cbn [pow]; ring|].
    apply (integral_val _ (a * 0 + 0)); [ring|]. apply integral_add; [apply integral_scale, orth_pow; lia|apply IH; lia].
Qed.
Lemma orth n f : is_poly n f -> integral (fun x => L n x * f x) 0.
Proof.
  intros (q & Lq & Eq). apply (integral_ext (fun x => L n x * (x ^ 0 * peval q x))); [intros; rewrite Eq; cbn; ring|]. apply orth_list. cbn. lia.
Qed.
Lemma L_legendre n : exists c, legendre n c /\ forall x, L n x = peval c x.
Proof.
  destruct (L_poly n) as (c & Lc & Ec). exists c. split; [|exact Ec]. split; [exact Lc|]. split; [rewrite <- Ec; apply L_p1|].
  intros q Lq. apply (integral_ext (fun x => L n x * peval q x)); [intros; rewrite Ec; reflexivity|]. apply orth. exists q. auto.
Qed.
