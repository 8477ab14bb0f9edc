(** * Derivatives of composite expressions: rules in the form [fun y => ...] and a
    tactic that applies them *)
From Coq Require Import Reals Lra.
Local Open Scope R_scope.

Lemma D_eq f x a b : derivable_pt_lim f x a -> a = b -> derivable_pt_lim f x b.
Proof. intros H E; rewrite <- E; exact H. Qed.
Lemma D_ext f h x a : (forall y, f y = h y) -> derivable_pt_lim f x a -> derivable_pt_lim h x a.
Proof. intros E D e He. destruct (D e He) as (d & Hd). exists d. intros k H1 H2. rewrite <- !E. exact (Hd k H1 H2). Qed.
(** equality near the point suffices *)
Lemma D_near f h x a (r : R) : 0 < r -> (forall y, Rabs (y - x) < r -> f y = h y) -> derivable_pt_lim f x a -> derivable_pt_lim h x a.
Proof.
  intros Hr E D e He. destruct (D e He) as (d & Hd).
  assert (0 < Rmin d r) as Hm by (apply Rmin_glb_lt; [apply (cond_pos d)|exact Hr]).
  exists (mkposreal _ Hm). cbn. intros k H1 H2.
  pose proof (Rmin_l d r). pose proof (Rmin_r d r).
  rewrite <- (E (x + k)), <- (E x).
  - apply Hd; [exact H1|lra].
  - rewrite Rminus_diag_eq by reflexivity. rewrite Rabs_R0. exact Hr.
  - replace (x + k - x) with k by ring. lra.
Qed.
(** two functions that agree to first order at the point can be glued there *)
Lemma D_glue f1 f2 h x a : derivable_pt_lim f1 x a -> derivable_pt_lim f2 x a -> h x = f1 x -> h x = f2 x ->
  (forall y, h y = f1 y \/ h y = f2 y) -> derivable_pt_lim h x a.
Proof.
  intros D1 D2 E1 E2 H e He. destruct (D1 e He) as (d1 & Hd1). destruct (D2 e He) as (d2 & Hd2).
  assert (0 < Rmin d1 d2) as Hm by (apply Rmin_glb_lt; [apply (cond_pos d1)|apply (cond_pos d2)]).
  exists (mkposreal _ Hm). cbn. intros k H1 H2. pose proof (Rmin_l d1 d2). pose proof (Rmin_r d1 d2).
  destruct (H (x + k)) as [-> | ->].
  - rewrite E1. apply Hd1; [exact H1|lra].
  - rewrite E2. apply Hd2; [exact H1|lra].
Qed.
Lemma D_const a x : derivable_pt_lim (fun _ => a) x 0.
Proof. apply (derivable_pt_lim_const a x). Qed.
Lemma D_id x : derivable_pt_lim (fun y => y) x 1.
Proof. apply (derivable_pt_lim_id x). Qed.
Lemma D_plus f h x a b : derivable_pt_lim f x a -> derivable_pt_lim h x b -> derivable_pt_lim (fun y => f y + h y) x (a + b).
Proof. apply derivable_pt_lim_plus. Qed.
Lemma D_minus f h x a b : derivable_pt_lim f x a -> derivable_pt_lim h x b -> derivable_pt_lim (fun y => f y - h y) x (a - b).
Proof. apply derivable_pt_lim_minus. Qed.
Lemma D_opp f x a : derivable_pt_lim f x a -> derivable_pt_lim (fun y => - f y) x (- a).
Proof. apply derivable_pt_lim_opp. Qed.
Lemma D_mult f h x a b : derivable_pt_lim f x a -> derivable_pt_lim h x b -> derivable_pt_lim (fun y => f y * h y) x (a * h x + f x * b).
Proof. apply derivable_pt_lim_mult. Qed.
Lemma D_div f h x a b : derivable_pt_lim f x a -> derivable_pt_lim h x b -> h x <> 0 ->
  derivable_pt_lim (fun y => f y / h y) x ((a * h x - b * f x) / (h x * h x)).
Proof. intros A B N. apply (derivable_pt_lim_div f h x a b A B N). Qed.
Lemma D_exp f x a : derivable_pt_lim f x a -> derivable_pt_lim (fun y => exp (f y)) x (exp (f x) * a).
Proof. intros A. apply (derivable_pt_lim_comp f exp x a (exp (f x)) A), derivable_pt_lim_exp. Qed.
Lemma D_ln f x a : derivable_pt_lim f x a -> 0 < f x -> derivable_pt_lim (fun y => ln (f y)) x (/ f x * a).
Proof. intros A P. apply (derivable_pt_lim_comp f ln x a (/ f x) A), derivable_pt_lim_ln, P. Qed.
Lemma D_sin f x a : derivable_pt_lim f x a -> derivable_pt_lim (fun y => sin (f y)) x (cos (f x) * a).
Proof. intros A. apply (derivable_pt_lim_comp f sin x a (cos (f x)) A), derivable_pt_lim_sin. Qed.
Lemma D_cos f x a : derivable_pt_lim f x a -> derivable_pt_lim (fun y => cos (f y)) x (- sin (f x) * a).
Proof. intros A. apply (derivable_pt_lim_comp f cos x a (- sin (f x)) A), derivable_pt_lim_cos. Qed.
Lemma D_sqrt f x a : derivable_pt_lim f x a -> 0 < f x -> derivable_pt_lim (fun y => sqrt (f y)) x (/ (2 * sqrt (f x)) * a).
Proof. intros A P. apply (derivable_pt_lim_comp f sqrt x a (/ (2 * sqrt (f x))) A), derivable_pt_lim_sqrt, P. Qed.
Lemma D_power f x a e : derivable_pt_lim f x a -> 0 < f x ->
  derivable_pt_lim (fun y => Rpower (f y) e) x (e * Rpower (f x) (e - 1) * a).
Proof.
  intros A P. apply (derivable_pt_lim_comp f (fun y => Rpower y e) x a (e * Rpower (f x) (e - 1)) A), derivable_pt_lim_power, P.
Qed.
Ltac dstep :=
  match goal with
  | |- derivable_pt_lim (fun _ => ?a) _ _ => apply D_const
  | |- derivable_pt_lim (fun y => y) _ _ => apply D_id
  | |- derivable_pt_lim (fun y => @?f y + @?h y) _ _ => eapply (D_plus f h)
  | |- derivable_pt_lim (fun y => @?f y - @?h y) _ _ => eapply (D_minus f h)
  | |- derivable_pt_lim (fun y => - @?f y) _ _ => eapply (D_opp f)
  | |- derivable_pt_lim (fun y => @?f y * @?h y) _ _ => eapply (D_mult f h)
  | |- derivable_pt_lim (fun y => @?f y / @?h y) _ _ => eapply (D_div f h)
  | |- derivable_pt_lim (fun y => exp (@?f y)) _ _ => eapply (D_exp f)
  | |- derivable_pt_lim (fun y => ln (@?f y)) _ _ => eapply (D_ln f)
  | |- derivable_pt_lim (fun y => sin (@?f y)) _ _ => eapply (D_sin f)
  | |- derivable_pt_lim (fun y => cos (@?f y)) _ _ => eapply (D_cos f)
  | |- derivable_pt_lim (fun y => sqrt (@?f y)) _ _ => eapply (D_sqrt f)
  | |- derivable_pt_lim (fun y => Rpower (@?f y) ?e) _ _ => eapply (D_power f)
  end.
(** leaves the side conditions of division, ln, sqrt and powers, and the equality of
    the derivatives first *)
Ltac dlim := eapply D_eq; [repeat dstep; cbv beta|cbv beta].

Lemma Rpower_pred x e : 0 < x -> x * Rpower x (e - 1) = Rpower x e.
Proof. intros H. rewrite <- (Rpower_1 x H) at 1. rewrite <- Rpower_plus. f_equal. ring. Qed.
Lemma Rpower_pos x e : 0 < Rpower x e.
Proof. apply exp_pos. Qed.
Lemma ln_power x e : ln (Rpower x e) = e * ln x.
Proof. apply ln_exp. Qed.
