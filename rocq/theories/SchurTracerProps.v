(** * C131: tracers in the column solve by elimination *)
From Coq Require Import Reals List Bool Lia Lra.
From Verif Require Import SchurModel SchurJacModel SchurFModel SchurFProofs SchurTracerModel SchurTracerSpec.
From Verif Require PhysModel.
Import ListNotations.
Local Open Scope R_scope.

Lemma total_add l h : total l h = add_over l h.
Proof. induction l as [|m l IH]; [reflexivity|]. rewrite add_over_cons, <- IH. reflexivity. Qed.
Lemma add_over_plus l f h : add_over l (fun m => f m + h m) = add_over l f + add_over l h.
Proof. induction l as [|m l IH]; [unfold add_over; cbn; lra|]. rewrite !add_over_cons, IH. ring. Qed.
Lemma add_over_minus l f h : add_over l (fun m => f m - h m) = add_over l f - add_over l h.
Proof. induction l as [|m l IH]; [unfold add_over; cbn; lra|]. rewrite !add_over_cons, IH. ring. Qed.
Lemma add_over_swap l l' (f : nat -> nat -> R) : add_over l (fun a => add_over l' (fun b => f a b)) = add_over l' (fun b => add_over l (fun a => f a b)).
Proof.
  induction l as [|m l IH]; [unfold add_over at 1; cbn [fold_left]; symmetry; apply add_over_zero|]. rewrite add_over_cons, IH, <- add_over_plus. apply add_over_ext. intros b _. rewrite add_over_cons. reflexivity.
Qed.
Lemma has_in l m : has l m = true <-> In m l.
Proof. unfold has. rewrite existsb_exists. split; [intros (y & I & E); apply Nat.eqb_eq in E; subst y; exact I|intros I; exists m; split; [exact I|apply Nat.eqb_refl]]. Qed.
Lemma add_over_has L l h : NoDup L -> NoDup l -> incl l L -> add_over L (fun m => if has l m then h m else 0) = add_over l h.
Proof.
  intros DL. induction l as [|a l IH]; intros D I; [cbn; apply add_over_zero|]. inversion D as [|? ? NI D']; subst.
  rewrite add_over_cons, <- (IH D' (fun y Hy => I y (or_intror Hy))). 
  replace (h a) with (add_over L (fun m => if Nat.eqb m a then h m else 0)).
  - rewrite <- add_over_plus. apply add_over_ext. intros m _. unfold has. cbn [existsb]. destruct (Nat.eqb_spec m a) as [->|N]; cbn [orb]; [|ring].
    assert (existsb (Nat.eqb a) l = false) as ->; [|ring]. destruct (existsb (Nat.eqb a) l) eqn:E; [|reflexivity]. exfalso. apply NI. apply has_in. exact E.
  - rewrite (add_over_one L a h DL). rewrite (proj2 (has_in L a) (I a (or_introl eq_refl))). reflexivity.
Qed.

(** rows of the operators within the column *)
Definition fitting (F : frame) : Prop :=
  (forall k, (k < f_levels F)%nat -> incl (columns (f_den F) k) (seq 0 (S (f_levels F)))) /\
  (forall m, (m <= f_levels F)%nat -> incl (columns (f_ine F) m) (seq 0 (f_levels F))) /\
  (forall k, (k + 1 < f_levels F)%nat -> incl (columns (f_penl F) k) (seq 0 (f_levels F))) /\
  (forall k, (1 <= k < f_levels F)%nat -> incl (columns (f_penr F) k) (seq 0 (f_levels F))).
Lemma apply_total o k n d : incl (columns o k) (seq 0 n) -> add_over (seq 0 n) (fun q => (if has (columns o k) q then co o k q else 0) * d q) = apply_op o d k.
Proof.
  intros I. unfold apply_op. rewrite <- (add_over_has (seq 0 n) (columns o k) _ (seq_NoDup n 0) (columns_nodup o k) I). apply add_over_ext. intros q _. destruct (has (columns o k) q); ring.
Qed.

(** the left side of the equation of a tracer *)
Lemma entry_row F x jn up rd d k : fitting F -> (k < f_levels F)%nat ->
  total (seq 0 (f_levels F)) (fun q => tracer_entry F x jn up rd k q * d q) =
  apply_op (f_den F) (fun m => rd m / jn k * apply_op (f_ine F) d m * xi (prepare F x) m) k
  - (if up then penalty (prepare F x) d k else 0) + d k * (1 / f_step F).
Proof.
  intros (FD & FI & FL & FR_) K. rewrite total_add. set (n := f_levels F) in *. unfold tracer_entry. cbv zeta.
  change (d_en (prepare F x)) with (f_den F). change (i_ne (prepare F x)) with (f_ine F). change (pen_l (prepare F x)) with (f_penl F). change (pen_r (prepare F x)) with (f_penr F). fold n.
  set (X := xi (prepare F x)).
  rewrite (add_over_ext (seq 0 n) _ (fun q => add_over (columns (f_den F) k) (fun m => co (f_den F) k m * (rd m / jn k) * X m * ((if has (columns (f_ine F) m) q then co (f_ine F) m q else 0) * d q))
    - (if (up && Nat.ltb (k + 1) n)%bool then Rabs (X (k + 1)%nat) else 0) * ((if has (columns (f_penl F) k) q then co (f_penl F) k q else 0) * d q)
    - (if (up && Nat.leb 1 k)%bool then Rabs (X k) else 0) * ((if has (columns (f_penr F) k) q then co (f_penr F) k q else 0) * d q)
    + (if Nat.eqb q k then d q * (1 / f_step F) else 0))).
  2:{ intros q _. rewrite Rmult_plus_distr_r, !Rmult_minus_distr_r. rewrite (Nat.eqb_sym k q). f_equal; [f_equal; [f_equal|]|].
      - rewrite <- add_over_scal. apply add_over_ext. intros m _. destruct (has (columns (f_ine F) m) q); unfold Rdiv; ring.
      - destruct (up && Nat.ltb (k + 1) n)%bool, (has (columns (f_penl F) k) q); cbn [andb]; ring.
      - destruct (up && Nat.leb 1 k)%bool, (has (columns (f_penr F) k) q); cbn [andb]; ring.
      - destruct (Nat.eqb q k); ring. }
  rewrite add_over_plus, !add_over_minus. rewrite (add_over_one _ k (fun q => d q * (1 / f_step F)) (seq_NoDup n 0)). rewrite (proj2 (has_in (seq 0 n) k)) by (apply in_seq; lia).
  rewrite add_over_swap. f_equal. rewrite !(add_over_ext _ (fun q => _ * (_ * d q)) (fun q => (_ * d q) * _)) by (intros; apply Rmult_comm). rewrite !add_over_scal.
  assert (add_over (columns (f_den F) k) (fun m => add_over (seq 0 n) (fun q => co (f_den F) k m * (rd m / jn k) * X m * ((if has (columns (f_ine F) m) q then co (f_ine F) m q else 0) * d q)))
    = apply_op (f_den F) (fun m => rd m / jn k * apply_op (f_ine F) d m * X m) k) as ->.
  { unfold apply_op at 1. apply add_over_ext. intros m I. rewrite <- (apply_total (f_ine F) m n d) by (apply FI; apply (FD k K) in I; apply in_seq in I; lia).
    rewrite (add_over_ext _ (fun q => co (f_den F) k m * (rd m / jn k) * X m * ((if has (columns (f_ine F) m) q then co (f_ine F) m q else 0) * d q)) (fun q => ((if has (columns (f_ine F) m) q then co (f_ine F) m q else 0) * d q) * (co (f_den F) k m * (rd m / jn k) * X m))) by (intros; ring).
    rewrite add_over_scal. ring. }
  unfold Rminus. rewrite Rplus_assoc. f_equal. unfold penalty, weight. change (levels_ (prepare F x)) with n. change (pen_l (prepare F x)) with (f_penl F). change (pen_r (prepare F x)) with (f_penr F). fold X.
  destruct up; cbn [andb]; [|ring].
  destruct (Nat.ltb_spec (k + 1) n) as [L|L]; destruct (Nat.leb_spec 1 k) as [L'|L'].
  all: try rewrite (apply_total (f_penl F) k n d (FL k L)). all: try rewrite (apply_total (f_penr F) k n d (FR_ k (conj L' K))).
  all: try replace (k - 1 + 1)%nat with k by lia. all: ring.
Qed.

(** the density equation at the start of the step *)
Lemma density_row F x d k f : fitting F -> (k < f_levels F)%nat -> full_equation (f_levels F) (fun c q => entry_of (prepare F x) FR k c q) d f ->
  add_over (seq 0 (S (f_levels F))) (fun m => level_velocity (prepare F x) FR k m * d FW m) + add_over (seq 0 (f_levels F)) (fun q => level_level (prepare F x) FR k q * d FR q) = f.
Proof.
  intros (FD & FI & FL & FR_) K H. unfold full_equation in H. rewrite total_add in H. rewrite <- H. clear H.
  assert (forall m, entry_of (prepare F x) FR k 0 m = 0) as E0 by (intros m; unfold entry_of, n_; change (levels_ (prepare F x)) with (f_levels F); destruct (Nat.ltb_spec k (f_levels F)); [reflexivity|lia]).
  assert (forall m, entry_of (prepare F x) FR k 1 m = level_velocity (prepare F x) FR k m) as E1 by (intros m; unfold entry_of, n_; change (levels_ (prepare F x)) with (f_levels F); destruct (Nat.ltb_spec k (f_levels F)); [reflexivity|lia]).
  assert (forall m, entry_of (prepare F x) FR k 2 m = level_level (prepare F x) FR k m) as E2 by (intros m; unfold entry_of, n_; change (levels_ (prepare F x)) with (f_levels F); destruct (Nat.ltb_spec k (f_levels F)); [reflexivity|lia]).
  rewrite (add_over_ext _ (fun m => _ + _ + _) (fun m => level_velocity (prepare F x) FR k m * d FW m + level_level (prepare F x) FR k m * d FR m)) by (intros m _; rewrite E0, E1, E2; unfold FW, FR; ring).
  rewrite add_over_plus. f_equal. rewrite seq_S. cbn [Nat.add]. rewrite <- (total_add (seq 0 (f_levels F) ++ _)). unfold total. rewrite fold_right_app. cbn [fold_right].
  assert (level_level (prepare F x) FR k (f_levels F) = 0) as ->; [|rewrite <- total_add; unfold total; f_equal; ring].
  assert (forall l, incl l (seq 0 (f_levels F)) -> has l (f_levels F) = false) as HN by (intros l I; destruct (has l (f_levels F)) eqn:E; [|reflexivity]; apply has_in, I, in_seq in E; lia).
  unfold level_level, n_. change (levels_ (prepare F x)) with (f_levels F). change (pen_l (prepare F x)) with (f_penl F). change (pen_r (prepare F x)) with (f_penr F). change (d_en (prepare F x)) with (f_den F). change (i_ne (prepare F x)) with (f_ine F).
  destruct (Nat.eqb_spec k (f_levels F)) as [E|_]; [lia|].
  rewrite (add_over_ext _ _ (fun _ => 0)), add_over_zero by (intros m I; apply (FD k K), in_seq in I; rewrite (HN _ (FI m ltac:(lia))); reflexivity).
  destruct (Nat.ltb_spec (k + 1) (f_levels F)) as [L|L]; destruct (Nat.leb_spec 1 k) as [L'|L'].
  all: try rewrite (HN _ (FL k L)). all: try rewrite (HN _ (FR_ k (conj L' K))). all: rewrite ?andb_false_r; cbn [andb]; rewrite ?andb_false_r; ring.
Qed.
Lemma velocity_sum F x d k : fitting F -> (k < f_levels F)%nat ->
  add_over (seq 0 (S (f_levels F))) (fun m => level_velocity (prepare F x) FR k m * d m) =
  apply_op (f_den F) (fun m => if within (f_levels F) m then f_jac_e F m * f_ijac F k * f_con_e F m * f_der_e F m * r_e (prepare F x) m * d m else 0) k
  - (if f_up_r F then (if Nat.ltb (k + 1) (f_levels F) then apply_op (f_penl F) (x FR) k * (sign_of (xi (prepare F x) (k + 1)%nat) / f_der_e F (k + 1)%nat * d (k + 1)%nat) else 0)
      + (if Nat.leb 1 k then apply_op (f_penr F) (x FR) k * (sign_of (xi (prepare F x) k) / f_der_e F k * d k) else 0) else 0).
Proof.
  intros (FD & _ & _ & _) K. set (n := f_levels F) in *. set (C := prepare F x).
  assert (forall o s m, add_over (columns o k) (fun q => s / f_der_e F m * co o k q * x FR q) = apply_op o (x FR) k * (s / f_der_e F m)) as EA.
  { intros o s m. unfold apply_op. rewrite <- add_over_scal. apply add_over_ext. intros q _. ring. }
  rewrite (add_over_ext _ _ (fun m => (if has (columns (f_den F) k) m then co (f_den F) k m * (if within n m then f_jac_e F m * f_ijac F k * f_con_e F m * f_der_e F m * r_e C m * d m else 0) else 0)
    - (if Nat.eqb m (k + 1) then (if (f_up_r F && within n m)%bool then apply_op (f_penl F) (x FR) k * (sign_of (xi C m) / f_der_e F m * d m) else 0) else 0)
    - (if Nat.eqb m k then (if (f_up_r F && within n m)%bool then apply_op (f_penr F) (x FR) k * (sign_of (xi C m) / f_der_e F m * d m) else 0) else 0))).
  - rewrite !add_over_minus, !add_over_one by apply seq_NoDup. rewrite (add_over_has (seq 0 (S n)) (columns (f_den F) k) _ (seq_NoDup _ _) (columns_nodup _ _) (FD k K)).
    rewrite (proj2 (has_in (seq 0 (S n)) (k + 1)%nat)) by (apply in_seq; lia). rewrite (proj2 (has_in (seq 0 (S n)) k)) by (apply in_seq; lia).
    unfold apply_op at 3. unfold Rminus. rewrite Rplus_assoc. f_equal. unfold within. replace (Nat.leb 1 (k + 1)) with true by (symmetry; apply Nat.leb_le; lia). rewrite (proj2 (Nat.ltb_lt k n) K), andb_true_r. cbn [andb].
    destruct (f_up_r F), (Nat.ltb (k + 1) n), (Nat.leb 1 k); cbn [andb]; ring.
  - intros m I. apply in_seq in I. unfold level_velocity, n_. fold C. change (levels_ C) with n. change (upwinds C FR) with (f_up_r F). change (state_n C FR) with (x FR). change (state_e C FR) with (r_e C). change (pen_l C) with (f_penl F). change (pen_r C) with (f_penr F). change (der_e C) with (f_der_e F). change (d_en C) with (f_den F).
    rewrite !EA. unfold flux_coefficient. change (d_en C) with (f_den F). change (jac_e C) with (f_jac_e F). change (ijac C) with (f_ijac F). change (con_e C) with (f_con_e F). change (der_e C) with (f_der_e F).
    rewrite <- (andb_assoc (f_up_r F)). change (Nat.leb 1 m && Nat.ltb m n)%bool with (within n m). rewrite (Nat.eqb_sym (k + 1) m), (Nat.eqb_sym k m).
    assert ((negb (Nat.eqb m 0) && negb (Nat.eqb m n))%bool = within n m) as EW. { unfold within. destruct (Nat.eqb_spec m 0), (Nat.eqb_spec m n), (Nat.leb_spec 1 m), (Nat.ltb_spec m n); cbn; try reflexivity; lia. }
    rewrite <- andb_assoc, EW. destruct (has (columns (f_den F) k) m), (within n m), (f_up_r F), (Nat.eqb m (k + 1)), (Nat.eqb m k); cbn [andb]; ring.
Qed.
Lemma level_sum F x jn d k : fitting F -> (k < f_levels F)%nat -> f_ijac F k = / jn k ->
  add_over (seq 0 (f_levels F)) (fun q => level_level (prepare F x) FR k q * d q) =
  total (seq 0 (f_levels F)) (fun q => tracer_entry F x jn (f_up_r F) (f_jac_e F) k q * d q).
Proof.
  intros FT K E. rewrite total_add. apply add_over_ext. intros q _. f_equal. unfold level_level, tracer_entry. f_equal. f_equal. f_equal. apply add_over_ext. intros m _. 
  change (ijac (prepare F x)) with (f_ijac F). change (jac_e (prepare F x)) with (f_jac_e F). rewrite E. unfold Rdiv. destruct (has (columns (i_ne (prepare F x)) m) q); ring.
Qed.
Lemma apply_lin o k f h e (a b : R) : (forall m, In m (columns o k) -> e m = a * f m + b * h m) -> apply_op o e k = a * apply_op o f k + b * apply_op o h k.
Proof.
  intros H. unfold apply_op. rewrite (Rmult_comm a), (Rmult_comm b), <- !add_over_scal, <- add_over_plus. apply add_over_ext. intros m I. rewrite (H m I). ring.
Qed.
Lemma apply_scal o k h a : apply_op o (fun m => a * h m) k = a * apply_op o h k.
Proof. rewrite (apply_lin o k h h (fun m => a * h m) a 0); [ring|intros; ring]. Qed.
Lemma rhs_of_density F x jn a d k : (k < f_levels F)%nat -> jn k <> 0 -> f_ijac F k = / jn k ->
  tracer_rhs F x jn (f_up_r F) (fun m => x FW m - d m) (fun q => a * x FR q) k =
  a * (level_equation (prepare F x) FR k - (apply_op (f_den F) (fun m => if within (f_levels F) m then f_jac_e F m * f_ijac F k * f_con_e F m * f_der_e F m * r_e (prepare F x) m * d m else 0) k
  - (if f_up_r F then (if Nat.ltb (k + 1) (f_levels F) then apply_op (f_penl F) (x FR) k * (sign_of (xi (prepare F x) (k + 1)%nat) / f_der_e F (k + 1)%nat * d (k + 1)%nat) else 0)
      + (if Nat.leb 1 k then apply_op (f_penr F) (x FR) k * (sign_of (xi (prepare F x) k) / f_der_e F k * d k) else 0) else 0))).
Proof.
  intros K NZ E. unfold tracer_rhs, level_equation. set (C := prepare F x). set (n := f_levels F) in *.
  change (upwinds C FR) with (f_up_r F). change (d_en C) with (f_den F). change (state_n C FR) with (x FR). change (ijac C) with (f_ijac F).
  rewrite (apply_lin (f_den F) k (flux C FR) (fun m => if within n m then f_jac_e F m * f_ijac F k * f_con_e F m * f_der_e F m * r_e C m * d m else 0) _ a (- a * jn k)).
  2:{ intros m _. unfold tracer_flux, flux, xi_new. fold C. fold n. change (levels_ C) with n. destruct (within n m) eqn:W; [|ring].
      change (state_e C FR m) with (apply_op (f_ine F) (x FR) m). change (r_e C m) with (apply_op (f_ine F) (x FR) m). change (i_ne C) with (f_ine F). change (jac_e C) with (f_jac_e F). rewrite apply_scal.
      unfold C, prepare. cbn [xi]. fold n. rewrite W. rewrite E. field. exact NZ. }
  assert (forall t, penalty C (fun q => a * t q) k = a * penalty C t k) as EP. { intros t. unfold penalty. rewrite !apply_scal. destruct (Nat.ltb (k + 1) (levels_ C)), (Nat.leb 1 k); ring. }
  rewrite EP, E. unfold tracer_correction, jump. fold C. fold n. rewrite !apply_scal. change (pen_l C) with (f_penl F). change (pen_r C) with (f_penr F). change (der_e C) with (f_der_e F).
  rewrite (proj2 (Nat.ltb_lt k n) K), andb_true_r.
  match goal with |- context [apply_op (f_den F) ?h k] => generalize (apply_op (f_den F) h k) end. intros A.
  match goal with |- context [apply_op (f_den F) ?h k] => generalize (apply_op (f_den F) h k) end. intros B.
  assert ((a * A + - a * jn k * B) / jn k = a * (A * / jn k) - a * B) as -> by (field; exact NZ).
  destruct (f_up_r F), (Nat.ltb (k + 1) n), (Nat.leb 1 k); unfold Rdiv; ring.
Qed.

(** ** A tracer in a fixed ratio to the density: what its equation gives for the change of
    the density in the same ratio.  [rd] are the areas that the matrix is built from. *)
Theorem C131_difference : forall F x jn rd a d k, fitting F -> (k < f_levels F)%nat -> jn k <> 0 -> f_ijac F k = / jn k ->
  full_equation (f_levels F) (fun c q => entry_of (prepare F x) FR k c q) d (build_f F x x FR k) ->
  total (seq 0 (f_levels F)) (fun q => tracer_entry F x jn (f_up_r F) rd k q * (a * d FR q)) =
  tracer_rhs F x jn (f_up_r F) (fun m => x FW m - d FW m) (fun q => a * x FR q) k
  + a * (apply_op (f_den F) (fun m => (rd m - f_jac_e F m) * apply_op (f_ine F) (d FR) m * xi (prepare F x) m) k / jn k).
Proof.
  intros F x jn rd a d k FT K NZ E H. pose proof (density_row F x d k _ FT K H) as R. clear H. rewrite (velocity_sum F x (d FW) k FT K), (level_sum F x jn (d FR) k FT K E) in R.
  assert (build_f F x x FR k = level_equation (prepare F x) FR k) as EB. { unfold build_f. change (levels_ (prepare F x)) with (f_levels F). rewrite (proj2 (Nat.ltb_lt _ _) K). cbn [Nat.eqb FR FW]. ring. }
  rewrite EB in R. rewrite (rhs_of_density F x jn a (d FW) k K NZ E).
  assert (total (seq 0 (f_levels F)) (fun q => tracer_entry F x jn (f_up_r F) rd k q * (a * d FR q)) = a * total (seq 0 (f_levels F)) (fun q => tracer_entry F x jn (f_up_r F) rd k q * d FR q)) as ->.
  { rewrite !total_add, (Rmult_comm a), <- add_over_scal. apply add_over_ext. intros q _. ring. }
  rewrite (entry_row F x jn (f_up_r F) rd (d FR) k FT K). rewrite (entry_row F x jn (f_up_r F) (f_jac_e F) (d FR) k FT K) in R.
  rewrite (apply_lin (f_den F) k (fun m => f_jac_e F m / jn k * apply_op (f_ine F) (d FR) m * xi (prepare F x) m) (fun m => (rd m - f_jac_e F m) * apply_op (f_ine F) (d FR) m * xi (prepare F x) m) (fun m => rd m / jn k * apply_op (f_ine F) (d FR) m * xi (prepare F x) m) 1 (/ jn k)) by (intros m _; field; exact NZ).
  match type of R with ?u + ?w = ?z => assert (w = z - u) as R' by lra end. rewrite <- R'. unfold Rdiv. ring.
Qed.
Print Assumptions C131_difference.

(** ** Where the areas read are those of the column, the ratio is kept. *)
Theorem C131_ratio : forall F x jn rd a d, fitting F -> (forall k, (k < f_levels F)%nat -> jn k <> 0 /\ f_ijac F k = / jn k) ->
  (forall m, (1 <= m < f_levels F)%nat -> rd m = f_jac_e F m) ->
  (forall k, (k < f_levels F)%nat -> full_equation (f_levels F) (fun c q => entry_of (prepare F x) FR k c q) d (build_f F x x FR k)) ->
  solves (f_levels F) (tracer_entry F x jn (f_up_r F) rd) (tracer_rhs F x jn (f_up_r F) (fun m => x FW m - d FW m) (fun q => a * x FR q)) (fun q => a * d FR q).
Proof.
  intros F x jn rd a d FT J RD H k K. destruct (J k K) as (NZ & E). rewrite (C131_difference F x jn rd a d k FT K NZ E (H k K)).
  rewrite apply_zero; [unfold Rdiv; ring|]. intros m _. destruct (within (f_levels F) m) eqn:W.
  - unfold within in W. apply andb_prop in W. destruct W as (W1 & W2). apply Nat.leb_le in W1. apply Nat.ltb_lt in W2. rewrite (RD m (conj W1 W2)). ring.
  - unfold prepare. cbn [xi]. rewrite W. ring.
Qed.
Print Assumptions C131_ratio.

(** ** The code reads the areas with the indices in another order: then it is kept only
    where the areas happen to agree in the sums. *)
Theorem C131_ratio_refuted : forall F x jn b iA iB rd a d k, fitting F -> (k < f_levels F)%nat -> jn k <> 0 -> f_ijac F k = / jn k ->
  areas_read b iA iB (f_levels F) = Some rd -> (forall m, f_jac_e F m = areas_of b iA iB m) -> a <> 0 ->
  full_equation (f_levels F) (fun c q => entry_of (prepare F x) FR k c q) d (build_f F x x FR k) ->
  apply_op (f_den F) (fun m => (data b (m, iA, iB) - data b (iA, iB, m)) * apply_op (f_ine F) (d FR) m * xi (prepare F x) m) k <> 0 ->
  ~ solves (f_levels F) (tracer_entry F x jn (f_up_r F) rd) (tracer_rhs F x jn (f_up_r F) (fun m => x FW m - d FW m) (fun q => a * x FR q)) (fun q => a * d FR q).
Proof.
  intros F x jn b iA iB rd a d k FT K NZ E RD JE A H N S. unfold solves in S. specialize (S k K). rewrite (C131_difference F x jn rd a d k FT K NZ E H) in S.
  unfold areas_read in RD. destruct (forallb _ _); [|discriminate]. assert (rd = fun m => data b (m, iA, iB)) as -> by congruence.
  apply N. rewrite (apply_lin (f_den F) k (fun m => (data b (m, iA, iB) - f_jac_e F m) * apply_op (f_ine F) (d FR) m * xi (prepare F x) m) (fun _ => 0) _ 1 0) by (intros m _; rewrite JE; unfold areas_of; ring).
  match type of S with ?u + a * (?z / _) = ?u => assert (a * (z / jn k) = 0) as Z by lra; apply Rmult_integral in Z; destruct Z as [Z|Z]; [contradiction|]; assert (z = 0) as ->; [|ring];
    apply (Rmult_eq_reg_r (/ jn k)); [unfold Rdiv in Z; rewrite Z; ring|apply Rinv_neq_0_compat; exact NZ] end.
Qed.
Print Assumptions C131_ratio_refuted.

(** ** and outside of the array unless the patch has more nodes along alpha than the
    column has levels, and the column is not too far along beta. *)
Theorem C131_outside : forall b iA iB n, areas_read b iA iB n = None <-> (size_a b <= n \/ size_b b <= iA \/ size_r b <= iB)%nat.
Proof.
  intros b iA iB n. unfold areas_read. destruct (forallb (fun m => holds b (m, iA, iB)) (seq 0 (S n))) eqn:E.
  - split; [discriminate|]. intros H. exfalso. rewrite forallb_forall in E. specialize (E n ltac:(apply in_seq; lia)). cbn [holds] in E. rewrite !andb_true_iff, !Nat.ltb_lt in E. lia.
  - split; [|reflexivity]. intros _. assert ((size_a b <= n \/ size_b b <= iA \/ size_r b <= iB) \/ (n < size_a b /\ iA < size_b b /\ iB < size_r b))%nat as [H|H] by lia; [exact H|exfalso].
    revert E. apply not_false_iff_true. apply forallb_forall. intros m I. apply in_seq in I. cbn [holds]. rewrite !andb_true_iff, !Nat.ltb_lt. lia.
Qed.
Print Assumptions C131_outside.

(** ** What the column holds of a tracer is kept, whatever the areas in the matrix. *)
Theorem C131_content : forall F x jn rd om w t dq, fitting F -> f_step F <> 0 -> (forall k, (k < f_levels F)%nat -> jn k <> 0) ->
  (forall h, h 0%nat = 0 -> h (f_levels F) = 0 -> total (seq 0 (f_levels F)) (fun k => om k * apply_op (f_den F) h k) = 0) ->
  solves (f_levels F) (tracer_entry F x jn false rd) (tracer_rhs F x jn false w t) dq ->
  forall old, held (f_levels F) om jn (fun k => old k - dq k) = held (f_levels F) om jn old.
Proof.
  intros F x jn rd om w t dq FT ST J TE S old. unfold solves in S. set (n := f_levels F) in *.
  assert (within n 0 = false) as W0 by reflexivity. assert (within n n = false) as Wn by (unfold within; rewrite Nat.ltb_irrefl; apply andb_false_r).
  assert (held n om jn dq = 0) as H0.
  { pose proof (TE (fun m => rd m * apply_op (f_ine F) dq m * xi (prepare F x) m)) as T1. pose proof (TE (tracer_flux F x w t)) as T2.
    unfold tracer_flux in T2. fold n in T2. rewrite W0, Wn in T2. specialize (T2 eq_refl eq_refl). fold n in T1.
    assert (xi (prepare F x) 0%nat = 0) as X0 by reflexivity. assert (xi (prepare F x) n = 0) as Xn by (unfold prepare; cbn [xi]; fold n; rewrite Wn; reflexivity). cbv beta in T1. rewrite X0, Xn, !Rmult_0_r in T1. specialize (T1 eq_refl eq_refl).
    unfold held. rewrite total_add in *. apply (Rmult_eq_reg_r (1 / f_step F)); [|unfold Rdiv; rewrite Rmult_1_l; apply Rinv_neq_0_compat; exact ST]. rewrite Rmult_0_l, <- add_over_scal.
    transitivity (add_over (seq 0 n) (fun k => om k * apply_op (f_den F) (tracer_flux F x w t) k - om k * apply_op (f_den F) (fun m => rd m * apply_op (f_ine F) dq m * xi (prepare F x) m) k)).
    - apply add_over_ext. intros k I. apply in_seq in I. assert (k < n)%nat as K by lia. pose proof (S k K) as Sk. cbv beta in Sk. unfold n in Sk. rewrite (entry_row F x jn false rd dq k FT K) in Sk. fold n in Sk. unfold tracer_rhs in Sk. change (d_en (prepare F x)) with (f_den F) in Sk.
      rewrite (apply_lin (f_den F) k (fun m => rd m * apply_op (f_ine F) dq m * xi (prepare F x) m) (fun _ => 0) (fun m => rd m / jn k * apply_op (f_ine F) dq m * xi (prepare F x) m) (/ jn k) 0) in Sk by (intros m _; field; apply J; exact K).
      match type of Sk with / jn k * ?u + 0 * _ - 0 + ?v = ?z / jn k - 0 => assert (v = (z - u) / jn k) as EV by (unfold Rdiv in *; lra) end.
      rewrite Rmult_assoc, EV. field. apply J. exact K.
    - rewrite add_over_minus. unfold tracer_flux. fold n. rewrite T2, T1. ring. }
  unfold held in *. rewrite !total_add in *. rewrite (add_over_ext _ (fun k => om k * jn k * (old k - dq k)) (fun k => om k * jn k * old k - om k * jn k * dq k)) by (intros; ring). rewrite add_over_minus, H0. ring.
Qed.
Print Assumptions C131_content.

(** two levels with uneven weights; the area grows along alpha *)
Definition uneven : frame :=
  Frame 2 1 (PhysModel.Constants 1 1 1 0 1 2 1 1 1 1 1 1 1 1 1) (divergence_op (fun k m => if Nat.eqb m k then -1 else 1)) (gradient_op 1 2 (fun k m => if Nat.eqb (S m) k then -1 else 1))
    (interpolation_op 1 2 (fun _ q => if Nat.eqb q 0 then 1 / 4 else 3 / 4)) (left_op 1 2 (fun _ _ => 1)) (right_op 1 2 (fun _ _ => 1)) (fun _ => 1) (fun _ => 1) (fun _ => 1) (fun _ => 1) (fun _ => 1) (fun _ => 1) false false.
Definition still : unknowns := fun c _ => if Nat.eqb c FW then 0 else 1.
Definition shift : unknowns := fun c q => if Nat.eqb c FR then (if Nat.eqb q 0 then 2 else if Nat.eqb q 1 then -2 else 0) else 0.
Lemma uneven_fitting : fitting uneven.
Proof.
  unfold fitting. cbn [f_levels uneven]. repeat split; intros k K q I; (destruct k as [|[|[|k]]]; [| | |exfalso; lia]); cbn in I; cbn; try lia; intuition lia.
Qed.
Lemma uneven_equation k : (k < 2)%nat -> full_equation 2 (fun c q => entry_of (prepare uneven still) FR k c q) shift (build_f uneven still still FR k).
Proof.
  intros K. assert (k = 0 \/ k = 1)%nat as [->| ->] by lia; unfold full_equation; cbn; unfold shift, still, FW, FP, FR; cbn; unfold add_over, apply_op, columns; cbn;
    unfold level_level, level_velocity, build_f, level_equation, flux, flux_coefficient, n_, add_over, apply_op, columns, within; cbn; unfold within, apply_op, columns, add_over; cbn; unfold FW, FP, FR; cbn; lra.
Qed.
Example C131_case : exists F x jn b iA iB rd d, fitting F /\ areas_read b iA iB (f_levels F) = Some rd /\ (forall m, f_jac_e F m = areas_of b iA iB m) /\
  (forall k, (k < f_levels F)%nat -> jn k <> 0 /\ f_ijac F k = / jn k) /\
  (forall k, (k < f_levels F)%nat -> full_equation (f_levels F) (fun c q => entry_of (prepare F x) FR k c q) d (build_f F x x FR k)) /\
  ~ solves (f_levels F) (tracer_entry F x jn (f_up_r F) rd) (tracer_rhs F x jn (f_up_r F) (fun m => x FW m - d FW m) (fun q => 1 * x FR q)) (fun q => 1 * d FR q).
Proof.
  set (b := Block 5 5 3 (fun s => let '(i, _, _) := s in INR i + 1)).
  exists uneven, still, (fun _ => 1), b, 0%nat, 0%nat, (fun m => data b (m, 0, 0)%nat), shift. split; [exact uneven_fitting|]. split; [reflexivity|]. split; [intros m; cbn; ring|].
  split; [intros k _; cbn; lra|]. split; [exact uneven_equation|].
  apply (C131_ratio_refuted uneven still (fun _ => 1) b 0 0 _ 1 shift 0 uneven_fitting).
  - cbn. lia.
  - cbn. lra.
  - cbn. lra.
  - reflexivity.
  - intros m. cbn. ring.
  - lra.
  - apply uneven_equation. lia.
  - unfold apply_op, add_over, columns. cbn. unfold shift, still, FW, FR, apply_op, add_over, columns. cbn. lra.
Qed.
Example C131_content_case : fitting uneven /\ forall h, h 0%nat = 0 -> h 2%nat = 0 -> total (seq 0 2) (fun k => 1 * apply_op (f_den uneven) h k) = 0.
Proof. split; [exact uneven_fitting|]. intros h H0 H2. unfold apply_op, add_over, columns. cbn. lra. Qed.
