(** * Proofs about the column equations *)
From Coq Require Import Reals List Bool Lia Lra.
From Verif Require Import SchurModel SchurJacModel SchurFModel SchurFSpec DlimProofs.
From Verif Require PhysModel.
Import ListNotations.
Local Open Scope R_scope.

Lemma add_over_acc l h : forall a, fold_left (fun s m => s + h m) l a = a + add_over l h.
Proof.
  induction l as [|m l IH]; intros a; unfold add_over; cbn [fold_left]; [lra|]. rewrite !IH. lra.
Qed.
Lemma add_over_cons m l h : add_over (m :: l) h = h m + add_over l h.
Proof. unfold add_over at 1. cbn [fold_left]. rewrite add_over_acc. lra. Qed.
Lemma add_over_ext l f h : (forall m, In m l -> f m = h m) -> add_over l f = add_over l h.
Proof.
  induction l as [|m l IH]; intros E; [reflexivity|]. rewrite !add_over_cons, (E m (or_introl eq_refl)), IH; [reflexivity|]. intros q I. apply E. right. exact I.
Qed.
Lemma add_over_scal l f a : add_over l (fun m => f m * a) = add_over l f * a.
Proof. induction l as [|m l IH]; [unfold add_over; cbn; lra|]. rewrite !add_over_cons, IH. ring. Qed.
Lemma add_over_zero l : add_over l (fun _ => 0) = 0.
Proof. induction l as [|m l IH]; [reflexivity|]. rewrite add_over_cons, IH. lra. Qed.
Lemma add_over_one l q h : NoDup l -> add_over l (fun m => if Nat.eqb m q then h m else 0) = if has l q then h q else 0.
Proof.
  induction l as [|m l IH]; intros D; [reflexivity|]. inversion D as [|? ? NI D']; subst. rewrite add_over_cons, (IH D'). unfold has. cbn [existsb].
  rewrite (Nat.eqb_sym q m). destruct (Nat.eqb_spec m q) as [->|N]; cbn [orb].
  - assert (existsb (Nat.eqb q) l = false) as ->; [|lra]. destruct (existsb (Nat.eqb q) l) eqn:E; [|reflexivity]. exfalso. apply existsb_exists in E. destruct E as (y & I & Q). apply Nat.eqb_eq in Q. subst y. contradiction.
  - lra.
Qed.
Lemma columns_nodup o k : NoDup (columns o k).
Proof. apply seq_NoDup. Qed.
Lemma D_add_over l (f : nat -> R -> R) (f' : nat -> R) t : (forall m, In m l -> derivable_pt_lim (f m) t (f' m)) ->
  derivable_pt_lim (fun s => add_over l (fun m => f m s)) t (add_over l f').
Proof.
  induction l as [|m l IH]; intros H.
  - exact (D_const 0 t).
  - rewrite add_over_cons. apply (D_ext (fun s => f m s + add_over l (fun q => f q s))); [intros y; symmetry; apply add_over_cons|].
    apply D_plus; [apply H; left; reflexivity|apply IH; intros q I; apply H; right; exact I].
Qed.
(** an operator applied to a moving column *)
Lemma D_apply o (h : nat -> R -> R) (h' : nat -> R) k t : (forall m, In m (columns o k) -> derivable_pt_lim (h m) t (h' m)) ->
  derivable_pt_lim (fun s => apply_op o (fun m => h m s) k) t (apply_op o h' k).
Proof.
  intros H. unfold apply_op. apply (D_add_over _ (fun m s => co o k m * h m s)). intros m I. apply (D_eq _ _ (0 * h m t + co o k m * h' m)); [|ring].
  apply (D_mult (fun _ => co o k m)); [apply D_const|apply H; exact I].
Qed.
Lemma apply_one o k q (h : nat -> R) : apply_op o (fun m => if Nat.eqb m q then h m else 0) k = if has (columns o k) q then co o k q * h q else 0.
Proof.
  unfold apply_op. rewrite <- (add_over_one _ q (fun m => co o k m * h m) (columns_nodup o k)). apply add_over_ext. intros m _. destruct (Nat.eqb m q); ring.
Qed.
Lemma apply_zero o k h : (forall m, In m (columns o k) -> h m = 0) -> apply_op o h k = 0.
Proof. intros H. unfold apply_op. rewrite <- (add_over_zero (columns o k)). apply add_over_ext. intros m I. rewrite (H m I). ring. Qed.

(** the absolute value of an affine function *)
Lemma sign_abs v : v <> 0 -> derivable_pt_lim Rabs v (sign_of v).
Proof.
  intros N. unfold sign_of. destruct (Rlt_dec 0 v) as [P|P]; [apply Rabs_derive_1; lra|]. destruct (Rlt_dec v 0) as [Q|Q]; [apply Rabs_derive_2; lra|lra].
Qed.
Lemma D_abs f t a : derivable_pt_lim f t a -> f t <> 0 -> derivable_pt_lim (fun s => Rabs (f s)) t (sign_of (f t) * a).
Proof. intros D N. apply (derivable_pt_lim_comp f Rabs); [exact D|apply sign_abs; exact N]. Qed.

Section Derivative.
Context (F : frame) (old x : unknowns) (c0 k0 : nat).
Let n := f_levels F.
Let X := fun t => moved_by x c0 k0 t.
Let C := prepare F x.
(** the derivative of an unknown *)
Definition unit_at (c k : nat) : R := if (Nat.eqb c c0 && Nat.eqb k k0)%bool then 1 else 0.

Lemma X0 c k : X 0 c k = x c k.
Proof. unfold X, moved_by. destruct (Nat.eqb c c0 && Nat.eqb k k0)%bool; lra. Qed.
Lemma D_x c k : derivable_pt_lim (fun t => X t c k) 0 (unit_at c k).
Proof.
  unfold X, moved_by, unit_at. destruct (Nat.eqb c c0 && Nat.eqb k k0)%bool; [|apply D_const].
  apply (D_eq _ _ (0 + 1)); [|lra]. apply (D_plus (fun _ => x c k)); [apply D_const|apply D_id].
Qed.
Definition edge' (c m : nat) : R := if Nat.eqb c c0 then if has (columns (f_ine F) m) k0 then co (f_ine F) m k0 else 0 else 0.
Lemma D_edge c m : derivable_pt_lim (fun t => apply_op (f_ine F) (X t c) m) 0 (edge' c m).
Proof.
  apply (D_eq _ _ (apply_op (f_ine F) (unit_at c) m)); [apply (D_apply _ (fun q t => X t c q)); intros q _; apply D_x|].
  unfold edge', unit_at. destruct (Nat.eqb c c0); cbn [andb]; [|apply apply_zero; reflexivity].
  rewrite (apply_one _ m k0 (fun _ => 1)). destruct (has (columns (f_ine F) m) k0); ring.
Qed.
Lemma edge0 c m : apply_op (f_ine F) (X 0 c) m = apply_op (f_ine F) (x c) m.
Proof. unfold apply_op. apply add_over_ext. intros q _. rewrite X0. reflexivity. Qed.

Definition xi_of (t : R) (m : nat) : R := xi (prepare F (X t)) m.
Definition xi' (m : nat) : R := if within n m then f_con_e F m * (unit_at FW m * f_der_e F m) else 0.
Lemma xi0 m : xi_of 0 m = xi C m.
Proof. unfold xi_of, C, prepare. cbn [xi]. rewrite X0. reflexivity. Qed.
Lemma D_xi m : derivable_pt_lim (fun t => xi_of t m) 0 (xi' m).
Proof.
  unfold xi_of, xi', prepare. cbn [xi]. fold n. destruct (within n m); [|apply D_const].
  pose proof (D_mult (fun t => X t FW m) (fun _ => f_der_e F m) 0 _ _ (D_x FW m) (D_const _ 0)) as D1.
  pose proof (D_mult (fun _ => f_con_e F m) _ 0 _ _ (D_const _ 0) D1) as D2.
  pose proof (D_plus (fun _ => f_across F m) _ 0 _ _ (D_const _ 0) D2) as D3. apply (D_eq _ _ _ _ D3). ring.
Qed.
Lemma D_abs_xi m : (c0 = FW -> k0 = m -> within n m = true -> xi C m <> 0) -> derivable_pt_lim (fun t => Rabs (xi_of t m)) 0 (sign_of (xi C m) * xi' m).
Proof.
  intros H. destruct (within n m && (Nat.eqb FW c0 && Nat.eqb m k0))%bool eqn:E.
  - apply andb_prop in E. destruct E as (W & E). apply andb_prop in E. destruct E as (E1 & E2). apply Nat.eqb_eq in E1, E2.
    rewrite <- xi0. apply (D_abs (fun t => xi_of t m)); [apply D_xi|]. rewrite xi0. apply H; auto.
  - assert (xi' m = 0) as ->. { unfold xi', unit_at. destruct (within n m); [|reflexivity]. cbn [andb] in E. rewrite E. ring. }
    rewrite Rmult_0_r. apply (D_ext (fun _ => Rabs (xi C m))); [|apply D_const]. intros t. rewrite <- xi0. f_equal. unfold xi_of, prepare. cbn [xi]. fold n.
    destruct (within n m); [|reflexivity]. cbn [andb] in E. unfold X, moved_by. rewrite E. reflexivity.
Qed.

(** the Exner pressure *)
Definition exner' (q : nat) : R := unit_at FP q * (exner C q * PhysModel.gas (f_phys F) / (PhysModel.cp (f_phys F) - PhysModel.gas (f_phys F)) / x FP q).
Lemma D_exner q : 0 < PhysModel.gas (f_phys F) -> 0 < PhysModel.p0 (f_phys F) -> PhysModel.cp (f_phys F) - PhysModel.gas (f_phys F) <> 0 -> 0 < x FP q ->
  derivable_pt_lim (fun t => PhysModel.exner_from_rhotheta (f_phys F) (X t FP q)) 0 (exner' q).
Proof.
  intros G P V Q. unfold PhysModel.exner_from_rhotheta, exner'. unfold C, prepare. cbn [exner]. unfold PhysModel.exner_from_rhotheta.
  set (gs := PhysModel.gas (f_phys F)) in *. set (p := PhysModel.p0 (f_phys F)) in *. set (cpp := PhysModel.cp (f_phys F)) in *.
  pose proof (D_x FP q) as D. pose proof (X0 FP q) as E0.
  assert (0 < gs / p) as GP by (apply Rdiv_lt_0_compat; assumption).
  assert (0 < gs / p * X 0 FP q) as L by (rewrite E0; apply Rmult_lt_0_compat; assumption).
  pose proof (D_mult (fun _ => gs / p) (fun t => X t FP q) 0 _ _ (D_const (gs / p) 0) D) as D1.
  pose proof (D_ln (fun t => gs / p * X t FP q) 0 _ D1 L) as D2.
  pose proof (D_mult (fun _ => gs / (cpp - gs)) (fun t => ln (gs / p * X t FP q)) 0 _ _ (D_const _ 0) D2) as D3.
  pose proof (D_exp (fun t => gs / (cpp - gs) * ln (gs / p * X t FP q)) 0 _ D3) as D4.
  pose proof (D_mult (fun _ => cpp) (fun t => exp (gs / (cpp - gs) * ln (gs / p * X t FP q))) 0 _ _ (D_const cpp 0) D4) as D5.
  apply (D_eq _ _ _ _ D5). cbv beta. rewrite E0. generalize (exp (gs / (cpp - gs) * ln (gs / p * x FP q))). intros e. generalize (ln (gs / p * x FP q)). intros l0. generalize (unit_at FP q). intros u. field. repeat split; lra.
Qed.

(** the equation of a component on levels *)
Definition flux' (c m : nat) : R := if within n m then f_jac_e F m * (edge' c m * xi C m + state_e C c m * xi' m) else 0.
Definition side' (o : column_op) (c k m : nat) : R := apply_op o (unit_at c) k * Rabs (xi C m) + apply_op o (x c) k * (sign_of (xi C m) * xi' m).
Definition level' (c k : nat) : R :=
  apply_op (f_den F) (flux' c) k * f_ijac F k
  - (if upwinds C c then (if Nat.ltb (k + 1) n then side' (f_penl F) c k (k + 1) else 0) + (if Nat.leb 1 k then side' (f_penr F) c k k else 0) else 0).
Lemma state_n_at c t : c = FP \/ c = FR -> state_n (prepare F (X t)) c = X t c.
Proof. intros [->| ->]; reflexivity. Qed.
Lemma state_e_at c t m : c = FP \/ c = FR -> state_e (prepare F (X t)) c m = apply_op (f_ine F) (X t c) m.
Proof. intros [->| ->]; reflexivity. Qed.
Lemma state_e_C c m : c = FP \/ c = FR -> state_e C c m = apply_op (f_ine F) (x c) m.
Proof. intros [->| ->]; reflexivity. Qed.
Lemma D_flux c m : c = FP \/ c = FR -> derivable_pt_lim (fun t => flux (prepare F (X t)) c m) 0 (flux' c m).
Proof.
  intros Hc. unfold flux, flux'. cbn [levels_ prepare jac_e]. fold n. destruct (within n m); [|apply D_const].
  apply (D_ext (fun t => f_jac_e F m * apply_op (f_ine F) (X t c) m * xi_of t m)); [intros t; rewrite (state_e_at c t m Hc); reflexivity|].
  pose proof (D_mult (fun _ => f_jac_e F m) (fun t => apply_op (f_ine F) (X t c) m) 0 _ _ (D_const _ 0) (D_edge c m)) as D1.
  pose proof (D_mult _ (fun t => xi_of t m) 0 _ _ D1 (D_xi m)) as D2. apply (D_eq _ _ _ _ D2). cbv beta. rewrite edge0, xi0, (state_e_C c m Hc). ring.
Qed.
Lemma D_side o c k m : (c0 = FW -> k0 = m -> within n m = true -> xi C m <> 0) ->
  derivable_pt_lim (fun t => apply_op o (X t c) k * Rabs (xi_of t m)) 0 (side' o c k m).
Proof.
  intros H. pose proof (D_apply o (fun q t => X t c q) (unit_at c) k 0 (fun q _ => D_x c q)) as D1.
  pose proof (D_mult _ (fun t => Rabs (xi_of t m)) 0 _ _ D1 (D_abs_xi m H)) as D2. apply (D_eq _ _ _ _ D2). cbv beta. rewrite xi0. unfold side'. f_equal. f_equal.
  unfold apply_op. apply add_over_ext. intros q _. rewrite X0. reflexivity.
Qed.
Lemma D_level c k : c = FP \/ c = FR -> (upwinds C c = true -> c0 = FW -> within n k0 = true -> (k0 = k \/ k0 = k + 1)%nat -> xi C k0 <> 0) ->
  derivable_pt_lim (fun t => level_equation (prepare F (X t)) c k) 0 (level' c k).
Proof.
  intros Hc H. unfold level_equation, level'. apply D_minus.
  - apply (D_eq _ _ (apply_op (f_den F) (flux' c) k * f_ijac F k + apply_op (f_den F) (fun m => flux (prepare F (X 0)) c m) k * 0)); [|ring].
    apply (D_mult (fun t => apply_op (f_den F) (fun m => flux (prepare F (X t)) c m) k) (fun _ => f_ijac F k)); [|apply D_const].
    apply (D_apply _ (fun m t => flux (prepare F (X t)) c m)). intros m _. apply D_flux. exact Hc.
  - change (fun y => if upwinds (prepare F (X y)) c then penalty (prepare F (X y)) (state_n (prepare F (X y)) c) k else 0)
      with (fun y => if upwinds C c then penalty (prepare F (X y)) (state_n (prepare F (X y)) c) k else 0).
    destruct (upwinds C c) eqn:U; [|apply D_const]. unfold penalty. cbn [levels_ prepare pen_l pen_r]. fold n. apply D_plus.
    + destruct (Nat.ltb (k + 1) n); [|apply D_const].
      apply (D_ext (fun t => apply_op (f_penl F) (X t c) k * Rabs (xi_of t (k + 1)))); [intros t; rewrite (state_n_at c t Hc); reflexivity|].
      apply D_side. intros A B W. rewrite <- B. apply (H eq_refl A); [rewrite B; exact W|right; exact B].
    + destruct (Nat.leb_spec 1 k) as [L|L]; [|apply D_const].
      apply (D_ext (fun t => apply_op (f_penr F) (X t c) k * Rabs (xi_of t k))).
      { intros t. rewrite (state_n_at c t Hc). unfold weight. replace (k - 1 + 1)%nat with k by lia. reflexivity. }
      apply D_side. intros A B W. rewrite <- B. apply (H eq_refl A); [rewrite B; exact W|left; exact B].
Qed.

(** the equation of the velocity *)
Definition velocity' (k : nat) : R :=
  (apply_op (f_dne F) exner' k * p_e C k + dp_e C k * edge' FP k) / r_e C k / f_der_e F k - dp_e C k * p_e C k * edge' FR k / (r_e C k * r_e C k) / f_der_e F k.
Lemma D_velocity k : 0 < PhysModel.gas (f_phys F) -> 0 < PhysModel.p0 (f_phys F) -> PhysModel.cp (f_phys F) - PhysModel.gas (f_phys F) <> 0 ->
  (forall q, In q (columns (f_dne F) k) -> 0 < x FP q) -> r_e C k <> 0 -> f_der_e F k <> 0 ->
  derivable_pt_lim (fun t => velocity_equation (prepare F (X t)) (PhysModel.g (f_phys F)) k) 0 (velocity' k).
Proof.
  intros G P V Q RE DE. unfold velocity_equation. cbn [dp_e p_e r_e der_e prepare].
  pose proof (D_apply (f_dne F) (fun q t => PhysModel.exner_from_rhotheta (f_phys F) (X t FP q)) exner' k 0 (fun q I => D_exner q G P V (Q q I))) as D1.
  assert (apply_op (f_ine F) (X 0 FR) k <> 0) as RE' by (rewrite edge0; exact RE).
  pose proof (D_mult _ (fun t => apply_op (f_ine F) (X t FP) k) 0 _ _ D1 (D_edge FP k)) as D2.
  pose proof (D_div _ (fun t => apply_op (f_ine F) (X t FR) k) 0 _ _ D2 (D_edge FR k) RE') as D3.
  pose proof (D_div _ (fun _ => f_der_e F k) 0 _ _ D3 (D_const _ 0) DE) as D4.
  pose proof (D_plus _ (fun _ => PhysModel.g (f_phys F)) 0 _ _ D4 (D_const _ 0)) as D5. apply (D_eq _ _ _ _ D5). clear D1 D2 D3 D4 D5. cbv beta. rewrite !edge0 in *.
  assert (apply_op (f_dne F) (fun m => PhysModel.exner_from_rhotheta (f_phys F) (X 0 FP m)) k = dp_e C k) as ->.
  { unfold C, prepare. cbn [dp_e]. unfold apply_op. apply add_over_ext. intros q _. rewrite X0. reflexivity. }
  change (apply_op (f_ine F) (x FP) k) with (p_e C k). change (apply_op (f_ine F) (x FR) k) with (r_e C k). unfold velocity', Rsqr.
  field. split; assumption.
Qed.
End Derivative.
