(** * The rows of the flux-corrected derivative and of the operators on levels *)
From Coq Require Import Reals List Arith Lia Lra Bool.
From Verif Require Import QuadSpec InterpModel InterpSpec InterpProofs ColModel ColSpec ColProofs FemModel FemSpec FemProofs FemProofs2 FluxModel FluxSpec FluxProofs.
Import ListNotations.
Local Open Scope R_scope.

(** ** Rows given by a function *)
Definition row_is (n : nat) (r : list R) (f : nat -> R) : Prop := length r = n /\ forall k, (k < n)%nat -> val r k = f k.
Lemma zero_is n : row_is n (zero_row n) (fun _ => 0).
Proof. split; [apply zero_row_length|intros; apply zero_row_val]. Qed.
Lemma put_is n r f off c : row_is n r f -> (off + length c <= n)%nat -> (forall k, (off <= k < off + length c)%nat -> f k = 0) ->
  exists r', put r off c = Some r' /\ row_is n r' (fun k => f k + block off c k).
Proof.
  intros (L & V) B Z. destruct (put_ok r off c) as (r' & E & L' & V').
  { lia. } { intros k Hk. rewrite V by lia. apply Z, Hk. }
  exists r'. split; [exact E|]. split; [lia|]. intros k Hk. rewrite V', V by lia. reflexivity.
Qed.
Lemma add_is n r f off w c : row_is n r f -> (off + length c <= n)%nat ->
  exists r', add r off w c = Some r' /\ row_is n r' (fun k => f k + w * block off c k).
Proof.
  intros (L & V) B. destruct (add_ok r off w c) as (r' & E & L' & V'). { lia. }
  exists r'. split; [exact E|]. split; [lia|]. intros k Hk. rewrite V', V by lia. reflexivity.
Qed.
Lemma modify_is n r f g : row_is n r f -> exists r', modify r 0 n (fun _ v => g v) = Some r' /\ row_is n r' (fun k => g (f k)).
Proof.
  intros (L & V). destruct (modify_ok r 0 n (fun _ v => g v)) as (r' & E & L' & V'). { lia. }
  exists r'. split; [exact E|]. split; [lia|]. intros k Hk. rewrite V' by lia.
  destruct (Nat.leb_spec 0 k) as [_|Q]; [|lia]. destruct (Nat.ltb_spec k (0 + n)) as [_|Q]; [|lia]. cbn [andb]. rewrite V by lia. reflexivity.
Qed.
Lemma scale_is n r f w : row_is n r f -> exists r', scale r 0 n w = Some r' /\ row_is n r' (fun k => f k * w).
Proof. intros H. exact (modify_is n r f (fun v => v * w) H). Qed.
Lemma row_is_ext n r f g : (forall k, (k < n)%nat -> f k = g k) -> row_is n r f -> row_is n r g.
Proof. intros E (L & V). split; [exact L|]. intros k Hk. rewrite V by exact Hk. apply E, Hk. Qed.

(** a block of exact weights applied to a column *)
Lemma block_apply k m xs off s c u p g : exact_derivative k m (fun j => nth (off + j) xs 0) s c -> (off + m <= length xs)%nat ->
  interpolates m xs off u p -> nth_derivative k (peval p) g -> sum (fun l => block off c l * u l) (length xs) = g s.
Proof.
  intros X L (Lp & Hp) Hg. pose proof (exact_length _ _ _ _ _ X) as Lc.
  rewrite block_sum by lia. destruct X as (_ & X). rewrite <- (X p g Lp Hg), weighted_sum, Lc.
  apply sum_ext. intros i Hi. rewrite Hp by lia. reflexivity.
Qed.
Lemma derive_poly p : exists g, (forall x, derivable_pt_lim (peval p) x (g x)).
Proof.
  induction p as [|a r (g & H)].
  - exists (fun _ => 0). intros x. apply (derivable_pt_lim_const 0).
  - exists (fun x => peval r x + x * g x). intros x. cbn [peval].
    replace (peval r x + x * g x) with (0 + (1 * peval r x + x * g x)) by ring.
    apply (derivable_pt_lim_plus (fun _ => a) (fun x => x * peval r x)); [apply derivable_pt_lim_const|].
    apply (derivable_pt_lim_mult (fun x => x) (peval r)); [apply derivable_pt_lim_id|apply H].
Qed.
Lemma nth_derivative_1 f g : (forall x, derivable_pt_lim f x (g x)) -> nth_derivative 1 f g.
Proof. intros H. exists g. split; [exact H|intros t; reflexivity]. Qed.

(** ** The correction function of type two *)
Section Slope.
Context (sol : nat -> nat -> nat -> R) (o : nat) (Ho : (0 < o)%nat).
Context (Sol : solves (o + 1 + 1) (van 2 (o + 1)) rhs (sol 2%nat (o + 1)%nat)).
Definition cpoly : list R := lower (o + 1) (sol 2%nat (o + 1)%nat).
Definition cslope (nu : R) : R := deriv_at (o + 1) (sol 2%nat (o + 1)%nat) nu.
Lemma correction_slope_ok nu : correction_slope sol o nu = Some (cslope nu).
Proof. unfold correction_slope. rewrite get_derivatives_ok by (try lia; discriminate). reflexivity. Qed.
Lemma cpoly_ok : correction 2 (o + 1) cpoly.
Proof. apply solution_correction; [lia|exact Sol]. Qed.
Lemma cpoly_1 : peval cpoly 1 = 1. Proof. apply cpoly_ok. Qed.
Lemma cpoly_m1 : peval cpoly (-1) = 0.
Proof. destruct cpoly_ok as (_ & _ & (Q & _ & H) & _). rewrite H. cbn. ring. Qed.
Lemma cslope_0 : cslope 0 = 0.
Proof.
  destruct cpoly_ok as (_ & _ & (Q & _ & H) & _).
  apply (uniqueness_limite (fun z => peval cpoly (2 * z - 1)) 0); [apply deriv_at_ok|].
  destruct (derive_poly Q) as (g & Hg).
  apply derivable_ext with (f := fun z => (z * z) * (4 * peval Q (2 * z - 1))).
  { intros z. rewrite H. cbn. ring. }
  assert (D : derivable_pt_lim (fun z => 4 * peval Q (2 * z - 1)) 0 (4 * (g (2 * 0 - 1) * 2))).
  { apply (derivable_pt_lim_scal (fun z => peval Q (2 * z - 1))). apply (derivable_pt_lim_comp (fun z => 2 * z - 1) (peval Q)); [|apply Hg].
    assert (E : derivable_pt_lim (fun z => 2 * z - 1) 0 (2 * 1 - 0)).
    { apply (derivable_pt_lim_minus (fun z => 2 * z) (fun _ => 1)); [|apply derivable_pt_lim_const].
      apply (derivable_pt_lim_scal (fun z => z)), derivable_pt_lim_id. }
    replace (2 * 1 - 0) with 2 in E by ring. exact E. }
  assert (Q2 : derivable_pt_lim (fun z => z * z) 0 (1 * 0 + 0 * 1)).
  { apply (derivable_pt_lim_mult (fun z => z) (fun z => z)); apply derivable_pt_lim_id. }
  pose proof (derivable_pt_lim_mult _ _ _ _ _ Q2 D) as M. cbv beta in M.
  replace ((1 * 0 + 0 * 1) * (4 * peval Q (2 * 0 - 1)) + 0 * 0 * (4 * (g (2 * 0 - 1) * 2))) with 0 in M by ring. exact M.
Qed.
(** derivatives of the two corrections on an element *)
Lemma right_derive a b y : a < b -> derivable_pt_lim (fun x => peval cpoly (local a b x)) y (cslope ((y - a) / (b - a)) / (b - a)).
Proof.
  intros AB. apply derivable_ext with (f := fun x => peval cpoly (2 * ((x - a) / (b - a)) - 1)).
  { intros x. f_equal. unfold local. field. lra. }
  unfold Rdiv at 2. apply (derivable_pt_lim_comp (fun x => (x - a) / (b - a)) (fun z => peval cpoly (2 * z - 1))); [|apply deriv_at_ok].
  assert (E : derivable_pt_lim (fun x => / (b - a) * (x - a)) y (/ (b - a) * (1 - 0))).
  { apply (derivable_pt_lim_scal (fun x => x - a)), (derivable_pt_lim_minus (fun x => x) (fun _ => a)); [apply derivable_pt_lim_id|apply derivable_pt_lim_const]. }
  replace (/ (b - a) * (1 - 0)) with (/ (b - a)) in E by ring. apply (derivable_ext (fun x => / (b - a) * (x - a))); [|exact E].
  intros; unfold Rdiv; ring.
Qed.
Lemma left_derive a b y : a < b -> derivable_pt_lim (fun x => peval cpoly (- local a b x)) y (- cslope (1 - (y - a) / (b - a)) / (b - a)).
Proof.
  intros AB. apply derivable_ext with (f := fun x => peval cpoly (2 * (1 - (x - a) / (b - a)) - 1)).
  { intros x. f_equal. unfold local. field. lra. }
  replace (- cslope (1 - (y - a) / (b - a)) / (b - a)) with (cslope (1 - (y - a) / (b - a)) * - / (b - a)) by (unfold Rdiv; ring).
  apply (derivable_pt_lim_comp (fun x => 1 - (x - a) / (b - a)) (fun z => peval cpoly (2 * z - 1))); [|apply deriv_at_ok].
  assert (E : derivable_pt_lim (fun x => 1 - / (b - a) * (x - a)) y (0 - / (b - a) * (1 - 0))).
  { apply (derivable_pt_lim_minus (fun _ => 1) (fun x => / (b - a) * (x - a))); [apply derivable_pt_lim_const|].
    apply (derivable_pt_lim_scal (fun x => x - a)), (derivable_pt_lim_minus (fun x => x) (fun _ => a)); [apply derivable_pt_lim_id|apply derivable_pt_lim_const]. }
  replace (0 - / (b - a) * (1 - 0)) with (- / (b - a)) in E by ring. apply (derivable_ext (fun x => 1 - / (b - a) * (x - a))); [|exact E].
  intros; unfold Rdiv; ring.
Qed.
Lemma corrected_derive p g a b jl jr y : a < b -> (forall x, derivable_pt_lim (peval p) x (g x)) ->
  derivable_pt_lim (corrected cpoly p a b jl jr) y
    (g y + jr * (cslope ((y - a) / (b - a)) / (b - a)) + jl * (- cslope (1 - (y - a) / (b - a)) / (b - a))).
Proof.
  intros AB H. unfold corrected.
  apply (derivable_pt_lim_plus (fun x => peval p x + jr * peval cpoly (local a b x)) (fun x => jl * peval cpoly (- local a b x))).
  - apply (derivable_pt_lim_plus (peval p) (fun x => jr * peval cpoly (local a b x))); [apply H|].
    apply (derivable_pt_lim_scal (fun x => peval cpoly (local a b x))), right_derive, AB.
  - apply (derivable_pt_lim_scal (fun x => peval cpoly (- local a b x))), left_derive, AB.
Qed.
Lemma corrected_ends p a b jl jr : a < b -> corrected cpoly p a b jl jr a = peval p a + jl /\ corrected cpoly p a b jl jr b = peval p b + jr.
Proof.
  intros AB. unfold corrected. replace (local a b a) with (-1) by (unfold local; field; lra). replace (local a b b) with 1 by (unfold local; field; lra).
  replace (- -1) with 1 by ring. replace (- (1)) with (-1) by ring. rewrite cpoly_1, cpoly_m1. split; ring.
Qed.
End Slope.

(** ** The rows of the flux-corrected derivative *)
Section Rows.
Context (sol : nat -> nat -> nat -> R) (o ne : nat) (nodes edges : list R) (C : column o ne nodes edges).
Context (Sol : solves (o + 1 + 1) (van 2 (o + 1)) rhs (sol 2%nat (o + 1)%nat)).
Let Ho : (0 < o)%nat := proj1 C.
Let Hne : (0 < ne)%nat := proj1 (proj2 C).
Let Ln : length nodes = (ne * o)%nat := proj1 (proj2 (proj2 C)).
Let Le : length edges = (ne * o + 1)%nat := proj1 (proj2 (proj2 (proj2 C))).
Let Sn : spaced nodes := proj1 (proj2 (proj2 (proj2 (proj2 C)))).
Let Se : spaced edges := proj2 (proj2 (proj2 (proj2 (proj2 C)))).
Let n := length nodes.
Let E := edge o edges.

Lemma edge_lt a : (a < ne)%nat -> E a < E (a + 1)%nat.
Proof. intros H. unfold E, edge. apply spaced_lt; [exact Se|]. rewrite Le. nia. Qed.
Lemma rd_edge a : (a <= ne)%nat -> rd edges (a * o) = Some (E a).
Proof. intros H. unfold E, edge. apply rd_ok. rewrite Le. nia. Qed.
(** the run of levels of element a *)
Lemma fits a : (a < ne)%nat -> (a * o + o <= n)%nat.
Proof. intros H. unfold n. rewrite Ln. nia. Qed.
Lemma element_sub a : (a < ne)%nat -> sub nodes (a * o) o = Some (fun j => nth (a * o + j) nodes 0).
Proof. intros H. apply sub_ok. apply fits, H. Qed.
Lemma element_diff a y : (a < ne)%nat -> exists c, diff o (fun j => nth (a * o + j) nodes 0) y = Some c /\ length c = o /\
  forall u p g, interpolates o nodes (a * o) u p -> (forall x, derivable_pt_lim (peval p) x (g x)) -> sum (fun l => block (a * o) c l * u l) n = g y.
Proof.
  intros H. destruct (run_diff nodes (a * o) o y Sn (fits a H)) as (c & Ec & Xc). exists c. split; [exact Ec|]. split; [exact (exact_length _ _ _ _ _ Xc)|].
  intros u p g Hp Hg. apply (block_apply 1 o nodes (a * o) y c u p g Xc (fits a H) Hp (nth_derivative_1 _ _ Hg)).
Qed.
Lemma element_value a y : (a < ne)%nat -> exists c, lagrange o (fun j => nth (a * o + j) nodes 0) y = Some c /\ length c = o /\
  forall u p, interpolates o nodes (a * o) u p -> sum (fun l => block (a * o) c l * u l) n = peval p y.
Proof.
  intros H. destruct (run_lagrange nodes (a * o) o y Sn (fits a H)) as (c & Ec & Xc). exists c. split; [exact Ec|]. split; [exact (exact_length _ _ _ _ _ Xc)|].
  intros u p Hp. apply (block_apply 0 o nodes (a * o) y c u p (peval p) Xc (fits a H) Hp). intros t. reflexivity.
Qed.

(** steps used by the row of an output in element a, next to its lower and upper edge *)
Ltac ext := intros; cbv beta; try ring.
Lemma sum_lin2 (f g u : nat -> R) w m : sum (fun k => (f k + w * g k) * u k) m = sum (fun k => f k * u k) m + w * sum (fun k => g k * u k) m.
Proof. rewrite <- sum_scale, <- sum_plus. apply sum_ext. ext. Qed.
Lemma sum_add2 (f g u : nat -> R) m : sum (fun k => (f k + g k) * u k) m = sum (fun k => f k * u k) m + sum (fun k => g k * u k) m.
Proof. rewrite <- sum_plus. apply sum_ext. ext. Qed.
Lemma sum_mul2 (f u : nat -> R) w m : sum (fun k => (f k * w) * u k) m = w * sum (fun k => f k * u k) m.
Proof. rewrite <- sum_scale. apply sum_ext. ext. Qed.
Lemma sum_div2 (f u : nat -> R) w m : sum (fun k => (f k / w) * u k) m = sum (fun k => f k * u k) m / w.
Proof. unfold Rdiv. rewrite sum_mul2. ring. Qed.
Lemma sum_0l (u : nat -> R) m : sum (fun k => 0 * u k) m = 0.
Proof. apply sum_zero. ext. Qed.

Lemma flux_coeffs_ok zero out a on : (a < ne)%nat -> (on = true -> (S a < ne)%nat) ->
  exists r b e, flux_coeffs sol n o ne nodes edges zero out a on = Some (r, b, e) /\ good n (r, b, e) /\
    (pred a * o <= b)%nat /\ (e <= (a + 2) * o)%nat /\
    ((on = true -> a <> 0%nat -> out = E (a + 1)%nat) ->
    forall u p g, (forall i, (i < ne)%nat -> interpolates o nodes (i * o) u (p i)) ->
      (forall i x, (i < ne)%nat -> derivable_pt_lim (peval (p i)) x (g i x)) ->
      sum (fun k => val r k * u k) n =
        (if on then (g a out + g (a + 1)%nat out) / 2 else g a out)
        + low_step o ne edges zero p a * (- cslope sol o (1 - (out - E a) / (E (a + 1)%nat - E a)) / (E (a + 1)%nat - E a))
        + high_step o ne edges zero p a * (cslope sol o ((out - E a) / (E (a + 1)%nat - E a)) / (E (a + 1)%nat - E a))).
Proof.
  intros Ha On. unfold flux_coeffs. rewrite (rd_edge a), (rd_edge (a + 1)) by lia. cbn [bind].
  pose proof (edge_lt a Ha) as ED. set (d := E (a + 1)%nat - E a) in *. assert (D0 : d <> 0) by (unfold d; lra).
  rewrite element_sub by exact Ha. cbn [bind].
  destruct (element_diff a out Ha) as (c & Ec & Lc & Vc). rewrite Ec. cbn [bind].
  pose proof (fits a Ha) as Fa.
  destruct (put_is n (zero_row n) (fun _ => 0) (a * o) c (zero_is n)) as (r0 & E0 & R0); [lia|reflexivity|].
  rewrite E0. cbn [bind].
  (* the local derivative *)
  assert (S1 : exists r1 f1, (if on then
           y <- sub nodes ((a + 1) * o) o; c' <- diff o y out; r <- put r0 ((a + 1) * o) c'; scale r 0 (length nodes) (1 / 2 * d)
         else scale r0 0 (length nodes) d) = Some r1 /\ row_is n r1 f1 /\
         (forall k, (k < n)%nat -> ~ (a * o <= k < (if on then (a + 2) * o else (a + 1) * o))%nat -> f1 k = 0) /\
         forall u p g, (forall i, (i < ne)%nat -> interpolates o nodes (i * o) u (p i)) ->
           (forall i x, (i < ne)%nat -> derivable_pt_lim (peval (p i)) x (g i x)) ->
           sum (fun k => f1 k * u k) n = d * (if on then (g a out + g (a + 1)%nat out) / 2 else g a out)).
  { destruct on.
    - pose proof (On eq_refl) as Hs. assert (Ha1 : (a + 1 < ne)%nat) by lia. rewrite element_sub by exact Ha1. cbn [bind].
      destruct (element_diff (a + 1) out Ha1) as (c' & Ec' & Lc' & Vc'). rewrite Ec'. cbn [bind]. pose proof (fits _ Ha1) as Fb.
      destruct (put_is n r0 _ ((a + 1) * o) c' R0) as (r & Er & Rr); [lia|intros k Hk; rewrite block_out by lia; ring|]. rewrite Er. cbn [bind].
      destruct (scale_is n r _ (1 / 2 * d) Rr) as (r1 & Er1 & Rr1). exists r1. eexists. split; [exact Er1|]. split; [exact Rr1|]. split.
      + intros k Hk Nk. cbv beta. rewrite !block_out by lia. ring.
      + intros u p g Hp Hg. rewrite sum_mul2, !sum_add2, sum_0l, (Vc u (p a) (g a)), (Vc' u (p (a + 1)%nat) (g (a + 1)%nat)) by auto. field.
    - destruct (scale_is n r0 _ d R0) as (r1 & Er1 & Rr1). exists r1. eexists. split; [exact Er1|]. split; [exact Rr1|]. split.
      + intros k Hk Nk. cbv beta. rewrite !block_out by lia. ring.
      + intros u p g Hp Hg. rewrite sum_mul2, sum_add2, sum_0l, (Vc u (p a) (g a)) by auto. ring. }
  destruct S1 as (r1 & f1 & E1 & R1 & Z1 & V1). rewrite E1. cbn [bind].
  rewrite div_ok by exact D0. cbn [bind]. rewrite !correction_slope_ok by exact Ho. cbn [bind].
  set (dr := cslope sol o ((out - E a) / d)). set (dl' := cslope sol o (1 - (out - E a) / d)).
  assert (Dl : (on = true -> a <> 0%nat -> out = E (a + 1)%nat) -> on = true -> a <> 0%nat -> dl' = 0).
  { intros Onz Q1 Q2. unfold dl'. rewrite (Onz Q1 Q2). replace (1 - (E (a + 1)%nat - E a) / d) with 0 by (fold d; field; exact D0). apply cslope_0, Sol; exact Ho. }
  destruct (element_value a (E a) Ha) as (lr & Elr & Llr & Vlr). destruct (element_value a (E (a + 1)%nat) Ha) as (rl & Erl & Lrl & Vrl).
  rewrite Elr. cbn [bind]. rewrite Erl. cbn [bind].
  (* the two neighbours *)
  assert (SLL : exists ll, (if (a =? 0)%nat then Some (zero_row o) else y <- sub nodes ((a - 1) * o) o; lagrange o y (E a)) = Some ll /\ length ll = o /\
    (a <> 0%nat -> forall u p, interpolates o nodes ((a - 1) * o) u p -> sum (fun l => block ((a - 1) * o) ll l * u l) n = peval p (E a))).
  { destruct (Nat.eqb_spec a 0) as [A0|A0].
    - exists (zero_row o). split; [reflexivity|]. split; [apply zero_row_length|contradiction].
    - rewrite element_sub by lia. destruct (element_value (a - 1) (E a) ltac:(lia)) as (ll & Ell & Lll & Vll). exists ll. cbn [bind]. rewrite Ell. auto. }
  destruct SLL as (ll & Ell & Lll & Vll). rewrite Ell. cbn [bind].
  assert (SRR : exists rr, (if (a =? ne - 1)%nat then Some (zero_row o) else y <- sub nodes ((a + 1) * o) o; lagrange o y (E (a + 1)%nat)) = Some rr /\ length rr = o /\
    (a <> (ne - 1)%nat -> forall u p, interpolates o nodes ((a + 1) * o) u p -> sum (fun l => block ((a + 1) * o) rr l * u l) n = peval p (E (a + 1)%nat))).
  { destruct (Nat.eqb_spec a (ne - 1)) as [A0|A0].
    - exists (zero_row o). split; [reflexivity|]. split; [apply zero_row_length|contradiction].
    - rewrite element_sub by lia. destruct (element_value (a + 1) (E (a + 1)%nat) ltac:(lia)) as (rr & Err & Lrr & Vrr). exists rr. cbn [bind]. rewrite Err. auto. }
  destruct SRR as (rr & Err & Lrr & Vrr). rewrite Err. cbn [bind].
  set (dl := dl' * - (1)).
  (* lower edge *)
  assert (S2 : exists r2 f2, (if negb (a =? 0)%nat then
           r <- (if on then Some r1 else add r1 ((a - 1) * o) (1 / 2 * dl) ll); add r (a * o) (- (1 / 2 * dl)) lr
         else if (negb zero && negb (ne =? 1)%nat)%bool then
           r <- add r1 (a * o) (1 / 2 * dl) rl; add r ((a + 1) * o) (- (1 / 2 * dl)) rr
         else Some r1) = Some r2 /\ row_is n r2 f2 /\
         (forall k, (k < n)%nat -> ~ (pred a * o <= k < (a + 2) * o)%nat -> f2 k = 0) /\
         ((a + 1)%nat = ne -> forall k, (k < n)%nat -> ~ (pred a * o <= k)%nat -> f2 k = 0) /\
         ((on = true -> a <> 0%nat -> out = E (a + 1)%nat) -> forall u p g, (forall i, (i < ne)%nat -> interpolates o nodes (i * o) u (p i)) ->
           (forall i x, (i < ne)%nat -> derivable_pt_lim (peval (p i)) x (g i x)) ->
           sum (fun k => f2 k * u k) n = sum (fun k => f1 k * u k) n - dl' * low_step o ne edges zero p a)).
  { unfold low_step. destruct (Nat.eqb_spec a 0) as [A0|A0]; cbn [negb].
    - destruct (negb zero && negb (ne =? 1)%nat)%bool eqn:NZ.
      + apply andb_true_iff in NZ. destruct NZ as (_ & NZ). apply negb_true_iff, Nat.eqb_neq in NZ.
        assert (Ha1 : (a + 1 < ne)%nat) by lia. pose proof (fits _ Ha1) as Fb.
        destruct (add_is n r1 f1 (a * o) (1 / 2 * dl) rl R1) as (r & Er & Rr); [lia|]. rewrite Er. cbn [bind].
        destruct (add_is n r _ ((a + 1) * o) (- (1 / 2 * dl)) rr Rr) as (r2 & E2 & R2); [lia|]. exists r2. eexists. split; [exact E2|]. split; [exact R2|].
        split; [|split].
        * intros k Hk Nk. cbv beta. rewrite Z1, !block_out by (destruct on; nia). ring.
        * intros; nia.
        * intros Onz u p g Hp Hg. rewrite !sum_lin2, (Vrl u (p a)), (Vrr ltac:(lia) u (p (a + 1)%nat)) by auto.
          unfold step. subst a. cbn [Nat.add Nat.sub]. unfold dl. fold E. ring.
      + exists r1, f1. split; [reflexivity|]. split; [exact R1|]. split; [|split].
        * intros k Hk Nk. apply Z1; [exact Hk|destruct on; nia].
        * intros; nia.
        * intros; ring.
    - assert (Ha1 : (a - 1 < ne)%nat) by lia. pose proof (fits _ Ha1) as Fb.
      assert (SA : exists r f, (if on then Some r1 else add r1 ((a - 1) * o) (1 / 2 * dl) ll) = Some r /\ row_is n r f /\
        forall k, f k = f1 k + (if on then 0 else 1 / 2 * dl * block ((a - 1) * o) ll k)).
      { destruct on; [exists r1, f1; split; [reflexivity|]; split; [exact R1|intros; ring]|].
        destruct (add_is n r1 f1 ((a - 1) * o) (1 / 2 * dl) ll R1) as (r & Er & Rr); [lia|]. exists r. eexists. split; [exact Er|]. split; [exact Rr|]. reflexivity. }
      destruct SA as (r & f & Er & Rr & Vr). rewrite Er. cbn [bind].
      destruct (add_is n r f (a * o) (- (1 / 2 * dl)) lr Rr) as (r2 & E2 & R2); [lia|]. exists r2. eexists. split; [exact E2|]. split; [exact R2|].
      split; [|split].
      + intros k Hk Nk. cbv beta. rewrite Vr, Z1, !block_out by (destruct on; nia). destruct on; ring.
      + intros _ k Hk Nk. cbv beta. rewrite Vr, Z1, !block_out by (destruct on; nia). destruct on; ring.
      + intros Onz u p g Hp Hg. rewrite sum_lin2. rewrite (sum_ext (fun k => f k * u k) (fun k => (f1 k + (if on then 0 else 1 / 2 * dl) * block ((a - 1) * o) ll k) * u k)).
        2:{ intros k _. rewrite Vr. destruct on; ring. }
        rewrite sum_lin2, (Vlr u (p a)), (Vll A0 u (p (a - 1)%nat)) by auto. unfold step. fold E. unfold dl.
        destruct on; [rewrite (Dl Onz eq_refl A0)|]; ring. }
  destruct S2 as (r2 & f2 & E2 & R2 & Z2 & Z2' & V2). rewrite E2. cbn [bind].
  (* upper edge *)
  assert (S3 : exists r3 f3, (if negb (a =? ne - 1)%nat then
           r <- add r2 ((a + 1) * o) (1 / 2 * dr) rr; add r (a * o) (- (1 / 2 * dr)) rl
         else if (negb zero && negb (ne =? 1)%nat)%bool then
           r <- add r2 (a * o) (1 / 2 * dr) lr; add r ((a - 1) * o) (- (1 / 2 * dr)) ll
         else Some r2) = Some r3 /\ row_is n r3 f3 /\
         (forall k, (k < n)%nat -> ~ (pred a * o <= k < (a + 2) * o)%nat -> f3 k = 0) /\
         forall u p g, (forall i, (i < ne)%nat -> interpolates o nodes (i * o) u (p i)) ->
           (forall i x, (i < ne)%nat -> derivable_pt_lim (peval (p i)) x (g i x)) ->
           sum (fun k => f3 k * u k) n = sum (fun k => f2 k * u k) n + dr * high_step o ne edges zero p a).
  { unfold high_step. destruct (Nat.eqb_spec a (ne - 1)) as [A0|A0]; cbn [negb].
    - destruct (negb zero && negb (ne =? 1)%nat)%bool eqn:NZ.
      + apply andb_true_iff in NZ. destruct NZ as (_ & NZ). apply negb_true_iff, Nat.eqb_neq in NZ.
        assert (Ha1 : (a - 1 < ne)%nat) by lia. pose proof (fits _ Ha1) as Fb.
        destruct (add_is n r2 f2 (a * o) (1 / 2 * dr) lr R2) as (r & Er & Rr); [lia|]. rewrite Er. cbn [bind].
        destruct (add_is n r _ ((a - 1) * o) (- (1 / 2 * dr)) ll Rr) as (r3 & E3 & R3); [lia|]. exists r3. eexists. split; [exact E3|]. split; [exact R3|].
        split.
        * intros k Hk Nk. cbv beta. rewrite Z2 by assumption. rewrite !block_out by nia. ring.
        * intros u p g Hp Hg. rewrite !sum_lin2, (Vlr u (p a)), (Vll ltac:(lia) u (p (a - 1)%nat)) by auto.
          unfold step. fold E. ring.
      + exists r2, f2. split; [reflexivity|]. split; [exact R2|]. split; [exact Z2|]. intros; ring.
    - assert (Ha1 : (a + 1 < ne)%nat) by lia. pose proof (fits _ Ha1) as Fb.
      destruct (add_is n r2 f2 ((a + 1) * o) (1 / 2 * dr) rr R2) as (r & Er & Rr); [lia|]. rewrite Er. cbn [bind].
      destruct (add_is n r _ (a * o) (- (1 / 2 * dr)) rl Rr) as (r3 & E3 & R3); [lia|]. exists r3. eexists. split; [exact E3|]. split; [exact R3|].
      split.
      * intros k Hk Nk. cbv beta. rewrite Z2 by assumption. rewrite !block_out by nia. ring.
      * intros u p g Hp Hg. rewrite !sum_lin2, (Vrl u (p a)), (Vrr A0 u (p (a + 1)%nat)) by auto.
        unfold step. replace (a + 1 - 1)%nat with a by lia. fold E. ring. }
  destruct S3 as (r3 & f3 & E3 & R3 & Z3 & V3). rewrite E3. cbn [bind].
  destruct (modify_is n r3 f3 (fun v => v / d) R3) as (r4 & E4 & R4). unfold n in E4. rewrite E4. cbn [bind]. fold n.
  do 3 eexists. split; [reflexivity|]. destruct R4 as (L4 & V4). split; [|split; [|split]].
  - split; [exact L4|]. split.
    + destruct (Nat.eqb_spec a (ne - 1)); unfold n; rewrite Ln; nia.
    + intros k Hk Nk. rewrite V4 by exact Hk. rewrite Z3; [unfold Rdiv; ring|exact Hk|].
      assert (n = (ne * o)%nat) by (unfold n; exact Ln). destruct (Nat.eqb_spec a 0), (Nat.eqb_spec a (ne - 1)); nia.
  - destruct (Nat.eqb_spec a 0); nia.
  - destruct (Nat.eqb_spec a (ne - 1)); nia.
  - intros Onz u p g Hp Hg. rewrite (sum_ext _ (fun k => (f3 k / d) * u k)) by (intros k Hk; rewrite V4 by exact Hk; reflexivity).
    rewrite sum_div2, (V3 u p g Hp Hg), (V2 Onz u p g Hp Hg), (V1 u p g Hp Hg). fold dr dl'. field. exact D0.
Qed.
End Rows.
