(** * Proofs about the vertical step: tracers, winds and the columns of a patch *)
From Coq Require Import Reals List Arith Bool Lia Lra ZArith.
From Verif Require Import ColModel ColSpec ColProofs FluxModel VertModel VertSpec VertProofs VertProofs2.
From Verif Require FluxProofs6.
Import ListNotations.
Local Open Scope R_scope.

(** ** tracers *)
Section Tracers.
Context (S : settings) (O : operators) (Q : column).
Local Notation K := (rlev S).
Lemma xie_with X W k : xie S O Q (with_w X W) k = xie S O Q (start Q) k + dxi S Q (fun _ l => W l - start Q FW l) k.
Proof. unfold xie, dxi, with_w. destruct (_ && _); ring. Qed.
Lemma pen_linear w f g a b k : pen_fits S (pnl O) -> (k < K)%nat ->
  pen_apply (pnl O) w (fun l => a * f l + b * g l) (fun _ => 0) k = a * pen_apply (pnl O) w f (fun _ => 0) k + b * pen_apply (pnl O) w g (fun _ => 0) k.
Proof.
  intros Pf Hk. rewrite !(pen_at S) by assumption. destruct (pops (pnl O)) as [[L Rt]|]; [|ring]. rewrite !ap_plus, !ap_scal. destruct (_ <? nfe S)%nat, (0 <? _)%nat; ring.
Qed.
Lemma pen_scaled w f a k : pen_fits S (pnl O) -> (k < K)%nat -> pen_apply (pnl O) w (fun l => a * f l) (fun _ => 0) k = a * pen_apply (pnl O) w f (fun _ => 0) k.
Proof.
  intros Pf Hk. rewrite !(pen_at S) by assumption. destruct (pops (pnl O)) as [[L Rt]|]; [|ring]. rewrite !ap_scal. destruct (_ <? nfe S)%nat, (0 <? _)%nat; ring.
Qed.
Lemma pen_weights w w' f k a b : pen_fits S (pnl O) -> (k < K)%nat ->
  pen_apply (pnl O) (fun i => a * w i + b * w' i) f (fun _ => 0) k = a * pen_apply (pnl O) w f (fun _ => 0) k + b * pen_apply (pnl O) w' f (fun _ => 0) k.
Proof.
  intros Pf Hk. rewrite !(pen_at S) by assumption. destruct (pops (pnl O)) as [[L Rt]|]; [|ring]. destruct (_ <? nfe S)%nat, (0 <? _)%nat; ring.
Qed.
Lemma pen_ext w w' f g k : pen_fits S (pnl O) -> (k < K)%nat -> (forall i, w i = w' i) -> (forall l, f l = g l) ->
  pen_apply (pnl O) w f (fun _ => 0) k = pen_apply (pnl O) w' g (fun _ => 0) k.
Proof.
  intros Pf Hk Hw Hf. rewrite !(pen_at S) by assumption. destruct (pops (pnl O)) as [[L Rt]|]; [|ring]. rewrite !Hw, !(ap_ext _ f g) by (intros; apply Hf). reflexivity.
Qed.
(** the right-hand side of the tracers in terms of the change of W *)
Lemma tracer_f_closed X W q qr rr k : pen_fits S (pnl O) -> uni_t S = false -> explicit S = false -> (k < K)%nat ->
  tracer_f S O Q X W q qr rr k =
  apply1 (d_en O) (fun m => je Q m * (xie S O Q (start Q) m * apply1 (i_ne O) q m + dxi S Q (fun _ l => W l - start Q FW l) m * apply1 (i_ne O) q m)) k * (1 / jn Q k)
  - (if upw_t S then pen S O (xie S O Q (start Q)) q k
       + pen_apply (pnl O) (fun a => let m := ((a + 1) * npe S)%nat in sign_weight Q (xie S O Q (start Q)) m * (W m - start Q FW m)) q (fun _ => 0) k else 0).
Proof.
  intros Pf U E Hk. unfold tracer_f. rewrite E. cbn [negb]. rewrite andb_true_r.
  rewrite (correction_pen S O Q W q k) by assumption.
  rewrite (ap_ext _ (tracer_flux S O Q X W q qr rr) (fun m => je Q m * (xie S O Q (start Q) m * apply1 (i_ne O) q m + dxi S Q (fun _ l => W l - start Q FW l) m * apply1 (i_ne O) q m))).
  - destruct (upw_t S); unfold Rdiv; ring.
  - intros m _. unfold tracer_flux. rewrite U, xie_with. destruct ((1 <=? m) && (m <? K))%nat eqn:B; [ring|].
    rewrite (xie_end S O Q) by (destruct (Nat.leb_spec 1 m), (Nat.ltb_spec m K); cbn [andb] in B; try discriminate; lia). unfold dxi. rewrite B. ring.
Qed.
(** a tracer with constant mixing ratio follows the density *)
Lemma tracer_follows d c X qr rr k : reads_edges S O -> pen_fits S (pnl O) -> on_levels S = false -> explicit S = false -> uni_t S = false -> upw_t S = upw S FR ->
  (k < K)%nat -> row_dot (jacobian S O Q (start Q)) d FR k = build_f S O Q (start Q) FR k ->
  trow_dot (tracer_jacobian S O Q) (fun l => c * d FR l) k =
  tracer_f S O Q X (new_state Q d FW) (fun l => c * start Q FR l) qr rr k.
Proof.
  intros Re Pf HL E U Eu Hk H. rewrite tdot, tracer_f_closed by assumption. rewrite E.
  rewrite dot_scalar in H by (assumption || reflexivity). unfold build_f in H. replace (start Q FR k - start Q FR k) with 0 in H by ring. rewrite Rmult_0_l, Rplus_0_r in H.
  unfold tendency, div_flux in H. rewrite HL in H. destruct (Nat.ltb_spec k K); [|lia].
  set (xi := xie S O Q (start Q)) in *.
  rewrite (ap_ext (d_en O) (flux_e S O Q (re O (start Q)) (start Q)) (fun m => je Q m * (xi m * apply1 (i_ne O) (start Q FR) m))) in H.
  2:{ intros m _. unfold flux_e, xi, re. destruct ((1 <=? m) && (m <? K))%nat eqn:B; [ring|].
      rewrite (xie_end S O Q) by (destruct (Nat.leb_spec 1 m), (Nat.ltb_spec m K); cbn [andb] in B; try discriminate; lia). ring. }
  (* the fluxes *)
  set (A1 := apply1 (d_en O) (fun m => je Q m * (xi m * apply1 (i_ne O) (start Q FR) m)) k) in *.
  set (A2 := apply1 (d_en O) (fun m => je Q m * (dxi S Q d m * apply1 (i_ne O) (start Q FR) m)) k) in *.
  set (A3 := apply1 (d_en O) (fun m => je Q m * (xi m * apply1 (i_ne O) (d FR) m)) k) in *.
  assert (F1 : apply1 (d_en O) (fun m => je Q m * (dxi S Q d m * apply1 (i_ne O) (start Q FR) m + xi m * apply1 (i_ne O) (d FR) m)) k = A2 + A3).
  { unfold A2, A3. rewrite <- ap_plus. apply ap_ext. intros; ring. }
  assert (F2 : apply1 (d_en O) (fun m => je Q m * (xi m * apply1 (i_ne O) (fun l => c * d FR l) m)) k = c * A3).
  { unfold A3. rewrite <- ap_scal. apply ap_ext. intros m _. rewrite ap_scal. ring. }
  assert (F3 : apply1 (d_en O) (fun m => je Q m * (xi m * apply1 (i_ne O) (fun l => c * start Q FR l) m + dxi S Q (fun _ l => new_state Q d FW l - start Q FW l) m * apply1 (i_ne O) (fun l => c * start Q FR l) m)) k = c * A1 - c * A2).
  { unfold A1, A2. rewrite <- !ap_scal, <- ap_minus. apply ap_ext. intros m _. rewrite !ap_scal. unfold dxi, new_state. destruct (_ && _); ring. }
  rewrite F1 in H. rewrite F2, F3. clear F1 F2 F3. rewrite Eu in *.
  destruct (upw S FR) eqn:Eup; [|replace (c * d FR k * (1 / dt S)) with (c * (d FR k * (1 / dt S))) by ring; replace (d FR k * (1 / dt S)) with (A1 * (1 / jn Q k) - (A2 + A3) * (1 / jn Q k)) by lra; ring].
  rewrite pen_row_pen in H by assumption. unfold pen in *.
  set (w := weights S xi) in *. change (fun a : nat => Rabs (xi ((a + 1) * npe S)%nat)) with w in H.
  set (P1 := pen_apply (pnl O) w (d FR) (fun _ => 0) k) in *. set (P2 := pen_apply (pnl O) _ (start Q FR) (fun _ => 0) k) in H. set (P3 := pen_apply (pnl O) w (start Q FR) (fun _ => 0) k) in *.
  assert (G1 : pen_apply (pnl O) w (fun l => c * d FR l) (fun _ => 0) k = c * P1) by (apply pen_scaled; assumption).
  assert (G3 : pen_apply (pnl O) w (fun l => c * start Q FR l) (fun _ => 0) k = c * P3) by (apply pen_scaled; assumption).
  set (w2 := fun a : nat => let m := ((a + 1) * npe S)%nat in sign_weight Q xi m * (new_state Q d FW m - start Q FW m)).
  assert (G2 : pen_apply (pnl O) w2 (fun l => c * start Q FR l) (fun _ => 0) k = - (c * P2)).
  { rewrite pen_scaled by assumption.
    rewrite (pen_ext w2 (fun a => -1 * (sign_weight Q xi ((a + 1) * npe S)%nat * d FW ((a + 1) * npe S)%nat) + 0 * (fun _ => 0) a) (start Q FR) (start Q FR)); [|assumption|assumption| |reflexivity].
    - rewrite (pen_weights (fun a => sign_weight Q xi ((a + 1) * npe S)%nat * d FW ((a + 1) * npe S)%nat) (fun _ => 0)) by assumption. fold P2. ring.
    - intros a. unfold w2, new_state. cbv zeta. ring. }
  fold w2. rewrite G1, G2, G3.
  replace (c * d FR k * (1 / dt S)) with (c * (d FR k * (1 / dt S))) by ring. replace (d FR k * (1 / dt S)) with (A1 * (1 / jn Q k) - P3 - (A2 + A3) * (1 / jn Q k) + (P2 + P1)) by lra. ring.
Qed.
(** fully explicit: the same right-hand side as the density *)
Lemma tracer_explicit a X qr rr dq k : pen_fits S (pnl O) -> on_levels S = false -> explicit S = true -> uni_t S = false -> upw_t S = upw S FR -> dt S <> 0 -> (k < K)%nat ->
  trow_dot (tracer_jacobian S O Q) dq k = tracer_f S O Q X (start Q FW) (fun l => a * start Q FR l) qr rr k ->
  dq k = a * (dt S * build_f S O Q (start Q) FR k).
Proof.
  intros Pf HL E U Eu Hd Hk H. rewrite tdot in H by assumption. rewrite E in H. rewrite Rplus_0_l in H.
  assert (B : tracer_f S O Q X (start Q FW) (fun l => a * start Q FR l) qr rr k = a * build_f S O Q (start Q) FR k).
  { unfold tracer_f, build_f, tendency, div_flux. rewrite E, HL, Eu. cbn [negb]. rewrite andb_false_r. destruct (Nat.ltb_spec k K); [|lia].
    rewrite (ap_ext _ (tracer_flux S O Q X (start Q FW) (fun l => a * start Q FR l) qr rr) (fun m => a * flux_e S O Q (re O (start Q)) (start Q) m)).
    2:{ intros m _. unfold tracer_flux, flux_e. rewrite U. destruct (_ && _)%bool; [|ring]. rewrite ap_scal. unfold re. change (xie S O Q (with_w X (start Q FW)) m) with (xie S O Q (start Q) m). ring. }
    rewrite ap_scal. destruct (upw S FR); [|unfold Rdiv; ring]. unfold pen. rewrite pen_scaled by assumption.
    change (weights S (xie S O Q (with_w X (start Q FW)))) with (weights S (xie S O Q (start Q))). unfold Rdiv. ring. }
  rewrite B in H. replace (a * (dt S * build_f S O Q (start Q) FR k)) with (dt S * (a * build_f S O Q (start Q) FR k)) by ring. rewrite <- H. field. exact Hd.
Qed.
(** the sum of a tracer *)
Lemma tracer_content om dq X W q qr rr : telescopes K om (d_en O) -> redistributes K om (pnl O) -> pen_fits S (pnl O) -> jac_ok S Q -> dt S <> 0 -> uni_t S = false ->
  (upw_t S = false \/ forall k, (k < K)%nat -> jn Q k = jn Q 0%nat) -> solves_tracer K (tracer_jacobian S O Q) (tracer_f S O Q X W q qr rr) dq ->
  content K om (jn Q) dq = 0.
Proof.
  intros T Rd Pf HJ Hd U UJ HS.
  assert (ZP : forall w f, content K om (jn Q) (fun k => if upw_t S then pen_apply (pnl O) w f (fun _ => 0) k else 0) = 0).
  { intros w f. destruct (upw_t S) eqn:E; [|apply content_zero; reflexivity]. destruct UJ as [UJ|UJ]; [congruence|]. apply content_pen; assumption. }
  assert (EF : content K om (jn Q) (tracer_f S O Q X W q qr rr) = 0).
  { rewrite (content_ext _ _ _ _ (fun k => apply1 (d_en O) (tracer_flux S O Q X W q qr rr) k * (1 / jn Q k)
      - (if upw_t S then pen_apply (pnl O) (weights S (if explicit S then xie S O Q (with_w X W) else xie S O Q (start Q))) q (fun _ => 0) k else 0)
      - (if upw_t S then pen_apply (pnl O) (fun a => if explicit S then 0 else let m := ((a + 1) * npe S)%nat in sign_weight Q (xie S O Q (start Q)) m * (W m - start Q FW m)) q (fun _ => 0) k else 0))).
    - rewrite !content_minus, !ZP. rewrite content_flux; [ring|exact T|exact HJ|reflexivity|unfold tracer_flux; rewrite Nat.ltb_irrefl, andb_false_r; reflexivity].
    - intros k Hk. unfold tracer_f, pen. destruct (upw_t S); cbn [andb]; [|unfold Rdiv; ring]. destruct (explicit S) eqn:E; cbn [negb].
      + assert (Z0 : pen_apply (pnl O) (fun _ => 0) q (fun _ => 0) k = 0).
        { rewrite (pen_at S) by assumption. destruct (pops (pnl O)) as [[L Rt]|]; [|reflexivity]. destruct (_ <? nfe S)%nat, (0 <? _)%nat; ring. }
        rewrite Z0. unfold Rdiv. ring.
      + rewrite (correction_pen S O Q W q k) by assumption. unfold Rdiv. ring. }
  rewrite <- (content_ext _ _ _ _ _ HS) in EF.
  rewrite (content_ext _ _ _ _ (fun k => (if explicit S then 0 else 1) * (apply1 (d_en O) (fun m => je Q m * (xie S O Q (start Q) m * apply1 (i_ne O) dq m)) k * (1 / jn Q k))
     - (if explicit S then 0 else 1) * (if upw_t S then pen_apply (pnl O) (weights S (xie S O Q (start Q))) dq (fun _ => 0) k else 0) + 1 / dt S * dq k)) in EF.
  2:{ intros k Hk. rewrite tdot by assumption. unfold pen. destruct (explicit S); ring. }
  rewrite content_plus, content_minus, !content_scal, ZP in EF.
  rewrite content_flux in EF; [|exact T|exact HJ|rewrite (xie_end S O Q) by lia; ring|rewrite (xie_end S O Q) by lia; ring].
  apply (Rmult_eq_reg_l (1 / dt S)); [rewrite Rmult_0_r; lra|]. unfold Rdiv. rewrite Rmult_1_l. apply Rinv_neq_0_compat, Hd.
Qed.
End Tracers.

(** ** winds *)
Lemma winds_local S O su sv l : explicit S = true \/ uni_u S = false ->
  wind_columns S O su sv l = map (fun x => let '(C, (ou, ov)) := x in (wind_step S O (c_xi C) (c_u C) (c_u C) (c_ru C) ou, wind_step S O (c_xi C) (c_v C) (c_v C) (c_rv C) ov)) l.
Proof.
  intros H. revert su sv. induction l as [|[C [ou ov]] l IH]; intros su sv; [reflexivity|]. cbn [wind_columns map].
  destruct H as [E|E].
  - rewrite E. rewrite IH. reflexivity.
  - assert (W : forall xi i st st' r o, wind_step S O xi i st r o = wind_step S O xi i st' r o) by (intros; unfold wind_step; rewrite E; reflexivity).
    destruct (explicit S); rewrite IH; [reflexivity|]. f_equal. f_equal; apply W.
Qed.

(** ** the columns of a patch *)
Section Run.
Context {B : Type}.
Lemma run_hit (H G : B -> Prop) b e (f : nat -> B -> B) x : H x -> (forall k s, (b <= k < e)%nat -> H s -> H (f k s)) ->
  (exists k, (b <= k < e)%nat /\ forall s, H s -> G (f k s)) -> (forall k s, (b <= k < e)%nat -> H s -> G s -> G (f k s)) -> G (run b e f x).
Proof.
  intros Hx HH (k & Hk & Hit) HG. unfold run.
  assert (I : forall l y, (forall i, In i l -> (b <= i < e)%nat) -> H y -> (G y \/ In k l) -> G (fold_left (fun s k => f k s) l y)).
  { induction l as [|a l IH]; intros y Hl Hy [Gy|Kl]; cbn [fold_left]; try exact Gy; try (destruct Kl; fail).
    - apply IH; [intros; apply Hl; right; assumption|apply HH; [apply Hl; left; reflexivity|exact Hy]|left; apply HG; [apply Hl; left; reflexivity|exact Hy|exact Gy]].
    - apply IH; [intros; apply Hl; right; assumption|apply HH; [apply Hl; left; reflexivity|exact Hy]|]. destruct Kl as [->|Kl]; [left; apply Hit, Hy|right; exact Kl]. }
  apply I; [intros i Hi; apply in_seq in Hi; lia|exact Hx|right; apply in_seq; lia].
Qed.
Lemma run_keep (G : B -> Prop) b e (f : nat -> B -> B) x : G x -> (forall k s, (b <= k < e)%nat -> G s -> G (f k s)) -> G (run b e f x).
Proof.
  intros Hx HG. unfold run.
  assert (I : forall l y, (forall i, In i l -> (b <= i < e)%nat) -> G y -> G (fold_left (fun s k => f k s) l y)).
  { induction l as [|a l IH]; intros y Hl Hy; cbn [fold_left]; [exact Hy|]. apply IH; [intros; apply Hl; right; assumption|]. apply HG; [apply Hl; left; reflexivity|exact Hy]. }
  apply I; [intros i Hi; apply in_seq in Hi; lia|exact Hx].
Qed.
End Run.
Section Columns.
Context {A : Type} (p na nb : nat) (solve : nat -> nat -> A) (P2 : (2 <= p)%nat).
(** index of the column that is solved for column i of n elements *)
Definition lead (n i : nat) : nat := if ((i mod p =? p - 1) && (i / p + 1 <? n))%bool%nat then (i + 1)%nat else i.
Definition primary (n i : nat) : Prop := exists a i', (a < n)%nat /\ (i' < last_end p a n)%nat /\ i = (a * p + i')%nat.
Lemma put_get (f : nat -> nat -> A) i j x i' j' : put2 f i j x i' j' = if ((i' =? i) && (j' =? j))%bool%nat then x else f i' j'.
Proof. reflexivity. Qed.
Lemma put_same (f : nat -> nat -> A) i j x : put2 f i j x i j = x.
Proof. rewrite put_get, !Nat.eqb_refl. reflexivity. Qed.
Lemma put_other (f : nat -> nat -> A) i j x i' j' : i' <> i \/ j' <> j -> put2 f i j x i' j' = f i' j'.
Proof. intros H. rewrite put_get. destruct (Nat.eqb_spec i' i), (Nat.eqb_spec j' j); cbn [andb]; try reflexivity; lia. Qed.

Lemma solved_at old i j : primary na i -> primary nb j -> solve_columns p na nb solve old i j = solve i j.
Proof.
  intros (a & i' & Ha & Hi & ->) (b & j' & Hb & Hj & ->). unfold solve_columns.
  set (G := fun f : nat -> nat -> A => f (a * p + i')%nat (b * p + j')%nat = solve (a * p + i')%nat (b * p + j')%nat).
  assert (Kp : forall k l s, G s -> G (put2 s k l (solve k l))).
  { intros k l s Gs. unfold G in *. rewrite put_get. destruct (Nat.eqb_spec (a * p + i') k), (Nat.eqb_spec (b * p + j') l); cbn [andb]; try exact Gs. subst. reflexivity. }
  change (G (run 0 na (fun a => run 0 nb (fun b => run 0 (last_end p a na) (fun i => run 0 (last_end p b nb) (fun j f => put2 f (a * p + i) (b * p + j) (solve (a * p + i)%nat (b * p + j)%nat))))) old)).
  apply (run_hit (fun _ => True)); try (intros; exact I).
  - exists a. split; [lia|]. intros s _. apply (run_hit (fun _ => True)); try (intros; exact I).
    + exists b. split; [lia|]. intros s1 _. apply (run_hit (fun _ => True)); try (intros; exact I).
      * exists i'. split; [lia|]. intros s2 _. apply (run_hit (fun _ => True)); try (intros; exact I).
        -- exists j'. split; [lia|]. intros s3 _. unfold G. apply put_same.
        -- intros. apply Kp. assumption.
      * intros. apply run_keep; [assumption|]. intros. apply Kp. assumption.
    + intros. apply run_keep; [assumption|]. intros. apply run_keep; [assumption|]. intros. apply Kp. assumption.
  - intros. apply run_keep; [assumption|]. intros. apply run_keep; [assumption|]. intros. apply run_keep; [assumption|]. intros. apply Kp. assumption.
Qed.
Lemma primary_or n i : (i < n * p)%nat -> primary n i /\ lead n i = i \/ exists a, (1 <= a < n)%nat /\ i = (a * p - 1)%nat /\ lead n i = (a * p)%nat /\ primary n (a * p).
Proof.
  intros Hi. pose proof (Nat.div_mod i p ltac:(lia)) as D. pose proof (Nat.mod_upper_bound i p ltac:(lia)) as M.
  assert (Ha : (i / p < n)%nat) by (apply Nat.div_lt_upper_bound; lia). unfold lead.
  destruct (Nat.eqb_spec (i mod p) (p - 1)) as [E|E]; cbn [andb]; [destruct (Nat.ltb_spec (i / p + 1) n) as [L|L]|].
  - right. exists (i / p + 1)%nat. split; [lia|]. assert (i = ((i / p + 1) * p - 1)%nat) by nia. split; [assumption|]. split; [nia|].
    exists (i / p + 1)%nat, 0%nat. split; [exact L|]. split; [unfold last_end; destruct (_ =? _)%nat; lia|lia].
  - left. split; [|reflexivity]. exists (i / p)%nat, (i mod p)%nat. split; [exact Ha|]. split; [|lia]. unfold last_end. destruct (Nat.eqb_spec (i / p) (n - 1)); lia.
  - left. split; [|reflexivity]. exists (i / p)%nat, (i mod p)%nat. split; [exact Ha|]. split; [|lia]. unfold last_end. destruct (_ =? _)%nat; lia.
Qed.
Lemma primary_not n i a : (1 <= a < n)%nat -> primary n i -> i <> (a * p - 1)%nat.
Proof.
  intros Ha (b & i' & Hb & Hi & ->) E. unfold last_end in Hi. destruct (Nat.eqb_spec b (n - 1)) as [->|N].
  - assert (a <= n - 1)%nat by lia. nia.
  - assert (i' < p - 1)%nat by lia. assert (b < a)%nat by nia. assert ((b + 1) * p <= a * p)%nat by (apply Nat.mul_le_mono_r; lia). nia.
Qed.
Lemma multiple_not a b : (1 <= b)%nat -> (a * p)%nat <> (b * p - 1)%nat.
Proof. intros Hb E. destruct (le_lt_dec b a) as [L|L]; [assert (b * p <= a * p)%nat by (apply Nat.mul_le_mono_r; exact L); nia|assert ((a + 1) * p <= b * p)%nat by (apply Nat.mul_le_mono_r; lia); nia]. Qed.
Lemma copied_alpha f i j : (i < na * p)%nat -> primary nb j -> (forall i, primary na i -> f i j = solve i j) -> copy_alpha p na nb f i j = solve (lead na i) j.
Proof.
  intros Hi Hj Hf. pose proof Hj as (b & j' & Hb & Hj' & Ej). unfold copy_alpha. destruct (primary_or na i Hi) as [(Pi & ->)|(a & Ha & Ei & -> & Pa)].
  - set (G := fun f : nat -> nat -> A => f i j = solve i j).
    change (G (run 1 na (fun a => run 0 nb (fun b => run 0 (last_end p b nb) (fun j f => put2 f (a * p - 1) (b * p + j) (f (a * p - 1 + 1)%nat (b * p + j)%nat)))) f)).
    apply run_keep; [apply Hf, Pi|]. intros a s Ha Gs. apply run_keep; [exact Gs|]. intros b0 s1 _ Gs1. apply run_keep; [exact Gs1|]. intros j0 s2 _ Gs2. unfold G. rewrite put_other; [exact Gs2|].
    left. apply (primary_not na); assumption.
  - set (G := fun f : nat -> nat -> A => f i j = solve (a * p)%nat j). set (H := fun f : nat -> nat -> A => f (a * p)%nat j = solve (a * p)%nat j).
    change (G (run 1 na (fun a => run 0 nb (fun b => run 0 (last_end p b nb) (fun j f => put2 f (a * p - 1) (b * p + j) (f (a * p - 1 + 1)%nat (b * p + j)%nat)))) f)).
    assert (KH : forall a' l s, (1 <= a')%nat -> H s -> H (put2 s (a' * p - 1) l (s (a' * p - 1 + 1)%nat l))).
    { intros a' l s L Hs. unfold H. rewrite put_other; [exact Hs|]. left. apply multiple_not, L. }
    assert (KG : forall a' l s, (1 <= a')%nat -> H s -> G s -> G (put2 s (a' * p - 1) l (s (a' * p - 1 + 1)%nat l))).
    { intros a' l s L Hs Gs. unfold G. rewrite put_get. destruct (Nat.eqb_spec i (a' * p - 1)) as [E|E], (Nat.eqb_spec j l) as [E2|E2]; cbn [andb]; try exact Gs. subst l.
      assert (a' * p = a * p)%nat by nia. replace (a' * p - 1 + 1)%nat with (a * p)%nat by nia. exact Hs. }
    assert (HG : forall a' b' s, (1 <= a')%nat -> H s /\ G s -> H (run 0 (last_end p b' nb) (fun j f => put2 f (a' * p - 1) (b' * p + j) (f (a' * p - 1 + 1)%nat (b' * p + j)%nat)) s)
       /\ G (run 0 (last_end p b' nb) (fun j f => put2 f (a' * p - 1) (b' * p + j) (f (a' * p - 1 + 1)%nat (b' * p + j)%nat)) s)).
    { intros a' b' s L HGs. apply (run_keep (fun f => H f /\ G f)); [exact HGs|]. intros k s0 _ (X1 & X2). split; [apply KH; assumption|apply KG; assumption]. }
    apply (run_hit H); [apply Hf, Pa| | |].
    + intros a' s Ha' Hs. apply run_keep; [exact Hs|]. intros b' s1 _ Hs1. apply run_keep; [exact Hs1|]. intros. apply KH; [lia|assumption].
    + exists a. split; [exact Ha|]. intros s Hs. apply (run_hit H); [exact Hs| | |].
      * intros b' s1 _ Hs1. apply run_keep; [exact Hs1|]. intros. apply KH; [lia|assumption].
      * exists b. split; [lia|]. intros s1 Hs1. apply (run_hit H); [exact Hs1| | |].
        -- intros. apply KH; [lia|assumption].
        -- exists j'. split; [lia|]. intros s2 Hs2. unfold G. rewrite Ei, Ej, put_same. replace (a * p - 1 + 1)%nat with (a * p)%nat by nia. rewrite <- Ej. exact Hs2.
        -- intros. apply KG; [lia|assumption|assumption].
      * intros b' s1 _ Hs1 Gs1. apply HG; [lia|]. split; assumption.
    + intros a' s Ha' Hs Gs. apply (run_keep (fun f => H f /\ G f)); [split; assumption|]. intros b' s1 _ X. apply HG; [lia|exact X].
Qed.
Lemma copied_beta f i j (g : nat -> nat -> A) : (i < na * p)%nat -> (j < nb * p)%nat -> (forall j, primary nb j -> f i j = g i j) -> copy_beta p na nb f i j = g i (lead nb j).
Proof.
  intros Hi Hj Hf. unfold copy_beta. destruct (primary_or nb j Hj) as [(Pj & ->)|(b & Hb & Ej & -> & Pb)].
  - set (G := fun f : nat -> nat -> A => f i j = g i j). change (G (run 1 nb (fun b => run 0 (na * p) (fun i f => put2 f i (b * p - 1) (f i (b * p - 1 + 1)%nat))) f)).
    apply run_keep; [apply Hf, Pj|]. intros b s Hb Gs. apply run_keep; [exact Gs|]. intros i0 s1 _ Gs1. unfold G. rewrite put_other; [exact Gs1|]. right. apply (primary_not nb); assumption.
  - set (G := fun f : nat -> nat -> A => f i j = g i (b * p)%nat). set (H := fun f : nat -> nat -> A => f i (b * p)%nat = g i (b * p)%nat).
    change (G (run 1 nb (fun b => run 0 (na * p) (fun i f => put2 f i (b * p - 1) (f i (b * p - 1 + 1)%nat))) f)).
    assert (KH : forall b' l s, (1 <= b')%nat -> H s -> H (put2 s l (b' * p - 1) (s l (b' * p - 1 + 1)%nat))).
    { intros b' l s L Hs. unfold H. rewrite put_other; [exact Hs|]. right. apply multiple_not, L. }
    assert (KG : forall b' l s, (1 <= b')%nat -> H s -> G s -> G (put2 s l (b' * p - 1) (s l (b' * p - 1 + 1)%nat))).
    { intros b' l s L Hs Gs. unfold G. rewrite put_get. destruct (Nat.eqb_spec i l) as [E|E], (Nat.eqb_spec j (b' * p - 1)) as [E2|E2]; cbn [andb]; try exact Gs. subst l.
      replace (b' * p - 1 + 1)%nat with (b * p)%nat by nia. exact Hs. }
    apply (run_hit H); [apply Hf, Pb| | |].
    + intros b' s Hb' Hs. apply run_keep; [exact Hs|]. intros. apply KH; [lia|assumption].
    + exists b. split; [exact Hb|]. intros s Hs. apply (run_hit H); [exact Hs| | |].
      * intros. apply KH; [lia|assumption].
      * exists i. split; [lia|]. intros s1 Hs1. unfold G. rewrite Ej, put_same. replace (b * p - 1 + 1)%nat with (b * p)%nat by nia. exact Hs1.
      * intros. apply KG; [lia|assumption|assumption].
    + intros b' s Hb' Hs Gs. apply (run_keep (fun f => H f /\ G f)); [split; assumption|]. intros k s0 _ (X1 & X2). split; [apply KH; [lia|assumption]|apply KG; [lia|assumption|assumption]].
Qed.
Lemma patch_at old i j : (i < na * p)%nat -> (j < nb * p)%nat -> implicit_patch p na nb solve old i j = solve (lead na i) (lead nb j).
Proof.
  intros Hi Hj. unfold implicit_patch. apply (copied_beta _ i j (fun i j => solve (lead na i) j) Hi Hj).
  intros j' Hj'. apply copied_alpha; [exact Hi|exact Hj'|]. intros i' Hi'. apply solved_at; assumption.
Qed.
Lemma lead_same n i i' : (i < n * p)%nat -> (i' < n * p)%nat -> same_point p n i i' -> lead n i = lead n i'.
Proof.
  assert (G : forall i i' a, (1 <= a < n)%nat -> i = (a * p - 1)%nat -> i' = (a * p)%nat -> lead n i = lead n i').
  { clear - P2. intros i i' a Ha -> ->. unfold lead.
    assert (E1 : ((a * p - 1) mod p = p - 1)%nat).
    { replace (a * p - 1)%nat with (p - 1 + (a - 1) * p)%nat by nia. rewrite Nat.mod_add by lia. apply Nat.mod_small. lia. }
    assert (E2 : ((a * p - 1) / p = a - 1)%nat).
    { replace (a * p - 1)%nat with (p - 1 + (a - 1) * p)%nat by nia. rewrite Nat.div_add by lia. rewrite Nat.div_small by lia. lia. }
    rewrite E1, E2, Nat.mod_mul, Nat.eqb_refl by lia. destruct (Nat.ltb_spec (a - 1 + 1) n); [|lia]. cbn [andb]. destruct (Nat.eqb_spec 0 (p - 1)); [lia|]. cbn [andb]. nia. }
  intros Hi Hi' [->|(a & Ha & [(E1 & E2)|(E1 & E2)])]; [reflexivity|apply (G i i' a); assumption|symmetry; apply (G i' i a); assumption].
Qed.
Lemma lead_is n i : (i < n * p)%nat -> same_point p n i (lead n i).
Proof.
  intros Hi. destruct (primary_or n i Hi) as [(_ & ->)|(a & Ha & E1 & E2 & _)]; [left; reflexivity|]. right. exists a. split; [exact Ha|]. left. split; assumption.
Qed.
End Columns.
