(** * Proofs about the vertical step: the Jacobian is the derivative of the residual *)
From Coq Require Import Reals List Arith Bool Lia Lra ZArith.
From Verif Require Import ColModel ColSpec ColProofs FluxModel VertModel VertSpec VertProofs VertProofs2.
From Verif Require PhysModel.
Import ListNotations.
Local Open Scope R_scope.

Lemma exner_deriv c x h : 0 < PhysModel.gas c -> PhysModel.gas c < PhysModel.cp c -> 0 < PhysModel.p0 c -> 0 < x ->
  D0 (fun t => PhysModel.exner_from_rhotheta c (x + t * h)) (PhysModel.gas c / PhysModel.get_cv c * PhysModel.exner_from_rhotheta c x / x * h).
Proof.
  intros Hg Hc Hp Hx. unfold PhysModel.exner_from_rhotheta, PhysModel.get_cv. set (a := PhysModel.gas c / (PhysModel.cp c - PhysModel.gas c)). set (b := PhysModel.gas c / PhysModel.p0 c).
  assert (Hb : 0 < b) by (unfold b; apply Rdiv_lt_0_compat; assumption).
  assert (D1 : D0 (fun t => b * (x + t * h)) (b * h)) by (apply (D0_scal b (fun t => x + t * h)), D0_aff).
  assert (D2 : D0 (fun t => ln (b * (x + t * h))) (/ (b * x) * (b * h))).
  { apply (derivable_pt_lim_comp (fun t => b * (x + t * h)) ln); [exact D1|]. replace (b * (x + 0 * h)) with (b * x) by ring. apply derivable_pt_lim_ln. apply Rmult_lt_0_compat; assumption. }
  assert (D3 : D0 (fun t => exp (a * ln (b * (x + t * h)))) (exp (a * ln (b * x)) * (a * (/ (b * x) * (b * h))))).
  { pose proof (derivable_pt_lim_comp (fun t => a * ln (b * (x + t * h))) exp 0 _ _ (D0_scal a _ _ D2) (derivable_pt_lim_exp _)) as H.
    eapply D0_ext; [| |exact H]; [intros; reflexivity|]. replace (b * (x + 0 * h)) with (b * x) by ring. reflexivity. }
  eapply D0_ext; [| |exact (D0_scal (PhysModel.cp c) _ _ D3)]; [intros; reflexivity|]. field. lra.
Qed.

Section Derivative.
Context (S : settings) (O : operators) (Q : column) (X h : vector).
Local Notation K := (rlev S).
Lemma xie_along t k : xie S O Q (along X h t) k = xie S O Q X k + t * dxi S Q h k.
Proof. unfold xie, dxi, along. destruct (_ && _); ring. Qed.
Lemma ie_along t c k : apply1 (i_ne O) (along X h t c) k = apply1 (i_ne O) (X c) k + t * apply1 (i_ne O) (h c) k.
Proof. unfold along. apply ap_aff. Qed.
Lemma wn_along t k : wn O (along X h t) k = wn O X k + t * wn O h k.
Proof. unfold wn, along. apply ap_aff. Qed.
Lemma at0 (a b : R) : a + 0 * b = a.
Proof. ring. Qed.

Lemma D_flux c k : D0 (fun t => apply1 (d_en O) (flux_e S O Q (apply1 (i_ne O) (along X h t c)) (along X h t)) k)
  (apply1 (d_en O) (fun m => if ((1 <=? m) && (m <? K))%nat then je Q m * (dxi S Q h m * apply1 (i_ne O) (X c) m + xie S O Q X m * apply1 (i_ne O) (h c) m) else 0) k).
Proof.
  apply D0_apply. intros m _. unfold flux_e. apply D0_if; intros _; [|apply D0_const].
  eapply D0_ext; [| |exact (D0_mult _ _ _ _ (D0_scal (je Q m) _ _ (D0_aff (apply1 (i_ne O) (X c) m) (apply1 (i_ne O) (h c) m))) (D0_aff (xie S O Q X m) (dxi S Q h m)))].
  - intros t. cbv beta. rewrite xie_along, ie_along. reflexivity.
  - cbv beta. ring.
Qed.
Lemma D_weight m : xie S O Q X m <> 0 -> (1 <= m < K)%nat -> D0 (fun t => Rabs (xie S O Q (along X h t) m)) (sign_weight Q (xie S O Q X) m * h FW m).
Proof.
  intros N Hm. pose proof (D0_abs (fun t => xie S O Q X m + t * dxi S Q h m) _ ltac:(cbv beta; rewrite at0; exact N) (D0_aff _ _)) as D. cbv beta in D. rewrite at0 in D.
  eapply D0_ext; [| |exact D]; [intros; rewrite xie_along; reflexivity|]. unfold sign_weight, dxi. destruct (Nat.leb_spec 1 m), (Nat.ltb_spec m K); try lia. cbn [andb].
  destruct (Rlt_dec 0 (xie S O Q X m)); [ring|]. destruct (Rlt_dec (xie S O Q X m) 0); ring.
Qed.
Lemma D_pen c k : pen_fits S (pnl O) -> (k < K)%nat -> (forall m, (1 <= m < K)%nat -> xie S O Q X m <> 0) ->
  D0 (fun t => pen S O (xie S O Q (along X h t)) (along X h t c) k) (pen_row S O (xie S O Q X) (sign_weight Q (xie S O Q X)) (X c) (h c) (h FW) k).
Proof.
  intros Pf Hk N. destruct Pf as (Ho & HK & Hp).
  assert (Ha : (k / npe S < nfe S)%nat) by (apply Nat.div_lt_upper_bound; lia).
  assert (G : forall A m, (1 <= m < K)%nat -> D0 (fun t => apply1 A (along X h t c) k * Rabs (xie S O Q (along X h t) m))
    (sign_weight Q (xie S O Q X) m * apply1 A (X c) k * h FW m + Rabs (xie S O Q X m) * apply1 A (h c) k)).
  { intros A m Hm.
    eapply D0_ext; [| |exact (D0_mult _ _ _ _ (D0_aff (apply1 A (X c) k) (apply1 A (h c) k)) (D_weight m (N m Hm) Hm))].
    - intros t. cbv beta. unfold along at 1. rewrite ap_aff. reflexivity.
    - cbv beta. rewrite xie_along, !at0. ring. }
  apply (D0_ext (fun t => match pops (pnl O) with None => 0 | Some (L, Rt) =>
      (if (k / npe S + 1 <? nfe S)%nat then apply1 L (along X h t c) k * weights S (xie S O Q (along X h t)) (k / npe S) else 0) +
      (if (0 <? k / npe S)%nat then apply1 Rt (along X h t c) k * weights S (xie S O Q (along X h t)) (k / npe S - 1) else 0) end) _
    (pen_row S O (xie S O Q X) (sign_weight Q (xie S O Q X)) (X c) (h c) (h FW) k)); [|reflexivity|].
  { intros t. unfold pen. apply (pen_at S); [|exact Hk]. split; [exact Ho|split; [exact HK|exact Hp]]. }
  unfold pen_row. destruct (pops (pnl O)) as [[L Rt]|]; [|apply D0_const]. apply D0_plus.
  - apply D0_if; [|intros _; apply D0_const]. intros L1. apply Nat.ltb_lt in L1. apply G. nia.
  - apply D0_if; [|intros _; apply D0_const]. intros L1. apply Nat.ltb_lt in L1. cbv zeta. unfold weights. replace (k / npe S - 1 + 1)%nat with (k / npe S)%nat by lia. apply G. nia.
Qed.
Lemma D_time c k : D0 (fun t => (along X h t c k - start Q c k) * (1 / dt S)) (h c k * (1 / dt S)).
Proof.
  eapply D0_ext; [| |exact (D0_scalr (1 / dt S) _ _ (D0_aff (X c k - start Q c k) (h c k)))]; [intros; unfold along; ring|reflexivity].
Qed.
(** the rows of rho and rho theta *)
Lemma D_scalar c k : reads_edges S O -> pen_fits S (pnl O) -> on_levels S = false -> (k < K)%nat -> scalar c = true ->
  (upw S c = true -> forall m, (1 <= m < K)%nat -> xie S O Q X m <> 0) ->
  D0 (fun t => build_f S O Q (along X h t) c k)
    (row_dot (jacobian S O Q X) h c k - match c with FP => if uni S FP then sdiff S / (ztop S * ztop S) * apply1 (dd_nn O) (h FP) k else 0 | _ => 0 end).
Proof.
  intros Re Pf HL Hk Hc N. rewrite dot_scalar by assumption.
  set (FL := apply1 (d_en O) _ k * (1 / jn Q k)). set (PR := pen_row S O _ _ _ _ _ k).
  set (e := match c with FP => if uni S FP then sdiff S / (ztop S * ztop S) * apply1 (dd_nn O) (h FP) k else 0 | _ => 0 end).
  assert (EF : FL = apply1 (d_en O) (fun m => if ((1 <=? m) && (m <? K))%nat then je Q m * (dxi S Q h m * apply1 (i_ne O) (X c) m + xie S O Q X m * apply1 (i_ne O) (h c) m) else 0) k * (1 / jn Q k)).
  { unfold FL. f_equal. apply ap_ext. intros m _. destruct ((1 <=? m) && (m <? K))%nat eqn:E; [reflexivity|]. unfold dxi. rewrite E.
    rewrite (xie_end S O Q) by (destruct (Nat.leb_spec 1 m), (Nat.ltb_spec m K); cbn [andb] in E; try discriminate; lia). ring. }
  assert (DP : D0 (fun t => if upw S c then pen S O (xie S O Q (along X h t)) (along X h t c) k else 0) (if upw S c then PR else 0)).
  { apply D0_if; [|intros _; apply D0_const]. intros U. apply D_pen; [exact Pf|exact Hk|apply N, U]. }
  assert (DU : D0 (fun t => match c with FP => if uni S FP then sdiff S / (ztop S * ztop S) * dup O Q (along X h t) k else 0 | _ => 0 end) e).
  { destruct c; unfold e; try apply D0_const. apply D0_if; [|intros _; apply D0_const]. intros _. apply D0_scal. unfold dup, along.
    eapply D0_ext; [| |exact (D0_aff (apply1 (dd_nn O) (X FP) k - apply1 (dd_nn O) (ref_p Q) k) (apply1 (dd_nn O) (h FP) k))]; [|reflexivity]. intros t. rewrite ap_aff. ring. }
  pose proof (D0_plus _ _ _ _ (D0_minus _ _ _ _ (D0_minus _ _ _ _ (D0_scalr (1 / jn Q k) _ _ (D_flux c k)) DU) DP) (D_time c k)) as D.
  eapply D0_ext; [| |exact D].
  - intros t. unfold build_f, tendency, div_flux. rewrite HL. destruct (Nat.ltb_spec k K); [|lia]. destruct c; try discriminate; [reflexivity|].
    change (re O (along X h t)) with (apply1 (i_ne O) (along X h t FR)). destruct (upw S FR); ring.
  - rewrite EF. ring.
Qed.
(** the interior rows of W *)
Lemma D_velocity k : symmetric Q -> pen_fits S (pnl O) -> (1 <= k < K)%nat ->
  0 < PhysModel.gas (phys S) -> PhysModel.gas (phys S) < PhysModel.cp (phys S) -> 0 < PhysModel.p0 (phys S) ->
  (forall l, 0 < X FP l) -> re O X k <> 0 -> (upw S FW = true -> xie S O Q X k <> 0) ->
  D0 (fun t => build_f S O Q (along X h t) FW k)
    (row_dot (jacobian S O Q X) h FW k - (cae Q k 2%nat * dua O Q k + cbe Q k 2%nat * dub O Q k) * h FW k
     - (if uni S FW then vdiff S / (ztop S * ztop S) * apply1 (dd_ee O) (h FW) k else 0)).
Proof.
  intros Sy Pf Hk Hg Hc Hp Px Rx N. rewrite dot_velocity by assumption.
  assert (In : forall x, inner S k x = x).
  { intros x. unfold inner. destruct (Nat.eqb_spec k 0), (Nat.eqb_spec k K); try lia; reflexivity. }
  (* pressure gradient *)
  assert (D1 : D0 (fun t => dpe S O (along X h t) k) (PhysModel.gas (phys S) / PhysModel.get_cv (phys S) * apply1 (d_ne O) (fun m => exner S X m / X FP m * h FP m) k)).
  { rewrite <- ap_scal. unfold dpe. apply D0_apply. intros l _. eapply D0_ext; [| |exact (exner_deriv (phys S) (X FP l) (h FP l) Hg Hc Hp (Px l))]; [intros; reflexivity|].
    unfold exner, Rdiv. ring. }
  assert (DP : D0 (fun t => pe O (along X h t) k) (apply1 (i_ne O) (h FP) k)).
  { eapply D0_ext; [| |exact (D0_aff (pe O X k) (apply1 (i_ne O) (h FP) k))]; [intros; apply ie_along|reflexivity]. }
  assert (DR : D0 (fun t => re O (along X h t) k) (apply1 (i_ne O) (h FR) k)).
  { eapply D0_ext; [| |exact (D0_aff (re O X k) (apply1 (i_ne O) (h FR) k))]; [intros; apply ie_along|reflexivity]. }
  assert (R0 : re O (along X h 0) k = re O X k) by (unfold re; rewrite ie_along; ring).
  assert (P0 : pe O (along X h 0) k = pe O X k) by (unfold pe; rewrite ie_along; ring).
  assert (X0 : dpe S O (along X h 0) k = dpe S O X k).
  { unfold dpe. apply ap_ext. intros l _. unfold exner, along. rewrite at0. reflexivity. }
  assert (R1 : re O (along X h 0) k <> 0) by (rewrite R0; exact Rx).
  pose proof (D0_div _ (fun t => re O (along X h t) k) _ _ R1 (D0_mult _ _ _ _ D1 DP) DR) as D2. cbv beta in D2. rewrite R0, P0, X0 in D2.
  (* kinetic energy *)
  assert (D3 : D0 (fun t => apply1 (d_ne O) (kin O Q (along X h t)) k) (apply1 (d_ne O) (fun l => xin O Q X l * apply1 (i_en O) (h FW) l) k)).
  { apply D0_apply. intros l _. destruct (Sy l) as (S1 & S2).
    set (a := wn O X l). set (b := wn O h l).
    assert (DW : D0 (fun t => wn O (along X h t) l) b) by (eapply D0_ext; [| |exact (D0_aff a b)]; [intros; apply wn_along|reflexivity]).
    set (A := ca Q l 0%nat * u Q l + ca Q l 1%nat * v Q l). set (B := cb Q l 0%nat * u Q l + cb Q l 1%nat * v Q l). set (E := cx Q l 0%nat * u Q l + cx Q l 1%nat * v Q l).
    assert (DE : forall c0 c1, D0 (fun t => c0 + c1 * wn O (along X h t) l) (0 + c1 * b)) by (intros; apply (D0_plus (fun _ => c0)); [apply D0_const|apply D0_scal, DW]).
    pose proof (D0_scal (1 / 2) _ _ (D0_plus _ _ _ _ (D0_plus _ _ _ _ (D0_scalr (u Q l) _ _ (DE A (ca Q l 2%nat))) (D0_scalr (v Q l) _ _ (DE B (cb Q l 2%nat)))) (D0_mult _ _ _ _ (DE E (cx Q l 2%nat)) DW))) as D.
    eapply D0_ext; [| |exact D]; [intros; unfold kin; reflexivity|]. cbv beta. rewrite wn_along, at0. unfold xin. fold a b. change (apply1 (i_en O) (h FW) l) with b. rewrite S1, S2. unfold E. field. }
  (* rotational term *)
  assert (D4 : D0 (fun t => curl O Q (along X h t) k) (- ((cae Q k 2%nat * dua O Q k + cbe Q k 2%nat * dub O Q k) * h FW k))).
  { eapply D0_ext; [| |exact (D0_aff (curl O Q X k) (- ((cae Q k 2%nat * dua O Q k + cbe Q k 2%nat * dub O Q k) * h FW k)))]; [|reflexivity].
    intros t. unfold curl, along. ring. }
  assert (D5 : D0 (fun t => if uni S FW then vdiff S / (ztop S * ztop S) * duw S O Q (along X h t) k else 0) (if uni S FW then vdiff S / (ztop S * ztop S) * apply1 (dd_ee O) (h FW) k else 0)).
  { apply D0_if; [|intros _; apply D0_const]. intros _. apply D0_scal. unfold duw.
    eapply D0_ext; [| |exact (D0_aff (apply1 (dd_ee O) (X FW) k - apply1 (dd_ee O) (ref_w Q) k) (apply1 (dd_ee O) (h FW) k))]; [|reflexivity]. intros t. rewrite In. unfold along. rewrite ap_aff. ring. }
  assert (D6 : D0 (fun t => if upw S FW then ucoef S * Rabs (xie S O Q (along X h t) k) * ddw S O (along X h t) k else 0)
     (if upw S FW then ucoef S * sign_weight Q (xie S O Q X) k * ddw S O X k * h FW k + ucoef S * Rabs (xie S O Q X k) * apply1 (dd_ee O) (h FW) k else 0)).
  { apply D0_if; [|intros _; apply D0_const]. intros U.
    assert (DD : D0 (fun t => ddw S O (along X h t) k) (apply1 (dd_ee O) (h FW) k)).
    { eapply D0_ext; [| |exact (D0_aff (apply1 (dd_ee O) (X FW) k) (apply1 (dd_ee O) (h FW) k))]; [|reflexivity]. intros t. unfold ddw. rewrite In. unfold along. apply ap_aff. }
    eapply D0_ext; [| |exact (D0_mult _ _ _ _ (D0_scal (ucoef S) _ _ (D_weight k (N U) Hk)) DD)]; [intros; reflexivity|].
    cbv beta. rewrite xie_along, at0. unfold ddw. rewrite !In. unfold along. rewrite ap_aff, at0. ring. }
  pose proof (D0_plus _ _ _ _ (D0_minus _ _ _ _ (D0_minus _ _ _ _ (D0_plus _ _ _ _ (D0_plus _ _ _ _ D2 (D0_const (PhysModel.g (phys S) * dr Q k))) (D0_plus _ _ _ _ D3 D4)) D5) D6) (D_time FW k)) as D.
  eapply D0_ext; [| |exact D].
  - intros t. unfold build_f, tendency, w_force. rewrite In. reflexivity.
  - unfold Rsqr. assert (PhysModel.get_cv (phys S) <> 0) by (unfold PhysModel.get_cv; lra). generalize (1 / dt S). intros z. field. split; assumption.
Qed.
(** the rows at the ends *)
Lemma D_boundary c k : pen_fits S (pnl O) -> (k <= K)%nat -> k = K \/ (k = 0%nat /\ c = FW) ->
  D0 (fun t => build_f S O Q (along X h t) c k) (row_dot (jacobian S O Q X) h c k).
Proof.
  intros Pf Hk H. rewrite dot_boundary by assumption. eapply D0_ext; [| |exact (D_time c k)]; [|reflexivity]. intros t. unfold build_f.
  assert (T : tendency S O Q (along X h t) c k = 0).
  { destruct H as [->|(-> & ->)]; [|reflexivity]. destruct c; unfold tendency, inner; rewrite ?Nat.ltb_irrefl, ?Nat.eqb_refl, ?orb_true_r; reflexivity. }
  rewrite T. ring.
Qed.
End Derivative.
