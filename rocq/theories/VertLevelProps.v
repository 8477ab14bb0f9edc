(** * VerticalDynamicsFEM with mass fluxes on levels: property C76 *)
From Coq Require Import Reals List Arith Bool Lia Lra ZArith.
From Verif Require PhysModel.
From Verif Require Import VertModel VertSpec VertProofs VertProofs2.
From Verif Require Import QuadSpec InterpModel InterpSpec InterpProofs ColModel ColSpec ColProofs ColProps FemModel FemSpec FemProofs FemProofs2 FemProps.
From Verif Require Import FluxModel FluxSpec FluxProofs FluxProofs2 FluxProofs3 FluxProofs6 FluxProofs7 FluxProps VertOps QuadModel VertProps.
Import ListNotations.
Local Open Scope R_scope.

(** the interfaces at both ends are the ground and the top, up to 1e-12 *)
Definition whole (itf : list R) : Prop := Rabs (nth 0 itf 0) < / 10 ^ 12 /\ Rabs (nth (length itf - 1) itf 0 - 1) < / 10 ^ 12.

(** the sum over the column of the derivative with zero boundaries vanishes *)
Lemma levels_closed o ne lev itf omega A : column o ne lev itf -> levels_inside o ne lev itf -> (o = 1%nat -> (2 <= ne)%nat) -> whole itf ->
  (forall a, (a < ne)%nat -> integrates_on (o + 1) o lev (a * o) (edge o itf a) (edge o itf (a + 1)) (omega a)) ->
  diff_interface Levels o lev itf lev true = Built A ->
  forall f, sum (fun k => by_element o omega k * apply1 A f k) (ne * o) = 0.
Proof.
  intros C I O1 (W0 & W1) Hw EA f. pose proof C as (Ho & Hne & Ln & Le & Sn & Se).
  assert (Nn : lev <> []) by (intros ->; cbn in Ln; nia).
  destruct (C51_interfaces o ne lev itf lev false C Nn) as (D & ED & WD & ND & CD & _).
  destruct (C50_levels o ne lev itf itf C) as (B & EB & WB & NB & CB & HB).
  { destruct itf; [cbn in Le; lia|discriminate]. } { exact (edges_order_one _ _ _ _ C O1). }
  destruct (C50_boundaries _ _ _ _ _ _ EB) as (Z & EZ & NZ & CZ & HZ).
  assert (WZ : wf Z).
  { pose proof EZ as EZ0. unfold interp in EZ. destruct (o =? 0)%nat; [discriminate|]. destruct (length lev =? 0)%nat; [discriminate|].
    destruct (negb (length itf =? length lev + 1)%nat); [discriminate|]. destruct (negb (length lev mod o =? 0)%nat); [discriminate|].
    cbv zeta in EZ. cbn [andb] in EZ.
    match type of EZ with build ?a ?b ?f = _ => destruct (build_ok a b f (fun _ _ _ _ => True)) as (Z' & EZ' & WZ' & _) end.
    - cbn [rows_in]. nia.
    - lia.
    - intros l Hl. match goal with |- context [if ?b then _ else _] => destruct b end.
      + do 3 eexists. split; [reflexivity|]. split; [|exact Logic.I]. split; [apply zero_row_length|]. split; [lia|]. intros. apply zero_row_val.
      + destruct (interp_row_levels o ne lev itf itf C l (edges_order_one _ _ _ _ C O1) Hl) as (q & b & e & E & G & _).
        exists q, b, e. split; [exact E|]. split; [exact G|exact Logic.I].
    - rewrite EZ' in EZ. injection EZ as <-. exact WZ'. }
  destruct (proj2 (C34_compose D Z WD WZ ltac:(lia) ltac:(nia)) ltac:(lia)) as (A' & EA' & WA & NA & CA & HA).
  assert (A = A') as ->.
  { pose proof ED as ED'. unfold diff_interface in EA, ED'. destruct (o =? 0)%nat; [discriminate|]. destruct (length lev =? 0)%nat; [discriminate|].
    destruct (negb (length itf =? length lev + 1)%nat); [discriminate|]. destruct (negb (length lev mod o =? 0)%nat); [discriminate|].
    cbv zeta in EA, ED'. rewrite ED', EZ in EA. cbn [compose_outcome] in EA. rewrite EA' in EA. injection EA as ->. reflexivity. }
  pose proof (telescopes_elements o ne lev itf D omega C I Hw ED (apply1 Z f)) as T.
  rewrite (proj1 (HZ f 0%nat ltac:(lia))) in T by (left; split; [reflexivity|exact W0]).
  rewrite (proj1 (HZ f (ne * o)%nat ltac:(lia))) in T by (right; split; [lia|replace (ne * o)%nat with (length itf - 1)%nat by lia; exact W1]).
  rewrite Rminus_0_r in T. rewrite <- T. apply sum_ext. intros k Hk. f_equal. apply HA. lia.
Qed.

(** finite elements: what a column contains changes as in C76_budget *)
Theorem C76_levels : forall S sol gauss lobatto o ne lev itf slev sitf omega O Q X c,
  column o ne lev itf -> levels_inside o ne lev itf -> (o = 1%nat -> (2 <= ne)%nat) -> whole itf ->
  (forall a, (a < ne)%nat -> integrates_on (o + 1) o lev (a * o) (edge o itf a) (edge o itf (a + 1)) (omega a)) ->
  element_operators sol gauss lobatto o lev itf slev sitf = Some O -> rlev S = (ne * o)%nat ->
  (forall k, (k < rlev S)%nat -> jn Q k <> 0) -> on_levels S = true -> density c ->
  content (rlev S) (by_element o omega) (jn Q) (build_f S O Q X c) =
  (content (rlev S) (by_element o omega) (jn Q) (X c) - content (rlev S) (by_element o omega) (jn Q) (start Q c)) * (1 / dt S)
  - (if upw S c then content (rlev S) (by_element o omega) (jn Q)
       (fun k => pen_apply (pnl O) (fun a => Rabs (xie S O Q X ((a + 1) * npe S)%nat)) (X c) (fun _ => 0) k) else 0)
  - (match c with FP => if uni S FP then sdiff S / (ztop S * ztop S) *
       content (rlev S) (by_element o omega) (jn Q) (fun k => apply1 (dd_nn O) (X FP) k - apply1 (dd_nn O) (ref_p Q) k) else 0 | _ => 0 end).
Proof.
  intros S sol gauss lobatto o ne lev itf slev sitf omega O Q X c C I O1 W Hw EO EK HJ HL Hc.
  assert (EA : diff_interface Levels o lev itf lev true = Built (d_nn0 O)).
  { unfold element_operators, bundle in EO.
    repeat match type of EO with match ?x with Built _ => _ | _ => _ end = _ => destruct x eqn:?; try discriminate end.
    destruct (penalty_fem sol o lev itf) in EO; try discriminate. injection EO as <-. cbn [d_nn0]. reflexivity. }
  pose proof (levels_closed o ne lev itf omega (d_nn0 O) C I O1 W Hw EA) as Cl. rewrite content_build. set (om := by_element o omega) in *.
  assert (E : forall f, content (rlev S) om (jn Q) (fun k => apply1 (d_nn0 O) f k * (1 / jn Q k)) = 0).
  { intros f. unfold content. rewrite (sum_ext _ (fun k => om k * apply1 (d_nn0 O) f k)) by (intros k Hk; field; apply HJ, Hk). rewrite EK. apply Cl. }
  assert (C0 : content (rlev S) om (jn Q) (fun _ => 0) = 0) by (apply content_zero; reflexivity).
  destruct Hc as [->| ->].
  - rewrite (content_ext _ _ _ (tendency S O Q X FP) (fun k => apply1 (d_nn0 O) (flux_n O Q (X FP) X) k * (1 / jn Q k) -
      (if uni S FP then sdiff S / (ztop S * ztop S) * dup O Q X k else 0) - (if upw S FP then pen S O (xie S O Q X) (X FP) k else 0))).
    + rewrite !content_minus, E. unfold pen, weights.
      destruct (uni S FP), (upw S FP); rewrite ?(content_scal _ _ _ (sdiff S / (ztop S * ztop S)) (dup O Q X)), ?C0; unfold dup; rewrite ?content_minus; ring.
    + intros k Hk. unfold tendency. destruct (Nat.ltb_spec k (rlev S)); [|lia]. unfold div_flux. rewrite HL. reflexivity.
  - rewrite (content_ext _ _ _ (tendency S O Q X FR) (fun k => apply1 (d_nn0 O) (flux_n O Q (X FR) X) k * (1 / jn Q k) -
      (if upw S FR then pen S O (xie S O Q X) (X FR) k else 0))).
    + rewrite !content_minus, E. unfold pen, weights. destruct (upw S FR); rewrite ?C0; ring.
    + intros k Hk. unfold tendency. destruct (Nat.ltb_spec k (rlev S)); [|lia]. unfold div_flux. rewrite HL. reflexivity.
Qed.
(** and the tendency is the divergence of fluxes that are polynomials vanishing at the ends *)
Theorem C76_levels_exact : forall S sol gauss lobatto o ne lev itf slev sitf O Q X c p g k,
  column o ne lev itf -> (o = 1%nat -> (2 <= ne)%nat) -> element_operators sol gauss lobatto o lev itf slev sitf = Some O -> rlev S = (ne * o)%nat ->
  on_levels S = true -> density c -> upw S c = false -> uni S c = false -> (k < rlev S)%nat ->
  (length p <= o)%nat -> (forall x, derivable_pt_lim (peval p) x (g x)) -> peval p (nth 0 itf 0) = 0 -> peval p (nth (length itf - 1) itf 0) = 0 ->
  (forall l, jn Q l * X c l * (cx Q l 0%nat * u Q l + cx Q l 1%nat * v Q l + cx Q l 2%nat * apply1 (i_en O) (X FW) l) = peval p (nth l lev 0)) ->
  tendency S O Q X c k = g (nth k lev 0) * (1 / jn Q k).
Proof.
  intros S sol gauss lobatto o ne lev itf slev sitf O Q X c p g k C O1 EO EK HL Hc U1 U2 Hk Lp Hg P0 P1 Hf. pose proof C as (Ho & Hne & Ln & Le & Sn & Se).
  assert (Nn : lev <> []) by (intros ->; cbn in Ln; nia).
  assert (EA : diff_interface Levels o lev itf lev true = Built (d_nn0 O)).
  { unfold element_operators, bundle in EO.
    repeat match type of EO with match ?x with Built _ => _ | _ => _ end = _ => destruct x eqn:?; try discriminate end.
    destruct (penalty_fem sol o lev itf) in EO; try discriminate. injection EO as <-. cbn [d_nn0]. reflexivity. }
  destruct (C51_levels_zero o ne lev itf lev C Nn O1) as (A & EA' & _ & _ & H). rewrite EA in EA'. injection EA' as <-.
  assert (E : tendency S O Q X c k = apply1 (d_nn0 O) (flux_n O Q (X c) X) k * (1 / jn Q k)).
  { unfold tendency. destruct Hc as [->| ->]; rewrite U1, ?U2; destruct (Nat.ltb_spec k (rlev S)); try lia; unfold div_flux; rewrite HL; ring. }
  rewrite E. f_equal. rewrite <- (H k p g (eq_ind_r (fun n => (k < n)%nat) ltac:(rewrite <- EK; exact Hk) Ln) Lp (ex_intro _ g (conj Hg (fun t => eq_refl))) P0 P1).
  apply ap_ext. intros l _. apply Hf.
Qed.
(** finite volumes: the operator is never set up, and nothing is transported *)
Theorem C76_levels_volumes_refuted : forall S sol gauss lobatto o lev itf O Q X c k,
  volume_operators sol gauss lobatto o lev itf = Some O -> on_levels S = true -> density c -> upw S c = false -> uni S c = false -> tendency S O Q X c k = 0.
Proof.
  intros S sol gauss lobatto o lev itf O Q X c k EO HL Hc U1 U2.
  assert (EA : d_nn0 O = no_op).
  { unfold volume_operators, bundle in EO.
    repeat match type of EO with match ?x with Built _ => _ | _ => _ end = _ => destruct x eqn:?; try discriminate end.
    all: destruct (penalty_rec o lev itf) in EO; try discriminate; injection EO as <-; cbn [d_nn0]; congruence. }
  assert (E : forall f, apply1 (d_nn0 O) f k = 0) by (intros f; rewrite EA; unfold apply1, no_op; cbn [beg fin]; destruct k; reflexivity).
  unfold tendency. destruct Hc as [->| ->]; rewrite U1, ?U2; destruct (k <? rlev S)%nat; try reflexivity; unfold div_flux; rewrite HL, E; ring.
Qed.

(** two elements of order one with a flux through the levels *)
Example C76_levels_case : exists S sol O Q (X : vector), column 1 2 [1/4; 3/4] [0; 1/2; 1] /\ levels_inside 1 2 [1/4; 3/4] [0; 1/2; 1] /\ whole [0; 1/2; 1] /\
  (forall a, (a < 2)%nat -> integrates_on (1 + 1) 1 [1/4; 3/4] (a * 1) (edge 1 [0; 1/2; 1] a) (edge 1 [0; 1/2; 1] (a + 1)) (fun _ => 1 / 2)) /\
  element_operators sol gauss_rule lobatto_rule 1 [1/4; 3/4] [0; 1/2; 1] [1/4; 3/4] [0; 1/2; 1] = Some O /\ rlev S = 2%nat /\ on_levels S = true /\
  (forall k, 0 < jn Q k) /\ (forall k, 0 < X FR k) /\ u Q 0%nat * cx Q 0%nat 0%nat = 1.
Proof.
  assert (C : column 1 2 [1/4; 3/4] [0; 1/2; 1]).
  { split; [lia|]. split; [lia|]. split; [reflexivity|]. split; [reflexivity|].
    assert (P : / 10 ^ 11 <= 1 / 10) by (replace (1 / 10) with (/ 10 ^ 1) by field; apply Rinv_le_contravar; [apply pow_lt; lra|]; apply Rle_pow; [lra|lia]).
    split; intros i j Hij; cbn [length] in Hij; destruct i as [|[|[|i]]], j as [|[|[|j]]]; cbn [nth]; try lia; lra. }
  assert (P : 0 < / 10 ^ 12 <= 1 / 10) by (split; [apply Rinv_0_lt_compat, pow_lt; lra|]; replace (1 / 10) with (/ 10 ^ 1) by field; apply Rinv_le_contravar; [apply pow_lt; lra|]; apply Rle_pow; [lra|lia]).
  assert (I : levels_inside 1 2 [1/4; 3/4] [0; 1/2; 1]).
  { intros a i Ha Hi. destruct i; [|lia]. unfold edge. destruct a as [|[|a]]; [..|lia]; cbn [Nat.mul Nat.add nth]; split; lra. }
  assert (Hw : forall n a, (n <= 3)%nat -> (a < 2)%nat -> integrates_on n 1 [1/4; 3/4] (a * 1) (edge 1 [0; 1/2; 1] a) (edge 1 [0; 1/2; 1] (a + 1)) (fun _ => 1 / 2)).
  { intros n a Hn Ha F f LF Hf. rewrite sum_S, sum_0.
    assert (D : exists a0 a1 a2, forall x, peval F x = a0 + x * (a1 + x * a2)).
    { destruct F as [|a0 [|a1 [|a2 [|]]]]; cbn [length] in LF; try lia; [exists 0, 0, 0|exists a0, 0, 0|exists a0, a1, 0|exists a0, a1, a2]; intros x; cbn; ring. }
    destruct D as (a0 & a1 & a2 & E).
    assert (Ef : forall x, f x = a1 + 2 * a2 * x).
    { intros x. apply (uniqueness_limite (peval F) x); [apply Hf|].
      assert (G : derivable_pt_lim (fun t => a0 + t * (a1 + t * a2)) x (0 + (1 * (a1 + x * a2) + x * (0 + 1 * a2)))).
      { apply (derivable_pt_lim_plus (fun _ => a0) (fun t => t * (a1 + t * a2))); [apply derivable_pt_lim_const|].
        apply (derivable_pt_lim_mult (fun t => t) (fun t => a1 + t * a2)); [apply derivable_pt_lim_id|].
        apply (derivable_pt_lim_plus (fun _ => a1) (fun t => t * a2)); [apply derivable_pt_lim_const|].
        replace (1 * a2) with (1 * a2 + x * 0) by ring. apply (derivable_pt_lim_mult (fun t => t) (fun _ => a2)); [apply derivable_pt_lim_id|apply derivable_pt_lim_const]. }
      replace (a1 + 2 * a2 * x) with (0 + (1 * (a1 + x * a2) + x * (0 + 1 * a2))) by ring.
      intros eps He. destruct (G eps He) as (d & Hd). exists d. intros h H1 H2. rewrite !E. apply Hd; assumption. }
    rewrite Ef, !E. unfold edge. destruct a as [|[|a]]; [..|lia]; cbn [Nat.mul Nat.add nth]; field. }
  destruct C59_case as (_ & _ & (sol & Sv) & _). destruct (C60_tables 1 ltac:(lia)) as (G1 & _). destruct (C60_tables 2 ltac:(lia)) as (_ & L2).
  destruct (G1 ltac:(lia)) as (GG & SG). destruct (L2 ltac:(lia)) as (GL & SL & _).
  set (S := Settings 2 2 1 (fun _ => false) (fun _ => false) false false false false 1 1 1 1 true true 1 ex_phys).
  destruct (proj2 (C76_operators S) sol gauss_rule lobatto_rule 1%nat 2%nat [1/4; 3/4] [0; 1/2; 1] [1/4; 3/4] [0; 1/2; 1] (fun _ _ => 1 / 2)) as (O & EO & _); try assumption; try reflexivity.
  { intros a Ha. apply Hw; [lia|exact Ha]. }
  exists S, sol, O, (ex_col (fun _ => 1) 1 (fun _ => 1) (ex_state 1 1 1 1)), (ex_state 1 1 1 1).
  split; [exact C|]. split; [exact I|]. split; [split; cbn [length nth Nat.sub]; rewrite ?Rminus_eq_0; try (replace (1 - 1) with 0 by ring); rewrite Rabs_R0; lra|].
  split; [intros a Ha; apply Hw; [lia|exact Ha]|]. split; [exact EO|]. split; [reflexivity|]. split; [reflexivity|].
  split; [intros; cbn; lra|]. split; [intros k; cbn; pose proof (pos_INR k); lra|]. cbn. ring.
Qed.
Print Assumptions C76_levels.
Print Assumptions C76_levels_exact.
Print Assumptions C76_levels_volumes_refuted.
