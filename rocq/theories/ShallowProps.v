(** * C53, C54, C55: the shallow-water step *)
From Coq Require Import ZArith Reals List Lia Lra Psatz.
From Verif Require Import QuadModel QuadSpec InterpModel ShallowModel ShallowSpec ShallowProofs.
Import ListNotations.
Local Open Scope R_scope.

(** ** C55: the reference element *)

(** every literal of the fourth order tables is a double, the nearest one to the
    decimal in the source: doubles between 1/16 and 16 are at least 2^-57 apart *)
Definition literal (l : Z * R) : Prop :=
  exists m e, (0 < m < 2 ^ 53)%Z /\ snd l = IZR m / 2 ^ e /\ Rabs (IZR (fst l) / 10 ^ 30 - snd l) <= / 10 ^ 29.
Local Ltac lit m e := exists m, e; split; [split; reflexivity|split; [reflexivity|]];
  unfold lit_gl1, lit_gl2, lit_w0, lit_w1, lit_809, lit_309, lit_161, lit_223, lit_061; cbn [fst snd]; unfold dbl; apply Rabs_le; split; lra.
Theorem C55_literals : Forall literal [lit_gl1; lit_gl2; lit_w0; lit_w1; lit_809; lit_309; lit_161; lit_223; lit_061].
Proof.
  repeat apply Forall_cons; [..|apply Forall_nil].
  - lit 1244764322660933%Z 52%nat.
  - lit 3258835304709563%Z 52%nat.
  - lit 1501199875790165%Z 54%nat.
  - lit 7505999378950827%Z 54%nat.
  - lit 4554360793004265%Z 49%nat.
  - lit 1739611025897705%Z 49%nat.
  - lit 910872158600853%Z 49%nat.
  - lit 629397181890197%Z 48%nat.
  - lit 347922205179541%Z 49%nat.
Qed.

Definition exact4 (i : nat) : R := nth i [1 / 12; 5 / 12; 5 / 12; 1 / 12] 0.
Local Ltac four i Hi := destruct i as [|[|[|[|i]]]]; [| | | |exfalso; lia].
Lemma basis4_sum : annihilates_constants 4 (bD basis4).
Proof. intros i Hi. four i Hi; cbn; unfold dbl; lra. Qed.
Lemma basis4_adjoint : adjoint 4 exact4 (bD basis4) (bS basis4).
Proof. intros m i Hm Hi. four m Hm; four i Hi; cbn; unfold dbl; lra. Qed.
Lemma basis4_weights : weights_of 4 (bW basis4) exact4.
Proof.
  intros i Hi. replace (1 / 10 ^ 16) with (1 / 10000000000000000) by field.
  four i Hi; (repeat apply conj; [cbn; lra|cbn; unfold dbl; apply Rabs_le; split; lra|congruence]).
Qed.
Lemma basis4_symmetric : symmetric 4 exact4.
Proof. intros i Hi. four i Hi; reflexivity. Qed.
Lemma lobatto_cases n : (2 <= n <= 10)%nat -> n <> 4%nat ->
  exists g w, lobatto_table (Z.of_nat n) = Table g w /\ gaps g = true /\ forallb (Z.ltb 0) w = true /\ length g = n /\ length w = n /\ rev w = w.
Proof.
  intros Hn N4. do 11 (destruct n as [|n]; [try (exfalso; lia); try (do 2 eexists; repeat apply conj; reflexivity)|]).
  exfalso; lia.
Qed.
(** for every tabulated order the stiffness matrix is the transpose of the
    derivative matrix under the quadrature, and constants have no derivative *)
Theorem C55_reference : forall n, (2 <= n <= 10)%nat -> exists B w, gll_basis n = Some B /\
  weights_of n (bW B) w /\ symmetric n w /\ annihilates_constants n (bD B) /\ adjoint n w (bD B) (bS B).
Proof.
  intros n Hn. unfold gll_basis. destruct (Nat.eqb_spec n 4) as [->|N4].
  - exists basis4, exact4. auto using basis4_weights, basis4_symmetric, basis4_sum, basis4_adjoint.
  - destruct (lobatto_cases n Hn N4) as (g & w & -> & G & P & Lg & Lw & Rw).
    destruct (basis_any_ok n g w G P Lg Lw ltac:(lia)) as (B & E & H0 & H1 & H2 & H3 & _). exists B, (bW B).
    split; [exact E|]. split; [|auto]. intros i Hi. repeat apply conj; auto.
    replace (bW B i - bW B i) with 0 by ring. rewrite Rabs_R0. apply Rlt_le, Rdiv_lt_0_compat; [lra|]. apply pow_lt. lra.
Qed.
(** the derivative matrix differentiates exactly every polynomial the nodes
    determine ... *)
Theorem C55_exact : forall n, (2 <= n <= 10)%nat -> n <> 4%nat -> exists B, gll_basis n = Some B /\
  forall i p f', (i < n)%nat -> (length p <= n)%nat -> (forall t, derivable_pt_lim (peval p) t (f' t)) ->
    nsum n (fun m => peval p (bG B m) * bD B m i) = f' (bG B i).
Proof.
  intros n Hn N4. unfold gll_basis. destruct (Nat.eqb_spec n 4) as [->|_]; [congruence|].
  destruct (lobatto_cases n Hn N4) as (g & w & -> & G & P & Lg & Lw & Rw).
  destruct (basis_any_ok n g w G P Lg Lw ltac:(lia)) as (B & E & _ & _ & _ & _ & H). exists B. auto.
Qed.
(** ... and, for the hard-coded order 4, up to rounding of the table *)
Theorem C55_exact4 : forall i c0 c1 c2 c3, (i < 4)%nat ->
  Rabs (nsum 4 (fun m => peval [c0; c1; c2; c3] (bG basis4 m) * bD basis4 m i) -
        (c1 + 2 * c2 * bG basis4 i + 3 * c3 * (bG basis4 i * bG basis4 i))) <=
  2 / 10 ^ 15 * (Rabs c1 + Rabs c2 + Rabs c3).
Proof.
  intros i c0 c1 c2 c3 Hi.
  replace (2 / 10 ^ 15) with (2 / 1000000000000000) by field.
  pose proof (Rle_abs c1). pose proof (Rle_abs (- c1)). pose proof (Rle_abs c2). pose proof (Rle_abs (- c2)).
  pose proof (Rle_abs c3). pose proof (Rle_abs (- c3)). rewrite !Rabs_Ropp in *.
  four i Hi; cbn; unfold dbl; apply Rabs_le; split; lra.
Qed.

(** ** Values after the step *)
Section After.
Context (n : nat) (B : basis) (g : geometry) (init u : state) (nt : nat) (dt : R) (h : Z) (nA nB a b : nat).
Context (Ha : (a < nA)%nat) (Hb : (b < nB)%nat).
Local Notation z := Z.of_nat.
Local Notation p := (h + z (a * n))%Z.
Local Notation q := (h + z (b * n))%Z.
Local Notation after := (step n B g init nt dt h nA nB u).
Local Lemma first_eq c : first_node n h c = (h + z (c * n))%Z.
Proof. unfold first_node. lia. Qed.
Local Lemma in_pl i j : (i < n)%nat -> (j < n)%nat -> In (Spot a b i j) (spots n nA nB).
Proof. intros Hi Hj. apply in_spots. cbn. auto. Qed.
Lemma after_u i j : (i < n)%nat -> (j < n)%nat ->
  sU after (p + z i)%Z (q + z j)%Z = sU u (p + z i)%Z (q + z j)%Z + dt * upd_ua n B g init p q i j.
Proof.
  intros Hi Hj. pose proof (step_there n B g init nt dt h nA nB sU (du n B g init dt h) (body_u n B g init nt dt h) u _ (in_pl i j Hi Hj)) as E.
  unfold px, py, du in E. cbn [pa pb pi pj] in E. rewrite !first_eq in E. exact E.
Qed.
Lemma after_v i j : (i < n)%nat -> (j < n)%nat ->
  sV after (p + z i)%Z (q + z j)%Z = sV u (p + z i)%Z (q + z j)%Z + dt * upd_ub n B g init p q i j.
Proof.
  intros Hi Hj. pose proof (step_there n B g init nt dt h nA nB sV (dv n B g init dt h) (body_v n B g init nt dt h) u _ (in_pl i j Hi Hj)) as E.
  unfold px, py, dv in E. cbn [pa pb pi pj] in E. rewrite !first_eq in E. exact E.
Qed.
Lemma after_h i j : (i < n)%nat -> (j < n)%nat ->
  sH after (p + z i)%Z (q + z j)%Z = sH u (p + z i)%Z (q + z j)%Z -
    dt * (1 / gJ g (p + z i)%Z (q + z j)%Z) * (v_alpha n B g (mass_a g init) p q i j + v_beta n B g (mass_b g init) p q i j).
Proof.
  intros Hi Hj. pose proof (step_there n B g init nt dt h nA nB sH (dh n B g init dt h) (body_h n B g init nt dt h) u _ (in_pl i j Hi Hj)) as E.
  unfold dh, px, py in E. cbn [pa pb pi pj] in E. rewrite !first_eq in E. exact E.
Qed.
Lemma after_t c i j : (c < nt)%nat -> (i < n)%nat -> (j < n)%nat ->
  sT after c (p + z i)%Z (q + z j)%Z = sT u c (p + z i)%Z (q + z j)%Z -
    dt * (1 / gJ g (p + z i)%Z (q + z j)%Z) * (v_alpha n B g (trac_a g init c) p q i j + v_beta n B g (trac_b g init c) p q i j).
Proof.
  intros Hc Hi Hj. pose proof (step_there n B g init nt dt h nA nB (fun s => sT s c) (dq n B g init dt h c)
    (fun v t => body_t n B g init nt dt h c v t Hc) u _ (in_pl i j Hi Hj)) as E.
  unfold dq, px, py in E. cbn [pa pb pi pj] in E. rewrite !first_eq in E. exact E.
Qed.
End After.

(** ** C53: mass and tracers *)
Lemma flux_conserved n B g w p q F F' (J f f' : field) dt : annihilates_constants n (bD B) -> adjoint n w (bD B) (bS B) ->
  (forall i j, (i < n)%nat -> (j < n)%nat -> J (p + Z.of_nat i)%Z (q + Z.of_nat j)%Z <> 0 /\
     f' (p + Z.of_nat i)%Z (q + Z.of_nat j)%Z = f (p + Z.of_nat i)%Z (q + Z.of_nat j)%Z -
       dt * (1 / J (p + Z.of_nat i)%Z (q + Z.of_nat j)%Z) * (v_alpha n B g F p q i j + v_beta n B g F' p q i j)) ->
  element_sum n w p q (fun x y => J x y * f' x y) = element_sum n w p q (fun x y => J x y * f x y).
Proof.
  intros HD HA H. change (element_sum n w p q (fun x y => J x y * f' x y)) with
    (esum n w (fun i j => J (p + Z.of_nat i)%Z (q + Z.of_nat j)%Z * f' (p + Z.of_nat i)%Z (q + Z.of_nat j)%Z)).
  change (element_sum n w p q (fun x y => J x y * f x y)) with
    (esum n w (fun i j => J (p + Z.of_nat i)%Z (q + Z.of_nat j)%Z * f (p + Z.of_nat i)%Z (q + Z.of_nat j)%Z)).
  rewrite (esum_ext n w _ (fun i j => J (p + Z.of_nat i)%Z (q + Z.of_nat j)%Z * f (p + Z.of_nat i)%Z (q + Z.of_nat j)%Z +
    - dt * (v_alpha n B g F p q i j + v_beta n B g F' p q i j))).
  - rewrite esum_plus, esum_scal, esum_plus, (v_alpha_zero n B g w p q HA F HD), (v_beta_zero n B g w p q HA F' HD). ring.
  - intros i j Hi Hj. destruct (H i j Hi Hj) as (Nz & ->). field. exact Nz.
Qed.

Local Ltac reference n Hn HB B w W HD HA :=
  let B' := fresh in let E := fresh in
  destruct (C55_reference n Hn) as (B' & w & E & W & Sy & HD & HA);
  rewrite HB in E; injection E as <-; exists w; split; [exact W|]; clear Sy.

(** In every element the mass sum w_i w_j J h does not change, whatever the state,
    the metric, the topography and the array that is updated; the same for each
    tracer. *)
Theorem C53_mass : forall n B, (2 <= n <= 10)%nat -> gll_basis n = Some B -> exists w, weights_of n (bW B) w /\
  forall g init u nt dt h nA nB a b, (a < nA)%nat -> (b < nB)%nat -> in_element n h a b (fun x y => gJ g x y <> 0) ->
  let p := (h + Z.of_nat (a * n))%Z in let q := (h + Z.of_nat (b * n))%Z in
  element_sum n w p q (fun x y => gJ g x y * sH (step n B g init nt dt h nA nB u) x y) =
  element_sum n w p q (fun x y => gJ g x y * sH u x y).
Proof.
  intros n B Hn HB. reference n Hn HB B w W HD HA. intros g init u nt dt h nA nB a b Ha Hb NJ p q.
  apply (flux_conserved n B g w p q (mass_a g init) (mass_b g init) (gJ g) (sH u) _ dt HD HA).
  intros i j Hi Hj. split; [apply NJ; assumption|]. apply after_h; assumption.
Qed.
Theorem C53_tracer : forall n B, (2 <= n <= 10)%nat -> gll_basis n = Some B -> exists w, weights_of n (bW B) w /\
  forall g init u nt dt h nA nB a b c, (a < nA)%nat -> (b < nB)%nat -> in_element n h a b (fun x y => gJ g x y <> 0) ->
  let p := (h + Z.of_nat (a * n))%Z in let q := (h + Z.of_nat (b * n))%Z in
  element_sum n w p q (fun x y => gJ g x y * sT (step n B g init nt dt h nA nB u) c x y) =
  element_sum n w p q (fun x y => gJ g x y * sT u c x y).
Proof.
  intros n B Hn HB. reference n Hn HB B w W HD HA. intros g init u nt dt h nA nB a b c Ha Hb NJ p q.
  destruct (Nat.lt_ge_cases c nt) as [Hc|Hc].
  - apply (flux_conserved n B g w p q (trac_a g init c) (trac_b g init c) (gJ g) (sT u c) _ dt HD HA).
    intros i j Hi Hj. split; [apply NJ; assumption|]. apply after_t; assumption.
  - assert (E : sT (step n B g init nt dt h nA nB u) c = sT u c); [|rewrite E; reflexivity].
    rewrite step_spots. generalize (spots n nA nB) as l. intros l. revert u. induction l as [|t l IH]; intros u; [reflexivity|].
    cbn [fold_left]. rewrite IH. apply body_t_other. exact Hc.
Qed.
(** hence for the whole patch *)
Theorem C53_patch : forall n B, (2 <= n <= 10)%nat -> gll_basis n = Some B -> exists w, weights_of n (bW B) w /\
  forall g init u nt dt h nA nB, (forall a b, (a < nA)%nat -> (b < nB)%nat -> in_element n h a b (fun x y => gJ g x y <> 0)) ->
  patch_sum n w h nA nB (fun x y => gJ g x y * sH (step n B g init nt dt h nA nB u) x y) =
  patch_sum n w h nA nB (fun x y => gJ g x y * sH u x y).
Proof.
  intros n B Hn HB. destruct (C53_mass n B Hn HB) as (w & W & H). exists w. split; [exact W|].
  intros g init u nt dt h nA nB NJ. unfold patch_sum. apply nsum_ext. intros a Ha. apply nsum_ext. intros b Hb.
  apply H; auto.
Qed.
(** A tracer proportional to the depth before the step stays proportional to it. *)
Theorem C53_consistent : forall n B g init u nt dt h nA nB a b c k, (a < nA)%nat -> (b < nB)%nat -> (c < nt)%nat ->
  in_element n h a b (fun x y => sT init c x y = k * (sH init x y - gTopo g x y)) ->
  in_element n h a b (fun x y => sT u c x y = k * (sH u x y - gTopo g x y)) ->
  in_element n h a b (fun x y => sT (step n B g init nt dt h nA nB u) c x y =
    k * (sH (step n B g init nt dt h nA nB u) x y - gTopo g x y)).
Proof.
  intros n B g init u nt dt h nA nB a b c k Ha Hb Hc Hi0 Hu0 i j Hi Hj. rewrite after_t, after_h by assumption.
  rewrite (Hu0 i j Hi Hj). set (p := (h + Z.of_nat (a * n))%Z). set (q := (h + Z.of_nat (b * n))%Z).
  assert (EA : v_alpha n B g (trac_a g init c) p q i j = k * v_alpha n B g (mass_a g init) p q i j).
  { rewrite !v_alpha_sum. rewrite (nsum_ext n _ (fun s => k * (mass_a g init (p + Z.of_nat s)%Z (q + Z.of_nat j)%Z * bS B i s))).
    - rewrite nsum_scal. ring.
    - intros s Hs. unfold trac_a, mass_a, p, q. rewrite (Hi0 s j Hs Hj). ring. }
  assert (EB : v_beta n B g (trac_b g init c) p q i j = k * v_beta n B g (mass_b g init) p q i j).
  { rewrite !v_beta_sum. rewrite (nsum_ext n _ (fun s => k * (mass_b g init (p + Z.of_nat i)%Z (q + Z.of_nat s)%Z * bS B j s))).
    - rewrite nsum_scal. ring.
    - intros s Hs. unfold trac_b, mass_b, p, q. rewrite (Hi0 i s Hi Hs). ring. }
  rewrite EA, EB. ring.
Qed.
(** Nothing outside the interior is written. *)
Theorem C53_outside : forall n B g init u nt dt h nA nB x y,
  ~ (h <= x < h + Z.of_nat (nA * n) /\ h <= y < h + Z.of_nat (nB * n))%Z ->
  let v := step n B g init nt dt h nA nB u in
  sU v x y = sU u x y /\ sV v x y = sV u x y /\ sH v x y = sH u x y /\ (forall c, sT v c x y = sT u c x y).
Proof.
  intros n B g init u nt dt h nA nB x y O v. assert (A : forall t, In t (spots n nA nB) -> ~ (x = px n h t /\ y = py n h t)).
  { intros t Ht (-> & ->). apply O. apply in_spots in Ht. destruct Ht as (H1 & H2 & H3 & H4).
    unfold px, py, first_node. rewrite !Nat2Z.inj_mul. nia. }
  repeat apply conj.
  - apply (step_away n B g init nt dt h nA nB sU _ (body_u n B g init nt dt h) u x y A).
  - apply (step_away n B g init nt dt h nA nB sV _ (body_v n B g init nt dt h) u x y A).
  - apply (step_away n B g init nt dt h nA nB sH _ (body_h n B g init nt dt h) u x y A).
  - intros c. destruct (Nat.lt_ge_cases c nt) as [Hc|Hc].
    + apply (step_away n B g init nt dt h nA nB (fun s => sT s c) _ (fun v t => body_t n B g init nt dt h c v t Hc) u x y A).
    + unfold v. rewrite step_spots. generalize (spots n nA nB) as l. intros l. clear v. revert u.
      induction l as [|t l IH]; intros u; [reflexivity|]. cbn [fold_left]. rewrite IH. rewrite body_t_other by exact Hc. reflexivity.
Qed.

(** ** C54: energy, vorticity, rest *)

(** The energy of an element, as a function of the length of a forward step from
    the state itself, has derivative zero: pressure, kinetic energy gradient, mass
    flux, vorticity and Coriolis terms exchange energy without loss, for every
    state. *)
Theorem C54_energy : forall n B, (2 <= n <= 10)%nat -> gll_basis n = Some B -> exists w, weights_of n (bW B) w /\
  forall g init nt h nA nB a b, (a < nA)%nat -> (b < nB)%nat ->
  in_element n h a b (fun x y => gJ g x y <> 0 /\ gA1 g x y = gB0 g x y) ->
  derivable_pt_lim (fun dt => let s := step n B g init nt dt h nA nB init in
    element_sum n w (h + Z.of_nat (a * n))%Z (h + Z.of_nat (b * n))%Z (fun x y => gJ g x y *
      energy_density (gGrav g) (gA0 g x y) (gA1 g x y) (gB1 g x y) (gTopo g x y) (sU s x y) (sV s x y) (sH s x y))) 0 0.
Proof.
  intros n B Hn HB. reference n Hn HB B w W HD HA. intros g init nt h nA nB a b Ha Hb Hg.
  set (p := (h + Z.of_nat (a * n))%Z). set (q := (h + Z.of_nat (b * n))%Z).
  set (X := fun i => (p + Z.of_nat i)%Z). set (Y := fun j => (q + Z.of_nat j)%Z).
  set (dm := fun i j => v_alpha n B g (mass_a g init) p q i j + v_beta n B g (mass_b g init) p q i j).
  set (l := fun i j => gJ g (X i) (Y j) * ((sH init (X i) (Y j) - gTopo g (X i) (Y j)) *
    (con_ua g init (X i) (Y j) * upd_ua n B g init p q i j + con_ub g init (X i) (Y j) * upd_ub n B g init p q i j)) +
    - (kpot g init (X i) (Y j) * dm i j)).
  assert (Z0 : esum n w l = 0).
  { unfold l. rewrite (esum_ext n w _ (fun i j => - (mass_a g init (X i) (Y j) * d_alpha n B g (kpot g init) p q i j) +
      (- (mass_b g init (X i) (Y j) * d_beta n B g (kpot g init) p q i j) +
       (-1 * (kpot g init (X i) (Y j) * v_alpha n B g (mass_a g init) p q i j) +
        -1 * (kpot g init (X i) (Y j) * v_beta n B g (mass_b g init) p q i j))))).
    - rewrite !esum_plus, !esum_scal. unfold X, Y.
      rewrite (v_alpha_parts n B g w p q HA (kpot g init) (mass_a g init)), (v_beta_parts n B g w p q HA (kpot g init) (mass_b g init)).
      rewrite (esum_ext n w (fun i j => - (mass_a g init (p + Z.of_nat i)%Z (q + Z.of_nat j)%Z * d_alpha n B g (kpot g init) p q i j))
        (fun i j => -1 * (mass_a g init (p + Z.of_nat i)%Z (q + Z.of_nat j)%Z * d_alpha n B g (kpot g init) p q i j))) by (intros; ring).
      rewrite (esum_ext n w (fun i j => - (mass_b g init (p + Z.of_nat i)%Z (q + Z.of_nat j)%Z * d_beta n B g (kpot g init) p q i j))
        (fun i j => -1 * (mass_b g init (p + Z.of_nat i)%Z (q + Z.of_nat j)%Z * d_beta n B g (kpot g init) p q i j))) by (intros; ring).
      rewrite !esum_scal. ring.
    - intros i j Hi Hj. unfold dm, upd_ua, upd_ub, mass_a, mass_b, base_a, base_b, X, Y. ring. }
  match goal with |- derivable_pt_lim ?f 0 0 => cut (derivable_pt_lim f 0 (esum n w l)); [rewrite Z0; exact (fun x => x)|] end.
  unfold element_sum, esum. apply (nsum_deriv n (fun i dt => nsum n (fun j => w i * w j * _)) (fun i => nsum n (fun j => w i * w j * l i j))).
  intros i Hi. apply (nsum_deriv n (fun j dt => w i * w j * _) (fun j => w i * w j * l i j)). intros j Hj.
  apply derivable_pt_lim_scal. fold (X i) (Y j).
  destruct (Hg i j Hi Hj) as (NJ & Sy). fold p q in NJ, Sy. fold (X i) (Y j) in NJ, Sy.
  set (J := gJ g (X i) (Y j)) in *. set (d := - (1 / J) * dm i j).
  set (ua := sU init (X i) (Y j)). set (ub := sV init (X i) (Y j)). set (hh := sH init (X i) (Y j)).
  set (al := upd_ua n B g init p q i j) in *. set (be := upd_ub n B g init p q i j) in *.
  set (G0 := gA0 g (X i) (Y j)) in *. set (G1 := gA1 g (X i) (Y j)) in *. set (G2 := gB1 g (X i) (Y j)) in *. set (T := gTopo g (X i) (Y j)) in *.
  set (Q0 := ua * (G0 * ua + G1 * ub) + ub * (G1 * ua + G2 * ub)).
  set (Q1 := 2 * (al * (G0 * ua + G1 * ub) + be * (G1 * ua + G2 * ub))).
  set (Q2 := al * (G0 * al + G1 * be) + be * (G1 * al + G2 * be)).
  apply (deriv_ext _ (fun t => J * (1 / 2 * (hh - T) * Q0 + 1 / 2 * gGrav g * (hh * hh)) + l i j * t +
    J * (1 / 2 * ((hh - T) * Q2 + d * Q1) + 1 / 2 * gGrav g * (d * d)) * (t * t) + J * (1 / 2 * d * Q2) * (t * t * t))); [|apply cubic_deriv].
  intros t. cbv zeta. unfold X, Y, p, q. rewrite after_u, after_v, after_h by assumption. fold p q.
  fold (X i) (Y j). fold ua ub hh al be. fold J. unfold energy_density. fold (dm i j).
  unfold l, kpot, con_ua, con_ub. fold J ua ub hh al be G0 G1 G2 T. unfold d, Q0, Q1, Q2. rewrite <- Sy. field. exact NJ.
Qed.

(** Without Coriolis force a field without vorticity in an element stays so. *)
Theorem C54_vorticity : forall n B g init nt dt h nA nB a b, (a < nA)%nat -> (b < nB)%nat ->
  let p := (h + Z.of_nat (a * n))%Z in let q := (h + Z.of_nat (b * n))%Z in
  in_element n h a b (fun x y => gF g x y = 0) ->
  (forall i j, (i < n)%nat -> (j < n)%nat -> curl n (bD B) (gDeltaA g) (gDeltaB g) p q (sU init) (sV init) i j = 0) ->
  let s := step n B g init nt dt h nA nB init in
  forall i j, (i < n)%nat -> (j < n)%nat -> curl n (bD B) (gDeltaA g) (gDeltaB g) p q (sU s) (sV s) i j = 0.
Proof.
  intros n B g init nt dt h nA nB a b Ha Hb p q F0 C0 s i j Hi Hj. rewrite <- (C0 i j Hi Hj). unfold curl.
  assert (Z0 : forall i j, (i < n)%nat -> (j < n)%nat -> zeta n B g init p q i j = 0).
  { intros i' j' Hi' Hj'. rewrite <- (C0 i' j' Hi' Hj'). unfold zeta. rewrite d_alpha_sum, d_beta_sum. unfold curl, Rdiv. ring. }
  assert (F1 : forall i j, (i < n)%nat -> (j < n)%nat -> gF g (p + Z.of_nat i)%Z (q + Z.of_nat j)%Z = 0) by exact F0.
  set (K := kpot g init).
  rewrite (nsum_ext n (fun m => sV s (p + Z.of_nat m)%Z (q + Z.of_nat j)%Z * bD B m i)
    (fun m => sV init (p + Z.of_nat m)%Z (q + Z.of_nat j)%Z * bD B m i + - dt * (/ gDeltaB g * nsum n (fun r => K (p + Z.of_nat m)%Z (q + Z.of_nat r)%Z * bD B r j * bD B m i)))).
  2:{ intros m Hm. unfold s, p, q. rewrite after_v by assumption. fold p q. unfold upd_ub. rewrite (Z0 m j Hm Hj).
      rewrite (F1 m j Hm Hj). rewrite d_beta_sum. fold K.
      rewrite (nsum_ext n (fun r => K (p + Z.of_nat m)%Z (q + Z.of_nat r)%Z * bD B r j * bD B m i)
        (fun r => bD B m i * (K (p + Z.of_nat m)%Z (q + Z.of_nat r)%Z * bD B r j))) by (intros; ring).
      rewrite nsum_scal. ring. }
  rewrite (nsum_ext n (fun r => sU s (p + Z.of_nat i)%Z (q + Z.of_nat r)%Z * bD B r j)
    (fun r => sU init (p + Z.of_nat i)%Z (q + Z.of_nat r)%Z * bD B r j + - dt * (/ gDeltaA g * nsum n (fun m => K (p + Z.of_nat m)%Z (q + Z.of_nat r)%Z * bD B r j * bD B m i)))).
  2:{ intros r Hr. unfold s, p, q. rewrite after_u by assumption. fold p q. unfold upd_ua. rewrite (Z0 i r Hi Hr).
      rewrite (F1 i r Hi Hr). rewrite d_alpha_sum. fold K.
      rewrite (nsum_ext n (fun m => K (p + Z.of_nat m)%Z (q + Z.of_nat r)%Z * bD B r j * bD B m i)
        (fun m => bD B r j * (K (p + Z.of_nat m)%Z (q + Z.of_nat r)%Z * bD B m i))) by (intros; ring).
      rewrite nsum_scal. ring. }
  rewrite !nsum_plus, !nsum_scal. rewrite (nsum_swap n n (fun m r => K (p + Z.of_nat m)%Z (q + Z.of_nat r)%Z * bD B r j * bD B m i)).
  unfold Rdiv. ring.
Qed.

(** Water at rest with a level surface stays at rest, over any topography. *)
Theorem C54_rest : forall n B, (2 <= n <= 10)%nat -> gll_basis n = Some B ->
  forall g init u nt dt h nA nB a b H, (a < nA)%nat -> (b < nB)%nat ->
  in_element n h a b (fun x y => sU init x y = 0 /\ sV init x y = 0 /\ sH init x y = H) ->
  in_element n h a b (fun x y => let s := step n B g init nt dt h nA nB u in
    sU s x y = sU u x y /\ sV s x y = sV u x y /\ sH s x y = sH u x y /\ (forall c, sT s c x y = sT u c x y)).
Proof.
  intros n B Hn HB g init u nt dt h nA nB a b H Ha Hb R0 i j Hi Hj.
  destruct (C55_reference n Hn) as (B' & w & E & _ & _ & HD & _). rewrite HB in E. injection E as <-.
  set (p := (h + Z.of_nat (a * n))%Z). set (q := (h + Z.of_nat (b * n))%Z). cbv zeta.
  assert (CA : forall i j, (i < n)%nat -> (j < n)%nat -> con_ua g init (p + Z.of_nat i)%Z (q + Z.of_nat j)%Z = 0).
  { intros i' j' Hi' Hj'. destruct (R0 i' j' Hi' Hj') as (U0 & V0 & _). unfold con_ua, p, q. rewrite U0, V0. ring. }
  assert (CB : forall i j, (i < n)%nat -> (j < n)%nat -> con_ub g init (p + Z.of_nat i)%Z (q + Z.of_nat j)%Z = 0).
  { intros i' j' Hi' Hj'. destruct (R0 i' j' Hi' Hj') as (U0 & V0 & _). unfold con_ub, p, q. rewrite U0, V0. ring. }
  assert (KK : forall i j, (i < n)%nat -> (j < n)%nat -> kpot g init (p + Z.of_nat i)%Z (q + Z.of_nat j)%Z = gGrav g * H).
  { intros i' j' Hi' Hj'. unfold kpot. rewrite CA, CB by assumption. destruct (R0 i' j' Hi' Hj') as (_ & _ & H0).
    unfold p, q. rewrite H0. ring. }
  assert (VA : forall F, (forall i j, (i < n)%nat -> (j < n)%nat -> F (p + Z.of_nat i)%Z (q + Z.of_nat j)%Z = 0) -> v_alpha n B g F p q i j = 0).
  { intros F HF. rewrite v_alpha_sum, nsum_zero; [ring|]. intros s Hs. rewrite HF by assumption. ring. }
  assert (VB : forall F, (forall i j, (i < n)%nat -> (j < n)%nat -> F (p + Z.of_nat i)%Z (q + Z.of_nat j)%Z = 0) -> v_beta n B g F p q i j = 0).
  { intros F HF. rewrite v_beta_sum, nsum_zero; [ring|]. intros s Hs. rewrite HF by assumption. ring. }
  repeat apply conj.
  - unfold p, q. rewrite after_u by assumption. fold p q. unfold upd_ua. rewrite CB by assumption. rewrite d_alpha_sum.
    rewrite (nsum_ext n _ (fun s => gGrav g * H * bD B s i)) by (intros; rewrite KK by assumption; ring).
    rewrite nsum_scal, (HD i Hi). ring.
  - unfold p, q. rewrite after_v by assumption. fold p q. unfold upd_ub. rewrite CA by assumption. rewrite d_beta_sum.
    rewrite (nsum_ext n _ (fun s => gGrav g * H * bD B s j)) by (intros; rewrite KK by assumption; ring).
    rewrite nsum_scal, (HD j Hj). ring.
  - unfold p, q. rewrite after_h by assumption. fold p q. rewrite VA, VB; [ring| |].
    + intros i' j' Hi' Hj'. unfold mass_b, base_b. rewrite CB by assumption. ring.
    + intros i' j' Hi' Hj'. unfold mass_a, base_a. rewrite CA by assumption. ring.
  - intros c. destruct (Nat.lt_ge_cases c nt) as [Hc|Hc].
    + unfold p, q. rewrite after_t by assumption. fold p q. rewrite VA, VB; [ring| |].
      * intros i' j' Hi' Hj'. unfold trac_b, base_b. rewrite CB by assumption. ring.
      * intros i' j' Hi' Hj'. unfold trac_a, base_a. rewrite CA by assumption. ring.
    + rewrite step_spots. generalize (spots n nA nB) as l. intros l. clear R0. revert u.
      induction l as [|t l IH]; intros u; [reflexivity|]. cbn [fold_left]. rewrite IH. rewrite body_t_other by exact Hc. reflexivity.
Qed.

(** ** Examples and limits *)
Definition ex_geo : geometry :=
  Geometry (fun _ _ => 1) (fun _ _ => 1) (fun _ _ => 0) (fun _ _ => 0) (fun _ _ => 1) (fun _ _ => 0) (fun _ _ => 0) 1 1 10.
(** one node of the element moves *)
Definition ex_state : state :=
  State (fun x y => if andb (Z.eqb x 1) (Z.eqb y 1) then 1 else 0) (fun _ _ => 0) (fun _ _ => 1) (fun _ _ _ => 3).
Lemma ex_after i j : (i < 4)%nat -> (j < 4)%nat ->
  sH (step 4 basis4 ex_geo ex_state 1 1 1 1 1 ex_state) (1 + Z.of_nat i)%Z (1 + Z.of_nat j)%Z =
  1 + (if Nat.eqb j 0 then bS basis4 i 0 else 0).
Proof.
  intros Hi Hj. pose proof (after_h 4 basis4 ex_geo ex_state ex_state 1 1 1 1 1 0 0 ltac:(lia) ltac:(lia) i j Hi Hj) as E.
  change (1 + Z.of_nat (0 * 4))%Z with 1%Z in E. rewrite E. rewrite v_alpha_sum, v_beta_sum.
  destruct j as [|j].
  - rewrite (nsum_ext 4 _ (fun s => if Nat.eqb s 0 then bS basis4 i 0 else 0)).
    + rewrite (nsum_zero 4 (fun s => mass_b ex_geo ex_state (1 + Z.of_nat i)%Z (1 + Z.of_nat s)%Z * bS basis4 0 s)).
      * cbn. field.
      * intros s Hs. unfold mass_b, base_b, con_ub. cbn. ring.
    + intros s Hs. unfold mass_a, base_a, con_ua. destruct s as [|s]; [cbn; ring|].
      cbn [gJ gA0 gA1 ex_geo sU sV sH gTopo ex_state Nat.eqb].
      destruct (Z.eqb_spec (1 + Z.of_nat (S s)) 1); [lia|]. cbn [andb]. ring.
  - rewrite (nsum_zero 4 (fun s => mass_a _ _ _ _ * _)).
    + rewrite (nsum_zero 4 (fun s => mass_b _ _ _ _ * _)); [cbn; ring|]. intros s Hs. unfold mass_b, base_b, con_ub. cbn. ring.
    + intros s Hs. unfold mass_a, base_a, con_ua. cbn [gJ gA0 gA1 ex_geo sU sV sH gTopo ex_state].
      destruct (Z.eqb_spec (1 + Z.of_nat (S j)) 1); [lia|]. rewrite Bool.andb_false_r. ring.
Qed.
(** The step is not the identity there, and the mass stays. *)
Example C53_ex : in_element 4 1 0 0 (fun x y => gJ ex_geo x y <> 0 /\ gA1 ex_geo x y = gB0 ex_geo x y) /\
  sH (step 4 basis4 ex_geo ex_state 1 1 1 1 1 ex_state) 1%Z 1%Z = -5 /\
  element_sum 4 exact4 1 1 (fun x y => gJ ex_geo x y * sH (step 4 basis4 ex_geo ex_state 1 1 1 1 1 ex_state) x y) = 1.
Proof.
  split; [|split].
  - intros i j Hi Hj. cbn. lra.
  - pose proof (ex_after 0 0 ltac:(lia) ltac:(lia)) as E. change (1 + Z.of_nat 0)%Z with 1%Z in E. rewrite E. cbn. lra.
  - unfold element_sum. rewrite (nsum_ext 4 _ (fun i => nsum 4 (fun j => exact4 i * exact4 j * (1 + (if Nat.eqb j 0 then bS basis4 i 0 else 0))))).
    + cbn. unfold dbl. lra.
    + intros i Hi. apply nsum_ext. intros j Hj. rewrite ex_after by assumption. cbn [gJ ex_geo]. ring.
Qed.
(** With the weights stored for order 4, which enter the reported totals, the
    mass is not exactly conserved: 5 dWL[0] and dWL[1] are different doubles. *)
Theorem C53_stored_weights_refuted :
  in_element 4 1 0 0 (fun x y => gJ ex_geo x y <> 0) /\
  element_sum 4 (bW basis4) 1 1 (fun x y => gJ ex_geo x y * sH (step 4 basis4 ex_geo ex_state 1 1 1 1 1 ex_state) x y) <>
  element_sum 4 (bW basis4) 1 1 (fun x y => gJ ex_geo x y * sH ex_state x y).
Proof.
  split; [intros i j Hi Hj; cbn; lra|]. unfold element_sum.
  rewrite (nsum_ext 4 _ (fun i => nsum 4 (fun j => bW basis4 i * bW basis4 j * (1 + (if Nat.eqb j 0 then bS basis4 i 0 else 0))))).
  - cbn. unfold dbl. lra.
  - intros i Hi. apply nsum_ext. intros j Hj. rewrite ex_after by assumption. cbn [gJ ex_geo]. ring.
Qed.
(** a tracer proportional to the depth *)
Example C53_consistent_ex :
  in_element 4 1 0 0 (fun x y => sT ex_state 0%nat x y = 3 * (sH ex_state x y - gTopo ex_geo x y)) /\
  sT (step 4 basis4 ex_geo ex_state 1 1 1 1 1 ex_state) 0%nat 1%Z 1%Z = -15.
Proof.
  assert (C : in_element 4 1 0 0 (fun x y => sT ex_state 0%nat x y = 3 * (sH ex_state x y - gTopo ex_geo x y))) by (intros i j Hi Hj; cbn; lra).
  split; [exact C|]. pose proof (C53_consistent 4 basis4 ex_geo ex_state ex_state 1 1 1 1 1 0 0 0 3 ltac:(lia) ltac:(lia) ltac:(lia) C C 0%nat 0%nat ltac:(lia) ltac:(lia)) as E.
  change (1 + Z.of_nat (0 * 4) + Z.of_nat 0)%Z with 1%Z in E. rewrite E.
  destruct C53_ex as (_ & -> & _). cbn. lra.
Qed.
(** water at rest with a slope: no vorticity before, motion after *)
Definition ex_slope : state := State (fun _ _ => 0) (fun _ _ => 0) (fun x _ => IZR x) (fun _ _ _ => 0).
Example C54_ex : (forall i j, (i < 4)%nat -> (j < 4)%nat -> curl 4 (bD basis4) 1 1 1 1 (sU ex_slope) (sV ex_slope) i j = 0) /\
  in_element 4 1 0 0 (fun x y => gF ex_geo x y = 0) /\
  sU (step 4 basis4 ex_geo ex_slope 0 1 1 1 1 ex_slope) 1%Z 1%Z <> 0 /\
  in_element 4 1 0 0 (fun x y => let s := State (fun _ _ => 0) (fun _ _ => 0) (fun _ _ => 7) (fun _ => sH ex_slope) in
    sU s x y = 0 /\ sV s x y = 0 /\ sH s x y = 7).
Proof.
  split; [|split; [|split]].
  - intros i j Hi Hj. unfold curl. rewrite !nsum_zero; [lra| |]; intros; cbn; ring.
  - intros i j Hi Hj. reflexivity.
  - pose proof (after_u 4 basis4 ex_geo ex_slope ex_slope 0 1 1 1 1 0 0 ltac:(lia) ltac:(lia) 0 0 ltac:(lia) ltac:(lia)) as E.
    change (1 + Z.of_nat (0 * 4) + Z.of_nat 0)%Z with 1%Z in E. rewrite E. unfold upd_ua. rewrite d_alpha_sum.
    unfold kpot, con_ua, con_ub. cbn. unfold dbl. lra.
  - intros i j Hi Hj. cbn. auto.
Qed.

Print Assumptions C55_literals.
Print Assumptions C55_reference.
Print Assumptions C55_exact.
Print Assumptions C55_exact4.
Print Assumptions C53_mass.
Print Assumptions C53_tracer.
Print Assumptions C53_patch.
Print Assumptions C53_consistent.
Print Assumptions C53_outside.
Print Assumptions C53_stored_weights_refuted.
Print Assumptions C54_energy.
Print Assumptions C54_vorticity.
Print Assumptions C54_rest.
