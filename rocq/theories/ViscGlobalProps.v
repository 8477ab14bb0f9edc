(** * C70: diffusion and hyperdiffusion of a scalar over the whole domain *)
From Coq Require Import ZArith Reals List Lia Lra Psatz.
From Verif Require Import PanelModel PanelSpec LayoutModel DssModel DssSpec DssProofs DssGeom DssProps.
From Verif Require Import ShallowModel ShallowSpec ShallowProofs ShallowProps ShallowGlobalProps ViscModel ViscSpec ViscProofs ViscProps.
Import ListNotations.
Local Open Scope R_scope.
Local Notation z := Z.of_nat.

(** ** The operators over a rectangle of elements *)
(** metric of the domain at its nodes *)
Record metric (A : Type) := Metric { mJ : A -> R; maa : A -> R; mab : A -> R; mbb : A -> R }.
Arguments Metric {A}. Arguments mJ {A}. Arguments maa {A}. Arguments mab {A}. Arguments mbb {A}.
(** V is U with psi diffused by (dt, nu), each element by the routine on some patch *)
Definition diffused (n : nat) (B : basis) (eA eB : nat) (dA dB : R) {A} (at_ : Z -> Z -> A) (M : metric A) (psi : A -> R) (dt nu : R) (U V : A -> R) : Prop :=
  forall a b, (a < eA)%nat -> (b < eB)%nat -> exists g J f u h nA nB a' b', (a' < nA)%nat /\ (b' < nB)%nat /\ gDeltaA g = dA /\ gDeltaB g = dB /\
  forall i j, (i < n)%nat -> (j < n)%nat ->
    let x := at_ (z (a * n + i)) (z (b * n + j)) in
    let lx := (h + z (a' * n) + z i)%Z in let ly := (h + z (b' * n) + z j)%Z in
    (J lx ly = mJ M x /\ gA0 g lx ly = maa M x /\ gA1 g lx ly = mab M x /\ gB0 g lx ly = mab M x /\ gB1 g lx ly = mbb M x) /\
    f lx ly = psi x /\ u lx ly = U x /\ V x = scalar_level n B g J f dt nu h nA nB u lx ly.
(** the integral of J grad f . grad k *)
Definition form (n : nat) (w : nat -> R) (D : nat -> nat -> R) (eA eB : nat) (dA dB : R) {A} (at_ : Z -> Z -> A) (M : metric A) (f k : A -> R) : R :=
  let at2 := fun F x y => F (at_ x y) in
  nsum eA (fun a => nsum eB (fun b => dirichlet n w D dA dB (z (a * n)) (z (b * n)) (at2 (mJ M)) (at2 (maa M)) (at2 (mab M)) (at2 (mbb M)) (at2 f) (at2 k))).

Lemma dirichlet_ext n w D dA dB p q J gaa gab gbb f k p' q' J' gaa' gab' gbb' f' k' :
  (forall i j, (i < n)%nat -> (j < n)%nat -> let x := (p + z i)%Z in let y := (q + z j)%Z in let x' := (p' + z i)%Z in let y' := (q' + z j)%Z in
     J x y = J' x' y' /\ gaa x y = gaa' x' y' /\ gab x y = gab' x' y' /\ gbb x y = gbb' x' y' /\ f x y = f' x' y' /\ k x y = k' x' y') ->
  dirichlet n w D dA dB p q J gaa gab gbb f k = dirichlet n w D dA dB p' q' J' gaa' gab' gbb' f' k'.
Proof.
  intros H. unfold dirichlet, node_sum. apply nsum_ext. intros i Hi. apply nsum_ext. intros j Hj. cbv zeta.
  destruct (H i j Hi Hj) as (-> & -> & -> & -> & _ & _).
  assert (X : forall F F' : Z -> Z -> R, (forall i j, (i < n)%nat -> (j < n)%nat -> F (p + z i)%Z (q + z j)%Z = F' (p' + z i)%Z (q' + z j)%Z) ->
    ddx n D dA F p q i j = ddx n D dA F' p' q' i j /\ ddy n D dB F p q i j = ddy n D dB F' p' q' i j).
  { intros F F' HF. unfold ddx, ddy. split; f_equal; apply nsum_ext; intros s Hs; rewrite HF by assumption; reflexivity. }
  destruct (X f f') as (-> & ->); [intros i' j' Hi' Hj'; apply (H i' j' Hi' Hj')|].
  destruct (X k k') as (-> & ->); [intros i' j' Hi' Hj'; apply (H i' j' Hi' Hj')|]. reflexivity.
Qed.
Lemma dirichlet_sym n w D dA dB p q J gaa gab gbb f k : dirichlet n w D dA dB p q J gaa gab gbb f k = dirichlet n w D dA dB p q J gaa gab gbb k f.
Proof. unfold dirichlet, node_sum. apply nsum_ext. intros i _. apply nsum_ext. intros j _. cbv zeta. ring. Qed.
Lemma form_sym n w D eA eB dA dB {A} (at_ : Z -> Z -> A) M f k : form n w D eA eB dA dB at_ M f k = form n w D eA eB dA dB at_ M k f.
Proof. unfold form. cbv zeta. apply nsum_ext. intros a _. apply nsum_ext. intros b _. apply dirichlet_sym. Qed.
Lemma form_one n w D eA eB dA dB {A} (at_ : Z -> Z -> A) M f : annihilates_constants n D -> form n w D eA eB dA dB at_ M f (fun _ => 1) = 0.
Proof.
  intros HD. unfold form. cbv zeta. apply nsum_zero. intros a _. apply nsum_zero. intros b _. unfold dirichlet, node_sum.
  apply nsum_zero. intros i Hi. apply nsum_zero. intros j Hj. cbv zeta.
  rewrite (ddx_const n D dA (fun _ _ => 1) _ _ i j 1 HD Hi) by reflexivity. rewrite (ddy_const n D dB (fun _ _ => 1) _ _ i j 1 HD Hj) by reflexivity. ring.
Qed.

Lemma rectangle_weak n B w eA eB dA dB {A} (at_ : Z -> Z -> A) M psi dt nu U V K : adjoint n w (bD B) (bS B) ->
  (forall a b i j, (a < eA)%nat -> (b < eB)%nat -> (i < n)%nat -> (j < n)%nat -> mJ M (at_ (z (a * n + i)) (z (b * n + j))) <> 0) ->
  diffused n B eA eB dA dB at_ M psi dt nu U V ->
  patch_sum n w 0 eA eB (fun x y => mJ M (at_ x y) * (K (at_ x y) * (V (at_ x y) - U (at_ x y)))) =
  - (dt * nu * form n w (bD B) eA eB dA dB at_ M psi K).
Proof.
  intros HA NJ HS. unfold form, patch_sum. cbv zeta.
  rewrite Ropp_mult_distr_l, <- nsum_scal. apply nsum_ext. intros a Ha. rewrite <- nsum_scal. apply nsum_ext. intros b Hb.
  destruct (HS a b Ha Hb) as (g & J & f & u & h & nA & nB & a' & b' & Ha' & Hb' & EA & EB & Hx).
  set (p := (h + z (a' * n))%Z). set (q := (h + z (b' * n))%Z).
  set (k := fun x y => K (at_ (x - p + z (a * n)) (y - q + z (b * n)))%Z).
  assert (Sh : forall i, (0 + z (a * n) + z i = z (a * n + i))%Z /\ (0 + z (b * n) + z i = z (b * n + i))%Z) by (intros; lia).
  rewrite (dirichlet_ext n w (bD B) dA dB _ _ _ _ _ _ _ _ p q J (gA0 g) (gA1 g) (gB1 g) f k).
  2:{ intros i j Hi Hj. destruct (Hx i j Hi Hj) as ((E1 & E2 & E3 & _ & E5) & E6 & _ & _). cbv zeta. unfold p, q.
      replace (z (a * n) + z i)%Z with (z (a * n + i)) by lia. replace (z (b * n) + z j)%Z with (z (b * n + j)) by lia.
      rewrite E1, E2, E3, E5, E6. repeat split. unfold k. f_equal. f_equal; unfold p, q; lia. }
  rewrite <- EA, <- EB, <- (scalar_weak n B g J w p q HA f k).
  2:{ intros i j Hi Hj. destruct (Hx i j Hi Hj) as ((_ & _ & E3 & E4 & _) & _). fold p q in E3, E4. rewrite E3, E4. reflexivity. }
  rewrite <- esum_scal.
  match goal with |- element_sum n w ?p0 ?q0 ?F = _ => change (element_sum n w p0 q0 F) with (esum n w (fun i j => F (p0 + z i)%Z (q0 + z j)%Z)) end.
  apply esum_ext. intros i j Hi Hj. cbv beta. destruct (Hx i j Hi Hj) as ((E1 & _) & _ & E7 & E8).
  rewrite (proj1 (Sh i)), (proj2 (Sh j)). rewrite E8, <- E7. unfold scalar_level. rewrite (patch_there n h nA nB _ u a' b' i j Ha' Hb' Hi Hj).
  fold p q. fold p q in E1. unfold scalar_node.
  replace (k (p + z i)%Z (q + z j)%Z) with (K (at_ (z (a * n + i)) (z (b * n + j)))) by (unfold k; f_equal; f_equal; lia).
  rewrite <- E1. assert (J (p + z i)%Z (q + z j)%Z <> 0) by (rewrite E1; apply NJ; assumption). field. assumption.
Qed.

(** ** The plane *)
Definition plane_at (x y : Z) : Z * Z := (x, y).
Definition plane_average (n eA eB : nat) (H1 H2 : Z * Z -> R) : Prop :=
  forall x, torus_node (z n) (z eA) (z eB) x -> exists b u i j,
     patch_of (z n) (z n * z eA) (z n * z eB) b /\ holds_torus (z n) (z eA) (z eB) H1 b u /\
     inner_node b i j /\ DssSpec.place b i j = x /\ H2 x = cart_dss ravg (z n) b u i j.
(** one value per point *)
Definition plane_single (n eA eB : nat) (F : Z * Z -> R) : Prop :=
  forall x y, torus_node (z n) (z eA) (z eB) x -> torus_node (z n) (z eA) (z eB) y ->
    torus_point (z n) (z eA) (z eB) x = torus_point (z n) (z eA) (z eB) y -> F x = F y.
Lemma plane_averaged_single n eA eB H1 H2 : (2 <= n)%nat -> (1 <= eA)%nat -> (1 <= eB)%nat -> plane_average n eA eB H1 H2 -> plane_single n eA eB H2.
Proof.
  intros Hn HA HB H x y Tx Ty E. destruct (H x Tx) as (b & u & i & j & Hb & Hu & Hi & <- & ->).
  destruct (H y Ty) as (b' & u' & i' & j' & Hb' & Hu' & Hi' & <- & ->).
  apply (C25_cartesian_continuous ravg (z n) (z eA) (z eB) H1); try assumption; lia.
Qed.
Lemma plane_averaged_sum n w eA eB (J H1 H2 K : Z * Z -> R) : symmetric n w -> (2 <= n)%nat -> (1 <= eA)%nat -> (1 <= eB)%nat ->
  plane_average n eA eB H1 H2 -> plane_single n eA eB J -> plane_single n eA eB K ->
  patch_sum n w 0 eA eB (fun x y => J (x, y) * (K (x, y) * H2 (x, y))) = patch_sum n w 0 eA eB (fun x y => J (x, y) * (K (x, y) * H1 (x, y))).
Proof.
  intros Sy Hn HeA HeB HDss SJ SK.
  rewrite (global_nodes n w eA eB (fun x => J x * (K x * H2 x))), (global_nodes n w eA eB (fun x => J x * (K x * H1 x))).
  assert (IN : forall x, In x (nodes2 (eA * n) (eB * n)) <-> torus_node (z n) (z eA) (z eB) x).
  { intros x. rewrite in_nodes2. unfold torus_node. rewrite !Nat2Z.inj_mul. rewrite (Z.mul_comm (z eA)), (Z.mul_comm (z eB)). reflexivity. }
  apply (class_sum pair_eqb pair_eqb_eq (torus_point (z n) (z eA) (z eB)) _ _ _ _ (le_n _)).
  intros p. set (l := filter _ _).
  assert (Il : forall x, In x l <-> torus_node (z n) (z eA) (z eB) x /\ torus_point (z n) (z eA) (z eB) x = p).
  { intros x. unfold l. rewrite filter_In, IN, pair_eqb_eq. reflexivity. }
  assert (Nl : NoDup l) by (apply NoDup_filter, nodup_nodes2).
  pose proof (C25_cartesian_sum (z n) (z eA) (z eB) H1 H2 l p ltac:(lia) ltac:(lia) ltac:(lia) HDss Nl Il) as Eq.
  assert (Cs : l = [] \/ exists x0, In x0 l) by (destruct l as [|x0 l0]; [left; reflexivity|right; exists x0; left; reflexivity]).
  destruct Cs as [->|(x0 & X0)]; [reflexivity|]. apply Il in X0. destruct X0 as (T0 & P0).
  assert (Om : forall x, In x l -> omega n w x * J x * K x = omega n w x0 * J x0 * K x0).
  { intros x Hx. apply Il in Hx. destruct Hx as (Tx & Px). f_equal; [f_equal|]; [|apply SJ; congruence|apply SK; congruence].
    rewrite <- P0 in Px. unfold torus_point in Px. injection Px as PA PB. unfold torus_node in *. unfold omega. f_equal.
    - apply (weight_class n w (z eA)); [exact Sy|lia|lia|lia|exact PA].
    - apply (weight_class n w (z eB)); [exact Sy|lia|lia|lia|exact PB]. }
  rewrite (rsum_scal (omega n w x0 * J x0 * K x0) (fun x => omega n w x * (J x * (K x * H2 x))) H2 l),
    (rsum_scal (omega n w x0 * J x0 * K x0) (fun x => omega n w x * (J x * (K x * H1 x))) H1 l), Eq; [reflexivity| |];
    intros x Hx; rewrite <- (Om x Hx); ring.
Qed.
(** sums of fields *)
Lemma patch_sum_plus n w h eA eB f k : patch_sum n w h eA eB (fun x y => f x y + k x y) = patch_sum n w h eA eB f + patch_sum n w h eA eB k.
Proof.
  unfold patch_sum. rewrite <- nsum_plus. apply nsum_ext. intros a _. rewrite <- nsum_plus. apply nsum_ext. intros b _.
  exact (esum_plus n w (fun i j => f (h + z (a * n) + z i)%Z (h + z (b * n) + z j)%Z) (fun i j => k (h + z (a * n) + z i)%Z (h + z (b * n) + z j)%Z)).
Qed.
Lemma patch_sum_scal n w h eA eB c f : patch_sum n w h eA eB (fun x y => c * f x y) = c * patch_sum n w h eA eB f.
Proof.
  unfold patch_sum. rewrite <- nsum_scal. apply nsum_ext. intros a _. rewrite <- nsum_scal. apply nsum_ext. intros b _.
  exact (esum_scal n w c (fun i j => f (h + z (a * n) + z i)%Z (h + z (b * n) + z j)%Z)).
Qed.
Lemma patch_sum_ext n w h eA eB f k : (forall x y, f x y = k x y) -> patch_sum n w h eA eB f = patch_sum n w h eA eB k.
Proof.
  intros H. unfold patch_sum, element_sum. apply nsum_ext. intros a _. apply nsum_ext. intros b _. apply nsum_ext. intros i _. apply nsum_ext. intros j _.
  rewrite H. reflexivity.
Qed.

(** Diffusion of a scalar on the periodic plane: psi is diffused into U element by
    element and the result averaged at the shared nodes.  Tested with any field K
    that has one value per point, the change is -dt nu times the integral of
    grad psi . grad K; so the integral of the field is unchanged. *)
Theorem C70_plane : forall n B, (2 <= n <= 10)%nat -> gll_basis n = Some B -> exists w, weights_of n (bW B) w /\
  forall eA eB dA dB (M : metric (Z * Z)) psi dt nu U V W, (1 <= eA)%nat -> (1 <= eB)%nat ->
  (forall x, torus_node (z n) (z eA) (z eB) x -> mJ M x <> 0) -> plane_single n eA eB (mJ M) ->
  diffused n B eA eB dA dB plane_at M psi dt nu U V -> plane_average n eA eB V W ->
  (forall K, plane_single n eA eB K ->
     patch_sum n w 0 eA eB (fun x y => mJ M (x, y) * (K (x, y) * (W (x, y) - U (x, y)))) =
     - (dt * nu * form n w (bD B) eA eB dA dB plane_at M psi K)) /\
  patch_sum n w 0 eA eB (fun x y => mJ M (x, y) * W (x, y)) = patch_sum n w 0 eA eB (fun x y => mJ M (x, y) * U (x, y)).
Proof.
  intros n B Hn HB. destruct (C55_reference n Hn) as (B' & w & E & W & Sy & HD & HA). rewrite HB in E. injection E as <-.
  exists w. split; [exact W|]. intros eA eB dA dB M psi dt nu U V Y HeA HeB NJ SJ HS HDss.
  assert (T : forall K, plane_single n eA eB K ->
     patch_sum n w 0 eA eB (fun x y => mJ M (x, y) * (K (x, y) * (Y (x, y) - U (x, y)))) =
     - (dt * nu * form n w (bD B) eA eB dA dB plane_at M psi K)).
  { intros K SK. rewrite <- (rectangle_weak n B w eA eB dA dB plane_at M psi dt nu U V K HA); [|intros a b i j Ha Hb Hi Hj; apply NJ; unfold torus_node, plane_at; cbn; nia|exact HS].
    unfold plane_at.
    rewrite (patch_sum_ext n w 0 eA eB _ (fun x y => mJ M (x, y) * (K (x, y) * Y (x, y)) + -1 * (mJ M (x, y) * (K (x, y) * U (x, y))))) by (intros; ring).
    rewrite (patch_sum_ext n w 0 eA eB (fun x y => mJ M (x, y) * (K (x, y) * (V (x, y) - U (x, y)))) (fun x y => mJ M (x, y) * (K (x, y) * V (x, y)) + -1 * (mJ M (x, y) * (K (x, y) * U (x, y))))) by (intros; ring).
    rewrite !patch_sum_plus. f_equal. apply (plane_averaged_sum n w eA eB (mJ M) V Y K Sy); try assumption; lia. }
  split; [exact T|]. specialize (T (fun _ => 1) ltac:(intros x y _ _ _; reflexivity)). rewrite form_one in T by exact HD.
  rewrite (patch_sum_ext n w 0 eA eB _ (fun x y => mJ M (x, y) * Y (x, y) + -1 * (mJ M (x, y) * U (x, y)))) in T by (intros; ring).
  rewrite patch_sum_plus, patch_sum_scal in T. lra.
Qed.
(** Hyperdiffusion of order four: L is the averaged Laplacian of psi0, psi1 the
    averaged result of diffusing L into psi0 with -dt.  The mass is kept, and the
    product of psi0 with its change is -dt nu times the integral of L^2. *)
Theorem C70_plane_four : forall n B, (2 <= n <= 10)%nat -> gll_basis n = Some B -> exists w, weights_of n (bW B) w /\
  forall eA eB dA dB (M : metric (Z * Z)) dt nu psi0 L1 L V psi1, (1 <= eA)%nat -> (1 <= eB)%nat ->
  (forall x, torus_node (z n) (z eA) (z eB) x -> mJ M x <> 0) -> plane_single n eA eB (mJ M) -> plane_single n eA eB psi0 ->
  diffused n B eA eB dA dB plane_at M psi0 1 1 (fun _ => 0) L1 -> plane_average n eA eB L1 L ->
  diffused n B eA eB dA dB plane_at M L (- dt) nu psi0 V -> plane_average n eA eB V psi1 ->
  patch_sum n w 0 eA eB (fun x y => mJ M (x, y) * psi1 (x, y)) = patch_sum n w 0 eA eB (fun x y => mJ M (x, y) * psi0 (x, y)) /\
  patch_sum n w 0 eA eB (fun x y => mJ M (x, y) * (psi0 (x, y) * (psi1 (x, y) - psi0 (x, y)))) =
  - (dt * nu * patch_sum n w 0 eA eB (fun x y => mJ M (x, y) * (L (x, y) * L (x, y)))).
Proof.
  intros n B Hn HB. destruct (C70_plane n B Hn HB) as (w & W & H). exists w. split; [exact W|].
  intros eA eB dA dB M dt nu psi0 L1 L V psi1 HeA HeB NJ SJ S0 D1 A1 D2 A2.
  destruct (H eA eB dA dB M psi0 1 1 (fun _ => 0) L1 L HeA HeB NJ SJ D1 A1) as (T1 & _).
  destruct (H eA eB dA dB M L (- dt) nu psi0 V psi1 HeA HeB NJ SJ D2 A2) as (T2 & M2). split; [exact M2|].
  specialize (T1 L (plane_averaged_single n eA eB L1 L ltac:(lia) HeA HeB A1)). specialize (T2 psi0 S0). rewrite T2.
  rewrite (patch_sum_ext n w 0 eA eB (fun x y => mJ M (x, y) * (L (x, y) * L (x, y))) (fun x y => mJ M (x, y) * (L (x, y) * (L (x, y) - 0)))) by (intros; ring).
  rewrite T1, (form_sym n w (bD B) eA eB dA dB plane_at M L psi0). ring.
Qed.

(** ** The cubed sphere *)
Definition panel_at (p : nat) (x y : Z) : Z * Z * Z := (z p, x, y).
Definition sphere_average (n e : nat) (H1 H2 : Z * Z * Z -> R) : Prop :=
  forall x, cs_node (z n) (z e) x -> exists b u i j, (0 <= bpanel b <= 5)%Z /\
     patch_of (z n) (z n * z e) (z n * z e) b /\ holds_cs (z n * z e) H1 b u /\ inner_node b i j /\
     (bpanel b, fst (DssSpec.place b i j), snd (DssSpec.place b i j)) = x /\
     H2 x = cs_dss ravg rthird (z n) (z n * z e) b u i j.
Definition sphere_single (n e : nat) (F : Z * Z * Z -> R) : Prop :=
  forall x y, cs_node (z n) (z e) x -> cs_node (z n) (z e) y -> cs_point (z n) (z e) x = cs_point (z n) (z e) y -> F x = F y.
Definition sphere_sum (n : nat) (w : nat -> R) (e : nat) (f : Z * Z * Z -> R) : R :=
  nsum 6 (fun p => patch_sum n w 0 e e (fun x y => f (z p, x, y))).
Lemma sphere_averaged_single n e H1 H2 : (2 <= n)%nat -> (1 <= e)%nat -> sphere_average n e H1 H2 -> sphere_single n e H2.
Proof.
  intros Hn He H x y Tx Ty E. destruct (H x Tx) as (b & u & i & j & Hp & Hb & Hu & Hi & <- & ->).
  destruct (H y Ty) as (b' & u' & i' & j' & Hp' & Hb' & Hu' & Hi' & <- & ->).
  apply (C25_sphere_continuous (z n) (z e) H1); try assumption; lia.
Qed.
Lemma sphere_averaged_sum n w e (J H1 H2 K : Z * Z * Z -> R) : symmetric n w -> (2 <= n)%nat -> (1 <= e)%nat ->
  sphere_average n e H1 H2 -> sphere_single n e J -> sphere_single n e K ->
  sphere_sum n w e (fun x => J x * (K x * H2 x)) = sphere_sum n w e (fun x => J x * (K x * H1 x)).
Proof.
  intros Sy Hn He HDss SJ SK. unfold sphere_sum.
  rewrite (global_nodes3 n w e (fun x => J x * (K x * H2 x))), (global_nodes3 n w e (fun x => J x * (K x * H1 x))).
  assert (IN : forall x, In x (nodes3 (e * n)) <-> cs_node (z n) (z e) x).
  { intros x. rewrite in_nodes3. unfold cs_node. rewrite !Nat2Z.inj_mul, (Z.mul_comm (z e)). reflexivity. }
  apply (class_sum triple_eqb triple_eqb_eq (cs_point (z n) (z e)) _ _ _ _ (le_n _)).
  intros p. set (l := filter _ _).
  assert (Il : forall x, In x l <-> cs_node (z n) (z e) x /\ cs_point (z n) (z e) x = p).
  { intros x. unfold l. rewrite filter_In, IN, triple_eqb_eq. reflexivity. }
  assert (Nl : NoDup l) by (apply NoDup_filter, nodup_nodes3).
  pose proof (C25_sphere_sum (z n) (z e) H1 H2 l p ltac:(lia) ltac:(lia) HDss Nl Il) as Eq.
  assert (Cs : l = [] \/ exists x0, In x0 l) by (destruct l as [|x0 l0]; [left; reflexivity|right; exists x0; left; reflexivity]).
  destruct Cs as [->|(x0 & X0)]; [reflexivity|]. apply Il in X0. destruct X0 as (T0 & P0).
  assert (Om : forall x, In x l -> omega3 n w x * J x * K x = omega3 n w x0 * J x0 * K x0).
  { intros x Hx. apply Il in Hx. destruct Hx as (Tx & Px). f_equal; [f_equal|]; [|apply SJ; congruence|apply SK; congruence].
    rewrite <- P0 in Px. unfold cs_point in Px. unfold cs_node in *. unfold omega3, omega. cbn [fst snd].
    assert (M0 : (0 < z e * (z n - 1))%Z) by (clear - Hn He; nia). destruct (cube_faces _ _ _ _ _ _ _ M0 Px) as [(EA & EB)|(EA & EB)].
    - f_equal; apply (weight_abs n w (z e)); try assumption; try apply Tx; try apply T0; clear - Hn; lia.
    - rewrite Rmult_comm. f_equal; apply (weight_abs n w (z e)); try assumption; try apply Tx; try apply T0; clear - Hn; lia. }
  rewrite (rsum_scal (omega3 n w x0 * J x0 * K x0) (fun x => omega3 n w x * (J x * (K x * H2 x))) H2 l),
    (rsum_scal (omega3 n w x0 * J x0 * K x0) (fun x => omega3 n w x * (J x * (K x * H1 x))) H1 l), Eq; [reflexivity| |];
    intros x Hx; rewrite <- (Om x Hx); ring.
Qed.
Lemma sphere_sum_plus n w e f k : sphere_sum n w e (fun x => f x + k x) = sphere_sum n w e f + sphere_sum n w e k.
Proof. unfold sphere_sum. rewrite <- nsum_plus. apply nsum_ext. intros p _. apply (patch_sum_plus n w 0 e e (fun x y => f (z p, x, y)) (fun x y => k (z p, x, y))). Qed.
Lemma sphere_sum_scal n w e c f : sphere_sum n w e (fun x => c * f x) = c * sphere_sum n w e f.
Proof. unfold sphere_sum. rewrite <- nsum_scal. apply nsum_ext. intros p _. apply (patch_sum_scal n w 0 e e c (fun x y => f (z p, x, y))). Qed.
Lemma sphere_sum_ext n w e f k : (forall x, f x = k x) -> sphere_sum n w e f = sphere_sum n w e k.
Proof. intros H. unfold sphere_sum. apply nsum_ext. intros p _. apply patch_sum_ext. intros; apply H. Qed.

Theorem C70_sphere : forall n B, (2 <= n <= 10)%nat -> gll_basis n = Some B -> exists w, weights_of n (bW B) w /\
  forall e dA dB (M : metric (Z * Z * Z)) psi dt nu U V W, (1 <= e)%nat ->
  (forall x, cs_node (z n) (z e) x -> mJ M x <> 0) -> sphere_single n e (mJ M) ->
  (forall p, (p < 6)%nat -> diffused n B e e dA dB (panel_at p) M psi dt nu U V) -> sphere_average n e V W ->
  (forall K, sphere_single n e K ->
     sphere_sum n w e (fun x => mJ M x * (K x * (W x - U x))) =
     - (dt * nu * nsum 6 (fun p => form n w (bD B) e e dA dB (panel_at p) M psi K))) /\
  sphere_sum n w e (fun x => mJ M x * W x) = sphere_sum n w e (fun x => mJ M x * U x).
Proof.
  intros n B Hn HB. destruct (C55_reference n Hn) as (B' & w & E & W & Sy & HD & HA). rewrite HB in E. injection E as <-.
  exists w. split; [exact W|]. intros e dA dB M psi dt nu U V Y He NJ SJ HS HDss.
  assert (T : forall K, sphere_single n e K -> sphere_sum n w e (fun x => mJ M x * (K x * (Y x - U x))) =
     - (dt * nu * nsum 6 (fun p => form n w (bD B) e e dA dB (panel_at p) M psi K))).
  { intros K SK. transitivity (sphere_sum n w e (fun x => mJ M x * (K x * (V x - U x)))).
    - rewrite (sphere_sum_ext n w e (fun x => mJ M x * (K x * (Y x - U x))) (fun x => mJ M x * (K x * Y x) + -1 * (mJ M x * (K x * U x)))) by (intros; ring).
      rewrite (sphere_sum_ext n w e (fun x => mJ M x * (K x * (V x - U x))) (fun x => mJ M x * (K x * V x) + -1 * (mJ M x * (K x * U x)))) by (intros; ring).
      rewrite !sphere_sum_plus. f_equal. apply (sphere_averaged_sum n w e (mJ M) V Y K Sy); try assumption; lia.
    - unfold sphere_sum. rewrite Ropp_mult_distr_l, <- nsum_scal. apply nsum_ext. intros p Hp.
      rewrite <- Ropp_mult_distr_l. apply (rectangle_weak n B w e e dA dB (panel_at p) M psi dt nu U V K HA); [|apply HS; exact Hp].
      intros a b i j Ha Hb Hi Hj. apply NJ. unfold cs_node, panel_at. cbn. nia. }
  split; [exact T|]. specialize (T (fun _ => 1) ltac:(intros x y _ _ _; reflexivity)). rewrite nsum_zero in T by (intros; apply form_one; exact HD).
  rewrite (sphere_sum_ext n w e _ (fun x => mJ M x * Y x + -1 * (mJ M x * U x))) in T by (intros; ring).
  rewrite sphere_sum_plus, sphere_sum_scal in T. lra.
Qed.
Theorem C70_sphere_four : forall n B, (2 <= n <= 10)%nat -> gll_basis n = Some B -> exists w, weights_of n (bW B) w /\
  forall e dA dB (M : metric (Z * Z * Z)) dt nu psi0 L1 L V psi1, (1 <= e)%nat ->
  (forall x, cs_node (z n) (z e) x -> mJ M x <> 0) -> sphere_single n e (mJ M) -> sphere_single n e psi0 ->
  (forall p, (p < 6)%nat -> diffused n B e e dA dB (panel_at p) M psi0 1 1 (fun _ => 0) L1) -> sphere_average n e L1 L ->
  (forall p, (p < 6)%nat -> diffused n B e e dA dB (panel_at p) M L (- dt) nu psi0 V) -> sphere_average n e V psi1 ->
  sphere_sum n w e (fun x => mJ M x * psi1 x) = sphere_sum n w e (fun x => mJ M x * psi0 x) /\
  sphere_sum n w e (fun x => mJ M x * (psi0 x * (psi1 x - psi0 x))) = - (dt * nu * sphere_sum n w e (fun x => mJ M x * (L x * L x))).
Proof.
  intros n B Hn HB. destruct (C70_sphere n B Hn HB) as (w & W & H). exists w. split; [exact W|].
  intros e dA dB M dt nu psi0 L1 L V psi1 He NJ SJ S0 D1 A1 D2 A2.
  destruct (H e dA dB M psi0 1 1 (fun _ => 0) L1 L He NJ SJ D1 A1) as (T1 & _).
  destruct (H e dA dB M L (- dt) nu psi0 V psi1 He NJ SJ D2 A2) as (T2 & M2). split; [exact M2|].
  specialize (T1 L (sphere_averaged_single n e L1 L ltac:(lia) He A1)). specialize (T2 psi0 S0). rewrite T2.
  rewrite (sphere_sum_ext n w e (fun x => mJ M x * (L x * L x)) (fun x => mJ M x * (L x * (L x - 0)))) by (intros; ring). rewrite T1.
  rewrite (nsum_ext 6 (fun p => form n w (bD B) e e dA dB (panel_at p) M L psi0) (fun p => form n w (bD B) e e dA dB (panel_at p) M psi0 L)) by (intros; apply form_sym).
  ring.
Qed.

(** ** The hypotheses hold on a plane of one element *)
Example C70_case : exists w, weights_of 4 (bW basis4) w /\ forall (psi : Z * Z -> R) dt, plane_single 4 1 1 psi ->
  exists L psi1 : Z * Z -> R,
    patch_sum 4 w 0 1 1 (fun x y => 1 * psi1 (x, y)) = patch_sum 4 w 0 1 1 (fun x y => 1 * psi (x, y)) /\
    patch_sum 4 w 0 1 1 (fun x y => 1 * (psi (x, y) * (psi1 (x, y) - psi (x, y)))) =
    - (dt * 3 * patch_sum 4 w 0 1 1 (fun x y => 1 * (L (x, y) * L (x, y)))).
Proof.
  destruct (C70_plane_four 4 basis4 ltac:(lia) eq_refl) as (w & W & H). exists w. split; [exact W|]. intros psi dt S0.
  set (g := Geometry (fun _ _ => 1) (fun _ _ => 2) (fun _ _ => 1) (fun _ _ => 1) (fun _ _ => 3) (fun _ _ => 0) (fun _ _ => 0) 1 1 1).
  set (M := Metric (fun _ : Z * Z => 1) (fun _ => 2) (fun _ => 1) (fun _ => 3)).
  set (lay := fun (F : Z * Z -> R) (x y : Z) => F (x - 1, y - 1)%Z).
  set (dif := fun (f : Z * Z -> R) dt nu (u : Z * Z -> R) (x : Z * Z) => scalar_level 4 basis4 g (fun _ _ => 1) (lay f) dt nu 1 1 1 (lay u) (1 + fst x)%Z (1 + snd x)%Z).
  set (avg := fun (F : Z * Z -> R) (x : Z * Z) => cart_dss ravg 4 (mkBox 0 0 1 (-1) 5 (-1) 5) (fun i j => F ((i - 1) mod 4, (j - 1) mod 4)%Z) (fst x + 1)%Z (snd x + 1)%Z).
  assert (Di : forall f dt nu u, diffused 4 basis4 1 1 1 1 plane_at M f dt nu u (dif f dt nu u)).
  { intros f dt' nu u a b Ha Hb. exists g, (fun _ _ => 1), (lay f), (lay u), 1%Z, 1%nat, 1%nat, 0%nat, 0%nat. repeat (split; [first [lia | reflexivity]|]).
    intros i j Hi Hj. assert (a = 0%nat) as -> by lia. assert (b = 0%nat) as -> by lia. cbv zeta. split; [repeat split; reflexivity|].
    unfold dif, lay, plane_at. cbn [fst snd]. split; [|split].
    - f_equal. f_equal; lia.
    - f_equal. f_equal; lia.
    - f_equal; lia. }
  assert (Av : forall F, plane_average 4 1 1 F (avg F)).
  { intros F x Tx. exists (mkBox 0 0 1 (-1) 5 (-1) 5), (fun i j => F ((i - 1) mod 4, (j - 1) mod 4)%Z), (fst x + 1)%Z, (snd x + 1)%Z.
    split; [apply one_patch|]. split; [intros i j _; reflexivity|]. unfold torus_node in Tx. split; [unfold inner_node; cbn in *; lia|]. split; [|reflexivity].
    unfold DssSpec.place. cbn. destruct x; cbn. f_equal; lia. }
  set (L := avg (dif psi 1 1 (fun _ => 0))). exists L, (avg (dif L (- dt) 3 psi)).
  exact (H 1%nat 1%nat 1 1 M dt 3 psi _ L _ _ (le_n _) (le_n _) ltac:(intros x _; cbn; lra) ltac:(intros x y _ _ _; reflexivity) S0 (Di _ _ _ _) (Av _) (Di _ _ _ _) (Av _)).
Qed.

Print Assumptions C70_plane.
Print Assumptions C70_plane_four.
Print Assumptions C70_sphere.
Print Assumptions C70_sphere_four.
