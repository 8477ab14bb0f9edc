(** * C71: the horizontal nonhydrostatic step conserves over the whole domain *)
From Coq Require Import ZArith Reals List Lia Lra Psatz.
From Verif Require Import PanelModel PanelSpec LayoutModel DssModel DssSpec DssProofs DssGeom DssProps.
From Verif Require Import ColModel ShallowModel ShallowSpec ShallowProofs ShallowProps ShallowGlobalProps ViscModel ViscSpec ViscProofs ViscProps ViscGlobalProps
  NonhModel NonhSpec NonhProofs NonhProps.
Import ListNotations.
Local Open Scope R_scope.
Local Notation z := Z.of_nat.

(** what the fluxes carry: density, rho theta or a tracer *)
Inductive carried := Density | Heat | Tracer (c : nat).
Definition pick (q : carried) (s : state3) : field3 := match q with Density => vR s | Heat => vP s | Tracer c => vT s c end.
(** H1 is H0 advanced by the step on level k, each element on some patch, with its own
    state, metric (of Jacobian J), settings and time step *)
Definition moved (n : nat) (B : basis) (eA eB : nat) (q : carried) (k : nat) {A} (at_ : Z -> Z -> A) (J H0 H1 : A -> R) : Prop :=
  forall a b, (a < eA)%nat -> (b < eB)%nat -> exists G S init u s dt h nA nB a' b', (a' < nA)%nat /\ (b' < nB)%nat /\ (k < levels_ S)%nat /\
  (forall c, q = Tracer c -> (c < tracers S)%nat) /\ nonhydro_step n B G S init dt h nA nB u = Some s /\
  forall i j, (i < n)%nat -> (j < n)%nat ->
    let x := at_ (z (a * n + i)) (z (b * n + j)) in
    let lx := (h + z (a' * n) + z i)%Z in let ly := (h + z (b' * n) + z j)%Z in
    J3 G k lx ly = J x /\ pick q u k lx ly = H0 x /\ H1 x = pick q s k lx ly.

Lemma moved_sum n B (Hn : (2 <= n <= 10)%nat) (HB : gll_basis n = Some B) w eA eB q k {A} (at_ : Z -> Z -> A) J H0 H1 :
  annihilates_constants n (bD B) -> adjoint n w (bD B) (bS B) ->
  (forall a b i j, (a < eA)%nat -> (b < eB)%nat -> (i < n)%nat -> (j < n)%nat -> J (at_ (z (a * n + i)) (z (b * n + j))) <> 0) ->
  moved n B eA eB q k at_ J H0 H1 ->
  patch_sum n w 0 eA eB (fun x y => J (at_ x y) * H1 (at_ x y)) = patch_sum n w 0 eA eB (fun x y => J (at_ x y) * H0 (at_ x y)).
Proof.
  intros HD HA NJ HS. unfold patch_sum. apply nsum_ext. intros a Ha. apply nsum_ext. intros b Hb.
  destruct (HS a b Ha Hb) as (G & S & init & u & s & dt & h & nA & nB & a' & b' & Ha' & Hb' & Hk & Hc & E & Hx).
  assert (T : forall f F, (forall i j, (i < n)%nat -> (j < n)%nat ->
      f (at_ (z (a * n + i)) (z (b * n + j))) = F (h + z (a' * n) + z i)%Z (h + z (b' * n) + z j)%Z) ->
    element_sum n w (0 + z (a * n)) (0 + z (b * n)) (fun x y => f (at_ x y)) = element_sum n w (h + z (a' * n)) (h + z (b' * n)) F).
  { intros f F Hf. unfold element_sum. apply nsum_ext. intros i Hi. apply nsum_ext. intros j Hj. rewrite <- Hf by assumption.
    f_equal. f_equal. f_equal; lia. }
  rewrite (T (fun x => J x * H1 x) (fun x y => J3 G k x y * pick q s k x y)).
  2:{ intros i j Hi Hj. destruct (Hx i j Hi Hj) as (-> & _ & ->). reflexivity. }
  rewrite (T (fun x => J x * H0 x) (fun x y => J3 G k x y * pick q u k x y)).
  2:{ intros i j Hi Hj. destruct (Hx i j Hi Hj) as (-> & -> & _). reflexivity. }
  assert (N3 : forall i j, (i < n)%nat -> (j < n)%nat -> J3 G k (h + z (a' * n) + z i)%Z (h + z (b' * n) + z j)%Z <> 0).
  { intros i j Hi Hj. destruct (Hx i j Hi Hj) as (-> & _). apply NJ; assumption. }
  destruct q as [| |c]; cbn [pick].
  - apply (flux_conserved n B (base2 G) w _ _ (flux_a G S init (vR init) k) (flux_b G S init (vR init) k) (J3 G k) (vR u k) (vR s k) dt HD HA).
    intros i j Hi Hj. split; [apply N3; assumption|apply (at_r n B G S init u s dt h nA nB E); assumption].
  - apply (flux_conserved n B (base2 G) w _ _ (flux_a G S init (init_p S init) k) (flux_b G S init (init_p S init) k) (J3 G k) (vP u k) (vP s k) dt HD HA).
    intros i j Hi Hj. split; [apply N3; assumption|apply (at_p n B G S init u s dt h nA nB E); assumption].
  - apply (flux_conserved n B (base2 G) w _ _ (tflux_a n B G S init c k (h + z (a' * n)) (h + z (b' * n))) (tflux_b n B G S init c k (h + z (a' * n)) (h + z (b' * n))) (J3 G k) (vT u c k) (vT s c k) dt HD HA).
    intros i j Hi Hj. split; [apply N3; assumption|apply (at_t n B G S init u s dt h nA nB E); try assumption; apply Hc; reflexivity].
Qed.

(** On a doubly periodic plane of any number of elements, for any decomposition into
    patches, a step followed by the averaging across element edges leaves the total
    of J rho, J rho theta and J tracer on each level unchanged. *)
Theorem C71_plane : forall n B, (2 <= n <= 10)%nat -> gll_basis n = Some B -> exists w, weights_of n (bW B) w /\
  forall eA eB q k (J H0 H1 H2 : Z * Z -> R), (1 <= eA)%nat -> (1 <= eB)%nat ->
  (forall x, torus_node (z n) (z eA) (z eB) x -> J x <> 0) -> plane_single n eA eB J ->
  moved n B eA eB q k plane_at J H0 H1 -> plane_average n eA eB H1 H2 ->
  patch_sum n w 0 eA eB (fun x y => J (x, y) * H2 (x, y)) = patch_sum n w 0 eA eB (fun x y => J (x, y) * H0 (x, y)).
Proof.
  intros n B Hn HB. destruct (C55_reference n Hn) as (B' & w & E & W & Sy & HD & HA). rewrite HB in E. injection E as <-.
  exists w. split; [exact W|]. intros eA eB q k J H0 H1 H2 HeA HeB NJ SJ HS HDss.
  transitivity (patch_sum n w 0 eA eB (fun x y => J (x, y) * H1 (x, y))).
  - pose proof (plane_averaged_sum n w eA eB J H1 H2 (fun _ => 1) Sy ltac:(lia) HeA HeB HDss SJ ltac:(intros x y _ _ _; reflexivity)) as Q. cbv beta in Q.
    rewrite (patch_sum_ext n w 0 eA eB _ (fun x y => J (x, y) * H2 (x, y))) in Q by (intros; ring).
    rewrite (patch_sum_ext n w 0 eA eB (fun x y => J (x, y) * (1 * H1 (x, y))) (fun x y => J (x, y) * H1 (x, y))) in Q by (intros; ring). exact Q.
  - apply (moved_sum n B Hn HB w eA eB q k plane_at J H0 H1 HD HA); [|exact HS]. intros a b i j Ha Hb Hi Hj. apply NJ. unfold torus_node, plane_at. cbn. nia.
Qed.
(** the same on the cubed sphere *)
Theorem C71_sphere : forall n B, (2 <= n <= 10)%nat -> gll_basis n = Some B -> exists w, weights_of n (bW B) w /\
  forall e q k (J H0 H1 H2 : Z * Z * Z -> R), (1 <= e)%nat ->
  (forall x, cs_node (z n) (z e) x -> J x <> 0) -> sphere_single n e J ->
  (forall p, (p < 6)%nat -> moved n B e e q k (panel_at p) J H0 H1) -> sphere_average n e H1 H2 ->
  sphere_sum n w e (fun x => J x * H2 x) = sphere_sum n w e (fun x => J x * H0 x).
Proof.
  intros n B Hn HB. destruct (C55_reference n Hn) as (B' & w & E & W & Sy & HD & HA). rewrite HB in E. injection E as <-.
  exists w. split; [exact W|]. intros e q k J H0 H1 H2 He NJ SJ HS HDss.
  transitivity (sphere_sum n w e (fun x => J x * H1 x)).
  - pose proof (sphere_averaged_sum n w e J H1 H2 (fun _ => 1) Sy ltac:(lia) He HDss SJ ltac:(intros x y _ _ _; reflexivity)) as Q. cbv beta in Q.
    rewrite (sphere_sum_ext n w e _ (fun x => J x * H2 x)) in Q by (intros; ring).
    rewrite (sphere_sum_ext n w e (fun x => J x * (1 * H1 x)) (fun x => J x * H1 x)) in Q by (intros; ring). exact Q.
  - unfold sphere_sum. apply nsum_ext. intros p Hp. apply (moved_sum n B Hn HB w e e q k (panel_at p) J H0 H1 HD HA); [|apply HS; exact Hp].
    intros a b i j Ha Hb Hi Hj. apply NJ. unfold cs_node, panel_at. cbn. nia.
Qed.

(** ** The hypotheses hold on a plane of one element *)
Example C71_plane_case : exists w, weights_of 4 (bW basis4) w /\ forall init dt, exists s H2,
  nonhydro_step 4 basis4 ex_g3 ex_set init dt 1 1 1 init = Some s /\
  plane_average 4 1 1 (fun x => vR s 1%nat (1 + fst x)%Z (1 + snd x)%Z) H2 /\
  patch_sum 4 w 0 1 1 (fun x y => 2 * H2 (x, y)) = patch_sum 4 w 0 1 1 (fun x y => 2 * vR init 1%nat (1 + x)%Z (1 + y)%Z).
Proof.
  destruct (C71_plane 4 basis4 ltac:(lia) eq_refl) as (w & W & H). exists w. split; [exact W|]. intros init dt.
  destruct (ex_some ex_g3 ex_set init dt init eq_refl) as (s & E). exists s.
  set (H1 := fun x : Z * Z => vR s 1%nat (1 + fst x)%Z (1 + snd x)%Z).
  set (H2 := fun x : Z * Z => cart_dss ravg 4 (mkBox 0 0 1 (-1) 5 (-1) 5) (fun i j => H1 ((i - 1) mod 4, (j - 1) mod 4)%Z) (fst x + 1)%Z (snd x + 1)%Z).
  assert (Av : plane_average 4 1 1 H1 H2).
  { intros x Tx. exists (mkBox 0 0 1 (-1) 5 (-1) 5), (fun i j => H1 ((i - 1) mod 4, (j - 1) mod 4)%Z), (fst x + 1)%Z, (snd x + 1)%Z.
    split; [apply one_patch|]. split; [intros i j _; reflexivity|]. unfold torus_node in Tx. split; [unfold inner_node; cbn in *; lia|]. split; [|reflexivity].
    unfold DssSpec.place. cbn. destruct x; cbn. f_equal; lia. }
  exists H2. split; [exact E|]. split; [exact Av|].
  apply (H 1%nat 1%nat Density 1%nat (fun _ => 2) (fun x => vR init 1%nat (1 + fst x)%Z (1 + snd x)%Z) H1 H2 (le_n _) (le_n _));
    [intros; lra|intros x y _ _ _; reflexivity| |exact Av].
  intros a b Ha Hb. exists ex_g3, ex_set, init, init, s, dt, 1%Z, 1%nat, 1%nat, 0%nat, 0%nat.
  split; [lia|]. split; [lia|]. split; [cbn; lia|]. split; [discriminate|]. split; [exact E|].
  intros i j Hi Hj. assert (a = 0%nat) as -> by lia. assert (b = 0%nat) as -> by lia. cbv zeta. split; [reflexivity|].
  unfold H1, plane_at. cbn [fst snd pick]. split; f_equal; lia.
Qed.

Print Assumptions C71_plane.
Print Assumptions C71_sphere.
