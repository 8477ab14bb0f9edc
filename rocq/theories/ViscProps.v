(** C65-C69: tracer filters, diffusion of scalars and of the velocity, friction. *)
From Coq Require Import ZArith Reals List Lia Lra Psatz Bool.
From Verif Require Import ShallowModel ShallowSpec ShallowProofs ShallowProps ViscModel ViscSpec ViscProofs.
Import ListNotations.
Local Open Scope R_scope.
Local Notation z := Z.of_nat.

(** ** C65: the filters of negative tracers *)
Lemma ratio_range l : (forall e, In e l -> 0 < snd e) -> 0 <= total l -> 0 <= total l / part l <= 1 /\ total l / part l * part l = total l.
Proof.
  intros Ha Ht. destruct (part_bounds l Ha) as (P0 & P1 & _ & _). destruct (Req_dec (part l) 0) as [E|N].
  - assert (total l = 0) as -> by lra. unfold Rdiv. rewrite E. split; [split|]; try lra.
  - assert (0 < part l) by lra. split; [|field; exact N]. split.
    + apply Rmult_le_pos; [exact Ht|]. left. apply Rinv_0_lt_compat. lra.
    + apply (Rmult_le_reg_r (part l)); [lra|]. replace (total l / part l * part l) with (total l) by (field; exact N). lra.
Qed.
Lemma filtered_range r v : 0 <= r <= 1 -> 0 <= filtered r v <= Rmax 0 v.
Proof.
  intros Hr. unfold filtered. destruct (Rlt_dec 0 v) as [Hv|Hv].
  - split; [apply Rmult_le_pos; lra|]. eapply Rle_trans; [|apply Rmax_r]. nra.
  - split; [lra|apply Rmax_l].
Qed.
Lemma filtered_negative r v : r < 0 -> 0 < v -> filtered r v < 0.
Proof. intros Hr Hv. unfold filtered. destruct (Rlt_dec 0 v); [nra|contradiction]. Qed.
Lemma combine_map (f : R -> R) (l : list (R * R)) : combine (map (fun e => f (fst e)) l) (map snd l) = map (fun e => (f (fst e), snd e)) l.
Proof. induction l as [|e l IH]; cbn; [reflexivity|rewrite IH; reflexivity]. Qed.
(** A column whose mass is not negative: the filter keeps its mass, leaves no
    negative value and raises no value that was not negative. *)
Theorem C65_column : forall l, (forall e, In e l -> 0 < snd e) -> 0 <= total l ->
  exists l', filter_column l = map Some l' /\ length l' = length l /\ total (combine l' (map snd l)) = total l /\
    forall k, (k < length l)%nat -> 0 <= nth k l' 0 <= Rmax 0 (fst (nth k l (0, 0))).
Proof.
  intros l Ha Ht. set (r := total l / part l). exists (map (fun e => filtered r (fst e)) l).
  destruct (ratio_range l Ha Ht) as (Hr & Er). fold r in Hr, Er. split; [|split; [apply map_length|split]].
  - unfold filter_column. rewrite map_map. apply map_ext_in. intros e He. apply filter_value_ok; assumption.
  - rewrite (combine_map (filtered r)), filtered_sum. exact Er.
  - intros k Hk. rewrite (nth_indep _ 0 (filtered r (fst (0, 0)))) by (rewrite map_length; exact Hk).
    rewrite (map_nth (fun e => filtered r (fst e))). apply filtered_range. exact Hr.
Qed.
(** Values that are not negative stay as they are; so filtering twice is filtering
    once. *)
Theorem C65_column_kept : forall l, (forall e, In e l -> 0 < snd e) -> (forall e, In e l -> 0 <= fst e) ->
  filter_column l = map Some (map fst l).
Proof.
  intros l Ha Hn. unfold filter_column. rewrite map_map. apply map_ext_in. intros e He. rewrite (filter_value_ok l e Ha He).
  f_equal. unfold filtered. destruct (part_bounds l Ha) as (_ & _ & P & Eq). destruct (Rlt_dec 0 (fst e)) as [Hv|Hv].
  - pose proof (P e He Hv) as Pp. rewrite (Eq Hn) in *. field. lra.
  - pose proof (Hn e He). lra.
Qed.
(** False of the code for a column of negative mass: every positive value becomes
    negative; and if no value is positive, everything becomes 0 and the mass is
    lost. *)
Theorem C65_column_refuted : forall l, (forall e, In e l -> 0 < snd e) -> total l < 0 ->
  (forall e, In e l -> 0 < fst e -> exists v, filter_value (ratio l) (fst e) = Some v /\ v < 0) /\
  ((forall e, In e l -> fst e <= 0) -> filter_column l = map (fun _ => Some 0) l).
Proof.
  intros l Ha Ht. split.
  - intros e He Hv. rewrite (filter_value_ok l e Ha He). eexists. split; [reflexivity|]. apply filtered_negative; [|exact Hv].
    pose proof (proj1 (proj2 (proj2 (part_bounds l Ha))) e He Hv) as P. unfold Rdiv. pose proof (Rinv_0_lt_compat _ P). nra.
  - intros Hn. unfold filter_column. apply map_ext_in. intros e He. unfold filter_value. destruct (Rlt_dec 0 (fst e)) as [Hv|_]; [|reflexivity].
    pose proof (Hn e He). lra.
Qed.

Lemma element_mass_filtered n p q area f f' : (forall i j, (i < n)%nat -> (j < n)%nat -> 0 < area (p + z i)%Z (q + z j)%Z) ->
  (forall i j, (i < n)%nat -> (j < n)%nat -> f' (p + z i)%Z (q + z j)%Z = filtered (scale n p q area f) (f (p + z i)%Z (q + z j)%Z)) ->
  let l := map (fun e => (f (fst e) (snd e), area (fst e) (snd e))) (element_nodes n p q) in
  (forall e, In e l -> 0 < snd e) /\ total l = element_mass n p q area f /\ element_mass n p q area f' = scale n p q area f * part l.
Proof.
  intros Ha Hf l. split; [|split; [apply total_element|]].
  - intros e He. apply in_map_iff in He. destruct He as (e' & <- & He). apply in_element_nodes in He. destruct He as (i & j & Hi & Hj & ->).
    cbn. apply Ha; assumption.
  - rewrite <- filtered_sum, <- total_element. f_equal. unfold l. rewrite map_map. apply map_ext_in. intros e He.
    apply in_element_nodes in He. destruct He as (i & j & Hi & Hj & ->). cbn [fst snd]. rewrite Hf by assumption. reflexivity.
Qed.
(** The same for the elements of a patch: whatever the other elements hold, an
    element of mass >= 0 keeps its mass and its values end in [0, max(0, old)];
    nothing outside the patch is written. *)
Theorem C65_element : forall n area h nA nB f,
  (forall a b, (a < nA)%nat -> (b < nB)%nat -> in_element n h a b (fun x y => 0 < area x y)) ->
  exists f', filter_patch n area h nA nB f = Some f' /\
    (forall a b, (a < nA)%nat -> (b < nB)%nat -> let p := (h + z (a * n))%Z in let q := (h + z (b * n))%Z in
       0 <= element_mass n p q area f ->
       element_mass n p q area f' = element_mass n p q area f /\ in_element n h a b (fun x y => 0 <= f' x y <= Rmax 0 (f x y))) /\
    (forall x y, (forall a b i j, (a < nA)%nat -> (b < nB)%nat -> (i < n)%nat -> (j < n)%nat ->
       ~ (x = h + z (a * n) + z i /\ y = h + z (b * n) + z j)%Z) -> f' x y = f x y).
Proof.
  intros n area h nA nB f Ha. destruct (filter_patch_ok n area h nA nB f) as (f' & E & V & O).
  { intros a b i j HA HB Hi Hj. apply (Ha a b HA HB i j Hi Hj). }
  exists f'. split; [exact E|]. split; [|exact O]. intros a b HA HB p q Hm.
  destruct (element_mass_filtered n p q area f f') as (Pl & Tl & Ml); [intros; apply (Ha a b HA HB); assumption|intros; apply V; assumption|].
  rewrite <- Tl in Hm |- *. destruct (ratio_range _ Pl Hm) as (Hr & Er). split; [rewrite Ml; exact Er|].
  intros i j Hi Hj. rewrite (V a b i j HA HB Hi Hj). apply filtered_range. exact Hr.
Qed.
(** an element without negative values is not changed *)
Theorem C65_element_kept : forall n area h nA nB f,
  (forall a b, (a < nA)%nat -> (b < nB)%nat -> in_element n h a b (fun x y => 0 < area x y)) ->
  exists f', filter_patch n area h nA nB f = Some f' /\
    forall a b, (a < nA)%nat -> (b < nB)%nat -> in_element n h a b (fun x y => 0 <= f x y) -> in_element n h a b (fun x y => f' x y = f x y).
Proof.
  intros n area h nA nB f Ha. destruct (filter_patch_ok n area h nA nB f) as (f' & E & V & O).
  { intros a b i j HA HB Hi Hj. apply (Ha a b HA HB i j Hi Hj). }
  exists f'. split; [exact E|]. intros a b HA HB Hn i j Hi Hj. rewrite (V a b i j HA HB Hi Hj).
  set (p := (h + z (a * n))%Z). set (q := (h + z (b * n))%Z).
  destruct (element_mass_filtered n p q area f f') as (Pl & Tl & Ml); [intros; apply (Ha a b HA HB); assumption|intros; apply V; assumption|].
  set (l := map _ _) in *. unfold filtered, scale. fold l. destruct (part_bounds l Pl) as (_ & _ & P & Eq).
  assert (N : forall e, In e l -> 0 <= fst e).
  { intros e He. apply in_map_iff in He. destruct He as (e' & <- & He). apply in_element_nodes in He. destruct He as (i' & j' & Hi' & Hj' & ->).
    cbn. apply Hn; assumption. }
  pose proof (Hn i j Hi Hj) as Fn. fold p q in Fn. destruct (Rlt_dec 0 (f (p + z i)%Z (q + z j)%Z)) as [Hv|Hv]; [|lra].
  assert (I : In (f (p + z i)%Z (q + z j)%Z, area (p + z i)%Z (q + z j)%Z) l).
  { unfold l. apply in_map_iff. exists (p + z i, q + z j)%Z. split; [reflexivity|]. apply in_element_nodes. exists i, j. auto. }
  pose proof (P _ I Hv) as Pp. rewrite (Eq N) in *. field. lra.
Qed.
(** False of the code for an element of negative mass, as for columns. *)
Theorem C65_element_refuted : forall n area h nA nB f,
  (forall a b, (a < nA)%nat -> (b < nB)%nat -> in_element n h a b (fun x y => 0 < area x y)) ->
  exists f', filter_patch n area h nA nB f = Some f' /\
    forall a b, (a < nA)%nat -> (b < nB)%nat -> element_mass n (h + z (a * n)) (h + z (b * n)) area f < 0 ->
      in_element n h a b (fun x y => 0 < f x y -> f' x y < 0).
Proof.
  intros n area h nA nB f Ha. destruct (filter_patch_ok n area h nA nB f) as (f' & E & V & O).
  { intros a b i j HA HB Hi Hj. apply (Ha a b HA HB i j Hi Hj). }
  exists f'. split; [exact E|]. intros a b HA HB Hm i j Hi Hj Hv. rewrite (V a b i j HA HB Hi Hj).
  set (p := (h + z (a * n))%Z) in *. set (q := (h + z (b * n))%Z) in *.
  destruct (element_mass_filtered n p q area f f') as (Pl & Tl & Ml); [intros; apply (Ha a b HA HB); assumption|intros; apply V; assumption|].
  apply filtered_negative; [|exact Hv]. rewrite <- Tl in Hm. unfold scale. set (l := map _ _) in *.
  assert (I : In (f (p + z i)%Z (q + z j)%Z, area (p + z i)%Z (q + z j)%Z) l).
  { unfold l. apply in_map_iff. exists (p + z i, q + z j)%Z. split; [reflexivity|]. apply in_element_nodes. exists i, j. auto. }
  pose proof (proj1 (proj2 (proj2 (part_bounds l Pl))) _ I Hv) as P. unfold Rdiv. pose proof (Rinv_0_lt_compat _ P). nra.
Qed.
Example C65_case : filter_column [(3, 1); (-1, 2); (2, 1)] = map Some [3 * (3 / 5); 0; 2 * (3 / 5)] /\
  filter_column [(1, 1); (-2, 1)] = map Some [-1; 0].
Proof.
  unfold filter_column, filter_value, ratio. rewrite !masses_ok. unfold part, total. cbn [map filter fst snd fold_right].
  repeat match goal with |- context [Rle_dec ?a ?b] => destruct (Rle_dec a b); [try (exfalso; lra)|try (exfalso; lra)] end.
  repeat match goal with |- context [Rlt_dec ?a ?b] => destruct (Rlt_dec a b); [try (exfalso; lra)|try (exfalso; lra)] end.
  cbn [fold_right fst snd].
  repeat match goal with |- context [Req_EM_T ?a ?b] => destruct (Req_EM_T a b); [try (exfalso; lra)|try (exfalso; lra)] end.
  split; repeat f_equal; field.
Qed.

(** ** C66: diffusion of scalars *)
Local Ltac reference n Hn HB B w W Wp HD HA :=
  let B' := fresh in let E := fresh in let Sy := fresh in
  destruct (C55_reference n Hn) as (B' & w & E & W & Sy & HD & HA);
  rewrite HB in E; injection E as <-; exists w; split; [exact W|]; clear Sy;
  assert (Wp : forall i, (i < n)%nat -> 0 < w i) by (intros; apply W; assumption).

(** After one application every node of the patch holds its old value minus
    dt nu / J times the sum of the weak derivatives of J grad psi; tested against
    any field k this is -dt nu times the integral of grad psi . grad k. *)
Theorem C66_weak : forall n B, (2 <= n <= 10)%nat -> gll_basis n = Some B -> exists w, weights_of n (bW B) w /\
  forall g J psi dt nu h nA nB u k a b, (a < nA)%nat -> (b < nB)%nat ->
  in_element n h a b (fun x y => J x y <> 0 /\ gA1 g x y = gB0 g x y) ->
  let p := (h + z (a * n))%Z in let q := (h + z (b * n))%Z in
  let u' := scalar_level n B g J psi dt nu h nA nB u in
  element_sum n w p q (fun x y => J x y * (k x y * (u' x y - u x y))) =
  - (dt * nu * dirichlet n w (bD B) (gDeltaA g) (gDeltaB g) p q J (gA0 g) (gA1 g) (gB1 g) psi k).
Proof.
  intros n B Hn HB. reference n Hn HB B w W Wp HD HA. intros g J psi dt nu h nA nB u k a b Ha Hb Hg p q u'.
  rewrite <- (scalar_weak n B g J w p q HA psi k) by (intros i j Hi Hj; apply (Hg i j Hi Hj)).
  transitivity (- (dt * nu) * esum n w (fun i j => k (p + z i)%Z (q + z j)%Z * (upd_a n B g J psi p q i j + upd_b n B g J psi p q i j))); [|ring].
  rewrite <- esum_scal. change (element_sum n w p q (fun x y => J x y * (k x y * (u' x y - u x y)))) with
    (esum n w (fun i j => J (p + z i)%Z (q + z j)%Z * (k (p + z i)%Z (q + z j)%Z * (u' (p + z i)%Z (q + z j)%Z - u (p + z i)%Z (q + z j)%Z)))).
  apply esum_ext. intros i j Hi Hj. unfold u', scalar_level. rewrite (patch_there n h nA nB _ u a b i j Ha Hb Hi Hj). fold p q.
  unfold scalar_node. field. apply (Hg i j Hi Hj).
Qed.
(** the integral of J u over every element is unchanged, for every metric (also
    one that is not symmetric), coefficient and time step *)
Theorem C66_mass : forall n B, (2 <= n <= 10)%nat -> gll_basis n = Some B -> exists w, weights_of n (bW B) w /\
  forall g J psi dt nu h nA nB u a b, (a < nA)%nat -> (b < nB)%nat -> in_element n h a b (fun x y => J x y <> 0) ->
  let p := (h + z (a * n))%Z in let q := (h + z (b * n))%Z in
  element_sum n w p q (fun x y => J x y * scalar_level n B g J psi dt nu h nA nB u x y) = element_sum n w p q (fun x y => J x y * u x y).
Proof.
  intros n B Hn HB. reference n Hn HB B w W Wp HD HA. intros g J psi dt nu h nA nB u a b Ha Hb Hg p q.
  change (element_sum n w p q (fun x y => J x y * scalar_level n B g J psi dt nu h nA nB u x y)) with
    (esum n w (fun i j => J (p + z i)%Z (q + z j)%Z * scalar_level n B g J psi dt nu h nA nB u (p + z i)%Z (q + z j)%Z)).
  change (element_sum n w p q (fun x y => J x y * u x y)) with (esum n w (fun i j => J (p + z i)%Z (q + z j)%Z * u (p + z i)%Z (q + z j)%Z)).
  set (one := fun _ _ : Z => 1).
  rewrite (esum_ext n w _ (fun i j => J (p + z i)%Z (q + z j)%Z * u (p + z i)%Z (q + z j)%Z + - (dt * nu) *
    (one (p + z i)%Z (q + z j)%Z * (nsum n (fun s => jgrad_a n B g J psi p q s j * bS B i s) / gDeltaA g) +
     one (p + z i)%Z (q + z j)%Z * (nsum n (fun s => jgrad_b n B g J psi p q i s * bS B j s) / gDeltaB g)))).
  - rewrite esum_plus, esum_scal, esum_plus, (weak_x n B g w p q HA one (jgrad_a n B g J psi p q)), (weak_y n B g w p q HA one (jgrad_b n B g J psi p q)).
    rewrite (esum_zero n w (fun i j => jgrad_a n B g J psi p q i j * _)), (esum_zero n w (fun i j => jgrad_b n B g J psi p q i j * _));
      [ring| |]; intros i j Hi Hj.
    + rewrite (ddy_const n (bD B) (gDeltaB g) one p q i j 1 HD Hj) by reflexivity. ring.
    + rewrite (ddx_const n (bD B) (gDeltaA g) one p q i j 1 HD Hi) by reflexivity. ring.
  - intros i j Hi Hj. unfold scalar_level. rewrite (patch_there n h nA nB _ u a b i j Ha Hb Hi Hj). fold p q.
    unfold scalar_node. rewrite upd_a_sum, upd_b_sum. unfold one.
    set (X := nsum n (fun s => jgrad_a n B g J psi p q s j * bS B i s) / gDeltaA g).
    set (Y := nsum n (fun s => jgrad_b n B g J psi p q i s * bS B j s) / gDeltaB g). field. apply Hg; assumption.
Qed.
(** where psi is constant in an element nothing changes *)
Theorem C66_constant : forall n B, (2 <= n <= 10)%nat -> gll_basis n = Some B ->
  forall g J psi dt nu h nA nB u a b c, (a < nA)%nat -> (b < nB)%nat -> in_element n h a b (fun x y => psi x y = c) ->
  in_element n h a b (fun x y => scalar_level n B g J psi dt nu h nA nB u x y = u x y).
Proof.
  intros n B Hn HB g J psi dt nu h nA nB u a b c Ha Hb Hc i j Hi Hj. destruct (C55_reference n Hn) as (B' & w & E & _ & _ & HD & _).
  rewrite HB in E. injection E as <-. unfold scalar_level. rewrite (patch_there n h nA nB _ u a b i j Ha Hb Hi Hj).
  set (p := (h + z (a * n))%Z). set (q := (h + z (b * n))%Z). unfold scalar_node. rewrite upd_a_sum, upd_b_sum.
  assert (Z1 : forall i j, (i < n)%nat -> (j < n)%nat -> ddx n (bD B) (gDeltaA g) psi p q i j = 0 /\ ddy n (bD B) (gDeltaB g) psi p q i j = 0).
  { intros i' j' Hi' Hj'. split; [apply (ddx_const n (bD B) _ psi p q i' j' c HD Hi')|apply (ddy_const n (bD B) _ psi p q i' j' c HD Hj')];
      intros s Hs; apply Hc; assumption. }
  rewrite !nsum_zero; [unfold Rdiv; ring| |]; intros s Hs.
  - unfold jgrad_b. rewrite d_alpha_ddx, d_beta_ddy. destruct (Z1 i s Hi Hs) as (-> & ->). ring.
  - unfold jgrad_a. rewrite d_alpha_ddx, d_beta_ddy. destruct (Z1 s j Hs Hj) as (-> & ->). ring.
Qed.
(** Dissipation: for nu >= 0 and a positive definite metric there is a time step
    below which diffusing a field does not increase the integral of its square. *)
Theorem C66_dissipation : forall n B, (2 <= n <= 10)%nat -> gll_basis n = Some B -> exists w, weights_of n (bW B) w /\
  forall g J psi nu h nA nB a b, (a < nA)%nat -> (b < nB)%nat -> 0 <= nu ->
  in_element n h a b (fun x y => 0 < J x y /\ gA1 g x y = gB0 g x y /\ definite (gA0 g x y) (gA1 g x y) (gB1 g x y)) ->
  let p := (h + z (a * n))%Z in let q := (h + z (b * n))%Z in
  exists t, 0 < t /\ forall dt, 0 <= dt <= t ->
  element_sum n w p q (fun x y => J x y * (scalar_level n B g J psi dt nu h nA nB psi x y * scalar_level n B g J psi dt nu h nA nB psi x y)) <=
  element_sum n w p q (fun x y => J x y * (psi x y * psi x y)).
Proof.
  intros n B Hn HB. reference n Hn HB B w W Wp HD HA. intros g J psi nu h nA nB a b Ha Hb Hnu Hg p q.
  assert (HJp : forall i j, (i < n)%nat -> (j < n)%nat -> 0 < J (p + z i)%Z (q + z j)%Z) by (intros i j Hi Hj; apply (Hg i j Hi Hj)).
  set (L := fun i j => / J (p + z i)%Z (q + z j)%Z * (upd_a n B g J psi p q i j + upd_b n B g J psi p q i j)).
  set (E := dirichlet n w (bD B) (gDeltaA g) (gDeltaB g) p q J (gA0 g) (gA1 g) (gB1 g) psi psi).
  set (Q := esum n w (fun i j => J (p + z i)%Z (q + z j)%Z * (L i j * L i j))).
  assert (Sq : forall dt, element_sum n w p q (fun x y => J x y * (scalar_level n B g J psi dt nu h nA nB psi x y * scalar_level n B g J psi dt nu h nA nB psi x y)) =
    element_sum n w p q (fun x y => J x y * (psi x y * psi x y)) + (-2 * (dt * nu) * E + (dt * nu) * (dt * nu) * Q)).
  { intros dt. unfold E. rewrite <- (scalar_weak n B g J w p q HA psi psi) by (intros i j Hi Hj; apply (Hg i j Hi Hj)).
    unfold Q. rewrite <- !esum_scal. change (element_sum n w p q (fun x y => J x y * (psi x y * psi x y))) with
      (esum n w (fun i j => J (p + z i)%Z (q + z j)%Z * (psi (p + z i)%Z (q + z j)%Z * psi (p + z i)%Z (q + z j)%Z))).
    rewrite <- !esum_plus.
    match goal with |- element_sum n w p q ?f = _ => change (element_sum n w p q f) with (esum n w (fun i j => f (p + z i)%Z (q + z j)%Z)) end.
    apply esum_ext. intros i j Hi Hj. cbv beta. unfold scalar_level. rewrite (patch_there n h nA nB _ psi a b i j Ha Hb Hi Hj). fold p q.
    unfold scalar_node, L. assert (J (p + z i)%Z (q + z j)%Z <> 0) by (pose proof (HJp i j Hi Hj); lra).
    field. assumption. }
  assert (Hf : forall i j, (i < n)%nat -> (j < n)%nat -> let x := (p + z i)%Z in let y := (q + z j)%Z in
    let fa := ddx n (bD B) (gDeltaA g) psi p q i j in let fb := ddy n (bD B) (gDeltaB g) psi p q i j in
    0 <= J x y * (gA0 g x y * fa * fa + gA1 g x y * (fa * fb + fb * fa) + gB1 g x y * fb * fb)).
  { intros i j Hi Hj x y fa fb. destruct (Hg i j Hi Hj) as (HJ & _ & Df). fold p q x y in HJ, Df. apply Rmult_le_pos; [lra|]. apply form_nonneg. exact Df. }
  assert (E0 : 0 <= E). { unfold E, dirichlet. change (node_sum n w) with (esum n w). apply esum_nonneg; [exact Wp|exact Hf]. }
  assert (Q0 : 0 <= Q).
  { apply esum_nonneg; [exact Wp|]. intros i j Hi Hj. apply Rmult_le_pos; [pose proof (HJp i j Hi Hj); lra|apply Rle_0_sqr]. }
  destruct (Req_dec (nu * Q) 0) as [Z0|Nz].
  - exists 1. split; [lra|]. intros dt (Hd & _). rewrite Sq. assert (0 <= dt * nu * E) by (apply Rmult_le_pos; [apply Rmult_le_pos|]; assumption).
    replace (dt * nu * (dt * nu) * Q) with (dt * dt * nu * (nu * Q)) by ring. rewrite Z0. lra.
  - assert (NQ : 0 < nu * Q) by (pose proof (Rmult_le_pos nu Q Hnu Q0); lra).
    assert (Ep : 0 < E).
    { destruct (Rle_lt_or_eq_dec 0 E E0) as [|Ez]; [assumption|]. exfalso. symmetry in Ez.
      assert (G0 : forall i j, (i < n)%nat -> (j < n)%nat -> ddx n (bD B) (gDeltaA g) psi p q i j = 0 /\ ddy n (bD B) (gDeltaB g) psi p q i j = 0).
      { intros i j Hi Hj. pose proof (esum_null n w _ Wp Hf Ez i j Hi Hj) as Hz. cbv zeta in Hz.
        destruct (Hg i j Hi Hj) as (HJ & _ & Df). fold p q in HJ, Df. apply Rmult_integral in Hz. destruct Hz as [Hz|Hz]; [lra|].
        exact (form_null _ _ _ _ _ Df Hz). }
      apply Nz. replace Q with 0; [ring|]. symmetry. unfold Q. apply esum_zero. intros i j Hi Hj. unfold L. rewrite upd_a_sum, upd_b_sum.
      rewrite !nsum_zero; [unfold Rdiv; ring| |]; intros s Hs.
      - unfold jgrad_b. rewrite d_alpha_ddx, d_beta_ddy. destruct (G0 i s Hi Hs) as (-> & ->). ring.
      - unfold jgrad_a. rewrite d_alpha_ddx, d_beta_ddy. destruct (G0 s j Hs Hj) as (-> & ->). ring. }
    exists (2 * E / (nu * Q)). split; [apply Rdiv_lt_0_compat; lra|]. intros dt (Hd & Ht). rewrite Sq.
    assert (dt * (nu * Q) <= 2 * E).
    { apply (Rmult_le_compat_r (nu * Q)) in Ht; [|lra]. replace (2 * E / (nu * Q) * (nu * Q)) with (2 * E) in Ht by (unfold Rdiv; rewrite Rmult_assoc, Rinv_l by lra; ring). exact Ht. }
    assert (0 <= dt * nu) by (apply Rmult_le_pos; assumption).
    replace (-2 * (dt * nu) * E + dt * nu * (dt * nu) * Q) with (dt * nu * (dt * (nu * Q) - 2 * E)) by ring.
    assert (dt * nu * (dt * (nu * Q) - 2 * E) <= 0) by nra. lra.
Qed.

(** Which components are changed.  [comp] is -1 (all) or one component. *)
Definition selected (cfg : config) (comp : Z) (c : nat) : Prop :=
  if Z.eqb comp (-1) then (2 <= c < nComp cfg)%nat else z c = comp.
Lemma selected_list cfg comp : (-1 <= comp < z (nComp cfg))%Z -> exists l, NoDup l /\ (forall c, In c l <-> selected cfg comp c) /\
  l = if Z.eqb comp (-1) then seq 2 (nComp cfg - 2) else [Z.to_nat comp].
Proof.
  intros Hc. eexists. split; [|split; [|reflexivity]]; unfold selected; destruct (Z.eqb_spec comp (-1)) as [E|E].
  - apply seq_NoDup.
  - repeat constructor. intros [].
  - intros c. rewrite in_seq. lia.
  - intros c. cbn. lia.
Qed.
(** Components 2 and up and the tracers, or the one component asked for, are
    diffused, each level from the initial data of that level; everything else keeps
    its value.  With all components the reference state must not be removed. *)
Theorem C66_components : forall n B g cfg h nA nB jacN jacE init ref dt nu sc len comp remove d,
  (-1 <= comp < z (nComp cfg))%Z -> (comp = -1 -> remove = false)%Z -> (forall c, selected cfg comp c -> varloc cfg c <> Elsewhere) ->
  let nu' := local_nu g nu sc len in
  let lev := fun J psi => scalar_level n B g J psi dt nu' h nA nB in
  exists d', apply_scalar n B g cfg h nA nB jacN jacE init ref dt nu sc len comp remove d = Done d' /\
  (forall c k, selected cfg comp c -> varloc cfg c = OnNode -> (k < nLev cfg)%nat ->
     dNode d' c k = lev (jacN k) (fun x y => if remove then dNode init c k x y - dNode ref c k x y else dNode init c k x y) (dNode d c k)) /\
  (forall c k, selected cfg comp c -> varloc cfg c = OnEdge -> (k <= nLev cfg)%nat ->
     dEdge d' c k = lev (jacE k) (fun x y => if remove then dEdge init c k x y - dEdge ref c k x y else dEdge init c k x y) (dEdge d c k)) /\
  (forall c k, comp = (-1)%Z -> (c < nTrac cfg)%nat -> (k < nLev cfg)%nat -> dTrac d' c k = lev (jacN k) (dTrac init c k) (dTrac d c k)) /\
  (forall c k, ~ (selected cfg comp c /\ varloc cfg c = OnNode /\ (k < nLev cfg)%nat) -> dNode d' c k = dNode d c k) /\
  (forall c k, ~ (selected cfg comp c /\ varloc cfg c = OnEdge /\ (k <= nLev cfg)%nat) -> dEdge d' c k = dEdge d c k) /\
  (forall c k, ~ (comp = (-1)%Z /\ (c < nTrac cfg)%nat /\ (k < nLev cfg)%nat) -> dTrac d' c k = dTrac d c k).
Proof.
  intros n B g cfg h nA nB jacN jacE init ref dt nu sc len comp remove d Hc Hr Hv nu' lev.
  destruct (selected_list cfg comp Hc) as (l & Nl & Il & El).
  destruct (each_state n B g cfg h nA nB jacN jacE l init ref remove dt nu' Nl ltac:(intros c H; apply Hv, Il, H) d) as (d1 & E1 & T1 & P1 & P2 & P3 & P4).
  unfold apply_scalar. destruct (Z.ltb_spec comp (-1)); [lia|]. destruct (Z.eqb_spec comp (-1)) as [E|E].
  - rewrite El in E1. fold nu'. rewrite E1. specialize (Hr E). subst remove.
    destruct (each_tracer n B g cfg h nA nB jacN jacE (seq 0 (nTrac cfg)) init dt nu' (seq_NoDup _ _) d1) as (d2 & E2 & N2 & G2 & Q1 & Q2).
    rewrite E2. exists d2. split; [reflexivity|]. rewrite N2, G2. rewrite T1 in *. repeat apply conj.
    + intros c k S. apply P1, Il, S.
    + intros c k S. apply P2, Il, S.
    + intros c k _ Hc' Hk. apply Q1; [apply in_seq; lia|exact Hk].
    + intros c k S. apply P3. intros (S1 & S2). apply S. split; [apply Il, S1|exact S2].
    + intros c k S. apply P4. intros (S1 & S2). apply S. split; [apply Il, S1|exact S2].
    + intros c k S. apply Q2. intros (S1 & S2). apply S. apply in_seq in S1. repeat split; [exact E|lia|exact S2].
  - destruct (Z.leb_spec (z (nComp cfg)) comp); [lia|]. rewrite El in E1. fold nu'. rewrite E1. exists d1. split; [reflexivity|].
    rewrite T1. repeat apply conj.
    + intros c k S. apply P1, Il, S.
    + intros c k S. apply P2, Il, S.
    + intros c k E'. contradiction.
    + intros c k S. apply P3. intros (S1 & S2). apply S. split; [apply Il, S1|exact S2].
    + intros c k S. apply P4. intros (S1 & S2). apply S. split; [apply Il, S1|exact S2].
    + reflexivity.
Qed.
(** The exceptions; and False of the code: removing the reference state from all
    components reads an unset pointer as soon as there is a tracer. *)
Theorem C66_refused : forall n B g cfg h nA nB jacN jacE init ref dt nu sc len comp remove d,
  (comp < -1 \/ z (nComp cfg) <= comp)%Z \/ (exists c, selected cfg comp c /\ varloc cfg c = Elsewhere) ->
  apply_scalar n B g cfg h nA nB jacN jacE init ref dt nu sc len comp remove d = Throws.
Proof.
  intros n B g cfg h nA nB jacN jacE init ref dt nu sc len comp remove d H. unfold apply_scalar.
  destruct (Z.ltb_spec comp (-1)); [reflexivity|]. destruct (Z.eqb_spec comp (-1)) as [E|E].
  - destruct H as [H|(c & S & Ec)]; [lia|]. rewrite each_throws; [reflexivity|]. exists c. split; [|exact Ec].
    unfold selected in S. rewrite E in S. cbn in S. apply in_seq. lia.
  - destruct (Z.leb_spec (z (nComp cfg)) comp); [reflexivity|]. destruct H as [H|(c & S & Ec)]; [lia|]. apply each_throws.
    exists c. split; [|exact Ec]. unfold selected in S. destruct (Z.eqb_spec comp (-1)); [contradiction|]. left. lia.
Qed.
Theorem C66_reference_refuted : forall n B g cfg h nA nB jacN jacE init ref dt nu sc len d,
  (0 < nTrac cfg)%nat -> (forall c, (2 <= c < nComp cfg)%nat -> varloc cfg c <> Elsewhere) ->
  apply_scalar n B g cfg h nA nB jacN jacE init ref dt nu sc len (-1) true d = Undefined.
Proof.
  intros n B g cfg h nA nB jacN jacE init ref dt nu sc len d Ht Hv. unfold apply_scalar. cbn [Z.ltb Z.compare Z.eqb].
  destruct (each_state n B g cfg h nA nB jacN jacE (seq 2 (nComp cfg - 2)) init ref true dt (local_nu g nu sc len) (seq_NoDup _ _)
    ltac:(intros c H; apply Hv; apply in_seq in H; lia) d) as (d1 & -> & _).
  apply each_tracer_removed. destruct (nTrac cfg); [lia|discriminate].
Qed.
(** the local coefficient keeps the sign of nu *)
Theorem C66_local : forall g nu sc len, exists c, 0 < c /\ local_nu g nu sc len = c * nu.
Proof.
  intros g nu sc len. unfold local_nu. destruct sc; [|exists 1; split; lra]. destruct (Req_EM_T len 0); [exists 1; split; lra|].
  exists (Rpower (gDeltaA g / len) (32 / 10)). split; [apply exp_pos|ring].
Qed.
Example C66_case : exists w, weights_of 4 (bW basis4) w /\
  let flat := Geometry (fun _ _ => 1) (fun _ _ => 2) (fun _ _ => 1) (fun _ _ => 1) (fun _ _ => 3) (fun _ _ => 0) (fun _ _ => 0) 1 1 1 in
  forall psi, exists t, 0 < t /\ forall dt, 0 <= dt <= t ->
  element_sum 4 w 1 1 (fun x y => 1 * (scalar_level 4 basis4 flat (fun _ _ => 1) psi dt 1 1 1 1 psi x y * scalar_level 4 basis4 flat (fun _ _ => 1) psi dt 1 1 1 1 psi x y)) <=
  element_sum 4 w 1 1 (fun x y => 1 * (psi x y * psi x y)).
Proof.
  destruct (C66_dissipation 4 basis4 ltac:(lia) eq_refl) as (w & W & H). exists w. split; [exact W|]. intros flat psi.
  apply (H flat (fun _ _ => 1) psi 1 1%Z 1%nat 1%nat 0%nat 0%nat); try lia; try lra.
  intros i j _ _. cbn. repeat split; try lra.
Qed.

(** ** C67: curl, divergence and diffusion of the velocity *)
(** ComputeCurlAndDiv gives, on both grids, the divergence and the curl of the
    covariant velocity at every node of the patch. *)
Theorem C67_values : forall n B g cs u v h nA nB od oc a b i j, (a < nA)%nat -> (b < nB)%nat -> (i < n)%nat -> (j < n)%nat ->
  in_element n h a b (fun x y => gA1 g x y = gB0 g x y) ->
  let p := (h + z (a * n))%Z in let q := (h + z (b * n))%Z in
  divergence n B g cs u v h nA nB od (p + z i)%Z (q + z j)%Z =
    div_of n (bD B) (gDeltaA g) (gDeltaB g) (gJ g) (gA0 g) (gA1 g) (gB1 g) u v p q i j /\
  vorticity n B g cs u v h nA nB oc (p + z i)%Z (q + z j)%Z = curl_of n (bD B) (gDeltaA g) (gDeltaB g) (gJ g) u v p q i j.
Proof.
  intros n B g cs u v h nA nB od oc a b i j Ha Hb Hi Hj Sy p q. unfold divergence, vorticity.
  rewrite !(patch_there n h nA nB _ _ a b i j Ha Hb Hi Hj). fold p q. destruct cs; split.
  - apply div_cs_of; assumption.
  - apply curl_cs_of.
  - rewrite (div_cart_cs n B g p q u v i j _ 0). apply div_cs_of; assumption.
  - rewrite (curl_cart_cs n B g p q u v i j _ 0). apply curl_cs_of.
Qed.
(** a gradient has no curl *)
Theorem C67_gradient : forall n B g cs phi u v h nA nB oc a b, (a < nA)%nat -> (b < nB)%nat ->
  let p := (h + z (a * n))%Z in let q := (h + z (b * n))%Z in
  (forall i j, (i < n)%nat -> (j < n)%nat -> u (p + z i)%Z (q + z j)%Z = ddx n (bD B) (gDeltaA g) phi p q i j /\
     v (p + z i)%Z (q + z j)%Z = ddy n (bD B) (gDeltaB g) phi p q i j) ->
  in_element n h a b (fun x y => vorticity n B g cs u v h nA nB oc x y = 0).
Proof.
  intros n B g cs phi u v h nA nB oc a b Ha Hb p q H i j Hi Hj. unfold vorticity.
  rewrite (patch_there n h nA nB _ _ a b i j Ha Hb Hi Hj). fold p q.
  assert (C : curl_cs n B g u v p q i j 0 = 0).
  { rewrite curl_cs_of. unfold curl_of, ddx, ddy.
    rewrite (nsum_ext n (fun s => v _ _ * _) (fun s => nsum n (fun t => phi (p + z s)%Z (q + z t)%Z * bD B t j) / gDeltaB g * bD B s i))
      by (intros s Hs; rewrite (proj2 (H s j Hs Hj)); reflexivity).
    rewrite (nsum_ext n (fun s => u _ _ * _) (fun t => nsum n (fun s => phi (p + z s)%Z (q + z t)%Z * bD B s i) / gDeltaA g * bD B t j))
      by (intros s Hs; rewrite (proj1 (H i s Hi Hs)); reflexivity).
    rewrite mixed. unfold Rdiv. ring. }
  destruct cs; [exact C|rewrite (curl_cart_cs n B g p q u v i j _ 0); exact C].
Qed.
(** The update tested against any velocity (k, l): dt times the integrals of the
    products of the divergences and of the curls.  [J^2 det g = 1] is the relation
    of the Jacobian to the contravariant metric. *)
Theorem C67_weak : forall n B, (2 <= n <= 10)%nat -> gll_basis n = Some B -> exists w, weights_of n (bW B) w /\
  forall g cs u0 v0 dt nud nuv h nA nB od oc u v k l a b, (a < nA)%nat -> (b < nB)%nat ->
  in_element n h a b (fun x y => gJ g x y <> 0 /\ gA1 g x y = gB0 g x y /\
    gJ g x y * gJ g x y * (gA0 g x y * gB1 g x y - gA1 g x y * gA1 g x y) = 1) ->
  let p := (h + z (a * n))%Z in let q := (h + z (b * n))%Z in
  let r := vector_level n B g cs false u0 v0 dt nud nuv h nA nB od oc u v in
  let J := gJ g in let gaa := gA0 g in let gab := gA1 g in let gbb := gB1 g in
  let dv := fun u v => div_of n (bD B) (gDeltaA g) (gDeltaB g) J gaa gab gbb u v p q in
  let cu := fun u v => curl_of n (bD B) (gDeltaA g) (gDeltaB g) J u v p q in
  element_sum n w p q (fun x y => J x y *
    ((gaa x y * k x y + gab x y * l x y) * (fst r x y - u x y) + (gab x y * k x y + gbb x y * l x y) * (snd r x y - v x y))) =
  dt * (nud * node_sum n w (fun i j => J (p + z i)%Z (q + z j)%Z * (dv u0 v0 i j * dv k l i j)) +
        nuv * node_sum n w (fun i j => J (p + z i)%Z (q + z j)%Z * (cu u0 v0 i j * cu k l i j))).
Proof.
  intros n B Hn HB. reference n Hn HB B w W Wp HD HA. intros g cs u0 v0 dt nud nuv h nA nB od oc u v k l a b Ha Hb Hg p q r J gaa gab gbb dv cu.
  set (dd := divergence n B g cs u0 v0 h nA nB od). set (cc := vorticity n B g cs u0 v0 h nA nB oc).
  assert (Sy : forall i j, (i < n)%nat -> (j < n)%nat -> gA1 g (p + z i)%Z (q + z j)%Z = gB0 g (p + z i)%Z (q + z j)%Z) by (intros i j Hi Hj; apply (Hg i j Hi Hj)).
  assert (Vs : forall i j, (i < n)%nat -> (j < n)%nat -> dd (p + z i)%Z (q + z j)%Z = dv u0 v0 i j /\ cc (p + z i)%Z (q + z j)%Z = cu u0 v0 i j).
  { intros i j Hi Hj. apply (C67_values n B g cs u0 v0 h nA nB od oc a b i j Ha Hb Hi Hj). intros i' j' Hi' Hj'. apply Sy; assumption. }
  pose proof (vector_weak n B g w p q HA Sy dd cc nud nuv k l) as VW. cbv zeta in VW. fold J gaa gab gbb in VW.
  specialize (VW ltac:(intros i j Hi Hj; destruct (Hg i j Hi Hj) as (H1 & _ & H2); split; assumption)).
  transitivity (- dt * esum n w (fun i j => J (p + z i)%Z (q + z j)%Z *
    ((gaa (p + z i)%Z (q + z j)%Z * k (p + z i)%Z (q + z j)%Z + gab (p + z i)%Z (q + z j)%Z * l (p + z i)%Z (q + z j)%Z) * vector_a n B g dd cc nud nuv p q i j +
     (gab (p + z i)%Z (q + z j)%Z * k (p + z i)%Z (q + z j)%Z + gbb (p + z i)%Z (q + z j)%Z * l (p + z i)%Z (q + z j)%Z) * vector_b n B g dd cc nud nuv p q i j))).
  - rewrite <- esum_scal.
    match goal with |- element_sum n w p q ?f = _ => change (element_sum n w p q f) with (esum n w (fun i j => f (p + z i)%Z (q + z j)%Z)) end.
    apply esum_ext. intros i j Hi Hj. cbv beta. unfold r, vector_level. cbn [fst snd]. fold dd cc.
    rewrite (patch_there n h nA nB _ u a b i j Ha Hb Hi Hj), (patch_there n h nA nB _ v a b i j Ha Hb Hi Hj). fold p q. ring.
  - rewrite VW. change (node_sum n w) with (esum n w).
    rewrite (esum_ext n w (fun i j => J _ _ * (dd _ _ * _)) (fun i j => J (p + z i)%Z (q + z j)%Z * (dv u0 v0 i j * dv k l i j)))
      by (intros i j Hi Hj; rewrite (proj1 (Vs i j Hi Hj)); reflexivity).
    rewrite (esum_ext n w (fun i j => J _ _ * (cc _ _ * _)) (fun i j => J (p + z i)%Z (q + z j)%Z * (cu u0 v0 i j * cu k l i j)))
      by (intros i j Hi Hj; rewrite (proj2 (Vs i j Hi Hj)); reflexivity).
    ring.
Qed.
(** So with dt nu <= 0 (the sign with which it is called for viscosity) the rate at
    which it changes the kinetic energy u . u / 2 is not positive, and it is the
    sum of the squares of divergence and curl. *)
Theorem C67_dissipation : forall n B, (2 <= n <= 10)%nat -> gll_basis n = Some B -> exists w, weights_of n (bW B) w /\
  forall g cs u v dt nud nuv h nA nB od oc a b, (a < nA)%nat -> (b < nB)%nat -> dt * nud <= 0 -> dt * nuv <= 0 ->
  in_element n h a b (fun x y => 0 < gJ g x y /\ gA1 g x y = gB0 g x y /\
    gJ g x y * gJ g x y * (gA0 g x y * gB1 g x y - gA1 g x y * gA1 g x y) = 1) ->
  let p := (h + z (a * n))%Z in let q := (h + z (b * n))%Z in
  let r := vector_level n B g cs false u v dt nud nuv h nA nB od oc u v in
  element_sum n w p q (fun x y => gJ g x y *
    ((gA0 g x y * u x y + gA1 g x y * v x y) * (fst r x y - u x y) + (gA1 g x y * u x y + gB1 g x y * v x y) * (snd r x y - v x y))) <= 0.
Proof.
  intros n B Hn HB. destruct (C67_weak n B Hn HB) as (w & W & H). exists w. split; [exact W|].
  assert (Wp : forall i, (i < n)%nat -> 0 < w i) by (intros; apply W; assumption).
  intros g cs u v dt nud nuv h nA nB od oc a b Ha Hb H1 H2 Hg p q r. unfold r, p, q.
  rewrite (H g cs u v dt nud nuv h nA nB od oc u v u v a b Ha Hb). 2:{ intros i j Hi Hj. destruct (Hg i j Hi Hj) as (HJ & HS). split; [lra|exact HS]. }
  change (node_sum n w) with (esum n w). rewrite Rmult_plus_distr_l, <- !Rmult_assoc.
  match goal with |- dt * nud * ?X + dt * nuv * ?Y <= 0 => assert (0 <= X /\ 0 <= Y) as (HX & HY) end.
  { split; (apply esum_nonneg; [exact Wp|]; intros i j Hi Hj; apply Rmult_le_pos; [pose proof (proj1 (Hg i j Hi Hj)); unfold p, q; lra|apply Rle_0_sqr]). }
  nra.
Qed.
(** a velocity without divergence and curl in an element is not changed there *)
Theorem C67_kept : forall n B g cs xz u0 v0 dt nud nuv h nA nB od oc u v a b, (a < nA)%nat -> (b < nB)%nat ->
  in_element n h a b (fun x y => divergence n B g cs u0 v0 h nA nB od x y = 0 /\ vorticity n B g cs u0 v0 h nA nB oc x y = 0) ->
  let r := vector_level n B g cs xz u0 v0 dt nud nuv h nA nB od oc u v in
  in_element n h a b (fun x y => fst r x y = u x y /\ snd r x y = v x y).
Proof.
  intros n B g cs xz u0 v0 dt nud nuv h nA nB od oc u v a b Ha Hb H0 r i j Hi Hj. unfold r, vector_level. cbn [fst snd].
  set (dd := divergence n B g cs u0 v0 h nA nB od) in *. set (cc := vorticity n B g cs u0 v0 h nA nB oc) in *.
  rewrite (patch_there n h nA nB _ u a b i j Ha Hb Hi Hj).
  assert (Wa : forall f, in_element n h a b (fun x y => f x y = 0) ->
    weak_a n B g f (h + z (a * n)) (h + z (b * n)) i j = 0 /\ weak_b n B g f (h + z (a * n)) (h + z (b * n)) i j = 0).
  { intros f Hf. rewrite weak_a_sum, weak_b_sum. rewrite !nsum_zero; [unfold Rdiv; split; ring| |]; intros s Hs; rewrite Hf by assumption; ring. }
  destruct (Wa dd) as (D1 & D2); [intros i' j' Hi' Hj'; apply (H0 i' j' Hi' Hj')|].
  destruct (Wa cc) as (C1 & C2); [intros i' j' Hi' Hj'; apply (H0 i' j' Hi' Hj')|].
  split; [|destruct xz; [reflexivity|rewrite (patch_there n h nA nB _ v a b i j Ha Hb Hi Hj)]].
  - unfold vector_a. cbv zeta. rewrite D1, C1, C2. ring.
  - unfold vector_b. cbv zeta. rewrite D2, C1, C2. ring.
Qed.
(** nothing outside the patch is written, and V is not written on an x-z slice *)
Theorem C67_outside : forall n B g cs xz u0 v0 dt nud nuv h nA nB od oc u v x y,
  (forall a b i j, (a < nA)%nat -> (b < nB)%nat -> (i < n)%nat -> (j < n)%nat -> ~ (x = h + z (a * n) + z i /\ y = h + z (b * n) + z j)%Z) ->
  let r := vector_level n B g cs xz u0 v0 dt nud nuv h nA nB od oc u v in
  fst r x y = u x y /\ snd r x y = v x y /\ (xz = true -> snd r = v).
Proof.
  intros n B g cs xz u0 v0 dt nud nuv h nA nB od oc u v x y Ho r. unfold r, vector_level. cbn [fst snd]. split; [|split].
  - apply patch_away. exact Ho.
  - destruct xz; [reflexivity|]. apply patch_away. exact Ho.
  - intros ->. reflexivity.
Qed.
Example C67_case : exists w, weights_of 4 (bW basis4) w /\
  let g := Geometry (fun _ _ => 1 / 2) (fun _ _ => 2) (fun _ _ => 0) (fun _ _ => 0) (fun _ _ => 2) (fun _ _ => 0) (fun _ _ => 0) 1 1 1 in
  forall u v, let r := vector_level 4 basis4 g true false u v (-1) 1 2 1 1 1 (fun _ _ => 0) (fun _ _ => 0) u v in
  element_sum 4 w 1 1 (fun x y => gJ g x y *
    ((gA0 g x y * u x y + gA1 g x y * v x y) * (fst r x y - u x y) + (gA1 g x y * u x y + gB1 g x y * v x y) * (snd r x y - v x y))) <= 0.
Proof.
  destruct (C67_dissipation 4 basis4 ltac:(lia) eq_refl) as (w & W & H). exists w. split; [exact W|]. intros g u v.
  apply (H g true u v (-1) 1 2 1%Z 1%nat 1%nat (fun _ _ => 0) (fun _ _ => 0) 0%nat 0%nat); try lia; try lra.
  intros i j _ _. cbn. repeat split; lra.
Qed.

(** ** C68: friction *)
(** For dt nu >= 0 a value moves towards the reference by a factor in (0, 1], the
    tenth power of 1 / (1 + dt nu / 10): it stays between, and a value equal to the
    reference does not move. *)
Theorem C68_contraction : forall dt nu ref v, 0 <= dt * nu -> exists c, 0 < c <= 1 /\ contracted c ref v (friction_value dt nu ref v) /\
  c * (1 + dt * nu / 10) ^ 10 = 1.
Proof.
  intros dt nu ref v H. assert (P : 1 <= 1 + 1 / 10 * dt * nu) by lra. exists ((1 / (1 + 1 / 10 * dt * nu)) ^ 10).
  assert (I : 0 < 1 / (1 + 1 / 10 * dt * nu) <= 1).
  { split; [apply Rdiv_lt_0_compat; lra|]. unfold Rdiv. rewrite Rmult_1_l, <- Rinv_1. apply Rinv_le_contravar; lra. }
  split; [|split].
  - split; [apply pow_lt, I|]. apply Rle_trans with (1 ^ 10); [apply pow_incr; destruct I; split; lra|rewrite pow1; lra].
  - unfold contracted, friction_value. destruct (Req_EM_T nu 0) as [->|N]; [|apply cycles_contract; lra].
    replace (1 / (1 + 1 / 10 * dt * 0)) with 1 by field. rewrite pow1. ring.
  - rewrite <- Rpow_mult_distr. replace (1 / (1 + 1 / 10 * dt * nu) * (1 + dt * nu / 10)) with 1 by (field; lra). apply pow1.
Qed.
(** At a node exactly the components of the list that are stored there are damped,
    each once. *)
Theorem C68_components : forall cfg nonhydro loc dt nu ref v c,
  (nonhydro = true -> nComp cfg = 5%nat) ->
  let damped := (c < nComp cfg)%nat /\ varloc cfg c = loc /\ (nonhydro = true -> c <> 4%nat /\ (isXZ cfg = true -> c <> 1%nat)) in
  (damped -> friction_cell cfg nonhydro loc dt nu ref v c = friction_value dt nu (ref c) (v c)) /\
  (~ damped -> friction_cell cfg nonhydro loc dt nu ref v c = v c).
Proof.
  intros cfg nonhydro loc dt nu ref v c H5 damped. unfold friction_cell. set (l := effective nonhydro (isXZ cfg) (nComp cfg)).
  assert (Il : In c l <-> (c < nComp cfg)%nat /\ (nonhydro = true -> c <> 4%nat /\ (isXZ cfg = true -> c <> 1%nat))).
  { unfold l, effective. destruct nonhydro.
    - rewrite (H5 eq_refl). destruct (isXZ cfg); cbn [In]; (split; [intros H; split; [lia|intros _; split; [lia|intros X; try discriminate; lia]]|
        intros (H & I); destruct (I eq_refl) as (I1 & I2); try specialize (I2 eq_refl); lia]).
    - rewrite in_seq. split; [intros H; split; [lia|discriminate]|lia]. }
  assert (Nl : NoDup l).
  { unfold l, effective. destruct nonhydro; [|apply seq_NoDup]. destruct (isXZ cfg); repeat constructor; cbn; lia. }
  assert (Pe : forall a b, place_eqb a b = true <-> a = b) by (intros [] []; cbn; split; intros; congruence).
  assert (K : forall l v, NoDup l -> fold_left (fun v c => if place_eqb (varloc cfg c) loc
      then fun c' => if Nat.eqb c' c then friction_value dt nu (ref c) (v c) else v c' else v) l v c =
      if andb (existsb (Nat.eqb c) l) (place_eqb (varloc cfg c) loc) then friction_value dt nu (ref c) (v c) else v c).
  { clear. induction l as [|b l IH]; intros v N; [reflexivity|]. inversion N as [|? ? Hb N']; subst. cbn [fold_left existsb]. rewrite IH by exact N'.
    destruct (Nat.eqb_spec c b) as [->|Ne].
    - assert (existsb (Nat.eqb b) l = false) as ->.
      { apply Bool.not_true_is_false. intros E. apply existsb_exists in E. destruct E as (b' & Hb' & E). apply Nat.eqb_eq in E. subst b'. exact (Hb Hb'). }
      cbn. destruct (place_eqb (varloc cfg b) loc); [rewrite Nat.eqb_refl|]; reflexivity.
    - cbn [orb]. destruct (place_eqb (varloc cfg b) loc); [|reflexivity]. destruct (Nat.eqb_spec c b); [contradiction|]. reflexivity. }
  rewrite (K l v Nl). assert (Ex : existsb (Nat.eqb c) l = true <-> In c l).
  { rewrite existsb_exists. split; [intros (b & Hb & E); apply Nat.eqb_eq in E; subst; exact Hb|intros H; exists c; split; [exact H|apply Nat.eqb_refl]]. }
  destruct (andb _ _) eqn:A; [apply andb_prop in A; destruct A as (A1 & A2); apply Ex, Il in A1; apply Pe in A2|].
  - split; [reflexivity|]. intros Nd. elim Nd. unfold damped. tauto.
  - split; [|reflexivity]. intros (D1 & D2 & D3). assert (existsb (Nat.eqb c) l = true) by (apply Ex, Il; auto).
    assert (place_eqb (varloc cfg c) loc = true) by (apply Pe; exact D2). rewrite H, H0 in A. discriminate.
Qed.
Example C68_case : friction_value 10 1 3 5 - 3 = (1 / 2) ^ 10 * (5 - 3) /\
  friction_cell (Config 5 0 1 (fun _ => OnNode) true) true OnNode 10 1 (fun _ => 3) (fun _ => 5) 1 = 5.
Proof.
  split.
  - unfold friction_value. destruct (Req_EM_T 1 0) as [E|E]; [lra|]. rewrite cycles_contract by lra. f_equal. f_equal. field.
  - apply C68_components; [reflexivity|]. cbn. intros (_ & _ & D). destruct (D eq_refl) as (_ & D'). apply D'; reflexivity.
Qed.

(** ** C69: the step after the sub-cycle *)
Section AfterProps.
Context {D : Type} (zero : D -> D) (scal : D -> R -> R -> bool -> D -> D) (vect : D -> R -> R -> R -> bool -> D -> D)
        (filt dss : D -> D) (fric : R -> D -> D).
Local Notation step := (step_after zero scal vect filt dss fric).
Local Notation sub := (sub_step zero scal vect filt fric).
Lemma all_zero_iff c : all_zero c = true <-> nuS c = 0 /\ nuD c = 0 /\ nuV c = 0.
Proof.
  unfold all_zero. destruct (Req_EM_T (nuS c) 0), (Req_EM_T (nuD c) 0), (Req_EM_T (nuV c) 0); split; intros H; try discriminate; try tauto; try reflexivity.
Qed.
(** refused exactly when the working index is one of the others, or there is
    something to apply and its order is not 0, 2 or 4 *)
Theorem C69_refused : forall c i u w dt s, step c i u w dt s = Refused <->
  i = w \/ u = w \/ (~ (nuS c = 0 /\ nuD c = 0 /\ nuV c = 0) /\ order c <> 0%Z /\ order c <> 2%Z /\ order c <> 4%Z).
Proof.
  intros c i u w dt s. unfold step_after. destruct (Z.eqb_spec i w); [tauto|]. destruct (Z.eqb_spec u w); [tauto|].
  rewrite <- all_zero_iff. destruct (all_zero c) eqn:A; [split; [discriminate|intros [?|[?|(H & _)]]; [contradiction|contradiction|elim H; reflexivity]]|].
  destruct (Z.eqb_spec (order c) 0); [split; [discriminate|tauto]|]. destruct (Z.eqb_spec (order c) 2); [split; [discriminate|tauto]|].
  destruct (Z.eqb_spec (order c) 4); [split; [discriminate|tauto]|]. split; [intros _; right; right; repeat split; try assumption; discriminate|reflexivity].
Qed.
(** Nothing but the updated index changes, and the working index when the order is
    four and there is something to apply. *)
Theorem C69_frame : forall c i u w dt s s' k, step c i u w dt s = Stored s' -> k <> u ->
  (k = w -> order c <> 4%Z \/ (nuS c = 0 /\ nuD c = 0 /\ nuV c = 0)) -> s' k = s k.
Proof.
  intros c i u w dt s s' k H Hu Hw. unfold step_after in H. destruct (Z.eqb_spec i w); [discriminate|]. destruct (Z.eqb_spec u w); [discriminate|].
  assert (W : forall (s0 : Z -> D) f, edit s0 u f k = s0 k) by (intros s0 f; unfold edit, write; destruct (Z.eqb_spec k u); [contradiction|reflexivity]).
  assert (W0 : forall (s0 : Z -> D) d, write s0 u d k = s0 k) by (intros s0 d; unfold write; destruct (Z.eqb_spec k u); [contradiction|reflexivity]).
  assert (F : forall s0 : Z -> D, (if friction c then edit s0 u (fric dt) else s0) k = s0 k) by (intros s0; destruct (friction c); [apply W|reflexivity]).
  rewrite <- all_zero_iff in Hw. destruct (all_zero c); [injection H as <-; rewrite F; apply W0|].
  destruct (Z.eqb_spec (order c) 0); [injection H as <-; rewrite F; apply W0|].
  destruct (Z.eqb_spec (order c) 2); [injection H as <-; rewrite F, !W; apply W0|].
  destruct (Z.eqb_spec (order c) 4); [|discriminate]. injection H as <-. rewrite F, !W.
  assert (Nw : k <> w) by (intros E; destruct (Hw E) as [?|?]; [contradiction|discriminate]).
  unfold edit, write. destruct (Z.eqb_spec k w); [contradiction|]. destruct (Z.eqb_spec k u); [contradiction|reflexivity].
Qed.
(** Without viscosity the result is the initial data, damped when there is friction:
    no sum over shared nodes and no filter is applied. *)
Theorem C69_off : forall c i u w dt s s', step c i u w dt s = Stored s' ->
  (nuS c = 0 /\ nuD c = 0 /\ nuV c = 0) \/ order c = 0%Z -> s' u = if friction c then fric dt (s i) else s i.
Proof.
  intros c i u w dt s s' H Hz. unfold step_after in H. destruct (Z.eqb_spec i w); [discriminate|]. destruct (Z.eqb_spec u w); [discriminate|].
  rewrite <- all_zero_iff in Hz. assert (E : Stored s' = Stored (if friction c then edit (write s u (s i)) u (fric dt) else write s u (s i))).
  { destruct (all_zero c); [symmetry; exact H|]. destruct Hz as [?|Hz]; [discriminate|]. rewrite Hz in H. symmetry. exact H. }
  injection E as ->. destruct (friction c); unfold edit, write; rewrite !Z.eqb_refl; reflexivity.
Qed.
(** With viscosity the last operations on the updated data are the filter, the sum
    over shared nodes and the friction, in this order. *)
Theorem C69_last : forall c i u w dt s s', step c i u w dt s = Stored s' -> ~ (nuS c = 0 /\ nuD c = 0 /\ nuV c = 0) -> order c <> 0%Z ->
  exists d, s' u = if friction c then fric dt (dss (filt d)) else dss (filt d).
Proof.
  intros c i u w dt s s' H Hz N0. unfold step_after in H. destruct (Z.eqb_spec i w); [discriminate|]. destruct (Z.eqb_spec u w); [discriminate|].
  rewrite <- all_zero_iff in Hz. destruct (all_zero c); [elim Hz; reflexivity|]. destruct (Z.eqb_spec (order c) 0); [contradiction|].
  assert (F : forall s0 : Z -> D, (if friction c then edit s0 u (fric dt) else s0) u = if friction c then fric dt (s0 u) else s0 u).
  { intros s0. destruct (friction c); [|reflexivity]. unfold edit, write. rewrite Z.eqb_refl. reflexivity. }
  assert (E : forall (s0 : Z -> D) f, edit s0 u f u = f (s0 u)) by (intros; unfold edit, write; rewrite Z.eqb_refl; reflexivity).
  destruct (Z.eqb_spec (order c) 2); [injection H as <-; rewrite F, !E; eexists; reflexivity|].
  destruct (Z.eqb_spec (order c) 4); [|discriminate]. injection H as <-. rewrite F, !E. eexists; reflexivity.
Qed.
(** The two sub-steps of order four, each followed by the sum over shared nodes of
    the index it returns, are the step, if there is something to apply and the
    friction, when present, commutes with that sum. *)
Theorem C69_substeps : forall c i u w dt s, i <> w -> u <> w -> order c = 4%Z -> ~ (nuS c = 0 /\ nuD c = 0 /\ nuV c = 0) ->
  (friction c = true -> forall d, dss (fric dt d) = fric dt (dss d)) ->
  substeps c = 2%Z /\ exists s1 s2 s', sub c i u w dt 0 s = Some (w, s1) /\ sub c i u w dt 1 (edit s1 w dss) = Some (u, s2) /\
    step c i u w dt s = Stored s' /\ forall k, s' k = edit s2 u dss k.
Proof.
  intros c i u w dt s Hi Hu Ho Hz Hf. split; [unfold substeps; rewrite Ho; reflexivity|]. unfold sub_step, step_after.
  rewrite (proj2 (Z.eqb_neq i w) Hi), (proj2 (Z.eqb_neq u w) Hu). rewrite <- all_zero_iff in Hz. destruct (all_zero c); [elim Hz; reflexivity|].
  rewrite Ho. cbn [Z.eqb Pos.eqb]. do 3 eexists. split; [reflexivity|]. split; [reflexivity|]. split; [reflexivity|].
  intros k. pose proof (proj2 (Z.eqb_neq i w) Hi) as Ei. pose proof (proj2 (Z.eqb_neq u w) Hu) as Eu. pose proof (proj2 (Z.eqb_neq w u) (not_eq_sym Hu)) as Ew.
  unfold edit, write. rewrite ?Z.eqb_refl, ?Ei, ?Eu, ?Ew, ?Z.eqb_refl, ?Ei, ?Eu, ?Ew.
  destruct (friction c); rewrite ?Z.eqb_refl, ?Ei, ?Eu, ?Ew, ?Z.eqb_refl; replace (if (i =? u)%Z then s i else s i) with (s i) by (destruct (i =? u)%Z; reflexivity);
    (destruct (Z.eqb_spec k u) as [K|K]; [|reflexivity]); [rewrite Hf by reflexivity|]; reflexivity.
Qed.
(** Order two has one sub-step; it only fills the working index. *)
Theorem C69_substep_two_refuted : forall c i u w dt s, order c = 2%Z -> u <> w ->
  substeps c = 1%Z /\ exists s1, sub c i u w dt 0 s = Some (w, s1) /\ s1 u = s u.
Proof.
  intros c i u w dt s Ho Hu. split; [unfold substeps; rewrite Ho; reflexivity|]. unfold sub_step. cbn [Z.eqb]. eexists. split; [reflexivity|].
  unfold edit, write. destruct (Z.eqb_spec u w); [contradiction|reflexivity].
Qed.
End AfterProps.
(** Friction of one coefficient and one reference commutes with the weighted mean
    of the values of the copies of a node. *)
Theorem C69_friction_mean : forall dt nu ref (l : list (R * R)), 0 <= dt * nu -> fold_right (fun e t => fst e + t) 0 l <> 0 ->
  fold_right (fun e t => fst e * friction_value dt nu ref (snd e) + t) 0 l / fold_right (fun e t => fst e + t) 0 l =
  friction_value dt nu ref (fold_right (fun e t => fst e * snd e + t) 0 l / fold_right (fun e t => fst e + t) 0 l).
Proof.
  intros dt nu ref l H N.
  assert (E : exists c, forall v, friction_value dt nu ref v = ref + c * (v - ref)).
  { unfold friction_value. destruct (Req_EM_T nu 0) as [->|Nz]; [exists 1; intros; ring|].
    exists ((1 / (1 + 1 / 10 * dt * nu)) ^ 10). intros v. pose proof (cycles_contract dt nu ref v 10 ltac:(lra)) as C. lra. }
  destruct E as (c & E). rewrite (E (_ / _)). set (A := fold_right (fun e t => fst e + t) 0 l) in *.
  assert (S : fold_right (fun e t => fst e * friction_value dt nu ref (snd e) + t) 0 l = ref * A + c * (fold_right (fun e t => fst e * snd e + t) 0 l - ref * A)).
  { unfold A. clear - E. induction l as [|e l IH]; cbn; [ring|]. rewrite IH, E. ring. }
  rewrite S. field. exact N.
Qed.
Example C69_case :
  let c := Setup 4 1 0 0 true in
  let step := step_after (fun _ => 0) (fun d dt nu _ x => x - dt * nu * d) (fun _ _ _ _ _ x => x) (fun x => x) (fun x => 2 * x) (fun dt x => dt * x) in
  exists s', step c 4%Z 0%Z 1%Z 3 (fun _ => 5) = Stored s' /\ s' 0%Z = 3 * (2 * (5 - - 3 * 1 * (2 * (0 - 1 * 1 * 5)))) /\
    step c 4%Z 0%Z 4%Z 3 (fun _ => 5) = Refused /\ step (Setup 6 1 0 0 true) 4%Z 0%Z 1%Z 3 (fun _ => 5) = Refused.
Proof.
  intros c step.
  destruct (C69_substeps (fun _ => 0) (fun d dt nu _ x => x - dt * nu * d) (fun _ _ _ _ _ x => x) (fun x => x) (fun x => 2 * x) (fun dt x => dt * x)
    c 4%Z 0%Z 1%Z 3 (fun _ => 5)) as (_ & s1 & s2 & s' & S1 & S2 & S3 & S4); try discriminate; try reflexivity.
  { cbn. lra. } { intros _ d. ring. }
  exists s'. split; [exact S3|]. split; [|split].
  - rewrite S4. cbn in S1, S2. injection S1 as <-. injection S2 as <-. unfold edit, write. cbn. ring.
  - apply C69_refused. left. reflexivity.
  - apply C69_refused. right. right. cbn. repeat split; try lra; discriminate.
Qed.

Print Assumptions C65_column.
Print Assumptions C65_column_kept.
Print Assumptions C65_column_refuted.
Print Assumptions C65_element.
Print Assumptions C65_element_kept.
Print Assumptions C65_element_refuted.
Print Assumptions C66_weak.
Print Assumptions C66_mass.
Print Assumptions C66_constant.
Print Assumptions C66_dissipation.
Print Assumptions C66_components.
Print Assumptions C66_refused.
Print Assumptions C66_reference_refuted.
Print Assumptions C66_local.
Print Assumptions C67_values.
Print Assumptions C67_gradient.
Print Assumptions C67_weak.
Print Assumptions C67_dissipation.
Print Assumptions C67_kept.
Print Assumptions C67_outside.
Print Assumptions C68_contraction.
Print Assumptions C68_components.
Print Assumptions C69_refused.
Print Assumptions C69_frame.
Print Assumptions C69_off.
Print Assumptions C69_last.
Print Assumptions C69_substeps.
Print Assumptions C69_substep_two_refuted.
Print Assumptions C69_friction_mean.
