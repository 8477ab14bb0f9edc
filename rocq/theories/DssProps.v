(** C25, C26: direct stiffness summation. *)
From Coq Require Import ZArith Bool List Lia ZifyBool Reals Lra SpecFloat.
From Verif Require Import PanelModel PanelSpec PanelProps LayoutModel LayoutSpec LayoutProps ExchModel DssModel DssSpec DssProofs DssGeom.
Import ListNotations.
Local Open Scope Z_scope.

Lemma torus_E {V} np eA eB (U : Z * Z -> V) b u : holds_torus np eA eB U b u ->
  forall i j, ring b i j -> u i j = (fun a c => U (a mod (np * eA), c mod (np * eB))) (i + bA0 b) (j + bB0 b).
Proof. intros H i j R. apply H, R. Qed.
Lemma cs_E {V} n (U : Z * Z * Z -> V) b u : 0 < n -> 0 <= bpanel b <= 5 -> holds_cs n U b u ->
  forall i j, ring b i j ->
    ~ ((i + bA0 b < 0 \/ n <= i + bA0 b) /\ (j + bB0 b < 0 \/ n <= j + bB0 b)) ->
    u i j = (fun a c => U (img n (bpanel b) a c)) (i + bA0 b) (j + bB0 b).
Proof.
  intros Hn Hp H i j R O. cbv beta. unfold img.
  destruct (relative_coord n (bpanel b) (i + bA0 b) (j + bB0 b)) as [r|] eqn:E.
  - apply H with (1 := R) (2 := E). intros K.
    assert (no_panel n b (i + bA0 b) (j + bB0 b) = true) as F by (unfold no_panel; rewrite E; lia).
    apply no_panel_spec in F; [tauto|lia|lia].
  - exfalso. unfold relative_coord in E.
    assert (bpanel b = 0 \/ bpanel b = 1 \/ bpanel b = 2 \/ bpanel b = 3 \/ bpanel b = 4 \/ bpanel b = 5) as P by lia.
    clear H R. set (x := i + bA0 b) in *. set (y := j + bB0 b) in *. clearbody x y.
    destruct ((0 <=? y) && (0 <=? x) && (y <? n) && (x <? n)) eqn:B1; [discriminate|].
    destruct (((x <? 0) || (n <=? x)) && ((y <? 0) || (n <=? y))) eqn:B2; [discriminate|].
    destruct (n <=? x) eqn:X; [|destruct (n <=? y) eqn:Y; [|destruct (x <? 0) eqn:X'; [|destruct (y <? 0) eqn:Y'; [|lia]]]];
      destruct P as [P|[P|[P|[P|[P|P]]]]]; rewrite P in E; cbn [Z.eqb Pos.eqb] in E; discriminate.
Qed.
Lemma place_torus np eA eB b i j : patch_of np (np * eA) (np * eB) b -> inner_node b i j ->
  torus_node np eA eB (place b i j).
Proof. unfold patch_of, inner_node, torus_node, place. cbn [fst snd]. lia. Qed.
Lemma place_cs np e b i j : 0 <= bpanel b <= 5 -> patch_of np (np * e) (np * e) b -> inner_node b i j ->
  cs_node np e (bpanel b, fst (place b i j), snd (place b i j)).
Proof. unfold patch_of, inner_node, cs_node, place. cbn [fst snd]. lia. Qed.

(** ** C25: Cartesian grid *)

(** Each interior node of each patch ends with the mean of the field over all
    nodes of the grid that lie at its point. *)
Theorem C25_cartesian_mean np eA eB U b u i j : 2 <= np -> 1 <= eA -> 1 <= eB ->
  patch_of np (np * eA) (np * eB) b -> holds_torus np eA eB U b u -> inner_node b i j ->
  mean_over (fun x => torus_node np eA eB x /\ torus_point np eA eB x = torus_point np eA eB (place b i j)) U
    (cart_dss ravg np b u i j).
Proof.
  intros Hn HA HB Hb Hu Hi. rewrite (cart_value ravg np _ _ b u _ i j Hn Hb (torus_E _ _ _ _ _ _ Hu) Hi).
  apply torus_mean; auto. exact (place_torus _ _ _ _ _ _ Hb Hi).
Qed.

(** The values at one point are identical, not only equal up to rounding: the
    statement holds whatever operation the average is. *)
Lemma glob_period {V} (avg : V -> V -> V) np nA nB (U : Z * Z -> V) i j k l : 2 <= np -> (np | nA) -> (np | nB) -> 0 < nA -> 0 < nB ->
  let E := fun a c => U (a mod nA, c mod nB) in
  glob_b avg np (glob_a avg np E) (i + k * nA) (j + l * nB) = glob_b avg np (glob_a avg np E) i j.
Proof.
  intros Hn (qa & ->) (qb & ->) PA PB E. unfold glob_b, glob_a, E.
  replace (k * (qa * np)) with (k * qa * np) by ring. replace (l * (qb * np)) with (l * qb * np) by ring.
  rewrite !Z.add_sub_swap.
  replace (j + l * qb * np + 1) with (j + 1 + l * qb * np) by ring. replace (i + k * qa * np + 1) with (i + 1 + k * qa * np) by ring.
  rewrite !(Z.mod_add _ _ np) by lia.
  replace (k * qa * np) with (k * (qa * np)) by ring. replace (l * qb * np) with (l * (qb * np)) by ring.
  replace (i - 1 + k * (qa * np)) with (i - 1 + k * (qa * np)) by ring.
  rewrite !(Z.mod_add _ _ (qa * np)) by lia. rewrite !(Z.mod_add _ _ (qb * np)) by lia. reflexivity.
Qed.
Theorem C25_cartesian_continuous {V} (avg : V -> V -> V) np eA eB U b b' u u' i j i' j' : 2 <= np -> 1 <= eA -> 1 <= eB ->
  patch_of np (np * eA) (np * eB) b -> holds_torus np eA eB U b u -> inner_node b i j ->
  patch_of np (np * eA) (np * eB) b' -> holds_torus np eA eB U b' u' -> inner_node b' i' j' ->
  torus_point np eA eB (place b i j) = torus_point np eA eB (place b' i' j') ->
  cart_dss avg np b u i j = cart_dss avg np b' u' i' j'.
Proof.
  intros Hn HA HB Hb Hu Hi Hb' Hu' Hi' E.
  rewrite (cart_value avg np _ _ b u _ i j Hn Hb (torus_E _ _ _ _ _ _ Hu) Hi).
  rewrite (cart_value avg np _ _ b' u' _ i' j' Hn Hb' (torus_E _ _ _ _ _ _ Hu') Hi').
  pose proof (place_torus _ _ _ _ _ _ Hb Hi) as (R1 & R2). pose proof (place_torus _ _ _ _ _ _ Hb' Hi') as (R1' & R2').
  unfold torus_point, place in *. cbn [fst snd] in *. injection E as E1 E2. symmetry in E1, E2.
  apply torus_axis in E1; auto. apply torus_axis in E2; auto.
  set (x := i + bA0 b) in *. set (y := j + bB0 b) in *. set (x' := i' + bA0 b') in *. set (y' := j' + bB0 b') in *.
  assert (0 < np * eA) by (apply Z.mul_pos_pos; lia). assert (0 < np * eB) by (apply Z.mul_pos_pos; lia).
  set (F := glob_a avg np (fun a c : Z => U (a mod (np * eA), c mod (np * eB)))).
  assert (forall y, glob_b avg np F x y = glob_b avg np F x' y) as Ex.
  { intros z. destruct E1 as [->| ->]; [reflexivity|]. rewrite Z.mod_eq by lia.
    pose proof (glob_period avg np (np * eA) (np * eB) U (mate np x) z (- (mate np x / (np * eA))) 0 Hn
      ltac:(exists eA; ring) ltac:(exists eB; ring) ltac:(lia) ltac:(lia)) as P. cbv zeta in P. fold F in P.
    replace (mate np x - np * eA * (mate np x / (np * eA))) with (mate np x + - (mate np x / (np * eA)) * (np * eA)) by ring.
    replace (z + 0 * (np * eB)) with z in P by ring. rewrite P.
    apply glob_b_ext. intros w. unfold F. rewrite glob_a_cont by exact Hn. reflexivity. }
  rewrite Ex. destruct E2 as [->| ->]; [reflexivity|]. rewrite Z.mod_eq by lia.
  pose proof (glob_period avg np (np * eA) (np * eB) U x' (mate np y) 0 (- (mate np y / (np * eB))) Hn
    ltac:(exists eA; ring) ltac:(exists eB; ring) ltac:(lia) ltac:(lia)) as P. cbv zeta in P. fold F in P.
  replace (mate np y - np * eB * (mate np y / (np * eB))) with (mate np y + - (mate np y / (np * eB)) * (np * eB)) by ring.
  replace (x' + 0 * (np * eA)) with x' in P by ring. rewrite P. symmetry. apply glob_b_cont. exact Hn.
Qed.
(** Nodes inside an element keep their value. *)
Theorem C25_cartesian_interior {V} (avg : V -> V -> V) np nA nB b u i j : 2 <= np -> patch_of np nA nB b -> inner_node b i j ->
  0 < (i + bA0 b) mod np < np - 1 -> 0 < (j + bB0 b) mod np < np - 1 ->
  cart_dss avg np b u i j = u i j.
Proof.
  intros Hn Hb Hi Ma Mb.
  assert (forall x, 0 < x mod np < np - 1 -> (x + 1) mod np <> 0) as K.
  { intros x Hx. destruct (split_np np x ltac:(lia)) as (q & r & -> & R & _ & Er). rewrite Er in Hx.
    replace (q * np + r + 1) with (q * np + (r + 1)) by ring. rewrite (proj1 (mod_at np q (r + 1) ltac:(lia) ltac:(lia))). lia. }
  assert (forall i0 j0 : Z, ring b i0 j0 -> u i0 j0 = (fun a c => u (a - bA0 b) (c - bB0 b)) (i0 + bA0 b) (j0 + bB0 b)) as Hu.
  { intros. cbv beta. f_equal; lia. }
  rewrite (cart_value avg np nA nB b u _ i j Hn Hb Hu Hi). unfold glob_b, glob_a.
  destruct (Z.eqb_spec ((i + bA0 b) mod np) 0); [lia|]. destruct (Z.eqb_spec ((j + bB0 b) mod np) 0); [lia|].
  destruct (Z.eqb_spec ((i + bA0 b + 1) mod np) 0) as [M|M]; [exfalso; exact (K _ Ma M)|].
  destruct (Z.eqb_spec ((j + bB0 b + 1) mod np) 0) as [M'|M']; [exfalso; exact (K _ Mb M')|].
  f_equal; lia.
Qed.
(** A continuous field is unchanged. *)
Theorem C25_cartesian_unchanged np eA eB U b u i j : 2 <= np -> 1 <= eA -> 1 <= eB ->
  patch_of np (np * eA) (np * eB) b -> holds_torus np eA eB U b u -> inner_node b i j ->
  (forall x, torus_node np eA eB x -> torus_point np eA eB x = torus_point np eA eB (place b i j) -> U x = U (place b i j)) ->
  cart_dss ravg np b u i j = u i j.
Proof.
  intros Hn HA HB Hb Hu Hi Cu.
  assert (u i j = U (place b i j)) as ->.
  { pose proof (place_torus _ _ _ _ _ _ Hb Hi) as (R1 & R2). unfold place in *. cbn [fst snd] in *.
    rewrite Hu by (unfold ring, inner_node in *; lia). rewrite !Z.mod_small by lia. reflexivity. }
  eapply mean_const; [|apply (C25_cartesian_mean np eA eB U); auto]. intros x (H1 & H2). apply Cu; auto.
Qed.
(** The sum over the nodes of a point is preserved by any field assembled
    from patch results. *)
Theorem C25_cartesian_sum np eA eB U D l p : 2 <= np -> 1 <= eA -> 1 <= eB ->
  (forall x, torus_node np eA eB x -> exists b u i j, patch_of np (np * eA) (np * eB) b /\ holds_torus np eA eB U b u /\
     inner_node b i j /\ place b i j = x /\ D x = cart_dss ravg np b u i j) ->
  NoDup l -> (forall x, In x l <-> torus_node np eA eB x /\ torus_point np eA eB x = p) ->
  rsum D l = rsum U l.
Proof.
  intros Hn HA HB HD N I. apply mean_sum with (2 := I); auto. intros x (Nx & Ex).
  destruct (HD x Nx) as (b & u & i & j & Hb & Hu & Hi & <- & ->). subst p.
  apply C25_cartesian_mean; auto.
Qed.
(** A second pass over the same arrays (the two components of
    DataType_TopographyDeriv share one array) changes nothing. *)
Theorem C25_cartesian_twice {V} (avg : V -> V -> V) np nA nB b u i j : 2 <= np -> patch_of np nA nB b ->
  (forall x, avg x x = x) ->
  cart_dss avg np b (cart_dss avg np b u) i j = cart_dss avg np b u i j.
Proof.
  intros Hn Hb Id.
  assert (spaced (cart_lines_a np b)) as Sa by exact (spaced_lines np (bhalo b) 0 (fun _ => (ib0 b - 1, ib1 b + 1)) _ Hn _ eq_refl).
  assert (spaced (cart_lines_b np b)) as Sb by exact (spaced_lines np (bhalo b) 0 (fun _ => (ia0 b - 1, ia1 b + 1)) _ Hn _ eq_refl).
  assert (forall l i j, covers l i j \/ ~ covers l i j) as Dec.
  { intros l. induction l as [|((a & c) & d) l IH]; intros x y.
    - right. intros (z & [] & _).
    - destruct (IH x y) as [H|H]; [left; destruct H as (z & Hz & P); exists z; split; [right; exact Hz|exact P]|].
      destruct (Z.eq_dec a x) as [->|], (Z_le_gt_dec c y), (Z_lt_ge_dec y d);
        try (left; exists (x, c, d); split; [left; reflexivity|]; cbn; lia);
        right; intros (z & [<-|Hz] & P); cbn in P; try lia; apply H; exists z; auto. }
  set (ua := fold_left (line_a avg) (cart_lines_a np b) u).
  assert (forall i j, covers (cart_lines_a np b) i j -> ua i j = ua (i - 1) j) as A1.
  { intros x y H. unfold ua. rewrite (proj1 (sweep_a avg _ Sa u x y) H).
    symmetry. replace x with (x - 1 + 1) in H by lia.
    rewrite (proj1 (proj2 (sweep_a avg _ Sa u (x - 1) y)) H). replace (x - 1 + 1) with x by lia. reflexivity. }
  set (w := fold_left (line_b avg) (cart_lines_b np b) ua).
  assert (forall i j, covers (cart_lines_b np b) j i -> w i j = w i (j - 1)) as B1.
  { intros x y H. unfold w. rewrite (proj1 (sweep_b avg _ Sb ua x y) H).
    symmetry. replace y with (y - 1 + 1) in H by lia.
    rewrite (proj1 (proj2 (sweep_b avg _ Sb ua x (y - 1))) H). replace (y - 1 + 1) with y by lia. reflexivity. }
  assert (forall i j, covers (cart_lines_a np b) i j -> w i j = w (i - 1) j) as A2.
  { intros x y H. pose proof H as H0. rewrite (cart_covers_a np nA nB b Hn Hb) in H0.
    pose proof (sweep_b avg _ Sb ua x y) as (P1 & P2 & P3).
    pose proof (sweep_b avg _ Sb ua (x - 1) y) as (Q1 & Q2 & Q3).
    assert (forall y', covers (cart_lines_b np b) y' x <-> covers (cart_lines_b np b) y' (x - 1)) as Eq.
    { intros y'. rewrite !(cart_covers_b np nA nB b Hn Hb). unfold patch_of in Hb. unfold ia0, ia1. lia. }
    assert (forall y', ib0 b - 1 <= y' < ib1 b + 1 -> ua x y' = ua (x - 1) y') as A1'.
    { intros y' Hy'. apply A1. rewrite (cart_covers_a np nA nB b Hn Hb). tauto. }
    unfold w. destruct (Dec (cart_lines_b np b) y x) as [C|C]; [|destruct (Dec (cart_lines_b np b) (y + 1) x) as [C'|C']].
    - rewrite P1, Q1 by (auto; apply Eq; auto). rewrite (cart_covers_b np nA nB b Hn Hb) in C.
      unfold ib0, ib1 in *. f_equal; apply A1'; unfold patch_of in Hb; lia.
    - rewrite P2, Q2 by (auto; apply Eq; auto). rewrite (cart_covers_b np nA nB b Hn Hb) in C'.
      unfold ib0, ib1 in *. f_equal; apply A1'; unfold patch_of in Hb; lia.
    - rewrite P3, Q3 by (auto; rewrite <- Eq; auto). apply A1'; tauto. }
  assert (forall (v : Z -> Z -> V) i j, (forall i j, covers (cart_lines_a np b) i j -> v i j = v (i - 1) j) ->
    fold_left (line_a avg) (cart_lines_a np b) v i j = v i j) as FA.
  { intros v x y H. pose proof (sweep_a avg _ Sa v x y) as (P1 & P2 & P3).
    destruct (Dec (cart_lines_a np b) x y) as [C|C]; [|destruct (Dec (cart_lines_a np b) (x + 1) y) as [C'|C']].
    - rewrite P1 by auto. rewrite <- (H _ _ C). apply Id.
    - rewrite P2 by auto. rewrite (H _ _ C'). replace (x + 1 - 1) with x by lia. apply Id.
    - apply P3; auto. }
  unfold cart_dss at 1. fold w. change (cart_dss avg np b u) with w.
  pose proof (sweep_b avg _ Sb (fold_left (line_a avg) (cart_lines_a np b) w) i j) as (P1 & P2 & P3).
  destruct (Dec (cart_lines_b np b) j i) as [C|C]; [|destruct (Dec (cart_lines_b np b) (j + 1) i) as [C'|C']].
  - rewrite P1 by auto. rewrite !FA by exact A2. rewrite <- (B1 _ _ C). apply Id.
  - rewrite P2 by auto. rewrite !FA by exact A2. rewrite (B1 _ _ C'). replace (j + 1 - 1) with j by lia. apply Id.
  - rewrite P3 by auto. apply FA, A2.
Qed.

(** ** C25: cubed sphere (scalar components) *)
Theorem C25_sphere_mean np e U b u i j : 2 <= np -> 1 <= e -> 0 <= bpanel b <= 5 ->
  patch_of np (np * e) (np * e) b -> holds_cs (np * e) U b u -> inner_node b i j ->
  mean_over (fun x => cs_node np e x /\
      cs_point np e x = cs_point np e (bpanel b, fst (place b i j), snd (place b i j))) U
    (cs_dss ravg rthird np (np * e) b u i j).
Proof.
  intros Hn He Hp Hb Hu Hi. assert (0 < np * e) as Pn by (apply Z.mul_pos_pos; lia).
  rewrite (cs_value ravg rthird np (np * e) b u _ Hn ltac:(exists e; ring) Hp Hb (cs_E _ _ _ _ Pn Hp Hu) i j Hi).
  apply sphere_mean; auto. exact (place_cs np e b i j Hp Hb Hi).
Qed.
(** Coincident nodes hold the same value, within and across panels. *)
Theorem C25_sphere_continuous np e U b b' u u' i j i' j' : 2 <= np -> 1 <= e ->
  0 <= bpanel b <= 5 -> patch_of np (np * e) (np * e) b -> holds_cs (np * e) U b u -> inner_node b i j ->
  0 <= bpanel b' <= 5 -> patch_of np (np * e) (np * e) b' -> holds_cs (np * e) U b' u' -> inner_node b' i' j' ->
  cs_point np e (bpanel b, fst (place b i j), snd (place b i j)) =
    cs_point np e (bpanel b', fst (place b' i' j'), snd (place b' i' j')) ->
  cs_dss ravg rthird np (np * e) b u i j = cs_dss ravg rthird np (np * e) b' u' i' j'.
Proof.
  intros Hn He Hp Hb Hu Hi Hp' Hb' Hu' Hi' E.
  eapply mean_unique; [apply (C25_sphere_mean np e U b u i j); auto|].
  rewrite E. apply (C25_sphere_mean np e U b' u' i' j'); auto.
Qed.
Theorem C25_sphere_interior {V} (avg : V -> V -> V) third np e b u i j : 2 <= np -> 1 <= e -> 0 <= bpanel b <= 5 ->
  patch_of np (np * e) (np * e) b -> inner_node b i j ->
  0 < (i + bA0 b) mod np < np - 1 -> 0 < (j + bB0 b) mod np < np - 1 ->
  cs_dss avg third np (np * e) b u i j = u i j.
Proof.
  intros Hn He Hp Hb Hi Ma Mb.
  assert (forall x, 0 < x mod np < np - 1 -> (x + 1) mod np <> 0) as K.
  { intros x Hx. destruct (split_np np x ltac:(lia)) as (q & r & -> & R & _ & Er). rewrite Er in Hx.
    replace (q * np + r + 1) with (q * np + (r + 1)) by ring. rewrite (proj1 (mod_at np q (r + 1) ltac:(lia) ltac:(lia))). lia. }
  assert (forall i0 j0 : Z, ring b i0 j0 ->
    ~ ((i0 + bA0 b < 0 \/ np * e <= i0 + bA0 b) /\ (j0 + bB0 b < 0 \/ np * e <= j0 + bB0 b)) ->
    u i0 j0 = (fun a c => u (a - bA0 b) (c - bB0 b)) (i0 + bA0 b) (j0 + bB0 b)) as Hu.
  { intros. cbv beta. f_equal; lia. }
  rewrite (cs_value avg third np (np * e) b u _ Hn ltac:(exists e; ring) Hp Hb Hu i j Hi).
  unfold cs_val. destruct (Z.eqb_spec (i + bA0 b) 0) as [E|_]; [rewrite E, Z.mod_0_l in Ma by lia; lia|].
  destruct (Z.eqb_spec (i + bA0 b) (np * e - 1)) as [E|_].
  { exfalso. apply (K _ Ma). rewrite E. replace (np * e - 1 + 1) with (e * np) by ring. apply Z.mod_mul. lia. }
  cbn [orb andb]. unfold glob_b, glob_a.
  destruct (Z.eqb_spec ((i + bA0 b) mod np) 0); [lia|]. destruct (Z.eqb_spec ((j + bB0 b) mod np) 0); [lia|].
  destruct (Z.eqb_spec ((i + bA0 b + 1) mod np) 0) as [M|M]; [exfalso; exact (K _ Ma M)|].
  destruct (Z.eqb_spec ((j + bB0 b + 1) mod np) 0) as [M'|M']; [exfalso; exact (K _ Mb M')|].
  f_equal; lia.
Qed.
Theorem C25_sphere_unchanged np e U b u i j : 2 <= np -> 1 <= e -> 0 <= bpanel b <= 5 ->
  patch_of np (np * e) (np * e) b -> holds_cs (np * e) U b u -> inner_node b i j ->
  (forall x, cs_node np e x ->
     cs_point np e x = cs_point np e (bpanel b, fst (place b i j), snd (place b i j)) ->
     U x = U (bpanel b, fst (place b i j), snd (place b i j))) ->
  cs_dss ravg rthird np (np * e) b u i j = u i j.
Proof.
  intros Hn He Hp Hb Hu Hi Cu. assert (0 < np * e) as Pn by (apply Z.mul_pos_pos; lia).
  assert (u i j = U (bpanel b, fst (place b i j), snd (place b i j))) as ->.
  { pose proof (place_cs np e b i j Hp Hb Hi) as (_ & R1 & R2). unfold place in *. cbn [fst snd] in *.
    pose proof (proj1 (C20_interior_and_corner (np * e) (bpanel b) (i + bA0 b) (j + bB0 b) Pn) ltac:(lia) ltac:(lia)) as Rc.
    rewrite (Hu i j _ ltac:(unfold ring, inner_node in *; lia) Rc) by (cbn [rp]; lia). reflexivity. }
  eapply mean_const; [|apply (C25_sphere_mean np e U); auto]. intros x (H1 & H2). apply Cu; auto.
Qed.
Theorem C25_sphere_sum np e U D l p : 2 <= np -> 1 <= e ->
  (forall x, cs_node np e x -> exists b u i j, 0 <= bpanel b <= 5 /\ patch_of np (np * e) (np * e) b /\ holds_cs (np * e) U b u /\
     inner_node b i j /\ (bpanel b, fst (place b i j), snd (place b i j)) = x /\ D x = cs_dss ravg rthird np (np * e) b u i j) ->
  NoDup l -> (forall x, In x l <-> cs_node np e x /\ cs_point np e x = p) ->
  rsum D l = rsum U l.
Proof.
  intros Hn He HD N I. apply mean_sum with (2 := I); auto. intros x (Nx & Ex).
  destruct (HD x Nx) as (b & u & i & j & Hp & Hb & Hu & Hi & <- & ->). subst p.
  apply C25_sphere_mean; auto.
Qed.

(** ** C26 *)

(** A box of a layout that tiles the domain with element-aligned boxes is a
    patch in the sense above as soon as it has a node. *)
Lemma tile_patch np nA nB bs b i j : 1 <= bhalo b -> tiles bs (fun p i j => p = 0 /\ 0 <= i < nA /\ 0 <= j < nB) \/
    tiles bs (fun p i j => 0 <= p < 6 /\ 0 <= i < nA /\ 0 <= j < nB) ->
  In b bs -> aligned np b -> inner_node b i j -> patch_of np nA nB b /\ 0 <= bpanel b <= 5.
Proof.
  intros Hh T Ib (D1 & D2 & D3 & D4) Hi. unfold inner_node in Hi.
  apply In_nth_error in Ib as (k & Hk).
  assert (forall x y, bA0 b + bhalo b <= x < bA1 b - bhalo b -> bB0 b + bhalo b <= y < bB1 b - bhalo b ->
    0 <= bpanel b < 6 /\ 0 <= x < nA /\ 0 <= y < nB) as K.
  { intros x y Hx Hy. assert (owns bs (Z.of_nat k) (bpanel b) x y) as O.
    { exists b. split; [lia|]. rewrite Nat2Z.id. split; [exact Hk|]. unfold in_box. auto. }
    destruct T as [(_ & T)|(_ & T)]; specialize (T _ _ _ _ O); cbv beta in T; lia. }
  pose proof (K (bA0 b + bhalo b) (bB0 b + bhalo b) ltac:(lia) ltac:(lia)) as K1.
  pose proof (K (bA1 b - bhalo b - 1) (bB1 b - bhalo b - 1) ltac:(lia) ltac:(lia)) as K2.
  split; [|lia]. unfold patch_of. split; [lia|]. split; [exact D1|]. split; [exact D2|]. split; [exact D3|]. split; [exact D4|]. lia.
Qed.

(** Two patches of any element-aligned decompositions that contain the same
    node compute bit for bit the same value there.  The undecomposed grid is
    the decomposition into one patch. *)
Theorem C26_cartesian {V} (avg : V -> V -> V) np eA eB U b b' u u' i j i' j' : 2 <= np -> 1 <= eA -> 1 <= eB ->
  patch_of np (np * eA) (np * eB) b -> holds_torus np eA eB U b u -> inner_node b i j ->
  patch_of np (np * eA) (np * eB) b' -> holds_torus np eA eB U b' u' -> inner_node b' i' j' ->
  place b i j = place b' i' j' ->
  cart_dss avg np b u i j = cart_dss avg np b' u' i' j'.
Proof.
  intros. eapply (C25_cartesian_continuous avg np eA eB U); eauto. congruence.
Qed.
Theorem C26_sphere {V} (avg : V -> V -> V) third np e U b b' u u' i j i' j' : 2 <= np -> 1 <= e ->
  0 <= bpanel b <= 5 -> patch_of np (np * e) (np * e) b -> holds_cs (np * e) U b u -> inner_node b i j ->
  patch_of np (np * e) (np * e) b' -> holds_cs (np * e) U b' u' -> inner_node b' i' j' ->
  bpanel b = bpanel b' -> place b i j = place b' i' j' ->
  cs_dss avg third np (np * e) b u i j = cs_dss avg third np (np * e) b' u' i' j'.
Proof.
  intros Hn He Hp Hb Hu Hi Hb' Hu' Hi' Ep El. assert (0 < np * e) as Pn by (apply Z.mul_pos_pos; lia).
  rewrite (cs_value avg third np (np * e) b u _ Hn ltac:(exists e; ring) Hp Hb (cs_E _ _ _ _ Pn Hp Hu) i j Hi).
  pose proof Hp as Hp'. rewrite Ep in Hp'.
  rewrite (cs_value avg third np (np * e) b' u' _ Hn ltac:(exists e; ring) Hp' Hb' (cs_E _ _ _ _ Pn Hp' Hu') i' j' Hi').
  unfold place in El. injection El as -> ->. rewrite Ep. reflexivity.
Qed.

(** In particular for the default layouts on any two numbers of patches. *)
Theorem C26_cartesian_layouts {V} (avg : V -> V -> V) np eA eB U m m' h h' ni ni' n n' bs bs' b b' u u' i j i' j' :
  2 <= np -> 1 <= eA -> 1 <= eB ->
  cart_layout m np h eA eB ni n = LOk bs -> cart_layout m' np h' eA eB ni' n' = LOk bs' ->
  In b bs -> In b' bs' -> 1 <= bhalo b -> 1 <= bhalo b' ->
  holds_torus np eA eB U b u -> holds_torus np eA eB U b' u' ->
  inner_node b i j -> inner_node b' i' j' -> place b i j = place b' i' j' ->
  cart_dss avg np b u i j = cart_dss avg np b' u' i' j'.
Proof.
  intros Hn HA HB L L' Ib Ib' Hh Hh' Hu Hu' Hi Hi' E.
  destruct (C17_tiles m np h eA eB ni n bs ltac:(lia) ltac:(lia) ltac:(lia) L) as (T & _ & Al).
  destruct (C17_tiles m' np h' eA eB ni' n' bs' ltac:(lia) ltac:(lia) ltac:(lia) L') as (T' & _ & Al').
  destruct (tile_patch np (np * eA) (np * eB) bs b i j Hh (or_introl T) Ib (proj1 (Al b Ib)) Hi) as (P & _).
  destruct (tile_patch np (np * eA) (np * eB) bs' b' i' j' Hh' (or_introl T') Ib' (proj1 (Al' b' Ib')) Hi') as (P' & _).
  eapply (C26_cartesian avg np eA eB U); eauto.
Qed.
Theorem C26_sphere_layouts {V} (avg : V -> V -> V) third np e U m m' h h' ni ni' n n' bs bs' b b' u u' i j i' j' :
  2 <= np -> 1 <= e -> 0 <= n < 2 ^ 31 -> 0 <= n' < 2 ^ 31 -> 1 <= h -> 1 <= h' ->
  cs_layout m np h e ni n = LOk bs -> cs_layout m' np h' e ni' n' = LOk bs' ->
  In b bs -> In b' bs' ->
  holds_cs (np * e) U b u -> holds_cs (np * e) U b' u' ->
  inner_node b i j -> inner_node b' i' j' -> bpanel b = bpanel b' -> place b i j = place b' i' j' ->
  cs_dss avg third np (np * e) b u i j = cs_dss avg third np (np * e) b' u' i' j'.
Proof.
  intros Hnp He Hn Hn' Hh Hh' L L' Ib Ib' Hu Hu' Hi Hi' Ep E.
  destruct (C16_tiles m np h e ni n bs Hn ltac:(lia) ltac:(lia) L) as (T & _).
  destruct (C16_tiles m' np h' e ni' n' bs' Hn' ltac:(lia) ltac:(lia) L') as (T' & _).
  destruct (C16_equal_aligned m np h e ni n bs Hn ltac:(lia) ltac:(lia) L) as (w & _ & Al).
  destruct (C16_equal_aligned m' np h' e ni' n' bs' Hn' ltac:(lia) ltac:(lia) L') as (w' & _ & Al').
  destruct (Al b Ib) as (_ & _ & A & Eh & _). destruct (Al' b' Ib') as (_ & _ & A' & Eh' & _).
  destruct (tile_patch np (np * e) (np * e) bs b i j ltac:(lia) (or_intror T) Ib A Hi) as (P & Q).
  destruct (tile_patch np (np * e) (np * e) bs' b' i' j' ltac:(lia) (or_intror T') Ib' A' Hi') as (P' & _).
  eapply (C26_sphere avg third np e U); eauto.
Qed.

(** *** Cases *)
Definition tU (x : Z * Z) : Z := 100 * fst x + snd x.
Definition tu (b : box) (i j : Z) : Z := tU ((i + bA0 b) mod 8, (j + bB0 b) mod 4).
Definition tb0 := patch_box 0 0 1 0 4 0 4.
Definition tb1 := patch_box 0 0 2 4 8 0 4.
Lemma tu_holds b : holds_torus 4 2 1 tU b (tu b).
Proof. intros i j _. reflexivity. Qed.
(** The right end of the first of two patches and the left end of the second
    (with a different halo) are one point; the result is the average of
    both; one corner is shared by four nodes. *)
Example C25_case_cartesian :
  patch_of 4 8 4 tb0 /\ patch_of 4 8 4 tb1 /\ inner_node tb0 4 2 /\ inner_node tb1 2 3 /\
  torus_point 4 2 1 (place tb0 4 2) = torus_point 4 2 1 (place tb1 2 3) /\
  cart_dss (fun x y => (x + y) / 2) 4 tb0 (tu tb0) 4 2 = 351 /\
  cart_dss (fun x y => (x + y) / 2) 4 tb1 (tu tb1) 2 3 = 351 /\
  cart_dss (fun x y => (x + y) / 2) 4 tb1 (tu tb1) 2 2 = 351 /\
  cart_dss (fun x y => (x + y) / 2) 4 tb0 (tu tb0) 2 3 = 102.
Proof.
  assert (forall k, (4 | 4 * k)) as D by (intros k; exists k; ring).
  split; [|split].
  1, 2: unfold patch_of; cbn; (split; [lia|]); (split; [first [exact (D 0)|exact (D 1)]|]);
    (split; [first [exact (D 1)|exact (D 2)]|]); (split; [exact (D 0)|]); (split; [exact (D 1)|]); lia.
  split; [unfold inner_node; cbn; lia|]. split; [unfold inner_node; cbn; lia|].
  split; [reflexivity|]. split; [vm_compute; reflexivity|]. split; [vm_compute; reflexivity|]. split; vm_compute; reflexivity.
Qed.

(** Panel 1, one patch; panel 4, one patch, of a 4 x 4 node cube with 2 x 2
    elements per panel. *)
Definition sb1 := patch_box 1 0 1 0 4 0 4.
Definition sb4 := patch_box 4 0 1 0 4 0 4.
Definition su {V} (U : Z * Z * Z -> V) (b : box) (i j : Z) : V := U (img 4 (bpanel b) (i + bA0 b) (j + bB0 b)).
Lemma su_holds {V} (U : Z * Z * Z -> V) b : holds_cs 4 U b (su U b).
Proof. intros i j r _ E _. unfold su, img. rewrite E. reflexivity. Qed.
Lemma sb_patch : patch_of 2 4 4 sb1 /\ patch_of 2 4 4 sb4.
Proof.
  assert (forall k, (2 | 2 * k)) as D by (intros k; exists k; ring).
  split; unfold patch_of; cbn; (split; [lia|]); (split; [exact (D 0)|]); (split; [exact (D 2)|]); (split; [exact (D 0)|]); (split; [exact (D 2)|]); lia.
Qed.
Example C25_case_sphere :
  patch_of 2 4 4 sb1 /\ patch_of 2 4 4 sb4 /\ inner_node sb1 3 4 /\ inner_node sb4 4 3 /\
  cs_point 2 2 (1, 2, 3) = (0, 2, 2) /\ cs_point 2 2 (4, 3, 2) = (0, 2, 2) /\
  (* a corner of the cube: three nodes *)
  cs_point 2 2 (1, 0, 3) = (2, 2, 2) /\ cs_point 2 2 (0, 3, 3) = (2, 2, 2) /\ cs_point 2 2 (4, 3, 0) = (2, 2, 2) /\
  cs_dss ravg rthird 2 4 sb1 (su (fun x => IZR (fst (fst x))) sb1) 1 4 = (5 / 3)%R.
Proof.
  destruct sb_patch as (A & B). split; [exact A|]. split; [exact B|].
  split; [unfold inner_node; cbn; lia|]. split; [unfold inner_node; cbn; lia|].
  do 5 (split; [reflexivity|]).
  assert (forall i j, ring sb1 i j -> ~ ((i + bA0 sb1 < 0 \/ 4 <= i + bA0 sb1) /\ (j + bB0 sb1 < 0 \/ 4 <= j + bB0 sb1)) ->
    su (fun x => IZR (fst (fst x))) sb1 i j = (fun a c => IZR (fst (fst (img 4 1 a c)))) (i + bA0 sb1) (j + bB0 sb1)) as H by reflexivity.
  rewrite (cs_value ravg rthird 2 4 sb1 _ _ ltac:(lia) ltac:(exists 2; reflexivity) ltac:(cbn; lia) A H) by (unfold inner_node; cbn; lia).
  unfold cs_val. cbn -[IZR]. unfold rthird. lra.
Qed.

(** Across an edge where the coordinates of the two panels are exchanged the
    four values of a point are averaged in different orders, so in double
    arithmetic the two panels may end with different values.  The arithmetic
    is IEEE binary64 (SpecFloat). *)
Definition dbl (m : positive) (e : Z) : spec_float := S754_finite false m e.
Definition d_half := dbl 4503599627370496 (-53).
Definition d_third := dbl 6004799503160661 (-54).
Definition d_avg (x y : spec_float) := SFmul 53 1024 d_half (SFadd 53 1024 x y).
Definition d_third3 (x y z : spec_float) := SFmul 53 1024 d_third (SFadd 53 1024 (SFadd 53 1024 x y) z).
Definition d_one (k : Z) := dbl (Z.to_pos (4503599627370496 + k)) (-52).
(** 1 everywhere except 1 + 2^-52 and 1 + 2^-51 at two nodes of panel 1 *)
Definition dU (x : Z * Z * Z) : spec_float :=
  match x with
  | (1, 2, 3) => d_one 1 | (1, 1, 3) => d_one 2 | _ => d_one 0 end.
Theorem C25_sphere_rounding_refuted :
  exists U u1 u4, holds_cs 4 U sb1 u1 /\ holds_cs 4 U sb4 u4 /\ inner_node sb1 3 4 /\ inner_node sb4 4 3 /\
    cs_point 2 2 (1, 2, 3) = cs_point 2 2 (4, 3, 2) /\
    cs_dss d_avg d_third3 2 4 sb1 u1 3 4 = d_one 1 /\
    cs_dss d_avg d_third3 2 4 sb4 u4 4 3 = d_one 0.
Proof.
  exists dU, (su dU sb1), (su dU sb4). split; [apply su_holds|]. split; [apply su_holds|].
  split; [unfold inner_node; cbn; lia|]. split; [unfold inner_node; cbn; lia|]. split; [reflexivity|].
  split; vm_compute; reflexivity.
Qed.

(** With one node per element (order 1) the lines overlap and the running
    averages depend on where the patch begins. *)
Theorem C26_order_one_refuted :
  exists (U : Z * Z -> Z) b b' u u' i j i' j',
    patch_of 1 4 2 b /\ patch_of 1 4 2 b' /\ holds_torus 1 4 2 U b u /\ holds_torus 1 4 2 U b' u' /\
    inner_node b i j /\ inner_node b' i' j' /\ place b i j = place b' i' j' /\
    cart_dss (fun x y => (x + y) / 2) 1 b u i j <> cart_dss (fun x y => (x + y) / 2) 1 b' u' i' j'.
Proof.
  set (b := patch_box 0 0 1 0 4 0 2). set (b' := patch_box 0 0 1 2 4 0 2).
  set (U := fun x : Z * Z => 1000 * fst x).
  exists U, b, b', (fun i j => U ((i + bA0 b) mod 4, (j + bB0 b) mod 2)), (fun i j => U ((i + bA0 b') mod 4, (j + bB0 b') mod 2)).
  exists 3, 1, 1, 1.
  assert (forall k, (1 | k)) as D by (intros k; exists k; ring).
  split; [unfold patch_of; cbn; repeat (split; [first [lia|apply D]|]); lia|].
  split; [unfold patch_of; cbn; repeat (split; [first [lia|apply D]|]); lia|].
  split; [intros i j _; reflexivity|]. split; [intros i j _; reflexivity|].
  split; [unfold inner_node; cbn; lia|]. split; [unfold inner_node; cbn; lia|]. split; [reflexivity|].
  vm_compute. discriminate.
Qed.
Example C26_case : exists bs bs', cart_layout 2 4 1 2 1 0 2 = LOk bs /\ cart_layout 2 4 1 2 1 0 1 = LOk bs' /\
  exists b b', In b bs /\ In b' bs' /\ inner_node b 1 3 /\ inner_node b' 5 3 /\ place b 1 3 = place b' 5 3.
Proof.
  do 2 eexists. split; [vm_compute; reflexivity|]. split; [vm_compute; reflexivity|].
  exists (mkBox 0 0 1 3 9 (-1) 5), (mkBox 0 0 1 (-1) 9 (-1) 5). split; [right; left; reflexivity|]. split; [left; reflexivity|].
  split; [unfold inner_node; cbn; lia|]. split; [unfold inner_node; cbn; lia|reflexivity].
Qed.
Example C26_case_sphere : exists bs bs', cs_layout 24 4 1 2 0 24 = LOk bs /\ cs_layout 24 4 1 2 0 6 = LOk bs' /\
  exists b b', In b bs /\ In b' bs' /\ bpanel b = bpanel b' /\ inner_node b 1 3 /\ inner_node b' 5 3 /\ place b 1 3 = place b' 5 3.
Proof.
  do 2 eexists. split; [vm_compute; reflexivity|]. split; [vm_compute; reflexivity|].
  exists (mkBox 0 0 1 3 9 (-1) 5), (mkBox 0 0 1 (-1) 9 (-1) 9). split; [right; right; left; reflexivity|]. split; [left; reflexivity|].
  split; [reflexivity|]. split; [unfold inner_node; cbn; lia|]. split; [unfold inner_node; cbn; lia|reflexivity].
Qed.

Print Assumptions C25_cartesian_mean.
Print Assumptions C25_cartesian_continuous.
Print Assumptions C25_cartesian_interior.
Print Assumptions C25_cartesian_unchanged.
Print Assumptions C25_cartesian_sum.
Print Assumptions C25_cartesian_twice.
Print Assumptions C25_sphere_mean.
Print Assumptions C25_sphere_continuous.
Print Assumptions C25_sphere_interior.
Print Assumptions C25_sphere_unchanged.
Print Assumptions C25_sphere_sum.
Print Assumptions C25_sphere_rounding_refuted.
Print Assumptions C26_cartesian.
Print Assumptions C26_sphere.
Print Assumptions C26_cartesian_layouts.
Print Assumptions C26_sphere_layouts.
Print Assumptions C26_order_one_refuted.
