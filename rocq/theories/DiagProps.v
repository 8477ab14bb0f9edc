(** * C45, C46, C52: variable slots and global diagnostics *)
From Coq Require Import ZArith List Bool Reals Lra Lia Permutation.
From Verif Require Import LayoutModel LayoutSpec LayoutProps PhysModel DiagModel DiagSpec DiagProofs.
Import ListNotations.
Local Open Scope Z_scope.

(** ** C45 *)
Theorem C45_slots dim st mem locs ix count : place_variables dim st mem = VOk (locs, ix, count) ->
  slots_ok locs ix count /\ length locs = length mem.
Proof.
  unfold place_variables. destruct (assign_locations dim st mem) as [| |l] eqn:A; try discriminate.
  destruct (number_slots l (repeat 0 loc_count) []) as [| |(x & c)] eqn:N; try discriminate. intros H. injection H as <- <- <-.
  split; [exact (proj1 (number_ok l [] _ _ slots_empty eq_refl _ _ N))|].
  assert (forall vs i m m', write_all vs i m = VOk m' -> length m' = length m) as W.
  { induction vs as [|v vs IH]; intros i m m' E; cbn [write_all] in E; [congruence|].
    destruct (Nat.ltb_spec i (length m)) as [L|]; [|discriminate]. apply IH in E. rewrite upd_len in E by exact L. exact E. }
  unfold assign_locations in A. destruct (dim =? 2); [eapply W; exact A|]. destruct (dim =? 3); [|discriminate].
  destruct st; try discriminate; eapply W; exact A.
Qed.
(** locations chosen for the two equation sets that the model integrates *)
Theorem C45_locations st mem :
  (length mem = components ShallowWater -> exists ix count,
     place_variables (dimensionality ShallowWater) st mem = VOk ([0; 0; 0], ix, count)) /\
  (length mem = components Nonhydrostatic -> st <> StOther -> exists locs ix count,
     place_variables (dimensionality Nonhydrostatic) st mem = VOk (locs, ix, count) /\
     forall c, (c < 5)%nat -> nth c locs 0 =
       match st, c with StLorenz, 3%nat => 3 | StCharneyPhillips, 2%nat => 3 | StCharneyPhillips, 3%nat => 3 | _, _ => 0 end) /\
  (length mem = components Nonhydrostatic -> st = StOther -> place_variables (dimensionality Nonhydrostatic) st mem = VThrow).
Proof.
  split; [|split].
  - intros L. destruct mem as [|a [|b [|c [|]]]]; try discriminate. eexists _, _. reflexivity.
  - intros L S. destruct mem as [|a [|b [|c [|d [|e [|]]]]]]; try discriminate.
    destruct st; try congruence; eexists _, _, _; (split; [reflexivity|]);
      intros [|[|[|[|[|]]]]] Hc; try lia; reflexivity.
  - intros L ->. reflexivity.
Qed.
(** the sixth variable of the mass-coordinate set gets whatever location the
    memory held *)
Theorem C45_mass_coord st mem : length mem = components NonhydrostaticMassCoord -> st <> StOther ->
  (0 <= nth 5 mem 0 < 4 -> exists locs ix count,
     place_variables (dimensionality NonhydrostaticMassCoord) st mem = VOk (locs, ix, count) /\ nth 5 locs 0 = nth 5 mem 0) /\
  (~ 0 <= nth 5 mem 0 < 4 -> place_variables (dimensionality NonhydrostaticMassCoord) st mem = VThrow).
Proof.
  intros L S. destruct mem as [|a [|b [|c [|d [|e [|f [|]]]]]]]; try discriminate. cbn [nth].
  assert (exists l0 l1 l2 l3 l4, (forall l, In l [l0; l1; l2; l3; l4] -> 0 <= l < 4) /\
    assign_locations (dimensionality NonhydrostaticMassCoord) st [a; b; c; d; e; f] = VOk [l0; l1; l2; l3; l4; f])
    as (l0 & l1 & l2 & l3 & l4 & Hl & E).
  { destruct st; try congruence; eexists _, _, _, _, _; (split; [|reflexivity]); cbn [In];
      unfold loc_node, loc_redge; intros l Hl; repeat (destruct Hl as [<-|Hl]; [lia|]); destruct Hl. }
  unfold place_variables. rewrite E. split; intros Hf.
  - destruct (number_total [l0; l1; l2; l3; l4; f] (repeat 0 loc_count) []) as ((ix & ct) & ->).
    + intros l Hi. change [l0; l1; l2; l3; l4; f] with ([l0; l1; l2; l3; l4] ++ [f]) in Hi. apply in_app_or in Hi as [Hi|[<-|[]]]; [apply Hl, Hi|exact Hf].
    + eexists _, _, _. split; reflexivity.
  - rewrite (number_throws _ f); [reflexivity| |exact Hf]. cbn [In]. tauto.
Qed.
(** the advection set has no component: the first assignment is outside the
    array *)
Theorem C45_advection_refuted : exists e, forall st mem, length mem = components e -> st <> StOther ->
  place_variables (dimensionality e) st mem = VOut.
Proof.
  exists Advection. intros st mem L S. destruct mem; [|discriminate]. destruct st; try congruence; reflexivity.
Qed.
Example C45_ex : place_variables 3 StCharneyPhillips [9; 9; 9; 9; 9] = VOk ([0; 0; 3; 3; 0], [0; 1; 0; 1; 2], [3; 0; 0; 2]).
Proof. reflexivity. Qed.
Example C45_slots_ex : slots_ok [0; 0; 3; 3; 0] [0; 1; 0; 1; 2] [3; 0; 0; 2].
Proof. exact (proj1 (C45_slots _ _ _ _ _ _ C45_ex)). Qed.

(** ** C46 *)
Section C46.
Context (G : gnode -> node_data) (E : gnode -> edge_data) (nR : Z).

Theorem C46_checksum_state dom (ps : list patch) (ranks : list (list patch)) locs ntr t :
  tiles (map pbox ps) dom -> Forall (holds G E nR) ps -> Permutation (concat ranks) ps -> ranks <> [] ->
  (forall l, In l locs -> l = 0 \/ l = 3) -> t <> COther ->
  exists r, grid_checksum locs ntr nR DState t ranks = VOk r /\ length r = length locs /\
    forall c, (c < length locs)%nat ->
      (nth c locs 0 = 0 -> forall l, enumerates l dom nR ->
         reduction t (fun n => nd_state (G n) (Z.of_nat c)) (fun n => nd_area (G n)) l (nth c r 0%R)) /\
      (nth c locs 0 = 3 -> forall l, enumerates l dom (nR + 1) ->
         reduction t (fun n => ed_state (E n) (Z.of_nat c)) (fun n => ed_area (E n)) l (nth c r 0%R)).
Proof.
  intros T H P Hr K Ht. destruct (grid_val t Ht DState locs ntr nR ranks K Hr) as (r & Q & Lr & V).
  exists r. split; [exact Q|]. split; [exact Lr|]. intros c Hc. specialize (V c Hc). cbv zeta in V. cbn [items] in V. rewrite Nat2Z.id in V.
  assert (forall p, In p (concat ranks) -> holds G E nR p) as Hh.
  { intros p Hp. rewrite Forall_forall in H. apply H. eapply Permutation_in; [exact P|exact Hp]. }
  split; intros Hl l L; rewrite Hl in V; [change (0 =? loc_node) with true in V|change (3 =? loc_node) with false in V]; cbn iota in V.
  - rewrite V. assert (tot t (flat_map (fun p => map (fun n => 
        weight t (nd_state (pnode p (fst (fst n)) (snd (fst n)) (snd n)) (Z.of_nat c)) (nd_area (pnode p (fst (fst n)) (snd (fst n)) (snd n)))) (interior (pbox p) nR)) (concat ranks)) =
      tot t (map (fun n => weight t (nd_state (G n) (Z.of_nat c)) (nd_area (G n))) l)) as ->.
    { etransitivity; [|apply tot_perm, Permutation_map, (gnodes_perm ranks ps dom nR l P T L)]. f_equal. unfold gnodes. clear - Hh.
      induction (concat ranks) as [|p q IH]; cbn [flat_map]; [reflexivity|]. rewrite map_app, IH by (intros; apply Hh; right; assumption).
      f_equal. apply (holds_node G E nR (fun x => weight t (nd_state x (Z.of_nat c)) (nd_area x))). apply Hh. left. reflexivity. }
    apply (weight_reduction t (fun n => nd_state (G n) (Z.of_nat c)) (fun n => nd_area (G n)) l Ht).
  - rewrite V. assert (tot t (flat_map (fun p => map (fun n => 
        weight t (ed_state (pedge p (fst (fst n)) (snd (fst n)) (snd n)) (Z.of_nat c)) (ed_area (pedge p (fst (fst n)) (snd (fst n)) (snd n)))) (interior (pbox p) (nR + 1))) (concat ranks)) =
      tot t (map (fun n => weight t (ed_state (E n) (Z.of_nat c)) (ed_area (E n))) l)) as ->.
    { etransitivity; [|apply tot_perm, Permutation_map, (gnodes_perm ranks ps dom (nR + 1) l P T L)]. f_equal. unfold gnodes. clear - Hh.
      induction (concat ranks) as [|p q IH]; cbn [flat_map]; [reflexivity|]. rewrite map_app, IH by (intros; apply Hh; right; assumption).
      f_equal. apply (holds_edge G E nR (fun x => weight t (ed_state x (Z.of_nat c)) (ed_area x))). apply Hh. left. reflexivity. }
    apply (weight_reduction t (fun n => ed_state (E n) (Z.of_nat c)) (fun n => ed_area (E n)) l Ht).
Qed.
Theorem C46_checksum_tracers dom (ps : list patch) (ranks : list (list patch)) locs ntr t :
  tiles (map pbox ps) dom -> Forall (holds G E nR) ps -> Permutation (concat ranks) ps -> ranks <> [] ->
  0 <= ntr -> t <> COther ->
  exists r, grid_checksum locs ntr nR DTracers t ranks = VOk r /\ Z.of_nat (length r) = ntr /\
    forall c, 0 <= c < ntr -> forall l, enumerates l dom nR ->
      reduction t (fun n => nd_tracer (G n) c) (fun n => nd_area (G n)) l (nth (Z.to_nat c) r 0%R).
Proof.
  intros T H P Hr K Ht. destruct (grid_val t Ht DTracers locs ntr nR ranks K Hr) as (r & Q & Lr & V).
  exists r. split; [exact Q|]. cbn [rows] in Lr, V. split; [lia|]. intros c Hc l L. specialize (V (Z.to_nat c) ltac:(lia)). cbv zeta in V. cbn [items] in V.
  rewrite Z2Nat.id in V by lia.
  assert (forall p, In p (concat ranks) -> holds G E nR p) as Hh.
  { intros p Hp. rewrite Forall_forall in H. apply H. eapply Permutation_in; [exact P|exact Hp]. }
  rewrite V. assert (tot t (flat_map (fun p => map (fun n => 
        weight t (nd_tracer (pnode p (fst (fst n)) (snd (fst n)) (snd n)) c) (nd_area (pnode p (fst (fst n)) (snd (fst n)) (snd n)))) (interior (pbox p) nR)) (concat ranks)) =
      tot t (map (fun n => weight t (nd_tracer (G n) c) (nd_area (G n))) l)) as ->.
  { etransitivity; [|apply tot_perm, Permutation_map, (gnodes_perm ranks ps dom nR l P T L)]. f_equal. unfold gnodes. clear - Hh.
    induction (concat ranks) as [|p q IH]; cbn [flat_map]; [reflexivity|]. rewrite map_app, IH by (intros; apply Hh; right; assumption).
    f_equal. apply (holds_node G E nR (fun x => weight t (nd_tracer x c) (nd_area x))). apply Hh. left. reflexivity. }
  apply (weight_reduction t (fun n => nd_tracer (G n) c) (fun n => nd_area (G n)) l Ht).
Qed.
(** anything else is refused *)
Theorem C46_checksum_refused locs ntr d t ranks ps : In ps ranks -> ps <> [] ->
  (d = DOther \/ t = COther \/ (d = DState /\ exists l, In l locs /\ l <> 0 /\ l <> 3)) ->
  grid_checksum locs ntr nR d t ranks = VThrow.
Proof.
  intros Hp Hn Hbad. assert (forall a, rank_checksum locs ntr nR d t ps a = VThrow) as R.
  { intros a. destruct ps as [|p ps]; [congruence|]. cbn [rank_checksum]. replace (patch_checksum locs ntr nR d t p a) with (@VThrow (list R)); [reflexivity|].
    symmetry. destruct Hbad as [->|[->|(-> & l & Hl & H0 & H3)]]; cbn [patch_checksum]; [reflexivity| |].
    - unfold patch_checksum. destruct d; [|destruct (_ <? _); reflexivity|reflexivity].
      destruct (forallb _ _); [|reflexivity]. destruct (_ <? _)%nat; reflexivity.
    - destruct (forallb _ locs) eqn:F; [|reflexivity]. rewrite forallb_forall in F. specialize (F l Hl). unfold loc_node, loc_redge in F. lia. }
  assert (forall p a, patch_checksum locs ntr nR d t p a <> VOut) as NO.
  { intros p a. unfold patch_checksum. destruct d; [|destruct (_ <? _); [congruence|]; destruct t; congruence|congruence].
    destruct (forallb _ _); [|congruence]. destruct (_ <? _)%nat; [congruence|]. destruct t; congruence. }
  assert (forall qs a, rank_checksum locs ntr nR d t qs a <> VOut) as NR.
  { induction qs as [|q qs IH]; intros a; cbn [rank_checksum]; [congruence|]. pose proof (NO q a).
    destruct (patch_checksum locs ntr nR d t q a); [congruence|congruence|apply IH]. }
  assert (forall m, sequence (map (fun ps => rank_checksum locs ntr nR d t ps (repeat 0%R m)) ranks) = VThrow) as S.
  { intros m.
    assert (forall rs, sequence (map (fun ps => rank_checksum locs ntr nR d t ps (repeat 0%R m)) rs) <> VOut) as NS.
    { induction rs as [|q rs IH]; cbn [map sequence]; [congruence|]. pose proof (NR q (repeat 0%R m)).
      destruct (rank_checksum locs ntr nR d t q (repeat 0%R m)); try congruence. destruct (sequence _); congruence. }
    clear - Hp R NS NR. induction ranks as [|q rs IH]; [destruct Hp|]. cbn [map sequence]. destruct Hp as [->|Hp].
    - rewrite R. reflexivity.
    - rewrite IH by exact Hp. pose proof (NR q (repeat 0%R m)). destruct (rank_checksum locs ntr nR d t q (repeat 0%R m)); congruence. }
  unfold grid_checksum. destruct d; [rewrite S; reflexivity..|reflexivity].
Qed.

(** Total energy: kinetic, internal and potential energy of every node, with
    the speed measured by the full metric; on staggered grids the square of
    the vertical velocity is taken on interfaces. *)
Theorem C46_energy ph e wloc dom (ps : list patch) (ranks : list (Z * list patch)) l l' :
  tiles (map pbox ps) dom -> Forall (holds G E nR) ps -> Permutation (concat (map snd ranks)) ps ->
  enumerates l dom nR -> enumerates l' dom (nR + 1) -> e <> ShallowWater ->
  grid_total (patch_energy ph e wloc nR) ranks 0 =
  if wloc =? 0
  then total (fun n => nd_area (G n) * (1 / 2 * nd_state (G n) 4 * quad3 (metric3 (G n)) (velocity3 (G n))
         + pressure_from_rhotheta ph (nd_state (G n) 2) / (gamma ph - 1) + g ph * nd_state (G n) 4 * nd_z (G n)))%R l
  else (total (fun n => nd_area (G n) * (1 / 2 * nd_state (G n) 4 *
              (quad3 (metric3 (G n)) (velocity3 (G n)) - metric3 (G n) 2 2 * nd_state (G n) 3 ^ 2)
         + pressure_from_rhotheta ph (nd_state (G n) 2) / (gamma ph - 1) + g ph * nd_state (G n) 4 * nd_z (G n))) l
       + total (fun n => ed_area (E n) * (1 / 2 * ed_state (E n) 4 * ed_conx2 (E n) * ed_state (E n) 3 ^ 2)) l')%R.
Proof.
  intros T H P L L' He. assert (forall f, (forall p, patch_energy ph e wloc nR p = f p) -> grid_total (patch_energy ph e wloc nR) ranks 0 = grid_total f ranks 0) as X.
  { intros f Hf. unfold grid_total. cbn [Z.eqb]. rewrite (map_ext _ (fun r => fold_left (fun s p => s + f p)%R (snd r) 0%R)); [reflexivity|].
    intros r. generalize 0%R. induction (snd r) as [|p q IH]; intros s; cbn [fold_left]; [reflexivity|]. rewrite Hf. apply IH. }
  destruct (Z.eqb_spec wloc 0) as [->|Hw].
  - rewrite (X (fun p => node_sum nR (nh_energy_node ph) p 0)) by (destruct e; try congruence; reflexivity).
    rewrite (total_of_nodes G E nR _ _ _ _ _ P T H L). apply total_ext. intros n _.
    unfold nh_energy_node, quad3, metric3, velocity3, total, fst3, snd3, thd3. cbn [fold_right comp3]. unfold UIx, VIx, WIx, PIx, RIx. lra.
  - rewrite (X (fun p => edge_sum nR nh_energy_edge p (node_sum nR (nh_energy_split ph) p 0)))
      by (intros; destruct e; try congruence; cbn [patch_energy]; change loc_node with 0; destruct (Z.eqb_spec wloc 0); congruence).
    rewrite (total_of_both G E nR _ _ _ _ _ _ _ P T H L L'). f_equal; apply total_ext; intros n _.
    + unfold nh_energy_split, quad3, metric3, velocity3, total, fst3, snd3, thd3. cbn [fold_right comp3]. unfold UIx, VIx, WIx, PIx, RIx. lra.
    + unfold nh_energy_edge, RIx, WIx. lra.
Qed.
Theorem C46_shallow_water ph wloc dom (ps : list patch) (ranks : list (Z * list patch)) l :
  tiles (map pbox ps) dom -> Forall (holds G E nR) ps -> Permutation (concat (map snd ranks)) ps -> enumerates l dom nR ->
  grid_total (patch_energy ph ShallowWater wloc nR) ranks 0 =
    total (fun n => nd_area (G n) * (1 / 2 * (nd_state (G n) 2 - nd_topo (G n)) * nd_jac2d (G n) ^ 2 *
        (nd_con2b1 (G n) * nd_state (G n) 0 ^ 2 - 2 * nd_con2a1 (G n) * nd_state (G n) 0 * nd_state (G n) 1 + nd_con2a0 (G n) * nd_state (G n) 1 ^ 2)
      + g ph / 2 * (nd_state (G n) 2 ^ 2 - nd_topo (G n) ^ 2)))%R l /\
  grid_total (patch_enstrophy ph ShallowWater nR) ranks 0 =
    total (fun n => nd_area (G n) * ((nd_vort (G n) + 2 * omega ph * sin (nd_lat (G n))) ^ 2 / (2 * (nd_state (G n) 2 - nd_topo (G n)))))%R l.
Proof.
  intros T H P L. split.
  - etransitivity; [apply (total_of_nodes G E nR (sw_energy ph) ranks ps dom l P T H L)|]. apply total_ext. intros n _.
    unfold sw_energy, UIx, VIx, HIx. replace 0.5%R with (1 / 2)%R by lra. field.
  - etransitivity; [apply (total_of_nodes G E nR (sw_enstrophy ph) ranks ps dom l P T H L)|]. apply total_ext. intros n _.
    unfold sw_enstrophy, HIx. unfold Rdiv. rewrite Rinv_mult. replace 0.5%R with (/ 2)%R by lra. ring.
Qed.
Theorem C46_momentum ph e dom (ps : list patch) (ranks : list (Z * list patch)) l :
  tiles (map pbox ps) dom -> Forall (holds G E nR) ps -> Permutation (concat (map snd ranks)) ps -> enumerates l dom nR -> e <> ShallowWater ->
  grid_total (patch_enstrophy ph e nR) ranks 0 = total (fun n => nd_area (G n) * (nd_state (G n) 4 * nd_state (G n) 0))%R l /\
  exists f, (forall p, patch_momentum e nR p = VOk (f p)) /\
    grid_total f ranks 0 = total (fun n => nd_area (G n) * (nd_state (G n) 4 * nd_state (G n) 3))%R l.
Proof.
  intros T H P L He. split.
  - etransitivity; [|etransitivity; [apply (total_of_nodes G E nR (fun d => nd_area d * nd_state d RIx * nd_state d UIx)%R ranks ps dom l P T H L)|]].
    + destruct e; try congruence; reflexivity.
    + apply total_ext. intros. unfold RIx, UIx. ring.
  - exists (fun p => node_sum nR (fun d => nd_area d * nd_state d RIx * nd_state d WIx)%R p 0). split; [intros; destruct e; try congruence; reflexivity|].
    etransitivity; [apply (total_of_nodes G E nR (fun d => nd_area d * nd_state d RIx * nd_state d WIx)%R ranks ps dom l P T H L)|].
    apply total_ext. intros. unfold RIx, WIx. ring.
Qed.
End C46.
(** only the root gets the integral *)
Theorem C46_other_ranks f ranks rank : rank <> 0 -> grid_total f ranks rank = 0%R.
Proof. intros H. unfold grid_total. destruct (Z.eqb_spec rank 0); [contradiction|reflexivity]. Qed.

(** The distribution made by DistributePatches is one of those allowed above:
    every patch is held by exactly one rank. *)
Theorem C46_distribution (d : patch) ps size order : 0 < size -> Permutation order (zseq size) ->
  let ranks := map (fun r => map (fun n => nth (Z.to_nat n) ps d) (activated (Z.of_nat (length ps)) size r)) order in
  Permutation (concat ranks) ps /\ ranks <> [].
Proof.
  intros Hs P. cbv zeta. split; [apply distribute_perm; assumption|]. intros Q. apply map_eq_nil in Q. subst.
  apply Permutation_nil in P. assert (In 0 (zseq size)) as I by (apply zseq_In; lia). rewrite P in I. destruct I.
Qed.
(** Two runs on the sphere, with different patch counts, rank counts and
    reduction orders, report the same checksums. *)
Theorem C46_sphere G E nR maxp maxp' np halo halo' res n n' bs bs' ps ps' d size size' order order' locs ntr dt t :
  0 <= n < 2 ^ 31 -> 0 <= n' < 2 ^ 31 -> 0 <= res -> 0 < np -> 0 < size -> 0 < size' ->
  cs_layout maxp np halo res 0 n = LOk bs -> cs_layout maxp' np halo' res 0 n' = LOk bs' ->
  map pbox ps = bs -> map pbox ps' = bs' -> Forall (holds G E nR) ps -> Forall (holds G E nR) ps' ->
  Permutation order (zseq size) -> Permutation order' (zseq size') -> 0 <= ntr ->
  (forall l, In l locs -> l = 0 \/ l = 3) -> t <> COther -> dt <> DOther ->
  let run ps size order := grid_checksum locs ntr nR dt t
    (map (fun r => map (fun n => nth (Z.to_nat n) ps d) (activated (Z.of_nat (length ps)) size r)) order) in
  exists r, run ps size order = VOk r /\ run ps' size' order' = VOk r.
Proof.
  intros Hn Hn' Hr Hnp Hs Hs' L L' <- <- H H' P P' Hntr Hl Ht Hd run.
  destruct (C16_tiles maxp np halo res 0 n _ Hn Hr Hnp L) as (T & _).
  destruct (C16_tiles maxp' np halo' res 0 n' _ Hn' Hr Hnp L') as (T' & _).
  destruct (C46_distribution d ps size order Hs P) as (Q & Rn). destruct (C46_distribution d ps' size' order' Hs' P') as (Q' & Rn').
  assert (okdata dt locs ntr) as K by (destruct dt; [exact Hl|exact Hntr|congruence]).
  unfold run. destruct (grid_val t Ht dt locs ntr nR _ K Rn) as (r & -> & Lr & V). destruct (grid_val t Ht dt locs ntr nR _ K Rn') as (r' & -> & Lr' & V').
  exists r. split; [reflexivity|]. f_equal. apply (nth_ext r' r 0%R 0%R); [congruence|]. intros m Hm. rewrite Lr' in Hm.
  rewrite V, V' by exact Hm. cbv zeta.
  match goal with |- (match t with CL2 => sqrt ?x | _ => _ end) = (match t with CL2 => sqrt ?y | _ => _ end) => assert (x = y) as ->; [|reflexivity] end.
  assert (forall c, Permutation c ps \/ Permutation c ps' -> tot t (flat_map (fun p => items t dt locs nR p (Z.of_nat m)) c) =
    tot t (match dt with
           | DTracers => map (fun n => weight t (nd_tracer (G n) (Z.of_nat m)) (nd_area (G n))) (gnodes nR ps)
           | _ => if nth (Z.to_nat (Z.of_nat m)) locs 0 =? loc_node then map (fun n => weight t (nd_state (G n) (Z.of_nat m)) (nd_area (G n))) (gnodes nR ps)
                  else map (fun n => weight t (ed_state (E n) (Z.of_nat m)) (ed_area (E n))) (gnodes (nR + 1) ps)
           end)) as X.
  { intros c Hc. assert (forall p, In p c -> holds G E nR p) as Hh.
    { intros p Hp. rewrite Forall_forall in H, H'. destruct Hc as [C|C]; [apply H|apply H']; eapply Permutation_in; eauto. }
    assert (forall nk, Permutation (gnodes nk c) (gnodes nk ps)) as Pg.
    { intros nk. destruct Hc as [C|C]; [apply Permutation_flat_map; exact C|].
      eapply Permutation_trans; [apply Permutation_flat_map; exact C|]. eapply enum_perm; apply gnodes_enum; eassumption. }
    assert (forall (f : node_data -> R), tot t (flat_map (fun p => map (fun n => f (pnode p (fst (fst n)) (snd (fst n)) (snd n))) (interior (pbox p) nR)) c) =
      tot t (map (fun n => f (G n)) (gnodes nR ps))) as X1.
    { intros f. etransitivity; [|apply tot_perm, Permutation_map, Pg]. f_equal. unfold gnodes. clear - Hh.
      induction c as [|p q IH]; cbn [flat_map]; [reflexivity|]. rewrite map_app, IH by (intros; apply Hh; right; assumption).
      f_equal. apply (holds_node G E nR f). apply Hh. left. reflexivity. }
    assert (forall (f : edge_data -> R), tot t (flat_map (fun p => map (fun n => f (pedge p (fst (fst n)) (snd (fst n)) (snd n))) (interior (pbox p) (nR + 1))) c) =
      tot t (map (fun n => f (E n)) (gnodes (nR + 1) ps))) as X2.
    { intros f. etransitivity; [|apply tot_perm, Permutation_map, Pg]. f_equal. unfold gnodes. clear - Hh.
      induction c as [|p q IH]; cbn [flat_map]; [reflexivity|]. rewrite map_app, IH by (intros; apply Hh; right; assumption).
      f_equal. apply (holds_edge G E nR f). apply Hh. left. reflexivity. }
    destruct dt; cbn [items]; [| |congruence].
    - destruct (_ =? loc_node); [apply (X1 (fun x => weight t (nd_state x (Z.of_nat m)) (nd_area x)))|apply (X2 (fun x => weight t (ed_state x (Z.of_nat m)) (ed_area x)))].
    - apply (X1 (fun x => weight t (nd_tracer x (Z.of_nat m)) (nd_area x))). }
  rewrite (X _ (or_introl Q)), (X _ (or_intror Q')). reflexivity.
Qed.

(** ** C52 *)
(** In the metric with covariant coefficients [ma], [mb], [mab] and
    determinant J^2, whose inverse is stored in the contravariant arrays, the
    shallow-water energy is the energy of the flow with contravariant velocity
    (U, V). *)
Theorem C52_contravariant ph d ma mab mb :
  (nd_jac2d d ^ 2 = ma * mb - mab ^ 2)%R -> (nd_jac2d d <> 0)%R ->
  (nd_con2a0 d = mb / nd_jac2d d ^ 2)%R -> (nd_con2a1 d = - mab / nd_jac2d d ^ 2)%R -> (nd_con2b1 d = ma / nd_jac2d d ^ 2)%R ->
  (sw_energy ph d = nd_area d * (1 / 2 * (nd_state d 2 - nd_topo d) *
      (ma * nd_state d 0 ^ 2 + 2 * mab * nd_state d 0 * nd_state d 1 + mb * nd_state d 1 ^ 2)
    + g ph / 2 * (nd_state d 2 ^ 2 - nd_topo d ^ 2)))%R.
Proof.
  intros _ HJ E1 E2 E3. unfold sw_energy, UIx, VIx, HIx. rewrite E1, E2, E3. replace 0.5%R with (1 / 2)%R by lra. field. exact HJ.
Qed.
(** StepShallowWater raises the index of (U, V) with the contravariant metric
    (HorizontalDynamicsFEM.cpp:430-437): they are covariant components, and for
    these the diagnostic is not the energy, already on an orthogonal grid. *)
Theorem C52_covariant_refuted : exists ph d ma mab mb,
  (nd_jac2d d ^ 2 = ma * mb - mab ^ 2)%R /\ (0 < nd_jac2d d)%R /\ (0 < ma)%R /\ (0 < mb)%R /\
  (nd_con2a0 d = mb / nd_jac2d d ^ 2)%R /\ (nd_con2a1 d = - mab / nd_jac2d d ^ 2)%R /\ (nd_con2b1 d = ma / nd_jac2d d ^ 2)%R /\
  (sw_energy ph d <> nd_area d * (1 / 2 * (nd_state d 2 - nd_topo d) *
      (nd_con2a0 d * nd_state d 0 ^ 2 + 2 * nd_con2a1 d * nd_state d 0 * nd_state d 1 + nd_con2b1 d * nd_state d 1 ^ 2)
    + g ph / 2 * (nd_state d 2 ^ 2 - nd_topo d ^ 2)))%R.
Proof.
  exists (construct 0 0 0), (NodeData (fun _ => 1%R) (fun _ => 0%R) 1 4 (1 / 4) 0 (1 / 4) (1, 0, 0)%R (0, 1, 0)%R (0, 0, 1)%R 0 0 0 0), 4%R, 0%R, 4%R.
  unfold sw_energy. cbn [nd_state nd_tracer nd_area nd_jac2d nd_con2a0 nd_con2a1 nd_con2b1 nd_topo].
  repeat split; try lra.
Qed.
(** The two agree for every state exactly when the metric is the identity. *)
Theorem C52_agree_iff ph ma mab mb J : (J ^ 2 = ma * mb - mab ^ 2)%R -> (J <> 0)%R ->
  ((forall d, nd_jac2d d = J -> nd_con2a0 d = (mb / J ^ 2)%R -> nd_con2a1 d = (- mab / J ^ 2)%R -> nd_con2b1 d = (ma / J ^ 2)%R ->
     sw_energy ph d = nd_area d * (1 / 2 * (nd_state d 2 - nd_topo d) *
      (nd_con2a0 d * nd_state d 0 ^ 2 + 2 * nd_con2a1 d * nd_state d 0 * nd_state d 1 + nd_con2b1 d * nd_state d 1 ^ 2)
    + g ph / 2 * (nd_state d 2 ^ 2 - nd_topo d ^ 2)))%R <->
   (ma = mb / J ^ 2 /\ mab = - mab / J ^ 2 /\ mb = ma / J ^ 2)%R).
Proof.
  intros HJ HN. assert (J ^ 2 <> 0)%R as HN2 by (apply pow_nonzero; exact HN). split.
  - intros H.
    assert (forall u v, 1 / 2 * (ma * u ^ 2 + 2 * mab * u * v + mb * v ^ 2) =
      1 / 2 * (mb / J ^ 2 * u ^ 2 + 2 * (- mab / J ^ 2) * u * v + ma / J ^ 2 * v ^ 2))%R as K.
    { intros u v. specialize (H (NodeData (fun c => if c =? 0 then u else if c =? 1 then v else 1%R) (fun _ => 0%R) 1 J (mb / J ^ 2) (- mab / J ^ 2) (ma / J ^ 2)
        (1, 0, 0)%R (0, 1, 0)%R (0, 0, 1)%R 0 0 0 0) eq_refl eq_refl eq_refl eq_refl)%R.
      rewrite (C52_contravariant ph _ ma mab mb) in H; cbn [nd_jac2d nd_con2a0 nd_con2a1 nd_con2b1]; auto.
      cbn [nd_state nd_area nd_topo nd_con2a0 nd_con2a1 nd_con2b1 Z.eqb Pos.eqb] in H. lra. }
    pose proof (K 1 0)%R as K1. pose proof (K 0 1)%R as K2. pose proof (K 1 1)%R as K3. repeat split; lra.
  - intros (E1 & E2 & E3) d H0 H1 H2 H3.
    rewrite (C52_contravariant ph d ma mab mb) by (rewrite ?H0; assumption). rewrite H1, H2, H3, <- E1, <- E2, <- E3. reflexivity.
Qed.
(** Two patches with four nodes each on one panel, one level *)
Definition ex_nd (x : R) : node_data := NodeData (fun _ => x) (fun _ => x) 2 1 1 0 1 (1, 0, 0)%R (0, 1, 0)%R (0, 0, 1)%R 0 1 0 1.
Definition ex_ed : edge_data := EdgeData (fun _ => 1%R) 1 1.
Definition ex_G (n : gnode) : node_data := let '(_, i, j, _) := n in ex_nd (IZR (i - j)).
Definition ex_E (_ : gnode) : edge_data := ex_ed.
Definition ex_P1 : patch := Patch (mkBox 0 0 1 (-1) 3 (-1) 3) (fun i j _ => ex_nd (IZR (i - j))) (fun _ _ _ => ex_ed).
Definition ex_P2 : patch := Patch (mkBox 0 0 1 1 5 (-1) 3) (fun i j _ => ex_nd (IZR (i - j + 2))) (fun _ _ _ => ex_ed).
Definition ex_dom (p i j : Z) : Prop := p = 0 /\ 0 <= i < 4 /\ 0 <= j < 2.
Example C46_ex : tiles (map pbox [ex_P1; ex_P2]) ex_dom /\ Forall (holds ex_G ex_E 1) [ex_P1; ex_P2] /\
  enumerates (gnodes 1 [ex_P1; ex_P2]) ex_dom 1 /\ length (gnodes 1 [ex_P1; ex_P2]) = 8%nat /\
  Permutation (concat [[ex_P2]; [ex_P1]]) [ex_P1; ex_P2].
Proof.
  assert (tiles (map pbox [ex_P1; ex_P2]) ex_dom) as T.
  { split.
    - intros p i j (-> & Hi & Hj). exists (if i <? 2 then 0 else 1). split.
      + destruct (Z.ltb_spec i 2); eexists; (split; [lia|]); (split; [reflexivity|]); unfold in_box; cbn; lia.
      + intros k' (b & Hk & Hb & I). destruct (Z.to_nat k') as [|[|q]] eqn:Q; cbn in Hb.
        * injection Hb as <-. unfold in_box in I. cbn in I. destruct (Z.ltb_spec i 2); lia.
        * injection Hb as <-. unfold in_box in I. cbn in I. destruct (Z.ltb_spec i 2); lia.
        * destruct q; discriminate.
    - intros p i j k (b & Hk & Hb & I). unfold ex_dom. destruct (Z.to_nat k) as [|[|q]]; cbn in Hb; [| |destruct q; discriminate];
        injection Hb as <-; unfold in_box in I; cbn in I; lia. }
  split; [exact T|]. split; [|split; [apply gnodes_enum; exact T|split; [reflexivity|apply perm_swap]]].
  constructor; [|constructor; [|constructor]]; intros i j k _; split; intros _; cbn; try reflexivity; do 2 f_equal; lia.
Qed.
Example C46_sphere_ex : exists bs bs', cs_layout 6 4 1 2 0 6 = LOk bs /\ cs_layout 24 4 1 2 0 24 = LOk bs' /\ length bs = 6%nat /\ length bs' = 24%nat.
Proof. eexists _, _. split; [reflexivity|]. split; [reflexivity|]. split; reflexivity. Qed.

Print Assumptions C45_slots.
Print Assumptions C45_locations.
Print Assumptions C45_mass_coord.
Print Assumptions C45_advection_refuted.
Print Assumptions C46_checksum_state.
Print Assumptions C46_checksum_tracers.
Print Assumptions C46_checksum_refused.
Print Assumptions C46_energy.
Print Assumptions C46_shallow_water.
Print Assumptions C46_momentum.
Print Assumptions C46_other_ranks.
Print Assumptions C46_distribution.
Print Assumptions C46_sphere.
Print Assumptions C52_contravariant.
Print Assumptions C52_covariant_refuted.
Print Assumptions C52_agree_iff.
