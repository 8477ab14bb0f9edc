(** C25: summation of velocities on the cubed sphere. *)
From Coq Require Import ZArith Reals List Lia Lra Bool.
From Verif Require Import LayoutModel ExchModel DssModel DssSpec DssGeom DssProps QuadModel SpacModel
  CsTransModel CsTransSpec CsTransProofs CsTransVecProofs CsTransPanelProofs VelModel VelSpec VelProofs.
Import ListNotations.
Local Open Scope Z_scope.

(** Any two fields of components are those of exactly one field of tangent
    vectors. *)
Theorem C25_sphere_vectors np e pts (U V : Z * Z * Z -> R) :
  (exists W, forall x, cs_node np e x -> tangent_at np e pts x (W x) /\ components_at np e pts x (W x) (U x) (V x)) /\
  (forall W W', (forall x, cs_node np e x -> tangent_at np e pts x (W x) /\ components_at np e pts x (W x) (U x) (V x)) ->
    (forall x, cs_node np e x -> tangent_at np e pts x (W' x) /\ components_at np e pts x (W' x) (U x) (V x)) ->
    forall x, cs_node np e x -> W x = W' x).
Proof.
  split.
  - exists (fun x => let p := fst (fst x) in let a := gnomonic np e pts (snd (fst x)) in let c := gnomonic np e pts (snd x) in lift p a c (U x) (V x)).
    intros x H. cbv zeta. assert (panel (fst (fst x))) as Hp by (unfold cs_node, panel in *; lia).
    destruct (lift_ok _ (gnomonic np e pts (snd (fst x))) (gnomonic np e pts (snd x)) (U x) (V x) Hp) as ((a & b & E) & D1 & D2). split.
    + do 4 eexists. split; [apply alpha_velocity, Hp|]. split; [apply beta_velocity, Hp|exact E].
    + do 2 eexists. split; [apply alpha_velocity, Hp|]. split; [apply beta_velocity, Hp|auto].
  - intros W W' A A' x H. destruct (A x H) as (T & C). destruct (A' x H) as (T' & C').
    destruct T as (a & b & va & vb & Va & Vb & E). destruct T' as (a' & b' & va' & vb' & Va' & Vb' & E').
    rewrite (velocity_unique _ _ _ _ Va' Va), (velocity_unique _ _ _ _ Vb' Vb) in E'. clear Va' Vb' va' vb'.
    destruct C as (va' & vb' & Va' & Vb' & C1 & C2). rewrite (velocity_unique _ _ _ _ Va' Va), (velocity_unique _ _ _ _ Vb' Vb) in *. clear Va' Vb' va' vb'.
    destruct C' as (va' & vb' & Va' & Vb' & C1' & C2'). rewrite (velocity_unique _ _ _ _ Va' Va), (velocity_unique _ _ _ _ Vb' Vb) in *. clear Va' Vb' va' vb'.
    apply (same_components a b a' b' va vb); auto; congruence.
Qed.

(** The exchange having filled the halo with the components of the neighbouring
    nodes, each interior node ends with the components, in the coordinates of
    its own panel, of the mean of the vectors at all nodes that lie at its
    point. *)
Theorem C25_sphere_velocity np e pts wts b W U V u v : 2 <= np <= 10 -> 1 <= e -> get_points (lobatto_table np) 0%R 1%R = Some (pts, wts) ->
  panel (bpanel b) -> patch_of np (np * e) (np * e) b ->
  (forall x, cs_node np e x -> tangent_at np e pts x (W x) /\ components_at np e pts x (W x) (U x) (V x)) ->
  holds_cs (np * e) U b u -> holds_cs (np * e) V b v ->
  exists du dv, velocity_dss ravg rthird np e b (u, v) = Val (du, dv) /\
  forall i j, inner_node b i j -> let x0 := (bpanel b, fst (place b i j), snd (place b i j)) in
    exists w, mean_vector (fun x => cs_node np e x /\ cs_point np e x = cs_point np e x0) W w /\
      tangent_at np e pts x0 w /\ components_at np e pts x0 w (du i j) (dv i j).
Proof.
  intros Hn He Hg Hp Hb HW Hu Hv.
  destruct (velocity_means np e pts wts Hn He Hg b Hb Hp W U V (fun x H => proj1 (HW x H)) (fun x H => proj2 (HW x H)) u v Hu Hv) as (du & dv & E & M).
  exists du, dv. split; [exact E|]. intros i j Hi. cbv zeta. unfold place. cbn [fst snd].
  destruct (M i j Hi) as (M1 & M2 & Sp). destruct (mean_vectors _ _ _ _ _ _ _ M1 M2 Sp) as (z & Mz & (a & c & Ez) & E1 & E2).
  exists z. split; [exact Mz|]. split.
  - do 4 eexists. split; [apply alpha_velocity, Hp|]. split; [apply beta_velocity, Hp|exact Ez].
  - do 2 eexists. split; [apply alpha_velocity, Hp|]. split; [apply beta_velocity, Hp|auto].
Qed.

(** Nodes at one point end with the same vector, on whatever patches and panels
    they are. *)
Theorem C25_sphere_velocity_continuous np e pts wts b b' W U V u v u' v' : 2 <= np <= 10 -> 1 <= e -> get_points (lobatto_table np) 0%R 1%R = Some (pts, wts) ->
  panel (bpanel b) -> patch_of np (np * e) (np * e) b -> panel (bpanel b') -> patch_of np (np * e) (np * e) b' ->
  (forall x, cs_node np e x -> tangent_at np e pts x (W x) /\ components_at np e pts x (W x) (U x) (V x)) ->
  holds_cs (np * e) U b u -> holds_cs (np * e) V b v -> holds_cs (np * e) U b' u' -> holds_cs (np * e) V b' v' ->
  exists du dv du' dv', velocity_dss ravg rthird np e b (u, v) = Val (du, dv) /\ velocity_dss ravg rthird np e b' (u', v') = Val (du', dv') /\
  forall i j i' j', inner_node b i j -> inner_node b' i' j' ->
    let x := (bpanel b, fst (place b i j), snd (place b i j)) in let x' := (bpanel b', fst (place b' i' j'), snd (place b' i' j')) in
    cs_point np e x = cs_point np e x' ->
    exists w, tangent_at np e pts x w /\ components_at np e pts x w (du i j) (dv i j) /\ components_at np e pts x' w (du' i' j') (dv' i' j').
Proof.
  intros Hn He Hg Hp Hb Hp' Hb' HW Hu Hv Hu' Hv'.
  destruct (C25_sphere_velocity np e pts wts b W U V u v Hn He Hg Hp Hb HW Hu Hv) as (du & dv & E & M).
  destruct (C25_sphere_velocity np e pts wts b' W U V u' v' Hn He Hg Hp' Hb' HW Hu' Hv') as (du' & dv' & E' & M').
  exists du, dv, du', dv'. split; [exact E|]. split; [exact E'|]. intros i j i' j' Hi Hi' x x' Ex.
  destruct (M i j Hi) as (w & Mw & T & C). destruct (M' i' j' Hi') as (w' & Mw' & T' & C'). exists w. split; [exact T|]. split; [exact C|].
  fold x in Mw. fold x' in Mw'. rewrite Ex in Mw. rewrite (mean_vector_unique _ _ _ _ Mw Mw'). exact C'.
Qed.

(** A velocity that is already the same vector at coincident nodes keeps its
    components. *)
Theorem C25_sphere_velocity_unchanged np e pts wts b W U V u v : 2 <= np <= 10 -> 1 <= e -> get_points (lobatto_table np) 0%R 1%R = Some (pts, wts) ->
  panel (bpanel b) -> patch_of np (np * e) (np * e) b ->
  (forall x, cs_node np e x -> tangent_at np e pts x (W x) /\ components_at np e pts x (W x) (U x) (V x)) ->
  (forall x x', cs_node np e x -> cs_node np e x' -> cs_point np e x = cs_point np e x' -> W x = W x') ->
  holds_cs (np * e) U b u -> holds_cs (np * e) V b v ->
  exists du dv, velocity_dss ravg rthird np e b (u, v) = Val (du, dv) /\
  forall i j, inner_node b i j -> du i j = u i j /\ dv i j = v i j.
Proof.
  intros Hn He Hg Hp Hb HW Hc Hu Hv.
  destruct (C25_sphere_velocity np e pts wts b W U V u v Hn He Hg Hp Hb HW Hu Hv) as (du & dv & E & M).
  exists du, dv. split; [exact E|]. intros i j Hi. destruct (M i j Hi) as (w & Mw & _ & C).
  pose proof (place_cs np e b i j Hp Hb Hi) as Hx. set (x0 := (bpanel b, fst (place b i j), snd (place b i j))) in *.
  assert (w = W x0) as ->.
  { eapply mean_vector_const; [exact Mw|]. intros x (H1 & H2). apply Hc; auto. }
  destruct (HW x0 Hx) as (_ & C0). destruct C as (va & vb & A & B & D1 & D2). destruct C0 as (va' & vb' & A' & B' & D1' & D2').
  rewrite (velocity_unique _ _ _ _ A' A) in D1'. rewrite (velocity_unique _ _ _ _ B' B) in D2'.
  assert (0 < np * e) by (apply Z.mul_pos_pos; lia).
  assert (ring b i j) as Hr by (unfold ring, inner_node in *; lia).
  assert (~ ((i + bA0 b < 0 \/ np * e <= i + bA0 b) /\ (j + bB0 b < 0 \/ np * e <= j + bB0 b))) as O by (unfold patch_of, inner_node in *; lia).
  rewrite (cs_E (np * e) U b u ltac:(assumption) Hp Hu i j Hr O), (cs_E (np * e) V b v ltac:(assumption) Hp Hv i j Hr O). cbv beta.
  rewrite img_in by (unfold inside, patch_of, inner_node in *; lia). unfold x0, place in *. cbn [fst snd] in *. split; congruence.
Qed.

(** ** a case that meets the hypotheses *)
Example C25_case_velocity : exists pts wts W, get_points (lobatto_table 2) 0%R 1%R = Some (pts, wts) /\ panel (bpanel sb1) /\ patch_of 2 (2 * 2) (2 * 2) sb1 /\
  (forall x, cs_node 2 2 x -> tangent_at 2 2 pts x (W x) /\ components_at 2 2 pts x (W x) (IZR (fst (fst x)))%R 1%R) /\
  holds_cs (2 * 2) (fun x => IZR (fst (fst x))) sb1 (su (fun x => IZR (fst (fst x))) sb1) /\ holds_cs (2 * 2) (fun _ => 1%R) sb1 (su (fun _ => 1%R) sb1) /\ inner_node sb1 3 4.
Proof.
  do 2 eexists. destruct (C25_sphere_vectors 2 2 (fst (map (fun z => scale_node 0 1 (dec z)) [- 10 ^ 16; 10 ^ 16], @nil R)) (fun x => IZR (fst (fst x))) (fun _ => 1%R)) as ((W & HW) & _).
  exists W. split; [reflexivity|]. split; [unfold panel; cbn; lia|]. split; [apply sb_patch|]. split; [exact HW|].
  split; [exact (su_holds _ _)|]. split; [exact (su_holds _ _)|]. unfold inner_node; cbn; lia.
Qed.

Print Assumptions C25_sphere_vectors.
Print Assumptions C25_sphere_velocity.
Print Assumptions C25_sphere_velocity_continuous.
Print Assumptions C25_sphere_velocity_unchanged.
