(** * C53 for the whole domain: element updates followed by the averaging of
    coincident nodes conserve mass *)
From Coq Require Import ZArith Reals List Lia Lra Psatz.
From Verif Require Import PanelModel PanelSpec LayoutModel DssModel DssSpec DssProofs DssGeom DssProps.
From Verif Require Import ShallowModel ShallowSpec ShallowProofs ShallowProps.
Import ListNotations.
Local Open Scope R_scope.

(** ** Sums over classes *)
Lemma rsum_app {A} (f : A -> R) l l' : rsum f (l ++ l') = rsum f l + rsum f l'.
Proof. unfold rsum. induction l as [|a l IH]; cbn; [lra|rewrite IH; lra]. Qed.
Lemma rsum_scal {A} c (f k : A -> R) l : (forall x, In x l -> f x = c * k x) -> rsum f l = c * rsum k l.
Proof.
  induction l as [|a l IH]; intros H; unfold rsum in *; cbn; [lra|].
  rewrite IH, H by (try (left; reflexivity); intros; apply H; right; assumption). lra.
Qed.
Lemma rsum_split {A} (f : A -> R) (b : A -> bool) l :
  rsum f l = rsum f (filter b l) + rsum f (filter (fun x => negb (b x)) l).
Proof. unfold rsum. induction l as [|a l IH]; cbn; [lra|]. destruct (b a); cbn; rewrite IH; lra. Qed.
Lemma filter_filter {A} (b c : A -> bool) l : filter b (filter c l) = filter (fun x => andb (c x) (b x)) l.
Proof. induction l as [|a l IH]; cbn; [reflexivity|]. destruct (c a); cbn; destruct (b a); cbn; rewrite IH; reflexivity. Qed.
Lemma filter_none {A} (b : A -> bool) l : (forall x, In x l -> b x = false) -> filter b l = [].
Proof.
  induction l as [|a l IH]; intros H; cbn; [reflexivity|]. rewrite (H a) by (left; reflexivity).
  apply IH. intros x Hx. apply H. right. exact Hx.
Qed.
Lemma filter_len {A} (b : A -> bool) l : (length (filter b l) <= length l)%nat.
Proof. induction l as [|a l IH]; cbn; [lia|]. destruct (b a); cbn; lia. Qed.
Lemma class_sum {A P} (eqb : P -> P -> bool) (Heq : forall p p', eqb p p' = true <-> p = p') (pt : A -> P) (f k : A -> R) :
  forall m L, (length L <= m)%nat ->
  (forall p, rsum f (filter (fun x => eqb (pt x) p) L) = rsum k (filter (fun x => eqb (pt x) p) L)) -> rsum f L = rsum k L.
Proof.
  induction m as [|m IH]; intros L HL H; destruct L as [|x L]; try reflexivity; [cbn in HL; lia|].
  rewrite (rsum_split f (fun y => eqb (pt y) (pt x))), (rsum_split k (fun y => eqb (pt y) (pt x))), H. f_equal.
  apply IH.
  - cbn [filter]. replace (eqb (pt x) (pt x)) with true by (symmetry; apply Heq; reflexivity). cbn [negb length] in *.
    pose proof (filter_len (fun y => negb (eqb (pt y) (pt x))) L). lia.
  - intros p. rewrite !filter_filter. destruct (eqb p (pt x)) eqn:E.
    + apply Heq in E. subst p. rewrite filter_none; [reflexivity|]. intros y _. destruct (eqb (pt y) (pt x)); reflexivity.
    + specialize (H p). erewrite filter_ext; [exact H|]. intros y. cbn. destruct (eqb (pt y) p) eqn:E'; [|destruct (eqb (pt y) (pt x)); reflexivity].
      apply Heq in E'. rewrite E', E. reflexivity.
Qed.

(** ** Nodes of the plane and their weights *)
Definition nodes2 (NA NB : nat) : list (Z * Z) :=
  flat_map (fun i => map (fun j => (Z.of_nat i, Z.of_nat j)) (seq 0 NB)) (seq 0 NA).
Lemma in_nodes2 NA NB x : In x (nodes2 NA NB) <-> (0 <= fst x < Z.of_nat NA /\ 0 <= snd x < Z.of_nat NB)%Z.
Proof.
  unfold nodes2. rewrite in_flat_map. split.
  - intros (i & Hi & H). apply in_map_iff in H. destruct H as (j & <- & Hj). rewrite in_seq in *. cbn. lia.
  - destruct x as [a b]. cbn. intros (Ha & Hb). exists (Z.to_nat a). split; [apply in_seq; lia|]. apply in_map_iff.
    exists (Z.to_nat b). rewrite !Z2Nat.id by lia. split; [reflexivity|apply in_seq; lia].
Qed.
Lemma nodup_nodes2 NA NB : NoDup (nodes2 NA NB).
Proof.
  unfold nodes2. apply (nodup_flat _ (fun x => Z.to_nat (fst x))); [apply seq_NoDup| |].
  - intros i _. apply FinFun.Injective_map_NoDup; [|apply seq_NoDup]. intros a b E. injection E as E. lia.
  - intros i x H. apply in_map_iff in H. destruct H as (j & <- & _). cbn. lia.
Qed.
Lemma rsum_flat {A} (F : A -> R) (l : nat -> list A) m : rsum F (flat_map l (seq 0 m)) = nsum m (fun i => rsum F (l i)).
Proof. induction m as [|m IH]; [reflexivity|]. rewrite seq_S, flat_map_app, rsum_app, IH. cbn. rewrite app_nil_r. reflexivity. Qed.
Lemma rsum_map {A} (F : A -> R) (l : nat -> A) m : rsum F (map l (seq 0 m)) = nsum m (fun i => F (l i)).
Proof. induction m as [|m IH]; [reflexivity|]. rewrite seq_S, map_app, rsum_app, IH. unfold rsum. cbn. lra. Qed.
Lemma rsum_nodes2 NA NB F : rsum F (nodes2 NA NB) = nsum NA (fun i => nsum NB (fun j => F (Z.of_nat i, Z.of_nat j))).
Proof. unfold nodes2. rewrite rsum_flat. apply nsum_ext. intros i _. rewrite rsum_map. reflexivity. Qed.
Lemma nsum_app m k f : nsum (m + k) f = nsum m f + nsum k (fun i => f (m + i)%nat).
Proof. induction k as [|k IH]; [rewrite Nat.add_0_r; cbn; lra|]. rewrite Nat.add_succ_r. cbn [nsum]. rewrite IH. lra. Qed.
Lemma nsum_blocks n e f : nsum (e * n) f = nsum e (fun a => nsum n (fun i => f (a * n + i)%nat)).
Proof. induction e as [|e IH]; [reflexivity|]. cbn [Nat.mul nsum]. rewrite Nat.add_comm, nsum_app, IH. reflexivity. Qed.

(** quadrature weight of a node, J apart *)
Definition omega (n : nat) (w : nat -> R) (x : Z * Z) : R :=
  w (Z.to_nat (fst x mod Z.of_nat n)) * w (Z.to_nat (snd x mod Z.of_nat n)).
Lemma mod_block n a i : (i < n)%nat -> Z.to_nat (Z.of_nat (a * n + i) mod Z.of_nat n) = i.
Proof.
  intros Hi. rewrite Nat2Z.inj_add, Nat2Z.inj_mul, Z.add_comm, Z.mod_add by lia.
  rewrite Z.mod_small by lia. apply Nat2Z.id.
Qed.
Lemma global_nodes n w eA eB f :
  patch_sum n w 0 eA eB (fun x y => f (x, y)) = rsum (fun x => omega n w x * f x) (nodes2 (eA * n) (eB * n)).
Proof.
  rewrite rsum_nodes2, nsum_blocks. unfold patch_sum. apply nsum_ext. intros a _.
  rewrite (nsum_ext n (fun i => nsum (eB * n) _) (fun i => nsum eB (fun b => nsum n (fun j =>
    omega n w (Z.of_nat (a * n + i), Z.of_nat (b * n + j)) * f (Z.of_nat (a * n + i), Z.of_nat (b * n + j))))))
    by (intros i _; apply nsum_blocks).
  rewrite nsum_swap. apply nsum_ext. intros b _. unfold element_sum. apply nsum_ext. intros i Hi. apply nsum_ext. intros j Hj.
  unfold omega. cbn [fst snd]. rewrite !mod_block by assumption. f_equal. f_equal. f_equal; lia.
Qed.

Lemma gll_class np e i i' : (2 <= np)%Z -> (0 <= i)%Z -> (0 <= i')%Z ->
  (gll_point np i mod (e * (np - 1)) = gll_point np i' mod (e * (np - 1)))%Z ->
  (i mod np = i' mod np \/ i mod np = np - 1 - i' mod np)%Z.
Proof.
  intros Hn Hi Hi' E. unfold gll_point in E. pose proof (Z.mod_pos_bound i np ltac:(lia)) as B1.
  pose proof (Z.mod_pos_bound i' np ltac:(lia)) as B2.
  assert (Q : exists k, (i / np * (np - 1) + i mod np - (i' / np * (np - 1) + i' mod np) = k * (np - 1))%Z).
  { destruct (Z.eq_dec (e * (np - 1)) 0) as [Z0|Nz].
    - rewrite Z0, !Zmod_0_r in E. exists 0%Z. lia.
    - pose proof (Z.div_mod (i / np * (np - 1) + i mod np) (e * (np - 1)) Nz) as D1.
      pose proof (Z.div_mod (i' / np * (np - 1) + i' mod np) (e * (np - 1)) Nz) as D2. rewrite E in D1.
      exists (e * ((i / np * (np - 1) + i mod np) / (e * (np - 1)) - (i' / np * (np - 1) + i' mod np) / (e * (np - 1))))%Z. nia. }
  destruct Q as (k & Q). set (r := (i mod np)%Z) in *. set (r' := (i' mod np)%Z) in *.
  assert (D : exists d, (r - r' = d * (np - 1))%Z) by (exists (k - i / np + i' / np)%Z; nia).
  destruct D as (d & D). assert (d = -1 \/ d = 0 \/ d = 1)%Z as [-> | [-> | ->]] by nia; [right|left|right]; nia.
Qed.
Lemma weight_class n w e i i' : symmetric n w -> (2 <= n)%nat -> (0 <= i)%Z -> (0 <= i')%Z ->
  (gll_point (Z.of_nat n) i mod (e * (Z.of_nat n - 1)) = gll_point (Z.of_nat n) i' mod (e * (Z.of_nat n - 1)))%Z ->
  w (Z.to_nat (i mod Z.of_nat n)) = w (Z.to_nat (i' mod Z.of_nat n)).
Proof.
  intros Sy Hn Hi Hi' E. pose proof (Z.mod_pos_bound i (Z.of_nat n) ltac:(lia)) as B1.
  pose proof (Z.mod_pos_bound i' (Z.of_nat n) ltac:(lia)) as B2.
  destruct (gll_class (Z.of_nat n) e i i' ltac:(lia) Hi Hi' E) as [->|Q]; [reflexivity|].
  rewrite (Sy (Z.to_nat (i mod Z.of_nat n)%Z)) by lia. f_equal. lia.
Qed.
Definition pair_eqb (p p' : Z * Z) : bool := andb (Z.eqb (fst p) (fst p')) (Z.eqb (snd p) (snd p')).
Lemma pair_eqb_eq p p' : pair_eqb p p' = true <-> p = p'.
Proof.
  unfold pair_eqb. rewrite Bool.andb_true_iff, !Z.eqb_eq. destruct p, p'; cbn. split; [intros (-> & ->); reflexivity|intros E; injection E; auto].
Qed.


(** one rectangle of elements, each updated by the step of some patch *)
Lemma rectangle_step n B w eA eB (J H0 H1 : Z * Z -> R) : annihilates_constants n (bD B) -> adjoint n w (bD B) (bS B) ->
  (forall a b i j, (a < eA)%nat -> (b < eB)%nat -> (i < n)%nat -> (j < n)%nat -> J (Z.of_nat (a * n + i), Z.of_nat (b * n + j)) <> 0) ->
  (forall a b, (a < eA)%nat -> (b < eB)%nat -> exists g init u nt dt h nA nB a' b', (a' < nA)%nat /\ (b' < nB)%nat /\
     forall i j, (i < n)%nat -> (j < n)%nat ->
       let x := (Z.of_nat (a * n + i), Z.of_nat (b * n + j)) in
       let lx := (h + Z.of_nat (a' * n) + Z.of_nat i)%Z in let ly := (h + Z.of_nat (b' * n) + Z.of_nat j)%Z in
       gJ g lx ly = J x /\ sH u lx ly = H0 x /\ H1 x = sH (step n B g init nt dt h nA nB u) lx ly) ->
  patch_sum n w 0 eA eB (fun x y => J (x, y) * H1 (x, y)) = patch_sum n w 0 eA eB (fun x y => J (x, y) * H0 (x, y)).
Proof.
  intros HD HA NJ HS.
  unfold patch_sum. apply nsum_ext. intros a Ha. apply nsum_ext. intros b Hb.
  destruct (HS a b Ha Hb) as (g & init & u & nt & dt & h & nA & nB & a' & b' & Ha' & Hb' & Hx).
  assert (T : forall f F, (forall i j, (i < n)%nat -> (j < n)%nat ->
      f (Z.of_nat (a * n + i), Z.of_nat (b * n + j)) = F (h + Z.of_nat (a' * n) + Z.of_nat i)%Z (h + Z.of_nat (b' * n) + Z.of_nat j)%Z) ->
    element_sum n w (0 + Z.of_nat (a * n)) (0 + Z.of_nat (b * n)) (fun x y => f (x, y)) =
    element_sum n w (h + Z.of_nat (a' * n)) (h + Z.of_nat (b' * n)) F).
  { intros f F Hf. unfold element_sum. apply nsum_ext. intros i Hi. apply nsum_ext. intros j Hj. rewrite <- Hf by assumption.
    f_equal. f_equal. f_equal; lia. }
  rewrite (T (fun x => J x * H1 x) (fun x y => gJ g x y * sH (step n B g init nt dt h nA nB u) x y)).
  2:{ intros i j Hi Hj. destruct (Hx i j Hi Hj) as (-> & _ & ->). reflexivity. }
  rewrite (T (fun x => J x * H0 x) (fun x y => gJ g x y * sH u x y)).
  2:{ intros i j Hi Hj. destruct (Hx i j Hi Hj) as (-> & -> & _). reflexivity. }
  apply (flux_conserved n B g w _ _ (mass_a g init) (mass_b g init) (gJ g) (sH u) _ dt HD HA).
  intros i j Hi Hj. split; [|apply after_h; assumption]. destruct (Hx i j Hi Hj) as (-> & _).
  apply NJ; assumption.
Qed.

(** On the periodic plane: if every element is updated by the step of some patch
    and every node then receives the result of the averaging in some patch, the
    mass of the whole domain does not change.  J is the Jacobian, one value per
    point of the plane; H0, H1, H2 are the heights before the step, after it and
    after the averaging. *)
Theorem C53_plane : forall n B, (2 <= n <= 10)%nat -> gll_basis n = Some B -> exists w, weights_of n (bW B) w /\
  forall eA eB (J H0 H1 H2 : Z * Z -> R), (1 <= eA)%nat -> (1 <= eB)%nat ->
  (forall x, torus_node (Z.of_nat n) (Z.of_nat eA) (Z.of_nat eB) x -> J x <> 0) ->
  (forall x y, torus_node (Z.of_nat n) (Z.of_nat eA) (Z.of_nat eB) x -> torus_node (Z.of_nat n) (Z.of_nat eA) (Z.of_nat eB) y ->
     torus_point (Z.of_nat n) (Z.of_nat eA) (Z.of_nat eB) x = torus_point (Z.of_nat n) (Z.of_nat eA) (Z.of_nat eB) y -> J x = J y) ->
  (** the step *)
  (forall a b, (a < eA)%nat -> (b < eB)%nat -> exists g init u nt dt h nA nB a' b', (a' < nA)%nat /\ (b' < nB)%nat /\
     forall i j, (i < n)%nat -> (j < n)%nat ->
       let x := (Z.of_nat (a * n + i), Z.of_nat (b * n + j)) in
       let lx := (h + Z.of_nat (a' * n) + Z.of_nat i)%Z in let ly := (h + Z.of_nat (b' * n) + Z.of_nat j)%Z in
       gJ g lx ly = J x /\ sH u lx ly = H0 x /\ H1 x = sH (step n B g init nt dt h nA nB u) lx ly) ->
  (** the averaging *)
  (forall x, torus_node (Z.of_nat n) (Z.of_nat eA) (Z.of_nat eB) x -> exists b u i j,
     patch_of (Z.of_nat n) (Z.of_nat n * Z.of_nat eA) (Z.of_nat n * Z.of_nat eB) b /\
     holds_torus (Z.of_nat n) (Z.of_nat eA) (Z.of_nat eB) H1 b u /\
     inner_node b i j /\ place b i j = x /\ H2 x = cart_dss ravg (Z.of_nat n) b u i j) ->
  patch_sum n w 0 eA eB (fun x y => J (x, y) * H2 (x, y)) = patch_sum n w 0 eA eB (fun x y => J (x, y) * H0 (x, y)).
Proof.
  intros n B Hn HB. destruct (C55_reference n Hn) as (B' & w & E & W & Sy & HD & HA). rewrite HB in E. injection E as <-.
  exists w. split; [exact W|]. intros eA eB J H0 H1 H2 HeA HeB NJ SJ HS HDss.
  transitivity (patch_sum n w 0 eA eB (fun x y => J (x, y) * H1 (x, y))).
  - rewrite (global_nodes n w eA eB (fun x => J x * H2 x)), (global_nodes n w eA eB (fun x => J x * H1 x)).
    assert (IN : forall x, In x (nodes2 (eA * n) (eB * n)) <-> torus_node (Z.of_nat n) (Z.of_nat eA) (Z.of_nat eB) x).
    { intros x. rewrite in_nodes2. unfold torus_node. rewrite !Nat2Z.inj_mul.
      rewrite (Z.mul_comm (Z.of_nat eA)), (Z.mul_comm (Z.of_nat eB)). reflexivity. }
    apply (class_sum pair_eqb pair_eqb_eq (torus_point (Z.of_nat n) (Z.of_nat eA) (Z.of_nat eB)) _ _ _ _ (le_n _)).
    intros p. set (l := filter _ _).
    assert (Il : forall x, In x l <-> torus_node (Z.of_nat n) (Z.of_nat eA) (Z.of_nat eB) x /\ torus_point (Z.of_nat n) (Z.of_nat eA) (Z.of_nat eB) x = p).
    { intros x. unfold l. rewrite filter_In, IN, pair_eqb_eq. reflexivity. }
    assert (Nl : NoDup l) by (apply NoDup_filter, nodup_nodes2).
    pose proof (C25_cartesian_sum (Z.of_nat n) (Z.of_nat eA) (Z.of_nat eB) H1 H2 l p ltac:(lia) ltac:(lia) ltac:(lia) HDss Nl Il) as Eq.
    assert (Cs : l = [] \/ exists x0, In x0 l) by (destruct l as [|x0 l0]; [left; reflexivity|right; exists x0; left; reflexivity]).
    destruct Cs as [->|(x0 & X0)]; [reflexivity|]. apply Il in X0. destruct X0 as (T0 & P0).
    assert (Om : forall x, In x l -> omega n w x * J x = omega n w x0 * J x0).
    { intros x Hx. apply Il in Hx. destruct Hx as (Tx & Px). f_equal; [|apply SJ; congruence].
      rewrite <- P0 in Px. unfold torus_point in Px. injection Px as PA PB. unfold torus_node in *. unfold omega. f_equal.
      - apply (weight_class n w (Z.of_nat eA)); [exact Sy|lia|lia|lia|exact PA].
      - apply (weight_class n w (Z.of_nat eB)); [exact Sy|lia|lia|lia|exact PB]. }
    rewrite (rsum_scal (omega n w x0 * J x0) (fun x => omega n w x * (J x * H2 x)) H2 l),
      (rsum_scal (omega n w x0 * J x0) (fun x => omega n w x * (J x * H1 x)) H1 l), Eq; [reflexivity| |];
      intros x Hx; rewrite <- (Om x Hx); ring.
  - apply (rectangle_step n B w eA eB J H0 H1 HD HA); [|exact HS]. intros a b i j Ha Hb Hi Hj. apply NJ. unfold torus_node. cbn. nia.
Qed.

(** ** The cubed sphere *)
Definition nodes3 (N : nat) : list (Z * Z * Z) :=
  flat_map (fun p => map (fun x => (Z.of_nat p, fst x, snd x)) (nodes2 N N)) (seq 0 6).
Lemma in_nodes3 N x : In x (nodes3 N) <-> (0 <= fst (fst x) <= 5 /\ 0 <= snd (fst x) < Z.of_nat N /\ 0 <= snd x < Z.of_nat N)%Z.
Proof.
  unfold nodes3. rewrite in_flat_map. split.
  - intros (p & Hp & H). apply in_map_iff in H. destruct H as (y & <- & Hy). apply in_nodes2 in Hy. apply in_seq in Hp. cbn. lia.
  - destruct x as [[p a] b]. cbn [fst snd]. intros (Hp & Ha & Hb). exists (Z.to_nat p). split; [apply in_seq; lia|]. apply in_map_iff.
    exists (a, b). rewrite Z2Nat.id by lia. split; [reflexivity|]. apply in_nodes2. cbn. lia.
Qed.
Lemma nodup_nodes3 N : NoDup (nodes3 N).
Proof.
  unfold nodes3. apply (nodup_flat _ (fun x => Z.to_nat (fst (fst x)))); [apply seq_NoDup| |].
  - intros p _. apply FinFun.Injective_map_NoDup; [|apply nodup_nodes2]. intros [a b] [a' b'] E. cbn in E. congruence.
  - intros p x H. apply in_map_iff in H. destruct H as (y & <- & _). cbn. lia.
Qed.
Definition omega3 (n : nat) (w : nat -> R) (x : Z * Z * Z) : R := omega n w (snd (fst x), snd x).
Lemma global_nodes3 n w e f :
  nsum 6 (fun p => patch_sum n w 0 e e (fun x y => f (Z.of_nat p, x, y))) = rsum (fun x => omega3 n w x * f x) (nodes3 (e * n)).
Proof.
  unfold nodes3. rewrite rsum_flat. apply nsum_ext. intros p _. etransitivity; [exact (global_nodes n w e e (fun x => f (Z.of_nat p, fst x, snd x)))|].
  generalize (nodes2 (e * n) (e * n)) as l. intros l. unfold rsum. induction l as [|[a b] l IH]; [reflexivity|].
  cbn [map fold_right]. rewrite IH. reflexivity.
Qed.
Lemma cube_faces m p p' x y x' y' : (0 < m)%Z -> cube m p x y = cube m p' x' y' ->
  (Z.abs x = Z.abs x' /\ Z.abs y = Z.abs y' \/ Z.abs x = Z.abs y' /\ Z.abs y = Z.abs x')%Z.
Proof.
  intros Hm. unfold cube. repeat match goal with |- context [if ?b then _ else _] => destruct b end;
    intros E; injection E; intros; lia.
Qed.
Lemma weight_abs n w e i i' : symmetric n w -> (2 <= n)%nat -> (0 <= i)%Z -> (0 <= i')%Z ->
  (Z.abs (2 * gll_point (Z.of_nat n) i - e * (Z.of_nat n - 1)) = Z.abs (2 * gll_point (Z.of_nat n) i' - e * (Z.of_nat n - 1)))%Z ->
  w (Z.to_nat (i mod Z.of_nat n)) = w (Z.to_nat (i' mod Z.of_nat n)).
Proof.
  intros Sy Hn Hi Hi' E. pose proof (Z.mod_pos_bound i (Z.of_nat n) ltac:(lia)) as B1.
  pose proof (Z.mod_pos_bound i' (Z.of_nat n) ltac:(lia)) as B2. set (np := Z.of_nat n) in *.
  assert (Q : (gll_point np i = gll_point np i' \/ gll_point np i + gll_point np i' = e * (np - 1))%Z) by lia.
  destruct Q as [Q|Q].
  - apply (weight_class n w 1 i i' Sy Hn Hi Hi'). fold np. rewrite Q. reflexivity.
  - unfold gll_point in Q. set (r := (i mod np)%Z) in *. set (r' := (i' mod np)%Z) in *.
    assert (D : (r + r' = (e - i / np - i' / np) * (np - 1))%Z) by nia.
    assert (C : (r = r' \/ r = np - 1 - r')%Z).
    { set (d := (e - i / np - i' / np)%Z) in *. assert (np = Z.of_nat n) by reflexivity.
      assert (d = 0 \/ d = 1 \/ d = 2)%Z as [Ed | [Ed | Ed]] by nia; rewrite Ed in D; [left|right|left]; lia. }
    destruct C as [->|C]; [reflexivity|]. rewrite (Sy (Z.to_nat r)) by (unfold np in *; lia). f_equal. unfold np in *. lia.
Qed.
Definition triple_eqb (p p' : Z * Z * Z) : bool := andb (pair_eqb (fst p) (fst p')) (Z.eqb (snd p) (snd p')).
Lemma triple_eqb_eq p p' : triple_eqb p p' = true <-> p = p'.
Proof.
  unfold triple_eqb. rewrite Bool.andb_true_iff, pair_eqb_eq, Z.eqb_eq. destruct p as [q r], p' as [q' r']. cbn.
  split; [intros (-> & ->); reflexivity|intros E; injection E as -> ->; auto].
Qed.

(** The same on the cubed sphere, for 6 panels of e x e elements. *)
Theorem C53_sphere : forall n B, (2 <= n <= 10)%nat -> gll_basis n = Some B -> exists w, weights_of n (bW B) w /\
  forall e (J H0 H1 H2 : Z * Z * Z -> R), (1 <= e)%nat ->
  (forall x, cs_node (Z.of_nat n) (Z.of_nat e) x -> J x <> 0) ->
  (forall x y, cs_node (Z.of_nat n) (Z.of_nat e) x -> cs_node (Z.of_nat n) (Z.of_nat e) y ->
     cs_point (Z.of_nat n) (Z.of_nat e) x = cs_point (Z.of_nat n) (Z.of_nat e) y -> J x = J y) ->
  (** the step *)
  (forall p a b, (p < 6)%nat -> (a < e)%nat -> (b < e)%nat -> exists g init u nt dt h nA nB a' b', (a' < nA)%nat /\ (b' < nB)%nat /\
     forall i j, (i < n)%nat -> (j < n)%nat ->
       let x := (Z.of_nat p, Z.of_nat (a * n + i), Z.of_nat (b * n + j)) in
       let lx := (h + Z.of_nat (a' * n) + Z.of_nat i)%Z in let ly := (h + Z.of_nat (b' * n) + Z.of_nat j)%Z in
       gJ g lx ly = J x /\ sH u lx ly = H0 x /\ H1 x = sH (step n B g init nt dt h nA nB u) lx ly) ->
  (** the averaging *)
  (forall x, cs_node (Z.of_nat n) (Z.of_nat e) x -> exists b u i j, (0 <= bpanel b <= 5)%Z /\
     patch_of (Z.of_nat n) (Z.of_nat n * Z.of_nat e) (Z.of_nat n * Z.of_nat e) b /\
     holds_cs (Z.of_nat n * Z.of_nat e) H1 b u /\ inner_node b i j /\ (bpanel b, fst (place b i j), snd (place b i j)) = x /\
     H2 x = cs_dss ravg rthird (Z.of_nat n) (Z.of_nat n * Z.of_nat e) b u i j) ->
  nsum 6 (fun p => patch_sum n w 0 e e (fun x y => J (Z.of_nat p, x, y) * H2 (Z.of_nat p, x, y))) =
  nsum 6 (fun p => patch_sum n w 0 e e (fun x y => J (Z.of_nat p, x, y) * H0 (Z.of_nat p, x, y))).
Proof.
  intros n B Hn HB. destruct (C55_reference n Hn) as (B' & w & E & W & Sy & HD & HA). rewrite HB in E. injection E as <-.
  exists w. split; [exact W|]. intros e J H0 H1 H2 He NJ SJ HS HDss.
  transitivity (nsum 6 (fun p => patch_sum n w 0 e e (fun x y => J (Z.of_nat p, x, y) * H1 (Z.of_nat p, x, y)))).
  - rewrite (global_nodes3 n w e (fun x => J x * H2 x)), (global_nodes3 n w e (fun x => J x * H1 x)).
    assert (IN : forall x, In x (nodes3 (e * n)) <-> cs_node (Z.of_nat n) (Z.of_nat e) x).
    { intros x. rewrite in_nodes3. unfold cs_node. rewrite !Nat2Z.inj_mul, (Z.mul_comm (Z.of_nat e)). reflexivity. }
    apply (class_sum triple_eqb triple_eqb_eq (cs_point (Z.of_nat n) (Z.of_nat e)) _ _ _ _ (le_n _)).
    intros p. set (l := filter _ _).
    assert (Il : forall x, In x l <-> cs_node (Z.of_nat n) (Z.of_nat e) x /\ cs_point (Z.of_nat n) (Z.of_nat e) x = p).
    { intros x. unfold l. rewrite filter_In, IN, triple_eqb_eq. reflexivity. }
    assert (Nl : NoDup l) by (apply NoDup_filter, nodup_nodes3).
    pose proof (C25_sphere_sum (Z.of_nat n) (Z.of_nat e) H1 H2 l p ltac:(lia) ltac:(lia) HDss Nl Il) as Eq.
    assert (Cs : l = [] \/ exists x0, In x0 l) by (destruct l as [|x0 l0]; [left; reflexivity|right; exists x0; left; reflexivity]).
    destruct Cs as [->|(x0 & X0)]; [reflexivity|]. apply Il in X0. destruct X0 as (T0 & P0).
    assert (Om : forall x, In x l -> omega3 n w x * J x = omega3 n w x0 * J x0).
    { intros x Hx. apply Il in Hx. destruct Hx as (Tx & Px). f_equal; [|apply SJ; congruence].
      rewrite <- P0 in Px. unfold cs_point in Px. unfold cs_node in *. unfold omega3, omega. cbn [fst snd].
      assert (M0 : (0 < Z.of_nat e * (Z.of_nat n - 1))%Z) by (clear - Hn He; nia). destruct (cube_faces _ _ _ _ _ _ _ M0 Px) as [(EA & EB)|(EA & EB)].
      - f_equal; apply (weight_abs n w (Z.of_nat e)); try assumption; try apply Tx; try apply T0; clear - Hn; lia.
      - rewrite Rmult_comm. f_equal; apply (weight_abs n w (Z.of_nat e)); try assumption; try apply Tx; try apply T0; clear - Hn; lia. }
    rewrite (rsum_scal (omega3 n w x0 * J x0) (fun x => omega3 n w x * (J x * H2 x)) H2 l),
      (rsum_scal (omega3 n w x0 * J x0) (fun x => omega3 n w x * (J x * H1 x)) H1 l), Eq; [reflexivity| |];
      intros x Hx; rewrite <- (Om x Hx); ring.
  - apply nsum_ext. intros p Hp.
    apply (rectangle_step n B w e e (fun x => J (Z.of_nat p, fst x, snd x)) (fun x => H0 (Z.of_nat p, fst x, snd x))
      (fun x => H1 (Z.of_nat p, fst x, snd x)) HD HA); cbn [fst snd].
    + intros a b i j Ha Hb Hi Hj. apply NJ. unfold cs_node. cbn. nia.
    + intros a b Ha Hb. apply (HS p a b Hp Ha Hb).
Qed.

(** ** The hypotheses hold for every state of a plane of one element and of a
    sphere of one element per panel *)
Definition flat (g : geometry) : Prop := forall x y, gJ g x y = 1.
Section One.
Context (g : geometry) (init : state) (dt : R) (Hg : flat g).
Let after := step 4 basis4 g init 0 dt 1 1 1 init.
Let H0 (x : Z * Z) := sH init (1 + fst x)%Z (1 + snd x)%Z.
Let H1 (x : Z * Z) := sH after (1 + fst x)%Z (1 + snd x)%Z.
Let b1 (p : Z) := mkBox p 0 1 (-1) 5 (-1) 5.
Lemma one_patch p : patch_of 4 4 4 (b1 p).
Proof. unfold patch_of, b1. cbn. repeat split; try lia; try (exists 0%Z; reflexivity); try (exists 1%Z; reflexivity). Qed.
Lemma one_step a b (Ha : (a < 1)%nat) (Hb : (b < 1)%nat) : forall i j, (i < 4)%nat -> (j < 4)%nat ->
  let x := (Z.of_nat (a * 4 + i), Z.of_nat (b * 4 + j)) in
  let lx := (1 + Z.of_nat (0 * 4) + Z.of_nat i)%Z in let ly := (1 + Z.of_nat (0 * 4) + Z.of_nat j)%Z in
  gJ g lx ly = 1 /\ sH init lx ly = H0 x /\ H1 x = sH after lx ly.
Proof.
  intros i j Hi Hj. assert (a = 0%nat) as -> by lia. assert (b = 0%nat) as -> by lia. cbv zeta. split; [apply Hg|].
  unfold H0, H1. cbn [fst snd]. split; f_equal; lia.
Qed.
End One.
Example C53_plane_ex : exists w, weights_of 4 (bW basis4) w /\ forall g init dt, flat g ->
  exists H1 H2 : Z * Z -> R, (forall i j, (i < 4)%nat -> (j < 4)%nat ->
      H1 (Z.of_nat i, Z.of_nat j) = sH (step 4 basis4 g init 0 dt 1 1 1 init) (1 + Z.of_nat i)%Z (1 + Z.of_nat j)%Z) /\
    patch_sum 4 w 0 1 1 (fun x y => 1 * H2 (x, y)) = patch_sum 4 w 0 1 1 (fun x y => 1 * sH init (1 + x)%Z (1 + y)%Z).
Proof.
  destruct (C53_plane 4 basis4 ltac:(lia) eq_refl) as (w & W & H). exists w. split; [exact W|]. intros g init dt Hg.
  set (H1 := fun x : Z * Z => sH (step 4 basis4 g init 0 dt 1 1 1 init) (1 + fst x)%Z (1 + snd x)%Z).
  set (u1 := fun i j : Z => H1 ((i - 1) mod 4, (j - 1) mod 4)%Z).
  set (H2 := fun x : Z * Z => cart_dss ravg 4 (mkBox 0 0 1 (-1) 5 (-1) 5) u1 (fst x + 1)%Z (snd x + 1)%Z).
  exists H1, H2. split; [reflexivity|].
  refine (H 1%nat 1%nat (fun _ => 1) (fun x => sH init (1 + fst x)%Z (1 + snd x)%Z) H1 H2 (le_n _) (le_n _) _ _ _ _).
  - intros _ _. lra.
  - reflexivity.
  - intros a b Ha Hb. exists g, init, init, 0%nat, dt, 1%Z, 1%nat, 1%nat, 0%nat, 0%nat. split; [lia|split; [lia|]].
    apply (one_step g init dt Hg a b Ha Hb).
  - intros x Tx. exists (mkBox 0 0 1 (-1) 5 (-1) 5), u1, (fst x + 1)%Z, (snd x + 1)%Z. split; [apply one_patch|]. split.
    + intros i j _. reflexivity.
    + unfold torus_node in Tx. split; [unfold inner_node; cbn in *; lia|]. split; [|reflexivity].
      unfold place. cbn. destruct x; cbn. f_equal; lia.
Qed.
Example C53_sphere_ex : exists w, weights_of 4 (bW basis4) w /\ forall g init dt, (forall p, flat (g p)) ->
  exists H1 H2 : Z * Z * Z -> R, (forall p i j, (i < 4)%nat -> (j < 4)%nat ->
      H1 (Z.of_nat p, Z.of_nat i, Z.of_nat j) = sH (step 4 basis4 (g p) (init p) 0 dt 1 1 1 (init p)) (1 + Z.of_nat i)%Z (1 + Z.of_nat j)%Z) /\
    nsum 6 (fun p => patch_sum 4 w 0 1 1 (fun x y => 1 * H2 (Z.of_nat p, x, y))) =
    nsum 6 (fun p => patch_sum 4 w 0 1 1 (fun x y => 1 * sH (init p) (1 + x)%Z (1 + y)%Z)).
Proof.
  destruct (C53_sphere 4 basis4 ltac:(lia) eq_refl) as (w & W & H). exists w. split; [exact W|]. intros g init dt Hg.
  set (H1 := fun x : Z * Z * Z => let p := Z.to_nat (fst (fst x)) in
    sH (step 4 basis4 (g p) (init p) 0 dt 1 1 1 (init p)) (1 + snd (fst x))%Z (1 + snd x)%Z).
  set (u1 := fun p i j : Z => match relative_coord 4 p (i + -1) (j + -1) with Some r => H1 (rp r, ri r, rj r) | None => 0 end).
  set (H2 := fun x : Z * Z * Z => cs_dss ravg rthird 4 4 (mkBox (fst (fst x)) 0 1 (-1) 5 (-1) 5) (u1 (fst (fst x))) (snd (fst x) + 1)%Z (snd x + 1)%Z).
  exists H1, H2. split; [intros p i j _ _; unfold H1; cbn [fst snd]; rewrite Nat2Z.id; reflexivity|].
  assert (E0 : forall f : nat -> R, nsum 6 f = nsum 6 (fun p => f (Z.to_nat (Z.of_nat p)))) by (intros f; apply nsum_ext; intros; rewrite Nat2Z.id; reflexivity).
  rewrite (E0 (fun p => patch_sum 4 w 0 1 1 (fun x y => 1 * sH (init p) (1 + x)%Z (1 + y)%Z))).
  refine (H 1%nat (fun _ => 1) (fun x => sH (init (Z.to_nat (fst (fst x)))) (1 + snd (fst x))%Z (1 + snd x)%Z) H1 H2 (le_n _) _ _ _ _).
  - intros _ _. lra.
  - reflexivity.
  - intros p a b Hp Ha Hb. exists (g p), (init p), (init p), 0%nat, dt, 1%Z, 1%nat, 1%nat, 0%nat, 0%nat. split; [lia|split; [lia|]].
    unfold H1. cbn [fst snd]. rewrite Nat2Z.id. apply (one_step (g p) (init p) dt (Hg p) a b Ha Hb).
  - intros x (Tp & Tx). exists (mkBox (fst (fst x)) 0 1 (-1) 5 (-1) 5), (u1 (fst (fst x))), (snd (fst x) + 1)%Z, (snd x + 1)%Z.
    split; [cbn; lia|]. split; [apply one_patch|]. split.
    + intros i j r _ E _. unfold u1. cbn [bpanel bA0 bB0] in E. change (Z.of_nat 4 * Z.of_nat 1)%Z with 4%Z in E. rewrite E. reflexivity.
    + split; [unfold inner_node; cbn in *; lia|]. split; [|reflexivity].
      unfold place. destruct x as [[p i] j]; cbn. repeat f_equal; lia.
Qed.

Print Assumptions C53_plane.
Print Assumptions C53_sphere.
