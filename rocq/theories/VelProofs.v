(** Lemmas about velocities under summation. *)
From Coq Require Import ZArith Reals List Lia Lra Bool Psatz.
From Verif Require Import PanelModel PanelSpec LayoutModel ExchModel DssModel DssSpec DssProofs DssGeom DssProps QuadModel SpacModel SpacProps
  CsTransModel CsTransSpec CsTransProofs CsTransVecProofs CsTransPanelProofs PanelProps VelModel VelSpec.
Import ListNotations.
Local Open Scope Z_scope.

(** ** the points of the unit element *)
Lemma unit_points np pts w : 2 <= np <= 10 -> get_points (lobatto_table np) 0%R 1%R = Some (pts, w) ->
  Z.of_nat (length pts) = np /\ nth 0 pts 0%R = 0%R /\
  (forall s, 0 <= s < np -> nth (Z.to_nat (np - 1 - s)) pts 0%R = (1 - nth (Z.to_nat s) pts 0)%R) /\
  forall d, exists w', get_points (lobatto_table np) 0%R d = Some (map (fun x => d * x)%R pts, w').
Proof.
  intros Hn.
  assert (exists t u, lobatto_table np = Table t u /\ Z.of_nat (length t) = np /\ nth 0 t 0 = - 10 ^ 16 /\
    forallb (fun s => nth (length t - 1 - s) t 0 + nth s t 0 =? 0) (seq 0 (length t)) = true) as (t & u & E & L & F & Sy).
  { assert (np = 2 \/ np = 3 \/ np = 4 \/ np = 5 \/ np = 6 \/ np = 7 \/ np = 8 \/ np = 9 \/ np = 10) as K by lia.
    repeat (destruct K as [->|K]; [do 2 eexists; split; [reflexivity|]; split; [reflexivity|]; split; vm_compute; reflexivity|]).
    subst np. do 2 eexists; split; [reflexivity|]; split; [reflexivity|]; split; vm_compute; reflexivity. }
  rewrite E. cbn [get_points]. intros G. injection G as <- <-.
  assert (forall d z, scale_node 0 d (dec z) = d * scale_node 0 1 (dec z))%R as Sc by (intros; unfold scale_node; field).
  assert (forall s, (s < length t)%nat -> nth s (map (fun z => scale_node 0 1 (dec z)) t) 0%R = scale_node 0 1 (dec (nth s t 0))) as N.
  { intros s Hs. rewrite (nth_indep _ 0%R (scale_node 0 1 (dec 0))) by (rewrite map_length; exact Hs). exact (map_nth (fun z => scale_node 0 1 (dec z)) t 0 s). }
  split; [rewrite map_length; exact L|]. split; [|split].
  - rewrite N by lia. rewrite F. unfold scale_node, dec. rewrite opp_IZR. field. apply IZR_neq. discriminate.
  - intros s Hs. rewrite !N by lia.
    rewrite forallb_forall in Sy. specialize (Sy (Z.to_nat s)). rewrite in_seq in Sy. specialize (Sy ltac:(lia)). apply Z.eqb_eq in Sy.
    replace (length t - 1 - Z.to_nat s)%nat with (Z.to_nat (np - 1 - s)) in Sy by lia.
    replace (nth (Z.to_nat (np - 1 - s)) t 0) with (- nth (Z.to_nat s) t 0) by lia. unfold scale_node, dec. rewrite opp_IZR. field. apply IZR_neq. discriminate.
  - intros d. eexists. rewrite map_map. f_equal. f_equal. apply map_ext. intros z. apply Sc.
Qed.

Section Nodes.
Context (np e : Z) (pts w : list R).
Context (Hn : 2 <= np <= 10) (He : 1 <= e) (Hp : get_points (lobatto_table np) 0%R 1%R = Some (pts, w)).
Let n := np * e.
Let X := gnomonic np e pts.
Let ang (k : Z) : R := (- PI / 4 + PI / 2 / IZR e * (IZR (k / np) + nth (Z.to_nat (k mod np)) pts 0))%R.
Local Lemma ang_at q r : 0 <= r < np -> ang (q * np + r) = (- PI / 4 + PI / 2 / IZR e * (IZR q + nth (Z.to_nat r) pts 0))%R.
Proof.
  intros H. unfold ang. destruct (mod_at np q r ltac:(lia) H) as (-> & ->). reflexivity.
Qed.
Local Lemma e_pos : (0 < IZR e)%R. Proof. apply IZR_lt. lia. Qed.
Local Lemma n_pos : 2 <= n. Proof. apply n_2; lia. Qed.
Local Lemma last_point : nth (Z.to_nat (np - 1)) pts 0%R = 1%R.
Proof. destruct (unit_points np pts w Hn Hp) as (_ & F & Sy & _). specialize (Sy 0 ltac:(lia)). rewrite Z.sub_0_r in Sy. rewrite Sy. change (Z.to_nat 0) with 0%nat. rewrite F. ring. Qed.
Local Lemma ang_start q : ang (q * np) = (- PI / 4 + PI / 2 / IZR e * IZR q)%R.
Proof. destruct (unit_points np pts w Hn Hp) as (_ & F & _). replace (q * np) with (q * np + 0) by ring. rewrite ang_at by lia. change (Z.to_nat 0) with 0%nat. rewrite F. ring. Qed.
Local Lemma ang_end q : ang (q * np + (np - 1)) = (- PI / 4 + PI / 2 / IZR e * (IZR q + 1))%R.
Proof. rewrite ang_at by lia. rewrite last_point. reflexivity. Qed.
Lemma X_mate k : X (mate np k) = X k.
Proof.
  unfold X, gnomonic. apply (f_equal tan). change (ang (mate np k) = ang k). unfold mate.
  destruct (split_np np k ltac:(lia)) as (q & r & -> & R & _ & Er). rewrite Er.
  destruct (Z.eqb_spec r 0) as [->|N].
  - rewrite Z.add_0_r, ang_start. replace (q * np - 1) with ((q - 1) * np + (np - 1)) by ring. rewrite ang_end, minus_IZR. f_equal. ring.
  - destruct (Z.eqb_spec ((q * np + r + 1) mod np) 0) as [M|M]; [|reflexivity].
    assert (r = np - 1) as ->.
    { destruct (Z.eq_dec r (np - 1)); [assumption|]. replace (q * np + r + 1) with (q * np + (r + 1)) in M by ring. rewrite (proj1 (mod_at np q (r + 1) ltac:(lia) ltac:(lia))) in M. lia. }
    rewrite ang_end. replace (q * np + (np - 1) + 1) with ((q + 1) * np) by ring. rewrite ang_start, plus_IZR. reflexivity.
Qed.
Lemma X_0 : X 0 = (-1)%R.
Proof. unfold X, gnomonic. change (tan (ang (0 * np)) = (-1)%R). rewrite ang_start. replace (- PI / 4 + PI / 2 / IZR e * 0)%R with (- (PI / 4))%R by (field; pose proof e_pos; lra). rewrite tan_neg, tan_PI4. ring. Qed.
Lemma X_n : X n = 1%R.
Proof.
  unfold X, gnomonic. change (tan (ang n) = 1%R). unfold n. rewrite (Z.mul_comm np e), ang_start.
  replace (- PI / 4 + PI / 2 / IZR e * IZR e)%R with (PI / 4)%R by (field; pose proof e_pos; lra). apply tan_PI4.
Qed.
Lemma X_m1 : X (-1) = (-1)%R.
Proof. transitivity (X 0); [|apply X_0]. rewrite <- (X_mate 0). f_equal. Qed.
Lemma X_n1 : X (n - 1) = 1%R.
Proof. rewrite <- X_n, <- (X_mate n). f_equal. unfold mate, n. rewrite Z.mul_comm, Z.mod_mul by lia. reflexivity. Qed.
Lemma X_refl k : X (n - 1 - k) = (- X k)%R.
Proof.
  unfold X, gnomonic. change (tan (ang (n - 1 - k)) = - tan (ang k))%R. rewrite <- tan_neg. f_equal.
  destruct (split_np np k ltac:(lia)) as (q & r & -> & R & _ & _).
  replace (n - 1 - (q * np + r)) with ((e - 1 - q) * np + (np - 1 - r)) by (unfold n; ring).
  rewrite !ang_at by lia. destruct (unit_points np pts w Hn Hp) as (_ & _ & Sy & _). rewrite Sy by lia. rewrite !minus_IZR. field. pose proof e_pos; lra.
Qed.
Lemma coord_ok k : - np < k -> coord np e k = Val (X k).
Proof.
  intros Hk. destruct (unit_points np pts w Hn Hp) as (L & _ & _ & G). destruct (G (1 / 2 * PI / IZR e)%R) as (w' & E).
  unfold coord, make_repeated, make. replace (np <? 2) with false by lia. rewrite E.
  destruct (split_np np k ltac:(lia)) as (q & r & -> & R & _ & _).
  pose proof (C37_repeated (Spacing (1 / 2 * PI / IZR e) (- (1 / 4) * PI) np (map (fun x => 1 / 2 * PI / IZR e * x)%R pts) w') q (Z.to_nat r)) as C.
  cbn [order SpacModel.pts zero delta] in C. rewrite map_length, Z2Nat.id in C by lia. rewrite C by lia. clear C.
  replace ((q <? 0) && (Z.to_nat r =? 0)%nat) with false.
  2:{ symmetry. apply Bool.andb_false_iff. destruct (Z.ltb_spec q 0); [right|left; reflexivity]. apply Nat.eqb_neq. nia. }
  f_equal. unfold X, gnomonic. apply (f_equal tan). change (SpacSpec.line_of (- (1 / 4) * PI) (1 / 2 * PI / IZR e) (map (fun x => (1 / 2 * PI / IZR e * x)%R) pts) q (Z.to_nat r) = ang (q * np + r)).
  rewrite ang_at by lia. unfold SpacSpec.line_of.
  rewrite (nth_indep _ 0%R (1 / 2 * PI / IZR e * 0)%R) by (rewrite map_length; lia). rewrite (map_nth (fun x => 1 / 2 * PI / IZR e * x)%R). field. pose proof e_pos; lra.
Qed.

(** ** cells outside a panel *)
Definition halo_cell (i j : Z) : Prop := near n i /\ near n j /\ (inside n i \/ inside n j) /\ ~ (inside n i /\ inside n j).
Lemma halo_place p i j : panel p -> halo_cell i j ->
  let x := img n p i j in adjacent (fst (fst x)) p /\ panel (fst (fst x)) /\ fst (fst x) <> p /\
  xyp_from_xyp (X i) (X j) p (fst (fst x)) = Val (X (snd (fst x)), X (snd x)).
Proof.
  intros Hq (Hi & Hj & O & I). cbv zeta. pose proof n_pos as N2.
  pose proof X_0 as E0. pose proof X_n as En. pose proof X_m1 as Em. pose proof X_n1 as En1. pose proof (X_refl i) as Ri. pose proof (X_refl j) as Rj.
  assert (forall x y p q t u z, to_global p (1 / sqrt (1 + x * x + y * y) * x) (1 / sqrt (1 + x * x + y * y) * y) (1 / sqrt (1 + x * x + y * y)) = Val z ->
    (exists sx sy sz, to_panel q z = Val (sx, sy, sz) /\ 0 < sz /\ sx = t * sz /\ sy = u * sz)%R -> xyp_from_xyp x y p q = Val (t, u)) as K.
  { intros x y p0 q t u z Eg (sx & sy & sz & Ep & P & -> & ->). unfold xyp_from_xyp. cbv zeta. rewrite Eg, Ep.
    unfold rleb. destruct (Rle_dec sz 0); [lra|]. f_equal. f_equal; field; lra. }
  assert (forall x y, 0 < 1 / sqrt (1 + x * x + y * y))%R as Sp.
  { intros x y. apply Rdiv_lt_0_compat; [lra|]. apply sqrt_lt_R0, sq_pos. }
  zones n i Hi; zones n j Hj; unfold inside in *; try lia; try (exfalso; apply I; lia);
  subst; unfold img; unfold panel in Hq; panels p Hq; unfold relative_coord; dec_tests; cbn [fst snd rp ri rj];
  rewrite ?Z.add_simpl_r, ?Z.sub_diag, ?Z.add_0_l;
    repeat match goal with
    | |- context [X ?x] => match x with
       | i => fail 1 | j => fail 1 | 0 => fail 1 | -1 => fail 1 | n => fail 1 | n - 1 => fail 1 | n - 1 - i => fail 1 | n - 1 - j => fail 1
       | _ => first [ replace x with 0 by lia | replace x with (n - 1) by lia | replace x with (n - 1 - i) by lia | replace x with (n - 1 - j) by lia | replace x with i by lia | replace x with j by lia ]
       end
    end;
  (split; [unfold adjacent, dot, cube_point; ring|split; [unfold panel; lia|split; [lia|]]]);
  rewrite ?Ri, ?Rj, ?E0, ?En, ?Em, ?En1;
  (eapply K; [reflexivity|]; do 3 eexists; split; [reflexivity|]);
  match goal with |- context [sqrt (1 + ?x * ?x + ?y * ?y)] => pose proof (Sp x y) end; repeat split; lra.
Qed.

(** ** the transformation *)
Lemma covec_total q p c d x y : adjacent q p -> panel q -> panel p -> (x * x + y * y <> 0)%R -> exists r, covec_panel q p c d x y = Val r.
Proof.
  intros J Hq Hd M.
  destruct (panel_cases q Hq) as [->|[->|[->|[->|[->| ->]]]]]; destruct (panel_cases p Hd) as [->|[->|[->|[->|[->| ->]]]]];
    try (exfalso; unfold adjacent, dot, cube_point in J; lra);
    unfold covec_panel, dispatch; cbn -[Rmult Rplus Rdiv Rminus Ropp Req_EM_T];
    unfold covec_p2_p1, covec_p1_p2, covec_p1_p5, covec_p2_p5, covec_p3_p5, covec_p4_p5, covec_p5_p1, covec_p5_p2, covec_p5_p3, covec_p5_p4,
      covec_p1_p6, covec_p2_p6, covec_p3_p6, covec_p4_p6, covec_p6_p1, covec_p6_p2, covec_p6_p3, covec_p6_p4; cbv zeta;
    unfold over; destruct (Req_EM_T (x * x + y * y) 0); try contradiction; eexists; reflexivity.
Qed.

Section Patch.
Context (b : box) (Hb : patch_of np n n b) (Hpan : panel (bpanel b)).
Let gx (i : Z) : R := X (i + bA0 b).
Let gy (j : Z) : R := X (j + bB0 b).
Definition fits (q : Z) (c : Z * Z) : Prop :=
  adjacent q (bpanel b) /\ panel q /\ (gx (fst c) * gx (fst c) + gy (snd c) * gy (snd c) <> 0)%R /\ - np < fst c + bA0 b /\ - np < snd c + bB0 b.
Definition turned (q i j : Z) (old new : wind) : Prop :=
  covec_panel q (bpanel b) (fst old i j) (snd old i j) (gx i) (gy j) = Val (fst new i j, snd new i j).
Definition kept (i j : Z) (old new : wind) : Prop := fst new i j = fst old i j /\ snd new i j = snd old i j.
Lemma turn_all q l : NoDup l -> (forall c, In c l -> fits q c) -> forall w0, exists w1, fold_left (turn np e b q) l (Val w0) = Val w1 /\
  forall i j, (In (i, j) l -> turned q i j w0 w1) /\ (~ In (i, j) l -> kept i j w0 w1).
Proof.
  induction l as [|c l IH]; intros N F w0.
  { exists w0. split; [reflexivity|]. intros i j. split; [intros []|]. intros _. split; reflexivity. }
  inversion N as [|? ? Nc Nl]; subst. destruct c as (ci & cj). destruct (F _ (or_introl eq_refl)) as (J & Hq & M & Ka & Kb). cbn [fst snd] in *.
  cbn [fold_left]. destruct w0 as (u & v).
  assert (exists u1 v1, covec_panel q (bpanel b) (u ci cj) (v ci cj) (gx ci) (gy cj) = Val (u1, v1)) as (u1 & v1 & E).
  { destruct (covec_total q (bpanel b) (u ci cj) (v ci cj) _ _ J Hq Hpan M) as ((u1 & v1) & E). eauto. }
  assert (turn np e b q (@Val wind (u, v)) (ci, cj) = @Val wind (put u ci cj u1, put v ci cj v1)) as ->.
  { unfold turn. cbn [fst snd]. rewrite !coord_ok by assumption. fold (gx ci) (gy cj). rewrite E. reflexivity. }
  destruct (IH Nl (fun c H => F c (or_intror H)) (put u ci cj u1, put v ci cj v1)) as (w1 & E1 & V). exists w1. split; [exact E1|].
  assert (forall (f : @fld R) z i j, (i, j) <> (ci, cj) -> put f ci cj z i j = f i j) as Po.
  { intros f z i j D. unfold put. destruct (Z.eqb_spec i ci) as [->|]; [|reflexivity]. destruct (Z.eqb_spec j cj) as [->|]; [|reflexivity]. contradiction. }
  assert (forall (f : @fld R) z, put f ci cj z ci cj = z) as Ps by (intros; unfold put; rewrite !Z.eqb_refl; reflexivity).
  intros i j. destruct (V i j) as (V1 & V2). split.
  - intros [D|D].
    + injection D as <- <-. destruct (V2 Nc) as (K1 & K2). cbn [fst snd] in K1, K2. rewrite Ps in K1, K2.
      unfold turned. cbn [fst snd]. rewrite E, K1, K2. reflexivity.
    + specialize (V1 D). unfold turned in *. cbn [fst snd] in *. rewrite !Po in V1 by (intros D'; rewrite <- D' in Nc; contradiction). exact V1.
  - intros D. assert ((i, j) <> (ci, cj)) by (intros D'; apply D; left; congruence).
    destruct (V2 (fun H => D (or_intror H))) as (K1 & K2). cbn [fst snd] in K1, K2. rewrite Po in K1, K2 by assumption. split; assumption.
Qed.
Lemma side_all q l : NoDup l -> (q <> bpanel b -> forall c, In c l -> fits q c) -> forall w0, exists w1, side np e b q l (Val w0) = Val w1 /\
  forall i j, (q <> bpanel b -> In (i, j) l -> turned q i j w0 w1) /\ (q = bpanel b \/ ~ In (i, j) l -> kept i j w0 w1).
Proof.
  intros N F w0. unfold side. destruct (Z.eqb_spec q (bpanel b)) as [D|D].
  - exists w0. split; [reflexivity|]. intros i j. split; [contradiction|]. intros _. split; reflexivity.
  - destruct (turn_all q l N (F D) w0) as (w1 & E & V). exists w1. split; [exact E|]. intros i j. destruct (V i j) as (V1 & V2). split; [auto|].
    intros [K|K]; [contradiction|auto].
Qed.
Lemma up_nodup a c : NoDup (up a c).
Proof. unfold up. apply FinFun.Injective_map_NoDup; [intros x y; lia|apply seq_NoDup]. Qed.
Lemma in_up a c x : In x (up a c) <-> a <= x < c.
Proof.
  unfold up. rewrite in_map_iff. split.
  - intros (k & <- & K). apply in_seq in K. lia.
  - intros H. exists (Z.to_nat (x - a)). split; [lia|]. apply in_seq. lia.
Qed.

(** the panel seen through a side *)
Lemma seen i j j' : near n i -> inside n j -> inside n j' -> fst (fst (img n (bpanel b) i j)) = fst (fst (img n (bpanel b) i j')).
Proof.
  intros Hi Hj Hj'. pose proof n_pos as N2. unfold panel in Hpan. assert (Hpan' := Hpan). zones n i Hi; unfold inside in *; subst; unfold img; panels (bpanel b) Hpan';
    unfold relative_coord; dec_tests; reflexivity.
Qed.
Lemma seen_b i i' j : near n j -> inside n i -> inside n i' -> fst (fst (img n (bpanel b) i j)) = fst (fst (img n (bpanel b) i' j)).
Proof.
  intros Hj Hi Hi'. pose proof n_pos as N2. unfold panel in Hpan. assert (Hpan' := Hpan). zones n j Hj; unfold inside in *; subst; unfold img; panels (bpanel b) Hpan';
    unfold relative_coord; dec_tests; reflexivity.
Qed.
Lemma toward_img i j : near n i -> near n j -> inside n i \/ inside n j -> toward n b i j = fst (fst (img n (bpanel b) i j)).
Proof.
  intros Hi Hj O. pose proof n_pos as N2. unfold toward, img. destruct (relative_coord n (bpanel b) i j) eqn:Er; [reflexivity|]. exfalso.
  unfold panel in Hpan. assert (Hpan' := Hpan). revert Er. zones n i Hi; zones n j Hj; unfold inside in *; try lia; subst; panels (bpanel b) Hpan'; unfold relative_coord; dec_tests; discriminate.
Qed.
Lemma beyond i j : near n i -> near n j -> inside n i \/ inside n j ->
  (inside n i /\ inside n j /\ fst (fst (img n (bpanel b) i j)) = bpanel b) \/ (halo_cell i j /\ fst (fst (img n (bpanel b) i j)) <> bpanel b).
Proof.
  intros Hi Hj O. assert (inside n i /\ inside n j \/ ~ (inside n i /\ inside n j)) as [(A & B)|I] by (unfold inside; lia).
  - left. rewrite img_in by assumption. auto.
  - right. assert (halo_cell i j) as H by (unfold halo_cell; auto). split; [exact H|]. exact (proj1 (proj2 (proj2 (halo_place _ i j Hpan H)))).
Qed.
Local Lemma one_sq x y : x = 1%R \/ x = (-1)%R -> (x * x + y * y <> 0)%R /\ (y * y + x * x <> 0)%R.
Proof. intros [->| ->]; split; nra. Qed.
Local Lemma X_out k : near n k -> ~ inside n k -> X k = 1%R \/ X k = (-1)%R.
Proof. intros N O. assert (k = -1 \/ k = n) as [->| ->] by (unfold near, inside in *; lia); [right; apply X_m1|left; apply X_n]. Qed.
(** a side: the column [i0], seen at the row [j0] inside *)
Lemma side_a i0 j0 : near n (i0 + bA0 b) -> inside n j0 -> forall w0, exists w1,
  side np e b (toward n b (i0 + bA0 b) j0) (map (fun j => (i0, j)) (up (ib0 b - 1) (ib1 b + 1))) (Val w0) = Val w1 /\
  forall i j, ring b i j -> inside n (i + bA0 b) \/ inside n (j + bB0 b) ->
  (i = i0 /\ ~ inside n (i0 + bA0 b) -> turned (fst (fst (img n (bpanel b) (i + bA0 b) (j + bB0 b)))) i j w0 w1) /\
  (~ (i = i0 /\ ~ inside n (i0 + bA0 b)) -> kept i j w0 w1).
Proof.
  intros Hi Hj w0. pose proof n_pos as N2. assert (near n j0) as Nj by (unfold near, inside in *; lia).
  rewrite toward_img by auto. set (q := fst (fst (img n (bpanel b) (i0 + bA0 b) j0))).
  destruct (side_all q (map (fun j => (i0, j)) (up (ib0 b - 1) (ib1 b + 1)))
    ltac:(apply FinFun.Injective_map_NoDup; [intros x y E; congruence|apply up_nodup])) with (w0 := w0) as (w1 & E & V).
  { intros Q c Hc. apply in_map_iff in Hc as (j & <- & Hc). rewrite in_up in Hc. unfold ib0, ib1 in Hc.
    destruct (beyond _ _ Hi Nj (or_intror Hj)) as [(_ & _ & K)|(Hh & _)]; [contradiction|].
    destruct (halo_place _ _ _ Hpan Hh) as (J & Hq & _ & _). fold q in J, Hq. split; [exact J|]. split; [exact Hq|]. cbn [fst snd].
    split; [|unfold patch_of, near in *; lia].
    destruct Hh as (_ & _ & _ & I). refine (proj1 (one_sq _ _ (X_out _ Hi _))). intros H. apply I. auto. }
  exists w1. split; [exact E|]. intros i j Hr O. destruct (V i j) as (V1 & V2).
  assert (i = i0 -> In (i, j) (map (fun j => (i0, j)) (up (ib0 b - 1) (ib1 b + 1)))) as Hin.
  { intros ->. apply in_map_iff. exists j. split; [reflexivity|]. apply in_up. unfold ring, ib0, ib1 in *. lia. }
  split.
  - intros (-> & Ho). destruct O as [O|O]; [contradiction|]. rewrite (seen _ _ j0 Hi O Hj). apply V1; [|apply Hin; reflexivity].
    destruct (beyond _ _ Hi Nj (or_intror Hj)) as [(K & _)|(_ & K)]; [contradiction|exact K].
  - intros Ho. apply V2. destruct (beyond _ _ Hi Nj (or_intror Hj)) as [(_ & _ & K)|(Hh & K)]; [left; exact K|right].
    intros Hc. apply in_map_iff in Hc as (j' & Ec & _). injection Ec as -> ->. apply Ho. split; [reflexivity|].
    intros H. destruct Hh as (_ & _ & _ & I). apply I. auto.
Qed.
Lemma side_b i0 j0 : near n (j0 + bB0 b) -> inside n i0 -> forall w0, exists w1,
  side np e b (toward n b i0 (j0 + bB0 b)) (map (fun i => (i, j0)) (up (ia0 b - 1) (ia1 b + 1))) (Val w0) = Val w1 /\
  forall i j, ring b i j -> inside n (i + bA0 b) \/ inside n (j + bB0 b) ->
  (j = j0 /\ ~ inside n (j0 + bB0 b) -> turned (fst (fst (img n (bpanel b) (i + bA0 b) (j + bB0 b)))) i j w0 w1) /\
  (~ (j = j0 /\ ~ inside n (j0 + bB0 b)) -> kept i j w0 w1).
Proof.
  intros Hj Hi w0. pose proof n_pos as N2. assert (near n i0) as Ni by (unfold near, inside in *; lia).
  rewrite toward_img by auto. set (q := fst (fst (img n (bpanel b) i0 (j0 + bB0 b)))).
  destruct (side_all q (map (fun i => (i, j0)) (up (ia0 b - 1) (ia1 b + 1)))
    ltac:(apply FinFun.Injective_map_NoDup; [intros x y E; congruence|apply up_nodup])) with (w0 := w0) as (w1 & E & V).
  { intros Q c Hc. apply in_map_iff in Hc as (i & <- & Hc). rewrite in_up in Hc. unfold ia0, ia1 in Hc.
    destruct (beyond _ _ Ni Hj (or_introl Hi)) as [(_ & _ & K)|(Hh & _)]; [contradiction|].
    destruct (halo_place _ _ _ Hpan Hh) as (J & Hq & _ & _). fold q in J, Hq. split; [exact J|]. split; [exact Hq|]. cbn [fst snd].
    split; [|unfold patch_of, near in *; lia].
    destruct Hh as (_ & _ & _ & I). refine (proj2 (one_sq _ _ (X_out _ Hj _))). intros H. apply I. auto. }
  exists w1. split; [exact E|]. intros i j Hr O. destruct (V i j) as (V1 & V2).
  assert (j = j0 -> In (i, j) (map (fun i => (i, j0)) (up (ia0 b - 1) (ia1 b + 1)))) as Hin.
  { intros ->. apply in_map_iff. exists i. split; [reflexivity|]. apply in_up. unfold ring, ia0, ia1 in *. lia. }
  split.
  - intros (-> & Ho). destruct O as [O|O]; [|contradiction]. rewrite (seen_b _ i0 _ Hj O Hi). apply V1; [|apply Hin; reflexivity].
    destruct (beyond _ _ Ni Hj (or_introl Hi)) as [(_ & K & _)|(_ & K)]; [contradiction|exact K].
  - intros Ho. apply V2. destruct (beyond _ _ Ni Hj (or_introl Hi)) as [(_ & _ & K)|(Hh & K)]; [left; exact K|right].
    intros Hc. apply in_map_iff in Hc as (i' & Ec & _). injection Ec as -> ->. apply Ho. split; [reflexivity|].
    intros H. destruct Hh as (_ & _ & _ & I). apply I. auto.
Qed.
Lemma kept_turned q i j w0 w1 w2 : kept i j w0 w1 -> turned q i j w1 w2 -> turned q i j w0 w2.
Proof. intros (A & B) T. unfold turned in *. rewrite <- A, <- B. exact T. Qed.
Lemma turned_kept q i j w0 w1 w2 : turned q i j w0 w1 -> kept i j w1 w2 -> turned q i j w0 w2.
Proof. intros T (A & B). unfold turned in *. rewrite A, B. exact T. Qed.
Lemma kept_kept i j w0 w1 w2 : kept i j w0 w1 -> kept i j w1 w2 -> kept i j w0 w2.
Proof. intros (A & B) (C & D). split; congruence. Qed.
Lemma transformed w0 : exists w1, transform_halo np e b w0 = Val w1 /\
  forall i j, ring b i j -> inside n (i + bA0 b) \/ inside n (j + bB0 b) ->
  (inside n (i + bA0 b) /\ inside n (j + bB0 b) -> kept i j w0 w1) /\
  (~ (inside n (i + bA0 b) /\ inside n (j + bB0 b)) -> turned (fst (fst (img n (bpanel b) (i + bA0 b) (j + bB0 b)))) i j w0 w1).
Proof.
  assert (inside n (a_int_begin b) /\ inside n (b_int_begin b)) as (Ia & Ib) by (unfold a_int_begin, b_int_begin, patch_of, inside in *; lia).
  assert (near n (ia1 b + bA0 b) /\ near n (ib1 b + bB0 b) /\ near n (ia0 b - 1 + bA0 b) /\ near n (ib0 b - 1 + bB0 b)) as (N1 & N2 & N3 & N4)
    by (unfold ia0, ia1, ib0, ib1, patch_of, near in *; lia).
  destruct (side_a (ia1 b) (b_int_begin b) N1 Ib w0) as (w1 & E1 & V1).
  destruct (side_b (a_int_begin b) (ib1 b) N2 Ia w1) as (w2 & E2 & V2).
  destruct (side_a (ia0 b - 1) (b_int_begin b) N3 Ib w2) as (w3 & E3 & V3).
  destruct (side_b (a_int_begin b) (ib0 b - 1) N4 Ia w3) as (w4 & E4 & V4).
  exists w4. split.
  { unfold transform_halo. cbv zeta. fold n. unfold right_panel, top_panel, left_panel, bottom_panel.
    replace (a_int_end b) with (ia1 b + bA0 b) by (unfold ia1, a_int_end; lia). rewrite E1.
    replace (b_int_end b) with (ib1 b + bB0 b) by (unfold ib1, b_int_end; lia). rewrite E2.
    replace (a_int_begin b - 1) with (ia0 b - 1 + bA0 b) by (unfold ia0, a_int_begin; lia). rewrite E3.
    replace (b_int_begin b - 1) with (ib0 b - 1 + bB0 b) by (unfold ib0, b_int_begin; lia). exact E4. }
  clear E1 E2 E3 E4. intros i j Hr O.
  destruct (V1 i j Hr O) as (T1 & K1). destruct (V2 i j Hr O) as (T2 & K2). destruct (V3 i j Hr O) as (T3 & K3). destruct (V4 i j Hr O) as (T4 & K4).
  clear V1 V2 V3 V4.
  assert (ia0 b <= ia1 b /\ ib0 b <= ib1 b) as Ab by (unfold ia0, ia1, ib0, ib1, patch_of in *; lia).
  assert (inside n (ia0 b + bA0 b) /\ inside n (ia1 b - 1 + bA0 b) /\ inside n (ib0 b + bB0 b) /\ inside n (ib1 b - 1 + bB0 b)) as In4
    by (unfold ia0, ia1, ib0, ib1, patch_of, inside in *; lia).
  assert (ia0 b - 1 <= i <= ia1 b /\ ib0 b - 1 <= j <= ib1 b) as Hr' by (unfold ring, ia0, ia1, ib0, ib1 in *; lia).
  split.
  - intros (A & B). apply (kept_kept _ _ _ w1); [apply K1; intros (-> & H); contradiction|].
    apply (kept_kept _ _ _ w2); [apply K2; intros (-> & H); contradiction|].
    apply (kept_kept _ _ _ w3); [apply K3; intros (-> & H); contradiction|]. apply K4; intros (-> & H); contradiction.
  - intros I.
    assert (i = ia1 b /\ ~ inside n (ia1 b + bA0 b) \/ j = ib1 b /\ ~ inside n (ib1 b + bB0 b) \/ i = ia0 b - 1 /\ ~ inside n (ia0 b - 1 + bA0 b) \/
      j = ib0 b - 1 /\ ~ inside n (ib0 b - 1 + bB0 b)) as Cs by (clear - I O In4 Hr'; unfold inside in *; lia).
    clear - T1 T2 T3 T4 K1 K2 K3 K4 Cs O I Hr' In4 Ab.
    destruct Cs as [C|[C|[C|C]]].
    + apply (turned_kept _ _ _ _ w1); [exact (T1 C)|].
      apply (kept_kept _ _ _ w2); [apply K2; clear - C O In4 Hr' Ab; unfold inside in *; lia|].
      apply (kept_kept _ _ _ w3); [apply K3; clear - C O In4 Hr' Ab; unfold inside in *; lia|]. apply K4; clear - C O In4 Hr' Ab; unfold inside in *; lia.
    + apply (kept_turned _ _ _ _ w1); [apply K1; clear - C O In4 Hr' Ab; unfold inside in *; lia|].
      apply (turned_kept _ _ _ _ w2); [exact (T2 C)|].
      apply (kept_kept _ _ _ w3); [apply K3; clear - C O In4 Hr' Ab; unfold inside in *; lia|]. apply K4; clear - C O In4 Hr' Ab; unfold inside in *; lia.
    + apply (kept_turned _ _ _ _ w1); [apply K1; clear - C O In4 Hr' Ab; unfold inside in *; lia|].
      apply (kept_turned _ _ _ _ w2); [apply K2; clear - C O In4 Hr' Ab; unfold inside in *; lia|].
      apply (turned_kept _ _ _ _ w3); [exact (T3 C)|]. apply K4; clear - C O In4 Hr' Ab; unfold inside in *; lia.
    + apply (kept_turned _ _ _ _ w1); [apply K1; clear - C O In4 Hr' Ab; unfold inside in *; lia|].
      apply (kept_turned _ _ _ _ w2); [apply K2; clear - C O In4 Hr' Ab; unfold inside in *; lia|].
      apply (kept_turned _ _ _ _ w3); [apply K3; clear - C O In4 Hr' Ab; unfold inside in *; lia|]. exact (T4 C).
Qed.

(** ** vectors at the cells *)
Context (W : Z * Z * Z -> vec3) (U V : Z * Z * Z -> R).
Context (HW : forall x, cs_node np e x -> tangent_at np e pts x (W x)).
Context (HC : forall x, cs_node np e x -> components_at np e pts x (W x) (U x) (V x)).
Definition spanned (q : Z) (x y : R) (v : vec3) : Prop := exists a c, v = plus (scale a (alpha_at q x y)) (scale c (beta_at q x y)).
Lemma W_spanned x : cs_node np e x -> spanned (fst (fst x)) (X (snd (fst x))) (X (snd x)) (W x).
Proof.
  intros H. destruct (HW x H) as (a & c & va & vb & A & B & E). assert (panel (fst (fst x))) as Hq by (unfold cs_node, panel in *; lia).
  rewrite (velocity_unique _ _ _ _ A (alpha_velocity _ _ _ Hq)), (velocity_unique _ _ _ _ B (beta_velocity _ _ _ Hq)) in E. exists a, c. exact E.
Qed.
Lemma UV_dot x : cs_node np e x ->
  U x = dot (W x) (alpha_at (fst (fst x)) (X (snd (fst x))) (X (snd x))) /\ V x = dot (W x) (beta_at (fst (fst x)) (X (snd (fst x))) (X (snd x))).
Proof.
  intros H. destruct (HC x H) as (va & vb & A & B & E1 & E2). assert (panel (fst (fst x))) as Hq by (unfold cs_node, panel in *; lia).
  rewrite (velocity_unique _ _ _ _ A (alpha_velocity _ _ _ Hq)) in E1. rewrite (velocity_unique _ _ _ _ B (beta_velocity _ _ _ Hq)) in E2. auto.
Qed.
(** the vector of a cell around the panel, in the coordinates of the panel *)
Lemma cell_vector i j : near n i -> near n j -> inside n i \/ inside n j ->
  spanned (bpanel b) (X i) (X j) (W (img n (bpanel b) i j)) /\
  (~ (inside n i /\ inside n j) -> covec_panel (fst (fst (img n (bpanel b) i j))) (bpanel b) (U (img n (bpanel b) i j)) (V (img n (bpanel b) i j)) (X i) (X j) =
    Val (dot (W (img n (bpanel b) i j)) (alpha_at (bpanel b) (X i) (X j)), dot (W (img n (bpanel b) i j)) (beta_at (bpanel b) (X i) (X j)))) /\
  (inside n i /\ inside n j -> U (img n (bpanel b) i j) = dot (W (img n (bpanel b) i j)) (alpha_at (bpanel b) (X i) (X j)) /\
    V (img n (bpanel b) i j) = dot (W (img n (bpanel b) i j)) (beta_at (bpanel b) (X i) (X j))).
Proof.
  intros Hi Hj O. assert (cs_node np e (img n (bpanel b) i j)) as Hx by (apply img_node; unfold panel in Hpan; auto; lia).
  pose proof (W_spanned _ Hx) as Sp. destruct (UV_dot _ Hx) as (EU & EV).
  destruct (beyond i j Hi Hj O) as [(A & B & _)|(Hh & _)].
  - rewrite (img_in n _ i j A B) in *. cbn [fst snd] in *. split; [exact Sp|]. split; [tauto|]. auto.
  - destruct (halo_place _ _ _ Hpan Hh) as (J & Hq & _ & Ex). set (x := img n (bpanel b) i j) in *.
    destruct Sp as (a & c & Ew). split; [|split].
    + destruct (vec_panel_ok _ _ _ _ _ _ a c Hq Hpan J Ex) as (a' & c' & _ & E). exists a', c'. rewrite Ew. symmetry. exact E.
    + intros _. rewrite EU, EV, Ew. apply covec_panel_ok; auto.
    + intros I. destruct Hh as (_ & _ & _ & K). contradiction.
Qed.
Lemma cs_val_local (E E' : Z -> Z -> R) i j : inside n i -> inside n j ->
  (forall a c, a = i \/ a = mate np i -> c = j \/ c = mate np j -> E a c = E' a c) -> cs_val ravg rthird np n E i j = cs_val ravg rthird np n E' i j.
Proof.
  intros Hi Hj H. unfold cs_val. destruct (((i =? 0) || (i =? n - 1)) && ((j =? 0) || (j =? n - 1))) eqn:Ec.
  - destruct (mate_edge np e ltac:(lia) i Hi) as (A & B). destruct (mate_edge np e ltac:(lia) j Hj) as (A' & B').
    assert (i + out_side n i = mate np i) as -> by (unfold out_side; destruct (Z.eqb_spec i 0); [rewrite A by assumption; lia|rewrite B by (fold n; lia); fold n; lia]).
    assert (j + out_side n j = mate np j) as -> by (unfold out_side; destruct (Z.eqb_spec j 0); [rewrite A' by assumption; lia|rewrite B' by (fold n; lia); fold n; lia]).
    rewrite !H by auto. reflexivity.
  - unfold glob_b, glob_a. unfold mate in H.
    destruct (i mod np =? 0), (j mod np =? 0), ((i + 1) mod np =? 0), ((j + 1) mod np =? 0); rewrite !H by auto; reflexivity.
Qed.
Context (u v : @fld R) (Hu : holds_cs n U b u) (Hv : holds_cs n V b v).
Lemma velocity_means : exists du dv, velocity_dss ravg rthird np e b (u, v) = Val (du, dv) /\
  forall i j, inner_node b i j -> let P := fun x => cs_node np e x /\ cs_point np e x = cs_point np e (bpanel b, i + bA0 b, j + bB0 b) in
  mean_over P (fun x => dot (W x) (alpha_at (bpanel b) (gx i) (gy j))) (du i j) /\
  mean_over P (fun x => dot (W x) (beta_at (bpanel b) (gx i) (gy j))) (dv i j) /\
  forall x, P x -> spanned (bpanel b) (gx i) (gy j) (W x).
Proof.
  pose proof n_pos as N2. unfold panel in Hpan.
  destruct (transformed (u, v)) as ((u' & v') & E & T).
  assert (forall i j, ring b i j -> ~ ((i + bA0 b < 0 \/ n <= i + bA0 b) /\ (j + bB0 b < 0 \/ n <= j + bB0 b)) ->
    u' i j = (fun a c => dot (W (img n (bpanel b) a c)) (alpha_at (bpanel b) (X a) (X c))) (i + bA0 b) (j + bB0 b) /\
    v' i j = (fun a c => dot (W (img n (bpanel b) a c)) (beta_at (bpanel b) (X a) (X c))) (i + bA0 b) (j + bB0 b)) as Cell.
  { intros i j Hr O. cbv beta.
    assert (near n (i + bA0 b) /\ near n (j + bB0 b)) as (Ni & Nj) by (unfold ring, patch_of, near in *; lia).
    assert (inside n (i + bA0 b) \/ inside n (j + bB0 b)) as O' by (unfold inside; lia).
    pose proof (cs_E n U b u ltac:(lia) Hpan Hu i j Hr O) as Eu. pose proof (cs_E n V b v ltac:(lia) Hpan Hv i j Hr O) as Ev. cbv beta in Eu, Ev.
    destruct (cell_vector _ _ Ni Nj O') as (_ & C1 & C2). destruct (T i j Hr O') as (T1 & T2).
    assert (inside n (i + bA0 b) /\ inside n (j + bB0 b) \/ ~ (inside n (i + bA0 b) /\ inside n (j + bB0 b))) as [I|I] by (unfold inside; lia).
    - destruct (T1 I) as (K1 & K2). cbn [fst snd] in K1, K2. destruct (C2 I) as (D1 & D2). split; congruence.
    - specialize (T2 I). specialize (C1 I). unfold turned in T2. cbn [fst snd] in T2. rewrite Eu, Ev in T2. unfold gx, gy in T2. rewrite C1 in T2.
      injection T2 as <- <-. auto. }
  exists (cs_dss ravg rthird np n b u'), (cs_dss ravg rthird np n b v').
  split; [unfold velocity_dss; rewrite E; reflexivity|]. intros i j Hi. cbv zeta.
  assert ((np | n)) as Dv by (exists e; unfold n; ring).
  rewrite (cs_value ravg rthird np n b u' _ ltac:(lia) Dv Hpan Hb (fun i j R O => proj1 (Cell i j R O)) i j Hi).
  rewrite (cs_value ravg rthird np n b v' _ ltac:(lia) Dv Hpan Hb (fun i j R O => proj2 (Cell i j R O)) i j Hi).
  clear Cell T E. pose proof (place_cs np e b i j Hpan Hb Hi) as Hx. unfold place in Hx. cbn [fst snd] in Hx.
  assert (inside n (i + bA0 b) /\ inside n (j + bB0 b)) as (Ii & Ij) by (unfold cs_node, inside in *; cbn [fst snd] in Hx; fold n in Hx; lia).
  assert (forall a a', a = a' \/ a = mate np a' -> X a = X a') as Xm by (intros a a' [->| ->]; [reflexivity|apply X_mate]).
  split; [|split].
  - rewrite (cs_val_local _ (fun a c => (fun x => dot (W x) (alpha_at (bpanel b) (gx i) (gy j))) (img n (bpanel b) a c)) _ _ Ii Ij).
    { apply sphere_mean; [lia|lia|exact Hx]. }
    intros a c A C. cbv beta. rewrite (Xm _ _ A), (Xm _ _ C). reflexivity.
  - rewrite (cs_val_local _ (fun a c => (fun x => dot (W x) (beta_at (bpanel b) (gx i) (gy j))) (img n (bpanel b) a c)) _ _ Ii Ij).
    { apply sphere_mean; [lia|lia|exact Hx]. }
    intros a c A C. cbv beta. rewrite (Xm _ _ A), (Xm _ _ C). reflexivity.
  - intros ((q & i') & j') (Hq & Ep).
    destruct (class_complete np e ltac:(lia) ltac:(lia) _ _ _ _ _ _ Hx Hq Ep) as (i2 & j2 & A & B & Ni & Nj & O & I).
    symmetry in A, B. apply point_eq in A; [|lia]. apply point_eq in B; [|lia].
    destruct (cell_vector i2 j2 Ni Nj O) as (Sp & _). fold n in I. rewrite I in Sp. unfold gx, gy. rewrite <- (Xm _ _ A), <- (Xm _ _ B). exact Sp.
Qed.
End Patch.
End Nodes.

(** ** means of vectors *)
Lemma spanned_plus q x y v v' : spanned q x y v -> spanned q x y v' -> spanned q x y (plus v v').
Proof.
  intros (a & c & ->) (a' & c' & ->). exists (a + a')%R, (c + c')%R. destruct (alpha_at q x y) as ((? & ?) & ?), (beta_at q x y) as ((? & ?) & ?).
  cbn. apply vec3_eq; ring.
Qed.
Lemma spanned_scale q x y k v : spanned q x y v -> spanned q x y (scale k v).
Proof.
  intros (a & c & ->). exists (k * a)%R, (k * c)%R. destruct (alpha_at q x y) as ((? & ?) & ?), (beta_at q x y) as ((? & ?) & ?).
  cbn. apply vec3_eq; ring.
Qed.
Definition vsum {A} (W : A -> vec3) (l : list A) : vec3 := fold_right (fun x s => plus (W x) s) (0, 0, 0)%R l.
Lemma vsum_parts {A} (W : A -> vec3) l :
  fst (fst (vsum W l)) = rsum (fun x => fst (fst (W x))) l /\ snd (fst (vsum W l)) = rsum (fun x => snd (fst (W x))) l /\ snd (vsum W l) = rsum (fun x => snd (W x)) l.
Proof.
  induction l as [|x l (A1 & A2 & A3)]; [cbn; auto|]. cbn [vsum fold_right rsum]. fold (vsum W l).
  fold (rsum (fun x => fst (fst (W x))) l) (rsum (fun x => snd (fst (W x))) l) (rsum (fun x => snd (W x)) l).
  destruct (W x) as ((? & ?) & ?) eqn:E. destruct (vsum W l) as ((? & ?) & ?). cbn [plus fst snd] in *. subst. auto.
Qed.
Lemma vsum_dot {A} (W : A -> vec3) l z : dot (vsum W l) z = rsum (fun x => dot (W x) z) l.
Proof.
  induction l as [|x l IH]; [destruct z as ((? & ?) & ?); cbn; ring|]. cbn [vsum fold_right rsum]. fold (vsum W l). fold (rsum (fun x => dot (W x) z) l). rewrite <- IH.
  destruct (W x) as ((? & ?) & ?), (vsum W l) as ((? & ?) & ?), z as ((? & ?) & ?). cbn. ring.
Qed.
Lemma vsum_spanned {A} (W : A -> vec3) l q x y : (forall a, In a l -> spanned q x y (W a)) -> spanned q x y (vsum W l).
Proof.
  induction l as [|a l IH]; intros H.
  - exists 0%R, 0%R. destruct (alpha_at q x y) as ((? & ?) & ?), (beta_at q x y) as ((? & ?) & ?). cbn. apply vec3_eq; ring.
  - cbn [vsum fold_right]. apply spanned_plus; [apply H; left; reflexivity|]. apply IH. intros a' H'. apply H. right. exact H'.
Qed.
Lemma mean_vectors {A} (P : A -> Prop) (W : A -> vec3) q x y c d :
  mean_over P (fun a => dot (W a) (alpha_at q x y)) c -> mean_over P (fun a => dot (W a) (beta_at q x y)) d -> (forall a, P a -> spanned q x y (W a)) ->
  exists z, mean_vector P W z /\ spanned q x y z /\ c = dot z (alpha_at q x y) /\ d = dot z (beta_at q x y).
Proof.
  intros (l & N & I & Ne & ->) Hd Sp.
  assert (mean_over P (fun a => dot (W a) (beta_at q x y)) (rsum (fun a => dot (W a) (beta_at q x y)) l / INR (length l))) as Hd' by (exists l; auto).
  rewrite (mean_unique _ _ _ _ Hd Hd'). clear Hd Hd' d.
  exists (scale (/ INR (length l)) (vsum W l)). destruct (vsum_parts W l) as (A1 & A2 & A3).
  assert (forall z, dot (scale (/ INR (length l)) (vsum W l)) z = rsum (fun a => dot (W a) z) l / INR (length l))%R as Dz.
  { intros z. rewrite <- vsum_dot. destruct (vsum W l) as ((? & ?) & ?), z as ((? & ?) & ?). cbn [scale dot]. unfold Rdiv. ring. }
  split; [|split; [|split; symmetry; apply Dz]].
  - destruct (vsum W l) as ((a1 & a2) & a3). cbn [scale fst snd] in *. subst. split; [|split]; exists l; (split; [exact N|split; [exact I|split; [exact Ne|apply Rmult_comm]]]).
  - apply spanned_scale, vsum_spanned. intros a H. apply Sp, I, H.
Qed.
Lemma mean_vector_unique {A} (P : A -> Prop) (W : A -> vec3) z z' : mean_vector P W z -> mean_vector P W z' -> z = z'.
Proof.
  intros (A1 & A2 & A3) (B1 & B2 & B3). destruct z as ((? & ?) & ?), z' as ((? & ?) & ?). cbn [fst snd] in *.
  apply vec3_eq; eapply mean_unique; eauto.
Qed.
Lemma mean_vector_const {A} (P : A -> Prop) (W : A -> vec3) z z0 : mean_vector P W z -> (forall x, P x -> W x = z0) -> z = z0.
Proof.
  intros ((l & N & I & Ne & E1) & (l2 & N2 & I2 & Ne2 & E2) & (l3 & N3 & I3 & Ne3 & E3)) H.
  assert (forall (f : vec3 -> R) m, (forall x, In x m <-> P x) -> m <> [] -> (rsum (fun x => f (W x)) m / INR (length m))%R = f z0) as K.
  { intros f m Im Nm. assert (rsum (fun x => f (W x)) m = INR (length m) * f z0)%R as ->.
    { assert (forall x, In x m -> W x = z0) as Hm by (intros x Hx; apply H, Im, Hx). clear - Hm. induction m as [|a m IH]; [cbn; ring|].
      cbn [rsum fold_right length]. fold (rsum (fun x => f (W x)) m). rewrite S_INR, IH by (intros; apply Hm; right; assumption). rewrite (Hm a (or_introl eq_refl)). ring. }
    field. apply not_0_INR. destruct m; [contradiction|discriminate]. }
  rewrite (K (fun w => fst (fst w)) l I Ne) in E1. rewrite (K (fun w => snd (fst w)) l2 I2 Ne2) in E2. rewrite (K (fun w => snd w) l3 I3 Ne3) in E3.
  destruct z as ((? & ?) & ?), z0 as ((? & ?) & ?). cbn [fst snd] in *. congruence.
Qed.

(** the tangent vector with given components *)
Definition lift (p : Z) (x y c d : R) : vec3 :=
  plus (scale (((1 + y * y) * c + x * y * d) * (1 + x * x + y * y) / ((1 + x * x) * (1 + y * y))) (alpha_at p x y))
       (scale (((1 + x * x) * d + x * y * c) * (1 + x * x + y * y) / ((1 + x * x) * (1 + y * y))) (beta_at p x y)).
Lemma lift_ok p x y c d : panel p ->
  (exists a b, lift p x y c d = plus (scale a (alpha_at p x y)) (scale b (beta_at p x y))) /\
  c = dot (lift p x y c d) (alpha_at p x y) /\ d = dot (lift p x y c d) (beta_at p x y).
Proof.
  intros H. split; [do 2 eexists; reflexivity|]. pose proof (sqrt_lt_R0 _ (sq_pos x y)) as D0. pose proof (sqrt_sqrt _ (Rlt_le _ _ (sq_pos x y))) as D.
  pose proof (sq_pos1 x); pose proof (sq_pos1 y). unfold lift, alpha_at, beta_at. set (r := sqrt (1 + x * x + y * y)) in *.
  destruct (panel_cases p H) as [->|[->|[->|[->|[->| ->]]]]]; cbn; split; symmetry; field_simplify_eq; try (repeat split; nra); ring [D].
Qed.
Lemma same_components a b a' b' va vb v v' : v = plus (scale a va) (scale b vb) -> v' = plus (scale a' va) (scale b' vb) ->
  dot v va = dot v' va -> dot v vb = dot v' vb -> v = v'.
Proof.
  intros E E' Da Db.
  assert (dot (plus v (scale (-1) v')) (plus v (scale (-1) v')) = 0)%R as Z.
  { assert (forall z, dot z (plus v (scale (-1) v')) = (a - a') * dot z va + (b - b') * dot z vb)%R as L.
    { intros z. subst. destruct z as ((? & ?) & ?), va as ((? & ?) & ?), vb as ((? & ?) & ?). cbn. ring. }
    rewrite L. assert (forall z, dot (plus v (scale (-1) v')) z = dot v z - dot v' z)%R as L2.
    { intros z. destruct z as ((? & ?) & ?), v as ((? & ?) & ?), v' as ((? & ?) & ?). cbn. ring. }
    rewrite !L2, Da, Db. ring. }
  clear - Z. destruct v as ((x & y) & z), v' as ((x' & y') & z'). cbn in Z.
  assert (forall t t', ((t + -1 * t') * (t + -1 * t') <= 0)%R -> t = t') as K.
  { intros t t' H. pose proof (Rle_0_sqr (t + -1 * t')) as Q. unfold Rsqr in Q. destruct (Rmult_integral _ _ (Rle_antisym _ _ H Q)); lra. }
  pose proof (Rle_0_sqr (x + -1 * x')) as Q1. pose proof (Rle_0_sqr (y + -1 * y')) as Q2. pose proof (Rle_0_sqr (z + -1 * z')) as Q3. unfold Rsqr in Q1, Q2, Q3.
  apply vec3_eq; apply K; lra.
Qed.
