(** * C107: the patch of an output point *)
From Coq Require Import Reals ZArith List Bool Lia Lra.
From Coq Require Import ZifyBool.
From Verif Require Import QuadSpec QuadModel SpacModel SpacSpec SpacProps InterpModel InterpSpec ColSpec
  LayoutModel LayoutSpec LayoutProofs LayoutProps CsTransModel CsTransSpec CsTransProofs CsTransProps SampModel SampSpec SampProofs SampProps.
Import ListNotations.
Local Open Scope R_scope.

(** the coordinate arrays of a patch are equal elements *)
Theorem C107_coordinates : forall np d z s (halo : nat) e0 ne, (2 <= np <= 10)%Z -> 0 < d -> make_repeated d z np = Some s -> (0 <= e0)%Z -> (0 < ne)%Z ->
  equal_elements (Z.to_nat np) halo (Axis ne (edges s halo (e0 * np)%Z)) (z + IZR e0 * d) d (fun m => nth m (pts s) 0).
Proof.
  intros np d z s halo e0 ne Hnp Hd Es He Hne.
  destruct (make_ok np d z Hnp Hd) as (s' & Es' & _ & O & D & Z0 & L & _ & I & H0 & H1 & _).
  rewrite Es in Es'. injection Es' as <-.
  assert (forall e m, (0 <= e)%Z -> (m < Z.to_nat np)%nat -> repeated_node s (e * np + Z.of_nat m) = Value (z + IZR e * d + nth m (pts s) 0)) as N.
  { intros e m Pe Pm. rewrite <- O at 1. rewrite C37_repeated by lia. replace (e <? 0)%Z with false by lia. cbn [andb].
    unfold line_of. rewrite Z0, D. reflexivity. }
  assert (forall m, (m < Z.to_nat np)%nat -> 0 <= nth m (pts s) 0 <= d) as G.
  { intros m M. split.
    - destruct m as [|m]; [lra|]. pose proof (I 0%nat (S m) ltac:(lia)). lra.
    - destruct (Nat.eq_dec m (Z.to_nat (np - 1))) as [->|Nm]; [lra|]. pose proof (I m (Z.to_nat (np - 1)) ltac:(lia)). lra. }
  split; cbn [elements edge].
  - lia.
  - exact Hd.
  - exact Hne.
  - intros i j Hi Hj Nij. destruct (Nat.lt_total i j) as [Q|[Q|Q]]; [|lia|].
    + pose proof (I i j ltac:(lia)). lra.
    + pose proof (I j i ltac:(lia)). lra.
  - exact H0.
  - replace (Z.to_nat np - 1)%nat with (Z.to_nat (np - 1)) by lia. exact H1.
  - exact G.
  - intros e m Pe Pm. unfold edges.
    replace (e0 * np - Z.of_nat halo + Z.of_nat (halo + e * Z.to_nat np + m))%Z with ((e0 + Z.of_nat e) * np + Z.of_nat m)%Z by lia.
    rewrite N by lia. rewrite plus_IZR, <- INR_IZR_INZ. ring.
  - unfold edges.
    replace (e0 * np - Z.of_nat halo + Z.of_nat (halo + Z.to_nat ne * Z.to_nat np))%Z with ((e0 + ne) * np + Z.of_nat 0)%Z by lia.
    rewrite N by lia. rewrite plus_IZR, H0. ring.
Qed.
Print Assumptions C107_coordinates.

Lemma find_ok same np a0 da b0 db x y : forall bs n, (forall b, In b bs -> misaligned np b = false) ->
  (exists b, In b bs /\ same b = true /\ holds_point np a0 da b0 db b x y = true) ->
  exists k b, find_patch same np a0 da b0 db x y n bs = Patch (n + k) /\ nth_error bs k = Some b /\ same b = true /\
    holds_point np a0 da b0 db b x y = true.
Proof.
  induction bs as [|b bs IH]; intros n Al (b' & I & Sb & H); [destruct I|]. cbn [find_patch].
  assert ((exists k b1, find_patch same np a0 da b0 db x y (S n) bs = Patch (n + k) /\ nth_error (b :: bs) k = Some b1 /\ same b1 = true /\ holds_point np a0 da b0 db b1 x y = true)
    \/ (same b = true /\ holds_point np a0 da b0 db b x y = true)) as [K|(S1 & H1)].
  - destruct I as [->|I]; [right; auto|left].
    destruct (IH (S n)) as (k & b1 & F & N & S1 & H1); [intros; apply Al; right; assumption|exists b'; auto|].
    exists (S k), b1. rewrite F. split; [f_equal; lia|]. auto.
  - rewrite (Al b (or_introl eq_refl)). destruct (same b) eqn:S1; cbn [negb]; [|exact K].
    destruct (holds_point np a0 da b0 db b x y) eqn:H1; [|exact K].
    exists 0%nat, b. rewrite Nat.add_0_r. auto.
  - rewrite S1, H1, (Al b (or_introl eq_refl)). cbn [negb]. exists 0%nat, b. rewrite Nat.add_0_r. auto.
Qed.
Lemma aligned_ok np b : (0 < np)%Z -> aligned np b -> misaligned np b = false.
Proof.
  intros P (A & B & C & D). unfold misaligned, a_int_begin, a_int_end, b_int_begin, b_int_end.
  assert (np <> 0)%Z as NZ by lia. rewrite (proj2 (Z.rem_divide _ _ NZ) A), (proj2 (Z.rem_divide _ _ NZ) B), (proj2 (Z.rem_divide _ _ NZ) C), (proj2 (Z.rem_divide _ _ NZ) D). reflexivity.
Qed.
(** the element of a point of a line of equal elements *)
Lemma line_element a0 d res x : 0 < d -> (0 < res)%Z -> a0 <= x <= a0 + IZR res * d ->
  exists e, (0 <= e < res)%Z /\ a0 + IZR e * d <= x <= a0 + IZR (e + 1) * d.
Proof.
  intros D P R. pose proof (IZR_lt 0 res P) as PR.
  set (q := (x - a0) / d). assert (x = a0 + q * d) as X by (unfold q; field; lra).
  assert (0 <= q) as Q by (unfold q; apply Rmult_le_pos; [lra|left; apply Rinv_0_lt_compat, D]). clearbody q. subst x.
  pose proof (trunc_nonneg0 q Q) as T. destruct (trunc_nonneg q Q) as (T1 & T2).
  destruct (Z_lt_dec (trunc q) res) as [C|C].
  - exists (trunc q). split; [lia|]. rewrite plus_IZR. split; nra.
  - exists (res - 1)%Z. split; [lia|]. assert (q <= IZR res) by (apply Rmult_le_reg_r with d; [exact D|lra]).
    assert (IZR res <= IZR (trunc q)) by (apply IZR_le; lia). assert (q = IZR res) as -> by lra.
    replace (res - 1 + 1)%Z with res by lia. rewrite minus_IZR. split; nra.
Qed.
(** any tiling of a panel by aligned boxes holds every point of the panel *)
Lemma tiling_holds np resA resB bs dom p a0 da b0 db x y : (0 < np)%Z -> (0 < resA)%Z -> (0 < resB)%Z -> 0 < da -> 0 < db ->
  tiles bs dom -> (forall b, In b bs -> aligned np b) ->
  (forall i j, dom p i j <-> (0 <= i < np * resA)%Z /\ (0 <= j < np * resB)%Z) ->
  a0 <= x <= a0 + IZR resA * da -> b0 <= y <= b0 + IZR resB * db ->
  exists b, In b bs /\ bpanel b = p /\ holds_point np a0 da b0 db b x y = true.
Proof.
  intros Pn PA PB Da Db (T1 & T2) Al Dom Rx Ry.
  destruct (line_element a0 da resA x Da PA Rx) as (e & He & Ex). destruct (line_element b0 db resB y Db PB Ry) as (f & Hf & Ey).
  destruct (T1 p (e * np) (f * np))%Z as (k & (b & Pk & Nk & Ib) & _). { apply Dom. nia. }
  pose proof (nth_error_In _ _ Nk) as InB. exists b. split; [exact InB|]. destruct Ib as (Pb & Ia & Ib). split; [exact Pb|].
  destruct (Al b InB) as ((u & U) & (v & V) & (w & W) & (z & Z1)).
  assert (dom p (u * np) (f * np))%Z as D1. { apply (T2 p _ _ k). exists b. split; [exact Pk|]. split; [exact Nk|]. split; [exact Pb|]. split; [rewrite <- U; nia|exact Ib]. }
  assert (dom p (e * np) (w * np))%Z as D2. { apply (T2 p _ _ k). exists b. split; [exact Pk|]. split; [exact Nk|]. split; [exact Pb|]. split; [exact Ia|rewrite <- W; nia]. }
  apply Dom in D1, D2. destruct D1 as (D1 & _). destruct D2 as (_ & D2).
  assert (u <= e < v)%Z as UV. { rewrite U, V in Ia. split; nia. }
  assert (w <= f < z)%Z as WZ. { rewrite W, Z1 in Ib. split; nia. }
  assert (0 <= u)%Z by nia. assert (0 <= w)%Z by nia.
  unfold holds_point, a_int_begin, a_int_end, b_int_begin, b_int_end. cbv zeta. rewrite U, V, W, Z1, !Z.quot_mul by lia.
  assert (IZR u <= IZR e) by (apply IZR_le; lia). assert (IZR (e + 1) <= IZR v) by (apply IZR_le; lia).
  assert (IZR w <= IZR f) by (apply IZR_le; lia). assert (IZR (f + 1) <= IZR z) by (apply IZR_le; lia).
  rewrite !andb_true_iff, !ler_true. repeat split; nra.
Qed.
(** a box that holds a point: its coordinate arrays do as well *)
Lemma box_range np halo a0 d s b0 b1 x : (2 <= np <= 10)%Z -> 0 < d -> make_repeated d a0 np = Some s -> (0 <= b0 < b1)%Z -> (np | b0)%Z -> (np | b1)%Z ->
  a0 + IZR (Z.quot b0 np) * d <= x <= a0 + IZR (Z.quot b1 np) * d ->
  let ax := Axis (Z.quot (b1 - b0) np) (edges s halo b0) in
  equal_elements (Z.to_nat np) halo ax (a0 + IZR (Z.quot b0 np) * d) d (fun m => nth m (pts s) 0) /\ in_range (Z.to_nat np) halo ax x = true.
Proof.
  intros Hnp Hd Es P (u & ->) (v & ->) R ax. subst ax.
  replace (v * np - u * np)%Z with ((v - u) * np)%Z by ring. rewrite !Z.quot_mul in * by lia.
  assert (0 <= u < v)%Z as Q by nia.
  pose proof (C107_coordinates np d a0 s halo u (v - u) Hnp Hd Es ltac:(lia) ltac:(lia)) as E. split; [exact E|].
  apply (range_iff _ _ _ _ _ _ E). cbn [elements]. rewrite minus_IZR. pose proof eps_pos. nra.
Qed.

Lemma holds_iff np a0 da b0 db b x y : holds_point np a0 da b0 db b x y = true <->
  (a0 + IZR (Z.quot (a_int_begin b) np) * da <= x <= a0 + IZR (Z.quot (a_int_end b) np) * da) /\
  (b0 + IZR (Z.quot (b_int_begin b) np) * db <= y <= b0 + IZR (Z.quot (b_int_end b) np) * db).
Proof. unfold holds_point. cbv zeta. rewrite !andb_true_iff, !ler_true. tauto. Qed.
Lemma atan_range x : Rabs x <= 1 -> - PI / 4 <= atan x <= PI / 4.
Proof.
  intros H. assert (-1 <= x <= 1) as (L & U). { unfold Rabs in H. destruct (Rcase_abs x); lra. }
  assert (- PI / 4 = atan (-1)) as -> by (replace (-1) with (- (1)) by ring; rewrite atan_opp, atan_1; field).
  rewrite <- atan_1. split.
  - destruct L as [L|L]; [left; apply atan_increasing, L|right; f_equal; lra].
  - destruct U as [U|U]; [left; apply atan_increasing, U|right; f_equal; lra].
Qed.

(** ** cubed sphere: every point of the globe is found, in a patch of its panel
    whose coordinate arrays hold it, so that the interpolation of C106 goes
    through *)
Theorem C107_cubed_sphere : forall maxp np halo res ninit n bs s lon lat,
  (0 <= n < 2 ^ 31)%Z -> (0 < res)%Z -> (2 <= np <= 10)%Z ->
  cs_layout maxp np halo res ninit n = LOk bs -> make_repeated (PI / 2 / IZR res) (- (PI / 4)) np = Some s ->
  exists a b k bx, cs_convert np res bs lon lat = Val (a, b, Patch k) /\ nth_error bs k = Some bx /\
    - PI / 4 <= a <= PI / 4 /\ - PI / 4 <= b <= PI / 4 /\
    sphere_point (bpanel bx) (tan a) (tan b) = geo_point (lon * PI / 180) (lat * PI / 180) /\
    let axa := Axis (Z.quot (width_a bx) np) (edges s (Z.to_nat halo) (a_int_begin bx)) in
    let axb := Axis (Z.quot (width_b bx) np) (edges s (Z.to_nat halo) (b_int_begin bx)) in
    (exists a0, equal_elements (Z.to_nat np) (Z.to_nat halo) axa a0 (PI / 2 / IZR res) (fun m => nth m (pts s) 0)) /\
    (exists b0, equal_elements (Z.to_nat np) (Z.to_nat halo) axb b0 (PI / 2 / IZR res) (fun m => nth m (pts s) 0)) /\
    in_range (Z.to_nat np) (Z.to_nat halo) axa a = true /\ in_range (Z.to_nat np) (Z.to_nat halo) axb b = true.
Proof.
  intros maxp np halo res ninit n bs s lon lat Hn Hr Hnp Lay Es.
  destruct (C35_from_lonlat (lon * PI / 180) (lat * PI / 180)) as (x & y & p & Exy & Hp & Bx & By & SP).
  destruct (C16_tiles maxp np halo res ninit n bs Hn ltac:(lia) ltac:(lia) Lay) as (T & _).
  destruct (C16_equal_aligned maxp np halo res ninit n bs Hn ltac:(lia) ltac:(lia) Lay) as (w & Hw & Wid).
  assert (0 < w)%Z as Pw. { clear -Hw Hr. pose proof (Z.le_max_l 1 (Z.sqrt (n / 6))). set (P := Z.max _ _) in *. nia. }
  assert (0 < np * w)%Z as Pnw by (apply Z.mul_pos_pos; lia).
  pose proof PI_RGT_0 as PP. assert (0 < IZR res) as Rr by (apply IZR_lt; lia).
  assert (0 < PI / 2 / IZR res) as Hd. { apply Rmult_lt_0_compat; [lra|apply Rinv_0_lt_compat, Rr]. }
  set (d := PI / 2 / IZR res) in *. assert (1 / 2 * PI / IZR res = d) as Ed by (unfold d; field; lra).
  assert (IZR res * d = PI / 2) as Erd by (unfold d; field; lra).
  pose proof (atan_range x Bx) as Ax. pose proof (atan_range y By) as Ay.
  assert (- (1 / 4) * PI = - (PI / 4)) as Ez by field.
  assert (forall b, In b bs -> aligned np b) as Al by (intros b0 I; apply (Wid b0 I)).
  destruct (tiling_holds np res res bs _ p (- (PI / 4)) d (- (PI / 4)) d (atan x) (atan y) ltac:(lia) Hr Hr Hd Hd T Al) as (b & Ib & Pb & Hb).
  - intros i j. unfold cs_domain. unfold panel in Hp. split; [tauto|]. intros (A & B). repeat split; lia.
  - rewrite Erd. lra.
  - rewrite Erd. lra.
  - destruct (find_ok (fun bx => (p =? bpanel bx)%Z) np (- (PI / 4)) d (- (PI / 4)) d (atan x) (atan y) bs 0
      (fun b' I => aligned_ok np b' ltac:(lia) (Al b' I))) as (k & bx & F & Nk & Sx & Hx).
    { exists b. split; [exact Ib|]. split; [rewrite Pb; apply Z.eqb_refl|exact Hb]. }
    cbn [Nat.add] in F. apply Z.eqb_eq in Sx. pose proof (nth_error_In _ _ Nk) as Ix.
    destruct (Wid bx Ix) as (Wa & Wb & (D1 & D2 & D3 & D4) & Hh & _).
    apply holds_iff in Hx. destruct Hx as (Ha & Hb').
    assert (cs_domain (np * res) p (a_int_begin bx) (b_int_begin bx)) as Dm.
    { apply (proj2 T p _ _ (Z.of_nat k)). exists bx. split; [lia|]. rewrite Nat2Z.id. split; [exact Nk|].
      unfold in_box, a_int_begin, b_int_begin. split; [auto|]. clear -Wa Wb Pnw. unfold width_a, width_b in *. lia. }
    destruct Dm as (_ & DA & DB).
    unfold width_a, width_b in Wa, Wb.
    assert (width_a bx = a_int_end bx - a_int_begin bx)%Z as Q by (unfold width_a, a_int_end, a_int_begin; lia).
    assert (width_b bx = b_int_end bx - b_int_begin bx)%Z as Q' by (unfold width_b, b_int_end, b_int_begin; lia).
    assert (a_int_begin bx < a_int_end bx)%Z as LA by (clear -Wa Pnw; unfold a_int_begin, a_int_end; lia).
    assert (b_int_begin bx < b_int_end bx)%Z as LB by (clear -Wb Pnw; unfold b_int_begin, b_int_end; lia).
    destruct (box_range np (Z.to_nat halo) (- (PI / 4)) d s (a_int_begin bx) (a_int_end bx) (atan x) Hnp Hd Es ltac:(clear -DA LA; lia) D1 D2 Ha) as (EA & RA).
    destruct (box_range np (Z.to_nat halo) (- (PI / 4)) d s (b_int_begin bx) (b_int_end bx) (atan y) Hnp Hd Es ltac:(clear -DB LB; lia) D3 D4 Hb') as (EB & RB).
    exists (atan x), (atan y), k, bx. split.
    { unfold cs_convert, abp_from_rll. rewrite Exy. cbv zeta. rewrite Ed, Ez, F. reflexivity. }
    split; [exact Nk|]. split; [exact Ax|]. split; [exact Ay|]. split; [rewrite !tan_atan, <- Sx; exact SP|].
    cbv zeta. rewrite Q, Q'. split; [eexists; exact EA|]. split; [eexists; exact EB|]. split; [exact RA|exact RB].
Qed.
Print Assumptions C107_cubed_sphere.

(** ** Cartesian: the same for every point of the closed domain, provided no patch
    is empty *)
Theorem C107_cartesian_partial : forall maxp np halo resA resB ninit n bs sa sb g0 g1 g2 g3 x y,
  (0 < resA)%Z -> (0 < resB)%Z -> (2 <= np <= 10)%Z -> (n <= resA)%Z -> g0 < g1 -> g2 < g3 ->
  cart_layout maxp np halo resA resB ninit n = LOk bs ->
  make_repeated ((g1 - g0) / IZR resA) g0 np = Some sa -> make_repeated ((g3 - g2) / IZR resB) g2 np = Some sb ->
  g0 <= x <= g1 -> g2 <= y <= g3 ->
  exists k bx, cart_convert np resA resB g0 g1 g2 g3 bs x y = Patch k /\ nth_error bs k = Some bx /\
    let axa := Axis (Z.quot (width_a bx) np) (edges sa (Z.to_nat halo) (a_int_begin bx)) in
    let axb := Axis (Z.quot (width_b bx) np) (edges sb (Z.to_nat halo) (b_int_begin bx)) in
    (exists a0, equal_elements (Z.to_nat np) (Z.to_nat halo) axa a0 ((g1 - g0) / IZR resA) (fun m => nth m (pts sa) 0)) /\
    (exists b0, equal_elements (Z.to_nat np) (Z.to_nat halo) axb b0 ((g3 - g2) / IZR resB) (fun m => nth m (pts sb) 0)) /\
    in_range (Z.to_nat np) (Z.to_nat halo) axa x = true /\ in_range (Z.to_nat np) (Z.to_nat halo) axb y = true.
Proof.
  intros maxp np halo resA resB ninit n bs sa sb g0 g1 g2 g3 x y PA PB Hnp Hn G1 G2 Lay Ea Eb Rx Ry.
  destruct (C17_tiles maxp np halo resA resB ninit n bs ltac:(lia) ltac:(lia) ltac:(lia) Lay) as (T & _ & Wid).
  pose proof (proj1 (C17_nonempty maxp np halo resA resB ninit n bs ltac:(lia) PB ltac:(lia) Lay) Hn) as NEm.
  assert (0 < IZR resA) as RA0 by (apply IZR_lt; lia). assert (0 < IZR resB) as RB0 by (apply IZR_lt; lia).
  assert (0 < (g1 - g0) / IZR resA) as Ha by (apply Rmult_lt_0_compat; [lra|apply Rinv_0_lt_compat, RA0]).
  assert (0 < (g3 - g2) / IZR resB) as Hb by (apply Rmult_lt_0_compat; [lra|apply Rinv_0_lt_compat, RB0]).
  assert (IZR resA * ((g1 - g0) / IZR resA) = g1 - g0) as Xa by (field; lra).
  assert (IZR resB * ((g3 - g2) / IZR resB) = g3 - g2) as Xb by (field; lra).
  unfold cart_convert. set (da := (g1 - g0) / IZR resA) in *. set (db := (g3 - g2) / IZR resB) in *.
  assert (forall b, In b bs -> aligned np b) as Al by (intros b0 I; apply (Wid b0 I)).
  destruct (tiling_holds np resA resB bs _ 0%Z g0 da g2 db x y ltac:(lia) PA PB Ha Hb T Al) as (b & Ib & Pb & Hx).
  - intros i j. unfold cart_domain. split; [tauto|]. intros (A & B). repeat split; lia.
  - lra.
  - lra.
  - destruct (find_ok (fun _ => true) np g0 da g2 db x y bs 0 (fun b' I => aligned_ok np b' ltac:(lia) (Al b' I))) as (k & bx & F & Nk & _ & Hk).
    { exists b. auto. }
    cbn [Nat.add] in F. pose proof (nth_error_In _ _ Nk) as Ix. exists k, bx. split; [exact F|]. split; [exact Nk|].
    destruct (Wid bx Ix) as ((D1 & D2 & D3 & D4) & _ & _). destruct (NEm bx Ix) as (LA & LB).
    apply holds_iff in Hk. destruct Hk as (Ka & Kb).
    assert (exists p, cart_domain (np * resA) (np * resB) p (a_int_begin bx) (b_int_begin bx)) as (p & _ & DA & DB).
    { exists (bpanel bx). apply (proj2 T (bpanel bx) _ _ (Z.of_nat k)). exists bx. split; [lia|]. rewrite Nat2Z.id. split; [exact Nk|].
      unfold in_box, a_int_begin, b_int_begin. split; [auto|]. unfold width_a, width_b in *. lia. }
    assert (width_a bx = a_int_end bx - a_int_begin bx)%Z as Q by (unfold width_a, a_int_end, a_int_begin; lia).
    assert (width_b bx = b_int_end bx - b_int_begin bx)%Z as Q' by (unfold width_b, b_int_end, b_int_begin; lia).
    rewrite Q, Q' in *.
    destruct (box_range np (Z.to_nat halo) g0 da sa (a_int_begin bx) (a_int_end bx) x Hnp Ha Ea ltac:(lia) D1 D2 Ka) as (EA & RA).
    destruct (box_range np (Z.to_nat halo) g2 db sb (b_int_begin bx) (b_int_end bx) y Hnp Hb Eb ltac:(lia) D3 D4 Kb) as (EB & RB).
    cbv zeta. split; [eexists; exact EA|]. split; [eexists; exact EB|]. split; [exact RA|exact RB].
Qed.
Print Assumptions C107_cartesian_partial.

(** with more patches than elements the default layout has empty patches; the
    first one holds the corner of the domain, and there the index of the first
    node is negative *)
Theorem C107_empty_refuted : exists bs bx s, cart_layout 4 4 1 2 2 0 4 = LOk bs /\
  cart_convert 4 2 2 0 2 0 2 bs 0 0 = Patch 0 /\ nth_error bs 0 = Some bx /\ make_repeated 1 0 4 = Some s /\
  forall ty c inc prim data ref dr,
    sample 4 1 ty c inc prim (Axis (Z.quot (width_a bx) 4) (edges s 1 (a_int_begin bx)))
      (Axis (Z.quot (width_b bx) 4) (edges s 1 (b_int_begin bx))) data ref dr 0 0 = OutOfBounds.
Proof.
  destruct (make_ok 4 1 0 ltac:(lia) ltac:(lra)) as (s & Es & _ & O & D & Z0 & L & _ & I & H0 & H1 & _).
  do 2 eexists. exists s. split; [vm_compute; reflexivity|]. split.
  { unfold cart_convert. cbn [find_patch negb]. match goal with |- context [misaligned ?n ?b] => change (misaligned n b) with false end.
    match goal with |- context [holds_point ?n ?a ?d ?b ?e ?bx ?x ?y] => replace (holds_point n a d b e bx x y) with true end; [reflexivity|].
    symmetry. apply holds_iff. cbn. lra. }
  split; [reflexivity|]. split; [exact Es|]. intros ty c inc prim data ref dr. unfold sample.
  assert (forall i, edges s 1 0 (S i) = match repeated_node s (Z.of_nat i) with Value x => x | _ => 0 end) as Ed.
  { intros i. unfold edges. replace (0 - Z.of_nat 1 + Z.of_nat (S i))%Z with (Z.of_nat i) by lia. reflexivity. }
  assert (edges s 1 0 1 = 0) as E0.
  { rewrite Ed. pose proof (C37_repeated s 0 0 ltac:(lia) ltac:(lia) ltac:(lia)) as K. rewrite O in K. cbn in K. cbn. rewrite K. unfold line_of. rewrite Z0, H0. ring. }
  assert (edges s 1 0 9 = 2) as E9.
  { rewrite Ed. pose proof (C37_repeated s 2 0 ltac:(lia) ltac:(lia) ltac:(lia)) as K. rewrite O in K. cbn in K. cbn. rewrite K. unfold line_of. rewrite Z0, H0, D. ring. }
  assert (in_range 4 1 (Axis 0 (edges s 1 0)) 0 = true) as R0.
  { unfold in_range. cbn [elements edge]. change (Z.to_nat 0) with 0%nat. cbn [Nat.mul Nat.add]. rewrite E0. rewrite negb_true_iff, orb_false_iff, !ltr_false. pose proof eps_pos. lra. }
  assert (in_range 4 1 (Axis 2 (edges s 1 0)) 0 = true) as R2.
  { unfold in_range. cbn [elements edge]. change (1 + Z.to_nat 2 * 4)%nat with 9%nat. rewrite E0, E9. rewrite negb_true_iff, orb_false_iff, !ltr_false. pose proof eps_pos. lra. }
  match goal with |- context [Axis (Z.quot (width_a ?b) 4) (edges s 1 (a_int_begin ?b))] =>
    change (Axis (Z.quot (width_a b) 4) (edges s 1 (a_int_begin b))) with (Axis 0 (edges s 1 0));
    change (Axis (Z.quot (width_b b) 4) (edges s 1 (b_int_begin b))) with (Axis 2 (edges s 1 0)) end.
  rewrite R0, R2. cbn [andb negb].
  assert (offset 4 1 (Axis 0 (edges s 1 0)) 0 = -3)%Z as ->; [|reflexivity].
  unfold offset, element. cbv zeta. cbn [elements edge]. rewrite E0. replace ((0 - 0) / _) with 0 by (unfold Rdiv; ring).
  pose proof (trunc_nonneg0 0 ltac:(lra)). destruct (trunc_nonneg 0 ltac:(lra)) as (T & _). apply le_IZR in T.
  replace (trunc 0) with 0%Z by lia. reflexivity.
Qed.
Print Assumptions C107_empty_refuted.

(** ** the values gathered on the first rank: each point has the value computed by
    its patch, however many ranks there are *)
Theorem C107_gather : forall rows size patch v, (0 <= patch < rows)%Z -> (0 < size)%Z ->
  reduced patch v (map (activated rows size) (zseq size)) = v patch.
Proof.
  intros rows size patch v Hp Hs. destruct (C18_one_rank rows size patch Hp Hs) as (r & Hr & Ir & _ & Un).
  assert (forall l acc, ~ In patch l -> fold_left (fun acc n => if (patch =? n)%Z then v n else acc) l acc = acc) as Out.
  { induction l as [|n l IH]; intros acc N; [reflexivity|]. cbn. destruct (Z.eqb_spec patch n) as [->|Q]; [exfalso; apply N; left; reflexivity|].
    apply IH. intros K. apply N. right. exact K. }
  assert (forall l acc, In patch l \/ acc = v patch -> fold_left (fun acc n => if (patch =? n)%Z then v n else acc) l acc = v patch) as Inn.
  { induction l as [|n l IH]; intros acc [K|K]; cbn; try (destruct K; fail); [exact K| |].
    - destruct (Z.eqb_spec patch n) as [->|Q]; apply IH; [right; reflexivity|]. destruct K as [->|K]; [congruence|left; exact K].
    - destruct (Z.eqb_spec patch n) as [->|Q]; apply IH; right; [reflexivity|exact K]. }
  assert (forall l, ~ In patch l -> rank_entry patch v l = 0) as RO by (intros; apply Out; assumption).
  assert (forall l, In patch l -> rank_entry patch v l = v patch) as RI by (intros; apply Inn; left; assumption).
  destruct (zseq_split size r Hr) as (l1 & l2 & Sp & Ex). unfold reduced. rewrite Sp, !map_app. cbn [map].
  assert (forall l, (forall q, In q l -> q <> r) -> fold_right Rplus 0 (map (rank_entry patch v) (map (activated rows size) l)) = 0) as Zero.
  { induction l as [|q l IH]; intros N; [reflexivity|]. cbn. rewrite IH by (intros; apply N; right; assumption).
    rewrite RO; [ring|]. intros K. apply (N q (or_introl eq_refl)), Un, K. }
  rewrite fold_right_app. cbn [fold_right]. rewrite (Zero l2).
  - rewrite (RI _ Ir).
    assert (forall l x, fold_right Rplus x l = fold_right Rplus 0 l + x) as Fr by (induction l as [|z l IH]; intros x; cbn; [ring|rewrite IH; ring]).
    rewrite Fr, (Zero l1); [ring|]. intros q Iq ->. pose proof (zseq_nodup size) as ND. rewrite Sp in ND. apply NoDup_remove_2 in ND. apply ND, in_or_app. left. exact Iq.
  - intros q Iq ->. pose proof (zseq_nodup size) as ND. rewrite Sp in ND. apply NoDup_remove_2 in ND. apply ND, in_or_app. right. exact Iq.
Qed.
Print Assumptions C107_gather.
Example C107_case : reduced 5 (fun n => IZR n * 10) [activated 6 4 0; activated 6 4 1; activated 6 4 2; activated 6 4 3] = 50.
Proof. change [activated 6 4 0; activated 6 4 1; activated 6 4 2; activated 6 4 3] with (map (activated 6 4) (zseq 4)). rewrite C107_gather by lia. ring. Qed.
(** the layout of C16_case carries four elements per point of a panel *)
Example C107_found : exists bs s, cs_layout 24 4 1 6 0 24 = LOk bs /\ make_repeated (PI / 2 / 6) (- (PI / 4)) 4 = Some s /\
  exists a b k, cs_convert 4 6 bs 30 45 = Val (a, b, Patch k).
Proof.
  destruct C16_case as (bs & Lay & _). pose proof PI_RGT_0.
  destruct (make_ok 4 (PI / 2 / 6) (- (PI / 4)) ltac:(lia) ltac:(lra)) as (s & Es & _). exists bs, s. split; [exact Lay|]. split; [exact Es|].
  destruct (C107_cubed_sphere 24 4 1 6 0 24 bs s 30 45 ltac:(lia) ltac:(lia) ltac:(lia) Lay Es) as (a & b & k & bx & E & _). eauto.
Qed.
