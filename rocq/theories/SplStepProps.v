(** * The acoustic steps of the split explicit dynamics: theorems *)
From Coq Require Import FunctionalExtensionality.
From Coq Require Import ZArith Reals List Bool Lia Lra.
From Verif Require Import QuadModel ShallowModel ShallowSpec ShallowProofs ShallowProps ViscModel ViscSpec ViscProofs
  NonhSpec NonhProofs HsModel HsSpec HsProofs HsProps HsExplProps SplModel SplSpec SplProofs SplProps.
From Verif Require PhysModel PhysProps.
Import ListNotations.
Local Open Scope R_scope.
Local Notation z := Z.of_nat.
Local Ltac reference n Hn HB B w W HD HA :=
  let B' := fresh in let E := fresh in
  destruct (C55_reference n Hn) as (B' & w & E & W & Sy & HD & HA);
  rewrite HB in E; injection E as <-; exists w; split; [exact W|]; clear Sy.

(** ** C120, continued: the conditions of C120_column cannot be left out *)
Theorem C120_refuted : forall grav n B G N init th s ten bs bd dt h nA nB a0 a1 o X oldA a b i j,
  (a < nA)%nat -> (b < nB)%nat -> (i < n)%nat -> (j < n)%nat -> (0 < N)%nat -> dt <> 0 -> bs <> -1 ->
  let x := node_x n h a i in let y := node_y n h b j in
  let aft := after n B G N init th s ten bs bd dt h nA nB a0 a1 o X in
  clean N (oldA x y) -> deep N G x y ->
  loop_solves grav n B G N init th s ten bs bd dt h nA nB oldA a0 a1 o X x y ->
  (exists k, (0 < k < N)%nat /\ along G aft x y k <> along G (st a1) x y k) \/
  (exists k, (S k < N)%nat /\ amiss n B G N init th s ten bs bd dt h nA nB a0 a1 o a b i j (S k) <>
                              amiss n B G N init th s ten bs bd dt h nA nB a0 a1 o a b i j k) ->
  ~ meets grav n B G N init th s ten bs bd dt h nA nB a0 a1 o X a b i j (fun k => nW a1 k x y).
Proof.
  intros grav n B G N init th s ten bs bd dt h nA nB a0 a1 o X oldA a b i j Ha Hb Hi Hj HN Hdt Hbs x y aft A L H F M.
  unfold x, y in H. rewrite solves_w in H by assumption. fold x y in H. destruct H as (X0 & XN & H).
  unfold meets, offcentred in M. cbv zeta in M. fold x y in M. fold aft in M. destruct M as (_ & _ & MR & _ & MW).
  destruct F as [[k [Hk F]]|[k [Hk F]]].
  - pose (m := fun l k => between bs (crossing N (fun k => nW a1 k x y) (along G (st a1) x y) k) (crossing N (fun k => X k x y) l k)).
    assert (E : forall k, (k <= N)%nat -> m (along G aft x y) k = m (along G (st a1) x y) k).
    { induction k0 as [|k0 IH]; intro K; [reflexivity|]. specialize (IH ltac:(lia)).
      pose proof (mass_w n B G N init th s ten bs bd dt h nA nB a0 a1 o X a b i j Ha Hb Hi Hj HN Hdt L k0 ltac:(lia) X0 XN) as [Q _]. cbv zeta in Q.
      fold x y in Q. fold aft in Q. rewrite (MR k0 ltac:(lia)) in Q.
      change (drive_r n B G N init th s ten bs bd dt h nA nB a0 a1 o X a b i j k0 - (m (along G aft x y) (S k0) - m (along G aft x y) k0) / (Zi G (S k0) x y - Zi G k0 x y) =
              drive_r n B G N init th s ten bs bd dt h nA nB a0 a1 o X a b i j k0 - (m (along G (st a1) x y) (S k0) - m (along G (st a1) x y) k0) / (Zi G (S k0) x y - Zi G k0 x y)) in Q.
      rewrite IH in Q. destruct L as [Lz _]. specialize (Lz k0 ltac:(lia)). fold x y in Lz.
      clear -Q Lz. set (d := Zi G (S k0) x y - Zi G k0 x y) in *. clearbody d.
      apply (f_equal (fun v => (drive_r n B G N init th s ten bs bd dt h nA nB a0 a1 o X a b i j k0 - v) * d)) in Q.
      match type of Q with ?l = ?r => 
        assert (Ql : l = m (along G aft x y) (S k0) - m (along G (st a1) x y) k0) by (field; exact Lz);
        assert (Qr : r = m (along G (st a1) x y) (S k0) - m (along G (st a1) x y) k0) by (field; exact Lz) end.
      rewrite Ql, Qr in Q. lra. }
    specialize (E k ltac:(lia)). unfold m, between, crossing in E.
    destruct (Nat.eqb_spec k 0); [lia|]. destruct (Nat.eqb_spec k N); [lia|].
    apply F. apply (Rmult_eq_reg_l ((1 + bs) / 2)); [|lra]. lra.
  - specialize (H k Hk). specialize (MW k Hk). unfold w_row in H. fold x y in H. fold aft in H. rewrite MW in H.
    destruct L as [_ Ln]. specialize (Ln k Hk). fold x y in Ln.
    set (d := Zn G (S k) x y - Zn G k x y) in *. clearbody d.
    match type of H with ?l = ?r + ?t => assert (T : t = 0) by lra end. clear -T F Hbs Ln.
    apply Rmult_integral in T. destruct T as [T|T]; [lra|].
    apply F. apply Rminus_diag_uniq. apply (Rmult_eq_reg_r (/ d)); [|apply Rinv_neq_0_compat; exact Ln]. unfold Rdiv in T. lra.
Qed.
Print Assumptions C120_refuted.

(** the former rho w is not read: the step is the same whatever it was *)
Definition with_W (a : inst) (w : field3) : inst := Inst (Hstate (hU (st a)) (hV (st a)) (hP (st a)) (hR (st a)) w) (nW a).
Theorem C120_stale : forall grav n B G N init th s ten bs bd dt h nA nB a0 a1 o X oldA w w' x y,
  acoustic_loop n B G N init th s ten bs bd dt h nA nB (with_W a0 w) (with_W a1 w') o X =
  acoustic_loop n B G N init th s ten bs bd dt h nA nB a0 a1 o X /\
  (loop_solves grav n B G N init th s ten bs bd dt h nA nB oldA (with_W a0 w) (with_W a1 w') o X x y <->
   loop_solves grav n B G N init th s ten bs bd dt h nA nB oldA a0 a1 o X x y).
Proof. intros. split; reflexivity. Qed.
Print Assumptions C120_stale.
(** and so the off-centred step from the former rho w is not taken, unless the unused
    array happens to hold that rho w *)
Theorem C120_stale_refuted : forall grav n B G N init th s ten bs bd dt h nA nB a0 a1 o X oldA a b i j,
  (a < nA)%nat -> (b < nB)%nat -> (i < n)%nat -> (j < n)%nat -> (0 < N)%nat -> dt <> 0 ->
  let x := node_x n h a i in let y := node_y n h b j in
  clean N (oldA x y) -> deep N G x y ->
  (forall k, (S k < N)%nat -> amiss n B G N init th s ten bs bd dt h nA nB a0 a1 o a b i j (S k) =
                              amiss n B G N init th s ten bs bd dt h nA nB a0 a1 o a b i j k) ->
  loop_solves grav n B G N init th s ten bs bd dt h nA nB oldA a0 a1 o X x y ->
  meets grav n B G N init th s ten bs bd dt h nA nB a0 a1 o X a b i j (fun k => hW (st a1) k x y) ->
  forall k, (0 < k < N)%nat -> hW (st a1) k x y = nW a1 k x y.
Proof.
  intros grav n B G N init th s ten bs bd dt h nA nB a0 a1 o X oldA a b i j Ha Hb Hi Hj HN Hdt x y A L HP H M k Hk.
  unfold x, y in H. rewrite solves_w in H by assumption. fold x y in H. destruct H as (X0 & XN & H).
  unfold meets, offcentred in M. cbv zeta in M. fold x y in M. destruct M as (_ & _ & _ & _ & MW).
  destruct k as [|k]; [lia|]. specialize (H k ltac:(lia)). specialize (MW k ltac:(lia)). unfold w_row in H. fold x y in H.
  rewrite (HP k ltac:(lia)) in H.
  match type of H with ?l = ?r + ?t => assert (T : t = 0) by (unfold Rdiv; ring); rewrite T, Rplus_0_r in H end.
  rewrite <- MW in H. apply (f_equal (fun v => v * dt)) in H. unfold Rdiv in H. rewrite !Rmult_assoc, Rinv_l, !Rmult_1_r in H by exact Hdt. lra.
Qed.
Print Assumptions C120_stale_refuted.

(** ** C121: budgets of one acoustic step *)
Theorem C121_mass : forall n B, (2 <= n <= 10)%nat -> gll_basis n = Some B -> exists w, weights_of n (bW B) w /\
  forall grav G N init th s ten bs bd dt h nA nB a0 a1 o X oldA a b V, (a < nA)%nat -> (b < nB)%nat -> (0 < N)%nat -> volumes n h a b N G V ->
  in_element n h a b (fun x y => clean N (oldA x y) /\ loop_solves grav n B G N init th s ten bs bd dt h nA nB oldA a0 a1 o X x y) ->
  let a2 := st (acoustic_loop n B G N init th s ten bs bd dt h nA nB a0 a1 o X) in
  let total := block_total N n w (h + z (a * n))%Z (h + z (b * n))%Z V in
  total (hR a2) = total (hR (st a1)) + dt * total (hR ten) /\
  total (hP a2) = total (hP (st a1)) + dt * total (hP ten).
Proof.
  intros n B Hn HB. reference n Hn HB B w W HD HA.
  intros grav G N init th s ten bs bd dt h nA nB a0 a1 o X oldA a b V Ha Hb HN (d & area & HV) HX a2 total.
  assert (TS : forall f g, total (fun k x y => f k x y + dt * g k x y) = total f + dt * total g).
  { intros f g. unfold total, block_total. rewrite <- nsum_scal, <- nsum_plus. apply nsum_ext. intros k _.
    change (esum n w (fun i j => V k (h + z (a * n) + z i)%Z (h + z (b * n) + z j)%Z * (f k (h + z (a * n) + z i)%Z (h + z (b * n) + z j)%Z + dt * g k (h + z (a * n) + z i)%Z (h + z (b * n) + z j)%Z)) =
      esum n w (fun i j => V k (h + z (a * n) + z i)%Z (h + z (b * n) + z j)%Z * f k (h + z (a * n) + z i)%Z (h + z (b * n) + z j)%Z) +
      dt * esum n w (fun i j => V k (h + z (a * n) + z i)%Z (h + z (b * n) + z j)%Z * g k (h + z (a * n) + z i)%Z (h + z (b * n) + z j)%Z)).
    rewrite <- esum_scal, <- esum_plus. apply esum_ext. intros. ring. }
  assert (E0 : forall (F : field3) M x y, on_edges M F O x y = 0 /\ on_edges M F M x y = 0).
  { intros F M x y. unfold on_edges. rewrite !inner_out by lia. auto. }
  assert (X0 : forall i j, (i < n)%nat -> (j < n)%nat -> X O (h + z (a * n) + z i)%Z (h + z (b * n) + z j)%Z = 0 /\ X N (h + z (a * n) + z i)%Z (h + z (b * n) + z j)%Z = 0).
  { intros i j Hi Hj. destruct (HX i j Hi Hj) as [C Q]. unfold loop_solves in Q. rewrite spl_rows in Q by exact HN. destruct Q as (Q0 & Q1 & _).
    split; [exact Q0|]. destruct (Nat.eqb_spec N 1); [lra|]. rewrite (C n0) in Q1. lra. }
  rewrite <- !TS. split; unfold total.
  - apply (block_budget N n B (base2 G) w _ _ V (J3 G) (hR (st a1)) _ (fun k x y => dt * hR ten k x y)
      (am_a G (loop_U n B G N s ten bd dt h nA nB a0 a1 o)) (am_b G (loop_V n B G N s ten bd dt h nA nB a0 a1 o))
      (fun k x y => (1 - bs) / 2 * z1 G N a1 k x y + (1 + bs) / 2 * (z2 G N a1 k x y + X k x y)) (Zi G) (- dt) (- dt) area d HD HA).
    + intros k i j Hk Hi Hj x y. destruct (HV k Hk i j Hi Hj) as (A1 & A2 & A3 & A4). repeat (split; [assumption|]).
      unfold a2, x, y. rewrite a2_r by assumption. unfold loop_nm. rewrite write_there by assumption.
      unfold loop_nodal, adiv, dz_edge, iz. cbv zeta. unfold Rdiv. ring.
    + intros i j Hi Hj. destruct (X0 i j Hi Hj) as [-> ->]. unfold z1, z2. split; [rewrite !(fun F M x y => proj1 (E0 F M x y))|rewrite !(fun F M x y => proj2 (E0 F M x y))]; ring.
  - apply (block_budget N n B (base2 G) w _ _ V (J3 G) (hP (st a1)) _ (fun k x y => dt * hP ten k x y)
      (ax_a G init (loop_U n B G N s ten bd dt h nA nB a0 a1 o)) (ax_b G init (loop_V n B G N s ten bd dt h nA nB a0 a1 o))
      (fun k x y => ((1 - bs) / 2 * z1 G N a1 k x y + (1 + bs) / 2 * (z2 G N a1 k x y + X k x y)) * th k x y) (Zi G) (- dt) (- dt) area d HD HA).
    + intros k i j Hk Hi Hj x y. destruct (HV k Hk i j Hi Hj) as (A1 & A2 & A3 & A4). repeat (split; [assumption|]).
      unfold a2, x, y. rewrite a2_p by assumption. unfold loop_np. rewrite write_there by assumption.
      unfold loop_nodal, adiv, dz_edge, iz, timesth. cbv zeta. unfold Rdiv. ring.
    + intros i j Hi Hj. destruct (X0 i j Hi Hj) as [-> ->]. unfold z1, z2. split; [rewrite !(fun F M x y => proj1 (E0 F M x y))|rewrite !(fun F M x y => proj2 (E0 F M x y))]; ring.
Qed.
Print Assumptions C121_mass.

(** air of one potential temperature keeps it *)
Theorem C121_theta : forall grav n B G N init th s ten bs bd dt h nA nB a0 a1 o X oldA a b t,
  (a < nA)%nat -> (b < nB)%nat -> (0 < N)%nat ->
  (forall k, (k < N)%nat -> in_element n h a b (fun x y => hR init k x y <> 0 /\ hP init k x y = t * hR init k x y /\
     hP ten k x y = t * hR ten k x y /\ hP (st a1) k x y = t * hR (st a1) k x y)) ->
  (forall k, (0 < k < N)%nat -> in_element n h a b (fun x y => th k x y = t)) ->
  in_element n h a b (fun x y => clean N (oldA x y) /\ loop_solves grav n B G N init th s ten bs bd dt h nA nB oldA a0 a1 o X x y) ->
  forall k, (k < N)%nat -> in_element n h a b (fun x y =>
    let a2 := st (acoustic_loop n B G N init th s ten bs bd dt h nA nB a0 a1 o X) in hP a2 k x y = t * hR a2 k x y).
Proof.
  intros grav n B G N init th s ten bs bd dt h nA nB a0 a1 o X oldA a b t Ha Hb HN H HT HX k Hk i j Hi Hj. cbv zeta.
  rewrite a2_r, a2_p by assumption. unfold loop_nm, loop_np. rewrite !write_there by assumption.
  set (p := (h + z (a * n))%Z) in *. set (q := (h + z (b * n))%Z) in *.
  unfold loop_nodal, adiv. cbv zeta.
  set (U := loop_U n B G N s ten bd dt h nA nB a0 a1 o). set (V := loop_V n B G N s ten bd dt h nA nB a0 a1 o).
  rewrite (v_alpha_ext n B (base2 G) p q (ax_a G init U k) (fun x y => t * am_a G U k x y) i j Hj), v_alpha_scal.
  2:{ intros i' j' Hi' Hj'. destruct (H k Hk i' j' Hi' Hj') as (A1 & A2 & _). fold p q in A1, A2. unfold ax_a, am_a. rewrite A2. field. exact A1. }
  rewrite (v_beta_ext n B (base2 G) p q (ax_b G init V k) (fun x y => t * am_b G V k x y) i j Hi), v_beta_scal.
  2:{ intros i' j' Hi' Hj'. destruct (H k Hk i' j' Hi' Hj') as (A1 & A2 & _). fold p q in A1, A2. unfold ax_b, am_b. rewrite A2. field. exact A1. }
  destruct (H k Hk i j Hi Hj) as (_ & _ & A3 & A4). fold p q in A3, A4. rewrite A3, A4.
  destruct (HX i j Hi Hj) as [C Q]. fold p q in C, Q. unfold loop_solves in Q. rewrite spl_rows in Q by exact HN. destruct Q as (Q0 & Q1 & _).
  assert (QN : X N (p + z i)%Z (q + z j)%Z = 0) by (destruct (Nat.eqb_spec N 1); [lra|]; rewrite (C n0) in Q1; lra). clear Q1.
  assert (E : forall (f : field3) l, (l <= N)%nat -> f O (p + z i)%Z (q + z j)%Z = 0 -> f N (p + z i)%Z (q + z j)%Z = 0 ->
     f l (p + z i)%Z (q + z j)%Z * th l (p + z i)%Z (q + z j)%Z = t * f l (p + z i)%Z (q + z j)%Z).
  { intros f l Hl F0 FN. destruct (Nat.eq_dec l 0) as [->|]; [rewrite F0; ring|]. destruct (Nat.eq_dec l N) as [->|]; [rewrite FN; ring|].
    pose proof (HT l ltac:(lia) i j Hi Hj) as T. fold p q in T. rewrite T. ring. }
  assert (E0 : forall (F : field3), on_edges N F O (p + z i)%Z (q + z j)%Z = 0 /\ on_edges N F N (p + z i)%Z (q + z j)%Z = 0).
  { intros F. unfold on_edges. rewrite !inner_out by lia. auto. }
  unfold dz_edge, timesth.
  rewrite !(E (z1 G N a1)) by (lia || apply E0). rewrite !(E (z2 G N a1)) by (lia || apply E0). rewrite !(E X) by (lia || assumption).
  unfold Rdiv. ring.
Qed.
Print Assumptions C121_theta.

(** ** C122: the three steps *)
(** the first step is the general one from nothing *)
Section First.
Context (grav : R) (n : nat) (B : basis) (G : hgeom) (N : nat) (init : hstate) (th s : field3) (ten : hstate).
Context (bs bd dt : R) (h : Z) (nA nB : nat) (o : inst).
Lemma apt_nothing k x y : apt s bd (st nothing) (st nothing) k x y = 0.
Proof. unfold apt. cbn. unfold zero3. ring. Qed.
Lemma ap_nothing k p q i j : ap_a n B G N (apt s bd (st nothing) (st nothing)) k p q i j = 0 /\ ap_b n B G N (apt s bd (st nothing) (st nothing)) k p q i j = 0.
Proof.
  unfold ap_a, ap_b. rewrite d_alpha_sum, d_beta_sum, !nsum_zero by (intros; rewrite apt_nothing; ring).
  unfold dz_level. rewrite !apt_nothing. split; destruct (Nat.eqb k 0); destruct (Nat.eqb (k + 1) N); unfold Rdiv; ring.
Qed.
Lemma U_nothing : loop_U n B G N s ten bd dt h nA nB nothing nothing o = first_U n N ten dt h nA nB o.
Proof.
  unfold loop_U, first_U. f_equal. do 5 (apply functional_extensionality; intro). unfold loop_u, first_u, con_da.
  destruct (ap_nothing x x0 x1 x2 x3) as [-> ->]. cbn. unfold zero3. ring.
Qed.
Lemma V_nothing : loop_V n B G N s ten bd dt h nA nB nothing nothing o = first_V n N ten dt h nA nB o.
Proof.
  unfold loop_V, first_V. f_equal. do 5 (apply functional_extensionality; intro). unfold loop_v, first_v, con_db.
  destruct (ap_nothing x x0 x1 x2 x3) as [-> ->]. cbn. unfold zero3. ring.
Qed.
Lemma z_nothing k x y : z1 G N nothing k x y = 0 /\ z2 G N nothing k x y = 0.
Proof. unfold z1, z2, on_edges. destruct (inner_edge N k); cbn; unfold zero3; split; ring. Qed.
Lemma nm_nothing : loop_nm n B G N s ten bs bd dt h nA nB nothing nothing o = first_nm n B G N ten dt h nA nB o.
Proof.
  unfold loop_nm, first_nm. rewrite U_nothing, V_nothing. f_equal. do 5 (apply functional_extensionality; intro).
  unfold loop_nodal, first_nodal, dz_edge. cbv zeta. rewrite !(fun k x y => proj1 (z_nothing k x y)), !(fun k x y => proj2 (z_nothing k x y)). unfold Rdiv. ring.
Qed.
Lemma np_nothing : loop_np n B G N init th s ten bs bd dt h nA nB nothing nothing o = first_np n B G N init ten dt h nA nB o.
Proof.
  unfold loop_np, first_np. rewrite U_nothing, V_nothing. f_equal. do 5 (apply functional_extensionality; intro).
  unfold loop_nodal, first_nodal, dz_edge, timesth. cbv zeta. rewrite !(fun k x y => proj1 (z_nothing k x y)), !(fun k x y => proj2 (z_nothing k x y)). unfold Rdiv. ring.
Qed.
End First.
Theorem C122_first : forall grav n B G N init th s ten bs bd dt h nA nB o X oldA x y,
  acoustic_first n B G N init th ten bs dt h nA nB o X = acoustic_loop n B G N init th s ten bs bd dt h nA nB nothing nothing o X /\
  (first_solves grav n B G N init th s ten bs dt h nA nB oldA o X x y <->
   loop_solves grav n B G N init th s ten bs bd dt h nA nB oldA nothing nothing o X x y).
Proof.
  intros. split.
  - unfold acoustic_first, acoustic_loop. rewrite U_nothing, V_nothing, nm_nothing, np_nothing. reflexivity.
  - unfold first_solves, loop_solves. rewrite nm_nothing, np_nothing.
    assert (E : first_d grav G ten bs dt (first_nm n B G N ten dt h nA nB o) (first_np n B G N init ten dt h nA nB o) =
                loop_d grav G s ten bs dt nothing (first_nm n B G N ten dt h nA nB o) (first_np n B G N init ten dt h nA nB o)).
    { do 3 (apply functional_extensionality; intro). unfold first_d, loop_d. cbn. unfold zero3. ring. }
    rewrite E. reflexivity.
Qed.
Print Assumptions C122_first.

(** Without pressure forces and gravity a tendency should act for the whole step.  It
    does on the horizontal momentum. *)
Section Impulse.
Context (n : nat) (B : basis) (G : hgeom) (N : nat) (init : hstate) (th : field3) (ten : hstate).
Context (bs bd dt : R) (h : Z) (nA nB a b : nat) (Ha : (a < nA)%nat) (Hb : (b < nB)%nat).
Lemma apt_zero a0 a1 k x y : apt zero3 bd a0 a1 k x y = 0.
Proof. unfold apt, zero3. ring. Qed.
Lemma ap_zero a0 a1 k p q i j : ap_a n B G N (apt zero3 bd a0 a1) k p q i j = 0 /\ ap_b n B G N (apt zero3 bd a0 a1) k p q i j = 0.
Proof.
  unfold ap_a, ap_b. rewrite d_alpha_sum, d_beta_sum, !nsum_zero by (intros; rewrite apt_zero; ring).
  unfold dz_level. rewrite !apt_zero. split; destruct (Nat.eqb k 0); destruct (Nat.eqb (k + 1) N); unfold Rdiv; ring.
Qed.
Lemma push_U d a0 a1 o X k i j : (k < N)%nat -> (i < n)%nat -> (j < n)%nat -> let x := (h + z (a * n) + z i)%Z in let y := (h + z (b * n) + z j)%Z in
  let a2 := st (acoustic_loop n B G N init th zero3 ten bs bd d h nA nB a0 a1 o X) in
  hU a2 k x y = hU (st a1) k x y + d * hU ten k x y /\ hV a2 k x y = hV (st a1) k x y + d * hV ten k x y.
Proof.
  intros Hk Hi Hj x y a2. unfold a2, x, y. rewrite a2_u, a2_v. unfold loop_U, loop_V. rewrite !write_there by assumption.
  unfold loop_u, loop_v, con_da, con_db. rewrite !(fun a0 a1 k p q i j => proj1 (ap_zero a0 a1 k p q i j)), !(fun a0 a1 k p q i j => proj2 (ap_zero a0 a1 k p q i j)). split; ring.
Qed.
Lemma first_push d o X k i j : (k < N)%nat -> (i < n)%nat -> (j < n)%nat -> let x := (h + z (a * n) + z i)%Z in let y := (h + z (b * n) + z j)%Z in
  let a2 := st (acoustic_first n B G N init th ten bs d h nA nB o X) in
  hU a2 k x y = d * hU ten k x y /\ hV a2 k x y = d * hV ten k x y.
Proof.
  intros Hk Hi Hj x y a2. unfold a2, x, y. destruct (C122_first 0 n B G N init th zero3 ten bs bd d h nA nB o X (fun _ _ => 0) 0 0) as [-> _].
  destruct (push_U d nothing nothing o X k i j Hk Hi Hj) as [-> ->]. cbn. unfold zero3. split; ring.
Qed.
Lemma add_there f g k i j : (k < N)%nat -> (i < n)%nat -> (j < n)%nat ->
  add_to n N h nA nB f g k (h + z (a * n) + z i)%Z (h + z (b * n) + z j)%Z = g k (h + z (a * n) + z i)%Z (h + z (b * n) + z j)%Z + f k (h + z (a * n) + z i)%Z (h + z (b * n) + z j)%Z.
Proof.
  intros Hk Hi Hj. unfold add_to. apply Nat.ltb_lt in Hk. rewrite Hk.
  apply (patch_there n h nA nB (fun p q i j v => v + f k (p + z i)%Z (q + z j)%Z)); assumption.
Qed.
End Impulse.
Theorem C122_impulse : forall n B G N init th ten bs bd dt h nA nB X1 X2 X3 u a b k, (a < nA)%nat -> (b < nB)%nat -> (k < N)%nat ->
  in_element n h a b (fun x y =>
    let new := split_step n B G N init th zero3 ten bs bd dt h nA nB (fun v => v) X1 X2 X3 u in
    hU new k x y = hU u k x y + dt * hU ten k x y /\ hV new k x y = hV u k x y + dt * hV ten k x y).
Proof.
  intros n B G N init th ten bs bd dt h nA nB X1 X2 X3 u a b k Ha Hb Hk i j Hi Hj new. unfold new, split_step. cbv zeta. cbn [hU hV].
  rewrite !add_there by assumption. unfold ac3, ac2, ac1.
  repeat match goal with |- context [acoustic_loop n B G N init th zero3 ten bs bd ?d h nA nB ?a0 ?a1 ?o ?X] =>
    let P := fresh in let Q := fresh in destruct (push_U n B G N init th ten bs bd h nA nB a b Ha Hb d a0 a1 o X k i j Hk Hi Hj) as [P Q]; rewrite P, Q; clear P Q end.
  destruct (first_push n B G N init th ten bs bd h nA nB a b Ha Hb (dt / 3) nothing X1 k i j Hk Hi Hj) as [-> ->]. split; field.
Qed.
Print Assumptions C122_impulse.
(** But on rho w it acts for the last third only. *)
Theorem C122_impulse_refuted : forall n B G N init th ten bs bd dt h nA nB oldA X1 X2 X3 u a b,
  (a < nA)%nat -> (b < nB)%nat -> (0 < N)%nat ->
  (forall k, (k < N)%nat -> in_element n h a b (fun x y => hU ten k x y = 0 /\ hV ten k x y = 0 /\ hR ten k x y = 0 /\ hP ten k x y = 0)) ->
  let third := ac3 n B G N init th zero3 ten bs bd dt h nA nB (fun v => v) X1 X2 X3 in
  in_element n h a b (fun x y => clean N (oldA x y) /\
    loop_solves 0 n B G N init th zero3 ten bs bd (dt / 3) h nA nB oldA
      (ac1 n B G N init th ten bs dt h nA nB (fun v => v) X1) (ac2 n B G N init th zero3 ten bs bd dt h nA nB (fun v => v) X1 X2) nothing X3 x y) ->
  forall k, (0 < k < N)%nat -> in_element n h a b (fun x y =>
    hW (split_step n B G N init th zero3 ten bs bd dt h nA nB (fun v => v) X1 X2 X3 u) k x y = hW u k x y + dt / 3 * hW ten k x y).
Proof.
  intros n B G N init th ten bs bd dt h nA nB oldA X1 X2 X3 u a b Ha Hb HN HT third HS k Hk i j Hi Hj.
  unfold split_step. cbv zeta. cbn [hW]. rewrite add_there by (assumption || lia). f_equal.
  unfold ac3. rewrite a2_w by (assumption || lia). destruct (Nat.eqb_spec k 0); [lia|].
  destruct (HS i j Hi Hj) as [_ Q]. unfold loop_solves in Q. rewrite spl_rows in Q by exact HN. destruct Q as (_ & _ & Q). specialize (Q k ltac:(lia)).
  set (p := (h + z (a * n))%Z) in *. set (q := (h + z (b * n))%Z) in *.
  unfold tri_a, tri_b, tri_c, loop_d, upd_part in Q.
  set (A1 := ac1 n B G N init th ten bs dt h nA nB (fun v => v) X1) in *.
  set (A2 := ac2 n B G N init th zero3 ten bs bd dt h nA nB (fun v => v) X1 X2) in *.
  assert (UV : forall l i' j', (l < N)%nat -> (i' < n)%nat -> (j' < n)%nat -> hU (st A2) l (p + z i')%Z (q + z j')%Z = 0 /\ hV (st A2) l (p + z i')%Z (q + z j')%Z = 0).
  { intros l i' j' Hl Hi' Hj'. destruct (HT l Hl i' j' Hi' Hj') as (T1 & T2 & _).
    unfold A2, ac2. destruct (push_U n B G N init th ten bs bd h nA nB a b Ha Hb (dt / 3) nothing (ac1 n B G N init th ten bs dt h nA nB (fun v => v) X1) nothing X2 l i' j' Hl Hi' Hj') as [E1 E2].
    fold p q in E1, E2, T1, T2. rewrite E1, E2. unfold ac1.
    destruct (first_push n B G N init th ten bs bd h nA nB a b Ha Hb (dt / 3) nothing X1 l i' j' Hl Hi' Hj') as [E3 E4].
    fold p q in E3, E4. rewrite E3, E4, T1, T2. split; ring. }
  assert (NW : forall l x y, nW A2 l x y = 0) by reflexivity.
  assert (U3 : forall l i' j', (l < N)%nat -> (i' < n)%nat -> (j' < n)%nat -> loop_U n B G N zero3 ten bd (dt / 3) h nA nB A1 A2 nothing l (p + z i')%Z (q + z j')%Z = 0 /\
     loop_V n B G N zero3 ten bd (dt / 3) h nA nB A1 A2 nothing l (p + z i')%Z (q + z j')%Z = 0).
  { intros l i' j' Hl Hi' Hj'. destruct (HT l Hl i' j' Hi' Hj') as (T1 & T2 & _).
    destruct (push_U n B G N init th ten bs bd h nA nB a b Ha Hb (dt / 3) A1 A2 nothing X3 l i' j' Hl Hi' Hj') as [E1 E2].
    rewrite a2_u in E1. rewrite a2_v in E2. fold p q in E1, E2, T1, T2. rewrite E1, E2.
    destruct (UV l i' j' Hl Hi' Hj') as [-> ->]. rewrite T1, T2. split; ring. }
  assert (Z0 : forall l, z1 G N A2 l (p + z i)%Z (q + z j)%Z = 0 /\ z2 G N A2 l (p + z i)%Z (q + z j)%Z = 0).
  { intro l. unfold z1, z2, on_edges. destruct (inner_edge N l) eqn:I; [|split; reflexivity].
    apply inner_edge_true in I. destruct (UV l i j ltac:(lia) Hi Hj) as [-> ->]. destruct (UV (l - 1)%nat i j ltac:(lia) Hi Hj) as [-> ->]. rewrite NW. split; ring. }
  assert (M0 : forall l, (l < N)%nat -> loop_np n B G N init th zero3 ten bs bd (dt / 3) h nA nB A1 A2 nothing l (p + z i)%Z (q + z j)%Z = 0).
  { intros l Hl. unfold p, q, loop_np. rewrite write_there by assumption. fold p q.
    unfold loop_nodal, adiv, dz_edge, timesth. cbv zeta. rewrite !(fun l => proj1 (Z0 l)), !(fun l => proj2 (Z0 l)).
    rewrite v_alpha_sum, v_beta_sum.
    rewrite (nsum_zero n (fun s => ax_a _ _ _ _ _ _ * _)).
    2:{ intros s0 Hs0. unfold ax_a. rewrite (proj1 (U3 l s0 j Hl Hs0 Hj)). ring. }
    rewrite (nsum_zero n (fun s => ax_b _ _ _ _ _ _ * _)).
    2:{ intros s0 Hs0. unfold ax_b. rewrite (proj2 (U3 l i s0 Hl Hi Hs0)). ring. }
    destruct (HT l Hl i j Hi Hj) as (_ & _ & _ & T4). fold p q in T4. rewrite T4. unfold Rdiv. ring. }
  rewrite !M0 in Q by lia. change (nW A2 k (p + z i)%Z (q + z j)%Z) with 0 in Q. unfold zero3 in Q.
  match type of Q with ?l = ?r => assert (Ql : l = X3 k (p + z i)%Z (q + z j)%Z) by ring; assert (Qr : r = dt / 3 * hW ten k (p + z i)%Z (q + z j)%Z) by ring end.
  rewrite Ql, Qr in Q. exact Q.
Qed.
Print Assumptions C122_impulse_refuted.

(** for short steps the system at a node has exactly one solution *)
Definition steep (grav : R) (G : hgeom) (N : nat) (th s : field3) (bs dt : R) (x y : Z) : Prop :=
  dominant N (fun k => tri_a grav G th s bs dt k x y) (fun k => tri_b grav G th s bs dt k x y) (fun k => tri_c grav G th s bs dt k x y).
Lemma small_rows N (a b c : nat -> R) : exists e, 0 < e /\ forall t, t * t < e -> dominant N (fun k => t * t * a k) (fun k => 1 + t * t * b k) (fun k => t * t * c k).
Proof.
  pose (w := fun k => Rabs (a k) + Rabs (b k) + Rabs (c k)).
  assert (P : forall k, 0 <= w k) by (intro k; unfold w; pose proof (Rabs_pos (a k)); pose proof (Rabs_pos (b k)); pose proof (Rabs_pos (c k)); lra).
  assert (S0 : forall M, 0 <= nsum M w) by (induction M as [|M IH]; cbn [nsum]; [lra|]; specialize (P M); lra).
  exists (/ (1 + nsum N w)). split; [apply Rinv_0_lt_compat; specialize (S0 N); lra|].
  intros t Ht k Hk. pose proof (nsum_ge w N k P ltac:(lia)) as W. specialize (S0 N).
  assert (D : 0 <= t * t) by (pose proof (Rle_0_sqr t) as Q; exact Q).
  assert (L : t * t * w k < 1).
  { apply Rle_lt_trans with (t * t * nsum N w); [apply Rmult_le_compat_l; assumption|].
    apply (Rmult_lt_compat_r (1 + nsum N w)) in Ht; [|lra]. rewrite Rinv_l in Ht by lra. lra. }
  rewrite (Rabs_mult (t * t) (a k)), (Rabs_mult (t * t) (c k)), (Rabs_pos_eq _ D). unfold w in L.
  pose proof (Rabs_triang (1 + t * t * b k) (- (t * t * b k))) as T.
  replace (1 + t * t * b k + - (t * t * b k)) with 1 in T by ring. rewrite Rabs_R1, Rabs_Ropp, (Rabs_mult (t * t) (b k)), (Rabs_pos_eq _ D) in T. lra.
Qed.
Theorem C122_short : forall grav G N th s bs x y, exists e, 0 < e /\ forall dt, dt * dt < e -> steep grav G N th s bs dt x y.
Proof.
  intros grav G N th s bs x y.
  destruct (small_rows N (fun k => tri_a grav G th s 1 1 k x y) (fun k => tri_b grav G th s 1 1 k x y - 1) (fun k => tri_c grav G th s 1 1 k x y)) as (e & He & H).
  assert (E : forall dt, steep grav G N th s bs dt x y <-> dominant N (fun k => tscale bs dt * tscale bs dt * tri_a grav G th s 1 1 k x y)
     (fun k => 1 + tscale bs dt * tscale bs dt * (tri_b grav G th s 1 1 k x y - 1)) (fun k => tscale bs dt * tscale bs dt * tri_c grav G th s 1 1 k x y)).
  { intro dt. unfold steep, dominant. split; intros Q k Hk; specialize (Q k Hk);
    [replace (tscale bs dt * tscale bs dt * tri_a grav G th s 1 1 k x y) with (tri_a grav G th s bs dt k x y) by (unfold tri_a, tscale; field);
     replace (tscale bs dt * tscale bs dt * tri_c grav G th s 1 1 k x y) with (tri_c grav G th s bs dt k x y) by (unfold tri_c, tscale; field);
     replace (1 + tscale bs dt * tscale bs dt * (tri_b grav G th s 1 1 k x y - 1)) with (tri_b grav G th s bs dt k x y) by (unfold tri_b, tscale; field)
    |replace (tscale bs dt * tscale bs dt * tri_a grav G th s 1 1 k x y) with (tri_a grav G th s bs dt k x y) in Q by (unfold tri_a, tscale; field);
     replace (tscale bs dt * tscale bs dt * tri_c grav G th s 1 1 k x y) with (tri_c grav G th s bs dt k x y) in Q by (unfold tri_c, tscale; field);
     replace (1 + tscale bs dt * tscale bs dt * (tri_b grav G th s 1 1 k x y - 1)) with (tri_b grav G th s bs dt k x y) in Q by (unfold tri_b, tscale; field)]; exact Q. }
  exists (e / (1 + (1 + bs) * (1 + bs))). pose proof (Rle_0_sqr (1 + bs)) as Q. unfold Rsqr in Q. split.
  - apply Rdiv_lt_0_compat; lra.
  - intros dt Hd. apply E, H. unfold tscale.
    apply (Rmult_lt_compat_r (1 + (1 + bs) * (1 + bs))) in Hd; [|lra]. replace (e / (1 + (1 + bs) * (1 + bs)) * (1 + (1 + bs) * (1 + bs))) with e in Hd by (field; lra).
    pose proof (Rle_0_sqr dt) as Q2. unfold Rsqr in Q2.
    pose proof (Rmult_le_pos _ _ Q2 Q). lra.
Qed.
Print Assumptions C122_short.
Theorem C122_unique : forall grav n B G N init th s ten bs bd dt h nA nB oldA a0 a1 o x y, (0 < N)%nat -> clean N (oldA x y) ->
  steep grav G N th s bs dt x y -> exists v : nat -> R, forall X,
  loop_solves grav n B G N init th s ten bs bd dt h nA nB oldA a0 a1 o X x y <-> forall k, (k <= N)%nat -> X k x y = v k.
Proof.
  intros grav n B G N init th s ten bs bd dt h nA nB oldA a0 a1 o x y HN C D.
  set (d := sys_d N (loop_d grav G s ten bs dt a1 (loop_nm n B G N s ten bs bd dt h nA nB a0 a1 o) (loop_np n B G N init th s ten bs bd dt h nA nB a0 a1 o)) x y).
  pose (va := fun k => if inner_edge N k then tri_a grav G th s bs dt k x y else 0).
  pose (vb := sys_b grav G N th s bs dt x y). pose (vc := sys_c grav G N th s bs dt x y).
  assert (D' : dominant N va vb vc).
  { intros k Hk. unfold va, vb, vc, sys_b, sys_c. rewrite inner_in by lia. apply D. exact Hk. }
  assert (F : forall k, (k < N)%nat -> exists t, forward va vb vc d k = Some t).
  { intros k Hk. destruct (forward_dominant va vb vc d N) with (k := k) as (c' & d' & E & _); eauto;
    unfold vb, vc, sys_b, sys_c; rewrite (inner_out N 0) by lia; reflexivity. }
  destruct (backward_some va vb vc d N F N (Nat.le_refl N)) as [l E].
  destruct (backward_nth _ _ _ _ _ _ _ E (Nat.le_refl N)) as [EN I]. rewrite Nat.sub_diag in I.
  pose proof (forward_rows _ _ _ _ (fun k => nth k l 0) N I) as Row. cbv beta in Row.
  assert (V0 : nth 0 l 0 = 0).
  { specialize (Row 0%nat HN). cbn [Nat.eqb] in Row. unfold vb, vc, d, sys_b, sys_c, sys_d in Row. rewrite (inner_out N 0) in Row by lia. lra. }
  assert (VN : nth N l 0 = 0) by (rewrite EN; unfold d, sys_d; rewrite (inner_out N N) by lia; reflexivity).
  assert (VR : forall k, (1 <= k < N)%nat -> tri_a grav G th s bs dt k x y * nth (k - 1) l 0 + tri_b grav G th s bs dt k x y * nth k l 0 + tri_c grav G th s bs dt k x y * nth (k + 1) l 0 =
     loop_d grav G s ten bs dt a1 (loop_nm n B G N s ten bs bd dt h nA nB a0 a1 o) (loop_np n B G N init th s ten bs bd dt h nA nB a0 a1 o) k x y).
  { intros k Hk. specialize (Row k ltac:(lia)). destruct (Nat.eqb_spec k 0); [lia|]. unfold va, vb, vc, d, sys_b, sys_c, sys_d in Row.
    rewrite (inner_in N k) in Row by lia. rewrite Nat.add_1_r. exact Row. }
  exists (fun k => nth k l 0). intro X. unfold loop_solves. rewrite spl_rows by exact HN.
  assert (T : (if Nat.eqb N 1 then 0 else oldA x y * X (N - 1)%nat x y) = 0).
  { destruct (Nat.eqb_spec N 1); [reflexivity|]. rewrite C by assumption. lra. }
  rewrite T, Rplus_0_l. split.
  - intros (X0 & XN & H) k Hk. cut (X k x y - nth k l 0 = 0); [lra|].
    apply (dominant_null N _ _ _ (fun k => X k x y - nth k l 0) D); [lra|lra| |exact Hk].
    intros i Hi. cbv beta. specialize (H i Hi). specialize (VR i Hi). lra.
  - intro H. rewrite !H by lia. split; [exact V0|]. split; [exact VN|]. intros k Hk. rewrite !H by lia. apply VR. exact Hk.
Qed.
Print Assumptions C122_unique.

(** the slope of the pressure and theta on interfaces *)
Theorem C122_slope : forall c N arg T k x y, 0 < hP arg k x y ->
  derivable_pt_lim (PhysModel.pressure_from_rhotheta c) (hP arg k x y) (slope c arg k x y) /\
  ((0 < k < N)%nat -> hR arg (k - 1)%nat x y + hR arg k x y <> 0 ->
   theta_e N arg T k x y * ((hR arg (k - 1)%nat x y + hR arg k x y) / 2) = (hP arg (k - 1)%nat x y + hP arg k x y) / 2).
Proof.
  intros c N arg T k x y P. split.
  - destruct (C91_slope c 0 (Hcol (fun _ => 0) (fun _ => 0) (fun _ => 0) (fun _ => 0) (fun k => hP arg k x y) (fun _ => 0) (fun _ => 0)) k P) as [Q _].
    cbn [aP] in Q. unfold hdp, hp in Q. cbn [aP] in Q.
    replace (slope c arg k x y) with (PhysModel.pressure_from_rhotheta c (hP arg k x y) * PhysModel.gamma c / hP arg k x y) by (unfold slope, xp; unfold Rdiv; ring). exact Q.
  - intros Hk HR. unfold theta_e. rewrite inner_in by lia. unfold inv_re, mean. field. first [exact HR|split; [exact HR|lra]|lra].
Qed.
Print Assumptions C122_slope.

(** without tendencies nothing moves *)
Section Steady.
Context (grav : R) (n : nat) (B : basis) (G : hgeom) (N : nat) (init : hstate) (th s : field3) (ten : hstate).
Context (bs bd dt : R) (h : Z) (nA nB a b : nat) (Ha : (a < nA)%nat) (Hb : (b < nB)%nat) (HN : (2 <= N)%nat).
Definition still (v : hstate) : Prop := forall k, (k < N)%nat -> in_element n h a b (fun x y =>
  hU v k x y = 0 /\ hV v k x y = 0 /\ hP v k x y = 0 /\ hR v k x y = 0 /\ hW v k x y = 0).
Context (HT : still ten).
Lemma still_step oldA a0 a1 o X : still (st a0) -> still (st a1) -> (forall k x y, nW a1 k x y = 0) ->
  in_element n h a b (fun x y => clean N (oldA x y) /\ steep grav G N th s bs dt x y /\
    loop_solves grav n B G N init th s ten bs bd dt h nA nB oldA a0 a1 o X x y) ->
  still (st (acoustic_loop n B G N init th s ten bs bd dt h nA nB a0 a1 o X)).
Proof.
  intros S0 S1 NW HX.
  set (p := (h + z (a * n))%Z) in *. set (q := (h + z (b * n))%Z) in *.
  assert (AP : forall k i j, (k < N)%nat -> (i < n)%nat -> (j < n)%nat -> apt s bd (st a0) (st a1) k (p + z i)%Z (q + z j)%Z = 0).
  { intros k i j Hk Hi Hj. unfold apt. destruct (S0 k Hk i j Hi Hj) as (_ & _ & A1 & _). destruct (S1 k Hk i j Hi Hj) as (_ & _ & A2 & _). fold p q in A1, A2. rewrite A1, A2. ring. }
  assert (U2 : forall k i j, (k < N)%nat -> (i < n)%nat -> (j < n)%nat ->
    loop_U n B G N s ten bd dt h nA nB a0 a1 o k (p + z i)%Z (q + z j)%Z = 0 /\ loop_V n B G N s ten bd dt h nA nB a0 a1 o k (p + z i)%Z (q + z j)%Z = 0).
  { intros k i j Hk Hi Hj. unfold loop_U, loop_V, p, q. rewrite !write_there by assumption. fold p q.
    unfold loop_u, loop_v, con_da, con_db.
    assert (ap_a n B G N (apt s bd (st a0) (st a1)) k p q i j = 0 /\ ap_b n B G N (apt s bd (st a0) (st a1)) k p q i j = 0) as [-> ->].
    { unfold ap_a, ap_b. rewrite d_alpha_sum, d_beta_sum.
      rewrite (nsum_zero n (fun s0 => apt s bd (st a0) (st a1) k (p + z s0)%Z (q + z j)%Z * _)) by (intros; rewrite AP by assumption; ring).
      rewrite (nsum_zero n (fun s0 => apt s bd (st a0) (st a1) k (p + z i)%Z (q + z s0)%Z * _)) by (intros; rewrite AP by assumption; ring).
      assert (Z0 : dz_level G N (apt s bd (st a0) (st a1)) k (p + z i) (q + z j) = 0).
      { unfold dz_level. destruct (Nat.eqb_spec k 0); [rewrite !AP by (assumption || lia); unfold Rdiv; ring|].
        destruct (Nat.eqb_spec (k + 1) N); rewrite !AP by (assumption || lia); unfold Rdiv; ring. }
      rewrite Z0. split; ring. }
    destruct (S1 k Hk i j Hi Hj) as (B1 & B2 & _). destruct (HT k Hk i j Hi Hj) as (T1 & T2 & _). fold p q in B1, B2, T1, T2. rewrite B1, B2, T1, T2. split; ring. }
  assert (Z0 : forall l i j, (i < n)%nat -> (j < n)%nat -> z1 G N a1 l (p + z i)%Z (q + z j)%Z = 0 /\ z2 G N a1 l (p + z i)%Z (q + z j)%Z = 0).
  { intros l i j Hi Hj. unfold z1, z2, on_edges. destruct (inner_edge N l) eqn:I; [|split; reflexivity].
    apply inner_edge_true in I. destruct (S1 l ltac:(lia) i j Hi Hj) as (B1 & B2 & _). destruct (S1 (l - 1)%nat ltac:(lia) i j Hi Hj) as (B3 & B4 & _).
    fold p q in B1, B2, B3, B4. rewrite B1, B2, B3, B4, NW. split; ring. }
  assert (M0 : forall l i j, (l < N)%nat -> (i < n)%nat -> (j < n)%nat -> loop_nm n B G N s ten bs bd dt h nA nB a0 a1 o l (p + z i)%Z (q + z j)%Z = 0 /\
     loop_np n B G N init th s ten bs bd dt h nA nB a0 a1 o l (p + z i)%Z (q + z j)%Z = 0).
  { intros l i j Hl Hi Hj. unfold p, q, loop_nm, loop_np. rewrite !write_there by assumption. fold p q.
    unfold loop_nodal, adiv, dz_edge, timesth. cbv zeta. rewrite !(fun l => proj1 (Z0 l i j Hi Hj)), !(fun l => proj2 (Z0 l i j Hi Hj)).
    rewrite !v_alpha_sum, !v_beta_sum.
    rewrite (nsum_zero n (fun s0 => ax_a _ _ _ _ _ _ * _)) by (intros s0 Hs0; unfold ax_a; rewrite (proj1 (U2 l s0 j Hl Hs0 Hj)); ring).
    rewrite (nsum_zero n (fun s0 => ax_b _ _ _ _ _ _ * _)) by (intros s0 Hs0; unfold ax_b; rewrite (proj2 (U2 l i s0 Hl Hi Hs0)); ring).
    rewrite (nsum_zero n (fun s0 => am_a _ _ _ _ _ * _)) by (intros s0 Hs0; unfold am_a; rewrite (proj1 (U2 l s0 j Hl Hs0 Hj)); ring).
    rewrite (nsum_zero n (fun s0 => am_b _ _ _ _ _ * _)) by (intros s0 Hs0; unfold am_b; rewrite (proj2 (U2 l i s0 Hl Hi Hs0)); ring).
    destruct (HT l Hl i j Hi Hj) as (_ & _ & T3 & T4 & _). fold p q in T3, T4. rewrite T3, T4. unfold Rdiv. split; ring. }
  intros k Hk i j Hi Hj. destruct (HX i j Hi Hj) as (C & D & Q). fold p q in C, D, Q.
  assert (X0 : forall l, (l <= N)%nat -> X l (p + z i)%Z (q + z j)%Z = 0).
  { unfold loop_solves in Q. rewrite spl_rows in Q by lia. destruct Q as (Q0 & Q1 & Q). destruct (Nat.eqb_spec N 1); [lia|].
    rewrite (C n0) in Q1. intros l Hl. apply (dominant_null N _ _ _ (fun k => X k (p + z i)%Z (q + z j)%Z) D); [exact Q0|lra| |exact Hl].
    intros m Hm. rewrite (Q m Hm). unfold loop_d, upd_part. rewrite NW, !(fun l H => proj1 (M0 l i j H Hi Hj)), !(fun l H => proj2 (M0 l i j H Hi Hj)) by lia.
    destruct (S1 m ltac:(lia) i j Hi Hj) as (_ & _ & B1 & B2 & _). destruct (S1 (m - 1)%nat ltac:(lia) i j Hi Hj) as (_ & _ & B3 & B4 & _).
    destruct (HT m ltac:(lia) i j Hi Hj) as (_ & _ & _ & _ & T5). fold p q in B1, B2, B3, B4, T5. rewrite B1, B2, B3, B4, T5. ring. }
  fold p q. rewrite a2_u, a2_v. destruct (U2 k i j Hk Hi Hj) as [-> ->]. split; [reflexivity|]. split; [reflexivity|].
  unfold p, q. rewrite a2_p, a2_r, a2_w by assumption. fold p q.
  destruct (M0 k i j Hk Hi Hj) as [-> ->]. rewrite !X0 by lia.
  destruct (S1 k Hk i j Hi Hj) as (_ & _ & B1 & B2 & _). fold p q in B1, B2. rewrite B1, B2.
  split; [ring|]. split; [ring|]. destruct (Nat.eqb k 0); reflexivity.
Qed.
End Steady.
Theorem C122_steady : forall grav n B G N init th s ten bs bd dt h nA nB oldA X1 X2 X3 u a b,
  (a < nA)%nat -> (b < nB)%nat -> (2 <= N)%nat -> still n N h a b ten ->
  let f1 := ac1 n B G N init th ten bs dt h nA nB (fun v => v) X1 in
  let f2 := ac2 n B G N init th s ten bs bd dt h nA nB (fun v => v) X1 X2 in
  in_element n h a b (fun x y => clean N (oldA x y) /\ steep grav G N th s bs (dt / 3) x y /\
    first_solves grav n B G N init th s ten bs (dt / 3) h nA nB oldA nothing X1 x y /\
    loop_solves grav n B G N init th s ten bs bd (dt / 3) h nA nB oldA nothing f1 nothing X2 x y /\
    loop_solves grav n B G N init th s ten bs bd (dt / 3) h nA nB oldA f1 f2 nothing X3 x y) ->
  let new := split_step n B G N init th s ten bs bd dt h nA nB (fun v => v) X1 X2 X3 u in
  forall k, (k < N)%nat -> in_element n h a b (fun x y => hU new k x y = hU u k x y /\ hV new k x y = hV u k x y /\
    hP new k x y = hP u k x y /\ hR new k x y = hR u k x y /\ hW new k x y = hW u k x y).
Proof.
  intros grav n B G N init th s ten bs bd dt h nA nB oldA X1 X2 X3 u a b Ha Hb HN HT f1 f2 HX new k Hk i j Hi Hj.
  assert (S0 : still n N h a b (st nothing)) by (intros l Hl i' j' Hi' Hj'; cbn; unfold zero3; auto).
  assert (S1 : still n N h a b (st f1)).
  { unfold f1, ac1. destruct (C122_first grav n B G N init th s ten bs bd (dt / 3) h nA nB nothing X1 oldA 0 0) as [-> _].
    apply (still_step grav n B G N init th s ten bs bd (dt / 3) h nA nB a b Ha Hb HN HT oldA); try assumption; [reflexivity|].
    intros i' j' Hi' Hj'. destruct (HX i' j' Hi' Hj') as (C & D & Q & _). split; [exact C|]. split; [exact D|].
    apply (proj2 (C122_first grav n B G N init th s ten bs bd (dt / 3) h nA nB nothing X1 oldA _ _)). exact Q. }
  assert (S2 : still n N h a b (st f2)).
  { unfold f2, ac2. apply (still_step grav n B G N init th s ten bs bd (dt / 3) h nA nB a b Ha Hb HN HT oldA); try assumption; [reflexivity|].
    intros i' j' Hi' Hj'. destruct (HX i' j' Hi' Hj') as (C & D & _ & Q & _). auto. }
  assert (S3 : still n N h a b (st (ac3 n B G N init th s ten bs bd dt h nA nB (fun v => v) X1 X2 X3))).
  { unfold ac3. apply (still_step grav n B G N init th s ten bs bd (dt / 3) h nA nB a b Ha Hb HN HT oldA); try assumption; [reflexivity|].
    intros i' j' Hi' Hj'. destruct (HX i' j' Hi' Hj') as (C & D & _ & _ & Q). auto. }
  unfold new, split_step. cbv zeta. cbn [hU hV hP hR hW]. rewrite !add_there by assumption.
  destruct (S3 k Hk i j Hi Hj) as (-> & -> & -> & -> & ->). rewrite !Rplus_0_r. auto.
Qed.
Print Assumptions C122_steady.

(** ** Cases *)
Definition one3 : field3 := fun _ _ _ => 1.
Definition two3 : field3 := fun _ _ _ => 2.
Definition mid3 (v : R) : field3 := fun k _ _ => if Nat.eqb k 1 then v else 0.
Definition ex_ten (r w : R) : hstate := Hstate zero3 zero3 (mid3 r) (mid3 r) (mid3 w).
Definition ex_init : hstate := Hstate zero3 zero3 one3 one3 zero3.
Definition no_old : Z -> Z -> R := fun _ _ => 0.
Lemma ex_moves r w dt o k i j : (k < 2)%nat -> (i < 4)%nat -> (j < 4)%nat ->
  first_nm 4 basis4 ex_hg 2 (ex_ten r w) dt 1 1 1 o k (1 + z (0 * 4) + z i)%Z (1 + z (0 * 4) + z j)%Z = dt * mid3 r k 0%Z 0%Z /\
  first_np 4 basis4 ex_hg 2 ex_init (ex_ten r w) dt 1 1 1 o k (1 + z (0 * 4) + z i)%Z (1 + z (0 * 4) + z j)%Z = dt * mid3 r k 0%Z 0%Z.
Proof.
  intros Hk Hi Hj. unfold first_nm, first_np. rewrite !write_there by (assumption || lia). unfold first_nodal, adiv. cbv zeta.
  assert (U : forall k i j, (k < 2)%nat -> (i < 4)%nat -> (j < 4)%nat -> first_U 4 2 (ex_ten r w) dt 1 1 1 o k (1 + z (0 * 4) + z i)%Z (1 + z (0 * 4) + z j)%Z = 0 /\
    first_V 4 2 (ex_ten r w) dt 1 1 1 o k (1 + z (0 * 4) + z i)%Z (1 + z (0 * 4) + z j)%Z = 0).
  { intros. unfold first_U, first_V. rewrite !write_there by (assumption || lia). unfold first_u, first_v. cbn. unfold zero3. split; ring. }
  rewrite !v_alpha_sum, !v_beta_sum.
  rewrite (nsum_zero 4 (fun s0 => ax_a _ _ _ _ _ _ * _)) by (intros s0 Hs0; unfold ax_a; rewrite (proj1 (U k s0 j Hk Hs0 Hj)); ring).
  rewrite (nsum_zero 4 (fun s0 => ax_b _ _ _ _ _ _ * _)) by (intros s0 Hs0; unfold ax_b; rewrite (proj2 (U k i s0 Hk Hi Hs0)); ring).
  rewrite (nsum_zero 4 (fun s0 => am_a _ _ _ _ _ * _)) by (intros s0 Hs0; unfold am_a; rewrite (proj1 (U k s0 j Hk Hs0 Hj)); ring).
  rewrite (nsum_zero 4 (fun s0 => am_b _ _ _ _ _ * _)) by (intros s0 Hs0; unfold am_b; rewrite (proj2 (U k i s0 Hk Hi Hs0)); ring).
  cbn [hR hP ex_ten]. unfold mid3, Rdiv. split; ring.
Qed.
Lemma ex_solved r w i j : (i < 4)%nat -> (j < 4)%nat ->
  loop_solves 1 4 basis4 ex_hg 2 ex_init one3 two3 (ex_ten r w) 0 (1 / 10) 2 1 1 1 no_old nothing nothing nothing (mid3 ((2 * w - 3 * r) / 5)) (1 + z (0 * 4) + z i)%Z (1 + z (0 * 4) + z j)%Z.
Proof.
  intros Hi Hj. unfold loop_solves. rewrite spl_rows by lia. split; [reflexivity|]. split; [cbn; unfold no_old; ring|].
  intros k Hk. replace k with 1%nat by lia. rewrite nm_nothing, np_nothing. unfold loop_d, upd_part.
  rewrite !(fun k H => proj1 (ex_moves r w 2 nothing k i j H Hi Hj)), !(fun k H => proj2 (ex_moves r w 2 nothing k i j H Hi Hj)) by lia.
  unfold tri_a, tri_b, tri_c, tscale, ih, iz, mid3, one3, two3. cbn. unfold ex_z, mid3, zero3. cbn. field; repeat split; lra.
Qed.
Lemma ex_deep x y : deep 2 ex_hg x y.
Proof.
  split; intros [|[|k]] Hk; try lia; cbn; unfold ex_z; cbn; lra.
Qed.
Example C119_case : volumes 4 1 0 0 2 ex_hg (fun _ _ _ => 2) /\
  in_element 4 1 0 0 (fun x y => hR ex_moving 0%nat x y <> 0 /\ hP ex_moving 0%nat x y = 3 * hR ex_moving 0%nat x y) /\
  hR (tendencies (ex_air 1) 4 basis4 ex_hg 2 ex_moving zero3 1 1 1 ex_moving) 0%nat 1%Z 1%Z = -6.
Proof.
  split; [|split].
  - exists (fun _ => 1), (fun _ _ => 2). intros [|[|k]] Hk i j Hi Hj; try lia; cbn; repeat split; lra.
  - intros i j _ _. cbn. split; lra.
  - pose proof (at_tr (ex_air 1) 4 basis4 ex_hg 2 ex_moving ex_moving zero3 1 1 1 0 0 ltac:(lia) ltac:(lia) 0 0 0 ltac:(lia) ltac:(lia) ltac:(lia)) as Q.
    change (1 + z (0 * 4) + z 0)%Z with 1%Z in Q. rewrite Q. unfold spl_r, hdiv. rewrite v_alpha_sum, v_beta_sum.
    assert (Z0 : dz_edge ex_hg (s_mass ex_hg 2 ex_moving) 0 1 1 = 0) by (unfold dz_edge, s_mass, on_edges, sdot, mean; cbn; field; lra).
    cbn. rewrite Z0. unfold mass_a, mass_b, dbl. cbn. lra.
Qed.
(** the conditions of C120_column, met by a forced column that moves; those of C120_refuted *)
Example C120_case : clean 2 (no_old 1 1) /\ deep 2 ex_hg 1 1 /\
  loop_solves 1 4 basis4 ex_hg 2 ex_init one3 two3 (ex_ten 0 1) 0 (1 / 10) 2 1 1 1 no_old nothing nothing nothing (mid3 (2 / 5)) 1 1 /\
  amiss 4 basis4 ex_hg 2 ex_init one3 two3 (ex_ten 0 1) 0 (1 / 10) 2 1 1 1 nothing nothing nothing 0 0 0 0 1 =
  amiss 4 basis4 ex_hg 2 ex_init one3 two3 (ex_ten 0 1) 0 (1 / 10) 2 1 1 1 nothing nothing nothing 0 0 0 0 0 /\
  loop_solves 1 4 basis4 ex_hg 2 ex_init one3 two3 (ex_ten 1 0) 0 (1 / 10) 2 1 1 1 no_old nothing nothing nothing (mid3 (- (3 / 5))) 1 1 /\
  amiss 4 basis4 ex_hg 2 ex_init one3 two3 (ex_ten 1 0) 0 (1 / 10) 2 1 1 1 nothing nothing nothing 0 0 0 0 1 <>
  amiss 4 basis4 ex_hg 2 ex_init one3 two3 (ex_ten 1 0) 0 (1 / 10) 2 1 1 1 nothing nothing nothing 0 0 0 0 0.
Proof.
  assert (L4 : (0 < 4)%nat) by lia. split; [intros _; reflexivity|]. split; [apply ex_deep|].
  pose proof (ex_solved 0 1 0 0 ltac:(lia) ltac:(lia)) as Q1. pose proof (ex_solved 1 0 0 0 ltac:(lia) ltac:(lia)) as Q2.
  replace ((2 * 1 - 3 * 0) / 5) with (2 / 5) in Q1 by field. replace ((2 * 0 - 3 * 1) / 5) with (- (3 / 5)) in Q2 by field.
  split; [exact Q1|]. split; [|split; [exact Q2|]]; unfold amiss, node_x, node_y; rewrite np_nothing.
  - rewrite !(fun k H => proj2 (ex_moves 0 1 2 nothing k 0 0 H L4 L4)) by lia. unfold mid3, two3. cbn. ring.
  - rewrite !(fun k H => proj2 (ex_moves 1 0 2 nothing k 0 0 H L4 L4)) by lia. unfold mid3, two3. cbn. lra.
Qed.
Example C121_case : volumes 4 1 0 0 2 ex_hg (fun _ _ _ => 2) /\
  in_element 4 1 0 0 (fun x y => clean 2 (no_old x y) /\
    loop_solves 1 4 basis4 ex_hg 2 ex_init one3 two3 (ex_ten 1 0) 0 (1 / 10) 2 1 1 1 no_old nothing nothing nothing (mid3 ((2 * 0 - 3 * 1) / 5)) x y) /\
  (forall k, (k < 2)%nat -> in_element 4 1 0 0 (fun x y => hR ex_init k x y <> 0 /\ hP ex_init k x y = 1 * hR ex_init k x y /\
     hP (ex_ten 1 0) k x y = 1 * hR (ex_ten 1 0) k x y /\ hP (st nothing) k x y = 1 * hR (st nothing) k x y)) /\
  hR (st (acoustic_loop 4 basis4 ex_hg 2 ex_init one3 two3 (ex_ten 1 0) 0 (1 / 10) 2 1 1 1 nothing nothing nothing (mid3 ((2 * 0 - 3 * 1) / 5)))) 0%nat 1%Z 1%Z = 3 / 5.
Proof.
  split; [exact (proj1 C119_case)|]. split; [|split].
  - intros i j Hi Hj. split; [intros _; reflexivity|]. apply ex_solved; assumption.
  - intros k Hk i j Hi Hj. cbn. unfold one3, mid3, zero3. destruct (Nat.eqb k 1); repeat split; lra.
  - pose proof (a2_r 4 basis4 ex_hg 2 ex_init one3 two3 (ex_ten 1 0) 0 (1 / 10) 2 1 1 1 nothing nothing nothing (mid3 ((2 * 0 - 3 * 1) / 5)) 0 0 0 0 ltac:(lia) ltac:(lia) ltac:(lia) ltac:(lia) 0 ltac:(lia)) as Q.
    rewrite nm_nothing in Q. rewrite (proj1 (ex_moves 1 0 2 nothing 0 0 0 ltac:(lia) ltac:(lia) ltac:(lia))) in Q.
    change (1 + z (0 * 4) + z 0)%Z with 1%Z in Q. rewrite Q. unfold iz, mid3. cbn. unfold zero3. field.
Qed.
(** the conditions of C122_impulse_refuted and of C122_steady *)
Example C122_case :
  (exists X3, in_element 4 1 0 0 (fun x y => clean 2 (no_old x y) /\
    loop_solves 0 4 basis4 ex_hg 2 ex_init one3 zero3 (ex_ten 0 1) 0 (1 / 10) (6 / 3) 1 1 1 no_old
      (ac1 4 basis4 ex_hg 2 ex_init one3 (ex_ten 0 1) 0 6 1 1 1 (fun v => v) (mid3 2))
      (ac2 4 basis4 ex_hg 2 ex_init one3 zero3 (ex_ten 0 1) 0 (1 / 10) 6 1 1 1 (fun v => v) (mid3 2) (mid3 2)) nothing X3 x y)) /\
  (forall x y, steep 1 ex_hg 2 one3 two3 0 (6 / 3) x y) /\
  first_solves 1 4 basis4 ex_hg 2 ex_init one3 two3 (ex_ten 0 0) 0 (6 / 3) 1 1 1 no_old nothing zero3 1 1.
Proof.
  split; [|split].
  - set (A1 := ac1 4 basis4 ex_hg 2 ex_init one3 (ex_ten 0 1) 0 6 1 1 1 (fun v => v) (mid3 2)).
    set (A2 := ac2 4 basis4 ex_hg 2 ex_init one3 zero3 (ex_ten 0 1) 0 (1 / 10) 6 1 1 1 (fun v => v) (mid3 2) (mid3 2)).
    clearbody A1 A2. unfold loop_solves.
    set (D := loop_d 0 ex_hg zero3 (ex_ten 0 1) 0 (6 / 3) A2 _ _).
    exists (fun k x y => if inner_edge 2 k then D k x y else 0). clearbody D.
    intros i j _ _. split; [intros _; reflexivity|]. rewrite spl_rows by lia. split; [reflexivity|]. split; [cbn; unfold no_old; ring|].
    intros k Hk. replace k with 1%nat by lia. cbn [inner_edge Nat.leb Nat.ltb andb Nat.add Nat.sub]. unfold tri_a, tri_b, tri_c, zero3. ring.
  - intros x y k Hk. replace k with 1%nat by lia. unfold tri_a, tri_b, tri_c, tscale, ih, iz, one3, two3. cbn. unfold ex_z. cbn.
    match goal with |- Rabs ?a + Rabs ?b < Rabs ?c => replace a with (- (3 / 2)) by (field; repeat split; lra); replace b with (- (5 / 2)) by (field; repeat split; lra); replace c with 5 by (field; repeat split; lra) end.
    rewrite !Rabs_Ropp, !Rabs_pos_eq by lra. lra.
  - apply (C122_first 1 4 basis4 ex_hg 2 ex_init one3 two3 (ex_ten 0 0) 0 (1 / 10) (6 / 3) 1 1 1 nothing zero3 no_old 1 1).
    pose proof (ex_solved 0 0 0 0 ltac:(lia) ltac:(lia)) as Q. replace (6 / 3) with 2 by field.
    assert (E : mid3 ((2 * 0 - 3 * 0) / 5) = zero3).
    { do 3 (apply functional_extensionality; intro). unfold mid3, zero3. match goal with |- context [Nat.eqb ?v 1] => destruct (Nat.eqb v 1) end; lra. }
    rewrite E in Q. exact Q.
Qed.
