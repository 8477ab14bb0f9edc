(** * C41 workspace of the Newton-Krylov solver, C56 the residual it reports *)
From Coq Require Import ZArith Reals List Lra Lia Psatz.
From Verif Require Import PhysModel PhysProps KrylovModel KrylovSpec KrylovProofs.
Import ListNotations.
Local Open Scope R_scope.

(** the arrays have the sizes given by InitializeJFNK, except that m_dS has [s]
    entries *)
Definition shape (n m s : nat) (W : solver) : Prop :=
  kN W = n /\ kM W = m /\ length (kV W) = S m /\ length (kH W) = (m * (m + 1) / 2)%nat /\
  length (kC W) = m /\ length (kSn W) = m /\ length (kS W) = s.
Lemma initialize_shape : forall n m eps W, initialize (Some false) n m eps = Ok W ->
  shape (Z.to_nat n) (Z.to_nat m) (Z.to_nat m) W /\ kEps W = eps /\ (1 <= Z.to_nat n <= Z.to_nat m)%nat.
Proof.
  intros n m eps W H. unfold initialize in H. destruct (Z.ltb_spec m n); [discriminate|]. destruct (Z.eqb_spec n 0); [discriminate|].
  destruct (Z.ltb_spec n 0); [discriminate|]. injection H as <-. unfold shape, zeros. cbn [kN kM kV kH kC kSn kS kEps].
  cbn [repeat length]. rewrite !repeat_length. repeat split; try reflexivity; lia.
Qed.

(** ** C56 *)
Lemma outer_ok : forall F M c n m W x ib tol rn k, (forall x j, (j < n)%nat -> F x j = c j + sum n (fun k => M j k * x k)) ->
  shape n m m W -> rn = vnorm n (F x) -> rn <> 0 -> ib = 1 / rn ->
  wp True (fun '(W1, G, err) => forall e, err = Some e -> e <= tol /\ e = length2 n (fun j => F x j - A n M G j) * ib)
    (outer F n m (kEps W) x (F x) ib tol W (F x) rn (fun _ => 0) None k).
Proof.
  intros F M c n m W x ib tol rn k HF (_ & _ & _ & _ & _ & _ & SS) ER NR EI. destruct k as [|k]; [cbn; discriminate|]. cbn [outer].
  apply wp_bind, wp_quo. intros _. apply wp_bind, wp_set; [|trivial]. intros LV. apply wp_bind, wp_set; [|trivial]. intros LS.
  unfold zeros in LS. rewrite repeat_length in LS.
  apply wp_bind, wp_get; [|trivial]. intros L0.
  assert (0 < length (zeros (length (kS W))))%nat as LZ by (unfold zeros; rewrite repeat_length; exact LS).
  rewrite nth_upd_eq by exact LZ.
  assert (rn * ib = 1) as E1 by (rewrite EI; field; exact NR). rewrite E1.
  assert (length2 n (F x) = rn) as EL by (rewrite ER, vnorm_length; reflexivity).
  destruct (Rle_dec 1 tol) as [T|NT].
  - cbn [wp]. intros e [= <-]. split; [exact T|].
    transitivity (rn * ib); [symmetry; exact E1|]. f_equal. rewrite <- EL. unfold length2. f_equal. apply sum_ext. intros j _.
    assert (A n M (fun _ => 0) j = 0) as ->. { unfold A. transitivity (sum n (fun _ => 0)); [apply sum_ext; intros; ring|apply sum_zero]. } ring.
  - apply wp_bind. set (W1 := Solver _ _ _ _ _ _ _ _). set (v0 := scal (F x) (1 / rn)) in *.
    eapply wp_weaken; [|eapply (inner_ok F n (kEps W) M c HF (F x) x ib tol m W1 (fun _ => v0) (fun _ => v0) (fun _ => v0) 0)].
    + intros [[W2 G1] e1] (T & E). cbv beta. destruct (Rle_dec e1 tol) as [_|N]; [|lra]. cbn [wp]. intros e [= <-]. auto.
    + assert (vdot n v0 v0 = 1) as U.
      { unfold v0. rewrite vdot_scal, vdot_comm, vdot_scal. pose proof (sqrt_sqrt _ (vdot_pos n (F x))) as SQ. fold (vnorm n (F x)) in SQ. rewrite <- ER in SQ.
        rewrite <- SQ. field. exact NR. }
      constructor; cbn [kS kV kC kSn kH W1].
      * rewrite length_upd by exact LZ. exact LZ.
      * intros k' Lk. replace k' with 0%nat by lia. rewrite nth_upd_eq by exact LV. reflexivity.
      * intros j k' Lj Lk. replace j with 0%nat by lia. replace k' with 0%nat by lia. exact U.
      * intros k' Lk. lia.
      * reflexivity.
      * exact U.
      * intros u Hu. apply (Hu 0%nat). lia.
      * intros; lia.
      * intros j Lj. cbn [sum]. rewrite nth_upd_eq by exact LZ. unfold v0, scal. field. exact NR.
    + cbn [kS W1]. rewrite length_upd by exact LZ. unfold zeros. rewrite repeat_length. symmetry; exact SS.
    + reflexivity.
Qed.

(** The value returned is the residual left, relative to the residual at the start,
    for every system of linear equations: the step is as accurate as it claims. *)
Theorem C56_residual : forall F n m s W x maxit tol W' x' e, affine n F -> shape n m s W -> s = m ->
  newton_step F W x maxit tol = Ok (W', x', e) ->
  (length2 n (F x) < / 10 ^ 14 /\ x' = x /\ e = 0) \/
  (e <= tol /\ length2 n (F x') = e * length2 n (F x)).
Proof.
  intros F n m s W x maxit tol W' x' e (M & c & HF) SH -> H. pose proof SH as (EN & EM & _). unfold newton_step in H. rewrite EN, EM in H.
  destruct (Rlt_dec (Rabs (vnorm n (F x))) (/ 10 ^ 14)) as [L|L].
  - injection H as <- <- <-. left. split; [|auto]. rewrite <- vnorm_length. pose proof (Rle_abs (vnorm n (F x))). lra.
  - right. assert (vnorm n (F x) <> 0) as NR. { intros Z. apply L. rewrite Z, Rabs_R0. apply Rinv_0_lt_compat, pow_lt; lra. }
    unfold quo in H at 1. destruct (Req_EM_T (vnorm n (F x)) 0); [contradiction|]. cbn [bind] in H.
    pose proof (outer_ok F M c n m W x (1 / vnorm n (F x)) tol _ (Z.to_nat maxit) HF SH eq_refl NR eq_refl) as K.
    destruct (quo 1 (kEps W)); cbn [bind] in H; try discriminate.
    destruct (outer _ _ _ _ _ _ _ _ _ _ _ _ _) as [[[W1 G] err]| | |]; cbn [bind] in H; try discriminate.
    destruct err as [e'|]; [|discriminate]. cbn [wp] in K. destruct (K e' eq_refl) as (T & E). destruct (Rlt_dec tol e'); [discriminate|].
    injection H as <- <- <-. split; [exact T|]. rewrite E, (vnorm_length n (F x)). rewrite vnorm_length in NR.
    transitivity (length2 n (fun j => F x j - A n M G j)); [|field; exact NR]. unfold length2. f_equal. apply sum_ext. intros j Lj.
    enough (F (fun j => x j - G j) j = F x j - A n M G j) as -> by reflexivity. rewrite !HF by exact Lj. unfold A.
    rewrite (sum_ext n (fun k => M j k * (x k - G k)) (fun k => M j k * x k + -1 * (M j k * G k))) by (intros; ring).
    rewrite sum_plus, sum_scal. ring.
Qed.
Print Assumptions C56_residual.

(** ** C41: accesses *)
Lemma gram_safe : forall n V u0 i H w, (i < length V)%nat -> (u0 + i < length H)%nat ->
  wp False (fun r => length (fst r) = length H) (gram n V u0 i H w).
Proof.
  intros n V u0 i H w LV LH. unfold gram.
  apply (wp_loop _ False (fun _ r => length (fst r) = length H) _ (S i) 0); [reflexivity|].
  intros k [H1 w1] L E. cbn [fst] in E. apply wp_bind, wp_row; [|lia]. intros vk _. apply wp_bind, wp_set; [|lia]. intros L1.
  apply wp_bind, wp_get; [|rewrite length_upd by exact L1; lia]. intros _. cbn. rewrite length_upd by exact L1. exact E.
Qed.
Lemma rotations_safe : forall C Sn u0 i H, (i <= length C)%nat -> (i <= length Sn)%nat -> (u0 + i < length H)%nat ->
  wp False (fun H' => length H' = length H) (rotations C Sn u0 i H).
Proof.
  intros C Sn u0 i H LC LS LH. unfold rotations. apply (wp_loop _ False (fun _ H' => length H' = length H) _ i 0); [reflexivity|].
  intros k H1 L E. apply wp_bind, wp_get; [|lia]. intros _. apply wp_bind, wp_get; [|lia]. intros _. apply wp_bind, wp_get; [|lia]. intros _.
  apply wp_bind, wp_get; [|lia]. intros _. apply wp_bind, wp_set; [|lia]. intros L1.
  apply wp_set; [|rewrite length_upd by exact L1; lia]. intros L2. rewrite !length_upd by (rewrite ?length_upd by exact L1; lia). exact E.
Qed.
Lemma tri_bound : forall i k m, (i < m)%nat -> (k <= i)%nat -> (i * (i + 1) / 2 + k < m * (m + 1) / 2)%nat.
Proof.
  intros i k m L K. pose proof (tri_step i). assert (S i * (S i + 1) / 2 <= m * (m + 1) / 2)%nat by (apply Nat.div_le_mono; nia). lia.
Qed.
Lemma body_safe : forall F n m s W x fx ib i, shape n m s W -> (i < m)%nat -> (i + 1 < s)%nat ->
  wp False (fun r => shape n m s (fst r)) (body F n (kEps W) x fx ib W (i * (i + 1) / 2) i).
Proof.
  intros F n m s W x fx ib i (EN & EM & LV & LH & LC & LSn & LS) Li Ls. unfold body.
  pose proof (tri_bound i i m Li (le_n _)) as TB. set (u0 := (i * (i + 1) / 2)%nat) in *.
  apply wp_bind, wp_row; [|lia]. intros v _. apply wp_bind. unfold product. apply wp_bind, wp_quo. intros _. cbn [wp].
  apply wp_bind. eapply wp_weaken; [|apply gram_safe; [lia|rewrite LH; exact TB]]. intros [H1 w] E1. cbn [fst] in E1.
  apply wp_bind, wp_set; [|lia]. intros L1. apply wp_bind. eapply wp_weaken; [|apply rotations_safe; rewrite ?LC, ?LSn, ?E1, ?LH; lia].
  cbv beta. intros H2 E2. apply wp_bind, wp_get; [|lia]. intros L2. destruct (givens _ _) as [c t].
  apply wp_bind, wp_set; [|lia]. intros L3. apply wp_bind, wp_set; [|lia]. intros L4. apply wp_bind, wp_get; [|lia]. intros _.
  apply wp_bind, wp_set; [|lia]. intros L5. apply wp_bind, wp_set; [|rewrite length_upd by exact L5; lia]. intros L6.
  apply wp_bind, wp_set; [|lia]. intros L7. apply wp_bind, wp_get; [|rewrite !length_upd by (rewrite ?length_upd by exact L5; lia); lia]. intros _.
  cbn [wp fst]. unfold shape. cbn [kN kM kV kH kC kSn kS]. rewrite !length_upd by (rewrite ?length_upd by exact L5; lia).
  repeat split; lia.
Qed.
Lemma dtpsv_safe : forall nn ap y, (nn <= length y)%nat -> (nn * (nn + 1) / 2 <= length ap)%nat ->
  wp False (fun y' => length y' = length y) (dtpsv nn ap y).
Proof.
  intros nn ap y LY LA. unfold dtpsv. apply (wp_loop_rev _ False (fun _ y' => length y' = length y)); [reflexivity|].
  intros j y1 Lj E. apply wp_bind, wp_get; [|lia]. intros _. destruct (Req_EM_T _ _); [exact E|].
  pose proof (tri_bound j j nn Lj (le_n _)). apply wp_bind, wp_get; [|lia]. intros _. apply wp_bind, wp_quo. intros _.
  apply wp_bind, wp_set; [|lia]. intros L1.
  apply (wp_loop_rev _ False (fun _ y' => length y' = length y)); [rewrite length_upd by exact L1; exact E|].
  intros k y2 Lk E2. pose proof (tri_bound j k nn Lj ltac:(lia)). apply wp_bind, wp_get; [|lia]. intros _. apply wp_bind, wp_get; [|lia]. intros L2.
  apply wp_set; [|lia]. intros _. rewrite length_upd by exact L2. exact E2.
Qed.
Lemma update_safe : forall V Y cnt G, (cnt <= length V)%nat -> (cnt <= length Y)%nat -> wp False (fun _ => True) (update V Y cnt G).
Proof.
  intros V Y cnt G LV LY. unfold update. apply (wp_loop _ False (fun _ _ => True) _ cnt 0); [trivial|].
  intros k G1 L _. apply wp_bind, wp_get; [|lia]. intros _. apply wp_bind, wp_row; [|lia]. intros v _. exact I.
Qed.
Lemma inner_safe : forall F n m s x fx ib tol k W G err i, shape n m s W -> (m < s)%nat -> (i + k = m)%nat ->
  wp False (fun r => shape n m s (fst (fst r)) /\ kEps (fst (fst r)) = kEps W) (inner F n (kEps W) x fx ib tol W G err (i * (i + 1) / 2) i k).
Proof.
  intros F n m s x fx ib tol; induction k as [|k IH]; intros W G err i SH LS L; [cbn; auto|].
  cbn [inner]. apply wp_bind.
  assert (wp False (fun r => shape n m s (fst r) /\ kEps (fst r) = kEps W) (body F n (kEps W) x fx ib W (i * (i + 1) / 2) i)) as B.
  { pose proof (body_safe F n m s W x fx ib i SH ltac:(lia) ltac:(lia)) as B.
    assert (wp True (fun r => kEps (fst r) = kEps W) (body F n (kEps W) x fx ib W (i * (i + 1) / 2) i)) as C.
    { unfold body. repeat (apply wp_bind; match goal with |- wp _ _ ?t => destruct t as [?| | |]; try exact I end; cbn [wp];
        repeat match goal with |- wp _ _ (let '(_, _) := ?q in _) => destruct q end). reflexivity. }
    destruct (body _ _ _ _ _ _ _ _ _); cbn [wp] in *; auto. }
  eapply wp_weaken; [|exact B]. intros [W1 e] (SH1 & EE). cbn [fst] in *. destruct (Rle_dec e tol).
  - pose proof SH1 as (_ & _ & LV & LH & _ & _ & LS1). apply wp_bind.
    assert ((i + 1) * (i + 1 + 1) / 2 <= m * (m + 1) / 2)%nat by (apply Nat.div_le_mono; nia).
    eapply wp_weaken; [|apply dtpsv_safe; [lia|rewrite LH; assumption]]. cbv beta. intros Y EY. apply wp_bind.
    eapply wp_weaken; [|apply update_safe; lia]. intros G1 _. cbn. auto.
  - rewrite tri_step. replace (i + 1)%nat with (S i) by lia. rewrite <- EE. eapply wp_weaken; [|apply IH; [exact SH1|exact LS|lia]].
    cbv beta. intros r (A & B'). split; [exact A|]. rewrite B'. reflexivity.
Qed.
Lemma outer_safe : forall F n m s x fx ib tol k W R0 rn G err, shape n m s W -> (m < s)%nat ->
  wp False (fun r => (k = 0%nat \/ snd r <> None)) (outer F n m (kEps W) x fx ib tol W R0 rn G err k).
Proof.
  intros F n m s x fx ib tol; induction k as [|k IH]; intros W R0 rn G err SH LS; [cbn; auto|]. cbn [outer].
  pose proof SH as (EN & EM & LV & LH & LC & LSn & LSS).
  apply wp_bind, wp_quo. intros _. apply wp_bind, wp_set; [|lia]. intros L1. apply wp_bind, wp_set; [|unfold zeros; rewrite repeat_length; lia]. intros L2.
  apply wp_bind, wp_get; [|rewrite length_upd by exact L2; unfold zeros; rewrite repeat_length; lia]. intros _.
  destruct (Rle_dec _ tol); [cbn; right; discriminate|]. apply wp_bind.
  set (W1 := Solver _ _ _ _ _ _ _ _). change (kEps W) with (kEps W1).
  assert (shape n m s W1) as SH1.
  { unfold shape, W1. cbn [kN kM kV kH kC kSn kS]. rewrite !length_upd by assumption. unfold zeros. rewrite !repeat_length. repeat split; assumption. }
  eapply wp_weaken; [|apply (inner_safe F n m s x fx ib tol m W1 G _ 0 SH1 LS eq_refl)]. intros [[W2 G1] e1] (SH2 & EE). cbn [fst] in *.
  destruct (Rle_dec e1 tol); [cbn; right; discriminate|]. pose proof SH2 as (_ & _ & LV2 & LH2 & _ & _ & LS2).
  apply wp_bind. eapply wp_weaken; [|apply dtpsv_safe; [lia|rewrite LH2; lia]]. cbv beta. intros Y EY. apply wp_bind.
  eapply wp_weaken; [|apply update_safe; lia]. intros G2 _. apply wp_bind, wp_quo. intros _. destruct (Rle_dec _ tol); [cbn; right; discriminate|].
  rewrite <- EE. destruct k as [|k']; [cbn; right; discriminate|].
  eapply wp_weaken; [|apply IH; [exact SH2|exact LS]]. cbv beta. intros r [K|K]; [discriminate|right; exact K].
Qed.

(** All accesses are in bounds if m_dS had one entry more: the arrays m_dV, m_dH,
    m_dCS, m_dSN, m_dY are large enough, for every function, state and tolerance. *)
Theorem C41_widened : forall F n m W x maxit tol, shape n m (S m) W -> (0 < maxit)%Z ->
  newton_step F W x maxit tol <> Undef.
Proof.
  intros F n m W x maxit tol SH HM H. pose proof SH as (EN & EM & _). unfold newton_step in H. rewrite EN, EM in H.
  destruct (Rlt_dec _ _); [discriminate|]. destruct (quo 1 (vnorm n (F x))) eqn:E1; cbn [bind] in H; try discriminate.
  2: { unfold quo in E1. destruct (Req_EM_T _ _); discriminate. }
  destruct (quo 1 (kEps W)) eqn:E2; cbn [bind] in H; try discriminate.
  2: { unfold quo in E2. destruct (Req_EM_T _ _); discriminate. }
  pose proof (outer_safe F n m (S m) x (F x) a tol (Z.to_nat maxit) W (F x) (vnorm n (F x)) (fun _ => 0) None SH ltac:(lia)) as K.
  destruct (outer _ _ _ _ _ _ _ _ _ _ _ _ _) as [[[W1 G] [e|]]| | |]; cbn [bind wp snd] in *; try discriminate; try contradiction.
  - destruct (Rlt_dec tol e); discriminate.
  - destruct K as [K|K]; [lia|congruence].
Qed.
Print Assumptions C41_widened.

(** ** C41: the last iteration *)
Lemma loop_total : forall A (I : A -> Prop) f len a s, I s ->
  (forall k s, (a <= k < a + len)%nat -> I s -> exists s', f s k = Ok s' /\ I s') -> exists s', loop f (seq a len) s = Ok s' /\ I s'.
Proof.
  intros A I f; induction len as [|len IH]; intros a s H K; [exists s; auto|]. cbn [seq loop].
  destruct (K a s) as (s1 & E & H1); [lia|exact H|]. rewrite E. cbn [bind]. apply IH; [exact H1|]. intros k t L J. apply K; [lia|exact J].
Qed.
Lemma set_some : forall A (l : list A) i v, (i < length l)%nat -> set l i v = Ok (upd l i v).
Proof. intros. unfold set. destruct (Nat.ltb_spec i (length l)); [reflexivity|lia]. Qed.
Lemma get_some : forall l i, (i < length l)%nat -> get l i = Ok (nth i l 0).
Proof.
  intros l i H. unfold get. destruct (nth_error l i) eqn:E; [rewrite (nth_error_nth _ _ 0 E); reflexivity|].
  apply nth_error_None in E. lia.
Qed.
Lemma row_some : forall V k v, (k < length V)%nat -> nth k V None = Some v -> row V k = Ok v.
Proof.
  intros V k v L H. unfold row. destruct (nth_error V k) as [r|] eqn:E.
  - rewrite (nth_error_nth _ _ None E) in H. rewrite H. reflexivity.
  - apply nth_error_None in E. lia.
Qed.
Lemma quo_some : forall a b, b <> 0 -> quo a b = Ok (a / b).
Proof. intros. unfold quo. destruct (Req_EM_T b 0); [contradiction|reflexivity]. Qed.

Lemma body_total : forall F n m s W x fx ib i, shape n m s W -> (i < m)%nat -> (i < s)%nat -> kEps W <> 0 ->
  (forall k, (k <= i)%nat -> exists v, nth k (kV W) None = Some v) ->
  ((i + 1 < s)%nat -> exists r, body F n (kEps W) x fx ib W (i * (i + 1) / 2) i = Ok r) /\
  ((s <= i + 1)%nat -> body F n (kEps W) x fx ib W (i * (i + 1) / 2) i = Undef).
Proof.
  intros F n m s W x fx ib i (EN & EM & LV & LH & LC & LSn & LS) Li Ls NE HV. unfold body.
  pose proof (tri_bound i i m Li (le_n _)) as TB. set (u0 := (i * (i + 1) / 2)%nat) in *.
  destruct (HV i (le_n _)) as (v & Ev). rewrite (row_some _ _ v) by (assumption || lia). cbn [bind].
  unfold product. rewrite quo_some by exact NE. cbn [bind].
  match goal with |- context [gram _ _ _ _ _ ?w] => set (w0 := w) end.
  destruct (loop_total _ (fun r : list R * vec => length (fst r) = length (kH W))
    (fun '(H, w) k => vk <- row (kV W) k ;; H1 <- set H (u0 + k) (vdot n w vk) ;; h <- get H1 (u0 + k) ;; Ok (H1, axpy (- h) vk w)) (S i) 0 (kH W, w0) eq_refl) as ([H1 w] & E1 & L1).
  { intros k [H1 w1] Lk E. cbn [fst] in E. destruct (HV k ltac:(lia)) as (vk & Ek). rewrite (row_some _ _ vk) by (assumption || lia). cbn [bind].
    rewrite set_some by lia. cbn [bind]. rewrite get_some by (rewrite length_upd by lia; lia). cbn [bind]. eexists. split; [reflexivity|].
    cbn [fst]. rewrite length_upd by lia. exact E. }
  change (gram n (kV W) u0 i (kH W) w0 = Ok (H1, w)) in E1. rewrite E1. cbn [bind]. cbn [fst] in L1. rewrite set_some by lia. cbn [bind].
  destruct (loop_total _ (fun H' : list R => length H' = length H1)
    (fun H k => c <- get (kC W) k ;; t <- get (kSn W) k ;; a <- get H (u0 + k) ;; b <- get H (u0 + k + 1) ;;
       H1 <- set H (u0 + k + 1) (- t * a + c * b) ;; set H1 (u0 + k) (c * a + t * b)) i 0 H1 eq_refl) as (H2 & E2 & L2).
  { intros k H2 Lk E. rewrite !get_some by lia. cbn [bind]. rewrite (set_some _ _ (u0 + k + 1)) by lia. cbn [bind].
    rewrite set_some by (rewrite length_upd by lia; lia). eexists. split; [reflexivity|]. rewrite !length_upd by (rewrite ?length_upd by lia; lia). exact E. }
  change (rotations (kC W) (kSn W) u0 i H1 = Ok H2) in E2. rewrite E2. cbn [bind]. rewrite get_some by lia. cbn [bind].
  destruct (givens _ _) as [c t]. rewrite !(set_some _ _ i) by lia. cbn [bind]. rewrite (get_some (kS W)) by lia. cbn [bind]. split; intros L3.
  - rewrite (set_some _ (kS W)) by lia. cbn [bind]. rewrite (set_some _ _ i) by (rewrite length_upd by lia; lia). cbn [bind].
    rewrite set_some by lia. cbn [bind]. rewrite get_some by (rewrite !length_upd by (rewrite ?length_upd by lia; lia); lia). cbn [bind]. eexists. reflexivity.
  - unfold set at 1. destruct (Nat.ltb_spec (i + 1) (length (kS W))); [lia|]. reflexivity.
Qed.

(** With one equation and one iteration per restart the step always writes past the
    end of m_dS, whatever the function, unless it has nothing to do. *)
Theorem C41_one_equation_refuted : forall F W x maxit tol, shape 1 1 1 W -> kEps W <> 0 -> (0 < maxit)%Z -> tol < 1 ->
  / 10 ^ 14 <= Rabs (F x 0%nat) -> newton_step F W x maxit tol = Undef.
Proof.
  intros F W x maxit tol SH NE HM HT HB. pose proof SH as (EN & EM & LV & LH & LC & LSn & LS). unfold newton_step. rewrite EN, EM.
  assert (vnorm 1 (F x) = Rabs (F x 0%nat)) as ER.
  { rewrite vnorm_length. apply length2_scal with (p := fun _ => 1); [intros j L; replace j with 0%nat by lia; ring|]. unfold vdot. cbn. ring. }
  pose proof (Rinv_0_lt_compat (10 ^ 14) ltac:(apply pow_lt; lra)) as TP.
  assert (vnorm 1 (F x) <> 0) as NR by lra.
  rewrite ER, Rabs_Rabsolu. destruct (Rlt_dec (Rabs (F x 0%nat)) (/ 10 ^ 14)); [lra|]. rewrite <- ER. set (rn := vnorm 1 (F x)) in *.
  rewrite !quo_some by assumption. cbn [bind]. destruct (Z.to_nat maxit) as [|k] eqn:EK; [lia|]. cbn [outer].
  rewrite quo_some by assumption. cbn [bind]. rewrite set_some by lia. cbn [bind]. rewrite LS. rewrite set_some by (cbn; lia). cbn [bind].
  rewrite get_some by (cbn; lia). cbn [bind]. change (nth 0 (upd (zeros 1) 0 rn) 0) with rn.
  replace (rn * (1 / rn)) with 1 by (field; exact NR). destruct (Rle_dec 1 tol); [lra|].
  set (W1 := Solver _ _ _ _ _ _ _ _). cbn [inner].
  assert (shape 1 1 1 W1) as SH1.
  { unfold shape, W1. cbn [kN kM kV kH kC kSn kS]. rewrite length_upd by lia. unfold zeros. rewrite repeat_length. repeat split; assumption || reflexivity. }
  destruct (body_total F 1 1 1 W1 x (F x) (1 / rn) 0 SH1) as (_ & U); [lia|lia|exact NE| |].
  { intros k' Lk. replace k' with 0%nat by lia. eexists. cbn [kV W1]. apply nth_upd_eq. lia. }
  change (kEps W1) with (kEps W) in U. change (0 * (0 + 1) / 2)%nat with 0%nat in U. rewrite U by lia. reflexivity.
Qed.
Print Assumptions C41_one_equation_refuted.

(** The constructor with arguments reads m_fInitialized before it is assigned. *)
Theorem C41_constructor_refuted : forall n m eps, construct n m eps = Undef.
Proof. reflexivity. Qed.
Print Assumptions C41_constructor_refuted.

(** A step allowed no iterations compares the unassigned dError. *)
Theorem C41_no_iterations_refuted : forall F W x maxit tol, (maxit <= 0)%Z -> kEps W <> 0 ->
  / 10 ^ 14 <= length2 (kN W) (F x) -> newton_step F W x maxit tol = Undef.
Proof.
  intros F W x maxit tol HM NE HB. unfold newton_step. rewrite vnorm_length.
  pose proof (Rinv_0_lt_compat (10 ^ 14) ltac:(apply pow_lt; lra)) as TP. rewrite Rabs_right by lra.
  destruct (Rlt_dec _ _); [lra|]. rewrite !quo_some by (assumption || lra). cbn [bind]. replace (Z.to_nat maxit) with 0%nat by lia. reflexivity.
Qed.
Print Assumptions C41_no_iterations_refuted.

(** ** C41: every size *)
(** cyclic shift of [n] entries, and unit vectors *)
Definition shift (n : nat) (x : vec) : vec := fun j => if Nat.eqb j 0 then x (n - 1)%nat else x (j - 1)%nat.
Definition unit (k : nat) : vec := fun j => if Nat.eqb j k then 1 else 0.
Lemma sum_unit : forall n k f, (k < n)%nat -> sum n (fun j => unit k j * f j) = f k.
Proof.
  intros n k f. induction n as [|n IH]; intros L; [lia|]. cbn [sum]. destruct (Nat.eq_dec k n) as [->|N].
  - rewrite (sum_ext n _ (fun _ => 0)); [rewrite sum_zero; unfold unit; rewrite Nat.eqb_refl; ring|].
    intros j Lj. unfold unit. destruct (Nat.eqb_spec j n); [lia|ring].
  - rewrite IH by lia. unfold unit. destruct (Nat.eqb_spec n k); [lia|ring].
Qed.
Lemma vdot_unit : forall n k l, (k < n)%nat -> vdot n (unit k) (unit l) = if Nat.eqb k l then 1 else 0.
Proof. intros. rewrite vdot_sum, sum_unit by assumption. reflexivity. Qed.
Lemma shift_unit : forall n k v j, (k + 1 < n)%nat -> (j < n)%nat -> (forall j, (j < n)%nat -> v j = unit k j) -> shift n v j = unit (k + 1) j.
Proof.
  intros n k v j L Lj H. unfold shift. destruct (Nat.eqb_spec j 0) as [->|N].
  - rewrite H by lia. unfold unit. destruct (Nat.eqb_spec (n - 1) k); [lia|]. destruct (Nat.eqb_spec 0 (k + 1)); [lia|]. reflexivity.
  - rewrite H by lia. unfold unit. destruct (Nat.eqb_spec (j - 1) k), (Nat.eqb_spec j (k + 1)); try lia; reflexivity.
Qed.
Lemma shift_affine : forall n, (0 < n)%nat -> affine n (shift n).
Proof.
  intros n L. exists (fun j k => unit (if Nat.eqb j 0 then n - 1 else j - 1)%nat k), (fun _ => 0). intros x j Lj.
  rewrite sum_unit by (destruct (Nat.eqb_spec j 0); lia). unfold shift. destruct (Nat.eqb j 0); ring.
Qed.
Lemma rotations_zero : forall C Sn u0 i H, (forall l, (l <= i)%nat -> nth (u0 + l) H 0 = 0) ->
  wp True (fun H' => forall l, (l <= i)%nat -> nth (u0 + l) H' 0 = 0) (rotations C Sn u0 i H).
Proof.
  intros C Sn u0 i H Z. unfold rotations. apply (wp_loop _ True (fun _ H' => forall l, (l <= i)%nat -> nth (u0 + l) H' 0 = 0) _ i 0); [exact Z|].
  intros k H1 L E. apply wp_bind, wp_get; [|trivial]. intros _. apply wp_bind, wp_get; [|trivial]. intros _.
  apply wp_bind, wp_get; [|trivial]. intros _. apply wp_bind, wp_get; [|trivial]. intros L0. apply wp_bind, wp_set; [|trivial]. intros L1.
  apply wp_set; [|trivial]. intros L2 l Ll. rewrite length_upd in L2 by exact L1. rewrite E by lia. replace (u0 + k + 1)%nat with (u0 + S k)%nat in * by lia. rewrite E by lia.
  rewrite nth_upd by (rewrite length_upd by exact L1; exact L2). destruct (Nat.eqb_spec (u0 + l) (u0 + k)); [ring|]. rewrite nth_upd by exact L1.
  destruct (Nat.eqb_spec (u0 + l) (u0 + S k)); [ring|]. apply E; exact Ll.
Qed.

Definition stagnant (n : nat) (W : solver) (i : nat) : Prop :=
  (forall k, (k <= i)%nat -> exists v, nth k (kV W) None = Some v /\ forall j, (j < n)%nat -> v j = unit k j) /\
  Rabs (nth i (kS W) 0) = 1.
Lemma stagnant_step : forall n W x ib i, stagnant n W i -> (i + 1 < n)%nat ->
  wp True (fun r => stagnant n (fst r) (i + 1) /\ kEps (fst r) = kEps W /\ snd r = ib)
    (body (shift n) n (kEps W) x (shift n x) ib W (i * (i + 1) / 2) i).
Proof.
  intros n W x ib i (HV & HS) L. unfold body. set (u0 := (i * (i + 1) / 2)%nat).
  destruct (HV i (le_n _)) as (vi & Evi & Hvi). apply wp_bind, wp_row; [|trivial]. intros v' Ev. rewrite Evi in Ev. injection Ev as <-.
  apply wp_bind. unfold product. apply wp_bind, wp_quo. intros NE. cbn [wp].
  match goal with |- context [gram _ _ _ _ _ ?w] => set (w0 := w) end.
  assert (forall j, (j < n)%nat -> w0 j = unit (i + 1) j) as W0.
  { intros j Lj. rewrite <- (shift_unit n i vi j L Lj Hvi). unfold w0, shift, axpy. destruct (Nat.eqb j 0); field; exact NE. }
  set (vs := fun k => match nth k (kV W) None with Some v => v | None => fun _ => 0 end).
  assert (forall k, (k <= i)%nat -> nth k (kV W) None = Some (vs k) /\ forall j, (j < n)%nat -> vs k j = unit k j) as HVS.
  { intros k Lk. destruct (HV k Lk) as (v & E & H). unfold vs. rewrite E. auto. }
  assert (orthonormal n vs i) as O.
  { intros j k Lj Lk. rewrite (vdot_ext n (vs j) (unit j) (vs k) (unit k)); [apply vdot_unit; lia|apply HVS; exact Lj|apply HVS; exact Lk]. }
  apply wp_bind. eapply wp_weaken; [|apply gram_ok with (v := vs); [exact O|apply HVS]]. cbv beta. intros [H1 w] (_ & _ & OW & EW).
  assert (forall l, (l <= i)%nat -> nth (u0 + l) H1 0 = 0) as ZH.
  { intros l Ll. assert (vdot n w0 (vs l) = 0) as Z0.
    { rewrite (vdot_ext n w0 (unit (i + 1)) (vs l) (unit l)); [|exact W0|apply HVS; exact Ll]. rewrite vdot_unit by lia. destruct (Nat.eqb_spec (i + 1) l); [lia|reflexivity]. }
    rewrite vdot_sum in Z0. rewrite (sum_ext n _ (fun j => w j * vs l j + sum (S i) (fun k => nth (u0 + k) H1 0 * (vs k j * vs l j)))) in Z0.
    - rewrite sum_plus, <- vdot_sum, OW in Z0 by exact Ll. rewrite sum_swap in Z0.
      rewrite (sum_ext (S i) _ (fun k => unit l k * nth (u0 + k) H1 0)) in Z0; [rewrite sum_unit in Z0 by lia; lra|].
      intros k Lk. rewrite sum_scal, <- vdot_sum, O by lia. unfold unit. destruct (Nat.eqb k l); ring.
    - intros j _. rewrite EW. rewrite Rmult_plus_distr_r. f_equal. rewrite Rmult_comm, <- sum_scal. apply sum_ext. intros; ring. }
  assert (forall j, (j < n)%nat -> w j = unit (i + 1) j) as EW1.
  { intros j Lj. rewrite <- W0 by exact Lj. rewrite EW. rewrite (sum_ext (S i) _ (fun _ => 0)); [rewrite sum_zero; ring|].
    intros l Ll. rewrite ZH by lia. ring. }
  assert (vnorm n w = 1) as EN.
  { unfold vnorm. rewrite (vdot_ext n w (unit (i + 1)) w (unit (i + 1)) EW1 EW1), vdot_unit, Nat.eqb_refl by lia. apply sqrt_1. }
  apply wp_bind, wp_set; [|trivial]. intros L1. apply wp_bind. eapply wp_weaken; [|apply rotations_zero; exact ZH]. cbv beta. intros H2 ZH2.
  apply wp_bind, wp_get; [|trivial]. intros L2. rewrite ZH2 by lia. rewrite EN. pose proof (C40_givens 0 1) as G. destruct (givens 0 1) as [c t]. destruct G as (G1 & G2 & _).
  assert (c = 0) as -> by lra. apply wp_bind, wp_set; [|trivial]. intros L3. apply wp_bind, wp_set; [|trivial]. intros L4. apply wp_bind, wp_get; [|trivial]. intros L5.
  apply wp_bind, wp_set; [|trivial]. intros L6. apply wp_bind, wp_set; [|trivial]. intros L7. apply wp_bind, wp_set; [|trivial]. intros _.
  apply wp_bind, wp_get; [|trivial]. intros _. cbn [wp fst snd].
  assert (nth (i + 1) (upd (upd (kS W) (i + 1) (- t * nth i (kS W) 0)) i (0 * nth i (kS W) 0)) 0 = - t * nth i (kS W) 0) as ES.
  { rewrite nth_upd_ne by (assumption || lia). apply nth_upd_eq; exact L6. }
  assert (Rabs (- t * nth i (kS W) 0) = 1) as ET.
  { rewrite Rabs_mult, HS, Rabs_Ropp, Rmult_1_r. assert (t * t = 1) by lra. destruct (Rcase_abs t); unfold Rabs; destruct (Rcase_abs t); nra. }
  destruct (Req_EM_T 1 0); [lra|]. split; [|split; [reflexivity|rewrite ES, ET; ring]]. split; cbn [kV kS].
  - intros k Lk. destruct (Nat.eq_dec k (i + 1)) as [->|N].
    + eexists. split; [apply nth_upd_eq; exact L1|]. intros j Lj. unfold scal. rewrite EW1 by exact Lj. field.
    + rewrite nth_upd_ne by assumption. apply HV. lia.
  - rewrite ES. exact ET.
Qed.
Lemma stagnant_run : forall n x ib tol k W i G err, shape n n n W -> stagnant n W i -> kEps W <> 0 -> tol < ib -> (i + S k = n)%nat ->
  inner (shift n) n (kEps W) x (shift n x) ib tol W G err (i * (i + 1) / 2) i (S k) = Undef.
Proof.
  intros n x ib tol; induction k as [|k IH]; intros W i G err SH ST NE HT L.
  - cbn [inner]. destruct (body_total (shift n) n n n W x (shift n x) ib i SH) as (_ & U); [lia|lia|exact NE| |].
    { intros k Lk. destruct (proj1 ST k Lk) as (v & E & _). eauto. }
    rewrite U by lia. reflexivity.
  - cbn [inner]. destruct (body_total (shift n) n n n W x (shift n x) ib i SH) as (U & _); [lia|lia|exact NE| |].
    { intros k' Lk. destruct (proj1 ST k' Lk) as (v & E & _). eauto. }
    destruct (U ltac:(lia)) as ([W1 e] & E). pose proof (stagnant_step n W x ib i ST ltac:(lia)) as K.
    pose proof (body_safe (shift n) n n n W x (shift n x) ib i SH ltac:(lia) ltac:(lia)) as K2.
    rewrite E in K, K2 |- *. cbn [bind]. cbn [wp fst snd] in K, K2. destruct K as (ST1 & EE & ->). destruct (Rle_dec ib tol); [lra|].
    rewrite tri_step. replace (i + 1)%nat with (S i) in * by lia. rewrite <- EE. eapply (IH W1 (S i) G ib); [exact K2|exact ST1|rewrite EE; exact NE|exact HT|lia].
Qed.
(** The sizes used by VerticalDynamicsFEM (as many iterations as equations) are too
    small for every number of equations: there is a linear system, its matrix a
    permutation, on which the step writes past the end of m_dS. *)
Theorem C41_every_size_refuted : forall n W maxit tol, (0 < n)%nat -> shape n n n W -> kEps W <> 0 -> (0 < maxit)%Z -> tol < 1 ->
  exists F x, affine n F /\ newton_step F W x maxit tol = Undef.
Proof.
  intros n W maxit tol Hn SH NE HM HT. exists (shift n), (unit (n - 1)). split; [apply shift_affine; exact Hn|].
  pose proof SH as (EN & EM & LV & LH & LC & LSn & LS). unfold newton_step. rewrite EN, EM.
  assert (forall j, (j < n)%nat -> shift n (unit (n - 1)) j = unit 0 j) as EF.
  { intros j Lj. unfold shift, unit. destruct (Nat.eqb_spec j 0); [rewrite Nat.eqb_refl; reflexivity|]. destruct (Nat.eqb_spec (j - 1) (n - 1)); [lia|reflexivity]. }
  assert (vnorm n (shift n (unit (n - 1))) = 1) as ER.
  { unfold vnorm. rewrite (vdot_ext n _ _ _ _ EF EF), vdot_unit by exact Hn. apply sqrt_1. }
  rewrite ER, Rabs_R1. destruct (Rlt_dec 1 (/ 10 ^ 14)) as [B|_].
  { exfalso. assert (/ 10 ^ 14 < / 1) by (apply Rinv_lt_contravar; lra). lra. }
  rewrite !quo_some by (assumption || lra). cbn [bind]. destruct (Z.to_nat maxit) as [|k] eqn:EK; [lia|]. cbn [outer].
  rewrite quo_some by lra. cbn [bind]. rewrite set_some by lia. cbn [bind]. rewrite set_some by (unfold zeros; rewrite repeat_length; lia). cbn [bind].
  assert (0 < length (zeros (length (kS W))))%nat as LZ by (unfold zeros; rewrite repeat_length; lia).
  rewrite get_some by (rewrite length_upd by exact LZ; exact LZ). cbn [bind]. rewrite nth_upd_eq by exact LZ.
  destruct (Rle_dec _ tol); [lra|]. set (W1 := Solver _ _ _ _ _ _ _ _).
  destruct n as [|n]; [lia|].
  pose proof (stagnant_run (S n) (unit (S n - 1)) (1 / 1) tol n W1 0 (fun _ => 0) (1 * (1 / 1))) as RUN. change (0 * (0 + 1) / 2)%nat with 0%nat in RUN.
  change (kEps W1) with (kEps W) in RUN. rewrite RUN; [reflexivity| | |exact NE|lra|lia].
  - unfold shape, W1. cbn [kN kM kV kH kC kSn kS]. rewrite !length_upd by (exact LZ || lia). unfold zeros. rewrite !repeat_length. repeat split; assumption.
  - unfold stagnant, W1. cbn [kV kS]. split.
    + intros k' Lk. replace k' with 0%nat by lia. eexists. split; [apply nth_upd_eq; lia|]. intros j Lj. unfold scal. rewrite EF by exact Lj. field.
    + rewrite nth_upd_eq by exact LZ. apply Rabs_R1.
Qed.
Print Assumptions C41_every_size_refuted.

(** ** C56: a step with an error, and the Newton loop *)
Definition sys (y : vec) : vec := fun j => if Nat.eqb j 0 then 10 + 4 * y 0%nat else 3 * y 0%nat + 4 * y 1%nat.
Definition sys_ws : solver := Solver 2 2 1 (repeat (Some (fun _ => 0)) 3) (zeros 3) (zeros 2) (zeros 2) (zeros 2).
Lemma sys_body : let v0 := scal (sys (fun _ => 0)) (1 / 10) in
  let W := Solver 2 2 1 [Some v0; Some (fun _ => 0); Some (fun _ => 0)] (zeros 3) (zeros 2) (zeros 2) [10; 0] in
  exists V1 e, body sys 2 1 (fun _ => 0) (sys (fun _ => 0)) (1 / 10) W 0 0 =
    Ok (Solver 2 2 1 [Some v0; V1; Some (fun _ => 0)] [4 / 5 * 4 + 3 / 5 * 3; 0; 0] [4 / 5; 0] [3 / 5; 0] [4 / 5 * 10; - (3 / 5) * 10], e) /\ e = 3 / 5.
Proof.
  intros v0 W. unfold body. cbn [row nth_error kV kH kC kSn kS kEps kN kM bind W]. unfold product. rewrite quo_some by lra. cbn [bind].
  unfold gram. set (w0 := fun j => _ * (1 / 1)).
  assert (v0 0%nat = 1 /\ v0 1%nat = 0) as (V0 & V1) by (unfold v0, scal, sys; cbn; split; field).
  assert (w0 0%nat = 4 /\ w0 1%nat = 3) as (W0 & W1).
  { unfold w0, sys, axpy. cbn [Nat.eqb]. rewrite V0, V1. split; field. }
  assert (vdot 2 w0 v0 = 4) as EH by (unfold vdot; cbn [seq fold_left]; rewrite V0, V1, W0, W1; ring).
  cbn [seq loop row nth_error bind Nat.add set get length zeros repeat Nat.ltb Nat.leb firstn skipn app]. rewrite !EH.
  set (w1 := axpy (- (4)) v0 w0). assert (vnorm 2 w1 = 3) as EN.
  { unfold vnorm, vdot. cbn [seq fold_left]. unfold w1, axpy. rewrite V0, V1, W0, W1.
    replace (0 + (4 + - (4) * 1) * (4 + - (4) * 1) + (3 + - (4) * 0) * (3 + - (4) * 0)) with (3 * 3) by ring. apply sqrt_square; lra. }
  rewrite EN. cbn [rotations seq loop bind get nth_error nth set length Nat.ltb Nat.leb firstn skipn app Nat.add].
  assert (givens 4 3 = (4 / 5, 3 / 5)) as EG.
  { unfold givens. destruct (Req_EM_T 3 0); [lra|]. rewrite !Rabs_right by lra. destruct (Rlt_dec 4 3); [lra|].
    replace (1 + 3 / 4 * (3 / 4)) with (5 / 4 * (5 / 4)) by field. rewrite sqrt_square by lra. f_equal; field. }
  rewrite EG. cbn [bind set get nth_error length Nat.ltb Nat.leb firstn skipn app Nat.add].
  eexists. eexists. split; [reflexivity|].
  replace (- (3 / 5) * 10) with (- (6)) by field. rewrite Rabs_Ropp, Rabs_right by lra. field.
Qed.
Lemma dtpsv_one : forall d y z a b, y <> 0 -> d <> 0 -> dtpsv (0 + 1) [d; a; b] [y; z] = Ok [y / d; z].
Proof.
  intros d y z a b Ny Nd. unfold dtpsv. cbn [seq rev app loop Nat.add]. unfold get at 1. cbn [nth_error bind].
  destruct (Req_EM_T y 0); [contradiction|]. change (0 * 1 / 2 + 0)%nat with 0%nat. unfold get at 1. cbn [nth_error bind].
  rewrite quo_some by exact Nd. reflexivity.
Qed.
Lemma sys_run : exists W' x', newton_step sys sys_ws (fun _ => 0) 1 (9 / 10) = Ok (W', x', 3 / 5) /\
  x' 0%nat = - (8 / 5) /\ x' 1%nat = 0.
Proof.
  unfold newton_step, sys_ws. cbn [kN kM kEps kV kH kC kSn kS].
  assert (vnorm 2 (sys (fun _ => 0)) = 10) as ER.
  { unfold vnorm, vdot, sys. cbn. replace (0 + (10 + 4 * 0) * (10 + 4 * 0) + (3 * 0 + 4 * 0) * (3 * 0 + 4 * 0)) with (10 * 10) by ring. apply sqrt_square; lra. }
  rewrite ER, Rabs_right by lra. destruct (Rlt_dec 10 (/ 10 ^ 14)) as [B|_].
  { exfalso. assert (/ 10 ^ 14 < / 1) by (apply Rinv_lt_contravar; lra). lra. }
  rewrite !quo_some by lra. cbn [bind]. change (Z.to_nat 1) with 1%nat. unfold outer. rewrite quo_some by lra.
  cbn [bind set get zeros repeat length Nat.ltb Nat.leb firstn skipn app nth_error kN kM kEps kV kH kC kSn kS].
  destruct (Rle_dec (10 * (1 / 10)) (9 / 10)); [lra|].
  destruct sys_body as (V1 & e & EB & EE). unfold zeros, repeat in EB. unfold inner at 1. rewrite EB. cbn [bind]. rewrite EE.
  destruct (Rle_dec (3 / 5) (9 / 10)) as [L|]; [|lra].
  cbn [kH kS kV]. rewrite dtpsv_one by lra. cbn [bind]. unfold update at 1.
  cbn [seq loop get nth_error bind row Nat.add]. destruct (Rle_dec (3 / 5) (9 / 10)); [|lra]. cbn [bind].
  destruct (Rlt_dec (9 / 10) (3 / 5)); [lra|]. eexists. eexists. split; [reflexivity|].
  unfold axpy, scal, sys. cbn. split; field.
Qed.
Example C56_case : affine 2 sys /\ shape 2 2 2 sys_ws /\ initialize (Some false) 2 2 1 = Ok sys_ws /\
  exists W' x' e, newton_step sys sys_ws (fun _ => 0) 1 (9 / 10) = Ok (W', x', e) /\ 0 < e < 1.
Proof.
  split; [|split; [|split]].
  - exists (fun j k => if Nat.eqb j 0 then (if Nat.eqb k 0 then 4 else 0) else (if Nat.eqb k 0 then 3 else 4)), (fun j => if Nat.eqb j 0 then 10 else 0).
    intros x j L. unfold sys. destruct j as [|j]; cbn; ring.
  - repeat split.
  - reflexivity.
  - destruct sys_run as (W' & x' & E & _). exists W', x', (3 / 5). split; [exact E|lra].
Qed.

(** The value returned is not the length of the change of the state, which is what
    the header announces ("The L2 norm of the difference between the initial state
    and updated state"). *)
Theorem C56_change_refuted : exists F W x maxit tol W' x' e, affine 2 F /\ initialize (Some false) 2 2 1 = Ok W /\
  newton_step F W x maxit tol = Ok (W', x', e) /\ e <> length2 2 (fun j => x' j - x j).
Proof.
  destruct sys_run as (W' & x' & E & X0 & X1). exists sys, sys_ws, (fun _ => 0), 1%Z, (9 / 10), W', x', (3 / 5).
  destruct C56_case as (AF & _ & IN & _). split; [exact AF|]. split; [exact IN|]. split; [exact E|].
  unfold length2. cbn [sum]. rewrite X0, X1. replace (0 + (- (8 / 5) - 0) * (- (8 / 5) - 0) + (0 - 0) * (0 - 0)) with (8 / 5 * (8 / 5)) by field.
  rewrite sqrt_square by lra. lra.
Qed.
Print Assumptions C56_change_refuted.
(** PerformJFNK reports convergence although the residual is not below the absolute
    tolerance it was given. *)
Theorem C56_tolerance_refuted : exists F W x nmax soltol maxit tol W' x', affine 2 F /\ initialize (Some false) 2 2 1 = Ok W /\
  perform F W x nmax soltol maxit tol = Ok (W', x', true) /\ soltol < length2 2 (F x').
Proof.
  destruct sys_run as (W' & x' & E & X0 & X1). exists sys, sys_ws, (fun _ => 0), 1%Z, 1, 1%Z, (9 / 10), W', x'.
  destruct C56_case as (AF & _ & IN & _). split; [exact AF|]. split; [exact IN|]. split.
  - unfold perform. change (Z.to_nat 1) with 1%nat. cbn [newton_loop]. rewrite E. cbn [bind]. destruct (Rlt_dec (3 / 5) 1); [reflexivity|lra].
  - unfold length2. cbn [sum]. unfold sys. cbn [Nat.eqb]. rewrite X0, X1.
    replace (0 + (10 + 4 * - (8 / 5)) * (10 + 4 * - (8 / 5)) + (3 * - (8 / 5) + 4 * 0) * (3 * - (8 / 5) + 4 * 0)) with (6 * 6) by field.
    rewrite sqrt_square by lra. lra.
Qed.
Print Assumptions C56_tolerance_refuted.

(** the arrays keep their sizes *)
Lemma loop_len : forall A (I : A -> Prop) f l s, I s -> (forall k s, I s -> wp True I (f s k)) -> wp True I (loop f l s).
Proof.
  intros A I f l; induction l as [|k l IH]; intros s H K; [exact H|]. cbn [loop]. apply wp_bind. eapply wp_weaken; [|apply K; exact H].
  intros s' H'. apply IH; assumption.
Qed.
Lemma body_shape : forall F n m s W x fx ib u0 i eps, shape n m s W -> wp True (fun r => shape n m s (fst r) /\ kEps (fst r) = kEps W) (body F n eps x fx ib W u0 i).
Proof.
  intros F n m s W x fx ib u0 i eps (EN & EM & LV & LH & LC & LSn & LS). unfold body.
  apply wp_bind, wp_row; [|trivial]. intros v _. apply wp_bind. unfold product. apply wp_bind, wp_quo. intros _. cbn [wp]. apply wp_bind.
  eapply (wp_weaken _ _ (fun r => length (fst r) = length (kH W))).
  2: { unfold gram. apply (loop_len _ (fun r : list R * vec => length (fst r) = length (kH W))); [reflexivity|]. intros k [H w] E. cbn [fst] in E.
       apply wp_bind, wp_row; [|trivial]. intros vk _. apply wp_bind, wp_set; [|trivial]. intros L1. apply wp_bind, wp_get; [|trivial]. intros _.
       cbn. rewrite length_upd by exact L1. exact E. }
  intros [H1 w] E1. cbn [fst] in E1. apply wp_bind, wp_set; [|trivial]. intros L1. apply wp_bind.
  eapply (wp_weaken _ _ (fun H => length H = length (kH W))).
  2: { unfold rotations. apply (loop_len _ (fun H : list R => length H = length (kH W))); [exact E1|]. intros k H E.
       apply wp_bind, wp_get; [|trivial]. intros _. apply wp_bind, wp_get; [|trivial]. intros _. apply wp_bind, wp_get; [|trivial]. intros _.
       apply wp_bind, wp_get; [|trivial]. intros _. apply wp_bind, wp_set; [|trivial]. intros L2. apply wp_set; [|trivial]. intros L3.
       rewrite !length_upd by assumption. exact E. }
  intros H2 E2. apply wp_bind, wp_get; [|trivial]. intros L2. destruct (givens _ _) as [c t].
  apply wp_bind, wp_set; [|trivial]. intros L3. apply wp_bind, wp_set; [|trivial]. intros L4. apply wp_bind, wp_get; [|trivial]. intros _.
  apply wp_bind, wp_set; [|trivial]. intros L5. apply wp_bind, wp_set; [|trivial]. intros L6.
  apply wp_bind, wp_set; [|trivial]. intros L7. apply wp_bind, wp_get; [|trivial]. intros _.
  cbn [wp fst]. unfold shape. cbn [kN kM kV kH kC kSn kS kEps]. rewrite !length_upd by assumption. repeat split; congruence.
Qed.
Lemma inner_shape : forall F n m s x fx ib tol eps k W G err u0 i, shape n m s W ->
  wp True (fun r => shape n m s (fst (fst r)) /\ kEps (fst (fst r)) = kEps W) (inner F n eps x fx ib tol W G err u0 i k).
Proof.
  intros F n m s x fx ib tol eps; induction k as [|k IH]; intros W G err u0 i SH; [cbn; auto|]. cbn [inner]. apply wp_bind.
  eapply wp_weaken; [|apply body_shape; exact SH]. intros [W1 e] (SH1 & EE). cbn [fst] in *. destruct (Rle_dec e tol).
  - apply wp_bind. destruct (dtpsv _ _ _); cbn [wp]; trivial. apply wp_bind. destruct (update _ _ _ _); cbn; auto.
  - eapply wp_weaken; [|apply IH; exact SH1]. cbv beta. intros r (A & B). split; [exact A|congruence].
Qed.
Lemma outer_shape : forall F n m s x fx ib tol k W R0 rn G err eps, shape n m s W ->
  wp True (fun r => shape n m s (fst (fst r)) /\ kEps (fst (fst r)) = kEps W) (outer F n m eps x fx ib tol W R0 rn G err k).
Proof.
  intros F n m s x fx ib tol; induction k as [|k IH]; intros W R0 rn G err eps SH; [cbn; auto|]. cbn [outer].
  pose proof SH as (EN & EM & LV & LH & LC & LSn & LSS).
  apply wp_bind, wp_quo. intros _. apply wp_bind, wp_set; [|trivial]. intros L1. apply wp_bind, wp_set; [|trivial]. intros L2.
  apply wp_bind, wp_get; [|trivial]. intros _. set (W1 := Solver _ _ _ _ _ _ _ _).
  assert (shape n m s W1) as SH1.
  { unfold shape, W1. cbn [kN kM kV kH kC kSn kS]. rewrite !length_upd by assumption. unfold zeros. rewrite !repeat_length. repeat split; assumption. }
  destruct (Rle_dec _ tol); [cbn; auto|]. apply wp_bind.
  eapply wp_weaken; [|apply inner_shape; exact SH1]. intros [[W2 G1] e1] (SH2 & EE). cbn [fst] in *. change (kEps W1) with (kEps W) in EE.
  destruct (Rle_dec e1 tol); [cbn; auto|]. apply wp_bind. destruct (dtpsv _ _ _); cbn [wp]; trivial. apply wp_bind.
  destruct (update _ _ _ _); cbn [wp]; trivial. apply wp_bind, wp_quo. intros _. destruct (Rle_dec _ tol); [cbn; auto|].
  eapply wp_weaken; [|apply IH; exact SH2]. cbv beta. intros r (A & B). split; [exact A|congruence].
Qed.
Lemma step_shape : forall F n m s W x maxit tol W' x' e, shape n m s W -> newton_step F W x maxit tol = Ok (W', x', e) -> shape n m s W'.
Proof.
  intros F n m s W x maxit tol W' x' e SH H. pose proof SH as (EN & EM & _). unfold newton_step in H. rewrite EN, EM in H.
  destruct (Rlt_dec _ _); [injection H as <- _ _; exact SH|]. destruct (quo 1 (vnorm n (F x))) as [ib| | |]; cbn [bind] in H; try discriminate.
  destruct (quo 1 (kEps W)); cbn [bind] in H; try discriminate.
  pose proof (outer_shape F n m s x (F x) ib tol (Z.to_nat maxit) W (F x) (vnorm n (F x)) (fun _ => 0) None (kEps W) SH) as K.
  destruct (outer _ _ _ _ _ _ _ _ _ _ _ _ _) as [[[W1 G] [e'|]]| | |]; cbn [bind wp fst] in *; try discriminate.
  destruct (Rlt_dec tol e'); [discriminate|]. injection H as <- _ _. apply K.
Qed.

(** The Newton loop on linear equations: when it reports success the residual is
    below the tolerance relative to the first residual (or below 10^-14), and every
    iteration without success has reduced it by the GMRES tolerance. *)
Theorem C56_perform : forall F n m W x nmax soltol maxit tol W' x' ok, affine n F -> shape n m m W -> 0 <= tol <= 1 -> 0 <= soltol ->
  perform F W x nmax soltol maxit tol = Ok (W', x', ok) ->
  length2 n (F x') < / 10 ^ 14 \/
  (if ok then length2 n (F x') <= soltol * length2 n (F x) else length2 n (F x') <= tol ^ Z.to_nat nmax * length2 n (F x)).
Proof.
  intros F n m W x nmax soltol maxit tol W' x' ok AF SH HT HS. unfold perform. revert W x SH. generalize (Z.to_nat nmax) as k.
  assert (forall y, 0 <= length2 n (F y)) as NN by (intros; unfold length2; apply sqrt_pos).
  induction k as [|k IH]; intros W x SH H.
  - injection H as <- <- <-. right. cbn. lra.
  - cbn [newton_loop] in H. destruct (newton_step F W x maxit tol) as [[[W1 x1] e]| | |] eqn:E; cbn [bind] in H; try discriminate.
    pose proof (step_shape _ _ _ _ _ _ _ _ _ _ _ SH E) as SH1. destruct (C56_residual _ _ _ _ _ _ _ _ _ _ _ AF SH eq_refl E) as [(L & -> & ->)|(T & Q)].
    + destruct (Rlt_dec 0 soltol); [injection H as <- <- <-; left; exact L|]. specialize (IH W1 x SH1 H). destruct IH as [IH|IH]; [left; exact IH|].
      pose proof (NN x). pose proof (pow_le tol k (proj1 HT)). pose proof (NN x').
      destruct ok; [right; exact IH|]. left. eapply Rle_lt_trans; [exact IH|].
      assert (tol ^ k <= 1) by (rewrite <- (pow1 k); apply pow_incr; exact HT). nra.
    + destruct (Rlt_dec e soltol).
      * injection H as <- <- <-. right. rewrite Q. apply Rmult_le_compat_r; [apply NN|lra].
      * specialize (IH W1 x1 SH1 H). destruct IH as [IH|IH]; [left; exact IH|]. right. pose proof (NN x). pose proof (NN x1).
        assert (length2 n (F x1) <= tol * length2 n (F x)) as D by (rewrite Q; apply Rmult_le_compat_r; assumption).
        destruct ok.
        -- eapply Rle_trans; [exact IH|]. apply Rmult_le_compat_l; [exact HS|]. nra.
        -- eapply Rle_trans; [exact IH|]. cbn [pow]. pose proof (pow_le tol k (proj1 HT)). 
           rewrite (Rmult_comm tol), Rmult_assoc. apply Rmult_le_compat_l; assumption.
Qed.
Print Assumptions C56_perform.

Example C41_case : shape 3 3 4 (Solver 3 3 1 (repeat (Some (fun _ => 0)) 4) (zeros 6) (zeros 3) (zeros 3) (zeros 4)) /\
  initialize (Some false) 3 3 1 = Ok (Solver 3 3 1 (repeat (Some (fun _ => 0)) 4) (zeros 6) (zeros 3) (zeros 3) (zeros 3)) /\
  shape 1 1 1 (Solver 1 1 1 (repeat (Some (fun _ => 0)) 2) (zeros 1) (zeros 1) (zeros 1) (zeros 1)).
Proof. repeat split. Qed.
