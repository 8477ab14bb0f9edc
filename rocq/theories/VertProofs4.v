(** * Proofs about the vertical step: the band matrix *)
From Coq Require Import Reals List Arith Bool Lia Lra ZArith.
From Verif Require Import ColModel ColSpec ColProofs FluxModel VertModel VertSpec VertProofs.
Import ListNotations.
Local Open Scope R_scope.

Definition distance (e : entry) : Z := (Z.of_nat (vec_ix (e_c1 e) (e_k1 e)) - Z.of_nat (vec_ix (e_c0 e) (e_k0 e)))%Z.
Lemma vec_ix_inj c k c' k' : vec_ix c k = vec_ix c' k' -> c = c' /\ k = k'.
Proof. unfold vec_ix. destruct c, c'; cbn [number]; intros; split; try reflexivity; try lia. Qed.

Lemma store_gdot offd l i : store offd l i = gdot (fun e => (mat_ix offd (e_c0 e) (e_k0 e) (e_c1 e) (e_k1 e) =? i)%Z) e_x l.
Proof.
  unfold store. assert (G : forall s, fold_left (fun s e => if (mat_ix offd (e_c0 e) (e_k0 e) (e_c1 e) (e_k1 e) =? i)%Z then s + e_x e else s) l s =
    s + gdot (fun e => (mat_ix offd (e_c0 e) (e_k0 e) (e_c1 e) (e_k1 e) =? i)%Z) e_x l).
  { induction l as [|x l IH]; intros s; [change (s = s + 0); ring|]. cbn [fold_left]. rewrite IH.
    change (gdot ?p e_x (x :: l)) with (if p x then e_x x + gdot p e_x l else gdot p e_x l). cbv beta. destruct (_ =? _)%Z; ring. }
  rewrite G. ring.
Qed.
Lemma gdot_sel {A} p q (val : A -> R) l : (forall e, In e l -> val e = 0 \/ p e = q e) -> gdot p val l = gdot q val l.
Proof.
  induction l as [|x l IH]; intros H; [reflexivity|].
  change ((if p x then val x + gdot p val l else gdot p val l) = (if q x then val x + gdot q val l else gdot q val l)).
  rewrite IH by (intros; apply H; right; assumption). destruct (H x (or_introl eq_refl)) as [E|E]; [rewrite E; destruct (p x), (q x); ring|rewrite E; reflexivity].
Qed.
(** additions up to twice the half-width from the diagonal go to their place or to the
    rows that DGBSV does not read *)
Lemma store_matrix offd l i j : (0 <= offd)%Z -> (forall e, In e l -> e_x e = 0 \/ (Z.abs (distance e) <= 2 * offd)%Z) -> (Z.abs (Z.of_nat i - Z.of_nat j) <= offd)%Z ->
  store offd l (band_ix offd offd (width offd) (Z.of_nat i) (Z.of_nat j)) = matrix l i j.
Proof.
  intros Ho Hl Hij. rewrite store_gdot. unfold matrix. apply gdot_sel. intros e He. destruct (Hl e He) as [H0|Hd]; [left; exact H0|right]. unfold distance in Hd.
  unfold mat_ix, band_ix, width. set (r := vec_ix (e_c1 e) (e_k1 e)) in *. set (c := vec_ix (e_c0 e) (e_k0 e)) in *.
  destruct (Z.eqb_spec (2 * offd + Z.of_nat r - Z.of_nat c + (3 * offd + 1) * Z.of_nat c) (offd + offd + Z.of_nat i - Z.of_nat j + (3 * offd + 1) * Z.of_nat j)) as [E|E].
  - assert (Z.of_nat c = Z.of_nat j) by nia. destruct (Nat.eqb_spec r i), (Nat.eqb_spec c j); cbn [andb]; try reflexivity; lia.
  - destruct (Nat.eqb_spec r i), (Nat.eqb_spec c j); cbn [andb]; try reflexivity. subst. lia.
Qed.
(** ** the product with the full matrix *)
Definition comp_of (j : nat) : comp := match (j mod 3)%nat with 0%nat => FP | 1%nat => FW | _ => FR end.
Definition flat (h : vector) (j : nat) : R := h (comp_of j) (j / 3)%nat.
Lemma flat_ix h c k : flat h (vec_ix c k) = h c k.
Proof.
  unfold flat, comp_of, vec_ix. replace (3 * k + number c)%nat with (number c + k * 3)%nat by lia. rewrite Nat.div_add, Nat.mod_add by lia.
  destruct c; cbn [number]; reflexivity.
Qed.
Lemma ix_flat j : vec_ix (comp_of j) (j / 3) = j.
Proof.
  unfold vec_ix, comp_of. pose proof (Nat.div_mod j 3 ltac:(lia)). pose proof (Nat.mod_upper_bound j 3 ltac:(lia)).
  destruct (j mod 3)%nat as [|[|[|]]]; cbn [number]; lia.
Qed.
Lemma matrix_row n l h c k : (forall e, In e l -> (vec_ix (e_c0 e) (e_k0 e) < n)%nat) ->
  row_dot l h c k = sum (fun j => matrix l (vec_ix c k) j * flat h j) n.
Proof.
  induction l as [|e l IH]; intros H; [cbn; symmetry; apply sum_zero; intros; ring|].
  assert (IH' := IH (fun x Hx => H x (or_intror Hx))). clear IH.
  pose proof (H e (or_introl eq_refl)) as He.
  change (row_dot (e :: l) h c k) with (if (same (e_c1 e) c && (e_k1 e =? k)%nat)%bool then e_x e * h (e_c0 e) (e_k0 e) + row_dot l h c k else row_dot l h c k).
  rewrite (sum_ext _ (fun j => matrix l (vec_ix c k) j * flat h j + (if (j =? vec_ix (e_c0 e) (e_k0 e))%nat then (if (vec_ix (e_c1 e) (e_k1 e) =? vec_ix c k)%nat then e_x e * flat h j else 0) else 0))).
  2:{ intros j _. change (matrix (e :: l) (vec_ix c k) j) with (if ((vec_ix (e_c1 e) (e_k1 e) =? vec_ix c k) && (vec_ix (e_c0 e) (e_k0 e) =? j))%bool%nat then e_x e + matrix l (vec_ix c k) j else matrix l (vec_ix c k) j).
      rewrite (Nat.eqb_sym j). destruct (_ =? vec_ix c k)%nat, (_ =? j)%nat; cbn [andb]; ring. }
  rewrite sum_plus, <- IH'.
  assert (P : sum (fun j => if (j =? vec_ix (e_c0 e) (e_k0 e))%nat then (if (vec_ix (e_c1 e) (e_k1 e) =? vec_ix c k)%nat then e_x e * flat h j else 0) else 0) n =
    if (vec_ix (e_c1 e) (e_k1 e) =? vec_ix c k)%nat then e_x e * h (e_c0 e) (e_k0 e) else 0).
  { unfold sum. rewrite (fold_one _ (seq 0 n) (vec_ix (e_c0 e) (e_k0 e))).
    - rewrite Nat.eqb_refl, flat_ix. reflexivity.
    - apply seq_NoDup.
    - apply in_seq. lia.
    - intros x _ Nx. destruct (Nat.eqb_spec x (vec_ix (e_c0 e) (e_k0 e))); [contradiction|reflexivity]. }
  rewrite P. destruct (Nat.eqb_spec (vec_ix (e_c1 e) (e_k1 e)) (vec_ix c k)) as [E|E].
  - apply vec_ix_inj in E. destruct E as (E1 & E2). rewrite E1, E2. unfold same. rewrite !Nat.eqb_refl. cbn [andb]. ring.
  - destruct (same (e_c1 e) c && (e_k1 e =? k)%nat)%bool eqn:B; [|ring]. exfalso. apply andb_true_iff in B. destruct B as (B1 & B2). apply Nat.eqb_eq in B2. unfold same in B1. apply Nat.eqb_eq in B1.
    apply E. unfold vec_ix. lia.
Qed.
Lemma matrix_far offd l i j : (forall e, In e l -> e_x e = 0 \/ (Z.abs (distance e) <= offd)%Z) -> (offd < Z.abs (Z.of_nat i - Z.of_nat j))%Z -> matrix l i j = 0.
Proof.
  intros H Hij. induction l as [|e l IH]; [reflexivity|].
  change (matrix (e :: l) i j) with (if ((vec_ix (e_c1 e) (e_k1 e) =? i) && (vec_ix (e_c0 e) (e_k0 e) =? j))%bool%nat then e_x e + matrix l i j else matrix l i j).
  rewrite IH by (intros; apply H; right; assumption).
  destruct (Nat.eqb_spec (vec_ix (e_c1 e) (e_k1 e)) i) as [E1|], (Nat.eqb_spec (vec_ix (e_c0 e) (e_k0 e)) j) as [E2|]; cbn [andb]; try reflexivity.
  destruct (H e (or_introl eq_refl)) as [->|D]; [ring|]. unfold distance in D. subst. lia.
Qed.

(** ** the band of the Jacobian *)
(** the columns of the nonzero coefficients of a row *)
Definition narrow (A : op) (r b e : nat) : Prop := forall j, (nth r (beg A) 0 <= j < nth r (fin A) 0)%nat -> getc A r j <> 0 -> (b <= j < e)%nat.
Lemma local_narrow A r b e : (forall u v, (forall l, (b <= l < e)%nat -> u l = v l) -> apply1 A u r = apply1 A v r) -> narrow A r b e.
Proof.
  intros H j Hj N. destruct (le_lt_dec b j) as [L1|L1]; [destruct (le_lt_dec e j) as [L2|L2]; [|lia]|]; exfalso; apply N.
  all: pose proof (H (fun l => if (l =? j)%nat then 1 else 0) (fun _ => 0)) as E.
  all: rewrite (ap_zero A (fun _ => 0)) in E by reflexivity.
  all: unfold apply1 in E; rewrite (acc_one _ _ _ j Hj) in E; [rewrite Nat.eqb_refl in E; rewrite <- E; [ring|]|intros l _ Nl; destruct (Nat.eqb_spec l j); [contradiction|ring]].
  all: intros l Hl; destruct (Nat.eqb_spec l j); [lia|reflexivity].
Qed.
Definition near (offd : Z) (i j : nat) : Prop := (Z.abs (3 * (Z.of_nat i - Z.of_nat j)) + 1 <= offd)%Z.
Definition near0 (offd : Z) (i j : nat) : Prop := (Z.abs (3 * (Z.of_nat i - Z.of_nat j)) <= offd)%Z.
(** what the half-width has to cover *)
Record band_fits (S : settings) (O : operators) (offd : Z) : Prop := BandFits {
  bf_d : forall k m, (k < rlev S)%nat -> (nth k (beg (d_en O)) 0 <= m < nth k (fin (d_en O)) 0)%nat -> getc (d_en O) k m <> 0 -> near offd k m;
  bf_di : forall k m n, (k < rlev S)%nat -> (nth k (beg (d_en O)) 0 <= m < nth k (fin (d_en O)) 0)%nat -> (nth m (beg (i_ne O)) 0 <= n < nth m (fin (i_ne O)) 0)%nat ->
    getc (d_en O) k m <> 0 -> getc (i_ne O) m n <> 0 -> near0 offd k n;
  bf_ne : forall k m, (1 <= k < rlev S)%nat -> (nth k (beg (d_ne O)) 0 <= m < nth k (fin (d_ne O)) 0)%nat -> getc (d_ne O) k m <> 0 -> (Z.abs (3 * (Z.of_nat k - Z.of_nat m) + 1) <= offd)%Z;
  bf_i : forall k n, (1 <= k < rlev S)%nat -> (nth k (beg (i_ne O)) 0 <= n < nth k (fin (i_ne O)) 0)%nat -> getc (i_ne O) k n <> 0 -> near offd k n;
  bf_id : forall k l m, (1 <= k < rlev S)%nat -> (nth k (beg (d_ne O)) 0 <= l < nth k (fin (d_ne O)) 0)%nat -> (nth l (beg (i_en O)) 0 <= m < nth l (fin (i_en O)) 0)%nat ->
    getc (d_ne O) k l <> 0 -> getc (i_en O) l m <> 0 -> near0 offd k m;
  bf_ee : upw S FW = true -> forall k n, (1 <= k < rlev S)%nat -> (nth k (beg (dd_ee O)) 0 <= n < nth k (fin (dd_ee O)) 0)%nat -> getc (dd_ee O) k n <> 0 -> near0 offd k n;
  bf_l : forall L Rt, pops (pnl O) = Some (L, Rt) -> forall k n, (k < rlev S)%nat -> (nth k (beg L) 0 <= n < nth k (fin L) 0)%nat -> getc L k n <> 0 -> near0 offd k n;
  bf_r : forall L Rt, pops (pnl O) = Some (L, Rt) -> forall k n, (k < rlev S)%nat -> (nth k (beg Rt) 0 <= n < nth k (fin Rt) 0)%nat -> getc Rt k n <> 0 -> near0 offd k n;
  bf_pos : (3 * Z.of_nat (npe S) + 1 <= offd)%Z }.
Lemma in_loop {A} b e (f : nat -> list A) x : In x (loop b e f) -> exists k, (b <= k < e)%nat /\ In x (f k).
Proof. intros H. apply in_flat_map in H. destruct H as (k & Hk & Hx). apply in_seq in Hk. exists k. split; [lia|exact Hx]. Qed.
Lemma in_row {A} D r (f : nat -> list A) x : In x (row D r f) -> exists k, (nth r (beg D) 0 <= k < nth r (fin D) 0)%nat /\ In x (f k).
Proof. apply in_loop. Qed.
Ltac dist := unfold distance, near, near0, vec_ix in *; cbn [e_c0 e_c1 e_k0 e_k1 number] in *; lia.
Lemma jac_band S O Q offd X e : band_fits S O offd -> pen_fits S (pnl O) -> In e (jacobian S O Q X) -> e_x e = 0 \/ (Z.abs (distance e) <= offd)%Z.
Proof.
  intros B (Po & PK & Pp) He. pose proof (bf_pos _ _ _ B) as P0.
  assert (Zx : forall a b : R, a = 0 -> a * b = 0) by (intros a b ->; ring).
  unfold jacobian in He. do 4 (rewrite in_app_iff in He). destruct He as [He|[He|[He|[He|He]]]].
  - apply in_loop in He. destruct He as (k & Hk & He). apply in_row in He. destruct He as (m & Hm & He).
    destruct (Req_dec (getc (d_en O) k m) 0) as [G|G].
    { left. apply in_app_iff in He. destruct He as [He|He].
      - destruct (_ && _); [|destruct He]. cbv zeta in He. destruct He as [<-|[<-|[]]]; cbn [e_x]; rewrite G; ring.
      - apply in_row in He. destruct He as (n & _ & He). cbv zeta in He. destruct He as [<-|[<-|[]]]; cbn [e_x]; rewrite G; ring. }
    pose proof (bf_d _ _ _ B k m ltac:(lia) Hm G) as N1. apply in_app_iff in He. destruct He as [He|He].
    + right. destruct (_ && _); [|destruct He]. cbv zeta in He. destruct He as [<-|[<-|[]]]; dist.
    + apply in_row in He. destruct He as (n & Hn & He). destruct (Req_dec (getc (i_ne O) m n) 0) as [G2|G2].
      { left. cbv zeta in He. destruct He as [<-|[<-|[]]]; cbn [e_x]; rewrite G2; ring. }
      right. pose proof (bf_di _ _ _ B k m n ltac:(lia) Hm Hn G G2) as N2. cbv zeta in He. destruct He as [<-|[<-|[]]]; dist.
  - apply in_loop in He. destruct He as (k & Hk & He). cbv zeta in He. apply in_app_iff in He. destruct He as [He|He].
    + apply in_row in He. destruct He as (m & Hm & He). destruct He as [<-|[]]. destruct (Req_dec (getc (d_ne O) k m) 0) as [G|G].
      { left. cbn [e_x]. rewrite G. unfold Rdiv. ring. }
      right. pose proof (bf_ne _ _ _ B k m ltac:(lia) Hm G). dist.
    + apply in_row in He. destruct He as (n & Hn & He). destruct (Req_dec (getc (i_ne O) k n) 0) as [G|G].
      { left. destruct He as [<-|[<-|[]]]; cbn [e_x]; rewrite G; ring. }
      right. pose proof (bf_i _ _ _ B k n ltac:(lia) Hn G). destruct He as [<-|[<-|[]]]; dist.
  - apply in_loop in He. destruct He as (k & Hk & He). apply in_row in He. destruct He as (l & Hl & He). apply in_row in He. destruct He as (m & Hm & He). destruct He as [<-|[]].
    destruct (Req_dec (getc (d_ne O) k l) 0) as [G|G]; [left; cbn [e_x]; rewrite G; ring|].
    destruct (Req_dec (getc (i_en O) l m) 0) as [G2|G2]; [left; cbn [e_x]; rewrite G2; ring|].
    right. pose proof (bf_id _ _ _ B k l m ltac:(lia) Hl Hm G G2). dist.
  - assert (UL : forall c, scalar c = true -> In e (jac_up_level S O Q X c) -> e_x e = 0 \/ (Z.abs (distance e) <= offd)%Z).
    { intros c Hc H. unfold jac_up_level in H. destruct (pops (pnl O)) as [[L Rt]|] eqn:EP; [|destruct H]. apply in_loop in H. destruct H as (a & Ha & H). cbv zeta in H.
      assert (Hb : forall k, (a * npe S <= k < (a + 1) * npe S)%nat -> (k < rlev S)%nat) by (intros; nia).
      assert (Hb' : forall k, ((a - 1) * npe S <= k < a * npe S)%nat -> (k < rlev S)%nat /\ (a * npe S - npe S <= k)%nat) by (intros; nia).
      repeat (apply in_app_iff in H; destruct H as [H|H]); apply in_loop in H; destruct H as (k & Hk & H); apply in_row in H; destruct H as (n & Hn & [<-|[]]).
      all: match goal with |- context [getc ?A ?kk ?nn] => destruct (Req_dec (getc A kk nn) 0) as [G|G]; [left; cbn [e_x]; rewrite G; ring|right] end.
      - destruct (Hb' k Hk) as (H1 & H2). destruct c; try discriminate; dist.
      - destruct c; try discriminate; dist.
      - destruct (Hb' k Hk) as (H1 & H2). pose proof (bf_l _ _ _ B L Rt EP k n H1 Hn G). destruct c; try discriminate; dist.
      - pose proof (bf_r _ _ _ B L Rt EP k n (Hb k Hk) Hn G). destruct c; try discriminate; dist. }
    unfold jac_diffusion in He. repeat (apply in_app_iff in He; destruct He as [He|He]).
    + destruct (upw S FP); [apply (UL FP eq_refl He)|destruct He].
    + destruct (upw S FW) eqn:U; [|destruct He]. unfold jac_up_edge in He. apply in_app_iff in He. destruct He as [He|He].
      * apply in_loop in He. destruct He as (k & Hk & [<-|[]]). right. dist.
      * apply in_loop in He. destruct He as (k & Hk & He). apply in_row in He. destruct He as (n & Hn & [<-|[]]). cbn [e_x].
        destruct (Nat.eq_dec k 0) as [->|N0]; [left; rewrite (xie_end S O Q X 0) by lia; rewrite Rabs_R0; ring|].
        destruct (le_lt_dec (rlev S) k) as [NK|NK]; [left; rewrite (xie_end S O Q X k) by lia; rewrite Rabs_R0; ring|].
        destruct (Req_dec (getc (dd_ee O) k n) 0) as [G|G]; [left; rewrite G; ring|]. right. pose proof (bf_ee _ _ _ B U k n ltac:(lia) Hn G). dist.
    + destruct (upw S FR); [apply (UL FR eq_refl He)|destruct He].
  - apply in_loop in He. destruct He as (k & Hk & He). destruct He as [<-|[<-|[<-|[]]]]; right; dist.
Qed.
