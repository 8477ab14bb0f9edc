(** * Proofs about the vertical step of a column *)
From Coq Require Import Reals List Arith Bool Lia Lra ZArith.
From Verif Require Import ColModel ColSpec ColProofs FluxModel VertModel VertSpec.
From Verif Require FluxProofs6 NonhProofs PhysModel.
Import ListNotations.
Local Open Scope R_scope.

(** ** accumulated sums *)
Lemma acc_sum f b e : accumulate f 0 b e = fold_right Rplus 0 (map f (seq b (e - b))).
Proof. unfold accumulate. rewrite accumulate_sum. ring. Qed.
Lemma fold_ext (f g : nat -> R) l : (forall x, In x l -> f x = g x) -> fold_right Rplus 0 (map f l) = fold_right Rplus 0 (map g l).
Proof. induction l as [|x l IH]; intros H; [reflexivity|]. cbn. rewrite H by (left; reflexivity). rewrite IH; [reflexivity|]. intros y Hy. apply H. right. exact Hy. Qed.
Lemma acc_ext f g b e : (forall l, (b <= l < e)%nat -> f l = g l) -> accumulate f 0 b e = accumulate g 0 b e.
Proof. intros H. rewrite !acc_sum. apply fold_ext. intros x Hx. apply in_seq in Hx. apply H. lia. Qed.
Lemma acc_plus f g b e : accumulate (fun l => f l + g l) 0 b e = accumulate f 0 b e + accumulate g 0 b e.
Proof. rewrite !acc_sum. induction (seq b (e - b)) as [|x l IH]; cbn; [ring|]. rewrite IH. ring. Qed.
Lemma acc_scal c f b e : accumulate (fun l => c * f l) 0 b e = c * accumulate f 0 b e.
Proof. rewrite !acc_sum. induction (seq b (e - b)) as [|x l IH]; cbn; [ring|]. rewrite IH. ring. Qed.
Lemma acc_zero f b e : (forall l, (b <= l < e)%nat -> f l = 0) -> accumulate f 0 b e = 0.
Proof. intros H. rewrite (acc_ext f (fun _ => 0 * 0)) by (intros; rewrite H by assumption; ring). rewrite acc_scal. ring. Qed.
Lemma fold_one (f : nat -> R) l k : NoDup l -> In k l -> (forall x, In x l -> x <> k -> f x = 0) -> fold_right Rplus 0 (map f l) = f k.
Proof.
  induction l as [|x l IH]; intros N I H; [destruct I|]. inversion N as [|y l' Nx Nl]; subst. cbn. destruct I as [->|I].
  - rewrite (fold_ext f (fun _ => 0)). { assert (Z0 : fold_right Rplus 0 (map (fun _ : nat => 0) l) = 0) by (clear; induction l; cbn; [reflexivity|lra]). rewrite Z0. ring. }
    intros y Hy. apply H; [right; exact Hy|]. intros ->. contradiction.
  - rewrite H; [|left; reflexivity|intros ->; contradiction]. rewrite IH; [ring|assumption|assumption|]. intros y Hy. apply H. right. exact Hy.
Qed.
Lemma acc_one f b e k : (b <= k < e)%nat -> (forall l, (b <= l < e)%nat -> l <> k -> f l = 0) -> accumulate f 0 b e = f k.
Proof.
  intros Hk H. rewrite acc_sum. apply fold_one; [apply seq_NoDup|apply in_seq; lia|]. intros x Hx. apply in_seq in Hx. apply H. lia.
Qed.
Lemma acc_two f b e k k' : (b <= k < e)%nat -> (b <= k' < e)%nat -> k <> k' -> (forall l, (b <= l < e)%nat -> l <> k -> l <> k' -> f l = 0) ->
  accumulate f 0 b e = f k + f k'.
Proof.
  intros Hk Hk' N H.
  rewrite (acc_ext f (fun l => (if (l =? k)%nat then f l else 0) + (if (l =? k)%nat then 0 else f l))) by (intros l _; destruct (l =? k)%nat; ring).
  rewrite acc_plus. rewrite (acc_one (fun l => if (l =? k)%nat then f l else 0) b e k Hk).
  2:{ intros l _ Hl. destruct (Nat.eqb_spec l k); [contradiction|reflexivity]. }
  rewrite (acc_one (fun l => if (l =? k)%nat then 0 else f l) b e k' Hk').
  2:{ intros l Hl Q. destruct (Nat.eqb_spec l k); [reflexivity|apply H; assumption]. }
  rewrite Nat.eqb_refl. destruct (Nat.eqb_spec k' k); [congruence|reflexivity].
Qed.

Lemma ap_ext A f g r : (forall l, (nth r (beg A) 0 <= l < nth r (fin A) 0)%nat -> f l = g l) -> apply1 A f r = apply1 A g r.
Proof. intros H. unfold apply1. apply acc_ext. intros l Hl. rewrite H by exact Hl. reflexivity. Qed.
Lemma ap_plus A f g r : apply1 A (fun l => f l + g l) r = apply1 A f r + apply1 A g r.
Proof. unfold apply1. rewrite <- acc_plus. apply acc_ext. intros; ring. Qed.
Lemma ap_scal A c f r : apply1 A (fun l => c * f l) r = c * apply1 A f r.
Proof. unfold apply1. rewrite <- acc_scal. apply acc_ext. intros; ring. Qed.
Lemma ap_minus A f g r : apply1 A (fun l => f l - g l) r = apply1 A f r - apply1 A g r.
Proof. rewrite (ap_ext A _ (fun l => f l + -1 * g l)) by (intros; ring). rewrite ap_plus, ap_scal. ring. Qed.
Lemma ap_zero A f r : (forall l, f l = 0) -> apply1 A f r = 0.
Proof. intros H. unfold apply1. apply acc_zero. intros; rewrite H; ring. Qed.
Lemma ap_aff A f g t r : apply1 A (fun l => f l + t * g l) r = apply1 A f r + t * apply1 A g r.
Proof. rewrite ap_plus, ap_scal. reflexivity. Qed.

(** ** sums over lists of additions *)
Definition gdot {A} (sel : A -> bool) (val : A -> R) (l : list A) : R := fold_right (fun e s => if sel e then val e + s else s) 0 l.
Lemma gdot_app {A} sel val (l m : list A) : gdot sel val (l ++ m) = gdot sel val l + gdot sel val m.
Proof.
  induction l as [|x l IH]; [change (gdot sel val m = 0 + gdot sel val m); ring|].
  change ((if sel x then val x + gdot sel val (l ++ m) else gdot sel val (l ++ m)) = (if sel x then val x + gdot sel val l else gdot sel val l) + gdot sel val m).
  rewrite IH. destruct (sel x); ring.
Qed.
Lemma gdot_loop {A} sel val b e (f : nat -> list A) : gdot sel val (loop b e f) = accumulate (fun m => gdot sel val (f m)) 0 b e.
Proof.
  rewrite acc_sum. unfold loop. induction (seq b (e - b)) as [|x l IH]; [reflexivity|]. cbn [flat_map map fold_right]. rewrite gdot_app, IH. reflexivity.
Qed.
Lemma gdot_row {A} sel val D r (f : nat -> list A) :
  gdot sel val (row D r f) = accumulate (fun m => gdot sel val (f m)) 0 (nth r (beg D) 0%nat) (nth r (fin D) 0%nat).
Proof. apply gdot_loop. Qed.
Lemma gdot_nil {A} sel val : @gdot A sel val [] = 0. Proof. reflexivity. Qed.
Lemma gdot_none {A} sel val (l : list A) : (forall e, In e l -> sel e = false) -> gdot sel val l = 0.
Proof. induction l as [|x l IH]; intros H; [reflexivity|]. cbn. rewrite H by (left; reflexivity). apply IH. intros; apply H; right; assumption. Qed.
(** ** the penalty in closed form *)
Lemma div_unique_le k o a : (a * o <= k)%nat -> (k < (a + 1) * o)%nat -> (k / o = a)%nat.
Proof. intros H1 H2. symmetry. apply (Nat.div_unique k o a (k - a * o)); nia. Qed.
Lemma left_sum o ne k (G : nat -> R) : (0 < o)%nat -> (k < ne * o)%nat ->
  accumulate (fun a => accumulate (fun k' => if (k' =? k)%nat then G a else 0) 0 ((a - 1) * o) (a * o)) 0 1 ne =
  if (k / o + 1 <? ne)%nat then G (k / o + 1)%nat else 0.
Proof.
  intros Ho Hk. pose proof (Nat.div_mod k o ltac:(lia)) as Dm. pose proof (Nat.mod_upper_bound k o ltac:(lia)) as Mo. set (q := (k / o)%nat) in *.
  destruct (Nat.ltb_spec (q + 1) ne) as [L|L].
  - rewrite (acc_one _ 1 ne (q + 1)%nat ltac:(lia)).
    + rewrite (acc_one _ _ _ k); [rewrite Nat.eqb_refl; reflexivity|nia|]. intros l _ Hl. destruct (Nat.eqb_spec l k); [contradiction|reflexivity].
    + intros l Hl Nl. apply acc_zero. intros k' Hk'. destruct (Nat.eqb_spec k' k) as [->|]; [|reflexivity]. exfalso. apply Nl.
      assert (q = l - 1)%nat; [|lia]. apply div_unique_le; nia.
  - apply acc_zero. intros l Hl. apply acc_zero. intros k' Hk'. destruct (Nat.eqb_spec k' k) as [->|]; [|reflexivity]. exfalso.
    assert (q = l - 1)%nat; [|lia]. apply div_unique_le; nia.
Qed.
Lemma right_sum o ne k (G : nat -> R) : (0 < o)%nat -> (k < ne * o)%nat ->
  accumulate (fun a => accumulate (fun k' => if (k' =? k)%nat then G a else 0) 0 (a * o) ((a + 1) * o)) 0 1 ne =
  if (0 <? k / o)%nat then G (k / o)%nat else 0.
Proof.
  intros Ho Hk. pose proof (Nat.div_mod k o ltac:(lia)) as Dm. pose proof (Nat.mod_upper_bound k o ltac:(lia)) as Mo. set (q := (k / o)%nat) in *.
  assert (Q : (q < ne)%nat) by nia.
  destruct (Nat.ltb_spec 0 q) as [L|L].
  - rewrite (acc_one _ 1 ne q ltac:(lia)).
    + rewrite (acc_one _ _ _ k); [rewrite Nat.eqb_refl; reflexivity|nia|]. intros l _ Hl. destruct (Nat.eqb_spec l k); [contradiction|reflexivity].
    + intros l Hl Nl. apply acc_zero. intros k' Hk'. destruct (Nat.eqb_spec k' k) as [->|]; [|reflexivity]. exfalso. apply Nl.
      symmetry. apply div_unique_le; nia.
  - apply acc_zero. intros l Hl. apply acc_zero. intros k' Hk'. destruct (Nat.eqb_spec k' k) as [->|]; [|reflexivity]. exfalso.
    assert (q = l)%nat; [|lia]. apply div_unique_le; nia.
Qed.
(** the penalty of the settings *)
Definition pen_fits (S : settings) (P : penalty) : Prop :=
  (0 < npe S)%nat /\ (nfe S * npe S = rlev S)%nat /\ (pops P <> None -> pord P = npe S /\ pne P = nfe S).
Lemma pen_at S P w f k : pen_fits S P -> (k < rlev S)%nat ->
  pen_apply P w f (fun _ => 0) k =
  match pops P with
  | None => 0
  | Some (L, Rt) => (if (k / npe S + 1 <? nfe S)%nat then apply1 L f k * w (k / npe S)%nat else 0) +
                    (if (0 <? k / npe S)%nat then apply1 Rt f k * w (k / npe S - 1)%nat else 0)
  end.
Proof.
  intros (Ho & HK & Hp) Hk. destruct P as [po pn [[L Rt]|]]; cbn [pops] in *; [|reflexivity].
  destruct (Hp ltac:(discriminate)) as (E1 & E2). cbn in E1, E2. subst po pn.
  pose proof (Nat.div_mod k (npe S) ltac:(lia)) as Dm. pose proof (Nat.mod_upper_bound k (npe S) ltac:(lia)) as Mo.
  assert (Ek : (k / npe S * npe S + k mod npe S)%nat = k) by lia.
  assert (Ha : (k / npe S < nfe S)%nat) by (apply Nat.div_lt_upper_bound; lia).
  pose proof (FluxProofs6.pen_apply_ok (npe S) (nfe S) L Rt w f (fun _ => 0) (k / npe S) (k mod npe S) Ho Ha Mo) as E. rewrite Ek in E. rewrite E. ring.
Qed.

(** ** rows of the Jacobian *)
Definition esel (c : comp) (k : nat) (e : entry) : bool := (same (e_c1 e) c && (e_k1 e =? k)%nat)%bool.
Definition eval (h : vector) (e : entry) : R := e_x e * h (e_c0 e) (e_k0 e).
Lemma row_dot_g l h c k : row_dot l h c k = gdot (esel c k) (eval h) l. Proof. reflexivity. Qed.
Lemma row_dot_app l m h c k : row_dot (l ++ m) h c k = row_dot l h c k + row_dot m h c k.
Proof. rewrite !row_dot_g. apply gdot_app. Qed.
Lemma gdot_1 {A} sel val (x : A) : gdot sel val [x] = if sel x then val x else 0.
Proof. cbn. destruct (sel x); ring. Qed.
Lemma gdot_cons {A} sel val (x : A) l : gdot sel val (x :: l) = (if sel x then val x else 0) + gdot sel val l.
Proof. cbn. fold (gdot sel val l). destruct (sel x); [reflexivity|]. change (gdot sel val l = 0 + gdot sel val l). ring. Qed.

Section Rows.
Context (S : settings) (O : operators) (Q : column).
Local Notation K := (rlev S).
(** the d_en operator reads interfaces of the column only *)
Definition reads_edges : Prop := forall k, (k < K)%nat -> (nth k (fin (d_en O)) 0 <= K + 1)%nat.
Definition dxi (h : vector) (k : nat) : R := if ((1 <=? k) && (k <? K))%nat then cxe Q k 2%nat * h FW k else 0.

Lemma pick (f : nat -> R) c (b e k : nat) : (b <= k < e)%nat -> accumulate (fun l => if (c && (l =? k)%nat)%bool then f l else 0) 0 b e = if c then f k else 0.
Proof.
  intros H. rewrite (acc_one _ b e k H). { rewrite Nat.eqb_refl, andb_true_r. reflexivity. }
  intros l _ N. destruct (Nat.eqb_spec l k); [contradiction|]. rewrite andb_false_r. reflexivity.
Qed.
Ltac out_row := let l := fresh in intros l ?; repeat first [rewrite gdot_row | rewrite gdot_app | rewrite gdot_loop].

Definition scalar (c : comp) : bool := match c with FW => false | _ => true end.
Lemma dot_flux X h c k : reads_edges -> (k < K)%nat -> scalar c = true ->
  row_dot (jac_flux S O Q X) h c k =
  apply1 (d_en O) (fun m => je Q m * (dxi h m * apply1 (i_ne O) (X c) m + xie S O Q X m * apply1 (i_ne O) (h c) m)) k * (1 / jn Q k).
Proof.
  intros Rd Hk Hc. rewrite row_dot_g. unfold jac_flux. rewrite gdot_loop.
  rewrite (acc_one _ 0 K k ltac:(lia)).
  2:{ intros l Hl Nl. rewrite gdot_row. apply acc_zero. intros m Hm. rewrite gdot_app.
      assert (E : forall c0 k0 c1 x, esel c k (Entry c0 k0 c1 l x) = false).
      { intros. unfold esel. cbn [e_c1 e_k1]. destruct (Nat.eqb_spec l k); [contradiction|]. apply andb_false_r. }
      assert (E2 : forall b : bool, gdot (esel c k) (eval h) (if b then (let c0 := getc (d_en O) l m * je Q m * (1 / jn Q l) * cxe Q m 2%nat in
         [Entry FW m FP l (c0 * pe O X m); Entry FW m FR l (c0 * re O X m)]) else []) = 0).
      { intros []; [|reflexivity]. cbv zeta. rewrite !gdot_cons, !E, gdot_nil. ring. }
      rewrite E2, gdot_row, Rplus_0_l. apply acc_zero. intros n Hn. cbv zeta. rewrite !gdot_cons, !E, gdot_nil. ring. }
  rewrite gdot_row. unfold apply1 at 1. rewrite (Rmult_comm (accumulate _ _ _ _)), <- acc_scal. apply acc_ext. intros m Hm.
  rewrite gdot_app, gdot_row. specialize (Rd k Hk).
  assert (E1 : forall x1 x2, gdot (esel c k) (eval h) [Entry FW m FP k x1; Entry FW m FR k x2] = (match c with FP => x1 | _ => x2 end) * h FW m).
  { intros. rewrite !gdot_cons, gdot_nil. unfold esel. cbn [e_c1 e_k1]. rewrite Nat.eqb_refl, !andb_true_r.
    unfold same, eval. destruct c; cbn [number Nat.eqb e_x e_c0 e_k0]; try discriminate; ring. }
  rewrite (acc_ext _ (fun n => (getc (d_en O) k m * je Q m * (1 / jn Q k) * xie S O Q X m) * (getc (i_ne O) m n * h c n))).
  2:{ intros n Hn. cbv zeta. rewrite !gdot_cons, gdot_nil. unfold esel. cbn [e_c1 e_k1]. rewrite Nat.eqb_refl, !andb_true_r.
      unfold same, eval. destruct c; cbn [number Nat.eqb e_x e_c0 e_k0]; try discriminate; ring. }
  rewrite acc_scal. fold (apply1 (i_ne O) (h c) m).
  destruct (Nat.eqb_spec m 0) as [->|N0]; cbn [negb andb].
  { unfold dxi. cbn [Nat.leb andb]. rewrite gdot_nil. ring. }
  destruct (Nat.eqb_spec m K) as [->|NK]; cbn [negb andb].
  { unfold dxi. rewrite Nat.ltb_irrefl, andb_false_r, gdot_nil. ring. }
  cbv zeta. rewrite E1. unfold dxi. destruct (Nat.leb_spec 1 m), (Nat.ltb_spec m K); try lia. cbn [andb].
  unfold pe, re. destruct c; try discriminate; ring.
Qed.
Lemma dot_flux_none X h c k : scalar c = false \/ (K <= k)%nat -> row_dot (jac_flux S O Q X) h c k = 0.
Proof.
  intros H. rewrite row_dot_g. apply gdot_none. intros e He. unfold jac_flux, loop, row in He. apply in_flat_map in He. destruct He as (k' & Hk' & He).
  apply in_seq in Hk'. unfold loop in He. apply in_flat_map in He. destruct He as (m & _ & He). apply in_app_iff in He.
  assert (G : e_k1 e = k' /\ (e_c1 e = FP \/ e_c1 e = FR)).
  { destruct He as [He|He].
    - destruct (_ && _)%bool; [|destruct He]. destruct He as [<-|[<-|[]]]; cbn; tauto.
    - apply in_flat_map in He. destruct He as (n & _ & He). destruct He as [<-|[<-|[]]]; cbn; tauto. }
  unfold esel. destruct G as (E1 & E2). rewrite E1. destruct H as [H|H].
  - destruct c; try discriminate. destruct E2 as [->| ->]; reflexivity.
  - destruct (Nat.eqb_spec k' k); [lia|]. apply andb_false_r.
Qed.

Lemma dot_w X h k : (1 <= k < K)%nat ->
  row_dot (jac_w S O X) h FW k =
  pe O X k * PhysModel.gas (phys S) / (re O X k * PhysModel.get_cv (phys S)) * apply1 (d_ne O) (fun m => exner S X m / X FP m * h FP m) k
  + 1 / (re O X k * re O X k) * dpe S O X k * (re O X k * apply1 (i_ne O) (h FP) k - pe O X k * apply1 (i_ne O) (h FR) k).
Proof.
  intros Hk. rewrite row_dot_g. unfold jac_w. rewrite gdot_loop. rewrite (acc_one _ 1 K k Hk).
  2:{ intros l Hl Nl. cbv zeta. rewrite gdot_app, !gdot_row.
      assert (E : forall c0 k0 c1 x, esel FW k (Entry c0 k0 c1 l x) = false).
      { intros. unfold esel. cbn [e_c1 e_k1]. destruct (Nat.eqb_spec l k); [contradiction|]. apply andb_false_r. }
      rewrite !acc_zero; [ring| |]; intros n Hn; rewrite ?gdot_cons, ?E, ?gdot_nil; ring. }
  cbv zeta. rewrite gdot_app, !gdot_row.
  assert (E : forall c0 k0 x, esel FW k (Entry c0 k0 FW k x) = true) by (intros; unfold esel; cbn [e_c1 e_k1]; rewrite Nat.eqb_refl; reflexivity).
  f_equal.
  - unfold apply1. rewrite <- acc_scal. apply acc_ext. intros m Hm. rewrite gdot_1, E. unfold eval. cbn [e_x e_c0 e_k0]. unfold Rdiv. ring.
  - rewrite (acc_ext _ (fun n => (1 / (re O X k * re O X k) * dpe S O X k * re O X k) * (getc (i_ne O) k n * h FP n) +
       (- (1 / (re O X k * re O X k) * dpe S O X k) * pe O X k) * (getc (i_ne O) k n * h FR n))).
    + rewrite acc_plus, !acc_scal. unfold apply1. ring.
    + intros n Hn. rewrite !gdot_cons, !E, gdot_nil. unfold eval. cbn [e_x e_c0 e_k0]. ring.
Qed.
Lemma dot_w_none X h c k : scalar c = true \/ k = 0%nat \/ (K <= k)%nat -> row_dot (jac_w S O X) h c k = 0.
Proof.
  intros H. rewrite row_dot_g. apply gdot_none. intros e He. unfold jac_w, row, loop in He. apply in_flat_map in He. destruct He as (k' & Hk' & He).
  apply in_seq in Hk'. cbv zeta in He. apply in_app_iff in He.
  assert (G : e_k1 e = k' /\ e_c1 e = FW).
  { destruct He as [He|He]; apply in_flat_map in He; destruct He as (n & _ & He); [destruct He as [<-|[]]|destruct He as [<-|[<-|[]]]]; cbn; tauto. }
  unfold esel. destruct G as (-> & ->). destruct H as [H|H].
  - destruct c; try discriminate; reflexivity.
  - destruct (Nat.eqb_spec k' k); [lia|]. apply andb_false_r.
Qed.

Lemma dot_clark X h k : (1 <= k < K)%nat ->
  row_dot (jac_clark S O Q X) h FW k = apply1 (d_ne O) (fun l => xin O Q X l * apply1 (i_en O) (h FW) l) k.
Proof.
  intros Hk. rewrite row_dot_g. unfold jac_clark. rewrite gdot_loop. rewrite (acc_one _ 1 K k Hk).
  2:{ intros l Hl Nl. rewrite gdot_row. apply acc_zero. intros m Hm. rewrite gdot_row. apply acc_zero. intros n Hn. rewrite gdot_1. unfold esel. cbn [e_c1 e_k1].
      destruct (Nat.eqb_spec l k); [contradiction|]. rewrite andb_false_r. reflexivity. }
  rewrite gdot_row. unfold apply1 at 1. apply acc_ext. intros l Hl. rewrite gdot_row.
  rewrite (acc_ext _ (fun m => (getc (d_ne O) k l * xin O Q X l) * (getc (i_en O) l m * h FW m))).
  - rewrite acc_scal. unfold apply1. ring.
  - intros m Hm. rewrite gdot_1. unfold esel, eval. cbn [e_c1 e_k1 e_x e_c0 e_k0]. rewrite Nat.eqb_refl. cbn [same number Nat.eqb andb]. ring.
Qed.
Lemma dot_clark_none X h c k : scalar c = true \/ k = 0%nat \/ (K <= k)%nat -> row_dot (jac_clark S O Q X) h c k = 0.
Proof.
  intros H. rewrite row_dot_g. apply gdot_none. intros e He. unfold jac_clark, row, loop in He. apply in_flat_map in He. destruct He as (k' & Hk' & He).
  apply in_seq in Hk'. apply in_flat_map in He. destruct He as (m & _ & He). apply in_flat_map in He. destruct He as (n & _ & [<-|[]]).
  unfold esel. cbn [e_c1 e_k1]. destruct H as [H|H].
  - destruct c; try discriminate; reflexivity.
  - destruct (Nat.eqb_spec k' k); [lia|]. apply andb_false_r.
Qed.

Lemma dot_identity h c k : (k <= K)%nat -> row_dot (jac_identity S) h c k = h c k * (1 / dt S).
Proof.
  intros Hk. rewrite row_dot_g. unfold jac_identity. rewrite gdot_loop. rewrite (acc_one _ 0 (K + 1) k ltac:(lia)).
  - rewrite !gdot_cons, gdot_nil. unfold esel, eval. cbn [e_c1 e_k1 e_x e_c0 e_k0]. rewrite Nat.eqb_refl. destruct c; cbn [same number Nat.eqb andb]; ring.
  - intros l Hl Nl. rewrite !gdot_cons, gdot_nil. unfold esel. cbn [e_c1 e_k1]. destruct (Nat.eqb_spec l k); [contradiction|]. rewrite !andb_false_r. ring.
Qed.

(** the penalty and its derivative *)
Definition pen_row (xi sg : nat -> R) (f hc hw : nat -> R) (k : nat) : R :=
  match pops (pnl O) with
  | None => 0
  | Some (L, Rt) =>
      (if (k / npe S + 1 <? nfe S)%nat then
         let a := ((k / npe S + 1) * npe S)%nat in sg a * apply1 L f k * hw a + Rabs (xi a) * apply1 L hc k else 0)
      + (if (0 <? k / npe S)%nat then
         let a := (k / npe S * npe S)%nat in sg a * apply1 Rt f k * hw a + Rabs (xi a) * apply1 Rt hc k else 0)
  end.
Lemma dot_up_level X h c k : pen_fits S (pnl O) -> (k < K)%nat -> scalar c = true ->
  row_dot (jac_up_level S O Q X c) h c k = - pen_row (xie S O Q X) (sign_weight Q (xie S O Q X)) (X c) (h c) (h FW) k.
Proof.
  intros Pf Hk Hc. destruct Pf as (Ho & HK & _). rewrite row_dot_g. unfold jac_up_level, pen_row. destruct (pops (pnl O)) as [[L Rt]|]; [|rewrite gdot_nil; ring].
  rewrite gdot_loop. set (xi := xie S O Q X). set (sg := sign_weight Q xi).
  assert (E : forall c0 k0 k1 x, esel c k (Entry c0 k0 c k1 x) = (k1 =? k)%nat).
  { intros. unfold esel. cbn [e_c1 e_k1]. unfold same. rewrite Nat.eqb_refl. reflexivity. }
  rewrite (acc_ext _ (fun a =>
     accumulate (fun k' => if (k' =? k)%nat then - (sg (a * npe S)%nat * apply1 L (X c) k * h FW (a * npe S)%nat) else 0) 0 ((a - 1) * npe S) (a * npe S) +
     accumulate (fun k' => if (k' =? k)%nat then - (sg (a * npe S)%nat * apply1 Rt (X c) k * h FW (a * npe S)%nat) else 0) 0 (a * npe S) ((a + 1) * npe S) +
     accumulate (fun k' => if (k' =? k)%nat then - (Rabs (xi (a * npe S)%nat) * apply1 L (h c) k) else 0) 0 ((a - 1) * npe S) (a * npe S) +
     accumulate (fun k' => if (k' =? k)%nat then - (Rabs (xi (a * npe S)%nat) * apply1 Rt (h c) k) else 0) 0 (a * npe S) ((a + 1) * npe S))).
  2:{ intros a Ha. cbv zeta. rewrite !gdot_app, !gdot_loop, <- !Rplus_assoc. fold xi sg.
      assert (G1 : forall (A : op) (k' : nat) (e1 : nat -> R), gdot (esel c k) (eval h) (row A k' (fun n => [Entry FW (a * npe S) c k' (e1 n)])) =
        if (k' =? k)%nat then accumulate e1 0 (nth k (beg A) 0%nat) (nth k (fin A) 0%nat) * h FW (a * npe S)%nat else 0).
      { intros A k' e1. rewrite gdot_row. destruct (Nat.eqb_spec k' k) as [->|N].
        - rewrite Rmult_comm, <- acc_scal. apply acc_ext. intros n _. rewrite gdot_1, E, Nat.eqb_refl. unfold eval. cbn [e_x e_c0 e_k0]. ring.
        - apply acc_zero. intros n _. rewrite gdot_1, E. destruct (Nat.eqb_spec k' k); [contradiction|reflexivity]. }
      assert (G2 : forall (A : op) (k' : nat) (w : R), gdot (esel c k) (eval h) (row A k' (fun n => [Entry c n c k' (- (w * getc A k' n))])) =
        if (k' =? k)%nat then - (w * apply1 A (h c) k) else 0).
      { intros A k' w. rewrite gdot_row. destruct (Nat.eqb_spec k' k) as [->|N].
        - unfold apply1. replace (- (w * accumulate (fun l => getc A k l * h c l) 0 (nth k (beg A) 0%nat) (nth k (fin A) 0%nat)))
            with ((- w) * accumulate (fun l => getc A k l * h c l) 0 (nth k (beg A) 0%nat) (nth k (fin A) 0%nat)) by ring.
          rewrite <- acc_scal. apply acc_ext. intros n _. rewrite gdot_1, E, Nat.eqb_refl. unfold eval. cbn [e_x e_c0 e_k0]. ring.
        - apply acc_zero. intros n _. rewrite gdot_1, E. destruct (Nat.eqb_spec k' k); [contradiction|reflexivity]. }
      f_equal; [f_equal; [f_equal|]|]; apply acc_ext; intros k' Hk'; rewrite ?G1, ?G2; destruct (Nat.eqb_spec k' k) as [->|]; try reflexivity.
      - rewrite (acc_ext _ (fun n => - sg (a * npe S)%nat * (getc L k n * X c n))) by (intros; ring). rewrite acc_scal. unfold apply1. ring.
      - rewrite (acc_ext _ (fun n => - sg (a * npe S)%nat * (getc Rt k n * X c n))) by (intros; ring). rewrite acc_scal. unfold apply1. ring. }
  rewrite !acc_plus.
  rewrite (left_sum (npe S) (nfe S) k (fun a => - (sg (a * npe S)%nat * apply1 L (X c) k * h FW (a * npe S)%nat))) by lia.
  rewrite (left_sum (npe S) (nfe S) k (fun a => - (Rabs (xi (a * npe S)%nat) * apply1 L (h c) k))) by lia.
  rewrite (right_sum (npe S) (nfe S) k (fun a => - (sg (a * npe S)%nat * apply1 Rt (X c) k * h FW (a * npe S)%nat))) by lia.
  rewrite (right_sum (npe S) (nfe S) k (fun a => - (Rabs (xi (a * npe S)%nat) * apply1 Rt (h c) k))) by lia.
  cbv zeta. destruct (_ <? nfe S)%nat, (0 <? _)%nat; ring.
Qed.
Lemma dot_up_level_none X h c d k : pen_fits S (pnl O) -> c <> d \/ (K <= k)%nat -> row_dot (jac_up_level S O Q X c) h d k = 0.
Proof.
  intros (Ho & HK & _) H. rewrite row_dot_g. apply gdot_none. intros e He. unfold jac_up_level in He. destruct (pops (pnl O)) as [[L Rt]|]; [|destruct He].
  unfold loop in He. apply in_flat_map in He. destruct He as (a & Ha & He). apply in_seq in Ha. cbv zeta in He.
  assert (G : e_c1 e = c /\ (e_k1 e < K)%nat).
  { rewrite !in_app_iff in He. unfold row, loop in He.
    destruct He as [He|[He|[He|He]]]; apply in_flat_map in He; destruct He as (k' & Hk' & He); apply in_seq in Hk'; apply in_flat_map in He; destruct He as (n & _ & [<-|[]]); cbn;
      (split; [reflexivity|nia]). }
  unfold esel. destruct G as (-> & Hk1). destruct H as [H|H].
  - destruct c, d; try contradiction; reflexivity.
  - destruct (Nat.eqb_spec (e_k1 e) k); [lia|]. apply andb_false_r.
Qed.
Lemma dot_up_edge X h k : (k <= K)%nat ->
  row_dot (jac_up_edge S O Q X) h FW k =
  - (ucoef S * sign_weight Q (xie S O Q X) k * ddw S O X k) * h FW k - ucoef S * Rabs (xie S O Q X k) * apply1 (dd_ee O) (h FW) k.
Proof.
  intros Hk. rewrite row_dot_g. unfold jac_up_edge. rewrite gdot_app, !gdot_loop.
  assert (E : forall c0 k0 k1 x, esel FW k (Entry c0 k0 FW k1 x) = (k1 =? k)%nat) by (intros; unfold esel; reflexivity).
  rewrite (acc_one _ 0 (K + 1) k ltac:(lia)).
  2:{ intros l _ Nl. rewrite gdot_1, E. destruct (Nat.eqb_spec l k); [contradiction|reflexivity]. }
  rewrite (acc_one _ 0 (K + 1) k ltac:(lia)).
  2:{ intros l _ Nl. rewrite gdot_row. apply acc_zero. intros n _. rewrite gdot_1, E. destruct (Nat.eqb_spec l k); [contradiction|reflexivity]. }
  rewrite gdot_1, E, Nat.eqb_refl, gdot_row. unfold eval at 1. cbn [e_x e_c0 e_k0].
  rewrite (acc_ext _ (fun n => - (ucoef S * Rabs (xie S O Q X k)) * (getc (dd_ee O) k n * h FW n))).
  - rewrite acc_scal. unfold apply1. ring.
  - intros n _. rewrite gdot_1, E, Nat.eqb_refl. unfold eval. cbn [e_x e_c0 e_k0]. ring.
Qed.
Lemma dot_up_edge_none X h c k : scalar c = true -> row_dot (jac_up_edge S O Q X) h c k = 0.
Proof.
  intros H. rewrite row_dot_g. apply gdot_none. intros e He. unfold jac_up_edge, loop, row in He.
  assert (G : e_c1 e = FW).
  { apply in_app_iff in He. destruct He as [He|He]; apply in_flat_map in He; destruct He as (k' & _ & He); [destruct He as [<-|[]]; reflexivity|].
    unfold loop in He. apply in_flat_map in He. destruct He as (n & _ & [<-|[]]). reflexivity. }
  unfold esel. rewrite G. destruct c; try discriminate; reflexivity.
Qed.

(** the whole row *)
Lemma dot_scalar X h c k : reads_edges -> pen_fits S (pnl O) -> (k < K)%nat -> scalar c = true ->
  row_dot (jacobian S O Q X) h c k =
  apply1 (d_en O) (fun m => je Q m * (dxi h m * apply1 (i_ne O) (X c) m + xie S O Q X m * apply1 (i_ne O) (h c) m)) k * (1 / jn Q k)
  - (if upw S c then pen_row (xie S O Q X) (sign_weight Q (xie S O Q X)) (X c) (h c) (h FW) k else 0) + h c k * (1 / dt S).
Proof.
  intros Rd Pf Hk Hc. unfold jacobian, jac_diffusion. rewrite !row_dot_app. rewrite dot_flux by assumption.
  rewrite dot_w_none, dot_clark_none by (left; assumption). rewrite dot_identity by lia.
  assert (E1 : row_dot (if upw S FW then jac_up_edge S O Q X else []) h c k = 0) by (destruct (upw S FW); [apply dot_up_edge_none, Hc|reflexivity]).
  rewrite E1.
  assert (E2 : forall d, c <> d -> row_dot (if upw S d then jac_up_level S O Q X d else []) h c k = 0).
  { intros d N. destruct (upw S d); [apply dot_up_level_none; [exact Pf|left; congruence]|reflexivity]. }
  assert (E3 : row_dot (if upw S c then jac_up_level S O Q X c else []) h c k =
    - (if upw S c then pen_row (xie S O Q X) (sign_weight Q (xie S O Q X)) (X c) (h c) (h FW) k else 0)).
  { destruct (upw S c); [rewrite dot_up_level by assumption; reflexivity|]. change (0 = - 0). ring. }
  destruct c; try discriminate.
  - rewrite E3, (E2 FR) by discriminate. ring.
  - rewrite E3, (E2 FP) by discriminate. ring.
Qed.
Lemma dot_velocity X h k : pen_fits S (pnl O) -> (1 <= k < K)%nat ->
  row_dot (jacobian S O Q X) h FW k =
  pe O X k * PhysModel.gas (phys S) / (re O X k * PhysModel.get_cv (phys S)) * apply1 (d_ne O) (fun m => exner S X m / X FP m * h FP m) k
  + 1 / (re O X k * re O X k) * dpe S O X k * (re O X k * apply1 (i_ne O) (h FP) k - pe O X k * apply1 (i_ne O) (h FR) k)
  + apply1 (d_ne O) (fun l => xin O Q X l * apply1 (i_en O) (h FW) l) k
  - (if upw S FW then ucoef S * sign_weight Q (xie S O Q X) k * ddw S O X k * h FW k + ucoef S * Rabs (xie S O Q X k) * apply1 (dd_ee O) (h FW) k else 0)
  + h FW k * (1 / dt S).
Proof.
  intros Pf Hk. unfold jacobian, jac_diffusion. rewrite !row_dot_app. rewrite dot_flux_none by (left; reflexivity).
  rewrite dot_w, dot_clark by assumption. rewrite dot_identity by lia.
  assert (E2 : forall d, FW <> d -> row_dot (if upw S d then jac_up_level S O Q X d else []) h FW k = 0).
  { intros d N. destruct (upw S d); [apply dot_up_level_none; [exact Pf|left; congruence]|reflexivity]. }
  rewrite !E2 by discriminate.
  assert (E3 : row_dot (if upw S FW then jac_up_edge S O Q X else []) h FW k =
    - (if upw S FW then ucoef S * sign_weight Q (xie S O Q X) k * ddw S O X k * h FW k + ucoef S * Rabs (xie S O Q X k) * apply1 (dd_ee O) (h FW) k else 0)).
  { destruct (upw S FW); [rewrite dot_up_edge by lia; ring|change (0 = - 0); ring]. }
  rewrite E3. ring.
Qed.
(** the rows of the ends of W and the unused last row of the scalars *)
Lemma xie_end X k : k = 0%nat \/ (K <= k)%nat -> xie S O Q X k = 0.
Proof. intros H. unfold xie. destruct (Nat.leb_spec 1 k), (Nat.ltb_spec k K); cbn [andb]; try reflexivity; lia. Qed.
Lemma sign_zero xi k : xi k = 0 -> sign_weight Q xi k = 0.
Proof. intros H. unfold sign_weight. rewrite H. destruct (Rlt_dec 0 0); [lra|reflexivity]. Qed.
Lemma dot_boundary X h c k : pen_fits S (pnl O) -> (k <= K)%nat -> k = K \/ (k = 0%nat /\ c = FW) -> row_dot (jacobian S O Q X) h c k = h c k * (1 / dt S).
Proof.
  intros Pf Hk H. unfold jacobian, jac_diffusion. rewrite !row_dot_app.
  rewrite dot_flux_none by (destruct H as [->|(_ & ->)]; [right; lia|left; reflexivity]).
  rewrite dot_w_none, dot_clark_none by (right; lia). rewrite dot_identity by assumption.
  assert (E2 : forall d, scalar d = true -> row_dot (if upw S d then jac_up_level S O Q X d else []) h c k = 0).
  { intros d Hd. destruct (upw S d); [|reflexivity]. apply dot_up_level_none; [exact Pf|]. destruct H as [->|(_ & ->)]; [right; lia|left; intros ->; discriminate]. }
  rewrite !E2 by reflexivity.
  assert (E3 : row_dot (if upw S FW then jac_up_edge S O Q X else []) h c k = 0).
  { destruct (upw S FW); [|reflexivity]. destruct (scalar c) eqn:Ec; [apply dot_up_edge_none, Ec|]. destruct c; try discriminate.
    rewrite dot_up_edge by assumption. assert (Z0 : xie S O Q X k = 0) by (apply xie_end; lia). rewrite sign_zero, Z0, Rabs_R0 by exact Z0. ring. }
  rewrite E3. ring.
Qed.
End Rows.

(** ** sums over the column *)
Lemma pen_row_pen S O xi sg f hc hw k : pen_fits S (pnl O) -> (k < rlev S)%nat ->
  pen_row S O xi sg f hc hw k =
  pen_apply (pnl O) (fun a => sg ((a + 1) * npe S)%nat * hw ((a + 1) * npe S)%nat) f (fun _ => 0) k +
  pen_apply (pnl O) (fun a => Rabs (xi ((a + 1) * npe S)%nat)) hc (fun _ => 0) k.
Proof.
  intros Pf Hk. rewrite !(pen_at S) by assumption. unfold pen_row. destruct (pops (pnl O)) as [[L Rt]|]; [|ring]. cbv zeta.
  assert (E : (0 < k / npe S)%nat -> (k / npe S - 1 + 1)%nat = (k / npe S)%nat) by lia.
  destruct (_ <? nfe S)%nat, (Nat.ltb_spec 0 (k / npe S)); rewrite ?E by assumption; ring.
Qed.
Lemma content_ext K om J f g : (forall k, (k < K)%nat -> f k = g k) -> content K om J f = content K om J g.
Proof. intros H. unfold content. apply sum_ext. intros k Hk. rewrite H by exact Hk. reflexivity. Qed.
Lemma content_plus K om J f g : content K om J (fun k => f k + g k) = content K om J f + content K om J g.
Proof. unfold content. rewrite <- sum_plus. apply sum_ext. intros; ring. Qed.
Lemma content_scal K om J c f : content K om J (fun k => c * f k) = c * content K om J f.
Proof. unfold content. rewrite <- sum_scale. apply sum_ext. intros; ring. Qed.
Lemma content_minus K om J f g : content K om J (fun k => f k - g k) = content K om J f - content K om J g.
Proof. rewrite (content_ext _ _ _ _ (fun k => f k + -1 * g k)) by (intros; ring). rewrite content_plus, content_scal. ring. Qed.
Lemma content_zero K om J f : (forall k, (k < K)%nat -> f k = 0) -> content K om J f = 0.
Proof. intros H. unfold content. apply sum_zero. intros k Hk. rewrite H by exact Hk. ring. Qed.
Lemma content_flux K om J D f : telescopes K om D -> (forall k, (k < K)%nat -> J k <> 0) -> f 0%nat = 0 -> f K = 0 ->
  content K om J (fun k => apply1 D f k * (1 / J k)) = 0.
Proof.
  intros T HJ H0 HK. unfold content. rewrite (sum_ext _ (fun k => om k * apply1 D f k)).
  - rewrite T, H0, HK. ring.
  - intros k Hk. field. apply HJ, Hk.
Qed.
Lemma content_pen K om J P w f : redistributes K om P -> (forall k, (k < K)%nat -> J k = J 0%nat) ->
  content K om J (fun k => pen_apply P w f (fun _ => 0) k) = 0.
Proof.
  intros Hr HJ. unfold content. rewrite (sum_ext _ (fun k => J 0%nat * (om k * pen_apply P w f (fun _ => 0) k))).
  - rewrite sum_scale, Hr. ring.
  - intros k Hk. rewrite (HJ k Hk). ring.
Qed.

(** ** the tracer matrix *)
Section Tracer.
Context (S : settings) (O : operators) (Q : column).
Local Notation K := (rlev S).
Definition tsel (k : nat) (e : tentry) : bool := (t_k1 e =? k)%nat.
Definition tval (h : nat -> R) (e : tentry) : R := t_x e * h (t_k0 e).
Lemma trow_dot_g l h k : trow_dot l h k = gdot (tsel k) (tval h) l. Proof. reflexivity. Qed.
Lemma trow_dot_app l m h k : trow_dot (l ++ m) h k = trow_dot l h k + trow_dot m h k.
Proof. rewrite !trow_dot_g. apply gdot_app. Qed.
Lemma tdot_flux xi h k : (k < K)%nat ->
  trow_dot (tjac_flux S O Q xi) h k = apply1 (d_en O) (fun m => je Q m * (xi m * apply1 (i_ne O) h m)) k * (1 / jn Q k).
Proof.
  intros Hk. rewrite trow_dot_g. unfold tjac_flux. rewrite gdot_loop. rewrite (acc_one _ 0 K k ltac:(lia)).
  2:{ intros l _ Nl. rewrite gdot_row. apply acc_zero. intros m _. rewrite gdot_row. apply acc_zero. intros n _. rewrite gdot_1. unfold tsel. cbn [t_k1].
      destruct (Nat.eqb_spec l k); [contradiction|reflexivity]. }
  rewrite gdot_row. unfold apply1 at 1. rewrite (Rmult_comm (accumulate _ _ _ _)), <- acc_scal. apply acc_ext. intros m _. rewrite gdot_row.
  rewrite (acc_ext _ (fun n => (getc (d_en O) k m * je Q m / jn Q k * xi m) * (getc (i_ne O) m n * h n))).
  - rewrite acc_scal. unfold apply1, Rdiv. ring.
  - intros n _. rewrite gdot_1. unfold tsel, tval. cbn [t_k1 t_k0 t_x]. rewrite Nat.eqb_refl. ring.
Qed.
Lemma tdot_upwind xi h k : pen_fits S (pnl O) -> (k < K)%nat ->
  trow_dot (tjac_upwind S O xi) h k = - pen_apply (pnl O) (fun a => Rabs (xi ((a + 1) * npe S)%nat)) h (fun _ => 0) k.
Proof.
  intros Pf Hk. rewrite (pen_at S) by assumption. destruct Pf as (Ho & HK & _). rewrite trow_dot_g. unfold tjac_upwind.
  destruct (pops (pnl O)) as [[L Rt]|]; [|rewrite gdot_nil; ring]. rewrite gdot_loop.
  rewrite (acc_ext _ (fun a =>
     accumulate (fun k' => if (k' =? k)%nat then - (Rabs (xi (a * npe S)%nat) * apply1 L h k) else 0) 0 ((a - 1) * npe S) (a * npe S) +
     accumulate (fun k' => if (k' =? k)%nat then - (Rabs (xi (a * npe S)%nat) * apply1 Rt h k) else 0) 0 (a * npe S) ((a + 1) * npe S))).
  2:{ intros a _. cbv zeta. rewrite gdot_app, !gdot_loop.
      assert (G2 : forall (A : op) (k' : nat) (w : R), gdot (tsel k) (tval h) (row A k' (fun n => [TEntry n k' (- (w * getc A k' n))])) =
        if (k' =? k)%nat then - (w * apply1 A h k) else 0).
      { intros A k' w. rewrite gdot_row. destruct (Nat.eqb_spec k' k) as [->|N].
        - unfold apply1. replace (- (w * accumulate (fun l => getc A k l * h l) 0 (nth k (beg A) 0%nat) (nth k (fin A) 0%nat)))
            with ((- w) * accumulate (fun l => getc A k l * h l) 0 (nth k (beg A) 0%nat) (nth k (fin A) 0%nat)) by ring.
          rewrite <- acc_scal. apply acc_ext. intros n _. rewrite gdot_1. unfold tsel, tval. cbn [t_k1 t_k0 t_x]. rewrite Nat.eqb_refl. ring.
        - apply acc_zero. intros n _. rewrite gdot_1. unfold tsel. cbn [t_k1]. destruct (Nat.eqb_spec k' k); [contradiction|reflexivity]. }
      f_equal; apply acc_ext; intros k' _; apply G2. }
  rewrite acc_plus.
  rewrite (left_sum (npe S) (nfe S) k (fun a => - (Rabs (xi (a * npe S)%nat) * apply1 L h k))) by lia.
  rewrite (right_sum (npe S) (nfe S) k (fun a => - (Rabs (xi (a * npe S)%nat) * apply1 Rt h k))) by lia.
  assert (E : (0 < k / npe S)%nat -> (k / npe S - 1 + 1)%nat = (k / npe S)%nat) by lia.
  destruct (_ <? nfe S)%nat, (Nat.ltb_spec 0 (k / npe S)); rewrite ?E by assumption; ring.
Qed.
Lemma tdot_identity h k : (k < K)%nat -> trow_dot (loop 0 K (fun k => [TEntry k k (1 / dt S)])) h k = h k * (1 / dt S).
Proof.
  intros Hk. rewrite trow_dot_g, gdot_loop. rewrite (acc_one _ 0 K k ltac:(lia)).
  - rewrite gdot_1. unfold tsel, tval. cbn [t_k1 t_k0 t_x]. rewrite Nat.eqb_refl. ring.
  - intros l _ Nl. rewrite gdot_1. unfold tsel. cbn [t_k1]. destruct (Nat.eqb_spec l k); [contradiction|reflexivity].
Qed.
Lemma tdot h k : pen_fits S (pnl O) -> (k < K)%nat ->
  trow_dot (tracer_jacobian S O Q) h k =
  (if explicit S then 0 else
     apply1 (d_en O) (fun m => je Q m * (xie S O Q (start Q) m * apply1 (i_ne O) h m)) k * (1 / jn Q k)
     - (if upw_t S then pen S O (xie S O Q (start Q)) h k else 0)) + h k * (1 / dt S).
Proof.
  intros Pf Hk. unfold tracer_jacobian. rewrite trow_dot_app, tdot_identity by exact Hk. f_equal.
  destruct (explicit S); [reflexivity|]. rewrite trow_dot_app, tdot_flux by exact Hk. destruct (upw_t S); [|change (trow_dot [] h k) with 0; ring].
  rewrite tdot_upwind by assumption. unfold pen, weights. ring.
Qed.
Lemma ind_acc (G : R) (b e k : nat) : accumulate (fun k' => if (k' =? k)%nat then G else 0) 0 b e = if ((b <=? k) && (k <? e))%bool%nat then G else 0.
Proof.
  destruct (Nat.leb_spec b k), (Nat.ltb_spec k e); cbn [andb].
  - rewrite (acc_one _ b e k (conj H H0)); [rewrite Nat.eqb_refl; reflexivity|]. intros l _ N. destruct (Nat.eqb_spec l k); [contradiction|reflexivity].
  - apply acc_zero. intros l Hl. destruct (Nat.eqb_spec l k); [lia|reflexivity].
  - apply acc_zero. intros l Hl. destruct (Nat.eqb_spec l k); [lia|reflexivity].
  - apply acc_zero. intros l Hl. destruct (Nat.eqb_spec l k); [lia|reflexivity].
Qed.
Lemma correction_pen W q k : pen_fits S (pnl O) -> (k < K)%nat ->
  tracer_correction S O Q W q k =
  - pen_apply (pnl O) (fun a => let m := ((a + 1) * npe S)%nat in sign_weight Q (xie S O Q (start Q)) m * (W m - start Q FW m)) q (fun _ => 0) k.
Proof.
  intros Pf Hk. rewrite (pen_at S) by assumption. destruct Pf as (Ho & HK & _). unfold tracer_correction. destruct (pops (pnl O)) as [[L Rt]|]; [|ring].
  set (jump := fun a : nat => sign_weight Q (xie S O Q (start Q)) (a * npe S) * (W (a * npe S)%nat - start Q FW (a * npe S)%nat)).
  set (GL := fun a : nat => - (jump a * apply1 L q k)). set (GR := fun a : nat => - (jump a * apply1 Rt q k)).
  assert (F : forall l s, fold_left (fun s a =>
        let jump := sign_weight Q (xie S O Q (start Q)) (a * npe S) * (W (a * npe S)%nat - start Q FW (a * npe S)%nat) in
        let s1 := if ((a - 1) * npe S <=? k)%nat && (k <? a * npe S)%nat then
                    accumulate (fun n => - (getc L k n * q n * jump)) s (nth k (beg L) 0%nat) (nth k (fin L) 0%nat) else s in
        if (a * npe S <=? k)%nat && (k <? (a + 1) * npe S)%nat then
          accumulate (fun n => - (getc Rt k n * q n * jump)) s1 (nth k (beg Rt) 0%nat) (nth k (fin Rt) 0%nat) else s1) l s =
     s + fold_right Rplus 0 (map (fun a => (if ((a - 1) * npe S <=? k)%nat && (k <? a * npe S)%nat then GL a else 0) + (if (a * npe S <=? k)%nat && (k <? (a + 1) * npe S)%nat then GR a else 0)) l)).
  { induction l as [|a l IH]; intros s; [cbn; ring|]. cbn [fold_left map fold_right]. rewrite IH. cbv zeta. fold (jump a).
    assert (E : forall (A : op) s, accumulate (fun n => - (getc A k n * q n * jump a)) s (nth k (beg A) 0%nat) (nth k (fin A) 0%nat) = s - jump a * apply1 A q k).
    { intros A s'. rewrite accumulate_init. unfold apply1. rewrite (acc_ext _ (fun n => (- jump a) * (getc A k n * q n))) by (intros; ring). rewrite acc_scal. ring. }
    rewrite !E. unfold GL, GR. destruct (_ && _)%bool, (_ && _)%bool; ring. }
  rewrite F. rewrite <- acc_sum. rewrite acc_plus.
  rewrite (acc_ext _ (fun a => accumulate (fun k' => if (k' =? k)%nat then GL a else 0) 0 ((a - 1) * npe S) (a * npe S))) by (intros; rewrite ind_acc; reflexivity).
  rewrite (acc_ext (fun a => if (a * npe S <=? k)%nat && (k <? (a + 1) * npe S)%nat then GR a else 0) (fun a => accumulate (fun k' => if (k' =? k)%nat then GR a else 0) 0 (a * npe S) ((a + 1) * npe S))) by (intros; rewrite ind_acc; reflexivity).
  rewrite left_sum, right_sum by lia. unfold GL, GR, jump. cbv zeta.
  assert (E : (0 < k / npe S)%nat -> (k / npe S - 1 + 1)%nat = (k / npe S)%nat) by lia.
  destruct (_ <? nfe S)%nat, (Nat.ltb_spec 0 (k / npe S)); rewrite ?E by assumption; ring.
Qed.
End Tracer.
