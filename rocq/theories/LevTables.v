(** * The tabulated rules on the unit interval *)
From Coq Require Import Reals List Arith Bool Lia Lra ZArith.
From Verif Require Import QuadModel QuadSpec ColSpec ColProofs LevSpec LevProofs.
Import ListNotations.
Local Open Scope R_scope.

(** distances of at least d between neighbours *)
Definition gaps (d : R) (G : list R) : Prop := forall i, (i + 1 < length G)%nat -> nth i G 0 + d <= nth (i + 1) G 0.
Definition inner_gap (d : R) (G : list R) : Prop := forall i, (i < length G)%nat -> d <= nth i G 0 <= 1 - d.

Definition unit_point (z : Z) : R := (IZR z + 10000000000000000) / 20000000000000000.
Definition unit_weight (z : Z) : R := IZR z / 20000000000000000.
Lemma ten16 : IZR (10 ^ 16) = 10000000000000000. Proof. reflexivity. Qed.
Lemma unit_points g w : get_points (Table g w) 0 1 = Some (map unit_point g, map unit_weight w).
Proof.
  cbn [get_points]. f_equal. f_equal; apply map_ext; intros z; unfold scale_node, scale_weight, dec, unit_point, unit_weight; rewrite ten16; field.
Qed.
Fixpoint gaps_b (d : Z) (g : list Z) : bool := match g with x :: ((y :: _) as r) => ((x + d <=? y)%Z && gaps_b d r)%bool | _ => true end.
Definition table_b (d : Z) (n : nat) (g w : list Z) : bool :=
  (length g =? n)%nat && (length w =? n)%nat && (0 <? d)%Z && gaps_b d g && forallb (fun z => (-10000000000000000 <=? z) && (z <=? 10000000000000000))%Z g && forallb (fun z => 0 <? z)%Z w &&
  (Z.abs (fold_right Z.add 0 w - 20000000000000000) <=? 2000)%Z.
Definition open_b (d : Z) (g : list Z) : bool := (0 <? d)%Z && forallb (fun z => (-10000000000000000 + d <=? z) && (z <=? 10000000000000000 - d))%Z g.
Definition closed_b (n : nat) (g w : list Z) : bool :=
  (2 <=? n)%nat && (nth 0 g 0 =? -10000000000000000)%Z && (nth (n - 1) g 0 =? 10000000000000000)%Z && (nth 0 w 0 =? nth (n - 1) w 0)%Z.

Lemma nth_point g i : (i < length g)%nat -> nth i (map unit_point g) 0 = unit_point (nth i g 0%Z).
Proof. intros H. rewrite (nth_indep _ 0 (unit_point 0)) by (rewrite map_length; exact H). apply map_nth. Qed.
Lemma nth_weight w i : (i < length w)%nat -> nth i (map unit_weight w) 0 = unit_weight (nth i w 0%Z).
Proof. intros H. rewrite (nth_indep _ 0 (unit_weight 0)) by (rewrite map_length; exact H). apply map_nth. Qed.
Lemma gaps_ok d g : gaps_b d g = true -> gaps (IZR d / 20000000000000000) (map unit_point g).
Proof.
  intros H i Hi. rewrite map_length in Hi. rewrite !nth_point by lia. unfold unit_point.
  assert (Q : IZR (nth i g 0%Z) + IZR d <= IZR (nth (i + 1) g 0%Z)); [|lra]. rewrite <- plus_IZR. apply IZR_le.
  revert i Hi. induction g as [|x g IH]; intros i Hi; [cbn in Hi; lia|]. destruct g as [|y g]; [cbn in Hi; lia|].
  cbn [gaps_b] in H. apply andb_prop in H as (H1 & H2). apply Z.leb_le in H1. destruct i; [exact H1|]. cbn [plus nth]. apply (IH H2 i). cbn [length] in *. lia.
Qed.
Lemma sum_list (w : list R) : sum (fun i => nth i w 0) (length w) = fold_right Rplus 0 w.
Proof.
  induction w as [|x w IH]; [reflexivity|]. cbn [length]. unfold sum in *. cbn [seq map fold_right nth]. f_equal. rewrite <- IH. rewrite <- seq_shift, map_map. reflexivity.
Qed.
Lemma table_ok d n g w : table_b d n g w = true -> exists G W, get_points (Table g w) 0 1 = Some (G, W) /\ unit_rule n G W /\
  gaps (IZR d / 20000000000000000) G /\ Rabs (sum (fun i => nth i W 0) n - 1) <= / 10 ^ 13 /\
  (forall d', open_b d' g = true -> open_rule G /\ inner_gap (IZR d' / 20000000000000000) G) /\ (closed_b n g w = true -> closed_rule n G W).
Proof.
  intros H. unfold table_b in H. repeat (apply andb_prop in H as (H & ?)). rename H0 into Hs, H1 into Hw, H2 into Hg, H3 into Hgap, H4 into Hd, H5 into Lw, H into Lg.
  apply Nat.eqb_eq in Lg, Lw. apply Z.ltb_lt in Hd. apply Z.leb_le in Hs. rewrite forallb_forall in Hg, Hw.
  exists (map unit_point g), (map unit_weight w). split; [apply unit_points|]. pose proof (gaps_ok d g Hgap) as GP. split; [|split; [exact GP|split; [|split]]].
  - unfold unit_rule. rewrite !map_length. split; [exact Lg|]. split; [exact Lw|]. split; [|split].
    + assert (D : 0 < IZR d / 20000000000000000) by (apply Rdiv_lt_0_compat; [apply IZR_lt; exact Hd|lra]). revert D GP. generalize (IZR d / 20000000000000000). generalize (map unit_point g). clear. intros l e He.
      induction l as [|x l IH]; intros GP; [exact I|]. destruct l as [|y l]; [exact I|]. split; [pose proof (GP 0%nat ltac:(cbn; lia)) as Q; cbn in Q; lra|].
      apply IH. intros i Hi. apply (GP (S i)). cbn [length] in *. lia.
    + apply Forall_forall. intros x Hx. apply in_map_iff in Hx as (z & <- & Hz). apply Hg in Hz. apply andb_prop in Hz as (Z1 & Z2). apply Z.leb_le, IZR_le in Z1. apply Z.leb_le, IZR_le in Z2. unfold unit_point. split; lra.
    + apply Forall_forall. intros x Hx. apply in_map_iff in Hx as (z & <- & Hz). apply Hw in Hz. apply Z.ltb_lt, IZR_lt in Hz. unfold unit_weight. lra.
  - rewrite <- Lw. rewrite <- (map_length unit_weight w), sum_list.
    assert (E : fold_right Rplus 0 (map unit_weight w) = IZR (fold_right Z.add 0%Z w) / 20000000000000000).
    { clear. induction w as [|z w IH]; cbn [map fold_right]; [field|]. rewrite IH, plus_IZR. unfold unit_weight. field. }
    rewrite E. replace (IZR (fold_right Z.add 0%Z w) / 20000000000000000 - 1) with (IZR (fold_right Z.add 0%Z w - 20000000000000000) / 20000000000000000) by (rewrite minus_IZR; field).
    unfold Rdiv. rewrite Rabs_mult, <- abs_IZR, (Rabs_right (/ 20000000000000000)) by lra. apply IZR_le in Hs. lra.
  - intros d' Hd'. unfold open_b in Hd'. apply andb_prop in Hd' as (D & Hd'). apply Z.ltb_lt, IZR_lt in D. rewrite forallb_forall in Hd'.
    assert (Q : forall x, In x (map unit_point g) -> IZR d' / 20000000000000000 <= x <= 1 - IZR d' / 20000000000000000).
    { intros x Hx. apply in_map_iff in Hx as (z & <- & Hz). apply Hd' in Hz. apply andb_prop in Hz as (Z1 & Z2). apply Z.leb_le, IZR_le in Z1. apply Z.leb_le, IZR_le in Z2.
      rewrite plus_IZR in Z1. rewrite minus_IZR in Z2. unfold unit_point. split; lra. }
    split; [apply Forall_forall; intros x Hx; apply Q in Hx; lra|]. intros i Hi. apply Q, nth_In, Hi.
  - intros Hc. unfold closed_b in Hc. repeat (apply andb_prop in Hc as (Hc & ?)). apply Nat.leb_le in Hc. apply Z.eqb_eq in H, H0, H1.
    unfold closed_rule. rewrite !nth_point, !nth_weight by lia. rewrite H, H0, H1. unfold unit_point. repeat split; [exact Hc|lra|lra].
Qed.

Definition gauss_unit (n : nat) (a b : R) : option (list R * list R) := get_points (gauss_table (Z.of_nat n)) a b.
Definition lobatto_unit (n : nat) (a b : R) : option (list R * list R) := get_points (lobatto_table (Z.of_nat n)) a b.
Ltac by_table tab := match goal with |- exists G W, _ ?n 0 1 = _ /\ _ => let t := eval vm_compute in (tab (Z.of_nat n)) in
  match t with Table ?g ?w => destruct (table_ok 200000000000000 n g w) as (G & W & E & U & Gp & T & O & C); [vm_compute; reflexivity|];
    exists G, W; split; [exact E|]; split; [exact U|]; split; [exact Gp|]; split; [exact T|]; first [apply C; vm_compute; reflexivity | apply O; vm_compute; reflexivity] end end.
(** Gauss up to eight points, Gauss-Lobatto up to ten; neighbours 1/100 apart *)
Lemma gauss_units n : (1 <= n <= 8)%nat -> exists G W, gauss_unit n 0 1 = Some (G, W) /\ unit_rule n G W /\ gaps (IZR 200000000000000 / 20000000000000000) G /\
  Rabs (sum (fun i => nth i W 0) n - 1) <= / 10 ^ 13 /\ open_rule G /\ inner_gap (IZR 200000000000000 / 20000000000000000) G.
Proof. intros H. do 9 (destruct n as [|n]; [solve [lia|by_table gauss_table]|]). lia. Qed.
Lemma lobatto_units n : (2 <= n <= 10)%nat -> exists G W, lobatto_unit n 0 1 = Some (G, W) /\ unit_rule n G W /\ gaps (IZR 200000000000000 / 20000000000000000) G /\
  Rabs (sum (fun i => nth i W 0) n - 1) <= / 10 ^ 13 /\ closed_rule n G W.
Proof. intros H. do 11 (destruct n as [|n]; [solve [lia|by_table lobatto_table]|]). lia. Qed.
