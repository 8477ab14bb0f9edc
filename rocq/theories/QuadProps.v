(** * C49: the quadrature tables *)
From Coq Require Import ZArith Reals List Lra Lia Psatz Bool.
From Verif Require Import QuadModel QuadSpec QuadProofs.
Import ListNotations.
Local Open Scope R_scope.

Local Lemma ends a b : scale_node a b (dec (- 10 ^ 16)) = a /\ scale_node a b (dec (10 ^ 16)) = b.
Proof. destruct dec_unit as (-> & ->). unfold scale_node. split; field. Qed.

(** the tabulated Gauss-Lobatto rules: points in order from one end of the
    interval to the other, positive weights, degree 2n-3 *)
Theorem C49_lobatto : forall n a b, (2 <= n <= 10)%Z -> a < b ->
  exists g w, get_points (lobatto_table n) a b = Some (g, w) /\ Z.of_nat (length g) = n /\ Z.of_nat (length w) = n /\
    increasing g /\ hd 0 g = a /\ last g 0 = b /\ Forall (fun x => a <= x <= b) g /\ Forall (fun x => 0 < x) w /\
    integrates (Z.to_nat (2 * n - 3)) (20 / IZR (10 ^ 16)) a b g w.
Proof.
  intros n a b Hn Hab. destruct (ends a b) as (E1 & E2).
  assert (0 <= 20 / IZR (10 ^ 16)) as P by (apply Rlt_le, Rdiv_lt_0_compat; [lra|apply U_pos]).
  assert (n = 2 \/ n = 3 \/ n = 4 \/ n = 5 \/ n = 6 \/ n = 7 \/ n = 8 \/ n = 9 \/ n = 10)%Z as C by lia.
  repeat (destruct C as [->|C]; [|try (subst n)]);
  (match goal with |- context [lobatto_table ?k] => destruct (lobatto_table k) as [zg zw| |] eqn:T; [|discriminate T|discriminate T] end);
  (injection T as T1 T2; eexists; eexists; split; [reflexivity|];
   rewrite <- T1, <- T2; split; [reflexivity|]; split; [reflexivity|];
   split; [apply inc_ok; [exact Hab|vm_compute; reflexivity]|];
   split; [exact E1|]; split; [exact E2|];
   split; [apply inside_ok; [exact Hab|vm_compute; reflexivity]|];
   split; [apply positive_ok; [exact Hab|vm_compute; reflexivity]|];
   rewrite map_scale_node, map_scale_weight; apply integrates_ok; [exact Hab|exact P|];
   apply (check_good 20); vm_compute; reflexivity).
Qed.
Print Assumptions C49_lobatto.

(** the tabulated Gauss rules other than the one with nine points: degree 2n-1 *)
Theorem C49_gauss : forall n a b, (1 <= n <= 10)%Z -> n <> 9%Z -> a < b ->
  exists g w, get_points (gauss_table n) a b = Some (g, w) /\ Z.of_nat (length g) = n /\ Z.of_nat (length w) = n /\
    increasing g /\ Forall (fun x => a <= x <= b) g /\ Forall (fun x => 0 < x) w /\
    integrates (Z.to_nat (2 * n - 1)) (2 / IZR (10 ^ 16)) a b g w.
Proof.
  intros n a b Hn H9 Hab.
  assert (0 <= 2 / IZR (10 ^ 16)) as P by (apply Rlt_le, Rdiv_lt_0_compat; [lra|apply U_pos]).
  assert (n = 1 \/ n = 2 \/ n = 3 \/ n = 4 \/ n = 5 \/ n = 6 \/ n = 7 \/ n = 8 \/ n = 10)%Z as C by lia.
  repeat (destruct C as [->|C]; [|try (subst n)]);
  (match goal with |- context [gauss_table ?k] => destruct (gauss_table k) as [zg zw| |] eqn:T; [|discriminate T|discriminate T] end);
  (injection T as T1 T2; eexists; eexists; split; [reflexivity|];
   rewrite <- T1, <- T2; split; [reflexivity|]; split; [reflexivity|];
   split; [apply inc_ok; [exact Hab|vm_compute; reflexivity]|];
   split; [apply inside_ok; [exact Hab|vm_compute; reflexivity]|];
   split; [apply positive_ok; [exact Hab|vm_compute; reflexivity]|];
   rewrite map_scale_node, map_scale_weight; apply integrates_ok; [exact Hab|exact P|];
   apply (check_good 2); vm_compute; reflexivity).
Qed.
Print Assumptions C49_gauss.

(** the nine-point Gauss rule has the nodes of the Gauss-Lobatto rule: the
    integral of x^2 over [-1,1] is off by more than 0.1 *)
Theorem C49_gauss9_refuted : exists g w gl wl, gauss_table 9 = Table g w /\ lobatto_table 9 = Table gl wl /\ g = gl /\
  exists c F, (length c <= 3)%nat /\ (forall x, derivable_pt_lim F x (peval c ((2 * x - -1 - 1) / (1 - -1)))) /\
  exists gp wp, get_points (gauss_table 9) (-1) 1 = Some (gp, wp) /\
  Rabs (wsum (fun x => peval c ((2 * x - -1 - 1) / (1 - -1))) gp wp - (F 1 - F (-1))) > 10 / 100.
Proof.
  destruct (gauss_table 9) as [g w| |] eqn:T; [|discriminate T|discriminate T].
  destruct (lobatto_table 9) as [gl wl| |] eqn:Tl; [|discriminate Tl|discriminate Tl].
  exists g, w, gl, wl. split; [reflexivity|]. split; [reflexivity|]. injection T as T1 T2. injection Tl as T3 _. split; [congruence|]. clear gl wl T3.
  exists [0; 0; 1], (pint 0 [0; 0; 1]). split; [cbn; lia|].
  split.
  { intros x. replace ((2 * x - -1 - 1) / (1 - -1)) with x by field. replace (peval [0; 0; 1] x) with (x ^ 0 * peval [0; 0; 1] x) by (cbn; ring). apply pint_derive. }
  eexists; eexists. split; [reflexivity|].
  rewrite map_scale_node, map_scale_weight, wsum_scale by lra.
  assert (wsum (peval [0; 0; 1]) (map dec g) (map dec w) = moment 2 (map dec g) (map dec w)) as ->.
  { clear. revert w. induction g as [|x g IH]; intros [|y w]; cbn [map wsum moment]; try reflexivity. rewrite IH. f_equal. f_equal. cbn. ring. }
  rewrite moment_dec. rewrite <- T1, <- T2.
  match goal with |- context [zmoment 2 ?u ?v] => let z := eval vm_compute in (zmoment 2 u v) in change (zmoment 2 u v) with z end.
  cbn [pint]. unfold U. change (10 ^ 16)%Z with 10000000000000000%Z. cbn [INR pow].
  match goal with |- Rabs ?u > _ => assert (u > 10 / 100) as H; [lra|pose proof (Rle_abs u); lra] end.
Qed.
Print Assumptions C49_gauss9_refuted.
(** it still integrates linear functions *)
Theorem C49_gauss9 : forall a b, a < b -> exists g w, get_points (gauss_table 9) a b = Some (g, w) /\ integrates 1 (2 / IZR (10 ^ 16)) a b g w.
Proof.
  intros a b Hab. destruct (gauss_table 9) as [zg zw| |] eqn:T; [|discriminate T|discriminate T]. injection T as T1 T2.
  eexists; eexists. split; [reflexivity|]. rewrite map_scale_node, map_scale_weight. apply integrates_ok; [exact Hab|apply Rlt_le, Rdiv_lt_0_compat; [lra|apply U_pos]|].
  rewrite <- T1, <- T2. apply (check_good 2). vm_compute. reflexivity.
Qed.
Print Assumptions C49_gauss9.
(** other counts: too small ones are refused, larger ones are not tabulated *)
Theorem C49_counts : forall n,
  (lobatto_table n = Invalid <-> (n < 2)%Z) /\ (gauss_table n = Invalid <-> (n < 1)%Z) /\ ((exists g w, lobatto_table n = Table g w) <-> (2 <= n <= 10)%Z) /\ ((exists g w, gauss_table n = Table g w) <-> (1 <= n <= 10)%Z).
Proof.
  intros n.
  destruct (Z_lt_dec n 1); [destruct n as [|p|p]; try lia; cbn; repeat split; intros; try lia; try reflexivity; try (destruct H as (? & ? & H); discriminate H)|].
  destruct (Z_lt_dec 10 n).
  - assert (lobatto_table n = Roots /\ gauss_table n = Roots) as (-> & ->).
    { unfold lobatto_table, gauss_table. replace (n <? 2)%Z with false by (symmetry; apply Z.ltb_ge; lia). replace (n <? 1)%Z with false by (symmetry; apply Z.ltb_ge; lia).
      destruct n as [|p|p]; try lia. do 4 (destruct p as [p|p|]; try lia; try (split; reflexivity)). }
    repeat split; intros; try lia; try discriminate; destruct H as (? & ? & H); discriminate H.
  - assert (n = 1 \/ n = 2 \/ n = 3 \/ n = 4 \/ n = 5 \/ n = 6 \/ n = 7 \/ n = 8 \/ n = 9 \/ n = 10)%Z as C by lia.
    repeat (destruct C as [->|C]; [|try (subst n)]); cbn; repeat split; intros; try lia; try reflexivity; try discriminate; try (eexists; eexists; reflexivity).
    destruct H as (? & ? & H); discriminate H.
Qed.
Print Assumptions C49_counts.

Example C49_case : exists g w, get_points (lobatto_table 3) 0 2 = Some (g, w) /\ nth 1 g 0 = 1 /\
  wsum (fun x => x * x) g w = 2666666666666666 / 1000000000000000.
Proof.
  eexists; eexists. split; [reflexivity|]. cbn [map wsum nth]. unfold scale_node, scale_weight, dec. change (10 ^ 16)%Z with 10000000000000000%Z.
  split; lra.
Qed.
