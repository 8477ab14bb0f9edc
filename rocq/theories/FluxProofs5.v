(** * The weak derivative and the second derivative on interfaces *)
From Coq Require Import Reals List Arith Lia Lra Bool.
From Verif Require Import QuadSpec InterpModel InterpSpec InterpProofs ColModel ColSpec ColProofs FemModel FemSpec FemProofs FemProofs2 FluxModel FluxSpec FluxProofs FluxProofs2 FluxProofs4.
Import ListNotations.
Local Open Scope R_scope.

Lemma sum_one f b n : (b < n)%nat -> (forall a, (a < n)%nat -> a <> b -> f a = 0) -> sum f n = f b.
Proof.
  intros H Z. rewrite (sum_run f b 1 n) by (try lia; intros; apply Z; lia). rewrite sum_S, sum_0, Nat.add_0_r. ring.
Qed.
Lemma sum_two f b n : (S b < n)%nat -> (forall a, (a < n)%nat -> a <> b -> a <> S b -> f a = 0) -> sum f n = f b + f (S b).
Proof.
  intros H Z. rewrite (sum_run f b 2 n) by (try lia; intros; apply Z; lia). rewrite !sum_S, sum_0, Nat.add_0_r. replace (b + 1)%nat with (S b) by lia. ring.
Qed.
Lemma sum_pos f n : (forall l, (l < n)%nat -> 0 <= f l) -> 0 <= sum f n.
Proof. induction n as [|n IH]; intros H; [rewrite sum_0; lra|]. rewrite sum_S. generalize (H n ltac:(lia)) (IH ltac:(intros; apply H; lia)). lra. Qed.

(** ** grouping by interface *)
Section Mass.
Context (o ne : nat) (Ho : (0 < o)%nat) (W : nat -> nat -> R).
Definition mass (a j : nat) : R :=
  let w0 := W a j in
  let w1 := if ((j =? 0) && negb (a =? 0))%bool%nat then w0 + W (a - 1)%nat o else w0 in
  if ((j =? o) && negb (a =? ne - 1))%bool%nat then w1 + W (a + 1)%nat 0%nat else w1.
Definition Mass (p : nat) : R := sum (fun a => sum (fun j => (if (j + a * o =? p)%nat then 1 else 0) * W a j) (o + 1)) ne.
Lemma Mass_ok a j : (a < ne)%nat -> (j <= o)%nat -> Mass (a * o + j) = mass a j.
Proof.
  intros Ha Hj.
  assert (One : forall b, (b < ne)%nat -> forall k, (k <= o)%nat -> (k + b * o = a * o + j)%nat ->
    sum (fun i => (if (i + b * o =? a * o + j)%nat then 1 else 0) * W b i) (o + 1) = W b k).
  { intros b Hb k Hk Ek. rewrite (sum_one _ k) by (try lia; intros i Hi Ni; (destruct (Nat.eqb_spec (i + b * o) (a * o + j)); [lia|ring])).
    rewrite Ek, Nat.eqb_refl. ring. }
  assert (None_ : forall b, (forall k, (k <= o)%nat -> (k + b * o <> a * o + j)%nat) ->
    sum (fun i => (if (i + b * o =? a * o + j)%nat then 1 else 0) * W b i) (o + 1) = 0).
  { intros b H. apply sum_zero. intros i Hi. destruct (Nat.eqb_spec (i + b * o) (a * o + j)) as [Q|]; [exfalso; apply (H i ltac:(lia) Q)|ring]. }
  unfold Mass, mass.
  destruct (Nat.eqb_spec j 0) as [J0|J0], (Nat.eqb_spec a 0) as [A0|A0], (Nat.eqb_spec j o) as [J1|J1], (Nat.eqb_spec a (ne - 1)) as [A1|A1]; cbn [andb negb]; try lia.
  all: try (rewrite (sum_one _ a); [apply One; lia|lia|intros b Hb Nb; apply None_; intros k Hk; destruct (Nat.lt_total b a) as [Q|[Q|Q]]; nia]).
  all: try (rewrite (sum_two _ a); [rewrite (One a Ha j) by lia; rewrite (One (S a) ltac:(lia) 0%nat) by lia; replace (S a) with (a + 1)%nat by lia; ring
             |lia|intros b Hb N1 N2; apply None_; intros k Hk; destruct (Nat.lt_total b a) as [Q|[Q|Q]]; nia]).
  all: rewrite (sum_two _ (a - 1)); [replace (S (a - 1)) with a by lia; rewrite (One (a - 1)%nat ltac:(lia) o) by nia; rewrite (One a Ha j) by lia; ring
             |lia|intros b Hb N1 N2; apply None_; intros k Hk; destruct (Nat.lt_total b a) as [Q|[Q|Q]]; nia].
Qed.
Lemma group F : over_interfaces o ne (fun a j => W a j * F (a * o + j)%nat) = sum (fun p => Mass p * F p) (ne * o + 1).
Proof.
  unfold over_interfaces, Mass.
  rewrite (sum_ext (fun p => _ * F p) (fun p => sum (fun a => sum (fun j => (if (j + a * o =? p)%nat then 1 else 0) * W a j * F p) (o + 1)) ne)).
  2:{ intros p _. rewrite <- sum_scale_r. apply sum_ext. intros a _. rewrite <- sum_scale_r. reflexivity. }
  rewrite (sum_swap _ (ne * o + 1) ne). apply sum_ext. intros a Ha. rewrite (sum_swap _ (ne * o + 1) (o + 1)). apply sum_ext. intros j Hj.
  rewrite (sum_one _ (j + a * o)%nat).
  - rewrite Nat.eqb_refl. rewrite (Nat.add_comm j). ring.
  - nia.
  - intros p Hp Np. destruct (Nat.eqb_spec (j + a * o) p); [lia|ring].
Qed.
Lemma mass_pos a j : (forall a j, (a < ne)%nat -> (j <= o)%nat -> 0 < W a j) -> (a < ne)%nat -> (j <= o)%nat -> 0 < mass a j.
Proof.
  intros P Ha Hj. unfold mass. generalize (P a j Ha Hj). intros Q.
  destruct (Nat.eqb_spec j 0), (Nat.eqb_spec a 0), (Nat.eqb_spec j o), (Nat.eqb_spec a (ne - 1)); cbn [andb negb]; try lra;
  try (generalize (P (a - 1)%nat o ltac:(lia) ltac:(lia)); lra); try (generalize (P (a + 1)%nat 0%nat ltac:(lia) ltac:(lia)); lra); lia.
Qed.
End Mass.

Section Rules.
Context (gauss lobatto : nat -> R -> R -> option (list R * list R)).
Context (o ne : nat) (edges : list R) (Ho : (0 < o)%nat) (Hne : (0 < ne)%nat) (Le : length edges = (ne * o + 1)%nat) (Se : spaced edges).
Context (GL : gives lobatto (o + 1)) (SL : scaled lobatto (o + 1)).
Let E := edge o edges.
Let wl := rule_weight lobatto (o + 1) 0 1.
Definition WL (a j : nat) : R := rule_weight lobatto (o + 1) (E a) (E (a + 1)%nat) j.
Let Ed := eds o ne edges Ho Hne Le Se.
Lemma WL_eq a j : (a < ne)%nat -> (j <= o)%nat -> WL a j = wl j * (E (a + 1)%nat - E a).
Proof. intros Ha Hj. unfold WL. destruct (SL j ltac:(lia)) as (_ & S). rewrite S by apply Ed, Ha. fold wl. ring. Qed.
Lemma WL_pos a j : (a < ne)%nat -> (j <= o)%nat -> 0 < WL a j.
Proof.
  intros Ha Hj. rewrite WL_eq by assumption. apply Rmult_lt_0_compat; [apply SL; lia|]. generalize (Ed a Ha). fold E. lra.
Qed.

(** *** the weak derivative *)
Context (GG : gives gauss o).
Definition gp (a i : nat) : R := rule_point gauss o (E a) (E (a + 1)%nat) i.
Definition gw (a i : nat) : R := rule_weight gauss o (E a) (E (a + 1)%nat) i.
Definition KV (a j i : nat) : R := - nth j (dc o edges a (gp a i)) 0 * gw a i / mass o ne WL a j.
Lemma variational_element_ok a s : (a < ne)%nat -> covered o ne 0 a s -> (forall p q, fm s p q = sum (fun b => blk o (o + 1) o KV b p q) a) ->
  exists s', variational_element gauss lobatto (ne * o + 1) (ne * o) o ne edges a s = Some s' /\ covered o ne 0 (a + 1) s' /\
    forall p q, fm s' p q = sum (fun b => blk o (o + 1) o KV b p q) (S a).
Proof.
  intros Ha Cv M. unfold variational_element. rewrite (rde o ne edges Ho Hne Le a), (rde o ne edges Ho Hne Le (a + 1)) by lia. fold E. cbn [bind].
  destruct (GG (E a) (E (a + 1)%nat) (Ed a Ha)) as (G & W & EG & LG & LW). rewrite EG. cbn [bind].
  destruct (GL 0 1 ltac:(lra)) as (G0 & W0 & EL & LG0 & LW0). rewrite EL. cbn [bind].
  assert (GP : forall i, gp a i = nth i G 0) by (intros; unfold gp, rule_point; rewrite EG; reflexivity).
  assert (GW : forall i, gw a i = nth i W 0) by (intros; unfold gw, rule_weight; rewrite EG; reflexivity).
  assert (WZ : forall i, wl i = nth i W0 0) by (intros; unfold wl, rule_weight; rewrite EL; reflexivity).
  rewrite (collect_map _ (fun i => dc o edges a (gp a i))).
  2:{ intros i Hi. apply in_seq in Hi. rewrite rd_ok by lia. cbn [bind]. rewrite (esub o ne edges) by assumption. cbn [bind]. rewrite GP.
      apply (dc_ok o ne edges); assumption. }
  cbn [bind]. set (D := map _ _).
  assert (LD : length D = o) by (unfold D; rewrite map_length, seq_length; reflexivity).
  assert (ND : forall i, (i < o)%nat -> nth i D [] = dc o edges a (gp a i)) by (intros i Hi; unfold D; rewrite nth_map_seq by exact Hi; reflexivity).
  assert (LDi : forall i, (i < o)%nat -> length (nth i D []) = (o + 1)%nat) by (intros i Hi; rewrite ND by exact Hi; apply (dc_ok o ne edges); assumption).
  match goal with |- context [loop ?f (seq 0 (o + 1)) s] => destruct (block_loop (o + 1) o (a * o) (a * o) f (fun j i _ => KV a j i)) with (s := s) as (s1 & E1 & F1 & B1 & B2) end.
  { intros j Hj. eexists. split.
    - intros t. rewrite rd_ok by lia. cbn [bind].
      assert (Q1 : (if ((j =? 0) && negb (a =? 0))%bool%nat then wo <- rd W0 o; em <- rd edges ((a - 1) * o); Some (nth j W0 0 * (E (a + 1)%nat - E a) + wo * (E a - em)) else Some (nth j W0 0 * (E (a + 1)%nat - E a)))
        = Some (if ((j =? 0) && negb (a =? 0))%bool%nat then WL a j + WL (a - 1) o else WL a j)).
      { rewrite <- WZ. rewrite (WL_eq a j) by lia. destruct (Nat.eqb_spec j 0), (Nat.eqb_spec a 0); cbn [andb negb]; try reflexivity.
        rewrite rd_ok by lia. cbn [bind]. rewrite (rde o ne edges Ho Hne Le) by lia. cbn [bind]. fold E. rewrite <- WZ, (WL_eq (a - 1) o) by lia.
        replace (a - 1 + 1)%nat with a by lia. reflexivity. }
      rewrite Q1. cbn [bind].
      set (w1 := if ((j =? 0) && negb (a =? 0))%bool%nat then WL a j + WL (a - 1) o else WL a j).
      assert (Q2 : (if ((j =? o) && negb (a =? ne - 1))%bool%nat then wz <- rd W0 0; ep <- rd edges ((a + 2) * o); Some (w1 + wz * (ep - E (a + 1)%nat)) else Some w1)
        = Some (mass o ne WL a j)).
      { unfold mass. fold w1. destruct (Nat.eqb_spec j o), (Nat.eqb_spec a (ne - 1)); cbn [andb negb]; try reflexivity.
        rewrite rd_ok by lia. cbn [bind]. rewrite (rde o ne edges Ho Hne Le) by lia. cbn [bind]. fold E. rewrite <- WZ, (WL_eq (a + 1) 0) by lia.
        replace (a + 1 + 1)%nat with (a + 2)%nat by lia. reflexivity. }
      rewrite Q2. cbn [bind]. reflexivity.
    - intros i t Hi. cbv beta. rewrite (rd2_ok D o (o + 1)) by (auto; lia). cbn [bind]. rewrite rd_ok by lia. cbn [bind].
      rewrite div_ok by (apply Rgt_not_eq, mass_pos; [exact Ho|apply WL_pos|exact Ha|lia]). cbn [bind].
      rewrite ND by exact Hi. rewrite <- GW. apply set_coef_ok; nia. }
  rewrite E1. cbn [bind].
  assert (Cv1 : covered o ne 0 a s1).
  { intros p Hp. destruct (Cv p Hp) as (C1 & C2). unfold covers. rewrite B1, B2. split; assumption. }
  destruct (element_bounds_ok o ne 0 Ho Hne a s1 Ha Cv1) as (s2 & E2 & F2 & C2). exists s2. split; [exact E2|]. split; [exact C2|].
  intros p q. rewrite F2, F1, sum_S, M. unfold blk at 3. destruct (in_block_spec (a * o) (o + 1) (a * o) o p q) as [(I1 & I2)|I]; [|ring].
  rewrite sum_zero; [ring|]. intros b Hb. unfold blk. destruct (in_block_spec (b * o) (o + 1) (b * o) o p q) as [(J1 & J2)|J]; [nia|reflexivity].
Qed.
Lemma variational_ok nodes : length nodes = (ne * o)%nat -> exists A, variational gauss lobatto o nodes edges = Built A /\ wf A /\ nrow A = length edges /\ ncol A = length nodes /\
  forall u v q g, (forall a, (a < ne)%nat -> interpolates (o + 1) edges (a * o) v (q a)) ->
    (forall a x, (a < ne)%nat -> derivable_pt_lim (peval (q a)) x (g a x)) ->
    over_interfaces o ne (fun a j => WL a j * v (a * o + j)%nat * apply1 A u (a * o + j)%nat) =
    - over_levels o ne (fun a i => gw a i * u (a * o + i)%nat * g a (gp a i)).
Proof.
  intros Ln. unfold variational. destruct (Nat.eqb_spec o 0); [lia|]. destruct (Nat.eqb_spec (length nodes) 0); [nia|]. destruct (Nat.eqb_spec (length edges) 0); [lia|].
  assert (DV : (length nodes / o)%nat = ne) by (rewrite Ln; apply Nat.div_mul; lia). rewrite DV, Ln, Le.
  destruct (loop_inv (fun a s => covered o ne 0 a s /\ forall p q, fm s p q = sum (fun b => blk o (o + 1) o KV b p q) a)
    (variational_element gauss lobatto (ne * o + 1) (ne * o) o ne edges) ne 0 empty) as (s & Es & Cv & M).
  { split; [intros p Hp; lia|]. intros p q. rewrite sum_0. reflexivity. }
  { intros a t Ha (C1 & C2). destruct (variational_element_ok a t ltac:(lia) C1 C2) as (t' & Et & C3 & C4). exists t'. replace (S a) with (a + 1)%nat in * by lia. auto. }
  rewrite Es. destruct (finish_ok o ne 0 o KV (ne * o) s Ho ltac:(lia) ltac:(lia) Cv M) as (A & EA & W & N1 & N2 & V).
  exists A. split; [exact EA|]. split; [exact W|]. split; [exact N1|]. split; [exact N2|]. intros u v q g Hq Hg.
  unfold over_interfaces. rewrite (sum_ext _ (fun a => sum (fun j => WL a j * (fun p => v p * apply1 A u p) (a * o + j)%nat) (o + 1))) by (intros; apply sum_ext; intros; ring).
  generalize (group o ne Ho WL (fun p => v p * apply1 A u p)). unfold over_interfaces. intros ->.
  rewrite (sum_ext _ (fun p => (Mass o ne WL p * v p) * sum (fun q => fm s p q * u q) (ne * o))) by (intros p Hp; rewrite V by exact Hp; ring).
  cbn [Nat.add] in M.
  rewrite (assembled_form o (o + 1) o KV ne (ne * o + 1) (ne * o) (fm s)) by (try exact M; intros; nia).
  unfold over_levels. replace (- sum _ ne) with (-1 * sum (fun a => sum (fun i => gw a i * u (a * o + i)%nat * g a (gp a i)) o) ne) by ring.
  rewrite <- sum_scale. apply sum_ext. intros a Ha. rewrite sum_swap, <- sum_scale. apply sum_ext. intros i Hi.
  destruct (dc_ok o ne edges Ho Hne Le Se a (gp a i) Ha) as (_ & _ & X). rewrite <- (X v (q a) (g a) (Hq a Ha) (fun x => Hg a x Ha)).
  rewrite <- !sum_scale. apply sum_ext. intros j Hj. rewrite Mass_ok by (try exact Ha; lia). unfold KV. field.
  apply Rgt_not_eq, mass_pos; [exact Ho|apply WL_pos|exact Ha|lia].
Qed.

(** *** the second derivative *)
(** the points where the derivatives are taken *)
Definition dp (at_points : bool) (a k : nat) : R := if at_points then rule_point lobatto (o + 1) (E a) (E (a + 1)%nat) k else nth (a * o + k) edges 0.
Definition doubled (a j : nat) : R :=
  let w1 := if ((j =? 0) && negb (a =? 0))%bool%nat then WL a j * 2 else WL a j in
  if ((j =? o) && negb (a =? ne - 1))%bool%nat then w1 * 2 else w1.
Lemma doubled_pos a j : (a < ne)%nat -> (j <= o)%nat -> 0 < doubled a j.
Proof.
  intros Ha Hj. unfold doubled. generalize (WL_pos a j Ha Hj). intros Q.
  destruct (Nat.eqb_spec j 0), (Nat.eqb_spec a 0), (Nat.eqb_spec j o), (Nat.eqb_spec a (ne - 1)); cbn [andb negb]; lra.
Qed.
Definition KD (b : bool) (a j i : nat) : R :=
  - sum (fun k => nth j (dc o edges a (dp b a k)) 0 * nth i (dc o edges a (dp b a k)) 0 * WL a k / doubled a j) (o + 1).
Lemma acc_loop n p0 q0 body v : (forall k s, (k < n)%nat -> exists s', body k s = Some s' /\ upd_at s s' p0 q0 (fun x => x - v k)) ->
  forall s, exists s', loop body (seq 0 n) s = Some s' /\ upd_at s s' p0 q0 (fun x => x - sum v n).
Proof.
  intros H s. destruct (loop_inv (fun k s' => upd_at s s' p0 q0 (fun x => x - sum v k)) body n 0 s) as (s' & Es & I).
  - split; [|split; reflexivity]. intros p q. rewrite sum_0. destruct (_ && _)%bool; ring.
  - intros k t Hk (I1 & I2 & I3). destruct (H k t ltac:(lia)) as (t' & Et & U1 & U2 & U3). exists t'. split; [exact Et|].
    split; [|split; congruence]. intros p q. rewrite U1, I1, sum_S. destruct (_ && _)%bool; ring.
  - exists s'. split; [exact Es|exact I].
Qed.
Lemma upd_ext s s' p q f g : (forall x, f x = g x) -> upd_at s s' p q f -> upd_at s s' p q g.
Proof. intros X (U1 & U2 & U3). split; [|split; assumption]. intros i j. rewrite U1. destruct (_ && _)%bool; [apply X|reflexivity]. Qed.
Lemma diffusion_element_ok b a s : (a < ne)%nat -> covered o ne 1 a s -> (forall p q, fm s p q = sum (fun c => blk o (o + 1) (o + 1) (KD b) c p q) a) ->
  exists s', diffusion_element lobatto b (ne * o + 1) o ne edges a s = Some s' /\ covered o ne 1 (a + 1) s' /\
    forall p q, fm s' p q = sum (fun c => blk o (o + 1) (o + 1) (KD b) c p q) (S a).
Proof.
  intros Ha Cv M. unfold diffusion_element. rewrite (rde o ne edges Ho Hne Le a), (rde o ne edges Ho Hne Le (a + 1)) by lia. fold E. cbn [bind].
  destruct (GL (E a) (E (a + 1)%nat) (Ed a Ha)) as (G & W & EG & LG & LW). rewrite EG. cbn [bind].
  assert (WZ : forall i, WL a i = nth i W 0) by (intros; unfold WL, rule_weight; rewrite EG; reflexivity).
  rewrite (collect_map _ (fun i => dc o edges a (dp b a i))).
  2:{ intros i Hi. apply in_seq in Hi.
      replace (if b then rd G i else rd edges (a * o + i)) with (Some (dp b a i)).
      2:{ unfold dp, rule_point. rewrite EG. destruct b; rewrite rd_ok by (rewrite ?Le; nia); reflexivity. }
      cbn [bind]. rewrite (esub o ne edges) by assumption. cbn [bind]. apply (dc_ok o ne edges); assumption. }
  cbn [bind]. set (D := map _ _).
  assert (LD : length D = (o + 1)%nat) by (unfold D; rewrite map_length, seq_length; reflexivity).
  assert (ND : forall i, (i < o + 1)%nat -> nth i D [] = dc o edges a (dp b a i)) by (intros i Hi; unfold D; rewrite nth_map_seq by exact Hi; reflexivity).
  assert (LDi : forall i, (i < o + 1)%nat -> length (nth i D []) = (o + 1)%nat) by (intros i Hi; rewrite ND by exact Hi; apply (dc_ok o ne edges); assumption).
  match goal with |- context [loop ?f (seq 0 (o + 1)) s] => destruct (block_loop (o + 1) (o + 1) (a * o) (a * o) f (fun j i x => x + KD b a j i)) with (s := s) as (s1 & E1 & F1 & B1 & B2) end.
  { intros j Hj. eexists. split.
    - intros t. rewrite rd_ok by lia. cbn [bind]. reflexivity.
    - intros i t Hi. cbv beta.
      match goal with |- context [loop ?f (seq 0 (o + 1)) t] => destruct (acc_loop (o + 1) (j + a * o) (i + a * o) f
        (fun k => nth j (dc o edges a (dp b a k)) 0 * nth i (dc o edges a (dp b a k)) 0 * WL a k / doubled a j)) with (s := t) as (t1 & T1 & U1) end.
      + intros k r Hk. cbv beta. rewrite !(rd2_ok D (o + 1) (o + 1)) by (auto; lia). cbn [bind]. rewrite rd_ok by lia. cbn [bind]. rewrite <- !WZ. fold (doubled a j).
        rewrite div_ok by (apply Rgt_not_eq, doubled_pos; [exact Ha|lia]). cbn [bind]. rewrite !ND by exact Hk.
        destruct (set_coef_ok (ne * o + 1) (ne * o + 1) (j + a * o) (i + a * o) (fm r (j + a * o)%nat (i + a * o)%nat -
          nth j (dc o edges a (dp b a k)) 0 * nth i (dc o edges a (dp b a k)) 0 * WL a k / doubled a j) r) as (r' & Er & (V1 & V2 & V3)); [nia|nia|].
        exists r'. split; [exact Er|]. split; [|split; assumption]. intros p q. rewrite V1. destruct (Nat.eqb_spec p (j + a * o)), (Nat.eqb_spec q (i + a * o)); cbn [andb]; try reflexivity. subst. reflexivity.
      + exists t1. split; [exact T1|]. apply upd_ext with (2 := U1). intros x. unfold KD. ring. }
  rewrite E1. cbn [bind].
  assert (Cv1 : covered o ne 1 a s1).
  { intros p Hp. destruct (Cv p Hp) as (C1 & C2). unfold covers. rewrite B1, B2. split; assumption. }
  destruct (element_bounds_ok o ne 1 Ho Hne a s1 Ha Cv1) as (s2 & E2 & F2 & C2). exists s2. split; [exact E2|]. split; [exact C2|].
  intros p q. rewrite F2, F1, sum_S, M. unfold blk at 4. destruct (in_block_spec (a * o) (o + 1) (a * o) (o + 1) p q); ring.
Qed.
(** the weak form with arbitrary test values *)
Definition diffuses (b : bool) (A : op) : Prop := wf A /\ nrow A = length edges /\ ncol A = length edges /\
  forall c u q g r f, (forall a, (a < ne)%nat -> interpolates (o + 1) edges (a * o) u (q a)) ->
    (forall a x, (a < ne)%nat -> derivable_pt_lim (peval (q a)) x (g a x)) ->
    (forall a, (a < ne)%nat -> interpolates (o + 1) edges (a * o) (fun p => c p / doubled a (p - a * o)) (r a)) ->
    (forall a x, (a < ne)%nat -> derivable_pt_lim (peval (r a)) x (f a x)) ->
    sum (fun p => c p * apply1 A u p) (length edges) =
    - over_interfaces o ne (fun a k => WL a k * g a (dp b a k) * f a (dp b a k)).
Lemma diffusion_loop b : exists s A, loop (diffusion_element lobatto b (ne * o + 1) o ne edges) (seq 0 ne) empty = Some s /\
  finish (ne * o + 1) (ne * o + 1) (Some s) = Built A /\ diffuses b A.
Proof.
  destruct (loop_inv (fun a s => covered o ne 1 a s /\ forall p q, fm s p q = sum (fun c => blk o (o + 1) (o + 1) (KD b) c p q) a)
    (diffusion_element lobatto b (ne * o + 1) o ne edges) ne 0 empty) as (s & Es & Cv & M).
  { split; [intros p Hp; lia|]. intros p q. rewrite sum_0. reflexivity. }
  { intros a t Ha (C1 & C2). destruct (diffusion_element_ok b a t ltac:(lia) C1 C2) as (t' & Et & C3 & C4). exists t'. replace (S a) with (a + 1)%nat in * by lia. auto. }
  destruct (finish_ok o ne 1 (o + 1) (KD b) (ne * o + 1) s Ho ltac:(lia) ltac:(lia) Cv M) as (A & EA & W & N1 & N2 & V).
  exists s, A. split; [exact Es|]. split; [exact EA|]. split; [exact W|]. rewrite Le. split; [exact N1|]. split; [exact N2|].
  intros c u q g r f Hq Hg Hr Hf. cbn [Nat.add] in M.
  rewrite (sum_ext _ (fun p => c p * sum (fun q => fm s p q * u q) (ne * o + 1))) by (intros p Hp; rewrite V by exact Hp; ring).
  rewrite (assembled_form o (o + 1) (o + 1) (KD b) ne (ne * o + 1) (ne * o + 1) (fm s)) by (try exact M; intros; nia).
  unfold over_interfaces. replace (- sum _ ne) with (-1 * sum (fun a => sum (fun k => WL a k * g a (dp b a k) * f a (dp b a k)) (o + 1)) ne) by ring.
  rewrite <- sum_scale. apply sum_ext. intros a Ha.
  rewrite (sum_ext _ (fun j => sum (fun i => sum (fun k => -1 * (WL a k * (nth i (dc o edges a (dp b a k)) 0 * u (a * o + i)%nat) * (nth j (dc o edges a (dp b a k)) 0 * (c (a * o + j)%nat / doubled a j)))) (o + 1)) (o + 1))).
  2:{ intros j Hj. apply sum_ext. intros i Hi. unfold KD. rewrite sum_scale.
      replace (c (a * o + j)%nat * - sum _ (o + 1) * u (a * o + i)%nat) with (-1 * ((c (a * o + j)%nat * u (a * o + i)%nat) *
        sum (fun k => nth j (dc o edges a (dp b a k)) 0 * nth i (dc o edges a (dp b a k)) 0 * WL a k / doubled a j) (o + 1))) by ring.
      rewrite <- sum_scale. f_equal. apply sum_ext. intros k Hk. field. apply Rgt_not_eq, doubled_pos; [exact Ha|lia]. }
  rewrite (sum_ext _ (fun j => sum (fun k => sum (fun i => -1 * (WL a k * (nth i (dc o edges a (dp b a k)) 0 * u (a * o + i)%nat) * (nth j (dc o edges a (dp b a k)) 0 * (c (a * o + j)%nat / doubled a j)))) (o + 1)) (o + 1)))
    by (intros; apply sum_swap).
  rewrite sum_swap, <- sum_scale. apply sum_ext. intros k Hk.
  destruct (dc_ok o ne edges Ho Hne Le Se a (dp b a k) Ha) as (_ & _ & X).
  rewrite <- (X u (q a) (g a) (Hq a Ha) (fun x => Hg a x Ha)). rewrite <- (X _ (r a) (f a) (Hr a Ha) (fun x => Hf a x Ha)).
  rewrite (sum_ext _ (fun j => (-1 * WL a k * sum (fun i => nth i (dc o edges a (dp b a k)) 0 * u (a * o + i)%nat) (o + 1)) * (nth j (dc o edges a (dp b a k)) 0 * (c (a * o + j)%nat / doubled a (a * o + j - a * o))))).
  2:{ intros j Hj. replace (a * o + j - a * o)%nat with j by lia. rewrite <- sum_scale, <- sum_scale_r. apply sum_ext. intros; ring. }
  rewrite sum_scale. ring.
Qed.
Lemma diffusion_edges_ok nodes : length nodes = (ne * o)%nat -> exists A, diffusion_edges lobatto o nodes edges = Built A /\ diffuses false A.
Proof.
  intros Ln. destruct (diffusion_loop false) as (s & A & Es & EA & D). exists A. split; [|exact D].
  unfold diffusion_edges. destruct (Nat.eqb_spec o 0); [lia|]. destruct (Nat.eqb_spec (length edges) 0); [lia|].
  rewrite Ln, Nat.mod_mul, Nat.div_mul by lia. cbn [Nat.eqb negb]. rewrite Le, Es. exact EA.
Qed.
Lemma diffusion_gll_ok : exists A, diffusion_gll lobatto (o + 1) edges = Built A /\ diffuses true A.
Proof.
  destruct (diffusion_loop true) as (s & A & Es & EA & D). exists A. split; [|exact D].
  unfold diffusion_gll. destruct (Nat.leb_spec (o + 1) 1); [lia|]. destruct (Nat.eqb_spec (length edges) 0); [lia|].
  replace (o + 1 - 1)%nat with o by lia. rewrite Le. replace (ne * o + 1 - 1)%nat with (ne * o)%nat by lia.
  rewrite Nat.mod_mul, Nat.div_mul by lia. cbn [Nat.eqb negb]. rewrite Es. exact EA.
Qed.

(** elements of equal length: the weights agree with the assembled ones *)
Lemma doubled_mass h a j : wl 0%nat = wl o -> (forall a, (a < ne)%nat -> E (a + 1)%nat - E a = h) -> (a < ne)%nat -> (j <= o)%nat -> doubled a j = mass o ne WL a j.
Proof.
  intros Sy Eq Ha Hj. unfold doubled, mass.
  destruct (Nat.eqb_spec j 0) as [J0|J0], (Nat.eqb_spec a 0) as [A0|A0], (Nat.eqb_spec j o) as [J1|J1], (Nat.eqb_spec a (ne - 1)) as [A1|A1]; cbn [andb negb]; try reflexivity; try lia.
  all: try (rewrite (WL_eq a j), (WL_eq (a - 1) o) by lia; rewrite !Eq by lia; subst j; rewrite ?Sy; ring).
  all: rewrite (WL_eq a j), (WL_eq (a + 1) 0) by lia; rewrite !Eq by lia; subst j; rewrite ?Sy; ring.
Qed.
Lemma diffuses_equal b A h : diffuses b A -> wl 0%nat = wl o -> (forall a, (a < ne)%nat -> E (a + 1)%nat - E a = h) ->
  forall u v q g r f, (forall a, (a < ne)%nat -> interpolates (o + 1) edges (a * o) u (q a)) ->
    (forall a x, (a < ne)%nat -> derivable_pt_lim (peval (q a)) x (g a x)) ->
    (forall a, (a < ne)%nat -> interpolates (o + 1) edges (a * o) v (r a)) ->
    (forall a x, (a < ne)%nat -> derivable_pt_lim (peval (r a)) x (f a x)) ->
    over_interfaces o ne (fun a j => WL a j * v (a * o + j)%nat * apply1 A u (a * o + j)%nat) =
    - over_interfaces o ne (fun a k => WL a k * g a (dp b a k) * f a (dp b a k)).
Proof.
  intros (_ & _ & _ & H) Sy Eq u v q g r f Hq Hg Hr Hf.
  rewrite <- (H (fun p => Mass o ne WL p * v p) u q g r f Hq Hg).
  - rewrite (sum_ext _ (fun p => Mass o ne WL p * (v p * apply1 A u p))) by (intros; ring). rewrite Le.
    rewrite <- group by exact Ho. unfold over_interfaces. apply sum_ext. intros a Ha. apply sum_ext. intros; ring.
  - intros a Ha. destruct (Hr a Ha) as (L & V). split; [exact L|]. intros i Hi. rewrite V by exact Hi.
    replace (a * o + i - a * o)%nat with i by lia. rewrite Mass_ok by (try assumption; lia). rewrite <- (doubled_mass h) by (try assumption; lia).
    field. apply Rgt_not_eq, doubled_pos; [exact Ha|lia].
  - exact Hf.
Qed.
End Rules.
