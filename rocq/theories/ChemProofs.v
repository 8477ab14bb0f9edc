(** * Terminator chemistry: lemmas *)
From Coq Require Import Reals Lra Lia.
From Verif Require Import ChemModel ChemSpec.
Local Open Scope R_scope.

Section Sun.
  Context (a b cl cl2 : R) (A : 0 < a) (B : 0 < b) (C : 0 <= cl) (C2 : 0 <= cl2).
  Let r := ratio a b.
  Let cly := cl + 2 * cl2.
  Let d := det r cly.
  Let y := cl + r.
  Lemma r_pos : 0 < r. Proof. unfold r, ratio. apply Rdiv_lt_0_compat; lra. Qed.
  Lemma d_sqr : d * d = r * r + 2 * r * cly.
  Proof. unfold d, det. apply sqrt_sqrt. pose proof r_pos. unfold cly. nra. Qed.
  Lemma d_ge : r <= d.
  Proof.
    pose proof r_pos as P. pose proof d_sqr as Q. assert (0 <= d) by apply sqrt_pos.
    assert (0 <= r * cly) by (unfold cly; nra). nra.
  Qed.
  Lemma a_is : a = 4 * b * r. Proof. unfold r, ratio. field. lra. Qed.
  (** the solution *)
  Definition flow (s : R) : R :=
    let e := exp (-4 * b * d * s) in d * ((y + d) + (y - d) * e) / ((y + d) - (y - d) * e) - r.
  Lemma exp_range s : 0 <= s -> 0 < exp (-4 * b * d * s) <= 1.
  Proof.
    intros S. split; [apply exp_pos|]. pose proof d_ge as G. pose proof r_pos.
    assert (-4 * b * d * s <= 0) as [L|L].
    { assert (0 <= b * d * s) by (apply Rmult_le_pos; [apply Rmult_le_pos|]; lra). lra. }
    - left. rewrite <- exp_0. apply exp_increasing, L.
    - rewrite L, exp_0. lra.
  Qed.
  Lemma den_pos e : 0 <= e <= 1 -> 0 < (y + d) - (y - d) * e.
  Proof. intros E. pose proof d_ge. pose proof r_pos. assert (0 <= y) by (unfold y; lra). nra. Qed.
  Lemma flow_zero : flow 0 = cl.
  Proof.
    unfold flow. rewrite Rmult_0_r, exp_0. cbv zeta. pose proof d_ge. pose proof r_pos. unfold y. field. lra.
  Qed.
  Lemma exp_lim s : derivable_pt_lim (fun s => exp (-4 * b * d * s)) s (-4 * b * d * exp (-4 * b * d * s)).
  Proof.
    replace (-4 * b * d * exp (-4 * b * d * s)) with (exp (-4 * b * d * s) * (-4 * b * d)) by ring.
    apply (derivable_pt_lim_comp (fun s => -4 * b * d * s) exp); [|apply derivable_pt_lim_exp].
    pose proof (derivable_pt_lim_scal (fun x => x) (-4 * b * d) s 1 (derivable_pt_lim_id s)) as D. rewrite Rmult_1_r in D. exact D.
  Qed.
  Lemma affine_lim p q f s l : derivable_pt_lim f s l -> derivable_pt_lim (fun s => p + q * f s) s (q * l).
  Proof.
    intros H. replace (q * l) with (0 + q * l) by ring.
    apply (derivable_pt_lim_plus (fun _ => p) (fun s => q * f s)); [apply derivable_pt_lim_const|].
    apply (derivable_pt_lim_scal f), H.
  Qed.
  Lemma lim_ext f g s l : (forall x, f x = g x) -> derivable_pt_lim f s l -> derivable_pt_lim g s l.
  Proof. intros E H e He. destruct (H e He) as (dl & K). exists dl. intros h H1 H2. rewrite <- !E. apply K; assumption. Qed.
  Lemma flow_lim s : 0 <= s -> derivable_pt_lim flow s (reaction a b (flow s) ((cly - flow s) / 2)).
  Proof.
    intros S. destruct (exp_range s S) as (E0 & E1). pose proof (den_pos (exp (-4 * b * d * s)) ltac:(lra)) as P.
    set (e := fun s => exp (-4 * b * d * s)). 
    pose proof (affine_lim (d * (y + d)) (d * (y - d)) e s _ (exp_lim s)) as N.
    pose proof (affine_lim (y + d) (- (y - d)) e s _ (exp_lim s)) as M.
    pose proof (derivable_pt_lim_div _ _ s _ _ N M) as D. cbv beta in D. unfold e at 1 in D.
    assert (y + d + - (y - d) * exp (-4 * b * d * s) <> 0) as NZ by lra. specialize (D NZ).
    pose proof (derivable_pt_lim_minus _ _ s _ _ D (derivable_pt_lim_const r s)) as F.
    refine (lim_ext _ flow s _ _ _).
    2:{ match type of F with derivable_pt_lim _ _ ?l => replace (reaction a b (flow s) ((cly - flow s) / 2)) with l; [exact F|] end.
        unfold reaction, flow, Rsqr, e. cbv zeta. set (x := exp (-4 * b * d * s)) in *.
        pose proof d_sqr as Q. pose proof a_is as Aa. 
        set (w := d * (y + d + (y - d) * x) / (y + d - (y - d) * x)).
        transitivity (2 * b * (d * d - w * w)).
        - unfold w. field. lra.
        - rewrite Aa, Q. field. }
    intros x. unfold minus_fct, div_fct, fct_cte, flow, e. cbv zeta. f_equal. unfold Rdiv. f_equal; [ring|f_equal; ring].
  Qed.
  Lemma rate_flow dt : 0 < dt -> / 10 ^ 16 < d * b * dt -> cl + dt * cl_rate a b cl cl2 dt = flow dt.
  Proof.
    intros T H. unfold cl_rate. cbv zeta. fold r cly. fold d. unfold el.
    assert (0 < / 10 ^ 16) as I by (apply Rinv_0_lt_compat, pow_lt; lra).
    rewrite Rabs_right by lra. destruct (Rlt_dec (/ 10 ^ 16) (d * b * dt)) as [_|N]; [|contradiction].
    unfold flow. cbv zeta. destruct (exp_range dt ltac:(lra)) as (E0 & E1). pose proof (den_pos (exp (-4 * b * d * dt)) ltac:(lra)) as P.
    set (e := exp (-4 * b * d * dt)) in *. pose proof d_ge. pose proof r_pos.
    unfold y in P |- *. clearbody r d e. field. repeat split; try lra.
  Qed.
  Lemma flow_bounds s : 0 <= s -> 0 <= flow s <= cly.
  Proof.
    intros S. destruct (exp_range s S) as (E0 & E1). unfold flow. cbv zeta. pose proof (den_pos (exp (-4 * b * d * s)) ltac:(lra)) as P.
    set (e := exp (-4 * b * d * s)) in *. pose proof d_ge as G. pose proof r_pos as R0. pose proof d_sqr as Q.
    assert (0 < / (y + d - (y - d) * e)) as I by (apply Rinv_0_lt_compat; lra).
    assert (0 <= cl2) by exact C2. assert (r <= y) as Y by (unfold y; lra).
    assert (y <= cly + r) as Y2 by (unfold y, cly; lra).
    assert (d <= cly + r) as DY. { assert (0 <= cly) by (unfold cly; lra). nra. }
    split.
    - replace (d * (y + d + (y - d) * e) / (y + d - (y - d) * e) - r) with ((d * (y + d + (y - d) * e) - r * (y + d - (y - d) * e)) * / (y + d - (y - d) * e)) by (field; lra).
      apply Rmult_le_pos; [|lra].
      replace (d * (y + d + (y - d) * e) - r * (y + d - (y - d) * e)) with ((y - r) * (d * (1 + e) - r * (1 - e)) + (d * d - r * r) * (1 - e)) by ring.
      assert (0 <= d * (1 + e) - r * (1 - e)) by nra. assert (0 <= d * d - r * r) by nra.
      apply Rplus_le_le_0_compat; apply Rmult_le_pos; lra.
    - apply Rminus_le. set (Yt := cly + r) in *.
      replace (d * (y + d + (y - d) * e) / (y + d - (y - d) * e) - r - cly) with (- ((Yt * (y + d - (y - d) * e) - d * (y + d + (y - d) * e)) * / (y + d - (y - d) * e))) by (unfold Yt; field; lra).
      assert (0 <= Yt * (y + d - (y - d) * e) - d * (y + d + (y - d) * e)) as W.
      { assert (0 < Yt) by lra. apply (Rmult_le_reg_l Yt); [lra|]. rewrite Rmult_0_r.
        replace (Yt * (Yt * (y + d - (y - d) * e) - d * (y + d + (y - d) * e)))
          with ((Yt - y) * (d * (Yt * (1 + e) - d * (1 - e))) + y * ((Yt * Yt - d * d) * (1 - e))) by ring.
        assert (0 <= Yt * (1 + e) - d * (1 - e)) by nra. assert (0 <= Yt * Yt - d * d) by nra.
        apply Rplus_le_le_0_compat; apply Rmult_le_pos; try lra; apply Rmult_le_pos; lra. }
      assert (0 <= (Yt * (y + d - (y - d) * e) - d * (y + d + (y - d) * e)) * / (y + d - (y - d) * e)) by (apply Rmult_le_pos; lra). lra.
  Qed.
  (** distance from equilibrium *)
  Lemma flow_distance s : 0 <= s -> exists q, 0 < q <= 1 /\ flow s - (d - r) = q * (cl - (d - r)).
  Proof.
    intros S. destruct (exp_range s S) as (E0 & E1). unfold flow. cbv zeta. pose proof (den_pos (exp (-4 * b * d * s)) ltac:(lra)) as P.
    set (e := exp (-4 * b * d * s)) in *. pose proof d_ge as G. pose proof r_pos as R0. assert (0 <= y) by (unfold y; lra).
    exists (2 * d * e / (y + d - (y - d) * e)). split.
    - split; [apply Rdiv_lt_0_compat; nra|]. apply (Rmult_le_reg_r (y + d - (y - d) * e)); [lra|].
      unfold Rdiv. rewrite Rmult_assoc, Rinv_l, Rmult_1_r, Rmult_1_l by lra. nra.
    - unfold y in P |- *. clearbody r d e. field. lra.
  Qed.
End Sun.

(** darkness: only recombination *)
Section Dark.
  Context (b cl cl2 : R) (B : 0 < b) (C : 0 <= cl).
  Definition dark (s : R) : R := cl / (1 + 2 * b * cl * s).
  Lemma dark_den s : 0 <= s -> 0 < 1 + 2 * b * cl * s.
  Proof. intros S. assert (0 <= b * cl * s) by (apply Rmult_le_pos; [apply Rmult_le_pos|]; lra). lra. Qed.
  Lemma dark_rate dt : 0 <= dt -> cl + dt * cl_rate 0 b cl cl2 dt = dark dt.
  Proof.
    intros T. unfold cl_rate, ratio, det. cbv zeta.
    replace (0 / (4 * b) * (0 / (4 * b)) + 2 * (0 / (4 * b)) * (cl + 2 * cl2)) with 0 by (field; lra). rewrite sqrt_0.
    replace (-4 * b * 0 * dt) with 0 by ring. rewrite exp_0. unfold el. replace (0 * b * dt) with 0 by ring. rewrite Rabs_R0.
    assert (0 < / 10 ^ 16) as I by (apply Rinv_0_lt_compat, pow_lt; lra).
    destruct (Rlt_dec (/ 10 ^ 16) 0); [lra|]. unfold dark. pose proof (dark_den dt T). replace (0 / (4 * b)) with 0 by (field; lra).
    field. split; [lra|]. replace (1 + 1 + dt * (4 * b) * (cl + 0)) with (2 * (1 + 2 * b * cl * dt)) by ring. lra.
  Qed.
  Lemma dark_lim total s : 0 <= s -> derivable_pt_lim dark s (reaction 0 b (dark s) ((total - dark s) / 2)).
  Proof.
    intros S. pose proof (dark_den s S) as P.
    pose proof (affine_lim 1 (2 * b * cl) (fun s => s) s 1 (derivable_pt_lim_id s)) as M.
    pose proof (derivable_pt_lim_div (fun _ => cl) _ s 0 _ (derivable_pt_lim_const cl s) M ltac:(lra)) as D.
    unfold reaction, dark. match type of D with derivable_pt_lim _ _ ?l => replace (2 * 0 * ((total - cl / (1 + 2 * b * cl * s)) / 2) - 2 * b * (cl / (1 + 2 * b * cl * s)) * (cl / (1 + 2 * b * cl * s))) with l; [exact D|] end.
    unfold Rsqr. field. lra.
  Qed.
End Dark.
