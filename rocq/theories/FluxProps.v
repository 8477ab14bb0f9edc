(** * Properties of flux correction, weak derivatives, diffusion and penalties *)
From Coq Require Import Reals List Arith ZArith Lia Lra Bool.
From Verif Require Import QuadModel QuadSpec InterpModel InterpSpec InterpProofs ColModel ColSpec ColProofs ColProps FemModel FemSpec FemProofs FemProofs2 FluxModel FluxSpec FluxProofs FluxProofs2 FluxProofs3 FluxProofs4 FluxProofs5 FluxProofs6 FluxProofs7.
Import ListNotations.
Local Open Scope R_scope.

(** ** C58: the correction function *)
(** whatever solution of its system DGESV leaves behind, the values returned are
    the derivatives, on [0, 1], of the correction polynomial on [-1, 1] *)
Theorem C58_function : forall x t N nodes P, (1 <= t <= N)%nat -> nodes <> [] ->
  solves (N + 1) (van t N) rhs x -> correction t N P ->
  exists d, get_derivatives x t N nodes = Values d /\ length d = length nodes /\
    forall i, (i < length nodes)%nat -> derivable_pt_lim (fun z => peval P (2 * z - 1)) (nth i nodes 0) (nth i d 0).
Proof.
  intros x t N nodes P T Nn S HP. exists (map (deriv_at N x) nodes). split; [apply get_derivatives_ok; assumption|]. split; [apply map_length|].
  intros i Hi. rewrite (nth_indep (map (deriv_at N x) nodes) 0 (deriv_at N x 0)) by (rewrite map_length; exact Hi). rewrite map_nth.
  apply derivable_ext with (f := fun z => peval (lower N x) (2 * z - 1)); [|apply deriv_at_ok].
  intros z. apply (correction_unique t N); [lia| |exact HP]. apply solution_correction; assumption.
Qed.
(** the system can be solved, and the polynomial exists and is determined *)
Theorem C58_solvable : forall t N, (1 <= t <= N)%nat -> exists x, solves (N + 1) (van t N) rhs x /\ exists P, correction t N P.
Proof.
  intros t N T. destruct (van_solvable t N rhs T) as (x & Hx). exists x. split; [exact Hx|]. exists (lower N x). apply solution_correction; assumption.
Qed.
Theorem C58_unique : forall t N P Q, (t <= N)%nat -> correction t N P -> correction t N Q -> forall x, peval P x = peval Q x.
Proof. exact correction_unique. Qed.
(** exactly the empty requests and those with a type or order below one are
    rejected; a type above the order passes the checks and writes outside the matrix *)
Theorem C58_checks : forall x t N nodes,
  (get_derivatives x t N nodes = Rejected <-> (t = 0 \/ N = 0 \/ t <= N /\ nodes = [])%nat) /\
  (get_derivatives x t N nodes = Overrun <-> (1 <= N < t)%nat).
Proof.
  intros x t N nodes. unfold get_derivatives.
  destruct (Nat.ltb_spec t 1); [split; split; intros H'; try discriminate; try lia; reflexivity|].
  destruct (Nat.ltb_spec N 1); [split; split; intros H'; try discriminate; try lia; reflexivity|].
  destruct (Nat.ltb_spec N t); [split; split; intros H'; try discriminate; try lia; reflexivity|].
  destruct nodes; cbn [length Nat.eqb]; split; split; intros H'; try discriminate; try lia; try reflexivity.
  - right. right. split; [lia|reflexivity].
  - destruct H' as [Q|[Q|(_ & Q)]]; [lia|lia|discriminate].
Qed.
Theorem C58_overrun_refuted : exists t N nodes, (1 <= t)%nat /\ (1 <= N)%nat /\ nodes <> [] /\ forall x, get_derivatives x t N nodes = Overrun.
Proof. exists 2%nat, 1%nat, [0]. split; [lia|]. split; [lia|]. split; [discriminate|]. intros x. apply C58_checks. lia. Qed.
Example C58_case : correction 1 2 [-1/4; 1/2; 3/4] /\
  forall x d, solves 3 (van 1 2) rhs x -> get_derivatives x 1 2 [0; 1] = Values d -> nth 0 d 0 = -2 /\ nth 1 d 0 = 4.
Proof.
  assert (K : correction 1 2 [-1/4; 1/2; 3/4]).
  { split; [cbn; lia|]. split; [cbn; field|]. split.
    - exists [-1/4; 3/4]. split; [cbn; lia|]. intros x. cbn. field.
    - intros n F Hn HF. assert (n = 0%nat) by lia. subst n.
      rewrite <- (Rplus_0_l (F (-1))). enough (F 1 - F (-1) = 0) by lra.
      rewrite (same_increment F (fun x => 1/4 * (x * (x * x) + x * x - x)) (fun x => peval [-1/4; 1/2; 3/4] x * x ^ 0) HF); [field|].
      intros x. replace (peval [-1/4; 1/2; 3/4] x * x ^ 0) with (1/4 * ((1 * (x * x) + x * (1 * x + x * 1)) + (1 * x + x * 1) - 1)) by (cbn; field).
      apply (derivable_pt_lim_scal (fun x => x * (x * x) + x * x - x)).
      apply (derivable_pt_lim_minus (fun x => x * (x * x) + x * x) (fun x => x)); [|apply derivable_pt_lim_id].
      apply (derivable_pt_lim_plus (fun x => x * (x * x)) (fun x => x * x)).
      + apply (derivable_pt_lim_mult (fun x => x) (fun x => x * x)); [apply derivable_pt_lim_id|].
        apply (derivable_pt_lim_mult (fun x => x) (fun x => x)); apply derivable_pt_lim_id.
      + apply (derivable_pt_lim_mult (fun x => x) (fun x => x)); apply derivable_pt_lim_id. }
  split; [exact K|]. intros x d S G.
  destruct (C58_function x 1 2 [0; 1] _ ltac:(lia) ltac:(discriminate) S K) as (d' & G' & _ & V). rewrite G in G'. injection G' as <-.
  assert (Q : forall y, derivable_pt_lim (fun z => peval [-1/4; 1/2; 3/4] (2 * z - 1)) y (6 * y - 2)).
  { intros y. apply derivable_ext with (f := fun z => 3 * (z * z) - 2 * z); [intros z; cbn; field|].
    replace (6 * y - 2) with (3 * (1 * y + y * 1) - 2 * 1) by ring.
    apply (derivable_pt_lim_minus (fun z => 3 * (z * z)) (fun z => 2 * z)).
    - apply (derivable_pt_lim_scal (fun z => z * z)). apply (derivable_pt_lim_mult (fun x => x) (fun x => x)); apply derivable_pt_lim_id.
    - apply (derivable_pt_lim_scal (fun z => z)). apply derivable_pt_lim_id. }
  split.
  - rewrite (uniqueness_limite _ _ _ _ (V 0%nat ltac:(cbn; lia)) (Q _)). cbn. ring.
  - rewrite (uniqueness_limite _ _ _ _ (V 1%nat ltac:(cbn; lia)) (Q _)). cbn. ring.
Qed.

(** ** C59: the flux-corrected derivative *)
(** what DGESV has to have done for the correction function of type two *)
Definition solved (sol : nat -> nat -> nat -> R) (o : nat) : Prop := solves (o + 1 + 1) (van 2 (o + 1)) rhs (sol 2%nat (o + 1)%nat).
Lemma finite_choice {A} (d : A) (Q : nat -> A -> Prop) n : (forall i, (i < n)%nat -> exists q, Q i q) -> exists f, forall i, (i < n)%nat -> Q i (f i).
Proof.
  induction n as [|n IH]; intros H; [exists (fun _ => d); intros; lia|].
  destruct IH as (f & Hf); [intros; apply H; lia|]. destruct (H n ltac:(lia)) as (q & Hq).
  exists (fun i => if (i =? n)%nat then q else f i). intros i Hi. destruct (Nat.eqb_spec i n) as [->|]; [exact Hq|apply Hf; lia].
Qed.
(** every column of values has polynomials through its elements *)
Theorem C59_interpolants : forall o ne nodes edges u, column o ne nodes edges ->
  exists p g, (forall i, (i < ne)%nat -> interpolates o nodes (i * o) u (p i)) /\ (forall i x, (i < ne)%nat -> derivable_pt_lim (peval (p i)) x (g i x)).
Proof.
  intros o ne nodes edges u C.
  destruct (finite_choice [] (fun i q => interpolates o nodes (i * o) u q) ne) as (p & Hp).
  { intros i Hi.
    destruct (interpolant_poly o (fun j => nth (i * o + j) nodes 0) (fun j => u (i * o + j)%nat)) as (q & Lq & Hq).
    exists q. split; [exact Lq|]. intros j Hj. rewrite <- Hq. apply (interpolant_at_node o (fun j => nth (i * o + j) nodes 0) (fun j => u (i * o + j)%nat) j); [|exact Hj].
    apply run_distinct; [apply C|]. apply (fits o ne nodes edges C i Hi). }
  destruct (finite_choice (fun _ => 0) (fun i g => forall x, derivable_pt_lim (peval (p i)) x (g x)) ne) as (g & Hg).
  { intros i _. apply derive_poly. }
  exists p, g. split; [exact Hp|]. intros i x Hi. apply (Hg i Hi x).
Qed.

(** the operator exists; it takes the derivative of the corrected polynomial of the
    element at points inside the element, from the element and its neighbours only *)
Theorem C59_inside : forall sol o ne nodes edges outs zero P, column o ne nodes edges -> solved sol o -> correction 2 (o + 1) P ->
  outs <> [] -> (forall out, In out outs -> edge o edges 0 <= out <= edge o edges ne) ->
  exists A, flux_diff sol Levels o nodes edges outs zero = Built A /\ wf A /\ nrow A = length outs /\ ncol A = length nodes /\
    forall l a, (l < length outs)%nat -> inside o ne edges (nth l outs 0) a -> (forall i, (0 < i < ne)%nat -> clear_of (edge o edges i) (nth l outs 0)) ->
      row_local A l (pred a * o) ((a + 2) * o) /\
      forall u p, (forall i, (i < ne)%nat -> interpolates o nodes (i * o) u (p i)) ->
        derivable_pt_lim (corrected P (p a) (edge o edges a) (edge o edges (a + 1)) (low_step o ne edges zero p a) (high_step o ne edges zero p a))
          (nth l outs 0) (apply1 A u l).
Proof.
  intros sol o ne nodes edges outs zero P C Sv HP No In0.
  destruct (flux_diff_ok sol o ne nodes edges C Sv zero outs No In0) as (A & EA & WA & N1 & N2 & V). exists A.
  split; [exact EA|]. split; [exact WA|]. split; [exact N1|]. split; [exact N2|]. intros l a Hl (Ha & I1 & I2) Cl.
  destruct (V l Hl) as (b & on & Lo & Loc & Val).
  destruct (located_clear o ne nodes edges C _ b on Lo Cl) as (Z1 & Z2 & Z3).
  assert (Hb : (b < ne)%nat) by apply Lo.
  assert (On : on = false).
  { destruct on; [exfalso|reflexivity]. specialize (Z1 eq_refl). destruct Lo as (_ & Lo & _). destruct (Lo eq_refl) as (Lo1 & _).
    assert (M : forall i j, (i < j <= ne)%nat -> edge o edges i < edge o edges j).
    { intros i j Hij. unfold edge. apply spaced_lt; [apply C|]. pose proof C as (Ho & _ & _ & Le & _). rewrite Le. nia. }
    destruct (Nat.lt_trichotomy a (b + 1)) as [L|[L|L]].
    - destruct (Nat.eq_dec (a + 1) (b + 1)) as [L'|L'].
      + rewrite L' in I2. rewrite Z1 in I2. destruct I2 as [I2|(I2 & _)]; [lra|lia].
      + pose proof (M (a + 1)%nat (b + 1)%nat ltac:(lia)). rewrite Z1 in I2. destruct I2 as [I2|(I2 & _)]; [lra|lia].
    - subst a. rewrite Z1 in I1. destruct I1 as [I1|(I1 & _)]; [lra|lia].
    - pose proof (M (b + 1)%nat a ltac:(lia)). rewrite Z1 in I1. destruct I1 as [I1|(I1 & _)]; [lra|lia]. }
  subst on. assert (b = a).
  { apply (element_unique o ne nodes edges C (nth l outs 0)); try assumption.
    - destruct (Nat.eq_dec b 0) as [->|B]; [right; reflexivity|left; apply Z3, B].
    - destruct (Nat.eq_dec (S b) ne) as [B|B]; [right; exact B|left; apply Z2; [reflexivity|exact B]].
    - destruct I1 as [I1|(I1 & _)]; auto.
    - destruct I2 as [I2|(I2 & _)]; [auto|right; lia]. }
  subst b. split; [exact Loc|]. intros u p Hp.
  destruct (finite_choice (fun _ => 0) (fun i g => forall x, derivable_pt_lim (peval (p i)) x (g x)) ne (fun i _ => derive_poly (p i))) as (g & Hg).
  rewrite (Val Cl u p g Hp (fun i x Hi => Hg i Hi x)).
  pose proof (edge_lt o ne nodes edges C a Ha) as AB.
  apply derivable_ext with (f := corrected (cpoly sol o) (p a) (edge o edges a) (edge o edges (a + 1)) (low_step o ne edges zero p a) (high_step o ne edges zero p a)).
  { assert (Ho : (0 < o)%nat) by apply C. assert (X : forall x, peval (cpoly sol o) x = peval P x).
    { intros x. apply (correction_unique 2 (o + 1)); [lia| |exact HP]. apply cpoly_ok; assumption. }
    intros x. unfold corrected. rewrite !X. reflexivity. }
  pose proof (corrected_derive sol o (p a) (g a) (edge o edges a) (edge o edges (a + 1)) (low_step o ne edges zero p a) (high_step o ne edges zero p a) (nth l outs 0) AB (Hg a Ha)) as D.
  match goal with |- derivable_pt_lim _ _ ?v => match type of D with derivable_pt_lim _ _ ?w => replace v with w by ring end end. exact D.
Qed.
(** the corrected polynomials meet at the interior edges, halfway between the two
    sides; the outermost ones keep their end values, or get the opposite of the
    change at their other edge *)
Theorem C59_continuous : forall o ne nodes edges zero P p, column o ne nodes edges -> correction 2 (o + 1) P ->
  (forall a, (a + 1 < ne)%nat ->
    let e := edge o edges (a + 1) in
    corrected P (p a) (edge o edges a) e (low_step o ne edges zero p a) (high_step o ne edges zero p a) e = (peval (p a) e + peval (p (a + 1)%nat) e) / 2 /\
    corrected P (p (a + 1)%nat) e (edge o edges (a + 2)) (low_step o ne edges zero p (a + 1)) (high_step o ne edges zero p (a + 1)) e = (peval (p a) e + peval (p (a + 1)%nat) e) / 2) /\
  (zero = true \/ ne = 1%nat ->
    corrected P (p 0%nat) (edge o edges 0) (edge o edges 1) (low_step o ne edges zero p 0) (high_step o ne edges zero p 0) (edge o edges 0) = peval (p 0%nat) (edge o edges 0) /\
    corrected P (p (ne - 1)%nat) (edge o edges (ne - 1)) (edge o edges ne) (low_step o ne edges zero p (ne - 1)) (high_step o ne edges zero p (ne - 1)) (edge o edges ne) = peval (p (ne - 1)%nat) (edge o edges ne)) /\
  (zero = false -> (1 < ne)%nat ->
    low_step o ne edges zero p 0 = - high_step o ne edges zero p 0 /\ high_step o ne edges zero p (ne - 1) = - low_step o ne edges zero p (ne - 1)).
Proof.
  intros o ne nodes edges zero P p C HP.
  assert (P1 : peval P 1 = 1) by apply HP.
  assert (P0 : peval P (-1) = 0). { destruct HP as (_ & _ & (Q & _ & H) & _). rewrite H. cbn. ring. }
  assert (Low : forall q a b jl jr, a < b -> corrected P q a b jl jr a = peval q a + jl).
  { intros q a b jl jr AB. unfold corrected. replace (local a b a) with (-1) by (unfold local; field; lra). replace (- -1) with 1 by ring. rewrite P0, P1. ring. }
  assert (High : forall q a b jl jr, a < b -> corrected P q a b jl jr b = peval q b + jr).
  { intros q a b jl jr AB. unfold corrected. replace (local a b b) with 1 by (unfold local; field; lra). replace (- (1)) with (-1) by ring. rewrite P0, P1. ring. }
  pose proof (edge_lt o ne nodes edges C) as Ed. pose proof C as (_ & Hne & _).
  split; [|split].
  - intros a Ha e. pose proof (Ed a ltac:(lia)) as E1. pose proof (Ed (a + 1)%nat Ha) as E2. replace (a + 1 + 1)%nat with (a + 2)%nat in E2 by lia. fold e in E1, E2.
    rewrite High, Low by assumption. unfold low_step, high_step, step. fold e. replace (a + 1 - 1)%nat with a by lia.
    destruct (Nat.eqb_spec a (ne - 1)); [lia|]. destruct (Nat.eqb_spec (a + 1) 0); [lia|]. fold e. split; field.
  - intros Z. replace (edge o edges ne) with (edge o edges (ne - 1 + 1)) by (f_equal; lia).
    change (edge o edges 1) with (edge o edges (0 + 1)).
    rewrite Low, High by (apply Ed; lia). unfold low_step, high_step. rewrite !Nat.eqb_refl.
    destruct Z as [->|Z]; [cbn [negb andb]|rewrite (proj2 (Nat.eqb_eq ne 1) Z); rewrite andb_false_r]; split; ring.
  - intros -> Z. unfold low_step, high_step. rewrite !Nat.eqb_refl. destruct (Nat.eqb_spec ne 1), (Nat.eqb_spec 0 (ne - 1)), (Nat.eqb_spec (ne - 1) 0); try lia. cbn [negb andb Nat.add].
    split; ring.
Qed.
(** on an interior edge: the mean of the two one-sided derivatives of the corrected
    polynomials when the elements have the same length; otherwise off by the step
    times the difference of the reciprocal lengths *)
Theorem C59_edge : forall sol o ne nodes edges outs zero P A l a u p s, column o ne nodes edges -> solved sol o -> correction 2 (o + 1) P ->
  (forall out, In out outs -> edge o edges 0 <= out <= edge o edges ne) -> flux_diff sol Levels o nodes edges outs zero = Built A ->
  (l < length outs)%nat -> (a + 1 < ne)%nat -> nth l outs 0 = edge o edges (a + 1) ->
  (forall i, (0 < i < ne)%nat -> i <> (a + 1)%nat -> clear_of (edge o edges i) (nth l outs 0)) ->
  (forall i, (i < ne)%nat -> interpolates o nodes (i * o) u (p i)) ->
  derivable_pt_lim (fun z => peval P (2 * z - 1)) 1 s ->
  exists dl dr,
    derivable_pt_lim (corrected P (p a) (edge o edges a) (edge o edges (a + 1)) (low_step o ne edges zero p a) (high_step o ne edges zero p a)) (edge o edges (a + 1)) dl /\
    derivable_pt_lim (corrected P (p (a + 1)%nat) (edge o edges (a + 1)) (edge o edges (a + 2)) (low_step o ne edges zero p (a + 1)) (high_step o ne edges zero p (a + 1))) (edge o edges (a + 1)) dr /\
    apply1 A u l = (dl + dr) / 2 + s / 4 * step o edges p (a + 1) * (/ width o edges a - / width o edges (a + 1)).
Proof.
  intros sol o ne nodes edges outs zero P A l a u p s C Sv HP In0 EA Hl Ha El Cl0 Hp Ds.
  assert (Cl : forall i, (0 < i < ne)%nat -> clear_of (edge o edges i) (nth l outs 0)).
  { intros i Hi. destruct (Nat.eq_dec i (a + 1)) as [->|Q]; [left; exact El|apply Cl0; assumption]. }
  assert (No : outs <> []) by (destruct outs; [cbn in Hl; lia|discriminate]).
  destruct (flux_diff_ok sol o ne nodes edges C Sv zero outs No In0) as (A' & EA' & WA & N1 & N2 & V). rewrite EA in EA'. injection EA' as <-.
  destruct (V l Hl) as (b & on & Lo & Loc & Val). pose proof (located_clear o ne nodes edges C _ b on Lo Cl) as (Z1 & Z2 & Z3). assert (Hb : (b < ne)%nat) by apply Lo.
  assert (M : forall i j, (i < j <= ne)%nat -> edge o edges i < edge o edges j).
  { intros i j Hij. unfold edge. apply spaced_lt; [apply C|]. pose proof C as (Ho & _ & _ & Le & _). rewrite Le. nia. }
  assert (K : b = a /\ on = true).
  { destruct on.
    - specialize (Z1 eq_refl). destruct Lo as (_ & Lo & _). destruct (Lo eq_refl) as (Lo1 & _). split; [|reflexivity]. rewrite El in Z1.
      destruct (Nat.lt_trichotomy a b) as [L|[L|L]]; [|lia|].
      + pose proof (M (a + 1)%nat (b + 1)%nat ltac:(lia)). lra.
      + pose proof (M (b + 1)%nat (a + 1)%nat ltac:(lia)). lra.
    - exfalso. rewrite El in *. destruct (Nat.lt_trichotomy (a + 1) b) as [L|[L|L]].
      + pose proof (M (a + 1)%nat b ltac:(lia)). specialize (Z3 ltac:(lia)). lra.
      + subst b. specialize (Z3 ltac:(lia)). lra.
      + destruct (Nat.eq_dec (S b) ne) as [Q|Q]; [lia|]. specialize (Z2 eq_refl Q). destruct (Nat.eq_dec (b + 1) (a + 1)) as [Q'|Q']; [rewrite Q' in Z2; lra|]. pose proof (M (b + 1)%nat (a + 1)%nat ltac:(lia)). lra. }
  destruct K as (-> & ->).
  destruct (finite_choice (fun _ => 0) (fun i g => forall x, derivable_pt_lim (peval (p i)) x (g x)) ne (fun i _ => derive_poly (p i))) as (g & Hg).
  pose proof (edge_lt o ne nodes edges C a ltac:(lia)) as AB. pose proof (edge_lt o ne nodes edges C (a + 1) ltac:(lia)) as AB'. replace (a + 1 + 1)%nat with (a + 2)%nat in AB' by lia.
  assert (Ho : (0 < o)%nat) by apply C.
  assert (X : forall x, peval (cpoly sol o) x = peval P x). { intros x. apply (correction_unique 2 (o + 1)); [lia| |exact HP]. apply cpoly_ok; assumption. }
  assert (Es : cslope sol o 1 = s).
  { apply (uniqueness_limite (fun z => peval P (2 * z - 1)) 1); [|exact Ds]. apply derivable_ext with (f := fun z => peval (cpoly sol o) (2 * z - 1)); [intros; apply X|]. apply deriv_at_ok. }
  assert (D : forall b jl jr y, (b < ne)%nat -> edge o edges b < edge o edges (b + 1) -> derivable_pt_lim (corrected P (p b) (edge o edges b) (edge o edges (b + 1)) jl jr) y
     (g b y + jr * (cslope sol o ((y - edge o edges b) / (edge o edges (b + 1) - edge o edges b)) / (edge o edges (b + 1) - edge o edges b))
        + jl * (- cslope sol o (1 - (y - edge o edges b) / (edge o edges (b + 1) - edge o edges b)) / (edge o edges (b + 1) - edge o edges b)))).
  { intros b jl jr y Hb' Eb. apply derivable_ext with (f := corrected (cpoly sol o) (p b) (edge o edges b) (edge o edges (b + 1)) jl jr); [intros x; unfold corrected; rewrite !X; reflexivity|].
    apply corrected_derive; [exact Eb|apply Hg, Hb']. }
  do 2 eexists. split; [apply D; [lia|exact AB]|]. split.
  { replace (a + 2)%nat with (a + 1 + 1)%nat by lia. apply D; [lia|]. replace (a + 1 + 1)%nat with (a + 2)%nat by lia. exact AB'. }
  rewrite (Val Cl u p g Hp (fun i x Hi => Hg i Hi x)). rewrite El. unfold width. replace (a + 1 + 1)%nat with (a + 2)%nat by lia.
  replace ((edge o edges (a + 1) - edge o edges a) / (edge o edges (a + 1) - edge o edges a)) with 1 by (field; lra).
  replace ((edge o edges (a + 1) - edge o edges (a + 1)) / (edge o edges (a + 2) - edge o edges (a + 1))) with 0 by (field; lra).
  replace (1 - 1) with 0 by ring. rewrite Rminus_0_r. rewrite (cslope_0 sol o Ho Sv), Es.
  replace (high_step o ne edges zero p a) with (1 / 2 * step o edges p (a + 1)) by (unfold high_step; destruct (Nat.eqb_spec a (ne - 1)); [lia|reflexivity]).
  replace (low_step o ne edges zero p (a + 1)) with (- (1 / 2 * step o edges p (a + 1))) by (unfold low_step; destruct (Nat.eqb_spec (a + 1) 0); [lia|reflexivity]).
  field. lra.
Qed.
(** an output outside the column throws *)
Theorem C59_range : forall sol o ne nodes edges outs zero r, column o ne nodes edges -> (r < length outs)%nat ->
  nth r outs 0 < edge o edges 0 \/ edge o edges ne < nth r outs 0 -> solved sol o -> flux_diff sol Levels o nodes edges outs zero = Threw.
Proof. intros sol o ne nodes edges outs zero r C Hr Out Sv. apply (flux_diff_throws sol o ne nodes edges C Sv zero outs r Hr Out). Qed.
(** exact for polynomials with as many coefficients as levels per element, so at
    least first order *)
Theorem C51_flux : forall sol o ne nodes edges outs zero, column o ne nodes edges -> solved sol o ->
  outs <> [] -> (forall out, In out outs -> edge o edges 0 <= out <= edge o edges ne) ->
  exists A, flux_diff sol Levels o nodes edges outs zero = Built A /\ wf A /\ nrow A = length outs /\ ncol A = length nodes /\
    forall r, (r < length outs)%nat -> (forall i, (0 < i < ne)%nat -> clear_of (edge o edges i) (nth r outs 0)) -> row_exact 1 o A nodes r (nth r outs 0).
Proof.
  intros sol o ne nodes edges outs zero C Sv No In0.
  destruct (flux_diff_ok sol o ne nodes edges C Sv zero outs No In0) as (A & EA & WA & N1 & N2 & V). exists A.
  split; [exact EA|]. split; [exact WA|]. split; [exact N1|]. split; [exact N2|]. intros r Hr Cl q g Lq (g' & Hg & Eg).
  destruct (V r Hr) as (a & on & _ & _ & Val).
  rewrite (Val Cl (fun i => peval q (nth i nodes 0)) (fun _ => q) (fun _ => g)).
  - assert (Z : forall i, step o edges (fun _ => q) i = 0) by (intros; unfold step; ring).
    unfold low_step, high_step. rewrite !Z. destruct on, (Nat.eqb_spec a 0), (Nat.eqb_spec a (ne - 1)), (negb zero && negb (ne =? 1)%nat)%bool; unfold Rdiv; lra.
  - intros i Hi. split; [exact Lq|]. intros j _. reflexivity.
  - intros i x _. rewrite (Eg x). apply Hg.
Qed.
(** *** a column of two elements of different length *)
Lemma spaced_case l : (forall i, (S i < length l)%nat -> nth i l 0 + 1 <= nth (S i) l 0) -> spaced l.
Proof.
  intros H i j. induction j as [|j IH]; intros Hij; [lia|].
  assert (Q : / 10 ^ 11 <= 1) by (apply Rle_trans with (/ 1); [apply Rinv_le_contravar; [lra|apply pow_R1_Rle; lra]|rewrite Rinv_1; lra]).
  assert (Q0 : 0 < / 10 ^ 11) by (apply Rinv_0_lt_compat, pow_lt; lra).
  pose proof (H j ltac:(lia)). destruct (Nat.eq_dec i j) as [->|]; [lra|]. pose proof (IH ltac:(lia)). lra.
Qed.
Lemma uneven : column 1 2 [1/2; 2] [0; 1; 3].
Proof.
  split; [lia|]. split; [lia|]. split; [reflexivity|]. split; [reflexivity|].
  split; apply spaced_case; intros [|[|i]] H; cbn in H |- *; try lia; lra.
Qed.
Lemma square_correction : correction 2 2 [1/4; 1/2; 1/4].
Proof.
  split; [cbn; lia|]. split; [cbn; field|]. split.
  - exists [1/4]. split; [cbn; lia|]. intros x. cbn. field.
  - intros n F Hn. lia.
Qed.
Lemma square_slope : derivable_pt_lim (fun z => peval [1/4; 1/2; 1/4] (2 * z - 1)) 1 2.
Proof.
  apply derivable_ext with (f := fun z => z * z); [intros z; cbn; field|]. replace 2 with (1 * 1 + 1 * 1) by ring.
  apply (derivable_pt_lim_mult (fun x => x) (fun x => x)); apply derivable_pt_lim_id.
Qed.
Lemma steps_case (nodes : list R) u i : (i < 2)%nat -> interpolates 1 nodes (i * 1) u [u i].
Proof. intros Hi. split; [cbn; lia|]. intros j Hj. assert (j = 0%nat) by lia. subst j. replace (i * 1 + 0)%nat with i by lia. cbn. ring. Qed.
(** the value on the edge is then not the mean of the two sides *)
Theorem C59_uneven_refuted : forall sol, solved sol 1 -> exists ne nodes edges u p A dl dr, column 1 ne nodes edges /\
  (forall i, (i < ne)%nat -> interpolates 1 nodes (i * 1) u (p i)) /\ flux_diff sol Levels 1 nodes edges [edge 1 edges 1] true = Built A /\
  derivable_pt_lim (corrected [1/4; 1/2; 1/4] (p 0%nat) (edge 1 edges 0) (edge 1 edges 1) (low_step 1 ne edges true p 0) (high_step 1 ne edges true p 0)) (edge 1 edges 1) dl /\
  derivable_pt_lim (corrected [1/4; 1/2; 1/4] (p 1%nat) (edge 1 edges 1) (edge 1 edges 2) (low_step 1 ne edges true p 1) (high_step 1 ne edges true p 1)) (edge 1 edges 1) dr /\
  apply1 A u 0 = (dl + dr) / 2 + 1 / 4.
Proof.
  intros sol Sv. set (u := INR). set (p := fun i => [u i]).
  assert (In0 : forall out, In out [edge 1 [0; 1; 3] 1] -> edge 1 [0; 1; 3] 0 <= out <= edge 1 [0; 1; 3] 2) by (intros out [<-|[]]; unfold edge; cbn; lra).
  destruct (C59_inside sol 1 2 [1/2; 2] [0; 1; 3] [edge 1 [0; 1; 3] 1] true _ uneven Sv square_correction ltac:(discriminate) In0) as (A & EA & _).
  destruct (C59_edge sol 1 2 [1/2; 2] [0; 1; 3] [edge 1 [0; 1; 3] 1] true _ A 0 0 u p 2 uneven Sv square_correction In0 EA) as (dl & dr & Dl & Dr & V).
  - cbn; lia.
  - lia.
  - reflexivity.
  - intros i H1 H2. lia.
  - intros i Hi. apply steps_case, Hi.
  - apply square_slope.
  - exists 2%nat, [1/2; 2], [0; 1; 3], u, p, A, dl, dr. split; [exact uneven|]. split; [intros i Hi; apply steps_case, Hi|].
    split; [exact EA|]. split; [exact Dl|]. split; [exact Dr|]. rewrite V. unfold step, width, edge, p, u. cbn. field.
Qed.
Example C59_case : column 1 2 [1/2; 2] [0; 1; 3] /\ correction 2 2 [1/4; 1/2; 1/4] /\ (exists sol, solved sol 1) /\ inside 1 2 [0; 1; 3] 2 1 /\ clear_of (edge 1 [0; 1; 3] 1) 2.
Proof.
  split; [exact uneven|]. split; [exact square_correction|]. split.
  - destruct (van_solvable 2 2 rhs ltac:(lia)) as (x & Hx). exists (fun _ _ => x). exact Hx.
  - split; [split; [lia|]; unfold edge; cbn; split; left; lra|]. right. right. unfold edge. cbn [Nat.mul Nat.add nth].
    assert (/ 10 ^ 12 <= / 10) by (apply Rinv_le_contravar; [lra|]; rewrite <- (pow_1 10) at 1; apply Rle_pow; [lra|lia]). lra.
Qed.

(** ** The quadrature tables as rules *)
Definition gauss_rule (n : nat) (a b : R) : option (list R * list R) := get_points (gauss_table (Z.of_nat n)) a b.
Definition lobatto_rule (n : nat) (a b : R) : option (list R * list R) := get_points (lobatto_table (Z.of_nat n)) a b.
Lemma dec_pos z : (0 < z)%Z -> 0 < dec z.
Proof. intros H. unfold dec. apply Rdiv_lt_0_compat; apply IZR_lt; [exact H|reflexivity]. Qed.
Lemma table_rule (rule : nat -> R -> R -> option (list R * list R)) n g w : (forall a b, rule n a b = get_points (Table g w) a b) ->
  length g = n -> length w = n -> forallb (Z.ltb 0) w = true ->
  gives rule n /\ scaled rule n /\ (forall i, (i < n)%nat -> rule_weight rule n 0 1 i = 1 / 2 * dec (nth i w 0%Z)).
Proof.
  intros R1 Lg Lw P.
  assert (V : forall a b i, (i < n)%nat -> rule_weight rule n a b i = scale_weight a b (dec (nth i w 0%Z))).
  { intros a b i Hi. unfold rule_weight. rewrite R1. cbn [get_points].
    rewrite (nth_indep _ 0 (scale_weight a b (dec 0))) by (rewrite map_length; lia). apply (map_nth (fun z => scale_weight a b (dec z))). }
  split; [|split].
  - intros a b _. do 2 eexists. rewrite R1. cbn [get_points]. split; [reflexivity|]. rewrite !map_length. split; assumption.
  - intros i Hi. rewrite forallb_forall in P. assert (Q : (0 < nth i w 0)%Z) by (apply Z.ltb_lt, P, nth_In; lia).
    apply dec_pos in Q. split; [rewrite V by exact Hi; unfold scale_weight; lra|]. intros a b _. rewrite !V by exact Hi. unfold scale_weight. ring.
  - intros i Hi. rewrite V by exact Hi. unfold scale_weight. ring.
Qed.
(** they give as many points and positive weights as asked for, and the first and
    last weights of the Gauss-Lobatto rules agree *)
Theorem C60_tables : forall n, (n <= 10)%nat ->
  ((1 <= n)%nat -> gives gauss_rule n /\ scaled gauss_rule n) /\
  ((2 <= n)%nat -> gives lobatto_rule n /\ scaled lobatto_rule n /\ rule_weight lobatto_rule n 0 1 0 = rule_weight lobatto_rule n 0 1 (n - 1)).
Proof.
  intros n Hn.
  assert (K : forall m, (m < 11)%nat -> n = m -> ((1 <= n)%nat -> gives gauss_rule n /\ scaled gauss_rule n) /\
    ((2 <= n)%nat -> gives lobatto_rule n /\ scaled lobatto_rule n /\ rule_weight lobatto_rule n 0 1 0 = rule_weight lobatto_rule n 0 1 (n - 1))).
  { intros m Hm ->. clear Hn.
    destruct m as [|[|[|[|[|[|[|[|[|[|[|m]]]]]]]]]]]; [..|lia].
    all: split; intros H; try lia.
    all: try (match goal with |- gives gauss_rule ?n /\ _ => edestruct (table_rule gauss_rule n) as (X1 & X2 & _) end; [intros; reflexivity|reflexivity|reflexivity|reflexivity|]; split; [exact X1|exact X2]).
    all: match goal with |- gives lobatto_rule ?n /\ _ => edestruct (table_rule lobatto_rule n) as (X1 & X2 & X3) end; [intros; reflexivity|reflexivity|reflexivity|reflexivity|]; split; [exact X1|]; split; [exact X2|].
    all: rewrite !X3 by (cbn; lia); reflexivity. }
  apply (K n); [lia|reflexivity].
Qed.

(** ** C60: the weak derivative from levels to interfaces *)
(** the operator is minus the adjoint of the derivative: weighting with the
    Gauss-Lobatto weights and summing against v is minus the Gauss sum of u
    against the derivative of v *)
Theorem C60_weak : forall gauss lobatto o ne nodes edges, (0 < o)%nat -> (0 < ne)%nat -> length nodes = (ne * o)%nat -> length edges = (ne * o + 1)%nat -> spaced edges ->
  gives gauss o -> gives lobatto (o + 1) -> scaled lobatto (o + 1) ->
  exists A, variational gauss lobatto o nodes edges = Built A /\ wf A /\ nrow A = length edges /\ ncol A = length nodes /\
  forall u v q g, elementwise o ne edges v q g ->
    over_interfaces o ne (fun a j => interface_weight lobatto o edges a j * v (a * o + j)%nat * apply1 A u (a * o + j)%nat) =
    - over_levels o ne (fun a i => level_weight gauss o edges a i * u (a * o + i)%nat * g a (level_point gauss o edges a i)).
Proof.
  intros gauss lobatto o ne nodes edges Ho Hne Ln Le Se GG GL SL.
  destruct (variational_ok gauss lobatto o ne edges Ho Hne Le Se GL SL GG nodes Ln) as (A & EA & WA & N1 & N2 & V). exists A.
  split; [exact EA|]. split; [exact WA|]. split; [exact N1|]. split; [exact N2|].
  intros u v q g H. apply (V u v q g); [intros a Ha; apply H, Ha|intros a x Ha; apply H, Ha].
Qed.
Lemma sum_opp f n : sum (fun k => - f k) n = - sum f n.
Proof. rewrite (sum_ext _ (fun k => -1 * f k)) by (intros; ring). rewrite sum_scale. ring. Qed.
(** hence its integral over the column vanishes, and on the column of ones it only
    sees the ends: the fluxes through the ends are taken to be zero *)
Theorem C60_conserves : forall gauss lobatto o ne nodes edges A u, (0 < o)%nat -> (0 < ne)%nat -> length nodes = (ne * o)%nat -> length edges = (ne * o + 1)%nat -> spaced edges ->
  gives gauss o -> gives lobatto (o + 1) -> scaled lobatto (o + 1) -> variational gauss lobatto o nodes edges = Built A ->
  over_interfaces o ne (fun a j => interface_weight lobatto o edges a j * apply1 A u (a * o + j)%nat) = 0.
Proof.
  intros gauss lobatto o ne nodes edges A u Ho Hne Ln Le Se GG GL SL EA.
  destruct (C60_weak gauss lobatto o ne nodes edges Ho Hne Ln Le Se GG GL SL) as (A' & EA' & _ & _ & _ & V). rewrite EA in EA'. injection EA' as <-.
  transitivity (over_interfaces o ne (fun a j => interface_weight lobatto o edges a j * (fun _ : nat => 1) (a * o + j)%nat * apply1 A u (a * o + j)%nat)).
  { unfold over_interfaces. apply sum_ext. intros a _. apply sum_ext. intros j _. ring. }
  rewrite (V u (fun _ => 1) (fun _ => [1]) (fun _ _ => 0)).
  - unfold over_levels. rewrite sum_zero; [ring|]. intros a _. apply sum_zero. intros i _. ring.
  - intros a Ha. split; [split; [cbn; lia|intros; cbn; ring]|]. intros x. apply derivable_ext with (f := fun _ => 1); [intros; cbn; ring|apply derivable_pt_lim_const].
Qed.
Theorem C60_constant : forall gauss lobatto o ne nodes edges A v q g, (0 < o)%nat -> (0 < ne)%nat -> length nodes = (ne * o)%nat -> length edges = (ne * o + 1)%nat -> spaced edges ->
  gives gauss o -> gives lobatto (o + 1) -> scaled lobatto (o + 1) -> variational gauss lobatto o nodes edges = Built A -> elementwise o ne edges v q g ->
  (forall a, (a < ne)%nat -> sum (fun i => level_weight gauss o edges a i * g a (level_point gauss o edges a i)) o = peval (q a) (edge o edges (a + 1)) - peval (q a) (edge o edges a)) ->
  over_interfaces o ne (fun a j => interface_weight lobatto o edges a j * v (a * o + j)%nat * apply1 A (fun _ => 1) (a * o + j)%nat) = v 0%nat - v (ne * o)%nat.
Proof.
  intros gauss lobatto o ne nodes edges A v q g Ho Hne Ln Le Se GG GL SL EA Hv Ex.
  destruct (C60_weak gauss lobatto o ne nodes edges Ho Hne Ln Le Se GG GL SL) as (A' & EA' & _ & _ & _ & V). rewrite EA in EA'. injection EA' as <-.
  rewrite (V (fun _ => 1) v q g Hv). unfold over_levels.
  rewrite (sum_ext _ (fun a => v ((a + 1) * o)%nat - v (a * o)%nat)).
  2:{ intros a Ha. rewrite (sum_ext _ (fun i => level_weight gauss o edges a i * g a (level_point gauss o edges a i))) by (intros; ring). rewrite (Ex a Ha).
      destruct (Hv a Ha) as ((_ & Hq) & _). unfold edge. pose proof (Hq 0%nat ltac:(lia)) as Q0. rewrite Nat.add_0_r in Q0. rewrite Q0.
      pose proof (Hq o ltac:(lia)) as Q1. replace (a * o + o)%nat with ((a + 1) * o)%nat in Q1 by nia. rewrite Q1. reflexivity. }
  assert (T : forall m, sum (fun a => v ((a + 1) * o)%nat - v (a * o)%nat) m = v (m * o)%nat - v 0%nat).
  { induction m as [|m IH]; [rewrite sum_0; cbn; ring|]. rewrite sum_S, IH, Nat.add_1_r. ring. }
  rewrite T. ring.
Qed.
(** with the tables of the code these hypotheses hold for up to nine levels per element *)
Example C60_case : forall o, (1 <= o <= 9)%nat -> gives gauss_rule o /\ gives lobatto_rule (o + 1) /\ scaled lobatto_rule (o + 1).
Proof. intros o H. destruct (C60_tables o ltac:(lia)) as (G & _). destruct (C60_tables (o + 1) ltac:(lia)) as (_ & L). split; [apply G; lia|]. destruct (L ltac:(lia)) as (L1 & L2 & _). split; assumption. Qed.

(** ** C61: the second derivative *)
(** on interfaces (at_points = false) and on Gauss-Lobatto nodes: the operator is
    the stiffness matrix divided by the doubled weights *)
Definition diffusion_op (lobatto : nat -> R -> R -> option (list R * list R)) (at_points : bool) (o : nat) (nodes edges : list R) : outcome :=
  if at_points then diffusion_gll lobatto (o + 1) edges else diffusion_edges lobatto o nodes edges.
Theorem C61_interfaces : forall lobatto at_points o ne nodes edges, (0 < o)%nat -> (0 < ne)%nat -> length nodes = (ne * o)%nat -> length edges = (ne * o + 1)%nat -> spaced edges ->
  gives lobatto (o + 1) -> scaled lobatto (o + 1) ->
  exists A, diffusion_op lobatto at_points o nodes edges = Built A /\ wf A /\ nrow A = length edges /\ ncol A = length edges /\
  forall c u q g r f, elementwise o ne edges u q g ->
    (forall a, (a < ne)%nat -> interpolates (o + 1) edges (a * o) (fun p => c p / doubled_weight lobatto o ne edges a (p - a * o)) (r a) /\ forall x, derivable_pt_lim (peval (r a)) x (f a x)) ->
    sum (fun p => c p * apply1 A u p) (length edges) =
    - over_interfaces o ne (fun a k => interface_weight lobatto o edges a k * g a (stiffness_point lobatto at_points o edges a k) * f a (stiffness_point lobatto at_points o edges a k)).
Proof.
  intros lobatto at_points o ne nodes edges Ho Hne Ln Le Se GL SL.
  assert (K : exists A, diffusion_op lobatto at_points o nodes edges = Built A /\ diffuses lobatto o ne edges at_points A).
  { unfold diffusion_op. destruct at_points; [apply diffusion_gll_ok|apply diffusion_edges_ok]; assumption. }
  destruct K as (A & EA & WA & N1 & N2 & V). exists A. split; [exact EA|]. split; [exact WA|]. split; [exact N1|]. split; [exact N2|].
  intros c u q g r f Hu Hr. apply (V c u q g r f); [intros a Ha; apply Hu, Ha|intros a x Ha; apply Hu, Ha|intros a Ha; apply Hr, Ha|intros a x Ha; apply Hr, Ha].
Qed.
(** when all elements have the same length it is the weak second derivative *)
Theorem C61_equal : forall lobatto at_points o ne nodes edges h, (0 < o)%nat -> (0 < ne)%nat -> length nodes = (ne * o)%nat -> length edges = (ne * o + 1)%nat -> spaced edges ->
  gives lobatto (o + 1) -> scaled lobatto (o + 1) -> rule_weight lobatto (o + 1) 0 1 0 = rule_weight lobatto (o + 1) 0 1 o ->
  (forall a, (a < ne)%nat -> width o edges a = h) ->
  exists A, diffusion_op lobatto at_points o nodes edges = Built A /\
  forall u v q g r f, elementwise o ne edges u q g -> elementwise o ne edges v r f ->
    over_interfaces o ne (fun a j => interface_weight lobatto o edges a j * v (a * o + j)%nat * apply1 A u (a * o + j)%nat) =
    - over_interfaces o ne (fun a k => interface_weight lobatto o edges a k * g a (stiffness_point lobatto at_points o edges a k) * f a (stiffness_point lobatto at_points o edges a k)).
Proof.
  intros lobatto at_points o ne nodes edges h Ho Hne Ln Le Se GL SL Sy Eq.
  assert (K : exists A, diffusion_op lobatto at_points o nodes edges = Built A /\ diffuses lobatto o ne edges at_points A).
  { unfold diffusion_op. destruct at_points; [apply diffusion_gll_ok|apply diffusion_edges_ok]; assumption. }
  destruct K as (A & EA & D). exists A. split; [exact EA|]. intros u v q g r f Hu Hv.
  apply (diffuses_equal lobatto o ne edges Ho Hne Le Se SL at_points A h D Sy Eq u v q g r f);
    [intros a Ha; apply Hu, Ha|intros a x Ha; apply Hu, Ha|intros a Ha; apply Hv, Ha|intros a x Ha; apply Hv, Ha].
Qed.
(** hence it conserves, is symmetric and dissipates *)
Theorem C61_dissipates : forall lobatto at_points o ne nodes edges h A u v, (0 < o)%nat -> (0 < ne)%nat -> length nodes = (ne * o)%nat -> length edges = (ne * o + 1)%nat -> spaced edges ->
  gives lobatto (o + 1) -> scaled lobatto (o + 1) -> rule_weight lobatto (o + 1) 0 1 0 = rule_weight lobatto (o + 1) 0 1 o ->
  (forall a, (a < ne)%nat -> width o edges a = h) -> diffusion_op lobatto at_points o nodes edges = Built A ->
  over_interfaces o ne (fun a j => interface_weight lobatto o edges a j * apply1 A u (a * o + j)%nat) = 0 /\
  over_interfaces o ne (fun a j => interface_weight lobatto o edges a j * v (a * o + j)%nat * apply1 A u (a * o + j)%nat) =
    over_interfaces o ne (fun a j => interface_weight lobatto o edges a j * u (a * o + j)%nat * apply1 A v (a * o + j)%nat) /\
  over_interfaces o ne (fun a j => interface_weight lobatto o edges a j * u (a * o + j)%nat * apply1 A u (a * o + j)%nat) <= 0.
Proof.
  intros lobatto at_points o ne nodes edges h A u v Ho Hne Ln Le Se GL SL Sy Eq EA.
  destruct (C61_equal lobatto at_points o ne nodes edges h Ho Hne Ln Le Se GL SL Sy Eq) as (A' & EA' & V). rewrite EA in EA'. injection EA' as <-.
  assert (X : forall w, exists q g, elementwise o ne edges w q g).
  { intros w. destruct (finite_choice [] (fun a q => interpolates (o + 1) edges (a * o) w q) ne) as (q & Hq).
    { intros a Ha. destruct (interpolant_poly (o + 1) (fun j => nth (a * o + j) edges 0) (fun j => w (a * o + j)%nat)) as (q & Lq & Hq).
      exists q. split; [exact Lq|]. intros j Hj. rewrite <- Hq. apply (interpolant_at_node (o + 1) (fun j => nth (a * o + j) edges 0) (fun j => w (a * o + j)%nat) j); [|exact Hj].
      apply run_distinct; [exact Se|]. rewrite Le. nia. }
    destruct (finite_choice (fun _ => 0) (fun i g => forall x, derivable_pt_lim (peval (q i)) x (g x)) ne (fun i _ => derive_poly (q i))) as (g & Hg).
    exists q, g. intros a Ha. split; [apply Hq, Ha|apply Hg, Ha]. }
  assert (O : elementwise o ne edges (fun _ => 1) (fun _ => [1]) (fun _ _ => 0)).
  { intros a Ha. split; [split; [cbn; lia|intros; cbn; ring]|]. intros x. apply derivable_ext with (f := fun _ => 1); [intros; cbn; ring|apply derivable_pt_lim_const]. }
  destruct (X u) as (q & g & Hu). destruct (X v) as (r & f & Hv). split; [|split].
  - transitivity (over_interfaces o ne (fun a j => interface_weight lobatto o edges a j * (fun _ : nat => 1) (a * o + j)%nat * apply1 A u (a * o + j)%nat)).
    { unfold over_interfaces. apply sum_ext. intros a _. apply sum_ext. intros j _. ring. }
    rewrite (V _ _ _ _ _ _ Hu O). unfold over_interfaces. rewrite sum_zero; [ring|]. intros a _. apply sum_zero. intros j _. ring.
  - rewrite (V _ _ _ _ _ _ Hu Hv), (V _ _ _ _ _ _ Hv Hu). f_equal. unfold over_interfaces. apply sum_ext. intros a _. apply sum_ext. intros j _. ring.
  - rewrite (V _ _ _ _ _ _ Hu Hu). apply Ropp_le_cancel. rewrite Ropp_involutive, Ropp_0. unfold over_interfaces. apply sum_pos. intros a Ha. apply sum_pos. intros j Hj.
    rewrite Rmult_assoc. apply Rmult_le_pos; [|apply Rle_0_sqr]. apply Rlt_le. apply (WL_pos lobatto o ne edges Ho Hne Le Se SL a j Ha). lia.
Qed.
Lemma affine_derive a b x : derivable_pt_lim (fun x => a + b * x) x b.
Proof.
  pose proof (derivable_pt_lim_plus (fun _ => a) (fun x => b * x) x 0 (b * 1) (derivable_pt_lim_const a x) (derivable_pt_lim_scal (fun x => x) b x 1 (derivable_pt_lim_id x))) as H.
  replace (0 + b * 1) with b in H by ring. exact H.
Qed.
(** with elements of different length it does not conserve: two elements, 0 to 1
    and 1 to 3, with the values 0, 1, 1 *)
Theorem C61_uneven_refuted : forall at_points, exists A, diffusion_op lobatto_rule at_points 1 [1/2; 2] [0; 1; 3] = Built A /\
  over_interfaces 1 2 (fun a j => interface_weight lobatto_rule 1 [0; 1; 3] a j * apply1 A (fun i => if (i =? 0)%nat then 0 else 1) (a * 1 + j)%nat) = - (1 / 2).
Proof.
  intros at_points. destruct (C60_tables 2 ltac:(lia)) as (_ & L). destruct (L ltac:(lia)) as (GL & SL & _). pose proof uneven as (_ & _ & Ln & Le & _ & Se).
  destruct (C61_interfaces lobatto_rule at_points 1 2 [1/2; 2] [0; 1; 3] ltac:(lia) ltac:(lia) Ln Le Se GL SL) as (A & EA & WA & N1 & N2 & V).
  exists A. split; [exact EA|]. set (u := fun i : nat => if (i =? 0)%nat then 0 else 1).
  assert (W : forall a j, (a < 2)%nat -> (j < 2)%nat -> interface_weight lobatto_rule 1 [0; 1; 3] a j = 1 / 2 * width 1 [0; 1; 3] a).
  { intros a j Ha Hj. unfold interface_weight, rule_weight, lobatto_rule, width. cbn [Nat.add Z.of_nat Pos.of_succ_nat Pos.succ].
    change (lobatto_table 2) with (Table [-10000000000000000; 10000000000000000]%Z [10000000000000000; 10000000000000000]%Z). cbn [get_points map].
    assert (D : dec 10000000000000000 = 1) by (unfold dec; change (10 ^ 16)%Z with 10000000000000000%Z; field).
    rewrite D. unfold scale_weight. destruct j as [|[|j]]; [| |lia]; cbn [nth]; ring. }
  set (c := fun p : nat => match p with O => 1 / 2 | S O => 3 / 2 | _ => 1 end).
  transitivity (sum (fun p => c p * apply1 A u p) (length [0; 1; 3])).
  - unfold over_interfaces. cbn [length]. rewrite !sum_S, !sum_0. cbn [Nat.add Nat.mul]. rewrite !W by lia. unfold width, edge, c. cbn [Nat.add Nat.mul nth]. field.
  - rewrite (V c u (fun a => if (a =? 0)%nat then [0; 1] else [1]) (fun a _ => if (a =? 0)%nat then 1 else 0)
      (fun a => if (a =? 0)%nat then [1; 1/2] else [5/8; 1/8]) (fun a _ => if (a =? 0)%nat then 1/2 else 1/8)).
    + unfold over_interfaces. rewrite !sum_S, !sum_0. rewrite !W by lia. unfold width, edge. cbn. field.
    + intros a Ha. destruct a as [|[|a]]; [| |lia]; cbn [Nat.eqb]; (split; [split; [cbn; lia|]|]).
      * intros i Hi. destruct i as [|[|i]]; [| |lia]; unfold u; cbn; ring.
      * intros x. apply derivable_ext with (f := fun x => x); [intros; cbn; ring|apply derivable_pt_lim_id].
      * intros i Hi. destruct i as [|[|i]]; [| |lia]; unfold u; cbn; ring.
      * intros x. apply derivable_ext with (f := fun x => 1); [intros; cbn; ring|apply derivable_pt_lim_const].
    + intros a Ha. destruct a as [|[|a]]; [| |lia]; cbn [Nat.eqb]; (split; [split; [cbn; lia|]|]).
      * intros i Hi. destruct i as [|[|i]]; [| |lia]; unfold doubled_weight; rewrite W by lia; unfold width, edge, c; cbn; field.
      * intros x. apply derivable_ext with (f := fun x => 1 + 1 / 2 * x); [intros; cbn; field|]. apply affine_derive.
      * intros i Hi. destruct i as [|[|i]]; [| |lia]; unfold doubled_weight; rewrite W by lia; unfold width, edge, c; cbn; field.
      * intros x. apply derivable_ext with (f := fun x => 5 / 8 + 1 / 8 * x); [intros; cbn; field|]. apply affine_derive.
Qed.
Example C61_case : forall o, (1 <= o <= 9)%nat -> gives lobatto_rule (o + 1) /\ scaled lobatto_rule (o + 1) /\ rule_weight lobatto_rule (o + 1) 0 1 0 = rule_weight lobatto_rule (o + 1) 0 1 o.
Proof. intros o H. destruct (C60_tables (o + 1) ltac:(lia)) as (_ & L). destruct (L ltac:(lia)) as (L1 & L2 & L3). replace (o + 1 - 1)%nat with o in L3 by lia. repeat split; assumption || apply L2; assumption. Qed.

(** on levels: the weak form, with the mean slope and s / (2 * width) times the
    step as flux through the interior element edges and no flux through the ends *)
Theorem C61_levels : forall sol gauss o ne nodes edges P s, column o ne nodes edges -> solved sol o -> correction 2 (o + 1) P ->
  derivable_pt_lim (fun z => peval P (2 * z - 1)) 1 s -> gives gauss o -> scaled gauss o ->
  exists A, diffusion_levels sol gauss o nodes edges = Built A /\ wf A /\ nrow A = length nodes /\ ncol A = length nodes /\
  forall u v p g q f, levelwise o ne nodes u p g -> levelwise o ne nodes v q f ->
    over_levels o ne (fun a j => level_weight gauss o edges a j * v (a * o + j)%nat * apply1 A u (a * o + j)%nat) =
    sum (fun a => peval (q a) (edge o edges (a + 1)) * edge_flux s o ne edges p g a (a + 1) - peval (q a) (edge o edges a) * edge_flux s o ne edges p g a a) ne
    - over_levels o ne (fun a k => level_weight gauss o edges a k * g a (nth (a * o + k) nodes 0) * f a (nth (a * o + k) nodes 0)).
Proof.
  intros sol gauss o ne nodes edges P s C Sv HP Ds GG SG.
  assert (Es : cslope sol o 1 = s).
  { assert (Ho : (0 < o)%nat) by apply C. apply (uniqueness_limite (fun z => peval P (2 * z - 1)) 1); [|exact Ds].
    apply derivable_ext with (f := fun z => peval (cpoly sol o) (2 * z - 1)); [|apply deriv_at_ok]. intros z.
    apply (correction_unique 2 (o + 1)); [lia| |exact HP]. apply cpoly_ok; assumption. }
  assert (Gnz : forall a b i, a < b -> (i < o)%nat -> rule_weight gauss o a b i <> 0).
  { intros a b i AB Hi. destruct (SG i Hi) as (Pos & Sc). rewrite (Sc a b AB). apply Rgt_not_eq, Rmult_lt_0_compat; [lra|exact Pos]. }
  destruct (diffusion_levels_ok sol o ne nodes edges C gauss GG Gnz) as (A & EA & WA & N1 & N2 & V). exists A.
  split; [exact EA|]. split; [exact WA|]. split; [exact N1|]. split; [exact N2|].
  intros u v p g q f Hu Hv. rewrite <- Es.
  apply (levels_weak sol o ne nodes edges C gauss Gnz A V u p g v q f);
    [intros a Ha; apply Hu, Ha|intros a x Ha; apply Hu, Ha|intros a Ha; apply Hv, Ha|intros a x Ha; apply Hv, Ha].
Qed.
(** its integral over the column: the fluxes on the two sides of an edge differ
    unless the elements have the same length *)
Theorem C61_levels_balance : forall sol gauss o ne nodes edges P s A u p g, column o ne nodes edges -> solved sol o -> correction 2 (o + 1) P ->
  derivable_pt_lim (fun z => peval P (2 * z - 1)) 1 s -> gives gauss o -> scaled gauss o ->
  diffusion_levels sol gauss o nodes edges = Built A -> levelwise o ne nodes u p g ->
  over_levels o ne (fun a j => level_weight gauss o edges a j * apply1 A u (a * o + j)%nat) =
  sum (fun i => 1 / 2 * (s / width o edges i - s / width o edges (i + 1)) * step o edges p (i + 1)) (ne - 1) /\
  (forall h, (forall a, (a < ne)%nat -> width o edges a = h) -> over_levels o ne (fun a j => level_weight gauss o edges a j * apply1 A u (a * o + j)%nat) = 0).
Proof.
  intros sol gauss o ne nodes edges P s A u p g C Sv HP Ds GG SG EA Hu.
  destruct (C61_levels sol gauss o ne nodes edges P s C Sv HP Ds GG SG) as (A' & EA' & _ & _ & _ & V). rewrite EA in EA'. injection EA' as <-.
  assert (B : over_levels o ne (fun a j => level_weight gauss o edges a j * apply1 A u (a * o + j)%nat) =
    sum (fun i => 1 / 2 * (s / width o edges i - s / width o edges (i + 1)) * step o edges p (i + 1)) (ne - 1)).
  { rewrite <- (flux_balance s o ne edges p g).
    transitivity (over_levels o ne (fun a j => level_weight gauss o edges a j * (fun _ : nat => 1) (a * o + j)%nat * apply1 A u (a * o + j)%nat)).
    { unfold over_levels. apply sum_ext. intros a _. apply sum_ext. intros j _. ring. }
    rewrite (V u (fun _ => 1) p g (fun _ => [1]) (fun _ _ => 0) Hu).
    - unfold over_levels at 1. rewrite (sum_zero (fun a => sum _ o)) by (intros a _; apply sum_zero; intros; ring). rewrite Rminus_0_r.
      apply sum_ext. intros a _. cbn [peval]. ring.
    - intros a Ha. split; [split; [cbn; destruct C; lia|intros; cbn; ring]|]. intros x. apply derivable_ext with (f := fun _ => 1); [intros; cbn; ring|apply derivable_pt_lim_const]. }
  split; [exact B|]. intros h Eq. rewrite B. apply sum_zero. intros i Hi. rewrite !Eq by lia. ring.
Qed.
Theorem C61_levels_refuted : forall sol, solved sol 1 -> exists A, diffusion_levels sol gauss_rule 1 [1/2; 2] [0; 1; 3] = Built A /\
  over_levels 1 2 (fun a j => level_weight gauss_rule 1 [0; 1; 3] a j * apply1 A INR (a * 1 + j)%nat) = 1 / 2.
Proof.
  intros sol Sv. destruct (C60_tables 1 ltac:(lia)) as (G & _). destruct (G ltac:(lia)) as (GG & SG).
  destruct (C61_levels sol gauss_rule 1 2 _ _ _ _ uneven Sv square_correction square_slope GG SG) as (A & EA & _). exists A. split; [exact EA|].
  destruct (C61_levels_balance sol gauss_rule 1 2 _ _ _ _ A INR (fun i => [INR i]) (fun _ _ => 0) uneven Sv square_correction square_slope GG SG EA) as (-> & _).
  - intros a Ha. split; [apply steps_case, Ha|]. intros x. apply derivable_ext with (f := fun _ => INR a); [intros; cbn; ring|apply derivable_pt_lim_const].
  - cbn [Nat.sub]. rewrite sum_S, sum_0. unfold width, step, edge. cbn. field.
Qed.

(** ** C62: the penalty on jumps *)
(** each element gets the derivative of a flux that is half the weighted step at
    its interior edges and zero at the ends of the column *)
Theorem C62_flux : forall sol o ne nodes edges P, column o ne nodes edges -> solved sol o -> correction 2 (o + 1) P -> (1 < ne)%nat ->
  exists Q, penalty_fem sol o nodes edges = PenBuilt Q /\
  forall w u p out, (forall k, (k < ne)%nat -> interpolates o nodes (k * o) u (p k)) -> forall a i, (a < ne)%nat -> (i < o)%nat ->
    derivable_pt_lim (corrected P [] (edge o edges a) (edge o edges (a + 1)) (penalty_low o edges w p a) (penalty_high o ne edges w p a))
      (nth (a * o + i) nodes 0) (pen_apply Q w u out (a * o + i)%nat - out (a * o + i)%nat).
Proof.
  intros sol o ne nodes edges P C Sv HP N2. destruct (penalty_derive sol o ne nodes edges C N2) as (Q & EQ & V). exists Q. split; [exact EQ|].
  intros w u p out Hp a i Ha Hi.
  assert (X : forall x, peval (cpoly sol o) x = peval P x). { assert (Ho : (0 < o)%nat) by apply C. intros x. apply (correction_unique 2 (o + 1)); [lia| |exact HP]. apply cpoly_ok; assumption. }
  eapply derivable_ext; [|apply (V w u p out Hp a i Ha Hi)]. intros x. unfold corrected. rewrite !X. reflexivity.
Qed.
(** that flux has the same value on both sides of an edge *)
Theorem C62_meet : forall o ne edges w p a, (a + 1 < ne)%nat -> penalty_high o ne edges w p a = penalty_low o edges w p (a + 1) /\
  penalty_low o edges w p 0 = 0 /\ penalty_high o ne edges w p (ne - 1) = 0.
Proof.
  intros o ne edges w p a Ha. unfold penalty_high, penalty_low. destruct (Nat.eqb_spec (a + 1) ne); [lia|]. destruct (Nat.eqb_spec (a + 1) 0); [lia|].
  replace (a + 1 - 1)%nat with a by lia. split; [reflexivity|]. split; [reflexivity|]. destruct (Nat.eqb_spec (ne - 1 + 1) ne); [reflexivity|lia].
Qed.
(** so for level weights that integrate exactly every element changes by the
    difference of its edge fluxes, and the column total does not change *)
Theorem C62_conserves : forall sol o ne nodes edges omega Q w u p out, column o ne nodes edges -> solved sol o -> (1 < ne)%nat ->
  penalty_fem sol o nodes edges = PenBuilt Q -> (forall k, (k < ne)%nat -> interpolates o nodes (k * o) u (p k)) ->
  (forall a, (a < ne)%nat -> integrates_on (o + 2) o nodes (a * o) (edge o edges a) (edge o edges (a + 1)) (omega a)) ->
  (forall a, (a < ne)%nat -> sum (fun i => omega a i * (pen_apply Q w u out (a * o + i)%nat - out (a * o + i)%nat)) o = penalty_high o ne edges w p a - penalty_low o edges w p a) /\
  over_levels o ne (fun a i => omega a i * (pen_apply Q w u out (a * o + i)%nat - out (a * o + i)%nat)) = 0.
Proof. intros sol o ne nodes edges omega Q w u p out C Sv N2 EQ Hp Hw. apply (penalty_conserves sol o ne nodes edges C Sv); assumption. Qed.
(** columns without steps, and columns of one element, are left alone *)
Theorem C62_smooth : forall sol o ne nodes edges Q w q out, column o ne nodes edges -> solved sol o -> penalty_fem sol o nodes edges = PenBuilt Q -> (length q <= o)%nat ->
  forall k, (k < ne * o)%nat -> pen_apply Q w (fun l => peval q (nth l nodes 0)) out k = out k.
Proof.
  intros sol o ne nodes edges Q w q out C Sv EQ Lq k Hk. pose proof C as (Ho & Hne & Ln & _).
  destruct (Nat.eq_dec ne 1) as [N1|N1].
  - unfold penalty_fem in EQ. rewrite Ln, Nat.div_mul, N1 in EQ by lia. destruct (Nat.eqb_spec o 0); [lia|]. cbn [Nat.eqb] in EQ. injection EQ as <-. reflexivity.
  - destruct (penalty_derive sol o ne nodes edges C ltac:(lia)) as (Q' & EQ' & V). rewrite EQ in EQ'. injection EQ' as <-.
    assert (Hi : (k mod o < o)%nat) by (apply Nat.mod_upper_bound; lia). assert (Ha : (k / o < ne)%nat) by (apply Nat.div_lt_upper_bound; lia).
    specialize (V w (fun l => peval q (nth l nodes 0)) (fun _ => q) out (fun i Hi => conj Lq (fun j Hj => eq_refl)) (k / o)%nat (k mod o)%nat Ha Hi).
    replace (k / o * o + k mod o)%nat with k in V by (pose proof (Nat.div_mod k o ltac:(lia)); lia).
    apply Rminus_diag_uniq. eapply uniqueness_limite; [exact V|].
    apply derivable_ext with (f := fun _ => 0); [|apply derivable_pt_lim_const]. intros x. unfold corrected, penalty_low, penalty_high, step. cbn [peval].
    destruct (_ =? 0)%nat, (_ =? ne)%nat; ring.
Qed.
Theorem C62_single : forall sol o nodes edges w u out, column o 1 nodes edges -> exists Q, penalty_fem sol o nodes edges = PenBuilt Q /\ pen_apply Q w u out = out.
Proof.
  intros sol o nodes edges w u out (Ho & _ & Ln & _). unfold penalty_fem. rewrite Ln, Nat.div_mul by lia. destruct (Nat.eqb_spec o 0); [lia|]. cbn [Nat.eqb].
  eexists. split; reflexivity.
Qed.
(** the variant for finite volumes: the change of a layer times its thickness is
    the difference of the edge fluxes, which are half the weighted difference of
    the reconstructions around the two neighbouring levels *)
Theorem C62_reconstructed : forall o nodes edges, (0 < o)%nat -> spaced nodes -> spaced edges -> length edges = (length nodes + 1)%nat -> (1 < length nodes)%nat ->
  exists Q, penalty_rec o nodes edges = PenBuilt Q /\
  forall w u q out, (forall c, (c < length nodes)%nat -> reconstructs ((o - 2) / 2) nodes u c (q c)) ->
    (forall k, (k < length nodes)%nat -> (pen_apply Q w u out k - out k) * width 1 edges k = penalty_high 1 (length nodes) edges w q k - penalty_low 1 edges w q k) /\
    sum (fun k => (pen_apply Q w u out k - out k) * width 1 edges k) (length nodes) = 0.
Proof.
  intros o nodes edges Ho Sn Se Le N2. destruct (penalty_rec_ok o nodes edges Ho Sn Se Le N2) as (Q & EQ & V). exists Q. split; [exact EQ|].
  intros w u q out Hq. split; [intros k Hk; apply V; assumption|].
  rewrite (sum_ext _ _ _ (fun k Hk => V w u q out Hq k Hk)). set (n := length nodes) in *.
  assert (T : forall m, (m < n)%nat -> sum (fun k => penalty_high 1 n edges w q k - penalty_low 1 edges w q k) m = penalty_low 1 edges w q m).
  { induction m as [|m IH]; intros Hm; [rewrite sum_0; reflexivity|]. rewrite sum_S, IH by lia.
    destruct (C62_meet 1 n edges w q m ltac:(lia)) as (-> & _). rewrite Nat.add_1_r. ring. }
  destruct n as [|m] eqn:En; [lia|]. rewrite sum_S, T by lia. destruct (C62_meet 1 (S m) edges w q 0 ltac:(lia)) as (_ & _ & H). cbn [Nat.sub] in H. rewrite Nat.sub_0_r in H. rewrite H. ring.
Qed.
Example C62_case : column 1 2 [1/2; 2] [0; 1; 3] /\ (forall a, (a < 2)%nat -> integrates_on 3 1 [1/2; 2] (a * 1) (edge 1 [0; 1; 3] a) (edge 1 [0; 1; 3] (a + 1)) (fun _ => width 1 [0; 1; 3] a)) /\
  (forall c, (c < 2)%nat -> reconstructs 0 [1/2; 2] INR c [INR c]) /\ step 1 [0; 1; 3] (fun i => [INR i]) 1 = 1.
Proof.
  split; [exact uneven|]. split; [|split].
  - intros a Ha F f LF Hf. rewrite sum_S, sum_0. replace (a * 1 + 0)%nat with a by lia.
    assert (K : exists c0 c1 c2, forall x, peval F x = c0 + c1 * x + c2 * (x * x)).
    { destruct F as [|c0 [|c1 [|c2 [|c3 F]]]]; cbn in LF; try lia; [exists 0, 0, 0|exists c0, 0, 0|exists c0, c1, 0|exists c0, c1, c2]; intros; cbn; ring. }
    destruct K as (c0 & c1 & c2 & K).
    assert (D : forall x, f x = c1 + c2 * (2 * x)).
    { intros x. apply (uniqueness_limite (peval F) x); [apply Hf|]. apply derivable_ext with (f := fun x => (c0 + c1 * x) + c2 * (x * x)); [intros; rewrite K; ring|].
      apply (derivable_pt_lim_plus (fun x => c0 + c1 * x) (fun x => c2 * (x * x))); [apply affine_derive|].
      apply (derivable_pt_lim_scal (fun x => x * x)). replace (2 * x) with (1 * x + x * 1) by ring. apply (derivable_pt_lim_mult (fun x => x) (fun x => x)); apply derivable_pt_lim_id. }
    rewrite D, !K. unfold width, edge. destruct a as [|[|a]]; [| |lia]; cbn; field.
  - intros c Hc. unfold reconstructs. destruct c as [|[|c]]; [| |lia]; (split; [cbn; lia|]); intros i Hi; cbn in Hi; assert (i = 0%nat) by lia; subst i; cbn; ring.
  - unfold step, edge. cbn. ring.
Qed.

Print Assumptions C58_function.
Print Assumptions C58_solvable.
Print Assumptions C58_unique.
Print Assumptions C58_checks.
Print Assumptions C58_overrun_refuted.
Print Assumptions C59_interpolants.
Print Assumptions C59_inside.
Print Assumptions C59_continuous.
Print Assumptions C59_edge.
Print Assumptions C59_range.
Print Assumptions C59_uneven_refuted.
Print Assumptions C51_flux.
Print Assumptions C60_tables.
Print Assumptions C60_weak.
Print Assumptions C60_conserves.
Print Assumptions C60_constant.
Print Assumptions C61_interfaces.
Print Assumptions C61_equal.
Print Assumptions C61_dissipates.
Print Assumptions C61_uneven_refuted.
Print Assumptions C61_levels.
Print Assumptions C61_levels_balance.
Print Assumptions C61_levels_refuted.
Print Assumptions C62_flux.
Print Assumptions C62_meet.
Print Assumptions C62_conserves.
Print Assumptions C62_smooth.
Print Assumptions C62_single.
Print Assumptions C62_reconstructed.
