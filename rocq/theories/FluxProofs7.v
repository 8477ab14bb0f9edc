(** * The penalty on jumps between elements *)
From Coq Require Import Reals List Arith Lia Lra Bool.
From Verif Require Import QuadSpec InterpModel InterpSpec InterpProofs ColModel ColSpec ColProofs FemModel FemSpec FemProofs FemProofs2 FluxModel FluxSpec FluxProofs FluxProofs2 FluxProofs4 FluxProofs5 FluxProofs6.
Import ListNotations.
Local Open Scope R_scope.

Lemma poly_affine c d P : is_poly (length P) (fun x => peval P (c * x + d)).
Proof.
  induction P as [|a P IH]; cbn [length peval].
  - exists []. split; [apply le_n|]. intros; reflexivity.
  - apply (is_poly_ext _ (fun x => a + (c * (x * peval P (c * x + d)) + d * peval P (c * x + d)))); [intros; ring|].
    apply is_poly_add. { exists [a]. cbn. split; [lia|]. intros; ring. }
    apply is_poly_add; apply is_poly_scale; [apply is_poly_shift; exact IH|apply (is_poly_le (length P)); [lia|exact IH]].
Qed.
Lemma corrected_poly P a b jl jr : a < b -> is_poly (length P) (corrected P [] a b jl jr).
Proof.
  intros AB. unfold corrected. cbn [peval].
  apply (is_poly_ext _ (fun x => jr * peval P (2 / (b - a) * x + - (a + b) / (b - a)) + jl * peval P (- (2 / (b - a)) * x + (a + b) / (b - a)))).
  - intros t. unfold local. replace ((2 * t - a - b) / (b - a)) with (2 / (b - a) * t + - (a + b) / (b - a)) by (field; lra).
    replace (- (2 / (b - a) * t + - (a + b) / (b - a))) with (- (2 / (b - a)) * t + (a + b) / (b - a)) by (field; lra). ring.
  - apply is_poly_add; apply is_poly_scale; apply poly_affine.
Qed.

Section Penalty.
Context (sol : nat -> nat -> nat -> R) (o ne : nat) (nodes edges : list R) (C : column o ne nodes edges).
Context (Sol : solves (o + 1 + 1) (van 2 (o + 1)) rhs (sol 2%nat (o + 1)%nat)).
Let Ho : (0 < o)%nat := proj1 C.
Let E := edge o edges.

Lemma penalty_derive : (1 < ne)%nat -> exists Q, penalty_fem sol o nodes edges = PenBuilt Q /\
  forall w u p out, (forall k, (k < ne)%nat -> interpolates o nodes (k * o) u (p k)) -> forall a i, (a < ne)%nat -> (i < o)%nat ->
    derivable_pt_lim (corrected (cpoly sol o) [] (E a) (E (a + 1)%nat) (penalty_low o edges w p a) (penalty_high o ne edges w p a))
      (nth (a * o + i) nodes 0) (pen_apply Q w u out (a * o + i)%nat - out (a * o + i)%nat).
Proof.
  intros N2. destruct (penalty_built sol o ne nodes edges C N2) as (L & Rt & EQ & V). exists (Penalty o ne (Some (L, Rt))). split; [exact EQ|].
  intros w u p out Hp a i Ha Hi. rewrite pen_apply_ok by assumption. destruct (V u p Hp a i Ha Hi) as (-> & ->).
  pose proof (edge_lt o ne nodes edges C a Ha) as AB. fold E in AB.
  match goal with |- derivable_pt_lim _ ?y ?v => replace v with (0 + penalty_high o ne edges w p a * (cslope sol o ((y - E a) / (E (a + 1)%nat - E a)) / (E (a + 1)%nat - E a))
    + penalty_low o edges w p a * (- cslope sol o (1 - (y - E a) / (E (a + 1)%nat - E a)) / (E (a + 1)%nat - E a))) end.
  - apply (corrected_derive sol o [] (fun _ => 0)); [exact AB|]. intros x. apply (derivable_pt_lim_const 0).
  - unfold penalty_high, penalty_low, pen_left, pen_right. fold E.
    destruct (Nat.ltb_spec (a + 1) ne), (Nat.eqb_spec (a + 1) ne), (Nat.ltb_spec 0 a), (Nat.eqb_spec a 0); try lia; unfold Rdiv; ring.
Qed.
Lemma penalty_conserves omega Q w u p out : (1 < ne)%nat -> penalty_fem sol o nodes edges = PenBuilt Q ->
  (forall k, (k < ne)%nat -> interpolates o nodes (k * o) u (p k)) ->
  (forall a, (a < ne)%nat -> integrates_on (o + 2) o nodes (a * o) (E a) (E (a + 1)%nat) (omega a)) ->
  (forall a, (a < ne)%nat -> sum (fun i => omega a i * (pen_apply Q w u out (a * o + i)%nat - out (a * o + i)%nat)) o = penalty_high o ne edges w p a - penalty_low o edges w p a) /\
  over_levels o ne (fun a i => omega a i * (pen_apply Q w u out (a * o + i)%nat - out (a * o + i)%nat)) = 0.
Proof.
  intros N2 EQ Hp Hw. destruct (penalty_derive N2) as (Q' & EQ' & D). rewrite EQ in EQ'. injection EQ' as <-.
  assert (H : forall a, (a < ne)%nat -> sum (fun i => omega a i * (pen_apply Q w u out (a * o + i)%nat - out (a * o + i)%nat)) o = penalty_high o ne edges w p a - penalty_low o edges w p a).
  { intros a Ha. pose proof (edge_lt o ne nodes edges C a Ha) as AB. fold E in AB.
    set (jl := penalty_low o edges w p a). set (jr := penalty_high o ne edges w p a).
    destruct (corrected_poly (cpoly sol o) (E a) (E (a + 1)%nat) jl jr AB) as (F & LF & HF).
    destruct (derive_poly F) as (f & Hf).
    assert (LP : (length (cpoly sol o) <= o + 2)%nat). { destruct (cpoly_ok sol o Ho Sol) as (LP & _). lia. }
    rewrite (sum_ext _ (fun i => omega a i * f (nth (a * o + i) nodes 0))).
    - rewrite (Hw a Ha F f) by (try exact Hf; lia). rewrite <- !HF.
      destruct (corrected_ends sol o Ho Sol [] (E a) (E (a + 1)%nat) jl jr AB) as (-> & ->). cbn [peval]. ring.
    - intros i Hi. f_equal. eapply uniqueness_limite; [apply (D w u p out Hp a i Ha Hi)|].
      apply derivable_ext with (f := peval F); [intros x; symmetry; apply HF|apply Hf]. }
  split; [exact H|]. unfold over_levels. rewrite (sum_ext _ _ ne H).
  rewrite (sum_ext _ (fun a => penalty_low o edges w p (S a) * (if (a + 1 =? ne)%nat then 0 else 1) - penalty_low o edges w p a)).
  2:{ intros a Ha. unfold penalty_high, penalty_low. rewrite Nat.add_1_r. cbn [Nat.eqb]. replace (S a - 1)%nat with a by lia.
      destruct ne as [|m]; [lia|]. cbn [Nat.eqb]. destruct (Nat.eqb_spec a m); ring. }
  assert (T : forall m, (m < ne)%nat -> sum (fun a => penalty_low o edges w p (S a) * (if (a + 1 =? ne)%nat then 0 else 1) - penalty_low o edges w p a) m = penalty_low o edges w p m).
  { induction m as [|m IH]; intros Hm; [rewrite sum_0; reflexivity|]. rewrite sum_S, IH by lia. destruct (Nat.eqb_spec (m + 1) ne); [lia|ring]. }
  destruct ne as [|m]; [lia|]. rewrite sum_S, T by lia. rewrite Nat.add_1_r, Nat.eqb_refl. ring.
Qed.
End Penalty.

(** ** The reconstructed penalty *)
Section Reconstructed.
Context (o : nat) (nodes edges : list R) (Ho : (0 < o)%nat) (Sn : spaced nodes) (Se : spaced edges) (Le : length edges = (length nodes + 1)%nat).
Let n := length nodes.
Let h := ((o - 2) / 2)%nat.
Let E := edge 1 edges.
Let hb : (2 * h + 1 <= o)%nat.
Proof. unfold h. pose proof (Nat.div_mod (o - 2) 2 ltac:(lia)). destruct o as [|[|m]]; [lia|cbn; lia|]. cbn [Nat.sub] in *. rewrite Nat.sub_0_r in *. lia. Qed.

Lemma recon_value c y : (c < n)%nat -> exists cc, one_sided o nodes (c - h) (Nat.min (c + h) (n - 1)) y = Some cc /\ length cc = (S (Nat.min (c + h) (n - 1)) - (c - h))%nat /\
  forall u q, reconstructs h nodes u c q -> sum (fun l => block (c - h) cc l * u l) n = peval q y.
Proof.
  intros Hc. destruct (one_sided_ok o nodes (c - h) (Nat.min (c + h) (n - 1)) y Sn) as (cc & Ec & Lc & Xc); [fold n; lia|lia|].
  exists cc. split; [exact Ec|]. split; [exact Lc|]. intros u q Hq.
  apply (block_apply 0 _ nodes (c - h) y cc u q (peval q) Xc); [fold n; lia|exact Hq|]. intros t. reflexivity.
Qed.
Lemma jump_row_ok sgn k : (0 < k < n)%nat -> exists r b e, jump_row sgn o nodes edges k = Some (r, b, e) /\ good n (r, b, e) /\
  forall u q, (forall c, (c < n)%nat -> reconstructs h nodes u c (q c)) -> sum (fun l => val r l * u l) n = sgn * (1 / 2) * step 1 edges q k.
Proof.
  intros Hk. unfold jump_row. rewrite rd_ok by lia. cbn [bind]. fold n.
  replace (left_first o k) with (k - 1 - h)%nat by (unfold left_first, h; lia).
  replace (left_last n o k) with (Nat.min (k - 1 + h) (n - 1)) by (unfold left_last, h; lia).
  change (right_first o k) with (k - h)%nat. change (right_last n o k) with (Nat.min (k + h) (n - 1)).
  destruct (recon_value (k - 1) (nth k edges 0) ltac:(lia)) as (cl & -> & Ll & Vl). cbn [bind].
  destruct (add_is n (zero_row n) (fun _ => 0) (k - 1 - h) (- (sgn * (1 / 2))) cl (zero_is n)) as (r & -> & Rr); [lia|]. cbn [bind].
  destruct (recon_value k (nth k edges 0) ltac:(lia)) as (cr & -> & Lr & Vr). cbn [bind].
  destruct (add_is n r _ (k - h) (sgn * (1 / 2)) cr Rr) as (r' & -> & (L' & V')); [lia|]. cbn [bind].
  do 3 eexists. split; [reflexivity|]. split.
  - split; [exact L'|]. split; [lia|]. intros l Hl Nl. rewrite V' by exact Hl. rewrite !block_out by lia. ring.
  - intros u q Hq. rewrite (sum_ext _ (fun l => ((0 + - (sgn * (1 / 2)) * block (k - 1 - h) cl l) + sgn * (1 / 2) * block (k - h) cr l) * u l)) by (intros l Hl; rewrite V' by exact Hl; reflexivity).
    rewrite !sum_lin2, sum_0l. rewrite (Vl u (q (k - 1)%nat)) by (apply Hq; lia). rewrite (Vr u (q k)) by (apply Hq; lia).
    unfold step, edge. rewrite Nat.mul_1_r. ring.
Qed.
Lemma rescale_ok r b e k s : (k < n)%nat -> good n (r, b, e) -> exists r' b' e', rescale edges k (r, b, e) = Some (r', b', e') /\ good n (r', b', e') /\
  forall u, sum (fun l => val r l * u l) n = s u -> sum (fun l => val r' l * u l) n = s u / width 1 edges k.
Proof.
  intros Hk (L & B & Z).
  assert (W : nth k edges 0 < nth (k + 1) edges 0) by (apply spaced_lt; [exact Se|lia]).
  assert (EW : width 1 edges k = nth (k + 1) edges 0 - nth k edges 0) by (unfold width, edge; rewrite !Nat.mul_1_r; reflexivity).
  unfold rescale. rewrite !rd_ok by lia. cbn [bind].
  destruct (Nat.ltb_spec b e) as [Q|Q].
  - rewrite div_ok by lra. cbn [bind]. destruct (modify_ok r b (e - b) (fun _ v => v / (nth (k + 1) edges 0 - nth k edges 0))) as (r' & -> & L' & V'); [lia|]. cbn [bind].
    do 3 eexists. split; [reflexivity|]. split.
    + split; [lia|]. split; [lia|]. intros l Hl Nl. rewrite V' by lia. destruct (Nat.leb_spec b l), (Nat.ltb_spec l (b + (e - b))); cbn [andb]; try lia; apply Z; lia.
    + intros u <-. rewrite EW, <- sum_div2. apply sum_ext. intros l Hl. rewrite V' by lia.
      destruct (Nat.leb_spec b l), (Nat.ltb_spec l (b + (e - b))); cbn [andb]; try reflexivity; rewrite (Z l) by lia; unfold Rdiv; ring.
  - do 3 eexists. split; [reflexivity|]. split; [split; [exact L|split; [exact B|exact Z]]|]. intros u <-. rewrite EW.
    rewrite (sum_zero _ n); [unfold Rdiv; ring|]. intros l Hl. rewrite (Z l) by lia. ring.
Qed.
Lemma zero_good : good n (zero_row n, 0%nat, 0%nat).
Proof. split; [apply zero_row_length|]. split; [lia|]. intros; apply zero_row_val. Qed.
Lemma zero_value u : sum (fun l => val (zero_row n) l * u l) n = 0.
Proof. apply sum_zero. intros l _. rewrite zero_row_val. ring. Qed.
Lemma rec_left_ok k : (k < n)%nat -> exists r b e, rec_left_row o nodes edges k = Some (r, b, e) /\ good n (r, b, e) /\
  forall u q, (forall c, (c < n)%nat -> reconstructs h nodes u c (q c)) -> sum (fun l => val r l * u l) n = (if (k + 1 =? n)%nat then 0 else 1 / 2 * step 1 edges q (k + 1)) / width 1 edges k.
Proof.
  intros Hk. unfold rec_left_row. rewrite Le. fold n. replace (n + 1 - 1)%nat with n by lia.
  destruct (Nat.ltb_spec (k + 1) n) as [Q|Q], (Nat.eqb_spec (k + 1) n) as [Q'|Q']; try lia.
  - destruct (jump_row_ok 1 (k + 1) ltac:(lia)) as (r & b & e & -> & G & V). cbn [bind].
    destruct (rescale_ok r b e k (fun u => sum (fun l => val r l * u l) n) Hk G) as (r' & b' & e' & -> & G' & V').
    do 3 eexists. split; [reflexivity|]. split; [exact G'|]. intros u q Hq. rewrite (V' u eq_refl). rewrite (V u q Hq). f_equal. ring.
  - cbn [bind]. destruct (rescale_ok _ _ _ k (fun _ => 0) Hk zero_good) as (r' & b' & e' & -> & G' & V').
    do 3 eexists. split; [reflexivity|]. split; [exact G'|]. intros u q Hq. rewrite (V' u); [reflexivity|apply zero_value].
Qed.
Lemma rec_right_ok k : (k < n)%nat -> exists r b e, rec_right_row o nodes edges k = Some (r, b, e) /\ good n (r, b, e) /\
  forall u q, (forall c, (c < n)%nat -> reconstructs h nodes u c (q c)) -> sum (fun l => val r l * u l) n = - (if (k =? 0)%nat then 0 else 1 / 2 * step 1 edges q k) / width 1 edges k.
Proof.
  intros Hk. unfold rec_right_row. rewrite Le. fold n. replace (n + 1 - 1)%nat with n by lia.
  destruct (Nat.ltb_spec 0 k) as [Q|Q], (Nat.ltb_spec k n) as [Q2|Q2], (Nat.eqb_spec k 0) as [Q'|Q']; try lia; cbn [andb].
  - destruct (jump_row_ok (-1) k ltac:(lia)) as (r & b & e & -> & G & V). cbn [bind].
    destruct (rescale_ok r b e k (fun u => sum (fun l => val r l * u l) n) Hk G) as (r' & b' & e' & -> & G' & V').
    do 3 eexists. split; [reflexivity|]. split; [exact G'|]. intros u q Hq. rewrite (V' u eq_refl). rewrite (V u q Hq). f_equal. ring.
  - cbn [bind]. destruct (rescale_ok _ _ _ k (fun _ => 0) Hk zero_good) as (r' & b' & e' & -> & G' & V').
    do 3 eexists. split; [reflexivity|]. split; [exact G'|]. intros u q Hq. rewrite (V' u); [unfold Rdiv; ring|apply zero_value].
Qed.
Lemma penalty_rec_ok : (1 < n)%nat -> exists Q, penalty_rec o nodes edges = PenBuilt Q /\
  forall w u q out, (forall c, (c < n)%nat -> reconstructs h nodes u c (q c)) -> forall k, (k < n)%nat ->
    (pen_apply Q w u out k - out k) * width 1 edges k = penalty_high 1 n edges w q k - penalty_low 1 edges w q k.
Proof.
  intros N2. unfold penalty_rec. fold n. destruct (Nat.eqb_spec n 1); [lia|]. destruct (Nat.eqb_spec n 0) as [Z|Z]; [lia|]. destruct (Nat.eqb_spec o 0); [lia|].
  rewrite Le. fold n. rewrite Nat.eqb_refl. cbn [negb].
  destruct (build_ok n n (rec_left_row o nodes edges)
    (fun k v b e => forall u q, (forall c, (c < n)%nat -> reconstructs h nodes u c (q c)) ->
       sum (fun l => v l * u l) n = (if (k + 1 =? n)%nat then 0 else 1 / 2 * step 1 edges q (k + 1)) / width 1 edges k)) as (L & -> & WL & NL1 & NL2 & VL); try exact Z.
  { intros k Hk. destruct (rec_left_ok k Hk) as (r & b & e & Er & G & Vr). exists r, b, e. split; [exact Er|]. split; [exact G|exact Vr]. }
  destruct (build_ok n n (rec_right_row o nodes edges)
    (fun k v b e => forall u q, (forall c, (c < n)%nat -> reconstructs h nodes u c (q c)) ->
       sum (fun l => v l * u l) n = - (if (k =? 0)%nat then 0 else 1 / 2 * step 1 edges q k) / width 1 edges k)) as (Rt & -> & WR & NR1 & NR2 & VR); try exact Z.
  { intros k Hk. destruct (rec_right_ok k Hk) as (r & b & e & Er & G & Vr). exists r, b, e. split; [exact Er|]. split; [exact G|exact Vr]. }
  eexists. split; [reflexivity|]. intros w u q out Hq k Hk.
  pose proof (pen_apply_ok 1 n L Rt w u out k 0 ltac:(lia) Hk ltac:(lia)) as P. rewrite Nat.mul_1_r, Nat.add_0_r in P. rewrite P.
  rewrite (apply1_matvec L), (apply1_matvec Rt) by (try assumption; rewrite ?NL1, ?NR1; exact Hk). unfold matvec. rewrite NL2, NR2.
  rewrite (VL k Hk u q Hq), (VR k Hk u q Hq).
  assert (W : 0 < width 1 edges k). { unfold width, edge. rewrite !Nat.mul_1_r. apply Rlt_Rminus. apply spaced_lt; [exact Se|lia]. }
  unfold penalty_high, penalty_low.
  destruct (Nat.ltb_spec (k + 1) n), (Nat.eqb_spec (k + 1) n), (Nat.ltb_spec 0 k), (Nat.eqb_spec k 0); try lia; field; lra.
Qed.
End Reconstructed.
