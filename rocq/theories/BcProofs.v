(** Lemmas for C108. *)
From Coq Require Import ZArith Bool List Reals Lra Lia.
From Verif Require Import LayoutModel LayoutSpec LayoutProofs BcModel BcSpec.
Import ListNotations.
Local Open Scope Z_scope.

Definition at2 (s : state) (e : bool) (c : Z) (p : Z * Z) (k : Z) : R := s e c (fst p) (snd p) k.

Lemma upd_same s e c i j k v : upd s e c i j k v e c i j k = v.
Proof. unfold upd. rewrite Bool.eqb_reflx, !Z.eqb_refl. reflexivity. Qed.
Lemma upd_other s e c i j k v e' c' i' j' k' :
  (e', c', i', j', k') <> (e, c, i, j, k) -> upd s e c i j k v e' c' i' j' k' = s e' c' i' j' k'.
Proof.
  intros H. unfold upd. destruct (_ && _) eqn:E; [|reflexivity].
  rewrite !andb_true_iff, !Z.eqb_eq, Bool.eqb_true_iff in E. destruct E as ((((-> & ->) & ->) & ->) & ->). congruence.
Qed.
Lemma upd_comp s e c i j k v c' : upd s e c i j k v e c' i j k = if c' =? c then v else s e c' i j k.
Proof. unfold upd. rewrite Bool.eqb_reflx, !Z.eqb_refl. destruct (c' =? c); reflexivity. Qed.

(** ** One point *)
Definition writes_only (F : state -> state) (e : bool) (p : Z * Z) (k : Z) : Prop :=
  forall s e' c' i' j' k', (e', i', j', k') <> (e, fst p, snd p, k) -> F s e' c' i' j' k' = s e' c' i' j' k'.
Definition reads_only (F : state -> state) (e : bool) (p q : Z * Z) (k : Z) : Prop :=
  forall s s', (forall c, at2 s e c p k = at2 s' e c p k) -> (forall c, at2 s e c q k = at2 s' e c q k) ->
    forall c, at2 (F s) e c p k = at2 (F s') e c p k.
Lemma slip_writes e p q k : writes_only (fun s => slip s e (fst p) (snd p) (fst q) (snd q) k) e p k.
Proof. intros s e' c' i' j' k' H. unfold slip. rewrite !upd_other by congruence. reflexivity. Qed.
Lemma flux_a_writes GA e p q k : writes_only (fun s => flux_alpha GA s e (fst p) (snd p) (fst q) (snd q) k) e p k.
Proof. intros s e' c' i' j' k' H. unfold flux_alpha. rewrite !upd_other by congruence. reflexivity. Qed.
Lemma flux_b_writes GB e p q k : writes_only (fun s => flux_beta GB s e (fst p) (snd p) (fst q) (snd q) k) e p k.
Proof. intros s e' c' i' j' k' H. unfold flux_beta. rewrite !upd_other by congruence. reflexivity. Qed.
Lemma slip_value s e p q k c : p <> q ->
  at2 (slip s e (fst p) (snd p) (fst q) (snd q) k) e c p k =
  if (c =? 0) || (c =? 1) || (c =? 3) then (- at2 s e c q k)%R else at2 s e c p k.
Proof.
  intros H. unfold at2, slip. rewrite !upd_comp. unfold UIx, VIx, WIx.
  assert ((fst q, snd q) <> (fst p, snd p)) as N by (destruct p, q; cbn; congruence).
  destruct (Z.eqb_spec c 3) as [->|]; cbn [orb].
  { rewrite !upd_other by congruence. reflexivity. }
  destruct (Z.eqb_spec c 1) as [->|]; cbn [orb]; [rewrite !upd_other by congruence; reflexivity|].
  destruct (Z.eqb_spec c 0) as [->|]; cbn [orb]; reflexivity.
Qed.
Lemma slip_reads e p q k : p <> q -> reads_only (fun s => slip s e (fst p) (snd p) (fst q) (snd q) k) e p q k.
Proof. intros N s s' P Q c. cbv beta. rewrite !slip_value by exact N. rewrite P, Q. reflexivity. Qed.
Lemma flux_a_reads GA e p q k : reads_only (fun s => flux_alpha GA s e (fst p) (snd p) (fst q) (snd q) k) e p q k.
Proof.
  intros s s' P Q c. unfold at2 in *. unfold flux_alpha. rewrite !upd_comp, !P, !Q. reflexivity.
Qed.
Lemma flux_b_reads GB e p q k : reads_only (fun s => flux_beta GB s e (fst p) (snd p) (fst q) (snd q) k) e p q k.
Proof.
  intros s s' P Q c. unfold at2 in *. unfold flux_beta. rewrite !upd_comp, !P, !Q. reflexivity.
Qed.

(** ** The loop along a side *)
Section Loop.
Context (F : bool -> Z -> Z -> state -> state) (h n : Z -> Z * Z).
Context (inj : forall t t', h t = h t' -> t = t') (apart : forall t t', h t <> n t').
Context (W : forall e t k, writes_only (F e t k) e (h t) k) (Rd : forall e t k, reads_only (F e t k) e (h t) (n t) k).

Lemma loop_spec act vs : (forall s e t k, act s e t k = BOk (F e t k s)) -> NoDup vs -> forall s,
  exists s', loop act vs s = BOk s' /\
    (forall e t k, In (e, t, k) vs -> forall c, at2 s' e c (h t) k = at2 (F e t k s) e c (h t) k) /\
    (forall e c i j k, ~ (exists t, In (e, t, k) vs /\ (i, j) = h t) -> s' e c i j k = s e c i j k).
Proof.
  intros HA ND. induction ND as [|[[e0 t0] k0] vs NI ND IH]; intros s.
  { exists s. cbn. split; [reflexivity|]. split; [intros ? ? ? []|reflexivity]. }
  cbn [loop]. rewrite HA. destruct (IH (F e0 t0 k0 s)) as (s' & E & P & Q). exists s'. split; [exact E|]. split.
  - intros e t k [[= <- <- <-]|H] c.
    + unfold at2. rewrite Q; [reflexivity|]. intros (t & It & Et).
      assert (h t0 = h t) as X by (rewrite <- Et; destruct (h t0); reflexivity). apply inj in X. subst t. contradiction.
    + rewrite (P e t k H c). apply Rd.
      * intros c'. unfold at2. apply W. intros [= -> A1 A2 ->]. assert (h t = h t0) as X
          by (destruct (h t), (h t0); cbn in *; congruence). apply inj in X. subst t. contradiction.
      * intros c'. unfold at2. apply W. intros [= -> A1 A2 ->]. apply (apart t0 t).
        destruct (h t0), (n t); cbn in *; congruence.
  - intros e c i j k H. rewrite Q.
    + apply W. intros [= -> -> -> ->]. apply H. exists t0. split; [left; reflexivity|]. destruct (h t0); reflexivity.
    + intros (t & It & Et). apply H. exists t. split; [right; exact It|exact Et].
Qed.
End Loop.

(** ** The points visited *)
Lemma nodup_flat_map {X Y} (f : X -> list Y) (l : list X) : NoDup l -> (forall x, In x l -> NoDup (f x)) ->
  (forall x x' y, In x l -> In x' l -> In y (f x) -> In y (f x') -> x = x') -> NoDup (flat_map f l).
Proof.
  intros ND. induction ND as [|x l NI ND IH]; intros H1 H2; [constructor|]. cbn.
  assert (NoDup (f x)) as A by (apply H1; left; reflexivity).
  assert (NoDup (flat_map f l)) as B.
  { apply IH; [intros; apply H1; right; assumption|]. intros; eapply H2; eauto; right; assumption. }
  assert (forall y, In y (f x) -> ~ In y (flat_map f l)) as D.
  { intros y Hy Hf. apply in_flat_map in Hf as (x' & Hx' & Hy'). apply NI.
    rewrite (H2 x x' y); auto; [left|right]; auto. }
  clear -A B D. induction A as [|y l' Ny A IH]; [exact B|]. cbn. constructor.
  - intros H. apply in_app_or in H as [H|H]; [contradiction|]. apply (D y); [left; reflexivity|exact H].
  - apply IH. intros z Hz. apply D. right. exact Hz.
Qed.
Lemma nodup_map_inj {X Y} (f : X -> Y) (l : list X) : (forall x x', f x = f x' -> x = x') -> NoDup l -> NoDup (map f l).
Proof.
  intros I ND. induction ND as [|x l NI ND IH]; [constructor|]. cbn. constructor; [|exact IH].
  intros H. apply in_map_iff in H as (x' & E & Hx). apply I in E. subst. contradiction.
Qed.
Lemma visits_interfaces_nodup w K : NoDup (visits_interfaces w K).
Proof.
  unfold visits_interfaces. apply nodup_flat_map; [apply zseq_nodup| |].
  - intros k _. apply nodup_map_inj; [congruence|apply zseq_nodup].
  - intros k k' y _ _ H H'. apply in_map_iff in H as (t & <- & _). apply in_map_iff in H' as (t' & E & _). congruence.
Qed.
Lemma visits_other_nodup w K : NoDup (visits_other w K).
Proof.
  unfold visits_other. apply nodup_flat_map; [apply zseq_nodup| |].
  - intros t _. pose proof (zseq_nodup K) as A. pose proof (zseq_nodup (K + 1)) as B.
    apply (nodup_map_inj (fun k => (false, t, k))) in A; [|congruence].
    apply (nodup_map_inj (fun k => (true, t, k))) in B; [|congruence].
    assert (forall y, In y (map (fun k => (false, t, k)) (zseq K)) -> ~ In y (map (fun k => (true, t, k)) (zseq (K + 1)))) as D.
    { intros y H H'. apply in_map_iff in H as (k & <- & _). apply in_map_iff in H' as (k' & E & _). congruence. }
    revert A D. generalize (map (fun k => (false, t, k)) (zseq K)). intros l A D.
    induction A as [|y l' Ny A IH]; [exact B|]. cbn. constructor.
    + intros H. apply in_app_or in H as [H|H]; [contradiction|]. apply (D y); [left; reflexivity|exact H].
    + apply IH. intros z Hz. apply D. right. exact Hz.
  - intros t t' y _ _ H H'. apply in_app_or in H, H'. destruct H as [H|H], H' as [H'|H'];
    apply in_map_iff in H as (k & <- & _); apply in_map_iff in H' as (k' & E & _); congruence.
Qed.
Definition visits (ifc : bool) (w K : Z) := if ifc then visits_interfaces w K else visits_other w K.
Lemma visits_in ifc w K e t k : In (e, t, k) (visits ifc w K) <-> 0 <= t < w /\ vertical ifc K e k.
Proof.
  destruct ifc; cbn [visits vertical].
  - unfold visits_interfaces. rewrite in_flat_map. split.
    + intros (k' & Hk & H). apply in_map_iff in H as (t' & [= -> -> ->] & Ht). apply in_zseq in Hk, Ht. auto.
    + intros (Ht & -> & Hk). exists k. split; [apply in_zseq, Hk|]. apply in_map_iff. exists t. split; [reflexivity|apply in_zseq, Ht].
  - unfold visits_other. rewrite in_flat_map. split.
    + intros (t' & Ht & H). apply in_app_or in H as [H|H]; apply in_map_iff in H as (k' & [= <- -> ->] & Hk);
      apply in_zseq in Hk, Ht; split; auto; lia.
    + intros (Ht & Hk). exists t. split; [apply in_zseq, Ht|]. apply in_or_app. destruct e; [right|left];
      apply in_map_iff; exists k; split; [reflexivity|apply in_zseq; lia|reflexivity|apply in_zseq; lia].
Qed.
Lemma visits_nodup ifc w K : NoDup (visits ifc w K).
Proof. destruct ifc; [apply visits_interfaces_nodup|apply visits_other_nodup]. Qed.

Definition visit_dec (x y : bool * Z * Z) : {x = y} + {x <> y}.
Proof. repeat decide equality. Defined.

(** ** One side *)
Section OneSide.
Context (GA GB : bool -> Z -> Z -> Z -> Z -> R) (reg : regular GA GB).
Context (A B : Z).

Definition flux_of (d : Z) := if (d =? 0) || (d =? 2) then flux_alpha GA else flux_beta GB.
Definition point (code d : Z) (e : bool) (t k : Z) (s : state) : state :=
  let p := outermost A B d t in let q := next_inside A B d t in
  if code =? 2 then slip s e (fst p) (snd p) (fst q) (snd q) k
  else flux_of d s e (fst p) (snd p) (fst q) (snd q) k.

Lemma outermost_inj d t t' : outermost A B d t = outermost A B d t' -> t = t'.
Proof. unfold outermost. destruct (d =? 0), (d =? 1), (d =? 2); congruence. Qed.
Lemma outermost_apart d t t' : outermost A B d t <> next_inside A B d t'.
Proof.
  unfold outermost, next_inside.
  destruct (d =? 0); [intros [= H]; lia|]. destruct (d =? 1); [intros [= _ H]; lia|]. destruct (d =? 2); discriminate.
Qed.
Lemma point_writes code d e t k : writes_only (point code d e t k) e (outermost A B d t) k.
Proof.
  unfold point, flux_of. destruct (code =? 2); [apply slip_writes|].
  destruct ((d =? 0) || (d =? 2)); [apply flux_a_writes|apply flux_b_writes].
Qed.
Lemma point_reads code d e t k : reads_only (point code d e t k) e (outermost A B d t) (next_inside A B d t) k.
Proof.
  unfold point, flux_of. destruct (code =? 2); [apply slip_reads, outermost_apart|].
  destruct ((d =? 0) || (d =? 2)); [apply flux_a_reads|apply flux_b_reads].
Qed.
Lemma condition_at2 code d s e t k :
  condition GA GB code A B d s e t k <->
  let p := outermost A B d t in let q := next_inside A B d t in
  (code = 2 -> forall c, c = 0 \/ c = 1 \/ c = 3 -> ((at2 s e c p k + at2 s e c q k) / 2 = 0)%R) /\
  (code = 1 -> (normal_row GA GB d e q k 0%Z * ((at2 s e 0 p k + at2 s e 0 q k) / 2) +
     normal_row GA GB d e q k 1%Z * ((at2 s e 1 p k + at2 s e 1 q k) / 2) +
     normal_row GA GB d e q k 2%Z * ((at2 s e 3 p k + at2 s e 3 q k) / 2) = 0)%R).
Proof.
  unfold condition, no_slip, no_flux, at_wall. cbv zeta. fold (at2 s e 0 (outermost A B d t) k).
  split; intros (X & Y); (split; [|exact Y]); intros E.
  - intros c [->|[->| ->]]; apply X; exact E.
  - repeat split; apply (X E); tauto.
Qed.
Lemma point_condition code d s s' e t k : code = 1 \/ code = 2 ->
  (forall c, at2 s' e c (outermost A B d t) k = at2 (point code d e t k s) e c (outermost A B d t) k) ->
  (forall c, at2 s' e c (next_inside A B d t) k = at2 s e c (next_inside A B d t) k) ->
  condition GA GB code A B d s' e t k.
Proof.
  intros Hc P Q. apply condition_at2. cbv zeta. set (p := outermost A B d t) in *. set (q := next_inside A B d t) in *.
  assert (p <> q) as N by apply outermost_apart.
  destruct Hc as [->| ->].
  - split; [discriminate|]. intros _. rewrite !P, !Q.
    unfold point, normal_row. cbn [Z.eqb Pos.eqb]. fold p q. unfold flux_of.
    destruct ((d =? 0) || (d =? 2)); unfold at2, flux_alpha, flux_beta; rewrite !upd_comp;
      unfold UIx, VIx, WIx; cbn [Z.eqb Pos.eqb];
      destruct (reg e (fst q) (snd q) k) as (ra & rb);
      set (g0 := GA _ _ _ _ 0) in * || set (g0 := GB _ _ _ _ 0) in *;
      set (g1 := GA _ _ _ _ 1) in * || set (g1 := GB _ _ _ _ 1) in *; field; assumption.
  - split; [|discriminate]. intros _ c Hc. rewrite !P, !Q. unfold point. cbn [Z.eqb Pos.eqb]. fold p q.
    rewrite slip_value by exact N. destruct Hc as [->|[->| ->]]; cbn [Z.eqb Pos.eqb orb]; lra.
Qed.
(** Components other than the velocity are left. *)
Lemma point_frame code d s e t k c : c <> 0 -> c <> 1 -> c <> 3 ->
  at2 (point code d e t k s) e c (outermost A B d t) k = at2 s e c (outermost A B d t) k.
Proof.
  intros H0 H1 H3. unfold point, flux_of. destruct (code =? 2).
  - rewrite slip_value by apply outermost_apart. apply Z.eqb_neq in H0, H1, H3. rewrite H0, H1, H3. reflexivity.
  - apply Z.eqb_neq in H0, H1, H3.
    destruct ((d =? 0) || (d =? 2)); unfold at2, flux_alpha, flux_beta; rewrite upd_comp; unfold UIx, VIx;
      rewrite ?H0, ?H1; reflexivity.
Qed.

Lemma side_spec d code acts ifc K w act s : code = 1 \/ code = 2 -> 2 <= w -> acts = true ->
  (forall s e t k, act s e t k = BOk (point code d e t k s)) ->
  exists s', side code acts w act (visits ifc (length_of A B d) K) s = BOk s' /\
    (forall e t k, 0 <= t < length_of A B d -> vertical ifc K e k -> condition GA GB code A B d s' e t k) /\
    (forall e c i j k, (forall t, (i, j) = outermost A B d t -> c <> 0 /\ c <> 1 /\ c <> 3) -> s' e c i j k = s e c i j k).
Proof.
  intros Hc Hw -> HA. unfold side. destruct (Z.eqb_spec code Periodic) as [X|_]; [unfold Periodic in X; lia|].
  destruct (Z.ltb_spec w 2) as [Hlt|Hge]; [lia|]. cbn [negb andb].
  destruct (loop_spec (point code d) (outermost A B d) (next_inside A B d) (outermost_inj d) (outermost_apart d)
    (point_writes code d) (point_reads code d) act (visits ifc (length_of A B d) K) HA (visits_nodup _ _ _) s)
    as (s' & E & P & Q).
  exists s'. split; [exact E|]. split.
  - intros e t k Ht Hk. apply (point_condition code d s); [exact Hc| |].
    + apply P, visits_in. auto.
    + intros c. unfold at2. apply Q. intros (t' & _ & Et'). apply (outermost_apart d t' t).
      rewrite <- Et'. destruct (next_inside A B d t); reflexivity.
  - intros e c i j k H.
    destruct (in_dec visit_dec (e, (if (d =? 0) || (d =? 2) then j else i), k)
                (visits ifc (length_of A B d) K)) as [I|I].
    2:{ apply Q. intros (t & It & Et). apply I. replace (if (d =? 0) || (d =? 2) then j else i) with t; [exact It|].
        revert Et. unfold outermost. destruct (d =? 0); cbn [orb]; [congruence|].
        destruct (Z.eqb_spec d 1) as [->|]; [cbn; congruence|]. destruct (d =? 2); congruence. }
    set (t := if (d =? 0) || (d =? 2) then j else i) in *.
    destruct (Z.eq_dec i (fst (outermost A B d t))) as [Ei|Ni].
    2:{ apply Q. intros (t' & _ & Et). apply Ni. replace t with t'; [rewrite <- Et; reflexivity|].
        revert Et. unfold t, outermost. destruct (d =? 0); cbn [orb]; [congruence|].
        destruct (Z.eqb_spec d 1) as [->|]; [cbn; congruence|]. destruct (d =? 2); congruence. }
    destruct (Z.eq_dec j (snd (outermost A B d t))) as [Ej|Nj].
    2:{ apply Q. intros (t' & _ & Et). apply Nj. replace t with t'; [rewrite <- Et; reflexivity|].
        revert Et. unfold t, outermost. destruct (d =? 0); cbn [orb]; [congruence|].
        destruct (Z.eqb_spec d 1) as [->|]; [cbn; congruence|]. destruct (d =? 2); congruence. }
    destruct (H t) as (H0 & H1 & H3).
    { rewrite Ei, Ej. destruct (outermost A B d t); reflexivity. }
    pose proof (P e t k I c) as X. rewrite point_frame in X by assumption. unfold at2 in X.
    rewrite <- Ei, <- Ej in X. exact X.
Qed.

Lemma side_any d code eff acts ifc K w act s : (code <> 0 -> eff = 1 \/ eff = 2) -> 2 <= w ->
  (code <> 0 -> forall s e t k, act s e t k = BOk (point eff d e t k s)) ->
  exists s', side code acts w act (visits ifc (length_of A B d) K) s = BOk s' /\
    (code <> 0 -> acts = true -> forall e t k, 0 <= t < length_of A B d -> vertical ifc K e k ->
       condition GA GB eff A B d s' e t k) /\
    (forall e c i j k, (code <> 0 -> acts = true -> forall t, (i, j) = outermost A B d t -> c <> 0 /\ c <> 1 /\ c <> 3) ->
       s' e c i j k = s e c i j k).
Proof.
  intros Hc Hw HA. destruct (Z.eq_dec code 0) as [->|N].
  { exists s. split; [reflexivity|]. split; [congruence|]. reflexivity. }
  destruct acts.
  2:{ exists s. unfold side. rewrite andb_false_r. split; [reflexivity|]. split; [congruence|]. reflexivity. }
  destruct (side_spec d eff true ifc K w act s (Hc N) Hw eq_refl (HA N)) as (s' & E & P & Q).
  exists s'. split.
  - rewrite <- E. unfold side. destruct (Z.eqb_spec code Periodic) as [X|_]; [unfold Periodic in X; lia|].
    destruct (Z.eqb_spec eff Periodic) as [X|_]; [unfold Periodic in X; specialize (Hc N); lia|]. reflexivity.
  - split; [intros _ _; exact P|]. intros e c i j k H. apply Q, H; [exact N|reflexivity].
Qed.
Lemma condition_ext code d s s' e t k :
  (forall c, at2 s' e c (outermost A B d t) k = at2 s e c (outermost A B d t) k) ->
  (forall c, at2 s' e c (next_inside A B d t) k = at2 s e c (next_inside A B d t) k) ->
  condition GA GB code A B d s e t k -> condition GA GB code A B d s' e t k.
Proof. intros P Q H. apply condition_at2. apply condition_at2 in H. cbv zeta in *. setoid_rewrite P. setoid_rewrite Q. exact H. Qed.
End OneSide.

(** ** The four sides *)
(** The condition imposed in place of [code]: with everything on interfaces
    the right and top sides exchange the two. *)
Definition effective (ifc : bool) (d code : Z) : Z := if ifc && (d <=? 1) then 3 - code else code.

Section All.
Context (GA GB : bool -> Z -> Z -> Z -> Z -> R) (reg : regular GA GB).
Context (stag np resA resB K : Z) (bc : conds) (b : box).
Let A := a_total b.
Let B := b_total b.
Let ifc := stag =? StagInterfaces.

Lemma hit_point d code s e t k : code = 1 \/ code = 2 ->
  hit (flux_of GA GB d) code s e (fst (outermost A B d t)) (snd (outermost A B d t))
    (fst (next_inside A B d t)) (snd (next_inside A B d t)) k = BOk (point GA GB A B code d e t k s).
Proof. unfold hit, point, NoSlip, NoFlux. intros [->| ->]; reflexivity. Qed.
Lemma hit_neq_point d code s e t k : code = 1 \/ code = 2 ->
  hit_neq (flux_of GA GB d) code s e (fst (outermost A B d t)) (snd (outermost A B d t))
    (fst (next_inside A B d t)) (snd (next_inside A B d t)) k = BOk (point GA GB A B (3 - code) d e t k s).
Proof. unfold hit_neq, point, NoSlip, NoFlux. intros [->| ->]; reflexivity. Qed.

Lemma apply_general s : stag <> 0 -> 3 <= A -> 3 <= B -> (forall d, 0 <= d <= 3 -> 0 <= bc d <= 2) ->
  exists s', apply_bc GA GB stag np resA resB K bc b s = BOk s' /\
    (forall d, 0 <= d <= 3 -> bc d <> 0 -> reaches np resA resB d b ->
       forall e t k, 1 <= t < length_of A B d - 1 -> vertical ifc K e k ->
       condition GA GB (effective ifc d (bc d)) A B d s' e t k) /\
    (forall e c i j k, (on_side np resA resB bc b i j -> c <> 0 /\ c <> 1 /\ c <> 3) -> s' e c i j k = s e c i j k).
Proof.
  intros HS HA HB HC. unfold apply_bc. fold A B. unfold StagLevels. rewrite (proj2 (Z.eqb_neq stag 0) HS).
  fold ifc.
  assert (forall w, (if ifc then visits_interfaces else visits_other) w K = visits ifc w K) as V by (intros w; destruct ifc; reflexivity).
  rewrite !V. clear V.
  assert (forall d, 0 <= d <= 3 -> bc d <> 0 -> effective ifc d (bc d) = 1 \/ effective ifc d (bc d) = 2) as EF.
  { intros d Hd N. specialize (HC d Hd). unfold effective. destruct (_ && _); lia. }
  assert (forall d, 0 <= d <= 3 -> bc d <> 0 -> bc d = 1 \/ bc d = 2) as BC by (intros d Hd N; specialize (HC d Hd); lia).
  set (f0 := fun s e j k => (if ifc then hit_neq else hit) (flux_alpha GA) (bc 0) s e (A - 1) j (A - 2) j k).
  set (f1 := fun s e i k => (if ifc then hit_neq else hit) (flux_beta GB) (bc 1) s e i (B - 1) i (B - 2) k).
  set (f2 := fun s e j k => hit (flux_alpha GA) (bc 2) s e 0 j 1 j k).
  set (f3 := fun s e i k => hit (flux_beta GB) (bc 3) s e i 0 i 1 k).
  cbv zeta.
  destruct (side_any GA GB reg A B 0 (bc 0) (effective ifc 0 (bc 0)) (bA1 b =? np * resA) ifc K A f0 s
    (EF 0 ltac:(lia)) ltac:(lia)) as (s1 & E1 & P1 & Q1).
  { intros N s0 e t k. unfold f0, effective. pose proof (hit_point 0 (bc 0) s0 e t k (BC 0 ltac:(lia) N)) as X.
    pose proof (hit_neq_point 0 (bc 0) s0 e t k (BC 0 ltac:(lia) N)) as Y. destruct ifc; cbn [andb Z.leb Z.compare]; assumption. }
  change (length_of A B 0) with B in E1, P1. rewrite E1. cbn [bind].
  destruct (side_any GA GB reg A B 1 (bc 1) (effective ifc 1 (bc 1)) (bB1 b =? np * resB) ifc K B f1 s1
    (EF 1 ltac:(lia)) ltac:(lia)) as (s2 & E2 & P2 & Q2).
  { intros N s0 e t k. unfold f1, effective. pose proof (hit_point 1 (bc 1) s0 e t k (BC 1 ltac:(lia) N)) as X.
    pose proof (hit_neq_point 1 (bc 1) s0 e t k (BC 1 ltac:(lia) N)) as Y. destruct ifc; cbn [andb Z.leb Z.compare]; assumption. }
  change (length_of A B 1) with A in E2, P2. rewrite E2. cbn [bind].
  destruct (side_any GA GB reg A B 2 (bc 2) (effective ifc 2 (bc 2)) (bA0 b =? 0) ifc K A f2 s2
    (EF 2 ltac:(lia)) ltac:(lia)) as (s3 & E3 & P3 & Q3).
  { intros N s0 e t k. unfold f2, effective. cbn [Z.leb Z.compare Pos.compare Pos.compare_cont]. rewrite andb_false_r.
    exact (hit_point 2 (bc 2) s0 e t k (BC 2 ltac:(lia) N)). }
  change (length_of A B 2) with B in E3, P3. rewrite E3. cbn [bind].
  destruct (side_any GA GB reg A B 3 (bc 3) (effective ifc 3 (bc 3)) (bB0 b =? 0) ifc K B f3 s3
    (EF 3 ltac:(lia)) ltac:(lia)) as (s4 & E4 & P4 & Q4).
  { intros N s0 e t k. unfold f3, effective. cbn [Z.leb Z.compare Pos.compare Pos.compare_cont]. rewrite andb_false_r.
    exact (hit_point 3 (bc 3) s0 e t k (BC 3 ltac:(lia) N)). }
  change (length_of A B 3) with A in E4, P4. rewrite E4. exists s4. split; [reflexivity|].
  split.
  - intros d Hd N HR e t k Ht Hk.
    assert (d = 0 \/ d = 1 \/ d = 2 \/ d = 3) as [->|[->|[->| ->]]] by lia; cbn in HR, Ht.
    + apply Z.eqb_eq in HR. apply (condition_ext GA GB A B _ 0 s1).
      * intros c. unfold at2. cbn. rewrite Q4, Q3, Q2; [reflexivity| | |]; intros _ _ t'; cbn; intros [= X Y]; lia.
      * intros c. unfold at2. cbn. rewrite Q4, Q3, Q2; [reflexivity| | |]; intros _ _ t'; cbn; intros [= X Y]; lia.
      * apply P1; auto; lia.
    + apply Z.eqb_eq in HR. apply (condition_ext GA GB A B _ 1 s2).
      * intros c. unfold at2. cbn. rewrite Q4, Q3; [reflexivity| |]; intros _ _ t'; cbn; intros [= X Y]; lia.
      * intros c. unfold at2. cbn. rewrite Q4, Q3; [reflexivity| |]; intros _ _ t'; cbn; intros [= X Y]; lia.
      * apply P2; auto; lia.
    + apply Z.eqb_eq in HR. apply (condition_ext GA GB A B _ 2 s3).
      * intros c. unfold at2. cbn. rewrite Q4; [reflexivity|]; intros _ _ t'; cbn; intros [= X Y]; lia.
      * intros c. unfold at2. cbn. rewrite Q4; [reflexivity|]; intros _ _ t'; cbn; intros [= X Y]; lia.
      * apply P3; auto; lia.
    + apply Z.eqb_eq in HR. apply P4; auto; lia.
  - intros e c i j k H. rewrite Q4, Q3, Q2, Q1; [reflexivity| | | |]; intros N X t Et; apply Z.eqb_eq in X; apply H.
    + exists 0. split; [lia|]. split; [exact N|]. split; [exact X|]. exists t. exact Et.
    + exists 1. split; [lia|]. split; [exact N|]. split; [exact X|]. exists t. exact Et.
    + exists 2. split; [lia|]. split; [exact N|]. split; [exact X|]. exists t. exact Et.
    + exists 3. split; [lia|]. split; [exact N|]. split; [exact X|]. exists t. exact Et.
Qed.
End All.
