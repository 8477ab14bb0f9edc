(** Theorems for C31 and C57. *)
From Coq Require Import ZArith List Bool Lia Permutation.
From Verif Require Import RestartModel RestartSpec RestartProofs.
Import ListNotations.
Local Open Scope nat_scope.

Section Any.
(** Any grid class: how it derives the numbers of patches and the sizes *)
Context (rows count pdsize : list Z -> nat) (csize : list Z -> list Z -> nat -> nat * nat).

(** C31: the root writes the same file for every number of ranks up to the
    number of patches and every order of arrival, and receives every message. *)
Theorem C31_output n g size sched time b : proper rows count pdsize csize n g ->
  0 < size <= n -> (forall l, Permutation l (sched l)) -> length (bytes b) = 8 * brows b ->
  output rows count true 0 size sched time g b = Ok (image n time g, []).
Proof. apply output_ok. Qed.

(** C31: each rank of any number reads back what was written. *)
Theorem C31_input n g size r time time0 params0 fg fa : proper rows count pdsize csize n g ->
  0 < size -> length time0 = length time -> length params0 = length (params g) ->
  (forall i, i < n -> (length (fg i), length (fa i)) = csize (params g) (pdata g) i) ->
  exists l, input rows count pdsize csize size r time0 params0 fg fa (image n time g) =
    Ok (mkLoaded time (params g) (pdata g) l) /\ restored n size r g l.
Proof.
  intros P S T PL FL. eexists. split; [apply input_ok; eassumption|]. split; [|split].
  - rewrite map_map. cbn. rewrite map_id. apply nodup_active.
  - intros i. rewrite map_map. cbn. rewrite map_id. apply in_active.
  - intros i a c I. apply in_map_iff in I. destruct I as (j&E&_). injection E as <- <- <-. auto.
Qed.

(** C31: written on [size] ranks and read on [size'] ranks. *)
Theorem C31_round_trip n g size sched time b size' r time0 params0 fg fa : proper rows count pdsize csize n g ->
  0 < size <= n -> (forall l, Permutation l (sched l)) -> length (bytes b) = 8 * brows b ->
  0 < size' -> length time0 = length time -> length params0 = length (params g) ->
  (forall i, i < n -> (length (fg i), length (fa i)) = csize (params g) (pdata g) i) ->
  exists f l, output rows count true 0 size sched time g b = Ok (f, []) /\
    input rows count pdsize csize size' r time0 params0 fg fa f = Ok (mkLoaded time (params g) (pdata g) l) /\
    restored n size' r g l.
Proof.
  intros P S SC BL S' T PL FL. destruct (C31_input n g size' r time time0 params0 fg fa P S' T PL FL) as (l&E&R).
  exists (image n time g), l. split; [apply C31_output; assumption|auto].
Qed.

(** C31: with more ranks than patches no file is ever completed. *)
Theorem C31_idle_rank n g size sched time b : proper rows count pdsize csize n g ->
  n < size -> output rows count true 0 size sched time g b = Throw.
Proof.
  intros [P1 P2 P3 P4 P5 P6 P7] Sp. unfold output. cbn [negb Nat.eqb]. rewrite P3, P4. fold (gsz g).
  rewrite sizes_ok; [|lia|intros i I; split; apply fits_true; [exact (proj1 (P7 i I))|exact (proj2 (P7 i I))]].
  cbn [bind]. rewrite locate_ok by lia. cbn [bind].
  assert (E : sends g n size = Throw).
  { unfold sends. replace (size - 1) with ((n - 1) + S (size - n - 1)) by lia. rewrite seq_app, map_app.
    cbn [seq map]. replace (1 + (n - 1)) with n by lia.
    assert (N : active n size n = []).
    { destruct (active n size n) as [|i l] eqn:A; auto. assert (I : In i (active n size n)) by (rewrite A; left; auto).
      apply in_active in I. destruct I as (I1&I2). rewrite Nat.mod_small in I2; lia. }
    rewrite N. cbn [send].
    enough (C : forall l rest, (forall r, In r l -> 1 <= r < n) ->
      collect (map (fun r => send g (active n size r)) l ++ Throw :: rest) = Throw).
    { rewrite C; [reflexivity|]. intros r R. apply in_seq in R. lia. }
    induction l as [|r l IH]; intros rest A; [reflexivity|]. cbn.
    assert (I : In r (active n size r)) by (apply in_active; specialize (A r (or_introl eq_refl)); split; [lia|apply Nat.mod_small; lia]).
    unfold send at 1. destruct (active n size r); [destruct I|]. cbn. rewrite IH by (intros; apply A; right; auto). reflexivity. }
  rewrite E. reflexivity.
Qed.

(** C31: boxes past the initialised ones pass the range check, and the table
    is written past its end.  Here one rank holds one box too many. *)
Theorem C31_uninitialised_refuted n g sched time b :
  rows (params g) = S n -> count (pdata g) = n ->
  (forall i, i < n -> (Z.of_nat (length (geo g i)) < 2 ^ 31 /\ Z.of_nat (length (acs g i)) < 2 ^ 31)%Z) ->
  output rows count true 0 1 sched time g b = Undef.
Proof.
  intros P3 P4 P7. unfold output. cbn [negb Nat.eqb]. rewrite P3, P4. fold (gsz g).
  enough (E : local_sizes n (gsz g) (active (S n) 1 0) = Undef) by (unfold sizes; cbn [seq map collect]; rewrite E; reflexivity).
  replace (active (S n) 1 0) with (seq 0 n ++ [n]).
  2: { rewrite <- (seq_S n 0 : _ = seq 0 n ++ [n]). unfold active. change (fun i => i mod 1 =? 0) with (fun _ : nat => true).
       generalize (seq 0 (S n)). clear. induction l; cbn; f_equal; auto. }
  unfold local_sizes. generalize (repeat (0, 0) n).
  enough (C : forall l t, (forall i, In i l -> i < n) -> fill n (gsz g) (l ++ [n]) t = Undef).
  { intros. apply C. intros i I. apply in_seq in I. lia. }
  induction l as [|i l IH]; intros t A; cbn [app fill].
  - destruct (Nat.ltb_spec n n); [lia|]. destruct (Nat.leb_spec n n); [reflexivity|lia].
  - assert (I : i < n) by (apply A; left; auto). destruct (Nat.ltb_spec n i); [lia|]. destruct (Nat.leb_spec n i); [lia|].
    unfold gsz at 1 2. cbn [fst snd]. rewrite (fits_true _ (proj1 (P7 i I))), (fits_true _ (proj2 (P7 i I))). cbn [andb].
    apply IH. intros; apply A; right; auto.
Qed.

(** C57: a file that does not start with the check word is rejected. *)
Theorem C57_check size r time0 params0 fg fa file : 4 <= length file ->
  firstn 4 file <> le 4 171456 -> (forall x, In x (firstn 4 file) -> (0 <= x < 256)%Z) ->
  input rows count pdsize csize size r time0 params0 fg fa file = Throw.
Proof.
  intros L N B. unfold input. destruct (Nat.ltb_spec (length file) 4); [lia|].
  rewrite sread_full by lia. unfold slice. cbn [skipn]. rewrite app_nil_r.
  destruct file as [|a [|b [|c [|d f]]]]; cbn [length] in L; try lia. cbn [firstn] in *.
  pose proof (B a ltac:(cbn; auto)). pose proof (B b ltac:(cbn; auto)). pose proof (B c ltac:(cbn; auto 6)). pose proof (B d ltac:(cbn; auto 6)).
  enough (E : (signed (of_le [a; b; c; d]) =? check)%Z = false) by (rewrite E; reflexivity).
  apply Z.eqb_neq. intros E. apply N. cbn [of_le] in E. unfold signed, check in E.
  assert (V : le 4 171456 = [192; 157; 2; 0]%Z) by reflexivity. rewrite V.
  destruct (Z.ltb_spec (a + 256 * (b + 256 * (c + 256 * (d + 256 * 0)))) (2 ^ 31)); [|lia].
  assert (a = 192)%Z by lia. assert (b = 157)%Z by lia. assert (c = 2)%Z by lia. assert (d = 0)%Z by lia. congruence.
Qed.

(** C57: a file cut off anywhere after the patch data is accepted. *)
Theorem C57_cut_accepted n g size r time time0 params0 fg fa m : proper rows count pdsize csize n g ->
  0 < size -> length time0 = length time -> length params0 = length (params g) ->
  (forall i, i < n -> (length (fg i), length (fa i)) = csize (params g) (pdata g) i) ->
  4 + length time + length (params g) + length (pdata g) <= m ->
  exists l, input rows count pdsize csize size r time0 params0 fg fa (firstn m (image n time g)) =
    Ok (mkLoaded time (params g) (pdata g) l).
Proof.
  intros [P1 P2 P3 P4 P5 P6 P7] Sp T PL FL M.
  assert (I : exists B, firstn m (image n time g) = le 4 171456 ++ time ++ params g ++ pdata g ++ B).
  { exists (firstn (m - (4 + length time + length (params g) + length (pdata g))) (body g n)).
    rewrite image_eq. unfold check.
    rewrite firstn_app, firstn_all2 by (rewrite !app_length, le_length; lia).
    rewrite !app_length, le_length, <- !app_assoc. do 5 f_equal. lia. }
  destruct I as (B&->). unfold input.
  set (F := le 4 171456 ++ time ++ params g ++ pdata g ++ B).
  destruct (Nat.ltb_spec (length F) 4) as [C|_]; [unfold F in C; rewrite app_length, le_length in C; lia|].
  rewrite (sread_full F 0 4 []) by (unfold F; rewrite app_length, le_length; lia).
  assert (E0 : slice 0 4 F ++ skipn 4 [] = le 4 171456) by (rewrite app_nil_r; apply (slice_app [] (le 4 171456))). rewrite E0.
  rewrite of_le_4 by lia. unfold check. rewrite Z.eqb_refl. cbn [negb].
  change (0 + 4) with (length (le 4 171456)).
  unfold F at 1. rewrite (sread_next (le 4 171456) time _ time0) by auto.
  rewrite (app_assoc (le 4 171456) time).
  rewrite (sread_next (le 4 171456 ++ time) (params g) _ params0) by auto.
  rewrite (app_assoc (le 4 171456 ++ time) (params g)), P5.
  rewrite (sread_zeros ((le 4 171456 ++ time) ++ params g) (pdata g) B).
  cbn [sbad spos sfile]. rewrite P3, P4.
  replace (sizes n n size (csize (params g) (pdata g))) with (@Ok (list (nat * nat)) (map (gsz g) (seq 0 n))).
  2: { symmetry. rewrite sizes_ok; auto.
       - f_equal. apply map_ext_in. intros i I. apply in_seq in I. rewrite P6 by lia. reflexivity.
       - intros i I. rewrite P6 by auto. split; apply fits_true; [exact (proj1 (P7 i I))|exact (proj2 (P7 i I))]. }
  cbn [bind]. rewrite locate_ok by auto. cbn [bind].
  match goal with |- context [read_own n ?t ?l ?p fg fa ?a ?s] =>
    enough (X : forall act s', (forall i, In i act -> i < n) -> exists x, read_own n t l p fg fa act s' = Ok x) end.
  - edestruct X as (x&E); [|rewrite E; eexists; reflexivity]. intros i J. apply in_active in J. tauto.
  - induction act as [|i act IH]; intros s' A; [eexists; reflexivity|]. cbn [read_own].
    assert (J : i < n) by (apply A; left; auto). destruct (Nat.ltb_spec n i); [lia|].
    pose proof (FL i J) as E. rewrite P6 in E by auto. pose proof (f_equal fst E : length (fg i) = length (geo g i)) as E1. pose proof (f_equal snd E : length (fa i) = length (acs g i)) as E2. clear E.
    unfold get at 1. rewrite !entry_ok by auto. cbn [bind]. change (pick 0 (gsz g i)) with (length (geo g i)).
    destruct (Nat.ltb_spec (length (fg i)) (length (geo g i))); [lia|]. cbn [bind].
    unfold get at 1. rewrite !entry_ok by auto. cbn [bind]. change (pick 1 (gsz g i)) with (length (acs g i)).
    destruct (Nat.ltb_spec (length (fa i)) (length (acs g i))); [lia|]. cbn [bind].
    match goal with |- context [read_own n _ _ _ fg fa act ?s] => destruct (IH s) as (x&E) end.
    + intros; apply A; right; auto.
    + rewrite E. eexists. reflexivity.
Qed.
Lemma sread_good s n dst d s' : sread s n dst = (d, s') -> sbad s' = false ->
  sbad s = false /\ spos s + n <= length (sfile s) \/ n = 0 /\ sbad s = false.
Proof.
  unfold sread. destruct (sbad s) eqn:B; [intros E; injection E as <- <-; congruence|]. intros E H.
  destruct (Nat.leb_spec n (length (skipn (spos s) (sfile s)))) as [Q|Q]; injection E as <- <-; cbn [sbad] in H; [|discriminate].
  rewrite skipn_length in Q. destruct n; [right; auto|left; split; [reflexivity|lia]].
Qed.
Lemma sread_sound s n dst d s' : sread s n dst = (d, s') -> sbad s' = false -> spos s <= length (sfile s) ->
  sbad s = false /\ spos s + n <= length (sfile s) /\ d = firstn n (skipn (spos s) (sfile s)) ++ skipn n dst /\ s' = mkStream (sfile s) (spos s + n) false.
Proof.
  intros E H P. destruct (sread_good _ _ _ _ _ E H) as [(B & Q)|(-> & B)].
  - unfold sread in E. rewrite B in E. destruct (Nat.leb_spec n (length (skipn (spos s) (sfile s)))) as [_|Z]; [|rewrite skipn_length in Z; lia].
    injection E as <- <-. auto.
  - unfold sread in E. rewrite B in E. cbn [Nat.leb] in E. injection E as <- <-. repeat split; auto; lia.
Qed.
(** C57: whatever is accepted, the check word was right and the time, the
    parameters and the patch data are bytes of the file at their places. *)
Theorem C57_header size r time0 params0 fg fa file L :
  input rows count pdsize csize size r time0 params0 fg fa file = Ok L ->
  let t := length time0 in let p := length params0 in let d := pdsize (lparams L) in
  4 + t + p + d <= length file /\
  ltime L = firstn t (skipn 4 file) /\ lparams L = firstn p (skipn (4 + t) file) /\ lpdata L = firstn d (skipn (4 + t + p) file) /\
  signed (of_le (firstn 4 file)) = 171456%Z.
Proof.
  intros H t p d. unfold input in H. destruct (Nat.ltb_spec (length file) 4) as [|L4]; [discriminate|].
  destruct (sread _ 4 []) as (chk, s1) eqn:E1. destruct (negb _) eqn:CK; [discriminate|]. apply Bool.negb_false_iff, Z.eqb_eq in CK.
  destruct (sread s1 _ time0) as (ti, s2) eqn:E2. destruct (sread s2 _ params0) as (ps, s3) eqn:E3. destruct (sread s3 _ _) as (pd, s4) eqn:E4.
  destruct (sizes _ _ _ _) as [tab| | |]; cbn [bind] in H; try discriminate.
  destruct (locate tab) as [loc| | |]; cbn [bind] in H; try discriminate.
  destruct (sbad s4) eqn:B4; [discriminate|].
  destruct (read_own _ _ _ _ _ _ _ _) as [l| | |]; cbn [bind] in H; try discriminate. injection H as <-. cbn [lparams ltime lpdata] in *.
  assert (B3 : sbad s3 = false) by (destruct (sread_good _ _ _ _ _ E4 B4) as [(Q & _)|(_ & Q)]; exact Q).
  assert (B2 : sbad s2 = false) by (destruct (sread_good _ _ _ _ _ E3 B3) as [(Q & _)|(_ & Q)]; exact Q).
  assert (B1 : sbad s1 = false) by (destruct (sread_good _ _ _ _ _ E2 B2) as [(Q & _)|(_ & Q)]; exact Q).
  destruct (sread_sound _ _ _ _ _ E1 B1 ltac:(cbn; lia)) as (_ & P1 & D1 & ->). cbn [spos sfile skipn] in *.
  destruct (sread_sound _ _ _ _ _ E2 B2 ltac:(cbn [spos sfile]; lia)) as (_ & P2 & D2 & ->). cbn [spos sfile] in *.
  destruct (sread_sound _ _ _ _ _ E3 B3 ltac:(cbn [spos sfile]; lia)) as (_ & P3 & D3 & ->). cbn [spos sfile] in *.
  destruct (sread_sound _ _ _ _ _ E4 B4 ltac:(cbn [spos sfile]; lia)) as (_ & P4 & D4 & ->). cbn [spos sfile] in *.
  rewrite skipn_all, app_nil_r in D2, D3. rewrite (skipn_all2 (n := pdsize _) (repeat 0%Z _)), app_nil_r in D4 by (rewrite repeat_length; lia).
  rewrite app_nil_r in D1. subst chk. unfold d. repeat split; try assumption.
Qed.
(** C57: a file cut off before the end of the patch data is not accepted. *)
Theorem C57_header_cut n g size r time time0 params0 fg fa m L : proper rows count pdsize csize n g ->
  length time0 = length time -> length params0 = length (params g) ->
  m < 4 + length time + length (params g) + length (pdata g) ->
  input rows count pdsize csize size r time0 params0 fg fa (firstn m (image n time g)) <> Ok L.
Proof.
  intros P T PL M H. destruct (C57_header _ _ _ _ _ _ _ _ H) as (C1 & _ & C3 & _ & _).
  rewrite T, PL in *.
  assert (LM : length (firstn m (image n time g)) <= m) by (rewrite firstn_length; lia).
  assert (Q : lparams L = params g).
  { rewrite C3. unfold image. rewrite firstn_skipn_comm, firstn_firstn.
    replace (Nat.min (4 + length time + length (params g)) m) with (4 + length time + length (params g)) by lia.
    rewrite <- firstn_skipn_comm. rewrite app_assoc.
    replace (4 + length time) with (length (le 4 171456 ++ time) + 0) by (rewrite app_length, le_length; lia).
    rewrite skipn_app, skipn_all2 by lia. cbn [app].
    replace (length (le 4 171456 ++ time) + 0 - length (le 4 171456 ++ time)) with 0 by lia. cbn [skipn].
    rewrite firstn_app, Nat.sub_diag, firstn_all. cbn. apply app_nil_r. }
  rewrite Q, (p_pdata _ _ _ _ _ _ P) in C1. lia.
Qed.
End Any.

(** A grid of three patches: the numbers of rows and of initialised boxes are
    the first bytes of the two containers, each patch has two payload bytes. *)
Definition ex_rows (p : list Z) : nat := Z.to_nat (hd 0%Z p).
Definition ex_pdsize (p : list Z) : nat := 2.
Definition ex_csize (p d : list Z) (i : nat) : nat * nat := (9, 9 + i).
Definition ex_grid : grid := mkGrid [3; 7]%Z [3; 5]%Z (fun i => [Z.of_nat i + 40]%Z) (fun i => repeat (Z.of_nat i + 60)%Z (1 + i)).
Example C31_case : proper ex_rows ex_rows ex_pdsize ex_csize 3 ex_grid /\
  output ex_rows ex_rows true 0 2 (@rev message) [1; 2]%Z ex_grid (mkBuffer 0 []) = Ok (image 3 [1; 2]%Z ex_grid, []) /\
  output ex_rows ex_rows true 0 4 (@rev message) [1; 2]%Z ex_grid (mkBuffer 0 []) = Throw.
Proof.
  split; [|split; vm_compute; reflexivity].
  constructor; try reflexivity; try lia; intros i I; destruct i as [|[|[|i]]]; try lia; cbn; auto; split; lia.
Qed.

(** C57: a rank that reads a file which lost its last byte gets a
    state that was never written, and no error. *)
Theorem C57_truncated_refuted : exists rows count pdsize csize n g time fg fa l i a c,
  proper rows count pdsize csize n g /\
  (forall i, i < n -> (length (fg i), length (fa i)) = csize (params g) (pdata g) i) /\
  input rows count pdsize csize 1 0 time (params g) fg fa (firstn (length (image n time g) - 1) (image n time g)) =
    Ok (mkLoaded time (params g) (pdata g) l) /\
  In (i, a, c) l /\ c <> acs g i.
Proof.
  exists ex_rows, ex_rows, ex_pdsize, ex_csize, 3, ex_grid, [1; 2]%Z, (fun _ => repeat 0%Z 9), (fun i => repeat 0%Z (9 + i)).
  eexists _, 2, _, _. split; [apply C31_case|]. split; [|split; [vm_compute; reflexivity|split]].
  - intros i I. destruct i as [|[|[|i]]]; try lia; reflexivity.
  - right; right; left; reflexivity.
  - vm_compute. congruence.
Qed.
(** the three-patch file cut within its patch data *)
Example C57_header_case : input ex_rows ex_rows ex_pdsize ex_csize 1 0 [1; 2]%Z [3; 7]%Z (fun _ => repeat 0%Z 9) (fun i => repeat 0%Z (9 + i)) (firstn 9 (image 3 [1; 2]%Z ex_grid)) = Throw.
Proof. vm_compute. reflexivity. Qed.
Example C57_case : firstn 4 (image 3 [1; 2]%Z ex_grid) = le 4 171456 /\
  input ex_rows ex_rows ex_pdsize ex_csize 1 0 [1; 2]%Z [3; 7]%Z (fun _ => repeat 0%Z 9) (fun i => repeat 0%Z (9 + i)) [1; 2; 3; 4; 5]%Z = Throw.
Proof. split; vm_compute; reflexivity. Qed.

Print Assumptions C31_output. Print Assumptions C31_input. Print Assumptions C31_round_trip.
Print Assumptions C31_idle_rank. Print Assumptions C31_uninitialised_refuted.
Print Assumptions C57_check. Print Assumptions C57_header. Print Assumptions C57_header_cut. Print Assumptions C57_cut_accepted. Print Assumptions C57_truncated_refuted.
