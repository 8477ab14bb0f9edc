(** Lemmas for C31 and C57. *)
From Coq Require Import ZArith List Bool Lia Permutation.
From Verif Require Import RestartModel RestartSpec.
Import ListNotations.
Local Open Scope nat_scope.

(** * Stored integers *)
Lemma le_length k z : length (le k z) = k.
Proof. revert z; induction k; cbn; intros; auto. Qed.
Lemma of_le_le k z : of_le (le k z) = (z mod 256 ^ Z.of_nat k)%Z.
Proof.
  revert z; induction k; intros; [cbn; rewrite Z.mod_1_r; reflexivity|].
  cbn [le of_le]. rewrite IHk, Nat2Z.inj_succ, Z.pow_succ_r by lia.
  rewrite Z.rem_mul_r by lia. reflexivity.
Qed.
Lemma of_le_4 z : (0 <= z < 2 ^ 31)%Z -> signed (of_le (le 4 z)) = z.
Proof.
  intros. rewrite of_le_le. change (256 ^ Z.of_nat 4)%Z with (2 ^ 32)%Z.
  rewrite Z.mod_small by lia. unfold signed. destruct (Z.ltb_spec z (2 ^ 31)); lia.
Qed.
Lemma firstn_le z l : firstn 4 (le 8 z ++ l) = le 4 z.
Proof. reflexivity. Qed.
Lemma read_int_le z l : (0 <= z < 2 ^ 31)%Z -> read_int (le 8 z ++ l) = Some z.
Proof.
  intros. unfold read_int. rewrite app_length, le_length.
  destruct (Nat.ltb_spec (8 + length l) 4); [lia|]. rewrite firstn_le, of_le_4; auto.
Qed.

(** * Tables as maps over the patches *)
Lemma nth_seq_map {A} (h : nat -> A) n i : i < n -> nth_error (map h (seq 0 n)) i = Some (h i).
Proof. intros. rewrite nth_error_map, (nth_error_nth' _ 0) by (rewrite seq_length; lia). rewrite seq_nth by lia. reflexivity. Qed.
Lemma nth_seq_none {A} (h : nat -> A) n i : n <= i -> nth_error (map h (seq 0 n)) i = None.
Proof. intros. apply nth_error_None. rewrite map_length, seq_length. lia. Qed.

Lemma nth_error_set {A} n (v : A) t i : n < length t ->
  nth_error (set n v t) i = if i =? n then Some v else nth_error t i.
Proof.
  intros. unfold set. destruct (Nat.eqb_spec i n).
  - subst. rewrite nth_error_app2; rewrite firstn_length_le by lia; [|lia]. rewrite Nat.sub_diag. reflexivity.
  - destruct (Nat.lt_ge_cases i n).
    + rewrite nth_error_app1 by (rewrite firstn_length_le; lia).
      rewrite <- (firstn_skipn n t) at 2. rewrite nth_error_app1 by (rewrite firstn_length_le; lia). reflexivity.
    + rewrite nth_error_app2; rewrite firstn_length_le by lia; [|lia].
      destruct (i - n) as [|m] eqn:E; [lia|]. cbn.
      rewrite <- (firstn_skipn (S n) t) at 2. rewrite nth_error_app2; rewrite firstn_length_le by lia; [|lia].
      f_equal. lia.
Qed.
Lemma ext_error {A} (l l' : list A) : (forall i, nth_error l i = nth_error l' i) -> l = l'.
Proof.
  revert l'; induction l; intros l' E.
  - destruct l'; auto. specialize (E 0). discriminate.
  - destruct l'; [specialize (E 0); discriminate|]. pose proof (E 0) as E0. cbn in E0. injection E0 as ->.
    f_equal. apply IHl. intros i. apply (E (S i)).
Qed.
Lemma set_map {A} (h : nat -> A) n i v : i < n ->
  set i v (map h (seq 0 n)) = map (fun j => if j =? i then v else h j) (seq 0 n).
Proof.
  intros. apply ext_error. intros j. rewrite nth_error_set by (rewrite map_length, seq_length; lia).
  destruct (Nat.lt_ge_cases j n).
  - rewrite !nth_seq_map by lia. destruct (j =? i); reflexivity.
  - rewrite !nth_seq_none by lia. destruct (Nat.eqb_spec j i); [lia|reflexivity].
Qed.

Lemma fits_true n : (Z.of_nat n < 2 ^ 31)%Z -> fits n = true.
Proof. intros. unfold fits. apply Z.ltb_lt. auto. Qed.

Lemma fill_map n sz act h : (forall i, In i act -> i < n /\ fits (fst (sz i)) = true /\ fits (snd (sz i)) = true) ->
  fill n sz act (map h (seq 0 n)) = Ok (map (fun j => if existsb (Nat.eqb j) act then sz j else h j) (seq 0 n)).
Proof.
  revert h; induction act as [|i act IH]; intros h A; [reflexivity|].
  destruct (A i) as (I&F1&F2); [left; auto|]. cbn [fill].
  destruct (Nat.ltb_spec n i); [lia|]. destruct (Nat.leb_spec n i); [lia|].
  rewrite F1, F2. cbn [andb]. rewrite set_map by lia. rewrite IH by (intros; apply A; right; auto).
  f_equal. apply map_ext. intros j. cbn. destruct (Nat.eqb_spec j i); cbn; [|reflexivity].
  subst. destruct (existsb _ act); reflexivity.
Qed.
Lemma repeat_map {A} (v : A) n s : repeat v n = map (fun _ => v) (seq s n).
Proof. revert s; induction n; intros; cbn; f_equal; auto. Qed.

Lemma in_active rows size r i : In i (active rows size r) <-> i < rows /\ i mod size = r.
Proof. unfold active. rewrite filter_In, in_seq, Nat.eqb_eq. intuition lia. Qed.
Lemma nodup_active rows size r : NoDup (active rows size r).
Proof. apply NoDup_filter, seq_NoDup. Qed.
Lemma existsb_active rows size r i : i < rows -> existsb (Nat.eqb i) (active rows size r) = (i mod size =? r).
Proof.
  intros. apply eq_true_iff_eq. rewrite existsb_exists, Nat.eqb_eq. split.
  - intros (j&J&E). apply Nat.eqb_eq in E. subst. apply in_active in J. tauto.
  - intros. exists i. rewrite Nat.eqb_refl, in_active. auto.
Qed.

Definition pmax (p q : nat * nat) : nat * nat := (Nat.max (fst p) (fst q), Nat.max (snd p) (snd q)).
Lemma max2_map f g (l : list nat) : max2 (map f l) (map g l) = map (fun j => pmax (f j) (g j)) l.
Proof. induction l; cbn; f_equal; auto. Qed.
Lemma fold_max2 (F : nat -> nat -> nat * nat) rs n h :
  fold_left max2 (map (fun r => map (F r) (seq 0 n)) rs) (map h (seq 0 n)) =
  map (fun j => fold_left pmax (map (fun r => F r j) rs) (h j)) (seq 0 n).
Proof. revert h; induction rs; intros; cbn; [reflexivity|]. rewrite max2_map, IHrs. reflexivity. Qed.
Lemma fold_pmax m v rs x :
  fold_left pmax (map (fun r => if m =? r then v else (0, 0)) rs) x = if existsb (Nat.eqb m) rs then pmax x v else x.
Proof.
  revert x; induction rs as [|r rs IH]; intros; cbn; [reflexivity|]. rewrite IH.
  destruct (m =? r); cbn; destruct (existsb (Nat.eqb m) rs); destruct x, v; unfold pmax; cbn; f_equal; lia.
Qed.
Lemma collect_ok {A B} (h : A -> out B) k l : (forall a, In a l -> h a = Ok (k a)) -> collect (map h l) = Ok (map k l).
Proof.
  induction l; intros E; [reflexivity|]. cbn. rewrite E by (left; auto). cbn.
  rewrite IHl by (intros; apply E; right; auto). reflexivity.
Qed.

Lemma sizes_ok n size sz : 0 < size ->
  (forall i, i < n -> fits (fst (sz i)) = true /\ fits (snd (sz i)) = true) ->
  sizes n n size sz = Ok (map sz (seq 0 n)).
Proof.
  intros Sp F. unfold sizes.
  rewrite (collect_ok _ (fun r => map (fun j => if j mod size =? r then sz j else (0, 0)) (seq 0 n))).
  - cbn. destruct size as [|size]; [lia|]. cbn [seq map reduce]. rewrite <- seq_shift, map_map.
    rewrite (fold_max2 (fun r j => if j mod (S size) =? S r then sz j else (0, 0))).
    f_equal. apply map_ext_in. intros j J. apply in_seq in J.
    rewrite (map_ext _ (fun r => if pred (j mod S size) =? r then (if j mod S size =? 0 then (0, 0) else sz j) else (0, 0))).
    + rewrite fold_pmax. pose proof (Nat.mod_upper_bound j (S size) ltac:(lia)).
      destruct (Nat.eqb_spec (j mod S size) 0).
      * destruct (existsb _ _); destruct (sz j); unfold pmax; cbn; f_equal; lia.
      * rewrite (proj2 (existsb_exists _ _)).
        -- destruct (sz j); unfold pmax; cbn; f_equal; lia.
        -- exists (pred (j mod S size)). split; [apply in_seq; lia|apply Nat.eqb_refl].
    + intros r. destruct (Nat.eqb_spec (j mod S size) (S r)), (Nat.eqb_spec (pred (j mod S size)) r),
        (Nat.eqb_spec (j mod S size) 0); try reflexivity; lia.
  - intros r R. unfold local_sizes. rewrite (repeat_map _ n 0), fill_map.
    + f_equal. apply map_ext_in. intros j J. apply in_seq in J. rewrite existsb_active by lia. reflexivity.
    + intros i I. apply in_active in I. split; [tauto|]. apply F. tauto.
Qed.

(** * Places in the file *)
Fixpoint off (sz : nat -> nat * nat) (i : nat) : nat :=
  match i with O => 0 | S i' => off sz i' + fst (sz i') + snd (sz i') end.
Definition place (sz : nat -> nat * nat) (i : nat) : nat * nat := (off sz i, off sz i + fst (sz i)).
Lemma locate_rest_ok sz m i : locate_rest (place sz i) (sz i) (map sz (seq (S i) m)) = map (place sz) (seq i (S m)).
Proof.
  revert i; induction m; intros; [reflexivity|]. cbn [seq map locate_rest].
  f_equal. change (snd (place sz i)) with (off sz i + fst (sz i)).
  replace (off sz i + fst (sz i) + snd (sz i)) with (off sz (S i)) by reflexivity.
  change (off sz (S i), off sz (S i) + fst (sz (S i))) with (place sz (S i)). apply IHm.
Qed.
Lemma locate_ok sz n : 0 < n -> locate (map sz (seq 0 n)) = Ok (map (place sz) (seq 0 n)).
Proof. intros. destruct n; [lia|]. cbn [seq map locate]. f_equal. apply (locate_rest_ok sz n 0). Qed.

Lemma off_mono sz i j : i <= j -> off sz i <= off sz j.
Proof. induction 1; cbn; lia. Qed.

Lemma entry_ok h n i k : i < n -> entry (map h (seq 0 n)) i k = Ok (pick k (h i)).
Proof. intros. unfold entry. rewrite nth_seq_map by lia. reflexivity. Qed.
Lemma take_all bs l : take (length bs) (bs ++ l) = Ok bs.
Proof.
  unfold take. rewrite app_length. destruct (Nat.leb_spec (length bs) (length bs + length l)); [|lia].
  rewrite firstn_app, Nat.sub_diag, firstn_all, app_nil_r. reflexivity.
Qed.

(** * Slices of a file *)
Definition slice (a n : nat) (f : list Z) : list Z := firstn n (skipn a f).
Lemma nth_error_firstn' {A} (l : list A) n i : nth_error (firstn n l) i = if i <? n then nth_error l i else None.
Proof.
  revert l i; induction n; intros; [destruct i; reflexivity|].
  destruct l; [destruct i; cbn [firstn nth_error]; match goal with |- context [if ?c then _ else _] => destruct c end; reflexivity|].
  destruct i; [reflexivity|]. cbn [firstn nth_error]. rewrite IHn. reflexivity.
Qed.
Lemma nth_error_skipn' {A} (l : list A) n i : nth_error (skipn n l) i = nth_error l (n + i).
Proof. revert l; induction n; intros; [reflexivity|]. destruct l; [destruct i; reflexivity|]. apply IHn. Qed.
Lemma nth_slice a n f i : nth_error (slice a n f) i = if i <? n then nth_error f (a + i) else None.
Proof. unfold slice. rewrite nth_error_firstn', nth_error_skipn'. reflexivity. Qed.

Lemma write_length f pos bs : bs <> [] -> length (write_at f pos bs) = Nat.max (length f) (pos + length bs).
Proof.
  intros. destruct bs as [|b bs]; [congruence|]. unfold write_at.
  rewrite !app_length, firstn_length, repeat_length, skipn_length. lia.
Qed.
Lemma nth_write f pos bs i : bs <> [] ->
  nth_error (write_at f pos bs) i =
  if i <? pos then (if i <? length f then nth_error f i else Some 0%Z)
  else if i <? pos + length bs then nth_error bs (i - pos) else nth_error f i.
Proof.
  intros. destruct bs as [|b bs]; [congruence|]. unfold write_at. set (l := b :: bs).
  destruct (Nat.ltb_spec i pos).
  - destruct (Nat.ltb_spec i (length f)).
    + rewrite nth_error_app1 by (rewrite firstn_length; lia). rewrite nth_error_firstn'.
      destruct (Nat.ltb_spec i pos); [reflexivity|lia].
    + rewrite nth_error_app2 by (rewrite firstn_length; lia). rewrite firstn_length.
      rewrite nth_error_app1 by (rewrite repeat_length; lia). apply nth_error_repeat. lia.
  - rewrite nth_error_app2 by (rewrite firstn_length; lia). rewrite firstn_length.
    rewrite nth_error_app2 by (rewrite repeat_length; lia). rewrite repeat_length.
    destruct (Nat.ltb_spec i (pos + length l)).
    + rewrite nth_error_app1 by lia. f_equal. lia.
    + rewrite nth_error_app2 by lia. rewrite nth_error_skipn'. f_equal. lia.
Qed.
Lemma slice_same f pos bs : bs <> [] -> slice pos (length bs) (write_at f pos bs) = bs.
Proof.
  intros. apply ext_error. intros i. rewrite nth_slice, nth_write by auto.
  destruct (Nat.ltb_spec i (length bs)).
  - destruct (Nat.ltb_spec (pos + i) pos); [lia|]. destruct (Nat.ltb_spec (pos + i) (pos + length bs)); [|lia]. f_equal. lia.
  - symmetry. apply nth_error_None. auto.
Qed.
Lemma slice_other f pos bs a n : bs <> [] -> a + n <= length f -> (a + n <= pos \/ pos + length bs <= a) ->
  slice a n (write_at f pos bs) = slice a n f.
Proof.
  intros B L D. apply ext_error. intros i. rewrite !nth_slice, nth_write by auto.
  destruct (Nat.ltb_spec i n); [|reflexivity].
  destruct (Nat.ltb_spec (a + i) pos).
  - destruct (Nat.ltb_spec (a + i) (length f)); [reflexivity|lia].
  - destruct (Nat.ltb_spec (a + i) (pos + length bs)); [lia|reflexivity].
Qed.
Lemma firstn_add {A} (l : list A) a b : firstn (a + b) l = firstn a l ++ firstn b (skipn a l).
Proof. revert l; induction a; intros; [reflexivity|]. destruct l; [cbn; destruct b; reflexivity|]. cbn. f_equal. apply IHa. Qed.

(** * The file while it is being written *)
Section File.
Context (g : grid) (n : nat) (hd : list Z).
Definition gsz (i : nat) : nat * nat := (length (geo g i), length (acs g i)).
Definition piece (i k : nat) : list Z := match k with O => geo g i | _ => acs g i end.
Definition at_ (i k : nat) : nat := length hd + pick k (place gsz i).
Definition holds (D : list (nat * nat)) (f : list Z) : Prop :=
  firstn (length hd) f = hd /\ length f <= length hd + off gsz n /\
  forall i k, In (i, k) D -> at_ i k + length (piece i k) <= length f /\ slice (at_ i k) (length (piece i k)) f = piece i k.

Lemma piece_some i k : piece i k <> [].
Proof. destruct k; cbn; unfold geo, acs; cbn; congruence. Qed.
Lemma piece_length i k : k < 2 -> length (piece i k) = pick k (gsz i).
Proof. destruct k as [|[|k]]; intros; [reflexivity|reflexivity|lia]. Qed.

Lemma hd_in D f : holds D f -> length hd <= length f.
Proof. intros (H&_&_). apply (f_equal (@length Z)) in H. rewrite firstn_length in H. lia. Qed.

Lemma at_end i k : i < n -> k < 2 -> at_ i k + length (piece i k) <= length hd + off gsz n.
Proof.
  intros. rewrite piece_length by auto. pose proof (off_mono gsz (S i) n ltac:(lia)) as M. cbn in M.
  unfold at_, place. destruct k as [|[|k]]; cbn; lia.
Qed.
Lemma at_disjoint i k i' k' : k < 2 -> k' < 2 -> (i, k) <> (i', k') ->
  at_ i k + length (piece i k) <= at_ i' k' \/ at_ i' k' + length (piece i' k') <= at_ i k.
Proof.
  intros K K' E. rewrite !piece_length by auto. unfold at_, place.
  destruct (Nat.lt_total i i') as [H|[H|H]].
  - pose proof (off_mono gsz (S i) i' ltac:(lia)) as M. cbn in M. left. destruct k as [|[|]], k' as [|[|]]; cbn; lia.
  - subst. destruct k as [|[|]], k' as [|[|]]; cbn; try lia; congruence.
  - pose proof (off_mono gsz (S i') i ltac:(lia)) as M. cbn in M. right. destruct k as [|[|]], k' as [|[|]]; cbn; lia.
Qed.

Lemma holds_write D f i k : i < n -> k < 2 -> (forall p, In p D -> snd p < 2) -> holds D f ->
  holds ((i, k) :: D) (write_at f (at_ i k) (piece i k)).
Proof.
  intros I K KD H. pose proof (hd_in _ _ H) as HL. destruct H as (H1&H2&H3).
  pose proof (piece_some i k) as PS. split; [|split].
  - rewrite <- H1 at 2. change (firstn (length hd) (write_at f (at_ i k) (piece i k))) with (slice 0 (length hd) (write_at f (at_ i k) (piece i k))).
    rewrite slice_other; [reflexivity|auto|lia|left; unfold at_; lia].
  - rewrite write_length by auto. pose proof (at_end i k I K). lia.
  - intros i' k' [E|J].
    + injection E as <- <-. split; [rewrite write_length by auto; lia|apply slice_same; auto].
    + destruct (H3 _ _ J) as (L&SL). split; [rewrite write_length by auto; lia|].
      destruct (Nat.eq_dec i i') as [Ei|Ei]; [destruct (Nat.eq_dec k k') as [Ek|Ek]|].
      * subst. apply slice_same; auto.
      * rewrite slice_other; auto. pose proof (KD _ J). cbn in *.
        destruct (at_disjoint i k i' k'); auto; try congruence; lia.
      * rewrite slice_other; auto. pose proof (KD _ J). cbn in *.
        destruct (at_disjoint i k i' k'); auto; try congruence; lia.
Qed.

Definition body (m : nat) : list Z := concat (map (fun i => geo g i ++ acs g i) (seq 0 m)).
Lemma body_S m : body (S m) = body m ++ geo g m ++ acs g m.
Proof. unfold body. rewrite seq_S, map_app, concat_app. cbn. rewrite app_nil_r. reflexivity. Qed.
Lemma body_length m : length (body m) = off gsz m.
Proof. induction m; [reflexivity|]. rewrite body_S, !app_length, IHm. cbn. lia. Qed.
Lemma holds_all D f : holds D f -> (forall i k, i < n -> k < 2 -> In (i, k) D) -> f = hd ++ body n.
Proof.
  intros (H1&H2&H3) A.
  assert (E : forall m, m <= n -> firstn (length hd + off gsz m) f = hd ++ body m).
  { induction m; intros M; [cbn; rewrite Nat.add_0_r, app_nil_r; auto|].
    rewrite body_S. cbn [off]. rewrite <- Nat.add_assoc, !Nat.add_assoc.
    rewrite firstn_add, firstn_add, IHm by lia. rewrite <- !app_assoc. do 2 f_equal. f_equal.
    - destruct (H3 m 0) as (_&E); [apply A; lia|]. exact E.
    - destruct (H3 m 1) as (_&E); [apply A; lia|]. etransitivity; [|exact E].
      unfold slice, at_, place. cbn [pick snd piece]. rewrite Nat.add_assoc. reflexivity. }
  rewrite <- (E n) by lia. symmetry. apply firstn_all2. auto.
Qed.

Context (tab loc : list (nat * nat)) (Htab : tab = map gsz (seq 0 n)) (Hloc : loc = map (place gsz) (seq 0 n)).
Lemma put_ok i k l f : i < n -> k < 2 ->
  put tab loc (length hd) i k (piece i k ++ l) f = Ok (write_at f (at_ i k) (piece i k)).
Proof.
  intros. unfold put. rewrite Htab, Hloc, !entry_ok by auto. cbn [bind].
  rewrite <- piece_length, take_all by auto. reflexivity.
Qed.

Definition both (i : nat) : list (nat * nat) := [(i, 1); (i, 0)].
Lemma write_own_ok act f D : (forall i, In i act -> i < n) -> (forall p, In p D -> snd p < 2) -> holds D f ->
  exists f', write_own n tab loc (length hd) g act f = Ok f' /\
    exists D', holds D' f' /\ (forall p, In p D' -> snd p < 2) /\
    (forall p, In p D -> In p D') /\ forall i k, In i act -> k < 2 -> In (i, k) D'.
Proof.
  revert f D; induction act as [|i act IH]; intros f D A KD H; cbn [write_own].
  - exists f. split; auto. exists D. split; [exact H|split; [exact KD|split; [auto|intros i k []]]].
  - assert (I : i < n) by (apply A; left; auto).
    destruct (Nat.ltb_spec n i); [lia|].
    pose proof (put_ok i 0 [] f I ltac:(lia)) as P0. rewrite app_nil_r in P0. change (piece i 0) with (geo g i) in P0 at 1. rewrite P0. cbn [bind].
    pose proof (put_ok i 1 [] (write_at f (at_ i 0) (piece i 0)) I ltac:(lia)) as P1. rewrite app_nil_r in P1. change (piece i 1) with (acs g i) in P1 at 1. rewrite P1. cbn [bind].
    destruct (IH (write_at (write_at f (at_ i 0) (piece i 0)) (at_ i 1) (piece i 1)) ((i, 1) :: (i, 0) :: D)) as (f'&E&D'&HD&K'&Q1&Q2).
    + intros; apply A; right; auto.
    + intros p [P|[P|P]]; [subst; cbn; lia..|auto].
    + apply holds_write; auto; [intros p [P|P]; [subst; cbn; lia|auto]|]. apply holds_write; auto.
    + exists f'. split; [exact E|]. exists D'. split; [exact HD|split;[exact K'|split]].
      * intros p P. apply Q1. right; right; auto.
      * intros j k [J|J] K; [|apply Q2; auto]. subst j. apply Q1.
        destruct k as [|[|]]; [right; left; auto|left; auto|lia].
Qed.

Definition genuine (m : message) : Prop := exists i k, i < n /\ k < 2 /\ m = (Z.of_nat k, piece i k).
Lemma receive_ok b ms f D : (Z.of_nat n < 2 ^ 31)%Z ->
  (forall i k, i < n -> k < 2 -> length (piece i k) <= brows b) -> length (bytes b) = 8 * brows b ->
  Forall genuine ms -> (forall p, In p D -> snd p < 2) -> holds D f ->
  exists f', receive (length ms) tab loc (length hd) b ms f = Ok (f', []) /\
    exists D', holds D' f' /\ (forall p, In p D -> In p D') /\
      forall i k, k < 2 -> In (Z.of_nat k, piece i k) ms -> i < n -> In (i, k) D'.
Proof.
  intros N. revert b f D; induction ms as [|m ms IH]; intros b f D B BL G KD H.
  - exists f. split; [reflexivity|]. exists D. split; [exact H|split; [auto|intros i k _ []]].
  - pose proof (Forall_inv G) as (i&k&I&K&->).
    assert (KZ : Z.of_nat k = 0%Z \/ Z.of_nat k = 1%Z) by lia.
    cbn [length receive]. destruct (Nat.ltb_spec (brows b) (length (piece i k))) as [C|C]; [specialize (B i k I K); lia|].
    assert (T : ((Z.of_nat k <? 0) || (2 <=? Z.of_nat k))%Z = false) by (destruct KZ as [->| ->]; reflexivity).
    rewrite T. cbn [bytes brows].
    assert (RI : read_int (piece i k ++ skipn (length (piece i k)) (bytes b)) = Some (Z.of_nat i)).
    { destruct k; cbn [piece]; unfold geo, acs; rewrite <- app_assoc; apply read_int_le; lia. }
    rewrite RI.
    assert (LL : length loc = n) by (rewrite Hloc, map_length, seq_length; auto). rewrite LL.
    destruct (Z.ltb_spec (Z.of_nat n) (Z.of_nat i)); [lia|]. destruct (Z.ltb_spec (Z.of_nat i) 0); [lia|].
    rewrite !Nat2Z.id, put_ok by auto. cbn [bind].
    destruct (IH (mkBuffer (brows b) (piece i k ++ skipn (length (piece i k)) (bytes b)))
      (write_at f (at_ i k) (piece i k)) ((i, k) :: D)) as (f'&E&D'&HD&Q1&Q2).
    + exact B.
    + cbn [bytes brows]. rewrite app_length, skipn_length. lia.
    + apply Forall_inv_tail in G. exact G.
    + intros p [P|P]; [subst; auto|auto].
    + apply holds_write; auto.
    + exists f'. split; [exact E|]. exists D'. split; [exact HD|]. split.
      * intros p P. apply Q1. right; auto.
      * intros j l L J JN. cbn [In] in J. destruct J as [J|J]; [|apply Q2; auto].
        injection J as J1 J2. apply Nat2Z.inj in J1. subst l.
        assert (EI : i = j).
        { assert (X : read_int (piece i k) = read_int (piece j k)) by (rewrite J2; reflexivity).
          destruct k; cbn [piece] in X; unfold geo, acs in X; rewrite !read_int_le in X by lia; injection X; lia. }
        subst. apply Q1. left; auto.
Qed.
End File.

(** * Messages *)
Definition parcel (g : grid) (i : nat) : list message := [(0%Z, geo g i); (1%Z, acs g i)].
Lemma sends_ok g n size : size <= n ->
  sends g n size = Ok (concat (map (fun r => flat_map (parcel g) (active n size r)) (seq 1 (size - 1)))).
Proof.
  intros. unfold sends. rewrite (collect_ok _ (fun r => flat_map (parcel g) (active n size r))); [reflexivity|].
  intros r R. apply in_seq in R.
  assert (I : In r (active n size r)) by (apply in_active; split; [lia|apply Nat.mod_small; lia]).
  unfold send. destruct (active n size r); [destruct I|reflexivity].
Qed.
Lemma sum_zeros {A} (l : list A) : list_sum (map (fun _ => 0) l) = 0.
Proof. induction l; cbn in *; auto. Qed.
Lemma sum_ones m s k : s <= m < s + k -> list_sum (map (fun r => if m =? r then 1 else 0) (seq s k)) = 1.
Proof.
  revert s; induction k; intros; [lia|]. cbn [seq map list_sum fold_right].
  destruct (Nat.eqb_spec m s).
  - subst. change (1 + list_sum (map (fun r => if s =? r then 1 else 0) (seq (S s) k)) = 1).
    enough (list_sum (map (fun r => if s =? r then 1 else 0) (seq (S s) k)) = 0) by lia.
    rewrite (map_ext_in _ (fun _ => 0)); [apply sum_zeros|].
    intros r R. apply in_seq in R. destruct (Nat.eqb_spec s r); [lia|reflexivity].
  - change (0 + list_sum (map (fun r => if m =? r then 1 else 0) (seq (S s) k)) = 1). rewrite IHk; lia.
Qed.
Lemma list_sum_add {A} (f h : A -> nat) l : list_sum (map (fun r => f r + h r) l) = list_sum (map f l) + list_sum (map h l).
Proof. induction l as [|a l IH]; [reflexivity|]. unfold list_sum in *. cbn [map fold_right]. rewrite IH. lia. Qed.
Lemma sum_classes size l : 0 < size ->
  list_sum (map (fun r => length (filter (fun n => n mod size =? r) l)) (seq 0 size)) = length l.
Proof.
  intros Sp. induction l as [|a l IH].
  - apply sum_zeros.
  - rewrite (map_ext _ (fun r => (if a mod size =? r then 1 else 0) + length (filter (fun n => n mod size =? r) l))).
    + rewrite list_sum_add, IH, sum_ones; [reflexivity|]. pose proof (Nat.mod_upper_bound a size ltac:(lia)). lia.
    + intros r. cbn. destruct (a mod size =? r); reflexivity.
Qed.
Lemma parcels_length g l : length (flat_map (parcel g) l) = 2 * length l.
Proof. induction l; cbn in *; lia. Qed.
Lemma concat_length' {A} (l : list (list A)) : length (concat l) = list_sum (map (@length A) l).
Proof. induction l; cbn; auto. rewrite app_length, IHl. reflexivity. Qed.
Lemma sent_length g n size : 0 < size ->
  length (concat (map (fun r => flat_map (parcel g) (active n size r)) (seq 1 (size - 1)))) = 2 * (n - length (active n size 0)).
Proof.
  intros Sp. rewrite concat_length', map_map.
  rewrite (map_ext _ (fun r => length (active n size r) + length (active n size r))) by (intros; rewrite parcels_length; lia).
  rewrite list_sum_add.
  pose proof (sum_classes size (seq 0 n) Sp) as E. destruct size as [|s]; [lia|]. cbn [seq map list_sum fold_right] in E.
  cbn [Nat.sub]. rewrite Nat.sub_0_r. rewrite seq_length in E. fold (active n (S s) 0) in E.
  change (length (active n (S s) 0) + list_sum (map (fun r => length (active n (S s) r)) (seq 1 s)) = n) in E. lia.
Qed.

Lemma fold_largest l m : m <= fold_left (fun m p => Nat.max (Nat.max m (fst p)) (snd p)) l m /\
  forall p : nat * nat, In p l -> fst p <= fold_left (fun m p => Nat.max (Nat.max m (fst p)) (snd p)) l m /\
    snd p <= fold_left (fun m p => Nat.max (Nat.max m (fst p)) (snd p)) l m.
Proof.
  revert m; induction l as [|q l IH]; intros; cbn; [split; [lia|intros p []]|].
  destruct (IH (Nat.max (Nat.max m (fst q)) (snd q))) as (A&B). split; [lia|].
  intros p [P|P]; [subst; lia|apply B; auto].
Qed.
Lemma enlarge_ok g n b : length (bytes b) = 8 * brows b ->
  let e := enlarge (map (gsz g) (seq 0 n)) b in
  (forall i k, i < n -> k < 2 -> length (piece g i k) <= brows e) /\ length (bytes e) = 8 * brows e.
Proof.
  intros BL e. split.
  - assert (L : largest (map (gsz g) (seq 0 n)) <= brows e).
    { unfold e, enlarge. destruct (Nat.ltb_spec (brows b) (largest (map (gsz g) (seq 0 n)))); cbn; lia. }
    intros i k I K. etransitivity; [|exact L]. rewrite piece_length by auto.
    destruct (fold_largest (map (gsz g) (seq 0 n)) 0) as (_&B).
    destruct (B (gsz g i)) as (B1&B2); [apply in_map, in_seq; lia|]. unfold largest.
    destruct k as [|[|]]; cbn [pick]; [exact B1|exact B2|lia].
  - unfold e, enlarge. destruct (brows b <? _); cbn [bytes brows]; auto. rewrite repeat_length. reflexivity.
Qed.

Lemma image_eq n time g : image n time g = (le 4 check ++ time ++ params g ++ pdata g) ++ body g n.
Proof. unfold image, body, check. rewrite <- !app_assoc. reflexivity. Qed.

Section Whole.
Context (rows count pdsize : list Z -> nat) (csize : list Z -> list Z -> nat -> nat * nat).

Lemma output_ok n g size sched time b : proper rows count pdsize csize n g ->
  0 < size <= n -> (forall l, Permutation l (sched l)) -> length (bytes b) = 8 * brows b ->
  output rows count true 0 size sched time g b = Ok (image n time g, []).
Proof.
  intros [P1 P2 P3 P4 P5 P6 P7] Sp SC BL. unfold output. cbn [negb Nat.eqb]. rewrite P3, P4.
  fold (gsz g). rewrite sizes_ok; [|lia|intros i I; split; apply fits_true; [exact (proj1 (P7 i I))|exact (proj2 (P7 i I))]]. cbn [bind].
  rewrite locate_ok by lia. cbn [bind]. rewrite sends_ok by lia. cbn [bind].
  set (hd := le 4 check ++ time ++ params g ++ pdata g).
  set (tab := map (gsz g) (seq 0 n)). set (loc := map (place (gsz g)) (seq 0 n)).
  destruct (write_own_ok g n hd tab loc eq_refl eq_refl (active n size 0) hd []) as (f1&E1&D1&H1&K1&_&Q1).
  - intros i I. apply in_active in I. tauto.
  - intros p [].
  - split; [apply firstn_all|split; [lia|intros i k []]].
  - rewrite E1. cbn [bind].
    set (ms := concat (map (fun r => flat_map (parcel g) (active n size r)) (seq 1 (size - 1)))).
    assert (IM : forall m, In m ms <-> exists r i k, 1 <= r < size /\ In i (active n size r) /\ k < 2 /\ m = (Z.of_nat k, piece g i k)).
    { intros m. unfold ms. rewrite in_concat. split.
      - intros (l&L&M). apply in_map_iff in L. destruct L as (r&<-&R). apply in_seq in R.
        apply in_flat_map in M. destruct M as (i&I&M). exists r, i.
        destruct M as [M|[M|[]]]; [exists 0|exists 1]; repeat split; auto; lia.
      - intros (r&i&k&R&I&K&->). exists (flat_map (parcel g) (active n size r)). split.
        + apply in_map_iff. exists r. split; auto. apply in_seq. lia.
        + apply in_flat_map. exists i. split; auto. destruct k as [|[|]]; [left; reflexivity|right; left; reflexivity|lia]. }
    pose proof (SC ms) as PM.
    replace (2 * (n - length (active n size 0))) with (length (sched ms)).
    2: { rewrite <- (Permutation_length PM). apply sent_length. lia. }
    destruct (enlarge_ok g n b BL) as (B1&B2).
    destruct (receive_ok g n hd tab loc eq_refl eq_refl (enlarge tab b) (sched ms) f1 D1) as (f2&E2&D2&H2&Q2&Q3); auto.
    + apply Forall_forall. intros m M. apply (Permutation_in _ (Permutation_sym PM)) in M. apply IM in M.
      destruct M as (r&i&k&R&I&K&->). exists i, k. apply in_active in I. repeat split; auto; tauto.
    + rewrite E2. f_equal. f_equal. rewrite image_eq. fold hd. eapply holds_all; [exact H2|].
      intros i k I K. destruct (Nat.eq_dec (i mod size) 0) as [Z0|Z0].
      * apply Q2, Q1; auto. apply in_active. auto.
      * apply Q3; auto. apply (Permutation_in _ PM), IM. exists (i mod size), i, k.
        pose proof (Nat.mod_upper_bound i size ltac:(lia)). repeat split; auto; try lia. apply in_active. auto.
Qed.

(** * Reading *)
Lemma sread_full f p n dst : p + n <= length f ->
  sread (mkStream f p false) n dst = (slice p n f ++ skipn n dst, mkStream f (p + n) false).
Proof.
  intros. unfold sread. cbn [sbad spos sfile]. rewrite skipn_length.
  destruct (Nat.leb_spec n (length f - p)); [reflexivity|lia].
Qed.
Lemma slice_app a b c : slice (length a) (length b) (a ++ b ++ c) = b.
Proof.
  unfold slice. rewrite skipn_app, skipn_all, Nat.sub_diag. cbn [app skipn].
  rewrite firstn_app, firstn_all, Nat.sub_diag. cbn [firstn]. apply app_nil_r.
Qed.
Opaque geo acs le.
Lemma slice_body g hd n i k : i < n -> k < 2 -> slice (at_ g hd i k) (length (piece g i k)) (hd ++ body g n) = piece g i k.
Proof.
  intros I K.
  assert (E : exists c, body g n = body g i ++ geo g i ++ acs g i ++ c).
  { exists (concat (map (fun j => geo g j ++ acs g j) (seq (S i) (n - S i)))). unfold body.
    replace n with (i + S (n - S i)) at 1 by lia. rewrite seq_app, map_app, concat_app. cbn [seq map concat].
    rewrite <- app_assoc. reflexivity. }
  destruct E as (c&E). rewrite E. clear E. unfold at_. destruct k as [|[|]]; [| |lia]; cbn [pick place fst snd piece].
  - rewrite <- body_length, <- app_length, app_assoc. apply slice_app.
  - change (fst (gsz g i)) with (length (geo g i)). rewrite <- body_length, <- !app_length.
    etransitivity; [|apply (slice_app (hd ++ body g i ++ geo g i) (acs g i) c)].
    rewrite <- !app_assoc. reflexivity.
Qed.

Lemma get_ok g n hd i k dst p : i < n -> k < 2 -> length dst = length (piece g i k) ->
  get (map (gsz g) (seq 0 n)) (map (place (gsz g)) (seq 0 n)) (length hd) i k dst (mkStream (hd ++ body g n) p false) =
  Ok (piece g i k, mkStream (hd ++ body g n) (at_ g hd i k + length (piece g i k)) false).
Proof.
  intros I K L. unfold get. rewrite !entry_ok by auto. cbn [bind].
  rewrite <- piece_length by auto. destruct (Nat.ltb_spec (length dst) (length (piece g i k))); [lia|].
  unfold sseek. cbn [sbad sfile]. fold (at_ g hd i k).
  rewrite sread_full.
  - rewrite slice_body by auto. rewrite <- L, skipn_all, app_nil_r. reflexivity.
  - rewrite app_length, body_length. apply at_end; auto.
Qed.
Lemma read_own_ok g n hd fg fa act p :
  (forall i, In i act -> i < n /\ length (fg i) = length (geo g i) /\ length (fa i) = length (acs g i)) ->
  read_own n (map (gsz g) (seq 0 n)) (map (place (gsz g)) (seq 0 n)) (length hd) fg fa act (mkStream (hd ++ body g n) p false) =
  Ok (map (fun i => (i, geo g i, acs g i)) act).
Proof.
  revert p; induction act as [|i act IH]; intros p A; [reflexivity|]. cbn [read_own].
  destruct (A i) as (I&L1&L2); [left; auto|]. destruct (Nat.ltb_spec n i); [lia|].
  rewrite (get_ok g n hd i 0) by auto. cbn [bind fst snd].
  rewrite (get_ok g n hd i 1) by auto. cbn [bind fst snd].
  rewrite IH by (intros; apply A; right; auto). reflexivity.
Qed.

Lemma sread_next a b c dst : length dst = length b ->
  sread (mkStream (a ++ b ++ c) (length a) false) (length dst) dst = (b, mkStream (a ++ b ++ c) (length (a ++ b)) false).
Proof.
  intros E. rewrite E, sread_full by (rewrite !app_length; lia). rewrite slice_app, <- E, skipn_all, app_nil_r, E, app_length. reflexivity.
Qed.

Lemma sread_zeros a b c :
  sread (mkStream (a ++ b ++ c) (length a) false) (length b) (repeat 0%Z (length b)) = (b, mkStream (a ++ b ++ c) (length (a ++ b)) false).
Proof. rewrite <- (repeat_length 0%Z (length b)) at 1. apply sread_next, repeat_length. Qed.

Lemma input_ok n g size r time time0 params0 fg fa : proper rows count pdsize csize n g ->
  0 < size -> length time0 = length time -> length params0 = length (params g) ->
  (forall i, i < n -> (length (fg i), length (fa i)) = csize (params g) (pdata g) i) ->
  input rows count pdsize csize size r time0 params0 fg fa (image n time g) =
  Ok (mkLoaded time (params g) (pdata g) (map (fun i => (i, geo g i, acs g i)) (active n size r))).
Proof.
  intros [P1 P2 P3 P4 P5 P6 P7] Sp T PL FL. unfold input. unfold image. fold (body g n). set (B := body g n).
  destruct (Nat.ltb_spec (length (le 4 171456 ++ time ++ params g ++ pdata g ++ B)) 4) as [C|_].
  { rewrite app_length, le_length in C. lia. }
  set (F := le 4 171456 ++ time ++ params g ++ pdata g ++ B).
  rewrite (sread_full F 0 4 []) by (unfold F; rewrite app_length, le_length; lia).
  assert (E0 : slice 0 4 F ++ skipn 4 [] = le 4 171456) by (rewrite app_nil_r; apply (slice_app [] (le 4 171456))). rewrite E0.
  rewrite of_le_4 by lia. unfold check. rewrite Z.eqb_refl. cbn [negb].
  change (0 + 4) with (length (le 4 171456)).
  unfold F at 1. rewrite (sread_next (le 4 171456) time _ time0) by auto.
  rewrite (app_assoc (le 4 171456) time).
  rewrite (sread_next (le 4 171456 ++ time) (params g) _ params0) by auto.
  rewrite (app_assoc (le 4 171456 ++ time) (params g)), P5.
  rewrite (sread_zeros ((le 4 171456 ++ time) ++ params g) (pdata g) B).
  cbn [sbad spos sfile]. rewrite P3, P4.
  replace (sizes n n size (csize (params g) (pdata g))) with (@Ok (list (nat * nat)) (map (gsz g) (seq 0 n))).
  2: { symmetry. rewrite sizes_ok; auto.
       - f_equal. apply map_ext_in. intros i I. apply in_seq in I. rewrite P6 by lia. reflexivity.
       - intros i I. rewrite P6 by auto. split; apply fits_true; [exact (proj1 (P7 i I))|exact (proj2 (P7 i I))]. }
  cbn [bind]. rewrite locate_ok by auto. cbn [bind].
  rewrite (app_assoc _ (pdata g) B). unfold B. rewrite read_own_ok; [reflexivity|].
  intros i I. apply in_active in I. destruct I as (I&_). pose proof (FL i I) as E. rewrite P6 in E by auto.
  injection E as E1 E2. auto.
Qed.
End Whole.
