(** * C133: words and hexadecimal numbers in C strings *)
From Coq Require Import ZArith Lia String Ascii List Bool.
From Verif Require Import HexModel HexSpec.
Import ListNotations.
Local Open Scope Z_scope.

Lemma space_blank c : is_space c = true <-> blank c.
Proof.
  unfold is_space, blank. rewrite !orb_true_iff, !Z.eqb_eq. cbn. intuition lia.
Qed.
Lemma not_space c : ~ blank c -> is_space c = false.
Proof. intros N. destruct (is_space c) eqn:E; [apply space_blank in E; contradiction|reflexivity]. Qed.

(** ** The next word starts after the blanks and ends before the next one; a string with
    its end in the memory is never left. *)
Theorem C133_skip : forall a c r, Forall blank a -> ~ blank c -> ignore_space (a ++ c :: r) = Some (c :: r).
Proof.
  intros a c r A N. induction A as [|x a B A IH]; cbn [app ignore_space]; [rewrite (not_space c N); reflexivity|]. rewrite (proj2 (space_blank x) B). exact IH.
Qed.
Print Assumptions C133_skip.
Theorem C133_stop : forall w c r, Forall (fun x => ~ blank x /\ x <> 0) w -> blank c \/ c = 0 -> find_space (w ++ c :: r) = Some (c :: r).
Proof.
  intros w c r A N. induction A as [|x a (B & Z0) A IH]; cbn [app find_space].
  - destruct N as [N| ->]; [rewrite (proj2 (space_blank c) N); reflexivity|reflexivity].
  - rewrite (not_space x B), (proj2 (Z.eqb_neq x 0) Z0). exact IH.
Qed.
Print Assumptions C133_stop.
Theorem C133_inside : forall m, In 0 m -> (exists r, ignore_space m = Some r) /\ (exists r, find_space m = Some r).
Proof.
  assert (~ blank 0) as NB by (unfold blank; cbn; lia).
  induction m as [|c m IH]; intros I; [destruct I|]. cbn [ignore_space find_space]. destruct I as [->|I].
  - rewrite (not_space 0 NB). split; eexists; reflexivity.
  - destruct (IH I) as (A & B). split; [destruct (is_space c)|destruct (is_space c || (c =? 0))%bool]; eauto.
Qed.
Print Assumptions C133_inside.

(** digits *)
Lemma get_small i s a : String.get i s = Some a -> (i < String.length s)%nat.
Proof. revert i. induction s as [|c s IH]; intros [|i] H; cbn in *; try discriminate; [lia|apply IH in H; lia]. Qed.
Lemma digit_add c d v : digit c d -> 0 <= d < 16 /\ exists b, add_digit v c = Some (v + d + b, b) /\ 48 <= b <= 97.
Proof.
  intros (i & a & -> & G & ->). assert (i < 16)%nat as L by (destruct G as [G|G]; apply get_small in G; cbn in G; lia). split; [lia|].
  destruct G as [G|G]; do 16 (destruct i as [|i]; [cbn in G; match type of G with Some ?x = _ => let c := eval vm_compute in (Z.of_N (N_of_ascii x)) in assert (Z.of_N (N_of_ascii a) = c) as -> by (injection G as <-; reflexivity) end; unfold add_digit; cbn -[Z.add Z.of_nat]; first [exists 48; split; [f_equal; f_equal; lia|lia] | exists 65; split; [f_equal; f_equal; lia|lia] | exists 97; split; [f_equal; f_equal; lia|lia]]|]); lia.
Qed.
Lemma add_digit_is v c s b : add_digit v c = Some (s, b) -> exists d, digit c d.
Proof.
  unfold add_digit. destruct ((48 <=? c) && (c <=? 57))%bool eqn:A; [|destruct ((65 <=? c) && (c <=? 70))%bool eqn:B; [|destruct ((97 <=? c) && (c <=? 102))%bool eqn:C; [|discriminate]]]; intros _.
  - exists (c - 48). exists (Z.to_nat (c - 48)). assert (c = 48 \/ c = 49 \/ c = 50 \/ c = 51 \/ c = 52 \/ c = 53 \/ c = 54 \/ c = 55 \/ c = 56 \/ c = 57) as E by lia.
    repeat (destruct E as [->|E]; [eexists; split; [reflexivity|]; split; [left; reflexivity|reflexivity]|]). subst. eexists. split; [reflexivity|]. split; [left; reflexivity|reflexivity].
  - exists (c - 55). exists (Z.to_nat (c - 55)). assert (c = 65 \/ c = 66 \/ c = 67 \/ c = 68 \/ c = 69 \/ c = 70) as E by lia.
    repeat (destruct E as [->|E]; [eexists; split; [reflexivity|]; split; [left; reflexivity|reflexivity]|]). subst. eexists. split; [reflexivity|]. split; [left; reflexivity|reflexivity].
  - exists (c - 87). exists (Z.to_nat (c - 87)). assert (c = 97 \/ c = 98 \/ c = 99 \/ c = 100 \/ c = 101 \/ c = 102) as E by lia.
    repeat (destruct E as [->|E]; [eexists; split; [reflexivity|]; split; [right; reflexivity|reflexivity]|]). subst. eexists. split; [reflexivity|]. split; [right; reflexivity|reflexivity].
Qed.
Definition from (v : Z) (l : list Z) : Z := fold_left (fun v d => 16 * v + d) l v.
Lemma from_grows l v : 0 <= v -> Forall (fun d => 0 <= d < 16) l -> v <= from v l.
Proof.
  intros V F. revert v V. induction F as [|d l D F IH]; intros v V; [cbn; lia|]. change (from v (d :: l)) with (from (16 * v + d) l). specialize (IH (16 * v + d) ltac:(lia)). lia.
Qed.
Lemma digits_range cs ds : Forall2 digit cs ds -> Forall (fun d => 0 <= d < 16) ds.
Proof. induction 1 as [|c d cs ds D F IH]; constructor; [apply (digit_add c d 0 D)|exact IH]. Qed.
Lemma loop_reads cs : forall ds rest v, Forall2 digit cs ds -> 0 <= v -> from v (rev ds) + 97 <= 2 ^ 31 - 1 -> hex_loop (cs ++ rest) (length cs) v = Value (from v (rev ds)).
Proof.
  induction cs as [|c cs IH] using rev_ind; intros ds rest v F V B.
  - inversion F; subst. reflexivity.
  - apply Forall2_app_inv_l in F. destruct F as (ds' & e & F & G & ->). inversion G as [|? d ? ? D G']; subst. inversion G'; subst. rewrite rev_app_distr in *. cbn [rev app] in *. cbn [from fold_left] in *.
    destruct (digit_add c d (16 * v) D) as (R & b & E & Bb). pose proof (from_grows (rev ds') (16 * v + d) ltac:(lia) ltac:(apply Forall_rev, (digits_range cs); exact F)) as Gr. unfold from in *. cbn [fold_left] in B.
    rewrite app_length. cbn [length]. rewrite Nat.add_1_r. cbn [hex_loop]. unfold fits. rewrite (proj2 (Z.leb_le (16 * v) _)) by lia. cbn [negb].
    rewrite <- app_assoc. rewrite nth_error_app2, Nat.sub_diag by lia. cbn [app nth_error]. rewrite E. rewrite (proj2 (Z.leb_le _ _)) by lia.
    replace (16 * v + d + b - b) with (16 * v + d) by lia. apply IH; [exact F|lia|exact B].
Qed.
Lemma digit_char c d : digit c d -> c <> 0.
Proof. intros D ->. destruct (digit_add 0 d 0 D) as (_ & b & E & _). discriminate. Qed.
Lemma strlen_digits cs ds rest : Forall2 digit cs ds -> strlen (cs ++ 0 :: rest) = Some (length cs).
Proof. induction 1 as [|c d cs ds D F IH]; [reflexivity|]. cbn [app strlen length]. rewrite (proj2 (Z.eqb_neq c 0) (digit_char c d D)), IH. reflexivity. Qed.

(** ** StringToHex gives the number with the digits in the opposite order: *)
Theorem C133_backwards : forall cs ds rest, Forall2 digit cs ds -> number (rev ds) + 97 <= 2 ^ 31 - 1 ->
  string_to_hex (cs ++ 0 :: rest) 0 = Value (number (rev ds)) /\
  forall more, cs <> [] -> string_to_hex (cs ++ more) (Z.of_nat (length cs)) = Value (number (rev ds)).
Proof.
  intros cs ds rest F B. split.
  - unfold string_to_hex. cbn [Z.eqb]. rewrite (strlen_digits cs ds rest F). apply loop_reads; [exact F|lia|exact B].
  - intros more N. unfold string_to_hex. rewrite (proj2 (Z.eqb_neq (Z.of_nat (length cs)) 0)) by (destruct cs; [congruence|cbn; lia]). rewrite Nat2Z.id. apply loop_reads; [exact F|lia|exact B].
Qed.
Print Assumptions C133_backwards.

(** ** so it is the number written only for those that read the same from both ends. *)
Lemma from_split v l : from v l = v * 16 ^ Z.of_nat (length l) + from 0 l.
Proof.
  revert v. induction l as [|d l IH]; intros v; [cbn; lia|]. change (from v (d :: l)) with (from (16 * v + d) l). change (from 0 (d :: l)) with (from d l). rewrite (IH (16 * v + d)), (IH d). cbn [length]. rewrite Nat2Z.inj_succ, Z.pow_succ_r by lia. ring.
Qed.
Lemma from_bound l : Forall (fun d => 0 <= d < 16) l -> 0 <= from 0 l < 16 ^ Z.of_nat (length l).
Proof.
  induction 1 as [|d l D F IH]; [cbn; lia|]. change (from 0 (d :: l)) with (from d l). rewrite from_split. cbn [length]. rewrite Nat2Z.inj_succ, Z.pow_succ_r by lia. nia.
Qed.
Lemma number_inj l : forall m, Forall (fun d => 0 <= d < 16) l -> Forall (fun d => 0 <= d < 16) m -> length l = length m -> from 0 l = from 0 m -> l = m.
Proof.
  induction l as [|d l IH]; intros [|e m] F G L E; cbn in L; try lia; [reflexivity|]. apply Forall_inv in F as D. apply Forall_inv_tail in F. apply Forall_inv in G as D'. apply Forall_inv_tail in G.
  change (from 0 (d :: l)) with (from d l) in E. change (from 0 (e :: m)) with (from e m) in E. rewrite (from_split d), (from_split e) in E. pose proof (from_bound l F) as A. pose proof (from_bound m G) as B. assert (length l = length m) as L' by lia. rewrite <- L' in *.
  assert (d = e) as -> by nia. f_equal. apply IH; try assumption. lia.
Qed.
Theorem C133_order_refuted : forall cs ds rest, Forall2 digit cs ds -> number (rev ds) + 97 <= 2 ^ 31 - 1 ->
  (string_to_hex (cs ++ 0 :: rest) 0 = Value (number ds) <-> ds = rev ds).
Proof.
  intros cs ds rest F B. rewrite (proj1 (C133_backwards cs ds rest F B)). pose proof (digits_range cs ds F) as R. split.
  - intros H. injection H as H. symmetry. apply number_inj; [apply Forall_rev; exact R|exact R|apply rev_length|exact H].
  - intros <-. reflexivity.
Qed.
Print Assumptions C133_order_refuted.

(** ** A number written back with its last digit first is read; *)
Fixpoint written (n : nat) (v : Z) : list Z := match n with O => [] | S n => v mod 16 :: written n (v / 16) end.
Lemma written_number n : forall v, 0 <= v < 16 ^ Z.of_nat n -> number (rev (written n v)) = v.
Proof.
  induction n as [|n IH]; intros v V; [cbn in *; lia|]. cbn [written rev]. unfold number. rewrite fold_left_app. cbn [fold_left]. change (fold_left _ (rev (written n (v / 16))) 0) with (number (rev (written n (v / 16)))).
  rewrite Nat2Z.inj_succ, Z.pow_succ_r in V by lia. rewrite IH; [pose proof (Z.div_mod v 16 ltac:(lia)); lia|]. split; [apply Z.div_pos; lia|apply Z.div_lt_upper_bound; lia].
Qed.
Theorem C133_round_trip : forall v n cs rest, 0 <= v < 16 ^ Z.of_nat n -> v + 97 <= 2 ^ 31 - 1 -> Forall2 digit cs (written n v) -> string_to_hex (cs ++ 0 :: rest) 0 = Value v.
Proof.
  intros v n cs rest V B F. rewrite <- (written_number n v V) in B |- *. apply (C133_backwards cs (written n v) rest F B).
Qed.
Print Assumptions C133_round_trip.

(** ** the largest numbers of an int are not, although they fit, as the sum with the
    character overflows. *)
Theorem C133_largest_refuted : forall rest, exists cs ds, Forall2 digit cs ds /\ number (rev ds) = 2 ^ 31 - 1 /\ string_to_hex (cs ++ 0 :: rest) 0 = Overflow.
Proof.
  intros rest. exists [70; 70; 70; 70; 70; 70; 70; 55], [15; 15; 15; 15; 15; 15; 15; 7].
  split; [|split; reflexivity]. repeat (constructor; [first [exists 15%nat; eexists; split; [reflexivity|]; split; [left; reflexivity|reflexivity] | exists 7%nat; eexists; split; [reflexivity|]; split; [left; reflexivity|reflexivity]]|]). constructor.
Qed.
Print Assumptions C133_largest_refuted.
Lemma loop_overflows cs : forall ds rest v, Forall2 digit cs ds -> 0 <= v <= 2 ^ 31 - 1 -> 2 ^ 31 - 1 < from v (rev ds) -> hex_loop (cs ++ rest) (length cs) v = Overflow.
Proof.
  induction cs as [|c cs IH] using rev_ind; intros ds rest v F V B.
  - inversion F; subst. cbn in B. lia.
  - apply Forall2_app_inv_l in F. destruct F as (ds' & e & F & G & ->). inversion G as [|? d ? ? D G']; subst. inversion G'; subst. rewrite rev_app_distr in *. cbn [rev app] in *. unfold from in B. cbn [fold_left] in B.
    destruct (digit_add c d (16 * v) D) as (R & b & E & Bb). rewrite app_length. cbn [length]. rewrite Nat.add_1_r. cbn [hex_loop]. unfold fits. destruct (Z.leb_spec (16 * v) (2 ^ 31 - 1)) as [L|L]; cbn [negb]; [|reflexivity].
    rewrite <- app_assoc. rewrite nth_error_app2, Nat.sub_diag by lia. cbn [app nth_error]. rewrite E. destruct (Z.leb_spec (16 * v + d + b) (2 ^ 31 - 1)) as [L'|L']; [|reflexivity].
    replace (16 * v + d + b - b) with (16 * v + d) by lia. apply IH with (ds := ds'); [exact F|lia|exact B].
Qed.
Theorem C133_too_large : forall cs ds rest, Forall2 digit cs ds -> 2 ^ 31 - 1 < number (rev ds) -> string_to_hex (cs ++ 0 :: rest) 0 = Overflow.
Proof.
  intros cs ds rest F B. unfold string_to_hex. cbn [Z.eqb]. rewrite (strlen_digits cs ds rest F). apply loop_overflows with (ds := ds); [exact F|lia|exact B].
Qed.
Print Assumptions C133_too_large.

(** ** A character that is no digit gives -1, whatever is before it. *)
Lemma loop_refuses pre c cs : forall ds rest v, (forall d, ~ digit c d) -> Forall2 digit cs ds -> 0 <= v -> from v (rev ds) + 97 <= 2 ^ 31 - 1 -> 16 * from v (rev ds) <= 2 ^ 31 - 1 -> hex_loop ((pre ++ c :: cs) ++ rest) (length (pre ++ c :: cs)) v = Value (-1).
Proof.
  induction cs as [|x cs IH] using rev_ind; intros ds rest v N F V B B'.
  - inversion F; subst. rewrite app_length. cbn [length]. rewrite Nat.add_1_r. cbn [hex_loop]. change (from v (rev [])) with v in B, B'. unfold fits. rewrite (proj2 (Z.leb_le (16 * v) _)) by lia. cbn [negb]. rewrite <- app_assoc, nth_error_app2, Nat.sub_diag by lia. cbn [app nth_error].
    destruct (add_digit (16 * v) c) as [(s & b)|] eqn:E; [|reflexivity]. apply add_digit_is in E. destruct E as (d & E). destruct (N d E).
  - apply Forall2_app_inv_l in F. destruct F as (ds' & e & F & G & ->). inversion G as [|? d ? ? D G']; subst. inversion G'; subst. rewrite rev_app_distr in *. cbn [rev app] in *. unfold from in B, B'. cbn [fold_left] in B, B'.
    destruct (digit_add x d (16 * v) D) as (R & b & E & Bb). pose proof (from_grows (rev ds') (16 * v + d) ltac:(lia) ltac:(apply Forall_rev, (digits_range cs); exact F)) as Gr. unfold from in Gr.
    replace (pre ++ c :: cs ++ [x]) with ((pre ++ c :: cs) ++ [x]) by (rewrite <- app_assoc; reflexivity). rewrite app_length. cbn [length]. rewrite Nat.add_1_r. cbn [hex_loop]. unfold fits. rewrite (proj2 (Z.leb_le (16 * v) _)) by lia. cbn [negb].
    rewrite <- (app_assoc (pre ++ c :: cs)), nth_error_app2, Nat.sub_diag by lia. cbn [app nth_error]. rewrite E. rewrite (proj2 (Z.leb_le _ _)) by lia. replace (16 * v + d + b - b) with (16 * v + d) by lia. apply IH with (ds := ds'); [exact N|exact F|lia|exact B|exact B'].
Qed.
Theorem C133_refused : forall pre c cs ds rest, (forall d, ~ digit c d) -> Forall2 digit cs ds -> number (rev ds) < 2 ^ 27 ->
  string_to_hex (pre ++ c :: cs ++ rest) (Z.of_nat (length (pre ++ c :: cs))) = Value (-1).
Proof.
  intros pre c cs ds rest N F B. unfold string_to_hex. rewrite (proj2 (Z.eqb_neq (Z.of_nat (length (pre ++ c :: cs))) 0)) by (rewrite app_length; cbn; lia). rewrite Nat2Z.id.
  replace (pre ++ c :: cs ++ rest) with ((pre ++ c :: cs) ++ rest) by (rewrite <- app_assoc; reflexivity). change (number (rev ds)) with (from 0 (rev ds)) in B. apply loop_refuses with (ds := ds); [exact N|exact F|lia|lia|lia].
Qed.
Print Assumptions C133_refused.

(** "1a" and a blank *)
Example C133_sixteen : exists cs ds, Forall2 digit cs ds /\ number (rev ds) + 97 <= 2 ^ 31 - 1 /\ number ds = 26 /\ string_to_hex (cs ++ [0]) 0 = Value 161 /\ written 2 161 = ds.
Proof.
  exists [49; 97], [1; 10]. split; [|vm_compute; repeat split; congruence].
  constructor; [exists 1%nat; eexists; split; [reflexivity|]; split; [left; reflexivity|reflexivity]|]. constructor; [exists 10%nat; eexists; split; [reflexivity|]; split; [right; reflexivity|reflexivity]|constructor].
Qed.
Example C133_no_digit : forall d, ~ digit 120 d.
Proof. intros d D. destruct (digit_add 120 d 0 D) as (_ & b & E & _). discriminate. Qed.
Example C133_word : blank 32 /\ ~ blank 49 /\ ignore_space [32; 9; 49; 97; 32; 0] = Some [49; 97; 32; 0] /\ find_space [49; 97; 32; 0] = Some [32; 0] /\ In 0 [32; 9; 49; 97; 32; 0] /\ ignore_space [32; 32] = None.
Proof. unfold blank. cbn. repeat split; try tauto. lia. Qed.
