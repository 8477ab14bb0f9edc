From Coq Require Import ZArith Bool List Lia ZifyBool Ascii.
From Verif Require Import TimeModel TimeSpec TimeProofs TimeStrModel.
Import ListNotations.
Local Open Scope Z_scope.
Ltac Zify.zify_post_hook ::= Z.div_mod_to_equations.

Lemma ord_chr z : 0 <= z < 256 -> ord (chr z) = z.
Proof.
  intros H. unfold ord, chr. rewrite N_ascii_embedding by lia. lia.
Qed.

Lemma is_digit_chr d : 0 <= d < 10 -> is_digit (chr (48 + d)) = true.
Proof. intros H. unfold is_digit. rewrite ord_chr by lia. lia. Qed.

Definition all_digits (s : list ascii) : Prop := Forall (fun c => is_digit c = true) s.
Definition nondigit_head (s : list ascii) : Prop :=
  match s with [] => True | c :: _ => is_digit c = false end.

Lemma digits_aux_all : forall f z, 0 <= z -> all_digits (digits_aux f z).
Proof.
  induction f as [|f IH]; intros z Hz; cbn [digits_aux]; [constructor|].
  destruct (Z.ltb_spec z 10).
  - repeat constructor. apply is_digit_chr; lia.
  - apply Forall_app; split; [apply IH; lia|].
    repeat constructor. apply is_digit_chr; lia.
Qed.

Lemma atoi_digits_app : forall s r acc, all_digits s ->
  atoi_digits acc (s ++ r) = atoi_digits (atoi_digits acc s) r.
Proof.
  induction s as [|c s IH]; intros r acc Hs; cbn; [reflexivity|].
  inversion Hs; subst. rewrite H1. apply IH; assumption.
Qed.

Lemma atoi_digits_stop : forall r acc, nondigit_head r -> atoi_digits acc r = acc.
Proof. intros [|c r] acc H; cbn in *; [reflexivity|rewrite H; reflexivity]. Qed.

Lemma digits_aux_val : forall f z, 0 <= z -> z < 2 ^ Z.of_nat f -> (1 <= f)%nat ->
  atoi_digits 0 (digits_aux f z) = z.
Proof.
  induction f as [|f IH]; intros z Hz Hf H1; [lia|]. cbn [digits_aux].
  destruct (Z.ltb_spec z 10).
  - cbn [atoi_digits]. rewrite is_digit_chr, ord_chr by lia. lia.
  - assert (z < 2 * 2 ^ Z.of_nat f) as Hb.
    { rewrite Nat2Z.inj_succ, Z.pow_succ_r in Hf by lia. exact Hf. }
    rewrite atoi_digits_app by (apply digits_aux_all; lia).
    destruct f as [|f]; [cbn in Hb; lia|].
    rewrite IH; [|lia|lia|lia].
    cbn [atoi_digits]. rewrite is_digit_chr, ord_chr by lia. lia.
Qed.

Lemma digits_val z : 0 <= z -> atoi_digits 0 (digits z) = z.
Proof.
  intros Hz. unfold digits. apply digits_aux_val; [assumption| |lia].
  destruct (Z.eq_dec z 0) as [->|]; [cbn; lia|].
  pose proof (Z.log2_spec z ltac:(lia)) as [_ L].
  pose proof (Z.log2_nonneg z).
  rewrite Nat2Z.inj_succ, Z2Nat.id by lia. exact L.
Qed.

Lemma digits_all z : 0 <= z -> all_digits (digits z).
Proof. intros; apply digits_aux_all; assumption. Qed.

Lemma digits_aux_len : forall w f z, 0 <= z < 10 ^ Z.of_nat w -> (1 <= w)%nat ->
  (length (digits_aux f z) <= w)%nat.
Proof.
  induction w as [|w IH]; intros f z Hz Hw; [lia|].
  destruct f as [|f]; cbn [digits_aux length]; [lia|].
  destruct (Z.ltb_spec z 10); [cbn; lia|].
  rewrite app_length. cbn [length].
  rewrite Nat2Z.inj_succ, Z.pow_succ_r in Hz by lia.
  destruct w as [|w]; [cbn in Hz; lia|].
  specialize (IH f (z / 10)).
  assert (0 <= z / 10 < 10 ^ Z.of_nat (S w)); [|lia].
  split; [lia|]. apply Z.div_lt_upper_bound; lia.
Qed.

Lemma digits_nonempty z : 0 <= z -> digits z <> [].
Proof.
  intros _. unfold digits. cbn [digits_aux].
  destruct (z <? 10); [discriminate|]. intros H; apply app_eq_nil in H; destruct H; discriminate.
Qed.

Lemma all_digits_zeros n : all_digits (repeat (chr 48) n).
Proof. induction n; cbn; constructor; auto. Qed.
Lemma atoi_zeros n : atoi_digits 0 (repeat (chr 48) n) = 0.
Proof. induction n; cbn; auto. Qed.

Lemma fmt0_all w z : 0 <= z -> all_digits (fmt0 w z).
Proof.
  intros Hz. unfold fmt0. assert (z <? 0 = false) as -> by lia.
  apply Forall_app; split; [apply all_digits_zeros|apply digits_all; lia].
Qed.

Lemma fmt0_len w z : 0 <= z < 10 ^ Z.of_nat w -> (1 <= w)%nat -> length (fmt0 w z) = w.
Proof.
  intros Hz Hw. unfold fmt0. assert (z <? 0 = false) as -> by lia.
  rewrite app_length, repeat_length.
  pose proof (digits_aux_len w (S (Z.to_nat (Z.log2 z))) z Hz Hw). unfold digits. lia.
Qed.

Lemma fmt0_nonempty w z : fmt0 w z <> [].
Proof.
  unfold fmt0. destruct (z <? 0) eqn:E; [discriminate|].
  intros H; apply app_eq_nil in H as [_ H]. apply digits_nonempty in H; [exact H|lia].
Qed.

Lemma digit_not_space c : is_digit c = true -> is_space c = false.
Proof. unfold is_digit, is_space. lia. Qed.
Lemma digit_not_sign c : is_digit c = true ->
  Ascii.eqb c c_dash = false /\ Ascii.eqb c "+"%char = false.
Proof.
  intros H; split; apply Ascii.eqb_neq; intros ->; vm_compute in H; discriminate.
Qed.

Lemma atoi_of_digits s r : all_digits s -> s <> [] -> atoi (s ++ r) = atoi_digits 0 (s ++ r).
Proof.
  intros Hs Hn. destruct s as [|c s]; [contradiction|].
  inversion Hs; subst. cbn [app atoi]. rewrite digit_not_space by assumption.
  unfold atoi_sign. destruct (digit_not_sign c H1) as [-> ->]. reflexivity.
Qed.

Lemma atoi_fmt0 w z r : 0 <= z -> nondigit_head r -> atoi (fmt0 w z ++ r) = z.
Proof.
  intros Hz Hr.
  rewrite atoi_of_digits; [|apply fmt0_all; lia|apply fmt0_nonempty].
  rewrite atoi_digits_app by (apply fmt0_all; lia).
  rewrite atoi_digits_stop by assumption.
  unfold fmt0. assert (z <? 0 = false) as -> by lia.
  rewrite atoi_digits_app by apply all_digits_zeros.
  rewrite atoi_zeros. apply digits_val; lia.
Qed.
Lemma atoi_fmt0' w z : 0 <= z -> atoi (fmt0 w z) = z.
Proof. intros Hz. rewrite <- (app_nil_r (fmt0 w z)). apply atoi_fmt0; [lia|exact I]. Qed.

Lemma skipn_app_len {A} n (a b : list A) : length a = n -> skipn n (a ++ b) = b.
Proof. intros <-. rewrite skipn_app, skipn_all, Nat.sub_diag. reflexivity. Qed.

(** ** Long string *)
Lemma long_round_trip t s old :
  valid_date t -> 0 <= year t <= 9999 ->
  cal old = cal t -> typ old = typ t ->
  to_long_string t = Ok s -> from_long_string old s = Ok t.
Proof.
  intros V Y Hc Ht E. unfold to_long_string in E.
  destruct (typ t) eqn:Ety; [|discriminate]. injection E as <-.
  pose proof V as (_ & Vm & Vd & Vs & Vu).
  pose proof (mdays_bounds (spec_leap (cal t) (year t)) (month t)).
  assert (length (fmt0 4 (year t)) = 4%nat) as L1 by (apply fmt0_len; cbn; lia).
  assert (length (fmt0 2 (month t + 1)) = 2%nat) as L2 by (apply fmt0_len; cbn; lia).
  assert (length (fmt0 2 (day t + 1)) = 2%nat) as L3 by (apply fmt0_len; cbn; lia).
  assert (length (fmt0 5 (sec t)) = 5%nat) as L4 by (apply fmt0_len; cbn; lia).
  assert (length (fmt0 6 (usec t)) = 6%nat) as L5 by (apply fmt0_len; cbn; lia).
  unfold from_long_string. cbn [app].
  set (y := fmt0 4 (year t)) in *. set (m := fmt0 2 (month t + 1)) in *.
  set (d := fmt0 2 (day t + 1)) in *. set (ss := fmt0 5 (sec t)) in *.
  set (u := fmt0 6 (usec t)) in *.
  assert (forall (a r : list ascii) n k, length a = n -> skipn (S n + k) (a ++ c_dash :: r) = skipn k r)
    as SK.
  { intros a r n k <-. change (a ++ c_dash :: r) with (a ++ [c_dash] ++ r).
    rewrite app_assoc, skipn_app, skipn_all2; rewrite app_length; cbn [length]; [|lia].
    cbn [app]. f_equal. lia. }
  rewrite !app_length. cbn [length]. rewrite !app_length. cbn [length].
  rewrite !app_length. cbn [length]. rewrite !app_length. cbn [length].
  rewrite L1, L2, L3, L4, L5. cbn [Nat.add Nat.eqb negb].
  rewrite (SK y _ 4%nat 0%nat L1 : skipn 5 _ = _).
  rewrite (SK y _ 4%nat 3%nat L1 : skipn 8 _ = _), (SK m _ 2%nat 0%nat L2 : skipn 3 _ = _).
  rewrite (SK y _ 4%nat 6%nat L1 : skipn 11 _ = _), (SK m _ 2%nat 3%nat L2 : skipn 6 _ = _),
          (SK d _ 2%nat 0%nat L3 : skipn 3 _ = _).
  rewrite (SK y _ 4%nat 12%nat L1 : skipn 17 _ = _), (SK m _ 2%nat 9%nat L2 : skipn 12 _ = _),
          (SK d _ 2%nat 6%nat L3 : skipn 9 _ = _), (SK ss _ 5%nat 0%nat L4 : skipn 6 _ = _).
  cbn [skipn].
  unfold y, m, d, ss, u.
  rewrite !atoi_fmt0, atoi_fmt0' by (first [lia | reflexivity]).
  rewrite Hc, Ht.
  replace (mkTime _ _ _ _ _ _ _) with t
    by (destruct t; cbn in *; subst; f_equal; lia).
  apply verify_time_spec. split; assumption.
Qed.

(** ** Formatted strings *)
Lemma floop_digits : forall ds v r, all_digits ds -> floop v (ds ++ r) = floop v r.
Proof.
  induction ds as [|c ds IH]; intros v r H; [reflexivity|].
  inversion H; subst. cbn [app floop]. unfold fstep. rewrite H2. apply IH; assumption.
Qed.
Lemma floop_digits' ds v : all_digits ds -> floop v ds = Some v.
Proof. intros H. rewrite <- (app_nil_r ds), floop_digits by assumption. reflexivity. Qed.

Lemma normalize_valid_id t : valid_date t -> normalize t = Ok t.
Proof.
  intros V. pose proof V as (Hc & Hm & Hd & Hs & Hu).
  destruct (normalize_ok t Hc (month_fresh t Hm)) as (t' & E & V' & I & C & T).
  { apply norm_succeeds_nonneg; lia. }
  rewrite E. f_equal. apply instant_inj; auto.
Qed.

(** One iteration at a separator. *)
Lemma fstep_Y v c r : c = c_dash \/ c = c_space -> fst8 v = FDate -> pY v = None ->
  fstep v c r = Some (fset v FDate 0 (pj v) r).
Proof. intros [-> | ->] H1 H2; unfold fstep; rewrite H1, H2; reflexivity. Qed.
Lemma fstep_Mo v c r y : c = c_dash \/ c = c_space -> fst8 v = FDate -> pY v = Some y -> pMo v = None ->
  fstep v c r = Some (fset v FDate 1 (pj v) r).
Proof. intros [-> | ->] H1 H2 H3; unfold fstep; rewrite H1, H2, H3; reflexivity. Qed.
Lemma fstep_D v c r y m : c = c_dash \/ c = c_space -> fst8 v = FDate -> pY v = Some y ->
  pMo v = Some m -> pD v = None ->
  fstep v c r = Some (fset v FDate 2 (pj v) r).
Proof. intros [-> | ->] H1 H2 H3 H4; unfold fstep; rewrite H1, H2, H3, H4; reflexivity. Qed.
Lemma fstep_H v c r : c = c_colon \/ c = c_dot -> fst8 v <> FFree -> pH v = None ->
  fstep v c r = Some (fset v FTime 3 (pj v) r).
Proof.
  intros [-> | ->] H1 H2; unfold fstep; rewrite H2; destruct (fst8 v); congruence || reflexivity.
Qed.
Lemma fstep_Mi v c r h : c = c_colon \/ c = c_dot -> fst8 v <> FFree -> pH v = Some h -> pMi v = None ->
  fstep v c r = Some (fset v FTime 4 (pj v) r).
Proof.
  intros [-> | ->] H1 H2 H3; unfold fstep; rewrite H2, H3; destruct (fst8 v); congruence || reflexivity.
Qed.
Lemma fstep_S v c r h m : c = c_colon \/ c = c_dot -> fst8 v <> FFree -> pH v = Some h ->
  pMi v = Some m -> pS v = None ->
  fstep v c r = Some (fset v FTime 5 (pj v) r).
Proof.
  intros [-> | ->] H1 H2 H3 H4; unfold fstep; rewrite H2, H3, H4; destruct (fst8 v); congruence || reflexivity.
Qed.
Definition free_ok (v : fvars) : Prop := fst8 v = FFree \/ (fst8 v = FDate /\ jz v = true).
Lemma fstep_free v c k r : free_ok v ->
  (c = "y"%char /\ k = 0%nat /\ pY v = None) \/
  (c = "M"%char /\ k = 1%nat /\ pMo v = None) \/
  (c = "d"%char /\ k = 2%nat /\ pD v = None) \/
  (c = "s"%char /\ k = 5%nat /\ pS v = None) \/
  (c = "u"%char /\ k = 6%nat /\ pU v = None) ->
  fstep v c r = Some (fset v FFree k (pj v) r).
Proof.
  intros F H. unfold fstep.
  destruct H as [(->&->&E)|[(->&->&E)|[(->&->&E)|[(->&->&E)|(->&->&E)]]]]; rewrite E;
  destruct F as [F|[F J]]; rewrite F; try rewrite J; reflexivity.
Qed.

Ltac assoc := repeat (progress (rewrite <- ?app_assoc; cbn [app])).
Ltac sk := rewrite floop_digits by (apply fmt0_all; lia); cbn [floop].
Ltac side := first [left; reflexivity | right; reflexivity | reflexivity | discriminate].

Lemma string_round_trip t s old :
  valid_date t -> 0 <= year t -> cal old = cal t ->
  to_string t = Ok s -> from_formatted_string old s = Ok t.
Proof.
  intros V Y Hc E. unfold to_string in E.
  destruct (typ t) eqn:Ety; [|discriminate].
  pose proof V as (_ & Vm & Vd & Vs & Vu).
  rewrite Z.quot_div_nonneg, !Z.rem_mod_nonneg in E by lia.
  rewrite Z.quot_div_nonneg in E by lia.
  set (rest := if usec t =? 0 then [] else c_dot :: fmt0 6 (usec t)).
  assert (s = fmt0 4 (year t) ++ c_dash :: fmt0 2 (month t + 1) ++ c_dash :: fmt0 2 (day t + 1)
      ++ c_space :: fmt0 2 (sec t / 3600) ++ c_colon :: fmt0 2 (sec t mod 3600 / 60)
      ++ c_colon :: fmt0 2 (sec t mod 60) ++ rest) as ->.
  { unfold rest. destruct (usec t =? 0); injection E as <-; assoc; [rewrite app_nil_r|]; reflexivity. }
  clear E. unfold from_formatted_string.
  set (s := fmt0 4 (year t) ++ _).
  assert (s <> []) as Hne.
  { unfold s. intros H; apply app_eq_nil in H as [H _]. exact (fmt0_nonempty _ _ H). }
  assert (0 <= sec t mod 60 /\ 0 <= sec t mod 3600 / 60 /\ 0 <= sec t / 3600) as (Q1 & Q2 & Q3) by lia.
  assert (forall A (a b : A), match s with [] => a | _ => b end = b) as Hs.
  { destruct s; [contradiction|reflexivity]. }
  rewrite Hs.
  remember (mkF FDate None None None None None None None s true) as v0 eqn:Ev0.
  assert (exists v, floop v0 s = Some v /\ exists w, ffinal v = Some w /\
    fst8 w = FTime /\
    oatoi (pY w) 0 = year t /\ oatoi (pMo w) 1 = month t /\ oatoi (pD w) 1 = day t /\
    oatoi (pH w) 0 = sec t / 3600 /\ oatoi (pMi w) 0 = sec t mod 3600 / 60 /\
    oatoi (pS w) 0 = sec t mod 60 /\ oatoi (pU w) 0 = usec t)
    as (v & Ev & w & Ew & S & A1 & A2 & A3 & A4 & A5 & A6 & A7).
  { unfold s at 1. subst v0.
    sk. rewrite fstep_Y by side.
    sk. erewrite fstep_Mo by side.
    sk. erewrite fstep_D by side.
    sk. erewrite fstep_H by side.
    sk. erewrite fstep_Mi by side.
    unfold rest. destruct (Z.eqb_spec (usec t) 0) as [U0|U0].
    - rewrite app_nil_r, floop_digits' by (apply fmt0_all; lia).
      eexists; split; [reflexivity|].
      unfold ffinal. cbn [pj fset pS pMi pH isnull fst8 Nat.eqb].
      destruct (fmt0 2 (sec t mod 60)) as [|c1 l1] eqn:E6; [exfalso; exact (fmt0_nonempty _ _ E6)|].
      rewrite <- E6. eexists; split; [reflexivity|].
      cbn [oatoi pY pMo pD pH pMi pS pU fset fst8 Nat.eqb pj]. unfold s.
      rewrite !atoi_fmt0, !atoi_fmt0' by (first [lia | reflexivity]).
      repeat split; lia.
    - sk. erewrite fstep_S by side.
      rewrite floop_digits' by (apply fmt0_all; lia).
      eexists; split; [reflexivity|].
      unfold ffinal. cbn [pj fset pS pMi pH pU isnull fst8 Nat.eqb].
      destruct (fmt0 6 (usec t)) as [|c1 l1] eqn:E6; [exfalso; exact (fmt0_nonempty _ _ E6)|].
      rewrite <- E6. eexists; split; [reflexivity|].
      cbn [oatoi pY pMo pD pH pMi pS pU fset fst8 Nat.eqb pj]. unfold s.
      rewrite !atoi_fmt0, !atoi_fmt0' by (first [lia | reflexivity]).
      repeat split; lia. }
  rewrite Ev, Ew, S. cbn [fstate_eqb]. rewrite A1, A2, A3, A4, A5, A6, A7, Hc.
  replace (3600 * (sec t / 3600) + 60 * (sec t mod 3600 / 60) + sec t mod 60) with (sec t) by lia.
  rewrite <- Ety. replace (mkTime _ _ _ _ _ _ _) with t by (destruct t; reflexivity).
  apply normalize_valid_id; assumption.
Qed.

(** Short strings carry everything but the microseconds. *)
Lemma short_round_trip t s old :
  valid_date t -> 0 <= year t -> cal old = cal t ->
  to_short_string t = Ok s ->
  from_formatted_string old s =
  Ok (mkTime (year t) (month t) (day t) (sec t) 0 (cal t) (typ t)).
Proof.
  intros V Y Hc E. unfold to_short_string in E.
  destruct (typ t) eqn:Ety; [|discriminate].
  pose proof V as (Hcal & Vm & Vd & Vs & Vu).
  assert (s = fmt0 4 (year t) ++ c_dash :: fmt0 2 (month t + 1) ++ c_dash :: fmt0 2 (day t + 1)
      ++ c_dash :: fmt0 5 (sec t)) as ->.
  { injection E as <-; reflexivity. }
  clear E. unfold from_formatted_string.
  set (s := fmt0 4 (year t) ++ _).
  assert (s <> []) as Hne.
  { unfold s. intros H; apply app_eq_nil in H as [H _]. exact (fmt0_nonempty _ _ H). }
  assert (forall A (a b : A), match s with [] => a | _ => b end = b) as Hs.
  { destruct s; [contradiction|reflexivity]. }
  rewrite Hs. unfold s at 2.
  sk. rewrite fstep_Y by side.
  sk. erewrite fstep_Mo by side.
  sk. erewrite fstep_D by side.
  rewrite floop_digits' by (apply fmt0_all; lia).
  unfold ffinal. cbn [pj fset pY pMo pD pS pMi pH isnull fst8 Nat.eqb].
  destruct (fmt0 5 (sec t)) as [|c1 l1] eqn:E6; [exfalso; exact (fmt0_nonempty _ _ E6)|].
  rewrite <- E6.
  cbn [oatoi pY pMo pD pH pMi pS pU fset fst8 Nat.eqb pj fstate_eqb]. unfold s.
  rewrite <- E6.
  rewrite !atoi_fmt0, !atoi_fmt0' by (first [lia | reflexivity]).
  replace (mkTime _ _ _ _ _ _ _) with (mkTime (year t) (month t) (day t) (sec t) 0 (cal t) TypeFixed)
    by (rewrite Hc; f_equal; lia).
  apply normalize_valid_id. repeat split; cbn; auto; lia.
Qed.

(** Free-format strings (time steps and periods). *)
Definition opt_field (z : Z) (c : ascii) : list ascii := if z =? 0 then [] else fmt z ++ [c].

Lemma free_field v z c k r :
  0 <= z -> free_ok v ->
  (c = "y"%char /\ k = 0%nat /\ pY v = None) \/
  (c = "M"%char /\ k = 1%nat /\ pMo v = None) \/
  (c = "d"%char /\ k = 2%nat /\ pD v = None) \/
  (c = "s"%char /\ k = 5%nat /\ pS v = None) \/
  (c = "u"%char /\ k = 6%nat /\ pU v = None) ->
  floop v (opt_field z c ++ r) =
  floop (if z =? 0 then v else fset v FFree k (pj v) r) r.
Proof.
  intros Hz F H. unfold opt_field. destruct (Z.eqb_spec z 0); [reflexivity|].
  assoc. unfold fmt. sk. erewrite fstep_free by eassumption. reflexivity.
Qed.

Lemma atoi_opt z c r : 0 <= z -> is_digit c = false ->
  z <> 0 -> atoi (opt_field z c ++ r) = z.
Proof.
  intros Hz Hc Hn. unfold opt_field. assert (z =? 0 = false) as -> by lia.
  assoc. apply atoi_fmt0; [lia|exact Hc].
Qed.

Lemma free_round_trip t old :
  valid_date t -> 0 <= year t -> typ t = TypeDelta ->
  cal old = cal t ->
  (typ old = TypeDelta \/ is_zero t = false) ->
  from_formatted_string old (to_free_string t) = Ok t.
Proof.
  intros V Y Ety Hc Hold.
  pose proof V as (Hcal & Vm & Vd & Vs & Vu).
  assert (to_free_string t = opt_field (year t) "y" ++ opt_field (month t) "M" ++
    opt_field (day t) "d" ++ opt_field (sec t) "s" ++ opt_field (usec t) "u" ++ []) as Es.
  { unfold to_free_string, opt_field. rewrite app_nil_r. reflexivity. }
  destruct (is_zero t) eqn:Ez.
  - unfold is_zero in Ez. destruct Hold as [Hold|]; [|discriminate].
    assert (to_free_string t = []) as ->.
    { unfold to_free_string.
      assert (year t =? 0 = true) as -> by lia. assert (month t =? 0 = true) as -> by lia.
      assert (day t =? 0 = true) as -> by lia. assert (sec t =? 0 = true) as -> by lia.
      assert (usec t =? 0 = true) as -> by lia. reflexivity. }
    cbn. f_equal. apply time_ext; cbn; congruence || lia.
  - unfold from_formatted_string.
    assert (forall z c, opt_field z c = [] -> z = 0) as Hemp.
    { intros z c. unfold opt_field. destruct (Z.eqb_spec z 0); [auto|].
      intros H; apply app_eq_nil in H as [_ H]; discriminate. }
    assert (to_free_string t <> []) as Hne.
    { rewrite Es. intros H. 
      apply app_eq_nil in H as [H0 H]. apply app_eq_nil in H as [H1 H].
      apply app_eq_nil in H as [H2 H]. apply app_eq_nil in H as [H3 H].
      apply app_eq_nil in H as [H4 H].
      apply Hemp in H0, H1, H2, H3, H4. unfold is_zero in Ez. lia. }
    assert (forall A (a b : A), match to_free_string t with [] => a | _ => b end = b) as Hs.
    { destruct (to_free_string t); [contradiction|reflexivity]. }
    rewrite Hs. clear Hs Hne Hemp.
    set (r4 := opt_field (usec t) "u" ++ []) in *.
    set (r3 := opt_field (sec t) "s" ++ r4) in *.
    set (r2 := opt_field (day t) "d" ++ r3) in *.
    set (r1 := opt_field (month t) "M" ++ r2) in *.
    rewrite Es.
    set (v0 := mkF FDate None None None None None None None (opt_field (year t) "y" ++ r1) true).
    set (v1 := if year t =? 0 then v0 else fset v0 FFree 0 (pj v0) r1).
    set (v2 := if month t =? 0 then v1 else fset v1 FFree 1 (pj v1) r2).
    set (v3 := if day t =? 0 then v2 else fset v2 FFree 2 (pj v2) r3).
    set (v4 := if sec t =? 0 then v3 else fset v3 FFree 5 (pj v3) r4).
    set (v5 := if usec t =? 0 then v4 else fset v4 FFree 6 (pj v4) []).
    assert (free_ok v0) as F0 by (right; split; reflexivity).
    assert (free_ok v1 /\ pMo v1 = None /\ pD v1 = None /\ pS v1 = None /\ pU v1 = None /\
            pH v1 = None /\ pMi v1 = None /\ oatoi (pY v1) 0 = year t /\ pj v1 = r1)
      as (F1 & M1 & D1 & S1 & U1 & H1 & I1 & Y1 & J1).
    { unfold v1. destruct (Z.eqb_spec (year t) 0) as [E|E].
      - repeat (split; [first [exact F0 | reflexivity | cbn; lia]|]).
        cbn [v0 pj]. unfold opt_field. rewrite E. reflexivity.
      - cbn [fset pY pMo pD pS pU pH pMi pj Nat.eqb oatoi v0].
        repeat (split; [first [reflexivity | left; reflexivity
          | rewrite Z.sub_0_r; apply atoi_opt; [lia|reflexivity|assumption]]|]). reflexivity. }
    assert (free_ok v2 /\ pD v2 = None /\ pS v2 = None /\ pU v2 = None /\
            pH v2 = None /\ pMi v2 = None /\ oatoi (pY v2) 0 = year t /\
            oatoi (pMo v2) 0 = month t /\ pj v2 = r2)
      as (F2 & D2 & S2 & U2 & H2 & I2 & Y2 & M2 & J2).
    { unfold v2. destruct (Z.eqb_spec (month t) 0) as [E|E].
      - repeat (split; [first [assumption | rewrite M1; cbn; lia]|]).
        rewrite J1. unfold r1, opt_field. rewrite E. reflexivity.
      - cbn [fset pY pMo pD pS pU pH pMi pj Nat.eqb oatoi].
        repeat (split; [first [assumption | left; reflexivity
          | rewrite Z.sub_0_r, J1; apply atoi_opt; [lia|reflexivity|assumption]]|]). reflexivity. }
    assert (free_ok v3 /\ pS v3 = None /\ pU v3 = None /\
            pH v3 = None /\ pMi v3 = None /\ oatoi (pY v3) 0 = year t /\
            oatoi (pMo v3) 0 = month t /\ oatoi (pD v3) 0 = day t /\ pj v3 = r3)
      as (F3 & S3 & U3 & H3 & I3 & Y3 & M3 & D3 & J3).
    { unfold v3. destruct (Z.eqb_spec (day t) 0) as [E|E].
      - repeat (split; [first [assumption | rewrite D2; cbn; lia]|]).
        rewrite J2. unfold r2, opt_field. rewrite E. reflexivity.
      - cbn [fset pY pMo pD pS pU pH pMi pj Nat.eqb oatoi].
        repeat (split; [first [assumption | left; reflexivity
          | rewrite Z.sub_0_r, J2; apply atoi_opt; [lia|reflexivity|assumption]]|]). reflexivity. }
    assert (free_ok v4 /\ pU v4 = None /\
            pH v4 = None /\ pMi v4 = None /\ oatoi (pY v4) 0 = year t /\
            oatoi (pMo v4) 0 = month t /\ oatoi (pD v4) 0 = day t /\ oatoi (pS v4) 0 = sec t
            /\ pj v4 = r4)
      as (F4 & U4 & H4 & I4 & Y4 & M4 & D4 & S4 & J4).
    { unfold v4. destruct (Z.eqb_spec (sec t) 0) as [E|E].
      - repeat (split; [first [assumption | rewrite S3; cbn; lia]|]).
        rewrite J3. unfold r3, opt_field. rewrite E. reflexivity.
      - cbn [fset pY pMo pD pS pU pH pMi pj Nat.eqb oatoi].
        repeat (split; [first [assumption | left; reflexivity
          | rewrite Z.sub_0_r, J3; apply atoi_opt; [lia|reflexivity|assumption]]|]). reflexivity. }
    assert (free_ok v5 /\
            pH v5 = None /\ pMi v5 = None /\ oatoi (pY v5) 0 = year t /\
            oatoi (pMo v5) 0 = month t /\ oatoi (pD v5) 0 = day t /\ oatoi (pS v5) 0 = sec t
            /\ oatoi (pU v5) 0 = usec t /\ pj v5 = [])
      as (F5 & H5 & I5 & Y5 & M5 & D5 & S5 & U5 & J5).
    { unfold v5. destruct (Z.eqb_spec (usec t) 0) as [E|E].
      - repeat (split; [first [assumption | rewrite U4; cbn; lia]|]).
        rewrite J4. unfold r4, opt_field. rewrite E. reflexivity.
      - cbn [fset pY pMo pD pS pU pH pMi pj Nat.eqb oatoi].
        repeat (split; [first [assumption | left; reflexivity
          | rewrite Z.sub_0_r, J4; apply atoi_opt; [lia|reflexivity|assumption]]|]). reflexivity. }
    assert (floop v0 (opt_field (year t) "y" ++ r1) = Some v5) as ->.
    { rewrite (free_field v0 _ _ 0 r1) by (tauto || lia || (left; repeat split)). fold v1.
      unfold r1. rewrite (free_field v1 _ _ 1 r2) by (lia || tauto). fold v2.
      unfold r2. rewrite (free_field v2 _ _ 2 r3) by (lia || tauto). fold v3.
      unfold r3. rewrite (free_field v3 _ _ 5 r4) by (lia || tauto). fold v4.
      unfold r4. rewrite (free_field v4 _ _ 6 []) by (lia || tauto). fold v5.
      reflexivity. }
    assert (fst8 v5 = FFree) as ST.
    { destruct (Z.eq_dec (usec t) 0) as [Eu|Eu]; [|unfold v5; rewrite (proj2 (Z.eqb_neq _ _) Eu); reflexivity].
      destruct (Z.eq_dec (sec t) 0) as [E4|E4];
        [|unfold v5, v4; rewrite Eu, (proj2 (Z.eqb_neq _ _) E4); reflexivity].
      destruct (Z.eq_dec (day t) 0) as [E3|E3];
        [|unfold v5, v4, v3; rewrite Eu, E4, (proj2 (Z.eqb_neq _ _) E3); reflexivity].
      destruct (Z.eq_dec (month t) 0) as [E2|E2];
        [|unfold v5, v4, v3, v2; rewrite Eu, E4, E3, (proj2 (Z.eqb_neq _ _) E2); reflexivity].
      destruct (Z.eq_dec (year t) 0) as [E1|E1];
        [|unfold v5, v4, v3, v2, v1; rewrite Eu, E4, E3, E2, (proj2 (Z.eqb_neq _ _) E1); reflexivity].
      unfold is_zero in Ez. lia. }
    assert (ffinal v5 = Some v5) as -> by (unfold ffinal; rewrite J5; reflexivity).
    rewrite ST. cbn [fstate_eqb]. rewrite H5, I5, Y5, M5, D5, S5, U5. cbn [oatoi].
    replace (mkTime _ _ _ _ _ _ _) with t
      by (apply time_ext; cbn; congruence || lia).
    apply normalize_valid_id; assumption.
Qed.
