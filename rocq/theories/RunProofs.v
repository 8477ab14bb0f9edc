From Coq Require Import ZArith Bool List Lia ZifyBool Ascii Sorted.
From Verif Require Import TimeModel TimeSpec TimeProofs TimeStrModel TimeStrProofs TimeProofs2
  RunModel RunSpec.
Import ListNotations.
Local Open Scope Z_scope.
Ltac Zify.zify_post_hook ::= Z.div_mod_to_equations.

(** ** Adding a positive delta advances the clock *)
Definition mstart (k : Z) : Z := 365 * (k / 12) + dtm false (k mod 12).

Lemma mstart_succ k : mstart k + 28 <= mstart (k + 1).
Proof.
  unfold mstart.
  pose proof (mdays_bounds false (k mod 12)) as B.
  destruct (Z.eq_dec (k mod 12) 11) as [E|E].
  - assert ((k + 1) mod 12 = 0) as -> by lia.
    assert ((k + 1) / 12 = k / 12 + 1) as -> by lia.
    rewrite E, dtm_0. change (dtm false 11) with 334. clear. lia.
  - assert ((k + 1) mod 12 = k mod 12 + 1) as -> by lia.
    assert ((k + 1) / 12 = k / 12) as -> by lia.
    rewrite dtm_succ by lia. lia.
Qed.
Lemma mstart_mono k j : 0 <= j -> mstart k + 28 * j <= mstart (k + j).
Proof.
  intros Hj. rewrite <- (Z2Nat.id j) by lia. generalize (Z.to_nat j) as n. clear Hj.
  induction n as [|n IH]; [replace (k + Z.of_nat 0) with k by lia; lia|].
  replace (k + Z.of_nat (S n)) with (k + Z.of_nat n + 1) by lia.
  pose proof (mstart_succ (k + Z.of_nat n)). lia.
Qed.

Lemma noleap_instant_of y m d s us :
  instant_of CalNoLeap y m d s us = ((mstart (12 * y + m) + d) * 86400 + s) * 1000000 + us.
Proof.
  unfold instant_of, mstart, dty. cbn [spec_leap].
  replace ((12 * y + m) / 12) with (y + m / 12) by lia.
  replace ((12 * y + m) mod 12) with (m mod 12) by lia. lia.
Qed.

Lemma pos_delta_year d : pos_delta d -> 0 <= 12 * year d + month d /\ 0 <= year d.
Proof.
  intros (V & C & _ & P). pose proof V as (_ & Vm & Vd & Vs & Vu).
  enough (0 <= year d) by lia.
  unfold instant in P. rewrite C in *. rewrite noleap_instant_of in P. cbn [spec_leap] in Vd.
  destruct (Z_lt_dec (year d) 0) as [N|N]; [exfalso|lia].
  assert (mstart (12 * year d + month d) + day d < 0); [|nia].
  pose proof (mstart_mono (12 * year d + month d + 1) (- (12 * year d + month d + 1)) ltac:(lia)) as M.
  replace (12 * year d + month d + 1 + - (12 * year d + month d + 1)) with 0 in M by lia.
  change (mstart 0) with 0 in M.
  assert (mstart (12 * year d + month d + 1) = mstart (12 * year d + month d) + mdays false (month d)) as E.
  { unfold mstart. destruct (Z.eq_dec (month d) 11) as [E|E].
    - replace ((12 * year d + month d + 1) mod 12) with 0 by lia.
      replace ((12 * year d + month d + 1) / 12) with (year d + 1) by lia.
      replace ((12 * year d + month d) mod 12) with 11 by lia.
      replace ((12 * year d + month d) / 12) with (year d) by lia.
      rewrite E. change (dtm false 0) with 0. change (dtm false 11) with 334.
      change (mdays false 11) with 31. lia.
    - replace ((12 * year d + month d + 1) mod 12) with (month d + 1) by lia.
      replace ((12 * year d + month d + 1) / 12) with (year d) by lia.
      replace ((12 * year d + month d) mod 12) with (month d) by lia.
      replace ((12 * year d + month d) / 12) with (year d) by lia.
      rewrite dtm_succ by lia. lia. }
  lia.
Qed.

Lemma step_forward t d : fixed_date t -> pos_delta d ->
  exists t', add_time t d = Ok t' /\ fixed_date t' /\ instant t < instant t'.
Proof.
  intros (V & C & T) D. pose proof (pos_delta_year d D) as Yd.
  destruct D as (Vd & Cd & Td & P).
  destruct (add_valid_delta_ok t d C V Vd Td) as (t' & E & V' & C' & T' & I).
  exists t'. split; [exact E|]. split; [repeat split; try apply V'; congruence|].
  rewrite I. unfold instant in *. rewrite C, Cd in *.
  rewrite noleap_instant_of in *. rewrite noleap_instant_of.
  pose proof Vd as (_ & Vdm & Vdd & Vds & Vdu).
  replace (12 * (year t + year d) + (month t + month d))
    with ((12 * year t + month t) + (12 * year d + month d)) by lia.
  pose proof (mstart_mono (12 * year t + month t) (12 * year d + month d) ltac:(lia)) as M.
  destruct (Z.eq_dec (12 * year d + month d) 0) as [E0|E0]; [|lia].
  rewrite E0 in *. change (mstart 0) with 0 in P. rewrite Z.add_0_r in *. lia.
Qed.

Lemma step_forward_exact t d : fixed_date t -> pos_delta d -> month d = 0 ->
  exists t', add_time t d = Ok t' /\ fixed_date t' /\ instant t' = instant t + instant d.
Proof.
  intros F D M. destruct (step_forward t d F D) as (t' & E & F' & _).
  exists t'. split; [exact E|]. split; [exact F'|].
  destruct F as (V & C & T), D as (Vd & Cd & Td & P).
  eapply instant_add_nomonth; eassumption.
Qed.

Lemma fixed_lt a b : fixed_date a -> fixed_date b ->
  time_lt a b = Ok (instant a <? instant b).
Proof.
  intros (Va & Ca & Ta) (Vb & Cb & Tb).
  destruct (lt_chronological a b Va Vb) as [H _]; [congruence..|].
  destruct (time_lt_spec a b) as [[_ E]|[_ E]]; [congruence..| |]; rewrite E in *; f_equal.
  - symmetry. apply Z.ltb_lt. apply H. reflexivity.
  - symmetry. apply Z.ltb_ge. destruct (Z_lt_dec (instant a) (instant b)) as [L|L]; [|lia].
    apply H in L. discriminate.
Qed.
Lemma fixed_ge a b : fixed_date a -> fixed_date b ->
  time_ge a b = Ok (instant b <=? instant a).
Proof.
  intros Fa Fb. unfold time_ge. rewrite fixed_lt by assumption. cbn. f_equal. lia.
Qed.
Lemma fixed_sub a b : fixed_date a -> fixed_date b ->
  time_sub a b = Ok (instant a - instant b).
Proof.
  intros ((_ & Ma & _) & Ca & _) ((_ & Mb & _) & Cb & _). apply time_sub_spec; assumption.
Qed.
Lemma fixed_str a : fixed_date a -> exists s s', to_string a = Ok s /\ to_short_string a = Ok s'.
Proof.
  intros (_ & _ & T). unfold to_string, to_short_string. rewrite T.
  destruct (usec a =? 0); eauto.
Qed.
Lemma pos_not_zero d : pos_delta d -> is_zero d = false.
Proof.
  intros ((_ & Vm & Vd & Vs & Vu) & C & _ & P). unfold is_zero.
  destruct (Z.eqb_spec (year d) 0) as [E1|], (Z.eqb_spec (month d) 0) as [E2|],
    (Z.eqb_spec (day d) 0) as [E3|], (Z.eqb_spec (sec d) 0) as [E4|],
    (Z.eqb_spec (usec d) 0) as [E5|]; try reflexivity.
  unfold instant in P. rewrite C, E1, E2, E3, E4, E5 in P. vm_compute in P. discriminate.
Qed.

(** ** The loop *)
Fixpoint om_fold (om : outman) (cs : list stepcall) : mres outman :=
  match cs with
  | [] => MOk om
  | c :: cs' => bindM (om_poll (sc_last c) (sc_after c) om) (fun o => om_fold o cs')
  end.
Fixpoint wf_fold (w : wfproc) (cs : list stepcall) : mres wfproc :=
  match cs with
  | [] => MOk w
  | c :: cs' => bindM (wf_poll (sc_after c) w) (fun o => wf_fold o cs')
  end.

Lemma Forall2_impl {A B} (P Q : A -> B -> Prop) l l' :
  (forall a b, P a b -> Q a b) -> Forall2 P l l' -> Forall2 Q l l'.
Proof. intros H F. induction F; constructor; auto. Qed.

Lemma mapM_Forall2 {A B} (f : A -> mres B) : forall l l', mapM f l = MOk l' ->
  Forall2 (fun a b => f a = MOk b) l l'.
Proof.
  induction l as [|a l IH]; intros l' H; cbn in H; [injection H as <-; constructor|].
  destruct (f a) as [b| |] eqn:E; try discriminate. cbn in H.
  destruct (mapM f l) as [bs| |] eqn:E2; try discriminate. injection H as <-.
  constructor; auto.
Qed.

(** Trajectory of the loop. *)
Fixpoint traj (dt tend : time) (first : bool) (cur : time) (cs : list stepcall) : Prop :=
  match cs with
  | [] => False
  | c :: cs' =>
    sc_first c = first /\ sc_time c = cur /\ fixed_date (sc_after c) /\
    exists next, add_time cur dt = Ok next /\
    ((instant tend <= instant next /\ sc_last c = true /\ sc_after c = tend
        /\ sc_dt c = instant tend - instant cur /\ cs' = []) \/
     (instant next < instant tend /\ sc_last c = false /\ sc_after c = next
        /\ sc_dt c = instant next - instant cur /\ traj dt tend false next cs'))
  end.

Lemma go_loop_spec dt tend : pos_delta dt -> fixed_date tend ->
  forall fuel first r r', fixed_date (r_time r) -> instant (r_time r) < instant tend ->
  go_loop fuel dt tend first r = MOk r' ->
  exists cs, r_calls r' = r_calls r ++ cs /\ traj dt tend first (r_time r) cs /\
    r_time r' = tend /\
    Forall2 (fun o o' => om_fold o cs = MOk o') (r_oms r) (r_oms r') /\
    Forall2 (fun w w' => wf_fold w cs = MOk w') (r_wfs r) (r_wfs r').
Proof.
  intros D Fe. induction fuel as [|f IH]; intros first r r' Fr L H; [discriminate|].
  cbn [go_loop] in H.
  destruct (step_forward (r_time r) dt Fr D) as (next & En & Fn & Ln).
  rewrite En in H. cbn [bindT] in H.
  rewrite (fixed_ge next tend Fn Fe) in H. cbn [bindT] in H.
  destruct (Z.leb_spec (instant tend) (instant next)) as [Hl|Hl].
  - rewrite (fixed_sub tend (r_time r) Fe Fr) in H. cbn [bindT] in H.
    destruct (fixed_str _ Fr) as (s1 & _ & Es & _). rewrite Es in H. cbn [bindT] in H.
    destruct (mapM (wf_poll tend) (r_wfs r)) as [wfs| |] eqn:Ew; try discriminate.
    cbn [bindM] in H.
    destruct (mapM (om_poll true tend) (r_oms r)) as [oms| |] eqn:Eo; try discriminate.
    cbn [bindM] in H. injection H as <-. cbn [r_calls r_time r_oms r_wfs].
    eexists; split; [reflexivity|]. split.
    { cbn [traj sc_first sc_time sc_after sc_last sc_dt].
      repeat (split; [first [reflexivity|exact Fe]|]).
      exists next. split; [exact En|]. left. auto. }
    split; [reflexivity|]. split.
    + eapply Forall2_impl; [|exact (mapM_Forall2 _ _ _ Eo)]. intros a b E.
      cbn [om_fold sc_last sc_after]. rewrite E. reflexivity.
    + eapply Forall2_impl; [|exact (mapM_Forall2 _ _ _ Ew)]. intros a b E.
      cbn [wf_fold sc_last sc_after]. rewrite E. reflexivity.
  - rewrite (fixed_sub next (r_time r) Fn Fr) in H. cbn [bindT] in H.
    destruct (fixed_str _ Fr) as (s1 & _ & Es & _). rewrite Es in H. cbn [bindT] in H.
    destruct (mapM (wf_poll next) (r_wfs r)) as [wfs| |] eqn:Ew; try discriminate.
    cbn [bindM] in H.
    destruct (mapM (om_poll false next) (r_oms r)) as [oms| |] eqn:Eo; try discriminate.
    cbn [bindM] in H.
    apply IH in H; [|exact Fn|exact Hl]. cbn [r_calls r_time r_oms r_wfs] in H.
    destruct H as (cs & E1 & E2 & E3 & E4 & E5).
    eexists (_ :: cs). split; [rewrite E1, <- app_assoc; reflexivity|]. split.
    { cbn [traj sc_first sc_time sc_after sc_last sc_dt].
      repeat (split; [first [reflexivity|exact Fn]|]).
      exists next. split; [exact En|]. right. auto. }
    split; [exact E3|].
    assert (forall A B C (R1 : A -> B -> Prop) (R2 : B -> C -> Prop) (R3 : A -> C -> Prop),
       (forall a b c, R1 a b -> R2 b c -> R3 a c) ->
       forall l1 l2 l3, Forall2 R1 l1 l2 -> Forall2 R2 l2 l3 -> Forall2 R3 l1 l3) as G.
    { intros A B C R1 R2 R3 G l1 l2 l3 F1. revert l3. induction F1; intros l3 F2;
      inversion F2; subst; constructor; eauto. }
    split.
    + eapply G; [|exact (mapM_Forall2 _ _ _ Eo)|exact E4]. intros a b c Ea Eb.
      cbn [om_fold sc_last sc_after]. rewrite Ea. exact Eb.
    + eapply G; [|exact (mapM_Forall2 _ _ _ Ew)|exact E5]. intros a b c Ea Eb.
      cbn [wf_fold sc_last sc_after]. rewrite Ea. exact Eb.
Qed.

Lemma traj_contiguous dt tend : pos_delta dt -> fixed_date tend ->
  forall cs first cur, fixed_date cur -> instant cur < instant tend ->
  traj dt tend first cur cs ->
  contiguous cur tend cs /\ total_length cs = instant tend - instant cur /\
  (exists n, map sc_first cs = first :: repeat false n /\
             map sc_last cs = repeat false n ++ [true]) /\
  Forall (fun c => fixed_date (sc_after c)) cs /\
  Forall (fun c => exists next, add_time (sc_time c) dt = Ok next /\
     (sc_last c = false -> sc_after c = next) /\ instant (sc_after c) <= instant next) cs.
Proof.
  intros D Fe. induction cs as [|c cs IH]; intros first cur Fc L T; [destruct T|].
  destruct T as (T1 & T2 & T3 & next & En & T).
  destruct (step_forward cur dt Fc D) as (n' & En' & Fn & Ln).
  assert (n' = next) as -> by congruence.
  destruct T as [(A1 & A2 & A3 & A4 & ->)|(A1 & A2 & A3 & A4 & A5)].
  - cbn [contiguous total_length fold_right map]. rewrite A3, A4, A2, T1, T2.
    repeat split; try lia.
    + exists O. auto.
    + repeat constructor; rewrite A3; apply Fe.
    + constructor; [|constructor]. exists next. rewrite T2, A3. repeat split; auto; congruence.
  - specialize (IH false next Fn A1 A5) as (C & Sm & (n & I1 & I2) & F1 & F2).
    cbn [contiguous total_length fold_right map]. fold (total_length cs).
    rewrite A3, A4, A2, T1, T2, I1, I2, Sm.
    repeat split; try lia; try assumption.
    + exists (S n). auto.
    + constructor; [rewrite A3; exact Fn|exact F1].
    + constructor; [|exact F2]. exists next. rewrite T2, A3. repeat split; auto; lia.
Qed.

(** Termination: enough fuel never runs out. *)
Lemma go_loop_fuel dt tend : pos_delta dt -> fixed_date tend ->
  forall fuel first r, fixed_date (r_time r) -> instant (r_time r) < instant tend ->
  instant tend - instant (r_time r) <= Z.of_nat fuel ->
  go_loop fuel dt tend first r <> MFuel.
Proof.
  intros D Fe. induction fuel as [|f IH]; intros first r Fr L B; [lia|].
  cbn [go_loop].
  assert (forall A (x : mres A), (exists a, x = MOk a) \/ (exists e, x = MThrow e) \/ x = MFuel) as Tri.
  { intros A []; eauto. }
  assert (forall A B (f : A -> mres B) l, (forall a, f a <> MFuel) -> mapM f l <> MFuel) as MF.
  { intros A B' g l G. induction l as [|a l IHl]; cbn; [discriminate|].
    specialize (G a). destruct (g a); cbn; try congruence; try discriminate.
    destruct (mapM g l); cbn; congruence. }
  assert (forall A B (x : res A) (f : A -> mres B), (forall a, f a <> MFuel) -> bindT x f <> MFuel) as BT.
  { intros A B' [] g G; cbn; auto; discriminate. }
  assert (forall A B (x : mres A) (f : A -> mres B), x <> MFuel -> (forall a, f a <> MFuel) -> bindM x f <> MFuel) as BM.
  { intros A B' [] g N G; cbn; auto; discriminate. }
  assert (forall t w, wf_poll t w <> MFuel) as W.
  { intros t w. unfold wf_poll, wf_ready, wf_perform. apply BM.
    - destruct (is_zero (wfreq w)); [discriminate|]. apply BT; discriminate.
    - intros []; [apply BT|]; discriminate. }
  assert (forall o t, perform_output o t <> MFuel) as P.
  { intros o t. unfold perform_output. apply BM.
    - destruct (is_open o); [discriminate|]. apply BT. intros _. destruct (openok _ _); discriminate.
    - intros a. destruct (_ =? _); discriminate. }
  assert (forall l t o, om_poll l t o <> MFuel) as O.
  { intros l t o. unfold om_poll, final_output, is_output_needed, manage_output.
    destruct l.
    - destruct (time_eq _ _); [discriminate|]. apply BT. intros; apply P.
    - apply BM.
      + destruct (is_zero (freq o)); [discriminate|]. apply BT; discriminate.
      + intros []; [|discriminate]. apply BT. intros _. apply BM; [apply P|].
        intros a. apply BT. discriminate. }
  destruct (step_forward (r_time r) dt Fr D) as (next & En & Fn & Ln).
  rewrite En. cbn [bindT]. rewrite (fixed_ge next tend Fn Fe). cbn [bindT].
  destruct (Z.leb_spec (instant tend) (instant next)) as [Hl|Hl].
  - apply BT. intros d. apply BT. intros _. apply BM; [apply MF; apply W|].
    intros ws. apply BM; [apply MF; intros; apply O|]. discriminate.
  - apply BT. intros d. apply BT. intros _. apply BM; [apply MF; apply W|].
    intros ws. apply BM; [apply MF; intros; apply O|]. intros os.
    apply IH; cbn [r_time]; auto. lia.
Qed.

(** ** Output file layout (C09) *)
Lemma recs_app f : forall a b i, recs f i (a ++ b) = recs f i a ++ recs f (i + Z.of_nat (length a)) b.
Proof.
  induction a as [|t a IH]; intros b i; cbn [app recs length]; [rewrite Z.add_0_r; reflexivity|].
  rewrite IH. f_equal. f_equal. f_equal. lia.
Qed.
Lemma open_block_snoc f ts t : ts <> [] ->
  open_block f (ts ++ [t]) = open_block f ts ++ [EvOutput t f (Z.of_nat (length ts))].
Proof.
  intros N. destruct ts as [|x ts]; [contradiction|].
  unfold open_block. cbn [app]. rewrite (recs_app f (x :: ts) [t] 0 : recs f 0 (x :: ts ++ [t]) = _).
  reflexivity.
Qed.
Lemma closed_blocks_snoc : forall files f ts,
  closed_blocks f (files ++ [ts]) =
  closed_blocks f files ++ open_block (f + Z.of_nat (length files)) ts ++ [EvClose].
Proof.
  induction files as [|x files IH]; intros f ts; cbn [app closed_blocks length].
  - rewrite Z.add_0_r. reflexivity.
  - rewrite IH, <- app_assoc. f_equal. cbn [app].
    replace (f + 1 + Z.of_nat (length files)) with (f + Z.of_nat (S (length files))) by lia. reflexivity.
Qed.

Definition om_inv (om : outman) (ts : list time) : Prop :=
  exists files tail,
    ts = concat files ++ tail /\
    Forall (fun file => Z.of_nat (length file) = per_file om) files /\
    Z.of_nat (length tail) < per_file om /\
    omlog om = closed_blocks 0 files ++ open_block (Z.of_nat (length files)) tail /\
    ix_file om = Z.of_nat (length files) /\ ix_time om = Z.of_nat (length tail) /\
    is_open om = (match tail with [] => false | _ => true end).

Lemma om_inv_new fr b n ok : 1 <= n -> om_inv (new_outman fr b n ok) [].
Proof. intros Hn. exists [], []. cbn. repeat split; auto; lia. Qed.

Lemma perform_output_inv om om' ts t : om_inv om ts -> perform_output om t = MOk om' ->
  om_inv om' (ts ++ [t]) /\ per_file om' = per_file om /\ freq om' = freq om /\
  next_out om' = next_out om /\ last_out om' = last_out om.
Proof.
  intros (files & tail & E1 & E2 & E3 & E4 & E5 & E6 & E7) H. unfold perform_output in H.
  remember (if is_open om then MOk om else _) as opened eqn:Eop in H.
  destruct opened as [o| |]; try discriminate. cbn [bindM] in H.
  assert (omlog o ++ [EvOutput t (ix_file o) (ix_time o)]
            = closed_blocks 0 files ++ open_block (Z.of_nat (length files)) (tail ++ [t])
          /\ ix_file o = ix_file om /\ ix_time o = ix_time om /\ per_file o = per_file om
          /\ freq o = freq om /\ is_open o = true
          /\ next_out o = next_out om /\ last_out o = last_out om)
    as (L & A1 & A2 & A3 & A4 & A5 & A6 & A7).
  { destruct tail as [|x tail].
    - rewrite E7 in Eop. destruct (to_short_string t); cbn in Eop; try discriminate.
      destruct (openok om (nopen om)); [|discriminate]. injection Eop as ->.
      cbn. rewrite E4, E5, E6. cbn. rewrite app_nil_r, <- app_assoc. auto 10.
    - rewrite E7 in Eop. injection Eop as ->. rewrite open_block_snoc by discriminate.
      rewrite E4, E5, E6, <- app_assoc. auto 10. }
  destruct (Z.eqb_spec (ix_time o + 1) (per_file o)) as [Hc|Hc]; injection H as <-; cbn.
  - split; [|auto]. exists (files ++ [tail ++ [t]]), []. cbn.
    rewrite !app_length. cbn [length].
    split. { rewrite E1, concat_app. cbn. rewrite !app_nil_r, app_assoc. reflexivity. }
    split. { rewrite A3. apply Forall_app; split; [exact E2|]. repeat constructor.
             rewrite app_length. cbn. lia. }
    split; [lia|]. split.
    { rewrite closed_blocks_snoc, app_nil_r, Z.add_0_l, app_assoc, <- L, <- app_assoc. reflexivity. }
    repeat split; lia.
  - split; [|auto]. exists files, (tail ++ [t]). cbn. rewrite !app_length. cbn [length].
    split. { rewrite E1, app_assoc. reflexivity. }
    split. { rewrite A3. exact E2. }
    split; [lia|]. split; [exact L|]. repeat split; try lia.
    rewrite A5. destruct tail; reflexivity.
Qed.


Lemma perform_all_inv : forall ts om om' ts0, om_inv om ts0 -> perform_all om ts = MOk om' ->
  om_inv om' (ts0 ++ ts) /\ per_file om' = per_file om.
Proof.
  induction ts as [|t ts IH]; intros om om' ts0 I H; cbn in H.
  - injection H as <-. rewrite app_nil_r. auto.
  - destruct (perform_output om t) as [o| |] eqn:E; try discriminate. cbn in H.
    destruct (perform_output_inv _ _ _ _ I E) as (I' & P & _).
    destruct (IH _ _ _ I' H) as (I2 & P2). rewrite <- app_assoc in I2. split; [exact I2|congruence].
Qed.

Lemma perform_all_layout fr b n ok ts om :
  1 <= n -> perform_all (new_outman fr b n ok) ts = MOk om -> file_layout n (omlog om) ts.
Proof.
  intros Hn H. destruct (perform_all_inv ts _ om [] (om_inv_new fr b n ok Hn) H)
    as ((files & tail & E1 & E2 & E3 & E4 & _) & P).
  cbn in P. rewrite P in *. exists files, tail. auto.
Qed.

Lemma written_recs f : forall ts i, 
  flat_map (fun e => match e with EvOutput t _ _ => [t] | _ => [] end) (recs f i ts) = ts.
Proof. induction ts as [|t ts IH]; intros i; cbn; [reflexivity|f_equal; apply IH]. Qed.
Lemma written_open f ts : 
  flat_map (fun e => match e with EvOutput t _ _ => [t] | _ => [] end) (open_block f ts) = ts.
Proof. destruct ts as [|t ts]; [reflexivity|]. exact (written_recs f (t :: ts) 0). Qed.
Lemma written_closed : forall files f,
  flat_map (fun e => match e with EvOutput t _ _ => [t] | _ => [] end) (closed_blocks f files)
  = concat files.
Proof.
  induction files as [|ts files IH]; intros f; [reflexivity|]. cbn [closed_blocks concat].
  rewrite !flat_map_app, written_open, IH. reflexivity.
Qed.
Lemma om_inv_written om ts : om_inv om ts -> written om = ts.
Proof.
  intros (files & tail & E1 & _ & _ & E4 & _). unfold written.
  rewrite E4, flat_map_app, written_closed, written_open. symmetry; exact E1.
Qed.

Lemma set_times_inv om ts l n : om_inv om ts -> om_inv (set_times om l n) ts.
Proof. intros H; exact H. Qed.

(** ** Schedules (C08, C10) *)
Fixpoint fired (F next : Z) (ts : list Z) : list Z :=
  match ts with
  | [] => []
  | t :: ts' => if next <=? t then t :: fired F (next + F) ts' else fired F next ts'
  end.

Lemma fired_lower F : 0 <= F -> forall ts next i t,
  nth_error (fired F next ts) i = Some t -> next + Z.of_nat i * F <= t.
Proof.
  intros HF. induction ts as [|x ts IH]; intros next i t H; cbn in H; [destruct i; discriminate|].
  destruct (Z.leb_spec next x).
  - destruct i as [|i]; cbn in H; [injection H as <-; lia|].
    apply IH in H. lia.
  - apply IH in H. exact H.
Qed.

Lemma fired_in F : forall ts next t, In t (fired F next ts) -> In t ts.
Proof.
  induction ts as [|x ts IH]; intros next t H; cbn in *; [exact H|].
  destruct (next <=? x); [destruct H as [->|H]; eauto|eauto].
Qed.

(** Step times a + (p+1) D, a + (p+2) D, ... *)
Fixpoint arith (a D : Z) (p : Z) (n : nat) : list Z :=
  match n with O => [] | S n' => a + (p + 1) * D :: arith a D (p + 1) n' end.

Lemma arith_lower a D : 0 < D -> forall n p t, In t (arith a D p n) -> a + p * D < t.
Proof.
  intros HD. induction n as [|n IH]; intros p t H; cbn in H; [destruct H|].
  destruct H as [<-|H]; [lia|]. apply IH in H. lia.
Qed.

Lemma fired_multiples a D k : 0 < D -> 1 <= k -> forall n p j,
  0 <= j -> j * k <= p -> p < (j + 1) * k ->
  forall t, In t (fired (k * D) (a + (j + 1) * (k * D)) (arith a D p n)) <->
            In t (arith a D p n) /\ exists q, t = a + q * (k * D).
Proof.
  intros HD Hk. induction n as [|n IH]; intros p j Hj Hp1 Hp2 t; cbn [arith fired].
  - cbn; tauto.
  - destruct (Z.leb_spec (a + (j + 1) * (k * D)) (a + (p + 1) * D)) as [Hl|Hl].
    + assert (p + 1 = (j + 1) * k) as Ep by nia.
      replace (a + (j + 1) * (k * D) + k * D) with (a + (j + 1 + 1) * (k * D)) by ring.
      cbn [In]. rewrite (IH (p + 1) (j + 1)) by nia. split.
      * intros [<-|[H1 H2]]; [split; [left; reflexivity|exists (j + 1); nia]|tauto].
      * intros [[<-|H1] H2]; [left; reflexivity|right; tauto].
    + rewrite (IH (p + 1) j) by nia. cbn [In]. split; [tauto|].
      intros [[<-|H1] [q Hq]]; [|split; eauto].
      exfalso. assert (p + 1 = q * k) as Eq by (apply (Z.mul_reg_r _ _ D); [lia|]; nia).
      assert (p + 1 < (j + 1) * k) as Lq.
      { apply (Z.mul_lt_mono_pos_r D); [lia|].
        replace ((j + 1) * k * D) with ((j + 1) * (k * D)) by ring. lia. }
      rewrite Eq in Lq. assert (j * k < q * k) as Lj by lia.
      apply Z.mul_lt_mono_pos_r in Lq; [|lia]. apply Z.mul_lt_mono_pos_r in Lj; [|lia]. lia.
Qed.

(** An output manager with positive month-free period polled at dates that
    are not last. *)
Definition sched_inv (s F : Z) (om : outman) (n : Z) : Prop :=
  fixed_date (next_out om) /\ instant (next_out om) = s + (n + 1) * F.

Lemma manage_ok om t om' ts F s n :
  pos_delta (freq om) -> month (freq om) = 0 -> F = instant (freq om) ->
  sched_inv s F om n -> om_inv om ts -> manage_output om t = MOk om' ->
  om_inv om' (ts ++ [t]) /\ sched_inv s F om' (n + 1) /\ freq om' = freq om /\
  per_file om' = per_file om /\ last_out om' = t.
Proof.
  intros D M EF (S1 & S2) I H. unfold manage_output in H.
  destruct (to_string t); cbn in H; try discriminate.
  destruct (perform_output om t) as [o| |] eqn:E; try discriminate. cbn in H.
  destruct (perform_output_inv _ _ _ _ I E) as (I' & P1 & P2 & P3 & P4).
  rewrite P3, P2 in H.
  destruct (step_forward_exact (next_out om) (freq om) S1 D M) as (n' & En & Fn & In').
  rewrite En in H. cbn in H. injection H as <-.
  split; [exact I'|]. split; [|cbn; auto].
  split; cbn [next_out set_times]; [exact Fn|]. rewrite In', S2, EF. ring.
Qed.

Lemma om_fold_mids dt tend : pos_delta dt -> fixed_date tend ->
  forall cs first cur om om' ts F s n,
  fixed_date cur -> instant cur < instant tend ->
  traj dt tend first cur cs ->
  pos_delta (freq om) -> month (freq om) = 0 -> F = instant (freq om) ->
  sched_inv s F om n -> om_inv om ts ->
  last_out om <> tend ->
  om_fold om cs = MOk om' ->
  exists mids, om_inv om' (ts ++ mids ++ [tend]) /\ per_file om' = per_file om /\
    (forall t, In t mids -> In t (map sc_after cs) /\ instant cur < instant t < instant tend) /\
    increasing mids /\
    map instant mids = fired F (s + (n + 1) * F)
       (map instant (map sc_after (removelast cs))).
Proof.
  intros D Fe. induction cs as [|c cs IH]; intros first cur om om' ts F s n Fc L T Df M EF S I Lo H;
    [destruct T|].
  destruct T as (T1 & T2 & T3 & next & En & T).
  destruct (step_forward cur dt Fc D) as (n0 & En' & Fn & Ln).
  assert (n0 = next) as -> by congruence.
  cbn [om_fold] in H.
  destruct T as [(A1 & A2 & A3 & A4 & ->)|(A1 & A2 & A3 & A4 & A5)].
  - rewrite A2, A3 in H. cbn [om_poll om_fold] in H.
    destruct (final_output om tend) as [o| |] eqn:E; try discriminate. cbn in H. injection H as ->.
    unfold final_output in E.
    destruct (time_eq tend (last_out om)) eqn:Eq.
    { apply time_eq_iff in Eq. congruence. }
    destruct (to_string tend); cbn in E; try discriminate.
    destruct (perform_output_inv _ _ _ _ I E) as (I' & P1 & _).
    exists []. cbn. repeat split; auto; try contradiction. constructor.
  - rewrite A2, A3 in H. unfold om_poll in H.
    unfold is_output_needed in H. rewrite (pos_not_zero _ Df) in H.
    destruct S as (S1 & S2). rewrite (fixed_lt next (next_out om) Fn S1) in H.
    cbn [bindT bindM] in H. rewrite S2 in H.
    assert (removelast (c :: cs) = c :: removelast cs) as RL.
    { destruct cs; [destruct A5|reflexivity]. }
    rewrite RL. cbn [map fired].
    destruct (negb (instant next <? s + (n + 1) * F)) eqn:Eb.
    + destruct (manage_output om next) as [o| |] eqn:E; try discriminate. cbn in H.
      destruct (manage_ok om next o ts F s n Df M EF (conj S1 S2) I E) as (I' & S' & P1 & P2 & P3).
      destruct (IH false next o om' (ts ++ [next]) F s (n + 1)) as (mids & J1 & J2 & J3 & J4 & J5);
        auto; try congruence.
      { rewrite P3. intros ->. lia. }
      exists (next :: mids). rewrite <- app_assoc in J1. split; [exact J1|].
      split; [congruence|]. split.
      { intros t [<-|Ht]; [cbn; rewrite A3; split; [left; reflexivity|lia]|].
        apply J3 in Ht as [Ht1 Ht2]. split; [right; exact Ht1|lia]. }
      split.
      { constructor; [exact J4|]. apply Forall_forall. intros t Ht. apply J3 in Ht as [_ Ht]. lia. }
      rewrite A3. assert (s + (n + 1) * F <=? instant next = true) as -> by lia.
      cbn [map]. rewrite J5. f_equal. f_equal. ring.
    + cbn in H.
      destruct (IH false next om om' ts F s n) as (mids & J1 & J2 & J3 & J4 & J5);
        auto; try congruence; try (split; assumption).
      exists mids. split; [exact J1|]. split; [congruence|]. split.
      { intros t Ht. apply J3 in Ht as [Ht1 Ht2]. split; [right; exact Ht1|lia]. }
      split; [exact J4|].
      rewrite A3. assert (s + (n + 1) * F <=? instant next = false) as -> by lia. exact J5.
Qed.

(** Times of the steps before the last one. *)
Lemma traj_arith dt tend : pos_delta dt -> fixed_date tend -> month dt = 0 ->
  forall cs first cur a p, fixed_date cur -> instant cur < instant tend ->
  traj dt tend first cur cs -> instant cur = a + p * instant dt ->
  map instant (map sc_after (removelast cs)) = arith a (instant dt) p (length cs - 1).
Proof.
  intros D Fe M. induction cs as [|c cs IH]; intros first cur a p Fc L T E; [destruct T|].
  destruct T as (T1 & T2 & T3 & next & En & T).
  destruct (step_forward_exact cur dt Fc D M) as (n0 & En' & Fn & In').
  assert (n0 = next) as -> by congruence.
  destruct T as [(A1 & A2 & A3 & A4 & ->)|(A1 & A2 & A3 & A4 & A5)]; [reflexivity|].
  assert (removelast (c :: cs) = c :: removelast cs) as ->.
  { destruct cs; [destruct A5|reflexivity]. }
  cbn [map length]. rewrite A3, Nat.sub_succ, Nat.sub_0_r.
  rewrite (IH false next a (p + 1)); auto; [|lia].
  destruct cs as [|c2 cs]; [destruct A5|]. cbn [length]. rewrite Nat.sub_succ, Nat.sub_0_r.
  cbn [arith]. f_equal. lia.
Qed.

(** Workflow processes. *)
Lemma wf_fold_spec dt tend : pos_delta dt -> fixed_date tend ->
  forall cs first cur w w' F s n,
  fixed_date cur -> instant cur < instant tend ->
  traj dt tend first cur cs ->
  pos_delta (wfreq w) -> month (wfreq w) = 0 -> F = instant (wfreq w) ->
  fixed_date (wnext w) -> instant (wnext w) = s + (n + 1) * F ->
  wf_fold w cs = MOk w' ->
  exists ps, wflog w' = wflog w ++ ps /\
    (forall t, In t ps -> In t (map sc_after cs) /\ instant cur < instant t) /\
    increasing ps /\
    map instant ps = fired F (s + (n + 1) * F) (map instant (map sc_after cs)) /\
    instant (wnext w') = s + (n + Z.of_nat (length ps) + 1) * F.
Proof.
  intros D Fe. induction cs as [|c cs IH]; intros first cur w w' F s n Fc L T Df M EF S1 S2 H;
    [destruct T|].
  destruct T as (T1 & T2 & T3 & next & En & T).
  destruct (step_forward cur dt Fc D) as (n0 & En' & Fn & Ln).
  assert (n0 = next) as -> by congruence.
  cbn [wf_fold] in H. unfold wf_poll, wf_ready in H. rewrite (pos_not_zero _ Df) in H.
  rewrite (fixed_lt _ (wnext w) T3 S1) in H. cbn [bindT bindM] in H. rewrite S2 in H.
  cbn [map fired].
  assert (instant cur < instant (sc_after c)) as Lc.
  { destruct T as [(A1 & A2 & A3 & A4 & _)|(A1 & A2 & A3 & A4 & _)]; rewrite A3; lia. }
  destruct (Z.leb_spec (s + (n + 1) * F) (instant (sc_after c))) as [Hf|Hf].
  - assert (negb (instant (sc_after c) <? s + (n + 1) * F) = true) as E by lia. rewrite E in H.
    unfold wf_perform in H.
    destruct (step_forward_exact (wnext w) (wfreq w) S1 Df M) as (n' & E' & Fn' & In').
    rewrite E' in H. cbn [bindT bindM] in H.
    destruct T as [(A1 & A2 & A3 & A4 & ->)|(A1 & A2 & A3 & A4 & A5)].
    + cbn in H. injection H as <-. cbn [wflog wnext].
      exists [sc_after c]. split; [reflexivity|]. split.
      { intros t [<-|[]]. split; [left; reflexivity|exact Lc]. }
      split; [repeat constructor|]. split; [reflexivity|].
      cbn [length]. rewrite In', S2, EF. change (Z.of_nat 1) with 1. ring.
    + destruct (IH false next (mkWF (wfreq w) n' (wflog w ++ [sc_after c])) w' F s (n + 1))
        as (ps & J1 & J2 & J3 & J4 & J5); cbn [wfreq wnext wflog]; auto.
      { rewrite In', S2, EF. ring. }
      exists (sc_after c :: ps). cbn [wflog] in J1. rewrite J1, <- app_assoc. split; [reflexivity|].
      split.
      { intros t [<-|Ht]; [split; [left; reflexivity|exact Lc]|].
        apply J2 in Ht as [Ht1 Ht2]. split; [right; exact Ht1|lia]. }
      split.
      { constructor; [exact J3|]. apply Forall_forall. intros t Ht. apply J2 in Ht as [_ Ht].
        rewrite A3. exact Ht. }
      split; [cbn [map]; rewrite J4; f_equal; f_equal; ring|].
      rewrite J5. cbn [length]. rewrite Nat2Z.inj_succ. unfold Z.succ. ring.
  - assert (negb (instant (sc_after c) <? s + (n + 1) * F) = false) as E by lia. rewrite E in H.
    cbn [bindM] in H.
    destruct T as [(A1 & A2 & A3 & A4 & ->)|(A1 & A2 & A3 & A4 & A5)].
    + cbn in H. injection H as <-. exists []. rewrite app_nil_r. cbn.
      repeat split; auto; try contradiction; [constructor|lia].
    + destruct (IH false next w w' F s n) as (ps & J1 & J2 & J3 & J4 & J5); auto.
      exists ps. split; [exact J1|]. split.
      { intros t Ht. apply J2 in Ht as [Ht1 Ht2]. split; [right; exact Ht1|lia]. }
      auto.
Qed.

(** ** Periods with month fields, and zero periods *)

Lemma add_good t d : fixed_date t -> good_delta d ->
  exists t', add_time t d = Ok t' /\ fixed_date t'.
Proof.
  intros (V & C & T) (Vd & Cd & Td).
  destruct (add_valid_delta_ok t d C V Vd Td) as (t' & E & V' & C' & T' & I).
  exists t'. split; [exact E|]. repeat split; try apply V'; congruence.
Qed.

Lemma om_fold_any dt tend : pos_delta dt -> fixed_date tend ->
  forall cs first cur om om' ts,
  fixed_date cur -> instant cur < instant tend ->
  traj dt tend first cur cs ->
  good_delta (freq om) -> fixed_date (next_out om) -> om_inv om ts ->
  last_out om <> tend ->
  om_fold om cs = MOk om' ->
  exists mids, om_inv om' (ts ++ mids ++ [tend]) /\ per_file om' = per_file om /\
    (forall t, In t mids -> In t (map sc_after cs) /\ instant cur < instant t < instant tend) /\
    increasing mids /\ (is_zero (freq om) = true -> mids = []).
Proof.
  intros D Fe. induction cs as [|c cs IH]; intros first cur om om' ts Fc L T Df S1 I Lo H;
    [destruct T|].
  destruct T as (T1 & T2 & T3 & next & En & T).
  destruct (step_forward cur dt Fc D) as (n0 & En' & Fn & Ln).
  assert (n0 = next) as -> by congruence.
  cbn [om_fold] in H.
  destruct T as [(A1 & A2 & A3 & A4 & ->)|(A1 & A2 & A3 & A4 & A5)].
  - rewrite A2, A3 in H. cbn [om_poll om_fold] in H.
    destruct (final_output om tend) as [o| |] eqn:E; try discriminate. cbn in H. injection H as ->.
    unfold final_output in E.
    destruct (time_eq tend (last_out om)) eqn:Eq.
    { apply time_eq_iff in Eq. congruence. }
    destruct (to_string tend); cbn in E; try discriminate.
    destruct (perform_output_inv _ _ _ _ I E) as (I' & P1 & _).
    exists []. cbn. repeat split; auto; try contradiction. constructor.
  - rewrite A2, A3 in H. unfold om_poll, is_output_needed in H.
    destruct (is_zero (freq om)) eqn:Ez.
    + cbn [bindM] in H.
      destruct (IH false next om om' ts) as (mids & J1 & J2 & J3 & J4 & J5); auto.
      exists mids. split; [exact J1|]. split; [exact J2|]. split; [|auto].
      intros t Ht. apply J3 in Ht as [Ht1 Ht2]. split; [right; exact Ht1|lia].
    + rewrite (fixed_lt next (next_out om) Fn S1) in H. cbn [bindT bindM] in H.
      destruct (negb (instant next <? instant (next_out om))) eqn:Eb.
      * destruct (manage_output om next) as [o| |] eqn:E; try discriminate. cbn in H.
        unfold manage_output in E.
        destruct (to_string next); cbn in E; try discriminate.
        destruct (perform_output om next) as [o1| |] eqn:E1; try discriminate. cbn in E.
        destruct (perform_output_inv _ _ _ _ I E1) as (I' & P1 & P2 & P3 & P4).
        rewrite P3, P2 in E.
        destruct (add_good _ _ S1 Df) as (n' & En2 & Fn'). rewrite En2 in E. cbn in E.
        injection E as <-.
        destruct (IH false next (set_times o1 next n') om' (ts ++ [next]))
          as (mids & J1 & J2 & J3 & J4 & J5); auto.
        { cbn. rewrite P2. exact Df. }
        { cbn. intros ->. lia. }
        exists (next :: mids). rewrite <- app_assoc in J1. split; [exact J1|].
        split; [cbn in J2; congruence|]. split.
        { intros t [<-|Ht]; [cbn; rewrite A3; split; [left; reflexivity|lia]|].
          apply J3 in Ht as [Ht1 Ht2]. split; [right; exact Ht1|lia]. }
        split; [|discriminate].
        constructor; [exact J4|]. apply Forall_forall. intros t Ht. apply J3 in Ht as [_ Ht]. lia.
      * cbn [bindM] in H.
        destruct (IH false next om om' ts) as (mids & J1 & J2 & J3 & J4 & J5); auto.
        exists mids. split; [exact J1|]. split; [exact J2|]. split.
        { intros t Ht. apply J3 in Ht as [Ht1 Ht2]. split; [right; exact Ht1|lia]. }
        split; [exact J4|discriminate].
Qed.

(** Which multiples of the step are visited before the end. *)
Lemma traj_complete dt tend : pos_delta dt -> fixed_date tend -> month dt = 0 ->
  forall cs first cur, fixed_date cur -> instant cur < instant tend ->
  traj dt tend first cur cs -> forall x,
  (In x (map instant (map sc_after (removelast cs))) <->
   (exists i, 1 <= i /\ x = instant cur + i * instant dt) /\ x < instant tend).
Proof.
  intros D Fe M. induction cs as [|c cs IH]; intros first cur Fc L T x; [destruct T|].
  destruct T as (T1 & T2 & T3 & next & En & T).
  destruct (step_forward_exact cur dt Fc D M) as (n0 & En' & Fn & In').
  assert (n0 = next) as -> by congruence.
  assert (0 < instant dt) as P by apply D.
  destruct T as [(A1 & A2 & A3 & A4 & ->)|(A1 & A2 & A3 & A4 & A5)].
  - cbn. split; [contradiction|]. intros ((i & Hi & ->) & H). nia.
  - assert (removelast (c :: cs) = c :: removelast cs) as ->.
    { destruct cs; [destruct A5|reflexivity]. }
    cbn [map In]. rewrite (IH false next Fn A1 A5), A3, In'. split.
    + intros [<-|((i & Hi & ->) & H)].
      * split; [exists 1; lia|lia].
      * split; [|exact H]. exists (i + 1). split; [lia|ring].
    + intros ((i & Hi & ->) & H). destruct (Z.eq_dec i 1) as [->|N]; [left; ring|].
      right. split; [|exact H]. exists (i - 1). split; [lia|ring].
Qed.

Lemma in_instants t l : fixed_date t -> Forall fixed_date l ->
  (In t l <-> In (instant t) (map instant l)).
Proof.
  intros F Fl. rewrite in_map_iff. split; [eauto|].
  intros (x & E & H). rewrite Forall_forall in Fl. specialize (Fl x H).
  assert (x = t) as <-; [|exact H].
  destruct F as (V & C & T), Fl as (V' & C' & T'). apply instant_inj; congruence.
Qed.

(** ** Success *)
Definition om_live (om : outman) : Prop := om_ready om /\ fixed_date (next_out om).
Definition wf_live (w : wfproc) : Prop := good_delta (wfreq w) /\ fixed_date (wnext w).

Lemma perform_ok om t : om_ready om -> fixed_date t ->
  exists o, perform_output om t = MOk o /\ om_ready o /\ next_out o = next_out om.
Proof.
  intros (G & O) F. destruct (fixed_str t F) as (_ & s & _ & Es). unfold perform_output.
  rewrite Es. cbn [bindT]. rewrite O.
  destruct (is_open om); cbn [bindM]; destruct (_ =? _); eexists; split; try reflexivity;
    repeat split; try apply G; try apply O; reflexivity.
Qed.
Lemma initial_ok om t : om_ready om -> fixed_date t ->
  exists o, initial_output om t = MOk o /\ om_live o.
Proof.
  intros R F. destruct (fixed_str t F) as (s & _ & Es & _). unfold initial_output.
  rewrite Es. cbn [bindT].
  destruct (from_restart om); [|destruct (perform_ok om t R F) as (o & E & R' & _); rewrite E];
    cbn [bindM].
  - destruct (add_good t (freq om) F (proj1 R)) as (n & En & Fn). rewrite En. cbn.
    eexists; split; [reflexivity|]. split; [exact R|exact Fn].
  - destruct (add_good t (freq o) F (proj1 R')) as (n & En & Fn). rewrite En. cbn.
    eexists; split; [reflexivity|]. split; [exact R'|exact Fn].
Qed.
Lemma om_poll_ok l t om : om_live om -> fixed_date t ->
  exists o, om_poll l t om = MOk o /\ om_live o.
Proof.
  intros (R & Nx) F. destruct (fixed_str t F) as (s & _ & Es & _). unfold om_poll.
  destruct l.
  - unfold final_output. destruct (time_eq _ _); [eexists; split; [reflexivity|split; assumption]|].
    rewrite Es. cbn. destruct (perform_ok om t R F) as (o & E & R' & N').
    exists o. split; [exact E|]. split; [exact R'|rewrite N'; exact Nx].
  - unfold is_output_needed. destruct (is_zero _); cbn [bindM];
      [eexists; split; [reflexivity|split; assumption]|].
    rewrite (fixed_lt t _ F Nx). cbn [bindT bindM].
    destruct (negb _); [|eexists; split; [reflexivity|split; assumption]].
    unfold manage_output. rewrite Es. cbn [bindT].
    destruct (perform_ok om t R F) as (o & E & R' & N'). rewrite E. cbn [bindM].
    rewrite N'. destruct (add_good _ (freq o) Nx (proj1 R')) as (n & En & Fn). rewrite En. cbn.
    eexists; split; [reflexivity|]. split; [exact R'|exact Fn].
Qed.
Lemma wf_poll_ok t w : wf_live w -> fixed_date t -> exists v, wf_poll t w = MOk v /\ wf_live v.
Proof.
  intros (G & Nx) F. unfold wf_poll, wf_ready.
  destruct (is_zero _); cbn [bindM]; [eexists; split; [reflexivity|split; assumption]|].
  rewrite (fixed_lt t _ F Nx). cbn [bindT bindM].
  destruct (negb _); [|eexists; split; [reflexivity|split; assumption]].
  unfold wf_perform. destruct (add_good _ _ Nx G) as (n & En & Fn). rewrite En. cbn.
  eexists; split; [reflexivity|]. split; [exact G|exact Fn].
Qed.
Lemma mapM_ok {A} (f : A -> mres A) (P Q : A -> Prop) l :
  (forall a, P a -> exists b, f a = MOk b /\ Q b) -> Forall P l ->
  exists l', mapM f l = MOk l' /\ Forall Q l'.
Proof.
  intros H F. induction F as [|a l Pa F (l' & E & FQ)]; cbn; [eauto|].
  destruct (H a Pa) as (b & Eb & Qb). rewrite Eb. cbn. rewrite E. cbn. eauto.
Qed.

Lemma go_loop_ok dt tend : pos_delta dt -> fixed_date tend ->
  forall fuel first r, fixed_date (r_time r) -> instant (r_time r) < instant tend ->
  instant tend - instant (r_time r) <= Z.of_nat fuel ->
  Forall om_live (r_oms r) -> Forall wf_live (r_wfs r) ->
  exists r', go_loop fuel dt tend first r = MOk r'.
Proof.
  intros D Fe. induction fuel as [|f IH]; intros first r Fr L B Ho Hw; [lia|].
  cbn [go_loop].
  destruct (step_forward (r_time r) dt Fr D) as (next & En & Fn & Ln).
  rewrite En. cbn [bindT]. rewrite (fixed_ge next tend Fn Fe). cbn [bindT].
  destruct (fixed_str _ Fr) as (s1 & _ & Es & _).
  destruct (Z.leb_spec (instant tend) (instant next)) as [Hl|Hl].
  - rewrite (fixed_sub tend (r_time r) Fe Fr). cbn [bindT]. rewrite Es. cbn [bindT].
    destruct (mapM_ok (wf_poll tend) wf_live wf_live _ (fun w H => wf_poll_ok tend w H Fe) Hw) as (ws & Ew & _).
    rewrite Ew. cbn [bindM].
    destruct (mapM_ok (om_poll true tend) om_live om_live _ (fun w H => om_poll_ok true tend w H Fe) Ho) as (os & Eo & _).
    rewrite Eo. cbn [bindM]. eauto.
  - rewrite (fixed_sub next (r_time r) Fn Fr). cbn [bindT]. rewrite Es. cbn [bindT].
    destruct (mapM_ok (wf_poll next) wf_live wf_live _ (fun w H => wf_poll_ok next w H Fn) Hw) as (ws & Ew & Hw').
    rewrite Ew. cbn [bindM].
    destruct (mapM_ok (om_poll false next) om_live om_live _ (fun w H => om_poll_ok false next w H Fn) Ho) as (os & Eo & Ho').
    rewrite Eo. cbn [bindM]. apply IH; cbn [r_time r_oms r_wfs]; auto. lia.
Qed.

(** ** Statements about whole runs *)
Lemma go_inv fuel dt s e oms wfs r : pos_delta dt -> fixed_date s -> fixed_date e ->
  go fuel dt s e oms wfs = MOk (Some r) ->
  instant s < instant e /\ r_time r = e /\ traj dt e true s (r_calls r) /\
  Forall2 (fun o o' => exists o1, initial_output o s = MOk o1 /\ om_fold o1 (r_calls r) = MOk o') oms (r_oms r) /\
  Forall2 (fun w w' => exists w1, wf_initialize w s = MOk w1 /\ wf_fold w1 (r_calls r) = MOk w') wfs (r_wfs r).
Proof.
  intros D Fs Fe H. unfold go in H. rewrite (pos_not_zero _ D) in H.
  rewrite (fixed_ge s e Fs Fe) in H. cbn [bindT] in H.
  destruct (Z.leb_spec (instant e) (instant s)) as [Hl|Hl].
  { destruct (fixed_str _ Fs) as (s1 & _ & E1 & _). rewrite E1 in H.
    destruct (fixed_str _ Fe) as (s2 & _ & E2 & _). rewrite E2 in H. discriminate. }
  destruct (mapM _ oms) as [oms1| |] eqn:Eo; try discriminate. cbn [bindM] in H.
  destruct (mapM _ wfs) as [wfs1| |] eqn:Ew; try discriminate. cbn [bindM] in H.
  destruct (go_loop _ _ _ _ _) as [r0| |] eqn:E; try discriminate. cbn in H. injection H as ->.
  apply go_loop_spec in E; auto. cbn [r_calls r_time r_oms r_wfs app] in E.
  destruct E as (cs & E1 & E2 & E3 & E4 & E5). rewrite E1.
  apply mapM_Forall2 in Eo, Ew.
  assert (forall A B C (R1 : A -> B -> Prop) (R2 : B -> C -> Prop),
       forall l1 l2 l3, Forall2 R1 l1 l2 -> Forall2 R2 l2 l3 ->
       Forall2 (fun a c => exists b, R1 a b /\ R2 b c) l1 l3) as G.
  { intros A B C R1 R2 l1 l2 l3 F1. revert l3. induction F1; intros l3 F2;
    inversion F2; subst; constructor; eauto. }
  repeat split; auto; eapply G; eassumption.
Qed.

Lemma increasing_app l a b s e :
  increasing l -> (forall t, In t l -> instant a < instant t < instant b) ->
  instant s = instant a -> instant e = instant b -> instant a < instant b ->
  increasing (s :: l ++ [e]) /\ increasing (l ++ [e]).
Proof.
  intros I B Es Ee L.
  assert (increasing (l ++ [e])) as I2.
  { induction I as [|x l I IH F]; cbn; [repeat constructor|].
    constructor; [apply IH; intros; apply B; right; assumption|].
    apply Forall_app; split; [exact F|]. constructor; [|constructor].
    rewrite Ee. apply B. left; reflexivity. }
  split; [|exact I2]. constructor; [exact I2|].
  apply Forall_app; split; [|repeat constructor; lia].
  apply Forall_forall. intros t Ht. rewrite Es. apply B. exact Ht.
Qed.

Lemma initial_inv fr b n ok s o1 : 1 <= n -> fixed_date s -> good_delta fr ->
  initial_output (new_outman fr b n ok) s = MOk o1 ->
  om_inv o1 (if b then [] else [s]) /\ freq o1 = fr /\ per_file o1 = n /\
  fixed_date (next_out o1) /\ add_time s fr = Ok (next_out o1) /\
  last_out o1 = default_time CalNoLeap TypeFixed.
Proof.
  intros Hn Fs G H. unfold initial_output in H. cbn [from_restart new_outman] in H.
  destruct (to_string s); cbn [bindT] in H; try discriminate.
  destruct (add_good s fr Fs G) as (nx & En & Fn).
  destruct b; cbn [bindM] in H.
  - cbn [freq new_outman] in H. rewrite En in H. cbn in H. injection H as <-.
    pose proof (om_inv_new fr true n ok Hn). repeat split; auto; apply Fn.
  - destruct (perform_output _ s) as [o| |] eqn:E; try discriminate. cbn [bindM] in H.
    destruct (perform_output_inv _ _ _ _ (om_inv_new fr false n ok Hn) E) as (I & P1 & P2 & P3 & P4).
    cbn in P1, P2, P3, P4. rewrite P2, En in H. cbn in H. injection H as <-.
    cbn [next_out set_times freq per_file last_out]. repeat split; auto; apply Fn.
Qed.
