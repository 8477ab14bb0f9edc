(** Invariant of the exchange protocol. *)
From Coq Require Import ZArith Bool List Lia Permutation Morphisms RelationClasses.
From Verif Require Import ProtoModel.
Import ListNotations.
Local Open Scope Z_scope.

Arguments upd : simpl never.
Arguments upd2 : simpl never.
Lemma upd_same {X} (f : Z -> X) r v : upd f r v r = v.
Proof. unfold upd. rewrite Z.eqb_refl. reflexivity. Qed.
Lemma upd_other {X} (f : Z -> X) r v q : q <> r -> upd f r v q = f q.
Proof. unfold upd. destruct (Z.eqb_spec q r); congruence. Qed.
Lemma upd2_same {X} (f : Z -> Z -> X) r p v : upd2 f r p v r p = v.
Proof. unfold upd2. rewrite upd_same. apply upd_same. Qed.
Lemma upd2_other {X} (f : Z -> Z -> X) r p v r' p' : r' <> r \/ p' <> p -> upd2 f r p v r' p' = f r' p'.
Proof.
  unfold upd2. intros H. destruct (Z.eq_dec r' r) as [->|N].
  - rewrite upd_same. apply upd_other. destruct H; congruence.
  - rewrite upd_other by exact N. reflexivity.
Qed.

(** ** WaitReceive *)
Lemma sweep_spec ps got test : forall c,
  match sweep ps got test c with
  | (Some p, _) => In p ps /\ got p = false /\ test p = true
  | (None, c') => (forall p, In p ps -> got p = false -> test p = false) /\
      (c <= c' <= c + length ps)%nat /\ (c' = (c + length ps)%nat <-> (forall p, In p ps -> got p = true))
  end.
Proof.
  induction ps as [|p ps IH]; intros c; cbn [sweep length].
  - split; [intros p []|]. split; [lia|]. split; [intros _ p []|lia].
  - destruct (got p) eqn:G.
    + specialize (IH (S c)). destruct (sweep ps got test (S c)) as [[q|] c'].
      * destruct IH as (I & H). split; [right; exact I|exact H].
      * destruct IH as (H1 & H2 & H3). split; [|split; [lia|]].
        -- intros q [<-|I] Gq; [congruence|auto].
        -- replace (c + S (length ps))%nat with (S c + length ps)%nat by lia. rewrite H3. split.
           ++ intros H q [<-|I]; auto.
           ++ intros H q I. apply H. right. exact I.
    + destruct (test p) eqn:T; [split; [left; reflexivity|auto]|].
      specialize (IH c). destruct (sweep ps got test c) as [[q|] c'].
      * destruct IH as (I & H). split; [right; exact I|exact H].
      * destruct IH as (H1 & H2 & H3). split; [|split; [lia|]].
        -- intros q [<-|I] Gq; [exact T|auto].
        -- split; [lia|]. intros H. specialize (H p (or_introl eq_refl)). congruence.
Qed.
Lemma wait_receive_spec fuel : forall n ps got test c,
  (c = length ps -> forall p, In p ps -> got p = true) ->
  match wait_receive fuel n ps got test c with
  | WFrom p => In p ps /\ got p = false /\ exists m, (n <= m < n + fuel)%nat /\ test m p = true
  | WNull => forall p, In p ps -> got p = true
  | WSpin => forall p m, In p ps -> got p = false -> (n <= m < n + fuel)%nat -> test m p = false
  end.
Proof.
  induction fuel as [|fuel IH]; intros n ps got test c Hc; cbn [wait_receive];
    destruct (Nat.eqb_spec c (length ps)); auto.
  - intros; lia.
  - pose proof (sweep_spec ps got (test n) 0) as SW. destruct (sweep ps got (test n) 0) as [[p|] c'].
    + destruct SW as (I & G & T). split; [exact I|]. split; [exact G|]. exists n. split; [lia|exact T].
    + destruct SW as (H1 & H2 & H3). specialize (IH (S n) ps got test c' (fun E => proj1 H3 E)).
      destruct (wait_receive fuel (S n) ps got test c') as [| |p]; auto.
      * intros p m I G L. destruct (Nat.eq_dec m n) as [->|]; [auto|]. apply IH; auto. lia.
      * destruct IH as (I & G & m & L & T). split; [exact I|]. split; [exact G|]. exists m. split; [lia|exact T].
Qed.

Section Inv.
Context {St M : Type}.
Context (ranks : list Z) (procs : Z -> list Z) (rounds : nat).
Context (pack : Z -> St -> Z -> M) (unpack : Z -> St -> Z -> M -> St) (work : Z -> nat -> St -> St) (s0 : Z -> St).
Context (eqv : St -> St -> Prop).
Record network : Prop := {
  n_nodup : forall r, In r ranks -> NoDup (procs r);
  n_known : forall r q, In r ranks -> In q (procs r) -> In q ranks;
  n_sym : forall r q, In r ranks -> In q ranks -> In q (procs r) -> In r (procs q) }.
(** Equality of states up to [eqv], respected by all operations; messages of
    one round from different ranks may be unpacked in either order. *)
Record well_behaved : Prop := {
  b_eqv : Equivalence eqv;
  b_pack : forall r s s' p, eqv s s' -> pack r s p = pack r s' p;
  b_unpack : forall r s s' q m, eqv s s' -> eqv (unpack r s q m) (unpack r s' q m);
  b_work : forall r n s s', eqv s s' -> eqv (work r n s) (work r n s');
  b_comm : forall n r s q q', In r ranks -> In q (procs r) -> In q' (procs r) -> q <> q' ->
    let m x := pack x (lockstep procs pack unpack work s0 n x) r in
    eqv (unpack r (unpack r s q (m q)) q' (m q')) (unpack r (unpack r s q' (m q')) q (m q)) }.
Context (N : network) (B : well_behaved).
Notation world := (@world St M).
Notation step := (step ranks procs rounds pack unpack work).
Notation ref := (lockstep procs pack unpack work s0).
Definition msg n q p := pack q (ref n q) p.
Definition folded n r (l : list Z) := fold_left (fun s q => unpack r s q (msg n q r)) l (ref n r).

Lemma eqv_refl s : eqv s s. Proof. apply (@Equivalence_Reflexive _ _ (b_eqv B)). Qed.
Lemma eqv_sym s t : eqv s t -> eqv t s. Proof. apply (@Equivalence_Symmetric _ _ (b_eqv B)). Qed.
Lemma eqv_trans s t u : eqv s t -> eqv t u -> eqv s u. Proof. apply (@Equivalence_Transitive _ _ (b_eqv B)). Qed.
Lemma fold_proper n r l : forall s s', eqv s s' ->
  eqv (fold_left (fun s q => unpack r s q (msg n q r)) l s) (fold_left (fun s q => unpack r s q (msg n q r)) l s').
Proof. induction l as [|q l IH]; intros s s' E; cbn; [exact E|]. apply IH, (b_unpack B), E. Qed.
Lemma fold_perm n r l l' : In r ranks -> Permutation l l' -> NoDup l -> (forall q, In q l -> In q (procs r)) ->
  forall s, eqv (fold_left (fun s q => unpack r s q (msg n q r)) l s) (fold_left (fun s q => unpack r s q (msg n q r)) l' s).
Proof.
  intros R P. induction P as [|x l l' P IH|x y l|l l' l'' P1 IH1 P2 IH2]; intros ND HI s; cbn.
  - apply eqv_refl.
  - inversion ND; subst. apply IH; auto. intros q I. apply HI. right. exact I.
  - apply fold_proper. apply (b_comm B n r); auto.
    + apply HI. left. reflexivity.
    + apply HI. right. left. reflexivity.
    + inversion ND as [|? ? F _]; subst. intros ->. apply F. left. reflexivity.
  - eapply eqv_trans; [apply IH1; auto|]. apply IH2.
    + eapply Permutation_NoDup; eauto.
    + intros q I. apply HI. eapply Permutation_in; [apply Permutation_sym, P1|exact I].
Qed.

Definition sentn (w : world) (q : Z) : nat := (rnd w q + match ph w q with Receiving => 1 | _ => 0 end)%nat.
Definition entered (w : world) (q p : Z) : nat := (sentn w q - if pend w q p then 1 else 0)%nat.
Definition open_ (x : phase) : bool := match x with Packing | Sending | Receiving => true | _ => false end.
Definition recvd (w : world) (p q : Z) : nat :=
  (rnd w p + if open_ (ph w p) then match req w p q with Arrived => 1 | _ => 0 end else 0)%nat.

Arguments sentn : simpl never.
Arguments entered : simpl never.
Arguments recvd : simpl never.
Record rank_ok (w : world) (r : Z) : Prop := {
  r_thrown : ph w r <> Thrown;
  r_rounds : (rnd w r <= rounds)%nat /\ (ph w r <> Waiting -> (rnd w r < rounds)%nat);
  r_dat : ph w r <> Receiving -> eqv (dat w r) (ref (rnd w r) r);
  r_recv : ph w r = Receiving -> exists l, NoDup l /\ (forall q, In q l <-> In q (procs r) /\ got w r q = true) /\
     eqv (dat w r) (folded (rnd w r) r l);
  r_act : match ph w r with Preparing | Packing | Sending => act w r = false | Receiving => act w r = true | _ => True end;
  r_sbuf : ph w r = Sending -> forall p, In p (procs r) -> sbuf w r p = msg (rnd w r) r p;
  r_got : open_ (ph w r) = true -> ph w r <> Receiving -> forall q, In q (procs r) -> got w r q = false }.
Record pair_ok (w : world) (q p : Z) : Prop := {
  p_pend : pend w q p = true -> (ph w q = Receiving \/ ph w q = Waiting) /\ act w q = true /\
    (1 <= sentn w q)%nat /\ sbuf w q p = msg (sentn w q - 1) q p;
  p_req : open_ (ph w p) = false -> req w p q <> Posted;
  p_req' : open_ (ph w p) = true -> req w p q <> Idle;
  p_rbuf : open_ (ph w p) = true -> req w p q = Arrived -> rbuf w p q = msg (rnd w p) q p;
  p_got : ph w p = Receiving -> got w p q = true -> req w p q = Arrived;
  p_chan : (recvd w p q <= entered w q p)%nat /\
    chan w q p = map (fun k => msg k q p) (seq (recvd w p q) (entered w q p - recvd w p q)) }.
Definition inv (w : world) : Prop :=
  (forall r, In r ranks -> rank_ok w r) /\
  (forall q p, In q ranks -> In p (procs q) -> pair_ok w q p).

Lemma inv_start w : start ranks procs w s0 -> inv w.
Proof.
  intros (A & C). split.
  - intros r R. destruct (A r R) as (E1 & E2 & E3 & E4). constructor; rewrite ?E1, ?E2; try discriminate.
    + split; [lia|congruence].
    + intros _. rewrite E3. apply eqv_refl.
    + exact I.
  - intros q p Q P. destruct (A q Q) as (E1 & E2 & E3 & E4). destruct (A p (n_known N q p Q P)) as (F1 & F2 & _ & _).
    destruct (C q p Q P) as (G1 & G2 & G3).
    constructor; rewrite ?F2, ?G3, ?G1; cbn; try discriminate.
    unfold recvd, entered, sentn. rewrite E1, E2, F1, F2, G1, G2. cbn. split; [lia|reflexivity].
Qed.

Ltac rk r x := destruct (Z.eq_dec x r) as [->|?]; [rewrite ?upd_same in *|rewrite ?(upd_other _ r _ x) in * by assumption].

Lemma rank_same w w' r : rank_ok w r -> rnd w' r = rnd w r -> ph w' r = ph w r -> dat w' r = dat w r ->
  act w' r = act w r -> sbuf w' r = sbuf w r -> got w' r = got w r -> rank_ok w' r.
Proof.
  intros [] E1 E2 E3 E4 E5 E6. constructor; rewrite ?E1, ?E2, ?E3, ?E4, ?E5, ?E6; auto.
Qed.
Lemma pair_same w w' q p : pair_ok w q p ->
  rnd w' q = rnd w q -> ph w' q = ph w q -> act w' q = act w q -> sbuf w' q p = sbuf w q p -> pend w' q p = pend w q p ->
  chan w' q p = chan w q p ->
  rnd w' p = rnd w p -> ph w' p = ph w p -> req w' p q = req w p q -> rbuf w' p q = rbuf w p q -> got w' p q = got w p q ->
  pair_ok w' q p.
Proof.
  intros [] E1 E2 E3 E4 E5 E6 E7 E8 E9 E10 E11.
  assert (sentn w' q = sentn w q) as S1 by (unfold sentn; rewrite E1, E2; reflexivity).
  assert (entered w' q p = entered w q p) as S2 by (unfold entered; rewrite S1, E5; reflexivity).
  assert (recvd w' p q = recvd w p q) as S3 by (unfold recvd; rewrite E7, E8, E9; reflexivity).
  constructor; rewrite ?E2, ?E3, ?E4, ?E5, ?E6, ?E7, ?E8, ?E9, ?E10, ?E11, ?S1, ?S2, ?S3; auto.
Qed.
Lemma seq_snoc a n : seq a (S n) = seq a n ++ [(a + n)%nat].
Proof. rewrite <- Nat.add_1_r, seq_app. reflexivity. Qed.

(** A rank changing phase: which facts about its pairs must be shown again. *)
Lemma phase_pair (w w' : world) q p r :
  pair_ok w q p -> (q = r \/ p = r) ->
  (forall x, x <> r -> rnd w' x = rnd w x /\ ph w' x = ph w x /\ act w' x = act w x /\ (forall y, sbuf w' x y = sbuf w x y) /\
     (forall y, pend w' x y = pend w x y) /\ (forall y, req w' x y = req w x y) /\ (forall y, got w' x y = got w x y)) ->
  (forall x y, chan w' x y = chan w x y) -> (forall x y, rbuf w' x y = rbuf w x y) ->
  (q = r -> (pend w' r p = true -> (ph w' r = Receiving \/ ph w' r = Waiting) /\ act w' r = true /\
    (1 <= sentn w' r)%nat /\ sbuf w' r p = msg (sentn w' r - 1) r p) /\ entered w' r p = entered w r p) ->
  (p = r -> (open_ (ph w' r) = false -> req w' r q <> Posted) /\ (open_ (ph w' r) = true -> req w' r q <> Idle) /\
     (open_ (ph w' r) = true -> req w' r q = Arrived -> rbuf w r q = msg (rnd w' r) q r) /\
     (ph w' r = Receiving -> got w' r q = true -> req w' r q = Arrived) /\ recvd w' r q = recvd w r q) ->
  pair_ok w' q p.
Proof.
  intros [] D O HC HR Hq Hp.
  assert (q <> r -> sentn w' q = sentn w q) as S1
    by (intros n; destruct (O q n) as (E1 & E2 & _); unfold sentn; rewrite E1, E2; reflexivity).
  constructor.
  - destruct (Z.eq_dec q r) as [->|n]; [apply Hq; reflexivity|].
    rewrite (S1 n). destruct (O q n) as (E1 & E2 & E3 & E4 & E5 & _). rewrite E2, E3, E4, E5. exact p_pend0.
  - destruct (Z.eq_dec p r) as [->|n]; [apply Hp; reflexivity|]. destruct (O p n) as (E1 & E2 & E3 & E4 & E5 & E6 & E7).
    rewrite E2, E6. exact p_req0.
  - destruct (Z.eq_dec p r) as [->|n]; [apply Hp; reflexivity|]. destruct (O p n) as (E1 & E2 & E3 & E4 & E5 & E6 & E7).
    rewrite E2, E6. exact p_req'0.
  - rewrite HR. destruct (Z.eq_dec p r) as [->|n]; [apply Hp; reflexivity|]. destruct (O p n) as (E1 & E2 & E3 & E4 & E5 & E6 & E7).
    rewrite E2, E6, E1. exact p_rbuf0.
  - destruct (Z.eq_dec p r) as [->|n]; [apply Hp; reflexivity|]. destruct (O p n) as (E1 & E2 & E3 & E4 & E5 & E6 & E7).
    rewrite E2, E6, E7. exact p_got0.
  - rewrite HC.
    assert (entered w' q p = entered w q p) as ->.
    { destruct (Z.eq_dec q r) as [->|n]; [apply Hq; reflexivity|]. unfold entered. rewrite (S1 n).
      destruct (O q n) as (_ & _ & _ & _ & E5 & _). rewrite E5. reflexivity. }
    assert (recvd w' p q = recvd w p q) as ->.
    { destruct (Z.eq_dec p r) as [->|n]; [apply Hp; reflexivity|]. unfold recvd.
      destruct (O p n) as (E1 & E2 & _ & _ & _ & E6 & _). rewrite E1, E2, E6. reflexivity. }
    exact p_chan0.
Qed.

Ltac others := intros x ?; cbn; rewrite ?(upd_other _ _ _ x) by assumption; repeat split; reflexivity.
Ltac rank_other r x := match goal with H : forall r, In r ranks -> rank_ok ?w r |- _ => refine (rank_same w _ x (H x _) _ _ _ _ _ _) end; cbn; rewrite ?(upd_other _ r _ x) by assumption; auto.
Ltac not_r q p r := destruct (Z.eq_dec q r) as [?|Nq]; [|destruct (Z.eq_dec p r) as [?|Np]].

Lemma inv_step w w' : inv w -> step w w' -> inv w'.
Proof.
  intros (HA & HB) S. destruct S as [w r R E L A|w r R E|w r R E|w r R E A|w r R E A|w r q R E Q RA G|w r R E G|w q p Q P Pe|w q p m ms Q P C Rq].
  - (* wait *)
    pose proof (HA r R) as Hr. split.
    + intros x X. destruct (Z.eq_dec x r) as [->|]; [|rank_other r x].
      destruct Hr. constructor; cbn; rewrite ?upd_same; try discriminate; auto.
      * split; [lia|auto].
      * intros _. apply r_dat0. congruence.
    + intros q p Q P. destruct (Z.eq_dec q r) as [Eq|Nq]; [|destruct (Z.eq_dec p r) as [Ep|Np]].
      all: try (apply (phase_pair w _ q p r (HB q p Q P)); [tauto|others|reflexivity|reflexivity| |]).
      1-4: destruct (HB q p Q P); intros; subst; cbn; rewrite ?upd_same.
      * split.
        -- intros Pe. exfalso. destruct (p_pend0 Pe) as (_ & Ac & _). rewrite (A Ac p P) in Pe. discriminate.
        -- unfold entered, sentn. cbn. rewrite ?upd_same, E. reflexivity.
      * rewrite E in *. cbn in *. split; [exact p_req0|]. split; [discriminate|]. split; [discriminate|]. split; [discriminate|].
        unfold recvd. cbn. rewrite ?upd_same, E. reflexivity.
      * congruence.
      * rewrite E in *. cbn in *. split; [exact p_req0|]. split; [discriminate|]. split; [discriminate|]. split; [discriminate|].
        unfold recvd. cbn. rewrite ?upd_same, E. reflexivity.
      * apply (pair_same w _ q p (HB q p Q P)); cbn; rewrite ?(upd_other _ r _ q), ?(upd_other _ r _ p) by assumption; reflexivity.
  - (* prepare *)
    pose proof (HA r R) as Hr. split.
    + intros x X. destruct (Z.eq_dec x r) as [->|]; [|rank_other r x].
      destruct Hr. rewrite E in *. constructor; cbn; rewrite ?upd_same; try discriminate; auto.
      * split; [lia|]. intros _. apply r_rounds0. discriminate.
      * intros _. apply r_dat0. discriminate.
    + intros q p Q P. destruct (Z.eq_dec q r) as [Eq|Nq]; [|destruct (Z.eq_dec p r) as [Ep|Np]].
      all: try (apply (phase_pair w _ q p r (HB q p Q P)); [tauto|others|reflexivity|reflexivity| |]).
      1-4: destruct (HB q p Q P); intros; subst; cbn; rewrite ?upd_same.
      * split.
        -- intros Pe. exfalso. destruct (p_pend0 Pe) as ([F|F] & _); congruence.
        -- unfold entered, sentn. cbn. rewrite ?upd_same, E. reflexivity.
      * split; [discriminate|]. split; [discriminate|]. split; [discriminate|]. split; [discriminate|].
        unfold recvd. cbn. rewrite ?upd_same, E. reflexivity.
      * congruence.
      * split; [discriminate|]. split; [discriminate|]. split; [discriminate|]. split; [discriminate|].
        unfold recvd. cbn. rewrite ?upd_same, E. reflexivity.
      * apply (pair_same w _ q p (HB q p Q P)); cbn; rewrite ?(upd_other _ r _ q), ?(upd_other _ r _ p) by assumption; reflexivity.
  - (* pack *)
    pose proof (HA r R) as Hr. split.
    + intros x X. destruct (Z.eq_dec x r) as [->|]; [|rank_other r x].
      destruct Hr. rewrite E in *. constructor; cbn; rewrite ?upd_same; try discriminate; auto.
      * split; [lia|]. intros _. apply r_rounds0. discriminate.
      * intros _. apply r_dat0. discriminate.
      * intros _ p P. apply (b_pack B), r_dat0. discriminate.
      * intros _ _. apply r_got0; [reflexivity|discriminate].
    + intros q p Q P. destruct (Z.eq_dec q r) as [Eq|Nq]; [|destruct (Z.eq_dec p r) as [Ep|Np]].
      all: try (apply (phase_pair w _ q p r (HB q p Q P)); [tauto|others|reflexivity|reflexivity| |]).
      1-4: destruct (HB q p Q P); intros; subst; cbn; rewrite ?upd_same.
      * split.
        -- intros Pe. exfalso. destruct (p_pend0 Pe) as ([F|F] & _); congruence.
        -- unfold entered, sentn. cbn. rewrite ?upd_same, E. reflexivity.
      * rewrite E in *. cbn in *. split; [discriminate|]. split; [exact p_req'0|]. split; [exact p_rbuf0|]. split; [discriminate|].
        unfold recvd. cbn. rewrite ?upd_same, E. reflexivity.
      * congruence.
      * rewrite E in *. cbn in *. split; [discriminate|]. split; [exact p_req'0|]. split; [exact p_rbuf0|]. split; [discriminate|].
        unfold recvd. cbn. rewrite ?upd_same, E. reflexivity.
      * apply (pair_same w _ q p (HB q p Q P)); cbn; rewrite ?(upd_other _ r _ q), ?(upd_other _ r _ p) by assumption; reflexivity.
  - (* throw *)
    exfalso. destruct (HA r R). rewrite E in *. congruence.
  - (* send *)
    pose proof (HA r R) as Hr. split.
    + intros x X. destruct (Z.eq_dec x r) as [->|]; [|rank_other r x].
      destruct Hr. rewrite E in *. constructor; cbn; rewrite ?upd_same; try discriminate; auto.
      * split; [lia|]. intros _. apply r_rounds0. discriminate.
      * intros _. exists []. split; [constructor|]. split.
        -- intros q. split; [intros []|]. intros (I & F). rewrite (r_got0 eq_refl ltac:(discriminate) q I) in F. discriminate.
        -- apply r_dat0. discriminate.
    + intros q p Q P. destruct (Z.eq_dec q r) as [Eq|Nq]; [|destruct (Z.eq_dec p r) as [Ep|Np]].
      all: try (apply (phase_pair w _ q p r (HB q p Q P)); [tauto|others|reflexivity|reflexivity| |]).
      1-4: destruct (HB q p Q P); intros; subst; cbn; rewrite ?upd_same.
      * assert (pend w r p = false) as Pf.
        { destruct (pend w r p) eqn:Pe; [|reflexivity]. destruct (p_pend0 eq_refl) as ([F|F] & _); congruence. }
        split.
        -- intros _. split; [tauto|]. split; [reflexivity|]. unfold sentn. cbn. rewrite ?upd_same. split; [lia|].
           replace (rnd w r + 1 - 1)%nat with (rnd w r) by lia. apply (r_sbuf _ _ Hr E p P).
        -- unfold entered, sentn. cbn. rewrite ?upd_same, E, Pf. lia.
      * rewrite E in *. cbn in *. split; [discriminate|]. split; [exact p_req'0|]. split; [exact p_rbuf0|]. split.
        { intros _ Gt. rewrite (r_got _ _ Hr) in Gt; [discriminate|rewrite E; reflexivity|congruence|exact P]. }
        unfold recvd. cbn. rewrite ?upd_same, E. reflexivity.
      * congruence.
      * rewrite E in *. cbn in *. split; [discriminate|]. split; [exact p_req'0|]. split; [exact p_rbuf0|]. split.
        { intros _ Gt. rewrite (r_got _ _ Hr) in Gt; [discriminate|rewrite E; reflexivity|congruence|].
          apply (n_sym N q r Q R P). }
        unfold recvd. cbn. rewrite ?upd_same, E. reflexivity.
      * apply (pair_same w _ q p (HB q p Q P)); cbn; rewrite ?(upd_other _ r _ q), ?(upd_other _ r _ p) by assumption; reflexivity.
  - (* receive *)
    pose proof (HA r R) as Hr. pose proof (n_known N r q R Q) as Qk. pose proof (n_sym N r q R Qk Q) as Pq. split.
    + intros x X. destruct (Z.eq_dec x r) as [->|].
      * destruct Hr. rewrite E in *. constructor; cbn; rewrite ?upd_same, ?E; try discriminate; auto.
        -- intros F. congruence.
        -- intros _. destruct (r_recv0 eq_refl) as (l & ND & Hl & D). exists (l ++ [q]). split; [|split].
           ++ apply NoDup_rev in ND. rewrite <- rev_involutive. apply NoDup_rev. rewrite rev_app_distr. cbn.
              constructor; [|exact ND]. rewrite <- in_rev, Hl. intros (_ & F). congruence.
           ++ intros y. rewrite in_app_iff, Hl. destruct (Z.eq_dec y q) as [->|Ny].
              ** rewrite upd2_same. cbn. tauto.
              ** rewrite (upd2_other (got w) r q true r y) by tauto. cbn. intuition congruence.
           ++ unfold folded. rewrite fold_left_app. cbn.
              rewrite (p_rbuf _ _ _ (HB q r Qk Pq)); [|rewrite E; reflexivity|exact RA].
              apply (b_unpack B). exact D.
        -- intros _ F. congruence.
      * apply (rank_same w _ x (HA x X)); cbn; try reflexivity; [apply upd_other; assumption|].
        unfold upd2. apply upd_other. assumption.
    + intros q' p' Q' P'. destruct (HB q' p' Q' P'). constructor; cbn; auto.
      intros Eph. destruct (Z.eq_dec p' r) as [->|]; [destruct (Z.eq_dec q' q) as [->|]|].
      * intros _. exact RA.
      * rewrite upd2_other by tauto. auto.
      * rewrite upd2_other by tauto. auto.
  - (* done *)
    pose proof (HA r R) as Hr. split.
    + intros x X. destruct (Z.eq_dec x r) as [->|]; [|rank_other r x].
      destruct Hr. rewrite E in *. constructor; cbn; rewrite ?upd_same; try discriminate; auto.
      * split; [|congruence]. specialize (proj2 r_rounds0 ltac:(discriminate)). lia.
      * intros _. destruct (r_recv0 eq_refl) as (l & ND & Hl & D). apply (b_work B).
        eapply eqv_trans; [exact D|]. unfold folded, msg. apply (fold_perm (rnd w r) r l (procs r) R); auto.
        -- apply NoDup_Permutation; auto; [apply (n_nodup N r R)|]. intros q. rewrite Hl. split; [tauto|]. auto.
        -- intros q I. apply Hl, I.
    + intros q p Q P.
      assert (p = r -> open_ (ph w p) = true) as Op by (intros ->; rewrite E; reflexivity).
      assert (p = r -> req w p q = Arrived) as Ar.
      { intros ->. apply (p_got _ _ _ (HB q r Q P) E). apply G. exact (n_sym N q r Q R P). }
      destruct (Z.eq_dec q r) as [Eq|Nq]; [|destruct (Z.eq_dec p r) as [Ep|Np]].
      all: try (apply (phase_pair w _ q p r (HB q p Q P)); [tauto|others|reflexivity|reflexivity| |]).
      1-4: destruct (HB q p Q P); intros; subst; cbn; rewrite ?upd_same.
      * split.
        -- intros Pe. destruct (p_pend0 Pe) as (_ & Ac & L & Sb). split; [tauto|]. split; [exact Ac|].
           revert L Sb. unfold sentn. cbn. rewrite ?upd_same, E.
           replace (rnd w r + 1)%nat with (S (rnd w r)) by lia. rewrite Nat.add_0_r. auto.
        -- unfold entered, sentn. cbn. rewrite ?upd_same, E. destruct (pend w r p); lia.
      * rewrite (Ar eq_refl). split; [discriminate|]. split; [discriminate|]. split; [discriminate|]. split; [discriminate|].
        unfold recvd. cbn. rewrite ?upd_same, E. cbn. rewrite (Ar eq_refl). lia.
      * congruence.
      * rewrite (Ar eq_refl). split; [discriminate|]. split; [discriminate|]. split; [discriminate|]. split; [discriminate|].
        unfold recvd. cbn. rewrite ?upd_same, E. cbn. rewrite (Ar eq_refl). lia.
      * apply (pair_same w _ q p (HB q p Q P)); cbn; rewrite ?(upd_other _ r _ q), ?(upd_other _ r _ p) by assumption; reflexivity.
  - (* copy *)
    split.
    + intros x X. apply (rank_same w _ x (HA x X)); reflexivity.
    + intros q' p' Q' P'. destruct (Z.eq_dec q' q) as [->|]; [destruct (Z.eq_dec p' p) as [->|]|].
      2,3: apply (pair_same w _ _ _ (HB _ _ Q' P')); cbn; rewrite ?upd2_other by tauto; reflexivity.
      destruct (HB q p Q P). destruct (p_pend0 Pe) as (_ & _ & L & Sb).
      constructor; cbn; auto.
      assert (entered w q p = sentn w q - 1)%nat as En by (unfold entered; rewrite Pe; reflexivity).
        match goal with |- context [recvd ?w' p q] => change (recvd w' p q) with (recvd w p q) end.
        match goal with |- context [entered ?w' q p] => assert (entered w' q p = sentn w q) as -> end.
        { unfold entered. cbn. rewrite upd2_same. unfold sentn. cbn. lia. }
        rewrite upd2_same. destruct p_chan0 as (C1 & C2). rewrite En in *. split; [lia|].
        rewrite C2. replace (sentn w q - recvd w p q)%nat with (S (sentn w q - 1 - recvd w p q)) by lia.
        rewrite seq_snoc, map_app. cbn. do 2 f_equal. rewrite Sb. f_equal. lia.
  - (* deliver *)
    split.
    + intros x X. apply (rank_same w _ x (HA x X)); reflexivity.
    + intros q' p' Q' P'. destruct (Z.eq_dec q' q) as [->|]; [destruct (Z.eq_dec p' p) as [->|]|].
      2,3: apply (pair_same w _ _ _ (HB _ _ Q' P')); cbn; rewrite ?upd2_other by tauto; reflexivity.
      destruct (HB q p Q P).
      assert (open_ (ph w p) = true) as Op.
      { destruct (open_ (ph w p)) eqn:O; [reflexivity|]. destruct (p_req0 eq_refl Rq). }
      assert (recvd w p q = rnd w p) as Rv by (unfold recvd; rewrite Op, Rq; lia).
      destruct p_chan0 as (C1 & C2). rewrite C, Rv in C2. rewrite Rv in C1.
      destruct (entered w q p - rnd w p)%nat as [|n] eqn:En; [discriminate|]. cbn in C2. injection C2 as Cm Cms.
      constructor; cbn; rewrite ?upd2_same, ?Op; try discriminate; auto.
      match goal with |- context [entered ?w' q p] => change (entered w' q p) with (entered w q p) end.
      match goal with |- context [recvd ?w' p q] => assert (recvd w' p q = S (rnd w p)) as -> end.
      { unfold recvd. cbn. rewrite Op, upd2_same. lia. }
      split; [lia|]. replace (entered w q p - S (rnd w p))%nat with n by lia. exact Cms.
Qed.
Lemma inv_run n w w' : inv w -> run ranks procs rounds pack unpack work n w w' -> inv w'.
Proof. intros I R. induction R as [|k w w1 w2 R IH S]; [exact I|]. exact (inv_step _ _ (IH I) S). Qed.

(** ** Progress *)
Lemma phase_eq_dec (a b : phase) : {a = b} + {a <> b}. Proof. decide equality. Qed.
Lemma min_of (l : list Z) (f : Z -> nat) : l <> [] -> exists r, In r l /\ forall q, In q l -> (f r <= f q)%nat.
Proof.
  induction l as [|x l IH]; [congruence|]. intros _. destruct l as [|y l].
  - exists x. split; [left; reflexivity|]. intros q [<-|[]]. lia.
  - destruct (IH ltac:(discriminate)) as (r & I & H). destruct (Nat.le_gt_cases (f x) (f r)).
    + exists x. split; [left; reflexivity|]. intros q [<-|J]; [lia|]. specialize (H q J). lia.
    + exists r. split; [right; exact I|]. intros q [<-|J]; [lia|auto].
Qed.
Lemma all_or_not (l : list Z) (f : Z -> bool) : (forall q, In q l -> f q = true) \/ exists q, In q l /\ f q = false.
Proof.
  induction l as [|x l IH]; [left; intros q []|]. destruct (f x) eqn:E; [|right; exists x; split; [left; reflexivity|exact E]].
  destruct IH as [H|(q & I & H)]; [left; intros q [<-|I]; auto|right; exists q; split; [right; exact I|exact H]].
Qed.
Lemma progress w : inv w -> final ranks rounds w \/ exists w', step w w'.
Proof.
  intros (HA & HB).
  destruct (all_or_not ranks (fun r => forallb (fun p => negb (pend w r p)) (procs r))) as [NP|(q & Q & F)].
  2:{ right. destruct (all_or_not (procs q) (fun p => negb (pend w q p))) as [A|(p & P & F')].
      - rewrite (proj2 (forallb_forall _ _) A) in F. discriminate.
      - apply negb_false_iff in F'. eexists. exact (s_copy _ _ _ _ _ _ w q p Q P F'). }
  assert (forall r p, In r ranks -> In p (procs r) -> pend w r p = false) as NP'.
  { intros r p R P. specialize (NP r R). rewrite forallb_forall in NP. apply negb_true_iff, NP, P. }
  destruct (all_or_not ranks (fun r => match ph w r with Receiving => true | Waiting => (rounds <=? rnd w r)%nat | _ => false end))
    as [A|(r & R & F)].
  2:{ right. destruct (ph w r) eqn:E; try discriminate.
      - apply Nat.leb_gt in F. eexists. apply (s_wait _ _ _ _ _ _ w r R E F). intros _ p P. apply NP'; auto.
      - eexists. exact (s_prep _ _ _ _ _ _ w r R E).
      - eexists. exact (s_pack _ _ _ _ _ _ w r R E).
      - destruct (act w r) eqn:Ac; eexists; [exact (s_send_throw _ _ _ _ _ _ w r R E Ac)|exact (s_send _ _ _ _ _ _ w r R E Ac)].
      - destruct (r_thrown _ _ (HA r R) E). }
  set (rec := filter (fun r => match ph w r with Receiving => true | _ => false end) ranks).
  assert (forall r, In r rec <-> In r ranks /\ ph w r = Receiving) as Hrec.
  { intros r. unfold rec. rewrite filter_In. destruct (ph w r); intuition congruence. }
  clearbody rec. destruct rec as [|r0 rec'].
  - left. intros r R. specialize (A r R). cbn in A. destruct (ph w r) eqn:E; try discriminate.
    + apply Nat.leb_le in A. pose proof (proj1 (r_rounds _ _ (HA r R))). split; [lia|reflexivity].
    + destruct (proj2 (Hrec r) (conj R E)).
  - right.
    destruct (min_of (r0 :: rec') (rnd w) ltac:(discriminate)) as (r & I & Min).
    apply Hrec in I as (R & E).
    destruct (all_or_not (procs r) (got w r)) as [G|(q & Q & G)].
    { eexists. exact (s_done _ _ _ _ _ _ w r R E G). }
    pose proof (n_known N r q R Q) as Qk. pose proof (n_sym N r q R Qk Q) as Pq.
    destruct (HB q r Qk Pq). rewrite E in *. cbn in *.
    destruct (req w r q) eqn:Rq.
    + destruct (p_req'0 eq_refl eq_refl).
    + destruct (chan w q r) as [|m ms] eqn:C.
      2:{ eexists. exact (s_deliver _ _ _ _ _ _ w q r m ms Qk Pq C Rq). }
      exfalso. destruct p_chan0 as (C1 & C2). unfold recvd, entered in *. rewrite E, Rq, (NP' q r Qk Pq) in *. cbn in *.
      destruct (sentn w q - 0 - (rnd w r + 0))%nat as [|k] eqn:Z0; [|discriminate].
      assert (sentn w q = rnd w r) as Es by lia. unfold sentn in Es.
      specialize (A q Qk). cbn in A. destruct (ph w q) eqn:Eq; try discriminate.
      * apply Nat.leb_le in A. pose proof (proj2 (r_rounds _ _ (HA r R))) as L. rewrite E in L.
        specialize (L ltac:(discriminate)). lia.
      * specialize (Min q (proj2 (Hrec q) (conj Qk Eq))). lia.
    + eexists. exact (s_recv _ _ _ _ _ _ w r q R E Q Rq G).
Qed.

(** ** Termination *)
Fixpoint nsum {X} (f : X -> nat) (l : list X) : nat := match l with [] => 0 | x :: l' => f x + nsum f l' end.
Lemma nsum_ext {X} (f g : X -> nat) l : (forall x, In x l -> f x = g x) -> nsum f l = nsum g l.
Proof. induction l; cbn; intros H; [reflexivity|]. rewrite H by auto. rewrite IHl; auto. Qed.
Lemma nsum_lt {X} (f g : X -> nat) l x : NoDup l -> In x l -> (forall y, In y l -> y <> x -> f y = g y) -> (f x < g x)%nat ->
  (nsum f l < nsum g l)%nat.
Proof.
  induction l as [|y l IH]; intros ND I H L; [destruct I|]. inversion ND; subst. cbn. destruct I as [->|I].
  - rewrite (nsum_ext f g l); [lia|]. intros z Iz. apply H; [right; exact Iz|congruence].
  - rewrite (H y); [|left; reflexivity|congruence]. specialize (IH H3 I). apply Nat.add_lt_mono_l, IH; auto.
    intros z Iz. apply H. right. exact Iz.
Qed.
Lemma nsum_le {X} (f g : X -> nat) l : (forall y, In y l -> (f y <= g y)%nat) -> (nsum f l <= nsum g l)%nat.
Proof. induction l; cbn; intros H; [lia|]. pose proof (H a (or_introl eq_refl)). specialize (IHl (fun y I => H y (or_intror I))). lia. Qed.
Lemma nsum_const {X} c (l : list X) : nsum (fun _ => c) l = (c * length l)%nat.
Proof. induction l; cbn; lia. Qed.
(** Work left on one rank: its remaining phases and receipts, and its messages
    under way *)
Definition phase_left (x : phase) : nat := match x with Waiting => 6 | Preparing => 5 | Packing => 4 | Sending => 3 | Receiving => 2 | Thrown => 1 end.
Definition edge_left (w : world) (r p : Z) : nat :=
  ((if pend w r p then 2 else 0) + length (chan w r p) +
   match ph w r with Receiving => if got w r p then 0 else 1 | _ => 0 end)%nat.
Definition per_rank (r : Z) : nat := (6 + 3 * length (procs r))%nat.
Definition rank_left (w : world) (r : Z) : nat :=
  ((rounds - rnd w r) * per_rank r - match ph w r with Receiving => 3 * length (procs r) | _ => 0 end
   - (6 - phase_left (ph w r)) + nsum (edge_left w r) (procs r))%nat.
Definition left_ (w : world) : nat := nsum (rank_left w) ranks.
Context (NR : NoDup ranks).
Lemma left_lt w w' r : In r ranks -> (forall x, In x ranks -> x <> r -> rank_left w' x = rank_left w x) ->
  (rank_left w' r < rank_left w r)%nat -> (left_ w' < left_ w)%nat.
Proof. intros R O L. apply (nsum_lt _ _ _ r); auto. Qed.
Lemma rank_left_same w w' x : rnd w' x = rnd w x -> ph w' x = ph w x -> (forall p, In p (procs x) -> pend w' x p = pend w x p) ->
  (forall p, In p (procs x) -> chan w' x p = chan w x p) -> (forall p, In p (procs x) -> got w' x p = got w x p) -> rank_left w' x = rank_left w x.
Proof.
  intros E1 E2 E3 E4 E5. unfold rank_left. rewrite E1, E2. f_equal. apply nsum_ext. intros p P.
  unfold edge_left. rewrite E2, E3, E4, E5 by exact P. reflexivity.
Qed.
Lemma step_left w w' : inv w -> step w w' -> (left_ w' < left_ w)%nat.
Proof.
  intros (HA & HB) S. destruct S as [w r R E L A|w r R E|w r R E|w r R E A|w r R E A|w r q R E Q RA G|w r R E G|w q p Q P Pe|w q p m ms Q P C Rq].
  1-7: apply (left_lt _ _ r R); [intros x X NX; apply rank_left_same; cbn; unfold upd2; rewrite ?(upd_other _ r _ x) by assumption; reflexivity|].
  1-7: pose proof (r_rounds _ _ (HA r R)) as (K1 & K2).
  1-7: assert (rnd w r < rounds)%nat as K by (first [exact L|apply K2; congruence]); clear K1 K2.
  1-7: assert (exists k, (rounds - rnd w r)%nat = S k) as (k & Ek) by (exists (rounds - rnd w r - 1)%nat; lia).
  1-7: unfold rank_left; cbn; rewrite ?upd_same, ?E, ?Ek; unfold per_rank; cbn [phase_left]; cbn [Nat.mul].
  - (* wait *) rewrite (nsum_ext _ (edge_left w r)); [lia|]. intros p _. unfold edge_left. cbn. rewrite ?upd_same, E. reflexivity.
  - rewrite (nsum_ext _ (edge_left w r)); [lia|]. intros p _. unfold edge_left. cbn. rewrite ?upd_same, E. reflexivity.
  - rewrite (nsum_ext _ (edge_left w r)); [lia|]. intros p _. unfold edge_left. cbn. rewrite ?upd_same, E. reflexivity.
  - exfalso. destruct (HA r R). rewrite E in *. congruence.
  - (* send *)
    match goal with |- context [nsum ?f (procs r)] =>
      assert (nsum f (procs r) <= nsum (fun p => 3 + edge_left w r p) (procs r))%nat as HL end.
    { apply nsum_le. intros p P. unfold edge_left. cbn. rewrite ?upd_same, E. destruct (got w r p), (pend w r p); lia. }
    assert (nsum (fun p => 3 + edge_left w r p) (procs r) = 3 * length (procs r) + nsum (edge_left w r) (procs r))%nat as HE.
    { generalize (procs r). intros l. induction l; cbn [nsum length]; lia. }
    lia.
  - (* receive *)
    match goal with |- context [nsum ?f (procs r)] =>
      assert (nsum f (procs r) < nsum (edge_left w r) (procs r))%nat as HL end; [|lia].
    apply (nsum_lt _ _ _ q); auto; [apply (n_nodup N r R)| |].
    + intros y Y Ny. unfold edge_left. cbn. rewrite upd2_other by tauto. reflexivity.
    + unfold edge_left. cbn. rewrite upd2_same, E, G. lia.
  - (* done *)
    replace (rounds - S (rnd w r))%nat with k by lia.
    rewrite (nsum_ext _ (edge_left w r)); [lia|]. intros p P. unfold edge_left. cbn. rewrite ?upd_same, E, (G p P). lia.
  - (* copy *)
    apply (left_lt _ _ q Q).
    + intros x X NX. apply rank_left_same; cbn; auto; intros; apply upd2_other; tauto.
    + unfold rank_left. cbn. apply Nat.add_lt_mono_l. apply (nsum_lt _ _ _ p); auto; [apply (n_nodup N q Q)| |].
      * intros y Y Ny. unfold edge_left. cbn. rewrite !upd2_other by tauto. reflexivity.
      * unfold edge_left. cbn. rewrite !upd2_same, Pe, app_length. cbn. destruct (ph w q); lia.
  - (* deliver *)
    apply (left_lt _ _ q Q).
    + intros x X NX. apply rank_left_same; cbn; auto; intros; apply upd2_other; tauto.
    + unfold rank_left. cbn. apply Nat.add_lt_mono_l. apply (nsum_lt _ _ _ p); auto; [apply (n_nodup N q Q)| |].
      * intros y Y Ny. unfold edge_left. cbn. rewrite !upd2_other by tauto. reflexivity.
      * unfold edge_left. cbn. rewrite !upd2_same, C. cbn. lia.
Qed.
Lemma run_left n w w' : inv w -> run ranks procs rounds pack unpack work n w w' -> (n + left_ w' <= left_ w)%nat.
Proof.
  intros I R. induction R; [lia|]. pose proof (inv_run _ _ _ I R) as I'.
  pose proof (step_left _ _ I' H). specialize (IHR I). lia.
Qed.
Lemma start_left w : start ranks procs w s0 -> left_ w = nsum (fun r => rounds * per_rank r)%nat ranks.
Proof.
  intros (A & C). apply nsum_ext. intros r R. destruct (A r R) as (E1 & E2 & _). unfold rank_left. rewrite E1, E2.
  cbn [phase_left]. rewrite (nsum_ext _ (fun _ => 0%nat)); [rewrite nsum_const; lia|].
  intros p P. destruct (C r p R P) as (F1 & F2 & _). unfold edge_left. rewrite F1, F2, E2. reflexivity.
Qed.
End Inv.
