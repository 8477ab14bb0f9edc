From Coq Require Import ZArith Bool List Lia ZifyBool.
From Verif Require Import ArrModel ArrSpec.
Import ListNotations.
Local Open Scope Z_scope.
Ltac Zify.zify_post_hook ::= Z.div_mod_to_equations.

(** ** Sizes and addressing *)
Lemma byte_size_spec n sz : 0 <= n -> 0 <= sz ->
  (8 | byte_size n sz) /\ n * sz <= byte_size n sz < n * sz + 8.
Proof.
  intros Hn Hs. unfold byte_size. set (x := n * sz). assert (0 <= x) as Hx by (unfold x; nia).
  clearbody x. rewrite Z.rem_mod_nonneg, Z.quot_div_nonneg by lia.
  destruct (Z.eqb_spec (x mod 8) 0).
  - split; [apply Z.mod_divide; lia|lia].
  - split; [exists (x / 8 + 1); lia|lia].
Qed.

Lemma idx2_range s0 s1 i j : 0 <= i < s0 -> 0 <= j < s1 -> 0 <= idx2 s1 i j < s0 * s1.
Proof. unfold idx2. intros. nia. Qed.
Lemma idx2_inj s1 i j i' j' : 0 <= j < s1 -> 0 <= j' < s1 ->
  idx2 s1 i j = idx2 s1 i' j' -> i = i' /\ j = j'.
Proof.
  unfold idx2. intros H H' E. assert (i = i') as ->; [|lia].
  assert (forall x y, 0 <= y < s1 -> (x * s1 + y) / s1 = x) as K.
  { intros x y Hy. rewrite Z.div_add_l by lia. rewrite (Z.div_small y s1) by lia. lia. }
  rewrite <- (K i j H), <- (K i' j' H'), E. reflexivity.
Qed.
Lemma idx2_surj s0 s1 x : 0 <= s0 -> 0 <= x < s0 * s1 ->
  exists i j, 0 <= i < s0 /\ 0 <= j < s1 /\ idx2 s1 i j = x.
Proof.
  intros H0 H. assert (0 < s1) by nia. exists (x / s1), (x mod s1).
  pose proof (Z.div_mod x s1 ltac:(lia)). pose proof (Z.mod_pos_bound x s1 ltac:(lia)).
  unfold idx2. split; [|lia].
  split; [apply Z.div_pos; lia|apply Z.div_lt_upper_bound; nia].
Qed.
Lemma idx3_idx2 s1 s2 i j k : idx3 s1 s2 i j k = idx2 s2 (idx2 s1 i j) k.
Proof. unfold idx3, idx2. ring. Qed.
Lemma idx4_idx2 s1 s2 s3 i j k l : idx4 s1 s2 s3 i j k l = idx2 s3 (idx3 s1 s2 i j k) l.
Proof. unfold idx4, idx3, idx2. ring. Qed.

(** ** Ownership *)
Section Own.
Context {V : Type} (zero : V).
Notation heap := (@heap V).



Record good (h : heap) (P : nat -> Prop) : Prop := {
  g_own : forall b, P b -> In b (halloc h) /\ ~ In b (hfreed h);
  g_all : forall b, In b (halloc h) -> In b (hfreed h) \/ P b;
  g_nodup : NoDup (hfreed h);
  g_incl : incl (hfreed h) (halloc h);
  g_next : forall b, In b (halloc h) -> (b < hnext h)%nat;
  g_live : forall b, In b (halloc h) -> ~ In b (hfreed h) -> hmem h b <> None }.

Record J (F : nat -> Prop) (h : heap) (a : arr) : Prop := {
  j_good : good h (fun b => F b \/ owned a b);
  j_disj : forall b, owned a b -> ~ F b }.

Definition safe (F : nat -> Prop) (o : @outcome V) : Prop :=
  match o with Fin _ h a => J F h a | BadFree => False | BadAccess => True end.

Lemma good_ext h P Q : (forall b, P b <-> Q b) -> good h P -> good h Q.
Proof.
  intros E [A B C D F G]. constructor; auto.
  - intros b Hb. apply A, E, Hb.
  - intros b Hb. destruct (B b Hb) as [|H]; [auto|right; apply E, H].
Qed.
Lemma good_mem h P m : (forall b, hmem h b <> None -> m b <> None) -> good h P ->
  good (mkH (hnext h) m (halloc h) (hfreed h)) P.
Proof. intros E [A B C D F G]. constructor; cbn; auto. Qed.

Lemma safe_bind F o f : safe F o -> (forall h a, J F h a -> safe F (f h a)) -> safe F (bind o f).
Proof. intros H G. destruct o as [[] h a| |]; cbn in *; auto. Qed.

Lemma J_nofield F h a a' : J F h a -> owns a' = owns a -> ptr a' = ptr a -> J F h a'.
Proof.
  intros [G D] E1 E2. assert (forall b, owned a' b <-> owned a b) as E.
  { intros b. unfold owned. rewrite E1, E2. tauto. }
  constructor.
  - eapply good_ext; [|exact G]. intros b. specialize (E b). cbn. tauto.
  - intros b Hb. apply D, E, Hb.
Qed.

Lemma mfree_good h P b h' : good h P -> P b -> mfree h b = Some h' ->
  good h' (fun c => P c /\ c <> b) /\ hnext h' = hnext h /\ halloc h' = halloc h.
Proof.
  intros [A B C D F G] Pb H. unfold mfree in H. destruct (hmem h b); [|discriminate].
  injection H as <-. split; [|auto]. constructor; cbn.
  - intros c (Pc & N). destruct (A c Pc) as [A1 A2]. split; [exact A1|].
    rewrite in_app_iff. cbn. intros [H|[H|[]]]; congruence.
  - intros c Hc. rewrite in_app_iff. destruct (Nat.eq_dec c b) as [->|N]; [left; cbn; auto|].
    destruct (B c Hc); [auto|]. right. auto.
  - destruct (A b Pb) as [_ A2]. clear -C A2.
    apply (NoDup_Add (a := b) (l := hfreed h)).
    + replace (hfreed h) with (hfreed h ++ []) at 1 by apply app_nil_r.
      apply Add_app.
    + auto.
  - intros c. rewrite in_app_iff. cbn. intros [H|[<-|[]]]; [apply D, H|apply A, Pb].
  - exact F.
  - intros c Hc N. rewrite in_app_iff in N. unfold upd.
    destruct (Nat.eqb_spec c b) as [->|Nb]; [exfalso; apply N; cbn; auto|].
    apply G; [exact Hc|]. tauto.
Qed.

Lemma detach_safe F h a : J F h a ->
  exists h' a', detach h a = Fin true h' a' /\ J F h' a' /\ owns a' = true /\ ptr a' = None
    /\ akind a' = akind a /\ dims a' = dims a /\ dtype a' = dtype a /\ dloc a' = dloc a.
Proof.
  intros [G D]. unfold detach.
  assert (forall a', ptr a' = None -> (forall b, ~ owned a b) -> J F h a') as K.
  { intros a' E N. constructor.
    - eapply good_ext; [|exact G]. intros b. specialize (N b). unfold owned at 2. rewrite E.
      split; intros [|H]; try tauto. destruct H; discriminate.
    - intros b [_ H]. congruence. }
  destruct (owns a) eqn:Eo.
  2: { eexists; eexists; split; [reflexivity|]; cbn. split; [|auto 10].
       apply K; [reflexivity|]. intros b [H _]. congruence. }
  destruct (ptr a) as [b|] eqn:Ep.
  2: { eexists; eexists; split; [reflexivity|]; cbn. split; [|auto 10].
       apply K; auto; intros b [_ H]; congruence. }
  assert (owned a b) as Ob by (split; assumption).
  assert (In b (halloc h) /\ ~ In b (hfreed h)) as [L1 L2] by (apply (g_own _ _ G); auto).
  unfold mfree. destruct (hmem h b) as [l|] eqn:El.
  2: { exfalso. exact (g_live _ _ G b L1 L2 El). }
  eexists; eexists; split; [reflexivity|]; cbn.
  destruct (mfree_good h _ b (mkH (hnext h) (upd (hmem h) b None) (halloc h) (hfreed h ++ [b])) G) as (G' & _).
  { auto. } { unfold mfree. rewrite El. reflexivity. }
  split; [|auto 10]. constructor.
  - eapply good_ext; [|exact G']. intros c. cbn. split.
    + intros [[H|[H1 H2]] N]; [left; exact H|congruence].
    + intros [H|[_ H]]; [|discriminate]. split; [left; exact H|].
      intros ->. exact (D b Ob H).
  - intros c [_ H]. discriminate.
Qed.

Lemma malloc_good F h a n h' b a' : J F h a -> ptr a = None ->
  malloc zero h n = (h', b) -> owns a' = true -> ptr a' = Some b -> J F h' a'.
Proof.
  intros [G D] Ep H E1 E2. unfold malloc in H. injection H as <- <-.
  assert (forall c, owned a c -> False) as N by (intros c [_ H]; congruence).
  assert (forall c, owned a' c <-> c = hnext h) as Oa.
  { intros c. unfold owned. rewrite E1, E2. split; [intros [_ H]; congruence|intros ->; auto]. }
  assert (forall c, F c -> (c < hnext h)%nat) as Fl.
  { intros c Hc. apply (g_next _ _ G). apply (g_own _ _ G). auto. }
  constructor.
  - constructor; cbn.
    + intros c [Hc|Hc].
      * destruct (g_own _ _ G c (or_introl Hc)). rewrite in_app_iff. auto.
      * apply Oa in Hc. subst c. rewrite in_app_iff. cbn. split; [auto|].
        intros Hf. apply (g_incl _ _ G) in Hf. apply (g_next _ _ G) in Hf. lia.
    + intros c. rewrite in_app_iff. cbn. intros [Hc|[<-|[]]].
      * destruct (g_all _ _ G c Hc) as [|[|Hc']]; auto. exfalso. eauto.
      * right. right. apply Oa. reflexivity.
    + apply (g_nodup _ _ G).
    + intros c Hc. rewrite in_app_iff. left. apply (g_incl _ _ G), Hc.
    + intros c. rewrite in_app_iff. cbn. intros [Hc|[<-|[]]]; [|lia].
      apply (g_next _ _ G) in Hc. lia.
    + intros c. rewrite in_app_iff. cbn. unfold upd.
      destruct (Nat.eqb_spec c (hnext h)); [discriminate|].
      intros [Hc|[<-|[]]] Nf; [apply (g_live _ _ G); assumption|congruence].
  - intros c Hc Fc. apply Oa in Hc. subst c. apply Fl in Fc. lia.
Qed.

Lemma set_zero_safe F h a : J F h a -> safe F (set_zero zero h a).
Proof.
  intros H. unfold set_zero. destruct (ptr a); [|exact H].
  destruct (hmem h n) eqn:E; [|exact I]. destruct (_ <=? _)%nat; [|exact I].
  cbn. destruct H as [G D]. constructor; [|exact D]. apply good_mem; [|exact G].
  intros b Hb. unfold upd. destruct (Nat.eqb b n); [discriminate|exact Hb].
Qed.

Lemma zero_tail_safe F h a : J F h a -> owns a = true ->
  safe F (bind (set_zero zero h a) (fun h2 a2 =>
       Fin true h2 (mkA (akind a2) true (dims a2) (dtype a2) (dloc a2) (ptr a2)))).
Proof.
  intros H Eo. pose proof (set_zero_safe F h a H) as S.
  destruct (set_zero zero h a) as [[] h2 a2| |] eqn:E; cbn in *; auto.
  assert (a2 = a) as ->.
  { unfold set_zero in E. destruct (ptr a); [|discriminate]. destruct (hmem h n); [|discriminate].
    destruct (_ <=? _)%nat; [|discriminate]. injection E as <- <-. reflexivity. }
  eapply J_nofield; [exact S|symmetry; exact Eo|reflexivity].
Qed.

Lemma allocate_safe F ds h a : J F h a -> safe F (allocate zero ds h a).
Proof.
  intros H. unfold allocate. destruct (owns a) eqn:Eo; cbn [negb]; [|exact H].
  destruct (existsb _ _); [exact H|].
  match goal with |- safe _ (bind (if ?b then _ else _) _) => destruct b end.
  - destruct (detach_safe F h a H) as (h1 & a1 & E & H1 & O1 & P1 & _). rewrite E. cbn [bind].
    destruct (malloc zero h1 _) as [h2 b] eqn:Em. cbn [bind].
    apply zero_tail_safe; [|exact O1].
    eapply malloc_good; [exact H1|exact P1|exact Em|exact O1|reflexivity].
  - cbn [bind]. apply zero_tail_safe; assumption.
Qed.

Lemma set_size_safe F ds h a : J F h a -> safe F (set_size ds h a).
Proof.
  intros H. unfold set_size. destruct (is_attached a); [exact H|].
  eapply J_nofield; [exact H|reflexivity|reflexivity].
Qed.

Lemma attach_safe F b h a : J F h a -> safe F (attach b h a).
Proof.
  intros H. unfold attach. destruct (is_attached a) eqn:E; [exact H|].
  assert (ptr a = None) as Ep by (unfold is_attached in E; destruct (ptr a); congruence).
  destruct H as [G D]. constructor.
  - eapply good_ext; [|exact G]. intros c. cbn. unfold owned. cbn. rewrite Ep.
    split; intros [|[]]; try tauto; discriminate.
  - intros c [H _]. discriminate.
Qed.

Lemma detach_safe' F h a : J F h a -> safe F (detach h a).
Proof. intros H. destruct (detach_safe F h a H) as (h' & a' & E & H' & _). rewrite E. exact H'. Qed.

Lemma deallocate_safe F h a : J F h a -> safe F (deallocate h a).
Proof. intros H. unfold deallocate. destruct (owns a); [apply detach_safe'; exact H|exact H]. Qed.

Lemma copy_safe F h a s : J F h a -> safe F (copy_data h a s).
Proof.
  intros H. unfold copy_data. destruct (ptr a), (ptr s); try exact I.
  destruct (hmem h n) eqn:E1, (hmem h n0); try exact I.
  destruct (_ && _); [|exact I]. destruct H as [G D]. constructor; [|exact D].
  apply good_mem; [|exact G]. intros b Hb. unfold upd. destruct (Nat.eqb b n); [discriminate|exact Hb].
Qed.

Lemma assign_safe F s h a : J F h a -> safe F (assign zero s h a).
Proof.
  intros H. unfold assign.
  destruct (negb _).
  { destruct (is_attached a); [exact H|]. eapply J_nofield; [exact H|reflexivity|reflexivity]. }
  apply safe_bind.
  { destruct (is_attached a); [exact H|]. apply safe_bind; [apply allocate_safe; exact H|].
    intros h1 a1 H1. eapply J_nofield; [exact H1|reflexivity|reflexivity]. }
  intros h1 a1 H1. apply safe_bind.
  { destruct (_ && _); [|exact H1].
    apply safe_bind.
    { destruct (eq_dims _ _); [exact H1|]. apply safe_bind; [apply deallocate_safe; exact H1|].
      intros h2 a2 H2. apply allocate_safe; exact H2. }
    intros h2 a2 H2. apply safe_bind.
    { destruct (akind a2); try exact H2. apply safe_bind; [apply deallocate_safe; exact H2|].
      intros h3 a3 H3. apply allocate_safe; exact H3. }
    intros h3 a3 H3. eapply J_nofield; [exact H3|reflexivity|reflexivity]. }
  intros h2 a2 H2.
  repeat (match goal with |- safe _ (if ?b then _ else _) => destruct b; [exact H2|] end).
  apply copy_safe; exact H2.
Qed.

(** Whole programs *)
Record winv (w : @world V) : Prop := {
  w_good : good (wh w) (fun b => exists o, owned_by w o b);
  w_uniq : forall o o' b, owned_by w o b -> owned_by w o' b -> o = o';
  w_next : forall o a, wobj w o = Some a -> (o < wonext w)%nat }.

Definition others (w : @world V) (o b : nat) : Prop := exists o', o' <> o /\ owned_by w o' b.

Lemma winv_J w o a : winv w -> wobj w o = Some a -> J (others w o) (wh w) a.
Proof.
  intros [G U N] E. constructor.
  - eapply good_ext; [|exact G]. intros b. split.
    + intros (o' & H). destruct (Nat.eq_dec o' o) as [->|Ne]; [|left; exists o'; auto].
      right. destruct H as (a' & E' & O). congruence.
    + intros [(o' & _ & H)|H]; [exists o'; exact H|exists o; exists a; auto].
  - intros b O (o' & Ne & H). apply Ne. apply (U o' o b); [exact H|]. exists a; auto.
Qed.

Lemma upd_same {A} (f : nat -> option A) o x : upd f o x o = x.
Proof. unfold upd. rewrite Nat.eqb_refl. reflexivity. Qed.
Lemma upd_other {A} (f : nat -> option A) o x p : p <> o -> upd f o x p = f p.
Proof. intros N. unfold upd. destruct (Nat.eqb_spec p o); congruence. Qed.

Lemma J_winv w o a' h' n' : winv w -> J (others w o) h' a' ->
  (o < n')%nat -> (wonext w <= n')%nat ->
  winv (mkW h' (upd (wobj w) o (Some a')) n').
Proof.
  intros [G U N] [Gj Dj] Lo Ln.
  assert (forall p b, owned_by (mkW h' (upd (wobj w) o (Some a')) n') p b <->
            (p = o /\ owned a' b) \/ (p <> o /\ owned_by w p b)) as C.
  { intros p b. unfold owned_by. cbn. destruct (Nat.eq_dec p o) as [->|Ne].
    - rewrite upd_same. split; [intros (a & E & O); left; split; congruence|].
      intros [[_ O]|[]]; [eauto|congruence].
    - rewrite upd_other by exact Ne. split; [intros H; right; auto|].
      intros [[]|[_ H]]; [congruence|exact H]. }
  constructor; cbn [wh wobj wonext].
  - eapply good_ext; [|exact Gj]. intros b. split.
    + intros [(p & Ne & H)|H]; [exists p; apply C; right; auto|exists o; apply C; left; auto].
    + intros (p & H). apply C in H as [[-> H]|[Ne H]]; [right; exact H|left; exists p; auto].
  - intros p q b Hp Hq. apply C in Hp, Hq.
    destruct Hp as [[-> Hp]|[Np Hp]], Hq as [[-> Hq]|[Nq Hq]]; auto.
    + exfalso. apply (Dj b Hp). exists q; auto.
    + exfalso. apply (Dj b Hq). exists p; auto.
    + apply (U p q b Hp Hq).
  - intros p a E. unfold upd in E. destruct (Nat.eqb_spec p o); [lia|]. apply N in E. lia.
Qed.

Definition wsafe (r : @wres V) : Prop :=
  match r with WOk w | WThrow w | WSkip w => winv w | WBadFree => False | WBadAccess => True end.

Lemma on_obj_safe w o f : winv w ->
  (forall F h a, J F h a -> safe F (f h a)) -> wsafe (on_obj w o f).
Proof.
  intros W S. unfold on_obj. destruct (wobj w o) as [a|] eqn:E; [|exact W].
  pose proof (S _ _ _ (winv_J w o a W E)) as H.
  pose proof (w_next w W o a E) as L.
  destruct (f (wh w) a) as [ok h' a'| |]; [|contradiction|exact I]. cbn in H.
  destruct ok; cbn; apply J_winv; auto.
Qed.

Lemma J_noptr F h a : good h F -> ptr a = None -> J F h a.
Proof.
  intros G E. constructor.
  - eapply good_ext; [|exact G]. intros b. unfold owned. rewrite E.
    split; [tauto|intros [|[]]; [assumption|discriminate]].
  - intros b [_ H]. congruence.
Qed.

Lemma winv_fresh w : winv w -> good (wh w) (others w (wonext w)).
Proof.
  intros [G U N]. eapply good_ext; [|exact G]. intros b. split.
  - intros (o & H). exists o. split; [|exact H]. destruct H as (a & E & _). apply N in E. lia.
  - intros (o & _ & H). exists o; exact H.
Qed.

(** A failed constructor must not leave memory behind. *)
Lemma new_safe w o0 h' a' : winv w -> J (others w (wonext w)) h' a' ->
  (ptr a' = None \/ owns a' = false) -> o0 = wonext w ->
  winv (mkW h' (wobj w) (wonext w)).
Proof.
  intros [G U N] [Gj Dj] E ->. constructor; cbn.
  - eapply good_ext; [|exact Gj]. intros b. split.
    + intros [(p & Ne & H)|[H1 H2]]; [exists p; exact H|destruct E; congruence].
    + intros (p & H). left. exists p. split; [|exact H].
      destruct H as (a & Ea & _). apply N in Ea. lia.
  - exact U.
  - exact N.
Qed.

Lemma eq_dims_iff : forall a b, eq_dims a b = true <-> a = b.
Proof.
  induction a as [|x a IH]; destruct b as [|y b]; cbn; try (split; congruence).
  rewrite andb_true_iff, Z.eqb_eq, IH. split; [intros []|intros H; injection H]; intros; subst; auto.
Qed.

(** Allocation into an empty, owning object. *)
Lemma alloc_fresh ds (h : heap) a : owns a = true -> ptr a = None ->
  let ds' := default_dims ds (dims a) in
  (existsb (fun d => d =? 0) ds' = true -> allocate zero ds h a = Fin false h a) /\
  (existsb (fun d => d =? 0) ds' = false ->
   exists h', allocate zero ds h a =
     Fin true h' (mkA (akind a) true ds' (dtype a) (dloc a) (Some (hnext h))) /\
     hmem h' (hnext h) = Some (repeat zero (Z.to_nat (total ds'))) /\
     hnext h' = S (hnext h) /\
     (forall b, b <> hnext h -> hmem h' b = hmem h b) /\
     halloc h' = halloc h ++ [hnext h] /\ hfreed h' = hfreed h).
Proof.
  intros Eo Ep ds'. unfold allocate. rewrite Eo. cbn [negb]. fold ds'.
  split; intros E; rewrite E; [reflexivity|].
  rewrite Ep. unfold detach. rewrite Eo, Ep. cbn [bind malloc akind owns dtype dloc].
  unfold set_zero. cbn [ptr hmem dims]. rewrite upd_same, repeat_length, Nat.leb_refl.
  cbn [bind akind dims dtype dloc ptr]. eexists. split; [reflexivity|]. cbn [hmem hnext halloc hfreed].
  rewrite upd_same, skipn_all2, app_nil_r by (rewrite repeat_length; lia).
  split; [reflexivity|]. split; [reflexivity|]. split; [|auto].
  intros b N. rewrite !upd_other by exact N. reflexivity.
Qed.

Lemma default_zeros ds : default_dims ds (map (fun _ => 0) ds) = ds.
Proof.
  induction ds as [|d ds IH]; cbn; [reflexivity|]. rewrite IH.
  destruct (Z.eqb_spec d 0); congruence.
Qed.
Lemma default_nozero : forall ds own, existsb (fun d => d =? 0) ds = false ->
  length ds = length own -> default_dims ds own = ds.
Proof.
  induction ds as [|d ds IH]; intros [|o own] E L; cbn in *; try discriminate; auto.
  apply orb_false_iff in E as [E1 E2]. rewrite E1, IH; auto.
Qed.
Lemma default_length : forall ds own, length ds = length own -> length (default_dims ds own) = length ds.
Proof. induction ds as [|d ds IH]; intros [|o own] E; cbn in *; try discriminate; auto. Qed.

Lemma copy_cases (h : heap) a s : (exists h', copy_data h a s = Fin true h' a) \/ copy_data h a s = BadAccess.
Proof.
  unfold copy_data. destruct (ptr a), (ptr s); auto. destruct (hmem h n), (hmem h n0); auto.
  destruct (_ && _); eauto.
Qed.

(** A copy constructor that throws has not allocated anything. *)
Lemma copy_ctor_fail s (h h' : heap) a' :
  assign zero (Some s) h (mkA (akind s) true
     (match akind s with KStruct => dims s | _ => map (fun _ => 0) (dims s) end) 0 0 None)
  = Fin false h' a' -> ptr a' = None.
Proof.
  set (a := mkA _ _ _ _ _ _). intros H. unfold assign in H.
  assert (is_attached a = false) as Ea by reflexivity. rewrite Ea in H.
  destruct (is_attached s) eqn:Es; cbn [negb] in H; [|discriminate].
  destruct (alloc_fresh (dims s) h a eq_refl eq_refl) as [Af As].
  assert (default_dims (dims s) (dims a) = dims s) as Ed.
  { unfold a. cbn [dims]. destruct (akind s); try apply default_zeros.
    clear. induction (dims s) as [|d l IH]; cbn; [reflexivity|]. rewrite IH. destruct (d =? 0); reflexivity. }
  rewrite Ed in *.
  destruct (existsb (fun d => d =? 0) (dims s)) eqn:Ez.
  { rewrite (Af eq_refl) in H. cbn in H. injection H as <- <-. reflexivity. }
  destruct (As eq_refl) as (h1 & E1 & M1 & _). rewrite E1 in H.
  clear E1 Af As. unfold set_types, is_attached in H.
  assert (eq_dims (dims s) (dims s) = true) as Er by (apply eq_dims_iff; reflexivity).
  assert (forall h (x : arr), copy_data h x s = Fin false h' a' -> False) as Cc.
  { intros hh x E. destruct (copy_cases hh x s) as [[h4 E']|E']; rewrite E' in E; discriminate. }
  unfold a in H. destruct (akind s) eqn:Ek; cbn [bind akind dims dtype dloc owns ptr andb] in H; rewrite ?Er in H;
    cbn [bind akind dims dtype dloc owns ptr andb negb] in H.
  - rewrite Er, !Z.eqb_refl in H. cbn [negb] in H. destruct (Cc _ _ H).
  - unfold deallocate, detach in H. cbn [owns ptr] in H. unfold mfree in H. rewrite M1 in H.
    cbn [bind akind dims dtype dloc] in H.
    set (h2 := mkH _ _ _ _) in H. set (a2 := mkA KArr2 true (dims s) _ _ None) in H.
    destruct (alloc_fresh (dims s) h2 a2 eq_refl eq_refl) as [_ As].
    assert (default_dims (dims s) (dims a2) = dims s) as Ed2.
    { unfold a2. cbn [dims]. apply default_nozero; auto. }
    rewrite Ed2, Ez in As. destruct (As eq_refl) as (h3 & E3 & _). rewrite E3 in H.
    cbn [bind akind dims dtype dloc owns ptr] in H. rewrite Er, !Z.eqb_refl in H. cbn [negb] in H.
    destruct (Cc _ _ H).
  - rewrite ?Er, !Z.eqb_refl in H. cbn [negb] in H. destruct (Cc _ _ H).
Qed.

Lemma step_safe w x : winv w -> wsafe (step zero w x).
Proof.
  intros W. destruct x; cbn [step].
  - set (a := mkA _ _ _ _ _ _).
    assert (J (others w (wonext w)) (wh w) a) as Ja by (apply J_noptr; [apply winv_fresh, W|reflexivity]).
    destruct alloc; [|cbn; apply J_winv; auto].
    destruct (alloc_fresh (map (fun _ => 0) ds) (wh w) a eq_refl eq_refl) as [Af As].
    destruct (existsb _ _) eqn:Ez.
    + rewrite (Af eq_refl). cbn. destruct w; exact W.
    + pose proof (allocate_safe _ (map (fun _ => 0) ds) _ _ Ja) as S.
      destruct (As eq_refl) as (h' & E & _). rewrite E in *. cbn in *. apply J_winv; auto.
  - destruct (wobj w o) as [s|] eqn:E; [|exact W].
    set (a := mkA (akind s) true _ 0 0 None).
    assert (J (others w (wonext w)) (wh w) a) as Ja by (apply J_noptr; [apply winv_fresh, W|reflexivity]).
    destruct (_ || _).
    + pose proof (assign_safe _ (Some s) _ _ Ja) as S.
      pose proof (copy_ctor_fail s (wh w)) as Cf. fold a in Cf.
      destruct (assign zero (Some s) (wh w) a) as [[] h' a'| |]; cbn in *; auto.
      * apply J_winv; auto.
      * eapply new_safe; eauto.
    + cbn. apply J_winv; auto. apply J_noptr; [apply winv_fresh, W|reflexivity].
  - apply on_obj_safe; [exact W|]. intros; apply allocate_safe; assumption.
  - apply on_obj_safe; [exact W|]. intros; apply set_size_safe; assumption.
  - apply on_obj_safe; [exact W|]. intros; apply attach_safe; assumption.
  - apply on_obj_safe; [exact W|]. intros; apply detach_safe'; assumption.
  - apply on_obj_safe; [exact W|]. intros; apply deallocate_safe; assumption.
  - destruct (wobj w s); [|exact W]. apply on_obj_safe; [exact W|]. intros; apply assign_safe; assumption.
  - apply on_obj_safe; [exact W|]. intros; apply set_zero_safe; assumption.
  - destruct (wobj w o) as [a|] eqn:E; [|exact W].
    destruct (detach_safe _ _ _ (winv_J w o a W E)) as (h' & a' & Ed & Jd & Od & Pd & _).
    rewrite Ed. cbn. destruct W as [G U N], Jd as [Gd Dd].
    assert (forall p b, owned_by (mkW h' (upd (wobj w) o None) (wonext w)) p b <->
              p <> o /\ owned_by w p b) as C.
    { intros p b. unfold owned_by. cbn. destruct (Nat.eq_dec p o) as [->|Ne].
      - rewrite upd_same. split; [intros (x & Ex & _); discriminate|intros [[] _]; reflexivity].
      - rewrite upd_other by exact Ne. tauto. }
    constructor; cbn.
    + eapply good_ext; [|exact Gd]. intros b. split.
      * intros [(p & Np & H)|[_ H]]; [exists p; apply C; auto|congruence].
      * intros (p & H). apply C in H as [Np H]. left. exists p; auto.
    + intros p q b Hp Hq. apply C in Hp as [_ Hp], Hq as [_ Hq]. eapply U; eassumption.
    + intros p x Ex. unfold upd in Ex. destruct (Nat.eqb p o); [discriminate|]. eapply N; eassumption.
  - cbn. destruct W as [G U N]. constructor; [|exact U|exact N].
    destruct G as [A B C D E F]. constructor; cbn; auto.
    + intros b Hb. apply E in Hb. lia.
    + intros b Hb Nf. unfold upd. destruct (Nat.eqb_spec b (hnext (wh w))); [discriminate|auto].
  - destruct (existsb (Nat.eqb b) (halloc (wh w))) eqn:Ex; cbn; [exact W|].
    destruct W as [G U N]. constructor; [|exact U|exact N].
    destruct G as [A B C D E F]. constructor; cbn; auto.
    intros c Hc Nf. unfold upd. destruct (Nat.eqb_spec c b) as [->|]; [exfalso|auto].
    assert (existsb (Nat.eqb b) (halloc (wh w)) = true); [|congruence].
    apply existsb_exists. exists b. split; [exact Hc|apply Nat.eqb_refl].
Qed.

Lemma run_safe : forall xs w, winv w -> wsafe (run zero w xs).
Proof.
  induction xs as [|x xs IH]; intros w W; cbn [run]; [exact W|].
  pose proof (step_safe w x W) as S. destruct (step zero w x); cbn in *; auto.
Qed.

Lemma empty_inv : winv empty_world.
Proof.
  constructor.
  - constructor; cbn; try (intros; contradiction); try (constructor; fail).
    + intros b (o & a & E & _). discriminate.
    + intros b [].
  - intros o o' b (a & E & _). discriminate.
  - intros o a E. discriminate.
Qed.

(** ** Memory never released by the arrays *)
Definition lm (h h' : heap) : Prop :=
  (hnext h <= hnext h')%nat /\
  (forall b, In b (hfreed h) -> In b (hfreed h')) /\
  (forall b, In b (halloc h') -> In b (halloc h) \/ (hnext h <= b)%nat) /\
  (forall b, hmem h b <> None -> (b < hnext h)%nat -> hmem h' b <> None \/ In b (hfreed h')).
Lemma lm_refl h : lm h h.
Proof. repeat split; auto. Qed.
Lemma lm_trans h1 h2 h3 : lm h1 h2 -> lm h2 h3 -> lm h1 h3.
Proof.
  intros (A & B & C & D) (A' & B' & C' & D'). split; [lia|]. split; [auto|]. split.
  - intros b Hb. destruct (C' b Hb) as [H|H]; [destruct (C b H); auto|]. right; lia.
  - intros b Hb L. destruct (D b Hb L) as [H|H]; [|auto]. apply D'; [exact H|lia].
Qed.
Definition lmo (h : heap) (o : @outcome V) : Prop := match o with Fin _ h' _ => lm h h' | _ => True end.
Lemma lmo_bind h o f : lmo h o -> (forall h' a', lm h h' -> lmo h (f h' a')) -> lmo h (bind o f).
Proof. intros H K. destruct o as [[]| |]; cbn in *; auto. Qed.
Lemma lmo_trans h h' o : lm h h' -> lmo h' o -> lmo h o.
Proof. destruct o; cbn; auto. intros. eapply lm_trans; eassumption. Qed.
Lemma lmo_detach h a : lmo h (detach h a).
Proof.
  unfold detach. destruct (owns a), (ptr a); try apply lm_refl.
  unfold mfree. destruct (hmem h n) eqn:E; [|exact I]. cbn. repeat split; cbn; auto.
  - intros b H. apply in_or_app; auto.
  - intros b H _. unfold upd. destruct (Nat.eqb_spec b n) as [->|]; [right; apply in_or_app; cbn; auto|auto].
Qed.
Lemma lm_upd h b l : lm h (mkH (hnext h) (upd (hmem h) b (Some l)) (halloc h) (hfreed h)).
Proof.
  repeat split; cbn; auto. intros c H _. unfold upd. left. destruct (Nat.eqb c b); [discriminate|exact H].
Qed.
Lemma lmo_zero h a : lmo h (set_zero zero h a).
Proof.
  unfold set_zero. destruct (ptr a); [|apply lm_refl]. destruct (hmem h n); [|exact I].
  destruct (_ <=? _)%nat; [|exact I]. apply lm_upd.
Qed.
Lemma lmo_allocate h ds a : lmo h (allocate zero ds h a).
Proof.
  unfold allocate. destruct (negb (owns a)); [apply lm_refl|]. destruct (existsb _ _); [apply lm_refl|].
  apply lmo_bind.
  - destruct (match ptr a with None => true | _ => _ end); [|apply lm_refl].
    apply lmo_bind; [apply lmo_detach|]. intros h1 a1 L. cbn.
    eapply lm_trans; [exact L|]. split; [cbn; lia|]. split; [cbn; auto|]. split.
    + cbn. intros b Hb. apply in_app_or in Hb as [|[<-|[]]]; auto.
    + cbn. intros b Hb _. unfold upd. left. destruct (Nat.eqb b (hnext h1)); [discriminate|exact Hb].
  - intros h1 a1 L. eapply lmo_trans; [exact L|]. apply lmo_bind; [apply lmo_zero|]. intros; assumption.
Qed.
Lemma lmo_dealloc h a : lmo h (deallocate h a).
Proof. unfold deallocate. destruct (owns a); [apply lmo_detach|apply lm_refl]. Qed.
Lemma lmo_copy h a s : lmo h (copy_data h a s).
Proof.
  unfold copy_data. destruct (ptr a), (ptr s); try exact I. destruct (hmem h n), (hmem h n0); try exact I.
  destruct (_ && _); [apply lm_upd|exact I].
Qed.
Lemma lmo_dealloc_alloc h a (f : arr -> list Z) :
  lmo h (bind (deallocate h a) (fun h2 a2 => allocate zero (f a2) h2 a2)).
Proof.
  apply lmo_bind; [apply lmo_dealloc|]. intros. eapply lmo_trans; [eassumption|apply lmo_allocate].
Qed.
Lemma lmo_assign h src a : lmo h (assign zero src h a).
Proof.
  unfold assign. destruct (negb (is_attached _)).
  { destruct (is_attached a); apply lm_refl. }
  apply lmo_bind.
  { destruct (is_attached a); [apply lm_refl|]. apply lmo_bind; [apply lmo_allocate|]. intros; assumption. }
  intros h1 a1 L1. eapply lmo_trans; [exact L1|]. apply lmo_bind.
  { destruct (_ && _ && _); [|apply lm_refl]. apply lmo_bind.
    - destruct (eq_dims _ _); [apply lm_refl|].
      apply (lmo_dealloc_alloc h1 a1 (fun x => dims match src with Some d => d | None => x end)).
    - intros h2 a2 L2. eapply lmo_trans; [exact L2|]. apply lmo_bind; [|intros; assumption].
      destruct (akind a2); try apply lm_refl.
      apply (lmo_dealloc_alloc h2 a2 (fun x => dims match src with Some d => d | None => x end)). }
  intros h2 a2 L2. eapply lmo_trans; [exact L2|].
  destruct (negb _); [apply lm_refl|]. destruct (negb _); [apply lm_refl|]. destruct (negb _); [apply lm_refl|].
  apply lmo_copy.
Qed.

(** A live block not allocated by an array stays so. *)
Definition kept (b : nat) (w : @world V) : Prop :=
  hmem (wh w) b <> None /\ ~ In b (halloc (wh w)) /\ (b < hnext (wh w))%nat.
Definition wkept (b : nat) (r : @wres V) : Prop :=
  match r with WOk w | WThrow w | WSkip w => kept b w | _ => True end.
Lemma lm_kept b (w : @world V) h' (ob : nat -> option arr) n :
  kept b w -> lm (wh w) h' -> incl (hfreed h') (halloc h') -> kept b (mkW h' ob n).
Proof.
  intros (A & B & C) (L1 & L2 & L3 & L4) I. unfold kept. cbn.
  assert (~ In b (halloc h')) as N by (intros H; destruct (L3 b H); [auto|lia]).
  split; [|split; [exact N|lia]]. destruct (L4 b A C) as [H|H]; [exact H|]. destruct N. apply I, H.
Qed.
Lemma step_kept b w x : winv w -> kept b w -> x <> OExtFree b -> wkept b (step zero w x).
Proof.
  intros W K N. pose proof (step_safe w x W) as S.
  assert (forall o f, (forall h a, lmo h (f h a)) -> wsafe (on_obj w o f) -> wkept b (on_obj w o f)) as On.
  { intros o f L. specialize (L (wh w)). unfold on_obj. destruct (wobj w o) as [a|]; [|intros _; exact K].
    specialize (L a). destruct (f (wh w) a) as [[] h' a'| |]; cbn in *; auto;
      intros [[] _ _]; eapply lm_kept; eauto. }
  assert (forall r, lmo (wh w) r -> wsafe (on_new w r) -> wkept b (on_new w r)) as Nw.
  { intros r L. unfold on_new. destruct r as [[] h' a'| |]; cbn in *; auto;
      intros [[] _ _]; eapply lm_kept; eauto. }
  destruct x; cbn [step] in *.
  - apply Nw; [|exact S]. destruct alloc; [apply lmo_allocate|apply lm_refl].
  - destruct (wobj w o); [|exact K]. apply Nw; [|exact S]. destruct (_ || _); [apply lmo_assign|apply lm_refl].
  - apply On; [intros; apply lmo_allocate|exact S].
  - apply On; [|exact S]. intros h a. unfold set_size. destruct (is_attached a); apply lm_refl.
  - apply On; [|exact S]. intros h a. unfold attach. destruct (is_attached a); apply lm_refl.
  - apply On; [intros; apply lmo_detach|exact S].
  - apply On; [intros; apply lmo_dealloc|exact S].
  - destruct (wobj w s); [|exact K]. apply On; [intros; apply lmo_assign|exact S].
  - apply On; [intros; apply lmo_zero|exact S].
  - destruct (wobj w o) as [a|]; [|exact K]. pose proof (lmo_detach (wh w) a) as L.
    destruct (detach (wh w) a); cbn in *; auto. destruct S as [[] _ _]. eapply lm_kept; eauto.
  - destruct K as (K1 & K2 & K3). cbn. unfold kept. cbn. split; [|split; [exact K2|lia]].
    unfold upd. destruct (Nat.eqb b (hnext (wh w))); [discriminate|exact K1].
  - destruct (existsb _ _); [exact K|]. destruct K as (K1 & K2 & K3). cbn. unfold kept. cbn.
    split; [|split; [exact K2|exact K3]]. unfold upd. destruct (Nat.eqb_spec b b0) as [->|]; [congruence|exact K1].
Qed.
Lemma run_kept b : forall xs w, winv w -> kept b w -> ~ In (OExtFree b) xs -> wkept b (run zero w xs).
Proof.
  induction xs as [|x xs IH]; intros w W K N; cbn [run]; [exact K|].
  pose proof (step_safe w x W) as S.
  assert (wkept b (step zero w x)) as K' by (apply step_kept; auto; intros ->; apply N; left; reflexivity).
  assert (~ In (OExtFree b) xs) by (intros H; apply N; right; exact H).
  destruct (step zero w x); cbn in *; auto.
Qed.
Lemma run_no_throw : forall xs (w : @world V), match run zero w xs with WThrow _ | WSkip _ => False | _ => True end.
Proof.
  induction xs as [|x xs IH]; intros w; cbn [run]; [exact I|].
  destruct (step zero w x); try apply IH; exact I.
Qed.

(** ** Assignment (C14) *)
Lemma copy_ok (h : heap) a s l : readable h s l -> dims s = dims a ->
  (exists b m, ptr a = Some b /\ hmem h b = Some m /\ (Z.to_nat (total (dims a)) <= length m)%nat) ->
  exists h', copy_data h a s = Fin true h' a /\ readable h' a l /\ readable h' s l.
Proof.
  intros (bs & ms & P1 & P2 & P3 & P4) Ed (b & m & Q1 & Q2 & Q3).
  unfold copy_data. rewrite Q1, P1, Q2, P2.
  rewrite Ed in P3, P4. set (n := Z.to_nat (total (dims a))) in *.
  assert ((n <=? length m) && (n <=? length ms) = true)%nat as ->.
  { apply andb_true_iff; split; apply Nat.leb_le; assumption. }
  eexists. split; [reflexivity|].
  assert (length (firstn n ms) = n) as Ln by (apply firstn_length_le; exact P3).
  assert (firstn n (firstn n ms ++ skipn n m) = l) as Ef.
  { rewrite firstn_app, Ln, Nat.sub_diag, firstn_O, app_nil_r, firstn_firstn, Nat.min_id. exact P4. }
  assert (n <= length (firstn n ms ++ skipn n m))%nat as Lm by (rewrite app_length; lia).
  split.
  - exists b, (firstn n ms ++ skipn n m). cbn [hmem]. rewrite upd_same. fold n. auto.
  - unfold readable. cbn [hmem]. rewrite Ed. fold n.
    destruct (Nat.eq_dec bs b) as [->|N].
    + exists b, (firstn n ms ++ skipn n m). rewrite upd_same. auto.
    + exists bs, ms. rewrite upd_other by exact N. auto.
Qed.

Lemma pos_nozero ds : Forall (fun x => 0 < x) ds -> existsb (fun d => d =? 0) ds = false.
Proof.
  intros F. induction F as [|d ds H F IH]; cbn; [reflexivity|]. rewrite IH. lia.
Qed.

(** The two-array case: re-creating the destination keeps the source. *)
Lemma realloc_ok (h : heap) a d l ds : owns a = true -> ptr a = None -> readable h d l ->
  (forall b, hmem h b <> None -> (b < hnext h)%nat) ->
  Forall (fun x => 0 < x) ds -> length (dims a) = length ds ->
  exists h' b, allocate zero ds h a = Fin true h' (mkA (akind a) true ds (dtype a) (dloc a) (Some b)) /\
    readable h' d l /\ hmem h' b = Some (repeat zero (Z.to_nat (total ds))) /\ ptr d <> Some b /\
    (forall c, hmem h' c <> None -> (c < hnext h')%nat).
Proof.
  intros Eo Ep R N F L. destruct (alloc_fresh ds h a Eo Ep) as [_ As].
  assert (default_dims ds (dims a) = ds) as Ed by (apply default_nozero; [apply pos_nozero, F|congruence]).
  rewrite Ed in As. destruct (As (pos_nozero _ F)) as (h' & E & M & Nx & Ot & _).
  exists h', (hnext h). destruct R as (b & m & R1 & R2 & R3 & R4).
  assert (b <> hnext h) as Nb.
  { assert (b < hnext h)%nat by (apply N; congruence). lia. }
  split; [exact E|]. split; [exists b, m; rewrite Ot by exact Nb; auto|].
  split; [exact M|]. split; [congruence|].
  intros c Hc. rewrite Nx. destruct (Nat.eq_dec c (hnext h)) as [->|Nc]; [lia|].
  rewrite Ot in Hc by exact Nc. apply N in Hc. lia.
Qed.

Lemma dealloc_realloc (h : heap) a d l ds b : owns a = true -> ptr a = Some b -> hmem h b <> None ->
  ptr d <> Some b -> readable h d l ->
  (forall b, hmem h b <> None -> (b < hnext h)%nat) ->
  Forall (fun x => 0 < x) ds -> length (dims a) = length ds ->
  exists h' b', bind (deallocate h a) (fun h2 a2 => allocate zero ds h2 a2)
     = Fin true h' (mkA (akind a) true ds (dtype a) (dloc a) (Some b')) /\
    readable h' d l /\ hmem h' b' = Some (repeat zero (Z.to_nat (total ds))) /\ ptr d <> Some b' /\
    (forall c, hmem h' c <> None -> (c < hnext h')%nat).
Proof.
  intros Eo Ep Lv Nd R N F L. unfold deallocate, detach, mfree. rewrite Eo, Ep.
  destruct (hmem h b) as [lb|] eqn:Eb; [|congruence]. cbn [bind].
  set (h2 := mkH _ _ _ _). set (a2 := mkA _ _ _ _ _ _).
  destruct (realloc_ok h2 a2 d l ds eq_refl eq_refl) as (h' & b' & E & R' & M & Nb & Nx); auto.
  - destruct R as (bs & m & R1 & R2 & R3 & R4). exists bs, m. unfold h2. cbn [hmem].
    rewrite upd_other by congruence. auto.
  - intros c Hc. unfold h2 in *. cbn [hmem hnext] in *. unfold upd in Hc.
    destruct (Nat.eqb c b); [congruence|]. auto.
  - exists h', b'. auto.
Qed.

Lemma assign_copies (h : heap) a d l : assignable h a d l ->
  exists h' a', assign zero (Some d) h a = Fin true h' a' /\
    dims a' = dims d /\ dtype a' = dtype d /\ dloc a' = dloc d /\
    readable h' a' l /\ readable h' d l.
Proof.
  intros [R F N L K (D1 & D2 & D3)].
  assert (is_attached d = true) as Ed.
  { destruct R as (b & m & R1 & _). unfold is_attached. rewrite R1. reflexivity. }
  assert (length (dims d) = length (dims a)) as L' by congruence.
  unfold assign. rewrite Ed. cbn [negb].
  (* after the first allocation *)
  assert (exists h1 a1,
    (if is_attached a then Fin true h a
        else bind (allocate zero (dims d) h a) (fun h1 a1 => Fin true h1 (set_types a1 d)))
     = Fin true h1 a1 /\ readable h1 d l /\ akind a1 = akind a /\
     (forall b, hmem h1 b <> None -> (b < hnext h1)%nat) /\ length (dims a1) = length (dims d) /\
     exists b m, ptr a1 = Some b /\ hmem h1 b = Some m /\
       (Z.to_nat (total (dims a1)) <= length m)%nat /\
       (owns a1 = true -> ptr d <> Some b) /\
       (owns a1 = false -> dims a1 = dims d /\ dtype a1 = dtype d /\ dloc a1 = dloc d))
    as (h1 & a1 & E1 & R1 & K1 & N1 & L1 & b & m & P1 & M1 & S1 & O1 & O1').
  { unfold is_attached. destruct (ptr a) as [b|] eqn:Ep.
    - exists h, a. split; [reflexivity|]. split; [exact R|]. split; [reflexivity|]. split; [exact N|].
      split; [congruence|]. destruct (owns a) eqn:Eo.
      + destruct (D2 b (conj Eo Ep)) as (X1 & X2 & m & X3 & X4).
        exists b, m. repeat split; auto; congruence.
      + destruct (D3 eq_refl b eq_refl) as (X1 & X2 & X3 & m & X4 & X5).
        exists b, m. repeat split; auto; congruence.
    - destruct (realloc_ok h a d l (dims d) (D1 eq_refl) Ep R N F (eq_sym L')) as (h1 & b & E & R1 & M1 & Nb & Nx).
      rewrite E. cbn [bind set_types akind owns dims ptr]. eexists; eexists; split; [reflexivity|].
      cbn [akind dims ptr owns]. split; [exact R1|]. split; [reflexivity|]. split; [exact Nx|].
      split; [reflexivity|]. exists b, (repeat zero (Z.to_nat (total (dims d)))).
      rewrite repeat_length. repeat split; auto; discriminate. }
  rewrite E1. cbn [bind]. clear E1.
  assert (is_attached a1 = true) as Ea1 by (unfold is_attached; rewrite P1; reflexivity).
  rewrite Ea1. cbn [andb].
  assert (exists h3 a3,
   (if owns a1 && (match akind a1 with KStruct => false | _ => true end) then
          bind (if eq_dims (dims a1) (dims d) then Fin true h1 a1
                else bind (deallocate h1 a1) (fun h2 a2 => allocate zero (dims d) h2 a2))
          (fun h2 a2 =>
          bind (match akind a2 with
                | KArr2 => bind (deallocate h2 a2) (fun h3 a3 => allocate zero (dims d) h3 a3)
                | _ => Fin true h2 a2
                end)
          (fun h3 a3 => Fin true h3 (set_types a3 d)))
        else Fin true h1 a1) = Fin true h3 a3 /\
    readable h3 d l /\ dims a3 = dims d /\ dtype a3 = dtype d /\ dloc a3 = dloc d /\
    exists b m, ptr a3 = Some b /\ hmem h3 b = Some m /\ (Z.to_nat (total (dims a3)) <= length m)%nat)
    as (h3 & a3 & E3 & R3 & X1 & X2 & X3 & Y).
  { destruct (owns a1) eqn:Eo1.
    2: { cbn [andb]. destruct (O1' eq_refl) as (Z1 & Z2 & Z3). exists h1, a1.
         split; [reflexivity|]. repeat split; auto. exists b, m; auto. }
    assert ((match akind a1 with KStruct => false | _ => true end) = true) as ->.
    { rewrite K1. destruct (akind a); congruence. }
    cbn [andb].
    assert (exists h2 a2, (if eq_dims (dims a1) (dims d) then Fin true h1 a1
                else bind (deallocate h1 a1) (fun h2 a2 => allocate zero (dims d) h2 a2)) = Fin true h2 a2
       /\ readable h2 d l /\ dims a2 = dims d /\ owns a2 = true /\
       (forall b, hmem h2 b <> None -> (b < hnext h2)%nat) /\
       exists b m, ptr a2 = Some b /\ hmem h2 b = Some m /\ (Z.to_nat (total (dims a2)) <= length m)%nat
          /\ ptr d <> Some b) as (h2 & a2 & E2 & R2 & X2 & O2 & N2 & b2 & m2 & P2 & M2 & S2 & Nb2).
    { destruct (eq_dims (dims a1) (dims d)) eqn:Eq.
      - apply eq_dims_iff in Eq. exists h1, a1. repeat split; auto. exists b, m; auto.
      - destruct (dealloc_realloc h1 a1 d l (dims d) b Eo1 P1 ltac:(congruence) (O1 eq_refl) R1 N1 F L1)
          as (h2 & b' & E & R2 & M2 & Nb & Nx).
        rewrite E. eexists; eexists; split; [reflexivity|]. cbn [dims owns ptr].
        split; [exact R2|]. split; [reflexivity|]. split; [reflexivity|]. split; [exact Nx|].
        exists b', (repeat zero (Z.to_nat (total (dims d)))). rewrite repeat_length. auto. }
    rewrite E2. cbn [bind].
    destruct (akind a2).
    - cbn [bind]. eexists; eexists; split; [reflexivity|]. cbn [set_types dims dtype dloc ptr].
      repeat split; auto. exists b2, m2; auto.
    - destruct (dealloc_realloc h2 a2 d l (dims d) b2 O2 P2 ltac:(congruence) Nb2 R2 N2 F ltac:(congruence))
          as (h3 & b' & E & R3 & M3 & Nb & Nx).
      rewrite E. cbn [bind]. eexists; eexists; split; [reflexivity|]. cbn [set_types dims dtype dloc ptr].
      repeat split; auto. exists b', (repeat zero (Z.to_nat (total (dims d)))). rewrite repeat_length. auto.
    - cbn [bind]. eexists; eexists; split; [reflexivity|]. cbn [set_types dims dtype dloc ptr].
      repeat split; auto. exists b2, m2; auto. }
  rewrite E3. cbn [bind].
  assert (eq_dims (dims d) (dims a3) = true) as -> by (apply eq_dims_iff; congruence).
  rewrite X2, X3, !Z.eqb_refl. cbn [negb].
  destruct (copy_ok h3 a3 d l R3 ltac:(congruence) Y) as (h4 & E4 & R4 & R4').
  exists h4, a3. auto 8.
Qed.

(** Self-assignment of 1D, 3D, 4D arrays and of attached 2D arrays. *)
Lemma self_assign_ok (h : heap) a l : readable h a l -> akind a <> KArr2 \/ owns a = false ->
  exists h', assign zero None h a = Fin true h' a /\ readable h' a l.
Proof.
  intros R K. assert (is_attached a = true) as Ea.
  { destruct R as (b & m & R1 & _). unfold is_attached. rewrite R1. reflexivity. }
  assert (Y : exists b m, ptr a = Some b /\ hmem h b = Some m /\ (Z.to_nat (total (dims a)) <= length m)%nat).
  { destruct R as (b & m & ? & ? & ? & ?). exists b, m; auto. }
  assert (forall x : arr, set_types x x = x) as St by (intros []; reflexivity).
  assert (forall ds, eq_dims ds ds = true) as Er by (intros; apply eq_dims_iff; reflexivity).
  unfold assign. rewrite Ea. cbn [negb bind]. rewrite Ea. cbn [andb].
  destruct (copy_ok h a a l R eq_refl Y) as (h' & E & R' & _).
  exists h'. split; [|exact R'].
  destruct (owns a) eqn:Eo; cbn [andb].
  - destruct (akind a) eqn:Ek; try (destruct K; congruence).
    + rewrite Er. cbn [bind]. rewrite Ek. cbn [bind]. rewrite St, Er, !Z.eqb_refl. exact E.
    + cbn [bind]. rewrite Er, !Z.eqb_refl. exact E.
  - cbn [bind]. rewrite Er, !Z.eqb_refl. exact E.
Qed.

(** Self-assignment of an owning 2D array zeroes it. *)
Lemma self_assign2_zero (h : heap) a b l : akind a = KArr2 -> owned a b -> hmem h b = Some l ->
  Forall (fun x => 0 < x) (dims a) ->
  exists h' a', assign zero None h a = Fin true h' a' /\ dims a' = dims a /\
    readable h' a' (repeat zero (Z.to_nat (total (dims a)))).
Proof.
  intros K (Eo & Ep) M F.
  assert (forall ds, eq_dims ds ds = true) as Er by (intros; apply eq_dims_iff; reflexivity).
  assert (is_attached a = true) as Ea by (unfold is_attached; rewrite Ep; reflexivity).
  unfold assign. rewrite Ea. cbn [negb bind]. rewrite Ea, Eo, K, Er. cbn [andb bind]. rewrite K.
  unfold deallocate, detach, mfree. rewrite Eo, Ep, M. cbn [bind dims].
  set (h2 := mkH _ _ _ _). set (a2 := mkA _ _ _ _ _ _).
  destruct (alloc_fresh (dims a) h2 a2 eq_refl eq_refl) as [_ As].
  assert (default_dims (dims a) (dims a2) = dims a) as Ed by (apply default_nozero; [apply pos_nozero, F|reflexivity]).
  rewrite Ed in As. destruct (As (pos_nozero _ F)) as (h' & E & M' & Nx & Ot & _). rewrite E.
  cbn [bind set_types akind owns dims dtype dloc ptr].
  rewrite Er, !Z.eqb_refl. cbn [negb].
  set (a3 := mkA _ _ _ _ _ _).
  assert (readable h' a3 (repeat zero (Z.to_nat (total (dims a))))) as R.
  { exists (hnext h2), (repeat zero (Z.to_nat (total (dims a)))). cbn [ptr dims a3].
    rewrite repeat_length. rewrite firstn_all2 by (rewrite repeat_length; lia). auto. }
  destruct (copy_ok h' a3 a3 _ R eq_refl) as (h4 & E4 & R4 & _).
  { destruct R as (x & y & ? & ? & ? & ?). exists x, y; auto. }
  exists h4, a3. auto.
Qed.

Lemma set_zero_readable h a h' a' : set_zero zero h a = Fin true h' a' ->
  a' = a /\ readable h' a (repeat zero (Z.to_nat (total (dims a)))).
Proof.
  unfold set_zero. destruct (ptr a) as [b|] eqn:Ep; [|discriminate]. destruct (hmem h b) as [l|] eqn:Em; [|discriminate].
  destruct (Nat.leb_spec (Z.to_nat (total (dims a))) (length l)); [|discriminate].
  set (n := Z.to_nat (total (dims a))) in *.
  intros [= <- <-]. split; [reflexivity|]. exists b, (repeat zero n ++ skipn n l). cbn [hmem].
  rewrite upd_same. fold n. repeat split; auto.
  - rewrite app_length, repeat_length. lia.
  - rewrite firstn_app, repeat_length, Nat.sub_diag, firstn_O, app_nil_r. apply firstn_all2. rewrite repeat_length. lia.
Qed.
Lemma allocate_result ds h a h' a' : akind a <> KStruct -> allocate zero ds h a = Fin true h' a' ->
  dims a' = default_dims ds (dims a) /\ owns a' = true /\ dtype a' = dtype a /\ dloc a' = dloc a /\
  readable h' a' (repeat zero (Z.to_nat (total (dims a')))).
Proof.
  intros K. unfold allocate. destruct (owns a) eqn:Eo; [|discriminate]. cbn [negb].
  set (ds' := default_dims ds (dims a)). destruct (existsb _ _); [discriminate|].
  assert (exists h1 a1, forall r, bind (if match ptr a with None => true | Some _ => match akind a with KStruct => false | _ => negb (eq_dims (dims a) ds') end end then
     bind (detach h a) (fun h1 a1 => let '(h2, b) := malloc zero h1 (total ds') in
        Fin true h2 (mkA (akind a1) (owns a1) ds' (dtype a1) (dloc a1) (Some b))) else Fin true h a) r = BadFree \/
     (bind (if match ptr a with None => true | Some _ => match akind a with KStruct => false | _ => negb (eq_dims (dims a) ds') end end then
     bind (detach h a) (fun h1 a1 => let '(h2, b) := malloc zero h1 (total ds') in
        Fin true h2 (mkA (akind a1) (owns a1) ds' (dtype a1) (dloc a1) (Some b))) else Fin true h a) r = r h1 a1 /\ dims a1 = ds' /\ dtype a1 = dtype a /\ dloc a1 = dloc a))
    as (h1 & a1 & H1).
  { unfold detach, mfree. rewrite Eo. destruct (ptr a) as [b|].
    - destruct (match akind a with KStruct => false | _ => negb (eq_dims (dims a) ds') end) eqn:Er.
      + destruct (hmem h b).
        * eexists; eexists; intros r; right. cbn. split; [reflexivity|auto].
        * exists h, a. auto.
      + exists h, a. intros r; right. cbn. split; [reflexivity|].
        destruct (akind a); try congruence; apply negb_false_iff, eq_dims_iff in Er; auto.
    - eexists; eexists; intros r; right. cbn. split; [reflexivity|auto]. }
  intros H. destruct (H1 (fun h1 a1 => bind (set_zero zero h1 a1) (fun h2 a2 =>
       Fin true h2 (mkA (akind a2) true (dims a2) (dtype a2) (dloc a2) (ptr a2))))) as [E|(E & Ed & Et & El)].
  - rewrite E in H. discriminate.
  - rewrite E in H. destruct (set_zero zero h1 a1) as [[] h2 a2| |] eqn:Ez; cbn in H; try discriminate.
    injection H as <- <-. destruct (set_zero_readable _ _ _ _ Ez) as [-> R]. cbn [dims owns dtype dloc].
    repeat split; auto.
Qed.
Lemma default_nth : forall ds own i, length ds = length own ->
  nth i (default_dims ds own) 0 = if nth i ds 0 =? 0 then nth i own 0 else nth i ds 0.
Proof.
  induction ds as [|d ds IH]; intros [|o own] i L; try discriminate; cbn [default_dims].
  - destruct i; reflexivity.
  - destruct i; cbn [nth]; [reflexivity|]. apply IH. cbn in L. congruence.
Qed.
End Own.

(** ** Container (C11) *)


Lemma total_bytes_spec : forall ks acc, (forall k, In k ks -> 0 <= csize k) ->
  total_bytes acc ks = (if forallb (fun k => csize k mod 8 =? 0) ks then Some (acc + bytes ks) else None).
Proof.
  induction ks as [|k ks IH]; intros acc P; cbn [total_bytes forallb bytes].
  - rewrite Z.add_0_r. reflexivity.
  - rewrite Z.rem_mod_nonneg by (try lia; apply P; left; reflexivity).
    destruct (Z.eqb_spec (csize k mod 8) 0); cbn [andb]; [|reflexivity].
    rewrite IH by (intros; apply P; right; assumption). destruct (forallb _ _); [f_equal; lia|reflexivity].
Qed.

Lemma bytes_nonneg ks : (forall k, In k ks -> 0 <= csize k) -> 0 <= bytes ks.
Proof.
  induction ks as [|k ks IH]; intros P; cbn; [lia|].
  specialize (IH (fun k H => P k (or_intror H))). specialize (P k (or_introl eq_refl)). lia.
Qed.

Lemma attach_chunks_spec : forall ks p r, attach_chunks p ks = COk r ->
  map csize r = map csize ks /\ length r = length ks /\
  forall i k, nth_error ks i = Some k ->
    nth_error r i = Some (mkC (csize k) (addr (p + bytes (firstn i ks)))).
Proof.
  induction ks as [|k ks IH]; intros p r H; cbn in H.
  - injection H as <-. repeat split. intros i k Hi. destruct i; discriminate.
  - destruct (cat k); [discriminate|].
    destruct (attach_chunks (p + csize k) ks) as [r'|] eqn:E; [|discriminate]. injection H as <-.
    destruct (IH _ _ E) as (A & B & C). cbn. split; [congruence|]. split; [congruence|].
    intros [|i] x Hi; cbn in *.
    + injection Hi as ->. rewrite Z.add_0_r. reflexivity.
    + rewrite (C i x Hi). f_equal. f_equal. f_equal. lia.
Qed.

Lemma attach_chunks_ok : forall ks p, (forall k, In k ks -> cat k = None) ->
  exists r, attach_chunks p ks = COk r.
Proof.
  induction ks as [|k ks IH]; intros p H; cbn; [eauto|].
  rewrite (H k (or_introl eq_refl)).
  destruct (IH (p + csize k) (fun x Hx => H x (or_intror Hx))) as [r ->]. eauto.
Qed.

Lemma bytes_firstn_mono ks i j : (forall k, In k ks -> 0 <= csize k) -> (i <= j)%nat ->
  bytes (firstn i ks) <= bytes (firstn j ks).
Proof.
  revert i j. induction ks as [|k ks IH]; intros i j P L; [rewrite !firstn_nil; cbn; lia|].
  destruct i, j; cbn; try lia.
  - assert (0 <= bytes (firstn j ks)).
    { apply bytes_nonneg. intros x Hx. apply P. right. revert Hx; clear; revert j; induction ks as [|y ks IH]; intros [|j] H; cbn in *; try contradiction; destruct H; eauto. }
    specialize (P k (or_introl eq_refl)). lia.
  - specialize (IH i j (fun x H => P x (or_intror H)) ltac:(lia)). lia.
Qed.

Lemma bytes_aligned ks : (forall k, In k ks -> csize k mod 8 = 0) -> bytes ks mod 8 = 0.
Proof.
  induction ks as [|k ks IH]; intros P; cbn; [reflexivity|].
  specialize (IH (fun k H => P k (or_intror H))). specialize (P k (or_introl eq_refl)). lia.
Qed.

Lemma bytes_firstn_S : forall ks i k, nth_error ks i = Some k ->
  bytes (firstn (S i) ks) = bytes (firstn i ks) + csize k.
Proof.
  induction ks as [|x ks IH]; intros [|i] k H; cbn in *; try discriminate.
  - injection H as ->. lia.
  - specialize (IH i k H). destruct ks; cbn in *; lia.
Qed.
Lemma bytes_firstn_all : forall ks i, (length ks <= i)%nat -> bytes (firstn i ks) = bytes ks.
Proof. intros. rewrite firstn_all2 by lia. reflexivity. Qed.

(** Ownership of the container's own block *)
Definition cinv (w : cworld) : Prop :=
  match cptr (cw_c w) with
  | None => cw_live w = [] /\ cowns (cw_c w) = true
  | Some p => cw_live w = (if cowns (cw_c w) then [p] else [])
  end.


Lemma c_step_inv w x : cinv w -> cop_ok x -> exists w', c_step w x = Some w' /\ cinv w'.
Proof.
  intros I K. destruct w as [[o p ks] live]. unfold cinv in *. cbn in I.
  destruct x; cbn [c_step cw_c cw_live push_chunk fst].
  - eexists; split; [reflexivity|]. cbn. exact I.
  - eexists; split; [reflexivity|]. unfold c_allocate, c_mallocs. cbn [cptr chunks cw_c cw_live].
    destruct p as [p|]; [exact I|].
    destruct (total_bytes 0 ks); [|exact I]. destruct (base =? 0); [exact I|].
    destruct I as [-> Eo]. cbn [cowns] in *.
    destruct (attach_chunks base ks); cbn; rewrite Eo; reflexivity.
  - eexists; split; [reflexivity|]. unfold c_attach. cbn [cptr chunks].
    destruct p as [p|]; [exact I|]. destruct I as [-> _]. cbn in K.
    unfold addr. destruct (Z.eqb_spec base 0); [contradiction|].
    destruct (attach_chunks base ks); reflexivity.
  - unfold c_detach. cbn [cowns cptr chunks].
    destruct p as [p|].
    + destruct o; cbn in *; subst live; cbn.
      * rewrite Z.eqb_refl. cbn. destruct (Z.eq_dec p p); [|congruence]. eexists; split; [reflexivity|]. cbn. auto.
      * eexists; split; [reflexivity|]. cbn. auto.
    + destruct I as [-> Eo]. subst o. cbn. eexists; split; [reflexivity|]. cbn. auto.
Qed.

Lemma c_run_inv : forall xs w, cinv w -> Forall cop_ok xs -> exists w', c_run w xs = Some w' /\ cinv w'.
Proof.
  induction xs as [|x xs IH]; intros w I F; cbn; [eauto|].
  inversion F; subst. destruct (c_step_inv w x I) as (w' & -> & I'); auto.
Qed.
