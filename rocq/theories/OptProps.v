(** * C132: the choices of the command line *)
From Coq Require Import Reals ZArith NArith Nnat Lia String Ascii List Bool.
From Verif Require Import OptModel OptSpec.
Import ListNotations.
Local Open Scope string_scope.

Lemma get_bound i s a : get i s = Some a -> (i < String.length s)%nat.
Proof. revert i. induction s as [|c s IH]; intros [|i] H; cbn in *; try discriminate; [lia|apply IH in H; lia]. Qed.
Lemma each_letter (P : ascii -> ascii -> Prop) : (forall i, (i < 26)%nat -> match get i small, get i capital with Some a, Some b => P a b | _, _ => True end) -> forall a b, pair_of_letters a b -> P a b.
Proof.
  intros H a b (i & A & B). pose proof (get_bound _ _ _ A) as L. specialize (H i L). rewrite A, B in H. exact H.
Qed.
Ltac letters := let i := fresh in let H := fresh in intros i H; do 26 (destruct i as [|i]; [vm_compute; try (repeat split; reflexivity || discriminate)|]); lia.

Lemma tolower_pair a b : pair_of_letters a b -> tolower a = Some a /\ tolower b = Some a.
Proof. revert a b. apply each_letter. letters. Qed.
Lemma toupper_pair a b : pair_of_letters a b -> toupper a = Some b /\ toupper b = Some b.
Proof. revert a b. apply each_letter. letters. Qed.
Lemma tolower_same a b : same_letter a b -> tolower a = tolower b.
Proof. intros [->|[H|H]]; [reflexivity| |]; apply tolower_pair in H; destruct H as (-> & ->); reflexivity. Qed.

(** each character of a classified string has a lower case form *)
Lemma tolower_some a : classified a <-> exists b, tolower a = Some b.
Proof.
  unfold classified, tolower, shifted. destruct (N.eqb_spec (N_of_ascii a) 255); destruct (N.leb_spec 128 (N_of_ascii a)); split; intros D; try (eexists; reflexivity); try lia; try (destruct D as (b & D); discriminate).
Qed.
Lemma code_get c lo (s : string) : (forall i, (i < 26)%nat -> get i s = Some (ascii_of_N (lo + N.of_nat i))) -> (lo <= N_of_ascii c)%N -> (N_of_ascii c <= lo + 25)%N -> get (N.to_nat (N_of_ascii c - lo)) s = Some c.
Proof.
  intros H A B. rewrite H by lia. f_equal. rewrite N2Nat.id. replace (lo + (N_of_ascii c - lo))%N with (N_of_ascii c) by lia. apply ascii_N_embedding.
Qed.
Lemma capital_code i : (i < 26)%nat -> get i capital = Some (ascii_of_N (65 + N.of_nat i)).
Proof. intros H. do 26 (destruct i as [|i]; [reflexivity|]). lia. Qed.
Lemma small_code i : (i < 26)%nat -> get i small = Some (ascii_of_N (97 + N.of_nat i)).
Proof. intros H. do 26 (destruct i as [|i]; [reflexivity|]). lia. Qed.
Lemma tolower_meaning a b : tolower a = Some b -> (b = a /\ forall i, get i capital <> Some a) \/ pair_of_letters b a.
Proof.
  unfold tolower, shifted, within_code. intros H. destruct (N.eqb_spec (N_of_ascii a) 255) as [E|E].
  - left. split; [congruence|]. intros i G. pose proof (get_bound _ _ _ G) as L. cbn in L. rewrite (capital_code i L) in G. assert (a = ascii_of_N (65 + N.of_nat i)) as -> by congruence. rewrite N_ascii_embedding in E; lia.
  - destruct (N.leb_spec 128 (N_of_ascii a)); [discriminate|]. destruct (N.leb_spec 65 (N_of_ascii a)), (N.leb_spec (N_of_ascii a) (65 + 25)); cbn [andb] in H.
    1:{ right. exists (N.to_nat (N_of_ascii a - 65)). split; [|apply code_get; [exact capital_code|lia|lia]]. rewrite small_code by lia. rewrite <- H. f_equal. f_equal. lia. }
    all: left; split; [congruence|]; intros i G; pose proof (get_bound _ _ _ G) as L; cbn in L; rewrite (capital_code i L) in G; assert (a = ascii_of_N (65 + N.of_nat i)) as -> by congruence; rewrite N_ascii_embedding in *; lia.
Qed.
Lemma small_not_capital a b : pair_of_letters a b -> forall i, get i capital <> Some a.
Proof.
  intros (j & A & _) i G. pose proof (get_bound _ _ _ A) as L. pose proof (get_bound _ _ _ G) as L'. cbn in L, L'. rewrite (small_code j L) in A. rewrite (capital_code i L') in G.
  assert (ascii_of_N (97 + N.of_nat j) = ascii_of_N (65 + N.of_nat i)) as E by congruence. apply (f_equal N_of_ascii) in E. rewrite !N_ascii_embedding in E by lia. lia.
Qed.

(** ** ToLower: the same name without capital letters; undefined where a character is
    outside of ASCII. *)
Theorem C132_lower : forall s t, to_lower s = Done t -> same_name s t /\ ~ has_capital t.
Proof.
  unfold to_lower. induction s as [|a s IH]; intros t H; cbn [each] in H.
  - injection H as <-. split; [exact I|intros []].
  - destruct (tolower a) as [b|] eqn:E; [|discriminate]. destruct (each tolower s) as [r|m|] eqn:F; cbn [bind] in H; try discriminate. injection H as <-.
    destruct (IH r eq_refl) as (A & B). cbn [same_name has_capital]. destruct (tolower_meaning a b E) as [(-> & N)|P].
    + split; [split; [left; reflexivity|exact A]|]. intros [(i & G)|G]; [exact (N i G)|exact (B G)].
    + split; [split; [right; right; exact P|exact A]|]. intros [(i & G)|G]; [exact (small_not_capital b a P i G)|exact (B G)].
Qed.
Print Assumptions C132_lower.
Theorem C132_defined : forall s, all_of classified s <-> exists t, to_lower s = Done t.
Proof.
  unfold to_lower. induction s as [|a s IH]; cbn [all_of each]; [split; [eexists; reflexivity|intros; exact I]|].
  rewrite (tolower_some a), IH. split.
  - intros ((b & ->) & (t & ->)). cbn [bind]. eexists. reflexivity.
  - intros (t & H). destruct (tolower a) as [b|]; [|discriminate]. destruct (each tolower s) as [r| |]; try discriminate. split; eexists; reflexivity.
Qed.
Print Assumptions C132_defined.
Lemma same_name_refl s : same_name s s.
Proof. induction s; cbn; [exact I|split; [left; reflexivity|assumption]]. Qed.
Lemma to_lower_same s t : same_name s t -> to_lower s = to_lower t.
Proof.
  unfold to_lower. revert t. induction s as [|a s IH]; intros [|b t] H; cbn [same_name] in H; try contradiction; [reflexivity|].
  destruct H as (A & B). cbn [each]. rewrite (tolower_same a b A), (IH t B). reflexivity.
Qed.
Lemma lower_stays s : all_of classified s -> ~ has_capital s -> to_lower s = Done s.
Proof.
  unfold to_lower. induction s as [|a s IH]; intros A N; [reflexivity|]. cbn [each]. destruct A as (A & B). cbn [has_capital] in N.
  apply tolower_some in A. destruct A as (b & E). rewrite E. destruct (tolower_meaning a b E) as [(-> & _)|(i & _ & G)]; [|exfalso; apply N; left; exists i; exact G].
  rewrite IH; [reflexivity|exact B|intros H; apply N; right; exact H].
Qed.

(** ** Back and forth: capitals and back again. *)
Theorem C132_back : forall s t, to_upper s = Done t -> to_lower t = to_lower s.
Proof.
  intros s t H. apply to_lower_same. revert t H. unfold to_upper. induction s as [|a s IH]; intros t H; cbn [each] in H.
  - injection H as <-. exact I.
  - destruct (toupper a) as [b|] eqn:E; [|discriminate]. destruct (each toupper s) as [r|m|]; cbn [bind] in H; try discriminate. injection H as <-. split; [|apply IH; reflexivity].
    unfold toupper, shifted, within_code in E. destruct (N.eqb_spec (N_of_ascii a) 255) as [F|F]; [left; congruence|].
    destruct (N.leb_spec 128 (N_of_ascii a)); [discriminate|]. destruct (N.leb_spec 97 (N_of_ascii a)), (N.leb_spec (N_of_ascii a) (97 + 25)); cbn [andb] in E; try (left; congruence).
    right. right. exists (N.to_nat (N_of_ascii a - 97)). split; [apply code_get; [exact small_code|lia|lia]|]. rewrite capital_code by lia. rewrite <- E. f_equal. f_equal. lia.
Qed.
Print Assumptions C132_back.

(** ** The set-up of the sphere does not see the case of letters in any option. *)
Definition same_options (o p : options) : Prop :=
  same_name (o_scheme o) (o_scheme p) /\ same_name (o_hmethod o) (o_hmethod p) /\ same_name (o_vmethod o) (o_vmethod p) /\ same_name (o_stagger o) (o_stagger p) /\ same_name (o_disc o) (o_disc p) /\
  set_scheme (set_hmethod (set_vmethod (set_stagger (set_disc (set_stretch o "") "") "") "") "") "" = set_scheme (set_hmethod (set_vmethod (set_stagger (set_disc (set_stretch p "") "") "") "") "") "".

Lemma select_in {A} (l : list (string * A)) m s a : select l m s = Done a -> In (s, a) l.
Proof. induction l as [|(n & b) l IH]; cbn [select]; [discriminate|]. destruct (String.eqb_spec s n) as [->|_]; intros H; [injection H as <-; left; reflexivity|right; apply IH; exact H]. Qed.
Lemma select_total {A} (l : list (string * A)) m s : (exists a, select l m s = Done a) \/ select l m s = Throws m.
Proof. induction l as [|(n & b) l IH]; cbn [select]; [right; reflexivity|]. destruct (String.eqb s n); [left; eexists; reflexivity|exact IH]. Qed.
Lemma select_first {A} (l : list (string * A)) m s a : NoDup (map fst l) -> In (s, a) l -> select l m s = Done a.
Proof.
  induction l as [|(n & b) l IH]; intros N I; [destruct I|]. cbn [select map fst] in *. apply NoDup_cons_iff in N. destruct N as (N & M). destruct (String.eqb_spec s n) as [->|D].
  - destruct I as [I|I]; [injection I as ->; reflexivity|]. exfalso. apply N. apply (in_map fst) in I. exact I.
  - destruct I as [I|I]; [injection I as I _; congruence|]. apply IH; assumption.
Qed.
Local Arguments select : simpl never.
Local Arguments to_lower : simpl never.
Lemma methods_same o p : same_options o p -> setup_methods o = match setup_methods p with Done (m, q) => Done (m, set_stretch (set_disc q (o_disc o)) (o_stretch o)) | Throws m => Throws m | Undefined => Undefined end.
Proof.
  destruct o as [a1 a2 a3 a4 a5 a6 a7 a8 a9 a10 a11 a12 a13 a14 a15 a16 a17 a18 a19], p as [b1 b2 b3 b4 b5 b6 b7 b8 b9 b10 b11 b12 b13 b14 b15 b16 b17 b18 b19].
  unfold same_options. cbn. intros (A & B & C & D & E & F). injection F as -> -> -> -> -> -> -> -> -> -> -> -> ->. unfold setup_methods. cbn.
  rewrite (to_lower_same _ _ A). destruct (to_lower b1) as [s1| |]; cbn [bind]; try reflexivity.
  destruct (select schemes no_scheme s1) as [sch| |]; cbn [bind]; try reflexivity.
  destruct b9; unfold drop_nu; cbn; (rewrite ?(to_lower_same _ _ B); destruct (to_lower b2) as [s2| |]; cbn [bind]; try reflexivity); (destruct (select h_classes _ s2) as [hc| |]; cbn; try reflexivity);
    rewrite ?(to_lower_same _ _ C), ?(to_lower_same _ _ D); (destruct (to_lower b4) as [s3| |]; cbn; try reflexivity); rewrite ?(to_lower_same _ _ C); (destruct (to_lower b3) as [s4| |]; cbn; try reflexivity);
    (destruct (if (b8 =? 1)%Z then _ else _) as [vd| |]; cbn; reflexivity).
Qed.
Lemma vertical_same q d w : same_name d (o_disc q) -> setup_vertical (set_stretch (set_disc q d) w) = match setup_vertical q with Done (e, g, r) => Done (e, g, set_stretch r w) | Throws m => Throws m | Undefined => Undefined end.
Proof.
  intros H. destruct q as [c1 c2 c3 c4 c5 c6 c7 c8 c9 c10 c11 c12 c13 c14 c15 c16 c17 c18 c19]. unfold setup_vertical. cbn in *. rewrite (to_lower_same _ _ H). destruct (to_lower c5) as [s| |]; cbn [bind]; try reflexivity. cbn. destruct (select discretizations _ s) as [e| |]; cbn [bind]; try reflexivity.
  destruct (to_lower c4) as [t| |]; cbn [bind]; try reflexivity. cbn. destruct (select staggerings _ t) as [g| |]; cbn [bind]; reflexivity.
Qed.
Lemma methods_disc o m q : setup_methods o = Done (m, q) -> o_disc q = o_disc o /\ o_stretch q = o_stretch o /\ o_restart q = o_restart o /\ o_levels q = o_levels o /\ managers q = managers o.
Proof.
  unfold setup_methods. intros H. repeat (match type of H with bind ?x _ = _ => destruct x eqn:?; cbn [bind] in H; try discriminate end). injection H as <- <-. destruct o as [? ? ? ? ? ? ? ? [|] ? ? ? ? ? ? ? ? ? ?]; cbn; repeat split; reflexivity.
Qed.
Lemma vertical_keeps o d g q : setup_vertical o = Done (d, g, q) -> o_stretch q = o_stretch o /\ o_restart q = o_restart o /\ o_levels q = o_levels o /\ managers q = managers o.
Proof.
  unfold setup_vertical. intros H. repeat (match type of H with bind ?x _ = _ => destruct x eqn:?; cbn [bind] in H; try discriminate end). injection H as <- <- <-. destruct o; cbn; repeat split; reflexivity.
Qed.
Lemma stretch_part o d : o_restart (set_stretch o d) = o_restart o /\ o_stretch (set_stretch o d) = d /\ o_disc (set_stretch o d) = o_disc o /\ o_levels (set_stretch o d) = o_levels o /\ managers (set_stretch o d) = managers o /\ o_hmethod (set_stretch o d) = o_hmethod o.
Proof. destruct o. cbn. repeat split; reflexivity. Qed.
Theorem C132_case : forall ranks o p, same_options o p -> same_name (o_stretch o) (o_stretch p) -> setup_sphere ranks o = setup_sphere ranks p.
Proof.
  intros ranks o p H W. unfold setup_sphere. rewrite (methods_same o p H). destruct (setup_methods p) as [(m & q)| |] eqn:E; cbn [bind]; try reflexivity.
  destruct (methods_disc p m q E) as (D & S & _). rewrite vertical_same by (rewrite D; apply H). destruct (setup_vertical q) as [((e & g) & r)| |] eqn:V; cbn [bind]; try reflexivity.
  destruct (vertical_keeps q e g r V) as (S' & _). destruct (stretch_part r (o_stretch o)) as (-> & -> & _ & _ & -> & _).
  destruct (String.eqb (o_restart r) ""); [|reflexivity]. rewrite <- S, <- S' in W. rewrite (to_lower_same _ _ W). destruct (to_lower (o_stretch r)) as [w| |]; cbn [bind]; try reflexivity.
Qed.
Print Assumptions C132_case.

(** ** On a plane it does not see it in any option but --vstretch, *)
Theorem C132_plane : forall ranks o p, same_options o p -> o_stretch o = o_stretch p -> setup_cartesian ranks o = setup_cartesian ranks p.
Proof.
  intros ranks o p H W. unfold setup_cartesian. rewrite (methods_same o p H). destruct (setup_methods p) as [(m & q)| |] eqn:E; cbn [bind]; try reflexivity.
  destruct (methods_disc p m q E) as (D & S & _). rewrite vertical_same by (rewrite D; apply H). destruct (setup_vertical q) as [((e & g) & r)| |] eqn:V; cbn [bind]; try reflexivity.
  destruct (vertical_keeps q e g r V) as (S' & _). assert (set_stretch r (o_stretch o) = r) as ->; [|reflexivity]. rewrite W, <- S, <- S'. destruct r; reflexivity.
Qed.
Print Assumptions C132_plane.

(** ** which has to be in small letters there: an option that the sphere takes is refused. *)
Lemma stretching_small s w : In (s, w) stretchings -> ~ has_capital s /\ all_of classified s.
Proof.
  intros I. split.
  - intros H. assert (forall t, to_lower s = Done t -> t = s -> ~ has_capital s) as K by (intros t A <-; apply (C132_lower _ _ A)).
    cbn in I. destruct I as [I|[I|[I|[]]]]; injection I as <- _; (eapply K; [reflexivity|reflexivity|exact H]).
  - cbn in I. destruct I as [I|[I|[I|[]]]]; injection I as <- _; cbn; repeat split; left; reflexivity.
Qed.
Theorem C132_stretch_refuted : forall ranks o s, o_restart o = "" -> has_capital (o_stretch o) -> setup_sphere ranks o = Done s -> setup_cartesian ranks o = Throws "Invalid value for --vstretch".
Proof.
  intros ranks o s R C H. unfold setup_sphere in H. unfold setup_cartesian. destruct (setup_methods o) as [(m & q)| |] eqn:E; cbn [bind] in *; try discriminate.
  destruct (methods_disc o m q E) as (_ & S & R' & _). destruct (setup_vertical q) as [((e & g) & r)| |] eqn:V; cbn [bind] in *; try discriminate. destruct (vertical_keeps q e g r V) as (S' & R'' & _).
  rewrite R'', R', R in *. cbn [String.eqb] in *. assert (exists t, to_lower (o_hmethod r) = Done t) as (t & ->).
  { revert E V. clear. unfold setup_methods. intros E V. destruct (to_lower (o_scheme o)) as [s1| |]; cbn [bind] in E; try discriminate. destruct (select schemes _ _) as [sch| |]; cbn [bind] in E; try discriminate.
    destruct (to_lower (o_hmethod (drop_nu _))) as [s2| |] eqn:L; cbn [bind] in E; try discriminate. destruct (select h_classes _ _) as [hc| |] eqn:SH; cbn [bind] in E; try discriminate.
    destruct (to_lower (o_stagger _)) as [s3| |]; cbn [bind] in E; try discriminate. destruct (to_lower (o_vmethod _)) as [s4| |]; cbn [bind] in E; try discriminate. match type of E with bind ?y _ = _ => destruct y as [vd| |]; cbn [bind] in E; try discriminate end. injection E as <- <-.
    unfold setup_vertical in V. repeat (match type of V with bind ?x _ = _ => destruct x eqn:?; cbn [bind] in V; try discriminate end). injection V as <- <- <-.
    assert (o_hmethod (set_hmethod (drop_nu (set_scheme o s1)) s2) = s2) as EH by (destruct o as [? ? ? ? ? ? ? ? [|] ? ? ? ? ? ? ? ? ? ?]; reflexivity). rewrite EH in SH. apply select_in in SH.
    match goal with |- exists t, to_lower ?h = _ => assert (h = s2) as -> by (destruct o as [? ? ? ? ? ? ? ? [|] ? ? ? ? ? ? ? ? ? ?]; reflexivity) end.
    cbn in SH. destruct SH as [SH|[SH|[SH|[SH|[]]]]]; injection SH as <- _; eexists; reflexivity. }
  cbn [bind]. assert (o_stretch (set_hmethod r t) = o_stretch o) as -> by (rewrite <- S, <- S'; destruct r; reflexivity).
  destruct (select_total stretchings "Invalid value for --vstretch" (o_stretch o)) as [(w & Q)| ->]; [|reflexivity]. apply select_in in Q. apply stretching_small in Q. destruct Q as (Q & _). contradiction.
Qed.
Print Assumptions C132_stretch_refuted.

(** ** Every name of the help is taken in any case, and nothing else but the names of the
    lists is. *)
Definition takes {A} (l : list (string * A)) (s : string) : Prop := exists t a, to_lower s = Done t /\ select l "" t = Done a.
Theorem C132_help : (forall n s, same_name s n -> (In n help_timescheme -> takes schemes s) /\ (In n help_hmethod -> takes h_classes s) /\ (In n help_vdisc -> takes discretizations s) /\ (In n help_vstagger -> takes staggerings s)) /\
  (forall o n s, same_name s n -> In n help_vmethod -> takes (v_classes o) s).
Proof.
  assert (forall A (l : list (string * A)) (names : list string), forallb (fun n => match to_lower n with Done t => match select l "" t with Done _ => true | _ => false end | _ => false end) names = true -> forall n s, same_name s n -> In n names -> takes l s) as K.
  { intros A l names F n s H I. rewrite forallb_forall in F. specialize (F n I). unfold takes. rewrite (to_lower_same s n H). destruct (to_lower n) as [t| |]; try discriminate. destruct (select l "" t) as [a| |] eqn:E; try discriminate. exists t, a. split; [reflexivity|exact E]. }
  split.
  - intros n s H. repeat split; eapply K; try exact H; reflexivity.
  - intros o n s H. eapply K; [|exact H]. reflexivity.
Qed.
Print Assumptions C132_help.
Theorem C132_nothing_else : forall A (l : list (string * A)) s t m, to_lower s = Done t -> (forall n a, In (n, a) l -> ~ same_name s n) -> select l m t = Throws m.
Proof.
  intros A l s t m L N. destruct (select_total l m t) as [(a & S)|S]; [|exact S]. exfalso. apply select_in in S. apply (N t a S). apply (C132_lower s t L).
Qed.
Print Assumptions C132_nothing_else.

(** ** What the options without names do. *)
Theorem C132_flags : forall o m q, setup_methods o = Done (m, q) ->
  (o_levels o = 1%Z -> the_vertical m = VStub) /\
  (h_nu (the_horizontal m) = if o_no_hypervis o then 0%R else o_nu o) /\ (h_nud (the_horizontal m) = if o_no_hypervis o then 0%R else o_nud o) /\ (h_nuv (the_horizontal m) = if o_no_hypervis o then 0%R else o_nuv o) /\
  h_inud (the_horizontal m) = o_inud o /\ h_order (the_horizontal m) = o_hypervis_order o /\
  (forall c e u f, the_vertical m = VDyn c e u f -> e = o_explicit o /\ u = negb (o_no_ref o) /\ f = o_mass_flux o /\ o_levels o <> 1%Z).
Proof.
  intros o m q H. unfold setup_methods in H.
  repeat (match type of H with bind ?x _ = _ => destruct x eqn:?; cbn [bind] in H; try discriminate end). injection H as <- _. cbn [the_vertical the_horizontal h_nu h_nud h_nuv h_inud h_order].
  destruct o as [? ? ? ? ? ? ? lev nh ? ? ? ? ? ? ? ex nr mf].
  match goal with K : (if _ then _ else _) = Done ?v |- _ => rename K into KV; assert ((lev = 1%Z -> v = VStub) /\ (forall c e u f, v = VDyn c e u f -> e = ex /\ u = negb nr /\ f = mf /\ lev <> 1%Z)) as (V1 & V2) end.
  { destruct nh; cbn in KV; (split; [intros ->; cbn in KV; congruence|intros c e u f ->; revert KV; destruct (Z.eqb_spec lev 1) as [L|L]; intros K; [discriminate|apply select_in in K]; unfold v_classes in K; cbn in K;
    repeat (destruct K as [K|K]; [(injection K as _ _ <- <- <-; repeat split; try reflexivity; exact L) || discriminate|]); destruct K]). }
  destruct nh; cbn; (split; [exact V1|]; do 5 (split; [reflexivity|]); exact V2).
Qed.
Print Assumptions C132_flags.

(** ** With a restart file the stretching is not looked at and both set-ups agree. *)
Theorem C132_restart : forall ranks ranks' o w, o_restart o <> "" -> setup_sphere ranks (set_stretch o w) = setup_cartesian ranks' o /\
  forall s, setup_sphere ranks o = Done s -> s_grid s = FromFile (o_restart o).
Proof.
  intros ranks ranks' o w R. split.
  - unfold setup_sphere, setup_cartesian. assert (setup_methods (set_stretch o w) = match setup_methods o with Done (m, q) => Done (m, set_stretch q w) | Throws m => Throws m | Undefined => Undefined end) as ->.
    { rewrite (methods_same (set_stretch o w) o) by (destruct o; repeat split; cbn; try apply same_name_refl; reflexivity).
      destruct (setup_methods o) as [(m & q)| |] eqn:E; try reflexivity. destruct (methods_disc o m q E) as (D & _). destruct o, q; cbn in *. subst. reflexivity. }
    destruct (setup_methods o) as [(m & q)| |] eqn:E; cbn [bind]; try reflexivity. destruct (methods_disc o m q E) as (_ & _ & R' & _).
    assert (setup_vertical (set_stretch q w) = match setup_vertical q with Done (e, g, r) => Done (e, g, set_stretch r w) | Throws m => Throws m | Undefined => Undefined end) as ->.
    { rewrite <- (vertical_same q (o_disc q) w) by apply same_name_refl. destruct q; reflexivity. }
    destruct (setup_vertical q) as [((e & g) & r)| |] eqn:V; cbn [bind]; try reflexivity. destruct (vertical_keeps q e g r V) as (_ & R'' & _). destruct (stretch_part r w) as (-> & _ & _ & _ & -> & _).
    rewrite R'', R'. destruct (String.eqb_spec (o_restart o) ""); [contradiction|reflexivity].
  - intros s H. unfold setup_sphere in H. destruct (setup_methods o) as [(m & q)| |] eqn:E; cbn [bind] in *; try discriminate. destruct (methods_disc o m q E) as (_ & _ & R' & _).
    destruct (setup_vertical q) as [((e & g) & r)| |] eqn:V; cbn [bind] in *; try discriminate. destruct (vertical_keeps q e g r V) as (_ & R'' & _). rewrite R'', R' in H. destruct (String.eqb_spec (o_restart o) ""); [contradiction|]. cbn [bind] in H. injection H as <-. reflexivity.
Qed.
Print Assumptions C132_restart.

(** ** Output: the checksum always and last, the others as asked for. *)
Theorem C132_output : forall ranks o s, setup_sphere ranks o = Done s \/ setup_cartesian ranks o = Done s ->
  (In Reference (s_managers s) <-> o_no_output o = false) /\ (In Composite (s_managers s) <-> o_restart_zero o = false) /\ NoDup (s_managers s) /\ exists l, s_managers s = (l ++ [Checksum])%list.
Proof.
  intros ranks o s H. assert (s_managers s = managers o) as ->.
  { unfold setup_sphere, setup_cartesian in H. destruct (setup_methods o) as [(m & q)| |] eqn:E; cbn [bind] in H; try (destruct H; discriminate). destruct (methods_disc o m q E) as (_ & _ & _ & _ & M).
    destruct (setup_vertical q) as [((e & g) & r)| |] eqn:V; cbn [bind] in H; try (destruct H; discriminate). destruct (vertical_keeps q e g r V) as (_ & _ & _ & M'). rewrite <- M, <- M'.
    destruct H as [H|H]; (match type of H with bind ?x _ = _ => destruct x; cbn [bind] in H; try discriminate end); injection H as <-; reflexivity. }
  unfold managers. destruct (o_no_output o), (o_restart_zero o); cbn; repeat split; try (intros; discriminate); try tauto; try (intros [K|[K|[]]]; discriminate); try (intros [K|[]]; discriminate); try (intros [K|[K|[K|[]]]]; discriminate); try (repeat constructor; cbn; intuition discriminate).
  all: first [exists []; reflexivity | exists [Composite]; reflexivity | exists [Reference]; reflexivity | exists [Reference; Composite]; reflexivity].
Qed.
Print Assumptions C132_output.

(** the defaults of the command line with a stretching in mixed case *)
Definition usual : options := Options "Strang" "V1" "V1" "LOR" "FE" "Cubic" "" 30 true 1 1 1 0 4 false true false false false.
Example C132_usual : exists s, setup_sphere 4 usual = Done s /\ s_grid s = Built 6 30 FiniteElement Lorenz Cubic /\ s_managers s = [Reference; Checksum] /\ has_capital (o_stretch usual) /\ setup_cartesian 4 usual = Throws "Invalid value for --vstretch".
Proof.
  exists (Setup (Methods (Strang 0 KinnmarkGrayUllrich35) (Horizontal HV1 4 0 0 0 0) (VDyn VV1 false true false)) (Built 6 30 FiniteElement Lorenz Cubic) [Reference; Checksum]).
  split; [vm_compute; reflexivity|]. split; [reflexivity|]. split; [reflexivity|]. split; [left; exists 2%nat; reflexivity|vm_compute; reflexivity].
Qed.
Example C132_other_case : same_options usual (set_scheme usual "sTRang") /\ to_lower "sTRang" = Done "strang".
Proof. split; [|reflexivity]. repeat split; cbn; try (left; reflexivity); try reflexivity; right; [right; exists 18%nat|left; exists 19%nat|left; exists 17%nat]; split; reflexivity. Qed.
Example C132_not_ascii : to_lower (String (ascii_of_N 200) "") = Undefined /\ ~ all_of classified (String (ascii_of_N 200) "").
Proof. split; [reflexivity|]. intros ([H|H] & _); cbv in H; discriminate. Qed.
Example C132_restarts : o_restart (Options "Strang" "V1" "V1" "LOR" "FE" "any" "file" 30 true 1 1 1 0 4 false true false false false) <> "".
Proof. discriminate. Qed.
