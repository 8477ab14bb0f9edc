From Coq Require Import ZArith Bool List Lia.
From Verif Require Import PanelModel LayoutModel ExchModel ExchSpec.
Import ListNotations.
Local Open Scope Z_scope.

(** ** Loops *)
Lemma list_ext {X} (l l' : list X) : (forall n, nth_error l n = nth_error l' n) -> l = l'.
Proof.
  revert l'. induction l as [|x l IH]; intros [|y l'] H; auto.
  - specialize (H 0%nat). discriminate.
  - specialize (H 0%nat). discriminate.
  - pose proof (H 0%nat) as H0. cbn in H0. injection H0 as <-. f_equal. apply IH.
    intros n. exact (H (S n)).
Qed.
Lemma up_length a b : length (up a b) = Z.to_nat (b - a).
Proof. unfold up. rewrite map_length, seq_length. reflexivity. Qed.
Lemma down_length a b : length (down a b) = Z.to_nat (b - a).
Proof. unfold down. rewrite rev_length. apply up_length. Qed.
Lemma up_nth a b n : nth_error (up a b) n = if (n <? Z.to_nat (b - a))%nat then Some (a + Z.of_nat n) else None.
Proof.
  destruct (Nat.ltb_spec n (Z.to_nat (b - a))) as [L|L].
  - unfold up. rewrite nth_error_map. rewrite (nth_error_nth' _ 0%nat) by (rewrite seq_length; lia).
    rewrite seq_nth by lia. reflexivity.
  - apply nth_error_None. rewrite up_length. lia.
Qed.
Lemma nth_error_rev {X} (l : list X) n : (n < length l)%nat ->
  nth_error (rev l) n = nth_error l (length l - S n).
Proof.
  intros H. destruct l as [|x0 l0] eqn:E; [cbn in H; lia|]. rewrite <- E in *.
  rewrite (nth_error_nth' _ x0) by (rewrite rev_length; lia).
  rewrite (nth_error_nth' l x0) by lia. rewrite rev_nth by exact H. reflexivity.
Qed.
Lemma down_nth a b n : nth_error (down a b) n = if (n <? Z.to_nat (b - a))%nat then Some (b - 1 - Z.of_nat n) else None.
Proof.
  destruct (Nat.ltb_spec n (Z.to_nat (b - a))) as [L|L].
  - unfold down. rewrite nth_error_rev by (rewrite up_length; exact L). rewrite up_length, up_nth.
    destruct (Nat.ltb_spec (Z.to_nat (b - a) - S n) (Z.to_nat (b - a))); [f_equal; lia|lia].
  - apply nth_error_None. rewrite down_length. lia.
Qed.
Lemma in_up a b x : In x (up a b) <-> a <= x < b.
Proof.
  unfold up. rewrite in_map_iff. split.
  - intros (n & <- & H). apply in_seq in H. lia.
  - intros H. exists (Z.to_nat (x - a)). split; [lia|]. apply in_seq. lia.
Qed.
Lemma in_down a b x : In x (down a b) <-> a <= x < b.
Proof. unfold down. rewrite <- in_rev. apply in_up. Qed.
Lemma NoDup_map_inj {X Y} (f : X -> Y) l : (forall x y, In x l -> In y l -> f x = f y -> x = y) ->
  NoDup l -> NoDup (map f l).
Proof.
  intros H N. induction N as [|x l Hx N IH]; [constructor|]. cbn. constructor.
  - intros F. apply in_map_iff in F as (y & E & Hy). apply Hx.
    rewrite (H x y); auto; [left; reflexivity|right; exact Hy].
  - apply IH. intros y z Hy Hz. apply H; right; assumption.
Qed.
Lemma NoDup_up a b : NoDup (up a b).
Proof. unfold up. apply NoDup_map_inj; [intros; lia|apply seq_NoDup]. Qed.
Lemma NoDup_down a b : NoDup (down a b).
Proof. unfold down. apply NoDup_rev, NoDup_up. Qed.

(** Every loop as an image of a depth or lateral list *)
Lemma up_up a b : up a b = map (fun l => a + l) (up 0 (b - a)).
Proof.
  apply list_ext. intros n. rewrite nth_error_map, !up_nth. replace (b - a - 0) with (b - a) by lia.
  destruct (_ <? _)%nat; cbn; reflexivity.
Qed.
Lemma down_up a b : down a b = map (fun l => b - 1 - l) (up 0 (b - a)).
Proof.
  apply list_ext. intros n. rewrite nth_error_map, up_nth, down_nth. replace (b - a - 0) with (b - a) by lia.
  destruct (_ <? _)%nat; cbn; reflexivity.
Qed.
Lemma up_depth a b h : b - a = h -> up a b = map (fun d => b - d) (down 1 (h + 1)).
Proof.
  intros <-. apply list_ext. intros n. rewrite nth_error_map, up_nth, down_nth.
  replace (b - a + 1 - 1) with (b - a) by lia.
  destruct (Nat.ltb_spec n (Z.to_nat (b - a))); cbn; [f_equal; lia|reflexivity].
Qed.
Lemma down_depth a b h : b - a = h -> down a b = map (fun d => a - 1 + d) (down 1 (h + 1)).
Proof.
  intros <-. apply list_ext. intros n. rewrite nth_error_map, !down_nth.
  replace (b - a + 1 - 1) with (b - a) by lia.
  destruct (Nat.ltb_spec n (Z.to_nat (b - a))); cbn; [f_equal; lia|reflexivity].
Qed.

Definition idx (D L : list Z) : list (Z * Z) := flat_map (fun d => map (fun l => (d, l)) L) D.
Lemma in_idx D L x : In x (idx D L) <-> In (fst x) D /\ In (snd x) L.
Proof.
  unfold idx. rewrite in_flat_map. destruct x as [d l]. cbn. split.
  - intros (d' & Hd & H). apply in_map_iff in H as (l' & [= <- <-] & Hl). auto.
  - intros (Hd & Hl). exists d. split; [exact Hd|]. apply in_map_iff. eauto.
Qed.
Lemma idx_length D L : length (idx D L) = (length D * length L)%nat.
Proof. unfold idx. induction D; cbn; [reflexivity|]. rewrite app_length, map_length, IHD. reflexivity. Qed.
Lemma NoDup_app_disj {X} (l l' : list X) : NoDup l -> NoDup l' -> (forall x, In x l -> ~ In x l') -> NoDup (l ++ l').
Proof.
  intros N N' H. induction N as [|x l Hx N IH]; [exact N'|]. cbn. constructor.
  - intros F. apply in_app_or in F as [F|F]; [auto|]. apply (H x); [left; reflexivity|exact F].
  - apply IH. intros y Hy. apply H. right. exact Hy.
Qed.
Lemma NoDup_idx D L : NoDup D -> NoDup L -> NoDup (idx D L).
Proof.
  intros ND NL. induction ND as [|d D Hd ND IH]; [constructor|]. cbn.
  apply NoDup_app_disj; [|exact IH|].
  - apply NoDup_map_inj; [intros; congruence|exact NL].
  - intros x Hx F. apply in_map_iff in Hx as (l & <- & _). apply in_idx in F as (F & _). auto.
Qed.
Lemma outer_i_idx (f g : Z -> Z) D L : outer_i (map f D) (map g L) = map (fun x => (f (fst x), g (snd x))) (idx D L).
Proof.
  unfold outer_i, idx. induction D as [|d D IH]; [reflexivity|]. cbn [map flat_map].
  rewrite map_app, <- IH, !map_map. reflexivity.
Qed.
Lemma outer_j_idx (f g : Z -> Z) D L : outer_j (map f D) (map g L) = map (fun x => (g (snd x), f (fst x))) (idx D L).
Proof.
  unfold outer_j, idx. induction D as [|d D IH]; [reflexivity|]. cbn [map flat_map].
  rewrite map_app, <- IH, !map_map. reflexivity.
Qed.

(** The (depth, lateral) pairs of an exchange, in message order *)
Definition xidx (e : exbuf) : list (Z * Z) :=
  match x_dir e with
  | Right | Top | Left | Bottom => idx (down 1 (x_halo e + 1)) (up 0 (x_second e - x_first e))
  | _ => idx (down 1 (x_halo e + 1)) (down 1 (x_halo e + 1))
  end.
Definition src_of (e : exbuf) (sA sB : Z) (x : Z * Z) : Z * Z :=
  match x_dir e with
  | Right | Top | Left | Bottom =>
    edge_src (x_dir e) sA sB (x_halo e) (fst x)
      (if x_rev e then x_second e - 1 - snd x else x_first e + snd x)
  | _ => if x_rev e then corner_src (x_dir e) (x_first e) (x_second e) (fst x) (snd x)
         else corner_src (x_dir e) (x_first e) (x_second e) (snd x) (fst x)
  end.
Definition dst_of (e : exbuf) (sA sB : Z) (x : Z * Z) : Z * Z :=
  match x_dir e with
  | Right | Top | Left | Bottom => edge_dst (x_dir e) sA sB (x_halo e) (fst x) (x_first e + snd x)
  | _ => corner_dst (x_dir e) (x_first e) (x_second e) (snd x) (fst x)
  end.
Lemma pair_ext {X} (f g : X -> Z * Z) l : (forall x, f x = g x) -> map f l = map g l.
Proof. intros H. apply map_ext. exact H. Qed.

Ltac norm_loops h :=
  repeat match goal with
  | |- context [up (?a - 2 * h) (?a - h)] => rewrite (up_depth (a - 2 * h) (a - h) h) by lia
  | |- context [down h (2 * h)] => rewrite (down_depth h (2 * h) h) by lia
  | |- context [down (?a - h) ?a] => rewrite (down_depth (a - h) a h) by lia
  | |- context [up 0 h] => rewrite (up_depth 0 h h) by lia
  | |- context [up (?f - h + 1) (?f + 1)] => rewrite (up_depth (f - h + 1) (f + 1) h) by lia
  | |- context [down ?f (?f + h)] => rewrite (down_depth f (f + h) h) by lia
  | |- context [down (?f + 1) (?f + h + 1)] => rewrite (down_depth (f + 1) (f + h + 1) h) by lia
  | |- context [up (?f - h) ?f] => rewrite (up_depth (f - h) f h) by lia
  end.

Lemma pack_cells_idx e sA sB : is_edge (x_dir e) \/ is_corner (x_dir e) ->
  pack_cells e sA sB = Some (map (src_of e sA sB) (xidx e)).
Proof.
  unfold is_edge, is_corner, pack_cells, xidx, src_of.
  intros H. set (h := x_halo e). set (f := x_first e). set (s := x_second e).
  assert (forall D L (F G : Z -> Z), outer_i (map F D) (map G L) = map (fun x => (F (fst x), G (snd x))) (idx D L)) as OI
    by (intros; apply outer_i_idx).
  assert (forall D L (F G : Z -> Z), outer_j (map F D) (map G L) = map (fun x => (G (snd x), F (fst x))) (idx D L)) as OJ
    by (intros; apply outer_j_idx).
  destruct H as [[E|[E|[E|E]]]|[E|[E|[E|E]]]]; rewrite E; destruct (x_rev e);
    norm_loops h;
    try rewrite (down_up f s); try rewrite (up_up f s);
    first [rewrite OI | rewrite OJ]; apply f_equal, map_ext; intros [x y]; cbn [fst snd edge_src corner_src];
    apply f_equal2; lia.
Qed.
Lemma unpack_cells_idx e sA sB : is_edge (x_dir e) \/ is_corner (x_dir e) ->
  unpack_cells e sA sB = Some (map (dst_of e sA sB) (xidx e)).
Proof.
  unfold is_edge, is_corner, unpack_cells, xidx, dst_of.
  intros H. set (h := x_halo e). set (f := x_first e). set (s := x_second e).
  destruct H as [[E|[E|[E|E]]]|[E|[E|[E|E]]]]; rewrite E;
    norm_loops h;
    try rewrite (down_up f s); try rewrite (up_up f s);
    first [rewrite outer_i_idx | rewrite outer_j_idx]; apply f_equal, map_ext; intros [x y]; cbn [fst snd edge_dst corner_dst];
    apply f_equal2; lia.
Qed.

Lemma xidx_nodup e : NoDup (xidx e).
Proof. unfold xidx. destruct (x_dir e); apply NoDup_idx; first [apply NoDup_up|apply NoDup_down]. Qed.
Lemma dst_inj e sA sB x y : is_edge (x_dir e) \/ is_corner (x_dir e) -> dst_of e sA sB x = dst_of e sA sB y -> x = y.
Proof.
  unfold is_edge, is_corner, dst_of. destruct x as [x1 x2], y as [y1 y2].
  intros [[E|[E|[E|E]]]|[E|[E|[E|E]]]]; rewrite E; cbn [fst snd edge_dst corner_dst]; intros [= A B];
    apply f_equal2; lia.
Qed.

(** ** Writing values at places *)
Section Write.
Context {V : Type}.
Implicit Types (a : arr3 V) (vs : list V).
Lemma store_same a p v : store a p v (fst (fst p)) (snd (fst p)) (snd p) = v.
Proof. unfold store. rewrite !Z.eqb_refl. reflexivity. Qed.
Lemma store_other a p v i j k : (i, j, k) <> p -> store a p v i j k = a i j k.
Proof.
  intros H. unfold store. destruct p as [[x y] z]. cbn.
  destruct (Z.eqb_spec i x); [|reflexivity]. destruct (Z.eqb_spec j y); [|reflexivity].
  destruct (Z.eqb_spec k z); [|reflexivity]. subst. congruence.
Qed.
Lemma write_all_spec ps : forall vs a, NoDup ps -> (length ps <= length vs)%nat ->
  exists a', write_all ps vs a = Some (a', skipn (length ps) vs) /\
    (forall n p v, nth_error ps n = Some p -> nth_error vs n = Some v ->
       a' (fst (fst p)) (snd (fst p)) (snd p) = v) /\
    (forall i j k, ~ In (i, j, k) ps -> a' i j k = a i j k).
Proof.
  induction ps as [|p ps IH]; intros vs a N L.
  - exists a. split; [reflexivity|]. split; [intros [|n] ? ? [=]|auto].
  - destruct vs as [|v vs]; [cbn in L; lia|]. inversion N as [|? ? Hp N']; subst.
    destruct (IH vs (store a p v) N' ltac:(cbn in L; lia)) as (a' & E & W & F).
    exists a'. split; [exact E|]. split.
    + intros [|n] q w Hq Hw; cbn in Hq, Hw.
      * injection Hq as <-. injection Hw as <-. destruct p as [[x y] z]. cbn.
        rewrite F; [|exact Hp]. exact (store_same a (x, y, z) v).
      * eapply W; eauto.
    + intros i j k H. rewrite F by (intros X; apply H; right; exact X).
      apply store_other. intros X. apply H. left. congruence.
Qed.
Lemma write_all_short ps : forall vs a, (length vs < length ps)%nat -> write_all ps vs a = None.
Proof.
  induction ps as [|p ps IH]; intros vs a L; [cbn in L; lia|].
  destruct vs as [|v vs]; [reflexivity|]. cbn. apply IH. cbn in L. lia.
Qed.
End Write.

Lemma places_map {X} (F : X -> Z * Z) l sR :
  places (map F l) sR = map (fun y => (F (fst y), snd y)) (flat_map (fun x => map (fun k => (x, k)) (up 0 sR)) l).
Proof.
  unfold places. induction l as [|x l IH]; [reflexivity|]. cbn [map flat_map].
  rewrite map_app, <- IH, map_map. reflexivity.
Qed.
Definition zidx {X} (l : list X) (sR : Z) := flat_map (fun x => map (fun k => (x, k)) (up 0 sR)) l.
Lemma in_zidx {X} (l : list X) sR x k : In (x, k) (zidx l sR) <-> In x l /\ 0 <= k < sR.
Proof.
  unfold zidx. rewrite in_flat_map. split.
  - intros (y & Hy & H). apply in_map_iff in H as (k' & [= <- <-] & Hk). apply in_up in Hk. auto.
  - intros (Hx & Hk). exists x. split; [exact Hx|]. apply in_map_iff. exists k. split; [reflexivity|]. apply in_up, Hk.
Qed.
Lemma zidx_length {X} (l : list X) sR : length (zidx l sR) = (length l * Z.to_nat sR)%nat.
Proof.
  unfold zidx. induction l; cbn; [reflexivity|]. rewrite app_length, map_length, up_length, IHl.
  replace (sR - 0) with sR by lia. reflexivity.
Qed.
Lemma NoDup_zidx {X} (l : list X) sR : NoDup l -> NoDup (zidx l sR).
Proof.
  intros N. induction N as [|x l Hx N IH]; [constructor|]. cbn. apply NoDup_app_disj; [|exact IH|].
  - apply NoDup_map_inj; [intros; congruence|apply NoDup_up].
  - intros [y k] Hy F. apply in_map_iff in Hy as (k' & [= <- <-] & _). apply in_zidx in F as (F & _). auto.
Qed.

Lemma xidx_length e : 0 <= x_halo e -> (is_edge (x_dir e) -> x_first e <= x_second e) ->
  is_edge (x_dir e) \/ is_corner (x_dir e) -> forall sR, 0 <= sR ->
  Z.of_nat (length (zidx (xidx e) sR)) = total_values e sR.
Proof.
  intros Hh Hf H sR HR. rewrite zidx_length. unfold xidx, total_values.
  destruct H as [H|H]; [specialize (Hf H)|clear Hf]; unfold is_edge, is_corner in H;
  destruct H as [E|[E|[E|E]]]; rewrite E; rewrite idx_length, ?up_length, ?down_length, !Nat2Z.inj_mul, !Z2Nat.id by lia; ring.
Qed.

Definition kind_ok (e : exbuf) : Prop := is_edge (x_dir e) \/ is_corner (x_dir e).
Lemma facing_idx e r : facing e r -> kind_ok e /\ kind_ok r /\ xidx r = xidx e /\
  (forall sR, total_values r sR = total_values e sR) /\ (is_edge (x_dir e) -> x_first e <= x_second e).
Proof.
  unfold facing, kind_ok. intros (H0 & Hh & [(Ke & Kr & L & E)|(Ke & Kr)]).
  - split; [tauto|]. split; [tauto|]. unfold xidx, total_values, is_edge in *. rewrite Hh, E.
    split; [|split; [|auto]]; destruct Ke as [->|[->|[->| ->]]]; destruct Kr as [->|[->|[->| ->]]]; reflexivity.
  - split; [tauto|]. split; [tauto|]. unfold xidx, total_values, is_edge, is_corner in *. rewrite Hh.
    split; [|split].
    + destruct Ke as [->|[->|[->| ->]]]; destruct Kr as [->|[->|[->| ->]]]; reflexivity.
    + destruct Ke as [->|[->|[->| ->]]]; destruct Kr as [->|[->|[->| ->]]]; reflexivity.
    + destruct Ke as [->|[->|[->| ->]]]; intros [?|[?|[?|?]]]; discriminate.
Qed.
Lemma linked_idx e r sA sB rA rB c c' : facing e r ->
  (linked e r sA sB rA rB c c' <-> exists x, In x (xidx e) /\ c = src_of e sA sB x /\ c' = dst_of r rA rB x).
Proof.
  intros (H0 & Hh & K). split.
  - intros L. destruct L as [d l Ke Kr Hd Hl|da db Ke Kr Hda Hdb].
    + exists (d, l). unfold xidx, src_of, dst_of. unfold is_edge in *.
      destruct Ke as [E|[E|[E|E]]]; rewrite E; destruct Kr as [E'|[E'|[E'|E']]]; rewrite E';
        (split; [apply in_idx; cbn [fst snd]; rewrite in_down, in_up; lia|split; reflexivity]).
    + exists (db, da). unfold xidx, src_of, dst_of. unfold is_corner in *.
      destruct Ke as [E|[E|[E|E]]]; rewrite E; destruct Kr as [E'|[E'|[E'|E']]]; rewrite E';
        (split; [apply in_idx; cbn [fst snd]; rewrite !in_down; lia|split; reflexivity]).
  - intros ([x y] & Hx & -> & ->). unfold xidx in Hx. destruct K as [(Ke & Kr & L & E)|(Ke & Kr)].
    + assert (1 <= x <= x_halo e /\ 0 <= y < x_second e - x_first e) as (X1 & X2).
      { unfold is_edge in Ke. destruct Ke as [F|[F|[F|F]]]; rewrite F in Hx; apply in_idx in Hx; cbn [fst snd] in Hx;
        rewrite in_down, in_up in Hx; lia. }
      pose proof (link_edge e r sA sB rA rB x y Ke Kr X1 X2) as K. unfold src_of, dst_of, is_edge in *.
      destruct Ke as [F|[F|[F|F]]]; rewrite F in *; destruct Kr as [F'|[F'|[F'|F']]]; rewrite F' in *; exact K.
    + assert (1 <= x <= x_halo e /\ 1 <= y <= x_halo e) as (X1 & X2).
      { unfold is_corner in Ke. destruct Ke as [F|[F|[F|F]]]; rewrite F in Hx; apply in_idx in Hx; cbn [fst snd] in Hx;
        rewrite !in_down in Hx; lia. }
      pose proof (link_corner e r sA sB rA rB y x Ke Kr X2 X1) as K. unfold src_of, dst_of, is_corner in *.
      destruct Ke as [F|[F|[F|F]]]; rewrite F in *; destruct Kr as [F'|[F'|[F'|F']]]; rewrite F' in *; exact K.
Qed.

Section Main.
Context {V : Type}.
Implicit Types (a old : arr3 V) (sent : list V).

Lemma pack3_some e rows sA sB sR a sent sent' : kind_ok e -> pack3 e rows sA sB sR a sent = Some sent' ->
  sent' = sent ++ map (fun y => a (fst (src_of e sA sB (fst y))) (snd (src_of e sA sB (fst y))) (snd y)) (zidx (xidx e) sR)
  /\ header_doubles + Z.of_nat (length sent) + total_values e sR <= rows.
Proof.
  intros K. unfold pack3. destruct (pack_check e sA sB); cbn [negb]; [|discriminate].
  rewrite (pack_cells_idx e sA sB K).
  destruct (Z.ltb_spec rows (header_doubles + Z.of_nat (length sent) + total_values e sR)); [discriminate|].
  intros [= <-]. split; [|lia]. apply f_equal. rewrite places_map, map_map. reflexivity.
Qed.
Lemma unpack3_ok r rows rA rB sR old rest pos : kind_ok r -> 0 <= x_halo r ->
  (is_edge (x_dir r) -> x_first r <= x_second r) -> 0 <= sR ->
  pos + total_values r sR <= rows -> (Z.to_nat (total_values r sR) <= length rest)%nat ->
  exists new, unpack3 r rows rA rB sR old rest pos =
      UOk new (skipn (Z.to_nat (total_values r sR)) rest) (pos + total_values r sR) /\
    (forall n x k v, nth_error (zidx (xidx r) sR) n = Some (x, k) -> nth_error rest n = Some v ->
       new (fst (dst_of r rA rB x)) (snd (dst_of r rA rB x)) k = v) /\
    (forall i j k, (forall x, In x (xidx r) -> dst_of r rA rB x <> (i, j)) \/ ~ (0 <= k < sR) -> new i j k = old i j k).
Proof.
  intros K Hh Hf HR Hp Hl. unfold unpack3. rewrite (unpack_cells_idx r rA rB K).
  destruct (Z.ltb_spec rows (pos + total_values r sR)); [lia|].
  rewrite places_map. fold (zidx (xidx r) sR).
  set (ps := map _ (zidx (xidx r) sR)).
  pose proof (xidx_length r Hh Hf K sR HR) as Len.
  assert (NoDup ps) as ND.
  { apply NoDup_map_inj; [|apply NoDup_zidx, xidx_nodup].
    intros [x k] [y m] _ _. cbn [fst snd]. intros [= E F]. apply dst_inj in E; [|exact K]. congruence. }
  assert (length ps = Z.to_nat (total_values r sR)) as Lp by (unfold ps; rewrite map_length; lia).
  destruct (write_all_spec ps rest old ND ltac:(lia)) as (new & E & W & F).
  rewrite E, Lp. exists new. split; [reflexivity|]. split.
  - intros n x k v Hn Hv. apply (W n (dst_of r rA rB x, k) v); [|exact Hv].
    unfold ps. rewrite nth_error_map, Hn. reflexivity.
  - intros i j k H'. apply F. intros I. unfold ps in I. apply in_map_iff in I as ([x m] & [= E1 E2] & I).
    apply in_zidx in I as (I1 & I2). subst m. destruct H' as [H'|H']; [exact (H' x I1 E1)|exact (H' I2)].
Qed.

(** One array *)
Lemma exchange3 e r rowsS rowsR sA sB rA rB sR a sent sent' old more pos : facing e r -> 0 <= sR ->
  pack3 e rowsS sA sB sR a sent = Some sent' -> pos + total_values r sR <= rowsR ->
  exists vals new, sent' = sent ++ vals /\ Z.of_nat (length vals) = total_values e sR /\
    unpack3 r rowsR rA rB sR old (vals ++ more) pos = UOk new more (pos + total_values e sR) /\
    delivered e r sA sB rA rB sR a old new.
Proof.
  intros Fc HR P Hp. destruct (facing_idx e r Fc) as (Ke & Kr & Ex & Et & Hf).
  destruct (pack3_some _ _ _ _ _ _ _ _ Ke P) as (-> & _).
  set (vals := map _ _).
  assert (Z.of_nat (length vals) = total_values e sR) as Lv.
  { unfold vals. rewrite map_length. apply xidx_length; auto. apply Fc. }
  assert (0 <= x_halo r) as Hh by (destruct Fc as (? & -> & _); auto).
  assert (is_edge (x_dir r) -> x_first r <= x_second r) as Hfr.
  { destruct Fc as (_ & _ & [(Ke' & Kr' & L & E)|(Ke' & Kr')]); intros Q; [lia|].
    unfold is_edge, is_corner in *. destruct Kr' as [Y|[Y|[Y|Y]]]; rewrite Y in Q; destruct Q as [?|[?|[?|?]]]; discriminate. }
  destruct (unpack3_ok r rowsR rA rB sR old (vals ++ more) pos Kr Hh Hfr HR Hp
    ltac:(rewrite app_length, Et; lia)) as (new & E & W & Fr).
  exists vals, new. split; [reflexivity|]. split; [exact Lv|]. split.
  { rewrite E, Et. f_equal. replace (Z.to_nat (total_values e sR)) with (length vals) by lia.
    rewrite skipn_app, skipn_all, Nat.sub_diag. reflexivity. }
  split.
  - intros i j i' j' k L Hk. apply (linked_idx e r sA sB rA rB (i, j) (i', j') Fc) in L as (x & Hx & E1 & E2).
    assert (In (x, k) (zidx (xidx r) sR)) as I by (rewrite Ex; apply in_zidx; auto).
    destruct (In_nth_error _ _ I) as (n & Hn).
    assert (nth_error (vals ++ more) n = Some (a i j k)) as Hv.
    { assert (n < length vals)%nat.
      { assert (n < length (zidx (xidx r) sR))%nat by (apply nth_error_Some; congruence).
        unfold vals. rewrite map_length, <- Ex. assumption. }
      rewrite nth_error_app1 by assumption. unfold vals. rewrite nth_error_map, <- Ex, Hn. cbn.
      rewrite <- E1. reflexivity. }
    pose proof (W n x k _ Hn Hv) as R. rewrite <- E2 in R. exact R.
  - intros i' j' k H. apply Fr. destruct H as [H|H]; [left|right; exact H].
    intros x Hx E'. rewrite Ex in Hx. destruct (src_of e sA sB x) as [i j] eqn:Es.
    apply (H i j). apply (linked_idx e r sA sB rA rB (i, j) (i', j') Fc). exists x. auto.
Qed.
End Main.

(** ** Several arrays *)
Section Items.
Context {V : Type}.
Implicit Types (items : list (Z * arr3 V)) (sent : list V).
Lemma exchange_all e r rowsS rowsR sA sB rA rB items : forall olds sent sent' more pos,
  facing e r -> Forall (fun x => 0 <= fst x) items -> map fst olds = map fst items ->
  pack_all e rowsS sA sB items sent = Some sent' ->
  pos + (Z.of_nat (length sent') - Z.of_nat (length sent)) <= rowsR ->
  exists vals news, sent' = sent ++ vals /\
    unpack_all r rowsR rA rB olds (vals ++ more) pos = AOk news more (pos + Z.of_nat (length vals)) /\
    delivered_all e r sA sB rA rB items olds news.
Proof.
  induction items as [|[sR a] items IH]; intros olds sent sent' more pos Fc HR Hl P Hp.
  - destruct olds; [|discriminate]. cbn in P. injection P as <-. exists [], [].
    rewrite app_nil_r. split; [reflexivity|]. split; [|exact I]. cbn. f_equal. lia.
  - destruct olds as [|[sR1 old] olds]; [discriminate|]. cbn in Hl. injection Hl as -> Hl.
    inversion HR as [|? ? H0 HR']; subst. cbn [fst] in H0.
    cbn [pack_all] in P. destruct (pack3 e rowsS sA sB sR a sent) as [sent1|] eqn:E1; [|discriminate].
    destruct (facing_idx e r Fc) as (Ke & Kr & Ex & Et & Hf).
    pose proof (pack3_some _ _ _ _ _ _ _ _ Ke E1) as (S1 & _).
    assert (Z.of_nat (length sent1) = Z.of_nat (length sent) + total_values e sR) as L1.
    { rewrite S1, app_length, map_length, Nat2Z.inj_add. f_equal. apply xidx_length; auto. apply Fc. }
    assert (length sent1 <= length sent')%nat as L2.
    { clear - P. revert sent1 P. induction items as [|[sR' a'] items IH]; intros sent1 P; cbn in P.
      - injection P as <-. lia.
      - destruct (pack3 e rowsS sA sB sR' a' sent1) as [s2|] eqn:E; [|discriminate].
        specialize (IH s2 P). unfold pack3 in E. destruct (pack_check e sA sB); cbn in E; [|discriminate].
        destruct (pack_cells e sA sB); [|discriminate]. destruct (_ <? _); [discriminate|].
        injection E as <-. rewrite app_length in IH. lia. }
    destruct (IH olds sent1 sent' more (pos + total_values e sR) Fc HR' Hl P ltac:(lia)) as (vals2 & news & S2 & U2 & D2).
    destruct (exchange3 e r rowsS rowsR sA sB rA rB sR a sent sent1 old (vals2 ++ more) pos Fc H0 E1
      ltac:(rewrite Et; lia)) as (vals1 & new & S1' & Lv & U1 & D1).
    exists (vals1 ++ vals2), ((sR, new) :: news). split; [rewrite S2, S1', app_assoc; reflexivity|]. split.
    + cbn [unpack_all]. rewrite <- app_assoc, U1, U2. f_equal. rewrite app_length. lia.
    + cbn. auto.
Qed.

(** ** Capacity *)
Lemma pack_all_ok e rows sA sB items : forall sent, kind_ok e -> 0 <= x_halo e -> pack_check e sA sB = true ->
  (is_edge (x_dir e) -> x_first e <= x_second e) ->
  Forall (fun x => 0 <= fst x) items ->
  header_doubles + Z.of_nat (length sent) + zsum (map (total_values e) (map fst items)) <= rows ->
  exists sent', pack_all e rows sA sB items sent = Some sent'.
Proof.
  induction items as [|[sR a] items IH]; intros sent K Hh C Hf HR L; cbn [pack_all]; [eauto|].
  inversion HR as [|? ? H0 HR']; subst. cbn [fst map zsum] in *.
  assert (forall y, 0 <= y -> 0 <= total_values e y) as T0.
  { intros y Hy. rewrite <- (xidx_length e Hh Hf K y Hy). lia. }
  assert (0 <= zsum (map (total_values e) (map fst items))) as Z0.
  { clear - HR' T0. induction items; cbn; [lia|]. inversion HR'; subst. specialize (T0 _ H1).
    specialize (IHitems H2). lia. }
  unfold pack3 at 1. rewrite C. cbn [negb]. rewrite (pack_cells_idx e sA sB K).
  pose proof (T0 sR H0).
  destruct (Z.ltb_spec rows (header_doubles + Z.of_nat (length sent) + total_values e sR)); [lia|].
  apply IH; auto. rewrite app_length, map_length, places_map, map_length.
  fold (zidx (xidx e) sR). pose proof (xidx_length e Hh Hf K sR H0). lia.
Qed.
End Items.
Lemma total_values_linear e : exists c, forall sR, total_values e sR = c * sR.
Proof.
  unfold total_values. destruct (x_dir e); first
    [ exists (x_halo e * (x_second e - x_first e)); intros; ring | exists (x_halo e * x_halo e); intros; ring ].
Qed.
Lemma zsum_linear c l : zsum (map (fun x => c * x) l) = c * zsum l.
Proof. induction l; cbn; [ring|]. rewrite IHl. ring. Qed.
Lemma zsum_app l l' : zsum (l ++ l') = zsum l + zsum l'.
Proof. induction l; cbn; lia. Qed.
Lemma filter_split {X} (f g : X -> bool) l : (forall x, f x = true -> g x = true -> False) ->
  (length (filter f l) + length (filter g l) <= length l)%nat.
Proof.
  intros H. induction l as [|x l IH]; cbn; [lia|]. specialize (H x).
  destruct (f x), (g x); cbn; try lia; try (destruct H; reflexivity).
Qed.
Lemma zsum_const {X} n (l : list X) : zsum (map (fun _ => n) l) = n * Z.of_nat (length l).
Proof. induction l; cbn [map zsum length]; [lia|]. rewrite IHl. lia. Qed.
Lemma packed_levels_bound t nC nT nR loc : 0 <= nC -> 0 <= nT -> 1 <= nR -> 1 <= Z.max nC nT ->
  zsum (map snd (packed_vars t nC nT nR loc)) <= Z.max nC nT * (nR + 1) /\
  Forall (fun n => 0 <= n) (map snd (packed_vars t nC nT nR loc)).
Proof.
  intros HC HT HR H1.
  assert (nR + 1 <= Z.max nC nT * (nR + 1)) as B by (apply (Z.mul_le_mono_nonneg_r 1 (Z.max nC nT) (nR + 1)) in H1; lia).
  destruct t; cbn [packed_vars].
  2:{ rewrite map_map. cbn. rewrite zsum_const, up_length. split.
      - replace (nT - 0) with nT by lia. rewrite Z2Nat.id by lia.
        transitivity (nT * (nR + 1)); [lia|]. apply Z.mul_le_mono_nonneg_r; lia.
      - apply Forall_forall. intros x Hx. apply in_map_iff in Hx as (? & <- & _). lia. }
  2-6: cbn; split; [lia|repeat constructor; lia].
  rewrite map_app, !map_map. cbn. rewrite zsum_app, !zsum_const. split.
  - pose proof (filter_split (fun c => loc_eqb (loc c) LNode) (fun c => loc_eqb (loc c) LREdge) (up 0 nC)
      ltac:(intros x; cbv beta; destruct (loc x); cbn; intros; discriminate)) as S. rewrite up_length in S.
    set (p := length (filter (fun c => loc_eqb (loc c) LNode) _)) in *.
    set (q := length (filter (fun c => loc_eqb (loc c) LREdge) _)) in *.
    clearbody p q.
    transitivity ((Z.of_nat p + Z.of_nat q) * (nR + 1)); [lia|].
    apply Z.mul_le_mono_nonneg_r; lia.
  - apply Forall_app. split; apply Forall_forall; intros x Hx; apply in_map_iff in Hx as (? & <- & _); lia.
Qed.

(** ** Registry *)
Definition tot (l : list exbuf) (p : Z) : Z := zsum (map message_size (by_proc l p)).
Lemma tot_cons e l p : tot (e :: l) p = (if x_tproc e =? p then message_size e else 0) + tot l p.
Proof. unfold tot, by_proc. cbn [filter]. destruct (x_tproc e =? p); cbn; lia. Qed.
Lemma tot_app l l' p : tot (l ++ l') p = tot l p + tot l' p.
Proof. unfold tot, by_proc. rewrite filter_app, map_app, zsum_app. reflexivity. Qed.
Lemma send_positions_nth regs : forall next m e, nth_error regs m = Some e ->
  nth_error (send_positions regs next) m = Some (next (x_tproc e) + tot (firstn m regs) (x_tproc e)).
Proof.
  induction regs as [|e0 regs IH]; intros next [|m] e H; cbn in H; try discriminate.
  - injection H as ->. cbn. f_equal. lia.
  - cbn [send_positions nth_error firstn]. rewrite (IH _ _ _ H), tot_cons. f_equal.
    rewrite (Z.eqb_sym (x_tproc e) (x_tproc e0)). destruct (Z.eqb_spec (x_tproc e0) (x_tproc e)) ; lia.
Qed.
Lemma send_positions_length regs : forall next, length (send_positions regs next) = length regs.
Proof. induction regs; intros; cbn; [reflexivity|]. rewrite IHregs. reflexivity. Qed.

Lemma map_add_in p n m q k : In (q, k) (map_add p n m) -> q = p \/ exists k', In (q, k') m.
Proof.
  induction m as [|[q0 k0] m IH]; cbn.
  - intros [[= <- <-]|[]]. auto.
  - destruct (p <? q0); [intros [[= <- <-]|H]; [auto|right; exists k; exact H]|].
    destruct (Z.eqb_spec p q0) as [->|].
    + intros [[= <- <-]|H]; [auto|right; exists k; right; exact H].
    + intros [[= <- <-]|H]; [right; exists k0; left; reflexivity|].
      destruct (IH H) as [?|(k' & ?)]; [auto|right; exists k'; right; assumption].
Qed.
Lemma map_add_asc p n m : ascending m -> ascending (map_add p n m).
Proof.
  induction m as [|[q k] m IH]; cbn; [intros _; split; [intros ? ? []|exact I]|].
  intros (H & A). destruct (Z.ltb_spec p q).
  - cbn. split; [|split; assumption]. intros q' k' [[= <- <-]|F]; [assumption|]. specialize (H _ _ F). lia.
  - destruct (Z.eqb_spec p q) as [->|]; cbn; [split; assumption|]. split; [|auto].
    intros q' k' F. apply map_add_in in F as [->|(k2 & F)]; [lia|]. exact (H _ _ F).
Qed.
Lemma map_add_get p n m q k : ascending m ->
  (In (q, k) (map_add p n m) <->
   (q <> p /\ In (q, k) m) \/
   (q = p /\ ((exists k0, In (p, k0) m /\ k = k0 + n) \/ ((forall k0, ~ In (p, k0) m) /\ k = n)))).
Proof.
  induction m as [|[q0 k0] m IH]; cbn.
  - intros _. split.
    + intros [[= <- <-]|[]]. right. split; [reflexivity|]. right. split; auto.
    + intros [(_ & [])|(-> & [(? & [] & _)|(_ & ->)])]. left. reflexivity.
  - intros (H & A). specialize (IH A). destruct (Z.ltb_spec p q0) as [L|L].
    + cbn. split.
      * intros [[= <- <-]|[[= <- <-]|F]].
        -- right. split; [reflexivity|]. right. split; [|reflexivity].
           intros k1 [[= -> ->]|F]; [lia|]. specialize (H _ _ F). lia.
        -- left. split; [lia|auto].
        -- left. split; [|auto]. specialize (H _ _ F). lia.
      * intros [(N & [[= <- <-]|F])|(-> & [(k1 & [[= -> ->]|F] & _)|(_ & ->)])]; auto; exfalso; [lia|].
        specialize (H _ _ F). lia.
    + destruct (Z.eqb_spec p q0) as [->|N]; cbn.
      * split.
        -- intros [[= <- <-]|F].
           ++ right. split; [reflexivity|]. left. exists k0. auto.
           ++ left. split; [|auto]. specialize (H _ _ F). lia.
        -- intros [(N & [[= <- <-]|F])|(-> & [(k1 & [[= ->]|F] & ->)|(F & ->)])]; auto.
           ++ congruence.
           ++ specialize (H _ _ F). lia.
           ++ exfalso. apply (F k0). auto.
      * rewrite IH. split.
        -- intros [[= <- <-]|[(N' & F)|(-> & [(k1 & F & ->)|(F & ->)])]].
           ++ left. split; [congruence|auto].
           ++ left. auto.
           ++ right. split; [reflexivity|]. left. exists k1. auto.
           ++ right. split; [reflexivity|]. right. split; [|reflexivity].
              intros k1 [[= -> ->]|F']; [congruence|exact (F _ F')].
        -- intros [(N' & [[= <- <-]|F])|(-> & [(k1 & [[= -> ->]|F] & ->)|(F & ->)])]; auto.
           ++ congruence.
           ++ right. right. split; [reflexivity|]. left. exists k1. auto.
           ++ right. right. split; [reflexivity|]. right. split; [|reflexivity].
              intros k1 F'. apply (F k1). auto.
Qed.
Lemma asc_unique m p k k' : ascending m -> In (p, k) m -> In (p, k') m -> k = k'.
Proof.
  induction m as [|[q k0] m IH]; cbn; [intros _ []|]. intros (H & A) [[= -> ->]|F] [[= ->]|F'].
  - congruence.
  - specialize (H _ _ F'). lia.
  - subst. specialize (H _ _ F). lia.
  - auto.
Qed.
Lemma proc_sizes_spec regs : ascending (proc_sizes regs) /\
  forall p k, In (p, k) (proc_sizes regs) <-> (exists e, In e regs /\ x_tproc e = p) /\ k = tot regs p.
Proof.
  unfold proc_sizes. induction regs as [|e regs IH] using rev_ind.
  - cbn. split; [exact I|]. intros p k. split; [intros []|]. intros ((e & [] & _) & _).
  - rewrite fold_left_app. cbn [fold_left]. destruct IH as (A & G). split; [apply map_add_asc, A|].
    intros p k. rewrite map_add_get by exact A. rewrite tot_app, tot_cons. change (tot [] p) with 0.
    split.
    + intros [(N & F)|(-> & F)].
      * apply G in F as ((e1 & I1 & E1) & ->). split; [exists e1; split; [apply in_or_app; auto|exact E1]|].
        destruct (Z.eqb_spec (x_tproc e) p); [congruence|lia].
      * split; [exists e; split; [apply in_or_app; right; left; reflexivity|reflexivity]|].
        rewrite Z.eqb_refl. destruct F as [(k0 & F & ->)|(F & ->)].
        -- apply G in F as (_ & ->). lia.
        -- assert (tot regs (x_tproc e) = 0) as ->; [|lia].
           destruct (by_proc regs (x_tproc e)) as [|e1 l] eqn:E; [unfold tot; rewrite E; reflexivity|].
           exfalso. assert (In e1 (by_proc regs (x_tproc e))) as I1 by (rewrite E; left; reflexivity).
           apply filter_In in I1 as (I1 & I2). apply Z.eqb_eq in I2.
           apply (F (tot regs (x_tproc e))). apply G. split; [eauto|reflexivity].
    + intros ((e1 & I1 & E1) & ->). destruct (Z.eqb_spec (x_tproc e) p) as [<-|N].
      * right. split; [reflexivity|].
        destruct (by_proc regs (x_tproc e)) as [|e2 l] eqn:E.
        -- right. split.
           ++ intros k0 F. apply G in F as ((e2 & I2 & E2) & _).
              assert (In e2 (by_proc regs (x_tproc e))) as I3 by (apply filter_In; rewrite E2, Z.eqb_refl; auto).
              rewrite E in I3. destruct I3.
           ++ assert (tot regs (x_tproc e) = 0) as -> by (unfold tot; rewrite E; reflexivity). lia.
        -- left. exists (tot regs (x_tproc e)). split; [|lia]. apply G. split; [|reflexivity].
           assert (In e2 (by_proc regs (x_tproc e))) as I3 by (rewrite E; left; reflexivity).
           apply filter_In in I3 as (I3 & I4). apply Z.eqb_eq in I4. eauto.
      * left. split; [congruence|]. apply G. split; [|lia].
        apply in_app_or in I1 as [I1|[<-|[]]]; [eauto|congruence].
Qed.
Lemma tot_split regs m e p : nth_error regs m = Some e ->
  tot regs p = tot (firstn m regs) p + (if x_tproc e =? p then message_size e else 0) + tot (skipn (S m) regs) p.
Proof.
  revert m. induction regs as [|e0 regs IH]; intros [|m] H; cbn in H; try discriminate.
  - injection H as ->. cbn [firstn skipn]. rewrite tot_cons. unfold tot at 2; cbn. lia.
  - cbn [firstn]. change (skipn (S (S m)) (e0 :: regs)) with (skipn (S m) regs).
    rewrite !tot_cons, (IH m H). lia.
Qed.
Lemma tot_nonneg regs p : Forall (fun e => 0 <= message_size e) regs -> 0 <= tot regs p.
Proof.
  intros H. induction H; [cbn; lia|]. rewrite tot_cons. destruct (_ =? _); lia.
Qed.
Lemma Forall_firstn {X} (P : X -> Prop) l n : Forall P l -> Forall P (firstn n l).
Proof. intros H. revert n. induction H; intros [|n]; cbn; auto. Qed.
Lemma Forall_skipn {X} (P : X -> Prop) l n : Forall P l -> Forall P (skipn n l).
Proof. intros H. revert n. induction H; intros [|n]; cbn; auto. Qed.
Lemma firstn_split {X} (l : list X) m m' e : nth_error l m = Some e -> (m < m')%nat ->
  exists l2, firstn m' l = firstn m l ++ e :: l2.
Proof.
  revert m m'. induction l as [|x l IH]; intros [|m] [|m'] H L; cbn in H; try discriminate; try lia.
  - injection H as ->. cbn. exists (firstn m' l). reflexivity.
  - destruct (IH m m' H ltac:(lia)) as (l2 & E). exists l2. cbn. rewrite E. reflexivity.
Qed.

(** ** Attaching receive buffers *)
Lemma header_eqb_eq a b : header_eqb a b = true <-> a = b.
Proof.
  destruct a as [[a1 a2] a3], b as [[b1 b2] b3]. unfold header_eqb.
  rewrite !andb_true_iff, !Z.eqb_eq. split.
  - intros ((-> & ->) & E). f_equal. destruct a3, b3; cbn in E; try discriminate; reflexivity.
  - intros [= -> -> ->]. auto.
Qed.
Lemma find_buf_spec bufs h : forall b0,
  match find_buf b0 bufs h with
  | Some (b, e) => (b0 <= b)%nat /\ nth_error bufs (b - b0) = Some e /\ recv_header e = h
  | None => forall e, In e bufs -> recv_header e <> h
  end.
Proof.
  induction bufs as [|e bufs IH]; intros b0; cbn [find_buf]; [intros e []|].
  destruct (header_eqb (recv_header e) h) eqn:E.
  - apply header_eqb_eq in E. split; [lia|]. rewrite Nat.sub_diag. auto.
  - specialize (IH (S b0)). destruct (find_buf (S b0) bufs h) as [[b e']|].
    + destruct IH as (L & N & R). split; [lia|]. split; [|exact R].
      replace (b - b0)%nat with (S (b - S b0)) by lia. exact N.
    + intros e' [<-|H]; [intros F; apply header_eqb_eq in F; congruence|auto].
Qed.
Lemma header_at_app pre : forall suf, Forall (fun x => 0 < snd x) pre ->
  header_at (pre ++ suf) (zsum (map snd pre)) = match suf with [] => None | (h, _) :: _ => Some h end.
Proof.
  induction pre as [|[h n] pre IH]; intros suf P; cbn [app map zsum].
  - destruct suf as [|[h n] suf]; reflexivity.
  - inversion P as [|? ? Hn P']; subst. cbn [snd] in *. cbn [header_at].
    assert (0 <= zsum (map snd pre)).
    { clear - P'. induction P'; cbn; [lia|]. destruct x; cbn in *. lia. }
    destruct (Z.eqb_spec (n + zsum (map snd pre)) 0); [lia|].
    replace (n + zsum (map snd pre) - n) with (zsum (map snd pre)) by lia. apply IH, P'.
Qed.
Definition attached_right (bufs : list exbuf) (msg : list (header * Z)) (block : header * Z) (x : nat * Z) : Prop :=
  exists e, nth_error bufs (fst x) = Some e /\ recv_header e = fst block /\ message_size e = snd block /\
    header_at msg (snd x) = Some (fst block).
Lemma Forall2_len {X Y} (P : X -> Y -> Prop) l l' : Forall2 P l l' -> length l = length l'.
Proof. induction 1; cbn; congruence. Qed.
Lemma attach_loop_ok bufs msg total suf : forall pre fuel acc,
  msg = pre ++ suf -> suf <> [] -> Forall (fun x => 0 < snd x) msg ->
  total = zsum (map snd msg) -> length bufs = length msg ->
  (forall h n, In (h, n) msg -> exists e, In e bufs /\ recv_header e = h) ->
  (forall h n e, In (h, n) msg -> In e bufs -> recv_header e = h -> message_size e = n) ->
  Forall2 (attached_right bufs msg) pre acc -> (length suf <= fuel)%nat ->
  exists acc', attach_loop fuel bufs msg total (zsum (map snd pre)) acc = TOk acc' /\
    Forall2 (attached_right bufs msg) msg acc'.
Proof.
  induction suf as [|[h n] suf IH]; intros pre fuel acc Em Ne P Et El Hf Hs A L; [congruence|].
  destruct fuel as [|fuel]; [cbn in L; lia|]. cbn [attach_loop].
  assert (Forall (fun x => 0 < snd x) pre /\ Forall (fun x => 0 < snd x) ((h, n) :: suf)) as (P1 & P2)
    by (apply Forall_app; rewrite <- Em; exact P).
  assert (header_at msg (zsum (map snd pre)) = Some h) as Ha by (rewrite Em, header_at_app by exact P1; reflexivity).
  rewrite Ha.
  assert (In (h, n) msg) as Im by (rewrite Em; apply in_or_app; right; left; reflexivity).
  pose proof (find_buf_spec bufs h 0) as FB. destruct (find_buf 0 bufs h) as [[b e]|].
  2:{ destruct (Hf h n Im) as (e & Ie & Re). destruct (FB e Ie Re). }
  destruct FB as (_ & Nb & Re). rewrite Nat.sub_0_r in Nb.
  assert (message_size e = n) as Se by (apply (Hs h n e Im); [apply nth_error_In with b; exact Nb|exact Re]).
  rewrite Se.
  assert (total = zsum (map snd pre) + n + zsum (map snd suf)) as Tt
    by (rewrite Et, Em, map_app, zsum_app; cbn; lia).
  assert (0 <= zsum (map snd suf) /\ (suf <> [] -> 0 < zsum (map snd suf))) as (Z0 & Z1).
  { inversion P2 as [|? ? _ P3]; subst. clear - P3. induction P3 as [|x l Hx P3 IH]; cbn; [split; [lia|congruence]|].
    destruct IH. split; [lia|intros _; lia]. }
  assert (Forall2 (attached_right bufs msg) (pre ++ [(h, n)]) (acc ++ [(b, zsum (map snd pre))])) as A'.
  { apply Forall2_app; [exact A|]. constructor; [|constructor]. exists e. cbn. auto. }
  destruct (Z.ltb_spec total (zsum (map snd pre) + n)); [lia|].
  destruct suf as [|b2 suf].
  - cbn in Tt. destruct (Z.eqb_spec (zsum (map snd pre) + n) total); [|lia].
    pose proof (Forall2_len _ _ _ A') as LA. rewrite <- Em in *.
    rewrite <- LA, <- El, Nat.eqb_refl. eexists. split; [reflexivity|exact A'].
  - specialize (Z1 ltac:(congruence)).
    destruct (Z.eqb_spec (zsum (map snd pre) + n) total); [lia|].
    replace (zsum (map snd pre) + n) with (zsum (map snd (pre ++ [(h, n)])))
      by (rewrite map_app, zsum_app; cbn; lia).
    apply IH; auto.
    + rewrite Em, <- app_assoc. reflexivity.
    + congruence.
    + cbn in *. lia.
Qed.

Lemma pack_all_bound {V} e rows sA sB (items : list (Z * arr3 V)) : forall sent sent', kind_ok e -> 0 <= x_halo e ->
  (is_edge (x_dir e) -> x_first e <= x_second e) -> Forall (fun x => 0 <= fst x) items -> items <> [] ->
  pack_all e rows sA sB items sent = Some sent' -> header_doubles + Z.of_nat (length sent') <= rows.
Proof.
  induction items as [|[sR a] items IH]; intros sent sent' K Hh Hf HR Ne P; [congruence|].
  inversion HR as [|? ? H0 HR']; subst. cbn [fst] in H0. cbn [pack_all] in P.
  destruct (pack3 e rows sA sB sR a sent) as [s1|] eqn:E; [|discriminate].
  destruct items as [|it items]; [|apply (IH s1 sent'); auto; congruence].
  cbn in P. injection P as <-. destruct (pack3_some _ _ _ _ _ _ _ _ K E) as (-> & B).
  rewrite app_length, map_length, Nat2Z.inj_add, (xidx_length e Hh Hf K sR H0). lia.
Qed.

(** ** Unpacking in any order *)
Section Order.
Context {V : Type}.
Lemma unpack3_wrote e rows sA sB sR (old : arr3 V) (vals : list V) pos new rest pos' : kind_ok e ->
  unpack3 e rows sA sB sR old vals pos = UOk new rest pos' ->
  (forall i j k v, wrote e sA sB sR vals (i, j, k) v -> new i j k = v) /\
  (forall i j k, (forall v, ~ wrote e sA sB sR vals (i, j, k) v) -> new i j k = old i j k) /\
  (forall old', exists new', unpack3 e rows sA sB sR old' vals pos = UOk new' rest pos').
Proof.
  intros K. unfold unpack3, wrote. rewrite (unpack_cells_idx e sA sB K).
  destruct (rows <? _); [discriminate|].
  assert (NoDup (places (map (dst_of e sA sB) (xidx e)) sR)) as ND.
  { rewrite places_map. apply NoDup_map_inj; [|apply NoDup_zidx, xidx_nodup].
    intros [x k] [y m] _ _. cbn [fst snd]. intros [= E F]. apply dst_inj in E; [|exact K]. congruence. }
  set (ps := places _ sR) in *.
  destruct (Nat.le_gt_cases (length ps) (length vals)) as [L|L].
  2:{ rewrite write_all_short by exact L. discriminate. }
  destruct (write_all_spec ps vals old ND L) as (w & W & WA & WB). rewrite W. intros [= <- <- <-].
  split; [|split].
  - intros i j k v (cells & n & [= <-] & N1 & N2). exact (WA n (i, j, k) v N1 N2).
  - intros i j k F. apply WB. intros I. apply In_nth_error in I as (n & N).
    destruct (nth_error vals n) as [v|] eqn:E.
    + apply (F v). exists (map (dst_of e sA sB) (xidx e)), n. auto.
    + apply nth_error_None in E. assert (nth_error ps n <> None) as Q by congruence. apply nth_error_Some in Q. lia.
  - intros old'. destruct (write_all_spec ps vals old' ND L) as (w' & W' & _ & _). rewrite W'. eauto.
Qed.
Lemma at_dec (ps : list (Z * Z * Z)) i j k : forall vs : list V,
  (exists u n, nth_error ps n = Some (i, j, k) /\ nth_error vs n = Some u) \/
  ~ (exists u n, nth_error ps n = Some (i, j, k) /\ nth_error vs n = Some u).
Proof.
  induction ps as [|[[i1 j1] k1] ps IH]; intros vs; [right; intros (u & [|n] & Q & _); discriminate|].
  destruct vs as [|u vs]; [right; intros (u & [|n] & _ & Q); discriminate|].
  destruct (Z.eq_dec i1 i) as [->|Ni]; [destruct (Z.eq_dec j1 j) as [->|Nj]; [destruct (Z.eq_dec k1 k) as [->|Nk];
    [left; exists u, 0%nat; split; reflexivity|]|]|].
  all: destruct (IH vs) as [(u' & n & Q1 & Q2)|Q]; [left; exists u', (S n); auto|right];
    intros (u' & [|n] & Q1 & Q2); [cbn in Q1; congruence|apply Q; exists u', n; auto].
Qed.
Lemma wrote_dec sA sB sR i j k (l : list (exbuf * list V)) :
  (forall e vs u, In (e, vs) l -> ~ wrote e sA sB sR vs (i, j, k) u) \/
  (exists e vs u, In (e, vs) l /\ wrote e sA sB sR vs (i, j, k) u).
Proof.
  induction l as [|[e vs] l IH]; [left; intros ? ? ? []|].
  destruct IH as [N|(e3 & v3 & u & I & W)]; [|right; exists e3, v3, u; split; [right; exact I|exact W]].
  assert ((exists u, wrote e sA sB sR vs (i, j, k) u) \/ ~ (exists u, wrote e sA sB sR vs (i, j, k) u)) as [(u & W)|N2].
  { unfold wrote. destruct (unpack_cells e sA sB) as [cells|]; [|right; intros (u & c & n & Q & _); discriminate].
    destruct (at_dec (places cells sR) i j k vs) as [(u & n & Q1 & Q2)|Q];
      [left; exists u, cells, n; auto|right; intros (u & c & n & [= <-] & Q1 & Q2); apply Q; eauto]. }
  - right. exists e, vs, u. split; [left; reflexivity|exact W].
  - left. intros e3 v3 u [[= <- <-]|I]; [intros W; apply N2; eauto|exact (N e3 v3 u I)].
Qed.
Lemma unpack_seq_spec sA sB sR (l : list (exbuf * list V)) : forall a b, Forall (fun x => kind_ok (fst x)) l ->
  (forall e vals e' vals' p v v', In (e, vals) l -> In (e', vals') l ->
     wrote e sA sB sR vals p v -> wrote e' sA sB sR vals' p v' -> v = v') ->
  unpack_seq sA sB sR l a = Some b ->
  (forall e vals i j k v, In (e, vals) l -> wrote e sA sB sR vals (i, j, k) v -> b i j k = v) /\
  (forall i j k, (forall e vals v, In (e, vals) l -> ~ wrote e sA sB sR vals (i, j, k) v) -> b i j k = a i j k) /\
  (forall e vals, In (e, vals) l -> forall a', exists new rest pos,
     unpack3 e (message_size e) sA sB sR a' vals header_doubles = UOk new rest pos).
Proof.
  induction l as [|[e vals] l IH]; intros a b K C H; cbn in H.
  - injection H as <-. split; [intros ? ? ? ? ? ? []|]. split; [reflexivity|intros ? ? []].
  - inversion K as [|? ? K1 K2]; subst. cbn [fst] in K1.
    destruct (unpack3 e (message_size e) sA sB sR a vals header_doubles) as [| |a1 rest pos] eqn:U; try discriminate.
    destruct (unpack3_wrote _ _ _ _ _ _ _ _ _ _ _ K1 U) as (W1 & W2 & W3).
    destruct (IH a1 b K2 ltac:(intros; eapply C; eauto; right; eauto) H) as (I1 & I2 & I3). split; [|split].
    + intros e' vals' i j k v [[= <- <-]|Hin] W; [|eapply I1; eauto].
      destruct (wrote_dec sA sB sR i j k l) as [N|(e2 & v2 & u & I & W')].
      * rewrite I2 by exact N. apply W1; exact W.
      * rewrite (I1 _ _ _ _ _ _ I W'). eapply C; [right; exact I|left; reflexivity|exact W'|exact W].
    + intros i j k N. rewrite I2 by (intros; apply N; right; assumption).
      apply W2. intros v. apply N. left. reflexivity.
    + intros e' vals' [[= <- <-]|I] a'; [|eauto]. destruct (W3 a') as (new' & E). eauto.
Qed.
End Order.
