(** * Proofs for the shallow-water states *)
From Coq Require Import Reals Lra.
From Verif Require Import PhysModel DlimProofs SwtModel SwtSpec.
Local Open Scope R_scope.

(** a point the code leaves where it is, with its neighbourhood *)
Definition clear (lat : R) : Prop := 1 / 1000000000000 < Rabs (lat - PI / 2) /\ 1 / 1000000000000 < Rabs (lat + PI / 2).
Lemma nudge_id lat : 1 / 1000000000000 <= Rabs (lat - PI / 2) -> 1 / 1000000000000 <= Rabs (lat + PI / 2) -> nudge lat = lat.
Proof.
  intros H1 H2. unfold nudge. cbv zeta. replace (1 / 2 * PI) with (PI / 2) by field.
  destruct (Rlt_dec (Rabs (lat - PI / 2))) as [L|_]; [lra|]. destruct Rlt_dec as [L|_]; [lra|reflexivity].
Qed.
Lemma clear_near lat : clear lat -> exists r, 0 < r /\ forall y, Rabs (y - lat) < r -> nudge y = y.
Proof.
  intros (H1 & H2). set (e := 1 / 1000000000000) in *.
  exists (Rmin (Rabs (lat - PI / 2) - e) (Rabs (lat + PI / 2) - e)). split; [apply Rmin_glb_lt; lra|].
  intros y Hy. pose proof (Rmin_l (Rabs (lat - PI / 2) - e) (Rabs (lat + PI / 2) - e)). pose proof (Rmin_r (Rabs (lat - PI / 2) - e) (Rabs (lat + PI / 2) - e)).
  apply nudge_id; fold e.
  - pose proof (Rabs_triang (lat - y) (y - PI / 2)) as T. replace (lat - y + (y - PI / 2)) with (lat - PI / 2) in T by ring. rewrite (Rabs_minus_sym lat y) in T. lra.
  - pose proof (Rabs_triang (lat - y) (y + PI / 2)) as T. replace (lat - y + (y + PI / 2)) with (lat + PI / 2) in T by ring. rewrite (Rabs_minus_sym lat y) in T. lra.
Qed.
Lemma clear_id lat : clear lat -> nudge lat = lat.
Proof. intros (H1 & H2). apply nudge_id; lra. Qed.
(** derivatives of fields that agree near the point *)
Lemma near_lat (f h : R -> R -> R) lon lat d : clear lat -> (forall y, nudge y = y -> cos y <> 0 -> f lon y = h lon y) -> 0 < cos lat ->
  d_lat h lon lat d -> d_lat f lon lat d.
Proof.
  intros C E P D. destruct (clear_near lat C) as (r & Hr & N).
  assert (continuity_pt cos lat) as K by apply continuity_cos.
  destruct (K (cos lat) P) as (r' & Hr' & K').
  apply (D_near (fun y => h lon y) (fun y => f lon y) lat d (Rmin r r')); [apply Rmin_glb_lt; assumption| |exact D].
  intros y Hy. pose proof (Rmin_l r r'). pose proof (Rmin_r r r'). symmetry. apply E; [apply N; lra|].
  destruct (Req_dec lat y) as [<-|Ne]; [lra|].
  assert (R_dist (cos y) (cos lat) < cos lat) as L by (apply K'; split; [split; [exact I|exact Ne]|cbn; unfold R_dist; lra]).
  unfold R_dist in L. apply Rabs_def2 in L. lra.
Qed.
Lemma near_lon (f h : R -> R -> R) lon lat d : (forall x, f x lat = h x lat) -> d_lon h lon lat d -> d_lon f lon lat d.
Proof. intros E D. apply (D_ext (fun x => h x lat)); [intros; symmetry; apply E|exact D]. Qed.

(** ** the rotated flow *)
Definition sw2_u (u0 al lon lat : R) : R := u0 * (cos lat * cos al + cos lon * sin lat * sin al).
Definition sw2_v (u0 al lon : R) : R := - u0 * sin lon * sin al.
Definition sw2_t (al lon lat : R) : R := - cos lon * cos lat * sin al + sin lat * cos al.
Definition sw2_h (c : constants) (h0 u0 al lon lat : R) : R :=
  h0 - (earth_radius c * omega c + 1 / 2 * u0) * u0 * (sw2_t al lon lat * sw2_t al lon lat) / g c.
Lemma sw2_fields c h0 u0 al lon lat : nudge lat = lat -> cos lat <> 0 ->
  hu (sw2_state c h0 u0 al lon lat) = sw2_u u0 al lon lat /\ hv (sw2_state c h0 u0 al lon lat) = sw2_v u0 al lon /\
  hh (sw2_state c h0 u0 al lon lat) = sw2_h c h0 u0 al lon lat.
Proof.
  intros N C. unfold sw2_state. cbv zeta. rewrite N. cbn [hu hv hh]. unfold sw2_u, sw2_v, sw2_h, sw2_t, tan. split; [field; exact C|].
  split; [reflexivity|]. unfold Rdiv. ring.
Qed.
Section sw2.
  Context (c : constants) (h0 u0 al lon lat : R) (Hg : g c <> 0) (Ha : earth_radius c <> 0) (Hc : clear lat) (Hp : 0 < cos lat).
  Let u x y := hu (sw2_state c h0 u0 al x y).
  Let v x y := hv (sw2_state c h0 u0 al x y).
  Let h x y := hh (sw2_state c h0 u0 al x y).
  Let N : nudge lat = lat := clear_id lat Hc.
  Let P : cos lat <> 0 := Rgt_not_eq _ _ Hp.
  Lemma sw2_ul : d_lon u lon lat (u0 * (- sin lon * sin lat * sin al)).
  Proof. apply (near_lon u (fun x y => sw2_u u0 al x y)); [intros; apply sw2_fields; assumption|]. unfold d_lon, sw2_u. dlim. ring. Qed.
  Lemma sw2_uf : d_lat u lon lat (u0 * (- sin lat * cos al + cos lon * cos lat * sin al)).
  Proof. apply (near_lat u (fun x y => sw2_u u0 al x y)); try assumption; [intros; apply sw2_fields; assumption|]. unfold d_lat, sw2_u. dlim. ring. Qed.
  Lemma sw2_vl : d_lon v lon lat (- u0 * cos lon * sin al).
  Proof. apply (near_lon v (fun x y => sw2_v u0 al x)); [intros; apply sw2_fields; assumption|]. unfold d_lon, sw2_v. dlim. ring. Qed.
  Lemma sw2_vf : d_lat v lon lat 0.
  Proof. apply (near_lat v (fun x y => sw2_v u0 al x)); try assumption; [intros; apply sw2_fields; assumption|]. unfold d_lat, sw2_v. dlim. ring. Qed.
  Lemma sw2_hl : d_lon h lon lat (- (2) * (earth_radius c * omega c + 1 / 2 * u0) * u0 / g c * sw2_t al lon lat * (sin lon * cos lat * sin al)).
  Proof. apply (near_lon h (fun x y => sw2_h c h0 u0 al x y)); [intros; apply sw2_fields; assumption|]. unfold d_lon, sw2_h, sw2_t. dlim; [exact Hg|]. field. exact Hg. Qed.
  Lemma sw2_hf : d_lat h lon lat (- (2) * (earth_radius c * omega c + 1 / 2 * u0) * u0 / g c * sw2_t al lon lat * (cos lat * cos al + cos lon * sin lat * sin al)).
  Proof. apply (near_lat h (fun x y => sw2_h c h0 u0 al x y)); try assumption; [intros; apply sw2_fields; assumption|]. unfold d_lat, sw2_h, sw2_t. dlim; [exact Hg|]. field. exact Hg. Qed.
  Lemma sw2_rates f : 
    zonal_rate (earth_radius c) (g c) f u v h lon lat ((f - 2 * omega c * sw2_t al lon lat) * v lon lat) /\
    merid_rate (earth_radius c) (g c) f u v h lon lat (- (f - 2 * omega c * sw2_t al lon lat) * u lon lat).
  Proof.
    assert (u lon lat = sw2_u u0 al lon lat) as Eu by (apply sw2_fields; assumption).
    assert (v lon lat = sw2_v u0 al lon) as Ev by (apply (sw2_fields c h0 u0 al lon lat); assumption).
    pose proof (sin2_cos2 lat) as Q1. pose proof (sin2_cos2 lon) as Q2. pose proof (sin2_cos2 al) as Q3. unfold Rsqr in Q1, Q2, Q3.
    assert (sin lat * sin lat = 1 - cos lat * cos lat) as R1 by lra.
    assert (sin lon * sin lon = 1 - cos lon * cos lon) as R2 by lra.
    assert (sin al * sin al = 1 - cos al * cos al) as R3 by lra. clear Q1 Q2 Q3.
    split.
    - do 3 eexists. split; [apply sw2_ul|]. split; [apply sw2_uf|]. split; [apply sw2_hl|].
      rewrite Eu, Ev. unfold sw2_u, sw2_v, sw2_t, tan. field [R1 R2 R3]. repeat split; assumption.
    - do 3 eexists. split; [apply sw2_vl|]. split; [apply sw2_vf|]. split; [apply sw2_hf|].
      rewrite Eu, Ev. unfold sw2_u, sw2_v, sw2_t, tan. field [R1 R2 R3]. repeat split; assumption.
  Qed.
  Lemma sw2_depth : depth_rate (earth_radius c) u v h lon lat 0.
  Proof.
    pose proof sw2_hl as D1. pose proof sw2_ul as D2. pose proof sw2_hf as D3. pose proof sw2_vf as D4.
    assert (u lon lat = sw2_u u0 al lon lat) as Eu by (apply sw2_fields; assumption).
    assert (v lon lat = sw2_v u0 al lon) as Ev by (apply (sw2_fields c h0 u0 al lon lat); assumption).
    do 2 eexists. split; [exact (D_mult _ _ _ _ _ D1 D2)|]. split; [exact (D_mult _ _ _ _ _ (D_mult _ _ _ _ _ D3 D4) (D_cos _ _ _ (D_id lat)))|].
    cbv beta. rewrite Eu, Ev. unfold sw2_u, sw2_v. field. repeat split; assumption.
  Qed.
End sw2.
