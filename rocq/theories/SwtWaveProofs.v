(** * Proofs for the Rossby-Haurwitz wave *)
From Coq Require Import Reals Lra.
From Verif Require Import PhysModel DlimProofs SwtModel SwtSpec SwtProofs.
Local Open Scope R_scope.

Section wave.
  Context (c : constants) (h0 r w k : R) (Hg : g c <> 0) (Ha : earth_radius c <> 0) (Hr1 : r + 1 <> 0) (Hr2 : r + 2 <> 0).
  (** q = cos^(r-2) *)
  Definition hq (lat : R) : R := Rpower (cos lat) (r - 2).
  Lemma hq_r lat : 0 < cos lat -> Rpower (cos lat) r = hq lat * (cos lat * cos lat).
  Proof. intros P. unfold hq. rewrite <- (Rpower_pred (cos lat) r P), <- (Rpower_pred (cos lat) (r - 1) P). replace (r - 1 - 1) with (r - 2) by ring. ring. Qed.
  Lemma hq_r1 lat : 0 < cos lat -> Rpower (cos lat) (r - 1) = hq lat * cos lat.
  Proof. intros P. unfold hq. rewrite <- (Rpower_pred (cos lat) (r - 1) P). replace (r - 1 - 1) with (r - 2) by ring. ring. Qed.
  Lemma hq_2r lat : 0 < cos lat -> Rpower (cos lat) (2 * r) = hq lat * hq lat * (cos lat * cos lat * cos lat * cos lat).
  Proof. intros P. replace (2 * r) with (r + r) by ring. rewrite Rpower_plus, hq_r by exact P. ring. Qed.
  Lemma hq_lim lat : 0 < cos lat -> derivable_pt_lim hq lat (- (r - 2) * hq lat * sin lat / cos lat).
  Proof.
    intros P. unfold hq. dlim; [exact P|]. rewrite <- (Rpower_pred (cos lat) (r - 2) P). field. lra.
  Qed.
  Definition ha_u (lon lat : R) : R :=
    earth_radius c * (w * cos lat + k * hq lat * cos lat * cos (r * lon) * (r * (sin lat * sin lat) - cos lat * cos lat)).
  Definition ha_v (lon lat : R) : R := - earth_radius c * k * r * hq lat * cos lat * sin lat * sin (r * lon).
  Definition ha_a (lat : R) : R :=
    1 / 2 * w * (2 * omega c + w) * (cos lat * cos lat)
    + 1 / 4 * k * k * (hq lat * hq lat * (cos lat * cos lat)) * ((r + 1) * (cos lat * cos lat * cos lat * cos lat) + (2 * r * r - r - 2) * (cos lat * cos lat) - 2 * r * r).
  Definition ha_b (lat : R) : R :=
    2 * (omega c + w) * k / ((r + 1) * (r + 2)) * (hq lat * (cos lat * cos lat)) * ((r * r + 2 * r + 2) - (r + 1) * (r + 1) * (cos lat * cos lat)).
  Definition ha_c (lat : R) : R :=
    1 / 4 * k * k * (hq lat * hq lat * (cos lat * cos lat * cos lat * cos lat)) * ((r + 1) * (cos lat * cos lat) - (r + 2)).
  Definition ha_h (lon lat : R) : R :=
    h0 + earth_radius c * earth_radius c / g c * (ha_a lat + ha_b lat * cos (r * lon) + ha_c lat * (2 * (cos (r * lon) * cos (r * lon)) - 1)).
  Lemma ha_fields lon lat : nudge lat = lat -> 0 < cos lat ->
    hu (haur_state c h0 r w k lon lat) = ha_u lon lat /\ hv (haur_state c h0 r w k lon lat) = ha_v lon lat /\ hh (haur_state c h0 r w k lon lat) = ha_h lon lat.
  Proof.
    intros N P. unfold haur_state. cbv zeta. rewrite N. cbn [hu hv hh]. unfold haur_a, haur_b, haur_c.
    rewrite hq_r1, hq_r, hq_2r by exact P. unfold ha_u, ha_v, ha_h, ha_a, ha_b, ha_c.
    split; [ring|]. split; [ring|]. replace (2 * r * lon) with (2 * (r * lon)) by ring. rewrite cos_2a_cos. field. repeat split; (assumption || lra).
  Qed.
  (** derivatives *)
  Definition ha_ul (lon lat : R) : R := - earth_radius c * k * r * hq lat * cos lat * sin (r * lon) * (r * (sin lat * sin lat) - cos lat * cos lat).
  Definition ha_uf (lon lat : R) : R :=
    earth_radius c * (- w * sin lat + k * cos (r * lon) * hq lat * sin lat * (- (r - 1) * (r * (sin lat * sin lat) - cos lat * cos lat) + 2 * (r + 1) * (cos lat * cos lat))).
  Definition ha_vl (lon lat : R) : R := - earth_radius c * k * r * r * hq lat * cos lat * sin lat * cos (r * lon).
  Definition ha_vf (lon lat : R) : R := - earth_radius c * k * r * sin (r * lon) * hq lat * (cos lat * cos lat - (r - 1) * (sin lat * sin lat)).
  Definition ha_hl (lon lat : R) : R := - earth_radius c * earth_radius c / g c * r * sin (r * lon) * (ha_b lat + 4 * ha_c lat * cos (r * lon)).
  Definition ha_ad (lat : R) : R :=
    - w * (2 * omega c + w) * cos lat * sin lat
    - 1 / 4 * k * k * hq lat * hq lat * cos lat * sin lat * ((2 * r + 2) * (r + 1) * (cos lat * cos lat * cos lat * cos lat) + 2 * r * (2 * r * r - r - 2) * (cos lat * cos lat) - (2 * r - 2) * 2 * r * r).
  Definition ha_bd (lat : R) : R :=
    - 2 * (omega c + w) * k / ((r + 1) * (r + 2)) * hq lat * cos lat * sin lat * (r * (r * r + 2 * r + 2) - (r + 2) * (r + 1) * (r + 1) * (cos lat * cos lat)).
  Definition ha_cd (lat : R) : R :=
    - 1 / 4 * k * k * hq lat * hq lat * (cos lat * cos lat * cos lat) * sin lat * ((2 * r + 2) * (r + 1) * (cos lat * cos lat) - 2 * r * (r + 2)).
  Definition ha_hf (lon lat : R) : R :=
    earth_radius c * earth_radius c / g c * (ha_ad lat + ha_bd lat * cos (r * lon) + ha_cd lat * (2 * (cos (r * lon) * cos (r * lon)) - 1)).
  Ltac dq P := repeat (exact (hq_lim _ P) || dstep).
  Lemma ha_ul_lim lon lat : 0 < cos lat -> d_lon ha_u lon lat (ha_ul lon lat).
  Proof. intros P. unfold d_lon, ha_u. dlim. unfold ha_ul. ring. Qed.
  Lemma ha_uf_lim lon lat : 0 < cos lat -> d_lat ha_u lon lat (ha_uf lon lat).
  Proof. intros P. unfold d_lat, ha_u. eapply D_eq; [dq P|]. cbv beta. unfold ha_uf. field. lra. Qed.
  Lemma ha_vl_lim lon lat : 0 < cos lat -> d_lon ha_v lon lat (ha_vl lon lat).
  Proof. intros P. unfold d_lon, ha_v. dlim. unfold ha_vl. ring. Qed.
  Lemma ha_vf_lim lon lat : 0 < cos lat -> d_lat ha_v lon lat (ha_vf lon lat).
  Proof. intros P. unfold d_lat, ha_v. eapply D_eq; [dq P|]. cbv beta. unfold ha_vf. field. lra. Qed.
  Lemma ha_hl_lim lon lat : 0 < cos lat -> d_lon ha_h lon lat (ha_hl lon lat).
  Proof. intros P. unfold d_lon, ha_h. dlim. unfold ha_hl. field. exact Hg. Qed.
  Lemma ha_ad_lim lat : 0 < cos lat -> derivable_pt_lim ha_a lat (ha_ad lat).
  Proof. intros P. unfold ha_a. eapply D_eq; [dq P|]. cbv beta. unfold ha_ad. field. lra. Qed.
  Lemma ha_bd_lim lat : 0 < cos lat -> derivable_pt_lim ha_b lat (ha_bd lat).
  Proof. intros P. unfold ha_b. set (m := 2 * (omega c + w) * k / ((r + 1) * (r + 2))). eapply D_eq; [dq P|]. cbv beta. unfold ha_bd.
    replace (- 2 * (omega c + w) * k / ((r + 1) * (r + 2))) with (- m) by (unfold m; field; split; assumption). field. lra. Qed.
  Lemma ha_cd_lim lat : 0 < cos lat -> derivable_pt_lim ha_c lat (ha_cd lat).
  Proof. intros P. unfold ha_c. eapply D_eq; [dq P|]. cbv beta. unfold ha_cd. field. lra. Qed.
  Lemma ha_hf_lim lon lat : 0 < cos lat -> d_lat ha_h lon lat (ha_hf lon lat).
  Proof.
    intros P. unfold d_lat, ha_h. eapply D_eq; [repeat (exact (ha_ad_lim _ P) || exact (ha_bd_lim _ P) || exact (ha_cd_lim _ P) || match goal with |- derivable_pt_lim (fun y => earth_radius c * earth_radius c / g c) _ _ => apply D_const end || dstep)|].
    cbv beta. unfold ha_hf. ring.
  Qed.
  (** the accelerations *)
  Definition ha_mu (lon lat : R) : R :=
    - (ha_u lon lat / (earth_radius c * cos lat) * ha_ul lon lat + ha_v lon lat / earth_radius c * ha_uf lon lat
       - ha_u lon lat * ha_v lon lat * (sin lat / cos lat) / earth_radius c - 2 * omega c * sin lat * ha_v lon lat
       + g c / (earth_radius c * cos lat) * ha_hl lon lat).
  Definition ha_mv (lon lat : R) : R :=
    - (ha_u lon lat / (earth_radius c * cos lat) * ha_vl lon lat + ha_v lon lat / earth_radius c * ha_vf lon lat
       + ha_u lon lat * ha_u lon lat * (sin lat / cos lat) / earth_radius c + 2 * omega c * sin lat * ha_u lon lat
       + g c / earth_radius c * ha_hf lon lat).
  (** second derivatives along a parallel *)
  Lemma ha_mu_l lon lat : 0 < cos lat -> derivable_pt_lim (fun x => ha_mu x lat) lon
    (- (ha_ul lon lat / (earth_radius c * cos lat) * ha_ul lon lat + ha_u lon lat / (earth_radius c * cos lat) * (- earth_radius c * k * r * r * hq lat * cos lat * cos (r * lon) * (r * (sin lat * sin lat) - cos lat * cos lat))
        + ha_vl lon lat / earth_radius c * ha_uf lon lat + ha_v lon lat / earth_radius c * (- earth_radius c * k * r * sin (r * lon) * hq lat * sin lat * (- (r - 1) * (r * (sin lat * sin lat) - cos lat * cos lat) + 2 * (r + 1) * (cos lat * cos lat)))
        - (ha_ul lon lat * ha_v lon lat + ha_u lon lat * ha_vl lon lat) * (sin lat / cos lat) / earth_radius c - 2 * omega c * sin lat * ha_vl lon lat
        + g c / (earth_radius c * cos lat) * (- earth_radius c * earth_radius c / g c * r * r * (cos (r * lon) * ha_b lat + 4 * ha_c lat * (2 * (cos (r * lon) * cos (r * lon)) - 1))))).
  Proof.
    intros P. pose proof (ha_ul_lim lon lat P) as D1. pose proof (ha_vl_lim lon lat P) as D2. unfold d_lon in D1, D2.
    assert (derivable_pt_lim (fun x => ha_ul x lat) lon (- earth_radius c * k * r * r * hq lat * cos lat * cos (r * lon) * (r * (sin lat * sin lat) - cos lat * cos lat))) as D3
      by (unfold ha_ul; dlim; ring).
    assert (derivable_pt_lim (fun x => ha_uf x lat) lon (- earth_radius c * k * r * sin (r * lon) * hq lat * sin lat * (- (r - 1) * (r * (sin lat * sin lat) - cos lat * cos lat) + 2 * (r + 1) * (cos lat * cos lat)))) as D4
      by (unfold ha_uf; dlim; ring).
    assert (derivable_pt_lim (fun x => ha_hl x lat) lon (- earth_radius c * earth_radius c / g c * r * r * (cos (r * lon) * ha_b lat + 4 * ha_c lat * (2 * (cos (r * lon) * cos (r * lon)) - 1)))) as D5.
    { pose proof (sin2_cos2 (r * lon)) as Q. unfold Rsqr in Q. assert (sin (r * lon) * sin (r * lon) = 1 - cos (r * lon) * cos (r * lon)) as R by lra.
      unfold ha_hl. eapply D_eq; [repeat (match goal with |- derivable_pt_lim (fun _ => _ / g c) _ _ => apply D_const end || dstep)|]. cbv beta. field [R]. exact Hg. }
    assert (earth_radius c * cos lat <> 0) as N by (apply Rmult_integral_contrapositive_currified; lra).
    unfold ha_mu. eapply D_eq.
    - repeat (exact D1 || exact D2 || exact D3 || exact D4 || exact D5 || match goal with
        | |- derivable_pt_lim (fun _ => g c / _) _ _ => apply D_const
        | |- derivable_pt_lim (fun _ => sin lat / cos lat) _ _ => apply D_const
        | |- derivable_pt_lim (fun y => @?f y / ?d) _ _ => eapply (D_mult f (fun _ => / d)) end || dstep).
    - cbv beta. field. repeat split; (assumption || lra).
  Qed.
  Definition ha_w (lon lat : R) : R :=
    - (ha_u lon lat * ha_vl lon lat + ha_v lon lat * cos lat * ha_vf lon lat + ha_u lon lat * ha_u lon lat * sin lat) / earth_radius c
    - 2 * omega c * sin lat * cos lat * ha_u lon lat
    - earth_radius c * cos lat * (ha_ad lat + ha_bd lat * cos (r * lon) + ha_cd lat * (2 * (cos (r * lon) * cos (r * lon)) - 1)).
  Lemma ha_w_mv lon lat : 0 < cos lat -> ha_mv lon lat * cos lat = ha_w lon lat.
  Proof. intros P. unfold ha_mv, ha_w, ha_hf. field. repeat split; (assumption || lra). Qed.
  Lemma ha_w_f lon lat : 0 < cos lat -> exists D, derivable_pt_lim (fun y => ha_w lon y) lat D /\
    - (ha_ul lon lat / (earth_radius c * cos lat) * ha_ul lon lat + ha_u lon lat / (earth_radius c * cos lat) * (- earth_radius c * k * r * r * hq lat * cos lat * cos (r * lon) * (r * (sin lat * sin lat) - cos lat * cos lat))
        + ha_vl lon lat / earth_radius c * ha_uf lon lat + ha_v lon lat / earth_radius c * (- earth_radius c * k * r * sin (r * lon) * hq lat * sin lat * (- (r - 1) * (r * (sin lat * sin lat) - cos lat * cos lat) + 2 * (r + 1) * (cos lat * cos lat)))
        - (ha_ul lon lat * ha_v lon lat + ha_u lon lat * ha_vl lon lat) * (sin lat / cos lat) / earth_radius c - 2 * omega c * sin lat * ha_vl lon lat
        + g c / (earth_radius c * cos lat) * (- earth_radius c * earth_radius c / g c * r * r * (cos (r * lon) * ha_b lat + 4 * ha_c lat * (2 * (cos (r * lon) * cos (r * lon)) - 1)))) + D = 0.
  Proof.
    intros P. pose proof (ha_uf_lim lon lat P) as D1. pose proof (ha_vf_lim lon lat P) as D2. unfold d_lat in D1, D2.
    assert (exists D, derivable_pt_lim (fun y => ha_vl lon y) lat D /\ D = - earth_radius c * k * r * r * cos (r * lon) * hq lat * (cos lat * cos lat - (r - 1) * (sin lat * sin lat))) as (E3 & D3 & F3).
    { eexists. split; [unfold ha_vl; dq P|]. cbv beta. field. lra. }
    assert (exists D, derivable_pt_lim (fun y => ha_vf lon y) lat D /\ D = earth_radius c * k * r * sin (r * lon) * hq lat * sin lat / cos lat * (2 * r * (cos lat * cos lat) + (r - 2) * (cos lat * cos lat - (r - 1) * (sin lat * sin lat)))) as (E4 & D4 & F4).
    { eexists. split; [unfold ha_vf; dq P|]. cbv beta. field. lra. }
    set (m := 2 * (omega c + w) * k / ((r + 1) * (r + 2))).
    assert (Hm : 2 * (omega c + w) * k = m * ((r + 1) * (r + 2))) by (unfold m; field; split; assumption).
    set (cc := cos lat * cos lat). set (ss := sin lat * sin lat).
    set (P5 := (2 * r + 2) * (r + 1) * (cc * cc) + 2 * r * (2 * r * r - r - 2) * cc - (2 * r - 2) * 2 * r * r).
    assert (exists D, derivable_pt_lim ha_ad lat D /\ D = - w * (2 * omega c + w) * (cc - ss)
      - 1 / 4 * k * k * hq lat * hq lat * (- (2) * (r - 2) * ss * P5 + (cc - ss) * P5 - cc * ss * (4 * ((2 * r + 2) * (r + 1)) * cc + 4 * r * (2 * r * r - r - 2)))) as (E5 & D5 & F5).
    { eexists. split; [unfold ha_ad; dq P|]. cbv beta. unfold P5, cc, ss. field. lra. }
    set (P6 := r * (r * r + 2 * r + 2) - (r + 2) * (r + 1) * (r + 1) * cc).
    assert (exists D, derivable_pt_lim ha_bd lat D /\ D = - m * hq lat * (- (r - 2) * ss * P6 + (cc - ss) * P6 + 2 * (r + 2) * (r + 1) * (r + 1) * cc * ss)) as (E6 & D6 & F6).
    { eexists. split; [apply (D_ext (fun lat => - m * hq lat * cos lat * sin lat * (r * (r * r + 2 * r + 2) - (r + 2) * (r + 1) * (r + 1) * (cos lat * cos lat))))|].
      - intros y. unfold ha_bd, m. field. split; assumption.
      - dq P.
      - cbv beta. unfold P6, cc, ss. field. lra. }
    set (P7 := (2 * r + 2) * (r + 1) * cc - 2 * r * (r + 2)).
    assert (exists D, derivable_pt_lim ha_cd lat D /\ D = - 1 / 4 * k * k * hq lat * hq lat * cc * (- (2) * (r - 2) * ss * P7 + (cc - 3 * ss) * P7 - 2 * (2 * r + 2) * (r + 1) * cc * ss)) as (E7 & D7 & F7).
    { eexists. split; [unfold ha_cd; dq P|]. cbv beta. unfold P7, cc, ss. field. lra. }
    eexists. split.
    - unfold ha_w. repeat (exact D1 || exact D2 || exact D3 || exact D4 || exact D5 || exact D6 || exact D7 || match goal with
        | |- derivable_pt_lim (fun y => @?f y / ?d) _ _ => eapply (D_mult f (fun _ => / d)) end || dstep).
    - cbv beta. rewrite F3, F4, F5, F6, F7. clear E3 D3 F3 E4 D4 F4 E5 D5 F5 E6 D6 F6 E7 D7 F7 D1 D2 Hm.
      unfold P5, P6, P7, cc, ss, m. unfold ha_u, ha_v, ha_ul, ha_uf, ha_vl, ha_vf, ha_ad, ha_bd, ha_cd, ha_b, ha_c.
      pose proof (sin2_cos2 lat) as Q1. pose proof (sin2_cos2 (r * lon)) as Q2. unfold Rsqr in Q1, Q2.
      assert (R1 : sin lat * sin lat = 1 - cos lat * cos lat) by lra.
      assert (R2 : sin (r * lon) * sin (r * lon) = 1 - cos (r * lon) * cos (r * lon)) by lra.
      clear Q1 Q2 P5 P6 P7 cc ss m. revert P Hg Ha R1 R2. generalize (hq lat) (sin (r * lon)) (cos (r * lon)) (sin lat) (cos lat) (earth_radius c) (omega c) (g c).
      intros q S C s x a om gg P Hg' Ha' R1 R2.
      field [R1 R2]. repeat split; (assumption || lra).
  Qed.
End wave.
