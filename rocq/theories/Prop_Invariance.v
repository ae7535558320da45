(** C105: detector scores do not depend on the order of the pixels, on how often the image is
    repeated, or on the choice of the bands. *)
From Coq Require Import FunctionalExtensionality.
From Verif Require Import M_Spectral Spec_Spectral P_Spectral Spec_Invariance P_Invariance Prop_Spectral.
Open Scope R_scope.

(** Reordered samples: the same statistics *)
Theorem C105_statistics : forall p img mask, reordering (si_m img) p ->
  spectral_mean (reordered p img) (reordered_mask p mask) = spectral_mean img mask /\
  spectral_covariance (reordered p img) (reordered_mask p mask) = spectral_covariance img mask.
Proof. intros p img mask H. split; [exact (mean_reorder p img mask H)|exact (cov_reorder p img mask H)]. Qed.
Print Assumptions C105_statistics.

(** and the scores of the samples in their new places, or the same error; whatever is given
    as mean and inverse covariance *)
Theorem C105_reordered : forall inv p img t mean W mask, reordering (si_m img) p ->
  rx_anomaly_detector inv (reordered p img) mean W =
    rmap (fun sc s => sc (p s)) (rx_anomaly_detector inv img mean W) /\
  ace inv (reordered p img) t mean W (reordered_mask p mask) =
    rmap (fun sc s => sc (p s)) (ace inv img t mean W mask) /\
  forall s, sam (reordered p img) t s = sam img t (p s).
Proof.
  intros inv p img t mean W mask H.
  split; [exact (rx_reorder inv p img mean W H)|split; [exact (ace_reorder inv p img t mean W mask H)|reflexivity]].
Qed.
Print Assumptions C105_reordered.

(** Image cubes whose pixels are rearranged (turned, mirrored, transposed, ...) *)
Theorem C105_rearranged : forall f c c' k k' inv t mean W,
  rearranged f c c' -> rearranged_mask f c' k k' ->
  spectral_mean_2d c' k' = spectral_mean_2d c k /\ spectral_covariance_2d c' k' = spectral_covariance_2d c k /\
  same_scores f c' (rx_anomaly_detector_2d inv c mean W) (rx_anomaly_detector_2d inv c' mean W) /\
  same_scores f c' (ace_2d inv c t mean W k) (ace_2d inv c' t mean W k').
Proof.
  intros f c c' k k' inv t mean W HR HM. split; [exact (mean_rearranged f c c' HR k k' HM)|].
  split; [exact (cov_rearranged f c c' HR k k' HM)|].
  split; [exact (rx_rearranged f c c' HR inv mean W)|exact (ace_rearranged f c c' HR inv t mean W k k' HM)].
Qed.
Print Assumptions C105_rearranged.

(** ACE with the statistics of the image: an invertible change of the bands and an offset,
    applied to the pixels and the target, change no score *)
Theorem C105_ace_affine : forall inv img A Ai b t mask sc,
  inv_exact (si_nb img) inv -> is_inverse (si_nb img) A Ai ->
  (2 <= length (kept mask (si_m img)))%nat ->
  ace inv img t None None mask = Ok sc ->
  exists sc', ace inv (map_pixels (fun x => vadd (mv (si_nb img) A x) b) img) (vadd (mv (si_nb img) A t) b) None None mask = Ok sc' /\
  forall s, sc' s = sc s.
Proof. exact ace_affine. Qed.
Print Assumptions C105_ace_affine.

(** SAM: rotating the band space changes no score *)
Theorem C105_sam_orthogonal : forall img A t s, orthogonal (si_nb img) A ->
  sam (map_pixels (mv (si_nb img) A) img) (mv (si_nb img) A t) s = sam img t s.
Proof.
  intros img A t s H. rewrite !sam_eq. unfold sam_value. cbn [map_pixels si_nb si_px].
  rewrite !dot_orthogonal by exact H. reflexivity.
Qed.
Print Assumptions C105_sam_orthogonal.

(** The image r times over: the same ACE scores; the RX scores by one factor larger (the
    covariance is divided by the number of samples less one) *)
Theorem C105_repeated : forall inv r img t mask, (1 <= r)%nat -> inv_exact (si_nb img) inv ->
  ((2 <= length (kept mask (si_m img)))%nat -> forall sc, ace inv img t None None mask = Ok sc ->
   exists sc', ace inv (repeated r img) t None None (repeated_mask (si_m img) mask) = Ok sc' /\
   forall s, sc' s = sc (s mod si_m img)%nat) /\
  ((2 <= si_m img)%nat -> forall sc, rx_anomaly_detector inv img None None = Ok sc ->
   exists sc', rx_anomaly_detector inv (repeated r img) None None = Ok sc' /\
   forall s, sc' s = fmap (fun x => x * (INR r * INR (si_m img) - 1) / (INR r * (INR (si_m img) - 1))) (sc (s mod si_m img)%nat)).
Proof.
  intros inv r img t mask Hr Hi. split.
  - intros L sc H. exact (ace_repeat inv r img t mask sc Hr Hi L H).
  - intros L sc H. exact (rx_repeat inv r img sc Hr Hi L H).
Qed.
Print Assumptions C105_repeated.

(** An inverse routine that meets the contract, on which the default statistics run *)
Example C105_ex_inv : inv_exact 2 inv2.
Proof.
  intros A. destruct (inv2 A) as [W|] eqn:E; [exact (C18_ex_inv A W E)|]. intros (W & [H1 _]).
    unfold inv2 in E. destruct (Reqb_spec (A 0%nat 0%nat * A 1%nat 1%nat - A 0%nat 1%nat * A 1%nat 0%nat) 0) as [Z|]; [|discriminate].
    pose proof (H1 0%nat 0%nat ltac:(lia) ltac:(lia)) as a. pose proof (H1 0%nat 1%nat ltac:(lia) ltac:(lia)) as b.
    pose proof (H1 1%nat 0%nat ltac:(lia) ltac:(lia)) as c. pose proof (H1 1%nat 1%nat ltac:(lia) ltac:(lia)) as d.
    unfold mm, eye, bigsum in a, b, c, d. cbn in a, b, c, d. 
    set (p := A 0%nat 0%nat) in *. set (q := A 0%nat 1%nat) in *. set (r := A 1%nat 0%nat) in *. set (s := A 1%nat 1%nat) in *.
    set (x := W 0%nat 0%nat) in *. set (y := W 0%nat 1%nat) in *. set (z := W 1%nat 0%nat) in *. set (w := W 1%nat 1%nat) in *.
    assert (T : (p * x + q * z) * (r * y + s * w) - (p * y + q * w) * (r * x + s * z) = (p * s - q * r) * (x * w - y * z)) by ring.
    replace (p * x + q * z) with 1 in T by lra. replace (r * y + s * w) with 1 in T by lra. replace (p * y + q * w) with 0 in T by lra. rewrite Z in T. lra.
Qed.
Example C105_ex_default : exists sc, ace inv2 ex_img (fun b => match b with 0%nat => 6 | _ => 0 end) None None None = Ok sc.
Proof.
  destruct C17_ex as (C & HC & E00 & E01 & E11).
  assert (E10 : C 1%nat 0%nat = -3) by (rewrite (cov_symmetric _ _ _ HC); exact E01).
  unfold ace, inv_covariance. simpl Nat.eqb. cbv iota. rewrite HC. unfold inv2. rewrite E00, E01, E10, E11, Reqb_false by lra.
  cbn [bind]. eexists. reflexivity.
Qed.

(** RX is not unchanged by repeating the image *)
Theorem C105_rx_repeated_refuted :
  exists inv img sc sc', inv_exact (si_nb img) inv /\
  rx_anomaly_detector inv img None None = Ok sc /\ rx_anomaly_detector inv (repeated 2 img) None None = Ok sc' /\
  sc' 0%nat <> sc 0%nat.
Proof.
  pose proof C105_ex_inv as HI.
  destruct C18_ex_default as (sc & r & H & E).
  destruct (proj2 (C105_repeated inv2 2 ex_img (fun _ => 0) None ltac:(lia) HI) ltac:(simpl; lia) sc H) as (sc' & H' & E').
  exists inv2, ex_img, sc, sc'. split; [exact HI|]. split; [exact H|]. split; [exact H'|].
  rewrite (E' 0%nat). change (0 mod si_m ex_img)%nat with 0%nat.
  assert (V : sc 0%nat = Fin (4 / 3)).
  { destruct C17_ex as (C & HC & E00 & E01 & E11).
    assert (E10 : C 1%nat 0%nat = -3) by (rewrite (cov_symmetric _ _ _ HC); exact E01).
    unfold rx_anomaly_detector, inv_covariance in H. simpl Nat.eqb in H. cbv iota in H. rewrite HC in H.
    unfold inv2 in H. rewrite E00, E01, E10, E11 in H. rewrite Reqb_false in H by lra. simpl in H. injection H as <-.
    unfold bigsum, weight; simpl. f_equal. field. }
  rewrite V. cbn [fmap]. intros K. injection K as K. simpl in K. lra.
Qed.
Print Assumptions C105_rx_repeated_refuted.

(** The hypotheses are met: the samples turned round; the bands swapped; a cube transposed *)
Example C105_ex_reordering : reordering 3 (fun s => 2 - s)%nat.
Proof. split; intros; lia. Qed.
Example C105_ex_bands : is_inverse 2 (fun i j => if Nat.eqb i j then 0 else 1) (fun i j => if Nat.eqb i j then 0 else 1)
  /\ orthogonal 2 (fun i j => if Nat.eqb i j then 0 else 1).
Proof.
  split; [split|]; intros i j Hi Hj; unfold mm, trans, eye, bigsum; destruct i as [|[|i]]; try lia; destruct j as [|[|j]]; try lia; simpl; lra.
Qed.
Example C105_ex_transposed : forall c, rearranged (fun y x => (x, y)) c (mkScube (sc_nx c) (sc_ny c) (sc_nb c) (fun y x => sc_px c x y)).
Proof.
  intros c. split; [reflexivity|]. split; [cbn; lia|]. split; cbn; intros; repeat split; try assumption; congruence.
Qed.
Example C105_ex_mirrored : forall c, rearranged (fun y x => (y, sc_nx c - 1 - x)%nat) c
  (mkScube (sc_ny c) (sc_nx c) (sc_nb c) (fun y x => sc_px c y (sc_nx c - 1 - x)%nat)).
Proof.
  intros c. split; [reflexivity|]. split; [reflexivity|]. split; cbn.
  - intros y x Hy Hx. repeat split; lia.
  - intros y x y' x' Hy Hx Hy' Hx' E. injection E as -> E. split; [reflexivity|lia].
Qed.
