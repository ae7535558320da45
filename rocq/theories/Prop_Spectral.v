(** Properties C16-C22: spectral statistics and detectors. *)
From Verif Require Import M_Spectral Spec_Spectral P_Spectral.
From Coq Require Import FunctionalExtensionality.
Open Scope R_scope.

(* ---------------- C16: demeaning ---------------------------------- *)

(** The mean spectrum is the average over the samples that are not masked out, and is
    defined exactly when there is one *)
Theorem C16_mean_is_average : forall img mask mu,
  spectral_mean img mask = Some mu -> is_average img mask mu.
Proof. exact mean_average. Qed.
Print Assumptions C16_mean_is_average.
Theorem C16_mean_defined : forall img mask,
  (exists mu, spectral_mean img mask = Some mu) <->
  exists s, (s < si_m img)%nat /\ match mask with None => true | Some k => negb (k s) end = true.
Proof. exact mean_defined. Qed.
Print Assumptions C16_mean_defined.

(** The demeaned image has mean zero in every band *)
Theorem C16_demeaned_mean_zero : forall img mask d,
  demean_image_data img mask = Some d ->
  exists mu, spectral_mean d mask = Some mu /\ forall b, mu b = 0.
Proof. exact demean_zero_mean. Qed.
Print Assumptions C16_demeaned_mean_zero.

(** and demeaning it again changes nothing *)
Theorem C16_demean_idempotent : forall img mask d,
  demean_image_data img mask = Some d -> demean_image_data d mask = Some d.
Proof. exact demean_idempotent. Qed.
Print Assumptions C16_demean_idempotent.

(** Demeaning moves every pixel, masked or not, by the same spectrum *)
Theorem C16_demean_is_a_shift : forall img mask d,
  demean_image_data img mask = Some d ->
  exists mu, spectral_mean img mask = Some mu /\ si_m d = si_m img /\ si_nb d = si_nb img /\
  forall s b, si_px d s b = si_px img s b - mu b.
Proof.
  intros img mask d H. destruct (demean_shape _ _ _ H) as (mu & M & ->). exists mu. repeat split; auto.
Qed.
Print Assumptions C16_demean_is_a_shift.

(** Masked pixels influence neither the mean nor the covariance *)
Theorem C16_masked_pixels_irrelevant : forall mask a b,
  agree_on_kept mask a b ->
  spectral_mean a mask = spectral_mean b mask /\ spectral_covariance a mask = spectral_covariance b mask.
Proof. intros mask a b H. split; [exact (mean_masked_irrelevant mask a b H)|exact (cov_masked_irrelevant mask a b H)]. Qed.
Print Assumptions C16_masked_pixels_irrelevant.

Definition ex_img : simg :=
  mkSimg 3 2 (fun s b => match s, b with 1%nat, 0%nat => 3 | 2%nat, 1%nat => 6 | _, _ => 0 end).
Definition ex_mask : option (nat -> bool) := Some (fun s => Nat.eqb s 2).
Example C16_ex : exists d, demean_image_data ex_img ex_mask = Some d /\ si_px d 1 0 = 3 / 2 /\ si_px d 2 1 = 6.
Proof. eexists. split; [reflexivity|]. split; unfold bigsum, weight; simpl; field. Qed.
Example C16_ex_agree : agree_on_kept ex_mask ex_img
  (mkSimg 3 2 (fun s b => match s, b with 1%nat, 0%nat => 3 | 2%nat, 1%nat => 77 | _, _ => 0 end)).
Proof. repeat split. simpl. intros s i Hs. destruct s as [|[|[|s]]]; simpl; auto; try discriminate; lia. Qed.

(* ---------------- C17: covariance --------------------------------- *)

Theorem C17_covariance_is_sample_covariance : forall img mask C,
  spectral_covariance img mask = Some C -> is_sample_covariance img mask C.
Proof. exact cov_is_sample. Qed.
Print Assumptions C17_covariance_is_sample_covariance.

Theorem C17_covariance_defined : forall img mask,
  (exists C, spectral_covariance img mask = Some C) <-> (1 < length (kept mask (si_m img)))%nat.
Proof. exact cov_defined. Qed.
Print Assumptions C17_covariance_defined.

Theorem C17_symmetric_and_positive_semidefinite : forall img mask C,
  spectral_covariance img mask = Some C -> symmetric (si_nb img) C /\ psd (si_nb img) C.
Proof. intros img mask C H. split; [exact (cov_symm _ img mask C H)|exact (cov_psd img mask C H)]. Qed.
Print Assumptions C17_symmetric_and_positive_semidefinite.

Theorem C17_translation_invariant : forall img mask t,
  spectral_covariance (map_pixels (fun x => vadd x t) img) mask = spectral_covariance img mask.
Proof. exact cov_shift. Qed.
Print Assumptions C17_translation_invariant.

(** A linear change of the bands transforms it as A C A^T *)
Theorem C17_linear_transform : forall img mask C A t,
  spectral_covariance img mask = Some C ->
  exists C', spectral_covariance (map_pixels (fun x => vadd (mv (si_nb img) A x) t) img) mask = Some C' /\
             forall i j, C' i j = mm (si_nb img) (mm (si_nb img) A C) (trans A) i j.
Proof. exact cov_linear. Qed.
Print Assumptions C17_linear_transform.

Example C17_ex : exists C, spectral_covariance ex_img None = Some C /\ C 0%nat 0%nat = 3 /\ C 0%nat 1%nat = -3 /\ C 1%nat 1%nat = 12.
Proof. eexists. split; [reflexivity|]. repeat split; unfold bigsum, weight; simpl; field. Qed.

(* ---------------- C18: RX ----------------------------------------- *)

(** The score is the quadratic form of the inverse covariance at the pixel contrast *)
Theorem C18_score : forall inv img mu W,
  exists sc, rx_anomaly_detector inv img (Some mu) (Some W) = Ok sc /\
  forall s, sc s = Fin (dot (si_nb img) (vsub (si_px img s) mu) (mv (si_nb img) W (vsub (si_px img s) mu))).
Proof. intros. eexists. split; [apply rx_explicit|reflexivity]. Qed.
Print Assumptions C18_score.

Theorem C18_non_negative : forall inv img mu W sc,
  psd (si_nb img) W -> rx_anomaly_detector inv img (Some mu) (Some W) = Ok sc ->
  forall s, exists r, sc s = Fin r /\ 0 <= r.
Proof. exact rx_nonneg. Qed.
Print Assumptions C18_non_negative.

(** With the default statistics: any image of at least two pixels, any inverse routine
    that returns inverses *)
Theorem C18_default_non_negative : forall inv img sc,
  inv_contract (si_nb img) inv -> (2 <= si_m img)%nat ->
  rx_anomaly_detector inv img None None = Ok sc -> forall s, exists r, sc s = Fin r /\ 0 <= r.
Proof. exact rx_default_nonneg. Qed.
Print Assumptions C18_default_non_negative.

Theorem C18_zero_at_mean : forall inv img mu W sc s,
  rx_anomaly_detector inv img (Some mu) (Some W) = Ok sc ->
  veq (si_nb img) (si_px img s) mu -> sc s = Fin 0.
Proof. exact rx_zero_at_mean. Qed.
Print Assumptions C18_zero_at_mean.

Theorem C18_zero_only_at_mean : forall inv img mu W sc s,
  pd (si_nb img) W -> rx_anomaly_detector inv img (Some mu) (Some W) = Ok sc ->
  sc s = Fin 0 -> veq (si_nb img) (si_px img s) mu.
Proof. exact rx_pd_zero_only_at_mean. Qed.
Print Assumptions C18_zero_only_at_mean.

Theorem C18_translation_invariant : forall inv img mu W t,
  rx_anomaly_detector inv (map_pixels (fun x => vadd x t) img) (Some (vadd mu t)) (Some W) =
  rx_anomaly_detector inv img (Some mu) (Some W).
Proof. exact rx_translation. Qed.
Print Assumptions C18_translation_invariant.

Theorem C18_default_translation_invariant : forall inv img t,
  rx_anomaly_detector inv (map_pixels (fun x => vadd x t) img) None None =
  rx_anomaly_detector inv img None None.
Proof. exact rx_translation_default. Qed.
Print Assumptions C18_default_translation_invariant.

(** With the default statistics the scores do not depend on an invertible affine change
    of the bands, and add up to (pixels - 1) * bands *)
Theorem C18_default_affine_invariant : forall inv img A Ai t sc sc',
  inv_contract (si_nb img) inv -> (2 <= si_m img)%nat -> is_inverse (si_nb img) A Ai ->
  rx_anomaly_detector inv img None None = Ok sc ->
  rx_anomaly_detector inv (map_pixels (fun x => vadd (mv (si_nb img) A x) t) img) None None = Ok sc' ->
  forall s, sc s = sc' s.
Proof. exact rx_affine. Qed.
Print Assumptions C18_default_affine_invariant.

Theorem C18_default_sum : forall inv img sc,
  inv_contract (si_nb img) inv -> (2 <= si_m img)%nat ->
  rx_anomaly_detector inv img None None = Ok sc ->
  exists r, (forall s, sc s = Fin (r s)) /\ bigsum (si_m img) r = (INR (si_m img) - 1) * INR (si_nb img).
Proof. exact rx_sum. Qed.
Print Assumptions C18_default_sum.

(** A one-band image has no default score: numpy's covariance is then 0-dimensional and
    its inversion raises *)
Theorem C18_one_band_default_raises : forall inv img mean,
  si_nb img = 1%nat -> rx_anomaly_detector inv img mean None = Err OtherError.
Proof. intros inv img mean H. unfold rx_anomaly_detector, inv_covariance. rewrite H. reflexivity. Qed.
Print Assumptions C18_one_band_default_raises.

(** Without an inverse covariance: a single sample has no covariance and no score is a number;
    a covariance that cannot be inverted raises LinAlgError *)
Theorem C18_default_degenerate : forall inv img mean, si_nb img <> 1%nat ->
  ((si_m img <= 1)%nat -> exists sc, rx_anomaly_detector inv img mean None = Ok sc /\ forall s, sc s = NonFinite) /\
  (forall C, spectral_covariance img None = Some C -> inv C = None -> rx_anomaly_detector inv img mean None = Err OtherError).
Proof.
  intros inv img mean N. unfold rx_anomaly_detector, inv_covariance. destruct (Nat.eqb_spec (si_nb img) 1) as [|_]; [contradiction|]. split.
  - intros L. replace (spectral_covariance img None) with (@None mat).
    + cbn [bind]. eexists. split; [destruct mean; [|destruct (spectral_mean img None)]; reflexivity|reflexivity].
    + unfold spectral_covariance. destruct (spectral_mean img None); [|reflexivity]. rewrite count_none. destruct (Nat.leb_spec (si_m img) 1); [reflexivity|lia].
  - intros C -> ->. reflexivity.
Qed.
Print Assumptions C18_default_degenerate.

(** An inverse routine for 2 x 2 matrices, and an image on which the default runs *)
Definition inv2 (A : mat) : option mat :=
  let d := A 0%nat 0%nat * A 1%nat 1%nat - A 0%nat 1%nat * A 1%nat 0%nat in
  if Reqb d 0 then None
  else Some (fun i j => match i, j with
                        | 0%nat, 0%nat => A 1%nat 1%nat / d | 0%nat, _ => - A 0%nat 1%nat / d
                        | _, 0%nat => - A 1%nat 0%nat / d | _, _ => A 0%nat 0%nat / d end).
Example C18_ex_inv : inv_contract 2 inv2.
Proof.
  intros A W. unfold inv2. set (d := _ - _). destruct (Reqb_spec d 0) as [|N]; [discriminate|]. intros [= <-].
  split; intros i j Hi Hj; unfold mm, eye, bigsum; simpl;
    destruct i as [|[|i]]; try lia; destruct j as [|[|j]]; try lia; simpl; unfold d in *; field; exact N.
Qed.
Example C18_ex_default : exists sc r, rx_anomaly_detector inv2 ex_img None None = Ok sc /\ sc 0%nat = Fin r.
Proof.
  unfold rx_anomaly_detector, inv_covariance. simpl Nat.eqb. cbv iota.
  destruct C17_ex as (C & HC & E00 & E01 & E11). rewrite HC.
  assert (E10 : C 1%nat 0%nat = -3) by (rewrite (cov_symmetric _ _ _ HC); exact E01).
  unfold inv2. rewrite E00, E01, E10, E11. rewrite Reqb_false by lra. simpl.
  do 2 eexists. split; reflexivity.
Qed.

(* ---------------- C19: ACE ---------------------------------------- *)

(** Every score is a number in [0,1], whenever neither the target contrast nor the pixel
    contrast has zero norm; otherwise it is 0/0 *)
Theorem C19_range : forall inv img t mu W mask sc s r,
  symmetric (si_nb img) W -> psd (si_nb img) W ->
  ace inv img t (Some mu) (Some W) mask = Ok sc -> sc s = Fin r -> 0 <= r <= 1.
Proof.
  intros inv img t mu W mask sc s r HS P H E. rewrite ace_explicit in H. injection H as <-.
  exact (ace_value_range _ W _ _ r HS P E).
Qed.
Print Assumptions C19_range.

Theorem C19_defined : forall inv img t mu W mask,
  pd (si_nb img) W ->
  exists sc, ace inv img t (Some mu) (Some W) mask = Ok sc /\
  forall s, (exists r, sc s = Fin r) <->
            nonzero (si_nb img) (vsub t mu) /\ nonzero (si_nb img) (vsub (si_px img s) mu).
Proof.
  intros inv img t mu W mask P. eexists. split; [apply ace_explicit|]. intros s. rewrite ace_value_defined.
  assert (X : forall v, dot (si_nb img) v (mv (si_nb img) W v) <> 0 <-> nonzero (si_nb img) v).
  { intros v. split; intros H.
    - apply dot_pos. destruct (Rle_lt_or_eq_dec _ _ (dot_self_nonneg (si_nb img) v)) as [L|L]; [exact L|].
      exfalso. apply H. symmetry in L. pose proof (dot_self_zero _ _ L) as Z. unfold dot.
      rewrite (bigsum_ext _ _ (fun _ => 0)); [apply bigsum_zero|]. intros i Hi. rewrite (Z i Hi). ring.
    - specialize (P v H). lra. }
  rewrite !X. reflexivity.
Qed.
Print Assumptions C19_defined.

(** Default mean and covariance, masked or not *)
Theorem C19_default_range : forall inv img t mask sc s r,
  inv_contract (si_nb img) inv ->
  ace inv img t None None mask = Ok sc -> sc s = Fin r -> 0 <= r <= 1.
Proof.
  intros inv img t mask sc s r Hi H E.
  destruct (ace_default _ _ _ _ _ H) as [_ [(mu & C & W & M & HC & HW & HA)|(_ & _ & N)]]; [|rewrite N in E; discriminate].
  apply (C19_range inv img t mu W mask sc s r); auto.
  - apply (inverse_sym _ C); [eapply cov_symm; eauto|apply Hi; exact HW].
  - apply (inverse_psd _ C); [eapply cov_symm; eauto|eapply cov_psd; eauto|apply Hi; exact HW].
Qed.
Print Assumptions C19_default_range.

(** 1 exactly on the non-zero multiples of the target contrast *)
Theorem C19_one_iff_multiple : forall inv img t mu W mask sc s,
  symmetric (si_nb img) W -> pd (si_nb img) W -> nonzero (si_nb img) (vsub t mu) ->
  ace inv img t (Some mu) (Some W) mask = Ok sc ->
  (sc s = Fin 1 <-> nonzero_multiple (si_nb img) (vsub (si_px img s) mu) (vsub t mu)).
Proof.
  intros inv img t mu W mask sc s HS P Ht H. rewrite ace_explicit in H. injection H as <-. split.
  - exact (ace_value_one _ W _ _ HS P).
  - exact (ace_value_multiple _ W _ _ P Ht).
Qed.
Print Assumptions C19_one_iff_multiple.

(** The lengths of the target and pixel contrasts (any non-zero factors, one per pixel)
    do not matter *)
Theorem C19_scale_invariant : forall img t W (k : nat -> R) c,
  c <> 0 -> (forall s, k s <> 0) ->
  forall s, ace_demeaned (mkSimg (si_m img) (si_nb img) (fun s => vscale (k s) (si_px img s))) (vscale c t) W s =
            ace_demeaned img t W s.
Proof. intros img t W k c Hc Hk s. rewrite !ace_demeaned_eq. exact (ace_value_scale _ W t (si_px img s) c (k s) Hc (Hk s)). Qed.
Print Assumptions C19_scale_invariant.

(** ACE of raw data is ACE of the demeaned data and target *)
Theorem C19_ace_is_ace_demeaned : forall inv img t mu W mask sc,
  ace inv img t (Some mu) (Some W) mask = Ok sc ->
  forall s, sc s = ace_demeaned (map_pixels (fun x => vsub x mu) img) (vsub t mu) W s.
Proof. exact ace_is_ace_demeaned. Qed.
Print Assumptions C19_ace_is_ace_demeaned.

Theorem C19_default_is_ace_demeaned : forall inv img t mask sc d mu C W,
  (2 <= length (kept mask (si_m img)))%nat ->
  ace inv img t None None mask = Ok sc ->
  demean_image_data img mask = Some d -> spectral_mean img mask = Some mu ->
  spectral_covariance img mask = Some C -> inv C = Some W ->
  forall s, sc s = ace_demeaned d (vsub t mu) W s.
Proof.
  intros inv img t mask sc d mu C W L H D M HC HW s.
  destruct (ace_default _ _ _ _ _ H) as [_ [(mu' & C' & W' & M' & HC' & HW' & HA)|(_ & L' & _)]]; [|lia].
  rewrite M in M'. injection M' as <-. rewrite HC in HC'. injection HC' as <-. rewrite HW in HW'. injection HW' as <-.
  rewrite (ace_is_ace_demeaned _ _ _ _ _ _ _ HA s). unfold demean_image_data in D. rewrite M in D. injection D as <-. reflexivity.
Qed.
Print Assumptions C19_default_is_ace_demeaned.

Lemma eye2_pd : pd 2 eye.
Proof.
  intros v (i & Hi & Hv). unfold dot, mv, eye, bigsum; simpl.
  destruct i as [|[|i]]; try lia; nra.
Qed.
Example C19_ex : exists sc, ace inv2 ex_img (fun b => match b with 0%nat => 6 | _ => 0 end) (Some (fun _ => 0)) (Some eye) None = Ok sc
  /\ sc 1%nat = Fin 1 /\ sc 2%nat = Fin 0 /\ sc 0%nat = NonFinite.
Proof.
  eexists. split; [reflexivity|]. unfold bigsum, eye; simpl. repeat split.
  - rewrite fdiv_nz; [f_equal; field|lra].
  - rewrite fdiv_nz; [f_equal; field|lra].
  - unfold fdiv. rewrite Reqb_true; [reflexivity|ring].
Qed.

(** Without an inverse covariance: a single sample gives no number as score; at most one
    sample outside the mask, or a covariance that cannot be inverted, raises LinAlgError *)
Theorem C19_default_degenerate : forall inv img t mean, si_nb img <> 1%nat ->
  ((si_m img <= 1)%nat -> exists sc, ace inv img t mean None None = Ok sc /\ forall s, sc s = NonFinite) /\
  (forall k, (length (kept (Some k) (si_m img)) <= 1)%nat -> ace inv img t mean None (Some k) = Err OtherError) /\
  (forall mask C, spectral_covariance img mask = Some C -> inv C = None -> ace inv img t mean None mask = Err OtherError).
Proof.
  intros inv img t mean N. unfold ace, inv_covariance. destruct (Nat.eqb_spec (si_nb img) 1) as [|_]; [contradiction|]. split; [|split].
  - intros L. replace (spectral_covariance img None) with (@None mat).
    + cbn [bind is_masked]. eexists. split; [destruct mean; [|destruct (spectral_mean img None)]; reflexivity|reflexivity].
    + unfold spectral_covariance. destruct (spectral_mean img None); [|reflexivity]. rewrite count_none. destruct (Nat.leb_spec (si_m img) 1); [reflexivity|lia].
  - intros k L. replace (spectral_covariance img (Some k)) with (@None mat); [reflexivity|].
    unfold spectral_covariance. destruct (spectral_mean img (Some k)); [|reflexivity]. rewrite count_kept_length.
    destruct (Nat.leb_spec (length (kept (Some k) (si_m img))) 1); [reflexivity|lia].
  - intros mask C -> ->. reflexivity.
Qed.
Print Assumptions C19_default_degenerate.

(* ---------------- C20: SAM ---------------------------------------- *)

Theorem C20_range : forall img t s r, sam img t s = Fin r -> -1 <= r <= 1.
Proof. intros img t s r. exact (sam_value_range _ t (si_px img s) r). Qed.
Print Assumptions C20_range.

(** The score is the cosine of the angle between the two spectra *)
Theorem C20_cosine : forall img t s r, sam img t s = Fin r ->
  dot (si_nb img) t (si_px img s) =
  r * (sqrt (dot (si_nb img) t t) * sqrt (dot (si_nb img) (si_px img s) (si_px img s))).
Proof.
  intros img t s r H. rewrite sam_eq in H. unfold sam_value, fdiv in H.
  destruct (Reqb_spec (sqrt (dot (si_nb img) t t) * sqrt (dot (si_nb img) (si_px img s) (si_px img s))) 0) as [E|E]; [discriminate|].
  injection H as <-. field. split; intros Z; apply E; rewrite Z; ring.
Qed.
Print Assumptions C20_cosine.

Theorem C20_defined : forall img t s,
  (exists r, sam img t s = Fin r) <-> nonzero (si_nb img) t /\ nonzero (si_nb img) (si_px img s).
Proof. intros img t s. exact (sam_value_defined _ t (si_px img s)). Qed.
Print Assumptions C20_defined.

Theorem C20_one_iff_same_direction : forall img t s,
  nonzero (si_nb img) t ->
  (sam img t s = Fin 1 <-> positive_multiple (si_nb img) (si_px img s) t).
Proof. intros img t s. exact (sam_value_one _ t (si_px img s)). Qed.
Print Assumptions C20_one_iff_same_direction.

Theorem C20_scale_invariant : forall img t (k : nat -> R) c,
  0 < c -> (forall s, 0 < k s) ->
  forall s, sam (mkSimg (si_m img) (si_nb img) (fun s => vscale (k s) (si_px img s))) (vscale c t) s = sam img t s.
Proof. intros img t k c Hc Hk s. exact (sam_value_scale _ t (si_px img s) c (k s) Hc (Hk s)). Qed.
Print Assumptions C20_scale_invariant.

(** Negating a pixel negates its score *)
Theorem C20_negation : forall img t s,
  sam (map_pixels (vscale (-1)) img) t s = fmap Ropp (sam img t s).
Proof. intros img t s. exact (sam_value_neg _ t (si_px img s)). Qed.
Print Assumptions C20_negation.

Example C20_ex : sam ex_img (fun b => match b with 0%nat => 2 | _ => 0 end) 1 = Fin 1 /\
                 sam ex_img (fun b => match b with 0%nat => 2 | _ => 0 end) 2 = Fin 0 /\
                 sam ex_img (fun _ => 0) 2 = NonFinite.
Proof.
  repeat split.
  - apply C20_one_iff_same_direction; [exists 0%nat; simpl; split; [lia|lra]|].
    exists (3 / 2). split; [lra|]. intros i Hi. simpl in Hi. unfold vscale. destruct i as [|[|i]]; simpl; try lia; lra.
  - rewrite sam_eq. unfold sam_value. unfold dot at 1. unfold bigsum; simpl.
    rewrite fdiv_nz; [f_equal; unfold Rdiv; ring|].
    apply Rgt_not_eq, Rmult_gt_0_compat; apply sqrt_lt_R0; unfold dot, bigsum; simpl; lra.
  - rewrite sam_eq. unfold sam_value, dot, bigsum; simpl. unfold fdiv. rewrite Reqb_true; [reflexivity|].
    replace (0 * 0 + (0 * 0 + 0)) with 0 by ring. rewrite sqrt_0. ring.
Qed.

(* ---------------- C21: 2-D = 1-D ---------------------------------- *)

Theorem C21_flatten_unflatten : forall c,
  exists c', unflatten_image_cube (flatten_image_cube c) (sc_nx c) (sc_ny c) = Ok c' /\ scube_eq c' c.
Proof. exact unflatten_flatten_cube. Qed.
Print Assumptions C21_flatten_unflatten.

Theorem C21_unflatten_flatten : forall img nx ny c,
  unflatten_image_cube img nx ny = Ok c -> (0 < si_nb img)%nat ->
  si_m (flatten_image_cube c) = si_m img /\ si_nb (flatten_image_cube c) = si_nb img /\
  forall s i, (s < si_m img)%nat -> si_px (flatten_image_cube c) s i = si_px img s i.
Proof. exact flatten_unflatten_cube. Qed.
Print Assumptions C21_unflatten_flatten.

(** Row-major: sample y*nx + x is pixel (y, x) *)
Theorem C21_flat_order : forall c y x i,
  (y < sc_ny c)%nat -> (x < sc_nx c)%nat ->
  si_px (flatten_image_cube c) (y * sc_nx c + x) i = sc_px c y x i.
Proof. exact flatten_px. Qed.
Print Assumptions C21_flat_order.

Theorem C21_sam : forall c t y x,
  (y < sc_ny c)%nat -> (x < sc_nx c)%nat -> sam_2d c t y x = sam (pixel_image c y x) t 0.
Proof. exact sam_2d_pixel. Qed.
Print Assumptions C21_sam.

Theorem C21_ace_demeaned : forall c t W y x,
  (y < sc_ny c)%nat -> (x < sc_nx c)%nat ->
  ace_demeaned_2d c t W y x = ace_demeaned (pixel_image c y x) t W 0.
Proof. exact ace_demeaned_2d_pixel. Qed.
Print Assumptions C21_ace_demeaned.

Theorem C21_rx : forall inv c mu W,
  exists sc, rx_anomaly_detector_2d inv c (Some mu) (Some W) = Ok sc /\
  forall y x, (y < sc_ny c)%nat -> (x < sc_nx c)%nat ->
    exists sc1, rx_anomaly_detector inv (pixel_image c y x) (Some mu) (Some W) = Ok sc1 /\ sc y x = sc1 0%nat.
Proof. exact rx_2d_pixel. Qed.
Print Assumptions C21_rx.

Theorem C21_ace : forall inv c t mu W mask,
  exists sc, ace_2d inv c t (Some mu) (Some W) mask = Ok sc /\
  forall y x, (y < sc_ny c)%nat -> (x < sc_nx c)%nat ->
    exists sc1, ace inv (pixel_image c y x) t (Some mu) (Some W) None = Ok sc1 /\ sc y x = sc1 0%nat.
Proof. exact ace_2d_pixel. Qed.
Print Assumptions C21_ace.

(** Default statistics: the mean and covariance over all rows and columns *)
Theorem C21_mean : forall c mu, spectral_mean_2d c None = Some mu -> forall b,
  mu b = bigsum (sc_ny c) (fun y => bigsum (sc_nx c) (fun x => sc_px c y x b)) / (INR (sc_ny c) * INR (sc_nx c)).
Proof. exact mean_2d. Qed.
Print Assumptions C21_mean.
Theorem C21_masked_mean : forall c k mu, spectral_mean_2d c (Some k) = Some mu -> forall b,
  mu b = bigsum (sc_ny c) (fun y => bigsum (sc_nx c) (fun x => if k y x then 0 else sc_px c y x b))
       / bigsum (sc_ny c) (fun y => bigsum (sc_nx c) (fun x => if k y x then 0 else 1)).
Proof. exact mean_2d_masked. Qed.
Print Assumptions C21_masked_mean.
Theorem C21_covariance : forall c C, spectral_covariance_2d c None = Some C ->
  exists mu, spectral_mean_2d c None = Some mu /\ forall i j,
  C i j = bigsum (sc_ny c) (fun y => bigsum (sc_nx c) (fun x => (sc_px c y x i - mu i) * (sc_px c y x j - mu j)))
          / (INR (sc_ny c) * INR (sc_nx c) - 1).
Proof. exact cov_2d. Qed.
Print Assumptions C21_covariance.
Theorem C21_rx_default : forall inv c sc,
  rx_anomaly_detector_2d inv c None None = Ok sc -> (2 <= sc_ny c * sc_nx c)%nat ->
  exists mu C W, spectral_mean_2d c None = Some mu /\ spectral_covariance_2d c None = Some C /\ inv C = Some W /\
    rx_anomaly_detector_2d inv c (Some mu) (Some W) = Ok sc.
Proof. exact rx_2d_default. Qed.
Print Assumptions C21_rx_default.
Theorem C21_masked_covariance : forall c k C, spectral_covariance_2d c (Some k) = Some C ->
  exists mu, spectral_mean_2d c (Some k) = Some mu /\ forall i j,
  C i j = bigsum (sc_ny c) (fun y => bigsum (sc_nx c) (fun x => if k y x then 0 else (sc_px c y x i - mu i) * (sc_px c y x j - mu j)))
          / (bigsum (sc_ny c) (fun y => bigsum (sc_nx c) (fun x => if k y x then 0 else 1)) - 1).
Proof. exact cov_2d_masked. Qed.
Print Assumptions C21_masked_covariance.
(** With the default statistics, ACE uses the mean and covariance of the unmasked pixels *)
Theorem C21_ace_default : forall inv c t mask sc,
  ace_2d inv c t None None mask = Ok sc -> spectral_covariance_2d c mask <> None ->
  exists mu C W, spectral_mean_2d c mask = Some mu /\ spectral_covariance_2d c mask = Some C /\ inv C = Some W /\
    ace_2d inv c t (Some mu) (Some W) mask = Ok sc.
Proof. exact ace_2d_default. Qed.
Print Assumptions C21_ace_default.
Theorem C21_demean : forall c mask d, demean_image_data_2d c mask = Ok (Some d) ->
  exists mu, spectral_mean_2d c mask = Some mu /\ sc_ny d = sc_ny c /\ sc_nx d = sc_nx c /\ sc_nb d = sc_nb c /\
  forall y x b, (y < sc_ny c)%nat -> (x < sc_nx c)%nat -> sc_px d y x b = sc_px c y x b - mu b.
Proof. exact demean_2d. Qed.
Print Assumptions C21_demean.

(** The 2-D transform matrix is the 1-D one when both masks are given, and raises when
    one is left to its documented default None *)
Theorem C21_cov_eq_matrix : forall fpow c1 c2 k1 k2,
  compute_cov_eq_linear_transform_matrix_2d fpow c1 c2 (Some k1) (Some k2) =
  compute_cov_eq_linear_transform_matrix fpow (flatten_image_cube c1) (flatten_image_cube c2)
    (Some (fun s => k1 (s / sc_nx c1)%nat (s mod sc_nx c1)%nat)) (Some (fun s => k2 (s / sc_nx c2)%nat (s mod sc_nx c2)%nat)).
Proof. reflexivity. Qed.
Print Assumptions C21_cov_eq_matrix.
Theorem C21_cov_eq_matrix_default_mask_raises : forall fpow c1 c2 mask1 mask2,
  mask1 = None \/ mask2 = None ->
  compute_cov_eq_linear_transform_matrix_2d fpow c1 c2 mask1 mask2 = Err AttributeError.
Proof. intros fpow c1 c2 [k1|] [k2|] [H|H]; try discriminate; reflexivity. Qed.
Print Assumptions C21_cov_eq_matrix_default_mask_raises.

(** The 2-D covariance equalisation gives a cube of the same shape whose 2-D covariance is
    that of the second cube (contract of the fractional powers as in C22) *)
Theorem C21_cov_eq : forall fpow c1 c2 m1 m2 C1 C2,
  spectral_covariance_2d c1 m1 = Some C1 -> spectral_covariance_2d c2 m2 = Some C2 ->
  sc_nb c2 = sc_nb c1 -> sc_nb c1 <> 1%nat ->
  is_sqrt (sc_nb c1) C2 (fpow C2 (1 / 2)) -> is_inv_sqrt (sc_nb c1) C1 (fpow C1 (- (1 / 2))) ->
  exists e C', covariance_equalization_mean_centered_2d fpow c1 c2 m1 m2 = Ok (Some e) /\
    sc_ny e = sc_ny c1 /\ sc_nx e = sc_nx c1 /\ sc_nb e = sc_nb c1 /\
    spectral_covariance_2d e m1 = Some C' /\ meq (sc_nb c1) C' C2.
Proof. exact cov_eq_2d_result. Qed.
Print Assumptions C21_cov_eq.
(** and every pixel of it is the 1-D transform matrix applied to that pixel *)
Theorem C21_cov_eq_pixels : forall fpow c1 c2 m1 m2 e,
  covariance_equalization_mean_centered_2d fpow c1 c2 m1 m2 = Ok (Some e) ->
  exists L, compute_cov_eq_linear_transform_matrix fpow (flatten_image_cube c1) (flatten_image_cube c2)
     (option_map (fun k s => k (s / sc_nx c1)%nat (s mod sc_nx c1)%nat) m1)
     (option_map (fun k s => k (s / sc_nx c2)%nat (s mod sc_nx c2)%nat) m2) = Ok (Some L) /\
  forall y x b, (y < sc_ny c1)%nat -> (x < sc_nx c1)%nat -> sc_px e y x b = bigsum (sc_nb c1) (fun j => L b j * sc_px c1 y x j).
Proof. exact cov_eq_2d_pixels. Qed.
Print Assumptions C21_cov_eq_pixels.

Definition ex_cube : scube := mkScube 2 3 2 (fun y x b => INR (y * 6 + x * 2 + b)).
Example C21_ex : si_px (flatten_image_cube ex_cube) 4 1 = 9 /\
  exists mu, spectral_mean_2d ex_cube None = Some mu /\ mu 1%nat = 6.
Proof. split; [simpl; lra|]. eexists. split; [reflexivity|]. unfold bigsum, weight; simpl. field. Qed.

Example C21_masked_ex : exists C, spectral_covariance_2d ex_cube (Some (fun y x => Nat.eqb y 1 && Nat.eqb x 2)) = Some C /\
  C 0%nat 1%nat <> 0.
Proof.
  eexists. split; [reflexivity|]. unfold bigsum, weight; simpl. apply Rgt_not_eq. apply Rdiv_lt_0_compat; lra.
Qed.

(* ---------------- C22: covariance equalisation -------------------- *)

(** A flat image that does not hold ny * nx spectra cannot be given the shape of a scene. *)
Theorem C21_unflatten_refused : forall img nx ny, (0 < si_nb img)%nat ->
  (si_m img <> (ny * nx)%nat <-> unflatten_image_cube img nx ny = Err ValueError).
Proof.
  intros img nx ny HB. unfold unflatten_image_cube. destruct (Nat.eqb_spec (si_m img * si_nb img) (ny * nx * si_nb img)) as [E|E].
  - apply Nat.mul_cancel_r in E; [|lia]. split; [congruence|discriminate].
  - split; [reflexivity|]. intros _ H. apply E. rewrite H. reflexivity.
Qed.
Print Assumptions C21_unflatten_refused.
Example C21_unflatten_refused_met : let img := mkSimg 5 2 (fun s b => INR (s + b)) in
  (0 < si_nb img)%nat /\ si_m img <> (2 * 3)%nat.
Proof. cbn. split; lia. Qed.

(** For every pair of scenes with defined covariances, at least two bands, any masks: if
    the routine for fractional powers returned a symmetric square root of cov_2 and a
    symmetric inverse square root of cov_1, the equalised scene 1 has covariance cov_2 *)
Theorem C22_equalised_covariance : forall fpow img1 img2 m1 m2 C1 C2,
  spectral_covariance img1 m1 = Some C1 -> spectral_covariance img2 m2 = Some C2 ->
  si_nb img2 = si_nb img1 -> si_nb img1 <> 1%nat ->
  is_sqrt (si_nb img1) C2 (fpow C2 (1 / 2)) -> is_inv_sqrt (si_nb img1) C1 (fpow C1 (- (1 / 2))) ->
  exists e C', covariance_equalization_mean_centered fpow img1 img2 m1 m2 = Ok (Some e) /\
    si_m e = si_m img1 /\ si_nb e = si_nb img1 /\
    spectral_covariance e m1 = Some C' /\ meq (si_nb img1) C' C2.
Proof. exact cov_eq_result. Qed.
Print Assumptions C22_equalised_covariance.

(** A mean-centred input stays mean-centred *)
Theorem C22_stays_centred : forall fpow img1 img2 m1 m2 e mu,
  covariance_equalization_mean_centered fpow img1 img2 m1 m2 = Ok (Some e) ->
  spectral_mean img1 m1 = Some mu -> veq (si_nb img1) mu (fun _ => 0) ->
  exists mu', spectral_mean e m1 = Some mu' /\ veq (si_nb img1) mu' (fun _ => 0).
Proof. exact cov_eq_mean_zero. Qed.
Print Assumptions C22_stays_centred.

Theorem C22_one_band_raises : forall fpow img1 img2 m1 m2,
  si_nb img1 = 1%nat -> covariance_equalization_mean_centered fpow img1 img2 m1 m2 = Err ValueError.
Proof.
  intros fpow img1 img2 m1 m2 H. unfold covariance_equalization_mean_centered, compute_cov_eq_linear_transform_matrix.
  rewrite H. reflexivity.
Qed.
Print Assumptions C22_one_band_raises.

(** Scenes with different numbers of bands, and unmasked scenes of fewer than two samples, are
    refused *)
Theorem C22_refused : forall fpow img1 img2 m1 m2,
  si_nb img1 <> si_nb img2 \/ (m1 = None /\ (si_m img1 <= 1)%nat) \/ (m2 = None /\ (si_m img2 <= 1)%nat) \/ si_nb img2 = 1%nat ->
  covariance_equalization_mean_centered fpow img1 img2 m1 m2 = Err ValueError.
Proof.
  intros fpow img1 img2 m1 m2 H.
  assert (NC : forall i, (si_m i <= 1)%nat -> spectral_covariance i None = None).
  { intros i L. unfold spectral_covariance. destruct (spectral_mean i None); [|reflexivity]. rewrite count_none. destruct (Nat.leb_spec (si_m i) 1); [reflexivity|lia]. }
  unfold covariance_equalization_mean_centered, compute_cov_eq_linear_transform_matrix.
  destruct (Nat.eqb_spec (si_nb img1) 1) as [|N1]; [reflexivity|]. destruct (Nat.eqb_spec (si_nb img2) 1) as [|N2]; [reflexivity|]. cbn [orb].
  destruct H as [H|[[-> H]|[[-> H]|H]]]; [| | |contradiction].
  - match goal with |- context [if ?b then _ else _] => destruct b end; [reflexivity|].
    destruct (Nat.eqb_spec (si_nb img1) (si_nb img2)); [contradiction|]. reflexivity.
  - rewrite (NC _ H). reflexivity.
  - rewrite (NC _ H). cbn [is_masked negb]. rewrite orb_true_r. reflexivity.
Qed.
Print Assumptions C22_refused.

(** Scenes with covariances (2/3) I and (8/3) I *)
Definition ex_scene (k : R) : simg :=
  mkSimg 4 2 (fun s b => match s, b with 0%nat, 0%nat => k | 1%nat, 0%nat => - k | 2%nat, 1%nat => k | 3%nat, 1%nat => - k | _, _ => 0 end).
Definition ex_fpow (C : mat) (p : R) : mat :=
  fun i j => if Nat.eqb i j then (if Rltb 0 p then sqrt (C i i) else / sqrt (C i i)) else 0.
Example C22_ex : exists C1 C2,
  spectral_covariance (ex_scene 1) None = Some C1 /\ spectral_covariance (ex_scene 2) None = Some C2 /\
  is_sqrt 2 C2 (ex_fpow C2 (1 / 2)) /\ is_inv_sqrt 2 C1 (ex_fpow C1 (- (1 / 2))) /\
  C1 0%nat 0%nat = 2 / 3 /\ C2 0%nat 0%nat = 8 / 3.
Proof.
  assert (X : forall k, exists C, spectral_covariance (ex_scene k) None = Some C /\
     meq 2 C (fun i j => if Nat.eqb i j then 2 * (k * k) / 3 else 0)).
  { intros k. eexists. split; [reflexivity|]. intros i j Hi Hj.
    destruct i as [|[|i]]; try lia; destruct j as [|[|j]]; try lia; unfold bigsum, weight; simpl; field. }
  destruct (X 1) as (C1 & H1 & E1). destruct (X 2) as (C2 & H2 & E2). exists C1, C2. split; [exact H1|]. split; [exact H2|].
  assert (S1 : forall i, (i < 2)%nat -> sqrt (C1 i i) * sqrt (C1 i i) = 2 / 3).
  { intros i Hi. rewrite E1 by exact Hi. rewrite Nat.eqb_refl. rewrite sqrt_sqrt; lra. }
  assert (S2 : forall i, (i < 2)%nat -> sqrt (C2 i i) * sqrt (C2 i i) = 8 / 3).
  { intros i Hi. rewrite E2 by exact Hi. rewrite Nat.eqb_refl. rewrite sqrt_sqrt; lra. }
  assert (P1 : forall i, (i < 2)%nat -> sqrt (C1 i i) <> 0).
  { intros i Hi Z. specialize (S1 i Hi). rewrite Z in S1. lra. }
  split; [|split; [|split]].
  - split; intros i j Hi Hj; unfold trans, ex_fpow, mm, bigsum; simpl seq; cbn [map rsum fold_right]; rewrite !Rltb_true by lra.
    + rewrite Nat.eqb_sym. destruct (Nat.eqb_spec j i) as [->|]; reflexivity.
    + rewrite (E2 i j Hi Hj). pose proof (S2 0%nat ltac:(lia)). pose proof (S2 1%nat ltac:(lia)).
      destruct i as [|[|i]]; try lia; destruct j as [|[|j]]; try lia; simpl; lra.
  - split; intros i j Hi Hj; unfold trans, ex_fpow, mm, bigsum, eye; simpl seq; cbn [map rsum fold_right]; rewrite !Rltb_false by lra.
    + rewrite Nat.eqb_sym. destruct (Nat.eqb_spec j i) as [->|]; reflexivity.
    + pose proof (S1 0%nat ltac:(lia)) as Q0. pose proof (S1 1%nat ltac:(lia)) as Q1.
      rewrite (E1 0%nat 0%nat), (E1 0%nat 1%nat), (E1 1%nat 0%nat), (E1 1%nat 1%nat) in * by lia. simpl in *.
      assert (Hs : sqrt (2 * (1 * 1) / 3) <> 0) by (intros Z; rewrite Z in Q0; lra).
      destruct i as [|[|i]]; try lia; destruct j as [|[|j]]; try lia; simpl;
        rewrite ?(E1 0%nat 0%nat), ?(E1 1%nat 1%nat) by lia; simpl;
        try (set (q := sqrt (2 * (1 * 1) / 3)) in *; replace (2 * (1 * 1) / 3) with (q * q) by lra; field; exact Hs); ring.
  - rewrite E1 by lia. simpl. field.
  - rewrite E2 by lia. simpl. field.
Qed.
