(** C115: detectors on parts of an image. *)
From Verif Require Import M_Spectral Spec_Spectral Spec_TiledScores P_Spectral Prop_Spectral Prop_Invariance.
Open Scope R_scope.

(** SAM, ACE of demeaned data, and RX and ACE with the statistics given: the scores of a part are that part of the scores. *)
Theorem C115_parts : forall inv c t mu W mask mask' r0 c0 h w, part_of c r0 c0 h w ->
  let p := crop c r0 c0 h w in
  part_scores r0 c0 h w (sam_2d p t) (sam_2d c t) /\
  part_scores r0 c0 h w (ace_demeaned_2d p t W) (ace_demeaned_2d c t W) /\
  (exists s s', rx_anomaly_detector_2d inv c (Some mu) (Some W) = Ok s /\ rx_anomaly_detector_2d inv p (Some mu) (Some W) = Ok s' /\ part_scores r0 c0 h w s' s) /\
  (exists s s', ace_2d inv c t (Some mu) (Some W) mask = Ok s /\ ace_2d inv p t (Some mu) (Some W) mask' = Ok s' /\ part_scores r0 c0 h w s' s).
Proof.
  intros inv c t mu W mask mask' r0 c0 h w [P1 P2] p. split; [|split; [|split]].
  - intros y x Hy Hx. rewrite (C21_sam p t y x Hy Hx), (C21_sam c t (r0 + y) (c0 + x)) by lia. reflexivity.
  - intros y x Hy Hx. rewrite (C21_ace_demeaned p t W y x Hy Hx), (C21_ace_demeaned c t W (r0 + y) (c0 + x)) by lia. reflexivity.
  - destruct (C21_rx inv c mu W) as (s & E & V). destruct (C21_rx inv p mu W) as (s' & E' & V'). exists s, s'. split; [exact E|]. split; [exact E'|].
    intros y x Hy Hx. destruct (V' y x Hy Hx) as (q & Q & ->). destruct (V (r0 + y)%nat (c0 + x)%nat ltac:(lia) ltac:(lia)) as (q' & Q' & ->).
    change (pixel_image p y x) with (pixel_image c (r0 + y) (c0 + x)) in Q. rewrite Q in Q'. injection Q' as <-. reflexivity.
  - destruct (C21_ace inv c t mu W mask) as (s & E & V). destruct (C21_ace inv p t mu W mask') as (s' & E' & V'). exists s, s'. split; [exact E|]. split; [exact E'|].
    intros y x Hy Hx. destruct (V' y x Hy Hx) as (q & Q & ->). destruct (V (r0 + y)%nat (c0 + x)%nat ltac:(lia) ltac:(lia)) as (q' & Q' & ->).
    change (pixel_image p y x) with (pixel_image c (r0 + y) (c0 + x)) in Q. rewrite Q in Q'. injection Q' as <-. reflexivity.
Qed.
Print Assumptions C115_parts.

(** Hence an image can be scored part by part with the mean and the inverse covariance of the whole: the result is that of scoring the whole. *)
Theorem C115_whole_statistics : forall inv c t mask mu C W r0 c0 h w, part_of c r0 c0 h w -> sc_nb c <> 1%nat ->
  let p := crop c r0 c0 h w in
  (spectral_mean_2d c None = Some mu -> spectral_covariance_2d c None = Some C -> inv C = Some W ->
     exists s s', rx_anomaly_detector_2d inv c None None = Ok s /\ rx_anomaly_detector_2d inv p (Some mu) (Some W) = Ok s' /\ part_scores r0 c0 h w s' s) /\
  (spectral_mean_2d c mask = Some mu -> spectral_covariance_2d c mask = Some C -> inv C = Some W ->
     exists s s', ace_2d inv c t None None mask = Ok s /\ ace_2d inv p t (Some mu) (Some W) None = Ok s' /\ part_scores r0 c0 h w s' s).
Proof.
  intros inv c t mask mu C W r0 c0 h w P NB p. destruct (C115_parts inv c t mu W mask None r0 c0 h w P) as (_ & _ & RX & AC). fold p in RX, AC.
  split; intros HM HC HI.
  - destruct RX as (s & s' & E & E' & V). exists s, s'. split; [|split; [exact E'|exact V]]. rewrite <- E.
    unfold rx_anomaly_detector_2d, rx_anomaly_detector, inv_covariance. cbn [si_nb flatten_image_cube].
    destruct (Nat.eqb_spec (sc_nb c) 1) as [K|K]; [contradiction|].
    unfold spectral_mean_2d, spectral_covariance_2d in HM, HC. cbn [flatten_mask] in HM, HC. rewrite HM, HC, HI. reflexivity.
  - destruct AC as (s & s' & E & E' & V). exists s, s'. split; [|split; [exact E'|exact V]]. rewrite <- E.
    unfold ace_2d, ace, inv_covariance. cbn [si_nb flatten_image_cube].
    destruct (Nat.eqb_spec (sc_nb c) 1) as [K|K]; [contradiction|].
    unfold spectral_mean_2d, spectral_covariance_2d in HM, HC. rewrite HM, HC, HI. reflexivity.
Qed.
Print Assumptions C115_whole_statistics.

(** Without them it cannot: with the part's own statistics RX gives other scores. *)
Theorem C115_own_statistics_refuted : exists inv c r0 c0 h w s s', part_of c r0 c0 h w /\
  rx_anomaly_detector_2d inv c None None = Ok s /\ rx_anomaly_detector_2d inv (crop c r0 c0 h w) None None = Ok s' /\ ~ part_scores r0 c0 h w s' s.
Proof.
  set (c := mkScube 2 3 2 (fun _ x => si_px ex_img x)).
  pose proof C105_ex_inv as HI. destruct C18_ex_default as (sc & r & H & E).
  destruct (proj2 (C105_repeated inv2 2 ex_img (fun _ => 0) None ltac:(lia) HI) ltac:(simpl; lia) sc H) as (sc' & H' & E').
  assert (T : exists s1, rx_anomaly_detector inv2 (flatten_image_cube (crop c 0 0 1 3)) None None = Ok s1 /\ s1 0%nat = sc 0%nat).
  { unfold rx_anomaly_detector in H |- *.
    change (spectral_mean (flatten_image_cube (crop c 0 0 1 3)) None) with (spectral_mean ex_img None).
    change (spectral_covariance (flatten_image_cube (crop c 0 0 1 3)) None) with (spectral_covariance ex_img None).
    change (si_nb (flatten_image_cube (crop c 0 0 1 3))) with (si_nb ex_img).
    destruct (inv_covariance inv2 (si_nb ex_img) false (spectral_covariance ex_img None)) as [o| |]; cbn [bind] in H |- *; try discriminate.
    destruct (spectral_mean ex_img None) as [mu|]; [|injection H as <-; eexists; split; reflexivity].
    destruct o as [W|]; injection H as <-; eexists; split; reflexivity. }
  destruct T as (s1 & T1 & T2).
  exists inv2, c, 0%nat, 0%nat, 1%nat, 3%nat, (unflatten_scores 3 sc'), (unflatten_scores 3 s1). split; [split; cbn; lia|].
  split; [unfold rx_anomaly_detector_2d; change (flatten_image_cube c) with (Spec_Invariance.repeated 2 ex_img); rewrite H'; reflexivity|].
  split; [unfold rx_anomaly_detector_2d; rewrite T1; reflexivity|].
  intros K. specialize (K 0%nat 0%nat ltac:(lia) ltac:(lia)). unfold unflatten_scores in K. cbn [Nat.add Nat.mul] in K.
  rewrite T2, (E' 0%nat) in K. change (0 mod si_m ex_img)%nat with 0%nat in K.
  assert (V : sc 0%nat = Fin (4 / 3)).
  { destruct C17_ex as (C & HC & E00 & E01 & E11).
    assert (E10 : C 1%nat 0%nat = -3) by (rewrite (cov_symmetric _ _ _ HC); exact E01).
    unfold rx_anomaly_detector, inv_covariance in H. simpl Nat.eqb in H. cbv iota in H. rewrite HC in H.
    unfold inv2 in H. rewrite E00, E01, E10, E11 in H. rewrite Reqb_false in H by lra. simpl in H. injection H as <-.
    unfold bigsum, weight; simpl. f_equal. field. }
  rewrite V in K. cbn [fmap] in K. injection K as K. simpl in K. lra.
Qed.
Print Assumptions C115_own_statistics_refuted.

Lemma weighted_sum n f : bigsum n (fun s => weight None s * f s) = bigsum n f.
Proof. apply bigsum_ext. intros s _. unfold weight. cbn. lra. Qed.
Lemma weighted_products n f g u v : bigsum n (fun s => weight None s * ((f s - u) * (g s - v))) =
  bigsum n (fun s => f s * g s) - v * bigsum n f - u * bigsum n g + INR n * (u * v).
Proof.
  rewrite weighted_sum, <- !bigsum_scal, <- bigsum_const, <- !bigsum_minus, <- bigsum_plus. apply bigsum_ext. intros s _. lra.
Qed.
(** The statistics of the whole are those of an upper and a lower part put together: the means weighted by the numbers of pixels,
    and the covariances weighted by their degrees of freedom plus the scatter of the two means. *)
Theorem C115_pooled : forall c n1 n2 mu1 mu2 C1 C2, sc_ny c = (n1 + n2)%nat ->
  let up := crop c 0 0 n1 (sc_nx c) in let lo := crop c n1 0 n2 (sc_nx c) in
  let m1 := INR (n1 * sc_nx c) in let m2 := INR (n2 * sc_nx c) in
  spectral_mean_2d up None = Some mu1 -> spectral_covariance_2d up None = Some C1 ->
  spectral_mean_2d lo None = Some mu2 -> spectral_covariance_2d lo None = Some C2 ->
  exists mu C, spectral_mean_2d c None = Some mu /\ spectral_covariance_2d c None = Some C /\
  (forall b, mu b = (m1 * mu1 b + m2 * mu2 b) / (m1 + m2)) /\
  (forall i j, C i j = ((m1 - 1) * C1 i j + (m2 - 1) * C2 i j + m1 * m2 / (m1 + m2) * ((mu1 i - mu2 i) * (mu1 j - mu2 j))) / (m1 + m2 - 1)).
Proof.
  intros c n1 n2 mu1 mu2 C1 C2 HN up lo m1 m2 HM1 HC1 HM2 HC2.
  unfold spectral_mean_2d, spectral_covariance_2d, spectral_mean, spectral_covariance in *. cbn [flatten_mask] in *.
  rewrite !count_none in *. unfold spectral_mean in *. rewrite !count_none in *.
  cbn [flatten_image_cube si_m si_px up lo crop sc_ny sc_nx sc_px weight] in *.
  set (nx := sc_nx c) in *. rewrite HN.
  destruct (Nat.eqb_spec (n1 * nx) 0) as [Z1|Z1]; [discriminate|]. injection HM1 as <-.
  destruct (Nat.eqb_spec (n2 * nx) 0) as [Z2|Z2]; [discriminate|]. injection HM2 as <-.
  destruct (Nat.leb_spec (n1 * nx) 1) as [L1|L1]; [discriminate|]. injection HC1 as <-.
  destruct (Nat.leb_spec (n2 * nx) 1) as [L2|L2]; [discriminate|]. injection HC2 as <-.
  assert (NX : nx <> 0%nat) by (intros K; rewrite K in Z1; lia).
  rewrite Nat.mul_add_distr_r. destruct (Nat.eqb_spec (n1 * nx + n2 * nx) 0) as [Z|Z]; [lia|].
  destruct (Nat.leb_spec (n1 * nx + n2 * nx) 1) as [L|L]; [lia|].
  do 2 eexists. split; [reflexivity|]. split; [reflexivity|].
  set (p := fun s b => sc_px c (s / nx)%nat (s mod nx)%nat b).
  set (A := fun b => bigsum (n1 * nx) (fun s => p s b)). set (B2 := fun b => bigsum (n2 * nx) (fun s => p (n1 * nx + s)%nat b)).
  set (P1 := fun i j => bigsum (n1 * nx) (fun s => p s i * p s j)). set (P2 := fun i j => bigsum (n2 * nx) (fun s => p (n1 * nx + s)%nat i * p (n1 * nx + s)%nat j)).
  assert (HP : forall s b, sc_px c (n1 + s / nx)%nat (s mod nx)%nat b = p (n1 * nx + s)%nat b).
  { intros s b. unfold p. rewrite (Nat.add_comm (n1 * nx)), Nat.div_add by exact NX. rewrite Nat.mod_add by exact NX. f_equal. lia. }
  assert (S1 : forall b, bigsum (n1 * nx) (fun s => weight None s * sc_px c (s / nx)%nat (s mod nx)%nat b) = A b) by (intros b; apply weighted_sum).
  assert (S2 : forall b, bigsum (n2 * nx) (fun s => weight None s * sc_px c (n1 + s / nx)%nat (s mod nx)%nat b) = B2 b).
  { intros b. rewrite weighted_sum. apply bigsum_ext. intros s _. apply HP. }
  assert (S0 : forall b, bigsum (n1 * nx + n2 * nx) (fun s => weight None s * sc_px c (s / nx)%nat (s mod nx)%nat b) = A b + B2 b).
  { intros b. rewrite weighted_sum. apply bigsum_shift. }
  assert (Q1 : forall i j u v, bigsum (n1 * nx) (fun s => weight None s * ((sc_px c (s / nx)%nat (s mod nx)%nat i - u) * (sc_px c (s / nx)%nat (s mod nx)%nat j - v))) = P1 i j - v * A i - u * A j + m1 * (u * v)).
  { intros i j u v. apply (weighted_products (n1 * nx) (fun s => p s i) (fun s => p s j)). }
  assert (Q2 : forall i j u v, bigsum (n2 * nx) (fun s => weight None s * ((sc_px c (n1 + s / nx)%nat (s mod nx)%nat i - u) * (sc_px c (n1 + s / nx)%nat (s mod nx)%nat j - v))) = P2 i j - v * B2 i - u * B2 j + m2 * (u * v)).
  { intros i j u v. rewrite <- (weighted_products (n2 * nx) (fun s => p (n1 * nx + s)%nat i) (fun s => p (n1 * nx + s)%nat j)). apply bigsum_ext. intros s _. rewrite !HP. reflexivity. }
  assert (Q0 : forall i j u v, bigsum (n1 * nx + n2 * nx) (fun s => weight None s * ((sc_px c (s / nx)%nat (s mod nx)%nat i - u) * (sc_px c (s / nx)%nat (s mod nx)%nat j - v))) = P1 i j + P2 i j - v * (A i + B2 i) - u * (A j + B2 j) + (m1 + m2) * (u * v)).
  { intros i j u v. rewrite (weighted_products (n1 * nx + n2 * nx) (fun s => p s i) (fun s => p s j)), !bigsum_shift, plus_INR. reflexivity. }
  assert (M1 : 1 < m1) by (apply lt_INR in L1; exact L1). assert (M2 : 1 < m2) by (apply lt_INR in L2; exact L2).
  assert (MM : INR (n1 * nx + n2 * nx) = m1 + m2) by apply plus_INR.
  split.
  - intros b. rewrite S0, S1, S2, MM. fold m1 m2. field. lra.
  - intros i j. rewrite Q0, Q1, Q2, !S0, !S1, !S2, MM. fold m1 m2. field. lra.
Qed.
Print Assumptions C115_pooled.

(** An image of two rows whose two halves and whole have all the statistics asked for *)
Example C115_ex : let c := mkScube 2 3 2 (fun y x b => si_px ex_img x b + INR y) in
  part_of c 1 0 1 3 /\ sc_nb c <> 1%nat /\
  exists mu1 mu2 C1 C2 mu C, spectral_mean_2d (crop c 0 0 1 3) None = Some mu1 /\ spectral_covariance_2d (crop c 0 0 1 3) None = Some C1 /\
    spectral_mean_2d (crop c 1 0 1 3) None = Some mu2 /\ spectral_covariance_2d (crop c 1 0 1 3) None = Some C2 /\
    spectral_mean_2d c None = Some mu /\ spectral_covariance_2d c None = Some C /\ mu2 0%nat - mu1 0%nat = 1.
Proof.
  split; [split; cbn; lia|]. split; [cbn; lia|].
  unfold spectral_mean_2d, spectral_covariance_2d, spectral_covariance, spectral_mean. cbn [flatten_mask]. rewrite !count_none. cbn -[bigsum INR Nat.div Nat.modulo].
  do 6 eexists. repeat (split; [reflexivity|]). cbv beta. rewrite !weighted_sum. unfold bigsum. cbn. lra.
Qed.

Example C115_ex_inverse : let c := mkScube 2 3 2 (fun _ x => si_px ex_img x) in
  part_of c 0 0 1 3 /\ sc_nb c <> 1%nat /\ exists mu C W, spectral_mean_2d c None = Some mu /\ spectral_covariance_2d c None = Some C /\ inv2 C = Some W.
Proof.
  intros c. split; [split; cbn; lia|]. split; [cbn; lia|].
  destruct C18_ex_default as (sc & r & H & E).
  destruct (proj2 (C105_repeated inv2 2 ex_img (fun _ => 0) None ltac:(lia) C105_ex_inv) ltac:(simpl; lia) sc H) as (sc' & H' & E').
  change (Spec_Invariance.repeated 2 ex_img) with (flatten_image_cube c) in H'.
  unfold rx_anomaly_detector, inv_covariance in H'. cbn [si_nb flatten_image_cube sc_nb c Nat.eqb] in H'.
  unfold spectral_mean_2d, spectral_covariance_2d. cbn [flatten_mask].
  destruct (spectral_mean (flatten_image_cube c) None) as [mu|] eqn:HM; [|unfold spectral_mean in HM; rewrite count_none in HM; discriminate].
  destruct (spectral_covariance (flatten_image_cube c) None) as [C|] eqn:HC; [|unfold spectral_covariance in HC; rewrite HM, count_none in HC; discriminate].
  exists mu, C. destruct (inv2 C) as [W|] eqn:HW; [exists W; auto|]. discriminate.
Qed.

Lemma bigsum_strips rows nx n f : bigsum (strip_start rows n * nx) f =
  bigsum n (fun k => bigsum (rows k * nx) (fun s => f (strip_start rows k * nx + s)%nat)).
Proof.
  induction n as [|n IH]; [cbn [strip_start Nat.mul]; rewrite !bigsum_0; reflexivity|].
  cbn [strip_start]. rewrite Nat.mul_add_distr_r, bigsum_shift, bigsum_S, IH. reflexivity.
Qed.
Lemma INR_strips rows nx n : INR (strip_start rows n * nx) = bigsum n (fun k => INR (rows k * nx)).
Proof.
  induction n as [|n IH]; [rewrite bigsum_0; reflexivity|].
  cbn [strip_start]. rewrite Nat.mul_add_distr_r, plus_INR, bigsum_S, IH. reflexivity.
Qed.

Lemma strip_stats c r0 h mu1 C1 :
  spectral_mean_2d (crop c r0 0 h (sc_nx c)) None = Some mu1 -> spectral_covariance_2d (crop c r0 0 h (sc_nx c)) None = Some C1 ->
  let m := INR (h * sc_nx c) in let p s b := sc_px c (s / sc_nx c)%nat (s mod sc_nx c)%nat b in
  (2 <= h * sc_nx c)%nat /\
  (forall b, bigsum (h * sc_nx c) (fun s => p (r0 * sc_nx c + s)%nat b) = m * mu1 b) /\
  (forall i j u v, bigsum (h * sc_nx c) (fun s => weight None (r0 * sc_nx c + s) * ((p (r0 * sc_nx c + s)%nat i - u) * (p (r0 * sc_nx c + s)%nat j - v))) =
     (m - 1) * C1 i j + m * ((mu1 i - u) * (mu1 j - v))).
Proof.
  intros HM HC m p. unfold spectral_mean_2d, spectral_covariance_2d, spectral_mean, spectral_covariance in *. cbn [flatten_mask] in *.
  rewrite !count_none in *. unfold spectral_mean in *. rewrite !count_none in *.
  cbn [flatten_image_cube si_m si_px crop sc_ny sc_nx sc_px Nat.add] in *.
  set (nx := sc_nx c) in *.
  destruct (Nat.eqb_spec (h * nx) 0) as [Z1|Z1]; [discriminate|]. injection HM as <-.
  destruct (Nat.leb_spec (h * nx) 1) as [L1|L1]; [discriminate|]. injection HC as <-.
  assert (NX : nx <> 0%nat) by (intros K; rewrite K in Z1; lia).
  assert (HP : forall s b, sc_px c (r0 + s / nx)%nat (s mod nx)%nat b = p (r0 * nx + s)%nat b).
  { intros s b. unfold p. rewrite (Nat.add_comm (r0 * nx)), Nat.div_add by exact NX. rewrite Nat.mod_add by exact NX. f_equal. lia. }
  assert (M1 : 1 < m) by (apply lt_INR in L1; exact L1).
  set (A := fun b => bigsum (h * nx) (fun s => p (r0 * nx + s)%nat b)).
  assert (S1 : forall b, bigsum (h * nx) (fun s => weight None s * sc_px c (r0 + s / nx)%nat (s mod nx)%nat b) = A b).
  { intros b. rewrite weighted_sum. apply bigsum_ext. intros s _. apply HP. }
  set (P := fun i j => bigsum (h * nx) (fun s => p (r0 * nx + s)%nat i * p (r0 * nx + s)%nat j)).
  assert (Q : forall i j u v, bigsum (h * nx) (fun s => weight None s * ((p (r0 * nx + s)%nat i - u) * (p (r0 * nx + s)%nat j - v))) = P i j - v * A i - u * A j + m * (u * v)).
  { intros i j u v. apply (weighted_products (h * nx) (fun s => p (r0 * nx + s)%nat i) (fun s => p (r0 * nx + s)%nat j)). }
  split; [lia|]. split.
  - intros b. rewrite S1. fold m. change (A b = m * (A b / m)). field. lra.
  - intros i j u v.
    assert (Q' : forall u v, bigsum (h * nx) (fun s => weight None s * ((sc_px c (r0 + s / nx)%nat (s mod nx)%nat i - u) * (sc_px c (r0 + s / nx)%nat (s mod nx)%nat j - v))) = P i j - v * A i - u * A j + m * (u * v)).
    { intros u' v'. rewrite <- Q. apply bigsum_ext. intros s _. rewrite !HP. reflexivity. }
    rewrite Q', !S1. fold m. transitivity (P i j - v * A i - u * A j + m * (u * v)); [exact (Q i j u v)|]. field. lra.
Qed.

(** The same for a stack of any number of strips *)
Theorem C115_pooled_strips : forall c rows n mus Cs, (1 <= n)%nat -> sc_ny c = strip_start rows n ->
  let strip k := crop c (strip_start rows k) 0 (rows k) (sc_nx c) in
  let pixels k := INR (rows k * sc_nx c) in
  (forall k, (k < n)%nat -> spectral_mean_2d (strip k) None = Some (mus k) /\ spectral_covariance_2d (strip k) None = Some (Cs k)) ->
  exists mu C, spectral_mean_2d c None = Some mu /\ spectral_covariance_2d c None = Some C /\
  (forall b, mu b = bigsum n (fun k => pixels k * mus k b) / bigsum n pixels) /\
  (forall i j, C i j = bigsum n (fun k => (pixels k - 1) * Cs k i j + pixels k * ((mus k i - mu i) * (mus k j - mu j))) / (bigsum n pixels - 1)).
Proof.
  intros c rows n mus Cs Hn HN strip pixels H.
  assert (HS : forall k, (k < n)%nat -> _) by exact (fun k Hk => strip_stats c (strip_start rows k) (rows k) (mus k) (Cs k) (proj1 (H k Hk)) (proj2 (H k Hk))).
  cbv zeta in HS.
  assert (T : (2 <= strip_start rows n * sc_nx c)%nat).
  { destruct n as [|n']; [lia|]. destruct (HS n' ltac:(lia)) as (K & _). cbn [strip_start]. rewrite Nat.mul_add_distr_r. lia. }
  unfold spectral_mean_2d, spectral_covariance_2d, spectral_mean, spectral_covariance. cbn [flatten_mask].
  rewrite !count_none. unfold spectral_mean. rewrite !count_none.
  cbn [flatten_image_cube si_m si_px]. rewrite HN.
  destruct (Nat.eqb_spec (strip_start rows n * sc_nx c) 0) as [Z|Z]; [lia|].
  destruct (Nat.leb_spec (strip_start rows n * sc_nx c) 1) as [L|L]; [lia|].
  do 2 eexists. split; [reflexivity|]. split; [reflexivity|]. cbv beta. rewrite INR_strips. fold pixels. split.
  - intros b. f_equal. rewrite weighted_sum, bigsum_strips. apply bigsum_ext. intros k Hk. apply (proj1 (proj2 (HS k Hk))).
  - intros i j. f_equal. rewrite bigsum_strips. apply bigsum_ext. intros k Hk. apply (proj2 (proj2 (HS k Hk))).
Qed.
Print Assumptions C115_pooled_strips.

(** Strips of one and two rows *)
Example C115_ex_strips : let c := mkScube 3 3 2 (fun y x b => si_px ex_img x b + INR y) in let rows k := S k in
  sc_ny c = strip_start rows 2 /\ exists mus Cs, forall k, (k < 2)%nat ->
    spectral_mean_2d (crop c (strip_start rows k) 0 (rows k) (sc_nx c)) None = Some (mus k) /\
    spectral_covariance_2d (crop c (strip_start rows k) 0 (rows k) (sc_nx c)) None = Some (Cs k).
Proof.
  intros c rows. split; [reflexivity|].
  set (strip := fun k => crop c (strip_start rows k) 0 (rows k) (sc_nx c)).
  exists (fun k => match spectral_mean_2d (strip k) None with Some v => v | None => fun _ => 0 end),
         (fun k => match spectral_covariance_2d (strip k) None with Some v => v | None => fun _ _ => 0 end).
  intros k Hk. fold (strip k).
  destruct k as [|[|k]]; [| |lia]; split; reflexivity.
Qed.
