(** C101: the geotiff point calculator in double precision. *)
From Coq Require Import Reals Lra Lia ZArith List.
From Flocq Require Import Core Relative.
From Verif Require Import Py RAux M_Cameras M_Dem M_FloatGeo Spec_Float Spec_Dem P_FloatSum P_Photo P_Mmi P_Dem P_Float M_Float.
Import ListNotations.
Open Scope R_scope.
Open Scope list_scope.

Lemma double_dfmt x : generic_format radix2 (FLT_exp (-1074) 53) (double x).
Proof. apply (rne_fmt (-1074) 53). Qed.

Lemma Rabs_le_bounds x a : Rabs x <= a -> - a <= x <= a.
Proof. intros H. pose proof (Rle_abs x). pose proof (Rle_abs (- x)) as Q. rewrite Rabs_Ropp in Q. lra. Qed.
Lemma Rabs_mult_le x y a b : Rabs x <= a -> Rabs y <= b -> Rabs (x * y) <= a * b.
Proof. intros. rewrite Rabs_mult. apply Rmult_le_compat; auto; apply Rabs_pos. Qed.

(** One axis, in terms of the relative errors *)
Lemma axis_core u G x e1 e4 e6 k t h4 h5 d : 0 <= u <= / 1000000 -> Rabs e1 <= u -> Rabs e4 <= u -> Rabs e6 <= u -> Rabs (k - 1) <= 301 / 100 * u ->
  Rabs t <= d -> Rabs h4 <= d -> Rabs h5 <= d ->
  Rabs ((- G * (1 + e4) + h4 + ((G + x * (1 + e1) + t) * k + h5)) * (1 + e6) - x) <= 6 * u * (Rabs x + Rabs G) + 6 * d.
Proof.
  intros Hu A1 A4 A6 AK AT AH4 AH5.
  set (D := G * (k - 1 - e4) + x * ((1 + e1) * k - 1) + t * k + h4 + h5).
  replace ((- G * (1 + e4) + h4 + ((G + x * (1 + e1) + t) * k + h5)) * (1 + e6) - x) with (D * (1 + e6) + x * e6) by (unfold D; ring).
  assert (B1 : Rabs (k - 1 - e4) <= 402 / 100 * u).
  { apply Rabs_le_bounds in AK, A4. apply Rabs_le. lra. }
  assert (B2 : Rabs ((1 + e1) * k - 1) <= 402 / 100 * u).
  { eapply Rle_trans; [apply near_mult; [apply near_1; exact A1|exact AK]|]. nra. }
  assert (B3 : Rabs k <= 2) by (apply Rabs_le_bounds in AK; apply Rabs_le; lra).
  assert (BD : Rabs D <= Rabs G * (402 / 100 * u) + Rabs x * (402 / 100 * u) + d * 2 + d + d).
  { unfold D. repeat (eapply Rle_trans; [apply Rabs_triang|]; apply Rplus_le_compat); try assumption;
      apply Rabs_mult_le; try assumption; apply Rle_refl. }
  assert (B6 : Rabs (1 + e6) <= 1000001 / 1000000) by (apply Rabs_le_bounds in A6; apply Rabs_le; lra).
  eapply Rle_trans; [apply Rabs_triang|]. pose proof (Rabs_pos x) as Px. pose proof (Rabs_pos G) as PG. pose proof (Rabs_pos t) as Pt.
  apply Rle_trans with ((Rabs G * (402 / 100 * u) + Rabs x * (402 / 100 * u) + d * 2 + d + d) * (1000001 / 1000000) + Rabs x * u).
  - apply Rplus_le_compat; [apply Rabs_mult_le; assumption|]. apply Rabs_mult_le; [apply Rle_refl|exact A6].
  - assert (0 <= Rabs x * u) by (apply Rmult_le_pos; lra). assert (0 <= Rabs G * u) by (apply Rmult_le_pos; lra). lra.
Qed.

Lemma axis_round_trip o s x : is_double o -> powerRZ 2 (-400) <= Rabs s <= powerRZ 2 400 ->
  Rabs (double (double (- o / s) + double (double (1 / s) * double (o + double (x * s)))) - x)
  <= 6 * u53 * (Rabs x + Rabs (o / s)) + powerRZ 2 (-600).
Proof.
  intros Fo Hs. apply is_float_iff in Fo; [|exact eq_refl]. unfold u53. rewrite <- !bpow_pow in *.
  assert (P4 : 0 < bpow radix2 (-400)) by apply bpow_gt_0.
  assert (S0 : s <> 0) by (intros ->; rewrite Rabs_R0 in Hs; lra).
  assert (SP : 0 < Rabs s) by (apply Rabs_pos_lt; exact S0).
  assert (U : 0 <= bpow radix2 (-53) <= / 1000000) by (rewrite u53_num; lra).
  destruct (double_plus_err o (double (x * s)) Fo (double_dfmt _)) as (e2 & E2 & Q2). rewrite Q2. clear Q2.
  destruct (double_err (x * s)) as (e1 & h1 & E1 & H1 & Q1). rewrite Q1. clear Q1.
  destruct (double_rel (1 / s)) as (e3 & E3 & Q3).
  { unfold Rdiv. rewrite Rmult_1_l, Rabs_inv. apply Rle_trans with (/ bpow radix2 400).
    - rewrite <- bpow_opp. apply bpow_le. lia.
    - apply Rinv_le_contravar; [exact SP|apply Hs]. }
  rewrite Q3. clear Q3.
  match goal with |- Rabs (double (double ?a + double ?b) - x) <= _ =>
    destruct (double_plus_err (double a) (double b) (double_dfmt _) (double_dfmt _)) as (e6 & E6 & Q6); rewrite Q6; clear Q6;
    destruct (double_err a) as (e4 & h4 & E4 & H4 & Q4); rewrite Q4; clear Q4;
    destruct (double_err b) as (e5 & h5 & E5 & H5 & Q5); rewrite Q5; clear Q5 end.
  set (u := bpow radix2 (-53)) in *. set (k := (1 + e2) * (1 + e3) * (1 + e5)).
  assert (K : Rabs (k - 1) <= 301 / 100 * u).
  { unfold k. eapply Rle_trans; [apply near_mult2; [apply near_mult2; [apply near_1; exact E2|apply near_1; exact E3|lra|lra]|apply near_1; exact E5|lra|nra]|]. lra. }
  set (d := bpow radix2 (-1075) * bpow radix2 400).
  assert (D : 6 * d <= bpow radix2 (-600)).
  { unfold d. rewrite <- bpow_plus. apply Rle_trans with (bpow radix2 3 * bpow radix2 (-1075 + 400)).
    - apply Rmult_le_compat_r; [apply bpow_ge_0|]. cbn. lra.
    - rewrite <- bpow_plus. apply bpow_le. lia. }
  assert (D0 : bpow radix2 (-1075) <= d).
  { unfold d. rewrite <- bpow_plus. apply bpow_le. lia. }
  eapply Rle_trans; [|apply Rplus_le_compat_l; exact D].
  replace ((- o / s * (1 + e4) + h4 + (1 / s * (1 + e3) * ((o + (x * s * (1 + e1) + h1)) * (1 + e2)) * (1 + e5) + h5)) * (1 + e6) - x)
    with ((- (o / s) * (1 + e4) + h4 + ((o / s + x * (1 + e1) + h1 / s) * k + h5)) * (1 + e6) - x) by (unfold k; field; exact S0).
  apply axis_core; try assumption; try (eapply Rle_trans; [eassumption|exact D0]).
  unfold Rdiv, d. apply Rabs_mult_le; [exact H1|]. rewrite Rabs_inv. apply Rle_trans with (/ bpow radix2 (-400)).
  - apply Rinv_le_contravar; [exact P4|apply Hs].
  - rewrite <- bpow_opp. apply bpow_le. lia.
Qed.

Lemma double_0 : double 0 = 0.
Proof. apply rne_0. Qed.
Lemma double_idem x : double (double x) = double x.
Proof. apply double_fix, double_dfmt. Qed.
Lemma north_up_trip g x y : g2 g = 0 -> g4 g = 0 ->
  gt_round_trip_float double g x y =
  (double (double (- g0 g / g1 g) + double (double (1 / g1 g) * double (g0 g + double (x * g1 g)))),
   double (double (- g3 g / g5 g) + double (double (1 / g5 g) * double (double (g3 g) + double (y * g5 g))))).
Proof.
  intros E2 E4. unfold gt_round_trip_float, gt_pixel_to_lon_lat_float, gt_lon_lat_to_pixel_float, gdal_inv_north_up_float.
  cbn [g0 g1 g2 g3 g4 g5]. rewrite E2, E4, !Rmult_0_r, !Rmult_0_l, double_0, !Rplus_0_r, !double_idem. reflexivity.
Qed.

(** Pixel to ground and back, without rotation, in doubles: both coordinates come back with an error of at most
    six units in the last place of the larger of the pixel coordinate and the distance of the origin in pixels
    (plus nothing that matters). *)
Theorem C101_round_trip : forall g x y x' y', g2 g = 0 -> g4 g = 0 -> is_double (g0 g) -> is_double (g3 g) ->
  powerRZ 2 (-400) <= Rabs (g1 g) <= powerRZ 2 400 -> powerRZ 2 (-400) <= Rabs (g5 g) <= powerRZ 2 400 ->
  gt_round_trip_float double g x y = (x', y') ->
  Rabs (x' - x) <= 6 * u53 * (Rabs x + Rabs (g0 g / g1 g)) + powerRZ 2 (-600) /\
  Rabs (y' - y) <= 6 * u53 * (Rabs y + Rabs (g3 g / g5 g)) + powerRZ 2 (-600).
Proof.
  intros g x y x' y' E2 E4 F0 F3 H1 H5 E. rewrite (north_up_trip g x y E2 E4) in E.
  assert (D3 : double (g3 g) = g3 g) by (apply double_fix, is_float_iff; [exact eq_refl|exact F3]). rewrite D3 in E.
  injection E as <- <-. split; apply axis_round_trip; assumption.
Qed.
Print Assumptions C101_round_trip.

(** Consequently every pixel centre comes back inside its pixel: with at most 2^46 pixels from the origin of
    the projection, the coordinates of the centre of pixel (c, r) are still between c and c + 1, r and r + 1, and
    truncate to c and r, *)
Theorem C101_centre : forall g (c r : Z) x' y', g2 g = 0 -> g4 g = 0 -> is_double (g0 g) -> is_double (g3 g) ->
  powerRZ 2 (-400) <= Rabs (g1 g) <= powerRZ 2 400 -> powerRZ 2 (-400) <= Rabs (g5 g) <= powerRZ 2 400 ->
  (0 <= c)%Z -> (0 <= r)%Z -> IZR c + 1 / 2 + Rabs (g0 g / g1 g) <= IZR (2 ^ 46) -> IZR r + 1 / 2 + Rabs (g3 g / g5 g) <= IZR (2 ^ 46) ->
  gt_round_trip_float double g (IZR c + 1 / 2) (IZR r + 1 / 2) = (x', y') ->
  IZR c < x' < IZR c + 1 /\ IZR r < y' < IZR r + 1 /\ truncZ x' = c /\ truncZ y' = r.
Proof.
  intros g c r x' y' E2 E4 F0 F3 H1 H5 Hc Hr Bc Br E.
  destruct (C101_round_trip g _ _ x' y' E2 E4 F0 F3 H1 H5 E) as [Ex Ey].
  assert (T : powerRZ 2 (-600) <= / 100).
  { rewrite <- bpow_pow. apply Rle_trans with (bpow radix2 (-7)); [apply bpow_le; lia|cbn; lra]. }
  assert (U : u53 = / 9007199254740992) by (unfold u53; rewrite <- bpow_pow; exact u53_num).
  assert (K : forall k x G, (0 <= k)%Z -> 0 <= G -> IZR k + 1 / 2 + G <= IZR (2 ^ 46) ->
    Rabs (x - (IZR k + 1 / 2)) <= 6 * u53 * (Rabs (IZR k + 1 / 2) + G) + powerRZ 2 (-600) -> IZR k < x < IZR k + 1).
  { intros k x G Hk0 HG HB HE. pose proof (IZR_le _ _ Hk0) as Hk. rewrite (Rabs_pos_eq (IZR k + 1 / 2)) in HE by lra. apply Rabs_le_bounds in HE.
    change (2 ^ 46)%Z with 70368744177664%Z in HB. rewrite U in HE. lra. }
  pose proof (K c x' _ Hc (Rabs_pos _) Bc Ex) as Kx. pose proof (K r y' _ Hr (Rabs_pos _) Br Ey) as Ky.
  split; [exact Kx|]. split; [exact Ky|]. split; apply truncZ_unique; auto; lra.
Qed.
Print Assumptions C101_centre.

(** and a DEM looked up at the ground position of the centre of a pixel gives that pixel's elevation. *)
Theorem C101_dem_centre : forall g d ny nx c r v x' y', g2 g = 0 -> g4 g = 0 -> is_double (g0 g) -> is_double (g3 g) ->
  powerRZ 2 (-400) <= Rabs (g1 g) <= powerRZ 2 400 -> powerRZ 2 (-400) <= Rabs (g5 g) <= powerRZ 2 400 ->
  dem_of_size d ny nx -> gd_interp d = Nearest -> (c < nx)%nat -> (r < ny)%nat -> Spec_Dem.cell (gd_data d) r c = Some v ->
  INR c + 1 / 2 + Rabs (g0 g / g1 g) <= IZR (2 ^ 46) -> INR r + 1 / 2 + Rabs (g3 g / g5 g) <= IZR (2 ^ 46) ->
  gt_round_trip_float double g (INR c + 1 / 2) (INR r + 1 / 2) = (x', y') ->
  gtiff_elevation d (x', y') = Ok v.
Proof.
  intros g d ny nx c r v x' y' E2 E4 F0 F3 H1 H5 HD HI Hc Hr Hv Bc Br E.
  rewrite (INR_IZR_INZ c), (INR_IZR_INZ r) in E. rewrite INR_IZR_INZ in Bc, Br.
  destruct (C101_centre g (Z.of_nat c) (Z.of_nat r) x' y') as (Kx & Ky & _); try assumption; try lia.
  rewrite <- INR_IZR_INZ in Kx, Ky.
  destruct (nearest_containing d ny nx x' y' r c HD Hr Hc) as (e & V & Q); [lra|lra|].
  unfold gtiff_elevation. rewrite HI, Q. congruence.
Qed.
Print Assumptions C101_dem_centre.

(** The corners do not: the upper left corner of pixel 1 of a raster with origin 100 and pixels of 30 comes back
    as a number less than 1, so that the elevation looked up there is that of pixel 0. *)
Theorem C101_corner_refuted : forall a b c d,
  let g := mkGeot 100 30 0 0 0 (-1) in
  exists x', gt_round_trip_float double g 1 0 = (x', 0) /\ x' < 1 /\ truncZ x' = 0%Z /\
    gtiff_elevation (mkGdem [[Fin a; Fin b]; [Fin c; Fin d]] 2 2 None Nearest) (x', 0) = Ok (Fin a).
Proof.
  intros a b c d g. rewrite north_up_trip by reflexivity. cbn [g0 g1 g3 g5 g].
  assert (I : forall m, (Z.abs m <= 2 ^ 53)%Z -> double (IZR m) = IZR m) by (intros m Hm; apply double_fix, dfmt_int, Hm).
  assert (L1 : double (1 * 30) = 30) by (rewrite Rmult_1_l; apply (I 30%Z); vm_compute; discriminate).
  assert (L2 : double (100 + 30) = 130) by (replace (100 + 30) with 130 by lra; apply (I 130%Z); lia).
  rewrite L1, L2.
  assert (I1 : double (1 / 30) = IZR 4803839602528529 * bpow radix2 (-57)) by (apply double_concrete; dbl).
  assert (I0 : double (- (100) / 30) = IZR (-7505999378950827) * bpow radix2 (-51)).
  { apply double_concrete; [lia|cbn; rewrite Rabs_left by lra; lra|cbn; apply Rabs_def1; lra]. }
  assert (M : double (IZR 4803839602528529 * bpow radix2 (-57) * 130) = IZR 4878899596318037 * bpow radix2 (-50)) by (apply double_concrete; dbl).
  assert (X : double (IZR (-7505999378950827) * bpow radix2 (-51) + IZR 4878899596318037 * bpow radix2 (-50)) = IZR 2251799813685247 * bpow radix2 (-51)).
  { replace (IZR (-7505999378950827) * bpow radix2 (-51) + IZR 4878899596318037 * bpow radix2 (-50)) with (IZR 2251799813685247 * bpow radix2 (-51)) by (cbn; lra).
    apply double_fix, dfmt_pow; lia. }
  rewrite I1, I0, M, X.
  assert (Y : double (double (- 0 / -1) + double (double (1 / -1) * double (double 0 + double (0 * -1)))) = 0).
  { rewrite Rmult_0_l, double_0, Rplus_0_r, double_0, Rmult_0_r, double_0, Rplus_0_r. replace (- 0 / -1) with 0 by lra. now rewrite !double_0. }
  rewrite Y. exists (IZR 2251799813685247 * bpow radix2 (-51)). split; [reflexivity|].
  assert (B : 0 < IZR 2251799813685247 * bpow radix2 (-51) < 1) by (cbn; lra). set (x := IZR 2251799813685247 * bpow radix2 (-51)) in *. clearbody x.
  split; [lra|]. assert (T : truncZ x = 0%Z) by (apply truncZ_unique; [lra|lia]). split; [exact T|].
  unfold gtiff_elevation. cbn [gd_interp]. unfold nearest_at. cbn [fst snd gd_nx gd_ny]. rewrite T.
  replace (truncZ 0) with 0%Z by (symmetry; apply truncZ_unique; [lra|lia]). reflexivity.
Qed.
Print Assumptions C101_corner_refuted.

(** When pixel size is a power of two and the origin a whole number of pixels, corners and
    centres come back exactly. *)
Theorem C101_power_of_two : forall k (m n : Z) o x, (-400 <= k <= 400)%Z -> (Z.abs m <= 2 ^ 50)%Z -> (Z.abs n <= 2 ^ 50)%Z ->
  o = IZR m * powerRZ 2 k -> x = IZR n / 2 ->
  gt_round_trip_float double (mkGeot o (powerRZ 2 k) 0 o 0 (- powerRZ 2 k)) x x = (x, x).
Proof.
  intros k m n o x Hk Hm Hn -> ->. rewrite <- bpow_pow. rewrite north_up_trip by reflexivity. cbn [g0 g1 g3 g5].
  assert (P : 0 < bpow radix2 k) by apply bpow_gt_0.
  assert (P1 : bpow radix2 (k - 1) = bpow radix2 k / 2) by (unfold Z.sub; rewrite bpow_plus; cbn; lra).
  assert (F : forall z e, (Z.abs z <= 2 ^ 53)%Z -> (-1074 <= e)%Z -> double (IZR z * bpow radix2 e) = IZR z * bpow radix2 e) by (intros; apply double_fix, dfmt_pow; assumption).
  assert (H1 : forall z, (Z.abs z <= 2 ^ 53)%Z -> double (IZR z / 2) = IZR z / 2).
  { intros z Hz. replace (IZR z / 2) with (IZR z * bpow radix2 (-1)) by (cbn; lra). apply F; lia. }
  assert (Inv : / bpow radix2 k = bpow radix2 (- k)) by (rewrite bpow_opp; reflexivity).
  assert (A1 : forall s, s = 1 \/ s = -1 -> double (IZR n / 2 * (s * bpow radix2 k)) = s * IZR n / 2 * bpow radix2 k).
  { intros s [ -> | -> ].
    - replace (IZR n / 2 * (1 * bpow radix2 k)) with (IZR n * bpow radix2 (k - 1)) by (rewrite P1; field). rewrite F by lia. rewrite P1. field.
    - replace (IZR n / 2 * (-1 * bpow radix2 k)) with (IZR (- n) * bpow radix2 (k - 1)) by (rewrite P1, opp_IZR; field). rewrite F by lia. rewrite P1, opp_IZR. field. }
  assert (A2 : forall z, (Z.abs z <= 2 ^ 53)%Z -> double (IZR z / 2 * bpow radix2 k) = IZR z / 2 * bpow radix2 k).
  { intros z Hz. replace (IZR z / 2 * bpow radix2 k) with (IZR z * bpow radix2 (k - 1)) by (rewrite P1; field). apply F; lia. }
  assert (A3 : double (IZR m * bpow radix2 k) = IZR m * bpow radix2 k) by (apply F; lia).
  assert (B1 : double (1 / bpow radix2 k) = / bpow radix2 k).
  { unfold Rdiv. rewrite Inv. rewrite (F 1%Z (- k)%Z) by lia. ring. }
  assert (B2 : double (1 / - bpow radix2 k) = - / bpow radix2 k).
  { replace (1 / - bpow radix2 k) with (IZR (-1) * bpow radix2 (- k)) by (rewrite <- Inv; field; lra). rewrite F by lia. rewrite <- Inv. lra. }
  assert (C1 : forall z, (Z.abs z <= 2 ^ 53)%Z -> double (IZR z * bpow radix2 k / bpow radix2 k) = IZR z).
  { intros z Hz. replace (IZR z * bpow radix2 k / bpow radix2 k) with (IZR z) by (field; lra). apply double_fix, dfmt_int, Hz. }
  apply pair_equal_spec. split.
  - replace (IZR n / 2 * bpow radix2 k) with (IZR n / 2 * (1 * bpow radix2 k)) by ring. rewrite (A1 1 (or_introl eq_refl)).
    replace (IZR m * bpow radix2 k + 1 * IZR n / 2 * bpow radix2 k) with (IZR (2 * m + n) / 2 * bpow radix2 k) by (rewrite plus_IZR, mult_IZR; field).
    rewrite A2 by lia. rewrite B1. replace (/ bpow radix2 k * (IZR (2 * m + n) / 2 * bpow radix2 k)) with (IZR (2 * m + n) / 2) by (field; lra).
    rewrite H1 by lia. replace (- (IZR m * bpow radix2 k) / bpow radix2 k) with (IZR (- m) * bpow radix2 k / bpow radix2 k) by (rewrite opp_IZR; field; lra).
    rewrite C1 by lia. replace (IZR (- m) + IZR (2 * m + n) / 2) with (IZR n / 2) by (rewrite plus_IZR, mult_IZR, opp_IZR; field). apply H1. lia.
  - replace (IZR n / 2 * - bpow radix2 k) with (IZR n / 2 * (-1 * bpow radix2 k)) by ring. rewrite (A1 (-1) (or_intror eq_refl)), A3.
    replace (IZR m * bpow radix2 k + -1 * IZR n / 2 * bpow radix2 k) with (IZR (2 * m - n) / 2 * bpow radix2 k) by (rewrite minus_IZR, mult_IZR; field).
    rewrite A2 by lia. rewrite B2. replace (- / bpow radix2 k * (IZR (2 * m - n) / 2 * bpow radix2 k)) with (IZR (- (2 * m - n)) / 2) by (rewrite opp_IZR; field; lra).
    rewrite H1 by lia. replace (- (IZR m * bpow radix2 k) / - bpow radix2 k) with (IZR m * bpow radix2 k / bpow radix2 k) by (field; lra).
    rewrite C1 by lia. replace (IZR m + IZR (- (2 * m - n)) / 2) with (IZR n / 2) by (rewrite opp_IZR, minus_IZR, mult_IZR; field). apply H1. lia.
Qed.
Print Assumptions C101_power_of_two.

(* ------------------------ any world point ------------------------ *)
Lemma axis_location o s w : powerRZ 2 (-400) <= Rabs s <= powerRZ 2 400 ->
  Rabs (double (double (- o / s) + double (double (1 / s) * w)) - (w - o) / s)
  <= 4 * u53 * (Rabs (w / s) + Rabs (o / s)) + powerRZ 2 (-600).
Proof.
  intros Hs. unfold u53. rewrite <- !bpow_pow in *.
  assert (P4 : 0 < bpow radix2 (-400)) by apply bpow_gt_0.
  assert (S0 : s <> 0) by (intros ->; rewrite Rabs_R0 in Hs; lra).
  assert (SP : 0 < Rabs s) by (apply Rabs_pos_lt; exact S0).
  assert (U : 0 <= bpow radix2 (-53) <= / 1000000) by (rewrite u53_num; lra).
  destruct (double_rel (1 / s)) as (e3 & E3 & Q3).
  { unfold Rdiv. rewrite Rmult_1_l, Rabs_inv. apply Rle_trans with (/ bpow radix2 400).
    - rewrite <- bpow_opp. apply bpow_le. lia.
    - apply Rinv_le_contravar; [exact SP|apply Hs]. }
  rewrite Q3. clear Q3.
  match goal with |- Rabs (double (double ?a + double ?b) - _) <= _ =>
    destruct (double_plus_err (double a) (double b) (double_dfmt _) (double_dfmt _)) as (e6 & E6 & Q6); rewrite Q6; clear Q6;
    destruct (double_err a) as (e4 & h4 & E4 & H4 & Q4); rewrite Q4; clear Q4;
    destruct (double_err b) as (e5 & h5 & E5 & H5 & Q5); rewrite Q5; clear Q5 end.
  set (u := bpow radix2 (-53)) in *. set (d := bpow radix2 (-1075)) in *.
  assert (D : 3 * d <= bpow radix2 (-600)).
  { unfold d. apply Rle_trans with (bpow radix2 2 * bpow radix2 (-1075)).
    - apply Rmult_le_compat_r; [apply bpow_ge_0|]. cbn. lra.
    - rewrite <- bpow_plus. apply bpow_le. lia. }
  assert (D0 : 0 <= d) by apply bpow_ge_0.
  eapply Rle_trans; [|apply Rplus_le_compat_l; exact D].
  set (X := w / s). set (G := o / s).
  set (k := (1 + e3) * (1 + e5)).
  assert (K : Rabs (k - 1) <= 201 / 100 * u).
  { unfold k. eapply Rle_trans; [apply near_mult; [apply near_1; exact E3|apply near_1; exact E5]|]. nra. }
  set (Dv := - G * e4 + X * (k - 1) + h4 + h5).
  replace ((- o / s * (1 + e4) + h4 + (1 / s * (1 + e3) * w * (1 + e5) + h5)) * (1 + e6) - (w - o) / s)
    with (Dv * (1 + e6) + (X - G) * e6) by (unfold Dv, k, X, G; field; exact S0).
  pose proof (Rabs_pos X) as PX. pose proof (Rabs_pos G) as PG.
  assert (BD : Rabs Dv <= Rabs G * u + Rabs X * (201 / 100 * u) + d + d).
  { unfold Dv. repeat (eapply Rle_trans; [apply Rabs_triang|]; apply Rplus_le_compat); try assumption;
      apply Rabs_mult_le; try assumption; rewrite ?Rabs_Ropp; apply Rle_refl. }
  assert (B6 : Rabs (1 + e6) <= 1000001 / 1000000) by (apply Rabs_le_bounds in E6; apply Rabs_le; lra).
  assert (BX : Rabs (X - G) <= Rabs X + Rabs G).
  { unfold Rminus. eapply Rle_trans; [apply Rabs_triang|]. rewrite Rabs_Ropp. apply Rle_refl. }
  eapply Rle_trans; [apply Rabs_triang|].
  apply Rle_trans with ((Rabs G * u + Rabs X * (201 / 100 * u) + d + d) * (1000001 / 1000000) + (Rabs X + Rabs G) * u).
  - apply Rplus_le_compat; apply Rabs_mult_le; assumption.
  - assert (0 <= Rabs X * u) by (apply Rmult_le_pos; lra). assert (0 <= Rabs G * u) by (apply Rmult_le_pos; lra). lra.
Qed.

(** The pixel location of any world point, without rotation, in doubles: off by at most four units in the
    last place of the distances, in pixels, of the point and of the raster's corner from the origin. *)
Theorem C101_location : forall g lon lat x y, g2 g = 0 -> g4 g = 0 ->
  powerRZ 2 (-400) <= Rabs (g1 g) <= powerRZ 2 400 -> powerRZ 2 (-400) <= Rabs (g5 g) <= powerRZ 2 400 ->
  gt_lon_lat_to_pixel_float double (gdal_inv_north_up_float double g) lon lat = (x, y) ->
  Rabs (x - (lon - g0 g) / g1 g) <= 4 * u53 * (Rabs (lon / g1 g) + Rabs (g0 g / g1 g)) + powerRZ 2 (-600) /\
  Rabs (y - (lat - g3 g) / g5 g) <= 4 * u53 * (Rabs (lat / g5 g) + Rabs (g3 g / g5 g)) + powerRZ 2 (-600).
Proof.
  intros g lon lat x y E2 E4 H1 H5 E. unfold gt_lon_lat_to_pixel_float, gdal_inv_north_up_float in E. cbn [g0 g1 g2 g3 g4 g5] in E.
  rewrite !Rmult_0_l, double_0, !Rplus_0_r, !double_idem in E. injection E as <- <-.
  split; apply axis_location; assumption.
Qed.
Print Assumptions C101_location.

(** The nearest-pixel elevation of a world point in double precision is that of the pixel that contains the
    point, whenever the point is at least a ten-thousandth of a pixel inside it and within 2^36 pixels of
    the origin. *)
Theorem C101_dem_lookup : forall g d ny nx c r v lon lat x y, g2 g = 0 -> g4 g = 0 ->
  powerRZ 2 (-400) <= Rabs (g1 g) <= powerRZ 2 400 -> powerRZ 2 (-400) <= Rabs (g5 g) <= powerRZ 2 400 ->
  dem_of_size d ny nx -> gd_interp d = Nearest -> (c < nx)%nat -> (r < ny)%nat -> Spec_Dem.cell (gd_data d) r c = Some v ->
  Rabs (lon / g1 g) + Rabs (g0 g / g1 g) <= IZR (2 ^ 36) -> Rabs (lat / g5 g) + Rabs (g3 g / g5 g) <= IZR (2 ^ 36) ->
  INR c + 1 / 10000 <= (lon - g0 g) / g1 g <= INR c + 1 - 1 / 10000 ->
  INR r + 1 / 10000 <= (lat - g3 g) / g5 g <= INR r + 1 - 1 / 10000 ->
  gt_lon_lat_to_pixel_float double (gdal_inv_north_up_float double g) lon lat = (x, y) ->
  gtiff_elevation d (x, y) = Ok v.
Proof.
  intros g d ny nx c r v lon lat x y E2 E4 H1 H5 HD HI Hc Hr Hv Bc Br Lc Lr E.
  destruct (C101_location g lon lat x y E2 E4 H1 H5 E) as [Ex Ey].
  assert (T : powerRZ 2 (-600) <= / 100000).
  { rewrite <- bpow_pow. apply Rle_trans with (bpow radix2 (-17)); [apply bpow_le; lia|cbn; lra]. }
  assert (U : u53 = / 9007199254740992) by (unfold u53; rewrite <- bpow_pow; exact u53_num).
  change (2 ^ 36)%Z with 68719476736%Z in *. rewrite U in Ex, Ey.
  apply Rabs_le_bounds in Ex. apply Rabs_le_bounds in Ey.
  destruct (nearest_containing d ny nx x y r c HD Hr Hc) as (e & V & Q); [lra|lra|].
  unfold gtiff_elevation. rewrite HI, Q. congruence.
Qed.
Print Assumptions C101_dem_lookup.
Example C101_dem_lookup_met : let g := mkGeot 500000 30 0 4000000 0 (-30) in
  Rabs (500040 / g1 g) + Rabs (g0 g / g1 g) <= IZR (2 ^ 36) /\ Rabs (3999961 / g5 g) + Rabs (g3 g / g5 g) <= IZR (2 ^ 36) /\
  INR 1 + 1 / 10000 <= (500040 - g0 g) / g1 g <= INR 1 + 1 - 1 / 10000 /\
  INR 1 + 1 / 10000 <= (3999961 - g3 g) / g5 g <= INR 1 + 1 - 1 / 10000.
Proof.
  cbn [g0 g1 g3 g5 INR]. change (2 ^ 36)%Z with 68719476736%Z.
  rewrite !Rabs_pos_eq by lra. rewrite !Rabs_left by lra. repeat split; lra.
Qed.

Example C101_ex : let g := mkGeot 500000 30 0 4000000 0 (-30) in
  g2 g = 0 /\ g4 g = 0 /\ is_double (g0 g) /\ is_double (g3 g) /\
  powerRZ 2 (-400) <= Rabs (g1 g) <= powerRZ 2 400 /\ powerRZ 2 (-400) <= Rabs (g5 g) <= powerRZ 2 400 /\
  IZR 7000 + 1 / 2 + Rabs (g0 g / g1 g) <= IZR (2 ^ 46).
Proof.
  cbv zeta. cbn [g0 g1 g2 g3 g4 g5]. split; [reflexivity|]. split; [reflexivity|].
  split; [exists 500000%Z, 0%Z; split; [cbn; lra|split; lia]|]. split; [exists 4000000%Z, 0%Z; split; [cbn; lra|split; lia]|].
  assert (A : bpow radix2 (-400) <= 1) by (apply (bpow_le radix2 (-400) 0); lia).
  assert (B : 32 <= bpow radix2 400) by (apply (bpow_le radix2 5 400); lia).
  rewrite <- !bpow_pow. rewrite (Rabs_pos_eq 30) by lra. rewrite (Rabs_left (-30)) by lra. rewrite Rabs_pos_eq by lra.
  change (2 ^ 46)%Z with 70368744177664%Z. repeat split; lra.
Qed.

(** One coordinate of the affine map, rounded after every operation *)
Lemma sum3_err a b c : is_double a -> Rabs (double (double (a + double b) + double c) - (a + b + c)) <= 4 * u53 * (Rabs a + Rabs b + Rabs c) + powerRZ 2 (-1070).
Proof.
  intros Fa. apply is_float_iff in Fa; [|exact eq_refl]. unfold u53. rewrite <- !bpow_pow.
  destruct (double_err b) as (e1 & n1 & E1 & N1 & Q1). destruct (double_err c) as (e2 & n2 & E2 & N2 & Q2).
  destruct (double_plus_err a (double b) Fa (double_dfmt _)) as (e3 & E3 & Q3).
  destruct (double_plus_err (double (a + double b)) (double c) (double_dfmt _) (double_dfmt _)) as (e4 & E4 & Q4).
  rewrite Q4, Q3, Q2, Q1. clear Q1 Q2 Q3 Q4.
  assert (U : 0 < bpow radix2 (-53) <= / 1000000) by (rewrite u53_num; lra).
  assert (T : bpow radix2 (-1070) = 32 * bpow radix2 (-1075)) by (change (-1070)%Z with (5 + -1075)%Z; rewrite bpow_plus; reflexivity).
  rewrite T. pose proof (bpow_gt_0 radix2 (-1075)) as P. set (u := bpow radix2 (-53)) in *. set (t := bpow radix2 (-1075)) in *. clearbody u t.
  replace (((a + (b * (1 + e1) + n1)) * (1 + e3) + (c * (1 + e2) + n2)) * (1 + e4) - (a + b + c))
    with (a * (e3 + e4 + e3 * e4) + b * (e1 + e3 + e4 + e1 * e3 + e1 * e4 + e3 * e4 + e1 * e3 * e4) + c * (e2 + e4 + e2 * e4) + (n1 * ((1 + e3) * (1 + e4)) + n2 * (1 + e4))) by ring.
  apply Rabs_le_bounds in E1, E2, E3, E4.
  assert (D : forall x y, - u <= x <= u -> - u <= y <= u -> - (u * u) <= x * y <= u * u) by (intros; split; nra).
  assert (UU : u * u <= / 1000000 * u) by nra.
  pose proof (D e3 e4 E3 E4). pose proof (D e1 e3 E1 E3). pose proof (D e1 e4 E1 E4). pose proof (D e2 e4 E2 E4).
  assert (T3 : - (u * u) <= e1 * e3 * e4 <= u * u) by (split; nra).
  assert (A1 : Rabs (e3 + e4 + e3 * e4) <= 4 * u) by (apply Rabs_le; lra).
  assert (A2 : Rabs (e1 + e3 + e4 + e1 * e3 + e1 * e4 + e3 * e4 + e1 * e3 * e4) <= 4 * u) by (apply Rabs_le; lra).
  assert (A3 : Rabs (e2 + e4 + e2 * e4) <= 4 * u) by (apply Rabs_le; lra).
  assert (A4 : Rabs ((1 + e3) * (1 + e4)) <= 2) by (apply Rabs_le; nra).
  assert (A5 : Rabs (1 + e4) <= 2) by (apply Rabs_le; lra).
  pose proof (Rabs_mult_le a _ (Rabs a) _ (Rle_refl _) A1) as B1. pose proof (Rabs_mult_le b _ (Rabs b) _ (Rle_refl _) A2) as B2.
  pose proof (Rabs_mult_le c _ (Rabs c) _ (Rle_refl _) A3) as B3. pose proof (Rabs_mult_le n1 _ _ _ N1 A4) as B4. pose proof (Rabs_mult_le n2 _ _ _ N2 A5) as B5.
  apply Rabs_le_bounds in B1, B2, B3, B4, B5. apply Rabs_le. lra.
Qed.

(** Every geotransform, also a rotated one: the rounded ground position of a pixel is off the exact one by at
    most four half units in the last place of the sizes of its three terms; and the rounded pixel of a ground
    position is off the value of the stored inverse's exact formula by as much. *)
Theorem C101_rotated : forall g i x y lon lat, is_double (g0 g) -> is_double (g3 g) -> is_double (g0 i) -> is_double (g3 i) ->
  Rabs (fst (gt_pixel_to_lon_lat_float double g x y) - (g0 g + x * g1 g + y * g2 g)) <= 4 * u53 * (Rabs (g0 g) + Rabs (x * g1 g) + Rabs (y * g2 g)) + powerRZ 2 (-1070) /\
  Rabs (snd (gt_pixel_to_lon_lat_float double g x y) - (g3 g + x * g4 g + y * g5 g)) <= 4 * u53 * (Rabs (g3 g) + Rabs (x * g4 g) + Rabs (y * g5 g)) + powerRZ 2 (-1070) /\
  Rabs (fst (gt_lon_lat_to_pixel_float double i lon lat) - (g0 i + lon * g1 i + lat * g2 i)) <= 4 * u53 * (Rabs (g0 i) + Rabs (lon * g1 i) + Rabs (lat * g2 i)) + powerRZ 2 (-1070) /\
  Rabs (snd (gt_lon_lat_to_pixel_float double i lon lat) - (g3 i + lon * g4 i + lat * g5 i)) <= 4 * u53 * (Rabs (g3 i) + Rabs (lon * g4 i) + Rabs (lat * g5 i)) + powerRZ 2 (-1070).
Proof.
  intros g i x y lon lat A B C D. unfold gt_pixel_to_lon_lat_float, gt_lon_lat_to_pixel_float. cbn [fst snd].
  rewrite (Rmult_comm (g1 i)), (Rmult_comm (g2 i)), (Rmult_comm (g4 i)), (Rmult_comm (g5 i)).
  repeat split; apply sum3_err; assumption.
Qed.
Print Assumptions C101_rotated.
(** The coefficients of a real rotated geotransform are doubles. *)
Example C101_rotated_met : let g := mkGeot 441720 25 10 3751320 10 (-25) in is_double (g0 g) /\ is_double (g3 g) /\ g2 g <> 0.
Proof.
  cbn [g0 g3 g2]. split; [|split; [|lra]].
  - exists 441720%Z, 0%Z. cbn. split; [ring|lia].
  - exists 3751320%Z, 0%Z. cbn. split; [ring|lia].
Qed.
