(** C36 with the solver's own step sizes and for pinhole cameras; C77 for tilted cameras *)
From Verif Require Import RAux Text Geo3 M_Nav M_Photo M_Cameras M_PointCalc M_Image M_Sim.
From Verif Require Import Spec_Photo Spec_PointCalc Spec_Sim Spec_Perspective P_PointCalc P_Sim P_Perspective.
From Verif Require Prop_PointCalc Prop_Sim Spec_Cameras.
Open Scope R_scope.
Open Scope list_scope.

(** Convergence with the step sizes the solver chooses by itself: over a region that holds the first estimate's
    reach and the steps, a sensor that differs from a steep affine map by little is solved, and the result is
    within threshold pixels, and within threshold / (m - L) of every exact answer in the region.  If some trial
    shift to the east leaves the sensor's domain, the steps are 2 and the region has to hold them. *)
Theorem C36_own_steps : forall pix c threshold max_iter n qs rad L m r0,
  let alt := rsum (map rq_alt qs) / INR (length qs) in
  qs <> [] -> 0 <= L -> 3 * L < m -> 0 <= r0 -> m - L <= 2 ^ 53 -> 1 < 2 ^ 1021 * (m - L) ->
  r0 / (m - 3 * L) + 2 / (m - L) <= rad ->
  ((forall k, (k < 1074)%nat -> fst (pix (Fin (fst c + 2 ^ k / 2 ^ 52)) (Fin (snd c)) (Fin alt)) <> NonFinite) \/ r0 / (m - 3 * L) + 2 <= rad) ->
  (exists sx sy, nearly_affine pix alt c rad sx sy L /\ steep sx sy m) ->
  (forall q, In q qs -> exists sx sy, nearly_affine pix (rq_alt q) c rad sx sy L /\ steep sx sy m /\ L < Rabs (fst sx)) ->
  Forall (fun q => hits pix r0 q (Fin (fst c), Fin (snd c))) qs ->
  (n <= max_iter)%nat -> (2 * L / (m - L)) ^ n * r0 <= threshold ->
  exists ps, solver pix (Some c) None threshold max_iter qs = Ok ps /\ Forall2 (hits pix threshold) qs ps /\
    Forall2 (fun q p => exists lon lat, p = (Fin lon, Fin lat) /\ within c (r0 / (m - 3 * L)) lon lat /\
      forall lon0 lat0, within c rad lon0 lat0 ->
        pix (Fin lon0) (Fin lat0) (Fin (rq_alt q)) = (Fin (rq_x q), Fin (rq_y q)) ->
        Rabs (lon - lon0) + Rabs (lat - lat0) <= threshold / (m - L)) qs ps.
Proof.
  intros pix c threshold max_iter n qs rad L m r0 alt Hne HL HLm Hr W1 W2 R1 R2 (sx & sy & HN & HS) HQ HH Hn HT.
  assert (HLen : INR (length qs) <> 0) by (apply not_0_INR; destruct qs; [congruence|discriminate]).
  assert (P0 : 0 <= r0 / (m - 3 * L)) by (apply Rmult_le_pos; [exact Hr|left; apply Rinv_0_lt_compat; lra]).
  destruct (default_steps_near pix c alt rad sx sy L m HN HS ltac:(lra) W1 W2 ltac:(lra)) as (d & ED & D1 & D2 & DB).
  assert (B : r0 / (m - 3 * L) + Rabs (fst d) <= rad /\ r0 / (m - 3 * L) + Rabs (snd d) <= rad).
  { destruct DB as [[A1 A2]|(-> & k & Hk & EK)]; [lra|]. destruct R2 as [R2|R2]; [destruct (R2 k Hk EK)|]. cbn [fst snd]. rewrite !Rabs_pos_eq by lra. lra. }
  destruct B as [B1 B2].
  destruct (Prop_PointCalc.C36_converges pix c d threshold max_iter n qs rad L m r0 Hne D1 D2 HL HLm Hr B1 B2 HQ HH Hn HT) as (ps & E & F).
  exists ps. split; [|exact F]. rewrite <- E. unfold solver. destruct c as [clon clat]. cbn [fst snd] in ED. rewrite (fdiv_nz _ _ HLen). fold alt. rewrite ED. reflexivity.
Qed.
Print Assumptions C36_own_steps.

Lemma same_average qs alt : qs <> [] -> (forall q, In q qs -> rq_alt q = alt) -> rsum (map rq_alt qs) / INR (length qs) = alt.
Proof.
  intros Hne H. assert (HLen : INR (length qs) <> 0) by (apply not_0_INR; destruct qs; [congruence|discriminate]).
  assert (E : rsum (map rq_alt qs) = INR (length qs) * alt).
  { clear Hne HLen. induction qs as [|q qs IH]; [cbn; ring|]. change (rsum (map rq_alt (q :: qs))) with (rq_alt q + rsum (map rq_alt qs)).
    change (length (q :: qs)) with (S (length qs)). rewrite S_INR, IH, (H q (or_introl eq_refl)); [ring|]. intros q' Hq. apply H. right. exact Hq. }
  rewrite E. field. exact HLen.
Qed.

(** An ideal pinhole camera of any orientation: if it views the region well (views, Spec_Perspective) and is
    three times steeper than bent there, the solver finds the ground position of every requested pixel. *)
Theorem C36_pinhole : forall cam c alt rad D H T eps kmin kmax threshold max_iter n qs r0,
  views cam c alt rad D H T eps kmin kmax ->
  let L := bend D T eps kmax in let m := slope D H T kmin in let M := ph_M (ip_camera cam) in
  qs <> [] -> (forall q, In q qs -> rq_alt q = alt) -> 3 * L < m -> 0 <= r0 -> m - L <= 2 ^ 53 -> 1 < 2 ^ 1021 * (m - L) ->
  r0 / (m - 3 * L) + 2 / (m - L) + 2 <= rad ->
  L < Rabs (ph_f (ip_camera cam) / ip_pitch_x cam) * Rabs (e11 M - cam_x cam (fst c) (snd c) alt / depth cam (fst c) (snd c) alt * e31 M) / D ->
  Forall (fun q => hits (pinhole_pixel cam) r0 q (Fin (fst c), Fin (snd c))) qs ->
  (n <= max_iter)%nat -> (2 * L / (m - L)) ^ n * r0 <= threshold ->
  exists ps, solver (pinhole_pixel cam) (Some c) None threshold max_iter qs = Ok ps /\ Forall2 (hits (pinhole_pixel cam) threshold) qs ps /\
    Forall2 (fun q p => exists lon lat, p = (Fin lon, Fin lat) /\ within c (r0 / (m - 3 * L)) lon lat /\
      forall lon0 lat0, within c rad lon0 lat0 ->
        pinhole_pixel cam (Fin lon0) (Fin lat0) (Fin alt) = (Fin (rq_x q), Fin (rq_y q)) ->
        Rabs (lon - lon0) + Rabs (lat - lat0) <= threshold / (m - L)) qs ps.
Proof.
  intros cam c alt rad D H T eps kmin kmax threshold max_iter n qs r0 HV L m M Hne HA HLm Hr W1 W2 R1 HX HH Hn HT.
  destruct (pinhole_near cam c alt rad D H T eps kmin kmax HV) as (sx & sy & HN & HS & EX). fold L in HN. fold m in HS. fold M in EX. rewrite <- EX in HX.
  assert (HL : 0 <= L).
  { destruct HV as [HR ED D0 EH HT1 HT2 HE B1 B2 Hx Hy K0 KX KY]. unfold L, bend.
    assert (0 <= T) by (apply (Rmult_le_reg_r D); [exact D0|]; rewrite Rmult_0_l; eapply Rle_trans; [apply Rabs_pos|exact HT1]).
    apply Rmult_le_pos; apply Rmult_le_pos; try (left; apply Rinv_0_lt_compat; try apply Rmult_lt_0_compat; lra); [|lra]. apply Rmult_le_pos; lra. }
  assert (P0 : 0 <= r0 / (m - 3 * L)) by (apply Rmult_le_pos; [exact Hr|left; apply Rinv_0_lt_compat; lra]).
  assert (P1 : 0 <= 2 / (m - L)) by (apply Rmult_le_pos; [lra|left; apply Rinv_0_lt_compat; lra]).
  destruct (C36_own_steps (pinhole_pixel cam) c threshold max_iter n qs rad L m r0) as (ps & E & F & G); try assumption; try lra.
  - exists sx, sy. rewrite (same_average qs alt Hne HA). auto.
  - intros q Hq. exists sx, sy. rewrite (HA q Hq). auto.
  - exists ps. split; [exact E|]. split; [exact F|]. apply Forall2_nth_iff in G. destruct G as [GL G]. apply Forall2_nth_iff. split; [exact GL|].
    intros j q p Hq Hp. destruct (G j q p Hq Hp) as (lon & lat & E1 & E2 & E3). exists lon, lat. rewrite (HA q (nth_error_In _ _ Hq)) in E3. auto.
Qed.
Print Assumptions C36_pinhole.

(* ============================== C77 =============================== *)

(** The image made from the camera's ground positions *)
Lemma image_made V (sample : sampler V) a ops d0 lon lat alt roll pitch yaw br bp by_ gdal_inv g w h cam (P : request -> R -> R -> Prop) :
  nudged (sa_roll a) br -> nudged (sa_pitch a) bp -> nudged (sa_yaw a) by_ ->
  Spec_Cameras.gdal_inverse gdal_inv -> Spec_Cameras.invertible g -> sa_gtiff a = set_geot gdal_inv g w h ->
  (forall s : simulator V, sm_args s = a -> sm_bore s = (br, bp, by_) ->
     exists world, generate_camera s lon lat alt roll pitch yaw = Ok (GoodCamera (mkPlaced cam world (lon, lat)))) ->
  (forall world, exists ps, camera_ground (GoodCamera (mkPlaced cam world (lon, lat))) (grid_requests (sa_npix_x a) (sa_npix_y a)) = Ok ps /\
     Forall2 (fun q p => exists lo la, p = (Fin lo, Fin la) /\ P q lo la) (grid_requests (sa_npix_x a) (sa_npix_y a)) ps) ->
  let history := ops ++ [Simulate (Ok d0) lon lat alt roll pitch yaw] in
  let outcomes := snd (sim_run sample (sim_init a) history) in
  exists im d, nth_error outcomes (length ops) = Some (Some (Ok im)) /\ used_band history outcomes (length ops) d /\
    forall r c, (r < sa_npix_y a)%nat -> (c < sa_npix_x a)%nat -> exists x y glon glat,
      band_at (si_band im) r c = Some (sample d (Fin y) (Fin x)) /\
      gt_pixel_to_lon_lat (sa_gtiff a) x y = (glon, glat) /\ P (mkRequest (INR c) (INR r) 0) glon glat.
Proof.
  intros N1 N2 N3 HI Hg HE GEN GRD history outcomes.
  assert (ED : exists im, nth_error outcomes (length ops) = Some (Some (Ok im))).
  { unfold outcomes, history. rewrite run_app. cbn [snd]. rewrite nth_error_app2 by (rewrite run_length; lia).
    rewrite run_length, Nat.sub_diag. destruct (run_args sample ops (sim_init a)) as (A1 & A2 & A3).
    set (s := fst (sim_run sample (sim_init a) ops)) in *. cbn [sim_init sm_args sm_bore sm_world] in A1, A2, A3.
    rewrite (nudged_fun _ _ _ (nudge_spec (sa_roll a)) N1), (nudged_fun _ _ _ (nudge_spec (sa_pitch a)) N2), (nudged_fun _ _ _ (nudge_spec (sa_yaw a)) N3) in A2.
    destruct (GEN s A1 A2) as (world & EC). destruct (GRD world) as (ps & EP & F).
    cbn [sim_run sim_step]. unfold create_overhead_image_object. rewrite A1, EC. cbn [bind]. rewrite EP. cbn [bind].
    assert (NM : exists l, mapM (gtiff_pixel (sa_gtiff a)) ps = Ok l).
    { destruct (Prop_Cameras.C34_round_trip gdal_inv g w h HI Hg) as [_ H]. rewrite HE. clear - F H.
      induction F as [|q p qs ps (lo & la & -> & _) F IH]; [eexists; reflexivity|]. cbn [mapM gtiff_pixel].
      destruct (H lo la) as (x & y & -> & _). cbn [bind]. destruct IH as (l & ->). eexists; reflexivity. }
    destruct NM as (pixels & EM). rewrite EM. cbn [bind].
    destruct (match sm_data s with Some d => Ok d | None => Ok d0 end) as [d|e|] eqn:ED; [|destruct (sm_data s); discriminate|destruct (sm_data s); discriminate].
    unfold unflatten_image_band. rewrite !map_length, (mapM_length _ _ _ EM), (camera_ground_length _ _ _ EP), grid_length, Nat.eqb_refl. cbn. eexists; reflexivity. }
  destruct ED as (im & EI). exists im.
  assert (HK : nth_error history (length ops) = Some (Simulate (Ok d0) lon lat alt roll pitch yaw)).
  { unfold history. rewrite nth_error_app2, Nat.sub_diag by lia. reflexivity. }
  destruct (run_nth sample history (sim_init a) (length ops) im (Ok d0) lon lat alt roll pitch yaw HK EI) as (sk & d & A1 & A2 & A3 & A4 & A5).
  exists d. split; [exact EI|]. split; [destruct A5 as [A5|[_ A5]]; [discriminate|exact A5]|].
  destruct (image_pixels sample sk d im _ _ _ _ _ _ A4) as (G & _ & _ & _ & _ & _ & _ & ground & E & _ & Q).
  cbn [sim_init sm_args sm_bore sm_world] in A1, A2, A3.
  rewrite (nudged_fun _ _ _ (nudge_spec (sa_roll a)) N1), (nudged_fun _ _ _ (nudge_spec (sa_pitch a)) N2), (nudged_fun _ _ _ (nudge_spec (sa_yaw a)) N3) in A2.
  destruct (GEN sk A1 A2) as (world & EC). destruct (GRD world) as (ps & EP & F). rewrite A1 in *. rewrite G in EC. injection EC as EC. rewrite EC in E. rewrite E in EP. injection EP as <-.
  intros r c Hr Hc. destruct (Q r c Hr Hc) as (p & X & Y & Eg & EX & EB).
  destruct (Forall2_nth_l _ _ _ F _ _ (grid_nth _ _ r c Hr Hc)) as (p' & Ep & lo & la & -> & HS). rewrite Eg in Ep. injection Ep as ->.
  rewrite HE in EX. destruct (gtiff_pixel_spec _ _ _ _ _ _ _ HI Hg EX) as (x & y & -> & -> & EG).
  exists x, y, lo, la. split; [exact EB|]. split; [rewrite HE; exact EG|exact HS].
Qed.

Lemma camera_is_pinhole cam world c : camera_pixel (GoodCamera (mkPlaced cam world c)) = pinhole_pixel cam.
Proof. reflexivity. Qed.

(** A tilted camera that views the ground below it well: the image is made, and every pixel is the sampling at
    the geotiff position of a ground point at altitude zero that the camera sees within 1/100 pixel of that
    pixel, and that lies within 1 / (100 (m - L)) of the ground point seen exactly there. *)
Theorem C77_tilted : forall V (sample : sampler V) a ops d0 lon lat alt roll pitch yaw t1 t2 t3' br bp by_ gdal_inv g w h rad D T eps kmin kmax r0,
  is_order t1 t2 t3' -> sa_order a = order_name t1 t2 t3' ->
  nudged (sa_roll a) br -> nudged (sa_pitch a) bp -> nudged (sa_yaw a) by_ ->
  Spec_Cameras.gdal_inverse gdal_inv -> Spec_Cameras.invertible g -> sa_gtiff a = set_geot gdal_inv g w h ->
  (0 < sa_npix_x a)%nat -> (0 < sa_npix_y a)%nat ->
  let M := sim_orientation (su_boresight a) br bp by_ t1 t2 t3' roll pitch yaw in
  let Z := alt * su_alt a in let f := sa_focal a * su_focal a in
  let px := sa_pitch_x a * su_pitch a in let py := sa_pitch_y a * su_pitch a in
  let nx := INR (sa_npix_x a) in let ny := INR (sa_npix_y a) in
  let cam := mkIdeal (mkPinhole (V3 lon lat Z) f M) px py nx ny false true in
  -1 < e31 M < 1 -> views cam (lon, lat) 0 rad D (Rabs Z) T eps kmin kmax ->
  let L := bend D T eps kmax in let m := slope D (Rabs Z) T kmin in
  3 * L < m -> m - L <= 2 ^ 53 -> 1 < 2 ^ 1021 * (m - L) ->
  nx / 2 + kmax * T <= r0 -> ny / 2 + kmax * T <= r0 -> r0 / (m - 3 * L) + 2 / (m - L) + 2 <= rad ->
  L < Rabs (f / px) * Rabs (e11 M - e13 M / e33 M * e31 M) / D -> (2 * L / (m - L)) ^ 1000 * r0 <= 1 / 100 ->
  let history := ops ++ [Simulate (Ok d0) lon lat alt roll pitch yaw] in
  let outcomes := snd (sim_run sample (sim_init a) history) in
  exists im d, nth_error outcomes (length ops) = Some (Some (Ok im)) /\ used_band history outcomes (length ops) d /\
    forall r c, (r < sa_npix_y a)%nat -> (c < sa_npix_x a)%nat -> exists x y glon glat u v,
      band_at (si_band im) r c = Some (sample d (Fin y) (Fin x)) /\
      gt_pixel_to_lon_lat (sa_gtiff a) x y = (glon, glat) /\
      sees (V3 lon lat Z) M f px py nx ny (V3 glon glat 0) u v /\ Rabs (INR c - u) <= 1 / 100 /\ Rabs (INR r - v) <= 1 / 100 /\
      (forall lon0 lat0, within (lon, lat) rad lon0 lat0 -> sees (V3 lon lat Z) M f px py nx ny (V3 lon0 lat0 0) (INR c) (INR r) ->
         Rabs (glon - lon0) + Rabs (glat - lat0) <= 1 / 100 / (m - L)).
Proof.
  intros V sample a ops d0 lon lat alt roll pitch yaw t1 t2 t3' br bp by_ gdal_inv g w h rad D T eps kmin kmax r0 HO HN N1 N2 N3 HI Hg HE Hnx Hny
    M Z f px py nx ny cam HM HV L m HLm W1 W2 RX RY RR HX HT history outcomes.
  pose proof (v_rot _ _ _ _ _ _ _ _ _ _ HV) as HR. cbn [cam ip_camera ph_M] in HR.
  pose proof (v_px _ _ _ _ _ _ _ _ _ _ HV) as Hx. pose proof (v_py _ _ _ _ _ _ _ _ _ _ HV) as Hy. cbn [cam ip_pitch_x ip_pitch_y] in Hx, Hy.
  pose proof (v_kx _ _ _ _ _ _ _ _ _ _ HV) as KX. pose proof (v_ky _ _ _ _ _ _ _ _ _ _ HV) as KY. cbn [cam ip_pitch_x ip_pitch_y ip_camera ph_f] in KX, KY.
  pose proof (v_k0 _ _ _ _ _ _ _ _ _ _ HV) as K0. pose proof (v_D0 _ _ _ _ _ _ _ _ _ _ HV) as D0. pose proof (v_D _ _ _ _ _ _ _ _ _ _ HV) as ED.
  pose proof (v_T1 _ _ _ _ _ _ _ _ _ _ HV) as T1. pose proof (v_T2 _ _ _ _ _ _ _ _ _ _ HV) as T2. cbn [fst snd] in ED, T1, T2.
  assert (Hf : f <> 0). { intros E. rewrite E in KX. unfold Rdiv in KX. rewrite Rmult_0_l, Rabs_R0 in KX. lra. }
  assert (CD : depth cam lon lat 0 = - (e33 M * Z)) by (unfold depth, cam; cbn [ip_camera ph_M ph_pos vx vy vz]; ring).
  assert (CX : cam_x cam lon lat 0 = - (e13 M * Z)) by (unfold cam_x, cam; cbn [ip_camera ph_M ph_pos vx vy vz]; ring).
  assert (Z0 : depth cam lon lat 0 <> 0) by (intros E; rewrite E, Rabs_R0 in ED; lra).
  assert (EZ : e33 M * Z <> 0) by (intros E; rewrite CD, E in Z0; lra).
  assert (EZ1 : e33 M <> 0) by (intros E; rewrite E in EZ; lra). assert (EZ2 : Z <> 0) by (intros E; rewrite E in EZ; lra).
  assert (Hne : grid_requests (sa_npix_x a) (sa_npix_y a) <> []).
  { intros E. apply (f_equal (@length _)) in E. rewrite grid_length in E. cbn in E. nia. }
  assert (CEN : forall n1 k, Rabs n1 <= T * D -> Rabs k <= kmax -> Rabs (k * (n1 / depth cam lon lat 0)) <= kmax * T).
  { intros n1 k A1 A2. rewrite Rabs_mult. apply Rmult_le_compat; try apply Rabs_pos; [exact A2|]. unfold Rdiv. rewrite Rabs_mult, Rabs_inv, <- ED.
    apply (Rmult_le_reg_r D); [exact D0|]. rewrite Rmult_assoc, Rinv_l, Rmult_1_r by lra. exact A1. }
  assert (IN : forall k n : nat, (k < n)%nat -> Rabs (INR k - INR n / 2) <= INR n / 2).
  { intros k n Hk. apply Rabs_le. pose proof (pos_INR k). assert (INR k <= INR n) by (apply le_INR; lia). lra. }
  assert (GRD : forall world, exists ps, camera_ground (GoodCamera (mkPlaced cam world (lon, lat))) (grid_requests (sa_npix_x a) (sa_npix_y a)) = Ok ps /\
     Forall2 (fun q p => exists lo la, p = (Fin lo, Fin la) /\ (exists u v, sees (V3 lon lat Z) M f px py nx ny (V3 lo la 0) u v /\
        Rabs (rq_x q - u) <= 1 / 100 /\ Rabs (rq_y q - v) <= 1 / 100) /\
        (forall lon0 lat0, within (lon, lat) rad lon0 lat0 -> sees (V3 lon lat Z) M f px py nx ny (V3 lon0 lat0 0) (rq_x q) (rq_y q) ->
         Rabs (lo - lon0) + Rabs (la - lat0) <= 1 / 100 / (m - L))) (grid_requests (sa_npix_x a) (sa_npix_y a)) ps).
  { intros world. unfold camera_ground. rewrite camera_is_pinhole. cbn [camera_center pc_center].
    assert (R0 : 0 <= r0). { assert (0 <= kmax) by lra. assert (0 <= T) by (apply (Rmult_le_reg_r D); [exact D0|]; rewrite Rmult_0_l; eapply Rle_trans; [apply Rabs_pos|exact T1]). assert (0 <= nx) by apply pos_INR. nra. }
    destruct (C36_pinhole cam (lon, lat) 0 rad D (Rabs Z) T eps kmin kmax (1 / 100) 1000 1000 (grid_requests (sa_npix_x a) (sa_npix_y a)) r0 HV Hne (grid_alt _ _) HLm R0 W1 W2 RR) as (ps & E & F & G).
    - cbn [fst snd cam ip_camera ph_f ph_M ip_pitch_x]. change (mkIdeal _ _ _ _ _ _ _) with cam. rewrite CX, CD.
      replace (- (e13 M * Z) / - (e33 M * Z)) with (e13 M / e33 M) by (field; auto). exact HX.
    - apply Forall_forall. intros q Hq. apply In_nth_error in Hq. destruct Hq as (j & Hq).
      assert (HJ : (j < sa_npix_y a * sa_npix_x a)%nat) by (rewrite <- grid_length; apply nth_error_Some; congruence).
      pose proof (Nat.div_mod j (sa_npix_x a) ltac:(lia)) as DM. pose proof (Nat.mod_upper_bound j (sa_npix_x a) ltac:(lia)) as MB.
      assert (DB : (j / sa_npix_x a < sa_npix_y a)%nat) by (apply Nat.div_lt_upper_bound; lia).
      pose proof (grid_nth _ _ (j / sa_npix_x a) (j mod sa_npix_x a) DB MB) as Q.
      replace (j / sa_npix_x a * sa_npix_x a + j mod sa_npix_x a)%nat with j in Q by lia. rewrite Hq in Q. injection Q as ->.
      cbn [fst snd]. eexists. eexists. cbn [rq_alt rq_x rq_y fst snd]. split; [apply pinhole_value; assumption|].
      cbn [cam ip_npix_x ip_npix_y ip_flip_x ip_flip_y ip_camera ph_f ip_pitch_x ip_pitch_y]. change (mkIdeal _ _ _ _ _ _ _) with cam.
      pose proof (CEN _ (flip_sign false * (f / px)) T1 ltac:(rewrite flip_abs; apply KX)) as C1. pose proof (CEN _ (flip_sign true * (f / py)) T2 ltac:(rewrite flip_abs; apply KY)) as C2.
      pose proof (IN _ _ MB) as I1. pose proof (IN _ _ DB) as I2. fold nx in I1. fold ny in I2.
      split.
      + replace (INR (j mod sa_npix_x a) - (flip_sign false * (f / px) * (cam_x cam lon lat 0 / depth cam lon lat 0) + nx / 2))
          with ((INR (j mod sa_npix_x a) - nx / 2) + - (flip_sign false * (f / px) * (cam_x cam lon lat 0 / depth cam lon lat 0))) by ring.
        eapply Rle_trans; [apply Rabs_triang|]. rewrite Rabs_Ropp. lra.
      + replace (INR (j / sa_npix_x a) - (flip_sign true * (f / py) * (cam_y cam lon lat 0 / depth cam lon lat 0) + ny / 2))
          with ((INR (j / sa_npix_x a) - ny / 2) + - (flip_sign true * (f / py) * (cam_y cam lon lat 0 / depth cam lon lat 0))) by ring.
        eapply Rle_trans; [apply Rabs_triang|]. rewrite Rabs_Ropp. lra.
    - apply le_n.
    - exact HT.
    - exists ps. split; [exact E|]. apply Forall2_nth_iff in F. destruct F as [FL F]. apply Forall2_nth_iff in G. destruct G as [GL G]. apply Forall2_nth_iff. split; [exact GL|].
      intros j q p Hq Hp. destruct (F j q p Hq Hp) as (u & v & E1 & E2 & E3). destruct (G j q p Hq Hp) as (lo & la & -> & _ & E5).
      exists lo, la. split; [reflexivity|]. rewrite (grid_alt _ _ q (nth_error_In _ _ Hq)) in E1. cbn [fst snd] in E1. split.
      + exists u, v. split; [|split; assumption]. apply (sees_ideal (V3 lon lat Z) M f px py nx ny world (lon, lat) (V3 lo la 0)); assumption.
      + intros lon0 lat0 HW HS. apply E5; [exact HW|]. apply (sees_ideal (V3 lon lat Z) M f px py nx ny world (lon, lat) (V3 lon0 lat0 0)) in HS; assumption. }
  assert (GEN : forall s : simulator V, sm_args s = a -> sm_bore s = (br, bp, by_) ->
     exists world, generate_camera s lon lat alt roll pitch yaw = Ok (GoodCamera (mkPlaced cam world (lon, lat)))).
  { intros s A1 A2. assert (HN' : sa_order (sm_args s) = order_name t1 t2 t3') by (rewrite A1; exact HN).
    pose proof (generate_good s lon lat alt roll pitch yaw t1 t2 t3' br bp by_ HO HN' A2) as Q. cbv zeta in Q. rewrite A1 in Q. rewrite !Rmult_1_r in Q.
    exists (sm_world s). exact (Q HM). }
  destruct (image_made V sample a ops d0 lon lat alt roll pitch yaw br bp by_ gdal_inv g w h cam _ N1 N2 N3 HI Hg HE GEN GRD) as (im & d & E1 & E2 & E3).
  exists im, d. split; [exact E1|]. split; [exact E2|]. intros r c Hr Hc. destruct (E3 r c Hr Hc) as (x & y & glon & glat & Q1 & Q2 & (u & v & Q3 & Q4 & Q5) & Q6).
  exists x, y, glon, glat, u, v. auto 10.
Qed.
Print Assumptions C77_tilted.

(** The hypotheses of C77_tilted (hence of C36_pinhole and C36_own_steps) are met: ten by ten pixels of 10 cm with
    a focal length of 1 m, 1000 m above the ground, tilted by a milliradian. *)
Example C77_tilted_met : let M := sim_orientation 1 0 0 0 Roll Pitch Yaw (1 / 1000) 0 0 in
  let cam := mkIdeal (mkPinhole (V3 0 0 1000) 1 M) (1 / 10) (1 / 10) (INR 10) (INR 10) false true in
  let D := Rabs (depth cam 0 0 0) in
  M <> id3 /\ -1 < e31 M < 1 /\ views cam (0, 0) 0 2300 D (Rabs 1000) (1 / 100) (1 / 400) 10 10 /\
  exists L m, L = bend D (1 / 100) (1 / 400) 10 /\ m = slope D (Rabs 1000) (1 / 100) 10 /\
  3 * L < m /\ m - L <= 2 ^ 53 /\ 1 < 2 ^ 1021 * (m - L) /\ INR 10 / 2 + 10 * (1 / 100) <= 51 / 10 /\ (51 / 10) / (m - 3 * L) + 2 / (m - L) + 2 <= 2300 /\
  L < Rabs (1 / (1 / 10)) * Rabs (e11 M - e13 M / e33 M * e31 M) / D /\ (2 * L / (m - L)) ^ 1000 * (51 / 10) <= 1 / 100.
Proof.
  intros M. assert (EM : M = about_x (1 / 1000)).
  { unfold M, sim_orientation, turned, turn_matrix. rewrite !Rmult_0_l, Rmult_1_r. unfold about_x, about_y, about_z. rewrite sin_0, cos_0. m3. }
  set (s := sin (1 / 1000)). set (k := cos (1 / 1000)).
  assert (S1 : 0 < s < 1 / 1000). { pose proof PI_RGT_0. pose proof PI2_3_2. unfold PI2 in *. split; [apply sin_gt_0; lra|apply sin_lt_x; lra]. }
  assert (SK : s * s + k * k = 1) by (pose proof (sin2_cos2 (1 / 1000)) as Q; unfold Rsqr in Q; exact Q).
  assert (K1 : 999 / 1000 < k <= 1).
  { pose proof (COS_bound (1 / 1000)) as CB. fold k in CB. pose proof PI2_3_2. unfold PI2 in *. assert (0 <= k) by (apply cos_ge_0; lra). split; [nra|lra]. }
  pose proof (P_Photo.about_x_rot (1 / 1000)) as HR. rewrite EM. clear EM M. unfold about_x in *. fold s k in HR |- *. clearbody s k. cbn zeta.
  set (cam := mkIdeal _ _ _ _ _ _ _). assert (ED : depth cam 0 0 0 = - (k * 1000)) by (unfold depth, cam; cbn; ring).
  rewrite ED, Rabs_Ropp, (Rabs_pos_eq (k * 1000)) by lra. set (D := k * 1000) in *. assert (HD : 999 < D <= 1000) by (unfold D; lra).
  cbn [e11 e12 e13 e21 e22 e23 e31 e32 e33].
  split; [intros E; apply (f_equal e33) in E; cbn in E; nra|]. split; [lra|]. split.
  - constructor; cbn [cam ip_camera ph_M ph_pos ph_f ip_pitch_x ip_pitch_y fst snd]; try change (mkIdeal _ _ _ _ _ _ _) with cam.
    + exact HR.
    + rewrite ED, Rabs_Ropp, Rabs_pos_eq; lra.
    + lra.
    + cbn. rewrite Rminus_0_l, Rabs_Ropp. reflexivity.
    + replace (cam_x cam 0 0 0) with 0 by (unfold cam_x, cam; cbn; ring). rewrite Rabs_R0. lra.
    + replace (cam_y cam 0 0 0) with (- (s * 1000)) by (unfold cam_y, cam; cbn; ring). rewrite Rabs_Ropp, Rabs_pos_eq; lra.
    + lra.
    + cbn. rewrite Rabs_R0. lra.
    + cbn. rewrite Rabs_Ropp, Rabs_pos_eq; lra.
    + lra.
    + lra.
    + lra.
    + rewrite Rabs_pos_eq; lra.
    + rewrite Rabs_pos_eq; lra.
  - exists (bend D (1 / 100) (1 / 400) 10), (slope D (Rabs 1000) (1 / 100) 10). split; [reflexivity|]. split; [reflexivity|].
    rewrite (Rabs_pos_eq 1000), (Rabs_pos_eq (1 / (1 / 10))) by lra. replace (1 - 0 / k * 0) with 1 by (field; lra). rewrite Rabs_R1.
    replace (INR 10) with 10 by (cbn; ring).
    assert (I : 1 / 1000 <= / D <= 1 / 999).
    { split; [replace (1 / 1000) with (/ 1000) by lra|replace (1 / 999) with (/ 999) by lra]; apply Rinv_le_contravar; lra. }
    assert (EL : bend D (1 / 100) (1 / 400) 10 = 8080 / 159201 * / D) by (unfold bend; field; lra).
    assert (EM : slope D 1000 (1 / 100) 10 = 1000000 / 303 * (/ D * / D)) by (unfold slope; field; lra).
    set (L := bend D (1 / 100) (1 / 400) 10) in *. set (m := slope D 1000 (1 / 100) 10) in *.
    assert (I2 : 1 / 1000000 <= / D * / D <= 1 / 998001) by nra.
    assert (BL : 0 < L <= 51 / 1000000) by (rewrite EL; lra). assert (BM : 33 / 10000 <= m <= 34 / 10000) by (rewrite EM; lra).
    clear EL EM. clearbody L m. split; [lra|]. split; [lra|]. split.
    { assert (P : 2 ^ 10 <= 2 ^ 1021) by (apply Rle_pow; [lra|]; apply Nat.leb_le; reflexivity). revert P. generalize (2 ^ 1021). intros t P. nra. }
    split; [lra|]. split.
    { assert (A : 51 / 10 / (m - 3 * L) <= 51 / 10 / (31 / 10000)) by (apply Rmult_le_compat_l; [lra|apply Rinv_le_contravar; lra]).
      assert (B : 2 / (m - L) <= 2 / (32 / 10000)) by (apply Rmult_le_compat_l; [lra|apply Rinv_le_contravar; lra]). lra. }
    split; [unfold Rdiv; lra|].
    set (q := 2 * L / (m - L)). assert (Q : 0 <= q <= 4 / 100).
    { split; [apply Rmult_le_pos; [lra|left; apply Rinv_0_lt_compat; lra]|]. apply (Rmult_le_reg_r (m - L)); [lra|]. unfold q. replace (2 * L / (m - L) * (m - L)) with (2 * L) by (field; lra). nra. }
    clearbody q. change 1000%nat with (2 + 998)%nat. rewrite pow_add. assert (P : 0 <= q ^ 998 <= 1) by (split; [apply pow_le; lra|apply pow_le_1; lra]).
    revert P. generalize (q ^ 998). intros t P. cbn [pow]. assert (q * (q * 1) <= 16 / 10000) by nra. assert (0 <= q * (q * 1)) by nra. nra.
Qed.
