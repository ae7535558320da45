(** C76 - C80: the camera simulator, local UTM projections, shifts by metres and IGM images. *)
From Coq Require Import String.
From Verif Require Import RAux Text Py Geo3 M_Photo M_PointCalc M_Image M_Cameras M_Sim.
From Verif Require Import Spec_Photo P_Photo Spec_Sim P_Sim.
From Verif Require P_TextFiles Prop_Photo Spec_PointCalc P_PointCalc Prop_PointCalc Spec_Cameras Prop_Cameras Spec_Dem Prop_Dem.
From Verif Require Import M_Dem.
Open Scope R_scope.
Open Scope list_scope.

(* ============================== C76 =============================== *)

(** Every image ever made by a simulator, whatever was done before: its camera is a pinhole
    camera at (lon, lat, alt) whose orientation is the product of the boresight (angles in the
    boresight's units and order, moved by 1e-8 when they are within 1e-8 of zero) and of the fixture
    (roll, pitch, yaw, read in the same units); rows count downwards; its projection is the
    one in force. *)
Theorem C76_camera : forall V (sample : sampler V) a ops k im read lon lat alt roll pitch yaw t1 t2 t3' br bp by_,
  is_order t1 t2 t3' -> sa_order a = order_name t1 t2 t3' ->
  nudged (sa_roll a) br -> nudged (sa_pitch a) bp -> nudged (sa_yaw a) by_ ->
  sa_focal a * su_focal a <> 0 -> sa_pitch_x a * su_pitch a <> 0 -> sa_pitch_y a * su_pitch a <> 0 ->
  nth_error ops k = Some (Simulate read lon lat alt roll pitch yaw) ->
  nth_error (snd (sim_run sample (sim_init a) ops)) k = Some (Some (Ok im)) ->
  let M := sim_orientation (su_boresight a) br bp by_ t1 t2 t3' roll pitch yaw in
  rotation M /\ camera_center (si_camera im) = (lon, lat) /\
  camera_proj (si_camera im) = last_world (firstn k ops) (first_world a) /\
  (-1 < e31 M < 1 -> forall p u v,
     camera_pixel (si_camera im) (Fin (vx p)) (Fin (vy p)) (Fin (vz p)) = (Fin u, Fin v) <->
     sees (V3 lon lat (alt * su_alt a)) M (sa_focal a * su_focal a) (sa_pitch_x a * su_pitch a) (sa_pitch_y a * su_pitch a)
          (INR (sa_npix_x a)) (INR (sa_npix_y a)) p u v) /\
  (~ -1 < e31 M < 1 -> (e31 M = 1 \/ e31 M = -1) /\ forall x y z, camera_pixel (si_camera im) x y z = (NonFinite, NonFinite)).
Proof.
  intros V sample a ops k im read lon lat alt roll pitch yaw t1 t2 t3' br bp by_ HO HN N1 N2 N3 Hf Hx Hy HK HI M.
  destruct (run_nth sample ops (sim_init a) k im read lon lat alt roll pitch yaw HK HI) as (sk & d & A1 & A2 & A3 & A4 & _).
  destruct (image_pixels sample sk d im _ _ _ _ _ _ A4) as (G & _).
  cbn [sim_init sm_args sm_bore sm_world] in A1, A2, A3.
  rewrite (nudged_fun _ _ _ (nudge_spec (sa_roll a)) N1), (nudged_fun _ _ _ (nudge_spec (sa_pitch a)) N2), (nudged_fun _ _ _ (nudge_spec (sa_yaw a)) N3) in A2.
  destruct (sim_orientation_M (su_boresight a) br bp by_ t1 t2 t3' roll pitch yaw _ HO eq_refl) as [_ HR]. fold M in HR.
  split; [exact HR|].
  assert (HN' : sa_order (sm_args sk) = order_name t1 t2 t3') by (rewrite A1; exact HN).
  destruct (orientation_range (su_boresight a) br bp by_ t1 t2 t3' roll pitch yaw HO) as [HG|HG]; fold M in HG.
  - pose proof (generate_good sk lon lat alt roll pitch yaw t1 t2 t3' br bp by_ HO HN' A2) as Q. cbv zeta in Q. rewrite A1 in Q.
    specialize (Q HG). rewrite G in Q. injection Q as ->. cbn [camera_center camera_proj pc_center pc_proj].
    split; [reflexivity|]. split; [exact A3|]. split; [|intros C; destruct (C HG)].
    intros _ p u v. fold M. rewrite !Rmult_1_r. apply sees_ideal; assumption.
  - pose proof (generate_gimbal sk lon lat alt roll pitch yaw t1 t2 t3' br bp by_ HO HN' A2) as Q. cbv zeta in Q. rewrite A1 in Q.
    specialize (Q HG). rewrite G in Q. injection Q as ->. cbn [camera_center camera_proj].
    split; [reflexivity|]. split; [exact A3|]. split; [intros C; lra|]. intros _. split; [exact HG|]. reflexivity.
Qed.
Print Assumptions C76_camera.

(** The stored boresight angle: there is exactly one, it differs from the given one by at
    most 1e-8; it is zero for one given angle only, -1e-8. *)
Theorem C76_nudge : forall given, exists stored, nudged given stored /\ nudge given = stored /\
  (forall s, nudged given s -> s = stored) /\ Rabs (stored - given) <= 1 / 100000000 /\ (stored = 0 <-> given = - (1 / 100000000)).
Proof.
  intros g. exists (nudge g). pose proof (nudge_spec g) as N. split; [exact N|]. split; [reflexivity|].
  split; [intros s H; exact (nudged_fun _ _ _ H N)|].
  destruct N as [[H ->]|[H ->]].
  - replace (g + 1 / 100000000 - g) with (1 / 100000000) by ring. rewrite Rabs_pos_eq by lra. split; [lra|]. split; intros; lra.
  - rewrite Rminus_diag_eq by reflexivity. rewrite Rabs_R0. split; [lra|]. split.
    + intros ->. rewrite Rabs_R0 in H. lra.
    + intros ->. rewrite Rabs_Ropp, Rabs_pos_eq in H by lra. lra.
Qed.
Print Assumptions C76_nudge.

(** In gimbal lock the image is made, and every pixel holds the same value: the sampling of
    the band at coordinates that are not numbers. *)
Theorem C76_gimbal_image : forall V (sample : sampler V) a ops d0 lon lat alt roll pitch yaw t1 t2 t3' br bp by_,
  is_order t1 t2 t3' -> sa_order a = order_name t1 t2 t3' ->
  nudged (sa_roll a) br -> nudged (sa_pitch a) bp -> nudged (sa_yaw a) by_ ->
  (0 < sa_npix_x a)%nat -> (0 < sa_npix_y a)%nat -> gc_inv (sa_gtiff a) <> None ->
  let M := sim_orientation (su_boresight a) br bp by_ t1 t2 t3' roll pitch yaw in
  e31 M = 1 \/ e31 M = -1 ->
  let history := ops ++ [Simulate (Ok d0) lon lat alt roll pitch yaw] in
  let outcomes := snd (sim_run sample (sim_init a) history) in
  exists im d, nth_error outcomes (length ops) = Some (Some (Ok im)) /\ used_band history outcomes (length ops) d /\
    forall r c, (r < sa_npix_y a)%nat -> (c < sa_npix_x a)%nat -> band_at (si_band im) r c = Some (sample d NonFinite NonFinite).
Proof.
  intros V sample a ops d0 lon lat alt roll pitch yaw t1 t2 t3' br bp by_ HO HN N1 N2 N3 Hnx Hny HG M HM history outcomes.
  assert (ED : exists im, nth_error outcomes (length ops) = Some (Some (Ok im))).
  { unfold outcomes, history. rewrite run_app. cbn [snd]. rewrite nth_error_app2 by (rewrite run_length; lia).
    rewrite run_length, Nat.sub_diag. destruct (run_args sample ops (sim_init a)) as (A1 & A2 & A3).
    set (s := fst (sim_run sample (sim_init a) ops)) in *. cbn [sim_init sm_args sm_bore sm_world] in A1, A2, A3.
    rewrite (nudged_fun _ _ _ (nudge_spec (sa_roll a)) N1), (nudged_fun _ _ _ (nudge_spec (sa_pitch a)) N2), (nudged_fun _ _ _ (nudge_spec (sa_yaw a)) N3) in A2.
    cbn [sim_run sim_step]. unfold create_overhead_image_object.
    assert (HN' : sa_order (sm_args s) = order_name t1 t2 t3') by (rewrite A1; exact HN).
    pose proof (generate_gimbal s lon lat alt roll pitch yaw t1 t2 t3' br bp by_ HO HN' A2) as Q. cbv zeta in Q. rewrite A1 in Q.
    rewrite (Q HM). cbn [bind]. rewrite A1. rewrite nan_ground by assumption. cbn [bind].
    rewrite (mapM_ok _ (fun _ => (NonFinite, NonFinite))).
    2: { intros p Hp. apply in_map_iff in Hp. destruct Hp as (q & <- & _). cbn [gtiff_pixel]. destruct (gc_inv (sa_gtiff a)); [reflexivity|congruence]. }
    cbn [bind].
    destruct (match sm_data s with Some d => Ok d | None => Ok d0 end) as [d|e|] eqn:ED; [|destruct (sm_data s); discriminate|destruct (sm_data s); discriminate].
    unfold unflatten_image_band. rewrite !map_length, grid_length, Nat.eqb_refl. cbn. eexists; reflexivity. }
  destruct ED as (im & EI). exists im.
  assert (HK : nth_error history (length ops) = Some (Simulate (Ok d0) lon lat alt roll pitch yaw)).
  { unfold history. rewrite nth_error_app2, Nat.sub_diag by lia. reflexivity. }
  destruct (run_nth sample history (sim_init a) (length ops) im (Ok d0) lon lat alt roll pitch yaw HK EI) as (sk & d & A1 & A2 & A3 & A4 & A5).
  exists d. split; [exact EI|]. split; [destruct A5 as [A5|[_ A5]]; [discriminate|exact A5]|].
  destruct (image_pixels sample sk d im _ _ _ _ _ _ A4) as (G & _ & _ & _ & _ & _ & _ & ground & E & _ & P).
  cbn [sim_init sm_args sm_bore sm_world] in A1, A2, A3. rewrite A1 in *.
  rewrite (nudged_fun _ _ _ (nudge_spec (sa_roll a)) N1), (nudged_fun _ _ _ (nudge_spec (sa_pitch a)) N2), (nudged_fun _ _ _ (nudge_spec (sa_yaw a)) N3) in A2.
  assert (HN' : sa_order (sm_args sk) = order_name t1 t2 t3') by (rewrite A1; exact HN).
  pose proof (generate_gimbal sk lon lat alt roll pitch yaw t1 t2 t3' br bp by_ HO HN' A2) as Q. cbv zeta in Q. rewrite A1 in Q.
  specialize (Q HM). rewrite G in Q. injection Q as EC. rewrite EC in E. rewrite nan_ground in E by assumption. injection E as <-.
  intros r c Hr Hc. destruct (P r c Hr Hc) as (g & X & Y & Eg & EX & EB). rewrite EB.
  rewrite nth_error_map in Eg. destruct (nth_error (grid_requests _ _) _); [|discriminate]. injection Eg as <-.
  cbn [gtiff_pixel] in EX. destruct (gc_inv (sa_gtiff a)); [injection EX as <- <-; reflexivity|discriminate].
Qed.
Print Assumptions C76_gimbal_image.

(** A boresight order that is none of the six documented ones is not an error: the camera then has one
    fixed orientation, looking horizontally, whatever the angles are. *)
Theorem C76_unknown_order : forall V (sample : sampler V) a ops k im read lon lat alt roll pitch yaw,
  (forall t1 t2 t3', is_order t1 t2 t3' -> sa_order a <> order_name t1 t2 t3') ->
  sa_focal a * su_focal a <> 0 -> sa_pitch_x a * su_pitch a <> 0 -> sa_pitch_y a * su_pitch a <> 0 ->
  nth_error ops k = Some (Simulate read lon lat alt roll pitch yaw) ->
  nth_error (snd (sim_run sample (sim_init a) ops)) k = Some (Some (Ok im)) ->
  forall p u v, camera_pixel (si_camera im) (Fin (vx p)) (Fin (vy p)) (Fin (vz p)) = (Fin u, Fin v) <->
     sees (V3 lon lat (alt * su_alt a)) (M3 0 0 1 (-1) 0 0 0 (-1) 0) (sa_focal a * su_focal a) (sa_pitch_x a * su_pitch a) (sa_pitch_y a * su_pitch a)
          (INR (sa_npix_x a)) (INR (sa_npix_y a)) p u v.
Proof.
  intros V sample a ops k im read lon lat alt roll pitch yaw HO Hf Hx Hy HK HI p u v.
  destruct (run_nth sample ops (sim_init a) k im read lon lat alt roll pitch yaw HK HI) as (sk & d & A1 & A2 & A3 & A4 & _).
  destruct (image_pixels sample sk d im _ _ _ _ _ _ A4) as (G & _). cbn [sim_init sm_args] in A1.
  pose proof (generate_unknown sk lon lat alt roll pitch yaw) as Q. cbv zeta in Q. rewrite A1 in Q. specialize (Q HO). rewrite G in Q.
  injection Q as ->. rewrite !Rmult_1_r. apply sees_ideal; try assumption.
  apply rotation_intro; [m3|unfold det3; cbn; ring].
Qed.
Print Assumptions C76_unknown_order.

(** external_orientation_rpy_units has no effect on any outcome of any history. *)
Theorem C76_units_ignored : forall V (sample : sampler V) a u ops,
  snd (sim_run sample (sim_init (with_rpy_units a u)) ops) = snd (sim_run sample (sim_init a) ops).
Proof. intros. apply run_units. Qed.
Print Assumptions C76_units_ignored.

(* ============================== C77 =============================== *)

(** Every image ever made has the camera's size and one band; its pixel (row, column) holds the first band of
    the geotiff, as it was when the first image was made, sampled at the geotiff position whose
    world coordinates are the ground position that the image's own point calculator gives for
    that pixel at altitude zero. *)
Theorem C77_pixels : forall V (sample : sampler V) a ops k im read lon lat alt roll pitch yaw gdal_inv g w h,
  Spec_Cameras.gdal_inverse gdal_inv -> Spec_Cameras.invertible g -> sa_gtiff a = set_geot gdal_inv g w h ->
  nth_error ops k = Some (Simulate read lon lat alt roll pitch yaw) ->
  nth_error (snd (sim_run sample (sim_init a) ops)) k = Some (Some (Ok im)) ->
  si_npix_x im = sa_npix_x a /\ si_npix_y im = sa_npix_y a /\ si_n_bands im = 1%nat /\
  band_wf (si_band im) /\ b_ny (si_band im) = sa_npix_y a /\ b_nx (si_band im) = sa_npix_x a /\
  exists d ground, used_band ops (snd (sim_run sample (sim_init a) ops)) k d /\
    ground_of (si_camera im) (sa_npix_x a) (sa_npix_y a) ground /\
    forall r c, (r < sa_npix_y a)%nat -> (c < sa_npix_x a)%nat -> exists p X Y,
      nth_error ground (r * sa_npix_x a + c) = Some p /\ band_at (si_band im) r c = Some (sample d Y X) /\
      match p with
      | (Fin glon, Fin glat) => exists x y, X = Fin x /\ Y = Fin y /\ gt_pixel_to_lon_lat (sa_gtiff a) x y = (glon, glat)
      | _ => X = NonFinite /\ Y = NonFinite
      end.
Proof.
  intros V sample a ops k im read lon lat alt roll pitch yaw gdal_inv g w h HI Hg HE HK HM.
  destruct (run_nth sample ops (sim_init a) k im read lon lat alt roll pitch yaw HK HM) as (sk & d & A1 & A2 & A3 & A4 & A5).
  destruct (image_pixels sample sk d im _ _ _ _ _ _ A4) as (G & S1 & S2 & S3 & S4 & S5 & S6 & ground & E & _ & P).
  cbn [sim_init sm_args] in A1. rewrite A1 in *.
  repeat (split; [assumption|]). exists d, ground. split; [destruct A5 as [A5|[_ A5]]; [discriminate|exact A5]|].
  split; [apply ground_of_ground; exact E|]. intros r c Hr Hc. destruct (P r c Hr Hc) as (p & X & Y & E1 & E2 & E3).
  exists p, X, Y. split; [exact E1|]. split; [exact E3|]. rewrite HE in *. exact (gtiff_pixel_spec _ _ _ _ _ _ _ HI Hg E2).
Qed.
Print Assumptions C77_pixels.

(** Those ground positions are seen by the camera within 1/100 of a pixel, unless the solver
    used all its 1000 rounds. *)
Theorem C77_accuracy : forall V (sample : sampler V) a ops k im read lon lat alt roll pitch yaw ground,
  nth_error ops k = Some (Simulate read lon lat alt roll pitch yaw) ->
  nth_error (snd (sim_run sample (sim_init a) ops)) k = Some (Some (Ok im)) ->
  ground_of (si_camera im) (sa_npix_x a) (sa_npix_y a) ground ->
  (0 < sa_npix_x a)%nat -> (0 < sa_npix_y a)%nat ->
  length ground = (sa_npix_y a * sa_npix_x a)%nat /\
  exists d_lon d_lat n, (n <= 1000)%nat /\
    ground = Nat.iter n (map2 (newton (camera_pixel (si_camera im)) d_lon d_lat) (all_pixels (sa_npix_x a) (sa_npix_y a)))
               (map (fun _ => (Fin (fst (camera_center (si_camera im))), Fin (snd (camera_center (si_camera im))))) (all_pixels (sa_npix_x a) (sa_npix_y a))) /\
    ((n < 1000)%nat -> forall r c, (r < sa_npix_y a)%nat -> (c < sa_npix_x a)%nat ->
       exists p x y, nth_error ground (r * sa_npix_x a + c) = Some p /\
         camera_pixel (si_camera im) (fst p) (snd p) (Fin 0) = (Fin x, Fin y) /\
         Rabs (INR c - x) <= 1 / 100 /\ Rabs (INR r - y) <= 1 / 100).
Proof.
  intros V sample a ops k im read lon lat alt roll pitch yaw ground HK HM HG Hnx Hny.
  apply ground_of_ground in HG. pose proof (camera_ground_length _ _ _ HG) as L. rewrite grid_length in L. split; [exact L|].
  unfold camera_ground in HG.
  assert (Hne : grid_requests (sa_npix_x a) (sa_npix_y a) <> []).
  { intros E. apply (f_equal (@length _)) in E. rewrite grid_length in E. cbn in E. nia. }
  destruct (Prop_PointCalc.C36_stops _ _ _ _ _ _ _ Hne HG) as (d1 & d2 & n & Hn & E & HH & _). exists d1, d2, n.
  split; [exact Hn|]. rewrite grid_requests_list in E. split; [exact E|].
  intros Hlt r c Hr Hc. specialize (HH Hlt). pose proof (grid_nth _ _ r c Hr Hc) as Q.
  destruct (hits_nth _ _ _ _ HH _ _ Q) as (p & Ep & x & y & E1 & E2 & E3). exists p, x, y. auto.
Qed.
Print Assumptions C77_accuracy.

(** A camera that looks straight down (or up), turned by any yaw except a quarter turn: the image is made, and
    every pixel is exactly the sampling at the geotiff position of the ground point at altitude
    zero that the camera sees at that pixel. *)
Theorem C77_level : forall V (sample : sampler V) a ops d0 lon lat alt roll pitch yaw t1 t2 t3' br bp by_ gdal_inv g w h,
  is_order t1 t2 t3' -> sa_order a = order_name t1 t2 t3' ->
  nudged (sa_roll a) br -> nudged (sa_pitch a) bp -> nudged (sa_yaw a) by_ ->
  Spec_Cameras.gdal_inverse gdal_inv -> Spec_Cameras.invertible g -> sa_gtiff a = set_geot gdal_inv g w h ->
  (0 < sa_npix_x a)%nat -> (0 < sa_npix_y a)%nat ->
  let M := sim_orientation (su_boresight a) br bp by_ t1 t2 t3' roll pitch yaw in
  let Z := alt * su_alt a in let f := sa_focal a * su_focal a in
  let px := sa_pitch_x a * su_pitch a in let py := sa_pitch_y a * su_pitch a in
  e31 M = 0 -> e32 M = 0 -> e11 M <> 0 -> Z <> 0 -> f <> 0 -> px <> 0 -> py <> 0 ->
  Rabs (Z * px) < 2 ^ 1021 * Rabs f -> Rabs (Z * py) < 2 ^ 1021 * Rabs f ->
  let history := ops ++ [Simulate (Ok d0) lon lat alt roll pitch yaw] in
  let outcomes := snd (sim_run sample (sim_init a) history) in
  exists im d, nth_error outcomes (length ops) = Some (Some (Ok im)) /\ used_band history outcomes (length ops) d /\
    forall r c, (r < sa_npix_y a)%nat -> (c < sa_npix_x a)%nat -> exists x y glon glat,
      band_at (si_band im) r c = Some (sample d (Fin y) (Fin x)) /\
      gt_pixel_to_lon_lat (sa_gtiff a) x y = (glon, glat) /\
      sees (V3 lon lat Z) M f px py (INR (sa_npix_x a)) (INR (sa_npix_y a)) (V3 glon glat 0) (INR c) (INR r).
Proof.
  intros V sample a ops d0 lon lat alt roll pitch yaw t1 t2 t3' br bp by_ gdal_inv g w h HO HN N1 N2 N3 HI Hg HE Hnx Hny
    M Z f px py M1 M2 M3' HZ Hf Hx Hy R1 R2 history outcomes.
  destruct (sim_orientation_M (su_boresight a) br bp by_ t1 t2 t3' roll pitch yaw _ HO eq_refl) as [_ HR]. fold M in HR.
  assert (HM : -1 < e31 M < 1) by (rewrite M1; lra).
  assert (GEN : forall s : simulator V, sm_args s = a -> sm_bore s = (br, bp, by_) ->
     exists c, generate_camera s lon lat alt roll pitch yaw = Ok c /\
       exists ps, camera_ground c (grid_requests (sa_npix_x a) (sa_npix_y a)) = Ok ps /\
       Forall2 (fun q p => exists lo la, p = (Fin lo, Fin la) /\
         sees (V3 lon lat Z) M f px py (INR (sa_npix_x a)) (INR (sa_npix_y a)) (V3 lo la 0) (rq_x q) (rq_y q)) (grid_requests (sa_npix_x a) (sa_npix_y a)) ps).
  { intros s A1 A2. assert (HN' : sa_order (sm_args s) = order_name t1 t2 t3') by (rewrite A1; exact HN).
    pose proof (generate_good s lon lat alt roll pitch yaw t1 t2 t3' br bp by_ HO HN' A2) as Q. cbv zeta in Q. rewrite A1 in Q.
    eexists. split; [exact (Q HM)|]. fold Z f px py M. rewrite !Rmult_1_r. unfold camera_ground. cbn [camera_center pc_center].
    assert (Hne : grid_requests (sa_npix_x a) (sa_npix_y a) <> []).
    { intros E. apply (f_equal (@length _)) in E. rewrite grid_length in E. cbn in E. nia. }
    assert (T : 0 <= 1 / 100) by lra. assert (K : (1 <= 1000)%nat) by (apply Nat.leb_le; reflexivity).
    destruct (level_ground lon lat Z f M px py (INR (sa_npix_x a)) (INR (sa_npix_y a)) (sm_world s) (lon, lat) (1 / 100) 1000
      (grid_requests (sa_npix_x a) (sa_npix_y a)) HR M1 M2 M3' HZ Hf Hx Hy R1 R2 Hne (grid_alt _ _) (grid_avg _ _) T K) as (ps & E & F).
    exists ps. split; [exact E|]. revert F. apply Forall2_imp. intros q p (lo & la & -> & EE). exists lo, la. split; [reflexivity|].
    apply (sees_ideal (V3 lon lat Z) M f px py _ _ (sm_world s) (lon, lat)); assumption. }
  assert (ED : exists im, nth_error outcomes (length ops) = Some (Some (Ok im))).
  { unfold outcomes, history. rewrite run_app. cbn [snd]. rewrite nth_error_app2 by (rewrite run_length; lia).
    rewrite run_length, Nat.sub_diag. destruct (run_args sample ops (sim_init a)) as (A1 & A2 & A3).
    set (s := fst (sim_run sample (sim_init a) ops)) in *. cbn [sim_init sm_args sm_bore sm_world] in A1, A2, A3.
    rewrite (nudged_fun _ _ _ (nudge_spec (sa_roll a)) N1), (nudged_fun _ _ _ (nudge_spec (sa_pitch a)) N2), (nudged_fun _ _ _ (nudge_spec (sa_yaw a)) N3) in A2.
    destruct (GEN s A1 A2) as (c & EC & ps & EP & F).
    cbn [sim_run sim_step]. unfold create_overhead_image_object. rewrite A1, EC. cbn [bind]. rewrite EP. cbn [bind].
    destruct (mapM (gtiff_pixel (sa_gtiff a)) ps) as [pixels|e|] eqn:EM.
    - cbn [bind]. destruct (match sm_data s with Some d => Ok d | None => Ok d0 end) as [d|e|] eqn:ED; [|destruct (sm_data s); discriminate|destruct (sm_data s); discriminate].
      unfold unflatten_image_band. rewrite !map_length, (mapM_length _ _ _ EM), (camera_ground_length _ _ _ EP), grid_length, Nat.eqb_refl. cbn. eexists; reflexivity.
    - exfalso. destruct (Prop_Cameras.C34_round_trip gdal_inv g w h HI Hg) as [_ H].
      assert (NM : exists l, mapM (gtiff_pixel (sa_gtiff a)) ps = Ok l); [|destruct NM as [l NM]; congruence].
      rewrite HE. clear - F H. induction F as [|q p qs ps (lo & la & -> & _) F IH]; [eexists; reflexivity|]. cbn [mapM gtiff_pixel].
      destruct (H lo la) as (x & y & -> & _). cbn [bind]. destruct IH as (l & ->). eexists; reflexivity.
    - exfalso. destruct (Prop_Cameras.C34_round_trip gdal_inv g w h HI Hg) as [_ H].
      assert (NM : exists l, mapM (gtiff_pixel (sa_gtiff a)) ps = Ok l); [|destruct NM as [l NM]; congruence].
      rewrite HE. clear - F H. induction F as [|q p qs ps (lo & la & -> & _) F IH]; [eexists; reflexivity|]. cbn [mapM gtiff_pixel].
      destruct (H lo la) as (x & y & -> & _). cbn [bind]. destruct IH as (l & ->). eexists; reflexivity. }
  destruct ED as (im & EI). exists im.
  assert (HK : nth_error history (length ops) = Some (Simulate (Ok d0) lon lat alt roll pitch yaw)).
  { unfold history. rewrite nth_error_app2, Nat.sub_diag by lia. reflexivity. }
  destruct (run_nth sample history (sim_init a) (length ops) im (Ok d0) lon lat alt roll pitch yaw HK EI) as (sk & d & A1 & A2 & A3 & A4 & A5).
  exists d. split; [exact EI|]. split; [destruct A5 as [A5|[_ A5]]; [discriminate|exact A5]|].
  destruct (image_pixels sample sk d im _ _ _ _ _ _ A4) as (G & _ & _ & _ & _ & _ & _ & ground & E & _ & P).
  cbn [sim_init sm_args sm_bore sm_world] in A1, A2, A3.
  rewrite (nudged_fun _ _ _ (nudge_spec (sa_roll a)) N1), (nudged_fun _ _ _ (nudge_spec (sa_pitch a)) N2), (nudged_fun _ _ _ (nudge_spec (sa_yaw a)) N3) in A2.
  destruct (GEN sk A1 A2) as (c0 & EC & ps & EP & F). rewrite A1 in *. rewrite G in EC. injection EC as <-. rewrite E in EP. injection EP as <-.
  intros r c Hr Hc. destruct (P r c Hr Hc) as (p & X & Y & Eg & EX & EB).
  destruct (Forall2_nth_l _ _ _ F _ _ (grid_nth _ _ r c Hr Hc)) as (p' & Ep & lo & la & -> & HS). rewrite Eg in Ep. injection Ep as ->.
  rewrite HE in EX. destruct (gtiff_pixel_spec _ _ _ _ _ _ _ HI Hg EX) as (x & y & -> & -> & EG).
  exists x, y, lo, la. split; [exact EB|]. split; [rewrite HE; exact EG|exact HS].
Qed.
Print Assumptions C77_level.

(** A simulator with one pixel of one metre and focal length one metre over the geotiff whose pixels are the
    world's units; boresight angles -1e-8 are stored as zero, so that the camera is level. *)
Definition demo_args (gdal_inv : geot -> option geot) (u_rpy : R) (world : option projection) : sim_args :=
  mkSimArgs (set_geot gdal_inv (mkGeot 0 1 0 0 0 1) 10 10) (mkProjection (txt "a")) 1 1 1
    (- (1 / 100000000)) (- (1 / 100000000)) (- (1 / 100000000)) 1 1 1 1 1 (txt "rpy") 1 u_rpy world.
Lemma demo_nudged : nudged (- (1 / 100000000)) 0.
Proof. left. rewrite Rabs_Ropp, Rabs_pos_eq by lra. split; lra. Qed.
Lemma demo_orientation yaw : sim_orientation 1 0 0 0 Roll Pitch Yaw 0 0 yaw = about_z yaw.
Proof.
  unfold sim_orientation, turned, turn_matrix. rewrite !Rmult_0_l, Rmult_1_r. unfold about_x, about_y, about_z. rewrite sin_0, cos_0. m3.
Qed.
Lemma demo_inverse : exists f, Spec_Cameras.gdal_inverse f.
Proof. destruct Prop_Cameras.C34_contract_met as (f & H & _). exists f. exact H. Qed.
Lemma demo_invertible : Spec_Cameras.invertible (mkGeot 0 1 0 0 0 1).
Proof. unfold Spec_Cameras.invertible. cbn. lra. Qed.
Lemma demo_small : 1 < 2 ^ 1021.
Proof. apply (Rlt_pow_R1 2 1021); [lra|]. apply Nat.ltb_lt. reflexivity. Qed.

(** The hypotheses of C77_level (hence of C77_pixels and C76_camera, whose image it makes) are met: a level
    camera with a half turn of yaw, after a first image and a change of projection. *)
Lemma demo_level : forall gdal_inv u_rpy world (ops : list (sim_op flt)) d0 yaw, Spec_Cameras.gdal_inverse gdal_inv -> cos yaw <> 0 ->
  let a := demo_args gdal_inv u_rpy world in
  let sample := (fun (_ : band flt) (_ X : flt) => X) : sampler flt in
  let history := ops ++ [Simulate (Ok d0) 0 0 1 0 0 yaw] in
  let outcomes := snd (sim_run sample (sim_init a) history) in
  exists im d, nth_error outcomes (length ops) = Some (Some (Ok im)) /\ used_band history outcomes (length ops) d /\
    exists x y glon glat, band_at (si_band im) 0 0 = Some (Fin x) /\ gt_pixel_to_lon_lat (sa_gtiff a) x y = (glon, glat) /\
      sees (V3 0 0 1) (about_z yaw) 1 1 1 1 1 (V3 glon glat 0) 0 0.
Proof.
  intros gdal_inv u_rpy world ops d0 yaw HI HC a sample history outcomes.
  assert (HO : is_order Roll Pitch Yaw) by (repeat split; discriminate).
  pose proof (C77_level flt sample a ops d0 0 0 1 0 0 yaw Roll Pitch Yaw 0 0 0 gdal_inv _ 10 10 HO eq_refl demo_nudged demo_nudged demo_nudged HI
    demo_invertible eq_refl ltac:(cbn; lia) ltac:(cbn; lia)) as Q.
  cbn [a demo_args su_boresight su_alt sa_focal su_focal sa_pitch_x sa_pitch_y su_pitch sa_npix_x sa_npix_y] in Q.
  rewrite demo_orientation in Q. cbv zeta in Q. rewrite !Rmult_1_r, Rabs_R1, Rmult_1_r in Q.
  destruct Q as (im & d & E & U & P); try (cbn; lra); try exact HC; try exact demo_small.
  exists im, d. split; [exact E|]. split; [exact U|]. destruct (P 0%nat 0%nat) as (x & y & glon & glat & E1 & E2 & E3); [lia|lia|].
  exists x, y, glon, glat. split; [exact E1|]. split; [exact E2|exact E3].
Qed.
Example C77_level_met : exists f, Spec_Cameras.gdal_inverse f /\ cos PI <> 0.
Proof. destruct demo_inverse as (f & H). exists f. split; [exact H|]. rewrite cos_PI. lra. Qed.

(** The documented meaning of external_orientation_rpy_units is not what happens: the external angles are
    read in the boresight's units.  Here external angles are documented to be degrees and the yaw is
    3.14..; the camera is turned by half a turn. *)
Theorem C76_units_refuted : exists (sample : sampler flt) a d0 yaw im p u v,
  snd (sim_run sample (sim_init a) [Simulate (Ok d0) 0 0 1 0 0 yaw]) = [Some (Ok im)] /\
  nudged (sa_roll a) 0 /\ nudged (sa_pitch a) 0 /\ nudged (sa_yaw a) 0 /\ sa_order a = txt "rpy" /\ su_rpy a = PI / 180 /\
  camera_pixel (si_camera im) (Fin (vx p)) (Fin (vy p)) (Fin (vz p)) = (Fin u, Fin v) /\
  ~ sees (V3 0 0 (1 * su_alt a)) (turned (0 * su_rpy a) (0 * su_rpy a) (yaw * su_rpy a) Roll Pitch Yaw)
      (sa_focal a * su_focal a) (sa_pitch_x a * su_pitch a) (sa_pitch_y a * su_pitch a)
      (INR (sa_npix_x a)) (INR (sa_npix_y a)) p u v.
Proof.
  destruct demo_inverse as (gi & HI). set (a := demo_args gi (PI / 180) None).
  set (sample := (fun (_ : band flt) (_ X : flt) => X) : sampler flt). set (d0 := mkBand 1%nat 1%nat [[NonFinite]] : band flt).
  assert (HC : cos PI <> 0) by (rewrite cos_PI; lra).
  destruct (demo_level gi (PI / 180) None [] d0 PI HI HC) as (im & d & E & _ & _). fold a sample in E.
  cbn [app length] in E. exists sample, a, d0, PI, im, (V3 1 0 0), (- (1 / 2)), (1 / 2).
  split. { pose proof (run_length sample [Simulate (Ok d0) 0 0 1 0 0 PI] (sim_init a)) as L.
    destruct (snd (sim_run sample (sim_init a) [Simulate (Ok d0) 0 0 1 0 0 PI])) as [|x [|y l]]; try discriminate L. cbn in E. congruence. }
  do 3 (split; [exact demo_nudged|]). split; [reflexivity|]. split; [reflexivity|].
  assert (HO : is_order Roll Pitch Yaw) by (repeat split; discriminate).
  destruct (C76_camera flt sample a [Simulate (Ok d0) 0 0 1 0 0 PI] 0 im (Ok d0) 0 0 1 0 0 PI Roll Pitch Yaw 0 0 0 HO eq_refl
    demo_nudged demo_nudged demo_nudged ltac:(cbn; lra) ltac:(cbn; lra) ltac:(cbn; lra) eq_refl E) as (_ & _ & _ & P & _).
  cbn [a demo_args su_boresight su_alt sa_focal su_focal sa_pitch_x sa_pitch_y su_pitch sa_npix_x sa_npix_y] in P |- *.
  rewrite demo_orientation in P. split.
  - apply P; [cbn; lra|]. exists 1. split; [lra|]. unfold Spec_Photo.on_ray, about_z. rewrite sin_PI, cos_PI. apply vec3_eq; cbn; field.
  - intros (s & Hs & Q). cbn [su_rpy] in Q. unfold turned, turn_matrix, about_x, about_y, about_z in Q. rewrite !Rmult_0_l, !sin_0, !cos_0 in Q.
    unfold Spec_Photo.on_ray in Q. cbn in Q. injection Q as Q1 Q2 Q3.
    assert (s = 1) by lra. subst s. assert (C : cos (PI * (PI / 180)) = -1) by lra.
    assert (B : 0 < cos (PI * (PI / 180))).
    { pose proof PI_RGT_0. pose proof PI_4. apply cos_gt_0; nra. }
    lra.
Qed.
Print Assumptions C76_units_refuted.

(** The hypotheses of C76_gimbal_image are met: a boresight pitch of a quarter turn. *)
Example C76_gimbal_met : exists gdal_inv a br bp by_,
  Spec_Cameras.gdal_inverse gdal_inv /\ is_order Roll Pitch Yaw /\ sa_order a = order_name Roll Pitch Yaw /\ nudged (sa_roll a) br /\ nudged (sa_pitch a) bp /\
  nudged (sa_yaw a) by_ /\ (0 < sa_npix_x a)%nat /\ (0 < sa_npix_y a)%nat /\ gc_inv (sa_gtiff a) <> None /\
  e31 (sim_orientation (su_boresight a) br bp by_ Roll Pitch Yaw 0 0 0) = 1.
Proof.
  destruct demo_inverse as (gi & HI). exists gi.
  exists (mkSimArgs (set_geot gi (mkGeot 0 1 0 0 0 1) 10 10) (mkProjection (txt "a")) 1 1 1
    (- (1 / 100000000)) 90 (- (1 / 100000000)) 1 1 1 1 (PI / 180) (txt "rpy") 1 1 None), 0, 90, 0.
  cbn [sa_order sa_roll sa_pitch sa_yaw sa_npix_x sa_npix_y sa_gtiff su_boresight].
  split; [exact HI|]. split; [repeat split; discriminate|]. split; [reflexivity|]. split; [exact demo_nudged|].
  split; [right; rewrite Rabs_pos_eq by lra; split; lra|]. split; [exact demo_nudged|]. do 2 (split; [lia|]).
  split. { intros E. destruct (Prop_Cameras.C34_round_trip gi _ 10 10 HI demo_invertible) as [_ H]. destruct (H 0 0) as (x & y & Q & _).
    unfold gt_lon_lat_to_pixel in Q. rewrite E in Q. discriminate. }
  unfold sim_orientation, turned, turn_matrix, about_x, about_y, about_z. rewrite !Rmult_0_l, sin_0, cos_0.
  replace (90 * (PI / 180)) with (PI / 2) by field. rewrite sin_PI2, cos_PI2. cbn. ring.
Qed.

(** A geotiff whose geotransform has no inverse: no history ever gives an image, and a camera in
    gimbal lock gives a TypeError. *)
Theorem C77_no_inverse : forall V (sample : sampler V) a,
  gc_inv (sa_gtiff a) = None -> (0 < sa_npix_x a)%nat -> (0 < sa_npix_y a)%nat ->
  (forall ops im, ~ In (Some (Ok im)) (snd (sim_run sample (sim_init a) ops))) /\
  (forall ops read lon lat alt roll pitch yaw t1 t2 t3' br bp by_,
   is_order t1 t2 t3' -> sa_order a = order_name t1 t2 t3' ->
   nudged (sa_roll a) br -> nudged (sa_pitch a) bp -> nudged (sa_yaw a) by_ ->
   let M := sim_orientation (su_boresight a) br bp by_ t1 t2 t3' roll pitch yaw in
   e31 M = 1 \/ e31 M = -1 ->
   nth_error (snd (sim_run sample (sim_init a) (ops ++ [Simulate read lon lat alt roll pitch yaw]))) (length ops)
   = Some (Some (Err TypeError))).
Proof.
  intros V sample a HG Hnx Hny. split.
  - intros ops im HI. apply In_nth_error in HI. destruct HI as (k & HI).
    destruct (nth_error ops k) as [o|] eqn:HK.
    2: { apply nth_error_None in HK. rewrite <- (run_length sample ops (sim_init a)) in HK. apply nth_error_None in HK. congruence. }
    destruct o as [w|read lon lat alt roll pitch yaw].
    { exfalso. revert HK HI. clear. generalize (sim_init (V := V) a) as st. revert k. induction ops as [|o ops IH]; intros [|k] st HK HI; try discriminate.
      - injection HK as ->. cbn [sim_run sim_step] in HI. destruct (sim_run sample (set_world st w) ops). discriminate.
      - cbn [nth_error] in HK. cbn [sim_run] in HI. destruct (sim_step sample st o) as [s1 r1]. specialize (IH k s1 HK).
        destruct (sim_run sample s1 ops) as [s2 rs]. cbn [snd nth_error] in *. exact (IH HI). }
    destruct (run_nth sample ops (sim_init a) k im read lon lat alt roll pitch yaw HK HI) as (sk & d & A1 & _ & _ & A4 & _).
    destruct A4 as (c & ground & pixels & b & _ & EG & EP & _). cbn [sim_init sm_args] in A1. rewrite A1 in *.
    pose proof (camera_ground_length _ _ _ EG) as L. rewrite grid_length in L.
    destruct ground as [|g ground]; [cbn in L; nia|]. cbn [mapM] in EP.
    assert (EE : gtiff_pixel (sa_gtiff a) g = Err TypeError).
    { unfold gtiff_pixel, gt_lon_lat_to_pixel. destruct g as [[x|] [y|]]; rewrite HG; reflexivity. }
    rewrite EE in EP. discriminate.
  - intros ops read lon lat alt roll pitch yaw t1 t2 t3' br bp by_ HO HN N1 N2 N3 M HM.
    rewrite run_app. cbn [snd]. rewrite nth_error_app2 by (rewrite run_length; lia).
    rewrite run_length, Nat.sub_diag. destruct (run_args sample ops (sim_init a)) as (A1 & A2 & A3).
    set (s := fst (sim_run sample (sim_init a) ops)) in *. cbn [sim_init sm_args sm_bore sm_world] in A1, A2, A3.
    rewrite (nudged_fun _ _ _ (nudge_spec (sa_roll a)) N1), (nudged_fun _ _ _ (nudge_spec (sa_pitch a)) N2), (nudged_fun _ _ _ (nudge_spec (sa_yaw a)) N3) in A2.
    cbn [sim_run sim_step]. unfold create_overhead_image_object.
    assert (HN' : sa_order (sm_args s) = order_name t1 t2 t3') by (rewrite A1; exact HN).
    pose proof (generate_gimbal s lon lat alt roll pitch yaw t1 t2 t3' br bp by_ HO HN' A2) as Q. cbv zeta in Q. rewrite A1 in Q.
    rewrite (Q HM). cbn [bind]. rewrite A1. rewrite nan_ground by assumption. cbn [bind].
    destruct (grid_requests (sa_npix_x a) (sa_npix_y a)) as [|q qs] eqn:EQ.
    { pose proof (grid_length (sa_npix_x a) (sa_npix_y a)) as L. rewrite EQ in L. cbn in L. nia. }
    cbn [map mapM gtiff_pixel]. rewrite HG. reflexivity.
Qed.
Print Assumptions C77_no_inverse.
Example C77_no_inverse_met : let a := demo_args (fun _ => None) 1 None in
  gc_inv (sa_gtiff a) = None /\ (0 < sa_npix_x a)%nat /\ (0 < sa_npix_y a)%nat.
Proof. cbn. repeat split; lia. Qed.

(** A world projection other than the geotiff's is not honoured when the geotiff is sampled: whatever transformation T
    relates the two projections (moving every easting), the value is not taken from the transformed position. *)
Theorem C77_projection_refuted : forall T : R * R -> R * R, (forall p, fst (T p) <> fst p) ->
  exists (sample : sampler flt) a d0 im x glon glat,
  snd (sim_run sample (sim_init a) [Simulate (Ok d0) 0 0 1 0 0 0]) = [Some (Ok im)] /\
  (forall d Y X, sample d Y X = X) /\
  camera_proj (si_camera im) <> sa_gtiff_proj a /\
  camera_pixel (si_camera im) (Fin glon) (Fin glat) (Fin 0) = (Fin 0, Fin 0) /\
  band_at (si_band im) 0 0 = Some (Fin x) /\
  forall y, gt_pixel_to_lon_lat (sa_gtiff a) x y <> T (glon, glat).
Proof.
  intros T HT. destruct demo_inverse as (gi & HI). set (w := mkProjection (txt "b")). set (a := demo_args gi 1 (Some w)).
  set (sample := (fun (_ : band flt) (_ X : flt) => X) : sampler flt). set (d0 := mkBand 1%nat 1%nat [[NonFinite]] : band flt).
  assert (HC : cos 0 <> 0) by (rewrite cos_0; lra).
  destruct (demo_level gi 1 (Some w) [] d0 0 HI HC) as (im & d & E & _ & x & y & glon & glat & EB & EG & HS). fold a sample in E, EG.
  cbn [app length] in E. exists sample, a, d0, im, x, glon, glat.
  split. { pose proof (run_length sample [Simulate (Ok d0) 0 0 1 0 0 0] (sim_init a)) as L.
    destruct (snd (sim_run sample (sim_init a) [Simulate (Ok d0) 0 0 1 0 0 0])) as [|x' [|y' l]]; try discriminate L. cbn in E. congruence. }
  split; [reflexivity|].
  assert (HO : is_order Roll Pitch Yaw) by (repeat split; discriminate).
  destruct (C76_camera flt sample a [Simulate (Ok d0) 0 0 1 0 0 0] 0 im (Ok d0) 0 0 1 0 0 0 Roll Pitch Yaw 0 0 0 HO eq_refl
    demo_nudged demo_nudged demo_nudged ltac:(cbn; lra) ltac:(cbn; lra) ltac:(cbn; lra) eq_refl E) as (_ & _ & W & P & _).
  split. { rewrite W. cbn. discriminate. }
  split. { cbn [a demo_args su_boresight su_alt sa_focal su_focal sa_pitch_x sa_pitch_y su_pitch sa_npix_x sa_npix_y] in P.
    rewrite demo_orientation in P. specialize (P ltac:(cbn; lra) (V3 glon glat 0) 0 0). rewrite !Rmult_1_r in P. apply P. exact HS. }
  split; [exact EB|]. intros y' Q. apply (HT (glon, glat)). rewrite <- Q, <- EG. cbn. ring.
Qed.
Print Assumptions C77_projection_refuted.

(* ============================== C78 =============================== *)

(** Where UTM is defined, the local projection of a point is its own UTM zone: the zone text is the
    number followed by the letter of the latitude band, and the projection is a southern one exactly for
    southern latitudes. *)
Theorem C78_zone : forall from_latlon lon lat, utm_package from_latlon -> -80 <= lat <= 84 -> -180 <= lon < 180 ->
  exists z l south, decimal_degrees_to_local_utm_proj from_latlon lon lat = Ok (mkUtm (str_of_Z z ++ [l]) south) /\
    utm_zone lat lon z /\ mgrs_letter lat l /\ (south = true <-> lat < 0).
Proof.
  intros fl lon lat HU Ha Ho. destruct (HU lat lon) as [H _]. destruct (H (conj Ha Ho)) as (e & n & z & l & E & Z1 & Z2).
  exists z, l, (char_ltb l "N"%char). unfold decimal_degrees_to_local_utm_proj. rewrite E. cbn [bind].
  rewrite P_TextFiles.py_get_last. cbn [bind]. split; [reflexivity|]. split; [exact Z1|]. split; [exact Z2|].
  destruct Z2 as (k & Hk & L1 & L2). assert (K : (k < 20)%nat) by (apply (nth_error_Some mgrs_letters k); congruence).
  assert (HS : char_ltb l "N"%char = true <-> (k < 10)%nat).
  { clear - Hk K. do 20 (destruct k as [|k]; [injection Hk as <-; vm_compute; split; [intros; lia || discriminate|intros; reflexivity || lia]|]). lia. }
  assert (T : INR 10 = 10) by (cbn; ring).
  rewrite HS. split; intros Q.
  - destruct L2 as [L2|[-> _]]; [|lia]. assert (Q' : (k + 1 <= 10)%nat) by lia. apply le_INR in Q'. lra.
  - destruct (lt_dec k 10) as [|N]; [assumption|]. exfalso. assert (N' : (10 <= k)%nat) by lia. apply le_INR in N'. lra.
Qed.
Print Assumptions C78_zone.

(** Elsewhere (towards the poles, or with angles out of range) it is a ValueError. *)
Theorem C78_out_of_range : forall from_latlon lon lat, utm_package from_latlon -> ~ -80 <= lat <= 84 \/ ~ -180 <= lon <= 180 ->
  decimal_degrees_to_local_utm_proj from_latlon lon lat = Err ValueError /\
  forall transform as_proj alt omega phi kappa nx ny px py f ua uo up_ uk upx upy uf fx fy,
    init_from_wgs84_params from_latlon transform as_proj lon lat alt omega phi kappa nx ny px py f ua uo up_ uk upx upy uf fx fy = Err ValueError.
Proof.
  intros fl lon lat HU H. destruct (HU lat lon) as [_ E].
  assert (D : decimal_degrees_to_local_utm_proj fl lon lat = Err ValueError) by (unfold decimal_degrees_to_local_utm_proj; rewrite (E H); reflexivity).
  split; [exact D|]. intros. unfold init_from_wgs84_params. rewrite D. reflexivity.
Qed.
Print Assumptions C78_out_of_range.

(** A camera placed by longitude and latitude is the camera placed by the transformed coordinates in the
    local UTM projection; it sees a world point (in that projection) at a pixel exactly when the point is on the pixel's ray. *)
Theorem C78_camera : forall from_latlon transform as_proj lon lat alt omega phi kappa nx ny px py f ua uo up_ uk upx upy uf fx fy,
  utm_package from_latlon -> -80 <= lat <= 84 -> -180 <= lon < 180 ->
  exists u x y c, decimal_degrees_to_local_utm_proj from_latlon lon lat = Ok u /\ transform u (lon, lat) = (x, y) /\
    init_from_wgs84_params from_latlon transform as_proj lon lat alt omega phi kappa nx ny px py f ua uo up_ uk upx upy uf fx fy = Ok c /\
    c = init_from_local_params x y alt (as_proj u) omega phi kappa nx ny px py f ua uo up_ uk upx upy uf fx fy /\
    pc_proj c = as_proj u /\ pc_center c = (x, y) /\
    (f * uf <> 0 -> px * upx <> 0 -> py * upy <> 0 -> forall p a b,
      ideal_lon_lat_alt_to_pixel (pc_ideal c) p = (Fin a, Fin b) <->
      exists s, s <> 0 /\ p = Spec_Photo.on_ray (V3 x y (alt * ua)) (turned (omega * uo) (phi * up_) (kappa * uk) Roll Pitch Yaw) (f * uf)
        ((if fx then -1 else 1) * ((a - nx / 2) * (px * upx))) ((if fy then -1 else 1) * ((b - ny / 2) * (py * upy))) s).
Proof.
  intros fl tr ap lon lat alt omega phi kappa nx ny px py f ua uo up_ uk upx upy uf fx fy HU Ha Ho.
  destruct (C78_zone fl lon lat HU Ha Ho) as (z & l & south & E & _). set (u := mkUtm _ south) in E.
  destruct (tr u (lon, lat)) as [x y] eqn:ET. exists u, x, y.
  eexists. split; [exact E|]. split; [exact ET|]. unfold init_from_wgs84_params. rewrite E. cbn [bind]. rewrite ET.
  split; [reflexivity|]. split; [reflexivity|]. split; [reflexivity|]. split; [reflexivity|].
  intros Hf Hx Hy p a b. cbn [pc_ideal].
  assert (HO : is_order Roll Pitch Yaw) by (repeat split; discriminate).
  rewrite Prop_Photo.C29_pixel_ray; [|exact (create_rot _ _ _ Roll Pitch Yaw HO)|exact Hf|exact Hx|exact Hy].
  unfold init_pinhole_from_coeffs. cbn [ph_pos ph_M ph_f]. change (txt "rpy") with (order_name Roll Pitch Yaw). rewrite (create_order _ _ _ _ _ _ HO).
  rewrite !Rmult_1_r. unfold turned, Prop_Photo.side. reflexivity.
Qed.
Print Assumptions C78_camera.

(** The contract of the utm package can be met. *)
Definition demo_band (lat : R) : nat := Nat.min (Z.to_nat (up ((lat + 80) / 8) - 1)) 19.
Definition demo_zone (lat lon : R) : Z :=
  if Rleb 56 lat && Rltb lat 64 && Rleb 3 lon && Rltb lon 12 then 32%Z
  else if Rleb 72 lat && Rleb lat 84 && Rleb 0 lon && Rltb lon 42
       then if Rltb lon 9 then 31%Z else if Rltb lon 21 then 33%Z else if Rltb lon 33 then 35%Z else 37%Z
       else up ((lon + 180) / 6).
Definition demo_utm : from_latlon_fn := fun lat lon =>
  if Rleb (-80) lat && Rleb lat 84 && Rleb (-180) lon && Rleb lon 180
  then Ok (0, 0, demo_zone lat lon, nth (demo_band lat) mgrs_letters "Z"%char) else Err ValueError.
Example C78_package_met : utm_package demo_utm.
Proof.
  intros lat lon. split.
  - intros [[A1 A2] [B1 B2]]. unfold demo_utm.
    rewrite (Rleb_true _ _ A1), (Rleb_true _ _ A2), (Rleb_true _ _ B1), (Rleb_true _ _ (Rlt_le _ _ B2)). cbn [andb].
    do 4 eexists. split; [reflexivity|]. split.
    + unfold demo_zone, utm_zone, norway, svalbard.
      assert (G : forall b, (b = true <-> 72 <= lat <= 84 /\ 0 <= lon < 42) -> ~ (56 <= lat < 64 /\ 3 <= lon < 12) ->
        (72 <= lat <= 84 /\ 0 <= lon < 42) /\ (forall z, z = (if b then if Rltb lon 9 then 31%Z else if Rltb lon 21 then 33%Z else if Rltb lon 33 then 35%Z else 37%Z else up ((lon + 180) / 6)) ->
           ((lon < 9 /\ z = 31%Z) \/ (9 <= lon < 21 /\ z = 33%Z) \/ (21 <= lon < 33 /\ z = 35%Z) \/ (33 <= lon /\ z = 37%Z))) \/
        ~ (56 <= lat < 64 /\ 3 <= lon < 12) /\ ~ (72 <= lat <= 84 /\ 0 <= lon < 42) /\
        -180 + 6 * (IZR (if b then if Rltb lon 9 then 31%Z else if Rltb lon 21 then 33%Z else if Rltb lon 33 then 35%Z else 37%Z else up ((lon + 180) / 6)) - 1) <= lon <
        -180 + 6 * IZR (if b then if Rltb lon 9 then 31%Z else if Rltb lon 21 then 33%Z else if Rltb lon 33 then 35%Z else 37%Z else up ((lon + 180) / 6))).
      { intros [|] Hb N.
        - left. split; [apply Hb; reflexivity|]. intros z ->. destruct (Rltb_spec lon 9); [left; split; [lra|reflexivity]|]. right.
          destruct (Rltb_spec lon 21); [left; split; [lra|reflexivity]|]. right. destruct (Rltb_spec lon 33); [left; split; [lra|reflexivity]|right; split; [lra|reflexivity]].
        - right. split; [exact N|]. split; [intros C; apply Hb in C; discriminate|]. destruct (archimed ((lon + 180) / 6)); lra. }
      destruct (Rleb 56 lat && Rltb lat 64 && Rleb 3 lon && Rltb lon 12)%bool eqn:E1.
      * left. split; [|reflexivity]. destruct (Rleb_spec 56 lat), (Rltb_spec lat 64), (Rleb_spec 3 lon), (Rltb_spec lon 12); try discriminate E1. lra.
      * right. destruct (G (Rleb 72 lat && Rleb lat 84 && Rleb 0 lon && Rltb lon 42)%bool) as [[G1 G2]|G1].
        -- destruct (Rleb_spec 72 lat), (Rleb_spec lat 84), (Rleb_spec 0 lon), (Rltb_spec lon 42); cbn [andb]; split; intros; try discriminate; try reflexivity; lra.
        -- destruct (Rleb_spec 56 lat), (Rltb_spec lat 64), (Rleb_spec 3 lon), (Rltb_spec lon 12); try discriminate E1; lra.
        -- left. split; [exact G1|]. apply G2. reflexivity.
        -- right. exact G1.
    + set (x := (lat + 80) / 8). destruct (archimed x) as [U1 U2].
      assert (X : 0 <= x) by (unfold x; lra). assert (U : (1 <= up x)%Z) by (apply le_IZR; apply Rnot_lt_le; intros C; apply (lt_IZR _ 1) in C; assert (C' : (up x <= 0)%Z) by lia; apply IZR_le in C'; lra).
      assert (E : INR (Z.to_nat (up x - 1)) = IZR (up x) - 1) by (rewrite INR_IZR_INZ, Z2Nat.id by lia; rewrite minus_IZR; reflexivity).
      exists (demo_band lat). unfold demo_band. fold x.
      assert (T : INR 19 = 19) by (cbn; ring).
      split. { apply nth_error_nth'. change (length mgrs_letters) with 20%nat. pose proof (Nat.le_min_r (Z.to_nat (up x - 1)) 19). lia. }
      destruct (Nat.le_ge_cases (Z.to_nat (up x - 1)) 19) as [L|L].
      * rewrite Nat.min_l by exact L. rewrite plus_INR, E. cbn [INR]. unfold x in *. split; [lra|left; lra].
      * rewrite Nat.min_r by exact L. apply le_INR in L. rewrite E in L. rewrite plus_INR, T. cbn [INR]. unfold x in *. split; [lra|right; split; [reflexivity|lra]].
  - intros H. unfold demo_utm. destruct (Rleb_spec (-80) lat), (Rleb_spec lat 84), (Rleb_spec (-180) lon), (Rleb_spec lon 180); cbn [andb]; try reflexivity. lra.
Qed.

(* ============================== C79 =============================== *)

(** Whatever the projection, if pyproj's two transforms undo each other: a zero shift changes nothing, two
    shifts add up (in either order), and the opposite shift brings every point back. *)
Theorem C79_group : forall P to_merc from_merc, undo P to_merc from_merc ->
  (forall p, P p -> shift_points_by_meters to_merc from_merc 0 0 p = p) /\
  (forall e1 n1 e2 n2 p, shift_points_by_meters to_merc from_merc e2 n2 (shift_points_by_meters to_merc from_merc e1 n1 p) =
     shift_points_by_meters to_merc from_merc (e1 + e2) (n1 + n2) p) /\
  (forall e n p, P p -> shift_points_by_meters to_merc from_merc (- e) (- n) (shift_points_by_meters to_merc from_merc e n p) = p).
Proof.
  intros P f g [H1 H2].
  assert (A : forall e1 n1 e2 n2 p, shift_points_by_meters f g e2 n2 (shift_points_by_meters f g e1 n1 p) = shift_points_by_meters f g (e1 + e2) (n1 + n2) p).
  { intros. unfold shift_points_by_meters. destruct (f p) as [x y]. rewrite H2. f_equal. apply pair_equal_spec. split; ring. }
  assert (Z : forall p, P p -> shift_points_by_meters f g 0 0 p = p).
  { intros p Hp. unfold shift_points_by_meters. specialize (H1 p Hp). destruct (f p) as [x y]. rewrite !Rplus_0_r. exact H1. }
  split; [exact Z|]. split; [exact A|]. intros e n p Hp. rewrite A, !Rplus_opp_r. apply Z, Hp.
Qed.
Print Assumptions C79_group.

(** EPSG 4326 (longitude, latitude in degrees): an eastward shift moves the longitude by the same angle
    everywhere, a northward shift moves the latitude northwards; neither changes the other coordinate. *)
Theorem C79_degrees : forall a e n lon lat, 0 < a -> -90 < lat < 90 -> exists lat',
  shift_points_by_meters (web_mercator a) (web_mercator_inv a) e n (lon, lat) = (lon + e / a * 180 / PI, lat') /\
  -90 < lat' < 90 /\ (lat < lat' <-> 0 < n) /\ (lat' < lat <-> n < 0) /\ (lat' = lat <-> n = 0).
Proof.
  intros a e n lon lat Ha Hl. destruct (mercator_shift a e n lon lat Ha Hl) as (l' & E & B & M). exists l'. split; [exact E|]. split; [exact B|].
  destruct (Rtotal_order n 0) as [H|[H|H]].
  - assert (l' < lat) by (apply M; exact H). split; [|split]; split; intros; lra.
  - subst n. assert (l' = lat) by (apply M; reflexivity). split; [|split]; split; intros; lra.
  - assert (lat < l') by (apply M; exact H). split; [|split]; split; intros; lra.
Qed.
Print Assumptions C79_degrees.

(** On the ground the shift is too short: an eastward shift of e covers e times the cosine of the
    latitude; a northward shift never covers more than n. *)
Theorem C79_ground : forall a e n lon lat lon' lat', 0 < a -> -90 < lat < 90 ->
  shift_points_by_meters (web_mercator a) (web_mercator_inv a) e n (lon, lat) = (lon', lat') ->
  along_parallel a lat (lon' - lon) = e * cos (lat * PI / 180) /\
  Rabs (a * ((lat' - lat) * PI / 180)) <= Rabs n.
Proof.
  intros a e n lon lat lon' lat' Ha Hl E. destruct (mercator_shift a e n lon lat Ha Hl) as (l' & E' & _). rewrite E' in E. injection E as <- <-.
  pose proof PI_neq0 as HP. split.
  - unfold along_parallel. field. split; lra.
  - exact (mercator_short a e n lon lat _ _ Ha Hl E').
Qed.
Print Assumptions C79_ground.

(** Hence the shift is not the requested number of metres: at 60 degrees of latitude it is half of it, and it is right
    at the equator only. *)
Theorem C79_meters_refuted : forall a e lon lat lon' lat', 0 < a -> e <> 0 -> -90 < lat < 90 ->
  shift_points_by_meters (web_mercator a) (web_mercator_inv a) e 0 (lon, lat) = (lon', lat') ->
  (lat = 60 -> along_parallel a lat (lon' - lon) = e / 2) /\ (along_parallel a lat (lon' - lon) = e <-> lat = 0).
Proof.
  intros a e lon lat lon' lat' Ha He Hl E. destruct (C79_ground _ _ _ _ _ _ _ Ha Hl E) as [-> _]. split.
  - intros ->. replace (60 * PI / 180) with (PI / 3) by field. rewrite cos_PI3. field.
  - split.
    + intros Q. assert (C : cos (lat * PI / 180) = 1) by (apply (Rmult_eq_reg_l e); lra).
      pose proof PI_RGT_0 as HP.
      destruct (Rtotal_order lat 0) as [L|[L|L]]; [exfalso|exact L|exfalso].
      * rewrite <- cos_neg in C. assert (B : cos (- (lat * PI / 180)) < cos 0) by (apply cos_decreasing_1; nra). rewrite cos_0 in B. lra.
      * assert (B : cos (lat * PI / 180) < cos 0) by (apply cos_decreasing_1; nra). rewrite cos_0 in B. lra.
    + intros ->. replace (0 * PI / 180) with 0 by field. rewrite cos_0. ring.
Qed.
Print Assumptions C79_meters_refuted.

(** The hypotheses of C79_group are met by Web Mercator, away from the poles. *)
Example C79_undo_met : forall a, 0 < a -> undo (fun p => -90 < snd p < 90) (web_mercator a) (web_mercator_inv a).
Proof. intros a Ha. split; [intros [lon lat]; apply mercator_inv_l; exact Ha|intros q; apply mercator_inv_r; exact Ha]. Qed.

(* ============================== C80 =============================== *)

(** An IGM image that is made keeps the image's data, size and projection; its number of bands is the third size of
    the data; and the position and altitude it holds for pixel (column c, row r) are the ones that the
    point calculator gives for that very pixel. *)
Theorem C80_positions : forall V nx ny (data : option (image_array V)) ground proj d distance im,
  create_igm_image nx ny data ground proj (Some d) distance = Ok im ->
  exists a rs, data = Some a /\ ii_data im = a /\ ii_npix_x im = nx /\ ii_npix_y im = ny /\ ii_proj im = proj /\
    nth_error (ia_shape a) 2 = Some (ii_n_bands im) /\ Spec_Dem.igm_of_size (ii_calc im) ny nx /\
    (forall transform2, pixel_x_y_to_lon_lat_alt transform2 proj ground (de_elev d) (de_high d) (de_low d) distance None (pixel_list nx ny) = Ok rs) /\
    forall r c, (r < ny)%nat -> (c < nx)%nat -> exists lon lat alt, nth_error (pixel_list nx ny) (r * nx + c) = Some (INR c, INR r) /\
      nth_error rs (r * nx + c) = Some (Fin lon, Fin lat, Fin alt) /\
      igm_pixel_to_lon_lat (ii_calc im) (Z.of_nat c) (Z.of_nat r) = Ok (lon, lat) /\
      Spec_Dem.cell (igm_alts (ii_calc im)) r c = Some alt.
Proof.
  intros V nx ny data ground proj d distance im H.
  destruct (igm_image_ok nx ny data ground proj d distance im H) as (a & rs & -> & ER & E1 & E2 & E3 & E4 & E5 & SZ & N).
  exists a, rs. split; [reflexivity|]. do 3 (split; [assumption|]). split; [exact E5|].
  split. { clear -E4. unfold py_get, py_index in E4. destruct (_ && _)%bool; [|discriminate E4]. change (Z.to_nat 2) with 2%nat in E4. destruct (nth_error (ia_shape a) 2); [congruence|discriminate]. }
  split; [exact SZ|]. split.
  - intros tr. unfold pixel_x_y_to_lon_lat_alt. fold (dist_of distance). rewrite ER. cbn [bind]. rewrite text_eqb_refl. reflexivity.
  - intros r c Hr Hc. destruct (N r c Hr Hc) as (lon & lat & alt & N1 & N2 & N3). exists lon, lat, alt.
    split; [apply pixel_list_nth; assumption|]. split; [exact N1|]. split; [|exact N3].
    destruct (Prop_Dem.C38_pixel_exact _ ny nx r c SZ Hr Hc) as (p & P1 & P2). rewrite N2 in P1. injection P1 as <-. exact P2.
Qed.
Print Assumptions C80_positions.

(** On terrain that is not flat and lies between the DEM's own bounds, seen obliquely by at least one pixel: the image is made
    (for data with three dimensions), and every position is where the pixel's line of sight first meets the terrain. *)
Theorem C80_terrain : forall V nx ny (a : image_array V) nb ground proj d distance,
  (0 < nx)%nat -> (0 < ny)%nat -> nth_error (ia_shape a) 2 = Some nb -> match distance with None => True | Some s => 0 < s end ->
  de_low d < de_high d -> (forall lon lat, exists e, de_elev d lon lat = Fin e /\ de_low d <= e <= de_high d) ->
  let mx := de_high d + (de_high d - de_low d) / 100 in
  let mn := de_low d - (de_high d - de_low d) / 100 in
  (exists r c, (r < ny)%nat /\ (c < nx)%nat /\ ground (INR c, INR r) mx <> ground (INR c, INR r) mn) ->
  exists im n, create_igm_image nx ny (Some a) ground proj (Some d) distance = Ok im /\ ii_n_bands im = nb /\
    forall r c, (r < ny)%nat -> (c < nx)%nat -> exists lon lat alt,
      igm_pixel_to_lon_lat (ii_calc im) (Z.of_nat c) (Z.of_nat r) = Ok (lon, lat) /\
      Spec_Dem.cell (igm_alts (ii_calc im)) r c = Some alt /\
      first_meeting ground (de_elev d) mx mn n (INR c, INR r) lon lat alt.
Proof.
  intros V nx ny a nb ground proj d distance Hnx Hny Hnb Hd Hlh Hdem mx mn (r0 & c0 & Hr0 & Hc0 & Hne).
  assert (Hdist : 0 < dist_of distance) by (destruct distance; cbn [dist_of]; [exact Hd|lra]).
  destruct (Prop_PointCalc.C37_first_crossing ground (de_elev d) (de_high d) (de_low d) (dist_of distance) (pixel_list nx ny) Hlh Hdist Hdem) as (n & rs & _ & _ & ER & F).
  { exists (INR c0, INR r0). split; [|exact Hne]. apply (nth_error_In _ (r0 * nx + c0)). apply pixel_list_nth; assumption. }
  assert (FR : Forall (fun p : flt * flt * flt => exists a b c, p = (Fin a, Fin b, Fin c)) rs).
  { clear -F. induction F as [|p q ps qs (s & k & -> & _) F IH]; constructor; eauto. }
  pose proof (igm_image_made nx ny (Some a) ground proj d distance rs Hnx Hny ER FR) as Q. cbv beta iota in Q.
  assert (EN : py_get (ia_shape a) 2 = Ok nb).
  { unfold py_get, py_index, zlen. assert (L : (2 < length (ia_shape a))%nat) by (apply nth_error_Some; congruence).
    cbn [Z.leb Z.compare andb]. destruct (Z.ltb_spec 2 (Z.of_nat (length (ia_shape a)))); [|lia]. cbn [andb]. change (Z.to_nat 2) with 2%nat. rewrite Hnb. reflexivity. }
  rewrite EN in Q. destruct Q as [im Q]. exists im, n. split; [exact Q|].
  destruct (igm_image_ok nx ny (Some a) ground proj d distance im Q) as (a' & rs' & Ea & ER' & E1 & E2 & E3 & E4 & E5 & SZ & N).
  injection Ea as <-. rewrite ER in ER'. injection ER' as <-. split; [congruence|].
  intros r c Hr Hc. destruct (N r c Hr Hc) as (lon & lat & alt & N1 & N2 & N3). exists lon, lat, alt.
  split. { destruct (Prop_Dem.C38_pixel_exact _ ny nx r c SZ Hr Hc) as (p & P1 & P2). rewrite N2 in P1. injection P1 as <-. exact P2. }
  split; [exact N3|].
  destruct (Forall2_nth_l _ _ _ F _ _ (pixel_list_nth nx ny r c Hr Hc)) as (q & Eq & HH). rewrite N1 in Eq. injection Eq as <-.
  cbv zeta in HH. unfold first_meeting. fold mx mn in HH. destruct HH as (s & k & EQ & K1 & K2 & K3 & K4 & K5 & K6).
  exists s, k.
  set (at_s := Spec_PointCalc.on_ray (ground (INR c, INR r) mx) (ground (INR c, INR r) mn) mx mn) in *.
  assert (QA : at_s s = (lon, lat, alt)). { clear -EQ. revert EQ. generalize (at_s s). intros [[x y] z]. cbn [fst snd]. congruence. }
  split; [exact QA|].
  split; [exact K1|]. split; [exact K2|]. split; [exact K3|]. split; [exact K4|]. split; [rewrite QA in K5; exact K5|exact K6].
Qed.
Print Assumptions C80_terrain.

(** Without a DEM (the documented default: constant elevation zero), and with any DEM whose highest and lowest
    altitude agree, no image is made at all. *)
Theorem C80_default_refuted : forall V nx ny (data : option (image_array V)) ground proj distance,
  (0 < nx)%nat -> (0 < ny)%nat -> distance <> Some 0 ->
  create_igm_image nx ny data ground proj None distance = Err IndexError /\
  forall h, create_igm_image nx ny data ground proj (Some (constant_dem h)) distance = Err IndexError.
Proof.
  intros V nx ny data ground proj distance Hnx Hny Hd.
  assert (G : forall h, create_igm_image nx ny data ground proj (Some (constant_dem h)) distance = Err IndexError); [|split; [exact (G 0)|exact G]].
  intros h. unfold create_igm_image. pose proof (igm_pixels nx ny) as EP. destruct (create_pixel_grid nx ny 1) as [gx gy]. rewrite EP.
  unfold ray_caster_nd. cbn [constant_dem de_elev de_high de_low]. fold (dist_of distance).
  rewrite Prop_PointCalc.C37_flat_refuted; [reflexivity| |].
  - intros E. apply (f_equal (@length _)) in E. change (length (pixel_list nx ny) = 0%nat) in E. rewrite pixel_list_length in E. nia.
  - destruct distance as [s|]; cbn [dist_of]; [congruence|lra].
Qed.
Print Assumptions C80_default_refuted.

(** Data that is not in memory, or has two dimensions: an exception, after all positions have been computed. *)
Theorem C80_data : forall V nx ny (data : option (image_array V)) ground proj d distance,
  (0 < nx)%nat -> (0 < ny)%nat -> match distance with None => True | Some s => 0 < s end ->
  de_low d < de_high d -> (forall lon lat, exists e, de_elev d lon lat = Fin e /\ de_low d <= e <= de_high d) ->
  (exists r c, (r < ny)%nat /\ (c < nx)%nat /\
     ground (INR c, INR r) (de_high d + (de_high d - de_low d) / 100) <> ground (INR c, INR r) (de_low d - (de_high d - de_low d) / 100)) ->
  (data = None -> create_igm_image nx ny data ground proj (Some d) distance = Err AttributeError) /\
  (forall a, data = Some a -> (length (ia_shape a) <= 2)%nat -> create_igm_image nx ny data ground proj (Some d) distance = Err IndexError).
Proof.
  intros V nx ny data ground proj d distance Hnx Hny Hd Hlh Hdem (r0 & c0 & Hr0 & Hc0 & Hne).
  assert (Hdist : 0 < dist_of distance) by (destruct distance; cbn [dist_of]; [exact Hd|lra]).
  destruct (Prop_PointCalc.C37_first_crossing ground (de_elev d) (de_high d) (de_low d) (dist_of distance) (pixel_list nx ny) Hlh Hdist Hdem) as (n & rs & _ & _ & ER & F).
  { exists (INR c0, INR r0). split; [|exact Hne]. apply (nth_error_In _ (r0 * nx + c0)). apply pixel_list_nth; assumption. }
  assert (FR : Forall (fun p : flt * flt * flt => exists a b c, p = (Fin a, Fin b, Fin c)) rs).
  { clear -F. induction F as [|p q ps qs (s & k & -> & _) F IH]; constructor; eauto. }
  pose proof (igm_image_made nx ny data ground proj d distance rs Hnx Hny ER FR) as Q. cbv beta iota in Q. split.
  - intros ->. exact Q.
  - intros a -> L. assert (EN : py_get (ia_shape a) 2 = Err IndexError).
    { unfold py_get, py_index, zlen. cbn [Z.leb Z.compare andb Z.ltb]. destruct (Z.ltb_spec 2 (Z.of_nat (length (ia_shape a)))); [lia|]. reflexivity. }
    rewrite EN in Q. exact Q.
Qed.
Print Assumptions C80_data.

(** The hypotheses of C80_terrain are met: a step of 100 m seen by an oblique sensor. *)
Example C80_terrain_met : exists d (ground : pixel -> R -> R * R), de_low d < de_high d /\
  (forall lon lat, exists e, de_elev d lon lat = Fin e /\ de_low d <= e <= de_high d) /\
  exists r c : nat, (r < 2)%nat /\ (c < 3)%nat /\
    ground (INR c, INR r) (de_high d + (de_high d - de_low d) / 100) <> ground (INR c, INR r) (de_low d - (de_high d - de_low d) / 100).
Proof.
  exists (mkDemObj (fun lon _ => if Rltb 50 lon then Fin 100 else Fin 0) 100 0), (fun p alt => (fst p - alt, snd p)). cbn [de_low de_high de_elev].
  split; [lra|]. split. { intros lon lat. destruct (Rltb 50 lon); eexists; (split; [reflexivity|lra]). }
  exists 0%nat, 0%nat. split; [lia|]. split; [lia|]. cbn. intros E. injection E as E. lra.
Qed.
