(** C25 - C30 and C67: rotations, angle recovery, boresight, ground grids, pinhole and
    fixtured cameras *)
From Coq Require Import String.
From Verif Require Import RAux Text Geo3 M_Photo Spec_Photo P_Photo.
Open Scope R_scope.
Open Scope list_scope.

(* ============================== C25 =============================== *)

(** For all angles and each of the six documented orders, the matrix is the product of
    the three axis rotations, the first letter acting first; it is orthogonal and has
    determinant 1. *)
Theorem C25_rotation : forall omega phi kappa t1 t2 t3',
  is_order t1 t2 t3' ->
  let M := create_M_matrix omega phi kappa (order_name t1 t2 t3') in
  let E := turn_matrix omega phi kappa in
  (forall v, mv3 M v = mv3 (E t3') (mv3 (E t2) (mv3 (E t1) v))) /\
  mul3 M (t3 M) = id3 /\ mul3 (t3 M) M = id3 /\ det3 M = 1.
Proof.
  intros omega phi kappa t1 t2 t3' H M E. split; [|exact (create_rot omega phi kappa t1 t2 t3' H)].
  intros v. unfold M, E. rewrite create_order by exact H. rewrite !mv3_mul. reflexivity.
Qed.
Print Assumptions C25_rotation.

(** Any other order string gives the zero matrix, which is not a rotation. *)
Theorem C25_unknown_order : forall omega phi kappa order,
  (forall t1 t2 t3', is_order t1 t2 t3' -> order <> order_name t1 t2 t3') ->
  create_M_matrix omega phi kappa order = zero3 /\ ~ rotation (create_M_matrix omega phi kappa order).
Proof.
  intros omega phi kappa order H. rewrite create_other by exact H. split; [reflexivity|exact rotation_not_zero].
Qed.
Print Assumptions C25_unknown_order.

Example C25_orders : map (fun t => order_name (fst (fst t)) (snd (fst t)) (snd t))
    [(Roll,Pitch,Yaw); (Roll,Yaw,Pitch); (Pitch,Roll,Yaw); (Pitch,Yaw,Roll); (Yaw,Roll,Pitch); (Yaw,Pitch,Roll)]
  = [txt "rpy"; txt "ryp"; txt "pry"; txt "pyr"; txt "yrp"; txt "ypr"] /\ is_order Yaw Roll Pitch.
Proof. split; [reflexivity|repeat split; discriminate]. Qed.
Example C25_upper_case_is_unknown : forall t1 t2 t3', is_order t1 t2 t3' -> txt "RPY" <> order_name t1 t2 t3'.
Proof. intros [] [] [] _; discriminate. Qed.
(** a quarter turn of yaw takes the x axis of the world to minus the y axis of the frame *)
Example C25_quarter_turn : mv3 (create_M_matrix 0 0 (PI / 2) (txt "rpy")) (V3 1 0 0) = V3 0 (-1) 0.
Proof.
  rewrite rpy_product, !mv3_mul. unfold about_x, about_y, about_z. rewrite sin_0, cos_0, sin_PI2, cos_PI2. v3.
Qed.

(* ============================== C26 =============================== *)

(** The solver returns the angles the matrix was built from. *)
Theorem C26_recover : forall omega phi kappa,
  - PI / 2 < phi < PI / 2 -> - PI < omega <= PI -> - PI < kappa <= PI ->
  solve_for_omega_phi_kappa (create_M_matrix omega phi kappa (txt "rpy")) = (Fin omega, Fin phi, Fin kappa).
Proof. intros. apply solve_create; assumption. Qed.
Print Assumptions C26_recover.

(** For every rotation with |m31| < 1 the solver returns finite angles in those ranges
    and the matrix built from them is the given one. *)
Theorem C26_rebuild : forall A, rotation A -> -1 < e31 A < 1 ->
  exists omega phi kappa,
    solve_for_omega_phi_kappa A = (Fin omega, Fin phi, Fin kappa) /\
    - PI / 2 < phi < PI / 2 /\ - PI < omega <= PI /\ - PI < kappa <= PI /\
    create_M_matrix omega phi kappa (txt "rpy") = A.
Proof. exact solve_rebuild. Qed.
Print Assumptions C26_rebuild.

(** The remaining rotations are those with m31 = 1 or -1; there omega and kappa are not numbers. *)
Theorem C26_gimbal_lock : forall A, rotation A ->
  (-1 <= e31 A <= 1) /\
  (e31 A = 1 \/ e31 A = -1 -> exists phi, solve_for_omega_phi_kappa A = (NonFinite, Fin phi, NonFinite)).
Proof.
  intros A H. split.
  - destruct (rot_entries A H) as [C _]. nra.
  - apply solve_gimbal. exact H.
Qed.
Print Assumptions C26_gimbal_lock.

Example C26_ranges_met : - PI / 2 < - (1/2) < PI / 2 /\ - PI < -3 <= PI /\ - PI < PI <= PI.
Proof. pose proof PI_RGT_0. pose proof PI2_3_2. unfold PI2 in *. pose proof PI_4. repeat split; lra. Qed.
Example C26_rebuild_met : let A := M3 0 1 0 (-1) 0 0 0 0 1 in rotation A /\ -1 < e31 A < 1 /\ 0 < PI.
Proof. split; [apply rotation_intro; [m3|unfold det3; cbn; ring]|]. cbn. pose proof PI_RGT_0. lra. Qed.
Example C26_gimbal_met : rotation (M3 0 0 (-1) 0 1 0 1 0 0) /\ e31 (M3 0 0 (-1) 0 1 0 1 0 0) = 1.
Proof. split; [apply rotation_intro; [m3|unfold det3; cbn; ring]|reflexivity]. Qed.

(* ============================== C27 =============================== *)

(** What holds: the solved offsets O satisfy rough . O = ideal, and a fixtured camera whose
    fixture has the rough orientation and whose boresight is O (whatever else was set,
    in any order) has the orientation O . rough; that is the ideal orientation exactly
    when rough and ideal commute. *)
Theorem C27_exact : forall inv rough ideal ops,
  inverts inv -> rotation rough -> rotation ideal ->
  exists O, solve_for_boresight_angle_offsets inv rough ideal = Ok O /\
    mul3 rough O = ideal /\
    (last_some gives_orientation ops = Some rough -> last_some gives_boresight ops = Some O ->
     exists M, get_camera_absolute_M_matrix (fx_run ops) = Ok M /\
       (M = ideal <-> mul3 rough ideal = mul3 ideal rough)).
Proof.
  intros inv rough ideal ops HI HR HD. unfold solve_for_boresight_angle_offsets.
  rewrite (inverts_rot inv rough HI HR). cbn [bind]. eexists. split; [reflexivity|].
  destruct HR as (R1 & R2 & R3). split.
  - rewrite <- mul3_assoc, R1, mul3_id_l. reflexivity.
  - intros H1 H2. rewrite fx_run_state. unfold get_camera_absolute_M_matrix. cbn [fx_boresight fx_M]. rewrite H1, H2.
    eexists. split; [reflexivity|]. split; intros H.
    + assert (Q : mul3 rough (mul3 (mul3 (t3 rough) ideal) rough) = mul3 rough ideal) by (rewrite H; reflexivity).
      rewrite <- !mul3_assoc, R1, mul3_id_l in Q. symmetry. exact Q.
    + rewrite mul3_assoc, <- H, <- mul3_assoc, R2, mul3_id_l. reflexivity.
Qed.
Print Assumptions C27_exact.

(** The property itself fails: a quarter turn of yaw as rough and a quarter turn of roll
    as ideal orientation. *)
Theorem C27_refuted : exists rough ideal,
  rough = create_M_matrix 0 0 (PI / 2) (txt "rpy") /\ ideal = create_M_matrix (PI / 2) 0 0 (txt "rpy") /\
  forall inv O, inverts inv -> solve_for_boresight_angle_offsets inv rough ideal = Ok O ->
  exists M, get_camera_absolute_M_matrix (fx_run [SetFixtureOrientation rough; SetBoresight O]) = Ok M /\ M <> ideal.
Proof.
  eexists; eexists. split; [reflexivity|]. split; [reflexivity|]. intros inv O HI HO.
  set (rough := create_M_matrix 0 0 (PI / 2) (txt "rpy")) in *.
  set (ideal := create_M_matrix (PI / 2) 0 0 (txt "rpy")) in *.
  destruct (C27_exact inv rough ideal [SetFixtureOrientation rough; SetBoresight O] HI (rpy_rot _ _ _) (rpy_rot _ _ _)) as (O' & E & _ & K).
  rewrite HO in E. injection E as <-.
  destruct (K eq_refl eq_refl) as (M & EM & Q). exists M. split; [exact EM|].
  intros H. apply Q in H. unfold rough, ideal in H. rewrite !rpy_product in H.
  unfold about_x, about_y, about_z in H. rewrite !sin_0, !cos_0, !sin_PI2, !cos_PI2 in H.
  apply (f_equal e12) in H. cbn in H. lra.
Qed.
Print Assumptions C27_refuted.

(** numpy.linalg.inv can be realised, so the hypotheses of C27 are not empty *)
Example C27_inverts_met : exists inv, inverts inv.
Proof.
  exists (fun A => Ok (scale3 (/ det3 A) (adj3 A))). intros A HA. eexists. split; [reflexivity|].
  assert (S1 : forall c X Y, mul3 X (scale3 c Y) = scale3 c (mul3 X Y)) by (intros; m3).
  assert (S2 : forall c X Y, mul3 (scale3 c X) Y = scale3 c (mul3 X Y)) by (intros; m3).
  assert (S3 : scale3 (/ det3 A) (scale3 (det3 A) id3) = id3).
  { apply mat3_eq; cbn [scale3 e11 e12 e13 e21 e22 e23 e31 e32 e33 id3]; field; exact HA. }
  rewrite S1, S2, mul3_adj, adj3_mul. split; exact S3.
Qed.

(* ============================== C28 =============================== *)

(** The ground grid: row r, column c holds the centre of cell (r, c) of the division of
    the extent into npix_y by npix_x cells, rows from the top. *)
Theorem C28_grid : forall minx maxx miny maxy npix_x npix_y,
  (2 <= npix_x)%Z -> (2 <= npix_y)%Z -> minx <= maxx -> miny <= maxy ->
  exists gx gy, create_ground_grid minx maxx miny maxy npix_x npix_y = Ok (gx, gy) /\
    has_shape gx (Z.to_nat npix_y) (Z.to_nat npix_x) /\ has_shape gy (Z.to_nat npix_y) (Z.to_nat npix_x) /\
    forall r c, (r < Z.to_nat npix_y)%nat -> (c < Z.to_nat npix_x)%nat ->
      at2 gx r c = Some (minx + (INR c + 1/2) * ((maxx - minx) / IZR npix_x)) /\
      at2 gy r c = Some (maxy - (INR r + 1/2) * ((maxy - miny) / IZR npix_y)).
Proof.
  intros minx maxx miny maxy nx ny Hx Hy Lx Ly.
  destruct (ground_grid_ok minx maxx miny maxy nx ny Hx Hy) as (gx & gy & E & S1 & S2 & F).
  exists gx, gy. repeat (split; [assumption|]). intros r c Hr Hc. destruct (F r c Hr Hc) as [-> ->].
  assert (P : forall a n, 0 <= a -> (2 <= n)%Z -> 0 <= a / IZR n).
  { intros a n Ha Hn. apply Rmult_le_pos; [exact Ha|]. left. apply Rinv_0_lt_compat. apply IZR_lt. lia. }
  rewrite !Rabs_right by (apply Rle_ge, P; [lra|assumption]). split; f_equal; field; apply not_0_IZR; lia.
Qed.
Print Assumptions C28_grid.

(** Fewer than two rows or columns: IndexError. *)
Theorem C28_small_grid_error : forall minx maxx miny maxy npix_x npix_y,
  (npix_x < 2 \/ npix_y < 2)%Z -> create_ground_grid minx maxx miny maxy npix_x npix_y = Err IndexError.
Proof. intros. apply ground_grid_small. assumption. Qed.
Print Assumptions C28_small_grid_error.

(** The geotransform: where it places the centre of pixel (row r, column c), against the
    grid point.  The error grows linearly from the top left corner. *)
Theorem C28_offset : forall minx maxx miny maxy npix_x npix_y gx gy r c x y,
  (2 <= npix_x)%Z -> (2 <= npix_y)%Z -> minx <= maxx -> miny <= maxy ->
  create_ground_grid minx maxx miny maxy npix_x npix_y = Ok (gx, gy) ->
  at2 gx r c = Some x -> at2 gy r c = Some y ->
  let '(X, Y) := gdal_point (world_poly_to_geo_t minx miny maxx maxy npix_x npix_y) (INR c + 1/2) (INR r + 1/2) in
  x - X = (INR c + 1/2) * (maxx - minx) / (IZR npix_x * (IZR npix_x + 1)) /\
  Y - y = (INR r + 1/2) * (maxy - miny) / (IZR npix_y * (IZR npix_y + 1)) /\
  (x = X <-> minx = maxx) /\ (y = Y <-> miny = maxy).
Proof.
  intros minx maxx miny maxy nx ny gx gy r c x y Hx Hy Lx Ly E Ex Ey.
  destruct (C28_grid minx maxx miny maxy nx ny Hx Hy Lx Ly) as (gx' & gy' & E' & S1 & S2 & F).
  rewrite E in E'. injection E' as <- <-.
  assert (B : (r < Z.to_nat ny)%nat /\ (c < Z.to_nat nx)%nat).
  { unfold at2 in Ex. destruct (nth_error gx r) as [row|] eqn:Q; [|discriminate]. split.
    - destruct S1 as [<- _]. apply nth_error_Some. congruence.
    - destruct S1 as [_ FA]. rewrite Forall_forall in FA. rewrite <- (FA row (nth_error_In _ _ Q)). apply nth_error_Some. congruence. }
  destruct (F r c (proj1 B) (proj2 B)) as [Gx Gy]. rewrite Gx in Ex. rewrite Gy in Ey. injection Ex as <-. injection Ey as <-.
  unfold gdal_point, world_poly_to_geo_t. cbn [nth].
  assert (Px : 2 <= IZR nx) by (apply IZR_le; lia). assert (Py : 2 <= IZR ny) by (apply IZR_le; lia).
  pose proof (pos_INR r) as Pr. pose proof (pos_INR c) as Pc.
  assert (D : forall a n w, 0 <= a -> 2 <= n -> (a + 1/2) * (w / n) - (a + 1/2) * (w / (n + 1)) = (a + 1/2) * w / (n * (n + 1)) /\
     ((a + 1/2) * (w / n) = (a + 1/2) * (w / (n + 1)) <-> w = 0)).
  { intros a n w Ha Hn. assert (Q : (a + 1/2) * (w / n) - (a + 1/2) * (w / (n + 1)) = (a + 1/2) * w / (n * (n + 1))) by (field; lra).
    split; [exact Q|]. split; intros K.
    - assert (Z0 : (a + 1/2) * w / (n * (n + 1)) = 0) by lra.
      unfold Rdiv in Z0. apply Rmult_integral in Z0. destruct Z0 as [Z0|Z0].
      + apply Rmult_integral in Z0. destruct Z0; lra.
      + exfalso. revert Z0. apply Rinv_neq_0_compat. nra.
    - subst w. lra. }
  destruct (D (INR c) (IZR nx) (maxx - minx) Pc Px) as [D1 D2].
  destruct (D (INR r) (IZR ny) (maxy - miny) Pr Py) as [D3 D4].
  split; [lra|]. split; [lra|]. split; split; intros K.
  - assert (W : maxx - minx = 0) by (apply D2; lra). lra.
  - assert (W : maxx - minx = 0) by lra. apply D2 in W. lra.
  - assert (W : maxy - miny = 0) by (apply D4; lra). lra.
  - assert (W : maxy - miny = 0) by lra. apply D4 in W. lra.
Qed.
Print Assumptions C28_offset.

(** The property itself fails: in a 2 x 2 ortho image of the extent [0, 12] x [0, 12] the
    pixel in the lower right corner was sampled at (9, 3) and is placed at (6, 6). *)
Theorem C28_refuted : exists gx gy,
  create_ground_grid 0 12 0 12 2 2 = Ok (gx, gy) /\ at2 gx 1 1 = Some 9 /\ at2 gy 1 1 = Some 3 /\
  gdal_point (world_poly_to_geo_t 0 0 12 12 2 2) (1 + 1/2) (1 + 1/2) = (6, 6).
Proof.
  destruct (C28_grid 0 12 0 12 2 2 ltac:(lia) ltac:(lia) ltac:(lra) ltac:(lra)) as (gx & gy & E & _ & _ & F).
  exists gx, gy. split; [exact E|]. destruct (F 1%nat 1%nat ltac:(cbn; lia) ltac:(cbn; lia)) as [-> ->].
  repeat split.
  - f_equal. cbn. field.
  - f_equal. cbn. field.
  - unfold gdal_point, world_poly_to_geo_t. cbn [nth]. f_equal; field.
Qed.
Print Assumptions C28_refuted.

(* ============================== C67 =============================== *)

(** get_nx_ny_pixels_in_extent: the largest number of whole pixels of the given size
    that fit into the width and the height of the polygon. *)
Theorem C67_pixel_count : forall xs ys gsd_x gsd_y x0 x1 y0 y1,
  In x0 xs -> In x1 xs -> (forall x, In x xs -> x0 <= x <= x1) ->
  In y0 ys -> In y1 ys -> (forall y, In y ys -> y0 <= y <= y1) ->
  0 < gsd_x -> 0 < gsd_y ->
  exists nx ny, get_nx_ny_pixels_in_extent xs ys gsd_x gsd_y = Ok (nx, ny) /\
    (0 <= nx)%Z /\ (0 <= ny)%Z /\
    IZR nx * gsd_x <= x1 - x0 < (IZR nx + 1) * gsd_x /\
    IZR ny * gsd_y <= y1 - y0 < (IZR ny + 1) * gsd_y.
Proof.
  intros xs ys gx gy x0 x1 y0 y1 I0 I1 Bx J0 J1 By Hx Hy.
  assert (MM : forall l a b, In a l -> In b l -> (forall x, In x l -> a <= x <= b) -> rmin l = Some a /\ rmax l = Some b).
  { intros l a b Ia Ib B. assert (N : l <> []) by (intros ->; contradiction).
    destruct (rmin_some l N) as [m Em]. destruct (rmax_some l N) as [n En].
    destruct (rmin_spec l m Em) as [Im Lm]. destruct (rmax_spec l n En) as [In' Ln].
    specialize (Lm a Ia). specialize (Ln b Ib). pose proof (B m Im). pose proof (B n In').
    rewrite Em, En. split; f_equal; lra. }
  destruct (MM xs x0 x1 I0 I1 Bx) as [E1 E2]. destruct (MM ys y0 y1 J0 J1 By) as [E3 E4].
  unfold get_nx_ny_pixels_in_extent. rewrite E1, E2, E3, E4, !Reqb_false by lra.
  assert (Q : forall w g, 0 <= w -> 0 < g -> (0 <= truncZ (w / g))%Z /\ IZR (truncZ (w / g)) * g <= w < (IZR (truncZ (w / g)) + 1) * g).
  { intros w g Hw Hg. destruct (truncZ_nonneg (w / g)) as [[A B] C].
    { apply Rmult_le_pos; [exact Hw|]. left. apply Rinv_0_lt_compat. exact Hg. }
    split; [exact C|]. assert (W : w = w / g * g) by (field; lra). rewrite W at 2 3. split.
    - apply Rmult_le_compat_r; lra.
    - apply Rmult_lt_compat_r; lra. }
  pose proof (Bx x0 I0). pose proof (By y0 J0).
  destruct (Q (x1 - x0) gx ltac:(lra) Hx) as [P1 P2]. destruct (Q (y1 - y0) gy ltac:(lra) Hy) as [P3 P4].
  eexists; eexists. split; [reflexivity|]. repeat (split; [assumption|]). assumption.
Qed.
Print Assumptions C67_pixel_count.

Example C67_square : exists nx ny, get_nx_ny_pixels_in_extent [0; 7; 7; 0; 0] [0; 0; 5; 5; 0] 2 2 = Ok (nx, ny) /\
  IZR nx * 2 <= 7 - 0 < (IZR nx + 1) * 2 /\ IZR ny * 2 <= 5 - 0 < (IZR ny + 1) * 2.
Proof.
  destruct (C67_pixel_count [0; 7; 7; 0; 0] [0; 0; 5; 5; 0] 2 2 0 7 0 5) as (nx & ny & E & _ & _ & B1 & B2);
    try (cbn; tauto); try lra; try (intros x H; cbn in H; repeat (destruct H as [<-|H]; [lra|]); contradiction).
  exists nx, ny. auto.
Qed.

(* ============================== C29 =============================== *)

(** A camera set up from coefficients (any units) projects p to the image point (x, y)
    exactly when p lies on the ray of (x, y) through the camera centre (not at the
    centre): the image of a point depends on its ray only, and the rays are those of the
    rotation of C25. *)
Theorem C29_image_ray : forall X Y Z omega phi kappa f ux uy uz uo up_ uk uf p x y,
  f * uf <> 0 ->
  let c := init_pinhole_from_coeffs X Y Z omega phi kappa f ux uy uz uo up_ uk uf in
  let M := create_M_matrix (omega * uo) (phi * up_) (kappa * uk) (txt "rpy") in
  world_to_image_plane c p = (Fin x, Fin y) <->
  exists s, s <> 0 /\ p = on_ray (V3 (X * ux) (Y * uy) (Z * uz)) M (f * uf) x y s.
Proof.
  intros. apply (image_plane_iff c p x y); [apply rpy_rot|assumption].
Qed.
Print Assumptions C29_image_ray.

(** Points of the plane through the camera centre parallel to the image plane have no
    image; every other point has one. *)
Theorem C29_defined : forall c p, rotation (ph_M c) ->
  (vz (mv3 (ph_M c) (vsub3 p (ph_pos c))) = 0 <-> world_to_image_plane c p = (NonFinite, NonFinite)) /\
  (vz (mv3 (ph_M c) (vsub3 p (ph_pos c))) <> 0 <-> exists x y, world_to_image_plane c p = (Fin x, Fin y)).
Proof.
  intros c p H. pose proof (image_plane_behind c p H) as Q. split; [exact Q|]. split.
  - intros N. unfold world_to_image_plane.
    change (e31 (ph_M c) * (vx p - vx (ph_pos c)) + e32 (ph_M c) * (vy p - vy (ph_pos c)) + e33 (ph_M c) * (vz p - vz (ph_pos c)))
      with (vz (mv3 (ph_M c) (vsub3 p (ph_pos c)))).
    rewrite !fdiv_nz by exact N. cbn. eauto.
  - intros (x & y & E) K. apply Q in K. congruence.
Qed.
Print Assumptions C29_defined.

(** The pixel of p: the point lies on the ray of the image point at distance
    (u - npix_x/2, v - npix_y/2) pixels from the principal point, mirrored in the flipped axes. *)
Definition side (flip : bool) : R := if flip then -1 else 1.
Theorem C29_pixel_ray : forall cam pitch_x pitch_y npix_x npix_y flip_x flip_y p u v,
  rotation (ph_M cam) -> ph_f cam <> 0 -> pitch_x <> 0 -> pitch_y <> 0 ->
  ideal_lon_lat_alt_to_pixel (mkIdeal cam pitch_x pitch_y npix_x npix_y flip_x flip_y) p = (Fin u, Fin v) <->
  exists s, s <> 0 /\
    p = on_ray (ph_pos cam) (ph_M cam) (ph_f cam)
          (side flip_x * ((u - npix_x / 2) * pitch_x)) (side flip_y * ((v - npix_y / 2) * pitch_y)) s.
Proof.
  intros cam px py nx ny fx fy p u v HR Hf Hx Hy.
  rewrite <- (image_plane_iff cam p _ _ HR Hf). unfold ideal_lon_lat_alt_to_pixel. cbn [ip_camera ip_pitch_x ip_pitch_y ip_npix_x ip_npix_y ip_flip_x ip_flip_y].
  destruct (world_to_image_plane cam p) as [[x|] [y|]] eqn:E.
  2: { split; [|discriminate]. destruct fx, fy; cbn [fmap]; discriminate. }
  2: { split; [|discriminate]. destruct fx, fy; cbn [fmap]; discriminate. }
  2: { split; [|discriminate]. destruct fx, fy; cbn [fmap]; discriminate. }
  assert (Q : forall (fl : bool) z w n pt, pt <> 0 ->
     (match (if fl then fmap (fun a => -1 * a) (Fin z) else Fin z) with Fin a => fdiv (a + n * pt / 2) pt | NonFinite => NonFinite end = Fin w
      <-> Fin z = Fin (side fl * ((w - n / 2) * pt)))).
  { intros fl z w n pt Hp. destruct fl; cbn [fmap side]; rewrite fdiv_nz by exact Hp; split; intros K; injection K as <- || injection K as ->; f_equal; field; exact Hp. }
  split; intros H.
  - apply pair_equal_spec in H. destruct H as [H1 H2]. apply Q in H1; [|exact Hx]. apply Q in H2; [|exact Hy].
    rewrite H1, H2. reflexivity.
  - apply pair_equal_spec in H. destruct H as [H1 H2]. apply pair_equal_spec. split; apply Q; assumption.
Qed.
Print Assumptions C29_pixel_ray.

(** Two points on one ray through the camera centre have the same pixel. *)
Theorem C29_same_ray : forall cam pitch_x pitch_y npix_x npix_y flip_x flip_y d a b,
  let calc := mkIdeal cam pitch_x pitch_y npix_x npix_y flip_x flip_y in
  a <> 0 -> b <> 0 ->
  ideal_lon_lat_alt_to_pixel calc (vadd3 (ph_pos cam) (vscale3 a d)) =
  ideal_lon_lat_alt_to_pixel calc (vadd3 (ph_pos cam) (vscale3 b d)).
Proof.
  intros cam px py nx ny fx fy d a b calc Ha Hb. unfold ideal_lon_lat_alt_to_pixel. cbn [calc ip_camera].
  assert (Q : world_to_image_plane cam (vadd3 (ph_pos cam) (vscale3 a d)) = world_to_image_plane cam (vadd3 (ph_pos cam) (vscale3 b d))).
  { assert (G : forall t, t <> 0 -> world_to_image_plane cam (vadd3 (ph_pos cam) (vscale3 t d)) = world_to_image_plane cam (vadd3 (ph_pos cam) d)).
    { intros t Ht. unfold world_to_image_plane. cbn [vx vy vz vadd3 vscale3].
      set (M := ph_M cam). destruct (ph_pos cam) as [X Y Z]. cbn [vx vy vz].
      assert (L : forall p q r, p * (X + t * vx d - X) + q * (Y + t * vy d - Y) + r * (Z + t * vz d - Z) = t * (p * vx d + q * vy d + r * vz d)) by (intros; ring).
      assert (L1 : forall p q r, p * (X + vx d - X) + q * (Y + vy d - Y) + r * (Z + vz d - Z) = p * vx d + q * vy d + r * vz d) by (intros; ring).
      rewrite !L, !L1. set (den := e31 M * vx d + e32 M * vy d + e33 M * vz d).
      assert (D : forall n, fdiv (t * n) (t * den) = fdiv n den).
      { intros n. destruct (Req_dec den 0) as [->|N]; [rewrite Rmult_0_r, !fdiv_0; reflexivity|].
        rewrite !fdiv_nz by (auto; apply Rmult_integral_contrapositive_currified; auto). f_equal. field. auto. }
      rewrite !D. reflexivity. }
    rewrite !G by assumption. reflexivity. }
  rewrite Q. reflexivity.
Qed.
Print Assumptions C29_same_ray.

(** A point on the principal axis projects to the middle of the image. *)
Theorem C29_principal_point : forall cam pitch_x pitch_y npix_x npix_y flip_x flip_y s,
  rotation (ph_M cam) -> ph_f cam <> 0 -> pitch_x <> 0 -> pitch_y <> 0 -> s <> 0 ->
  ideal_lon_lat_alt_to_pixel (mkIdeal cam pitch_x pitch_y npix_x npix_y flip_x flip_y)
    (vadd3 (ph_pos cam) (vscale3 s (mv3 (t3 (ph_M cam)) (V3 0 0 (-1))))) = (Fin (npix_x / 2), Fin (npix_y / 2)).
Proof.
  intros cam px py nx ny fx fy s HR Hf Hx Hy Hs. apply C29_pixel_ray; try assumption.
  exists (s / ph_f cam). split.
  - unfold Rdiv. apply Rmult_integral_contrapositive_currified; [exact Hs|apply Rinv_neq_0_compat; exact Hf].
  - replace (side fx * ((nx / 2 - nx / 2) * px)) with 0 by ring. replace (side fy * ((ny / 2 - ny / 2) * py)) with 0 by ring.
    unfold on_ray. f_equal. rewrite <- !mv3_scale. f_equal. apply vec3_eq; cbn; field; exact Hf.
Qed.
Print Assumptions C29_principal_point.

(** Moving camera and point together does not change the pixel. *)
Theorem C29_translation : forall pos f M pitch_x pitch_y npix_x npix_y flip_x flip_y p t,
  ideal_lon_lat_alt_to_pixel (mkIdeal (mkPinhole (vadd3 pos t) f M) pitch_x pitch_y npix_x npix_y flip_x flip_y) (vadd3 p t) =
  ideal_lon_lat_alt_to_pixel (mkIdeal (mkPinhole pos f M) pitch_x pitch_y npix_x npix_y flip_x flip_y) p.
Proof.
  intros. unfold ideal_lon_lat_alt_to_pixel, world_to_image_plane. cbn [ip_camera ph_pos ph_M ph_f vadd3 vx vy vz].
  replace (vx p + vx t - (vx pos + vx t)) with (vx p - vx pos) by ring.
  replace (vy p + vy t - (vy pos + vy t)) with (vy p - vy pos) by ring.
  replace (vz p + vz t - (vz pos + vz t)) with (vz p - vz pos) by ring. reflexivity.
Qed.
Print Assumptions C29_translation.

(** The instantaneous field of view is the angle with tangent pitch / f, below a right angle. *)
Theorem C29_ifov : forall pitch f, f <> 0 ->
  exists a, compute_ifov pitch f = Fin a /\ - PI / 2 < a < PI / 2 /\ tan a = pitch / f.
Proof.
  intros pitch f Hf. unfold compute_ifov. rewrite fdiv_nz by exact Hf. cbn. eexists. split; [reflexivity|].
  split; [pose proof (atan_bound (pitch / f)); lra|apply tan_atan].
Qed.
Print Assumptions C29_ifov.

(** A nadir camera 100 above the ground with focal length 1/10, pixels of 1/1000: the
    ground point 2 east of the camera lies 2 pixels right of the middle. *)
Example C29_nadir :
  ideal_lon_lat_alt_to_pixel (mkIdeal (init_pinhole_from_coeffs 0 0 100 0 0 0 (1/10) 1 1 1 1 1 1 1) (1/1000) (1/1000) 640 480 false true) (V3 2 0 0)
  = (Fin 322, Fin 240).
Proof.
  assert (E : create_M_matrix (0 * 1) (0 * 1) (0 * 1) (txt "rpy") = id3).
  { rewrite rpy_product, Rmult_1_r. unfold about_x, about_y, about_z. rewrite sin_0, cos_0. m3. }
  apply C29_pixel_ray; cbn [init_pinhole_from_coeffs ph_M ph_f ph_pos]; try lra.
  - rewrite E. exact rotation_id.
  - exists 1000. split; [lra|]. rewrite E. unfold on_ray. apply vec3_eq; cbn; field.
Qed.

(* ============================== C30 =============================== *)

(** For every history of setter calls that sets each attribute at least once, in any
    order: the camera has the orientation boresight . fixture, and its position relative
    to the fixture, seen in the fixture frame, is the lever arm; only the last value of
    each attribute matters. *)
Theorem C30_composition : forall ops xyz M rel B,
  last_some gives_position ops = Some xyz -> last_some gives_orientation ops = Some M ->
  last_some gives_lever_arm ops = Some rel -> last_some gives_boresight ops = Some B ->
  rotation M -> rotation B ->
  exists P A, get_camera_absolute_xyz (fx_run ops) = Ok P /\ get_camera_absolute_M_matrix (fx_run ops) = Ok A /\
    (forall v, mv3 A v = mv3 B (mv3 M v)) /\ rotation A /\
    mv3 M (vsub3 P xyz) = rel /\ norm3 (vsub3 P xyz) = norm3 rel /\
    (B = id3 -> A = M) /\ (rel = zerov3 -> P = xyz).
Proof.
  intros ops xyz M rel B H1 H2 H3 H4 HM HB. rewrite fx_run_state, H1, H2, H3, H4.
  unfold get_camera_absolute_xyz, get_camera_absolute_M_matrix. cbn [fx_rel fx_M fx_xyz fx_boresight].
  eexists; eexists. split; [reflexivity|]. split; [reflexivity|].
  assert (D : vsub3 (V3 (vx xyz + vx (vm3 rel M)) (vy xyz + vy (vm3 rel M)) (vz xyz + vz (vm3 rel M))) xyz = mv3 (t3 M) rel)
    by v3.
  split; [intros v; apply mv3_mul|]. split; [apply rotation_mul; assumption|].
  split. { rewrite D, <- mv3_mul. destruct HM as (-> & _). apply mv3_id. }
  split. { rewrite D. apply rotation_norm, rotation_t. exact HM. }
  split. { intros ->. apply mul3_id_l. }
  intros ->. destruct xyz. v3.
Qed.
Print Assumptions C30_composition.

(** With orientation and boresight given by angles in documented orders, in any units,
    the camera orientation is a rotation. *)
Theorem C30_by_angles : forall r p y ur up_ uy r' p' y' ur' up' uy' a1 a2 a3 b1 b2 b3 ops,
  is_order a1 a2 a3 -> is_order b1 b2 b3 ->
  last_some gives_orientation ops = gives_orientation (SetFixtureRpy r p y ur up_ uy (order_name a1 a2 a3)) ->
  last_some gives_boresight ops = gives_boresight (SetBoresightRpy r' p' y' ur' up' uy' (order_name b1 b2 b3)) ->
  exists A, get_camera_absolute_M_matrix (fx_run ops) = Ok A /\ rotation A /\
    (r' = 0 -> p' = 0 -> y' = 0 -> A = create_M_matrix (r * ur) (p * up_) (y * uy) (order_name a1 a2 a3)).
Proof.
  intros r p y ur up_ uy r' p' y' ur' up' uy' a1 a2 a3 b1 b2 b3 ops Ha Hb H1 H2.
  rewrite fx_run_state. unfold get_camera_absolute_M_matrix. cbn [fx_M fx_boresight].
  rewrite H1, H2. cbn [gives_orientation gives_boresight].
  eexists. split; [reflexivity|]. split; [apply rotation_mul; apply create_rot; assumption|].
  intros -> -> ->. rewrite (create_order _ _ _ b1 b2 b3 Hb), !Rmult_0_l.
  assert (Z : forall t, turn_matrix 0 0 0 t = id3).
  { intros []; cbn [turn_matrix]; unfold about_x, about_y, about_z; rewrite sin_0, cos_0; m3. }
  rewrite !Z, !mul3_id_l. reflexivity.
Qed.
Print Assumptions C30_by_angles.

(** Using the camera before everything it needs is set raises. *)
Theorem C30_unset : forall ops,
  ((last_some gives_position ops = None \/ last_some gives_orientation ops = None \/ last_some gives_lever_arm ops = None) <->
    get_camera_absolute_xyz (fx_run ops) = Err OtherError) /\
  ((last_some gives_orientation ops = None \/ last_some gives_boresight ops = None) <->
    get_camera_absolute_M_matrix (fx_run ops) = Err OtherError).
Proof.
  intros ops. rewrite fx_run_state. unfold get_camera_absolute_xyz, get_camera_absolute_M_matrix. cbn [fx_rel fx_M fx_xyz fx_boresight].
  destruct (last_some gives_position ops), (last_some gives_orientation ops), (last_some gives_lever_arm ops), (last_some gives_boresight ops);
    split; split; intros H; try reflexivity; try discriminate; auto; repeat destruct H as [H|H]; try discriminate.
Qed.
Print Assumptions C30_unset.

(** A history in which an early lever arm and orientation are replaced. *)
Example C30_history :
  let ops := [SetRelativeXyz 9 9 9 1 1 1; SetBoresight id3; SetFixtureOrientation zero3; SetFixtureXyz 10 20 30;
              SetFixtureOrientation (M3 0 1 0 (-1) 0 0 0 0 1); SetRelativeXyz 1 0 0 1 1 1] in
  get_camera_absolute_xyz (fx_run ops) = Ok (V3 10 21 30) /\ rotation (M3 0 1 0 (-1) 0 0 0 0 1).
Proof.
  split; [|apply rotation_intro; [m3|unfold det3; cbn; ring]].
  cbn. f_equal. v3.
Qed.
