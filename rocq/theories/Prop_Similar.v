(** Property C111: images and orthos depend only on relative geometry: another origin or unit of length, or a
    common rotation of camera and scene, changes no pixel. *)
From Coq Require Import Lra Lia.
From Verif Require Import RAux Geo3 M_Photo M_Cameras M_Ortho Spec_Ortho P_Ortho Spec_Similar.
Open Scope R_scope.
Open Scope list_scope.

(* ------------------------------ cameras ---------------------------- *)

Lemma fdiv_scale k a b : k <> 0 -> fdiv (k * a) (k * b) = fdiv a b.
Proof.
  intros H. unfold fdiv. destruct (Reqb_spec b 0) as [E|N].
  - subst b. rewrite Rmult_0_r, Reqb_true by reflexivity. reflexivity.
  - rewrite Reqb_false by (apply Rmult_integral_contrapositive_currified; assumption). f_equal. field. auto.
Qed.

Lemma plane_of_relative c c' p p' k : k <> 0 -> ph_f c' = ph_f c ->
  mv3 (ph_M c') (vsub3 p' (ph_pos c')) = vscale3 k (mv3 (ph_M c) (vsub3 p (ph_pos c))) ->
  world_to_image_plane c' p' = world_to_image_plane c p.
Proof.
  intros Hk Ef E. injection E as E1 E2 E3.
  unfold world_to_image_plane. rewrite Ef.
  cbn [mv3 vsub3 vscale3 vx vy vz] in E1, E2, E3.
  rewrite E1, E2, E3, !fdiv_scale by exact Hk. reflexivity.
Qed.

(** A pinhole camera sees the same picture in any coordinates: another origin, another unit of length. *)
Theorem C111_pinhole : forall g pos f M pitch_x pitch_y npix_x npix_y flip_x flip_y p, ch_k g <> 0 ->
  ideal_lon_lat_alt_to_pixel (mkIdeal (mkPinhole (new_vec g pos) f M) pitch_x pitch_y npix_x npix_y flip_x flip_y) (new_vec g p) =
  ideal_lon_lat_alt_to_pixel (mkIdeal (mkPinhole pos f M) pitch_x pitch_y npix_x npix_y flip_x flip_y) p.
Proof.
  intros g pos f M px py nx ny fx fy p Hk. unfold ideal_lon_lat_alt_to_pixel. cbn [ip_camera ip_pitch_x ip_pitch_y ip_npix_x ip_npix_y ip_flip_x ip_flip_y].
  rewrite (plane_of_relative (mkPinhole pos f M) (mkPinhole (new_vec g pos) f M) p (new_vec g p) (ch_k g) Hk eq_refl); [reflexivity|].
  unfold new_vec, new_x, new_y, new_z. apply vec3_eq; cbn; ring.
Qed.
Print Assumptions C111_pinhole.

(** Turning camera and scene together changes no pixel: with a rotation Q of the world, the position becomes Q pos
    and the orientation M becomes M Q^T (its rows are the camera's axes). *)
Theorem C111_pinhole_turned : forall Q pos f M pitch_x pitch_y npix_x npix_y flip_x flip_y p, rotation Q ->
  ideal_lon_lat_alt_to_pixel (mkIdeal (mkPinhole (mv3 Q pos) f (mul3 M (t3 Q))) pitch_x pitch_y npix_x npix_y flip_x flip_y) (mv3 Q p) =
  ideal_lon_lat_alt_to_pixel (mkIdeal (mkPinhole pos f M) pitch_x pitch_y npix_x npix_y flip_x flip_y) p.
Proof.
  intros Q pos f M px py nx ny fx fy p HQ. unfold ideal_lon_lat_alt_to_pixel. cbn [ip_camera ip_pitch_x ip_pitch_y ip_npix_x ip_npix_y ip_flip_x ip_flip_y].
  rewrite (plane_of_relative (mkPinhole pos f M) (mkPinhole (mv3 Q pos) f (mul3 M (t3 Q))) p (mv3 Q p) 1 ltac:(lra) eq_refl); [reflexivity|].
  cbn [ph_M ph_pos]. destruct HQ as (_ & H & _).
  replace (vsub3 (mv3 Q p) (mv3 Q pos)) with (mv3 Q (vsub3 p pos)) by v3.
  transitivity (mv3 (mul3 M (mul3 (t3 Q) Q)) (vsub3 p pos)); [apply vec3_eq; cbn; ring|].
  rewrite H, mul3_id_r. apply vec3_eq; cbn; ring.
Qed.
Print Assumptions C111_pinhole_turned.

(** A camera on a moving platform: turning and shifting the platform with the scene leaves the position and the
    orientation of the camera in the same relation to the scene, whatever its mounting. *)
Theorem C111_fixtured : forall Q t xyz M rel B, rotation Q ->
  let camera xyz M := fx_run [SetFixtureXyz (vx xyz) (vy xyz) (vz xyz); SetFixtureOrientation M;
                              SetRelativeXyz (vx rel) (vy rel) (vz rel) 1 1 1; SetBoresight B] in
  exists pos A,
    get_camera_absolute_xyz (camera xyz M) = Ok pos /\ get_camera_absolute_M_matrix (camera xyz M) = Ok A /\
    get_camera_absolute_xyz (camera (vadd3 (mv3 Q xyz) t) (mul3 M (t3 Q))) = Ok (vadd3 (mv3 Q pos) t) /\
    get_camera_absolute_M_matrix (camera (vadd3 (mv3 Q xyz) t) (mul3 M (t3 Q))) = Ok (mul3 A (t3 Q)).
Proof.
  intros Q t xyz M rel B HQ camera. unfold camera, fx_run, get_camera_absolute_xyz, get_camera_absolute_M_matrix.
  cbn [fold_left fx_step new_fixtured fx_xyz fx_M fx_rel fx_boresight].
  eexists _, _. split; [reflexivity|]. split; [reflexivity|]. split.
  - f_equal. apply vec3_eq; cbn; ring.
  - rewrite mul3_assoc. reflexivity.
Qed.
Print Assumptions C111_fixtured.

(** So too a distorting (OpenCV) camera: its position and mounting offset given in other coordinates *)
Theorem C111_opencv : forall g fx fy cx cy k1 k2 k3 p1 p2 x y z omega phi kappa ox oy oz omega' phi' kappa' p, ch_k g <> 0 ->
  cv_lon_lat_alt_to_pixel
    (cv_run [InitIntrinsic fx fy cx cy k1 k2 k3 p1 p2; InitExtrinsic (new_x g x) (new_y g y) (new_z g z) omega phi kappa;
             InitOffsets (ch_k g * ox) (ch_k g * oy) (ch_k g * oz) omega' phi' kappa']) (new_vec g p) =
  cv_lon_lat_alt_to_pixel
    (cv_run [InitIntrinsic fx fy cx cy k1 k2 k3 p1 p2; InitExtrinsic x y z omega phi kappa;
             InitOffsets ox oy oz omega' phi' kappa']) p.
Proof.
  intros g fx fy cx cy k1 k2 k3 p1 p2 x y z o ph k ox oy oz o' ph' k' p Hk.
  unfold cv_lon_lat_alt_to_pixel, cv_run, get_camera_absolute_M_matrix, get_camera_absolute_xyz.
  cbn [fold_left cv_step new_opencv cv_intr cv_fixture fx_step new_fixtured fx_xyz fx_M fx_rel fx_boresight bind].
  set (M := create_M_matrix (o * 1) (ph * 1) (k * 1) (txt "rpy")). set (B := create_M_matrix (o' * 1) (ph' * 1) (k' * 1) (txt "rpy")).
  clearbody M B. f_equal.
  match goal with |- cv_project ?i ?a = cv_project _ ?b => replace a with (vscale3 (ch_k g) b) end.
  2:{ apply vec3_eq; cbn; unfold new_x, new_y, new_z; ring. }
  match goal with |- cv_project ?i (vscale3 _ ?b) = _ => generalize b end. intros v.
  unfold cv_project. cbn [vscale3 vx vy vz]. rewrite !fdiv_scale by exact Hk. reflexivity.
Qed.
Print Assumptions C111_opencv.

(* ------------------------------- orthos ---------------------------- *)

Lemma py_get_map' {A B} (f : A -> B) l i : py_get (map f l) i = rmap f (py_get l i).
Proof.
  unfold py_get, zlen. rewrite map_length. destruct (py_index _ i) as [k|]; [|reflexivity].
  rewrite nth_error_map. destruct (nth_error l k); reflexivity.
Qed.
Lemma get2_map f a i j : get2 (map2d f a) i j = rmap f (get2 a i j).
Proof.
  unfold get2, map2d. rewrite py_get_map'. destruct (py_get a i); cbn [rmap bind]; [|reflexivity|reflexivity]. apply py_get_map'.
Qed.
Lemma map2d_map2d f h a : map2d f (map2d h a) = map2d (fun x => f (h x)) a.
Proof. unfold map2d. rewrite map_map. apply map_ext. intros l. apply map_map. Qed.
Lemma map2d_ext f h a : (forall x, f x = h x) -> map2d f a = map2d h a.
Proof. intros H. unfold map2d. apply map_ext. intros l. apply map_ext. exact H. Qed.

(** The ground grid in the new coordinates *)
Lemma grid_changed g minx maxx miny maxy nx ny : 0 < ch_k g ->
  create_ground_grid (new_x g minx) (new_x g maxx) (new_y g miny) (new_y g maxy) nx ny =
  rmap (fun xy => (map2d (new_x g) (fst xy), map2d (new_y g) (snd xy))) (create_ground_grid minx maxx miny maxy nx ny).
Proof.
  intros Hk. unfold create_ground_grid.
  set (gx0 := map (fun _ => map (fun c => IZR c) (zrange 0 nx)) (zrange 0 ny)).
  set (gy0 := map (fun r => map (fun _ => IZR r) (zrange 0 nx)) (zrange 0 ny)).
  set (gx := map2d (fun c => c / IZR nx * (maxx - minx) + minx) gx0).
  set (gy := map2d (fun r => (r - IZR ny) * -1 / IZR ny * (maxy - miny) + miny) gy0).
  replace (map2d (fun c => c / IZR nx * (new_x g maxx - new_x g minx) + new_x g minx) gx0) with (map2d (new_x g) gx).
  2:{ unfold gx. rewrite map2d_map2d. apply map2d_ext. intros x. unfold new_x. unfold Rdiv. ring. }
  replace (map2d (fun r => (r - IZR ny) * -1 / IZR ny * (new_y g maxy - new_y g miny) + new_y g miny) gy0) with (map2d (new_y g) gy).
  2:{ unfold gy. rewrite map2d_map2d. apply map2d_ext. intros x. unfold new_y. unfold Rdiv. ring. }
  rewrite !get2_map.
  destruct (get2 gx 0 1) as [x01| |]; cbn [rmap bind]; try reflexivity.
  destruct (get2 gx 0 0) as [x00| |]; cbn [rmap bind]; try reflexivity.
  destruct (get2 gy 0 0) as [y00| |]; cbn [rmap bind]; try reflexivity.
  destruct (get2 gy 1 0) as [y10| |]; cbn [rmap bind]; try reflexivity.
  assert (Ax : forall a b, Rabs (new_x g a - new_x g b) = ch_k g * Rabs (a - b)).
  { intros a b. replace (new_x g a - new_x g b) with (ch_k g * (a - b)) by (unfold new_x; ring).
    rewrite Rabs_mult, (Rabs_pos_eq (ch_k g)) by lra. reflexivity. }
  assert (Ay : forall a b, Rabs (new_y g a - new_y g b) = ch_k g * Rabs (a - b)).
  { intros a b. replace (new_y g a - new_y g b) with (ch_k g * (a - b)) by (unfold new_y; ring).
    rewrite Rabs_mult, (Rabs_pos_eq (ch_k g)) by lra. reflexivity. }
  cbn [fst snd]. rewrite !map2d_map2d. do 2 f_equal.
  - apply map2d_ext. intros x. rewrite Ax. unfold new_x. field.
  - apply map2d_ext. intros y. rewrite Ay. unfold new_y. field.
Qed.

Lemma combine_changed g : forall xs ys, combine (map (new_x g) xs) (map (new_y g) ys) = map (new_point g) (combine xs ys).
Proof. induction xs as [|x xs IH]; intros [|y ys]; cbn [map combine]; try reflexivity. rewrite IH. reflexivity. Qed.
Lemma points_changed g : forall gx gy,
  map2 (fun xs ys => combine xs ys) (map2d (new_x g) gx) (map2d (new_y g) gy) = map (map (new_point g)) (map2 (fun xs ys => combine xs ys) gx gy).
Proof.
  induction gx as [|xs gx IH]; intros [|ys gy]; cbn [map2d map map2]; try reflexivity.
  rewrite combine_changed. f_equal. apply IH.
Qed.

Lemma mapM_ext' {A B} (f h : A -> result B) l : (forall a, f a = h a) -> mapM f l = mapM h l.
Proof. intros H. induction l as [|a l IH]; cbn [mapM]; [reflexivity|]. rewrite H, IH. reflexivity. Qed.

(** The ortho over an extent: the same pixels, and the geotransform in the new coordinates *)
Theorem C111_ortho : forall g sample a b nx ny minx miny maxx maxy dem dem' bands nodata,
  0 < ch_k g -> same_image g a b -> same_terrain g dem dem' ->
  create_ortho sample b nx ny (new_x g minx) (new_y g miny) (new_x g maxx) (new_y g maxy) dem' bands nodata =
  rmap (fun r => (fst r, new_geo g (snd r))) (create_ortho sample a nx ny minx miny maxx maxy dem bands nodata).
Proof.
  intros g sample a b nx ny minx miny maxx maxy dem dem' bands nodata Hk (S1 & S2 & S3 & S4 & S5 & S6 & S7 & S8) HT.
  unfold create_ortho. rewrite grid_changed by exact Hk.
  destruct (create_ground_grid minx maxx miny maxy (Z.of_nat nx) (Z.of_nat ny)) as [[gx gy]| |]; cbn [rmap bind fst snd]; try reflexivity.
  rewrite points_changed.
  set (rows := map2 (fun xs ys => combine xs ys) gx gy). clearbody rows.
  set (elev := match dem with Some d => d | None => fun _ => 0 end).
  set (elev' := match dem' with Some d => d | None => fun _ => 0 end).
  assert (HE : forall p, elev' (new_point g p) = new_z g (elev p)).
  { unfold elev, elev', same_terrain in *. destruct dem, dem'; try contradiction; auto.
    intros p. unfold new_z. rewrite HT. ring. }
  set (pts := map (map (fun p => (p, elev p))) rows).
  assert (HP : map (fun q => map (fun p => (p, elev' p)) q) (map (map (new_point g)) rows) =
               map (map (fun pz => (new_point g (fst pz), new_z g (snd pz)))) pts).
  { unfold pts. rewrite !map_map. apply map_ext. intros q. rewrite !map_map. apply map_ext. intros p. cbn [fst snd]. rewrite HE. reflexivity. }
  rewrite HP.
  assert (HL : forall i, map (map (ov_locate b i)) (map (map (fun pz => (new_point g (fst pz), new_z g (snd pz)))) pts) = map (map (ov_locate a i)) pts).
  { intros i. rewrite map_map. apply map_ext. intros q. rewrite map_map. apply map_ext. intros [p z]. apply S8. }
  assert (HM : forall loc v, masked_out b nodata loc v = masked_out a nodata loc v).
  { intros loc v. unfold masked_out. rewrite S3, S4, S7. reflexivity. }
  rewrite S6.
  erewrite mapM_ext'.
  2:{ intros i. rewrite S1, S2, S5, !HL. cbv zeta. reflexivity. }
  fold pts.
  match goal with |- bind (mapM ?f ?l) _ = rmap _ (bind (mapM ?h ?l) _) => assert (E : mapM f l = mapM h l) end.
  { apply mapM_ext'. intros i. destruct (ov_coregistered a).
    - destruct (ov_loaded a); [|reflexivity].
      match goal with |- bind ?u _ = bind ?u _ => destruct u as [flat| |]; cbn [bind]; try reflexivity end.
      do 2 f_equal.
      assert (V : map (map (ov_store b)) (b_rows flat) = map (map (ov_store a)) (b_rows flat))
        by (apply map_ext; intros q; apply map_ext; exact S7).
      rewrite V. clear - HM.
      assert (M1 : forall l m, map2 (masked_out b nodata) l m = map2 (masked_out a nodata) l m).
      { induction l as [|x l IH]; intros [|y m]; cbn [map2]; try reflexivity. rewrite HM, IH. reflexivity. }
      generalize (map (map (ov_locate a 0)) pts) as L, (map (map (ov_store a)) (b_rows flat)) as V.
      induction L as [|x L IH]; intros [|y V]; cbn [map2]; try reflexivity. rewrite M1, IH. reflexivity.
    - match goal with |- bind ?u _ = bind ?u _ => destruct u as [flat| |]; cbn [bind]; try reflexivity end.
      do 2 f_equal. apply map_ext; intros q; apply map_ext; exact S7. }
  rewrite E. match goal with |- bind ?u _ = _ => destruct u as [im| |]; cbn [bind rmap]; try reflexivity end.
  destruct im as [|i0 im]; cbn [rmap]; [reflexivity|]. do 2 f_equal.
  unfold world_poly_to_geo_t, new_geo. cbv zeta.
  cbn [snd].
  assert (E1 : (new_x g maxx - new_x g minx) / (IZR (Z.of_nat nx) + 1) = ch_k g * ((maxx - minx) / (IZR (Z.of_nat nx) + 1)))
    by (unfold new_x, Rdiv; ring).
  assert (E2 : -1 * ((new_y g maxy - new_y g miny) / (IZR (Z.of_nat ny) + 1)) = ch_k g * (-1 * ((maxy - miny) / (IZR (Z.of_nat ny) + 1))))
    by (unfold new_y, Rdiv; ring).
  rewrite E1, E2, Rmult_0_r.
  reflexivity.
Qed.
Print Assumptions C111_ortho.

(* ------------------------- extents and full orthos ------------------ *)

Lemma pixel_changed g ground ground' dem dem' i p : same_rays g ground ground' -> same_dem g dem dem' ->
  pixel_lon_lat ground' dem' i p = new_point g (pixel_lon_lat ground dem i p).
Proof.
  intros HR HD. unfold pixel_lon_lat.
  set (d := match dem with Some d => d | None => constant_dem 0 end).
  set (d' := match dem' with Some d => d | None => constant_dem 0 end).
  assert (HE : (forall q, df_elev d' (new_point g q) = new_z g (df_elev d q)) /\ df_highest d' = new_z g (df_highest d)).
  { unfold d, d', same_dem in *. destruct dem, dem'; try contradiction; auto.
    cbn. unfold new_z. rewrite HD. split; intros; ring. }
  destruct HE as [H1 H2]. cbv zeta. rewrite H2, HR, H1.
  replace (new_z g (df_highest d) - (new_z g (df_highest d) - new_z g (df_elev d (ground i p (df_highest d)))))
    with (new_z g (df_highest d - (df_highest d - df_elev d (ground i p (df_highest d))))) by (unfold new_z; ring).
  apply HR.
Qed.

(** The extent on the ground: the same outline, in the new coordinates.  The hull of shapely is asked only to
    commute with the change. *)
Theorem C111_extent : forall g outline coreg nx ny n_bands ground ground' dem dem' bands,
  (forall pts, outline (map (new_point g) pts) = map (new_point g) (outline pts)) ->
  same_rays g ground ground' -> same_dem g dem dem' ->
  get_extent outline coreg nx ny n_bands ground' dem' bands = rmap (map (new_point g)) (get_extent outline coreg nx ny n_bands ground dem bands).
Proof.
  intros g outline coreg nx ny n_bands ground ground' dem dem' bands HO HR HD. unfold get_extent.
  destruct (border_pixels nx ny) as [bd| |]; cbn [bind rmap]; try reflexivity. f_equal. rewrite <- HO. f_equal.
  assert (P : forall i l, map (pixel_lon_lat ground' dem' i) l = map (new_point g) (map (pixel_lon_lat ground dem i) l)).
  { intros i l. rewrite map_map. apply map_ext. intros p. apply pixel_changed; assumption. }
  destruct coreg; [apply P|]. rewrite concat_map, map_map. f_equal. apply map_ext. intros i. apply P.
Qed.
Print Assumptions C111_extent.

Lemma rmin_changed k t l : 0 < k -> rmin (map (fun x => k * x + t) l) = option_map (fun x => k * x + t) (rmin l).
Proof.
  intros Hk. induction l as [|x l IH]; cbn [map rmin]; [reflexivity|]. rewrite IH. destruct (rmin l) as [m|]; cbn [option_map]; [|reflexivity].
  f_equal. unfold Rmin. destruct (Rle_dec x m), (Rle_dec (k * x + t) (k * m + t)); try reflexivity; nra.
Qed.
Lemma rmax_changed k t l : 0 < k -> rmax (map (fun x => k * x + t) l) = option_map (fun x => k * x + t) (rmax l).
Proof.
  intros Hk. induction l as [|x l IH]; cbn [map rmax]; [reflexivity|]. rewrite IH. destruct (rmax l) as [m|]; cbn [option_map]; [|reflexivity].
  f_equal. unfold Rmax. destruct (Rle_dec x m), (Rle_dec (k * x + t) (k * m + t)); try reflexivity; nra.
Qed.
Lemma bounds_changed g poly : 0 < ch_k g ->
  bounds (map (new_point g) poly) =
  option_map (fun b => let '(x0, y0, x1, y1) := b in (new_x g x0, new_y g y0, new_x g x1, new_y g y1)) (bounds poly).
Proof.
  intros Hk. unfold bounds. rewrite !map_map. cbn [new_point fst snd].
  replace (map (fun p => new_x g (fst p)) poly) with (map (fun x => ch_k g * x + ch_x g) (map fst poly)) by (rewrite map_map; reflexivity).
  replace (map (fun p => new_y g (snd p)) poly) with (map (fun x => ch_k g * x + ch_y g) (map snd poly)) by (rewrite map_map; reflexivity).
  rewrite !rmin_changed, !rmax_changed by exact Hk.
  destruct (rmin (map fst poly)), (rmin (map snd poly)), (rmax (map fst poly)), (rmax (map snd poly)); reflexivity.
Qed.

(** The full ortho: with a ground sample distance in the new unit, or with the default one (if the transformation
    to the local zone is in the new coordinates a change of the same scale), the same pixels. *)
Theorem C111_full : forall g outline to_local to_local' sample a b ground ground' dem dem' bands gsd nodata,
  0 < ch_k g ->
  (forall pts, outline (map (new_point g) pts) = map (new_point g) (outline pts)) ->
  (exists ux uy, forall p, to_local' (new_point g p) = (ch_k g * fst (to_local p) + ux, ch_k g * snd (to_local p) + uy)) ->
  same_image g a b -> same_rays g ground ground' -> same_dem g dem dem' ->
  create_full_ortho outline to_local' sample b ground' dem' bands (option_map (Rmult (ch_k g)) gsd) nodata =
  rmap (fun r => (fst r, new_geo g (snd r))) (create_full_ortho outline to_local sample a ground dem bands gsd nodata).
Proof.
  intros g outline to_local to_local' sample a b ground ground' dem dem' bands gsd nodata Hk HO (ux & uy & HU) HI HR HD.
  unfold create_full_ortho. pose proof HI as (S1 & _ & S3 & S4 & _ & S6 & _).
  rewrite S1, S3, S4, S6.
  rewrite (C111_extent g outline _ _ _ _ ground ground' dem dem' _ HO HR HD).
  destruct (get_extent outline _ _ _ _ ground dem _) as [poly| |]; cbn [bind rmap]; try reflexivity.
  rewrite bounds_changed by exact Hk. destruct (bounds poly) as [[[[minx miny] maxx] maxy]|]; cbn [option_map rmap]; [|reflexivity].
  set (bd := match bands with Some (b :: _) => b | _ => 0%nat end).
  assert (G : forall nx ny, full_ortho_gsd to_local' nx ny ground' dem' bd (option_map (Rmult (ch_k g)) gsd) =
              ch_k g * full_ortho_gsd to_local nx ny ground dem bd gsd).
  { intros nx ny. unfold full_ortho_gsd. destruct gsd as [v|]; cbn [option_map]; [reflexivity|].
    cbv zeta. rewrite !(pixel_changed g ground ground' dem dem') by assumption. rewrite !HU.
    destruct (to_local (pixel_lon_lat ground dem bd (0, 0))) as [x0 y0].
    destruct (to_local (pixel_lon_lat ground dem bd (INR nx - 1, 0))) as [x1 y1].
    destruct (to_local (pixel_lon_lat ground dem bd (0, INR ny - 1))) as [x2 y2]. cbn [fst snd].
    assert (D : forall u v u' v', sqrt ((ch_k g * u + ux - (ch_k g * u' + ux)) ^ 2 + (ch_k g * v + uy - (ch_k g * v' + uy)) ^ 2) =
                 ch_k g * sqrt ((u - u') ^ 2 + (v - v') ^ 2)).
    { intros u v u' v'.
      replace ((ch_k g * u + ux - (ch_k g * u' + ux)) ^ 2 + (ch_k g * v + uy - (ch_k g * v' + uy)) ^ 2)
        with ((ch_k g * ch_k g) * ((u - u') ^ 2 + (v - v') ^ 2)) by ring.
      rewrite sqrt_mult_alt by nra. rewrite sqrt_square by lra. reflexivity. }
    rewrite !D. unfold Rdiv. ring. }
  rewrite G. set (w := full_ortho_gsd _ _ _ _ _ _ _). clearbody w.
  assert (Z : full_ortho_size (new_x g minx, new_y g miny, new_x g maxx, new_y g maxy) (ch_k g * w) = full_ortho_size (minx, miny, maxx, maxy) w).
  { unfold full_ortho_size.
    assert (Ax : Rabs (new_x g maxx - new_x g minx) = ch_k g * Rabs (maxx - minx)).
    { replace (new_x g maxx - new_x g minx) with (ch_k g * (maxx - minx)) by (unfold new_x; ring).
      rewrite Rabs_mult, (Rabs_pos_eq (ch_k g)) by lra. reflexivity. }
    assert (Ay : Rabs (new_y g maxy - new_y g miny) = ch_k g * Rabs (maxy - miny)).
    { replace (new_y g maxy - new_y g miny) with (ch_k g * (maxy - miny)) by (unfold new_y; ring).
      rewrite Rabs_mult, (Rabs_pos_eq (ch_k g)) by lra. reflexivity. }
    destruct (Reqb_spec w 0) as [E|N].
    - subst w. rewrite Rmult_0_r, Reqb_true by reflexivity.
      destruct (Reqb_spec maxx minx) as [E|N].
      + rewrite Reqb_true by (rewrite E; reflexivity). reflexivity.
      + rewrite Reqb_false; [reflexivity|]. unfold new_x. intros E. apply N. nra.
    - rewrite Reqb_false by (apply Rmult_integral_contrapositive_currified; lra).
      rewrite Ax, Ay. f_equal. f_equal; f_equal; field; split; lra. }
  rewrite Z. destruct (full_ortho_size (minx, miny, maxx, maxy) w) as [[sx sy]| |]; cbn [bind rmap]; try reflexivity.
  apply C111_ortho; [exact Hk|exact HI|].
  unfold same_dem, same_terrain in *. destruct dem, dem'; cbn [option_map]; try contradiction; try exact HD. apply HD.
Qed.
Print Assumptions C111_full.

(** Which pixels the terrain hides: moving everything together changes nothing, if the pixels are given as
    floats.  (A change of unit does: the step of the search and the millimetre added to the highest altitude are
    fixed numbers.) *)
Theorem C111_obstruction : forall g ground ground' dem dem' highest resolution pixels points alts,
  ch_k g = 1 ->
  (forall p z, ground' p (new_z g z) = new_point g (ground p z)) ->
  (forall p, dem' (new_point g p) = fmap (new_z g) (dem p)) ->
  are_pixels_obstructed ground' false dem' (new_z g highest) resolution pixels (map (new_point g) points) (map (new_z g) alts) =
  are_pixels_obstructed ground false dem highest resolution pixels points alts.
Proof.
  intros g ground ground' dem dem' highest resolution pixels points alts Hk HG HD.
  unfold are_pixels_obstructed. cbv zeta.
  set (res := match resolution with None => 5 | Some r => r end). clearbody res.
  replace (new_z g highest + 1 / 1000) with (new_z g (highest + 1 / 1000)) by (unfold new_z; rewrite Hk; ring).
  set (top := highest + 1 / 1000). clearbody top.
  set (moved := fun s => mkSight (new_x g (s_lon s)) (new_y g (s_lat s)) (new_z g (s_alt s)) (new_x g (s_lon_h s)) (new_y g (s_lat_h s)) (new_z g (s_alt_h s))).
  match goal with |- march _ _ ?A = march _ _ ?B => assert (E : A = map moved B); [|rewrite E; generalize B] end.
  { revert points alts. induction pixels as [|p pixels IH]; intros [|q points] [|z alts]; cbn [map combine map2]; try reflexivity.
    rewrite IH. f_equal. rewrite HG. reflexivity. }
  intros sights. unfold march.
  assert (HH : forall s, horizontal (moved s) = horizontal s).
  { intros s. unfold horizontal, lon_diff, lat_diff, moved, new_x, new_y. cbn. rewrite Hk. f_equal. ring. }
  rewrite map_map. rewrite (map_ext _ _ HH).
  destruct (rmax (map horizontal sights)) as [m|]; [|reflexivity].
  destruct (Reqb res 0); [reflexivity|]. f_equal.
  assert (I0 : map (fun _ => 0) (map moved sights) = map (fun _ : sight => 0) sights) by (rewrite map_map; reflexivity).
  rewrite I0. generalize (map (fun _ : sight => 0) sights).
  set (steps := map (fun k => 1 + INR k) (seq 0 (Z.to_nat (ceilZ (m / res - 1))))). clearbody steps.
  induction steps as [|st steps IH]; intros mask; cbn [fold_left]; [reflexivity|].
  rewrite IH. f_equal.
  revert mask. clear - HD Hk. induction sights as [|s sights IH]; intros [|v mask]; cbn [map map2]; try reflexivity.
  rewrite IH. f_equal. unfold lon_diff, lat_diff, moved. cbn [s_lon s_lat s_alt s_lon_h s_lat_h s_alt_h].
  replace (new_x g (s_lon s) + (new_x g (s_lon s) - new_x g (s_lon_h s)) * st / (m / res), new_y g (s_lat s) + (new_y g (s_lat s) - new_y g (s_lat_h s)) * st / (m / res))
    with (new_point g (s_lon s + (s_lon s - s_lon_h s) * st / (m / res), s_lat s + (s_lat s - s_lat_h s) * st / (m / res))).
  2:{ unfold new_point, new_x, new_y. rewrite Hk. cbn [fst snd]. unfold Rdiv. f_equal; ring. }
  rewrite HD.
  set (q := dem _). destruct q as [h|]; cbn [fmap fgt]; [|reflexivity].
  replace (new_z g (s_alt s) + (new_z g (s_alt_h s) - new_z g (s_alt s)) * st / (m / res))
    with (new_z g (s_alt s + (s_alt_h s - s_alt s) * st / (m / res))) by (unfold new_z; rewrite Hk; unfold Rdiv; ring).
  set (u := s_alt s + _). clearbody u. unfold new_z. rewrite Hk.
  destruct (Rltb_spec u h), (Rltb_spec (1 * u + ch_z g) (1 * h + ch_z g)); try reflexivity; lra.
Qed.
Print Assumptions C111_obstruction.

(** A change of unit can change which pixels are marked: a slope seen obliquely, in metres and in units of two
    metres. *)
Theorem C111_obstruction_unit_refuted : exists g ground ground' dem dem' highest pixels points alts,
  0 < ch_k g /\
  (forall p z, ground' p (new_z g z) = new_point g (ground p z)) /\
  (forall p, dem' (new_point g p) = fmap (new_z g) (dem p)) /\
  are_pixels_obstructed ground false dem highest None pixels points alts = Ok [1] /\
  are_pixels_obstructed ground' false dem' (new_z g highest) None pixels (map (new_point g) points) (map (new_z g) alts) = Ok [0].
Proof.
  exists (mkChange (1 / 2) 0 0 0), (fun _ z => (- (6 / 100) * z, 0)), (fun _ z => (- (6 / 100) * z, 0)),
    (fun q => Fin (20 * fst q)), (fun q => Fin (20 * fst q)), 100, [(3, 3)], [(0, 0)], [0].
  split; [cbn; lra|]. split; [intros p z; unfold new_z, new_point, new_x, new_y; cbn [ch_k ch_x ch_y ch_z fst snd]; f_equal; lra|].
  split; [intros p; unfold new_z, new_point, new_x; cbn [ch_k ch_x ch_y ch_z fst snd fmap]; f_equal; lra|].
  unfold are_pixels_obstructed, march. cbn [map combine map2 fst snd rmax new_point new_x new_y new_z ch_k ch_x ch_y ch_z].
  unfold horizontal, lon_diff, lat_diff, new_x, new_y, new_z. cbn [s_lon s_lat s_alt s_lon_h s_lat_h s_alt_h rmax map ch_k ch_x ch_y ch_z].
  rewrite !Reqb_false by lra.
  assert (SQ : forall x y, 0 <= y -> x = y -> sqrt (x ^ 2) = y) by (intros x y Y ->; apply sqrt_pow2; exact Y).
  split.
  - rewrite !(SQ _ (600006 / 100000)) by lra.
    replace (ceilZ (600006 / 100000 / 5 - 1)) with 1%Z.
    2:{ pose proof (ceilZ_ge (600006 / 100000 / 5 - 1)) as [A B].
        assert (0 < ceilZ (600006 / 100000 / 5 - 1) < 2)%Z by (split; apply lt_IZR; lra). lia. }
    change (Z.to_nat 1) with 1%nat. cbn [seq map fold_left map2 fgt fst]. rewrite Rltb_true; [reflexivity|].
    cbn [INR]. lra.
  - rewrite !(SQ _ (300006 / 100000)) by lra.
    assert (X : (ceilZ (300006 / 100000 / 5 - 1) <= 0)%Z).
    { pose proof (ceilZ_ge (300006 / 100000 / 5 - 1)) as [A B]. assert (ceilZ (300006 / 100000 / 5 - 1) < 1)%Z by (apply lt_IZR; lra). lia. }
    replace (Z.to_nat (ceilZ (300006 / 100000 / 5 - 1))) with 0%nat by lia. reflexivity.
Qed.
Print Assumptions C111_obstruction_unit_refuted.

(* --------------------------- the hypotheses ------------------------- *)

(** An oblique sensor over a slope, in metres from one origin and in feet from another *)
Definition demo_change : change := mkChange (3281 / 1000) 500000 4000000 (-100).
Definition demo_old : overhead :=
  mkOverhead true true 4 4 (fun _ => repeat (repeat (Fin 7) 4) 4) 2 (fun v => v) (fun i pz => (fst (fst pz) - snd pz / 2, - snd (fst pz))).
Definition demo_new : overhead :=
  mkOverhead true true 4 4 (fun _ => repeat (repeat (Fin 7) 4) 4) 2 (fun v => v)
    (fun i pz => ((fst (fst pz) - 500000) / (3281 / 1000) - (snd pz + 100) / (3281 / 1000) / 2, - ((snd (fst pz) - 4000000) / (3281 / 1000)))).
Definition demo_slope : dem_fn := mkDemFn (fun q => fst q / 3) 50.
Definition demo_slope' : dem_fn := mkDemFn (fun q => (3281 / 1000) * ((fst q - 500000) / (3281 / 1000) / 3) - 100) ((3281 / 1000) * 50 - 100).

Example C111_hypotheses_met :
  0 < ch_k demo_change /\ same_image demo_change demo_old demo_new /\ same_dem demo_change (Some demo_slope) (Some demo_slope') /\
  same_terrain demo_change (Some (df_elev demo_slope)) (Some (df_elev demo_slope')) /\
  same_rays demo_change (fun i p z => (fst p + z / 2, - snd p))
    (fun i p z => ((3281 / 1000) * (fst p + (z + 100) / (3281 / 1000) / 2) + 500000, (3281 / 1000) * - snd p + 4000000)) /\
  (forall pts, (fun l : list (R * R) => l) (map (new_point demo_change) pts) = map (new_point demo_change) pts) /\
  (exists ux uy, forall p, (fun q : R * R => q) (new_point demo_change p) = (ch_k demo_change * fst p + ux, ch_k demo_change * snd p + uy)) /\
  exists bands geo, create_ortho (fun _ loc => Fin (fst loc + 10 * snd loc)) demo_old 2 2 0 0 4 4 (Some (df_elev demo_slope)) None (Fin (-1)) = Ok (bands, geo).
Proof.
  assert (K : 0 < ch_k demo_change) by (cbn; lra).
  repeat match goal with |- _ /\ _ => split end; try exact K.
  all: try (unfold demo_slope, demo_slope', same_dem, same_terrain, demo_change, new_point, new_x, new_z; cbn [df_elev df_highest ch_k ch_x ch_y ch_z fst snd]; try split; try intros p; field).
  - repeat split; try reflexivity. intros i p z. unfold demo_old, demo_new, demo_change, new_point, new_x, new_y, new_z. cbn. f_equal; field.
  - intros i p z. unfold demo_change, new_point, new_x, new_y, new_z. cbn. f_equal; field.
  - exists 500000, 4000000. intros p. reflexivity.
  - eexists _, _. unfold create_ortho. cbn. reflexivity.
Qed.

(** A rotation that is not the identity: a quarter turn about the vertical axis *)
Example C111_turn_met : rotation (M3 0 (-1) 0 1 0 0 0 0 1) /\
  exists p, mv3 (M3 0 (-1) 0 1 0 0 0 0 1) p <> p.
Proof. split; [apply rotation_intro; [apply mat3_eq; unfold mul3, t3, id3; cbn [e11 e12 e13 e21 e22 e23 e31 e32 e33]; lra|unfold det3; cbn [e11 e12 e13 e21 e22 e23 e31 e32 e33]; lra]|]. exists (V3 1 0 0). intros E. injection E as E1 E2 E3. lra. Qed.
