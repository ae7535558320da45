(** Model of opencv_point_calc.py, pix4d_point_calc.py, rpc_point_calc.py and
    geotiff_point_calc.py in
    resippy/image_objects/earth_overhead/earth_overhead_point_calculators/, one point at a
    time (numpy applies the same expressions to every element; see C35 for the arrays),
    and of create_r_matrix in resippy/utils/pix4d_utils.py.  Exact real arithmetic. *)
From Verif Require Export RAux Text M_Envi M_TextFiles Geo3 M_Photo.
Open Scope R_scope.
Open Scope list_scope.

(* ------------------------- opencv_point_calc.py ------------------------ *)

Record cv_intrinsic := mkCvIntrinsic { cv_fx : R; cv_fy : R; cv_cx : R; cv_cy : R;
  cv_k1 : R; cv_k2 : R; cv_k3 : R; cv_p1 : R; cv_p2 : R }.
Record opencv := mkOpencv { cv_intr : cv_intrinsic; cv_fixture : fixtured }.

(* resippy/image_objects/earth_overhead/earth_overhead_point_calculators/opencv_point_calc.py:11-46 *)
Definition new_opencv : opencv := mkOpencv (mkCvIntrinsic 0 0 0 0 0 0 0 0 0) new_fixtured.

Inductive cv_op :=
| InitIntrinsic (fx fy cx cy k1 k2 k3 p1 p2 : R)
| InitExtrinsic (x y z omega phi kappa : R)
| InitOffsets (x y z omega phi kappa : R).

(* resippy/image_objects/earth_overhead/earth_overhead_point_calculators/opencv_point_calc.py:66-130; the pixel pitch and the stored copies are never read *)
Definition cv_step (c : opencv) (o : cv_op) : opencv :=
  match o with
  | InitIntrinsic fx fy cx cy k1 k2 k3 p1 p2 =>
    mkOpencv (mkCvIntrinsic (- fx) (- fy) cx cy k1 k2 k3 p1 p2) (cv_fixture c)
  | InitExtrinsic x y z o p k =>
    mkOpencv (cv_intr c) (fx_step (fx_step (cv_fixture c) (SetFixtureXyz x y z)) (SetFixtureRpy o p k 1 1 1 (txt "rpy")))
  | InitOffsets x y z o p k =>
    mkOpencv (cv_intr c) (fx_step (fx_step (cv_fixture c) (SetRelativeXyz x y z 1 1 1)) (SetBoresightRpy o p k 1 1 1 (txt "rpy")))
  end.
Definition cv_run (ops : list cv_op) : opencv := fold_left cv_step ops new_opencv.

(* resippy/image_objects/earth_overhead/earth_overhead_point_calculators/opencv_point_calc.py:139-164 from the camera coordinates *)
Definition cv_project (i : cv_intrinsic) (cam : vec3) : flt * flt :=
  match fdiv (vx cam) (vz cam), fdiv (vy cam) (vz cam) with
  | Fin xp, Fin yp =>
    let r2 := xp * xp + yp * yp in
    let r4 := r2 * r2 in
    let r6 := r2 * r2 * r2 in
    let radial := 1 + cv_k1 i * r2 + cv_k2 i * r4 + cv_k3 i * r6 in
    let xpp := xp * radial + 2 * cv_p1 i * xp * yp + cv_p2 i * (r2 + 2 * xp * xp) in
    let ypp := yp * radial + cv_p1 i * (r2 + 2 * yp * yp) + 2 * cv_p2 i * xp * yp in
    (Fin (- cv_fx i * xpp + cv_cx i), Fin (cv_fy i * ypp + cv_cy i))
  | _, _ => (NonFinite, NonFinite)
  end.
Definition cv_lon_lat_alt_to_pixel (c : opencv) (p : vec3) : result (flt * flt) :=
  M <- get_camera_absolute_M_matrix (cv_fixture c) ;;
  pos <- get_camera_absolute_xyz (cv_fixture c) ;;
  Ok (cv_project (cv_intr c) (mv3 M (V3 (vx p - vx pos) (vy p - vy pos) (vz p - vz pos)))).

(* ------------------------- pix4d_point_calc.py ------------------------- *)

(** One image's entry of the parameter dictionary (the keys that are read) *)
Record p4_params := mkP4Params {
  pp_rotation : mat3; pp_external : list R; pp_nx : R; pp_ny : R; pp_fpa_width_mm : R; pp_F : R; pp_Px : R; pp_Py : R;
  pp_tangential : list R; pp_radial : list R }.

Record pix4d := mkPix4d {
  p4_r : mat3; p4_t : vec3; p4_f : R; p4_px : R; p4_py : R; p4_nx : R; p4_ny : R;
  p4_t1 : R; p4_t2 : R; p4_k1 : R; p4_k2 : R; p4_k3 : R;
  p4_model : option text; p4_reverse_x : bool; p4_reverse_y : bool }.

(** numpy division of a finite value into a pair *)
Definition zdiv (a b : R) : result R := if Reqb b 0 then Err ZeroDivisionError else Ok (a / b).

(* resippy/image_objects/earth_overhead/earth_overhead_point_calculators/pix4d_point_calc.py:62-112; the projection and the approximate centre are not modelled here *)
Definition p4_init (image_key : text) (all_params : dict p4_params) (model : option text) : result pix4d :=
  p <- dict_get all_params (basename image_key) ;;
  ppm <- zdiv (pp_nx p) (pp_fpa_width_mm p) ;;
  t1 <- py_get (pp_tangential p) 0 ;; t2 <- py_get (pp_tangential p) 1 ;;
  k1 <- py_get (pp_radial p) 0 ;; k2 <- py_get (pp_radial p) 1 ;;
  k3 <- py_get (pp_radial p) 1 ;;                                  (* 103 *)
  x <- py_get (pp_external p) 0 ;; y <- py_get (pp_external p) 1 ;; z <- py_get (pp_external p) 2 ;;
  Ok (mkPix4d (pp_rotation p) (V3 x y z) (pp_F p * ppm) (pp_Px p * ppm) (pp_Py p * ppm) (pp_nx p) (pp_ny p)
              t1 t2 k1 k2 k3 model true true).

(* resippy/image_objects/earth_overhead/earth_overhead_point_calculators/pix4d_point_calc.py:226-244 *)
Definition p4_world_to_camera (c : pix4d) (p : vec3) : vec3 :=
  mv3 (p4_r c) (V3 (vx p - vx (p4_t c)) (vy p - vy (p4_t c)) (vz p - vz (p4_t c))).

(* resippy/image_objects/earth_overhead/earth_overhead_point_calculators/pix4d_point_calc.py:48-60, 256-261 = 288-294 *)
Definition p4_pp_x (c : pix4d) : R := if p4_reverse_x c then p4_nx c - p4_px c else p4_px c.
Definition p4_pp_y (c : pix4d) : R := if p4_reverse_y c then p4_ny c - p4_py c else p4_py c.

(* resippy/image_objects/earth_overhead/earth_overhead_point_calculators/pix4d_point_calc.py:246-275 *)
Definition p4_with_distortion (c : pix4d) (cam : vec3) : flt * flt :=
  match fdiv (vx cam) (vz cam), fdiv (vy cam) (vz cam) with
  | Fin xh, Fin yh =>
    let r2 := xh ^ 2 + yh ^ 2 in
    let r := sqrt r2 in
    let radial := 1 + p4_k1 c * r2 + p4_k2 c * r ^ 4 + p4_k3 c * r ^ 6 in
    let xhd := radial * xh + 2 * p4_t1 c * xh * yh + p4_t2 c * (r ^ 2 + 2 * xh ^ 2) in
    let yhd := radial * yh + 2 * p4_t2 c * xh * yh + p4_t1 c * (r ^ 2 + 2 * yh ^ 2) in
    (Fin (- p4_f c * xhd + p4_pp_x c), Fin (- p4_f c * yhd + p4_pp_y c))
  | _, _ => (NonFinite, NonFinite)
  end.
(* resippy/image_objects/earth_overhead/earth_overhead_point_calculators/pix4d_point_calc.py:277-298 *)
Definition p4_no_distortion (c : pix4d) (cam : vec3) : flt * flt :=
  (fmap (fun v => v + p4_pp_x c) (fdiv (- p4_f c * vx cam) (vz cam)),
   fmap (fun v => v + p4_pp_y c) (fdiv (- p4_f c * vy cam) (vz cam))).

(* resippy/image_objects/earth_overhead/earth_overhead_point_calculators/pix4d_point_calc.py:114-174; None when no distortion model applies and nothing is
   reversed, TypeError when something is *)
Definition p4_lon_lat_alt_to_pixel (c : pix4d) (p : vec3) : result (option (flt * flt)) :=
  let cam := p4_world_to_camera c p in
  let coords := match p4_model c with
                | None => Some (p4_no_distortion c cam)
                | Some m => if text_eqb m (txt "regular") then Some (p4_with_distortion c cam) else None
                end in
  match coords with
  | Some (x, y) =>
    let y := if p4_reverse_y c then fmap (fun v => p4_ny c - v) y else y in
    let x := if p4_reverse_x c then fmap (fun v => p4_nx c - v) x else x in
    Ok (Some (x, y))
  | None => if (p4_reverse_y c || p4_reverse_x c)%bool then Err TypeError else Ok None
  end.

(* resippy/utils/pix4d_utils.py:91-119; np.deg2rad *)
Definition deg2rad (d : R) : R := d * PI / 180.
Definition create_r_matrix (external : list R) : result mat3 :=
  o <- py_get external 3 ;; p <- py_get external 4 ;; k <- py_get external 5 ;;
  let o := deg2rad o in let p := deg2rad p in let k := deg2rad k in
  Ok (M3 (cos k * cos p) (- sin k * cos p) (sin p)
         (cos k * sin o * sin p + sin k * cos o) (cos k * cos o - sin k * sin o * sin p) (- sin o * cos p)
         (sin k * sin o - cos k * cos o * sin p) (sin k * cos o * sin p + cos k * sin o) (cos o * cos p)).

(* -------------------------- rpc_point_calc.py -------------------------- *)

(* resippy/image_objects/earth_overhead/earth_overhead_point_calculators/rpc_point_calc.py:135-186 *)
Definition compute_p (coeffs : list R) (x y z : R) : result R :=
  a1 <- py_get coeffs 0 ;; a2 <- py_get coeffs 1 ;; a3 <- py_get coeffs 2 ;; a4 <- py_get coeffs 3 ;;
  a5 <- py_get coeffs 4 ;; a6 <- py_get coeffs 5 ;; a7 <- py_get coeffs 6 ;; a8 <- py_get coeffs 7 ;;
  a9 <- py_get coeffs 8 ;; a10 <- py_get coeffs 9 ;; a11 <- py_get coeffs 10 ;; a12 <- py_get coeffs 11 ;;
  a13 <- py_get coeffs 12 ;; a14 <- py_get coeffs 13 ;; a15 <- py_get coeffs 14 ;; a16 <- py_get coeffs 15 ;;
  a17 <- py_get coeffs 16 ;; a18 <- py_get coeffs 17 ;; a19 <- py_get coeffs 18 ;; a20 <- py_get coeffs 19 ;;
  let x_squared := x * x in let y_squared := y * y in let z_squared := z * z in
  let x_cubed := x_squared * x in let y_cubed := y_squared * y in let z_cubed := z_squared * z in
  let xy := x * y in let xz := x * z in let yz := y * z in
  Ok (a1 + a2*y + a3*x + a4*z + a5*xy + a6*yz + a7*xz + a8 * y_squared +
      a9*x_squared + a10*z_squared + a11*x*y*z + a12*y_cubed + a13*y*x_squared + a14*y*z_squared +
      a15*y_squared*x + a16*x_cubed + a17*x*z_squared + a18*y_squared*z + a19*x_squared*y + a20*z_cubed).

Record rpc := mkRpc {
  samp_num : list R; samp_den : list R; samp_scale : R; samp_off : R;
  line_num : list R; line_den : list R; line_scale : R; line_off : R;
  lat_scale : R; lat_off : R; lon_scale : R; lon_off : R; height_scale : R; height_off : R }.

(* resippy/image_objects/earth_overhead/earth_overhead_point_calculators/rpc_point_calc.py:188-218 *)
Definition rpc_lon_lat_alt_to_pixel (c : rpc) (lon lat alt : R) : result (flt * flt) :=
  match fdiv (lat - lat_off c) (lat_scale c), fdiv (lon - lon_off c) (lon_scale c), fdiv (alt - height_off c) (height_scale c) with
  | Fin X, Fin Y, Fin Z =>
    p1 <- compute_p (samp_num c) X Y Z ;;
    p2 <- compute_p (samp_den c) X Y Z ;;
    p3 <- compute_p (line_num c) X Y Z ;;
    p4 <- compute_p (line_den c) X Y Z ;;
    Ok (fmap (fun n => n * samp_scale c + samp_off c + 1/2) (fdiv p1 p2),
        fmap (fun n => n * line_scale c + line_off c + 1/2) (fdiv p3 p4))
  | _, _, _ => Ok (NonFinite, NonFinite)   (* numpy: NaN or infinity (coefficient lists of length 20) *)
  end.

(* ------------------------ geotiff_point_calc.py ------------------------ *)

(** gdal's geotransform: six numbers *)
Record geot := mkGeot { g0 : R; g1 : R; g2 : R; g3 : R; g4 : R; g5 : R }.
(* resippy/image_objects/earth_overhead/earth_overhead_point_calculators/geotiff_point_calc.py:46-55: set_geot stores the geotransform and what
   gdal.InvGeoTransform returns (None for a singular one) *)
Record geotiff_calc := mkGeotiffCalc { gc_geot : geot; gc_inv : option geot; gc_npix_x : R; gc_npix_y : R }.
Definition set_geot (gdal_inv : geot -> option geot) (g : geot) (nx ny : R) : geotiff_calc :=
  mkGeotiffCalc g (gdal_inv g) nx ny.

(* resippy/image_objects/earth_overhead/earth_overhead_point_calculators/geotiff_point_calc.py:91-109; subscripting None raises TypeError *)
Definition gt_lon_lat_to_pixel (c : geotiff_calc) (lon lat : R) : result (R * R) :=
  match gc_inv c with
  | None => Err TypeError
  | Some h => Ok (g0 h + g1 h * lon + g2 h * lat, g3 h + g4 h * lon + g5 h * lat)
  end.
(* resippy/image_objects/earth_overhead/earth_overhead_point_calculators/geotiff_point_calc.py:111-129 *)
Definition gt_pixel_to_lon_lat (c : geotiff_calc) (x y : R) : R * R :=
  let g := gc_geot c in (g0 g + x * g1 g + y * g2 g, g3 g + x * g4 g + y * g5 g).

(* resippy/image_objects/earth_overhead/earth_overhead_point_calculators/geotiff_point_calc.py:136-140; the four arguments of shapely.box (minx, miny, maxx, maxy) *)
Definition gt_world_extent (c : geotiff_calc) : R * R * R * R :=
  let '(lon_ul, lat_ul) := gt_pixel_to_lon_lat c 0 0 in
  let '(lon_br, lat_br) := gt_pixel_to_lon_lat c (gc_npix_x c) (gc_npix_y c) in
  (lon_ul, lat_br, lon_br, lat_ul).
