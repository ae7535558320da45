(** Model of resippy/utils/photogrammetry_utils.py (rotations, ground grids) and of
    the camera classes pinhole_camera.py, fixtured_camera.py and
    ideal_pinhole_fpa_local_utm_point_calc.py in
    resippy/image_objects/earth_overhead/earth_overhead_point_calculators/.
    Exact real arithmetic.  A pint unit is its conversion factor to metres or radians. *)
From Verif Require Export RAux Text Geo3.
Open Scope R_scope.
Open Scope list_scope.

(* ---------------------- photogrammetry_utils.py ----------------------- *)

(* resippy/utils/photogrammetry_utils.py:37-46; the envelope is given by its bounds *)
Definition world_poly_to_geo_t (minx miny maxx maxy : R) (npix_x npix_y : Z) : list R :=
  let gsd_x := (maxx - minx) / (IZR npix_x + 1) in
  let gsd_y := (maxy - miny) / (IZR npix_y + 1) in
  [minx; gsd_x; 0; maxy; 0; -1 * gsd_y].

(** A 2-d float array by its rows *)
Definition get2 (a : list (list R)) (i j : Z) : result R := row <- py_get a i ;; py_get row j.
Definition map2d (f : R -> R) (a : list (list R)) : list (list R) := map (map f) a.

(* resippy/utils/photogrammetry_utils.py:49-64 *)
Definition create_ground_grid (min_x max_x min_y max_y : R) (npix_x npix_y : Z)
  : result (list (list R) * list (list R)) :=
  (* 56: numpy.mgrid *)
  let gy0 := map (fun r => map (fun _ => IZR r) (zrange 0 npix_x)) (zrange 0 npix_y) in
  let gx0 := map (fun _ => map (fun c => IZR c) (zrange 0 npix_x)) (zrange 0 npix_y) in
  (* 57, 60 *)
  let gx := map2d (fun c => c / IZR npix_x * (max_x - min_x) + min_x) gx0 in
  (* 58, 59, 61 *)
  let gy := map2d (fun r => ((r - IZR npix_y) * -1) / IZR npix_y * (max_y - min_y) + min_y) gy0 in
  (* 62-64 *)
  x01 <- get2 gx 0 1 ;; x00 <- get2 gx 0 0 ;;
  y00 <- get2 gy 0 0 ;; y10 <- get2 gy 1 0 ;;
  let x_gsd := Rabs (x01 - x00) in
  let y_gsd := Rabs (y00 - y10) in
  Ok (map2d (fun x => x + x_gsd / 2) gx, map2d (fun y => y - y_gsd / 2) gy).

(** int(float): truncation toward zero *)
Definition truncZ (x : R) : Z := if Rltb x 0 then (1 - up (- x))%Z else (up x - 1)%Z.

(* resippy/utils/photogrammetry_utils.py:67-81; the polygon is given by its exterior coordinates.
   Division by a zero gsd raises ZeroDivisionError (Python floats). *)
Definition get_nx_ny_pixels_in_extent (xs ys : list R) (gsd_x gsd_y : R) : result (Z * Z) :=
  match rmax xs, rmin xs, rmax ys, rmin ys with
  | Some x1, Some x0, Some y1, Some y0 =>
    if Reqb gsd_x 0 then Err ZeroDivisionError else
    let nx := truncZ ((x1 - x0) / gsd_x) in
    if Reqb gsd_y 0 then Err ZeroDivisionError else
    let ny := truncZ ((y1 - y0) / gsd_y) in
    Ok (nx, ny)
  | _, _, _, _ => Err ValueError
  end.

(* resippy/utils/photogrammetry_utils.py:131-151: the three elementary matrices *)
Definition m_omega (o : R) : mat3 := M3 1 0 0 0 (cos o) (sin o) 0 (-1 * sin o) (cos o).
Definition m_phi (p : R) : mat3 := M3 (cos p) 0 (-1 * sin p) 0 1 0 (sin p) 0 (cos p).
Definition m_kappa (k : R) : mat3 := M3 (cos k) (sin k) 0 (-1 * sin k) (cos k) 0 0 0 1.

(* resippy/utils/photogrammetry_utils.py:84-164 *)
Definition create_M_matrix (o p k : R) (order : text) : mat3 :=
  if text_eqb order (txt "rpy") then
    M3 (cos p * cos k)
       (cos o * sin k + sin o * sin p * cos k)
       (sin o * sin k - cos o * sin p * cos k)
       (-1 * cos p * sin k)
       (cos o * cos k - sin o * sin p * sin k)
       (sin o * cos k + cos o * sin p * sin k)
       (sin p)
       (-1 * sin o * cos p)
       (cos o * cos p)
  else if text_eqb order (txt "ryp") then mul3 (mul3 (m_phi p) (m_kappa k)) (m_omega o)
  else if text_eqb order (txt "pry") then mul3 (mul3 (m_kappa k) (m_omega o)) (m_phi p)
  else if text_eqb order (txt "pyr") then mul3 (mul3 (m_omega o) (m_kappa k)) (m_phi p)
  else if text_eqb order (txt "yrp") then mul3 (mul3 (m_phi p) (m_omega o)) (m_kappa k)
  else if text_eqb order (txt "ypr") then mul3 (mul3 (m_omega o) (m_phi p)) (m_kappa k)
  else zero3.

(** numpy arcsin / arccos: NaN outside [-1, 1] *)
Definition np_arcsin (x : R) : flt := if (Rleb (-1) x && Rleb x 1)%bool then Fin (asin x) else NonFinite.
Definition np_arccos (x : flt) : flt :=
  match x with
  | Fin r => if (Rleb (-1) r && Rleb r 1)%bool then Fin (acos r) else NonFinite
  | NonFinite => NonFinite
  end.
(** division of a real by a float *)
Definition fdivf (a : R) (b : flt) : flt := match b with Fin r => fdiv a r | NonFinite => NonFinite end.

(* resippy/utils/photogrammetry_utils.py:167-196 : (omega, phi, kappa) *)
Definition solve_for_omega_phi_kappa (m : mat3) : flt * flt * flt :=
  let phi := np_arcsin (e31 m) in
  let cos_phi := fmap cos phi in
  let kappa := np_arccos (fdivf (e11 m) cos_phi) in
  let omega := np_arccos (fdivf (e33 m) cos_phi) in
  let omega := if Rltb 0 (e32 m) then fmap Ropp omega else omega in
  let kappa := if Rltb 0 (e21 m) then fmap Ropp kappa else kappa in
  (omega, phi, kappa).

(* resippy/utils/photogrammetry_utils.py:199-205; inv is numpy.linalg.inv *)
Definition solve_for_boresight_angle_offsets (inv : mat3 -> result mat3) (rough ideal : mat3) : result mat3 :=
  i <- inv rough ;; Ok (mul3 i ideal).

(* --------------------------- pinhole_camera.py ------------------------ *)

Record pinhole := mkPinhole { ph_pos : vec3; ph_f : R; ph_M : mat3 }.

(* resippy/image_objects/earth_overhead/earth_overhead_point_calculators/pinhole_camera.py:38-88; ux..uf are the unit factors *)
Definition init_pinhole_from_coeffs (X Y Z omega phi kappa f : R) (ux uy uz uo up_ uk uf : R) : pinhole :=
  mkPinhole (V3 (X * ux) (Y * uy) (Z * uz)) (f * uf)
            (create_M_matrix (omega * uo) (phi * up_) (kappa * uk) (txt "rpy")).

(* resippy/image_objects/earth_overhead/earth_overhead_point_calculators/pinhole_camera.py:90-113, one point *)
Definition world_to_image_plane (c : pinhole) (p : vec3) : flt * flt :=
  let M := ph_M c in
  let dx := vx p - vx (ph_pos c) in let dy := vy p - vy (ph_pos c) in let dz := vz p - vz (ph_pos c) in
  let den := e31 M * dx + e32 M * dy + e33 M * dz in
  let x := fmap (fun q => -1 * ph_f c * q) (fdiv (e11 M * dx + e12 M * dy + e13 M * dz) den) in
  let y := fmap (fun q => -1 * ph_f c * q) (fdiv (e21 M * dx + e22 M * dy + e23 M * dz) den) in
  (x, y).

(* -------- ideal_pinhole_fpa_local_utm_point_calc.py -------------------- *)

Record ideal_pinhole := mkIdeal {
  ip_camera : pinhole; ip_pitch_x : R; ip_pitch_y : R; ip_npix_x : R; ip_npix_y : R; ip_flip_x : bool; ip_flip_y : bool }.

(* resippy/image_objects/earth_overhead/earth_overhead_point_calculators/ideal_pinhole_fpa_local_utm_point_calc.py:30-45, one point *)
Definition ideal_lon_lat_alt_to_pixel (c : ideal_pinhole) (p : vec3) : flt * flt :=
  let half_x := (ip_npix_x c * ip_pitch_x c) / 2 in
  let half_y := (ip_npix_y c * ip_pitch_y c) / 2 in
  let '(x, y) := world_to_image_plane (ip_camera c) p in
  let x := if ip_flip_x c then fmap (fun v => -1 * v) x else x in
  let y := if ip_flip_y c then fmap (fun v => -1 * v) y else y in
  let px := match x with Fin v => fdiv (v + half_x) (ip_pitch_x c) | NonFinite => NonFinite end in
  let py := match y with Fin v => fdiv (v + half_y) (ip_pitch_y c) | NonFinite => NonFinite end in
  (px, py).

(* resippy/image_objects/earth_overhead/earth_overhead_point_calculators/ideal_pinhole_fpa_local_utm_point_calc.py:202-208 compute_ifov_x / compute_ifov_y
   in radians *)
Definition compute_ifov (pitch f : R) : flt := fmap atan (fdiv pitch f).

(* --------------------------- fixtured_camera.py ----------------------- *)

(* resippy/image_objects/earth_overhead/earth_overhead_point_calculators/fixtured_camera.py:11-23 : the attributes, None at first *)
Record fixtured := mkFixtured { fx_xyz : option vec3; fx_M : option mat3; fx_rel : option vec3; fx_boresight : option mat3 }.
Definition new_fixtured : fixtured := mkFixtured None None None None.

(** The public setters of FixturedCamera; u.. are unit factors *)
Inductive fx_op :=
| SetFixtureXyz (x y z : R)
| SetFixtureOrientation (M : mat3)
| SetFixtureRpy (roll pitch yaw ur up_ uy : R) (order : text)
| SetRelativeXyz (x y z ux uy uz : R)
| SetBoresight (B : mat3)
| SetBoresightRpy (roll pitch yaw ur up_ uy : R) (order : text).

(* resippy/image_objects/earth_overhead/earth_overhead_point_calculators/fixtured_camera.py:25-98 *)
Definition fx_step (c : fixtured) (o : fx_op) : fixtured :=
  match o with
  | SetFixtureXyz x y z => mkFixtured (Some (V3 x y z)) (fx_M c) (fx_rel c) (fx_boresight c)                 (* 25-32 *)
  | SetFixtureOrientation M => mkFixtured (fx_xyz c) (Some M) (fx_rel c) (fx_boresight c)                    (* 34-37 *)
  | SetFixtureRpy r p y ur up_ uy order =>                                                                   (* 39-57 *)
    mkFixtured (fx_xyz c) (Some (create_M_matrix (r * ur) (p * up_) (y * uy) order)) (fx_rel c) (fx_boresight c)
  | SetRelativeXyz x y z ux uy uz =>                                                                         (* 59-78 *)
    mkFixtured (fx_xyz c) (fx_M c) (Some (V3 (x * ux) (y * uy) (z * uz))) (fx_boresight c)
  | SetBoresight B => mkFixtured (fx_xyz c) (fx_M c) (fx_rel c) (Some B)                                     (* 80-83 *)
  | SetBoresightRpy r p y ur up_ uy order =>                                                                 (* 85-98 *)
    mkFixtured (fx_xyz c) (fx_M c) (fx_rel c) (Some (create_M_matrix (r * ur) (p * up_) (y * uy) order))
  end.
Definition fx_run (ops : list fx_op) : fixtured := fold_left fx_step ops new_fixtured.

(* resippy/image_objects/earth_overhead/earth_overhead_point_calculators/fixtured_camera.py:103-108.  An attribute that is still None makes the product or
   the sum raise (the exception class depends on which one). *)
Definition get_camera_absolute_xyz (c : fixtured) : result vec3 :=
  match fx_rel c, fx_M c, fx_xyz c with
  | Some rel, Some M, Some xyz =>
    let r := vm3 rel M in
    Ok (V3 (vx xyz + vx r) (vy xyz + vy r) (vz xyz + vz r))
  | _, _, _ => Err OtherError
  end.

(* resippy/image_objects/earth_overhead/earth_overhead_point_calculators/fixtured_camera.py:110-115 *)
Definition get_camera_absolute_M_matrix (c : fixtured) : result mat3 :=
  match fx_boresight c, fx_M c with
  | Some B, Some M => Ok (mul3 B M)
  | _, _ => Err OtherError
  end.
