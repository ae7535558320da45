(** Model of the camera simulator resippy/utils/physical_camera_simulator.py, of the two constructors of ideal_pinhole_fpa_local_utm_point_calc.py,
    of resippy/utils/proj_utils.py:28-37, of shift_points_by_meters in
    resippy/utils/photogrammetry_utils.py and of create_igm_image in
    resippy/photogrammetry/ortho_tools.py with igm_image.py and igm_metadata.py.
    Exact real arithmetic; a pint unit is its factor; pyproj, the utm package, scipy's
    map_coordinates and the file reader are arguments. *)
From Verif Require Export RAux Text M_Envi M_Nav M_Photo M_PointCalc M_Cameras M_Dem M_Image.
Open Scope R_scope.
Open Scope list_scope.

(* ---------------------- the calculator's constructors ------------------ *)

(** What a constructor returns: the camera, its projection and the approximate centre *)
Record placed_camera := mkPlaced { pc_ideal : ideal_pinhole; pc_proj : projection; pc_center : R * R }.

(* resippy/image_objects/earth_overhead/earth_overhead_point_calculators/ideal_pinhole_fpa_local_utm_point_calc.py:141-200 init_from_local_params; ua.. are the unit factors of the altitude, of
   omega, phi, kappa, of the two pixel pitches and of the focal length *)
Definition init_from_local_params (lon lat alt : R) (native : projection) (omega phi kappa : R) (npix_x npix_y : R)
    (pitch_x pitch_y focal : R) (ua uo up_ uk upx upy uf : R) (flip_x flip_y : bool) : placed_camera :=
  mkPlaced (mkIdeal (init_pinhole_from_coeffs lon lat alt omega phi kappa focal 1 1 ua uo up_ uk uf)
                    (pitch_x * upx) (pitch_y * upy) npix_x npix_y flip_x flip_y)
           native (lon, lat).

(** utm.from_latlon(latitude, longitude): easting, northing, zone number and zone letter *)
Definition from_latlon_fn := R -> R -> result (R * R * Z * ascii).
(** what Proj is given for a UTM projection: the zone text and the south flag *)
Record utm_proj := mkUtm { uz_zone : text; uz_south : bool }.

(** Python's string order on two characters *)
Definition char_ltb (a b : ascii) : bool := (N.ltb (N_of_ascii a) (N_of_ascii b)).

(* resippy/utils/proj_utils.py:28-37 *)
Definition decimal_degrees_to_local_utm_proj (from_latlon : from_latlon_fn) (lon lat : R) : result utm_proj :=
  z <- from_latlon lat lon ;;
  let '(_, _, number, letter) := z in
  let zone_string := str_of_Z number ++ [letter] in
  zone_letter <- py_get zone_string (-1) ;;
  Ok (mkUtm zone_string (char_ltb zone_letter "N"%char)).

(* resippy/image_objects/earth_overhead/earth_overhead_point_calculators/ideal_pinhole_fpa_local_utm_point_calc.py:47-139 init_from_wgs84_params; transform carries longitude, latitude of EPSG
   4326 to the given UTM projection, as_proj is the Proj object *)
Definition init_from_wgs84_params (from_latlon : from_latlon_fn) (transform : utm_proj -> R * R -> R * R)
    (as_proj : utm_proj -> projection) (lon lat alt omega phi kappa : R) (npix_x npix_y : R)
    (pitch_x pitch_y focal : R) (ua uo up_ uk upx upy uf : R) (flip_x flip_y : bool) : result placed_camera :=
  native <- decimal_degrees_to_local_utm_proj from_latlon lon lat ;;
  let '(x, y) := transform native (lon, lat) in
  Ok (mkPlaced (mkIdeal (init_pinhole_from_coeffs x y alt omega phi kappa focal 1 1 ua uo up_ uk uf)
                        (pitch_x * upx) (pitch_y * upy) npix_x npix_y flip_x flip_y)
               (as_proj native) (x, y)).

(* resippy/utils/photogrammetry_utils.py:24-34, one point; to_merc and from_merc are pyproj's transforms
   between the source projection and EPSG 3857 *)
Definition shift_points_by_meters (to_merc from_merc : R * R -> R * R) (east north : R) (p : R * R) : R * R :=
  let '(x, y) := to_merc p in from_merc (x + east, y + north).

(* ------------------------------ simulator ------------------------------ *)

(** numpy.isclose(x, 0) with the default tolerances *)
Definition isclose0 (x : R) : bool := Rleb (Rabs x) (1 / 100000000).
(* resippy/utils/physical_camera_simulator.py:60-65, one angle *)
Definition nudge (x : R) : R := if isclose0 x then x + 1 / 100000000 else x.

Section Simulator.
Variable V : Type.

(** The constructor's arguments; su_.. are unit factors (focal length, pixel pitch,
    boresight angles, altitude, external angles).  The geotiff file has been opened: its
    point calculator and projection *)
Record sim_args := mkSimArgs {
  sa_gtiff : geotiff_calc; sa_gtiff_proj : projection;
  sa_focal : R; sa_npix_x : nat; sa_npix_y : nat;
  sa_roll : R; sa_pitch : R; sa_yaw : R;
  sa_pitch_x : R; sa_pitch_y : R;
  su_pitch : R; su_focal : R; su_boresight : R; sa_order : text; su_alt : R; su_rpy : R;
  sa_world : option projection }.

(** The simulator: its arguments with the adjusted boresight angles, the world projection
    and the band read so far *)
Record simulator := mkSim { sm_args : sim_args; sm_bore : R * R * R; sm_world : projection; sm_data : option (band V) }.

(* resippy/utils/physical_camera_simulator.py:17-65 *)
Definition sim_init (a : sim_args) : simulator :=
  mkSim a (nudge (sa_roll a), nudge (sa_pitch a), nudge (sa_yaw a))
        (match sa_world a with None => sa_gtiff_proj a | Some w => w end) None.

(* resippy/utils/physical_camera_simulator.py:71-73 *)
Definition set_world (s : simulator) (w : projection) : simulator := mkSim (sm_args s) (sm_bore s) w (sm_data s).

(** A camera whose orientation could not be solved (NaN) gives NaN for every pixel *)
Inductive sim_camera := GoodCamera (c : placed_camera) | NanCamera (center : R * R) (p : projection).

(* resippy/utils/physical_camera_simulator.py:75-119.  The fixture's angles are read in the boresight's units, order rpy *)
Definition generate_camera (s : simulator) (lon lat alt roll pitch yaw : R) : result sim_camera :=
  let a := sm_args s in
  let u := su_boresight a in
  let '(br, bp, by_) := sm_bore s in
  let fixture := fx_run [SetBoresightRpy br bp by_ u u u (sa_order a); SetFixtureRpy roll pitch yaw u u u (txt "rpy")] in
  M <- get_camera_absolute_M_matrix fixture ;;
  match solve_for_omega_phi_kappa M with
  | (Fin omega, Fin phi, Fin kappa) =>
    Ok (GoodCamera (init_from_local_params lon lat alt (sm_world s) omega phi kappa
          (INR (sa_npix_x a)) (INR (sa_npix_y a)) (sa_pitch_x a) (sa_pitch_y a) (sa_focal a)
          (su_alt a) 1 1 1 (su_pitch a) (su_pitch a) (su_focal a) false true))
  | _ => Ok (NanCamera (lon, lat) (sm_world s))
  end.

(** The pixel of one point: NaN in gives NaN out *)
Definition camera_pixel (c : sim_camera) : pixel_fn := fun lon lat alt =>
  match c, lon, lat, alt with
  | GoodCamera p, Fin x, Fin y, Fin z => ideal_lon_lat_alt_to_pixel (pc_ideal p) (V3 x y z)
  | _, _, _, _ => (NonFinite, NonFinite)
  end.
Definition camera_center (c : sim_camera) : R * R :=
  match c with GoodCamera p => pc_center p | NanCamera p _ => p end.
Definition camera_proj (c : sim_camera) : projection :=
  match c with GoodCamera p => pc_proj p | NanCamera _ w => w end.

(* resippy/utils/image_utils/image_utils.py:71-78 with scale 1 and zero altitude: the flattened requests *)
Definition grid_requests (nx ny : nat) : list request :=
  let '(gx, gy) := create_pixel_grid nx ny 1 in
  map2 (fun x y => mkRequest (Q2R x) (Q2R y) (Q2R x * 0)) (flatten_image_band gx) (flatten_image_band gy).

(* abstract calculator, resippy/image_objects/earth_overhead/earth_overhead_point_calculators/abstract_earth_overhead_point_calc.py:140-180, without a native inverse: threshold 0.01 and 1000 rounds *)
Definition camera_ground (c : sim_camera) (qs : list request) : result (list (flt * flt)) :=
  solver (camera_pixel c) (Some (camera_center c)) None (1 / 100) 1000 qs.

(** The geotiff pixel of one point; NaN in gives NaN out *)
Definition gtiff_pixel (c : geotiff_calc) (p : flt * flt) : result (flt * flt) :=
  match p with
  | (Fin lon, Fin lat) => q <- gt_lon_lat_to_pixel c lon lat ;; Ok (Fin (fst q), Fin (snd q))
  | _ => match gc_inv c with None => Err TypeError | Some _ => Ok (NonFinite, NonFinite) end
  end.

(** scipy.ndimage.map_coordinates of a band at one (row, column) coordinate *)
Definition sampler := band V -> flt -> flt -> V.

(** The image object made: pixels, the metadata's sizes and the point calculator *)
Record sim_image := mkSimImage { si_band : band V; si_npix_x : nat; si_npix_y : nat; si_n_bands : nat; si_camera : sim_camera }.

(* resippy/utils/physical_camera_simulator.py:121-152.  read is what read_band_from_disk(0) would give now; the new
   simulator state and the image or the exception *)
Definition create_overhead_image_object (sample : sampler) (read : result (band V)) (s : simulator)
    (lon lat alt roll pitch yaw : R) : simulator * result sim_image :=
  let a := sm_args s in
  match (c <- generate_camera s lon lat alt roll pitch yaw ;;
         ground <- camera_ground c (grid_requests (sa_npix_x a) (sa_npix_y a)) ;;
         pixels <- mapM (gtiff_pixel (sa_gtiff a)) ground ;;
         Ok (c, pixels)) with
  | Err e => (s, Err e)
  | Diverges => (s, Diverges)
  | Ok (c, pixels) =>
    match match sm_data s with Some d => Ok d | None => read end with
    | Err e => (s, Err e)
    | Diverges => (s, Diverges)
    | Ok d =>
      (mkSim a (sm_bore s) (sm_world s) (Some d),
       b <- unflatten_image_band (map (fun p => sample d (snd p) (fst p)) pixels) (sa_npix_x a) (sa_npix_y a) ;;
       Ok (mkSimImage b (sa_npix_x a) (sa_npix_y a) 1 c))
    end
  end.

(** A use of the simulator: the world projection is replaced, or an image is made while the
    file holds the given band *)
Inductive sim_op := SetWorld (w : projection) | Simulate (read : result (band V)) (lon lat alt roll pitch yaw : R).
Definition sim_step (sample : sampler) (s : simulator) (o : sim_op) : simulator * option (result sim_image) :=
  match o with
  | SetWorld w => (set_world s w, None)
  | Simulate read lon lat alt roll pitch yaw =>
    let '(s', r) := create_overhead_image_object sample read s lon lat alt roll pitch yaw in (s', Some r)
  end.
Fixpoint sim_run (sample : sampler) (s : simulator) (ops : list sim_op) : simulator * list (option (result sim_image)) :=
  match ops with
  | [] => (s, [])
  | o :: rest => let '(s1, r) := sim_step sample s o in let '(s2, rs) := sim_run sample s1 rest in (s2, r :: rs)
  end.
End Simulator.
Arguments sim_init {V}. Arguments generate_camera {V}. Arguments sm_args {V}. Arguments sm_bore {V}.
Arguments sm_world {V}. Arguments sm_data {V}. Arguments mkSim {V}. Arguments set_world {V}.
Arguments create_overhead_image_object {V}. Arguments SetWorld {V}. Arguments Simulate {V}.
Arguments sim_step {V}. Arguments sim_run {V}. Arguments mkSimImage {V}.
Arguments si_band {V}. Arguments si_npix_x {V}. Arguments si_npix_y {V}. Arguments si_n_bands {V}. Arguments si_camera {V}.

(* ------------------------------- IGM image ----------------------------- *)

(** An array of image data: its shape and its values; create_igm_image looks at the third size only *)
Record image_array (V : Type) := mkImageArray { ia_shape : list nat; ia_values : list V }.
Arguments mkImageArray {V}. Arguments ia_shape {V}. Arguments ia_values {V}.

(** The image object made: the data, the calculator, the metadata's sizes, the projection *)
Record igm_image (V : Type) := mkIgmImage { ii_data : image_array V; ii_calc : igm; ii_npix_x : nat; ii_npix_y : nat; ii_n_bands : nat;
                                           ii_proj : projection }.
Arguments mkIgmImage {V}. Arguments ii_data {V}. Arguments ii_calc {V}. Arguments ii_npix_x {V}. Arguments ii_npix_y {V}.
Arguments ii_n_bands {V}. Arguments ii_proj {V}.

Definition fin_value (x : flt) : result R := match x with Fin r => Ok r | NonFinite => Err OtherError end.
Definition fin_rows (rows : list (list flt)) : result (list (list R)) := mapM (mapM fin_value) rows.

(* resippy/image_objects/earth_overhead/igm/igm_image.py:11-27, resippy/image_objects/earth_overhead/igm/igm_metadata.py:7-18; n_y, n_x = lons.shape.  A NaN coordinate is not
   modelled (OtherError). *)
Definition igm_from_params {V} (data : option (image_array V)) (lons lats alts : list (list R)) (nb : nat) (proj : projection)
    : result (option (image_array V) * igm * nat * nat * nat * projection) :=
  g <- igm_init lons lats (AltArray alts) ;;
  let ny := length lons in
  let nx := match lons with [] => 0%nat | r :: _ => length r end in
  Ok (data, g, nx, ny, nb, proj).

(** A DEM as the ray caster uses it: elevations, highest and lowest altitude *)
Record dem_obj := mkDemObj { de_elev : R -> R -> flt; de_high : R; de_low : R }.
(* resippy/photogrammetry/dem/dem_factory.py:30-34 constant_elevation, constant_elevation_dem.py *)
Definition constant_dem (h : R) : dem_obj := mkDemObj (fun _ _ => Fin h) h h.

(* resippy/photogrammetry/ortho_tools.py:92-110.  ground is the image's pixel_x_y_alt_to_lon_lat; image data that is
   not loaded is None, whose shape is an AttributeError *)
Definition create_igm_image {V} (npix_x npix_y : nat) (data : option (image_array V)) (ground : pixel -> R -> R * R) (proj : projection)
    (dem : option dem_obj) (distance : option R) : result (igm_image V) :=
  let dem := match dem with None => constant_dem 0 | Some d => d end in
  let '(gx, gy) := create_pixel_grid npix_x npix_y 1 in
  let pixels := map2 (map2 (fun x y => (Q2R x, Q2R y))) (b_rows gx) (b_rows gy) in
  let distance := match distance with None => 5 | Some d => d end in
  r <- ray_caster_nd ground (de_elev dem) (de_high dem) (de_low dem) distance (Mat npix_x pixels) ;;
  match r with
  | Mat _ rows =>
    lons <- fin_rows (map (map (fun p => fst (fst p))) rows) ;;
    lats <- fin_rows (map (map (fun p => snd (fst p))) rows) ;;
    alts <- fin_rows (map (map snd) rows) ;;
    nb <- match data with None => Err AttributeError | Some d => py_get (ia_shape d) 2 end ;;
    i <- igm_from_params data lons lats alts nb proj ;;
    let '(d, g, nx, ny, n, p) := i in
    match d with None => Err OtherError | Some d => Ok (mkIgmImage d g nx ny n p) end
  | _ => Err OtherError
  end.
