(** Model of the loaders that build objects from files:
    earth_overhead_point_calculators/rpc_point_calc.py (init_from_file), digital_globe/view_ready_stereo/,
    resippy/image_objects/envi/, resippy/utils/pix4d_utils.py (read_p_matrices and the search for
    the parameter files), resippy/photogrammetry/nav/ (load_from_file, nav_factory.py).
    GDAL and PDAL are described by what they return for a file, float(str) by a parser. *)
From Verif Require Export M_Objects M_Nav.
Open Scope R_scope.
Open Scope list_scope.

(* ------------------------------- RPC files ----------------------------- *)

Section Rpc.
Context (to_float : text -> option R).

(* resippy/image_objects/earth_overhead/earth_overhead_point_calculators/rpc_point_calc.py:236-245 _str_to_numpy_arr *)
Definition str_to_numpy_arr (entry : text) : result (list R) := mapM (float_ to_float) (split_ws entry).

Definition rpc_list (tags : dict text) (name : text) : result (list R) := t <- dict_get tags name ;; str_to_numpy_arr t.
Definition rpc_number (tags : dict text) (name : text) : result R := t <- dict_get tags name ;; float_ to_float t.

(** The calculator: the coefficients and the approximate centre (longitude, latitude) *)
Record rpc_calc := mkRpcCalc { rc_rpc : rpc; rc_center : R * R }.

(* resippy/image_objects/earth_overhead/earth_overhead_point_calculators/rpc_point_calc.py:80-132 init_from_coeffs *)
Definition rpc_init_from_coeffs (samp_num_coeff samp_den_coeff : list R) (samp_scale samp_off : R)
    (line_num_coeff line_den_coeff : list R) (line_scale line_off : R)
    (lat_scale lat_off lon_scale lon_off height_scale height_off : R) : rpc_calc :=
  mkRpcCalc (mkRpc samp_num_coeff samp_den_coeff samp_scale samp_off line_num_coeff line_den_coeff line_scale line_off
               lat_scale lat_off lon_scale lon_off height_scale height_off) (lon_off, lat_off).

(* resippy/image_objects/earth_overhead/earth_overhead_point_calculators/rpc_point_calc.py:55-78: the tags of the RPC metadata domain *)
Definition rpc_from_tags (tags : dict text) : result rpc_calc :=
  samp_num_coeff <- rpc_list tags (txt "SAMP_NUM_COEFF") ;;
  samp_den_coeff <- rpc_list tags (txt "SAMP_DEN_COEFF") ;;
  samp_scale <- rpc_number tags (txt "SAMP_SCALE") ;;
  samp_off <- rpc_number tags (txt "SAMP_OFF") ;;
  line_num_coeff <- rpc_list tags (txt "LINE_NUM_COEFF") ;;
  line_den_coeff <- rpc_list tags (txt "LINE_DEN_COEFF") ;;
  line_scale <- rpc_number tags (txt "LINE_SCALE") ;;
  line_off <- rpc_number tags (txt "LINE_OFF") ;;
  lat_scale <- rpc_number tags (txt "LAT_SCALE") ;;
  lat_off <- rpc_number tags (txt "LAT_OFF") ;;
  long_scale <- rpc_number tags (txt "LONG_SCALE") ;;
  long_off <- rpc_number tags (txt "LONG_OFF") ;;
  height_scale <- rpc_number tags (txt "HEIGHT_SCALE") ;;
  height_off <- rpc_number tags (txt "HEIGHT_OFF") ;;
  Ok (rpc_init_from_coeffs samp_num_coeff samp_den_coeff samp_scale samp_off
        line_num_coeff line_den_coeff line_scale line_off
        lat_scale lat_off long_scale long_off height_scale height_off).

(* resippy/image_objects/earth_overhead/earth_overhead_point_calculators/rpc_point_calc.py:41-78.  rpcs name is GetMetadata("RPC") of the file (an empty dictionary
   for a raster without coefficients), None for a file that GDAL does not open *)
Definition rpc_init_from_file (rpcs : text -> option (dict text)) (fname : text) : result rpc_calc :=
  match rpcs fname with None => Err AttributeError | Some tags => rpc_from_tags tags end.
End Rpc.

(* -------------------------- view ready stereo -------------------------- *)

Section Vrs.
Context {V D G W : Type}.
Variable from_gdal : G -> D.
Variable to_float : text -> option R.

(** The image object: the open file, the metadata and the point calculator *)
Record vrs_image := mkVrs { vi_src : option text; vi_nx : nat; vi_ny : nat; vi_nb : nat; vi_type : G; vi_nodata : nodata;
  vi_name : text; vi_calc : rpc_calc }.

(* resippy/image_objects/earth_overhead/digital_globe/view_ready_stereo/view_ready_stereo_image.py:22-32 and resippy/image_objects/earth_overhead/digital_globe/view_ready_stereo/view_ready_stereo_metadata.py:10-24;
   resippy/image_objects/earth_overhead/digital_globe/view_ready_stereo/view_ready_stereo_image_factory.py:8-12 returns the same *)
Definition vrs_from_file (fs : text -> option (@dataset V G W)) (rpcs : text -> option (dict text)) (fname : text) : result vrs_image :=
  match fs fname with
  | None => Err AttributeError
  | Some d =>
    match d_bands d with
    | [] => Err AttributeError                       (* GetRasterBand(1) is None *)
    | _ :: _ =>
      calc <- rpc_init_from_file to_float rpcs fname ;;
      Ok (mkVrs (Some fname) (d_nx d) (d_ny d) (length (d_bands d)) (d_type d) (d_nodata d) (path_root fname) calc)
    end
  end.

(* resippy/image_objects/earth_overhead/digital_globe/view_ready_stereo/view_ready_stereo_image.py:48-53 *)
Definition vrs_read_all (fs : text -> option (@dataset V G W)) (im : vrs_image) : result (D * raster V) :=
  read_bands from_gdal fs (vi_src im) (vi_nb im).
(* resippy/image_objects/earth_overhead/digital_globe/view_ready_stereo/view_ready_stereo_image.py:55-59 *)
Definition vrs_read_band (fs : text -> option (@dataset V G W)) (im : vrs_image) (k : Z) : result (list (list V)) :=
  d <- open_dset fs (vi_src im) ;; dset_band d k.
End Vrs.

(* ------------------------------ ENVI images ---------------------------- *)

Section EnviImages.
Context {A V D G W F : Type}.
Variable from_gdal : G -> D.
Variable parse_float : text -> option F.

(** The image object: the dataset that GDAL opened (None when it could not), the three sizes
    kept in the metadata, and the whole header *)
Record envi_image := mkEnviImage { ei_dset : option (@dataset V G W); ei_nx : hval F; ei_ny : hval F; ei_nb : hval F;
  ei_header : dict (hval F) }.

(* resippy/image_objects/envi/envi_metadata.py:11-19.  open(None) raises TypeError *)
Definition envi_metadata_from_header (fuel : nat) (w : fs A) (header : option text)
  : result (hval F * hval F * hval F * dict (hval F)) :=
  match header with
  | None => Err TypeError
  | Some h =>
    match w h with
    | Some (TextFile t) =>
      d <- read_envi_header F parse_float fuel t ;;
      nx <- dict_get d (txt "samples") ;;
      ny <- dict_get d (txt "lines") ;;
      nb <- dict_get d (txt "bands") ;;
      Ok (nx, ny, nb, d)
    | _ => Err OtherError                            (* FileNotFoundError, or not a text *)
    end
  end.

(* resippy/image_objects/envi/envi_image.py:17-35 and resippy/image_objects/envi/envi_image_factory.py:7-12.  gdal img is
   what gdal.Open gives for the image *)
Definition envi_init_from_file (fuel : nat) (gdal : text -> option (@dataset V G W)) (w : fs A) (img : text) (header : option text)
  : result envi_image :=
  let header := match header with Some h => Some h | None => find_header A w img (envi_image_guesses img) end in
  m <- envi_metadata_from_header fuel w header ;;
  let '(nx, ny, nb, d) := m in
  Ok (mkEnviImage (gdal img) nx ny nb d).

(* resippy/image_objects/envi/envi_image.py:37-41 *)
Definition envi_read_band (im : envi_image) (k : Z) : result (list (list V)) :=
  match ei_dset im with None => Err AttributeError | Some d => dset_band d k end.

(* resippy/image_objects/envi/envi_image.py:43-48.  range of a text or a list is a TypeError,
   np.stack of nothing a ValueError *)
Definition envi_read_all (im : envi_image) : result (D * raster V) :=
  match ei_nb im with
  | HInt n =>
    if (n <=? 0)%Z then Err ValueError
    else match ei_dset im with
         | None => Err AttributeError
         | Some d => l <- mapM (fun k => dset_band d (Z.of_nat k)) (seq 0 (Z.to_nat n)) ;;
                     Ok (from_gdal (d_type d), mkRaster (d_ny d) (d_nx d) l)
         end
  | _ => Err TypeError
  end.
End EnviImages.

(* ----------------------------- Pix4D collects -------------------------- *)

Section Pix4D.
Context {F : Type} (to_float : text -> option F).

(* resippy/utils/pix4d_utils.py:17-22, one line.  np.asarray of texts as numbers converts each
   with float *)
Definition p_matrix_line (d : dict (list F)) (line : text) : result (dict (list F)) :=
  match split_char " "%char (remove_newlines (strip line)) with
  | fname :: fields => params <- mapM (float_ to_float) fields ;; Ok (dict_set d fname params)
  | [] => Err IndexError                             (* split gives at least one field *)
  end.
(* resippy/utils/pix4d_utils.py:11-23 *)
Definition read_p_matrices (content : text) : result (dict (list F)) :=
  foldM p_matrix_line (file_lines content) [].

(** s.endswith(suffix) *)
Definition ends_with (suffix s : text) : bool := starts_with (rev suffix) (rev s).

(* resippy/utils/pix4d_utils.py:152-155 *)
Definition external_suffix : text := txt "calibrated_external_camera_parameters.txt".
Definition internal_suffix : text := txt "pix4d_calibrated_internal_camera_parameters.cam".
Definition params_suffix : text := txt "calibrated_camera_parameters.txt".
Definition wkt_suffix : text := txt "wkt.prj".

(* resippy/utils/pix4d_utils.py:157-169, one parameter *)
Definition default_name (listing : list text) (suffix : text) (given : option text) : result text :=
  match given with
  | Some n => Ok n
  | None => py_get (filter (ends_with suffix) listing) 0
  end.

(* resippy/utils/pix4d_utils.py:122-204: listing is os.listdir(base_path), read the content of a
   file.  The projection text is read, its conversion is left out *)
Definition master_dict_from_path (read : text -> result text) (listing : list text) (base_path : text)
    (external_params_fname internal_params_fname calibrated_params_fname wkt_fname : option text)
  : result (dict (@master_val F)) :=
  external_params_fname <- default_name listing external_suffix external_params_fname ;;
  internal_params_fname <- default_name listing internal_suffix internal_params_fname ;;
  calibrated_params_fname <- default_name listing params_suffix calibrated_params_fname ;;
  wkt_fname <- default_name listing wkt_suffix wkt_fname ;;
  e <- read (M_TextFiles.path_join base_path external_params_fname) ;;
  external_dict <- read_calibrated_external_camera_parameters to_float e ;;
  i <- read (M_TextFiles.path_join base_path internal_params_fname) ;;
  internal_list <- read_pix4d_calibrated_internal_camera_parameters to_float pix4d_text i ;;
  c <- read (M_TextFiles.path_join base_path calibrated_params_fname) ;;
  calibrated_dict <- read_calibrated_camera_parameters to_float c ;;
  w <- read (M_TextFiles.path_join base_path wkt_fname) ;;
  make_master_dict external_dict internal_list calibrated_dict.
End Pix4D.

(* ------------------------------ navigation ----------------------------- *)

(** The arguments of pyproj.Proj (preserve_units is always True) *)
Record proj_args := mkProjArgs { pj_proj : text; pj_zone : option text; pj_ellps : text; pj_datum : text }.
(* resippy/photogrammetry/nav/applanix_sbet_nav.py:40-43 = resippy/photogrammetry/nav/applanix_eo_nav.py:57-60; not zone
   holds for None and the empty text *)
Definition nav_projection (proj : text) (zone : option text) (ellps datum : text) : proj_args :=
  match zone with
  | None | Some [] => mkProjArgs proj None ellps datum
  | Some z => mkProjArgs proj (Some z) ellps datum
  end.

Record nav_object := mkNavObject { no_data : nav_data; no_num_records : Z; no_record_length : nat; no_projection : proj_args }.

(** What the PDAL pipeline gives: the number that execute returns and the columns of the first
    array (no array: IndexError) *)
Record pdal_result := mkPdal { pd_count : Z; pd_arrays : list (list (text * list R)) }.

(* resippy/photogrammetry/nav/applanix_sbet_nav.py:16-43 and resippy/photogrammetry/nav/nav_factory.py:7-16.  A file that PDAL
   cannot read raises a RuntimeError.  data[name] of a structured array is the column of that name *)
Definition sbet_load (pdal : text -> option pdal_result) (filename proj : text) (zone : option text) (ellps datum : text)
  : result nav_object :=
  match pdal filename with
  | None => Err OtherError
  | Some r =>
    data <- py_get (pd_arrays r) 0 ;;
    Ok (mkNavObject (fold_left (fun d nc => dict_set d (convert_to_snake_case (fst nc)) (snd nc)) data [])
          (pd_count r) (length data) (nav_projection proj zone ellps datum))
  end.

(* resippy/photogrammetry/nav/applanix_eo_nav.py:16-60 and resippy/photogrammetry/nav/nav_factory.py:18-27 *)
Definition eo_load_file (to_float : text -> option R) (read : text -> result text) (filename proj : text) (zone : option text)
    (ellps datum : text) : result nav_object :=
  content <- read filename ;;
  let nav := eo_nav_data to_float content in
  gps_time <- dict_get nav (txt "gps_time") ;;
  Ok (mkNavObject nav (Z.of_nat (length gps_time)) 7 (nav_projection proj zone ellps datum)).
