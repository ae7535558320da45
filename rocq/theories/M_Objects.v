(** Model of the concrete earth overhead image objects, in
    resippy/image_objects/earth_overhead/: geotiff/geotiff_image.py,
    geotiff/geotiff_metadata.py, the file part of
    earth_overhead_point_calculators/geotiff_point_calc.py, physical_camera/, igm/igm_image.py
    and micasense/.  GDAL, pyproj, imageio and PIL are described by the values they return. *)
From Verif Require Export RAux Text M_Envi M_TextFiles M_NavFiles M_Photo M_Cameras M_Ortho.
Open Scope R_scope.
Open Scope list_scope.

(* ------------------------------ rasters ------------------------------- *)

(** A 3-d numpy array of shape (ny, nx, number of bands), kept as its bands array[:, :, k],
    each a list of ny rows of nx values; and the arrays that are given as image data. *)
Record raster (V : Type) := mkRaster { r_ny : nat; r_nx : nat; r_bands : list (list (list V)) }.
Arguments mkRaster {V}. Arguments r_ny {V}. Arguments r_nx {V}. Arguments r_bands {V}.
Inductive ndarr (V : Type) := Array2 (ny nx : nat) (rows : list (list V)) | Array3 (r : raster V).
Arguments Array2 {V}. Arguments Array3 {V}.

(** A no-data value: None, a number, NaN or an infinity *)
Inductive nodata := NoNodata | Nodata (v : R) | NodataNaN | NodataInf.
(** int(value) *)
Definition int_nodata (n : nodata) : result R :=
  match n with
  | Nodata v => Ok (IZR (truncZ v))
  | NodataNaN => Err ValueError
  | NodataInf => Err OtherError            (* OverflowError *)
  | NoNodata => Err TypeError
  end.

Section Geotiff.
(** Pixel values, numpy data types, GDAL data types, projections, projection texts *)
Context {V D G P W : Type}.
(** gdal_array.NumericTypeCodeToGDALTypeCode (None for a type GDAL does not have), the numpy
    type of a GDAL type, and the value found in a file of GDAL type g after a value of numpy
    type d was written to it.  The conversions of a projection. *)
Variable to_gdal : D -> option G.
Variable from_gdal : G -> D.
Variable store : D -> G -> V -> V.
Variable zero : V.
Variable wkt_of : P -> W.
Variable proj_of : W -> P.

(** A raster file as GDAL sees it.  The no-data value is one for the whole file, as in the
    GTiff format. *)
Record dataset := mkDataset { d_nx : nat; d_ny : nat; d_type : G; d_bands : list (list (list V));
  d_geot : list R; d_wkt : W; d_nodata : nodata }.
(** The file system: what GDAL opens under a name *)
Definition files := text -> option dataset.
Definition put (fs : files) (name : text) (d : option dataset) : files := fun n => if text_eqb n name then d else fs n.

(* resippy/image_objects/earth_overhead/geotiff/geotiff_image.py:19-21, resippy/image_objects/earth_overhead/geotiff/geotiff_metadata.py:9-23, resippy/image_objects/earth_overhead/earth_overhead_point_calculators/geotiff_point_calc.py:17-44: the image
   object, its metadata and its point calculator.  gt_src is the name of the file that is
   held open.  The metadata keys npix_x, npix_y, n_bands, gdal_datatype and nodata_val are
   always set by the two constructors; img_name only for a file. *)
Record geotiff := mkGeotiff {
  gt_data : option (D * raster V); gt_src : option text;
  gt_nx : nat; gt_ny : nat; gt_nb : nat; gt_type : option G; gt_nodata : nodata; gt_name : option text;
  gt_geot : list R; gt_proj : P }.
Definition with_data (im : geotiff) (d : option (D * raster V)) : geotiff :=
  mkGeotiff d (gt_src im) (gt_nx im) (gt_ny im) (gt_nb im) (gt_type im) (gt_nodata im) (gt_name im) (gt_geot im) (gt_proj im).

(** os.path.splitext(path)[0] *)
Definition path_root (p : text) : text :=
  firstn (length p - length (basename p)) p ++ splitext_root (basename p).

(* resippy/image_objects/earth_overhead/geotiff/geotiff_image.py:23-33, resippy/image_objects/earth_overhead/geotiff/geotiff_metadata.py:9-23, resippy/image_objects/earth_overhead/earth_overhead_point_calculators/geotiff_point_calc.py:25-44.  A file
   GDAL cannot open is None, whose attributes raise; so is the first band of a file without
   bands.  Simplified: the file is not changed by another process between the three opens. *)
Definition open_geotiff (fs : files) (fname : text) : result geotiff :=
  match fs fname with
  | None => Err AttributeError
  | Some d =>
    match d_bands d with
    | [] => Err AttributeError
    | _ :: _ => Ok (mkGeotiff None (Some fname) (d_nx d) (d_ny d) (length (d_bands d)) (Some (d_type d)) (d_nodata d)
                      (Some (path_root fname)) (d_geot d) (proj_of (d_wkt d)))
    end
  end.

(* resippy/image_objects/earth_overhead/geotiff/geotiff_image.py:35-72 *)
Definition geotiff_from_numpy (dtype : D) (image_data : ndarr V) (geo_t : list R) (proj : P) (nodata_val : nodata) : geotiff :=
  let r := match image_data with Array2 ny nx rows => mkRaster ny nx [rows] | Array3 r => r end in
  mkGeotiff (Some (dtype, r)) None (r_nx r) (r_ny r) (length (r_bands r)) (to_gdal dtype) nodata_val None geo_t proj.

(** band.ReadAsArray() of dataset.GetRasterBand(k + 1): None, hence AttributeError, for a band
    that does not exist; a dataset that is None raises too.  An open dataset shows the present
    contents of its file (in reality an open file that was replaced may also fail to read). *)
Definition open_dset (fs : files) (src : option text) : result dataset :=
  match src with None => Err AttributeError | Some n => match fs n with None => Err AttributeError | Some d => Ok d end end.
Definition dset_band (d : dataset) (k : Z) : result (list (list V)) :=
  if (k <? 0)%Z then Err AttributeError
  else match nth_error (d_bands d) (Z.to_nat k) with Some b => Ok b | None => Err AttributeError end.

(* resippy/image_objects/earth_overhead/geotiff/geotiff_image.py:88-93 = resippy/image_objects/earth_overhead/physical_camera/physical_camera_image.py:17-23 *)
Definition read_bands (fs : files) (src : option text) (n_bands : nat) : result (D * raster V) :=
  match n_bands with
  | O => Err ValueError                              (* np.stack of nothing *)
  | S _ =>
    d <- open_dset fs src ;;
    l <- mapM (fun k => dset_band d (Z.of_nat k)) (seq 0 n_bands) ;;
    Ok (from_gdal (d_type d), mkRaster (d_ny d) (d_nx d) l)
  end.
Definition geotiff_read_all (fs : files) (im : geotiff) : result (D * raster V) := read_bands fs (gt_src im) (gt_nb im).
(* resippy/image_objects/earth_overhead/geotiff/geotiff_image.py:95-99 *)
Definition geotiff_read_band (fs : files) (im : geotiff) (k : Z) : result (list (list V)) :=
  d <- open_dset fs (gt_src im) ;; dset_band d k.

(** WriteArray(band): the array goes to the upper left corner and must not be larger *)
Definition paste (old new : list (list V)) : list (list V) :=
  map2 (fun o n => n ++ skipn (length n) o) old new ++ skipn (length new) old.
Definition write_array (d : dataset) (k : nat) (dtype : D) (r : raster V) (band : list (list V)) : result dataset :=
  if (Nat.leb (r_ny r) (d_ny d) && Nat.leb (r_nx r) (d_nx d))%bool then
    match nth_error (d_bands d) k with
    | None => Err AttributeError
    | Some old =>
      Ok (mkDataset (d_nx d) (d_ny d) (d_type d)
            (upd_nat (d_bands d) k (paste old (map (map (store dtype (d_type d))) band)))
            (d_geot d) (d_wkt d) (d_nodata d))
    end
  else Err ValueError.
Definition set_nodata (d : dataset) (n : nodata) : dataset :=
  mkDataset (d_nx d) (d_ny d) (d_type d) (d_bands d) (d_geot d) (d_wkt d) n.

(* resippy/image_objects/earth_overhead/geotiff/geotiff_image.py:139-142 = 115-118: the bands are written one after the other; an exception
   leaves the bands written so far in the file *)
Fixpoint write_bands (dtype : D) (r : raster V) (nd : nodata) (ks : list nat) (d : dataset) : dataset * result unit :=
  match ks with
  | [] => (d, Ok tt)
  | k :: ks =>
    match py_get (r_bands r) (Z.of_nat k) with
    | Err e => (d, Err e)
    | Diverges => (d, Diverges)
    | Ok band =>
      match write_array d k dtype r band with
      | Err e => (d, Err e)
      | Diverges => (d, Diverges)
      | Ok d' =>
        match nd with
        | NoNodata => write_bands dtype r nd ks d'
        | _ => match int_nodata nd with
               | Ok v => write_bands dtype r nd ks (set_nodata d' (Nodata v))
               | Err e => (d', Err e)
               | Diverges => (d', Diverges)
               end
        end
      end
    end
  end.

(* resippy/image_objects/earth_overhead/geotiff/geotiff_image.py:121-144: the file system and the image afterwards, and the outcome.
   driver.Create returns None for a width, height or number of bands of zero (a file already
   under that name is then left as it was: simplified) and raises TypeError for the data type
   None.  The compression (lossless) and the tiling do not show in what is read back. *)
Definition write_to_disk (fs : files) (im : geotiff) (fname : text) : files * geotiff * result unit :=
  match gt_type im with
  | None => (fs, im, Err TypeError)
  | Some g =>
    if (Nat.eqb (gt_nx im) 0 || Nat.eqb (gt_ny im) 0 || Nat.eqb (gt_nb im) 0)%bool then (fs, im, Err AttributeError)
    else
      let blank := repeat (repeat (repeat zero (gt_nx im)) (gt_ny im)) (gt_nb im) in
      let d0 := mkDataset (gt_nx im) (gt_ny im) g blank (gt_geot im) (wkt_of (gt_proj im)) NoNodata in
      let fs0 := put fs fname (Some d0) in
      match (match gt_data im with Some r => Ok r | None => geotiff_read_all fs0 im end) with
      | Err e => (fs0, im, Err e)
      | Diverges => (fs0, im, Diverges)
      | Ok (dtype, r) =>
        let '(d, res) := write_bands dtype r (gt_nodata im) (seq 0 (gt_nb im)) d0 in
        (put fs fname (Some d), with_data im (Some (dtype, r)), res)
      end
  end.

(* resippy/image_objects/earth_overhead/geotiff/geotiff_image.py:101-119 get_gdal_mem_datset: the same on a dataset in memory.  The MEM
   driver accepts zero bands. *)
Definition mem_dataset (fs : files) (im : geotiff) : geotiff * result dataset :=
  match gt_type im with
  | None => (im, Err TypeError)
  | Some g =>
    if (Nat.eqb (gt_nx im) 0 || Nat.eqb (gt_ny im) 0)%bool then (im, Err AttributeError)
    else
      let blank := repeat (repeat (repeat zero (gt_nx im)) (gt_ny im)) (gt_nb im) in
      let d0 := mkDataset (gt_nx im) (gt_ny im) g blank (gt_geot im) (wkt_of (gt_proj im)) NoNodata in
      match (match gt_data im with Some r => Ok r | None => geotiff_read_all fs im end) with
      | Err e => (im, Err e)
      | Diverges => (im, Diverges)
      | Ok (dtype, r) =>
        let '(d, res) := write_bands dtype r (gt_nodata im) (seq 0 (gt_nb im)) d0 in
        (with_data im (Some (dtype, r)), match res with Ok _ => Ok d | Err e => Err e | Diverges => Diverges end)
      end
  end.

(** The image object's own methods: resippy/image_objects/abstract_image.py:48-64, resippy/image_objects/earth_overhead/geotiff/geotiff_image.py:188-192 *)
Definition set_image_data (im : geotiff) (dtype : D) (r : raster V) : geotiff := with_data im (Some (dtype, r)).
Definition close_image (im : geotiff) : geotiff :=
  mkGeotiff (gt_data im) None (gt_nx im) (gt_ny im) (gt_nb im) (gt_type im) (gt_nodata im) (gt_name im) (gt_geot im) (gt_proj im).

(* ------------------------ physical camera images ---------------------- *)

(* resippy/image_objects/earth_overhead/physical_camera/physical_camera_image.py:12-15; resippy/image_objects/earth_overhead/physical_camera/physical_camera_image_factory.py:10-32.  Only the fields
   the two readers use. *)
Record camera_image := mkCameraImage { ci_data : option (raster V); ci_src : option text; ci_nb : nat; ci_read_with_gdal : bool }.
(* resippy/image_objects/earth_overhead/physical_camera/physical_camera_metadata.py:9-23, resippy/image_objects/earth_overhead/physical_camera/physical_camera_image_factory.py:11-21 *)
Definition camera_from_file (fs : files) (fname : text) : result camera_image :=
  match fs fname with
  | None => Err AttributeError
  | Some d => match d_bands d with [] => Err AttributeError | _ :: _ => Ok (mkCameraImage None (Some fname) (length (d_bands d)) true) end
  end.
(* resippy/image_objects/earth_overhead/physical_camera/physical_camera_image_factory.py:23-32 *)
Definition camera_from_numpy (r : raster V) (n_bands : nat) : camera_image := mkCameraImage (Some r) None n_bands true.
(* resippy/image_objects/earth_overhead/physical_camera/physical_camera_image.py:17-23 *)
Definition camera_read_all (fs : files) (im : camera_image) : result (D * raster V) :=
  if ci_read_with_gdal im then read_bands fs (ci_src im) (ci_nb im) else Err ValueError.
(* resippy/image_objects/earth_overhead/physical_camera/physical_camera_image.py:25-34; resippy/image_objects/abstract_image.py:84-92 subscripts the data, which is None
   (TypeError) until it is set; the branch for None (31-34) is never reached *)
Definition camera_read_band (fs : files) (im : camera_image) (k : Z) : result (list (list V)) :=
  match ci_data im with
  | None => Err TypeError
  | Some r => py_get (r_bands r) k
  end.
(* resippy/image_objects/earth_overhead/igm/igm_image.py:28-32: both readers return None *)
Definition igm_read_band (k : Z) : option (list (list V)) := None.
Definition igm_read_all : option (D * raster V) := None.
End Geotiff.
Arguments dataset : clear implicits. Arguments files : clear implicits. Arguments geotiff : clear implicits.

(* --------------------------- Micasense images ------------------------- *)

Section Micasense.
Context {V : Type}.
(** imageio.imread and PIL's save: the image files by name; a missing file is an error *)
Definition band_files := text -> option (nat * nat * list (list V)).
Definition imread (fs : band_files) (name : text) : result (nat * nat * list (list V)) :=
  match fs name with Some b => Ok b | None => Err OtherError end.     (* FileNotFoundError *)

(* resippy/image_objects/earth_overhead/micasense/micasense_image.py:18-22; np.dstack of 2-d arrays: equal shapes, at least one *)
Definition mica_read_all (fs : band_files) (fnames : list text) : result (raster V) :=
  imgs <- mapM (imread fs) fnames ;;
  match imgs with
  | [] => Err ValueError
  | (ny, nx, _) :: _ =>
    if forallb (fun b => (Nat.eqb (fst (fst b)) ny && Nat.eqb (snd (fst b)) nx)%bool) imgs
    then Ok (mkRaster ny nx (map snd imgs)) else Err ValueError
  end.
(* resippy/image_objects/earth_overhead/micasense/micasense_image.py:24-27 *)
Definition mica_read_band (fs : band_files) (fnames : list text) (k : Z) : result (nat * nat * list (list V)) :=
  n <- py_get fnames k ;; imread fs n.

(* resippy/image_objects/earth_overhead/micasense/micasense_image_factory.py:103-118; fresh k is the k-th uuid4().hex, home is the last part
   of $HOME (which is set).  Simplified: the image has at least two rows and two columns
   (np.squeeze would drop an axis of length 1) and a type PIL can save. *)
Definition tmp_name (home : text) (fresh : nat -> text) (working_dir : option text) (basename_ : option text) (k : nat) : text :=
  let dir := match working_dir with None => M_TextFiles.path_join (txt "/tmp") home | Some d => d end in
  let base := match basename_ with None => fresh k ++ txt ".tif" | Some b => b end in
  M_TextFiles.path_join dir base.
(* resippy/image_objects/earth_overhead/micasense/micasense_image_factory.py:120-135 *)
Fixpoint mica_from_numpy_loop (home : text) (fresh : nat -> text) (working_dir : option text) (names : option (list text))
    (r : raster V) (ks : list nat) (fs : band_files) (acc : list text) : band_files * result (list text) :=
  match ks with
  | [] => (fs, Ok acc)
  | k :: ks =>
    match (match names with None => Ok None | Some l => n <- py_get l (Z.of_nat k) ;; Ok (Some n) end),
          nth_error (r_bands r) k with
    | Ok nm, Some band =>
      let fn := tmp_name home fresh working_dir nm k in
      mica_from_numpy_loop home fresh working_dir names r ks
        (fun n => if text_eqb n fn then Some (r_ny r, r_nx r, band) else fs n) (acc ++ [fn])
    | Err e, _ => (fs, Err e)
    | _, _ => (fs, Err IndexError)
    end
  end.
Definition mica_from_numpy (home : text) (fresh : nat -> text) (working_dir : option text) (names : option (list text))
    (r : raster V) (fs : band_files) : band_files * result (list text) :=
  mica_from_numpy_loop home fresh working_dir names r (seq 0 (length (r_bands r))) fs [].
End Micasense.

(* resippy/image_objects/earth_overhead/micasense/micasense_metadata.py:6-11; resippy/image_objects/earth_overhead/micasense/micasense_image_factory.py:18-45 with the list of calculators:
   the name of the image, the files of the bands and what answers for each band *)
Definition band_key (k : nat) : text := txt "band" ++ str_of_Z (Z.of_nat k).
Record mica (C : Type) := mkMica { mi_name : text; mi_fnames : list text; mi_calcs : list C; mi_coregistered : bool;
  mi_nodata : Z; mi_nx : Z; mi_ny : Z; mi_nb : Z }.
Arguments mkMica {C}. Arguments mi_name {C}. Arguments mi_fnames {C}. Arguments mi_calcs {C}. Arguments mi_coregistered {C}.
Arguments mi_nodata {C}. Arguments mi_nx {C}. Arguments mi_ny {C}. Arguments mi_nb {C}.
Definition from_point_calcs {C} (names : dict text) (calcs : list C) : result (mica C) :=
  _ <- py_get calcs 0 ;;
  b1 <- dict_get names (band_key 1) ;;
  let name := join (txt "_") (removelast (split_char "_"%char (path_root b1))) in
  f1 <- dict_get names (band_key 1) ;; f2 <- dict_get names (band_key 2) ;; f3 <- dict_get names (band_key 3) ;;
  f4 <- dict_get names (band_key 4) ;; f5 <- dict_get names (band_key 5) ;;
  Ok (mkMica name [f1; f2; f3; f4; f5] calcs false 0 1280 960 5).

(* resippy/image_objects/earth_overhead/micasense/micasense_image_factory.py:47-70; the approximate centre is not modelled *)
Definition mica_pix4d (names : dict text) (params : dict p4_params) : result (mica pix4d) :=
  let create k := f <- dict_get names (band_key k) ;; p4_init f params (Some (txt "regular")) in
  c1 <- create 1%nat ;; c2 <- create 2%nat ;; c3 <- create 3%nat ;; c4 <- create 4%nat ;; c5 <- create 5%nat ;;
  from_point_calcs names [c1; c2; c3; c4; c5].

(** One band's parameters (the keys that are read; the pixel pitch is never used) *)
Record cv_params := mkCvParams { cvp_band : Z; cvp_fx : R; cvp_fy : R; cvp_cx : R; cvp_cy : R;
  cvp_k1 : R; cvp_k2 : R; cvp_k3 : R; cvp_p1 : R; cvp_p2 : R;
  cvp_x : R; cvp_y : R; cvp_z : R; cvp_omega : R; cvp_phi : R; cvp_kappa : R }.
(* resippy/image_objects/earth_overhead/earth_overhead_point_calculators/opencv_point_calc.py:48-64; the projection is UTM zone 18 whatever the parameters (not
   modelled here) *)
Definition cv_init (p : cv_params) : opencv :=
  cv_run [InitIntrinsic (cvp_fx p) (cvp_fy p) (cvp_cx p) (cvp_cy p) (cvp_k1 p) (cvp_k2 p) (cvp_k3 p) (cvp_p1 p) (cvp_p2 p);
          InitOffsets (cvp_x p) (cvp_y p) (cvp_z p) (cvp_omega p) (cvp_phi p) (cvp_kappa p)].
(* resippy/image_objects/earth_overhead/micasense/micasense_image_factory.py:77 *)
Definition file_band_number (fname : text) : result Z :=
  c <- py_get fname (rfind "."%char fname - 1) ;; py_int [c].
(* resippy/image_objects/earth_overhead/micasense/micasense_image_factory.py:72-94 *)
Definition mica_opencv (names : dict text) (params : list cv_params) : result (mica opencv) :=
  let create k :=
    f <- dict_get names (band_key k) ;;
    n <- file_band_number f ;;
    p <- py_get (filter (fun p => Z.eqb (cvp_band p) n) params) 0 ;;
    Ok (cv_init p) in
  c1 <- create 1%nat ;; c2 <- create 2%nat ;; c3 <- create 3%nat ;; c4 <- create 4%nat ;; c5 <- create 5%nat ;;
  from_point_calcs names [c1; c2; c3; c4; c5].
(* resippy/image_objects/earth_overhead/earth_overhead_point_calculators/earth_overhead_sensor_model.py:14-34 with the list of calculators of the image *)
Definition mica_calc {C} (m : mica C) (band : Z) : option C :=
  if (band <? zlen (mi_calcs m))%Z then match py_get (mi_calcs m) band with Ok c => Some c | _ => None end else None.
