(** Model of the orthorectification by image warping and of the image object and file that the
    orthorectification functions return (resippy/photogrammetry/ortho_tools.py), and of the two
    resampling helpers of resippy/utils/image_utils/image_utils.py.  scikit-image, PIL and GDAL
    are function arguments; exact real arithmetic, NaN is NonFinite. *)
From Verif Require Export M_Ortho M_Objects.
Open Scope R_scope.
Open Scope list_scope.

(* resippy/utils/image_utils/image_utils.py:36-48 *)
Definition warp_order (interpolation : text) : result nat :=
  if text_eqb interpolation (txt "nearest") then Ok 0%nat
  else if text_eqb interpolation (txt "bilinear") then Ok 1%nat
  else if text_eqb interpolation (txt "biquadratic") then Ok 2%nat
  else if text_eqb interpolation (txt "bicubic") then Ok 3%nat
  else if text_eqb interpolation (txt "biquartic") then Ok 4%nat
  else if text_eqb interpolation (txt "biquintic") then Ok 5%nat
  else Err ValueError.

(* resippy/utils/image_utils/image_utils.py:29-53; warp order cval data loc is skimage's warp (preserve_range, mode
   constant) at one location (x, y); the coordinate arrays are given as rows of locations.
   Simplified: the image has a pixel (skimage refuses an empty image with a ValueError) *)
Definition grid_warp_image_band (warp : nat -> flt -> list (list flt) -> R * R -> flt) (image : list (list flt))
    (locs : list (list (R * R))) (nodata : flt) (interpolation : text) : result (list (list flt)) :=
  order <- warp_order interpolation ;;
  Ok (map (map (warp order nodata image)) locs).

(* resippy/utils/image_utils/image_utils.py:269-276; pil data (width, height) is PIL's resize *)
Definition resize_image {V} (pil : list (list V) -> nat * nat -> list (list V)) (image : list (list V)) (new_ny new_nx : nat)
  : list (list V) := pil image (new_nx, new_ny).

(* resippy/utils/image_utils/image_utils.py:82-122: line 94 unpacks the number of elements of the array *)
Definition gdal_grid_image_band {V} (image_to_warp : list (list V)) (output_fname : text) (npix_x npix_y : Z) : result unit :=
  Err TypeError.

(* resippy/photogrammetry/ortho_tools.py:271-309.  As create_ortho (178-245), with the image warped and without the
   masking of the border *)
Definition create_ortho_backup (warp : nat -> flt -> list (list flt) -> R * R -> flt) (img : overhead) (nx ny : nat)
    (minx miny maxx maxy : R) (dem : option (R * R -> R)) (bands : option (list nat)) (nodata : flt) (interpolation : text)
  : result (list (band flt) * list R) :=
  g <- create_ground_grid minx maxx miny maxy (Z.of_nat nx) (Z.of_nat ny) ;;
  let geo_t := world_poly_to_geo_t minx miny maxx maxy (Z.of_nat nx) (Z.of_nat ny) in
  let elev := match dem with Some d => d | None => fun _ => 0 end in
  let points := map (fun q => map (fun p => (p, elev p)) q) (map2 (fun xs ys => combine xs ys) (fst g) (snd g)) in
  let bands := match bands with Some l => l | None => seq 0 (ov_n_bands img) end in
  images <- mapM (fun b =>
    if ov_coregistered img then
      if ov_loaded img then
        rows <- grid_warp_image_band warp (ov_band img b) (map (map (ov_locate img 0)) points) nodata interpolation ;;
        Ok (mkBand ny nx (map (map (ov_store img)) rows))
      else Err TypeError
    else
      rows <- grid_warp_image_band warp (ov_band img b) (map (map (ov_locate img b)) points) nodata interpolation ;;
      Ok (mkBand ny nx (map (map (ov_store img)) rows))) bands ;;
  match images with [] => Err ValueError | _ => Ok (images, geo_t) end.

(** np.stack(images, axis=2): rows of pixels; and image[:, :, k] *)
Definition stack_bands (ny nx : nat) (bands : list (list (list flt))) : list (list (list flt)) :=
  map (fun r => map (fun c => map (fun b => nth c (nth r b []) NonFinite) bands) (seq 0 nx)) (seq 0 ny).
Definition band_of (image : list (list (list flt))) (k : nat) : list (list flt) := map (map (fun px => nth k px NonFinite)) image.

(** The no-data value as the metadata keep it *)
Definition nodata_of (v : flt) : nodata := match v with Fin r => Nodata r | NonFinite => NodataNaN end.

Section Finish.
Context {D G P W : Type}.
Variable to_gdal : D -> option G.
Variable from_gdal : G -> D.
Variable file_store : D -> G -> flt -> flt.
Variable wkt_of : P -> W.

(* resippy/photogrammetry/ortho_tools.py:245-251 = 309-314.  Simplified: all bands have the image's one data type.
   from_numpy_array is called without no-data value, which is set in the metadata afterwards *)
Definition ortho_image (dtype : D) (store : flt -> flt) (nx ny : nat) (images : list (band flt)) (geo_t : list R) (proj : P) (nodata : flt)
    (mask_no_data_region : bool) : result (geotiff flt D G P) :=
  let image := stack_bands ny nx (map b_rows images) in
  image <- (if mask_no_data_region then mask_image (fun v => store (Fin v)) image nodata else Ok image) ;;
  let n := (length images + if mask_no_data_region then 1 else 0)%nat in
  let im := geotiff_from_numpy to_gdal dtype (Array3 (mkRaster ny nx (map (band_of image) (seq 0 n)))) geo_t proj NoNodata in
  Ok (mkGeotiff (gt_data im) (gt_src im) (gt_nx im) (gt_ny im) (gt_nb im) (gt_type im) (nodata_of nodata) (gt_name im) (gt_geot im) (gt_proj im)).

(* resippy/photogrammetry/ortho_tools.py:252-255 = 315-318 *)
Definition ortho_output (fs : files flt G W) (im : geotiff flt D G P) (output_fname : option text)
  : files flt G W * result (geotiff flt D G P) :=
  match output_fname with
  | None => (fs, Ok im)
  | Some f =>
    let '(fs', im', r) := write_to_disk from_gdal file_store (Fin 0) wkt_of fs im f in
    (fs', match r with Ok _ => Ok im' | Err e => Err e | Diverges => Diverges end)
  end.

Definition finish_ortho (fs : files flt G W) (dtype : D) (store : flt -> flt) (nx ny : nat) (res : result (list (band flt) * list R))
    (proj : P) (nodata : flt) (mask_no_data_region : bool) (output_fname : option text) : files flt G W * result (geotiff flt D G P) :=
  match (r <- res ;; ortho_image dtype store nx ny (fst r) (snd r) proj nodata mask_no_data_region) with
  | Ok im => ortho_output fs im output_fname
  | Err e => (fs, Err e)
  | Diverges => (fs, Diverges)
  end.

(* resippy/photogrammetry/ortho_tools.py:178-255 *)
Definition create_ortho_gtiff_image_world_to_sensor (fs : files flt G W) (dtype : D) (sample : list (list flt) -> R * R -> flt)
    (img : overhead) (nx ny : nat) (minx miny maxx maxy : R) (proj : P) (dem : option (R * R -> R)) (bands : option (list nat))
    (nodata : flt) (output_fname : option text) (mask_no_data_region : bool) : files flt G W * result (geotiff flt D G P) :=
  finish_ortho fs dtype (ov_store img) nx ny (create_ortho sample img nx ny minx miny maxx maxy dem bands nodata)
    proj nodata mask_no_data_region output_fname.

(* resippy/photogrammetry/ortho_tools.py:258-318 *)
Definition create_ortho_gtiff_image_world_to_sensor_backup (fs : files flt G W) (dtype : D)
    (warp : nat -> flt -> list (list flt) -> R * R -> flt)
    (img : overhead) (nx ny : nat) (minx miny maxx maxy : R) (proj : P) (dem : option (R * R -> R)) (bands : option (list nat))
    (nodata : flt) (output_fname : option text) (interpolation : text) (mask_no_data_region : bool)
  : files flt G W * result (geotiff flt D G P) :=
  finish_ortho fs dtype (ov_store img) nx ny (create_ortho_backup warp img nx ny minx miny maxx maxy dem bands nodata interpolation)
    proj nodata mask_no_data_region output_fname.
End Finish.
