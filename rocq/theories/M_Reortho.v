(** A GeoTIFF image object as the image that is orthorectified, and the program that
    orthorectifies it again and again over its own extent. *)
From Verif Require Export M_Cameras M_Objects M_Warp.
Open Scope R_scope.
Open Scope list_scope.

Section Reortho.
Context {D G P W : Type}.
Variable to_gdal : D -> option G.
Variable from_gdal : G -> D.
Variable file_store : D -> G -> flt -> flt.
Variable wkt_of : P -> W.
(** gdal.InvGeoTransform, and the conversion of a number to a numpy data type *)
Variable gdal_inv : geot -> option geot.
Variable convert : D -> flt -> flt.

Definition geot_of (l : list R) : geot := mkGeot (nth 0 l 0) (nth 1 l 0) (nth 2 l 0) (nth 3 l 0) (nth 4 l 0) (nth 5 l 0).

(* resippy/image_objects/earth_overhead/geotiff/geotiff_image.py:35-72, resippy/image_objects/earth_overhead/earth_overhead_point_calculators/geotiff_point_calc.py:18-23, 46-55:
   the point calculator of the object, with the sizes of the image *)
Definition geotiff_calc_of (im : geotiff flt D G P) : geotiff_calc :=
  set_geot gdal_inv (geot_of (gt_geot im)) (INR (gt_nx im)) (INR (gt_ny im)).

(* resippy/image_objects/abstract_image.py:84-92, resippy/image_objects/earth_overhead/earth_overhead_point_calculators/geotiff_point_calc.py:23, 91-109:
   what orthorectification sees of a GeoTIFF object: coregistered bands, the sizes of the
   metadata, the bands of the loaded array, the inverse geotransform.  Simplified: the world
   projection asked for is the image's own (no pyproj transformation); altitudes are ignored.
   Without an inverse geotransform every location is a TypeError. *)
Definition geotiff_overhead (im : geotiff flt D G P) : result overhead :=
  match gc_inv (geotiff_calc_of im) with
  | None => Err TypeError
  | Some _ =>
    Ok (mkOverhead true (match gt_data im with Some _ => true | None => false end) (Z.of_nat (gt_nx im)) (Z.of_nat (gt_ny im))
          (fun b => match gt_data im with Some d => nth b (r_bands (snd d)) [] | None => [] end) (gt_nb im)
          (match gt_data im with Some d => convert (fst d) | None => fun v => v end)
          (fun _ q => match gt_lon_lat_to_pixel (geotiff_calc_of im) (fst (fst q)) (snd (fst q)) with Ok l => l | _ => (0, 0) end))
  end.

(* resippy/photogrammetry/ortho_tools.py:178-255 on a GeoTIFF object, over the extent with the given bounds,
   in the image's projection, without a DEM; all bands, no file.  The data type is that of the
   loaded array; without one there is no data and create_ortho raises. *)
Definition ortho_of_geotiff (fs : files flt G W) (sample : list (list flt) -> R * R -> flt) (im : geotiff flt D G P)
    (nx ny : nat) (extent : R * R * R * R) (nodata : flt) : files flt G W * result (geotiff flt D G P) :=
  let '(minx, miny, maxx, maxy) := extent in
  match geotiff_overhead im with
  | Ok img =>
    match gt_data im with
    | Some d => create_ortho_gtiff_image_world_to_sensor to_gdal from_gdal file_store wkt_of fs (fst d) sample img nx ny
                  minx miny maxx maxy (gt_proj im) None None nodata None false
    | None => (fs, _ <- create_ortho sample img nx ny minx miny maxx maxy None None nodata ;; Err TypeError)
    end
  | Err e => (fs, Err e)
  | Diverges => (fs, Diverges)
  end.

(** k times: take the image's world extent (resippy/image_objects/earth_overhead/earth_overhead_point_calculators/geotiff_point_calc.py:136-140)
    and its size, orthorectify it over them, go on with the result *)
Fixpoint ortho_generations (fs : files flt G W) (sample : list (list flt) -> R * R -> flt) (nodata : flt)
    (k : nat) (im : geotiff flt D G P) : result (geotiff flt D G P) :=
  match k with
  | O => Ok im
  | S k => im' <- snd (ortho_of_geotiff fs sample im (gt_nx im) (gt_ny im) (gt_world_extent (geotiff_calc_of im)) nodata) ;;
           ortho_generations fs sample nodata k im'
  end.
End Reortho.
