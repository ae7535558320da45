(** Model of the digital elevation model objects over a history of calls:
    resippy/photogrammetry/dem/abstract_dem.py, geotiff_dem.py, constant_elevation_dem.py and
    dem_factory.py, with the GDAL warping of
    resippy/image_objects/earth_overhead/geotiff/geotiff_image.py.  GDAL is described by the
    values it returns; NaN and the infinities are NonFinite. *)
From Verif Require Export M_Dem M_Objects.
Open Scope R_scope.
Open Scope list_scope.

(** resippy/photogrammetry/dem/geotiff_dem.py:65-67 for one value: the no-data value becomes NaN *)
Definition blank_value (nd : nodata) (v : flt) : flt :=
  match nd, v with Nodata x, Fin r => if Reqb r x then NonFinite else v | _, _ => v end.

Section DemState.
Context {D G P W : Type}.
Variable from_gdal : G -> D.
Variable file_store : D -> G -> flt -> flt.
Variable wkt_of : P -> W.
Variable proj_of : W -> P.
(** The numpy types that cannot hold NaN; the srs text of a projection; gdal.Warp from one
    reference system to another, None if it fails *)
Variable integral : D -> bool.
Variable srs_of : P -> text.
Variable gdal_warp : dataset flt G W -> text -> text -> option (dataset flt G W).

(* resippy/photogrammetry/dem/geotiff_dem.py:12-16, resippy/photogrammetry/dem/abstract_dem.py:14-36.  GeotiffDem does not call the constructor of
   AbstractDem: the attributes proj and reference are missing until they are set.  gtiff is an
   image object, first the class GeotiffImage (None).  Simplified: the array is kept with its
   axes of length one (squeezed in resippy/photogrammetry/dem/geotiff_dem.py:73; see M_Dem.dem_at). *)
Record gtiff_dem := mkGtiffDem { dm_data : option (D * raster flt); dm_gtiff : option nat; dm_nodata : nodata;
  dm_interp : interpolation; dm_proj : option P; dm_ref : option Z }.
Definition new_dem : gtiff_dem := mkGtiffDem None None NoNodata Bilinear None None.
(** The files and the image objects *)
Record dem_world := mkDemWorld { wd_files : files flt G W; wd_images : list (geotiff flt D G P) }.

Inductive dem_op :=
  | SetNearest | SetBilinear | GetInterpolation
  | SetDemProjection (p : P) | GetDemProjection | SetReference (code : Z) | GetReference
  | RemoveNodata (nd : nodata) | SetGeotiff (i : nat)
  | ToGeoid (dst : option text) (grid : text) | ToEllipsoid (dst : option text) (grid : text) | ConvertReference (dst : text) (code : Z)
  | HighestAlt | LowestAlt | MeanAlt.
Inductive dem_answer := Done | IsInterpolation (i : interpolation) | IsProjection (p : P) | IsReference (code : Z) | IsAlt (v : flt).

(* resippy/photogrammetry/dem/geotiff_dem.py:61-67: the attribute is set first; assigning NaN to an array of an integer
   type raises *)
Definition dem_remove_nodata (d : gtiff_dem) (nd : nodata) : gtiff_dem * result dem_answer :=
  let d := mkGtiffDem (dm_data d) (dm_gtiff d) nd (dm_interp d) (dm_proj d) (dm_ref d) in
  match nd, dm_data d with
  | NoNodata, _ => (d, Ok Done)
  | _, None => (d, Ok Done)
  | _, Some (t, r) =>
    if integral t then (d, Err ValueError)
    else (mkGtiffDem (Some (t, mkRaster (r_ny r) (r_nx r) (map (map (map (blank_value nd))) (r_bands r))))
            (dm_gtiff d) nd (dm_interp d) (dm_proj d) (dm_ref d), Ok Done)
  end.

(* resippy/photogrammetry/dem/geotiff_dem.py:69-75: the image is kept before its data is read *)
Definition dem_set_geotiff (w : dem_world) (d : gtiff_dem) (i : nat) : gtiff_dem * result dem_answer :=
  match nth_error (wd_images w) i with
  | None => (d, Err OtherError)                         (* not an object of this world *)
  | Some im =>
    let d := mkGtiffDem (dm_data d) (Some i) (dm_nodata d) (dm_interp d) (dm_proj d) (dm_ref d) in
    match geotiff_read_all from_gdal (wd_files w) im with
    | Err e => (d, Err e)
    | Diverges => (d, Diverges)
    | Ok data =>
      let d := mkGtiffDem (Some data) (Some i) (dm_nodata d) (dm_interp d) (Some (gt_proj im)) (dm_ref d) in
      dem_remove_nodata d (dm_nodata d)
    end
  end.

(** The list with another image at an index *)
Definition set_image (w : dem_world) (i : nat) (im : geotiff flt D G P) : dem_world :=
  mkDemWorld (wd_files w) (upd_nat (wd_images w) i im).

(* resippy/image_objects/earth_overhead/geotiff/geotiff_image.py:146-162.  The new image object is the last of the world.  gdal.Warp that
   fails returns None and writes nothing (GDAL raises no exceptions by default); it refuses to
   write onto the file it reads. *)
Definition gdalwarp_geotiff_image (w : dem_world) (i : nat) (src_srs dst_srs : text) (dst : option text) : dem_world * result nat :=
  match nth_error (wd_images w) i with
  | None => (w, Err OtherError)
  | Some im =>
    let '(im', src) := match gt_src im with Some n => (im, open_dset (wd_files w) (gt_src im)) | None => mem_dataset from_gdal file_store (Fin 0) wkt_of (wd_files w) im end in
    let w := set_image w i im' in
    match src with
    | Err e => (w, Err e)
    | Diverges => (w, Diverges)
    | Ok ds =>
      let name := match dst with Some n => n | None => txt "/vsimem/tmp_gdalwarp_geotiff.vrt" end in
      let same := match gt_src im with Some n => text_eqb n name | None => false end in
      let fs := match (if same then None else gdal_warp ds src_srs dst_srs) with Some out => put (wd_files w) name (Some out) | None => wd_files w end in
      match open_geotiff proj_of fs name with
      | Ok new => (mkDemWorld fs (wd_images w ++ [new]), Ok (length (wd_images w)))
      | Err e => (mkDemWorld fs (wd_images w), Err e)
      | Diverges => (mkDemWorld fs (wd_images w), Diverges)
      end
    end
  end.

(* resippy/photogrammetry/dem/geotiff_dem.py:35-46, 48-59, 27-33.  geoid: the destination has the geoid grid, else the
   source.  The class itself has no point calculator to ask (TypeError). *)
Definition dem_convert (w : dem_world) (d : gtiff_dem) (geoid : bool) (dst : option text) (grid : text) : dem_world * gtiff_dem * result dem_answer :=
  match dm_gtiff d with
  | None => (w, d, Err TypeError)
  | Some i =>
    match nth_error (wd_images w) i with
    | None => (w, d, Err OtherError)
    | Some im =>
      let srs := srs_of (gt_proj im) in
      let srs_grid := srs ++ txt " +geoidgrids=" ++ grid in
      let '(w', r) := gdalwarp_geotiff_image w i (if geoid then srs else srs_grid) (if geoid then srs_grid else srs) dst in
      match r with
      | Err e => (w', d, Err e)
      | Diverges => (w', d, Diverges)
      | Ok j =>
        let w2 := match nth_error (wd_images w') i with Some im' => set_image w' i (close_image im') | None => w' end in
        let '(d', a) := dem_set_geotiff w2 d j in (w2, d', a)
      end
    end
  end.

(** numpy's nanmax, nanmin and nanmean of the data; float(None) is a TypeError *)
Definition all_values (r : raster flt) : list R := flat_map finite_values (r_bands r).
Definition alt_of (d : gtiff_dem) (f : list R -> flt) : result dem_answer :=
  match dm_data d with None => Err TypeError | Some (_, r) => Ok (IsAlt (f (all_values r))) end.
Definition mean_of (l : list R) : flt := match l with [] => NonFinite | _ => Fin (rsum l / INR (length l)) end.

Definition dem_step (w : dem_world) (d : gtiff_dem) (o : dem_op) : dem_world * gtiff_dem * result dem_answer :=
  match o with
  (* resippy/photogrammetry/dem/geotiff_dem.py:18-25 *)
  | SetNearest => (w, mkGtiffDem (dm_data d) (dm_gtiff d) (dm_nodata d) Nearest (dm_proj d) (dm_ref d), Ok Done)
  | SetBilinear => (w, mkGtiffDem (dm_data d) (dm_gtiff d) (dm_nodata d) Bilinear (dm_proj d) (dm_ref d), Ok Done)
  | GetInterpolation => (w, d, Ok (IsInterpolation (dm_interp d)))
  (* resippy/photogrammetry/dem/abstract_dem.py:22-36 *)
  | SetDemProjection p => (w, mkGtiffDem (dm_data d) (dm_gtiff d) (dm_nodata d) (dm_interp d) (Some p) (dm_ref d), Ok Done)
  | GetDemProjection => (w, d, match dm_proj d with Some p => Ok (IsProjection p) | None => Err AttributeError end)
  | SetReference c => (w, mkGtiffDem (dm_data d) (dm_gtiff d) (dm_nodata d) (dm_interp d) (dm_proj d) (Some c), Ok Done)
  | GetReference => (w, d, match dm_ref d with Some c => Ok (IsReference c) | None => Err AttributeError end)
  | RemoveNodata nd => let '(d', a) := dem_remove_nodata d nd in (w, d', a)
  | SetGeotiff i => let '(d', a) := dem_set_geotiff w d i in (w, d', a)
  | ToGeoid dst grid => dem_convert w d true dst grid
  | ToEllipsoid dst grid => dem_convert w d false dst grid
  (* resippy/photogrammetry/dem/geotiff_dem.py:27-33, resippy/image_objects/earth_overhead/geotiff/geotiff_image.py:164-177: the name gdalwarp_geoTiffImage does not
     exist (NameError); before that the class is asked for its point calculator *)
  | ConvertReference dst code => (w, d, match dm_gtiff d with None => Err TypeError | Some _ => Err OtherError end)
  (* resippy/photogrammetry/dem/geotiff_dem.py:142-149 *)
  | HighestAlt => (w, d, alt_of d (fun l => match rmax l with Some m => Fin m | None => NonFinite end))
  | LowestAlt => (w, d, alt_of d (fun l => match rmin l with Some m => Fin m | None => NonFinite end))
  | MeanAlt => (w, d, alt_of d mean_of)
  end.
(** A history of calls, whether or not they raise *)
Definition dem_run (w : dem_world) (d : gtiff_dem) (ops : list dem_op) : dem_world * gtiff_dem :=
  fold_left (fun s o => fst (dem_step (fst s) (snd s) o)) ops (w, d).

(* resippy/photogrammetry/dem/dem_factory.py:9-29: the DEM, in a world that has the opened image as its last object; the
   exception for another interpolation name is created but not raised *)
Definition dem_from_file (w : dem_world) (fname : text) (nodata_value : nodata) (method : text) : dem_world * result gtiff_dem :=
  match open_geotiff proj_of (wd_files w) fname with
  | Err e => (w, Err e)
  | Diverges => (w, Diverges)
  | Ok im =>
    let w := mkDemWorld (wd_files w) (wd_images w ++ [im]) in
    match dem_set_geotiff w new_dem (length (wd_images w) - 1) with
    | (d, Ok _) =>
      let nd := match nodata_value with NoNodata => gt_nodata im | n => n end in
      match dem_remove_nodata d nd with
      | (d, Ok _) =>
        let interp := if text_eqb method (txt "bilinear") then Bilinear else if text_eqb method (txt "nearest") then Nearest else dm_interp d in
        (w, Ok (mkGtiffDem (dm_data d) (dm_gtiff d) (dm_nodata d) interp (dm_proj d) (dm_ref d)))
      | (_, Err e) => (w, Err e)
      | (_, Diverges) => (w, Diverges)
      end
    | (_, Err e) => (w, Err e)
    | (_, Diverges) => (w, Diverges)
    end
  end.
End DemState.
Arguments gtiff_dem : clear implicits. Arguments dem_world : clear implicits. Arguments dem_op : clear implicits. Arguments dem_answer : clear implicits.

(* resippy/photogrammetry/dem/constant_elevation_dem.py:9-34 with resippy/photogrammetry/dem/abstract_dem.py:22-36: a history of a constant DEM *)
Inductive const_op (P : Type) := CSetProjection (p : P) | CGetProjection | CSetReference (code : Z) | CGetReference | CConvertReference (dst : text) (code : Z).
Arguments CSetProjection {P}. Arguments CGetProjection {P}. Arguments CSetReference {P}. Arguments CGetReference {P}. Arguments CConvertReference {P}.
Record const_dem (P : Type) := mkConstDem { cd_elevation : R; cd_proj : option P; cd_ref : option Z }.
Arguments mkConstDem {P}. Arguments cd_elevation {P}. Arguments cd_proj {P}. Arguments cd_ref {P}.
Definition const_step {P} (d : const_dem P) (o : const_op P) : const_dem P * result (dem_answer P) :=
  match o with
  | CSetProjection p => (mkConstDem (cd_elevation d) (Some p) (cd_ref d), Ok Done)
  | CGetProjection => (d, match cd_proj d with Some p => Ok (IsProjection p) | None => Err AttributeError end)
  | CSetReference c => (mkConstDem (cd_elevation d) (cd_proj d) (Some c), Ok Done)
  | CGetReference => (d, match cd_ref d with Some c => Ok (IsReference c) | None => Err AttributeError end)
  | CConvertReference _ _ => (d, Ok Done)
  end.
Definition const_run {P} (elevation : R) (ops : list (const_op P)) : const_dem P :=
  fold_left (fun d o => fst (const_step d o)) ops (mkConstDem elevation None None).
