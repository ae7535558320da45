(** Model of resippy/photogrammetry/ortho_tools.py, resippy/utils/geom_utils.py and of the
    state of image objects (resippy/image_objects/abstract_image.py,
    abstract_image_metadata.py).  Exact real arithmetic; NaN is NonFinite. *)
From Verif Require Export RAux Text M_Envi M_Image M_Photo M_PointCalc.
Open Scope R_scope.
Open Scope list_scope.

(* --------------------------- get_pixel_values ------------------------- *)

(** numpy.round: to the nearest integer, ties to even *)
Definition round_even (x : R) : Z :=
  let f := Int_part x in
  if Rltb (x - IZR f) (1 / 2) then f
  else if Rltb (1 / 2) (x - IZR f) then (f + 1)%Z
  else if Z.even f then f else (f + 1)%Z.

(** pix_win != nodata: every pixel differs from None, and NaN from every number *)
Definition differs (nodata : option R) (v : flt) : bool :=
  match nodata, v with Some n, Fin r => negb (Reqb r n) | _, _ => true end.
(** numpy.mean: NaN (with a warning) for no values *)
Fixpoint fsum (l : list flt) : flt := match l with [] => Fin 0 | x :: r => fadd x (fsum r) end.
Definition fmean (l : list flt) : flt := match l with [] => NonFinite | _ => fmap (fun s => s / INR (length l)) (fsum l) end.

(* resippy/photogrammetry/ortho_tools.py:37 *)
Definition half_window (window : Z) : Z := round_even (IZR window / 2).
(* resippy/photogrammetry/ortho_tools.py:42-54, one band and one location.  Slices never raise IndexError: the
   handler (53-54) is not reached. *)
Definition pixel_value (img : list (list flt)) (nodata : option R) (window : Z) (loc : R * R) : flt :=
  let wh := half_window window in
  let X := round_even (fst loc) in let Y := round_even (snd loc) in
  let win := map (fun row => py_slice row (X - wh) (X + wh)) (py_slice img (Y - wh) (Y + wh)) in
  fmean (filter (differs nodata) (concat win)).
(* resippy/photogrammetry/ortho_tools.py:29-58; locate gives the pixel location of a ground point for a band *)
Definition get_pixel_values (images : list (list (list flt))) (nodata : option R) (locate : nat -> R * R * R -> R * R)
    (window : Z) (points : list (R * R * R)) : list (list flt) :=
  mapi (fun band img => map (fun p => pixel_value img nodata window (locate band p)) points) images.

(* -------------------------- get_pixel_lon_lats ------------------------ *)

(** A sensor: the ground position of a pixel at an altitude, per band.  A DEM: its elevation
    at a position, and its highest altitude. *)
Definition sensor_fn := nat -> R * R -> R -> R * R.
Record dem_fn := mkDemFn { df_elev : R * R -> R; df_highest : R }.
Definition constant_dem (e : R) : dem_fn := mkDemFn (fun _ => e) e.

(* resippy/photogrammetry/ortho_tools.py:62-89, one pixel *)
Definition pixel_lon_lat (ground : sensor_fn) (dem : option dem_fn) (band : nat) (p : R * R) : R * R :=
  let dem := match dem with Some d => d | None => constant_dem 0 end in
  let alts := df_highest dem in
  let alt_diff := alts - df_elev dem (ground band p alts) in
  let new_alts := alts - alt_diff in
  ground band p new_alts.

(* ------------------------------ get_extent ---------------------------- *)

(* resippy/photogrammetry/ortho_tools.py:341-345: first row, last column, last row, first column *)
Definition border_pixels (nx ny : nat) : result (list (Z * Z)) :=
  let xx := map (fun _ => zrange 0 (Z.of_nat nx)) (zrange 0 (Z.of_nat ny)) in
  let yy := map (fun y => map (fun _ => y) (zrange 0 (Z.of_nat nx))) (zrange 0 (Z.of_nat ny)) in
  x1 <- py_get xx 0 ;; x2 <- mapM (fun r => py_get r (-1)) xx ;; x3 <- py_get xx (-1) ;; x4 <- mapM (fun r => py_get r 0) xx ;;
  y1 <- py_get yy 0 ;; y2 <- mapM (fun r => py_get r (-1)) yy ;; y3 <- py_get yy (-1) ;; y4 <- mapM (fun r => py_get r 0) yy ;;
  Ok (combine (x1 ++ x2 ++ x3 ++ x4) (y1 ++ y2 ++ y3 ++ y4)).

(** bands argument: None, a number or a list *)
Inductive bands_arg := AllBands | OneBand (b : nat) | BandList (l : list nat).
(* resippy/photogrammetry/ortho_tools.py:321-376; outline is shapely's convex hull of the points simplified with
   tolerance 0.001, given by its vertices *)
Definition get_extent (outline : list (R * R) -> list (R * R)) (coregistered : bool) (nx ny n_bands : nat)
    (ground : sensor_fn) (dem : option dem_fn) (bands : bands_arg) : result (list (R * R)) :=
  border <- border_pixels nx ny ;;
  let border := map (fun p => (IZR (fst p), IZR (snd p))) border in
  let bands := match bands with AllBands => seq 0 n_bands | OneBand b => [b] | BandList l => l end in
  let pts := if coregistered then map (pixel_lon_lat ground dem 0) border
             else concat (map (fun b => map (pixel_lon_lat ground dem b) border) bands) in
  Ok (outline pts).
(** shapely's bounds: of the vertices *)
Definition bounds (poly : list (R * R)) : option (R * R * R * R) :=
  match rmin (map fst poly), rmin (map snd poly), rmax (map fst poly), rmax (map snd poly) with
  | Some a, Some b, Some c, Some d => Some (a, b, c, d)
  | _, _, _, _ => None
  end.

(* ------------------------------ mask_image ---------------------------- *)

(** An image is rows of pixels, a pixel its band values.  store converts a number to the
    image's data type. *)
(* resippy/photogrammetry/ortho_tools.py:158-175; layer == nodata_val is false for NaN *)
Definition same_value (a b : flt) : bool := match a, b with Fin x, Fin y => Reqb x y | _, _ => false end.
Definition mask_image (store : R -> flt) (image : list (list (list flt))) (nodata : flt) : result (list (list (list flt))) :=
  mapM (mapM (fun px =>
    layer <- py_get px 0 ;;
    let alpha := layer in
    let alpha := if same_value layer nodata then store 0 else alpha in
    let alpha := if same_value layer nodata then alpha else store 255 in
    Ok (px ++ [alpha]))) image.

(* ------------------ create_ortho_gtiff_image_world_to_sensor ---------- *)

(** The image: whether its bands are coregistered, whether its data is loaded, its size, its
    bands as get_image_band and read_band_from_disk return them, the data type *)
Record overhead := mkOverhead {
  ov_coregistered : bool; ov_loaded : bool; ov_nx : Z; ov_ny : Z;
  ov_band : nat -> list (list flt); ov_n_bands : nat; ov_store : flt -> flt;
  ov_locate : nat -> R * R * R -> R * R }.
Definition masked_out (img : overhead) (nodata : flt) (loc : R * R) (v : flt) : flt :=
  if (Rleb (fst loc) 0 || Rleb (IZR (ov_nx img - 2)) (fst loc) || Rleb (snd loc) 0 || Rleb (IZR (ov_ny img - 2)) (snd loc))%bool
  then ov_store img nodata else v.
(* resippy/photogrammetry/ortho_tools.py:178-255.  sample is scipy's map_coordinates at one location (order fixed).
   A coregistered image whose data is not loaded fails in get_image_band (224): subscript of
   None.  The result: per band the ortho band, and the geotransform. *)
Definition create_ortho (sample : list (list flt) -> R * R -> flt) (img : overhead) (nx ny : nat)
    (minx miny maxx maxy : R) (dem : option (R * R -> R)) (bands : option (list nat)) (nodata : flt)
  : result (list (band flt) * list R) :=
  g <- create_ground_grid minx maxx miny maxy (Z.of_nat nx) (Z.of_nat ny) ;;
  let geo_t := world_poly_to_geo_t minx miny maxx maxy (Z.of_nat nx) (Z.of_nat ny) in
  let elev := match dem with Some d => d | None => fun _ => 0 end in
  let points := map (fun q => map (fun p => (p, elev p)) q) (map2 (fun xs ys => combine xs ys) (fst g) (snd g)) in
  let bands := match bands with Some l => l | None => seq 0 (ov_n_bands img) end in
  images <- mapM (fun b =>
    if ov_coregistered img then
      if ov_loaded img then
        let locs := map (map (ov_locate img 0)) points in
        flat <- unflatten_image_band (map (sample (ov_band img b)) (concat locs)) nx ny ;;
        let vals := map (map (ov_store img)) (b_rows flat) in
        Ok (mkBand ny nx (map2 (map2 (masked_out img nodata)) locs vals))
      else Err TypeError
    else
      let locs := map (map (ov_locate img b)) points in
      flat <- unflatten_image_band (map (sample (ov_band img b)) (concat locs)) nx ny ;;
      Ok (mkBand ny nx (map (map (ov_store img)) (b_rows flat)))) bands ;;
  (* 245: numpy.stack of no arrays *)
  match images with [] => Err ValueError | _ => Ok (images, geo_t) end.

(* ----------------- create_full_ortho_gtiff_image: sizes --------------- *)

(* resippy/photogrammetry/ortho_tools.py:121-144.  to_local is the transformation to the local UTM zone of the
   extent's corner; extent is given by its bounds.  The differences are numpy numbers: a zero gsd gives
   int(inf), an OverflowError, or int(nan), a ValueError. *)
Definition full_ortho_gsd (to_local : R * R -> R * R) (nx ny : nat) (ground : sensor_fn) (dem : option dem_fn) (band : nat) (gsd : option R) : R :=
  match gsd with
  | Some g => g
  | None =>
    let at_ px := to_local (pixel_lon_lat ground dem band px) in
    let '(x0, y0) := at_ (0, 0) in let '(x1, y1) := at_ (INR nx - 1, 0) in let '(x2, y2) := at_ (0, INR ny - 1) in
    let along_x := sqrt ((x1 - x0) ^ 2 + (y1 - y0) ^ 2) in
    let along_y := sqrt ((x2 - x0) ^ 2 + (y2 - y0) ^ 2) in
    (along_x / INR nx + along_y / INR ny) / 2
  end.
Definition full_ortho_size (extent : R * R * R * R) (gsd : R) : result (Z * Z) :=
  let '(minx, miny, maxx, maxy) := extent in
  if Reqb gsd 0 then (if Reqb maxx minx then Err ValueError else Err OtherError)
  else Ok (truncZ (Rabs (maxx - minx) / gsd), truncZ (Rabs (maxy - miny) / gsd)).

(* resippy/photogrammetry/ortho_tools.py:113-156.  The extent of no points has no bounds: IndexError. *)
Definition create_full_ortho (outline : list (R * R) -> list (R * R)) (to_local : R * R -> R * R) (sample : list (list flt) -> R * R -> flt)
    (img : overhead) (ground : sensor_fn) (dem : option dem_fn) (bands : option (list nat)) (gsd : option R) (nodata : flt)
  : result (list (band flt) * list R) :=
  extent <- get_extent outline (ov_coregistered img) (Z.to_nat (ov_nx img)) (Z.to_nat (ov_ny img)) (ov_n_bands img) ground dem
              (match bands with None => AllBands | Some l => BandList l end) ;;
  match bounds extent with
  | None => Err IndexError
  | Some b =>
    let gsd := full_ortho_gsd to_local (Z.to_nat (ov_nx img)) (Z.to_nat (ov_ny img)) ground dem
                 (match bands with Some (b :: _) => b | _ => 0%nat end) gsd in
    size <- full_ortho_size b gsd ;;
    let '(minx, miny, maxx, maxy) := b in
    create_ortho sample img (Z.to_nat (fst size)) (Z.to_nat (snd size)) minx miny maxx maxy (option_map df_elev dem) bands nodata
  end.

(* -------------------- are_pixels_obstructed_by_dem -------------------- *)

(** One pixel: its ground position and altitude, and its position at the highest altitude *)
Record sight := mkSight { s_lon : R; s_lat : R; s_alt : R; s_lon_h : R; s_lat_h : R; s_alt_h : R }.
Definition lon_diff (s : sight) : R := s_lon s - s_lon_h s.
Definition lat_diff (s : sight) : R := s_lat s - s_lat_h s.
Definition fgt (a : flt) (b : R) : bool := match a with Fin x => Rltb b x | NonFinite => false end.
(* resippy/photogrammetry/ortho_tools.py:401-413.  numpy.arange(1, n) has max(0, ceil(n - 1)) elements. *)
Definition horizontal (s : sight) : R := sqrt ((lon_diff s + lat_diff s) ^ 2).
Definition march (dem : R * R -> flt) (resolution : R) (sights : list sight) : result (list R) :=
  match rmax (map horizontal sights) with
  | None => Err ValueError
  | Some m =>
    if Reqb resolution 0 then Err ValueError else   (* arange up to inf or nan *)
    let n := m / resolution in
    let steps := map (fun k => 1 + INR k) (seq 0 (Z.to_nat (ceilZ (n - 1)))) in
    Ok (fold_left (fun mask step =>
          map2 (fun s v =>
            let test := dem (s_lon s + lon_diff s * step / n, s_lat s + lat_diff s * step / n) in
            let height := s_alt s + (s_alt_h s - s_alt s) * step / n in
            if fgt test height then 1 else v) sights mask)
        steps (map (fun _ => 0) sights))
  end.
(* resippy/photogrammetry/ortho_tools.py:389-400.  integer_pixels: the pixel array has an integer type, and so has
   zeros_like of it: the altitude stored in it is truncated. *)
Definition are_pixels_obstructed (ground : R * R -> R -> R * R) (integer_pixels : bool) (dem : R * R -> flt) (highest : R)
    (resolution : option R) (pixels : list (R * R)) (points : list (R * R)) (alts : list R) : result (list R) :=
  let resolution := match resolution with None => 5 | Some r => r end in
  let top := highest + 1 / 1000 in
  let top := if integer_pixels then IZR (truncZ top) else top in
  march dem resolution
    (map2 (fun p qa => let h := ground p top in mkSight (fst (fst qa)) (snd (fst qa)) (snd qa) (fst h) (snd h) top)
       pixels (combine points alts)).

(* ----------------------------- geom_utils.py -------------------------- *)

(* resippy/utils/geom_utils.py:7-14; envelope is shapely's MultiPoint.envelope, given by its bounds *)
Definition bounds_2_shapely_polygon (envelope : list (R * R) -> R * R * R * R) (min_x max_x max_y min_y : R) : R * R * R * R :=
  let points := [(min_x, max_y); (max_x, min_y)] in
  envelope points.

(* --------------------- image objects and metadata --------------------- *)

(* resippy/image_objects/abstract_image_metadata.py:24-112: the keys of the dictionary; values are arbitrary *)
Inductive field := ImageName | NpixX | NpixY | NBands | NodataVal.
Definition field_key (f : field) : text :=
  match f with ImageName => txt "img_name" | NpixX => txt "npix_x" | NpixY => txt "npix_y" | NBands => txt "n_bands" | NodataVal => txt "nodata_val" end.

(* resippy/image_objects/abstract_image_metadata.py:15-22, 53-112; none is the value None *)
Definition metadata_init {V} (none : V) : dict V := dict_set [] (field_key NodataVal) none.
Definition metadata_run {V} (none : V) (ops : list (field * V)) : dict V :=
  fold_left (fun d fv => dict_set d (field_key (fst fv)) (snd fv)) ops (metadata_init none).
(* resippy/image_objects/abstract_image_metadata.py:24-51, 106-112 *)
Definition metadata_get {V} (d : dict V) (f : field) : result V := dict_get d (field_key f).

(** The values of a band: ny rows of nx.  An image data array: its bands and the conversion
    to its data type.  Arrays are shared by reference: the heap. *)
Record array3 (V : Type) := mkArray { a_ny : nat; a_nx : nat; a_bands : list (list (list V)); a_store : V -> V }.
Arguments mkArray {V}. Arguments a_ny {V}. Arguments a_nx {V}. Arguments a_bands {V}. Arguments a_store {V}.
(** Image objects are numbers; each refers to an array or to none *)
Record world (V : Type) := mkWorld { w_heap : nat -> array3 V; w_img : nat -> option nat }.
Arguments mkWorld {V}. Arguments w_heap {V}. Arguments w_img {V}.
Inductive image_op (V : Type) := SetImageData (o a : nat) | SetImageBand (o : nat) (data : list (list V)) (b : Z).
Arguments SetImageData {V}. Arguments SetImageBand {V}.

Definition upd {A} (f : nat -> A) (k : nat) (v : A) : nat -> A := fun j => if Nat.eqb j k then v else f j.
Definition is_band {V} (ny nx : nat) (data : list (list V)) : bool :=
  (Nat.eqb (length data) ny && forallb (fun r => Nat.eqb (length r) nx) data)%bool.
(* resippy/image_objects/abstract_image.py:48-56, 94-104.  Simplified: data of another shape is an error (numpy
   broadcasting is not modelled). *)
Definition image_step {V} (w : world V) (op : image_op V) : result (world V) :=
  match op with
  | SetImageData o a => Ok (mkWorld (w_heap w) (upd (w_img w) o (Some a)))
  | SetImageBand o data b =>
    match w_img w o with
    | None => Err TypeError
    | Some a =>
      let arr := w_heap w a in
      match py_index (zlen (a_bands arr)) b with
      | None => Err IndexError
      | Some k =>
        if is_band (a_ny arr) (a_nx arr) data then
          Ok (mkWorld (upd (w_heap w) a (mkArray (a_ny arr) (a_nx arr) (upd_nat (a_bands arr) k (map (map (a_store arr)) data)) (a_store arr))) (w_img w))
        else Err ValueError
      end
    end
  end.
(** A history; an exception leaves the state as it was *)
Definition image_run {V} (heap : nat -> array3 V) (ops : list (image_op V)) : world V :=
  fold_left (fun w op => match image_step w op with Ok w' => w' | _ => w end) ops (mkWorld heap (fun _ => None)).
(* resippy/image_objects/abstract_image.py:84-92 *)
Definition get_image_band {V} (w : world V) (o : nat) (b : Z) : result (list (list V)) :=
  match w_img w o with
  | None => Err TypeError
  | Some a => py_get (a_bands (w_heap w a)) b
  end.
