(** Model of the digital elevation models in resippy/photogrammetry/dem/
    (constant_elevation_dem.py, geotiff_dem.py, dem_factory.py), of igm_point_calc.py and of
    earth_overhead_sensor_model.py in
    resippy/image_objects/earth_overhead/earth_overhead_point_calculators/.
    Exact real arithmetic; NaN is NonFinite. *)
From Verif Require Export RAux Text M_Nav M_Photo M_PointCalc.
Open Scope R_scope.
Open Scope list_scope.

(* --------------------- constant_elevation_dem.py --------------------- *)

Definition narr_map {A B} (f : A -> B) (a : narr A) : narr B :=
  match a with Num x => Num (f x) | Vec xs => Vec (map f xs) | Mat nx rows => Mat nx (map (map f) rows) end.

(* resippy/photogrammetry/dem/constant_elevation_dem.py:13-18: zeros of the shape of world_x plus the elevation *)
Definition constant_elevations (elevation : R) (world_x : narr R) : narr R := narr_map (fun _ => 0 + elevation) world_x.
(* resippy/photogrammetry/dem/constant_elevation_dem.py:20-27 *)
Definition constant_highest (elevation : R) : R := elevation.
Definition constant_lowest (elevation : R) : R := elevation.
Definition constant_mean (elevation : R) : R := elevation.

(* --------------------------- geotiff_dem.py -------------------------- *)

Inductive interpolation := Nearest | Bilinear.
Record gdem := mkGdem { gd_data : list (list flt); gd_nx : Z; gd_ny : Z; gd_nodata : option R; gd_interp : interpolation }.

(* resippy/photogrammetry/dem/geotiff_dem.py:61-67: a nodata value becomes NaN *)
Definition remove_nodata (nodata : option R) (data : list (list flt)) : list (list flt) :=
  match nodata with
  | None => data
  | Some v => map (map (fun x => match x with Fin r => if Reqb r v then NonFinite else x | NonFinite => x end)) data
  end.
(* resippy/photogrammetry/dem/geotiff_dem.py:12-22, 61-67, 69-76; resippy/photogrammetry/dem/dem_factory.py:9-29.  The file's band is data (ny rows
   of nx values), its nodata entry file_nodata; integral says that the band has an integer
   type, which cannot hold NaN (numpy raises ValueError even if no pixel has the nodata value).
   The factory's branch for another interpolation name creates an exception without raising
   it: the default stays. *)
Definition from_gtiff_file (integral : bool) (data : list (list flt)) (nx ny : Z) (file_nodata : option R) (nodata : option R) (method : text) : result gdem :=
  let nodata := match nodata with None => file_nodata | Some v => Some v end in
  match nodata, integral with
  | Some _, true => Err ValueError
  | _, _ => Ok (mkGdem (remove_nodata nodata data) nx ny nodata (if text_eqb method (txt "nearest") then Nearest else Bilinear))
  end.

(** dem_data[y, x]: numpy.squeeze (resippy/photogrammetry/dem/geotiff_dem.py:73) has removed the axes of length one, so
    that two indices are too many for a DEM with a single row or column *)
Definition dem_at (d : gdem) (y x : Z) : result flt :=
  if ((gd_nx d =? 1) || (gd_ny d =? 1))%Z%bool then Err IndexError
  else row <- py_get (gd_data d) y ;; py_get row x.
(** numpy clip *)
Definition zclip (v lo hi : Z) : Z := Z.min (Z.max v lo) hi.

(* resippy/photogrammetry/dem/geotiff_dem.py:99-102, one pixel location; astype(int) truncates *)
Definition nearest_at (d : gdem) (loc : R * R) : result flt :=
  let x := zclip (truncZ (fst loc)) 0 (gd_nx d - 1) in
  let y := zclip (truncZ (snd loc)) 0 (gd_ny d - 1) in
  dem_at d y x.

(* resippy/photogrammetry/dem/geotiff_dem.py:103-129, one pixel location; numpy.average raises ZeroDivisionError when the
   weights sum to zero *)
Definition bilinear_at (d : gdem) (loc : R * R) : result flt :=
  let '(px, py) := loc in
  let x1 := zclip (truncZ px) 0 (gd_nx d - 1) in
  let y1 := zclip (truncZ py) 0 (gd_ny d - 1) in
  let x2 := zclip (ceilZ px) 0 (gd_nx d - 1) in
  let y2 := zclip (ceilZ py) 0 (gd_ny d - 1) in
  e11 <- dem_at d y1 x1 ;; e12 <- dem_at d y1 x2 ;; e21 <- dem_at d y2 x1 ;; e22 <- dem_at d y2 x2 ;;
  let xd1 := px - IZR x1 in let xd2 := IZR x2 - px in
  let yd1 := py - IZR y1 in let yd2 := IZR y2 - py in
  let d11 := sqrt (yd1 ^ 2 + xd1 ^ 2) in
  let d12 := sqrt (yd1 ^ 2 + xd2 ^ 2) in
  let d21 := sqrt (yd2 ^ 2 + xd1 ^ 2) in
  let d22 := sqrt (yd2 ^ 2 + xd2 ^ 2) in
  let scl := d11 + d12 + d21 + d22 in
  if Reqb scl 0 then Err ZeroDivisionError else
  Ok (fmap (fun s => s / scl)
        (fadd (fadd (fadd (fmul e11 (Fin d11)) (fmul e12 (Fin d12))) (fmul e21 (Fin d21))) (fmul e22 (Fin d22)))).

(* resippy/photogrammetry/dem/geotiff_dem.py:77-140.  to_pixel is the geotiff calculator on one point (C34, C35).  A
   1-d array of one element is squeezed to a number (139). *)
Definition gtiff_elevation (d : gdem) (loc : R * R) : result flt :=
  match gd_interp d with Nearest => nearest_at d loc | Bilinear => bilinear_at d loc end.
Definition get_elevations (d : gdem) (to_pixel : R * R -> R * R) (world : narr (R * R)) : result (narr flt) :=
  match world with
  | Num w => e <- gtiff_elevation d (to_pixel w) ;; Ok (Num e)
  | Vec ws =>
    es <- mapM (fun w => gtiff_elevation d (to_pixel w)) ws ;;
    Ok match es with [e] => Num e | _ => Vec es end
  | Mat nx rows =>
    es <- mapM (fun w => gtiff_elevation d (to_pixel w)) (concat rows) ;;
    reshape2 (length rows) nx es
  end.

(** The finite values of the data *)
Definition finite_values (data : list (list flt)) : list R :=
  concat (map (fun x => match x with Fin r => [r] | NonFinite => [] end) (concat data)).
(* resippy/photogrammetry/dem/geotiff_dem.py:142-146: nanmax and nanmin (NaN with a warning if all values are NaN) *)
Definition get_highest_alt (d : gdem) : flt := match rmax (finite_values (gd_data d)) with Some m => Fin m | None => NonFinite end.
Definition get_lowest_alt (d : gdem) : flt := match rmin (finite_values (gd_data d)) with Some m => Fin m | None => NonFinite end.

(* -------------------------- igm_point_calc.py ------------------------- *)

Inductive alt_input := AltNumber (a : R) | AltArray (rows : list (list R)).
Record igm := mkIgm { igm_lons : list (list R); igm_lats : list (list R); igm_alts : list (list R); igm_nx : nat; igm_ny : nat;
                      igm_center : R * R }.

Definition grid_get {A} (a : list (list A)) (y x : Z) : result A := row <- py_get a y ;; py_get row x.

(* resippy/image_objects/earth_overhead/earth_overhead_point_calculators/igm_point_calc.py:14-34; a numeric altitude becomes an image of zeros *)
Definition igm_init (lons lats : list (list R)) (alts : alt_input) : result igm :=
  let ny := length lons in
  let nx := match lons with [] => 0%nat | r :: _ => length r end in
  let alts := match alts with AltNumber _ => map (map (fun _ => 0)) lons | AltArray rows => rows end in
  lon <- grid_get lons (Z.of_nat ny / 2)%Z (Z.of_nat nx / 2)%Z ;;
  lat <- grid_get lats (Z.of_nat ny / 2)%Z (Z.of_nat nx / 2)%Z ;;
  Ok (mkIgm lons lats alts nx ny (lon, lat)).

(* resippy/image_objects/earth_overhead/earth_overhead_point_calculators/igm_point_calc.py:48-49, one pixel *)
Definition igm_pixel_to_lon_lat (g : igm) (x y : Z) : result (R * R) :=
  lon <- grid_get (igm_lons g) y x ;; lat <- grid_get (igm_lats g) y x ;; Ok (lon, lat).

(** scipy's cKDTree.query of one point for six neighbours: distances and flat indices *)
Definition kd_query := list (R * R) -> R * R -> list (R * nat).

(* resippy/image_objects/earth_overhead/earth_overhead_point_calculators/igm_point_calc.py:51-69, one point; isclose(d, 0) is |d| <= 1e-8.  unravel_index raises
   ValueError for an index outside the image (scipy's padding when there are fewer than six
   nodes). *)
Definition igm_weight (d : R) : R := 1 / (if Rleb (Rabs d) (1 / 100000000) then 1 / 100000000 else d).
Definition igm_lon_lat_to_pixel (kd : kd_query) (g : igm) (p : R * R) : result (flt * flt) :=
  let nodes := combine (concat (igm_lons g)) (concat (igm_lats g)) in
  let nb := kd nodes p in
  if forallb (fun di => Nat.ltb (snd di) (igm_ny g * igm_nx g)) nb then
    let w := rsum (map (fun di => igm_weight (fst di)) nb) in
    Ok (fdiv (rsum (map (fun di => igm_weight (fst di) * INR (snd di mod igm_nx g)) nb)) w,
        fdiv (rsum (map (fun di => igm_weight (fst di) * INR (snd di / igm_nx g)) nb)) w)
  else Err ValueError.

(* ------------------- earth_overhead_sensor_model.py ------------------- *)

(** Calculators are objects: numbers; the heap holds each one's projection.  The list given
    to set_point_calcs is not changed by the caller afterwards (not modelled). *)
Record sensor := mkSensor { sm_calcs : list nat; sm_proj : option projection; sm_heap : nat -> option projection }.
Inductive sm_op := AddCalc (c : nat) | UpdateCalc (i : Z) (c : nat) | SetCalcs (cs : list nat) | SetProjection (p : projection).

(* resippy/image_objects/earth_overhead/earth_overhead_point_calculators/earth_overhead_sensor_model.py:36-40, 47-65 *)
Definition sm_step (s : sensor) (o : sm_op) : result sensor :=
  match o with
  | AddCalc c => Ok (mkSensor (sm_calcs s ++ [c]) (sm_proj s) (sm_heap s))
  | UpdateCalc i c => l <- py_set (sm_calcs s) i c ;; Ok (mkSensor l (sm_proj s) (sm_heap s))
  | SetCalcs cs => Ok (mkSensor cs (sm_proj s) (sm_heap s))
  | SetProjection p =>
    Ok (mkSensor (sm_calcs s) (Some p) (fold_left (fun h c => fun k => if Nat.eqb k c then Some p else h k) (sm_calcs s) (sm_heap s)))
  end.
(** A history; an exception leaves the state as it was *)
Definition sm_run (heap : nat -> option projection) (ops : list sm_op) : sensor :=
  fold_left (fun s o => match sm_step s o with Ok s' => s' | _ => s end) ops (mkSensor [] None heap).

(* resippy/image_objects/earth_overhead/earth_overhead_point_calculators/earth_overhead_sensor_model.py:14-34: the calculator that answers, None for a band at or
   beyond the end, TypeError for no band *)
Definition sm_dispatch (s : sensor) (band : option Z) : result (option nat) :=
  match band with
  | None => Err TypeError
  | Some b => if (b <? zlen (sm_calcs s))%Z then c <- py_get (sm_calcs s) b ;; Ok (Some c) else Ok None
  end.
(* resippy/image_objects/earth_overhead/earth_overhead_point_calculators/earth_overhead_sensor_model.py:67-74 *)
Definition sm_get_calc (s : sensor) (i : Z) : result nat := py_get (sm_calcs s) i.
Definition sm_num_calcs (s : sensor) : nat := length (sm_calcs s).
