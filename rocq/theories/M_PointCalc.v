(** Model of AbstractEarthOverheadPointCalc in
    resippy/image_objects/earth_overhead/earth_overhead_point_calculators/
    abstract_earth_overhead_point_calc.py: the array front end of
    lon_lat_alt_to_pixel_x_y, the iterative solver and the ray caster.  The sensor's own
    projection function, pyproj's transform and the DEM are arguments.  Arithmetic is exact;
    NaN and the infinities are one value NonFinite. *)
From Verif Require Export RAux Text M_Envi M_Nav.
Open Scope R_scope.
Open Scope list_scope.

(** numpy arithmetic on floats *)
Definition fadd : flt -> flt -> flt := fmap2 Rplus.
Definition fsub : flt -> flt -> flt := fmap2 Rminus.
Definition fmul : flt -> flt -> flt := fmap2 Rmult.
Definition fquot (a b : flt) : flt := match a, b with Fin x, Fin y => fdiv x y | _, _ => NonFinite end.

(** A pyproj projection: only its srs text is compared *)
Record projection := mkProjection { srs : text }.

(** The sensor's native projection of 1-d arrays (lons, lats, alts, band), and pyproj's
    transform (from, to, lons, lats, alts) *)
Definition native_fn := list flt -> list flt -> list flt -> option Z -> result (list flt * list flt).
Definition transform_fn := projection -> projection -> list flt -> list flt -> list flt -> list flt * list flt * list flt.

(** numpy reshape to one dimension of length n *)
Definition reshape1 {A} (n : nat) (l : list A) : result (list A) :=
  if Nat.eqb (length l) n then Ok l else Err ValueError.
Definition flat {A} (a : narr A) : list A :=
  match a with Num x => [x] | Vec xs => xs | Mat _ rows => concat rows end.

(* resippy/image_objects/earth_overhead/earth_overhead_point_calculators/abstract_earth_overhead_point_calc.py:122-126: the reprojection and the native call *)
Definition project_1d (transform : transform_fn) (native : native_fn) (own : projection)
    (world : option projection) (band : option Z) (lons lats alts : list flt) : result (list flt * list flt) :=
  let world := match world with None => own | Some w => w end in
  let '(lons, lats, alts) :=
    if text_eqb (srs world) (srs own) then (lons, lats, alts) else transform world own lons lats alts in
  native lons lats alts band.

(* resippy/image_objects/earth_overhead/earth_overhead_point_calculators/abstract_earth_overhead_point_calc.py:99-138 lon_lat_alt_to_pixel_x_y.  A number for one of lons and lats and an array
   for the other, a 2-d array of altitudes or latitudes with 1-d longitudes, and ranks above
   two are not modelled (OtherError). *)
Definition lon_lat_alt_to_pixel_x_y (transform : transform_fn) (native : native_fn) (own : projection)
    (lons lats : narr flt) (alts : option (narr flt)) (world : option projection) (band : option Z)
    : result (narr flt * narr flt) :=
  let alts := match alts with None => Num (Fin 0) | Some a => a end in
  match lons, lats with
  | Num lon, Num lat =>
    alts <- match alts with Num a => Ok [a] | Vec l => Ok l | Mat _ _ => Err OtherError end ;;
    p <- project_1d transform native own world band [lon] [lat] alts ;;
    x <- py_get (fst p) 0 ;; y <- py_get (snd p) 0 ;;
    Ok (Num x, Num y)
  | Vec lons, Vec lats =>
    alts <- match alts with Num a => Ok (map (fun _ => a) lons) | Vec l => Ok l | Mat _ _ => Err OtherError end ;;
    p <- project_1d transform native own world band lons lats alts ;;
    Ok (Vec (fst p), Vec (snd p))
  | Mat nx rows, lats =>
    match lats with
    | Num _ => Err OtherError
    | _ =>
      let ny := length rows in
      alts <- Ok match alts with Num a => map (fun _ => a) (concat rows) | a => flat a end ;;
      lons <- reshape1 (nx * ny) (concat rows) ;;
      lats <- reshape1 (nx * ny) (flat lats) ;;
      alts <- reshape1 (nx * ny) alts ;;
      p <- project_1d transform native own world band lons lats alts ;;
      xs <- reshape2 ny nx (fst p) ;; ys <- reshape2 ny nx (snd p) ;;
      Ok (xs, ys)
    end
  | _, _ => Err OtherError
  end.

(* ------------------------------- solver -------------------------------- *)

(** The projection of one point (lon, lat, alt), as C35 gives it *)
Definition pixel_fn := flt -> flt -> flt -> flt * flt.

(* resippy/image_objects/earth_overhead/earth_overhead_point_calculators/abstract_earth_overhead_point_calc.py:214-221: the powers of two from the machine epsilon 2^-52 up to a quarter of the
   largest float, 2^-52 ... 2^1021 *)
Definition float_nums : list R := map (fun k => 2 ^ k / 2 ^ 52) (seq 0 1074).

(* resippy/image_objects/earth_overhead/earth_overhead_point_calculators/abstract_earth_overhead_point_calc.py:249-256: the first index with a shift of more than one pixel.  A NaN compares
   false; no such index raises IndexError.  The delta is that power of two (in exact
   arithmetic machine_d - approximate is the power itself). *)
Definition first_shift (shift : R -> flt * flt) : result R :=
  match find (fun n => match shift n with (Fin dx, Fin dy) => Rltb 1 (dx * dx + dy * dy) | _ => false end) float_nums with
  | Some n => Ok n
  | None => Err IndexError
  end.
Definition is_nan (x : flt) : bool := match x with NonFinite => true | Fin _ => false end.

(* resippy/image_objects/earth_overhead/earth_overhead_point_calculators/abstract_earth_overhead_point_calc.py:211-256: d_lon and d_lat *)
Definition choose_deltas (pix : pixel_fn) (clon clat : R) (alt : flt) : result (R * R) :=
  let '(x0, y0) := pix (Fin clon) (Fin clat) alt in
  let lon_shift n := let '(x, y) := pix (Fin (clon + n)) (Fin clat) alt in (fsub x x0, fsub y y0) in
  let lat_shift n := let '(x, y) := pix (Fin clon) (Fin (clat + n)) alt in (fsub x x0, fsub y y0) in
  if existsb (fun n => is_nan (fst (lon_shift n))) float_nums then Ok (2, 2)
  else d_lon <- first_shift lon_shift ;; d_lat <- first_shift lat_shift ;; Ok (d_lon, d_lat).

(** One requested pixel: its coordinates and its altitude *)
Record request := mkRequest { rq_x : R; rq_y : R; rq_alt : R }.

(* resippy/image_objects/earth_overhead/earth_overhead_point_calculators/abstract_earth_overhead_point_calc.py:259-279, one pixel: the new (lon, lat) *)
Definition newton (pix : pixel_fn) (d_lon d_lat : R) (q : request) (p : flt * flt) : flt * flt :=
  let '(lon, lat) := p in
  let alt := Fin (rq_alt q) in
  let '(x, y) := pix lon lat alt in
  let '(x_dx, y_dx) := pix (fadd lon (Fin d_lon)) lat alt in
  let '(x_dy, y_dy) := pix lon (fadd lat (Fin d_lat)) alt in
  let pxx := fquot (fsub x_dx x) (Fin d_lon) in
  let pxy := fquot (fsub x_dy x) (Fin d_lat) in
  let pyx := fquot (fsub y_dx y) (Fin d_lon) in
  let pyy := fquot (fsub y_dy y) (Fin d_lat) in
  let delta_px := fsub (Fin (rq_x q)) x in
  let delta_py := fsub (Fin (rq_y q)) y in
  let delta_lat := fquot (fsub (fmul delta_py pxx) (fmul pyx delta_px)) (fsub (fmul pyy pxx) (fmul pxy pyx)) in
  let delta_lon := fquot (fsub delta_px (fmul delta_lat pxy)) pxx in
  (fadd lon delta_lon, fadd lat delta_lat).

(** numpy max of the absolute values: NaN if one is, ValueError for an empty array *)
Fixpoint fmaxabs (l : list flt) : option flt :=
  match l with
  | [] => None
  | x :: r => match fmaxabs r with None => Some (fmap Rabs x) | Some m => Some (fmap2 Rmax (fmap Rabs x) m) end
  end.
Definition fle (x : flt) (b : R) : bool := match x with Fin r => Rleb r b | NonFinite => false end.

(* resippy/image_objects/earth_overhead/earth_overhead_point_calculators/abstract_earth_overhead_point_calc.py:281-290: the test that ends the loop *)
Definition converged (pix : pixel_fn) (threshold : R) (qs : list request) (ps : list (flt * flt)) : result bool :=
  let errs := map2 (fun q p => let '(x, y) := pix (fst p) (snd p) (Fin (rq_alt q)) in
                               (fsub (Fin (rq_x q)) x, fsub (Fin (rq_y q)) y)) qs ps in
  match fmaxabs (map fst errs), fmaxabs (map snd errs) with
  | Some ex, Some ey => Ok (fle ex threshold && fle ey threshold)%bool
  | _, _ => Err ValueError
  end.

(* resippy/image_objects/earth_overhead/earth_overhead_point_calculators/abstract_earth_overhead_point_calc.py:258-290: the loop; max_iter rounds are left *)
Fixpoint solve_loop (pix : pixel_fn) (d_lon d_lat threshold : R) (qs : list request) (max_iter : nat)
    (ps : list (flt * flt)) : result (list (flt * flt)) :=
  match max_iter with
  | O => Ok ps
  | S n =>
    let ps' := map2 (newton pix d_lon d_lat) qs ps in
    stop <- converged pix threshold qs ps' ;;
    if stop then Ok ps' else solve_loop pix d_lon d_lat threshold qs n ps'
  end.

(* resippy/image_objects/earth_overhead/earth_overhead_point_calculators/abstract_earth_overhead_point_calc.py:182-292 with 1-d arrays of pixels; a number for alts has been copied to every
   pixel.  center is the approximate centre (None: TypeError when it is unpacked). *)
Definition solver (pix : pixel_fn) (center : option (R * R)) (deltas : option (R * R)) (threshold : R)
    (max_iter : nat) (qs : list request) : result (list (flt * flt)) :=
  match center with
  | None => Err TypeError
  | Some (clon, clat) =>
    d <- match deltas with
         | Some d => Ok d
         | None => choose_deltas pix clon clat (fdiv (rsum (map rq_alt qs)) (INR (length qs)))   (* np.average *)
         end ;;
    solve_loop pix (fst d) (snd d) threshold qs max_iter (map (fun _ => (Fin clon, Fin clat)) qs)
  end.

(* resippy/image_objects/earth_overhead/earth_overhead_point_calculators/abstract_earth_overhead_point_calc.py:140-180 pixel_x_y_alt_to_lon_lat for 1-d arrays: the native function when the
   calculator has one, the solver otherwise; then the reprojection *)
Definition pixel_x_y_alt_to_lon_lat (transform2 : projection -> projection -> list (flt * flt) -> list (flt * flt))
    (native : option (list request -> result (list (flt * flt)))) (pix : pixel_fn) (own : projection) (center : option (R * R))
    (threshold : R) (max_iter : nat) (qs : list request) (world : option projection) : result (list (flt * flt)) :=
  let world := match world with None => own | Some w => w end in
  ps <- match native with Some f => f qs | None => solver pix center None threshold max_iter qs end ;;
  Ok (if text_eqb (srs world) (srs own) then ps else transform2 own world ps).

(* ------------------------------ ray caster ----------------------------- *)

(** numpy linspace(a, b, n) *)
Definition linspace (a b : R) (n : nat) : list R :=
  match n with
  | O => []
  | S O => [a]
  | _ => map (fun k => a + INR k * ((b - a) / INR (n - 1))) (seq 0 n)
  end.

Definition pixel := (R * R)%type.

(* resippy/image_objects/earth_overhead/earth_overhead_point_calculators/abstract_earth_overhead_point_calc.py:350-352: horizontal length of one ray between (lon, lat) at the top and bottom *)
Definition ray_length (top bottom : R * R) : R :=
  sqrt ((fst top - fst bottom) ^ 2 + (snd top - snd bottom) ^ 2).
(** numpy ceil *)
Definition ceilZ (x : R) : Z := (- Int_part (- x))%Z.
Definition n_steps (lens : list R) (distance : R) : result Z :=
  match rmax lens with
  | None => Err ValueError
  | Some m => if Reqb distance 0 then (if Reqb m 0 then Err ValueError else Err OtherError)   (* int of nan, int of inf *)
              else Ok (ceilZ (m / distance) + 1)%Z
  end.

(* resippy/image_objects/earth_overhead/earth_overhead_point_calculators/abstract_earth_overhead_point_calc.py:365-370, one pixel: the loop runs over the indices backwards *)
Definition fgt (x : flt) (b : R) : bool := match x with Fin r => Rltb b r | NonFinite => false end.
Definition first_intersect (elevations : list flt) (ray : list R) (n : nat) : nat :=
  fold_left (fun acc i => if fgt (nth i elevations NonFinite) (nth i ray 0) then i else acc) (rev (seq 0 n)) 0%nat.

(* resippy/image_objects/earth_overhead/earth_overhead_point_calculators/abstract_earth_overhead_point_calc.py:354-364, 372-391, one pixel *)
Definition cast_one (dem : R -> R -> flt) (max_alt min_alt : R) (n : nat) (top bottom : R * R)
    : result (flt * flt * flt) :=
  let ts := linspace 0 1 n in
  let lons := map (fun t => (fst bottom - fst top) * t + fst top) ts in
  let lats := map (fun t => (snd bottom - snd top) * t + snd top) ts in
  let elevations := map2 dem lons lats in
  let ray := linspace max_alt min_alt n in
  let first := (Z.of_nat (first_intersect elevations ray n) - 1)%Z in
  let second := (first + 1)%Z in
  b_ray <- py_get ray first ;;
  b_alt <- py_get elevations first ;;
  ray1 <- py_get ray 1 ;; ray0 <- py_get ray 0 ;;
  e2 <- py_get elevations second ;;
  let m_alt := fsub e2 b_alt in
  let x := fquot (fsub b_alt (Fin b_ray)) (fsub (Fin (ray1 - ray0)) m_alt) in
  lon2 <- py_get lons second ;; lon1 <- py_get lons first ;;
  lat2 <- py_get lats second ;; lat1 <- py_get lats first ;;
  Ok (fadd (fmul (Fin (lon2 - lon1)) x) (Fin lon1), fadd (fmul (Fin (lat2 - lat1)) x) (Fin lat1),
      fadd (fmul m_alt x) b_alt).

(* resippy/image_objects/earth_overhead/earth_overhead_point_calculators/abstract_earth_overhead_point_calc.py:294-398 for 1-d pixels.  ground gives lon, lat of a pixel at an altitude
   (pixel_x_y_alt_to_lon_lat).  highest and lowest are the arguments or the DEM's own. *)
Definition ray_caster (ground : pixel -> R -> R * R) (dem : R -> R -> flt) (highest lowest distance : R)
    (pixels : list pixel) : result (list (flt * flt * flt)) :=
  let alt_range := highest - lowest in
  let max_alt := highest + alt_range * (1 / 100) in
  let min_alt := lowest - alt_range * (1 / 100) in
  let tops := map (fun p => ground p max_alt) pixels in
  let bottoms := map (fun p => ground p min_alt) pixels in
  n <- n_steps (map2 ray_length tops bottoms) distance ;;
  if (n <? 0)%Z then Err ValueError else
  mapM (fun tb => cast_one dem max_alt min_alt (Z.to_nat n) (fst tb) (snd tb)) (combine tops bottoms).

(* resippy/image_objects/earth_overhead/earth_overhead_point_calculators/abstract_earth_overhead_point_calc.py:320-328, 393-398: numbers have no len; 2-d arrays are flattened and the three
   results unflattened *)
Definition ray_caster_nd (ground : pixel -> R -> R * R) (dem : R -> R -> flt) (highest lowest distance : R)
    (pixels : narr pixel) : result (narr (flt * flt * flt)) :=
  match pixels with
  | Num _ => Err TypeError
  | Vec ps => r <- ray_caster ground dem highest lowest distance ps ;; Ok (Vec r)
  | Mat nx rows =>
    r <- ray_caster ground dem highest lowest distance (concat rows) ;; reshape2 (length rows) nx r
  end.

(* resippy/image_objects/earth_overhead/earth_overhead_point_calculators/abstract_earth_overhead_point_calc.py:401-444: default sample distance; the reprojection of lon and lat (1-d) *)
Definition pixel_x_y_to_lon_lat_alt (transform2 : projection -> projection -> flt * flt -> flt * flt) (own : projection)
    (ground : pixel -> R -> R * R) (dem : R -> R -> flt) (highest lowest : R) (distance : option R) (world : option projection)
    (pixels : list pixel) : result (list (flt * flt * flt)) :=
  let distance := match distance with None => 5 | Some d => d end in
  let world := match world with None => own | Some w => w end in
  r <- ray_caster ground dem highest lowest distance pixels ;;
  Ok (if text_eqb (srs world) (srs own) then r
      else map (fun p => let '(lon, lat, alt) := p in (transform2 own world (lon, lat), alt)) r).
