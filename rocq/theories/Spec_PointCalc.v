(** Specification vocabulary for C35 - C37. *)
From Verif Require Import RAux Text M_Nav Spec_Nav M_PointCalc.  (* the shapes narr, the records request and projection, on_curve *)
Open Scope R_scope.
Open Scope list_scope.

(** A world point: longitude, latitude, altitude *)
Record point := mkPoint { p_lon : flt; p_lat : flt; p_alt : flt }.

(** The array of the same shape with f applied to every element *)
Definition nmap {A B} (f : A -> B) (a : narr A) : narr B :=
  match a with Num x => Num (f x) | Vec xs => Vec (map f xs) | Mat nx rows => Mat nx (map (map f) rows) end.

(** A sensor that projects every point by itself: f is its function of a point and a band,
    and the array version applies it to every element *)
Definition projects_each (native : native_fn) (f : point -> option Z -> flt * flt) : Prop :=
  forall pts band, native (map p_lon pts) (map p_lat pts) (map p_alt pts) band =
    Ok (map (fun p => fst (f p band)) pts, map (fun p => snd (f p band)) pts).
(** pyproj's transform acts on every point by itself: g is its function of a point *)
Definition transforms_each (transform : transform_fn) (g : projection -> projection -> point -> point) : Prop :=
  forall a b pts, transform a b (map p_lon pts) (map p_lat pts) (map p_alt pts) =
    (map (fun p => p_lon (g a b p)) pts, map (fun p => p_lat (g a b p)) pts, map (fun p => p_alt (g a b p)) pts).

(** The point in the sensor's own projection: transformed exactly if a world projection is
    given whose srs differs *)
Definition in_own_projection (g : projection -> projection -> point -> point) (own : projection) (world : option projection)
    (p p' : point) : Prop :=
  match world with
  | None => p' = p
  | Some w => (srs w = srs own -> p' = p) /\ (srs w <> srs own -> p' = g w own p)
  end.

(** Position p reprojects to the requested pixel within the threshold *)
Definition hits (pix : pixel_fn) (threshold : R) (q : request) (p : flt * flt) : Prop :=
  exists x y, pix (fst p) (snd p) (Fin (rq_alt q)) = (Fin x, Fin y) /\
    Rabs (rq_x q - x) <= threshold /\ Rabs (rq_y q - y) <= threshold.

(** A sensor that is affine in longitude and latitude at every altitude, and passes NaN on *)
Record affine := mkAffine { f_x0 : R -> R; f_xlon : R -> R; f_xlat : R -> R; f_y0 : R -> R; f_ylon : R -> R; f_ylat : R -> R }.
Definition affine_sensor (a : affine) (pix : pixel_fn) : Prop :=
  (forall lon lat alt, pix (Fin lon) (Fin lat) (Fin alt) =
     (Fin (f_x0 a alt + f_xlon a alt * lon + f_xlat a alt * lat), Fin (f_y0 a alt + f_ylon a alt * lon + f_ylat a alt * lat))) /\
  (forall lon lat alt, lon = NonFinite \/ lat = NonFinite \/ alt = NonFinite -> pix lon lat alt = (NonFinite, NonFinite)).
(** It can be inverted at an altitude *)
Definition invertible_at (a : affine) (alt : R) : Prop :=
  f_xlon a alt * f_ylat a alt - f_xlat a alt * f_ylon a alt <> 0.

(** A point within the distance rad (sum of both coordinates) of c *)
Definition within (c : R * R) (rad lon lat : R) : Prop := Rabs (lon - fst c) + Rabs (lat - snd c) <= rad.
(** Within rad of c the sensor is finite and, between any two points there, differs from the
    linear map with slopes sx (of x in longitude and latitude) and sy (of y) by at most L per
    unit of distance *)
Definition nearly_affine (pix : pixel_fn) (alt : R) (c : R * R) (rad : R) (sx sy : R * R) (L : R) : Prop :=
  exists fx fy : R -> R -> R,
  (forall lon lat, within c rad lon lat -> pix (Fin lon) (Fin lat) (Fin alt) = (Fin (fx lon lat), Fin (fy lon lat))) /\
  (forall lon lat lon' lat', within c rad lon lat -> within c rad lon' lat' ->
     Rabs (fx lon' lat' - fx lon lat - (fst sx * (lon' - lon) + snd sx * (lat' - lat))) <= L * (Rabs (lon' - lon) + Rabs (lat' - lat)) /\
     Rabs (fy lon' lat' - fy lon lat - (fst sy * (lon' - lon) + snd sy * (lat' - lat))) <= L * (Rabs (lon' - lon) + Rabs (lat' - lat))).
(** The linear map moves the pixel by at least m per unit of distance *)
Definition steep (sx sy : R * R) (m : R) : Prop := forall u v,
  m * (Rabs u + Rabs v) <= Rmax (Rabs (fst sx * u + snd sx * v)) (Rabs (fst sy * u + snd sy * v)).

(** The line of sight: longitude, latitude and altitude at the fraction s of the way from the
    top to the bottom *)
Definition on_ray (top bottom : R * R) (max_alt min_alt s : R) : R * R * R :=
  (fst top + s * (fst bottom - fst top), snd top + s * (snd bottom - snd top), max_alt + s * (min_alt - max_alt)).

(** The terrain profile along a ray: the straight lines between the elevations e at n
    equally spaced fractions *)
Definition fractions (n : nat) : list R := map (fun k => INR k / INR (n - 1)) (seq 0 n).
Definition profile (e : R -> R) (n : nat) (s v : R) : Prop :=
  on_curve (fractions n) (map e (fractions n)) s v.
