(** Specification vocabulary for C50 - C54, C60, C69 and C70. *)
From Verif Require Import RAux Text M_Image M_PointCalc M_Ortho Spec_Photo.  (* the records band, sight, overhead, array3; the operations *)
Open Scope R_scope.
Open Scope list_scope.

(** Element in row r, column c of a raster of ny rows of nx *)
Definition raster_at {A} (a : list (list A)) (r c : nat) : option A :=
  match nth_error a r with Some row => nth_error row c | None => None end.
Definition raster {A} (a : list (list A)) (ny nx : nat) : Prop := length a = ny /\ Forall (fun row => length row = nx) a.

(* ---- C50 ---- *)
Definition field_eqb (f g : field) : bool :=
  match f, g with ImageName, ImageName | NpixX, NpixX | NpixY, NpixY | NBands, NBands | NodataVal, NodataVal => true | _, _ => false end.
(** The value last set for a field *)
Definition gives_field {V} (f : field) (op : field * V) : option V := if field_eqb (fst op) f then Some (snd op) else None.
(** The array an image object refers to after a history *)
Definition gives_data {V} (o : nat) (op : image_op V) : option nat :=
  match op with SetImageData o' a => if Nat.eqb o' o then Some a else None | _ => None end.
Definition holds {V} (h : list (image_op V)) (o : nat) : option nat := last_some (gives_data o) h.
(** After the history h1, the operation writes data into band b of array a: it names an image
    object holding a, one of the two indices of b, and data of the right shape *)
Definition writes {V} (heap : nat -> array3 V) (h1 : list (image_op V)) (op : image_op V) (a b : nat) (data : list (list V)) : Prop :=
  exists o i, op = SetImageBand o data i /\ holds h1 o = Some a /\ (b < length (a_bands (heap a)))%nat /\
    (i = Z.of_nat b \/ i = Z.of_nat b - Z.of_nat (length (a_bands (heap a))))%Z /\ raster data (a_ny (heap a)) (a_nx (heap a)).
Definition last_write {V} (heap : nat -> array3 V) (h : list (image_op V)) (a b : nat) (data : list (list V)) : Prop :=
  exists h1 op h2, h = h1 ++ op :: h2 /\ writes heap h1 op a b data /\
    forall h3 op' h4 data', h2 = h3 ++ op' :: h4 -> ~ writes heap (h1 ++ op :: h3) op' a b data'.
Definition never_written {V} (heap : nat -> array3 V) (h : list (image_op V)) (a b : nat) : Prop :=
  forall h1 op h2 data, h = h1 ++ op :: h2 -> ~ writes heap h1 op a b data.

(* ---- C51 ---- *)
(** X is the integer nearest to x, the even one of two *)
Definition rounds_to (x : R) (X : Z) : Prop := Rabs (x - IZR X) < 1 / 2 \/ (Rabs (x - IZR X) = 1 / 2 /\ Z.Even X).
(** The pixels of the window of half width wh around column X, row Y: rows Y-wh .. Y+wh-1 and
    columns X-wh .. X+wh-1, as far as they are in the image, row by row *)
Definition in_span (a b : Z) (i : nat) : bool := ((a <=? Z.of_nat i) && (Z.of_nat i <? b))%Z%bool.
Definition window_pixels (img : list (list flt)) (ny nx : nat) (X Y wh : Z) : list flt :=
  flat_map (fun r => flat_map (fun c => match raster_at img r c with Some v => [v] | None => [] end)
                              (filter (in_span (X - wh) (X + wh)) (seq 0 nx)))
           (filter (in_span (Y - wh) (Y + wh)) (seq 0 ny)).
(** Valid: not the no-data value *)
Definition valid (nodata : option R) (v : flt) : bool :=
  match nodata, v with Some n, Fin r => if Req_EM_T r n then false else true | _, _ => true end.
(** v is the mean of the values l: not a number if there are none, or if one is not *)
Definition is_mean (l : list flt) (v : flt) : Prop :=
  (exists rs, l = map Fin rs /\ rs <> [] /\ v = Fin (rsum rs / INR (length rs))) \/
  ((l = [] \/ In NonFinite l) /\ v = NonFinite).

(* ---- C52 ---- *)
(** The point a fraction t of the way from the ground point to the point at the top altitude,
    and the altitude of the line of sight there *)
Definition toward (s : sight) (t : R) : R * R :=
  (s_lon s + t * (s_lon_h s - s_lon s), s_lat s + t * (s_lat_h s - s_lat s)).
Definition sight_height (s : sight) (t : R) : R := s_alt s + t * (s_alt_h s - s_alt s).
Definition above (v : flt) (h : R) : Prop := exists z, v = Fin z /\ h < z.
(** Terrain rises above the line of sight *)
Definition obstructed (dem : R * R -> flt) (s : sight) : Prop :=
  exists t, 0 < t < 1 /\ above (dem (toward s t)) (sight_height s t).

(* ---- C53 ---- *)
(** q is a convex combination of the points vs *)
Definition in_hull (vs : list (R * R)) (q : R * R) : Prop :=
  exists ws, length ws = length vs /\ Forall (fun w => 0 <= w) ws /\ rsum ws = 1 /\
    fst q = rsum (map2 Rmult ws (map fst vs)) /\ snd q = rsum (map2 Rmult ws (map snd vs)).
(** shapely: the simplified hull keeps some of the points, and every point is within the
    tolerance of it *)
Definition outlines (tol : R) (outline : list (R * R) -> list (R * R)) : Prop :=
  forall pts, (forall v, In v (outline pts) -> In v pts) /\
    (forall p, In p pts -> exists q, in_hull (outline pts) q /\ Rabs (fst p - fst q) <= tol /\ Rabs (snd p - snd q) <= tol).
Definition on_border (nx ny c r : nat) : Prop :=
  (c < nx /\ r < ny /\ (c = 0 \/ c = nx - 1 \/ r = 0 \/ r = ny - 1))%nat.
(** The bands the extent is computed from: band 0 only if the bands are coregistered *)
Definition extent_bands (coregistered : bool) (n_bands : nat) (bands : bands_arg) : list nat :=
  if coregistered then [0%nat] else match bands with AllBands => seq 0 n_bands | OneBand b => [b] | BandList l => l end.
(** At altitude alt the sensor maps pixels to the ground by an affine map *)
Definition affine_at (ground : R * R -> R -> R * R) (alt : R) : Prop :=
  exists a0 a1 a2 b0 b1 b2, forall x y, ground (x, y) alt = (a0 + a1 * x + a2 * y, b0 + b1 * x + b2 * y).

(* ---- C60 ---- *)
Definition inside (p : R * R) (b : R * R * R * R) : Prop :=
  let '(x0, y0, x1, y1) := b in x0 <= fst p <= x1 /\ y0 <= snd p <= y1.
(** b is the smallest axis-aligned rectangle that contains the points *)
Definition smallest_rectangle (pts : list (R * R)) (b : R * R * R * R) : Prop :=
  (forall p, In p pts -> inside p b) /\
  (forall b', (forall p, In p pts -> inside p b') ->
     let '(x0, y0, x1, y1) := b in let '(u0, v0, u1, v1) := b' in u0 <= x0 /\ v0 <= y0 /\ x1 <= u1 /\ y1 <= v1).

(* ---- C69 ---- *)
(** The centre of cell (r, c) of the extent divided into ny x nx cells, rows from the top *)
Definition cell_centre (minx miny maxx maxy : R) (nx ny r c : nat) : R * R :=
  (minx + (INR c + 1 / 2) * ((maxx - minx) / INR nx), maxy - (INR r + 1 / 2) * ((maxy - miny) / INR ny)).
(** A location inside the image *)
Definition in_image (img : overhead) (loc : R * R) : Prop :=
  0 <= fst loc <= IZR (ov_nx img - 1) /\ 0 <= snd loc <= IZR (ov_ny img - 1).
(** The inner part the code keeps *)
Definition in_inner (img : overhead) (loc : R * R) : Prop :=
  0 < fst loc < IZR (ov_nx img - 2) /\ 0 < snd loc < IZR (ov_ny img - 2).
(** scipy's map_coordinates (mode constant, value 0) outside the image *)
Definition zero_outside (sample : list (list flt) -> R * R -> flt) : Prop :=
  forall data ny nx loc, raster data ny nx ->
    fst loc < 0 \/ INR nx - 1 < fst loc \/ snd loc < 0 \/ INR ny - 1 < snd loc -> sample data loc = Fin 0.
