(** Specification vocabulary for C76 - C80. *)
From Coq Require Import String.
From Verif Require Import RAux Text Geo3 M_Photo M_PointCalc M_Image M_Sim.
From Verif Require Spec_Photo Spec_PointCalc.
Open Scope R_scope.
Open Scope list_scope.

(** The stored boresight angle: one within 1e-8 of zero is increased by 1e-8 *)
Definition nudged (given stored : R) : Prop :=
  (Rabs given <= 1 / 100000000 /\ stored = given + 1 / 100000000) \/ (1 / 100000000 < Rabs given /\ stored = given).

(** Three turns one after the other, the first named acting first *)
Definition turned (o p k : R) (t1 t2 t3' : Spec_Photo.turn) : mat3 :=
  mul3 (Spec_Photo.turn_matrix o p k t3') (mul3 (Spec_Photo.turn_matrix o p k t2) (Spec_Photo.turn_matrix o p k t1)).

(** The orientation the simulator gives its camera: the fixture turned by roll, pitch and yaw,
    then the boresight in its order; every angle is multiplied by the factor u *)
Definition sim_orientation (u br bp by_ : R) (t1 t2 t3' : Spec_Photo.turn) (roll pitch yaw : R) : mat3 :=
  mul3 (turned (br * u) (bp * u) (by_ * u) t1 t2 t3') (turned (roll * u) (pitch * u) (yaw * u) Spec_Photo.Roll Spec_Photo.Pitch Spec_Photo.Yaw).

(** The camera sees the world point p at pixel (px, py): p lies on the line through the
    camera's position and the image point; rows are counted downwards (flipped y) *)
Definition sees (pos : vec3) (M : mat3) (f pitch_x pitch_y nx ny : R) (p : vec3) (px py : R) : Prop :=
  exists s, s <> 0 /\ p = Spec_Photo.on_ray pos M f ((px - nx / 2) * pitch_x) (- ((py - ny / 2) * pitch_y)) s.

(** The world projection in force after a history: the last one set, else the constructor's,
    else the geotiff's *)
Fixpoint last_world {V} (ops : list (sim_op V)) (w : projection) : projection :=
  match ops with
  | [] => w
  | SetWorld w' :: r => last_world r w'
  | _ :: r => last_world r w
  end.
Definition first_world (a : sim_args) : projection := match sa_world a with None => sa_gtiff_proj a | Some w => w end.

(** an outcome that is an image *)
Definition made {V} (r : option (result (sim_image V))) : bool := match r with Some (Ok _) => true | _ => false end.

(** The band sampled by the k-th operation: what was read for the first image ever made *)
Definition used_band {V} (ops : list (sim_op V)) (rs : list (option (result (sim_image V)))) (k : nat) (d : band V) : Prop :=
  exists j lon lat alt roll pitch yaw, (j <= k)%nat /\ nth_error ops j = Some (Simulate (Ok d) lon lat alt roll pitch yaw) /\
    (exists r, nth_error rs j = Some r /\ made r = true) /\
    (forall i r, (i < j)%nat -> nth_error rs i = Some r -> made r = false).

(** The pixels of an image of nx columns and ny rows, row by row, at altitude zero *)
Definition all_pixels (nx ny : nat) : list request :=
  concat (map (fun r => map (fun c => mkRequest (INR c) (INR r) 0) (seq 0 nx)) (seq 0 ny)).

(** What the image's point calculator answers for these pixels: pixel_x_y_alt_to_lon_lat with
    its default threshold, number of rounds and projection *)
Definition ground_of (c : sim_camera) (nx ny : nat) (ps : list (flt * flt)) : Prop :=
  forall transform2, pixel_x_y_alt_to_lon_lat transform2 None (camera_pixel c) (camera_proj c) (Some (camera_center c))
    (1 / 100) 1000 (all_pixels nx ny) None = Ok ps.

(** the same arguments with another unit for the external angles *)
Definition with_rpy_units (a : sim_args) (u : R) : sim_args :=
  mkSimArgs (sa_gtiff a) (sa_gtiff_proj a) (sa_focal a) (sa_npix_x a) (sa_npix_y a) (sa_roll a) (sa_pitch a) (sa_yaw a)
    (sa_pitch_x a) (sa_pitch_y a) (su_pitch a) (su_focal a) (su_boresight a) (sa_order a) (su_alt a) u (sa_world a).

(** zone letters of the Military Grid Reference System: bands of 8 degrees from C at 80
    degrees south, without I and O; X reaches to 84 degrees north *)
Definition mgrs_letters : text := txt "CDEFGHJKLMNPQRSTUVWX".
Definition mgrs_letter (lat : R) (l : ascii) : Prop :=
  exists k : nat, nth_error mgrs_letters k = Some l /\ -80 + 8 * INR k <= lat /\ (lat < -80 + 8 * INR (k + 1) \/ (k = 19%nat /\ lat <= 84)).
(** UTM zone numbers: six degrees each from 180 degrees west, with the exceptions of western Norway
    (zone 32 is widened) and of Svalbard (zones 31, 33, 35 and 37 only) *)
Definition svalbard (lat lon : R) : Prop := 72 <= lat <= 84 /\ 0 <= lon < 42.
Definition norway (lat lon : R) : Prop := 56 <= lat < 64 /\ 3 <= lon < 12.
Definition utm_zone (lat lon : R) (z : Z) : Prop :=
  (norway lat lon /\ z = 32%Z) \/
  (svalbard lat lon /\ ((lon < 9 /\ z = 31%Z) \/ (9 <= lon < 21 /\ z = 33%Z) \/ (21 <= lon < 33 /\ z = 35%Z) \/ (33 <= lon /\ z = 37%Z))) \/
  (~ norway lat lon /\ ~ svalbard lat lon /\ -180 + 6 * (IZR z - 1) <= lon < -180 + 6 * IZR z).
(** the utm package: the zone number and letter, for latitudes of -80 to 84 degrees *)
Definition utm_package (from_latlon : from_latlon_fn) : Prop :=
  forall lat lon, (-80 <= lat <= 84 /\ -180 <= lon < 180 ->
     exists e n z l, from_latlon lat lon = Ok (e, n, z, l) /\ utm_zone lat lon z /\ mgrs_letter lat l) /\
    (~ -80 <= lat <= 84 \/ ~ -180 <= lon <= 180 -> from_latlon lat lon = Err ValueError).

(** Web Mercator (EPSG 3857) of longitude, latitude in degrees on a sphere of radius a, and its inverse *)
Definition web_mercator (a : R) (p : R * R) : R * R :=
  (a * (fst p * PI / 180), a * ln (tan (PI / 4 + snd p * PI / 360))).
Definition web_mercator_inv (a : R) (q : R * R) : R * R :=
  (fst q / a * 180 / PI, (2 * atan (exp (snd q / a)) - PI / 2) * 180 / PI).
(** two maps undo each other; the first on the points of P *)
Definition undo (P : R * R -> Prop) (f g : R * R -> R * R) : Prop :=
  (forall p, P p -> g (f p) = p) /\ (forall q, f (g q) = q).
(** length of the arc of the parallel of latitude lat (degrees) over dlon degrees *)
Definition along_parallel (a lat dlon : R) : R := a * cos (lat * PI / 180) * (dlon * PI / 180).

(** Pixels (column, row) of an image of nx columns and ny rows, row by row *)
Definition pixel_list (nx ny : nat) : list pixel :=
  concat (map (fun r => map (fun c => (INR c, INR r)) (seq 0 nx)) (seq 0 ny)).
(** The point (lon, lat, alt) is where the line of sight of pixel p first meets the terrain, which is
    sampled at n equally spaced places from the altitude mx down to mn: it is on the line of sight and on the
    terrain's profile, the next sample is above the line of sight, and nothing before it is *)
Definition first_meeting (ground : pixel -> R -> R * R) (elev : R -> R -> flt) (mx mn : R) (n : nat) (p : pixel) (lon lat alt : R) : Prop :=
  let at_s := Spec_PointCalc.on_ray (ground p mx) (ground p mn) mx mn in
  let e s := match elev (fst (fst (at_s s))) (snd (fst (at_s s))) with Fin v => v | NonFinite => 0 end in
  exists s k, at_s s = (lon, lat, alt) /\
    (k < n)%nat /\ 0 <= s < INR k / INR (n - 1) /\ INR k / INR (n - 1) <= s + 1 / INR (n - 1) /\
    snd (at_s (INR k / INR (n - 1))) < e (INR k / INR (n - 1)) /\
    Spec_PointCalc.profile e n s alt /\
    (forall s' v, s' <= s -> Spec_PointCalc.profile e n s' v -> v <= snd (at_s s')).
