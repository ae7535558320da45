(** Specification vocabulary for C31 - C34 and C68. *)
From Verif Require Import RAux Text Geo3 M_Photo Spec_Photo M_Cameras.  (* the setters cv_op, the record geot *)
Open Scope R_scope.
Open Scope list_scope.

(** Brown's distortion as documented by OpenCV and by Pix4D: three radial and two
    tangential coefficients *)
Definition distorted_x (k1 k2 k3 p1 p2 x y : R) : R :=
  let r2 := x * x + y * y in
  x * (1 + k1 * r2 + k2 * r2 * r2 + k3 * r2 * r2 * r2) + 2 * p1 * (x * y) + p2 * (r2 + 2 * (x * x)).
Definition distorted_y (k1 k2 k3 p1 p2 x y : R) : R :=
  let r2 := x * x + y * y in
  y * (1 + k1 * r2 + k2 * r2 * r2 + k3 * r2 * r2 * r2) + p1 * (r2 + 2 * (y * y)) + 2 * p2 * (x * y).

(** The last intrinsic parameters, exterior orientation and offsets of a history *)
Definition gives_intrinsic (o : cv_op) : option (R * R * R * R * (R * R * R * R * R)) :=
  match o with InitIntrinsic fx fy cx cy k1 k2 k3 p1 p2 => Some (fx, fy, cx, cy, (k1, k2, k3, p1, p2)) | _ => None end.
Definition gives_extrinsic (o : cv_op) : option (vec3 * (R * R * R)) :=
  match o with InitExtrinsic x y z o p k => Some (V3 x y z, (o, p, k)) | _ => None end.
Definition gives_offsets (o : cv_op) : option (vec3 * (R * R * R)) :=
  match o with InitOffsets x y z o p k => Some (V3 x y z, (o, p, k)) | _ => None end.

(** The twenty monomials of RPC00B in the order of its coefficients: P, L and H are the
    normalised latitude, longitude and height *)
Definition rpc00b_monomials (P L H : R) : list R :=
  [1; L; P; H; L*P; L*H; P*H; L^2; P^2; H^2; P*L*H; L^3; L*P^2; L*H^2; L^2*P; P^3; P*H^2; L^2*H; P^2*H; H^3].
Definition rpc00b (a : list R) (P L H : R) : R :=
  rsum (map (fun q => fst q * snd q) (combine a (rpc00b_monomials P L H))).

(** GDAL: the world point of a pixel *)
Definition geo_point (g : geot) (p : R * R) : R * R :=
  (g0 g + fst p * g1 g + snd p * g2 g, g3 g + fst p * g4 g + snd p * g5 g).
Definition invertible (g : geot) : Prop := g1 g * g5 g - g2 g * g4 g <> 0.
(** gdal.InvGeoTransform: the geotransform of the inverse map, None if there is none *)
Definition gdal_inverse (f : geot -> option geot) : Prop :=
  (forall g, invertible g -> exists h, f g = Some h /\
     (forall p, geo_point h (geo_point g p) = p) /\ (forall p, geo_point g (geo_point h p) = p)) /\
  (forall g, ~ invertible g -> f g = None).

(** p lies in the rectangle spanned by the corners (x0, y0) and (x1, y1) *)
Definition in_rectangle (x0 y0 x1 y1 : R) (p : R * R) : Prop :=
  Rmin x0 x1 <= fst p <= Rmax x0 x1 /\ Rmin y0 y1 <= snd p <= Rmax y0 y1.
