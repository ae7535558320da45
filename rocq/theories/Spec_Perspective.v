(** Vocabulary for pinhole cameras as sensors of the solver (C36, C77) *)
From Verif Require Import RAux Geo3 M_Photo M_PointCalc.
Open Scope R_scope.

(** The point (lon, lat, alt) in the camera's frame: along the image's x axis, its y axis and the optical axis *)
Definition cam_x (c : ideal_pinhole) (lon lat alt : R) : R :=
  let M := ph_M (ip_camera c) in let p := ph_pos (ip_camera c) in e11 M * (lon - vx p) + e12 M * (lat - vy p) + e13 M * (alt - vz p).
Definition cam_y (c : ideal_pinhole) (lon lat alt : R) : R :=
  let M := ph_M (ip_camera c) in let p := ph_pos (ip_camera c) in e21 M * (lon - vx p) + e22 M * (lat - vy p) + e23 M * (alt - vz p).
Definition depth (c : ideal_pinhole) (lon lat alt : R) : R :=
  let M := ph_M (ip_camera c) in let p := ph_pos (ip_camera c) in e31 M * (lon - vx p) + e32 M * (lat - vy p) + e33 M * (alt - vz p).

(** The pixel function of the camera; NaN in gives NaN out *)
Definition pinhole_pixel (c : ideal_pinhole) : pixel_fn := fun lon lat alt =>
  match lon, lat, alt with Fin x, Fin y, Fin z => ideal_lon_lat_alt_to_pixel c (V3 x y z) | _, _, _ => (NonFinite, NonFinite) end.

(** The camera over the region of size rad round c at the altitude alt: D is the depth of c and H its distance
    from the camera's height; c is seen at most T focal lengths off the optical axis; over the region the depth
    changes by at most the fraction eps; kmin and kmax bound the focal length in pixels. *)
Record views (cam : ideal_pinhole) (c : R * R) (alt rad D H T eps kmin kmax : R) : Prop := {
  v_rot : rotation (ph_M (ip_camera cam));
  v_D : D = Rabs (depth cam (fst c) (snd c) alt); v_D0 : 0 < D;
  v_H : H = Rabs (alt - vz (ph_pos (ip_camera cam)));
  v_T1 : Rabs (cam_x cam (fst c) (snd c) alt) <= T * D; v_T2 : Rabs (cam_y cam (fst c) (snd c) alt) <= T * D;
  v_eps : 0 <= eps < 1;
  v_B1 : Rabs (e31 (ph_M (ip_camera cam))) * rad <= eps * D; v_B2 : Rabs (e32 (ph_M (ip_camera cam))) * rad <= eps * D;
  v_px : ip_pitch_x cam <> 0; v_py : ip_pitch_y cam <> 0; v_k0 : 0 < kmin;
  v_kx : kmin <= Rabs (ph_f (ip_camera cam) / ip_pitch_x cam) <= kmax; v_ky : kmin <= Rabs (ph_f (ip_camera cam) / ip_pitch_y cam) <= kmax }.

(** How far the camera is from an affine map over the region, and how steep it is *)
Definition bend (D T eps kmax : R) : R := kmax * (1 + T) / D * (2 * eps / ((1 - eps) * (1 - eps))).
Definition slope (D H T kmin : R) : R := kmin * H / (3 * (1 + T) * (D * D)).
