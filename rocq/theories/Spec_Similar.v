(** Specification vocabulary for C111: the same scene described in other coordinates, with another
    origin and another unit of length. *)
From Verif Require Import RAux Geo3 M_Ortho.
Open Scope R_scope.
Open Scope list_scope.

(** A change of coordinates: lengths are multiplied by k, then the origin is moved by (tx, ty) on the
    ground and by tz in height. *)
Record change := mkChange { ch_k : R; ch_x : R; ch_y : R; ch_z : R }.
Definition new_x (g : change) (x : R) : R := ch_k g * x + ch_x g.
Definition new_y (g : change) (y : R) : R := ch_k g * y + ch_y g.
Definition new_z (g : change) (z : R) : R := ch_k g * z + ch_z g.
Definition new_point (g : change) (p : R * R) : R * R := (new_x g (fst p), new_y g (snd p)).
Definition new_vec (g : change) (p : vec3) : vec3 := V3 (new_x g (vx p)) (new_y g (vy p)) (new_z g (vz p)).

(** The same image: only the coordinates in which its sensor model is asked have changed *)
Definition same_image (g : change) (a b : overhead) : Prop :=
  ov_coregistered b = ov_coregistered a /\ ov_loaded b = ov_loaded a /\ ov_nx b = ov_nx a /\ ov_ny b = ov_ny a /\
  (forall i, ov_band b i = ov_band a i) /\ ov_n_bands b = ov_n_bands a /\ (forall v, ov_store b v = ov_store a v) /\
  forall i p z, ov_locate b i (new_point g p, new_z g z) = ov_locate a i (p, z).

(** The same terrain; no terrain model means the height 0, which is the same terrain only if 0 is
    still 0 *)
Definition same_terrain (g : change) (a b : option (R * R -> R)) : Prop :=
  match a, b with
  | Some d, Some e => forall p, e (new_point g p) = new_z g (d p)
  | None, None => ch_z g = 0
  | _, _ => False
  end.
Definition same_dem (g : change) (a b : option dem_fn) : Prop :=
  match a, b with
  | Some d, Some e => (forall p, df_elev e (new_point g p) = new_z g (df_elev d p)) /\ df_highest e = new_z g (df_highest d)
  | None, None => ch_z g = 0
  | _, _ => False
  end.

(** The same rays: where the sensor model puts a pixel on the ground *)
Definition same_rays (g : change) (a b : sensor_fn) : Prop :=
  forall i p z, b i p (new_z g z) = new_point g (a i p z).

(** The geotransform (x0, dx, _, y0, _, dy) of a raster in the new coordinates *)
Definition new_geo (g : change) (t : list R) : list R :=
  match t with
  | [x0; dx; rx; y0; ry; dy] => [new_x g x0; ch_k g * dx; ch_k g * rx; new_y g y0; ch_k g * ry; ch_k g * dy]
  | _ => t
  end.
