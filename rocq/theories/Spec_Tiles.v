(** Specification vocabulary for C113: orthos of parts of a region. *)
From Verif Require Import RAux Arr M_Image M_Ortho.
From Verif Require Spec_Ortho.
Open Scope R_scope.

(** The bounds (minx, miny, maxx, maxy) of the part of a grid of nx by ny cells that starts at column c0 and row r0 (from the
    top) and is w cells wide and h cells high *)
Definition part_bounds (minx miny maxx maxy : R) (nx ny c0 r0 w h : nat) : R * R * R * R :=
  let gx := (maxx - minx) / INR nx in let gy := (maxy - miny) / INR ny in
  (minx + INR c0 * gx, maxy - INR (r0 + h) * gy, minx + INR (c0 + w) * gx, maxy - INR r0 * gy).
(** The image can be orthorectified: data that is to be taken from memory is in memory, and there is a band to make *)
Definition can_ortho (img : overhead) (bands : option (list nat)) : Prop :=
  (ov_coregistered img = true -> ov_loaded img = true) /\
  match bands with Some l => l <> nil | None => (0 < ov_n_bands img)%nat end.
(** The array of an ortho: the bands along the third axis *)
Definition stacked (img : cube flt) (out : list (band flt)) (ny nx : nat) : Prop :=
  cube_wf img /\ c_ny img = ny /\ c_nx img = nx /\ c_nb img = length out /\
  forall r c k o, (r < ny)%nat -> (c < nx)%nat -> nth_error out k = Some o -> cube_at img r c k = Spec_Ortho.raster_at (b_rows o) r c.
