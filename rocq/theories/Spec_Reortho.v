(** Specification vocabulary for C107. *)
From Verif Require Import RAux Text M_Image M_Ortho M_Objects Spec_Ortho Spec_Objects.
Open Scope R_scope.
Open Scope list_scope.

(** A GeoTIFF image object with its pixels in memory, rows from north to south, square to the
    axes: the upper left corner of the upper left pixel is (x0, y0), a pixel is dx wide and dy high *)
Definition north_up_image {D G P} (im : geotiff flt D G P) (dtype : D) (d : M_Objects.raster flt) (nx ny nb : nat) (x0 y0 dx dy : R) : Prop :=
  gt_data im = Some (dtype, d) /\ raster_shape d ny nx nb /\ gt_nx im = nx /\ gt_ny im = ny /\ gt_nb im = nb /\
  gt_geot im = [x0; dx; 0; y0; 0; - dy].

(** The bounds (minx, miny, maxx, maxy) of columns a to a + w and rows b to b + h of such an image *)
Definition window_bounds (x0 y0 dx dy a b w h : R) : R * R * R * R := (x0 + a * dx, y0 - (b + h) * dy, x0 + (a + w) * dx, y0 - b * dy).

(** scipy's map_coordinates of order 0, inside the image: the pixel whose index is the location
    rounded, halves upward *)
Definition nearest_half_up (sample : list (list flt) -> R * R -> flt) : Prop :=
  forall data ny nx x y r c v, Spec_Ortho.raster data ny nx -> 0 <= x <= INR nx - 1 -> 0 <= y <= INR ny - 1 ->
    INR c <= x + 1 / 2 < INR c + 1 -> INR r <= y + 1 / 2 < INR r + 1 -> raster_at data r c = Some v -> sample data (x, y) = v.
(** map_coordinates of order 1: linear in both directions between the four pixels around *)
Definition bilinear_between (sample : list (list flt) -> R * R -> flt) : Prop :=
  forall data ny nx r c u v p00 p01 p10 p11, Spec_Ortho.raster data ny nx -> 0 <= u <= 1 -> 0 <= v <= 1 ->
    raster_at data r c = Some (Fin p00) -> raster_at data r (c + 1) = Some (Fin p01) ->
    raster_at data (r + 1) c = Some (Fin p10) -> raster_at data (r + 1) (c + 1) = Some (Fin p11) ->
    sample data (INR c + u, INR r + v) = Fin ((1 - v) * ((1 - u) * p00 + u * p01) + v * ((1 - u) * p10 + u * p11)).
