(** Specification vocabulary for C89 and C90. *)
From Verif Require Import RAux Text M_Image M_Ortho M_Objects Spec_Ortho Spec_Objects.
Open Scope R_scope.
Open Scope list_scope.

(** The interpolation names and the spline orders they stand for *)
Definition interpolations : list (text * nat) :=
  [(txt "nearest", 0); (txt "bilinear", 1); (txt "biquadratic", 2); (txt "bicubic", 3); (txt "biquartic", 4); (txt "biquintic", 5)]%nat.

(** scikit-image's warp (mode constant): outside the image the given constant *)
Definition outside_data (ny nx : nat) (loc : R * R) : Prop :=
  fst loc < 0 \/ INR nx - 1 < fst loc \/ snd loc < 0 \/ INR ny - 1 < snd loc.
Definition constant_outside (warp : nat -> flt -> list (list flt) -> R * R -> flt) : Prop :=
  forall order cval data ny nx loc, Spec_Ortho.raster data ny nx -> outside_data ny nx loc -> warp order cval data loc = cval.
(** With order 0, inside the image, a pixel at most half a pixel away in row and column *)
Definition nearest_inside (warp : nat -> flt -> list (list flt) -> R * R -> flt) : Prop :=
  forall cval data ny nx loc, Spec_Ortho.raster data ny nx -> (0 < ny)%nat -> (0 < nx)%nat -> ~ outside_data ny nx loc ->
    exists r c, raster_at data r c = Some (warp 0%nat cval data loc) /\ Rabs (fst loc - INR c) <= 1 / 2 /\ Rabs (snd loc - INR r) <= 1 / 2.

(** The GeoTIFF image object made of the ortho bands out: its sizes, type, geotransform,
    projection and no-data value, the bands in order, and with mask_no_data_region one more
    band that is 0 where the first band equals the no-data value and 255 elsewhere *)
Definition equals_nodata (v nodata : flt) : Prop := exists x, v = Fin x /\ nodata = Fin x.
Definition ortho_object {D G P} (im : geotiff flt D G P) (dtype : D) (gtype : option G) (store : flt -> flt) (nx ny : nat)
    (out : list (band flt)) (geo_t : list R) (proj : P) (nodata : flt) (mask : bool) : Prop :=
  let nb := (length out + if mask then 1 else 0)%nat in
  gt_nx im = nx /\ gt_ny im = ny /\ gt_nb im = nb /\ gt_type im = gtype /\ gt_geot im = geo_t /\ gt_proj im = proj /\
  gt_name im = None /\ gt_src im = None /\
  gt_nodata im = match nodata with Fin v => Nodata v | NonFinite => NodataNaN end /\
  exists r, gt_data im = Some (dtype, r) /\ raster_shape r ny nx nb /\
    (forall k o y x, nth_error out k = Some o -> (y < ny)%nat -> (x < nx)%nat -> px (r_bands r) y x k = raster_at (b_rows o) y x) /\
    (mask = true -> forall o y x v, nth_error out 0 = Some o -> raster_at (b_rows o) y x = Some v -> (y < ny)%nat -> (x < nx)%nat ->
       (equals_nodata v nodata -> px (r_bands r) y x (length out) = Some (store (Fin 0))) /\
       (~ equals_nodata v nodata -> px (r_bands r) y x (length out) = Some (store (Fin 255)))).
