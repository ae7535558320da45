(** Floating-point version of the geotiff point calculator
    (resippy/image_objects/earth_overhead/earth_overhead_point_calculators/geotiff_point_calc.py):
    every operation is rounded, in the order in which Python evaluates the expressions.  rnd is the
    rounding of the arithmetic; no overflow.  One point at a time. *)
From Verif Require Export M_Float M_Cameras M_Dem.
Open Scope R_scope.

Section Rounded.
Variable rnd : R -> R.

(* resippy/image_objects/earth_overhead/earth_overhead_point_calculators/geotiff_point_calc.py:127-128 *)
Definition gt_pixel_to_lon_lat_float (g : geot) (x y : R) : R * R :=
  (rnd (rnd (g0 g + rnd (x * g1 g)) + rnd (y * g2 g)), rnd (rnd (g3 g + rnd (x * g4 g)) + rnd (y * g5 g))).

(* resippy/image_objects/earth_overhead/earth_overhead_point_calculators/geotiff_point_calc.py:55, gdal.InvGeoTransform of a geotransform without rotation (g2 = g4 = 0, g1 and g5
   not 0), which GDAL inverts axis by axis; rotated geotransforms are not modelled here *)
Definition gdal_inv_north_up_float (g : geot) : geot :=
  mkGeot (rnd (- g0 g / g1 g)) (rnd (1 / g1 g)) 0 (rnd (- g3 g / g5 g)) 0 (rnd (1 / g5 g)).

(* resippy/image_objects/earth_overhead/earth_overhead_point_calculators/geotiff_point_calc.py:106-107 *)
Definition gt_lon_lat_to_pixel_float (i : geot) (lon lat : R) : R * R :=
  (rnd (rnd (g0 i + rnd (g1 i * lon)) + rnd (g2 i * lat)), rnd (rnd (g3 i + rnd (g4 i * lon)) + rnd (g5 i * lat))).

(** Pixel to ground and back with one calculator *)
Definition gt_round_trip_float (g : geot) (x y : R) : R * R :=
  let '(lon, lat) := gt_pixel_to_lon_lat_float g x y in gt_lon_lat_to_pixel_float (gdal_inv_north_up_float g) lon lat.
End Rounded.
