(** Floating-point version of the ground grid and the geotransform of an ortho
    (resippy/utils/photogrammetry_utils.py): every operation is rounded, in the order in which numpy and Python
    evaluate the expressions.  rnd is the rounding of the arithmetic; no overflow.  Counts and indices are integers
    and exact. *)
From Verif Require Export M_Float M_Photo.
Open Scope R_scope.

Section Rounded.
Variable rnd : R -> R.

(* resippy/utils/photogrammetry_utils.py:57, 60 and 59, 61: a position k of n steps between lo and hi *)
Definition grid_edge_float (lo hi : R) (n k : Z) : R := rnd (rnd (rnd (IZR k / IZR n) * rnd (hi - lo)) + lo).

(* resippy/utils/photogrammetry_utils.py:49-64 *)
Definition create_ground_grid_float (min_x max_x min_y max_y : R) (npix_x npix_y : Z)
  : result (list (list R) * list (list R)) :=
  let gx := map (fun _ => map (fun c => grid_edge_float min_x max_x npix_x c) (zrange 0 npix_x)) (zrange 0 npix_y) in
  let gy := map (fun r => map (fun _ => grid_edge_float min_y max_y npix_y ((r - npix_y) * -1)%Z) (zrange 0 npix_x)) (zrange 0 npix_y) in
  x01 <- get2 gx 0 1 ;; x00 <- get2 gx 0 0 ;;
  y00 <- get2 gy 0 0 ;; y10 <- get2 gy 1 0 ;;
  let x_gsd := Rabs (rnd (x01 - x00)) in
  let y_gsd := Rabs (rnd (y00 - y10)) in
  Ok (map2d (fun x => rnd (x + rnd (x_gsd / 2))) gx, map2d (fun y => rnd (y - rnd (y_gsd / 2))) gy).

(* resippy/utils/photogrammetry_utils.py:37-46 *)
Definition world_poly_to_geo_t_float (minx miny maxx maxy : R) (npix_x npix_y : Z) : list R :=
  let gsd_x := rnd (rnd (maxx - minx) / IZR (npix_x + 1)) in
  let gsd_y := rnd (rnd (maxy - miny) / IZR (npix_y + 1)) in
  [minx; gsd_x; 0; maxy; 0; -1 * gsd_y].
End Rounded.
