(** Floating-point versions of seven functions that the other files model over the exact reals:
    every operation is rounded.  rnd is the rounding of the arithmetic at hand; rne emin prec is
    the IEEE 754 rounding to nearest, ties to even, with prec bits and least exponent emin
    (Flocq's definition).  Simplified: no overflow to infinity. *)
From Flocq Require Import Core.
From Verif Require Export RAux M_ImageR M_Time M_Nav M_Photo.
Open Scope R_scope.
Open Scope list_scope.

Definition rne (emin prec : Z) : R -> R := round radix2 (FLT_exp emin prec) ZnearestE.
(** numpy's float64 (and Python's float); float32 is rne (-149) 24 *)
Definition double : R -> R := rne (-1074) 53.

Section Rounded.
Variable rnd : R -> R.

(* resippy/utils/image_utils/image_utils.py:125-133, output_dtype None *)
Definition normalize_float (img : list R) (new_min new_max : R) : result (list flt) :=
  match rmin img, rmax img with
  | Some mn, Some mx =>
    Ok (map (fun p => fmap (fun z => rnd (rnd (rnd z * rnd (new_max - new_min)) + new_min)) (fdiv (rnd (p - mn)) (rnd (mx - mn)))) img)
  | _, _ => Err ValueError
  end.

(* resippy/utils/image_utils/image_utils.py:262-266, one pixel *)
Definition blend_float (a b pct : R) : R := rnd (rnd (a * pct) + rnd (b * rnd (1 - pct))).

(* resippy/photogrammetry/nav/applanix_sbet_nav.py:54-58, resippy/photogrammetry/nav/applanix_eo_nav.py:70-75, one element *)
Definition interp_float (x x0 x1 y0 y1 : R) : flt :=
  fmap rnd (fdiv (rnd (rnd (y0 * rnd (x1 - x)) + rnd (y1 * rnd (x - x0)))) (rnd (x1 - x0))).

(* resippy/utils/time_utils.py:54-57; the datetime timestamps are whole numbers *)
Definition gps_timestamp_float (zone : Z -> Z) (t : R) : result R :=
  o <- get_gps_leapsecond_offset zone t ;; Ok (rnd (rnd (t - rnd (IZR (gps_epoch zone) - IZR (unix_epoch zone))) + IZR o)).
(* resippy/utils/time_utils.py:66-73; the remainder % 1 of Python is the rounded true remainder *)
Definition gps_week_float (zone : Z -> Z) (t : R) : result (Z * R) :=
  g <- gps_timestamp_float zone t ;;
  let weeks := rnd (g / IZR (7 * (60 * 60 * 24))) in
  Ok (floorZ weeks, rnd (rnd (rnd (mod1 weeks) * IZR 7) * IZR (60 * 60 * 24))).

(** numpy's dot product and its sum of products, whose order of additions is not specified *)
Variable dot : list R -> list R -> R.
Variable sum_of_products : list R -> list R -> R.
(* resippy/spectral/spectral_image_processing_1d.py:165-181 for one pixel *)
Definition sam_float (target px : list R) : flt :=
  fmap rnd (fdiv (dot target px) (rnd (rnd (sqrt (dot target target)) * rnd (sqrt (sum_of_products px px))))).

(** numpy's sum along an axis *)
Variable total : list R -> R.
(* resippy/spectral/spectral_image_processing_1d.py:8-12, no mask, the values of one band *)
Definition mean_float (xs : list R) : flt := fmap rnd (fdiv (total xs) (INR (length xs))).
(* resippy/spectral/spectral_image_processing_1d.py:22-26, no mask, the values of one band *)
Definition demean_float (xs : list R) : list flt := map (fun x => fmap (fun mu => rnd (x - mu)) (mean_float xs)) xs.
End Rounded.

(** np.array(normalized_image, dtype) for an integer type (resippy/utils/image_utils/image_utils.py:133), of values the
    type can hold *)
Definition cast_int (v : flt) : option Z := match v with Fin x => Some (truncZ x) | NonFinite => None end.
