(** The colour map of resippy/utils/image_utils/image_utils.py:166-259 in floating-point arithmetic: every
    operation is rounded by rnd.  The image, the clips and the palette are numbers of that arithmetic.
    Simplified: no overflow to infinity; the image has the floating type of the arithmetic (numpy compares a
    float32 image with the nodes in another precision). *)
From Verif Require Export M_Float.
Open Scope R_scope.
Open Scope list_scope.

Section Rounded.
Variable rnd : R -> R.

(** numpy.linspace(mn, mx, n)[i] for at least two values: start plus i times the rounded step, the last value
    replaced by the stop; when the step underflows to zero the index is divided first *)
Definition linspace_float (mn mx : R) (n i : nat) : R :=
  if Nat.eqb (S i) n then mx else
  let delta := rnd (mx - mn) in
  let step := rnd (delta / INR (n - 1)) in
  if Reqb step 0 then rnd (rnd (rnd (INR i / INR (n - 1)) * delta) + mn)
  else rnd (rnd (INR i * step) + mn).

(* resippy/utils/image_utils/image_utils.py:207-225, for one pixel value g *)
Definition find_bin_float (mn mx : R) (n : nat) (g : R) : bin :=
  fold_left (fun st i => if Rleb (linspace_float mn mx n i) g && Rleb g (linspace_float mn mx n (S i))
                         then mkBin (wrap8 i) (linspace_float mn mx n i) (linspace_float mn mx n (S i)) else st)
            (seq 0 (n - 1)) (mkBin 0 0 0).

(* resippy/utils/image_utils/image_utils.py:226-228, 241-257, one pixel, one channel; mx is the adjusted clip *)
Definition channel_float (pal : list R) (continuous : bool) (mn mx : R) (n : nat) (g : R) : flt :=
  let b := find_bin_float mn mx n g in
  let '(lo, hi) := find_colors pal n (bin_idx b) in
  let base :=
    if continuous then
      match fdiv (rnd (g - bin_lo b)) (rnd (bin_hi b - bin_lo b)) with
      | Fin q => let wh := rnd q in Fin (rnd (rnd (lo * rnd (1 - wh)) + rnd (hi * wh)))
      | NonFinite => NonFinite
      end
    else Fin lo in
  let c1 := if Rltb g mn then Fin (nth 0 pal 0) else base in
  let c2 := if Rltb mx g then Fin (last pal 0) else c1 in
  fmap (fun v => rnd (v * 255)) c2.

(* resippy/utils/image_utils/image_utils.py:204-205 *)
Definition adjusted_max_float (continuous : bool) (mn mx : R) (n : nat) : R :=
  if continuous then mx else rnd (mn + rnd (rnd (rnd (mx - mn) * INR (n - 1)) / INR n)).

(* resippy/utils/image_utils/image_utils.py:166-259 with n_bins None, before the cast of line 259; minimum and
   maximum are exact, so the default clips are those of M_ImageR *)
Definition colormap_float (p : palette) (continuous : bool) (mn mx nodata : option R) (img : list R)
  : result (list (flt * flt * flt)) :=
  clips <- default_clips img nodata mn mx ;;
  let '(mn, mx) := clips in
  let n := pal_len p in
  if Nat.eqb n 0 then Err IndexError else
  let mx' := adjusted_max_float continuous mn mx n in
  Ok (map (fun g => (channel_float (pal_r p) continuous mn mx' n g, channel_float (pal_g p) continuous mn mx' n g,
                     channel_float (pal_b p) continuous mn mx' n g)) img).
End Rounded.
