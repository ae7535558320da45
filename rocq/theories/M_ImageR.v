(** Model of the real-valued functions of
    resippy/utils/image_utils/image_utils.py and image_registration.py.
    Images are lists of pixel values in any fixed order: every operation here is
    pixelwise apart from the minimum and maximum.  NaN pixels are not modelled as
    inputs. *)
From Verif Require Export RAux.
Open Scope R_scope.
Open Scope list_scope.

(* resippy/utils/image_utils/image_utils.py:125-133, output_dtype None.  np.min of
   an empty image raises; for a constant image numpy divides 0 by 0 and every
   pixel is NaN. *)
Definition normalize_grayscale_image (img : list R) (new_min new_max : R) : result (list flt) :=
  match rmin img, rmax img with
  | Some mn, Some mx =>
    Ok (map (fun p => fmap (fun z => z * (new_max - new_min) + new_min) (fdiv (p - mn) (mx - mn))) img)
  | _, _ => Err ValueError
  end.

(* resippy/utils/image_utils/image_utils.py:262-266, one pixel *)
Definition blend_pixel (a b pct : R) : R := a * pct + b * (1 - pct).
Definition blend_images (im1 im2 : list R) (pct : R) : list R := map2 (fun a b => blend_pixel a b pct) im1 im2.

(* ------------------------- colour map ----------------------------- *)

(** a value stored in an int8 array (numpy wraps) *)
Definition wrap8 (i : nat) : Z := ((Z.of_nat i + 128) mod 256 - 128)%Z.

(** What the first loop keeps for one pixel: low index, its node, the next node *)
Record bin := mkBin { bin_idx : Z; bin_lo : R; bin_hi : R }.

(* resippy/utils/image_utils/image_utils.py:207-225, for one pixel value g *)
Definition find_bin (mn mx : R) (n : nat) (g : R) : bin :=
  fold_left (fun st i => if Rleb (linspace_at mn mx n i) g && Rleb g (linspace_at mn mx n (S i))
                         then mkBin (wrap8 i) (linspace_at mn mx n i) (linspace_at mn mx n (S i)) else st)
            (seq 0 (n - 1)) (mkBin 0 0 0).

(* resippy/utils/image_utils/image_utils.py:213-218, 230-236, for one pixel and one
   channel: the colours at the low and high end *)
Definition find_colors (pal : list R) (n : nat) (idx : Z) : R * R :=
  fold_left (fun st i => if Z.eqb idx (Z.of_nat i) then (nth i pal 0, nth (S i) pal 0) else st)
            (seq 0 (n - 1)) (0, 0).

(* resippy/utils/image_utils/image_utils.py:226-228, 241-256, one pixel, one channel,
   without the final cast to output_dtype.  min and max are the (adjusted) clips. *)
Definition colormap_channel (pal : list R) (continuous : bool) (mn mx : R) (n : nat) (g : R) : flt :=
  let b := find_bin mn mx n g in
  let '(lo, hi) := find_colors pal n (bin_idx b) in
  let base :=
    if continuous then
      match fdiv (g - bin_lo b) (bin_hi b - bin_lo b) with
      | Fin wh => Fin (lo * (1 - wh) + hi * wh)
      | NonFinite => NonFinite
      end
    else Fin lo in
  let c1 := if Rltb g mn then Fin (nth 0 pal 0) else base in
  let c2 := if Rltb mx g then Fin (last pal 0) else c1 in
  fmap (fun v => v * 255) c2.

(** The palette as three channels of equal length *)
Record palette := mkPal { pal_r : list R; pal_g : list R; pal_b : list R }.
Definition pal_len (p : palette) : nat := length (pal_r p).

(* resippy/utils/image_utils/image_utils.py:201-205 *)
Definition adjusted_max (continuous : bool) (mn mx : R) (n : nat) : R :=
  if continuous then mx else mn + (mx - mn) * INR (n - 1) / INR n.

(* resippy/utils/image_utils/image_utils.py:166-259 with n_bins None and the clips
   given (or computed by default_clips); one pixel.  output_dtype float64: the final
   cast to uint8 is to_uint8 below. *)
Definition apply_colormap_pixel (p : palette) (continuous : bool) (mn mx : R) (g : R) : flt * flt * flt :=
  let n := pal_len p in
  let mx' := adjusted_max continuous mn mx n in
  (colormap_channel (pal_r p) continuous mn mx' n g,
   colormap_channel (pal_g p) continuous mn mx' n g,
   colormap_channel (pal_b p) continuous mn mx' n g).

(* resippy/utils/image_utils/image_utils.py:175-188: clips that are not given are the
   extremes of the pixels that are not nodata; an empty selection raises *)
Definition default_clips (img : list R) (nodata mn mx : option R) : result (R * R) :=
  let good := match nodata with None => img | Some v => filter (fun p => negb (Reqb p v)) img end in
  a <- match mn with Some m => Ok m | None => match rmin good with Some m => Ok m | None => Err ValueError end end ;;
  b <- match mx with Some m => Ok m | None => match rmax good with Some m => Ok m | None => Err ValueError end end ;;
  Ok (a, b).

(* resippy/utils/image_utils/image_utils.py:191-199: the palette resampled to n_bins colours by a continuous
   mapping of n_bins equally spaced values (whose own extremes are the clips).  No value at all: numpy.nanmin
   raises; an empty palette has no first row (line 253); of a single bin numpy.squeeze makes a vector that
   cannot be indexed with two indices (line 253 of the outer call).  [Ok None]: every colour of the resampled
   palette is NaN, because the clips coincide or the given palette has one colour (0/0 at line 226). *)
Definition resample_palette (p : palette) (mn mx : R) (n_bins : nat) : result (option palette) :=
  let vals := linspace mn mx n_bins in
  match rmin vals, rmax vals with
  | Some a, Some b =>
    if Nat.eqb (pal_len p) 0 || Nat.eqb n_bins 1 then Err IndexError else
    if Reqb a b || Nat.eqb (pal_len p) 1 then Ok None else
    let ch := fun c => map (fun v => match colormap_channel c true a b (pal_len p) v with
                                     | Fin x => x / 255 | NonFinite => 0 end) vals in
    Ok (Some (mkPal (ch (pal_r p)) (ch (pal_g p)) (ch (pal_b p))))
  | _, _ => Err ValueError
  end.

(* resippy/utils/image_utils/image_utils.py:259, output_dtype numpy.uint8 (the default): truncation
   toward zero, then the low eight bits.  What a NaN casts to is not modelled (None). *)
Definition cast_uint8 (v : flt) : option Z :=
  match v with
  | Fin x => Some ((if Rltb x 0 then - Int_part (- x) else Int_part x) mod 256)%Z
  | NonFinite => None
  end.
Definition to_uint8 (px : flt * flt * flt) : option Z * option Z * option Z :=
  let '(r, g, b) := px in (cast_uint8 r, cast_uint8 g, cast_uint8 b).

(* resippy/utils/image_utils/image_utils.py:166-259, the whole function on a list of pixels, before the cast
   of line 259.  An empty palette has no first row (line 253).  With a palette of NaN every pixel is NaN: in
   range it mixes such colours, out of range it takes one. *)
Definition apply_colormap_to_grayscale_image (p : palette) (continuous : bool) (n_bins : option nat)
    (mn mx nodata : option R) (img : list R) : result (list (flt * flt * flt)) :=
  clips <- default_clips img nodata mn mx ;;
  pal <- match n_bins with
         | None => if Nat.eqb (pal_len p) 0 then Err IndexError else Ok (Some p)
         | Some n => resample_palette p (fst clips) (snd clips) n
         end ;;
  match pal with
  | Some q => Ok (map (apply_colormap_pixel q continuous (fst clips) (snd clips)) img)
  | None => Ok (map (fun _ => (NonFinite, NonFinite, NonFinite)) img)
  end.

(* ------------------------- mutual information --------------------- *)

(* resippy/utils/image_utils/image_registration.py:25-40 on histograms given as
   functions of the bin numbers; the histograms themselves come from numpy *)
Definition histogram_mmi (n : nat) (h1 h2 : nat -> R) (joint : nat -> nat -> R) : R :=
  bigsum n (fun a => bigsum n (fun b =>
    if Reqb (joint a b) 0 then 0 else joint a b * ln (joint a b / (h1 a * h2 b)))).
