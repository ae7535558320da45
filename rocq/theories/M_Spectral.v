(** Model of resippy/spectral/spectral_image_processing_1d.py and _2d.py and of
    the cube reshaping in resippy/utils/spectral_utils.py.

    Floats are exact reals; a quantity that numpy would return as NaN, infinity or
    masked is None / NonFinite.  numpy.linalg.inv and scipy's fractional matrix
    power are arguments. *)
From Verif Require Export LinAlg.
Open Scope R_scope.

(** A 1-D spectral image: m samples by nb bands (the array of shape (m, nb)) *)
Record simg := mkSimg { si_m : nat; si_nb : nat; si_px : nat -> nat -> R }.
(** A 2-D image cube: array of shape (ny, nx, nb) *)
Record scube := mkScube { sc_ny : nat; sc_nx : nat; sc_nb : nat; sc_px : nat -> nat -> nat -> R }.

(** numpy.ma: an entry whose mask value is true (non-zero) does not take part *)
Definition keep (mask : option (nat -> bool)) (s : nat) : bool :=
  match mask with None => true | Some k => negb (k s) end.
Definition weight (mask : option (nat -> bool)) (s : nat) : R := if keep mask s then 1 else 0.
Fixpoint count_kept (mask : option (nat -> bool)) (m : nat) : nat :=
  match m with O => O | S k => (count_kept mask k + if keep mask k then 1 else 0)%nat end.

(** resippy/spectral/spectral_image_processing_1d.py:8-19 compute_image_cube_spectral_mean.
    None: the mean of no sample (NaN, or masked). *)
Definition spectral_mean (img : simg) (mask : option (nat -> bool)) : option vec :=
  let c := count_kept mask (si_m img) in
  if Nat.eqb c 0 then None
  else Some (fun b => bigsum (si_m img) (fun s => weight mask s * si_px img s b) / INR c).

(** resippy/spectral/spectral_image_processing_1d.py:22-26 demean_image_data: every pixel, masked or not, minus the mean *)
Definition demean_image_data (img : simg) (mask : option (nat -> bool)) : option simg :=
  match spectral_mean img mask with
  | None => None
  | Some mu => Some (mkSimg (si_m img) (si_nb img) (fun s b => si_px img s b - mu b))
  end.

(** resippy/spectral/spectral_image_processing_1d.py:29-40 compute_image_cube_spectral_covariance: numpy.cov / numpy.ma.cov with
    the default normalisation (count - 1).  None: no degree of freedom (NaN). *)
Definition spectral_covariance (img : simg) (mask : option (nat -> bool)) : option mat :=
  let c := count_kept mask (si_m img) in
  match spectral_mean img mask with
  | None => None
  | Some mu =>
      if Nat.leb c 1 then None
      else Some (fun i j =>
        bigsum (si_m img) (fun s => weight mask s * ((si_px img s i - mu i) * (si_px img s j - mu j)))
        / (INR c - 1))
  end.

Definition is_masked (mask : option (nat -> bool)) : bool := match mask with None => false | Some _ => true end.
(** numpy.linalg.inv of a covariance, for lines resippy/spectral/spectral_image_processing_1d.py:54 and 90: numpy.cov of a
    one-band image is a 0-dimensional array, for which inv raises LinAlgError;
    inv of a singular matrix raises LinAlgError (None); NaN in, NaN out.  The covariance of a
    masked image without a degree of freedom is masked, with zeros underneath, and inv takes
    these: LinAlgError. *)
Definition inv_covariance (inv : mat -> option mat) (nb : nat) (masked : bool) (cov : option mat) : result (option mat) :=
  if Nat.eqb nb 1 then Err OtherError
  else match cov with
       | None => if masked then Err OtherError else Ok None
       | Some C => match inv C with Some W => Ok (Some W) | None => Err OtherError end
       end.

(** resippy/spectral/spectral_image_processing_1d.py:45-64 rx_anomaly_detector *)
Definition rx_anomaly_detector (inv : mat -> option mat) (img : simg)
    (mean : option vec) (inverse_covariance : option mat) : result (nat -> flt) :=
  let mu := match mean with Some v => Some v | None => spectral_mean img None end in
  W <- match inverse_covariance with
       | Some W => Ok (Some W)
       | None => inv_covariance inv (si_nb img) false (spectral_covariance img None)
       end ;;
  match mu, W with
  | Some mu, Some W =>
      let nb := si_nb img in
      let demeaned s b := si_px img s b - mu b in
      let rt b s := bigsum nb (fun j => W b j * demeaned s j) in
      Ok (fun s => Fin (bigsum nb (fun b => demeaned s b * rt b s)))
  | _, _ => Ok (fun _ => NonFinite)
  end.

(** resippy/spectral/spectral_image_processing_1d.py:126-159 ace_demeaned *)
Definition ace_demeaned (img : simg) (target : vec) (W : mat) : nat -> flt :=
  let nb := si_nb img in
  let num s := bigsum nb (fun b => target b * bigsum nb (fun j => W b j * si_px img s j)) in
  let den_left := bigsum nb (fun b => target b * bigsum nb (fun j => W b j * target j)) in
  let den_right s := bigsum nb (fun b => si_px img s b * bigsum nb (fun j => W b j * si_px img s j)) in
  fun s => fdiv (num s * num s) (den_left * den_right s).

(** resippy/spectral/spectral_image_processing_1d.py:67-123 ace; lines 97-123 are those of ace_demeaned applied to the
    demeaned image and target of lines 91-92 *)
Definition ace (inv : mat -> option mat) (img : simg) (target : vec)
    (mean : option vec) (inverse_covariance : option mat) (mask : option (nat -> bool)) : result (nat -> flt) :=
  let mu := match mean with Some v => Some v | None => spectral_mean img mask end in
  W <- match inverse_covariance with
       | Some W => Ok (Some W)
       | None => inv_covariance inv (si_nb img) (is_masked mask) (spectral_covariance img mask)
       end ;;
  match mu, W with
  | Some mu, Some W =>
      let nb := si_nb img in
      let demeaned s b := si_px img s b - mu b in
      let dtarget b := target b - mu b in
      let num s := bigsum nb (fun b => dtarget b * bigsum nb (fun j => W b j * demeaned s j)) in
      let den_left := bigsum nb (fun b => dtarget b * bigsum nb (fun j => W b j * dtarget j)) in
      let den_right s := bigsum nb (fun b => demeaned s b * bigsum nb (fun j => W b j * demeaned s j)) in
      Ok (fun s => fdiv (num s * num s) (den_left * den_right s))
  | _, _ => Ok (fun _ => NonFinite)
  end.

(** resippy/spectral/spectral_image_processing_1d.py:165-181 sam *)
Definition sam (img : simg) (target : vec) : nat -> flt :=
  let nb := si_nb img in
  let numerator s := bigsum nb (fun b => target b * si_px img s b) in
  let den_left := sqrt (bigsum nb (fun b => target b * target b)) in
  let den_right s := sqrt (bigsum nb (fun b => si_px img s b * si_px img s b)) in
  fun s => fdiv (numerator s) (den_left * den_right s).

(** resippy/spectral/spectral_image_processing_1d.py:225-245 compute_cov_eq_linear_transform_matrix; fpow C p is scipy's
    fractional_matrix_power, which rejects the 0-dimensional covariance of a
    one-band image and a covariance with NaN (ValueError), as numpy.dot does matrices of
    different sizes.  The covariance of a masked image without a degree of freedom has zeros
    under its mask: the result is not modelled (None). *)
Definition compute_cov_eq_linear_transform_matrix (fpow : mat -> R -> mat) (img1 img2 : simg)
    (mask1 mask2 : option (nat -> bool)) : result (option mat) :=
  let nb := si_nb img1 in
  if Nat.eqb nb 1 || Nat.eqb (si_nb img2) 1 then Err ValueError
  else
    let C1 := spectral_covariance img1 mask1 in
    let C2 := spectral_covariance img2 mask2 in
    let nan C mask := match C with None => negb (is_masked mask) | Some _ => false end in
    if nan C1 mask1 || nan C2 mask2 then Err ValueError
    else if negb (Nat.eqb nb (si_nb img2)) then Err ValueError
    else match C1, C2 with
         | Some C1, Some C2 => Ok (Some (mm nb (mm nb (fpow C2 (1 / 2)) eye) (fpow C1 (- (1 / 2)))))
         | _, _ => Ok None
         end.

(** resippy/spectral/spectral_image_processing_1d.py:195-213 covariance_equalization_mean_centered *)
Definition covariance_equalization_mean_centered (fpow : mat -> R -> mat) (img1 img2 : simg)
    (mask1 mask2 : option (nat -> bool)) : result (option simg) :=
  L <- compute_cov_eq_linear_transform_matrix fpow img1 img2 mask1 mask2 ;;
  match L with
  | None => Ok None
  | Some L => Ok (Some (mkSimg (si_m img1) (si_nb img1)
                          (fun s b => bigsum (si_nb img1) (fun j => L b j * si_px img1 s j))))
  end.

(* ---------------------------- 2-D ------------------------------- *)

(** resippy/utils/spectral_utils.py:48-59 flatten_image_cube (numpy reshape is row-major) *)
Definition flatten_image_cube (c : scube) : simg :=
  mkSimg (sc_ny c * sc_nx c) (sc_nb c) (fun s b => sc_px c (s / sc_nx c)%nat (s mod sc_nx c)%nat b).

(** resippy/utils/spectral_utils.py:62-75 unflatten_image_cube: reshape raises ValueError when the
    sizes differ (for an image without bands every size is 0, so none differ) *)
Definition unflatten_image_cube (img : simg) (nx ny : nat) : result scube :=
  if Nat.eqb (si_m img * si_nb img) (ny * nx * si_nb img)
  then Ok (mkScube ny nx (si_nb img) (fun y x b => si_px img (y * nx + x)%nat b))
  else Err ValueError.

(** resippy/utils/image_utils/image_utils.py:56-68 flatten_image_band / unflatten_image_band on masks and scores,
    as functions of the position (the list model is in M_Image.v) *)
Definition flatten_mask (nx : nat) (mask : option (nat -> nat -> bool)) : option (nat -> bool) :=
  match mask with None => None | Some k => Some (fun s => k (s / nx)%nat (s mod nx)%nat) end.
Definition unflatten_scores {A} (nx : nat) (v : nat -> A) : nat -> nat -> A :=
  fun y x => v (y * nx + x)%nat.

(** resippy/spectral/spectral_image_processing_2d.py:32-39 *)
Definition spectral_mean_2d (c : scube) (mask : option (nat -> nat -> bool)) : option vec :=
  spectral_mean (flatten_image_cube c) (flatten_mask (sc_nx c) mask).

(** resippy/spectral/spectral_image_processing_2d.py:42-51 *)
Definition demean_image_data_2d (c : scube) (mask : option (nat -> nat -> bool)) : result (option scube) :=
  match demean_image_data (flatten_image_cube c) (flatten_mask (sc_nx c) mask) with
  | None => Ok None
  | Some d => rmap Some (unflatten_image_cube d (sc_nx c) (sc_ny c))
  end.

(** resippy/spectral/spectral_image_processing_2d.py:54-61 *)
Definition spectral_covariance_2d (c : scube) (mask : option (nat -> nat -> bool)) : option mat :=
  spectral_covariance (flatten_image_cube c) (flatten_mask (sc_nx c) mask).

(** resippy/spectral/spectral_image_processing_2d.py:64-74 *)
Definition rx_anomaly_detector_2d (inv : mat -> option mat) (c : scube)
    (mean : option vec) (inverse_covariance : option mat) : result (nat -> nat -> flt) :=
  rmap (unflatten_scores (sc_nx c)) (rx_anomaly_detector inv (flatten_image_cube c) mean inverse_covariance).

(** resippy/spectral/spectral_image_processing_2d.py:77-93 *)
Definition ace_2d (inv : mat -> option mat) (c : scube) (target : vec)
    (mean : option vec) (inverse_covariance : option mat) (mask : option (nat -> nat -> bool)) : result (nat -> nat -> flt) :=
  rmap (unflatten_scores (sc_nx c))
       (ace inv (flatten_image_cube c) target mean inverse_covariance (flatten_mask (sc_nx c) mask)).

(** resippy/spectral/spectral_image_processing_2d.py:96-104 *)
Definition ace_demeaned_2d (c : scube) (target : vec) (W : mat) : nat -> nat -> flt :=
  unflatten_scores (sc_nx c) (ace_demeaned (flatten_image_cube c) target W).

(** resippy/spectral/spectral_image_processing_2d.py:107-114 *)
Definition sam_2d (c : scube) (target : vec) : nat -> nat -> flt :=
  unflatten_scores (sc_nx c) (sam (flatten_image_cube c) target).

(** resippy/spectral/spectral_image_processing_2d.py:117-134 *)
Definition covariance_equalization_mean_centered_2d (fpow : mat -> R -> mat) (c1 c2 : scube)
    (mask1 mask2 : option (nat -> nat -> bool)) : result (option scube) :=
  e <- covariance_equalization_mean_centered fpow (flatten_image_cube c1) (flatten_image_cube c2)
         (flatten_mask (sc_nx c1) mask1) (flatten_mask (sc_nx c2) mask2) ;;
  match e with
  | None => Ok None
  | Some d => rmap Some (unflatten_image_cube d (sc_nx c1) (sc_ny c1))
  end.

(** resippy/spectral/spectral_image_processing_2d.py:142-155: unlike the other functions of the file it flattens the masks
    without testing for None, and None has no shape: AttributeError *)
Definition compute_cov_eq_linear_transform_matrix_2d (fpow : mat -> R -> mat) (c1 c2 : scube)
    (mask1 mask2 : option (nat -> nat -> bool)) : result (option mat) :=
  match mask1, mask2 with
  | Some _, Some _ =>
      compute_cov_eq_linear_transform_matrix fpow (flatten_image_cube c1) (flatten_image_cube c2)
        (flatten_mask (sc_nx c1) mask1) (flatten_mask (sc_nx c2) mask2)
  | _, _ => Err AttributeError
  end.
