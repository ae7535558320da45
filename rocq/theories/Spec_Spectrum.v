(** Specification vocabulary for C23, C24. *)
From Verif Require Import M_Spectrum.
From Coq Require Import Sorted.
Open Scope R_scope.
Open Scope list_scope.

(** The value last given to a field by a history of calls, or the initial one *)
Fixpoint last_set {A} (pick : sop -> option A) (init : A) (ops : list sop) : A :=
  match ops with
  | [] => init
  | o :: r => last_set pick (match pick o with Some v => v | None => init end) r
  end.
Definition pick_fname o := match o with SetFname v => Some v | _ => None end.
Definition pick_nodata o := match o with SetNodata v => Some v | _ => None end.
Definition pick_data o := match o with SetSpectralData v => Some v | _ => None end.
Definition pick_wave o := match o with SetWavelengths v => Some v | _ => None end.
Definition pick_fwhm o := match o with SetFwhm v => Some v | _ => None end.
Definition pick_units o := match o with SetSpectrumUnits v => Some v | _ => None end.
Definition pick_wave_units o := match o with SetWavelengthUnits v => Some v | _ => None end.

(** The caller does not write into array l during the history *)
Definition no_write_to (l : nat) (o : sop) : Prop := match o with CallerWrites l' _ _ => l' <> l | _ => True end.
(** neither the stored data reference nor the no-data value is set *)
Definition no_data_set (o : sop) : Prop := match o with SetSpectralData _ | SetNodata _ => False | _ => True end.

(** Samples equal to the no-data value become NaN, all others stay *)
Definition nodata_replaced (nodata : option R) (d d' : list flt) : Prop :=
  length d' = length d /\
  forall i x, nth_error d i = Some x ->
    (forall v, nodata = Some v -> x = Fin v -> nth_error d' i = Some NonFinite) /\
    ((forall v, nodata = Some v -> x <> Fin v) -> nth_error d' i = Some x).

Definition non_negative (x : flt) : Prop := exists r, x = Fin r /\ 0 <= r.
Definition within (lo hi : R) (x : flt) : Prop := exists r, x = Fin r /\ lo <= r <= hi.

(** The value y at wavelength x of a response given by samples: the sample, the straight line
    between two neighbouring samples, zero before the first and after the last *)
Inductive response (waves values : list R) (x y : R) : Prop :=
| at_sample (i : nat) : nth_error waves i = Some x -> nth_error values i = Some y -> response waves values x y
| between_samples (i : nat) (x0 x1 y0 y1 : R) :
    nth_error waves i = Some x0 -> nth_error waves (S i) = Some x1 ->
    nth_error values i = Some y0 -> nth_error values (S i) = Some y1 ->
    x0 < x < x1 -> y = y0 + (y1 - y0) * ((x - x0) / (x1 - x0)) -> response waves values x y
| outside : (forall w, In w waves -> x < w) \/ (forall w, In w waves -> w < x) -> y = 0 -> response waves values x y.

(** The integral of samples ys at xs by the trapezoidal rule *)
Definition trapezoids (xs ys : list R) : R :=
  bigsum (length xs - 1) (fun i => (nth (S i) xs 0 - nth i xs 0) * ((nth i ys 0 + nth (S i) ys 0) / 2)).
