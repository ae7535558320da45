(** Model of resippy/spectral/spectrum.py (class Spectrum). *)
From Verif Require Export RAux Text.
Open Scope R_scope.
Open Scope list_scope.

(* ------------- object state, with arrays shared by reference -------- *)

(** Arrays live in a heap and are referred to by location, so that sharing between the
    caller and the object is visible.  An array is a list of floats; its dtype is a
    float type (assigning NaN into an integer array is not modelled). *)
Definition heap := list (list flt).

(** resippy/spectral/spectrum.py:9-17: the attributes; None is Python's None.  _bbl has neither setter
    nor getter and is left out. *)
Record spectrum := mkSpectrum {
  sp_wavelengths : option nat;
  sp_spectral_data : option nat;
  sp_fwhm : option nat;
  sp_spectrum_units : option text;
  sp_wavelength_units : option text;
  sp_nodata_val : option R;
  sp_fname : option text }.

(** resippy/spectral/spectrum.py:9-17 __init__ *)
Definition new_spectrum : spectrum := mkSpectrum None None None None None None None.

(** numpy's element == nodata_val, then NaN where equal: resippy/spectral/spectrum.py:42.
    A comparison with None, or of NaN, is false. *)
Definition nodata_to_nan_elt (nodata : option R) (x : flt) : flt :=
  match x, nodata with
  | Fin r, Some v => if Reqb r v then NonFinite else Fin r
  | _, _ => x
  end.

(** resippy/spectral/spectrum.py:35-45 get_spectral_data with with_units=False: deepcopy allocates a new
    array, line 42 writes into the copy.  The deep copy of None does not support item
    assignment (TypeError), and is returned when nodata_to_nan is false. *)
Definition get_spectral_data (h : heap) (s : spectrum) (nodata_to_nan : bool) : heap * result (option nat) :=
  match sp_spectral_data s with
  | None => if nodata_to_nan then (h, Err TypeError) else (h, Ok None)
  | Some l =>
      match nth_error h l with
      | None => (h, Err OtherError)
      | Some d =>
          let d' := if nodata_to_nan then map (nodata_to_nan_elt (sp_nodata_val s)) d else d in
          (h ++ [d'], Ok (Some (length h)))
      end
  end.

(** The calls a user can make, and one that stands for the caller writing into an array
    it holds a reference to (array[i] = v); the lines are those of resippy/spectral/spectrum.py *)
Inductive sop :=
| SetFname (v : option text)            (* 22-25 *)
| SetNodata (v : option R)              (* 30-33 *)
| SetSpectralData (v : option nat)      (* 47-50: stores the reference *)
| SetWavelengths (v : option nat)       (* 60-63: stores the reference *)
| SetFwhm (v : option nat)              (* 73-76: stores the reference *)
| SetSpectrumUnits (v : option text)    (* 81-84 *)
| SetWavelengthUnits (v : option text)  (* 89-92 *)
| GetSpectralData (nodata_to_nan : bool)(* 35-45 *)
| GetWavelengths                        (* 52-58: returns the stored reference *)
| GetFwhm                               (* 65-71: returns the stored reference *)
| GetOther                              (* 19-20, 27-28, 78-79, 86-87: return the stored value *)
| CallerWrites (l i : nat) (v : flt).

Definition list_upd {A} (l : list A) (i : nat) (v : A) : list A :=
  if Nat.ltb i (length l) then firstn i l ++ v :: skipn (S i) l else l.

Definition heap_write (h : heap) (l i : nat) (v : flt) : heap :=
  match nth_error h l with Some d => list_upd h l (list_upd d i v) | None => h end.

(** State after a call, and the array reference it returns: resippy/spectral/spectrum.py:19-92 *)
Definition sp_step (st : heap * spectrum) (o : sop) : (heap * spectrum) * option nat :=
  let '(h, s) := st in
  let 'mkSpectrum w d f su wu nd fn := s in
  match o with
  | SetFname v => ((h, mkSpectrum w d f su wu nd v), None)
  | SetNodata v => ((h, mkSpectrum w d f su wu v fn), None)
  | SetSpectralData v => ((h, mkSpectrum w v f su wu nd fn), None)
  | SetWavelengths v => ((h, mkSpectrum v d f su wu nd fn), None)
  | SetFwhm v => ((h, mkSpectrum w d v su wu nd fn), None)
  | SetSpectrumUnits v => ((h, mkSpectrum w d f v wu nd fn), None)
  | SetWavelengthUnits v => ((h, mkSpectrum w d f su v nd fn), None)
  | GetSpectralData b =>
      let '(h', r) := get_spectral_data h s b in
      ((h', s), match r with Ok o => o | _ => None end)
  | GetWavelengths => (st, w)
  | GetFwhm => (st, f)
  | GetOther => (st, None)
  | CallerWrites l i v => ((heap_write h l i v, s), None)
  end.

Definition sp_run (st : heap * spectrum) (ops : list sop) : heap * spectrum :=
  fold_left (fun st o => fst (sp_step st o)) ops st.

(* ------------- resampling ------------------------------------------- *)

Definition fadd := fmap2 Rplus.
Definition fmul := fmap2 Rmult.
Definition fscale (k : R) (x : flt) : flt := fmap (Rmult k) x.
Definition fdivf (x y : flt) : flt := match x, y with Fin a, Fin b => fdiv a b | _, _ => NonFinite end.

(** numpy.interp(x, xp, fp, left=0, right=0) on increasing xp: the segment containing x.
    A NaN of fp makes its two segments NaN. *)
Definition lin (x0 : R) (f0 : flt) (x1 : R) (f1 : flt) (x : R) : flt :=
  match f0, f1 with
  | Fin a, Fin b => Fin ((b - a) / (x1 - x0) * (x - x0) + a)
  | _, _ => NonFinite
  end.
Fixpoint interp_go (x x0 : R) (f0 : flt) (rest : list (R * flt)) : flt :=
  match rest with
  | [] => if Reqb x x0 then f0 else Fin 0
  | (x1, f1) :: r => if Rltb x x1 then lin x0 f0 x1 f1 x else interp_go x x1 f1 r
  end.
Definition np_interp (x : R) (pts : list (R * flt)) : result flt :=
  match pts with
  | [] => Err ValueError
  | (x0, f0) :: r => if Rltb x x0 then Ok (Fin 0) else Ok (interp_go x x0 f0 r)
  end.

(** numpy.trapz(y, x) *)
Fixpoint trapz (ys : list flt) (xs : list R) {struct xs} : flt :=
  match xs, ys with
  | x0 :: ((x1 :: _) as xs'), y0 :: ((y1 :: _) as ys') =>
      fadd (fscale ((x1 - x0) / 2) (fadd y0 y1)) (trapz ys' xs')
  | _, _ => Fin 0
  end.

(** The contents of a Spectrum as resample_spectrum_direct reads them: resippy/spectral/spectrum.py:95-100 *)
Record spec_val := mkSpecVal {
  sv_wave : list R;
  sv_data : list flt;
  sv_nodata : option R;
  sv_units : option text;
  sv_wave_units : option text }.

Definition read_data (s : spec_val) : list flt := map (nodata_to_nan_elt (sv_nodata s)) (sv_data s).

(** resippy/spectral/spectrum.py:101-118: one relative spectral response.  Arrays of different lengths
    raise ValueError (numpy's broadcasting of length-1 arrays is not modelled). *)
Definition resample_band (s rsr : spec_val) : result flt :=
  if negb (Nat.eqb (length (sv_wave rsr)) (length (sv_data rsr))) then Err ValueError
  else
    r <- mapM (fun x => np_interp x (combine (sv_wave rsr) (read_data rsr))) (sv_wave s) ;;
    if negb (Nat.eqb (length (sv_data s)) (length (sv_wave s))) then Err ValueError
    else
      let normed := map2 fmul (read_data s) r in
      Ok (fdivf (trapz normed (sv_wave s)) (trapz r (sv_wave s))).

(** resippy/spectral/spectrum.py:95-125 resample_spectrum_direct *)
Definition resample_spectrum_direct (s : spec_val) (rsrs : list spec_val) (centers : list R) : result spec_val :=
  bands <- mapM (resample_band s) rsrs ;;
  Ok (mkSpecVal centers bands None (sv_units s) None).
