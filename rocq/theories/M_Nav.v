(** Model of the navigation look-ups: resippy/photogrammetry/nav/abstract_nav.py,
    applanix_eo_nav.py and applanix_sbet_nav.py (both classes have the same code apart
    from the column names).  Columns are arrays of exact reals; query times may be
    NaN or infinite (NonFinite). *)
From Verif Require Export RAux Text M_Envi M_NavFiles.
Open Scope R_scope.
Open Scope list_scope.

(** A query or an answer: a number, a 1-d array, or a 2-d array given by its rows
    and the number of columns (other ranks are not modelled). *)
Inductive narr (A : Type) : Type :=
| Num (x : A)
| Vec (xs : list A)
| Mat (nx : nat) (rows : list (list A)).
Arguments Num {A} x.
Arguments Vec {A} xs.
Arguments Mat {A} nx rows.

(* resippy/photogrammetry/nav/abstract_nav.py:137-138 the descriptor *)
Inductive descriptor := DNumber | DVec | DMat (ny nx : nat).

(* resippy/photogrammetry/nav/abstract_nav.py:134-148 _format_input_array; reshape reads row by row *)
Definition format_input_array {A} (a : narr A) : list A * descriptor :=
  match a with
  | Num x => ([x], DNumber)
  | Vec xs => (xs, DVec)
  | Mat nx rows => (concat rows, DMat (length rows) nx)
  end.

(** numpy reshape of a 1-d array to (ny, nx) *)
Fixpoint split_rows {A} (ny nx : nat) (l : list A) : list (list A) :=
  match ny with
  | O => []
  | S ny' => firstn nx l :: split_rows ny' nx (skipn nx l)
  end.
Definition reshape2 {A} (ny nx : nat) (l : list A) : result (narr A) :=
  if Nat.eqb (length l) (ny * nx) then Ok (Mat nx (split_rows ny nx l)) else Err ValueError.

(* resippy/photogrammetry/nav/abstract_nav.py:150-162 _format_output_array; None stays None *)
Definition format_output_array {A} (out : option (list A)) (d : descriptor) : result (option (narr A)) :=
  match out with
  | None => Ok None
  | Some l =>
    match d with
    | DNumber => x <- py_get l 0 ;; Ok (Some (Num x))
    | DMat ny nx => m <- reshape2 ny nx l ;; Ok (Some m)
    | DVec => Ok (Some (Vec l))
    end
  end.

(** The nav data: a dictionary from column name to column *)
Definition nav_data := dict (list R).

(* resippy/photogrammetry/nav/applanix_eo_nav.py:62-68 (= resippy/photogrammetry/nav/applanix_sbet_nav.py:45-51) _gps_times_in_range.
   NaN compares false with everything, an infinity with one of the two ends. *)
Definition time_ge (bound : R) (t : flt) : bool := match t with Fin x => Rleb bound x | NonFinite => false end.
Definition time_le (bound : R) (t : flt) : bool := match t with Fin x => Rleb x bound | NonFinite => false end.
Definition gps_times_in_range (nav : nav_data) (q : list flt) : result bool :=
  times <- dict_get nav (txt "gps_time") ;;
  t0 <- py_get times 0 ;;
  if forallb (time_ge t0) q then
    tl <- py_get times (-1)%Z ;; Ok (forallb (time_le tl) q)
  else Ok false.

(** numpy.searchsorted(a, v), side left: the binary search of numpy, started on the
    whole array for every key *)
Fixpoint bisect (fuel : nat) (a : list R) (v : R) (lo hi : nat) : nat :=
  match fuel with
  | O => lo
  | S f =>
    if Nat.ltb lo hi then
      let mid := (lo + (hi - lo) / 2)%nat in
      if Rltb (nth mid a 0) v then bisect f a v (S mid) hi else bisect f a v lo mid
    else lo
  end.
Definition searchsorted (a : list R) (v : R) : nat := bisect (length a) a v 0 (length a).

(* resippy/photogrammetry/nav/applanix_eo_nav.py:70-75 _linear_interp, one element.  A zero denominator gives
   NaN or an infinity. *)
Definition linear_interp (x x0 x1 y0 y1 : R) : flt :=
  fdiv (y0 * (x1 - x) + y1 * (x - x0)) (x1 - x0).

(* resippy/photogrammetry/nav/applanix_eo_nav.py:77-89 _get_indexes and _get_xs, then the two subscripts of the
   column and _linear_interp (102-114 and the like), one element.  Index -1 is the
   last record. *)
Definition interp_at (times col : list R) (t : flt) : result flt :=
  match t with
  | NonFinite => Err OtherError (* not reached: NaN is out of range *)
  | Fin x =>
    let right := Z.of_nat (searchsorted times x) in
    let left := (right - 1)%Z in
    x0 <- py_get times left ;; x1 <- py_get times right ;;
    y0 <- py_get col left ;; y1 <- py_get col right ;;
    Ok (linear_interp x x0 x1 y0 y1)
  end.

(* resippy/photogrammetry/nav/applanix_eo_nav.py:107-121 and the five methods of the same shape *)
Definition column_native (nav : nav_data) (key : text) (q : list flt) : result (option (list flt)) :=
  inr <- gps_times_in_range nav q ;;
  if inr then
    times <- dict_get nav (txt "gps_time") ;;
    col <- dict_get nav key ;;
    ys <- mapM (interp_at times col) q ;;
    Ok (Some ys)
  else Ok None.

(* resippy/photogrammetry/nav/applanix_eo_nav.py:91-105 _get_nav_records_native: one dictionary per query time,
   with every column interpolated *)
Definition records_native (nav : nav_data) (q : list flt) : result (option (list (dict flt))) :=
  inr <- gps_times_in_range nav q ;;
  if inr then
    times <- dict_get nav (txt "gps_time") ;;
    cols <- mapM (fun kv => ys <- mapM (interp_at times (snd kv)) q ;; Ok (fst kv, ys)) nav ;;
    recs <- mapM (fun i => mapM (fun kv => v <- py_get (snd kv) (Z.of_nat i) ;; Ok (fst kv, v)) cols)
                 (seq 0 (length q)) ;;
    Ok (Some recs)
  else Ok None.

Inductive nav_class := ApplanixEO | ApplanixSBET.
Inductive channel := WorldYs | WorldXs | Alts | Rolls | Pitches | Headings.
(* resippy/photogrammetry/nav/applanix_eo_nav.py:107-201 and resippy/photogrammetry/nav/applanix_sbet_nav.py:90-184: the column read by each
   method *)
Definition channel_key (c : nav_class) (ch : channel) : text :=
  match c, ch with
  | ApplanixEO, WorldYs => txt "northing"
  | ApplanixEO, WorldXs => txt "easting"
  | ApplanixEO, Alts => txt "height"
  | ApplanixEO, Rolls => txt "omega"
  | ApplanixEO, Pitches => txt "phi"
  | ApplanixEO, Headings => txt "kappa"
  | ApplanixSBET, WorldYs => txt "y"
  | ApplanixSBET, WorldXs => txt "x"
  | ApplanixSBET, Alts => txt "z"
  | ApplanixSBET, Rolls => txt "roll"
  | ApplanixSBET, Pitches => txt "pitch"
  | ApplanixSBET, Headings => txt "azimuth"
  end.

(* resippy/photogrammetry/nav/abstract_nav.py:80-132 get_world_ys .. get_headings *)
Definition get_channel (c : nav_class) (ch : channel) (nav : nav_data) (q : narr flt)
  : result (option (narr flt)) :=
  let '(flat, d) := format_input_array q in
  out <- column_native nav (channel_key c ch) flat ;;
  format_output_array out d.

(* resippy/photogrammetry/nav/abstract_nav.py:71-78 get_nav_records *)
Definition get_nav_records (nav : nav_data) (q : narr flt) : result (option (narr (dict flt))) :=
  let '(flat, d) := format_input_array q in
  out <- records_native nav flat ;;
  format_output_array out d.

(* resippy/photogrammetry/nav/applanix_eo_nav.py:42-52: the dictionary that load_from_file leaves *)
Definition eo_keys : list text :=
  map txt ["gps_time"%string; "easting"%string; "northing"%string; "height"%string; "omega"%string;
           "phi"%string; "kappa"%string; "lat"%string; "lon"%string].
Definition eo_nav_data (to_float : text -> option R) (content : text) : nav_data :=
  combine eo_keys (eo_load to_float content).
