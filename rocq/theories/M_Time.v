(** Model of resippy/utils/time_utils.py and of the capture time and position of a
    Micasense image (resippy/image_objects/earth_overhead/micasense/micasense_image.py). *)
From Verif Require Export RAux Text.
Open Scope R_scope.
Open Scope list_scope.

(* ------------------- datetime (CPython's datetime.py) ---------------- *)

Definition is_leap (y : Z) : bool :=
  ((y mod 4 =? 0) && (negb (y mod 100 =? 0) || (y mod 400 =? 0)))%Z.
Definition days_before_year (y : Z) : Z :=
  let p := (y - 1)%Z in (p * 365 + p / 4 - p / 100 + p / 400)%Z.
Definition month_lengths (y : Z) : list Z :=
  [31; if is_leap y then 29 else 28; 31; 30; 31; 30; 31; 31; 30; 31; 30; 31]%Z.
Definition days_before_month (y m : Z) : Z :=
  fold_right Z.add 0%Z (firstn (Z.to_nat (m - 1)) (month_lengths y)).
Definition days_in_month (y m : Z) : Z := nth (Z.to_nat (m - 1)) (month_lengths y) 0%Z.
Definition ordinal (y m d : Z) : Z := (days_before_year y + days_before_month y m + d)%Z.

(** Seconds from 1970-01-01T00:00:00 to a naive datetime, both on the same clock *)
Definition naive_seconds (y m d hh mm ss : Z) : Z :=
  ((ordinal y m d - ordinal 1970 1 1) * 86400 + hh * 3600 + mm * 60 + ss)%Z.

(** datetime(...) raises ValueError for fields out of range *)
Definition valid_datetime (y m d hh mm ss : Z) : bool :=
  ((1 <=? y) && (y <=? 9999) && (1 <=? m) && (m <=? 12) && (1 <=? d) && (d <=? days_in_month y m) &&
   (0 <=? hh) && (hh <=? 23) && (0 <=? mm) && (mm <=? 59) && (0 <=? ss) && (ss <=? 59))%Z.

(* --------------------------- time_utils ------------------------------ *)

Section Zone.
  (** The local time zone of the process: seconds east of UTC as a function of the
      naive local time.  datetime.timestamp() of a naive datetime is local time. *)
  Context (zone : Z -> Z).
  Definition naive_timestamp (n : Z) : Z := (n - zone n)%Z.
  Definition date_timestamp (y m d : Z) : Z := naive_timestamp (naive_seconds y m d 0 0 0).

  (* resippy/utils/time_utils.py:6-26 *)
  Definition leapseconds : list (Z * Z) :=
    [ (date_timestamp 1980 1 1, 19); (date_timestamp 1981 7 1, 20); (date_timestamp 1982 7 1, 21);
      (date_timestamp 1983 7 1, 22); (date_timestamp 1985 7 1, 23); (date_timestamp 1988 1 1, 24);
      (date_timestamp 1990 1 1, 25); (date_timestamp 1991 1 1, 26); (date_timestamp 1992 7 1, 27);
      (date_timestamp 1993 7 1, 28); (date_timestamp 1994 7 1, 29); (date_timestamp 1996 1 1, 30);
      (date_timestamp 1997 7 1, 31); (date_timestamp 1999 1 1, 32); (date_timestamp 2006 1 1, 33);
      (date_timestamp 2009 1 1, 34); (date_timestamp 2012 7 1, 35); (date_timestamp 2015 7 1, 36);
      (date_timestamp 2017 1 1, 37) ]%Z.
  (* resippy/utils/time_utils.py:29-30 *)
  Definition gps_epoch : Z := date_timestamp 1980 1 6.
  Definition unix_epoch : Z := date_timestamp 1970 1 1.

  (** bisect.bisect_right of the Python library *)
  Fixpoint bisect_right_go (fuel : nat) (a : list Z) (x : R) (lo hi : nat) : nat :=
    match fuel with
    | O => lo
    | S f =>
      if Nat.ltb lo hi then
        let mid := ((lo + hi) / 2)%nat in
        if Rltb x (IZR (nth mid a 0%Z)) then bisect_right_go f a x lo mid
        else bisect_right_go f a x (S mid) hi
      else lo
    end.
  Definition bisect_right (a : list Z) (x : R) : nat := bisect_right_go (S (length a)) a x 0 (length a).

  (* resippy/utils/time_utils.py:42-46 *)
  Definition get_leapseconds (timestamp : R) : result Z :=
    let dates := map fst leapseconds in
    let index := (Z.of_nat (bisect_right dates timestamp) - 1)%Z in
    p <- py_get leapseconds index ;; Ok (snd p).

  (* resippy/utils/time_utils.py:49-51 *)
  Definition get_gps_leapsecond_offset (timestamp : R) : result Z :=
    a <- get_leapseconds timestamp ;; b <- get_leapseconds (IZR gps_epoch) ;; Ok (a - b)%Z.

  (* resippy/utils/time_utils.py:54-57 *)
  Definition utc_timestamp_to_gps_timestamp (t : R) : result R :=
    o <- get_gps_leapsecond_offset t ;; Ok (t - (IZR gps_epoch - IZR unix_epoch) + IZR o).

  (* resippy/utils/time_utils.py:60-63 *)
  Definition gps_timestamp_to_utc_timestamp (g : R) : result R :=
    let u := g + (IZR gps_epoch - IZR unix_epoch) in
    o <- get_gps_leapsecond_offset u ;; Ok (u - IZR o).

  (** math.floor and the Python remainder x % 1 *)
  Definition floorZ (x : R) : Z := (up x - 1)%Z.
  Definition mod1 (x : R) : R := x - IZR (floorZ x).

  (* resippy/utils/time_utils.py:66-73 *)
  Definition utc_timestamp_to_gps_week_and_seconds (t : R) : result (Z * R) :=
    g <- utc_timestamp_to_gps_timestamp t ;;
    let weeks := g / IZR (7 * (60 * 60 * 24)) in
    let seconds_in_week := mod1 weeks * IZR 7 * IZR (60 * 60 * 24) in
    Ok (floorZ weeks, seconds_in_week).

  (* ------------------------ Micasense image -------------------------- *)

  (** float('0.' + s) for a string s of decimal digits; float raises ValueError for
      other strings (an exponent, which float accepts, cannot come out of int()) *)
  Definition digit_val (c : ascii) : Z := Z.of_nat (nat_of_ascii c - 48).
  Definition digits_value (t : text) : Z := fold_left (fun a c => 10 * a + digit_val c)%Z t 0%Z.
  Definition float_0_dot (t : text) : result R :=
    if forallb is_digit t then Ok (IZR (digits_value t) / 10 ^ length t) else Err ValueError.

  (* resippy/image_objects/earth_overhead/micasense/micasense_image.py:46-47; subsec is str() of the tag *)
  Definition subsec_fraction (subsec : text) : result R :=
    n <- py_int subsec ;; float_0_dot (str_of_Z n).

  (* resippy/image_objects/earth_overhead/micasense/micasense_image.py:35-49 *)
  Definition micasense_gps_timestamp (datetime_str subsec : text) : result R :=
    year <- py_int (py_slice datetime_str 0 4) ;;
    month <- py_int (py_slice datetime_str 5 7) ;;
    day <- py_int (py_slice datetime_str 8 10) ;;
    hour <- py_int (py_slice datetime_str 11 13) ;;
    minute <- py_int (py_slice datetime_str 14 16) ;;
    second <- py_int (py_slice datetime_str 17 19) ;;
    if valid_datetime year month day hour minute second then
      (* tzinfo=timezone.utc: the timestamp does not depend on the zone *)
      ws <- utc_timestamp_to_gps_week_and_seconds (IZR (naive_seconds year month day hour minute second)) ;;
      f <- subsec_fraction subsec ;;
      Ok (snd ws + f)
    else Err ValueError.
End Zone.

(** A rational of an EXIF tag: numerator and denominator *)
Definition ratio : Type := (Z * Z)%type.

(* resippy/image_objects/earth_overhead/micasense/micasense_image.py:63-76; dms is the list of the tag's values, ref its reference *)
Definition dms_tag_to_dd (dms : list ratio) (ref : text) : result R :=
  d <- py_get dms 0 ;; m <- py_get dms 1 ;; s <- py_get dms 2 ;;
  if (snd s =? 0)%Z then Err ZeroDivisionError
  else
    let sec := IZR (fst s) / IZR (snd s) in
    let sign := if (text_eqb ref (txt "S") || text_eqb ref (txt "W"))%bool then -1 else 1 in
    Ok (sign * (IZR (fst d) + IZR (fst m) / 60 + sec / 3600)).
