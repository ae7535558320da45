(** Specification vocabulary for C46 to C49. *)
From Verif Require Import RAux Text.
Open Scope R_scope.
Open Scope list_scope.

(** 1980-01-06 and 1980-01-01 in Unix seconds *)
Definition gps_epoch_unix : Z := 315964800.
Definition year_1980_unix : Z := 315532800.

(** The instants right after the leap seconds inserted since 1980 (IERS Bulletin C),
    in Unix seconds: mid 1981, 82, 83, 85, end 87, 89, 90, mid 92, 93, 94, end 95, mid
    97, end 98, 2005, 2008, mid 2012, 2015, end 2016 *)
Definition leap_instants : list Z :=
  [362793600; 394329600; 425865600; 489024000; 567993600; 631152000; 662688000; 709948800; 741484800;
   773020800; 820454400; 867715200; 915148800; 1136073600; 1230768000; 1341100800; 1435708800; 1483228800]%Z.

(** Number of them at or before t *)
Definition leaps_until (t : R) : Z := zlen (filter (fun l => Rleb (IZR l) t) leap_instants).

(** GPS seconds at the UTC (Unix) time t: elapsed seconds plus inserted leap seconds *)
Definition gps_seconds (t : R) : R := t - IZR gps_epoch_unix + IZR (leaps_until t).

(** Value of a string of decimal digits after the decimal point *)
Fixpoint decimal_fraction (ds : list Z) : R :=
  match ds with [] => 0 | d :: r => (IZR d + decimal_fraction r) / 10 end.
Definition digit_char (d : Z) : ascii := ascii_of_nat (48 + Z.to_nat d).
Definition is_digit_val (d : Z) : Prop := (0 <= d <= 9)%Z.

(** A number of a given width, padded with zeros *)
Fixpoint padded (width : nat) (n : Z) : text :=
  match width with
  | O => []
  | S w => padded w (n / 10) ++ [digit_char (n mod 10)]
  end.
(** The EXIF form of a date and time *)
Definition exif_datetime (y m d hh mm ss : Z) : text :=
  padded 4 y ++ ":"%char :: padded 2 m ++ ":"%char :: padded 2 d ++ " "%char ::
  padded 2 hh ++ ":"%char :: padded 2 mm ++ ":"%char :: padded 2 ss.

(** The Gregorian calendar, and the number n of days since 1970-01-01, by counting *)
Definition leap_year (y : Z) : Prop := ((4 | y) /\ (~ (100 | y) \/ (400 | y)))%Z.
Inductive month_length (y : Z) : Z -> Z -> Prop :=
| thirty_one m : In m [1; 3; 5; 7; 8; 10; 12]%Z -> month_length y m 31
| thirty m : In m [4; 6; 9; 11]%Z -> month_length y m 30
| february_common : ~ leap_year y -> month_length y 2 28
| february_leap : leap_year y -> month_length y 2 29.
Definition valid_date (y m d : Z) : Prop := exists l, month_length y m l /\ (1 <= d <= l)%Z.
Inductive day_number : Z -> Z -> Z -> Z -> Prop :=
| first_day : day_number 1970 1 1 0
| same_month y m d n : day_number y m d n -> valid_date y m (d + 1) -> day_number y m (d + 1) (n + 1)
| next_month y m d n : day_number y m d n -> month_length y m d -> (m < 12)%Z -> day_number y (m + 1) 1 (n + 1)
| next_year y n : day_number y 12 31 n -> day_number (y + 1) 1 1 (n + 1).

(** Decimal degrees of a degree, minute, second triple of rationals *)
Definition decimal_degrees (d m s : Z * Z) : R :=
  IZR (fst d) / IZR (snd d) + IZR (fst m) / IZR (snd m) / 60 + IZR (fst s) / IZR (snd s) / 3600.
