(** Model of MMI.image_mmi in resippy/utils/image_utils/image_registration.py with the two numpy
    histogram functions it calls (exact real arithmetic).  The images are given by their pixels
    in raster order (ravel). *)
From Verif Require Export RAux M_Photo M_ImageR.
Open Scope R_scope.
Open Scope list_scope.

Definition count_if {A} (f : A -> bool) (l : list A) : nat := length (filter f l).

(** numpy's default histogram range: the extrema, widened by a half on both sides when they
    are equal; 0 and 1 without data *)
Definition hist_range (l : list R) : R * R :=
  match rmin l, rmax l with
  | Some a, Some b => if Reqb a b then (a - 1 / 2, b + 1 / 2) else (a, b)
  | _, _ => (0, 1)
  end.

(** np.histogram with equal bins: the scaled value is truncated, the upper end belongs to the
    last bin (the correction of rounding errors is idle in exact arithmetic) *)
Definition hist_bin (lo hi : R) (n : nat) (v : R) : Z :=
  let i := truncZ ((v - lo) * (INR n / (hi - lo))) in
  if Z.eqb i (Z.of_nat n) then (i - 1)%Z else i.

(** np.histogram(l, bins=n)[0] *)
Definition np_histogram (n : nat) (l : list R) (k : nat) : nat :=
  let (lo, hi) := hist_range l in
  count_if (fun v => Z.eqb (hist_bin lo hi n v) (Z.of_nat k)) l.

(** The bin of np.histogram2d along one axis: the number of edges at most the value (the edges
    are linspace(lo, hi, n + 1)), less one, and less one again at the last edge *)
Definition edge (lo hi : R) (n k : nat) : R := lo + INR k * ((hi - lo) / INR n).
Definition dd_bin (lo hi : R) (n : nat) (v : R) : Z :=
  let c := Z.of_nat (count_if (fun k => Rleb (edge lo hi n k) v) (seq 0 (n + 1))) in
  (if Reqb v hi then c - 1 else c)%Z - 1.

(** np.histogram2d(x, y, bins=n)[0] *)
Definition np_histogram2d (n : nat) (x y : list R) (a b : nat) : nat :=
  let (xlo, xhi) := hist_range x in
  let (ylo, yhi) := hist_range y in
  count_if (fun p => Z.eqb (dd_bin xlo xhi n (fst p)) (Z.of_nat a) && Z.eqb (dd_bin ylo yhi n (snd p)) (Z.of_nat b))
           (combine x y).

(* resippy/utils/image_utils/image_registration.py:9-22.  numpy refuses a number of bins below
   one and two images of different sizes *)
Definition image_mmi (x y : list R) (nbins : Z) : result R :=
  if (nbins <? 1)%Z then Err ValueError
  else if negb (Nat.eqb (length x) (length y)) then Err ValueError
  else let n := Z.to_nat nbins in
       Ok (histogram_mmi n (fun a => INR (np_histogram n x a)) (fun b => INR (np_histogram n y b))
                         (fun a b => INR (np_histogram2d n x y a b))).
