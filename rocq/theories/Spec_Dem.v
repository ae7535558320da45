(** Specification vocabulary for C38 - C42. *)
From Verif Require Import RAux Text M_Nav M_PointCalc M_Dem.  (* the records gdem, igm and the sensor's operations *)
Open Scope R_scope.
Open Scope list_scope.

(** Element in row r, column c *)
Definition cell {A} (a : list (list A)) (r c : nat) : option A :=
  match nth_error a r with Some row => nth_error row c | None => None end.
Definition grid {A} (a : list (list A)) (ny nx : nat) : Prop := length a = ny /\ Forall (fun row => length row = nx) a.

(** A DEM read from a file of ny rows and nx columns, both at least two *)
Definition dem_of_size (d : gdem) (ny nx : nat) : Prop :=
  grid (gd_data d) ny nx /\ gd_nx d = Z.of_nat nx /\ gd_ny d = Z.of_nat ny /\ (2 <= nx)%nat /\ (2 <= ny)%nat.

(** How far the coordinate x is from the pixel i, which covers [i, i+1] *)
Definition gap (x : R) (i : nat) : R := Rmax 0 (Rmax (INR i - x) (x - (INR i + 1))).

(** Distance of two points *)
Definition dist2 (p q : R * R) : R := sqrt ((fst p - fst q) ^ 2 + (snd p - snd q) ^ 2).
(** scipy: the six nearest nodes with their distances; an index beyond the end when there
    are fewer than six *)
Definition six_nearest (kd : kd_query) : Prop :=
  forall nodes p,
    length (kd nodes p) = 6%nat /\
    ((6 <= length nodes)%nat ->
       NoDup (map snd (kd nodes p)) /\
       (forall d i, In (d, i) (kd nodes p) -> exists q, nth_error nodes i = Some q /\ d = dist2 p q) /\
       (forall j q d i, nth_error nodes j = Some q -> ~ In j (map snd (kd nodes p)) -> In (d, i) (kd nodes p) -> d <= dist2 p q)) /\
    ((length nodes < 6)%nat -> exists d, In (d, length nodes) (kd nodes p)).

(** An IGM of ny rows and nx columns *)
Definition igm_of_size (g : igm) (ny nx : nat) : Prop :=
  grid (igm_lons g) ny nx /\ grid (igm_lats g) ny nx /\ igm_ny g = ny /\ igm_nx g = nx /\ (0 < nx)%nat.
(** The ground position of its pixel (column c, row r) *)
Definition node (g : igm) (r c : nat) : option (R * R) :=
  match cell (igm_lons g) r c, cell (igm_lats g) r c with Some x, Some y => Some (x, y) | _, _ => None end.

(** All nodes, row by row: node number i is in row i / nx, column i mod nx *)
Definition igm_nodes (g : igm) : list (R * R) := combine (concat (igm_lons g)) (concat (igm_lats g)).

(** Number of bands after a history, most recent operation first *)
Fixpoint bands_rev (h : list sm_op) : nat :=
  match h with
  | [] => 0
  | AddCalc _ :: h => S (bands_rev h)
  | SetCalcs cs :: _ => length cs
  | _ :: h => bands_rev h
  end.
Definition bands (h : list sm_op) : nat := bands_rev (rev h).
(** With n bands before it, the operation stores calculator c for band b (a negative index
    counts from the end) *)
Definition stores (n : nat) (o : sm_op) (b c : nat) : Prop :=
  match o with
  | AddCalc c' => b = n /\ c = c'
  | UpdateCalc i c' => (i = Z.of_nat b \/ i = Z.of_nat b - Z.of_nat n)%Z /\ (b < n)%nat /\ c = c'
  | SetCalcs cs => nth_error cs b = Some c
  | SetProjection _ => False
  end.
(** Calculator c was the last one stored for the existing band b *)
Definition last_stored (h : list sm_op) (b c : nat) : Prop :=
  (b < bands h)%nat /\
  exists h1 o h2, h = h1 ++ o :: h2 /\ stores (bands h1) o b c /\
    forall h3 o' h4 c', h2 = h3 ++ o' :: h4 -> ~ stores (bands (h1 ++ o :: h3)) o' b c'.

(** A 1-d query of one point counts as a number *)
Definition squeezed {A} (q : narr A) : narr A := match q with Vec [w] => Num w | _ => q end.

(** e is the value of the pixel of a ny x nx raster nearest to the location (x, y) *)
Definition nearest_value (data : list (list flt)) (ny nx : nat) (loc : R * R) (e : flt) : Prop :=
  exists r c, (r < ny)%nat /\ (c < nx)%nat /\ cell data r c = Some e /\
    (forall c', (c' < nx)%nat -> gap (fst loc) c <= gap (fst loc) c') /\
    (forall r', (r' < ny)%nat -> gap (snd loc) r <= gap (snd loc) r').

(** c1 and c2 are the two of the n pixel positions around the coordinate x: on both sides of
    it, equal if x is a pixel position or lies outside *)
Definition around (x : R) (n c1 c2 : nat) : Prop :=
  (INR c1 <= x <= INR c2 /\ x - INR c1 < 1 /\ INR c2 - x < 1 /\ (c2 < n)%nat) \/
  (x < 0 /\ c1 = 0%nat /\ c2 = 0%nat /\ (0 < n)%nat) \/
  (INR (n - 1) < x /\ c1 = (n - 1)%nat /\ c2 = (n - 1)%nat /\ (0 < n)%nat).

(** The location is exactly on a pixel position of the raster *)
Definition on_pixel (ny nx : nat) (loc : R * R) : Prop :=
  exists r c, (r < ny)%nat /\ (c < nx)%nat /\ loc = (INR c, INR r).

(** The position of pixel (column c, row r) *)
Definition position (r c : nat) : R * R := (INR c, INR r).
