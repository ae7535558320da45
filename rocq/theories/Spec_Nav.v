(** Specification vocabulary for C43 and C44. *)
From Coq Require Import String.
From Verif Require Import RAux Text M_Nav.  (* the shapes narr, the enumerations nav_class and channel *)
Open Scope R_scope.
Open Scope list_scope.

(** Strictly increasing *)
Definition increasing (l : list R) : Prop :=
  forall i j a b, (i < j)%nat -> nth_error l i = Some a -> nth_error l j = Some b -> a < b.

(** v is the value at time t of the curve through the records (times, col): the
    recorded value at a record time, the straight line between two records *)
Inductive on_curve (times col : list R) (t v : R) : Prop :=
| at_record (i : nat) : nth_error times i = Some t -> nth_error col i = Some v -> on_curve times col t v
| between (i : nat) (t0 t1 v0 v1 : R) :
    nth_error times i = Some t0 -> nth_error times (S i) = Some t1 ->
    nth_error col i = Some v0 -> nth_error col (S i) = Some v1 ->
    t0 < t < t1 -> v = v0 + (v1 - v0) * ((t - t0) / (t1 - t0)) -> on_curve times col t v.

(** The same for floats: both finite *)
Definition value_at (times col : list R) (t v : flt) : Prop :=
  exists x y, t = Fin x /\ v = Fin y /\ on_curve times col x y.

(** Elements of a query or answer, row by row *)
Definition elements {A} (a : narr A) : list A :=
  match a with Num x => [x] | Vec xs => xs | Mat _ rows => concat rows end.

(** A 2-d array is rectangular *)
Definition rectangular {A} (a : narr A) : Prop :=
  match a with Mat nx rows => Forall (fun r => length r = nx) rows | _ => True end.

(** Two arrays of the same shape whose corresponding elements are related *)
Inductive pointwise {A B} (P : A -> B -> Prop) : narr A -> narr B -> Prop :=
| pw_num x y : P x y -> pointwise P (Num x) (Num y)
| pw_vec xs ys : Forall2 P xs ys -> pointwise P (Vec xs) (Vec ys)
| pw_mat nx rows rows' : Forall2 (Forall2 P) rows rows' -> pointwise P (Mat nx rows) (Mat nx rows').

(** A time inside the recorded span *)
Definition in_span (times : list R) (t : flt) : Prop :=
  exists x a b, t = Fin x /\ nth_error times 0 = Some a /\ nth_error times (length times - 1) = Some b /\
    a <= x <= b.

(** h lies on the shorter arc from h0 to h1 on a circle of circumference T: turning
    from h0 by a part s of the signed difference d of smallest size, up to full turns *)
Definition on_shorter_arc (T h0 h1 h : R) : Prop :=
  exists d k m s, h1 - h0 = d + IZR k * T /\ Rabs d <= T / 2 /\ 0 <= s <= 1 /\
    h = h0 + s * d + IZR m * T.

(** Columns of the two file formats by quantity: world y is the northing / latitude
    column, world x the easting / longitude column *)
Open Scope string_scope.
Definition column_name (c : nav_class) (ch : channel) : text :=
  txt match c with
      | ApplanixEO =>
        match ch with
        | WorldXs => "easting" | WorldYs => "northing" | Alts => "height"
        | Rolls => "omega" | Pitches => "phi" | Headings => "kappa"
        end
      | ApplanixSBET =>
        match ch with
        | WorldXs => "x" | WorldYs => "y" | Alts => "z"
        | Rolls => "roll" | Pitches => "pitch" | Headings => "azimuth"
        end
      end.
