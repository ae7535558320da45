(** Specification vocabulary for the chipping properties C07-C10. *)
From Verif Require Import M_Chipper.
Open Scope Z_scope.
Open Scope list_scope.

(** Value of chip i at row r, column c, selected band k *)
Definition chips_at {A} (ch : chips A) (i r c k : nat) : option A :=
  match ch with
  | Chips4 l =>
    match nth_error l i with
    | Some chip => match nth_error chip r with
                   | Some row => match nth_error row c with
                                 | Some px => nth_error px k
                                 | None => None
                                 end
                   | None => None
                   end
    | None => None
    end
  | Chips3 l =>
    match k, nth_error l i with
    | O, Some chip => match nth_error chip r with
                      | Some row => nth_error row c
                      | None => None
                      end
    | _, _ => None
    end
  end.

(** Python's reading of a band number: negative numbers count from the end *)
Definition band_index (nb : nat) (b : Z) : nat := Z.to_nat (if b <? 0 then Z.of_nat nb + b else b).
Definition band_ok (nb : nat) (b : Z) : Prop := - Z.of_nat nb <= b < Z.of_nat nb.

(** The bands a band argument selects *)
Definition selected_bands (nb : nat) (b : bands_arg) : list nat :=
  match b with
  | BandsNone => seq 0 nb
  | BandsInt b => [band_index nb b]
  | BandsList l => map (band_index nb) l
  end.
Definition bands_ok (nb : nat) (b : bands_arg) : Prop :=
  match b with
  | BandsNone => True
  | BandsInt b => band_ok nb b
  | BandsList l => Forall (band_ok nb) l
  end.

(** The closest corner that keeps a chip inside an axis *)
Definition clamped (n chip v : Z) : Z := Z.max 0 (Z.min v (n - chip)).

(** Chip i has exactly the requested size and is the image at its corner. *)
Definition exact_chips {A} (img : cube A) (bands : list nat) (h w : Z)
    (uls : list (Z * Z)) (ch : chips A) : Prop :=
  forall i y x, nth_error uls i = Some (y, x) ->
    0 <= y /\ y + h <= Z.of_nat (c_ny img) /\ 0 <= x /\ x + w <= Z.of_nat (c_nx img) /\
    (forall r c k,
      chips_at ch i r c k =
      if (Z.of_nat r <? h) && (Z.of_nat c <? w)
      then match nth_error bands k with
           | Some b => cube_at img (Z.to_nat y + r) (Z.to_nat x + c) b
           | None => None
           end
      else None).

Definition n_chips {A} (ch : chips A) : nat :=
  match ch with Chips4 l => length l | Chips3 l => length l end.

(** Row-major strictly increasing order of corners *)
Definition row_major_lt (p q : Z * Z) : Prop := fst p < fst q \/ (fst p = fst q /\ snd p < snd q).

(** A block of ny rows of nx pixels with nb channels *)
Definition block_shape {A} (ny nx nb : nat) (c : list (list (list A))) : Prop :=
  length c = ny /\ Forall (fun row => length row = nx /\ Forall (fun p => length p = nb) row) c.

(** The returned array: n chips of h rows and w columns; no channel axis exactly for one band *)
Definition chip_array_shape {A} (n h w nb : nat) (ch : chips A) : Prop :=
  match ch with
  | Chips4 l => nb <> 1%nat /\ length l = n /\ Forall (block_shape h w nb) l
  | Chips3 l => nb = 1%nat /\ length l = n /\ Forall (fun c => length c = h /\ Forall (fun row => length row = w) c) l
  end.
