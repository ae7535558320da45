(** Specification vocabulary for the properties C81-C83. *)
From Verif Require Import RAux Text Arr M_Scoring Spec_Chipper.
Open Scope R_scope.
Open Scope list_scope.

(** Value of a block of pixels at a row, a column and a channel *)
Definition at3 {A} (c : list (list (list A))) (r k b : nat) : option A :=
  match nth_error c r with
  | Some row => match nth_error row k with Some px => nth_error px b | None => None end
  | None => None
  end.

(** The number of channels that are scored: an alpha channel is not *)
Definition scored_channels (nb : nat) : nat := if Nat.eqb nb 4 then 3 else nb.

(** A chip of h rows and w columns that shows the image from (y, x) on *)
Definition shows (img : cube Z) (y x h w : Z) (chip : list (list (list Z))) : Prop :=
  block_shape (Z.to_nat h) (Z.to_nat w) (scored_channels (c_nb img)) chip /\
  forall r c b,
    at3 chip r c b =
    if (Z.of_nat r <? h)%Z && (Z.of_nat c <? w)%Z && Nat.ltb b (scored_channels (c_nb img))
    then cube_at img (Z.to_nat y + r) (Z.to_nat x + c) b else None.

(** The least and the greatest value of a block *)
Definition least (c : list (list (list R))) (m : R) : Prop :=
  (exists r k b, at3 c r k b = Some m) /\ forall r k b v, at3 c r k b = Some v -> m <= v.
Definition greatest (c : list (list (list R))) (m : R) : Prop :=
  (exists r k b, at3 c r k b = Some m) /\ forall r k b v, at3 c r k b = Some v -> v <= m.

(** What a named normalisation does to a value v of a block c; a block with a single value
    has no min-max normalisation *)
Definition normalized_value (method : text) (c : list (list (list R))) (v : R) (u : flt) : Prop :=
  (method = txt "divide_by_255" -> u = Fin (v / 255)) /\
  (method = txt "min_max_per_chip" -> forall lo hi, least c lo -> greatest c hi ->
     (lo < hi -> u = Fin ((v - lo) / (hi - lo))) /\ (lo = hi -> u = NonFinite)) /\
  (method <> txt "divide_by_255" -> method <> txt "min_max_per_chip" -> u = Fin v).

(** Block c' has the shape of block c and is block c normalised, value by value *)
Definition normalized (method : text) (c : list (list (list R))) (c' : list (list (list flt))) : Prop :=
  map (map (@length flt)) c' = map (map (@length R)) c /\
  forall r k b,
    match at3 c r k b with
    | Some v => exists u, at3 c' r k b = Some u /\ normalized_value method c v u
    | None => at3 c' r k b = None
    end.

(** The scores the model gives to the part of the image at (y, x) *)
Definition scores_of_part (imresize : Z -> Z -> list (list (list Z)) -> result (list (list (list R))))
    (predict : list (list (list (list flt))) -> result (list (list flt)))
    (img : cube Z) (chip_x chip_y target_x target_y : Z) (method : text) (y x : Z) (row : list flt) : Prop :=
  exists chip resized input,
    shows img y x chip_y chip_x chip /\ imresize target_y target_x chip = Ok resized /\
    normalized method resized input /\ predict [input] = Ok [row].

(** A resizer that always gives an image with some pixel, and a model with k classes *)
Definition resizes (imresize : Z -> Z -> list (list (list Z)) -> result (list (list (list R)))) (ty tx : Z) : Prop :=
  forall c, exists c', imresize ty tx c = Ok c' /\ concat (concat c') <> [].
Definition classifies (predict : list (list (list (list flt))) -> result (list (list flt))) (k : nat) : Prop :=
  forall c, exists row, predict [c] = Ok [row] /\ length row = k.

(** Every pixel of the image is in a chip *)
Definition covers (img : cube Z) (h w : Z) (uls : list (Z * Z)) : Prop :=
  forall r c, (r < c_ny img)%nat -> (c < c_nx img)%nat ->
    exists y x, In (y, x) uls /\ (y <= Z.of_nat r < y + h)%Z /\ (x <= Z.of_nat c < x + w)%Z.

(** The array with the given rows, and the one with the given elements *)
Definition matrix (rows : list (list flt)) : nd := Axis (map (fun r => Axis (map Num r)) rows).
Definition vector (l : list flt) : nd := Axis (map Num l).

(** j is the first position of t in l *)
Definition first_position (l : list text) (t : text) (j : nat) : Prop :=
  nth_error l j = Some t /\ forall i, (i < j)%nat -> nth_error l i <> Some t.

(* --- training --- *)

(** Strict lexicographic order of texts by character codes *)
Inductive text_lt : text -> text -> Prop :=
| lt_nil c b : text_lt [] (c :: b)
| lt_head x y a b : (nat_of_ascii x < nat_of_ascii y)%nat -> text_lt (x :: a) (y :: b)
| lt_tail x a b : text_lt a b -> text_lt (x :: a) (x :: b).

(** A numbering of classes: every name once, name number i having exactly i smaller names *)
Definition numbered_in_order (indices : list (text * Z)) : Prop :=
  NoDup (map fst indices) /\
  forall c i, In (c, i) indices ->
    exists smaller, NoDup smaller /\ (forall d, In d smaller <-> (In d (map fst indices) /\ text_lt d c)) /\
                    Z.of_nat (length smaller) = i.

(** keras runs batches while their number is below the number of steps; batch j of an
    iterator with batch size b is its files from j b on *)
Definition batches (files : list text) (b : Z) (k : nat) : list (list text) :=
  map (fun j => firstn (Z.to_nat b) (skipn (j * Z.to_nat b) files)) (seq 0 k).
Definition steps_run (steps : R) (k : nat) : Prop :=
  INR k >= steps /\ forall j, (j < k)%nat -> INR j < steps.

(** Position of something in a sequence of steps *)
Definition before {A} (P Q : A -> Prop) (l : list A) : Prop :=
  forall i j a b, nth_error l i = Some a -> nth_error l j = Some b -> P a -> Q b -> (i < j)%nat.

(* --- the head --- *)
Definition total (l : list R) : R := fold_right Rplus 0 l.
(** The mean of a channel of a feature map over its pixels *)
Definition mean_feature (features : list (list (list R))) (c : nat) : R :=
  total (map (fun p => nth c p 0) (concat features)) / INR (length (concat features)).
(** A linear unit with weights and a bias, applied to the quantities x 0, x 1, ... *)
Definition unit_value (wb : list R * R) (x : nat -> R) : R :=
  bigsum (length (fst wb)) (fun i => nth i (fst wb) 0 * x i) + snd wb.
