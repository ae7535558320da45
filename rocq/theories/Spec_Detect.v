(** Specification vocabulary for C110: from an image to a map of detections. *)
From Verif Require Import RAux Text Arr M_Scoring Spec_Scoring Spec_ChipGrid.
Open Scope R_scope.
Open Scope list_scope.

(** The corner (y, x) is one of the grid of chips for the given chip size and fractional overlaps *)
Definition grid_corner (img : cube Z) (chip_x chip_y : Z) (ox oy : R) (y x : Z) : Prop :=
  In y (grid_axis (Z.of_nat (c_ny img)) chip_y (chip_y - truncZ (IZR chip_y * oy))) /\
  In x (grid_axis (Z.of_nat (c_nx img)) chip_x (chip_x - truncZ (IZR chip_x * ox))).

(** The chip at (y, x) contains the pixel (r, c) *)
Definition in_chip (chip_x chip_y y x : Z) (r c : nat) : Prop :=
  (y <= Z.of_nat r < y + chip_y)%Z /\ (x <= Z.of_nat c < x + chip_x)%Z.

(** The model gives the score s, for class number j, to the part of the image at (y, x) *)
Definition part_score imresize predict (img : cube Z) (chip_x chip_y tx ty : Z) (method : text) (j : nat) (y x : Z) (s : R) : Prop :=
  exists row, scores_of_part imresize predict img chip_x chip_y tx ty method y x row /\ nth_error row j = Some (Fin s).

(** v is the highest score of the parts of the image that contain the pixel (r, c) *)
Definition highest_score imresize predict (img : cube Z) (chip_x chip_y tx ty : Z) (ox oy : R) (method : text) (j r c : nat) (v : R) : Prop :=
  (exists y x, grid_corner img chip_x chip_y ox oy y x /\ in_chip chip_x chip_y y x r c /\
     part_score imresize predict img chip_x chip_y tx ty method j y x v) /\
  (forall y x s, grid_corner img chip_x chip_y ox oy y x -> in_chip chip_x chip_y y x r c ->
     part_score imresize predict img chip_x chip_y tx ty method j y x s -> s <= v).

(** A model whose scores are numbers *)
Definition finite_scores (predict : list (list (list (list flt))) -> result (list (list flt))) : Prop :=
  forall c row, predict [c] = Ok [row] -> exists s, row = map Fin s.

(** Two images of the same shape that agree, in the scored channels, on the pixels less than a chip away
    from (r, c) *)
Definition agree_near (a b : cube Z) (chip_x chip_y : Z) (r c : nat) : Prop :=
  c_ny a = c_ny b /\ c_nx a = c_nx b /\ c_nb a = c_nb b /\
  forall r' c' k, (Z.abs (Z.of_nat r' - Z.of_nat r) < chip_y)%Z -> (Z.abs (Z.of_nat c' - Z.of_nat c) < chip_x)%Z ->
    (k < scored_channels (c_nb a))%nat -> cube_at a r' c' k = cube_at b r' c' k.
