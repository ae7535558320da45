(** Specification vocabulary for C109: the grid of chips that an image, a chip size
    and an overlap call for. *)
From Verif Require Import M_Chipper Spec_Chipper.
Open Scope Z_scope.
Open Scope list_scope.

(** How many chips start before the border position n - chip, stepping from 0 *)
Definition steps_before_border (n chip step : Z) : Z := (n - chip + step - 1) / step.

(** Positions along one axis: 0, step, 2 step, ... as long as they are before the
    border position n - chip; then the border position itself, if the next step
    is still in the image (always so when the overlap is not negative). *)
Definition grid_axis (n chip step : Z) : list Z :=
  map (fun k => Z.of_nat k * step) (seq 0 (Z.to_nat (steps_before_border n chip step)))
  ++ (if steps_before_border n chip step * step <? n then [n - chip] else []).

(** A pixel position along an axis is inside some chip of that axis *)
Definition seen_on_axis (n chip step r : Z) : Prop :=
  exists v, In v (grid_axis n chip step) /\ v <= r < v + chip.
