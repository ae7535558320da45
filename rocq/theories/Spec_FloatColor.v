(** Specification vocabulary for C102. *)
From Coq Require Import Reals List.
From Verif Require Import M_ImageR M_Float Spec_Float Spec_Image.
Open Scope R_scope.

Definition magnitude (mn mx : R) : R := Rmax (Rabs mn) (Rabs mx).

(** A range that doubles resolve: not narrower than 2^-38 of its magnitude; at most 129 colours *)
Definition resolved_range (mn mx : R) (n : nat) : Prop :=
  is_double mn /\ is_double mx /\ (2 <= n <= 129)%nat /\ mn < mx /\ moderate (mx - mn) /\ powerRZ 2 (-38) * magnitude mn mx <= mx - mn.

(** Colours are doubles from 0 to 1 *)
Definition unit_palette (p : palette) : Prop :=
  length (pal_g p) = pal_len p /\ length (pal_b p) = pal_len p /\
  forall pal, In pal (pal_r p :: pal_g p :: pal_b p :: nil) -> forall c, In c pal -> is_double c /\ 0 <= c <= 1.

(** The three channels of a pixel with those of the palette *)
Definition channels (p : palette) (r g b : R) : list (list R * R) := (pal_r p, r) :: (pal_g p, g) :: (pal_b p, b) :: nil.
