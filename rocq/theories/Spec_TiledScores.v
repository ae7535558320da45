(** Specification vocabulary for C115: detectors on parts of an image. *)
From Verif Require Import M_Spectral.
Open Scope R_scope.

(** The part of h rows and w columns that starts at row r0 and column c0 *)
Definition crop (c : scube) (r0 c0 h w : nat) : scube := mkScube h w (sc_nb c) (fun y x => sc_px c (r0 + y)%nat (c0 + x)%nat).
(** The part lies in the image *)
Definition part_of (c : scube) (r0 c0 h w : nat) : Prop := (r0 + h <= sc_ny c)%nat /\ (c0 + w <= sc_nx c)%nat.
(** The scores of the part are that part of the scores *)
Definition part_scores (r0 c0 h w : nat) (part whole : nat -> nat -> flt) : Prop :=
  forall y x, (y < h)%nat -> (x < w)%nat -> part y x = whole (r0 + y)%nat (c0 + x)%nat.

(** The first row of the k-th of a stack of strips with the given numbers of rows *)
Fixpoint strip_start (rows : nat -> nat) (k : nat) : nat := match k with O => O | S l => (strip_start rows l + rows l)%nat end.
