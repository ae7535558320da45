(** Specification vocabulary: arrays sharing memory. *)
From Coq Require Import ZArith List.
From Verif Require Import M_Memory.
Import ListNotations.
Open Scope Z_scope.

(** (y, x, b) is an element of a *)
Definition in3 (a : arr3) (y x b : nat) : Prop := (y < n_y a)%nat /\ (x < n_x a)%nat /\ (b < n_b a)%nat.
Definition in2 (a : arr2) (r c : nat) : Prop := (r < n_r a)%nat /\ (c < n_c a)%nat.
(** An array of an existing buffer whose elements are stored apart from each other (as in every array
    made by numpy, and its transposes and slices, but not in broadcast ones) *)
Definition proper {V} (m : memory V) (a : arr3) : Prop :=
  (buf3 a < next m)%nat /\
  forall y x b y' x' b', in3 a y x b -> in3 a y' x' b' -> addr3 a y x b = addr3 a y' x' b' -> y = y' /\ x = x' /\ b = b'.
Definition shape3 (a : arr3) : nat * nat * nat := (n_y a, n_x a, n_b a).
Definition shape2 (a : arr2) : nat * nat := (n_r a, n_c a).
(** No array of buffers that existed in m reads differently in m' *)
Definition same_before {V} (m m' : memory V) : Prop := forall k z, (k < next m)%nat -> mem m' k z = mem m k z.
(** Rows follow each other in memory at the distance of the pixels of a row *)
Definition rows_follow (a : arr3) : Prop := (n_y a <= 1)%nat \/ (n_x a <= 1)%nat \/ s_y a = Z.of_nat (n_x a) * s_x a.
(** The three orders of image files, in one buffer from address o on *)
Definition bip (k : nat) (o : Z) (ny nx nb : nat) : arr3 :=
  {| buf3 := k; off3 := o; n_y := ny; n_x := nx; n_b := nb; s_y := Z.of_nat nx * Z.of_nat nb; s_x := Z.of_nat nb; s_b := 1 |}.
Definition bil (k : nat) (o : Z) (ny nx nb : nat) : arr3 :=
  {| buf3 := k; off3 := o; n_y := ny; n_x := nx; n_b := nb; s_y := Z.of_nat nb * Z.of_nat nx; s_x := 1; s_b := Z.of_nat nx |}.
Definition bsq (k : nat) (o : Z) (ny nx nb : nat) : arr3 :=
  {| buf3 := k; off3 := o; n_y := ny; n_x := nx; n_b := nb; s_y := Z.of_nat nx; s_x := 1; s_b := Z.of_nat ny * Z.of_nat nx |}.
