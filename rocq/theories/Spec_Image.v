(** Specification vocabulary for the image properties C11, C12, C15, C62, C63. *)
From Verif Require Import M_Image.
From Coq Require Import Permutation Sorted QArith.
Open Scope Z_scope.
Open Scope list_scope.

Record total_order {A} (leb : A -> A -> bool) : Prop := {
  to_total : forall a b, leb a b = true \/ leb b a = true;
  to_trans : forall a b c, leb a b = true -> leb b c = true -> leb a c = true;
  to_antisym : forall a b, leb a b = true -> leb b a = true -> a = b }.

(** Contract of numpy.argsort: a permutation of the indices along which the values
    do not decrease (ties in any order) *)
Definition is_argsort {A} (leb : A -> A -> bool) (argsort : list A -> list nat) : Prop :=
  forall l, Permutation (argsort l) (seq 0 (length l)) /\
            StronglySorted (fun i j => forall a b, nth_error l i = Some a -> nth_error l j = Some b -> leb a b = true)
                           (argsort l).

(** Chip with corner ul and size chip_y x chip_x contains pixel (r, c) *)
Definition covers (chip_x chip_y : Z) (ul : Z * Z) (r c : nat) : Prop :=
  fst ul <= Z.of_nat r < fst ul + chip_y /\ snd ul <= Z.of_nat c < snd ul + chip_x.

(** v is the largest score of the chips that cover the pixel; zero if none does *)
Definition best_score {A} (leb : A -> A -> bool) (zero : A) (chips : list (A * (Z * Z)))
    (chip_x chip_y : Z) (r c : nat) (v : A) : Prop :=
  ((exists ul, In (v, ul) chips /\ covers chip_x chip_y ul r c) /\
   (forall s ul, In (s, ul) chips -> covers chip_x chip_y ul r c -> leb s v = true))
  \/ ((forall s ul, In (s, ul) chips -> ~ covers chip_x chip_y ul r c) /\ v = zero).

Definition band_shape {A} (b : band A) (ny nx : nat) : Prop :=
  b_ny b = ny /\ b_nx b = nx /\
  forall y x, (exists v, band_at b y x = Some v) <-> (y < ny /\ x < nx)%nat.

Definition lex_lt (p q : nat * nat) : Prop :=
  (fst p < fst q)%nat \/ (fst p = fst q /\ (snd p < snd q)%nat).

(* ------------------------ colour maps (C14) ------------------------ *)
From Coq Require Import Reals.
Open Scope R_scope.

(** What one channel [pal] of the palette says about a
    pixel value [g] between the clips: linear between neighbouring nodes, the end colours outside. *)
Definition shade_continuous (pal : list R) (mn mx g v : R) : Prop :=
  let node := fun i : nat => mn + INR i * ((mx - mn) / INR (length pal - 1)) in
  (g < mn -> v = 255 * nth 0 pal 0) /\ (mx < g -> v = 255 * nth (length pal - 1) pal 0) /\
  forall i, (S i < length pal)%nat -> node i <= g <= node (S i) ->
    v * (node (S i) - node i) = 255 * (nth i pal 0 * (node (S i) - g) + nth (S i) pal 0 * (g - node i)).

(** The range cut into as many equal steps as there are colours (the value at the left edge of the last
    step still has the colour before it) *)
Definition shade_discrete (pal : list R) (mn mx g v : R) : Prop :=
  let edge := fun i : nat => mn + INR i * ((mx - mn) / INR (length pal)) in
  (g < mn -> v = 255 * nth 0 pal 0) /\ (mx <= g -> v = 255 * nth (length pal - 1) pal 0) /\
  (forall k, (S k < length pal)%nat -> edge k <= g < edge (S k) -> v = 255 * nth k pal 0) /\
  (edge (length pal - 1)%nat < g -> v = 255 * nth (length pal - 1) pal 0) /\
  (g = edge (length pal - 1)%nat -> v = 255 * nth (length pal - 2) pal 0).
