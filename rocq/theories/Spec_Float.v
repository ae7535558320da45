(** Specification vocabulary for the floating-point properties. *)
From Coq Require Import Reals ZArith List Permutation.
From Verif Require Import Py M_Spectral M_Float.
Open Scope R_scope.
Open Scope list_scope.

(** The numbers with prec bits and exponent at least emin; the doubles *)
Definition is_float (emin prec : Z) (x : R) : Prop :=
  exists m e : Z, x = IZR m * powerRZ 2 e /\ (Z.abs m < 2 ^ prec)%Z /\ (emin <= e)%Z.
Definition is_double : R -> Prop := is_float (-1074) 53.

(** Half a unit in the last place of 1 *)
Definition u53 : R := powerRZ 2 (-53).

(** Far from underflow *)
Definition moderate (x : R) : Prop := powerRZ 2 (-400) <= Rabs x.

(** v is the sum of the terms computed in some order with some association: every term is rounded
    on its own or in a fused multiply-add, and every addition is rounded. *)
Inductive sums (rnd : R -> R) : list R -> R -> Prop :=
| sum_none : sums rnd nil 0
| sum_term t : sums rnd (t :: nil) (rnd t)
| sum_fused t l a : sums rnd l a -> sums rnd (t :: l) (rnd (a + t))
| sum_add l l' a a' : sums rnd l a -> sums rnd l' a' -> sums rnd (l ++ l') (rnd (a + a'))
| sum_order l l' a : Permutation l l' -> sums rnd l a -> sums rnd l' a.
(** A dot product so computed *)
Definition dot_in_some_order (rnd : R -> R) (dot : list R -> list R -> R) : Prop :=
  forall l m, length l = length m -> sums rnd (map2 Rmult l m) (dot l m).
(** A sum so computed *)
Definition sum_in_some_order (rnd : R -> R) (total : list R -> R) : Prop := forall l, sums rnd l (total l).

(** The exact score of one pixel *)
Definition exact_sam (t p : list R) : flt := sam (mkSimg 1 (length p) (fun _ b => nth b p 0)) (fun b => nth b t 0) 0%nat.

