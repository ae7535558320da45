(** Specification vocabulary for C84. *)
From Verif Require Import RAux.
Open Scope R_scope.
Open Scope list_scope.

(** v lies in bin k of n bins of equal width between lo and hi; the last bin has its upper end *)
Definition lies_in_bin (lo hi : R) (n k : nat) (v : R) : Prop :=
  let w := (hi - lo) / INR n in
  lo + INR k * w <= v /\ (v < lo + (INR k + 1) * w \/ (S k = n /\ v = hi)).

(** The interval that is divided into bins: from the darkest to the brightest pixel, or one
    unit around the only brightness *)
Definition brightness_range (l : list R) (lo hi : R) : Prop :=
  exists a b, In a l /\ In b l /\ (forall v, In v l -> a <= v <= b) /\
    ((a < b -> lo = a /\ hi = b) /\ (a = b -> lo = a - 1 / 2 /\ hi = a + 1 / 2)).

(** The number of elements with a property *)
Inductive counts {A} (P : A -> Prop) : list A -> nat -> Prop :=
| counts_nil : counts P [] 0
| counts_yes x l k : P x -> counts P l k -> counts P (x :: l) (S k)
| counts_no x l k : ~ P x -> counts P l k -> counts P (x :: l) k.
