(** Two functions on integer arrays, whose arithmetic is modulo a power of two before it becomes
    floating point.  From there on the numbers are exact. *)
From Coq Require Import ZArith.
From Verif Require Export Py RAux M_ImageR.
Open Scope R_scope.
Open Scope list_scope.

(** What numpy keeps of an integer in an unsigned or signed type of so many bits *)
Definition wrap_unsigned (bits z : Z) : Z := (z mod 2 ^ bits)%Z.
Definition wrap_signed (bits z : Z) : Z := ((z + 2 ^ (bits - 1)) mod 2 ^ bits - 2 ^ (bits - 1))%Z.

Fixpoint zmin (l : list Z) : option Z :=
  match l with [] => None | x :: t => Some (match zmin t with None => x | Some m => Z.min x m end) end.
Fixpoint zmax (l : list Z) : option Z :=
  match l with [] => None | x :: t => Some (match zmax t with None => x | Some m => Z.max x m end) end.

(* resippy/utils/image_utils/image_utils.py:125-131, output_dtype None: both differences are
   integers of the image's type, their quotient is a float *)
Definition normalize_int (wrap : Z -> Z) (img : list Z) (new_min new_max : R) : result (list flt) :=
  match zmin img, zmax img with
  | Some mn, Some mx =>
    Ok (map (fun p => fmap (fun z => z * (new_max - new_min) + new_min) (fdiv (IZR (wrap (p - mn)%Z)) (IZR (wrap (mx - mn)%Z)))) img)
  | _, _ => Err ValueError
  end.

Definition zsum (l : list Z) : Z := fold_right Z.add 0%Z l.
(** numpy's square root, NaN below zero *)
Definition np_sqrt (z : R) : flt := if Rltb z 0 then NonFinite else Fin (sqrt z).
(* resippy/spectral/spectral_image_processing_1d.py:165-181 for one pixel.  np.dot of two
   integer arrays is of their type; np.multiply too, np.sum of its result is of 64 bits and exact
   (Simplified: no 64-bit overflow).  Target and image of one integer type. *)
Definition sam_int (wrap : Z -> Z) (target px : list Z) : flt :=
  match np_sqrt (IZR (wrap (zsum (map2 Z.mul target target)))), np_sqrt (IZR (zsum (map wrap (map2 Z.mul px px)))) with
  | Fin l, Fin r => fdiv (IZR (wrap (zsum (map2 Z.mul target px)))) (l * r)
  | _, _ => NonFinite
  end.
(* The same lines for a target of floats *)
Definition sam_int_image (wrap : Z -> Z) (target : list R) (px : list Z) : flt :=
  match np_sqrt (rsum (map2 Rmult target target)), np_sqrt (IZR (zsum (map wrap (map2 Z.mul px px)))) with
  | Fin l, Fin r => fdiv (rsum (map2 Rmult target (map IZR px))) (l * r)
  | _, _ => NonFinite
  end.
