(** Model of resippy/utils/image_utils/image_utils.py, image_mask_utils.py and
    image_registration.py. *)
From Verif Require Export Py Arr.
From Coq Require Import QArith.
Open Scope Z_scope.
Open Scope list_scope.

(** A 2-d numpy array: its shape and its rows *)
Record band (A : Type) := mkBand { b_ny : nat; b_nx : nat; b_rows : list (list A) }.
Arguments mkBand {A}. Arguments b_ny {A}. Arguments b_nx {A}. Arguments b_rows {A}.
Definition band_wf {A} (b : band A) : Prop :=
  length (b_rows b) = b_ny b /\ Forall (fun r => length r = b_nx b) (b_rows b).
(** array[y, x] *)
Definition band_at {A} (b : band A) (y x : nat) : option A :=
  match nth_error (b_rows b) y with Some r => nth_error r x | None => None end.

(** list with indices *)
Definition mapi {A B} (f : nat -> A -> B) (l : list A) : list B :=
  map (fun p => f (fst p) (snd p)) (combine (seq 0 (length l)) l).

(** numpy reshape of a flat array to (ny, nx): ValueError unless the sizes agree *)
Fixpoint split_rows {A} (ny nx : nat) (l : list A) : list (list A) :=
  match ny with
  | O => []
  | S n => firstn nx l :: split_rows n nx (skipn nx l)
  end.

(* resippy/utils/image_utils/image_utils.py:56-61 *)
Definition flatten_image_band {A} (b : band A) : list A := concat (b_rows b).

(* resippy/utils/image_utils/image_utils.py:64-68 *)
Definition unflatten_image_band {A} (l : list A) (nx ny : nat) : result (band A) :=
  if Nat.eqb (length l) (ny * nx) then Ok (mkBand ny nx (split_rows ny nx l)) else Err ValueError.

(* resippy/utils/image_utils/image_utils.py:71-78.  Simplified: scale_factor is a
   positive integer, so that numpy.arange has n*scale entries k/scale (exact
   arithmetic). *)
Definition create_pixel_grid (nx ny : nat) (scale : positive) : band Q * band Q :=
  let k := Pos.to_nat scale in
  let x := map (fun i => (Z.of_nat i # scale)%Q) (seq 0 (nx * k)) in
  let y := map (fun i => (Z.of_nat i # scale)%Q) (seq 0 (ny * k)) in
  (mkBand (ny * k) (nx * k) (map (fun _ => x) y),
   mkBand (ny * k) (nx * k) (map (fun v => map (fun _ => v) x) y)).

(* resippy/utils/image_utils/image_utils.py:14-26.  None for an int argument,
   otherwise the list of band values; a store past the last band raises. *)
Inductive uniform_values (A : Type) := OneValue (v : A) | BandValues (l : list A).
Arguments OneValue {A}. Arguments BandValues {A}.
Definition create_uniform_image_data {A} (zero : A) (nx ny nb : nat) (v : uniform_values A) : result (cube A) :=
  px <- match v with
        | OneValue v => Ok (repeat v nb)
        | BandValues l =>
          foldM (fun px iv => py_set px (Z.of_nat (fst iv)) (snd iv)) (combine (seq 0 (length l)) l) (repeat zero nb)
        end ;;
  Ok (mkCube ny nx nb (repeat (repeat px nx) ny)).

(** An image argument is a 2-d or a 3-d array *)
Inductive image (A : Type) := Gray (b : band A) | Color (c : cube A).
Arguments Gray {A}. Arguments Color {A}.
(* resippy/utils/image_utils/image_utils.py:136-150 *)
Definition get_image_ny_nx_nbands {A} (i : image A) : nat * nat * nat :=
  match i with
  | Gray b => (b_ny b, b_nx b, 1%nat)
  | Color c => (c_ny c, c_nx c, c_nb c)
  end.

(* ---------------------- detection image --------------------------- *)

(** array[y0:y1, x0:x1] = v *)
Definition in_slice (n : nat) (a b : Z) (k : nat) : bool :=
  (slice_bound (Z.of_nat n) a <=? Z.of_nat k) && (Z.of_nat k <? slice_bound (Z.of_nat n) b).
Definition fill_rect {A} (img : band A) (y0 y1 x0 x1 : Z) (v : A) : band A :=
  mkBand (b_ny img) (b_nx img)
    (mapi (fun r row => if in_slice (b_ny img) y0 y1 r
                        then mapi (fun c p => if in_slice (b_nx img) x0 x1 c then v else p) row
                        else row) (b_rows img)).

(** numpy max of an integer array *)
Definition zmax_list (l : list Z) : result Z :=
  match l with [] => Err ValueError | x :: r => Ok (fold_left Z.max r x) end.

(* resippy/utils/image_utils/image_utils.py:153-162.  argsort is numpy's argsort
   (any permutation that sorts the scores). *)
Definition create_detection_image_from_scores {A} (zero : A) (argsort : list A -> list nat)
    (scores : list A) (uls : list (Z * Z)) (chip_x chip_y : Z) : result (band A) :=
  my <- zmax_list (map fst uls) ;;
  mx <- zmax_list (map snd uls) ;;
  let ny := my + chip_y in
  let nx := mx + chip_x in
  if (ny <? 0) || (nx <? 0) then Err ValueError
  else
    foldM (fun img i =>
             ul <- py_get uls (Z.of_nat i) ;;
             s <- py_get scores (Z.of_nat i) ;;
             Ok (fill_rect img (fst ul) (fst ul + chip_y) (snd ul) (snd ul + chip_x) s))
          (argsort scores)
          (mkBand (Z.to_nat ny) (Z.to_nat nx) (repeat (repeat zero (Z.to_nat nx)) (Z.to_nat ny))).

(* ---------------------- colour masks ------------------------------ *)

(** numpy.where on a 2-d condition: row-major list of (y, x) *)
Definition np_where {A} (cond : A -> bool) (rows : list (list A)) : list (nat * nat) :=
  concat (mapi (fun y row => concat (mapi (fun x p => if cond p then [(y, x)] else []) row)) rows).

(** image[:, :, 0:3] for a four-band image (resippy/utils/image_utils/image_mask_utils.py:13-14) *)
Definition strip_alpha {A} (c : cube A) : cube A :=
  if Nat.eqb (c_nb c) 4 then mkCube (c_ny c) (c_nx c) 3 (map (map (firstn 3)) (c_data c)) else c.

(** np.sum(image == rgb, axis=2) == 3: equal band counts, or one band broadcast *)
Definition px_is (rgb : Z * Z * Z) (px : list Z) : bool :=
  let '(r, g, b) := rgb in
  match px with
  | [a; b'; c] => (a =? r) && (b' =? g) && (c =? b)
  | [a] => (a =? r) && (a =? g) && (a =? b)
  | _ => false
  end.

(** dict assignment (insertion order kept) *)
Section dict.
  Context {K V : Type} (eqb : K -> K -> bool).
  Fixpoint dict_set (d : list (K * V)) (k : K) (v : V) : list (K * V) :=
    match d with
    | [] => [(k, v)]
    | (k', v') :: r => if eqb k k' then (k', v) :: r else (k', v') :: dict_set r k v
    end.
  Fixpoint dict_get (d : list (K * V)) (k : K) : option V :=
    match d with
    | [] => None
    | (k', v') :: r => if eqb k k' then Some v' else dict_get r k
    end.
End dict.

(* resippy/utils/image_utils/image_mask_utils.py:7-25, the branch with a colour
   dictionary.  hex_to_rgb is colorutils.hex_to_rgb; the pixel arrays are returned
   as one list of (y, x).  Images of other band counts raise in np.sum. *)
Definition rgb_mask_dict {H V} (veqb : V -> V -> bool) (hex_to_rgb : H -> Z * Z * Z)
    (img : image Z) (colors : list (H * V)) : result (list (V * list (nat * nat))) :=
  match img with
  | Gray _ => match colors with [] => Ok [] | _ => Err IndexError end
  | Color c =>
    let c := strip_alpha c in
    if Nat.eqb (c_nb c) 3 || Nat.eqb (c_nb c) 1 then
      Ok (fold_left (fun d hv => dict_set veqb d (snd hv) (np_where (px_is (hex_to_rgb (fst hv))) (c_data c)))
                    colors [])
    else match colors with [] => Ok [] | _ => Err IndexError end
  end.

(* resippy/utils/image_utils/image_mask_utils.py:22-25; unsigned sums do not
   overflow in numpy.sum (64-bit accumulator) *)
Definition rgb_mask_any (img : image Z) : result (list (nat * nat)) :=
  match img with
  | Gray _ => Err IndexError
  | Color c => Ok (np_where (fun px => 0 <? fold_right Z.add 0 px) (c_data (strip_alpha c)))
  end.
