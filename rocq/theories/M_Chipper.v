(** Model of resippy/utils/image_utils/image_chipper.py. Images are integers
    indexed by integers; pixel values have an arbitrary type A. *)
From Verif Require Export Py Text Arr.
Open Scope Z_scope.
Open Scope list_scope.

(** numpy.arange(0, n, step): ZeroDivisionError for step 0, empty for a negative
    step (n >= 0). *)
Definition arange0 (n step : Z) : result (list Z) :=
  if step =? 0 then Err ZeroDivisionError
  else if step <? 0 then Ok []
  else Ok (map (fun k => Z.of_nat k * step) (seq 0 (Z.to_nat ((n + step - 1) / step)))).

(** sorted(list(set(l))): insertion without repetition *)
Fixpoint insert_unique (x : Z) (l : list Z) : list Z :=
  match l with
  | [] => [x]
  | y :: r => if x <? y then x :: l else if x =? y then l else y :: insert_unique x r
  end.
Definition sorted_set (l : list Z) : list Z := fold_right insert_unique [] l.

(** a[np.where(cond(a))] = v *)
Definition where_set (cond : Z -> bool) (v : Z) (l : list Z) : list Z :=
  map (fun x => if cond x then v else x) l.

(* resippy/utils/image_utils/image_chipper.py:31-36, for one axis *)
Definition axis_indices (n chip overlap : Z) : result (list Z) :=
  idxs <- arange0 n (chip - overlap) ;;
  Ok (sorted_set (where_set (fun x => n - chip <=? x) (n - chip) idxs)).

(** numpy broadcasting of one axis: equal length, or length 1 repeated *)
Definition broadcast {A} (n : nat) (l : list A) : result (list A) :=
  if Nat.eqb (length l) n then Ok l
  else match l with
       | [x] => Ok (repeat x n)
       | _ => Err ValueError
       end.

(** image[y:y+h, x:x+w, bands] assigned to a chip of h rows, w columns *)
Definition cut_chip {A} (img : cube A) (y x h w : Z) (bands : list Z) : result (list (list (list A))) :=
  rows <- mapM (fun row =>
            px <- mapM (fun p => mapM (py_get p) bands) (py_slice row x (x + w)) ;;
            broadcast (Z.to_nat w) px) (py_slice (c_data img) y (y + h)) ;;
  broadcast (Z.to_nat h) rows.

(** The returned array has 4 axes, or 3 for one band. *)
Inductive chips (A : Type) :=
| Chips4 (l : list (list (list (list A))))
| Chips3 (l : list (list (list A))).
Arguments Chips4 {A} l. Arguments Chips3 {A} l.

(* resippy/utils/image_utils/image_chipper.py:79-84, for one axis *)
Definition clamp_axis (keep : bool) (n chip : Z) (l : list Z) : list Z :=
  if keep then where_set (fun v => v <? 0) 0 (where_set (fun v => n - chip <? v) (n - chip) l) else l.

(** A band argument: None, an int, or a list of ints *)
Inductive bands_arg := BandsNone | BandsInt (b : Z) | BandsList (l : list Z).

(* resippy/utils/image_utils/image_chipper.py:67-68, 88-91 *)
Definition band_list (nbands : nat) (b : bands_arg) : list Z :=
  match b with
  | BandsNone => zrange 0 (Z.of_nat nbands)
  | BandsInt b => [b]
  | BandsList l => l
  end.

(* resippy/utils/image_utils/image_chipper.py:57-113.  gray says that the input
   array has two axes (it is then seen as one band).  The progress ledger is not
   modelled.  zip stops at the shorter list; the array has one chip per row
   index, so chips beyond the column list stay zero. Negative chip sizes are
   refused by np.zeros. *)
Definition chip_images_by_pixel_upper_lefts {A} (zero : A) (img : cube A) (gray : bool)
    (ys xs : list Z) (chip_ny chip_nx : Z) (bands : bands_arg) (keep : bool)
  : result (chips A * list (Z * Z)) :=
  let ny := Z.of_nat (c_ny img) in
  let nx := Z.of_nat (c_nx img) in
  let xs := clamp_axis keep nx chip_nx xs in
  let ys := clamp_axis keep ny chip_ny ys in
  let bl := band_list (c_nb img) bands in
  if (chip_ny <? 0) || (chip_nx <? 0) then Err ValueError
  else
    let uls := combine ys xs in
    cut <- mapM (fun yx => cut_chip img (fst yx) (snd yx) chip_ny chip_nx bl) uls ;;
    let blank := repeat (repeat (repeat zero (length bl)) (Z.to_nat chip_nx)) (Z.to_nat chip_ny) in
    let all_chips := cut ++ repeat blank (length ys - length uls) in
    if gray || Nat.eqb (length bl) 1
    then (* np.reshape drops the last axis, which has length 1 (ValueError otherwise) *)
      if Nat.eqb (length bl) 1
      then Ok (Chips3 (map (map (map (fun p => nth 0 p zero))) all_chips), uls)
      else Err ValueError
    else Ok (Chips4 all_chips, uls).

(* resippy/utils/image_utils/image_chipper.py:16-52.  A two-axis image is reshaped
   to one band before the call, so gray is false in the call. *)
Definition chip_entire_image_to_memory {A} (zero : A) (img : cube A)
    (chip_ny chip_nx overlap_y overlap_x : Z) (bands : bands_arg) (keep : bool)
  : result (chips A * list (Z * Z)) :=
  y_idxs <- axis_indices (Z.of_nat (c_ny img)) chip_ny overlap_y ;;
  x_idxs <- axis_indices (Z.of_nat (c_nx img)) chip_nx overlap_x ;;
  let pairs := list_prod y_idxs x_idxs in
  chip_images_by_pixel_upper_lefts zero img false (map fst pairs) (map snd pairs)
    chip_ny chip_nx bands keep.

(* resippy/utils/image_utils/image_chipper.py:125-132: astype(int) truncates toward
   zero; the centers are integers, chip/2.0 is exact *)
Definition center_to_ul (chip c : Z) : Z := Z.quot (2 * c - chip) 2.
Definition chip_images_by_pixel_centers {A} (zero : A) (img : cube A) (gray : bool)
    (yc xc : list Z) (chip_ny chip_nx : Z) (bands : bands_arg) (keep : bool) :=
  chip_images_by_pixel_upper_lefts zero img gray
    (map (center_to_ul chip_ny) yc) (map (center_to_ul chip_nx) xc) chip_ny chip_nx bands keep.

(* ------------------------------------------------------------------ *)

(** str.zfill for a text without sign *)
Definition zfill (n : nat) (t : text) : text := repeat "0"%char (n - length t) ++ t.

(** os.path.join of two parts (posix) *)
Definition path_join (dir name : text) : text :=
  match name with
  | c :: _ => if Ascii.eqb c "/"%char then name
              else match rev dir with
                   | [] => name
                   | d :: _ => if Ascii.eqb d "/"%char then dir ++ name
                               else dir ++ "/"%char :: name
                   end
  | [] => match rev dir with
          | [] => name
          | d :: _ => if Ascii.eqb d "/"%char then dir else dir ++ txt "/"
          end
  end.

(* resippy/utils/image_utils/image_chipper.py:154-158 *)
Definition chip_path (output_dir base fmt : text) (fnames : option (list text)) (i : nat) : result text :=
  fname <- match fnames with
           | None => Ok (base ++ txt "_" ++ zfill 8 (str_of_Z (Z.of_nat i)))
           | Some l => py_get l (Z.of_nat i)
           end ;;
  Ok (path_join output_dir (fname ++ txt "." ++ str_replace ["."%char] [] fmt)).

(* resippy/utils/image_utils/image_chipper.py:152-153: channel count of the chip
   array is that of its shape *)
Definition drop_alpha {A} (remove_alpha : bool) (nb : nat) (chip : list (list (list A))) :=
  if remove_alpha && Nat.eqb nb 4 then map (map (fun p => firstn 3 p)) chip else chip.

(* resippy/utils/image_utils/image_chipper.py:147-159, without resizing: the files
   written, in order, and how the call ended.  Indexing a 3-axis array with four
   indices raises IndexError before anything is written. *)
Fixpoint write_chip_list {A} (output_dir base fmt : text) (fnames : option (list text))
    (remove_alpha : bool) (nb : nat) (i : nat) (l : list (list (list (list A))))
  : list (text * list (list (list A))) * result unit :=
  match l with
  | [] => ([], Ok tt)
  | chip :: r =>
    match chip_path output_dir base fmt fnames i with
    | Ok p =>
      let '(w, res) := write_chip_list output_dir base fmt fnames remove_alpha nb (S i) r in
      ((p, drop_alpha remove_alpha nb chip) :: w, res)
    | Err e => ([], Err e)
    | Diverges => ([], Diverges)
    end
  end.
Definition write_chips_to_disk {A} (output_dir base fmt : text) (fnames : option (list text))
    (remove_alpha : bool) (nb : nat) (c : chips A)
  : list (text * list (list (list A))) * result unit :=
  match c with
  | Chips4 l => write_chip_list output_dir base fmt fnames remove_alpha nb 0 l
  | Chips3 [] => ([], Ok tt)
  | Chips3 (_ :: _) => ([], Err IndexError)
  end.
