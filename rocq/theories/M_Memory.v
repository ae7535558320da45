(** Images as numpy sees them: views of memory.  Python code that is written as if arrays were values
    (flatten_image_cube, unflatten_image_cube, compute_image_cube_pca, AbstractImage.get_image_band)
    here acts on buffers shared between arrays. *)
From Coq Require Import ZArith List Bool Lia.
From Verif Require Export Py.
Import ListNotations.
Open Scope Z_scope.

Section Memory.
Context {V : Type}.
(** buffers 0, ..., next - 1 exist; a buffer maps addresses to values *)
Record memory := { next : nat; mem : nat -> Z -> V }.
(** numpy arrays of rank 3 and 2: a buffer, the address of the first element, lengths and strides
    (in elements) of the axes *)
Record arr3 := { buf3 : nat; off3 : Z; n_y : nat; n_x : nat; n_b : nat; s_y : Z; s_x : Z; s_b : Z }.
Record arr2 := { buf2 : nat; off2 : Z; n_r : nat; n_c : nat; s_r : Z; s_c : Z }.
Definition addr3 (a : arr3) (y x b : nat) : Z := off3 a + Z.of_nat y * s_y a + Z.of_nat x * s_x a + Z.of_nat b * s_b a.
Definition addr2 (a : arr2) (r c : nat) : Z := off2 a + Z.of_nat r * s_r a + Z.of_nat c * s_c a.
Definition get3 (m : memory) (a : arr3) (y x b : nat) : V := mem m (buf3 a) (addr3 a y x b).
Definition get2 (m : memory) (a : arr2) (r c : nat) : V := mem m (buf2 a) (addr2 a r c).
Definition poke (m : memory) (k : nat) (z : Z) (v : V) : memory :=
  {| next := next m; mem := fun k' z' => if (Nat.eqb k' k && Z.eqb z' z)%bool then v else mem m k' z' |}.
Definition put3 (m : memory) (a : arr3) (y x b : nat) (v : V) : memory := poke m (buf3 a) (addr3 a y x b) v.
Definition put2 (m : memory) (a : arr2) (r c : nat) (v : V) : memory := poke m (buf2 a) (addr2 a r c) v.
Definition grid2 (n k : nat) : list (nat * nat) := flat_map (fun r => map (fun c => (r, c)) (seq 0 k)) (seq 0 n).
(** a[:, :] = f, element by element *)
Definition fill (m : memory) (a : arr2) (f : nat -> nat -> V) : memory :=
  fold_left (fun m rc => put2 m a (fst rc) (snd rc) (f (fst rc) (snd rc))) (grid2 (n_r a) (n_c a)) m.
(** A new array in C order with the given elements *)
Definition new2 (m : memory) (n k : nat) (f : nat -> nat -> V) : arr2 * memory :=
  ({| buf2 := next m; off2 := 0; n_r := n; n_c := k; s_r := Z.of_nat k; s_c := 1 |},
   {| next := S (next m);
      mem := fun k' z => if Nat.eqb k' (next m) then f (Z.to_nat (z / Z.of_nat k)) (Z.to_nat (z mod Z.of_nat k)) else mem m k' z |}).

(* resippy/utils/spectral_utils.py:48-59.  np.reshape to (ny * nx, nbands): a view if the first two axes
   can be stepped through with one stride (numpy's rule for reshaping without a copy), else a new
   array.  Arrays without elements are views here; they have no elements to share. *)
Definition one_stride (a : arr3) : option Z :=
  if Nat.leb (n_y a) 1 then Some (s_x a)
  else if Nat.leb (n_x a) 1 then Some (s_y a)
  else if Z.eqb (s_y a) (Z.of_nat (n_x a) * s_x a) then Some (s_x a)
  else None.
Definition flatten_image_cube (a : arr3) (m : memory) : arr2 * memory :=
  match one_stride a with
  | Some s => ({| buf2 := buf3 a; off2 := off3 a; n_r := n_y a * n_x a; n_c := n_b a; s_r := s; s_c := s_b a |}, m)
  | None => new2 m (n_y a * n_x a) (n_b a) (fun i b => get3 m a (i / n_x a) (i mod n_x a) b)
  end.
(* resippy/utils/spectral_utils.py:62-75.  np.reshape to (ny, nx, nbands): splitting an axis is always
   possible without a copy; ValueError if the sizes differ (for an array with bands). *)
Definition unflatten_image_cube (a : arr2) (nx ny : nat) : result arr3 :=
  if Nat.eqb (ny * nx * n_c a) (n_r a * n_c a)
  then Ok {| buf3 := buf2 a; off3 := off2 a; n_y := ny; n_x := nx; n_b := n_c a;
             s_y := Z.of_nat nx * s_r a; s_x := s_r a; s_b := s_c a |}
  else Err ValueError.
(* The pattern of resippy/spectral/spectral_image_processing_2d.py:42-51 (demean_image_data) and
   117-134 (covariance_equalization_mean_centered): flatten, compute a new array with the same rows and
   columns from the elements, unflatten.  f is the function of
   resippy/spectral/spectral_image_processing_1d.py, whose result is a new array. *)
Definition on_flattened (f : (nat -> nat -> V) -> nat -> nat -> V) (a : arr3) (m : memory) : result (arr3 * memory) :=
  let (w, m1) := flatten_image_cube a m in
  let (r, m2) := new2 m1 (n_r w) (n_c w) (f (get2 m1 w)) in
  match unflatten_image_cube r (n_x a) (n_y a) with
  | Ok o => Ok (o, m2)
  | Err e => Err e
  | Diverges => Diverges
  end.

(* sklearn's PCA(copy=False).fit_transform: scores, as a new array with ncomp columns, and what the
   computation leaves in its input, which is the array itself if its type is a float type sklearn works
   with and a converted copy otherwise. *)
Record pca := { ncomp : nat -> nat -> nat; scores : nat -> nat -> (nat -> nat -> V) -> nat -> nat -> V;
                left_over : nat -> nat -> (nat -> nat -> V) -> nat -> nat -> V }.
Definition fit_transform (p : pca) (is_float : bool) (w : arr2) (m : memory) : arr2 * memory :=
  let X := get2 m w in
  let m1 := if is_float then fill m w (left_over p (n_r w) (n_c w) X) else m in
  new2 m1 (n_r w) (ncomp p (n_r w) (n_c w)) (scores p (n_r w) (n_c w) X).
(* resippy/spectral/spectral_image_processing_2d.py:11-29; ndarray.reshape views where np.reshape does *)
Definition compute_image_cube_pca (p : pca) (is_float : bool) (a : arr3) (m : memory) : result (arr3 * memory) :=
  let (w, m1) := flatten_image_cube a m in
  let (t, m2) := fit_transform p is_float w m1 in
  match unflatten_image_cube t (n_x a) (n_y a) with
  | Ok o => Ok (o, m2)
  | Err e => Err e
  | Diverges => Diverges
  end.

(* resippy/image_objects/abstract_image.py:84-92, of an image holding the array a: the band is a view *)
Definition get_image_band (a : arr3) (i : Z) : result arr2 :=
  let k := if i <? 0 then i + Z.of_nat (n_b a) else i in
  if ((0 <=? k) && (k <? Z.of_nat (n_b a)))%bool
  then Ok {| buf2 := buf3 a; off2 := off3 a + k * s_b a; n_r := n_y a; n_c := n_x a; s_r := s_y a; s_c := s_x a |}
  else Err IndexError.
End Memory.
Arguments memory : clear implicits.
Arguments pca : clear implicits.

(* resippy/utils/spectral_utils.py:8-12, of an array of this shape *)
Definition get_2d_cube_nx_ny_nbands (shape : list nat) : result (nat * nat * nat) :=
  match nth_error shape 1, nth_error shape 0, nth_error shape 2 with
  | Some a, Some b, Some c => Ok (a, b, c)
  | _, _, _ => Err IndexError
  end.
(* resippy/utils/spectral_utils.py:15-29; the answer, and whether it warns *)
Definition is_2d_cube (shape : list nat) : bool * bool :=
  if Nat.eqb (length shape) 3 then (true, false) else if Nat.eqb (length shape) 2 then (false, false) else (false, true).
(* resippy/utils/spectral_utils.py:32-45 *)
Definition is_1d_cube (shape : list nat) : bool * bool :=
  if Nat.eqb (length shape) 2 then (true, false) else if Nat.eqb (length shape) 3 then (false, false) else (false, true).
