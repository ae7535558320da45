(** ENVI files as bytes: what resippy/utils/envi_utils.py puts on disk and what it makes of the bytes
    it finds there (M_Envi keeps a raw file as a typed list of values).  The byte order of the machine
    is a parameter.  Simplified: file text is ASCII (a header with other bytes is not modelled and
    gives Err OtherError); the values of the dtypes the reader never reads are kept as their bytes. *)
From Verif Require Export M_Envi.
From Flocq Require Import IEEE754.Binary IEEE754.Bits.
Open Scope Z_scope.
Open Scope list_scope.

(** sys.byteorder *)
Inductive endian := Little | Big.

(** The elements of a numpy array *)
Inductive npval :=
| VInt (z : Z)                      (* bool and the integer dtypes *)
| VF32 (x : binary32)
| VF64 (x : binary64)
| VC64 (re im : binary32)
| VBytes (bs : list ascii).         (* every other dtype *)

(** numpy's dtype.itemsize, as used by tofile and fromfile at resippy/utils/envi_utils.py:202,241
    (simplified: 0 for the unlisted dtypes) *)
Definition itemsize (d : np_dtype) : nat :=
  match d with
  | Bool_ | UInt8 | Int8 => 1
  | UInt16 | Int16 | Float16 => 2
  | UInt32 | Int32 | Float32 => 4
  | UInt64 | Int64 | Float64 | Complex64 => 8
  | Complex128 => 16
  | OtherDtype _ => 0
  end.

(** The n low bytes of p, least significant first, and back: the memory of the arrays of
    resippy/utils/envi_utils.py:194,241 *)
Fixpoint le_bytes (n : nat) (p : Z) : list ascii :=
  match n with
  | O => []
  | S m => ascii_of_N (Z.to_N (p mod 256)) :: le_bytes m (p / 256)
  end.
Fixpoint le_value (bs : list ascii) : Z :=
  match bs with
  | [] => 0
  | b :: r => Z.of_N (N_of_ascii b) + 256 * le_value r
  end.
(** the same in the order of the machine (resippy/utils/envi_utils.py:194,241) *)
Definition to_bytes (e : endian) (n : nat) (p : Z) : list ascii :=
  match e with Little => le_bytes n p | Big => rev (le_bytes n p) end.
Definition of_bytes (e : endian) (bs : list ascii) : Z :=
  match e with Little => le_value bs | Big => le_value (rev bs) end.

(** The bytes of one element in memory (resippy/utils/envi_utils.py:194-202) *)
Definition encode (e : endian) (d : np_dtype) (v : npval) : list ascii :=
  match v with
  | VInt z => to_bytes e (itemsize d) z
  | VF32 x => to_bytes e 4 (bits_of_b32 x)
  | VF64 x => to_bytes e 8 (bits_of_b64 x)
  | VC64 re im => to_bytes e 4 (bits_of_b32 re) ++ to_bytes e 4 (bits_of_b32 im)
  | VBytes bs => bs
  end.

(** The element of a dtype that the bytes in memory are (resippy/utils/envi_utils.py:241) *)
Definition as_signed (n : nat) (p : Z) : Z :=
  if p <? 2 ^ (8 * Z.of_nat n - 1) then p else p - 2 ^ (8 * Z.of_nat n).
Definition decode (e : endian) (d : np_dtype) (bs : list ascii) : npval :=
  match d with
  | Bool_ | UInt8 | UInt16 | UInt32 | UInt64 => VInt (of_bytes e bs)
  | Int8 | Int16 | Int32 | Int64 => VInt (as_signed (itemsize d) (of_bytes e bs))
  | Float32 => VF32 (b32_of_bits (of_bytes e bs))
  | Float64 => VF64 (b64_of_bits (of_bytes e bs))
  | Complex64 => VC64 (b32_of_bits (of_bytes e (firstn 4 bs))) (b32_of_bits (of_bytes e (skipn 4 bs)))
  | Float16 | Complex128 | OtherDtype _ => VBytes bs
  end.

(** np.zeros(..., dtype): all bytes are zero (resippy/utils/envi_utils.py:194,251) *)
Definition np_zero (d : np_dtype) : npval :=
  match d with
  | Bool_ | UInt8 | UInt16 | UInt32 | UInt64 | Int8 | Int16 | Int32 | Int64 => VInt 0
  | Float32 => VF32 (b32_of_bits 0)
  | Float64 => VF64 (b64_of_bits 0)
  | Complex64 => VC64 (b32_of_bits 0) (b32_of_bits 0)
  | Float16 | Complex128 | OtherDtype _ => VBytes (repeat zero (itemsize d))
  end.

(** Files are lists of bytes *)
Definition bfs := text -> option (list ascii).
Definition bfs_write (w : bfs) (name : text) (f : list ascii) : bfs :=
  fun n => if text_eqb n name then Some f else w n.

(** ndarray.tofile at resippy/utils/envi_utils.py:202 : the bytes of the elements in memory, one
    after the other *)
Definition tofile (e : endian) (d : np_dtype) (vals : list npval) : list ascii :=
  flat_map (encode e d) vals.
(** np.fromfile(path, dtype) at resippy/utils/envi_utils.py:241 : as many whole elements as the file
    holds, from its first byte *)
Definition fromfile (e : endian) (d : np_dtype) (bs : list ascii) : list npval :=
  map (fun k => decode e d (firstn (itemsize d) (skipn (k * itemsize d) bs)))
      (seq 0 (length bs / itemsize d)).

(* resippy/utils/envi_utils.py:186-212 : the files written, in order, with their contents; the
   second one only when the dtype has a code (int(None) at line 209 is a TypeError) *)
Definition envi_writes (e : endian) (none_is_f64 : bool) (c : cube npval) (d : np_dtype)
    (output_fname : text) (output_header_fname : option text) (interleave : text)
  : list (text * list ascii) * result unit :=
  let hdr := match output_header_fname with
             | Some h => h
             | None => output_fname ++ txt ".hdr"
             end in
  let raw := (output_fname, tofile e d (interleave_image (np_zero d) c interleave)) in
  match numpy_dtype_to_envi_dtype none_is_f64 d with
  | Ok (Some code) =>
    let envi_header :=
      [ (txt "samples", WInt (Z.of_nat (c_nx c))); (txt "lines", WInt (Z.of_nat (c_ny c)));
        (txt "bands", WInt (Z.of_nat (c_nb c))); (txt "data type", WInt code);
        (txt "interleave", WStr interleave) ] in
    ([raw; (hdr, write_envi_header envi_header)], Ok tt)
  | Ok None => ([raw], Err TypeError)
  | Err x => ([raw], Err x)
  | Diverges => ([raw], Diverges)
  end.
(* resippy/utils/envi_utils.py:202,212 : the files one after the other *)
Definition do_writes (w : bfs) (l : list (text * list ascii)) : bfs :=
  fold_left (fun w nf => bfs_write w (fst nf) (snd nf)) l w.
(* resippy/utils/envi_utils.py:186-212 *)
Definition write_envi_image_bytes (e : endian) (none_is_f64 : bool) (w : bfs) (c : cube npval)
    (d : np_dtype) (output_fname : text) (output_header_fname : option text) (interleave : text)
  : bfs * result unit :=
  let '(l, r) := envi_writes e none_is_f64 c d output_fname output_header_fname interleave in
  (do_writes w l, r).

(** The process is killed while it writes: the first n files are complete, and k bytes of the next
    one are there (opening it for writing has emptied it).  resippy/utils/envi_utils.py:202,178 *)
Definition killed_write (w : bfs) (l : list (text * list ascii)) (n k : nat) : bfs :=
  match nth_error l n with
  | None => do_writes w l
  | Some (name, bs) => bfs_write (do_writes w (firstn n l)) name (firstn k bs)
  end.

Section ReadBytes.
Variable F : Type.
Variable parse_float : text -> option F.

(** open(...).read() of a text file in ASCII (resippy/utils/envi_utils.py:87-88) *)
Definition text_of_bytes (bs : list ascii) : result text :=
  if forallb (fun b => N.ltb (N_of_ascii b) 128) bs then Ok bs else Err OtherError.

(* resippy/utils/envi_utils.py:237-242.  A code whose table value is None makes
   numpy read the default dtype float64. *)
Definition read_all_image_data_bytes (e : endian) (w : bfs) (path : text) (code : Z)
  : result (np_dtype * list npval) :=
  od <- envi_dtype_to_numpy_dtype code ;;
  let d := match od with Some d => d | None => Float64 end in
  match w path with
  | Some bs => Ok (d, fromfile e d bs)
  | None => Err OtherError
  end.

(* resippy/utils/envi_utils.py:218-225 *)
Definition find_header_bytes (w : bfs) (guesses : list text) : option text :=
  fold_left (fun h g => match w g with Some _ => Some g | None => h end) guesses None.

(* resippy/utils/envi_utils.py:215-234 *)
Definition read_envi_image_bytes (e : endian) (fuel : nat) (w : bfs) (image_file : text)
    (header_file : option text) : result (np_dtype * cube npval) :=
  let header_file := match header_file with
                     | Some h => Some h
                     | None => find_header_bytes w (read_envi_image_guesses image_file)
                     end in
  match header_file with
  | None => Err TypeError
  | Some h =>
    match w h with
    | Some hb =>
      t <- text_of_bytes hb ;;
      envi_header <- read_envi_header F parse_float fuel t ;;
      nxv <- dict_get envi_header (txt "samples") ;; nx <- hval_int F nxv ;;
      nyv <- dict_get envi_header (txt "lines") ;; ny <- hval_int F nyv ;;
      nbv <- dict_get envi_header (txt "bands") ;; nb <- hval_int F nbv ;;
      dtv <- dict_get envi_header (txt "data type") ;; code <- hval_int F dtv ;;
      ilv <- dict_get envi_header (txt "interleave") ;;
      dv <- read_all_image_data_bytes e w image_file code ;;
      if (nx <? 0) || (ny <? 0) || (nb <? 0) then Err ValueError
      else c <- construct_image_cube_from_raw_data (np_zero (fst dv)) (snd dv)
                  (Z.to_nat nx) (Z.to_nat ny) (Z.to_nat nb)
                  (match ilv with HStr t => t | _ => [] end) ;;
           Ok (fst dv, c)
    | None => Err OtherError
    end
  end.
End ReadBytes.
