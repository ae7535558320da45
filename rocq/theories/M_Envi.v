(** Model of resippy/utils/envi_utils.py (whole file) and of the header
    discovery of resippy/image_objects/envi/envi_image.py.
    Text is modelled on Linux (os.linesep = LF). *)
From Verif Require Export Py Text Arr.
Open Scope Z_scope.
Open Scope list_scope.

(** numpy scalar types; OtherDtype stands for every dtype not listed
    (strings, objects, records, dates, extended floats). *)
Inductive np_dtype :=
| Bool_ | UInt8 | Int8 | UInt16 | Int16 | UInt32 | Int32 | UInt64 | Int64
| Float16 | Float32 | Float64 | Complex64 | Complex128 | OtherDtype (n : nat).

Definition np_dtype_eq_dec (a b : np_dtype) : {a = b} + {a <> b}.
Proof. decide equality; apply Nat.eq_dec. Defined.

(* resippy/utils/envi_utils.py:6-21 *)
Definition envi_dtypes_to_numpy : list (text * option np_dtype) :=
  [ (txt "1", Some UInt8); (txt "2", Some Int16); (txt "3", Some Int32);
    (txt "4", Some Float32); (txt "5", Some Float64); (txt "6", None);
    (txt "7", None); (txt "8", None); (txt "9", Some Complex64);
    (txt "10", None); (txt "11", None); (txt "12", Some UInt16);
    (txt "13", Some UInt32); (txt "14", Some Int64); (txt "15", Some UInt64) ].

(** Python dict with string keys: insertion ordered, later store overwrites in
    place. *)
Definition dict (V : Type) := list (text * V).
Fixpoint dict_get {V} (d : dict V) (k : text) : result V :=
  match d with
  | [] => Err KeyError
  | (k', v) :: r => if text_eqb k' k then Ok v else dict_get r k
  end.
Fixpoint dict_set {V} (d : dict V) (k : text) (v : V) : dict V :=
  match d with
  | [] => [(k, v)]
  | (k', v') :: r => if text_eqb k' k then (k', v) :: r else (k', v') :: dict_set r k v
  end.
Fixpoint dict_del {V} (d : dict V) (k : text) : dict V :=
  match d with
  | [] => []
  | (k', v') :: r => if text_eqb k' k then r else (k', v') :: dict_del r k
  end.

(* resippy/utils/envi_utils.py:24-26  (the argument is already an int) *)
Definition envi_dtype_to_numpy_dtype (code : Z) : result (option np_dtype) :=
  dict_get envi_dtypes_to_numpy (str_of_Z code).

(* resippy/utils/envi_utils.py:29-33.  The comparison of a None table value with
   a dtype depends on the numpy version (old versions read None as the default
   dtype float64): none_is_f64 covers both.  Falling out of the loop returns
   None. *)
Definition table_val_eq (none_is_f64 : bool) (v : option np_dtype) (d : np_dtype) : bool :=
  match v with
  | Some x => if np_dtype_eq_dec x d then true else false
  | None => none_is_f64 && (if np_dtype_eq_dec Float64 d then true else false)
  end.
Fixpoint dtype_search (none_is_f64 : bool) (tbl : list (text * option np_dtype)) (d : np_dtype)
  : result (option Z) :=
  match tbl with
  | [] => Ok None
  | (key, v) :: r =>
    if table_val_eq none_is_f64 v d
    then k <- py_int key ;; Ok (Some k)
    else dtype_search none_is_f64 r d
  end.
Definition numpy_dtype_to_envi_dtype (none_is_f64 : bool) (d : np_dtype) : result (option Z) :=
  dtype_search none_is_f64 envi_dtypes_to_numpy d.

(* ---------------------------- header reading ---------------------- *)

(* resippy/utils/string_utils.py:5-14 ; os.linesep is a parameter *)
Definition cleanup_newlines_on (linesep t : text) : text :=
  str_replace [ch_nl] linesep (str_replace [ch_cr] linesep (str_replace [ch_cr; ch_nl] linesep t)).
(* os.linesep on the two families of systems *)
Definition posix_linesep : text := [ch_nl].
Definition windows_linesep : text := [ch_cr; ch_nl].
(* resippy/utils/string_utils.py:5-14 with os.linesep = LF *)
Definition cleanup_newlines (t : text) : text := cleanup_newlines_on posix_linesep t.

(* resippy/utils/envi_utils.py:94-103 ; the implicit None at the end is falsy *)
Definition is_equals_entry (t : text) : bool :=
  let bracket_index := find_z "{"%char t in
  let equals_index := find_z "="%char t in
  let newline_index := find_z ch_nl t in
  if equals_index =? -1 then false
  else if (bracket_index <? newline_index) && negb (bracket_index =? -1) then false
  else if equals_index <? newline_index then true
  else false.

(* resippy/utils/envi_utils.py:105-113 *)
Definition is_bracket_entry (t : text) : bool :=
  let bracket_index := find_z "{"%char t in
  let newline_index := find_z ch_nl t in
  if bracket_index =? -1 then false
  else if bracket_index <? newline_index then true
  else false.

(* resippy/utils/envi_utils.py:115-118 *)
Definition entry_has_newline (t : text) : bool := negb (find_z ch_nl t =? -1).

(** str.split(entry, '=', 1) unpacked into two names: ValueError without '='. *)
Definition split_once (c : ascii) (t : text) : result (text * text) :=
  match find_char c t with
  | Some k => Ok (firstn k t, skipn (S k) t)
  | None => Err ValueError
  end.

(** entry.split('=') unpacked into two names: ValueError unless exactly two. *)
Definition split_two (c : ascii) (t : text) : result (text * text) :=
  match split_char c t with
  | [a; b] => Ok (a, b)
  | _ => Err ValueError
  end.

(* resippy/utils/envi_utils.py:144-146 : key.rstrip().lstrip(), val.strip() *)
Definition store_entry (d : dict text) (key val : text) : dict text :=
  dict_set d (lstrip (rstrip key)) (strip val).

(* resippy/utils/envi_utils.py:122-142 : one pass of the loop, giving the key, the
   value and the rest of the text *)
Definition header_step (t : text) : result (text * text * text) :=
  if is_bracket_entry t then
    let right_brace_index := find_z "}"%char t in
    let entry_text := py_slice t 0 right_brace_index in
    kv <- split_once "="%char entry_text ;;
    Ok (fst kv, snd kv, py_slice_from t (right_brace_index + 1))
  else if is_equals_entry t then
    let linesep_index := find_z ch_nl t in
    let entry_text := py_slice t 0 linesep_index in
    kv <- split_two "="%char entry_text ;;
    Ok (fst kv, snd kv, py_slice_from t (linesep_index + 1))
  else if entry_has_newline t then
    Ok ([], [], py_slice_from t (find_z ch_nl t + 1))
  else Ok ([], [], py_slice_from t 1).

(* resippy/utils/envi_utils.py:120-146.  "header_text is not ''" compares object
   identity: in CPython the empty result of a slice is the one empty string, so
   it is the emptiness test.  The while loop gets fuel; Diverges = fuel used up. *)
Fixpoint header_loop (fuel : nat) (t : text) (d : dict text) : result (dict text) :=
  match t with
  | [] => Ok d
  | _ :: _ =>
    match fuel with
    | O => Diverges
    | S f =>
      e <- header_step t ;;
      header_loop f (snd e) (store_entry d (fst (fst e)) (snd (fst e)))
    end
  end.

Inductive hval (F : Type) :=
| HStr (t : text)
| HInt (z : Z)
| HArr (l : list F).
Arguments HStr {F} t.
Arguments HInt {F} z.
Arguments HArr {F} l.

(* resippy/utils/envi_utils.py:158-160 *)
Definition bracket_ndarr_entries : list text := map txt ["fwhm"%string; "wavelength"%string].
Definition equals_int_entries : list text :=
  map txt ["samples"; "lines"; "bands"; "header offset"; "data type"; "byte order";
           "x start"; "y start"]%string.
Definition text_in (t : text) (l : list text) : bool := existsb (text_eqb t) l.

Section WithFloats.
(** Python's float(str): the parser itself is not modelled (None = ValueError). *)
Variable F : Type.
Variable parse_float : text -> option F.

Definition py_float (t : text) : result F :=
  match parse_float t with Some x => Ok x | None => Err ValueError end.

(* resippy/utils/envi_utils.py:151-156 *)
Definition bracket_entry_to_ndarray (t : text) : result (list F) :=
  let t := str_replace [ch_nl] [] t in
  let t := str_replace [" "%char] [] t in
  let t := str_replace ["{"%char] [] t in
  let t := str_replace ["}"%char] [] t in
  mapM py_float (split_char ","%char t).

(* resippy/utils/envi_utils.py:162-170 : conversion of one entry *)
Definition convert_entry (kv : text * text) : result (text * hval F) :=
  let '(key, v) := kv in
  if text_in (lower key) bracket_ndarr_entries then
    l <- bracket_entry_to_ndarray v ;; Ok (key, HArr l)
  else if text_in (lower key) equals_int_entries then
    z <- py_int (str_replace [" "%char] [] v) ;; Ok (key, HInt z)
  else Ok (key, HStr v).

(* resippy/utils/envi_utils.py:87-171, from the text of the file.  open(...,'r')
   already translates newlines; cleanup_newlines repeats it.
   "del envi_header_dict['']" at 148-149 is dict_del, a no-op without that key. *)
Definition read_envi_header (fuel : nat) (file_text : text) : result (dict (hval F)) :=
  d <- header_loop fuel (cleanup_newlines file_text) [] ;;
  mapM convert_entry (dict_del d []).

End WithFloats.

(* ---------------------------- header writing ---------------------- *)

(** Values of the dictionary given to the writer, as str(val) sees them. *)
Inductive wval := WInt (z : Z) | WStr (t : text).
Definition str_of_wval (v : wval) : text :=
  match v with WInt z => str_of_Z z | WStr t => t end.

(* resippy/utils/envi_utils.py:175-182 : the text written *)
Definition write_envi_header (d : dict wval) : text :=
  txt "ENVI" ++ [ch_nl] ++
  flat_map (fun kv => fst kv ++ txt " = " ++ str_of_wval (snd kv) ++ [ch_nl]) d.

(* ---------------------------- image data -------------------------- *)

(** image_cube[l, :, b] *)
Definition get_line_band {A} (zero : A) (c : cube A) (l b : nat) : list A :=
  map (fun px => nth b px zero) (nth l (c_data c) []).

(** image_cube[l, :, b] = chunk : numpy broadcasts a chunk of length 1 and
    refuses every other length than the line's *)
Definition set_line_band {A} (zero : A) (c : cube A) (l b : nat) (chunk : list A) : result (cube A) :=
  let store vals :=
    Ok (mkCube (c_ny c) (c_nx c) (c_nb c)
          (upd_nat (c_data c) l (map2 (fun px v => upd_nat px b v) (nth l (c_data c) []) vals))) in
  if Nat.eqb (length chunk) (c_nx c) then store chunk
  else if Nat.eqb (length chunk) 1 then store (repeat (nth 0 chunk zero) (c_nx c))
  else Err ValueError.

(** The two nested loops "for l in range(ny): for b in range(nbands)" *)
Definition line_band_pairs (ny nb : nat) : list (nat * nat) :=
  list_prod (seq 0 ny) (seq 0 nb).

(* resippy/utils/envi_utils.py:193-201 : raw_data, for the image and interleave *)
Definition interleave_image {A} (zero : A) (c : cube A) (interleave : text) : list A :=
  let raw_data := repeat zero (c_ny c * c_nx c * c_nb c) in
  if text_eqb interleave (txt "bil") then
    fst (fold_left
      (fun st lb =>
         let '(raw, counter) := st in
         let data_chunk := get_line_band zero c (fst lb) (snd lb) in
         (set_slice raw counter data_chunk, (counter + c_nx c)%nat))
      (line_band_pairs (c_ny c) (c_nb c)) (raw_data, O))
  else raw_data.

(* resippy/utils/envi_utils.py:245-259 *)
Definition zero_cube {A} (zero : A) (ny nx nb : nat) : cube A :=
  mkCube ny nx nb (repeat (repeat (repeat zero nb) nx) ny).
Definition construct_image_cube_from_raw_data {A} (zero : A) (raw : list A)
    (nx ny nb : nat) (interleave : text) : result (cube A) :=
  let image_cube := zero_cube zero ny nx nb in
  if text_eqb interleave (txt "bil") then
    rmap fst (foldM
      (fun st lb =>
         let '(cub, counter) := st in
         let data_chunk := firstn nx (skipn counter raw) in
         cub' <- set_line_band zero cub (fst lb) (snd lb) data_chunk ;;
         Ok (cub', (counter + nx)%nat))
      (line_band_pairs ny nb) (image_cube, O))
  else Ok image_cube.

(** Files: a raw file of values of one dtype, or a text file.  Simplified: the
    bytes of a raw file are not modelled; reading it with another dtype than it
    was written with is not modelled (Err OtherError). *)
Inductive file (A : Type) :=
| RawFile (d : np_dtype) (vals : list A)
| TextFile (t : text).
Arguments RawFile {A}. Arguments TextFile {A}.
Definition fs (A : Type) := text -> option (file A).
Definition fs_write {A} (w : fs A) (name : text) (f : file A) : fs A :=
  fun n => if text_eqb n name then Some f else w n.

(* resippy/utils/envi_utils.py:186-212.  Returns the file system left behind, also
   when it raises (int(None) at line 210 is a TypeError). *)
Definition write_envi_image {A} (zero : A) (none_is_f64 : bool) (w : fs A)
    (c : cube A) (dtype : np_dtype)
    (output_fname : text) (output_header_fname : option text) (interleave : text)
  : fs A * result unit :=
  let hdr := match output_header_fname with
             | Some h => h
             | None => output_fname ++ txt ".hdr"
             end in
  let w1 := fs_write w output_fname (RawFile dtype (interleave_image zero c interleave)) in
  match numpy_dtype_to_envi_dtype none_is_f64 dtype with
  | Ok (Some code) =>
    let envi_header :=
      [ (txt "samples", WInt (Z.of_nat (c_nx c))); (txt "lines", WInt (Z.of_nat (c_ny c)));
        (txt "bands", WInt (Z.of_nat (c_nb c))); (txt "data type", WInt code);
        (txt "interleave", WStr interleave) ] in
    (fs_write w1 hdr (TextFile (write_envi_header envi_header)), Ok tt)
  | Ok None => (w1, Err TypeError)
  | Err e => (w1, Err e)
  | Diverges => (w1, Diverges)
  end.

Section ReadImage.
Variable A F : Type.
Variable parse_float : text -> option F.

(** int(header[...]) on a value of the parsed header *)
Definition hval_int (v : hval F) : result Z :=
  match v with
  | HInt z => Ok z
  | HStr t => py_int t
  | HArr _ => Err TypeError
  end.

(* resippy/utils/envi_utils.py:237-242.  A code whose table value is None makes
   numpy read the default dtype float64. *)
Definition read_all_image_data_to_numpy_array (w : fs A) (path : text) (code : Z)
  : result (list A) :=
  d <- envi_dtype_to_numpy_dtype code ;;
  let d := match d with Some d => d | None => Float64 end in
  match w path with
  | Some (RawFile d' vals) => if np_dtype_eq_dec d d' then Ok vals else Err OtherError
  | Some (TextFile _) => Err OtherError
  | None => Err OtherError
  end.

(* resippy/utils/envi_utils.py:218-225 : the last existing guess wins; os.path.exists
   does not raise, so the except branch is dead and header_file stays None *)
Definition find_header (w : fs A) (image_file : text) (guesses : list text) : option text :=
  fold_left (fun h g => match w g with Some _ => Some g | None => h end) guesses None.
Definition read_envi_image_guesses (image_file : text) : list text :=
  [ py_slice image_file 0 (-4) ++ txt ".hdr"; image_file ++ txt ".hdr" ].
(* resippy/image_objects/envi/envi_image.py:26-31 *)
Definition envi_image_guesses (image_file : text) : list text :=
  [ image_file ++ txt ".hdr"; py_slice image_file 0 (-4) ++ txt ".hdr" ].

(* resippy/utils/envi_utils.py:215-234.  open(None) raises TypeError. Negative
   sizes (np.zeros raises ValueError) are rejected too. *)
Definition read_envi_image (zero : A) (fuel : nat) (w : fs A) (image_file : text)
    (header_file : option text) : result (cube A) :=
  let header_file := match header_file with
                     | Some h => Some h
                     | None => find_header w image_file (read_envi_image_guesses image_file)
                     end in
  match header_file with
  | None => Err TypeError
  | Some h =>
    match w h with
    | Some (TextFile t) =>
      envi_header <- read_envi_header F parse_float fuel t ;;
      nxv <- dict_get envi_header (txt "samples") ;; nx <- hval_int nxv ;;
      nyv <- dict_get envi_header (txt "lines") ;; ny <- hval_int nyv ;;
      nbv <- dict_get envi_header (txt "bands") ;; nb <- hval_int nbv ;;
      dtv <- dict_get envi_header (txt "data type") ;; code <- hval_int dtv ;;
      ilv <- dict_get envi_header (txt "interleave") ;;
      vals <- read_all_image_data_to_numpy_array w image_file code ;;
      if (nx <? 0) || (ny <? 0) || (nb <? 0) then Err ValueError
      else construct_image_cube_from_raw_data zero vals (Z.to_nat nx) (Z.to_nat ny) (Z.to_nat nb)
             (match ilv with HStr t => t | _ => [] end)
    | _ => Err OtherError
    end
  end.
End ReadImage.
