(** Model of the text helpers: resippy/utils/string_utils.py, file_utils.py,
    csv_utils.py, numpy_and_array_utils.py and the ASCII spectrum factories.
    A file is its content (a text); open(fname) in text mode translates newlines
    (Text2.universal_newlines).  float(str) is a parameter: the theorems hold for
    every conversion function. *)
From Verif Require Export Text2 M_Envi.
Open Scope Z_scope.
Open Scope list_scope.

(* ----------------------------- string_utils ----------------------- *)

(* resippy/utils/string_utils.py:17-28 *)
Definition remove_newlines_on (linesep t : text) : text :=
  str_replace linesep [] (cleanup_newlines_on linesep t).

Definition remove_newlines (t : text) : text := remove_newlines_on posix_linesep t.

(* resippy/utils/string_utils.py:38 : sub('(.)([A-Z][a-z]+)', r'\1_\2', text).
   Matches are leftmost, greedy and do not overlap; run is true while the
   lower-case run of a match is being copied.  The dot excludes only LF. *)
Fixpoint snake_sub1 (run : bool) (t : text) : text :=
  match t with
  | [] => []
  | c :: r =>
    if run && is_lower c then c :: snake_sub1 true r
    else match r with
         | u :: ((l :: _) as r2) =>
           if negb (Ascii.eqb c ch_nl) && is_upper u && is_lower l
           then c :: "_"%char :: u :: snake_sub1 true r2
           else c :: snake_sub1 false r
         | _ => c :: snake_sub1 false r
         end
  end.

(* resippy/utils/string_utils.py:39 : sub('([a-z0-9])([A-Z])', r'\1_\2', s1) *)
Fixpoint snake_sub2 (t : text) : text :=
  match t with
  | c :: ((u :: r') as r) =>
    if (is_lower c || is_digit c) && is_upper u
    then c :: "_"%char :: u :: snake_sub2 r'
    else c :: snake_sub2 r
  | _ => t
  end.

(* resippy/utils/string_utils.py:31-39.  Characters above 127 are left alone by
   Text.lower. *)
Definition convert_to_snake_case (t : text) : text :=
  lower (snake_sub2 (snake_sub1 false t)).

(* ----------------------------- file_utils ------------------------- *)

(* resippy/utils/file_utils.py:77-83.  old is the file before the call (None: it
   does not exist); the list is indexed before the file is opened.  Writing in
   text mode leaves LF alone (Linux). *)
Definition write_text_list_to_file (old : option text) (l : list text) : option text * result unit :=
  match py_get l (-1) with
  | Ok z => (Some (concat (map (fun e => e ++ [ch_nl]) (removelast l)) ++ z), Ok tt)
  | Err e => (old, Err e)
  | Diverges => (old, Diverges)
  end.

(* resippy/utils/file_utils.py:86-92 *)
Definition read_text_list_from_file (content : text) : list text :=
  map remove_newlines (file_lines content).

Definition ch_slash : ascii := "/"%char.
Definition ch_dot : ascii := "."%char.

(** os.path.basename / os.path.join (posix) *)
Definition basename (p : text) : text := skipn (Z.to_nat (rfind ch_slash p + 1)) p.
(** os.path.dirname (posix): what precedes the last slash, without the slashes it
    ends in unless it is all slashes *)
Fixpoint drop_slashes (t : text) : text :=
  match t with [] => [] | c :: r => if Ascii.eqb c ch_slash then drop_slashes r else t end.
Definition dirname (p : text) : text :=
  let head := firstn (Z.to_nat (rfind ch_slash p + 1)) p in
  if forallb (fun c => Ascii.eqb c ch_slash) head then head else rev (drop_slashes (rev head)).
Definition path_join (a b : text) : text :=
  if is_prefix [ch_slash] b then b
  else if text_eqb a [] || ends_with [ch_slash] a then a ++ b
  else a ++ [ch_slash] ++ b.

(** The extensions argument: None, a str, a list of str, anything else. *)
Inductive ext_arg := ExtNone | ExtStr (s : text) | ExtList (l : list text) | ExtOther.

(* resippy/utils/file_utils.py:26 and 28 *)
Definition sanitize_ext (e : text) : text :=
  str_replace (txt "*") [] (str_replace [ch_dot] [] e).

(* resippy/utils/file_utils.py:23-32 *)
Definition sanitized_extensions (e : ext_arg) : result (list text) :=
  match e with
  | ExtList l => Ok (map sanitize_ext l)
  | ExtStr s => Ok [sanitize_ext s]
  | ExtNone => Ok [txt "*"]
  | ExtOther => Err TypeError
  end.

(** glob of directory/*.ext: the entries (files and directories alike) whose name
    does not start with a dot and ends in .ext ; for ext = * the name must contain
    a dot.  Simplified: the glob characters ? and [ in an extension, and glob
    characters in the directory name, are not modelled. *)
Definition glob_match (ext name : text) : bool :=
  negb (is_prefix [ch_dot] name) &&
  (if text_eqb ext (txt "*") then contains [ch_dot] name else ends_with (ch_dot :: ext) name).

(* resippy/utils/file_utils.py:19-44.  entries: the names in the directory in the
   order the operating system lists them. *)
Definition get_all_files_in_dir (directory : text) (entries : list text) (extensions : ext_arg)
    (return_fullpaths : bool) : result (list text) :=
  exts <- sanitized_extensions extensions ;;
  let files := concat (map (fun e => map (fun n => directory ++ [ch_slash] ++ n)
                                         (filter (glob_match e) entries)) exts) in
  Ok (if return_fullpaths then files else map basename files).

(* resippy/utils/file_utils.py:47-65 ; starts_with is a list of prefixes (a str
   argument is wrapped into a one-element list, lines 54-55). *)
Definition get_files_in_dir_that_start_with (directory : text) (entries : list text)
    (prefixes : list text) (extensions : ext_arg) (return_fullpaths : bool) : result (list text) :=
  all_files <- get_all_files_in_dir directory entries extensions true ;;
  let all_basenames := map basename all_files in
  let filtered := concat (map (fun p => filter (starts_with p) all_basenames) prefixes) in
  Ok (if return_fullpaths then map (path_join directory) filtered else filtered).

(* resippy/utils/file_utils.py:68-74 *)
Definition get_path_from_subdirs (base_dir : text) (subdirs : list text) : text :=
  fold_left path_join subdirs base_dir.

(* ----------------------- numpy_and_array_utils -------------------- *)

Definition rectangular {A} (rows : list (list A)) (w : nat) : bool :=
  forallb (fun r => Nat.eqb (length r) w) rows.
Definition width {A} (rows : list (list A)) : nat := match rows with r :: _ => length r | [] => O end.

(** np.array(rows).transpose() for rows of equal length; ValueError for ragged
    rows.  Entries of one type (numpy converts mixed entries to a common type,
    not modelled). *)
Definition heads {A} (rows : list (list A)) : list A := flat_map (fun r => firstn 1 r) rows.
Fixpoint transpose_n {A} (w : nat) (rows : list (list A)) : list (list A) :=
  match w with
  | O => []
  | S w' => heads rows :: transpose_n w' (map (@tl A) rows)
  end.
Definition np_transpose {A} (rows : list (list A)) : result (list (list A)) :=
  if rectangular rows (width rows) then Ok (transpose_n (width rows) rows) else Err ValueError.

(* resippy/utils/numpy_and_array_utils.py:6-8 *)
Definition list_of_tuples_to_separate_lists {A} (tuples : list (list A)) := np_transpose tuples.
(* resippy/utils/numpy_and_array_utils.py:11-16 *)
Definition separate_lists_to_list_of_tuples {A} (lists : list (list A)) := np_transpose lists.
(* resippy/utils/numpy_and_array_utils.py:19-22 ; eqb is Python's == of entries *)
Definition remove_all_entries_from_list {A} (eqb : A -> A -> bool) (l : list A) (v : A) : list A :=
  filter (fun x => negb (eqb x v)) l.

(* -------------------------------- csv ----------------------------- *)

Definition ch_quote : ascii := ascii_of_nat 34.

(** csv.reader with the default (excel) dialect and a given delimiter, after
    parse_process_char of CPython's Modules/_csv.c: quotechar is the double quote,
    doublequote on, no escapechar, not strict.  None is the end of a line. *)
Inductive csv_st := StartRecord | StartField | InField | InQuoted | QuoteInQuoted | EatCrnl.
Record csv_state := mkCsv { cs_st : csv_st; cs_field : text; cs_fields : list text }.
Definition csv_init : csv_state := mkCsv StartRecord [] [].
Definition csv_add (s : csv_state) (st : csv_st) (c : ascii) : csv_state :=
  mkCsv st (cs_field s ++ [c]) (cs_fields s).
Definition csv_save (s : csv_state) (st : csv_st) : csv_state :=
  mkCsv st [] (cs_fields s ++ [cs_field s]).
Definition csv_goto (s : csv_state) (st : csv_st) : csv_state :=
  mkCsv st (cs_field s) (cs_fields s).
Definition is_nl (c : ascii) : bool := Ascii.eqb c ch_nl || Ascii.eqb c ch_cr.

Definition csv_start_field (delim : ascii) (s : csv_state) (oc : option ascii) : csv_state :=
  match oc with
  | None => csv_save s StartRecord
  | Some c => if is_nl c then csv_save s EatCrnl
              else if Ascii.eqb c ch_quote then csv_goto s InQuoted
              else if Ascii.eqb c delim then csv_save s StartField
              else csv_add s InField c
  end.
Definition csv_step (delim : ascii) (s : csv_state) (oc : option ascii) : result csv_state :=
  match cs_st s with
  | StartRecord =>
    match oc with
    | None => Ok s
    | Some c => if is_nl c then Ok (csv_goto s EatCrnl) else Ok (csv_start_field delim s oc)
    end
  | StartField => Ok (csv_start_field delim s oc)
  | InField =>
    match oc with
    | None => Ok (csv_save s StartRecord)
    | Some c => if is_nl c then Ok (csv_save s EatCrnl)
                else if Ascii.eqb c delim then Ok (csv_save s StartField)
                else Ok (csv_add s InField c)
    end
  | InQuoted =>
    match oc with
    | None => Ok s
    | Some c => if Ascii.eqb c ch_quote then Ok (csv_goto s QuoteInQuoted)
                else Ok (csv_add s InQuoted c)
    end
  | QuoteInQuoted =>
    match oc with
    | None => Ok (csv_save s StartRecord)
    | Some c => if Ascii.eqb c ch_quote then Ok (csv_add s InQuoted c)
                else if Ascii.eqb c delim then Ok (csv_save s StartField)
                else if is_nl c then Ok (csv_save s EatCrnl)
                else Ok (csv_add s InField c)
    end
  | EatCrnl =>
    match oc with
    | None => Ok (csv_goto s StartRecord)
    | Some c => if is_nl c then Ok s else Err OtherError
    end
  end.

(** Reader_iternext: read lines until a record is complete; a quoted field cut by
    the end of the file is kept. *)
Fixpoint csv_records (delim : ascii) (lines : list text) (s : csv_state) : result (list (list text)) :=
  match lines with
  | [] => match cs_st s with
          | StartRecord => Ok []
          | _ => Ok [cs_fields (csv_save s StartRecord)]
          end
  | l :: r =>
    s' <- foldM (csv_step delim) (map Some l ++ [None]) s ;;
    match cs_st s' with
    | StartRecord => rows <- csv_records delim r csv_init ;; Ok (cs_fields s' :: rows)
    | _ => csv_records delim r s'
    end
  end.
Definition csv_reader (delim : ascii) (content : text) : result (list (list text)) :=
  csv_records delim (file_lines content) csv_init.

(* resippy/utils/csv_utils.py:6-20.  StopIteration of next(reader) is OtherError.
   np.asarray of rows of equal length is the 2-d array; ragged rows raise
   ValueError (numpy before 1.24 builds a 1-d object array, and data[:, i] raises
   IndexError instead).  Without rows the array is 1-d and data[:, i] raises. *)
Definition column {A} (rows : list (list A)) (i : nat) : result (list A) :=
  match rows with [] => Err IndexError | _ => mapM (fun r => py_get r (Z.of_nat i)) rows end.
Definition single_line_header_csv_to_dict (delim : ascii) (content : text) : result (dict (list text)) :=
  recs <- csv_reader delim content ;;
  match recs with
  | [] => Err OtherError
  | header :: rows =>
    if rectangular rows (width rows)
    then foldM (fun d ih => col <- column rows (fst ih) ;; Ok (dict_set d (snd ih) col))
               (combine (seq 0 (length header)) header) []
    else Err ValueError
  end.

(* ------------------------ ASCII spectrum factories ---------------- *)
Section Factories.
  Context {F : Type} (to_float : text -> result F) (div100 : F -> F).

  (** The spectrum that a factory returns: wavelengths, reflectances, units. *)
  Record ascii_spectrum := mkAscii {
    as_wave : list F; as_data : list F; as_wave_units : text; as_units : text }.
  Definition nm_spectrum (wr : list (F * F)) : ascii_spectrum :=
    mkAscii (map fst wr) (map snd wr) (txt "nanometers") (txt "reflectance_0-1").

  (* resippy/spectral/spectrum_factories/envi/ascii/envi_ascii_plot_file_factory.py:21-26 *)
  Definition envi_plot_line (line : text) : result (F * F) :=
    let t := join (txt " ") (split_ws (remove_newlines line)) in
    match split_ws t with
    | [w; r] => fw <- to_float w ;; fr <- to_float r ;; Ok (fw, fr)
    | _ => Err ValueError
    end.
  (* resippy/spectral/spectrum_factories/envi/ascii/envi_ascii_plot_file_factory.py:11-36 *)
  Definition envi_plot_from_ascii_file (content : text) : result ascii_spectrum :=
    wr <- mapM envi_plot_line (skipn 3 (file_lines content)) ;; Ok (nm_spectrum wr).

  (* resippy/spectral/spectrum_factories/SVC/ascii/svc_spectral_factory.py:17-21 *)
  Fixpoint svc_data_ind (lines : list text) : nat :=
    match lines with
    | [] => O
    | l :: r => if starts_with (txt "data") l then 1%nat else S (svc_data_ind r)
    end.
  (* resippy/spectral/spectrum_factories/SVC/ascii/svc_spectral_factory.py:26-30 *)
  Definition svc_line (line : text) : result (F * F) :=
    match split_ws line with
    | [w; _; _; r] => fw <- to_float w ;; fr <- to_float r ;; Ok (fw, div100 fr)
    | _ => Err ValueError
    end.
  (* resippy/spectral/spectrum_factories/SVC/ascii/svc_spectral_factory.py:10-40 *)
  Definition svc_from_sig_file (content : text) : result ascii_spectrum :=
    let lines := file_lines content in
    wr <- mapM svc_line (skipn (svc_data_ind lines) lines) ;; Ok (nm_spectrum wr).

  (* resippy/spectral/spectrum_factories/csv/ascii/csv_spectral_factory.py:26-33 :
     skip nheader records (StopIteration if there are fewer), then two entries of
     every record. *)
  Definition csv_spec_row (wi ri : Z) (row : list text) : result (F * F) :=
    w <- py_get row wi ;; r <- py_get row ri ;;
    fw <- to_float w ;; fr <- to_float r ;; Ok (fw, fr).
  Definition csv_from_csv_file (delim : ascii) (nheader wi ri : Z) (content : text)
    : result ascii_spectrum :=
    recs <- csv_reader delim content ;;
    if (zlen recs <? nheader) then Err OtherError
    else wr <- mapM (csv_spec_row wi ri) (skipn (Z.to_nat nheader) recs) ;; Ok (nm_spectrum wr).

  (* resippy/spectral/spectrum_factories/usgs/ascii/usgs_ascii_spectral_factory.py:59-66
     and 68-75 and 25-28 : strip every line, drop the first, convert *)
  Definition usgs_column (content : text) : result (list F) :=
    mapM to_float (skipn 1 (map strip (file_lines content))).

  (* resippy/spectral/spectrum_factories/usgs/ascii/usgs_ascii_spectral_factory.py:39-47
     and 49-57 : the first listed .txt file whose lower-case base name contains one
     of two words; None when there is none. *)
  Definition find_named (words : list text) (txt_files : list text) : option text :=
    find (fun f => existsb (fun w => contains w (lower (basename f))) words) txt_files.
  Definition get_fwhm_fname := find_named [txt "resolution"; txt "bandpass"].
  Definition get_wavelengths_fname := find_named [txt "wavelength"; txt "waves"].

  (** The Spectrum a USGS file gives.  The units are ureg.microns and
      unit_constants.reflectance_zero_to_one; the no-data value is the literal
      -1.23e34 (here the exact number; Python stores the nearest double).
      resippy/spectral/spectrum_factories/usgs/ascii/usgs_ascii_spectral_factory.py:10-12, 29-36 *)
  Record usgs_spectrum := mkUsgs {
    us_wave : list F; us_fwhm : list F; us_data : list F;
    us_wave_units : text; us_units : text; us_nodata : Z; us_fname : text }.

  (** glob.glob(base_dir + "/*.txt"), lines 42 and 52; entries d: the names in the
      directory d in the order the operating system lists them. *)
  Definition usgs_txt_files (entries : text -> list text) (base_dir : text) : list text :=
    map (fun n => base_dir ++ [ch_slash] ++ n) (filter (glob_match (txt "txt")) (entries (base_dir ++ [ch_slash]))).

  (* resippy/spectral/spectrum_factories/usgs/ascii/usgs_ascii_spectral_factory.py:17-37.
     read gives the content of a file; open(None) is a TypeError. *)
  Definition usgs_from_ascii_file (read : text -> result text) (entries : text -> list text) (filename : text)
    : result usgs_spectrum :=
    let open_ f := match f with Some f => read f | None => Err TypeError end in
    let metadata_dir := dirname (dirname filename) in
    wc <- open_ (get_wavelengths_fname (usgs_txt_files entries metadata_dir)) ;; waves <- usgs_column wc ;;
    fc <- open_ (get_fwhm_fname (usgs_txt_files entries metadata_dir)) ;; fwhm <- usgs_column fc ;;
    rc <- read filename ;; refl <- usgs_column rc ;;
    Ok (mkUsgs waves fwhm refl (txt "microns") (txt "reflectance_0-1") (-123 * 10 ^ 32) filename).
End Factories.
