(** Model of the readers of navigation and Pix4D parameter files:
    resippy/utils/pix4d_utils.py (text part) and
    resippy/photogrammetry/nav/applanix_eo_nav.py load_from_file.
    float(str) is a parameter: None means that it raises ValueError. *)
From Verif Require Export Text2 M_Envi M_TextFiles.
Open Scope Z_scope.
Open Scope list_scope.

Section Files.
  Context {F : Type} (to_float : text -> option F).

  Definition float_ (t : text) : result F :=
    match to_float t with Some v => Ok v | None => Err ValueError end.

  (** [x for x in f.readlines()] with the newlines removed *)
  Definition clean_lines (content : text) : list text := map remove_newlines (file_lines content).

  (* ------------------ external camera parameters ------------------ *)

  (* resippy/utils/pix4d_utils.py:85-87, one line *)
  Definition external_line (d : dict (list F)) (line : text) : result (dict (list F)) :=
    match split_char " "%char line with
    | [fname; x; y; z; omega; phi; kappa] =>
      vals <- mapM float_ [x; y; z; omega; phi; kappa] ;; Ok (dict_set d fname vals)
    | _ => Err ValueError
    end.
  (* resippy/utils/pix4d_utils.py:71-88 = resippy/image_objects/earth_overhead/earth_overhead_point_calculators/pix4d_point_calc.py:176-187 *)
  Definition read_calibrated_external_camera_parameters (content : text) : result (dict (list F)) :=
    foldM external_line (skipn 1 (clean_lines content)) [].

  (* ------------------ calibrated camera parameters ---------------- *)
  Record calib := mkCalib {
    cb_nx : Z; cb_ny : Z; cb_k : list (list F); cb_radial : list F; cb_tangential : list F;
    cb_t : list (list F); cb_r : list (list F) }.

  (* list(map(float, row.split())) of resippy/utils/pix4d_utils.py:51-59 *)
  Definition float_row (row : text) : result (list F) := mapM float_ (split_ws row).
  Definition float_rows (rows : list text) : result (list (list F)) := mapM float_row rows.

  (* resippy/utils/pix4d_utils.py:48-67, one block.  Simplified: np.array of rows
     of unequal length is not rejected, and np.squeeze of a one-number row gives a
     list of one number instead of a scalar. *)
  Definition calib_block (d : dict calib) (b : list text) : result (dict calib) :=
    first <- py_get b 0 ;;
    match split_char " "%char first with
    | [fname; image_w; image_h] =>
      k <- float_rows (py_slice b 1 4) ;;
      radial <- float_rows (py_slice b 4 5) ;;
      tangential <- float_rows (py_slice b 5 6) ;;
      t <- float_rows (py_slice b 6 7) ;;
      r <- float_rows (py_slice b 7 10) ;;
      w <- py_int image_w ;; h <- py_int image_h ;;
      Ok (dict_set d fname (mkCalib w h k (concat radial) (concat tangential) t r))
    | _ => Err ValueError
    end.

  (* resippy/utils/pix4d_utils.py:47 : params[x:x+10] for x in range(0, len, 10) *)
  Definition blocks10 (params : list text) : list (list text) :=
    map (fun k => firstn 10 (skipn (10 * k) params)) (seq 0 ((length params + 9) / 10)).

  (* resippy/utils/pix4d_utils.py:26-68 *)
  Definition read_calibrated_camera_parameters (content : text) : result (dict calib) :=
    foldM calib_block (blocks10 (skipn 8 (clean_lines content))) [].

  (* ------------------ internal camera parameters ------------------ *)
  Definition pix4d_text : text := txt "Pix4D".

  (* resippy/utils/pix4d_utils.py:233-235 *)
  Definition start_locations (search : text) (lines : list text) : list nat :=
    map fst (filter (fun il => contains search (snd il)) (combine (seq 0 (length lines)) lines)).

  (* resippy/utils/pix4d_utils.py:246-256, one line of a block *)
  Definition internal_line (d : dict F) (line : text) : result (dict F) :=
    if starts_with (txt "#") line then
      if contains (txt "Focal Length mm") line then
        match split_char "x"%char (str_replace (txt "mm") [] (py_slice_from line (rfind " "%char line + 1))) with
        | [w; h] => fw <- float_ w ;;
                    let d1 := dict_set d (txt "fpa_width_mm") fw in
                    fh <- float_ h ;;
                    Ok (dict_set d1 (txt "fpa_height_mm") fh)
        | _ => Err ValueError
        end
      else Ok d
    else match split_char " "%char line with
         | [key; val] => v <- float_ val ;; Ok (dict_set d key v)
         | _ => Err ValueError
         end.

  (* resippy/utils/pix4d_utils.py:242-257 ; lines[start+1:end] *)
  Definition internal_block (lines : list text) (start end_ : nat) : result (dict F) :=
    foldM internal_line
      (filter (fun a => negb (text_eqb a [])) (py_slice lines (Z.of_nat start + 1) (Z.of_nat end_))) [].

  (* resippy/utils/pix4d_utils.py:207-258 = resippy/image_objects/earth_overhead/earth_overhead_point_calculators/pix4d_point_calc.py:189-224.  The end location of the last block is
     the loop variable i left over from the enumeration: the index of the last
     line.  In an empty file i is unbound. *)
  Definition read_pix4d_calibrated_internal_camera_parameters (search content : text)
    : result (list (dict F)) :=
    let lines := clean_lines content in
    let starts := start_locations search lines in
    match lines with
    | [] => Err UnboundLocalError
    | _ => let ends := tl starts ++ [(length lines - 1)%nat] in
           mapM (fun se => internal_block lines (fst se) (snd se)) (combine starts ends)
    end.

  (* -------------------------- master dict ------------------------- *)
  Inductive master_val :=
  | MProjection
  | MEntry (c : calib) (external_params : list F) (internal_params : dict F)
  | MRMatrix (external_params : list F).   (* create_r_matrix(external_params) *)

  (** os.path.splitext(key)[0] for a name without a slash: the part before the
      last dot, unless everything before that dot is dots. *)
  Definition splitext_root (t : text) : text :=
    let k := rfind "."%char t in
    if (k <? 0) || forallb (Ascii.eqb "."%char) (firstn (Z.to_nat k) t) then t else firstn (Z.to_nat k) t.

  (* resippy/utils/pix4d_utils.py:197-200 *)
  Definition camera_index (key : text) : result Z :=
    s <- py_get (split_char "_"%char (splitext_root key)) (-1) ;;
    if negb (Nat.eqb (length s) 1) then Err ValueError
    else n <- py_int s ;; Ok (n - 1).

  (* resippy/utils/pix4d_utils.py:190-203, one image *)
  Definition master_step (external : dict (list F)) (internal : list (dict F))
      (m : dict master_val) (kc : text * calib) : result (dict master_val) :=
    let key := fst kc in
    ext <- dict_get external key ;;
    cam <- camera_index key ;;
    ip <- py_get internal cam ;;
    Ok (dict_set (dict_set m key (MEntry (snd kc) ext ip)) (txt "r_matrix_computed") (MRMatrix ext)).

  (* resippy/utils/pix4d_utils.py:176-204, from the parsed files *)
  Definition make_master_dict (external : dict (list F)) (internal : list (dict F)) (calibrated : dict calib)
    : result (dict master_val) :=
    foldM (master_step external internal) calibrated [(txt "projection", MProjection)].

  (* ------------------------ Applanix EO file ---------------------- *)

  (* resippy/photogrammetry/nav/applanix_eo_nav.py:29-40 : one append per column
     inside one try; IndexError and ValueError end it, keeping what was appended. *)
  Fixpoint append_fields (cols : list (list F)) (parts : list text) (k : Z) : list (list F) :=
    match cols with
    | [] => []
    | c :: cs =>
      match (x <- py_get parts k ;; float_ x) with
      | Ok v => (c ++ [v]) :: append_fields cs parts (k + 1)
      | _ => c :: cs
      end
    end.
  Definition eo_line (cols : list (list F)) (line : text) : list (list F) :=
    append_fields cols (split_ws line) 1.

  (* resippy/photogrammetry/nav/applanix_eo_nav.py:23-55 : the nine columns
     gps_time, easting, northing, height, omega, phi, kappa, lat, lon *)
  Definition eo_load (content : text) : list (list F) :=
    fold_left eo_line (file_lines content) (repeat [] 9).
  Definition eo_num_records (content : text) : nat :=
    match eo_load content with t :: _ => length t | [] => O end.
End Files.
