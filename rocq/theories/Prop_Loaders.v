(** C85-C88: objects built from files. *)
From Coq Require Import String.
From Verif Require Import M_Loaders Spec_TextFiles Spec_NavFiles Spec_Envi Spec_Nav Spec_Loaders P_TextFiles P_NavFiles P_EnviHeader P_EnviImage P_Objects P_Cameras P_Nav P_Loaders Prop_Envi Prop_Nav Prop_NavFiles.
Open Scope R_scope.
Open Scope list_scope.

(* -------------------------------- C85 ----------------------------------- *)

(** Loading succeeds exactly when GDAL opens the file and every tag is there and readable; the
    calculator then holds the numbers of the tags *)
Theorem C85_from_file : forall to_float rpcs fname c,
  rpc_init_from_file to_float rpcs fname = Ok c <->
  exists tags, rpcs fname = Some tags /\
    (forall name field, In (name, field) list_tags ->
       exists t, dict_get tags (txt name) = Ok t /\ reads_list to_float t (field (rc_rpc c))) /\
    (forall name field, In (name, field) number_tags ->
       exists t, dict_get tags (txt name) = Ok t /\ to_float t = Some (field (rc_rpc c))) /\
    rc_center c = (lon_off (rc_rpc c), lat_off (rc_rpc c)).
Proof.
  intros tf rpcs f c. unfold rpc_init_from_file. destruct (rpcs f) as [tags|].
  2:{ split; [discriminate|]. intros (t & H & _); discriminate. }
  split.
  - intros H. exists tags. split; [reflexivity|].
    unfold rpc_from_tags in H.
    repeat match type of H with
    | (x <- rpc_list tf tags ?n ;; _) = _ => destruct (rpc_list tf tags n) eqn:?; cbn [bind] in H; try discriminate H
    | (x <- rpc_number tf tags ?n ;; _) = _ => destruct (rpc_number tf tags n) eqn:?; cbn [bind] in H; try discriminate H
    end.
    injection H as <-. repeat split.
    + intros name field Hi. cbn [list_tags In] in Hi.
      repeat (destruct Hi as [E|Hi]; [injection E as <- <-; apply rpc_list_ok; eassumption|]). destruct Hi.
    + intros name field Hi. cbn [number_tags In] in Hi.
      repeat (destruct Hi as [E|Hi]; [injection E as <- <-; apply rpc_number_ok; eassumption|]). destruct Hi.
  - intros (tags' & E & HL & HN & HC). injection E as <-. unfold rpc_from_tags.
    assert (L : forall name field, In (name, field) list_tags -> rpc_list tf tags (txt name) = Ok (field (rc_rpc c)))
      by (intros; apply rpc_list_ok; eauto).
    assert (N : forall name field, In (name, field) number_tags -> rpc_number tf tags (txt name) = Ok (field (rc_rpc c)))
      by (intros; apply rpc_number_ok; eauto).
    rewrite (L "SAMP_NUM_COEFF"%string samp_num), (L "SAMP_DEN_COEFF"%string samp_den),
      (L "LINE_NUM_COEFF"%string line_num), (L "LINE_DEN_COEFF"%string line_den) by (cbn; tauto).
    rewrite (N "SAMP_SCALE"%string samp_scale), (N "SAMP_OFF"%string samp_off), (N "LINE_SCALE"%string line_scale),
      (N "LINE_OFF"%string line_off), (N "LAT_SCALE"%string lat_scale), (N "LAT_OFF"%string lat_off),
      (N "LONG_SCALE"%string lon_scale), (N "LONG_OFF"%string lon_off), (N "HEIGHT_SCALE"%string height_scale),
      (N "HEIGHT_OFF"%string height_off) by (cbn; tauto).
    cbn [bind]. destruct c as [[] ctr]. cbn in HC |- *. rewrite HC. reflexivity.
Qed.
Print Assumptions C85_from_file.

(** The exceptions: no file, a missing tag, an unreadable number *)
Theorem C85_errors : forall to_float rpcs fname,
  match rpc_init_from_file to_float rpcs fname with
  | Ok _ => True
  | Err AttributeError => rpcs fname = None
  | Err KeyError => exists tags name, rpcs fname = Some tags /\ In name (map fst list_tags ++ map fst number_tags) /\
                      dict_get tags (txt name) = Err KeyError
  | Err ValueError => exists tags name t, rpcs fname = Some tags /\ dict_get tags (txt name) = Ok t /\
                      (In name (map fst list_tags) /\ (forall vs, ~ reads_list to_float t vs) \/
                       In name (map fst number_tags) /\ to_float t = None)
  | _ => False
  end.
Proof.
  intros tf rpcs f. unfold rpc_init_from_file. destruct (rpcs f) as [tags|]; [|reflexivity]. unfold rpc_from_tags.
  repeat match goal with
  | |- context [x <- rpc_list tf tags (txt ?n) ;; _] =>
      destruct (rpc_list_cases tf tags (txt n)) as [[? ->]|[[-> ?]|[-> (? & ? & ?)]]]; cbn [bind];
        [|exists tags, n; split; [reflexivity|split; [cbn; tauto|assumption]]
         |eexists tags, n, _; split; [reflexivity|split; [eassumption|left; split; [cbn; tauto|assumption]]]]
  | |- context [x <- rpc_number tf tags (txt ?n) ;; _] =>
      destruct (rpc_number_cases tf tags (txt n)) as [[? ->]|[[-> ?]|[-> (? & ? & ?)]]]; cbn [bind];
        [|exists tags, n; split; [reflexivity|split; [cbn; tauto|assumption]]
         |eexists tags, n, _; split; [reflexivity|split; [eassumption|right; split; [cbn; tauto|assumption]]]]
  end. exact I.
Qed.
Print Assumptions C85_errors.

(** Coefficients after the twentieth are ignored *)
Theorem C85_extra_coefficients : forall a x y z, (20 <= length a)%nat -> compute_p a x y z = compute_p (firstn 20 a) x y z.
Proof. exact compute_p_extra. Qed.
Print Assumptions C85_extra_coefficients.

(** A list of fewer than twenty coefficients is accepted when the file is read, but then no
    position can be converted *)
Theorem C85_few_coefficients : forall to_float rpcs fname c lon lat alt, rpc_init_from_file to_float rpcs fname = Ok c ->
  lat_scale (rc_rpc c) <> 0 -> lon_scale (rc_rpc c) <> 0 -> height_scale (rc_rpc c) <> 0 ->
  (exists name field, In (name, field) list_tags /\ (length (field (rc_rpc c)) < 20)%nat) ->
  rpc_lon_lat_alt_to_pixel (rc_rpc c) lon lat alt = Err IndexError.
Proof.
  intros tf rpcs f c lon lat alt _ S1 S2 S3 (name & field & Hi & Hl).
  unfold rpc_lon_lat_alt_to_pixel. rewrite !fdiv_nz by assumption.
  set (P := (lat - _) / _). set (L := (lon - _) / _). set (H := (alt - _) / _).
  assert (E : forall a, compute_p a P L H = Err IndexError \/ exists v, compute_p a P L H = Ok v).
  { intros a. destruct (Nat.lt_ge_cases (length a) 20) as [K|K]; [left; apply compute_p_short; exact K|right].
    rewrite compute_p_extra by exact K. rewrite compute_p_spec; [eexists; reflexivity|]. rewrite firstn_length. lia. }
  destruct (E (samp_num (rc_rpc c))) as [E1|[v1 E1]]; rewrite E1; cbn [bind]; [reflexivity|].
  destruct (E (samp_den (rc_rpc c))) as [E2|[v2 E2]]; rewrite E2; cbn [bind]; [reflexivity|].
  destruct (E (line_num (rc_rpc c))) as [E3|[v3 E3]]; rewrite E3; cbn [bind]; [reflexivity|].
  destruct (E (line_den (rc_rpc c))) as [E4|[v4 E4]]; rewrite E4; cbn [bind]; [reflexivity|].
  exfalso. cbn [list_tags In] in Hi.
  repeat (destruct Hi as [Q|Hi]; [injection Q as <- <-; rewrite compute_p_short in * by exact Hl; discriminate|]). destruct Hi.
Qed.
Print Assumptions C85_few_coefficients.

(** A tag text with irregular spacing *)
Example C85_example_list : forall (to_float : text -> option R), to_float (txt "1") = Some 1 -> to_float (txt "2") = Some 2 ->
  reads_list to_float (txt " 1   2 ") [1; 2].
Proof.
  intros tf H1 H2. exists [txt "1"; txt "2"]. split; [|repeat constructor; assumption].
  apply (fields_iff [txt "1"; txt "2"]). reflexivity.
Qed.

(** A file with all tags: the hypotheses of C85_from_file (and of C85_few_coefficients) are met *)
Example C85_example :
  let to_float := fun t => if text_eqb t (txt "1") then Some 1 else None in
  let tags := map (fun n => (txt n, txt "1")) (map fst list_tags ++ map fst number_tags) in
  rpc_init_from_file to_float (fun _ => Some tags) (txt "a.tif") =
  Ok (mkRpcCalc (mkRpc [1] [1] 1 1 [1] [1] 1 1 1 1 1 1 1 1) (1, 1)).
Proof. reflexivity. Qed.

(* -------------------------------- C86 ----------------------------------- *)

(** A view ready stereo image opens exactly when GDAL opens the file, it has a band and the RPC
    tags are complete; its metadata are those of the file *)
Theorem C86_vrs_open : forall V G W to_float (fs : text -> option (dataset V G W)) rpcs fname im,
  vrs_from_file to_float fs rpcs fname = Ok im <->
  exists d c, fs fname = Some d /\ d_bands d <> [] /\ rpc_init_from_file to_float rpcs fname = Ok c /\
    im = mkVrs (Some fname) (d_nx d) (d_ny d) (length (d_bands d)) (d_type d) (d_nodata d) (path_root fname) c.
Proof.
  intros V G W tf fs rpcs f im. unfold vrs_from_file. split.
  - destruct (fs f) as [d|]; [|discriminate]. destruct (d_bands d) as [|b bs] eqn:Eb; [discriminate|].
    destruct (rpc_init_from_file tf rpcs f) as [c| |] eqn:Ec; cbn [bind]; try discriminate.
    intros H. injection H as <-. exists d, c. rewrite Eb. repeat split; auto; discriminate.
  - intros (d & c & -> & Hb & -> & ->). destruct (d_bands d) as [|b bs]; [congruence|]. reflexivity.
Qed.
Print Assumptions C86_vrs_open.

(** A file that GDAL does not open, or without a band: AttributeError *)
Theorem C86_vrs_refused : forall V G W to_float (fs : text -> option (dataset V G W)) rpcs fname,
  (fs fname = None \/ exists d, fs fname = Some d /\ d_bands d = []) ->
  vrs_from_file to_float fs rpcs fname = Err AttributeError.
Proof. intros V G W tf fs rpcs f [H|(d & H & E)]; unfold vrs_from_file; rewrite H; [|rewrite E]; reflexivity. Qed.
Print Assumptions C86_vrs_refused.

(** Reading: all bands of the file in order; one band is the same as in the whole; other band
    numbers are AttributeErrors *)
Theorem C86_vrs_read : forall V D G W (from_gdal : G -> D) to_float (fs : text -> option (dataset V G W)) rpcs fname im,
  vrs_from_file to_float fs rpcs fname = Ok im ->
  exists d, fs fname = Some d /\
    vrs_read_all from_gdal fs im = Ok (from_gdal (d_type d), mkRaster (d_ny d) (d_nx d) (d_bands d)) /\
    forall k, vrs_read_band fs im k =
      if ((0 <=? k) && (k <? Z.of_nat (length (d_bands d))))%Z
      then match nth_error (d_bands d) (Z.to_nat k) with Some b => Ok b | None => Err AttributeError end
      else Err AttributeError.
Proof.
  intros V D G W fg tf fs rpcs f im H. apply C86_vrs_open in H as (d & c & E & Hb & Ec & ->). exists d. split; [exact E|]. split.
  - unfold vrs_read_all. cbn [vi_src vi_nb]. rewrite (read_bands_ok fg fs f d (length (d_bands d)) E).
    + rewrite firstn_all. reflexivity.
    + destruct (d_bands d); [congruence|cbn; lia].
  - intros k. unfold vrs_read_band, open_dset. cbn [vi_src]. rewrite E. cbn [bind].
    destruct ((0 <=? k) && (k <? Z.of_nat (length (d_bands d))))%Z eqn:Ek.
    + unfold dset_band. replace (k <? 0)%Z with false by lia. reflexivity.
    + apply dset_band_err. lia.
Qed.
Print Assumptions C86_vrs_read.

(** An image written in BIL with its header next to it, and no other header of the short name:
    the ENVI image object has its sizes, and reading gives its bands if GDAL reads the file
    correctly *)
Theorem C86_envi_written : forall A F D G W (from_gdal : G -> D) (parse_float : text -> option F) (zero : A) nf w c d img code w'
    (gdal : text -> option (dataset A G W)) ds,
  numpy_dtype_to_envi_dtype nf d = Ok (Some code) -> (0 < c_nb c)%nat ->
  write_envi_image zero nf w c d img None (txt "bil") = (w', Ok tt) ->
  w' (py_slice img 0 (-4) ++ txt ".hdr") = None \/ py_slice img 0 (-4) = img ->
  gdal img = Some ds -> d_ny ds = c_ny c -> d_nx ds = c_nx c -> bands_of_cube c (d_bands ds) ->
  exists n im, (forall fuel, (n <= fuel)%nat -> envi_init_from_file parse_float fuel gdal w' img None = Ok im) /\
    ei_nx im = HInt (Z.of_nat (c_nx c)) /\ ei_ny im = HInt (Z.of_nat (c_ny c)) /\ ei_nb im = HInt (Z.of_nat (c_nb c)) /\
    exists bands, envi_read_all from_gdal im = Ok (from_gdal (d_type ds), mkRaster (c_ny c) (c_nx c) bands) /\
      bands_of_cube c bands /\
      forall k b, nth_error bands k = Some b -> envi_read_band im (Z.of_nat k) = Ok b.
Proof.
  intros A F D G W fg pf zero nf w c d img code w' gdal ds Hd Hnb Hw Hs Hg Hy Hx HB.
  destruct (bil_metadata pf zero nf w c d img None code Hd) as (n & h & HM). rewrite Hw in HM. cbn [fst] in HM.
  exists n. eexists. split.
  - intros fuel Hf. unfold envi_init_from_file.
    assert (E : find_header A w' img (envi_image_guesses img) = Some (img ++ txt ".hdr")).
    { rewrite C06_envi_image_header. rewrite (write_ok _ _ _ _ _ _ _ _ _ Hd) in Hw. injection Hw as <-.
      destruct Hs as [Hs|Hs].
      - rewrite Hs. rewrite fs_write_same. reflexivity.
      - rewrite Hs. rewrite fs_write_same. reflexivity. }
    rewrite E. pose proof (HM fuel Hf) as M. unfold text in *. rewrite M. cbn [bind]. reflexivity.
  - cbn [ei_nx ei_ny ei_nb]. repeat split.
    assert (L : length (d_bands ds) = c_nb c) by apply HB.
    exists (d_bands ds). unfold envi_read_all, envi_read_band. cbn [ei_nb ei_dset]. rewrite Hg.
    replace (Z.of_nat (c_nb c) <=? 0)%Z with false by lia. rewrite Nat2Z.id.
    rewrite dset_bands_prefix by lia. rewrite <- L, firstn_all. cbn [bind]. rewrite Hy, Hx. split; [reflexivity|]. split; [exact HB|].
    intros k b Hk. apply dset_band_ok. exact Hk.
Qed.
Print Assumptions C86_envi_written.

(** The object takes the number of bands from the header and the pixels from GDAL: it reads the
    first bands, an AttributeError if the file has fewer, a ValueError if the header has none *)
Theorem C86_envi_read : forall V D G W F (from_gdal : G -> D) (im : @envi_image V G W F) n, ei_nb im = HInt n ->
  match ei_dset im with
  | None => (forall k, envi_read_band im k = Err AttributeError) /\
            envi_read_all from_gdal im = Err (if (n <=? 0)%Z then ValueError else AttributeError)
  | Some d =>
    ((n <= 0)%Z -> envi_read_all from_gdal im = Err ValueError) /\
    ((0 < n <= Z.of_nat (length (d_bands d)))%Z ->
       envi_read_all from_gdal im = Ok (from_gdal (d_type d), mkRaster (d_ny d) (d_nx d) (firstn (Z.to_nat n) (d_bands d)))) /\
    ((Z.of_nat (length (d_bands d)) < n)%Z -> envi_read_all from_gdal im = Err AttributeError)
  end.
Proof.
  intros V D G W F fg im n H. unfold envi_read_all, envi_read_band. rewrite H. destruct (ei_dset im) as [d|].
  - repeat split; intros K.
    + replace (n <=? 0)%Z with true by lia. reflexivity.
    + replace (n <=? 0)%Z with false by lia. rewrite dset_bands_prefix by lia. reflexivity.
    + replace (n <=? 0)%Z with false by lia. rewrite dset_bands_more by lia. reflexivity.
  - split; [reflexivity|]. destruct (n <=? 0)%Z; reflexivity.
Qed.
Print Assumptions C86_envi_read.

(** Without a header the construction is a TypeError; a header without one of the three sizes
    is a KeyError *)
Theorem C86_envi_errors : forall A V G W F (parse_float : text -> option F) fuel (gdal : text -> option (dataset V G W)) (w : fs A) img,
  (w (img ++ txt ".hdr") = None -> w (py_slice img 0 (-4) ++ txt ".hdr") = None ->
     envi_init_from_file parse_float fuel gdal w img None = Err TypeError) /\
  (forall h t d, w h = Some (TextFile t) -> read_envi_header F parse_float fuel t = Ok d ->
     (dict_get d (txt "samples") = Err KeyError \/ dict_get d (txt "lines") = Err KeyError \/ dict_get d (txt "bands") = Err KeyError) ->
     envi_init_from_file parse_float fuel gdal w img (Some h) = Err KeyError) /\
  (forall h t d nx ny nb, w h = Some (TextFile t) -> read_envi_header F parse_float fuel t = Ok d ->
     dict_get d (txt "samples") = Ok nx -> dict_get d (txt "lines") = Ok ny -> dict_get d (txt "bands") = Ok nb ->
     envi_init_from_file parse_float fuel gdal w img (Some h) = Ok (mkEnviImage (gdal img) nx ny nb d)).
Proof.
  intros A V G W F pf fuel gdal w img. repeat split.
  - intros H1 H2. unfold envi_init_from_file. rewrite C06_envi_image_header, H1, H2. reflexivity.
  - intros h t d Hh Hr Hk. unfold envi_init_from_file, envi_metadata_from_header. rewrite Hh, Hr. cbn [bind].
    destruct (dict_get_cases d (txt "samples")) as [[a Ea]|Ea]; rewrite Ea; cbn [bind]; [|reflexivity].
    destruct (dict_get_cases d (txt "lines")) as [[b Eb]|Eb]; rewrite Eb; cbn [bind]; [|reflexivity].
    destruct (dict_get_cases d (txt "bands")) as [[e Ee]|Ee]; rewrite Ee; cbn [bind]; [|reflexivity].
    exfalso. destruct Hk as [Hk|[Hk|Hk]]; congruence.
  - intros h t d nx ny nb Hh Hr H1 H2 H3. unfold envi_init_from_file, envi_metadata_from_header. rewrite Hh, Hr. cbn [bind].
    rewrite H1, H2, H3. reflexivity.
Qed.
Print Assumptions C86_envi_errors.

(** A header name without a text file; a number of bands in the header that is no integer *)
Theorem C86_envi_refused : forall A V D G W F (from_gdal : G -> D) (parse_float : text -> option F) fuel
    (gdal : text -> option (dataset V G W)) (w : fs A) img h,
  ((forall t, w h <> Some (TextFile t)) -> envi_init_from_file parse_float fuel gdal w img (Some h) = Err OtherError) /\
  (forall im : @envi_image V G W F, (forall n, ei_nb im <> HInt n) -> envi_read_all from_gdal im = Err TypeError).
Proof.
  intros A V D G W F fg pf fuel gdal w img h. split.
  - intros H. unfold envi_init_from_file, envi_metadata_from_header.
    destruct (w h) as [[?|t]|]; try reflexivity. exfalso. apply (H t). reflexivity.
  - intros im H. unfold envi_read_all. destruct (ei_nb im) eqn:E; try reflexivity. exfalso. apply (H z). reflexivity.
Qed.
Print Assumptions C86_envi_refused.

(** Refuted without the condition on the short header name: an image of two bands is written
    next to an old header of the short name; the object has the one band of the old header *)
Theorem C86_envi_stale_header_refuted : exists (w : fs Z) (c : cube Z) img w',
  write_envi_image 0%Z false w c UInt8 img None (txt "bil") = (w', Ok tt) /\ c_nb c = 2%nat /\
  forall (G W : Type) (gdal : text -> option (dataset Z G W)), exists im,
    envi_init_from_file (fun _ => None : option R) 200 gdal w' img None = Ok im /\ ei_nb im = HInt 1%Z.
Proof.
  set (old := write_envi_header [(txt "samples", WInt 1); (txt "lines", WInt 1); (txt "bands", WInt 1)]).
  exists (fun n => if text_eqb n (txt "scene.hdr") then Some (TextFile old) else None), (mkCube 1 1 2 [[[7; 8]]])%Z, (txt "scene.img").
  eexists. split; [reflexivity|]. split; [reflexivity|]. intros G W gdal. eexists. split; [vm_compute; reflexivity|]. reflexivity.
Qed.
Print Assumptions C86_envi_stale_header_refuted.

(** A case of C86_envi_written *)
Example C86_example : let c := mkCube 1 2 2 [[[1; 2]; [3; 4]]]%Z in
  bands_of_cube c [[[1; 3]]; [[2; 4]]]%Z /\ numpy_dtype_to_envi_dtype false UInt8 = Ok (Some 1%Z) /\
  fst (write_envi_image 0%Z false (fun _ => None) c UInt8 (txt "scene.img") None (txt "bil")) (py_slice (txt "scene.img") 0 (-4) ++ txt ".hdr") = None.
Proof.
  cbn zeta. split; [|split; reflexivity]. split; [reflexivity|].
  intros [|[|k]] rows H; cbn in H; try (destruct k; discriminate); injection H as <-; (split; [reflexivity|]);
    intros [|y] row Hr; cbn in Hr; try (destruct y; discriminate); injection Hr as <-; (split; [reflexivity|]);
    intros [|[|x]] v Hv; cbn in Hv; try (destruct x; discriminate); injection Hv as <-; reflexivity.
Qed.

(* -------------------------------- C87 ----------------------------------- *)

(** Projection matrices: one line per image, the name and the numbers separated by single
    blanks; repeated names keep the last numbers *)
Theorem C87_p_matrices : forall (F : Type) (to_float : text -> option F) rows vals,
  Forall2 (fun (row : text * list text) (nv : text * list F) =>
             Forall word (fst row :: snd row) /\ fst nv = fst row /\
             Forall2 (fun w v => to_float w = Some v) (snd row) (snd nv)) rows vals ->
  exists d, read_p_matrices to_float (lines_text (map (fun row => join (txt " ") (fst row :: snd row)) rows)) = Ok d /\
    dict_agrees d vals /\ (NoDup (map fst vals) -> d = vals).
Proof.
  intros F tf rows vals H. exists (store_all vals []).
  split; [|split; [apply store_all_agrees|apply store_all_nodup]].
  unfold read_p_matrices. rewrite file_lines_of_lines.
  - generalize (@nil (text * list F)) as d. induction H as [|row nv rows vals (H1 & H2 & H3) _ IH]; intros d; [reflexivity|].
    cbn [map foldM]. rewrite (p_line_ok tf d (fst row) (snd row) (snd nv) H1 H3). cbn [bind]. rewrite IH. rewrite <- H2. reflexivity.
  - clear -H. induction H as [|row nv rows vals (H1 & _) _ IH]; constructor; auto.
    apply join_one_line; [apply blank_one_line|]. eapply Forall_impl; [|exact H1]. intros w [_ Hw]. apply no_space_no_newline; exact Hw.
Qed.
Print Assumptions C87_p_matrices.

(** A blank line is not skipped: it adds a matrix without numbers under the empty name *)
Theorem C87_blank_line_refuted : forall (F : Type) (to_float : text -> option F),
  read_p_matrices to_float [ch_nl] = Ok [([], [])].
Proof. reflexivity. Qed.
Print Assumptions C87_blank_line_refuted.

(** Two blanks between numbers are a ValueError (float of the empty text is one) *)
Theorem C87_double_blank : forall (F : Type) (to_float : text -> option F) a b rest,
  to_float [] = None -> word a -> word b -> Forall one_line rest ->
  read_p_matrices to_float (lines_text ((a ++ txt "  " ++ b) :: rest)) = Err ValueError.
Proof.
  intros F tf a b rest H0 Ha Hb Hr. unfold read_p_matrices.
  assert (Oa : one_line a) by (apply no_space_no_newline, Ha). assert (Ob : one_line b) by (apply no_space_no_newline, Hb).
  assert (O : one_line (a ++ txt "  " ++ b)).
  { apply Forall_app. split; [exact Oa|]. apply Forall_app. split; [repeat constructor|exact Ob]. }
  rewrite file_lines_of_lines by (constructor; auto). cbn [map foldM].
  assert (E : p_matrix_line tf [] ((a ++ txt "  " ++ b) ++ [ch_nl]) = Err ValueError).
  { unfold p_matrix_line.
    assert (S : strip ((a ++ txt "  " ++ b) ++ [ch_nl]) = a ++ txt "  " ++ b).
    { apply (strip_pad [] (a ++ txt "  " ++ b) [ch_nl]); [constructor|repeat constructor|].
      unfold stripped, strip. destruct Ha as [Ha1 Ha2], Hb as [Hb1 Hb2].
      rewrite lstrip_id by (destruct a; [congruence|]; inversion Ha2; assumption).
      unfold rstrip. rewrite lstrip_id; [apply rev_involutive|]. rewrite !rev_app_distr.
      destruct (rev b) as [|x r] eqn:Eb; [apply (f_equal (@rev _)) in Eb; rewrite rev_involutive in Eb; cbn in Eb; congruence|].
      cbn. rewrite Forall_forall in Hb2. apply Hb2. apply in_rev. rewrite Eb. left; reflexivity. }
    rewrite S, remove_newlines_id by exact O.
    assert (J : a ++ txt "  " ++ b = join [" "%char] [a; []; b]) by reflexivity.
    rewrite J, split_join; [|discriminate|].
    - cbn [mapM]. unfold float_ at 1. rewrite H0. reflexivity.
    - assert (N : forall w, word w -> ~ In " "%char w) by (intros w [_ Hw] Hi; rewrite Forall_forall in Hw; specialize (Hw _ Hi); discriminate Hw).
      repeat constructor; auto. }
  rewrite E. reflexivity.
Qed.
Print Assumptions C87_double_blank.

(** A collect with one file of each ending: the files are found whatever else is in the
    directory and in whatever order it is listed; the result is that for the explicit names *)
Theorem C87_files_found : forall (F : Type) (to_float : text -> option F) read listing base en inn cn wn,
  only_with_ending listing (txt "calibrated_external_camera_parameters.txt") en ->
  only_with_ending listing (txt "pix4d_calibrated_internal_camera_parameters.cam") inn ->
  only_with_ending listing (txt "calibrated_camera_parameters.txt") cn ->
  only_with_ending listing (txt "wkt.prj") wn ->
  (forall e i c w, (e = None \/ e = Some en) -> (i = None \/ i = Some inn) -> (c = None \/ c = Some cn) -> (w = None \/ w = Some wn) ->
     master_dict_from_path to_float read listing base e i c w =
     (ec <- read (M_TextFiles.path_join base en) ;; ed <- read_calibrated_external_camera_parameters to_float ec ;;
      ic <- read (M_TextFiles.path_join base inn) ;; id <- read_pix4d_calibrated_internal_camera_parameters to_float (txt "Pix4D") ic ;;
      cc <- read (M_TextFiles.path_join base cn) ;; cd <- read_calibrated_camera_parameters to_float cc ;;
      wc <- read (M_TextFiles.path_join base wn) ;;
      make_master_dict ed id cd)).
Proof.
  intros F tf read listing base en inn cn wn He Hi Hc Hw e i c w Ke Ki Kc Kw. unfold master_dict_from_path.
  assert (E1 : default_name listing external_suffix e = Ok en) by (destruct Ke as [-> | ->]; [apply only_found; exact He|reflexivity]).
  assert (E2 : default_name listing internal_suffix i = Ok inn) by (destruct Ki as [-> | ->]; [apply only_found; exact Hi|reflexivity]).
  assert (E3 : default_name listing params_suffix c = Ok cn) by (destruct Kc as [-> | ->]; [apply only_found; exact Hc|reflexivity]).
  assert (E4 : default_name listing wkt_suffix w = Ok wn) by (destruct Kw as [-> | ->]; [apply only_found; exact Hw|reflexivity]).
  rewrite E1, E2, E3, E4. reflexivity.
Qed.
Print Assumptions C87_files_found.

(** No file can be taken for two of the four *)
Theorem C87_endings_distinct : forall a b s1 s2,
  In s1 (map txt ["calibrated_external_camera_parameters.txt"; "pix4d_calibrated_internal_camera_parameters.cam";
                  "calibrated_camera_parameters.txt"; "wkt.prj"]%string) ->
  In s2 (map txt ["calibrated_external_camera_parameters.txt"; "pix4d_calibrated_internal_camera_parameters.cam";
                  "calibrated_camera_parameters.txt"; "wkt.prj"]%string) ->
  a ++ s1 = b ++ s2 -> s1 = s2.
Proof.
  intros a b s1 s2 H1 H2 E.
  assert (P : is_prefix (rev s1) (rev s2) = true \/ is_prefix (rev s2) (rev s1) = true).
  { apply (f_equal (@rev _)) in E. rewrite !rev_app_distr in E. revert E. generalize (rev s1) (rev s2) (rev a) (rev b). clear.
    intros l. induction l as [|x l IH]; intros [|y m] a b E; cbn in *; auto.
    injection E as -> E. rewrite Ascii.eqb_refl. apply (IH m a b E). }
  cbn [map In] in H1, H2.
  destruct H1 as [<-|[<-|[<-|[<-|[]]]]]; destruct H2 as [<-|[<-|[<-|[<-|[]]]]]; try reflexivity; vm_compute in P; destruct P; discriminate.
Qed.
Print Assumptions C87_endings_distinct.

(** A file that is neither given nor found is an IndexError, before anything is read *)
Theorem C87_missing_file : forall (F : Type) (to_float : text -> option F) read listing base e i c w,
  (e = None /\ (forall a, ~ In (a ++ txt "calibrated_external_camera_parameters.txt") listing)) \/
  (i = None /\ (forall a, ~ In (a ++ txt "pix4d_calibrated_internal_camera_parameters.cam") listing)) \/
  (c = None /\ (forall a, ~ In (a ++ txt "calibrated_camera_parameters.txt") listing)) \/
  (w = None /\ (forall a, ~ In (a ++ txt "wkt.prj") listing)) ->
  master_dict_from_path to_float read listing base e i c w = Err IndexError.
Proof.
  intros F tf read listing base e i c w H. unfold master_dict_from_path.
  assert (C : forall suf g, (exists n, default_name listing suf g = Ok n) \/ default_name listing suf g = Err IndexError).
  { intros suf [n|]; [left; exists n; reflexivity|]. unfold default_name. destruct (filter _ _) as [|n l]; [right; reflexivity|left; exists n; reflexivity]. }
  destruct (C external_suffix e) as [[n1 E1]|E1]; rewrite E1; cbn [bind]; [|reflexivity].
  destruct (C internal_suffix i) as [[n2 E2]|E2]; rewrite E2; cbn [bind]; [|reflexivity].
  destruct (C params_suffix c) as [[n3 E3]|E3]; rewrite E3; cbn [bind]; [|reflexivity].
  destruct (C wkt_suffix w) as [[n4 E4]|E4]; rewrite E4; cbn [bind]; [|reflexivity].
  exfalso. destruct H as [[-> H]|[[-> H]|[[-> H]|[-> H]]]]; apply none_found in H;
    [change (txt "calibrated_external_camera_parameters.txt") with external_suffix in H
    |change (txt "pix4d_calibrated_internal_camera_parameters.cam") with internal_suffix in H
    |change (txt "calibrated_camera_parameters.txt") with params_suffix in H
    |change (txt "wkt.prj") with wkt_suffix in H]; congruence.
Qed.
Print Assumptions C87_missing_file.

(** With two files of one ending the listing order decides *)
Theorem C87_ambiguous_refuted : exists a b, a <> b /\
  (forall l, default_name [a; b] (txt "wkt.prj") None = Ok a /\ default_name ([b; a] ++ l) (txt "wkt.prj") None = Ok b).
Proof.
  exists (txt "a_wkt.prj"), (txt "b_wkt.prj"). split; [discriminate|]. intros l. split; reflexivity.
Qed.
Print Assumptions C87_ambiguous_refuted.

Example C87_example : let listing := map txt ["b.jpg"; "x_wkt.prj"; "x_calibrated_camera_parameters.txt"; "notes";
    "x_pix4d_calibrated_internal_camera_parameters.cam"; "x_calibrated_external_camera_parameters.txt"]%string in
  default_name listing (txt "calibrated_camera_parameters.txt") None = Ok (txt "x_calibrated_camera_parameters.txt") /\
  default_name listing (txt "calibrated_external_camera_parameters.txt") None = Ok (txt "x_calibrated_external_camera_parameters.txt") /\
  default_name listing (txt "pix4d_calibrated_internal_camera_parameters.cam") None = Ok (txt "x_pix4d_calibrated_internal_camera_parameters.cam") /\
  default_name listing (txt "wkt.prj") None = Ok (txt "x_wkt.prj").
Proof. repeat split; vm_compute; reflexivity. Qed.

(* -------------------------------- C88 ----------------------------------- *)

(** The dimensions of an SBET file get distinct keys *)
Lemma sbet_keys_nodup (data : list (text * list R)) : NoDup (map fst data) ->
  (forall n, In n (map fst data) -> In n (map txt sbet_dimensions)) ->
  NoDup (map fst (map (fun nc => (convert_to_snake_case (fst nc), snd nc)) data)).
Proof.
  intros Hn Hs. rewrite map_map. cbn [fst]. rewrite <- (map_map fst convert_to_snake_case).
  assert (Inj : forall x y, In x (map txt sbet_dimensions) -> In y (map txt sbet_dimensions) ->
            convert_to_snake_case x = convert_to_snake_case y -> x = y).
  { intros x y Hx Hy E.
    assert (K : forallb (fun x => forallb (fun y => implb (text_eqb (convert_to_snake_case x) (convert_to_snake_case y)) (text_eqb x y))
                  (map txt sbet_dimensions)) (map txt sbet_dimensions) = true) by (vm_compute; reflexivity).
    rewrite forallb_forall in K. specialize (K x Hx). rewrite forallb_forall in K. specialize (K y Hy).
    rewrite E, text_eqb_refl in K. apply text_eqb_spec. exact K. }
  induction (map fst data) as [|x l IH]; [constructor|]. inversion Hn as [|? ? Nx Nl]; subst. cbn [map]. constructor.
  - intros Hi. apply in_map_iff in Hi as (y & Ey & Hy). apply Inj in Ey; [subst; contradiction| |]; apply Hs; [right; exact Hy|left; reflexivity].
  - apply IH; auto. intros n Hi. apply Hs. right; exact Hi.
Qed.

(** Loading an SBET file: every quantity is interpolated from its own column, for the columns
    in any order; the counts are those of the file *)
Theorem C88_sbet : forall pdal file proj zone ellps datum o count data rest,
  pdal file = Some (mkPdal count (data :: rest)) -> sbet_load pdal file proj zone ellps datum = Ok o ->
  NoDup (map fst data) -> (forall n, In n (map fst data) -> In n (map txt sbet_dimensions)) ->
  no_num_records o = count /\ no_record_length o = length data /\
  forall times, In (txt "GpsTime", times) data -> increasing times -> (2 <= length times)%nat ->
  (forall n col, In (n, col) data -> length col = length times) ->
  forall ch col q, In (txt (sbet_dimension ch), col) data -> rectangular q ->
    (Forall (in_span times) (elements q) ->
       exists r, get_channel ApplanixSBET ch (no_data o) q = Ok (Some r) /\ pointwise (value_at times col) q r) /\
    (~ Forall (in_span times) (elements q) -> get_channel ApplanixSBET ch (no_data o) q = Ok None).
Proof.
  intros pdal file proj zone ellps datum o count data rest Hp Ho Hn Hs.
  unfold sbet_load in Ho. rewrite Hp in Ho. cbn in Ho. injection Ho as <-. cbn [no_num_records no_record_length no_data].
  split; [reflexivity|]. split; [reflexivity|]. intros times Ht Hi H2 Hl ch col q Hc Hq.
  rewrite snake_store. rewrite store_all_nodup by (apply sbet_keys_nodup; assumption).
  assert (G : forall n c, In (n, c) data ->
     dict_get (map (fun nc => (convert_to_snake_case (fst nc), snd nc)) data) (convert_to_snake_case n) = Ok c).
  { intros n c Hin. pose proof (sbet_keys_nodup data Hn Hs) as Nd.
    assert (I' : In (convert_to_snake_case n, c) (map (fun nc => (convert_to_snake_case (fst nc), snd nc)) data))
      by (apply in_map_iff; exists (n, c); auto).
    revert Nd I'. generalize (map (fun nc => (convert_to_snake_case (fst nc), snd nc)) data). generalize (convert_to_snake_case n).
    intros k l. induction l as [|[k' v'] l IH]; [intros _ []|]; intros Nd [E|I']; cbn in *.
    - injection E as -> ->. rewrite text_eqb_refl. reflexivity.
    - inversion Nd as [|? ? N1 N2]; subst. destruct (text_eqb k' k) eqn:Ek.
      + apply text_eqb_spec in Ek. subst. exfalso. apply N1. apply in_map_iff. exists (k, c). auto.
      + apply IH; assumption. }
  apply (C43_channels ApplanixSBET ch _ times col q); auto.
  - apply (G (txt "GpsTime") times Ht).
  - pose proof (G _ _ Hc) as K. destruct ch; exact K.
  - apply (Hl _ _ Hc).
Qed.
Print Assumptions C88_sbet.

(** The projection has the zone exactly when a non-empty one is given, and the other three
    arguments unchanged (both file types) *)
Theorem C88_projection : forall pdal to_float read file proj zone ellps datum o,
  sbet_load pdal file proj zone ellps datum = Ok o \/ eo_load_file to_float read file proj zone ellps datum = Ok o ->
  pj_proj (no_projection o) = proj /\ pj_ellps (no_projection o) = ellps /\ pj_datum (no_projection o) = datum /\
  (pj_zone (no_projection o) = match zone with Some (c :: z) => Some (c :: z) | _ => None end).
Proof.
  intros pdal tf read file proj zone ellps datum o [H|H].
  - unfold sbet_load in H. destruct (pdal file) as [r|]; [|discriminate]. destruct (py_get (pd_arrays r) 0) as [d| |]; try discriminate.
    cbn [bind] in H. injection H as <-. cbn [no_projection]. unfold nav_projection. destruct zone as [[|c z]|]; cbn; auto.
  - unfold eo_load_file in H. destruct (read file) as [t| |]; try discriminate. cbn [bind] in H.
    destruct (dict_get (eo_nav_data tf t) (txt "gps_time")) as [l| |]; try discriminate. cbn [bind] in H.
    injection H as <-. cbn [no_projection]. unfold nav_projection. destruct zone as [[|c z]|]; cbn; auto.
Qed.
Print Assumptions C88_projection.

(** The record length is the number of quantities in every record for an SBET file (whose names
    stay distinct), but not for an EO file: seven is announced, the records have nine *)
Theorem C88_record_length_refuted : forall to_float read file proj zone ellps datum content, read file = Ok content ->
  exists o, eo_load_file to_float read file proj zone ellps datum = Ok o /\ no_record_length o = 7%nat /\
    length (no_data o) = 9%nat /\
    (exists times, dict_get (no_data o) (txt "gps_time") = Ok times /\ no_num_records o = Z.of_nat (length times)).
Proof.
  intros tf read file proj zone ellps datum content H. unfold eo_load_file. rewrite H. cbn [bind].
  destruct (C45_columns_exact R tf content) as [L _].
  unfold eo_nav_data. set (cols := eo_load tf content) in *.
  do 9 (destruct cols as [|? cols]; [discriminate L|]). destruct cols; [|discriminate L].
  eexists. split; [cbn; reflexivity|]. cbn. repeat split. eexists. split; reflexivity.
Qed.
Print Assumptions C88_record_length_refuted.

(** An unreadable file and a pipeline without arrays raise; a missing dimension is a KeyError
    when it is asked for *)
Theorem C88_errors : forall pdal file proj zone ellps datum,
  (pdal file = None -> sbet_load pdal file proj zone ellps datum = Err OtherError) /\
  (forall n, pdal file = Some (mkPdal n []) -> sbet_load pdal file proj zone ellps datum = Err IndexError) /\
  (forall nav times q ch, dict_get nav (txt "gps_time") = Ok times -> times <> [] ->
     dict_get nav (column_name ApplanixSBET ch) = Err KeyError -> Forall (in_span times) (elements q) ->
     get_channel ApplanixSBET ch nav q = Err KeyError).
Proof.
  intros pdal file proj zone ellps datum. repeat split.
  - intros H. unfold sbet_load. rewrite H. reflexivity.
  - intros n H. unfold sbet_load. rewrite H. reflexivity.
  - intros nav times q ch Ht Hne Hk Hq. unfold get_channel, column_native. rewrite Prop_Nav.channel_key_name.
    pose proof (P_Nav.format_flat q) as Hf. destruct (format_input_array q) as [flat d]. cbn in Hf. subst flat.
    rewrite (proj1 (P_Nav.in_range_ok nav times (elements q) Ht Hne) Hq), Ht, Hk. reflexivity.
Qed.
Print Assumptions C88_errors.

(** A file with three dimensions *)
Example C88_example : let data := [(txt "GpsTime", [0; 10]); (txt "Y", [1; 3]); (txt "X", [5; 7])] in
  NoDup (map fst data) /\ (forall n, In n (map fst data) -> In n (map txt sbet_dimensions)) /\
  sbet_load (fun _ => Some (mkPdal 2 [data])) (txt "a.sbet") (txt "utm") None (txt "WGS84") (txt "WGS84") =
  Ok (mkNavObject [(txt "gps_time", [0; 10]); (txt "y", [1; 3]); (txt "x", [5; 7])] 2 3 (mkProjArgs (txt "utm") None (txt "WGS84") (txt "WGS84"))).
Proof.
  cbn zeta. split; [|split].
  - cbn [map fst]. repeat constructor; cbn [In]; intros H; repeat (destruct H as [H|H]; [discriminate H|]); exact H.
  - intros n H. cbn [map fst In] in H. cbn [map In sbet_dimensions]. tauto.
  - reflexivity.
Qed.
