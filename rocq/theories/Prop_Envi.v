(** Property theorems C01-C06 and C61 (ENVI files). *)
From Verif Require Import M_Envi Spec_Envi P_EnviHeader P_EnviImage.
From Coq Require Import ZifyBool.
Open Scope Z_scope.
Open Scope list_scope.

(* ------------------------------- C01 ------------------------------ *)

(** Every code the writer chooses is read back as the dtype written. *)
Theorem C01_dtype_round_trip : forall none_is_f64 d code,
  numpy_dtype_to_envi_dtype none_is_f64 d = Ok (Some code) ->
  envi_dtype_to_numpy_dtype code = Ok (Some d).
Proof. exact numpy_to_envi_to_numpy. Qed.
Print Assumptions C01_dtype_round_trip.

(** ... and every code the reader understands is the one the writer chooses. *)
Theorem C01_code_round_trip : forall none_is_f64 code d,
  envi_dtype_to_numpy_dtype code = Ok (Some d) ->
  numpy_dtype_to_envi_dtype none_is_f64 d = Ok (Some code).
Proof. exact envi_to_numpy_to_envi. Qed.
Print Assumptions C01_code_round_trip.

Theorem C01_codes_injective : forall none_is_f64 d1 d2 code,
  numpy_dtype_to_envi_dtype none_is_f64 d1 = Ok (Some code) ->
  numpy_dtype_to_envi_dtype none_is_f64 d2 = Ok (Some code) -> d1 = d2.
Proof. exact envi_code_injective. Qed.
Print Assumptions C01_codes_injective.

(** The search always answers, and fails exactly for these dtypes. *)
Theorem C01_supported_dtypes : forall none_is_f64 d, exists o,
  numpy_dtype_to_envi_dtype none_is_f64 d = Ok o /\
  (o = None <-> In d [Bool_; Int8; Float16; Complex128] \/ exists n, d = OtherDtype n).
Proof. exact numpy_to_envi_total. Qed.
Print Assumptions C01_supported_dtypes.

(** Crash point: an unsupported dtype raises, and leaves exactly the raw file. *)
Theorem C01_unsupported_partial_write : forall A (zero : A) nf w c d img hdr il,
  numpy_dtype_to_envi_dtype nf d = Ok None ->
  exists w', write_envi_image zero nf w c d img hdr il = (w', Err TypeError) /\
             w' img = Some (RawFile d (interleave_image zero c il)) /\
             forall n, n <> img -> w' n = w n.
Proof.
  exact (fun A zero nf w c d img hdr il H =>
    ex_intro _ _ (conj (write_unsupported zero nf w c d img hdr il H)
      (conj (fs_write_same w img _) (fun n Hn => fs_write_other w img _ n Hn)))).
Qed.
Print Assumptions C01_unsupported_partial_write.

(** The codes are those of the ENVI standard, except for complex data: the
    standard's 6 (single complex) is not written, and 9 (double complex) is
    written for single complex data. *)
Theorem C01_standard_codes_except_complex : forall nf d code,
  d <> Complex64 -> numpy_dtype_to_envi_dtype nf d = Ok (Some code) ->
  envi_standard_code d = Some code.
Proof.
  intros nf d code Hd H. destruct nf; destruct d; vm_compute in H; try discriminate H;
    try congruence; injection H as <-; reflexivity.
Qed.
Print Assumptions C01_standard_codes_except_complex.

Theorem C01_complex_code_refuted :
  exists d code, numpy_dtype_to_envi_dtype true d = Ok (Some code) /\
                 numpy_dtype_to_envi_dtype false d = Ok (Some code) /\
                 envi_standard_code d <> Some code /\
                 envi_standard_code Complex128 = Some code.
Proof. exists Complex64, 9. repeat split; discriminate. Qed.
Print Assumptions C01_complex_code_refuted.

Example C01_ex_code : numpy_dtype_to_envi_dtype true UInt16 = Ok (Some 12)
  /\ numpy_dtype_to_envi_dtype false Int8 = Ok None.
Proof. split; vm_compute; reflexivity. Qed.

(* ------------------------------- C02 ------------------------------ *)

Theorem C02_bil_round_trip : forall A (zero : A) (c : cube A),
  cube_wf c ->
  construct_image_cube_from_raw_data zero (interleave_image zero c (txt "bil"))
    (c_nx c) (c_ny c) (c_nb c) (txt "bil") = Ok c.
Proof. exact @bil_round_trip. Qed.
Print Assumptions C02_bil_round_trip.

(** The layout itself: line by line, band by band, pixel by pixel. *)
Theorem C02_bil_layout : forall A (zero : A) (c : cube A),
  cube_wf c ->
  interleave_image zero c (txt "bil") =
  concat (map (fun lb => get_line_band zero c (fst lb) (snd lb))
              (list_prod (seq 0 (c_ny c)) (seq 0 (c_nb c)))).
Proof. exact @interleave_bil. Qed.
Print Assumptions C02_bil_layout.

Theorem C02_file_size : forall A (zero : A) (c : cube A) il,
  cube_wf c -> length (interleave_image zero c il) = (c_ny c * c_nx c * c_nb c)%nat.
Proof. exact @interleave_length. Qed.
Print Assumptions C02_file_size.

(** The whole write/read path through the file system, with the header name
    given or left out, whatever files were there before. *)
Theorem C02_image_file_round_trip :
  forall A F (parse_float : text -> option F) (zero : A) nf w c d img hdr code,
  cube_wf c -> numpy_dtype_to_envi_dtype nf d = Ok (Some code) ->
  (match hdr with Some h => h <> img | None => True end) ->
  exists w' n,
    write_envi_image zero nf w c d img hdr (txt "bil") = (w', Ok tt) /\
    forall fuel, (n <= fuel)%nat -> read_envi_image A F parse_float zero fuel w' img hdr = Ok c.
Proof. exact @image_file_round_trip. Qed.
Print Assumptions C02_image_file_round_trip.

Example C02_ex : let c := mkCube 2 3 2 [[[1;2];[3;4];[5;6]]; [[7;8];[9;10];[11;12]]] in
  cube_wf c /\ interleave_image 0 c (txt "bil") = [1;3;5;2;4;6;7;9;11;8;10;12]
  /\ has_shape c 2 3 2.
Proof.
  split; [|split].
  - split; [reflexivity|]. repeat constructor.
  - vm_compute; reflexivity.
  - apply (wf_has_shape (mkCube 2 3 2 [[[1;2];[3;4];[5;6]]; [[7;8];[9;10];[11;12]]])).
    split; [reflexivity|]. repeat constructor.
Qed.

(* ------------------------------- C03 ------------------------------ *)

(** Any other interleave: the data written, and the data read, are all zeros. *)
Theorem C03_other_interleave_write_zeros : forall A (zero : A) (c : cube A) il,
  il <> txt "bil" -> interleave_image zero c il = repeat zero (c_ny c * c_nx c * c_nb c).
Proof. exact @other_interleave_write. Qed.
Print Assumptions C03_other_interleave_write_zeros.

Theorem C03_other_interleave_read_zeros : forall A (zero : A) raw nx ny nb il,
  il <> txt "bil" ->
  exists c, construct_image_cube_from_raw_data zero raw nx ny nb il = Ok c /\
            has_shape c ny nx nb /\ forall l x b v, cube_at c l x b = Some v -> v = zero.
Proof. exact @other_interleave_read. Qed.
Print Assumptions C03_other_interleave_read_zeros.

(** "the values are preserved or an exception is raised" is false *)
Theorem C03_other_interleave_refuted :
  exists il (c : cube Z) w' r,
    cube_wf c /\
    write_envi_image 0 true (fun _ => None) c UInt8 (txt "a.img") None il = (w', Ok tt) /\
    read_envi_image Z Z (fun _ => None) 0 1000 w' (txt "a.img") None = Ok r /\
    r <> c.
Proof.
  exists (txt "bsq"), (mkCube 1 1 1 [[[7]]]).
  eexists. exists (mkCube 1 1 1 [[[0]]]).
  split; [split; [reflexivity|repeat constructor]|].
  split; [apply (write_ok 0 true _ _ _ _ _ _ 1); vm_compute; reflexivity|].
  split; [vm_compute; reflexivity|discriminate].
Qed.
Print Assumptions C03_other_interleave_refuted.

(* ------------------------------- C04 ------------------------------ *)

Theorem C04_header_round_trip :
  forall F (parse_float : text -> option F) es vs fuel,
  Forall clean_entry es -> NoDup (map entry_key es) ->
  Forall2 (reads_as parse_float) es vs ->
  (length (write_envi_header (map entry_item es)) <= fuel)%nat ->
  read_envi_header F parse_float fuel (write_envi_header (map entry_item es))
  = Ok (combine (map entry_key es) vs).
Proof. exact @header_round_trip. Qed.
Print Assumptions C04_header_round_trip.

(** A key that occurs more than once in a header file has the value of its last entry. *)
Theorem C04_last_entry_wins :
  forall F (parse_float : text -> option F) es1 e es2 vs fuel,
  Forall clean_entry (es1 ++ e :: es2) ->
  Forall2 (reads_as parse_float) (es1 ++ e :: es2) vs ->
  (forall e', In e' es2 -> entry_key e' <> entry_key e) ->
  (length (write_envi_header (map entry_item (es1 ++ e :: es2))) <= fuel)%nat ->
  exists d v, read_envi_header F parse_float fuel (write_envi_header (map entry_item (es1 ++ e :: es2))) = Ok d /\
    nth_error vs (length es1) = Some v /\ dict_get d (entry_key e) = Ok v.
Proof. exact @header_last_wins. Qed.
Print Assumptions C04_last_entry_wins.

(** Bracketed text does not come back as it was written: the closing brace is
    lost, so writing the header that was read produces a broken file. *)
Theorem C04_bracket_text_refuted : forall F (parse_float : text -> option F),
  exists k v fuel, ~ In ch_nl v /\
    read_envi_header F parse_float fuel (write_envi_header [(k, WStr v)])
    = Ok [(k, HStr (firstn (length v - 1) v))] /\
    forall fuel', read_envi_header F parse_float fuel'
                    (write_envi_header [(k, WStr (firstn (length v - 1) v))]) = Diverges.
Proof.
  intros F pf. exists (txt "map info"), (txt "{UTM, 1}"), 100%nat.
  split; [intros H; simpl in H; repeat (destruct H as [H|H]; [discriminate H|]); exact H|].
  split; [vm_compute; reflexivity|].
  intros fuel'.
  change (write_envi_header _) with
    (write_envi_header (map entry_item []) ++ txt "map info = {UTM, 1" ++ [ch_nl]).
  apply (read_header_diverges pf []); [apply Forall_nil|apply NoDup_nil|notin|].
  exists (txt "map info = "), (txt "UTM, 1" ++ [ch_nl]).
  split; [reflexivity|]. split; [notin|]. split; [notin|]. split; vm_compute; tauto.
Qed.
Print Assumptions C04_bracket_text_refuted.

Example C04_ex :
  let es := [EInt (txt "samples") 640; EText (txt "interleave") (txt "bil");
             EBrace (txt "map info") (txt "UTM, 1, {x = 2 ");
             EFloats (txt "Wavelength") [txt "0.4"; txt "0.5"]] in
  Forall clean_entry es /\ NoDup (map entry_key es).
Proof.
  cbv zeta. split.
  - assert (T : forall t, In t [txt "0.4"; txt "0.5"] -> clean_token t).
    { intros t [<-|[<-|[]]]; (split; [discriminate|]);
        repeat (constructor; [repeat split; try discriminate; vm_compute; reflexivity|]); constructor. }
    constructor; [|constructor; [|constructor; [|constructor; [|constructor]]]].
    + split; [ckey|]. unfold float_key. notin.
    + split; [ckey|]. split; [constructor; try notin; vm_compute; reflexivity|].
      split; unfold float_key, int_key; notin.
    + split; [ckey|]. split; [notin|]. split; [notin|]. split; unfold float_key, int_key; notin.
    + split; [ckey|]. split; [unfold float_key; vm_compute; tauto|]. split; [discriminate|].
      apply Forall_forall. exact T.
  - cbn [map entry_key]. repeat (constructor; [notin|]). constructor.
Qed.

(* ------------------------------- C05 ------------------------------ *)

(** Every text whose opening braces are closed is read in at most as many passes
    as it has characters. *)
Theorem C05_read_header_terminates :
  forall F (parse_float : text -> option F) fuel t,
  braces_closed t -> (length t <= fuel)%nat ->
  read_envi_header F parse_float fuel t <> Diverges.
Proof. exact @read_header_terminates. Qed.
Print Assumptions C05_read_header_terminates.

(** The only texts that are not read (newlines being translated by open): those with an entry, at the
    start of a line or after a closing brace, that opens a brace which is never closed; a text that is
    not read in as many passes as it has characters is not read in any number of passes. *)
Theorem C05_diverges_only :
  forall F (parse_float : text -> option F) fuel t, ~ In ch_cr t -> (length t <= fuel)%nat ->
  read_envi_header F parse_float fuel t = Diverges ->
  (exists a s, t = a ++ s /\ unclosed_entry s /\ (a = [] \/ exists u c, a = u ++ [c] /\ (c = ch_nl \/ c = "}"%char))) /\
  forall fuel', read_envi_header F parse_float fuel' t = Diverges.
Proof. exact @read_diverges_only. Qed.
Print Assumptions C05_diverges_only.

(** Reading a header text raises nothing but ValueError. *)
Theorem C05_only_value_errors : forall F (parse_float : text -> option F) fuel t e,
  read_envi_header F parse_float fuel t = Err e -> e = ValueError.
Proof.
  intros F pf fuel t e H. unfold read_envi_header in H.
  assert (S2 : forall c u e, split_two c u = Err e -> e = ValueError).
  { intros c u e0 Q. unfold split_two in Q. destruct (split_char c u) as [|a [|b [|d l]]]; congruence. }
  assert (S1 : forall c u e, split_once c u = Err e -> e = ValueError).
  { intros c u e0 Q. unfold split_once in Q. destruct (find_char c u); congruence. }
  assert (HS : forall u e, header_step u = Err e -> e = ValueError).
  { intros u e0 Q. unfold header_step in Q. destruct (is_bracket_entry u); [|destruct (is_equals_entry u); [|destruct (entry_has_newline u); discriminate]].
    - destruct (split_once _ _) as [[a b]|e1|] eqn:E; cbn [bind] in Q; try discriminate. injection Q as <-. exact (S1 _ _ _ E).
    - destruct (split_two _ _) as [[a b]|e1|] eqn:E; cbn [bind] in Q; try discriminate. injection Q as <-. exact (S2 _ _ _ E). }
  assert (HL : forall fuel u d e, header_loop fuel u d = Err e -> e = ValueError).
  { clear - HS. induction fuel as [|f IH]; intros [|c u] d e Q; cbn [header_loop] in Q; try discriminate.
    destruct (header_step (c :: u)) as [[[a b] r]|e1|] eqn:E; cbn [bind] in Q; try discriminate.
    - exact (IH _ _ _ Q).
    - injection Q as <-. exact (HS _ _ E). }
  destruct (header_loop _ _ _) as [d|e1|] eqn:E; cbn [bind] in H; try discriminate; [|injection H as <-; exact (HL _ _ _ _ E)].
  assert (ME : forall (X Y : Type) (f : X -> result Y) (l : list X) e, mapM f l = Err e -> exists x, f x = Err e).
  { clear. intros X Y f l. induction l as [|x l IH]; intros e Q; cbn [mapM] in Q; [discriminate|].
    destruct (f x) as [y|e1|] eqn:E; cbn [bind] in Q; try discriminate; [|injection Q as <-; eauto].
    destruct (mapM f l) as [ys|e1|] eqn:E'; cbn [bind] in Q; try discriminate. injection Q as <-. exact (IH _ eq_refl). }
  apply ME in H. destruct H as ([k v] & H). unfold convert_entry in H.
  destruct (text_in _ bracket_ndarr_entries).
  - destruct (bracket_entry_to_ndarray F pf v) as [l|e1|] eqn:E1; cbn [bind] in H; try discriminate. injection H as <-.
    apply ME in E1. destruct E1 as (x & E1). unfold py_float in E1. destruct (pf x); congruence.
  - destruct (text_in _ equals_int_entries); [|discriminate].
    destruct (py_int _) as [z|e1|] eqn:E1; cbn [bind] in H; try discriminate. injection H as <-.
    unfold py_int in E1. cbv zeta in E1. match type of E1 with (match ?x with _ => _ end = _) => destruct x end; congruence.
Qed.
Print Assumptions C05_only_value_errors.

(** A clean header followed by an entry that opens a brace and never closes it, or a text that
    starts with such an entry, is not read in any number of passes. *)
Theorem C05_unclosed_brace_diverges_refuted :
  forall F (parse_float : text -> option F) es s fuel,
  Forall clean_entry es -> NoDup (map entry_key es) -> ~ In ch_cr s -> unclosed_entry s ->
  read_envi_header F parse_float fuel (write_envi_header (map entry_item es) ++ s) = Diverges /\
  read_envi_header F parse_float fuel s = Diverges.
Proof. intros F pf es s fuel H1 H2 H3 H4. split; [now apply read_header_diverges|now apply read_unclosed]. Qed.
Print Assumptions C05_unclosed_brace_diverges_refuted.

Example C05_ex_unclosed : unclosed_entry (txt "fwhm = {1, 2" ++ ch_nl :: txt "lines = 3").
Proof.
  exists (txt "fwhm = "), (txt "1, 2" ++ ch_nl :: txt "lines = 3"). split; [reflexivity|]. split; [|split; [|split]].
  - simpl. intuition discriminate.
  - simpl. intuition discriminate.
  - simpl. tauto.
  - simpl. tauto.
Qed.
Example C05_ex_terminates : braces_closed (txt "ENVI a = {1, 2} b = {3}")
  /\ ~ braces_closed (txt "a = {1").
Proof.
  split.
  - intros a b E.
    unfold txt in E. cbn [list_ascii_of_string] in E.
    repeat (destruct a as [|? a]; cbn [app] in E;
      [first [discriminate E | injection E as E; rewrite <- E; vm_compute; tauto]
      | first [discriminate E | injection E as _ E]]).
  - intros H. specialize (H (txt "a = ") (txt "1") eq_refl). simpl in H.
    destruct H as [H|[]]; discriminate H.
Qed.
Example C05_ex_diverges :
  read_envi_header Z (fun _ => None) 500 (txt "ENVI" ++ ch_nl :: txt "fwhm = {1, 2" ++ [ch_nl]) = Diverges.
Proof. vm_compute. reflexivity. Qed.

(* ------------------------------- C06 ------------------------------ *)

(** envi_utils.read_envi_image prefers image.ext.hdr, EnviImage.init_from_file
    prefers image.hdr, each falls back on the other, and neither existing means
    that no header is found. *)
Theorem C06_read_envi_image_header : forall A (w : fs A) img,
  let long := img ++ txt ".hdr" in
  let short := py_slice img 0 (-4) ++ txt ".hdr" in
  find_header A w img (read_envi_image_guesses img) =
  match w long with
  | Some _ => Some long
  | None => match w short with Some _ => Some short | None => None end
  end.
Proof. exact (fun A w img => find_header_last w img _ _). Qed.
Print Assumptions C06_read_envi_image_header.

Theorem C06_envi_image_header : forall A (w : fs A) img,
  let long := img ++ txt ".hdr" in
  let short := py_slice img 0 (-4) ++ txt ".hdr" in
  find_header A w img (envi_image_guesses img) =
  match w short with
  | Some _ => Some short
  | None => match w long with Some _ => Some long | None => None end
  end.
Proof. exact (fun A w img => find_header_last w img _ _). Qed.
Print Assumptions C06_envi_image_header.

(** The two readers of one image can use different headers. *)
Theorem C06_readers_agree_refuted :
  exists (w : fs Z) img h1 h2,
    find_header Z w img (read_envi_image_guesses img) = Some h1 /\
    find_header Z w img (envi_image_guesses img) = Some h2 /\ h1 <> h2.
Proof.
  exists (fun _ => Some (TextFile [])), (txt "scene.img"), (txt "scene.img.hdr"), (txt "scene.hdr").
  repeat split; try (vm_compute; reflexivity). discriminate.
Qed.
Print Assumptions C06_readers_agree_refuted.

(** No header at all: the read raises. *)
Theorem C06_no_header_raises : forall A F (pf : text -> option F) (zero : A) fuel w img,
  w (img ++ txt ".hdr") = None -> w (py_slice img 0 (-4) ++ txt ".hdr") = None ->
  read_envi_image A F pf zero fuel w img None = Err TypeError.
Proof.
  intros A F pf zero fuel w img H1 H2. unfold read_envi_image, read_envi_image_guesses.
  rewrite find_header_last, H1, H2. reflexivity.
Qed.
Print Assumptions C06_no_header_raises.

(** A header named by the caller is the only one tried: without it the read raises (the error of opening it),
    whatever other headers there are. *)
Theorem C06_named_header_only : forall A F (pf : text -> option F) (zero : A) fuel w img h,
  w h = None -> read_envi_image A F pf zero fuel w img (Some h) = Err OtherError.
Proof. intros A F pf zero fuel w img h H. unfold read_envi_image. rewrite H. reflexivity. Qed.
Print Assumptions C06_named_header_only.

(* ------------------------------- C61 ------------------------------ *)

(** Enough values: value x of line l and band b is number (l * nb + b) * nx + x of the file, and
    values after the last are ignored. *)
Theorem C61_complete : forall A (zero : A) raw nx ny nb, (ny * nx * nb <= length raw)%nat ->
  exists c, construct_image_cube_from_raw_data zero raw nx ny nb (txt "bil") = Ok c /\ has_shape c ny nx nb /\
    forall l x b, (l < ny)%nat -> (x < nx)%nat -> (b < nb)%nat -> cube_at c l x b = nth_error raw ((l * nb + b) * nx + x).
Proof. exact @construct_complete. Qed.
Print Assumptions C61_complete.

(** Fewer values than the header promises are rejected, unless exactly the last line of the last band
    is incomplete and holds exactly one value; then that value is silently repeated over the line, and
    the others are in their places. *)
Theorem C61_truncated : forall A (zero : A) raw nx ny nb, (length raw < ny * nx * nb)%nat ->
  (length raw + nx <> ny * nx * nb + 1 -> construct_image_cube_from_raw_data zero raw nx ny nb (txt "bil") = Err ValueError)%nat /\
  (length raw + nx = ny * nx * nb + 1 ->
   exists c, construct_image_cube_from_raw_data zero raw nx ny nb (txt "bil") = Ok c /\ has_shape c ny nx nb /\
     forall l x b, l < ny -> x < nx -> b < nb ->
       cube_at c l x b = nth_error raw (if (Nat.eqb l (ny - 1) && Nat.eqb b (nb - 1))%bool then (l * nb + b) * nx else (l * nb + b) * nx + x))%nat.
Proof. intros A zero raw nx ny nb H. split; [now apply truncated_exact|now apply construct_one]. Qed.
Print Assumptions C61_truncated.

(** The reader itself, on a header text that is read as the entries d.  A missing entry among the five it needs
    is a KeyError; otherwise the four numbers are integers, and a data type code that is not in the table is a
    KeyError, a missing data file the error of opening it, a negative size a ValueError; in all other cases the
    result is the cube of the theorems above, made of the values of the data file. *)
Theorem C61_reader : forall A F (pf : text -> option F) (zero : A) fuel w img h t d,
  w h = Some (TextFile t) -> read_envi_header F pf fuel t = Ok d ->
  let read := read_envi_image A F pf zero fuel w img (Some h) in
  ((exists k, In k (map txt ["samples"; "lines"; "bands"; "data type"; "interleave"]%string) /\ ~ In k (map fst d)) -> read = Err KeyError) /\
  ((forall k, In k (map txt ["samples"; "lines"; "bands"; "data type"; "interleave"]%string) -> In k (map fst d)) ->
   exists nx ny nb code il,
     dict_get d (txt "samples") = Ok (HInt nx) /\ dict_get d (txt "lines") = Ok (HInt ny) /\
     dict_get d (txt "bands") = Ok (HInt nb) /\ dict_get d (txt "data type") = Ok (HInt code) /\
     dict_get d (txt "interleave") = Ok (HStr il) /\
     (code < 1 \/ 15 < code -> read = Err KeyError) /\
     (1 <= code <= 15 -> w img = None -> read = Err OtherError) /\
     forall dt vals, envi_dtype_to_numpy_dtype code = Ok (Some dt) \/ envi_dtype_to_numpy_dtype code = Ok None /\ dt = Float64 -> w img = Some (RawFile dt vals) ->
       (nx < 0 \/ ny < 0 \/ nb < 0 -> read = Err ValueError) /\
       (0 <= nx -> 0 <= ny -> 0 <= nb ->
          read = construct_image_cube_from_raw_data zero vals (Z.to_nat nx) (Z.to_nat ny) (Z.to_nat nb) il)).
Proof.
  intros A F pf zero fuel w img h t d HT HD read.
  assert (GN : forall k, ~ In k (map fst d) -> dict_get d k = Err KeyError).
  { clear. intros k. induction d as [|[k' v] d IH]; cbn [map fst dict_get]; intros H; [reflexivity|].
    destruct (text_eqb k' k) eqn:E; [apply text_eqb_spec in E; exfalso; apply H; left; exact E|]. apply IH. intros Q. apply H. right; exact Q. }
  assert (GI : forall k, In k (map fst d) -> exists v, dict_get d k = Ok v /\ In (k, v) d).
  { clear. intros k. induction d as [|[k' v] d IH]; cbn [map fst dict_get]; intros H; [destruct H|].
    destruct (text_eqb k' k) eqn:E; [apply text_eqb_spec in E; subst; exists v; split; [reflexivity|left; reflexivity]|].
    destruct H as [-> |H]; [rewrite text_eqb_refl in E; discriminate|]. destruct (IH H) as (u & E1 & E2). exists u. split; [exact E1|right; exact E2]. }
  assert (CV : forall k v, In (k, v) d -> exists u, convert_entry F pf (k, u) = Ok (k, v)).
  { unfold read_envi_header in HD. destruct (header_loop _ _ _) as [d0| |]; cbn [bind] in HD; try discriminate.
    apply mapM_ok_inv in HD. intros k v Hin. revert HD. generalize (dict_del d0 []). clear - Hin. intros l H.
    induction H as [|[k0 u0] [k1 v1] l d H0 H IH]; [destruct Hin|]. destruct Hin as [Q|Q]; [|exact (IH Q)].
    injection Q as -> ->. exists u0. unfold convert_entry in H0 |- *.
    destruct (text_in (lower k0) bracket_ndarr_entries) eqn:E1.
    - destruct (bracket_entry_to_ndarray F pf u0) eqn:E2; cbn [bind] in H0; try discriminate. injection H0 as <- <-. rewrite ?E1, ?E2. reflexivity.
    - destruct (text_in (lower k0) equals_int_entries) eqn:E2.
      + destruct (py_int _) eqn:E3; cbn [bind] in H0; try discriminate. injection H0 as <- <-. rewrite ?E1, ?E2, ?E3. reflexivity.
      + injection H0 as <- <-. rewrite ?E1, ?E2. reflexivity. }
  assert (II : forall k v, In k (map txt ["samples"; "lines"; "bands"; "data type"]%string) -> In (k, v) d -> exists z, v = HInt z).
  { intros k v Hk Hin. destruct (CV k v Hin) as (u & E). unfold convert_entry in E.
    replace (text_in (lower k) bracket_ndarr_entries) with false in E by (cbn [map In] in Hk; destruct Hk as [<-|[<-|[<-|[<-|[]]]]]; reflexivity).
    replace (text_in (lower k) equals_int_entries) with true in E by (cbn [map In] in Hk; destruct Hk as [<-|[<-|[<-|[<-|[]]]]]; reflexivity).
    destruct (py_int _); cbn [bind] in E; try discriminate. injection E as <-. eauto. }
  assert (IS : forall v, In (txt "interleave", v) d -> exists u, v = HStr u).
  { intros v Hin. destruct (CV _ v Hin) as (u & E). injection E as <-. eauto. }
  assert (DT : forall k, dict_get d k = Err KeyError \/ exists v, dict_get d k = Ok v /\ In (k, v) d).
  { intros k. destruct (in_dec (list_eq_dec ascii_dec) k (map fst d)) as [Q|Q]; [right; exact (GI k Q)|left; exact (GN k Q)]. }
  assert (RD : read = (nxv <- dict_get d (txt "samples") ;; nx <- hval_int F nxv ;;
      nyv <- dict_get d (txt "lines") ;; ny <- hval_int F nyv ;;
      nbv <- dict_get d (txt "bands") ;; nb <- hval_int F nbv ;;
      dtv <- dict_get d (txt "data type") ;; code <- hval_int F dtv ;;
      ilv <- dict_get d (txt "interleave") ;;
      vals <- read_all_image_data_to_numpy_array A w img code ;;
      if (nx <? 0) || (ny <? 0) || (nb <? 0) then Err ValueError
      else construct_image_cube_from_raw_data zero vals (Z.to_nat nx) (Z.to_nat ny) (Z.to_nat nb)
             (match ilv with HStr t => t | _ => [] end))).
  { unfold read, read_envi_image. rewrite HT, HD. reflexivity. }
  split.
  - intros (k & Hk & NI). rewrite RD. clear read RD.
    destruct (DT (txt "samples")) as [-> |(v1 & E1 & I1)]; [reflexivity|]. destruct (II (txt "samples") v1 (or_introl eq_refl) I1) as (z1 & ->). rewrite E1. cbn [bind hval_int].
    destruct (DT (txt "lines")) as [-> |(v2 & E2 & I2)]; [reflexivity|]. destruct (II (txt "lines") v2 (or_intror (or_introl eq_refl)) I2) as (z2 & ->). rewrite E2. cbn [bind hval_int].
    destruct (DT (txt "bands")) as [-> |(v3 & E3 & I3)]; [reflexivity|]. destruct (II (txt "bands") v3 (or_intror (or_intror (or_introl eq_refl))) I3) as (z3 & ->). rewrite E3. cbn [bind hval_int].
    destruct (DT (txt "data type")) as [-> |(v4 & E4 & I4)]; [reflexivity|]. destruct (II (txt "data type") v4 (or_intror (or_intror (or_intror (or_introl eq_refl)))) I4) as (z4 & ->). rewrite E4. cbn [bind hval_int].
    destruct (DT (txt "interleave")) as [-> |(v5 & E5 & I5)]; [reflexivity|].
    exfalso. apply NI. cbn [map In] in Hk. destruct Hk as [<-|[<-|[<-|[<-|[<-|[]]]]]]; apply in_map_iff; [exists (txt "samples", HInt z1)|exists (txt "lines", HInt z2)|exists (txt "bands", HInt z3)|exists (txt "data type", HInt z4)|exists (txt "interleave", v5)]; (split; [reflexivity|assumption]).
  - intros HA.
    destruct (GI _ (HA (txt "samples") (or_introl eq_refl))) as (v1 & E1 & I1). destruct (II (txt "samples") v1 (or_introl eq_refl) I1) as (nx & ->).
    destruct (GI _ (HA (txt "lines") (or_intror (or_introl eq_refl)))) as (v2 & E2 & I2). destruct (II (txt "lines") v2 (or_intror (or_introl eq_refl)) I2) as (ny & ->).
    destruct (GI _ (HA (txt "bands") (or_intror (or_intror (or_introl eq_refl))))) as (v3 & E3 & I3). destruct (II (txt "bands") v3 (or_intror (or_intror (or_introl eq_refl))) I3) as (nb & ->).
    destruct (GI _ (HA (txt "data type") (or_intror (or_intror (or_intror (or_introl eq_refl)))))) as (v4 & E4 & I4). destruct (II (txt "data type") v4 (or_intror (or_intror (or_intror (or_introl eq_refl)))) I4) as (code & ->).
    destruct (GI _ (HA (txt "interleave") (or_intror (or_intror (or_intror (or_intror (or_introl eq_refl))))))) as (v5 & E5 & I5). destruct (IS v5 I5) as (il & ->).
    exists nx, ny, nb, code, il. do 5 (split; [assumption|]).
    rewrite E1, E2, E3, E4, E5 in RD. cbn [bind hval_int] in RD. rewrite RD. clear RD read.
    unfold read_all_image_data_to_numpy_array.
    assert (TB : forall k, In k (map fst envi_dtypes_to_numpy) -> exists v, dict_get envi_dtypes_to_numpy k = Ok v).
    { intros k Q. cbn [map In fst envi_dtypes_to_numpy] in Q. repeat (destruct Q as [<-|Q]; [eexists; reflexivity|]). destruct Q. }
    split; [|split].
    + intros HC. assert (Q : envi_dtype_to_numpy_dtype code = Err KeyError).
      { unfold envi_dtype_to_numpy_dtype. destruct (dict_get envi_dtypes_to_numpy (str_of_Z code)) as [v|e|] eqn:E.
        - exfalso. pose proof (py_int_str code) as PI. unfold envi_dtypes_to_numpy in E. cbn [dict_get] in E.
          repeat match type of E with (if text_eqb ?a ?b then _ else _) = _ =>
            let Q := fresh in destruct (text_eqb a b) eqn:Q; [apply text_eqb_spec in Q; rewrite <- Q in PI; vm_compute in PI; injection PI as PI; lia|clear Q] end.
          discriminate.
        - unfold envi_dtypes_to_numpy in E. cbn [dict_get] in E.
          repeat match type of E with (if ?b then _ else _) = _ => destruct b; [discriminate|] end. congruence.
        - unfold envi_dtypes_to_numpy in E. cbn [dict_get] in E.
          repeat match type of E with (if ?b then _ else _) = _ => destruct b; [discriminate|] end. discriminate. }
      rewrite Q. reflexivity.
    + intros HC HN. destruct (TB (str_of_Z code)) as (v & Ev).
      { assert (Q : In code [1; 2; 3; 4; 5; 6; 7; 8; 9; 10; 11; 12; 13; 14; 15]) by (cbn; lia).
        cbn [In] in Q. repeat (destruct Q as [<-|Q]; [vm_compute; tauto|]). destruct Q. }
      unfold envi_dtype_to_numpy_dtype. rewrite Ev. cbn [bind]. rewrite HN. reflexivity.
    + intros dt vals Hdt HV.
      assert (RV : read_all_image_data_to_numpy_array A w img code = Ok vals).
      { unfold read_all_image_data_to_numpy_array. destruct Hdt as [-> |[-> ->]]; cbn [bind]; rewrite HV; destruct (np_dtype_eq_dec _ _); congruence. }
      unfold read_all_image_data_to_numpy_array in RV. rewrite RV. cbn [bind]. split.
      * intros HN. replace ((nx <? 0) || (ny <? 0) || (nb <? 0)) with true by lia. reflexivity.
      * intros H1 H2 H3. replace ((nx <? 0) || (ny <? 0) || (nb <? 0)) with false by lia. reflexivity.
Qed.
Print Assumptions C61_reader.
(** The hypotheses are met by the entries of a written header *)
Example C61_reader_ex : exists d, read_envi_header Z (fun _ => None) 500
    (write_envi_header [(txt "samples", WInt 3); (txt "lines", WInt 2); (txt "bands", WInt 1); (txt "data type", WInt 2); (txt "interleave", WStr (txt "bil"))]) = Ok d /\
  (forall k, In k (map txt ["samples"; "lines"; "bands"; "data type"; "interleave"]%string) -> In k (map fst d)).
Proof. eexists. split; [vm_compute; reflexivity|]. intros k H. vm_compute in H |- *. tauto. Qed.

(** So that truncated data are rejected is refuted. *)
Theorem C61_truncated_refuted : exists raw nx ny nb (c : cube Z),
  (length raw < ny * nx * nb)%nat /\
  construct_image_cube_from_raw_data 0 raw nx ny nb (txt "bil") = Ok c /\
  forall x, (x < nx)%nat -> cube_at c (ny - 1) x (nb - 1) = Some (last raw 0).
Proof.
  exists [1; 2; 3; 4], 3%nat, 2%nat, 1%nat, (mkCube 2 3 1 [[[1];[2];[3]]; [[4];[4];[4]]]).
  split; [simpl; lia|]. split; [vm_compute; reflexivity|].
  intros [|[|[|x]]] H; try reflexivity. lia.
Qed.
Print Assumptions C61_truncated_refuted.
