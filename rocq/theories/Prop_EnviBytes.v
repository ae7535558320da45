(** Property theorems C103 (ENVI files byte by byte) and C104 (a write that is killed). *)
From Verif Require Import M_Envi Spec_Envi P_EnviHeader P_EnviImage M_EnviBytes Spec_EnviBytes P_EnviBytes.
From Coq Require Import ZifyBool.
From Flocq Require Import IEEE754.Binary IEEE754.Bits.
Open Scope Z_scope.
Open Scope list_scope.

(* ------------------------------- C103 ----------------------------- *)

(** What is on disk after a write: the header, line by line, and in the image file, at
    ((l * bands + b) * samples + x) * size, the bytes of pixel x of line l in band b, in the byte
    order of the machine; no other byte, and no other file is touched. *)
Theorem C103_written : forall e nf w c d code img hdr,
  cube_wf c -> cube_of d c -> code_of_dtype d = Some code -> hdr <> Some img ->
  exists w' data,
    write_envi_image_bytes e nf w c d img hdr (txt "bil") = (w', Ok tt) /\
    w' img = Some data /\ length data = (c_ny c * c_nx c * c_nb c * size_of d)%nat /\
    (forall l x b v, cube_at c l x b = Some v ->
       is_value e d v (bytes_at data (bil_position (c_nx c) (c_nb c) (size_of d) l x b) (size_of d))) /\
    w' (header_written img hdr) =
      Some (txt "ENVI" ++ [ch_nl] ++
            txt "samples = " ++ str_of_Z (Z.of_nat (c_nx c)) ++ [ch_nl] ++
            txt "lines = " ++ str_of_Z (Z.of_nat (c_ny c)) ++ [ch_nl] ++
            txt "bands = " ++ str_of_Z (Z.of_nat (c_nb c)) ++ [ch_nl] ++
            txt "data type = " ++ str_of_Z code ++ [ch_nl] ++
            txt "interleave = bil" ++ [ch_nl]) /\
    (forall n, n <> img -> n <> header_written img hdr -> w' n = w n).
Proof.
  intros e nf w c d code img hdr W T Hc Hh. pose proof (hw_ne img hdr Hh) as Hne.
  assert (Hk : exists k, code_of_dtype d = Some k) by eauto. pose proof (interleave_typed d c Hk W T) as HT.
  unfold write_envi_image_bytes. rewrite (writes_ok e nf c d img hdr code _ Hc). unfold do_writes. cbn [fold_left fst snd].
  eexists. exists (tofile e d (interleave_image (np_zero d) c (txt "bil"))). split; [reflexivity|].
  split; [rewrite bfs_write_other by congruence; apply bfs_write_same|].
  split; [rewrite tofile_length, interleave_length by assumption; reflexivity|].
  split.
  - intros l x b v Hv. unfold bil_position. rewrite (tofile_item e d _ _ v HT).
    + apply encode_is_value. exact (T _ _ _ _ Hv).
    + apply interleave_nth; assumption.
  - split; [rewrite bfs_write_same, header_text; reflexivity|]. intros n N1 N2. rewrite !bfs_write_other by assumption. reflexivity.
Qed.
Print Assumptions C103_written.

(** A dtype without a code: the data file is there, the header is not, and TypeError is raised. *)
Theorem C103_unsupported : forall e nf w c d img hdr il,
  code_of_dtype d = None ->
  exists w' data, write_envi_image_bytes e nf w c d img hdr il = (w', Err TypeError) /\
    w' img = Some data /\ forall n, n <> img -> w' n = w n.
Proof.
  intros e nf w c d img hdr il Hc. unfold write_envi_image_bytes, envi_writes. rewrite code_written, Hc. unfold do_writes. cbn [fold_left fst snd].
  eexists. eexists. split; [reflexivity|]. split; [apply bfs_write_same|]. intros n Hn. now apply bfs_write_other.
Qed.
Print Assumptions C103_unsupported.

(** Any other interleave: a file of the same size, all of whose bytes are zero. *)
Theorem C103_other_interleave_zero_bytes : forall e nf w c d code img hdr il,
  code_of_dtype d = Some code -> hdr <> Some img -> il <> txt "bil" ->
  exists w', write_envi_image_bytes e nf w c d img hdr il = (w', Ok tt) /\
    w' img = Some (repeat "000"%char (c_ny c * c_nx c * c_nb c * size_of d)).
Proof.
  intros e nf w c d code img hdr il Hc Hh Hil. pose proof (hw_ne img hdr Hh) as Hne.
  unfold write_envi_image_bytes. rewrite (writes_ok e nf c d img hdr code _ Hc). unfold do_writes. cbn [fold_left fst snd].
  eexists. split; [reflexivity|]. rewrite bfs_write_other by congruence. rewrite bfs_write_same, other_interleave_write by exact Hil.
  unfold tofile. rewrite (flat_map_repeat _ _ _ "000"%char (size_of d)); [reflexivity|]. apply encode_zero. eauto.
Qed.
Print Assumptions C103_other_interleave_zero_bytes.

(** What is read from a data file, whatever else the header says: pixel x of line l in band b is the
    element made of the bytes at ((l * bands + b) * samples + x) * size, in the byte order of the
    machine.  Bytes beyond the last pixel do not matter, and neither do the other header entries. *)
Theorem C103_read : forall F (parse_float : text -> option F) e fuel w img hdr h es vs nx ny nb code d data,
  header_used w img hdr h -> w h = Some (write_envi_header (map entry_item es)) ->
  ascii_only (write_envi_header (map entry_item es)) ->
  Forall clean_entry es -> NoDup (map entry_key es) -> Forall2 (reads_as parse_float) es vs ->
  In (EInt (txt "samples") (Z.of_nat nx)) es -> In (EInt (txt "lines") (Z.of_nat ny)) es ->
  In (EInt (txt "bands") (Z.of_nat nb)) es -> In (EInt (txt "data type") code) es ->
  In (EText (txt "interleave") (txt "bil")) es ->
  (length (write_envi_header (map entry_item es)) <= fuel)%nat ->
  dtype_of_code code = Some d -> w img = Some data -> (ny * nx * nb * size_of d <= length data)%nat ->
  exists c, read_envi_image_bytes F parse_float e fuel w img hdr = Ok (d, c) /\ has_shape c ny nx nb /\
    forall l x b, (l < ny)%nat -> (x < nx)%nat -> (b < nb)%nat ->
      exists v, cube_at c l x b = Some v /\
        is_value e d v (bytes_at data (bil_position nx nb (size_of d) l x b) (size_of d)).
Proof.
  intros F pf e fuel w img hdr h es vs nx ny nb code d data H1 H2 H3 H4 H5 H6 I1 I2 I3 I4 I5 Hf Hd Hw HL.
  rewrite (read_with_header pf e fuel w img hdr h es vs _ _ _ _ _ H1 H2 H3 H4 H5 H6 I1 I2 I3 I4 I5 Hf).
  destruct (after_header_complete e w img nx ny nb code d data Hd Hw HL) as (c & E & Sh & _ & At).
  exists c. split; [exact E|]. split; [exact Sh|]. intros l x b Hl Hx Hb. destruct (At l x b Hl Hx Hb) as (v & A1 & _ & A3). eauto.
Qed.
Print Assumptions C103_read.

(** The bytes determine the value: there is no other value they could be read as. *)
Theorem C103_value_unique : forall e d v1 v2 bs, is_value e d v1 bs -> is_value e d v2 bs -> v1 = v2.
Proof. exact value_unique. Qed.
Print Assumptions C103_value_unique.

(** A code that is not in the table is a KeyError, a missing data file is refused (FileNotFoundError,
    here OtherError); a file with too few elements is refused (unless
    exactly one element of the last line of the last band is there, see C61). *)
Theorem C103_refused : forall F (parse_float : text -> option F) e fuel w img hdr h es vs nx ny nb code,
  header_used w img hdr h -> w h = Some (write_envi_header (map entry_item es)) ->
  ascii_only (write_envi_header (map entry_item es)) ->
  Forall clean_entry es -> NoDup (map entry_key es) -> Forall2 (reads_as parse_float) es vs ->
  In (EInt (txt "samples") (Z.of_nat nx)) es -> In (EInt (txt "lines") (Z.of_nat ny)) es ->
  In (EInt (txt "bands") (Z.of_nat nb)) es -> In (EInt (txt "data type") code) es ->
  In (EText (txt "interleave") (txt "bil")) es ->
  (length (write_envi_header (map entry_item es)) <= fuel)%nat ->
  (dtype_of_code code = None -> read_envi_image_bytes F parse_float e fuel w img hdr = Err KeyError) /\
  (dtype_of_code code <> None -> w img = None ->
     read_envi_image_bytes F parse_float e fuel w img hdr = Err OtherError) /\
  (forall d data, dtype_of_code code = Some d -> w img = Some data ->
     (length data / size_of d < ny * nx * nb)%nat -> (length data / size_of d + nx <> ny * nx * nb + 1)%nat ->
     read_envi_image_bytes F parse_float e fuel w img hdr = Err ValueError).
Proof.
  intros F pf e fuel w img hdr h es vs nx ny nb code H1 H2 H3 H4 H5 H6 I1 I2 I3 I4 I5 Hf.
  rewrite (read_with_header pf e fuel w img hdr h es vs _ _ _ _ _ H1 H2 H3 H4 H5 H6 I1 I2 I3 I4 I5 Hf). split.
  - intros Hd. unfold after_header, read_all_image_data_bytes. pose proof (code_read code) as R. rewrite Hd in R. rewrite R. reflexivity.
  - split.
    + intros Hd Hw. unfold after_header, read_all_image_data_bytes. pose proof (code_read code) as R. destruct (dtype_of_code code) as [d|]; [|congruence].
      destruct R as (o & Eo & _). rewrite Eo. cbn [bind]. rewrite Hw. reflexivity.
    + intros d data Hd Hw L1 L2. now apply (after_header_short e w img nx ny nb code d data).
Qed.
Print Assumptions C103_refused.

(** Written on one machine and read on another: the dtype and the bytes are kept, so every value is
    what its bytes mean in the other order. *)
Theorem C103_other_machine : forall F (parse_float : text -> option F) e1 e2 nf w c d code img hdr,
  cube_wf c -> cube_of d c -> code_of_dtype d = Some code -> hdr <> Some img ->
  exists w' n c',
    write_envi_image_bytes e1 nf w c d img hdr (txt "bil") = (w', Ok tt) /\
    (forall fuel, (n <= fuel)%nat -> read_envi_image_bytes F parse_float e2 fuel w' img hdr = Ok (d, c')) /\
    has_shape c' (c_ny c) (c_nx c) (c_nb c) /\
    forall l x b v, cube_at c l x b = Some v ->
      exists bs v', is_value e1 d v bs /\ is_value e2 d v' bs /\ cube_at c' l x b = Some v'.
Proof.
  intros F pf e1 e2 nf w c d code img hdr W T Hc Hh. pose proof (hw_ne img hdr Hh) as Hne.
  destruct (C103_written e1 nf w c d code img hdr W T Hc Hh) as (w' & data & E & Hd & HL & HB & HH & _).
  set (es := bil_entries c code).
  assert (HH' : w' (header_written img hdr) = Some (write_envi_header (map entry_item es))) by (rewrite HH, <- header_text; reflexivity).
  destruct (after_header_complete e2 w' img (c_nx c) (c_ny c) (c_nb c) code d data (code_dtype_code d code Hc) Hd) as (c' & E' & Sh & _ & At); [lia|].
  exists w', (length (write_envi_header (map entry_item es))), c'. split; [exact E|]. split; [|split; [exact Sh|]].
  - intros fuel Hf. rewrite <- E'. apply read_own; assumption.
  - intros l x b v Hv. destruct (cube_at_bounds c l x b v W Hv) as (Hl & Hx & Hb). destruct (At l x b Hl Hx Hb) as (v' & A1 & _ & A3).
    eexists. exists v'. split; [exact (HB l x b v Hv)|]. split; [exact A3|exact A1].
Qed.
Print Assumptions C103_other_machine.

(** On the same machine every value comes back, bit for bit (also NaNs, infinities and signed
    zeros), with the dtype written. *)
Theorem C103_round_trip : forall F (parse_float : text -> option F) e nf w c d code img hdr,
  cube_wf c -> cube_of d c -> code_of_dtype d = Some code -> hdr <> Some img ->
  exists w' n,
    write_envi_image_bytes e nf w c d img hdr (txt "bil") = (w', Ok tt) /\
    forall fuel, (n <= fuel)%nat -> read_envi_image_bytes F parse_float e fuel w' img hdr = Ok (d, c).
Proof.
  intros F pf e nf w c d code img hdr W T Hc Hh. pose proof (hw_ne img hdr Hh) as Hne.
  unfold write_envi_image_bytes. rewrite (writes_ok e nf c d img hdr code _ Hc). unfold do_writes. cbn [fold_left fst snd].
  eexists. exists (length (write_envi_header (map entry_item (bil_entries c code)))). split; [reflexivity|]. intros fuel Hf.
  rewrite (read_own pf e fuel _ img hdr c code); [|apply bfs_write_same|exact Hf].
  apply own_data; auto. rewrite bfs_write_other by congruence. apply bfs_write_same.
Qed.
Print Assumptions C103_round_trip.

(** Bytes mean the same in both orders when there is one per value. *)
Theorem C103_bytes_portable : forall F (parse_float : text -> option F) e1 e2 nf w c img hdr,
  cube_wf c -> cube_of UInt8 c -> hdr <> Some img ->
  exists w' n,
    write_envi_image_bytes e1 nf w c UInt8 img hdr (txt "bil") = (w', Ok tt) /\
    forall fuel, (n <= fuel)%nat -> read_envi_image_bytes F parse_float e2 fuel w' img hdr = Ok (UInt8, c).
Proof.
  intros F pf e1 e2 nf w c img hdr W T Hh. pose proof (hw_ne img hdr Hh) as Hne.
  unfold write_envi_image_bytes. rewrite (writes_ok e1 nf c UInt8 img hdr 1 _ eq_refl). unfold do_writes. cbn [fold_left fst snd].
  eexists. exists (length (write_envi_header (map entry_item (bil_entries c 1)))). split; [reflexivity|]. intros fuel Hf.
  rewrite (read_own pf e2 fuel _ img hdr c 1); [|apply bfs_write_same|exact Hf].
  apply own_data; auto. rewrite bfs_write_other, bfs_write_same by congruence. f_equal. unfold tofile.
  pose proof (interleave_typed UInt8 c (ex_intro _ 1 eq_refl) W T) as HT. rewrite Forall_forall in HT.
  rewrite !flat_map_concat_map. f_equal. apply map_ext_in. intros v Hv. specialize (HT v Hv).
  destruct v; try contradiction. cbn [encode itemsize]. now destruct e1, e2.
Qed.
Print Assumptions C103_bytes_portable.

(** The other values do not survive: two-byte numbers come out with their bytes swapped. *)
Theorem C103_swapped_uint16 : forall e1 e2 z v bs, e1 <> e2 ->
  is_value e1 UInt16 (VInt z) bs -> is_value e2 UInt16 v bs -> v = VInt (256 * (z mod 256) + z / 256).
Proof.
  intros e1 e2 z v bs He [L V1] [_ V2]. destruct v as [z'| | | |]; try contradiction. subst z z'. f_equal.
  cbn [size_of] in L. destruct bs as [|a [|b [|x bs]]]; try discriminate L.
  rewrite !unsigned_of_bytes. pose proof (byte_range a). pose proof (byte_range b).
  destruct e1, e2; try congruence; cbn [of_bytes le_value rev app].
  - replace (Z.of_N (N_of_ascii a) + 256 * (Z.of_N (N_of_ascii b) + 256 * 0)) with (Z.of_N (N_of_ascii b) * 256 + Z.of_N (N_of_ascii a)) by ring.
    rewrite Z.div_add_l, Z.div_small by lia. rewrite (Z.add_comm (_ * 256)), Z.mod_add, Z.mod_small by lia. ring.
  - replace (Z.of_N (N_of_ascii b) + 256 * (Z.of_N (N_of_ascii a) + 256 * 0)) with (Z.of_N (N_of_ascii a) * 256 + Z.of_N (N_of_ascii b)) by ring.
    rewrite Z.div_add_l, Z.div_small by lia. rewrite (Z.add_comm (_ * 256)), Z.mod_add, Z.mod_small by lia. ring.
Qed.
Print Assumptions C103_swapped_uint16.

(** The header entries of the example files below *)
Definition ex_entries (extra : entry) (code : Z) : list entry :=
  [ EInt (txt "samples") 1; EInt (txt "lines") 1; EInt (txt "bands") 1; EInt (txt "data type") code;
    EText (txt "interleave") (txt "bil"); extra ].
Definition ex_files (extra : entry) (code : Z) (data : list ascii) : bfs :=
  bfs_write (bfs_write (fun _ => None) (txt "a.img") data) (txt "a.img.hdr")
    (write_envi_header (map entry_item (ex_entries extra code))).

(** "byte order = 1" says that the data are big endian: they are read in the machine's order. *)
Theorem C103_byte_order_refuted : exists w data c,
  w (txt "a.img.hdr") = Some (write_envi_header (map entry_item (ex_entries (EInt (txt "byte order") 1) 2))) /\
  w (txt "a.img") = Some data /\ is_value Big Int16 (VInt 1) data /\
  read_envi_image_bytes Z (fun _ => None) Little 1000 w (txt "a.img") None = Ok (Int16, c) /\
  cube_at c 0 0 0 = Some (VInt 256).
Proof.
  exists (ex_files (EInt (txt "byte order") 1) 2 ["000"; "001"]%char), ["000"; "001"]%char, (mkCube 1 1 1 [[[VInt 256]]]).
  split; [reflexivity|]. split; [reflexivity|]. split; [|split; [vm_compute; reflexivity|reflexivity]].
  split; [reflexivity|]. split; [vm_compute; split; [discriminate|reflexivity]|]. left. vm_compute. reflexivity.
Qed.
Print Assumptions C103_byte_order_refuted.

(** "header offset = 2" says that the data start at byte 2 of the file: they are read from byte 0. *)
Theorem C103_header_offset_refuted : exists w data c,
  w (txt "a.img.hdr") = Some (write_envi_header (map entry_item (ex_entries (EInt (txt "header offset") 2) 1))) /\
  w (txt "a.img") = Some data /\ is_value Little UInt8 (VInt 5) (bytes_at data 2 1) /\
  read_envi_image_bytes Z (fun _ => None) Little 1000 w (txt "a.img") None = Ok (UInt8, c) /\
  cube_at c 0 0 0 = Some (VInt 9).
Proof.
  exists (ex_files (EInt (txt "header offset") 2) 1 ["009"; "008"; "005"]%char), ["009"; "008"; "005"]%char, (mkCube 1 1 1 [[[VInt 9]]]).
  split; [reflexivity|]. split; [reflexivity|]. split; [|split; [vm_compute; reflexivity|reflexivity]].
  split; vm_compute; reflexivity.
Qed.
Print Assumptions C103_header_offset_refuted.

(** A double complex image of the ENVI standard (code 9) holding 1 + 0i is read as a single complex
    image whose pixel is 0 + 1.875i: the two halves of the first double. *)
Theorem C103_double_complex_refuted : exists w data c re im,
  envi_standard_code Complex128 = Some 9 /\
  w (txt "a.img.hdr") = Some (write_envi_header (map entry_item (ex_entries (EText (txt "description") (txt "x")) 9))) /\
  w (txt "a.img") = Some data /\ length data = size_of Complex128 /\
  unsigned Little (bytes_at data 0 8) = bits_of_b64 (B754_finite 53 1024 false 4503599627370496 (-52) eq_refl) /\
  unsigned Little (bytes_at data 8 8) = bits_of_b64 (B754_zero 53 1024 false) /\
  read_envi_image_bytes Z (fun _ => None) Little 1000 w (txt "a.img") None = Ok (Complex64, c) /\
  cube_at c 0 0 0 = Some (VC64 re im) /\
  bits_of_b32 re = 0 /\ bits_of_b32 im = bits_of_b32 (B754_finite 24 128 false 15728640 (-23) eq_refl).
Proof.
  set (data := repeat "000"%char 6 ++ ["240"; "063"]%char ++ repeat "000"%char 8).
  exists (ex_files (EText (txt "description") (txt "x")) 9 data), data.
  exists (mkCube 1 1 1 [[[VC64 (b32_of_bits 0) (b32_of_bits 1072693248)]]]), (b32_of_bits 0), (b32_of_bits 1072693248).
  split; [reflexivity|]. split; [reflexivity|]. split; [reflexivity|]. split; [reflexivity|].
  split; [vm_compute; reflexivity|]. split; [vm_compute; reflexivity|].
  split; [vm_compute; reflexivity|]. split; [reflexivity|]. split; vm_compute; reflexivity.
Qed.
Print Assumptions C103_double_complex_refuted.

Example C103_ex : let c := mkCube 1 2 1 [[[VInt 258]; [VInt (-2)]]] in
  cube_wf c /\ cube_of Int16 c /\ code_of_dtype Int16 = Some 2 /\
  tofile Little Int16 [VInt 258; VInt (-2)] = ["002"; "001"; "254"; "255"]%char /\
  tofile Big Int16 [VInt 258; VInt (-2)] = ["001"; "002"; "255"; "254"]%char /\
  is_value Little Int16 (VInt (-2)) ["254"; "255"]%char.
Proof.
  split; [split; [reflexivity|repeat constructor]|]. split.
  { intros l x b v H. unfold cube_at in H. destruct l as [|l]; [|destruct l; discriminate H]. destruct x as [|[|x]]; [| |destruct x; discriminate H];
      (destruct b as [|b]; [|destruct b; discriminate H]); injection H as <-; vm_compute; split; congruence. }
  split; [reflexivity|]. split; [vm_compute; reflexivity|]. split; [vm_compute; reflexivity|].
  split; [reflexivity|]. split; [vm_compute; split; congruence|]. right. vm_compute. reflexivity.
Qed.
Example C103_ex_read : let es := ex_entries (EInt (txt "header offset") 2) 12 in
  Forall clean_entry es /\ NoDup (map entry_key es) /\ ascii_only (write_envi_header (map entry_item es)) /\
  Forall2 (reads_as (fun _ : text => @None Z)) es [HInt 1; HInt 1; HInt 1; HInt 12; HStr (txt "bil"); HInt 2].
Proof.
  cbv zeta. unfold ex_entries. split; [|split; [|split]].
  - repeat constructor; cbn [entry_key]; try ckey; unfold float_key, int_key; try notin; try discriminate; try (vm_compute; reflexivity).
  - cbn [map entry_key]. repeat (constructor; [notin|]). constructor.
  - intros ch Hin. apply Nat.ltb_lt. revert ch Hin. apply forallb_forall. vm_compute. reflexivity.
  - repeat constructor; unfold int_key; vm_compute; tauto.
Qed.

(* ------------------------------- C104 ----------------------------- *)

(** A header file that ends early (at any byte): the entries whose lines are complete are there,
    nothing else, and no half-written value is ever read. *)
Theorem C104_cut_header : forall F (parse_float : text -> option F) es vs k fuel,
  Forall clean_entry es -> Forall one_line es -> NoDup (map entry_key es) -> Forall2 (reads_as parse_float) es vs ->
  es <> [] -> (k < length (write_envi_header (map entry_item es)))%nat ->
  (length (write_envi_header (map entry_item es)) <= fuel)%nat ->
  exists n, (n < length es)%nat /\
    read_envi_header F parse_float fuel (firstn k (write_envi_header (map entry_item es)))
    = Ok (combine (map entry_key (firstn n es)) (firstn n vs)).
Proof. exact @cut_header. Qed.
Print Assumptions C104_cut_header.

(** A write killed at any byte, where no header was before: reading raises, or gives the image. *)
Theorem C104_killed_new : forall F (parse_float : text -> option F) e nf w c d code img hdr n k fuel,
  cube_wf c -> cube_of d c -> code_of_dtype d = Some code -> hdr <> Some img ->
  let short := py_slice img 0 (-4) ++ txt ".hdr" in
  w (header_written img hdr) = None -> (hdr = None -> w short = None /\ short <> img) ->
  let files := fst (envi_writes e nf c d img hdr (txt "bil")) in
  (forall name bs, In (name, bs) files -> (length bs <= fuel)%nat) ->
  let r := read_envi_image_bytes F parse_float e fuel (killed_write w files n k) img hdr in
  (exists ex, r = Err ex /\ In ex [TypeError; KeyError; OtherError] /\
     exists name bs, nth_error files n = Some (name, bs) /\ (n = 0%nat \/ (k < length bs)%nat)) \/
  (r = Ok (d, c) /\ forall name bs, nth_error files n = Some (name, bs) -> n = 1%nat /\ (length bs <= k)%nat).
Proof.
  intros F pf e nf w c d code img hdr n k fuel W T Hc Hh short Hnone Hshort files Hfuel.
  pose proof (hw_ne img hdr Hh) as Hne. subst files. cbv zeta. rewrite (writes_ok e nf c d img hdr code _ Hc) in *. cbn [fst] in *.
  set (raw := tofile e d (interleave_image (np_zero d) c (txt "bil"))) in *.
  change (write_envi_header _) with (write_envi_header (map entry_item (bil_entries c code))) in *.
  set (ht := write_envi_header (map entry_item (bil_entries c code))) in *.
  assert (Hf : (length ht <= fuel)%nat) by (apply (Hfuel (header_written img hdr)); right; now left).
  destruct n as [|[|n]].
  - left. change (killed_write w _ 0 k) with (bfs_write w img (firstn k raw)). unfold read_envi_image_bytes. destruct hdr as [h|].
    + cbn [header_written] in *. rewrite bfs_write_other by congruence. rewrite Hnone. exists OtherError. split; [reflexivity|]. split; [cbn; tauto|]. exists img, raw. split; [reflexivity|]. now left.
    + destruct (Hshort eq_refl) as [S1 S2]. cbn [header_written] in *. unfold find_header_bytes, read_envi_image_guesses. cbn [fold_left].
      rewrite (bfs_write_other w img _ (img ++ txt ".hdr")) by exact Hne. rewrite Hnone. fold short. rewrite bfs_write_other, S1 by exact S2.
      exists TypeError. split; [reflexivity|]. split; [cbn; tauto|]. exists img, raw. split; [reflexivity|]. now left.
  - change (killed_write w _ 1 k) with (bfs_write (bfs_write w img raw) (header_written img hdr) (firstn k ht)). destruct (Nat.lt_ge_cases k (length ht)) as [L|L].
    + left. exists KeyError. split; [apply (read_cut pf e fuel _ img hdr c code k); [apply bfs_write_same|exact L|exact Hf]|]. split; [cbn; tauto|].
      exists (header_written img hdr), ht. split; [reflexivity|]. now right.
    + right. split.
      * rewrite firstn_all2 by exact L. rewrite (read_own pf e fuel _ img hdr c code); [|apply bfs_write_same|exact Hf].
        apply own_data; auto. rewrite bfs_write_other by congruence. apply bfs_write_same.
      * intros name bs H. cbn [nth_error] in H. injection H as <- <-. auto.
  - right. replace (killed_write w _ (S (S n)) k) with (bfs_write (bfs_write w img raw) (header_written img hdr) ht) by (destruct n; reflexivity). split.
    + rewrite (read_own pf e fuel _ img hdr c code); [|apply bfs_write_same|exact Hf].
      apply own_data; auto. rewrite bfs_write_other by congruence. apply bfs_write_same.
    + intros name bs H. destruct n; discriminate H.
Qed.
Print Assumptions C104_killed_new.

(** A write killed at any byte over an older image of the same shape and dtype: reading raises, or
    gives the new image, or - when the data stop after the first value of the last line of the last
    band - the new image with that value all along that line. *)
Theorem C104_killed_over : forall F (parse_float : text -> option F) e nf w0 w c0 c d code img hdr n k fuel,
  cube_wf c0 -> cube_of d c0 -> cube_wf c -> cube_of d c -> code_of_dtype d = Some code -> hdr <> Some img ->
  c_ny c0 = c_ny c -> c_nx c0 = c_nx c -> c_nb c0 = c_nb c ->
  write_envi_image_bytes e nf w0 c0 d img hdr (txt "bil") = (w, Ok tt) ->
  let files := fst (envi_writes e nf c d img hdr (txt "bil")) in
  (forall name bs, In (name, bs) files -> (length bs <= fuel)%nat) ->
  let r := read_envi_image_bytes F parse_float e fuel (killed_write w files n k) img hdr in
  (exists ex, r = Err ex /\ In ex [ValueError; KeyError]) \/ r = Ok (d, c) \/
  (n = 0%nat /\ (1 < c_nx c)%nat /\ (k / size_of d + c_nx c = c_ny c * c_nx c * c_nb c + 1)%nat /\
   exists c', r = Ok (d, c') /\ has_shape c' (c_ny c) (c_nx c) (c_nb c) /\
     forall l x b, (l < c_ny c)%nat -> (x < c_nx c)%nat -> (b < c_nb c)%nat ->
       cube_at c' l x b = cube_at c l (if Nat.eqb l (c_ny c - 1) && Nat.eqb b (c_nb c - 1) then 0 else x)%nat b).
Proof.
  intros F pf e nf w0 w c0 c d code img hdr n k fuel W0 T0 W T Hc Hh D1 D2 D3 Hold files Hfuel.
  pose proof (hw_ne img hdr Hh) as Hne. subst files. cbv zeta. rewrite (writes_ok e nf c d img hdr code _ Hc) in *. cbn [fst] in *.
  assert (Hk : exists kk, code_of_dtype d = Some kk) by eauto. pose proof (size_pos d Hk) as Hs. pose proof (interleave_typed d c Hk W T) as HT.
  set (vals := interleave_image (np_zero d) c (txt "bil")) in *. set (raw := tofile e d vals) in *.
  change (write_envi_header _) with (write_envi_header (map entry_item (bil_entries c code))) in *.
  set (ht := write_envi_header (map entry_item (bil_entries c code))) in *.
  assert (Hf : (length ht <= fuel)%nat) by (apply (Hfuel (header_written img hdr)); right; now left).
  assert (HW : w (header_written img hdr) = Some ht).
  { unfold write_envi_image_bytes in Hold. rewrite (writes_ok e nf c0 d img hdr code _ Hc) in Hold. unfold do_writes in Hold. cbn [fold_left fst snd] in Hold.
    injection Hold as <-. rewrite bfs_write_same, D1, D2, D3. reflexivity. }
  assert (HLr : length raw = (c_ny c * c_nx c * c_nb c * size_of d)%nat).
  { unfold raw. rewrite tofile_length by exact HT. unfold vals. now rewrite interleave_length. }
  destruct n as [|[|n]].
  - change (killed_write w _ 0 k) with (bfs_write w img (firstn k raw)).
    rewrite (read_own pf e fuel _ img hdr c code); [|rewrite bfs_write_other by exact Hne; exact HW|exact Hf].
    destruct (Nat.lt_ge_cases k (length raw)) as [L|L].
    2:{ right; left. apply own_data; auto. rewrite bfs_write_same, firstn_all2 by exact L. reflexivity. }
    assert (LK : length (firstn k raw) = k) by (rewrite firstn_length; lia).
    assert (Hm : (k / size_of d < c_ny c * c_nx c * c_nb c)%nat) by (apply Nat.div_lt_upper_bound; lia).
    destruct (Nat.eq_dec (k / size_of d + c_nx c) (c_ny c * c_nx c * c_nb c + 1)) as [Q|Q].
    2:{ left. exists ValueError. split; [|cbn; tauto].
        apply (after_header_short e _ img (c_nx c) (c_ny c) (c_nb c) code d (firstn k raw)); [now apply code_dtype_code|apply bfs_write_same| |]; rewrite LK; assumption. }
    right; right. split; [reflexivity|]. split; [lia|]. split; [exact Q|].
    destruct (construct_one (np_zero d) (fromfile e d (firstn k raw)) (c_nx c) (c_ny c) (c_nb c)) as (c' & E & Sh & At); [rewrite fromfile_length, LK; exact Hm|rewrite fromfile_length, LK; exact Q|].
    exists c'. split; [|split; [exact Sh|]].
    + unfold after_header, read_all_image_data_bytes. pose proof (code_read code) as R. rewrite (code_dtype_code d code Hc) in R. destruct R as (o & Eo & Do).
      rewrite Eo. cbn [bind]. rewrite Do, bfs_write_same. cbn [bind fst snd].
      replace ((Z.of_nat (c_nx c) <? 0) || (Z.of_nat (c_ny c) <? 0) || (Z.of_nat (c_nb c) <? 0)) with false by lia.
      rewrite !Nat2Z.id, E. reflexivity.
    + intros l x b Hl Hx Hb. rewrite (At l x b Hl Hx Hb).
      assert (G : forall j, (j < k / size_of d)%nat -> nth_error (fromfile e d (firstn k raw)) j = nth_error vals j).
      { intros j Hj. rewrite fromfile_nth by (rewrite LK; exact Hj). destruct (nth_error vals j) as [v|] eqn:Ev.
        2:{ apply nth_error_None in Ev. unfold vals in Ev. rewrite interleave_length in Ev by exact W. lia. }
        f_equal. replace (bytes_at (firstn k raw) (j * size_of d) (size_of d)) with (bytes_at raw (j * size_of d) (size_of d)).
        - unfold raw. rewrite (tofile_item e d vals j v HT Ev). apply decode_encode. rewrite Forall_forall in HT. apply HT. eapply nth_error_In; eauto.
        - unfold bytes_at. rewrite skipn_firstn_comm, firstn_firstn. f_equal. pose proof (Nat.div_mod k (size_of d)). pose proof (Nat.mul_le_mono_r (S j) (k / size_of d) (size_of d)). nia. }
      assert (AC : forall l x b, (l < c_ny c)%nat -> (x < c_nx c)%nat -> (b < c_nb c)%nat -> nth_error vals ((l * c_nb c + b) * c_nx c + x) = cube_at c l x b).
      { intros l' x' b' Hl' Hx' Hb'. destruct (wf_has_shape c W) as (_ & _ & _ & HS). destruct (proj2 (HS l' x' b')) as (v & Hv); [auto|].
        rewrite Hv. unfold vals. now apply interleave_nth. }
      assert (P1 : (l * c_nb c + b + 1 <= c_ny c * c_nb c)%nat) by nia.
      pose proof (Nat.mul_le_mono_r _ _ (c_nx c) P1) as P2.
      destruct (Nat.eqb_spec l (c_ny c - 1)) as [El|El]; cbn [andb]; [destruct (Nat.eqb_spec b (c_nb c - 1)) as [Eb|Eb]|]; cbn [andb].
      * rewrite <- AC by lia. rewrite Nat.add_0_r. apply G. nia.
      * rewrite <- AC by lia. apply G. assert (P3 : (l * c_nb c + b + 2 <= c_ny c * c_nb c)%nat) by nia. pose proof (Nat.mul_le_mono_r _ _ (c_nx c) P3). nia.
      * rewrite <- AC by lia. apply G. assert (P3 : (l * c_nb c + b + 2 <= c_ny c * c_nb c)%nat) by nia. pose proof (Nat.mul_le_mono_r _ _ (c_nx c) P3). nia.
  - change (killed_write w _ 1 k) with (bfs_write (bfs_write w img raw) (header_written img hdr) (firstn k ht)).
    destruct (Nat.lt_ge_cases k (length ht)) as [L|L].
    + left. exists KeyError. split; [apply (read_cut pf e fuel _ img hdr c code k); [apply bfs_write_same|exact L|exact Hf]|cbn; tauto].
    + right; left. rewrite firstn_all2 by exact L. rewrite (read_own pf e fuel _ img hdr c code); [|apply bfs_write_same|exact Hf].
      apply own_data; auto. rewrite bfs_write_other by congruence. apply bfs_write_same.
  - right; left. replace (killed_write w _ (S (S n)) k) with (bfs_write (bfs_write w img raw) (header_written img hdr) ht) by (destruct n; reflexivity).
    rewrite (read_own pf e fuel _ img hdr c code); [|apply bfs_write_same|exact Hf].
    apply own_data; auto. rewrite bfs_write_other by congruence. apply bfs_write_same.
Qed.
Print Assumptions C104_killed_over.

(** So "the old image, the new image or an exception" is false: here the old pixels are 7 8, the new
    ones 1 2, and the image read is 1 1. *)
Theorem C104_killed_over_refuted : exists w0 w c0 c c' n k,
  cube_wf c0 /\ cube_wf c /\ has_shape c 1 2 1 /\
  write_envi_image_bytes Little true w0 c0 UInt8 (txt "a.img") None (txt "bil") = (w, Ok tt) /\
  read_envi_image_bytes Z (fun _ => None) Little 1000
    (killed_write w (fst (envi_writes Little true c UInt8 (txt "a.img") None (txt "bil"))) n k) (txt "a.img") None = Ok (UInt8, c') /\
  c' <> c0 /\ c' <> c.
Proof.
  exists (fun _ => None). eexists. exists (mkCube 1 2 1 [[[VInt 7]; [VInt 8]]]), (mkCube 1 2 1 [[[VInt 1]; [VInt 2]]]), (mkCube 1 2 1 [[[VInt 1]; [VInt 1]]]), 0%nat, 1%nat.
  split; [split; [reflexivity|repeat constructor]|]. split; [split; [reflexivity|repeat constructor]|].
  split; [apply (wf_has_shape (mkCube 1 2 1 [[[VInt 1]; [VInt 2]]])); split; [reflexivity|repeat constructor]|].
  split; [reflexivity|]. split; [vm_compute; reflexivity|]. split; discriminate.
Qed.
Print Assumptions C104_killed_over_refuted.

(** Over an image of another shape, killed after the data and before the header: the new values are
    read in the old shape, and nothing is raised. *)
Theorem C104_other_shape_refuted : exists w0 w c0 c n k,
  has_shape c0 1 4 1 /\ has_shape c 2 2 1 /\
  write_envi_image_bytes Little true w0 c0 UInt8 (txt "a.img") None (txt "bil") = (w, Ok tt) /\
  read_envi_image_bytes Z (fun _ => None) Little 1000
    (killed_write w (fst (envi_writes Little true c UInt8 (txt "a.img") None (txt "bil"))) n k) (txt "a.img") None
  = Ok (UInt8, mkCube 1 4 1 [[[VInt 1]; [VInt 2]; [VInt 3]; [VInt 4]]]) /\
  cube_at c 1 0 0 = Some (VInt 3).
Proof.
  exists (fun _ => None). eexists. exists (mkCube 1 4 1 [[[VInt 7]; [VInt 8]; [VInt 9]; [VInt 6]]]), (mkCube 2 2 1 [[[VInt 1]; [VInt 2]]; [[VInt 3]; [VInt 4]]]), 0%nat, 4%nat.
  split; [apply (wf_has_shape (mkCube 1 4 1 [[[VInt 7]; [VInt 8]; [VInt 9]; [VInt 6]]])); split; [reflexivity|repeat constructor]|].
  split; [apply (wf_has_shape (mkCube 2 2 1 [[[VInt 1]; [VInt 2]]; [[VInt 3]; [VInt 4]]])); split; [reflexivity|repeat constructor]|].
  split; [reflexivity|]. split; [vm_compute; reflexivity|reflexivity].
Qed.
Print Assumptions C104_other_shape_refuted.

Example C104_ex : let c := mkCube 1 2 1 [[[VInt 258]; [VInt (-2)]]] in
  map fst (fst (envi_writes Big true c Int16 (txt "a.img") None (txt "bil"))) = [txt "a.img"; txt "a.img.hdr"] /\
  Forall (fun nb => (length (snd nb) <= 100)%nat) (fst (envi_writes Big true c Int16 (txt "a.img") None (txt "bil"))) /\
  py_slice (txt "a.img") 0 (-4) ++ txt ".hdr" <> txt "a.img".
Proof. split; [reflexivity|]. split; [repeat constructor; vm_compute; repeat constructor|discriminate]. Qed.
