(** Proofs for the byte-level ENVI properties C103 and C104. *)
From Verif Require Import M_Envi Spec_Envi P_EnviHeader P_EnviImage M_EnviBytes Spec_EnviBytes.
From Coq Require Import ZifyBool.
From Flocq Require Import IEEE754.Binary IEEE754.Bits.
Open Scope Z_scope.
Open Scope list_scope.

(* ------------------------------ bytes ----------------------------- *)

Lemma byte_range b : 0 <= Z.of_N (N_of_ascii b) < 256.
Proof. pose proof (N_ascii_bounded b). lia. Qed.

Lemma le_value_bytes n p : le_value (le_bytes n p) = p mod 256 ^ Z.of_nat n.
Proof.
  revert p; induction n as [|n IH]; intros p; cbn [le_bytes le_value]; [now rewrite Z.mod_1_r|].
  rewrite IH, N_ascii_embedding by (pose proof (Z.mod_pos_bound p 256); lia).
  rewrite Z2N.id by (pose proof (Z.mod_pos_bound p 256); lia).
  rewrite Nat2Z.inj_succ, Z.pow_succ_r by lia.
  rewrite (Z.rem_mul_r p 256 (256 ^ Z.of_nat n)) by lia. reflexivity.
Qed.
Lemma le_bytes_length n p : length (le_bytes n p) = n.
Proof. revert p; induction n as [|n IH]; intros p; cbn [le_bytes length]; auto. Qed.
Lemma le_value_range bs : 0 <= le_value bs < 256 ^ Z.of_nat (length bs).
Proof.
  induction bs as [|b bs IH]; cbn [le_value length]; [cbn; lia|].
  rewrite Nat2Z.inj_succ, Z.pow_succ_r by lia. pose proof (byte_range b). lia.
Qed.
Lemma le_value_app a b : le_value (a ++ b) = le_value a + 256 ^ Z.of_nat (length a) * le_value b.
Proof.
  induction a as [|x a IH]; [cbn [app le_value length]; change (256 ^ Z.of_nat 0) with 1; lia|].
  cbn [app le_value length]. rewrite IH, Nat2Z.inj_succ, Z.pow_succ_r by lia. ring.
Qed.

Lemma to_bytes_length e n p : length (to_bytes e n p) = n.
Proof. destruct e; cbn [to_bytes]; rewrite ?rev_length; apply le_bytes_length. Qed.
Lemma of_bytes_range e bs : 0 <= of_bytes e bs < 256 ^ Z.of_nat (length bs).
Proof. destruct e; cbn [of_bytes]; [apply le_value_range|]. rewrite <- (rev_length bs). apply le_value_range. Qed.
Lemma of_to_bytes e n p : of_bytes e (to_bytes e n p) = p mod 256 ^ Z.of_nat n.
Proof. destruct e; cbn [to_bytes of_bytes]; rewrite ?rev_involutive; apply le_value_bytes. Qed.

Lemma zsum_app a b : fold_right Z.add 0 (a ++ b) = fold_right Z.add 0 a + fold_right Z.add 0 b.
Proof. induction a as [|x a IH]; cbn [app fold_right]; [lia|]. rewrite IH. ring. Qed.
Lemma nat_byte b : Z.of_nat (nat_of_ascii b) = Z.of_N (N_of_ascii b).
Proof. unfold nat_of_ascii. lia. Qed.

Lemma unsigned_of_bytes e bs : unsigned e bs = of_bytes e bs.
Proof.
  unfold unsigned. destruct e; cbn [of_bytes weight].
  - (* little: split off the last byte *)
    induction bs as [|x bs IH] using rev_ind; [reflexivity|].
    rewrite app_length. cbn [length]. rewrite Nat.add_1_r, seq_S, map_app, zsum_app, le_value_app. cbn [map fold_right le_value Nat.add].
    rewrite app_nth2, Nat.sub_diag by lia. cbn [nth]. rewrite nat_byte.
    rewrite <- IH. rewrite (map_ext_in _ (fun k => Z.of_nat (nat_of_ascii (nth k bs "000"%char)) * 256 ^ Z.of_nat k)); [ring|].
    intros k Hk. apply in_seq in Hk. rewrite app_nth1 by lia. reflexivity.
  - induction bs as [|x bs IH]; [reflexivity|].
    cbn [rev]. rewrite le_value_app, rev_length, <- IH. cbn [le_value length seq map fold_right nth].
    rewrite nat_byte. replace (S (length bs) - 1 - 0)%nat with (length bs) by lia.
    rewrite <- seq_shift, map_map. rewrite (map_ext_in _ (fun k => Z.of_nat (nat_of_ascii (nth k bs "000"%char)) * 256 ^ Z.of_nat (length bs - 1 - k))); [ring|].
    intros k Hk. apply in_seq in Hk. cbn [nth]. replace (S (length bs) - 1 - S k)%nat with (length bs - 1 - k)%nat by lia. reflexivity.
Qed.

(* ------------------------------ floats ---------------------------- *)

Lemma b32_bits p : 0 <= p < 2 ^ 32 -> bits_of_b32 (b32_of_bits p) = p.
Proof. intros H. unfold bits_of_b32, b32_of_bits. apply bits_of_binary_float_of_bits. exact H. Qed.
Lemma b64_bits p : 0 <= p < 2 ^ 64 -> bits_of_b64 (b64_of_bits p) = p.
Proof. intros H. unfold bits_of_b64, b64_of_bits. apply bits_of_binary_float_of_bits. exact H. Qed.
Lemma b32_inj x y : bits_of_b32 x = bits_of_b32 y -> x = y.
Proof.
  intros H. rewrite <- (binary_float_of_bits_of_binary_float 23 8 eq_refl eq_refl eq_refl x), <- (binary_float_of_bits_of_binary_float 23 8 eq_refl eq_refl eq_refl y).
  unfold bits_of_b32 in H. now rewrite H.
Qed.
Lemma b64_inj x y : bits_of_b64 x = bits_of_b64 y -> x = y.
Proof.
  intros H. rewrite <- (binary_float_of_bits_of_binary_float 52 11 eq_refl eq_refl eq_refl x), <- (binary_float_of_bits_of_binary_float 52 11 eq_refl eq_refl eq_refl y).
  unfold bits_of_b64 in H. now rewrite H.
Qed.
Lemma b32_range x : 0 <= bits_of_b32 x < 2 ^ 32.
Proof. apply (bits_of_binary_float_range 23 8); reflexivity. Qed.
Lemma b64_range x : 0 <= bits_of_b64 x < 2 ^ 64.
Proof. apply (bits_of_binary_float_range 52 11); reflexivity. Qed.

(* ------------------------- elements as bytes ---------------------- *)

Lemma size_itemsize d : itemsize d = size_of d.
Proof. destruct d; reflexivity. Qed.
Lemma size_pos d : (exists code, code_of_dtype d = Some code) -> (0 < size_of d)%nat.
Proof. intros (c & H). destruct d; try discriminate H; cbn; lia. Qed.

Lemma decode_is_value e d bs : (exists code, code_of_dtype d = Some code) -> length bs = size_of d -> is_value e d (decode e d bs) bs.
Proof.
  intros (code & Hc) HL. split; [exact HL|]. pose proof (of_bytes_range e bs) as R. rewrite HL in R.
  destruct d; try discriminate Hc; cbn [decode]; rewrite ?unsigned_of_bytes; try reflexivity.
  - unfold as_signed. cbn [itemsize]. unfold half_range. cbn [size_of] in R |- *.
    change (8 * Z.of_nat 2 - 1) with 15. change (8 * Z.of_nat 2) with 16. change (256 ^ Z.of_nat 2) with (2 ^ 16) in R.
    change (2 ^ 15) with 32768. change (2 ^ 16) with 65536 in *. destruct (Z.ltb_spec (of_bytes e bs) 32768); lia.
  - unfold as_signed. cbn [itemsize]. unfold half_range. cbn [size_of] in R |- *.
    change (8 * Z.of_nat 4 - 1) with 31. change (8 * Z.of_nat 4) with 32. change (256 ^ Z.of_nat 4) with (2 ^ 32) in R.
    change (2 ^ 31) with 2147483648. change (2 ^ 32) with 4294967296 in *. destruct (Z.ltb_spec (of_bytes e bs) 2147483648); lia.
  - unfold as_signed. cbn [itemsize]. unfold half_range. cbn [size_of] in R |- *.
    change (8 * Z.of_nat 8 - 1) with 63. change (8 * Z.of_nat 8) with 64. change (256 ^ Z.of_nat 8) with (2 ^ 64) in R.
    change (2 ^ 63) with 9223372036854775808. change (2 ^ 64) with 18446744073709551616 in *. destruct (Z.ltb_spec (of_bytes e bs) 9223372036854775808); lia.
  - apply b32_bits. exact R.
  - apply b64_bits. exact R.
  - cbn [size_of] in HL. pose proof (of_bytes_range e (firstn 4 bs)) as R1. pose proof (of_bytes_range e (skipn 4 bs)) as R2.
    rewrite firstn_length, HL in R1. rewrite skipn_length, HL in R2.
    split; rewrite ?unsigned_of_bytes; apply b32_bits; [exact R1|exact R2].
Qed.

Lemma value_unique e d v1 v2 bs : is_value e d v1 bs -> is_value e d v2 bs -> v1 = v2.
Proof.
  intros [_ H1] [_ H2]. destruct d; destruct v1; try contradiction; destruct v2; try contradiction;
    try (f_equal; (apply b32_inj || apply b64_inj || idtac); intuition congruence).
  all: f_equal; destruct H1 as [A1 A2], H2 as [B1 B2];
    match type of A1 with - ?a <= _ < _ => let v := eval vm_compute in a in change a with v in * end; lia.
Qed.

Lemma encode_is_value e d v : of_dtype d v -> is_value e d v (encode e d v).
Proof.
  intros H. destruct d; destruct v as [z|x|x|x y|bs]; try contradiction; (split; [cbn [encode itemsize size_of]; rewrite ?app_length, ?to_bytes_length; reflexivity|]);
    cbn [encode itemsize of_dtype] in *; rewrite ?unsigned_of_bytes, ?of_to_bytes;
    unfold half_range in *; cbn [size_of] in *.
  1,2,4,6: symmetry; apply Z.mod_small; match goal with H : 0 <= _ < ?a |- 0 <= _ < ?b => change b with a end; exact H.
  1-3: split; [exact H|].
  - change (256 ^ Z.of_nat 2) with 65536. change (2 ^ (8 * Z.of_nat 2 - 1)) with 32768 in *. pose proof (Z.div_mod z 65536). pose proof (Z.mod_pos_bound z 65536). nia.
  - change (256 ^ Z.of_nat 4) with 4294967296. change (2 ^ (8 * Z.of_nat 4 - 1)) with 2147483648 in *. pose proof (Z.div_mod z 4294967296). pose proof (Z.mod_pos_bound z 4294967296). nia.
  - change (256 ^ Z.of_nat 8) with 18446744073709551616. change (2 ^ (8 * Z.of_nat 8 - 1)) with 9223372036854775808 in *. pose proof (Z.div_mod z 18446744073709551616). pose proof (Z.mod_pos_bound z 18446744073709551616). nia.
  - symmetry; apply Z.mod_small. apply b32_range.
  - symmetry; apply Z.mod_small. apply b64_range.
  - rewrite firstn_app, skipn_app, to_bytes_length, Nat.sub_diag. rewrite firstn_all2, skipn_all2 by (rewrite to_bytes_length; lia).
    cbn [firstn skipn app]. rewrite app_nil_r, ?unsigned_of_bytes, !of_to_bytes. split; symmetry; apply Z.mod_small; apply b32_range.
Qed.

Lemma of_dtype_code d v : of_dtype d v -> exists code, code_of_dtype d = Some code.
Proof. intros H. destruct d; destruct v; try contradiction; eexists; reflexivity. Qed.
Lemma decode_encode e d v : of_dtype d v -> decode e d (encode e d v) = v.
Proof.
  intros H. pose proof (encode_is_value e d v H) as E.
  exact (value_unique e d _ _ _ (decode_is_value e d _ (of_dtype_code d v H) (proj1 E)) E).
Qed.

Lemma zero_of_dtype d : (exists code, code_of_dtype d = Some code) -> of_dtype d (np_zero d).
Proof. intros (c & H). destruct d; try discriminate H; cbn [np_zero of_dtype]; try exact I; unfold half_range; cbn [size_of]; split; try reflexivity; discriminate. Qed.

(* ------------------------- lists of elements ---------------------- *)

Lemma flat_map_length_const {A B} (f : A -> list B) n l : (forall x, In x l -> length (f x) = n) -> length (flat_map f l) = (length l * n)%nat.
Proof.
  induction l as [|x l IH]; intros H; cbn [flat_map length]; [reflexivity|]. rewrite app_length, IH by (intros y Hy; apply H; now right).
  rewrite H by now left. lia.
Qed.
Lemma flat_map_item {A B} (f : A -> list B) n l k v : (forall x, In x l -> length (f x) = n) -> nth_error l k = Some v ->
  firstn n (skipn (k * n) (flat_map f l)) = f v.
Proof.
  revert k; induction l as [|x l IH]; intros [|k] H Hk; cbn [nth_error] in Hk; try discriminate; cbn [flat_map].
  - injection Hk as ->. cbn [Nat.mul skipn]. assert (E : length (f v) = n) by (apply H; now left).
    rewrite firstn_app, E, Nat.sub_diag. cbn [firstn]. rewrite app_nil_r. apply firstn_all2. lia.
  - assert (E : length (f x) = n) by (apply H; now left).
    rewrite skipn_app, skipn_all2 by (rewrite E; nia). rewrite E. replace (S k * n - n)%nat with (k * n)%nat by lia. cbn [app].
    apply IH; [intros y Hy; apply H; now right|exact Hk].
Qed.

Lemma encode_length e d v : of_dtype d v -> length (encode e d v) = size_of d.
Proof. intros H. exact (proj1 (encode_is_value e d v H)). Qed.

Lemma tofile_length e d vals : Forall (of_dtype d) vals -> length (tofile e d vals) = (length vals * size_of d)%nat.
Proof. intros H. rewrite Forall_forall in H. apply flat_map_length_const. intros x Hx. apply encode_length. auto. Qed.
Lemma tofile_item e d vals k v : Forall (of_dtype d) vals -> nth_error vals k = Some v ->
  bytes_at (tofile e d vals) (k * size_of d) (size_of d) = encode e d v.
Proof. intros H Hk. rewrite Forall_forall in H. unfold bytes_at, tofile. apply flat_map_item; [|exact Hk]. intros x Hx. apply encode_length. auto. Qed.

Lemma fromfile_length e d bs : length (fromfile e d bs) = (length bs / size_of d)%nat.
Proof. unfold fromfile. now rewrite map_length, seq_length, size_itemsize. Qed.
Lemma fromfile_nth e d bs k : (k < length bs / size_of d)%nat -> nth_error (fromfile e d bs) k = Some (decode e d (bytes_at bs (k * size_of d) (size_of d))).
Proof.
  intros H. unfold fromfile. rewrite size_itemsize. rewrite (map_nth_error _ k _ (d := k)); [reflexivity|].
  rewrite nth_error_nth' with (d := 0%nat) by (rewrite seq_length; exact H). now rewrite seq_nth.
Qed.
Lemma fromfile_tofile e d vals : Forall (of_dtype d) vals -> (exists code, code_of_dtype d = Some code) -> fromfile e d (tofile e d vals) = vals.
Proof.
  intros H Hc. pose proof (size_pos d Hc) as Hs. apply nth_error_ext. intros k.
  assert (L : (length (tofile e d vals) / size_of d = length vals)%nat) by (rewrite tofile_length by exact H; apply Nat.div_mul; lia).
  destruct (Nat.lt_ge_cases k (length vals)) as [Hk|Hk].
  - rewrite fromfile_nth by lia. destruct (nth_error vals k) as [v|] eqn:E; [|apply nth_error_None in E; lia].
    rewrite (tofile_item e d vals k v H E). f_equal. apply decode_encode. rewrite Forall_forall in H. apply H. eapply nth_error_In; eauto.
  - rewrite (proj2 (nth_error_None vals k) Hk). apply nth_error_None. rewrite fromfile_length. lia.
Qed.
Lemma fromfile_is_value e d bs k v : (exists code, code_of_dtype d = Some code) -> (k < length bs / size_of d)%nat ->
  nth_error (fromfile e d bs) k = Some v -> is_value e d v (bytes_at bs (k * size_of d) (size_of d)).
Proof.
  intros Hc Hk H. rewrite fromfile_nth in H by exact Hk. injection H as <-. apply decode_is_value; [exact Hc|].
  unfold bytes_at. rewrite firstn_length, skipn_length. pose proof (size_pos d Hc).
  pose proof (Nat.div_mod (length bs) (size_of d)). pose proof (Nat.mul_le_mono_r (S k) (length bs / size_of d) (size_of d)). nia.
Qed.

(* ------------------------------ codes ----------------------------- *)

Lemma code_written nf d : numpy_dtype_to_envi_dtype nf d = Ok (code_of_dtype d).
Proof. destruct nf, d; vm_compute; reflexivity. Qed.
Lemma code_read code : match dtype_of_code code with
  | Some d => exists o, envi_dtype_to_numpy_dtype code = Ok o /\ match o with Some d' => d' | None => Float64 end = d
  | None => envi_dtype_to_numpy_dtype code = Err KeyError
  end.
Proof.
  assert (K : dtype_of_code code = None -> envi_dtype_to_numpy_dtype code = Err KeyError).
  { intros H. destruct (envi_dtype_to_numpy_dtype code) as [o|x|] eqn:E.
    - apply str_code_cases in E. cbn [In] in E. exfalso.
      repeat (destruct E as [E|E]; [injection E as <- _; discriminate H|]). destruct E.
    - unfold envi_dtype_to_numpy_dtype in E. f_equal. revert E. generalize envi_dtypes_to_numpy. clear.
      intros tb E. induction tb as [|[k v] tb IH]; cbn [dict_get] in E; [congruence|]. destruct (text_eqb k _); [discriminate|auto].
    - exfalso. unfold envi_dtype_to_numpy_dtype in E. revert E. generalize envi_dtypes_to_numpy. clear.
      intros tb E. induction tb as [|[k v] tb IH]; cbn [dict_get] in E; [congruence|]. destruct (text_eqb k _); [discriminate|auto]. }
  destruct (dtype_of_code code) as [d|] eqn:E; [|now apply K].
  assert (C : In code [1;2;3;4;5;6;7;8;9;10;11;12;13;14;15]).
  { unfold dtype_of_code in E. destruct code as [|p|p]; try discriminate.
    do 4 (destruct p as [p|p|]; try discriminate E; try (vm_compute; tauto)). }
  cbn [In] in C. repeat (destruct C as [C|C]; [subst code; injection E as <-; eexists; split; [vm_compute; reflexivity|reflexivity]|]). destruct C.
Qed.
Lemma code_dtype_code d code : code_of_dtype d = Some code -> dtype_of_code code = Some d.
Proof. destruct d; intros H; try discriminate H; injection H as <-; reflexivity. Qed.
Lemma dtype_code_ok code d : dtype_of_code code = Some d -> exists k, code_of_dtype d = Some k.
Proof.
  intros H. pose proof (code_read code) as R. rewrite H in R. destruct R as (o & E & <-). apply str_code_cases in E. cbn [In] in E.
  repeat (destruct E as [E|E]; [injection E as _ <-; eexists; reflexivity|]). destruct E.
Qed.

(* ------------------------------ headers --------------------------- *)

Lemma ascii_only_text t : ascii_only t -> text_of_bytes t = Ok t.
Proof.
  intros H. unfold text_of_bytes. replace (forallb _ t) with true; [reflexivity|]. symmetry. apply forallb_forall. intros c Hc.
  specialize (H c Hc). unfold nat_of_ascii in H. lia.
Qed.

Lemma find_used w img hdr h : header_used w img hdr h ->
  match hdr with Some h => Some h | None => find_header_bytes w (read_envi_image_guesses img) end = Some h.
Proof.
  intros [->|[(-> & -> & H)|(-> & H0 & -> & H)]]; [reflexivity| |]; unfold find_header_bytes, read_envi_image_guesses; cbn [fold_left].
  - destruct (w (img ++ txt ".hdr")); congruence.
  - rewrite H0. destruct (w (py_slice img 0 (-4) ++ txt ".hdr")); congruence.
Qed.

Lemma combine_get {F} (pf : text -> option F) es vs e : NoDup (map entry_key es) -> Forall2 (reads_as pf) es vs -> In e es ->
  exists v, reads_as pf e v /\ dict_get (combine (map entry_key es) vs) (entry_key e) = Ok v.
Proof.
  intros HN HF. revert HN. induction HF as [|e0 v0 es vs H0 HF IH]; intros HN Hin; [destruct Hin|].
  cbn [map combine dict_get] in *. inversion HN as [|? ? N1 N2]; subst. destruct Hin as [->|Hin].
  - exists v0. rewrite text_eqb_refl. auto.
  - rewrite text_eqb_neq; [now apply IH|]. intros E. apply N1. rewrite E. now apply in_map.
Qed.

Definition after_header (e : endian) (w : bfs) (img : text) (nx ny nb code : Z) (il : text) : result (np_dtype * cube npval) :=
  dv <- read_all_image_data_bytes e w img code ;;
  if (nx <? 0) || (ny <? 0) || (nb <? 0) then Err ValueError
  else c <- construct_image_cube_from_raw_data (np_zero (fst dv)) (snd dv) (Z.to_nat nx) (Z.to_nat ny) (Z.to_nat nb) il ;;
       Ok (fst dv, c).

Lemma read_with_header {F} (pf : text -> option F) e fuel w img hdr h es vs nx ny nb code il :
  header_used w img hdr h -> w h = Some (write_envi_header (map entry_item es)) -> ascii_only (write_envi_header (map entry_item es)) ->
  Forall clean_entry es -> NoDup (map entry_key es) -> Forall2 (reads_as pf) es vs ->
  In (EInt (txt "samples") nx) es -> In (EInt (txt "lines") ny) es -> In (EInt (txt "bands") nb) es ->
  In (EInt (txt "data type") code) es -> In (EText (txt "interleave") il) es ->
  (length (write_envi_header (map entry_item es)) <= fuel)%nat ->
  read_envi_image_bytes F pf e fuel w img hdr = after_header e w img nx ny nb code il.
Proof.
  intros HU HW HA HC HN HR I1 I2 I3 I4 I5 Hf. unfold read_envi_image_bytes. rewrite (find_used w img hdr h HU), HW, (ascii_only_text _ HA). cbn [bind].
  rewrite (header_round_trip pf es vs fuel HC HN HR Hf). cbn [bind].
  assert (G : forall k z, int_key k -> In (EInt k z) es -> dict_get (combine (map entry_key es) vs) k = Ok (HInt z)).
  { intros k z Hk Hin. destruct (combine_get pf es vs _ HN HR Hin) as (v & Rv & Ev). cbn [entry_key] in Ev. rewrite Ev. inversion Rv; subst; [reflexivity|contradiction]. }
  rewrite (G _ nx) by (auto; unfold int_key; vm_compute; tauto). cbn [bind hval_int].
  rewrite (G _ ny) by (auto; unfold int_key; vm_compute; tauto). cbn [bind hval_int].
  rewrite (G _ nb) by (auto; unfold int_key; vm_compute; tauto). cbn [bind hval_int].
  rewrite (G _ code) by (auto; unfold int_key; vm_compute; tauto). cbn [bind hval_int].
  destruct (combine_get pf es vs _ HN HR I5) as (v & Rv & Ev). cbn [entry_key] in Ev. rewrite Ev. inversion Rv; subst. reflexivity.
Qed.

Lemma after_header_complete e w img nx ny nb code d data :
  dtype_of_code code = Some d -> w img = Some data -> (ny * nx * nb * size_of d <= length data)%nat ->
  exists c, after_header e w img (Z.of_nat nx) (Z.of_nat ny) (Z.of_nat nb) code (txt "bil") = Ok (d, c) /\ has_shape c ny nx nb /\
    construct_image_cube_from_raw_data (np_zero d) (fromfile e d data) nx ny nb (txt "bil") = Ok c /\
    forall l x b, (l < ny)%nat -> (x < nx)%nat -> (b < nb)%nat ->
      exists v, cube_at c l x b = Some v /\ nth_error (fromfile e d data) ((l * nb + b) * nx + x) = Some v /\
        is_value e d v (bytes_at data (bil_position nx nb (size_of d) l x b) (size_of d)).
Proof.
  intros Hd Hw HL. pose proof (dtype_code_ok code d Hd) as Hk. pose proof (size_pos d Hk) as Hs.
  assert (HQ : (ny * nx * nb <= length data / size_of d)%nat) by (apply Nat.div_le_lower_bound; lia).
  destruct (construct_complete (np_zero d) (fromfile e d data) nx ny nb) as (c & E & Sh & At); [rewrite fromfile_length; exact HQ|].
  exists c. split; [|split; [exact Sh|split; [exact E|]]].
  - unfold after_header, read_all_image_data_bytes. pose proof (code_read code) as R. rewrite Hd in R. destruct R as (o & Eo & Do).
    rewrite Eo. cbn [bind]. rewrite Do, Hw. cbn [bind fst snd].
    replace ((Z.of_nat nx <? 0) || (Z.of_nat ny <? 0) || (Z.of_nat nb <? 0)) with false by lia.
    rewrite !Nat2Z.id, E. reflexivity.
  - intros l x b Hl Hx Hb. rewrite (At l x b Hl Hx Hb).
    assert (P : ((l * nb + b) * nx + x < ny * nx * nb)%nat).
    { assert ((l * nb + b + 1 <= ny * nb)%nat) by nia. pose proof (Nat.mul_le_mono_r (l * nb + b + 1) (ny * nb) nx). nia. }
    destruct (nth_error (fromfile e d data) ((l * nb + b) * nx + x)) as [v|] eqn:Ev; [|apply nth_error_None in Ev; rewrite fromfile_length in Ev; lia].
    exists v. split; [reflexivity|]. split; [reflexivity|]. apply fromfile_is_value; auto. lia.
Qed.

Lemma after_header_short e w img nx ny nb code d data :
  dtype_of_code code = Some d -> w img = Some data ->
  (length data / size_of d < ny * nx * nb)%nat -> (length data / size_of d + nx <> ny * nx * nb + 1)%nat ->
  after_header e w img (Z.of_nat nx) (Z.of_nat ny) (Z.of_nat nb) code (txt "bil") = Err ValueError.
Proof.
  intros Hd Hw H1 H2. unfold after_header, read_all_image_data_bytes. pose proof (code_read code) as R. rewrite Hd in R. destruct R as (o & Eo & Do).
  rewrite Eo. cbn [bind]. rewrite Do, Hw. cbn [bind fst snd].
  replace ((Z.of_nat nx <? 0) || (Z.of_nat ny <? 0) || (Z.of_nat nb <? 0)) with false by lia.
  rewrite !Nat2Z.id, truncated_exact; [reflexivity| |]; rewrite fromfile_length; assumption.
Qed.

(* ------------------------------ writing --------------------------- *)

Lemma bfs_write_same w n f : bfs_write w n f n = Some f.
Proof. unfold bfs_write. now rewrite text_eqb_refl. Qed.
Lemma bfs_write_other w n f m : m <> n -> bfs_write w n f m = w m.
Proof. intros H. unfold bfs_write. now rewrite text_eqb_neq. Qed.

Lemma interleave_typed d c : (exists code, code_of_dtype d = Some code) -> cube_wf c -> cube_of d c -> Forall (of_dtype d) (interleave_image (np_zero d) c (txt "bil")).
Proof.
  intros Hc W T. rewrite interleave_bil by exact W. apply Forall_forall. intros v Hv. apply in_concat in Hv. destruct Hv as (line & Hl & Hv).
  apply in_map_iff in Hl. destruct Hl as ([l b] & <- & Hp). apply pairs_In in Hp. unfold line_of in Hv. cbn [fst snd] in Hv.
  apply In_nth_error in Hv. destruct Hv as (x & Hx). assert (Hxl : (x < c_nx c)%nat) by (rewrite <- (get_line_band_length (np_zero d) c l b W) by lia; apply nth_error_Some; congruence).
  rewrite get_line_band_nth in Hx by (auto; lia). exact (T _ _ _ _ Hx).
Qed.
Lemma cube_at_bounds {A} (c : cube A) l x b v : cube_wf c -> cube_at c l x b = Some v -> (l < c_ny c /\ x < c_nx c /\ b < c_nb c)%nat.
Proof.
  intros [W1 W2] H. unfold cube_at in H. destruct (nth_error (c_data c) l) as [r|] eqn:E1; [|discriminate].
  destruct (nth_error r x) as [p|] eqn:E2; [|discriminate]. rewrite Forall_forall in W2. destruct (W2 r (nth_error_In _ _ E1)) as [L1 L2].
  rewrite Forall_forall in L2. pose proof (L2 p (nth_error_In _ _ E2)) as L3.
  assert (l < length (c_data c))%nat by (apply nth_error_Some; congruence). assert (x < length r)%nat by (apply nth_error_Some; congruence).
  assert (b < length p)%nat by (apply nth_error_Some; congruence). lia.
Qed.
Lemma interleave_nth {A} (z : A) c l x b v : cube_wf c -> cube_at c l x b = Some v ->
  nth_error (interleave_image z c (txt "bil")) ((l * c_nb c + b) * c_nx c + x) = Some v.
Proof.
  intros W H. destruct (cube_at_bounds c l x b v W H) as (Hl & Hx & Hb).
  destruct (construct_complete z (interleave_image z c (txt "bil")) (c_nx c) (c_ny c) (c_nb c)) as (c' & E & _ & At); [rewrite interleave_length by exact W; lia|].
  rewrite bil_round_trip in E by exact W. injection E as <-. rewrite <- (At l x b Hl Hx Hb). exact H.
Qed.

Lemma encode_zero e d : (exists code, code_of_dtype d = Some code) -> encode e d (np_zero d) = repeat "000"%char (size_of d).
Proof. intros (c & H). destruct e, d; try discriminate H; vm_compute; reflexivity. Qed.
Lemma flat_map_repeat {A B} (f : A -> list B) x n y m : f x = repeat y m -> flat_map f (repeat x n) = repeat y (n * m).
Proof. intros H. induction n as [|n IH]; cbn [repeat flat_map Nat.mul]; [reflexivity|]. rewrite IH, H, repeat_app. reflexivity. Qed.

Lemma hw_ne img hdr : (hdr <> Some img) -> header_written img hdr <> img.
Proof.
  intros H. unfold header_written. destruct hdr as [h|]; [congruence|]. intros E. apply (f_equal (@length _)) in E.
  rewrite app_length in E. cbn in E. lia.
Qed.

Lemma header_ascii {A} (c : cube A) code : ascii_only (write_envi_header (map entry_item (bil_entries c code))).
Proof.
  assert (Z1 : forall z, ascii_only (str_of_Z z)).
  { intros z ch Hin. destruct (Nat.lt_ge_cases (nat_of_ascii ch) 128) as [L|L]; [exact L|exfalso]. revert Hin. apply str_of_Z_notin.
    - unfold is_digit. unfold nat_of_ascii in L. destruct ch as [[] [] [] [] [] [] [] []]; try reflexivity; vm_compute in L; lia.
    - intros ->. vm_compute in L. lia. }
  assert (L1 : forall l, forallb (fun ch => Nat.ltb (nat_of_ascii ch) 128) l = true -> ascii_only l).
  { intros l H ch Hin. rewrite forallb_forall in H. specialize (H ch Hin). now apply Nat.ltb_lt. }
  assert (AP : forall a b, ascii_only a -> ascii_only b -> ascii_only (a ++ b)).
  { intros a b Ha Hb ch Hin. apply in_app_or in Hin. destruct Hin; auto. }
  unfold bil_entries, write_envi_header. cbn [map entry_item flat_map fst snd str_of_wval].
  repeat (apply AP); try apply Z1; apply L1; vm_compute; reflexivity.
Qed.

Lemma writes_ok e nf c d img hdr code il : code_of_dtype d = Some code ->
  envi_writes e nf c d img hdr il =
  ([(img, tofile e d (interleave_image (np_zero d) c il));
    (header_written img hdr, write_envi_header
      [ (txt "samples", WInt (Z.of_nat (c_nx c))); (txt "lines", WInt (Z.of_nat (c_ny c)));
        (txt "bands", WInt (Z.of_nat (c_nb c))); (txt "data type", WInt code);
        (txt "interleave", WStr il) ])], Ok tt).
Proof. intros H. unfold envi_writes. rewrite code_written, H. reflexivity. Qed.

(* ------------------------- headers cut short ---------------------- *)

Lemma step_no_newline c t : ~ In ch_nl (c :: t) -> header_step (c :: t) = Ok ([], [], t).
Proof.
  intros H. unfold header_step.
  assert (N : find_z ch_nl (c :: t) = -1) by (now apply find_z_notin).
  assert (B : is_bracket_entry (c :: t) = false).
  { unfold is_bracket_entry. rewrite N. destruct (find_z "{"%char (c :: t) =? -1) eqn:E; [reflexivity|].
    pose proof (find_z_range "{"%char (c :: t)) as [R|R]; [|discriminate]. destruct (Z.ltb_spec (find_z "{"%char (c :: t)) (-1)); [lia|reflexivity]. }
  assert (Q : is_equals_entry (c :: t) = false).
  { unfold is_equals_entry. rewrite N. pose proof (find_z_range "="%char (c :: t)) as [R|R]; [|discriminate].
    destruct (find_z "="%char (c :: t) =? -1); [reflexivity|]. destruct (_ && _); [reflexivity|].
    destruct (Z.ltb_spec (find_z "="%char (c :: t)) (-1)); [lia|reflexivity]. }
  rewrite B, Q. unfold entry_has_newline. rewrite N. cbn [Z.eqb negb]. change 1 with (Z.of_nat 1). now rewrite slice_from_skipn.
Qed.
Lemma loop_no_newline t d fuel : ~ In ch_nl t -> (length t <= fuel)%nat -> header_loop fuel t (blank :: d) = Ok (blank :: d).
Proof.
  revert fuel; induction t as [|c t IH]; intros fuel H Hf; [destruct fuel; reflexivity|]. destruct fuel as [|fuel]; [cbn in Hf; lia|].
  rewrite (loop_step fuel (c :: t) _ [] [] t); [|discriminate|now apply step_no_newline]. rewrite store_blank. apply IH; [|cbn in Hf; lia].
  intros K. apply H. now right.
Qed.
Lemma loop_lines_rest es d fuel rest : Forall clean_entry es -> NoDup (map fst d ++ map entry_key es) -> ~ In ch_nl rest ->
  (length (flat_map entry_line es ++ rest) <= fuel)%nat ->
  header_loop fuel (flat_map entry_line es ++ rest) (blank :: d) = Ok (blank :: d ++ map (fun e => (entry_key e, entry_text e)) es).
Proof.
  revert d fuel; induction es as [|e es IH]; intros d fuel HF HN HR Hf; cbn [flat_map app map].
  - rewrite app_nil_r. apply loop_no_newline; assumption.
  - inversion HF as [|? ? He HF']; subst. cbn [flat_map] in Hf. rewrite !app_length in Hf.
    destruct (loop_entry e d fuel (flat_map entry_line es ++ rest) He) as (f' & H1 & H2).
    + intros K. cbn [map] in HN. apply NoDup_remove_2 in HN. apply HN. apply in_or_app. now left.
    + lia.
    + rewrite <- app_assoc, H2. rewrite IH; auto.
      * now rewrite <- app_assoc.
      * rewrite map_app. cbn [map fst]. rewrite <- app_assoc. exact HN.
      * rewrite app_length. lia.
Qed.

Lemma firstn_lines es : forall k, (k < length (flat_map entry_line es))%nat ->
  exists es1 e es2 j, es = es1 ++ e :: es2 /\ (j < length (entry_line e))%nat /\
    firstn k (flat_map entry_line es) = flat_map entry_line es1 ++ firstn j (entry_line e).
Proof.
  induction es as [|e es IH]; intros k Hk; cbn [flat_map] in *; [cbn in Hk; lia|]. rewrite app_length in Hk.
  destruct (Nat.lt_ge_cases k (length (entry_line e))) as [L|L].
  - exists [], e, es, k. split; [reflexivity|]. split; [exact L|]. rewrite firstn_app. replace (k - length (entry_line e))%nat with 0%nat by lia. cbn [firstn flat_map app]. now rewrite app_nil_r.
  - destruct (IH (k - length (entry_line e))%nat) as (es1 & e' & es2 & j & -> & Hj & E); [lia|].
    exists (e :: es1), e', es2, j. split; [reflexivity|]. split; [exact Hj|]. rewrite firstn_app, E, firstn_all2 by lia. cbn [flat_map]. now rewrite app_assoc.
Qed.

Lemma part_no_nl e j : clean_entry e -> one_line e -> (j < length (entry_line e))%nat -> ~ In ch_nl (firstn j (entry_line e)).
Proof.
  intros [Hk He] Ho Hj Hin. set (body := fst (entry_item e) ++ txt " = " ++ str_of_wval (snd (entry_item e))).
  assert (E : entry_line e = body ++ [ch_nl]) by (unfold entry_line, body; rewrite <- !app_assoc; reflexivity).
  rewrite E in Hin, Hj. rewrite app_length in Hj. cbn [length] in Hj. rewrite firstn_app in Hin. replace (j - length body)%nat with 0%nat in Hin by lia. cbn [firstn] in Hin. rewrite app_nil_r in Hin.
  assert (Hb : In ch_nl body) by (rewrite <- (firstn_skipn j body); apply in_or_app; now left).
  unfold body in Hb. apply in_app_or in Hb. destruct Hb as [Hb|Hb].
  - apply (ck_nl _ Hk). destruct e; exact Hb.
  - apply in_app_or in Hb. destruct Hb as [Hb|Hb]; [cbn in Hb; repeat (destruct Hb as [Hb|Hb]; [discriminate|]); exact Hb|].
    destruct e as [k z|k v|k b|k t]; try contradiction; cbn [entry_item snd str_of_wval] in Hb.
    + revert Hb. apply str_of_Z_notin; [reflexivity|discriminate].
    + destruct He as (Hv & _). exact (cv_nl _ Hv Hb).
Qed.

Lemma NoDup_app_left {A} (a b : list A) : NoDup (a ++ b) -> NoDup a.
Proof. induction a as [|x a IH]; intros H; [constructor|]. inversion H as [|? ? N1 N2]; subst. constructor; [|auto]. intros K. apply N1. apply in_or_app. now left. Qed.
Lemma cut_header {F} (pf : text -> option F) es vs k fuel :
  Forall clean_entry es -> Forall one_line es -> NoDup (map entry_key es) -> Forall2 (reads_as pf) es vs -> es <> [] ->
  (k < length (write_envi_header (map entry_item es)))%nat -> (length (write_envi_header (map entry_item es)) <= fuel)%nat ->
  exists n, (n < length es)%nat /\
    read_envi_header F pf fuel (firstn k (write_envi_header (map entry_item es))) = Ok (combine (map entry_key (firstn n es)) (firstn n vs)).
Proof.
  intros HC HO HN HR Hne Hk Hf. rewrite write_header_lines in *.
  assert (CR : ~ In ch_cr (txt "ENVI" ++ ch_nl :: flat_map entry_line es)).
  { intros H. apply in_app_or in H. destruct H as [H|[H|H]]; [cbn in H; repeat (destruct H as [H|H]; [discriminate|]); exact H|discriminate|].
    apply in_flat_map in H. destruct H as (e & He & H). rewrite Forall_forall in HC. exact (entry_line_no_cr e (HC e He) H). }
  unfold read_envi_header. rewrite cleanup_id.
  2:{ intros H. apply CR. rewrite <- (firstn_skipn k (txt "ENVI" ++ _)). apply in_or_app. now left. }
  destruct (Nat.lt_ge_cases k 5) as [L|L].
  - exists 0%nat. split; [destruct es; [congruence|cbn; lia]|].
    assert (E : firstn k (txt "ENVI" ++ ch_nl :: flat_map entry_line es) = firstn k (txt "ENVI")).
    { rewrite firstn_app. replace (k - length (txt "ENVI"))%nat with 0%nat by (cbn; lia). cbn [firstn]. apply app_nil_r. }
    rewrite E. assert (F1 : (4 <= fuel)%nat) by (rewrite app_length in Hf; cbn in Hf; lia).
    do 4 (destruct fuel as [|fuel]; [lia|]). do 5 (destruct k as [|k]; [destruct fuel; vm_compute; reflexivity|]). lia.
  - assert (Hk2 : (k - 5 < length (flat_map entry_line es))%nat) by (rewrite app_length in Hk; cbn in Hk; lia).
    destruct (firstn_lines es (k - 5) Hk2) as (es1 & e & es2 & j & -> & Hj & E).
    assert (E2 : firstn k (txt "ENVI" ++ ch_nl :: flat_map entry_line (es1 ++ e :: es2)) = txt "ENVI" ++ ch_nl :: (flat_map entry_line es1 ++ firstn j (entry_line e))).
    { rewrite <- E. replace k with (5 + (k - 5))%nat at 1 by lia. reflexivity. }
    assert (L2 : (length (flat_map entry_line es1 ++ firstn j (entry_line e)) < fuel)%nat).
    { rewrite <- E, firstn_length. rewrite app_length in Hf. cbn [length] in Hf. cbn in Hf. lia. }
    rewrite E2. clear E2 E. destruct fuel as [|fuel]; [lia|].
    rewrite (loop_step fuel _ [] [] [] (flat_map entry_line es1 ++ firstn j (entry_line e))); [|discriminate|].
    2:{ apply step_skip_line; cbn; intros H; repeat (destruct H as [H|H]; [discriminate|]); destruct H. }
    change (store_entry [] [] []) with (blank :: @nil (text * text)).
    apply Forall_app in HC. destruct HC as [HC1 HC2]. inversion HC2 as [|? ? HCe _]; subst. apply Forall_app in HO. destruct HO as [_ HO2]. inversion HO2 as [|? ? HOe _]; subst.
    rewrite map_app in HN. pose proof (NoDup_app_left _ _ HN) as HN1.
    rewrite loop_lines_rest; auto; [|apply part_no_nl; auto|lia].
    exists (length es1). split; [rewrite app_length; cbn; lia|].
    rewrite firstn_app, Nat.sub_diag, firstn_all. cbn [firstn]. rewrite app_nil_r.
    cbn [bind app]. unfold blank. cbn [dict_del]. rewrite text_eqb_refl.
    apply Forall2_app_inv_l in HR. destruct HR as (vs1 & vs2 & HR1 & HR2 & ->).
    pose proof (Py.Forall2_length _ _ _ HR1) as LL. rewrite LL, firstn_app, Nat.sub_diag, firstn_all. cbn [firstn]. rewrite app_nil_r.
    clear - HC1 HR1. induction HR1 as [|e v es vs Hev HR IH]; cbn [map mapM combine]; auto.
    inversion HC1 as [|? ? He HF']; subst. rewrite (convert_entry_reads pf e v) by assumption. cbn [bind]. rewrite IH by assumption. reflexivity.
Qed.

Lemma header_text nx ny nb code : write_envi_header
      [ (txt "samples", WInt nx); (txt "lines", WInt ny); (txt "bands", WInt nb); (txt "data type", WInt code);
        (txt "interleave", WStr (txt "bil")) ] =
  txt "ENVI" ++ [ch_nl] ++ txt "samples = " ++ str_of_Z nx ++ [ch_nl] ++ txt "lines = " ++ str_of_Z ny ++ [ch_nl] ++
  txt "bands = " ++ str_of_Z nb ++ [ch_nl] ++ txt "data type = " ++ str_of_Z code ++ [ch_nl] ++ txt "interleave = bil" ++ [ch_nl].
Proof. unfold write_envi_header. cbn [flat_map fst snd str_of_wval]. rewrite <- !app_assoc, app_nil_r. reflexivity. Qed.

Lemma read_own {A F} (pf : text -> option F) e fuel w img hdr (c : cube A) code :
  w (header_written img hdr) = Some (write_envi_header (map entry_item (bil_entries c code))) ->
  (length (write_envi_header (map entry_item (bil_entries c code))) <= fuel)%nat ->
  read_envi_image_bytes F pf e fuel w img hdr = after_header e w img (Z.of_nat (c_nx c)) (Z.of_nat (c_ny c)) (Z.of_nat (c_nb c)) code (txt "bil").
Proof.
  intros HH Hf. eapply (read_with_header pf e fuel w img hdr (header_written img hdr) (bil_entries c code)).
  - unfold header_used, header_written in *. destruct hdr as [h|]; [now left|]. right; left. split; [reflexivity|]. split; [reflexivity|]. rewrite HH. discriminate.
  - exact HH.
  - apply header_ascii.
  - apply bil_entries_clean.
  - apply bil_entries_nodup.
  - apply bil_entries_read.
  - now left.
  - now right; left.
  - now right; right; left.
  - now right; right; right; left.
  - now right; right; right; right; left.
  - exact Hf.
Qed.
Lemma own_data e w img c d code : cube_wf c -> cube_of d c -> code_of_dtype d = Some code ->
  w img = Some (tofile e d (interleave_image (np_zero d) c (txt "bil"))) ->
  after_header e w img (Z.of_nat (c_nx c)) (Z.of_nat (c_ny c)) (Z.of_nat (c_nb c)) code (txt "bil") = Ok (d, c).
Proof.
  intros W T Hc Hw. unfold after_header, read_all_image_data_bytes. pose proof (code_read code) as R. rewrite (code_dtype_code d code Hc) in R. destruct R as (o & Eo & Do).
  rewrite Eo. cbn [bind]. rewrite Do, Hw. cbn [bind fst snd].
  replace ((Z.of_nat (c_nx c) <? 0) || (Z.of_nat (c_ny c) <? 0) || (Z.of_nat (c_nb c) <? 0)) with false by lia.
  rewrite !Nat2Z.id, fromfile_tofile, bil_round_trip by eauto using interleave_typed. reflexivity.
Qed.

Lemma header_used_written w img hdr : w (header_written img hdr) <> None -> header_used w img hdr (header_written img hdr).
Proof. intros H. unfold header_used, header_written in *. destruct hdr as [h|]; [now left|]. right; left. auto. Qed.

Lemma read_cut {A F} (pf : text -> option F) e fuel w img hdr (c : cube A) code k :
  w (header_written img hdr) = Some (firstn k (write_envi_header (map entry_item (bil_entries c code)))) ->
  (k < length (write_envi_header (map entry_item (bil_entries c code))))%nat ->
  (length (write_envi_header (map entry_item (bil_entries c code))) <= fuel)%nat ->
  read_envi_image_bytes F pf e fuel w img hdr = Err KeyError.
Proof.
  intros HW Hk Hf. unfold read_envi_image_bytes. rewrite (find_used w img hdr (header_written img hdr)) by (apply header_used_written; rewrite HW; discriminate).
  rewrite HW, ascii_only_text.
  2:{ intros ch Hin. apply (header_ascii c code). rewrite <- (firstn_skipn k). apply in_or_app. now left. }
  cbn [bind].
  assert (HO : Forall one_line (bil_entries c code)) by repeat constructor. assert (HE : bil_entries c code <> []) by discriminate.
  destruct (cut_header pf _ _ k fuel (bil_entries_clean c code) HO (bil_entries_nodup c code) (bil_entries_read pf c code) HE Hk Hf) as (n & Hn & E).
  rewrite E. cbn [bind]. clear E. unfold bil_entries in *. cbn [length] in Hn.
  do 5 (destruct n as [|n]; [cbn [firstn map entry_key combine]; reflexivity|]). lia.
Qed.
