(** C43 (navigation interpolation) and C44 (headings across north) *)
From Verif Require Import RAux M_NavFiles Spec_NavFiles M_Nav Spec_Nav P_Nav Prop_NavFiles.
Open Scope R_scope.
Open Scope list_scope.

Lemma channel_key_name c ch : channel_key c ch = column_name c ch.
Proof. destruct c, ch; reflexivity. Qed.

(* ============================== C43 =============================== *)

(** For at least two records with strictly increasing times, every channel of both
    navigation classes, and every query (number, vector or matrix): if all query times
    lie in the recorded span the answer has the shape of the query and each element
    is the value of the curve through the records; otherwise the answer is None. *)
Theorem C43_channels : forall c ch nav times col q,
  dict_get nav (txt "gps_time") = Ok times -> dict_get nav (column_name c ch) = Ok col ->
  increasing times -> (2 <= length times)%nat -> length col = length times -> rectangular q ->
  (Forall (in_span times) (elements q) ->
     exists r, get_channel c ch nav q = Ok (Some r) /\ pointwise (value_at times col) q r) /\
  (~ Forall (in_span times) (elements q) -> get_channel c ch nav q = Ok None).
Proof.
  intros c ch nav times col q Ht Hc Hi H2 Hl Hq.
  assert (Hne : times <> []) by (destruct times; [cbn in H2; lia|discriminate]).
  unfold get_channel, column_native. rewrite channel_key_name.
  pose proof (format_flat q) as Hf. destruct (format_input_array q) as [flat d] eqn:Ef. cbn in Hf. subst flat.
  destruct (in_range_ok nav times (elements q) Ht Hne) as [I1 I2]. split; intros H.
  - rewrite (I1 H), Ht, Hc. cbn [bind].
    destruct (interp_all times col (elements q) Hi H2 Hl H) as (ys & -> & F). cbn [bind].
    destruct (format_round (value_at times col) q (elements q) d ys Hq Ef F) as (r & Er & P).
    exists r. split; auto.
  - rewrite (I2 H). reflexivity.
Qed.
Print Assumptions C43_channels.

(** The value on the curve is unique, is the recorded one at a record time, and lies
    between the two neighbouring records otherwise. *)
Theorem C43_curve : forall times col t v,
  increasing times -> on_curve times col t v ->
  (forall w, on_curve times col t w -> w = v) /\
  (forall i x, nth_error times i = Some t -> nth_error col i = Some x -> v = x) /\
  (forall i t0 t1 v0 v1, nth_error times i = Some t0 -> nth_error times (S i) = Some t1 ->
     nth_error col i = Some v0 -> nth_error col (S i) = Some v1 -> t0 <= t <= t1 ->
     Rmin v0 v1 <= v <= Rmax v0 v1).
Proof.
  intros times col t v Hi H. split; [|split].
  - intros w Hw. eapply on_curve_unique; eauto.
  - intros i x Ht Hx. eapply on_curve_unique; eauto. apply (at_record _ _ _ _ i); auto.
  - intros i t0 t1 v0 v1 A0 A1 B0 B1 Ht.
    pose proof (Hi i (S i) t0 t1 ltac:(lia) A0 A1) as L.
    assert (E : v = v0 + (v1 - v0) * ((t - t0) / (t1 - t0))).
    { eapply on_curve_unique; [exact Hi|exact H|].
      destruct (Req_EM_T t t0) as [->|N0].
      { replace ((t0 - t0) / (t1 - t0)) with 0 by (field; lra).
        apply (at_record _ _ _ _ i); [assumption|]. rewrite Rmult_0_r, Rplus_0_r. assumption. }
      destruct (Req_EM_T t t1) as [->|N1].
      { replace ((t1 - t0) / (t1 - t0)) with 1 by (field; lra).
        apply (at_record _ _ _ _ (S i)); [assumption|]. replace (v0 + (v1 - v0) * 1) with v1 by ring. assumption. }
      apply (between _ _ _ _ i t0 t1 v0 v1); auto; lra. }
    rewrite E. apply convex_between. split.
    + apply Rmult_le_pos; [lra|]. left. apply Rinv_0_lt_compat. lra.
    + apply Rmult_le_reg_r with (t1 - t0); [lra|]. unfold Rdiv. rewrite Rmult_assoc, Rinv_l by lra. lra.
Qed.
Print Assumptions C43_curve.

(** get_nav_records: per query time, a dictionary with the same keys as the nav data
    (in the same order) that holds the interpolated value of every column. *)
Theorem C43_records : forall nav times q,
  dict_get nav (txt "gps_time") = Ok times -> increasing times -> (2 <= length times)%nat ->
  Forall (fun kv => length (snd kv) = length times) nav -> rectangular q ->
  (Forall (in_span times) (elements q) ->
     exists r, get_nav_records nav q = Ok (Some r) /\
       pointwise (fun t rec => Forall2 (fun kv kv' => fst kv' = fst kv /\ value_at times (snd kv) t (snd kv')) nav rec) q r) /\
  (~ Forall (in_span times) (elements q) -> get_nav_records nav q = Ok None).
Proof.
  intros nav times q Ht Hi H2 Hl Hq.
  assert (Hne : times <> []) by (destruct times; [cbn in H2; lia|discriminate]).
  unfold get_nav_records.
  pose proof (format_flat q) as Hf. destruct (format_input_array q) as [flat d] eqn:Ef. cbn in Hf. subst flat.
  split; intros H.
  - destruct (records_ok nav times (elements q) Ht Hi H2 Hl H) as (recs & -> & F). cbn [bind].
    destruct (format_round _ q (elements q) d recs Hq Ef F) as (r & Er & P).
    exists r. split; auto.
  - unfold records_native. rewrite (proj2 (in_range_ok nav times (elements q) Ht Hne) H). reflexivity.
Qed.
Print Assumptions C43_records.

(** A table with a single record answers NaN at its own time (0/0), and an empty table
    raises IndexError for every query. *)
Theorem C43_single_record_refuted : forall c ch nav t v,
  dict_get nav (txt "gps_time") = Ok [t] -> dict_get nav (column_name c ch) = Ok [v] ->
  get_channel c ch nav (Num (Fin t)) = Ok (Some (Num NonFinite)).
Proof.
  intros c ch nav t v Ht Hc. unfold get_channel, column_native. rewrite channel_key_name. cbn [format_input_array].
  assert (S1 : gps_times_in_range nav [Fin t] = Ok true).
  { apply (in_range_ok nav [t] [Fin t] Ht); [discriminate|].
    repeat constructor. exists t, t, t. cbn. repeat split; lra. }
  rewrite S1, Ht, Hc. cbn [bind mapM].
  assert (S2 : interp_at [t] [v] (Fin t) = Ok NonFinite).
  { unfold interp_at. unfold searchsorted. cbn [length bisect]. cbn [Nat.ltb Nat.leb Nat.sub Nat.div Nat.add].
    rewrite Rltb_false by (cbn; lra). cbn. unfold linear_interp, fdiv. rewrite Reqb_true by lra. reflexivity. }
  rewrite S2. reflexivity.
Qed.
Print Assumptions C43_single_record_refuted.

Theorem C43_empty_table_raises : forall c ch nav q,
  dict_get nav (txt "gps_time") = Ok [] -> get_channel c ch nav q = Err IndexError.
Proof.
  intros c ch nav q Ht. unfold get_channel, column_native. destruct (format_input_array q) as [flat d].
  rewrite (in_range_empty nav flat Ht). reflexivity.
Qed.
Print Assumptions C43_empty_table_raises.

(** From the file to the answer: an EO file whose lines are either complete or fail in
    their first field, with increasing times and at least two complete lines, answers
    at the time of a line with that line's values. *)
Definition eo_column (ch : channel) : nat :=
  match ch with WorldXs => 1 | WorldYs => 2 | Alts => 3 | Rolls => 4 | Pitches => 5 | Headings => 6 end.

Theorem C43_eo_file : forall (to_float : text -> option R) content,
  (forall line, In line (file_lines content) ->
     length (eo_values to_float line) = 9%nat \/ eo_values to_float line = []) ->
  let recs := filter (fun r => negb (Nat.eqb (length r) 0)) (map (eo_values to_float) (file_lines content)) in
  (2 <= length recs)%nat ->
  (forall i j r s, (i < j)%nat -> nth_error recs i = Some r -> nth_error recs j = Some s -> nth 0 r 0 < nth 0 s 0) ->
  forall ch i r, nth_error recs i = Some r ->
    get_channel ApplanixEO ch (eo_nav_data to_float content) (Num (Fin (nth 0 r 0)))
    = Ok (Some (Num (Fin (nth (eo_column ch) r 0)))).
Proof.
  intros to_float content Hl recs H2 Hinc ch i r Hr.
  destruct (C45_aligned R to_float content Hl) as [_ HA]. fold recs in HA.
  destruct (C45_columns_exact R to_float content) as [H9 _].
  assert (R9 : forall k s, nth_error recs k = Some s -> length s = 9%nat).
  { intros k s Hs. apply nth_error_In in Hs. unfold recs in Hs. apply filter_In in Hs as [Hs Hn].
    apply in_map_iff in Hs as (l & <- & Hin). destruct (Hl l Hin) as [E|E]; [exact E|]. rewrite E in Hn. discriminate. }
  assert (G : forall j k s, (j < 9)%nat -> nth_error recs k = Some s ->
     nth_error (nth j (eo_load to_float content) []) k = Some (nth j s 0)).
  { intros j k s Hj Hs. destruct (HA j Hj) as [_ E]. rewrite (E k s Hs). apply nth_error_nth'.
    rewrite (R9 k s Hs). exact Hj. }
  assert (HL : forall j, (j < 9)%nat -> length (nth j (eo_load to_float content) []) = length recs)
    by (intros j Hj; apply (HA j Hj)).
  assert (D : forall j, (j < 9)%nat ->
    dict_get (eo_nav_data to_float content) (nth j eo_keys []) = Ok (nth j (eo_load to_float content) [])).
  { unfold eo_nav_data. destruct (eo_load to_float content) as [|c0 [|c1 [|c2 [|c3 [|c4 [|c5 [|c6 [|c7 [|c8 [|c9 cs]]]]]]]]]];
      try discriminate H9.
    intros j Hj. do 9 (destruct j as [|j]; [reflexivity|]). lia. }
  set (times := nth 0 (eo_load to_float content) []) in *.
  assert (Hi : increasing times).
  { intros a b x y Lab Ha Hb.
    assert (Lb : (b < length recs)%nat) by (rewrite <- (HL 0%nat ltac:(lia)); apply nth_error_Some; fold times; congruence).
    destruct (nth_error recs a) as [ra|] eqn:Ea; [|apply nth_error_None in Ea; lia].
    destruct (nth_error recs b) as [rb|] eqn:Eb; [|apply nth_error_None in Eb; lia].
    pose proof (G 0%nat a ra ltac:(lia) Ea). pose proof (G 0%nat b rb ltac:(lia) Eb). fold times in H, H0.
    specialize (Hinc a b ra rb Lab Ea Eb). congruence. }
  assert (Hcol : (eo_column ch < 9)%nat) by (destruct ch; cbn; lia).
  assert (Hkey : channel_key ApplanixEO ch = nth (eo_column ch) eo_keys []) by (destruct ch; reflexivity).
  assert (Hlt : length times = length recs) by (apply (HL 0%nat); lia).
  destruct (C43_channels ApplanixEO ch (eo_nav_data to_float content) times (nth (eo_column ch) (eo_load to_float content) [])
             (Num (Fin (nth 0 r 0)))) as [C _].
  - apply (D 0%nat). lia.
  - rewrite <- channel_key_name, Hkey. apply D. exact Hcol.
  - exact Hi.
  - lia.
  - rewrite (HL _ Hcol). symmetry. exact Hlt.
  - exact I.
  - assert (Hri : (i < length recs)%nat) by (apply nth_error_Some; congruence).
    destruct C as (ans & Ea & P).
    + constructor; [|constructor].
      exists (nth 0 r 0), (nth 0 times 0), (nth (length times - 1) times 0). split; [reflexivity|].
      split; [apply nth_error_nth'; lia|]. split; [apply nth_error_nth'; lia|].
      pose proof (G 0%nat i r ltac:(lia) Hr) as Gi. fold times in Gi. split.
      * apply (increasing_le times 0 i); auto; [lia|]. apply nth_error_nth'; lia.
      * apply (increasing_le times i (length times - 1)); auto; [lia|]. apply nth_error_nth'; lia.
    + inversion P as [x y Pxy| |]; subst. destruct Pxy as (x' & y' & E1 & -> & Oc).
      injection E1 as E1. subst x'. rewrite Ea. repeat f_equal.
      destruct (C43_curve _ _ _ _ Hi Oc) as (_ & At & _). apply (At i).
      * apply (G 0%nat i r); [lia|exact Hr].
      * apply G; assumption.
Qed.
Print Assumptions C43_eo_file.

(** The nine columns under their names, in the order of the file *)
Theorem C43_eo_columns : forall (to_float : text -> option R) content j name,
  nth_error ["gps_time"; "easting"; "northing"; "height"; "omega"; "phi"; "kappa"; "lat"; "lon"]%string j = Some name ->
  exists col, nth_error (eo_load to_float content) j = Some col /\ dict_get (eo_nav_data to_float content) (txt name) = Ok col.
Proof.
  intros tf content j name H. destruct (C45_columns_exact R tf content) as [H9 _].
  unfold eo_nav_data. destruct (eo_load tf content) as [|c0 [|c1 [|c2 [|c3 [|c4 [|c5 [|c6 [|c7 [|c8 [|c9 cs]]]]]]]]]];
    try discriminate H9.
  do 9 (destruct j as [|j]; [injection H as <-; eexists; split; reflexivity|]). destruct j; discriminate.
Qed.
Print Assumptions C43_eo_columns.

Definition ex_nav : nav_data :=
  [(txt "gps_time", [0; 10; 30]); (txt "x", [1; 2; 4]); (txt "azimuth", [350; 355; 5])].
Example C43_ex :
  increasing [0; 10; 30] /\
  get_channel ApplanixSBET WorldXs ex_nav (Mat 2 [[Fin 0; Fin 20]; [Fin 30; Fin 10]])
  = Ok (Some (Mat 2 [[Fin 1; Fin 3]; [Fin 4; Fin 2]])) /\
  get_channel ApplanixSBET WorldXs ex_nav (Vec [Fin 5; Fin 31]) = Ok None.
Proof.
  assert (Hi : increasing [0; 10; 30]).
  { intros i j a b L Ha Hb. do 3 (destruct i as [|i]; [do 3 (destruct j as [|j]; [cbn in *; try lia; injection Ha as <-; injection Hb as <-; lra|]); destruct j; discriminate|]). destruct i; discriminate. }
  split; [exact Hi|].
  pose proof (C43_channels ApplanixSBET WorldXs ex_nav [0; 10; 30] [1; 2; 4]) as C.
  assert (Sp : forall x, 0 <= x <= 30 -> in_span [0; 10; 30] (Fin x)) by (intros x Hx; exists x, 0, 30; cbn; repeat split; auto; lra).
  split.
  - destruct (C (Mat 2 [[Fin 0; Fin 20]; [Fin 30; Fin 10]]) eq_refl eq_refl Hi ltac:(cbn; lia) eq_refl) as [C1 _].
    { repeat constructor. }
    destruct C1 as (r & -> & P). { repeat constructor; apply Sp; lra. }
    inversion P as [| |nx rows rows' P2]; subst. repeat f_equal.
    inversion P2 as [|? row1 ? rest R1 P3]; subst. inversion P3 as [|? row2 ? rest2 R2 P4]; subst. inversion P4; subst.
    inversion R1 as [|? v1 ? w1 V1 P5]; subst. inversion P5 as [|? v2 ? w2 V2 P6]; subst. inversion P6; subst.
    inversion R2 as [|? v3 ? w3 V3 P7]; subst. inversion P7 as [|? v4 ? w4 V4 P8]; subst. inversion P8; subst.
    assert (U : forall t v w, value_at [0; 10; 30] [1; 2; 4] (Fin t) v -> on_curve [0; 10; 30] [1; 2; 4] t w -> v = Fin w).
    { intros t v w (x & y & E1 & -> & O1) O2. injection E1 as <-. f_equal. eapply on_curve_unique; eauto. }
    rewrite (U 0 v1 1 V1) by (apply (at_record _ _ _ _ 0); reflexivity).
    rewrite (U 20 v2 3 V2) by (apply (between _ _ _ _ 1 10 30 2 4); cbn; auto; try lra).
    rewrite (U 30 v3 4 V3) by (apply (at_record _ _ _ _ 2); reflexivity).
    rewrite (U 10 v4 2 V4) by (apply (at_record _ _ _ _ 1); reflexivity).
    reflexivity.
  - destruct (C (Vec [Fin 5; Fin 31]) eq_refl eq_refl Hi ltac:(cbn; lia) eq_refl I) as [_ C2].
    apply C2. intros F. inversion F as [|? ? _ F2]; subst. inversion F2 as [|? ? (x & a & b & E & Ha & Hb & Hx) _]; subst.
    injection E as <-. cbn in Hb. injection Hb as <-. lra.
Qed.

(* ============================== C44 =============================== *)

(** For two successive headings h0, h1 of a circle with full turn T (both in [0,T)),
    and a time strictly between their records, the answer lies on the shorter arc
    exactly when the two numbers differ by at most half a turn. *)
Theorem C44_shorter_arc_iff : forall c nav times heads i T t0 t1 h0 h1 t,
  dict_get nav (txt "gps_time") = Ok times -> dict_get nav (column_name c Headings) = Ok heads ->
  increasing times -> length heads = length times ->
  nth_error times i = Some t0 -> nth_error times (S i) = Some t1 ->
  nth_error heads i = Some h0 -> nth_error heads (S i) = Some h1 ->
  0 <= h0 < T -> 0 <= h1 < T -> t0 < t < t1 ->
  exists h, get_channel c Headings nav (Num (Fin t)) = Ok (Some (Num (Fin h))) /\
    (on_shorter_arc T h0 h1 h <-> Rabs (h1 - h0) <= T / 2).
Proof.
  intros c nav times heads i T t0 t1 h0 h1 t Ht Hh Hi Hl A0 A1 B0 B1 Hh0 Hh1 Htt.
  assert (L1 : (S i < length times)%nat) by (apply nth_error_Some; congruence).
  destruct (C43_channels c Headings nav times heads (Num (Fin t)) Ht Hh Hi ltac:(lia) Hl I) as [C _].
  destruct C as (r & E & P).
  { repeat constructor. exists t, (nth 0 times 0), (nth (length times - 1) times 0).
    assert (N0 : nth_error times 0 = Some (nth 0 times 0)) by (apply nth_error_nth'; lia).
    assert (N1 : nth_error times (length times - 1) = Some (nth (length times - 1) times 0)) by (apply nth_error_nth'; lia).
    repeat split; auto.
    - pose proof (increasing_le times 0 i _ t0 Hi ltac:(lia) N0 A0). lra.
    - pose proof (increasing_le times (S i) (length times - 1) t1 _ Hi ltac:(lia) A1 N1). lra. }
  inversion P as [x y Pxy| |]; subst. destruct Pxy as (x' & y' & E1 & -> & Oc). injection E1 as <-.
  exists y'. split; [exact E|].
  assert (Ey : y' = h0 + (h1 - h0) * ((t - t0) / (t1 - t0))).
  { eapply on_curve_unique; [exact Hi|exact Oc|]. apply (between _ _ _ _ i t0 t1 h0 h1); auto. }
  pose proof (frac_01 t t0 t1 Htt) as Fr. rewrite Ey. split.
  - intros A. destruct (Rle_dec (Rabs (h1 - h0)) (T / 2)) as [L|L]; [exact L|exfalso].
    revert A. apply arc_long; try lra. split; [lra|]. unfold Rabs. destruct (Rcase_abs (h1 - h0)); lra.
  - intros L. apply arc_direct; auto; lra.
Qed.
Print Assumptions C44_shorter_arc_iff.

(** From 359 to 1 degrees the heading half-way is 180, on the far side. *)
Theorem C44_shorter_arc_refuted :
  let nav := [(txt "gps_time", [0; 10]); (txt "kappa", [359; 1])] in
  get_channel ApplanixEO Headings nav (Num (Fin 5)) = Ok (Some (Num (Fin 180))) /\
  ~ on_shorter_arc 360 359 1 180.
Proof.
  intros nav.
  assert (Hi : increasing [0; 10]).
  { intros i j a b L Ha Hb. destruct i as [|[|i]]; destruct j as [|[|j]]; cbn in *; try lia; try (destruct i; discriminate); try (destruct j; discriminate).
    injection Ha as <-. injection Hb as <-. lra. }
  destruct (C44_shorter_arc_iff ApplanixEO nav [0; 10] [359; 1] 0 360 0 10 359 1 5) as (h & E & A); auto; try lra.
  assert (Hh : h = 180).
  { destruct (C43_channels ApplanixEO Headings nav [0; 10] [359; 1] (Num (Fin 5)) eq_refl eq_refl Hi ltac:(cbn; lia) eq_refl I) as [C _].
    destruct C as (r & E2 & P). { repeat constructor. exists 5, 0, 10. cbn. repeat split; lra. }
    rewrite E in E2. injection E2 as <-. inversion P as [x y Pxy| |]; subst.
    destruct Pxy as (x' & y' & E1 & E3 & Oc). injection E1 as <-. injection E3 as ->.
    eapply on_curve_unique; [exact Hi|exact Oc|]. apply (between _ _ _ _ 0 0 10 359 1); auto; lra. }
  subst h. split; [exact E|]. rewrite A. unfold Rabs. destruct (Rcase_abs (1 - 359)); lra.
Qed.
Print Assumptions C44_shorter_arc_refuted.

Example C44_ex : on_shorter_arc 360 350 10 355 /\ ~ on_shorter_arc 360 350 10 180 /\ 0 <= 350 < 360.
Proof.
  split; [|split; [|lra]].
  - exists 20, (-1)%Z, 0%Z, (1/4). rewrite Rabs_right by lra. cbn. repeat split; lra.
  - replace 180 with (350 + (10 - 350) * (1/2)) by lra. apply arc_long; try lra.
    unfold Rabs. destruct (Rcase_abs (10 - 350)); lra.
Qed.
