(** C46, C47 (UTC and GPS time), C48, C49 (Micasense capture position and time) *)
From Verif Require Import RAux Text M_Time Spec_Time P_Time.
Open Scope R_scope.
Open Scope list_scope.

(** A process whose local time zone is UTC *)
Definition utc_zone : Z -> Z := fun _ => 0%Z.

(* ============================== C46 =============================== *)

(** From 1980 on the conversion gives the elapsed seconds since the GPS epoch plus the
    leap seconds inserted since then. *)
Theorem C46_exact_from_1980 : forall t, IZR year_1980_unix <= t ->
  utc_timestamp_to_gps_timestamp utc_zone t = Ok (gps_seconds t).
Proof.
  intros t H. unfold utc_zone. rewrite utc_to_gps_const, Rplus_0_r, leap_offset_after by exact H. reflexivity.
Qed.
Print Assumptions C46_exact_from_1980.

Theorem C46_epoch : utc_timestamp_to_gps_timestamp utc_zone (IZR gps_epoch_unix) = Ok 0.
Proof.
  rewrite C46_exact_from_1980 by (unfold year_1980_unix, gps_epoch_unix; lra).
  unfold gps_seconds. rewrite leaps_until_0 by (unfold gps_epoch_unix; lra). f_equal. lra.
Qed.
Print Assumptions C46_epoch.

Theorem C46_strictly_increasing : forall s t g h, IZR year_1980_unix <= s -> s < t ->
  utc_timestamp_to_gps_timestamp utc_zone s = Ok g -> utc_timestamp_to_gps_timestamp utc_zone t = Ok h -> g < h.
Proof.
  intros s t g h Hs Hst E F. rewrite C46_exact_from_1980 in E by exact Hs. rewrite C46_exact_from_1980 in F by lra.
  injection E as <-. injection F as <-. unfold gps_seconds.
  pose proof (leaps_until_mono s t ltac:(lra)) as M. apply IZR_le in M. lra.
Qed.
Print Assumptions C46_strictly_increasing.

(** Converting there and back from 1980 on: exact, except at the instants that lie
    before a leap second by no more than the offset then in force. *)
Theorem C46_round_trip_iff : forall t, IZR year_1980_unix <= t ->
  exists g u, utc_timestamp_to_gps_timestamp utc_zone t = Ok g /\
    gps_timestamp_to_utc_timestamp utc_zone g = Ok u /\
    (u = t <-> ~ exists l, In l leap_instants /\ t < IZR l <= t + IZR (leaps_until t)).
Proof.
  intros t H. eexists _, _. split; [apply C46_exact_from_1980; exact H|].
  unfold utc_zone at 1. split; [apply gps_to_utc_const|].
  pose proof (leaps_until_bounds t) as [B _]. apply IZR_le in B.
  unfold gps_seconds.
  replace (t - IZR gps_epoch_unix + IZR (leaps_until t) + IZR gps_epoch_unix + IZR 0) with (t + IZR (leaps_until t)) by lra.
  rewrite leap_offset_after by lra. rewrite <- leaps_until_eq by lra. split.
  - intros E. apply eq_IZR. lra.
  - intros E. rewrite <- E. lra.
Qed.
Print Assumptions C46_round_trip_iff.

(** The other way round: a GPS time comes back unless a leap second lies in the stretch
    of the offset before it. *)
Theorem C46_gps_round_trip_iff : forall g, IZR year_1980_unix + 18 <= g + IZR gps_epoch_unix ->
  let u0 := g + IZR gps_epoch_unix in
  exists u h, gps_timestamp_to_utc_timestamp utc_zone g = Ok u /\ utc_timestamp_to_gps_timestamp utc_zone u = Ok h /\
    (h = g <-> ~ exists l, In l leap_instants /\ u0 - IZR (leaps_until u0) < IZR l <= u0).
Proof.
  intros g H u0. eexists _, _. split; [unfold utc_zone; apply gps_to_utc_const|].
  pose proof (leaps_until_bounds u0) as [B1 B2]. apply IZR_le in B1, B2.
  replace (g + IZR gps_epoch_unix + IZR 0) with u0 by (unfold u0; lra).
  rewrite leap_offset_after by (unfold u0; lra).
  split; [apply C46_exact_from_1980; unfold u0 in *; lra|].
  fold u0. unfold gps_seconds. rewrite <- leaps_until_eq by lra. split.
  - intros E. apply eq_IZR. unfold u0 in *. lra.
  - intros E. rewrite E. unfold u0. lra.
Qed.
Print Assumptions C46_gps_round_trip_iff.

(** Half a second before the first leap second the round trip is wrong by a second. *)
Theorem C46_round_trip_refuted :
  exists t g u, utc_timestamp_to_gps_timestamp utc_zone t = Ok g /\
    gps_timestamp_to_utc_timestamp utc_zone g = Ok u /\ u <> t.
Proof.
  destruct (C46_round_trip_iff (394329600 - /2)) as (g & u & E & F & I); [unfold year_1980_unix; lra|].
  exists (394329600 - /2), g, u. split; [exact E|]. split; [exact F|]. rewrite I. intros N. apply N.
  exists 394329600%Z. split; [right; left; reflexivity|].
  assert (L : (1 <= leaps_until (394329600 - / 2))%Z).
  { apply (leaps_until_1 _ 362793600%Z); [left; reflexivity|lra]. }
  apply IZR_le in L. lra.
Qed.
Print Assumptions C46_round_trip_refuted.

(** Before 1980 the latest offset, 18 s, is applied, so that the conversion is not
    increasing. *)
Theorem C46_before_1980 : forall t, t < IZR year_1980_unix ->
  utc_timestamp_to_gps_timestamp utc_zone t = Ok (t - IZR gps_epoch_unix + 18).
Proof.
  intros t H. unfold utc_zone. rewrite utc_to_gps_const, Rplus_0_r, leap_offset_before by exact H. reflexivity.
Qed.
Print Assumptions C46_before_1980.

Theorem C46_increasing_refuted :
  ~ (forall s t g h, s < t -> utc_timestamp_to_gps_timestamp utc_zone s = Ok g ->
       utc_timestamp_to_gps_timestamp utc_zone t = Ok h -> g < h).
Proof.
  intros A. specialize (A (IZR year_1980_unix - 1) (IZR year_1980_unix) _ _ ltac:(lra)
    (C46_before_1980 (IZR year_1980_unix - 1) ltac:(lra)) (C46_exact_from_1980 (IZR year_1980_unix) ltac:(lra))).
  unfold gps_seconds in A. rewrite leaps_until_0 in A by (unfold year_1980_unix; lra). lra.
Qed.
Print Assumptions C46_increasing_refuted.

(** In a process of another time zone, c seconds east of UTC, every leap second is
    applied c seconds early; a zone whose offset differed between 1970 and 1980 (London)
    shifts every GPS time. *)
Theorem C46_other_zone : forall c t, IZR year_1980_unix <= t + IZR c ->
  utc_timestamp_to_gps_timestamp (fun _ => c) t = Ok (t - IZR gps_epoch_unix + IZR (leaps_until (t + IZR c))).
Proof. intros c t H. rewrite utc_to_gps_const, leap_offset_after by exact H. reflexivity. Qed.
Print Assumptions C46_other_zone.

Theorem C46_other_zone_refuted :
  exists c t, IZR year_1980_unix <= t /\
    utc_timestamp_to_gps_timestamp (fun _ => c) t <> utc_timestamp_to_gps_timestamp utc_zone t.
Proof.
  exists (-18000)%Z, 362793600. split; [unfold year_1980_unix; lra|].
  rewrite C46_other_zone by (unfold year_1980_unix; lra). rewrite C46_exact_from_1980 by (unfold year_1980_unix; lra).
  intros E. injection E as E. unfold gps_seconds in E.
  rewrite leaps_until_0 in E by lra.
  assert (L : (1 <= leaps_until 362793600)%Z).
  { apply (leaps_until_1 _ 362793600%Z); [left; reflexivity|lra]. }
  apply IZR_le in L. lra.
Qed.
Print Assumptions C46_other_zone_refuted.

Theorem C46_zone_of_1970_shifts : forall zone t, zone (naive_seconds 1970 1 1 0 0 0) = 3600%Z ->
  (forall n, (0 < n)%Z -> zone n = 0%Z) -> IZR year_1980_unix <= t ->
  utc_timestamp_to_gps_timestamp zone t = Ok (gps_seconds t - 3600).
Proof.
  intros zone t H0 H1 Ht.
  assert (El : leapseconds zone = leapseconds (fun _ => 0%Z)).
  { unfold leapseconds, date_timestamp, naive_timestamp. rewrite !H1 by (vm_compute; reflexivity). reflexivity. }
  assert (Eg : gps_epoch zone = gps_epoch (fun _ => 0%Z)).
  { unfold gps_epoch, date_timestamp, naive_timestamp. rewrite H1 by (vm_compute; reflexivity). reflexivity. }
  assert (Eu : unix_epoch zone = (-3600)%Z).
  { unfold unix_epoch, date_timestamp, naive_timestamp. rewrite H0. reflexivity. }
  assert (Eo : forall x, get_leapseconds zone x = get_leapseconds (fun _ => 0%Z) x) by (intros x; unfold get_leapseconds; rewrite El; reflexivity).
  unfold utc_timestamp_to_gps_timestamp, get_gps_leapsecond_offset. rewrite !Eo, !get_leapseconds_const. cbn [bind].
  rewrite Eg, Eu, gps_epoch_const. f_equal. unfold gps_seconds.
  rewrite minus_IZR, !Rplus_0_r, (leap_offset_after t) by exact Ht.
  rewrite leap_offset_after by (unfold year_1980_unix, gps_epoch_unix; lra).
  rewrite (leaps_until_0 (IZR gps_epoch_unix - 0)) by (unfold gps_epoch_unix; lra).
  rewrite Z.add_0_r, minus_IZR, plus_IZR. lra.
Qed.
Print Assumptions C46_zone_of_1970_shifts.

(** 2020-06-15T00:00:00Z *)
Example C46_ex : utc_timestamp_to_gps_timestamp utc_zone 1592179200 = Ok (1276214400 + 18).
Proof.
  rewrite C46_exact_from_1980 by (unfold year_1980_unix; lra). f_equal. unfold gps_seconds, gps_epoch_unix.
  replace (leaps_until 1592179200) with 18%Z; [lra|].
  symmetry. apply leaps_until_18. lra.
Qed.

(* ============================== C47 =============================== *)

(** Week and second of week are the unique ones with 0 <= second < 604800 that
    recompose to the GPS time, in every time zone. *)
Theorem C47_week_seconds : forall zone t g, utc_timestamp_to_gps_timestamp zone t = Ok g ->
  exists w s, utc_timestamp_to_gps_week_and_seconds zone t = Ok (w, s) /\
    0 <= s < 604800 /\ IZR w * 604800 + s = g /\
    forall w' s', 0 <= s' < 604800 -> IZR w' * 604800 + s' = g -> w' = w /\ s' = s.
Proof.
  intros zone t g E. destruct (week_seconds zone t g E) as (w & s & Ew & Hs & Eg).
  exists w, s. split; [exact Ew|]. split; [exact Hs|]. split; [auto|].
  intros w' s' Hs' E'. apply decomposition_unique; auto. congruence.
Qed.
Print Assumptions C47_week_seconds.

(** It is defined for every time. *)
Theorem C47_total : forall zone t, exists ws, utc_timestamp_to_gps_week_and_seconds zone t = Ok ws.
Proof.
  intros zone t.
  assert (G : forall x, exists z, get_leapseconds zone x = Ok z).
  { intros x. unfold get_leapseconds.
    assert (L : length (leapseconds zone) = 19%nat) by reflexivity.
    assert (B : forall fuel a lo hi, (lo <= hi <= length a)%nat -> (bisect_right_go fuel a x lo hi <= length a)%nat).
    { induction fuel as [|f IH]; intros a lo hi H; cbn [bisect_right_go]; [lia|].
      destruct (Nat.ltb_spec lo hi) as [Hlt|]; [|lia].
      assert ((lo + hi) / 2 < hi)%nat by (apply Nat.div_lt_upper_bound; lia).
      assert (lo <= (lo + hi) / 2)%nat by (apply Nat.div_le_lower_bound; lia).
      destruct (Rltb x _); apply IH; lia. }
    pose proof (B (S (length (map fst (leapseconds zone)))) (map fst (leapseconds zone)) 0%nat (length (map fst (leapseconds zone))) ltac:(lia)) as Bb.
    fold (bisect_right (map fst (leapseconds zone)) x) in Bb. rewrite map_length, L in Bb.
    destruct (bisect_right (map fst (leapseconds zone)) x) as [|k].
    - destruct (py_get_neg (leapseconds zone) (Z.of_nat 0 - 1)) as (p & _ & ->); [unfold zlen; rewrite L; lia|]. cbn. eauto.
    - destruct (py_get_nonneg (leapseconds zone) (Z.of_nat (S k) - 1)) as (p & _ & ->); [unfold zlen; rewrite L; lia|]. cbn. eauto. }
  unfold utc_timestamp_to_gps_week_and_seconds, utc_timestamp_to_gps_timestamp, get_gps_leapsecond_offset.
  destruct (G t) as (a & ->), (G (IZR (gps_epoch zone))) as (b & ->). cbn [bind]. eauto.
Qed.
Print Assumptions C47_total.

Example C47_ex : exists w s, utc_timestamp_to_gps_week_and_seconds utc_zone 1592179200 = Ok (w, s) /\ w = 2110%Z /\ s = 86418.
Proof.
  destruct (C47_week_seconds utc_zone 1592179200 _ C46_ex) as (w & s & E & _ & _ & U).
  exists w, s. split; [exact E|]. destruct (U 2110%Z 86418) as [A B]; [lra|lra|]. auto.
Qed.

(* ============================== C48 =============================== *)

(** Decoding of a latitude or longitude tag whose degrees and minutes have denominator
    1 (seconds may have any non-zero one): decimal degrees, negative for S and W. *)
Theorem C48_decode : forall d m s ref, snd d = 1%Z -> snd m = 1%Z -> snd s <> 0%Z ->
  (ref = txt "S" \/ ref = txt "W" -> dms_tag_to_dd [d; m; s] ref = Ok (- decimal_degrees d m s)) /\
  (ref <> txt "S" -> ref <> txt "W" -> dms_tag_to_dd [d; m; s] ref = Ok (decimal_degrees d m s)).
Proof.
  intros [d dd] [m md] [s sd] ref Hd Hm Hs. cbn [snd] in *. subst dd md.
  assert (D : decimal_degrees (d, 1%Z) (m, 1%Z) (s, sd) = IZR d + IZR m / 60 + IZR s / IZR sd / 3600)
    by (unfold decimal_degrees; cbn [fst snd]; lra).
  unfold dms_tag_to_dd. cbn [py_get py_index zlen length Z.of_nat nth_error bind fst snd].
  change (py_get [(d, 1%Z); (m, 1%Z); (s, sd)] 0) with (Ok (d, 1%Z)).
  change (py_get [(d, 1%Z); (m, 1%Z); (s, sd)] 1) with (Ok (m, 1%Z)).
  change (py_get [(d, 1%Z); (m, 1%Z); (s, sd)] 2) with (Ok (s, sd)). cbn [bind fst snd].
  rewrite (proj2 (Z.eqb_neq sd 0) Hs). split.
  - intros H. replace (text_eqb ref (txt "S") || text_eqb ref (txt "W"))%bool with true.
    + f_equal. rewrite D. lra.
    + destruct H as [->| ->]; reflexivity.
  - intros H1 H2. rewrite (text_eqb_neq _ _ H1), (text_eqb_neq _ _ H2). cbn [orb]. f_equal. rewrite D. lra.
Qed.
Print Assumptions C48_decode.

(** Exactly which tags decode correctly *)
Theorem C48_decode_iff : forall d m s ref, snd s <> 0%Z -> ref <> txt "S" -> ref <> txt "W" ->
  exists v, dms_tag_to_dd [d; m; s] ref = Ok v /\
    (v = decimal_degrees d m s <->
     IZR (fst d) + IZR (fst m) / 60 = IZR (fst d) / IZR (snd d) + IZR (fst m) / IZR (snd m) / 60).
Proof.
  intros [d dd] [m md] [s sd] ref Hs H1 H2. cbn [fst snd] in *. unfold dms_tag_to_dd.
  change (py_get [(d, dd); (m, md); (s, sd)] 0) with (Ok (d, dd)).
  change (py_get [(d, dd); (m, md); (s, sd)] 1) with (Ok (m, md)).
  change (py_get [(d, dd); (m, md); (s, sd)] 2) with (Ok (s, sd)). cbn [bind fst snd].
  rewrite (proj2 (Z.eqb_neq sd 0) Hs), (text_eqb_neq _ _ H1), (text_eqb_neq _ _ H2). cbn [orb].
  eexists. split; [reflexivity|]. unfold decimal_degrees. cbn [fst snd]. lra.
Qed.
Print Assumptions C48_decode_iff.

(** 43 degrees 3030/100 minutes decode to 93.5 instead of 43.505 degrees. *)
Theorem C48_decode_refuted :
  exists v, dms_tag_to_dd [(43, 1); (3030, 100); (0, 1)]%Z (txt "N") = Ok v /\
    v <> decimal_degrees (43, 1)%Z (3030, 100)%Z (0, 1)%Z.
Proof.
  destruct (C48_decode_iff (43, 1)%Z (3030, 100)%Z (0, 1)%Z (txt "N")) as (v & E & I); try discriminate.
  exists v. split; [exact E|]. rewrite I. cbn [fst snd]. lra.
Qed.
Print Assumptions C48_decode_refuted.

(** A zero seconds denominator (an absent value in EXIF) raises. *)
Theorem C48_zero_denominator_raises : forall d m s ref, dms_tag_to_dd [d; m; (s, 0%Z)] ref = Err ZeroDivisionError.
Proof. intros [d dd] [m md] s ref. reflexivity. Qed.
Print Assumptions C48_zero_denominator_raises.

Example C48_ex : dms_tag_to_dd [(43, 1); (7, 1); (363, 10)]%Z (txt "W") = Ok (- (43 + 7 / 60 + 36.3 / 3600)).
Proof.
  destruct (C48_decode (43, 1)%Z (7, 1)%Z (363, 10)%Z (txt "W") eq_refl eq_refl ltac:(discriminate)) as [C _].
  rewrite C by auto. f_equal. unfold decimal_degrees. cbn [fst snd]. lra.
Qed.

(* ============================== C49 =============================== *)

(** The sub-second tag is read as the decimal fraction it denotes exactly when its
    first digit is not zero or it is all zeros. *)
Theorem C49_subsecond_iff : forall ds, ds <> [] -> Forall is_digit_val ds ->
  exists f, subsec_fraction (map digit_char ds) = Ok f /\ 0 <= f < 1 /\
    (f = decimal_fraction ds <-> hd 0%Z ds <> 0%Z \/ Forall (fun d => d = 0%Z) ds).
Proof.
  intros ds Hne Hd. destruct (split_zeros ds) as (k & r & E & Hr). subst ds.
  apply Forall_app in Hd as [Hz Hd'].
  exists (decimal_fraction r). split.
  { apply subsec_split; auto. destruct k; [|lia]. destruct r; [|cbn; lia]. exfalso. apply Hne. reflexivity. }
  split; [apply decimal_fraction_bounds; exact Hd'|].
  rewrite decimal_fraction_zeros. destruct Hr as [->|(d & r' & -> & Hdn)].
  - split; intros _; [right|cbn; unfold Rdiv; lra].
    rewrite app_nil_r. apply Forall_forall. intros x Hx. apply repeat_spec in Hx. exact Hx.
  - pose proof (decimal_fraction_pos d r' Hd' Hdn) as P. destruct k as [|k].
    + cbn [pow repeat app hd]. split; [left; exact Hdn|intros _; field].
    + cbn [repeat app hd]. split.
      * intros Ev. exfalso.
        assert (1 < 10 ^ S k) by (apply Rlt_pow_R1; [lra|lia]).
        assert (decimal_fraction (d :: r') * 10 ^ S k = decimal_fraction (d :: r')) by (rewrite Ev at 1; field; lra).
        nra.
      * intros [H|H]; [congruence|]. exfalso. change (0%Z :: repeat 0%Z k ++ d :: r') with (repeat 0%Z (S k) ++ d :: r') in H.
        apply Forall_app in H as [_ H]. inversion H; congruence.
Qed.
Print Assumptions C49_subsecond_iff.

(** Sub-second tag 05 is read as half a second. *)
Theorem C49_leading_zero_refuted : subsec_fraction (txt "05") = Ok (decimal_fraction [5%Z]) /\
  decimal_fraction [5%Z] <> decimal_fraction [0%Z; 5%Z].
Proof.
  split.
  - change (txt "05") with (map digit_char (repeat 0%Z 1 ++ [5%Z])). apply subsec_split.
    + repeat constructor; lia.
    + right. exists 5%Z, []. split; [reflexivity|discriminate].
    + cbn. lia.
  - cbn. lra.
Qed.
Print Assumptions C49_leading_zero_refuted.

(** A sub-second tag that is a negative number is refused: its text after "0." is no number. *)
Theorem C49_negative_subsecond : forall n : Z, (n < 0)%Z -> subsec_fraction (str_of_Z n) = Err ValueError.
Proof.
  intros n Hn. unfold subsec_fraction. rewrite py_int_str. cbn [bind]. unfold float_0_dot.
  destruct n as [|p|p]; try lia. reflexivity.
Qed.
Print Assumptions C49_negative_subsecond.
Example C49_negative_subsecond_met : str_of_Z (-5) = txt "-5".
Proof. reflexivity. Qed.

(** The calendar is the Gregorian one: seconds since 1970-01-01T00:00 of every date and
    time from 1970 on are 86400 times the number of days counted from there, plus the
    time of day, and every valid date from 1970 on has such a count. *)
Theorem C49_calendar : forall y m d hh mm ss,
  (forall n, day_number y m d n -> naive_seconds y m d hh mm ss = (n * 86400 + hh * 3600 + mm * 60 + ss)%Z) /\
  ((1970 <= y)%Z -> valid_date y m d -> exists n, day_number y m d n).
Proof.
  intros y m d hh mm ss. split; [intros n H; apply day_number_seconds; exact H|apply day_number_exists].
Qed.
Print Assumptions C49_calendar.

(** A date or time of day that does not exist raises ValueError, whatever the
    sub-seconds. *)
Theorem C49_invalid_date_raises : forall zone y m d hh mm ss subsec,
  (0 <= y <= 9999)%Z -> (0 <= m <= 99)%Z -> (0 <= d <= 99)%Z ->
  (0 <= hh <= 99)%Z -> (0 <= mm <= 99)%Z -> (0 <= ss <= 99)%Z ->
  y = 0%Z \/ ~ valid_date y m d \/ (24 <= hh)%Z \/ (60 <= mm)%Z \/ (60 <= ss)%Z ->
  micasense_gps_timestamp zone (exif_datetime y m d hh mm ss) subsec = Err ValueError.
Proof.
  intros zone y m d hh mm ss subsec Hy Hm Hd Hh Hmi Hs Hbad. unfold micasense_gps_timestamp.
  destruct (exif_slices y m d hh mm ss) as (S1 & S2 & S3 & S4 & S5 & S6).
  rewrite S1, S2, S3, S4, S5, S6. rewrite !py_int_padded by (try lia; cbn; lia). cbn [bind].
  destruct (valid_datetime y m d hh mm ss) eqn:V; [|reflexivity].
  apply valid_datetime_spec in V as (V1 & V2 & V3 & V4 & V5). exfalso. intuition lia.
Qed.
Print Assumptions C49_invalid_date_raises.

(** The whole capture time, in a process whose zone is UTC: for every valid EXIF date
    from 1980 on and a sub-second tag without leading zero, the answer is the second of
    the GPS week of that instant, sub-seconds included. *)
Theorem C49_capture_time : forall y m d n hh mm ss ds,
  (1980 <= y <= 9999)%Z -> day_number y m d n ->
  (0 <= hh <= 23)%Z -> (0 <= mm <= 59)%Z -> (0 <= ss <= 59)%Z ->
  ds <> [] -> Forall is_digit_val ds -> hd 0%Z ds <> 0%Z ->
  let t := IZR (n * 86400 + hh * 3600 + mm * 60 + ss) in
  exists w s, micasense_gps_timestamp utc_zone (exif_datetime y m d hh mm ss) (map digit_char ds) = Ok s /\
    0 <= s < 604800 /\ gps_seconds t + decimal_fraction ds = IZR w * 604800 + s.
Proof.
  intros y m d n hh mm ss ds Hy Hn Hh Hmi Hs Hne Hds Hhd t.
  pose proof (day_number_1980 y m d n Hn ltac:(lia)) as N80.
  destruct (day_number_spec y m d n Hn) as (Vd & _ & _).
  assert (Et : naive_seconds y m d hh mm ss = (n * 86400 + hh * 3600 + mm * 60 + ss)%Z) by (apply day_number_seconds; exact Hn).
  assert (Ht : IZR year_1980_unix <= t) by (apply IZR_le; unfold year_1980_unix; lia).
  pose proof Vd as (l & L & Hd). apply month_length_spec in L as [Hm <-].
  pose proof (days_in_month_bound y m Hm) as Dm.
  unfold micasense_gps_timestamp.
  destruct (exif_slices y m d hh mm ss) as (S1 & S2 & S3 & S4 & S5 & S6).
  rewrite S1, S2, S3, S4, S5, S6. rewrite !py_int_padded by (try lia; cbn; lia). cbn [bind].
  assert (V : valid_datetime y m d hh mm ss = true) by (apply valid_datetime_spec; repeat split; try lia; exact Vd).
  rewrite V, Et. fold t.
  destruct (week_seconds utc_zone t _ (C46_exact_from_1980 t Ht)) as (w & s & -> & Bs & E). cbn [bind snd].
  destruct (C49_subsecond_iff ds Hne Hds) as (f & -> & Bf & I). cbn [bind].
  exists w, (s + f). split; [reflexivity|]. rewrite <- (proj2 I (or_introl Hhd)), E.
  split; [|ring].
  assert (Es : exists z : Z, s = IZR z).
  { exists (n * 86400 + hh * 3600 + mm * 60 + ss - gps_epoch_unix + leaps_until t - w * 604800)%Z.
    rewrite minus_IZR, plus_IZR, minus_IZR, mult_IZR. unfold gps_seconds in E. fold t. lra. }
  destruct Es as (z & ->). destruct Bs as [B1 B2]. apply lt_IZR in B2.
  assert (B3 : (z <= 604799)%Z) by lia. apply IZR_le in B3. lra.
Qed.
Print Assumptions C49_capture_time.

(** 2019:08:14 09:05:07, tag 25 *)
Example C49_ex : exists w s,
  micasense_gps_timestamp utc_zone (txt "2019:08:14 09:05:07") (txt "25") = Ok s /\
  0 <= s < 604800 /\ gps_seconds 1565773507 + 0.25 = IZR w * 604800 + s.
Proof.
  assert (V : valid_date 2019 8 14) by (exists 31%Z; split; [apply thirty_one; cbn; tauto|lia]).
  destruct (proj2 (C49_calendar 2019 8 14 9 5 7) ltac:(lia) V) as (n & N).
  destruct (C49_capture_time 2019 8 14 n 9 5 7 [2; 5]%Z) as (w & s & E & B & G);
    try lia; try assumption; try (repeat constructor; lia); try discriminate.
  rewrite <- (proj1 (C49_calendar 2019 8 14 9 5 7) n N) in G.
  change (naive_seconds 2019 8 14 9 5 7) with 1565773507%Z in G.
  exists w, s. split; [exact E|]. split; [exact B|]. rewrite <- G. cbn. lra.
Qed.

(** 29 February 2100 does not exist. *)
Example C49_invalid_ex : micasense_gps_timestamp utc_zone (txt "2100:02:29 09:05:07") (txt "25") = Err ValueError.
Proof.
  apply (C49_invalid_date_raises utc_zone 2100 2 29 9 5 7); try lia. right. left.
  intros (l & L & B). inversion L as [m H E1 E2|m H E1 E2|H E1|H E1]; subst;
    [cbn in H; lia|cbn in H; lia|lia|].
  destruct H as [_ [H|H]].
  - apply H. exists 21%Z. reflexivity.
  - destruct H as (k & K). lia.
Qed.
