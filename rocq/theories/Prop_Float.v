(** C92 - C96: what remains of the exact statements in floating-point arithmetic. *)
From Coq Require Import Reals Lra Lia ZArith List.
From Flocq Require Import Core.
From Verif Require Import RAux M_Photo M_ImageR M_Time M_Nav M_Float Spec_Time Spec_Float P_Photo P_Mmi P_Time P_Float Prop_Time.
Open Scope R_scope.
Open Scope list_scope.

(** The rounding of the model: the result is a float, and no float is nearer. *)
Theorem C92_rounding : forall emin prec x, (0 < prec)%Z ->
  is_float emin prec (rne emin prec x) /\ (forall y, is_float emin prec y -> Rabs (rne emin prec x - x) <= Rabs (y - x)).
Proof.
  intros emin prec x P. assert (PP : Prec_gt_0 prec) by exact P. split; [apply is_float_iff, rne_fmt; exact PP|]. intros y Hy.
  destruct (round_N_pt radix2 (FLT_exp emin prec) (fun t => negb (Z.even t)) x) as [_ N]. apply N. now apply is_float_iff.
Qed.
Print Assumptions C92_rounding.

(* ------------------------------ C92 ----------------------------------- *)

(** Normalising an image of floats (of any precision) with two different pixels: the smallest
    goes exactly to the new minimum, no pixel goes below it, the order is kept (though different
    pixels may become equal), and the largest goes to the rounded sum of the new minimum and the
    rounded difference of the new bounds -- which is exactly the new maximum whenever that
    difference is a float itself, as for whole numbers. *)
Theorem C92_normalise : forall emin prec img a b, (0 < prec)%Z -> (emin <= 0)%Z ->
  (forall p, In p img -> is_float emin prec p) -> is_float emin prec a -> is_float emin prec b -> a <= b ->
  (exists x y, In x img /\ In y img /\ x <> y) ->
  exists out, normalize_float (rne emin prec) img a b = Ok (map Fin out) /\ length out = length img /\
    let top := rne emin prec (rne emin prec (b - a) + a) in
    (is_float emin prec (b - a) -> top = b) /\
    (forall i q, nth_error out i = Some q -> a <= q <= top) /\
    (forall i p q, nth_error img i = Some p -> nth_error out i = Some q ->
       ((forall p', In p' img -> p <= p') -> q = a) /\ ((forall p', In p' img -> p' <= p) -> q = top)) /\
    (forall i j p q p' q', nth_error img i = Some p -> nth_error out i = Some q ->
       nth_error img j = Some p' -> nth_error out j = Some q' -> p <= p' -> q <= q').
Proof.
  intros emin prec img a b P He HF Ha Hb Hab (x & y & Hx & Hy & Hne). assert (PP : Prec_gt_0 prec) by exact P.
  apply is_float_iff in Ha; [|exact PP]. apply is_float_iff in Hb; [|exact PP].
  assert (HF' : forall p, In p img -> generic_format radix2 (FLT_exp emin prec) p) by (intros p Hp; apply is_float_iff; auto). clear HF.
  assert (Hn : img <> []) by (destruct img; [destruct Hx|discriminate]).
  destruct (rmin img) as [mn|] eqn:Emn; [|destruct img as [|z l]; [congruence|cbn in Emn; destruct (rmin l); discriminate]].
  destruct (rmax img) as [mx|] eqn:Emx; [|destruct img as [|z l]; [congruence|cbn in Emx; destruct (rmax l); discriminate]].
  destruct (rmin_spec _ _ Emn) as [Imn Lmn]. destruct (rmax_spec _ _ Emx) as [Imx Lmx].
  assert (Hlt : mn < mx). { pose proof (Lmn x Hx). pose proof (Lmn y Hy). pose proof (Lmx x Hx). pose proof (Lmx y Hy). destruct (Req_dec x y); [congruence|]. lra. }
  set (r := rne emin prec) in *.
  assert (RL : forall s t, s <= t -> r s <= r t) by (intros; now apply rne_le).
  assert (R0 : r 0 = 0) by apply rne_0.
  assert (RR : forall t, r (r t) = r t) by (intros t; apply rne_fix, rne_fmt; exact PP).
  assert (F1 : generic_format radix2 (FLT_exp emin prec) 1).
  { change 1 with (IZR 1). apply fmt_IZR; [exact PP|exact He|]. change (Z.abs 1) with (2 ^ 0)%Z. apply Z.pow_le_mono_r; lia. }
  assert (R1 : r 1 = 1) by (now apply rne_fix).
  set (d := r (mx - mn)). assert (D : 0 < d).
  { assert (0 <= d) by (unfold d; rewrite <- R0; apply RL; lra). assert (d <> 0) by (apply rne_minus_neq_0; auto; lra). lra. }
  set (k := r (b - a)). assert (K : 0 <= k) by (unfold k; rewrite <- R0; apply RL; lra).
  set (f := fun p => r (r (r (r (p - mn) / d) * k) + a)).
  assert (FM : forall p q, p <= q -> f p <= f q).
  { intros p q H. unfold f. apply RL. apply Rplus_le_compat_r. apply RL. apply Rmult_le_compat_r; [exact K|]. apply RL. apply Rmult_le_compat_r; [left; now apply Rinv_0_lt_compat|]. apply RL. lra. }
  assert (FA : f mn = a).
  { unfold f. replace (mn - mn) with 0 by ring. rewrite R0. unfold Rdiv. rewrite Rmult_0_l, R0, Rmult_0_l, R0, Rplus_0_l. now apply rne_fix. }
  assert (FT : f mx = r (k + a)).
  { unfold f. fold d. unfold Rdiv. rewrite Rinv_r by lra. rewrite R1, Rmult_1_l. unfold k at 1. rewrite RR. reflexivity. }
  exists (map f img). unfold normalize_float. rewrite Emn, Emx. fold d k. split; [|split; [apply map_length|]].
  { f_equal. rewrite map_map. apply map_ext. intros p. unfold fdiv. destruct (Reqb_spec d 0) as [Q|Q]; [lra|]. reflexivity. }
  cbv zeta. fold r k.
  assert (N : forall i q, nth_error (map f img) i = Some q -> exists p, nth_error img i = Some p /\ q = f p).
  { intros i q Hq. rewrite nth_error_map in Hq. destruct (nth_error img i) as [p|]; [|discriminate]. injection Hq as <-. eauto. }
  split; [|split; [|split]].
  - intros Q. apply is_float_iff in Q; [|exact PP]. unfold k, r. rewrite (rne_fix _ _ _ Q). replace (b - a + a) with b by ring. now apply rne_fix.
  - intros i q Hq. destruct (N i q Hq) as (p & Hp & ->). apply nth_error_In in Hp. rewrite <- FA at 1. rewrite <- FT. split; apply FM; auto.
  - intros i p q Hp Hq. destruct (N i q Hq) as (p' & Hp' & ->). rewrite Hp in Hp'. injection Hp' as <-. pose proof (nth_error_In _ _ Hp) as I. split; intros Hm.
    + assert (p = mn) by (specialize (Hm mn Imn); specialize (Lmn p I); lra). now subst p.
    + assert (p = mx) by (specialize (Hm mx Imx); specialize (Lmx p I); lra). now subst p.
  - intros i j p q p' q' Hp Hq Hp' Hq'. destruct (N i q Hq) as (p1 & Hp1 & ->). destruct (N j q' Hq') as (p2 & Hp2 & ->).
    rewrite Hp in Hp1. injection Hp1 as <-. rewrite Hp' in Hp2. injection Hp2 as <-. apply FM.
Qed.
Print Assumptions C92_normalise.

(** Images without two different pixels: an empty image is a ValueError, and every pixel of a constant image
    becomes NaN (0 / 0), in every precision. *)
Theorem C92_degenerate : forall emin prec v n a b,
  normalize_float (rne emin prec) [] a b = Err ValueError /\
  normalize_float (rne emin prec) (repeat v (S n)) a b = Ok (repeat NonFinite (S n)).
Proof.
  intros emin prec v n a b. split; [reflexivity|]. unfold normalize_float.
  assert (M : rmin (repeat v (S n)) = Some v /\ rmax (repeat v (S n)) = Some v).
  { assert (NE : repeat v (S n) <> []) by discriminate. destruct (rmin_some _ NE) as (m & E1), (rmax_some _ NE) as (m' & E2). rewrite E1, E2.
    destruct (rmin_spec _ _ E1) as [I1 _], (rmax_spec _ _ E2) as [I2 _]. apply repeat_spec in I1, I2. subst. split; reflexivity. }
  destruct M as [-> ->]. assert (Z0 : rne emin prec 0 = 0) by apply rne_0. replace (v - v) with 0 by ring. rewrite Z0. f_equal.
  generalize (S n) as k. induction k as [|k IH]; [reflexivity|]. cbn [repeat map]. rewrite IH. f_equal. rewrite RAux.fdiv_0. reflexivity.
Qed.
Print Assumptions C92_degenerate.

(** As an image of an integer type, with whole new bounds: every pixel within them, the extremes
    exact and the order kept. *)
Theorem C92_cast : forall img a b, (forall p, In p img -> is_double p) -> (0 <= a <= b)%Z -> (b <= 2 ^ 53)%Z ->
  (exists x y, In x img /\ In y img /\ x <> y) ->
  exists out, normalize_float double img (IZR a) (IZR b) = Ok out /\ length out = length img /\
  exists ints, map cast_int out = map Some ints /\
    (forall i n, nth_error ints i = Some n -> (a <= n <= b)%Z) /\
    (forall i p n, nth_error img i = Some p -> nth_error ints i = Some n ->
       ((forall p', In p' img -> p <= p') -> n = a) /\ ((forall p', In p' img -> p' <= p) -> n = b)) /\
    (forall i j p n p' n', nth_error img i = Some p -> nth_error ints i = Some n ->
       nth_error img j = Some p' -> nth_error ints j = Some n' -> p <= p' -> (n <= n')%Z).
Proof.
  intros img a b HF Hab Hb H2.
  assert (FI : forall n, (0 <= n <= 2 ^ 53)%Z -> is_double (IZR n)).
  { intros n Hn. apply is_float_iff; [exact prec53|]. apply dfmt_int. lia. }
  destruct (C92_normalise (-1074) 53 img (IZR a) (IZR b) eq_refl ltac:(lia) HF (FI a ltac:(lia)) (FI b ltac:(lia)) (IZR_le _ _ (proj2 Hab)) H2) as (out & E & L & T & B & X & M).
  specialize (T ltac:(rewrite <- minus_IZR; apply FI; lia)). cbv zeta in *. rewrite T in *.
  exists (map Fin out). split; [exact E|]. split; [now rewrite map_length|]. exists (map truncZ out). split; [rewrite !map_map; reflexivity|].
  assert (N : forall i n, nth_error (map truncZ out) i = Some n -> exists q, nth_error out i = Some q /\ n = truncZ q).
  { intros i q Hq. rewrite nth_error_map in Hq. destruct (nth_error out i) as [p|]; [|discriminate]. injection Hq as <-. eauto. }
  assert (A0 : 0 <= IZR a) by (apply IZR_le; lia).
  assert (TM : forall p q, 0 <= p <= q -> (truncZ p <= truncZ q)%Z).
  { intros p q Hpq. destruct (truncZ_nonneg p ltac:(lra)) as [[P1 P2] _]. destruct (truncZ_nonneg q ltac:(lra)) as [[Q1 Q2] _].
    assert (Q : IZR (truncZ p) < IZR (truncZ q) + 1) by lra. rewrite <- plus_IZR in Q. apply lt_IZR in Q. lia. }
  assert (TI : forall n, (0 <= n)%Z -> truncZ (IZR n) = n) by (intros n Hn; apply truncZ_unique; [lra|exact Hn]).
  split; [|split].
  - intros i n Hn. destruct (N i n Hn) as (q & Hq & ->). destruct (B i q Hq). rewrite <- (TI a ltac:(lia)) at 1. rewrite <- (TI b ltac:(lia)). split; apply TM; lra.
  - intros i p n Hp Hn. destruct (N i n Hn) as (q & Hq & ->). destruct (X i p q Hp Hq) as [X1 X2]. split; intros Hm; [rewrite (X1 Hm)|rewrite (X2 Hm)]; apply TI; lia.
  - intros i j p n p' n' Hp Hn Hp' Hn' Hpp. destruct (N i n Hn) as (q & Hq & ->). destruct (N j n' Hn') as (q' & Hq' & ->). apply TM. destruct (B i q Hq). split; [lra|]. exact (M i j p q p' q' Hp Hq Hp' Hq' Hpp).
Qed.
Print Assumptions C92_cast.

(** That the pixels stay below the new maximum: refuted for bounds whose difference is no float.
    For the bounds -1 and 3 * 2^-54 the largest pixel goes to 4 * 2^-54. *)
Theorem C92_overshoot_refuted : exists a b, is_double a /\ is_double b /\ a < b /\
  exists top, normalize_float double [0; 1] a b = Ok [Fin a; Fin top] /\ b < top.
Proof.
  assert (D : double 1 = 1) by (apply double_fix; apply (dfmt_int 1); lia). assert (Z0 : double 0 = 0) by apply rne_0.
  exists (-1), (3 * bpow radix2 (-54)). split; [|split; [|split]].
  - apply is_float_iff; [exact prec53|]. apply (dfmt_int (-1)). lia.
  - apply is_float_iff; [exact prec53|]. apply (dfmt_pow 3). lia. lia.
  - pose proof (bpow_gt_0 radix2 (-54)). lra.
  - exists (bpow radix2 (-52)). unfold normalize_float. cbn [rmin rmax].
    assert (M1 : Rmin 0 1 = 0) by (apply Rmin_left; lra). assert (M2 : Rmax 0 1 = 1) by (apply Rmax_right; lra).
    unfold rmin, rmax. rewrite ?M1, ?M2. cbn [map].
    assert (K : double (3 * bpow radix2 (-54) - -1) = 1 + bpow radix2 (-52)).
    { rewrite (double_concrete _ (2 ^ 52 + 1) (-52)) by dbl. cbn. lra. }
    assert (E0 : double (0 - 0) = 0) by (replace (0 - 0) with 0 by ring; exact Z0). assert (E1 : double (1 - 0) = 1) by (replace (1 - 0) with 1 by ring; exact D).
    rewrite E0, E1, K. unfold fdiv. destruct (Reqb_spec 1 0) as [Q|_]; [lra|]. cbn [fmap]. replace (0 / 1) with 0 by field. replace (1 / 1) with 1 by field. rewrite Z0, D, Rmult_0_l, Rmult_1_l, Z0, Rplus_0_l.
    assert (DM : double (-1) = -1) by (apply double_fix; apply (dfmt_int (-1)); lia). rewrite DM, <- K.
    replace (double (double (3 * bpow radix2 (-54) - -1))) with (double (3 * bpow radix2 (-54) - -1)) by (symmetry; apply double_fix, rne_fmt; exact prec53).
    rewrite K. replace (1 + bpow radix2 (-52) + -1) with (1 * bpow radix2 (-52)) by ring. rewrite (double_fix (1 * _)) by (apply (dfmt_pow 1); lia).
    split; [rewrite Rmult_1_l; reflexivity|]. cbn. lra.
Qed.
Print Assumptions C92_overshoot_refuted.

(** That an image which already has the new bounds comes back unchanged: refuted for whole
    numbers and an integer type.  Of 0, 15, 22 normalised to 0..22 the 15 becomes 14. *)
Theorem C92_identity_refuted : exists out, normalize_float double [0; 15; 22] 0 22 = Ok out /\ map cast_int out = [Some 0; Some 14; Some 22]%Z.
Proof.
  assert (Z0 : double 0 = 0) by apply rne_0. assert (DI : forall n, (0 <= n <= 2 ^ 53)%Z -> double (IZR n) = IZR n) by (intros n Hn; apply double_fix, dfmt_int; lia).
  assert (D15 : double 15 = 15) by (apply (DI 15%Z); lia). assert (D22 : double 22 = 22) by (apply (DI 22%Z); lia). assert (D1 : double 1 = 1) by (apply (DI 1%Z); lia).
  unfold normalize_float.
  assert (M1 : rmin [0; 15; 22] = Some 0) by (unfold rmin; rewrite (Rmin_left 15 22) by lra; rewrite (Rmin_left 0 15) by lra; reflexivity).
  assert (M2 : rmax [0; 15; 22] = Some 22) by (unfold rmax; rewrite (Rmax_right 15 22) by lra; rewrite (Rmax_right 0 22) by lra; reflexivity).
  rewrite M1, M2. eexists. split; [reflexivity|]. cbn [map]. rewrite !Rminus_0_r, Z0, D15, D22. unfold fdiv. destruct (Reqb_spec 22 0) as [Q|_]; [lra|]. cbn [fmap cast_int].
  replace (0 / 22) with 0 by field. replace (22 / 22) with 1 by field. rewrite Z0, D1, Rmult_0_l, Rmult_1_l, Z0, D22, !Rplus_0_r, Z0.
  rewrite (double_concrete (15 / 22) 6141272219141585 (-53)) by dbl.
  rewrite (double_concrete (IZR 6141272219141585 * bpow radix2 (-53) * 22) 8444249301319679 (-49)) by dbl.
  rewrite (double_fix (IZR 8444249301319679 * _)) by (apply dfmt_pow; lia).
  rewrite (truncZ_unique 0 0), (truncZ_unique _ 14), (truncZ_unique (double 22) 22); rewrite ?D22; try reflexivity; try lia; cbn; lra.
Qed.
Print Assumptions C92_identity_refuted.

Example C92_met : exists out, normalize_float (rne (-149) 24) [1; 2; 4] 0 255 = Ok (map Fin out) /\ length out = 3%nat.
Proof.
  assert (I : forall n, (Z.abs n < 2 ^ 24)%Z -> is_float (-149) 24 (IZR n)) by (intros n Hn; exists n, 0%Z; split; [cbn; ring|split; [exact Hn|lia]]).
  destruct (C92_normalise (-149) 24 [1; 2; 4] 0 255 eq_refl ltac:(lia)) as (out & E & L & _).
  - intros p [<-|[<-|[<-|[]]]]; [apply (I 1%Z)|apply (I 2%Z)|apply (I 4%Z)]; reflexivity.
  - apply (I 0%Z); reflexivity.
  - apply (I 255%Z); reflexivity.
  - lra.
  - exists 1, 2. split; [now left|]. split; [right; now left|lra].
  - eauto.
Qed.

(* ------------------------------ C93 ----------------------------------- *)

(** In doubles the GPS time of a UTC time since the GPS epoch is exact, with no rounding error at
    all. *)
Theorem C93_gps_exact : forall t, is_double t -> IZR gps_epoch_unix <= t <= IZR (2 ^ 52) ->
  gps_timestamp_float double utc_zone t = Ok (gps_seconds t).
Proof.
  intros t F H. apply is_float_iff in F; [|exact prec53].
  assert (HO : get_gps_leapsecond_offset utc_zone t = Ok (leaps_until t)).
  { unfold utc_zone. rewrite (gps_offset_const 0 t). rewrite Rplus_0_r. unfold leap_offset. rewrite Rleb_true; [reflexivity|]. unfold gps_epoch_unix, year_1980_unix in *. lra. }
  unfold gps_timestamp_float. rewrite HO. cbn [bind].
  change (gps_epoch utc_zone) with gps_epoch_unix. change (unix_epoch utc_zone) with 0%Z.
  pose proof (leaps_until_bounds t) as [L0 L1]. apply IZR_le in L0, L1. unfold gps_seconds, gps_epoch_unix in *. change (2 ^ 52)%Z with 4503599627370496%Z in H.
  assert (D : double (315964800 - 0) = 315964800) by (rewrite Rminus_0_r; apply double_fix, dfmt_int; lia). rewrite D.
  assert (F1 : dfmt (t - 315964800)).
  { apply (fmt_minus_IZR (-1074) 53 t 315964800); [lia|exact F|cbn; lra|]. rewrite Rabs_pos_eq; lra. }
  rewrite (double_fix _ F1).
  assert (F2 : dfmt (t - 315964800 + IZR (leaps_until t))).
  { replace (t - 315964800 + IZR (leaps_until t)) with (t - IZR (315964800 - leaps_until t)) by (rewrite minus_IZR; ring).
    apply (fmt_minus_IZR (-1074) 53 t); [lia|exact F|cbn; lra|]. rewrite minus_IZR, Rabs_pos_eq; lra. }
  now rewrite (double_fix _ F2).
Qed.
Print Assumptions C93_gps_exact.

(** The week number in doubles is exactly the right one, the second of the week is in
    [0, 604800), and it is off by at most (g + 4 * 604800) * 2^-53 for the GPS time g: at most
    1.6e-7 seconds until 2025. *)
Theorem C93_week : forall t, is_double t -> IZR gps_epoch_unix <= t <= IZR (2 ^ 52) ->
  exists w s s0, gps_week_float double utc_zone t = Ok (w, s) /\
    utc_timestamp_to_gps_week_and_seconds utc_zone t = Ok (w, s0) /\
    0 <= s < 604800 /\ Rabs (s - s0) <= (gps_seconds t + 4 * 604800) * u53.
Proof.
  intros t F H. pose proof (C93_gps_exact t F H) as E. unfold gps_week_float. rewrite E. cbn [bind].
  assert (E0 : utc_timestamp_to_gps_timestamp utc_zone t = Ok (gps_seconds t)) by (apply C46_exact_from_1980; unfold year_1980_unix, gps_epoch_unix in *; lra).
  unfold utc_timestamp_to_gps_week_and_seconds. rewrite E0. cbn [bind].
  change (7 * (60 * 60 * 24))%Z with 604800%Z. change (60 * 60 * 24)%Z with 86400%Z.
  assert (FG : dfmt (gps_seconds t)).
  { apply is_float_iff in F; [|exact prec53]. unfold gps_seconds, gps_epoch_unix in *. pose proof (leaps_until_bounds t) as [L0 L1]. apply IZR_le in L0, L1. change (2 ^ 52)%Z with 4503599627370496%Z in H.
    replace (t - 315964800 + IZR (leaps_until t)) with (t - IZR (315964800 - leaps_until t)) by (rewrite minus_IZR; ring).
    apply (fmt_minus_IZR (-1074) 53 t); [lia|exact F|cbn; lra|]. rewrite minus_IZR, Rabs_pos_eq; lra. }
  assert (GB : 0 <= gps_seconds t <= IZR (2 ^ 52)).
  { unfold gps_seconds, gps_epoch_unix in *. pose proof (leaps_until_bounds t) as [L0 L1]. apply IZR_le in L0, L1. lra. }
  clear E E0 F H. set (g := gps_seconds t) in *. clearbody g. change (2 ^ 52)%Z with 4503599627370496%Z in GB.
  set (k := floorZ (g / 604800)). pose proof (floorZ_spec (g / 604800)) as KB. fold k in KB.
  assert (G : g = g / 604800 * 604800) by field.
  assert (K0 : (0 <= k)%Z). { assert (Q : IZR (-1) < IZR k) by (change (IZR (-1)) with (-1); lra). apply lt_IZR in Q. lia. }
  assert (K1 : (k <= 7446535457)%Z). { apply le_IZR. apply Rle_trans with (g / 604800); [lra|]. lra. }
  set (w := double (g / 604800)).
  assert (WK : IZR k <= w < IZR k + 1).
  { split.
    - apply rne_ge; [exact prec53|apply dfmt_int; lia|lra].
    - rewrite <- plus_IZR. apply quotient_below; [exact prec53|lia|exact FG|lra|lia|apply dfmt_int; lia| |].
      + rewrite <- (mult_IZR (k + 1) 604800). apply dfmt_int. lia.
      + rewrite plus_IZR. lra. }
  assert (FW : floorZ w = k) by (now apply floorZ_unique).
  assert (K0R : 0 <= IZR k) by now apply IZR_le in K0.
  assert (MF : dfmt (w - IZR k)) by (apply fmt_frac; [exact prec53|lia|apply rne_fmt; exact prec53|lra|exact WK]).
  unfold mod1. rewrite FW. fold k. rewrite (double_fix _ MF). set (f := w - IZR k) in *. assert (FB : 0 <= f < 1) by (unfold f; lra).
  exists k, (double (double (f * 7) * 86400)), ((g / 604800 - IZR k) * 7 * 86400). split; [reflexivity|]. split; [reflexivity|].
  split; [split|].
  - apply rne_ge; [exact prec53|apply fmt_0|]. apply Rmult_le_pos; [|lra]. apply rne_ge; [exact prec53|apply fmt_0|]. lra.
  - assert (F1 : f <= IZR (2 ^ 53 - 1) * bpow radix2 (-53)).
    { apply Rle_trans with (pred radix2 (FLT_exp (-1074) 53) 1); [apply pred_ge_gt; [typeclasses eauto|exact MF|apply (dfmt_int 1); lia|lra]|].
      change 1 with (bpow radix2 0). rewrite pred_bpow. unfold FLT_exp. cbn. lra. }
    assert (F7 : double (f * 7) <= IZR (7 * 2 ^ 50 - 1) * bpow radix2 (-50)).
    { apply Rle_trans with (double (IZR (2 ^ 53 - 1) * bpow radix2 (-53) * 7)); [apply rne_le; [exact prec53|lra]|].
      rewrite (double_concrete _ (7 * 2 ^ 50 - 1) (-50)) by dbl. lra. }
    apply Rle_lt_trans with (double (IZR (7 * 2 ^ 50 - 1) * bpow radix2 (-50) * 86400)); [apply rne_le; [exact prec53|lra]|].
    rewrite (double_concrete _ (604800 * 2 ^ 33 - 1) (-33)) by dbl. cbn. lra.
  - destruct (double_err (g / 604800)) as (e1 & n1 & A1 & B1 & C1). fold w in C1.
    destruct (double_err (f * 7)) as (e2 & n2 & A2 & B2 & C2). destruct (double_err (double (f * 7) * 86400)) as (e3 & n3 & A3 & B3 & C3).
    rewrite C3, C2. unfold u53. rewrite <- bpow_pow. set (u := bpow radix2 (-53)) in *.
    assert (T : bpow radix2 (-1075) <= u * u * u * u). { unfold u. rewrite <- !bpow_plus. apply bpow_le. lia. }
    assert (U : u = / 9007199254740992) by reflexivity. set (eta := bpow radix2 (-1075)) in *. assert (E0 : 0 <= eta) by apply bpow_ge_0. clearbody eta. 
    assert (TT : eta <= / 1000000000000000000000000000000 * u) by (rewrite U in T |- *; lra).
    assert (X1 : Rabs (604800 * f - (g - 604800 * IZR k)) <= g * u + u * / 10).
    { unfold f. rewrite C1. replace (604800 * (g / 604800 * (1 + e1) + n1 - IZR k) - (g - 604800 * IZR k)) with (g * e1 + 604800 * n1) by field.
      apply Rle_trans with (1 := Rabs_triang _ _). rewrite !Rabs_mult, (Rabs_pos_eq g), (Rabs_pos_eq 604800) by lra.
      apply Rplus_le_compat; [apply Rmult_le_compat_l; lra|]. lra. }
    assert (X2 : Rabs ((f * 7 * (1 + e2) + n2) * 86400 * (1 + e3) + n3 - 604800 * f) <= 604800 * 3 * u).
    { replace ((f * 7 * (1 + e2) + n2) * 86400 * (1 + e3) + n3 - 604800 * f) with (604800 * f * (e2 + e3 + e2 * e3) + (n2 * 86400 * (1 + e3) + n3)) by ring.
      apply Rle_trans with (1 := Rabs_triang _ _). 
      assert (Y1 : Rabs (e2 + e3 + e2 * e3) <= 2 * u + u * u).
      { apply Rle_trans with (1 := Rabs_triang _ _). rewrite Rabs_mult. pose proof (Rabs_triang e2 e3). pose proof (Rabs_pos e2). pose proof (Rabs_pos e3). assert (Rabs e2 * Rabs e3 <= u * u) by (apply Rmult_le_compat; lra). lra. }
      assert (Y2 : Rabs (n2 * 86400 * (1 + e3) + n3) <= u).
      { apply Rle_trans with (1 := Rabs_triang _ _). rewrite !Rabs_mult, (Rabs_pos_eq 86400) by lra.
        assert (Rabs (1 + e3) <= 2) by (apply Rle_trans with (1 := Rabs_triang _ _); rewrite Rabs_R1; lra).
        pose proof (Rabs_pos n2). pose proof (Rabs_pos (1 + e3)). assert (Rabs n2 * 86400 * Rabs (1 + e3) <= eta * 86400 * 2) by (apply Rmult_le_compat; try lra; apply Rmult_le_pos; lra). lra. }
      rewrite Rabs_mult, (Rabs_pos_eq (604800 * f)) by lra. pose proof (Rabs_pos (e2 + e3 + e2 * e3)).
      assert (604800 * f * Rabs (e2 + e3 + e2 * e3) <= 604800 * (2 * u + u * u)) by (apply Rmult_le_compat; lra).
      assert (u * u <= / 1000 * u) by (rewrite U; lra). lra. }
    replace ((f * 7 * (1 + e2) + n2) * 86400 * (1 + e3) + n3 - (g / 604800 - IZR k) * 7 * 86400)
      with (((f * 7 * (1 + e2) + n2) * 86400 * (1 + e3) + n3 - 604800 * f) + (604800 * f - (g - 604800 * IZR k))) by field.
    apply Rle_trans with (1 := Rabs_triang _ _). rewrite U in *. lra.
Qed.
Print Assumptions C93_week.

(** That the second of the week of a whole second is whole: refuted.  2020-06-15 00:00:00 UTC is
    second 86418 of GPS week 2110; the result is less. *)
Theorem C93_whole_refuted : exists s, gps_week_float double utc_zone 1592179200 = Ok (2110%Z, s) /\ s < 86418 /\
  utc_timestamp_to_gps_week_and_seconds utc_zone 1592179200 = Ok (2110%Z, 86418).
Proof.
  assert (F : is_double 1592179200) by (apply is_float_iff; [exact prec53|apply (dfmt_int 1592179200); lia]).
  assert (E : gps_timestamp_float double utc_zone 1592179200 = Ok 1276214418).
  { rewrite C93_gps_exact; [|exact F|unfold gps_epoch_unix; cbn; lra]. f_equal. unfold gps_seconds, gps_epoch_unix. rewrite (leaps_until_18 1592179200) by lra. lra. }
  unfold gps_week_float. rewrite E. cbn [bind]. change (7 * (60 * 60 * 24))%Z with 604800%Z. change (60 * 60 * 24)%Z with 86400%Z.
  set (w := double (1276214418 / 604800)).
  assert (W : w = 4640253280841205 * bpow radix2 (-41)) by (apply double_concrete; dbl).
  assert (FW : floorZ w = 2110%Z) by (apply floorZ_unique; rewrite W; cbn; lra).
  eexists. split; [rewrite FW; reflexivity|]. split.
  - unfold mod1. rewrite FW, W.
    assert (X : 4640253280841205 * bpow radix2 (-41) - 2110 = IZR (4640253280841205 - 2110 * 2 ^ 41) * bpow radix2 (-41)) by (cbn; lra). rewrite X.
    rewrite (double_fix (IZR (4640253280841205 - 2110 * 2 ^ 41) * bpow radix2 (-41))) by (apply dfmt_pow; lia).
    rewrite (double_concrete (IZR (4640253280841205 - 2110 * 2 ^ 41) * bpow radix2 (-41) * 7) 4504537877288960 (-52)) by dbl.
    rewrite (double_concrete (4504537877288960 * bpow radix2 (-52) * 86400) 5938599740566500 (-36)) by dbl. cbn. lra.
  - destruct C47_ex as (w' & s' & E' & -> & ->). exact E'.
Qed.
Print Assumptions C93_whole_refuted.

(* ------------------------------ C94 ----------------------------------- *)

(** Interpolating between two records in doubles: the result is off the exact interpolation by
    at most 7 * 2^-53 times the larger of the two values, for values and a time step far from
    underflow. *)
Theorem C94_error : forall x x0 x1 y0 y1 m, is_double x -> is_double x0 -> is_double x1 -> is_double y0 -> is_double y1 ->
  x0 <= x <= x1 -> moderate (x1 - x0) -> Rabs y0 <= m -> Rabs y1 <= m -> moderate m ->
  exists v v0, interp_float double x x0 x1 y0 y1 = Fin v /\ linear_interp x x0 x1 y0 y1 = Fin v0 /\ Rabs (v - v0) <= 7 * u53 * m.
Proof.
  intros x x0 x1 y0 y1 m Fx F0 F1 G0 G1 Hx MD B0 B1 MM. unfold moderate in *. rewrite <- bpow_pow in *. unfold u53. rewrite <- bpow_pow.
  apply is_float_iff in Fx, F0, F1, G0, G1; try exact prec53.
  assert (T : 0 < bpow radix2 (-400)) by apply bpow_gt_0. rewrite Rabs_pos_eq in MD by lra.
  assert (M0 : 0 <= m) by (pose proof (Rabs_pos y0); lra). rewrite Rabs_pos_eq in MM by exact M0.
  destruct (double_plus_err x1 (- x) F1 (fmt_opp _ _ _ Fx)) as (a & A & EA). destruct (double_plus_err x (- x0) Fx (fmt_opp _ _ _ F0)) as (c & C & EC). destruct (double_plus_err x1 (- x0) F1 (fmt_opp _ _ _ F0)) as (g & G & EG).
  fold (x1 - x) in EA. fold (x - x0) in EC. fold (x1 - x0) in EG.
  destruct (double_err (y0 * double (x1 - x))) as (b & n1 & B & N1 & EB). destruct (double_err (y1 * double (x - x0))) as (d & n2 & D & N2 & ED).
  destruct (double_plus_err _ _ (rne_fmt (-1074) 53 (y0 * double (x1 - x))) (rne_fmt (-1074) 53 (y1 * double (x - x0)))) as (e & E & EE).
  fold (double (y0 * double (x1 - x))) in EE. fold (double (y1 * double (x - x0))) in EE.
  destruct (double_err (double (double (y0 * double (x1 - x)) + double (y1 * double (x - x0))) / double (x1 - x0))) as (f & n3 & F & N3 & EF).
  set (u := bpow radix2 (-53)) in *. assert (U : u = / 9007199254740992) by apply u53_num. pose proof eta_small as ES. fold u in ES. set (eta := bpow radix2 (-1075)) in *. assert (E0 : 0 <= eta) by apply bpow_ge_0.
  set (t := bpow radix2 (-400)) in *. set (s := bpow radix2 (-100)) in *. assert (S0 : 0 < s) by apply bpow_gt_0.
  assert (S1 : s <= / 1000000) by (unfold s; apply Rle_trans with (bpow radix2 (-20)); [apply bpow_le; lia|cbn; lra]). clearbody eta s.
  unfold linear_interp, interp_float, fdiv.
  assert (NG : 0 < 1 + g) by (pose proof (Rle_abs (- g)) as Q; rewrite Rabs_Ropp in Q; rewrite U in G; lra).
  assert (DP : 0 < double (x1 - x0)) by (rewrite EG; apply Rmult_lt_0_compat; lra).
  destruct (Reqb_spec (double (x1 - x0)) 0) as [Q|_]; [lra|]. destruct (Reqb_spec (x1 - x0) 0) as [Q|_]; [lra|]. cbn [fmap].
  eexists. eexists. split; [reflexivity|]. split; [reflexivity|].
  rewrite EF, EE, EB, ED, EA, EC, EG. set (p := x1 - x) in *. set (q := x - x0) in *. set (h := x1 - x0) in *.
  assert (HP : 0 <= p) by (unfold p; lra). assert (HQ : 0 <= q) by (unfold q; lra). assert (HH : p + q = h) by (unfold p, q, h; ring). clearbody p q h.
  clear EF EE EB ED EA EC EG DP.
  assert (FAC : forall a b, Rabs a <= u -> Rabs b <= u -> Rabs ((1 + a) * (1 + b) * ((1 + e) * (1 + f) * / (1 + g)) - 1) <= 6 * u).
  { intros a' b' A' B'. eapply Rle_trans; [apply near_mult; [apply near_mult; apply near_1; eassumption|apply near_mult; [apply near_mult; apply near_1; eassumption|apply near_inv; [eassumption|rewrite U; lra]]]|]. rewrite U. lra. }
  pose proof (FAC a b A B) as FA1. pose proof (FAC c d C D) as FA2. set (th1 := (1 + a) * (1 + b) * ((1 + e) * (1 + f) * / (1 + g))) in *. set (th2 := (1 + c) * (1 + d) * ((1 + e) * (1 + f) * / (1 + g))) in *.
  set (k := (1 + e) * (1 + f) * / (1 + g)) in *.
  assert (KB : Rabs k <= 2).
  { assert (Rabs (k - 1) <= 6 * u). { eapply Rle_trans; [apply near_mult; [apply near_mult; apply near_1; eassumption|apply near_inv; [eassumption|rewrite U; lra]]|]. rewrite U. lra. }
    replace k with (1 + (k - 1)) by ring. apply Rle_trans with (1 := Rabs_triang _ _). rewrite Rabs_R1. rewrite U in *. lra. }
  match goal with |- Rabs ?z <= _ => replace z with ((y0 * p * (th1 - 1) + y1 * q * (th2 - 1)) / h + ((n1 + n2) * k / h + n3)) end.
  2: { unfold th1, th2, k. field. lra. }
  apply Rle_trans with (1 := Rabs_triang _ _).
  assert (P1 : Rabs ((y0 * p * (th1 - 1) + y1 * q * (th2 - 1)) / h) <= 6 * u * m).
  { unfold Rdiv. rewrite Rabs_mult, (Rabs_pos_eq (/ h)) by (left; apply Rinv_0_lt_compat; lra). apply Rmult_le_reg_r with h; [lra|]. rewrite Rmult_assoc, Rinv_l, Rmult_1_r by lra.
    apply Rle_trans with (1 := Rabs_triang _ _). rewrite !Rabs_mult, (Rabs_pos_eq p), (Rabs_pos_eq q) by assumption.
    assert (Rabs y0 * p * Rabs (th1 - 1) <= m * p * (6 * u)) by (apply Rmult_le_compat; [apply Rmult_le_pos; [apply Rabs_pos|exact HP]|apply Rabs_pos|apply Rmult_le_compat_r; assumption|exact FA1]).
    assert (Rabs y1 * q * Rabs (th2 - 1) <= m * q * (6 * u)) by (apply Rmult_le_compat; [apply Rmult_le_pos; [apply Rabs_pos|exact HQ]|apply Rabs_pos|apply Rmult_le_compat_r; assumption|exact FA2]).
    rewrite <- HH. lra. }
  assert (P2 : Rabs ((n1 + n2) * k / h + n3) <= u * m).
  { apply Rle_trans with (1 := Rabs_triang _ _). unfold Rdiv. rewrite !Rabs_mult, (Rabs_pos_eq (/ h)) by (left; apply Rinv_0_lt_compat; lra).
    assert (Q1 : Rabs (n1 + n2) <= 2 * eta) by (apply Rle_trans with (1 := Rabs_triang _ _); lra).
    assert (Q2 : Rabs (n1 + n2) * Rabs k <= 2 * eta * 2) by (apply Rmult_le_compat; try apply Rabs_pos; assumption).
    assert (IH : 0 < / h) by (apply Rinv_0_lt_compat; lra). assert (IT : / h <= / t) by (apply Rinv_le; lra).
    assert (Q3 : Rabs (n1 + n2) * Rabs k * / h <= 4 * eta * / t) by (apply Rmult_le_compat; try lra; apply Rmult_le_pos; apply Rabs_pos).
    assert (Q4 : 4 * eta * / t <= 4 * s * (u * t)).
    { apply Rmult_le_reg_r with t; [exact T|]. rewrite Rmult_assoc, Rinv_l by lra. lra. }
    assert (T1 : t <= 1) by (unfold t; apply (bpow_le radix2 (-400) 0); lia).
    assert (UT : 0 < u * t) by (apply Rmult_lt_0_compat; [rewrite U; lra|exact T]).
    assert (Q5 : eta <= s * (u * t)). { apply Rle_trans with (1 := ES). replace (u * t * t * s) with (t * (s * (u * t))) by ring. assert (0 <= s * (u * t)) by (apply Rmult_le_pos; lra). nra. }
    assert (Q6 : s * (u * t) <= / 1000000 * (u * t)) by (apply Rmult_le_compat_r; lra).
    assert (Q7 : u * t <= u * m) by (apply Rmult_le_compat_l; [rewrite U; lra|exact MM]). lra. }
  lra.
Qed.
Print Assumptions C94_error.

(** At the time of the later record the result is that record's value up to 3 * 2^-53 of it, and
    the other record's value has no influence.  (For the first record of all, the one the code
    interpolates from is the last, so that the step is negative.) *)
Theorem C94_at_record_error : forall x0 x1 y0 y1, is_double x0 -> is_double x1 -> is_double y1 ->
  moderate (x1 - x0) -> moderate y1 ->
  exists v, interp_float double x1 x0 x1 y0 y1 = Fin v /\ Rabs (v - y1) <= 3 * u53 * Rabs y1.
Proof.
  intros x0 x1 y0 y1 F0 F1 G1 MD MY. unfold moderate in *. rewrite <- bpow_pow in *. unfold u53. rewrite <- bpow_pow.
  apply is_float_iff in F0, F1, G1; try exact prec53. unfold interp_float. replace (x1 - x1) with 0 by ring.
  assert (Z0 : double 0 = 0) by apply rne_0. rewrite Z0, Rmult_0_r, Z0, Rplus_0_l.
  destruct (double_plus_err x1 (- x0) F1 (fmt_opp _ _ _ F0)) as (g & G & EG). fold (x1 - x0) in EG.
  assert (DD : double (double (y1 * double (x1 - x0))) = double (y1 * double (x1 - x0))) by apply double_fix, rne_fmt, prec53. rewrite DD.
  destruct (double_err (y1 * double (x1 - x0))) as (b & n1 & B & N1 & EB).
  destruct (double_err (double (y1 * double (x1 - x0)) / double (x1 - x0))) as (f & n2 & F & N2 & EF).
  set (u := bpow radix2 (-53)) in *. assert (U : u = / 9007199254740992) by apply u53_num. pose proof eta_small as ES. fold u in ES. set (eta := bpow radix2 (-1075)) in *. assert (E0 : 0 <= eta) by apply bpow_ge_0.
  set (t := bpow radix2 (-400)) in *. assert (T : 0 < t) by apply bpow_gt_0. assert (T1 : t <= 1) by (unfold t; apply (bpow_le radix2 (-400) 0); lia).
  set (s := bpow radix2 (-100)) in *. assert (S0 : 0 < s) by apply bpow_gt_0.
  assert (S1 : s <= / 1000000) by (unfold s; apply Rle_trans with (bpow radix2 (-20)); [apply bpow_le; lia|cbn; lra]). clearbody eta s.
  assert (NG : / 2 < 1 + g) by (pose proof (Rle_abs (- g)) as Q; rewrite Rabs_Ropp in Q; rewrite U in G; lra).
  set (h := x1 - x0) in *. set (h' := double h) in *.
  assert (HB : t / 2 <= Rabs h').
  { rewrite EG, Rabs_mult, (Rabs_pos_eq (1 + g)) by lra. assert (t * / 2 <= Rabs h * (1 + g)) by (apply Rmult_le_compat; lra). lra. }
  assert (HN : h' <> 0) by (intros Q; rewrite Q, Rabs_R0 in HB; lra). unfold fdiv. destruct (Reqb_spec h' 0) as [Q|_]; [contradiction|]. cbn [fmap].
  eexists. split; [reflexivity|]. rewrite EF, EB.
  replace ((y1 * h' * (1 + b) + n1) / h' * (1 + f) + n2 - y1) with (y1 * (b + f + b * f) + (n1 * (1 + f) * / h' + n2)) by (field; exact HN).
  apply Rle_trans with (1 := Rabs_triang _ _). rewrite Rabs_mult.
  assert (Y1 : Rabs (b + f + b * f) <= 2 * u + u * u).
  { apply Rle_trans with (1 := Rabs_triang _ _). rewrite Rabs_mult. pose proof (Rabs_triang b f). pose proof (Rabs_pos b). pose proof (Rabs_pos f). assert (Rabs b * Rabs f <= u * u) by (apply Rmult_le_compat; lra). lra. }
  assert (Y2 : Rabs (n1 * (1 + f) * / h' + n2) <= / 2 * (u * t)).
  { apply Rle_trans with (1 := Rabs_triang _ _). rewrite !Rabs_mult, Rabs_inv.
    assert (Rabs (1 + f) <= 2) by (apply Rle_trans with (1 := Rabs_triang _ _); rewrite Rabs_R1; rewrite U in F; lra).
    assert (IB : / Rabs h' <= 2 * / t). { replace (2 * / t) with (/ (t / 2)) by (field; lra). apply Rinv_le; lra. }
    assert (IP : 0 < / Rabs h') by (apply Rinv_0_lt_compat; lra). pose proof (Rabs_pos n1). pose proof (Rabs_pos (1 + f)).
    assert (Q0 : Rabs n1 * Rabs (1 + f) <= eta * 2) by (apply Rmult_le_compat; lra).
    assert (Q1 : Rabs n1 * Rabs (1 + f) * / Rabs h' <= eta * 2 * (2 * / t)) by (apply Rmult_le_compat; try lra; apply Rmult_le_pos; lra).
    assert (Q2 : eta * / t <= s * (u * t)). { apply Rmult_le_reg_r with t; [exact T|]. rewrite Rmult_assoc, Rinv_l by lra. lra. }
    assert (UT : 0 < u * t) by (apply Rmult_lt_0_compat; [rewrite U; lra|exact T]).
    assert (Q5 : eta <= s * (u * t)). { apply Rle_trans with (1 := ES). replace (u * t * t * s) with (t * (s * (u * t))) by ring. assert (0 <= s * (u * t)) by (apply Rmult_le_pos; lra). nra. }
    assert (Q6 : s * (u * t) <= / 1000000 * (u * t)) by (apply Rmult_le_compat_r; lra). lra. }
  assert (Y3 : Rabs y1 * Rabs (b + f + b * f) <= Rabs y1 * (2 * u + u * u)) by (apply Rmult_le_compat_l; [apply Rabs_pos|exact Y1]).
  assert (Y4 : u * t <= u * Rabs y1) by (apply Rmult_le_compat_l; [rewrite U; lra|exact MY]).
  assert (Y5 : Rabs y1 * (u * u) <= / 1000 * (u * Rabs y1)). { replace (Rabs y1 * (u * u)) with (u * (u * Rabs y1)) by ring. apply Rmult_le_compat_r; [|rewrite U; lra]. assert (0 < u * t) by (apply Rmult_lt_0_compat; [rewrite U; lra|exact T]). lra. }
  assert (Y6 : Rabs y1 * (2 * u + u * u) = 2 * (u * Rabs y1) + Rabs y1 * (u * u)) by ring. assert (Y7 : 0 <= u * Rabs y1) by (apply Rmult_le_pos; [rewrite U; lra|apply Rabs_pos]).
  rewrite Y6 in Y3. replace (3 * u * Rabs y1) with (3 * (u * Rabs y1)) by ring. clear - Y2 Y3 Y4 Y5 Y7.
  set (w := u * Rabs y1) in *. set (z := Rabs y1 * (u * u)) in *. set (v := u * t) in *. set (k := Rabs y1 * Rabs (b + f + b * f)) in *. clearbody w z v k. lra.
Qed.
Print Assumptions C94_at_record_error.

(** It is exactly that value if the step is a power of two. *)
Theorem C94_at_record : forall x0 x1 y0 y1 k, is_double y1 -> x1 - x0 = powerRZ 2 k -> (-400 <= k <= 400)%Z ->
  y1 = 0 \/ moderate y1 -> interp_float double x1 x0 x1 y0 y1 = Fin y1.
Proof.
  intros x0 x1 y0 y1 k F E K M. unfold interp_float. rewrite E, <- bpow_pow. replace (x1 - x1) with 0 by ring.
  assert (Z0 : double 0 = 0) by apply rne_0. rewrite Z0, Rmult_0_r, Z0, Rplus_0_l.
  assert (D : double (bpow radix2 k) = bpow radix2 k) by (rewrite <- (Rmult_1_l (bpow radix2 k)); apply double_fix, (dfmt_pow 1); lia). rewrite D.
  apply is_float_iff in F; [|exact prec53].
  assert (FP : dfmt (y1 * bpow radix2 k)).
  { destruct M as [ -> |M]; [rewrite Rmult_0_l; apply fmt_0|]. unfold moderate in M. rewrite <- bpow_pow in M.
    apply is_float_iff in F; [|exact prec53]. destruct F as (m & e & Em & Hm & He). rewrite <- bpow_pow in Em.
    assert (EL : (-453 <= e)%Z).
    { destruct (Z.le_gt_cases (-453) e) as [Q|Q]; [exact Q|exfalso]. assert (Rabs y1 < bpow radix2 (-400)); [|lra]. rewrite Em, Rabs_mult, (Rabs_pos_eq (bpow radix2 e)) by apply bpow_ge_0. rewrite <- abs_IZR.
      apply Rle_lt_trans with (IZR (2 ^ 53) * bpow radix2 e); [apply Rmult_le_compat_r; [apply bpow_ge_0|apply IZR_le; lia]|].
      change (IZR (2 ^ 53)) with (bpow radix2 53). rewrite <- bpow_plus. apply bpow_lt. lia. }
    rewrite Em, Rmult_assoc, <- bpow_plus. apply dfmt_pow; lia. }
  rewrite (double_fix _ FP), (double_fix _ FP). unfold fdiv. pose proof (bpow_gt_0 radix2 k) as BP. destruct (Reqb_spec (bpow radix2 k) 0) as [Q|_]; [lra|]. cbn [fmap].
  replace (y1 * bpow radix2 k / bpow radix2 k) with y1 by (field; lra). now rewrite (double_fix _ F).
Qed.
Print Assumptions C94_at_record.

(** That the value at a record is the recorded one, and that the result lies between the records'
    values: refuted.  Two records five seconds apart, both with the double nearest to 0.11: at
    the second the result is the next larger double. *)
Theorem C94_exact_refuted : exists y v, is_double y /\ interp_float double 5 0 5 y y = Fin v /\ y < v /\ linear_interp 5 0 5 y y = Fin y.
Proof.
  exists (7926335344172073 * bpow radix2 (-56)), (7926335344172074 * bpow radix2 (-56)). split; [|split; [|split]].
  - apply is_float_iff; [exact prec53|]. apply (dfmt_pow 7926335344172073); lia.
  - unfold interp_float. replace (5 - 5) with 0 by ring. rewrite Rminus_0_r. assert (Z0 : double 0 = 0) by apply rne_0. rewrite Z0, Rmult_0_r, Z0, Rplus_0_l.
    assert (D5 : double 5 = 5) by (apply double_fix, (dfmt_int 5); lia). rewrite D5. unfold fdiv. destruct (Reqb_spec 5 0) as [Q|_]; [lra|]. cbn [fmap]. f_equal.
    rewrite (double_concrete (7926335344172073 * bpow radix2 (-56) * 5) 4953959590107546 (-53)) by dbl.
    rewrite (double_fix (4953959590107546 * bpow radix2 (-53))) by (apply (dfmt_pow 4953959590107546); lia).
    apply double_concrete; dbl.
  - pose proof (bpow_gt_0 radix2 (-56)). lra.
  - unfold linear_interp, fdiv. destruct (Reqb_spec (5 - 0) 0) as [Q|_]; [lra|]. f_equal. field.
Qed.
Print Assumptions C94_exact_refuted.

Example C94_met : exists v v0, interp_float double 1 0 3 10 20 = Fin v /\ linear_interp 1 0 3 10 20 = Fin v0 /\ Rabs (v - v0) <= 7 * u53 * 20.
Proof.
  assert (I : forall n, (Z.abs n <= 2 ^ 53)%Z -> is_double (IZR n)) by (intros n Hn; apply is_float_iff; [exact prec53|now apply dfmt_int]).
  assert (M : powerRZ 2 (-400) <= 1) by (rewrite <- bpow_pow; apply (bpow_le radix2 (-400) 0); lia).
  apply C94_error; try (apply I; lia); unfold moderate; rewrite ?Rabs_pos_eq; lra.
Qed.
