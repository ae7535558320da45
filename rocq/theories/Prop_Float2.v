(** C95 - C97: blending, the spectral angle and the mean in floating-point arithmetic. *)
From Coq Require Import Reals Lra Lia ZArith List Permutation.
From Flocq Require Import Core Relative.
From Verif Require Import Py RAux LinAlg M_ImageR M_Spectral M_Float Spec_Float P_Spectral P_Float P_FloatSum.
Open Scope R_scope.
Open Scope list_scope.

(* ------------------------------ C95 ----------------------------------- *)

(** A percentage of one gives the first image and a percentage of zero the second, exactly, in
    any precision. *)
Theorem C95_ends : forall emin prec a b, (0 < prec)%Z -> (emin <= 0)%Z -> is_float emin prec a -> is_float emin prec b ->
  blend_float (rne emin prec) a b 1 = a /\ blend_float (rne emin prec) a b 0 = b.
Proof.
  intros emin prec a b P He Fa Fb. assert (PP : Prec_gt_0 prec) by exact P. apply is_float_iff in Fa, Fb; try exact PP.
  assert (Z0 : rne emin prec 0 = 0) by apply rne_0. assert (Z1 : rne emin prec 1 = 1).
  { apply rne_fix, (fmt_IZR emin prec 1); [exact He|]. assert (2 ^ 1 <= 2 ^ prec)%Z by (apply Z.pow_le_mono_r; lia). lia. }
  unfold blend_float. split.
  - replace (1 - 1) with 0 by ring. rewrite Z0, Rmult_0_r, Z0, Rmult_1_r, Rplus_0_r, (rne_fix _ _ a Fa). now apply rne_fix.
  - rewrite Rminus_0_r, Z1, Rmult_0_r, Z0, Rmult_1_r, Rplus_0_l, (rne_fix _ _ b Fb). now apply rne_fix.
Qed.
Print Assumptions C95_ends.

(** A brighter pixel in either image never gives a darker blend. *)
Theorem C95_monotone : forall emin prec a b a' b' p, (0 < prec)%Z -> 0 <= p <= 1 -> a <= a' -> b <= b' ->
  blend_float (rne emin prec) a b p <= blend_float (rne emin prec) a' b' p.
Proof.
  intros emin prec a b a' b' p P Hp Ha Hb. assert (PP : Prec_gt_0 prec) by exact P. unfold blend_float.
  assert (0 <= rne emin prec (1 - p)) by (apply rne_ge; [exact PP|apply fmt_0|lra]).
  apply rne_le; [exact PP|]. apply Rplus_le_compat; apply rne_le; try exact PP; apply Rmult_le_compat_r; lra.
Qed.
Print Assumptions C95_monotone.

(** The blend of doubles is off the exact blend by at most 4 * 2^-53 times the larger value. *)
Theorem C95_error : forall a b p m, is_double p -> 0 <= p <= 1 -> Rabs a <= m -> Rabs b <= m -> moderate m ->
  Rabs (blend_float double a b p - blend_pixel a b p) <= 4 * u53 * m.
Proof.
  intros a b p m Fp Hp Ha Hb MM. unfold moderate in MM. rewrite <- bpow_pow in MM. unfold u53. rewrite <- bpow_pow. apply is_float_iff in Fp; [|exact prec53].
  assert (M0 : 0 <= m) by (pose proof (Rabs_pos a); lra). rewrite Rabs_pos_eq in MM by exact M0.
  unfold blend_float, blend_pixel.
  destruct (double_plus_err 1 (- p) (dfmt_int 1 ltac:(lia)) (fmt_opp _ _ _ Fp)) as (c & C & EC). fold (1 - p) in EC.
  destruct (double_err (a * p)) as (d & n1 & D & N1 & ED). destruct (double_err (b * double (1 - p))) as (e & n2 & E & N2 & EE).
  destruct (double_plus_err _ _ (rne_fmt (-1074) 53 (a * p)) (rne_fmt (-1074) 53 (b * double (1 - p)))) as (f & F & EF).
  fold (double (a * p)) in EF. fold (double (b * double (1 - p))) in EF. rewrite EF, ED, EE, EC.
  set (u := bpow radix2 (-53)) in *. assert (U : u = / 9007199254740992) by apply u53_num. pose proof eta_small as ES. fold u in ES. set (eta := bpow radix2 (-1075)) in *.
  set (t := bpow radix2 (-400)) in *. assert (T : 0 < t) by apply bpow_gt_0. assert (T1 : t <= 1) by (unfold t; apply (bpow_le radix2 (-400) 0); lia).
  set (s := bpow radix2 (-100)) in *. assert (S0 : 0 < s) by apply bpow_gt_0. assert (S1 : s <= / 1000000) by (unfold s; apply Rle_trans with (bpow radix2 (-20)); [apply bpow_le; lia|cbn; lra]).
  assert (UT : 0 < u * t) by (apply Rmult_lt_0_compat; [rewrite U; lra|exact T]).
  assert (Q5 : eta <= s * (u * t)). { apply Rle_trans with (1 := ES). replace (u * t * t * s) with (t * (s * (u * t))) by ring. assert (0 <= s * (u * t)) by (apply Rmult_le_pos; lra). nra. }
  assert (Q6 : s * (u * t) <= / 1000000 * (u * t)) by (apply Rmult_le_compat_r; lra). assert (Q7 : u * t <= u * m) by (apply Rmult_le_compat_l; [rewrite U; lra|exact MM]).
  assert (K1 : Rabs ((1 + d) * (1 + f) - 1) <= 3 * u + u / 10).
  { eapply Rle_trans; [apply near_mult; apply near_1; eassumption|]. rewrite U. lra. }
  assert (K2 : Rabs ((1 + c) * (1 + e) * (1 + f) - 1) <= 3 * u + u / 10).
  { eapply Rle_trans; [apply near_mult; [apply near_mult|]; apply near_1; eassumption|]. rewrite U. lra. }
  set (k1 := (1 + d) * (1 + f)) in *. set (k2 := (1 + c) * (1 + e) * (1 + f)) in *.
  replace ((a * p * (1 + d) + n1 + (b * ((1 - p) * (1 + c)) * (1 + e) + n2)) * (1 + f) - (a * p + b * (1 - p)))
    with (a * p * (k1 - 1) + b * (1 - p) * (k2 - 1) + (n1 + n2) * (1 + f)) by (unfold k1, k2; ring).
  assert (X1 : Rabs (a * p * (k1 - 1)) <= m * p * (3 * u + u / 10)).
  { rewrite !Rabs_mult, (Rabs_pos_eq p) by lra. apply Rmult_le_compat; [apply Rmult_le_pos; [apply Rabs_pos|lra]|apply Rabs_pos|apply Rmult_le_compat_r; lra|exact K1]. }
  assert (X2 : Rabs (b * (1 - p) * (k2 - 1)) <= m * (1 - p) * (3 * u + u / 10)).
  { rewrite !Rabs_mult, (Rabs_pos_eq (1 - p)) by lra. apply Rmult_le_compat; [apply Rmult_le_pos; [apply Rabs_pos|lra]|apply Rabs_pos|apply Rmult_le_compat_r; lra|exact K2]. }
  assert (X3 : Rabs ((n1 + n2) * (1 + f)) <= 4 * eta).
  { rewrite Rabs_mult. assert (Rabs (n1 + n2) <= 2 * eta) by (apply Rle_trans with (1 := Rabs_triang _ _); lra).
    assert (Rabs (1 + f) <= 2) by (apply Rle_trans with (1 := Rabs_triang _ _); rewrite Rabs_R1; rewrite U in F; lra).
    replace (4 * eta) with (2 * eta * 2) by ring. apply Rmult_le_compat; try apply Rabs_pos; assumption. }
  assert (X4 : Rabs (a * p * (k1 - 1) + b * (1 - p) * (k2 - 1) + (n1 + n2) * (1 + f)) <= m * p * (3 * u + u / 10) + m * (1 - p) * (3 * u + u / 10) + 4 * eta).
  { pose proof (Rabs_triang (a * p * (k1 - 1) + b * (1 - p) * (k2 - 1)) ((n1 + n2) * (1 + f))). pose proof (Rabs_triang (a * p * (k1 - 1)) (b * (1 - p) * (k2 - 1))). lra. }
  apply Rle_trans with (1 := X4). replace (m * p * (3 * u + u / 10) + m * (1 - p) * (3 * u + u / 10)) with (31 / 10 * (u * m)) by field. replace (4 * u * m) with (4 * (u * m)) by ring.
  clear - Q5 Q6 Q7 UT. set (w := u * m) in *. set (z := u * t) in *. clearbody w z. lra.
Qed.
Print Assumptions C95_error.

(** That a blend lies between the two pixels: refuted.  Eight hundredths of 10 blended with 10
    give more than 10. *)
Theorem C95_between_refuted : exists p, is_double p /\ 0 <= p <= 1 /\ blend_pixel 10 10 p = 10 /\ 10 < blend_float double 10 10 p.
Proof.
  exists (5764607523034235 * bpow radix2 (-56)). split; [|split; [|split]].
  - apply is_float_iff; [exact prec53|]. apply (dfmt_pow 5764607523034235); lia.
  - cbn. lra.
  - unfold blend_pixel. ring.
  - unfold blend_float. rewrite (double_concrete (1 - 5764607523034235 * bpow radix2 (-56)) 8286623314361713 (-53)) by dbl.
    rewrite (double_concrete (10 * (5764607523034235 * bpow radix2 (-56))) 7205759403792794 (-53)) by dbl.
    rewrite (double_concrete (10 * (8286623314361713 * bpow radix2 (-53))) 5179139571476071 (-49)) by dbl.
    rewrite (double_concrete (7205759403792794 * bpow radix2 (-53) + 5179139571476071 * bpow radix2 (-49)) 5629499534213121 (-49)) by dbl. cbn. lra.
Qed.
Print Assumptions C95_between_refuted.

Example C95_met : Rabs (blend_float double 10 20 (1 / 2) - blend_pixel 10 20 (1 / 2)) <= 4 * u53 * 20.
Proof.
  apply C95_error.
  - exists 1%Z, (-1)%Z. split; [rewrite <- bpow_pow; cbn; lra|]. split; [reflexivity|lia].
  - lra.
  - rewrite Rabs_pos_eq; lra.
  - rewrite Rabs_pos_eq; lra.
  - unfold moderate. rewrite <- bpow_pow, Rabs_pos_eq by lra. assert (bpow radix2 (-400) <= 1) by (apply (bpow_le radix2 (-400) 0); lia). lra.
Qed.

(* ------------------------------ C96 ----------------------------------- *)

(** The spectral angle score in doubles, whatever the order in which numpy adds the products up:
    off the exact cosine by at most (3 n + 5) * 2^-53 for n bands (up to 2^20), if some band of
    the target and of the pixel is far from underflow. *)
Theorem C96_error : forall dot sop t p, dot_in_some_order double dot -> dot_in_some_order double sop -> length t = length p ->
  (Z.of_nat (length p) <= 2 ^ 20)%Z -> (exists x, In x t /\ moderate x) -> (exists x, In x p /\ moderate x) ->
  exists v c, sam_float double dot sop t p = Fin v /\ exact_sam t p = Fin c /\ Rabs (v - c) <= (3 * INR (length p) + 5) * u53.
Proof.
  intros dot sop t p HD HS L LE MT MP. assert (LP : (1 <= length p)%nat) by (destruct MP as (x & Hx & _); destruct p; [destruct Hx|cbn; lia]).
  pose proof (sum_squares_moderate t MT) as HT. pose proof (sum_squares_moderate p MP) as HP. pose proof (abs_cauchy t p L) as AC.
  pose proof (sums_error _ _ (HD t p L)) as [_ E0]. pose proof (sums_error _ _ (HD t t eq_refl)) as [_ E1]. pose proof (sums_error _ _ (HS p p eq_refl)) as [_ E2].
  assert (AP : forall l, map Rabs (map2 Rmult l l) = map2 Rmult l l) by (intros l; induction l as [|x l IH]; cbn; [reflexivity|]; rewrite IH; f_equal; apply Rabs_pos_eq; nra).
  rewrite AP in E1, E2. assert (ML : forall l m : list R, length l = length m -> length (map2 Rmult l m) = length m) by (intros l m Q; rewrite map2_length, Q; lia).
  rewrite (ML t p L) in E0. rewrite (ML t t eq_refl), L in E1. rewrite (ML p p eq_refl) in E2. unfold u53. rewrite <- bpow_pow.
  set (n := length p) in *. set (u := bpow radix2 (-53)) in *. assert (U : u = / 9007199254740992) by apply u53_num.
  assert (NB : 1 <= INR n <= 1048576). { rewrite INR_IZR_INZ. split; [apply (IZR_le 1); lia|apply (IZR_le _ (2 ^ 20)); lia]. }
  assert (NU : INR n * u <= / 1000000000) by (rewrite U; lra). assert (NU0 : 0 <= INR n * u) by (rewrite U; lra).
  pose proof (pow_bound u n ltac:(rewrite U; lra) ltac:(lra)) as PB. pose proof (pow_R1_Rle (1 + u) n ltac:(rewrite U; lra)) as G1. set (g := (1 + u) ^ n) in *.
  assert (GB : g - 1 <= 1001 / 1000 * (INR n * u)) by nra.
  set (w := 1002 / 1000 * (INR n * u)).
  assert (EL : INR n * g * bpow radix2 (-1075) <= / 1000 * (INR n * u) * bpow radix2 (-800)).
  { assert (g <= 2) by lra. assert (X : bpow radix2 (-1075) <= / 10000 * u * bpow radix2 (-800)).
    { apply Rle_trans with (bpow radix2 (-14) * u * bpow radix2 (-800)); [unfold u; rewrite <- !bpow_plus; apply bpow_le; lia|].
      apply Rmult_le_compat_r; [apply bpow_ge_0|]. apply Rmult_le_compat_r; [rewrite U; lra|]. cbn. lra. }
    apply Rle_trans with (INR n * 2 * (/ 10000 * u * bpow radix2 (-800))).
    - apply Rmult_le_compat; [nra|apply bpow_ge_0|nra|exact X].
    - replace (INR n * 2 * (/ 10000 * u * bpow radix2 (-800))) with (/ 5000 * (INR n * u * bpow radix2 (-800))) by field.
      pose proof (bpow_ge_0 radix2 (-800)). assert (0 <= INR n * u * bpow radix2 (-800)) by (apply Rmult_le_pos; assumption). lra. }
  pose proof (bpow_gt_0 radix2 (-800)) as B8. set (eta := bpow radix2 (-1075)) in *. set (s := bpow radix2 (-800)) in *.
  set (T := rsum (map2 Rmult t t)) in *. set (P := rsum (map2 Rmult p p)) in *.
  assert (AB : s <= sqrt T * sqrt P).
  { rewrite <- sqrt_mult by lra. apply Rsqr_incr_0_var; [|apply sqrt_pos]. rewrite Rsqr_sqrt by (apply Rmult_le_pos; lra). unfold Rsqr. apply Rmult_le_compat; lra. }
  assert (REL : forall X A, 0 <= A <= X -> s <= X -> (g - 1) * A + INR n * g * eta <= w * X).
  { intros X A [A0 A1] HX. assert ((g - 1) * A <= 1001 / 1000 * (INR n * u) * X) by (apply Rmult_le_compat; lra).
    assert (/ 1000 * (INR n * u) * s <= / 1000 * (INR n * u) * X) by (apply Rmult_le_compat_l; lra). unfold w. lra. }
  assert (NN : Rabs (rsum (map2 Rmult t p)) <= sqrt T * sqrt P) by (pose proof (rsum_abs (map2 Rmult t p)); lra).
  pose proof (rsum_abs_nonneg (map2 Rmult t p)) as A0.
  destruct (sam_core (dot t p) (dot t t) (sop p p) (rsum (map2 Rmult t p)) T P w HT HP NN) as (v & V & VB).
  - unfold w. lra.
  - eapply Rle_trans; [exact E0|]. apply REL; [|exact AB]. split; assumption.
  - eapply Rle_trans; [exact E1|]. apply REL; [|exact HT]. lra.
  - eapply Rle_trans; [exact E2|]. apply REL; [|exact HP]. lra.
  - exists v, (rsum (map2 Rmult t p) / (sqrt T * sqrt P)). split; [exact V|]. split.
    + unfold exact_sam. rewrite sam_eq. unfold sam_value. cbn [si_nb si_px]. rewrite <- !rsum_dot by auto. fold T P.
      replace (LinAlg.dot (length p) (fun b => nth b t 0) (fun b => nth b t 0)) with T by (unfold T; rewrite rsum_dot by reflexivity; now rewrite L).
      apply fdiv_nz. lra.
    + eapply Rle_trans; [exact VB|]. unfold w. fold u. rewrite U. clear - NB. set (k := INR n) in *. clearbody k. lra.
Qed.
Print Assumptions C96_error.

(** Digital numbers (integers) with sums of squares up to 2^53: all sums are exact, and the score
    is off by at most 5 * 2^-53, so that it never exceeds 1 by more. *)
Theorem C96_integers : forall dot sop (t p : list Z), dot_in_some_order double dot -> dot_in_some_order double sop -> length t = length p ->
  (exists x, In x t /\ x <> 0%Z) -> (exists x, In x p /\ x <> 0%Z) ->
  (fold_right Z.add 0 (map (fun x => x * x) t) <= 2 ^ 53)%Z -> (fold_right Z.add 0 (map (fun x => x * x) p) <= 2 ^ 53)%Z ->
  exists v c, sam_float double dot sop (map IZR t) (map IZR p) = Fin v /\ exact_sam (map IZR t) (map IZR p) = Fin c /\
    Rabs (v - c) <= 5 * u53 /\ Rabs v <= 1 + 5 * u53.
Proof.
  intros dot sop t p HD HS L NT NP BT BP.
  assert (SQ : forall l, rsum (map2 Rmult (map IZR l) (map IZR l)) = IZR (fold_right Z.add 0%Z (map (fun x => (x * x)%Z) l))).
  { intros l. induction l as [|x l IH]; [reflexivity|]. cbn [map map2 fold_right]. rewrite rsum_cons, IH, plus_IZR, mult_IZR. reflexivity. }
  assert (IN : forall l m x, In x (map2 Rmult (map IZR l) (map IZR m)) -> exists n, x = IZR n).
  { intros l. induction l as [|y l IH]; intros [|z m] x; cbn; try tauto. intros [ <- |H]; [exists (y * z)%Z; now rewrite mult_IZR|]. now apply (IH m). }
  assert (AP : forall l, map Rabs (map2 Rmult l l) = map2 Rmult l l) by (intros l; induction l as [|x l IH]; cbn; [reflexivity|]; rewrite IH; f_equal; apply Rabs_pos_eq; nra).
  assert (ML : length (map IZR t) = length (map IZR p)) by now rewrite !map_length.
  pose proof (abs_cauchy _ _ ML) as AC.
  assert (ONE : forall l, (exists x, In x l /\ x <> 0%Z) -> bpow radix2 (-800) <= rsum (map2 Rmult (map IZR l) (map IZR l))).
  { intros l (x & Hx & Hn). apply sum_squares_moderate. exists (IZR x). split; [now apply in_map|]. unfold moderate. rewrite <- bpow_pow. apply Rle_trans with 1; [apply (bpow_le radix2 (-400) 0); lia|]. rewrite <- abs_IZR. apply (IZR_le 1). lia. }
  pose proof (ONE t NT) as HT. pose proof (ONE p NP) as HP. apply IZR_le in BT, BP. rewrite <- SQ in BT, BP.
  set (T := rsum (map2 Rmult (map IZR t) (map IZR t))) in *. set (P := rsum (map2 Rmult (map IZR p) (map IZR p))) in *. pose proof (bpow_gt_0 radix2 (-800)) as B8.
  assert (SB : sqrt T * sqrt P <= IZR (2 ^ 53)).
  { rewrite <- sqrt_mult by lra. rewrite <- (sqrt_square (IZR (2 ^ 53))) by (apply (IZR_le 0); lia). apply sqrt_le_1_alt. apply Rmult_le_compat; lra. }
  destruct (sums_exact _ _ (HD _ _ ML) (IN t p)) as [E0 _]; [lra|]. destruct (sums_exact _ _ (HD _ _ eq_refl) (IN t t)) as [E1 _]; [rewrite AP; exact BT|]. destruct (sums_exact _ _ (HS _ _ eq_refl) (IN p p)) as [E2 _]; [rewrite AP; exact BP|].
  fold T in E1. fold P in E2. assert (AB0 : 0 < sqrt T * sqrt P) by (apply Rmult_lt_0_compat; apply sqrt_lt_R0; lra).
  assert (NN : Rabs (rsum (map2 Rmult (map IZR t) (map IZR p))) <= sqrt T * sqrt P) by (pose proof (rsum_abs (map2 Rmult (map IZR t) (map IZR p))); lra).
  destruct (sam_core (dot (map IZR t) (map IZR p)) (dot (map IZR t) (map IZR t)) (sop (map IZR p) (map IZR p)) (rsum (map2 Rmult (map IZR t) (map IZR p))) T P 0 HT HP NN) as (v & V & VB).
  - lra.
  - rewrite E0, Rminus_diag_eq, Rabs_R0 by reflexivity. lra.
  - rewrite E1, Rminus_diag_eq, Rabs_R0 by reflexivity. lra.
  - rewrite E2, Rminus_diag_eq, Rabs_R0 by reflexivity. lra.
  - exists v, (rsum (map2 Rmult (map IZR t) (map IZR p)) / (sqrt T * sqrt P)). unfold u53. rewrite <- bpow_pow.
    assert (U : bpow radix2 (-53) = / 9007199254740992) by apply u53_num. set (u := bpow radix2 (-53)) in *.
    assert (X : exact_sam (map IZR t) (map IZR p) = Fin (rsum (map2 Rmult (map IZR t) (map IZR p)) / (sqrt T * sqrt P))).
    { unfold exact_sam. rewrite sam_eq. unfold sam_value. cbn [si_nb si_px].
      replace (LinAlg.dot (length (map IZR p)) (fun b => nth b (map IZR t) 0) (fun b => nth b (map IZR t) 0)) with T by (unfold T; rewrite rsum_dot by reflexivity; now rewrite ML).
      rewrite <- !rsum_dot by auto. fold P. apply fdiv_nz. lra. }
    assert (CB : Rabs (rsum (map2 Rmult (map IZR t) (map IZR p)) / (sqrt T * sqrt P)) <= 1).
    { unfold Rdiv. rewrite Rabs_mult, (Rabs_pos_eq (/ (sqrt T * sqrt P))) by (left; now apply Rinv_0_lt_compat). apply Rmult_le_reg_r with (sqrt T * sqrt P); [lra|]. rewrite Rmult_assoc, Rinv_l by lra. lra. }
    set (c := rsum (map2 Rmult (map IZR t) (map IZR p)) / (sqrt T * sqrt P)) in *.
    assert (VC : Rabs (v - c) <= 5 * u) by (apply Rle_trans with (1 := VB); rewrite U; lra).
    split; [exact V|]. split; [exact X|]. split; [exact VC|]. replace v with (c + (v - c)) by ring. apply Rle_trans with (1 := Rabs_triang _ _). lra.
Qed.
Print Assumptions C96_integers.

Lemma sum_of_ints dot l m s : dot_in_some_order double dot -> length l = length m -> s = rsum (map2 Rmult l m) ->
  (forall x, In x (map2 Rmult l m) -> exists n, x = IZR n) -> rsum (map Rabs (map2 Rmult l m)) <= IZR (2 ^ 53) -> dot l m = s.
Proof. intros HD L -> HI HB. now destruct (sums_exact _ _ (HD l m L) HI HB) as [E _]. Qed.

(** That the score of a spectrum with itself is one, and that no score exceeds one: refuted, for
    every order of the additions.  (1, 1, 1) scores more than one with itself, (1, 1) less. *)
Theorem C96_range_refuted : forall dot sop, dot_in_some_order double dot -> dot_in_some_order double sop ->
  exact_sam (1 :: 1 :: 1 :: nil) (1 :: 1 :: 1 :: nil) = Fin 1 /\ sam_float double dot sop (1 :: 1 :: 1 :: nil) (1 :: 1 :: 1 :: nil) = Fin (1 + 2 * u53) /\
  exact_sam (1 :: 1 :: nil) (1 :: 1 :: nil) = Fin 1 /\ sam_float double dot sop (1 :: 1 :: nil) (1 :: 1 :: nil) = Fin (1 - 2 * u53).
Proof.
  intros dot sop HD HS. unfold u53. rewrite <- bpow_pow.
  assert (I : forall k x, In x (repeat (1 * 1) k) -> exists n, x = IZR n) by (intros k x H; apply repeat_spec in H; exists 1%Z; lra).
  assert (S3 : forall d, dot_in_some_order double d -> d (1 :: 1 :: 1 :: nil) (1 :: 1 :: 1 :: nil) = 3).
  { intros d Hd. apply (sum_of_ints d _ _ 3 Hd eq_refl); [unfold rsum; cbn; lra|exact (I 3%nat)|]. change (2 ^ 53)%Z with 9007199254740992%Z. cbn [map2 map]. rewrite Rmult_1_r, Rabs_R1. unfold rsum. cbn [fold_right]. lra. }
  assert (S2 : forall d, dot_in_some_order double d -> d (1 :: 1 :: nil) (1 :: 1 :: nil) = 2).
  { intros d Hd. apply (sum_of_ints d _ _ 2 Hd eq_refl); [unfold rsum; cbn; lra|exact (I 2%nat)|]. change (2 ^ 53)%Z with 9007199254740992%Z. cbn [map2 map]. rewrite Rmult_1_r, Rabs_R1. unfold rsum. cbn [fold_right]. lra. }
  assert (SB : forall x a b, 0 <= a -> 0 <= b -> a * a <= x -> x <= b * b -> a <= sqrt x <= b).
  { intros x a b Ha Hb H1 H2. split; [rewrite <- (sqrt_square a Ha)|rewrite <- (sqrt_square b Hb)]; now apply sqrt_le_1_alt. }
  split; [|split; [|split]].
  - unfold exact_sam. rewrite sam_eq. apply sam_value_one; [exists 0%nat; cbn; split; [lia|lra]|]. exists 1. split; [lra|]. intros i Hi. unfold vscale. now rewrite Rmult_1_l.
  - unfold sam_float. rewrite (S3 dot HD), (S3 sop HS).
    destruct (SB 3 (780046337155396245 / 450359962737049600) (780046337155396246 / 450359962737049600) ltac:(lra) ltac:(lra) ltac:(lra) ltac:(lra)) as [B1 B2].
    assert (Q : double (sqrt 3) = 7800463371553962 * bpow radix2 (-52)).
    { apply double_concrete; [lia| |].
      - rewrite Rabs_pos_eq by apply sqrt_pos. cbn. lra.
      - cbn. apply Rabs_def1; lra. }
    rewrite Q. rewrite (double_concrete (7800463371553962 * bpow radix2 (-52) * (7800463371553962 * bpow radix2 (-52))) 6755399441055743 (-51)) by dbl.
    unfold fdiv. destruct (Reqb_spec (6755399441055743 * bpow radix2 (-51)) 0) as [W|_]; [exfalso; cbn in W; lra|]. cbn [fmap]. f_equal.
    rewrite (double_concrete (3 / (6755399441055743 * bpow radix2 (-51))) 4503599627370497 (-52)) by dbl. cbn. lra.
  - unfold exact_sam. rewrite sam_eq. apply sam_value_one; [exists 0%nat; cbn; split; [lia|lra]|]. exists 1. split; [lra|]. intros i Hi. unfold vscale. now rewrite Rmult_1_l.
  - unfold sam_float. rewrite (S2 dot HD), (S2 sop HS).
    destruct (SB 2 (636905167252577256 / 450359962737049600) (636905167252577257 / 450359962737049600) ltac:(lra) ltac:(lra) ltac:(lra) ltac:(lra)) as [B1 B2].
    assert (Q : double (sqrt 2) = 6369051672525773 * bpow radix2 (-52)).
    { apply double_concrete; [lia| |].
      - rewrite Rabs_pos_eq by apply sqrt_pos. cbn. lra.
      - cbn. apply Rabs_def1; lra. }
    rewrite Q. rewrite (double_concrete (6369051672525773 * bpow radix2 (-52) * (6369051672525773 * bpow radix2 (-52))) 4503599627370497 (-51)) by dbl.
    unfold fdiv. destruct (Reqb_spec (4503599627370497 * bpow radix2 (-51)) 0) as [W|_]; [exfalso; cbn in W; lra|]. cbn [fmap]. f_equal.
    rewrite (double_concrete (2 / (4503599627370497 * bpow radix2 (-51))) 9007199254740990 (-53)) by dbl. cbn. lra.
Qed.
Print Assumptions C96_range_refuted.

(** The hypotheses are met: adding from the left is such an order. *)
Definition left_to_right (l m : list R) : R := fold_left (fun acc ab => double (acc + double (fst ab * snd ab))) (combine l m) 0.
Lemma left_to_right_ok : dot_in_some_order double left_to_right.
Proof.
  intros l m L. unfold left_to_right.
  assert (G : forall x acc done, sums double done acc -> sums double (done ++ map (fun ab => fst ab * snd ab) x) (fold_left (fun acc ab => double (acc + double (fst ab * snd ab))) x acc)).
  { intros x. induction x as [|[a b] x IH]; intros acc done H; cbn [fold_left map]; [now rewrite app_nil_r|].
    replace (done ++ fst (a, b) * snd (a, b) :: map (fun ab => fst ab * snd ab) x) with ((done ++ (a * b) :: nil) ++ map (fun ab => fst ab * snd ab) x) by (rewrite <- app_assoc; reflexivity).
    apply IH. cbn [fst snd]. apply sum_add; [exact H|]. apply sum_term. }
  specialize (G (combine l m) 0 nil (sum_none _)). cbn [app] in G.
  replace (map2 Rmult l m) with (map (fun ab => fst ab * snd ab) (combine l m)); [exact G|].
  clear. revert m. induction l as [|x l IH]; intros [|y m]; cbn; try reflexivity. now rewrite IH.
Qed.
Example C96_met : exists v c, sam_float double left_to_right left_to_right (map IZR (3 :: 4 :: nil)%Z) (map IZR (4 :: 3 :: nil)%Z) = Fin v /\
  exact_sam (map IZR (3 :: 4 :: nil)%Z) (map IZR (4 :: 3 :: nil)%Z) = Fin c /\ Rabs (v - c) <= 5 * u53 /\ Rabs v <= 1 + 5 * u53.
Proof. apply C96_integers; try apply left_to_right_ok; try reflexivity; [exists 3%Z|exists 4%Z|cbn; lia|cbn; lia]; (split; [now left|lia]). Qed.

(* ------------------------------ C97 ----------------------------------- *)

(** The mean of one band, whatever the order of the additions: for digital numbers (integers)
    with absolute values summing up to at most 2^53 it is the double nearest to the exact mean,
    and demeaning subtracts that mean with one more rounding -- which leaves exact zeros where
    all values are equal. *)
Theorem C97_integers : forall total (xs : list Z), sum_in_some_order double total -> xs <> nil ->
  (fold_right Z.add 0 (map Z.abs xs) <= 2 ^ 53)%Z ->
  let mean := double (IZR (fold_right Z.add 0%Z xs) / INR (length xs)) in
  mean_float double total (map IZR xs) = Fin mean /\
  demean_float double total (map IZR xs) = map (fun x => Fin (double (IZR x - mean))) xs /\
  ((forall x y, In x xs -> In y xs -> x = y) -> demean_float double total (map IZR xs) = map (fun _ => Fin 0) xs).
Proof.
  intros total xs HT NE B mean.
  assert (SM : forall l, rsum (map IZR l) = IZR (fold_right Z.add 0%Z l)).
  { intros l. induction l as [|x l IH]; [reflexivity|]. cbn [map fold_right]. now rewrite rsum_cons, IH, plus_IZR. }
  assert (AB : rsum (map Rabs (map IZR xs)) <= IZR (2 ^ 53)).
  { apply IZR_le in B. rewrite <- SM, map_map in B. rewrite map_map. erewrite map_ext; [exact B|]. intros x. cbn. symmetry. apply abs_IZR. }
  destruct (sums_exact _ _ (HT (map IZR xs))) as [E _]; [intros x Hx; apply in_map_iff in Hx as (z & <- & _); now exists z|exact AB|].
  assert (L0 : INR (length xs) <> 0) by (apply not_0_INR; destruct xs; [contradiction|discriminate]).
  assert (M : mean_float double total (map IZR xs) = Fin mean).
  { unfold mean_float. rewrite E, SM, map_length. unfold fdiv. destruct (Reqb_spec (INR (length xs)) 0) as [Q|_]; [contradiction|]. reflexivity. }
  assert (D : demean_float double total (map IZR xs) = map (fun x => Fin (double (IZR x - mean))) xs).
  { unfold demean_float. rewrite M. cbn [fmap]. rewrite map_map. reflexivity. }
  split; [exact M|]. split; [exact D|]. intros EQ. rewrite D. apply map_ext_in. intros x Hx. f_equal.
  assert (ME : mean = IZR x); [|rewrite ME, Rminus_diag_eq by reflexivity; apply rne_0].
  assert (S : IZR (fold_right Z.add 0%Z xs) = INR (length xs) * IZR x).
  { clear - EQ Hx. assert (H : forall y, In y xs -> y = x) by (intros y Hy; now apply EQ). clear EQ Hx. induction xs as [|y xs IH]; [cbn; ring|]. cbn [fold_right length]. rewrite plus_IZR, S_INR, IH by (intros z Hz; apply H; now right). rewrite (H y (or_introl eq_refl)). ring. }
  unfold mean. rewrite S. replace (INR (length xs) * IZR x / INR (length xs)) with (IZR x) by (field; exact L0). apply double_fix, dfmt_int.
  apply Z.le_trans with (2 := B). clear - Hx. induction xs as [|y xs IH]; [destruct Hx|]. cbn [map fold_right].
  assert (N : forall l, (0 <= fold_right Z.add 0 (map Z.abs l))%Z) by (intros l; induction l; cbn; lia). destruct Hx as [ -> |Hx]; [pose proof (N xs); lia|]. specialize (IH Hx). lia.
Qed.
Print Assumptions C97_integers.

(** For any doubles, up to 2^20 of them: the mean is off by at most (n + 1) * 2^-53 times (a
    thousandth more than) the mean absolute value, plus a term of the size of underflow. *)
Theorem C97_error : forall total xs, sum_in_some_order double total -> xs <> nil -> (Z.of_nat (length xs) <= 2 ^ 20)%Z ->
  exists m, mean_float double total xs = Fin m /\
    Rabs (m - rsum xs / INR (length xs)) <= (INR (length xs) + 1) * u53 * (1001 / 1000) * (rsum (map Rabs xs) / INR (length xs)) + 4 * powerRZ 2 (-1075).
Proof.
  intros total xs HT NE LE. destruct (sums_error _ _ (HT xs)) as [_ E]. unfold u53. rewrite <- !bpow_pow.
  set (n := length xs) in *. set (u := bpow radix2 (-53)) in *. assert (U : u = / 9007199254740992) by apply u53_num.
  assert (NB : 1 <= INR n <= 1048576).
  { rewrite INR_IZR_INZ. split; [apply (IZR_le 1); unfold n; destruct xs; [contradiction|cbn [length]; lia]|apply (IZR_le _ (2 ^ 20)); lia]. }
  assert (NU : INR n * u <= / 1000000000) by (rewrite U; lra). assert (NU0 : 0 <= INR n * u) by (rewrite U; lra).
  pose proof (pow_bound u n ltac:(rewrite U; lra) ltac:(lra)) as PB. pose proof (pow_R1_Rle (1 + u) n ltac:(rewrite U; lra)) as G1. set (g := (1 + u) ^ n) in *.
  assert (GB : g - 1 <= 1000001 / 1000000 * (INR n * u)) by nra. assert (G2 : g <= 1001 / 1000) by lra.
  set (eta := bpow radix2 (-1075)) in *. assert (E0 : 0 < eta) by apply bpow_gt_0. clearbody g.
  pose proof (rsum_abs_nonneg xs) as A0. pose proof (rsum_abs xs) as A1. set (A := rsum (map Rabs xs)) in *. set (s := rsum xs) in *.
  unfold mean_float, fdiv. fold n. destruct (Reqb_spec (INR n) 0) as [Q|_]; [lra|]. cbn [fmap]. eexists. split; [reflexivity|].
  destruct (double_err (total xs / INR n)) as (e & k & B & K & ->). fold u in B. fold eta in K.
  set (N := INR n) in *. assert (I0 : 0 < / N) by (apply Rinv_0_lt_compat; lra). assert (I1 : / N <= 1) by (rewrite <- Rinv_1; apply Rinv_le; lra).
  set (a := A / N). assert (a0 : 0 <= a) by (apply Rmult_le_pos; lra).
  set (d := (total xs - s) / N).
  assert (DB : Rabs d <= (g - 1) * a + g * eta).
  { unfold d, Rdiv. rewrite Rabs_mult, (Rabs_pos_eq (/ N)) by lra. apply Rmult_le_reg_r with N; [lra|]. rewrite Rmult_assoc, Rinv_l, Rmult_1_r by lra. apply Rle_trans with (1 := E). unfold a. right. field. lra. }
  assert (SB : Rabs (s / N) <= a). { unfold a, Rdiv. rewrite Rabs_mult, (Rabs_pos_eq (/ N)) by lra. apply Rmult_le_compat_r; lra. }
  replace (total xs / N * (1 + e) + k - s / N) with (s / N * e + (d * (1 + e) + k)) by (unfold d; field; lra).
  apply Rle_trans with (1 := Rabs_triang _ _). pose proof (Rabs_triang (d * (1 + e)) k) as T2. rewrite !Rabs_mult in *.
  assert (X1 : Rabs (s / N) * Rabs e <= a * u) by (apply Rmult_le_compat; try apply Rabs_pos; assumption).
  assert (X2 : Rabs (1 + e) <= 1000001 / 1000000) by (apply Rle_trans with (1 := Rabs_triang _ _); rewrite Rabs_R1; rewrite U in B; lra).
  assert (X3 : Rabs d * Rabs (1 + e) <= ((g - 1) * a + g * eta) * (1000001 / 1000000)) by (apply Rmult_le_compat; try apply Rabs_pos; assumption).
  assert (X4 : (g - 1) * a <= 1000001 / 1000000 * (N * u) * a) by (apply Rmult_le_compat_r; assumption).
  assert (X5 : g * eta <= 1001 / 1000 * eta) by (apply Rmult_le_compat_r; lra).
  assert (X6 : 0 <= N * u * a) by (apply Rmult_le_pos; assumption). assert (X7 : 0 <= u * a) by (apply Rmult_le_pos; [rewrite U; lra|exact a0]).
  replace ((N + 1) * u * (1001 / 1000) * a) with (1001 / 1000 * (N * u * a) + 1001 / 1000 * (u * a)) by ring.
  replace (1000001 / 1000000 * (N * u) * a) with (1000001 / 1000000 * (N * u * a)) in X4 by ring. rewrite (Rmult_comm a u) in X1.
  clear - X1 X3 X4 X5 X6 X7 T2 K E0. set (p := N * u * a) in *. set (q := u * a) in *. set (r := (g - 1) * a) in *. set (o := g * eta) in *. clearbody p q r o. lra.
Qed.
Print Assumptions C97_error.

(** That demeaning a constant band of doubles gives zeros: refuted, for every order of the
    additions.  Three times the double nearest to 0.1. *)
Theorem C97_constant_refuted : exists x, is_double x /\ forall total, sum_in_some_order double total ->
  exists y, demean_float double total (x :: x :: x :: nil) = Fin y :: Fin y :: Fin y :: nil /\ y < 0.
Proof.
  exists (7205759403792794 * bpow radix2 (-56)). assert (F : dfmt (7205759403792794 * bpow radix2 (-56))) by (apply (dfmt_pow 7205759403792794); lia).
  split; [apply is_float_iff; [exact prec53|exact F]|]. intros total HT. set (x := 7205759403792794 * bpow radix2 (-56)) in *.
  assert (S : total (x :: x :: x :: nil) = few x 3) by (apply (sums_few x (x :: x :: x :: nil) _ F (HT _)); [intros y Hy; cbn in Hy; intuition|cbn; lia]). cbn [few] in S.
  assert (M : mean_float double total (x :: x :: x :: nil) = Fin (7205759403792795 * bpow radix2 (-56))).
  { unfold mean_float. rewrite S. unfold x. rewrite (double_tie (3 * (7205759403792794 * bpow radix2 (-56))) 5404319552844596 (-54)); [|lia|dbl|reflexivity|cbn; lra].
    cbn [length]. replace (INR 3) with 3 by (cbn; ring). unfold fdiv. destruct (Reqb_spec 3 0) as [Q|_]; [lra|]. cbn [fmap]. f_equal. apply double_concrete; dbl. }
  unfold demean_float. rewrite M. cbn [map fmap]. eexists. split; [reflexivity|].
  assert (E : x - 7205759403792795 * bpow radix2 (-56) = IZR (-1) * bpow radix2 (-56)) by (unfold x; ring). rewrite E, double_fix by (apply (dfmt_pow (-1)); lia). cbn. lra.
Qed.
Print Assumptions C97_constant_refuted.

Definition sum_left (l : list R) : R := fold_left (fun acc x => double (acc + double x)) l 0.
Example C97_met : sum_in_some_order double sum_left /\ mean_float double sum_left (map IZR (1 :: 2 :: 4 :: nil)%Z) = Fin (double (7 / 3)).
Proof.
  assert (H : sum_in_some_order double sum_left).
  { intros l. unfold sum_left. assert (G : forall x acc done, sums double done acc -> sums double (done ++ x) (fold_left (fun acc x => double (acc + double x)) x acc)).
    { intros x. induction x as [|a x IH]; intros acc done H; cbn [fold_left]; [now rewrite app_nil_r|].
      replace (done ++ a :: x) with ((done ++ a :: nil) ++ x) by (rewrite <- app_assoc; reflexivity). apply IH. apply sum_add; [exact H|]. apply sum_term. }
    exact (G l 0 nil (sum_none _)). }
  split; [exact H|]. destruct (C97_integers sum_left (1 :: 2 :: 4 :: nil)%Z H) as [M _]; [discriminate|cbn; lia|]. rewrite M. cbn. repeat f_equal. lra.
Qed.
