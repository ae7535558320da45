(** Lemmas on rounding. *)
From Coq Require Import Reals Lra Lia ZArith List.
From Flocq Require Import Core Plus_error Relative.
From Verif Require Import RAux M_Float Spec_Float.
Open Scope R_scope.
Open Scope list_scope.

Lemma bpow_pow e : bpow radix2 e = powerRZ 2 e.
Proof. apply bpow_powerRZ. Qed.

Section Rne.
Variables emin prec : Z.
Context {prec_gt_0_ : Prec_gt_0 prec}.
Notation fmt := (generic_format radix2 (FLT_exp emin prec)).
Notation r := (rne emin prec).

Lemma is_float_iff x : is_float emin prec x <-> fmt x.
Proof.
  split.
  - intros (m & e & -> & Hm & He). apply generic_format_FLT. exists (Float radix2 m e); cbn [Fnum Fexp]; [|exact Hm|exact He]. unfold F2R. cbn [Fnum Fexp]. now rewrite bpow_pow.
  - intros H. apply FLT_format_generic in H; [|assumption]. destruct H as [[m e] E Hm He]. cbn [Fnum Fexp] in *. exists m, e. unfold F2R in E. cbn [Fnum Fexp] in E. rewrite <- bpow_pow. auto.
Qed.
Lemma rne_le x y : x <= y -> r x <= r y.
Proof. intros H. apply round_le; [typeclasses eauto|typeclasses eauto|exact H]. Qed.
Lemma rne_fix x : fmt x -> r x = x.
Proof. intros H. apply round_generic; [typeclasses eauto|exact H]. Qed.
Lemma rne_fmt x : fmt (r x).
Proof. apply generic_format_round; typeclasses eauto. Qed.
Lemma rne_0 : r 0 = 0.
Proof. apply round_0. typeclasses eauto. Qed.
Lemma fmt_0 : fmt 0.
Proof. apply generic_format_0. Qed.
Lemma fmt_opp x : fmt x -> fmt (- x).
Proof. apply generic_format_opp. Qed.
Lemma rne_opp x : r (- x) = - r x.
Proof. unfold rne. apply round_NE_opp. Qed.
Lemma rne_minus_neq_0 x y : fmt x -> fmt y -> x <> y -> r (x - y) <> 0.
Proof. intros Hx Hy N. unfold Rminus. apply round_plus_neq_0; try typeclasses eauto; [exact Hx|now apply fmt_opp|]. intros Q. apply N. lra. Qed.
Lemma rne_ge x y : fmt x -> x <= y -> x <= r y.
Proof. intros F H. rewrite <- (rne_fix x F). now apply rne_le. Qed.
Lemma rne_le_fmt x y : fmt y -> x <= y -> r x <= y.
Proof. intros F H. rewrite <- (rne_fix y F). now apply rne_le. Qed.

Lemma fmt_mult_pow m e : (Z.abs m <= 2 ^ prec)%Z -> (emin <= e)%Z -> fmt (IZR m * bpow radix2 e).
Proof.
  intros H He. assert (P := prec_gt_0_). unfold Prec_gt_0 in P. destruct (Z.eq_dec (Z.abs m) (2 ^ prec)) as [Q|Q].
  - assert (G : fmt (IZR (2 ^ prec) * bpow radix2 e)).
    { change 2%Z with (radix_val radix2). rewrite IZR_Zpower by lia. rewrite <- bpow_plus. apply generic_format_FLT_bpow; [assumption|lia]. }
    destruct (Z.abs_spec m) as [[_ E]|[_ E]]; rewrite E in Q; [now rewrite Q|]. replace m with (- (2 ^ prec))%Z by lia. rewrite opp_IZR, Ropp_mult_distr_l_reverse. now apply fmt_opp.
  - apply is_float_iff. exists m, e. rewrite <- bpow_pow. split; [reflexivity|]. lia.
Qed.
Lemma fmt_IZR m : (emin <= 0)%Z -> (Z.abs m <= 2 ^ prec)%Z -> fmt (IZR m).
Proof. intros He H. rewrite <- (Rmult_1_r (IZR m)). change 1 with (bpow radix2 0). now apply fmt_mult_pow. Qed.

Lemma rne_concrete x m e : (emin <= e)%Z -> bpow radix2 (e + prec - 1) <= Rabs x < bpow radix2 (e + prec) ->
  Rabs (x * bpow radix2 (- e) - IZR m) < / 2 -> r x = IZR m * bpow radix2 e.
Proof.
  intros He M N. unfold rne, round, F2R, scaled_mantissa. cbn [Fnum Fexp].
  assert (C : cexp radix2 (FLT_exp emin prec) x = e).
  { unfold cexp. rewrite (mag_unique _ _ _ M). unfold FLT_exp. lia. }
  rewrite C. f_equal. f_equal. now apply Znearest_imp.
Qed.

(** x - n for a float x and an integer n *)
Lemma fmt_minus_IZR x n : (emin <= 0)%Z -> fmt x -> 0 <= x <= IZR (2 ^ prec) -> Rabs (x - IZR n) <= x -> fmt (x - IZR n).
Proof.
  intros He F B H. apply is_float_iff in F as (m & e & E & Hm & Hee). rewrite <- bpow_pow in E.
  destruct (Z.le_gt_cases 0 e) as [P|N].
  - assert (EI : x = IZR (m * 2 ^ e)) by (rewrite mult_IZR; change 2%Z with (radix_val radix2); rewrite IZR_Zpower by exact P; exact E).
    rewrite EI in *. rewrite <- minus_IZR in *. apply fmt_IZR; [exact He|]. apply le_IZR. rewrite abs_IZR. lra.
  - assert (EI : x - IZR n = IZR (m - n * 2 ^ (- e)) * bpow radix2 e).
    { rewrite E, minus_IZR, mult_IZR. change 2%Z with (radix_val radix2). rewrite IZR_Zpower by lia. rewrite Rmult_minus_distr_r, Rmult_assoc, <- bpow_plus. replace (- e + e)%Z with 0%Z by lia. cbn [bpow]. ring. }
    rewrite EI. apply fmt_mult_pow; [|exact Hee]. apply le_IZR. rewrite abs_IZR.
    apply Rmult_le_reg_r with (bpow radix2 e); [apply bpow_gt_0|]. rewrite <- (Rabs_pos_eq (bpow radix2 e)) at 1 by apply bpow_ge_0. rewrite <- Rabs_mult, <- EI.
    apply Rle_trans with (1 := H). rewrite E. apply Rmult_le_compat_r; [apply bpow_ge_0|]. apply IZR_le. lia.
Qed.

(** The fractional part of a float *)
Lemma fmt_frac x k : (emin <= 0)%Z -> fmt x -> 0 <= x -> IZR k <= x < IZR k + 1 -> fmt (x - IZR k).
Proof.
  intros He F B H. assert (K : (0 <= k)%Z). { assert (Q : IZR (-1) < IZR k) by (change (IZR (-1)) with (-1); lra). apply lt_IZR in Q. lia. }
  apply IZR_le in K. apply is_float_iff in F as (m & e & E & Hm & Hee). rewrite <- bpow_pow in E.
  destruct (Z.le_gt_cases 0 e) as [P|N].
  - assert (EI : x = IZR (m * 2 ^ e)) by (rewrite mult_IZR; change 2%Z with (radix_val radix2); rewrite IZR_Zpower by exact P; exact E).
    assert (Q : (m * 2 ^ e = k)%Z). { rewrite EI in H. destruct H as [H1 H2]. apply le_IZR in H1. rewrite <- plus_IZR in H2. apply lt_IZR in H2. lia. }
    rewrite EI, Q. replace (IZR k - IZR k) with 0 by ring. apply fmt_0.
  - assert (EI : x - IZR k = IZR (m - k * 2 ^ (- e)) * bpow radix2 e).
    { rewrite E, minus_IZR, mult_IZR. change 2%Z with (radix_val radix2). rewrite IZR_Zpower by lia. rewrite Rmult_minus_distr_r, Rmult_assoc, <- bpow_plus. replace (- e + e)%Z with 0%Z by lia. cbn [bpow]. ring. }
    rewrite EI. apply fmt_mult_pow; [|exact Hee]. apply le_IZR. rewrite abs_IZR.
    apply Rmult_le_reg_r with (bpow radix2 e); [apply bpow_gt_0|]. rewrite <- (Rabs_pos_eq (bpow radix2 e)) at 1 by apply bpow_ge_0. rewrite <- Rabs_mult, <- EI.
    rewrite Rabs_pos_eq by lra. apply Rle_trans with x; [lra|]. rewrite E. apply Rmult_le_compat_r; [apply bpow_ge_0|]. apply IZR_le. lia.
Qed.

(** A quotient below a whole number does not round up to it *)
Lemma quotient_below g c K : (emin <= - prec - 1)%Z -> fmt g -> 0 < c -> (1 <= K)%Z -> fmt (IZR K) -> fmt (IZR K * c) ->
  0 <= g < IZR K * c -> r (g / c) < IZR K.
Proof.
  intros He Fg Hc HK FK FKc [G0 G1]. assert (P := prec_gt_0_). unfold Prec_gt_0 in P.
  set (f := FLT_exp emin prec) in *. set (u := bpow radix2 (- prec)). assert (U : 0 < u) by apply bpow_gt_0.
  assert (KR : 1 <= IZR K) by now apply IZR_le in HK.
  set (G := IZR K * c) in *. assert (GP : 0 < G) by (unfold G; apply Rmult_lt_0_compat; lra).
  (* the gap below G *)
  set (pG := pred radix2 f G). assert (E1 : pG + ulp radix2 f pG = G) by (apply pred_plus_ulp; [typeclasses eauto|exact GP|exact FKc]).
  assert (gle : g <= pG) by (apply pred_ge_gt; [typeclasses eauto|exact Fg|exact FKc|exact G1]).
  assert (pG0 : 0 <= pG) by lra.
  assert (D1 : pG * u <= ulp radix2 f pG).
  { destruct (Rle_lt_or_eq_dec _ _ pG0) as [Q|Q]; [|rewrite <- Q, Rmult_0_l; apply ulp_ge_0]. left. pose proof (ulp_FLT_gt radix2 emin prec pG) as W. rewrite Rabs_pos_eq in W by exact pG0. exact W. }
  (* the gap below K *)
  set (pK := pred radix2 f (IZR K)). assert (E2 : pK + ulp radix2 f pK = IZR K) by (apply pred_plus_ulp; [typeclasses eauto|lra|exact FK]).
  assert (half : bpow radix2 (-1) <= pK).
  { apply pred_ge_gt; [typeclasses eauto| |exact FK|]; [apply generic_format_FLT_bpow; [assumption|lia]|]. cbn. lra. }
  assert (D2 : ulp radix2 f pK <= pK * (2 * u)).
  { pose proof (ulp_FLT_le radix2 emin prec pK) as W. rewrite Rabs_pos_eq in W by (cbn in half; lra).
    replace (2 * u) with (bpow radix2 (1 - prec)) by (unfold u, Zminus; rewrite bpow_plus; reflexivity). apply W. apply Rle_trans with (2 := half). apply bpow_le. lia. }
  assert (pKF : fmt pK) by (apply generic_format_pred; [typeclasses eauto|exact FK]).
  apply Rle_lt_trans with pK; [|cbn in half; assert (0 < ulp radix2 f pK) by (rewrite ulp_neq_0 by (cbn in half; lra); apply bpow_gt_0); lra].
  apply round_N_le_midp; [typeclasses eauto|exact pKF|]. unfold pK at 2. rewrite succ_pred by (try typeclasses eauto; exact FK).
  assert (D3 : g / c <= pG / c) by (apply Rmult_le_compat_r; [left; now apply Rinv_0_lt_compat|exact gle]).
  apply Rle_lt_trans with (1 := D3).
  (* G - pG >= G u / (1 + u), K - pK <= 2 u K / (1 + 2 u) *)
  assert (I1 : pG * (1 + u) <= G) by lra. assert (I2 : IZR K <= pK * (1 + 2 * u)) by lra.
  assert (Q1 : pG / c * (1 + u) <= IZR K).
  { apply Rmult_le_reg_r with c; [exact Hc|]. replace (pG / c * (1 + u) * c) with (pG * (1 + u)) by (field; lra). exact I1. }
  set (a := pG / c) in *.
  apply Rmult_lt_reg_r with ((1 + u) * 2); [nra|]. replace ((pK + IZR K) / 2 * ((1 + u) * 2)) with ((pK + IZR K) * (1 + u)) by field.
  apply Rle_lt_trans with (2 * IZR K); [lra|]. assert (pK > 0) by (cbn in half; lra).
  assert (IZR K - pK <= 2 * u * pK) by lra. assert (IZR K > pK) by (assert (0 < ulp radix2 f pK) by (rewrite ulp_neq_0 by lra; apply bpow_gt_0); lra). nra.
Qed.
End Rne.

(** Doubles *)
Global Instance prec53 : Prec_gt_0 53.
Proof. reflexivity. Qed.
Notation dfmt := (generic_format radix2 (FLT_exp (-1074) 53)).
Lemma double_concrete x m e : (-1074 <= e)%Z -> bpow radix2 (e + 53 - 1) <= Rabs x < bpow radix2 (e + 53) ->
  Rabs (x * bpow radix2 (- e) - IZR m) < / 2 -> double x = IZR m * bpow radix2 e.
Proof. apply rne_concrete. Qed.
Lemma double_fix x : dfmt x -> double x = x.
Proof. apply rne_fix. Qed.
Lemma dfmt_int m : (Z.abs m <= 2 ^ 53)%Z -> dfmt (IZR m).
Proof. intros H. apply fmt_IZR; [typeclasses eauto|lia|exact H]. Qed.
Lemma dfmt_pow m e : (Z.abs m <= 2 ^ 53)%Z -> (-1074 <= e)%Z -> dfmt (IZR m * bpow radix2 e).
Proof. apply fmt_mult_pow. exact prec53. Qed.
Lemma double_err x : exists eps eta, Rabs eps <= bpow radix2 (-53) /\ Rabs eta <= bpow radix2 (-1075) /\ double x = x * (1 + eps) + eta.
Proof.
  destruct (error_N_FLT radix2 (-1074) 53 eq_refl (fun t => negb (Z.even t)) x) as (e & n & H1 & H2 & _ & H3). exists e, n.
  split; [|split; [|exact H3]].
  - apply Rle_trans with (1 := H1). change (-53)%Z with (-1 + (-53 + 1))%Z. rewrite (bpow_plus radix2 (-1)). right. reflexivity.
  - apply Rle_trans with (1 := H2). change (-1075)%Z with (-1 + -1074)%Z. rewrite (bpow_plus radix2 (-1)). right. reflexivity.
Qed.
Lemma double_plus_err x y : dfmt x -> dfmt y -> exists eps, Rabs eps <= bpow radix2 (-53) /\ double (x + y) = (x + y) * (1 + eps).
Proof.
  intros Fx Fy. destruct (FLT_plus_error_N_ex radix2 (-1074) 53 (fun t => negb (Z.even t)) x y Fx Fy) as (e & H1 & H2). exists e. split; [|exact H2].
  apply Rle_trans with (1 := H1). assert (U : u_ro radix2 53 = bpow radix2 (-53)).
  { unfold u_ro. change (-53)%Z with (-1 + (-53 + 1))%Z. rewrite (bpow_plus radix2 (-1)). reflexivity. }
  rewrite U. pose proof (bpow_gt_0 radix2 (-53)) as P. apply Rmult_le_reg_r with (1 + bpow radix2 (-53)); [lra|]. replace (bpow radix2 (-53) / (1 + bpow radix2 (-53)) * (1 + bpow radix2 (-53))) with (bpow radix2 (-53)) by (field; lra). nra.
Qed.

(** Concrete roundings *)
Ltac dbl := match goal with
  | |- _ <= _ < _ => cbn; (rewrite Rabs_pos_eq by lra || rewrite Rabs_left by lra); lra
  | |- Rabs _ < _ => cbn; apply Rabs_def1; lra
  | |- _ => lia end.

(** Products of factors near 1 *)
Lemma near_mult x y a b : Rabs (x - 1) <= a -> Rabs (y - 1) <= b -> Rabs (x * y - 1) <= a + b + a * b.
Proof.
  intros Hx Hy. replace (x * y - 1) with ((x - 1) + (y - 1) + (x - 1) * (y - 1)) by ring.
  apply Rle_trans with (1 := Rabs_triang _ _). pose proof (Rabs_triang (x - 1) (y - 1)). rewrite Rabs_mult. pose proof (Rabs_pos (x - 1)). pose proof (Rabs_pos (y - 1)).
  assert (Rabs (x - 1) * Rabs (y - 1) <= a * b) by (apply Rmult_le_compat; lra). lra.
Qed.
Lemma near_1 e a : Rabs e <= a -> Rabs (1 + e - 1) <= a.
Proof. intros H. now replace (1 + e - 1) with e by ring. Qed.
Lemma near_inv e u : Rabs e <= u -> u <= / 100 -> Rabs (/ (1 + e) - 1) <= u * (102 / 100).
Proof.
  intros H U. assert (- u <= e <= u) by (split; [pose proof (Rle_abs (- e)) as Q; rewrite Rabs_Ropp in Q; lra|pose proof (Rle_abs e); lra]).
  replace (/ (1 + e) - 1) with (- e * / (1 + e)) by (field; lra). rewrite Rabs_mult, Rabs_Ropp. pose proof (Rabs_pos e).
  apply Rle_trans with (u * Rabs (/ (1 + e))); [apply Rmult_le_compat_r; [apply Rabs_pos|exact H]|].
  apply Rmult_le_compat_l; [lra|]. rewrite Rabs_pos_eq by (left; apply Rinv_0_lt_compat; lra). apply Rmult_le_reg_r with (1 + e); [lra|]. rewrite Rinv_l by lra. lra.
Qed.
Lemma u53_num : bpow radix2 (-53) = / 9007199254740992.
Proof. reflexivity. Qed.
Lemma eta_small : bpow radix2 (-1075) <= bpow radix2 (-53) * bpow radix2 (-400) * bpow radix2 (-400) * bpow radix2 (-100).
Proof. rewrite <- !bpow_plus. apply bpow_le. lia. Qed.
