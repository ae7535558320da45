(** Sums of floats in any order. *)
From Coq Require Import Reals Lra Lia ZArith List Permutation.
From Flocq Require Import Core Relative.
From Verif Require Import Py RAux LinAlg M_Float Spec_Float P_Float.
Open Scope R_scope.
Open Scope list_scope.

Lemma rsum_app l l' : rsum (l ++ l') = rsum l + rsum l'.
Proof. unfold rsum. induction l as [|x l IH]; cbn [fold_right app]; lra. Qed.
Lemma rsum_perm l l' : Permutation l l' -> rsum l = rsum l'.
Proof. unfold rsum. induction 1; cbn; lra. Qed.
Lemma rsum_cons x l : rsum (x :: l) = x + rsum l.
Proof. reflexivity. Qed.
Lemma rsum_abs_nonneg l : 0 <= rsum (map Rabs l).
Proof. induction l as [|x l IH]; [apply Rle_refl|]. cbn [map]. rewrite rsum_cons. pose proof (Rabs_pos x). lra. Qed.
Lemma rsum_abs l : Rabs (rsum l) <= rsum (map Rabs l).
Proof. induction l as [|x l IH]; [unfold rsum; cbn; rewrite Rabs_R0; lra|]. cbn [map]. rewrite !rsum_cons. pose proof (Rabs_triang x (rsum l)). lra. Qed.

(** Integers whose absolute values sum up to at most 2^53 are added exactly *)
Lemma sums_exact l v : sums double l v -> (forall x, In x l -> exists n, x = IZR n) -> rsum (map Rabs l) <= IZR (2 ^ 53) -> v = rsum l /\ exists n, v = IZR n.
Proof.
  assert (K : forall n, Rabs (IZR n) <= IZR (2 ^ 53) -> double (IZR n) = IZR n).
  { intros n H. apply double_fix, dfmt_int. apply le_IZR. now rewrite abs_IZR. }
  induction 1 as [|t|t l a H IH|l l' a a' H IH H' IH'|l l' a P H IH]; intros HI HB.
  - split; [reflexivity|now exists 0%Z].
  - destruct (HI t (or_introl eq_refl)) as (n & ->). unfold rsum in *. cbn in HB |- *. rewrite Rplus_0_r in *. rewrite K by exact HB. split; [reflexivity|now exists n].
  - cbn [map] in HB. rewrite rsum_cons in HB. pose proof (Rabs_pos t). destruct IH as (-> & n & E); [intros x Hx; apply HI; now right|lra|].
    destruct (HI t (or_introl eq_refl)) as (k & ->). rewrite E, rsum_cons, E, <- plus_IZR. rewrite K; [|rewrite plus_IZR, <- E; pose proof (rsum_abs l); pose proof (Rabs_triang (rsum l) (IZR k)); lra].
    split; [rewrite plus_IZR; ring|now exists (n + k)%Z].
  - rewrite map_app, rsum_app in HB. pose proof (rsum_abs_nonneg l). pose proof (rsum_abs_nonneg l').
    destruct IH as (-> & n & E); [intros x Hx; apply HI, in_or_app; now left|lra|]. destruct IH' as (-> & n' & E'); [intros x Hx; apply HI, in_or_app; now right|lra|].
    rewrite rsum_app, E, E', <- plus_IZR. rewrite K; [|rewrite plus_IZR, <- E, <- E'; pose proof (rsum_abs l); pose proof (rsum_abs l'); pose proof (Rabs_triang (rsum l) (rsum l')); lra].
    split; [reflexivity|now eexists].
  - rewrite <- (rsum_perm _ _ P). apply IH; [intros x Hx; apply HI; now apply (Permutation_in _ P)|].
    rewrite (rsum_perm _ (map Rabs l')); [exact HB|now apply Permutation_map].
Qed.

Lemma sums_nil x w : sums double x w -> x = nil -> w = 0.
Proof.
  intros H. induction H as [|t|t l a H IH|l l' a a' H IH H' IH'|l l' a P H IH]; intros Q; try discriminate; [reflexivity| |].
  - apply app_eq_nil in Q as [Q1 Q2]. rewrite (IH Q1), (IH' Q2), Rplus_0_r. apply rne_0.
  - apply IH. subst. now apply Permutation_sym, Permutation_nil in P.
Qed.

(** Doubles: the error of n terms *)
Lemma sums_error l v : sums double l v ->
  dfmt v /\ Rabs (v - rsum l) <= ((1 + bpow radix2 (-53)) ^ length l - 1) * rsum (map Rabs l) + INR (length l) * (1 + bpow radix2 (-53)) ^ length l * bpow radix2 (-1075).
Proof.
  set (u := bpow radix2 (-53)). set (eta := bpow radix2 (-1075)). assert (U : 0 < u) by apply bpow_gt_0. assert (E0 : 0 < eta) by apply bpow_gt_0.
  assert (G1 : forall n, 1 <= (1 + u) ^ n) by (intros n; apply pow_R1_Rle; lra).
  assert (MON : forall n m, (n <= m)%nat -> (1 + u) ^ n <= (1 + u) ^ m) by (intros n m H; apply Rle_pow; [lra|exact H]).
  induction 1 as [|t|t l a H IH|l l' a a' H IH H' IH'|l l' a P H IH].
  - split; [apply fmt_0|]. cbn. rewrite Rminus_diag_eq by reflexivity. rewrite Rabs_R0. lra.
  - split; [apply rne_fmt, prec53|]. destruct (double_err t) as (e & n & A & B & ->). cbn [length map]. unfold rsum. cbn [fold_right pow INR]. fold u in A. fold eta in B.
    replace (t * (1 + e) + n - (t + 0)) with (t * e + n) by ring. apply Rle_trans with (1 := Rabs_triang _ _). rewrite Rabs_mult. pose proof (Rabs_pos t).
    assert (Rabs t * Rabs e <= Rabs t * u) by (apply Rmult_le_compat_l; assumption). assert (0 < u * eta) by (apply Rmult_lt_0_compat; lra). lra.
  - destruct IH as (F & IH). split; [apply rne_fmt, prec53|]. destruct (double_err (a + t)) as (e & n & A & B & ->). fold u in A. fold eta in B.
    cbn [length map]. rewrite !rsum_cons. set (k := length l) in *. set (W := rsum (map Rabs l)) in *. assert (W0 : 0 <= W) by apply rsum_abs_nonneg.
    pose proof (rsum_abs l) as AB. fold W in AB. set (s := rsum l) in *. pose proof (G1 k) as Gk. set (g := (1 + u) ^ k) in *. cbn [pow]. fold g. rewrite S_INR. pose proof (pos_INR k) as Kp.
    replace ((a + t) * (1 + e) + n - (t + s)) with ((a - s) * (1 + e) + (s * e + t * e + n)) by ring.
    assert (E1 : Rabs (1 + e) <= 1 + u) by (apply Rle_trans with (1 := Rabs_triang _ _); rewrite Rabs_R1; lra).
    assert (S1 : Rabs ((a - s) * (1 + e)) <= ((g - 1) * W + INR k * g * eta) * (1 + u)) by (rewrite Rabs_mult; apply Rmult_le_compat; try apply Rabs_pos; assumption).
    assert (S2 : Rabs (s * e + t * e + n) <= W * u + Rabs t * u + eta).
    { apply Rle_trans with (1 := Rabs_triang _ _). pose proof (Rabs_triang (s * e) (t * e)) as Q. rewrite !Rabs_mult in Q. pose proof (Rabs_pos s). pose proof (Rabs_pos t). pose proof (Rabs_pos e).
      assert (Rabs s * Rabs e <= W * u) by (apply Rmult_le_compat; assumption). assert (Rabs t * Rabs e <= Rabs t * u) by (apply Rmult_le_compat_l; assumption). lra. }
    apply Rle_trans with (1 := Rabs_triang _ _). pose proof (Rabs_pos t) as T0.
    assert (H1 : u * 1 * Rabs t <= ((1 + u) * g - 1) * Rabs t) by (apply Rmult_le_compat_r; [exact T0|nra]).
    assert (H2 : 1 * eta <= (1 + u) * g * eta) by (apply Rmult_le_compat_r; [lra|nra]).
    nra.
  - destruct IH as (F & IH). destruct IH' as (F' & IH').
    destruct (length l) as [|n0] eqn:K0.
    { apply length_zero_iff_nil in K0. subst l. rewrite (sums_nil _ _ H eq_refl), Rplus_0_l, (double_fix a' F'). split; [exact F'|exact IH']. }
    destruct (length l') as [|n0'] eqn:K0'.
    { apply length_zero_iff_nil in K0'. subst l'. rewrite (sums_nil _ _ H' eq_refl), Rplus_0_r, (double_fix a F), app_nil_r, K0. split; [exact F|exact IH]. }
    rewrite <- K0 in IH. rewrite <- K0' in IH'.
    split; [apply rne_fmt, prec53|]. destruct (double_plus_err a a' F F') as (e & A & ->). fold u in A.
    rewrite app_length, map_app, !rsum_app, plus_INR.
    pose proof (rsum_abs_nonneg l) as W0. pose proof (rsum_abs_nonneg l') as W0'. pose proof (rsum_abs l) as AB. pose proof (rsum_abs l') as AB'. pose proof (pos_INR (length l)) as Kp. pose proof (pos_INR (length l')) as Kp'.
    set (W := rsum (map Rabs l)) in *. set (W' := rsum (map Rabs l')) in *. set (s := rsum l) in *. set (s' := rsum l') in *. set (k := length l) in *. set (k' := length l') in *. clearbody W W' s s'.
    assert (E1 : Rabs (1 + e) <= 1 + u) by (apply Rle_trans with (1 := Rabs_triang _ _); rewrite Rabs_R1; lra).
    assert (STEP : forall n x y m, (1 + n <= m)%nat -> 0 <= y -> forall z, Rabs z <= y -> Rabs (x - z) <= ((1 + u) ^ n - 1) * y + INR n * (1 + u) ^ n * eta ->
       Rabs (x * (1 + e) - z) <= ((1 + u) ^ m - 1) * y + INR n * (1 + u) ^ m * eta).
    { intros n x y m Hm Hy z Az B. pose proof (MON _ _ Hm) as G. cbn [Nat.add pow] in G. pose proof (G1 n) as Gn. set (g := (1 + u) ^ n) in *. set (h := (1 + u) ^ m) in *. pose proof (pos_INR n) as Np.
        replace (x * (1 + e) - z) with ((x - z) * (1 + e) + z * e) by ring. apply Rle_trans with (1 := Rabs_triang _ _). rewrite !Rabs_mult.
        assert (S1 : Rabs (x - z) * Rabs (1 + e) <= ((g - 1) * y + INR n * g * eta) * (1 + u)) by (apply Rmult_le_compat; try apply Rabs_pos; assumption).
        assert (S2 : Rabs z * Rabs e <= y * u) by (apply Rmult_le_compat; try apply Rabs_pos; assumption).
        assert (S3 : ((1 + u) * g) * y <= h * y) by (apply Rmult_le_compat_r; assumption).
        assert (S4 : ((1 + u) * g) * (INR n * eta) <= h * (INR n * eta)) by (apply Rmult_le_compat_r; [apply Rmult_le_pos; lra|assumption]). lra. }
    replace ((a + a') * (1 + e) - (s + s')) with ((a * (1 + e) - s) + (a' * (1 + e) - s')) by ring. apply Rle_trans with (1 := Rabs_triang _ _).
    pose proof (STEP k a W (k + k')%nat ltac:(lia) W0 s AB IH). pose proof (STEP k' a' W' (k + k')%nat ltac:(lia) W0' s' AB' IH'). lra.
  - destruct IH as (F & IH). split; [exact F|]. rewrite <- (rsum_perm _ _ P), <- (Permutation_length P). rewrite <- (rsum_perm (map Rabs l) (map Rabs l')); [exact IH|now apply Permutation_map].
Qed.

Lemma rsum_dot l m : length l = length m -> rsum (map2 Rmult l m) = dot (length m) (fun b => nth b l 0) (fun b => nth b m 0).
Proof.
  revert m. unfold dot. induction l as [|x l IH]; intros [|y m] H; try discriminate; [reflexivity|].
  cbn [map2 length]. rewrite rsum_cons, IH by (cbn in H; lia). unfold bigsum. cbn [seq map rsum fold_right nth]. rewrite <- seq_shift, map_map. reflexivity.
Qed.
Lemma abs_cauchy l m : length l = length m -> rsum (map Rabs (map2 Rmult l m)) <= sqrt (rsum (map2 Rmult l l)) * sqrt (rsum (map2 Rmult m m)).
Proof.
  intros L.
  assert (E : map Rabs (map2 Rmult l m) = map2 Rmult (map Rabs l) (map Rabs m)).
  { clear L. revert m. induction l as [|x l IH]; intros [|y m]; cbn; try reflexivity. now rewrite Rabs_mult, IH. }
  assert (Q : forall k, map2 Rmult (map Rabs k) (map Rabs k) = map2 Rmult k k).
  { intros k. induction k as [|x k IH]; cbn; [reflexivity|]. rewrite IH. f_equal. rewrite <- Rabs_mult. apply Rabs_pos_eq. nra. }
  assert (N : forall k, 0 <= rsum (map2 Rmult k k)).
  { intros k. rewrite rsum_dot by reflexivity. apply dot_self_nonneg. }
  rewrite <- sqrt_mult by apply N. rewrite E, <- (Q l), <- (Q m). rewrite !rsum_dot by (rewrite ?map_length; auto). rewrite !map_length, L.
  apply Rsqr_incr_0_var; [|apply sqrt_pos]. rewrite Rsqr_sqrt; [|apply Rmult_le_pos; apply dot_self_nonneg]. unfold Rsqr. apply dot_cauchy.
Qed.
Lemma pow_bound u n : 0 <= u -> INR n * u < 1 -> (1 + u) ^ n * (1 - INR n * u) <= 1.
Proof.
  intros U. induction n as [|n IH]; intros H; [cbn; lra|]. rewrite S_INR in *. cbn [pow]. pose proof (pos_INR n) as Np.
  assert (H' : INR n * u < 1) by nra. specialize (IH H'). pose proof (pow_R1_Rle (1 + u) n ltac:(lra)) as G. set (g := (1 + u) ^ n) in *.
  apply Rle_trans with (2 := IH). replace ((1 + u) * g * (1 - (INR n + 1) * u)) with (g * (1 - INR n * u) - g * (u * u * (INR n + 1))) by ring.
  assert (0 <= g * (u * u * (INR n + 1))) by (apply Rmult_le_pos; [lra|apply Rmult_le_pos; nra]). lra.
Qed.
Lemma double_rel x : bpow radix2 (-1022) <= Rabs x -> exists e, Rabs e <= bpow radix2 (-53) /\ double x = x * (1 + e).
Proof.
  intros H. destruct (relative_error_N_FLT_ex radix2 (-1074) 53 eq_refl (fun t => negb (Z.even t)) x H) as (e & A & B). exists e. split; [|exact B].
  apply Rle_trans with (1 := A). change (-53)%Z with (-1 + (-53 + 1))%Z. rewrite (bpow_plus radix2 (-1)). right. reflexivity.
Qed.
Lemma near_sqrt d a : Rabs d <= a -> a <= / 100 -> Rabs (sqrt (1 + d) - 1) <= a * (6 / 10).
Proof.
  intros H A. assert (- a <= d <= a) by (split; [pose proof (Rle_abs (- d)) as Q; rewrite Rabs_Ropp in Q; lra|pose proof (Rle_abs d); lra]).
  pose proof (sqrt_pos (1 + d)) as P. pose proof (sqrt_sqrt (1 + d) ltac:(lra)) as Q. set (r := sqrt (1 + d)) in *.
  assert (R9 : 9 / 10 <= r) by (destruct (Rle_lt_dec (9 / 10) r) as [W|W]; [exact W|exfalso; nra]).
  assert (E : (r - 1) * (r + 1) = d) by (rewrite <- (Rplus_0_r d); nra). apply Rabs_le. split; nra.
Qed.
Lemma near_mult2 x y a b : Rabs (x - 1) <= a -> Rabs (y - 1) <= b -> b <= / 1000 -> 0 <= a -> Rabs (x * y - 1) <= a * (1001 / 1000) + b.
Proof. intros Hx Hy B A. apply Rle_trans with (1 := near_mult x y a b Hx Hy). nra. Qed.

Lemma sam_core num d1 d2 N T P w : bpow radix2 (-800) <= T -> bpow radix2 (-800) <= P -> Rabs N <= sqrt T * sqrt P -> 0 <= w <= / 1000000 ->
  Rabs (num - N) <= w * (sqrt T * sqrt P) -> Rabs (d1 - T) <= w * T -> Rabs (d2 - P) <= w * P ->
  exists v, fmap double (fdiv num (double (double (sqrt d1) * double (sqrt d2)))) = Fin v /\ Rabs (v - N / (sqrt T * sqrt P)) <= 5 / 2 * w + 9 / 2 * bpow radix2 (-53).
Proof.
  intros HT HP HN [W0 W1] H0 H1 H2. pose proof (bpow_gt_0 radix2 (-800)) as B8.
  set (u := bpow radix2 (-53)) in *. assert (U : u = / 9007199254740992) by apply u53_num.
  assert (RED : forall d X, bpow radix2 (-800) <= X -> Rabs (d - X) <= w * X -> exists k, Rabs (k - 1) <= w * (61 / 100) + u /\ double (sqrt d) = sqrt X * k).
  { intros d X HX HD. set (dl := (d - X) / X). assert (ED : d = X * (1 + dl)) by (unfold dl; field; lra).
    assert (BD : Rabs dl <= w). { unfold dl, Rdiv. rewrite Rabs_mult, (Rabs_pos_eq (/ X)) by (left; apply Rinv_0_lt_compat; lra). apply Rmult_le_reg_r with X; [lra|]. rewrite Rmult_assoc, Rinv_l by lra. lra. }
    assert (0 <= 1 + dl) by (pose proof (Rle_abs (- dl)) as Q; rewrite Rabs_Ropp in Q; lra).
    pose proof (near_sqrt dl w BD ltac:(lra)) as NS. rewrite ED, sqrt_mult by lra. set (r := sqrt (1 + dl)) in *.
    assert (RB : 99 / 100 <= r) by (pose proof (Rle_abs (- (r - 1))) as Q; rewrite Rabs_Ropp in Q; lra).
    assert (SX : bpow radix2 (-400) <= sqrt X). { apply Rsqr_incr_0_var; [|apply sqrt_pos]. rewrite Rsqr_sqrt by lra. unfold Rsqr. rewrite <- bpow_plus. exact HX. }
    destruct (double_rel (sqrt X * r)) as (e & A & E).
    { rewrite Rabs_pos_eq by (apply Rmult_le_pos; [apply sqrt_pos|lra]). apply Rle_trans with (bpow radix2 (-400) * bpow radix2 (-1)); [rewrite <- bpow_plus; apply bpow_le; lia|].
      apply Rmult_le_compat; try apply bpow_ge_0; [exact SX|cbn; lra]. }
    exists (r * (1 + e)). split; [|rewrite E; ring]. fold u in A.
    eapply Rle_trans; [apply near_mult2; [exact NS|apply near_1; exact A|rewrite U; lra|lra]|]. lra. }
  destruct (RED d1 T HT H1) as (k1 & K1 & E1). destruct (RED d2 P HP H2) as (k2 & K2 & E2). rewrite E1, E2. clear RED E1 E2.
  assert (ST : bpow radix2 (-400) <= sqrt T) by (apply Rsqr_incr_0_var; [|apply sqrt_pos]; rewrite Rsqr_sqrt by lra; unfold Rsqr; rewrite <- bpow_plus; exact HT).
  assert (SP : bpow radix2 (-400) <= sqrt P) by (apply Rsqr_incr_0_var; [|apply sqrt_pos]; rewrite Rsqr_sqrt by lra; unfold Rsqr; rewrite <- bpow_plus; exact HP).
  assert (B4 := bpow_gt_0 radix2 (-400)). set (a := sqrt T) in *. set (b := sqrt P) in *.
  assert (AB : bpow radix2 (-800) <= a * b) by (change (-800)%Z with (-400 + -400)%Z; rewrite bpow_plus; apply Rmult_le_compat; lra).
  assert (KK : Rabs (k1 * k2 - 1) <= 13 / 10 * w + 21 / 10 * u).
  { eapply Rle_trans; [apply near_mult2; [exact K1|exact K2| |]; rewrite U in *; lra|]. lra. }
  assert (K9 : 99 / 100 <= k1 * k2) by (pose proof (Rle_abs (- (k1 * k2 - 1))) as Q; rewrite Rabs_Ropp in Q; rewrite U in *; lra).
  destruct (double_rel (a * k1 * (b * k2))) as (e3 & A3 & E3).
  { replace (a * k1 * (b * k2)) with (a * b * (k1 * k2)) by ring. rewrite Rabs_pos_eq by (apply Rmult_le_pos; lra).
    apply Rle_trans with (bpow radix2 (-800) * bpow radix2 (-1)); [rewrite <- bpow_plus; apply bpow_le; lia|]. apply Rmult_le_compat; try apply bpow_ge_0; [exact AB|cbn; lra]. }
  rewrite E3. fold u in A3. set (k := k1 * k2) in *. replace (a * k1 * (b * k2) * (1 + e3)) with (a * b * (k * (1 + e3))) by (unfold k; ring).
  assert (K3 : Rabs (k * (1 + e3) - 1) <= 131 / 100 * w + 32 / 10 * u).
  { eapply Rle_trans; [apply near_mult2; [exact KK|apply near_1; exact A3| |]; rewrite U in *; lra|]. lra. }
  set (kk := k * (1 + e3)) in *. assert (KP : 99 / 100 <= kk) by (pose proof (Rle_abs (- (kk - 1))) as Q; rewrite Rabs_Ropp in Q; rewrite U in *; lra).
  assert (D0 : 0 < a * b * kk) by (apply Rmult_lt_0_compat; lra). unfold fdiv. destruct (Reqb_spec (a * b * kk) 0) as [Q|_]; [lra|]. cbn [fmap].
  eexists. split; [reflexivity|]. destruct (double_err (num / (a * b * kk))) as (e4 & n4 & A4 & N4 & ->). fold u in A4.
  assert (EB : bpow radix2 (-1075) <= / 100 * u). { apply Rle_trans with (bpow radix2 (-7) * bpow radix2 (-53)); [rewrite <- bpow_plus; apply bpow_le; lia|]. fold u. rewrite U. cbn. lra. }
  set (ab := a * b) in *. set (c := N / ab). set (dn := (num - N) / ab).
  assert (I0 : 0 < / ab) by (apply Rinv_0_lt_compat; lra).
  assert (CB : Rabs c <= 1). { unfold c, Rdiv. rewrite Rabs_mult, (Rabs_pos_eq (/ ab)) by lra. apply Rmult_le_reg_r with ab; [lra|]. rewrite Rmult_assoc, Rinv_l by lra. lra. }
  assert (DB : Rabs dn <= w). { unfold dn, Rdiv. rewrite Rabs_mult, (Rabs_pos_eq (/ ab)) by lra. apply Rmult_le_reg_r with ab; [lra|]. rewrite Rmult_assoc, Rinv_l by lra. lra. }
  set (rho := / kk * (1 + e4)).
  assert (RB : Rabs (rho - 1) <= 135 / 100 * w + 43 / 10 * u).
  { unfold rho. replace kk with (1 + (kk - 1)) by ring. eapply Rle_trans; [apply near_mult2; [apply near_inv; [exact K3|rewrite U; lra]|apply near_1; exact A4|rewrite ?U; lra|rewrite ?U; lra]|]. rewrite ?U. lra. }
  replace (num / (ab * kk) * (1 + e4) + n4 - c) with (c * (rho - 1) + (dn * rho + n4)) by (unfold c, dn, rho; field; lra).
  apply Rle_trans with (1 := Rabs_triang _ _).
  assert (X1 : Rabs (c * (rho - 1)) <= 1 * (135 / 100 * w + 43 / 10 * u)) by (rewrite Rabs_mult; apply Rmult_le_compat; try apply Rabs_pos; assumption).
  assert (X2 : Rabs (dn * rho) <= w * (11 / 10)).
  { rewrite Rabs_mult. apply Rmult_le_compat; try apply Rabs_pos; [exact DB|]. replace rho with (1 + (rho - 1)) by ring. apply Rle_trans with (1 := Rabs_triang _ _). rewrite Rabs_R1. rewrite U in *. lra. }
  pose proof (Rabs_triang (dn * rho) n4) as X3. lra.
Qed.

Lemma sum_squares_moderate l : (exists x, In x l /\ moderate x) -> bpow radix2 (-800) <= rsum (map2 Rmult l l).
Proof.
  intros (x & Hx & M). unfold moderate in M. rewrite <- bpow_pow in M. assert (N : forall k, 0 <= rsum (map2 Rmult k k)) by (intros k; rewrite rsum_dot by reflexivity; apply dot_self_nonneg).
  induction l as [|y l IH]; [destruct Hx|]. cbn [map2]. rewrite rsum_cons. destruct Hx as [ -> |Hx].
  - pose proof (N l). assert (bpow radix2 (-800) <= x * x); [|lra]. change (-800)%Z with (-400 + -400)%Z. rewrite bpow_plus. rewrite <- (Rabs_pos_eq (x * x)) by nra. rewrite Rabs_mult.
    apply Rmult_le_compat; try apply bpow_ge_0; exact M.
  - specialize (IH Hx). nra.
Qed.

(** A tie below an even number *)
Lemma double_tie x m e : (-1074 <= e)%Z -> bpow radix2 (e + 53 - 1) <= Rabs x < bpow radix2 (e + 53) -> Z.even m = true ->
  x * bpow radix2 (- e) = IZR m - / 2 -> double x = IZR m * bpow radix2 e.
Proof.
  intros He M EV N. unfold double, rne, round, F2R, scaled_mantissa. cbn [Fnum Fexp].
  assert (C : cexp radix2 (FLT_exp (-1074) 53) x = e) by (unfold cexp; rewrite (mag_unique _ _ _ M); unfold FLT_exp; lia).
  rewrite C. f_equal. f_equal. rewrite N.
  assert (FL : Zfloor (IZR m - / 2) = (m - 1)%Z) by (apply Zfloor_imp; rewrite plus_IZR, minus_IZR; lra).
  assert (CE : Zceil (IZR m - / 2) = m) by (apply Zceil_imp; rewrite minus_IZR; lra).
  unfold Znearest. rewrite FL, CE, minus_IZR. rewrite Rcompare_Eq by lra. replace (Z.even (m - 1)) with false; [reflexivity|].
  symmetry. rewrite Z.even_sub, EV. reflexivity.
Qed.
(** Up to three equal doubles *)
Definition few (x : R) (k : nat) : R := match k with O => 0 | 1%nat => x | 2%nat => 2 * x | _ => double (3 * x) end.
Lemma dfmt_twice x : dfmt x -> dfmt (2 * x).
Proof.
  intros F. apply is_float_iff in F; [|exact prec53]. destruct F as (m & e & -> & Hm & He). rewrite <- bpow_pow.
  replace (2 * (IZR m * bpow radix2 e)) with (IZR m * bpow radix2 (e + 1)) by (rewrite bpow_plus; cbn; ring). apply dfmt_pow; lia.
Qed.
Lemma sums_few x l v : dfmt x -> sums double l v -> (forall y, In y l -> y = x) -> (length l <= 3)%nat -> v = few x (length l).
Proof.
  intros F. assert (F2 := dfmt_twice x F). assert (Z0 : double 0 = 0) by apply rne_0.
  assert (DF := double_fix x F). assert (DF2 := double_fix _ F2). assert (DF3 : double (double (3 * x)) = double (3 * x)) by apply double_fix, rne_fmt, prec53.
  induction 1 as [|t|t l a H IH|l l' a a' H IH H' IH'|l l' a P H IH]; intros HI HL.
  - reflexivity.
  - rewrite (HI t (or_introl eq_refl)). cbn. exact DF.
  - rewrite (HI t (or_introl eq_refl)). cbn [length] in *. rewrite IH; [|intros y Hy; apply HI; now right|lia].
    destruct (length l) as [|[|[|k]]]; cbn [few]; [rewrite Rplus_0_l; exact DF|replace (x + x) with (2 * x) by ring; exact DF2|f_equal; ring|lia].
  - rewrite app_length in *. rewrite IH, IH'; [|intros y Hy; apply HI, in_or_app; now right|lia|intros y Hy; apply HI, in_or_app; now left|lia].
    destruct (length l) as [|[|[|[|k]]]]; destruct (length l') as [|[|[|[|k']]]]; cbn [few Nat.add]; try lia; rewrite ?Rplus_0_l, ?Rplus_0_r; try assumption; try reflexivity; try (f_equal; ring).
    replace (x + x) with (2 * x) by ring; exact DF2.
  - rewrite <- (Permutation_length P) in HL |- *. apply IH; [|exact HL]. intros y Hy. apply HI. now apply (Permutation_in _ P).
Qed.
