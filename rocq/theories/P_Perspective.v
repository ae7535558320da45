(** Lemmas about the solver with its own step sizes and about pinhole cameras as nearly affine sensors *)
From Verif Require Import RAux Text Geo3 M_Nav M_Photo M_Cameras M_PointCalc Spec_Photo Spec_PointCalc Spec_Perspective P_PointCalc.
Open Scope R_scope.
Open Scope list_scope.

Lemma power_between y n : 1 <= 2 * y -> y < 2 ^ n -> exists k, (k <= n)%nat /\ y < 2 ^ k <= 2 * y.
Proof.
  intros H. induction n as [|n IH]; intros Hn.
  - exists 0%nat. cbn in *. split; [lia|lra].
  - destruct (Rlt_le_dec y (2 ^ n)) as [G|G].
    + destruct (IH G) as (k & Hk & B). exists k. split; [lia|exact B].
    + exists (S n). split; [lia|]. cbn [pow] in *. lra.
Qed.

Lemma least_true (f : nat -> bool) n : f n = true -> exists i, (i <= n)%nat /\ f i = true /\ forall j, (j < i)%nat -> f j = false.
Proof.
  intros H. destruct (find f (seq 0 (S n))) as [x|] eqn:E.
  - assert (G : forall m s, find f (seq s m) = Some x -> (s <= x < s + m)%nat /\ f x = true /\ forall j, (s <= j < x)%nat -> f j = false).
    { induction m as [|m IH]; intros s HF; [discriminate|]. cbn [seq find] in HF. destruct (f s) eqn:Es.
      - injection HF as <-. split; [lia|]. split; [exact Es|]. intros j Hj. lia.
      - destruct (IH _ HF) as (A & B & C). split; [lia|]. split; [exact B|]. intros j Hj. destruct (Nat.eq_dec j s) as [->|]; [exact Es|]. apply C. lia. }
    destruct (G _ _ E) as (A & B & C). exists x. split; [lia|]. split; [exact B|]. intros j Hj. apply C. lia.
  - exfalso. pose proof (find_none _ _ E n ltac:(apply in_seq; lia)). congruence.
Qed.

Lemma first_shift_le s K : (K < 1074)%nat ->
  (exists dx dy, s (2 ^ K / 2 ^ 52) = (Fin dx, Fin dy) /\ 1 < dx * dx + dy * dy) ->
  exists i, (i <= K)%nat /\ first_shift s = Ok (2 ^ i / 2 ^ 52).
Proof.
  intros HK (dx & dy & E & H).
  set (f := fun k => match s (2 ^ k / 2 ^ 52) with (Fin u, Fin v) => Rltb 1 (u * u + v * v) | _ => false end).
  assert (HF : f K = true). { unfold f. rewrite E. destruct (Rltb_spec 1 (dx * dx + dy * dy)); [reflexivity|contradiction]. }
  destruct (least_true f K HF) as (i & Hi & Ti & Li). exists i. split; [exact Hi|]. apply first_shift_at; [lia| |].
  - unfold f in Ti. destruct (s (2 ^ i / 2 ^ 52)) as [[u|] [v|]]; try discriminate. exists u, v. split; [reflexivity|].
    destruct (Rltb_spec 1 (u * u + v * v)); [assumption|discriminate].
  - intros j Hj u v Ej. specialize (Li j Hj). unfold f in Li. rewrite Ej in Li. destruct (Rltb_spec 1 (u * u + v * v)); [discriminate|lra].
Qed.

Lemma pow2_le i K : (i <= K)%nat -> 2 ^ i <= 2 ^ K.
Proof. intros H. apply Rle_pow; [lra|exact H]. Qed.

(** The steps the solver chooses on a nearly affine sensor are at most 2 / (m - L), or 2 *)
Lemma default_steps_near pix c alt rad sx sy L m :
  nearly_affine pix alt c rad sx sy L -> steep sx sy m -> L < m -> m - L <= 2 ^ 53 -> 1 < 2 ^ 1021 * (m - L) ->
  2 / (m - L) <= rad ->
  exists d, choose_deltas pix (fst c) (snd c) (Fin alt) = Ok d /\ fst d <> 0 /\ snd d <> 0 /\
    ((Rabs (fst d) <= 2 / (m - L) /\ Rabs (snd d) <= 2 / (m - L)) \/
     (d = (2, 2) /\ exists k, (k < 1074)%nat /\ fst (pix (Fin (fst c + 2 ^ k / 2 ^ 52)) (Fin (snd c)) (Fin alt)) = NonFinite)).
Proof.
  intros (fx & fy & HF & HA) HS HL H1 H2 HR. set (w := m - L) in *. assert (W : 0 < w) by (unfold w; lra).
  assert (P52 : 0 < 2 ^ 52) by (apply pow_lt; lra).
  destruct (power_between (2 ^ 52 / w) 1073) as (K & HK & B1 & B2).
  { apply (Rmult_le_reg_r w); [exact W|]. replace (2 * (2 ^ 52 / w) * w) with (2 * 2 ^ 52) by (field; lra).
    change (2 ^ 53) with (2 * 2 ^ 52) in H1. lra. }
  { apply (Rmult_lt_reg_r w); [exact W|]. replace (2 ^ 52 / w * w) with (2 ^ 52 * 1) by (field; lra).
    replace (2 ^ 1073) with (2 ^ 52 * 2 ^ 1021). 2: { rewrite <- pow_add. reflexivity. }
    rewrite Rmult_assoc. apply Rmult_lt_compat_l; assumption. }
  set (u := 2 ^ K / 2 ^ 52).
  assert (U1 : 1 < w * u).
  { unfold u. apply (Rmult_lt_compat_r (w / 2 ^ 52)) in B1; [|apply Rdiv_lt_0_compat; lra].
    replace (2 ^ 52 / w * (w / 2 ^ 52)) with 1 in B1 by (field; lra). replace (2 ^ K * (w / 2 ^ 52)) with (w * (2 ^ K / 2 ^ 52)) in B1 by (field; lra). exact B1. }
  assert (U2 : u <= 2 / w).
  { unfold u. apply (Rmult_le_compat_r (/ 2 ^ 52)) in B2; [|left; apply Rinv_0_lt_compat; lra].
    replace (2 * (2 ^ 52 / w) * / 2 ^ 52) with (2 / w) in B2 by (field; lra). exact B2. }
  assert (U0 : 0 < u) by (apply Rdiv_lt_0_compat; [apply pow_lt; lra|lra]).
  assert (IC : within c rad (fst c) (snd c)). { unfold within. rewrite !Rminus_diag_eq by reflexivity. rewrite Rabs_R0. lra. }
  assert (IE : within c rad (fst c + u) (snd c)).
  { unfold within. replace (fst c + u - fst c) with u by ring. rewrite (Rminus_diag_eq (snd c)) by reflexivity. rewrite Rabs_R0, Rabs_pos_eq; lra. }
  assert (IN : within c rad (fst c) (snd c + u)).
  { unfold within. replace (snd c + u - snd c) with u by ring. rewrite (Rminus_diag_eq (fst c)) by reflexivity. rewrite Rabs_R0, Rabs_pos_eq; lra. }
  assert (MV : forall lon lat a b, within c rad lon lat -> lon - fst c = a -> lat - snd c = b -> Rabs a + Rabs b = u ->
     1 < (fx lon lat - fx (fst c) (snd c)) * (fx lon lat - fx (fst c) (snd c)) + (fy lon lat - fy (fst c) (snd c)) * (fy lon lat - fy (fst c) (snd c))).
  { intros lon lat a b HI Ea Eb EU. destruct (HA _ _ _ _ IC HI) as [Gx Gy]. rewrite Ea, Eb, EU in *. specialize (HS a b). rewrite EU in HS.
    set (X := fx lon lat - fx (fst c) (snd c)) in *. set (Y := fy lon lat - fy (fst c) (snd c)) in *.
    set (lx := fst sx * a + snd sx * b) in *. set (ly := fst sy * a + snd sy * b) in *. clearbody X Y lx ly.
    assert (T : 1 < Rabs X \/ 1 < Rabs Y).
    { assert (HX : Rabs lx <= Rabs X + L * u).
      { replace lx with (X - (X - lx)) by ring. eapply Rle_trans; [apply Rabs_triang|]. rewrite Rabs_Ropp. lra. }
      assert (HY : Rabs ly <= Rabs Y + L * u).
      { replace ly with (Y - (Y - ly)) by ring. eapply Rle_trans; [apply Rabs_triang|]. rewrite Rabs_Ropp. lra. }
      unfold Rmax in HS. unfold w in U1. destruct (Rle_dec (Rabs lx) (Rabs ly)); [right|left]; nra. }
    assert (SX : Rabs X * Rabs X = X * X) by (rewrite <- Rabs_mult; apply Rabs_pos_eq; nra).
    assert (SY : Rabs Y * Rabs Y = Y * Y) by (rewrite <- Rabs_mult; apply Rabs_pos_eq; nra).
    destruct T; nra. }
  unfold choose_deltas. rewrite (HF _ _ IC).
  destruct (existsb _ float_nums) eqn:EX.
  - exists (2, 2). split; [reflexivity|]. cbn [fst snd]. split; [lra|]. split; [lra|]. right. split; [reflexivity|].
    apply existsb_exists in EX. destruct EX as (n & Hn & HNan).
    unfold float_nums in Hn. apply in_map_iff in Hn. destruct Hn as (k & <- & Hk). apply in_seq in Hk. exists k. split; [lia|].
    destruct (pix (Fin (fst c + 2 ^ k / 2 ^ 52)) (Fin (snd c)) (Fin alt)) as [[x|] y]; [discriminate|reflexivity].
  - clear EX.
    destruct (first_shift_le (fun n => let '(x, y) := pix (Fin (fst c + n)) (Fin (snd c)) (Fin alt) in (fsub x (Fin (fx (fst c) (snd c))), fsub y (Fin (fy (fst c) (snd c)))))
      K ltac:(lia)) as (i & Hi & ->).
    { fold u. rewrite (HF _ _ IE). eexists. eexists. split; [reflexivity|]. apply (MV _ _ u 0 IE); [ring|ring|]. rewrite Rabs_R0, Rabs_pos_eq; lra. }
    cbn [bind].
    destruct (first_shift_le (fun n => let '(x, y) := pix (Fin (fst c)) (Fin (snd c + n)) (Fin alt) in (fsub x (Fin (fx (fst c) (snd c))), fsub y (Fin (fy (fst c) (snd c)))))
      K ltac:(lia)) as (j & Hj & ->).
    { fold u. rewrite (HF _ _ IN). eexists. eexists. split; [reflexivity|]. apply (MV _ _ 0 u IN); [ring|ring|]. rewrite Rabs_R0, Rabs_pos_eq; lra. }
    cbn [bind]. eexists. split; [reflexivity|]. cbn [fst snd].
    assert (Q : forall t, (t <= K)%nat -> 0 < 2 ^ t / 2 ^ 52 <= 2 / w).
    { intros t Ht. split; [apply Rdiv_lt_0_compat; [apply pow_lt; lra|lra]|]. eapply Rle_trans; [|exact U2]. unfold u, Rdiv.
      apply Rmult_le_compat_r; [left; apply Rinv_0_lt_compat; lra|]. apply pow2_le. exact Ht. }
    pose proof (Q i Hi). pose proof (Q j Hj). split; [lra|]. split; [lra|]. left. rewrite !Rabs_pos_eq; lra.
Qed.

(* ------------------------- pinhole cameras -------------------------- *)

Lemma Rabs_lin2 a b u v k : Rabs a <= k -> Rabs b <= k -> Rabs (a * u + b * v) <= k * (Rabs u + Rabs v).
Proof.
  intros A B. eapply Rle_trans; [apply Rabs_triang|]. rewrite !Rabs_mult. pose proof (Rabs_pos u). pose proof (Rabs_pos v). nra.
Qed.

(** The quotient of two affine functions *)
Lemma ratio_near n0 n1 n2 d0 d1 d2 B rad eps T u v u' v' :
  Rabs n1 <= 1 -> Rabs n2 <= 1 -> Rabs d1 <= B -> Rabs d2 <= B -> B <= 1 -> 0 < Rabs d0 -> B * rad <= eps * Rabs d0 -> 0 <= eps < 1 ->
  Rabs (n0 / d0) <= T -> Rabs u + Rabs v <= rad -> Rabs u' + Rabs v' <= rad ->
  d0 + d1 * u + d2 * v <> 0 /\ d0 + d1 * u' + d2 * v' <> 0 /\
  Rabs ((n0 + n1 * u' + n2 * v') / (d0 + d1 * u' + d2 * v') - (n0 + n1 * u + n2 * v) / (d0 + d1 * u + d2 * v)
        - ((n1 - n0 / d0 * d1) / d0 * (u' - u) + (n2 - n0 / d0 * d2) / d0 * (v' - v)))
  <= (1 + T) / Rabs d0 * (2 * eps / ((1 - eps) * (1 - eps))) * (Rabs (u' - u) + Rabs (v' - v)).
Proof.
  intros N1 N2 D1 D2 B1 D0 BR HE HT W W'. set (K := Rabs d0) in *. set (g := n0 / d0) in *.
  assert (Z0 : d0 <> 0) by (intros E; unfold K in D0; rewrite E, Rabs_R0 in D0; lra).
  assert (BP : 0 <= B) by (eapply Rle_trans; [apply Rabs_pos|exact D1]).
  assert (TP : 0 <= T) by (eapply Rle_trans; [apply Rabs_pos|exact HT]).
  assert (DD : forall a b, Rabs a + Rabs b <= rad -> Rabs (d1 * a + d2 * b) <= eps * K).
  { intros a b H. eapply Rle_trans; [apply (Rabs_lin2 d1 d2 a b B D1 D2)|]. pose proof (Rabs_pos a). pose proof (Rabs_pos b). nra. }
  assert (DP : forall a b, Rabs a + Rabs b <= rad -> (1 - eps) * K <= Rabs (d0 + d1 * a + d2 * b)).
  { intros a b H. specialize (DD a b H). pose proof (Rabs_triang_inv d0 (- (d1 * a + d2 * b))) as Q. rewrite Rabs_Ropp in Q.
    replace (d0 - - (d1 * a + d2 * b)) with (d0 + d1 * a + d2 * b) in Q by ring. fold K in Q. lra. }
  assert (EK : 0 < (1 - eps) * K) by (apply Rmult_lt_0_compat; lra).
  pose proof (DP u v W) as P. pose proof (DP u' v' W') as P'. set (D := d0 + d1 * u + d2 * v) in *. set (D' := d0 + d1 * u' + d2 * v') in *.
  assert (ZD : D <> 0) by (intros E; rewrite E, Rabs_R0 in P; lra).
  assert (ZD' : D' <> 0) by (intros E; rewrite E, Rabs_R0 in P'; lra).
  split; [exact ZD|]. split; [exact ZD'|].
  set (dl := Rabs (u' - u) + Rabs (v' - v)). assert (DL : 0 <= dl) by (unfold dl; pose proof (Rabs_pos (u' - u)); pose proof (Rabs_pos (v' - v)); lra).
  assert (NA : forall a b, Rabs ((n1 * a + n2 * b) - g * (d1 * a + d2 * b)) <= (1 + T) * (Rabs a + Rabs b)).
  { intros a b. eapply Rle_trans; [apply Rabs_triang|]. rewrite Rabs_Ropp, Rabs_mult.
    pose proof (Rabs_lin2 n1 n2 a b 1 N1 N2) as Q1. pose proof (Rabs_lin2 d1 d2 a b B D1 D2) as Q2. pose proof (Rabs_pos a). pose proof (Rabs_pos b).
    pose proof (Rabs_pos (d1 * a + d2 * b)). pose proof (Rabs_pos g).
    assert (Rabs (d1 * a + d2 * b) <= Rabs a + Rabs b) by nra.
    assert (Rabs g * Rabs (d1 * a + d2 * b) <= T * (Rabs a + Rabs b)) by (apply Rmult_le_compat; assumption). lra. }
  set (A := (n1 * (u' - u) + n2 * (v' - v)) - g * (d1 * (u' - u) + d2 * (v' - v))).
  set (G := ((n1 * u + n2 * v) - g * (d1 * u + d2 * v)) / D).
  set (E := d1 * (u' - u) + d2 * (v' - v)).
  replace ((n0 + n1 * u' + n2 * v') / D' - (n0 + n1 * u + n2 * v) / D - ((n1 - g * d1) / d0 * (u' - u) + (n2 - g * d2) / d0 * (v' - v)))
    with (A * ((d0 - D') / (D' * d0)) - G * E / D').
  2: { unfold A, G, E, D, D', g in *. field. auto. }
  assert (HA : Rabs A <= (1 + T) * dl) by apply NA.
  assert (HG : Rabs G <= (1 + T) * rad / ((1 - eps) * K)).
  { unfold G, Rdiv. rewrite Rabs_mult, Rabs_inv. apply Rmult_le_compat; [apply Rabs_pos|left; apply Rinv_0_lt_compat, Rabs_pos_lt, ZD| |].
    - eapply Rle_trans; [apply NA|]. apply Rmult_le_compat_l; lra.
    - apply Rinv_le_contravar; assumption. }
  assert (HE' : Rabs E <= B * dl) by (apply Rabs_lin2; assumption).
  assert (I' : Rabs (/ D') <= / ((1 - eps) * K)) by (rewrite Rabs_inv; apply Rinv_le_contravar; assumption).
  assert (HQ : Rabs ((d0 - D') / (D' * d0)) <= eps / ((1 - eps) * K)).
  { replace ((d0 - D') / (D' * d0)) with (- (d1 * u' + d2 * v') * / D' * / d0) by (unfold D' in *; field; auto).
    rewrite !Rabs_mult, Rabs_Ropp. rewrite (Rabs_inv d0). fold K. specialize (DD u' v' W').
    replace (eps / ((1 - eps) * K)) with (eps * K * / ((1 - eps) * K) * / K) by (field; split; lra).
    apply Rmult_le_compat_r; [left; apply Rinv_0_lt_compat; exact D0|]. apply Rmult_le_compat; try apply Rabs_pos; assumption. }
  eapply Rle_trans; [apply Rabs_triang|]. rewrite Rabs_Ropp. unfold Rdiv at 2. rewrite !Rabs_mult.
  assert (X1 : Rabs A * Rabs ((d0 - D') / (D' * d0)) <= (1 + T) * dl * (eps / ((1 - eps) * K))) by (apply Rmult_le_compat; try apply Rabs_pos; assumption).
  assert (X2 : Rabs G * Rabs E * Rabs (/ D') <= (1 + T) * rad / ((1 - eps) * K) * (B * dl) * / ((1 - eps) * K)).
  { apply Rmult_le_compat; [apply Rmult_le_pos; apply Rabs_pos|apply Rabs_pos| |exact I']. apply Rmult_le_compat; try apply Rabs_pos; assumption. }
  assert (X3 : (1 + T) * rad / ((1 - eps) * K) * (B * dl) * / ((1 - eps) * K) <= (1 + T) * dl * (eps / ((1 - eps) * (1 - eps) * K))).
  { replace ((1 + T) * rad / ((1 - eps) * K) * (B * dl) * / ((1 - eps) * K)) with ((1 + T) * dl * (B * rad * (/ K * (/ ((1 - eps) * (1 - eps) * K))))) by (field; split; lra).
    replace (eps / ((1 - eps) * (1 - eps) * K)) with (eps * K * (/ K * / ((1 - eps) * (1 - eps) * K))) by (field; split; lra).
    apply Rmult_le_compat_l; [apply Rmult_le_pos; lra|]. apply Rmult_le_compat_r; [|exact BR].
    apply Rmult_le_pos; left; apply Rinv_0_lt_compat; [exact D0|]. repeat apply Rmult_lt_0_compat; lra. }
  assert (X4 : eps / ((1 - eps) * K) <= eps / ((1 - eps) * (1 - eps) * K)).
  { unfold Rdiv. apply Rmult_le_compat_l; [lra|]. apply Rinv_le_contravar; [repeat apply Rmult_lt_0_compat; lra|]. nra. }
  replace ((1 + T) / K * (2 * eps / ((1 - eps) * (1 - eps))) * dl) with (2 * ((1 + T) * dl * (eps / ((1 - eps) * (1 - eps) * K)))) by (field; split; lra).
  assert (X5 : (1 + T) * dl * (eps / ((1 - eps) * K)) <= (1 + T) * dl * (eps / ((1 - eps) * (1 - eps) * K))) by (apply Rmult_le_compat_l; [apply Rmult_le_pos; lra|exact X4]).
  lra.
Qed.

Lemma sum_abs a b : a * a + b * b <= 1 -> Rabs a + Rabs b <= 3 / 2.
Proof.
  intros H. assert (A : Rabs a * Rabs a = a * a) by (rewrite <- Rabs_mult; apply Rabs_pos_eq; nra).
  assert (B : Rabs b * Rabs b = b * b) by (rewrite <- Rabs_mult; apply Rabs_pos_eq; nra).
  pose proof (Rabs_pos a) as PA. pose proof (Rabs_pos b) as PB.
  set (x := Rabs a) in *. set (y := Rabs b) in *. clearbody x y. pose proof (Rle_0_sqr (x - y)) as Q. unfold Rsqr in Q.
  destruct (Rle_lt_dec (x + y) (3 / 2)) as [|G]; [assumption|]. exfalso. nra.
Qed.
Lemma abs_le1 a : a * a <= 1 -> Rabs a <= 1.
Proof. intros H. apply Rabs_le. split; nra. Qed.

Lemma steep_entries a b c d s1 s2 det k q u v : Rabs a + Rabs b <= q -> Rabs c + Rabs d <= q -> a * d - b * c = det ->
  0 <= k -> k <= Rabs s1 -> k <= Rabs s2 ->
  k * Rabs det * (Rabs u + Rabs v) <= 2 * q * Rmax (Rabs (s1 * a * u + s1 * b * v)) (Rabs (s2 * c * u + s2 * d * v)).
Proof.
  intros H1 H2 ED K0 K1 K2. set (q1 := a * u + b * v). set (q2 := c * u + d * v).
  assert (EU : det * u = d * q1 - b * q2) by (rewrite <- ED; unfold q1, q2; ring).
  assert (EV : det * v = a * q2 - c * q1) by (rewrite <- ED; unfold q1, q2; ring).
  replace (s1 * a * u + s1 * b * v) with (s1 * q1) by (unfold q1; ring). replace (s2 * c * u + s2 * d * v) with (s2 * q2) by (unfold q2; ring).
  rewrite !Rabs_mult. assert (AU : Rabs det * Rabs u <= Rabs d * Rabs q1 + Rabs b * Rabs q2).
  { rewrite <- Rabs_mult, EU. eapply Rle_trans; [apply Rabs_triang|]. rewrite Rabs_Ropp, !Rabs_mult. lra. }
  assert (AV : Rabs det * Rabs v <= Rabs a * Rabs q2 + Rabs c * Rabs q1).
  { rewrite <- Rabs_mult, EV. eapply Rle_trans; [apply Rabs_triang|]. rewrite Rabs_Ropp, !Rabs_mult. lra. }
  pose proof (Rabs_pos q1) as P1. pose proof (Rabs_pos q2) as P2. pose proof (Rabs_pos a). pose proof (Rabs_pos b). pose proof (Rabs_pos c). pose proof (Rabs_pos d).
  assert (S : Rabs det * (Rabs u + Rabs v) <= q * (Rabs q1 + Rabs q2)) by nra.
  pose proof (Rmax_l (Rabs s1 * Rabs q1) (Rabs s2 * Rabs q2)) as M1. pose proof (Rmax_r (Rabs s1 * Rabs q1) (Rabs s2 * Rabs q2)) as M2.
  set (m := Rmax _ _) in *. assert (k * Rabs q1 <= m) by nra. assert (k * Rabs q2 <= m) by nra.
  assert (0 <= q) by lra. assert (k * (Rabs det * (Rabs u + Rabs v)) <= k * (q * (Rabs q1 + Rabs q2))) by (apply Rmult_le_compat_l; assumption).
  assert (q * (k * Rabs q1) <= q * m) by (apply Rmult_le_compat_l; assumption). assert (q * (k * Rabs q2) <= q * m) by (apply Rmult_le_compat_l; assumption). lra.
Qed.

Lemma rot_cofactors A : rotation A ->
  e11 A * e22 A - e12 A * e21 A = e33 A /\ e21 A * e32 A - e22 A * e31 A = e13 A /\ e12 A * e31 A - e11 A * e32 A = e23 A /\
  (forall x y z, e13 A * (e11 A * x + e12 A * y + e13 A * z) + e23 A * (e21 A * x + e22 A * y + e23 A * z) + e33 A * (e31 A * x + e32 A * y + e33 A * z) = z) /\
  e11 A * e11 A + e12 A * e12 A <= 1 /\ e21 A * e21 A + e22 A * e22 A <= 1 /\ e31 A * e31 A + e32 A * e32 A <= 1.
Proof.
  intros HR. pose proof (rotation_adj A HR) as HA. destruct HR as (H1 & H2 & _).
  pose proof (f_equal e33 HA) as A1. pose proof (f_equal e31 HA) as A2. pose proof (f_equal e32 HA) as A3. cbn in A1, A2, A3.
  pose proof (f_equal e13 H2) as B1. pose proof (f_equal e23 H2) as B2. pose proof (f_equal e33 H2) as B3. cbn in B1, B2, B3.
  pose proof (f_equal e11 H1) as C1. pose proof (f_equal e22 H1) as C2. pose proof (f_equal e33 H1) as C3. cbn in C1, C2, C3.
  split; [lra|]. split; [lra|]. split; [lra|]. split; [|split; [|split]; nra].
  intros x y z. replace (e13 A * (e11 A * x + e12 A * y + e13 A * z) + e23 A * (e21 A * x + e22 A * y + e23 A * z) + e33 A * (e31 A * x + e32 A * y + e33 A * z))
    with ((e11 A * e13 A + e21 A * e23 A + e31 A * e33 A) * x + (e12 A * e13 A + e22 A * e23 A + e32 A * e33 A) * y + (e13 A * e13 A + e23 A * e23 A + e33 A * e33 A) * z) by ring.
  rewrite B1, B2, B3. ring.
Qed.

Definition flip_sign (b : bool) : R := if b then 1 else -1.
Lemma flip_abs b x : Rabs (flip_sign b * x) = Rabs x.
Proof. destruct b; cbn [flip_sign]; [rewrite Rmult_1_l; reflexivity|]. replace (-1 * x) with (- x) by ring. apply Rabs_Ropp. Qed.

Lemma pinhole_value cam lon lat alt : ip_pitch_x cam <> 0 -> ip_pitch_y cam <> 0 -> depth cam lon lat alt <> 0 ->
  pinhole_pixel cam (Fin lon) (Fin lat) (Fin alt)
  = (Fin (flip_sign (ip_flip_x cam) * (ph_f (ip_camera cam) / ip_pitch_x cam) * (cam_x cam lon lat alt / depth cam lon lat alt) + ip_npix_x cam / 2),
     Fin (flip_sign (ip_flip_y cam) * (ph_f (ip_camera cam) / ip_pitch_y cam) * (cam_y cam lon lat alt / depth cam lon lat alt) + ip_npix_y cam / 2)).
Proof.
  intros Hx Hy HD. cbn [pinhole_pixel]. unfold ideal_lon_lat_alt_to_pixel, world_to_image_plane. cbn [vx vy vz].
  fold (cam_x cam lon lat alt) (cam_y cam lon lat alt) (depth cam lon lat alt). rewrite !fdiv_nz by exact HD. cbn [fmap].
  destruct (ip_flip_x cam), (ip_flip_y cam); cbn [fmap flip_sign]; rewrite !fdiv_nz by assumption; f_equal; f_equal; field; auto.
Qed.

Lemma pinhole_near cam c alt rad D H T eps kmin kmax : views cam c alt rad D H T eps kmin kmax ->
  exists sx sy, nearly_affine (pinhole_pixel cam) alt c rad sx sy (bend D T eps kmax) /\ steep sx sy (slope D H T kmin) /\
    Rabs (fst sx) = Rabs (ph_f (ip_camera cam) / ip_pitch_x cam) *
      Rabs (e11 (ph_M (ip_camera cam)) - cam_x cam (fst c) (snd c) alt / depth cam (fst c) (snd c) alt * e31 (ph_M (ip_camera cam))) / D.
Proof.
  intros [HR ED D0 EH HT1 HT2 HE B1 B2 Hx Hy K0 KX KY]. set (M := ph_M (ip_camera cam)) in *.
  destruct (rot_cofactors M HR) as (C1 & C2 & C3 & CZ & S1 & S2 & S3).
  set (d0 := depth cam (fst c) (snd c) alt) in *. set (n1 := cam_x cam (fst c) (snd c) alt) in *. set (n2 := cam_y cam (fst c) (snd c) alt) in *.
  assert (Z0 : d0 <> 0) by (intros E; rewrite E, Rabs_R0 in ED; lra).
  set (g1 := n1 / d0). set (g2 := n2 / d0).
  assert (GB : forall n, Rabs n <= T * D -> Rabs (n / d0) <= T).
  { intros n Hn. unfold Rdiv. rewrite Rabs_mult, Rabs_inv, <- ED. apply (Rmult_le_reg_r D); [exact D0|].
    rewrite Rmult_assoc, Rinv_l, Rmult_1_r by lra. exact Hn. }
  pose proof (GB _ HT1) as G1. pose proof (GB _ HT2) as G2. fold g1 in G1. fold g2 in G2.
  assert (TP : 0 <= T) by (eapply Rle_trans; [apply Rabs_pos|exact G1]).
  set (kx := flip_sign (ip_flip_x cam) * (ph_f (ip_camera cam) / ip_pitch_x cam)). set (ky := flip_sign (ip_flip_y cam) * (ph_f (ip_camera cam) / ip_pitch_y cam)).
  assert (AKX : Rabs kx = Rabs (ph_f (ip_camera cam) / ip_pitch_x cam)) by apply flip_abs.
  assert (AKY : Rabs ky = Rabs (ph_f (ip_camera cam) / ip_pitch_y cam)) by apply flip_abs.
  rewrite <- AKX in *. rewrite <- AKY in *.
  set (a := e11 M - g1 * e31 M). set (b := e12 M - g1 * e32 M). set (p := e21 M - g2 * e31 M). set (q := e22 M - g2 * e32 M).
  exists (kx / d0 * a, kx / d0 * b), (ky / d0 * p, ky / d0 * q). cbn [fst snd]. split; [|split].
  - set (B := Rmax (Rabs (e31 M)) (Rabs (e32 M))).
    assert (BB : B * rad <= eps * Rabs d0) by (rewrite <- ED; unfold B, Rmax; destruct (Rle_dec _ _); assumption).
    assert (BL1 : Rabs (e31 M) <= B) by apply Rmax_l. assert (BL2 : Rabs (e32 M) <= B) by apply Rmax_r.
    assert (BU : B <= 1) by (apply Rmax_lub; apply abs_le1; nra).
    assert (U11 : Rabs (e11 M) <= 1) by (apply abs_le1; nra). assert (U12 : Rabs (e12 M) <= 1) by (apply abs_le1; nra).
    assert (U21 : Rabs (e21 M) <= 1) by (apply abs_le1; nra). assert (U22 : Rabs (e22 M) <= 1) by (apply abs_le1; nra).
    assert (EX : forall lon lat, cam_x cam lon lat alt = n1 + e11 M * (lon - fst c) + e12 M * (lat - snd c)) by (intros; unfold n1, cam_x; fold M; ring).
    assert (EY : forall lon lat, cam_y cam lon lat alt = n2 + e21 M * (lon - fst c) + e22 M * (lat - snd c)) by (intros; unfold n2, cam_y; fold M; ring).
    assert (EDp : forall lon lat, depth cam lon lat alt = d0 + e31 M * (lon - fst c) + e32 M * (lat - snd c)) by (intros; unfold d0, depth; fold M; ring).
    assert (D0' : 0 < Rabs d0) by (rewrite <- ED; exact D0).
    exists (fun lon lat => kx * (cam_x cam lon lat alt / depth cam lon lat alt) + ip_npix_x cam / 2),
           (fun lon lat => ky * (cam_y cam lon lat alt / depth cam lon lat alt) + ip_npix_y cam / 2). split.
    + intros lon lat W. apply pinhole_value; try assumption. rewrite EDp.
      destruct (ratio_near n1 (e11 M) (e12 M) d0 (e31 M) (e32 M) B rad eps T (lon - fst c) (lat - snd c) (lon - fst c) (lat - snd c)) as (N & _); try assumption.
    + intros lon lat lon' lat' W W'.
      destruct (ratio_near n1 (e11 M) (e12 M) d0 (e31 M) (e32 M) B rad eps T (lon - fst c) (lat - snd c) (lon' - fst c) (lat' - snd c)) as (_ & _ & QX); try assumption.
      destruct (ratio_near n2 (e21 M) (e22 M) d0 (e31 M) (e32 M) B rad eps T (lon - fst c) (lat - snd c) (lon' - fst c) (lat' - snd c)) as (_ & _ & QY); try assumption.
      rewrite <- !EX, <- !EDp in QX. rewrite <- !EY, <- !EDp in QY. fold g1 in QX. fold g2 in QY.
      replace (lon' - fst c - (lon - fst c)) with (lon' - lon) in QX, QY by ring. replace (lat' - snd c - (lat - snd c)) with (lat' - lat) in QX, QY by ring.
      rewrite <- ED in QX, QY. set (dl := Rabs (lon' - lon) + Rabs (lat' - lat)) in *.
      assert (FI : forall k v w, Rabs k <= kmax -> Rabs v <= w -> Rabs (k * v) <= kmax * w).
      { intros k v w A1 A2. rewrite Rabs_mult. apply Rmult_le_compat; try apply Rabs_pos; assumption. }
      assert (EB : forall t, bend D T eps kmax * t = kmax * ((1 + T) / D * (2 * eps / ((1 - eps) * (1 - eps))) * t)) by (intros t; unfold bend; field; split; lra).
      rewrite !EB. cbn [fst snd]. split.
      * eapply Rle_trans; [right|apply (FI kx _ _ (proj2 KX) QX)]. f_equal. unfold a, b. set (r1 := _ / depth _ _ _ _). set (r2 := _ / depth _ _ _ _). clearbody r1 r2. field. exact Z0.
      * eapply Rle_trans; [right|apply (FI ky _ _ (proj2 KY) QY)]. f_equal. unfold p, q. set (r1 := _ / depth _ _ _ _). set (r2 := _ / depth _ _ _ _). clearbody r1 r2. field. exact Z0.
  - assert (DET : a * q - b * p = (alt - vz (ph_pos (ip_camera cam))) / d0).
    { replace (a * q - b * p) with ((e11 M * e22 M - e12 M * e21 M) + g2 * (e12 M * e31 M - e11 M * e32 M) + g1 * (e21 M * e32 M - e22 M * e31 M)) by (unfold a, b, p, q; ring).
      rewrite C1, C2, C3. rewrite <- (CZ (fst c - vx (ph_pos (ip_camera cam))) (snd c - vy (ph_pos (ip_camera cam))) (alt - vz (ph_pos (ip_camera cam)))).
      unfold g1, g2, n1, n2, d0, cam_x, cam_y, depth in *. fold M in Z0 |- *. field. exact Z0. }
    assert (SUM : forall x y g, Rabs g <= T -> x * x + y * y <= 1 -> Rabs (x - g * e31 M) + Rabs (y - g * e32 M) <= 3 / 2 * (1 + T)).
    { intros x y g Hg Hxy. pose proof (sum_abs x y Hxy). pose proof (sum_abs _ _ S3) as T3.
      pose proof (Rabs_triang x (- (g * e31 M))) as R1. pose proof (Rabs_triang y (- (g * e32 M))) as R2. rewrite Rabs_Ropp, Rabs_mult in R1, R2.
      unfold Rminus. pose proof (Rabs_pos g). pose proof (Rabs_pos (e31 M)). pose proof (Rabs_pos (e32 M)).
      assert (Rabs g * (Rabs (e31 M) + Rabs (e32 M)) <= T * (3 / 2)) by (apply Rmult_le_compat; lra). lra. }
    assert (KD : forall k, kmin <= Rabs k -> kmin / D <= Rabs (k / d0)).
    { intros k Hk. unfold Rdiv. rewrite Rabs_mult, Rabs_inv, <- ED. apply Rmult_le_compat_r; [left; apply Rinv_0_lt_compat; exact D0|exact Hk]. }
    intros u v. cbn [fst snd].
    pose proof (steep_entries a b p q (kx / d0) (ky / d0) _ (kmin / D) (3 / 2 * (1 + T)) u v (SUM _ _ _ G1 S1) (SUM _ _ _ G2 S2) DET
      ltac:(left; apply Rdiv_lt_0_compat; assumption) (KD _ (proj1 KX)) (KD _ (proj1 KY))) as Q.
    assert (AD : Rabs ((alt - vz (ph_pos (ip_camera cam))) / d0) = H / D) by (unfold Rdiv; rewrite Rabs_mult, Rabs_inv, <- ED, <- EH; reflexivity).
    rewrite AD in Q.
    set (mm := Rmax _ _) in *. unfold slope. apply (Rmult_le_reg_l (3 * (1 + T))); [lra|].
    eapply Rle_trans; [|eapply Rle_trans; [exact Q|right; lra]]. right. field. lra.
  - rewrite Rabs_mult. assert (AD : Rabs (kx / d0) = Rabs kx / D) by (unfold Rdiv; rewrite Rabs_mult, Rabs_inv, <- ED; reflexivity). rewrite AD. fold a. unfold Rdiv. ring.
Qed.
