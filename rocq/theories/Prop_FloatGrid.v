(** C114: the ground grid of an ortho in double precision. *)
From Coq Require Import Reals Lra Lia ZArith List.
From Flocq Require Import Core Relative.
From Verif Require Import Py RAux M_Photo M_FloatGrid Spec_Photo Spec_Float P_FloatSum P_Photo P_Float M_Float.
Import ListNotations.
Open Scope R_scope.
Open Scope list_scope.

Notation u := (bpow radix2 (-53)).
Notation eta := (bpow radix2 (-1075)).
Notation fmt := (generic_format radix2 (FLT_exp (-1074) 53)).

Lemma dd x : fmt (double x).
Proof. apply (rne_fmt (-1074) 53). Qed.
Lemma u_small : 0 < u <= / 1000000.
Proof. rewrite u53_num. lra. Qed.
Lemma eta_pos : 0 < eta.
Proof. apply bpow_gt_0. Qed.
Lemma abs_err x : Rabs (double x - x) <= u * Rabs x + eta.
Proof.
  destruct (double_err x) as (e & h & E & H & ->). replace (x * (1 + e) + h - x) with (e * x + h) by ring.
  eapply Rle_trans; [apply Rabs_triang|]. rewrite Rabs_mult. apply Rplus_le_compat; [|exact H]. apply Rmult_le_compat_r; [apply Rabs_pos|exact E].
Qed.
Lemma abs_plus x y : fmt x -> fmt y -> Rabs (double (x + y) - (x + y)) <= u * Rabs (x + y).
Proof.
  intros Fx Fy. destruct (double_plus_err x y Fx Fy) as (e & E & ->). replace ((x + y) * (1 + e) - (x + y)) with (e * (x + y)) by ring.
  rewrite Rabs_mult. apply Rmult_le_compat_r; [apply Rabs_pos|exact E].
Qed.
Lemma bounds x a : Rabs x <= a -> - a <= x <= a.
Proof. unfold Rabs. destruct (Rcase_abs x); lra. Qed.
Lemma prod_bound x y a b : - a <= x <= a -> 0 <= y <= b -> - (a * b) <= x * y <= a * b.
Proof. intros H1 H2. split; nra. Qed.
Lemma is_fmt x : is_double x -> fmt x.
Proof. intros H. apply is_float_iff in H; [exact H|exact eq_refl]. Qed.

(** A fraction of two counts *)
Lemma fraction n k : (1 <= n <= 2 ^ 53)%Z -> (0 <= k <= n)%Z -> let t := IZR k / IZR n in 0 <= t <= 1 /\ Rabs (double t - t) <= u * t.
Proof.
  intros Hn Hk t. assert (N : 1 <= IZR n) by (apply IZR_le; lia).
  assert (T : 0 <= t <= 1).
  { unfold t. split; [apply Rle_mult_inv_pos; [apply IZR_le; lia|lra]|]. apply Rmult_le_reg_r with (IZR n); [lra|].
    replace (IZR k / IZR n * IZR n) with (IZR k) by (field; lra). rewrite Rmult_1_l. apply IZR_le. lia. }
  split; [exact T|]. destruct (Z.eq_dec k 0) as [->|K].
  - unfold t. replace (0 / IZR n) with 0 by (field; lra). unfold double. rewrite rne_0. rewrite Rminus_0_r, Rabs_R0. lra.
  - destruct (double_rel t) as (e & E & ->).
    + rewrite Rabs_pos_eq by lra. apply Rle_trans with (/ IZR (2 ^ 53)).
      * change (IZR (2 ^ 53)) with (bpow radix2 53). rewrite <- bpow_opp. apply bpow_le. lia.
      * apply Rle_trans with (/ IZR n); [apply Rinv_le_contravar; [lra|apply IZR_le; lia]|].
        unfold t, Rdiv. rewrite <- (Rmult_1_l (/ IZR n)) at 1. apply Rmult_le_compat_r; [left; apply Rinv_0_lt_compat; lra|apply IZR_le; lia].
    + replace (t * (1 + e) - t) with (e * t) by ring. rewrite Rabs_mult, (Rabs_pos_eq t) by lra. apply Rmult_le_compat_r; [lra|exact E].
Qed.

Lemma edge_err lo hi n k : fmt lo -> fmt hi -> lo <= hi -> (1 <= n <= 2 ^ 53)%Z -> (0 <= k <= n)%Z ->
  Rabs (grid_edge_float double lo hi n k - (lo + IZR k / IZR n * (hi - lo))) <= 402 / 100 * u * (Rabs lo + Rabs hi) + 2 * eta.
Proof.
  intros Fl Fh L Hn Hk. destruct (fraction n k Hn Hk) as [T Q]. set (t := IZR k / IZR n) in *. unfold grid_edge_float. fold t.
  set (S0 := Rabs lo + Rabs hi). set (W := hi - lo).
  assert (WS : 0 <= W <= S0). { unfold W, S0. pose proof (Rle_abs hi). pose proof (Rle_abs (- lo)) as K. rewrite Rabs_Ropp in K. lra. }
  assert (D : Rabs (double W - W) <= u * W).
  { pose proof (abs_plus hi (- lo) Fh (generic_format_opp _ _ _ Fl)) as K. replace (hi + - lo) with W in K by (unfold W; ring). rewrite (Rabs_pos_eq W) in K by lra. exact K. }
  set (q := double t) in *. set (d := double W) in *. pose proof u_small as U. pose proof eta_pos as EP.
  apply bounds in Q, D.
  assert (QB : 0 <= q <= 1 + u) by nra. assert (DB : 0 <= d <= W * (1 + u)) by nra.
  assert (PR : Rabs (q * d - t * W) <= 2001 / 1000 * (u * S0)).
  { replace (q * d - t * W) with ((q - t) * d + t * (d - W)) by ring. apply Rabs_le.
    assert (UT : u * t <= u) by (rewrite <- (Rmult_1_r u) at 2; apply Rmult_le_compat_l; lra).
    assert (A1 : - (u * d) <= (q - t) * d <= u * d) by (apply prod_bound; lra).
    assert (A2 : - (u * W * 1) <= (d - W) * t <= u * W * 1) by (apply prod_bound; lra).
    assert (A4 : u * W <= u * S0) by (apply Rmult_le_compat_l; lra).
    assert (A5 : u * d <= u * (W * (1 + u))) by (apply Rmult_le_compat_l; lra).
    assert (A6 : u * (u * W) <= / 1000000 * (u * S0)) by (apply Rmult_le_compat; try lra; apply Rmult_le_pos; lra).
    lra. }
  assert (P1 : Rabs (q * d) <= 1001 / 1000 * S0).
  { rewrite Rabs_pos_eq by nra. apply Rle_trans with ((1 + u) * (W * (1 + u))); [apply Rmult_le_compat; lra|]. nra. }
  pose proof (abs_err (q * d)) as PE. set (p := double (q * d)) in *.
  assert (PT : Rabs (p - t * W) <= 3003 / 1000 * (u * S0) + eta).
  { apply bounds in PR, PE. apply Rabs_le. assert (u * Rabs (q * d) <= u * (1001 / 1000 * S0)) by (apply Rmult_le_compat_l; lra). lra. }
  pose proof (abs_plus p lo (dd _) Fl) as FE.
  assert (PL : Rabs (p + lo) <= 1001 / 1000 * S0 + eta).
  { assert (M : Rabs (t * W + lo) <= S0).
    { apply Rabs_le. assert (0 <= t * W <= W) by nra. unfold S0, W in *. pose proof (Rle_abs hi). pose proof (Rle_abs (- lo)) as K. rewrite Rabs_Ropp in K.
      pose proof (Rabs_pos hi). pose proof (Rabs_pos lo). pose proof (Rle_abs lo). pose proof (Rle_abs (- hi)) as K2. rewrite Rabs_Ropp in K2. lra. }
    apply bounds in M, PT. apply Rabs_le. assert (u * S0 <= / 1000000 * S0) by (apply Rmult_le_compat_r; lra). lra. }
  assert (FB : u * Rabs (p + lo) <= 1001 / 1000 * (u * S0) + eta).
  { apply Rle_trans with (u * (1001 / 1000 * S0 + eta)); [apply Rmult_le_compat_l; lra|]. assert (u * eta <= 1 * eta) by (apply Rmult_le_compat_r; lra). lra. }
  apply bounds in FE, PT. apply Rabs_le. assert (0 <= u * S0) by (apply Rmult_le_pos; lra). fold W. lra.
Qed.

(** A cell centre computed from an edge and half the rounded distance of two neighbouring edges *)
Lemma centre_err lo hi n k a s h : fmt lo -> fmt hi -> lo <= hi -> (2 <= n <= 2 ^ 53)%Z -> (0 <= k <= n)%Z -> (0 <= a < n)%Z -> s = 1 \/ s = -1 ->
  h = double (Rabs (double (grid_edge_float double lo hi n (a + 1) - grid_edge_float double lo hi n a)) / 2) ->
  Rabs (double (grid_edge_float double lo hi n k + s * h) - (lo + (IZR k + s / 2) * ((hi - lo) / IZR n))) <= 10 * u * (Rabs lo + Rabs hi) + bpow radix2 (-1070).
Proof.
  intros Fl Fh L Hn Hk Ha Hs Eh. set (S0 := Rabs lo + Rabs hi). set (W := hi - lo).
  assert (WS : 0 <= W <= S0). { unfold W, S0. pose proof (Rle_abs hi). pose proof (Rle_abs (- lo)) as K. rewrite Rabs_Ropp in K. lra. }
  assert (N : 2 <= IZR n) by (apply IZR_le; lia).
  pose proof u_small as U. pose proof eta_pos as EP.
  pose proof (edge_err lo hi n k Fl Fh L ltac:(lia) Hk) as E0. pose proof (edge_err lo hi n a Fl Fh L ltac:(lia) ltac:(lia)) as E1.
  pose proof (edge_err lo hi n (a + 1) Fl Fh L ltac:(lia) ltac:(lia)) as E2. fold S0 W in E0, E1, E2.
  set (ek := grid_edge_float double lo hi n k) in *. set (ea := grid_edge_float double lo hi n a) in *. set (eb := grid_edge_float double lo hi n (a + 1)) in *.
  set (G := W / IZR n).
  assert (GB : 0 <= G <= S0 / 2).
  { unfold G. split; [apply Rle_mult_inv_pos; lra|]. apply Rle_trans with (W / 2); [|lra]. apply Rmult_le_compat_l; [lra|]. apply Rinv_le_contravar; lra. }
  rewrite plus_IZR in E2. replace (IZR a / IZR n * W) with (IZR a * G) in E1 by (unfold G; field; lra).
  replace ((IZR a + 1) / IZR n * W) with (IZR a * G + G) in E2 by (unfold G; field; lra).
  replace (IZR k / IZR n * W) with (IZR k * G) in E0 by (unfold G; field; lra).
  apply bounds in E0, E1, E2. replace (402 / 100 * u * S0) with (402 / 100 * (u * S0)) in E0, E1, E2 by ring.
  assert (Z0 : 0 <= u * S0 <= / 1000000 * S0) by (split; [apply Rmult_le_pos; lra|apply Rmult_le_compat_r; lra]).
  assert (DG : Rabs (eb - ea - G) <= 804 / 100 * (u * S0) + 4 * eta) by (apply Rabs_le; lra).
  pose proof (abs_plus eb (- ea) (dd _) (generic_format_opp _ _ _ (dd _))) as GE. change (eb + - ea) with (eb - ea) in GE.
  set (g := double (eb - ea)) in *.
  assert (GL : u * Rabs (eb - ea) <= 51 / 100 * (u * S0) + eta).
  { apply Rle_trans with (u * (S0 / 2 + 804 / 100 * (/ 1000000 * S0) + 4 * eta)).
    - apply Rmult_le_compat_l; [lra|]. apply bounds in DG. apply Rabs_le. lra.
    - assert (u * eta <= / 1000000 * eta) by (apply Rmult_le_compat_r; lra). nra. }
  assert (GG : Rabs (Rabs g - G) <= 855 / 100 * (u * S0) + 5 * eta).
  { rewrite <- (Rabs_pos_eq G) by lra. eapply Rle_trans; [apply Rabs_triang_inv2|]. apply bounds in DG, GE. apply Rabs_le. lra. }
  pose proof (abs_err (Rabs g / 2)) as HE. rewrite <- Eh in HE.
  apply bounds in GG.
  assert (HL : u * Rabs (Rabs g / 2) <= 26 / 100 * (u * S0) + eta).
  { rewrite Rabs_pos_eq by (pose proof (Rabs_pos g); lra). apply Rle_trans with (u * (S0 / 4 + 428 / 100 * (/ 1000000 * S0) + 25 / 10 * eta)).
    - apply Rmult_le_compat_l; lra.
    - assert (u * eta <= / 1000000 * eta) by (apply Rmult_le_compat_r; lra). nra. }
  apply bounds in HE.
  assert (HH : - (454 / 100 * (u * S0) + 5 * eta) <= h - G / 2 <= 454 / 100 * (u * S0) + 5 * eta) by lra.
  assert (Fh' : fmt h) by (rewrite Eh; apply dd).
  assert (SUM : Rabs (double (ek + s * h) - (ek + s * h)) <= u * Rabs (ek + s * h)).
  { apply abs_plus; [apply dd|]. destruct Hs as [-> | ->]; [rewrite Rmult_1_l; exact Fh'|]. replace (-1 * h) with (- h) by ring. apply generic_format_opp. exact Fh'. }
  assert (KG : 0 <= IZR k * G <= W).
  { assert (0 <= IZR k <= IZR n) by (split; apply IZR_le; lia). split; [apply Rmult_le_pos; lra|]. apply Rle_trans with (IZR n * G); [apply Rmult_le_compat_r; lra|]. right. unfold G. field. lra. }
  assert (EXB : Rabs (ek + s * h) <= 13 / 10 * S0 + 7 * eta).
  { assert (AB : - S0 <= lo + IZR k * G <= S0).
    { unfold S0, W in *. pose proof (Rle_abs hi). pose proof (Rle_abs (- lo)) as K. rewrite Rabs_Ropp in K. pose proof (Rabs_pos hi). pose proof (Rabs_pos lo).
      pose proof (Rle_abs lo). pose proof (Rle_abs (- hi)) as K2. rewrite Rabs_Ropp in K2. lra. }
    apply Rabs_le. destruct Hs as [-> | ->]; lra. }
  assert (SB : u * Rabs (ek + s * h) <= 14 / 10 * (u * S0) + eta).
  { apply Rle_trans with (u * (13 / 10 * S0 + 7 * eta)); [apply Rmult_le_compat_l; lra|]. assert (u * eta <= / 1000000 * eta) by (apply Rmult_le_compat_r; lra). nra. }
  assert (TE : 8 * eta <= bpow radix2 (-1070)).
  { change 8 with (bpow radix2 3). rewrite <- bpow_plus. apply bpow_le. lia. }
  apply bounds in SUM. fold W. fold G. apply Rabs_le.
  destruct Hs as [-> | ->]; lra.
Qed.

Lemma at2_map2d f a r c v : at2 a r c = Some v -> at2 (map2d f a) r c = Some (f v).
Proof.
  unfold at2, map2d. destruct (nth_error a r) as [row|] eqn:E; [|discriminate]. intros H. erewrite map_nth_error by exact E. apply map_nth_error. exact H.
Qed.
Lemma at2_table (f : Z -> Z -> R) ny nx r c : (r < Z.to_nat ny)%nat -> (c < Z.to_nat nx)%nat ->
  at2 (map (fun i => map (fun j => f i j) (zrange 0 nx)) (zrange 0 ny)) r c = Some (f (Z.of_nat r) (Z.of_nat c)).
Proof.
  intros Hr Hc. unfold at2. erewrite map_nth_error by (apply zrange_nth; lia). erewrite map_nth_error by (apply zrange_nth; lia). reflexivity.
Qed.
Lemma shape_table (f : Z -> Z -> R) ny nx : Spec_Photo.has_shape (map (fun i => map (fun j => f i j) (zrange 0 nx)) (zrange 0 ny)) (Z.to_nat ny) (Z.to_nat nx).
Proof.
  split; [rewrite map_length, zrange_length; f_equal; lia|]. apply Forall_forall. intros row H. apply in_map_iff in H. destruct H as (i & <- & _).
  rewrite map_length, zrange_length. f_equal. lia.
Qed.
Lemma shape_map2d f a ny nx : Spec_Photo.has_shape a ny nx -> Spec_Photo.has_shape (map2d f a) ny nx.
Proof.
  intros [H1 H2]. split; [unfold map2d; rewrite map_length; exact H1|]. unfold map2d. apply Forall_map. eapply Forall_impl; [|exact H2].
  intros row H. cbn. rewrite map_length. exact H.
Qed.

Lemma grid_float_ok rnd minx maxx miny maxy nx ny : (2 <= nx)%Z -> (2 <= ny)%Z ->
  exists gx gy, create_ground_grid_float rnd minx maxx miny maxy nx ny = Ok (gx, gy) /\
    Spec_Photo.has_shape gx (Z.to_nat ny) (Z.to_nat nx) /\ Spec_Photo.has_shape gy (Z.to_nat ny) (Z.to_nat nx) /\
    forall r c, (r < Z.to_nat ny)%nat -> (c < Z.to_nat nx)%nat ->
      at2 gx r c = Some (rnd (grid_edge_float rnd minx maxx nx (Z.of_nat c) + rnd (Rabs (rnd (grid_edge_float rnd minx maxx nx 1 - grid_edge_float rnd minx maxx nx 0)) / 2))) /\
      at2 gy r c = Some (rnd (grid_edge_float rnd miny maxy ny (ny - Z.of_nat r) - rnd (Rabs (rnd (grid_edge_float rnd miny maxy ny ny - grid_edge_float rnd miny maxy ny (ny - 1))) / 2))).
Proof.
  intros Hx Hy. unfold create_ground_grid_float.
  set (gx := map (fun _ => map (fun c => grid_edge_float rnd minx maxx nx c) (zrange 0 nx)) (zrange 0 ny)).
  set (gy := map (fun r => map (fun _ => grid_edge_float rnd miny maxy ny ((r - ny) * -1)) (zrange 0 nx)) (zrange 0 ny)).
  assert (AX : forall r c, (r < Z.to_nat ny)%nat -> (c < Z.to_nat nx)%nat -> at2 gx r c = Some (grid_edge_float rnd minx maxx nx (Z.of_nat c))).
  { intros r c Hr Hc. apply (at2_table (fun _ j => grid_edge_float rnd minx maxx nx j)); assumption. }
  assert (AY : forall r c, (r < Z.to_nat ny)%nat -> (c < Z.to_nat nx)%nat -> at2 gy r c = Some (grid_edge_float rnd miny maxy ny (ny - Z.of_nat r))).
  { intros r c Hr Hc. unfold gy. rewrite (at2_table (fun i _ => grid_edge_float rnd miny maxy ny ((i - ny) * -1))) by assumption. f_equal. f_equal. lia. }
  assert (SX : Spec_Photo.has_shape gx (Z.to_nat ny) (Z.to_nat nx)) by apply (shape_table (fun _ j => grid_edge_float rnd minx maxx nx j)).
  assert (SY : Spec_Photo.has_shape gy (Z.to_nat ny) (Z.to_nat nx)) by apply (shape_table (fun i _ => grid_edge_float rnd miny maxy ny ((i - ny) * -1))).
  clearbody gx gy.
  pose proof (get2_at gx 0 1 _ (AX 0%nat 1%nat ltac:(lia) ltac:(lia))) as G1. pose proof (get2_at gx 0 0 _ (AX 0%nat 0%nat ltac:(lia) ltac:(lia))) as G2.
  pose proof (get2_at gy 0 0 _ (AY 0%nat 0%nat ltac:(lia) ltac:(lia))) as G3. pose proof (get2_at gy 1 0 _ (AY 1%nat 0%nat ltac:(lia) ltac:(lia))) as G4.
  cbn [Z.of_nat Pos.of_succ_nat] in G1, G2, G3, G4. rewrite Z.sub_0_r in G3. rewrite G1, G2, G3, G4. cbn [bind].
  eexists. eexists. split; [reflexivity|]. split; [apply shape_map2d; exact SX|]. split; [apply shape_map2d; exact SY|].
  intros r c Hr Hc. split; [exact (at2_map2d _ gx r c _ (AX r c Hr Hc))|exact (at2_map2d _ gy r c _ (AY r c Hr Hc))].
Qed.

(** The grid exists; every position is within ten half units in the last place of 1, times the size of the bounds, of the exact centre of its cell. *)
Theorem C114_grid : forall minx maxx miny maxy nx ny,
  is_double minx -> is_double maxx -> is_double miny -> is_double maxy -> minx <= maxx -> miny <= maxy -> (2 <= nx <= 2 ^ 53)%Z -> (2 <= ny <= 2 ^ 53)%Z ->
  exists gx gy, create_ground_grid_float double minx maxx miny maxy nx ny = Ok (gx, gy) /\
    Spec_Photo.has_shape gx (Z.to_nat ny) (Z.to_nat nx) /\ Spec_Photo.has_shape gy (Z.to_nat ny) (Z.to_nat nx) /\
    forall r c, (r < Z.to_nat ny)%nat -> (c < Z.to_nat nx)%nat -> exists x y, at2 gx r c = Some x /\ at2 gy r c = Some y /\
      Rabs (x - (minx + (INR c + 1 / 2) * ((maxx - minx) / IZR nx))) <= 10 * u53 * (Rabs minx + Rabs maxx) + powerRZ 2 (-1070) /\
      Rabs (y - (maxy - (INR r + 1 / 2) * ((maxy - miny) / IZR ny))) <= 10 * u53 * (Rabs miny + Rabs maxy) + powerRZ 2 (-1070).
Proof.
  intros minx maxx miny maxy nx ny F1 F2 F3 F4 L1 L2 Hx Hy. apply is_fmt in F1, F2, F3, F4.
  destruct (grid_float_ok double minx maxx miny maxy nx ny ltac:(lia) ltac:(lia)) as (gx & gy & E & S1 & S2 & V).
  exists gx, gy. split; [exact E|]. split; [exact S1|]. split; [exact S2|]. intros r c Hr Hc. destruct (V r c Hr Hc) as [VX VY].
  eexists. eexists. split; [exact VX|]. split; [exact VY|]. unfold u53. rewrite <- !bpow_pow. split.
  - pose proof (centre_err minx maxx nx (Z.of_nat c) 0 1 _ F1 F2 L1 Hx ltac:(lia) ltac:(lia) (or_introl eq_refl) eq_refl) as K.
    rewrite Rmult_1_l, <- INR_IZR_INZ in K. exact K.
  - pose proof (centre_err miny maxy ny (ny - Z.of_nat r) (ny - 1) (-1) _ F3 F4 L2 Hy ltac:(lia) ltac:(lia) (or_intror eq_refl) eq_refl) as K.
    replace (ny - 1 + 1)%Z with ny in K by lia. rewrite minus_IZR, <- INR_IZR_INZ in K.
    match type of K with Rabs (double (?e + -1 * ?h) - ?q) <= ?b => replace (e - h) with (e + -1 * h) by ring;
      replace (maxy - (INR r + 1 / 2) * ((maxy - miny) / IZR ny)) with q; [exact K|] end.
    assert (IZR ny <> 0) by (apply not_0_IZR; lia). field. assumption.
Qed.
Print Assumptions C114_grid.

Lemma dle x y : x <= y -> double x <= double y.
Proof. intros H. apply rne_le; [exact eq_refl|exact H]. Qed.
Lemma dge x y : fmt x -> x <= y -> x <= double y.
Proof. intros H1 H2. rewrite <- (double_fix x H1). apply dle. exact H2. Qed.
Lemma dpos y : 0 <= y -> 0 <= double y.
Proof. apply dge. apply generic_format_0. Qed.
Lemma edge_mono lo hi n j k : lo <= hi -> (1 <= n)%Z -> (j <= k)%Z -> (0 <= j)%Z -> grid_edge_float double lo hi n j <= grid_edge_float double lo hi n k.
Proof.
  intros L Hn H Hj. unfold grid_edge_float. apply dle. apply Rplus_le_compat_r. apply dle. apply Rmult_le_compat_r.
  - apply dpos. lra.
  - apply dle. apply Rmult_le_compat_r; [left; apply Rinv_0_lt_compat, IZR_lt; lia|apply IZR_le; exact H].
Qed.

(** The positions are in order whatever the rounding does: they never decrease from one column to the next and never increase from one row to
    the next, they are the same all along a column and along a row, and none is left of the left bound. *)
Theorem C114_order : forall minx maxx miny maxy nx ny gx gy, is_double minx -> minx <= maxx -> miny <= maxy -> (2 <= nx)%Z -> (2 <= ny)%Z ->
  create_ground_grid_float double minx maxx miny maxy nx ny = Ok (gx, gy) ->
  forall r c r' c' x y x' y', at2 gx r c = Some x -> at2 gy r c = Some y -> at2 gx r' c' = Some x' -> at2 gy r' c' = Some y' ->
    minx <= x /\ ((c <= c')%nat -> x <= x') /\ ((r <= r')%nat -> y' <= y).
Proof.
  intros minx maxx miny maxy nx ny gx gy F1 L1 L2 Hx Hy E r c r' c' x y x' y' A1 A2 A3 A4. apply is_fmt in F1.
  destruct (grid_float_ok double minx maxx miny maxy nx ny Hx Hy) as (gx0 & gy0 & E0 & S1 & S2 & V). rewrite E in E0. injection E0 as <- <-.
  assert (IN : forall i j v, at2 gx i j = Some v -> (i < Z.to_nat ny)%nat /\ (j < Z.to_nat nx)%nat).
  { intros i j v H. destruct S1 as [S1 S1']. unfold at2 in H. destruct (nth_error gx i) as [row|] eqn:Er; [|discriminate].
    split; [rewrite <- S1; apply nth_error_Some; congruence|]. rewrite Forall_forall in S1'. rewrite <- (S1' row (nth_error_In _ _ Er)). apply nth_error_Some. congruence. }
  destruct (IN _ _ _ A1) as [B1 B2]. destruct (IN _ _ _ A3) as [B3 B4].
  destruct (V r c B1 B2) as [V1 V2]. destruct (V r' c' B3 B4) as [V3 V4]. rewrite V1 in A1. rewrite V2 in A2. rewrite V3 in A3. rewrite V4 in A4.
  injection A1 as <-. injection A2 as <-. injection A3 as <-. injection A4 as <-. split; [|split].
  - apply dge; [exact F1|].
    assert (E0 : minx <= grid_edge_float double minx maxx nx (Z.of_nat c)).
    { apply Rle_trans with (grid_edge_float double minx maxx nx 0); [|apply edge_mono; lia || lra].
      unfold grid_edge_float. replace (0 / IZR nx) with 0 by (field; apply not_0_IZR; lia). unfold double. rewrite rne_0, Rmult_0_l, rne_0, Rplus_0_l. right. symmetry. apply rne_fix. exact F1. }
    assert (H0 : 0 <= double (Rabs (double (grid_edge_float double minx maxx nx 1 - grid_edge_float double minx maxx nx 0)) / 2)).
    { apply dpos. match goal with |- _ <= Rabs ?t / 2 => pose proof (Rabs_pos t) end. lra. }
    lra.
  - intros H. apply dle, Rplus_le_compat_r, edge_mono; lia || lra.
  - intros H. apply dle. apply Rplus_le_compat_r, edge_mono; lia || lra.
Qed.
Print Assumptions C114_order.

(** Cells wider than twice that error: every position is strictly inside its own cell, so that no two columns and no two rows share a position. *)
Theorem C114_inside : forall minx maxx miny maxy nx ny gx gy,
  is_double minx -> is_double maxx -> is_double miny -> is_double maxy -> minx <= maxx -> miny <= maxy -> (2 <= nx <= 2 ^ 53)%Z -> (2 <= ny <= 2 ^ 53)%Z ->
  let dx := (maxx - minx) / IZR nx in let dy := (maxy - miny) / IZR ny in
  20 * u53 * (Rabs minx + Rabs maxx) + powerRZ 2 (-1069) < dx -> 20 * u53 * (Rabs miny + Rabs maxy) + powerRZ 2 (-1069) < dy ->
  create_ground_grid_float double minx maxx miny maxy nx ny = Ok (gx, gy) ->
  forall r c x y, at2 gx r c = Some x -> at2 gy r c = Some y ->
    minx + INR c * dx < x < minx + INR (c + 1) * dx /\ maxy - INR (r + 1) * dy < y < maxy - INR r * dy.
Proof.
  intros minx maxx miny maxy nx ny gx gy F1 F2 F3 F4 L1 L2 Hx Hy dx dy Bx By E r c x y A1 A2.
  destruct (C114_grid minx maxx miny maxy nx ny F1 F2 F3 F4 L1 L2 Hx Hy) as (gx0 & gy0 & E0 & [S1 S1'] & _ & V). rewrite E in E0. injection E0 as <- <-.
  assert (IN : (r < Z.to_nat ny)%nat /\ (c < Z.to_nat nx)%nat).
  { unfold at2 in A1. destruct (nth_error gx r) as [row|] eqn:Er; [|discriminate].
    split; [rewrite <- S1; apply nth_error_Some; congruence|]. rewrite Forall_forall in S1'. rewrite <- (S1' row (nth_error_In _ _ Er)). apply nth_error_Some. congruence. }
  destruct (V r c (proj1 IN) (proj2 IN)) as (x0 & y0 & Q1 & Q2 & EX & EY). rewrite A1 in Q1. injection Q1 as <-. rewrite A2 in Q2. injection Q2 as <-.
  fold dx in EX. fold dy in EY. apply bounds in EX, EY.
  assert (T : powerRZ 2 (-1069) = 2 * powerRZ 2 (-1070)).
  { rewrite <- !bpow_pow. change 2 with (bpow radix2 1) at 1. rewrite <- bpow_plus. reflexivity. }
  rewrite T in Bx, By. rewrite !plus_INR. cbn [INR]. split; lra.
Qed.
Print Assumptions C114_inside.

(** The pixel size of the geotransform, unless it is close to underflow *)
Theorem C114_pixel_size : forall minx miny maxx maxy nx ny,
  is_double minx -> is_double maxx -> is_double miny -> is_double maxy -> minx <= maxx -> miny <= maxy -> (0 <= nx < 2 ^ 53)%Z -> (0 <= ny < 2 ^ 53)%Z ->
  let sx := (maxx - minx) / IZR (nx + 1) in let sy := (maxy - miny) / IZR (ny + 1) in
  powerRZ 2 (-1021) <= sx -> powerRZ 2 (-1021) <= sy ->
  exists px py, world_poly_to_geo_t_float double minx miny maxx maxy nx ny = [minx; px; 0; maxy; 0; - py] /\
    Rabs (px - sx) <= 3 * u53 * sx /\ Rabs (py - sy) <= 3 * u53 * sy.
Proof.
  assert (K : forall lo hi n, is_double lo -> is_double hi -> lo <= hi -> (0 <= n < 2 ^ 53)%Z -> powerRZ 2 (-1021) <= (hi - lo) / IZR (n + 1) ->
    Rabs (double (double (hi - lo) / IZR (n + 1)) - (hi - lo) / IZR (n + 1)) <= 3 * u53 * ((hi - lo) / IZR (n + 1))).
  { intros lo hi n F1 F2 L Hn B. apply is_fmt in F1, F2. unfold u53. rewrite <- !bpow_pow in *. set (s := (hi - lo) / IZR (n + 1)) in *.
    assert (N : 0 < IZR (n + 1)) by (apply IZR_lt; lia). pose proof u_small as U.
    destruct (double_plus_err hi (- lo) F2 (generic_format_opp _ _ _ F1)) as (e1 & E1 & Q1). change (hi + - lo) with (hi - lo) in Q1. rewrite Q1.
    replace ((hi - lo) * (1 + e1) / IZR (n + 1)) with (s * (1 + e1)) by (unfold s; field; lra).
    apply bounds in E1. assert (P : 0 < s) by (eapply Rlt_le_trans; [apply bpow_gt_0|exact B]).
    destruct (double_rel (s * (1 + e1))) as (e2 & E2 & Q2).
    - rewrite Rabs_pos_eq by (apply Rmult_le_pos; lra). change (-1022)%Z with (-1 + -1021)%Z. rewrite bpow_plus. rewrite (Rmult_comm s). apply Rmult_le_compat; try (apply bpow_ge_0); [cbn; lra|exact B].
    - rewrite Q2. replace (s * (1 + e1) * (1 + e2) - s) with (s * ((1 + e1) * (1 + e2) - 1)) by ring. rewrite Rabs_mult, Rabs_pos_eq by lra. rewrite (Rmult_comm (3 * u) s). apply Rmult_le_compat_l; [lra|].
      apply bounds in E2. apply Rabs_le. assert (- (u * u) <= e1 * e2 <= u * u) by (split; nra). nra. }
  intros minx miny maxx maxy nx ny F1 F2 F3 F4 L1 L2 Hx Hy sx sy Bx By.
  exists (double (double (maxx - minx) / IZR (nx + 1))), (double (double (maxy - miny) / IZR (ny + 1))). split; [|split].
  - unfold world_poly_to_geo_t_float. rewrite <- (Ropp_mult_distr_l 1), Rmult_1_l. reflexivity.
  - apply K; assumption.
  - apply K; assumption.
Qed.
Print Assumptions C114_pixel_size.

(** A UTM window of 1000 by 1000 cells of 1 m meets the hypotheses, and the error is below ten nanometres *)
Example C114_met : is_double 500000 /\ is_double 501000 /\ is_double 4000000 /\ is_double 4001000 /\
  20 * u53 * (Rabs 500000 + Rabs 501000) + powerRZ 2 (-1069) < (501000 - 500000) / IZR 1000 /\
  20 * u53 * (Rabs 4000000 + Rabs 4001000) + powerRZ 2 (-1069) < (4001000 - 4000000) / IZR 1000 /\
  10 * u53 * (Rabs 4000000 + Rabs 4001000) + powerRZ 2 (-1070) <= / 100000000.
Proof.
  assert (D : forall m, (Z.abs m < 2 ^ 53)%Z -> is_double (IZR m)) by (intros m H; exists m, 0%Z; split; [cbn; ring|]; split; [exact H|lia]).
  do 4 (split; [apply D; reflexivity|]). unfold u53. rewrite <- !bpow_pow, u53_num.
  assert (T0 : bpow radix2 (-40) <= / 1000000000000) by (cbn; lra).
  assert (T : bpow radix2 (-1069) <= / 1000000000000) by (apply Rle_trans with (2 := T0); apply bpow_le; lia).
  assert (T' : bpow radix2 (-1070) <= / 1000000000000) by (apply Rle_trans with (2 := T0); apply bpow_le; lia).
  set (t := bpow radix2 (-1069)) in *. set (t' := bpow radix2 (-1070)) in *. clearbody t t'.
  rewrite !Rabs_pos_eq by lra. split; [|split]; lra.
Qed.
