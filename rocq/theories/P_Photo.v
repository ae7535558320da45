(** Proofs about M_Photo *)
From Verif Require Import RAux Text Geo3 M_Photo Spec_Photo.
Open Scope R_scope.
Open Scope list_scope.

Lemma m_omega_x o : m_omega o = about_x o.
Proof. unfold m_omega, about_x. f_equal; ring. Qed.
Lemma m_phi_y p : m_phi p = about_y p.
Proof. unfold m_phi, about_y. f_equal; ring. Qed.
Lemma m_kappa_z k : m_kappa k = about_z k.
Proof. unfold m_kappa, about_z. f_equal; ring. Qed.

Lemma sc2 a : sin a * sin a + cos a * cos a = 1.
Proof. pose proof (sin2_cos2 a) as H. unfold Rsqr in H. exact H. Qed.

Lemma about_x_rot a : rotation (about_x a).
Proof. pose proof (sc2 a). apply rotation_intro; [apply mat3_eq; cbn; lra|unfold det3; cbn; lra]. Qed.
Lemma about_y_rot a : rotation (about_y a).
Proof. pose proof (sc2 a). apply rotation_intro; [apply mat3_eq; cbn; lra|unfold det3; cbn; lra]. Qed.
Lemma about_z_rot a : rotation (about_z a).
Proof. pose proof (sc2 a). apply rotation_intro; [apply mat3_eq; cbn; lra|unfold det3; cbn; lra]. Qed.
Lemma turn_rot o p k t : rotation (turn_matrix o p k t).
Proof. destruct t; [apply about_x_rot|apply about_y_rot|apply about_z_rot]. Qed.

Lemma rpy_product o p k :
  create_M_matrix o p k (txt "rpy") = mul3 (about_z k) (mul3 (about_y p) (about_x o)).
Proof.
  change (create_M_matrix o p k (txt "rpy")) with
    (M3 (cos p * cos k) (cos o * sin k + sin o * sin p * cos k) (sin o * sin k - cos o * sin p * cos k)
        (-1 * cos p * sin k) (cos o * cos k - sin o * sin p * sin k) (sin o * cos k + cos o * sin p * sin k)
        (sin p) (-1 * sin o * cos p) (cos o * cos p)).
  m3.
Qed.

Lemma create_order o p k t1 t2 t3' : is_order t1 t2 t3' ->
  create_M_matrix o p k (order_name t1 t2 t3') =
  mul3 (turn_matrix o p k t3') (mul3 (turn_matrix o p k t2) (turn_matrix o p k t1)).
Proof.
  intros (N1 & N2 & N3).
  destruct t1, t2, t3'; try congruence; cbn [turn_matrix].
  - apply rpy_product.
  - change (create_M_matrix o p k (order_name Roll Yaw Pitch)) with (mul3 (mul3 (m_phi p) (m_kappa k)) (m_omega o)).
    rewrite m_omega_x, m_phi_y, m_kappa_z. apply mul3_assoc.
  - change (create_M_matrix o p k (order_name Pitch Roll Yaw)) with (mul3 (mul3 (m_kappa k) (m_omega o)) (m_phi p)).
    rewrite m_omega_x, m_phi_y, m_kappa_z. apply mul3_assoc.
  - change (create_M_matrix o p k (order_name Pitch Yaw Roll)) with (mul3 (mul3 (m_omega o) (m_kappa k)) (m_phi p)).
    rewrite m_omega_x, m_phi_y, m_kappa_z. apply mul3_assoc.
  - change (create_M_matrix o p k (order_name Yaw Roll Pitch)) with (mul3 (mul3 (m_phi p) (m_omega o)) (m_kappa k)).
    rewrite m_omega_x, m_phi_y, m_kappa_z. apply mul3_assoc.
  - change (create_M_matrix o p k (order_name Yaw Pitch Roll)) with (mul3 (mul3 (m_omega o) (m_phi p)) (m_kappa k)).
    rewrite m_omega_x, m_phi_y, m_kappa_z. apply mul3_assoc.
Qed.

Lemma create_rot o p k t1 t2 t3' : is_order t1 t2 t3' -> rotation (create_M_matrix o p k (order_name t1 t2 t3')).
Proof. intros H. rewrite create_order by exact H. repeat apply rotation_mul; apply turn_rot. Qed.
Lemma rpy_rot o p k : rotation (create_M_matrix o p k (txt "rpy")).
Proof. apply (create_rot o p k Roll Pitch Yaw). repeat split; discriminate. Qed.

Lemma create_other o p k order :
  (forall t1 t2 t3', is_order t1 t2 t3' -> order <> order_name t1 t2 t3') -> create_M_matrix o p k order = zero3.
Proof.
  intros H. unfold create_M_matrix.
  assert (E : forall t1 t2 t3' s, is_order t1 t2 t3' -> s = order_name t1 t2 t3' -> text_eqb order s = false).
  { intros t1 t2 t3' s I ->. destruct (text_eqb order (order_name t1 t2 t3')) eqn:Q; [|reflexivity].
    apply text_eqb_spec in Q. exfalso. eapply H; eauto. }
  rewrite (E Roll Pitch Yaw), (E Roll Yaw Pitch), (E Pitch Roll Yaw), (E Pitch Yaw Roll), (E Yaw Roll Pitch), (E Yaw Pitch Roll);
    try reflexivity; repeat split; discriminate.
Qed.

(* ---------------------------- C26 ---------------------------- *)

Lemma cos_pos_phi p : - PI / 2 < p < PI / 2 -> 0 < cos p.
Proof. intros H. apply cos_gt_0; lra. Qed.

Lemma np_arcsin_in x : -1 <= x <= 1 -> np_arcsin x = Fin (asin x).
Proof. intros H. unfold np_arcsin. rewrite !Rleb_true by lra. reflexivity. Qed.
Lemma np_arccos_in x : -1 <= x <= 1 -> np_arccos (Fin x) = Fin (acos x).
Proof. intros H. unfold np_arccos. rewrite !Rleb_true by lra. reflexivity. Qed.

Lemma signed_acos a : - PI < a <= PI ->
  (if Rltb 0 (- sin a) then - acos (cos a) else acos (cos a)) = a.
Proof.
  intros H. destruct (Rltb_spec 0 (- sin a)) as [L|L].
  - assert (a < 0). { destruct (Rle_or_lt 0 a) as [G|G]; [|exact G]. pose proof (sin_ge_0 a G ltac:(lra)). lra. }
    rewrite <- (cos_neg a), acos_cos by lra. ring.
  - assert (0 <= a). { destruct (Rle_or_lt 0 a) as [G|G]; [exact G|].
      pose proof (sin_gt_0 (- a) ltac:(lra) ltac:(lra)) as K. rewrite sin_neg in K. lra. }
    apply acos_cos. lra.
Qed.

Lemma Rltb_scale c x : 0 < c -> Rltb 0 (c * x) = Rltb 0 x.
Proof.
  intros H. destruct (Rltb_spec 0 x) as [L|L].
  - apply Rltb_true. apply Rmult_lt_0_compat; lra.
  - apply Rltb_false. nra.
Qed.

Lemma solve_create o p k :
  - PI / 2 < p < PI / 2 -> - PI < o <= PI -> - PI < k <= PI ->
  solve_for_omega_phi_kappa (create_M_matrix o p k (txt "rpy")) = angles o p k.
Proof.
  intros Hp Ho Hk. pose proof (cos_pos_phi p Hp) as C.
  change (create_M_matrix o p k (txt "rpy")) with
    (M3 (cos p * cos k) (cos o * sin k + sin o * sin p * cos k) (sin o * sin k - cos o * sin p * cos k)
        (-1 * cos p * sin k) (cos o * cos k - sin o * sin p * sin k) (sin o * cos k + cos o * sin p * sin k)
        (sin p) (-1 * sin o * cos p) (cos o * cos p)).
  unfold solve_for_omega_phi_kappa. cbn [e11 e21 e31 e32 e33].
  pose proof (SIN_bound p). pose proof (COS_bound o). pose proof (COS_bound k).
  rewrite np_arcsin_in by lra. rewrite asin_sin by lra. cbn [fmap fdivf].
  rewrite !fdiv_nz by lra.
  replace (cos p * cos k / cos p) with (cos k) by (field; lra).
  replace (cos o * cos p / cos p) with (cos o) by (field; lra).
  rewrite !np_arccos_in by lra. cbn [fmap].
  replace (-1 * sin o * cos p) with (cos p * (- sin o)) by ring.
  replace (-1 * cos p * sin k) with (cos p * (- sin k)) by ring.
  rewrite !Rltb_scale by exact C. unfold angles.
  pose proof (signed_acos o Ho) as So. pose proof (signed_acos k Hk) as Sk.
  destruct (Rltb 0 (- sin o)), (Rltb 0 (- sin k)); rewrite So, Sk; reflexivity.
Qed.

(** sine and cosine of the signed arc cosine *)
Lemma signed_acos_val x y : x * x + y * y = 1 ->
  let a := if Rltb 0 y then - acos x else acos x in
  cos a = x /\ sin a = - y /\ - PI < a <= PI.
Proof.
  intros H. assert (B : -1 <= x <= 1) by nra. pose proof (acos_bound x) as AB.
  assert (Sy : sin (acos x) = Rabs y).
  { rewrite sin_acos by exact B. unfold Rsqr. replace (1 - x * x) with (y²) by (unfold Rsqr; lra). apply sqrt_Rsqr_abs. }
  destruct (Rltb_spec 0 y) as [L|L]; cbn zeta.
  - rewrite cos_neg, sin_neg, cos_acos, Sy, Rabs_right by lra. split; [|split]; auto.
    split; [|lra]. destruct (Req_dec (acos x) PI) as [E|E]; [|lra].
    exfalso. rewrite E, sin_PI, Rabs_right in Sy by lra. lra.
  - rewrite cos_acos, Sy, Rabs_left1 by lra. pose proof PI_RGT_0. repeat split; lra.
Qed.

Lemma rot_entries A : rotation A ->
  e11 A * e11 A + e21 A * e21 A + e31 A * e31 A = 1 /\
  e31 A * e31 A + e32 A * e32 A + e33 A * e33 A = 1.
Proof.
  intros (H1 & H2 & _).
  pose proof (f_equal e33 H1) as E1. pose proof (f_equal e11 H2) as E2. cbn in E1, E2. split; lra.
Qed.

Lemma solve_rebuild A : rotation A -> -1 < e31 A < 1 ->
  exists o p k, solve_for_omega_phi_kappa A = angles o p k /\
    - PI / 2 < p < PI / 2 /\ - PI < o <= PI /\ - PI < k <= PI /\
    create_M_matrix o p k (txt "rpy") = A.
Proof.
  intros HR H31. destruct (rot_entries A HR) as [C1 R3]. pose proof (rotation_adj A HR) as ADJ.
  set (p := asin (e31 A)).
  assert (Sp : sin p = e31 A) by (apply sin_asin; lra).
  assert (Pb : - PI / 2 < p < PI / 2).
  { pose proof (asin_bound (e31 A)) as B. fold p in B.
    destruct (Req_dec p (PI / 2)) as [E|E]; [rewrite E, sin_PI2 in Sp; lra|].
    destruct (Req_dec p (- (PI / 2))) as [E'|E']; [rewrite E', sin_neg, sin_PI2 in Sp; lra|]. lra. }
  pose proof (cos_pos_phi p Pb) as Cp. set (c := cos p) in *.
  assert (C2 : c * c = 1 - e31 A * e31 A) by (pose proof (sc2 p) as Q; fold c in Q; rewrite Sp in Q; lra).
  assert (K1 : (e11 A / c) * (e11 A / c) + (e21 A / c) * (e21 A / c) = 1).
  { apply Rmult_eq_reg_r with (c * c); [|nra]. field_simplify; [|lra]. rewrite C2 || idtac.
    replace (c ^ 2) with (c * c) by ring. lra. }
  assert (K2 : (e33 A / c) * (e33 A / c) + (e32 A / c) * (e32 A / c) = 1).
  { apply Rmult_eq_reg_r with (c * c); [|nra]. field_simplify; [|lra].
    replace (c ^ 2) with (c * c) by ring. lra. }
  pose proof (signed_acos_val _ _ K1) as VK. pose proof (signed_acos_val _ _ K2) as VO. cbn zeta in VK, VO.
  assert (Sg : forall x, Rltb 0 (x / c) = Rltb 0 x).
  { intros x. replace (x / c) with (/ c * x) by (unfold Rdiv; ring). apply Rltb_scale. apply Rinv_0_lt_compat. lra. }
  rewrite Sg in VK, VO.
  set (k := if Rltb 0 (e21 A) then - acos (e11 A / c) else acos (e11 A / c)) in *.
  set (o := if Rltb 0 (e32 A) then - acos (e33 A / c) else acos (e33 A / c)) in *.
  destruct VK as (ck & sk & bk). destruct VO as (co & so & bo).
  exists o, p, k. repeat split; try lra.
  - unfold solve_for_omega_phi_kappa. rewrite np_arcsin_in by lra. fold p. cbn [fmap fdivf]. fold c.
    rewrite !fdiv_nz by lra. rewrite !np_arccos_in by nra. unfold angles, o, k. cbn [fmap].
    destruct (Rltb 0 (e32 A)), (Rltb 0 (e21 A)); reflexivity.
  - change (create_M_matrix o p k (txt "rpy")) with
      (M3 (cos p * cos k) (cos o * sin k + sin o * sin p * cos k) (sin o * sin k - cos o * sin p * cos k)
        (-1 * cos p * sin k) (cos o * cos k - sin o * sin p * sin k) (sin o * cos k + cos o * sin p * sin k)
        (sin p) (-1 * sin o * cos p) (cos o * cos p)).
    rewrite ck, sk, co, so, Sp. fold c.
    assert (D : forall x y : R, x = y * (c * c) -> x / (c * c) = y) by (intros x y ->; field; lra).
    destruct HR as (H1 & H2 & HD).
    pose proof (f_equal e11 ADJ) as A11. pose proof (f_equal e12 ADJ) as A12. pose proof (f_equal e13 ADJ) as A13.
    pose proof (f_equal e21 ADJ) as A21. pose proof (f_equal e22 ADJ) as A22. pose proof (f_equal e23 ADJ) as A23.
    pose proof (f_equal e31 ADJ) as A31. pose proof (f_equal e32 ADJ) as A32. pose proof (f_equal e33 ADJ) as A33.
    pose proof (f_equal e12 H2) as G12. pose proof (f_equal e13 H2) as G13. pose proof (f_equal e22 H2) as G22.
    pose proof (f_equal e33 H2) as G33. pose proof (f_equal e23 H2) as G23.
    pose proof (f_equal e13 H1) as F13. pose proof (f_equal e23 H1) as F23.
    destruct A as [a11 a12 a13 a21 a22 a23 a31 a32 a33]; cbn in *.
    apply mat3_eq; cbn.
    + field; lra.
    + replace (a33 / c * - (a21 / c) + - (a32 / c) * a31 * (a11 / c)) with ((- a33 * a21 - a32 * a31 * a11) / (c * c)) by (field; lra).
      apply D. rewrite C2. pose proof (f_equal (fun t => a31 * t) A32) as Q. cbn in Q. lra.
    + replace (- (a32 / c) * - (a21 / c) - a33 / c * a31 * (a11 / c)) with ((a32 * a21 - a33 * a31 * a11) / (c * c)) by (field; lra).
      apply D. rewrite C2. pose proof (f_equal (fun t => a31 * t) A22) as Q. cbn in Q. lra.
    + field; lra.
    + replace (a33 / c * (a11 / c) - - (a32 / c) * a31 * - (a21 / c)) with ((a33 * a11 - a32 * a31 * a21) / (c * c)) by (field; lra).
      apply D. rewrite C2. pose proof (f_equal (fun t => a31 * t) A31) as Q. cbn in Q. lra.
    + replace (- (a32 / c) * (a11 / c) + a33 / c * a31 * - (a21 / c)) with ((- a32 * a11 - a33 * a31 * a21) / (c * c)) by (field; lra).
      apply D. rewrite C2. pose proof (f_equal (fun t => a31 * t) A21) as Q. cbn in Q. lra.
    + reflexivity.
    + field; lra.
    + field; lra.
Qed.

Lemma solve_gimbal A : rotation A -> e31 A = 1 \/ e31 A = -1 ->
  exists p, solve_for_omega_phi_kappa A = (NonFinite, Fin p, NonFinite).
Proof.
  intros HR H. exists (asin (e31 A)). unfold solve_for_omega_phi_kappa.
  rewrite np_arcsin_in by (destruct H; lra). cbn [fmap fdivf].
  assert (C : cos (asin (e31 A)) = 0).
  { rewrite cos_asin by (destruct H; lra). replace (1 - (e31 A)²) with 0 by (unfold Rsqr; destruct H as [->| ->]; lra). apply sqrt_0. }
  rewrite C, !fdiv_0. cbn [np_arccos fmap].
  destruct (Rltb 0 (e32 A)), (Rltb 0 (e21 A)); reflexivity.
Qed.

(* ---------------------------- C27 ---------------------------- *)

Lemma inverts_rot inv A : inverts inv -> rotation A -> inv A = Ok (t3 A).
Proof.
  intros HI (H1 & H2 & HD). destruct (HI A ltac:(lra)) as (B & E & G1 & G2).
  rewrite E. f_equal.
  rewrite <- (mul3_id_r B), <- H1, <- mul3_assoc, G2, mul3_id_l. reflexivity.
Qed.

(* ---------------------------- C28 ---------------------------- *)

Lemma map2d_at f a r c : at2 (map2d f a) r c = option_map f (at2 a r c).
Proof.
  unfold at2, map2d. rewrite nth_error_map. destruct (nth_error a r) as [row|]; cbn; [|reflexivity].
  apply nth_error_map.
Qed.
Lemma map2d_shape f a ny nx : has_shape a ny nx -> has_shape (map2d f a) ny nx.
Proof.
  unfold has_shape, map2d. rewrite map_length. intros [H F]. split; [exact H|].
  rewrite Forall_map. eapply Forall_impl; [|exact F]. intros row Hr. cbn. rewrite map_length. exact Hr.
Qed.

Definition gx0 (npix_x npix_y : Z) := map (fun _ : Z => map (fun c => IZR c) (zrange 0 npix_x)) (zrange 0 npix_y).
Definition gy0 (npix_x npix_y : Z) := map (fun r => map (fun _ : Z => IZR r) (zrange 0 npix_x)) (zrange 0 npix_y).

Lemma gx0_at nx ny r c : (r < Z.to_nat ny)%nat -> (c < Z.to_nat nx)%nat -> at2 (gx0 nx ny) r c = Some (INR c).
Proof.
  intros Hr Hc. unfold at2, gx0. rewrite nth_error_map, zrange_nth by (rewrite Z.sub_0_r; exact Hr). cbn [option_map].
  rewrite nth_error_map, zrange_nth by (rewrite Z.sub_0_r; exact Hc). cbn [option_map]. rewrite Z.add_0_l, <- INR_IZR_INZ. reflexivity.
Qed.
Lemma gy0_at nx ny r c : (r < Z.to_nat ny)%nat -> (c < Z.to_nat nx)%nat -> at2 (gy0 nx ny) r c = Some (INR r).
Proof.
  intros Hr Hc. unfold at2, gy0. rewrite nth_error_map, zrange_nth by (rewrite Z.sub_0_r; exact Hr). cbn [option_map].
  rewrite nth_error_map, zrange_nth by (rewrite Z.sub_0_r; exact Hc). cbn [option_map]. rewrite Z.add_0_l, <- INR_IZR_INZ. reflexivity.
Qed.
Lemma gx0_shape nx ny : has_shape (gx0 nx ny) (Z.to_nat ny) (Z.to_nat nx).
Proof.
  unfold has_shape, gx0. rewrite map_length, zrange_length, Z.sub_0_r. split; [reflexivity|].
  apply Forall_forall. intros row I. apply in_map_iff in I. destruct I as (x & <- & _).
  rewrite map_length, zrange_length, Z.sub_0_r. reflexivity.
Qed.
Lemma gy0_shape nx ny : has_shape (gy0 nx ny) (Z.to_nat ny) (Z.to_nat nx).
Proof.
  unfold has_shape, gy0. rewrite map_length, zrange_length, Z.sub_0_r. split; [reflexivity|].
  apply Forall_forall. intros row I. apply in_map_iff in I. destruct I as (x & <- & _).
  rewrite map_length, zrange_length, Z.sub_0_r. reflexivity.
Qed.

Lemma get2_at a (r c : nat) v : at2 a r c = Some v -> get2 a (Z.of_nat r) (Z.of_nat c) = Ok v.
Proof.
  unfold at2, get2. destruct (nth_error a r) as [row|] eqn:E; [|discriminate]. intros H.
  assert (L1 : (r < length a)%nat) by (apply nth_error_Some; congruence).
  rewrite (py_get_nth a r [] L1), (nth_error_nth a r [] E). cbn [bind].
  assert (L2 : (c < length row)%nat) by (apply nth_error_Some; congruence).
  rewrite (py_get_nth row c 0 L2), (nth_error_nth row c 0 H). reflexivity.
Qed.
Lemma get2_out a (r c : nat) ny nx : has_shape a ny nx -> (ny <= r)%nat \/ (nx <= c)%nat -> get2 a (Z.of_nat r) (Z.of_nat c) = Err IndexError.
Proof.
  intros [S1 S2] H. unfold get2.
  destruct (Nat.lt_ge_cases r ny) as [L|L].
  - destruct (py_get_nonneg a (Z.of_nat r)) as (row & E & G). { unfold zlen. lia. }
    rewrite G. cbn [bind]. apply py_get_out. right.
    assert (length row = nx). { rewrite Forall_forall in S2. apply S2. eapply nth_error_In; eauto. }
    unfold zlen. lia.
  - rewrite py_get_out; [reflexivity|]. right. unfold zlen. lia.
Qed.

Lemma ground_grid_small minx maxx miny maxy nx ny : (nx < 2 \/ ny < 2)%Z ->
  create_ground_grid minx maxx miny maxy nx ny = Err IndexError.
Proof.
  intros H. unfold create_ground_grid. fold (gx0 nx ny) (gy0 nx ny).
  set (gx := map2d _ (gx0 nx ny)). set (gy := map2d _ (gy0 nx ny)).
  assert (Sx : has_shape gx (Z.to_nat ny) (Z.to_nat nx)) by (apply map2d_shape, gx0_shape).
  assert (Sy : has_shape gy (Z.to_nat ny) (Z.to_nat nx)) by (apply map2d_shape, gy0_shape).
  destruct (Z_lt_le_dec nx 2) as [L|L].
  - pose proof (get2_out gx 0 1 _ _ Sx ltac:(lia)) as Q. change (Z.of_nat 0) with 0%Z in Q.
    change (Z.of_nat 1) with 1%Z in Q. rewrite Q. reflexivity.
  - destruct (Z_lt_le_dec ny 1) as [L1|L1].
    + pose proof (get2_out gx 0 1 _ _ Sx ltac:(lia)) as Q. change (Z.of_nat 0) with 0%Z in Q. change (Z.of_nat 1) with 1%Z in Q. rewrite Q. reflexivity.
    + assert (Ny : ny = 1%Z) by lia. subst ny.
      assert (X : forall r c, (r < 1)%nat -> (c < Z.to_nat nx)%nat -> exists v, at2 gx r c = Some v /\ exists w, at2 gy r c = Some w).
      { intros r c Hr Hc. unfold gx, gy. rewrite !map2d_at, gx0_at, gy0_at by (auto; lia). cbn. eauto. }
      destruct (X 0%nat 1%nat ltac:(lia) ltac:(lia)) as (v1 & Q1 & _).
      destruct (X 0%nat 0%nat ltac:(lia) ltac:(lia)) as (v2 & Q2 & v3 & Q3).
      apply get2_at in Q1, Q2, Q3. change (Z.of_nat 0) with 0%Z in *. change (Z.of_nat 1) with 1%Z in *.
      rewrite Q1, Q2, Q3. cbn [bind].
      pose proof (get2_out gy 1 0 _ _ Sy ltac:(lia)) as Q. change (Z.of_nat 0) with 0%Z in Q. change (Z.of_nat 1) with 1%Z in Q.
      rewrite Q. reflexivity.
Qed.

Lemma ground_grid_ok minx maxx miny maxy nx ny : (2 <= nx)%Z -> (2 <= ny)%Z ->
  exists gx gy, create_ground_grid minx maxx miny maxy nx ny = Ok (gx, gy) /\
    has_shape gx (Z.to_nat ny) (Z.to_nat nx) /\ has_shape gy (Z.to_nat ny) (Z.to_nat nx) /\
    forall r c, (r < Z.to_nat ny)%nat -> (c < Z.to_nat nx)%nat ->
      at2 gx r c = Some (minx + INR c * ((maxx - minx) / IZR nx) + Rabs ((maxx - minx) / IZR nx) / 2) /\
      at2 gy r c = Some (maxy - INR r * ((maxy - miny) / IZR ny) - Rabs ((maxy - miny) / IZR ny) / 2).
Proof.
  intros Hx Hy. unfold create_ground_grid. fold (gx0 nx ny) (gy0 nx ny).
  assert (Nx : IZR nx <> 0) by (apply not_0_IZR; lia). assert (Ny : IZR ny <> 0) by (apply not_0_IZR; lia).
  set (gx := map2d _ (gx0 nx ny)). set (gy := map2d _ (gy0 nx ny)).
  assert (X : forall r c, (r < Z.to_nat ny)%nat -> (c < Z.to_nat nx)%nat -> at2 gx r c = Some (minx + INR c * ((maxx - minx) / IZR nx))).
  { intros r c Hr Hc. unfold gx. rewrite map2d_at, gx0_at by auto. cbn [option_map]. f_equal. field. exact Nx. }
  assert (Y : forall r c, (r < Z.to_nat ny)%nat -> (c < Z.to_nat nx)%nat -> at2 gy r c = Some (maxy - INR r * ((maxy - miny) / IZR ny))).
  { intros r c Hr Hc. unfold gy. rewrite map2d_at, gy0_at by auto. cbn [option_map]. f_equal. field. exact Ny. }
  assert (Sx : has_shape gx (Z.to_nat ny) (Z.to_nat nx)) by (apply map2d_shape, gx0_shape).
  assert (Sy : has_shape gy (Z.to_nat ny) (Z.to_nat nx)) by (apply map2d_shape, gy0_shape).
  clearbody gx gy.
  pose proof (get2_at _ _ _ _ (X 0%nat 1%nat ltac:(lia) ltac:(lia))) as Q1.
  pose proof (get2_at _ _ _ _ (X 0%nat 0%nat ltac:(lia) ltac:(lia))) as Q2.
  pose proof (get2_at _ _ _ _ (Y 0%nat 0%nat ltac:(lia) ltac:(lia))) as Q3.
  pose proof (get2_at _ _ _ _ (Y 1%nat 0%nat ltac:(lia) ltac:(lia))) as Q4.
  change (Z.of_nat 0) with 0%Z in *. change (Z.of_nat 1) with 1%Z in *.
  rewrite Q1, Q2, Q3, Q4. cbn [bind]. cbv zeta.
  replace (minx + INR 1 * ((maxx - minx) / IZR nx) - (minx + INR 0 * ((maxx - minx) / IZR nx))) with ((maxx - minx) / IZR nx) by (cbn; ring).
  replace (maxy - INR 0 * ((maxy - miny) / IZR ny) - (maxy - INR 1 * ((maxy - miny) / IZR ny))) with ((maxy - miny) / IZR ny) by (cbn; ring).
  eexists; eexists. split; [reflexivity|]. split; [apply map2d_shape; exact Sx|]. split; [apply map2d_shape; exact Sy|].
  intros r c Hr Hc. rewrite !map2d_at, X, Y by auto. cbn [option_map]. auto.
Qed.

(* ------------------------- truncation ------------------------- *)

Lemma truncZ_nonneg x : 0 <= x -> IZR (truncZ x) <= x < IZR (truncZ x) + 1 /\ (0 <= truncZ x)%Z.
Proof.
  intros H. unfold truncZ. rewrite Rltb_false by lra. destruct (archimed x) as [A B].
  rewrite minus_IZR. split; [lra|]. assert (0 < up x)%Z by (apply lt_IZR; lra). lia.
Qed.
Lemma truncZ_neg x : x < 0 -> IZR (truncZ x) - 1 < x <= IZR (truncZ x) /\ (truncZ x <= 0)%Z.
Proof.
  intros H. unfold truncZ. rewrite Rltb_true by lra. destruct (archimed (- x)) as [A B].
  rewrite minus_IZR. split; [lra|]. assert (0 < up (- x))%Z by (apply lt_IZR; lra). lia.
Qed.

(* ---------------------------- C29 ---------------------------- *)

Lemma image_plane_iff c p x y : rotation (ph_M c) -> ph_f c <> 0 ->
  world_to_image_plane c p = (Fin x, Fin y) <->
  exists s, s <> 0 /\ p = on_ray (ph_pos c) (ph_M c) (ph_f c) x y s.
Proof.
  destruct c as [[X Y Z] f M]. destruct p as [px py pz]. unfold world_to_image_plane, on_ray. cbn [ph_M ph_f ph_pos vx vy vz].
  intros HR Hf. set (d := V3 (px - X) (py - Y) (pz - Z)).
  change (e31 M * (px - X) + e32 M * (py - Y) + e33 M * (pz - Z)) with (vz (mv3 M d)).
  change (e11 M * (px - X) + e12 M * (py - Y) + e13 M * (pz - Z)) with (vx (mv3 M d)).
  change (e21 M * (px - X) + e22 M * (py - Y) + e23 M * (pz - Z)) with (vy (mv3 M d)).
  set (q := mv3 M d). split.
  - destruct (Req_dec (vz q) 0) as [E|E].
    + rewrite E, !fdiv_0. cbn. discriminate.
    + rewrite !fdiv_nz by exact E. cbn [fmap]. intros H. injection H as Hx Hy.
      exists (- (vz q) / f). split.
      { intros K. apply E. apply Rmult_eq_reg_r with (/ f); [|apply Rinv_neq_0_compat; exact Hf].
        unfold Rdiv in K. rewrite Rmult_0_l. lra. }
      assert (Eq : vscale3 (- vz q / f) (V3 x y (- f)) = q).
      { apply vec3_eq; cbn; rewrite <- ?Hx, <- ?Hy; field; auto. }
      rewrite <- mv3_scale, Eq. unfold q. rewrite <- mv3_mul. destruct HR as (_ & H2 & _). rewrite H2, mv3_id.
      unfold d. apply vec3_eq; cbn; ring.
  - intros (s & Hs & E).
    assert (Eq : q = vscale3 s (V3 x y (- f))).
    { unfold q. assert (Ed : d = vscale3 s (mv3 (t3 M) (V3 x y (- f)))).
      { unfold d. pose proof (f_equal vx E) as E1. pose proof (f_equal vy E) as E2. pose proof (f_equal vz E) as E3.
        cbn [vx vy vz vadd3] in E1, E2, E3. apply vec3_eq; cbn [vx vy vz]; lra. }
      rewrite Ed, mv3_scale, <- mv3_mul. destruct HR as (H1 & _). rewrite H1, mv3_id. reflexivity. }
    rewrite Eq. cbn [vx vy vz vscale3]. rewrite !fdiv_nz by (apply Rmult_integral_contrapositive_currified; lra).
    cbn [fmap]. f_equal; f_equal; field; auto.
Qed.

Lemma image_plane_behind c p : rotation (ph_M c) ->
  (vz (mv3 (ph_M c) (vsub3 p (ph_pos c))) = 0 <-> world_to_image_plane c p = (NonFinite, NonFinite)).
Proof.
  intros _. unfold world_to_image_plane.
  change (e31 (ph_M c) * (vx p - vx (ph_pos c)) + e32 (ph_M c) * (vy p - vy (ph_pos c)) + e33 (ph_M c) * (vz p - vz (ph_pos c)))
    with (vz (mv3 (ph_M c) (vsub3 p (ph_pos c)))).
  set (q := vz _). split.
  - intros ->. rewrite !fdiv_0. reflexivity.
  - intros H. destruct (Req_dec q 0) as [E|E]; [exact E|]. rewrite !fdiv_nz in H by exact E. discriminate.
Qed.

(* ---------------------------- C30 ---------------------------- *)

Lemma last_some_app {A B} (f : A -> option B) l a :
  last_some f (l ++ [a]) = match f a with Some b => Some b | None => last_some f l end.
Proof.
  induction l as [|x l IH]; cbn; [destruct (f a); reflexivity|].
  rewrite IH. destruct (f a); reflexivity.
Qed.
Lemma fx_run_state ops :
  fx_run ops = mkFixtured (last_some gives_position ops) (last_some gives_orientation ops)
                          (last_some gives_lever_arm ops) (last_some gives_boresight ops).
Proof.
  induction ops as [|a ops IH] using rev_ind; [reflexivity|].
  unfold fx_run in *. rewrite fold_left_app, IH. cbn [fold_left].
  rewrite !last_some_app. destruct a; reflexivity.
Qed.
