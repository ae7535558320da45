(** Proofs about M_Cameras *)
From Verif Require Import RAux Text Geo3 M_Photo Spec_Photo P_Photo M_Cameras Spec_Cameras.
Open Scope R_scope.
Open Scope list_scope.

(* ---------------------------- OpenCV ---------------------------- *)

Definition cv_fx_ops (o : cv_op) : list fx_op :=
  match o with
  | InitIntrinsic _ _ _ _ _ _ _ _ _ => []
  | InitExtrinsic x y z o p k => [SetFixtureXyz x y z; SetFixtureRpy o p k 1 1 1 (txt "rpy")]
  | InitOffsets x y z o p k => [SetRelativeXyz x y z 1 1 1; SetBoresightRpy o p k 1 1 1 (txt "rpy")]
  end.
Lemma cv_run_fixture ops : cv_fixture (cv_run ops) = fx_run (concat (map cv_fx_ops ops)).
Proof.
  induction ops as [|a ops IH] using rev_ind; [reflexivity|].
  unfold cv_run, fx_run in *. rewrite map_app, concat_app, !fold_left_app, <- IH. destruct a; reflexivity.
Qed.
Lemma cv_run_intr ops fx fy cx cy k1 k2 k3 p1 p2 :
  last_some gives_intrinsic ops = Some (fx, fy, cx, cy, (k1, k2, k3, p1, p2)) ->
  cv_intr (cv_run ops) = mkCvIntrinsic (- fx) (- fy) cx cy k1 k2 k3 p1 p2.
Proof.
  unfold cv_run. induction ops as [|a ops IH] using rev_ind; [discriminate|].
  rewrite last_some_app, fold_left_app. destruct a; cbn; intros H; try (apply IH; exact H).
  injection H as -> -> -> -> -> -> -> -> ->. reflexivity.
Qed.
Lemma cv_run_no_intr ops : last_some gives_intrinsic ops = None -> cv_intr (cv_run ops) = cv_intr new_opencv.
Proof.
  unfold cv_run. induction ops as [|a ops IH] using rev_ind; [reflexivity|].
  rewrite last_some_app, fold_left_app. destruct a; cbn; intros H; try (apply IH; exact H); discriminate.
Qed.
Lemma cv_run_parts ops :
  last_some gives_position (concat (map cv_fx_ops ops)) = option_map fst (last_some gives_extrinsic ops) /\
  last_some gives_orientation (concat (map cv_fx_ops ops)) =
    option_map (fun e => create_M_matrix (fst (fst (snd e)) * 1) (snd (fst (snd e)) * 1) (snd (snd e) * 1) (txt "rpy")) (last_some gives_extrinsic ops) /\
  last_some gives_lever_arm (concat (map cv_fx_ops ops)) =
    option_map (fun e => V3 (vx (fst e) * 1) (vy (fst e) * 1) (vz (fst e) * 1)) (last_some gives_offsets ops) /\
  last_some gives_boresight (concat (map cv_fx_ops ops)) =
    option_map (fun e => create_M_matrix (fst (fst (snd e)) * 1) (snd (fst (snd e)) * 1) (snd (snd e) * 1) (txt "rpy")) (last_some gives_offsets ops).
Proof.
  induction ops as [|a ops IH] using rev_ind; [repeat split|].
  rewrite map_app, concat_app. cbn [map concat]. rewrite app_nil_r.
  destruct a; cbn [cv_fx_ops]; rewrite ?app_nil_r.
  - rewrite !last_some_app. cbn. exact IH.
  - destruct IH as (I1 & I2 & I3 & I4).
    change (?l ++ [?a; ?b]) with (l ++ [a] ++ [b]). rewrite app_assoc, !last_some_app. cbn. rewrite I3, I4. repeat split.
  - destruct IH as (I1 & I2 & I3 & I4).
    change (?l ++ [?a; ?b]) with (l ++ [a] ++ [b]). rewrite app_assoc, !last_some_app. cbn. rewrite I1, I2. repeat split.
Qed.

Lemma cv_project_spec fx fy cx cy k1 k2 k3 p1 p2 cam : vz cam <> 0 ->
  cv_project (mkCvIntrinsic (- fx) (- fy) cx cy k1 k2 k3 p1 p2) cam =
  (Fin (cx + fx * distorted_x k1 k2 k3 p1 p2 (vx cam / vz cam) (vy cam / vz cam)),
   Fin (cy - fy * distorted_y k1 k2 k3 p1 p2 (vx cam / vz cam) (vy cam / vz cam))).
Proof.
  intros H. unfold cv_project. rewrite !fdiv_nz by exact H. cbn [cv_fx cv_fy cv_cx cv_cy cv_k1 cv_k2 cv_k3 cv_p1 cv_p2].
  unfold distorted_x, distorted_y. f_equal; f_equal; ring.
Qed.
Lemma cv_project_plane i cam : vz cam = 0 -> cv_project i cam = (NonFinite, NonFinite).
Proof. intros H. unfold cv_project. rewrite H, !fdiv_0. reflexivity. Qed.

(* ---------------------------- Pix4D ---------------------------- *)

Lemma sqrt_pow2 a : 0 <= a -> sqrt a ^ 2 = a.
Proof. intros H. cbn. rewrite Rmult_1_r. apply sqrt_sqrt. exact H. Qed.
Lemma sqrt_pow4 a : 0 <= a -> sqrt a ^ 4 = a * a.
Proof. intros H. replace (sqrt a ^ 4) with (sqrt a ^ 2 * sqrt a ^ 2) by ring. rewrite sqrt_pow2 by exact H. reflexivity. Qed.
Lemma sqrt_pow6 a : 0 <= a -> sqrt a ^ 6 = a * a * a.
Proof. intros H. replace (sqrt a ^ 6) with (sqrt a ^ 2 * sqrt a ^ 2 * sqrt a ^ 2) by ring. rewrite sqrt_pow2 by exact H. reflexivity. Qed.

Lemma p4_with_spec c cam : vz cam <> 0 ->
  p4_with_distortion c cam =
  (Fin (p4_pp_x c - p4_f c * distorted_x (p4_k1 c) (p4_k2 c) (p4_k3 c) (p4_t1 c) (p4_t2 c) (vx cam / vz cam) (vy cam / vz cam)),
   Fin (p4_pp_y c - p4_f c * distorted_y (p4_k1 c) (p4_k2 c) (p4_k3 c) (p4_t1 c) (p4_t2 c) (vx cam / vz cam) (vy cam / vz cam))).
Proof.
  intros H. unfold p4_with_distortion. rewrite !fdiv_nz by exact H.
  set (x := vx cam / vz cam). set (y := vy cam / vz cam).
  assert (N : 0 <= x ^ 2 + y ^ 2) by nra.
  rewrite sqrt_pow2, sqrt_pow4, sqrt_pow6 by exact N. unfold distorted_x, distorted_y. f_equal; f_equal; ring.
Qed.

(** the pixel of a camera point with (xd, yd) after distortion *)
Lemma p4_finish (rev : bool) n p f d :
  (if rev then fmap (fun v => n - v) (Fin ((if rev then n - p else p) - f * d)) else Fin ((if rev then n - p else p) - f * d))
  = Fin (p + (if rev then 1 else -1) * f * d).
Proof. destruct rev; cbn; f_equal; ring. Qed.

Lemma p4_regular_spec c p : p4_model c = Some (txt "regular") ->
  let cam := p4_world_to_camera c p in vz cam <> 0 ->
  p4_lon_lat_alt_to_pixel c p =
  Ok (Some (Fin (p4_px c + (if p4_reverse_x c then 1 else -1) * p4_f c *
              distorted_x (p4_k1 c) (p4_k2 c) (p4_k3 c) (p4_t1 c) (p4_t2 c) (vx cam / vz cam) (vy cam / vz cam)),
            Fin (p4_py c + (if p4_reverse_y c then 1 else -1) * p4_f c *
              distorted_y (p4_k1 c) (p4_k2 c) (p4_k3 c) (p4_t1 c) (p4_t2 c) (vx cam / vz cam) (vy cam / vz cam)))).
Proof.
  intros HM cam Hz. unfold p4_lon_lat_alt_to_pixel. rewrite HM, text_eqb_refl. fold cam.
  rewrite p4_with_spec by exact Hz. unfold p4_pp_x, p4_pp_y. rewrite !p4_finish. reflexivity.
Qed.
Lemma p4_plain_spec c p : p4_model c = None ->
  let cam := p4_world_to_camera c p in vz cam <> 0 ->
  p4_lon_lat_alt_to_pixel c p =
  Ok (Some (Fin (p4_px c + (if p4_reverse_x c then 1 else -1) * p4_f c * (vx cam / vz cam)),
            Fin (p4_py c + (if p4_reverse_y c then 1 else -1) * p4_f c * (vy cam / vz cam)))).
Proof.
  intros HM cam Hz. unfold p4_lon_lat_alt_to_pixel. rewrite HM. fold cam. unfold p4_no_distortion.
  rewrite !fdiv_nz by exact Hz. unfold p4_pp_x, p4_pp_y.
  destruct (p4_reverse_x c), (p4_reverse_y c); cbn [fmap]; do 2 f_equal; apply pair_equal_spec; split; f_equal; field; exact Hz.
Qed.
Lemma p4_plane c p m : p4_model c = None \/ p4_model c = Some (txt "regular") -> m = p4_world_to_camera c p -> vz m = 0 ->
  p4_lon_lat_alt_to_pixel c p = Ok (Some (NonFinite, NonFinite)).
Proof.
  intros HM -> Hz. unfold p4_lon_lat_alt_to_pixel, p4_with_distortion, p4_no_distortion. rewrite Hz, !fdiv_0.
  destruct HM as [-> | ->]; rewrite ?text_eqb_refl; cbn [fmap]; destruct (p4_reverse_y c), (p4_reverse_x c); reflexivity.
Qed.

Lemma distorted_zero x y : distorted_x 0 0 0 0 0 x y = x /\ distorted_y 0 0 0 0 0 x y = y.
Proof. unfold distorted_x, distorted_y. split; ring. Qed.

(* ----------------------------- RPC ----------------------------- *)

Lemma list20 (a : list R) : length a = 20%nat -> exists a1 a2 a3 a4 a5 a6 a7 a8 a9 a10 a11 a12 a13 a14 a15 a16 a17 a18 a19 a20,
  a = [a1;a2;a3;a4;a5;a6;a7;a8;a9;a10;a11;a12;a13;a14;a15;a16;a17;a18;a19;a20].
Proof. intros H. do 20 (destruct a as [|? a]; [discriminate|]). destruct a; [|discriminate]. repeat eexists. Qed.
Lemma py_get_lit (l : list R) k n : k = Z.of_nat n -> (n < length l)%nat -> py_get l k = Ok (nth n l 0).
Proof. intros -> H. apply py_get_nth. exact H. Qed.
Lemma compute_p_spec a P L H : length a = 20%nat ->
  compute_p a P L H = Ok (rpc00b a P L H + nth 18 a 0 * P ^ 2 * (L - H)).
Proof.
  intros E. unfold compute_p.
  rewrite (py_get_lit a 0 0%nat eq_refl ltac:(rewrite E; lia)). cbn [bind].
  rewrite (py_get_lit a 1 1%nat eq_refl ltac:(rewrite E; lia)). cbn [bind].
  rewrite (py_get_lit a 2 2%nat eq_refl ltac:(rewrite E; lia)). cbn [bind].
  rewrite (py_get_lit a 3 3%nat eq_refl ltac:(rewrite E; lia)). cbn [bind].
  rewrite (py_get_lit a 4 4%nat eq_refl ltac:(rewrite E; lia)). cbn [bind].
  rewrite (py_get_lit a 5 5%nat eq_refl ltac:(rewrite E; lia)). cbn [bind].
  rewrite (py_get_lit a 6 6%nat eq_refl ltac:(rewrite E; lia)). cbn [bind].
  rewrite (py_get_lit a 7 7%nat eq_refl ltac:(rewrite E; lia)). cbn [bind].
  rewrite (py_get_lit a 8 8%nat eq_refl ltac:(rewrite E; lia)). cbn [bind].
  rewrite (py_get_lit a 9 9%nat eq_refl ltac:(rewrite E; lia)). cbn [bind].
  rewrite (py_get_lit a 10 10%nat eq_refl ltac:(rewrite E; lia)). cbn [bind].
  rewrite (py_get_lit a 11 11%nat eq_refl ltac:(rewrite E; lia)). cbn [bind].
  rewrite (py_get_lit a 12 12%nat eq_refl ltac:(rewrite E; lia)). cbn [bind].
  rewrite (py_get_lit a 13 13%nat eq_refl ltac:(rewrite E; lia)). cbn [bind].
  rewrite (py_get_lit a 14 14%nat eq_refl ltac:(rewrite E; lia)). cbn [bind].
  rewrite (py_get_lit a 15 15%nat eq_refl ltac:(rewrite E; lia)). cbn [bind].
  rewrite (py_get_lit a 16 16%nat eq_refl ltac:(rewrite E; lia)). cbn [bind].
  rewrite (py_get_lit a 17 17%nat eq_refl ltac:(rewrite E; lia)). cbn [bind].
  rewrite (py_get_lit a 18 18%nat eq_refl ltac:(rewrite E; lia)). cbn [bind].
  rewrite (py_get_lit a 19 19%nat eq_refl ltac:(rewrite E; lia)). cbn [bind].
  f_equal. destruct (list20 a E) as (a1&a2&a3&a4&a5&a6&a7&a8&a9&a10&a11&a12&a13&a14&a15&a16&a17&a18&a19&a20& ->).
  unfold rpc00b, rpc00b_monomials, rsum. cbn [nth combine map fold_right fst snd]. ring.
Qed.
Lemma rpc00b_scale t a P L H : rpc00b (map (Rmult t) a) P L H = t * rpc00b a P L H.
Proof.
  unfold rpc00b. generalize (rpc00b_monomials P L H) as m. induction a as [|x a IH]; intros [|y m]; cbn; try ring.
  specialize (IH m). unfold rsum in IH. rewrite IH. ring.
Qed.
Lemma compute_p_short a P L H : (length a < 20)%nat -> compute_p a P L H = Err IndexError.
Proof.
  intros E. assert (G : forall k, (exists v, py_get a k = Ok v) \/ py_get a k = Err IndexError).
  { intros k. unfold py_get. destruct (py_index (zlen a) k) as [n|]; [|auto]. destruct (nth_error a n); eauto. }
  assert (X : py_get a 19 = Err IndexError) by (apply py_get_out; unfold zlen; lia).
  unfold compute_p.
  destruct (G 0%Z) as [[v0 ->]| ->]; cbn [bind]; [|reflexivity].
  destruct (G 1%Z) as [[v1 ->]| ->]; cbn [bind]; [|reflexivity].
  destruct (G 2%Z) as [[v2 ->]| ->]; cbn [bind]; [|reflexivity].
  destruct (G 3%Z) as [[v3 ->]| ->]; cbn [bind]; [|reflexivity].
  destruct (G 4%Z) as [[v4 ->]| ->]; cbn [bind]; [|reflexivity].
  destruct (G 5%Z) as [[v5 ->]| ->]; cbn [bind]; [|reflexivity].
  destruct (G 6%Z) as [[v6 ->]| ->]; cbn [bind]; [|reflexivity].
  destruct (G 7%Z) as [[v7 ->]| ->]; cbn [bind]; [|reflexivity].
  destruct (G 8%Z) as [[v8 ->]| ->]; cbn [bind]; [|reflexivity].
  destruct (G 9%Z) as [[v9 ->]| ->]; cbn [bind]; [|reflexivity].
  destruct (G 10%Z) as [[v10 ->]| ->]; cbn [bind]; [|reflexivity].
  destruct (G 11%Z) as [[v11 ->]| ->]; cbn [bind]; [|reflexivity].
  destruct (G 12%Z) as [[v12 ->]| ->]; cbn [bind]; [|reflexivity].
  destruct (G 13%Z) as [[v13 ->]| ->]; cbn [bind]; [|reflexivity].
  destruct (G 14%Z) as [[v14 ->]| ->]; cbn [bind]; [|reflexivity].
  destruct (G 15%Z) as [[v15 ->]| ->]; cbn [bind]; [|reflexivity].
  destruct (G 16%Z) as [[v16 ->]| ->]; cbn [bind]; [|reflexivity].
  destruct (G 17%Z) as [[v17 ->]| ->]; cbn [bind]; [|reflexivity].
  destruct (G 18%Z) as [[v18 ->]| ->]; cbn [bind]; [|reflexivity].
  rewrite X. reflexivity.
Qed.
