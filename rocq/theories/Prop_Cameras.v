(** C31 (OpenCV camera), C32 (Pix4D camera), C33 (RPC), C34 (geotiff) and C68 (geotiff extent) *)
From Verif Require Import RAux Text M_Envi M_TextFiles P_TextFiles Geo3 M_Photo Spec_Photo P_Photo M_Cameras Spec_Cameras P_Cameras.
Open Scope R_scope.
Open Scope list_scope.

(* ============================== C31 =============================== *)

(** For every history of initialisations in any order whose last intrinsic parameters,
    exterior orientation and offsets are the given ones: there is one camera centre and one
    rotation (fixture orientation, then boresight; lever arm in the fixture frame), and
    every point not in the camera's focal plane has the pixel of the OpenCV model,
    with the y axis of the image pointing against the y axis of the camera. *)
Theorem C31_projection : forall ops fx fy cx cy k1 k2 k3 p1 p2 xyz omega phi kappa off omega' phi' kappa',
  last_some gives_intrinsic ops = Some (fx, fy, cx, cy, (k1, k2, k3, p1, p2)) ->
  last_some gives_extrinsic ops = Some (xyz, (omega, phi, kappa)) ->
  last_some gives_offsets ops = Some (off, (omega', phi', kappa')) ->
  exists pos M, rotation M /\
    M = mul3 (create_M_matrix omega' phi' kappa' (txt "rpy")) (create_M_matrix omega phi kappa (txt "rpy")) /\
    mv3 (create_M_matrix omega phi kappa (txt "rpy")) (vsub3 pos xyz) = off /\
    forall p, let q := mv3 M (vsub3 p pos) in
      (vz q <> 0 -> let x := vx q / vz q in let y := vy q / vz q in
         cv_lon_lat_alt_to_pixel (cv_run ops) p =
           Ok (Fin (cx + fx * distorted_x k1 k2 k3 p1 p2 x y), Fin (cy - fy * distorted_y k1 k2 k3 p1 p2 x y))) /\
      (vz q = 0 -> cv_lon_lat_alt_to_pixel (cv_run ops) p = Ok (NonFinite, NonFinite)).
Proof.
  intros ops fx fy cx cy k1 k2 k3 p1 p2 xyz o p k off o' p' k' HI HE HO.
  destruct (cv_run_parts ops) as (P1 & P2 & P3 & P4). rewrite HE in P1, P2. rewrite HO in P3, P4.
  cbn [option_map fst snd] in P1, P2, P3, P4. rewrite !Rmult_1_r in P2, P3, P4.
  replace (V3 (vx off) (vy off) (vz off)) with off in P3 by (destruct off; reflexivity).
  set (ME := create_M_matrix o p k (txt "rpy")) in *. set (MB := create_M_matrix o' p' k' (txt "rpy")) in *.
  assert (RE : rotation ME) by apply rpy_rot. assert (RB : rotation MB) by apply rpy_rot.
  set (pos := vadd3 xyz (mv3 (t3 ME) off)).
  assert (GX : get_camera_absolute_xyz (cv_fixture (cv_run ops)) = Ok pos).
  { rewrite cv_run_fixture, fx_run_state, P1, P2, P3. unfold get_camera_absolute_xyz. cbn [fx_rel fx_M fx_xyz]. f_equal.
    unfold pos. rewrite vm3_t. reflexivity. }
  assert (GM : get_camera_absolute_M_matrix (cv_fixture (cv_run ops)) = Ok (mul3 MB ME)).
  { rewrite cv_run_fixture, fx_run_state, P2, P4. reflexivity. }
  exists pos, (mul3 MB ME). split; [apply rotation_mul; assumption|]. split; [reflexivity|]. split.
  { unfold pos. replace (vsub3 (vadd3 xyz (mv3 (t3 ME) off)) xyz) with (mv3 (t3 ME) off) by v3.
    rewrite <- mv3_mul. destruct RE as (-> & _). apply mv3_id. }
  intros pt q. unfold cv_lon_lat_alt_to_pixel. rewrite GX, GM. cbn [bind].
  change (mv3 (mul3 MB ME) (V3 (vx pt - vx pos) (vy pt - vy pos) (vz pt - vz pos))) with q.
  rewrite (cv_run_intr ops fx fy cx cy k1 k2 k3 p1 p2 HI). split; intros Hq.
  - rewrite cv_project_spec by exact Hq. reflexivity.
  - rewrite cv_project_plane by exact Hq. reflexivity.
Qed.
Print Assumptions C31_projection.

(** With zero distortion: the pixel is (u, v) exactly when the point lies on the ray of
    (u, v) through the camera centre - a pinhole projection. *)
Theorem C31_pinhole : forall ops fx fy cx cy xyz omega phi kappa off omega' phi' kappa' ,
  last_some gives_intrinsic ops = Some (fx, fy, cx, cy, (0, 0, 0, 0, 0)) ->
  last_some gives_extrinsic ops = Some (xyz, (omega, phi, kappa)) ->
  last_some gives_offsets ops = Some (off, (omega', phi', kappa')) ->
  fx <> 0 -> fy <> 0 ->
  exists pos M, rotation M /\
    get_camera_absolute_xyz (cv_fixture (cv_run ops)) = Ok pos /\ get_camera_absolute_M_matrix (cv_fixture (cv_run ops)) = Ok M /\
    forall p u v, cv_lon_lat_alt_to_pixel (cv_run ops) p = Ok (Fin u, Fin v) <->
      exists s, s <> 0 /\ p = vadd3 pos (vscale3 s (mv3 (t3 M) (V3 ((u - cx) / fx) ((cy - v) / fy) 1))).
Proof.
  intros ops fx fy cx cy xyz o p k off o' p' k' HI HE HO Hfx Hfy.
  destruct (C31_projection _ _ _ _ _ _ _ _ _ _ _ _ _ _ _ _ _ _ HI HE HO) as (pos & M & HR & EM & Epos & HP).
  destruct (get_camera_absolute_M_matrix (cv_fixture (cv_run ops))) as [M'|e|] eqn:GM.
  2:{ exfalso. destruct (HP pos) as [_ H0]. unfold cv_lon_lat_alt_to_pixel in H0. rewrite GM in H0. cbn [bind] in H0.
      assert (Z : vz (mv3 M (vsub3 pos pos)) = 0) by (cbn; ring). discriminate (H0 Z). }
  2:{ exfalso. destruct (HP pos) as [_ H0]. unfold cv_lon_lat_alt_to_pixel in H0. rewrite GM in H0. cbn [bind] in H0.
      assert (Z : vz (mv3 M (vsub3 pos pos)) = 0) by (cbn; ring). discriminate (H0 Z). }
  destruct (cv_run_parts ops) as (P1 & P2 & P3 & P4). rewrite HE in P1, P2. rewrite HO in P3, P4.
  cbn [option_map fst snd] in P1, P2, P3, P4. rewrite !Rmult_1_r in P2, P3, P4.
  assert (GX : get_camera_absolute_xyz (cv_fixture (cv_run ops)) = Ok pos).
  { rewrite cv_run_fixture, fx_run_state, P1, P2, P3. unfold get_camera_absolute_xyz. cbn [fx_rel fx_M fx_xyz]. f_equal.
    assert (E : vsub3 pos xyz = mv3 (t3 (create_M_matrix o p k (txt "rpy"))) off).
    { rewrite <- Epos, <- mv3_mul. destruct (rpy_rot o p k) as (_ & -> & _). symmetry. apply mv3_id. }
    rewrite vm3_t. replace (V3 (vx off) (vy off) (vz off)) with off by (destruct off; reflexivity). rewrite <- E.
    destruct pos, xyz. v3. }
  assert (GM' : M' = M).
  { rewrite cv_run_fixture, fx_run_state, P2, P4 in GM. cbn in GM. injection GM as <-. symmetry. exact EM. }
  subst M'. exists pos, M. split; [exact HR|]. split; [exact GX|]. split; [reflexivity|].
  intros pt u v. destruct (HP pt) as [A B]. clear HP.
  remember (mv3 M (vsub3 pt pos)) as q eqn:Eq. cbv zeta in A, B.
  destruct (distorted_zero (vx q / vz q) (vy q / vz q)) as [D1 D2]. rewrite D1, D2 in A.
  split.
  - intros H. destruct (Req_dec (vz q) 0) as [Z|Z]; [rewrite (B Z) in H; discriminate|].
    rewrite (A Z) in H. injection H as <- <-. exists (vz q). split; [exact Z|].
    replace (V3 ((cx + fx * (vx q / vz q) - cx) / fx) ((cy - (cy - fy * (vy q / vz q))) / fy) 1) with (V3 (vx q / vz q) (vy q / vz q) 1)
      by (f_equal; field; auto).
    rewrite <- mv3_scale.
    replace (vscale3 (vz q) (V3 (vx q / vz q) (vy q / vz q) 1)) with q by (apply vec3_eq; cbn; field; exact Z).
    rewrite Eq, <- mv3_mul. destruct HR as (_ & -> & _). rewrite mv3_id. destruct pos, pt. v3.
  - intros (s & Hs & E).
    assert (Q : q = vscale3 s (V3 ((u - cx) / fx) ((cy - v) / fy) 1)).
    { rewrite Eq, E. match goal with |- mv3 M (vsub3 (vadd3 pos ?w) pos) = _ => replace (vsub3 (vadd3 pos w) pos) with w by v3 end.
      rewrite mv3_scale, <- mv3_mul. destruct HR as (-> & _). rewrite mv3_id. reflexivity. }
    rewrite A by (rewrite Q; cbn; lra). rewrite Q. cbn [vscale3 vx vy vz]. do 2 f_equal; f_equal; field; auto.
Qed.
Print Assumptions C31_pinhole.

(** A camera whose intrinsic parameters were never given puts every point it can project at pixel (0, 0). *)
Theorem C31_uninitialised : forall ops xyz angles off angles' p,
  last_some gives_intrinsic ops = None ->
  last_some gives_extrinsic ops = Some (xyz, angles) -> last_some gives_offsets ops = Some (off, angles') ->
  cv_lon_lat_alt_to_pixel (cv_run ops) p = Ok (Fin 0, Fin 0) \/ cv_lon_lat_alt_to_pixel (cv_run ops) p = Ok (NonFinite, NonFinite).
Proof.
  intros ops xyz [[o ph] k] off [[o' ph'] k'] p HN HE HO.
  assert (E : cv_run ops = cv_run (ops ++ [InitIntrinsic 0 0 0 0 0 0 0 0 0])).
  { unfold cv_run at 2. rewrite fold_left_app. cbn [fold_left cv_step]. fold (cv_run ops).
    pose proof (cv_run_no_intr ops HN) as E. destruct (cv_run ops) as [i f]. cbn [cv_intr] in E. subst i.
    cbn [cv_fixture new_opencv cv_intr]. rewrite Ropp_0. reflexivity. }
  destruct (C31_projection (ops ++ [InitIntrinsic 0 0 0 0 0 0 0 0 0]) 0 0 0 0 0 0 0 0 0 xyz o ph k off o' ph' k') as (pos & M & _ & _ & _ & HP).
  - rewrite last_some_app. reflexivity.
  - rewrite last_some_app. exact HE.
  - rewrite last_some_app. exact HO.
  - rewrite <- E in HP. destruct (HP p) as [A B]. destruct (Req_dec (vz (mv3 M (vsub3 p pos))) 0) as [Z|Z].
    + right. exact (B Z).
    + left. rewrite (A Z). do 2 f_equal; f_equal; ring.
Qed.
Print Assumptions C31_uninitialised.
Example C31_ex_uninitialised :
  let ops := [InitExtrinsic 0 0 10 0 0 0; InitOffsets 1 2 3 0 0 0] in
  last_some gives_intrinsic ops = None /\ last_some gives_extrinsic ops = Some (V3 0 0 10, (0, 0, 0)) /\
  last_some gives_offsets ops = Some (V3 1 2 3, (0, 0, 0)).
Proof. repeat split. Qed.

(** Points on one ray through the camera centre share the pixel, for every distortion. *)
Theorem C31_same_ray : forall ops pos M d a b,
  get_camera_absolute_xyz (cv_fixture (cv_run ops)) = Ok pos -> get_camera_absolute_M_matrix (cv_fixture (cv_run ops)) = Ok M ->
  a <> 0 -> b <> 0 ->
  cv_lon_lat_alt_to_pixel (cv_run ops) (vadd3 pos (vscale3 a d)) = cv_lon_lat_alt_to_pixel (cv_run ops) (vadd3 pos (vscale3 b d)).
Proof.
  intros ops pos M d a b GX GM Ha Hb. unfold cv_lon_lat_alt_to_pixel. rewrite GX, GM. cbn [bind]. f_equal.
  assert (G : forall t, t <> 0 -> cv_project (cv_intr (cv_run ops))
     (mv3 M (V3 (vx (vadd3 pos (vscale3 t d)) - vx pos) (vy (vadd3 pos (vscale3 t d)) - vy pos) (vz (vadd3 pos (vscale3 t d)) - vz pos)))
     = cv_project (cv_intr (cv_run ops)) (mv3 M d)).
  { intros t Ht.
    replace (V3 _ _ _) with (vscale3 t d) by v3. rewrite mv3_scale. set (q := mv3 M d). unfold cv_project. cbn [vscale3 vx vy vz].
    destruct (Req_dec (vz q) 0) as [Z|Z].
    - rewrite Z, Rmult_0_r, !fdiv_0. reflexivity.
    - rewrite !fdiv_nz by (auto; apply Rmult_integral_contrapositive_currified; auto).
      replace (t * vx q / (t * vz q)) with (vx q / vz q) by (field; auto).
      replace (t * vy q / (t * vz q)) with (vy q / vz q) by (field; auto). reflexivity. }
  rewrite !G by assumption. reflexivity.
Qed.
Print Assumptions C31_same_ray.

(** Re-initialising with t times the focal lengths scales the distance from the
    principal point by t. *)
Theorem C31_focal_length : forall ops fx fy cx cy k1 k2 k3 p1 p2 t p u v,
  last_some gives_intrinsic ops = Some (fx, fy, cx, cy, (k1, k2, k3, p1, p2)) ->
  cv_lon_lat_alt_to_pixel (cv_run ops) p = Ok (Fin u, Fin v) ->
  cv_lon_lat_alt_to_pixel (cv_run (ops ++ [InitIntrinsic (t * fx) (t * fy) cx cy k1 k2 k3 p1 p2])) p =
    Ok (Fin (cx + t * (u - cx)), Fin (cy + t * (v - cy))).
Proof.
  intros ops fx fy cx cy k1 k2 k3 p1 p2 t p u v HI H.
  unfold cv_run in *. rewrite fold_left_app. cbn [fold_left cv_step].
  unfold cv_lon_lat_alt_to_pixel in *. cbn [cv_fixture cv_intr].
  set (c := fold_left cv_step ops new_opencv) in *.
  assert (EI : cv_intr c = mkCvIntrinsic (- fx) (- fy) cx cy k1 k2 k3 p1 p2) by exact (cv_run_intr ops _ _ _ _ _ _ _ _ _ HI).
  destruct (get_camera_absolute_M_matrix (cv_fixture c)) as [M| |]; cbn [bind] in *; try discriminate.
  destruct (get_camera_absolute_xyz (cv_fixture c)) as [pos| |]; cbn [bind] in *; try discriminate.
  rewrite EI in H. match type of H with context [mv3 M ?w] => generalize (mv3 M w) as q, H; clear H; intros q H end.
  destruct (Req_dec (vz q) 0) as [Z|Z].
  - rewrite (cv_project_plane _ _ Z) in H. discriminate.
  - rewrite cv_project_spec in H by exact Z. rewrite cv_project_spec by exact Z. injection H as <- <-. do 2 f_equal; f_equal; ring.
Qed.
Print Assumptions C31_focal_length.

(** Without an exterior orientation or without offsets every projection raises. *)
Theorem C31_unset : forall ops p,
  last_some gives_extrinsic ops = None \/ last_some gives_offsets ops = None ->
  cv_lon_lat_alt_to_pixel (cv_run ops) p = Err OtherError.
Proof.
  intros ops p H. destruct (cv_run_parts ops) as (P1 & P2 & P3 & P4).
  unfold cv_lon_lat_alt_to_pixel. rewrite cv_run_fixture, fx_run_state, P2, P4.
  destruct H as [H|H]; rewrite H; unfold get_camera_absolute_M_matrix; cbn [fx_boresight fx_M option_map bind];
    destruct (last_some gives_offsets ops); try discriminate; cbn [option_map bind]; try reflexivity.
  all: destruct (last_some gives_extrinsic ops); reflexivity.
Qed.
Print Assumptions C31_unset.

Example C31_history_met :
  let ops := [InitOffsets 1 2 3 0 0 0; InitExtrinsic 9 9 9 1 1 1; InitIntrinsic 100 100 50 40 0 0 0 0 0; InitExtrinsic 0 0 10 0 0 0] in
  last_some gives_intrinsic ops = Some (100, 100, 50, 40, (0, 0, 0, 0, 0)) /\
  last_some gives_extrinsic ops = Some (V3 0 0 10, (0, 0, 0)) /\ last_some gives_offsets ops = Some (V3 1 2 3, (0, 0, 0)).
Proof. repeat split. Qed.

(* ============================== C32 =============================== *)

(** The rotation matrix built from omega, phi, kappa in degrees is the transpose of
    create_M_matrix's for the same angles, hence a rotation. *)
Theorem C32_r_matrix : forall x y z omega phi kappa rest,
  create_r_matrix ([x; y; z; omega; phi; kappa] ++ rest) =
    Ok (t3 (create_M_matrix (omega * PI / 180) (phi * PI / 180) (kappa * PI / 180) (txt "rpy"))) /\
  rotation (t3 (create_M_matrix (omega * PI / 180) (phi * PI / 180) (kappa * PI / 180) (txt "rpy"))).
Proof.
  intros. split; [|apply rotation_t, rpy_rot]. unfold create_r_matrix.
  assert (L : (6 <= length ([x; y; z; omega; phi; kappa] ++ rest))%nat) by (rewrite app_length; cbn; lia).
  rewrite (py_get_lit ([x; y; z; omega; phi; kappa] ++ rest) 3 3%nat eq_refl ltac:(lia)),
    (py_get_lit ([x; y; z; omega; phi; kappa] ++ rest) 4 4%nat eq_refl ltac:(lia)),
    (py_get_lit ([x; y; z; omega; phi; kappa] ++ rest) 5 5%nat eq_refl ltac:(lia)).
  cbn [bind nth app]. unfold deg2rad. f_equal.
  change (create_M_matrix ?o ?p ?k (txt "rpy")) with
    (M3 (cos p * cos k) (cos o * sin k + sin o * sin p * cos k) (sin o * sin k - cos o * sin p * cos k)
        (-1 * cos p * sin k) (cos o * cos k - sin o * sin p * sin k) (sin o * cos k + cos o * sin p * sin k)
        (sin p) (-1 * sin o * cos p) (cos o * cos p)).
  apply mat3_eq; cbn [t3 e11 e12 e13 e21 e22 e23 e31 e32 e33]; ring.
Qed.
Print Assumptions C32_r_matrix.

(** The calculator made from an image's parameters (looked up by the base name of the
    key): with the model "regular", the pixel is the principal point plus the focal length
    times the distorted direction, where the third radial coefficient is the SECOND one
    of the file; without a model the same with no distortion; any other model raises. *)
Theorem C32_projection : forall key params pars R0 ext x y z rest nx ny w F Px Py t1 t2 trest k1 k2 k3 krest model p,
  dict_get params (basename key) = Ok pars ->
  pars = mkP4Params R0 ext nx ny w F Px Py (t1 :: t2 :: trest) (k1 :: k2 :: k3 :: krest) ->
  ext = [x; y; z] ++ rest -> w <> 0 ->
  exists c, p4_init key params model = Ok c /\
    let s := nx / w in
    let q := mv3 R0 (vsub3 p (V3 x y z)) in
    let xh := vx q / vz q in let yh := vy q / vz q in
    (vz q <> 0 -> model = Some (txt "regular") ->
       p4_lon_lat_alt_to_pixel c p =
       Ok (Some (Fin (Px * s + F * s * distorted_x k1 k2 k2 t1 t2 xh yh), Fin (Py * s + F * s * distorted_y k1 k2 k2 t1 t2 xh yh)))) /\
    (vz q <> 0 -> model = None ->
       p4_lon_lat_alt_to_pixel c p = Ok (Some (Fin (Px * s + F * s * xh), Fin (Py * s + F * s * yh)))) /\
    (vz q = 0 -> model = None \/ model = Some (txt "regular") -> p4_lon_lat_alt_to_pixel c p = Ok (Some (NonFinite, NonFinite))) /\
    (model <> None -> model <> Some (txt "regular") -> p4_lon_lat_alt_to_pixel c p = Err TypeError).
Proof.
  intros key params pars R0 ext x y z rest nx ny w F Px Py t1 t2 trest k1 k2 k3 krest model p HD -> -> Hw.
  unfold p4_init. rewrite HD. cbn [bind pp_nx pp_fpa_width_mm pp_tangential pp_radial pp_external pp_rotation pp_F pp_Px pp_Py pp_ny].
  unfold zdiv. rewrite Reqb_false by exact Hw. cbn [bind].
  rewrite (py_get_lit (t1 :: t2 :: trest) 0 0%nat eq_refl ltac:(cbn; lia)), (py_get_lit (t1 :: t2 :: trest) 1 1%nat eq_refl ltac:(cbn; lia)). cbn [bind].
  rewrite (py_get_lit (k1 :: k2 :: k3 :: krest) 0 0%nat eq_refl ltac:(cbn; lia)), !(py_get_lit (k1 :: k2 :: k3 :: krest) 1 1%nat eq_refl ltac:(cbn; lia)). cbn [bind].
  rewrite (py_get_lit ([x; y; z] ++ rest) 0 0%nat eq_refl ltac:(cbn; lia)), (py_get_lit ([x; y; z] ++ rest) 1 1%nat eq_refl ltac:(cbn; lia)),
    (py_get_lit ([x; y; z] ++ rest) 2 2%nat eq_refl ltac:(cbn; lia)). cbn [bind nth app].
  eexists. split; [reflexivity|]. cbv zeta. set (c := mkPix4d _ _ _ _ _ _ _ _ _ _ _ _ _ _ _).
  change (mv3 R0 (vsub3 p (V3 x y z))) with (p4_world_to_camera c p). split; [|split; [|split]].
  - intros Hz ->. rewrite p4_regular_spec by (try reflexivity; exact Hz). cbn [c p4_px p4_py p4_f p4_k1 p4_k2 p4_k3 p4_t1 p4_t2 p4_reverse_x p4_reverse_y].
    do 2 f_equal. apply pair_equal_spec. split; f_equal; ring.
  - intros Hz ->. rewrite p4_plain_spec by (try reflexivity; exact Hz). cbn [c p4_px p4_py p4_f p4_reverse_x p4_reverse_y].
    do 2 f_equal. apply pair_equal_spec. split; f_equal; ring.
  - intros Hz HM. eapply p4_plane; [|reflexivity|exact Hz]. exact HM.
  - intros N1 N2. unfold p4_lon_lat_alt_to_pixel. cbn [c p4_model p4_reverse_x p4_reverse_y].
    destruct model as [m|]; [|congruence]. rewrite text_eqb_neq by congruence. reflexivity.
Qed.
Print Assumptions C32_projection.

(** When the calculator cannot be made: an image that is not in the dictionary is a KeyError, a sensor of
    zero width a ZeroDivisionError, and otherwise fewer than two tangential or radial coefficients or fewer
    than three external parameters are an IndexError; in every other case it can. *)
Theorem C32_init_errors : forall key params model,
  ((forall pars, dict_get params (basename key) <> Ok pars) -> p4_init key params model = Err KeyError) /\
  forall pars, dict_get params (basename key) = Ok pars ->
    (pp_fpa_width_mm pars = 0 -> p4_init key params model = Err ZeroDivisionError) /\
    (pp_fpa_width_mm pars <> 0 ->
      ((length (pp_tangential pars) < 2)%nat \/ (length (pp_radial pars) < 2)%nat \/ (length (pp_external pars) < 3)%nat ->
         p4_init key params model = Err IndexError) /\
      ((2 <= length (pp_tangential pars))%nat -> (2 <= length (pp_radial pars))%nat -> (3 <= length (pp_external pars))%nat ->
         exists c, p4_init key params model = Ok c)).
Proof.
  intros key params model. split.
  - intros H. unfold p4_init. destruct (dict_get params (basename key)) as [v|e|] eqn:E.
    + exfalso. exact (H v eq_refl).
    + cbn [bind]. f_equal. clear - E. induction params as [|[k v] params IH]; cbn in E; [congruence|].
      destruct (text_eqb _ _) in E; [discriminate|exact (IH E)].
    + exfalso. clear - E. induction params as [|[k v] params IH]; cbn in E; [discriminate|].
      destruct (text_eqb _ _) in E; [discriminate|exact (IH E)].
  - intros pars HD. unfold p4_init. rewrite HD. cbn [bind]. unfold zdiv. split.
    + intros ->. rewrite Reqb_true by reflexivity. reflexivity.
    + intros Hw. rewrite Reqb_false by exact Hw. cbn [bind].
      destruct (pp_tangential pars) as [|t1 [|t2 tr]]; destruct (pp_radial pars) as [|k1 [|k2 kr]]; destruct (pp_external pars) as [|x [|y [|z er]]];
        cbn [length]; (split; [intros H|intros H1 H2 H3]); try (exfalso; lia);
        rewrite ?(py_get_lit (t1 :: t2 :: tr) 0 0%nat eq_refl ltac:(cbn; lia)), ?(py_get_lit (t1 :: t2 :: tr) 1 1%nat eq_refl ltac:(cbn; lia)),
          ?(py_get_lit (k1 :: k2 :: kr) 0 0%nat eq_refl ltac:(cbn; lia)), ?(py_get_lit (k1 :: k2 :: kr) 1 1%nat eq_refl ltac:(cbn; lia)),
          ?(py_get_lit (x :: y :: z :: er) 0 0%nat eq_refl ltac:(cbn; lia)), ?(py_get_lit (x :: y :: z :: er) 1 1%nat eq_refl ltac:(cbn; lia)),
          ?(py_get_lit (x :: y :: z :: er) 2 2%nat eq_refl ltac:(cbn; lia)); cbn [bind]; try reflexivity.
      eexists. reflexivity.
Qed.
Print Assumptions C32_init_errors.

(** The two reversal flags are public and may be switched off: each flag mirrors its own coordinate about the
    principal point and does nothing else (a point in the camera's plane stays without finite coordinates).  A distortion model other than none or the regular one gives no coordinates:
    None when both flags are off, and a TypeError when one of them is on. *)
Theorem C32_reverse_flags : forall c p,
  let off := mkPix4d (p4_r c) (p4_t c) (p4_f c) (p4_px c) (p4_py c) (p4_nx c) (p4_ny c)
               (p4_t1 c) (p4_t2 c) (p4_k1 c) (p4_k2 c) (p4_k3 c) (p4_model c) false false in
  ((p4_model c = None \/ p4_model c = Some (txt "regular")) ->
     exists x y, p4_lon_lat_alt_to_pixel off p = Ok (Some (x, y)) /\
       p4_lon_lat_alt_to_pixel c p =
       Ok (Some (if p4_reverse_x c then fmap (fun v => 2 * p4_px c - v) x else x,
                 if p4_reverse_y c then fmap (fun v => 2 * p4_py c - v) y else y))) /\
  (forall m, p4_model c = Some m -> m <> txt "regular" ->
     p4_lon_lat_alt_to_pixel off p = Ok None /\
     (p4_reverse_x c = true \/ p4_reverse_y c = true <-> p4_lon_lat_alt_to_pixel c p = Err TypeError) /\
     (p4_reverse_x c = false /\ p4_reverse_y c = false <-> p4_lon_lat_alt_to_pixel c p = Ok None)).
Proof.
  intros c p off. split.
  - intros H.
    assert (Hoff : p4_model off = None \/ p4_model off = Some (txt "regular")) by exact H.
    destruct (Req_dec (vz (p4_world_to_camera c p)) 0) as [Z|Z].
    + exists NonFinite, NonFinite. split; [apply (p4_plane off p _ Hoff eq_refl Z)|].
      rewrite (p4_plane c p _ H eq_refl Z). destruct (p4_reverse_x c), (p4_reverse_y c); reflexivity.
    + destruct H as [HM|HM].
      * rewrite (p4_plain_spec c p HM Z). eexists _, _. split; [exact (p4_plain_spec off p HM Z)|].
        cbn [off p4_px p4_py p4_f p4_reverse_x p4_reverse_y]. change (p4_world_to_camera off p) with (p4_world_to_camera c p).
        do 2 f_equal. destruct (p4_reverse_x c), (p4_reverse_y c); cbn [fmap]; apply pair_equal_spec; split; f_equal; ring.
      * rewrite (p4_regular_spec c p HM Z). eexists _, _. split; [exact (p4_regular_spec off p HM Z)|].
        cbn [off p4_px p4_py p4_f p4_k1 p4_k2 p4_k3 p4_t1 p4_t2 p4_reverse_x p4_reverse_y]. change (p4_world_to_camera off p) with (p4_world_to_camera c p).
        do 2 f_equal. destruct (p4_reverse_x c), (p4_reverse_y c); cbn [fmap]; apply pair_equal_spec; split; f_equal; ring.
  - intros m HM HN. unfold p4_lon_lat_alt_to_pixel. cbn [off p4_model p4_reverse_x p4_reverse_y]. rewrite HM, (text_eqb_neq _ _ HN).
    split; [reflexivity|]. destruct (p4_reverse_x c), (p4_reverse_y c); cbn; split; split; intuition congruence.
Qed.
Print Assumptions C32_reverse_flags.

(** With all coefficients zero the two models agree, for every point. *)
Theorem C32_zero_distortion : forall key params pars model x y z rest p c c',
  dict_get params (basename key) = Ok pars -> pp_external pars = [x; y; z] ++ rest ->
  (forall k, nth k (pp_radial pars) 0 = 0) -> (forall k, nth k (pp_tangential pars) 0 = 0) ->
  model = Some (txt "regular") -> p4_init key params model = Ok c -> p4_init key params None = Ok c' ->
  p4_lon_lat_alt_to_pixel c p = p4_lon_lat_alt_to_pixel c' p.
Proof.
  intros key params pars model x y z rest p c c' HD HX HR HT -> H H'.
  assert (G : forall l k v, py_get l k = Ok v -> (forall j, nth j l 0 = 0) -> v = 0).
  { intros l k v E Z. unfold py_get in E. destruct (py_index (zlen l) k) as [n|]; [|discriminate].
    destruct (nth_error l n) as [a|] eqn:Q; [|discriminate]. injection E as <-. rewrite <- (Z n). symmetry. apply nth_error_nth. exact Q. }
  unfold p4_init in H, H'. rewrite HD in H, H'. cbn [bind] in H, H'.
  destruct (zdiv _ _) as [ppm| |]; cbn [bind] in H, H'; try discriminate.
  destruct (py_get (pp_tangential pars) 0) as [t1| |] eqn:T1; cbn [bind] in H, H'; try discriminate.
  destruct (py_get (pp_tangential pars) 1) as [t2| |] eqn:T2; cbn [bind] in H, H'; try discriminate.
  destruct (py_get (pp_radial pars) 0) as [k1| |] eqn:K1; cbn [bind] in H, H'; try discriminate.
  destruct (py_get (pp_radial pars) 1) as [k2| |] eqn:K2; cbn [bind] in H, H'; try discriminate.
  apply G in T1, T2, K1, K2; try assumption. subst t1 t2 k1 k2.
  destruct (py_get (pp_external pars) 0) as [v0| |]; cbn [bind] in H, H'; try discriminate.
  destruct (py_get (pp_external pars) 1) as [v1| |]; cbn [bind] in H, H'; try discriminate.
  destruct (py_get (pp_external pars) 2) as [v2| |]; cbn [bind] in H, H'; try discriminate.
  injection H as <-. injection H' as <-.
  match goal with |- p4_lon_lat_alt_to_pixel ?a p = p4_lon_lat_alt_to_pixel ?b p => set (c := a); set (c' := b) end.
  destruct (Req_dec (vz (p4_world_to_camera c p)) 0) as [Z|Z].
  - rewrite (p4_plane c p _ (or_intror eq_refl) eq_refl Z), (p4_plane c' p _ (or_introl eq_refl) eq_refl Z). reflexivity.
  - rewrite (p4_regular_spec c p eq_refl Z), (p4_plain_spec c' p eq_refl Z).
    cbn [c p4_k1 p4_k2 p4_k3 p4_t1 p4_t2]. set (q := p4_world_to_camera c p).
    destruct (distorted_zero (vx q / vz q) (vy q / vz q)) as [-> ->]. reflexivity.
Qed.
Print Assumptions C32_zero_distortion.

(** The third radial coefficient of the file has no effect, so the documented model is
    obtained exactly when it equals the second one (for a point off the axis). *)
Theorem C32_third_coefficient_iff : forall k1 k2 k3 t1 t2 f px py x y, f <> 0 -> x <> 0 \/ y <> 0 ->
  (px + f * distorted_x k1 k2 k2 t1 t2 x y = px + f * distorted_x k1 k2 k3 t1 t2 x y /\
   py + f * distorted_y k1 k2 k2 t1 t2 x y = py + f * distorted_y k1 k2 k3 t1 t2 x y) <-> k2 = k3.
Proof.
  intros k1 k2 k3 t1 t2 f px py x y Hf N. split; [|intros ->; auto]. intros [E1 E2].
  unfold distorted_x, distorted_y in *. set (r2 := x * x + y * y) in *.
  assert (P : 0 < r2) by (unfold r2; destruct N; nra).
  assert (F1 : f * (x * ((k2 - k3) * r2 * r2 * r2)) = 0) by lra.
  assert (F2 : f * (y * ((k2 - k3) * r2 * r2 * r2)) = 0) by lra.
  apply Rmult_integral in F1, F2. destruct F1 as [F1|F1]; [lra|]. destruct F2 as [F2|F2]; [lra|].
  apply Rmult_integral in F1, F2.
  assert (C : (k2 - k3) * r2 * r2 * r2 = 0) by (destruct N, F1, F2; lra).
  assert (R3 : r2 * r2 * r2 <> 0) by (repeat apply Rmult_integral_contrapositive_currified; lra).
  assert (C' : (k2 - k3) * (r2 * r2 * r2) = 0) by lra. apply Rmult_integral in C'. destruct C'; lra.
Qed.
Print Assumptions C32_third_coefficient_iff.

(** The property itself fails: two parameter sets that differ in the third radial
    coefficient give the same pixel for every point, where the documented model differs. *)
Theorem C32_third_coefficient_refuted : exists params params' key c c',
  map fst params = [key] /\ map fst params' = [key] /\
  (exists pars pars', dict_get params key = Ok pars /\ dict_get params' key = Ok pars' /\
     pp_radial pars = [0; 0; 1] /\ pp_radial pars' = [0; 0; 0] /\
     mkP4Params (pp_rotation pars) (pp_external pars) (pp_nx pars) (pp_ny pars) (pp_fpa_width_mm pars) (pp_F pars) (pp_Px pars) (pp_Py pars) (pp_tangential pars) [] =
     mkP4Params (pp_rotation pars') (pp_external pars') (pp_nx pars') (pp_ny pars') (pp_fpa_width_mm pars') (pp_F pars') (pp_Px pars') (pp_Py pars') (pp_tangential pars') []) /\
  p4_init key params (Some (txt "regular")) = Ok c /\ p4_init key params' (Some (txt "regular")) = Ok c' /\
  (forall p, p4_lon_lat_alt_to_pixel c p = p4_lon_lat_alt_to_pixel c' p) /\
  distorted_x 0 0 1 0 0 1 0 <> distorted_x 0 0 0 0 0 1 0.
Proof.
  set (mk := fun r => mkP4Params id3 [0; 0; 0] 10 10 1 1 0 0 [0; 0] r).
  exists [(txt "a.tif", mk [0; 0; 1])], [(txt "a.tif", mk [0; 0; 0])], (txt "a.tif").
  assert (B : basename (txt "a.tif") = txt "a.tif") by reflexivity.
  assert (I : forall r3, p4_init (txt "a.tif") [(txt "a.tif", mk [0; 0; r3])] (Some (txt "regular")) =
     Ok (mkPix4d id3 (V3 0 0 0) (1 * (10 / 1)) (0 * (10 / 1)) (0 * (10 / 1)) 10 10 0 0 0 0 0 (Some (txt "regular")) true true)).
  { intros r3. unfold p4_init. rewrite B.
    assert (D : dict_get [(txt "a.tif", mk [0; 0; r3])] (txt "a.tif") = Ok (mk [0; 0; r3])) by reflexivity.
    rewrite D. unfold mk. cbn [bind pp_nx pp_fpa_width_mm pp_tangential pp_radial pp_external pp_rotation pp_F pp_Px pp_Py pp_ny].
    unfold zdiv. rewrite Reqb_false by lra. reflexivity. }
  eexists; eexists. split; [reflexivity|]. split; [reflexivity|]. split.
  { eexists; eexists. split; [reflexivity|]. split; [reflexivity|]. repeat split. }
  split; [apply I|]. split; [apply I|]. split; [reflexivity|]. unfold distorted_x. lra.
Qed.
Print Assumptions C32_third_coefficient_refuted.

(* ============================== C33 =============================== *)

(** What compute_p evaluates, for all coefficients and points: the RPC00B cubic plus an
    error term from the nineteenth coefficient. *)
Theorem C33_exact : forall a P L H, length a = 20%nat ->
  exists v, compute_p a P L H = Ok v /\ v = rpc00b a P L H + nth 18 a 0 * P ^ 2 * (L - H) /\
    (v = rpc00b a P L H <-> nth 18 a 0 = 0 \/ P = 0 \/ L = H).
Proof.
  intros a P L H E. rewrite (compute_p_spec a P L H E). eexists. split; [reflexivity|]. split; [reflexivity|]. split.
  - intros Q. assert (Z : nth 18 a 0 * P ^ 2 * (L - H) = 0) by lra.
    apply Rmult_integral in Z. destruct Z as [Z|Z]; [|right; right; lra].
    apply Rmult_integral in Z. destruct Z as [Z|Z]; [auto|]. right; left.
    destruct (Req_dec P 0) as [|N]; [assumption|]. exfalso. revert Z. apply pow_nonzero. exact N.
  - intros [Z|[Z|Z]]; rewrite Z; cbn; ring.
Qed.
Print Assumptions C33_exact.

(** The property itself fails: the polynomial P^2 H (nineteenth coefficient 1, all others
    0) is evaluated as P^2 L. *)
Theorem C33_refuted : exists a, length a = 20%nat /\
  forall P L H, rpc00b a P L H = P ^ 2 * H /\ compute_p a P L H = Ok (P ^ 2 * L).
Proof.
  exists [0;0;0;0;0;0;0;0;0;0;0;0;0;0;0;0;0;0;1;0]. split; [reflexivity|]. intros P L H.
  rewrite compute_p_spec by reflexivity.
  assert (E : rpc00b [0;0;0;0;0;0;0;0;0;0;0;0;0;0;0;0;0;0;1;0] P L H = P ^ 2 * H).
  { unfold rpc00b, rpc00b_monomials, rsum. cbn [combine map fold_right fst snd]. ring. }
  split; [exact E|]. rewrite E. cbn [nth]. f_equal. ring.
Qed.
Print Assumptions C33_refuted.

(** The pixel: normalised coordinates, ratio of polynomials, scale, offset and half a
    pixel.  With the nineteenth coefficients zero it is the RPC00B pixel. *)
Theorem C33_pixel : forall c lon lat alt,
  length (samp_num c) = 20%nat -> length (samp_den c) = 20%nat -> length (line_num c) = 20%nat -> length (line_den c) = 20%nat ->
  lat_scale c <> 0 -> lon_scale c <> 0 -> height_scale c <> 0 ->
  nth 18 (samp_num c) 0 = 0 -> nth 18 (samp_den c) 0 = 0 -> nth 18 (line_num c) 0 = 0 -> nth 18 (line_den c) 0 = 0 ->
  let P := (lat - lat_off c) / lat_scale c in
  let L := (lon - lon_off c) / lon_scale c in
  let H := (alt - height_off c) / height_scale c in
  rpc00b (samp_den c) P L H <> 0 -> rpc00b (line_den c) P L H <> 0 ->
  rpc_lon_lat_alt_to_pixel c lon lat alt =
    Ok (Fin (samp_off c + 1/2 + samp_scale c * (rpc00b (samp_num c) P L H / rpc00b (samp_den c) P L H)),
        Fin (line_off c + 1/2 + line_scale c * (rpc00b (line_num c) P L H / rpc00b (line_den c) P L H))).
Proof.
  intros c lon lat alt L1 L2 L3 L4 S1 S2 S3 Z1 Z2 Z3 Z4 P L H D1 D2.
  unfold rpc_lon_lat_alt_to_pixel. rewrite !fdiv_nz by assumption. fold P L H.
  rewrite !compute_p_spec by assumption. rewrite Z1, Z2, Z3, Z4. cbn [bind].
  replace (rpc00b (samp_den c) P L H + 0 * P ^ 2 * (L - H)) with (rpc00b (samp_den c) P L H) by ring.
  replace (rpc00b (line_den c) P L H + 0 * P ^ 2 * (L - H)) with (rpc00b (line_den c) P L H) by ring.
  replace (rpc00b (samp_num c) P L H + 0 * P ^ 2 * (L - H)) with (rpc00b (samp_num c) P L H) by ring.
  replace (rpc00b (line_num c) P L H + 0 * P ^ 2 * (L - H)) with (rpc00b (line_num c) P L H) by ring.
  rewrite !fdiv_nz by assumption. cbn [fmap]. do 2 f_equal; f_equal; ring.
Qed.
Print Assumptions C33_pixel.

(** Scaling numerator and denominator together does not change the pixel (whatever the
    nineteenth coefficients are); a coefficient list that is too short raises. *)
Theorem C33_common_factor : forall c lon lat alt t u,
  t <> 0 -> u <> 0 ->
  length (samp_num c) = 20%nat -> length (samp_den c) = 20%nat -> length (line_num c) = 20%nat -> length (line_den c) = 20%nat ->
  rpc_lon_lat_alt_to_pixel
    (mkRpc (map (Rmult t) (samp_num c)) (map (Rmult t) (samp_den c)) (samp_scale c) (samp_off c)
           (map (Rmult u) (line_num c)) (map (Rmult u) (line_den c)) (line_scale c) (line_off c)
           (lat_scale c) (lat_off c) (lon_scale c) (lon_off c) (height_scale c) (height_off c)) lon lat alt
  = rpc_lon_lat_alt_to_pixel c lon lat alt.
Proof.
  intros c lon lat alt t u Ht Hu L1 L2 L3 L4. unfold rpc_lon_lat_alt_to_pixel.
  cbn [samp_num samp_den samp_scale samp_off line_num line_den line_scale line_off lat_scale lat_off lon_scale lon_off height_scale height_off].
  destruct (fdiv (lat - lat_off c) (lat_scale c)) as [P|]; [|reflexivity].
  destruct (fdiv (lon - lon_off c) (lon_scale c)) as [L|]; [|reflexivity].
  destruct (fdiv (alt - height_off c) (height_scale c)) as [H|]; [|reflexivity].
  rewrite !compute_p_spec by (rewrite ?map_length; assumption). cbn [bind].
  assert (M' : forall s a, nth 18 (map (Rmult s) a) 0 = s * nth 18 a 0).
  { intros s a. replace 0 with (s * 0) at 1 by ring. apply map_nth. }
  rewrite !rpc00b_scale, !M'.
  assert (D : forall s n d, s <> 0 -> forall en ed, fdiv (s * n + s * en * P ^ 2 * (L - H)) (s * d + s * ed * P ^ 2 * (L - H)) =
     fdiv (n + en * P ^ 2 * (L - H)) (d + ed * P ^ 2 * (L - H))).
  { intros s n d Hs en ed. set (e := P ^ 2 * (L - H)).
    replace (s * n + s * en * P ^ 2 * (L - H)) with (s * (n + en * e)) by (unfold e; ring).
    replace (s * d + s * ed * P ^ 2 * (L - H)) with (s * (d + ed * e)) by (unfold e; ring).
    replace (n + en * P ^ 2 * (L - H)) with (n + en * e) by (unfold e; ring).
    replace (d + ed * P ^ 2 * (L - H)) with (d + ed * e) by (unfold e; ring).
    destruct (Req_dec (d + ed * e) 0) as [Z|Z].
    - rewrite Z, Rmult_0_r, !fdiv_0. reflexivity.
    - rewrite !fdiv_nz by (auto; apply Rmult_integral_contrapositive_currified; auto). f_equal. field. auto. }
  rewrite !D by assumption. reflexivity.
Qed.
Print Assumptions C33_common_factor.

Theorem C33_short_list : forall a P L H, (length a < 20)%nat -> compute_p a P L H = Err IndexError.
Proof. exact compute_p_short. Qed.
Print Assumptions C33_short_list.

(** A case of C33_pixel: sample = (1 + L) / 1 * 100 + 50 + 0.5 *)
Example C33_pixel_met :
  let one := [1;0;0;0;0;0;0;0;0;0;0;0;0;0;0;0;0;0;0;0] in
  let c := mkRpc [1;1;0;0;0;0;0;0;0;0;0;0;0;0;0;0;0;0;0;0] one 100 50 one one 10 5 1 0 2 0 1 0 in
  rpc_lon_lat_alt_to_pixel c 4 7 0 = Ok (Fin (50 + 1/2 + 100 * 3), Fin (5 + 1/2 + 10 * 1)).
Proof.
  intros one c. rewrite C33_pixel; try reflexivity; cbn [c lat_scale lon_scale height_scale samp_num samp_den line_num line_den lat_off lon_off height_off samp_scale samp_off line_scale line_off]; try lra;
    unfold one, rpc00b, rpc00b_monomials, rsum; cbn [combine map fold_right fst snd]; try lra.
  do 2 f_equal; f_equal; field.
Qed.

(* ============================== C34 =============================== *)

(** For every invertible geotransform the two directions are inverse to each other. *)
Theorem C34_round_trip : forall gdal_inv g nx ny, gdal_inverse gdal_inv -> invertible g ->
  let c := set_geot gdal_inv g nx ny in
  (forall x y, let '(lon, lat) := gt_pixel_to_lon_lat c x y in gt_lon_lat_to_pixel c lon lat = Ok (x, y)) /\
  (forall lon lat, exists x y, gt_lon_lat_to_pixel c lon lat = Ok (x, y) /\ gt_pixel_to_lon_lat c x y = (lon, lat)).
Proof.
  intros gdal_inv g nx ny [HI _] Hg. destruct (HI g Hg) as (h & E & A & B). cbv zeta.
  unfold gt_lon_lat_to_pixel, gt_pixel_to_lon_lat, set_geot. cbn [gc_geot gc_inv]. rewrite E. split.
  - intros x y. pose proof (A (x, y)) as Q. unfold geo_point in Q. cbn [fst snd] in Q. injection Q as Q1 Q2.
    f_equal. apply pair_equal_spec. split; lra.
  - intros lon lat. eexists; eexists. split; [reflexivity|].
    pose proof (B (lon, lat)) as Q. unfold geo_point in Q. cbn [fst snd] in Q. injection Q as Q1 Q2.
    apply pair_equal_spec. split; lra.
Qed.
Print Assumptions C34_round_trip.

(** The pixel to world direction is GDAL's. *)
Theorem C34_forward : forall gdal_inv g nx ny x y, gt_pixel_to_lon_lat (set_geot gdal_inv g nx ny) x y = geo_point g (x, y).
Proof. reflexivity. Qed.
Print Assumptions C34_forward.

(** For a singular geotransform the world to pixel direction raises. *)
Theorem C34_singular : forall gdal_inv g nx ny lon lat, gdal_inverse gdal_inv -> ~ invertible g ->
  gt_lon_lat_to_pixel (set_geot gdal_inv g nx ny) lon lat = Err TypeError.
Proof.
  intros gdal_inv g nx ny lon lat [_ HN] Hg. unfold gt_lon_lat_to_pixel, set_geot. cbn [gc_inv]. rewrite (HN g Hg). reflexivity.
Qed.
Print Assumptions C34_singular.

(** gdal.InvGeoTransform's contract can be met; a rotated geotransform is invertible. *)
Example C34_contract_met : exists f, gdal_inverse f /\ invertible (mkGeot 100 3 4 200 4 (-3)).
Proof.
  exists (fun g => let d := g1 g * g5 g - g2 g * g4 g in
    if Reqb d 0 then None else
    Some (mkGeot ((g2 g * g3 g - g0 g * g5 g) / d) (g5 g / d) (- g2 g / d) ((g0 g * g4 g - g1 g * g3 g) / d) (- g4 g / d) (g1 g / d))).
  split; [split|unfold invertible; cbn; lra].
  - intros g Hg. unfold invertible in Hg. cbv zeta. rewrite Reqb_false by exact Hg. eexists. split; [reflexivity|].
    split; intros [x y]; unfold geo_point; cbn [g0 g1 g2 g3 g4 g5 fst snd]; apply pair_equal_spec; split; field; exact Hg.
  - intros g Hg. unfold invertible in Hg. cbv zeta. destruct (Reqb_spec (g1 g * g5 g - g2 g * g4 g) 0); [reflexivity|contradiction].
Qed.

(* ============================== C68 =============================== *)

(** Geotransforms without rotation: the extent is exactly the image's footprint. *)
Theorem C68_extent : forall gdal_inv g nx ny p, g2 g = 0 -> g4 g = 0 -> g1 g <> 0 -> g5 g <> 0 -> 0 <= nx -> 0 <= ny ->
  let '(x0, y0, x1, y1) := gt_world_extent (set_geot gdal_inv g nx ny) in
  in_rectangle x0 y0 x1 y1 p <-> exists a b, 0 <= a <= nx /\ 0 <= b <= ny /\ p = geo_point g (a, b).
Proof.
  intros gdal_inv g nx ny [px py] H2 H4 H1 H5 Hx Hy. unfold gt_world_extent, gt_pixel_to_lon_lat, set_geot, in_rectangle, geo_point.
  cbn [gc_geot gc_npix_x gc_npix_y fst snd]. rewrite H2, H4, !Rmult_0_l, !Rmult_0_r, !Rplus_0_r.
  assert (S : forall o s n q, s <> 0 -> 0 <= n -> (Rmin o (o + n * s) <= q <= Rmax o (o + n * s) <-> exists a, 0 <= a <= n /\ q = o + a * s)).
  { intros o s n q Hs Hn. split.
    - intros [A B]. exists ((q - o) / s). split; [|field; exact Hs].
      assert (Q : q - o = (q - o) / s * s) by (field; exact Hs). set (a := (q - o) / s) in *.
      destruct (Rlt_or_le 0 s) as [P|P].
      + rewrite Rmin_left in A by nra. rewrite Rmax_right in B by nra. split.
        * apply Rmult_le_reg_r with s; lra.
        * apply Rmult_le_reg_r with s; lra.
      + rewrite Rmin_right in A by nra. rewrite Rmax_left in B by nra. split.
        * apply Rmult_le_reg_r with (- s); lra.
        * apply Rmult_le_reg_r with (- s); lra.
    - intros (a & [A B] & ->). split.
      + destruct (Rlt_or_le 0 s); [rewrite Rmin_left by nra; nra|rewrite Rmin_right by nra; nra].
      + destruct (Rlt_or_le 0 s); [rewrite Rmax_right by nra; nra|rewrite Rmax_left by nra; nra]. }
  rewrite (S (g0 g) (g1 g) nx px H1 Hx).
  rewrite (Rmin_comm (g3 g + ny * g5 g)), (Rmax_comm (g3 g + ny * g5 g)), (S (g3 g) (g5 g) ny py H5 Hy). split.
  - intros [(a & Ha & ->) (b & Hb & ->)]. exists a, b. repeat split; try lra; try (apply pair_equal_spec; split; ring).
  - intros (a & b & Ha & Hb & E). injection E as -> ->. split; [exists a|exists b]; split; try lra; ring.
Qed.
Print Assumptions C68_extent.

(** With rotation it is not: the centre of this image is a corner of its extent rectangle
    or outside it. *)
Theorem C68_rotated_refuted : exists g nx ny, invertible g /\ forall gdal_inv,
  let '(x0, y0, x1, y1) := gt_world_extent (set_geot gdal_inv g nx ny) in
  exists a b, 0 <= a <= nx /\ 0 <= b <= ny /\ ~ in_rectangle x0 y0 x1 y1 (geo_point g (a, b)).
Proof.
  exists (mkGeot 0 1 (-1) 0 1 1), 10, 10. split; [unfold invertible; cbn; lra|]. intros gdal_inv.
  unfold gt_world_extent, gt_pixel_to_lon_lat, set_geot. cbn [gc_geot gc_npix_x gc_npix_y g0 g1 g2 g3 g4 g5].
  exists 10, 0. repeat split; try lra. unfold in_rectangle, geo_point. cbn [g0 g1 g2 g3 g4 g5 fst snd].
  intros [[_ A] _]. rewrite Rmax_left in A by lra. lra.
Qed.
Print Assumptions C68_rotated_refuted.
