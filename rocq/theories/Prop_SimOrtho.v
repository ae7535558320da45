(** C112: an orthorectified simulated image shows the ground it was simulated from. *)
From Verif Require Import RAux Text Geo3 M_Photo M_Cameras M_PointCalc M_Image M_Sim M_Ortho.
From Verif Require Import Spec_Photo Spec_PointCalc Spec_Sim Spec_Perspective Spec_Reortho Spec_SimOrtho.
From Verif Require Spec_Ortho P_Sim Prop_Sim Prop_Perspective Prop_Ortho Prop_Reortho Spec_Cameras.
Open Scope R_scope.
Open Scope list_scope.

Lemma floor_half x n : 0 < x -> x < INR n - 2 -> exists c : nat, (c < n)%nat /\ INR c <= x + 1 / 2 < INR c + 1.
Proof.
  intros H0 H1. pose proof (base_Int_part (x + 1 / 2)) as [A B].
  assert (P : (0 <= Int_part (x + 1 / 2))%Z) by (apply Z.lt_succ_r; apply lt_IZR; unfold Z.succ; rewrite plus_IZR; lra).
  exists (Z.to_nat (Int_part (x + 1 / 2))). rewrite INR_IZR_INZ, Z2Nat.id by exact P.
  split; [|lra]. apply INR_lt. rewrite INR_IZR_INZ, Z2Nat.id by exact P. lra.
Qed.

(** One cell of the ortho holds a pixel of the simulated image that is at most half a pixel away from where the camera sees the cell *)
Lemma ortho_cell nearest img (im : sim_image flt) nx ny minx miny maxx maxy nodata :
  nearest_half_up nearest -> simulated_object img im -> band_wf (si_band im) -> b_ny (si_band im) = si_npix_y im -> b_nx (si_band im) = si_npix_x im ->
  (2 <= nx)%nat -> (2 <= ny)%nat -> minx <= maxx -> miny <= maxy ->
  exists o geo_t, create_ortho nearest img nx ny minx miny maxx maxy None None nodata = Ok ([o], geo_t) /\ Spec_Ortho.raster (b_rows o) ny nx /\
    forall r c, (r < ny)%nat -> (c < nx)%nat ->
      let p := Spec_Ortho.cell_centre minx miny maxx maxy nx ny r c in
      let loc := ov_locate img 0 (p, 0) in
      (~ Spec_Ortho.in_inner img loc -> Spec_Ortho.raster_at (b_rows o) r c = Some (ov_store img nodata)) /\
      (Spec_Ortho.in_inner img loc -> exists r' c' v, (r' < si_npix_y im)%nat /\ (c' < si_npix_x im)%nat /\
         Rabs (INR c' - fst loc) <= 1 / 2 /\ Rabs (INR r' - snd loc) <= 1 / 2 /\
         band_at (si_band im) r' c' = Some v /\ Spec_Ortho.raster_at (b_rows o) r c = Some (ov_store img v)).
Proof.
  intros HN (S1 & S2 & S3 & S4 & S5 & S6 & _) [W1 W2] B1 B2 Hx Hy Lx Ly.
  assert (E : create_ortho nearest img nx ny minx miny maxx maxy None None nodata = create_ortho nearest img nx ny minx miny maxx maxy None (Some [0%nat]) nodata).
  { unfold create_ortho. rewrite S3. reflexivity. }
  rewrite E. clear E.
  destruct (Prop_Ortho.C69_coregistered nearest img nx ny minx miny maxx maxy None [0%nat] nodata S1 S2 Hx Hy Lx Ly ltac:(discriminate)) as (out & geo_t & E & L & H).
  destruct out as [|o [|? ?]]; try discriminate L. exists o, geo_t. split; [exact E|].
  destruct (H 0%nat 0%nat eq_refl) as (o' & Ho & RR & C). injection Ho as <-. split; [exact RR|].
  intros r c Hr Hc p loc. destruct (C r c Hr Hc) as (v & Ev & V1 & V2). cbv beta in V1, V2. fold p in V1, V2. fold loc in V1, V2. split.
  - intros N. rewrite Ev. f_equal. apply V2. exact N.
  - intros I. specialize (V1 I). destruct I as [[I1 I2] [I3 I4]]. rewrite S4 in I2. rewrite S5 in I4.
    rewrite minus_IZR, <- INR_IZR_INZ in I2, I4.
    destruct (floor_half _ _ I1 I2) as (c' & C1 & C2). destruct (floor_half _ _ I3 I4) as (r' & R1 & R2).
    assert (Q : exists w, band_at (si_band im) r' c' = Some w).
    { unfold band_at. destruct (nth_error (b_rows (si_band im)) r') as [row|] eqn:Er.
      - rewrite Forall_forall in W2. pose proof (W2 row (nth_error_In _ _ Er)) as LR.
        destruct (nth_error row c') as [w|] eqn:Ec; [exists w; reflexivity|]. apply nth_error_None in Ec. lia.
      - apply nth_error_None in Er. lia. }
    destruct Q as [w Q]. exists r', c', w. split; [exact R1|]. split; [exact C1|].
    split; [apply Rabs_le; lra|]. split; [apply Rabs_le; lra|]. split; [exact Q|].
    rewrite Ev. f_equal. rewrite V1, S6. f_equal. rewrite (surjective_pairing loc).
    apply (HN (b_rows (si_band im)) (si_npix_y im) (si_npix_x im) (fst loc) (snd loc) r' c' w); try lra.
    + split; [congruence|]. rewrite <- B2. exact W2.
    + exact Q.
Qed.

(** Two points of the ground seen by a level camera *)
Lemma level_distance pos M f px py nx ny p q u v u' v' : rotation M -> e31 M = 0 -> e32 M = 0 -> f <> 0 -> vz pos <> 0 ->
  sees pos M f px py nx ny (V3 (fst p) (snd p) 0) u v -> sees pos M f px py nx ny (V3 (fst q) (snd q) 0) u' v' ->
  distance2 p q = (vz pos / f) ^ 2 * (((u - u') * px) ^ 2 + ((v - v') * py) ^ 2).
Proof.
  intros HR A B Hf HZ (s & Hs & Ep) (s' & Hs' & Eq).
  destruct (P_Sim.level_entries M HR A B) as (E13 & E23 & E33 & _).
  assert (RW : e11 M * e11 M + e12 M * e12 M = 1 /\ e21 M * e21 M + e22 M * e22 M = 1 /\ e11 M * e21 M + e12 M * e22 M = 0).
  { destruct HR as (H1 & _ & _). pose proof (f_equal e11 H1) as K1. pose proof (f_equal e22 H1) as K2. pose proof (f_equal e12 H1) as K3.
    cbn in K1, K2, K3. rewrite E13, E23 in *. repeat split; lra. }
  destruct RW as (RW1 & RW2 & RW3).
  unfold on_ray, vadd3, vscale3, mv3, t3 in Ep, Eq. cbn [vx vy vz e11 e12 e13 e21 e22 e23 e31 e32 e33] in Ep, Eq.
  injection Ep as P1 P2 P3. injection Eq as Q1 Q2 Q3.
  assert (N33 : e33 M <> 0) by (intros K; rewrite K in E33; lra).
  rewrite E13, E23 in P3, Q3.
  assert (S1 : s = vz pos * e33 M / f).
  { apply (Rmult_eq_reg_r (e33 M * f)); [|apply Rmult_integral_contrapositive_currified; assumption].
    transitivity (vz pos); [lra|]. replace (vz pos * e33 M / f * (e33 M * f)) with (vz pos * (e33 M * e33 M)) by (field; exact Hf). rewrite E33. ring. }
  assert (S2 : s' = vz pos * e33 M / f).
  { apply (Rmult_eq_reg_r (e33 M * f)); [|apply Rmult_integral_contrapositive_currified; assumption].
    transitivity (vz pos); [lra|]. replace (vz pos * e33 M / f * (e33 M * f)) with (vz pos * (e33 M * e33 M)) by (field; exact Hf). rewrite E33. ring. }
  unfold distance2. rewrite P1, P2, Q1, Q2, S1, S2, A, B. clear - RW1 RW2 RW3 E33 Hf.
  set (dx := (u - u') * px). set (dy := (v - v') * py).
  transitivity ((vz pos / f) ^ 2 * (e33 M * e33 M) * ((e11 M * e11 M + e12 M * e12 M) * dx ^ 2 - 2 * (e11 M * e21 M + e12 M * e22 M) * dx * dy + (e21 M * e21 M + e22 M * e22 M) * dy ^ 2)).
  - unfold dx, dy. field. exact Hf.
  - rewrite RW1, RW2, RW3, E33. ring.
Qed.

(** A level camera: the image is simulated and can be orthorectified over any bounds.  A cell that the camera sees in
    the inner part of its image holds what the geotiff shows (as sampled by the simulator) at a point of the ground that is
    at most half a pixel of the camera, along both of its axes, from the centre of the cell; every other cell holds the no-data value. *)
Theorem C112_level : forall (sample : sampler flt) a ops d0 lon lat alt roll pitch yaw t1 t2 t3' br bp by_ gdal_inv g w h,
  is_order t1 t2 t3' -> sa_order a = order_name t1 t2 t3' ->
  nudged (sa_roll a) br -> nudged (sa_pitch a) bp -> nudged (sa_yaw a) by_ ->
  Spec_Cameras.gdal_inverse gdal_inv -> Spec_Cameras.invertible g -> sa_gtiff a = set_geot gdal_inv g w h ->
  (0 < sa_npix_x a)%nat -> (0 < sa_npix_y a)%nat ->
  let M := sim_orientation (su_boresight a) br bp by_ t1 t2 t3' roll pitch yaw in
  let Z := alt * su_alt a in let f := sa_focal a * su_focal a in
  let px := sa_pitch_x a * su_pitch a in let py := sa_pitch_y a * su_pitch a in
  e31 M = 0 -> e32 M = 0 -> e11 M <> 0 -> Z <> 0 -> f <> 0 -> px <> 0 -> py <> 0 ->
  Rabs (Z * px) < 2 ^ 1021 * Rabs f -> Rabs (Z * py) < 2 ^ 1021 * Rabs f ->
  let history := ops ++ [Simulate (Ok d0) lon lat alt roll pitch yaw] in
  let outcomes := snd (sim_run sample (sim_init a) history) in
  exists im d, nth_error outcomes (length ops) = Some (Some (Ok im)) /\ used_band history outcomes (length ops) d /\
    forall nearest img nx ny minx miny maxx maxy nodata,
      nearest_half_up nearest -> simulated_object img im -> (2 <= nx)%nat -> (2 <= ny)%nat -> minx <= maxx -> miny <= maxy ->
      exists o geo_t, create_ortho nearest img nx ny minx miny maxx maxy None None nodata = Ok ([o], geo_t) /\ Spec_Ortho.raster (b_rows o) ny nx /\
        forall r c, (r < ny)%nat -> (c < nx)%nat ->
          let p := Spec_Ortho.cell_centre minx miny maxx maxy nx ny r c in
          exists u v, sees (V3 lon lat Z) M f px py (INR (sa_npix_x a)) (INR (sa_npix_y a)) (V3 (fst p) (snd p) 0) u v /\
            let inner := 0 < u < INR (sa_npix_x a) - 2 /\ 0 < v < INR (sa_npix_y a) - 2 in
            (~ inner -> Spec_Ortho.raster_at (b_rows o) r c = Some (ov_store img nodata)) /\
            (inner -> exists x y q,
               Spec_Ortho.raster_at (b_rows o) r c = Some (ov_store img (sample d (Fin y) (Fin x))) /\
               gt_pixel_to_lon_lat (sa_gtiff a) x y = q /\
               distance2 p q <= (Z / f) ^ 2 * ((px / 2) ^ 2 + (py / 2) ^ 2)).
Proof.
  intros sample a ops d0 lon lat alt roll pitch yaw t1 t2 t3' br bp by_ gdal_inv g w h HO HN N1 N2 N3 HI Hg HE Hnx Hny
    M Z f px py M1 M2 M3' HZ Hf Hx Hy R1 R2 history outcomes.
  destruct (Prop_Sim.C77_level flt sample a ops d0 lon lat alt roll pitch yaw t1 t2 t3' br bp by_ gdal_inv g w h HO HN N1 N2 N3 HI Hg HE Hnx Hny
    M1 M2 M3' HZ Hf Hx Hy R1 R2) as (im & d & EI & EU & PX).
  fold history in EI, EU. fold outcomes in EI, EU. exists im, d. split; [exact EI|]. split; [exact EU|].
  assert (HK : nth_error history (length ops) = Some (Simulate (Ok d0) lon lat alt roll pitch yaw)).
  { unfold history. rewrite nth_error_app2, Nat.sub_diag by lia. reflexivity. }
  destruct (Prop_Sim.C77_pixels flt sample a history (length ops) im (Ok d0) lon lat alt roll pitch yaw gdal_inv g w h HI Hg HE HK EI)
    as (D1 & D2 & D3 & D4 & D5 & D6 & _).
  destruct (Prop_Sim.C76_camera flt sample a history (length ops) im (Ok d0) lon lat alt roll pitch yaw t1 t2 t3' br bp by_ HO HN N1 N2 N3 Hf Hx Hy HK EI)
    as (HR & _ & _ & CP & _).
  fold M in HR, CP. fold Z f px py in CP.
  assert (HM : -1 < e31 M < 1) by (rewrite M1; lra). specialize (CP HM).
  intros nearest img nx ny minx miny maxx maxy nodata NH SO Bx By Lx Ly.
  destruct (ortho_cell nearest img im nx ny minx miny maxx maxy nodata NH SO D4 ltac:(congruence) ltac:(congruence) Bx By Lx Ly) as (o & geo_t & E & RR & C).
  exists o, geo_t. split; [exact E|]. split; [exact RR|]. intros r c Hr Hc p.
  destruct (C r c Hr Hc) as [C1 C2]. fold p in C1, C2.
  pose proof (P_Sim.level_pixel lon lat Z f M px py (INR (sa_npix_x a)) (INR (sa_npix_y a)) (fst p) (snd p) HR M1 M2 HZ Hx Hy) as LP. cbv zeta in LP.
  match type of LP with _ = (Fin ?uu, Fin ?vv) => set (u := uu) in *; set (v := vv) in * end. clearbody u v.
  assert (HS : sees (V3 lon lat Z) M f px py (INR (sa_npix_x a)) (INR (sa_npix_y a)) (V3 (fst p) (snd p) 0) u v).
  { apply (P_Sim.sees_ideal _ _ _ _ _ _ _ (mkProjection []) (lon, lat)); try assumption. }
  exists u, v. split; [exact HS|]. intros inner.
  pose proof SO as (_ & _ & _ & S4 & S5 & _ & S7).
  assert (LL : ov_locate img 0 (p, 0) = (u, v)).
  { rewrite (surjective_pairing p). apply S7. apply (CP (V3 (fst p) (snd p) 0)). exact HS. }
  rewrite LL in C1, C2. cbn [fst snd] in C2.
  assert (II : inner <-> Spec_Ortho.in_inner img (u, v)).
  { unfold inner, Spec_Ortho.in_inner. cbn [fst snd]. rewrite S4, S5, D1, D2, !minus_IZR, <- !INR_IZR_INZ. reflexivity. }
  split; [intros N; apply C1; rewrite <- II; exact N|]. intros I. apply II in I.
  destruct (C2 I) as (r' & c' & val & R' & C' & K1 & K2 & Ev & Er). rewrite D1 in C'. rewrite D2 in R'.
  destruct (PX r' c' R' C') as (x & y & glon & glat & EB & EG & ES).
  exists x, y, (glon, glat). rewrite EB in Ev. injection Ev as <-. split; [exact Er|]. split; [exact EG|].
  rewrite (level_distance (V3 lon lat Z) M f px py _ _ p (glon, glat) u v (INR c') (INR r') HR M1 M2 Hf HZ HS ES). cbn [vz].
  assert (SQ : forall t q, Rabs (t - q) <= 1 / 2 -> (q - t) ^ 2 <= (1 / 2) ^ 2).
  { intros t q H. rewrite <- (pow2_abs (q - t)), Rabs_minus_sym. apply pow_incr. split; [apply Rabs_pos|exact H]. }
  pose proof (SQ _ _ K1) as Q1. pose proof (SQ _ _ K2) as Q2.
  apply Rmult_le_compat_l; [apply pow2_ge_0|].
  rewrite !Rpow_mult_distr. replace ((px / 2) ^ 2) with ((1 / 2) ^ 2 * px ^ 2) by field. replace ((py / 2) ^ 2) with ((1 / 2) ^ 2 * py ^ 2) by field.
  apply Rplus_le_compat; apply Rmult_le_compat_r; try apply pow2_ge_0; assumption.
Qed.
Print Assumptions C112_level.

(** A tilted camera whose image bends little (the conditions of C77_tilted): the ortho shows, in every cell whose centre the camera
    sees in the inner part of its image, what the geotiff shows at a point of the ground that the camera sees within 0.51 pixel of it. *)
Theorem C112_tilted : forall (sample : sampler flt) a ops d0 lon lat alt roll pitch yaw t1 t2 t3' br bp by_ gdal_inv g w h rad D T eps kmin kmax r0,
  is_order t1 t2 t3' -> sa_order a = order_name t1 t2 t3' ->
  nudged (sa_roll a) br -> nudged (sa_pitch a) bp -> nudged (sa_yaw a) by_ ->
  Spec_Cameras.gdal_inverse gdal_inv -> Spec_Cameras.invertible g -> sa_gtiff a = set_geot gdal_inv g w h ->
  (0 < sa_npix_x a)%nat -> (0 < sa_npix_y a)%nat ->
  let M := sim_orientation (su_boresight a) br bp by_ t1 t2 t3' roll pitch yaw in
  let Z := alt * su_alt a in let f := sa_focal a * su_focal a in
  let px := sa_pitch_x a * su_pitch a in let py := sa_pitch_y a * su_pitch a in
  let nx := INR (sa_npix_x a) in let ny := INR (sa_npix_y a) in
  let cam := mkIdeal (mkPinhole (V3 lon lat Z) f M) px py nx ny false true in
  -1 < e31 M < 1 -> views cam (lon, lat) 0 rad D (Rabs Z) T eps kmin kmax ->
  let L := bend D T eps kmax in let m := slope D (Rabs Z) T kmin in
  3 * L < m -> m - L <= 2 ^ 53 -> 1 < 2 ^ 1021 * (m - L) ->
  nx / 2 + kmax * T <= r0 -> ny / 2 + kmax * T <= r0 -> r0 / (m - 3 * L) + 2 / (m - L) + 2 <= rad ->
  L < Rabs (f / px) * Rabs (e11 M - e13 M / e33 M * e31 M) / D -> (2 * L / (m - L)) ^ 1000 * r0 <= 1 / 100 ->
  let history := ops ++ [Simulate (Ok d0) lon lat alt roll pitch yaw] in
  let outcomes := snd (sim_run sample (sim_init a) history) in
  exists im d, nth_error outcomes (length ops) = Some (Some (Ok im)) /\ used_band history outcomes (length ops) d /\
    forall nearest img onx ony minx miny maxx maxy nodata,
      nearest_half_up nearest -> simulated_object img im -> (2 <= onx)%nat -> (2 <= ony)%nat -> minx <= maxx -> miny <= maxy ->
      exists o geo_t, create_ortho nearest img onx ony minx miny maxx maxy None None nodata = Ok ([o], geo_t) /\ Spec_Ortho.raster (b_rows o) ony onx /\
        forall r c u v, (r < ony)%nat -> (c < onx)%nat ->
          let p := Spec_Ortho.cell_centre minx miny maxx maxy onx ony r c in
          sees (V3 lon lat Z) M f px py nx ny (V3 (fst p) (snd p) 0) u v ->
          let inner := 0 < u < nx - 2 /\ 0 < v < ny - 2 in
          (~ inner -> Spec_Ortho.raster_at (b_rows o) r c = Some (ov_store img nodata)) /\
          (inner -> exists x y q u' v',
             Spec_Ortho.raster_at (b_rows o) r c = Some (ov_store img (sample d (Fin y) (Fin x))) /\
             gt_pixel_to_lon_lat (sa_gtiff a) x y = q /\
             sees (V3 lon lat Z) M f px py nx ny (V3 (fst q) (snd q) 0) u' v' /\
             Rabs (u - u') <= 1 / 2 + 1 / 100 /\ Rabs (v - v') <= 1 / 2 + 1 / 100).
Proof.
  intros sample a ops d0 lon lat alt roll pitch yaw t1 t2 t3' br bp by_ gdal_inv g w h rad D T eps kmin kmax r0 HO HN N1 N2 N3 HI Hg HE Hnx Hny
    M Z f px py nx ny cam HM HV L m HLm W1 W2 RX RY RR HX HT history outcomes.
  destruct (Prop_Perspective.C77_tilted flt sample a ops d0 lon lat alt roll pitch yaw t1 t2 t3' br bp by_ gdal_inv g w h rad D T eps kmin kmax r0 HO HN N1 N2 N3 HI Hg HE Hnx Hny
    HM HV HLm W1 W2 RX RY RR HX HT) as (im & d & EI & EU & PX).
  fold history in EI, EU. fold outcomes in EI, EU. exists im, d. split; [exact EI|]. split; [exact EU|].
  pose proof (v_px _ _ _ _ _ _ _ _ _ _ HV) as Hx. pose proof (v_py _ _ _ _ _ _ _ _ _ _ HV) as Hy. cbn [cam ip_pitch_x ip_pitch_y] in Hx, Hy.
  pose proof (v_kx _ _ _ _ _ _ _ _ _ _ HV) as KX. cbn [cam ip_pitch_x ip_pitch_y ip_camera ph_f] in KX.
  pose proof (v_k0 _ _ _ _ _ _ _ _ _ _ HV) as K0.
  assert (Hf : f <> 0). { intros E. rewrite E in KX. unfold Rdiv in KX. rewrite Rmult_0_l, Rabs_R0 in KX. lra. }
  assert (HK : nth_error history (length ops) = Some (Simulate (Ok d0) lon lat alt roll pitch yaw)).
  { unfold history. rewrite nth_error_app2, Nat.sub_diag by lia. reflexivity. }
  destruct (Prop_Sim.C77_pixels flt sample a history (length ops) im (Ok d0) lon lat alt roll pitch yaw gdal_inv g w h HI Hg HE HK EI)
    as (D1 & D2 & D3 & D4 & D5 & D6 & _).
  destruct (Prop_Sim.C76_camera flt sample a history (length ops) im (Ok d0) lon lat alt roll pitch yaw t1 t2 t3' br bp by_ HO HN N1 N2 N3 Hf Hx Hy HK EI)
    as (HR & _ & _ & CP & _).
  fold M in HR, CP. fold Z f px py in CP. fold nx ny in CP. specialize (CP HM).
  intros nearest img onx ony minx miny maxx maxy nodata NH SO Bx By Lx Ly.
  destruct (ortho_cell nearest img im onx ony minx miny maxx maxy nodata NH SO D4 ltac:(congruence) ltac:(congruence) Bx By Lx Ly) as (o & geo_t & E & RA & C).
  exists o, geo_t. split; [exact E|]. split; [exact RA|]. intros r c u v Hr Hc p HS inner.
  destruct (C r c Hr Hc) as [C1 C2]. fold p in C1, C2.
  pose proof SO as (_ & _ & _ & S4 & S5 & _ & S7).
  assert (LL : ov_locate img 0 (p, 0) = (u, v)).
  { rewrite (surjective_pairing p). apply S7. apply (CP (V3 (fst p) (snd p) 0)). exact HS. }
  rewrite LL in C1, C2. cbn [fst snd] in C2.
  assert (II : inner <-> Spec_Ortho.in_inner img (u, v)).
  { unfold inner, Spec_Ortho.in_inner. cbn [fst snd]. rewrite S4, S5, D1, D2, !minus_IZR, <- !INR_IZR_INZ. reflexivity. }
  split; [intros N; apply C1; rewrite <- II; exact N|]. intros I. apply II in I.
  destruct (C2 I) as (r' & c' & val & R' & C' & K1 & K2 & Ev & Er). rewrite D1 in C'. rewrite D2 in R'.
  destruct (PX r' c' R' C') as (x & y & glon & glat & u' & v' & EB & EG & ES & U1 & U2 & _).
  exists x, y, (glon, glat), u', v'. rewrite EB in Ev. injection Ev as <-. split; [exact Er|]. split; [exact EG|]. split; [exact ES|].
  assert (AL : forall t e, Rabs t <= e -> - e <= t <= e) by (intros t e; unfold Rabs; destruct (Rcase_abs t); lra).
  apply AL in K1, K2, U1, U2. split; apply Rabs_le; lra.
Qed.
Print Assumptions C112_tilted.

(** The hypotheses of C112_level are met: a simulator of five by five pixels of 1 m, focal length 1 m, 1 m above the ground, and
    an ortho of three by three cells of which the middle one, below the camera, is seen in the inner part of the image. *)
Definition demo_args5 (gdal_inv : geot -> option geot) : sim_args :=
  mkSimArgs (set_geot gdal_inv (mkGeot 0 1 0 0 0 1) 10 10) (mkProjection (txt "a")) 1 5 5
    (- (1 / 100000000)) (- (1 / 100000000)) (- (1 / 100000000)) 1 1 1 1 1 (txt "rpy") 1 1 None.
Definition as_overhead (im : sim_image flt) : overhead :=
  mkOverhead true true (Z.of_nat (si_npix_x im)) (Z.of_nat (si_npix_y im)) (fun _ => b_rows (si_band im)) 1 (fun v => v)
    (fun _ p => match camera_pixel (si_camera im) (Fin (fst (fst p))) (Fin (snd (fst p))) (Fin (snd p)) with (Fin u, Fin v) => (u, v) | _ => (0, 0) end).
Lemma as_overhead_simulated im : simulated_object (as_overhead im) im.
Proof.
  unfold simulated_object, as_overhead. cbn [ov_coregistered ov_loaded ov_n_bands ov_nx ov_ny ov_band ov_locate fst snd].
  do 6 (split; [reflexivity|]). intros x y u v H. rewrite H. reflexivity.
Qed.
Example C112_level_met : exists gdal_inv im o geo_t x y q, let a := demo_args5 gdal_inv in
  let sample := (fun (_ : band flt) (_ X : flt) => X) : sampler flt in
  snd (sim_run sample (sim_init a) [Simulate (Ok (mkBand 1 1 [[NonFinite]])) 0 0 1 0 0 0]) = [Some (Ok im)] /\
  simulated_object (as_overhead im) im /\ nearest_half_up Prop_Reortho.demo_nearest /\
  create_ortho Prop_Reortho.demo_nearest (as_overhead im) 3 3 (-1) (-1) 1 1 None None NonFinite = Ok ([o], geo_t) /\
  Spec_Ortho.raster_at (b_rows o) 1 1 = Some (Fin x) /\ gt_pixel_to_lon_lat (sa_gtiff a) x y = q /\ distance2 (0, 0) q <= 1 / 2.
Proof.
  destruct Prop_Sim.demo_inverse as (gi & HI). exists gi. set (a := demo_args5 gi). set (sample := (fun (_ : band flt) (_ X : flt) => X) : sampler flt).
  assert (HO : is_order Roll Pitch Yaw) by (repeat split; discriminate).
  pose proof (C112_level sample a [] (mkBand 1 1 [[NonFinite]]) 0 0 1 0 0 0 Roll Pitch Yaw 0 0 0 gi _ 10 10 HO eq_refl Prop_Sim.demo_nudged Prop_Sim.demo_nudged Prop_Sim.demo_nudged HI
    Prop_Sim.demo_invertible eq_refl ltac:(cbn; lia) ltac:(cbn; lia)) as Q.
  cbn [a demo_args5 su_boresight su_alt sa_focal su_focal sa_pitch_x sa_pitch_y su_pitch sa_npix_x sa_npix_y] in Q.
  rewrite Prop_Sim.demo_orientation in Q. cbv zeta in Q. rewrite !Rmult_1_r, Rabs_R1, Rmult_1_r in Q.
  destruct Q as (im & d & E & _ & P); try (cbn; lra); try (cbn; rewrite cos_0; lra); try exact Prop_Sim.demo_small.
  destruct (P Prop_Reortho.demo_nearest (as_overhead im) 3%nat 3%nat (-1) (-1) 1 1 NonFinite Prop_Reortho.C107_nearest_met (as_overhead_simulated im)) as (o & geo_t & EO & _ & C); [lia|lia|lra|lra|].
  destruct (C 1%nat 1%nat ltac:(lia) ltac:(lia)) as (u & v & SE & _ & CI).
  assert (CC : Spec_Ortho.cell_centre (-1) (-1) 1 1 3 3 1 1 = (0, 0)) by (unfold Spec_Ortho.cell_centre; cbn; f_equal; field).
  rewrite CC in SE, CI. cbn [fst snd] in SE.
  assert (UV : u = 5 / 2 /\ v = 5 / 2).
  { destruct SE as (s & Hs & Q). unfold on_ray, vadd3, vscale3, mv3, t3, about_z in Q. rewrite sin_0, cos_0 in Q. cbn in Q. injection Q as Q1 Q2 Q3.
    split; (apply Rminus_diag_uniq, (Rmult_eq_reg_l s); [lra|exact Hs]). }
  destruct UV as [-> ->]. destruct CI as (x & y & q & ER & EG & DD); [cbn; lra|].
  exists im, o, geo_t, x, y, q. cbv zeta. split.
  { pose proof (P_Sim.run_length sample [Simulate (Ok (mkBand 1 1 [[NonFinite]])) 0 0 1 0 0 0] (sim_init a)) as L. cbn [app length] in E.
    destruct (snd (sim_run sample (sim_init a) _)) as [|z [|z' l]]; try discriminate L. cbn in E. congruence. }
  split; [apply as_overhead_simulated|]. split; [exact Prop_Reortho.C107_nearest_met|]. split; [exact EO|]. split; [exact ER|]. split; [exact EG|]. lra.
Qed.
