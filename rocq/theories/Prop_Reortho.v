(** C107: orthorectifying an orthorectified image. *)
From Verif Require Import RAux Text M_Image M_Cameras M_Ortho M_Objects M_Warp M_Reortho.
From Verif Require Import Spec_Image Spec_Photo Spec_Cameras Spec_Ortho Spec_Objects Spec_Warp Spec_Reortho.
From Verif Require Import P_Ortho Prop_Photo Prop_Cameras Prop_Ortho Prop_Warp.
Open Scope R_scope.
Open Scope list_scope.

Lemma px_raster {V} (bands : list (list (list V))) k rows r c : nth_error bands k = Some rows -> px bands r c k = raster_at rows r c.
Proof. intros H. unfold px, raster_at. rewrite H. destruct (nth_error rows r); reflexivity. Qed.

Section C107.
Variables (D G P W : Type) (to_gdal : D -> option G) (from_gdal : G -> D) (file_store : D -> G -> flt -> flt) (wkt_of : P -> W)
  (gdal_inv : geot -> option geot) (convert : D -> flt -> flt) (fs : files flt G W).

(** Over any window of the image and at any size: what every cell holds, and the corner and pixel
    size of the result. *)
Theorem C107_window sample (im : geotiff flt D G P) dtype d nx ny nb x0 y0 dx dy a b w h n m nodata :
  gdal_inverse gdal_inv -> 0 < dx -> 0 < dy -> north_up_image im dtype d nx ny nb x0 y0 dx dy -> (0 < nb)%nat ->
  (2 <= n)%nat -> (2 <= m)%nat -> 0 <= w -> 0 <= h ->
  exists im' d', ortho_of_geotiff to_gdal from_gdal file_store wkt_of gdal_inv convert fs sample im n m (window_bounds x0 y0 dx dy a b w h) nodata = (fs, Ok im') /\
    north_up_image im' dtype d' n m nb (x0 + a * dx) (y0 - b * dy) (w * dx / (INR n + 1)) (h * dy / (INR m + 1)) /\ gt_proj im' = gt_proj im /\
    forall k r c, (k < nb)%nat -> (r < m)%nat -> (c < n)%nat ->
      let x := a + (INR c + 1 / 2) * w / INR n in let y := b + (INR r + 1 / 2) * h / INR m in
      (0 < x < INR nx - 2 /\ 0 < y < INR ny - 2 -> px (r_bands d') r c k = Some (convert dtype (sample (nth k (r_bands d) []) (x, y)))) /\
      (~ (0 < x < INR nx - 2 /\ 0 < y < INR ny - 2) -> px (r_bands d') r c k = Some (convert dtype nodata)).
Proof.
  intros HI Dx Dy (HD & HS & HX & HY & HB & HG) Nb Hn Hm Hw Hh.
  set (gt := geot_of (gt_geot im)).
  assert (IG : invertible gt). { unfold invertible, gt. rewrite HG. cbn. nra. }
  destruct (C34_round_trip gdal_inv gt (INR (gt_nx im)) (INR (gt_ny im)) HI IG) as [RT _]. cbv zeta in RT.
  assert (EI : exists hh, gdal_inv gt = Some hh). { destruct HI as [HI _]. destruct (HI gt IG) as (hh & E & _). eauto. }
  destruct EI as (hh & EI).
  set (img := mkOverhead true true (Z.of_nat nx) (Z.of_nat ny) (fun b => nth b (r_bands d) []) nb (convert dtype)
                (fun _ q => match gt_lon_lat_to_pixel (geotiff_calc_of gdal_inv im) (fst (fst q)) (snd (fst q)) with Ok l => l | _ => (0, 0) end)).
  assert (EO : geotiff_overhead gdal_inv convert im = Ok img).
  { unfold geotiff_overhead, geotiff_calc_of at 1, set_geot. cbn [gc_inv]. fold gt. rewrite EI, HD, HX, HY, HB. reflexivity. }
  assert (LOC : forall k x y z, ov_locate img k ((x0 + x * dx, y0 - y * dy), z) = (x, y)).
  { intros k x y z. unfold img. cbn [ov_locate fst snd]. pose proof (RT x y) as Q.
    assert (EP : gt_pixel_to_lon_lat (set_geot gdal_inv gt (INR (gt_nx im)) (INR (gt_ny im))) x y = (x0 + x * dx, y0 - y * dy)).
    { unfold gt_pixel_to_lon_lat, gt. cbn [set_geot gc_geot]. rewrite HG. cbn [geot_of nth g0 g1 g2 g3 g4 g5]. f_equal; ring. }
    rewrite EP in Q. unfold geotiff_calc_of. fold gt. rewrite Q. reflexivity. }
  unfold window_bounds, ortho_of_geotiff. rewrite EO, HD. cbn [fst].
  set (minx := x0 + a * dx). set (maxx := x0 + (a + w) * dx). set (miny := y0 - (b + h) * dy). set (maxy := y0 - b * dy).
  assert (Lx : minx <= maxx) by (unfold minx, maxx; nra). assert (Ly : miny <= maxy) by (unfold miny, maxy; nra).
  assert (NE : seq 0 nb <> []) by (destruct nb; [lia|discriminate]).
  destruct (C69_coregistered sample img n m minx miny maxx maxy None (seq 0 nb) nodata eq_refl eq_refl Hn Hm Lx Ly NE) as (out & geo_t & C & LO & PP).
  change (seq 0 nb) with (seq 0 (ov_n_bands img)) in C. rewrite <- C69_all_bands in C.
  destruct (C90_object D G P W to_gdal from_gdal file_store wkt_of fs dtype sample img n m minx miny maxx maxy (gt_proj im) None None nodata false out geo_t Hn Hm Lx Ly C)
    as (im' & E & O). unfold ortho_object in O. cbv zeta in O. destruct O as (O1 & O2 & O3 & O4 & O5 & O6 & O7 & O8 & O9 & d' & R1 & R2 & R3 & _).
  rewrite LO, seq_length, Nat.add_0_r in O3, R2.
  exists im', d'. split; [exact E|]. split.
  { unfold north_up_image. split; [exact R1|]. split; [exact R2|]. split; [exact O1|]. split; [exact O2|]. split; [exact O3|].
    rewrite O5. unfold world_poly_to_geo_t. rewrite <- !INR_IZR_INZ. unfold minx, maxx, miny, maxy.
    pose proof (pos_INR n). pose proof (pos_INR m). f_equal; f_equal; [field; lra|]. f_equal. f_equal. f_equal. f_equal. field. lra. }
  split; [exact O6|]. intros k r c Hk Hr Hc.
  set (x := a + (INR c + 1 / 2) * w / INR n). set (y := b + (INR r + 1 / 2) * h / INR m).
  assert (Ek : nth_error (seq 0 nb) k = Some k).
  { rewrite (nth_error_nth' _ 0%nat) by (now rewrite seq_length). f_equal. rewrite seq_nth by exact Hk. reflexivity. }
  destruct (PP k k Ek) as (o & Ho & _ & V). destruct (V r c Hr Hc) as (v & Hv & V1 & V2).
  assert (EL : ov_locate img 0 (cell_centre minx miny maxx maxy n m r c, 0) = (x, y)).
  { replace (cell_centre minx miny maxx maxy n m r c) with (x0 + x * dx, y0 - y * dy); [apply LOC|].
    unfold cell_centre, minx, maxx, miny, maxy, x, y. f_equal; field; apply not_0_INR; lia. }
  rewrite EL in V1, V2. rewrite (R3 k o r c Ho Hr Hc), Hv.
  assert (IN : in_inner img (x, y) <-> 0 < x < INR nx - 2 /\ 0 < y < INR ny - 2).
  { unfold in_inner. cbn [fst snd img ov_nx ov_ny]. rewrite !minus_IZR, <- !INR_IZR_INZ. reflexivity. }
  split.
  - intros I. f_equal. apply V1. now apply IN.
  - intros I. f_equal. apply V2. intros Q. apply I. now apply IN.
Qed.

(** The pixels of a band *)
Lemma band_raster (d : M_Objects.raster flt) nx ny nb k : raster_shape d ny nx nb -> (k < nb)%nat ->
  Spec_Ortho.raster (nth k (r_bands d) []) ny nx /\ forall r c, px (r_bands d) r c k = raster_at (nth k (r_bands d) []) r c.
Proof.
  intros (_ & _ & L & F) Hk. assert (E : nth_error (r_bands d) k = Some (nth k (r_bands d) [])) by (apply nth_error_nth'; lia).
  split; [|intros r c; now apply px_raster].
  rewrite Forall_forall in F. exact (F _ (nth_error_In _ _ E)).
Qed.
Lemma px_inside (d : M_Objects.raster flt) nx ny nb k r c : raster_shape d ny nx nb -> (k < nb)%nat -> (r < ny)%nat -> (c < nx)%nat ->
  exists v, px (r_bands d) r c k = Some v.
Proof.
  intros HS Hk Hr Hc. destruct (band_raster d nx ny nb k HS Hk) as [[L F] E]. rewrite E. unfold raster_at.
  destruct (nth_error (nth k (r_bands d) []) r) as [row|] eqn:ER; [|apply nth_error_None in ER; lia].
  rewrite Forall_forall in F. pose proof (F _ (nth_error_In _ _ ER)) as LR.
  destruct (nth_error row c) as [v|] eqn:EC; [eauto|apply nth_error_None in EC; lia].
Qed.

(** A window of whole pixels at the image's own resolution, with the default interpolation
    (nearest): every cell holds the pixel one row below and one column to the right of its own,
    and the cells of the image's last two rows and columns hold the no-data value. *)
Theorem C107_pixels sample (im : geotiff flt D G P) dtype d nx ny nb x0 y0 dx dy a b n m nodata :
  gdal_inverse gdal_inv -> nearest_half_up sample -> 0 < dx -> 0 < dy -> north_up_image im dtype d nx ny nb x0 y0 dx dy -> (0 < nb)%nat ->
  (2 <= n)%nat -> (2 <= m)%nat ->
  exists im' d', ortho_of_geotiff to_gdal from_gdal file_store wkt_of gdal_inv convert fs sample im n m (window_bounds x0 y0 dx dy (INR a) (INR b) (INR n) (INR m)) nodata = (fs, Ok im') /\
    north_up_image im' dtype d' n m nb (x0 + INR a * dx) (y0 - INR b * dy) (INR n * dx / (INR n + 1)) (INR m * dy / (INR m + 1)) /\
    forall k r c, (k < nb)%nat -> (r < m)%nat -> (c < n)%nat ->
      ((a + c + 3 <= nx /\ b + r + 3 <= ny)%nat -> exists v, px (r_bands d) (b + r + 1) (a + c + 1) k = Some v /\ px (r_bands d') r c k = Some (convert dtype v)) /\
      (~ (a + c + 3 <= nx /\ b + r + 3 <= ny)%nat -> px (r_bands d') r c k = Some (convert dtype nodata)).
Proof.
  intros HI HN Dx Dy HIM Nb Hn Hm.
  destruct (C107_window sample im dtype d nx ny nb x0 y0 dx dy (INR a) (INR b) (INR n) (INR m) n m nodata HI Dx Dy HIM Nb Hn Hm (pos_INR n) (pos_INR m))
    as (im' & d' & E & N & _ & V). exists im', d'. split; [exact E|]. split; [exact N|]. intros k r c Hk Hr Hc.
  destruct (V k r c Hk Hr Hc) as [V1 V2]. cbv zeta in V1, V2.
  replace (INR a + (INR c + 1 / 2) * INR n / INR n) with (INR (a + c) + 1 / 2) in V1, V2 by (rewrite plus_INR; field; apply not_0_INR; lia).
  replace (INR b + (INR r + 1 / 2) * INR m / INR m) with (INR (b + r) + 1 / 2) in V1, V2 by (rewrite plus_INR; field; apply not_0_INR; lia).
  assert (IFF : forall u v : nat, INR u + 1 / 2 < INR v - 2 <-> (u + 3 <= v)%nat).
  { intros u v. split; intros Q.
    - assert (INR (u + 2) < INR v) by (rewrite plus_INR; cbn [INR]; lra). apply INR_lt in H. lia.
    - apply le_INR in Q. rewrite plus_INR in Q. cbn [INR] in Q. lra. }
  pose proof (pos_INR (a + c)) as P1. pose proof (pos_INR (b + r)) as P2. split.
  - intros [Q1 Q2]. destruct HIM as (_ & HS & _). destruct (px_inside d nx ny nb k (b + r + 1) (a + c + 1) HS Hk) as (v & Hv); [lia|lia|].
    exists v. split; [exact Hv|]. rewrite V1; [|rewrite <- IFF in Q1, Q2; lra]. do 2 f_equal.
    destruct (band_raster d nx ny nb k HS Hk) as [HR HP]. rewrite HP in Hv.
    rewrite <- IFF in Q1, Q2. apply (HN _ ny nx _ _ (b + r + 1)%nat (a + c + 1)%nat); try exact HR; try exact Hv; try lra; rewrite (plus_INR (_ + _) 1); cbn [INR]; lra.
  - intros Q. apply V2. intros [Q1 Q2]. apply Q. split; apply IFF; lra.
Qed.

(** With linear interpolation every inner cell holds the mean of four pixels. *)
Theorem C107_linear sample (im : geotiff flt D G P) dtype d nx ny nb x0 y0 dx dy a b n m nodata im' d' k r c p00 p01 p10 p11 :
  gdal_inverse gdal_inv -> bilinear_between sample -> 0 < dx -> 0 < dy -> north_up_image im dtype d nx ny nb x0 y0 dx dy -> (0 < nb)%nat ->
  (2 <= n)%nat -> (2 <= m)%nat -> (k < nb)%nat -> (r < m)%nat -> (c < n)%nat -> (a + c + 3 <= nx)%nat -> (b + r + 3 <= ny)%nat ->
  ortho_of_geotiff to_gdal from_gdal file_store wkt_of gdal_inv convert fs sample im n m (window_bounds x0 y0 dx dy (INR a) (INR b) (INR n) (INR m)) nodata = (fs, Ok im') ->
  gt_data im' = Some (dtype, d') ->
  px (r_bands d) (b + r) (a + c) k = Some (Fin p00) -> px (r_bands d) (b + r) (a + c + 1) k = Some (Fin p01) ->
  px (r_bands d) (b + r + 1) (a + c) k = Some (Fin p10) -> px (r_bands d) (b + r + 1) (a + c + 1) k = Some (Fin p11) ->
  px (r_bands d') r c k = Some (convert dtype (Fin ((p00 + p01 + p10 + p11) / 4))).
Proof.
  intros HI HN Dx Dy HIM Nb Hn Hm Hk Hr Hc Q1 Q2 E ED H00 H01 H10 H11.
  destruct (C107_window sample im dtype d nx ny nb x0 y0 dx dy (INR a) (INR b) (INR n) (INR m) n m nodata HI Dx Dy HIM Nb Hn Hm (pos_INR n) (pos_INR m))
    as (im2 & d2 & E2 & N & _ & V). rewrite E in E2. injection E2 as <-. destruct N as (ED2 & _). rewrite ED in ED2. injection ED2 as <-.
  destruct (V k r c Hk Hr Hc) as [V1 _]. cbv zeta in V1.
  replace (INR a + (INR c + 1 / 2) * INR n / INR n) with (INR (a + c) + 1 / 2) in V1 by (rewrite plus_INR; field; apply not_0_INR; lia).
  replace (INR b + (INR r + 1 / 2) * INR m / INR m) with (INR (b + r) + 1 / 2) in V1 by (rewrite plus_INR; field; apply not_0_INR; lia).
  pose proof (pos_INR (a + c)) as P1. pose proof (pos_INR (b + r)) as P2.
  apply le_INR in Q1, Q2. rewrite (plus_INR (a + c) 3) in Q1. rewrite (plus_INR (b + r) 3) in Q2. cbn [INR] in Q1, Q2. rewrite V1 by lra. do 2 f_equal.
  destruct HIM as (_ & HS & _). destruct (band_raster d nx ny nb k HS Hk) as [HR HP]. rewrite HP in H00, H01, H10, H11.
  rewrite (HN _ ny nx _ _ (1 / 2) (1 / 2) p00 p01 p10 p11 HR); try assumption; try lra. f_equal. field.
Qed.

(** A file that was only opened cannot be orthorectified. *)
Theorem C107_not_loaded sample (im : geotiff flt D G P) x0 y0 dx dy a b w h n m nodata :
  gdal_inverse gdal_inv -> 0 < dx -> 0 < dy -> gt_data im = None -> gt_geot im = [x0; dx; 0; y0; 0; - dy] -> (0 < gt_nb im)%nat ->
  (2 <= n)%nat -> (2 <= m)%nat -> 0 <= w -> 0 <= h ->
  ortho_of_geotiff to_gdal from_gdal file_store wkt_of gdal_inv convert fs sample im n m (window_bounds x0 y0 dx dy a b w h) nodata = (fs, Err TypeError).
Proof.
  intros HI Dx Dy HD HG Nb Hn Hm Hw Hh. unfold ortho_of_geotiff, window_bounds, geotiff_overhead.
  destruct (gc_inv (geotiff_calc_of gdal_inv im)) as [hh|] eqn:EI.
  - rewrite HD. f_equal. set (img := mkOverhead _ _ _ _ _ _ _ _).
    destruct (C69_errors sample img n m (x0 + a * dx) (y0 - (b + h) * dy) (x0 + (a + w) * dx) (y0 - b * dy) None (Some (seq 0 (ov_n_bands img))) nodata) as [_ ER].
    destruct (ER Hn Hm ltac:(nra) ltac:(nra)) as [ER1 _]. rewrite C69_all_bands.
    destruct (gt_nb im) as [|q] eqn:EQ; [lia|].
    rewrite (ER1 eq_refl eq_refl 0%nat (seq 1 q)); [reflexivity|]. reflexivity.
  - reflexivity.
Qed.

(** Generations: the pixel size shrinks by nx / (nx + 1) each time about the fixed upper left
    corner, the contents move up and left by a pixel each time, and the no-data border grows. *)
Theorem C107_generations sample (im : geotiff flt D G P) dtype d nx ny nb x0 y0 dx dy nodata g :
  gdal_inverse gdal_inv -> nearest_half_up sample -> 0 < dx -> 0 < dy -> north_up_image im dtype d nx ny nb x0 y0 dx dy -> (0 < nb)%nat ->
  (2 <= nx)%nat -> (2 <= ny)%nat ->
  (forall k r c v, px (r_bands d) r c k = Some v -> convert dtype v = v) -> convert dtype (convert dtype nodata) = convert dtype nodata ->
  exists im' d', ortho_generations to_gdal from_gdal file_store wkt_of gdal_inv convert fs sample nodata g im = Ok im' /\
    north_up_image im' dtype d' nx ny nb x0 y0 (dx * (INR nx / (INR nx + 1)) ^ g) (dy * (INR ny / (INR ny + 1)) ^ g) /\
    forall k r c, (k < nb)%nat -> (r < ny)%nat -> (c < nx)%nat ->
      (g = 0%nat -> px (r_bands d') r c k = px (r_bands d) r c k) /\
      ((0 < g)%nat -> (c + g + 2 <= nx /\ r + g + 2 <= ny)%nat -> px (r_bands d') r c k = px (r_bands d) (r + g) (c + g) k) /\
      ((0 < g)%nat -> ~ (c + g + 2 <= nx /\ r + g + 2 <= ny)%nat -> px (r_bands d') r c k = Some (convert dtype nodata)).
Proof.
  intros HI HN Dx Dy HIM Nb Hx Hy. revert im d dx dy Dx Dy HIM. induction g as [|g IH]; intros im d dx dy Dx Dy HIM HV HC.
  - exists im, d. split; [reflexivity|]. cbn [pow]. rewrite !Rmult_1_r. split; [exact HIM|]. intros. split; [reflexivity|]. split; lia.
  - cbn [ortho_generations].
    assert (EX : gt_world_extent (geotiff_calc_of gdal_inv im) = window_bounds x0 y0 dx dy (INR 0) (INR 0) (INR nx) (INR ny)).
    { destruct HIM as (_ & _ & HX & HY & _ & HG). unfold gt_world_extent, geotiff_calc_of, gt_pixel_to_lon_lat, set_geot, window_bounds. rewrite HX, HY, HG.
      cbn [gc_geot gc_npix_x gc_npix_y]. cbn [geot_of nth g0 g1 g2 g3 g4 g5 INR]. f_equal; [f_equal; [f_equal|]|]; ring. }
    rewrite EX. assert (HXY := HIM). destruct HXY as (_ & _ & HX & HY & _). rewrite HX, HY.
    destruct (C107_pixels sample im dtype d nx ny nb x0 y0 dx dy 0 0 nx ny nodata HI HN Dx Dy HIM Nb Hx Hy) as (im1 & d1 & E1 & N1 & V1).
    rewrite E1. cbn [snd bind].
    pose proof (lt_INR 0 nx ltac:(lia)) as Px. pose proof (lt_INR 0 ny ltac:(lia)) as Py. cbn [INR] in Px, Py.
    replace (x0 + INR 0 * dx) with x0 in N1 by (cbn [INR]; ring). replace (y0 - INR 0 * dy) with y0 in N1 by (cbn [INR]; ring).
    destruct (IH im1 d1 (INR nx * dx / (INR nx + 1)) (INR ny * dy / (INR ny + 1))) as (im' & d' & E' & N' & V').
    + apply Rdiv_lt_0_compat; nra.
    + apply Rdiv_lt_0_compat; nra.
    + exact N1.
    + intros k r c v Hv. destruct N1 as (_ & S1 & _).
      assert (B : (k < nb)%nat /\ (r < ny)%nat /\ (c < nx)%nat).
      { destruct S1 as (_ & _ & L & F). unfold px in Hv. destruct (nth_error (r_bands d1) k) as [rows|] eqn:EK; [|discriminate].
        rewrite Forall_forall in F. destruct (F _ (nth_error_In _ _ EK)) as [LR FR].
        destruct (nth_error rows r) as [row|] eqn:ER; [|discriminate]. rewrite Forall_forall in FR. pose proof (FR _ (nth_error_In _ _ ER)).
        split; [rewrite <- L; apply nth_error_Some; congruence|]. split; [rewrite <- LR; apply nth_error_Some; congruence|].
        rewrite <- H. apply nth_error_Some. congruence. }
      destruct B as (B1 & B2 & B3). destruct (V1 k r c B1 B2 B3) as [A1 A2].
      destruct (le_dec (c + 3) nx) as [Lc|Lc]; [destruct (le_dec (r + 3) ny) as [Lr|Lr]|].
      * destruct (A1 (conj Lc Lr)) as (u & U1 & U2). rewrite Hv in U2. injection U2 as ->. now rewrite !(HV k _ _ u U1).
      * rewrite A2 in Hv by lia. injection Hv as <-. exact HC.
      * rewrite A2 in Hv by lia. injection Hv as <-. exact HC.
    + exact HC.
    + exists im', d'. split; [exact E'|]. split.
      { replace (dx * (INR nx / (INR nx + 1)) ^ S g) with (INR nx * dx / (INR nx + 1) * (INR nx / (INR nx + 1)) ^ g) by (cbn [pow]; field; lra).
        replace (dy * (INR ny / (INR ny + 1)) ^ S g) with (INR ny * dy / (INR ny + 1) * (INR ny / (INR ny + 1)) ^ g) by (cbn [pow]; field; lra). exact N'. }
      assert (STEP : forall k r c, (k < nb)%nat -> (r < ny)%nat -> (c < nx)%nat ->
        ((c + 3 <= nx /\ r + 3 <= ny)%nat -> px (r_bands d1) r c k = px (r_bands d) (S r) (S c) k) /\
        (~ (c + 3 <= nx /\ r + 3 <= ny)%nat -> px (r_bands d1) r c k = Some (convert dtype nodata))).
      { intros k r c B1 B2 B3. destruct (V1 k r c B1 B2 B3) as [A1 A2]. cbn [Nat.add] in A1, A2. rewrite !Nat.add_1_r in A1. split.
        - intros Q. destruct (A1 Q) as (u & U1 & U2). rewrite U2, U1. now rewrite (HV k _ _ u U1).
        - intros Q. apply A2. exact Q. }
      intros k r c B1 B2 B3. destruct (V' k r c B1 B2 B3) as (G0 & G1 & G2). split; [discriminate|].
      destruct g as [|g].
      * destruct (STEP k r c B1 B2 B3) as [S1 S2]. rewrite (G0 eq_refl). split; intros _ Q.
        -- rewrite S1 by lia. f_equal; lia.
        -- apply S2. lia.
      * split; intros _ Q.
        -- rewrite G1 by lia. destruct (STEP k (r + S g)%nat (c + S g)%nat) as [S1 _]; try lia. rewrite S1 by lia. f_equal; lia.
        -- destruct (le_dec (c + S g + 2) nx) as [Lc|Lc]; [destruct (le_dec (r + S g + 2) ny) as [Lr|Lr]|].
           ++ rewrite G1 by lia. destruct (STEP k (r + S g)%nat (c + S g)%nat) as [_ S2]; try lia. apply S2. lia.
           ++ apply G2; lia.
           ++ apply G2; lia.
Qed.

(** After as many generations as the image has rows or columns, less one, no pixel is left. *)
Theorem C107_all_lost sample (im : geotiff flt D G P) dtype d nx ny nb x0 y0 dx dy nodata g :
  gdal_inverse gdal_inv -> nearest_half_up sample -> 0 < dx -> 0 < dy -> north_up_image im dtype d nx ny nb x0 y0 dx dy -> (0 < nb)%nat ->
  (2 <= nx)%nat -> (2 <= ny)%nat ->
  (forall k r c v, px (r_bands d) r c k = Some v -> convert dtype v = v) -> convert dtype (convert dtype nodata) = convert dtype nodata ->
  (nx <= g + 1 \/ ny <= g + 1)%nat ->
  exists im' d', ortho_generations to_gdal from_gdal file_store wkt_of gdal_inv convert fs sample nodata g im = Ok im' /\ gt_data im' = Some (dtype, d') /\
    forall k r c, (k < nb)%nat -> (r < ny)%nat -> (c < nx)%nat -> px (r_bands d') r c k = Some (convert dtype nodata).
Proof.
  intros HI HN Dx Dy HIM Nb Hx Hy HV HC HG.
  destruct (C107_generations sample im dtype d nx ny nb x0 y0 dx dy nodata g HI HN Dx Dy HIM Nb Hx Hy HV HC) as (im' & d' & E & (N & _) & V).
  exists im', d'. split; [exact E|]. split; [exact N|]. intros k r c B1 B2 B3. destruct (V k r c B1 B2 B3) as (_ & _ & V2). apply V2; lia.
Qed.

(** The ground position the result reports for the pixel that holds the original pixel (row, col):
    too far west and north by at least one original pixel per generation. *)
Theorem C107_drift sample (im : geotiff flt D G P) dtype d nx ny nb x0 y0 dx dy nodata g im' row col :
  gdal_inverse gdal_inv -> nearest_half_up sample -> 0 < dx -> 0 < dy -> north_up_image im dtype d nx ny nb x0 y0 dx dy -> (0 < nb)%nat ->
  (2 <= nx)%nat -> (2 <= ny)%nat ->
  (forall k r c v, px (r_bands d) r c k = Some v -> convert dtype v = v) -> convert dtype (convert dtype nodata) = convert dtype nodata ->
  ortho_generations to_gdal from_gdal file_store wkt_of gdal_inv convert fs sample nodata g im = Ok im' -> (g <= row)%nat -> (g <= col)%nat ->
  let before := gdal_point (gt_geot im) (INR col + 1 / 2) (INR row + 1 / 2) in
  let after := gdal_point (gt_geot im') (INR (col - g) + 1 / 2) (INR (row - g) + 1 / 2) in
  INR g * dx <= fst before - fst after /\ INR g * dy <= snd after - snd before.
Proof.
  intros HI HN Dx Dy HIM Nb Hx Hy HV HC E GR GC.
  destruct (C107_generations sample im dtype d nx ny nb x0 y0 dx dy nodata g HI HN Dx Dy HIM Nb Hx Hy HV HC) as (im2 & d' & E2 & N & _).
  rewrite E in E2. injection E2 as <-. destruct N as (_ & _ & _ & _ & _ & NG). destruct HIM as (_ & _ & _ & _ & _ & HG). cbv zeta.
  rewrite NG, HG. unfold gdal_point. cbn [nth fst snd].
  assert (PQ : forall n, 0 <= (INR n / (INR n + 1)) ^ g <= 1).
  { clear. intros n. pose proof (pos_INR n) as Hn. assert (Q : 0 <= INR n / (INR n + 1) <= 1).
    { split; [apply Rmult_le_pos; [lra|left; apply Rinv_0_lt_compat; lra]|]. apply (Rmult_le_reg_r (INR n + 1)); [lra|]. unfold Rdiv. rewrite Rmult_assoc, Rinv_l by lra. lra. }
    split; [apply pow_le; lra|]. apply (Rle_trans _ (1 ^ g)); [apply pow_incr; lra|rewrite pow1; lra]. }
  destruct (PQ nx) as [A1 A2]. destruct (PQ ny) as [B1 B2]. set (qx := (INR nx / (INR nx + 1)) ^ g) in *. set (qy := (INR ny / (INR ny + 1)) ^ g) in *.
  rewrite !minus_INR by assumption. pose proof (le_INR _ _ GR). pose proof (le_INR _ _ GC). split.
  - assert ((INR col - INR g + 1 / 2) * (dx * qx) <= (INR col - INR g + 1 / 2) * dx) by (apply Rmult_le_compat_l; nra). nra.
  - assert ((INR row - INR g + 1 / 2) * (dy * qy) <= (INR row - INR g + 1 / 2) * dy) by (apply Rmult_le_compat_l; nra). nra.
Qed.
End C107.
Print Assumptions C107_window.
Print Assumptions C107_pixels.
Print Assumptions C107_linear.
Print Assumptions C107_not_loaded.
Print Assumptions C107_generations.
Print Assumptions C107_all_lost.
Print Assumptions C107_drift.

(** The contracts can be met. *)
Definition demo_nearest (data : list (list flt)) (loc : R * R) : flt :=
  match raster_at data (Z.to_nat (Int_part (snd loc + 1 / 2))) (Z.to_nat (Int_part (fst loc + 1 / 2))) with Some v => v | None => Fin 0 end.
Lemma Int_part_nat x n : INR n <= x < INR n + 1 -> Z.to_nat (Int_part x) = n.
Proof.
  intros [A B]. pose proof (Int_part_spec x) as [C D]. rewrite INR_IZR_INZ in A, B.
  assert (IZR (Int_part x) < IZR (Z.of_nat n + 1)) by (rewrite plus_IZR; lra). assert (IZR (Z.of_nat n) < IZR (Int_part x + 1)) by (rewrite plus_IZR; lra).
  apply lt_IZR in H, H0. lia.
Qed.
Example C107_nearest_met : nearest_half_up demo_nearest.
Proof.
  intros data ny nx x y r c v _ _ _ Hc Hr Hv. unfold demo_nearest. cbn [fst snd].
  rewrite (Int_part_nat _ c Hc), (Int_part_nat _ r Hr), Hv. reflexivity.
Qed.
Definition pix (data : list (list flt)) (r c : nat) : R := match raster_at data r c with Some (Fin v) => v | _ => 0 end.
Definition demo_linear (data : list (list flt)) (loc : R * R) : flt :=
  let c := Z.to_nat (Int_part (fst loc)) in let r := Z.to_nat (Int_part (snd loc)) in
  let u := fst loc - INR c in let v := snd loc - INR r in
  Fin ((1 - v) * ((1 - u) * pix data r c + u * pix data r (c + 1)) + v * ((1 - u) * pix data (r + 1) c + u * pix data (r + 1) (c + 1))).
Example C107_bilinear_met : bilinear_between demo_linear.
Proof.
  intros data ny nx r c u v p00 p01 p10 p11 _ Hu Hv H00 H01 H10 H11. unfold demo_linear. cbn [fst snd]. f_equal.
  assert (B : forall n w, 0 <= w <= 1 -> (w < 1 /\ Z.to_nat (Int_part (INR n + w)) = n) \/ (w = 1 /\ Z.to_nat (Int_part (INR n + w)) = (n + 1)%nat)).
  { intros n w Hw. destruct (Rlt_dec w 1) as [L|L].
    - left. split; [exact L|]. apply Int_part_nat. lra.
    - right. assert (w = 1) by lra. subst w. split; [reflexivity|]. apply Int_part_nat. rewrite plus_INR. cbn [INR]. lra. }
  assert (E00 : pix data r c = p00) by (unfold pix; now rewrite H00). assert (E01 : pix data r (c + 1) = p01) by (unfold pix; now rewrite H01).
  assert (E10 : pix data (r + 1) c = p10) by (unfold pix; now rewrite H10). assert (E11 : pix data (r + 1) (c + 1) = p11) by (unfold pix; now rewrite H11).
  destruct (B c u Hu) as [[_ ->]|[-> ->]]; destruct (B r v Hv) as [[_ ->]|[-> ->]]; rewrite ?plus_INR; cbn [INR]; rewrite ?E00, ?E01, ?E10, ?E11; ring_simplify; ring.
Qed.

(** That an image orthorectified over its own extent and size stays as it is: refuted.  A 4 x 4
    image of pixels 10 wide: the value 0 of its upper left pixel becomes 5, the value of the next
    pixel down the diagonal, and the pixel width becomes 8. *)
Definition demo_rows : list (list flt) :=
  [[Fin 0; Fin 1; Fin 2; Fin 3]; [Fin 4; Fin 5; Fin 6; Fin 7]; [Fin 8; Fin 9; Fin 10; Fin 11]; [Fin 12; Fin 13; Fin 14; Fin 15]].
Definition demo_geotiff : geotiff flt unit unit unit :=
  mkGeotiff (Some (tt, mkRaster 4 4 [demo_rows])) None 4 4 1 (Some tt) NoNodata None [100; 10; 0; 200; 0; - 10] tt.
Lemma demo_north_up : north_up_image demo_geotiff tt (mkRaster 4 4 [demo_rows]) 4 4 1 100 200 10 10.
Proof. unfold north_up_image, raster_shape, rect. cbn. repeat split; repeat constructor. Qed.
Theorem C107_unchanged_refuted : exists gi im' d', gdal_inverse gi /\
  ortho_generations (D := unit) (G := unit) (P := unit) (W := unit) Some (fun g => g) (fun _ _ v => v) (fun p => p) gi (fun _ v => v)
    (fun _ => None) demo_nearest (Fin (-1)) 1 demo_geotiff = Ok im' /\
  gt_data im' = Some (tt, d') /\ px [demo_rows] 0 0 0 = Some (Fin 0) /\ px (r_bands d') 0 0 0 = Some (Fin 5) /\
  px [demo_rows] 2 0 0 = Some (Fin 8) /\ px (r_bands d') 2 0 0 = Some (Fin (-1)) /\
  nth 1 (gt_geot demo_geotiff) 0 = 10 /\ nth 1 (gt_geot im') 0 = 8.
Proof.
  destruct C34_contract_met as (gi & HI & _). exists gi.
  destruct (C107_generations unit unit unit unit Some (fun g => g) (fun _ _ v => v) (fun p => p) gi (fun _ v => v) (fun _ => None) demo_nearest
    demo_geotiff tt (mkRaster 4 4 [demo_rows]) 4 4 1 100 200 10 10 (Fin (-1)) 1 HI C107_nearest_met) as (im' & d' & E & N & V); try lra; try lia; try reflexivity.
  - exact demo_north_up.
  - exists im', d'. split; [exact HI|]. split; [exact E|]. destruct N as (N1 & _ & _ & _ & _ & N6). split; [exact N1|]. split; [reflexivity|].
    destruct (V 0%nat 0%nat 0%nat) as (_ & V1 & _); try lia. destruct (V 0%nat 2%nat 0%nat) as (_ & _ & V2); try lia.
    split; [rewrite V1 by lia; reflexivity|]. split; [reflexivity|]. split; [apply V2; lia|]. split; [reflexivity|]. rewrite N6. cbn. field.
Qed.
Print Assumptions C107_unchanged_refuted.
