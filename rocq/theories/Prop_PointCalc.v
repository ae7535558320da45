(** C35 (pointwise projection of arrays), C36 (iterative solver), C37 (ray casting) *)
From Verif Require Import RAux Text M_Nav Spec_Nav P_Nav M_Cameras M_PointCalc Spec_PointCalc P_PointCalc.
Open Scope R_scope.
Open Scope list_scope.

(* ============================== C35 =============================== *)

(** For a sensor and a transform that act on every point by themselves, and every number,
    1-d array or rectangular 2-d array q of points: both results have the shape of q, and
    each element is the sensor's pixel of the corresponding point, reprojected first
    exactly if the world projection's srs differs from the sensor's. *)
Theorem C35_pointwise : forall transform native f g own world band (q : narr point),
  projects_each native f -> transforms_each transform g -> Spec_Nav.rectangular q ->
  exists xs ys,
    lon_lat_alt_to_pixel_x_y transform native own (nmap p_lon q) (nmap p_lat q) (Some (nmap p_alt q)) world band = Ok (xs, ys) /\
    pointwise (fun p x => exists p', in_own_projection g own world p p' /\ x = fst (f p' band)) q xs /\
    pointwise (fun p y => exists p', in_own_projection g own world p p' /\ y = snd (f p' band)) q ys.
Proof.
  intros transform native f g own world band q HN HT HR. eexists. eexists.
  split; [apply (front_end transform native f g own world band q HN HT HR)|].
  split; apply nmap_pointwise; intros p; exists (own_point g own world p); (split; [apply own_point_spec|reflexivity]).
Qed.
Print Assumptions C35_pointwise.

(** Missing altitudes mean 0 and a number means that number everywhere, for every shape. *)
Theorem C35_altitudes : forall transform native own (lons lats : narr flt) world band,
  Spec_Nav.rectangular lons ->
  (forall a, lon_lat_alt_to_pixel_x_y transform native own lons lats (Some (Num a)) world band =
             lon_lat_alt_to_pixel_x_y transform native own lons lats (Some (nmap (fun _ => a) lons)) world band) /\
  lon_lat_alt_to_pixel_x_y transform native own lons lats None world band =
    lon_lat_alt_to_pixel_x_y transform native own lons lats (Some (nmap (fun _ => Fin 0) lons)) world band.
Proof.
  intros transform native own lons lats world band HR.
  assert (G : forall a, lon_lat_alt_to_pixel_x_y transform native own lons lats (Some (Num a)) world band =
             lon_lat_alt_to_pixel_x_y transform native own lons lats (Some (nmap (fun _ => a) lons)) world band).
  { intros a. destruct lons as [x|xs|nx rows], lats as [y|ys|ny' rows']; try reflexivity;
      cbn [nmap lon_lat_alt_to_pixel_x_y flat]; rewrite concat_map_map; reflexivity. }
  split; [exact G|]. rewrite <- G. reflexivity.
Qed.
Print Assumptions C35_altitudes.

(** 2-d longitudes with latitudes or altitudes of another size raise ValueError. *)
Theorem C35_size_mismatch : forall transform native own nx rows lats alts world band,
  Forall (fun r => length r = nx) rows -> (forall x, lats <> Num x) -> (forall x, alts <> Num x) ->
  length (elements lats) <> length (concat rows) \/ length (elements alts) <> length (concat rows) ->
  lon_lat_alt_to_pixel_x_y transform native own (Mat nx rows) lats (Some alts) world band = Err ValueError.
Proof.
  intros transform native own nx rows lats alts world band HR Hl Ha H. pose proof (concat_length_rect nx rows HR) as L.
  assert (EF : forall a : narr flt, flat a = elements a) by (intros []; reflexivity).
  assert (R : reshape1 (nx * length rows) (concat rows) = Ok (concat rows)).
  { unfold reshape1. rewrite L, Nat.mul_comm, Nat.eqb_refl. reflexivity. }
  assert (B : forall a : narr flt, length (elements a) <> length (concat rows) -> reshape1 (nx * length rows) (flat a) = Err ValueError).
  { intros a Hn. unfold reshape1. rewrite EF. destruct (Nat.eqb_spec (length (elements a)) (nx * length rows)); [lia|reflexivity]. }
  cbn [lon_lat_alt_to_pixel_x_y].
  assert (EA : match alts with Num a => map (fun _ : flt => a) (concat rows) | _ => flat alts end = flat alts).
  { destruct alts; [exfalso; eapply Ha; reflexivity| |]; reflexivity. }
  destruct lats as [x|ys|nx' rows']; [exfalso; eapply Hl; reflexivity| |]; cbn [bind]; rewrite R; cbn [bind].
  - destruct H as [H|H]; [rewrite (B _ H); reflexivity|]. unfold reshape1 at 1. destruct (Nat.eqb _ _); [|reflexivity].
    cbn [bind]. rewrite EA, (B _ H). reflexivity.
  - destruct H as [H|H]; [rewrite (B _ H); reflexivity|]. unfold reshape1 at 1. destruct (Nat.eqb _ _); [|reflexivity].
    cbn [bind]. rewrite EA, (B _ H). reflexivity.
Qed.
Print Assumptions C35_size_mismatch.

(** Two numbers give two numbers, whatever the altitudes: the sensor is asked about the one
    position and the first element of each of its answers is returned. *)
Theorem C35_numbers : forall transform native own lon lat alts a1 x xs y ys,
  match alts with None => a1 = [Fin 0] | Some (Num a) => a1 = [a] | Some (Vec l) => a1 = l | Some (Mat _ _) => False end ->
  native [lon] [lat] a1 None = Ok (x :: xs, y :: ys) ->
  lon_lat_alt_to_pixel_x_y transform native own (Num lon) (Num lat) alts None None = Ok (Num x, Num y).
Proof.
  intros transform native own lon lat alts a1 x xs y ys HA HN. unfold lon_lat_alt_to_pixel_x_y, project_1d.
  rewrite text_eqb_refl. destruct alts as [[a|l|nx rows]|]; cbn [bind]; try contradiction; subst a1; rewrite HN; reflexivity.
Qed.
Print Assumptions C35_numbers.

(** The hypotheses are met: the geotiff calculator, a transform, a 2-d array. *)
Example C35_met :
  let h := mkGeot 5 2 0 7 0 (-2) in
  let pt p := match p_lon p, p_lat p with Fin x, Fin y => (Fin (g0 h + g1 h * x + g2 h * y), Fin (g3 h + g4 h * x + g5 h * y)) | _, _ => (NonFinite, NonFinite) end in
  let native : native_fn := fun lons lats alts band =>
    Ok (map2 (fun x y => fst (pt (mkPoint x y NonFinite))) lons lats, map2 (fun x y => snd (pt (mkPoint x y NonFinite))) lons lats) in
  let transform : transform_fn := fun _ _ lons lats alts => (map (fmap (Rplus 1)) lons, lats, alts) in
  projects_each native (fun p _ => pt p) /\
  transforms_each transform (fun _ _ p => mkPoint (fmap (Rplus 1) (p_lon p)) (p_lat p) (p_alt p)) /\
  Spec_Nav.rectangular (Mat 2 [[mkPoint (Fin 1) (Fin 2) (Fin 3); mkPoint (Fin 4) (Fin 5) (Fin 6)]]).
Proof.
  intros h pt native transform. split; [|split].
  - intros pts band. unfold native. rewrite !map2_map. reflexivity.
  - intros a b pts. unfold transform. rewrite map_map. reflexivity.
  - repeat constructor.
Qed.

(* ============================== C36 =============================== *)

(** Whatever the sensor: the answer is the n-th Newton iterate of all pixels with
    n <= max_iter; no earlier one met the threshold, and unless all max_iter rounds were
    used every answer reprojects to its pixel within the threshold. *)
Theorem C36_stops : forall pix c deltas threshold max_iter qs ps,
  qs <> [] -> solver pix (Some c) deltas threshold max_iter qs = Ok ps ->
  exists d_lon d_lat n,
    let iterate m := Nat.iter m (map2 (newton pix d_lon d_lat) qs) (map (fun _ => (Fin (fst c), Fin (snd c))) qs) in
    (n <= max_iter)%nat /\ ps = iterate n /\
    ((n < max_iter)%nat -> Forall2 (hits pix threshold) qs ps) /\
    (forall m, (1 <= m < n)%nat -> ~ Forall2 (hits pix threshold) qs (iterate m)).
Proof.
  intros pix [clon clat] deltas threshold max_iter qs ps Hne H. unfold solver in H.
  assert (E : exists d, solve_loop pix (fst d) (snd d) threshold qs max_iter (map (fun _ => (Fin clon, Fin clat)) qs) = Ok ps).
  { destruct deltas as [d|]; [exists d; exact H|]. destruct (choose_deltas pix clon clat _) as [d| |]; try discriminate. exists d. exact H. }
  destruct E as ([d1 d2] & E). cbn [fst snd] in E.
  destruct (solve_loop_spec pix d1 d2 threshold qs Hne max_iter (map (fun _ => (Fin clon, Fin clat)) qs) ltac:(rewrite map_length; reflexivity))
    as (n & Hn & E2 & HD & HM).
  rewrite E2 in E. injection E as <-. exists d1, d2, n. cbn [fst snd].
  split; [exact Hn|]. split; [reflexivity|]. split; [|exact HM].
  intros L. destruct HD as [->|HD]; [lia|exact HD].
Qed.
Print Assumptions C36_stops.

(** A sensor that is affine and invertible at every requested altitude with a non-zero
    x-slope in longitude is solved exactly, in one round, from every centre: with the
    chosen step sizes if the sensor moves by more than a pixel within the range of floats,
    and with every non-zero step sizes. *)
Theorem C36_affine : forall a pix c deltas threshold max_iter qs,
  affine_sensor a pix -> qs <> [] -> 0 <= threshold -> (1 <= max_iter)%nat ->
  (forall q, In q qs -> invertible_at a (rq_alt q) /\ f_xlon a (rq_alt q) <> 0) ->
  match deltas with
  | Some d => fst d <> 0 /\ snd d <> 0
  | None => let alt := rsum (map rq_alt qs) / INR (length qs) in
      1 < (f_xlon a alt * f_xlon a alt + f_ylon a alt * f_ylon a alt) * (2 ^ 1073 / 2 ^ 52) ^ 2 /\
      1 < (f_xlat a alt * f_xlat a alt + f_ylat a alt * f_ylat a alt) * (2 ^ 1073 / 2 ^ 52) ^ 2
  end ->
  exists ps, solver pix (Some c) deltas threshold max_iter qs = Ok ps /\
    Forall2 (fun q p => exists lon lat, p = (Fin lon, Fin lat) /\
      pix (Fin lon) (Fin lat) (Fin (rq_alt q)) = (Fin (rq_x q), Fin (rq_y q))) qs ps.
Proof.
  intros a pix [clon clat] deltas threshold max_iter qs HA Hne Hth Hmax HQ HD.
  assert (ED : exists d, match deltas with Some d => Ok d | None => choose_deltas pix clon clat (fdiv (rsum (map rq_alt qs)) (INR (length qs))) end = Ok d
     /\ fst d <> 0 /\ snd d <> 0).
  { destruct deltas as [d|]; [exists d; auto|]. cbv zeta in HD. destruct HD as [D1 D2].
    assert (HL : INR (length qs) <> 0) by (apply not_0_INR; destruct qs; [congruence|discriminate]).
    rewrite (fdiv_nz _ _ HL), (affine_shifts a pix clon clat _ HA).
    destruct (first_shift_ok (fun n => (Fin (f_xlon a (rsum (map rq_alt qs) / INR (length qs)) * n), Fin (f_ylon a (rsum (map rq_alt qs) / INR (length qs)) * n)))
      _ _ (fun n => eq_refl) D1) as (n1 & -> & P1).
    destruct (first_shift_ok (fun n => (Fin (f_xlat a (rsum (map rq_alt qs) / INR (length qs)) * n), Fin (f_ylat a (rsum (map rq_alt qs) / INR (length qs)) * n)))
      _ _ (fun n => eq_refl) D2) as (n2 & -> & P2).
    exists (n1, n2). cbn. repeat split; lra. }
  destruct ED as ([d1 d2] & ED & N1 & N2). cbn [fst snd] in N1, N2. clear HD.
  unfold solver. rewrite ED. cbn [bind fst snd]. clear ED.
  set (ps := map (fun _ => (Fin clon, Fin clat)) qs).
  assert (X : Forall2 (fun q p => exists lon lat, p = (Fin lon, Fin lat) /\
      pix (Fin lon) (Fin lat) (Fin (rq_alt q)) = (Fin (rq_x q), Fin (rq_y q))) qs (map2 (newton pix d1 d2) qs ps)).
  { unfold ps. clear Hne ps. induction qs as [|q qs IH]; [constructor|]. cbn [map map2]. constructor.
    - destruct (HQ q (or_introl eq_refl)) as [I1 I2].
      destruct (newton_affine a pix d1 d2 q clon clat HA N1 N2 I1 I2) as (lon & lat & -> & E). exists lon, lat. auto.
    - apply IH. intros q' Hq'. apply HQ. right. exact Hq'. }
  exists (map2 (newton pix d1 d2) qs ps). split; [|exact X].
  destruct max_iter as [|m]; [lia|]. cbn [solve_loop].
  assert (HL : length qs = length (map2 (newton pix d1 d2) qs ps)) by (apply (Forall2_length _ _ _ X)).
  destruct (converged_ok pix threshold qs _ HL Hne) as (b & -> & Hb).
  assert (B : b = true).
  { apply Hb. eapply Forall2_impl; [|exact X]. cbv beta. intros q p (lon & lat & -> & E). exists (rq_x q), (rq_y q). cbn [fst snd].
    split; [exact E|]. rewrite !Rminus_diag_eq by reflexivity. rewrite Rabs_R0. auto. }
  rewrite B. reflexivity.
Qed.
Print Assumptions C36_affine.

(** The solver converges for every sensor that is close enough to an affine one: where it
    deviates from a linear map by at most L per unit of distance, the map moves the pixel by
    at least m > 3 L, and the area reaches far enough around the centre, every round divides
    the error by at least (m - L) / (2 L).  After n rounds the answers hit their pixels within
    the threshold, stay inside the area, and lie within threshold / (m - L) of any point of the
    area seen exactly at the pixel asked for. *)
Theorem C36_converges : forall pix c d threshold max_iter n qs rad L m r0,
  qs <> [] -> fst d <> 0 -> snd d <> 0 -> 0 <= L -> 3 * L < m -> 0 <= r0 ->
  r0 / (m - 3 * L) + Rabs (fst d) <= rad -> r0 / (m - 3 * L) + Rabs (snd d) <= rad ->
  (forall q, In q qs -> exists sx sy, nearly_affine pix (rq_alt q) c rad sx sy L /\ steep sx sy m /\ L < Rabs (fst sx)) ->
  Forall (fun q => hits pix r0 q (Fin (fst c), Fin (snd c))) qs ->
  (n <= max_iter)%nat -> (2 * L / (m - L)) ^ n * r0 <= threshold ->
  exists ps, solver pix (Some c) (Some d) threshold max_iter qs = Ok ps /\ Forall2 (hits pix threshold) qs ps /\
    Forall2 (fun q p => exists lon lat, p = (Fin lon, Fin lat) /\ within c (r0 / (m - 3 * L)) lon lat /\
      forall lon0 lat0, within c rad lon0 lat0 ->
        pix (Fin lon0) (Fin lat0) (Fin (rq_alt q)) = (Fin (rq_x q), Fin (rq_y q)) ->
        Rabs (lon - lon0) + Rabs (lat - lat0) <= threshold / (m - L)) qs ps.
Proof.
  intros pix c d threshold max_iter n qs rad L m r0 Hne D1 D2 HL0 HLm Hr T1 T2 HQ HH Hn HT.
  set (c0 := map (fun _ : request => (Fin (fst c), Fin (snd c))) qs).
  assert (HC : length qs = length c0) by (unfold c0; rewrite map_length; reflexivity).
  destruct (solve_loop_spec pix (fst d) (snd d) threshold qs Hne max_iter c0 HC) as (k & Hk & E & HD & _).
  set (rho := 2 * L / (m - L)) in *.
  assert (R0 : 0 <= rho). { unfold rho. apply Rmult_le_pos; [lra|]. left. apply Rinv_0_lt_compat. lra. }
  assert (R1 : rho <= 1).
  { unfold rho. apply (Rmult_le_reg_r (m - L)); [lra|]. replace (2 * L / (m - L) * (m - L)) with (2 * L) by (field; lra). lra. }
  assert (K : forall j q, nth_error qs j = Some q -> exists lon lat,
     nth_error (Nat.iter k (sweep pix (fst d) (snd d) qs) c0) j = Some (Fin lon, Fin lat) /\
     within c (r0 / (m - 3 * L)) lon lat /\ hits pix (rho ^ k * r0) q (Fin lon, Fin lat)).
  { intros j q Hq. pose proof (nth_error_In _ _ Hq) as HI. destruct (HQ q HI) as (sx & sy & HN & HS & HX).
    rewrite Forall_forall in HH.
    destruct (newton_iter_near pix c rad sx sy L m (fst d) (snd d) q r0 HN HS HX HL0 HLm D1 D2 Hr T1 T2 (HH q HI) k) as (lon & lat & EI & W & HI2).
    exists lon, lat. split.
    - rewrite (sweep_iter_nth pix (fst d) (snd d) qs c0 j q (Fin (fst c), Fin (snd c)) HC Hq); [rewrite EI; reflexivity|].
      unfold c0. rewrite nth_error_map, Hq. reflexivity.
    - split; [|exact HI2]. fold rho in W. unfold within in *. eapply Rle_trans; [exact W|]. pose proof (pow_le rho k R0).
      unfold Rdiv. apply Rmult_le_compat_r; [left; apply Rinv_0_lt_compat; lra|]. nra. }
  set (ps := Nat.iter k (sweep pix (fst d) (snd d) qs) c0) in *.
  assert (LP : length ps = length qs) by (apply iter_length; exact HC).
  assert (HF : Forall2 (hits pix threshold) qs ps).
  { destruct HD as [EK|HD]; [|exact HD]. apply Forall2_nth_iff. split; [symmetry; exact LP|]. intros j q p Hq Hp.
    destruct (K j q Hq) as (lon & lat & EJ & _ & (x & y & EP & HX & HY)). rewrite EJ in Hp. injection Hp as <-.
    exists x, y. split; [exact EP|].
    assert (rho ^ k * r0 <= threshold).
    { eapply Rle_trans; [|exact HT]. apply Rmult_le_compat_r; [exact Hr|]. rewrite EK.
      replace max_iter with (n + (max_iter - n))%nat by lia. rewrite pow_add.
      pose proof (pow_le rho n R0). assert (rho ^ (max_iter - n) <= 1) by (apply pow_le_1; assumption).
      nra. }
    split; lra. }
  exists ps. split; [|split; [exact HF|]].
  - unfold solver. destruct c as [clon clat]. cbn [bind]. exact E.
  - apply Forall2_nth_iff. split; [symmetry; exact LP|]. intros j q p Hq Hp.
    destruct (K j q Hq) as (lon & lat & EJ & W & _). rewrite EJ in Hp. injection Hp as <-.
    exists lon, lat. split; [reflexivity|]. split; [exact W|]. intros lon0 lat0 W0 E0.
    pose proof (proj2 (proj1 (Forall2_nth_iff _ _ _) HF) j q _ Hq EJ) as (x & y & EP & HX & HY). cbn [fst snd] in EP.
    destruct (HQ q (nth_error_In _ _ Hq)) as (sx & sy & (fx & fy & HFF & HLL) & HS & _).
    assert (WR : within c rad lon lat) by (unfold within in *; pose proof (Rabs_pos (fst d)); lra).
    rewrite (HFF _ _ WR) in EP. rewrite (HFF _ _ W0) in E0. injection EP as <- <-. injection E0 as E0x E0y.
    destruct (HLL _ _ _ _ W0 WR) as [B1 B2]. specialize (HS (lon - lon0) (lat - lat0)).
    set (D := Rabs (lon - lon0) + Rabs (lat - lat0)) in *.
    apply (Rmult_le_reg_l (m - L)); [lra|]. replace ((m - L) * (threshold / (m - L))) with threshold by (field; lra).
    assert (C1 : Rabs (fst sx * (lon - lon0) + snd sx * (lat - lat0)) <= threshold + L * D).
    { replace (fst sx * (lon - lon0) + snd sx * (lat - lat0)) with
       (- (rq_x q - fx lon lat) + - (fx lon lat - fx lon0 lat0 - (fst sx * (lon - lon0) + snd sx * (lat - lat0)))) by (rewrite E0x; ring).
      eapply Rle_trans; [apply Rabs_triang|]. rewrite !Rabs_Ropp. lra. }
    assert (C2 : Rabs (fst sy * (lon - lon0) + snd sy * (lat - lat0)) <= threshold + L * D).
    { replace (fst sy * (lon - lon0) + snd sy * (lat - lat0)) with
       (- (rq_y q - fy lon lat) + - (fy lon lat - fy lon0 lat0 - (fst sy * (lon - lon0) + snd sy * (lat - lat0)))) by (rewrite E0y; ring).
      eapply Rle_trans; [apply Rabs_triang|]. rewrite !Rabs_Ropp. lra. }
    pose proof (Rmax_lub _ _ _ C1 C2). lra.
Qed.
Print Assumptions C36_converges.

(** Any positive threshold is met if enough rounds are allowed. *)
Theorem C36_converges_eventually : forall pix c d threshold qs rad L m r0,
  qs <> [] -> fst d <> 0 -> snd d <> 0 -> 0 <= L -> 3 * L < m -> 0 <= r0 ->
  r0 / (m - 3 * L) + Rabs (fst d) <= rad -> r0 / (m - 3 * L) + Rabs (snd d) <= rad ->
  (forall q, In q qs -> exists sx sy, nearly_affine pix (rq_alt q) c rad sx sy L /\ steep sx sy m /\ L < Rabs (fst sx)) ->
  Forall (fun q => hits pix r0 q (Fin (fst c), Fin (snd c))) qs -> 0 < threshold ->
  exists n, forall max_iter, (n <= max_iter)%nat ->
  exists ps, solver pix (Some c) (Some d) threshold max_iter qs = Ok ps /\ Forall2 (hits pix threshold) qs ps.
Proof.
  intros pix c d threshold qs rad L m r0 Hne D1 D2 HL0 HLm Hr T1 T2 HQ HH HT.
  assert (R0 : 0 <= 2 * L / (m - L)). { apply Rmult_le_pos; [lra|]. left. apply Rinv_0_lt_compat. lra. }
  assert (R1 : 2 * L / (m - L) < 1).
  { apply (Rmult_lt_reg_r (m - L)); [lra|]. replace (2 * L / (m - L) * (m - L)) with (2 * L) by (field; lra). lra. }
  assert (HP : 0 < threshold / (r0 + 1)) by (apply Rdiv_lt_0_compat; lra).
  destruct (pow_lt_1_zero (2 * L / (m - L)) ltac:(rewrite Rabs_pos_eq; lra) _ HP) as (n & HN).
  specialize (HN n (le_n n)). rewrite Rabs_pos_eq in HN by (apply pow_le; exact R0).
  exists n. intros max_iter Hm.
  destruct (C36_converges pix c d threshold max_iter n qs rad L m r0 Hne D1 D2 HL0 HLm Hr T1 T2 HQ HH Hm) as (ps & E & F & _).
  - pose proof (pow_le (2 * L / (m - L)) n R0) as P0. set (w := (2 * L / (m - L)) ^ n) in *. clearbody w.
    assert (w * (r0 + 1) < threshold).
    { apply (Rmult_lt_compat_r (r0 + 1)) in HN; [|lra]. unfold Rdiv in HN. rewrite Rmult_assoc, Rinv_l, Rmult_1_r in HN by lra. exact HN. }
    nra.
  - exists ps. split; assumption.
Qed.
Print Assumptions C36_converges_eventually.

(** The step sizes the solver chooses by itself: the first powers of two, from 2^-52 on, by
    which the centre has to be moved east and north for the pixel to move by more than one, if the
    sensor is finite at every trial shift to the east. *)
Theorem C36_default_steps : forall pix c threshold max_iter qs x0 y0 i j, qs <> [] ->
  let alt := Fin (rsum (map rq_alt qs) / INR (length qs)) in
  let moved n_lon n_lat s := exists x y, pix (Fin (fst c + n_lon)) (Fin (snd c + n_lat)) alt = (Fin x, Fin y) /\
                               s = (x - x0) * (x - x0) + (y - y0) * (y - y0) in
  pix (Fin (fst c)) (Fin (snd c)) alt = (Fin x0, Fin y0) ->
  (forall k, (k < 1074)%nat -> fst (pix (Fin (fst c + 2 ^ k / 2 ^ 52)) (Fin (snd c)) alt) <> NonFinite) ->
  (i < 1074)%nat -> (exists s, moved (2 ^ i / 2 ^ 52) 0 s /\ 1 < s) -> (forall k s, (k < i)%nat -> moved (2 ^ k / 2 ^ 52) 0 s -> s <= 1) ->
  (j < 1074)%nat -> (exists s, moved 0 (2 ^ j / 2 ^ 52) s /\ 1 < s) -> (forall k s, (k < j)%nat -> moved 0 (2 ^ k / 2 ^ 52) s -> s <= 1) ->
  solver pix (Some c) None threshold max_iter qs
  = solver pix (Some c) (Some (2 ^ i / 2 ^ 52, 2 ^ j / 2 ^ 52)) threshold max_iter qs.
Proof.
  intros pix [clon clat] threshold max_iter qs x0 y0 i j Hne alt moved E0 HF Hi Hm1 Hm2 Hj Hm3 Hm4.
  cbn [fst snd] in *. unfold solver.
  assert (HL : INR (length qs) <> 0) by (apply not_0_INR; destruct qs; [congruence|discriminate]).
  rewrite (fdiv_nz _ _ HL). fold alt. unfold choose_deltas. rewrite E0.
  replace (existsb _ float_nums) with false.
  2: { symmetry. apply Bool.not_true_is_false. intros HE. apply existsb_exists in HE. destruct HE as (n & HI & HE).
       unfold float_nums in HI. apply in_map_iff in HI. destruct HI as (k & <- & Hk). apply in_seq in Hk. specialize (HF k ltac:(lia)).
       destruct (pix (Fin (clon + 2 ^ k / 2 ^ 52)) (Fin clat) alt) as [[x|] y]; [discriminate|]. apply HF. reflexivity. }
  unfold moved in *.
  rewrite (first_shift_at _ i Hi).
  - cbn [bind]. rewrite (first_shift_at _ j Hj); [reflexivity| |].
    + destruct Hm3 as (s & (x & y & E & ->) & G). rewrite ?Rplus_0_r in E. rewrite E. exists (x - x0), (y - y0). split; [reflexivity|exact G].
    + intros k Hk dx dy Ek. destruct (pix (Fin clon) (Fin (clat + 2 ^ k / 2 ^ 52)) alt) as [[x|] [y|]] eqn:Ep; try discriminate.
      injection Ek as <- <-. apply (Hm4 k _ Hk). exists x, y. rewrite Rplus_0_r. split; [exact Ep|reflexivity].
  - destruct Hm1 as (s & (x & y & E & ->) & G). rewrite ?Rplus_0_r in E. rewrite E. exists (x - x0), (y - y0). split; [reflexivity|exact G].
  - intros k Hk dx dy Ek. destruct (pix (Fin (clon + 2 ^ k / 2 ^ 52)) (Fin clat) alt) as [[x|] [y|]] eqn:Ep; try discriminate.
    injection Ek as <- <-. apply (Hm2 k _ Hk). exists x, y. rewrite ?Rplus_0_r. split; [exact Ep|reflexivity].
Qed.
Print Assumptions C36_default_steps.

(** A perspective sensor meets the hypotheses of the convergence theorems: x is divided by a
    depth that grows with x.  Seven rounds reach a millionth of a pixel. *)
Definition perspective : pixel_fn := fun lon lat alt =>
  match lon, lat, alt with
  | Fin x, Fin y, Fin _ => (fdiv x (1 + x / 100), Fin y)
  | _, _, _ => (NonFinite, NonFinite)
  end.
Example C36_converges_met :
  nearly_affine perspective 0 (0, 0) 1 (1, 0) (0, 1) (3 / 100) /\ steep (1, 0) (0, 1) (1 / 2) /\
  hits perspective (3 / 10) (mkRequest (3 / 10) (- 1 / 5) 0) (Fin 0, Fin 0) /\
  (3 / 10) / (1 / 2 - 3 * (3 / 100)) + Rabs (1 / 8) <= 1 /\
  (2 * (3 / 100) / (1 / 2 - 3 / 100)) ^ 7 * (3 / 10) <= / 1000000.
Proof.
  assert (B : forall x y, within (0, 0) 1 x y -> -1 <= x <= 1).
  { intros x y H. unfold within in H. cbn [fst snd] in H. rewrite !Rminus_0_r in H. pose proof (Rabs_pos y).
    pose proof (Rle_abs x). pose proof (Rle_abs (- x)) as G. rewrite Rabs_Ropp in G. lra. }
  split; [|split; [|split; [|split]]].
  - exists (fun x y => x / (1 + x / 100)), (fun _ y => y). split.
    + intros x y H. cbn [perspective]. rewrite fdiv_nz; [reflexivity|]. apply B in H. lra.
    + intros x y x' y' H H'. apply B in H. apply B in H'. cbn [fst snd].
      pose proof (Rabs_pos (x' - x)) as A1. pose proof (Rabs_pos (y' - y)) as A2. split.
      * replace (x' / (1 + x' / 100) - x / (1 + x / 100) - (1 * (x' - x) + 0 * (y' - y)))
          with ((/ ((1 + x' / 100) * (1 + x / 100)) - 1) * (x' - x)) by (field; lra).
        rewrite Rabs_mult.
        assert (HB : Rabs (/ ((1 + x' / 100) * (1 + x / 100)) - 1) <= 3 / 100).
        { set (t := (1 + x' / 100) * (1 + x / 100)). assert (Ht : 98 / 100 <= t <= 103 / 100) by (unfold t; nra).
          clearbody t. assert (0 < / t) by (apply Rinv_0_lt_compat; lra).
          assert (t * / t = 1) by (apply Rinv_r; lra). apply Rabs_le. nra. }
        eapply Rle_trans; [apply Rmult_le_compat_r; [exact A1|exact HB]|]. lra.
      * replace (y' - y - (0 * (x' - x) + 1 * (y' - y))) with 0 by ring. rewrite Rabs_R0. lra.
  - intros u v. cbn [fst snd]. replace (1 * u + 0 * v) with u by ring. replace (0 * u + 1 * v) with v by ring.
    pose proof (Rmax_l (Rabs u) (Rabs v)). pose proof (Rmax_r (Rabs u) (Rabs v)). lra.
  - exists 0, 0. cbn [fst snd perspective rq_alt rq_x rq_y]. rewrite fdiv_nz by lra. split; [f_equal; f_equal; field|].
    split; rewrite Rminus_0_r; [rewrite Rabs_pos_eq; lra|rewrite Rabs_left; lra].
  - rewrite Rabs_pos_eq by lra. lra.
  - replace (2 * (3 / 100) / (1 / 2 - 3 / 100)) with (6 / 47) by field. lra.
Qed.

(** With x-slope zero the returned longitude is not a number, for every sensor that is
    affine, however many rounds are made. *)
Theorem C36_zero_slope : forall a pix c d threshold max_iter qs ps k q p,
  affine_sensor a pix -> fst d <> 0 -> (1 <= max_iter)%nat ->
  solver pix (Some c) (Some d) threshold max_iter qs = Ok ps ->
  nth_error qs k = Some q -> nth_error ps k = Some p -> f_xlon a (rq_alt q) = 0 -> fst p = NonFinite.
Proof.
  intros a pix [clon clat] [d1 d2] threshold max_iter qs ps k q p HA Hd Hm HS Hq Hp HX. cbn [fst] in Hd.
  unfold solver in HS. cbn [bind fst snd] in HS.
  assert (Hne : qs <> []) by (intros ->; destruct k; discriminate).
  assert (HL0 : length qs = length (map (fun _ : request => (Fin clon, Fin clat)) qs)) by (rewrite map_length; reflexivity).
  destruct max_iter as [|m]; [lia|]. cbn [solve_loop] in HS.
  set (ps1 := map2 (newton pix d1 d2) qs (map (fun _ => (Fin clon, Fin clat)) qs)) in *.
  assert (HL1 : length qs = length ps1) by (unfold ps1; rewrite map2_length, map_length; lia).
  assert (G1 : forall ps' p', length qs = length ps' -> nth_error (map2 (newton pix d1 d2) qs ps') k = Some p' -> fst p' = NonFinite).
  { intros ps' p' HL' Hp'.
    assert (Hk : (k < length qs)%nat) by (apply nth_error_Some; congruence).
    destruct (nth_error ps' k) as [[lo la]|] eqn:E; [|apply nth_error_None in E; lia].
    rewrite (map2_nth _ _ _ _ _ _ Hq E) in Hp'. injection Hp' as <-. eapply newton_zero_slope; eauto. }
  destruct (converged_ok pix threshold qs ps1 HL1 Hne) as (b & Eb & _). rewrite Eb in HS. cbn [bind] in HS. destruct b.
  - injection HS as <-. eapply G1; [|exact Hp]. exact HL0.
  - destruct (solve_loop_spec pix d1 d2 threshold qs Hne m ps1 HL1) as (n & _ & E & _). rewrite E in HS. injection HS as <-.
    destruct n as [|n]; [eapply G1; [|exact Hp]; exact HL0|].
    eapply G1; [|exact Hp]. symmetry. apply iter_length. exact HL1.
Qed.
Print Assumptions C36_zero_slope.

(** So the property fails: the sensor with pixel (lat, lon) can be inverted everywhere. *)
Theorem C36_refuted : exists a pix, affine_sensor a pix /\ (forall alt, invertible_at a alt) /\
  forall c d threshold max_iter q ps, fst d <> 0 -> (1 <= max_iter)%nat ->
    solver pix (Some c) (Some d) threshold max_iter [q] = Ok ps -> exists lat, ps = [(NonFinite, lat)].
Proof.
  exists (mkAffine (fun _ => 0) (fun _ => 0) (fun _ => 1) (fun _ => 0) (fun _ => 1) (fun _ => 0)).
  exists (fun lon lat alt => match lon, lat, alt with Fin x, Fin y, Fin _ => (Fin (0 + 0 * x + 1 * y), Fin (0 + 1 * x + 0 * y)) | _, _, _ => (NonFinite, NonFinite) end).
  match goal with |- affine_sensor ?a ?p /\ _ => assert (HA : affine_sensor a p) end.
  { split; [reflexivity|]. intros [x|] [y|] [z|] [H|[H|H]]; (discriminate || reflexivity). }
  split; [exact HA|]. split; [intros alt; unfold invertible_at; cbn; lra|].
  intros c d threshold max_iter q ps Hd Hm H.
  assert (L : length ps = 1%nat).
  { assert (Hq : [q] <> []) by discriminate. destruct (C36_stops _ _ _ _ _ _ _ Hq H) as (d1 & d2 & n & _ & E & _). rewrite E.
    apply (iter_length _ d1 d2 [q] _ n). reflexivity. }
  destruct ps as [|[lon lat] [|? ?]]; try discriminate. exists lat. f_equal. f_equal.
  apply (C36_zero_slope _ _ _ _ _ _ _ _ 0 q (lon, lat) HA Hd Hm H eq_refl eq_refl eq_refl).
Qed.
Print Assumptions C36_refuted.

(** A sensor that does not react to longitude or to latitude at all at the average altitude
    raises IndexError when the step sizes are to be chosen. *)
Theorem C36_no_step : forall a pix c threshold max_iter qs,
  affine_sensor a pix -> qs <> [] ->
  (let alt := rsum (map rq_alt qs) / INR (length qs) in f_xlon a alt = 0 /\ f_ylon a alt = 0) ->
  solver pix (Some c) None threshold max_iter qs = Err IndexError.
Proof.
  intros a pix [clon clat] threshold max_iter qs HA Hne [H1 H2]. unfold solver.
  assert (HL : INR (length qs) <> 0) by (apply not_0_INR; destruct qs; [congruence|discriminate]).
  rewrite (fdiv_nz _ _ HL), (affine_shifts a pix clon clat _ HA), first_shift_zero; [reflexivity|].
  intros n. rewrite H1, H2, !Rmult_0_l. reflexivity.
Qed.
Print Assumptions C36_no_step.

(** If the sensor's pixel is not finite after one of the trial shifts in longitude (or at
    the centre), both step sizes are 2. *)
Theorem C36_nan_steps : forall pix c threshold max_iter qs k, qs <> [] -> (k < 1074)%nat ->
  (let alt := Fin (rsum (map rq_alt qs) / INR (length qs)) in
   fst (pix (Fin (fst c) ) (Fin (snd c)) alt) = NonFinite \/
   fst (pix (Fin (fst c + 2 ^ k / 2 ^ 52)) (Fin (snd c)) alt) = NonFinite) ->
  solver pix (Some c) None threshold max_iter qs = solver pix (Some c) (Some (2, 2)) threshold max_iter qs.
Proof.
  intros pix [clon clat] threshold max_iter qs k Hne Hk H. cbn [fst snd] in H. unfold solver.
  assert (HL : INR (length qs) <> 0) by (apply not_0_INR; destruct qs; [congruence|discriminate]).
  rewrite (fdiv_nz _ _ HL). set (alt := Fin (rsum (map rq_alt qs) / INR (length qs))) in *. unfold choose_deltas.
  destruct (pix (Fin clon) (Fin clat) alt) as [x0 y0] eqn:E0.
  assert (EX : existsb (fun n => is_nan (fst (let '(x, y) := pix (Fin (clon + n)) (Fin clat) alt in (fsub x x0, fsub y y0)))) float_nums = true).
  { apply existsb_exists. exists (2 ^ k / 2 ^ 52). split.
    - unfold float_nums. apply in_map_iff. exists k. split; [reflexivity|]. apply in_seq. lia.
    - destruct (pix (Fin (clon + 2 ^ k / 2 ^ 52)) (Fin clat) alt) as [x y]. cbn [fst] in *.
      destruct H as [-> | ->]; [destruct x|]; reflexivity. }
  rewrite EX. reflexivity.
Qed.
Print Assumptions C36_nan_steps.

(** A calculator without an approximate centre raises TypeError. *)
Theorem C36_no_center : forall pix deltas threshold max_iter qs, solver pix None deltas threshold max_iter qs = Err TypeError.
Proof. reflexivity. Qed.
Print Assumptions C36_no_center.

(** Without pixels a positive number of rounds raises ValueError. *)
Theorem C36_empty : forall pix c d threshold max_iter, (1 <= max_iter)%nat ->
  solver pix (Some c) (Some d) threshold max_iter [] = Err ValueError.
Proof. intros pix [? ?] d threshold [|m] H; [lia|]. reflexivity. Qed.
Print Assumptions C36_empty.

(** The answer is reprojected exactly when the world projection's srs differs; a native
    inverse is used when there is one. *)
Theorem C36_projection : forall transform2 native pix own center threshold max_iter qs ps world,
  match native with Some f => f qs | None => solver pix center None threshold max_iter qs end = Ok ps ->
  (match world with None => True | Some w => srs w = srs own end ->
     pixel_x_y_alt_to_lon_lat transform2 native pix own center threshold max_iter qs world = Ok ps) /\
  (forall w, world = Some w -> srs w <> srs own ->
     pixel_x_y_alt_to_lon_lat transform2 native pix own center threshold max_iter qs world = Ok (transform2 own w ps)).
Proof.
  intros transform2 native pix own center threshold max_iter qs ps world H. unfold pixel_x_y_alt_to_lon_lat. rewrite H. cbn [bind].
  split.
  - intros E. destruct world as [w|]; [rewrite E|]; rewrite text_eqb_refl; reflexivity.
  - intros w -> Hn. rewrite text_eqb_neq by exact Hn. reflexivity.
Qed.
Print Assumptions C36_projection.

(** A case of C36_affine: pixel (100 + 3 lon + 4 lat, 50 + 4 lon - 3 lat), altitude 12 *)
Example C36_affine_met :
  let a := mkAffine (fun _ => 100) (fun _ => 3) (fun _ => 4) (fun _ => 50) (fun _ => 4) (fun _ => -3) in
  let pix : pixel_fn := fun lon lat alt => match lon, lat, alt with
    Fin x, Fin y, Fin _ => (Fin (100 + 3 * x + 4 * y), Fin (50 + 4 * x + -3 * y)) | _, _, _ => (NonFinite, NonFinite) end in
  affine_sensor a pix /\ invertible_at a 12 /\ f_xlon a 12 <> 0 /\
  1 < (f_xlon a 12 * f_xlon a 12 + f_ylon a 12 * f_ylon a 12) * (2 ^ 1073 / 2 ^ 52) ^ 2.
Proof.
  intros a pix. split; [|split; [|split]].
  - split; [reflexivity|]. intros [x|] [y|] [z|] [H|[H|H]]; (discriminate || reflexivity).
  - unfold invertible_at; cbn; lra.
  - cbn; lra.
  - replace (2 ^ 1073 / 2 ^ 52) with (2 ^ 1021).
    + assert (G : 1 <= 2 ^ 1021) by (apply pow_R1_Rle; lra). revert G. generalize (2 ^ 1021). intros t G. cbn. nra.
    + apply Rmult_eq_reg_r with (2 ^ 52); [|apply pow_nonzero; lra]. unfold Rdiv. rewrite Rmult_assoc, Rinv_l by (apply pow_nonzero; lra).
      rewrite Rmult_1_r, <- pow_add. reflexivity.
Qed.

(* ============================== C37 =============================== *)

Lemma ceilZ_ge x : x <= IZR (ceilZ x) /\ IZR (ceilZ x) < x + 1.
Proof. unfold ceilZ. rewrite opp_IZR. destruct (base_Int_part (- x)). lra. Qed.

(** For every DEM whose elevations lie between the two altitudes lowest < highest, every
    sensor and every list of pixels not all of whose rays are vertical, and every positive
    sample distance: there is a number of samples whose spacing is at most the sample
    distance on every ray, and the result of each pixel is a point of its ray (which starts
    above and ends below the terrain); the point lies on the terrain profile through the
    samples, the profile is nowhere above the ray before it, and the next sample is. *)
Theorem C37_first_crossing : forall ground dem highest lowest distance pixels,
  lowest < highest -> 0 < distance ->
  (forall lon lat, exists e, dem lon lat = Fin e /\ lowest <= e <= highest) ->
  let mx := highest + (highest - lowest) / 100 in
  let mn := lowest - (highest - lowest) / 100 in
  (exists p, In p pixels /\ ground p mx <> ground p mn) ->
  exists n rs, (2 <= n)%nat /\
    (forall p, In p pixels -> ray_length (ground p mx) (ground p mn) <= INR (n - 1) * distance) /\
    ray_caster ground dem highest lowest distance pixels = Ok rs /\
    Forall2 (fun p r =>
      let at_s := on_ray (ground p mx) (ground p mn) mx mn in
      let e s := match dem (fst (fst (at_s s))) (snd (fst (at_s s))) with Fin v => v | NonFinite => 0 end in
      exists s k, r = (Fin (fst (fst (at_s s))), Fin (snd (fst (at_s s))), Fin (snd (at_s s))) /\
        (k < n)%nat /\ 0 <= s < INR k / INR (n - 1) /\ INR k / INR (n - 1) <= s + 1 / INR (n - 1) /\
        snd (at_s (INR k / INR (n - 1))) < e (INR k / INR (n - 1)) /\
        profile e n s (snd (at_s s)) /\
        (forall s' v, s' <= s -> profile e n s' v -> v <= snd (at_s s'))) pixels rs.
Proof.
  intros ground dem highest lowest distance pixels Hhl Hdist Hdem mx mn (p0 & Hp0 & Hne).
  set (lens := map2 ray_length (map (fun p => ground p mx) pixels) (map (fun p => ground p mn) pixels)).
  assert (EL : lens = map (fun p => ray_length (ground p mx) (ground p mn)) pixels) by (unfold lens; apply map2_map).
  assert (LP : forall p, 0 <= ray_length (ground p mx) (ground p mn)) by (intros; unfold ray_length; apply sqrt_pos).
  destruct (rmax lens) as [m|] eqn:EM.
  2:{ destruct (rmax_some lens) as (m & E); [|congruence]. rewrite EL. destruct pixels; [destruct Hp0|discriminate]. }
  destruct (rmax_spec lens m EM) as [Hin Hmax].
  assert (Hm0 : 0 < m).
  { assert (L0 : 0 < ray_length (ground p0 mx) (ground p0 mn)).
    { unfold ray_length. apply sqrt_lt_R0.
      set (u := fst (ground p0 mx) - fst (ground p0 mn)). set (v := snd (ground p0 mx) - snd (ground p0 mn)).
      destruct (Req_dec u 0) as [U|U]; [destruct (Req_dec v 0) as [V|V]|].
      - exfalso. apply Hne. destruct (ground p0 mx), (ground p0 mn). cbn in *. f_equal; unfold u, v in *; lra.
      - nra.
      - nra. }
    eapply Rlt_le_trans; [exact L0|]. apply Hmax. rewrite EL. apply (in_map (fun p => ray_length (ground p mx) (ground p mn))). exact Hp0. }
  assert (Hq : 0 < m / distance) by (apply Rdiv_lt_0_compat; assumption).
  destruct (ceilZ_ge (m / distance)) as [C1 C2]. set (z := ceilZ (m / distance)) in *.
  assert (Hz : (1 <= z)%Z) by (assert (H : 0 < IZR z) by lra; apply lt_IZR in H; lia).
  set (n := Z.to_nat (z + 1)).
  assert (Hn : (2 <= n)%nat) by (unfold n; lia).
  assert (En : INR (n - 1) = IZR z) by (rewrite INR_IZR_INZ; f_equal; unfold n; lia).
  assert (CR : forall p, exists r, cast_one dem mx mn n (ground p mx) (ground p mn) = Ok r /\
      let at_s := on_ray (ground p mx) (ground p mn) mx mn in
      let e s := match dem (fst (fst (at_s s))) (snd (fst (at_s s))) with Fin v => v | NonFinite => 0 end in
      exists s k, r = (Fin (fst (fst (at_s s))), Fin (snd (fst (at_s s))), Fin (snd (at_s s))) /\
        (k < n)%nat /\ 0 <= s < INR k / INR (n - 1) /\ INR k / INR (n - 1) <= s + 1 / INR (n - 1) /\
        snd (at_s (INR k / INR (n - 1))) < e (INR k / INR (n - 1)) /\
        profile e n s (snd (at_s s)) /\
        (forall s' v, s' <= s -> profile e n s' v -> v <= snd (at_s s'))).
  { intros p. set (at_s := on_ray (ground p mx) (ground p mn) mx mn).
    set (e := fun s => match dem (fst (fst (at_s s))) (snd (fst (at_s s))) with Fin v => v | NonFinite => 0 end).
    assert (He : forall s, dem (fst (fst (at_s s))) (snd (fst (at_s s))) = Fin (e s) /\ lowest <= e s <= highest).
    { intros s. unfold e. destruct (Hdem (fst (fst (at_s s))) (snd (fst (at_s s)))) as (v & -> & B). auto. }
    destruct (cast_one_spec dem mx mn n (ground p mx) (ground p mn) e Hn) as (s & k & E & R).
    - unfold mx, mn. lra.
    - intros s. apply (He s).
    - destruct (He 0) as [_ B]. unfold mx. lra.
    - destruct (He 1) as [_ B]. unfold mn. lra.
    - eexists. split; [exact E|]. cbv zeta. exists s, k. split; [reflexivity|]. exact R. }
  assert (MX : highest + (highest - lowest) * (1 / 100) = mx) by (unfold mx; field).
  assert (MN : lowest - (highest - lowest) * (1 / 100) = mn) by (unfold mn; field).
  assert (G : exists rs, mapM (fun tb => cast_one dem mx mn n (fst tb) (snd tb))
       (combine (map (fun p => ground p mx) pixels) (map (fun p => ground p mn) pixels)) = Ok rs /\
     Forall2 (fun p r => let at_s := on_ray (ground p mx) (ground p mn) mx mn in
      let e s := match dem (fst (fst (at_s s))) (snd (fst (at_s s))) with Fin v => v | NonFinite => 0 end in
      exists s k, r = (Fin (fst (fst (at_s s))), Fin (snd (fst (at_s s))), Fin (snd (at_s s))) /\
        (k < n)%nat /\ 0 <= s < INR k / INR (n - 1) /\ INR k / INR (n - 1) <= s + 1 / INR (n - 1) /\
        snd (at_s (INR k / INR (n - 1))) < e (INR k / INR (n - 1)) /\
        profile e n s (snd (at_s s)) /\
        (forall s' v, s' <= s -> profile e n s' v -> v <= snd (at_s s'))) pixels rs).
  { clear - CR. induction pixels as [|p ps IH]; [exists []; split; [reflexivity|constructor]|].
    destruct IH as (rs & E & F). destruct (CR p) as (r & Er & Q).
    exists (r :: rs). cbn [map combine mapM fst snd]. rewrite Er. cbn [bind]. rewrite E. split; [reflexivity|]. constructor; assumption. }
  destruct G as (rs & E & F). exists n, rs. split; [exact Hn|]. split; [|split; [|exact F]].
  - intros p Hp. rewrite En.
    assert (Lm : ray_length (ground p mx) (ground p mn) <= m).
    { apply Hmax. rewrite EL. apply (in_map (fun p => ray_length (ground p mx) (ground p mn))). exact Hp. }
    assert (m <= IZR z * distance).
    { apply Rmult_le_compat_r with (r := distance) in C1; [|lra]. replace (m / distance * distance) with m in C1 by (field; lra). exact C1. }
    lra.
  - unfold ray_caster. rewrite MX, MN. fold lens. unfold n_steps. rewrite EM, Reqb_false by lra. cbn [bind]. fold z.
    destruct (Z.ltb_spec (z + 1) 0); [lia|]. fold n. exact E.
Qed.
Print Assumptions C37_first_crossing.

(** The same over a terrain with gaps (elevations that are not numbers), whose finite
    elevations lie between the two altitudes: if some sample of the ray is below the terrain,
    let k + 1 be the first one.  When the elevation at sample k is known the result is the
    point between the two samples where the ray meets the straight line through the two
    elevations; when it is not, or when no sample is below the terrain, no coordinate of the
    result is a number. *)
Theorem C37_gaps : forall ground dem highest lowest distance pixels,
  lowest < highest -> 0 < distance ->
  (forall lon lat e, dem lon lat = Fin e -> lowest <= e <= highest) ->
  let mx := highest + (highest - lowest) / 100 in
  let mn := lowest - (highest - lowest) / 100 in
  (exists p, In p pixels /\ ground p mx <> ground p mn) ->
  exists n rs, (2 <= n)%nat /\
    (forall p, In p pixels -> ray_length (ground p mx) (ground p mn) <= INR (n - 1) * distance) /\
    ray_caster ground dem highest lowest distance pixels = Ok rs /\
    Forall2 (fun p r =>
      let at_ k := on_ray (ground p mx) (ground p mn) mx mn (INR k / INR (n - 1)) in
      let el k := dem (fst (fst (at_ k))) (snd (fst (at_ k))) in
      let above k := exists v, el k = Fin v /\ snd (at_ k) < v in
      ((forall k, (k < n)%nat -> ~ above k) /\ r = (NonFinite, NonFinite, NonFinite)) \/
      exists k w, (S k < n)%nat /\ (forall j, (j <= k)%nat -> ~ above j) /\ el (S k) = Fin w /\ snd (at_ (S k)) < w /\
        match el k with
        | NonFinite => r = (NonFinite, NonFinite, NonFinite)
        | Fin v => exists x, 0 <= x < 1 /\ let q := on_ray (ground p mx) (ground p mn) mx mn ((INR k + x) / INR (n - 1)) in
            r = (Fin (fst (fst q)), Fin (snd (fst q)), Fin (snd q)) /\ snd q = v + x * (w - v)
        end) pixels rs.
Proof.
  intros ground dem highest lowest distance pixels Hhl Hdist Hdem mx mn (p0 & Hp0 & Hne).
  set (lens := map2 ray_length (map (fun p => ground p mx) pixels) (map (fun p => ground p mn) pixels)).
  assert (EL : lens = map (fun p => ray_length (ground p mx) (ground p mn)) pixels) by (unfold lens; apply map2_map).
  destruct (rmax lens) as [m|] eqn:EM.
  2:{ destruct (rmax_some lens) as (m & E); [|congruence]. rewrite EL. destruct pixels; [destruct Hp0|discriminate]. }
  destruct (rmax_spec lens m EM) as [Hin Hmax].
  assert (Hm0 : 0 < m).
  { assert (L0 : 0 < ray_length (ground p0 mx) (ground p0 mn)).
    { unfold ray_length. apply sqrt_lt_R0.
      set (u := fst (ground p0 mx) - fst (ground p0 mn)). set (v := snd (ground p0 mx) - snd (ground p0 mn)).
      destruct (Req_dec u 0) as [U|U]; [destruct (Req_dec v 0) as [V|V]|].
      - exfalso. apply Hne. destruct (ground p0 mx), (ground p0 mn). cbn in *. f_equal; unfold u, v in *; lra.
      - nra.
      - nra. }
    eapply Rlt_le_trans; [exact L0|]. apply Hmax. rewrite EL. apply (in_map (fun p => ray_length (ground p mx) (ground p mn))). exact Hp0. }
  assert (Hq : 0 < m / distance) by (apply Rdiv_lt_0_compat; assumption).
  destruct (ceilZ_ge (m / distance)) as [C1 C2]. set (z := ceilZ (m / distance)) in *.
  assert (Hz : (1 <= z)%Z) by (assert (H : 0 < IZR z) by lra; apply lt_IZR in H; lia).
  set (n := Z.to_nat (z + 1)).
  assert (Hn : (2 <= n)%nat) by (unfold n; lia).
  assert (En : INR (n - 1) = IZR z) by (rewrite INR_IZR_INZ; f_equal; unfold n; lia).
  assert (HD : 0 < INR (n - 1)) by (apply lt_0_INR; lia).
  exists n.
  assert (CR : forall p, exists r, cast_one dem mx mn n (ground p mx) (ground p mn) = Ok r /\
      let at_ k := on_ray (ground p mx) (ground p mn) mx mn (INR k / INR (n - 1)) in
      let el k := dem (fst (fst (at_ k))) (snd (fst (at_ k))) in
      let above k := exists v, el k = Fin v /\ snd (at_ k) < v in
      ((forall k, (k < n)%nat -> ~ above k) /\ r = (NonFinite, NonFinite, NonFinite)) \/
      exists k w, (S k < n)%nat /\ (forall j, (j <= k)%nat -> ~ above j) /\ el (S k) = Fin w /\ snd (at_ (S k)) < w /\
        match el k with
        | NonFinite => r = (NonFinite, NonFinite, NonFinite)
        | Fin v => exists x, 0 <= x < 1 /\ let q := on_ray (ground p mx) (ground p mn) mx mn ((INR k + x) / INR (n - 1)) in
            r = (Fin (fst (fst q)), Fin (snd (fst q)), Fin (snd q)) /\ snd q = v + x * (w - v)
        end).
  { intros p. apply cast_one_gaps; [exact Hn|unfold mx, mn; lra| |].
    - intros (v & E & L). apply Hdem in E. cbn [on_ray snd] in L. replace (INR 0 / INR (n - 1)) with 0 in L by (cbn; field; lra). unfold mx in L. lra.
    - intros v E. apply Hdem in E. unfold mn. lra. }
  assert (MX : highest + (highest - lowest) * (1 / 100) = mx) by (unfold mx; field).
  assert (MN : lowest - (highest - lowest) * (1 / 100) = mn) by (unfold mn; field).
  enough (G : exists rs, mapM (fun tb => cast_one dem mx mn n (fst tb) (snd tb))
       (combine (map (fun p => ground p mx) pixels) (map (fun p => ground p mn) pixels)) = Ok rs /\ Forall2 (fun p r =>
      let at_ k := on_ray (ground p mx) (ground p mn) mx mn (INR k / INR (n - 1)) in
      let el k := dem (fst (fst (at_ k))) (snd (fst (at_ k))) in
      let above k := exists v, el k = Fin v /\ snd (at_ k) < v in
      ((forall k, (k < n)%nat -> ~ above k) /\ r = (NonFinite, NonFinite, NonFinite)) \/
      exists k w, (S k < n)%nat /\ (forall j, (j <= k)%nat -> ~ above j) /\ el (S k) = Fin w /\ snd (at_ (S k)) < w /\
        match el k with
        | NonFinite => r = (NonFinite, NonFinite, NonFinite)
        | Fin v => exists x, 0 <= x < 1 /\ let q := on_ray (ground p mx) (ground p mn) mx mn ((INR k + x) / INR (n - 1)) in
            r = (Fin (fst (fst q)), Fin (snd (fst q)), Fin (snd q)) /\ snd q = v + x * (w - v)
        end) pixels rs).
  - destruct G as (rs & E & F). exists rs. split; [exact Hn|]. split; [|split; [|exact F]].
    + intros p Hp. rewrite En.
      assert (Lm : ray_length (ground p mx) (ground p mn) <= m).
      { apply Hmax. rewrite EL. apply (in_map (fun p => ray_length (ground p mx) (ground p mn))). exact Hp. }
      assert (m <= IZR z * distance).
      { apply Rmult_le_compat_r with (r := distance) in C1; [|lra]. replace (m / distance * distance) with m in C1 by (field; lra). exact C1. }
      lra.
    + unfold ray_caster. rewrite MX, MN. fold lens. unfold n_steps. rewrite EM, Reqb_false by lra. cbn [bind]. fold z.
      destruct (Z.ltb_spec (z + 1) 0); [lia|]. fold n. exact E.
  - clear - CR. induction pixels as [|p ps IH]; [exists []; split; [reflexivity|constructor]|].
    destruct IH as (rs & E & F). destruct (CR p) as (r & Er & Q).
    exists (r :: rs). cbn [map combine mapM fst snd]. rewrite Er. cbn [bind]. rewrite E. split; [reflexivity|]. constructor; assumption.
Qed.
Print Assumptions C37_gaps.

(** Without pixels casting raises ValueError; a sample distance of zero raises OverflowError,
    or ValueError when every ray is vertical. *)
Theorem C37_refused : forall ground dem highest lowest pixels,
  let mx := highest + (highest - lowest) * (1 / 100) in
  let mn := lowest - (highest - lowest) * (1 / 100) in
  (forall distance, ray_caster ground dem highest lowest distance [] = Err ValueError) /\
  (pixels <> [] -> (forall p, In p pixels -> ground p mx = ground p mn) -> ray_caster ground dem highest lowest 0 pixels = Err ValueError) /\
  (forall p, In p pixels -> ground p mx <> ground p mn -> ray_caster ground dem highest lowest 0 pixels = Err OtherError).
Proof.
  intros ground dem highest lowest pixels mx mn.
  assert (EL : map2 ray_length (map (fun p => ground p mx) pixels) (map (fun p => ground p mn) pixels) = map (fun p => ray_length (ground p mx) (ground p mn)) pixels)
    by apply map2_map.
  split; [reflexivity|]. split.
  - intros NE H. unfold ray_caster. fold mx mn. rewrite EL. unfold n_steps.
    destruct (rmax_some (map (fun p => ray_length (ground p mx) (ground p mn)) pixels)) as (m & EM); [destruct pixels; [congruence|discriminate]|].
    rewrite EM, Reqb_true by reflexivity. destruct (rmax_spec _ _ EM) as [Hin _]. apply in_map_iff in Hin as (p & <- & Hp).
    rewrite (H p Hp), Reqb_true; [reflexivity|]. unfold ray_length.
    replace ((fst (ground p mn) - fst (ground p mn)) ^ 2 + (snd (ground p mn) - snd (ground p mn)) ^ 2) with 0 by ring. apply sqrt_0.
  - intros p Hp Hne. unfold ray_caster. fold mx mn. rewrite EL. unfold n_steps.
    destruct (rmax_some (map (fun p => ray_length (ground p mx) (ground p mn)) pixels)) as (m & EM); [destruct pixels; [destruct Hp|discriminate]|].
    rewrite EM, Reqb_true by reflexivity. destruct (rmax_spec _ _ EM) as [_ Hmax].
    rewrite Reqb_false; [reflexivity|]. intros ->.
    specialize (Hmax _ (in_map (fun p => ray_length (ground p mx) (ground p mn)) _ _ Hp)). cbn beta in Hmax.
    assert (L0 : 0 < ray_length (ground p mx) (ground p mn)); [|lra].
    unfold ray_length. apply sqrt_lt_R0.
    set (u := fst (ground p mx) - fst (ground p mn)). set (v := snd (ground p mx) - snd (ground p mn)).
    destruct (Req_dec u 0) as [U|U]; [destruct (Req_dec v 0) as [V|V]|].
    + exfalso. apply Hne. destruct (ground p mx), (ground p mn). cbn in *. f_equal; unfold u, v in *; lra.
    + nra.
    + nra.
Qed.
Print Assumptions C37_refused.

(** When all rays are vertical - in particular for a single pixel looking straight down,
    and for every flat DEM - casting raises IndexError. *)
Theorem C37_vertical : forall ground dem highest lowest distance pixels,
  pixels <> [] -> distance <> 0 ->
  (forall p, In p pixels -> ground p (highest + (highest - lowest) * (1 / 100)) = ground p (lowest - (highest - lowest) * (1 / 100))) ->
  ray_caster ground dem highest lowest distance pixels = Err IndexError.
Proof.
  intros ground dem highest lowest distance pixels Hne Hd H. unfold ray_caster.
  set (mx := highest + _) in *. set (mn := lowest - _) in *.
  assert (EL : map2 ray_length (map (fun p => ground p mx) pixels) (map (fun p => ground p mn) pixels) = map (fun _ => 0) pixels).
  { rewrite map2_map. apply map_ext_in. intros p Hp. rewrite (H p Hp). unfold ray_length.
    replace ((fst (ground p mn) - fst (ground p mn)) ^ 2 + (snd (ground p mn) - snd (ground p mn)) ^ 2) with 0 by ring. apply sqrt_0. }
  rewrite EL. unfold n_steps.
  destruct (rmax_some (map (fun _ : pixel => 0) pixels)) as (m & EM); [destruct pixels; [congruence|discriminate]|].
  destruct (rmax_spec _ _ EM) as [Hin _]. apply in_map_iff in Hin. destruct Hin as (_ & <- & _).
  rewrite EM, Reqb_false by exact Hd. cbn [bind].
  replace (ceilZ (0 / distance)) with 0%Z.
  2:{ replace (0 / distance) with 0 by (field; exact Hd). destruct (ceilZ_ge 0) as [C1 C2].
      assert (A : IZR (ceilZ 0) < IZR 1) by lra. assert (B : IZR (-1) < IZR (ceilZ 0)) by lra. apply lt_IZR in A, B. lia. }
  destruct pixels as [|p ps]; [congruence|]. cbn [map combine mapM fst snd].
  unfold cast_one. change (Z.to_nat (0 + 1)) with 1%nat. cbn [linspace map map2 seq].
  assert (FI : forall e r, first_intersect [e] [r] 1 = 0%nat) by (intros; unfold first_intersect; cbn; destruct (fgt e r); reflexivity).
  rewrite FI. reflexivity.
Qed.
Print Assumptions C37_vertical.

(** So the property fails for every flat DEM, whatever the sensor. *)
Theorem C37_flat_refuted : forall ground h distance pixels, pixels <> [] -> distance <> 0 ->
  ray_caster ground (fun _ _ => Fin h) h h distance pixels = Err IndexError.
Proof.
  intros ground h distance pixels Hne Hd. apply C37_vertical; auto. intros p _.
  replace (h + (h - h) * (1 / 100)) with (h - (h - h) * (1 / 100)) by ring. reflexivity.
Qed.
Print Assumptions C37_flat_refuted.

(** A negative sample distance is refused: ValueError if some ray is at least twice as long as
    its absolute value, IndexError otherwise. *)
Theorem C37_negative_distance : forall ground dem highest lowest distance pixels, pixels <> [] -> distance < 0 ->
  let mx := highest + (highest - lowest) * (1 / 100) in
  let mn := lowest - (highest - lowest) * (1 / 100) in
  ((exists p, In p pixels /\ 2 * - distance <= ray_length (ground p mx) (ground p mn)) ->
     ray_caster ground dem highest lowest distance pixels = Err ValueError) /\
  ((forall p, In p pixels -> ray_length (ground p mx) (ground p mn) < 2 * - distance) ->
     ray_caster ground dem highest lowest distance pixels = Err IndexError).
Proof.
  intros ground dem highest lowest distance pixels NE Hd mx mn.
  assert (EL : map2 ray_length (map (fun p => ground p mx) pixels) (map (fun p => ground p mn) pixels) = map (fun p => ray_length (ground p mx) (ground p mn)) pixels)
    by apply map2_map.
  unfold ray_caster. fold mx mn. rewrite EL. unfold n_steps.
  destruct (rmax_some (map (fun p => ray_length (ground p mx) (ground p mn)) pixels)) as (m & EM); [destruct pixels; [congruence|discriminate]|].
  rewrite EM, Reqb_false by lra. cbn [bind]. destruct (rmax_spec _ _ EM) as [Hin Hmax]. destruct (ceilZ_ge (m / distance)) as [C1 C2].
  assert (MD : m / distance * distance = m) by (field; lra).
  split.
  - intros (p & Hp & L). specialize (Hmax _ (in_map (fun p => ray_length (ground p mx) (ground p mn)) _ _ Hp)). cbn beta in Hmax.
    assert (Q : m / distance <= -2) by nra. assert (Q1 : IZR (ceilZ (m / distance)) < IZR (-1)) by lra. apply lt_IZR in Q1.
    destruct (Z.ltb_spec (ceilZ (m / distance) + 1) 0); [reflexivity|lia].
  - intros L. apply in_map_iff in Hin as (p & <- & Hp). specialize (L p Hp).
    set (m := ray_length (ground p mx) (ground p mn)) in *. assert (M0 : 0 <= m) by (apply sqrt_pos).
    assert (Q : -2 < m / distance) by nra. assert (Q' : m / distance <= 0) by nra.
    assert (Q1 : IZR (-2) < IZR (ceilZ (m / distance))) by lra. assert (Q2 : IZR (ceilZ (m / distance)) < IZR 1) by lra. apply lt_IZR in Q1, Q2.
    destruct (Z.ltb_spec (ceilZ (m / distance) + 1) 0); [lia|].
    destruct pixels as [|p' ps]; [congruence|]. cbn [map combine mapM fst snd].
    assert (Z.to_nat (ceilZ (m / distance) + 1) = 0 \/ Z.to_nat (ceilZ (m / distance) + 1) = 1)%nat as [-> | ->] by lia; [reflexivity|].
    unfold cast_one. cbn [linspace map map2 seq].
    assert (FI : forall e r, first_intersect [e] [r] 1 = 0%nat) by (intros; unfold first_intersect; cbn; destruct (fgt e r); reflexivity).
    rewrite FI. reflexivity.
Qed.
Print Assumptions C37_negative_distance.

(** Pixels given as numbers raise TypeError; 1-d arrays are cast as they are. *)
Theorem C37_shapes : forall ground dem highest lowest distance p ps,
  ray_caster_nd ground dem highest lowest distance (Num p) = Err TypeError /\
  (forall rs, ray_caster ground dem highest lowest distance ps = Ok rs ->
     ray_caster_nd ground dem highest lowest distance (Vec ps) = Ok (Vec rs)) /\
  (forall e, ray_caster ground dem highest lowest distance ps = Err e ->
     ray_caster_nd ground dem highest lowest distance (Vec ps) = Err e).
Proof.
  intros. split; [reflexivity|]. split; intros r E; unfold ray_caster_nd; rewrite E; reflexivity.
Qed.
Print Assumptions C37_shapes.

(** 2-d pixel arrays: the answers of the flattened array, in the same shape. *)
Theorem C37_2d : forall ground dem highest lowest distance nx rows rs,
  Forall (fun r => length r = nx) rows ->
  ray_caster ground dem highest lowest distance (concat rows) = Ok rs ->
  exists rows', ray_caster_nd ground dem highest lowest distance (Mat nx rows) = Ok (Mat nx rows') /\
    concat rows' = rs /\ length rows' = length rows /\ Forall (fun r => length r = nx) rows'.
Proof.
  intros ground dem highest lowest distance nx rows rs HR H. unfold ray_caster_nd. rewrite H. cbn [bind].
  assert (HL : length rs = (length rows * nx)%nat).
  { unfold ray_caster in H. destruct (n_steps _ _) as [n| |]; try discriminate. cbn [bind] in H. destruct (n <? 0)%Z; [discriminate|].
    apply mapM_length in H. rewrite H, combine_length, !map_length, Nat.min_id. apply concat_length_rect. exact HR. }
  unfold reshape2. rewrite HL, Nat.eqb_refl. eexists. split; [reflexivity|].
  clear H HR. revert rs HL. generalize (length rows). intros ny. induction ny as [|ny IH]; intros rs HL.
  - destruct rs; [|discriminate]. repeat split. constructor.
  - cbn [split_rows concat length]. destruct (IH (skipn nx rs)) as (I1 & I2 & I3); [rewrite skipn_length; lia|].
    rewrite I1, firstn_skipn, I2. repeat split. constructor; [|exact I3]. rewrite firstn_length. lia.
Qed.
Print Assumptions C37_2d.

(** The front end: the sample distance is 5 unless given, and longitude and latitude - not
    the altitude - are taken from the sensor's projection to the world projection exactly
    when its srs differs. *)
Theorem C37_projection : forall transform2 own ground dem highest lowest distance world pixels rs,
  ray_caster ground dem highest lowest (match distance with None => 5 | Some d => d end) pixels = Ok rs ->
  exists out, pixel_x_y_to_lon_lat_alt transform2 own ground dem highest lowest distance world pixels = Ok out /\
    Forall2 (fun r o => snd o = snd r /\
      match world with
      | None => fst o = fst r
      | Some w => (srs w = srs own -> fst o = fst r) /\ (srs w <> srs own -> fst o = transform2 own w (fst (fst r), snd (fst r)))
      end) rs out.
Proof.
  intros transform2 own ground dem highest lowest distance world pixels rs H. unfold pixel_x_y_to_lon_lat_alt. rewrite H. cbn [bind].
  eexists; split; [reflexivity|]. clear H.
  assert (ID : forall P : (flt * flt * flt) -> (flt * flt * flt) -> Prop, (forall r, P r r) -> Forall2 P rs rs).
  { intros P HP. induction rs; constructor; auto. }
  destruct world as [w|].
  - destruct (text_eqb (srs w) (srs own)) eqn:E.
    + apply text_eqb_spec in E. apply ID. intros r. repeat split. intros N. contradiction.
    + assert (N : srs w <> srs own) by (intros N; rewrite N, text_eqb_refl in E; discriminate).
      induction rs as [|[[lon lat] alt] rs IH]; constructor; [cbn|apply IH]. 1: split; [reflexivity|]; split; [intros; contradiction|reflexivity].
      intros P HP. clear -HP. induction rs; constructor; auto.
  - rewrite text_eqb_refl. apply ID. intros r. split; reflexivity.
Qed.
Print Assumptions C37_projection.

(** If no sampled elevation is above the ray (bounds that do not enclose the terrain), the
    answer is not on the line of sight: here the ray runs from (0, 0, 20.1) to (1, 0, 9.9)
    over terrain at 0. *)
Theorem C37_wrong_bounds : exists ground dem highest lowest distance r,
  (forall lon lat, dem lon lat = Fin 0) /\ lowest < highest /\ 0 < distance /\
  ray_caster ground dem highest lowest distance [(0, 0)] = Ok [r] /\
  forall s, r <> (Fin (fst (fst (on_ray (0, 0) (1, 0) (highest + (highest - lowest) / 100) (lowest - (highest - lowest) / 100) s))),
                  Fin (snd (fst (on_ray (0, 0) (1, 0) (highest + (highest - lowest) / 100) (lowest - (highest - lowest) / 100) s))),
                  Fin (snd (on_ray (0, 0) (1, 0) (highest + (highest - lowest) / 100) (lowest - (highest - lowest) / 100) s))).
Proof.
  exists (fun _ alt => if Rltb 15 alt then (0, 0) else (1, 0)), (fun _ _ => Fin 0), 20, 10, 1.
  eexists. split; [reflexivity|]. split; [lra|]. split; [lra|].
  assert (Q : ray_caster (fun _ alt => if Rltb 15 alt then (0, 0) else (1, 0)) (fun _ _ => Fin 0) 20 10 1 [(0, 0)] =
    Ok [(Fin ((0 - 1) * ((0 - 99/10) / (- (102/10))) + 1), Fin 0, Fin 0)]).
  { unfold ray_caster. cbn [map map2]. rewrite Rltb_true, Rltb_false by lra.
    replace (ray_length (0, 0) (1, 0)) with 1.
    2:{ unfold ray_length. cbn [fst snd]. replace ((0 - 1) ^ 2 + (0 - 0) ^ 2) with 1 by ring. symmetry. apply sqrt_1. }
    unfold n_steps. cbn [rmax]. rewrite Reqb_false by lra. cbn [bind].
    replace (ceilZ (1 / 1)) with 1%Z.
    2:{ replace (1 / 1) with 1 by field. destruct (ceilZ_ge 1) as [C1 C2].
        assert (A : IZR (ceilZ 1) < IZR 2) by lra. assert (B : IZR 0 < IZR (ceilZ 1)) by lra. apply lt_IZR in A, B. lia. }
    change (1 + 1 <? 0)%Z with false. cbv iota. cbn [combine mapM fst snd].
    unfold cast_one. change (Z.to_nat (1 + 1)) with 2%nat. cbn [linspace map map2 seq fst snd].
    assert (FI : first_intersect [Fin 0; Fin 0] [20 + (20 - 10) * (1 / 100) + INR 0 * ((10 - (20 - 10) * (1 / 100) - (20 + (20 - 10) * (1 / 100))) / INR (2 - 1));
        20 + (20 - 10) * (1 / 100) + INR 1 * ((10 - (20 - 10) * (1 / 100) - (20 + (20 - 10) * (1 / 100))) / INR (2 - 1))] 2 = 0%nat).
    { unfold first_intersect. cbn. rewrite !Rltb_false by lra. reflexivity. }
    rewrite FI. change (Z.of_nat 0 - 1)%Z with (-1)%Z. change (-1 + 1)%Z with 0%Z.
    assert (G1 : forall A (a b : A), py_get [a; b] (-1) = Ok b) by reflexivity.
    assert (G2 : forall A (a b : A), py_get [a; b] 0 = Ok a) by reflexivity.
    assert (G3 : forall A (a b : A), py_get [a; b] 1 = Ok b) by reflexivity.
    rewrite !G1, !G2, !G3. cbn [bind fsub fmap2 fquot]. change (INR (2 - 1)) with 1. change (INR 0) with 0. change (INR 1) with 1.
    rewrite fdiv_nz by lra. cbn [fmul fadd fmap2]. apply (f_equal Ok). apply (f_equal (fun x => [x])). apply pair_equal_spec; split; [apply pair_equal_spec; split|]; apply (f_equal Fin); field. }
  split; [exact Q|]. intros s E. injection E as E1 E2 E3. cbn in E1, E3.
  replace ((0 - 99 / 10) / - (102 / 10)) with (99 / 102) in E1 by field. lra.
Qed.
Print Assumptions C37_wrong_bounds.

(** The hypotheses of C37_first_crossing: a slanted ray over terrain of two heights *)
Example C37_met :
  let dem := fun lon lat : R => if Rltb 50 lon then Fin 100 else Fin 0 in
  let ground := fun (p : pixel) (alt : R) => (fst p - alt, snd p) in
  (forall lon lat, exists e, dem lon lat = Fin e /\ 0 <= e <= 100) /\
  ground (0, 0) (100 + (100 - 0) / 100) <> ground (0, 0) (0 - (100 - 0) / 100).
Proof.
  intros dem ground. split.
  - intros lon lat. unfold dem. destruct (Rltb 50 lon); eexists; split; try reflexivity; lra.
  - unfold ground. cbn. intros E. injection E as E. lra.
Qed.

(** The hypotheses of C37_gaps: a slanted ray over terrain with a hole *)
Example C37_gaps_met :
  let dem := fun lon lat : R => if Rltb 50 lon then NonFinite else Fin 40 in
  let ground := fun (p : pixel) (alt : R) => (fst p - alt, snd p) in
  (forall lon lat e, dem lon lat = Fin e -> 0 <= e <= 100) /\ dem 60 0 = NonFinite /\
  ground (0, 0) (100 + (100 - 0) / 100) <> ground (0, 0) (0 - (100 - 0) / 100).
Proof.
  intros dem ground. split; [|split].
  - intros lon lat e. unfold dem. destruct (Rltb 50 lon); intros E; [discriminate|]. injection E as <-. lra.
  - unfold dem. rewrite Rltb_true by lra. reflexivity.
  - unfold ground. cbn. intros E. injection E as E. lra.
Qed.
