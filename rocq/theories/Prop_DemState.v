(** C91: digital elevation model objects over histories of calls. *)
From Coq Require Import Reals Lra Lia List.
From Verif Require Import RAux Text M_Dem M_Objects M_DemState Spec_Photo Spec_Dem Spec_Objects Spec_DemState P_Photo P_Objects P_DemState Prop_Objects.
Open Scope R_scope.
Open Scope list_scope.

Section Statements.
Context {D G P W : Type}.
Variable from_gdal : G -> D.
Variable file_store : D -> G -> flt -> flt.
Variable wkt_of : P -> W.
Variable proj_of : W -> P.
Variable integral : D -> bool.
Variable srs_of : P -> text.
Variable gdal_warp : dataset flt G W -> text -> text -> option (dataset flt G W).
Notation step := (dem_step from_gdal file_store wkt_of proj_of integral srs_of gdal_warp).
Notation run := (dem_run from_gdal file_store wkt_of proj_of integral srs_of gdal_warp).

(** After every history of calls without conversions, whatever raised: files and image objects
    are as before; the interpolation is the last one set, at first bilinear; the reference and
    the projection are the last ones set -- loading an image sets the projection, if its data
    can be read -- and asking for one that was never set is an AttributeError. *)
Theorem C91_attributes w ops : Forall (fun o => ~ is_conversion o) ops ->
  let d := snd (run w new_dem ops) in
  fst (run w new_dem ops) = w /\
  step w d GetInterpolation = (w, d, Ok (IsInterpolation match last_some gives_interpolation ops with Some i => i | None => Bilinear end)) /\
  step w d GetReference = (w, d, match last_some gives_reference ops with Some c => Ok (IsReference c) | None => Err AttributeError end) /\
  step w d GetDemProjection = (w, d, match last_some (gives_projection from_gdal w) ops with Some p => Ok (IsProjection p) | None => Err AttributeError end).
Proof.
  intros F d. unfold d. destruct (run_fields from_gdal file_store wkt_of proj_of integral srs_of gdal_warp w ops F) as (R0 & R1 & R2 & R3 & R4 & R5).
  split; [exact R0|]. cbn [dem_step]. rewrite R1, R2, R5. auto.
Qed.

(** The elevations after every such history: those of the image loaded last, except that every
    value equal to a no-data value in force at the load or removed since is NaN.  Removing is
    cumulative: a later no-data value does not bring back the values of an earlier one.  The
    data of an integer type keeps all its values. *)
Theorem C91_elevations w h1 o h2 im t r : Forall (fun o => ~ is_conversion o) (h1 ++ o :: h2) ->
  loads from_gdal w o = Some (im, (t, r)) -> Forall (fun o => loads from_gdal w o = None) h2 ->
  exists r', dm_data (snd (run w new_dem (h1 ++ o :: h2))) = Some (t, r') /\
    (forall ny nx nb, raster_shape r ny nx nb -> raster_shape r' ny nx nb) /\
    (integral t = true -> r' = r) /\
    (integral t = false -> forall y x k v, px (r_bands r) y x k = Some v -> exists v', px (r_bands r') y x k = Some v' /\
       (is_removed (removed h1 h2) v -> v' = NonFinite) /\ (~ is_removed (removed h1 h2) v -> v' = v)).
Proof.
  intros F L FL. destruct (run_data from_gdal file_store wkt_of proj_of integral srs_of gdal_warp w h1 o h2 im t r F L FL) as (r' & E & E1 & E2 & E3 & E4 & E5).
  exists r'. split; [exact E|]. split; [exact E3|]. split; [exact E4|]. intros I y x k v Hv.
  destruct (E5 I y x k) as (f & Q1 & Q2). rewrite Hv in Q1. exists (f v). split; [exact Q1|]. apply Q2.
Qed.

(** Without any load there are no elevations: the altitudes are TypeErrors. *)
Theorem C91_not_loaded w ops : Forall (fun o => ~ is_conversion o) ops -> Forall (fun o => loads from_gdal w o = None) ops ->
  let d := snd (run w new_dem ops) in
  step w d HighestAlt = (w, d, Err TypeError) /\ step w d LowestAlt = (w, d, Err TypeError) /\ step w d MeanAlt = (w, d, Err TypeError).
Proof.
  intros F L d. assert (E : dm_data d = None).
  { unfold d. clear d. induction ops as [|o ops IH] using rev_ind; [reflexivity|]. apply Forall_app in F as [F1 F2]. apply Forall_app in L as [L1 L2].
    inversion F2 as [|? ? NC _]; subst. inversion L2 as [|? ? NL _]; subst. specialize (IH F1 L1).
    destruct (run_fields from_gdal file_store wkt_of proj_of integral srs_of gdal_warp w ops F1) as (R0 & _). cbv zeta in R0. rewrite run_snoc, R0.
    destruct (step_fields from_gdal file_store wkt_of proj_of integral srs_of gdal_warp w (snd (run w new_dem ops)) o NC) as (_ & _ & _ & _ & _ & _ & J).
    destruct o; cbv beta zeta iota in J; rewrite J, ?IH; try reflexivity. now rewrite NL. }
  cbn [dem_step]. unfold alt_of. rewrite E. auto.
Qed.

(** The altitudes of a DEM with elevations: all three are NaN if there is no finite elevation;
    otherwise the lowest and the highest are elevations of the DEM between which all others
    and their mean lie. *)
Theorem C91_altitudes w d t r : dm_data d = Some (t, r) ->
  exists lo mean hi, step w d LowestAlt = (w, d, Ok (IsAlt lo)) /\ step w d MeanAlt = (w, d, Ok (IsAlt mean)) /\ step w d HighestAlt = (w, d, Ok (IsAlt hi)) /\
    ((forall y x k v, px (r_bands r) y x k <> Some (Fin v)) -> lo = NonFinite /\ mean = NonFinite /\ hi = NonFinite) /\
    (forall y x k v, px (r_bands r) y x k = Some (Fin v) -> exists l m h, lo = Fin l /\ mean = Fin m /\ hi = Fin h /\ l <= v <= h /\ l <= m <= h /\
       (exists y1 x1 k1, px (r_bands r) y1 x1 k1 = Some (Fin l)) /\ (exists y2 x2 k2, px (r_bands r) y2 x2 k2 = Some (Fin h))).
Proof.
  intros E. cbn [dem_step]. unfold alt_of. rewrite E. do 3 eexists. do 3 (split; [reflexivity|]).
  assert (IN : forall v, In v (all_values r) <-> exists y x k, px (r_bands r) y x k = Some (Fin v)).
  { intros v. unfold all_values, finite_values. rewrite in_flat_map. split.
    - intros (rows & I1 & I2). apply In_nth_error in I1 as (k & K). apply in_concat in I2 as (l & I2 & I3). apply in_map_iff in I2 as ([q|] & <- & I2); [|contradiction].
      destruct I3 as [->|[]]. apply in_concat in I2 as (row & I2 & I4). apply In_nth_error in I2 as (y & Y). apply In_nth_error in I4 as (x & X).
      exists y, x, k. unfold px. now rewrite K, Y.
    - intros (y & x & k & H). unfold px in H. destruct (nth_error (r_bands r) k) as [rows|] eqn:K; [|discriminate]. destruct (nth_error rows y) as [row|] eqn:Y; [|discriminate].
      exists rows. split; [now apply nth_error_In in K|]. apply in_concat. exists [v]. split; [|now left]. apply in_map_iff. exists (Fin v). split; [reflexivity|].
      apply in_concat. exists row. split; [now apply nth_error_In in Y|now apply nth_error_In in H]. }
  split.
  - intros N. destruct (all_values r) as [|v l] eqn:AV; [auto|]. exfalso. destruct (proj1 (IN v) (or_introl eq_refl)) as (y & x & k & H). now apply N in H.
  - intros y x k v H. assert (I : In v (all_values r)) by (apply IN; eauto). set (l := all_values r) in *.
    assert (NE : l <> []) by (destruct l; [contradiction|discriminate]).
    destruct (rmin l) as [lo|] eqn:E1; [|destruct l; [congruence|cbn in E1; destruct (rmin l); discriminate]].
    destruct (rmax l) as [hi|] eqn:E2; [|destruct l; [congruence|cbn in E2; destruct (rmax l); discriminate]].
    pose proof (rmin_spec _ _ E1) as [I1 B1]. pose proof (rmax_spec _ _ E2) as [I2 B2].
    exists lo, (rsum l / INR (length l)), hi. split; [reflexivity|]. split; [unfold mean_of; destruct l; [congruence|reflexivity]|]. split; [reflexivity|].
    split; [split; [now apply B1|now apply B2]|]. split; [|split; now apply IN].
    assert (S : forall m : list R, (forall q, In q m -> lo <= q <= hi) -> INR (length m) * lo <= rsum m <= INR (length m) * hi).
    { induction m as [|q m IHm]; intros Q; [cbn; lra|]. cbn [length rsum fold_right]. rewrite S_INR. specialize (IHm (fun q0 i => Q q0 (or_intror i))). pose proof (Q q (or_introl eq_refl)). unfold rsum in IHm. lra. }
    specialize (S l (fun q i => conj (B1 q i) (B2 q i))).
    assert (LP : 0 < INR (length l)) by (apply lt_0_INR; destruct l; [congruence|cbn; lia]).
    split; apply Rmult_le_reg_r with (INR (length l)); try assumption; unfold Rdiv; rewrite ?Rmult_assoc, ?Rinv_l by lra; lra.
Qed.

(** The mean, where it is a number: the sum of the finite elevations over their number. *)
Theorem C91_mean w d t r ny nx nb : dm_data d = Some (t, r) -> raster_shape r ny nx nb ->
  let number := over_raster r ny nx nb (fun _ => 1) in
  step w d MeanAlt = (w, d, Ok (IsAlt (if Reqb number 0 then NonFinite else Fin (over_raster r ny nx nb (fun v => v) / number)))).
Proof.
  intros E H number. cbn [dem_step]. unfold alt_of. rewrite E. do 3 f_equal. unfold number. rewrite <- !(over_raster_values r ny nx nb _ H).
  assert (L : forall l : list R, rsum (map (fun _ => 1) l) = INR (length l)) by (induction l as [|a l IH]; [reflexivity|cbn [map rsum fold_right length]; rewrite S_INR; unfold rsum in IH; rewrite IH; ring]).
  rewrite L, map_id. unfold mean_of. destruct (all_values r) as [|v l].
  - cbn [length INR]. destruct (Reqb_spec 0 0); [reflexivity|congruence].
  - destruct (Reqb_spec (INR (length (v :: l))) 0) as [Q|Q]; [|reflexivity]. cbn [length] in Q. pose proof (lt_0_INR (S (length l)) ltac:(lia)). lra.
Qed.

(** Loading an image object from a file: the DEM has its projection and elevations, and keeps
    interpolation, reference and no-data value; it raises only if the data has an integer type
    and a no-data value is in force -- and then has the new image nevertheless, unblanked. *)
Theorem C91_load w d i im t r : loads from_gdal w (SetGeotiff i) = Some (im, (t, r)) ->
  exists d' r', step w d (SetGeotiff i) = (w, d', if integral t then match dm_nodata d with NoNodata => Ok Done | _ => Err ValueError end else Ok Done) /\
    dm_data d' = Some (t, r') /\ dm_gtiff d' = Some i /\ dm_proj d' = Some (gt_proj im) /\
    dm_nodata d' = dm_nodata d /\ dm_interp d' = dm_interp d /\ dm_ref d' = dm_ref d /\
    (integral t = true -> r' = r) /\
    (integral t = false -> forall y x k v, px (r_bands r) y x k = Some v -> exists v', px (r_bands r') y x k = Some v' /\
       (is_removed [dm_nodata d] v -> v' = NonFinite) /\ (~ is_removed [dm_nodata d] v -> v' = v)).
Proof.
  intros L. pose proof (set_fields from_gdal integral w d i) as (S1 & S2 & S3 & S4 & S5 & S6). rewrite L in S6.
  assert (GI : gives_image (P := P) w (SetGeotiff i) = Some i).
  { cbn [loads gives_image] in *. destruct (nth_error (wd_images w) i) eqn:N; [|discriminate]. assert (i < length (wd_images w))%nat as Q by (apply nth_error_Some; congruence). now rewrite (proj2 (Nat.ltb_lt _ _) Q). }
  assert (GP : gives_projection from_gdal w (SetGeotiff i) = Some (gt_proj im)) by (unfold gives_projection; rewrite L; reflexivity).
  rewrite GI in S4. rewrite GP in S5. cbn [dem_step].
  assert (A : snd (dem_set_geotiff from_gdal integral w d i) = if integral t then match dm_nodata d with NoNodata => Ok Done | _ => Err ValueError end else Ok Done).
  { cbn [loads] in L. unfold dem_set_geotiff. destruct (nth_error (wd_images w) i) as [im'|]; [|discriminate].
    destruct (geotiff_read_all from_gdal (wd_files w) im') as [[t' r']| |]; try discriminate. injection L as -> -> ->.
    unfold dem_remove_nodata. cbn [dm_data dm_nodata]. destruct (dm_nodata d); destruct (integral t); reflexivity. }
  destruct (dem_set_geotiff from_gdal integral w d i) as [d' a]. cbn [fst snd] in *. subst a.
  exists d', (if integral t then r else mkRaster (r_ny r) (r_nx r) (map (map (map (blank_value (dm_nodata d)))) (r_bands r))).
  split; [reflexivity|]. split; [rewrite S6; destruct (integral t); reflexivity|]. split; [exact S4|]. split; [exact S5|]. split; [exact S1|]. split; [exact S2|]. split; [exact S3|].
  destruct (integral t); (split; [intros Q; congruence || reflexivity|]); [discriminate|]. intros _ y x k v Hv. exists (blank_value (dm_nodata d) v). cbn [r_bands].
  split; [rewrite px_map, Hv; reflexivity|]. apply (blank_spec (dm_nodata d) [] v v); [intros (q & _ & [])|reflexivity].
Qed.

(** An image object whose data cannot be read raises -- but the DEM has it as its image from
    then on, with the elevations of the image before. *)
Theorem C91_load_fails w d i im e : nth_error (wd_images w) i = Some im -> geotiff_read_all from_gdal (wd_files w) im = Err e ->
  exists d', step w d (SetGeotiff i) = (w, d', Err e) /\ dm_gtiff d' = Some i /\ dm_data d' = dm_data d /\ dm_proj d' = dm_proj d.
Proof.
  intros N E. cbn [dem_step]. unfold dem_set_geotiff. rewrite N, E. eexists. split; [reflexivity|]. auto.
Qed.

Lemma convert_gen w d i im out (geoid : bool) dst grid ny nx nb :
  let name := match dst with Some n => n | None => txt "/vsimem/tmp_gdalwarp_geotiff.vrt" end in
  let op := if geoid then ToGeoid dst grid else ToEllipsoid dst grid in
  let with_grid := srs_of (gt_proj im) ++ txt " +geoidgrids=" ++ grid in
  dm_gtiff d = Some i -> nth_error (wd_images w) i = Some im ->
  (forall new, open_geotiff proj_of (put (wd_files w) name (Some out)) name = Ok new ->
     gdalwarp_geotiff_image from_gdal file_store wkt_of proj_of gdal_warp w i (if geoid then srs_of (gt_proj im) else with_grid) (if geoid then with_grid else srs_of (gt_proj im)) dst
     = (mkDemWorld (put (wd_files w) name (Some out)) (wd_images w ++ [new]), Ok (length (wd_images w)))) ->
  file_shape out ny nx nb -> (0 < nb)%nat ->
  exists w' d' r', step w d op = (w', d', if integral (from_gdal (d_type out)) then match dm_nodata d with NoNodata => Ok Done | _ => Err ValueError end else Ok Done) /\
    wd_files w' name = Some out /\ (forall n, n <> name -> wd_files w' n = wd_files w n) /\
    nth_error (wd_images w') i = Some (close_image im) /\ ((0 < gt_nb im)%nat -> geotiff_read_all from_gdal (wd_files w') (close_image im) = Err AttributeError) /\
    (forall j im', j <> i -> nth_error (wd_images w) j = Some im' -> nth_error (wd_images w') j = Some im') /\
    (exists new, nth_error (wd_images w') (length (wd_images w)) = Some new /\ open_geotiff proj_of (wd_files w') name = Ok new) /\
    dm_gtiff d' = Some (length (wd_images w)) /\ dm_proj d' = Some (proj_of (d_wkt out)) /\
    dm_nodata d' = dm_nodata d /\ dm_interp d' = dm_interp d /\ dm_ref d' = dm_ref d /\
    dm_data d' = Some (from_gdal (d_type out), r') /\ raster_shape r' ny nx nb /\
    (forall y x k v, px (d_bands out) y x k = Some v -> exists v', px (r_bands r') y x k = Some v' /\
       (integral (from_gdal (d_type out)) = true -> v' = v) /\
       (integral (from_gdal (d_type out)) = false -> (is_removed [dm_nodata d] v -> v' = NonFinite) /\ (~ is_removed [dm_nodata d] v -> v' = v))).
Proof.
  intros name op with_grid HG HI HW (F1 & F2 & F3 & F4) HB.
  set (fs := put (wd_files w) name (Some out)).
  set (new := mkGeotiff (V:=flt) (D:=D) None (Some name) (d_nx out) (d_ny out) (length (d_bands out)) (Some (d_type out)) (d_nodata out) (Some (path_root name)) (d_geot out) (proj_of (d_wkt out))).
  assert (OP : open_geotiff (V:=flt) (D:=D) proj_of fs name = Ok new).
  { unfold open_geotiff, fs. rewrite put_same. destruct (d_bands out) as [|b0 bs] eqn:EB; [cbn in F3; lia|]. unfold new. rewrite ?EB. reflexivity. }
  assert (LI : (i < length (wd_images w))%nat) by (apply nth_error_Some; congruence).
  set (w1 := mkDemWorld fs (wd_images w ++ [new])).
  pose proof (HW new OP) as GW. fold fs w1 in GW.
  set (w2 := set_image w1 i (close_image im)).
  assert (N1 : nth_error (wd_images w1) i = Some im) by (cbn [w1 wd_images]; rewrite nth_error_app1 by exact LI; exact HI).
  assert (LW : loads (P := P) from_gdal w2 (SetGeotiff (length (wd_images w))) = Some (new, (from_gdal (d_type out), mkRaster ny nx (d_bands out)))).
  { cbn [loads w2 set_image w1 wd_images wd_files]. rewrite upd_nat_nth. destruct (Nat.eqb_spec (length (wd_images w)) i); [lia|].
    rewrite nth_error_app2, Nat.sub_diag by lia. cbn [nth_error andb]. unfold geotiff_read_all. cbn [new gt_src gt_nb].
    replace (read_bands from_gdal fs (Some name) (length (d_bands out))) with (Ok (from_gdal (d_type out), mkRaster ny nx (d_bands out))); [reflexivity|].
    rewrite (@read_bands_ok flt D G W from_gdal fs name out (length (d_bands out)) (put_same _ _ _)) by lia. rewrite F1, F2, firstn_all. reflexivity. }
  destruct (C91_load w2 d (length (wd_images w)) new _ _ LW) as (d' & r' & E & D1 & D2 & D3 & D4 & D5 & D6 & D7 & D8).
  assert (ST : step w d op = (w2, d', if integral (from_gdal (d_type out)) then match dm_nodata d with NoNodata => Ok Done | _ => Err ValueError end else Ok Done)).
  { assert (ST0 : dem_convert from_gdal file_store wkt_of proj_of integral srs_of gdal_warp w d geoid dst grid = let '(d', a) := dem_set_geotiff from_gdal integral w2 d (length (wd_images w)) in (w2, d', a)).
    { unfold dem_convert. rewrite HG, HI. fold with_grid. rewrite GW. rewrite N1. reflexivity. }
    cbn [dem_step] in E. destruct (dem_set_geotiff from_gdal integral w2 d (length (wd_images w))) as [d2 a2]. injection E as E1 E2. subst d2 a2.
    unfold op. destruct geoid; cbn [dem_step]; exact ST0. }
  exists w2, d', r'. split; [exact ST|]. split; [apply put_same|]. split; [intros n Hn; now apply put_other|].
  split; [cbn [w2 set_image wd_images]; rewrite upd_nat_nth, Nat.eqb_refl, (proj2 (Nat.ltb_lt i (length (wd_images w1)))) by (apply nth_error_Some; congruence); reflexivity|].
  split. { intros Q. unfold geotiff_read_all. cbn [close_image gt_src gt_nb]. unfold read_bands. destruct (gt_nb im); [lia|reflexivity]. }
  split. { intros j im' NJ Hj. cbn [w2 set_image wd_images]. rewrite upd_nat_nth. destruct (Nat.eqb_spec j i); [contradiction|]. cbn [w1 wd_images andb].
    rewrite nth_error_app1; [exact Hj|]. apply nth_error_Some. congruence. }
  split. { exists new. split; [|exact OP]. cbn [w2 set_image wd_images]. rewrite upd_nat_nth. destruct (Nat.eqb_spec (length (wd_images w)) i); [lia|]. cbn [w1 wd_images andb].
    rewrite nth_error_app2, Nat.sub_diag by lia. reflexivity. }
  split; [exact D2|]. split; [exact D3|]. split; [exact D4|]. split; [exact D5|]. split; [exact D6|]. split; [exact D1|].
  split.
  { pose proof (set_fields from_gdal integral w2 d (length (wd_images w))) as (_ & _ & _ & _ & _ & S6). cbv zeta in S6. rewrite LW in S6. cbn [dem_step] in E.
    destruct (dem_set_geotiff from_gdal integral w2 d (length (wd_images w))) as [d2 a2]. injection E as E1 _. subst d2. cbn [fst] in S6. rewrite D1 in S6.
    assert (SH : raster_shape (mkRaster ny nx (d_bands out)) ny nx nb) by (repeat split; assumption).
    destruct (integral (from_gdal (d_type out))); injection S6 as ->; [exact SH|]. apply (map_shape (blank_value (dm_nodata d)) _ _ _ _ SH). }
  intros y x k v Hv. destruct (integral (from_gdal (d_type out))).
  - rewrite D7 by reflexivity. exists v. split; [exact Hv|]. split; [reflexivity|discriminate].
  - destruct (D8 eq_refl y x k v Hv) as (v' & V1 & V2 & V3). exists v'. split; [exact V1|]. split; [discriminate|auto].
Qed.

(** Converting heights.  The image is open on the file src, and gdal.Warp from the one reference
    system to the other -- the image's projection, with the geoid grid as destination for geoid
    heights, as source for ellipsoid heights -- gives the file out.  Then out is the file of the
    destination name, and no other file changes; the DEM has a new image, on that file, its
    projection and its elevations (less no-data values, as for a load), and the old image object is closed: it cannot be
    read any more.  Interpolation, reference and no-data value stay. *)
Theorem C91_convert w d i im src ds out (geoid : bool) dst grid ny nx nb :
  let name := match dst with Some n => n | None => txt "/vsimem/tmp_gdalwarp_geotiff.vrt" end in
  let op := if geoid then ToGeoid dst grid else ToEllipsoid dst grid in
  let with_grid := srs_of (gt_proj im) ++ txt " +geoidgrids=" ++ grid in
  dm_gtiff d = Some i -> nth_error (wd_images w) i = Some im -> gt_src im = Some src -> wd_files w src = Some ds -> name <> src ->
  gdal_warp ds (if geoid then srs_of (gt_proj im) else with_grid) (if geoid then with_grid else srs_of (gt_proj im)) = Some out ->
  file_shape out ny nx nb -> (0 < nb)%nat ->
  exists w' d' r', step w d op = (w', d', if integral (from_gdal (d_type out)) then match dm_nodata d with NoNodata => Ok Done | _ => Err ValueError end else Ok Done) /\
    wd_files w' name = Some out /\ (forall n, n <> name -> wd_files w' n = wd_files w n) /\
    nth_error (wd_images w') i = Some (close_image im) /\ ((0 < gt_nb im)%nat -> geotiff_read_all from_gdal (wd_files w') (close_image im) = Err AttributeError) /\
    (forall j im', j <> i -> nth_error (wd_images w) j = Some im' -> nth_error (wd_images w') j = Some im') /\
    (exists new, nth_error (wd_images w') (length (wd_images w)) = Some new /\ open_geotiff proj_of (wd_files w') name = Ok new) /\
    dm_gtiff d' = Some (length (wd_images w)) /\ dm_proj d' = Some (proj_of (d_wkt out)) /\
    dm_nodata d' = dm_nodata d /\ dm_interp d' = dm_interp d /\ dm_ref d' = dm_ref d /\
    dm_data d' = Some (from_gdal (d_type out), r') /\ raster_shape r' ny nx nb /\
    (forall y x k v, px (d_bands out) y x k = Some v -> exists v', px (r_bands r') y x k = Some v' /\
       (integral (from_gdal (d_type out)) = true -> v' = v) /\
       (integral (from_gdal (d_type out)) = false -> (is_removed [dm_nodata d] v -> v' = NonFinite) /\ (~ is_removed [dm_nodata d] v -> v' = v))).
Proof.
  intros name op with_grid HG HI HS HF HN HW HS4 HB.
  assert (UPD : set_image w i im = w).
  { unfold set_image. destruct w as [f l]. cbn [wd_files wd_images] in *. f_equal. clear - HI. revert i HI. induction l as [|a l IH]; intros [|i] H; cbn in *; try discriminate; [now injection H as ->|]. now rewrite (IH i H). }
  refine (convert_gen w d i im out geoid dst grid ny nx nb HG HI _ HS4 HB).
  intros new OP. fold name in OP |- *. unfold gdalwarp_geotiff_image. rewrite HI, HS. cbn [open_dset]. rewrite HF, UPD. fold name.
  destruct (text_eqb src name) eqn:TE; [apply text_eqb_spec in TE; congruence|]. fold with_grid. rewrite HW. rewrite OP. reflexivity.
Qed.

(** Converting heights of an image that is only in memory (an image object made from an array; loading it
    raises, but the DEM has it as its image, C91_load_fails): gdal.Warp is given the dataset ds that writing
    the image to a file would give, and all goes as for an image open on a file. *)
Theorem C91_convert_memory w d i im data scratch fs' im' ds out (geoid : bool) dst grid ny nx nb :
  let name := match dst with Some n => n | None => txt "/vsimem/tmp_gdalwarp_geotiff.vrt" end in
  let op := if geoid then ToGeoid dst grid else ToEllipsoid dst grid in
  let with_grid := srs_of (gt_proj im) ++ txt " +geoidgrids=" ++ grid in
  dm_gtiff d = Some i -> nth_error (wd_images w) i = Some im -> gt_src im = None -> gt_data im = Some data ->
  write_to_disk from_gdal file_store (Fin 0) wkt_of (wd_files w) im scratch = (fs', im', Ok tt) -> fs' scratch = Some ds ->
  gdal_warp ds (if geoid then srs_of (gt_proj im) else with_grid) (if geoid then with_grid else srs_of (gt_proj im)) = Some out ->
  file_shape out ny nx nb -> (0 < nb)%nat ->
  exists w' d' r', step w d op = (w', d', if integral (from_gdal (d_type out)) then match dm_nodata d with NoNodata => Ok Done | _ => Err ValueError end else Ok Done) /\
    wd_files w' name = Some out /\ (forall n, n <> name -> wd_files w' n = wd_files w n) /\
    nth_error (wd_images w') i = Some (close_image im) /\ ((0 < gt_nb im)%nat -> geotiff_read_all from_gdal (wd_files w') (close_image im) = Err AttributeError) /\
    (forall j im', j <> i -> nth_error (wd_images w) j = Some im' -> nth_error (wd_images w') j = Some im') /\
    (exists new, nth_error (wd_images w') (length (wd_images w)) = Some new /\ open_geotiff proj_of (wd_files w') name = Ok new) /\
    dm_gtiff d' = Some (length (wd_images w)) /\ dm_proj d' = Some (proj_of (d_wkt out)) /\
    dm_nodata d' = dm_nodata d /\ dm_interp d' = dm_interp d /\ dm_ref d' = dm_ref d /\
    dm_data d' = Some (from_gdal (d_type out), r') /\ raster_shape r' ny nx nb /\
    (forall y x k v, px (d_bands out) y x k = Some v -> exists v', px (r_bands r') y x k = Some v' /\
       (integral (from_gdal (d_type out)) = true -> v' = v) /\
       (integral (from_gdal (d_type out)) = false -> (is_removed [dm_nodata d] v -> v' = NonFinite) /\ (~ is_removed [dm_nodata d] v -> v' = v))).
Proof.
  intros name op with_grid HG HI HS HD HWr HF HW HS4 HB. destruct data as [dtype r].
  assert (UPD : set_image w i im = w).
  { unfold set_image. destruct w as [f l]. cbn [wd_files wd_images] in *. f_equal. clear - HI. revert i HI. induction l as [|a l IH]; intros [|i] H; cbn in *; try discriminate; [now injection H as ->|]. now rewrite (IH i H). }
  destruct (@C72_memory_dataset flt D G P W from_gdal file_store (Fin 0) wkt_of _ _ _ _ _ _ _ HD HWr) as (ds' & E1 & E2).
  rewrite HF in E1. injection E1 as <-.
  assert (EI : im' = im).
  { unfold mem_dataset in E2. destruct (gt_type im); [|discriminate]. destruct (_ || _)%bool; [discriminate|]. rewrite HD in E2.
    destruct (write_bands _ _ _ _ _ _) as [? ?]. injection E2 as E2 _. rewrite <- E2. clear - HD. destruct im. cbn in *. subst. reflexivity. }
  subst im'.
  refine (convert_gen w d i im out geoid dst grid ny nx nb HG HI _ HS4 HB).
  intros new OP. fold name in OP |- *. unfold gdalwarp_geotiff_image. rewrite HI, HS, E2, UPD. fold name. fold with_grid. rewrite HW. rewrite OP. reflexivity.
Qed.

(** A warp that fails -- gdal.Warp returns nothing, or the destination is the file the image is
    open on, onto which GDAL does not write.  Without a file of the destination name the call
    raises an AttributeError and nothing has changed at all. *)
Theorem C91_convert_fails w d i im src ds (geoid : bool) dst grid :
  let name := match dst with Some n => n | None => txt "/vsimem/tmp_gdalwarp_geotiff.vrt" end in
  let op := if geoid then ToGeoid dst grid else ToEllipsoid dst grid in
  dm_gtiff d = Some i -> nth_error (wd_images w) i = Some im -> gt_src im = Some src -> wd_files w src = Some ds ->
  (forall a b, gdal_warp ds a b = None) -> wd_files w name = None ->
  step w d op = (w, d, Err AttributeError).
Proof.
  intros name op HG HI HS HF HW HN.
  assert (UPD : set_image w i im = w).
  { unfold set_image. destruct w as [f l]. cbn [wd_files wd_images] in *. f_equal. clear - HI. revert i HI. induction l as [|a l IH]; intros [|i] H; cbn in *; try discriminate; [now injection H as ->|]. now rewrite (IH i H). }
  assert (GW : forall a b, gdalwarp_geotiff_image from_gdal file_store wkt_of proj_of gdal_warp w i a b dst = (w, Err AttributeError)).
  { intros a b. unfold gdalwarp_geotiff_image. rewrite HI, HS. cbn [open_dset]. rewrite HF, UPD. fold name.
    replace (if text_eqb src name then None else gdal_warp ds a b) with (@None (dataset flt G W)) by (destruct (text_eqb src name); [reflexivity|now rewrite HW]).
    unfold open_geotiff. rewrite HN. now destruct w. }
  unfold op. destruct geoid; cbn [dem_step]; unfold dem_convert; rewrite HG, HI, GW; reflexivity.
Qed.

(** If there is a file of the destination name, however, the conversion seems to succeed: the DEM
    takes the elevations of that file as they are. *)
Theorem C91_convert_stale w d i im src ds old (geoid : bool) dst grid ny nx nb :
  let name := match dst with Some n => n | None => txt "/vsimem/tmp_gdalwarp_geotiff.vrt" end in
  let op := if geoid then ToGeoid dst grid else ToEllipsoid dst grid in
  dm_gtiff d = Some i -> nth_error (wd_images w) i = Some im -> gt_src im = Some src -> wd_files w src = Some ds ->
  (name = src \/ forall a b, gdal_warp ds a b = None) -> wd_files w name = Some old -> file_shape old ny nx nb -> (0 < nb)%nat ->
  integral (from_gdal (d_type old)) = false -> dm_nodata d = NoNodata ->
  exists w' d', step w d op = (w', d', Ok Done) /\ dm_data d' = Some (from_gdal (d_type old), mkRaster ny nx (d_bands old)).
Proof.
  intros name op HG HI HS HF HW HN (F1 & F2 & F3 & F4) HB HT HD.
  assert (LI : (i < length (wd_images w))%nat) by (apply nth_error_Some; congruence).
  assert (UPD : set_image w i im = w).
  { unfold set_image. destruct w as [f l]. cbn [wd_files wd_images] in *. f_equal. clear - HI. revert i HI. induction l as [|a l IH]; intros [|i] H; cbn in *; try discriminate; [now injection H as ->|]. now rewrite (IH i H). }
  set (new := mkGeotiff (V:=flt) (D:=D) None (Some name) (d_nx old) (d_ny old) (length (d_bands old)) (Some (d_type old)) (d_nodata old) (Some (path_root name)) (d_geot old) (proj_of (d_wkt old))).
  assert (OP : open_geotiff (V:=flt) (D:=D) proj_of (wd_files w) name = Ok new).
  { unfold open_geotiff. rewrite HN. destruct (d_bands old) as [|b0 bs] eqn:EB; [cbn in F3; lia|]. unfold new. rewrite ?EB. reflexivity. }
  set (w1 := mkDemWorld (wd_files w) (wd_images w ++ [new])).
  assert (GW : forall a b, gdalwarp_geotiff_image from_gdal file_store wkt_of proj_of gdal_warp w i a b dst = (w1, Ok (length (wd_images w)))).
  { intros a b. unfold gdalwarp_geotiff_image. rewrite HI, HS. cbn [open_dset]. rewrite HF, UPD. fold name.
    replace (if text_eqb src name then None else gdal_warp ds a b) with (@None (dataset flt G W)).
    - rewrite OP. reflexivity.
    - destruct (text_eqb src name) eqn:TE; [reflexivity|]. destruct HW as [HW|HW]; [|now rewrite HW]. exfalso. rewrite HW, text_eqb_refl in TE. discriminate. }
  set (w2 := set_image w1 i (close_image im)).
  assert (N1 : nth_error (wd_images w1) i = Some im) by (cbn [w1 wd_images]; rewrite nth_error_app1 by exact LI; exact HI).
  assert (RD : read_bands from_gdal (wd_files w) (Some name) (length (d_bands old)) = Ok (from_gdal (d_type old), mkRaster ny nx (d_bands old))).
  { rewrite (@read_bands_ok flt D G W from_gdal (wd_files w) name old (length (d_bands old)) HN) by lia. rewrite F1, F2, firstn_all. reflexivity. }
  assert (E : dem_set_geotiff from_gdal integral w2 d (length (wd_images w)) =
    (mkGtiffDem (Some (from_gdal (d_type old), mkRaster ny nx (d_bands old))) (Some (length (wd_images w))) NoNodata (dm_interp d) (Some (gt_proj new)) (dm_ref d), Ok Done)).
  { unfold dem_set_geotiff. cbn [w2 set_image w1 wd_images wd_files]. rewrite upd_nat_nth. destruct (Nat.eqb_spec (length (wd_images w)) i); [lia|]. cbn [andb].
    rewrite nth_error_app2, Nat.sub_diag by lia. cbn [nth_error]. unfold geotiff_read_all. cbn [new gt_src gt_nb]. rewrite RD, HD. reflexivity. }
  exists w2. eexists. split; [|shelve].
  unfold op. destruct geoid; cbn [dem_step]; unfold dem_convert; rewrite HG, HI, GW, N1; fold w2; rewrite E; reflexivity.
  Unshelve. reflexivity.
Qed.

(** Before an image is loaded the conversions are TypeErrors; the conversion to another vertical
    reference system always fails -- with a TypeError before an image is loaded and a NameError after.
    Neither changes anything. *)
Theorem C91_no_conversion w d dst grid name code :
  (dm_gtiff d = None -> step w d (ToGeoid dst grid) = (w, d, Err TypeError) /\ step w d (ToEllipsoid dst grid) = (w, d, Err TypeError)) /\
  (dm_gtiff d = None -> step w d (ConvertReference name code) = (w, d, Err TypeError)) /\
  (dm_gtiff d <> None -> step w d (ConvertReference name code) = (w, d, Err OtherError)).
Proof.
  split.
  - intros H. cbn [dem_step]. unfold dem_convert. rewrite H. auto.
  - cbn [dem_step]. split; destruct (dm_gtiff d); intros H; try reflexivity; congruence.
Qed.

(** The factory: for a file of one band, the DEM it makes is the one of C41 and C42 -- same
    elevations, same interpolation, same error. *)
Theorem C91_factory w fname f rows ny nx nodata file_nodata method : wd_files w fname = Some f ->
  d_bands f = [rows] -> d_ny f = ny -> d_nx f = nx -> d_nodata f = nodata_num file_nodata ->
  let w' := mkDemWorld (wd_files w) (wd_images w ++ [mkGeotiff None (Some fname) nx ny 1 (Some (d_type f)) (d_nodata f) (Some (path_root fname)) (d_geot f) (proj_of (d_wkt f))]) in
  fst (dem_from_file from_gdal proj_of integral w fname (nodata_num nodata) method) = w' /\
  match from_gtiff_file (integral (from_gdal (d_type f))) rows (Z.of_nat nx) (Z.of_nat ny) file_nodata nodata method with
  | Ok g => exists d, snd (dem_from_file from_gdal proj_of integral w fname (nodata_num nodata) method) = Ok d /\
      dm_data d = Some (from_gdal (d_type f), mkRaster ny nx [gd_data g]) /\ dm_interp d = gd_interp g /\ dm_nodata d = nodata_num (gd_nodata g) /\
      dm_gtiff d = Some (length (wd_images w)) /\ dm_proj d = Some (proj_of (d_wkt f)) /\ dm_ref d = None
  | Err e => snd (dem_from_file from_gdal proj_of integral w fname (nodata_num nodata) method) = Err e
  | Diverges => False
  end.
Proof.
  intros HF HB Hy Hx HN w'. unfold dem_from_file.
  set (im := mkGeotiff (V:=flt) (D:=D) None (Some fname) nx ny 1 (Some (d_type f)) (d_nodata f) (Some (path_root fname)) (d_geot f) (proj_of (d_wkt f))).
  assert (OP : open_geotiff (V:=flt) (D:=D) proj_of (wd_files w) fname = Ok im).
  { unfold open_geotiff. rewrite HF, HB, Hx, Hy. reflexivity. }
  rewrite OP. cbn [wd_images]. rewrite app_length. cbn [length]. replace (length (wd_images w) + 1 - 1)%nat with (length (wd_images w)) by lia.
  assert (RD : geotiff_read_all from_gdal (wd_files w) im = Ok (from_gdal (d_type f), mkRaster ny nx [rows])).
  { unfold geotiff_read_all. cbn [im gt_src gt_nb]. rewrite (@read_bands_ok flt D G W from_gdal (wd_files w) fname f 1 HF) by (rewrite HB; cbn; lia). rewrite HB, Hx, Hy. reflexivity. }
  assert (S1 : dem_set_geotiff from_gdal integral (mkDemWorld (wd_files w) (wd_images w ++ [im])) new_dem (length (wd_images w)) =
     (mkGtiffDem (Some (from_gdal (d_type f), mkRaster ny nx [rows])) (Some (length (wd_images w))) NoNodata Bilinear (Some (proj_of (d_wkt f))) None, Ok Done)).
  { unfold dem_set_geotiff. cbn [wd_images wd_files]. rewrite nth_error_app2, Nat.sub_diag by lia. cbn [nth_error]. rewrite RD. reflexivity. }
  rewrite S1. change (mkDemWorld (wd_files w) (wd_images w ++ [im])) with w'. assert (ND : match nodata_num nodata with NoNodata => gt_nodata im | _ => nodata_num nodata end = match nodata with Some v => Nodata v | None => nodata_num file_nodata end)
    by (destruct nodata; cbn [nodata_num im gt_nodata]; [reflexivity|exact HN]).
  rewrite ND. clearbody w'. clear ND S1 RD OP.
  assert (B : forall v, map (map (map (blank_value (Nodata v)))) [rows] = [remove_nodata (Some v) rows]) by reflexivity.
  unfold from_gtiff_file. destruct nodata as [v|]; [|destruct file_nodata as [v|]]; cbn [nodata_num dem_remove_nodata dm_data].
  1,2: unfold dem_remove_nodata; cbn [dm_data]; destruct (integral (from_gdal (d_type f))); cbn [fst snd dm_data dm_gtiff dm_nodata dm_proj dm_ref dm_interp r_ny r_nx r_bands];
    (split; [reflexivity|]); [reflexivity|]; eexists; (split; [reflexivity|]); cbn [gd_data gd_interp gd_nodata dm_data dm_gtiff dm_nodata dm_proj dm_ref dm_interp];
    rewrite B; repeat split; destruct (text_eqb method (txt "bilinear")) eqn:TB; try reflexivity; apply text_eqb_spec in TB; subst method; reflexivity.
  unfold dem_remove_nodata. cbn [dm_data fst snd]. destruct (integral (from_gdal (d_type f)));
    (split; [reflexivity|]); eexists; (split; [reflexivity|]); cbn [gd_data gd_interp gd_nodata dm_data dm_gtiff dm_nodata dm_proj dm_ref dm_interp remove_nodata];
    repeat split; destruct (text_eqb method (txt "bilinear")) eqn:TB; try reflexivity; apply text_eqb_spec in TB; subst method; reflexivity.
Qed.
End Statements.
Print Assumptions C91_attributes.
Print Assumptions C91_elevations.
Print Assumptions C91_not_loaded.
Print Assumptions C91_altitudes.
Print Assumptions C91_mean.
Print Assumptions C91_load.
Print Assumptions C91_load_fails.
Print Assumptions C91_convert.
Print Assumptions C91_convert_memory.
Print Assumptions C91_convert_fails.
Print Assumptions C91_convert_stale.
Print Assumptions C91_no_conversion.
Print Assumptions C91_factory.

(** A DEM of constant elevation: after every history the same elevation; reference and projection
    are the last ones set, AttributeError before; converting to another reference does nothing. *)
Theorem C91_constant (P : Type) elevation (ops : list (const_op P)) dst code :
  let d := const_run elevation ops in
  cd_elevation d = elevation /\
  const_step d CGetProjection = (d, match last_some gives_const_projection ops with Some p => Ok (IsProjection p) | None => Err AttributeError end) /\
  const_step d CGetReference = (d, match last_some gives_const_reference ops with Some c => Ok (IsReference c) | None => Err AttributeError end) /\
  const_step d (CConvertReference dst code) = (d, Ok Done).
Proof.
  assert (G : const_run elevation ops = mkConstDem elevation (last_some gives_const_projection ops) (last_some gives_const_reference ops)).
  { induction ops as [|o ops IH] using rev_ind; [reflexivity|]. unfold const_run in *. rewrite fold_left_app, IH. cbn [fold_left].
    rewrite !last_some_app. destruct o; reflexivity. }
  cbv zeta. rewrite G. cbn [cd_elevation const_step cd_proj cd_ref]. auto.
Qed.
Print Assumptions C91_constant.

(** Concrete worlds: image 0 on a file of two rows, image 1 in memory only. *)
Definition rows_of (a b c e : R) : list (list flt) := [[Fin a; Fin b]; [Fin c; Fin e]].
Definition demo_file (a : R) : dataset flt unit unit := mkDataset 2 2 tt [rows_of a 2 3 4] [0; 1; 0; 0; 0; -1] tt NoNodata.
Definition demo_files : files flt unit unit := fun n => if text_eqb n (txt "a.tif") then Some (demo_file 1) else if text_eqb n (txt "old.tif") then Some (demo_file 100) else None.
Definition demo_image : geotiff flt unit unit unit := mkGeotiff None (Some (txt "a.tif")) 2 2 1 (Some tt) NoNodata (Some (txt "a")) [0; 1; 0; 0; 0; -1] tt.
Definition memory_image : geotiff flt unit unit unit := mkGeotiff (Some (tt, mkRaster 2 2 [rows_of 5 6 7 8])) None 2 2 1 (Some tt) NoNodata None [1000; 1; 0; 0; 0; -1] tt.
Definition demo_world : dem_world unit unit unit unit := mkDemWorld demo_files [demo_image; memory_image].
Definition demo_step (warp : dataset flt unit unit -> text -> text -> option (dataset flt unit unit)) :=
  dem_step (P := unit) (fun g : unit => g) (fun _ _ v => v) (fun p : unit => p) (fun w : unit => w) (fun _ => false) (fun _ => txt "srs") warp.
Definition demo_run (warp : dataset flt unit unit -> text -> text -> option (dataset flt unit unit)) :=
  dem_run (P := unit) (fun g : unit => g) (fun _ _ v => v) (fun p : unit => p) (fun w : unit => w) (fun _ => false) (fun _ => txt "srs") warp.

(** That a failing set_geotiff_image leaves the DEM with one image's geotransform and the same
    image's elevations: refuted.  Setting the in-memory image raises, but the DEM now locates
    the elevations of the first image with the geotransform of the second. *)
Theorem C91_load_fails_refuted : exists d d',
  demo_run (fun _ _ _ => None) demo_world new_dem [SetGeotiff 0] = (demo_world, d) /\
  demo_step (fun _ _ _ => None) demo_world d (SetGeotiff 1) = (demo_world, d', Err AttributeError) /\
  dm_gtiff d' = Some 1%nat /\ dm_data d' = dm_data d /\ dm_data d = Some (tt, mkRaster 2 2 [rows_of 1 2 3 4]) /\
  gt_data memory_image <> dm_data d' /\ gt_geot memory_image <> gt_geot demo_image.
Proof.
  do 2 eexists. split; [reflexivity|]. split; [reflexivity|]. split; [reflexivity|]. split; [reflexivity|]. split; [reflexivity|]. cbn [gt_data memory_image dm_data gt_geot demo_image].
  split; intros Q; injection Q as Q; revert Q; intros; lra.
Qed.
Print Assumptions C91_load_fails_refuted.

(** That a successful conversion has the warped heights: refuted.  gdal.Warp fails, and the DEM
    takes the heights of an old file of the destination name. *)
Theorem C91_convert_stale_refuted : exists w' d', 
  demo_step (fun _ _ _ => None) demo_world (snd (demo_run (fun _ _ _ => None) demo_world new_dem [SetGeotiff 0])) (ToGeoid (Some (txt "old.tif")) (txt "egm96")) = (w', d', Ok Done) /\
  dm_data d' = Some (tt, mkRaster 2 2 [rows_of 100 2 3 4]).
Proof. do 2 eexists. split; reflexivity. Qed.
Print Assumptions C91_convert_stale_refuted.

(** The hypotheses are met: a conversion that adds one metre; a load between two no-data values. *)
Definition plus_one (d : dataset flt unit unit) (a b : text) : option (dataset flt unit unit) :=
  Some (mkDataset (d_nx d) (d_ny d) (d_type d) (map (map (map (fmap (fun v => v + 1)))) (d_bands d)) (d_geot d) (d_wkt d) (d_nodata d)).
Example C91_convert_met : exists w' d',
  demo_step plus_one demo_world (snd (demo_run plus_one demo_world new_dem [SetGeotiff 0])) (ToEllipsoid None (txt "egm96")) = (w', d', Ok Done) /\
  dm_data d' = Some (tt, mkRaster 2 2 [[[Fin (1 + 1); Fin (2 + 1)]; [Fin (3 + 1); Fin (4 + 1)]]]) /\ dm_gtiff d' = Some 2%nat.
Proof. do 2 eexists. split; [reflexivity|]. split; reflexivity. Qed.
Example C91_elevations_met : exists im, loads (P := unit) (fun g : unit => g) demo_world (SetGeotiff 0) = Some (im, (tt, mkRaster 2 2 [rows_of 1 2 3 4])) /\
  removed [RemoveNodata (P := unit) (Nodata 1); SetNearest] [SetBilinear; RemoveNodata (Nodata 4)] = [Nodata 1; Nodata 4] /\
  loads (P := unit) (fun g : unit => g) demo_world (SetGeotiff 1) = None.
Proof. eexists. split; [reflexivity|]. split; reflexivity. Qed.
