(** C72-C75: image objects and their files. *)
From Coq Require Import Reals.
From Verif Require Import M_Objects Spec_Objects P_Objects.
From Verif Require Geo3 Spec_Photo Spec_Cameras Prop_Cameras.
Open Scope list_scope.

(** C72: an array written as a GeoTIFF and opened again comes back with its values, size, data
    type, geotransform, projection and (whole) no-data value, and no other file changes.  For
    types that GDAL has and can hold. *)
Theorem C72_round_trip (V D G P W : Type) (to_gdal : D -> option G) (from_gdal : G -> D) (store : D -> G -> V -> V)
    (zero : V) (wkt_of : P -> W) (proj_of : W -> P) fs name dtype g a ny nx nb geot proj nd :
  array_shape a ny nx nb -> (0 < ny)%nat -> (0 < nx)%nat -> (0 < nb)%nat ->
  to_gdal dtype = Some g -> from_gdal g = dtype ->
  (forall y x k v, array_px a y x k = Some v -> store dtype g v = v) ->
  whole nd ->
  exists fs' im' im2 r,
    write_to_disk from_gdal store zero wkt_of fs (geotiff_from_numpy to_gdal dtype a geot proj nd) name = (fs', im', Ok tt) /\
    (forall n, n <> name -> fs' n = fs n) /\
    open_geotiff proj_of fs' name = Ok im2 /\
    gt_nx im2 = nx /\ gt_ny im2 = ny /\ gt_nb im2 = nb /\ gt_type im2 = Some g /\ gt_nodata im2 = nd /\
    gt_geot im2 = geot /\ gt_proj im2 = proj_of (wkt_of proj) /\
    geotiff_read_all from_gdal fs' im2 = Ok (dtype, r) /\
    raster_shape r ny nx nb /\
    (forall y x k, (y < ny)%nat -> (x < nx)%nat -> (k < nb)%nat -> px (r_bands r) y x k = array_px a y x k).
Proof.
  intros Sh Hy Hx Hb T F St Wh.
  set (im := geotiff_from_numpy to_gdal dtype a geot proj nd).
  set (r0 := match a with Array2 ny nx rows => mkRaster ny nx [rows] | Array3 r => r end).
  assert (Sr : raster_shape r0 ny nx nb).
  { destruct a as [my mx rows|r]; [|exact Sh]. destruct Sh as (-> & -> & -> & R). subst r0. split; [reflexivity|]. split; [reflexivity|]. split; [reflexivity|]. constructor; [exact R|constructor]. }
  assert (Ap : forall y x k, (k < nb)%nat -> px (r_bands r0) y x k = array_px a y x k).
  { intros y x k Hk. destruct a as [my mx rows|r]; [|reflexivity]. destruct Sh as (-> & -> & -> & R). assert (k = 0%nat) by lia. subst k. reflexivity. }
  assert (E1 : gt_nx im = nx /\ gt_ny im = ny /\ gt_nb im = nb).
  { destruct Sr as (A & B & C & _). subst im. unfold geotiff_from_numpy. cbn [gt_nx gt_ny gt_nb]. fold r0. auto. }
  destruct E1 as (Ex & Ey & Eb).
  assert (Ed : gt_data im = Some (dtype, r0)) by reflexivity.
  destruct (@written_file V D G P W store zero wkt_of dtype r0 nd im g ny nx nb nb Sr) as (bands & E & L & FR & Px); try lia.
  { apply whole_int. exact Wh. }
  assert (Wr : write_to_disk from_gdal store zero wkt_of fs im name =
     (put fs name (Some (mkDataset (gt_nx im) (gt_ny im) g bands (gt_geot im) (wkt_of (gt_proj im)) (final_nodata nd nb NoNodata))),
      with_data im (Some (dtype, r0)), Ok tt)).
  { rewrite (@write_to_disk_unfold V D G P W) with (g := g); [|exact T|lia|lia|lia]. rewrite Ed, Eb.
    change (gt_nodata im) with nd. rewrite E. reflexivity. }
  rewrite Wr. rewrite (whole_final nd nb Wh Hb).
  set (ds := mkDataset (gt_nx im) (gt_ny im) g bands (gt_geot im) (wkt_of (gt_proj im)) nd).
  assert (Op : open_geotiff (V:=V) (D:=D) proj_of (put fs name (Some ds)) name =
    Ok (mkGeotiff None (Some name) nx ny nb (Some g) nd (Some (path_root name)) geot (proj_of (wkt_of proj)))).
  { unfold open_geotiff. rewrite put_same. subst ds. cbn [d_bands d_nx d_ny d_type d_nodata d_geot d_wkt]. rewrite L, Ex, Ey, Eb.
    destruct bands as [|b0 bs]; [cbn [length] in L; lia|]. reflexivity. }
  assert (Rd : geotiff_read_all (V:=V) (D:=D) from_gdal (put fs name (Some ds))
     (mkGeotiff None (Some name) nx ny nb (Some g) nd (Some (path_root name)) geot (proj_of (wkt_of proj))) = Ok (dtype, mkRaster ny nx bands)).
  { unfold geotiff_read_all. cbn [gt_src gt_nb].
    rewrite (@read_bands_ok V D G W from_gdal _ name ds nb (put_same _ _ _)) by (subst ds; cbn [d_bands]; lia).
    subst ds. cbn [d_type d_ny d_nx d_bands]. rewrite F, Ex, Ey, firstn_all2 by lia. reflexivity. }
  do 4 eexists. split; [reflexivity|]. split; [intros n Hn; apply put_other; exact Hn|]. split; [exact Op|].
  repeat (split; [reflexivity|]). split; [exact Rd|]. split.
  { split; [reflexivity|]. split; [reflexivity|]. split; [cbn [r_bands]; lia|]. rewrite <- Ex, <- Ey. exact FR. }
  intros y x k Ly Lx Lk. cbn [r_bands]. rewrite Px by lia.
  rewrite (proj2 (Nat.ltb_lt _ _) Ly), (proj2 (Nat.ltb_lt _ _) Lx), (proj2 (Nat.ltb_lt _ _) Lk). cbn [andb].
  rewrite Ap by exact Lk. destruct (array_px a y x k) as [v|] eqn:Av; [|reflexivity]. simpl. f_equal. apply (St y x k v Av).
Qed.
Print Assumptions C72_round_trip.

(** C72: what is written is the image data in memory: pixel (y, x) of the first n_bands bands,
    converted to the file's type.  Data smaller than the image fills the upper left corner,
    the rest is zero. *)
Theorem C72_memory_is_written (V D G P W : Type) (from_gdal : G -> D) (store : D -> G -> V -> V)
    (zero : V) (wkt_of : P -> W) fs name (im : geotiff V D G P) g dtype r my mx mb :
  gt_type im = Some g -> gt_data im = Some (dtype, r) -> raster_shape r my mx mb ->
  (0 < gt_nx im)%nat -> (0 < gt_ny im)%nat -> (0 < gt_nb im)%nat ->
  (my <= gt_ny im)%nat -> (mx <= gt_nx im)%nat -> (gt_nb im <= mb)%nat -> whole (gt_nodata im) ->
  exists fs' d,
    write_to_disk from_gdal store zero wkt_of fs im name = (fs', im, Ok tt) /\ fs' name = Some d /\
    (forall n, n <> name -> fs' n = fs n) /\
    file_shape d (gt_ny im) (gt_nx im) (gt_nb im) /\ d_type d = g /\ d_geot d = gt_geot im /\
    d_wkt d = wkt_of (gt_proj im) /\ d_nodata d = gt_nodata im /\
    forall y x k, (y < gt_ny im)%nat -> (x < gt_nx im)%nat -> (k < gt_nb im)%nat ->
      px (d_bands d) y x k = match px (r_bands r) y x k with Some v => Some (store dtype g v) | None => Some zero end.
Proof.
  intros T Ed Sr H1 H2 H3 Hy Hx Hb Wh.
  destruct (@written_file V D G P W store zero wkt_of dtype r (gt_nodata im) im g my mx mb (gt_nb im) Sr) as (bands & E & L & FR & Px); try lia.
  { apply whole_int. exact Wh. }
  rewrite (@write_to_disk_unfold V D G P W) with (g := g); auto. rewrite Ed, E.
  rewrite (whole_final _ _ Wh H3).
  do 2 eexists. split; [|split; [apply put_same|]].
  { f_equal. f_equal. destruct im; simpl in *; subst; reflexivity. }
  split; [intros n Hn; apply put_other; exact Hn|]. split.
  { split; [reflexivity|]. split; [reflexivity|]. split; [exact L|exact FR]. }
  repeat (split; [reflexivity|]).
  intros y x k Ly Lx Lk. cbn [d_bands]. rewrite Px by lia. rewrite (proj2 (Nat.ltb_lt _ _) Lk), Bool.andb_true_r.
  destruct Sr as (S1 & S2 & S3 & S4).
  destruct (Nat.ltb_spec y my) as [Qy|Qy]; destruct (Nat.ltb_spec x mx) as [Qx|Qx]; cbn [andb].
  - destruct (proj2 (px_in _ _ _ _ y x k S3 S4)) as [v Hv]; [lia|]. rewrite Hv. reflexivity.
  - destruct (px (r_bands r) y x k) as [v|] eqn:E1; [|reflexivity].
    destruct (proj1 (px_in _ _ _ _ y x k S3 S4)); [eauto|lia].
  - destruct (px (r_bands r) y x k) as [v|] eqn:E1; [|reflexivity].
    destruct (proj1 (px_in _ _ _ _ y x k S3 S4)); [eauto|lia].
  - destruct (px (r_bands r) y x k) as [v|] eqn:E1; [|reflexivity].
    destruct (proj1 (px_in _ _ _ _ y x k S3 S4)); [eauto|lia].
Qed.
Print Assumptions C72_memory_is_written.

(** C72: data with more rows or columns than the metadata says raise ValueError and leave a
    file of zeros *)
Theorem C72_data_too_large (V D G P W : Type) (from_gdal : G -> D) (store : D -> G -> V -> V)
    (zero : V) (wkt_of : P -> W) fs name (im : geotiff V D G P) g dtype r my mx mb :
  gt_type im = Some g -> gt_data im = Some (dtype, r) -> raster_shape r my mx mb -> (0 < mb)%nat ->
  (0 < gt_nx im)%nat -> (0 < gt_ny im)%nat -> (0 < gt_nb im)%nat ->
  (gt_ny im < my \/ gt_nx im < mx)%nat ->
  exists fs' d,
    write_to_disk from_gdal store zero wkt_of fs im name = (fs', im, Err ValueError) /\ fs' name = Some d /\
    forall y x k, (y < gt_ny im)%nat -> (x < gt_nx im)%nat -> (k < gt_nb im)%nat -> px (d_bands d) y x k = Some zero.
Proof.
  intros T Ed (S1 & S2 & S3 & S4) Hb H1 H2 H3 Hlt.
  rewrite (@write_to_disk_unfold V D G P W) with (g := g); auto. rewrite Ed.
  destruct (gt_nb im) as [|nb] eqn:Enb; [lia|]. cbn [seq write_bands]. rewrite py_get_nat.
  destruct (r_bands r) as [|b bs] eqn:Eb; [simpl in S3; lia|]. cbn [nth_error].
  assert (WA : write_array store (blank_ds zero wkt_of im g) 0 dtype r b = Err ValueError).
  { unfold write_array. cbn [blank_ds d_ny d_nx]. rewrite S1, S2.
    destruct (Nat.leb_spec my (gt_ny im)); destruct (Nat.leb_spec mx (gt_nx im)); cbn [andb]; auto; lia. }
  rewrite WA. do 2 eexists. split; [|split; [apply put_same|]].
  { f_equal. f_equal. destruct im; simpl in *; subst; reflexivity. }
  intros y x k Ly Lx Lk. cbn [blank_ds d_bands]. apply px_blank; try assumption. rewrite Enb. exact Lk.
Qed.
Print Assumptions C72_data_too_large.

(** C72: fewer bands of data than the metadata says raise IndexError; the file holds the bands
    there are, and zeros *)
Theorem C72_missing_bands (V D G P W : Type) (from_gdal : G -> D) (store : D -> G -> V -> V)
    (zero : V) (wkt_of : P -> W) fs name (im : geotiff V D G P) g dtype r mb :
  gt_type im = Some g -> gt_data im = Some (dtype, r) -> raster_shape r (gt_ny im) (gt_nx im) mb ->
  (0 < gt_nx im)%nat -> (0 < gt_ny im)%nat -> (mb < gt_nb im)%nat -> whole (gt_nodata im) ->
  exists fs' d,
    write_to_disk from_gdal store zero wkt_of fs im name = (fs', im, Err IndexError) /\ fs' name = Some d /\
    file_shape d (gt_ny im) (gt_nx im) (gt_nb im) /\
    forall y x k, (y < gt_ny im)%nat -> (x < gt_nx im)%nat -> (k < gt_nb im)%nat ->
      px (d_bands d) y x k = match px (r_bands r) y x k with Some v => Some (store dtype g v) | None => Some zero end.
Proof.
  intros T Ed Sr H1 H2 Hb Wh.
  destruct (@written_file V D G P W store zero wkt_of dtype r (gt_nodata im) im g (gt_ny im) (gt_nx im) mb mb Sr) as (bands & E & L & FR & Px); try lia.
  { apply whole_int. exact Wh. }
  rewrite (@write_to_disk_unfold V D G P W) with (g := g); auto; [|lia]. rewrite Ed.
  assert (Es : seq 0 (gt_nb im) = seq 0 mb ++ seq (0 + mb) (S (gt_nb im - mb - 1))) by (rewrite <- seq_app; f_equal; lia).
  rewrite Es, (@write_bands_app V D G W), E. cbn [seq write_bands]. rewrite py_get_nat.
  destruct Sr as (S1 & S2 & S3 & S4).
  rewrite (proj2 (nth_error_None (r_bands r) (0 + mb))) by lia.
  do 2 eexists. split; [|split; [apply put_same|]].
  { f_equal. f_equal. destruct im; simpl in *; subst; reflexivity. }
  split.
  { split; [reflexivity|]. split; [reflexivity|]. split; [exact L|exact FR]. }
  intros y x k Ly Lx Lk. cbn [d_bands]. rewrite Px by lia.
  rewrite (proj2 (Nat.ltb_lt _ _) Ly), (proj2 (Nat.ltb_lt _ _) Lx). cbn [andb].
  destruct (Nat.ltb_spec k mb) as [Qk|Qk].
  - destruct (proj2 (px_in _ _ _ _ y x k S3 S4)) as [v Hv]; [lia|]. rewrite Hv. reflexivity.
  - destruct (px (r_bands r) y x k) as [v|] eqn:E1; [|reflexivity].
    destruct (proj1 (px_in _ _ _ _ y x k S3 S4)); [eauto|lia].
Qed.
Print Assumptions C72_missing_bands.

(** C72: the no-data value that is written is the given one with its fraction cut off; so a
    fractional no-data value does not come back *)
Theorem C72_nodata_truncated (V D G P W : Type) (from_gdal : G -> D) (store : D -> G -> V -> V)
    (zero : V) (wkt_of : P -> W) fs name (im : geotiff V D G P) g dtype r mb v :
  gt_type im = Some g -> gt_data im = Some (dtype, r) -> raster_shape r (gt_ny im) (gt_nx im) mb ->
  (0 < gt_nx im)%nat -> (0 < gt_ny im)%nat -> (0 < gt_nb im <= mb)%nat -> gt_nodata im = Nodata v ->
  exists fs' d z,
    write_to_disk from_gdal store zero wkt_of fs im name = (fs', im, Ok tt) /\ fs' name = Some d /\
    d_nodata d = Nodata (IZR z) /\ (Rabs (v - IZR z) < 1)%R /\ (Rabs (IZR z) <= Rabs v)%R /\
    (d_nodata d = gt_nodata im <-> exists n, v = IZR n).
Proof.
  intros T Ed Sr H1 H2 [H3 Hb] Hn.
  destruct (@written_file V D G P W store zero wkt_of dtype r (gt_nodata im) im g (gt_ny im) (gt_nx im) mb (gt_nb im) Sr) as (bands & E & L & FR & Px); try lia.
  { right. rewrite Hn. eexists. reflexivity. }
  rewrite (@write_to_disk_unfold V D G P W) with (g := g); auto. rewrite Ed, E.
  assert (Fn : final_nodata (gt_nodata im) (gt_nb im) NoNodata = Nodata (IZR (truncZ v))).
  { rewrite Hn. destruct (gt_nb im); [lia|]. reflexivity. }
  rewrite Fn.
  do 2 eexists. exists (truncZ v). split; [|split; [apply put_same|]].
  { f_equal. f_equal. destruct im; simpl in *; subst; reflexivity. }
  cbn [d_nodata]. split; [reflexivity|].
  assert (B : (Rabs (v - IZR (truncZ v)) < 1 /\ Rabs (IZR (truncZ v)) <= Rabs v)%R).
  { destruct (Rlt_dec v 0) as [Hv|Hv].
    - destruct (P_Photo.truncZ_neg v Hv) as [[A B] C]. apply IZR_le in C. split; [apply Rabs_def1; lra|].
      rewrite (Rabs_left1 (IZR (truncZ v))), (Rabs_left v) by lra. lra.
    - destruct (P_Photo.truncZ_nonneg v) as [[A B] C]; [lra|]. apply IZR_le in C. split; [apply Rabs_def1; lra|].
      rewrite !Rabs_right by lra. lra. }
  destruct B as [B1 B2]. split; [exact B1|]. split; [exact B2|]. rewrite Hn. split.
  - intros Q. injection Q as Q. exists (truncZ v). congruence.
  - intros [n ->]. rewrite trunc_IZR. reflexivity.
Qed.
Print Assumptions C72_nodata_truncated.

Theorem C72_fractional_nodata_refuted (V D G P W : Type) (from_gdal : G -> D) (store : D -> G -> V -> V)
    (zero : V) (wkt_of : P -> W) fs name (im : geotiff V D G P) g dtype r mb :
  gt_type im = Some g -> gt_data im = Some (dtype, r) -> raster_shape r (gt_ny im) (gt_nx im) mb ->
  (0 < gt_nx im)%nat -> (0 < gt_ny im)%nat -> (0 < gt_nb im <= mb)%nat -> gt_nodata im = Nodata (1 / 2) ->
  exists fs' d, write_to_disk from_gdal store zero wkt_of fs im name = (fs', im, Ok tt) /\ fs' name = Some d /\
    d_nodata d = Nodata 0.
Proof.
  intros T Ed Sr H1 H2 H3 Hn.
  destruct (C72_nodata_truncated V D G P W from_gdal store zero wkt_of fs name im g dtype r mb (1/2) T Ed Sr H1 H2 H3 Hn)
    as (fs' & d & z & E & F & N & B1 & B2 & _).
  exists fs', d. split; [exact E|]. split; [exact F|]. rewrite N. f_equal. f_equal.
  apply Rabs_def2 in B1. rewrite (Rabs_right (1/2)) in B2 by lra.
  assert (-1 < IZR z < 1)%R. { unfold Rabs in B2. destruct (Rcase_abs (IZR z)); lra. }
  destruct H as [Q1 Q2]. apply (lt_IZR (-1)) in Q1. apply (lt_IZR z 1) in Q2. lia.
Qed.
Print Assumptions C72_fractional_nodata_refuted.

(** C72: a NaN no-data value (the usual one of floating point rasters) raises ValueError, an infinite one
    an OverflowError, after the first band was written: the file is left with that band, zeros and no no-data value *)
Theorem C72_nan_nodata (V D G P W : Type) (from_gdal : G -> D) (store : D -> G -> V -> V)
    (zero : V) (wkt_of : P -> W) fs name (im : geotiff V D G P) g dtype r mb :
  gt_type im = Some g -> gt_data im = Some (dtype, r) -> raster_shape r (gt_ny im) (gt_nx im) mb -> (0 < mb)%nat ->
  (0 < gt_nx im)%nat -> (0 < gt_ny im)%nat -> (0 < gt_nb im)%nat -> (gt_nodata im = NodataNaN \/ gt_nodata im = NodataInf) ->
  exists fs' d, write_to_disk from_gdal store zero wkt_of fs im name
      = (fs', im, Err (match gt_nodata im with NodataNaN => ValueError | _ => OtherError end)) /\ fs' name = Some d /\
    file_shape d (gt_ny im) (gt_nx im) (gt_nb im) /\ d_nodata d = NoNodata /\
    forall y x k, (y < gt_ny im)%nat -> (x < gt_nx im)%nat -> (k < gt_nb im)%nat ->
      px (d_bands d) y x k = match k with
                             | O => option_map (store dtype g) (px (r_bands r) y x 0)
                             | S _ => Some zero
                             end.
Proof.
  intros T Ed Sr Hb H1 H2 H3 Hn.
  destruct (@written_file V D G P W store zero wkt_of dtype r NoNodata im g (gt_ny im) (gt_nx im) mb 1%nat Sr) as (bands & E & L & FR & Px); try lia.
  { left. reflexivity. }
  rewrite (@write_to_disk_unfold V D G P W) with (g := g); auto. rewrite Ed.
  cbn [seq write_bands] in E. destruct (gt_nb im) as [|nb] eqn:Enb; [lia|]. cbn [seq write_bands].
  destruct (py_get (r_bands r) (Z.of_nat 0)) as [b| |]; try discriminate E.
  destruct (write_array store (blank_ds zero wkt_of im g) 0 dtype r b) as [d'| |]; try discriminate E.
  injection E as E. set (X := mkDataset _ _ _ _ _ _ _) in E.
  assert (F : file_shape X (gt_ny im) (gt_nx im) (S nb) /\ d_nodata X = NoNodata /\
    forall y x k, (y < gt_ny im)%nat -> (x < gt_nx im)%nat -> (k < S nb)%nat ->
      px (d_bands X) y x k = match k with
                             | O => option_map (store dtype g) (px (r_bands r) y x 0)
                             | S _ => Some zero
                             end).
  { split.
    { split; [reflexivity|]. split; [reflexivity|]. split; [exact L|exact FR]. }
    split; [reflexivity|].
    intros y x k Ly Lx Lk. unfold X. cbn [d_bands]. rewrite Px by lia.
    rewrite (proj2 (Nat.ltb_lt _ _) Ly), (proj2 (Nat.ltb_lt _ _) Lx). cbn [andb].
    destruct k as [|k]; [reflexivity|]. destruct (Nat.ltb_spec (S k) 1); [lia|]. reflexivity. }
  clearbody X. exists (put fs name (Some X)), X.
  destruct F as (F1 & F2 & F3). split; [|split; [apply put_same|split; [exact F1|split; [exact F2|exact F3]]]].
  assert (WD : with_data im (Some (dtype, r)) = im) by (destruct im; cbn in Ed; subst; reflexivity).
  destruct Hn as [Hn|Hn]; rewrite Hn; cbn [int_nodata]; rewrite E, WD; reflexivity.
Qed.
Print Assumptions C72_nan_nodata.

(** C72: a data type GDAL does not have raises TypeError; an image without pixels or bands
    raises AttributeError; no file changes *)
Theorem C72_cannot_create (V D G P W : Type) (to_gdal : D -> option G) (from_gdal : G -> D) (store : D -> G -> V -> V)
    (zero : V) (wkt_of : P -> W) fs name dtype a ny nx nb geot proj nd :
  array_shape a ny nx nb -> (to_gdal dtype = None \/ ny = 0%nat \/ nx = 0%nat \/ nb = 0%nat) ->
  exists e, write_to_disk from_gdal store zero wkt_of fs (geotiff_from_numpy to_gdal dtype a geot proj nd) name
            = (fs, geotiff_from_numpy to_gdal dtype a geot proj nd, Err e) /\
    e = match to_gdal dtype with None => TypeError | Some _ => AttributeError end.
Proof.
  intros Sh H. unfold write_to_disk.
  change (gt_type (geotiff_from_numpy to_gdal dtype a geot proj nd)) with (to_gdal dtype).
  destruct (to_gdal dtype) as [g|] eqn:T; [|eauto].
  assert (E1 : gt_nx (geotiff_from_numpy to_gdal dtype a geot proj nd) = nx /\ gt_ny (geotiff_from_numpy to_gdal dtype a geot proj nd) = ny
             /\ gt_nb (geotiff_from_numpy to_gdal dtype a geot proj nd) = nb).
  { destruct a as [my mx rows|r]; unfold geotiff_from_numpy; cbn [gt_nx gt_ny gt_nb r_nx r_ny r_bands].
    - destruct Sh as (-> & -> & -> & _). auto.
    - destruct Sh as (A & B & C & _). auto. }
  destruct E1 as (-> & -> & ->).
  destruct (Nat.eqb_spec nx 0); [cbn [orb]; eauto|]. destruct (Nat.eqb_spec ny 0); [cbn [orb]; eauto|].
  destruct (Nat.eqb_spec nb 0); [cbn [orb]; eauto|]. destruct H as [H|[H|[H|H]]]; [discriminate|contradiction..].
Qed.
Print Assumptions C72_cannot_create.

(** C72: a file that is opened and written under another name is copied *)
Theorem C72_copy (V D G P W : Type) (from_gdal : G -> D) (store : D -> G -> V -> V)
    (zero : V) (wkt_of : P -> W) (proj_of : W -> P) fs src name d ny nx nb :
  fs src = Some d -> name <> src -> file_shape d ny nx nb -> (0 < ny)%nat -> (0 < nx)%nat -> (0 < nb)%nat ->
  whole (d_nodata d) -> wkt_of (proj_of (d_wkt d)) = d_wkt d ->
  (forall y x k v, px (d_bands d) y x k = Some v -> store (from_gdal (d_type d)) (d_type d) v = v) ->
  exists im fs' im',
    open_geotiff (D := D) proj_of fs src = Ok im /\ write_to_disk from_gdal store zero wkt_of fs im name = (fs', im', Ok tt) /\
    fs' name = Some d /\ (forall n, n <> name -> fs' n = fs n).
Proof.
  intros Hs Hne (S1 & S2 & S3 & S4) Hy Hx Hb Wh Pr St.
  set (im := mkGeotiff (V:=V) (D:=D) None (Some src) nx ny nb (Some (d_type d)) (d_nodata d) (Some (path_root src)) (d_geot d) (proj_of (d_wkt d))).
  assert (Op : open_geotiff (V:=V) (D:=D) proj_of fs src = Ok im).
  { unfold open_geotiff. rewrite Hs. destruct (d_bands d) as [|b bs] eqn:E; [simpl in S3; lia|]. rewrite <- E, S1, S2, E, S3. reflexivity. }
  rewrite Op. exists im. rewrite (@write_to_disk_unfold V D G P W) with (g := d_type d); auto.
  cbn [gt_data im]. unfold geotiff_read_all. cbn [gt_src gt_nb im].
  rewrite (@read_bands_ok V D G W from_gdal _ src d nb).
  2:{ rewrite put_other; [exact Hs|]. intros E. apply Hne. symmetry. exact E. }
  2:{ lia. }
  rewrite firstn_all2 by lia. rewrite S1, S2.
  assert (Sr : raster_shape (mkRaster ny nx (d_bands d)) ny nx nb).
  { split; [reflexivity|]. split; [reflexivity|]. split; [exact S3|exact S4]. }
  destruct (@written_file V D G P W store zero wkt_of (from_gdal (d_type d)) (mkRaster ny nx (d_bands d)) (d_nodata d) im (d_type d) ny nx nb nb Sr)
    as (bands & E & L & FR & Px); try lia; try (cbn; lia).
  { apply whole_int. exact Wh. }
  change (gt_nodata im) with (d_nodata d). rewrite E. rewrite (whole_final _ _ Wh Hb).
  do 2 eexists. split; [reflexivity|]. split; [reflexivity|].
  split; [|intros n Hn; apply put_other; exact Hn]. rewrite put_same. f_equal.
  cbn [gt_nx gt_ny gt_geot gt_proj gt_nb im] in *. rewrite Pr.
  assert (Eb : bands = d_bands d).
  { apply (bands_ext ny nx nb); auto. intros y x k Ly Lx Lk. rewrite Px by lia.
    rewrite (proj2 (Nat.ltb_lt _ _) Ly), (proj2 (Nat.ltb_lt _ _) Lx), (proj2 (Nat.ltb_lt _ _) Lk). cbn [andb r_bands].
    destruct (px (d_bands d) y x k) as [v|] eqn:Q; [|reflexivity]. simpl. f_equal. apply (St y x k v Q). }
  rewrite Eb. destruct d; cbn in *. subst. reflexivity.
Qed.
Print Assumptions C72_copy.

(** C72 refuted: written back to its own file, an image whose data was not loaded before is
    lost.  The file is created anew before its old contents are read. *)
Theorem C72_own_file_refuted (V D G P W : Type) (from_gdal : G -> D) (store : D -> G -> V -> V)
    (zero : V) (wkt_of : P -> W) (proj_of : W -> P) fs name d ny nx nb :
  fs name = Some d -> file_shape d ny nx nb -> (0 < ny)%nat -> (0 < nx)%nat -> (0 < nb)%nat -> whole (d_nodata d) ->
  store (from_gdal (d_type d)) (d_type d) zero = zero ->
  exists im fs' im' d',
    open_geotiff (D := D) proj_of fs name = Ok im /\ write_to_disk from_gdal store zero wkt_of fs im name = (fs', im', Ok tt) /\
    fs' name = Some d' /\ file_shape d' ny nx nb /\
    forall y x k, (y < ny)%nat -> (x < nx)%nat -> (k < nb)%nat -> px (d_bands d') y x k = Some zero.
Proof.
  intros Hs (S1 & S2 & S3 & S4) Hy Hx Hb Wh Sz.
  set (im := mkGeotiff (V:=V) (D:=D) None (Some name) nx ny nb (Some (d_type d)) (d_nodata d) (Some (path_root name)) (d_geot d) (proj_of (d_wkt d))).
  assert (Op : open_geotiff (V:=V) (D:=D) proj_of fs name = Ok im).
  { unfold open_geotiff. rewrite Hs. destruct (d_bands d) as [|b bs] eqn:E; [simpl in S3; lia|]. rewrite <- E, S1, S2, E, S3. reflexivity. }
  rewrite Op. exists im. rewrite (@write_to_disk_unfold V D G P W) with (g := d_type d); auto.
  cbn [gt_data im]. unfold geotiff_read_all. cbn [gt_src gt_nb im].
  set (bl := blank_ds zero wkt_of im (d_type d)).
  assert (Lb : length (d_bands bl) = nb) by apply repeat_length.
  rewrite (@read_bands_ok V D G W from_gdal _ name bl nb (put_same _ _ _)) by lia.
  rewrite firstn_all2 by lia.
  change (d_ny bl) with ny. change (d_nx bl) with nx. change (d_type bl) with (d_type d).
  assert (Sr : raster_shape (mkRaster ny nx (d_bands bl)) ny nx nb).
  { split; [reflexivity|]. split; [reflexivity|]. split; [exact Lb|]. apply Forall_forall. intros b I. apply repeat_spec in I. subst b. apply blank_rect. }
  destruct (@written_file V D G P W store zero wkt_of (from_gdal (d_type d)) (mkRaster ny nx (d_bands bl)) (d_nodata d) im (d_type d) ny nx nb nb Sr)
    as (bands & E & L & FR & Px); try lia; try (cbn; lia).
  { apply whole_int. exact Wh. }
  change (gt_nodata im) with (d_nodata d). fold bl in E. rewrite E.
  do 3 eexists. split; [reflexivity|]. split; [reflexivity|]. split; [apply put_same|]. split.
  { split; [reflexivity|]. split; [reflexivity|]. split; [exact L|exact FR]. }
  intros y x k Ly Lx Lk. cbn [d_bands]. rewrite Px by assumption.
  rewrite (proj2 (Nat.ltb_lt _ _) Ly), (proj2 (Nat.ltb_lt _ _) Lx), (proj2 (Nat.ltb_lt _ _) Lk). cbn [andb r_bands].
  change (d_bands bl) with (repeat (repeat (repeat zero nx) ny) nb). rewrite px_blank by assumption. simpl. f_equal. exact Sz.
Qed.
Print Assumptions C72_own_file_refuted.

(** C72: an image whose data is not loaded and whose file was closed cannot be written: it
    raises AttributeError, and a file of zeros stands under the new name *)
Theorem C72_closed (V D G P W : Type) (from_gdal : G -> D) (store : D -> G -> V -> V)
    (zero : V) (wkt_of : P -> W) (proj_of : W -> P) fs src name d ny nx nb :
  fs src = Some d -> file_shape d ny nx nb -> (0 < ny)%nat -> (0 < nx)%nat -> (0 < nb)%nat ->
  exists im fs' d', open_geotiff (D := D) proj_of fs src = Ok im /\
    write_to_disk from_gdal store zero wkt_of fs (close_image im) name = (fs', close_image im, Err AttributeError) /\
    fs' name = Some d' /\ forall y x k, (y < ny)%nat -> (x < nx)%nat -> (k < nb)%nat -> px (d_bands d') y x k = Some zero.
Proof.
  intros Hs (S1 & S2 & S3 & S4) Hy Hx Hb.
  set (im := mkGeotiff (V:=V) (D:=D) None (Some src) nx ny nb (Some (d_type d)) (d_nodata d) (Some (path_root src)) (d_geot d) (proj_of (d_wkt d))).
  assert (Op : open_geotiff (V:=V) (D:=D) proj_of fs src = Ok im).
  { unfold open_geotiff. rewrite Hs. destruct (d_bands d) as [|b bs] eqn:E; [simpl in S3; lia|]. rewrite <- E, S1, S2, E, S3. reflexivity. }
  rewrite Op. exists im. rewrite (@write_to_disk_unfold V D G P W) with (g := d_type d); auto.
  cbn [gt_data close_image im]. unfold geotiff_read_all. cbn [gt_src gt_nb close_image im].
  unfold read_bands. destruct nb as [|nb']; [lia|]. cbn [open_dset bind].
  do 2 eexists. split; [reflexivity|]. split; [reflexivity|]. split; [apply put_same|].
  intros y x k Ly Lx Lk. apply px_blank; assumption.
Qed.
Print Assumptions C72_closed.

(** C72: the dataset made in memory (for gdalwarp) is the one that would be written *)
Theorem C72_memory_dataset (V D G P W : Type) (from_gdal : G -> D) (store : D -> G -> V -> V)
    (zero : V) (wkt_of : P -> W) fs name (im : geotiff V D G P) dtype r fs' im' :
  gt_data im = Some (dtype, r) -> write_to_disk from_gdal store zero wkt_of fs im name = (fs', im', Ok tt) ->
  exists d, fs' name = Some d /\ mem_dataset from_gdal store zero wkt_of fs im = (im', Ok d).
Proof.
  intros Ed H. unfold write_to_disk in H. unfold mem_dataset. destruct (gt_type im) as [g|]; [|discriminate].
  destruct (Nat.eqb (gt_nx im) 0); [discriminate|]. destruct (Nat.eqb (gt_ny im) 0); [discriminate|].
  destruct (Nat.eqb (gt_nb im) 0); [discriminate|]. cbn [orb] in *. rewrite Ed in *.
  destruct (write_bands store dtype r (gt_nodata im) (seq 0 (gt_nb im)) _) as [d res]. injection H as <- <- ->.
  exists d. split; [apply put_same|reflexivity].
Qed.
Print Assumptions C72_memory_dataset.

(** C72: and refused for the same reasons; only a dataset without bands is possible in memory *)
Theorem C72_memory_refused (V D G P W : Type) (from_gdal : G -> D) (store : D -> G -> V -> V)
    (zero : V) (wkt_of : P -> W) fs (im : geotiff V D G P) :
  (gt_type im = None -> mem_dataset from_gdal store zero wkt_of fs im = (im, Err TypeError)) /\
  (gt_type im <> None -> gt_nx im = 0%nat \/ gt_ny im = 0%nat ->
     mem_dataset from_gdal store zero wkt_of fs im = (im, Err AttributeError)) /\
  (forall g dtype r, gt_type im = Some g -> (0 < gt_nx im)%nat -> (0 < gt_ny im)%nat -> gt_nb im = 0%nat ->
     gt_data im = Some (dtype, r) ->
     exists d, mem_dataset from_gdal store zero wkt_of fs im = (im, Ok d) /\ d_bands d = [] /\ d_nx d = gt_nx im /\ d_ny d = gt_ny im).
Proof.
  unfold mem_dataset. split; [|split].
  - intros ->. reflexivity.
  - intros H K. destruct (gt_type im) as [g|]; [|congruence].
    destruct K as [-> | ->]; rewrite Nat.eqb_refl, ?orb_true_r; reflexivity.
  - intros g dtype r -> H1 H2 H3 H4. rewrite (proj2 (Nat.eqb_neq _ _)) by lia. rewrite (proj2 (Nat.eqb_neq _ _)) by lia. cbn [orb].
    rewrite H3, H4. cbn [seq repeat write_bands].
    assert (WD : with_data im (Some (dtype, r)) = im) by (destruct im; cbn in H4; subst; reflexivity).
    rewrite WD. eexists. split; [reflexivity|]. repeat split.
Qed.
Print Assumptions C72_memory_refused.

(* ------------------------------ C73 ----------------------------------- *)

(** C73: reading a band of a GeoTIFF gives that band of the file, whatever was set in memory;
    a band that does not exist (negative numbers included) raises AttributeError *)
Theorem C73_geotiff_band (V D G P W : Type) (proj_of : W -> P) (fs fs' : files V G W) src d d' (im : geotiff V D G P) k :
  fs src = Some d -> open_geotiff proj_of fs src = Ok im -> fs' src = Some d' ->
  (forall dtype r, geotiff_read_band fs' (set_image_data im dtype r) k = geotiff_read_band fs' im k) /\
  ((0 <= k < Z.of_nat (length (d_bands d')))%Z -> exists b, nth_error (d_bands d') (Z.to_nat k) = Some b /\ geotiff_read_band fs' im k = Ok b) /\
  ((k < 0 \/ Z.of_nat (length (d_bands d')) <= k)%Z -> geotiff_read_band fs' im k = Err AttributeError).
Proof.
  intros H Op H'. unfold open_geotiff in Op. rewrite H in Op. destruct (d_bands d) as [|b0 bs]; [discriminate|]. injection Op as <-.
  split; [reflexivity|]. unfold geotiff_read_band. cbn [gt_src open_dset]. rewrite H'. cbn [bind]. split.
  - intros Hk. destruct (nth_some_lt (d_bands d') (Z.to_nat k)) as [b B]; [lia|]. exists b. split; [exact B|].
    rewrite <- (Z2Nat.id k) by lia. apply dset_band_ok. exact B.
  - apply dset_band_err.
Qed.
Print Assumptions C73_geotiff_band.

(** C73: a file that GDAL does not open, or one without bands, is refused when it is opened *)
Theorem C73_geotiff_refused (V D G P W : Type) (proj_of : W -> P) (fs : files V G W) src :
  (fs src = None \/ exists d, fs src = Some d /\ d_bands d = []) ->
  open_geotiff (D := D) proj_of fs src = Err AttributeError.
Proof. intros [H|(d & H & E)]; unfold open_geotiff; rewrite H; [|rewrite E]; reflexivity. Qed.
Print Assumptions C73_geotiff_refused.

(** C73: an image whose file is gone cannot be read; one without bands has nothing to stack *)
Theorem C73_geotiff_gone (V D G P W : Type) (from_gdal : G -> D) (fs : files V G W) (im : geotiff V D G P) name :
  gt_src im = Some name -> fs name = None ->
  (forall k, geotiff_read_band fs im k = Err AttributeError) /\
  geotiff_read_all from_gdal fs im = Err (if Nat.eqb (gt_nb im) 0 then ValueError else AttributeError).
Proof.
  intros E H. unfold geotiff_read_band, geotiff_read_all, read_bands, open_dset. rewrite E, H. split; [reflexivity|].
  destruct (gt_nb im); reflexivity.
Qed.
Print Assumptions C73_geotiff_gone.

(** C73: what the camera images refuse *)
Theorem C73_camera_refused (V D G W : Type) (from_gdal : G -> D) (fs : files V G W) fname (im : camera_image (V := V)) :
  (fs fname = None \/ (exists d, fs fname = Some d /\ d_bands d = []) -> camera_from_file fs fname = Err AttributeError) /\
  (ci_read_with_gdal im = false \/ ci_nb im = 0%nat -> camera_read_all from_gdal fs im = Err ValueError).
Proof.
  split.
  - intros [H|(d & H & E)]; unfold camera_from_file; rewrite H; [|rewrite E]; reflexivity.
  - unfold camera_read_all, read_bands. intros [-> | ->]; [reflexivity|]. destruct (ci_read_with_gdal im); reflexivity.
Qed.
Print Assumptions C73_camera_refused.

(** C73: reading all bands gives the bands that are read one by one *)
Theorem C73_all_is_each (V D G P W : Type) (from_gdal : G -> D) (fs : files V G W) (im : geotiff V D G P) dtype r :
  geotiff_read_all from_gdal fs im = Ok (dtype, r) ->
  length (r_bands r) = gt_nb im /\ (0 < gt_nb im)%nat /\
  forall k, (k < gt_nb im)%nat -> exists b, nth_error (r_bands r) k = Some b /\ geotiff_read_band fs im (Z.of_nat k) = Ok b.
Proof.
  intros H. unfold geotiff_read_all, read_bands in H. unfold geotiff_read_band.
  destruct (gt_nb im) as [|nb]; [discriminate|].
  destruct (open_dset fs (gt_src im)) as [d| |]; cbn [bind] in *; try discriminate.
  destruct (Nat.le_gt_cases (S nb) (length (d_bands d))) as [L|L].
  - rewrite (@dset_bands_prefix V G W) in H by exact L. cbn [bind] in H. injection H as _ <-. cbn [r_bands].
    assert (Lf : length (firstn (S nb) (d_bands d)) = S nb) by (rewrite firstn_length; lia).
    split; [exact Lf|]. split; [lia|]. intros k Hk.
    destruct (nth_some_lt (firstn (S nb) (d_bands d)) k) as [b B]; [lia|]. exists b. split; [exact B|].
    apply dset_band_ok. rewrite <- B, <- (firstn_skipn (S nb) (d_bands d)) at 1. apply nth_error_app1. lia.
  - rewrite (@dset_bands_more V G W) in H by exact L. discriminate.
Qed.
Print Assumptions C73_all_is_each.

(** C73: an image made from an array has nothing on disk: reading raises *)
Theorem C73_numpy_image (V D G P W : Type) (to_gdal : D -> option G) (from_gdal : G -> D) (fs : files V G W) dtype a ny nx nb geot (proj : P) nd k :
  array_shape a ny nx nb -> (0 < nb)%nat ->
  geotiff_read_all from_gdal fs (geotiff_from_numpy to_gdal dtype a geot proj nd) = Err AttributeError /\
  geotiff_read_band fs (geotiff_from_numpy to_gdal dtype a geot proj nd) k = Err AttributeError.
Proof.
  intros Sh Hb. split; [|reflexivity].
  assert (E : gt_nb (geotiff_from_numpy to_gdal dtype a geot proj nd) = nb).
  { destruct a as [my mx rows|r]; unfold geotiff_from_numpy; cbn [gt_nb r_bands].
    - destruct Sh as (-> & -> & -> & _). reflexivity.
    - destruct Sh as (A & B & C & _). exact C. }
  unfold geotiff_read_all, read_bands. rewrite E. destruct nb; [lia|]. reflexivity.
Qed.
Print Assumptions C73_numpy_image.

(** C73 refuted: a camera image opened from a file never gives a single band *)
Theorem C73_camera_band_refuted (V G W : Type) (fs : files V G W) fname (im : camera_image) :
  camera_from_file fs fname = Ok im -> forall (fs' : files V G W) k, camera_read_band fs' im k = Err TypeError.
Proof.
  unfold camera_from_file. destruct (fs fname) as [d|]; [|discriminate]. destruct (d_bands d); [discriminate|].
  intros H. injection H as <-. reflexivity.
Qed.
Print Assumptions C73_camera_band_refuted.

(** C73: all bands of a camera image can be read from its file; a camera image made from an
    array gives the bands in memory one by one, but not all of them *)
Theorem C73_camera_all (V D G W : Type) (from_gdal : G -> D) (fs : files V G W) fname d im ny nx nb :
  fs fname = Some d -> file_shape d ny nx nb -> camera_from_file fs fname = Ok im ->
  exists r, camera_read_all from_gdal fs im = Ok (from_gdal (d_type d), r) /\ raster_shape r ny nx nb /\
    forall y x k, px (r_bands r) y x k = px (d_bands d) y x k.
Proof.
  intros H (S1 & S2 & S3 & S4) Op. unfold camera_from_file in Op. rewrite H in Op.
  assert (Em : im = mkCameraImage None (Some fname) (length (d_bands d)) true /\ (0 < length (d_bands d))%nat).
  { destruct (d_bands d) as [|b bs]; [discriminate|]. injection Op as <-. split; [reflexivity|cbn [length]; lia]. }
  destruct Em as [-> Hl]. unfold camera_read_all. cbn [ci_read_with_gdal ci_src ci_nb].
  rewrite (@read_bands_ok V D G W from_gdal fs fname d _ H) by lia.
  eexists. split; [reflexivity|]. rewrite firstn_all. rewrite S1, S2. split; [|reflexivity].
  split; [reflexivity|]. split; [reflexivity|]. split; assumption.
Qed.
Print Assumptions C73_camera_all.

Theorem C73_camera_memory (V D G W : Type) (from_gdal : G -> D) (fs : files V G W) (r : raster V) nb k :
  (0 < nb)%nat ->
  camera_read_all from_gdal fs (camera_from_numpy r nb) = Err AttributeError /\
  camera_read_band fs (camera_from_numpy r nb) k = py_get (r_bands r) k.
Proof. intros H. split; [|reflexivity]. unfold camera_read_all, read_bands. cbn. destruct nb; [lia|]. reflexivity. Qed.
Print Assumptions C73_camera_memory.

(** C73: a Micasense image gives the file of the band (negative numbers count from the end);
    all bands are the files in order, if they all exist and have the same size *)
Theorem C73_micasense_band (V : Type) (fs : band_files (V := V)) fnames k :
  mica_read_band fs fnames k =
    match py_get fnames k with
    | Ok n => match fs n with Some b => Ok b | None => Err OtherError end
    | Err e => Err e
    | Diverges => Diverges
    end.
Proof. unfold mica_read_band, imread. destruct (py_get fnames k); reflexivity. Qed.
Print Assumptions C73_micasense_band.

Theorem C73_micasense_all (V : Type) (fs : band_files (V := V)) fnames (r : raster V) :
  mica_read_all fs fnames = Ok r <->
  fnames <> [] /\ length (r_bands r) = length fnames /\
  forall k n, nth_error fnames k = Some n -> exists b, nth_error (r_bands r) k = Some b /\ fs n = Some (r_ny r, r_nx r, b).
Proof.
  unfold mica_read_all.
  assert (IM : forall l imgs, mapM (imread fs) l = Ok imgs <-> Forall2 (fun n b => fs n = Some b) l imgs).
  { intros l imgs. split.
    - intros H. apply mapM_ok_inv in H. revert H. induction 1 as [|n b l' i' Hn _ IH]; constructor; auto.
      unfold imread in Hn. destruct (fs n); [congruence|discriminate].
    - induction 1 as [|n b l' i' Hn _ IH]; [reflexivity|]. cbn [mapM]. unfold imread at 1. rewrite Hn. cbn [bind]. rewrite IH. reflexivity. }
  split.
  - destruct (mapM (imread fs) fnames) as [imgs| |] eqn:M; cbn [bind]; try discriminate.
    apply IM in M. destruct imgs as [|[[ny nx] b0] rest] eqn:E; [discriminate|]. rewrite <- E in *.
    destruct (forallb _ imgs) eqn:FB; [|discriminate]. intros H. injection H as <-. cbn [r_bands r_ny r_nx].
    split; [intros Q; subst fnames; inversion M; congruence|].
    split; [rewrite map_length; symmetry; exact (Py.Forall2_length _ _ _ M)|].
    rewrite forallb_forall in FB.
    intros k n Hk. rewrite nth_error_map.
    clear E IM b0 rest. revert k Hk FB. induction M as [|n0 b l' i' Hn M IH]; intros k Hk FB; [destruct k; discriminate|].
    destruct k as [|k]; cbn [nth_error option_map] in *.
    + injection Hk as <-. exists (snd b). split; [reflexivity|]. rewrite Hn.
      specialize (FB b (or_introl eq_refl)). apply andb_true_iff in FB as [F1 F2]. apply Nat.eqb_eq in F1, F2.
      destruct b as [[y x] bb]; cbn in *; subst; reflexivity.
    + apply IH; [exact Hk|]. intros z Iz. apply FB. right. exact Iz.
  - intros (Hne & L & H).
    assert (M : Forall2 (fun n b => fs n = Some b) fnames (map (fun b => (r_ny r, r_nx r, b)) (r_bands r))).
    { destruct r as [ny nx bands]. cbn [r_bands r_ny r_nx] in *. clear Hne. revert bands L H.
      induction fnames as [|n l IH]; intros [|b bs] L H; try discriminate; constructor.
      - destruct (H 0%nat n eq_refl) as (b' & E & F). cbn in E. injection E as <-. exact F.
      - apply IH; [cbn in L; lia|]. intros k m Hk. apply (H (S k) m Hk). }
    apply IM in M. rewrite M. cbn [bind].
    destruct (r_bands r) as [|b bs] eqn:E; [destruct fnames; [contradiction|discriminate]|]. cbn [map].
    replace (forallb _ _) with true.
    + f_equal. destruct r as [ny nx bands]; cbn [r_bands r_ny r_nx] in *. subst bands. f_equal. cbn [snd]. f_equal. rewrite map_map. cbn [snd]. apply map_id.
    + symmetry. apply forallb_forall. intros z Iz. change (In z (map (fun b => (r_ny r, r_nx r, b)) (b :: bs))) in Iz.
      apply in_map_iff in Iz as (bb & <- & _). cbn [fst snd]. rewrite !Nat.eqb_refl. reflexivity.
Qed.
Print Assumptions C73_micasense_all.

(** C73: without files there is no array; a missing file is a FileNotFoundError; files of different sizes
    are refused *)
Theorem C73_micasense_refused (V : Type) (fs : band_files (V := V)) fnames :
  mica_read_all fs [] = Err ValueError /\
  ((exists n, In n fnames /\ fs n = None) -> mica_read_all fs fnames = Err OtherError) /\
  (forall n m ny nx b ny' nx' b', In n fnames -> In m fnames -> fs n = Some (ny, nx, b) -> fs m = Some (ny', nx', b') ->
     (ny, nx) <> (ny', nx') -> (forall q, In q fnames -> fs q <> None) -> mica_read_all fs fnames = Err ValueError).
Proof.
  split; [reflexivity|]. split.
  - intros (n & Hin & Hn). unfold mica_read_all.
    assert (E : mapM (imread fs) fnames = Err OtherError); [|rewrite E; reflexivity].
    induction fnames as [|m l IH]; [destruct Hin|]. cbn [mapM]. unfold imread at 1.
    destruct (fs m) as [b|] eqn:Em; [|reflexivity]. cbn [bind]. destruct Hin as [->|Hin]; [congruence|].
    rewrite (IH Hin). reflexivity.
  - intros n m ny nx b ny' nx' b' I1 I2 H1 H2 Hne Hall. unfold mica_read_all.
    assert (exists imgs, mapM (imread fs) fnames = Ok imgs /\ forall q v, In q fnames -> fs q = Some v -> In v imgs) as (imgs & E & HI).
    { clear I1 I2. induction fnames as [|q l IH]; [exists []; split; [reflexivity|intros ? ? []]|].
      destruct IH as (imgs & E & HI); [intros q' Hq'; apply Hall; right; exact Hq'|].
      destruct (fs q) as [v|] eqn:Eq; [|exfalso; apply (Hall q); [left; reflexivity|exact Eq]].
      exists (v :: imgs). split.
      - cbn [mapM]. unfold imread at 1. rewrite Eq. cbn [bind]. rewrite E. reflexivity.
      - intros q' v' [<-|Hq'] Ev; [left; congruence|right; apply (HI q'); assumption]. }
    rewrite E. cbn [bind]. destruct imgs as [|[[y0 x0] b0] rest] eqn:Ei; [reflexivity|]. rewrite <- Ei in *.
    destruct (forallb _ imgs) eqn:FB; [|reflexivity]. exfalso. rewrite forallb_forall in FB. apply Hne.
    pose proof (FB _ (HI n _ I1 H1)) as F1. pose proof (FB _ (HI m _ I2 H2)) as F2. cbn [fst snd] in F1, F2.
    apply andb_true_iff in F1 as [A1 A2]. apply andb_true_iff in F2 as [A3 A4]. apply Nat.eqb_eq in A1, A2, A3, A4. congruence.
Qed.
Print Assumptions C73_micasense_refused.

(* ------------------------------ C74 ----------------------------------- *)

(** C74: the image is made of the five files in order and is named after the file of the first
    band without its band suffix; its bands are not coregistered, its no-data value is 0 *)
Theorem C74_image (C : Type) (names : dict text) (calcs : list C) m :
  from_point_calcs names calcs = Ok m ->
  mi_calcs m = calcs /\ mi_coregistered m = false /\ mi_nodata m = 0%Z /\ mi_nx m = 1280%Z /\ mi_ny m = 960%Z /\ mi_nb m = 5%Z /\
  length (mi_fnames m) = 5%nat /\
  (forall k, (k < 5)%nat -> exists f, dict_get names (band_key (S k)) = Ok f /\ nth_error (mi_fnames m) k = Some f) /\
  (forall p s e, ~ In "_"%char s -> ~ In "/"%char s -> ~ In "/"%char e -> ~ In "."%char e ->
     dict_get names (band_key 1) = Ok (p ++ "_"%char :: s ++ "."%char :: e) -> mi_name m = p).
Proof.
  unfold from_point_calcs. intros H.
  destruct (py_get calcs 0); cbn [bind] in H; try discriminate.
  destruct (dict_get names (band_key 1)) as [f1| |] eqn:D1; cbn [bind] in H; try discriminate.
  destruct (dict_get names (band_key 2)) as [f2| |] eqn:D2; cbn [bind] in H; try discriminate.
  destruct (dict_get names (band_key 3)) as [f3| |] eqn:D3; cbn [bind] in H; try discriminate.
  destruct (dict_get names (band_key 4)) as [f4| |] eqn:D4; cbn [bind] in H; try discriminate.
  destruct (dict_get names (band_key 5)) as [f5| |] eqn:D5; cbn [bind] in H; try discriminate.
  injection H as <-. cbn [mi_calcs mi_coregistered mi_nodata mi_nx mi_ny mi_nb mi_fnames mi_name].
  repeat (split; [reflexivity|]). split.
  - intros k Hk. destruct k as [|[|[|[|[|k]]]]]; try lia; eauto.
  - intros p s e Hs H1 H2 H3 E. injection E as ->.
    pose proof (path_root_spec p s e H1 H2 H3) as PR. change ch_dot with "."%char in PR. rewrite PR. apply join_removelast_split. exact Hs.
Qed.
Print Assumptions C74_image.

(** C74: the names of the files are read from the keys band1 to band5; each of them is needed, and so is a
    calculator *)
Theorem C74_band_names (C : Type) (names : dict text) (calcs : list C) :
  (forall f1 f2 f3 f4 f5, calcs <> [] -> dict_get names (txt "band1") = Ok f1 -> dict_get names (txt "band2") = Ok f2 ->
     dict_get names (txt "band3") = Ok f3 -> dict_get names (txt "band4") = Ok f4 -> dict_get names (txt "band5") = Ok f5 ->
     exists m, from_point_calcs names calcs = Ok m /\ mi_fnames m = [f1; f2; f3; f4; f5]) /\
  (calcs <> [] -> (exists k, In k [txt "band1"; txt "band2"; txt "band3"; txt "band4"; txt "band5"] /\ dict_get names k = Err KeyError) ->
     from_point_calcs names calcs = Err KeyError) /\
  (calcs = [] -> from_point_calcs names calcs = Err IndexError).
Proof.
  unfold from_point_calcs.
  change (band_key 1) with (txt "band1"). change (band_key 2) with (txt "band2"). change (band_key 3) with (txt "band3").
  change (band_key 4) with (txt "band4"). change (band_key 5) with (txt "band5").
  assert (DK : forall k, (exists v, dict_get names k = Ok v) \/ dict_get names k = Err KeyError).
  { intros k. unfold dict_get. induction names as [|[j v] d IH]; [right; reflexivity|]. cbn. destruct (text_eqb j k); [left; eexists; reflexivity|exact IH]. }
  split; [|split].
  - intros f1 f2 f3 f4 f5 NE E1 E2 E3 E4 E5. destruct calcs as [|c cs]; [easy|]. change (py_get (c :: cs) 0) with (Ok c). cbn [bind].
    rewrite E1, E2, E3, E4, E5. cbn [bind]. eexists. split; reflexivity.
  - intros NE (k & Hk & E). destruct calcs as [|c cs]; [easy|]. change (py_get (c :: cs) 0) with (Ok c). cbn [bind].
    destruct (DK (txt "band1")) as [[v1 E1]|E1]; rewrite E1; [|reflexivity]; cbn [bind].
    destruct (DK (txt "band2")) as [[v2 E2]|E2]; rewrite E2; [|reflexivity]; cbn [bind].
    destruct (DK (txt "band3")) as [[v3 E3]|E3]; rewrite E3; [|reflexivity]; cbn [bind].
    destruct (DK (txt "band4")) as [[v4 E4]|E4]; rewrite E4; [|reflexivity]; cbn [bind].
    destruct (DK (txt "band5")) as [[v5 E5]|E5]; rewrite E5; [|reflexivity]; cbn [bind].
    exfalso. destruct Hk as [<-|[<-|[<-|[<-|[<-|[]]]]]]; congruence.
  - intros ->. reflexivity.
Qed.
Print Assumptions C74_band_names.

(** C74: band b of an image made with Pix4D parameters is located with the parameters filed
    under the name of its own file (without its directory); other bands have no calculator *)
Theorem C74_pix4d (names : dict text) (params : dict p4_params) m :
  mica_pix4d names params = Ok m ->
  (forall b, (b < 5)%nat -> exists f c, dict_get names (band_key (S b)) = Ok f /\ p4_init f params (Some (txt "regular")) = Ok c /\
     nth_error (mi_fnames m) b = Some f /\ mica_calc m (Z.of_nat b) = Some c) /\
  (forall b, (5 <= b)%Z -> mica_calc m b = None).
Proof.
  unfold mica_pix4d. intros H.
  destruct (dict_get names (band_key 1)) as [f1| |] eqn:D1; cbn [bind] in H; try discriminate.
  destruct (p4_init f1 params _) as [c1| |] eqn:P1; cbn [bind] in H; try discriminate.
  destruct (dict_get names (band_key 2)) as [f2| |] eqn:D2; cbn [bind] in H; try discriminate.
  destruct (p4_init f2 params _) as [c2| |] eqn:P2; cbn [bind] in H; try discriminate.
  destruct (dict_get names (band_key 3)) as [f3| |] eqn:D3; cbn [bind] in H; try discriminate.
  destruct (p4_init f3 params _) as [c3| |] eqn:P3; cbn [bind] in H; try discriminate.
  destruct (dict_get names (band_key 4)) as [f4| |] eqn:D4; cbn [bind] in H; try discriminate.
  destruct (p4_init f4 params _) as [c4| |] eqn:P4; cbn [bind] in H; try discriminate.
  destruct (dict_get names (band_key 5)) as [f5| |] eqn:D5; cbn [bind] in H; try discriminate.
  destruct (p4_init f5 params _) as [c5| |] eqn:P5; cbn [bind] in H; try discriminate.
  unfold from_point_calcs in H. rewrite D1, D2, D3, D4, D5 in H. cbn [py_get py_index zlen length bind] in H.
  cbn in H. injection H as <-. split.
  - intros b Hb. destruct b as [|[|[|[|[|b]]]]]; try lia; do 2 eexists; repeat (split; [eassumption || reflexivity|]); reflexivity.
  - intros b Hb. unfold mica_calc. cbn [mi_calcs]. destruct (Z.ltb_spec b (zlen [c1; c2; c3; c4; c5])); [|reflexivity].
    unfold zlen in H. cbn in H. lia.
Qed.
Print Assumptions C74_pix4d.

(** C74: an image without Pix4D parameters for the file of band k raises KeyError *)
Theorem C74_pix4d_missing (names : dict text) (params : dict p4_params) k f :
  (k < 5)%nat ->
  (forall j, (j < k)%nat -> exists g c, dict_get names (band_key (S j)) = Ok g /\ p4_init g params (Some (txt "regular")) = Ok c) ->
  dict_get names (band_key (S k)) = Ok f -> dict_get params (basename f) = Err KeyError ->
  mica_pix4d names params = Err KeyError.
Proof.
  intros Hk Hj Hf Hp. unfold mica_pix4d.
  assert (PE : p4_init f params (Some (txt "regular")) = Err KeyError) by (unfold p4_init; rewrite Hp; reflexivity).
  destruct k as [|[|[|[|[|k]]]]]; try lia;
  repeat match goal with
  | |- context [dict_get names (band_key ?i)] =>
      first [ rewrite Hf; cbn [bind]; rewrite PE; reflexivity
            | let g := fresh "g" in let c := fresh "c" in let E1 := fresh "E" in let E2 := fresh "E" in
              destruct (Hj (Nat.pred i) ltac:(cbn; lia)) as (g & c & E1 & E2); cbn [Nat.pred] in E1; rewrite E1; cbn [bind]; rewrite E2; cbn [bind] ]
  end.
Qed.
Print Assumptions C74_pix4d_missing.

(** C74: band b of an image made with OpenCV parameters has the first parameters whose band
    number is the digit before the last dot of its file name *)
Theorem C74_opencv (names : dict text) (params : list cv_params) m :
  mica_opencv names params = Ok m ->
  (forall b, (b < 5)%nat -> exists f p, dict_get names (band_key (S b)) = Ok f /\ nth_error (mi_fnames m) b = Some f /\
     mica_calc m (Z.of_nat b) = Some (cv_init p) /\ In p params /\
     forall a dg e, f = a ++ dg :: "."%char :: e -> ~ In "."%char e -> is_digit dg = true ->
       exists before after, params = before ++ p :: after /\ cvp_band p = (Z.of_nat (nat_of_ascii dg) - 48)%Z /\
         Forall (fun q => cvp_band q <> (Z.of_nat (nat_of_ascii dg) - 48)%Z) before) /\
  (forall b, (5 <= b)%Z -> mica_calc m b = None).
Proof.
  unfold mica_opencv.
  assert (First : forall n p, py_get (filter (fun p => Z.eqb (cvp_band p) n) params) 0 = Ok p ->
     exists before after, params = before ++ p :: after /\ cvp_band p = n /\ Forall (fun q => cvp_band q <> n) before).
  { intros n p. induction params as [|q l IH]; [discriminate|]. cbn [filter]. destruct (Z.eqb_spec (cvp_band q) n) as [E|N].
    - cbn. intros H. injection H as <-. exists [], l. auto.
    - intros H. destruct (IH H) as (be & af & -> & E & F). exists (q :: be), af. split; [reflexivity|]. split; [exact E|]. constructor; auto. }
  assert (St : forall k c, (f <- dict_get names (band_key k) ;; n <- file_band_number f ;;
      p <- py_get (filter (fun p => Z.eqb (cvp_band p) n) params) 0 ;; Ok (cv_init p)) = Ok c ->
      exists f p, dict_get names (band_key k) = Ok f /\ c = cv_init p /\ In p params /\
        forall a dg e, f = a ++ dg :: "."%char :: e -> ~ In "."%char e -> is_digit dg = true ->
          exists before after, params = before ++ p :: after /\ cvp_band p = (Z.of_nat (nat_of_ascii dg) - 48)%Z /\
          Forall (fun q => cvp_band q <> (Z.of_nat (nat_of_ascii dg) - 48)%Z) before).
  { intros k c H. destruct (dict_get names (band_key k)) as [f| |]; cbn [bind] in H; try discriminate.
    destruct (file_band_number f) as [n| |] eqn:Fn; cbn [bind] in H; try discriminate.
    destruct (py_get (filter _ params) 0) as [p| |] eqn:Pg; cbn [bind] in H; try discriminate. injection H as <-.
    exists f, p. split; [reflexivity|]. split; [reflexivity|].
    destruct (First n p Pg) as (be & af & E & Eb & F). split; [rewrite E; apply in_or_app; right; left; reflexivity|].
    intros a dg e -> He Hd. pose proof (file_band_number_spec a dg e He Hd) as FB. change ch_dot with "."%char in FB. rewrite FB in Fn. injection Fn as <-. eauto. }
  intros H.
  destruct (f <- dict_get names (band_key 1) ;; _) as [c1| |] eqn:S1; cbn [bind] in H; try discriminate.
  destruct (f <- dict_get names (band_key 2) ;; _) as [c2| |] eqn:S2; cbn [bind] in H; try discriminate.
  destruct (f <- dict_get names (band_key 3) ;; _) as [c3| |] eqn:S3; cbn [bind] in H; try discriminate.
  destruct (f <- dict_get names (band_key 4) ;; _) as [c4| |] eqn:S4; cbn [bind] in H; try discriminate.
  destruct (f <- dict_get names (band_key 5) ;; _) as [c5| |] eqn:S5; cbn [bind] in H; try discriminate.
  destruct (St _ _ S1) as (f1 & p1 & D1 & -> & Q1). destruct (St _ _ S2) as (f2 & p2 & D2 & -> & Q2).
  destruct (St _ _ S3) as (f3 & p3 & D3 & -> & Q3). destruct (St _ _ S4) as (f4 & p4 & D4 & -> & Q4).
  destruct (St _ _ S5) as (f5 & p5 & D5 & -> & Q5).
  unfold from_point_calcs in H. rewrite D1, D2, D3, D4, D5 in H. cbn [bind] in H.
  change (py_get [cv_init p1; cv_init p2; cv_init p3; cv_init p4; cv_init p5] 0) with (Ok (cv_init p1)) in H. cbn [bind] in H. injection H as <-. split.
  - intros b Hb. destruct b as [|[|[|[|[|b]]]]]; try lia; do 2 eexists; (split; [eassumption|]); (split; [reflexivity|]); (split; [reflexivity|]); assumption.
  - intros b Hb. unfold mica_calc. cbn [mi_calcs]. destruct (Z.ltb_spec b (zlen [cv_init p1; cv_init p2; cv_init p3; cv_init p4; cv_init p5])) as [L|]; [|reflexivity].
    unfold zlen in L. cbn in L. lia.
Qed.
Print Assumptions C74_opencv.

(** C74 refuted: only the last digit of the band number counts: the file of band 10 gets the
    parameters of band 0 *)
Theorem C74_two_digits_refuted : forall stem, file_band_number (stem ++ txt "_10.tif") = Ok 0%Z.
Proof.
  intros stem. change (txt "_10.tif") with (txt "_1" ++ "0"%char :: ch_dot :: txt "tif"). rewrite app_assoc.
  apply (file_band_number_spec (stem ++ txt "_1") "0"%char (txt "tif")); [|reflexivity].
  intros [H|[H|[H|[]]]]; discriminate.
Qed.
Print Assumptions C74_two_digits_refuted.

(** C74: the calculators made from OpenCV parameters have no exterior orientation: until it
    is set, they locate nothing *)
Theorem C74_opencv_unoriented (p : cv_params) (q : vec3) : cv_lon_lat_alt_to_pixel (cv_init p) q = Err OtherError.
Proof. reflexivity. Qed.
Print Assumptions C74_opencv_unoriented.

(** C74: once it is set, they project with every one of the parameters they were made from:
    focal lengths, principal point, distortion, lever arm and boresight *)
Theorem C74_opencv_oriented (p : cv_params) (x y z omega phi kappa : R) :
  exists pos M, Geo3.rotation M /\
    M = Geo3.mul3 (create_M_matrix (cvp_omega p) (cvp_phi p) (cvp_kappa p) (txt "rpy")) (create_M_matrix omega phi kappa (txt "rpy")) /\
    mv3 (create_M_matrix omega phi kappa (txt "rpy")) (vsub3 pos (V3 x y z)) = V3 (cvp_x p) (cvp_y p) (cvp_z p) /\
    forall w, let q := mv3 M (vsub3 w pos) in
      (vz q <> 0%R -> let a := (vx q / vz q)%R in let b := (vy q / vz q)%R in
         cv_lon_lat_alt_to_pixel (cv_step (cv_init p) (InitExtrinsic x y z omega phi kappa)) w =
           Ok (Fin (cvp_cx p + cvp_fx p * Spec_Cameras.distorted_x (cvp_k1 p) (cvp_k2 p) (cvp_k3 p) (cvp_p1 p) (cvp_p2 p) a b)%R,
               Fin (cvp_cy p - cvp_fy p * Spec_Cameras.distorted_y (cvp_k1 p) (cvp_k2 p) (cvp_k3 p) (cvp_p1 p) (cvp_p2 p) a b)%R)) /\
      (vz q = 0%R -> cv_lon_lat_alt_to_pixel (cv_step (cv_init p) (InitExtrinsic x y z omega phi kappa)) w = Ok (NonFinite, NonFinite)).
Proof.
  exact (Prop_Cameras.C31_projection
    [InitIntrinsic (cvp_fx p) (cvp_fy p) (cvp_cx p) (cvp_cy p) (cvp_k1 p) (cvp_k2 p) (cvp_k3 p) (cvp_p1 p) (cvp_p2 p);
     InitOffsets (cvp_x p) (cvp_y p) (cvp_z p) (cvp_omega p) (cvp_phi p) (cvp_kappa p); InitExtrinsic x y z omega phi kappa]
    _ _ _ _ _ _ _ _ _ _ _ _ _ _ _ _ _ eq_refl eq_refl eq_refl).
Qed.
Print Assumptions C74_opencv_oriented.

(* ------------------------------ C75 ----------------------------------- *)

(** C75: every band file holds the last band that was written under its name, so the band that
    is read back is the one that was given if no later band has the same file name; files of
    other names are not touched *)
Theorem C75_each_band (V : Type) home fresh working_dir (names : option (list text)) (r : raster V) fs :
  match names with None => True | Some l => (length (r_bands r) <= length l)%nat end ->
  exists fs' fnames,
    mica_from_numpy home fresh working_dir names r fs = (fs', Ok fnames) /\ length fnames = length (r_bands r) /\
    (forall k, (k < length (r_bands r))%nat ->
       nth_error fnames k = Some (tmp_name home fresh working_dir (match names with None => None | Some l => nth_error l k end) k)) /\
    (forall n, ~ In n fnames -> fs' n = fs n) /\
    (forall k, (k < length (r_bands r))%nat -> exists j b,
       (k <= j < length (r_bands r))%nat /\ nth_error fnames j = nth_error fnames k /\
       (forall i, (j < i < length (r_bands r))%nat -> nth_error fnames i <> nth_error fnames k) /\
       nth_error (r_bands r) j = Some b /\ mica_read_band fs' fnames (Z.of_nat k) = Ok (r_ny r, r_nx r, b)).
Proof.
  intros Hl. unfold mica_from_numpy.
  rewrite (@mica_loop V home fresh working_dir names r).
  2:{ intros k I. apply in_seq in I. split; [lia|]. destruct names; [lia|exact I0 || exact Logic.I]. }
  cbn [app]. set (nb := length (r_bands r)) in *. set (bn := band_name home fresh working_dir names).
  assert (Nth : forall k, (k < nb)%nat -> nth_error (map bn (seq 0 nb)) k = Some (bn k)).
  { intros k Hk. rewrite nth_error_map. rewrite (nth_error_nth' (seq 0 nb) 0%nat) by (rewrite seq_length; exact Hk).
    rewrite seq_nth by exact Hk. reflexivity. }
  destruct (writes_last home fresh working_dir names r nb fs (le_n _)) as [W1 W2].
  do 2 eexists. split; [reflexivity|]. split; [rewrite map_length, seq_length; reflexivity|].
  split; [intros k Hk; rewrite Nth by exact Hk; reflexivity|]. split.
  - intros n Hn. apply W1. intros k Hk E. apply Hn. apply in_map_iff. exists k. split; [exact E|]. apply in_seq. lia.
  - intros k Hk. destruct (last_same home fresh working_dir names nb k Hk) as (j & Hj & Ej & Dj).
    destruct (nth_some_lt (r_bands r) j) as [b B]; [unfold nb in Hj; lia|]. exists j, b.
    split; [exact Hj|]. rewrite !Nth by lia. split; [unfold bn; rewrite Ej; reflexivity|]. split.
    { intros i Hi. rewrite Nth by lia. intros E. injection E as E. apply (Dj i Hi). unfold bn in E. congruence. }
    split; [exact B|].
    rewrite C73_micasense_band, py_get_nat, Nth by exact Hk. unfold bn. rewrite <- Ej.
    rewrite (W2 j b); [reflexivity|lia|exact Dj|exact B].
Qed.
Print Assumptions C75_each_band.

(** C75: with different file names, reading the image back gives the array it was made from *)
Theorem C75_round_trip (V : Type) home fresh working_dir (names : option (list text)) (r : raster V) fs fs' fnames :
  r_bands r <> [] -> mica_from_numpy home fresh working_dir names r fs = (fs', Ok fnames) -> NoDup fnames ->
  match names with None => True | Some l => (length (r_bands r) <= length l)%nat end ->
  mica_read_all fs' fnames = Ok r /\
  forall k b, nth_error (r_bands r) k = Some b -> mica_read_band fs' fnames (Z.of_nat k) = Ok (r_ny r, r_nx r, b).
Proof.
  intros Hne H Nd Hl.
  destruct (C75_each_band V home fresh working_dir names r fs Hl) as (fs2 & fn2 & E & L & _ & _ & Hk).
  rewrite E in H. injection H as -> ->.
  assert (Rb : forall k b, nth_error (r_bands r) k = Some b -> mica_read_band fs' fnames (Z.of_nat k) = Ok (r_ny r, r_nx r, b)).
  { intros k b B. assert (Lk : (k < length (r_bands r))%nat) by (apply nth_error_Some; congruence).
    destruct (Hk k Lk) as (j & b' & Hj & Ej & _ & B' & R).
    assert (j = k). { apply (proj1 (NoDup_nth_error fnames) Nd); [lia|]. exact Ej. }
    subst j. rewrite B in B'. injection B' as <-. exact R. }
  split; [|exact Rb]. apply C73_micasense_all. split; [destruct fnames; [destruct (r_bands r); [contradiction|discriminate]|discriminate]|].
  split; [symmetry; exact L|].
  intros k n Hn. assert (Lk : (k < length (r_bands r))%nat) by (rewrite <- L; apply nth_error_Some; congruence).
  destruct (nth_some_lt (r_bands r) k Lk) as [b B]. exists b. split; [exact B|].
  specialize (Rb k b B). rewrite C73_micasense_band, py_get_nat, Hn in Rb. destruct (fs' n); [congruence|discriminate].
Qed.
Print Assumptions C75_round_trip.

(** C75: the files are named by joining the directory and the names; different relative names
    give different files *)
Theorem C75_distinct_names (V : Type) home fresh dir l (r : raster V) fs fs' fnames :
  mica_from_numpy home fresh (Some dir) (Some l) r fs = (fs', Ok fnames) -> NoDup l ->
  Forall (fun n => ~ exists t, n = "/"%char :: t) l -> NoDup fnames.
Proof.
  intros H Nd Rel.
  destruct (Nat.le_gt_cases (length (r_bands r)) (length l)) as [Hl|Hl].
  - destruct (C75_each_band V home fresh (Some dir) (Some l) r fs Hl) as (fs2 & fn2 & E & L & Nm & _ & _).
    rewrite E in H. injection H as -> ->.
    apply NoDup_nth_error. intros i j Hi Eq. assert (Hj : (j < length fnames)%nat) by (apply nth_error_Some; rewrite <- Eq; apply nth_error_Some; exact Hi).
    rewrite (Nm i), (Nm j) in Eq by lia. injection Eq as Eq.
    destruct (nth_some_lt l i) as [a A]; [lia|]. destruct (nth_some_lt l j) as [b B]; [lia|]. rewrite A, B in Eq.
    rewrite Forall_forall in Rel. pose proof (Rel a (nth_error_In _ _ A)) as Ra. pose proof (Rel b (nth_error_In _ _ B)) as Rb.
    unfold tmp_name, M_TextFiles.path_join in Eq.
    assert (Pa : is_prefix [ch_slash] a = false).
    { destruct a as [|c a]; [reflexivity|]. cbn [is_prefix]. destruct (Ascii.eqb_spec ch_slash c) as [<-|]; [exfalso; apply Ra; eexists; reflexivity|reflexivity]. }
    assert (Pb : is_prefix [ch_slash] b = false).
    { destruct b as [|c b]; [reflexivity|]. cbn [is_prefix]. destruct (Ascii.eqb_spec ch_slash c) as [<-|]; [exfalso; apply Rb; eexists; reflexivity|reflexivity]. }
    rewrite Pa, Pb in Eq.
    assert (a = b). { destruct (text_eqb dir [] || ends_with [ch_slash] dir)%bool; repeat apply app_inv_head in Eq; exact Eq. }
    subst b. apply (proj1 (NoDup_nth_error l) Nd); [lia|congruence].
  - exfalso. unfold mica_from_numpy in H.
    assert (Es : seq 0 (length (r_bands r)) = seq 0 (length l) ++ seq (0 + length l) (S (length (r_bands r) - length l - 1))) by (rewrite <- seq_app; f_equal; lia).
    rewrite Es, (@mica_loop_app V) in H. rewrite (@mica_loop V) in H.
    2:{ intros k I. apply in_seq in I. lia. }
    cbn [seq mica_from_numpy_loop] in H. rewrite py_get_nat in H. rewrite (proj2 (nth_error_None l (0 + length l))) in H by lia.
    cbn [bind] in H. discriminate.
Qed.
Print Assumptions C75_distinct_names.

(** C75: without a directory and names the files are /tmp/HOME/UUID.tif *)
Theorem C75_default_names (V : Type) home fresh (r : raster V) fs :
  home <> [] -> (forall t, home <> "/"%char :: t) -> (forall t, home <> t ++ ["/"%char]) ->
  (forall k t, fresh k <> "/"%char :: t) ->
  exists fs', mica_from_numpy home fresh None None r fs =
    (fs', Ok (map (fun k => txt "/tmp/" ++ home ++ txt "/" ++ fresh k ++ txt ".tif") (seq 0 (length (r_bands r))))).
Proof.
  intros H0 H1 H2 H3. destruct (C75_each_band V home fresh None None r fs I) as (fs' & fn & E & L & N & _).
  exists fs'. rewrite E. f_equal. f_equal. apply nth_error_ext. intros k.
  destruct (Nat.lt_ge_cases k (length (r_bands r))) as [Hk|Hk].
  - rewrite (N k Hk), nth_error_map. rewrite (nth_error_nth' (seq 0 (length (r_bands r))) 0%nat) by (rewrite seq_length; exact Hk).
    rewrite seq_nth by exact Hk. cbn [option_map]. f_equal. unfold tmp_name. cbv zeta.
    assert (SL : forall t : text, (forall u, t <> "/"%char :: u) -> is_prefix [ch_slash] t = false).
    { intros [|c t] Ht; [reflexivity|]. cbn [is_prefix]. destruct (Ascii.eqb_spec ch_slash c) as [<-|]; [exfalso; apply (Ht t); reflexivity|reflexivity]. }
    assert (D : M_TextFiles.path_join (txt "/tmp") home = txt "/tmp/" ++ home).
    { unfold M_TextFiles.path_join. rewrite (SL home H1). reflexivity. }
    rewrite D. unfold M_TextFiles.path_join.
    rewrite SL by (destruct (fresh k) as [|c f] eqn:Ef; [intros u Q; discriminate Q|intros u Q; injection Q as -> _; apply (H3 k f); exact Ef]).
    assert (EW : Text2.ends_with [ch_slash] (txt "/tmp/" ++ home) = false).
    { unfold Text2.ends_with. rewrite rev_app_distr. destruct (rev home) as [|c h] eqn:Er.
      - exfalso. apply H0. apply (f_equal (@rev _)) in Er. rewrite rev_involutive in Er. exact Er.
      - cbn [rev app is_prefix]. destruct (Ascii.eqb_spec ch_slash c) as [<-|]; [|reflexivity]. exfalso. apply (H2 (rev h)).
        apply (f_equal (@rev _)) in Er. rewrite rev_involutive in Er. exact Er. }
    rewrite EW. rewrite <- !app_assoc. reflexivity.
  - rewrite (proj2 (nth_error_None fn k)) by lia. symmetry. apply nth_error_None. rewrite map_length, seq_length. exact Hk.
Qed.
Print Assumptions C75_default_names.

(** C75: fewer names than bands raise IndexError *)
Theorem C75_missing_name (V : Type) home fresh working_dir l (r : raster V) fs :
  (length l < length (r_bands r))%nat -> snd (mica_from_numpy home fresh working_dir (Some l) r fs) = Err IndexError.
Proof.
  intros Hl. unfold mica_from_numpy.
  assert (Es : seq 0 (length (r_bands r)) = seq 0 (length l) ++ seq (0 + length l) (S (length (r_bands r) - length l - 1))) by (rewrite <- seq_app; f_equal; lia).
  rewrite Es, (@mica_loop_app V), (@mica_loop V).
  2:{ intros k I. apply in_seq in I. lia. }
  cbn [seq mica_from_numpy_loop]. rewrite py_get_nat. rewrite (proj2 (nth_error_None l (0 + length l))) by lia. reflexivity.
Qed.
Print Assumptions C75_missing_name.

(** C75 refuted: two bands under one name are both read back as the later one *)
Theorem C75_repeated_name_refuted : exists (r : raster Z) fs' fnames,
  mica_from_numpy [] (fun _ => []) (Some (txt "/d")) (Some [txt "a.tif"; txt "a.tif"]) r (fun _ => None) = (fs', Ok fnames) /\
  mica_read_all fs' fnames <> Ok r /\ mica_read_band fs' fnames 0 = Ok (2%nat, 2%nat, [[5; 6]; [7; 8]]%Z) /\
  nth_error (r_bands r) 0 = Some [[1; 2]; [3; 4]]%Z.
Proof.
  exists (mkRaster 2 2 [[[1; 2]; [3; 4]]; [[5; 6]; [7; 8]]]%Z). do 2 eexists. split; [reflexivity|].
  split; [vm_compute; discriminate|]. split; vm_compute; reflexivity.
Qed.
Print Assumptions C75_repeated_name_refuted.

(* ------------------- the hypotheses can be met ------------------------ *)

(** GDAL for these examples: two data types, and texts for projections *)
Inductive ex_dtype := Int8 | UInt8.
Definition ex_to_gdal (d : ex_dtype) : option unit := Some tt.
Definition ex_from_gdal (g : unit) : ex_dtype := UInt8.
Definition ex_store (d : ex_dtype) (g : unit) (v : Z) : Z := Z.modulo v 256.
Definition ex_raster : raster Z := mkRaster 2 3 [[[1; 2; 3]; [4; 5; 6]]; [[7; 8; 9]; [10; 11; 255]]]%Z.
Definition ex_image : geotiff Z ex_dtype unit text :=
  geotiff_from_numpy ex_to_gdal UInt8 (Array3 ex_raster) [10; 1; 0; 20; 0; -1]%R (txt "utm") (Nodata (IZR (-9999))).

Lemma ex_shape : array_shape (Array3 ex_raster) 2 3 2.
Proof. repeat split; repeat constructor. Qed.
Lemma ex_values y x k v : px (r_bands ex_raster) y x k = Some v -> (0 <= v < 256)%Z.
Proof.
  unfold px. destruct (nth_error (r_bands ex_raster) k) as [rows|] eqn:K; [|discriminate].
  destruct (nth_error rows y) as [row|] eqn:Y; [|discriminate]. intros X.
  apply nth_error_In in K, Y, X.
  assert (F : Forall (Forall (Forall (fun v => 0 <= v < 256)%Z)) (r_bands ex_raster)) by (repeat constructor; lia).
  rewrite Forall_forall in F. specialize (F rows K). rewrite Forall_forall in F. specialize (F row Y). rewrite Forall_forall in F. exact (F v X).
Qed.
Example C72_ex_round_trip :
  exists fs' im' im2 r,
    write_to_disk ex_from_gdal ex_store 0%Z (fun p => p) (fun _ => None) ex_image (txt "a.tif") = (fs', im', Ok tt) /\
    open_geotiff (fun w => w) fs' (txt "a.tif") = Ok im2 /\ gt_nodata im2 = Nodata (IZR (-9999)) /\ gt_proj im2 = txt "utm" /\
    geotiff_read_all ex_from_gdal fs' im2 = Ok (UInt8, r) /\ px (r_bands r) 1 2 1 = Some 255%Z.
Proof.
  destruct (C72_round_trip Z ex_dtype unit text text ex_to_gdal ex_from_gdal ex_store 0%Z (fun p => p) (fun w => w) (fun _ => None)
    (txt "a.tif") UInt8 tt (Array3 ex_raster) 2 3 2 [10; 1; 0; 20; 0; -1]%R (txt "utm") (Nodata (IZR (-9999))))
    as (fs' & im' & im2 & r & H1 & _ & H2 & _ & _ & _ & _ & H3 & _ & H4 & H5 & _ & H6); try lia; try reflexivity.
  - exact ex_shape.
  - intros y x k v H. apply Z.mod_small. apply (ex_values y x k v H).
  - right. eexists. reflexivity.
  - exists fs', im', im2, r. repeat (split; [eassumption|]). rewrite H6 by lia. reflexivity.
Qed.
(** a type that GDAL stores as another one (int8 in GDAL before 3.7) does not come back *)
Example C72_ex_int8 : exists fs' im' im2,
  write_to_disk ex_from_gdal ex_store 0%Z (fun p => p) (fun _ => None)
    (geotiff_from_numpy ex_to_gdal Int8 (Array2 1 1 [[(-1)%Z]]) [] (txt "utm") NoNodata) (txt "a.tif") = (fs', im', Ok tt) /\
  open_geotiff (fun w => w) fs' (txt "a.tif") = Ok im2 /\
  geotiff_read_all ex_from_gdal fs' im2 = Ok (UInt8, mkRaster 1 1 [[[255%Z]]]).
Proof. do 3 eexists. split; [reflexivity|]. split; [reflexivity|]. vm_compute. reflexivity. Qed.

Definition ex_file : dataset Z unit text := mkDataset 3 2 tt (r_bands ex_raster) [10; 1; 0; 20; 0; -1]%R (txt "utm") NoNodata.
Definition ex_files : files Z unit text := fun n => if text_eqb n (txt "in.tif") then Some ex_file else None.
Lemma ex_file_shape : file_shape ex_file 2 3 2.
Proof. repeat split; repeat constructor. Qed.
Example C72_ex_copy : exists im fs' im',
  open_geotiff (D := ex_dtype) (fun w => w) ex_files (txt "in.tif") = Ok im /\
  write_to_disk ex_from_gdal ex_store 0%Z (fun p => p) ex_files im (txt "out.tif") = (fs', im', Ok tt) /\ fs' (txt "out.tif") = Some ex_file.
Proof.
  destruct (C72_copy Z ex_dtype unit text text ex_from_gdal ex_store 0%Z (fun p => p) (fun w => w) ex_files (txt "in.tif") (txt "out.tif") ex_file 2 3 2)
    as (im & fs' & im' & A & B & C & _); try lia; try reflexivity.
  - discriminate.
  - exact ex_file_shape.
  - left. reflexivity.
  - intros y x k v H. apply Z.mod_small. apply (ex_values y x k v H).
  - exists im, fs', im'. auto.
Qed.
Example C72_ex_own_file : exists im fs' im' d', open_geotiff (D := ex_dtype) (fun w => w) ex_files (txt "in.tif") = Ok im /\
  write_to_disk ex_from_gdal ex_store 0%Z (fun p : text => p) ex_files im (txt "in.tif") = (fs', im', Ok tt) /\
  fs' (txt "in.tif") = Some d' /\ px (d_bands d') 1 2 1 = Some 0%Z /\ px (d_bands ex_file) 1 2 1 = Some 255%Z.
Proof.
  destruct (C72_own_file_refuted Z ex_dtype unit text text ex_from_gdal ex_store 0%Z (fun p => p) (fun w => w) ex_files (txt "in.tif") ex_file 2 3 2)
    as (im & fs' & im' & d' & A & B & C & _ & E); try lia; try reflexivity.
  - exact ex_file_shape.
  - left. reflexivity.
  - exists im, fs', im', d'. repeat (split; [eassumption|]). split; [apply E; lia|reflexivity].
Qed.
Example C72_ex_memory : raster_shape ex_raster (gt_ny ex_image) (gt_nx ex_image) 2 /\ gt_type ex_image = Some tt /\
  gt_data ex_image = Some (UInt8, ex_raster) /\ whole (gt_nodata ex_image) /\ gt_nb ex_image = 2%nat.
Proof. split; [exact ex_shape|]. split; [reflexivity|]. split; [reflexivity|]. split; [right; eexists; reflexivity|reflexivity]. Qed.
(** more rows than the metadata says; fewer bands; other no-data values *)
Example C72_ex_sizes :
  let small := mkGeotiff (Some (UInt8, ex_raster)) None 3 1 1 (Some tt) NodataNaN None [] (txt "utm") : geotiff Z ex_dtype unit text in
  let more := mkGeotiff (Some (UInt8, ex_raster)) None 3 2 5 (Some tt) (Nodata (1 / 2)) None [] (txt "utm") : geotiff Z ex_dtype unit text in
  raster_shape ex_raster 2 3 2 /\ (gt_ny small < 2)%nat /\ (2 < gt_nb more)%nat /\ raster_shape ex_raster (gt_ny more) (gt_nx more) 2.
Proof. cbn. split; [exact ex_shape|]. split; [lia|]. split; [lia|exact ex_shape]. Qed.

Example C73_ex_camera : exists im, camera_from_file ex_files (txt "in.tif") = Ok im /\
  camera_read_band ex_files im 0 = Err TypeError /\
  camera_read_all ex_from_gdal ex_files im = Ok (UInt8, mkRaster 2 3 (r_bands ex_raster)).
Proof. eexists. split; [reflexivity|]. split; vm_compute; reflexivity. Qed.
Example C73_ex_geotiff : exists im, open_geotiff (D := ex_dtype) (fun w : text => w) ex_files (txt "in.tif") = Ok im /\
  geotiff_read_band ex_files im 1 = Ok [[7; 8; 9]; [10; 11; 255]]%Z /\ geotiff_read_band ex_files im (-1) = Err AttributeError.
Proof. eexists. split; [reflexivity|]. split; vm_compute; reflexivity. Qed.

Definition ex_names : dict text :=
  [(txt "band1", txt "/data/IMG_0100_1.tif"); (txt "band2", txt "/data/IMG_0100_2.tif"); (txt "band3", txt "/data/IMG_0100_3.tif");
   (txt "band4", txt "/data/IMG_0100_4.tif"); (txt "band5", txt "/data/IMG_0100_5.tif")].
Example C74_ex_name : exists m, from_point_calcs ex_names [1; 2; 3; 4; 5]%Z = Ok m /\ mi_name m = txt "/data/IMG_0100" /\
  mica_calc m 2 = Some 3%Z /\ nth_error (mi_fnames m) 2 = Some (txt "/data/IMG_0100_3.tif").
Proof. eexists. split; [vm_compute; reflexivity|]. repeat split; reflexivity. Qed.
Definition ex_p4 : p4_params := mkP4Params (M3 1 0 0 0 1 0 0 0 1) [1; 2; 3]%R 1280 960 1 5 2 2 [0; 0]%R [0; 0; 0]%R.
Definition ex_p4s : dict p4_params := map (fun k => (txt "IMG_0100_" ++ str_of_Z k ++ txt ".tif", ex_p4)) [1; 2; 3; 4; 5]%Z.
Example C74_ex_pix4d : exists m, mica_pix4d ex_names ex_p4s = Ok m.
Proof.
  unfold mica_pix4d.
  assert (P : forall f, dict_get ex_p4s (basename f) = Ok ex_p4 -> exists c, p4_init f ex_p4s (Some (txt "regular")) = Ok c).
  { intros f H. unfold p4_init. rewrite H. cbn [bind]. unfold zdiv. rewrite Reqb_false by (cbn; lra). eexists. reflexivity. }
  destruct (P (txt "/data/IMG_0100_1.tif")) as [c1 E1]; [reflexivity|].
  destruct (P (txt "/data/IMG_0100_2.tif")) as [c2 E2]; [reflexivity|].
  destruct (P (txt "/data/IMG_0100_3.tif")) as [c3 E3]; [reflexivity|].
  destruct (P (txt "/data/IMG_0100_4.tif")) as [c4 E4]; [reflexivity|].
  destruct (P (txt "/data/IMG_0100_5.tif")) as [c5 E5]; [reflexivity|].
  change (dict_get ex_names (band_key 1)) with (Ok (txt "/data/IMG_0100_1.tif")). cbn [bind]. rewrite E1. cbn [bind].
  change (dict_get ex_names (band_key 2)) with (Ok (txt "/data/IMG_0100_2.tif")). cbn [bind]. rewrite E2. cbn [bind].
  change (dict_get ex_names (band_key 3)) with (Ok (txt "/data/IMG_0100_3.tif")). cbn [bind]. rewrite E3. cbn [bind].
  change (dict_get ex_names (band_key 4)) with (Ok (txt "/data/IMG_0100_4.tif")). cbn [bind]. rewrite E4. cbn [bind].
  change (dict_get ex_names (band_key 5)) with (Ok (txt "/data/IMG_0100_5.tif")). cbn [bind]. rewrite E5. cbn [bind].
  eexists. reflexivity.
Qed.
Example C74_ex_pix4d_missing : mica_pix4d ex_names [] = Err KeyError.
Proof. apply (C74_pix4d_missing ex_names [] 0 (txt "/data/IMG_0100_1.tif")); [lia|intros; lia|reflexivity|reflexivity]. Qed.
Definition ex_cv (b : Z) : cv_params := mkCvParams b 1000 1000 640 480 0 0 0 0 0 0 0 0 0 0 0.
Example C74_ex_opencv : exists m, mica_opencv ex_names (map ex_cv [5; 4; 3; 2; 1]%Z) = Ok m.
Proof. eexists. reflexivity. Qed.

Example C75_ex : exists fs' fnames, mica_from_numpy (txt "me") (fun k => str_of_Z (Z.of_nat k)) None None ex_raster (fun _ => None) = (fs', Ok fnames) /\
  fnames = [txt "/tmp/me/0.tif"; txt "/tmp/me/1.tif"] /\ NoDup fnames /\ mica_read_all fs' fnames = Ok ex_raster.
Proof.
  do 2 eexists. split; [reflexivity|]. split; [reflexivity|]. split; [|vm_compute; reflexivity].
  constructor; [intros [H|[]]; discriminate|]. constructor; [intros []|constructor].
Qed.
