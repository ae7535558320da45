(** Lemmas for C89 and C90. *)
From Verif Require Import RAux Text M_Image M_Ortho M_Objects M_Warp Spec_Ortho Spec_Objects Spec_Warp P_Ortho P_Objects.
Open Scope R_scope.
Open Scope list_scope.

Lemma nth_error_seq0 n k : nth_error (seq 0 n) k = if Nat.ltb k n then Some k else None.
Proof.
  destruct (Nat.ltb_spec k n).
  - rewrite (nth_error_nth' _ 0%nat) by (rewrite seq_length; lia). now rewrite seq_nth.
  - apply nth_error_None. rewrite seq_length. lia.
Qed.

Lemma stack_shape ny nx bands : Spec_Ortho.raster (stack_bands ny nx bands) ny nx.
Proof.
  split; [unfold stack_bands; now rewrite map_length, seq_length|].
  apply Forall_forall. intros row H. apply in_map_iff in H as (r & <- & _). now rewrite map_length, seq_length.
Qed.

Lemma stack_at ny nx bands y x : (y < ny)%nat -> (x < nx)%nat ->
  raster_at (stack_bands ny nx bands) y x = Some (map (fun b => nth x (nth y b []) NonFinite) bands).
Proof.
  intros Hy Hx. unfold raster_at, stack_bands. rewrite nth_error_map, nth_error_seq0. destruct (Nat.ltb_spec y ny); [|lia]. cbn [option_map].
  rewrite nth_error_map, nth_error_seq0. destruct (Nat.ltb_spec x nx); [|lia]. reflexivity.
Qed.

Lemma raster_nth (rows : list (list flt)) ny nx y x : Spec_Ortho.raster rows ny nx -> (y < ny)%nat -> (x < nx)%nat ->
  raster_at rows y x = Some (nth x (nth y rows []) NonFinite).
Proof.
  intros [L F] Hy Hx. unfold raster_at. rewrite (nth_error_nth' rows []) by lia.
  apply nth_error_nth'. rewrite Forall_forall in F. rewrite (F (nth y rows [])); [exact Hx|]. apply nth_In. lia.
Qed.

Lemma band_of_at image k y x p : raster_at image y x = Some p -> (k < length p)%nat -> raster_at (band_of image k) y x = nth_error p k.
Proof.
  intros H L. unfold band_of. rewrite map_rows_at, H. cbn [option_map]. symmetry. now apply nth_error_nth'.
Qed.

Lemma rect_raster {A} (rows : list (list A)) ny nx : Spec_Ortho.raster rows ny nx -> rect ny nx rows.
Proof. exact (fun H => H). Qed.

Lemma px_raster {A} (bands : list (list (list A))) y x k rows : nth_error bands k = Some rows -> px bands y x k = raster_at rows y x.
Proof. intros H. unfold px. now rewrite H. Qed.

Lemma mask_ok store image nodata : Forall (Forall (fun px => px <> [])) image ->
  mask_image store image nodata =
  Ok (map (map (fun px => px ++ [if same_value (hd NonFinite px) nodata then store 0 else store 255])) image).
Proof.
  intros F. unfold mask_image. apply mapM_ok. intros row Hr. apply mapM_ok. intros p Hp.
  rewrite Forall_forall in F. specialize (F row Hr). rewrite Forall_forall in F. specialize (F p Hp).
  destruct p as [|b0 p]; [congruence|]. change (py_get (b0 :: p) 0) with (@Ok flt b0). cbn [bind hd]. now destruct (same_value b0 nodata).
Qed.

Lemma same_value_spec a b : same_value a b = true <-> equals_nodata a b.
Proof.
  unfold equals_nodata, same_value. destruct a as [x|], b as [y|]; try (split; [discriminate|intros (v & E1 & E2); discriminate]).
  destruct (Reqb_spec x y) as [->|N]; split; intros H; eauto; [discriminate|]. destruct H as (v & E1 & E2). injection E1 as ->. injection E2 as ->. congruence.
Qed.

Lemma stack_nonempty ny nx bands : bands <> [] -> Forall (Forall (fun px => px <> [])) (stack_bands ny nx bands).
Proof.
  intros NE. apply Forall_forall. intros row H. apply in_map_iff in H as (r & <- & _).
  apply Forall_forall. intros p H. apply in_map_iff in H as (c & <- & _). destruct bands; [congruence|discriminate].
Qed.

(** The object made of the bands *)
Lemma ortho_image_ok {D G P} (to_gdal : D -> option G) (dtype : D) store nx ny (out : list (band flt)) geo_t (proj : P) nodata mask :
  out <> [] -> Forall (fun o => Spec_Ortho.raster (b_rows o) ny nx) out ->
  exists im, ortho_image to_gdal dtype store nx ny out geo_t proj nodata mask = Ok im /\
    ortho_object im dtype (to_gdal dtype) store nx ny out geo_t proj nodata mask.
Proof.
  intros NE F. unfold ortho_image. set (st := stack_bands ny nx (map b_rows out)).
  pose proof (stack_shape ny nx (map b_rows out)) as SH. fold st in SH.
  assert (NE' : map b_rows out <> []) by (destruct out; [congruence|discriminate]).
  set (al := fun px : list flt => px ++ [if same_value (hd NonFinite px) nodata then store (Fin 0) else store (Fin 255)]).
  set (image := if mask then map (map al) st else st).
  assert (E : (if mask then mask_image (fun v => store (Fin v)) st nodata else Ok st) = Ok image).
  { unfold image. destruct mask; [|reflexivity]. rewrite mask_ok; [reflexivity|]. now apply stack_nonempty. }
  rewrite E. cbn [bind]. eexists. split; [reflexivity|].
  set (nb := (length out + if mask then 1 else 0)%nat).
  assert (RI : Spec_Ortho.raster image ny nx) by (unfold image; destruct mask; [now apply raster_map|exact SH]).
  assert (AT : forall y x, (y < ny)%nat -> (x < nx)%nat -> exists p, raster_at image y x = Some p /\ length p = nb /\
     firstn (length out) p = map (fun b => nth x (nth y b []) NonFinite) (map b_rows out) /\
     (mask = true -> nth_error p (length out) = Some (if same_value (nth x (nth y (b_rows (hd (mkBand 0 0 []) out)) []) NonFinite) nodata then store (Fin 0) else store (Fin 255)))).
  { intros y x Hy Hx. pose proof (stack_at ny nx (map b_rows out) y x Hy Hx) as S1. fold st in S1.
    unfold image, nb. destruct mask.
    - rewrite map_rows_at, S1. cbn [option_map]. eexists. split; [reflexivity|]. unfold al. split; [rewrite app_length, !map_length; reflexivity|]. split.
      + rewrite firstn_app, !map_length, Nat.sub_diag. cbn [firstn]. rewrite app_nil_r. apply firstn_all2. rewrite !map_length. lia.
      + intros _. rewrite nth_error_app2 by (rewrite !map_length; lia). rewrite !map_length, Nat.sub_diag. cbn [nth_error].
        destruct out; [congruence|]. reflexivity.
    - eexists. split; [exact S1|]. split; [rewrite !map_length; lia|]. split; [apply firstn_all2; rewrite !map_length; lia|discriminate]. }
  assert (BK : forall k, (k < nb)%nat -> nth_error (map (band_of image) (seq 0 nb)) k = Some (band_of image k)).
  { intros k Hk. rewrite nth_error_map, nth_error_seq0. destruct (Nat.ltb_spec k nb); [reflexivity|lia]. }
  unfold ortho_object. fold nb.
  cbn [gt_nx gt_ny gt_nb gt_type gt_geot gt_proj gt_name gt_src gt_nodata gt_data geotiff_from_numpy r_nx r_ny r_bands].
  split; [reflexivity|]. split; [reflexivity|]. split; [now rewrite map_length, seq_length|].
  do 5 (split; [reflexivity|]). split; [now destruct nodata|].
  eexists. split; [reflexivity|]. cbn [r_bands r_nx r_ny]. split.
  { split; [reflexivity|]. split; [reflexivity|]. cbn [r_bands]. split; [now rewrite map_length, seq_length|].
    apply Forall_forall. intros rows H. apply in_map_iff in H as (k & <- & _). apply rect_raster. unfold band_of. now apply raster_map. }
  split.
  - intros k o y x Hk Hy Hx. assert (Lk : (k < length out)%nat) by (apply nth_error_Some; congruence).
    rewrite (px_raster _ y x k _ (BK k ltac:(unfold nb; lia))). destruct (AT y x Hy Hx) as (p & P1 & P2 & P3 & _).
    rewrite (band_of_at image k y x p P1) by lia.
    rewrite Forall_forall in F. rewrite (raster_nth (b_rows o) ny nx y x (F o (nth_error_In _ _ Hk)) Hy Hx).
    assert (Q : nth_error (firstn (length out) p) k = Some (nth x (nth y (b_rows o) []) NonFinite)).
    { rewrite P3, !nth_error_map, Hk. reflexivity. }
    rewrite <- Q. clear - Lk. revert k Lk. generalize (length out) as n. induction p as [|a p IH]; intros n k L.
    + now rewrite firstn_nil.
    + destruct n; [lia|]. destruct k; [reflexivity|]. cbn. apply IH. lia.
  - intros M o y x v Ho Hv Hy Hx. rewrite (px_raster _ y x _ _ (BK (length out) ltac:(unfold nb; rewrite M; lia))).
    destruct (AT y x Hy Hx) as (p & P1 & P2 & _ & P4). rewrite (band_of_at image _ y x p P1) by (rewrite P2; unfold nb; rewrite M; lia).
    rewrite (P4 M). destruct out as [|o0 out]; [discriminate|]. cbn in Ho. injection Ho as ->. cbn [hd].
    inversion F; subst. rewrite (raster_nth (b_rows o) ny nx y x) in Hv by assumption. injection Hv as ->.
    pose proof (same_value_spec v nodata) as SV. destruct (same_value v nodata); split; intros Q; try reflexivity; exfalso.
    + apply Q. now apply SV.
    + apply SV in Q. discriminate.
Qed.
