(** Lemmas for C91. *)
From Verif Require Import RAux Text M_Dem M_Objects M_DemState Spec_Photo Spec_Objects Spec_DemState P_Photo P_Objects.
Open Scope R_scope.
Open Scope list_scope.

Lemma classicR l a : In (Nodata a) l \/ ~ In (Nodata a) l.
Proof.
  induction l as [|n l IH]; [right; intros []|]. destruct IH as [I|I]; [left; now right|].
  destruct n as [|x| |]; try (right; intros [E|E]; [discriminate|contradiction]).
  destruct (Req_EM_T x a) as [->|N]; [left; now left|]. right. intros [E|E]; [injection E as E; contradiction|contradiction].
Qed.

Section PDem.
Context {D G P W : Type}.
Variable from_gdal : G -> D.
Variable file_store : D -> G -> flt -> flt.
Variable wkt_of : P -> W.
Variable proj_of : W -> P.
Variable integral : D -> bool.
Variable srs_of : P -> text.
Variable gdal_warp : dataset flt G W -> text -> text -> option (dataset flt G W).
Notation step := (dem_step from_gdal file_store wkt_of proj_of integral srs_of gdal_warp).
Notation run := (dem_run from_gdal file_store wkt_of proj_of integral srs_of gdal_warp).

Lemma run_app w d a b : run w d (a ++ b) = run (fst (run w d a)) (snd (run w d a)) b.
Proof. unfold dem_run. rewrite fold_left_app. f_equal. apply surjective_pairing. Qed.
Lemma run_snoc w d a o : run w d (a ++ [o]) = fst (step (fst (run w d a)) (snd (run w d a)) o).
Proof. rewrite run_app. reflexivity. Qed.

Lemma remove_fields (d : gtiff_dem D P) nd : let d' := fst (dem_remove_nodata integral d nd) in
  dm_gtiff d' = dm_gtiff d /\ dm_nodata d' = nd /\ dm_interp d' = dm_interp d /\ dm_proj d' = dm_proj d /\ dm_ref d' = dm_ref d /\
  dm_data d' = match dm_data d with None => None | Some (t, r) =>
     if integral t then Some (t, r) else Some (t, mkRaster (r_ny r) (r_nx r) (map (map (map (blank_value nd))) (r_bands r))) end.
Proof.
  assert (B : forall r : raster flt, mkRaster (r_ny r) (r_nx r) (map (map (map (blank_value NoNodata))) (r_bands r)) = r).
  { intros [ny nx bs]. cbn. f_equal. rewrite <- (map_id bs) at 2. apply map_ext. intros rows. rewrite <- (map_id rows) at 2. apply map_ext. intros row.
    rewrite <- (map_id row) at 2. apply map_ext. intros v. reflexivity. }
  unfold dem_remove_nodata. cbn [dm_data].
  destruct (dm_data d) as [[t r]|]; destruct nd; cbn [fst dm_gtiff dm_nodata dm_interp dm_proj dm_ref dm_data];
    try (destruct (integral t)); cbn [fst dm_gtiff dm_nodata dm_interp dm_proj dm_ref dm_data]; rewrite ?B; auto 10.
Qed.

Lemma set_fields w (d : gtiff_dem D P) i : let d' := fst (dem_set_geotiff (W := W) from_gdal integral w d i) in
  dm_nodata d' = dm_nodata d /\ dm_interp d' = dm_interp d /\ dm_ref d' = dm_ref d /\
  dm_gtiff d' = (match gives_image w (SetGeotiff i) with Some j => Some j | None => dm_gtiff d end) /\
  dm_proj d' = (match gives_projection from_gdal w (SetGeotiff i) with Some p => Some p | None => dm_proj d end) /\
  dm_data d' = match loads from_gdal w (SetGeotiff i) with None => dm_data d | Some (_, (t, r)) =>
     if integral t then Some (t, r) else Some (t, mkRaster (r_ny r) (r_nx r) (map (map (map (blank_value (dm_nodata d)))) (r_bands r))) end.
Proof.
  unfold dem_set_geotiff, gives_projection, loads, gives_image.
  destruct (nth_error (wd_images w) i) as [im|] eqn:E.
  2:{ apply nth_error_None in E. destruct (Nat.ltb_spec i (length (wd_images w))); [lia|]. cbn. auto 10. }
  assert (L : (i < length (wd_images w))%nat) by (apply nth_error_Some; congruence). rewrite (proj2 (Nat.ltb_lt _ _)) by exact L.
  destruct (geotiff_read_all from_gdal (wd_files w) im) as [[t r]|e|]; cbn [option_map fst dm_nodata dm_interp dm_ref dm_gtiff dm_proj dm_data]; auto 10.
  pose proof (remove_fields (mkGtiffDem (Some (t, r)) (Some i) (dm_nodata d) (dm_interp d) (Some (gt_proj im)) (dm_ref d)) (dm_nodata d)) as H.
  cbv zeta in H. cbn [dm_nodata dm_interp dm_ref dm_gtiff dm_proj dm_data] in H. destruct H as (H1 & H2 & H3 & H4 & H5 & H6). rewrite H1, H2, H3, H4, H5, H6. auto 10.
Qed.

(** One call that is not a conversion *)
Lemma step_fields w (d : gtiff_dem D P) o : ~ is_conversion o ->
  let s := fst (step w d o) in fst s = w /\
  dm_interp (snd s) = match gives_interpolation o with Some x => x | None => dm_interp d end /\
  dm_ref (snd s) = (match gives_reference o with Some x => Some x | None => dm_ref d end) /\
  dm_nodata (snd s) = match gives_nodata o with Some x => x | None => dm_nodata d end /\
  dm_gtiff (snd s) = (match gives_image w o with Some x => Some x | None => dm_gtiff d end) /\
  dm_proj (snd s) = (match gives_projection from_gdal w o with Some x => Some x | None => dm_proj d end) /\
  dm_data (snd s) = match o with
     | SetGeotiff _ => match loads from_gdal w o with None => dm_data d | Some (_, (t, r)) =>
        if integral t then Some (t, r) else Some (t, mkRaster (r_ny r) (r_nx r) (map (map (map (blank_value (dm_nodata d)))) (r_bands r))) end
     | RemoveNodata nd => match dm_data d with None => None | Some (t, r) =>
        if integral t then Some (t, r) else Some (t, mkRaster (r_ny r) (r_nx r) (map (map (map (blank_value nd))) (r_bands r))) end
     | _ => dm_data d end.
Proof.
  intros NC. destruct o; cbn [is_conversion] in NC; try tauto;
    cbn [dem_step fst snd dm_interp dm_ref dm_nodata dm_gtiff dm_proj dm_data gives_interpolation gives_reference gives_nodata gives_image gives_projection loads option_map]; auto 10.
  - pose proof (remove_fields d nd) as H. cbv zeta in H. destruct (dem_remove_nodata integral d nd) as [d' a]. cbn [fst snd] in *. intuition.
  - pose proof (set_fields w d i) as H. cbv zeta in H. destruct (dem_set_geotiff from_gdal integral w d i) as [d' a]. cbn [fst snd] in *. cbn [gives_image gives_projection loads] in H. intuition.
Qed.

Lemma run_fields w ops : Forall (fun o => ~ is_conversion o) ops ->
  let s := run w new_dem ops in fst s = w /\
  dm_interp (snd s) = match last_some gives_interpolation ops with Some x => x | None => Bilinear end /\
  dm_ref (snd s) = last_some gives_reference ops /\
  dm_nodata (snd s) = match last_some gives_nodata ops with Some x => x | None => NoNodata end /\
  dm_gtiff (snd s) = last_some (gives_image w) ops /\
  dm_proj (snd s) = last_some (gives_projection from_gdal w) ops.
Proof.
  induction ops as [|o ops IH] using rev_ind; intros F; [cbn; auto 10|].
  apply Forall_app in F as [F1 F2]. inversion F2 as [|? ? NC _]; subst. specialize (IH F1). cbv zeta in *. destruct IH as (I0 & I1 & I2 & I3 & I4 & I5).
  rewrite run_snoc, I0. destruct (step_fields w (snd (run w new_dem ops)) o NC) as (J0 & J1 & J2 & J3 & J4 & J5 & _).
  rewrite J0, J1, J2, J3, J4, J5, !last_some_app, I1, I2, I3, I4, I5.
  repeat split; try (destruct (gives_interpolation o); reflexivity); try (destruct (gives_nodata o); reflexivity);
  try (destruct (gives_reference o); reflexivity); try (destruct (gives_image w o); reflexivity); try (destruct (gives_projection from_gdal w o); reflexivity).
Qed.

Lemma blank_spec nd l v v' : (is_removed l v -> v' = NonFinite) -> (~ is_removed l v -> v' = v) ->
  (is_removed (l ++ [nd]) v -> blank_value nd v' = NonFinite) /\ (~ is_removed (l ++ [nd]) v -> blank_value nd v' = v).
Proof.
  intros H1 H2. split.
  - intros (a & -> & I). apply in_app_or in I as [I|[E|[]]].
    + rewrite H1 by (exists a; auto). now destruct nd.
    + subst nd. destruct (classicR l a) as [Q|Q].
      * rewrite H1 by (exists a; auto). reflexivity.
      * rewrite H2 by (intros (b & E & I); injection E as <-; contradiction). cbn. now rewrite Reqb_true.
  - intros N. rewrite H2 by (intros (a & E & I); apply N; exists a; split; [exact E|apply in_or_app; now left]).
    destruct nd as [|x| |], v as [r|]; cbn; try reflexivity. destruct (Reqb_spec r x) as [->|]; [|reflexivity]. exfalso. apply N. exists x. split; [reflexivity|apply in_or_app; right; now left].
Qed.

Lemma px_map (f : flt -> flt) bands y x k : px (map (map (map f)) bands) y x k = option_map f (px bands y x k).
Proof.
  unfold px. rewrite nth_error_map. destruct (nth_error bands k); [|reflexivity]. cbn. rewrite nth_error_map.
  destruct (nth_error l y); [|reflexivity]. cbn. apply nth_error_map.
Qed.
Lemma map_shape (f : flt -> flt) r ny nx nb : raster_shape r ny nx nb -> raster_shape (mkRaster (r_ny r) (r_nx r) (map (map (map f)) (r_bands r))) ny nx nb.
Proof.
  intros (A & B & C & F). split; [exact A|]. split; [exact B|]. cbn [r_bands]. split; [now rewrite map_length|].
  rewrite Forall_map. eapply Forall_impl; [|exact F]. intros rows [L Q]. split; [now rewrite map_length|]. rewrite Forall_map. eapply Forall_impl; [|exact Q]. intros row E. now rewrite map_length.
Qed.
Lemma all_nodata_snoc (h : list (dem_op P)) o : all_nodata (h ++ [o]) = all_nodata h ++ match gives_nodata o with Some nd => [nd] | None => [] end.
Proof. induction h as [|a h IH]; cbn; [destruct (gives_nodata o); reflexivity|]. rewrite IH. destruct (gives_nodata a); reflexivity. Qed.

(** The data after a load and a history without another *)
Lemma run_data w h1 o h2 im t r : Forall (fun o => ~ is_conversion o) (h1 ++ o :: h2) ->
  loads from_gdal w o = Some (im, (t, r)) -> Forall (fun o => loads from_gdal w o = None) h2 ->
  exists r', dm_data (snd (run w new_dem (h1 ++ o :: h2))) = Some (t, r') /\ r_ny r' = r_ny r /\ r_nx r' = r_nx r /\
    (forall ny nx nb, raster_shape r ny nx nb -> raster_shape r' ny nx nb) /\
    (integral t = true -> r' = r) /\
    (integral t = false -> forall y x k, exists f, px (r_bands r') y x k = option_map f (px (r_bands r) y x k) /\
       forall v, (is_removed (removed h1 h2) v -> f v = NonFinite) /\ (~ is_removed (removed h1 h2) v -> f v = v)).
Proof.
  intros F L. revert F. induction h2 as [|o2 h2 IH] using rev_ind; intros F FL.
  - replace (h1 ++ [o]) with (h1 ++ o :: []) in F by reflexivity. apply Forall_app in F as [F1 F2]. inversion F2 as [|? ? NC _]; subst.
    destruct (run_fields w h1 F1) as (R0 & _ & _ & R3 & _). change (h1 ++ [o]) with (h1 ++ o :: []).
    rewrite run_snoc, R0. destruct (step_fields w (snd (run w new_dem h1)) o NC) as (_ & _ & _ & _ & _ & _ & J).
    destruct o; cbn [loads] in L; try discriminate. cbv beta zeta iota in J. fold (@dem_run D G P W) in *. rewrite J. cbn [loads]. rewrite L.
    destruct (integral t) eqn:IT.
    + exists r. do 3 (split; [reflexivity|]). split; [intros ny nx nb Q; exact Q|]. split; [reflexivity|discriminate].
    + eexists. split; [reflexivity|]. split; [reflexivity|]. split; [reflexivity|]. split; [intros ny nx nb; apply map_shape|]. split; [discriminate|].
      intros _ y x k. exists (blank_value (dm_nodata (snd (run w new_dem h1)))). cbn [r_bands]. split; [apply px_map|].
      intros v. rewrite R3. unfold removed. cbn [all_nodata]. apply (blank_spec _ [] v v); [intros (a & _ & [])|reflexivity].
  - rewrite app_comm_cons, app_assoc in *. apply Forall_app in F as [F1 F2]. inversion F2 as [|? ? NC _]; subst. apply Forall_app in FL as [FL1 FL2]. inversion FL2 as [|? ? NL _]; subst.
    destruct (IH F1 FL1) as (r' & E & E1 & E2 & E3 & E4 & E5). destruct (run_fields w _ F1) as (R0 & _). cbv zeta in R0.
    rewrite run_snoc, R0. destruct (step_fields w (snd (run w new_dem (h1 ++ o :: h2))) o2 NC) as (_ & _ & _ & _ & _ & _ & J).
    assert (SAME : gives_nodata o2 = None -> removed h1 (h2 ++ [o2]) = removed h1 h2).
    { intros Q. unfold removed. rewrite all_nodata_snoc, Q, app_nil_r. reflexivity. }
    destruct o2; cbv beta zeta iota in J; rewrite J; try (rewrite SAME by reflexivity; eauto 10).
    + rewrite E. destruct (integral t) eqn:IT; [exists r'; split; [reflexivity|]; split; [exact E1|]; split; [exact E2|]; split; [exact E3|]; split; [exact E4|discriminate]|].
      eexists. split; [reflexivity|]. split; [exact E1|]. split; [exact E2|]. split; [intros ny nx nb Q; apply map_shape; auto|]. split; [discriminate|].
      intros _ y x k. destruct (E5 eq_refl y x k) as (f & F3 & F4). exists (fun v => blank_value nd (f v)). cbn [r_bands]. split.
      * rewrite px_map, F3. now destruct (px (r_bands r) y x k).
      * intros v. unfold removed. rewrite all_nodata_snoc. cbn [gives_nodata]. rewrite app_comm_cons. destruct (F4 v). now apply blank_spec.
    + rewrite NL. eauto 10.
Qed.
End PDem.

(** Sums over the finite values *)
Definition fin_or_0 (f : R -> R) (v : flt) : R := match v with Fin r => f r | NonFinite => 0 end.
Lemma rsum_fins f (l : list flt) : rsum (map f (concat (map (fun v => match v with Fin r => [r] | NonFinite => [] end) l))) = rsum (map (fin_or_0 f) l).
Proof. induction l as [|[a|] l IH]; [reflexivity| |]; cbn [map concat app]; cbn [fin_or_0]; [cbn [rsum fold_right map]; unfold rsum in IH; now rewrite IH|]. unfold rsum in *. cbn [fold_right]. rewrite IH. ring. Qed.
Lemma rsum_bigsum {A} (f : A -> R) l n : length l = n -> rsum (map f l) = bigsum n (fun i => match nth_error l i with Some a => f a | None => 0 end).
Proof.
  intros <-. induction l as [|a l IH] using rev_ind; [reflexivity|]. rewrite map_app, rsum_app, app_length. cbn [length]. rewrite Nat.add_1_r, bigsum_S. rewrite nth_error_app2, Nat.sub_diag by lia. cbn [nth_error map rsum fold_right].
  unfold rsum at 1 in IH. unfold rsum at 1. rewrite IH. rewrite Rplus_0_r. f_equal. apply bigsum_ext. intros i Hi. now rewrite nth_error_app1.
Qed.
Lemma rsum_concat {A} (f : A -> R) ll : rsum (map f (concat ll)) = rsum (map (fun l => rsum (map f l)) ll).
Proof. induction ll as [|l ll IH]; [reflexivity|]. cbn [concat map]. rewrite map_app, rsum_app, IH. reflexivity. Qed.
Lemma over_raster_values r ny nx nb f : raster_shape r ny nx nb -> rsum (map f (all_values r)) = over_raster r ny nx nb f.
Proof.
  intros (_ & _ & L & F). unfold all_values. rewrite flat_map_concat_map, rsum_concat, map_map.
  rewrite (rsum_bigsum _ _ _ L). unfold over_raster. apply bigsum_ext. intros k Hk. unfold px.
  destruct (nth_error (r_bands r) k) as [rows|] eqn:K; [|apply nth_error_None in K; lia].
  rewrite Forall_forall in F. destruct (F rows (nth_error_In _ _ K)) as [L1 L2]. unfold finite_values. rewrite rsum_fins, rsum_concat.
  rewrite (rsum_bigsum _ _ _ L1). apply bigsum_ext. intros y Hy. destruct (nth_error rows y) as [row|] eqn:Y; [|apply nth_error_None in Y; lia].
  rewrite Forall_forall in L2. rewrite (rsum_bigsum _ _ _ (L2 row (nth_error_In _ _ Y))). apply bigsum_ext. intros x Hx. destruct (nth_error row x) as [[v|]|]; reflexivity.
Qed.
