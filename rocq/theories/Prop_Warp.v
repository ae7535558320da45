(** C89, C90: orthorectification by warping; the image object and file of an orthorectification. *)
From Coq Require Import Reals Lra Lia List.
From Verif Require Import RAux Text M_Image M_Photo M_Ortho M_Objects M_Warp Spec_Photo Spec_Ortho Spec_Objects Spec_Warp P_Ortho P_Objects P_Warp Prop_Photo Prop_Ortho Prop_Objects.
Open Scope R_scope.
Open Scope list_scope.

(* ------------------------------- C89 ---------------------------------- *)

(** The six interpolation names stand for the spline orders 0 to 5; any other name is refused. *)
Theorem C89_interpolation : forall name,
  (forall order, In (name, order) interpolations <-> warp_order name = Ok order) /\
  ((forall order, ~ In (name, order) interpolations) -> warp_order name = Err ValueError).
Proof.
  intros name. unfold warp_order.
  assert (G : forall (s t : string), text_eqb (txt s) (txt t) = String.eqb s t -> True) by auto. clear G.
  repeat (match goal with |- context [text_eqb name ?t] => destruct (text_eqb name t) eqn:?E end);
    repeat match goal with H : text_eqb _ _ = true |- _ => apply text_eqb_spec in H end; subst.
  7:{ split; [|reflexivity]. intros order. split; [|discriminate]. unfold interpolations. cbn [In].
      intros H. repeat destruct H as [H|H]; try contradiction; injection H as <- <-; rewrite text_eqb_refl in *; discriminate. }
  all: split; [|intros N; exfalso; eapply N; unfold interpolations; cbn [In]; tauto].
  all: intros order; unfold interpolations; cbn [In]; split;
    [intros H; repeat destruct H as [H|H]; try contradiction; try discriminate H; injection H as <-; reflexivity
    |intros H; injection H as <-; tauto].
Qed.
Print Assumptions C89_interpolation.

(** Every cell holds the band warped at the cell's location: the location in band 0 if the bands
    are coregistered (the data must be loaded), else in the band itself. *)
Theorem C89_cells warp img nx ny minx miny maxx maxy dem bands nodata interpolation order :
  (ov_coregistered img = true -> ov_loaded img = true) -> (2 <= nx)%nat -> (2 <= ny)%nat -> minx <= maxx -> miny <= maxy -> bands <> [] ->
  In (interpolation, order) interpolations ->
  let elev := match dem with Some d => d | None => fun _ => 0 end in
  exists out geo_t, create_ortho_backup warp img nx ny minx miny maxx maxy dem (Some bands) nodata interpolation = Ok (out, geo_t) /\
    length out = length bands /\
    forall k b, nth_error bands k = Some b -> exists o, nth_error out k = Some o /\ Spec_Ortho.raster (b_rows o) ny nx /\
      forall r c, (r < ny)%nat -> (c < nx)%nat ->
        let p := cell_centre minx miny maxx maxy nx ny r c in
        let loc := ov_locate img (if ov_coregistered img then 0%nat else b) (p, elev p) in
        raster_at (b_rows o) r c = Some (ov_store img (warp order nodata (ov_band img b) loc)).
Proof.
  intros HL Hx Hy Lx Ly NB HI elev. apply C89_interpolation in HI. unfold create_ortho_backup.
  destruct (ortho_points minx miny maxx maxy nx ny elev Hx Hy Lx Ly) as (g & -> & RR & RA). cbn [bind].
  fold elev. set (points := map (fun q => map (fun p => (p, elev p)) q) _) in *.
  set (one := fun b => mkBand ny nx (map (map (ov_store img)) (map (map (warp order nodata (ov_band img b)))
     (map (map (ov_locate img (if ov_coregistered img then 0%nat else b))) points)))).
  rewrite (mapM_ok _ one).
  2:{ intros b _. unfold grid_warp_image_band, one. rewrite HI. cbn [bind]. destruct (ov_coregistered img); [|reflexivity]. rewrite HL by reflexivity. reflexivity. }
  cbn [bind]. destruct (map one bands) as [|o0 os] eqn:EM; [destruct bands; [congruence|discriminate]|]. rewrite <- EM.
  eexists _, _. split; [reflexivity|]. split; [apply map_length|].
  intros k b Hk. exists (one b). split; [now rewrite nth_error_map, Hk|]. split.
  - cbn. apply raster_map, raster_map, raster_map. exact RR.
  - intros r c Hr Hc. cbn. rewrite !map_rows_at. rewrite (RA r c Hr Hc). reflexivity.
Qed.
Print Assumptions C89_cells.

(** The backup comes with the same geotransform: the extent's upper left corner at the origin, the right and
    lower edges at nx + 1 and ny + 1 pixels. *)
Theorem C89_geo_transform warp img nx ny minx miny maxx maxy dem bands nodata interpolation out geo_t :
  create_ortho_backup warp img nx ny minx miny maxx maxy dem bands nodata interpolation = Ok (out, geo_t) ->
  length geo_t = 6%nat /\ nth 2 geo_t 0 = 0 /\ nth 4 geo_t 0 = 0 /\
  gdal_point geo_t 0 0 = (minx, maxy) /\ gdal_point geo_t (INR nx + 1) (INR ny + 1) = (maxx, miny).
Proof.
  unfold create_ortho_backup. intros H. destruct (create_ground_grid minx maxx miny maxy (Z.of_nat nx) (Z.of_nat ny)) as [g| |]; cbn [bind] in H; try discriminate.
  match type of H with bind ?m _ = _ => destruct m as [images| |]; cbn [bind] in H; try discriminate end.
  destruct images; [discriminate|]. injection H as _ <-. unfold world_poly_to_geo_t, gdal_point. cbn [nth length].
  rewrite <- !INR_IZR_INZ. pose proof (pos_INR nx). pose proof (pos_INR ny). repeat (split; [reflexivity|]). split; f_equal; field; lra.
Qed.
Print Assumptions C89_geo_transform.

(** With the behaviour of scikit-image outside the image: the cells located outside the
    band's data hold the no-data value -- in both cases, unlike create_ortho. *)
Theorem C89_outside warp img nx ny minx miny maxx maxy dem bands nodata interpolation out geo_t k b o r c bny bnx :
  constant_outside warp -> (ov_coregistered img = true -> ov_loaded img = true) -> (2 <= nx)%nat -> (2 <= ny)%nat -> minx <= maxx -> miny <= maxy ->
  create_ortho_backup warp img nx ny minx miny maxx maxy dem (Some bands) nodata interpolation = Ok (out, geo_t) ->
  nth_error bands k = Some b -> nth_error out k = Some o -> (r < ny)%nat -> (c < nx)%nat -> Spec_Ortho.raster (ov_band img b) bny bnx ->
  let p := cell_centre minx miny maxx maxy nx ny r c in
  let loc := ov_locate img (if ov_coregistered img then 0%nat else b) (p, match dem with Some d => d p | None => 0 end) in
  outside_data bny bnx loc -> raster_at (b_rows o) r c = Some (ov_store img nodata).
Proof.
  intros CO HL Hx Hy Lx Ly E Hk Ho Hr Hc RB p loc OUT.
  assert (NB : bands <> []) by (destruct bands; [destruct k; discriminate|congruence]).
  assert (HI : exists order, In (interpolation, order) interpolations).
  { destruct (warp_order interpolation) as [order|e|] eqn:W; [exists order; now apply C89_interpolation| |];
    exfalso; revert E; unfold create_ortho_backup;
    (destruct (ortho_points minx miny maxx maxy nx ny (match dem with Some d => d | None => fun _ => 0 end) Hx Hy Lx Ly) as (g & -> & _)); cbn [bind];
    (destruct bands as [|b0 bs]; [congruence|]); cbn [mapM]; unfold grid_warp_image_band; rewrite W; cbn [bind];
    (destruct (ov_coregistered img); [rewrite HL by reflexivity|]); discriminate. }
  destruct HI as (order & HI).
  destruct (C89_cells warp img nx ny minx miny maxx maxy dem bands nodata interpolation order HL Hx Hy Lx Ly NB HI) as (out' & geo' & E' & _ & P).
  rewrite E in E'. injection E' as <- <-. destruct (P k b Hk) as (o' & Ho' & _ & V). rewrite Ho in Ho'. injection Ho' as <-.
  rewrite (V r c Hr Hc). f_equal. f_equal. apply (CO _ _ _ bny bnx); [exact RB|]. destruct dem; exact OUT.
Qed.
Print Assumptions C89_outside.

(** With the nearest interpolation every other cell holds the stored value of a pixel at most
    half a pixel away, up to and including the border of the image. *)
Theorem C89_nearest warp img nx ny minx miny maxx maxy dem bands nodata out geo_t k b o r c bny bnx :
  nearest_inside warp -> (ov_coregistered img = true -> ov_loaded img = true) -> (2 <= nx)%nat -> (2 <= ny)%nat -> minx <= maxx -> miny <= maxy ->
  create_ortho_backup warp img nx ny minx miny maxx maxy dem (Some bands) nodata (txt "nearest") = Ok (out, geo_t) ->
  nth_error bands k = Some b -> nth_error out k = Some o -> (r < ny)%nat -> (c < nx)%nat ->
  Spec_Ortho.raster (ov_band img b) bny bnx -> (0 < bny)%nat -> (0 < bnx)%nat ->
  let p := cell_centre minx miny maxx maxy nx ny r c in
  let loc := ov_locate img (if ov_coregistered img then 0%nat else b) (p, match dem with Some d => d p | None => 0 end) in
  ~ outside_data bny bnx loc ->
  exists i j v, raster_at (ov_band img b) i j = Some v /\ raster_at (b_rows o) r c = Some (ov_store img v) /\
    Rabs (fst loc - INR j) <= 1 / 2 /\ Rabs (snd loc - INR i) <= 1 / 2.
Proof.
  intros NI HL Hx Hy Lx Ly E Hk Ho Hr Hc RB B1 B2 p loc IN.
  assert (NB : bands <> []) by (destruct bands; [destruct k; discriminate|congruence]).
  assert (HI : In (txt "nearest", 0%nat) interpolations) by (left; reflexivity).
  destruct (C89_cells warp img nx ny minx miny maxx maxy dem bands nodata (txt "nearest") 0 HL Hx Hy Lx Ly NB HI) as (out' & geo' & E' & _ & P).
  rewrite E in E'. injection E' as <- <-. destruct (P k b Hk) as (o' & Ho' & _ & V). rewrite Ho in Ho'. injection Ho' as <-.
  destruct (NI nodata (ov_band img b) bny bnx loc RB B1 B2 IN) as (i & j & A & D1 & D2).
  exists i, j, (warp 0%nat nodata (ov_band img b) loc). split; [exact A|]. split; [|auto].
  rewrite (V r c Hr Hc). unfold loc, p. destruct dem; reflexivity.
Qed.
Print Assumptions C89_nearest.

(** Against create_ortho: a sampler and a warp that agree at the cell's location give the same
    value, in a coregistered image where the location is in the inner part that create_ortho
    keeps, otherwise everywhere. *)
Theorem C89_agrees sample warp img nx ny minx miny maxx maxy dem bands nodata interpolation order out out' geo_t geo_t' k b o o' r c :
  (ov_coregistered img = true -> ov_loaded img = true) -> (2 <= nx)%nat -> (2 <= ny)%nat -> minx <= maxx -> miny <= maxy ->
  In (interpolation, order) interpolations ->
  create_ortho sample img nx ny minx miny maxx maxy dem (Some bands) nodata = Ok (out, geo_t) ->
  create_ortho_backup warp img nx ny minx miny maxx maxy dem (Some bands) nodata interpolation = Ok (out', geo_t') ->
  nth_error bands k = Some b -> nth_error out k = Some o -> nth_error out' k = Some o' -> (r < ny)%nat -> (c < nx)%nat ->
  let p := cell_centre minx miny maxx maxy nx ny r c in
  let loc := ov_locate img (if ov_coregistered img then 0%nat else b) (p, match dem with Some d => d p | None => 0 end) in
  sample (ov_band img b) loc = warp order nodata (ov_band img b) loc ->
  (ov_coregistered img = true -> in_inner img loc) ->
  geo_t' = geo_t /\ raster_at (b_rows o') r c = raster_at (b_rows o) r c.
Proof.
  intros HL Hx Hy Lx Ly HI E E' Hk Ho Ho' Hr Hc p loc AG IN.
  assert (NB : bands <> []) by (destruct bands; [destruct k; discriminate|congruence]).
  assert (GT : geo_t' = geo_t).
  { revert E E'. unfold create_ortho, create_ortho_backup. destruct (create_ground_grid minx maxx miny maxy (Z.of_nat nx) (Z.of_nat ny)) as [g| |]; try discriminate. cbn [bind].
    destruct (mapM _ bands) as [[|? ?]| |]; cbn [bind]; try discriminate. intros Q. injection Q as _ <-.
    destruct (mapM _ bands) as [[|? ?]| |]; cbn [bind]; try discriminate. intros Q. now injection Q as _ <-. }
  split; [exact GT|].
  destruct (C89_cells warp img nx ny minx miny maxx maxy dem bands nodata interpolation order HL Hx Hy Lx Ly NB HI) as (out2 & geo2 & E2 & _ & P).
  rewrite E' in E2. injection E2 as <- <-. destruct (P k b Hk) as (o2 & Ho2 & _ & V). rewrite Ho' in Ho2. injection Ho2 as <-.
  rewrite (V r c Hr Hc).
  replace (ov_locate img (if ov_coregistered img then 0%nat else b) (cell_centre minx miny maxx maxy nx ny r c, match dem with Some d => d | None => fun _ => 0 end (cell_centre minx miny maxx maxy nx ny r c))) with loc
    by (unfold loc, p; destruct dem; reflexivity).
  rewrite <- AG. destruct (ov_coregistered img) eqn:HC.
  - destruct (C69_coregistered sample img nx ny minx miny maxx maxy dem bands nodata HC (HL eq_refl) Hx Hy Lx Ly NB) as (out3 & geo3 & E3 & _ & P3).
    rewrite E in E3. injection E3 as <- <-. destruct (P3 k b Hk) as (o3 & Ho3 & _ & V3). rewrite Ho in Ho3. injection Ho3 as <-.
    destruct (V3 r c Hr Hc) as (v & -> & V4 & _). rewrite V4; [unfold loc, p; destruct dem; reflexivity|].
    specialize (IN eq_refl). unfold loc, p in IN. destruct dem; exact IN.
  - destruct (C69_separate sample img nx ny minx miny maxx maxy dem bands nodata HC Hx Hy Lx Ly NB) as (out3 & geo3 & E3 & _ & P3).
    rewrite E in E3. injection E3 as <- <-. destruct (P3 k b Hk) as (o3 & Ho3 & _ & V3). rewrite Ho in Ho3. injection Ho3 as <-.
    rewrite (V3 r c Hr Hc). unfold loc, p. destruct dem; reflexivity.
Qed.
Print Assumptions C89_agrees.

(** No band list means all bands in order. *)
Theorem C89_all_bands warp img nx ny minx miny maxx maxy dem nodata interpolation :
  create_ortho_backup warp img nx ny minx miny maxx maxy dem None nodata interpolation =
  create_ortho_backup warp img nx ny minx miny maxx maxy dem (Some (seq 0 (ov_n_bands img))) nodata interpolation.
Proof. reflexivity. Qed.
Print Assumptions C89_all_bands.

(** The errors: a grid of fewer than two rows or columns; coregistered image data not loaded; an
    unknown interpolation name; no bands (then even an unknown name goes unnoticed). *)
Theorem C89_errors warp img nx ny minx miny maxx maxy dem bands nodata interpolation :
  let run := create_ortho_backup warp img nx ny minx miny maxx maxy dem bands nodata interpolation in
  ((nx < 2 \/ ny < 2)%nat -> run = Err IndexError) /\
  ((2 <= nx)%nat -> (2 <= ny)%nat -> minx <= maxx -> miny <= maxy ->
     (bands = Some [] -> run = Err ValueError) /\
     (forall b l, bands = Some (b :: l) ->
        (ov_coregistered img = true -> ov_loaded img = false -> run = Err TypeError) /\
        ((ov_coregistered img = true -> ov_loaded img = true) -> (forall order, ~ In (interpolation, order) interpolations) -> run = Err ValueError))).
Proof.
  intros run. unfold run, create_ortho_backup. clear run. split.
  - intros H. rewrite C28_small_grid_error by lia. reflexivity.
  - intros Hx Hy Lx Ly. destruct (C28_grid minx maxx miny maxy (Z.of_nat nx) (Z.of_nat ny)) as (gx & gy & -> & _); try lia; try assumption. cbn [bind]. split.
    + intros ->. reflexivity.
    + intros b l ->. cbn [mapM]. split.
      * intros HC HL. rewrite HC, HL. reflexivity.
      * intros HL HN. unfold grid_warp_image_band. rewrite (proj2 (C89_interpolation interpolation) HN). cbn [bind].
        destruct (ov_coregistered img); [rewrite HL by reflexivity|]; reflexivity.
Qed.
Print Assumptions C89_errors.

(** The contracts of the warp can be met, and the hypotheses too: a 5 x 5 image, sampled at its
    nearest pixel; the cell of create_ortho's border counterexample (C69_border_refuted) keeps
    its value here. *)
Definition near_index (n : nat) (x : R) : nat := Nat.min (n - 1) (Z.to_nat (Int_part (x + 1 / 2))).
Definition near_warp (order : nat) (cval : flt) (data : list (list flt)) (loc : R * R) : flt :=
  let ny := length data in let nx := match data with [] => 0%nat | row :: _ => length row end in
  if (Rltb (fst loc) 0 || Rltb (INR nx - 1) (fst loc) || Rltb (snd loc) 0 || Rltb (INR ny - 1) (snd loc))%bool then cval
  else nth (near_index nx (fst loc)) (nth (near_index ny (snd loc)) data []) cval.
Lemma near_index_spec n x : (0 < n)%nat -> 0 <= x <= INR n - 1 -> (near_index n x < n)%nat /\ Rabs (x - INR (near_index n x)) <= 1 / 2.
Proof.
  intros Hn Hx. unfold near_index. destruct (base_Int_part (x + 1 / 2)) as [I1 I2]. set (z := Int_part (x + 1 / 2)) in *.
  assert (Z0 : (0 <= z)%Z) by (apply le_IZR; destruct (Z.le_gt_cases 0 z) as [L|L]; [now apply IZR_le|]; assert (z <= -1)%Z as L2 by lia; apply IZR_le in L2; lra).
  assert (ZN : (z < Z.of_nat n)%Z) by (apply lt_IZR; rewrite <- INR_IZR_INZ; lra).
  rewrite Nat.min_r by lia. split; [lia|]. rewrite INR_IZR_INZ, Z2Nat.id by exact Z0. apply Rabs_le. lra.
Qed.
Example C89_contract_met : constant_outside near_warp /\ nearest_inside near_warp.
Proof.
  assert (W : forall (data : list (list flt)) ny nx, Spec_Ortho.raster data ny nx -> (0 < ny)%nat -> match data with [] => 0%nat | row :: _ => length row end = nx).
  { intros data ny nx [L F] H. destruct data; [cbn in L; lia|]. now inversion F. }
  split.
  - intros order cval data ny nx loc RS O. unfold near_warp. pose proof RS as [L F]. rewrite L. destruct data as [|row data].
    + cbn [length] in L. subst ny. destruct (Rltb_spec (snd loc) 0); [now rewrite !Bool.orb_true_r|]. destruct (Rltb_spec (INR 0 - 1) (snd loc)); [now rewrite !Bool.orb_true_r|]. cbn in *. lra.
    + inversion F; subst. destruct (Rltb_spec (fst loc) 0); [reflexivity|]. destruct (Rltb_spec (INR (length row) - 1) (fst loc)); [reflexivity|].
      destruct (Rltb_spec (snd loc) 0); [reflexivity|]. destruct (Rltb_spec (INR (length (row :: data)) - 1) (snd loc)); [reflexivity|]. unfold outside_data in O. cbn [length] in *. lra.
  - intros cval data ny nx loc RS Hy Hx N. unfold near_warp. rewrite (W data ny nx RS Hy). pose proof RS as [L F]. rewrite L.
    assert (B : 0 <= fst loc <= INR nx - 1 /\ 0 <= snd loc <= INR ny - 1).
    { unfold outside_data in N. repeat split; apply Rnot_lt_le; intros Q; apply N; tauto. }
    destruct B as [B1 B2]. rewrite !Rltb_false by lra. cbn [orb].
    destruct (near_index_spec nx (fst loc) Hx B1) as [J1 J2]. destruct (near_index_spec ny (snd loc) Hy B2) as [I1 I2].
    exists (near_index ny (snd loc)), (near_index nx (fst loc)). split; [|auto].
    unfold raster_at. rewrite (nth_error_nth' data []) by lia. apply nth_error_nth'.
    rewrite Forall_forall in F. rewrite (F (nth (near_index ny (snd loc)) data [])); [exact J1|]. apply nth_In. lia.
Qed.
Example C89_hypotheses_met : exists out geo_t o, create_ortho_backup near_warp (loc_image true (4, 2)) 2 2 0 0 2 2 None (Some [0%nat]) (Fin (-1)) (txt "nearest") = Ok (out, geo_t) /\
  nth_error out 0 = Some o /\ raster_at (b_rows o) 0 0 = Some (Fin 7).
Proof.
  destruct (C89_cells near_warp (loc_image true (4, 2)) 2 2 0 0 2 2 None [0%nat] (Fin (-1)) (txt "nearest") 0) as (out & geo_t & E & _ & P);
    try reflexivity; try lia; try lra; try congruence; try (left; reflexivity).
  destruct (P 0%nat 0%nat eq_refl) as (o & Ho & _ & V). exists out, geo_t, o. split; [exact E|]. split; [exact Ho|].
  destruct (C89_nearest near_warp (loc_image true (4, 2)) 2 2 0 0 2 2 None [0%nat] (Fin (-1)) out geo_t 0 0 o 0 0 5 5) as (i & j & v & A & B & _);
    try exact (proj2 C89_contract_met); try assumption; try reflexivity; try lia; try lra.
  - split; [reflexivity|repeat constructor].
  - unfold outside_data. cbn. lra.
  - rewrite B. cbn [ov_store loc_image]. f_equal. unfold raster_at in A. cbn [ov_band loc_image] in A.
    destruct (nth_error (repeat (repeat (Fin 7) 5) 5) i) as [row|] eqn:Er; [|discriminate].
    apply nth_error_In, repeat_spec in Er. subst row. apply nth_error_In, repeat_spec in A. exact A.
Qed.

(* ------------------------------- C90 ---------------------------------- *)

(** The arguments for which both orthorectification functions succeed *)
Lemma create_ortho_rasters sample img nx ny minx miny maxx maxy dem bands nodata out geo_t :
  (2 <= nx)%nat -> (2 <= ny)%nat -> minx <= maxx -> miny <= maxy ->
  create_ortho sample img nx ny minx miny maxx maxy dem bands nodata = Ok (out, geo_t) ->
  out <> [] /\ Forall (fun o => Spec_Ortho.raster (b_rows o) ny nx) out /\
  geo_t = world_poly_to_geo_t minx miny maxx maxy (Z.of_nat nx) (Z.of_nat ny).
Proof.
  intros Hx Hy Lx Ly E. set (bs := match bands with Some l => l | None => seq 0 (ov_n_bands img) end).
  assert (E1 : create_ortho sample img nx ny minx miny maxx maxy dem (Some bs) nodata = Ok (out, geo_t)) by (destruct bands; exact E).
  clearbody bs. clear E bands. assert (NB : bs <> []).
  { intros ->. rewrite (proj2 (proj2 (C69_errors sample img nx ny minx miny maxx maxy dem (Some []) nodata) Hx Hy Lx Ly) eq_refl) in E1. discriminate. }
  assert (GT : geo_t = world_poly_to_geo_t minx miny maxx maxy (Z.of_nat nx) (Z.of_nat ny)).
  { revert E1. unfold create_ortho. destruct (create_ground_grid minx maxx miny maxy (Z.of_nat nx) (Z.of_nat ny)) as [g| |]; try discriminate. cbn [bind].
    destruct (mapM _ bs) as [[|? ?]| |]; cbn [bind]; try discriminate. intros Q. now injection Q as _ <-. }
  assert (G : exists out' geo', create_ortho sample img nx ny minx miny maxx maxy dem (Some bs) nodata = Ok (out', geo') /\ length out' = length bs /\
     forall k b, nth_error bs k = Some b -> exists o, nth_error out' k = Some o /\ Spec_Ortho.raster (b_rows o) ny nx).
  { destruct (ov_coregistered img) eqn:HC.
    - destruct (ov_loaded img) eqn:HL.
      + destruct (C69_coregistered sample img nx ny minx miny maxx maxy dem bs nodata HC HL Hx Hy Lx Ly NB) as (o1 & g1 & A & B & C).
        exists o1, g1. split; [exact A|]. split; [exact B|]. intros k b Hk. destruct (C k b Hk) as (o & O1 & O2 & _). eauto.
      + destruct bs as [|b0 bs]; [congruence|].
        rewrite (proj1 (proj2 (C69_errors sample img nx ny minx miny maxx maxy dem (Some (b0 :: bs)) nodata) Hx Hy Lx Ly) HC HL b0 bs eq_refl) in E1. discriminate.
    - destruct (C69_separate sample img nx ny minx miny maxx maxy dem bs nodata HC Hx Hy Lx Ly NB) as (o1 & g1 & A & B & C).
      exists o1, g1. split; [exact A|]. split; [exact B|]. intros k b Hk. destruct (C k b Hk) as (o & O1 & O2 & _). eauto. }
  destruct G as (o1 & g1 & A & B & C). rewrite E1 in A. injection A as <- <-. split; [|split; [|exact GT]].
  - destruct out; [destruct bs; [congruence|discriminate]|discriminate].
  - apply Forall_forall. intros o Ho. apply In_nth_error in Ho as (k & Hk). assert (L : (k < length out)%nat) by (apply nth_error_Some; congruence).
    destruct (nth_error bs k) as [b|] eqn:Eb; [|apply nth_error_None in Eb; lia]. destruct (C k b Eb) as (o' & O1 & O2). congruence.
Qed.
Lemma create_ortho_backup_rasters warp img nx ny minx miny maxx maxy dem bands nodata interp out geo_t :
  (2 <= nx)%nat -> (2 <= ny)%nat -> minx <= maxx -> miny <= maxy ->
  create_ortho_backup warp img nx ny minx miny maxx maxy dem bands nodata interp = Ok (out, geo_t) ->
  out <> [] /\ Forall (fun o => Spec_Ortho.raster (b_rows o) ny nx) out /\
  geo_t = world_poly_to_geo_t minx miny maxx maxy (Z.of_nat nx) (Z.of_nat ny).
Proof.
  intros Hx Hy Lx Ly E. set (bs := match bands with Some l => l | None => seq 0 (ov_n_bands img) end).
  assert (E1 : create_ortho_backup warp img nx ny minx miny maxx maxy dem (Some bs) nodata interp = Ok (out, geo_t)) by (destruct bands; exact E).
  clearbody bs. clear E bands.
  destruct (C89_errors warp img nx ny minx miny maxx maxy dem (Some bs) nodata interp) as [_ ER]. cbv zeta in ER. destruct (ER Hx Hy Lx Ly) as [ER1 ER2].
  assert (NB : bs <> []) by (intros ->; rewrite ER1 in E1 by reflexivity; discriminate).
  destruct bs as [|b0 bs]; [congruence|]. destruct (ER2 b0 bs eq_refl) as [ER3 ER4].
  assert (HL : ov_coregistered img = true -> ov_loaded img = true).
  { intros HC. destruct (ov_loaded img); [reflexivity|]. rewrite ER3 in E1 by (exact HC || reflexivity). discriminate. }
  assert (HI : exists order, In (interp, order) interpolations).
  { destruct (warp_order interp) as [order|e|] eqn:W; [exists order; now apply C89_interpolation| |];
    (rewrite ER4 in E1; [discriminate|exact HL|]); intros order I; apply C89_interpolation in I; congruence. }
  destruct HI as (order & HI).
  destruct (C89_cells warp img nx ny minx miny maxx maxy dem (b0 :: bs) nodata interp order HL Hx Hy Lx Ly NB HI) as (o1 & g1 & A & B & C).
  assert (GT : geo_t = world_poly_to_geo_t minx miny maxx maxy (Z.of_nat nx) (Z.of_nat ny)).
  { revert E1. unfold create_ortho_backup. destruct (create_ground_grid minx maxx miny maxy (Z.of_nat nx) (Z.of_nat ny)) as [g| |]; try discriminate. cbn [bind].
    destruct (mapM _ (b0 :: bs)) as [[|? ?]| |]; cbn [bind]; try discriminate. intros Q. now injection Q as _ <-. }
  rewrite E1 in A. injection A as <- <-. split; [|split; [|exact GT]].
  - destruct out; [discriminate|discriminate].
  - apply Forall_forall. intros o Ho. apply In_nth_error in Ho as (k & Hk). assert (L : (k < length out)%nat) by (apply nth_error_Some; congruence).
    destruct (nth_error (b0 :: bs) k) as [b|] eqn:Eb; [|apply nth_error_None in Eb; lia]. destruct (C k b Eb) as (o' & O1 & O2 & _). congruence.
Qed.

(** The image object both functions return when no file name is given: the bands of the ortho
    (C69, C89), and with mask_no_data_region one more, with their sizes, the geotransform of the
    extent, the projection and the no-data value.  No file is touched. *)
Theorem C90_object (D G P W : Type) (to_gdal : D -> option G) (from_gdal : G -> D) (file_store : D -> G -> flt -> flt) (wkt_of : P -> W)
    (fs : files flt G W) dtype sample img nx ny minx miny maxx maxy (proj : P) dem bands nodata mask out geo_t :
  (2 <= nx)%nat -> (2 <= ny)%nat -> minx <= maxx -> miny <= maxy ->
  create_ortho sample img nx ny minx miny maxx maxy dem bands nodata = Ok (out, geo_t) ->
  exists im, create_ortho_gtiff_image_world_to_sensor to_gdal from_gdal file_store wkt_of fs dtype sample img nx ny minx miny maxx maxy proj dem bands nodata None mask = (fs, Ok im) /\
    ortho_object im dtype (to_gdal dtype) (ov_store img) nx ny out (world_poly_to_geo_t minx miny maxx maxy (Z.of_nat nx) (Z.of_nat ny)) proj nodata mask.
Proof.
  intros Hx Hy Lx Ly E. destruct (create_ortho_rasters _ _ _ _ _ _ _ _ _ _ _ _ _ Hx Hy Lx Ly E) as (NE & F & ->).
  destruct (ortho_image_ok to_gdal dtype (ov_store img) nx ny out (world_poly_to_geo_t minx miny maxx maxy (Z.of_nat nx) (Z.of_nat ny)) proj nodata mask NE F) as (im & I1 & I2).
  exists im. split; [|exact I2]. unfold create_ortho_gtiff_image_world_to_sensor, finish_ortho. rewrite E. cbn [bind fst snd]. rewrite I1. reflexivity.
Qed.
Print Assumptions C90_object.
Theorem C90_object_backup (D G P W : Type) (to_gdal : D -> option G) (from_gdal : G -> D) (file_store : D -> G -> flt -> flt) (wkt_of : P -> W)
    (fs : files flt G W) dtype warp img nx ny minx miny maxx maxy (proj : P) dem bands nodata interpolation mask out geo_t :
  (2 <= nx)%nat -> (2 <= ny)%nat -> minx <= maxx -> miny <= maxy ->
  create_ortho_backup warp img nx ny minx miny maxx maxy dem bands nodata interpolation = Ok (out, geo_t) ->
  exists im, create_ortho_gtiff_image_world_to_sensor_backup to_gdal from_gdal file_store wkt_of fs dtype warp img nx ny minx miny maxx maxy proj dem bands nodata None interpolation mask = (fs, Ok im) /\
    ortho_object im dtype (to_gdal dtype) (ov_store img) nx ny out (world_poly_to_geo_t minx miny maxx maxy (Z.of_nat nx) (Z.of_nat ny)) proj nodata mask.
Proof.
  intros Hx Hy Lx Ly E. destruct (create_ortho_backup_rasters _ _ _ _ _ _ _ _ _ _ _ _ _ _ Hx Hy Lx Ly E) as (NE & F & ->).
  destruct (ortho_image_ok to_gdal dtype (ov_store img) nx ny out (world_poly_to_geo_t minx miny maxx maxy (Z.of_nat nx) (Z.of_nat ny)) proj nodata mask NE F) as (im & I1 & I2).
  exists im. split; [|exact I2]. unfold create_ortho_gtiff_image_world_to_sensor_backup, finish_ortho. rewrite E. cbn [bind fst snd]. rewrite I1. reflexivity.
Qed.
Print Assumptions C90_object_backup.

(** A failing orthorectification leaves every file alone. *)
Theorem C90_error (D G P W : Type) (to_gdal : D -> option G) (from_gdal : G -> D) (file_store : D -> G -> flt -> flt) (wkt_of : P -> W)
    (fs : files flt G W) dtype sample warp img nx ny minx miny maxx maxy (proj : P) dem bands nodata interpolation mask fname e :
  (create_ortho sample img nx ny minx miny maxx maxy dem bands nodata = Err e ->
     create_ortho_gtiff_image_world_to_sensor to_gdal from_gdal file_store wkt_of fs dtype sample img nx ny minx miny maxx maxy proj dem bands nodata fname mask = (fs, Err e)) /\
  (create_ortho_backup warp img nx ny minx miny maxx maxy dem bands nodata interpolation = Err e ->
     create_ortho_gtiff_image_world_to_sensor_backup to_gdal from_gdal file_store wkt_of fs dtype warp img nx ny minx miny maxx maxy proj dem bands nodata fname interpolation mask = (fs, Err e)).
Proof.
  split; intros E; unfold create_ortho_gtiff_image_world_to_sensor, create_ortho_gtiff_image_world_to_sensor_backup, finish_ortho; rewrite E; reflexivity.
Qed.
Print Assumptions C90_error.

(** With a file name and a whole no-data value: the same object is returned, and the file of that
    name, opened again, has its sizes, geotransform, projection, no-data value and pixels (as
    GDAL's data type keeps them); every other file is as before. *)
Theorem C90_file (D G P W : Type) (to_gdal : D -> option G) (from_gdal : G -> D) (file_store : D -> G -> flt -> flt) (wkt_of : P -> W) (proj_of : W -> P)
    (fs : files flt G W) dtype g sample warp img nx ny minx miny maxx maxy (proj : P) dem bands nodata interpolation mask (backup : bool) fname im z :
  let run := fun f : option text => if backup
     then create_ortho_gtiff_image_world_to_sensor_backup to_gdal from_gdal file_store wkt_of fs dtype warp img nx ny minx miny maxx maxy proj dem bands nodata f interpolation mask
     else create_ortho_gtiff_image_world_to_sensor to_gdal from_gdal file_store wkt_of fs dtype sample img nx ny minx miny maxx maxy proj dem bands nodata f mask in
  (2 <= nx)%nat -> (2 <= ny)%nat -> minx <= maxx -> miny <= maxy ->
  run None = (fs, Ok im) -> to_gdal dtype = Some g -> nodata = Fin (IZR z) ->
  exists fs' im2 r2 r, run (Some fname) = (fs', Ok im) /\ (forall n, n <> fname -> fs' n = fs n) /\
    open_geotiff proj_of fs' fname = Ok im2 /\
    gt_nx im2 = nx /\ gt_ny im2 = ny /\ gt_nb im2 = gt_nb im /\ gt_type im2 = Some g /\ gt_geot im2 = gt_geot im /\
    gt_proj im2 = proj_of (wkt_of proj) /\ gt_nodata im2 = Nodata (IZR z) /\
    gt_data im = Some (dtype, r) /\ geotiff_read_all from_gdal fs' im2 = Ok (from_gdal g, r2) /\
    Spec_Objects.raster_shape r ny nx (gt_nb im) /\ Spec_Objects.raster_shape r2 ny nx (gt_nb im) /\
    forall y x k, (y < ny)%nat -> (x < nx)%nat -> (k < gt_nb im)%nat -> px (r_bands r2) y x k = option_map (file_store dtype g) (px (r_bands r) y x k).
Proof.
  intros run Hx Hy Lx Ly E T N.
  assert (O : exists out geo_t, out <> [] /\ ortho_object im dtype (to_gdal dtype) (ov_store img) nx ny out geo_t proj nodata mask /\ run (Some fname) = ortho_output from_gdal file_store wkt_of fs im (Some fname)).
  { unfold run in *. destruct backup.
    - destruct (create_ortho_backup warp img nx ny minx miny maxx maxy dem bands nodata interpolation) as [[out geo_t]|e|] eqn:C;
        [|unfold create_ortho_gtiff_image_world_to_sensor_backup, finish_ortho in E; rewrite C in E; discriminate..].
      destruct (create_ortho_backup_rasters _ _ _ _ _ _ _ _ _ _ _ _ _ _ Hx Hy Lx Ly C) as (NE & F & _).
      destruct (ortho_image_ok to_gdal dtype (ov_store img) nx ny out geo_t proj nodata mask NE F) as (im' & I1 & I2).
      unfold create_ortho_gtiff_image_world_to_sensor_backup, finish_ortho in *. rewrite C in *. cbn [bind fst snd] in *. rewrite I1 in *. cbn [ortho_output] in E. injection E as <-.
      exists out, geo_t. auto.
    - destruct (create_ortho sample img nx ny minx miny maxx maxy dem bands nodata) as [[out geo_t]|e|] eqn:C;
        [|unfold create_ortho_gtiff_image_world_to_sensor, finish_ortho in E; rewrite C in E; discriminate..].
      destruct (create_ortho_rasters _ _ _ _ _ _ _ _ _ _ _ _ _ Hx Hy Lx Ly C) as (NE & F & _).
      destruct (ortho_image_ok to_gdal dtype (ov_store img) nx ny out geo_t proj nodata mask NE F) as (im' & I1 & I2).
      unfold create_ortho_gtiff_image_world_to_sensor, finish_ortho in *. rewrite C in *. cbn [bind fst snd] in *. rewrite I1 in *. cbn [ortho_output] in E. injection E as <-.
      exists out, geo_t. auto. }
  destruct O as (out & geo_t & NE & (E1 & E2 & E3 & E4 & E5 & E6 & E7 & E8 & E9 & r & R1 & R2 & _) & ->). clear E run.
  assert (LB : (0 < gt_nb im)%nat) by (rewrite E3; destruct out; [congruence|cbn; lia]).
  destruct (C72_memory_is_written flt D G P W from_gdal file_store (Fin 0) wkt_of fs fname im g dtype r ny nx (gt_nb im)) as (fs' & d & W1 & W2 & W3 & W4 & W5 & W6 & W7 & W8 & W9); auto; try lia.
  { rewrite E4. exact T. } { rewrite E3. exact R2. } { rewrite E9, N. right. eauto. }
  unfold ortho_output. rewrite W1.
  destruct W4 as (F1 & F2 & F3 & F4).
  set (im2 := mkGeotiff (V:=flt) (D:=D) None (Some fname) nx ny (gt_nb im) (Some g) (Nodata (IZR z)) (Some (path_root fname)) (gt_geot im) (proj_of (wkt_of proj))).
  exists fs', im2, (mkRaster ny nx (d_bands d)), r. split; [reflexivity|]. split; [exact W3|]. split.
  { unfold open_geotiff. rewrite W2, F1, F2, F3, W5, W6, W7, W8, E9, N, E1, E2, E6. destruct (d_bands d) as [|b0 bs] eqn:EB; [cbn in F3; lia|]. reflexivity. }
  do 7 (split; [reflexivity|]). split; [exact R1|]. split.
  { unfold geotiff_read_all. cbn [gt_src gt_nb im2]. rewrite (@read_bands_ok flt D G W from_gdal fs' fname d (gt_nb im) W2) by lia.
    rewrite F1, F2, W5, E1, E2, firstn_all2 by lia. reflexivity. }
  split; [rewrite E3; exact R2|].
  split; [repeat split; cbn [r_bands]; [exact F3|]; rewrite <- E1, <- E2; exact F4|].
  intros y x k Y X K. cbn [r_bands]. rewrite W9 by lia.
  destruct (px (r_bands r) y x k) eqn:EP; [reflexivity|].
  exfalso. destruct R2 as (_ & _ & S3 & S4). destruct (proj2 (px_in ny nx _ (r_bands r) y x k S3 S4)) as (v & Q); [lia|congruence].
Qed.
Print Assumptions C90_file.

(** A no-data value that is not a number cannot be written: the image object is lost with a
    ValueError, and a file with the first band only is left behind. *)
Theorem C90_nan_nodata (D G P W : Type) (to_gdal : D -> option G) (from_gdal : G -> D) (file_store : D -> G -> flt -> flt) (wkt_of : P -> W)
    (fs : files flt G W) dtype g sample img nx ny minx miny maxx maxy (proj : P) dem bands mask fname out geo_t :
  (2 <= nx)%nat -> (2 <= ny)%nat -> minx <= maxx -> miny <= maxy -> to_gdal dtype = Some g ->
  create_ortho sample img nx ny minx miny maxx maxy dem bands NonFinite = Ok (out, geo_t) ->
  exists fs' d, create_ortho_gtiff_image_world_to_sensor to_gdal from_gdal file_store wkt_of fs dtype sample img nx ny minx miny maxx maxy proj dem bands NonFinite (Some fname) mask
      = (fs', Err ValueError) /\ fs' fname = Some d /\ d_nodata d = NoNodata /\
    (forall o y x, nth_error out 0 = Some o -> (y < ny)%nat -> (x < nx)%nat -> px (d_bands d) y x 0 = option_map (file_store dtype g) (raster_at (b_rows o) y x)) /\
    forall k y x, (0 < k < length out)%nat -> (y < ny)%nat -> (x < nx)%nat -> px (d_bands d) y x k = Some (Fin 0).
Proof.
  intros Hx Hy Lx Ly T E. destruct (create_ortho_rasters _ _ _ _ _ _ _ _ _ _ _ _ _ Hx Hy Lx Ly E) as (NE & F & _).
  destruct (ortho_image_ok to_gdal dtype (ov_store img) nx ny out geo_t proj NonFinite mask NE F) as (im & I1 & (E1 & E2 & E3 & E4 & E5 & E6 & E7 & E8 & E9 & r & R1 & R2 & R3 & _)).
  assert (LB : (0 < length out)%nat) by (destruct out; [congruence|cbn; lia]).
  destruct (C72_nan_nodata flt D G P W from_gdal file_store (Fin 0) wkt_of fs fname im g dtype r (gt_nb im)) as (fs' & d & W1 & W2 & W3 & W4 & W5); auto; try lia.
  { rewrite E4. exact T. } { rewrite E1, E2, E3. exact R2. }
  unfold create_ortho_gtiff_image_world_to_sensor, finish_ortho. rewrite E. cbn [bind fst snd]. rewrite I1. unfold ortho_output. rewrite W1.
  assert (ND : gt_nodata im = NodataNaN) by (first [exact E5|exact E6|exact E7|exact E8|exact E9]). rewrite ND.
  exists fs', d. split; [reflexivity|]. split; [exact W2|]. split; [exact W4|]. split.
  - intros o y x Ho Y X. rewrite W5 by lia. now rewrite (R3 0%nat o y x Ho Y X).
  - intros k y x K Y X. rewrite W5 by lia. destruct k; [lia|reflexivity].
Qed.
Print Assumptions C90_nan_nodata.

(** A data type that GDAL does not have: fine without a file name, TypeError with one, and no
    file is made. *)
Theorem C90_no_type (D G P W : Type) (to_gdal : D -> option G) (from_gdal : G -> D) (file_store : D -> G -> flt -> flt) (wkt_of : P -> W)
    (fs : files flt G W) dtype sample img nx ny minx miny maxx maxy (proj : P) dem bands nodata mask fname out geo_t :
  (2 <= nx)%nat -> (2 <= ny)%nat -> minx <= maxx -> miny <= maxy -> to_gdal dtype = None ->
  create_ortho sample img nx ny minx miny maxx maxy dem bands nodata = Ok (out, geo_t) ->
  create_ortho_gtiff_image_world_to_sensor to_gdal from_gdal file_store wkt_of fs dtype sample img nx ny minx miny maxx maxy proj dem bands nodata (Some fname) mask = (fs, Err TypeError).
Proof.
  intros Hx Hy Lx Ly T E. destruct (create_ortho_rasters _ _ _ _ _ _ _ _ _ _ _ _ _ Hx Hy Lx Ly E) as (NE & F & _).
  destruct (ortho_image_ok to_gdal dtype (ov_store img) nx ny out geo_t proj nodata mask NE F) as (im & I1 & (_ & _ & _ & E4 & _)).
  unfold create_ortho_gtiff_image_world_to_sensor, finish_ortho. rewrite E. cbn [bind fst snd]. rewrite I1. unfold ortho_output, write_to_disk. rewrite E4, T. reflexivity.
Qed.
Print Assumptions C90_no_type.

(** The alpha band of a coregistered image.  If the data type can hold the no-data value, a cell
    whose location is outside the inner part of the image is transparent; if it cannot, the cell
    is opaque (the comparison is with the value given, not with the value stored). *)
Theorem C90_alpha (D G P W : Type) (to_gdal : D -> option G) (from_gdal : G -> D) (file_store : D -> G -> flt -> flt) (wkt_of : P -> W)
    (fs : files flt G W) dtype sample img nx ny minx miny maxx maxy (proj : P) dem bands v im fs' r c b :
  ov_coregistered img = true -> ov_loaded img = true ->
  (2 <= nx)%nat -> (2 <= ny)%nat -> minx <= maxx -> miny <= maxy -> nth_error bands 0 = Some b ->
  create_ortho_gtiff_image_world_to_sensor to_gdal from_gdal file_store wkt_of fs dtype sample img nx ny minx miny maxx maxy proj dem (Some bands) (Fin v) None true = (fs', Ok im) ->
  (r < ny)%nat -> (c < nx)%nat ->
  let p := cell_centre minx miny maxx maxy nx ny r c in
  let loc := ov_locate img 0 (p, match dem with Some d => d p | None => 0 end) in
  exists d, gt_data im = Some (dtype, d) /\
    (~ in_inner img loc -> ov_store img (Fin v) = Fin v -> px (r_bands d) r c (length bands) = Some (ov_store img (Fin 0))) /\
    (~ in_inner img loc -> ov_store img (Fin v) <> Fin v -> px (r_bands d) r c (length bands) = Some (ov_store img (Fin 255))) /\
    (in_inner img loc ->
       (ov_store img (sample (ov_band img b) loc) = Fin v -> px (r_bands d) r c (length bands) = Some (ov_store img (Fin 0))) /\
       (ov_store img (sample (ov_band img b) loc) <> Fin v -> px (r_bands d) r c (length bands) = Some (ov_store img (Fin 255)))).
Proof.
  intros HC HL Hx Hy Lx Ly Hb E Hr Hc p loc.
  assert (NB : bands <> []) by (destruct bands; [discriminate|congruence]).
  destruct (C69_coregistered sample img nx ny minx miny maxx maxy dem bands (Fin v) HC HL Hx Hy Lx Ly NB) as (out & geo_t & C & LO & PP).
  destruct (C90_object D G P W to_gdal from_gdal file_store wkt_of fs dtype sample img nx ny minx miny maxx maxy proj dem (Some bands) (Fin v) true out geo_t Hx Hy Lx Ly C)
    as (im' & E' & (_ & _ & _ & _ & _ & _ & _ & _ & _ & d & R1 & _ & _ & R4)).
  rewrite E in E'. injection E' as -> <-. exists d. split; [exact R1|].
  destruct (PP 0%nat b Hb) as (o & Ho & _ & V). destruct (V r c Hr Hc) as (w & Hw & V1 & V2).
  replace (ov_locate img 0 (cell_centre minx miny maxx maxy nx ny r c, match dem with Some d => d | None => fun _ => 0 end (cell_centre minx miny maxx maxy nx ny r c))) with loc in V1, V2
    by (unfold loc, p; destruct dem; reflexivity).
  destruct (R4 eq_refl o r c w Ho Hw Hr Hc) as [A1 A2]. rewrite LO in A1, A2. split; [|split; [|intros I; split]].
  - intros N Q. apply A1. exists v. rewrite (V2 N). auto.
  - intros N Q. apply A2. intros (x & Q1 & Q2). injection Q2 as <-. rewrite (V2 N) in Q1. congruence.
  - intros Q. apply A1. exists v. rewrite (V1 I). auto.
  - intros Q. apply A2. intros (x & Q1 & Q2). injection Q2 as <-. rewrite (V1 I) in Q1. congruence.
Qed.
Print Assumptions C90_alpha.

(** That cells without data are transparent: refuted, for unsigned 8 bit data and the no-data
    value -1, stored as 255. *)
Definition uint8 (v : flt) : flt := match v with Fin x => if Reqb x (-1) then Fin 255 else Fin x | NonFinite => Fin 0 end.
Definition byte_image : overhead := mkOverhead true true 5 5 (fun _ => repeat (repeat (Fin 7) 5) 5) 1 uint8 (fun _ _ => (30, 2)).
Theorem C90_alpha_refuted : exists im d, ~ in_image byte_image (ov_locate byte_image 0 (cell_centre 0 0 2 2 2 2 0 0, 0)) /\
  create_ortho_gtiff_image_world_to_sensor (D := unit) (G := unit) (P := unit) (W := unit) Some (fun g => g) (fun _ _ v => v) (fun p => p)
     (fun _ => None) tt flat_sample byte_image 2 2 0 0 2 2 tt None (Some [0%nat]) (Fin (-1)) None true = (fun _ => None, Ok im) /\
  gt_data im = Some (tt, d) /\ px (r_bands d) 0 0 1 = Some (Fin 255).
Proof.
  destruct (C69_coregistered flat_sample byte_image 2 2 0 0 2 2 None [0%nat] (Fin (-1))) as (out & geo_t & C & _); try reflexivity; try lia; try lra; try congruence.
  destruct (C90_object unit unit unit unit Some (fun g => g) (fun _ _ v => v) (fun p => p) (fun _ => None) tt flat_sample byte_image 2 2 0 0 2 2 tt None (Some [0%nat]) (Fin (-1)) true out geo_t)
    as (im & E & _); try lia; try lra; try exact C.
  destruct (C90_alpha unit unit unit unit Some (fun g => g) (fun _ _ v => v) (fun p => p) (fun _ => None) tt flat_sample byte_image 2 2 0 0 2 2 tt None [0%nat] (-1) im (fun _ => None) 0 0 0)
    as (d & D1 & _ & D2 & _); try lia; try lra; try reflexivity; try exact E.
  exists im, d. split; [unfold in_image; cbn; lra|]. split; [exact E|]. split; [exact D1|].
  cbn [length] in D2. rewrite D2.
  - cbn. now rewrite Reqb_false by lra.
  - unfold in_inner. cbn. lra.
  - cbn. rewrite Reqb_true by reflexivity. intros Q. injection Q as Q. lra.
Qed.
Print Assumptions C90_alpha_refuted.

(** Where the object's geotransform places the centre of the pixel that holds cell (r, c): not
    on the cell's centre, unless the extent is a line or a point. *)
Theorem C90_placement (D G P W : Type) (to_gdal : D -> option G) (from_gdal : G -> D) (file_store : D -> G -> flt -> flt) (wkt_of : P -> W)
    (fs : files flt G W) dtype sample img nx ny minx miny maxx maxy (proj : P) dem bands nodata mask im fs' r c :
  (2 <= nx)%nat -> (2 <= ny)%nat -> minx <= maxx -> miny <= maxy ->
  create_ortho_gtiff_image_world_to_sensor to_gdal from_gdal file_store wkt_of fs dtype sample img nx ny minx miny maxx maxy proj dem bands nodata None mask = (fs', Ok im) ->
  (r < ny)%nat -> (c < nx)%nat ->
  let p := cell_centre minx miny maxx maxy nx ny r c in
  let q := gdal_point (gt_geot im) (INR c + 1 / 2) (INR r + 1 / 2) in
  fst p - fst q = (INR c + 1 / 2) * (maxx - minx) / (INR nx * (INR nx + 1)) /\
  snd q - snd p = (INR r + 1 / 2) * (maxy - miny) / (INR ny * (INR ny + 1)) /\
  (p = q <-> minx = maxx /\ miny = maxy).
Proof.
  intros Hx Hy Lx Ly E Hr Hc p q.
  assert (GT : gt_geot im = world_poly_to_geo_t minx miny maxx maxy (Z.of_nat nx) (Z.of_nat ny)).
  { destruct (create_ortho sample img nx ny minx miny maxx maxy dem bands nodata) as [[out geo_t]|e|] eqn:C;
      [|unfold create_ortho_gtiff_image_world_to_sensor, finish_ortho in E; rewrite C in E; discriminate..].
    destruct (C90_object D G P W to_gdal from_gdal file_store wkt_of fs dtype sample img nx ny minx miny maxx maxy proj dem bands nodata mask out geo_t Hx Hy Lx Ly C)
      as (im' & E' & (_ & _ & _ & _ & E5 & _)). rewrite E in E'. injection E' as -> <-. exact E5. }
  destruct (C28_grid minx maxx miny maxy (Z.of_nat nx) (Z.of_nat ny)) as (gx & gy & G1 & _ & _ & F); try lia; try assumption.
  rewrite !Nat2Z.id in F. destruct (F r c Hr Hc) as [FX FY]. rewrite <- !INR_IZR_INZ in *.
  pose proof (C28_offset minx maxx miny maxy (Z.of_nat nx) (Z.of_nat ny) gx gy r c _ _ ltac:(lia) ltac:(lia) Lx Ly G1 FX FY) as O.
  unfold q. rewrite GT. clear q. destruct (gdal_point _ _ _) as [X Y]. rewrite <- !INR_IZR_INZ in O. destruct O as (O1 & O2 & O3 & O4).
  unfold p, cell_centre. cbn [fst snd]. split; [exact O1|]. split; [exact O2|].
  split.
  - intros Q. injection Q as Q1 Q2. split; [now apply O3|now apply O4].
  - intros [Q1 Q2]. f_equal; [now apply O3|now apply O4].
Qed.
Print Assumptions C90_placement.

Example C90_hypotheses_met : exists out geo_t, create_ortho flat_sample byte_image 2 2 0 0 2 2 None None (Fin (IZR 0)) = Ok (out, geo_t) /\ length out = 1%nat.
Proof.
  destruct (C69_coregistered flat_sample byte_image 2 2 0 0 2 2 None [0%nat] (Fin 0)) as (out & geo_t & C & L & _); try reflexivity; try lia; try lra; try congruence.
  exists out, geo_t. split; [exact C|exact L].
Qed.

(* ------------------------ small resampling helpers -------------------- *)

(** gdal_grid_image_band never makes an image. *)
Theorem C89_grid_refused : forall V (image : list (list V)) output_fname npix_x npix_y,
  gdal_grid_image_band image output_fname npix_x npix_y = Err TypeError.
Proof. reflexivity. Qed.
Print Assumptions C89_grid_refused.

(** C89: resize_image has the size asked for, for every resize of that contract. *)
Theorem C89_resize (V : Type) (pil : list (list V) -> nat * nat -> list (list V)) image new_ny new_nx :
  (forall data w h, Spec_Ortho.raster (pil data (w, h)) h w) ->
  Spec_Ortho.raster (resize_image pil image new_ny new_nx) new_ny new_nx.
Proof. intros H. apply H. Qed.
Print Assumptions C89_resize.
Example C89_resize_met : exists pil : list (list nat) -> nat * nat -> list (list nat), forall data w h, Spec_Ortho.raster (pil data (w, h)) h w.
Proof.
  exists (fun _ wh => repeat (repeat 0%nat (fst wh)) (snd wh)). intros data w h. split; [apply repeat_length|].
  apply Forall_forall. intros row H. apply repeat_spec in H. subst row. apply repeat_length.
Qed.
