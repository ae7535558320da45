(** C113: orthos of parts of a region fit together. *)
From Verif Require Import RAux Arr Text M_Photo M_Image M_Chipper M_Ortho.
From Verif Require Import Spec_Photo Spec_Ortho Spec_Chipper Spec_Tiles.
From Verif Require Prop_Ortho Prop_Chipper.
Open Scope R_scope.
Open Scope list_scope.

Definition chosen (img : overhead) (bands : option (list nat)) : list nat := match bands with Some l => l | None => seq 0 (ov_n_bands img) end.

(** An ortho exists, and its cells depend on the cell's centre only *)
Lemma ortho_exists sample img nx ny minx miny maxx maxy dem bands nodata :
  can_ortho img bands -> (2 <= nx)%nat -> (2 <= ny)%nat -> minx <= maxx -> miny <= maxy ->
  exists out geo_t, create_ortho sample img nx ny minx miny maxx maxy dem bands nodata = Ok (out, geo_t) /\ length out = length (chosen img bands) /\
    geo_t = world_poly_to_geo_t minx miny maxx maxy (Z.of_nat nx) (Z.of_nat ny) /\
    forall k b, nth_error (chosen img bands) k = Some b -> exists o, nth_error out k = Some o /\ raster (b_rows o) ny nx /\
      forall r c, (r < ny)%nat -> (c < nx)%nat ->
        let p := cell_centre minx miny maxx maxy nx ny r c in
        let e := match dem with Some d => d p | None => 0 end in
        if ov_coregistered img then
          let loc := ov_locate img 0 (p, e) in
          exists v, raster_at (b_rows o) r c = Some v /\ (in_inner img loc -> v = ov_store img (sample (ov_band img b) loc)) /\ (~ in_inner img loc -> v = ov_store img nodata)
        else raster_at (b_rows o) r c = Some (ov_store img (sample (ov_band img b) (ov_locate img b (p, e)))).
Proof.
  intros [HL HB] Hx Hy Lx Ly.
  assert (NB : chosen img bands <> []). { unfold chosen. destruct bands; [exact HB|]. destruct (ov_n_bands img); [lia|discriminate]. }
  assert (EB : create_ortho sample img nx ny minx miny maxx maxy dem bands nodata = create_ortho sample img nx ny minx miny maxx maxy dem (Some (chosen img bands)) nodata)
    by (destruct bands; reflexivity).
  rewrite EB. clear EB.
  assert (GE : forall out g, create_ortho sample img nx ny minx miny maxx maxy dem (Some (chosen img bands)) nodata = Ok (out, g) -> g = world_poly_to_geo_t minx miny maxx maxy (Z.of_nat nx) (Z.of_nat ny)).
  { intros out g H. unfold create_ortho in H. destruct (create_ground_grid minx maxx miny maxy (Z.of_nat nx) (Z.of_nat ny)) as [gr| |]; cbn [bind] in H; try discriminate.
    match type of H with bind ?m _ = _ => destruct m as [images| |]; cbn [bind] in H; try discriminate end.
    destruct images; [discriminate|]. injection H as _ <-. reflexivity. }
  destruct (ov_coregistered img) eqn:EC.
  - destruct (Prop_Ortho.C69_coregistered sample img nx ny minx miny maxx maxy dem _ nodata EC (HL eq_refl) Hx Hy Lx Ly NB) as (out & g & E & L & H).
    exists out, g. split; [exact E|]. split; [exact L|]. split; [apply (GE _ _ E)|].
    intros k b Hk. destruct (H k b Hk) as (o & Ho & RR & V). exists o. split; [exact Ho|]. split; [exact RR|].
    intros r c Hr Hc. specialize (V r c Hr Hc). destruct dem; exact V.
  - destruct (Prop_Ortho.C69_separate sample img nx ny minx miny maxx maxy dem _ nodata EC Hx Hy Lx Ly NB) as (out & g & E & L & H).
    exists out, g. split; [exact E|]. split; [exact L|]. split; [apply (GE _ _ E)|].
    intros k b Hk. destruct (H k b Hk) as (o & Ho & RR & V). exists o. split; [exact Ho|]. split; [exact RR|].
    intros r c Hr Hc. specialize (V r c Hr Hc). destruct dem; exact V.
Qed.

Lemma in_inner_dec img loc : {in_inner img loc} + {~ in_inner img loc}.
Proof.
  unfold in_inner. destruct (Rlt_dec 0 (fst loc)), (Rlt_dec (fst loc) (IZR (ov_nx img - 2))), (Rlt_dec 0 (snd loc)), (Rlt_dec (snd loc) (IZR (ov_ny img - 2)));
    try (left; tauto); right; tauto.
Qed.

(** Two orthos of one image, over any windows, of any sizes and with any choice of bands: cells of one band with the same
    centre hold the same value. *)
Theorem C113_same_place : forall sample img dem nodata nx ny minx miny maxx maxy bands out geo_t nx' ny' minx' miny' maxx' maxy' bands' out' geo_t',
  minx <= maxx -> miny <= maxy -> minx' <= maxx' -> miny' <= maxy' ->
  create_ortho sample img nx ny minx miny maxx maxy dem (Some bands) nodata = Ok (out, geo_t) ->
  create_ortho sample img nx' ny' minx' miny' maxx' maxy' dem (Some bands') nodata = Ok (out', geo_t') ->
  forall k k' b o o' r c r' c', nth_error bands k = Some b -> nth_error bands' k' = Some b -> nth_error out k = Some o -> nth_error out' k' = Some o' ->
    (r < ny)%nat -> (c < nx)%nat -> (r' < ny')%nat -> (c' < nx')%nat ->
    cell_centre minx miny maxx maxy nx ny r c = cell_centre minx' miny' maxx' maxy' nx' ny' r' c' ->
    raster_at (b_rows o) r c = raster_at (b_rows o') r' c'.
Proof.
  intros sample img dem nodata nx ny minx miny maxx maxy bands out geo_t nx' ny' minx' miny' maxx' maxy' bands' out' geo_t' L1 L2 L1' L2' E E'
    k k' b o o' r c r' c' Hb Hb' Ho Ho' Hr Hc Hr' Hc' EC.
  assert (SZ : forall n m a1 a2 a3 a4 bs q, a1 <= a3 -> a2 <= a4 -> bs <> [] -> create_ortho sample img n m a1 a2 a3 a4 dem (Some bs) nodata = Ok q ->
    (2 <= n)%nat /\ (2 <= m)%nat /\ can_ortho img (Some bs)).
  { intros n m a1 a2 a3 a4 bs q K1 K2 K3 K. destruct (Prop_Ortho.C69_errors sample img n m a1 a2 a3 a4 dem (Some bs) nodata) as [G1 G2].
    assert (S1 : (2 <= n)%nat) by (destruct (Nat.lt_ge_cases n 2) as [Q|Q]; [rewrite G1 in K by (left; exact Q); discriminate|exact Q]).
    assert (S2 : (2 <= m)%nat) by (destruct (Nat.lt_ge_cases m 2) as [Q|Q]; [rewrite G1 in K by (right; exact Q); discriminate|exact Q]).
    split; [exact S1|]. split; [exact S2|]. split; [|exact K3]. intros CO. destruct (ov_loaded img) eqn:LO; [reflexivity|].
    destruct bs as [|b0 bs]; [congruence|]. destruct (G2 S1 S2 K1 K2) as [G3 _]. rewrite (G3 CO eq_refl b0 bs eq_refl) in K. discriminate. }
  assert (N1 : bands <> []) by (destruct bands; [destruct k; discriminate|congruence]).
  assert (N2 : bands' <> []) by (destruct bands'; [destruct k'; discriminate|congruence]).
  destruct (SZ _ _ _ _ _ _ _ _ L1 L2 N1 E) as (X1 & Y1 & CO). destruct (SZ _ _ _ _ _ _ _ _ L1' L2' N2 E') as (X2 & Y2 & CO').
  destruct (ortho_exists sample img nx ny minx miny maxx maxy dem (Some bands) nodata CO X1 Y1 L1 L2) as (q & g & Q & _ & _ & V).
  rewrite E in Q. injection Q as <- <-.
  destruct (ortho_exists sample img nx' ny' minx' miny' maxx' maxy' dem (Some bands') nodata CO' X2 Y2 L1' L2') as (q & g & Q & _ & _ & V').
  rewrite E' in Q. injection Q as <- <-.
  destruct (V k b Hb) as (o1 & K1 & _ & W). rewrite Ho in K1. injection K1 as <-.
  destruct (V' k' b Hb') as (o1 & K1 & _ & W'). rewrite Ho' in K1. injection K1 as <-.
  specialize (W r c Hr Hc). specialize (W' r' c' Hr' Hc'). cbv zeta in W, W'. rewrite <- EC in W'.
  destruct (ov_coregistered img); [|congruence].
  destruct W as (v & -> & A1 & A2). destruct W' as (v' & -> & B1 & B2). f_equal.
  match type of A1 with in_inner _ ?l -> _ => destruct (in_inner_dec img l) as [I|I] end; [rewrite (A1 I), (B1 I)|rewrite (A2 I), (B2 I)]; reflexivity.
Qed.
Print Assumptions C113_same_place.

Lemma part_centre minx miny maxx maxy nx ny c0 r0 w h r c : (0 < nx)%nat -> (0 < ny)%nat -> (0 < w)%nat -> (0 < h)%nat ->
  let '(x0, y0, x1, y1) := part_bounds minx miny maxx maxy nx ny c0 r0 w h in
  cell_centre x0 y0 x1 y1 w h r c = cell_centre minx miny maxx maxy nx ny (r0 + r) (c0 + c).
Proof.
  intros H1 H2 H3 H4. unfold part_bounds, cell_centre. rewrite !plus_INR. apply lt_0_INR in H1, H2, H3, H4. f_equal; field; lra.
Qed.

(** The ortho of a part of the grid, rectangular and made of whole cells, is that part of the ortho. *)
Theorem C113_part : forall sample img dem nodata nx ny minx miny maxx maxy bands c0 r0 w h,
  can_ortho img bands -> minx <= maxx -> miny <= maxy -> (2 <= w)%nat -> (2 <= h)%nat -> (c0 + w <= nx)%nat -> (r0 + h <= ny)%nat ->
  let '(x0, y0, x1, y1) := part_bounds minx miny maxx maxy nx ny c0 r0 w h in
  exists out geo_t out' geo_t', create_ortho sample img nx ny minx miny maxx maxy dem bands nodata = Ok (out, geo_t) /\
    create_ortho sample img w h x0 y0 x1 y1 dem bands nodata = Ok (out', geo_t') /\ length out' = length out /\
    forall k o, nth_error out k = Some o -> exists o', nth_error out' k = Some o' /\ raster (b_rows o) ny nx /\ raster (b_rows o') h w /\
      forall r c, (r < h)%nat -> (c < w)%nat -> raster_at (b_rows o') r c = raster_at (b_rows o) (r0 + r) (c0 + c).
Proof.
  intros sample img dem nodata nx ny minx miny maxx maxy bands c0 r0 w h CO Lx Ly Hw Hh Bw Bh.
  pose proof (fun r c => part_centre minx miny maxx maxy nx ny c0 r0 w h r c ltac:(lia) ltac:(lia) ltac:(lia) ltac:(lia)) as PC.
  destruct (part_bounds minx miny maxx maxy nx ny c0 r0 w h) as [[[x0 y0] x1] y1] eqn:PB.
  assert (P1 : x0 <= x1 /\ y0 <= y1).
  { unfold part_bounds in PB. injection PB as <- <- <- <-. rewrite !plus_INR.
    assert (G1 : 0 <= (maxx - minx) / INR nx) by (apply Rle_mult_inv_pos; [lra|apply lt_0_INR; lia]).
    assert (G2 : 0 <= (maxy - miny) / INR ny) by (apply Rle_mult_inv_pos; [lra|apply lt_0_INR; lia]).
    pose proof (pos_INR w). pose proof (pos_INR h). split; nra. }
  destruct P1 as [P1 P2].
  destruct (ortho_exists sample img nx ny minx miny maxx maxy dem bands nodata CO ltac:(lia) ltac:(lia) Lx Ly) as (out & g & E & L & _ & V).
  destruct (ortho_exists sample img w h x0 y0 x1 y1 dem bands nodata CO Hw Hh P1 P2) as (out' & g' & E' & L' & _ & V').
  exists out, g, out', g'. split; [exact E|]. split; [exact E'|]. split; [congruence|]. intros k o Ho.
  assert (HK : exists b, nth_error (chosen img bands) k = Some b).
  { destruct (nth_error (chosen img bands) k) as [b|] eqn:Q; [exists b; reflexivity|]. apply nth_error_None in Q.
    assert (k < length out)%nat by (apply nth_error_Some; congruence). lia. }
  destruct HK as [b Hb]. destruct (V k b Hb) as (o1 & K1 & RR & _). rewrite Ho in K1. injection K1 as <-.
  destruct (V' k b Hb) as (o' & Ho' & RR' & _). exists o'. split; [exact Ho'|]. split; [exact RR|]. split; [exact RR'|].
  intros r c Hr Hc.
  assert (EB : forall n m a1 a2 a3 a4, create_ortho sample img n m a1 a2 a3 a4 dem bands nodata = create_ortho sample img n m a1 a2 a3 a4 dem (Some (chosen img bands)) nodata)
    by (intros; destruct bands; reflexivity).
  rewrite EB in E, E'.
  apply (C113_same_place sample img dem nodata w h x0 y0 x1 y1 _ out' g' nx ny minx miny maxx maxy _ out g P1 P2 Lx Ly E' E k k b o' o); try assumption; try lia.
  apply PC.
Qed.
Print Assumptions C113_part.

Lemma raster_ext {A} (a b : list (list A)) ny nx : raster a ny nx -> raster b ny nx ->
  (forall r c, (r < ny)%nat -> (c < nx)%nat -> raster_at a r c = raster_at b r c) -> a = b.
Proof.
  intros [A1 A2] [B1 B2] H. rewrite Forall_forall in A2, B2. apply nth_error_ext. intros r. unfold raster_at in H.
  destruct (nth_error a r) as [x|] eqn:Ea, (nth_error b r) as [y|] eqn:Eb; try reflexivity.
  - f_equal. pose proof (A2 _ (nth_error_In _ _ Ea)). pose proof (B2 _ (nth_error_In _ _ Eb)). apply nth_error_ext. intros c.
    destruct (Nat.lt_ge_cases c nx) as [Q|Q].
    + specialize (H r c). rewrite Ea, Eb in H. apply H; [|exact Q]. rewrite <- A1. apply nth_error_Some. congruence.
    + rewrite (proj2 (nth_error_None x c)), (proj2 (nth_error_None y c)) by lia. reflexivity.
  - apply nth_error_None in Eb. assert (r < length a)%nat by (apply nth_error_Some; congruence). lia.
  - apply nth_error_None in Ea. assert (r < length b)%nat by (apply nth_error_Some; congruence). lia.
Qed.

Lemma map2_raster {A} (a b : list (list A)) ny w1 w2 : raster a ny w1 -> raster b ny w2 ->
  raster (map2 (@app A) a b) ny (w1 + w2) /\
  (forall r c, (r < ny)%nat -> (c < w1)%nat -> raster_at (map2 (@app A) a b) r c = raster_at a r c) /\
  (forall r c, (r < ny)%nat -> (c < w2)%nat -> raster_at (map2 (@app A) a b) r (w1 + c) = raster_at b r c).
Proof.
  revert b ny. induction a as [|x a IH]; intros [|y b] ny [A1 A2] [B1 B2]; cbn [length] in *; subst ny; try discriminate.
  - split; [split; [reflexivity|constructor]|]. split; intros r c H; inversion H.
  - inversion A2; inversion B2; subst. injection B1 as B1. destruct (IH b (length a)) as ([I1 I2] & I3 & I4); [split; auto|split; auto|].
    cbn [map2]. split; [split; [cbn [length]; lia|constructor; [rewrite app_length; lia|exact I2]]|]. unfold raster_at in *. split.
    + intros [|r] c Hr Hc; cbn [nth_error]; [apply nth_error_app1; lia|apply I3; lia].
    + intros [|r] c Hr Hc; cbn [nth_error]; [rewrite nth_error_app2 by lia; f_equal; lia|apply I4; lia].
Qed.

(** Two halves beside each other, or one above the other, of at least two columns or rows each: joined they are the whole. *)
Theorem C113_joined : forall sample img dem nodata nx ny minx miny maxx maxy bands n1 n2,
  can_ortho img bands -> minx <= maxx -> miny <= maxy -> (2 <= nx)%nat -> (2 <= ny)%nat -> (2 <= n1)%nat -> (2 <= n2)%nat ->
  let midx := minx + INR n1 * ((maxx - minx) / INR nx) in let midy := maxy - INR n1 * ((maxy - miny) / INR ny) in
  exists out geo_t, create_ortho sample img nx ny minx miny maxx maxy dem bands nodata = Ok (out, geo_t) /\
    ((n1 + n2 = nx)%nat -> exists left right gl gr,
       create_ortho sample img n1 ny minx miny midx maxy dem bands nodata = Ok (left, gl) /\
       create_ortho sample img n2 ny midx miny maxx maxy dem bands nodata = Ok (right, gr) /\
       forall k o, nth_error out k = Some o -> exists l r, nth_error left k = Some l /\ nth_error right k = Some r /\
         b_rows o = map2 (fun a b => a ++ b) (b_rows l) (b_rows r)) /\
    ((n1 + n2 = ny)%nat -> exists top bottom gt gb,
       create_ortho sample img nx n1 minx midy maxx maxy dem bands nodata = Ok (top, gt) /\
       create_ortho sample img nx n2 minx miny maxx midy dem bands nodata = Ok (bottom, gb) /\
       forall k o, nth_error out k = Some o -> exists t b, nth_error top k = Some t /\ nth_error bottom k = Some b /\
         b_rows o = b_rows t ++ b_rows b).
Proof.
  intros sample img dem nodata nx ny minx miny maxx maxy bands n1 n2 CO Lx Ly Hx Hy H1 H2 midx midy.
  destruct (ortho_exists sample img nx ny minx miny maxx maxy dem bands nodata CO Hx Hy Lx Ly) as (out & g & E & L & _ & V).
  exists out, g. split; [exact E|].
  assert (NX : INR nx <> 0) by (apply not_0_INR; lia). assert (NY : INR ny <> 0) by (apply not_0_INR; lia).
  split; intros EN.
  - pose proof (C113_part sample img dem nodata nx ny minx miny maxx maxy bands 0 0 n1 ny CO Lx Ly H1 Hy ltac:(lia) ltac:(lia)) as P1.
    pose proof (C113_part sample img dem nodata nx ny minx miny maxx maxy bands n1 0 n2 ny CO Lx Ly H2 Hy ltac:(lia) ltac:(lia)) as P2.
    unfold part_bounds in P1, P2. cbn [Nat.add] in P1, P2. rewrite EN in P2.
    replace (minx + INR 0 * ((maxx - minx) / INR nx)) with minx in P1 by (cbn; ring).
    replace (maxy - INR ny * ((maxy - miny) / INR ny)) with miny in P1, P2 by (field; exact NY).
    replace (maxy - INR 0 * ((maxy - miny) / INR ny)) with maxy in P1, P2 by (cbn; ring).
    replace (minx + INR nx * ((maxx - minx) / INR nx)) with maxx in P2 by (field; exact NX).
    fold midx in P1, P2.
    destruct P1 as (q1 & g1 & left & gl & Q1 & E1 & _ & V1). rewrite E in Q1. injection Q1 as <- <-.
    destruct P2 as (q2 & g2 & right & gr & Q2 & E2 & _ & V2). rewrite E in Q2. injection Q2 as <- <-.
    exists left, right, gl, gr. split; [exact E1|]. split; [exact E2|]. intros k o Ho.
    destruct (V1 k o Ho) as (l & Hl & R0 & R1 & W1). destruct (V2 k o Ho) as (r & Hr & _ & R2 & W2). exists l, r. split; [exact Hl|]. split; [exact Hr|].
    destruct (map2_raster _ _ _ _ _ R1 R2) as (RM & M1 & M2). rewrite EN in RM. apply (raster_ext _ _ ny nx R0 RM).
    intros i c Hi Hc. destruct (Nat.lt_ge_cases c n1) as [Q|Q].
    + rewrite (M1 i c Hi Q), (W1 i c Hi Q). reflexivity.
    + replace c with (n1 + (c - n1))%nat by lia. rewrite (M2 i (c - n1)%nat Hi ltac:(lia)), (W2 i (c - n1)%nat Hi ltac:(lia)). reflexivity.
  - pose proof (C113_part sample img dem nodata nx ny minx miny maxx maxy bands 0 0 nx n1 CO Lx Ly Hx H1 ltac:(lia) ltac:(lia)) as P1.
    pose proof (C113_part sample img dem nodata nx ny minx miny maxx maxy bands 0 n1 nx n2 CO Lx Ly Hx H2 ltac:(lia) ltac:(lia)) as P2.
    unfold part_bounds in P1, P2. cbn [Nat.add] in P1, P2. rewrite EN in P2.
    replace (minx + INR 0 * ((maxx - minx) / INR nx)) with minx in P1, P2 by (cbn; ring).
    replace (minx + INR nx * ((maxx - minx) / INR nx)) with maxx in P1, P2 by (field; exact NX).
    replace (maxy - INR 0 * ((maxy - miny) / INR ny)) with maxy in P1 by (cbn; ring).
    replace (maxy - INR ny * ((maxy - miny) / INR ny)) with miny in P2 by (field; exact NY).
    fold midy in P1, P2.
    destruct P1 as (q1 & g1 & top & gl & Q1 & E1 & _ & V1). rewrite E in Q1. injection Q1 as <- <-.
    destruct P2 as (q2 & g2 & bottom & gr & Q2 & E2 & _ & V2). rewrite E in Q2. injection Q2 as <- <-.
    exists top, bottom, gl, gr. split; [exact E1|]. split; [exact E2|]. intros k o Ho.
    destruct (V1 k o Ho) as (l & Hl & R0 & [R1 R1'] & W1). destruct (V2 k o Ho) as (r & Hr & _ & [R2 R2'] & W2). exists l, r. split; [exact Hl|]. split; [exact Hr|].
    apply (raster_ext _ _ ny nx R0). { split; [rewrite app_length; lia|apply Forall_app; split; assumption]. }
    intros i c Hi Hc. unfold raster_at in *. destruct (Nat.lt_ge_cases i n1) as [Q|Q].
    + rewrite nth_error_app1 by lia. symmetry. apply (W1 i c Q Hc).
    + rewrite nth_error_app2 by lia. rewrite R1. specialize (W2 (i - n1)%nat c ltac:(lia) Hc). replace (n1 + (i - n1))%nat with i in W2 by lia. symmetry. exact W2.
Qed.
Print Assumptions C113_joined.

(** An ortho with an odd number k of times larger cells is every k-th cell of the finer one, starting at the middle of the first k. *)
Theorem C113_coarser : forall sample img dem nodata nx ny minx miny maxx maxy bands j,
  can_ortho img bands -> minx <= maxx -> miny <= maxy -> (2 <= nx)%nat -> (2 <= ny)%nat ->
  let k := (2 * j + 1)%nat in
  exists fine gf coarse gc, create_ortho sample img (k * nx) (k * ny) minx miny maxx maxy dem bands nodata = Ok (fine, gf) /\
    create_ortho sample img nx ny minx miny maxx maxy dem bands nodata = Ok (coarse, gc) /\ length coarse = length fine /\
    forall i o, nth_error coarse i = Some o -> exists o', nth_error fine i = Some o' /\
      forall r c, (r < ny)%nat -> (c < nx)%nat -> raster_at (b_rows o) r c = raster_at (b_rows o') (k * r + j) (k * c + j).
Proof.
  intros sample img dem nodata nx ny minx miny maxx maxy bands j CO Lx Ly Hx Hy k.
  destruct (ortho_exists sample img (k * nx) (k * ny) minx miny maxx maxy dem bands nodata CO ltac:(unfold k; nia) ltac:(unfold k; nia) Lx Ly) as (out & g & E & L & _ & V).
  destruct (ortho_exists sample img nx ny minx miny maxx maxy dem bands nodata CO Hx Hy Lx Ly) as (out' & g' & E' & L' & _ & V').
  exists out, g, out', g'. split; [exact E|]. split; [exact E'|]. split; [congruence|]. intros i o Ho.
  assert (HK : exists b, nth_error (chosen img bands) i = Some b).
  { destruct (nth_error (chosen img bands) i) as [b|] eqn:Q; [exists b; reflexivity|]. apply nth_error_None in Q.
    assert (i < length out')%nat by (apply nth_error_Some; congruence). lia. }
  destruct HK as [b Hb]. destruct (V i b Hb) as (o' & Ho' & _). exists o'. split; [exact Ho'|]. intros r c Hr Hc.
  assert (EB : forall n m a1 a2 a3 a4, create_ortho sample img n m a1 a2 a3 a4 dem bands nodata = create_ortho sample img n m a1 a2 a3 a4 dem (Some (chosen img bands)) nodata)
    by (intros; destruct bands; reflexivity).
  rewrite EB in E, E'.
  apply (C113_same_place sample img dem nodata nx ny minx miny maxx maxy _ out' g' (k * nx) (k * ny) minx miny maxx maxy _ out g Lx Ly Lx Ly E' E i i b o o'); try assumption; try (unfold k; nia).
  unfold cell_centre. rewrite !plus_INR, !mult_INR. replace (INR k) with (2 * INR j + 1) by (unfold k; rewrite plus_INR, mult_INR; reflexivity).
  assert (0 < INR nx) by (apply lt_0_INR; lia). assert (0 < INR ny) by (apply lt_0_INR; lia). pose proof (pos_INR j). f_equal; field; lra.
Qed.
Print Assumptions C113_coarser.

(** Cutting chips out of an ortho gives the same pixels as orthorectifying the chips' own windows. *)
Theorem C113_chips : forall sample img dem nodata nx ny minx miny maxx maxy bands out geo_t im zero ys xs w h,
  can_ortho img bands -> minx <= maxx -> miny <= maxy -> (2 <= w)%nat -> (2 <= h)%nat ->
  create_ortho sample img nx ny minx miny maxx maxy dem bands nodata = Ok (out, geo_t) -> stacked im out ny nx ->
  length ys = length xs -> (forall i y x, nth_error ys i = Some y -> nth_error xs i = Some x -> (y + h <= ny /\ x + w <= nx)%nat) ->
  exists ch, chip_images_by_pixel_upper_lefts zero im false (map Z.of_nat ys) (map Z.of_nat xs) (Z.of_nat h) (Z.of_nat w) BandsNone false =
      Ok (ch, combine (map Z.of_nat ys) (map Z.of_nat xs)) /\ n_chips ch = length ys /\
    forall i y x, nth_error ys i = Some y -> nth_error xs i = Some x ->
      let '(x0, y0, x1, y1) := part_bounds minx miny maxx maxy nx ny x y w h in
      exists out' geo_t', create_ortho sample img w h x0 y0 x1 y1 dem bands nodata = Ok (out', geo_t') /\ length out' = length out /\
        forall k o' r c, nth_error out' k = Some o' -> (r < h)%nat -> (c < w)%nat -> chips_at ch i r c k = raster_at (b_rows o') r c.
Proof.
  intros sample img dem nodata nx ny minx miny maxx maxy bands out geo_t im zero ys xs w h CO Lx Ly Hw Hh E (W & I1 & I2 & I3 & I4) LE HI.
  assert (NC : forall i y x, nth_error ys i = Some y -> nth_error xs i = Some x -> nth_error (combine (map Z.of_nat ys) (map Z.of_nat xs)) i = Some (Z.of_nat y, Z.of_nat x)).
  { clear - LE. revert xs LE. induction ys as [|y ys IH]; intros [|x xs] LE i y' x' A B; try discriminate LE; [destruct i; discriminate A|].
    destruct i; cbn in *; [injection A as <-; injection B as <-; reflexivity|]. apply IH; try assumption. lia. }
  destruct (Prop_Chipper.C08_unclamped_inside flt zero im false (map Z.of_nat ys) (map Z.of_nat xs) (Z.of_nat h) (Z.of_nat w) BandsNone W) as (ch & EC & LC & XC).
  - exact I.
  - lia.
  - lia.
  - rewrite !map_length. exact LE.
  - discriminate.
  - apply Forall_forall. intros [y x] HIn. apply In_nth_error in HIn. destruct HIn as [i Hi].
    assert (Hy : (i < length ys)%nat). { assert (Q : (i < length (combine (map Z.of_nat ys) (map Z.of_nat xs)))%nat) by (apply nth_error_Some; congruence).
      rewrite combine_length, !map_length in Q. lia. }
    destruct (nth_error ys i) as [y'|] eqn:Ey; [|apply nth_error_None in Ey; lia].
    destruct (nth_error xs i) as [x'|] eqn:Ex; [|apply nth_error_None in Ex; lia].
    rewrite (NC i y' x' Ey Ex) in Hi. injection Hi as <- <-. destruct (HI i y' x' Ey Ex). cbn [fst snd]. rewrite I1, I2. lia.
  - exists ch. split; [exact EC|]. split; [rewrite LC, map_length; reflexivity|]. intros i y x Hy Hx. destruct (HI i y x Hy Hx) as [B1 B2].
    pose proof (C113_part sample img dem nodata nx ny minx miny maxx maxy bands x y w h CO Lx Ly Hw Hh B2 B1) as P.
    destruct (part_bounds minx miny maxx maxy nx ny x y w h) as [[[x0 y0] x1] y1].
    destruct P as (q & g & out' & g' & Q & E' & LO & V). rewrite E in Q. injection Q as <- <-. exists out', g'. split; [exact E'|]. split; [exact LO|].
    intros k o' r c Ho' Hr Hc.
    assert (HK : exists o, nth_error out k = Some o).
    { destruct (nth_error out k) as [o|] eqn:Q; [exists o; reflexivity|]. apply nth_error_None in Q.
      assert (k < length out')%nat by (apply nth_error_Some; congruence). lia. }
    destruct HK as [o Ho]. destruct (V k o Ho) as (o1 & K1 & _ & _ & VV). rewrite Ho' in K1. injection K1 as <-.
    destruct (XC i _ _ (NC i y x Hy Hx)) as (_ & _ & _ & _ & AT). rewrite (AT r c k).
    replace (Z.of_nat r <? Z.of_nat h)%Z with true by lia. replace (Z.of_nat c <? Z.of_nat w)%Z with true by lia. cbn [andb selected_bands].
    assert (HN : nth_error (seq 0 (c_nb im)) k = Some k).
    { rewrite I3. assert (k < length out)%nat by (apply nth_error_Some; congruence).
      rewrite (nth_error_nth' (seq 0 (length out)) 0%nat) by (rewrite seq_length; assumption). rewrite seq_nth by assumption. reflexivity. }
    rewrite HN, !Nat2Z.id, (VV r c Hr Hc). apply I4; [lia|lia|exact Ho].
Qed.
Print Assumptions C113_chips.

(** The geotransforms: how far apart the part's geotransform and the whole's place the same cell. *)
Theorem C113_geo_transform : forall sample img dem nodata nx ny minx miny maxx maxy bands c0 r0 w h out geo_t out' geo_t',
  (0 < nx)%nat -> (0 < ny)%nat ->
  let '(x0, y0, x1, y1) := part_bounds minx miny maxx maxy nx ny c0 r0 w h in
  create_ortho sample img nx ny minx miny maxx maxy dem bands nodata = Ok (out, geo_t) ->
  create_ortho sample img w h x0 y0 x1 y1 dem bands nodata = Ok (out', geo_t') ->
  forall r c, let p := gdal_point geo_t (INR (c0 + c)) (INR (r0 + r)) in let q := gdal_point geo_t' (INR c) (INR r) in
    fst q - fst p = ((maxx - minx) / INR nx) * (INR (c0 + c) / (INR nx + 1) - INR c / (INR w + 1)) /\
    snd q - snd p = - ((maxy - miny) / INR ny) * (INR (r0 + r) / (INR ny + 1) - INR r / (INR h + 1)).
Proof.
  intros sample img dem nodata nx ny minx miny maxx maxy bands c0 r0 w h out geo_t out' geo_t' Hx Hy. cbv beta iota zeta delta [part_bounds]. intros E E' r c. set (p := gdal_point geo_t _ _). set (q := gdal_point geo_t' _ _).
  assert (GE : forall n m a1 a2 a3 a4 o g, create_ortho sample img n m a1 a2 a3 a4 dem bands nodata = Ok (o, g) -> g = world_poly_to_geo_t a1 a2 a3 a4 (Z.of_nat n) (Z.of_nat m)).
  { intros n m a1 a2 a3 a4 o g H. unfold create_ortho in H. destruct (create_ground_grid a1 a3 a2 a4 (Z.of_nat n) (Z.of_nat m)) as [gr| |]; cbn [bind] in H; try discriminate.
    match type of H with bind ?m _ = _ => destruct m as [images| |]; cbn [bind] in H; try discriminate end.
    destruct images; [discriminate|]. injection H as _ <-. reflexivity. }
  unfold p, q. rewrite (GE _ _ _ _ _ _ _ _ E), (GE _ _ _ _ _ _ _ _ E'). unfold world_poly_to_geo_t, gdal_point. cbn [nth fst snd].
  rewrite <- !INR_IZR_INZ, !plus_INR. apply lt_0_INR in Hx, Hy. pose proof (pos_INR w). pose proof (pos_INR h). split; field; lra.
Qed.
Print Assumptions C113_geo_transform.

(** Every ortho has its array *)
Lemma stacked_exists out ny nx : (forall k o, nth_error out k = Some o -> raster (b_rows o) ny nx) -> exists im, stacked im out ny nx.
Proof.
  intros H. set (f := fun r c (o : band flt) => match raster_at (b_rows o) r c with Some v => v | None => NonFinite end).
  exists (mkCube ny nx (length out) (map (fun r => map (fun c => map (f r c) out) (seq 0 nx)) (seq 0 ny))).
  unfold stacked, cube_wf. cbn [c_data c_ny c_nx c_nb]. split; [split|].
  - rewrite map_length, seq_length. reflexivity.
  - apply Forall_forall. intros row HI. apply in_map_iff in HI. destruct HI as (r & <- & _). split; [rewrite map_length, seq_length; reflexivity|].
    apply Forall_forall. intros p HP. apply in_map_iff in HP. destruct HP as (c & <- & _). apply map_length.
  - do 3 (split; [reflexivity|]). intros r c k o Hr Hc Ho. unfold cube_at. cbn [c_data].
    assert (NS : forall i n, (i < n)%nat -> nth_error (seq 0 n) i = Some i).
    { intros i n Hi. rewrite (nth_error_nth' (seq 0 n) 0%nat) by (rewrite seq_length; exact Hi). rewrite seq_nth by exact Hi. reflexivity. }
    erewrite map_nth_error by (apply NS; exact Hr). erewrite map_nth_error by (apply NS; exact Hc). erewrite map_nth_error by exact Ho.
    unfold f. destruct (raster_at (b_rows o) r c) as [v|] eqn:E; [reflexivity|]. exfalso. destruct (H k o Ho) as [H1 H2].
    rewrite Forall_forall in H2. unfold raster_at in E. destruct (nth_error (b_rows o) r) as [row|] eqn:Er; [|apply nth_error_None in Er; lia].
    apply nth_error_None in E. pose proof (H2 row (nth_error_In _ _ Er)). lia.
Qed.

(** An image of eight by eight pixels, all different, one pixel to the metre *)
Definition tiles_demo : overhead :=
  mkOverhead true true 8 8 (fun _ => map (fun r => map (fun c => Fin (INR (10 * r + c))) (seq 0 8)) (seq 0 8)) 1 (fun v => v)
    (fun _ p => (fst (fst p) + 1, snd (fst p) + 1)).
Definition tiles_sample (data : list (list flt)) (loc : R * R) : flt := Fin (fst loc + 10 * snd loc).

(** The geotransforms of parts do not agree with the whole's: the right half of an ortho, pixel by pixel the right half, is
    placed 0.4 m from where the ortho places it. *)
Theorem C113_geo_transform_refuted : exists sample img out geo_t out' geo_t' o o',
  can_ortho img None /\ part_bounds 0 0 4 4 4 4 2 0 2 4 = (2, 0, 4, 4) /\
  create_ortho sample img 4 4 0 0 4 4 None None NonFinite = Ok (out, geo_t) /\ create_ortho sample img 2 4 2 0 4 4 None None NonFinite = Ok (out', geo_t') /\
  nth_error out 0 = Some o /\ nth_error out' 0 = Some o' /\
  raster_at (b_rows o) 0 1 <> raster_at (b_rows o) 0 2 /\ raster_at (b_rows o') 0 0 = raster_at (b_rows o) 0 2 /\
  fst (gdal_point geo_t' 0 0) - fst (gdal_point geo_t 2 0) = 4 / 10.
Proof.
  assert (CO : can_ortho tiles_demo None) by (split; [reflexivity|cbn; lia]).
  assert (PB : part_bounds 0 0 4 4 4 4 2 0 2 4 = (2, 0, 4, 4)). { unfold part_bounds. cbn. f_equal; [f_equal; [f_equal|]|]; field. }
  pose proof (C113_part tiles_sample tiles_demo None NonFinite 4 4 0 0 4 4 None 2 0 2 4 CO ltac:(lra) ltac:(lra) ltac:(lia) ltac:(lia) ltac:(lia) ltac:(lia)) as P.
  rewrite PB in P. destruct P as (out & g & out' & g' & E & E' & LO & V).
  destruct (ortho_exists tiles_sample tiles_demo 4 4 0 0 4 4 None None NonFinite CO) as (q & gq & Q & _ & _ & W); try lia; try lra.
  rewrite E in Q. injection Q as <- <-. destruct (W 0%nat 0%nat eq_refl) as (o & Ho & _ & C).
  destruct (V 0%nat o Ho) as (o' & Ho' & _ & _ & VV).
  exists tiles_sample, tiles_demo, out, g, out', g', o, o'. split; [exact CO|]. split; [exact PB|]. split; [exact E|]. split; [exact E'|]. split; [exact Ho|]. split; [exact Ho'|].
  split.
  - pose proof (C 0%nat 1%nat ltac:(lia) ltac:(lia)) as (v1 & -> & I1 & _). pose proof (C 0%nat 2%nat ltac:(lia) ltac:(lia)) as (v2 & -> & I2 & _).
    rewrite I1, I2 by (unfold in_inner, cell_centre; cbn; lra). cbn [ov_store tiles_demo ov_locate tiles_sample fst snd]. unfold tiles_sample, cell_centre. cbn.
    intros K. injection K as K. lra.
  - split; [apply (VV 0%nat 0%nat); lia|].
    pose proof (C113_geo_transform tiles_sample tiles_demo None NonFinite 4 4 0 0 4 4 None 2 0 2 4 out g out' g' ltac:(lia) ltac:(lia)) as G.
    rewrite PB in G. destruct (G E E' 0%nat 0%nat) as [G1 _]. cbn in G1. cbn. lra.
Qed.
Print Assumptions C113_geo_transform_refuted.

(** The hypotheses of C113_chips are met by that image: its ortho, the array of it, and two chips *)
Example C113_chips_met : exists out geo_t im ch uls,
  create_ortho tiles_sample tiles_demo 4 4 0 0 4 4 None None NonFinite = Ok (out, geo_t) /\ stacked im out 4 4 /\
  chip_images_by_pixel_upper_lefts NonFinite im false [0; 1]%Z [2; 1]%Z 2 2 BandsNone false = Ok (ch, uls) /\ n_chips ch = 2%nat.
Proof.
  assert (CO : can_ortho tiles_demo None) by (split; [reflexivity|cbn; lia]).
  destruct (ortho_exists tiles_sample tiles_demo 4 4 0 0 4 4 None None NonFinite CO) as (out & g & E & L & _ & W); try lia; try lra.
  destruct (stacked_exists out 4 4) as [im ST].
  { intros k o Ho. assert (K : (k < 1)%nat) by (cbn in L; rewrite <- L; apply nth_error_Some; congruence). assert (k = 0%nat) by lia. subst k.
    destruct (W 0%nat 0%nat eq_refl) as (o' & Ho' & RR & _). rewrite Ho in Ho'. injection Ho' as <-. exact RR. }
  destruct (C113_chips tiles_sample tiles_demo None NonFinite 4 4 0 0 4 4 None out g im NonFinite [0; 1]%nat [2; 1]%nat 2 2 CO) as (ch & EC & LC & _); try lra; try lia; try assumption; try reflexivity.
  - intros [|[|[|i]]] y x A B; cbn in A, B; try discriminate; injection A as <-; injection B as <-; lia.
  - exists out, g, im, ch, (combine (map Z.of_nat [0; 1]%nat) (map Z.of_nat [2; 1]%nat)). split; [exact E|]. split; [exact ST|]. split; [exact EC|exact LC].
Qed.
