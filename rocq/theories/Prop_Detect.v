(** Property C110: from an image to a map of detections (chipping, scoring and merging together). *)
From Coq Require Import Sorting.Sorted Permutation Lra Lia ZifyBool.
From Verif Require Import RAux Text Arr M_Image Spec_Image P_Image Prop_Image.
From Verif Require Import M_Scoring Spec_Scoring Spec_Chipper P_Chipper P_Scoring Prop_Scoring.
From Verif Require Import Spec_ChipGrid Prop_ChipGrid Spec_Detect.
Open Scope R_scope.
Open Scope list_scope.

(* --------------------- blocks are determined ---------------------- *)

Lemma nth_ext_eq {A} (l m : list A) : length l = length m -> (forall i, (i < length l)%nat -> nth_error l i = nth_error m i) -> l = m.
Proof.
  revert m. induction l as [|x l IH]; intros [|y m] L H; auto; try discriminate.
  f_equal; [specialize (H O ltac:(cbn; lia)); injection H; auto|]. apply IH; [cbn in L; lia|]. intros i Hi.
  exact (H (S i) ltac:(cbn; lia)).
Qed.

Lemma nth_map_eq {A B} (f : A -> B) l m i a b : map f l = map f m -> nth_error l i = Some a -> nth_error m i = Some b -> f a = f b.
Proof.
  intros E Ha Hb. assert (H : nth_error (map f l) i = nth_error (map f m) i) by congruence.
  rewrite !nth_error_map, Ha, Hb in H. injection H; auto.
Qed.

Lemma block_ext {A} (c d : list (list (list A))) :
  map (map (@length A)) c = map (map (@length A)) d -> (forall r k b, at3 c r k b = at3 d r k b) -> c = d.
Proof.
  intros E H. assert (L : length c = length d) by (rewrite <- (map_length (map (@length A)) c), E; apply map_length).
  apply nth_ext_eq; [exact L|]. intros r Hr.
  destruct (nth_error c r) as [row|] eqn:R1; [|apply nth_error_None in R1; lia].
  destruct (nth_error d r) as [row'|] eqn:R2; [|apply nth_error_None in R2; lia]. f_equal.
  pose proof (nth_map_eq _ _ _ _ _ _ E R1 R2) as E'.
  assert (L' : length row = length row') by (rewrite <- (map_length (@length A) row), E'; apply map_length).
  apply nth_ext_eq; [exact L'|]. intros k Hk.
  destruct (nth_error row k) as [p|] eqn:P1; [|apply nth_error_None in P1; lia].
  destruct (nth_error row' k) as [p'|] eqn:P2; [|apply nth_error_None in P2; lia]. f_equal.
  pose proof (nth_map_eq _ _ _ _ _ _ E' P1 P2) as L2.
  apply nth_ext_eq; [exact L2|]. intros b _.
  specialize (H r k b). unfold at3 in H. rewrite R1, R2, P1, P2 in H. exact H.
Qed.

Lemma shape_lengths {A} ny nx nb (c : list (list (list A))) : block_shape ny nx nb c ->
  map (map (@length A)) c = repeat (repeat nb nx) ny.
Proof.
  intros [<- F]. induction F as [|row c [L P] F IH]; cbn [map length repeat]; [reflexivity|]. f_equal; [|exact IH].
  subst nx. clear - P. induction P as [|p row E P IH]; cbn [map length repeat]; [reflexivity|]. congruence.
Qed.

Lemma greatest_least_exist c : concat (concat c) <> [] -> (exists lo, least c lo) /\ (exists hi, greatest c hi).
Proof.
  intros Ne. split.
  - destruct (rmin (concat (concat c))) as [mn|] eqn:Em.
    2:{ exfalso. destruct (concat (concat c)) as [|a l]; [congruence|]. cbn in Em. destruct (rmin l); discriminate. }
    apply rmin_spec in Em. destruct Em as [M1 M2]. exists mn. split; [apply at3_In; exact M1|].
    intros r k b v Hv. apply M2. apply at3_In. eauto.
  - destruct (rmax (concat (concat c))) as [mn|] eqn:Em.
    2:{ exfalso. destruct (concat (concat c)) as [|a l]; [congruence|]. cbn in Em. destruct (rmax l); discriminate. }
    apply rmax_spec in Em. destruct Em as [M1 M2]. exists mn. split; [apply at3_In; exact M1|].
    intros r k b v Hv. apply M2. apply at3_In. eauto.
Qed.

Lemma normalized_unique method c d d' : concat (concat c) <> [] -> normalized method c d -> normalized method c d' -> d = d'.
Proof.
  intros Ne [S1 N1] [S2 N2]. apply block_ext; [congruence|]. intros r k b. specialize (N1 r k b). specialize (N2 r k b).
  destruct (at3 c r k b) as [v|] eqn:V; [|congruence].
  destruct N1 as (u & -> & A1 & A2 & A3). destruct N2 as (u' & -> & B1 & B2 & B3). f_equal.
  destruct (text_eqb method (txt "divide_by_255")) eqn:E1.
  { apply text_eqb_spec in E1. rewrite (A1 E1), (B1 E1). reflexivity. }
  assert (M1 : method <> txt "divide_by_255") by (intros ->; rewrite text_eqb_refl in E1; discriminate).
  destruct (text_eqb method (txt "min_max_per_chip")) eqn:E2.
  { apply text_eqb_spec in E2.
    destruct (greatest_least_exist c Ne) as [[lo Hlo] [hi Hhi]].
    destruct (A2 E2 lo hi Hlo Hhi) as [A4 A5]. destruct (B2 E2 lo hi Hlo Hhi) as [B4 B5].
    destruct (Rtotal_order lo hi) as [H|[H|H]].
    - rewrite A4, B4; auto.
    - rewrite A5, B5; auto.
    - exfalso. destruct Hlo as [_ L], Hhi as [_ G]. pose proof (L _ _ _ _ V). pose proof (G _ _ _ _ V). lra. }
  assert (M2 : method <> txt "min_max_per_chip") by (intros ->; rewrite text_eqb_refl in E2; discriminate).
  rewrite (A3 M1 M2), (B3 M1 M2). reflexivity.
Qed.

(** The scores of a part depend only on the pixels of that part *)
Lemma part_unique imresize predict a b chip_x chip_y tx ty method y x row row' :
  resizes imresize ty tx -> (0 <= y)%Z -> (0 <= x)%Z -> c_nb a = c_nb b ->
  (forall r c k, (y <= Z.of_nat r < y + chip_y)%Z -> (x <= Z.of_nat c < x + chip_x)%Z ->
     (k < scored_channels (c_nb a))%nat -> cube_at a r c k = cube_at b r c k) ->
  scores_of_part imresize predict a chip_x chip_y tx ty method y x row ->
  scores_of_part imresize predict b chip_x chip_y tx ty method y x row' -> row = row'.
Proof.
  intros HR Hy Hx Eb Hag (chip & rs & inp & [S1 H1] & I1 & N1 & P1) (chip' & rs' & inp' & [S2 H2] & I2 & N2 & P2).
  assert (chip = chip').
  { apply block_ext; [rewrite (shape_lengths _ _ _ _ S1), (shape_lengths _ _ _ _ S2), Eb; reflexivity|].
    intros r c k. rewrite H1, H2, <- Eb.
    destruct (Z.ltb_spec (Z.of_nat r) chip_y); cbn [andb]; [|reflexivity].
    destruct (Z.ltb_spec (Z.of_nat c) chip_x); cbn [andb]; [|reflexivity].
    destruct (Nat.ltb_spec k (scored_channels (c_nb a))); [|reflexivity]. apply Hag; lia. }
  subst chip'. rewrite I1 in I2. injection I2 as <-.
  destruct (HR chip) as (c' & Ec & Ne). rewrite I1 in Ec. injection Ec as <-.
  rewrite (normalized_unique _ _ _ _ Ne N1 N2) in P1. rewrite P1 in P2. injection P2; auto.
Qed.

(* ---------------------------- the map ----------------------------- *)

Lemma scored_corners imresize predict img chip_x chip_y tx ty ox oy method labels thing ledger a uls st :
  cube_wf img -> (1 <= chip_y <= Z.of_nat (c_ny img))%Z -> (1 <= chip_x <= Z.of_nat (c_nx img))%Z ->
  0 <= ox < 1 -> 0 <= oy < 1 ->
  chip_and_score_image imresize predict img false chip_x chip_y tx ty ox oy method labels thing ledger = Ok (a, uls, st) ->
  uls = list_prod (grid_axis (Z.of_nat (c_ny img)) chip_y (chip_y - truncZ (IZR chip_y * oy)))
                  (grid_axis (Z.of_nat (c_nx img)) chip_x (chip_x - truncZ (IZR chip_x * ox))).
Proof.
  intros W Hy Hx Hox Hoy H.
  pose proof (overlap_range chip_x ox ltac:(lia) Hox) as Px. pose proof (overlap_range chip_y oy ltac:(lia) Hoy) as Py_.
  unfold chip_and_score_image in H. cbv zeta in H.
  destruct (C109_grid Z 0%Z (M_Scoring.strip_alpha img) chip_y chip_x (truncZ (IZR chip_y * oy)) (truncZ (IZR chip_x * ox)) BandsNone true
      (strip_wf _ W) I) as (ch & E & _); try (rewrite ?strip_ny, ?strip_nx; lia).
  rewrite strip_ny, strip_nx in E. rewrite E in H. cbn [bind fst snd] in H.
  destruct (score_loop _ _ _ _ _ _ _ _ _) as [sr| |]; cbn [bind] in H; try discriminate.
  destruct (match labels with Some lb => match thing with Some t => _ | None => _ end | None => _ end) as [sc| |] in H;
    cbn [bind] in H; try discriminate.
  injection H as _ <- _. reflexivity.
Qed.

Lemma Rleb_total_order : total_order Rleb.
Proof.
  split; intros.
  - destruct (Rleb_spec a b), (Rleb_spec b a); auto. lra.
  - destruct (Rleb_spec a c); auto. destruct (Rleb_spec a b), (Rleb_spec b c); try discriminate. lra.
  - destruct (Rleb_spec a b), (Rleb_spec b a); try discriminate. lra.
Qed.

(** Chipping an image, scoring the chips for one class and merging the scores: the map has the size of the image,
    and every pixel holds the highest score that the model gives to a part of the image (of the grid of chips) that
    contains the pixel.  There is always such a part. *)
Theorem C110_detection_map :
  forall imresize predict argsort img chip_x chip_y tx ty ox oy method k labels thing j,
  cube_wf img -> (1 <= chip_y <= Z.of_nat (c_ny img))%Z -> (1 <= chip_x <= Z.of_nat (c_nx img))%Z ->
  0 <= ox < 1 -> 0 <= oy < 1 -> resizes imresize ty tx -> classifies predict k -> finite_scores predict -> k <> 1%nat ->
  (chip_y < Z.of_nat (c_ny img) \/ chip_x < Z.of_nat (c_nx img))%Z ->
  first_position labels thing j -> (j < k)%nat -> is_argsort Rleb argsort ->
  exists scores uls status found,
    chip_and_score_image imresize predict img false chip_x chip_y tx ty ox oy method (Some labels) (Some thing) true
      = Ok (vector (map Fin scores), uls, status) /\
    create_detection_image_from_scores 0 argsort scores uls chip_x chip_y = Ok found /\
    b_ny found = c_ny img /\ b_nx found = c_nx img /\
    forall r c, (r < c_ny img)%nat -> (c < c_nx img)%nat ->
      exists v, band_at found r c = Some v /\
                highest_score imresize predict img chip_x chip_y tx ty ox oy method j r c v.
Proof.
  intros imresize predict argsort img chip_x chip_y tx ty ox oy method k labels thing j
    W Hy Hx Hox Hoy HR HP HF Hk Hm HJ Hj HS.
  destruct (C81_class_scores imresize predict img chip_x chip_y tx ty ox oy method k labels thing j W Hy Hx Hox Hoy HR HP Hk Hm HJ Hj)
    as (fl & uls & st & E & L & Cov & _ & Q).
  pose proof (scored_corners _ _ _ _ _ _ _ _ _ _ _ _ _ _ _ _ W Hy Hx Hox Hoy E) as Eu.
  pose proof (overlap_range chip_x ox ltac:(lia) Hox) as Px. pose proof (overlap_range chip_y oy ltac:(lia) Hoy) as Py_.
  assert (Fs : exists scores, fl = map Fin scores).
  { assert (G : forall i s, nth_error fl i = Some s -> exists v, s = Fin v).
    { intros i s Hs. destruct (nth_error uls i) as [[y x]|] eqn:Hu.
      2:{ apply nth_error_None in Hu. assert (i < length fl)%nat by (apply nth_error_Some; congruence). lia. }
      destruct (Q i y x s Hu Hs) as (row & (chip & rs & inp & _ & _ & _ & P1) & Hr).
      destruct (HF _ _ P1) as (vs & ->). rewrite nth_error_map in Hr. destruct (nth_error vs j) as [v|]; [|discriminate].
      injection Hr as <-. eauto. }
    clear - G. induction fl as [|s fl IH]; [exists []; reflexivity|].
    destruct (G O s eq_refl) as (v & ->). destruct IH as (vs & ->); [intros i; exact (G (S i))|].
    exists (v :: vs). reflexivity. }
  destruct Fs as (scores & ->). rewrite map_length in L.
  assert (Bd : forall y x, In (y, x) uls -> (0 <= y <= Z.of_nat (c_ny img) - chip_y)%Z /\ (0 <= x <= Z.of_nat (c_nx img) - chip_x)%Z).
  { intros y x Hu. rewrite Eu in Hu. apply in_prod_iff in Hu. destruct Hu as [Iy Ix].
    apply grid_bounds in Iy; [|lia|lia]. apply grid_bounds in Ix; [|lia|lia]. auto. }
  destruct (Cov (c_ny img - 1)%nat (c_nx img - 1)%nat) as (y1 & x1 & I1 & R1 & C1); [lia|lia|].
  destruct (Bd _ _ I1) as [By Bx].
  destruct (C11_detection_image_is_maximum R Rleb 0 argsort scores uls chip_x chip_y Rleb_total_order HS)
    as (found & my & mx & Ef & Wf & (Im & Mm & Ny) & (Ix & Mx & Nx) & V); try lia.
  { intros ->. destruct I1. }
  { apply Forall_forall. intros [y x] Hu. destruct (Bd _ _ Hu). cbn. lia. }
  assert (Emy : (my = Z.of_nat (c_ny img) - chip_y)%Z).
  { apply in_map_iff in Im. destruct Im as ([y x] & Ey & Hu). destruct (Bd _ _ Hu). cbn in Ey.
    assert (y1 <= my)%Z by (apply Mm; apply in_map_iff; exists (y1, x1); auto). lia. }
  assert (Emx : (mx = Z.of_nat (c_nx img) - chip_x)%Z).
  { apply in_map_iff in Ix. destruct Ix as ([y x] & Ey & Hu). destruct (Bd _ _ Hu). cbn in Ey.
    assert (x1 <= mx)%Z by (apply Mx; apply in_map_iff; exists (y1, x1); auto). lia. }
  assert (N1 : b_ny found = c_ny img) by lia. assert (N2 : b_nx found = c_nx img) by lia.
  exists scores, uls, st, found. split; [exact E|]. split; [exact Ef|]. split; [exact N1|]. split; [exact N2|].
  intros r c Hr Hc. destruct (V r c) as (v & Hv & B); [lia|lia|]. exists v. split; [exact Hv|].
  assert (Gc : forall y x, grid_corner img chip_x chip_y ox oy y x <-> In (y, x) uls).
  { intros y x. rewrite Eu, in_prod_iff. reflexivity. }
  (* the score at a corner *)
  assert (Sc : forall s ul, In (s, ul) (combine scores uls) -> part_score imresize predict img chip_x chip_y tx ty method j (fst ul) (snd ul) s).
  { intros s [y x] Hi. apply In_nth_error in Hi. destruct Hi as (i & Hi). rewrite nth_error_combine in Hi.
    destruct (nth_error scores i) as [s'|] eqn:H1; [|discriminate].
    destruct (nth_error uls i) as [[y' x']|] eqn:H2; [|discriminate]. injection Hi as -> -> -> .
    apply (Q i y x (Fin s)); [exact H2|]. rewrite nth_error_map, H1. reflexivity. }
  destruct B as [[(ul & Hi & Hc') Mv]|[None _]].
  - split.
    + exists (fst ul), (snd ul). split; [|split; [exact Hc'|apply Sc; exact Hi]].
      apply Gc. apply in_combine_r in Hi. destruct ul. exact Hi.
    + intros y x s Hg Hin (row & Hrow & Hs). apply Gc in Hg. destruct (Bd _ _ Hg).
      apply In_nth_error in Hg. destruct Hg as (i & Hi').
      destruct (nth_error scores i) as [s'|] eqn:H1.
      2:{ apply nth_error_None in H1. assert (i < length uls)%nat by (apply nth_error_Some; congruence). lia. }
      assert (Hcomb : In (s', (y, x)) (combine scores uls)).
      { apply (nth_error_In _ i). rewrite nth_error_combine, H1, Hi'. reflexivity. }
      destruct (Sc _ _ Hcomb) as (row' & Hrow' & Hs'). cbn [fst snd] in Hrow'.
      assert (row = row').
      { eapply (part_unique imresize predict img img); try eassumption; try lia; auto. }
      subst row'. rewrite Hs' in Hs. injection Hs as <-.
      specialize (Mv _ _ Hcomb Hin). destruct (Rleb_spec s' v); [assumption|discriminate].
  - exfalso. destruct (Cov r c Hr Hc) as (y & x & Hu & A1 & A2).
    apply In_nth_error in Hu. destruct Hu as (i & Hi').
    destruct (nth_error scores i) as [s'|] eqn:H1.
    2:{ apply nth_error_None in H1. assert (i < length uls)%nat by (apply nth_error_Some; congruence). lia. }
    apply (None s' (y, x)); [|split; assumption].
    apply (nth_error_In _ i). rewrite nth_error_combine, H1, Hi'. reflexivity.
Qed.
Print Assumptions C110_detection_map.

(** The highest score is a single number *)
Theorem C110_unique : forall imresize predict img chip_x chip_y tx ty ox oy method j r c v v',
  highest_score imresize predict img chip_x chip_y tx ty ox oy method j r c v ->
  highest_score imresize predict img chip_x chip_y tx ty ox oy method j r c v' -> v = v'.
Proof.
  intros imresize predict img chip_x chip_y tx ty ox oy method j r c v v' [(y & x & G & I1 & P) M] [(y' & x' & G' & I1' & P') M'].
  apply Rle_antisym; [exact (M' y x v G I1 P)|exact (M y' x' v' G' I1' P')].
Qed.
Print Assumptions C110_unique.

(** Detections are local: changing pixels a chip or more away from a pixel does not change the map there. *)
Theorem C110_local :
  forall imresize predict argsort a b chip_x chip_y tx ty ox oy method k labels thing j r c ca ua sa ma cb ub sb mb,
  cube_wf a -> cube_wf b -> (1 <= chip_y <= Z.of_nat (c_ny a))%Z -> (1 <= chip_x <= Z.of_nat (c_nx a))%Z ->
  0 <= ox < 1 -> 0 <= oy < 1 -> resizes imresize ty tx -> classifies predict k -> finite_scores predict -> k <> 1%nat ->
  (chip_y < Z.of_nat (c_ny a) \/ chip_x < Z.of_nat (c_nx a))%Z ->
  first_position labels thing j -> (j < k)%nat -> is_argsort Rleb argsort ->
  agree_near a b chip_x chip_y r c -> (r < c_ny a)%nat -> (c < c_nx a)%nat ->
  chip_and_score_image imresize predict a false chip_x chip_y tx ty ox oy method (Some labels) (Some thing) true
      = Ok (vector (map Fin ca), ua, sa) ->
  create_detection_image_from_scores 0 argsort ca ua chip_x chip_y = Ok ma ->
  chip_and_score_image imresize predict b false chip_x chip_y tx ty ox oy method (Some labels) (Some thing) true
      = Ok (vector (map Fin cb), ub, sb) ->
  create_detection_image_from_scores 0 argsort cb ub chip_x chip_y = Ok mb ->
  band_at ma r c = band_at mb r c.
Proof.
  intros imresize predict argsort a b chip_x chip_y tx ty ox oy method k labels thing j r c ca ua sa ma cb ub sb mb
    Wa Wb Hy Hx Hox Hoy HR HP HF Hk Hm HJ Hj HS (Ey & Ex & Eb & Hag) Hr Hc Ea Ma Eb' Mb.
  assert (Inj : forall l m, vector (map Fin l) = vector (map Fin m) -> l = m).
  { intros l m H. injection H as H. revert m H. induction l as [|x l IH]; intros [|y m] H; cbn in H; try discriminate; auto.
    injection H as -> H. f_equal. apply IH. exact H. }
  destruct (C110_detection_map imresize predict argsort a chip_x chip_y tx ty ox oy method k labels thing j)
    as (s1 & u1 & t1 & f1 & E1 & F1 & _ & _ & V1); auto.
  destruct (C110_detection_map imresize predict argsort b chip_x chip_y tx ty ox oy method k labels thing j)
    as (s2 & u2 & t2 & f2 & E2 & F2 & _ & _ & V2); auto; try (rewrite <- ?Ey, <- ?Ex; assumption).
  rewrite Ea in E1. injection E1 as E1 <- <-. apply (f_equal Axis) in E1. apply (Inj ca s1) in E1. subst s1.
  rewrite Eb' in E2. injection E2 as E2 <- <-. apply (f_equal Axis) in E2. apply (Inj cb s2) in E2. subst s2.
  rewrite Ma in F1. injection F1 as <-. rewrite Mb in F2. injection F2 as <-.
  destruct (V1 r c Hr Hc) as (v & -> & H1). destruct (V2 r c) as (v' & -> & H2); [lia|lia|]. f_equal.
  pose proof (overlap_range chip_x ox ltac:(lia) Hox) as Px. pose proof (overlap_range chip_y oy ltac:(lia) Hoy) as Py_.
  assert (GC : forall y x, grid_corner a chip_x chip_y ox oy y x <-> grid_corner b chip_x chip_y ox oy y x).
  { intros y x. unfold grid_corner. rewrite Ey, Ex. reflexivity. }
  (* every grid part has a score on both sides, and they are the same *)
  assert (T : forall i1 i2 va vb, c_ny i1 = c_ny i2 -> c_nx i1 = c_nx i2 -> c_nb i1 = c_nb i2 -> cube_wf i1 -> cube_wf i2 ->
     (1 <= chip_y <= Z.of_nat (c_ny i1))%Z -> (1 <= chip_x <= Z.of_nat (c_nx i1))%Z ->
     (chip_y < Z.of_nat (c_ny i1) \/ chip_x < Z.of_nat (c_nx i1))%Z ->
     (forall r' c' k, (Z.abs (Z.of_nat r' - Z.of_nat r) < chip_y)%Z -> (Z.abs (Z.of_nat c' - Z.of_nat c) < chip_x)%Z ->
        (k < scored_channels (c_nb i1))%nat -> cube_at i1 r' c' k = cube_at i2 r' c' k) ->
     highest_score imresize predict i1 chip_x chip_y tx ty ox oy method j r c va ->
     highest_score imresize predict i2 chip_x chip_y tx ty ox oy method j r c vb -> va <= vb).
  { clear - HR HP HF Hk HJ Hj Hox Hoy Px Py_. intros i1 i2 va vb N1 N2 N3 W1 W2 Hy Hx Hm Ag [(y & x & G & In1 & (row & Pr & Hrow)) _] [_ M2].
    apply (M2 y x va).
    - unfold grid_corner in *. rewrite <- N1, <- N2. exact G.
    - exact In1.
    - (* the part of the second image has a score *)
      destruct (C81_class_scores imresize predict i2 chip_x chip_y tx ty ox oy method k labels thing j)
        as (fl & uls & st & E & L & Cov & _ & Q); auto; try (rewrite <- ?N1, <- ?N2; assumption).
      assert (Hy2 : (1 <= chip_y <= Z.of_nat (c_ny i2))%Z) by (rewrite <- N1; exact Hy).
      assert (Hx2 : (1 <= chip_x <= Z.of_nat (c_nx i2))%Z) by (rewrite <- N2; exact Hx).
      pose proof (scored_corners _ _ _ _ _ _ _ _ _ _ _ _ _ _ _ _ W2 Hy2 Hx2 Hox Hoy E) as Eu.
      assert (Hu : In (y, x) uls).
      { rewrite Eu. apply in_prod_iff. unfold grid_corner in G. rewrite <- N1, <- N2. exact G. }
      assert (Bd : (0 <= y)%Z /\ (0 <= x)%Z).
      { destruct G as [G1 G2]. apply grid_bounds in G1; [|lia|lia]. apply grid_bounds in G2; [|lia|lia]. lia. }
      apply In_nth_error in Hu. destruct Hu as (i & Hu).
      destruct (nth_error fl i) as [s|] eqn:Hs.
      2:{ apply nth_error_None in Hs. assert (i < length uls)%nat by (apply nth_error_Some; congruence). lia. }
      destruct (Q i y x s Hu Hs) as (row' & Pr' & _).
      exists row. split; [|exact Hrow].
      replace row with row'; [exact Pr'|]. symmetry.
      eapply (part_unique imresize predict i1 i2); try eassumption; try lia.
      intros r' c' k' A1 A2 A3. destruct In1 as [B1 B2]. apply Ag; [lia|lia|exact A3]. }
  apply Rle_antisym.
  - apply (T a b); auto.
  - apply (T b a); auto; try (rewrite <- ?Ey, <- ?Ex; assumption).
    intros r' c' k' A1 A2 A3. symmetry. apply Hag; [assumption|assumption|rewrite Eb; exact A3].
Qed.
Print Assumptions C110_local.

(* ----------------- the hypotheses can be met ---------------------- *)

(** An insertion sort meets the argsort contract on real numbers *)
Fixpoint rins (key : nat -> R) (i : nat) (l : list nat) : list nat :=
  match l with [] => [i] | j :: r => if Rleb (key i) (key j) then i :: l else j :: rins key i r end.
Definition rargsort (l : list R) : list nat :=
  fold_right (rins (fun i => nth i l 0)) [] (seq 0 (length l)).
Lemma rins_perm key i l : Permutation.Permutation (rins key i l) (i :: l).
Proof.
  induction l as [|j l IH]; simpl; auto. destruct (Rleb (key i) (key j)); auto.
  rewrite IH. apply Permutation.perm_swap.
Qed.
Lemma rins_sorted key i l :
  StronglySorted (fun a b => key a <= key b) l -> StronglySorted (fun a b => key a <= key b) (rins key i l).
Proof.
  induction 1 as [|j l S IH F]; simpl; [repeat constructor|].
  destruct (Rleb_spec (key i) (key j)) as [E|E].
  - constructor; [constructor; auto|]. constructor; [exact E|].
    eapply Forall_impl; [|exact F]. simpl. intros a Ha. lra.
  - constructor; [exact IH|].
    apply Forall_forall. intros a Ha. apply (Permutation.Permutation_in _ (rins_perm key i l)) in Ha.
    rewrite Forall_forall in F. destruct Ha as [<-|Ha]; [lra|apply F; exact Ha].
Qed.
Example C110_argsort_exists : is_argsort Rleb rargsort.
Proof.
  intros l. unfold rargsort. generalize (length l) as n. intros n. split.
  - induction (seq 0 n) as [|i s IH]; simpl; auto. rewrite rins_perm. constructor. exact IH.
  - assert (S : StronglySorted (fun a b => nth a l 0 <= nth b l 0) (fold_right (rins (fun i => nth i l 0)) [] (seq 0 n))).
    { induction (seq 0 n) as [|i s IH]; simpl; [constructor|]. apply (rins_sorted (fun i => nth i l 0)). exact IH. }
    revert S. generalize (fold_right (rins (fun i => nth i l 0)) [] (seq 0 n)). intros o S.
    induction S as [|i o S IH F]; constructor; auto. eapply Forall_impl; [|exact F]. simpl.
    intros j Hj a b Ha Hb. rewrite (nth_error_nth _ _ 0 Ha), (nth_error_nth _ _ 0 Hb) in Hj.
    destruct (Rleb_spec a b); [reflexivity|lra].
Qed.

(** A model that scores a chip by its first value *)
Definition predict_first (l : list (list (list (list flt)))) : result (list (list flt)) :=
  Ok (map (fun c => [match at3 c 0 0 0 with Some (Fin v) => Fin v | _ => Fin 0 end; Fin 1]) l).
Example C110_contracts : resizes resize1 1 1 /\ classifies predict_first 2 /\ finite_scores predict_first.
Proof.
  split; [apply C81_contracts|]. split.
  - intros c. eexists. split; reflexivity.
  - intros c row H. injection H as <-. destruct (at3 c 0 0 0) as [[v|]|].
    + exists [v; 1]. reflexivity.
    + exists [0; 1]. reflexivity.
    + exists [0; 1]. reflexivity.
Qed.

(** Two rows of one RGBA pixel, chips of one pixel: both pixels get the score of their own chip *)
Example C110_ex : exists v0 v1 found,
  highest_score resize1 predict_first img24 1 1 1 1 0 0 (txt "divide_by_255") 0 0 0 v0 /\
  highest_score resize1 predict_first img24 1 1 1 1 0 0 (txt "divide_by_255") 0 1 0 v1 /\
  band_at found 0 0 = Some v0 /\ band_at found 1 0 = Some v1 /\ b_ny found = 2%nat /\ b_nx found = 1%nat.
Proof.
  assert (W : cube_wf img24) by (split; [reflexivity|]; repeat constructor).
  destruct C110_contracts as (H1 & H2 & H3).
  destruct (C110_detection_map resize1 predict_first rargsort img24 1 1 1 1 0 0 (txt "divide_by_255") 2
    [txt "car"; txt "tree"] (txt "car") 0 W) as (s & u & t & f & _ & _ & N1 & N2 & V); try assumption; try lra; try lia.
  - cbn. lia.
  - cbn. lia.
  - cbn. lia.
  - split; [reflexivity|]. intros i Hi. lia.
  - exact C110_argsort_exists.
  - destruct (V 0%nat 0%nat) as (v0 & A0 & B0); [cbn; lia|cbn; lia|].
    destruct (V 1%nat 0%nat) as (v1 & A1 & B1); [cbn; lia|cbn; lia|].
    exists v0, v1, f. auto 10.
Qed.
