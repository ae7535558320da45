(** Properties C07-C10: image chipping. *)
From Verif Require Import M_Chipper Spec_Chipper P_Chipper.
From Coq Require Import Sorted ZifyBool.
Open Scope Z_scope.
Open Scope list_scope.

(* ---------------- C07: chips cover the image ---------------------- *)

(** Every pixel of the image is in some chip, with its own value, whatever the
    remainder of the sizes; the corners are in bounds (exact_chips), distinct and
    in row-major order. *)
Theorem C07_chips_cover_image : forall A (zero : A) (img : cube A) h w oy ox bands keep,
  cube_wf img -> bands_ok (c_nb img) bands ->
  0 <= oy < h -> h <= Z.of_nat (c_ny img) -> 0 <= ox < w -> w <= Z.of_nat (c_nx img) ->
  exists ch uls,
    chip_entire_image_to_memory zero img h w oy ox bands keep = Ok (ch, uls)
    /\ n_chips ch = length uls
    /\ StronglySorted row_major_lt uls
    /\ exact_chips img (selected_bands (c_nb img) bands) h w uls ch
    /\ forall r c, (r < c_ny img)%nat -> (c < c_nx img)%nat ->
       exists i y x, nth_error uls i = Some (y, x) /\
         y <= Z.of_nat r < y + h /\ x <= Z.of_nat c < x + w /\
         forall k b, nth_error (selected_bands (c_nb img) bands) k = Some b ->
           chips_at ch i (r - Z.to_nat y) (c - Z.to_nat x) k = cube_at img r c b.
Proof. intros A zero img h w oy ox bands keep. exact (chip_entire_covers zero img h w oy ox bands keep). Qed.
Print Assumptions C07_chips_cover_image.

(** The corners are the full grid of row and column positions; along each axis the
    positions start at 0, end flush with the border, and each position but the
    last is followed by one that overlaps it by at least the requested amount. *)
Theorem C07_overlap_at_least_requested : forall A (zero : A) (img : cube A) h w oy ox bands keep,
  cube_wf img -> bands_ok (c_nb img) bands ->
  0 <= oy < h -> h <= Z.of_nat (c_ny img) -> 0 <= ox < w -> w <= Z.of_nat (c_nx img) ->
  exists ch ys xs,
    chip_entire_image_to_memory zero img h w oy ox bands keep = Ok (ch, list_prod ys xs)
    /\ (In 0 ys /\ In (Z.of_nat (c_ny img) - h) ys /\
        forall y, In y ys -> y < Z.of_nat (c_ny img) - h ->
          exists y', In y' ys /\ y < y' /\ y' + oy <= y + h)
    /\ (In 0 xs /\ In (Z.of_nat (c_nx img) - w) xs /\
        forall x, In x xs -> x < Z.of_nat (c_nx img) - w ->
          exists x', In x' xs /\ x < x' /\ x' + ox <= x + w).
Proof.
  intros A zero img h w oy ox bands keep H1 H2 H3 H4 H5 H6.
  destruct (chip_entire zero img h w oy ox bands keep H1 H2 H3 H4 H5 H6) as (ch & ys & xs & E & Gy & Gx & _).
  exists ch, ys, xs. split; [exact E|]. destruct Gy, Gx. auto 10.
Qed.
Print Assumptions C07_overlap_at_least_requested.

(** Overlaps outside the range of the properties above: an overlap equal to the chip size on an axis is a
    ZeroDivisionError; a larger overlap on one axis (and none equal) gives no chip at all, without an error,
    so the image is not covered. *)
Theorem C07_overlap_too_large : forall A (zero : A) (img : cube A) h w oy ox bands keep,
  (oy = h \/ ox = w -> chip_entire_image_to_memory zero img h w oy ox bands keep = Err ZeroDivisionError) /\
  (oy <> h -> ox <> w -> h < oy \/ w < ox -> 0 <= h -> 0 <= w ->
     exists ch, chip_entire_image_to_memory zero img h w oy ox bands keep = Ok (ch, []) /\ n_chips ch = 0%nat).
Proof.
  intros A zero img h w oy ox bands keep.
  assert (NZ : forall n c o, c <> o -> exists l, axis_indices n c o = Ok l /\ (c < o -> l = [])).
  { intros n c o H. unfold axis_indices, arange0. replace (c - o =? 0) with false by lia.
    destruct (c - o <? 0) eqn:E; cbn [bind]; eexists; (split; [reflexivity|]); intros; [reflexivity|lia]. }
  assert (ZD : forall n c, axis_indices n c c = Err ZeroDivisionError).
  { intros n c. unfold axis_indices, arange0. replace (c - c =? 0) with true by lia. reflexivity. }
  unfold chip_entire_image_to_memory. split.
  - intros H. destruct (Z.eq_dec oy h) as [-> |Ny]; [rewrite ZD; reflexivity|].
    destruct H as [H| -> ]; [contradiction|].
    destruct (NZ (Z.of_nat (c_ny img)) h oy) as (l & -> & _); [congruence|]. cbn [bind]. rewrite ZD. reflexivity.
  - intros Hy Hx H H0 H1.
    destruct (NZ (Z.of_nat (c_ny img)) h oy) as (ly & -> & Ey); [congruence|]. cbn [bind].
    destruct (NZ (Z.of_nat (c_nx img)) w ox) as (lx & -> & Ex); [congruence|]. cbn [bind].
    assert (P : list_prod ly lx = []).
    { destruct H as [H|H]; [rewrite (Ey H); reflexivity|rewrite (Ex H); clear]. induction ly as [|y ly IH]; [reflexivity|exact IH]. }
    rewrite P. cbn [map]. unfold chip_images_by_pixel_upper_lefts.
    replace ((h <? 0) || (w <? 0)) with false by lia.
    assert (C : forall n c, clamp_axis keep n c [] = []) by (intros; unfold clamp_axis; destruct keep; reflexivity).
    rewrite !C. cbn [combine mapM bind length repeat app map Nat.sub orb].
    destruct (Nat.eqb _ _); eexists; split; reflexivity.
Qed.
Print Assumptions C07_overlap_too_large.

Definition img57 : cube Z :=
  mkCube 5 7 1 (map (fun r => map (fun c => [r * 10 + c]) (zrange 0 7)) (zrange 0 5)).
Example C07_ex_wf : cube_wf img57.
Proof. split; [reflexivity|]. repeat constructor. Qed.
Example C07_ex : rmap snd (chip_entire_image_to_memory 0 img57 3 4 1 1 BandsNone true)
  = Ok [(0, 0); (0, 3); (2, 0); (2, 3)].
Proof. reflexivity. Qed.

(* ---------------- C08: exact sub-images --------------------------- *)

(** One chip per requested corner; the reported corner is the requested one
    clamped into the image; the chip is the image there, in the selected bands. *)
Theorem C08_chips_exact : forall A (zero : A) (img : cube A) gray ys xs h w bands,
  cube_wf img -> bands_ok (c_nb img) bands ->
  0 <= h <= Z.of_nat (c_ny img) -> 0 <= w <= Z.of_nat (c_nx img) ->
  length ys = length xs ->
  (gray = true -> length (selected_bands (c_nb img) bands) = 1%nat) ->
  exists ch uls,
    chip_images_by_pixel_upper_lefts zero img gray ys xs h w bands true = Ok (ch, uls)
    /\ uls = combine (map (clamped (Z.of_nat (c_ny img)) h) ys) (map (clamped (Z.of_nat (c_nx img)) w) xs)
    /\ n_chips ch = length ys
    /\ exact_chips img (selected_bands (c_nb img) bands) h w uls ch.
Proof. intros A zero img gray ys xs h w bands. exact (chips_keep_exact zero img gray ys xs h w bands). Qed.
Print Assumptions C08_chips_exact.

(** Whatever is asked, an array that is returned has one chip per row index, all of exactly the requested size, and a
    channel axis exactly when the number of bands is not one; one corner is reported per pair of indices, and the
    chips without a corner (a row index without a column index) hold only the fill value. *)
Theorem C08_shapes : forall A (zero : A) (img : cube A) gray ys xs h w bands keep ch uls,
  chip_images_by_pixel_upper_lefts zero img gray ys xs h w bands keep = Ok (ch, uls) ->
  0 <= h /\ 0 <= w /\ length uls = Nat.min (length ys) (length xs) /\
  chip_array_shape (length ys) (Z.to_nat h) (Z.to_nat w) (length (selected_bands (c_nb img) bands)) ch /\
  forall i r c k v, (length uls <= i)%nat -> chips_at ch i r c k = Some v -> v = zero.
Proof. intros A zero img gray ys xs h w bands keep ch uls. exact (chips_array zero img gray ys xs h w bands keep ch uls). Qed.
Print Assumptions C08_shapes.

(** A corner whose chip already lies inside is not moved *)
Theorem C08_inside_unchanged : forall n chip v, 0 <= v -> v + chip <= n -> clamped n chip v = v.
Proof. intros n chip v H1 H2. unfold clamped. lia. Qed.
Print Assumptions C08_inside_unchanged.

(** Without clamping, in-image corners give the same exact chips *)
Theorem C08_unclamped_inside : forall A (zero : A) (img : cube A) gray ys xs h w bands,
  cube_wf img -> bands_ok (c_nb img) bands -> 0 <= h -> 0 <= w ->
  length ys = length xs ->
  (gray = true -> length (selected_bands (c_nb img) bands) = 1%nat) ->
  Forall (fun yx => 0 <= fst yx /\ fst yx + h <= Z.of_nat (c_ny img) /\
                    0 <= snd yx /\ snd yx + w <= Z.of_nat (c_nx img)) (combine ys xs) ->
  exists ch,
    chip_images_by_pixel_upper_lefts zero img gray ys xs h w bands false = Ok (ch, combine ys xs)
    /\ n_chips ch = length ys
    /\ exact_chips img (selected_bands (c_nb img) bands) h w (combine ys xs) ch.
Proof.
  intros A zero img gray ys xs h w bands H1 H2 H3 H4 H5 H6 H7.
  exact (chips_ok zero img gray ys xs h w bands false H1 H2 H3 H4 H5 H6 H7).
Qed.
Print Assumptions C08_unclamped_inside.

(** A chip taller than an image that has not exactly one row is refused *)
Theorem C08_too_tall_rejected : forall A (zero : A) (img : cube A) gray ys xs h w bands,
  cube_wf img -> bands_ok (c_nb img) bands ->
  Z.of_nat (c_ny img) < h -> (c_ny img <> 1)%nat -> 0 <= w <= Z.of_nat (c_nx img) ->
  ys <> [] -> length ys = length xs ->
  chip_images_by_pixel_upper_lefts zero img gray ys xs h w bands true = Err ValueError.
Proof. intros A zero img gray ys xs h w bands. exact (chips_too_tall zero img gray ys xs h w bands). Qed.
Print Assumptions C08_too_tall_rejected.

(** Refused requests: a negative chip size, and a two-axis image asked for a number of bands other than one
    (with corners whose chips lie inside). *)
Theorem C08_refused : forall A (zero : A) (img : cube A) gray ys xs h w bands keep,
  (h < 0 \/ w < 0 ->
     chip_images_by_pixel_upper_lefts zero img gray ys xs h w bands keep = Err ValueError) /\
  (cube_wf img -> bands_ok (c_nb img) bands -> 0 <= h <= Z.of_nat (c_ny img) -> 0 <= w <= Z.of_nat (c_nx img) ->
     length (selected_bands (c_nb img) bands) <> 1%nat ->
     chip_images_by_pixel_upper_lefts zero img true ys xs h w bands true = Err ValueError).
Proof.
  intros A zero img gray ys xs h w bands keep. split.
  - intros H. unfold chip_images_by_pixel_upper_lefts. replace ((h <? 0) || (w <? 0)) with true by lia. reflexivity.
  - intros HW HB Hh Hw Hl.
    assert (Lb : length (band_list (c_nb img) bands) <> 1%nat).
    { intros E. apply Hl. rewrite <- E, <- band_list_selected, map_length. reflexivity. }
    unfold chip_images_by_pixel_upper_lefts. replace ((h <? 0) || (w <? 0)) with false by lia.
    match goal with |- context [mapM ?f ?l] => assert (M : exists o, mapM f l = Ok o) end.
    { pose proof (bands_ok_list _ _ HB) as HBL. eexists. apply mapM_ok. intros [y x] Hyx.
      rewrite !clamp_axis_spec in Hyx by assumption. rewrite combine_map in Hyx. apply in_map_iff in Hyx.
      destruct Hyx as ([y0 x0] & E & _). cbn [fst snd] in *. injection E as <- <-.
      instantiate (1 := fun yx => map (fun row => map (sel_px zero (c_nb img) (band_list (c_nb img) bands)) (py_slice row (snd yx) (snd yx + w)))
                        (py_slice (c_data img) (fst yx) (fst yx + h))). cbn [fst snd].
      apply cut_chip_ok; auto; unfold clamped; lia. }
    destruct M as (o & ->). cbn [bind orb]. destruct (Nat.eqb_spec (length (band_list (c_nb img) bands)) 1); [contradiction|reflexivity].
Qed.
Print Assumptions C08_refused.

(** The one-row exception: the row is silently repeated (numpy broadcasting) *)
Theorem C08_one_row_image_replicated_refuted :
  exists (img : cube Z) ch,
    cube_wf img /\ c_ny img = 1%nat /\
    chip_images_by_pixel_upper_lefts 0 img false [0] [0] 3 2 BandsNone true = Ok (Chips4 [ch], [(0, 0)]) /\
    ch = [[[1; 2]; [3; 4]]; [[1; 2]; [3; 4]]; [[1; 2]; [3; 4]]].
Proof.
  exists (mkCube 1 2 2 [[[1; 2]; [3; 4]]]). eexists. split; [split; [reflexivity|repeat constructor]|].
  split; [reflexivity|]. split; reflexivity.
Qed.
Print Assumptions C08_one_row_image_replicated_refuted.

Example C08_ex : chip_images_by_pixel_upper_lefts 0 img57 false [-4; 4] [2; 100] 2 2 BandsNone true
  = Ok (Chips3 [[[2; 3]; [12; 13]]; [[35; 36]; [45; 46]]], [(0, 2); (3, 5)]).
Proof. reflexivity. Qed.

(* ---------------- C09: chips by centers --------------------------- *)

(** The corner is center - chip/2 moved toward zero by less than one pixel *)
Theorem C09_corner_within_one : forall chip c,
  (chip <= 2 * c -> 2 * center_to_ul chip c <= 2 * c - chip < 2 * center_to_ul chip c + 2) /\
  (2 * c <= chip -> 2 * center_to_ul chip c - 2 < 2 * c - chip <= 2 * center_to_ul chip c).
Proof. exact center_toward_zero. Qed.
Print Assumptions C09_corner_within_one.

(** Even chips that fit around their centers: pixel (h/2, w/2) of chip i is the
    requested pixel *)
Theorem C09_even_chip_centered : forall A (zero : A) (img : cube A) gray yc xc h w bands,
  cube_wf img -> bands_ok (c_nb img) bands ->
  0 < h <= Z.of_nat (c_ny img) -> 0 < w <= Z.of_nat (c_nx img) ->
  (exists m, h = 2 * m) -> (exists m, w = 2 * m) ->
  length yc = length xc ->
  (gray = true -> length (selected_bands (c_nb img) bands) = 1%nat) ->
  Forall (fun c => h / 2 <= c <= Z.of_nat (c_ny img) - h / 2) yc ->
  Forall (fun c => w / 2 <= c <= Z.of_nat (c_nx img) - w / 2) xc ->
  exists ch uls,
    chip_images_by_pixel_centers zero img gray yc xc h w bands true = Ok (ch, uls)
    /\ n_chips ch = length yc
    /\ exact_chips img (selected_bands (c_nb img) bands) h w uls ch
    /\ forall i y x, nth_error yc i = Some y -> nth_error xc i = Some x ->
         nth_error uls i = Some (y - h / 2, x - w / 2) /\
         forall k b, nth_error (selected_bands (c_nb img) bands) k = Some b ->
           chips_at ch i (Z.to_nat (h / 2)) (Z.to_nat (w / 2)) k = cube_at img (Z.to_nat y) (Z.to_nat x) b.
Proof.
  intros A zero img gray yc xc h w bands W HB Hh Hw Eh Ew Hlen Hg Fy Fx.
  unfold chip_images_by_pixel_centers.
  destruct (chips_keep_exact zero img gray (map (center_to_ul h) yc) (map (center_to_ul w) xc) h w bands)
    as (ch & uls & E & Eu & Hn & Hx); auto; try lia.
  { rewrite !map_length; exact Hlen. }
  exists ch, uls. split; [exact E|]. split; [rewrite Hn, map_length; reflexivity|]. split; [exact Hx|].
  intros i y x Hy Hxi.
  pose proof (center_even h y Eh) as Cy. pose proof (center_even w x Ew) as Cx.
  rewrite Forall_forall in Fy, Fx.
  pose proof (Fy y (nth_error_In _ _ Hy)) as By. pose proof (Fx x (nth_error_In _ _ Hxi)) as Bx. cbv beta in By, Bx.
  assert (Hh2 : h = 2 * (h / 2)) by (destruct Eh as [m ->]; rewrite (Z.mul_comm 2 m), Z.div_mul by lia; lia).
  assert (Hw2 : w = 2 * (w / 2)) by (destruct Ew as [m ->]; rewrite (Z.mul_comm 2 m), Z.div_mul by lia; lia).
  assert (Eul : nth_error uls i = Some (y - h / 2, x - w / 2)).
  { rewrite Eu, nth_error_combine, !nth_error_map, Hy, Hxi. cbn [option_map].
    f_equal. f_equal; unfold clamped; lia. }
  split; [exact Eul|]. intros k b Hk.
  destruct (Hx i _ _ Eul) as (B1 & B2 & B3 & B4 & Hat). rewrite Hat.
  replace ((Z.of_nat (Z.to_nat (h / 2)) <? h) && (Z.of_nat (Z.to_nat (w / 2)) <? w)) with true by lia.
  rewrite Hk. f_equal; lia.
Qed.
Print Assumptions C09_even_chip_centered.

(** Odd chips away from the origin are one pixel up and left of centered: the
    central pixel chip/2 is the pixel before the requested one *)
Theorem C09_odd_chip_position : forall chip c,
  (exists m, chip = 2 * m + 1) ->
  (chip <= 2 * c -> center_to_ul chip c + chip / 2 = c - 1) /\
  (2 * c < chip -> center_to_ul chip c + chip / 2 = c).
Proof. exact center_odd. Qed.
Print Assumptions C09_odd_chip_position.

(** So a 3x3 chip asked for around (2,2) is not centered there *)
Theorem C09_odd_chip_not_centered_refuted :
  chip_images_by_pixel_centers 0 img57 false [2] [2] 3 3 BandsNone true
  = Ok (Chips3 [[[0; 1; 2]; [10; 11; 12]; [20; 21; 22]]], [(0, 0)]).
Proof. reflexivity. Qed.
Print Assumptions C09_odd_chip_not_centered_refuted.

Example C09_ex : chip_images_by_pixel_centers 0 img57 false [2; 3] [2; 4] 2 2 BandsNone true
  = Ok (Chips3 [[[11; 12]; [21; 22]]; [[23; 24]; [33; 34]]], [(1, 1); (2, 3)]).
Proof. reflexivity. Qed.

(* ---------------- C10: chip files --------------------------------- *)

(** With generated names every chip is written, in order, each to its own path
    (also beyond 10^8 chips, where zfill no longer pads) *)
Theorem C10_chip_files_distinct : forall A dir base fmt remove_alpha nb (l : list (list (list (list A)))),
  exists files,
    write_chips_to_disk dir base fmt None remove_alpha nb (Chips4 l) = (files, Ok tt) /\
    NoDup (map fst files) /\ map snd files = map (drop_alpha remove_alpha nb) l.
Proof. intros A dir base fmt ra nb l. exact (write_names_distinct dir base fmt ra nb l). Qed.
Print Assumptions C10_chip_files_distinct.

(** The path of chip i: the directory, the base name, an underscore, the decimal index padded with zeros to
    at least eight digits, and the format without its dots. *)
Theorem C10_chip_file_paths : forall A dir base fmt remove_alpha nb (l : list (list (list (list A)))) files res i p chip,
  write_chips_to_disk dir base fmt None remove_alpha nb (Chips4 l) = (files, res) ->
  nth_error files i = Some (p, chip) ->
  (forall b, base <> "/"%char :: b) ->
  exists sep zeros,
    p = dir ++ sep ++ base ++ txt "_" ++ zeros ++ str_of_Z (Z.of_nat i) ++ txt "." ++ filter (fun c => negb (Ascii.eqb c "."%char)) fmt /\
    Forall (eq "0"%char) zeros /\
    (length zeros + length (str_of_Z (Z.of_nat i)) = Nat.max 8 (length (str_of_Z (Z.of_nat i))))%nat /\
    (sep = [] <-> dir = [] \/ exists d, dir = d ++ txt "/") /\ (sep = [] \/ sep = txt "/").
Proof.
  intros A dir base fmt ra nb l files res i p chip E Hn Hb. unfold write_chips_to_disk in E.
  destruct (write_chip_list_ok dir base fmt ra nb 0 l) as (ps & E' & Hl & Hp). rewrite E' in E. injection E as <- <-.
  rewrite nth_error_combine in Hn. destruct (nth_error ps i) as [q|] eqn:Q; [|discriminate].
  assert (Hi : (i < length l)%nat) by (rewrite <- Hl; apply nth_error_Some; congruence).
  destruct (Hp i Hi) as (q' & Q' & HC). rewrite Q in Q'. injection Q' as <-.
  destruct (nth_error (map _ l) i) as [c'|]; [|discriminate]. injection Hn as -> _.
  unfold chip_path in HC. cbn [bind Nat.add] in HC. injection HC as <-. unfold zfill.
  set (digits := str_of_Z (Z.of_nat i)). set (zeros := repeat "0"%char (8 - length digits)).
  rewrite replace_single_del. set (suffix := filter _ fmt).
  set (name := (base ++ txt "_" ++ zeros ++ digits) ++ txt "." ++ suffix).
  assert (HJ : exists sep, path_join dir name = dir ++ sep ++ name /\ (sep = [] <-> dir = [] \/ exists d, dir = d ++ txt "/") /\ (sep = [] \/ sep = txt "/")).
  { assert (HN : exists c r, name = c :: r /\ c <> "/"%char).
    { unfold name. destruct base as [|c base].
      - eexists _, _. split; [reflexivity|discriminate].
      - eexists c, _. split; [reflexivity|]. intros ->. apply (Hb base). reflexivity. }
    destruct HN as (c & r & HN & HC). rewrite HN. unfold path_join.
    destruct (Ascii.eqb_spec c "/"%char); [contradiction|].
    destruct (rev dir) as [|d rd] eqn:R.
    - assert (D : dir = []) by (rewrite <- (rev_involutive dir), R; reflexivity). subst dir.
      exists []. split; [reflexivity|]. split; [split; auto|auto].
    - assert (D : dir = rev rd ++ [d]) by (rewrite <- (rev_involutive dir), R; reflexivity).
      destruct (Ascii.eqb_spec d "/"%char) as [-> |N].
      + exists []. split; [reflexivity|]. split; [split; [intros _; right; exists (rev rd); exact D|auto]|auto].
      + exists (txt "/"). split; [reflexivity|]. split; [|auto]. split; [discriminate|].
        intros [-> |(d' & ->)]; [discriminate|]. exfalso. apply N. apply app_inj_tail in D. destruct D as [_ D]. symmetry. exact D. }
  destruct HJ as (sep & HJ & S1 & S2). exists sep, zeros.
  split; [transitivity (dir ++ sep ++ name); [exact HJ|unfold name; rewrite <- !app_assoc; reflexivity]|]. split.
  { apply Forall_forall. intros x Hx. apply repeat_spec in Hx. congruence. }
  split; [unfold zeros; rewrite repeat_length; lia|]. auto.
Qed.
Print Assumptions C10_chip_file_paths.

(** Only the alpha channel of four-channel chips is dropped *)
Theorem C10_pixels_kept : forall A nb (chip : list (list (list A))),
  (nb <> 4%nat -> drop_alpha true nb chip = chip) /\ drop_alpha false nb chip = chip /\
  drop_alpha true 4 chip = map (map (firstn 3)) chip.
Proof.
  intros A nb chip. unfold drop_alpha. split; [|split; reflexivity].
  intros H. replace (Nat.eqb nb 4) with false by (symmetry; apply Nat.eqb_neq; exact H). reflexivity.
Qed.
Print Assumptions C10_pixels_kept.

(** With names given by the caller, chip i is written under the i-th name; when there are fewer names than
    chips the chips with a name are written and then the call fails with IndexError. *)
Theorem C10_given_names_used : forall A dir base fmt names remove_alpha nb (l : list (list (list (list A)))),
  write_chips_to_disk dir base fmt (Some names) remove_alpha nb (Chips4 l) =
  (combine (map (fun n => path_join dir (n ++ txt "." ++ filter (fun c => negb (Ascii.eqb c "."%char)) fmt)) names)
     (map (drop_alpha remove_alpha nb) l),
   if Nat.leb (length l) (length names) then Ok tt else Err IndexError).
Proof.
  intros A dir base fmt names ra nb l. unfold write_chips_to_disk.
  assert (G : forall (l : list (list (list (list A)))) rest pre, names = pre ++ rest ->
    write_chip_list dir base fmt (Some names) ra nb (length pre) l =
    (combine (map (fun n => path_join dir (n ++ txt "." ++ filter (fun c => negb (Ascii.eqb c "."%char)) fmt)) rest)
     (map (drop_alpha ra nb) l), if Nat.leb (length l) (length rest) then Ok tt else Err IndexError)).
  { clear l. induction l as [|c l IH]; intros rest pre E.
    - cbn [write_chip_list map length]. destruct rest; reflexivity.
    - cbn [write_chip_list]. unfold chip_path. rewrite replace_single_del.
      destruct rest as [|n rest].
      + assert (G : py_get names (Z.of_nat (length pre)) = Err IndexError).
        { rewrite E, app_nil_r. apply py_get_out. unfold zlen. lia. }
        rewrite G. reflexivity.
      + assert (G : py_get names (Z.of_nat (length pre)) = Ok n).
        { rewrite E, (py_get_nth _ _ n) by (rewrite app_length; cbn; lia). rewrite app_nth2, Nat.sub_diag by lia. reflexivity. }
        rewrite G. cbn [bind]. specialize (IH rest (pre ++ [n])). rewrite app_length in IH. cbn [length] in IH.
        rewrite Nat.add_1_r in IH. rewrite IH by (rewrite <- app_assoc; exact E). reflexivity. }
  exact (G l names [] eq_refl).
Qed.
Print Assumptions C10_given_names_used.

(** Names given by the caller may collide: the later chip replaces the earlier *)
Theorem C10_given_names_can_collide : forall A dir base fmt name remove_alpha nb (c1 c2 : list (list (list A))),
  exists p, write_chips_to_disk dir base fmt (Some [name; name]) remove_alpha nb (Chips4 [c1; c2])
  = ([(p, drop_alpha remove_alpha nb c1); (p, drop_alpha remove_alpha nb c2)], Ok tt).
Proof. intros. eexists. reflexivity. Qed.
Print Assumptions C10_given_names_can_collide.

(** One-band chips come back with three axes, and those cannot be written *)
Theorem C10_one_band_chips_not_writable_refuted :
  forall A (zero : A) (img : cube A) gray ys xs h w bands keep ch uls dir base fmt fnames ra nb,
  length (selected_bands (c_nb img) bands) = 1%nat -> ys <> [] ->
  chip_images_by_pixel_upper_lefts zero img gray ys xs h w bands keep = Ok (ch, uls) ->
  write_chips_to_disk dir base fmt fnames ra nb ch = ([], Err IndexError).
Proof.
  intros A zero img gray ys xs h w bands keep ch uls dir base fmt fnames ra nb H1 Hne E.
  unfold chip_images_by_pixel_upper_lefts in E.
  destruct ((h <? 0) || (w <? 0)); [discriminate|].
  destruct (mapM _ _) as [cut|e|] eqn:Ec; cbn [bind] in E; try discriminate.
  assert (Lb : length (band_list (c_nb img) bands) = 1%nat).
  { rewrite <- H1, <- band_list_selected, map_length. reflexivity. }
  rewrite Lb in E. rewrite orb_true_r in E. cbn [Nat.eqb] in E. injection E as <- _.
  apply mapM_ok_inv in Ec. apply Forall2_length in Ec.
  match goal with |- context [Chips3 ?l] => assert (Hl : l <> []) end.
  { destruct ys as [|y ys]; [congruence|]. intros Hn. apply map_eq_nil in Hn. apply app_eq_nil in Hn.
    destruct Hn as [-> Hn]. apply (f_equal (@length _)) in Hn. rewrite repeat_length in Hn.
    set (cy := clamp_axis keep _ h (y :: ys)) in *.
    assert (Lc : length cy = S (length ys)) by (unfold cy, clamp_axis, where_set; destruct keep; rewrite ?map_length; reflexivity).
    change (length (@nil (list (list (list A))))) with O in Ec. simpl length in Hn. lia. }
  match goal with |- context [Chips3 ?l] => destruct l; [congruence|reflexivity] end.
Qed.
Print Assumptions C10_one_band_chips_not_writable_refuted.

Example C10_ex : map fst (fst (write_chips_to_disk (txt "out/") (txt "c") (txt ".png") None true 1 (Chips4 [[[[1]]]; [[[2]]]])))
  = [txt "out/c_00000000.png"; txt "out/c_00000001.png"].
Proof. reflexivity. Qed.
