(** Property C109: the chip grid is exactly predictable and the chips determine the image. *)
From Verif Require Import M_Chipper Spec_Chipper P_Chipper Spec_ChipGrid.
From Coq Require Import Sorted ZifyBool.
Open Scope Z_scope.
Open Scope list_scope.

Lemma sorted_same (l m : list Z) :
  StronglySorted Z.lt l -> StronglySorted Z.lt m -> (forall v, In v l <-> In v m) -> l = m.
Proof.
  intros Hl. revert m. induction Hl as [|x l Hs IH Hf]; intros m Hm H.
  - destruct m as [|y m]; [reflexivity|]. destruct (proj2 (H y)); left; reflexivity.
  - destruct Hm as [|y m Hm Hg]; [destruct (proj1 (H x)); left; reflexivity|].
    rewrite Forall_forall in Hf, Hg.
    assert (E : x = y).
    { destruct (proj1 (H x) (or_introl eq_refl)) as [?|Hx]; [congruence|].
      destruct (proj2 (H y) (or_introl eq_refl)) as [?|Hy]; [congruence|].
      specialize (Hf _ Hy). specialize (Hg _ Hx). lia. }
    subst y. f_equal. apply IH; [exact Hm|]. intros v. split; intros Hv.
    + destruct (proj1 (H v) (or_intror Hv)) as [<-|?]; [|assumption]. specialize (Hf _ Hv). lia.
    + destruct (proj2 (H v) (or_intror Hv)) as [<-|?]; [|assumption]. specialize (Hg _ Hv). lia.
Qed.

Lemma multiples_sorted step a n : 0 < step ->
  StronglySorted Z.lt (map (fun k => Z.of_nat k * step) (seq a n)).
Proof.
  intros Hs. revert a. induction n as [|n IH]; intros a; cbn [seq map]; constructor; auto.
  apply Forall_forall. intros v Hv. apply in_map_iff in Hv. destruct Hv as (k & <- & Hk).
  apply in_seq in Hk. nia.
Qed.

Lemma snoc_sorted l v : StronglySorted Z.lt l -> (forall x, In x l -> x < v) -> StronglySorted Z.lt (l ++ [v]).
Proof.
  induction 1 as [|x l Hs IH Hf]; intros H; cbn [app].
  - repeat constructor.
  - constructor.
    + apply IH. intros y Hy. apply H. right. exact Hy.
    + apply Forall_app. split; [exact Hf|]. repeat constructor. apply H. left. reflexivity.
Qed.

Lemma grid_below n chip step v :
  0 < step -> chip <= n ->
  (In v (map (fun k => Z.of_nat k * step) (seq 0 (Z.to_nat (steps_before_border n chip step)))) <->
   exists k, 0 <= k /\ v = k * step /\ k * step < n - chip).
Proof.
  intros Hs Hc. rewrite in_map_iff. split.
  - intros (k & <- & Hk). apply in_seq in Hk. exists (Z.of_nat k).
    split; [lia|]. split; [reflexivity|]. apply (ceil_count (n - chip) step); [lia|]. fold (steps_before_border n chip step). lia.
  - intros (k & H0 & -> & Hk). exists (Z.to_nat k). rewrite Z2Nat.id by lia. split; [reflexivity|].
    apply in_seq. apply (ceil_count (n - chip) step) in Hk; [|lia]. fold (steps_before_border n chip step) in Hk. lia.
Qed.

Lemma steps_nonneg n chip step : 0 < step -> chip <= n -> 0 <= steps_before_border n chip step.
Proof. intros. unfold steps_before_border. apply Z.div_pos; lia. Qed.

(** where the walk stops: the first multiple at or after the border position *)
Lemma steps_stop n chip step : 0 < step -> chip <= n ->
  n - chip <= steps_before_border n chip step * step < n - chip + step.
Proof.
  intros Hs Hc. unfold steps_before_border.
  pose proof (Z.mod_pos_bound (n - chip + step - 1) step Hs).
  pose proof (Z.div_mod (n - chip + step - 1) step ltac:(lia)). nia.
Qed.

Lemma axis_exact n chip ov : ov < chip -> 0 <= chip <= n -> axis_indices n chip ov = Ok (grid_axis n chip (chip - ov)).
Proof.
  intros Ho Hc. unfold axis_indices, arange0.
  replace (chip - ov =? 0) with false by lia. replace (chip - ov <? 0) with false by lia. cbn [bind]. f_equal.
  set (step := chip - ov). assert (Hs : 0 < step) by (unfold step; lia). clearbody step.
  pose proof (steps_nonneg n chip step Hs ltac:(lia)) as Q0.
  pose proof (steps_stop n chip step Hs ltac:(lia)) as Q1.
  apply sorted_same; [apply sorted_set_sorted| |].
  - unfold grid_axis. destruct (_ <? n).
    + apply snoc_sorted; [apply multiples_sorted; exact Hs|].
      intros v Hv. apply grid_below in Hv; [|lia|lia]. destruct Hv as (k & _ & -> & ?). assumption.
    + rewrite app_nil_r. apply multiples_sorted; exact Hs.
  - intros v. rewrite sorted_set_In. unfold where_set. rewrite map_map, in_map_iff.
    unfold grid_axis. rewrite in_app_iff, grid_below by lia. split.
    + intros (k & E & Hk). apply in_seq in Hk.
      assert (Hk' : Z.of_nat k * step < n) by (apply ceil_count; lia).
      destruct (n - chip <=? Z.of_nat k * step) eqn:E1.
      * right. assert (steps_before_border n chip step <= Z.of_nat k) by nia.
        replace (steps_before_border n chip step * step <? n) with true by nia. left. lia.
      * left. exists (Z.of_nat k). lia.
    + intros [(k & H0 & -> & Hk)|H].
      * exists (Z.to_nat k). rewrite Z2Nat.id by lia. split; [replace (n - chip <=? k * step) with false by lia; reflexivity|].
        apply in_seq. assert (k < (n + step - 1) / step) by (apply ceil_count; lia). lia.
      * destruct (steps_before_border n chip step * step <? n) eqn:E1; [|destruct H]. destruct H as [<-|[]].
        exists (Z.to_nat (steps_before_border n chip step)). rewrite Z2Nat.id by lia.
        split; [replace (n - chip <=? steps_before_border n chip step * step) with true by lia; reflexivity|].
        apply in_seq. assert (steps_before_border n chip step < (n + step - 1) / step) by (apply ceil_count; lia). lia.
Qed.

Lemma grid_bounds n chip step v : 0 < step -> 0 <= chip <= n -> In v (grid_axis n chip step) -> 0 <= v <= n - chip.
Proof.
  intros Hs Hc H. unfold grid_axis in H. rewrite in_app_iff, grid_below in H by lia.
  destruct H as [(k & H0 & -> & Hk)|H]; [nia|].
  destruct (_ <? n); [|destruct H]. destruct H as [<-|[]]. lia.
Qed.

(** The chips of an image are exactly those of the grid, in row-major order, for every
    overlap smaller than the chip (a negative one included: it leaves gaps between the chips). *)
Theorem C109_grid : forall A (zero : A) (img : cube A) h w oy ox bands keep,
  cube_wf img -> bands_ok (c_nb img) bands ->
  oy < h -> 0 <= h <= Z.of_nat (c_ny img) -> ox < w -> 0 <= w <= Z.of_nat (c_nx img) ->
  let uls := list_prod (grid_axis (Z.of_nat (c_ny img)) h (h - oy)) (grid_axis (Z.of_nat (c_nx img)) w (w - ox)) in
  exists ch,
    chip_entire_image_to_memory zero img h w oy ox bands keep = Ok (ch, uls)
    /\ n_chips ch = length uls
    /\ exact_chips img (selected_bands (c_nb img) bands) h w uls ch.
Proof.
  intros A zero img h w oy ox b keep W HB Hoy Hh Hox Hw uls. unfold chip_entire_image_to_memory.
  rewrite !axis_exact by lia. cbn [bind]. fold uls.
  set (ys := grid_axis (Z.of_nat (c_ny img)) h (h - oy)) in *.
  set (xs := grid_axis (Z.of_nat (c_nx img)) w (w - ox)) in *.
  assert (By : forall v, In v ys -> 0 <= v <= Z.of_nat (c_ny img) - h) by (intros v; apply grid_bounds; lia).
  assert (Bx : forall v, In v xs -> 0 <= v <= Z.of_nat (c_nx img) - w) by (intros v; apply grid_bounds; lia).
  assert (Cy : clamp_axis keep (Z.of_nat (c_ny img)) h (map fst uls) = map fst uls).
  { apply clamp_axis_id. intros v Hv. apply in_map_iff in Hv. destruct Hv as ([y x] & <- & Hp).
    apply in_prod_iff in Hp. apply By. apply Hp. }
  assert (Cx : clamp_axis keep (Z.of_nat (c_nx img)) w (map snd uls) = map snd uls).
  { apply clamp_axis_id. intros v Hv. apply in_map_iff in Hv. destruct Hv as ([y x] & <- & Hp).
    apply in_prod_iff in Hp. apply Bx. apply Hp. }
  destruct (chips_ok zero img false (map fst uls) (map snd uls) h w b keep)
    as (ch & E & Hn & Hx); auto; try lia.
  - rewrite !map_length; reflexivity.
  - rewrite Cy, Cx, combine_prod_split. apply Forall_forall. intros [y x] Hp. apply in_prod_iff in Hp.
    unfold in_image. simpl. pose proof (By y ltac:(tauto)). pose proof (Bx x ltac:(tauto)). lia.
  - rewrite Cy, Cx, combine_prod_split in *.
    exists ch. split; [exact E|]. split; [rewrite Hn, map_length; reflexivity|exact Hx].
Qed.
Print Assumptions C109_grid.

Lemma grid_length n chip step : 0 < step <= chip -> chip <= n ->
  Z.of_nat (length (grid_axis n chip step)) = steps_before_border n chip step + 1.
Proof.
  intros Hs Hc. pose proof (steps_stop n chip step ltac:(lia) Hc). pose proof (steps_nonneg n chip step ltac:(lia) Hc).
  unfold grid_axis. replace (_ <? n) with true by lia. rewrite app_length, map_length, seq_length. cbn [length]. lia.
Qed.

(** The number of chips, for an overlap that is not negative: one more than the steps that fit
    before the border, on each axis, whatever the remainder. *)
Theorem C109_count : forall A (zero : A) (img : cube A) h w oy ox bands keep,
  cube_wf img -> bands_ok (c_nb img) bands ->
  0 <= oy < h -> h <= Z.of_nat (c_ny img) -> 0 <= ox < w -> w <= Z.of_nat (c_nx img) ->
  exists ch uls,
    chip_entire_image_to_memory zero img h w oy ox bands keep = Ok (ch, uls)
    /\ Z.of_nat (n_chips ch) =
         ((Z.of_nat (c_ny img) - h + (h - oy) - 1) / (h - oy) + 1) *
         ((Z.of_nat (c_nx img) - w + (w - ox) - 1) / (w - ox) + 1).
Proof.
  intros A zero img h w oy ox b keep W HB Hoy Hh Hox Hw.
  destruct (C109_grid A zero img h w oy ox b keep W HB) as (ch & E & Hn & _); try lia.
  eexists ch, _. split; [exact E|]. rewrite Hn, prod_length, Nat2Z.inj_mul, !grid_length by lia. reflexivity.
Qed.
Print Assumptions C109_count.

(** When the chip without its overlap divides what remains, the count is the exact quotient and no
    two neighbours overlap by more than was asked. *)
Theorem C109_exact_fit : forall n chip ov q, 0 <= ov < chip -> 0 <= q -> n - chip = q * (chip - ov) ->
  grid_axis n chip (chip - ov) = map (fun k => Z.of_nat k * (chip - ov)) (seq 0 (Z.to_nat (q + 1))).
Proof.
  intros n chip ov q Ho Hq E. unfold grid_axis.
  assert (S : steps_before_border n chip (chip - ov) = q).
  { unfold steps_before_border. rewrite E. symmetry. apply (Z.div_unique _ _ _ (chip - ov - 1)); nia. }
  rewrite S. replace (_ <? n) with true by nia.
  replace (Z.to_nat (q + 1)) with (Z.to_nat q + 1)%nat by lia.
  rewrite seq_app, map_app. cbn [seq map plus]. rewrite Z2Nat.id by lia. rewrite E. reflexivity.
Qed.
Print Assumptions C109_exact_fit.

(** With a negative overlap the pixels between two steps are in no chip, and they are the only
    ones before the border: on an axis, the position r is seen exactly when its remainder modulo the
    step is inside the chip, or when it is within the border chip. *)
Theorem C109_gaps : forall n chip ov r, ov < 0 -> 0 < chip <= n -> 0 <= r < n ->
  (seen_on_axis n chip (chip - ov) r <->
   (r mod (chip - ov) < chip /\ (r / (chip - ov)) * (chip - ov) <= n - chip) \/
   (((n - chip + (chip - ov) - 1) / (chip - ov)) * (chip - ov) < n /\ n - chip <= r)).
Proof.
  intros n chip ov r Ho Hc Hr. unfold seen_on_axis. set (step := chip - ov).
  assert (Hs : chip < step) by (unfold step; lia). clearbody step.
  pose proof (steps_stop n chip step ltac:(lia) ltac:(lia)) as Q1.
  pose proof (Z.mod_pos_bound r step ltac:(lia)) as M1. pose proof (Z.div_mod r step ltac:(lia)) as M2.
  pose proof (Z.div_pos r step ltac:(lia) ltac:(lia)) as M3.
  fold (steps_before_border n chip step).
  split.
  - intros (v & Hv & Hvr). unfold grid_axis in Hv. rewrite in_app_iff, grid_below in Hv by lia.
    destruct Hv as [(k & H0 & -> & Hk)|Hv].
    + left. assert (r / step = k) by nia. subst k. split; nia.
    + right. destruct (steps_before_border n chip step * step <? n) eqn:E; [|destruct Hv]. destruct Hv as [<-|[]]. lia.
  - intros [(H1 & H2)|(H1 & H2)].
    + destruct (Z.eq_dec (r / step * step) (n - chip)) as [E|E].
      * exists (n - chip). split; [|lia]. unfold grid_axis. rewrite in_app_iff. right.
        assert (steps_before_border n chip step = r / step) by nia.
        replace (_ <? n) with true by nia. left. reflexivity.
      * exists (r / step * step). split; [|lia]. unfold grid_axis. rewrite in_app_iff, grid_below by lia.
        left. exists (r / step). nia.
    + exists (n - chip). split; [|lia]. unfold grid_axis. rewrite in_app_iff. right.
      replace (_ <? n) with true by lia. left. reflexivity.
Qed.
Print Assumptions C109_gaps.

(** No two images of the same shape give the same chips: when all bands are taken, the chips (with
    their corners) determine every pixel value of the image. *)
Theorem C109_determined : forall A (zero : A) (a b : cube A) h w oy ox keep,
  cube_wf a -> cube_wf b -> c_ny a = c_ny b -> c_nx a = c_nx b -> c_nb a = c_nb b ->
  0 <= oy < h -> h <= Z.of_nat (c_ny a) -> 0 <= ox < w -> w <= Z.of_nat (c_nx a) ->
  chip_entire_image_to_memory zero a h w oy ox BandsNone keep =
  chip_entire_image_to_memory zero b h w oy ox BandsNone keep ->
  a = b.
Proof.
  intros A zero a b h w oy ox keep Wa Wb Ey Ex Eb Hoy Hh Hox Hw E.
  destruct (chip_entire_covers zero a h w oy ox BandsNone keep Wa I Hoy Hh Hox Hw) as (ch & uls & Ea & _ & _ & Xa & Ca).
  destruct (chip_entire_covers zero b h w oy ox BandsNone keep Wb I) as (ch' & uls' & Eb' & _ & _ & Xb & _);
    try (rewrite <- ?Ey, <- ?Ex; assumption).
  rewrite Ea, Eb' in E. injection E as <- <-.
  apply cube_ext with (ny := c_ny a) (nx := c_nx a) (nb := c_nb a); auto.
  intros r c k Hr Hc Hk.
  destruct (Ca r c Hr Hc) as (i & y & x & Hi & Hy & Hx & Hv).
  assert (Sk : nth_error (selected_bands (c_nb a) BandsNone) k = Some k).
  { cbn [selected_bands]. rewrite (nth_error_nth' _ O) by (rewrite seq_length; exact Hk).
    rewrite seq_nth by exact Hk. reflexivity. }
  rewrite <- (Hv k k Sk).
  destruct (Xb i y x Hi) as (B1 & B2 & B3 & B4 & Hb). rewrite Hb.
  replace ((Z.of_nat (r - Z.to_nat y) <? h) && (Z.of_nat (c - Z.to_nat x) <? w)) with true by lia.
  rewrite <- Eb, Sk. f_equal; lia.
Qed.
Print Assumptions C109_determined.

(** Non-trivial cases *)
Definition img5x7 : cube Z :=
  mkCube 5 7 1 (map (fun r => map (fun c => [r * 10 + c]) (zrange 0 7)) (zrange 0 5)).
Example C109_ex_wf : cube_wf img5x7.
Proof. split; [reflexivity|]. repeat constructor. Qed.
(** a remainder: the last step is shorter *)
Example C109_ex_grid : grid_axis 7 3 2 = [0; 2; 4] /\ grid_axis 8 3 2 = [0; 2; 4; 5].
Proof. split; reflexivity. Qed.
Example C109_ex_count : rmap (fun p => n_chips (fst p)) (chip_entire_image_to_memory 0 img5x7 2 3 1 1 BandsNone true)
  = Ok 12%nat.
Proof. reflexivity. Qed.
(** chips of 2 with an overlap of -2: of five rows, row 2 is in no chip; of four rows, rows 2 and 3 are in
    none, since the next step is outside the image and no border chip is taken *)
Example C109_ex_gap : grid_axis 5 2 4 = [0; 3] /\ grid_axis 4 2 4 = [0] /\ ~ seen_on_axis 4 2 4 3.
Proof.
  split; [reflexivity|]. split; [reflexivity|].
  intros H. apply (C109_gaps 4 2 (-2) 3) in H; [|lia|lia|lia].
  change (2 - -2) with 4 in H. change (3 mod 4) with 3 in H. change ((4 - 2 + 4 - 1) / 4 * 4) with 4 in H. lia.
Qed.
