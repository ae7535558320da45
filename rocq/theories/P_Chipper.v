(** Proofs about image chipping. *)
From Verif Require Import M_Chipper Spec_Chipper.
From Coq Require DecimalPos DecimalN DecimalFacts.
From Coq Require Import Sorted ZifyBool.
Open Scope Z_scope.
Open Scope list_scope.

(* --------------------------- one axis ----------------------------- *)

Lemma insert_unique_In x y l : In y (insert_unique x l) <-> y = x \/ In y l.
Proof.
  induction l as [|z l IH]; simpl; [intuition|].
  destruct (x <? z) eqn:E1; [simpl; intuition|].
  destruct (x =? z) eqn:E2.
  - apply Z.eqb_eq in E2. subst z. simpl; intuition.
  - simpl. rewrite IH. intuition.
Qed.

Lemma insert_unique_sorted x l : StronglySorted Z.lt l -> StronglySorted Z.lt (insert_unique x l).
Proof.
  induction l as [|z l IH]; simpl; intros H.
  - constructor; constructor.
  - inversion H as [|? ? Hs Hf]; subst.
    destruct (x <? z) eqn:E1.
    + constructor; auto. constructor; [lia|]. eapply Forall_impl; [|exact Hf]. simpl; intros; lia.
    + destruct (x =? z) eqn:E2; auto.
      constructor; auto. apply Forall_forall. intros y Hy. apply insert_unique_In in Hy.
      rewrite Forall_forall in Hf. destruct Hy as [->|Hy]; [lia|auto].
Qed.

Lemma sorted_set_In y l : In y (sorted_set l) <-> In y l.
Proof.
  induction l as [|x l IH]; simpl; [tauto|]. rewrite insert_unique_In, IH. intuition.
Qed.

Lemma sorted_set_sorted l : StronglySorted Z.lt (sorted_set l).
Proof. induction l as [|x l IH]; simpl; [constructor|]. apply insert_unique_sorted; exact IH. Qed.

Lemma ceil_count n step k : 0 < step -> k < (n + step - 1) / step <-> k * step < n.
Proof.
  intros Hs. split; intros H.
  - assert (step * ((n + step - 1) / step) <= n + step - 1) by (apply Z.mul_div_le; lia). nia.
  - assert (k + 1 <= (n + step - 1) / step); [|lia]. apply Z.div_le_lower_bound; nia.
Qed.

Lemma axis_members n chip ov v :
  0 <= ov < chip -> chip <= n ->
  exists l, axis_indices n chip ov = Ok l /\ StronglySorted Z.lt l /\
  (In v l <-> exists k, 0 <= k /\ k * (chip - ov) < n /\ v = Z.min (k * (chip - ov)) (n - chip)).
Proof.
  intros Ho Hc. unfold axis_indices, arange0.
  replace (chip - ov =? 0) with false by lia. replace (chip - ov <? 0) with false by lia.
  cbn [bind]. eexists; split; [reflexivity|]. split; [apply sorted_set_sorted|].
  rewrite sorted_set_In. unfold where_set. rewrite map_map, in_map_iff. split.
  - intros (k & E & Hk). apply in_seq in Hk. exists (Z.of_nat k).
    split; [lia|]. split.
    + apply ceil_count; lia.
    + destruct (n - chip <=? Z.of_nat k * (chip - ov)) eqn:E1; lia.
  - intros (k & Hk0 & Hk & ->). exists (Z.to_nat k). rewrite Z2Nat.id by lia. split.
    + destruct (n - chip <=? k * (chip - ov)) eqn:E1; lia.
    + apply in_seq. apply ceil_count in Hk; lia.
Qed.

Record good_axis (n chip ov : Z) (l : list Z) : Prop := {
  ga_sorted : StronglySorted Z.lt l;
  ga_bounds : forall v, In v l -> 0 <= v <= n - chip;
  ga_first : In 0 l;
  ga_last : In (n - chip) l;
  ga_cover : forall r, 0 <= r < n -> exists v, In v l /\ v <= r < v + chip;
  ga_overlap : forall v, In v l -> v < n - chip ->
                exists v', In v' l /\ v < v' /\ v' + ov <= v + chip }.

Lemma axis_good n chip ov :
  0 <= ov < chip -> chip <= n -> exists l, axis_indices n chip ov = Ok l /\ good_axis n chip ov l.
Proof.
  intros Ho Hc.
  destruct (axis_members n chip ov 0 Ho Hc) as (l & El & Hs & _).
  assert (M : forall v, In v l <-> exists k, 0 <= k /\ k * (chip - ov) < n /\ v = Z.min (k * (chip - ov)) (n - chip)).
  { intros v. destruct (axis_members n chip ov v Ho Hc) as (l' & El' & _ & Hm).
    rewrite El in El'. injection El' as <-. exact Hm. }
  exists l. split; [exact El|]. constructor; auto.
  - intros v Hv. apply M in Hv. destruct Hv as (k & H1 & H2 & ->). nia.
  - apply M. exists 0. lia.
  - apply M. exists ((n + (chip - ov) - 1) / (chip - ov) - 1).
    set (K := (n + (chip - ov) - 1) / (chip - ov)).
    assert (H1 : K - 1 < K) by lia. unfold K in H1 at 2. apply ceil_count in H1; [|lia].
    assert (H2 : ~ (K < K)) by lia. unfold K in H2 at 2. rewrite ceil_count in H2 by lia.
    assert (H3 : ~ (0 < 1) \/ 0 < K).
    { right. unfold K. apply ceil_count; lia. }
    split; [lia|]. split; [exact H1|]. nia.
  - intros r Hr.
    assert (Hd : (chip - ov) * (r / (chip - ov)) <= r) by (apply Z.mul_div_le; lia).
    pose proof (Z.mod_pos_bound r (chip - ov) ltac:(lia)) as Hm.
    pose proof (Z.div_mod r (chip - ov) ltac:(lia)) as Hdm.
    assert (Hk : 0 <= r / (chip - ov)) by (apply Z.div_pos; lia).
    exists (Z.min (r / (chip - ov) * (chip - ov)) (n - chip)). split.
    + apply M. exists (r / (chip - ov)). split; [exact Hk|]. split; [nia|reflexivity].
    + split; [nia|]. nia.
  - intros v Hv Hlt. apply M in Hv. destruct Hv as (k & H1 & H2 & Ev).
    exists (Z.min ((k + 1) * (chip - ov)) (n - chip)). split; [|split].
    + apply M. exists (k + 1). split; [lia|]. split; [nia|reflexivity].
    + nia.
    + nia.
Qed.

(* --------------------------- one chip ----------------------------- *)

Lemma band_get {A} (d : A) (p : list A) b :
  band_ok (length p) b -> py_get p b = Ok (nth (band_index (length p) b) p d).
Proof.
  intros H. unfold band_ok in H. unfold band_index. destruct (b <? 0) eqn:E.
  - destruct (py_get_neg p b) as (a & Ha & Hg); [unfold zlen; lia|].
    rewrite Hg. f_equal. symmetry. apply nth_error_nth. exact Ha.
  - destruct (py_get_nonneg p b) as (a & Ha & Hg); [unfold zlen; lia|].
    rewrite Hg. f_equal. symmetry. apply nth_error_nth. exact Ha.
Qed.

Definition sel_px {A} (d : A) (nb : nat) (bl : list Z) (p : list A) : list A :=
  map (fun b => nth (band_index nb b) p d) bl.

Lemma py_slice_In {A} (l : list A) a b v : In v (py_slice l a b) -> In v l.
Proof.
  unfold py_slice. intros H. apply In_nth_error in H. destruct H as (n & Hn).
  rewrite nth_error_firstn in Hn. destruct (Nat.ltb n _); [|discriminate].
  rewrite nth_error_skipn in Hn. eapply nth_error_In; exact Hn.
Qed.

Lemma cut_chip_ok {A} (d : A) (img : cube A) y x h w bl :
  cube_wf img -> Forall (band_ok (c_nb img)) bl ->
  0 <= y -> 0 <= h -> y + h <= Z.of_nat (c_ny img) ->
  0 <= x -> 0 <= w -> x + w <= Z.of_nat (c_nx img) ->
  cut_chip img y x h w bl =
  Ok (map (fun row => map (sel_px d (c_nb img) bl) (py_slice row x (x + w))) (py_slice (c_data img) y (y + h))).
Proof.
  intros [W1 W2] HB Hy Hh Hyh Hx Hw Hxw. unfold cut_chip.
  rewrite Forall_forall in W2.
  rewrite (mapM_ok _ (fun row => map (sel_px d (c_nb img) bl) (py_slice row x (x + w)))).
  - cbn [bind]. unfold broadcast. rewrite map_length, py_slice_length by (unfold zlen; lia).
    replace (y + h - y) with h by lia. rewrite Nat.eqb_refl. reflexivity.
  - intros row Hr. apply py_slice_In in Hr. destruct (W2 row Hr) as [L F]. rewrite Forall_forall in F.
    rewrite (mapM_ok _ (sel_px d (c_nb img) bl)).
    + cbn [bind]. unfold broadcast. rewrite map_length, py_slice_length by (unfold zlen; lia).
      replace (x + w - x) with w by lia. rewrite Nat.eqb_refl. reflexivity.
    + intros p Hp. apply py_slice_In in Hp. unfold sel_px. apply mapM_ok.
      intros b Hb. rewrite Forall_forall in HB.
      pose proof (band_get d p b) as G. rewrite (F p Hp) in G. apply G. apply HB. exact Hb.
Qed.

Lemma py_slice_nth_full {A} (l : list A) a n k :
  0 <= a -> 0 <= n -> a + n <= zlen l ->
  nth_error (py_slice l a (a + n)) k = if Z.of_nat k <? n then nth_error l (Z.to_nat a + k)%nat else None.
Proof.
  intros Ha Hn Hl. destruct (Z.of_nat k <? n) eqn:E.
  - apply py_slice_nth; lia.
  - apply nth_error_None. rewrite py_slice_length; lia.
Qed.

Lemma cut_chip_at {A} (d : A) (img : cube A) y x h w bl r c k :
  cube_wf img -> Forall (band_ok (c_nb img)) bl ->
  0 <= y -> 0 <= h -> y + h <= Z.of_nat (c_ny img) ->
  0 <= x -> 0 <= w -> x + w <= Z.of_nat (c_nx img) ->
  match nth_error (map (fun row => map (sel_px d (c_nb img) bl) (py_slice row x (x + w)))
                       (py_slice (c_data img) y (y + h))) r with
  | Some row => match nth_error row c with Some px => nth_error px k | None => None end
  | None => None
  end =
  if (Z.of_nat r <? h) && (Z.of_nat c <? w)
  then match nth_error (map (band_index (c_nb img)) bl) k with
       | Some b => cube_at img (Z.to_nat y + r) (Z.to_nat x + c) b
       | None => None
       end
  else None.
Proof.
  intros [W1 W2] HB Hy Hh Hyh Hx Hw Hxw.
  rewrite Forall_forall in W2.
  rewrite nth_error_map, py_slice_nth_full by (unfold zlen; lia).
  destruct (Z.of_nat r <? h) eqn:Er; [|reflexivity].
  unfold cube_at.
  destruct (nth_error (c_data img) (Z.to_nat y + r)) as [row|] eqn:R.
  2:{ apply nth_error_None in R. lia. }
  destruct (W2 row (nth_error_In _ _ R)) as [L F]. rewrite Forall_forall in F.
  cbn [option_map andb]. rewrite nth_error_map, py_slice_nth_full by (unfold zlen; lia).
  destruct (Z.of_nat c <? w) eqn:Ec; [|reflexivity].
  destruct (nth_error row (Z.to_nat x + c)) as [px|] eqn:X.
  2:{ apply nth_error_None in X. lia. }
  cbn [option_map]. unfold sel_px. rewrite !nth_error_map.
  destruct (nth_error bl k) as [b|] eqn:B; [|reflexivity]. cbn [option_map].
  symmetry. apply nth_error_nth'.
  rewrite (F px (nth_error_In _ _ X)).
  rewrite Forall_forall in HB. pose proof (HB b (nth_error_In _ _ B)) as Hb.
  unfold band_ok in Hb. unfold band_index. destruct (b <? 0) eqn:Eb; lia.
Qed.

(* --------------------------- all chips ---------------------------- *)

Lemma bands_ok_list nb b : bands_ok nb b -> Forall (band_ok nb) (band_list nb b).
Proof.
  destruct b as [|b|l]; simpl; intros H.
  - apply Forall_forall. intros v Hv. apply zrange_In in Hv. unfold band_ok. lia.
  - constructor; auto.
  - exact H.
Qed.

Lemma band_list_selected nb b : map (band_index nb) (band_list nb b) = selected_bands nb b.
Proof.
  destruct b as [|b|l]; simpl; auto.
  unfold zrange. rewrite map_map. rewrite Z.sub_0_r, Nat2Z.id.
  rewrite <- (map_id (seq 0 nb)) at 2. apply map_ext. intros k. unfold band_index.
  replace (0 + Z.of_nat k <? 0) with false by lia. lia.
Qed.

Lemma clamp_axis_spec n chip l : 0 <= chip <= n -> clamp_axis true n chip l = map (clamped n chip) l.
Proof.
  intros H. unfold clamp_axis, where_set. rewrite map_map. apply map_ext. intros v.
  unfold clamped. destruct (n - chip <? v) eqn:E1; [destruct (n - chip <? 0) eqn:E2|destruct (v <? 0) eqn:E2]; lia.
Qed.

Lemma nth_error_combine {A B} (l : list A) (m : list B) k :
  nth_error (combine l m) k =
  match nth_error l k, nth_error m k with Some a, Some b => Some (a, b) | _, _ => None end.
Proof.
  revert m k; induction l as [|x l IH]; intros [|y m] [|k]; simpl; auto.
  destruct (nth_error l k); reflexivity.
Qed.

Definition in_image {A} (img : cube A) (h w : Z) (yx : Z * Z) : Prop :=
  0 <= fst yx /\ fst yx + h <= Z.of_nat (c_ny img) /\ 0 <= snd yx /\ snd yx + w <= Z.of_nat (c_nx img).

Lemma chips_ok {A} (zero : A) (img : cube A) gray ys xs h w b keep :
  cube_wf img -> bands_ok (c_nb img) b ->
  0 <= h -> 0 <= w ->
  length ys = length xs ->
  (gray = true -> length (selected_bands (c_nb img) b) = 1%nat) ->
  Forall (in_image img h w)
    (combine (clamp_axis keep (Z.of_nat (c_ny img)) h ys) (clamp_axis keep (Z.of_nat (c_nx img)) w xs)) ->
  exists ch,
    chip_images_by_pixel_upper_lefts zero img gray ys xs h w b keep =
      Ok (ch, combine (clamp_axis keep (Z.of_nat (c_ny img)) h ys) (clamp_axis keep (Z.of_nat (c_nx img)) w xs))
    /\ n_chips ch = length ys
    /\ exact_chips img (selected_bands (c_nb img) b) h w
         (combine (clamp_axis keep (Z.of_nat (c_ny img)) h ys) (clamp_axis keep (Z.of_nat (c_nx img)) w xs)) ch.
Proof.
  intros W HB Hh Hw Hlen Hg Hin. unfold chip_images_by_pixel_upper_lefts.
  replace ((h <? 0) || (w <? 0)) with false by lia.
  set (ys' := clamp_axis keep (Z.of_nat (c_ny img)) h ys) in *.
  set (xs' := clamp_axis keep (Z.of_nat (c_nx img)) w xs) in *.
  assert (Ly : length ys' = length ys).
  { unfold ys', clamp_axis, where_set. destruct keep; rewrite ?map_length; reflexivity. }
  assert (Lx : length xs' = length xs).
  { unfold xs', clamp_axis, where_set. destruct keep; rewrite ?map_length; reflexivity. }
  set (uls := combine ys' xs') in *.
  assert (Lu : length uls = length ys).
  { unfold uls. rewrite combine_length. lia. }
  pose proof (bands_ok_list _ _ HB) as HBL.
  set (bl := band_list (c_nb img) b) in *.
  set (cutf := fun yx : Z * Z => map (fun row => map (sel_px zero (c_nb img) bl) (py_slice row (snd yx) (snd yx + w)))
                        (py_slice (c_data img) (fst yx) (fst yx + h))).
  rewrite (mapM_ok _ cutf).
  2:{ intros [y x] Hyx. rewrite Forall_forall in Hin. destruct (Hin _ Hyx) as (H1 & H2 & H3 & H4).
      simpl in *. apply cut_chip_ok; auto. }
  cbn [bind]. replace (length ys' - length uls)%nat with O by lia. simpl repeat. rewrite app_nil_r.
  assert (Lb : length bl = length (selected_bands (c_nb img) b)).
  { rewrite <- band_list_selected, map_length. reflexivity. }
  assert (Hspec : forall i y x, nth_error uls i = Some (y, x) -> forall r c k,
     match nth_error (map cutf uls) i with
     | Some chip => match nth_error chip r with
                    | Some row => match nth_error row c with Some px => nth_error px k | None => None end
                    | None => None end
     | None => None end =
     (if (Z.of_nat r <? h) && (Z.of_nat c <? w)
      then match nth_error (selected_bands (c_nb img) b) k with
           | Some b => cube_at img (Z.to_nat y + r) (Z.to_nat x + c) b
           | None => None
           end
      else None)).
  { intros i y x Ei r c k. rewrite nth_error_map, Ei. cbn [option_map]. unfold cutf. cbn [fst snd].
    rewrite Forall_forall in Hin. destruct (Hin _ (nth_error_In _ _ Ei)) as (H1 & H2 & H3 & H4).
    simpl in H1, H2, H3, H4.
    rewrite <- band_list_selected. fold bl.
    apply (cut_chip_at zero img y x h w bl r c k); auto. }
  assert (Hbd : forall i y x, nth_error uls i = Some (y, x) ->
     0 <= y /\ y + h <= Z.of_nat (c_ny img) /\ 0 <= x /\ x + w <= Z.of_nat (c_nx img)).
  { intros i y x Ei. rewrite Forall_forall in Hin. apply (Hin _ (nth_error_In _ _ Ei)). }
  destruct (Nat.eqb (length bl) 1) eqn:E1.
  - rewrite orb_true_r. eexists; split; [reflexivity|]. split; [simpl; rewrite !map_length; exact Lu|].
    intros i y x Ei. destruct (Hbd i y x Ei) as (B1 & B2 & B3 & B4).
    repeat (split; [assumption|]). intros r c k.
    apply Nat.eqb_eq in E1.
    pose proof (Hspec i y x Ei r c k) as Hs.
    unfold chips_at.
    destruct k as [|k].
    2:{ rewrite (proj2 (nth_error_None (selected_bands (c_nb img) b) (S k))) by lia.
        destruct (_ && _); reflexivity. }
    rewrite nth_error_map.
    destruct (nth_error (map cutf uls) i) as [chip|] eqn:Ec; [|exact Hs].
    cbn [option_map]. rewrite nth_error_map.
    destruct (nth_error chip r) as [row|] eqn:Erow; [|exact Hs].
    cbn [option_map]. rewrite nth_error_map.
    destruct (nth_error row c) as [px|] eqn:Epx; [|exact Hs].
    cbn [option_map]. rewrite <- Hs.
    symmetry. apply nth_error_nth'.
    (* every pixel of the cut has one value *)
    rewrite nth_error_map, Ei in Ec. cbn [option_map] in Ec. injection Ec as <-.
    unfold cutf in Erow. rewrite nth_error_map in Erow.
    destruct (nth_error (py_slice _ _ _) r) as [row0|]; [|discriminate]. cbn [option_map] in Erow.
    injection Erow as <-. rewrite nth_error_map in Epx.
    destruct (nth_error (py_slice row0 _ _) c) as [px0|]; [|discriminate]. cbn [option_map] in Epx.
    injection Epx as <-. unfold sel_px. rewrite map_length. lia.
  - rewrite orb_false_r. destruct gray.
    + exfalso. specialize (Hg eq_refl). apply Nat.eqb_neq in E1. lia.
    + eexists; split; [reflexivity|]. split; [simpl; rewrite map_length; exact Lu|].
      intros i y x Ei. destruct (Hbd i y x Ei) as (B1 & B2 & B3 & B4).
      repeat (split; [assumption|]). intros r c k. apply (Hspec i y x Ei).
Qed.

Lemma combine_map {A B C D} (f : A -> C) (g : B -> D) l m :
  combine (map f l) (map g m) = map (fun p => (f (fst p), g (snd p))) (combine l m).
Proof. revert m; induction l as [|x l IH]; intros [|y m]; simpl; auto. rewrite IH. reflexivity. Qed.

Lemma chips_keep_exact {A} (zero : A) (img : cube A) gray ys xs h w b :
  cube_wf img -> bands_ok (c_nb img) b ->
  0 <= h <= Z.of_nat (c_ny img) -> 0 <= w <= Z.of_nat (c_nx img) ->
  length ys = length xs ->
  (gray = true -> length (selected_bands (c_nb img) b) = 1%nat) ->
  exists ch uls,
    chip_images_by_pixel_upper_lefts zero img gray ys xs h w b true = Ok (ch, uls)
    /\ uls = combine (map (clamped (Z.of_nat (c_ny img)) h) ys) (map (clamped (Z.of_nat (c_nx img)) w) xs)
    /\ n_chips ch = length ys
    /\ exact_chips img (selected_bands (c_nb img) b) h w uls ch.
Proof.
  intros W HB Hh Hw Hlen Hg.
  destruct (chips_ok zero img gray ys xs h w b true W HB) as (ch & E & Hn & Hx); auto; try lia.
  - rewrite !clamp_axis_spec by assumption. rewrite combine_map.
    apply Forall_forall. intros p Hp. apply in_map_iff in Hp. destruct Hp as ([y x] & <- & _).
    unfold in_image, clamped. simpl. lia.
  - rewrite !clamp_axis_spec in * by assumption. exists ch. eexists. split; [exact E|]. auto.
Qed.

Lemma combine_prod_split {A B} (l : list (A * B)) : combine (map fst l) (map snd l) = l.
Proof. induction l as [|[a b] l IH]; simpl; auto. rewrite IH. reflexivity. Qed.

Lemma clamp_axis_id keep n chip l :
  (forall v, In v l -> 0 <= v <= n - chip) -> clamp_axis keep n chip l = l.
Proof.
  intros H. unfold clamp_axis. destruct keep; auto. unfold where_set. rewrite map_map.
  rewrite <- (map_id l) at 2. apply map_ext_in. intros v Hv. specialize (H v Hv).
  replace (n - chip <? v) with false by lia. replace (v <? 0) with false by lia. reflexivity.
Qed.

Lemma sorted_prod (l m : list Z) :
  StronglySorted Z.lt l -> StronglySorted Z.lt m -> StronglySorted row_major_lt (list_prod l m).
Proof.
  intros Hl Hm. induction Hl as [|y l Hs IH Hf]; simpl; [constructor|].
  assert (Happ : forall a b, StronglySorted row_major_lt a -> StronglySorted row_major_lt b ->
            (forall p q, In p a -> In q b -> row_major_lt p q) -> StronglySorted row_major_lt (a ++ b)).
  { clear. induction a as [|p a IH]; intros b Ha Hb H; simpl; auto.
    inversion Ha as [|? ? Ha' Hf]; subst. constructor.
    - apply IH; auto. intros p' q Hp Hq. apply H; auto. right; exact Hp.
    - apply Forall_app. split; auto. apply Forall_forall. intros q Hq. apply H; auto. left; reflexivity. }
  apply Happ; auto.
  - clear - Hm. induction Hm as [|x m Hs IH Hf]; simpl; constructor; auto.
    apply Forall_forall. intros p Hp. apply in_map_iff in Hp. destruct Hp as (z & <- & Hz).
    rewrite Forall_forall in Hf. right. simpl. auto.
  - intros p q Hp Hq. apply in_map_iff in Hp. destruct Hp as (z & <- & Hz).
    destruct q as [a b]. apply in_prod_iff in Hq. destruct Hq as [Hq _].
    rewrite Forall_forall in Hf. left. simpl. auto.
Qed.

Lemma chip_entire {A} (zero : A) (img : cube A) h w oy ox b keep :
  cube_wf img -> bands_ok (c_nb img) b ->
  0 <= oy < h -> h <= Z.of_nat (c_ny img) -> 0 <= ox < w -> w <= Z.of_nat (c_nx img) ->
  exists ch ys xs,
    chip_entire_image_to_memory zero img h w oy ox b keep = Ok (ch, list_prod ys xs)
    /\ good_axis (Z.of_nat (c_ny img)) h oy ys
    /\ good_axis (Z.of_nat (c_nx img)) w ox xs
    /\ n_chips ch = length (list_prod ys xs)
    /\ exact_chips img (selected_bands (c_nb img) b) h w (list_prod ys xs) ch.
Proof.
  intros W HB Hoy Hh Hox Hw. unfold chip_entire_image_to_memory.
  destruct (axis_good _ _ _ Hoy Hh) as (ys & Ey & Gy).
  destruct (axis_good _ _ _ Hox Hw) as (xs & Ex & Gx).
  rewrite Ey, Ex. cbn [bind].
  assert (Cy : clamp_axis keep (Z.of_nat (c_ny img)) h (map fst (list_prod ys xs)) = map fst (list_prod ys xs)).
  { apply clamp_axis_id. intros v Hv. apply in_map_iff in Hv. destruct Hv as ([y x] & <- & Hp).
    apply in_prod_iff in Hp. apply (ga_bounds _ _ _ _ Gy). apply Hp. }
  assert (Cx : clamp_axis keep (Z.of_nat (c_nx img)) w (map snd (list_prod ys xs)) = map snd (list_prod ys xs)).
  { apply clamp_axis_id. intros v Hv. apply in_map_iff in Hv. destruct Hv as ([y x] & <- & Hp).
    apply in_prod_iff in Hp. apply (ga_bounds _ _ _ _ Gx). apply Hp. }
  destruct (chips_ok zero img false (map fst (list_prod ys xs)) (map snd (list_prod ys xs)) h w b keep)
    as (ch & E & Hn & Hx); auto; try lia.
  - rewrite !map_length; reflexivity.
  - rewrite Cy, Cx, combine_prod_split. apply Forall_forall. intros [y x] Hp. apply in_prod_iff in Hp.
    unfold in_image. simpl. pose proof (ga_bounds _ _ _ _ Gy y ltac:(tauto)).
    pose proof (ga_bounds _ _ _ _ Gx x ltac:(tauto)). lia.
  - rewrite Cy, Cx, combine_prod_split in *.
    exists ch, ys, xs. split; [exact E|]. split; [exact Gy|]. split; [exact Gx|].
    split; [rewrite Hn, map_length; reflexivity|exact Hx].
Qed.

(** Every pixel is in some chip, with its own value *)
Lemma chip_entire_covers {A} (zero : A) (img : cube A) h w oy ox b keep :
  cube_wf img -> bands_ok (c_nb img) b ->
  0 <= oy < h -> h <= Z.of_nat (c_ny img) -> 0 <= ox < w -> w <= Z.of_nat (c_nx img) ->
  exists ch uls,
    chip_entire_image_to_memory zero img h w oy ox b keep = Ok (ch, uls)
    /\ n_chips ch = length uls
    /\ StronglySorted row_major_lt uls
    /\ exact_chips img (selected_bands (c_nb img) b) h w uls ch
    /\ forall r c, (r < c_ny img)%nat -> (c < c_nx img)%nat ->
       exists i y x, nth_error uls i = Some (y, x) /\
         y <= Z.of_nat r < y + h /\ x <= Z.of_nat c < x + w /\
         forall k b', nth_error (selected_bands (c_nb img) b) k = Some b' ->
           chips_at ch i (r - Z.to_nat y) (c - Z.to_nat x) k = cube_at img r c b'.
Proof.
  intros W HB Hoy Hh Hox Hw.
  destruct (chip_entire zero img h w oy ox b keep W HB Hoy Hh Hox Hw) as (ch & ys & xs & E & Gy & Gx & Hn & Hx).
  exists ch, (list_prod ys xs). split; [exact E|]. split; [exact Hn|].
  split; [apply sorted_prod; [apply Gy|apply Gx]|]. split; [exact Hx|].
  intros r c Hr Hc.
  destruct (ga_cover _ _ _ _ Gy (Z.of_nat r)) as (y & Hy & Hyr); [lia|].
  destruct (ga_cover _ _ _ _ Gx (Z.of_nat c)) as (x & Hxi & Hxc); [lia|].
  assert (Hp : In (y, x) (list_prod ys xs)) by (apply in_prod; assumption).
  apply In_nth_error in Hp. destruct Hp as (i & Hi).
  exists i, y, x. split; [exact Hi|]. split; [exact Hyr|]. split; [exact Hxc|].
  intros k b' Hk. destruct (Hx i y x Hi) as (B1 & B2 & B3 & B4 & Hat).
  rewrite Hat.
  replace ((Z.of_nat (r - Z.to_nat y) <? h) && (Z.of_nat (c - Z.to_nat x) <? w)) with true by lia.
  rewrite Hk. f_equal; lia.
Qed.

(** A chip larger than the image is refused, unless the image has one row *)
Lemma chips_too_tall {A} (zero : A) (img : cube A) gray ys xs h w b :
  cube_wf img -> bands_ok (c_nb img) b ->
  Z.of_nat (c_ny img) < h -> (c_ny img <> 1)%nat -> 0 <= w <= Z.of_nat (c_nx img) ->
  ys <> [] -> length ys = length xs ->
  chip_images_by_pixel_upper_lefts zero img gray ys xs h w b true = Err ValueError.
Proof.
  intros W HB Hh H1 Hw Hne Hlen. unfold chip_images_by_pixel_upper_lefts.
  replace ((h <? 0) || (w <? 0)) with false by lia.
  rewrite (clamp_axis_spec _ _ xs) by assumption.
  destruct ys as [|y ys]; [congruence|]. destruct xs as [|x xs]; [discriminate|].
  assert (Ey : clamp_axis true (Z.of_nat (c_ny img)) h (y :: ys)
               = 0 :: clamp_axis true (Z.of_nat (c_ny img)) h ys).
  { unfold clamp_axis, where_set. cbn [map]. f_equal.
    destruct (Z.of_nat (c_ny img) - h <? y) eqn:E.
    - replace (Z.of_nat (c_ny img) - h <? 0) with true by lia. reflexivity.
    - replace (y <? 0) with true by lia. reflexivity. }
  rewrite Ey. cbn [map combine mapM fst snd].
  set (x' := clamped (Z.of_nat (c_nx img)) w x).
  assert (Hx' : 0 <= x' <= Z.of_nat (c_nx img) - w) by (unfold x', clamped; lia).
  assert (Ec : cut_chip img 0 x' h w (band_list (c_nb img) b) = Err ValueError).
  { unfold cut_chip. destruct W as [W1 W2].
    assert (Es : py_slice (c_data img) 0 (0 + h) = c_data img).
    { unfold py_slice, slice_bound. change (0 <? 0) with false.
      replace (0 + h <? 0) with false by lia.
      rewrite (Z.min_l 0) by (unfold zlen; lia). rewrite Z.min_r by (unfold zlen; lia).
      rewrite Z.sub_0_r. unfold zlen. rewrite Nat2Z.id. apply firstn_all. }
    rewrite Es. rewrite Forall_forall in W2.
    rewrite (mapM_ok _ (fun row => map (sel_px zero (c_nb img) (band_list (c_nb img) b)) (py_slice row x' (x' + w)))).
    - cbn [bind]. unfold broadcast.
      replace (Nat.eqb _ _) with false by (symmetry; apply Nat.eqb_neq; rewrite map_length; lia).
      destruct (c_data img) as [|r1 [|r2 l]]; simpl in W1; try reflexivity. lia.
    - intros row Hr. destruct (W2 row Hr) as [L F]. rewrite Forall_forall in F.
      rewrite (mapM_ok _ (sel_px zero (c_nb img) (band_list (c_nb img) b))).
      + cbn [bind]. unfold broadcast. rewrite map_length, py_slice_length by (unfold zlen; lia).
        replace (x' + w - x') with w by lia. rewrite Nat.eqb_refl. reflexivity.
      + intros p Hp. apply py_slice_In in Hp. unfold sel_px. apply mapM_ok.
        intros bb Hb. pose proof (bands_ok_list _ _ HB) as HBL. rewrite Forall_forall in HBL.
        pose proof (band_get zero p bb) as G. rewrite (F p Hp) in G. apply G. apply HBL. exact Hb. }
  rewrite Ec. reflexivity.
Qed.

(* --------------------------- centers ------------------------------ *)

Lemma center_even chip c : (exists m, chip = 2 * m) -> center_to_ul chip c + chip / 2 = c.
Proof.
  intros (m & ->). unfold center_to_ul. replace (2 * c - 2 * m) with ((c - m) * 2) by lia.
  rewrite Z.quot_mul by lia. rewrite (Z.mul_comm 2 m), Z.div_mul by lia. lia.
Qed.

Lemma center_odd chip c :
  (exists m, chip = 2 * m + 1) ->
  (chip <= 2 * c -> center_to_ul chip c + chip / 2 = c - 1) /\
  (2 * c < chip -> center_to_ul chip c + chip / 2 = c).
Proof.
  intros (m & ->). unfold center_to_ul.
  assert (E2 : (2 * m + 1) / 2 = m) by (symmetry; apply (Z.div_unique _ _ m 1); lia).
  rewrite E2. split; intros H.
  - replace (2 * c - (2 * m + 1)) with (2 * (c - m - 1) + 1) by lia.
    rewrite Z.quot_div_nonneg by lia.
    replace ((2 * (c - m - 1) + 1) / 2) with (c - m - 1) by (apply (Z.div_unique _ _ _ 1); lia). lia.
  - replace (2 * c - (2 * m + 1)) with (- (2 * (m - c) + 1)) by lia.
    rewrite Z.quot_opp_l by lia. rewrite Z.quot_div_nonneg by lia.
    replace ((2 * (m - c) + 1) / 2) with (m - c) by (apply (Z.div_unique _ _ _ 1); lia). lia.
Qed.

(** The corner is the exact position c - chip/2 moved toward zero by less than one *)
Lemma center_toward_zero chip c :
  (chip <= 2 * c -> 2 * center_to_ul chip c <= 2 * c - chip < 2 * center_to_ul chip c + 2) /\
  (2 * c <= chip -> 2 * center_to_ul chip c - 2 < 2 * c - chip <= 2 * center_to_ul chip c).
Proof.
  unfold center_to_ul. set (n := 2 * c - chip).
  pose proof (Z.quot_rem n 2 ltac:(lia)) as Hq. split; intros H.
  - pose proof (Z.rem_bound_pos n 2 ltac:(lia) ltac:(lia)). lia.
  - assert (Hn : n <= 0) by lia. pose proof (Z.rem_bound_pos (- n) 2 ltac:(lia) ltac:(lia)) as Hr.
    rewrite Z.rem_opp_l in Hr by lia. lia.
Qed.

(* --------------------------- names -------------------------------- *)

Lemma path_join_inj dir a b :
  a <> [] -> b <> [] -> (hd "a"%char a = hd "a"%char b) -> path_join dir a = path_join dir b -> a = b.
Proof.
  destruct a as [|c a]; [congruence|]. destruct b as [|d b]; [congruence|]. simpl.
  intros _ _ -> H. destruct (Ascii.eqb d "/"%char); [exact H|].
  destruct (rev dir) as [|e r]; [exact H|].
  destruct (Ascii.eqb e "/"%char).
  - apply app_inv_head in H. exact H.
  - apply app_inv_head in H. injection H as H. congruence.
Qed.

Lemma zfill_head n t t' d :
  (forall c, In c t -> is_digit c = true) -> (forall c, In c t' -> is_digit c = true) -> t <> [] -> t' <> [] ->
  zfill n t ++ d = zfill n t' ++ d -> zfill n t = zfill n t'.
Proof. intros _ _ _ _ H. apply app_inv_tail in H. exact H. Qed.

(** Leading zeros do not change the number read *)
Lemma zfill_inj n (i j : nat) :
  zfill n (str_of_Z (Z.of_nat i)) = zfill n (str_of_Z (Z.of_nat j)) -> i = j.
Proof.
  intros H. apply Nat2Z.inj, str_of_Z_inj.
  set (a := str_of_Z (Z.of_nat i)) in *. set (b := str_of_Z (Z.of_nat j)) in *.
  unfold zfill in H.
  (* a decimal numeral of a natural number has no leading zero unless it is "0" *)
  assert (Lead : forall k : nat, str_of_Z (Z.of_nat k) = txt "0" \/
             exists c r, str_of_Z (Z.of_nat k) = c :: r /\ c <> "0"%char).
  { intros k. unfold str_of_Z. destruct k as [|k]; [left; reflexivity|]. right.
    change (Z.of_nat (S k)) with (Z.pos (Pos.of_succ_nat k)). cbn [Z.to_int].
    pose proof (DecimalPos.Unsigned.to_uint_nonnil (Pos.of_succ_nat k)) as Hn.
    assert (Hof : N.of_uint (Pos.to_uint (Pos.of_succ_nat k)) = N.pos (Pos.of_succ_nat k)).
    { exact (DecimalN.Unsigned.of_to (N.pos (Pos.of_succ_nat k))). }
    assert (Hnorm : Decimal.unorm (Pos.to_uint (Pos.of_succ_nat k)) = Pos.to_uint (Pos.of_succ_nat k)).
    { pose proof (DecimalN.Unsigned.to_of (Pos.to_uint (Pos.of_succ_nat k))) as E.
      rewrite Hof in E. symmetry. exact E. }
    destruct (Pos.to_uint (Pos.of_succ_nat k)) as [|u|u|u|u|u|u|u|u|u|u] eqn:Eu;
      try congruence; try (eexists; eexists; split; [reflexivity|discriminate]).
    exfalso. unfold Decimal.unorm in Hnorm. cbn [Decimal.nzhead] in Hnorm.
    destruct (Decimal.nzhead u) eqn:Ez; try discriminate Hnorm.
    - injection Hnorm as <-. vm_compute in Hof. discriminate Hof.
    - pose proof (DecimalFacts.nzhead_nonzero u u0) as Hc. congruence. }
  assert (Main : forall (p q : nat) (s t : text),
     (s = txt "0" \/ exists c r, s = c :: r /\ c <> "0"%char) ->
     (t = txt "0" \/ exists c r, t = c :: r /\ c <> "0"%char) ->
     (length (repeat "0"%char p ++ s) = length (repeat "0"%char q ++ t)) ->
     repeat "0"%char p ++ s = repeat "0"%char q ++ t -> s = t).
  { intros p q s t. revert q. induction p as [|p IH]; intros q Hs Ht Hl E.
    - simpl in E. destruct q as [|q]; [exact E|].
      destruct Hs as [->|(c & r & -> & Hc)].
      + simpl in E. injection E as E.
        destruct q; simpl in E; [|discriminate]. destruct Ht as [->|(c & r & -> & Hc)]; discriminate.
      + simpl in E. injection E as E _. congruence.
    - destruct q as [|q].
      + simpl in E. destruct Ht as [->|(c & r & -> & Hc)].
        * injection E as E. destruct p; simpl in E; [|discriminate].
          destruct Hs as [->|(c & r & -> & Hc)]; discriminate.
        * injection E as E _. congruence.
      + simpl in E. injection E as E. apply (IH q); auto. }
  unfold a, b in H |- *. eapply Main; [apply Lead|apply Lead|rewrite H; reflexivity|exact H].
Qed.

Lemma chip_path_inj dir base fmt i j p :
  chip_path dir base fmt None i = Ok p -> chip_path dir base fmt None j = Ok p -> i = j.
Proof.
  unfold chip_path. cbn [bind]. intros H1 H2. injection H1 as H1. injection H2 as H2.
  assert (E : (base ++ txt "_" ++ zfill 8 (str_of_Z (Z.of_nat i))) ++ txt "." ++ str_replace ["."%char] [] fmt
            = (base ++ txt "_" ++ zfill 8 (str_of_Z (Z.of_nat j))) ++ txt "." ++ str_replace ["."%char] [] fmt).
  { apply (path_join_inj dir).
    - destruct base; discriminate.
    - destruct base; discriminate.
    - destruct base; reflexivity.
    - etransitivity; [exact H1|symmetry; exact H2]. }
  apply app_inv_tail in E. apply app_inv_head in E. apply app_inv_head in E.
  apply (zfill_inj 8). exact E.
Qed.

Lemma write_chip_list_ok {A} dir base fmt ra nb i (l : list (list (list (list A)))) :
  exists ps, write_chip_list dir base fmt None ra nb i l
             = (combine ps (map (drop_alpha ra nb) l), Ok tt) /\
    length ps = length l /\
    (forall k, (k < length l)%nat -> exists p, nth_error ps k = Some p /\
                 chip_path dir base fmt None (i + k) = Ok p).
Proof.
  revert i; induction l as [|c l IH]; intros i.
  - exists []. repeat split; auto. simpl; intros; lia.
  - cbn [write_chip_list]. unfold chip_path at 1. cbn [bind].
    destruct (IH (S i)) as (ps & E & Hl & Hp). rewrite E.
    set (p0 := path_join dir _).
    exists (p0 :: ps). split; [reflexivity|]. split; [simpl; lia|].
    intros [|k] Hk.
    + exists p0. split; [reflexivity|]. rewrite Nat.add_0_r. reflexivity.
    + simpl in Hk. destruct (Hp k ltac:(lia)) as (p & Hn & Hc). exists p. split; [exact Hn|].
      rewrite Nat.add_succ_r. exact Hc.
Qed.

Lemma write_names_distinct {A} dir base fmt ra nb (l : list (list (list (list A)))) :
  exists files, write_chips_to_disk dir base fmt None ra nb (Chips4 l) = (files, Ok tt) /\
    NoDup (map fst files) /\ map snd files = map (drop_alpha ra nb) l.
Proof.
  unfold write_chips_to_disk.
  destruct (write_chip_list_ok dir base fmt ra nb 0 l) as (ps & E & Hl & Hp).
  rewrite E. eexists; split; [reflexivity|]. split.
  - replace (map fst (combine ps (map (drop_alpha ra nb) l))) with ps.
    + apply NoDup_nth_error. intros a b Ha Eab.
      destruct (Hp a) as (p & Hn & Hc); [lia|].
      assert (Hb : (b < length ps)%nat) by (apply nth_error_Some; rewrite <- Eab, Hn; discriminate).
      destruct (Hp b) as (q & Hn' & Hc'); [lia|].
      assert (p = q) by congruence. subst q. simpl in Hc, Hc'.
      apply (chip_path_inj dir base fmt a b p); assumption.
    + assert (Hg : forall (P Q : Type) (u : list P) (v : list Q), length u = length v -> map fst (combine u v) = u).
      { clear. induction u as [|x u IH]; intros [|y v] H; simpl in *; try discriminate; auto. rewrite IH; auto. }
      symmetry. apply Hg. rewrite map_length. exact Hl.
  - assert (Hg : forall (P Q : Type) (u : list P) (v : list Q), length u = length v -> map snd (combine u v) = v).
    { clear. induction u as [|x u IH]; intros [|y v] H; simpl in *; try discriminate; auto. rewrite IH; auto. }
    apply Hg. rewrite map_length. exact Hl.
Qed.

(* ------------------------------ shapes ----------------------------- *)

Lemma broadcast_length {A} n (l l' : list A) : broadcast n l = Ok l' -> length l' = n.
Proof.
  unfold broadcast. destruct (Nat.eqb_spec (length l) n) as [E|N]; [congruence|].
  destruct l as [|x [|? ?]]; try discriminate. intros H. injection H as <-. apply repeat_length.
Qed.
Lemma broadcast_Forall {A} (P : A -> Prop) n (l l' : list A) : broadcast n l = Ok l' -> Forall P l -> Forall P l'.
Proof.
  unfold broadcast. destruct (Nat.eqb_spec (length l) n) as [E|N]; [congruence|].
  destruct l as [|x [|? ?]]; try discriminate. intros H F. injection H as <-. inversion F; subst.
  apply Forall_forall. intros y Hy. apply repeat_spec in Hy. subst. assumption.
Qed.
Lemma mapM_length_of {A B} (f : A -> result B) l l' : mapM f l = Ok l' -> length l' = length l.
Proof.
  revert l'. induction l as [|a l IH]; intros l' H; cbn in H; [injection H as <-; reflexivity|].
  destruct (f a); cbn in H; try discriminate. destruct (mapM f l); cbn in H; try discriminate.
  injection H as <-. cbn. f_equal. apply IH. reflexivity.
Qed.
Lemma mapM_Forall_of {A B} (f : A -> result B) (P : B -> Prop) l l' :
  mapM f l = Ok l' -> (forall a b, f a = Ok b -> P b) -> Forall P l'.
Proof.
  revert l'. induction l as [|a l IH]; intros l' H HP; cbn in H; [injection H as <-; constructor|].
  destruct (f a) eqn:E; cbn in H; try discriminate. destruct (mapM f l); cbn in H; try discriminate.
  injection H as <-. constructor; [eapply HP; exact E|]. apply IH; auto.
Qed.

(** A cut always has the requested size *)
Lemma cut_chip_shape {A} (img : cube A) y x h w bl chip :
  cut_chip img y x h w bl = Ok chip -> block_shape (Z.to_nat h) (Z.to_nat w) (length bl) chip.
Proof.
  unfold cut_chip. destruct (mapM _ (py_slice (c_data img) y (y + h))) as [rows| |] eqn:E; cbn [bind]; try discriminate.
  intros H. split; [exact (broadcast_length _ _ _ H)|].
  apply (broadcast_Forall _ _ _ _ H).
  apply (mapM_Forall_of _ _ _ _ E). intros row row' Hr.
  destruct (mapM _ (py_slice row x (x + w))) as [px| |] eqn:E2; cbn [bind] in Hr; try discriminate.
  split; [exact (broadcast_length _ _ _ Hr)|].
  apply (broadcast_Forall _ _ _ _ Hr).
  apply (mapM_Forall_of _ _ _ _ E2). intros p p' Hp. exact (mapM_length_of _ _ _ Hp).
Qed.

Lemma chips_array {A} (zero : A) (img : cube A) gray ys xs h w b keep ch uls :
  chip_images_by_pixel_upper_lefts zero img gray ys xs h w b keep = Ok (ch, uls) ->
  0 <= h /\ 0 <= w /\ length uls = Nat.min (length ys) (length xs) /\
  chip_array_shape (length ys) (Z.to_nat h) (Z.to_nat w) (length (selected_bands (c_nb img) b)) ch /\
  forall i r c k v, (length uls <= i)%nat -> chips_at ch i r c k = Some v -> v = zero.
Proof.
  unfold chip_images_by_pixel_upper_lefts. destruct ((h <? 0)%Z || (w <? 0)%Z) eqn:Neg; [discriminate|].
  apply orb_false_iff in Neg as [N1 N2]. apply Z.ltb_ge in N1, N2.
  set (bl := band_list (c_nb img) b).
  assert (LB : length (selected_bands (c_nb img) b) = length bl) by (rewrite <- band_list_selected, map_length; reflexivity).
  rewrite LB.
  set (ys' := clamp_axis keep _ h ys). set (xs' := clamp_axis keep _ w xs).
  assert (LY : length ys' = length ys) by (unfold ys', clamp_axis, where_set; destruct keep; rewrite ?map_length; reflexivity).
  assert (LX : length xs' = length xs) by (unfold xs', clamp_axis, where_set; destruct keep; rewrite ?map_length; reflexivity).
  assert (LU : length (combine ys' xs') = Nat.min (length ys) (length xs)) by (rewrite combine_length, LY, LX; reflexivity).
  destruct (mapM _ (combine ys' xs')) as [cut| |] eqn:E; cbn [bind]; try discriminate.
  pose proof (mapM_length_of _ _ _ E) as LC.
  set (blank := repeat _ (Z.to_nat h)).
  set (n := (length ys' - length (combine ys' xs'))%nat).
  assert (F : Forall (block_shape (Z.to_nat h) (Z.to_nat w) (length bl)) (cut ++ repeat blank n)).
  { apply Forall_app. split.
    - apply (mapM_Forall_of _ _ _ _ E). intros a c Hc. exact (cut_chip_shape _ _ _ _ _ _ _ Hc).
    - apply Forall_forall. intros c Hc. apply repeat_spec in Hc. subst c. unfold blank. split; [apply repeat_length|].
      apply Forall_forall. intros row Hr. apply repeat_spec in Hr. subst row. split; [apply repeat_length|].
      apply Forall_forall. intros p Hp. apply repeat_spec in Hp. subst p. apply repeat_length. }
  assert (LA : length (cut ++ repeat blank n) = length ys) by (rewrite app_length, repeat_length, LC; unfold n; rewrite LU, LY; lia).
  assert (BL : forall i c, (length (combine ys' xs') <= i)%nat -> nth_error (cut ++ repeat blank n) i = Some c -> c = blank).
  { intros i c Hi Hc. rewrite nth_error_app2 in Hc by lia. apply nth_error_In in Hc. apply repeat_spec in Hc. exact Hc. }
  assert (BP : forall r c row px, nth_error blank r = Some row -> nth_error row c = Some px -> px = repeat zero (length bl)).
  { intros r c row px Hr Hp. apply nth_error_In in Hr. unfold blank in Hr. apply repeat_spec in Hr. subst row.
    apply nth_error_In in Hp. apply repeat_spec in Hp. exact Hp. }
  assert (G3 : length bl = 1%nat ->
     chip_array_shape (length ys) (Z.to_nat h) (Z.to_nat w) (length bl) (Chips3 (map (map (map (fun p => nth 0 p zero))) (cut ++ repeat blank n))) /\
     forall i r c k v, (length (combine ys' xs') <= i)%nat ->
       chips_at (Chips3 (map (map (map (fun p => nth 0 p zero))) (cut ++ repeat blank n))) i r c k = Some v -> v = zero).
  { intros E1. split.
    - split; [exact E1|]. split; [rewrite map_length; exact LA|]. apply Forall_map. eapply Forall_impl; [|exact F].
      intros c [L1 L2]. split; [rewrite map_length; exact L1|]. apply Forall_map. eapply Forall_impl; [|exact L2].
      intros row [M1 _]. rewrite map_length. exact M1.
    - intros i r c k v Hi. cbn [chips_at]. destruct k; [|discriminate]. rewrite nth_error_map.
      destruct (nth_error (cut ++ repeat blank n) i) as [chip|] eqn:Ec; cbn [option_map]; [|discriminate].
      apply (BL _ _ Hi) in Ec. subst chip. rewrite nth_error_map. destruct (nth_error blank r) as [row|] eqn:Er; cbn [option_map]; [|discriminate].
      rewrite nth_error_map. destruct (nth_error row c) as [px|] eqn:Ep; cbn [option_map]; [|discriminate].
      intros H. injection H as <-. rewrite (BP _ _ _ _ Er Ep), E1. reflexivity. }
  destruct (gray || Nat.eqb (length bl) 1) eqn:GB.
  - destruct (Nat.eqb_spec (length bl) 1) as [E1|]; [|discriminate]. intros H. injection H as <- <-.
    destruct (G3 E1) as [G1 G2]. repeat (split; [assumption|]). exact G2.
  - apply orb_false_iff in GB as [_ GB]. apply Nat.eqb_neq in GB. intros H. injection H as <- <-.
    repeat (split; [assumption|]). split; [split; [exact GB|split; [exact LA|exact F]]|].
    intros i r c k v Hi. cbn [chips_at]. destruct (nth_error (cut ++ repeat blank n) i) as [chip|] eqn:Ec; [|discriminate].
    apply (BL _ _ Hi) in Ec. subst chip. destruct (nth_error blank r) as [row|] eqn:Er; [|discriminate].
    destruct (nth_error row c) as [px|] eqn:Ep; [|discriminate]. rewrite (BP _ _ _ _ Er Ep). intros H.
    apply nth_error_In, repeat_spec in H. exact H.
Qed.
