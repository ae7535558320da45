(** C84: mutual information of two images given by their pixels. *)
From Verif Require Import RAux M_Photo M_ImageR M_Mmi Spec_Mmi P_ImageR P_Mmi.
From Coq Require Import Permutation.
Open Scope R_scope.
Open Scope list_scope.

(** The score is the sum over all pairs of brightness bins of j ln (j / (h1 h2)), where h1, h2
    and j count the pixels of the first image, of the second, and the pixel positions whose two
    brightnesses lie in the pair of bins *)
Theorem C84_meaning : forall x y nbins xlo xhi ylo yhi (h1 h2 : nat -> nat) (j : nat -> nat -> nat),
  (1 <= nbins)%Z -> length x = length y ->
  brightness_range x xlo xhi -> brightness_range y ylo yhi ->
  (forall a, (a < Z.to_nat nbins)%nat -> counts (lies_in_bin xlo xhi (Z.to_nat nbins) a) x (h1 a)) ->
  (forall b, (b < Z.to_nat nbins)%nat -> counts (lies_in_bin ylo yhi (Z.to_nat nbins) b) y (h2 b)) ->
  (forall a b, (a < Z.to_nat nbins)%nat -> (b < Z.to_nat nbins)%nat ->
     counts (fun p => lies_in_bin xlo xhi (Z.to_nat nbins) a (fst p) /\ lies_in_bin ylo yhi (Z.to_nat nbins) b (snd p)) (combine x y) (j a b)) ->
  image_mmi x y nbins = Ok (bigsum (Z.to_nat nbins) (fun a => bigsum (Z.to_nat nbins) (fun b =>
    match j a b with O => 0 | S _ => INR (j a b) * ln (INR (j a b) / (INR (h1 a) * INR (h2 b))) end))).
Proof.
  intros x y nb xlo xhi ylo yhi h1 h2 j Hn HL Rx Ry H1 H2 HJ. unfold image_mmi.
  replace (nb <? 1)%Z with false by lia. rewrite HL, Nat.eqb_refl. cbn [negb]. f_equal. unfold histogram_mmi.
  assert (Hm : (1 <= Z.to_nat nb)%nat) by lia.
  apply bigsum_ext. intros a Ha. apply bigsum_ext. intros b Hb.
  rewrite <- (counts_fun _ _ _ _ (H1 a Ha) (hist_counts _ _ _ _ _ Hm Ha Rx)).
  rewrite <- (counts_fun _ _ _ _ (H2 b Hb) (hist_counts _ _ _ _ _ Hm Hb Ry)).
  rewrite <- (counts_fun _ _ _ _ (HJ a b Ha Hb) (hist2d_counts _ _ _ _ _ _ _ _ _ Hm Ha Hb Rx Ry)).
  destruct (j a b) as [|m].
  - rewrite Reqb_true by reflexivity. reflexivity.
  - destruct (Reqb_spec (INR (S m)) 0) as [E|E]; [|reflexivity].
    exfalso. assert (0 < INR (S m)) by (apply lt_0_INR; lia). lra.
Qed.
Print Assumptions C84_meaning.

(** Every pixel of an image lies in exactly one bin, and the pixel counts of the histograms are
    the counts of the pixels in the bins *)
Theorem C84_bins : forall n l lo hi, (1 <= n)%nat -> l <> [] ->
  (exists lo hi, brightness_range l lo hi) /\
  (brightness_range l lo hi ->
   (forall v, In v l -> exists k, (k < n)%nat /\ lies_in_bin lo hi n k v /\
      forall k', (k' < n)%nat -> lies_in_bin lo hi n k' v -> k' = k) /\
   (forall k, (k < n)%nat -> counts (lies_in_bin lo hi n k) l (np_histogram n l k))).
Proof.
  intros n l lo hi Hn Ne. split.
  - destruct (hist_range l) as [lo' hi'] eqn:E. exists lo', hi'. apply (range_spec l lo' hi' E Ne).
  - intros R. destruct (range_spec l lo hi (range_unique _ _ _ R) Ne) as (_ & L & Q). split.
    + intros v Hv. destruct (bin_range lo hi n v L Hn (Q v Hv)) as (k & Hk & E). exists k. split; [exact Hk|]. split.
      * apply (hist_bin_spec lo hi n v k L Hn (Q v Hv)) in E. apply E.
      * intros k' Hk' H'. assert (E' : hist_bin lo hi n v = Z.of_nat k') by (apply (hist_bin_spec lo hi n v k' L Hn (Q v Hv)); auto). lia.
    + intros k Hk. apply hist_counts; assumption.
Qed.
Print Assumptions C84_bins.

(** Exchanging the images leaves the result unchanged *)
Theorem C84_symmetric : forall x y nbins, image_mmi x y nbins = image_mmi y x nbins.
Proof.
  intros x y nb. destruct (Z.ltb_spec nb 1) as [H|H].
  - unfold image_mmi. replace (nb <? 1)%Z with true by lia. reflexivity.
  - destruct (Nat.eq_dec (length x) (length y)) as [L|L].
    + rewrite !image_mmi_ok by (auto; lia). f_equal. apply bin_score_sym.
    + unfold image_mmi. replace (nb <? 1)%Z with false by lia.
      rewrite (proj2 (Nat.eqb_neq _ _) L), (proj2 (Nat.eqb_neq (length y) (length x))) by lia. reflexivity.
Qed.
Print Assumptions C84_symmetric.

(** No image scores higher against an image than that image itself *)
Theorem C84_self_best : forall x y nbins s, image_mmi x y nbins = Ok s ->
  exists sx sy, image_mmi x x nbins = Ok sx /\ image_mmi y y nbins = Ok sy /\ s <= sx /\ s <= sy.
Proof.
  intros x y nb s H.
  assert (Hn : (1 <= nb)%Z). { unfold image_mmi in H. destruct (Z.ltb_spec nb 1); [discriminate|lia]. }
  assert (HL : length x = length y). { unfold image_mmi in H. replace (nb <? 1)%Z with false in H by lia.
    destruct (Nat.eqb_spec (length x) (length y)); [assumption|discriminate]. }
  rewrite image_mmi_ok in H by assumption. injection H as <-.
  eexists _, _. split; [apply image_mmi_ok; auto|]. split; [apply image_mmi_ok; auto|].
  assert (Fx := bins_lt (Z.to_nat nb) x ltac:(lia)). assert (Fy := bins_lt (Z.to_nat nb) y ltac:(lia)).
  split.
  - rewrite bin_score_sym. apply bin_score_upper; auto. rewrite !bins_length. lia.
  - apply bin_score_upper; auto. rewrite !bins_length. lia.
Qed.
Print Assumptions C84_self_best.

(** The score of two images of N pixels is at least -N ln N, and equal to it when one of the
    images is constant *)
Theorem C84_lower_bound : forall x y nbins s, image_mmi x y nbins = Ok s -> x <> [] ->
  - (INR (length x) * ln (INR (length x))) <= s /\
  ((exists c, x = repeat c (length x)) -> s = - (INR (length x) * ln (INR (length x)))).
Proof.
  intros x y nb s H Ne.
  assert (Hn : (1 <= nb)%Z). { unfold image_mmi in H. destruct (Z.ltb_spec nb 1); [discriminate|lia]. }
  assert (HL : length x = length y). { unfold image_mmi in H. replace (nb <? 1)%Z with false in H by lia.
    destruct (Nat.eqb_spec (length x) (length y)); [assumption|discriminate]. }
  rewrite image_mmi_ok in H by assumption. injection H as <-.
  assert (Fx := bins_lt (Z.to_nat nb) x ltac:(lia)). assert (Fy := bins_lt (Z.to_nat nb) y ltac:(lia)).
  destruct (bin_score_lower (Z.to_nat nb) (pixel_bins (Z.to_nat nb) x) (pixel_bins (Z.to_nat nb) y)) as [A B]; auto.
  { rewrite !bins_length. exact HL. }
  { intros E. apply Ne. apply (f_equal (@length nat)) in E. rewrite bins_length in E. destruct x; [reflexivity|discriminate]. }
  rewrite bins_length in A, B. split; [exact A|]. intros (c & Ec). apply B. intros a b _ _.
  set (p := pixel_bins (Z.to_nat nb) x) in *. set (q := pixel_bins (Z.to_nat nb) y) in *.
  set (c' := pixel_bin (Z.to_nat nb) x c).
  assert (Ep : p = repeat c' (length q)).
  { unfold p, q. rewrite bins_length, <- HL. unfold pixel_bins.
    assert (G : forall v, In v x -> pixel_bin (Z.to_nat nb) x v = pixel_bin (Z.to_nat nb) x c).
    { intros v Hv. rewrite Ec in Hv. apply repeat_spec in Hv. rewrite Hv. reflexivity. }
    transitivity (map (fun _ : R => c') x).
    - apply map_ext_in. intros v Hv. apply G; exact Hv.
    - generalize c'. clear. intros k. induction x; cbn; congruence. }
  assert (Lq : length q = length x) by (unfold q; rewrite bins_length; lia). rewrite <- Lq.
  rewrite Ep. assert (Pq : 0 < INR (length q)).
  { apply lt_0_INR. rewrite Lq. destruct x; [congruence|cbn; lia]. }
  assert (E1 : count_if (Nat.eqb a) (repeat c' (length q)) = if Nat.eqb a c' then length q else 0%nat).
  { clear. unfold count_if. induction (length q) as [|m IH]; cbn [repeat filter]; [destruct (Nat.eqb a c'); reflexivity|].
    destruct (Nat.eqb a c') eqn:E; cbn [length]; rewrite IH; reflexivity. }
  assert (E2 : count_if (fun t => Nat.eqb a (fst t) && Nat.eqb b (snd t)) (combine (repeat c' (length q)) q) =
               if Nat.eqb a c' then count_if (Nat.eqb b) q else 0%nat).
  { clear. unfold count_if. induction q as [|v q IH]; cbn [length repeat combine filter fst snd]; [destruct (Nat.eqb a c'); reflexivity|].
    destruct (Nat.eqb a c') eqn:E; cbn [andb]; [destruct (Nat.eqb b v)|]; cbn [length]; rewrite IH; reflexivity. }
  rewrite E1, E2. destruct (Nat.eqb a c'); cbn [INR]; field; lra.
Qed.
Print Assumptions C84_lower_bound.

(** Brightening or increasing the contrast of one image does not change the score *)
Theorem C84_brightness_invariant : forall x y nbins s t, 0 < s ->
  image_mmi (map (fun v => s * v + t) x) y nbins = image_mmi x y nbins.
Proof.
  intros x y nb s t Hs. destruct (Z.ltb_spec nb 1) as [H|H].
  - unfold image_mmi. replace (nb <? 1)%Z with true by lia. reflexivity.
  - destruct (Nat.eq_dec (length x) (length y)) as [L|L].
    + rewrite !image_mmi_ok by (rewrite ?map_length; auto; lia). f_equal. rewrite bins_affine by exact Hs. reflexivity.
    + unfold image_mmi. rewrite map_length. replace (nb <? 1)%Z with false by lia.
      rewrite (proj2 (Nat.eqb_neq _ _) L). reflexivity.
Qed.
Print Assumptions C84_brightness_invariant.

(** Rearranging the pixels of both images in the same way does not change the score *)
Theorem C84_pixel_order : forall x y x' y' nbins, length x = length y -> length x' = length y' ->
  Permutation (combine x y) (combine x' y') -> image_mmi x y nbins = image_mmi x' y' nbins.
Proof. exact mmi_perm. Qed.
Print Assumptions C84_pixel_order.

(** The function succeeds exactly for images of the same size and at least one bin *)
Theorem C84_errors : forall x y nbins,
  (exists s, image_mmi x y nbins = Ok s) /\ (1 <= nbins)%Z /\ length x = length y \/
  image_mmi x y nbins = Err ValueError /\ ((nbins < 1)%Z \/ length x <> length y).
Proof.
  intros x y nb. unfold image_mmi. destruct (Z.ltb_spec nb 1); [right; auto|].
  destruct (Nat.eqb_spec (length x) (length y)); cbn [negb]; [left|right; auto]. split; [eexists; reflexivity|auto].
Qed.
Print Assumptions C84_errors.

(** Three pixels of brightness 0, 1, 2 in two bins *)
Example C84_example_range : brightness_range [0; 1; 2] 0 2 /\ brightness_range [0; -1; -2] (-2) 0.
Proof.
  split.
  - exists 0, 2. cbn. repeat split; try tauto; try lra; try (intros; intuition lra).
  - exists (-2), 0. cbn. repeat split; try tauto; try lra; try (intros; intuition lra).
Qed.

Example C84_example : image_mmi [0; 1; 2] [0; 1; 2] 2 = Ok (- (2 * ln 2)).
Proof.
  rewrite (C84_meaning _ _ 2 0 2 0 2 (fun a => match a with O => 1 | _ => 2 end)%nat (fun a => match a with O => 1 | _ => 2 end)%nat
             (fun a b => match a, b with O, O => 1 | O, _ => 0 | _, O => 0 | _, _ => 2 end)%nat); try apply C84_example_range; try lia; try reflexivity.
  - change (Z.to_nat 2) with 2%nat. cbn. f_equal. replace (1 / (1 * 1)) with 1 by lra. replace ((1 + 1) / ((1 + 1) * (1 + 1))) with (/ 2) by lra.
    rewrite ln_1, ln_Rinv by lra. lra.
  - change (Z.to_nat 2) with 2%nat. intros [|[|a]] H; try lia; unfold lies_in_bin; cbn [INR].
    + apply counts_yes; [lra|]. apply counts_no; [intros [_ [?|[? ?]]]; [lra|discriminate]|]. apply counts_no; [intros [_ [?|[? ?]]]; [lra|discriminate]|]. constructor.
    + apply counts_no; [lra|]. apply counts_yes; [lra|]. apply counts_yes; [split; [lra|right; split; [reflexivity|lra]]|]. constructor.
  - change (Z.to_nat 2) with 2%nat. intros [|[|a]] H; try lia; unfold lies_in_bin; cbn [INR].
    + apply counts_yes; [lra|]. apply counts_no; [intros [_ [?|[? ?]]]; [lra|discriminate]|]. apply counts_no; [intros [_ [?|[? ?]]]; [lra|discriminate]|]. constructor.
    + apply counts_no; [lra|]. apply counts_yes; [lra|]. apply counts_yes; [split; [lra|right; split; [reflexivity|lra]]|]. constructor.
  - change (Z.to_nat 2) with 2%nat. intros [|[|a]] [|[|b]] Ha Hb; try lia; unfold lies_in_bin; cbn [INR combine fst snd];
    repeat match goal with
    | |- counts _ [] _ => constructor
    | |- counts _ (?p :: _) _ => first [ apply counts_no; cbn [fst snd]; [intuition (try lra; try discriminate); fail|] 
                                      | apply counts_yes; cbn [fst snd]; [intuition (try lra; try discriminate)|]]
    end.
Qed.

(** Inverting an image (a negative) may change its score, because the bins contain their lower
    but not their upper ends *)
Theorem C84_negative_refuted : exists x nbins, (1 <= nbins)%Z /\
  image_mmi (map (fun v => (-1) * v + 0) x) x nbins <> image_mmi x x nbins.
Proof.
  exists [0; 1; 2], 2%Z. split; [lia|]. rewrite C84_example. cbn [map].
  replace (-1 * 0 + 0) with 0 by lra. replace (-1 * 1 + 0) with (-1) by lra. replace (-1 * 2 + 0) with (-2) by lra.
  rewrite (C84_meaning _ _ 2 (-2) 0 0 2 (fun a => match a with O => 1 | _ => 2 end)%nat (fun a => match a with O => 1 | _ => 2 end)%nat
             (fun a b => match a, b with O, O => 0 | _, _ => 1 end)%nat); try apply C84_example_range; try lia; try reflexivity.
  - change (Z.to_nat 2) with 2%nat. cbn. replace (1 / (1 * (1 + 1))) with (/ 2) by lra. replace (1 / ((1 + 1) * 1)) with (/ 2) by lra.
    replace (1 / ((1 + 1) * (1 + 1))) with (/ (2 * 2)) by lra.
    rewrite !ln_Rinv, ln_mult by lra. assert (0 < ln 2) by (rewrite <- ln_1; apply ln_increasing; lra).
    intros E. injection E as E. lra.
  - change (Z.to_nat 2) with 2%nat. intros [|[|a]] H; try lia; unfold lies_in_bin; cbn [INR];
    repeat match goal with
    | |- counts _ [] _ => constructor
    | |- counts _ (?p :: _) _ => first [ apply counts_no; cbn [fst snd]; [intuition (try lra; try discriminate); fail|] 
                                      | apply counts_yes; cbn [fst snd]; [intuition (try lra; try discriminate)|]]
    end.
  - change (Z.to_nat 2) with 2%nat. intros [|[|a]] H; try lia; unfold lies_in_bin; cbn [INR];
    repeat match goal with
    | |- counts _ [] _ => constructor
    | |- counts _ (?p :: _) _ => first [ apply counts_no; cbn [fst snd]; [intuition (try lra; try discriminate); fail|] 
                                      | apply counts_yes; cbn [fst snd]; [intuition (try lra; try discriminate)|]]
    end.
  - change (Z.to_nat 2) with 2%nat. intros [|[|a]] [|[|b]] Ha Hb; try lia; unfold lies_in_bin; cbn [INR combine fst snd];
    repeat match goal with
    | |- counts _ [] _ => constructor
    | |- counts _ (?p :: _) _ => first [ apply counts_no; cbn [fst snd]; [intuition (try lra; try discriminate); fail|] 
                                      | apply counts_yes; cbn [fst snd]; [intuition (try lra; try discriminate)|]]
    end.
Qed.
Print Assumptions C84_negative_refuted.
