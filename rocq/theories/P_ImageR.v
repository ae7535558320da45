(** Proofs about normalisation, colour mapping, blending, mutual information. *)
From Verif Require Import M_ImageR.
Open Scope R_scope.
Open Scope list_scope.

(* ------------------------- normalisation -------------------------- *)

Definition normalized (mn mx a b p : R) : R := (p - mn) / (mx - mn) * (b - a) + a.

Lemma normalize_ok img a b :
  (exists x y, In x img /\ In y img /\ x <> y) ->
  exists mn mx, In mn img /\ In mx img /\ mn < mx /\ (forall p, In p img -> mn <= p <= mx) /\
    normalize_grayscale_image img a b = Ok (map (fun p => Fin (normalized mn mx a b p)) img).
Proof.
  intros (x & y & Hx & Hy & Hne).
  assert (Hn : img <> []) by (destruct img; [destruct Hx|discriminate]).
  destruct (rmin_some img Hn) as (mn & Emn). destruct (rmax_some img Hn) as (mx & Emx).
  destruct (rmin_spec _ _ Emn) as [Imn Lmn]. destruct (rmax_spec _ _ Emx) as [Imx Lmx].
  assert (Hlt : mn < mx).
  { pose proof (Lmn x Hx). pose proof (Lmn y Hy). pose proof (Lmx x Hx). pose proof (Lmx y Hy).
    destruct (Rtotal_order x y) as [?|[?|?]]; [lra|contradiction|lra]. }
  exists mn, mx. repeat split; auto.
  unfold normalize_grayscale_image. rewrite Emn, Emx. f_equal. apply map_ext. intros p.
  rewrite fdiv_nz by lra. reflexivity.
Qed.

Lemma normalized_mono mn mx a b p q : mn < mx -> a <= b -> p <= q -> normalized mn mx a b p <= normalized mn mx a b q.
Proof.
  intros H1 H2 H3. unfold normalized.
  assert ((p - mn) / (mx - mn) <= (q - mn) / (mx - mn)).
  { unfold Rdiv. apply Rmult_le_compat_r; [|lra]. left. apply Rinv_0_lt_compat. lra. }
  assert (0 <= b - a) by lra. nra.
Qed.
Lemma normalized_strict mn mx a b p q : mn < mx -> a < b -> p < q -> normalized mn mx a b p < normalized mn mx a b q.
Proof.
  intros H1 H2 H3. unfold normalized.
  assert ((p - mn) / (mx - mn) < (q - mn) / (mx - mn)).
  { unfold Rdiv. apply Rmult_lt_compat_r; [|lra]. apply Rinv_0_lt_compat. lra. }
  assert (0 < b - a) by lra. nra.
Qed.
Lemma normalized_min mn mx a b : mn < mx -> normalized mn mx a b mn = a.
Proof. intros H. unfold normalized. field. lra. Qed.
Lemma normalized_max mn mx a b : mn < mx -> normalized mn mx a b mx = b.
Proof. intros H. unfold normalized. field. lra. Qed.

Lemma normalize_constant img v a b :
  img <> [] -> (forall p, In p img -> p = v) ->
  normalize_grayscale_image img a b = Ok (map (fun _ => NonFinite) img).
Proof.
  intros Hn Hc. destruct (rmin_some img Hn) as (mn & Emn). destruct (rmax_some img Hn) as (mx & Emx).
  unfold normalize_grayscale_image. rewrite Emn, Emx. f_equal. apply map_ext. intros p.
  rewrite (Hc mn) by (apply rmin_spec in Emn; tauto). rewrite (Hc mx) by (apply rmax_spec in Emx; tauto).
  replace (v - v) with 0 by lra. rewrite fdiv_0. reflexivity.
Qed.

(* ------------------------- blending ------------------------------- *)

Lemma blend_between a b t : 0 <= t <= 1 -> Rmin a b <= blend_pixel a b t <= Rmax a b.
Proof.
  intros H. unfold blend_pixel. pose proof (Rmin_l a b). pose proof (Rmin_r a b).
  pose proof (Rmax_l a b). pose proof (Rmax_r a b). split; nra.
Qed.

(* ------------------------- colour map ----------------------------- *)

(** The last index that satisfies a condition wins *)
Lemma fold_last_cond {S} (cond : nat -> bool) (f : nat -> S) (s0 : S) n :
  let r := fold_left (fun st i => if cond i then f i else st) (seq 0 n) s0 in
  (exists i, (i < n)%nat /\ cond i = true /\ r = f i /\ forall j, (i < j < n)%nat -> cond j = false)
  \/ ((forall i, (i < n)%nat -> cond i = false) /\ r = s0).
Proof.
  induction n as [|n IH].
  - right. split; [intros; lia|reflexivity].
  - cbv zeta in *. rewrite seq_S, fold_left_app. simpl. destruct (cond n) eqn:E.
    + left. exists n. repeat split; auto. intros j Hj. lia.
    + destruct IH as [(i & Hi & Hc & Hr & Hl)|[Hn Hr]].
      * left. exists i. split; [lia|]. split; [exact Hc|]. split; [exact Hr|].
        intros j Hj. destruct (Nat.eq_dec j n) as [->|]; [exact E|apply Hl; lia].
      * right. split; [|exact Hr]. intros i Hi. destruct (Nat.eq_dec i n) as [->|]; [exact E|apply Hn; lia].
Qed.

Definition step (mn mx : R) (n : nat) : R := (mx - mn) / INR (n - 1).
Lemma linspace_at_step mn mx n i : (2 <= n)%nat -> linspace_at mn mx n i = mn + INR i * step mn mx n.
Proof. intros H. unfold linspace_at. replace (Nat.leb n 1) with false by (symmetry; apply Nat.leb_gt; lia). reflexivity. Qed.
Lemma step_pos mn mx n : (2 <= n)%nat -> mn < mx -> 0 < step mn mx n.
Proof.
  intros H1 H2. unfold step. apply Rdiv_lt_0_compat; [lra|]. apply lt_0_INR. lia.
Qed.
Lemma linspace_last mn mx n : (2 <= n)%nat -> linspace_at mn mx n (n - 1) = mx.
Proof.
  intros H. rewrite linspace_at_step by exact H. unfold step. field. apply not_0_INR. lia.
Qed.
Lemma linspace_first mn mx n : (2 <= n)%nat -> linspace_at mn mx n 0 = mn.
Proof. intros H. rewrite linspace_at_step by exact H. simpl. lra. Qed.

Lemma bin_exists mn mx n g m :
  (2 <= n)%nat -> (1 <= m)%nat -> linspace_at mn mx n 0 <= g <= linspace_at mn mx n m ->
  exists i, (i < m)%nat /\ linspace_at mn mx n i <= g <= linspace_at mn mx n (S i).
Proof.
  intros Hn. induction m as [|m IH]; intros Hm H; [lia|].
  destruct (Nat.eq_dec m 0) as [->|Hm0].
  - exists O. auto.
  - destruct (Rle_dec g (linspace_at mn mx n m)) as [Hle|Hgt].
    + destruct IH as (i & Hi & Hb); [lia|lra|]. exists i. split; [lia|exact Hb].
    + exists m. split; [lia|]. lra.
Qed.

Lemma find_bin_ok mn mx n g :
  (2 <= n)%nat -> mn <= g <= mx ->
  exists i, (i + 1 < n)%nat /\ linspace_at mn mx n i <= g <= linspace_at mn mx n (S i) /\
    find_bin mn mx n g = mkBin (wrap8 i) (linspace_at mn mx n i) (linspace_at mn mx n (S i)) /\
    (forall j, (i < j)%nat -> (j + 1 < n)%nat -> ~ (linspace_at mn mx n j <= g <= linspace_at mn mx n (S j))).
Proof.
  intros Hn Hg. unfold find_bin.
  pose proof (fold_last_cond (fun i => Rleb (linspace_at mn mx n i) g && Rleb g (linspace_at mn mx n (S i)))
    (fun i => mkBin (wrap8 i) (linspace_at mn mx n i) (linspace_at mn mx n (S i))) (mkBin 0 0 0) (n - 1)) as F.
  cbv zeta in F.
  assert (C : forall i, Rleb (linspace_at mn mx n i) g && Rleb g (linspace_at mn mx n (S i)) = true <->
                linspace_at mn mx n i <= g <= linspace_at mn mx n (S i)).
  { intros i. rewrite andb_true_iff. destruct (Rleb_spec (linspace_at mn mx n i) g);
      destruct (Rleb_spec g (linspace_at mn mx n (S i))); intuition (try discriminate; lra). }
  destruct F as [(i & Hi & Hc & Hr & Hl)|[Hnone _]].
  - exists i. split; [lia|]. split; [apply C; exact Hc|]. split; [exact Hr|].
    intros j H1 H2 Hb. apply C in Hb. rewrite Hl in Hb by lia. discriminate.
  - exfalso. destruct (bin_exists mn mx n g (n - 1)) as (i & Hi & Hb); [lia|lia| |].
    + rewrite linspace_first, linspace_last by exact Hn. exact Hg.
    + apply C in Hb. rewrite Hnone in Hb by exact Hi. discriminate.
Qed.

Lemma find_colors_hit pal n i :
  (i + 1 < n)%nat -> find_colors pal n (Z.of_nat i) = (nth i pal 0, nth (S i) pal 0).
Proof.
  intros Hi. unfold find_colors.
  pose proof (fold_last_cond (fun k => Z.eqb (Z.of_nat i) (Z.of_nat k)) (fun k => (nth k pal 0, nth (S k) pal 0)) (0, 0) (n - 1)) as F.
  cbv zeta in F. destruct F as [(k & Hk & Hc & Hr & _)|[Hn _]].
  - apply Z.eqb_eq in Hc. apply Nat2Z.inj in Hc. subst k. exact Hr.
  - specialize (Hn i ltac:(lia)). rewrite Z.eqb_refl in Hn. discriminate.
Qed.
Lemma find_colors_miss pal n z : (z < 0)%Z -> find_colors pal n z = (0, 0).
Proof.
  intros Hz. unfold find_colors.
  pose proof (fold_last_cond (fun k => Z.eqb z (Z.of_nat k)) (fun k => (nth k pal 0, nth (S k) pal 0)) (0, 0) (n - 1)) as F.
  cbv zeta in F. destruct F as [(k & Hk & Hc & _)|[_ Hr]]; [|exact Hr].
  apply Z.eqb_eq in Hc. lia.
Qed.

Lemma wrap8_small i : (i <= 127)%nat -> wrap8 i = Z.of_nat i.
Proof. intros H. unfold wrap8. rewrite Z.mod_small by lia. lia. Qed.
Lemma wrap8_big i : (128 <= i <= 255)%nat -> wrap8 i = (Z.of_nat i - 256)%Z.
Proof.
  intros H. unfold wrap8. replace (Z.of_nat i + 128)%Z with (Z.of_nat i - 128 + 1 * 256)%Z by lia.
  rewrite Z.mod_add by lia. rewrite Z.mod_small by lia. lia.
Qed.

(** Linear interpolation inside bin i *)
Definition lerp (pal : list R) (mn mx : R) (n i : nat) (g : R) : R :=
  nth i pal 0 + (nth (S i) pal 0 - nth i pal 0) * ((g - linspace_at mn mx n i) / step mn mx n).

Lemma same_lerp pal mn mx n g i j :
  (2 <= n)%nat -> mn < mx ->
  linspace_at mn mx n i <= g <= linspace_at mn mx n (S i) ->
  linspace_at mn mx n j <= g <= linspace_at mn mx n (S j) ->
  (i <= j)%nat -> lerp pal mn mx n i g = lerp pal mn mx n j g.
Proof.
  intros Hn Hm Hi Hj Hij. pose proof (step_pos mn mx n Hn Hm) as Hs.
  destruct (Nat.eq_dec i j) as [->|Hne]; [reflexivity|].
  rewrite !linspace_at_step in Hi, Hj by exact Hn.
  assert (INR j = INR (S i)).
  { assert (INR (S i) <= INR j) by (apply le_INR; lia). nra. }
  apply INR_eq in H. subst j. unfold lerp. rewrite !linspace_at_step by exact Hn.
  assert (g = mn + INR (S i) * step mn mx n) by lra. subst g.
  replace ((mn + INR (S i) * step mn mx n - (mn + INR (S i) * step mn mx n)) / step mn mx n) with 0 by (field; lra).
  replace ((mn + INR (S i) * step mn mx n - (mn + INR i * step mn mx n)) / step mn mx n) with 1
    by (rewrite S_INR; field; lra).
  lra.
Qed.

Lemma continuous_ok pal mn mx n g i :
  (2 <= n <= 129)%nat -> mn < mx -> (i + 1 < n)%nat ->
  linspace_at mn mx n i <= g <= linspace_at mn mx n (S i) ->
  colormap_channel pal true mn mx n g = Fin (255 * lerp pal mn mx n i g).
Proof.
  intros Hn Hm Hi Hb. pose proof (step_pos mn mx n ltac:(lia) Hm) as Hs.
  assert (Hg : mn <= g <= mx).
  { rewrite !linspace_at_step in Hb by lia. pose proof (pos_INR i).
    pose proof (linspace_last mn mx n ltac:(lia)) as L. rewrite linspace_at_step in L by lia.
    assert (INR (S i) <= INR (n - 1)) by (apply le_INR; lia). split; nra. }
  destruct (find_bin_ok mn mx n g) as (j & Hj & Hbj & E & Hl); [lia|lra|].
  unfold colormap_channel. rewrite E. cbn [bin_idx bin_lo bin_hi].
  rewrite wrap8_small by lia. rewrite find_colors_hit by exact Hj.
  assert (Ed : linspace_at mn mx n (S j) - linspace_at mn mx n j = step mn mx n).
  { rewrite !linspace_at_step by lia. rewrite S_INR. lra. }
  rewrite Ed. rewrite fdiv_nz by lra.
  rewrite Rltb_false by lra. rewrite Rltb_false by lra. cbn [fmap]. f_equal.
  assert (Hij : (i <= j)%nat).
  { destruct (Nat.le_gt_cases i j); auto. exfalso. apply (Hl i); auto. }
  rewrite (same_lerp pal mn mx n g i j) by (auto; lia). unfold lerp. ring.
Qed.

Lemma lerp_between pal mn mx n i g :
  (2 <= n)%nat -> mn < mx -> linspace_at mn mx n i <= g <= linspace_at mn mx n (S i) ->
  Rmin (nth i pal 0) (nth (S i) pal 0) <= lerp pal mn mx n i g <= Rmax (nth i pal 0) (nth (S i) pal 0).
Proof.
  intros Hn Hm Hb. pose proof (step_pos mn mx n Hn Hm) as Hs.
  rewrite !linspace_at_step, S_INR in Hb by exact Hn. unfold lerp.
  set (w := (g - linspace_at mn mx n i) / step mn mx n).
  assert (Hw : 0 <= w <= 1).
  { unfold w. rewrite linspace_at_step by exact Hn. split.
    - apply Rmult_le_pos; [lra|]. left. apply Rinv_0_lt_compat; exact Hs.
    - apply (Rmult_le_reg_r (step mn mx n)); [exact Hs|]. unfold Rdiv. rewrite Rmult_assoc, Rinv_l by lra. lra. }
  pose proof (Rmin_l (nth i pal 0) (nth (S i) pal 0)). pose proof (Rmin_r (nth i pal 0) (nth (S i) pal 0)).
  pose proof (Rmax_l (nth i pal 0) (nth (S i) pal 0)). pose proof (Rmax_r (nth i pal 0) (nth (S i) pal 0)).
  split; nra.
Qed.

Lemma lerp_node pal mn mx n i : (2 <= n)%nat -> mn < mx -> lerp pal mn mx n i (linspace_at mn mx n i) = nth i pal 0.
Proof. intros Hn Hm. pose proof (step_pos mn mx n Hn Hm). unfold lerp. field. lra. Qed.
Lemma lerp_node_hi pal mn mx n i :
  (2 <= n)%nat -> mn < mx -> lerp pal mn mx n i (linspace_at mn mx n (S i)) = nth (S i) pal 0.
Proof.
  intros Hn Hm. pose proof (step_pos mn mx n Hn Hm). unfold lerp. rewrite !linspace_at_step by exact Hn.
  rewrite S_INR. field. lra.
Qed.

Lemma node_le mn mx n i j : (2 <= n)%nat -> mn <= mx -> (i <= j)%nat -> linspace_at mn mx n i <= linspace_at mn mx n j.
Proof.
  intros Hn Hm Hij. rewrite !linspace_at_step by exact Hn.
  assert (0 <= step mn mx n).
  { unfold step. apply Rmult_le_pos; [lra|]. left. apply Rinv_0_lt_compat. apply lt_0_INR. lia. }
  apply le_INR in Hij. nra.
Qed.

Lemma continuous_node pal mn mx n k :
  (2 <= n <= 129)%nat -> mn < mx -> (k < n)%nat ->
  colormap_channel pal true mn mx n (linspace_at mn mx n k) = Fin (255 * nth k pal 0).
Proof.
  intros Hn Hm Hk. destruct (Nat.eq_dec k (n - 1)) as [->|Hk'].
  - rewrite (continuous_ok pal mn mx n _ (n - 2)); try lia; try lra.
    + replace (n - 1)%nat with (S (n - 2)) by lia. rewrite lerp_node_hi by (auto; lia). reflexivity.
    + replace (S (n - 2)) with (n - 1)%nat by lia. split; [apply node_le; try lia; lra|lra].
  - rewrite (continuous_ok pal mn mx n _ k); try lia; try lra.
    + rewrite lerp_node by (auto; lia). reflexivity.
    + split; [lra|apply node_le; try lia; lra].
Qed.

Lemma clipped_low pal cont mn mx n g : mn <= mx -> g < mn -> colormap_channel pal cont mn mx n g = Fin (255 * nth 0 pal 0).
Proof.
  intros Hm Hg. unfold colormap_channel. destruct (find_colors _ _ _) as [lo hi].
  rewrite (Rltb_true g mn) by exact Hg. rewrite (Rltb_false mx g) by lra. simpl. f_equal. ring.
Qed.
Lemma clipped_high pal cont mn mx n g : mx < g -> colormap_channel pal cont mn mx n g = Fin (255 * last pal 0).
Proof.
  intros Hg. unfold colormap_channel. destruct (find_colors _ _ _) as [lo hi].
  rewrite (Rltb_true mx g) by exact Hg. simpl. f_equal. ring.
Qed.

(** Discrete mode, for the adjusted clip mx *)
Lemma discrete_bin pal mn mx n g k :
  (2 <= n <= 129)%nat -> mn < mx -> (k + 1 < n)%nat ->
  linspace_at mn mx n k <= g < linspace_at mn mx n (S k) ->
  colormap_channel pal false mn mx n g = Fin (255 * nth k pal 0).
Proof.
  intros Hn Hm Hk Hb. pose proof (step_pos mn mx n ltac:(lia) Hm) as Hs.
  assert (Hg : mn <= g <= mx).
  { rewrite !linspace_at_step in Hb by lia. pose proof (pos_INR k).
    pose proof (linspace_last mn mx n ltac:(lia)) as L. rewrite linspace_at_step in L by lia.
    assert (INR (S k) <= INR (n - 1)) by (apply le_INR; lia). split; nra. }
  destruct (find_bin_ok mn mx n g) as (j & Hj & Hbj & E & Hl); [lia|lra|].
  unfold colormap_channel. rewrite E. cbn [bin_idx bin_lo bin_hi].
  rewrite wrap8_small by lia. rewrite find_colors_hit by exact Hj.
  rewrite Rltb_false by lra. rewrite Rltb_false by lra. cbn [fmap]. f_equal.
  assert (Ekj : j = k).
  { destruct (Nat.lt_trichotomy j k) as [H|[H|H]]; auto; exfalso.
    - apply (Hl k); auto. lra.
    - assert (linspace_at mn mx n (S k) <= linspace_at mn mx n j) by (apply node_le; try lia; lra). lra. }
  subst j. ring.
Qed.
Lemma discrete_last_edge pal mn mx n :
  (2 <= n <= 129)%nat -> mn < mx -> colormap_channel pal false mn mx n mx = Fin (255 * nth (n - 2) pal 0).
Proof.
  intros Hn Hm. pose proof (step_pos mn mx n ltac:(lia) Hm) as Hs.
  destruct (find_bin_ok mn mx n mx) as (j & Hj & Hbj & E & Hl); [lia|lra|].
  unfold colormap_channel. rewrite E. cbn [bin_idx bin_lo bin_hi].
  rewrite wrap8_small by lia. rewrite find_colors_hit by exact Hj.
  rewrite Rltb_false by lra. rewrite Rltb_false by lra. cbn [fmap]. f_equal.
  assert (j = n - 2)%nat.
  { destruct (Nat.eq_dec j (n - 2)); auto. exfalso. apply (Hl (n - 2)%nat); try lia.
    replace (S (n - 2)) with (n - 1)%nat by lia. rewrite linspace_last by lia. split; [|lra].
    rewrite <- (linspace_last mn mx n) at 2 by lia. apply node_le; try lia. lra. }
  subst j. ring.
Qed.

(** Palettes whose bins need more than 7 bits *)
Lemma long_palette_black pal mn mx n g cont :
  (130 <= n <= 257)%nat -> mn < mx -> linspace_at mn mx n 128 < g <= mx ->
  colormap_channel pal cont mn mx n g = Fin 0.
Proof.
  intros Hn Hm Hg. pose proof (step_pos mn mx n ltac:(lia) Hm) as Hs.
  assert (mn <= g). { rewrite linspace_at_step in Hg by lia. pose proof (pos_INR 128). nra. }
  destruct (find_bin_ok mn mx n g) as (j & Hj & Hbj & E & Hl); [lia|lra|].
  assert (Hj128 : (128 <= j)%nat).
  { destruct (Nat.le_gt_cases 128 j); auto. exfalso.
    assert (linspace_at mn mx n (S j) <= linspace_at mn mx n 128) by (apply node_le; try lia; lra). lra. }
  unfold colormap_channel. rewrite E. cbn [bin_idx bin_lo bin_hi].
  rewrite wrap8_big by lia. rewrite find_colors_miss by lia.
  assert (Ed : linspace_at mn mx n (S j) - linspace_at mn mx n j = step mn mx n).
  { rewrite !linspace_at_step by lia. rewrite S_INR. lra. }
  rewrite Ed. rewrite fdiv_nz by lra.
  rewrite Rltb_false by lra. rewrite Rltb_false by lra. destruct cont; cbn [fmap]; f_equal; ring.
Qed.

Lemma wrap8_mod i : wrap8 i = (if Nat.ltb (i mod 256) 128 then Z.of_nat (i mod 256) else Z.of_nat (i mod 256) - 256)%Z.
Proof.
  pose proof (Nat.div_mod i 256 ltac:(lia)) as E. pose proof (Nat.mod_upper_bound i 256 ltac:(lia)) as U.
  set (q := (i / 256)%nat) in *. set (r := (i mod 256)%nat) in *. unfold wrap8.
  replace (Z.of_nat i + 128)%Z with (Z.of_nat r + 128 + Z.of_nat q * 256)%Z by lia.
  rewrite Z.mod_add by lia. destruct (Nat.ltb_spec r 128).
  - rewrite Z.mod_small by lia. lia.
  - replace (Z.of_nat r + 128)%Z with (Z.of_nat r - 128 + 1 * 256)%Z by lia.
    rewrite Z.mod_add by lia. rewrite Z.mod_small by lia. lia.
Qed.

(** Any number of colours *)
Lemma any_palette pal mn mx n g i cont :
  (2 <= n)%nat -> mn < mx -> (i + 1 < n)%nat ->
  linspace_at mn mx n i <= g ->
  g < linspace_at mn mx n (S i) \/ (i = (n - 2)%nat /\ g = mx) ->
  colormap_channel pal cont mn mx n g =
  let j := (i mod 256)%nat in
  let w := (g - linspace_at mn mx n i) / step mn mx n in
  let lo := if Nat.ltb j 128 then nth j pal 0 else 0 in
  let hi := if Nat.ltb j 128 then nth (S j) pal 0 else 0 in
  Fin (255 * (if cont then (1 - w) * lo + w * hi else lo)).
Proof.
  intros Hn Hm Hi Hlo Hhi. pose proof (step_pos mn mx n ltac:(lia) Hm) as Hs.
  assert (Hg : mn <= g <= mx).
  { assert (linspace_at mn mx n 0 <= linspace_at mn mx n i) by (apply node_le; try lia; lra).
    assert (linspace_at mn mx n (S i) <= linspace_at mn mx n (n - 1)) by (apply node_le; try lia; lra).
    rewrite linspace_first, linspace_last in * by lia. destruct Hhi as [H1|[_ ->]]; lra. }
  destruct (find_bin_ok mn mx n g) as (k & Hk & Hbk & E & Hl); [lia|lra|].
  assert (k = i).
  { assert (linspace_at mn mx n i <= g <= linspace_at mn mx n (S i)).
    { destruct Hhi as [H1|[-> ->]]; [lra|]. replace (S (n - 2)) with (n - 1)%nat by lia. rewrite linspace_last by lia. lra. }
    destruct (Nat.lt_trichotomy k i) as [H1|[H1|H1]]; auto; exfalso.
    - apply (Hl i); auto.
    - destruct Hhi as [H2|[-> _]]; [|lia].
      assert (linspace_at mn mx n (S i) <= linspace_at mn mx n k) by (apply node_le; try lia; lra). lra. }
  subst k. unfold colormap_channel. rewrite E. cbn [bin_idx bin_lo bin_hi].
  assert (Ed : linspace_at mn mx n (S i) - linspace_at mn mx n i = step mn mx n).
  { rewrite !linspace_at_step by lia. rewrite S_INR. lra. }
  rewrite Ed. rewrite fdiv_nz by lra. rewrite wrap8_mod. cbv zeta.
  pose proof (Nat.mod_upper_bound i 256 ltac:(lia)) as U. pose proof (Nat.mod_le i 256 ltac:(lia)) as U2.
  destruct (Nat.ltb_spec (i mod 256) 128).
  - rewrite find_colors_hit by lia. rewrite !Rltb_false by lra. destruct cont; cbn [fmap]; f_equal; ring.
  - rewrite find_colors_miss by lia. rewrite !Rltb_false by lra. destruct cont; cbn [fmap]; f_equal; ring.
Qed.

Lemma constant_range_nan pal mn n : (2 <= n)%nat -> colormap_channel pal true mn mn n mn = NonFinite.
Proof.
  intros Hn. destruct (find_bin_ok mn mn n mn) as (j & Hj & Hbj & E & Hl); [lia|lra|].
  unfold colormap_channel. rewrite E. cbn [bin_idx bin_lo bin_hi].
  destruct (find_colors _ _ _) as [lo hi].
  assert (Ed : linspace_at mn mn n (S j) - linspace_at mn mn n j = 0).
  { rewrite !linspace_at_step by exact Hn. unfold step. replace (mn - mn) with 0 by lra. unfold Rdiv. lra. }
  rewrite Ed, fdiv_0. rewrite Rltb_false by lra. reflexivity.
Qed.

(** Asking for as many bins as the palette has colours changes nothing *)
Lemma map_linspace_nth (c : list R) n : length c = n -> map (fun i => nth i c 0) (seq 0 n) = c.
Proof.
  intros <-. apply nth_error_ext. intros k. rewrite nth_error_map.
  destruct (Nat.lt_ge_cases k (length c)) as [H|H].
  - rewrite (nth_error_nth' (seq 0 (length c)) O) by (rewrite seq_length; exact H).
    rewrite seq_nth by exact H. simpl. symmetry. apply nth_error_nth'. exact H.
  - rewrite (proj2 (nth_error_None c k)) by exact H.
    rewrite (proj2 (nth_error_None (seq 0 (length c)) k)) by (rewrite seq_length; exact H). reflexivity.
Qed.

Lemma linspace_extremes mn mx n :
  (2 <= n)%nat -> mn <= mx -> rmin (linspace mn mx n) = Some mn /\ rmax (linspace mn mx n) = Some mx.
Proof.
  intros Hn Hm.
  assert (Hne : linspace mn mx n <> []).
  { unfold linspace. destruct n; [lia|]. simpl. discriminate. }
  destruct (rmin_some _ Hne) as (a & Ea). destruct (rmax_some _ Hne) as (b & Eb).
  destruct (rmin_spec _ _ Ea) as [Ia La]. destruct (rmax_spec _ _ Eb) as [Ib Lb].
  assert (B : forall v, In v (linspace mn mx n) -> mn <= v <= mx).
  { intros v Hv. unfold linspace in Hv. apply in_map_iff in Hv. destruct Hv as (i & <- & Hi). apply in_seq in Hi.
    pose proof (node_le mn mx n 0 i Hn Hm ltac:(lia)) as A. rewrite linspace_first in A by exact Hn.
    pose proof (node_le mn mx n i (n - 1) Hn Hm ltac:(lia)) as B. rewrite linspace_last in B by exact Hn. lra. }
  assert (I1 : In mn (linspace mn mx n)).
  { unfold linspace. apply in_map_iff. exists O. split; [apply linspace_first; exact Hn|apply in_seq; lia]. }
  assert (I2 : In mx (linspace mn mx n)).
  { unfold linspace. apply in_map_iff. exists (n - 1)%nat. split; [apply linspace_last; exact Hn|apply in_seq; lia]. }
  pose proof (La _ I1). pose proof (Lb _ I2). pose proof (B _ Ia). pose proof (B _ Ib).
  rewrite Ea, Eb. split; f_equal; lra.
Qed.

Lemma resample_same p mn mx :
  (2 <= pal_len p <= 129)%nat -> length (pal_g p) = pal_len p -> length (pal_b p) = pal_len p -> mn < mx ->
  resample_palette p mn mx (pal_len p) = Ok (Some p).
Proof.
  intros Hn Lg Lb Hm. unfold resample_palette.
  destruct (linspace_extremes mn mx (pal_len p)) as [-> ->]; [lia|lra|].
  rewrite !(proj2 (Nat.eqb_neq (pal_len p) _)) by lia. rewrite Reqb_false by lra. cbn [orb].
  assert (C : forall c, length c = pal_len p ->
    map (fun v => match colormap_channel c true mn mx (pal_len p) v with Fin x => x / 255 | NonFinite => 0 end)
        (linspace mn mx (pal_len p)) = c).
  { intros c Lc. unfold linspace. rewrite map_map. transitivity (map (fun i => nth i c 0) (seq 0 (pal_len p))).
    - apply map_ext_in. intros i Hi. apply in_seq in Hi. rewrite continuous_node by (auto; lia). field.
    - apply map_linspace_nth. exact Lc. }
  rewrite !C by auto. destruct p; reflexivity.
Qed.

Lemma resample_any p mn mx m :
  (2 <= pal_len p <= 129)%nat -> mn < mx -> (2 <= m)%nat ->
  exists q, resample_palette p mn mx m = Ok (Some q) /\ (pal_len q = m /\ length (pal_g q) = m /\ length (pal_b q) = m) /\
    forall k, (k < m)%nat ->
      colormap_channel (pal_r p) true mn mx (pal_len p) (linspace_at mn mx m k) = Fin (255 * nth k (pal_r q) 0) /\
      colormap_channel (pal_g p) true mn mx (pal_len p) (linspace_at mn mx m k) = Fin (255 * nth k (pal_g q) 0) /\
      colormap_channel (pal_b p) true mn mx (pal_len p) (linspace_at mn mx m k) = Fin (255 * nth k (pal_b q) 0).
Proof.
  intros Hn Hm Hk. unfold resample_palette. destruct (linspace_extremes mn mx m) as [-> ->]; [lia|lra|].
  rewrite !(proj2 (Nat.eqb_neq (pal_len p) _)) by lia. rewrite (proj2 (Nat.eqb_neq m _)) by lia. rewrite Reqb_false by lra. cbn [orb].
  eexists. split; [reflexivity|]. split.
  - unfold pal_len at 1. cbn [pal_r pal_g pal_b]. rewrite !map_length. unfold linspace. rewrite map_length, seq_length. auto.
  - intros k Lk. cbn [pal_r pal_g pal_b].
    assert (C : forall c, colormap_channel c true mn mx (pal_len p) (linspace_at mn mx m k) =
      Fin (255 * nth k (map (fun v => match colormap_channel c true mn mx (pal_len p) v with Fin x => x / 255 | NonFinite => 0 end)
                          (linspace mn mx m)) 0)).
    { intros c. unfold linspace. rewrite map_map.
      match goal with |- context [nth k (map ?f _) 0] => rewrite (nth_indep _ 0 (f 0%nat)) by (rewrite map_length, seq_length; exact Lk);
        rewrite (map_nth f) end.
      rewrite seq_nth by exact Lk. cbn [plus Nat.add].
      destruct (bin_exists mn mx (pal_len p) (linspace_at mn mx m k) (pal_len p - 1)) as (i & Hi & Hb); [lia|lia| |].
      - rewrite linspace_first, linspace_last by lia.
        assert (linspace_at mn mx m 0 <= linspace_at mn mx m k) by (apply node_le; try lia; lra).
        assert (linspace_at mn mx m k <= linspace_at mn mx m (m - 1)) by (apply node_le; try lia; lra).
        rewrite linspace_first, linspace_last in * by lia. lra.
      - rewrite (continuous_ok c mn mx (pal_len p) _ i) by (auto; lia). f_equal. field. }
    split; [apply C|]. split; apply C.
Qed.

Lemma cast_uint8_range v : 0 <= v < 256 ->
  exists b, cast_uint8 (Fin v) = Some b /\ (0 <= b <= 255)%Z /\ IZR b <= v < IZR b + 1.
Proof.
  intros H. unfold cast_uint8. rewrite Rltb_false by lra.
  destruct (base_Int_part v) as [H1 H2]. set (z := Int_part v) in *.
  assert (0 <= z < 256)%Z. { split; [|apply lt_IZR; lra]. assert (-1 < z)%Z; [apply lt_IZR; lra|lia]. }
  exists z. rewrite Z.mod_small by lia. split; [reflexivity|]. split; [lia|lra].
Qed.

(* ------------------------- mutual information --------------------- *)

Lemma mmi_symmetric n h1 h2 J : histogram_mmi n h1 h2 J = histogram_mmi n h2 h1 (fun a b => J b a).
Proof.
  unfold histogram_mmi. rewrite bigsum_swap. apply bigsum_ext. intros a _. apply bigsum_ext. intros b _.
  destruct (Reqb (J b a) 0); auto. rewrite (Rmult_comm (h2 a)). reflexivity.
Qed.

Lemma ln_lower t : 0 < t -> 1 - / t <= ln t.
Proof.
  intros Ht. assert (Hi : 0 < / t) by (apply Rinv_0_lt_compat; exact Ht).
  pose proof (exp_ineq1_le (ln (/ t))) as H. rewrite exp_ln in H by exact Hi.
  rewrite ln_Rinv in H by exact Ht. lra.
Qed.

Lemma bigsum_single_le n f i : (forall k, (k < n)%nat -> 0 <= f k) -> (i < n)%nat -> f i <= bigsum n f.
Proof.
  induction n; intros H Hi; [lia|]. rewrite bigsum_S.
  destruct (Nat.eq_dec i n) as [->|].
  - assert (0 <= bigsum n f) by (apply bigsum_nonneg; auto). lra.
  - assert (f i <= bigsum n f) by (apply IHn; auto; lia). specialize (H n ltac:(lia)). lra.
Qed.

Lemma ln_lower_eq t : 0 < t -> ln t = 1 - / t -> t = 1.
Proof.
  intros Ht E. assert (Hi : 0 < / t) by (apply Rinv_0_lt_compat; exact Ht).
  destruct (Req_dec (ln (/ t)) 0) as [Z|NZ].
  - rewrite ln_Rinv in Z by exact Ht. apply ln_inv; [exact Ht|lra|]. rewrite ln_1. lra.
  - pose proof (exp_ineq1 (ln (/ t)) NZ) as H. rewrite exp_ln in H by exact Hi. rewrite ln_Rinv in H by exact Ht. lra.
Qed.
Lemma bigsum_eq_le n f g : (forall i, (i < n)%nat -> f i <= g i) -> bigsum n f = bigsum n g -> forall i, (i < n)%nat -> f i = g i.
Proof.
  intros H E i Hi. assert (D : bigsum n (fun k => g k - f k) = 0) by (rewrite bigsum_minus; lra).
  pose proof (bigsum_single_le n (fun k => g k - f k) i ltac:(intros k Hk; specialize (H k Hk); lra) Hi) as L. specialize (H i Hi). cbv beta in L. lra.
Qed.
Definition mmi_term (j a b : R) : R := if Reqb j 0 then 0 else j * ln (j / (a * b)).
Lemma mmi_term_lower j a b N : 0 <= j -> 0 <= a -> 0 <= b -> 0 < N -> (0 < j -> 0 < a /\ 0 < b) ->
  j - a * b / N - j * ln N <= mmi_term j a b /\ (j - a * b / N - j * ln N = mmi_term j a b <-> j = a * b / N).
Proof.
  intros HJ Ha Hb Npos HP. unfold mmi_term. assert (Q : 0 <= a * b / N).
  { apply Rmult_le_pos; [apply Rmult_le_pos; assumption|]. left. apply Rinv_0_lt_compat; exact Npos. }
  destruct (Reqb_spec j 0) as [Hz|Hz].
  - rewrite Hz. split; [lra|]. split; lra.
  - assert (Jp : 0 < j) by lra. destruct (HP Jp) as [h1p h2p].
    assert (Hhp : 0 < a * b) by (apply Rmult_lt_0_compat; assumption).
    assert (Eq : j / (a * b) = (j * N / (a * b)) * / N) by (field; split; lra).
    assert (Hq : 0 < j * N / (a * b)) by (apply Rdiv_lt_0_compat; [nra|exact Hhp]).
    rewrite Eq, ln_mult by (auto; apply Rinv_0_lt_compat; exact Npos). rewrite ln_Rinv by exact Npos.
    pose proof (ln_lower _ Hq) as L. pose proof (ln_lower_eq _ Hq) as LE. set (t := j * N / (a * b)) in *.
    assert (Ei : j * (1 - / t) = j - a * b / N) by (unfold t; field; repeat split; lra).
    split; [nra|]. split.
    + intros E. assert (T : t = 1). { apply LE. apply Rmult_eq_reg_l with j; [|lra]. lra. }
      unfold t in T. assert (j * N = a * b). { apply Rmult_eq_reg_r with (/ (a * b)); [|apply Rinv_neq_0_compat; lra]. fold (j * N / (a * b)). rewrite T. field. lra. }
      rewrite <- H. field. lra.
    + intros E. assert (T : t = 1). { unfold t. rewrite E. field. repeat split; lra. }
      rewrite T, ln_1. lra.
Qed.
Lemma mmi_lower_iff n h1 h2 J N :
  (forall a b, (a < n)%nat -> (b < n)%nat -> 0 <= J a b) ->
  (forall a, (a < n)%nat -> h1 a = bigsum n (fun b => J a b)) ->
  (forall b, (b < n)%nat -> h2 b = bigsum n (fun a => J a b)) ->
  N = bigsum n (fun a => bigsum n (fun b => J a b)) -> 0 < N ->
  - (N * ln N) <= histogram_mmi n h1 h2 J /\
  (histogram_mmi n h1 h2 J = - (N * ln N) <-> forall a b, (a < n)%nat -> (b < n)%nat -> J a b = h1 a * h2 b / N).
Proof.
  intros HJ H1 H2 HN Npos. unfold histogram_mmi.
  assert (P1 : forall a, (a < n)%nat -> 0 <= h1 a).
  { intros a Ha. rewrite H1 by exact Ha. apply bigsum_nonneg. auto. }
  assert (P2 : forall a, (a < n)%nat -> 0 <= h2 a).
  { intros a Ha. rewrite H2 by exact Ha. apply bigsum_nonneg. auto. }
  assert (S1 : bigsum n h1 = N).
  { rewrite HN. apply bigsum_ext. exact H1. }
  assert (S2 : bigsum n h2 = N).
  { rewrite HN, bigsum_swap. apply bigsum_ext. exact H2. }
  assert (SUM : bigsum n (fun a => bigsum n (fun b => J a b - h1 a * h2 b / N - J a b * ln N)) = - (N * ln N)).
  { rewrite (bigsum_ext n _ (fun a => h1 a - h1 a * 1 - h1 a * ln N)).
    + rewrite !bigsum_minus, !bigsum_scal_r, S1. lra.
    + intros a Ha. rewrite !bigsum_minus, bigsum_scal_r, <- H1 by exact Ha.
      rewrite (bigsum_ext n (fun b => h1 a * h2 b / N) (fun b => (h1 a / N) * h2 b)) by (intros; unfold Rdiv; ring).
      rewrite bigsum_scal, S2. field_simplify; [lra|lra]. }
  assert (T : forall a b, (a < n)%nat -> (b < n)%nat ->
    J a b - h1 a * h2 b / N - J a b * ln N <= mmi_term (J a b) (h1 a) (h2 b) /\
    (J a b - h1 a * h2 b / N - J a b * ln N = mmi_term (J a b) (h1 a) (h2 b) <-> J a b = h1 a * h2 b / N)).
  { intros a b Ha Hb. apply mmi_term_lower; auto. intros Jp. split.
    - rewrite H1 by exact Ha. pose proof (bigsum_single_le n (fun b => J a b) b ltac:(auto) Hb). simpl in *. lra.
    - rewrite H2 by exact Hb. pose proof (bigsum_single_le n (fun a => J a b) a (fun k Hk => HJ k b Hk Hb) Ha). simpl in *. lra. }
  change (fun a => bigsum n (fun b => if Reqb (J a b) 0 then 0 else J a b * ln (J a b / (h1 a * h2 b))))
    with (fun a => bigsum n (fun b => mmi_term (J a b) (h1 a) (h2 b))).
  rewrite <- SUM. split.
  - apply bigsum_le. intros a Ha. apply bigsum_le. intros b Hb. now apply T.
  - split.
    + intros E a b Ha Hb. apply T; auto.
      assert (E1 := bigsum_eq_le n _ _ ltac:(intros a' Ha'; apply bigsum_le; intros b' Hb'; exact (proj1 (T a' b' Ha' Hb'))) (eq_sym E) a Ha). cbv beta in E1.
      exact (bigsum_eq_le n _ _ ltac:(intros b' Hb'; exact (proj1 (T a b' Ha Hb'))) E1 b Hb).
    + intros E. apply bigsum_ext. intros a Ha. apply bigsum_ext. intros b Hb. symmetry. apply T; auto.
Qed.
Lemma mmi_upper n h1 h2 J :
  (forall a b, (a < n)%nat -> (b < n)%nat -> 0 <= J a b) ->
  (forall a, (a < n)%nat -> h1 a = bigsum n (fun b => J a b)) ->
  (forall b, (b < n)%nat -> h2 b = bigsum n (fun a => J a b)) ->
  histogram_mmi n h1 h2 J <= - bigsum n (fun b => h2 b * ln (h2 b)).
Proof.
  intros HJ H1 H2. unfold histogram_mmi. rewrite bigsum_swap.
  replace (- bigsum n (fun b => h2 b * ln (h2 b))) with (bigsum n (fun b => -1 * (h2 b * ln (h2 b)))) by (rewrite bigsum_scal; lra).
  apply bigsum_le. intros b Hb. replace (-1 * (h2 b * ln (h2 b))) with (bigsum n (fun a => -1 * (J a b * ln (h2 b)))).
  2:{ rewrite bigsum_scal, bigsum_scal_r. f_equal. f_equal. symmetry. now apply H2. }
  apply bigsum_le. intros a Ha. destruct (Reqb_spec (J a b) 0) as [Z|NZ]; [rewrite Z; lra|].
  assert (Jp : 0 < J a b) by (specialize (HJ a b Ha Hb); lra).
  assert (L1 : J a b <= h1 a). { rewrite H1 by exact Ha. exact (bigsum_single_le n (fun b => J a b) b ltac:(auto) Hb). }
  assert (L2 : J a b <= h2 b). { rewrite H2 by exact Hb. exact (bigsum_single_le n (fun a => J a b) a (fun k Hk => HJ k b Hk Hb) Ha). }
  assert (LE : ln (J a b / (h1 a * h2 b)) <= - ln (h2 b)).
  { rewrite <- ln_Rinv by lra. assert (Q : J a b / (h1 a * h2 b) <= / h2 b).
    { apply Rmult_le_reg_r with (h1 a * h2 b); [apply Rmult_lt_0_compat; lra|]. unfold Rdiv. rewrite Rmult_assoc, Rinv_l by (apply Rgt_not_eq, Rmult_lt_0_compat; lra). rewrite Rmult_1_r.
      replace (/ h2 b * (h1 a * h2 b)) with (h1 a) by (field; lra). exact L1. }
    assert (0 < J a b / (h1 a * h2 b)) by (apply Rdiv_lt_0_compat; [lra|apply Rmult_lt_0_compat; lra]).
    destruct Q as [Q|Q]; [left; now apply ln_increasing|right; now rewrite Q]. }
  assert (J a b * ln (J a b / (h1 a * h2 b)) <= J a b * - ln (h2 b)) by (apply Rmult_le_compat_l; lra). lra.
Qed.
Lemma mmi_self n h : (forall a, (a < n)%nat -> 0 <= h a) ->
  histogram_mmi n h h (fun a b => if Nat.eqb a b then h a else 0) = - bigsum n (fun b => h b * ln (h b)).
Proof.
  intros P. unfold histogram_mmi. replace (- bigsum n (fun b => h b * ln (h b))) with (bigsum n (fun b => -1 * (h b * ln (h b)))) by (rewrite bigsum_scal; lra).
  apply bigsum_ext. intros a Ha. rewrite (bigsum_ext n _ (fun b => if Nat.eqb b a then mmi_term (h b) (h b) (h b) else 0)).
  - rewrite (bigsum_delta n a (fun b => mmi_term (h b) (h b) (h b)) Ha). unfold mmi_term. destruct (Reqb_spec (h a) 0) as [Z|NZ]; [rewrite Z; lra|].
    specialize (P a Ha). replace (h a / (h a * h a)) with (/ h a) by (field; lra). rewrite ln_Rinv by lra. lra.
  - intros b Hb. rewrite (Nat.eqb_sym b a). destruct (Nat.eqb_spec a b) as [->|]; [reflexivity|]. rewrite Reqb_true by reflexivity. reflexivity.
Qed.
