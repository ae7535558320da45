(** Lemmas for C84. *)
From Coq Require Import Permutation.
From Verif Require Import RAux M_Mmi Spec_Mmi P_Photo P_ImageR.
Open Scope R_scope.
Open Scope list_scope.

Lemma range_spec l lo hi : hist_range l = (lo, hi) -> l <> [] -> brightness_range l lo hi /\ lo < hi /\
  (forall v, In v l -> lo <= v <= hi).
Proof.
  unfold hist_range. intros H Hne.
  destruct (rmin l) as [a|] eqn:Ea.
  2:{ exfalso. destruct l as [|x l]; [congruence|]. cbn in Ea. destruct (rmin l); discriminate. }
  destruct (rmax l) as [b|] eqn:Eb.
  2:{ exfalso. destruct l as [|x l]; [congruence|]. cbn in Eb. destruct (rmax l); discriminate. }
  apply rmin_spec in Ea. apply rmax_spec in Eb. destruct Ea as [A1 A2], Eb as [B1 B2].
  pose proof (A2 b B1) as AB.
  destruct (Reqb_spec a b) as [E|N]; injection H as <- <-.
  - split; [|split].
    + exists a, b. repeat split; auto; intros; lra.
    + lra.
    + intros v Hv. specialize (A2 v Hv). specialize (B2 v Hv). lra.
  - split; [|split].
    + exists a, b. repeat split; auto; intros; lra.
    + lra.
    + intros v Hv. split; auto.
Qed.

Lemma range_lt l : fst (hist_range l) < snd (hist_range l).
Proof.
  destruct l as [|x l]; [cbn; lra|].
  destruct (hist_range (x :: l)) as [lo hi] eqn:E. apply range_spec in E; [|discriminate]. apply E.
Qed.

Lemma truncZ_unique x k : IZR k <= x < IZR k + 1 -> (0 <= k)%Z -> truncZ x = k.
Proof.
  intros [A B] Hk. assert (0 <= IZR k) by (apply IZR_le; exact Hk).
  destruct (truncZ_nonneg x) as [[C D] E]; [lra|].
  assert (truncZ x < k + 1)%Z by (apply lt_IZR; rewrite plus_IZR; lra).
  assert (k < truncZ x + 1)%Z by (apply lt_IZR; rewrite plus_IZR; lra). lia.
Qed.

(** The bin number *)
Lemma hist_bin_spec lo hi n v k : lo < hi -> (1 <= n)%nat -> lo <= v <= hi ->
  hist_bin lo hi n v = Z.of_nat k <-> (k < n)%nat /\ lies_in_bin lo hi n k v.
Proof.
  intros L Hn Hv. unfold hist_bin, lies_in_bin.
  assert (Pn : 0 < INR n) by (apply lt_0_INR; lia).
  set (w := (hi - lo) / INR n). assert (Pw : 0 < w) by (apply Rdiv_lt_0_compat; lra).
  assert (Ew : INR n * w = hi - lo) by (unfold w; field; lra).
  set (x := (v - lo) * (INR n / (hi - lo))).
  assert (Ex : x * w = v - lo) by (unfold x, w; field; lra).
  assert (Px : 0 <= x) by (apply (Rmult_le_reg_r w); [exact Pw|]; rewrite Ex; lra).
  assert (Qx : x <= INR n) by (apply (Rmult_le_reg_r w); [exact Pw|]; rewrite Ex, Ew; lra).
  destruct (truncZ_nonneg x Px) as [[A B] C].
  assert (TK : forall k : nat, truncZ x = Z.of_nat k <-> lo + INR k * w <= v /\ v < lo + (INR k + 1) * w).
  { intros j. split.
    - intros E. rewrite E in A, B. rewrite <- INR_IZR_INZ in A, B. split; nra.
    - intros [P Q]. apply truncZ_unique; [|lia]. rewrite <- INR_IZR_INZ.
      split; [apply (Rmult_le_reg_r w); [exact Pw|]; rewrite Ex; lra|apply (Rmult_lt_reg_r w); [exact Pw|]; rewrite Ex; lra]. }
  assert (TN : truncZ x = Z.of_nat n <-> v = hi).
  { rewrite TK. split; [intros [P _]; lra|intros ->; split; lra]. }
  assert (LE : (truncZ x <= Z.of_nat n)%Z) by (apply le_IZR; rewrite <- INR_IZR_INZ; lra).
  destruct (Z.eqb_spec (truncZ x) (Z.of_nat n)) as [E|N].
  - assert (v = hi) by (apply TN; exact E). subst v. split.
    + intros H. assert (S k = n) by lia. split; [lia|]. split; [|auto].
      assert (INR k <= INR n) by (apply le_INR; lia). nra.
    + intros [H1 [H2 [H3|[H3 _]]]]; [|lia]. exfalso.
      assert (INR k + 1 <= INR n) by (rewrite <- S_INR; apply le_INR; lia). nra.
  - assert (v <> hi) by (intros Ev; apply N, TN, Ev). rewrite TK. split.
    + intros [P Q]. split; [|auto]. apply INR_lt. nra.
    + intros [H1 [H2 [H3|[_ H3]]]]; [auto|contradiction].
Qed.

Lemma count_prefix (f : nat -> bool) m k : (k <= m)%nat -> (forall j, (j < k)%nat -> f j = true) ->
  (forall j, (k <= j < m)%nat -> f j = false) -> count_if f (seq 0 m) = k.
Proof.
  intros Hk H1 H2. unfold count_if. replace m with (k + (m - k))%nat by lia. rewrite seq_app, filter_app, app_length. cbn [plus].
  assert (E1 : filter f (seq 0 k) = seq 0 k).
  { clear Hk H2. assert (G : forall l, (forall j, In j l -> f j = true) -> filter f l = l).
    { induction l as [|a l IH]; intros H; cbn; [reflexivity|]. rewrite (H a) by (left; reflexivity). f_equal. apply IH. intros; apply H; right; assumption. }
    apply G. intros j Hj. apply in_seq in Hj. apply H1. lia. }
  assert (E2 : filter f (seq k (m - k)) = []).
  { assert (G : forall l, (forall j, In j l -> f j = false) -> filter f l = []).
    { induction l as [|a l IH]; intros H; cbn; [reflexivity|]. rewrite (H a) by (left; reflexivity). apply IH. intros; apply H; right; assumption. }
    apply G. intros j Hj. apply in_seq in Hj. apply H2. lia. }
  rewrite E1, E2, seq_length. cbn. lia.
Qed.

(** Both numpy functions number the bins alike *)
Lemma bins_agree lo hi n v : lo < hi -> (1 <= n)%nat -> lo <= v <= hi -> dd_bin lo hi n v = hist_bin lo hi n v.
Proof.
  intros L Hn Hv. unfold dd_bin, hist_bin, edge.
  assert (Pn : 0 < INR n) by (apply lt_0_INR; lia).
  set (w := (hi - lo) / INR n). assert (Pw : 0 < w) by (apply Rdiv_lt_0_compat; lra).
  assert (Ew : INR n * w = hi - lo) by (unfold w; field; lra).
  set (x := (v - lo) * (INR n / (hi - lo))).
  assert (Ex : x * w = v - lo) by (unfold x, w; field; lra).
  assert (Px : 0 <= x) by (apply (Rmult_le_reg_r w); [exact Pw|]; rewrite Ex; lra).
  assert (Qx : x <= INR n) by (apply (Rmult_le_reg_r w); [exact Pw|]; rewrite Ex, Ew; lra).
  destruct (truncZ_nonneg x Px) as [[A B] C].
  assert (LE : (truncZ x <= Z.of_nat n)%Z) by (apply le_IZR; rewrite <- INR_IZR_INZ; lra).
  set (t := truncZ x) in *.
  assert (E : count_if (fun k => Rleb (lo + INR k * w) v) (seq 0 (n + 1)) = Z.to_nat (t + 1)).
  { apply count_prefix; [lia| |].
    - intros j Hj. apply Rleb_true. assert (INR j <= IZR t) by (rewrite INR_IZR_INZ; apply IZR_le; lia). nra.
    - intros j Hj. apply Rleb_false.
      assert (IZR t + 1 <= INR j) by (rewrite INR_IZR_INZ, <- plus_IZR; apply IZR_le; lia). nra. }
  rewrite E, Z2Nat.id by lia.
  destruct (Z.eqb_spec t (Z.of_nat n)) as [Et|Nt].
  - assert (v = hi). { rewrite Et, <- INR_IZR_INZ in A. nra. } rewrite Reqb_true by assumption. lia.
  - rewrite Reqb_false; [lia|]. intros ->. apply Nt.
    assert (x = INR n) by (apply (Rmult_eq_reg_r w); [rewrite Ex, Ew; lra|lra]).
    unfold t. rewrite H. apply truncZ_unique; [rewrite <- INR_IZR_INZ; lra|lia].
Qed.

Lemma bin_range lo hi n v : lo < hi -> (1 <= n)%nat -> lo <= v <= hi ->
  exists k, (k < n)%nat /\ hist_bin lo hi n v = Z.of_nat k.
Proof.
  intros L Hn Hv. unfold hist_bin.
  assert (Pn : 0 < INR n) by (apply lt_0_INR; lia).
  set (x := (v - lo) * (INR n / (hi - lo))).
  assert (Pq : 0 < INR n / (hi - lo)) by (apply Rdiv_lt_0_compat; lra).
  assert (Px : 0 <= x) by (apply Rmult_le_pos; lra).
  assert (Qx : x <= INR n).
  { replace (INR n) with ((hi - lo) * (INR n / (hi - lo))) by (field; lra). apply Rmult_le_compat_r; lra. }
  destruct (truncZ_nonneg x Px) as [[A B] C].
  assert (LE : (truncZ x <= Z.of_nat n)%Z) by (apply le_IZR; rewrite <- INR_IZR_INZ; lra).
  destruct (Z.eqb_spec (truncZ x) (Z.of_nat n)) as [E|N].
  - exists (n - 1)%nat. split; [lia|lia].
  - exists (Z.to_nat (truncZ x)). split; lia.
Qed.

(** The bin of every pixel of an image *)
Definition pixel_bin (n : nat) (l : list R) (v : R) : nat :=
  Z.to_nat (hist_bin (fst (hist_range l)) (snd (hist_range l)) n v).
Definition pixel_bins (n : nat) (l : list R) : list nat := map (pixel_bin n l) l.

Lemma pixel_bin_lt n l v : (1 <= n)%nat -> In v l -> (pixel_bin n l v < n)%nat /\
  hist_bin (fst (hist_range l)) (snd (hist_range l)) n v = Z.of_nat (pixel_bin n l v).
Proof.
  intros Hn Hv. unfold pixel_bin. assert (Ne : l <> []) by (intros ->; destruct Hv).
  destruct (hist_range l) as [lo hi] eqn:E. cbn [fst snd].
  destruct (range_spec l lo hi E Ne) as (_ & L & Q).
  destruct (bin_range lo hi n v L Hn (Q v Hv)) as (k & Hk & ->). lia.
Qed.

Lemma count_map {A B} (f : B -> bool) (g : A -> B) l : count_if f (map g l) = count_if (fun x => f (g x)) l.
Proof. unfold count_if. induction l as [|a l IH]; cbn; [reflexivity|]. destruct (f (g a)); cbn; rewrite IH; reflexivity. Qed.

Lemma count_ext {A} (f g : A -> bool) l : (forall x, In x l -> f x = g x) -> count_if f l = count_if g l.
Proof.
  unfold count_if. induction l as [|a l IH]; intros H; cbn; [reflexivity|]. rewrite (H a) by (left; reflexivity).
  destruct (g a); cbn; rewrite IH by (intros; apply H; right; assumption); reflexivity.
Qed.

Lemma hist_as_bins n l k : (1 <= n)%nat -> np_histogram n l k = count_if (Nat.eqb k) (pixel_bins n l).
Proof.
  intros Hn. unfold np_histogram, pixel_bins. rewrite count_map.
  assert (H : forall v, In v l -> hist_bin (fst (hist_range l)) (snd (hist_range l)) n v = Z.of_nat (pixel_bin n l v))
    by (intros v Hv; apply pixel_bin_lt; assumption).
  destruct (hist_range l) as [lo hi]. cbn [fst snd] in H. apply count_ext. intros v Hv. rewrite (H v Hv).
  destruct (Nat.eqb_spec k (pixel_bin n l v)) as [E|E]; [apply Z.eqb_eq|apply Z.eqb_neq]; lia.
Qed.

Lemma hist2d_as_bins n x y a b : (1 <= n)%nat ->
  np_histogram2d n x y a b =
  count_if (fun p => Nat.eqb a (fst p) && Nat.eqb b (snd p)) (combine (pixel_bins n x) (pixel_bins n y)).
Proof.
  intros Hn. unfold np_histogram2d, pixel_bins.
  assert (Hx : forall v, In v x -> dd_bin (fst (hist_range x)) (snd (hist_range x)) n v = Z.of_nat (pixel_bin n x v)).
  { intros v Hv. rewrite <- (proj2 (pixel_bin_lt n x v Hn Hv)). apply bins_agree; [apply range_lt|exact Hn|].
    destruct (hist_range x) as [lo hi] eqn:E. apply (range_spec x lo hi E); [|exact Hv]. intros ->; destruct Hv. }
  assert (Hy : forall v, In v y -> dd_bin (fst (hist_range y)) (snd (hist_range y)) n v = Z.of_nat (pixel_bin n y v)).
  { intros v Hv. rewrite <- (proj2 (pixel_bin_lt n y v Hn Hv)). apply bins_agree; [apply range_lt|exact Hn|].
    destruct (hist_range y) as [lo hi] eqn:E. apply (range_spec y lo hi E); [|exact Hv]. intros ->; destruct Hv. }
  destruct (hist_range x) as [xl xh], (hist_range y) as [yl yh]. cbn [fst snd] in *.
  generalize (pixel_bin n x) (pixel_bin n y) Hx Hy. clear Hx Hy.
  intros f g Hx Hy.
  assert (E : combine (map f x) (map g y) = map (fun p => (f (fst p), g (snd p))) (combine x y)).
  { clear. revert y. induction x as [|u x IH]; intros [|v y]; cbn; try reflexivity. f_equal. apply IH. }
  rewrite E, count_map. apply count_ext. intros [u v] Hp. cbn [fst snd].
  rewrite Hx by (eapply in_combine_l; exact Hp). rewrite Hy by (eapply in_combine_r; exact Hp).
  f_equal; match goal with |- Z.eqb (Z.of_nat ?p) (Z.of_nat ?q) = Nat.eqb _ _ => destruct (Nat.eqb_spec q p); [apply Z.eqb_eq|apply Z.eqb_neq]; lia end.
Qed.

(** The score depends on the bins of the pixels only *)
Definition bin_score (n : nat) (p q : list nat) : R :=
  histogram_mmi n (fun a => INR (count_if (Nat.eqb a) p)) (fun b => INR (count_if (Nat.eqb b) q))
    (fun a b => INR (count_if (fun t => Nat.eqb a (fst t) && Nat.eqb b (snd t)) (combine p q))).

Lemma histogram_mmi_ext n h1 h2 J k1 k2 L :
  (forall a, (a < n)%nat -> h1 a = k1 a) -> (forall a, (a < n)%nat -> h2 a = k2 a) ->
  (forall a b, (a < n)%nat -> (b < n)%nat -> J a b = L a b) -> histogram_mmi n h1 h2 J = histogram_mmi n k1 k2 L.
Proof.
  intros H1 H2 HJ. unfold histogram_mmi. apply bigsum_ext. intros a Ha. apply bigsum_ext. intros b Hb.
  rewrite HJ, H1, H2 by assumption. reflexivity.
Qed.

Lemma image_mmi_ok x y nb : (1 <= nb)%Z -> length x = length y ->
  image_mmi x y nb = Ok (bin_score (Z.to_nat nb) (pixel_bins (Z.to_nat nb) x) (pixel_bins (Z.to_nat nb) y)).
Proof.
  intros Hn HL. unfold image_mmi. replace (nb <? 1)%Z with false by lia. rewrite HL, Nat.eqb_refl. cbn [negb].
  f_equal. unfold bin_score. apply histogram_mmi_ext; intros.
  - rewrite hist_as_bins by lia. reflexivity.
  - rewrite hist_as_bins by lia. reflexivity.
  - rewrite hist2d_as_bins by lia. reflexivity.
Qed.

(* counting *)
Lemma marginal_l n (p q : list nat) a : length p = length q -> Forall (fun b => (b < n)%nat) q ->
  INR (count_if (Nat.eqb a) p) =
  bigsum n (fun b => INR (count_if (fun t => Nat.eqb a (fst t) && Nat.eqb b (snd t)) (combine p q))).
Proof.
  intros HL F. revert p HL. induction F as [|b q Hb F IH]; intros [|a' p] HL; cbn in HL; try lia.
  - cbn. rewrite bigsum_zero. reflexivity.
  - cbn [combine]. unfold count_if in *. cbn [filter fst snd].
    assert (E : forall c, INR (length (if (Nat.eqb a a' && Nat.eqb c b)%bool
        then (a', b) :: filter (fun t => Nat.eqb a (fst t) && Nat.eqb c (snd t)) (combine p q)
        else filter (fun t => Nat.eqb a (fst t) && Nat.eqb c (snd t)) (combine p q))) =
      (if Nat.eqb c b then (if Nat.eqb a a' then 1 else 0) else 0) +
      INR (length (filter (fun t => Nat.eqb a (fst t) && Nat.eqb c (snd t)) (combine p q)))).
    { intros c. destruct (Nat.eqb a a'), (Nat.eqb c b); cbn [andb length]; rewrite ?S_INR; lra. }
    rewrite (bigsum_ext n _ _ (fun c _ => E c)), bigsum_plus, <- IH by lia.
    rewrite (bigsum_delta n b (fun _ => if Nat.eqb a a' then 1 else 0) Hb).
    destruct (Nat.eqb a a'); cbn [length]; rewrite ?S_INR; lra.
Qed.

Lemma combine_swap_count (p q : list nat) (a b : nat) :
  count_if (fun t => Nat.eqb a (fst t) && Nat.eqb b (snd t)) (combine p q) =
  count_if (fun t => Nat.eqb b (fst t) && Nat.eqb a (snd t)) (combine q p).
Proof.
  revert q. induction p as [|x p IH]; intros [|y q]; cbn; try reflexivity. unfold count_if in *. cbn [filter fst snd].
  rewrite (andb_comm (Nat.eqb b y)). destruct (Nat.eqb a x && Nat.eqb b y); cbn [length]; rewrite IH; reflexivity.
Qed.

Lemma marginal_r n (p q : list nat) b : length p = length q -> Forall (fun a => (a < n)%nat) p ->
  INR (count_if (Nat.eqb b) q) =
  bigsum n (fun a => INR (count_if (fun t => Nat.eqb a (fst t) && Nat.eqb b (snd t)) (combine p q))).
Proof.
  intros HL F. rewrite (marginal_l n q p b (eq_sym HL) F). apply bigsum_ext. intros a Ha.
  f_equal. symmetry. apply combine_swap_count.
Qed.

Lemma bins_lt n l : (1 <= n)%nat -> Forall (fun b => (b < n)%nat) (pixel_bins n l).
Proof. intros Hn. apply Forall_map, Forall_forall. intros v Hv. apply pixel_bin_lt; assumption. Qed.

Lemma total_count n (p : list nat) : Forall (fun a => (a < n)%nat) p ->
  bigsum n (fun a => INR (count_if (Nat.eqb a) p)) = INR (length p).
Proof.
  intros F. induction F as [|b p Hb F IH].
  - cbn. rewrite bigsum_zero. reflexivity.
  - unfold count_if in *. cbn [filter].
    assert (E : forall c, INR (length (if Nat.eqb c b then b :: filter (Nat.eqb c) p else filter (Nat.eqb c) p)) =
      (if Nat.eqb c b then 1 else 0) + INR (length (filter (Nat.eqb c) p))).
    { intros c. destruct (Nat.eqb c b); cbn [length]; rewrite ?S_INR; lra. }
    rewrite (bigsum_ext n _ _ (fun c _ => E c)), bigsum_plus, IH. rewrite (bigsum_delta n b (fun _ => 1) Hb).
    cbn [length]. rewrite S_INR. lra.
Qed.

Lemma combine_self_count (p : list nat) a b :
  count_if (fun t => Nat.eqb a (fst t) && Nat.eqb b (snd t)) (combine p p) =
  if Nat.eqb a b then count_if (Nat.eqb a) p else 0%nat.
Proof.
  induction p as [|x p IH]; cbn; [destruct (Nat.eqb a b); reflexivity|]. unfold count_if in *. cbn [filter fst snd].
  destruct (Nat.eqb_spec a x) as [->|N1].
  - destruct (Nat.eqb_spec b x) as [->|N2]; cbn [andb length].
    + rewrite IH, Nat.eqb_refl. reflexivity.
    + rewrite IH. destruct (Nat.eqb_spec x b); [congruence|reflexivity].
  - cbn [andb]. rewrite IH. reflexivity.
Qed.

Lemma bin_score_self n p : bin_score n p p =
  histogram_mmi n (fun a => INR (count_if (Nat.eqb a) p)) (fun a => INR (count_if (Nat.eqb a) p))
    (fun a b => if Nat.eqb a b then INR (count_if (Nat.eqb a) p) else 0).
Proof.
  apply histogram_mmi_ext; auto. intros a b _ _. rewrite combine_self_count. destruct (Nat.eqb a b); reflexivity.
Qed.

(* affine changes of brightness *)
Lemma rmin_affine s t l : 0 < s -> rmin (map (fun v => s * v + t) l) = option_map (fun v => s * v + t) (rmin l).
Proof.
  intros Hs. induction l as [|x l IH]; cbn; [reflexivity|]. rewrite IH. destruct (rmin l) as [m|]; cbn; [|reflexivity].
  f_equal. destruct (Rle_dec x m) as [H|H].
  - rewrite !Rmin_left; [reflexivity|exact H|]. apply Rplus_le_compat_r, Rmult_le_compat_l; lra.
  - rewrite !Rmin_right; [reflexivity|lra|]. apply Rplus_le_compat_r, Rmult_le_compat_l; lra.
Qed.
Lemma rmax_affine s t l : 0 < s -> rmax (map (fun v => s * v + t) l) = option_map (fun v => s * v + t) (rmax l).
Proof.
  intros Hs. induction l as [|x l IH]; cbn; [reflexivity|]. rewrite IH. destruct (rmax l) as [m|]; cbn; [|reflexivity].
  f_equal. destruct (Rle_dec x m) as [H|H].
  - rewrite !Rmax_right; [reflexivity|exact H|]. apply Rplus_le_compat_r, Rmult_le_compat_l; lra.
  - rewrite !Rmax_left; [reflexivity|lra|]. apply Rplus_le_compat_r, Rmult_le_compat_l; lra.
Qed.

Lemma bins_affine n s t l : 0 < s -> pixel_bins n (map (fun v => s * v + t) l) = pixel_bins n l.
Proof.
  intros Hs. unfold pixel_bins. rewrite map_map. apply map_ext_in. intros v Hv.
  unfold pixel_bin. f_equal. unfold hist_range. rewrite rmin_affine, rmax_affine by exact Hs.
  destruct (rmin l) as [a|] eqn:Ea; cbn [option_map].
  2:{ exfalso. destruct l as [|x l]; [destruct Hv|]. cbn in Ea. destruct (rmin l); discriminate. }
  destruct (rmax l) as [b|] eqn:Eb; cbn [option_map].
  2:{ exfalso. destruct l as [|x l]; [destruct Hv|]. cbn in Eb. destruct (rmax l); discriminate. }
  apply rmin_spec in Ea. apply rmax_spec in Eb. destruct Ea as [A1 A2], Eb as [B1 B2].
  destruct (Reqb_spec a b) as [E|N].
  - subst b. rewrite Reqb_true by reflexivity. cbn [fst snd].
    assert (v = a) by (specialize (A2 v Hv); specialize (B2 v Hv); lra). subst v. unfold hist_bin.
    replace ((s * a + t - (s * a + t - 1 / 2)) * (INR n / (s * a + t + 1 / 2 - (s * a + t - 1 / 2))))
      with ((a - (a - 1 / 2)) * (INR n / (a + 1 / 2 - (a - 1 / 2)))) by (field; lra). reflexivity.
  - rewrite Reqb_false by (intros E; apply N; apply (Rmult_eq_reg_l s); lra). cbn [fst snd]. unfold hist_bin.
    assert (0 < b - a) by (pose proof (A2 b B1); lra).
    replace ((s * v + t - (s * a + t)) * (INR n / (s * b + t - (s * a + t))))
      with ((v - a) * (INR n / (b - a))). reflexivity.
    field. split; [|lra]. replace (s * b + t - (s * a + t)) with (s * (b - a)) by ring. apply Rgt_not_eq. nra.
Qed.

(* permutations of the pixels *)
Lemma rmin_perm l m : Permutation l m -> rmin l = rmin m.
Proof.
  intros P. destruct (rmin l) as [a|] eqn:Ea; destruct (rmin m) as [b|] eqn:Eb; try reflexivity.
  - apply rmin_spec in Ea, Eb. destruct Ea as [A1 A2], Eb as [B1 B2]. f_equal. apply Rle_antisym.
    + apply A2. apply (Permutation_in _ (Permutation_sym P)). exact B1.
    + apply B2. apply (Permutation_in _ P). exact A1.
  - exfalso. destruct m; [apply Permutation_sym, Permutation_nil in P; subst; discriminate|]. cbn in Eb. destruct (rmin m); discriminate.
  - exfalso. destruct l; [apply Permutation_nil in P; subst; discriminate|]. cbn in Ea. destruct (rmin l); discriminate.
Qed.
Lemma rmax_perm l m : Permutation l m -> rmax l = rmax m.
Proof.
  intros P. destruct (rmax l) as [a|] eqn:Ea; destruct (rmax m) as [b|] eqn:Eb; try reflexivity.
  - apply rmax_spec in Ea, Eb. destruct Ea as [A1 A2], Eb as [B1 B2]. f_equal. apply Rle_antisym.
    + apply B2. apply (Permutation_in _ P). exact A1.
    + apply A2. apply (Permutation_in _ (Permutation_sym P)). exact B1.
  - exfalso. destruct m; [apply Permutation_sym, Permutation_nil in P; subst; discriminate|]. cbn in Eb. destruct (rmax m); discriminate.
  - exfalso. destruct l; [apply Permutation_nil in P; subst; discriminate|]. cbn in Ea. destruct (rmax l); discriminate.
Qed.

Lemma count_perm {A} (f : A -> bool) l m : Permutation l m -> count_if f l = count_if f m.
Proof. unfold count_if. induction 1; cbn; try (destruct (f x)); try (destruct (f y)); cbn; lia. Qed.

Lemma np_hist_perm n l m k : Permutation l m -> np_histogram n l k = np_histogram n m k.
Proof.
  intros P. unfold np_histogram, hist_range. rewrite (rmin_perm l m P), (rmax_perm l m P).
  destruct (match rmin m with Some a => _ | None => _ end) as [lo hi]. apply count_perm. exact P.
Qed.

Lemma combine_fst {A B} (x : list A) (y : list B) : length x = length y -> map fst (combine x y) = x.
Proof. revert y. induction x as [|a x IH]; intros [|b y] H; cbn in *; try lia; [reflexivity|]. f_equal. apply IH. lia. Qed.
Lemma combine_snd {A B} (x : list A) (y : list B) : length x = length y -> map snd (combine x y) = y.
Proof. revert y. induction x as [|a x IH]; intros [|b y] H; cbn in *; try lia; [reflexivity|]. f_equal. apply IH. lia. Qed.

Lemma mmi_perm x y x' y' nb : length x = length y -> length x' = length y' ->
  Permutation (combine x y) (combine x' y') -> image_mmi x y nb = image_mmi x' y' nb.
Proof.
  intros L L' P.
  pose proof (Permutation_map fst P) as Px. rewrite !combine_fst in Px by assumption.
  pose proof (Permutation_map snd P) as Py_. rewrite !combine_snd in Py_ by assumption.
  unfold image_mmi. destruct (nb <? 1)%Z; [reflexivity|]. rewrite L, L', !Nat.eqb_refl. cbn [negb]. f_equal.
  apply histogram_mmi_ext; intros.
  - rewrite (np_hist_perm _ _ _ _ Px). reflexivity.
  - rewrite (np_hist_perm _ _ _ _ Py_). reflexivity.
  - f_equal. unfold np_histogram2d, hist_range.
    rewrite (rmin_perm _ _ Px), (rmax_perm _ _ Px), (rmin_perm _ _ Py_), (rmax_perm _ _ Py_).
    destruct (match rmin x' with Some a => _ | None => _ end) as [xl xh].
    destruct (match rmin y' with Some a => _ | None => _ end) as [yl yh]. apply count_perm. exact P.
Qed.

Lemma counts_count {A} (P : A -> Prop) (f : A -> bool) l : (forall x, In x l -> f x = true <-> P x) -> counts P l (count_if f l).
Proof.
  unfold count_if. induction l as [|x l IH]; intros H; cbn; [constructor|].
  assert (IH' : counts P l (length (filter f l))) by (apply IH; intros; apply H; right; assumption).
  destruct (f x) eqn:E; cbn [length].
  - apply counts_yes; [|exact IH']. apply H; [left; reflexivity|exact E].
  - apply counts_no; [|exact IH']. intros K. apply H in K; [|left; reflexivity]. congruence.
Qed.

Lemma range_unique l lo hi : brightness_range l lo hi -> hist_range l = (lo, hi).
Proof.
  intros (a & b & Ia & Ib & Q & Q1 & Q2).
  destruct (hist_range l) as [lo' hi'] eqn:E.
  assert (Ne : l <> []) by (intros ->; destruct Ia).
  destruct (range_spec l lo' hi' E Ne) as ((a' & b' & Ia' & Ib' & Q' & Q1' & Q2') & _).
  assert (Ea : a = a'). { apply Rle_antisym; [apply Q; exact Ia'|apply Q'; exact Ia]. }
  assert (Eb : b = b'). { apply Rle_antisym; [apply Q'; exact Ib|apply Q; exact Ib']. }
  subst a' b'. destruct (Rlt_dec a b) as [L|L].
  - destruct (Q1 L) as [-> ->], (Q1' L) as [-> ->]. reflexivity.
  - assert (K : a = b). { apply Rle_antisym; [apply (Q a Ia)|lra]. }
    destruct (Q2 K) as [-> ->], (Q2' K) as [-> ->]. reflexivity.
Qed.

Lemma counts_fun {A} (P : A -> Prop) l k k' : counts P l k -> counts P l k' -> k = k'.
Proof.
  intros H. revert k'. induction H; intros k' H'; inversion H'; subst; try contradiction; auto.
Qed.

Lemma hist_counts n l k lo hi : (1 <= n)%nat -> (k < n)%nat -> brightness_range l lo hi ->
  counts (lies_in_bin lo hi n k) l (np_histogram n l k).
Proof.
  intros Hn Hk R. unfold np_histogram. rewrite (range_unique _ _ _ R). apply counts_count. intros v Hv.
  assert (Ne : l <> []) by (intros ->; destruct Hv).
  destruct (range_spec l lo hi (range_unique _ _ _ R) Ne) as (_ & L & Q).
  rewrite Z.eqb_eq, (hist_bin_spec lo hi n v k L Hn (Q v Hv)). tauto.
Qed.

Lemma hist2d_counts n x y a b xlo xhi ylo yhi : (1 <= n)%nat -> (a < n)%nat -> (b < n)%nat ->
  brightness_range x xlo xhi -> brightness_range y ylo yhi ->
  counts (fun p => lies_in_bin xlo xhi n a (fst p) /\ lies_in_bin ylo yhi n b (snd p)) (combine x y) (np_histogram2d n x y a b).
Proof.
  intros Hn Ha Hb Rx Ry. unfold np_histogram2d. rewrite (range_unique _ _ _ Rx), (range_unique _ _ _ Ry).
  apply counts_count. intros [u v] Huv. cbn [fst snd].
  pose proof (in_combine_l _ _ _ _ Huv) as Hu. pose proof (in_combine_r _ _ _ _ Huv) as Hv.
  assert (Nx : x <> []) by (intros ->; destruct Hu). assert (Ny : y <> []) by (intros ->; destruct Hv).
  destruct (range_spec x _ _ (range_unique _ _ _ Rx) Nx) as (_ & Lx & Qx).
  destruct (range_spec y _ _ (range_unique _ _ _ Ry) Ny) as (_ & Ly & Qy).
  rewrite !bins_agree by auto.
  rewrite Bool.andb_true_iff, !Z.eqb_eq, (hist_bin_spec _ _ n u a Lx Hn (Qx u Hu)), (hist_bin_spec _ _ n v b Ly Hn (Qy v Hv)). tauto.
Qed.

Lemma bins_length n l : length (pixel_bins n l) = length l.
Proof. apply map_length. Qed.

Lemma bin_score_upper n p q : length p = length q -> Forall (fun a => (a < n)%nat) p -> Forall (fun a => (a < n)%nat) q ->
  bin_score n p q <= bin_score n q q.
Proof.
  intros L Fp Fq. rewrite bin_score_self, mmi_self by (intros; apply pos_INR).
  unfold bin_score. apply mmi_upper.
  - intros. apply pos_INR.
  - intros a _. apply marginal_l; assumption.
  - intros b _. apply marginal_r; assumption.
Qed.

Lemma bin_score_sym n p q : bin_score n p q = bin_score n q p.
Proof.
  unfold bin_score. rewrite mmi_symmetric. apply histogram_mmi_ext; auto. intros a b _ _. f_equal. apply combine_swap_count.
Qed.

Lemma bin_score_lower n p q : length p = length q -> p <> [] -> Forall (fun a => (a < n)%nat) p -> Forall (fun a => (a < n)%nat) q ->
  let N := INR (length p) in
  - (N * ln N) <= bin_score n p q /\
  (bin_score n p q = - (N * ln N) <-> forall a b, (a < n)%nat -> (b < n)%nat ->
     INR (count_if (fun t => Nat.eqb a (fst t) && Nat.eqb b (snd t)) (combine p q)) =
     INR (count_if (Nat.eqb a) p) * INR (count_if (Nat.eqb b) q) / N).
Proof.
  intros L Ne Fp Fq N. unfold bin_score. apply mmi_lower_iff.
  - intros. apply pos_INR.
  - intros a _. apply marginal_l; assumption.
  - intros b _. apply marginal_r; assumption.
  - unfold N. rewrite <- (total_count n p Fp). apply bigsum_ext. intros a _. apply marginal_l; assumption.
  - unfold N. apply lt_0_INR. destruct p; [congruence|cbn; lia].
Qed.
