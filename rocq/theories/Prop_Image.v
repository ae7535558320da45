(** Properties C11-C15, C62-C64: detection images, bands, normalisation, colour
    maps, masks, mutual information, uniform images, blending. *)
From Verif Require Import M_Image M_ImageR Spec_Image P_Image P_ImageR.
From Coq Require Import Permutation Sorted QArith Reals Lra.
Open Scope list_scope.

(* ---------------- C11: detection image ---------------------------- *)
Open Scope Z_scope.

(** Every pixel is the largest score of the chips that cover it, and zero where
    there is none; the image is just large enough for all chips.  Any total order
    on the scores, any argsort. *)
Theorem C11_detection_image_is_maximum :
  forall A (leb : A -> A -> bool) (zero : A) argsort scores uls chip_x chip_y,
  total_order leb -> is_argsort leb argsort ->
  uls <> [] -> length scores = length uls -> 0 <= chip_x -> 0 <= chip_y ->
  Forall (fun ul => 0 <= fst ul /\ 0 <= snd ul) uls ->
  exists img my mx,
    create_detection_image_from_scores zero argsort scores uls chip_x chip_y = Ok img /\
    band_wf img /\
    (In my (map fst uls) /\ (forall v, In v (map fst uls) -> v <= my) /\ b_ny img = Z.to_nat (my + chip_y)) /\
    (In mx (map snd uls) /\ (forall v, In v (map snd uls) -> v <= mx) /\ b_nx img = Z.to_nat (mx + chip_x)) /\
    forall r c, (r < b_ny img)%nat -> (c < b_nx img)%nat ->
      exists v, band_at img r c = Some v /\ best_score leb zero (combine scores uls) chip_x chip_y r c v.
Proof. intros A leb zero argsort scores uls cx cy. exact (detection_image_max leb zero argsort scores uls cx cy). Qed.
Print Assumptions C11_detection_image_is_maximum.

(** Neither the order of the chips nor the tie-breaking of the sort matters *)
Theorem C11_order_independent :
  forall A (leb : A -> A -> bool) (zero : A) argsort1 argsort2 s1 s2 u1 u2 chip_x chip_y,
  total_order leb -> is_argsort leb argsort1 -> is_argsort leb argsort2 ->
  u1 <> [] -> length s1 = length u1 -> length s2 = length u2 -> 0 <= chip_x -> 0 <= chip_y ->
  Forall (fun ul => 0 <= fst ul /\ 0 <= snd ul) u1 ->
  Permutation (combine s1 u1) (combine s2 u2) ->
  create_detection_image_from_scores zero argsort1 s1 u1 chip_x chip_y =
  create_detection_image_from_scores zero argsort2 s2 u2 chip_x chip_y.
Proof. intros A leb zero a1 a2 s1 s2 u1 u2 cx cy. exact (detection_order leb zero a1 a2 s1 s2 u1 u2 cx cy). Qed.
Print Assumptions C11_order_independent.

(** Adding a chip with a score that is at least zero lowers no pixel *)
Theorem C11_adding_a_chip :
  forall A (leb : A -> A -> bool) (zero : A) argsort scores uls chip_x chip_y s ul img,
  total_order leb -> is_argsort leb argsort ->
  uls <> [] -> length scores = length uls -> 0 <= chip_x -> 0 <= chip_y ->
  Forall (fun ul => 0 <= fst ul /\ 0 <= snd ul) (ul :: uls) ->
  leb zero s = true ->
  create_detection_image_from_scores zero argsort scores uls chip_x chip_y = Ok img ->
  exists img', create_detection_image_from_scores zero argsort (s :: scores) (ul :: uls) chip_x chip_y = Ok img' /\
    forall r c v, band_at img r c = Some v ->
      exists v', band_at img' r c = Some v' /\ leb v v' = true /\ (covers chip_x chip_y ul r c -> leb s v' = true).
Proof. intros A leb zero a scores uls cx cy s ul img. exact (detection_mono leb zero a scores uls cx cy s ul img). Qed.
Print Assumptions C11_adding_a_chip.

(** Without that condition it can: a negative score replaces the background 0 *)
Theorem C11_negative_score_lowers_background :
  exists img img',
    create_detection_image_from_scores 0 (fun l => seq 0 (length l)) [5] [(0, 1)] 1 1 = Ok img /\
    create_detection_image_from_scores 0 (fun l => seq 0 (length l)) [-3; 5] [(0, 0); (0, 1)] 1 1 = Ok img' /\
    band_at img 0 0 = Some 0 /\ band_at img' 0 0 = Some (-3).
Proof. do 2 eexists. repeat split; reflexivity. Qed.
Print Assumptions C11_negative_score_lowers_background.

(** A no-chip call raises *)
Theorem C11_no_chips_raises : forall A (zero : A) argsort scores cx cy,
  create_detection_image_from_scores zero argsort scores [] cx cy = Err ValueError.
Proof. reflexivity. Qed.
Print Assumptions C11_no_chips_raises.

(** Chips so far outside that the image would have a negative size are refused; so is, with IndexError, a score
    list with more entries than there are chips. *)
Theorem C11_refused : forall A (leb : A -> A -> bool) (zero : A) argsort scores uls chip_x chip_y,
  is_argsort leb argsort -> uls <> [] ->
  ((forall ul, In ul uls -> fst ul + chip_y < 0) \/ (forall ul, In ul uls -> snd ul + chip_x < 0) ->
     create_detection_image_from_scores zero argsort scores uls chip_x chip_y = Err ValueError) /\
  (0 <= chip_x -> 0 <= chip_y -> Forall (fun ul => 0 <= fst ul /\ 0 <= snd ul) uls -> (length uls < length scores)%nat ->
     create_detection_image_from_scores zero argsort scores uls chip_x chip_y = Err IndexError).
Proof.
  intros A leb zero argsort scores uls cx cy HS HN.
  assert (ZM : forall l, l <> [] -> exists m, zmax_list l = Ok m /\ In m l).
  { intros l Hl. destruct (zmax_list_spec l Hl) as (m & Em & Im & _). exists m. auto. }
  destruct (ZM (map fst uls)) as (my & E1 & I1); [destruct uls; [congruence|discriminate]|].
  destruct (ZM (map snd uls)) as (mx & E2 & I2); [destruct uls; [congruence|discriminate]|].
  apply in_map_iff in I1, I2. destruct I1 as (u1 & <- & I1), I2 as (u2 & <- & I2).
  unfold create_detection_image_from_scores. rewrite E1, E2. cbn [bind]. split.
  - intros H. replace ((fst u1 + cy <? 0) || (snd u2 + cx <? 0)) with true; [reflexivity|].
    destruct H as [H|H]; [specialize (H u1 I1)|specialize (H u2 I2)]; lia.
  - intros Hx Hy F HL. rewrite Forall_forall in F. pose proof (F u1 I1). pose proof (F u2 I2).
    replace ((fst u1 + cy <? 0) || (snd u2 + cx <? 0)) with false by lia.
    destruct (HS scores) as [P _].
    assert (Hbad : exists i, In i (argsort scores) /\ (length uls <= i)%nat).
    { exists (length uls). split; [|lia]. apply (Permutation_in _ (Permutation_sym P)). apply in_seq. lia. }
    assert (Hall : forall i, In i (argsort scores) -> (i < length scores)%nat).
    { intros i Hi. apply (Permutation_in _ P) in Hi. apply in_seq in Hi. lia. }
    generalize (mkBand (Z.to_nat (fst u1 + cy)) (Z.to_nat (snd u2 + cx)) (repeat (repeat zero (Z.to_nat (snd u2 + cx))) (Z.to_nat (fst u1 + cy)))).
    revert Hbad Hall. generalize (argsort scores). clear - HL. intros l (i & Hi & Hbad) Hall. induction l as [|j l IH]; intros b; [destruct Hi|].
    cbn [foldM]. destruct (Nat.lt_ge_cases j (length uls)) as [Hj|Hj].
    + destruct uls as [|u0 uls']; [cbn in Hj; lia|]. rewrite (py_get_nth _ _ u0) by exact Hj. cbn [bind].
      assert (Hs : (j < length scores)%nat) by (apply Hall; left; reflexivity).
      destruct scores as [|s0 sc]; [cbn in Hs; lia|]. rewrite (py_get_nth _ _ s0) by exact Hs. cbn [bind].
      apply IH; [|intros k Hk; apply Hall; right; exact Hk]. destruct Hi as [-> |Hi]; [lia|exact Hi].
    + rewrite py_get_out by (unfold zlen; lia). reflexivity.
Qed.
Print Assumptions C11_refused.

(** An insertion sort meets the argsort contract, so the hypotheses are satisfiable *)
Fixpoint ins (key : nat -> Z) (i : nat) (l : list nat) : list nat :=
  match l with [] => [i] | j :: r => if key i <=? key j then i :: l else j :: ins key i r end.
Definition zargsort (l : list Z) : list nat :=
  fold_right (ins (fun i => nth i l 0)) [] (seq 0 (length l)).
Lemma ins_perm key i l : Permutation (ins key i l) (i :: l).
Proof.
  induction l as [|j l IH]; simpl; auto. destruct (key i <=? key j); auto.
  rewrite IH. apply perm_swap.
Qed.
Lemma ins_sorted key i l :
  StronglySorted (fun a b => key a <= key b) l -> StronglySorted (fun a b => key a <= key b) (ins key i l).
Proof.
  induction 1 as [|j l S IH F]; simpl; [repeat constructor|].
  destruct (key i <=? key j) eqn:E.
  - apply Z.leb_le in E. constructor; [constructor; auto|]. constructor; [exact E|].
    eapply Forall_impl; [|exact F]. simpl. intros a Ha. lia.
  - apply Z.leb_gt in E. constructor; [exact IH|].
    apply Forall_forall. intros a Ha. apply (Permutation_in _ (ins_perm key i l)) in Ha.
    rewrite Forall_forall in F. destruct Ha as [<-|Ha]; [lia|apply F; exact Ha].
Qed.
Example C11_argsort_exists : is_argsort Z.leb zargsort.
Proof.
  intros l. unfold zargsort. generalize (length l) as n. intros n. split.
  - induction (seq 0 n) as [|i s IH]; simpl; auto. rewrite ins_perm. constructor. exact IH.
  - assert (S : StronglySorted (fun a b => nth a l 0 <= nth b l 0) (fold_right (ins (fun i => nth i l 0)) [] (seq 0 n))).
    { induction (seq 0 n) as [|i s IH]; simpl; [constructor|]. apply (ins_sorted (fun i => nth i l 0)). exact IH. }
    revert S. generalize (fold_right (ins (fun i => nth i l 0)) [] (seq 0 n)). intros o S.
    induction S as [|i o S IH F]; constructor; auto. eapply Forall_impl; [|exact F]. simpl.
    intros j Hj a b Ha Hb. apply Z.leb_le. rewrite (nth_error_nth _ _ 0 Ha), (nth_error_nth _ _ 0 Hb) in Hj. exact Hj.
Qed.
Example C11_ex_order : total_order Z.leb.
Proof. constructor; intros *; rewrite ?Z.leb_le; lia. Qed.
Example C11_ex : create_detection_image_from_scores 0 zargsort [7; 2; 5] [(0, 0); (1, 1); (0, 2)] 2 2
  = Ok (mkBand 3 4 [[7; 7; 5; 5]; [7; 7; 5; 5]; [0; 2; 2; 0]]).
Proof. reflexivity. Qed.

(* ---------------- C12: flat bands and the pixel grid -------------- *)

Theorem C12_flatten_unflatten : forall A (b : band A),
  band_wf b -> unflatten_image_band (flatten_image_band b) (b_nx b) (b_ny b) = Ok b.
Proof. intros A b. exact (flatten_unflatten b). Qed.
Print Assumptions C12_flatten_unflatten.

Theorem C12_unflatten_flatten : forall A (l : list A) nx ny b,
  unflatten_image_band l nx ny = Ok b -> band_wf b /\ b_ny b = ny /\ b_nx b = nx /\ flatten_image_band b = l.
Proof. intros A l nx ny b. exact (unflatten_flatten l nx ny b). Qed.
Print Assumptions C12_unflatten_flatten.

(** Row-major order: flat entry y*nx + x is pixel (y, x) *)
Theorem C12_flat_order : forall A (b : band A) y x,
  band_wf b -> (x < b_nx b)%nat -> nth_error (flatten_image_band b) (y * b_nx b + x) = band_at b y x.
Proof. intros A b y x. exact (flatten_at b y x). Qed.
Print Assumptions C12_flat_order.

(** The reported numbers of lines, samples and bands: an image of either kind holds exactly that many lines, each
    of that many samples, each of that many values. *)
Theorem C12_image_dims : forall A (i : image A) ny nx nb, get_image_ny_nx_nbands i = (ny, nx, nb) ->
  match i with
  | Gray b => band_wf b -> nb = 1%nat /\ length (b_rows b) = ny /\ Forall (fun row => length row = nx) (b_rows b)
  | Color c => cube_wf c -> length (c_data c) = ny /\ Forall (fun row => length row = nx /\ Forall (fun px => length px = nb) row) (c_data c)
  end.
Proof. intros A [b|c] ny nx nb H; injection H as <- <- <-; intros W; [split; [reflexivity|]|]; exact W. Qed.
Print Assumptions C12_image_dims.

(** A wrong size is rejected *)
Theorem C12_wrong_size_rejected : forall A (l : list A) nx ny,
  length l <> (ny * nx)%nat -> unflatten_image_band l nx ny = Err ValueError.
Proof.
  intros A l nx ny H. unfold unflatten_image_band.
  rewrite (proj2 (Nat.eqb_neq _ _) H). reflexivity.
Qed.
Print Assumptions C12_wrong_size_rejected.

(** Entry y*nx + x of the flattened grids is (x, y) / scale *)
Theorem C12_pixel_grid : forall nx ny scale y x,
  (y < ny * Pos.to_nat scale)%nat -> (x < nx * Pos.to_nat scale)%nat ->
  let '(xx, yy) := create_pixel_grid nx ny scale in
  nth_error (flatten_image_band xx) (y * (nx * Pos.to_nat scale) + x) = Some (Z.of_nat x # scale)%Q /\
  nth_error (flatten_image_band yy) (y * (nx * Pos.to_nat scale) + x) = Some (Z.of_nat y # scale)%Q.
Proof.
  intros nx ny s y x Hy Hx. pose proof (pixel_grid_spec nx ny s) as P.
  destruct (create_pixel_grid nx ny s) as [xx yy].
  destruct P as (Wx & Wy & N1 & N2 & N3 & N4 & P).
  pose proof (flatten_at xx y x Wx ltac:(lia)) as F1. pose proof (flatten_at yy y x Wy ltac:(lia)) as F2.
  rewrite N2 in F1. rewrite N4, N2 in F2. rewrite F1, F2. apply P; lia.
Qed.
Print Assumptions C12_pixel_grid.
Example C12_ex : let '(xx, yy) := create_pixel_grid 3 2 1 in
  flatten_image_band xx = [0; 1; 2; 0; 1; 2]%Q /\ flatten_image_band yy = [0; 0; 0; 1; 1; 1]%Q.
Proof. split; reflexivity. Qed.

(* ---------------- C13: normalisation ------------------------------ *)
Open Scope R_scope.

(** On an image with two different pixels: some smallest pixel goes to new_min,
    some largest to new_max, all stay between, and the order is kept. *)
Theorem C13_normalise : forall img a b,
  (exists x y, In x img /\ In y img /\ x <> y) -> a <= b ->
  exists out, normalize_grayscale_image img a b = Ok (map Fin out) /\ length out = length img /\
    (forall i q, nth_error out i = Some q -> a <= q <= b) /\
    (forall i p q, nth_error img i = Some p -> nth_error out i = Some q ->
       ((forall p', In p' img -> p <= p') -> q = a) /\ ((forall p', In p' img -> p' <= p) -> q = b)) /\
    (forall i j p q p' q', nth_error img i = Some p -> nth_error out i = Some q ->
       nth_error img j = Some p' -> nth_error out j = Some q' ->
       (p <= p' -> q <= q') /\ (a < b -> p < p' -> q < q')).
Proof.
  intros img a b H Hab. destruct (normalize_ok img a b H) as (mn & mx & I1 & I2 & Hlt & Hb & E).
  exists (map (normalized mn mx a b) img). rewrite E. split; [rewrite map_map; reflexivity|].
  split; [apply map_length|].
  assert (N : forall i q, nth_error (map (normalized mn mx a b) img) i = Some q ->
    exists p, nth_error img i = Some p /\ q = normalized mn mx a b p).
  { intros i q Hq. rewrite nth_error_map in Hq. destruct (nth_error img i) as [p|]; [|discriminate].
    injection Hq as <-. eauto. }
  split; [|split].
  - intros i q Hq. destruct (N i q Hq) as (p & Hp & ->). destruct (Hb p (nth_error_In _ _ Hp)).
    rewrite <- (normalized_min mn mx a b Hlt) at 1. rewrite <- (normalized_max mn mx a b Hlt) at 4.
    split; apply normalized_mono; auto.
  - intros i p q Hp Hq. destruct (N i q Hq) as (p' & Hp' & ->). rewrite Hp in Hp'. injection Hp' as <-.
    pose proof (Hb p (nth_error_In _ _ Hp)). split; intros Hm.
    + assert (p = mn) by (specialize (Hm mn I1); lra). subst p. apply normalized_min; exact Hlt.
    + assert (p = mx) by (specialize (Hm mx I2); lra). subst p. apply normalized_max; exact Hlt.
  - intros i j p q p' q' Hp Hq Hp' Hq'. destruct (N i q Hq) as (p1 & Hp1 & ->). destruct (N j q' Hq') as (p2 & Hp2 & ->).
    rewrite Hp in Hp1. injection Hp1 as <-. rewrite Hp' in Hp2. injection Hp2 as <-. split; intros.
    + apply normalized_mono; auto.
    + apply normalized_strict; auto.
Qed.
Print Assumptions C13_normalise.

(** A constant image has no normalisation: every pixel becomes NaN, no exception *)
Theorem C13_constant_image_nan : forall img v a b,
  img <> [] -> (forall p, In p img -> p = v) ->
  normalize_grayscale_image img a b = Ok (map (fun _ => NonFinite) img).
Proof. exact normalize_constant. Qed.
Print Assumptions C13_constant_image_nan.

(** An image without pixels is refused *)
Theorem C13_empty_refused : forall a b, normalize_grayscale_image [] a b = Err ValueError.
Proof. reflexivity. Qed.
Print Assumptions C13_empty_refused.

Example C13_ex : exists x y, In x [3; 1; 4] /\ In y [3; 1; 4] /\ x <> y.
Proof. exists 3, 1. simpl. repeat split; auto. lra. Qed.

(* ---------------- C14: colour mapping ----------------------------- *)

(** One channel of the palette.  For 2 to 129 colours and a non-empty range, a
    pixel in the bin between nodes i and i+1 gets a colour between theirs, and a
    pixel on a node gets exactly the node's colour (times 255). *)
Theorem C14_in_range_interpolates : forall pal mn mx n g i,
  (2 <= n <= 129)%nat -> mn < mx -> (i + 1 < n)%nat ->
  linspace_at mn mx n i <= g <= linspace_at mn mx n (S i) ->
  exists w, 0 <= w <= 1 /\ w * (linspace_at mn mx n (S i) - linspace_at mn mx n i) = g - linspace_at mn mx n i /\
    colormap_channel pal true mn mx n g = Fin (255 * ((1 - w) * nth i pal 0 + w * nth (S i) pal 0)).
Proof.
  intros pal mn mx n g i Hn Hm Hi Hb. pose proof (step_pos mn mx n ltac:(lia) Hm) as Hs.
  rewrite (continuous_ok pal mn mx n g i Hn Hm Hi Hb). unfold lerp.
  rewrite !linspace_at_step, S_INR in * by lia.
  exists ((g - (mn + INR i * step mn mx n)) / step mn mx n). split; [|split].
  - split.
    + apply Rmult_le_pos; [lra|]. left. apply Rinv_0_lt_compat; exact Hs.
    + apply (Rmult_le_reg_r (step mn mx n)); [exact Hs|]. unfold Rdiv. rewrite Rmult_assoc, Rinv_l by lra. lra.
  - field. lra.
  - f_equal. ring.
Qed.
Print Assumptions C14_in_range_interpolates.

Theorem C14_node_colour : forall pal mn mx n k,
  (2 <= n <= 129)%nat -> mn < mx -> (k < n)%nat ->
  colormap_channel pal true mn mx n (linspace_at mn mx n k) = Fin (255 * nth k pal 0).
Proof. exact continuous_node. Qed.
Print Assumptions C14_node_colour.

(** The nodes: the first is min, the last is max, equally spaced *)
Theorem C14_nodes : forall mn mx n,
  (2 <= n)%nat -> linspace_at mn mx n 0 = mn /\ linspace_at mn mx n (n - 1) = mx /\
  forall i, linspace_at mn mx n (S i) - linspace_at mn mx n i = (mx - mn) / INR (n - 1).
Proof.
  intros mn mx n Hn. split; [apply linspace_first; exact Hn|]. split; [apply linspace_last; exact Hn|].
  intros i. rewrite !linspace_at_step, S_INR by exact Hn. unfold step. ring.
Qed.
Print Assumptions C14_nodes.

(** Clipped pixels get the first or the last colour, in both modes *)
Theorem C14_clipped : forall pal continuous mn mx n g,
  mn <= mx ->
  (g < mn -> colormap_channel pal continuous mn mx n g = Fin (255 * nth 0 pal 0)) /\
  (mx < g -> colormap_channel pal continuous mn mx n g = Fin (255 * last pal 0)).
Proof. intros. split; [apply clipped_low; assumption|apply clipped_high]. Qed.
Print Assumptions C14_clipped.

(** Discrete mode cuts the range into n equal steps, step k with colour k; only
    the left edge of the last step is off by one. *)
Theorem C14_discrete_steps : forall pal mn mx n g k,
  (2 <= n <= 129)%nat -> length pal = n -> mn < mx -> (k < n)%nat ->
  mn + INR k * ((mx - mn) / INR n) <= g < mn + INR (S k) * ((mx - mn) / INR n) ->
  ~ (k = (n - 1)%nat /\ g = mn + INR k * ((mx - mn) / INR n)) ->
  colormap_channel pal false mn (adjusted_max false mn mx n) n g = Fin (255 * nth k pal 0).
Proof.
  intros pal mn mx n g k Hn Hl Hm Hk Hb Hne. unfold adjusted_max.
  set (mx' := mn + (mx - mn) * INR (n - 1) / INR n).
  assert (Hpn : 0 < INR n) by (apply lt_0_INR; lia).
  assert (Hpn1 : 0 < INR (n - 1)) by (apply lt_0_INR; lia).
  assert (Hst : step mn mx' n = (mx - mn) / INR n).
  { unfold step, mx'. field. split; lra. }
  assert (Hm' : mn < mx').
  { unfold mx'. assert (0 < (mx - mn) * INR (n - 1) / INR n); [|lra].
    apply Rdiv_lt_0_compat; [apply Rmult_lt_0_compat; lra|exact Hpn]. }
  assert (Hlast : mn + INR (n - 1) * ((mx - mn) / INR n) = mx').
  { unfold mx'. field. lra. }
  destruct (Nat.eq_dec k (n - 1)) as [->|Hk'].
  - rewrite clipped_high; [|rewrite Hlast in *; destruct (Req_dec g mx') as [->|]; [exfalso; apply Hne; auto|lra]].
    f_equal. f_equal. rewrite <- Hl. clear - Hl Hn. destruct pal as [|p0 pal]; simpl in Hl; [lia|].
    clear. revert p0. induction pal as [|p1 pal IH]; intros p0; [reflexivity|].
    change (last (p0 :: p1 :: pal) 0) with (last (p1 :: pal) 0). rewrite IH.
    simpl length. replace (S (S (length pal)) - 1)%nat with (S (S (length pal) - 1)) by lia. reflexivity.
  - apply discrete_bin; auto; try lia. rewrite !linspace_at_step, Hst by lia. exact Hb.
Qed.
Print Assumptions C14_discrete_steps.

Theorem C14_discrete_last_edge_refuted : forall pal mn mx n,
  (2 <= n <= 129)%nat -> mn < mx ->
  colormap_channel pal false mn (adjusted_max false mn mx n) n (mn + INR (n - 1) * ((mx - mn) / INR n))
  = Fin (255 * nth (n - 2) pal 0).
Proof.
  intros pal mn mx n Hn Hm. unfold adjusted_max.
  assert (Hpn : 0 < INR n) by (apply lt_0_INR; lia).
  assert (Hpn1 : 0 < INR (n - 1)) by (apply lt_0_INR; lia).
  replace (mn + INR (n - 1) * ((mx - mn) / INR n)) with (mn + (mx - mn) * INR (n - 1) / INR n) by (field; lra).
  apply discrete_last_edge; auto.
  assert (0 < (mx - mn) * INR (n - 1) / INR n); [|lra].
  apply Rdiv_lt_0_compat; [apply Rmult_lt_0_compat; lra|exact Hpn].
Qed.
Print Assumptions C14_discrete_last_edge_refuted.

(** Palettes of 130 to 257 colours: every pixel above node 128 comes out black,
    whatever the palette (the 8-bit index wraps) *)
Theorem C14_long_palette_black_refuted : forall pal continuous mn mx n g,
  (130 <= n <= 257)%nat -> mn < mx -> linspace_at mn mx n 128 < g <= mx ->
  colormap_channel pal continuous mn mx n g = Fin 0.
Proof. intros pal cont mn mx n g. exact (long_palette_black pal mn mx n g cont). Qed.
Print Assumptions C14_long_palette_black_refuted.

(** Any number of colours at all, both modes: a pixel of bin i (the last bin includes its upper end)
    is mapped with the weights of bin i but the colours of bin i modulo 256, and black when that is 128
    or more. *)
Theorem C14_any_palette_exact : forall pal continuous mn mx n g i,
  (2 <= n)%nat -> mn < mx -> (i + 1 < n)%nat ->
  linspace_at mn mx n i <= g ->
  g < linspace_at mn mx n (S i) \/ (i = (n - 2)%nat /\ g = mx) ->
  let j := (i mod 256)%nat in
  let w := (g - linspace_at mn mx n i) / ((mx - mn) / INR (n - 1)) in
  let lo := if Nat.ltb j 128 then nth j pal 0 else 0 in
  let hi := if Nat.ltb j 128 then nth (S j) pal 0 else 0 in
  colormap_channel pal continuous mn mx n g = Fin (255 * (if continuous then (1 - w) * lo + w * hi else lo)).
Proof. intros pal cont mn mx n g i H1 H2 H3 H4 H5. exact (any_palette pal mn mx n g i cont H1 H2 H3 H4 H5). Qed.
Print Assumptions C14_any_palette_exact.

(** So the colours are right exactly when the palette has at most 129 of them: with 130 or more, a palette
    without black has pixels in range whose colour is not between those of the neighbouring nodes. *)
Theorem C14_long_palette_refuted : forall pal n, (130 <= n)%nat -> length pal = n -> Forall (fun c => 0 < c) pal ->
  exists mn mx g i v, mn < mx /\ (i + 1 < n)%nat /\ linspace_at mn mx n i <= g <= linspace_at mn mx n (S i) /\
    colormap_channel pal true mn mx n g = Fin v /\
    v < 255 * nth i pal 0 /\ v < 255 * nth (S i) pal 0.
Proof.
  intros pal n Hn HL HF. exists 0, 1, (linspace_at 0 1 n 128), 128%nat, 0.
  pose proof (step_pos 0 1 n ltac:(lia) ltac:(lra)) as Hs.
  assert (HP : forall k, (k < n)%nat -> 0 < nth k pal 0).
  { intros k Hk. rewrite Forall_forall in HF. apply HF. apply nth_In. lia. }
  assert (L : linspace_at 0 1 n 128 < linspace_at 0 1 n 129).
  { rewrite !linspace_at_step by lia. pose proof (S_INR 128) as E. set (x := INR 129) in *. set (y := INR 128) in *. rewrite E. lra. }
  split; [lra|]. split; [lia|]. split; [lra|]. split.
  - rewrite (any_palette pal 0 1 n _ 128 true) by (try lia; try lra; left; exact L).
    cbv zeta. change (Nat.ltb (128 mod 256) 128) with false. cbv iota. f_equal. ring.
  - pose proof (HP 128%nat ltac:(lia)). pose proof (HP 129%nat ltac:(lia)). split; lra.
Qed.
Print Assumptions C14_long_palette_refuted.
Example C14_ex_long : (130 <= 200)%nat /\ length (repeat (1/2) 200) = 200%nat /\ Forall (fun c => 0 < c) (repeat (1/2) 200).
Proof. split; [lia|]. split; [reflexivity|]. apply Forall_forall. intros x Hx. apply repeat_spec in Hx. subst x. lra. Qed.

(** The default output type: truncation to a byte *)
Theorem C14_uint8_truncates : forall v, 0 <= v < 256 ->
  exists b, cast_uint8 (Fin v) = Some b /\ (0 <= b <= 255)%Z /\ IZR b <= v < IZR b + 1.
Proof. exact cast_uint8_range. Qed.
Print Assumptions C14_uint8_truncates.

(** Palettes with values between 0 and 1: every pixel of every image gets a byte, and a pixel in range a
    byte between those of the two palette nodes around it. *)
Theorem C14_uint8_colours : forall pal mn mx n g i,
  (2 <= n <= 129)%nat -> mn < mx -> (i + 1 < n)%nat -> Forall (fun c => 0 <= c <= 1) pal ->
  linspace_at mn mx n i <= g <= linspace_at mn mx n (S i) ->
  exists lo b hi, cast_uint8 (colormap_channel pal true mn mx n (linspace_at mn mx n i)) = Some lo /\
    cast_uint8 (colormap_channel pal true mn mx n g) = Some b /\
    cast_uint8 (colormap_channel pal true mn mx n (linspace_at mn mx n (S i))) = Some hi /\
    (0 <= b <= 255)%Z /\ (Z.min lo hi <= b <= Z.max lo hi)%Z.
Proof.
  intros pal mn mx n g i Hn Hm Hi HF Hb.
  rewrite !continuous_node by (try lia; try lra).
  destruct (C14_in_range_interpolates pal mn mx n g i Hn Hm Hi Hb) as (w & Hw & _ & ->).
  assert (HP : forall k, 0 <= nth k pal 0 <= 1).
  { intros k. destruct (Nat.lt_ge_cases k (length pal)) as [H|H]; [|rewrite nth_overflow by exact H; lra].
    rewrite Forall_forall in HF. apply HF. apply nth_In. exact H. }
  pose proof (HP i) as H1. pose proof (HP (S i)) as H2. set (a := nth i pal 0) in *. set (c := nth (S i) pal 0) in *.
  destruct (cast_uint8_range (255 * a)) as (lo & -> & _ & L2); [lra|].
  assert (V : 0 <= 255 * ((1 - w) * a + w * c) < 256) by (split; nra).
  destruct (cast_uint8_range _ V) as (b & -> & B1 & B2).
  destruct (cast_uint8_range (255 * c)) as (hi & -> & _ & U2); [lra|].
  exists lo, b, hi. split; [reflexivity|]. split; [reflexivity|]. split; [reflexivity|]. split; [exact B1|].
  destruct (Rle_dec a c) as [Hac|Hac].
  - assert (a <= (1 - w) * a + w * c <= c) by (split; nra).
    assert (lo < b + 1)%Z by (apply lt_IZR; rewrite plus_IZR; lra).
    assert (b < hi + 1)%Z by (apply lt_IZR; rewrite plus_IZR; lra). lia.
  - assert (c <= (1 - w) * a + w * c <= a) by (split; nra).
    assert (hi < b + 1)%Z by (apply lt_IZR; rewrite plus_IZR; lra).
    assert (b < lo + 1)%Z by (apply lt_IZR; rewrite plus_IZR; lra). lia.
Qed.
Print Assumptions C14_uint8_colours.
Example C14_ex_uint8 : Forall (fun c => 0 <= c <= 1) [0; 1/2; 1] /\ linspace_at 0 10 3 1 <= 7 <= linspace_at 0 10 3 2.
Proof. split; [repeat constructor; lra|]. unfold linspace_at. simpl. lra. Qed.

(** A constant image maps to NaN, without exception *)
Theorem C14_constant_image_nan : forall pal mn n, (2 <= n)%nat -> colormap_channel pal true mn mn n mn = NonFinite.
Proof. exact constant_range_nan. Qed.
Print Assumptions C14_constant_image_nan.

(** Asking for as many bins as the palette has colours changes nothing *)
Theorem C14_same_bin_count_identity : forall p continuous mn mx img,
  (2 <= pal_len p <= 129)%nat -> length (pal_g p) = pal_len p -> length (pal_b p) = pal_len p -> mn < mx ->
  apply_colormap_to_grayscale_image p continuous (Some (pal_len p)) (Some mn) (Some mx) None img =
  apply_colormap_to_grayscale_image p continuous None (Some mn) (Some mx) None img.
Proof.
  intros p cont mn mx img Hn Lg Lb Hm. unfold apply_colormap_to_grayscale_image, default_clips. cbn [bind fst snd].
  rewrite resample_same by assumption. rewrite (proj2 (Nat.eqb_neq (pal_len p) 0)) by lia. reflexivity.
Qed.
Print Assumptions C14_same_bin_count_identity.

(** Default clips: every pixel that is not nodata lies in range, so it is never
    clipped *)
Theorem C14_default_clips_cover : forall img nodata mn mx,
  default_clips img nodata None None = Ok (mn, mx) ->
  forall p, In p img -> nodata <> Some p -> mn <= p <= mx.
Proof.
  intros img nodata mn mx H p Hp Hnd. unfold default_clips in H.
  set (good := match nodata with None => img | Some v => filter (fun p => negb (Reqb p v)) img end) in H.
  assert (Hg : In p good).
  { unfold good. destruct nodata as [v|]; [|exact Hp]. apply filter_In. split; [exact Hp|].
    rewrite Reqb_false; [reflexivity|congruence]. }
  destruct (rmin good) as [m|] eqn:E1; [|discriminate]. destruct (rmax good) as [m'|] eqn:E2; [|discriminate].
  cbn [bind] in H. injection H as <- <-.
  apply rmin_spec in E1. apply rmax_spec in E2. split; [apply E1|apply E2]; exact Hg.
Qed.
Print Assumptions C14_default_clips_cover.

(** The public function, whole image, three channels *)
Theorem C14_image : forall p continuous mn mx nodata img,
  (2 <= length (pal_r p) <= 129)%nat -> length (pal_g p) = length (pal_r p) -> length (pal_b p) = length (pal_r p) ->
  mn < mx ->
  exists out, apply_colormap_to_grayscale_image p continuous None (Some mn) (Some mx) nodata img = Ok out /\
    length out = length img /\
    forall k g, nth_error img k = Some g -> exists r gr b, nth_error out k = Some (Fin r, Fin gr, Fin b) /\
      if continuous
      then shade_continuous (pal_r p) mn mx g r /\ shade_continuous (pal_g p) mn mx g gr /\ shade_continuous (pal_b p) mn mx g b
      else shade_discrete (pal_r p) mn mx g r /\ shade_discrete (pal_g p) mn mx g gr /\ shade_discrete (pal_b p) mn mx g b.
Proof.
  intros p cont mn mx nodata img Hn Lg Lb Hm.
  assert (LN : forall l : list R, (2 <= length l)%nat -> last l 0 = nth (length l - 1) l 0).
  { clear. intros l. destruct l as [|a l]; [simpl; lia|]. intros _. revert a.
    induction l as [|c l IH]; intros a; [reflexivity|].
    change (last (a :: c :: l) 0) with (last (c :: l) 0). rewrite IH.
    simpl length. replace (S (S (length l)) - 1)%nat with (S (S (length l) - 1)) by lia. reflexivity. }
  assert (Hpn : 0 < INR (length (pal_r p))) by (apply lt_0_INR; lia).
  assert (Hpn1 : 0 < INR (length (pal_r p) - 1)) by (apply lt_0_INR; lia).
  eexists. split; [unfold apply_colormap_to_grayscale_image, default_clips; cbn [bind fst snd]; rewrite (proj2 (Nat.eqb_neq (pal_len p) 0)) by (unfold pal_len; lia); reflexivity|].
  split; [apply map_length|]. intros k g Hg. rewrite nth_error_map, Hg. cbn [option_map].
  destruct cont.
  - assert (C : forall pal, length pal = length (pal_r p) -> exists v,
      colormap_channel pal true mn mx (pal_len p) g = Fin v /\ shade_continuous pal mn mx g v).
    { intros pal HL. unfold shade_continuous. rewrite HL. unfold pal_len.
      set (n := length (pal_r p)) in *. assert (H2 : (2 <= n)%nat) by lia.
      assert (ST : (mx - mn) / INR (n - 1) = step mn mx n) by reflexivity. rewrite ST.
      pose proof (step_pos mn mx n H2 Hm) as Hs.
      pose proof (linspace_last mn mx n H2) as LL. rewrite linspace_at_step in LL by exact H2.
      assert (IN : forall i, (S i < n)%nat -> mn + INR i * step mn mx n <= g <= mn + INR (S i) * step mn mx n -> mn <= g <= mx).
      { intros i Hi Hb. pose proof (pos_INR i). assert (INR (S i) <= INR (n - 1)) by (apply le_INR; lia). split; nra. }
      destruct (Rlt_dec g mn) as [L|L].
      { exists (255 * nth 0 pal 0). split; [apply clipped_low; lra|]. split; [auto|]. split; [intros; exfalso; lra|].
        intros i Hi Hb. exfalso. apply (IN i Hi) in Hb. lra. }
      destruct (Rlt_dec mx g) as [U|U].
      { exists (255 * nth (n - 1) pal 0). replace (nth (n - 1) pal 0) with (last pal 0) by (rewrite LN by lia; rewrite HL; reflexivity).
        split; [apply clipped_high; lra|].
        split; [intros; exfalso; lra|]. split; [auto|].
        intros i Hi Hb. exfalso. apply (IN i) in Hb; lra || lia. }
      destruct (find_bin_ok mn mx n g) as (j & Hj & Hbj & _ & _); [lia|lra|].
      exists (255 * lerp pal mn mx n j g).
      split; [apply continuous_ok; auto; lia|]. split; [intros; exfalso; lra|]. split; [intros; exfalso; lra|].
      intros i Hi Hb. pose proof (continuous_ok pal mn mx n g j Hn Hm ltac:(lia) Hbj) as E1.
      assert (Hb' : linspace_at mn mx n i <= g <= linspace_at mn mx n (S i)) by (rewrite !linspace_at_step by lia; exact Hb).
      pose proof (continuous_ok pal mn mx n g i Hn Hm ltac:(lia) Hb') as E2. rewrite E1 in E2. injection E2 as E2. rewrite E2.
      unfold lerp. rewrite linspace_at_step by lia. rewrite S_INR. field. lra. }
    destruct (C (pal_r p) eq_refl) as (r & R1 & R2). destruct (C (pal_g p) Lg) as (gr & G1 & G2).
    destruct (C (pal_b p) Lb) as (b & B1 & B2). exists r, gr, b.
    unfold apply_colormap_pixel, adjusted_max. rewrite R1, G1, B1. split; [reflexivity|]. split; [exact R2|]. split; [exact G2|exact B2].
  - assert (C : forall pal, length pal = length (pal_r p) -> exists v,
      colormap_channel pal false mn (adjusted_max false mn mx (pal_len p)) (pal_len p) g = Fin v /\ shade_discrete pal mn mx g v).
    { intros pal HL. unfold shade_discrete. rewrite HL. unfold pal_len.
      set (n := length (pal_r p)) in *. assert (H2 : (2 <= n)%nat) by lia.
      set (h := (mx - mn) / INR n). assert (Hh : 0 < h) by (apply Rdiv_lt_0_compat; lra).
      assert (HM : mn + INR n * h = mx) by (unfold h; field; lra).
      assert (AM : adjusted_max false mn mx n = mn + INR (n - 1) * h) by (unfold adjusted_max, h; field; lra).
      assert (NN : INR n = INR (n - 1) + 1) by (rewrite minus_INR by lia; simpl; lra).
      assert (MON : forall i, (S i < n)%nat -> INR (S i) <= INR (n - 1)) by (intros; apply le_INR; lia).
      destruct (Rlt_dec g mn) as [L|L].
      { exists (255 * nth 0 pal 0). split; [apply clipped_low; [rewrite AM|]; nra|]. split; [auto|].
        split; [intros; exfalso; nra|]. split; [|split; intros; exfalso; nra].
        intros i Hi Hb. exfalso. pose proof (pos_INR i). nra. }
      destruct (Rlt_dec (mn + INR (n - 1) * h) g) as [U|U].
      { exists (255 * nth (n - 1) pal 0). replace (nth (n - 1) pal 0) with (last pal 0) by (rewrite LN by lia; rewrite HL; reflexivity).
        split; [apply clipped_high; rewrite AM; exact U|].
        split; [intros; exfalso; lra|]. split; [auto|]. split; [|split; [auto|intros; exfalso; lra]].
        intros i Hi Hb. exfalso. pose proof (MON i Hi). nra. }
      destruct (Req_dec g (mn + INR (n - 1) * h)) as [->|Hne].
      { exists (255 * nth (n - 2) pal 0). split; [apply C14_discrete_last_edge_refuted; auto|].
        split; [intros; exfalso; lra|]. split; [intros; exfalso; nra|]. split; [|split; [intros; exfalso; lra|auto]].
        intros i Hi Hb. exfalso. pose proof (MON i Hi). nra. }
      assert (Hg2 : mn <= g < mn + INR (n - 1) * h) by lra.
      assert (EX : exists j, (S j < n)%nat /\ mn + INR j * h <= g < mn + INR (S j) * h).
      { assert (EXm : forall m, g < mn + INR m * h -> exists j, (j < m)%nat /\ mn + INR j * h <= g < mn + INR (S j) * h).
        { induction m as [|m IH]; intros Hlt; [simpl in Hlt; exfalso; lra|].
          destruct (Rlt_dec g (mn + INR m * h)) as [Q|Q].
          - destruct (IH Q) as (j & Hj & Hb). exists j. split; [lia|exact Hb].
          - exists m. split; [lia|lra]. }
        destruct (EXm (n - 1)%nat (proj2 Hg2)) as (j & Hj & Hb). exists j. split; [lia|exact Hb]. }
      destruct EX as (j & Hj & Hb).
      exists (255 * nth j pal 0). split.
      { apply C14_discrete_steps; try assumption; try lia. }
      split; [intros; exfalso; lra|]. split; [intros; exfalso; nra|]. split; [|split; intros; exfalso; lra].
      intros i Hi Hb2. assert (i = j); [|congruence].
      destruct (Nat.lt_trichotomy i j) as [Q|[Q|Q]]; [|exact Q|]; exfalso.
      - assert (INR (S i) <= INR j) by (apply le_INR; lia). nra.
      - assert (INR (S j) <= INR i) by (apply le_INR; lia). nra. }
    destruct (C (pal_r p) eq_refl) as (r & R1 & R2). destruct (C (pal_g p) Lg) as (gr & G1 & G2).
    destruct (C (pal_b p) Lb) as (b & B1 & B2). exists r, gr, b.
    unfold apply_colormap_pixel. rewrite R1, G1, B1. split; [reflexivity|]. split; [exact R2|]. split; [exact G2|exact B2].
Qed.
Print Assumptions C14_image.

(** The bytes of the default output type are channel by channel *)
Theorem C14_uint8_channels : forall r g b, to_uint8 (r, g, b) = (cast_uint8 r, cast_uint8 g, cast_uint8 b).
Proof. reflexivity. Qed.
Print Assumptions C14_uint8_channels.
Example C14_ex_image : (2 <= length (pal_r (mkPal [0; 1/2; 1]%R [1; 0; 0]%R [0; 0; 1]%R)) <= 129)%nat /\ 0 < 10.
Proof. split; [simpl; lia|lra]. Qed.

(** Clips that are not given are the extremes of the pixels that are not nodata, and nothing else about the
    image; with no such pixel there is no colour image. *)
Theorem C14_default_clips : forall p continuous n_bins nodata img mn mx,
  let good := fun g => In g img /\ nodata <> Some g in
  let low := fun a => match mn with Some m => a = m | None => good a /\ forall g, good g -> a <= g end in
  let high := fun b => match mx with Some m => b = m | None => good b /\ forall g, good g -> g <= b end in
  ((exists g, good g) \/ (mn <> None /\ mx <> None) ->
   exists a b, low a /\ high b /\
     apply_colormap_to_grayscale_image p continuous n_bins mn mx nodata img =
     apply_colormap_to_grayscale_image p continuous n_bins (Some a) (Some b) nodata img) /\
  ((forall g, ~ good g) -> mn = None \/ mx = None ->
   apply_colormap_to_grayscale_image p continuous n_bins mn mx nodata img = Err ValueError).
Proof.
  intros p cont nb nodata img mn mx good low high.
  set (l := match nodata with None => img | Some v => filter (fun p => negb (Reqb p v)) img end).
  assert (GL : forall g, good g <-> In g l).
  { intros g. unfold good, l. destruct nodata as [v|].
    - rewrite filter_In. destruct (Reqb_spec g v) as [->|Hne]; simpl; split; intros [H1 H2]; split; auto; congruence.
    - split; [intros [H _]; exact H|intros H; split; [exact H|discriminate]]. }
  assert (DC : default_clips img nodata mn mx =
    (a <- match mn with Some m => Ok m | None => match rmin l with Some m => Ok m | None => Err ValueError end end ;;
     b <- match mx with Some m => Ok m | None => match rmax l with Some m => Ok m | None => Err ValueError end end ;;
     Ok (a, b))) by reflexivity.
  assert (N : forall g l0, In g l0 -> exists a b, rmin l0 = Some a /\ rmax l0 = Some b).
  { intros g l0 H. assert (l0 <> []) as Q by (intros ->; destruct H).
    destruct (rmin_some _ Q) as (a & Ea). destruct (rmax_some _ Q) as (b & Eb). eauto. }
  split.
  - intros HG.
    assert (LO : exists a, low a /\ match mn with Some m => Ok m | None => match rmin l with Some m => Ok m | None => Err ValueError end end = Ok a).
    { unfold low. destruct mn as [m|]; [eauto|]. destruct HG as [(g & Hg)|[H _]]; [|congruence].
      destruct (N g l (proj1 (GL g) Hg)) as (a & b & Ea & _). exists a. rewrite Ea. split; [|reflexivity].
      apply rmin_spec in Ea. destruct Ea as [E1 E2]. split; [apply GL; exact E1|intros q Hq; apply E2, GL, Hq]. }
    assert (HI : exists b, high b /\ match mx with Some m => Ok m | None => match rmax l with Some m => Ok m | None => Err ValueError end end = Ok b).
    { unfold high. destruct mx as [m|]; [eauto|]. destruct HG as [(g & Hg)|[_ H]]; [|congruence].
      destruct (N g l (proj1 (GL g) Hg)) as (a & b & _ & Eb). exists b. rewrite Eb. split; [|reflexivity].
      apply rmax_spec in Eb. destruct Eb as [E1 E2]. split; [apply GL; exact E1|intros q Hq; apply E2, GL, Hq]. }
    destruct LO as (a & La & Ea). destruct HI as (b & Lb & Eb). exists a, b. split; [exact La|]. split; [exact Lb|].
    unfold apply_colormap_to_grayscale_image. rewrite DC, Ea. cbn [bind]. rewrite Eb. reflexivity.
  - intros HN HO. assert (L0 : l = []).
    { destruct l as [|x l0]; [reflexivity|]. exfalso. apply (HN x). apply GL. left. reflexivity. }
    unfold apply_colormap_to_grayscale_image. rewrite DC, L0.
    destruct HO as [-> | ->]; [reflexivity|]. destruct mn; reflexivity.
Qed.
Print Assumptions C14_default_clips.

(** Asking for another number of bins is using another palette: that many colours, each channel the shade
    that the given palette has at the corresponding one of that many equally spaced values. *)
Theorem C14_n_bins : forall p continuous mn mx nodata img m,
  (2 <= length (pal_r p) <= 129)%nat -> length (pal_g p) = length (pal_r p) -> length (pal_b p) = length (pal_r p) ->
  mn < mx -> (2 <= m)%nat ->
  exists q, length (pal_r q) = m /\ length (pal_g q) = m /\ length (pal_b q) = m /\
    apply_colormap_to_grayscale_image p continuous (Some m) (Some mn) (Some mx) nodata img =
    apply_colormap_to_grayscale_image q continuous None (Some mn) (Some mx) nodata img /\
    forall k, (k < m)%nat -> let g := mn + INR k * ((mx - mn) / INR (m - 1)) in
      shade_continuous (pal_r p) mn mx g (255 * nth k (pal_r q) 0) /\
      shade_continuous (pal_g p) mn mx g (255 * nth k (pal_g q) 0) /\
      shade_continuous (pal_b p) mn mx g (255 * nth k (pal_b q) 0).
Proof.
  intros p cont mn mx nodata img m Hn Lg Lb Hm H2.
  destruct (resample_any p mn mx m Hn Hm H2) as (q & Eq & (LR & LG & LB) & HQ).
  exists q. split; [exact LR|]. split; [exact LG|]. split; [exact LB|]. split.
  - unfold apply_colormap_to_grayscale_image, default_clips. cbn [bind fst snd]. rewrite Eq.
    rewrite (proj2 (Nat.eqb_neq (pal_len q) 0)) by (rewrite LR; lia). reflexivity.
  - intros k Hk g. destruct (HQ k Hk) as (Q1 & Q2 & Q3).
    assert (Eg : linspace_at mn mx m k = g) by (apply linspace_at_step; lia). rewrite Eg in Q1, Q2, Q3.
    destruct (C14_image p true mn mx None [g] Hn Lg Lb Hm) as (out & Eo & _ & HO).
    destruct (HO O g eq_refl) as (r & gr & b & Er & S1 & S2 & S3).
    unfold apply_colormap_to_grayscale_image, default_clips in Eo. cbn [bind fst snd] in Eo.
    rewrite (proj2 (Nat.eqb_neq (pal_len p) 0)) in Eo by (unfold pal_len; lia). cbn [bind map] in Eo.
    injection Eo as <-. cbn [nth_error] in Er. unfold apply_colormap_pixel, adjusted_max in Er.
    rewrite Q1, Q2, Q3 in Er. injection Er as <- <- <-. split; [exact S1|]. split; [exact S2|exact S3].
Qed.
Print Assumptions C14_n_bins.

(** What is refused, and what becomes NaN: no colour, no bin, one bin; clips that coincide. *)
Theorem C14_degenerate : forall p continuous n_bins mn mx nodata img,
  let call := fun p nb => apply_colormap_to_grayscale_image p continuous nb (Some mn) (Some mx) nodata img in
  call (mkPal [] [] []) None = Err IndexError /\
  call p (Some O) = Err ValueError /\ call p (Some 1%nat) = Err IndexError /\
  ((2 <= n_bins)%nat -> pal_r p <> [] -> mn = mx \/ length (pal_r p) = 1%nat ->
     call p (Some n_bins) = Ok (map (fun _ => (NonFinite, NonFinite, NonFinite)) img)).
Proof.
  intros p cont nb mn mx nodata img call. unfold call, apply_colormap_to_grayscale_image, default_clips. cbn [bind fst snd].
  split; [reflexivity|]. split; [reflexivity|]. split.
  { unfold resample_palette, linspace. cbn [seq map rmin rmax fold_left].
    rewrite Nat.eqb_refl, orb_true_r. reflexivity. }
  intros H2 Hne HO. unfold resample_palette.
  assert (HN : linspace mn mx nb <> []). { unfold linspace. destruct nb; [lia|]. simpl. discriminate. }
  destruct (rmin_some _ HN) as (a & Ea). destruct (rmax_some _ HN) as (b & Eb). rewrite Ea, Eb.
  rewrite (proj2 (Nat.eqb_neq (pal_len p) 0)) by (unfold pal_len; destruct (pal_r p); [congruence|simpl; lia]).
  rewrite (proj2 (Nat.eqb_neq nb 1)) by lia. cbn [orb].
  destruct HO as [<- | HL].
  - destruct (linspace_extremes mn mn nb H2 (Rle_refl _)) as [E1 E2]. rewrite E1 in Ea. rewrite E2 in Eb.
    injection Ea as <-. injection Eb as <-. destruct (Reqb_spec mn mn) as [_|Q]; [|congruence]. reflexivity.
  - unfold pal_len. rewrite HL, Nat.eqb_refl, orb_true_r. reflexivity.
Qed.
Print Assumptions C14_degenerate.

(** The cast to the default output type, for every value: towards zero, then modulo 256 *)
Theorem C14_uint8_any : forall v, exists t b k, cast_uint8 (Fin v) = Some b /\ (0 <= b <= 255)%Z /\ (t = b + 256 * k)%Z /\
  (0 <= v -> IZR t <= v < IZR t + 1) /\ (v <= 0 -> IZR t - 1 < v <= IZR t).
Proof.
  intros v. unfold cast_uint8.
  assert (IP : forall x, IZR (Int_part x) <= x < IZR (Int_part x) + 1).
  { intros x. destruct (base_Int_part x). lra. }
  assert (M : forall t : Z, exists k, (t = t mod 256 + 256 * k)%Z /\ (0 <= t mod 256 <= 255)%Z).
  { intros t. exists (t / 256)%Z. pose proof (Z.div_mod t 256 ltac:(lia)). pose proof (Z.mod_pos_bound t 256 ltac:(lia)). lia. }
  destruct (Rltb_spec v 0) as [H|H].
  - destruct (M (- Int_part (- v))%Z) as (k & E & B). exists (- Int_part (- v))%Z, ((- Int_part (- v)) mod 256)%Z, k.
    pose proof (IP (- v)). rewrite opp_IZR. split; [reflexivity|]. split; [exact B|]. split; [exact E|]. split; intros; lra.
  - destruct (M (Int_part v)) as (k & E & B). exists (Int_part v), (Int_part v mod 256)%Z, k.
    pose proof (IP v). split; [reflexivity|]. split; [exact B|]. split; [exact E|]. split; intros; [lra|].
    assert (v = 0) by lra. subst v. assert (IZR (Int_part 0) <= 0 < IZR (Int_part 0) + 1) by apply IP.
    assert (IP0 : Int_part 0 = 0%Z). { assert (Int_part 0 <= 0)%Z by (apply le_IZR; lra). assert (0 < Int_part 0 + 1)%Z by (apply lt_IZR; rewrite plus_IZR; lra). lia. }
    rewrite IP0. lra.
Qed.
Print Assumptions C14_uint8_any.

Example C14_ex : colormap_channel [0; 1] true 0 10 2 5 = Fin (255 * (1 / 2)).
Proof.
  rewrite (continuous_ok _ 0 10 2 5 0); try lia; try lra.
  - unfold lerp. rewrite linspace_at_step by lia. unfold step. simpl. f_equal. field.
  - rewrite !linspace_at_step by lia. unfold step. simpl. lra.
Qed.

(* ---------------- C15: colour masks ------------------------------- *)
Open Scope Z_scope.

(** For RGB or RGBA images: exactly the pixels of that colour, each once, in
    row-major order, under the label of the colour *)
Theorem C15_mask_exact : forall H V (veqb : V -> V -> bool) (hex_to_rgb : H -> Z * Z * Z) c colors,
  (forall a b, veqb a b = true <-> a = b) ->
  cube_wf c -> c_nb c = 3%nat \/ c_nb c = 4%nat -> NoDup (map snd colors) ->
  exists d, rgb_mask_dict veqb hex_to_rgb (Color c) colors = Ok d /\
    forall h v, In (h, v) colors -> exists locs, dict_get veqb d v = Some locs /\
      StronglySorted lex_lt locs /\
      forall y x, In (y, x) locs <->
        cube_at c y x 0 = Some (fst (fst (hex_to_rgb h))) /\
        cube_at c y x 1 = Some (snd (fst (hex_to_rgb h))) /\
        cube_at c y x 2 = Some (snd (hex_to_rgb h)).
Proof.
  intros H V veqb hex c colors E W Hb ND.
  destruct (mask_dict_ok veqb hex c colors E Hb ND) as (d & Ed & Hd).
  exists d. split; [exact Ed|]. intros h v Hin. eexists. split; [apply Hd; exact Hin|].
  split; [apply np_where_spec|]. intros y x. apply mask_pixels; assumption.
Qed.
Print Assumptions C15_mask_exact.

(** Without colours: exactly the pixels whose channels do not sum to zero *)
Theorem C15_any_colour : forall c locs,
  cube_wf c -> c_nb c = 3%nat -> rgb_mask_any (Color c) = Ok locs ->
  StronglySorted lex_lt locs /\
  forall y x, In (y, x) locs <-> exists r g b, cube_at c y x 0 = Some r /\ cube_at c y x 1 = Some g /\
                                 cube_at c y x 2 = Some b /\ 0 < r + g + b.
Proof.
  intros c locs W H3 H. injection H as <-. split; [apply np_where_spec|]. intros y x.
  assert (Es : strip_alpha c = c) by (unfold strip_alpha; rewrite H3; reflexivity).
  rewrite (proj1 (np_where_spec _ _)). split.
  - intros (row & px & Hy & Hx & Hp). assert (H3' : c_nb (strip_alpha c) = 3%nat) by (rewrite Es; exact H3).
    destruct (strip_alpha_at c y x row px W H3' Hy Hx) as (r & g & b & -> & R0 & R1 & R2).
    exists r, g, b. repeat (split; [assumption|]). apply Z.ltb_lt in Hp. simpl in Hp. lia.
  - intros (r & g & b & R0 & R1 & R2 & Hpos). rewrite Es. unfold cube_at in R0, R1, R2.
    destruct (nth_error (c_data c) y) as [row|] eqn:Ey; [|discriminate].
    destruct (nth_error row x) as [px|] eqn:Ex; [|discriminate].
    exists row, px. split; [reflexivity|]. split; [exact Ex|].
    destruct W as [_ W2]. rewrite Forall_forall in W2. destruct (W2 row (nth_error_In _ _ Ey)) as [_ F].
    rewrite Forall_forall in F. pose proof (F px (nth_error_In _ _ Ex)) as Lp. rewrite H3 in Lp.
    destruct px as [|r' [|g' [|b' [|? ?]]]]; simpl in Lp; try discriminate.
    simpl in R0, R1, R2. injection R0 as ->. injection R1 as ->. injection R2 as ->.
    apply Z.ltb_lt. simpl. lia.
Qed.
Print Assumptions C15_any_colour.

(** Other shapes.  An image of one band (three axes) matches the grey colours of its value; a two-axis image and
    every other number of bands are refused as soon as a colour is asked for; without colours the two-axis image
    is refused. *)
Theorem C15_other_shapes : forall H V (veqb : V -> V -> bool) (hex_to_rgb : H -> Z * Z * Z) h v,
  (forall a b, veqb a b = true <-> a = b) ->
  (forall c, cube_wf c -> c_nb c = 1%nat ->
     exists locs, rgb_mask_dict veqb hex_to_rgb (Color c) [(h, v)] = Ok [(v, locs)] /\ StronglySorted lex_lt locs /\
       forall y x, In (y, x) locs <-> exists a, cube_at c y x 0 = Some a /\ hex_to_rgb h = (a, a, a)) /\
  (forall c more, c_nb c <> 1%nat -> c_nb c <> 3%nat -> c_nb c <> 4%nat ->
     rgb_mask_dict veqb hex_to_rgb (Color c) ((h, v) :: more) = Err IndexError) /\
  (forall b more, rgb_mask_dict veqb hex_to_rgb (Gray b) ((h, v) :: more) = Err IndexError) /\
  (forall b, rgb_mask_any (Gray b) = Err IndexError) /\
  (forall i, rgb_mask_dict veqb hex_to_rgb i [] = Ok []).
Proof.
  intros H V veqb hex h v E. split; [|split; [|split; [|split]]].
  - intros c W N1. unfold rgb_mask_dict, strip_alpha. rewrite N1. cbn [Nat.eqb]. rewrite N1. cbn [Nat.eqb orb fold_left dict_set fst snd].
    eexists. split; [reflexivity|]. split; [apply np_where_spec|]. intros y x. rewrite (proj1 (np_where_spec _ _)).
    destruct (hex h) as [[r g] b]. destruct W as [_ W2]. rewrite Forall_forall in W2. split.
    + intros (row & px & Hy & Hx & Hp). destruct (W2 row (nth_error_In _ _ Hy)) as [_ F]. rewrite Forall_forall in F.
      pose proof (F px (nth_error_In _ _ Hx)) as L. rewrite N1 in L. destruct px as [|a [|]]; try discriminate. cbn in Hp.
      exists a. unfold cube_at. rewrite Hy, Hx. split; [reflexivity|]. assert (a = r /\ a = g /\ a = b) as (-> & <- & <-) by lia. reflexivity.
    + intros (a & Ha & Q). injection Q as -> -> ->. unfold cube_at in Ha.
      destruct (nth_error (c_data c) y) as [row|] eqn:Hy; [|discriminate]. destruct (nth_error row x) as [px|] eqn:Hx; [|discriminate].
      exists row, px. split; [reflexivity|]. split; [exact Hx|]. destruct (W2 row (nth_error_In _ _ Hy)) as [_ F]. rewrite Forall_forall in F.
      pose proof (F px (nth_error_In _ _ Hx)) as L. rewrite N1 in L. destruct px as [|a' [|]]; try discriminate. injection Ha as ->. cbn. lia.
  - intros c more N1 N3 N4. unfold rgb_mask_dict, strip_alpha.
    destruct (Nat.eqb_spec (c_nb c) 4); [contradiction|]. destruct (Nat.eqb_spec (c_nb c) 3); [contradiction|]. destruct (Nat.eqb_spec (c_nb c) 1); [contradiction|]. reflexivity.
  - reflexivity.
  - reflexivity.
  - intros [b|c]; [reflexivity|]. unfold rgb_mask_dict. destruct (_ || _)%bool; reflexivity.
Qed.
Print Assumptions C15_other_shapes.

(** Two colours with the same label: only the last one is reported *)
Theorem C15_shared_label_last_wins :
  rgb_mask_dict Z.eqb (fun h : Z => (h, h, h)) (Color (mkCube 1 2 3 [[[1; 1; 1]; [2; 2; 2]]])) [(1, 7); (2, 7)]
  = Ok [(7, [(0, 1)%nat])].
Proof. reflexivity. Qed.
Print Assumptions C15_shared_label_last_wins.

Example C15_ex : rgb_mask_dict Z.eqb (fun h : Z => (h, 0, h)) (Color (mkCube 2 2 4
    [[[9; 0; 9; 255]; [9; 9; 9; 255]]; [[1; 0; 1; 0]; [9; 0; 9; 3]]])) [(9, 0); (1, 1)]
  = Ok [(0, [(0, 0); (1, 1)]%nat); (1, [(1, 0)%nat])].
Proof. reflexivity. Qed.

(* ---------------- C62: mutual information ------------------------- *)
Open Scope R_scope.

Theorem C62_mmi_symmetric : forall n h1 h2 joint,
  histogram_mmi n h1 h2 joint = histogram_mmi n h2 h1 (fun a b => joint b a).
Proof. exact mmi_symmetric. Qed.
Print Assumptions C62_mmi_symmetric.

(** For histograms of N pixels whose marginals are the two image histograms: never below
    -N ln N, which is the score exactly if the images are independent. *)
Theorem C62_mmi_lower_bound : forall n h1 h2 joint N,
  (forall a b, (a < n)%nat -> (b < n)%nat -> 0 <= joint a b) ->
  (forall a, (a < n)%nat -> h1 a = bigsum n (fun b => joint a b)) ->
  (forall b, (b < n)%nat -> h2 b = bigsum n (fun a => joint a b)) ->
  N = bigsum n (fun a => bigsum n (fun b => joint a b)) -> 0 < N ->
  - (N * ln N) <= histogram_mmi n h1 h2 joint /\
  (histogram_mmi n h1 h2 joint = - (N * ln N) <-> forall a b, (a < n)%nat -> (b < n)%nat -> joint a b = h1 a * h2 b / N).
Proof. exact mmi_lower_iff. Qed.
Print Assumptions C62_mmi_lower_bound.

(** The score of independent images, empty bins included *)
Theorem C62_mmi_independent : forall n h1 h2 N,
  (forall a, (a < n)%nat -> 0 <= h1 a) -> (forall b, (b < n)%nat -> 0 <= h2 b) ->
  bigsum n h1 = N -> bigsum n h2 = N -> 0 < N ->
  histogram_mmi n h1 h2 (fun a b => h1 a * h2 b / N) = - (N * ln N).
Proof.
  intros n h1 h2 N P1 P2 S1 S2 HN. apply mmi_lower_iff; auto.
  - intros a b Ha Hb. apply Rmult_le_pos; [apply Rmult_le_pos; auto|]. left. now apply Rinv_0_lt_compat.
  - intros a Ha. rewrite (bigsum_ext n _ (fun b => h1 a / N * h2 b)) by (intros; unfold Rdiv; ring). rewrite bigsum_scal, S2. field. lra.
  - intros b Hb. rewrite (bigsum_ext n _ (fun a => h1 a * (h2 b / N))) by (intros; unfold Rdiv; ring). rewrite bigsum_scal_r, S1. field. lra.
  - rewrite (bigsum_ext n _ h1); [now rewrite S1|]. intros a Ha. rewrite (bigsum_ext n _ (fun b => h1 a / N * h2 b)) by (intros; unfold Rdiv; ring). rewrite bigsum_scal, S2. field. lra.
Qed.
Print Assumptions C62_mmi_independent.

(** No image scores higher against an image than that image against itself. *)
Theorem C62_mmi_self_best : forall n h1 h2 joint,
  (forall a b, (a < n)%nat -> (b < n)%nat -> 0 <= joint a b) ->
  (forall a, (a < n)%nat -> h1 a = bigsum n (fun b => joint a b)) ->
  (forall b, (b < n)%nat -> h2 b = bigsum n (fun a => joint a b)) ->
  histogram_mmi n h1 h2 joint <= histogram_mmi n h2 h2 (fun a b => if Nat.eqb a b then h2 a else 0) /\
  histogram_mmi n h1 h2 joint <= histogram_mmi n h1 h1 (fun a b => if Nat.eqb a b then h1 a else 0).
Proof.
  intros n h1 h2 J HJ H1 H2.
  assert (P1 : forall a, (a < n)%nat -> 0 <= h1 a) by (intros a Ha; rewrite H1 by exact Ha; apply bigsum_nonneg; auto).
  assert (P2 : forall a, (a < n)%nat -> 0 <= h2 a) by (intros a Ha; rewrite H2 by exact Ha; apply bigsum_nonneg; auto).
  rewrite !mmi_self by assumption. split; [now apply mmi_upper|]. rewrite mmi_symmetric. apply mmi_upper; auto.
Qed.
Print Assumptions C62_mmi_self_best.
(** The score of an image against itself *)
Theorem C62_mmi_self : forall n h, (forall a, (a < n)%nat -> 0 <= h a) ->
  histogram_mmi n h h (fun a b => if Nat.eqb a b then h a else 0) = - bigsum n (fun b => h b * ln (h b)).
Proof. exact mmi_self. Qed.
Print Assumptions C62_mmi_self.

Example C62_hypotheses_met : exists n h1 h2 joint N,
  (forall a b, (a < n)%nat -> (b < n)%nat -> 0 <= joint a b) /\
  (forall a, (a < n)%nat -> h1 a = bigsum n (fun b => joint a b)) /\
  (forall b, (b < n)%nat -> h2 b = bigsum n (fun a => joint a b)) /\
  N = bigsum n (fun a => bigsum n (fun b => joint a b)) /\ 0 < N /\ h1 0%nat <> h1 1%nat.
Proof.
  exists 2%nat, (fun a => if Nat.eqb a 0 then 3 else 1), (fun _ => 2), (fun a b => if Nat.eqb a 0 then (if Nat.eqb b 0 then 2 else 1) else (if Nat.eqb b 0 then 0 else 1)), 4.
  assert (K : forall a, (a < 2)%nat -> a = 0%nat \/ a = 1%nat) by lia.
  split; [intros a b Ha Hb; destruct (K a Ha), (K b Hb); subst; cbn; lra|].
  split; [intros a Ha; destruct (K a Ha); subst; cbn; lra|]. split; [intros b Hb; destruct (K b Hb); subst; cbn; lra|]. cbn. lra.
Qed.

(* ---------------- C63: uniform images ----------------------------- *)

Theorem C63_uniform_image : forall A (zero : A) nx ny nb v,
  match v with OneValue _ => True | BandValues l => (length l <= nb)%nat end ->
  exists c, create_uniform_image_data zero nx ny nb v = Ok c /\ cube_wf c /\
    c_ny c = ny /\ c_nx c = nx /\ c_nb c = nb /\
    forall y x b, (y < ny)%nat -> (x < nx)%nat -> (b < nb)%nat ->
      cube_at c y x b = Some (match v with OneValue a => a | BandValues l => nth b l zero end).
Proof. intros A zero nx ny nb v. exact (uniform_image zero nx ny nb v). Qed.
Print Assumptions C63_uniform_image.
Example C63_ex : create_uniform_image_data 0%Z 2 1 3 (BandValues [5; 6]%Z)
  = Ok (mkCube 1 2 3 [[[5; 6; 0]; [5; 6; 0]]]%Z).
Proof. reflexivity. Qed.

(* ---------------- C64: blending ----------------------------------- *)

Theorem C64_blend_between : forall im1 im2 t i a b,
  0 <= t <= 1 -> nth_error im1 i = Some a -> nth_error im2 i = Some b ->
  exists v, nth_error (blend_images im1 im2 t) i = Some v /\ Rmin a b <= v <= Rmax a b.
Proof.
  intros im1 im2 t i a b Ht Ha Hb. exists (blend_pixel a b t). split.
  - unfold blend_images. exact (map2_nth _ _ _ _ _ _ Ha Hb).
  - apply blend_between; exact Ht.
Qed.
Print Assumptions C64_blend_between.
Theorem C64_blend_ends : forall im1 im2,
  length im1 = length im2 -> blend_images im1 im2 1 = im1 /\ blend_images im1 im2 0 = im2.
Proof.
  intros im1. unfold blend_images, blend_pixel.
  induction im1 as [|a im1 IH]; intros [|b im2] H; simpl in *; try discriminate; auto.
  destruct (IH im2 ltac:(lia)) as [E1 E2]. rewrite E1, E2. split; f_equal; ring.
Qed.
Print Assumptions C64_blend_ends.
