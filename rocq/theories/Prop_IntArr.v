(** C98: images of integer types. *)
From Coq Require Import Reals Lra Lia ZArith List.
From Verif Require Import Py RAux LinAlg M_ImageR M_Spectral M_IntArr Spec_Float P_Spectral P_FloatSum.
Open Scope R_scope.
Open Scope list_scope.

Lemma zmin_spec l m : zmin l = Some m -> In m l /\ forall x, In x l -> (m <= x)%Z.
Proof.
  revert m. induction l as [|x l IH]; intros m H; [discriminate|]. cbn [zmin] in H. injection H as <-. destruct (zmin l) as [k|] eqn:E.
  - destruct (IH k eq_refl) as [I1 I2]. split; [destruct (Z.min_spec x k) as [[_ -> ]|[_ -> ]]; [now left|now right]|]. intros y [ <- |Hy]; [lia|]. specialize (I2 y Hy). lia.
  - split; [now left|]. destruct l; [|discriminate]. intros y [ <- |[]]. lia.
Qed.
Lemma zmax_spec l m : zmax l = Some m -> In m l /\ forall x, In x l -> (x <= m)%Z.
Proof.
  revert m. induction l as [|x l IH]; intros m H; [discriminate|]. cbn [zmax] in H. injection H as <-. destruct (zmax l) as [k|] eqn:E.
  - destruct (IH k eq_refl) as [I1 I2]. split; [destruct (Z.max_spec x k) as [[_ -> ]|[_ -> ]]; [now right|now left]|]. intros y [ <- |Hy]; [lia|]. specialize (I2 y Hy). lia.
  - split; [now left|]. destruct l; [|discriminate]. intros y [ <- |[]]. lia.
Qed.
Lemma zmin_real l : rmin (map IZR l) = option_map IZR (zmin l).
Proof.
  induction l as [|x l IH]; [reflexivity|]. cbn [map rmin zmin option_map]. rewrite IH. destruct (zmin l) as [k|]; cbn [option_map]; [|reflexivity]. f_equal.
  destruct (Z.min_spec x k) as [[H -> ]|[H -> ]]; [apply Rmin_left, IZR_le; lia|apply Rmin_right, IZR_le; lia].
Qed.
Lemma zmax_real l : rmax (map IZR l) = option_map IZR (zmax l).
Proof.
  induction l as [|x l IH]; [reflexivity|]. cbn [map rmax zmax option_map]. rewrite IH. destruct (zmax l) as [k|]; cbn [option_map]; [|reflexivity]. f_equal.
  destruct (Z.max_spec x k) as [[H -> ]|[H -> ]]; [apply Rmax_right, IZR_le; lia|apply Rmax_left, IZR_le; lia].
Qed.
Lemma wrap_unsigned_id bits z : (0 <= z < 2 ^ bits)%Z -> wrap_unsigned bits z = z.
Proof. intros H. apply Z.mod_small. exact H. Qed.
Lemma pow_half bits : (1 <= bits)%Z -> (2 ^ bits = 2 * 2 ^ (bits - 1))%Z.
Proof. intros H. rewrite <- Z.pow_succ_r by lia. f_equal. lia. Qed.
Lemma wrap_signed_id bits z : (1 <= bits)%Z -> (- 2 ^ (bits - 1) <= z < 2 ^ (bits - 1))%Z -> wrap_signed bits z = z.
Proof. intros Hb H. unfold wrap_signed. rewrite Z.mod_small; [lia|]. rewrite (pow_half bits Hb). lia. Qed.
Lemma wrap_signed_over bits z : (1 <= bits)%Z -> (2 ^ (bits - 1) <= z < 2 ^ bits)%Z -> wrap_signed bits z = (z - 2 ^ bits)%Z.
Proof.
  intros Hb H. unfold wrap_signed. rewrite <- (Z_mod_plus_full (z + 2 ^ (bits - 1)) (-1)). rewrite Z.mod_small; [lia|]. rewrite (pow_half bits Hb) in *. lia.
Qed.

(** An image of an unsigned type, or of a signed type whose pixels span less than half of it, is
    normalised like the same image of reals (C13). *)
Theorem C98_normalise_unsigned : forall bits img a b, (forall p, In p img -> (0 <= p < 2 ^ bits)%Z) ->
  normalize_int (wrap_unsigned bits) img a b = normalize_grayscale_image (map IZR img) a b.
Proof.
  intros bits img a b H. unfold normalize_int, normalize_grayscale_image. rewrite zmin_real, zmax_real. destruct (zmin img) as [mn|] eqn:E1; [|reflexivity]. destruct (zmax img) as [mx|] eqn:E2; [|reflexivity]. cbn [option_map].
  apply zmin_spec in E1 as [I1 L1]. apply zmax_spec in E2 as [I2 L2]. pose proof (H mn I1). pose proof (H mx I2). specialize (L1 mx I2) as L12.
  rewrite map_map. f_equal. apply map_ext_in. intros p Hp. specialize (L1 p Hp). specialize (L2 p Hp). rewrite !wrap_unsigned_id by lia. now rewrite !minus_IZR.
Qed.
Print Assumptions C98_normalise_unsigned.

Theorem C98_normalise_signed : forall bits img a b, (1 <= bits)%Z -> (forall p q, In p img -> In q img -> (p - q < 2 ^ (bits - 1))%Z) ->
  normalize_int (wrap_signed bits) img a b = normalize_grayscale_image (map IZR img) a b.
Proof.
  intros bits img a b HB H. unfold normalize_int, normalize_grayscale_image. rewrite zmin_real, zmax_real. destruct (zmin img) as [mn|] eqn:E1; [|reflexivity]. destruct (zmax img) as [mx|] eqn:E2; [|reflexivity]. cbn [option_map].
  apply zmin_spec in E1 as [I1 L1]. apply zmax_spec in E2 as [I2 L2]. specialize (L1 mx I2) as L12. assert (P := Z.pow_pos_nonneg 2 (bits - 1) ltac:(lia) ltac:(lia)).
  rewrite map_map. f_equal. apply map_ext_in. intros p Hp. specialize (L1 p Hp). pose proof (H p mn Hp I1). pose proof (H mx mn I2 I1). rewrite !wrap_signed_id by lia. now rewrite !minus_IZR.
Qed.
Print Assumptions C98_normalise_signed.

(** A signed image whose pixels span half of its type or more: the smallest and the largest pixel
    still go to the new bounds, and every other pixel goes outside of them. *)
Theorem C98_normalise_wrapped : forall bits img a b mn mx, (1 <= bits)%Z -> a < b ->
  (forall p, In p img -> (- 2 ^ (bits - 1) <= p < 2 ^ (bits - 1))%Z) ->
  In mn img -> (forall p, In p img -> (mn <= p)%Z) -> In mx img -> (forall p, In p img -> (p <= mx)%Z) -> (2 ^ (bits - 1) <= mx - mn)%Z ->
  exists out, normalize_int (wrap_signed bits) img a b = Ok (map Fin out) /\ length out = length img /\
    forall i p q, nth_error img i = Some p -> nth_error out i = Some q ->
      (p = mn -> q = a) /\ (p = mx -> q = b) /\
      (p <> mn -> (p - mn < 2 ^ (bits - 1))%Z -> q < a) /\ (p <> mx -> (2 ^ (bits - 1) <= p - mn)%Z -> b < q).
Proof.
  intros bits img a b mn mx HB AB HR I1 L1 I2 L2 SP. unfold normalize_int.
  assert (E1 : zmin img = Some mn).
  { destruct (zmin img) as [k|] eqn:E; [|destruct img; [destruct I1|discriminate]]. apply zmin_spec in E as [J1 J2]. specialize (J2 _ I1). specialize (L1 _ J1). f_equal. lia. }
  assert (E2 : zmax img = Some mx).
  { destruct (zmax img) as [k|] eqn:E; [|destruct img; [destruct I2|discriminate]]. apply zmax_spec in E as [J1 J2]. specialize (J2 _ I2). specialize (L2 _ J1). f_equal. lia. }
  rewrite E1, E2. assert (P := Z.pow_pos_nonneg 2 (bits - 1) ltac:(lia) ltac:(lia)). pose proof (pow_half bits HB) as PH.
  pose proof (HR mn I1) as R1. pose proof (HR mx I2) as R2. set (h := (2 ^ (bits - 1))%Z) in *.
  assert (WM : wrap_signed bits (mx - mn) = (mx - mn - 2 ^ bits)%Z) by (apply wrap_signed_over; [exact HB|fold h; lia]).
  rewrite WM. set (D := (mx - mn - 2 ^ bits)%Z). assert (DN : (D < 0)%Z) by (unfold D; lia). pose proof (IZR_lt _ _ DN) as DR. change (IZR 0) with 0 in DR.
  exists (map (fun p => IZR (wrap_signed bits (p - mn)) / IZR D * (b - a) + a) img). split; [|split; [apply map_length|]].
  - rewrite map_map. f_equal. apply map_ext. intros p. unfold fdiv. destruct (Reqb_spec (IZR D) 0) as [Q|_]; [lra|]. reflexivity.
  - intros i p q Hp Hq. rewrite nth_error_map, Hp in Hq. injection Hq as <-. apply nth_error_In in Hp. pose proof (L1 p Hp). pose proof (L2 p Hp). pose proof (HR p Hp).
    assert (INV : / IZR D < 0) by now apply Rinv_lt_0_compat.
    split; [|split; [|split]].
    + intros ->. rewrite Z.sub_diag, wrap_signed_id by (fold h; lia). unfold Rdiv. ring.
    + intros ->. rewrite WM. fold D. field. lra.
    + intros N S. rewrite wrap_signed_id by (fold h; lia). assert (0 < IZR (p - mn)) by (apply (IZR_lt 0); lia).
      assert (IZR (p - mn) / IZR D < 0) by (unfold Rdiv; nra). nra.
    + intros N S. rewrite wrap_signed_over by (fold h; lia). assert (X : IZR (p - mn - 2 ^ bits) < IZR D) by (apply IZR_lt; unfold D; lia).
      assert (1 < IZR (p - mn - 2 ^ bits) / IZR D). { replace 1 with (IZR D * / IZR D) by (field; lra). unfold Rdiv. nra. } nra.
Qed.
Print Assumptions C98_normalise_wrapped.
(** So that the claim of C13 -- outputs between the new bounds -- fails for such images. *)
Theorem C98_range_refuted : exists out, normalize_int (wrap_signed 16) ((-32768) :: 0 :: 32767 :: nil)%Z 0 255 = Ok (map Fin out) /\ out = 0 :: 8355840 :: 255 :: nil.
Proof.
  eexists. split; [|reflexivity]. unfold normalize_int. cbn. unfold wrap_signed. cbn. unfold fdiv. destruct (Reqb_spec (-1) 0) as [Q|_]; [lra|]. cbn [fmap]. repeat f_equal; lra.
Qed.
Print Assumptions C98_range_refuted.

(* ------------------------- spectral angle ----------------------------- *)
Lemma zsum_real l m : rsum (map2 Rmult (map IZR l) (map IZR m)) = IZR (zsum (map2 Z.mul l m)).
Proof.
  revert m. induction l as [|x l IH]; intros [|y m]; try reflexivity. cbn [map map2]. rewrite rsum_cons, IH. unfold zsum. cbn [fold_right]. now rewrite plus_IZR, mult_IZR.
Qed.
Lemma zsum_nonneg l : (forall x, In x l -> (0 <= x)%Z) -> (0 <= zsum l)%Z.
Proof. intros H. induction l as [|x l IH]; [cbn; lia|]. cbn [zsum fold_right]. pose proof (H x (or_introl eq_refl)). assert (0 <= zsum l)%Z by (apply IH; intros y Hy; apply H; now right). unfold zsum in *. lia. Qed.
Lemma squares_In l x : In x (map2 Z.mul l l) -> exists y, In y l /\ x = (y * y)%Z.
Proof. induction l as [|z l IH]; cbn; [tauto|]. intros [ <- |H]; [exists z; auto|]. destruct (IH H) as (y & ? & ?). exists y. auto. Qed.
Lemma exact_sam_value t p : length t = length p ->
  exact_sam t p = fdiv (rsum (map2 Rmult t p)) (sqrt (rsum (map2 Rmult t t)) * sqrt (rsum (map2 Rmult p p))).
Proof.
  intros L. unfold exact_sam. rewrite sam_eq. unfold sam_value. cbn [si_nb si_px]. rewrite <- !rsum_dot by auto.
  rewrite (rsum_dot t t eq_refl), L. reflexivity.
Qed.

(** Target and image of one unsigned type: the score is the exact one as long as neither the
    target's sum of squares nor its dot product with the pixel nor any squared band value
    reaches 2^bits. *)
Theorem C98_sam_exact : forall bits t p, length t = length p ->
  (forall x, In x t -> (0 <= x)%Z) -> (forall x, In x p -> (0 <= x)%Z) ->
  (zsum (map2 Z.mul t t) < 2 ^ bits)%Z -> (zsum (map2 Z.mul t p) < 2 ^ bits)%Z -> (forall x, In x p -> (x * x < 2 ^ bits)%Z) ->
  sam_int (wrap_unsigned bits) t p = exact_sam (map IZR t) (map IZR p).
Proof.
  intros bits t p L Ht Hp B1 B2 B3. rewrite exact_sam_value by now rewrite !map_length. rewrite !zsum_real. unfold sam_int.
  assert (N1 : (0 <= zsum (map2 Z.mul t t))%Z) by (apply zsum_nonneg; intros x Hx; apply squares_In in Hx as (y & _ & ->); nia).
  assert (N2 : (0 <= zsum (map2 Z.mul t p))%Z).
  { apply zsum_nonneg. clear - Ht Hp. revert p Hp. induction t as [|x t IH]; intros [|y p] Hp; cbn; try tauto. intros z [ <- |Hz]; [pose proof (Ht x (or_introl eq_refl)); pose proof (Hp y (or_introl eq_refl)); nia|].
    apply (IH (fun z Hz => Ht z (or_intror Hz)) p); [intros w Hw; apply Hp; now right|exact Hz]. }
  assert (W : map (wrap_unsigned bits) (map2 Z.mul p p) = map2 Z.mul p p).
  { rewrite <- (map_id (map2 Z.mul p p)) at 2. apply map_ext_in. intros x Hx. apply squares_In in Hx as (y & Hy & ->). apply wrap_unsigned_id. specialize (B3 y Hy). nia. }
  rewrite W, !wrap_unsigned_id by lia. assert (N3 : (0 <= zsum (map2 Z.mul p p))%Z) by (apply zsum_nonneg; intros x Hx; apply squares_In in Hx as (y & _ & ->); nia).
  apply IZR_le in N1, N3. unfold np_sqrt. destruct (Rltb_spec (IZR (zsum (map2 Z.mul t t))) 0); [lra|]. destruct (Rltb_spec (IZR (zsum (map2 Z.mul p p))) 0); [lra|]. reflexivity.
Qed.
Print Assumptions C98_sam_exact.

(** An unsigned image and a target of floats: a finite score is at least the exact one in absolute
    value, and equal to it only if the spectra are orthogonal or no squared band value reaches
    2^bits; there is no finite score if all of them are multiples of 2^bits. *)
Theorem C98_sam_image : forall bits t p v, (0 <= bits)%Z -> length t = length p -> sam_int_image (wrap_unsigned bits) t p = Fin v ->
  exists c, exact_sam t (map IZR p) = Fin c /\ Rabs c <= Rabs v /\ 0 <= c * v /\
    (Rabs c = Rabs v <-> c = 0 \/ forall x, In x p -> (x * x < 2 ^ bits)%Z).
Proof.
  intros bits t p v HB L H. rewrite exact_sam_value by now rewrite map_length. rewrite zsum_real. unfold sam_int_image in H.
  set (T := rsum (map2 Rmult t t)) in *. set (N := rsum (map2 Rmult t (map IZR p))) in *. set (P := zsum (map2 Z.mul p p)). set (W := zsum (map (wrap_unsigned bits) (map2 Z.mul p p))) in *.
  assert (P2 := Z.pow_pos_nonneg 2 bits ltac:(lia) HB).
  assert (WP : (0 <= W <= P)%Z /\ (W = P <-> forall x, In x p -> (x * x < 2 ^ bits)%Z)).
  { unfold W, P. clear - P2. induction p as [|x p IH]; [cbn; split; [lia|split; [intros _ x []|reflexivity]]|]. cbn [map2 map zsum fold_right]. unfold zsum in IH. destruct IH as [IH1 IH2].
    pose proof (Z.mod_pos_bound (x * x) (2 ^ bits) P2) as M1. pose proof (Z.mod_le (x * x) (2 ^ bits) ltac:(nia) P2) as M2. fold (wrap_unsigned bits (x * x)) in *. set (w := wrap_unsigned bits (x * x)) in *.
    split; [lia|]. split.
    - intros E y [ <- |Hy]; [unfold w in *; lia|]. apply IH2; [lia|exact Hy].
    - intros E. assert (w = (x * x)%Z) by (apply wrap_unsigned_id; split; [nia|apply E; now left]). rewrite (proj2 IH2) by (intros y Hy; apply E; now right). lia. }
  destruct WP as [[W0 WP] WE]. clearbody W P. unfold np_sqrt in H. destruct (Rltb_spec T 0) as [|T0]; [discriminate|]. destruct (Rltb_spec (IZR W) 0) as [|W0']; [discriminate|].
  unfold fdiv in *. destruct (Reqb_spec (sqrt T * sqrt (IZR W)) 0) as [|NZ]; [discriminate|]. injection H as <-.
  apply IZR_le in W0. apply IZR_le in WP as WPR.
  assert (ST : 0 < sqrt T). { pose proof (sqrt_pos T). destruct (Req_dec (sqrt T) 0) as [Q|Q]; [rewrite Q, Rmult_0_l in NZ; lra|lra]. }
  assert (SW : 0 < sqrt (IZR W)). { pose proof (sqrt_pos (IZR W)). destruct (Req_dec (sqrt (IZR W)) 0) as [Q|Q]; [rewrite Q, Rmult_0_r in NZ; lra|lra]. }
  assert (SP : sqrt (IZR W) <= sqrt (IZR P)) by now apply sqrt_le_1_alt. set (s := sqrt T) in *. set (r := sqrt (IZR W)) in *. set (q := sqrt (IZR P)) in *.
  destruct (Reqb_spec (s * q) 0) as [Q|_]; [exfalso; nra|]. exists (N / (s * q)). split; [reflexivity|].
  assert (D1 : 0 < s * r) by nra. assert (D2 : 0 < s * q) by nra. assert (I1 : 0 < / (s * r)) by now apply Rinv_0_lt_compat. assert (I2 : 0 < / (s * q)) by now apply Rinv_0_lt_compat.
  assert (II : / (s * q) <= / (s * r)) by (apply Rinv_le_contravar; nra).
  unfold Rdiv. rewrite !Rabs_mult, (Rabs_pos_eq (/ (s * q))), (Rabs_pos_eq (/ (s * r))) by lra. split; [|split].
  - apply Rmult_le_compat_l; [apply Rabs_pos|exact II].
  - replace (N * / (s * q) * (N * / (s * r))) with (N * N * (/ (s * q) * / (s * r))) by ring. apply Rmult_le_pos; [nra|apply Rmult_le_pos; lra].
  - split.
    + intros E. destruct (Req_dec N 0) as [Z|Z]; [left; rewrite Z; ring|right]. apply WE. apply Rabs_no_R0 in Z. apply Rmult_eq_reg_l in E; [|exact Z].
      assert (SE : s * q = s * r) by (rewrite <- (Rinv_inv (s * q)), E; apply Rinv_inv). apply Rmult_eq_reg_l in SE; [|lra].
      unfold q, r in SE. apply sqrt_inj in SE; [|lra|lra]. now apply eq_IZR in SE.
    + intros [E|E].
      * assert (Z : N = 0) by (apply Rmult_integral in E as [E|E]; [exact E|lra]). rewrite Z, Rabs_R0. ring.
      * apply WE in E. unfold q, r. now rewrite E.
Qed.
Print Assumptions C98_sam_image.
Theorem C98_sam_none : forall bits t p, (0 <= bits)%Z -> (forall x, In x p -> ((x * x) mod 2 ^ bits = 0)%Z) -> sam_int_image (wrap_unsigned bits) t p = NonFinite.
Proof.
  intros bits t p HB H. unfold sam_int_image.
  assert (W : zsum (map (wrap_unsigned bits) (map2 Z.mul p p)) = 0%Z).
  { assert (Q : forall x, In x (map2 Z.mul p p) -> wrap_unsigned bits x = 0%Z) by (intros x Hx; apply squares_In in Hx as (y & Hy & ->); now apply H). clear H. induction (map2 Z.mul p p) as [|x l IH]; [reflexivity|]. cbn [map zsum fold_right]. rewrite (Q x (or_introl eq_refl)). unfold zsum in IH. rewrite IH; [reflexivity|]. intros y Hy. apply Q. now right. }
  rewrite W. unfold np_sqrt. destruct (Rltb_spec (rsum (map2 Rmult t t)) 0); [reflexivity|]. destruct (Rltb_spec 0 0); [lra|]. rewrite sqrt_0, Rmult_0_r. unfold fdiv. destruct (Reqb_spec 0 0) as [_|Q]; [reflexivity|contradiction].
Qed.
Print Assumptions C98_sam_none.

(** That the score of an integer image is the cosine (C20), at most one: refuted.  A 16-bit pixel
    (300, 300) with the target (1, 1) of floats scores more than 1.9; the pixel (256) has no
    finite score with itself, whatever the target. *)
Theorem C98_sam_refuted : (exists v, sam_int_image (wrap_unsigned 16) (1 :: 1 :: nil) (300 :: 300 :: nil)%Z = Fin v /\ 19 / 10 < v /\ exact_sam (1 :: 1 :: nil) (map IZR (300 :: 300 :: nil)%Z) = Fin 1) /\
  (sam_int (wrap_unsigned 16) (256 :: nil)%Z (256 :: nil)%Z = NonFinite /\ forall t, sam_int_image (wrap_unsigned 16) t (256 :: nil)%Z = NonFinite).
Proof.
  split; [|split].
  - unfold sam_int_image. cbn [map map2 zsum fold_right]. change (wrap_unsigned 16 (300 * 300) + (wrap_unsigned 16 (300 * 300) + 0))%Z with 48928%Z.
    unfold np_sqrt, rsum. cbn [fold_right map2]. replace (1 * 1 + (1 * 1 + 0)) with 2 by ring. destruct (Rltb_spec 2 0); [lra|]. destruct (Rltb_spec 48928 0); [lra|].
    assert (S1 : 0 < sqrt 2 * sqrt 48928) by (apply Rmult_lt_0_compat; apply sqrt_lt_R0; lra). unfold fdiv. destruct (Reqb_spec (sqrt 2 * sqrt 48928) 0) as [Q|_]; [lra|].
    eexists. split; [reflexivity|]. split.
    + assert (S2 : sqrt 2 * sqrt 48928 < 314) by (rewrite <- sqrt_mult by lra; rewrite <- (sqrt_square 314) by lra; apply sqrt_lt_1_alt; lra).
      replace (1 * 300 + (1 * 300 + 0)) with 600 by ring. apply Rmult_lt_reg_r with (sqrt 2 * sqrt 48928); [exact S1|]. unfold Rdiv. rewrite (Rmult_assoc 600), Rinv_l by lra. lra.
    + unfold exact_sam. rewrite sam_eq. apply sam_value_one; [exists 0%nat; cbn; split; [lia|lra]|]. exists 300. split; [lra|]. intros i Hi. cbn in Hi. unfold vscale. destruct i as [|[|i]]; cbn; [lra|lra|lia].
  - unfold sam_int. cbn [map map2 zsum fold_right]. change (wrap_unsigned 16 (256 * 256 + 0)) with 0%Z. change (wrap_unsigned 16 (256 * 256) + 0)%Z with 0%Z.
    unfold np_sqrt. destruct (Rltb_spec 0 0); [lra|]. rewrite sqrt_0, Rmult_0_r. unfold fdiv. destruct (Reqb_spec 0 0) as [_|Q]; [reflexivity|contradiction].
  - intros t. apply C98_sam_none; [lia|]. intros x [ <- |[]]. reflexivity.
Qed.
Print Assumptions C98_sam_refuted.

Example C98_met : sam_int (wrap_unsigned 16) (3 :: 4 :: nil)%Z (4 :: 3 :: nil)%Z = exact_sam (map IZR (3 :: 4 :: nil)%Z) (map IZR (4 :: 3 :: nil)%Z) /\
  normalize_int (wrap_signed 16) ((-100) :: 7 :: nil)%Z 0 255 = normalize_grayscale_image (map IZR ((-100) :: 7 :: nil)%Z) 0 255.
Proof.
  split; [apply C98_sam_exact; cbn; intuition lia|]. apply C98_normalise_signed; [lia|]. cbn. intros p q Hp Hq. intuition lia.
Qed.
