(** Lemmas for C38 - C42. *)
From Coq Require Import Permutation.
From Verif Require Import RAux Text M_Nav M_Photo M_PointCalc M_Dem Spec_Nav Spec_Dem P_Nav P_Photo P_PointCalc.
Open Scope R_scope.
Open Scope list_scope.

Lemma cell_some {A} (a : list (list A)) ny nx r c : grid a ny nx -> (r < ny)%nat -> (c < nx)%nat -> exists v, cell a r c = Some v.
Proof.
  intros [L F] Hr Hc. unfold cell. destruct (nth_error a r) as [row|] eqn:E.
  - rewrite Forall_forall in F. pose proof (F _ (nth_error_In _ _ E)) as HL.
    destruct (nth_error row c) as [v|] eqn:E2; [eauto|]. apply nth_error_None in E2. lia.
  - apply nth_error_None in E. lia.
Qed.
Lemma py_get_nat {A} (l : list A) k v : nth_error l k = Some v -> py_get l (Z.of_nat k) = Ok v.
Proof.
  intros E. assert (k < length l)%nat by (apply nth_error_Some; congruence).
  rewrite (py_get_nth l k v) by assumption. now rewrite (nth_error_nth _ _ _ E).
Qed.
Lemma grid_get_cell {A} (a : list (list A)) r c v : cell a r c = Some v -> grid_get a (Z.of_nat r) (Z.of_nat c) = Ok v.
Proof.
  unfold cell, grid_get. destruct (nth_error a r) as [row|] eqn:E; [|discriminate]. intros E2.
  rewrite (py_get_nat _ _ _ E). cbn. now apply py_get_nat.
Qed.
Lemma dem_at_cell d ny nx r c v : dem_of_size d ny nx -> cell (gd_data d) r c = Some v -> dem_at d (Z.of_nat r) (Z.of_nat c) = Ok v.
Proof.
  intros (_ & Hx & Hy & N1 & N2) E. unfold dem_at. rewrite Hx, Hy.
  destruct (Z.eqb_spec (Z.of_nat nx) 1); [lia|]. destruct (Z.eqb_spec (Z.of_nat ny) 1); [lia|]. cbn [orb].
  exact (grid_get_cell _ _ _ _ E).
Qed.
Lemma zclip_nat v n : (0 < n)%nat -> exists c, zclip v 0 (Z.of_nat n - 1) = Z.of_nat c /\ (c < n)%nat /\
  ((v < 0)%Z -> c = 0%nat) /\ ((0 <= v < Z.of_nat n)%Z -> Z.of_nat c = v) /\ ((Z.of_nat n <= v)%Z -> c = (n - 1)%nat).
Proof. intros H. exists (Z.to_nat (zclip v 0 (Z.of_nat n - 1))). unfold zclip. repeat split; lia. Qed.

Lemma INR_lt1 (a b : nat) : (a < b)%nat -> INR a + 1 <= INR b.
Proof. intros H. rewrite <- S_INR. apply le_INR. lia. Qed.

Lemma gap_min x n c : (0 < n)%nat -> (c < n)%nat ->
  (x < 0 -> c = 0%nat) -> (0 <= x -> (c < n)%nat /\ (INR c <= x < INR c + 1 \/ (c = n - 1)%nat /\ INR n <= x)) ->
  forall c', (c' < n)%nat -> gap x c <= gap x c'.
Proof.
  intros N HC A B c' HC'. unfold gap. destruct (Rlt_le_dec x 0) as [X|X].
  - rewrite (A X). pose proof (pos_INR c'). cbn [INR].
    rewrite (Rmax_left (0 - x)) by lra. rewrite (Rmax_right 0) by lra.
    rewrite (Rmax_left (INR c' - x)) by lra. rewrite Rmax_right by lra. lra.
  - destruct (B X) as [_ [H|[H H']]].
    + rewrite (Rmax_left 0). { apply Rmax_l. } apply Rmax_lub; lra.
    + subst c. assert (INR c' + 1 <= INR n) by now apply INR_lt1.
      assert (INR (n - 1) + 1 = INR n). { rewrite <- S_INR. f_equal. lia. }
      assert (INR c' <= INR (n - 1)). { apply le_INR. lia. }
      rewrite (Rmax_right (INR (n - 1) - x)) by lra. rewrite (Rmax_right (INR c' - x)) by lra.
      apply Rle_max_compat_l. lra.
Qed.

Lemma nearest_index x n : (0 < n)%nat -> exists c, zclip (truncZ x) 0 (Z.of_nat n - 1) = Z.of_nat c /\ (c < n)%nat /\
  (forall c', (c' < n)%nat -> gap x c <= gap x c') /\
  (forall k, (k < n)%nat -> INR k <= x < INR k + 1 -> c = k).
Proof.
  intros N. destruct (zclip_nat (truncZ x) n N) as (c & E & HC & C1 & C2 & C3). exists c. split; [exact E|]. split; [exact HC|].
  assert (TP : 0 <= x -> IZR (truncZ x) <= x < IZR (truncZ x) + 1 /\ (0 <= truncZ x)%Z) by apply truncZ_nonneg.
  split.
  - apply gap_min; [exact N|exact HC| |].
    + intros X. destruct (truncZ_neg x X) as [_ T].
      destruct (Z.eq_dec (truncZ x) 0) as [T0|]; [|apply C1; lia]. apply Nat2Z.inj. rewrite C2; lia.
    + intros X. destruct (TP X) as [T T']. split; [exact HC|].
      destruct (Z_lt_le_dec (truncZ x) (Z.of_nat n)).
      * left. assert (Z.of_nat c = truncZ x) as Ec by (apply C2; lia). rewrite INR_IZR_INZ, Ec. exact T.
      * right. split; [apply C3; lia|]. rewrite INR_IZR_INZ. assert (IZR (Z.of_nat n) <= IZR (truncZ x)) by (apply IZR_le; lia). lra.
  - intros k Hk HX. pose proof (pos_INR k). destruct (TP ltac:(lra)) as [T T'].
    assert (truncZ x = Z.of_nat k). { rewrite INR_IZR_INZ in HX.
      assert (IZR (truncZ x) < IZR (Z.of_nat k + 1)) by (rewrite plus_IZR; lra).
      assert (IZR (Z.of_nat k) < IZR (truncZ x + 1)) by (rewrite plus_IZR; lra).
      apply lt_IZR in H0, H1. lia. }
    apply Nat2Z.inj. rewrite C2; lia.
Qed.

Lemma nearest_ok d ny nx loc : dem_of_size d ny nx -> exists e, nearest_at d loc = Ok e /\ nearest_value (gd_data d) ny nx loc e.
Proof.
  intros HD. pose proof HD as (G & Hx & Hy & N1 & N2). unfold nearest_at. rewrite Hx, Hy.
  destruct (nearest_index (fst loc) nx ltac:(lia)) as (c & Ec & Hc & Gc & _).
  destruct (nearest_index (snd loc) ny ltac:(lia)) as (r & Er & Hr & Gr & _).
  rewrite Ec, Er. destruct (cell_some _ _ _ _ _ G Hr Hc) as [v V]. exists v. split.
  - exact (dem_at_cell _ _ _ _ _ _ HD V).
  - exists r, c. auto.
Qed.
Lemma nearest_containing d ny nx x y r c : dem_of_size d ny nx -> (r < ny)%nat -> (c < nx)%nat ->
  INR c <= x < INR c + 1 -> INR r <= y < INR r + 1 ->
  exists e, cell (gd_data d) r c = Some e /\ nearest_at d (x, y) = Ok e.
Proof.
  intros HD Hr Hc HX HY. pose proof HD as (G & Hx & Hy & N1 & N2). unfold nearest_at. rewrite Hx, Hy. cbn [fst snd].
  destruct (nearest_index x nx ltac:(lia)) as (c' & Ec & _ & _ & Uc).
  destruct (nearest_index y ny ltac:(lia)) as (r' & Er & _ & _ & Ur).
  rewrite (Uc c Hc HX) in Ec. rewrite (Ur r Hr HY) in Er. rewrite Ec, Er.
  destruct (cell_some _ _ _ _ _ G Hr Hc) as [v V]. exists v. split; [exact V|]. exact (dem_at_cell _ _ _ _ _ _ HD V).
Qed.

(** A total per-point lookup lifts to arrays *)
Lemma elevations_pointwise d to_pixel (P : R * R -> flt -> Prop) world :
  (forall loc, exists e, gtiff_elevation d loc = Ok e /\ P loc e) -> Spec_Nav.rectangular world ->
  exists out, get_elevations d to_pixel world = Ok out /\ pointwise (fun w e => P (to_pixel w) e) (squeezed world) out.
Proof.
  intros H HR.
  assert (HM : forall l, exists es, mapM (fun w => gtiff_elevation d (to_pixel w)) l = Ok es /\ Forall2 (fun w e => P (to_pixel w) e) l es).
  { induction l as [|w l (es & E & F)]; [exists []; auto|]. destruct (H (to_pixel w)) as (e & E1 & P1).
    exists (e :: es). cbn. rewrite E1. cbn. rewrite E. cbn. auto. }
  destruct world as [w|ws|nx rows]; unfold get_elevations.
  - destruct (H (to_pixel w)) as (e & E & P1). rewrite E. exists (Num e). split; [reflexivity|]. now constructor.
  - destruct (HM ws) as (es & E & F). rewrite E. cbn [bind]. eexists; split; [reflexivity|].
    destruct F as [|w1 e1 ws es P1 F]; [cbn; constructor; constructor|].
    destruct F as [|w2 e2 ws es P2 F]; [cbn; now constructor|]. cbn. constructor. now repeat constructor.
  - cbn in HR. destruct (HM (concat rows)) as (es & E & F). rewrite E. cbn [bind squeezed].
    unfold reshape2. rewrite <- (Py.Forall2_length _ _ _ F), (concat_length_rect nx) by assumption. rewrite Nat.eqb_refl.
    eexists; split; [reflexivity|]. constructor. now apply split_rows_rel.
Qed.

(** Bounds *)
Lemma finite_in data r c v : cell data r c = Some (Fin v) -> In v (finite_values data).
Proof.
  unfold cell. destruct (nth_error data r) as [row|] eqn:E; [|discriminate]. intros E2. unfold finite_values.
  apply in_concat. exists [v]. split; [|now left]. apply in_map_iff. exists (Fin v). split; [reflexivity|].
  apply in_concat. exists row. split; eapply nth_error_In; eassumption.
Qed.
Lemma bounds_of_cell d r c v : cell (gd_data d) r c = Some (Fin v) ->
  exists lo hi, get_lowest_alt d = Fin lo /\ get_highest_alt d = Fin hi /\ lo <= v <= hi.
Proof.
  intros E. apply finite_in in E. unfold get_lowest_alt, get_highest_alt.
  assert (finite_values (gd_data d) <> []) as NE by (intros H; rewrite H in E; inversion E).
  destruct (rmin_some _ NE) as [lo L]. destruct (rmax_some _ NE) as [hi Hh]. rewrite L, Hh. exists lo, hi.
  apply rmin_spec in L. apply rmax_spec in Hh. firstorder.
Qed.

Lemma remove_nodata_cell nodata data r c : cell (remove_nodata (Some nodata) data) r c =
  option_map (fun x => match x with Fin v => if Reqb v nodata then NonFinite else Fin v | NonFinite => NonFinite end) (cell data r c).
Proof.
  unfold remove_nodata, cell. rewrite nth_error_map. destruct (nth_error data r) as [row|]; [|reflexivity]. cbn [option_map].
  rewrite nth_error_map. destruct (nth_error row c) as [[v|]|]; reflexivity.
Qed.
Lemma remove_nodata_grid nodata data ny nx : grid data ny nx -> grid (remove_nodata nodata data) ny nx.
Proof.
  intros [L F]. destruct nodata; [|now split]. split; cbn; [now rewrite map_length|].
  apply Forall_map. eapply Forall_impl; [|exact F]. intros row HL. now rewrite map_length.
Qed.

(** Bilinear *)
Lemma ceilZ_ge x : x <= IZR (ceilZ x) /\ IZR (ceilZ x) < x + 1.
Proof. unfold ceilZ. rewrite opp_IZR. destruct (base_Int_part (- x)). lra. Qed.

Lemma around_index x n : (0 < n)%nat -> exists c1 c2,
  zclip (truncZ x) 0 (Z.of_nat n - 1) = Z.of_nat c1 /\ zclip (ceilZ x) 0 (Z.of_nat n - 1) = Z.of_nat c2 /\
  (c1 < n)%nat /\ (c2 < n)%nat /\ around x n c1 c2.
Proof.
  intros N. destruct (zclip_nat (truncZ x) n N) as (c1 & E1 & H1 & A1 & A2 & A3).
  destruct (zclip_nat (ceilZ x) n N) as (c2 & E2 & H2 & B1 & B2 & B3).
  exists c1, c2. repeat (split; [assumption|]). destruct (ceilZ_ge x) as [K1 K2].
  assert (EN : INR (n - 1) = IZR (Z.of_nat n - 1)). { rewrite INR_IZR_INZ. f_equal. lia. }
  unfold around. destruct (Rlt_le_dec x 0) as [X|X].
  - right. left. split; [exact X|]. destruct (truncZ_neg x X) as [_ T]. split; [|split; [|exact N]].
    + destruct (Z.eq_dec (truncZ x) 0) as [T0|]; [|apply A1; lia]. apply Nat2Z.inj. rewrite A2; lia.
    + assert (IZR (ceilZ x) < IZR 1) as Q by lra. apply lt_IZR in Q.
      destruct (Z.eq_dec (ceilZ x) 0); [apply Nat2Z.inj; rewrite B2; lia|]. apply B1. lia.
  - destruct (truncZ_nonneg x X) as [T T'].
    destruct (Rlt_le_dec (INR (n - 1)) x) as [Y|Y]; rewrite EN in Y.
    + right. right. split; [rewrite EN; exact Y|]. split; [|split; [|exact N]].
      * assert (IZR (Z.of_nat n - 1) < IZR (truncZ x + 1)) as Q by (rewrite plus_IZR; lra). apply lt_IZR in Q.
        destruct (Z.eq_dec (truncZ x) (Z.of_nat n - 1)); [|apply A3; lia]. apply Nat2Z.inj. rewrite A2; lia.
      * assert (IZR (Z.of_nat n - 1) < IZR (ceilZ x)) as Q by lra. apply lt_IZR in Q. apply B3. lia.
    + left. assert (IZR (truncZ x) <= IZR (Z.of_nat n - 1)) as Q by lra. apply le_IZR in Q.
      assert (IZR (ceilZ x) < IZR (Z.of_nat n)) as Q2. { replace (Z.of_nat n) with (Z.of_nat n - 1 + 1)%Z by lia. rewrite plus_IZR. lra. }
      apply lt_IZR in Q2. assert (IZR (-1) < IZR (ceilZ x)) as Q3 by lra. apply lt_IZR in Q3.
      assert (INR c1 = IZR (truncZ x)) as Z1. { rewrite INR_IZR_INZ. f_equal. apply A2. lia. }
      assert (INR c2 = IZR (ceilZ x)) as Z2. { rewrite INR_IZR_INZ. f_equal. apply B2. lia. }
      rewrite Z1, Z2. repeat split; try lra. exact H2.
Qed.

Lemma dist2_nonneg p q : 0 <= dist2 p q.
Proof. apply sqrt_pos. Qed.
Lemma dist2_zero p q : dist2 p q = 0 -> p = q.
Proof.
  destruct p as [a b], q as [c d]. unfold dist2. cbn [fst snd]. intros H.
  pose proof (pow2_ge_0 (a - c)). pose proof (pow2_ge_0 (b - d)). apply sqrt_eq_0 in H; [|lra].
  assert (A : (a - c) ^ 2 = 0) by lra. assert (B : (b - d) ^ 2 = 0) by lra.
  rewrite <- Rsqr_pow2 in A, B. apply Rsqr_0_uniq in A, B. f_equal; lra.
Qed.
Lemma dist2_refl p : dist2 p p = 0.
Proof. unfold dist2. replace ((fst p - fst p) ^ 2 + (snd p - snd p) ^ 2) with 0 by ring. apply sqrt_0. Qed.
Lemma dist2_pos p q : p <> q -> 0 < dist2 p q.
Proof. intros H. destruct (dist2_nonneg p q) as [|E]; [assumption|]. symmetry in E. apply dist2_zero in E. contradiction. Qed.

(** What the bilinear lookup computes: weights are the distances *)
Lemma bilinear_value d ny nx px py : dem_of_size d ny nx -> exists r1 r2 c1 c2 e11 e12 e21 e22,
  around px nx c1 c2 /\ around py ny r1 r2 /\
  cell (gd_data d) r1 c1 = Some e11 /\ cell (gd_data d) r1 c2 = Some e12 /\
  cell (gd_data d) r2 c1 = Some e21 /\ cell (gd_data d) r2 c2 = Some e22 /\
  let d11 := dist2 (px, py) (position r1 c1) in let d12 := dist2 (px, py) (position r1 c2) in
  let d21 := dist2 (px, py) (position r2 c1) in let d22 := dist2 (px, py) (position r2 c2) in
  bilinear_at d (px, py) =
    if Reqb (d11 + d12 + d21 + d22) 0 then Err ZeroDivisionError else
    Ok (match e11, e12, e21, e22 with
        | Fin v11, Fin v12, Fin v21, Fin v22 => Fin ((v11 * d11 + v12 * d12 + v21 * d21 + v22 * d22) / (d11 + d12 + d21 + d22))
        | _, _, _, _ => NonFinite
        end).
Proof.
  intros HD. pose proof HD as (G & Hx & Hy & N1 & N2).
  destruct (around_index px nx ltac:(lia)) as (c1 & c2 & Ec1 & Ec2 & L1 & L2 & Ac).
  destruct (around_index py ny ltac:(lia)) as (r1 & r2 & Er1 & Er2 & M1 & M2 & Ar).
  destruct (cell_some _ _ _ _ _ G M1 L1) as [e11 V11]. destruct (cell_some _ _ _ _ _ G M1 L2) as [e12 V12].
  destruct (cell_some _ _ _ _ _ G M2 L1) as [e21 V21]. destruct (cell_some _ _ _ _ _ G M2 L2) as [e22 V22].
  exists r1, r2, c1, c2, e11, e12, e21, e22. repeat (split; [assumption|]). cbv zeta.
  unfold bilinear_at. rewrite Hx, Hy, Ec1, Ec2, Er1, Er2. cbv zeta.
  rewrite !(dem_at_cell _ _ _ _ _ _ HD V11), !(dem_at_cell _ _ _ _ _ _ HD V12), !(dem_at_cell _ _ _ _ _ _ HD V21), !(dem_at_cell _ _ _ _ _ _ HD V22).
  cbn [bind]. rewrite <- !INR_IZR_INZ.
  replace (sqrt ((py - INR r1) ^ 2 + (px - INR c1) ^ 2)) with (dist2 (px, py) (position r1 c1)).
  2:{ unfold dist2. f_equal. cbn. ring. }
  replace (sqrt ((py - INR r1) ^ 2 + (INR c2 - px) ^ 2)) with (dist2 (px, py) (position r1 c2)).
  2:{ unfold dist2. f_equal. cbn. ring. }
  replace (sqrt ((INR r2 - py) ^ 2 + (px - INR c1) ^ 2)) with (dist2 (px, py) (position r2 c1)).
  2:{ unfold dist2. f_equal. cbn. ring. }
  replace (sqrt ((INR r2 - py) ^ 2 + (INR c2 - px) ^ 2)) with (dist2 (px, py) (position r2 c2)).
  2:{ unfold dist2. f_equal. cbn. ring. }
  destruct (Reqb _ 0); [reflexivity|]. f_equal. destruct e11, e12, e21, e22; reflexivity.
Qed.

Lemma around_integer c n c1 c2 : (c < n)%nat -> around (INR c) n c1 c2 -> c1 = c /\ c2 = c.
Proof.
  intros H [(A & B & C & D)|[(A & _)|(A & _)]].
  - assert (INR c < INR (S c1)) as Q by (rewrite S_INR; lra). apply INR_lt in Q.
    assert (INR c2 < INR (S c)) as Q' by (rewrite S_INR; lra). apply INR_lt in Q'.
    destruct A as [A A']. apply INR_le in A, A'. lia.
  - pose proof (pos_INR c). lra.
  - apply INR_lt in A. lia.
Qed.
Lemma around_between c u n c1 c2 : (S c < n)%nat -> 0 < u < 1 -> around (INR c + u) n c1 c2 -> c1 = c /\ c2 = S c.
Proof.
  intros H U [(A & B & C & D)|[(A & _)|(A & _)]].
  - assert (INR c < INR (S c1)) as Q by (rewrite S_INR; lra). apply INR_lt in Q.
    assert (INR c1 < INR (S c)) as Q' by (rewrite S_INR; lra). apply INR_lt in Q'.
    assert (INR c < INR c2) as Q2 by lra. apply INR_lt in Q2.
    assert (INR c2 < INR (S (S c))) as Q3 by (rewrite !S_INR; lra). apply INR_lt in Q3. lia.
  - pose proof (pos_INR c). lra.
  - assert (INR (n - 1) < INR (S c)) as Q by (rewrite S_INR; lra). apply INR_lt in Q. lia.
Qed.

Lemma weights_zero px py ny nx r1 r2 c1 c2 : around px nx c1 c2 -> around py ny r1 r2 ->
  (dist2 (px, py) (position r1 c1) + dist2 (px, py) (position r1 c2) + dist2 (px, py) (position r2 c1) + dist2 (px, py) (position r2 c2) = 0
   <-> on_pixel ny nx (px, py)).
Proof.
  intros Ac Ar. split.
  - intros H. pose proof (dist2_nonneg (px, py) (position r1 c1)). pose proof (dist2_nonneg (px, py) (position r1 c2)).
    pose proof (dist2_nonneg (px, py) (position r2 c1)). pose proof (dist2_nonneg (px, py) (position r2 c2)).
    assert (E1 : dist2 (px, py) (position r2 c2) = 0) by lra. apply dist2_zero in E1.
    exists r2, c2. split; [|split; [|exact E1]]; [destruct Ar as [?|[?|?]]|destruct Ac as [?|[?|?]]]; intuition lia.
  - intros (r & c & Hr & Hc & E). injection E as -> ->.
    destruct (around_integer _ _ _ _ Hc Ac) as [-> ->]. destruct (around_integer _ _ _ _ Hr Ar) as [-> ->].
    unfold position. rewrite dist2_refl. lra.
Qed.

Lemma wavg4 a b c d w1 w2 w3 w4 lo hi : 0 <= w1 -> 0 <= w2 -> 0 <= w3 -> 0 <= w4 -> w1 + w2 + w3 + w4 <> 0 ->
  lo <= a <= hi -> lo <= b <= hi -> lo <= c <= hi -> lo <= d <= hi ->
  lo <= (a * w1 + b * w2 + c * w3 + d * w4) / (w1 + w2 + w3 + w4) <= hi.
Proof.
  intros. set (W := w1 + w2 + w3 + w4) in *. assert (0 < W) by (unfold W in *; lra).
  assert (K : forall x w, lo <= x <= hi -> 0 <= w -> lo * w <= x * w <= hi * w).
  { intros x w [Hx1 Hx2] Hw. split; apply Rmult_le_compat_r; assumption. }
  pose proof (K a w1 ltac:(assumption) ltac:(assumption)). pose proof (K b w2 ltac:(assumption) ltac:(assumption)).
  pose proof (K c w3 ltac:(assumption) ltac:(assumption)). pose proof (K d w4 ltac:(assumption) ltac:(assumption)).
  split; (apply Rmult_le_reg_r with W; [assumption|]); unfold Rdiv; rewrite Rmult_assoc, Rinv_l, Rmult_1_r by lra; unfold W; lra.
Qed.

(* ------------------------------- IGM --------------------------------- *)

Lemma igm_weight_pos d : 0 <= d -> 0 < igm_weight d.
Proof.
  intros H. unfold igm_weight. destruct (Rleb_spec (Rabs d) (1 / 100000000)) as [C|C].
  - apply Rdiv_lt_0_compat; lra.
  - rewrite Rabs_right in C by lra. apply Rdiv_lt_0_compat; lra.
Qed.
Lemma igm_weight_0 : igm_weight 0 = 100000000.
Proof. unfold igm_weight. rewrite Rabs_R0, Rleb_true by lra. lra. Qed.
Lemma igm_weight_far d delta : 1 / 100000000 < delta -> delta <= d -> igm_weight d <= 1 / delta.
Proof.
  intros H1 H2. unfold igm_weight. rewrite Rabs_right by lra. rewrite Rleb_false by lra.
  unfold Rdiv. rewrite !Rmult_1_l. apply Rinv_le_contravar; lra.
Qed.

Lemma wsum_bounds {A} (w : A -> R) (v : A -> R) l lo hi : (forall x, In x l -> 0 < w x) -> (forall x, In x l -> lo <= v x <= hi) ->
  lo * rsum (map w l) <= rsum (map (fun x => w x * v x) l) <= hi * rsum (map w l).
Proof.
  intros W V. induction l as [|x l IH]; cbn; [lra|].
  assert (I := IH (fun y H => W y (or_intror H)) (fun y H => V y (or_intror H))).
  pose proof (W x (or_introl eq_refl)). destruct (V x (or_introl eq_refl)) as [V1 V2].
  assert (lo * w x <= v x * w x) by (apply Rmult_le_compat_r; lra). assert (v x * w x <= hi * w x) by (apply Rmult_le_compat_r; lra).
  unfold rsum in *. lra.
Qed.
Lemma wsum_pos {A} (w : A -> R) l : (forall x, In x l -> 0 < w x) -> 0 <= rsum (map w l) /\ (l <> [] -> 0 < rsum (map w l)).
Proof.
  intros W. induction l as [|x l IH]; cbn; [split; [lra|congruence]|].
  destruct (IH (fun y H => W y (or_intror H))) as [I _]. pose proof (W x (or_introl eq_refl)). unfold rsum in *. split; [lra|intros _; lra].
Qed.
Lemma wmean_bounds {A} (w : A -> R) (v : A -> R) l lo hi : l <> [] -> (forall x, In x l -> 0 < w x) -> (forall x, In x l -> lo <= v x <= hi) ->
  exists m, fdiv (rsum (map (fun x => w x * v x) l)) (rsum (map w l)) = Fin m /\ lo <= m <= hi.
Proof.
  intros NE W V. destruct (wsum_pos w l W) as [_ P]. specialize (P NE). destruct (wsum_bounds w v l lo hi W V) as [B1 B2].
  rewrite fdiv_nz by lra. eexists; split; [reflexivity|].
  split; (apply Rmult_le_reg_r with (rsum (map w l)); [exact P|]); unfold Rdiv; rewrite Rmult_assoc, Rinv_l, Rmult_1_r by lra; lra.
Qed.

(** The mean is close to the value carried by a heavy element *)
Lemma wmean_near {A} (w : A -> R) (v : A -> R) l k big small spread :
  (forall x, In x l -> 0 < w x) -> In k l -> NoDup l -> w k = big -> 0 < big ->
  (forall x, In x l -> x <> k -> w x <= small) -> (forall x, In x l -> Rabs (v x - v k) <= spread) ->
  exists m, fdiv (rsum (map (fun x => w x * v x) l)) (rsum (map w l)) = Fin m /\
    Rabs (m - v k) <= INR (length l - 1) * small * spread / big.
Proof.
  intros W K ND B BP S SP. destruct (in_split _ _ K) as (l1 & l2 & ->).
  assert (NK : forall x, In x (l1 ++ l2) -> x <> k). { intros x Hx ->. apply NoDup_remove_2 in ND. contradiction. }
  assert (W' : forall x, In x (l1 ++ l2) -> 0 < w x). { intros x Hx. apply W. apply in_app_iff in Hx. apply in_app_iff. cbn. tauto. }
  assert (S' : forall x, In x (l1 ++ l2) -> w x <= small).
  { intros x Hx. apply S; [|now apply NK]. apply in_app_iff in Hx. apply in_app_iff. cbn. tauto. }
  assert (SP' : forall x, In x (l1 ++ l2) -> Rabs (v x - v k) <= spread).
  { intros x Hx. apply SP. apply in_app_iff in Hx. apply in_app_iff. cbn. tauto. }
  set (W0 := rsum (map w (l1 ++ k :: l2))).
  assert (EW : W0 = big + rsum (map w (l1 ++ l2))).
  { unfold W0. rewrite !map_app, !rsum_app. cbn. rewrite B. unfold rsum. ring. }
  set (D := rsum (map (fun x => w x * (v x - v k)) (l1 ++ l2))).
  assert (ED : rsum (map (fun x => w x * v x) (l1 ++ k :: l2)) = v k * W0 + D).
  { unfold W0, D. rewrite !map_app, !rsum_app. cbn.
    assert (G : forall m, rsum (map (fun x => w x * (v x - v k)) m) = rsum (map (fun x => w x * v x) m) - v k * rsum (map w m)).
    { unfold rsum. induction m as [|y m IH]; cbn; [ring|rewrite IH; ring]. }
    rewrite !G. unfold rsum in *. ring. }
  destruct (wsum_pos w (l1 ++ l2) W') as [P0 _].
  assert (SP0 : 0 <= spread). { eapply Rle_trans; [apply Rabs_pos|]. exact (SP k K). }
  assert (BD : Rabs D <= INR (length (l1 ++ l2)) * small * spread).
  { unfold D. clear - W' S' SP' SP0. induction (l1 ++ l2) as [|y m IH]; [cbn; rewrite Rabs_R0; lra|].
    change (length (y :: m)) with (Datatypes.S (length m)). rewrite S_INR. cbn [map rsum fold_right].
    assert (I := IH (fun z H => W' z (or_intror H)) (fun z H => S' z (or_intror H)) (fun z H => SP' z (or_intror H))).
    pose proof (W' y (or_introl eq_refl)). pose proof (S' y (or_introl eq_refl)). pose proof (SP' y (or_introl eq_refl)).
    eapply Rle_trans; [apply Rabs_triang|]. rewrite Rabs_mult, (Rabs_right (w y)) by lra.
    pose proof (Rabs_pos (v y - v k)).
    assert (w y * Rabs (v y - v k) <= small * spread). { apply Rmult_le_compat; lra. }
    unfold rsum in *. lra. }
  rewrite ED. rewrite fdiv_nz by lra. eexists; split; [reflexivity|].
  replace ((v k * W0 + D) / W0 - v k) with (D / W0) by (field; lra).
  unfold Rdiv at 1. rewrite Rabs_mult, (Rabs_right (/ W0)). 2:{ apply Rle_ge, Rlt_le, Rinv_0_lt_compat. lra. }
  assert (EL : (length (l1 ++ k :: l2) - 1 = length (l1 ++ l2))%nat). { rewrite !app_length. cbn. lia. }
  rewrite EL. unfold Rdiv. apply Rmult_le_compat; [apply Rabs_pos| |exact BD|].
  - apply Rlt_le, Rinv_0_lt_compat. lra.
  - apply Rinv_le_contravar; lra.
Qed.

(** The node list in row-major order *)
Lemma nth_error_concat {A} nx (rows : list (list A)) i : Forall (fun r => length r = nx) rows -> (0 < nx)%nat ->
  nth_error (concat rows) i = cell rows (i / nx) (i mod nx).
Proof.
  intros F N. revert i. induction F as [|row rows HL F IH]; intros i.
  - cbn. rewrite nth_error_nil. unfold cell. now rewrite nth_error_nil.
  - cbn [concat]. destruct (Nat.lt_ge_cases i nx) as [Q|Q].
    + rewrite nth_error_app1 by lia. rewrite Nat.div_small, Nat.mod_small by lia. reflexivity.
    + rewrite nth_error_app2 by lia. rewrite HL, IH.
      assert (i / nx = S ((i - nx) / nx))%nat as ->.
      { pose proof (Nat.div_add (i - nx) 1 nx ltac:(lia)) as Q1. replace (i - nx + 1 * nx)%nat with i in Q1 by lia. lia. }
      assert (i mod nx = (i - nx) mod nx)%nat as ->.
      { pose proof (Nat.mod_add (i - nx) 1 nx ltac:(lia)) as Q1. replace (i - nx + 1 * nx)%nat with i in Q1 by lia. exact Q1. }
      reflexivity.
Qed.
Lemma nth_error_combine {A B} (l : list A) (m : list B) i :
  nth_error (combine l m) i = match nth_error l i, nth_error m i with Some x, Some y => Some (x, y) | _, _ => None end.
Proof.
  revert m i. induction l as [|a l IH]; intros m i.
  { destruct i; reflexivity. }
  destruct m as [|b m].
  { destruct i; cbn; [reflexivity|]. now destruct (nth_error l i). }
  destruct i; cbn; [reflexivity|apply IH].
Qed.
Lemma igm_nodes_nth g ny nx i : igm_of_size g ny nx -> nth_error (igm_nodes g) i = node g (i / nx) (i mod nx).
Proof.
  intros ([L1 F1] & [L2 F2] & _ & _ & N). unfold igm_nodes. rewrite nth_error_combine.
  now rewrite (nth_error_concat nx _ _ F1 N), (nth_error_concat nx _ _ F2 N).
Qed.
Lemma igm_nodes_length g ny nx : igm_of_size g ny nx -> length (igm_nodes g) = (ny * nx)%nat.
Proof.
  intros ([L1 F1] & [L2 F2] & _ & _ & N). unfold igm_nodes. rewrite combine_length.
  rewrite (concat_length_rect nx _ F1), (concat_length_rect nx _ F2), L1, L2. lia.
Qed.
Lemma node_some g ny nx r c : igm_of_size g ny nx -> (r < ny)%nat -> (c < nx)%nat -> exists p, node g r c = Some p.
Proof.
  intros (G1 & G2 & _) Hr Hc. unfold node.
  destruct (cell_some _ _ _ _ _ G1 Hr Hc) as [x ->]. destruct (cell_some _ _ _ _ _ G2 Hr Hc) as [y ->]. eauto.
Qed.
Lemma flat_div r c nx : (c < nx)%nat -> ((r * nx + c) / nx = r /\ (r * nx + c) mod nx = c)%nat.
Proof.
  intros H. split.
  - rewrite Nat.div_add_l by lia. rewrite Nat.div_small by lia. lia.
  - rewrite Nat.add_comm, Nat.mod_add by lia. now apply Nat.mod_small.
Qed.
Lemma flat_bound i ny nx : (i < ny * nx)%nat -> (i / nx < ny /\ i mod nx < nx)%nat.
Proof.
  intros H. assert (nx <> 0)%nat by (intros ->; lia). split.
  - apply Nat.div_lt_upper_bound; lia.
  - now apply Nat.mod_upper_bound.
Qed.

(** A neighbour query: sort all nodes by distance *)
Fixpoint ins (x : R * nat) (l : list (R * nat)) : list (R * nat) :=
  match l with [] => [x] | y :: r => if Rleb (fst x) (fst y) then x :: l else y :: ins x r end.
Definition isort (l : list (R * nat)) : list (R * nat) := fold_right ins [] l.
Definition by_distance (l : list (R * nat)) : Prop := forall i j x y, (i < j)%nat -> nth_error l i = Some x -> nth_error l j = Some y -> fst x <= fst y.
Lemma ins_perm x l : Permutation (x :: l) (ins x l).
Proof.
  induction l as [|y r IH]; cbn; [reflexivity|]. destruct (Rleb _ _); [reflexivity|].
  rewrite <- IH. apply perm_swap.
Qed.
Lemma isort_perm l : Permutation l (isort l).
Proof. induction l as [|x l IH]; cbn; [reflexivity|]. rewrite IH at 1. apply ins_perm. Qed.
Lemma by_distance_cons x l : by_distance l -> (forall y, In y l -> fst x <= fst y) -> by_distance (x :: l).
Proof.
  intros B M i j a b H E1 E2. destruct j as [|j]; [lia|]. cbn in E2. destruct i as [|i]; cbn in E1.
  - injection E1 as <-. apply M. eapply nth_error_In; eassumption.
  - apply (B i j a b); [lia|assumption|assumption].
Qed.
Lemma by_distance_head x l : by_distance (x :: l) -> by_distance l /\ forall y, In y l -> fst x <= fst y.
Proof.
  intros B. split.
  - intros i j a b H E1 E2. apply (B (S i) (S j) a b); [lia|assumption|assumption].
  - intros y Hy. apply In_nth_error in Hy as [n E]. apply (B 0%nat (S n) x y); [lia|reflexivity|assumption].
Qed.
Lemma ins_sorted x l : by_distance l -> by_distance (ins x l).
Proof.
  induction l as [|y r IH]; intros B; cbn.
  - intros i j a b H E1 E2. destruct j; [lia|]. cbn in E2. now rewrite nth_error_nil in E2.
  - destruct (by_distance_head _ _ B) as [B' M]. destruct (Rleb_spec (fst x) (fst y)) as [C|C].
    + apply by_distance_cons; [assumption|]. intros z [<-|Hz]; [assumption|]. pose proof (M z Hz). lra.
    + apply by_distance_cons; [auto|]. intros z Hz.
      apply (Permutation_in _ (Permutation_sym (ins_perm x r))) in Hz. destruct Hz as [<-|Hz]; [lra|auto].
Qed.
Lemma isort_sorted l : by_distance (isort l).
Proof. induction l as [|x l IH]; cbn; [intros i j a b H E1 E2; now rewrite nth_error_nil in E1|now apply ins_sorted]. Qed.

Definition all_distances (nodes : list (R * R)) (p : R * R) : list (R * nat) :=
  map (fun i => (dist2 p (nth i nodes (0, 0)), i)) (seq 0 (length nodes)).
Definition sorting_kd : kd_query := fun nodes p =>
  if Nat.ltb (length nodes) 6 then repeat (0, length nodes) 6 else firstn 6 (isort (all_distances nodes p)).
Lemma NoDup_app_l {A} (l m : list A) : NoDup (l ++ m) -> NoDup l.
Proof. induction l as [|a l IH]; cbn; intros H; [constructor|]. inversion H; subst. constructor; [|auto]. intros I. apply H2. apply in_app_iff. now left. Qed.
Lemma six_nearest_exists : six_nearest sorting_kd.
Proof.
  intros nodes p. unfold sorting_kd.
  assert (PL := isort_perm (all_distances nodes p)). set (srt := isort (all_distances nodes p)) in *.
  assert (LL : length srt = length nodes). { rewrite <- (Permutation_length PL). unfold all_distances. now rewrite map_length, seq_length. }
  destruct (Nat.ltb_spec (length nodes) 6) as [H|H].
  - split; [reflexivity|]. split; [lia|]. intros _. exists 0. now left.
  - split; [rewrite firstn_length; lia|]. split; [|lia]. intros _.
    assert (EA : forall d i, In (d, i) srt -> exists q, nth_error nodes i = Some q /\ d = dist2 p q).
    { intros d i Hi. apply (Permutation_in _ (Permutation_sym PL)) in Hi. unfold all_distances in Hi. apply in_map_iff in Hi as (k & E & Hk).
      injection E as <- <-. apply in_seq in Hk. exists (nth k nodes (0, 0)). split; [|reflexivity]. apply nth_error_nth'. lia. }
    assert (SPL : srt = firstn 6 srt ++ skipn 6 srt) by now rewrite firstn_skipn.
    split; [|split].
    + assert (NoDup (map snd srt)) as ND.
      { apply (Permutation_NoDup (Permutation_map snd PL)). unfold all_distances. rewrite map_map. cbn. rewrite map_id. apply seq_NoDup. }
      rewrite SPL, map_app in ND. now apply NoDup_app_l in ND.
    + intros d i Hi. apply EA. rewrite SPL. apply in_app_iff. now left.
    + intros j q d i E NI HI. assert (IJ : In (dist2 p q, j) srt).
      { apply (Permutation_in _ PL). unfold all_distances. apply in_map_iff. exists j. rewrite (nth_error_nth _ _ _ E). split; [reflexivity|].
        apply in_seq. assert (j < length nodes)%nat by (apply nth_error_Some; congruence). lia. }
      rewrite SPL in IJ. apply in_app_iff in IJ as [IJ|IJ].
      { exfalso. apply NI. apply in_map_iff. exists (dist2 p q, j). auto. }
      apply In_nth_error in HI as [a Ea]. apply In_nth_error in IJ as [b Eb].
      assert (a < length (firstn 6 srt))%nat by (apply nth_error_Some; congruence). rewrite firstn_length in H0.
      assert (Sd := isort_sorted (all_distances nodes p)). fold srt in Sd.
      apply (Sd a (6 + b)%nat (d, i) (dist2 p q, j)); [lia| |].
      * rewrite SPL, nth_error_app1; [exact Ea|]. rewrite firstn_length. lia.
      * rewrite nth_error_skipn in Eb. exact Eb.
Qed.

(** Size after a history *)
Lemma bands_snoc h o : bands (h ++ [o]) = match o with AddCalc _ => S (bands h) | SetCalcs cs => length cs | _ => bands h end.
Proof. unfold bands. rewrite rev_app_distr. cbn. now destruct o. Qed.
Lemma sm_run_snoc heap h o : sm_run heap (h ++ [o]) = match sm_step (sm_run heap h) o with Ok s' => s' | _ => sm_run heap h end.
Proof. unfold sm_run. now rewrite fold_left_app. Qed.
Lemma py_set_spec {A} (l : list A) i v : 
  (exists k, (k < length l)%nat /\ (i = Z.of_nat k \/ i = Z.of_nat k - Z.of_nat (length l))%Z /\ py_set l i v = Ok (upd_nat l k v)) \/
  (py_set l i v = Err IndexError /\ ~ (exists k, (k < length l)%nat /\ (i = Z.of_nat k \/ i = Z.of_nat k - Z.of_nat (length l))%Z)).
Proof.
  unfold py_set, py_index, zlen.
  destruct (Z_lt_le_dec i 0) as [N|N].
  - destruct (Z_lt_le_dec i (- Z.of_nat (length l))) as [M|M].
    + right. split.
      * repeat (match goal with |- context [if ?b then _ else _] => destruct b eqn:?E end; try lia; try reflexivity).
      * intros (k & ? & ?). lia.
    + left. exists (Z.to_nat (i + Z.of_nat (length l))). split; [lia|]. split; [right; lia|].
      repeat (match goal with |- context [if ?b then _ else _] => destruct b eqn:?E end; try lia; try (do 2 f_equal; lia)).
  - destruct (Z_lt_le_dec i (Z.of_nat (length l))) as [M|M].
    + left. exists (Z.to_nat i). split; [lia|]. split; [left; lia|].
      repeat (match goal with |- context [if ?b then _ else _] => destruct b eqn:?E end; try lia; try (do 2 f_equal; lia)).
    + right. split.
      * repeat (match goal with |- context [if ?b then _ else _] => destruct b eqn:?E end; try lia; try reflexivity).
      * intros (k & ? & ?). lia.
Qed.
Lemma sm_run_length heap h : length (sm_calcs (sm_run heap h)) = bands h.
Proof.
  induction h as [|o h IH] using rev_ind; [reflexivity|]. rewrite sm_run_snoc, bands_snoc. destruct o as [c|i c|cs|p]; cbn.
  - rewrite app_length, IH. cbn. lia.
  - destruct (py_set_spec (sm_calcs (sm_run heap h)) i c) as [(k & _ & _ & E)|[E _]]; rewrite E; cbn; [rewrite upd_nat_length|]; exact IH.
  - reflexivity.
  - exact IH.
Qed.
