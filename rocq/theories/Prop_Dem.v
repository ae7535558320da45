(** C38 - C42: IGM lookup, sensor model, elevation models. *)
From Verif Require Import RAux Text M_Nav M_Photo M_PointCalc M_Dem Spec_Nav Spec_Dem P_Nav P_Photo P_PointCalc P_Dem.
Open Scope R_scope.
Open Scope list_scope.

(* -------------------------------- C38 -------------------------------- *)

(** The ground position returned for a pixel is its node. *)
Theorem C38_pixel_exact g ny nx r c : igm_of_size g ny nx -> (r < ny)%nat -> (c < nx)%nat ->
  exists p, node g r c = Some p /\ igm_pixel_to_lon_lat g (Z.of_nat c) (Z.of_nat r) = Ok p.
Proof.
  intros (G1 & G2 & _) Hr Hc. unfold node, igm_pixel_to_lon_lat.
  destruct (cell_some _ _ _ _ _ G1 Hr Hc) as [x X]. destruct (cell_some _ _ _ _ _ G2 Hr Hc) as [y Y].
  rewrite X, Y, (grid_get_cell _ _ _ _ X), (grid_get_cell _ _ _ _ Y). exists (x, y). auto.
Qed.
Print Assumptions C38_pixel_exact.

Lemma kd_valid kd g ny nx p : six_nearest kd -> igm_of_size g ny nx -> (6 <= ny * nx)%nat ->
  length (kd (igm_nodes g) p) = 6%nat /\ NoDup (map snd (kd (igm_nodes g) p)) /\
  (forall d i, In (d, i) (kd (igm_nodes g) p) -> (i < ny * nx)%nat /\ exists q, node g (i / nx) (i mod nx) = Some q /\ d = dist2 p q) /\
  (forall j q d i, (j < ny * nx)%nat -> node g (j / nx) (j mod nx) = Some q -> ~ In j (map snd (kd (igm_nodes g) p)) ->
     In (d, i) (kd (igm_nodes g) p) -> d <= dist2 p q).
Proof.
  intros HK HG HN. destruct (HK (igm_nodes g) p) as (L & A & _).
  rewrite (igm_nodes_length _ _ _ HG) in A. destruct (A HN) as (ND & D & O). split; [exact L|]. split; [exact ND|]. split.
  - intros d i Hi. destruct (D d i Hi) as (q & E & Ed).
    split; [|exists q; split; [|exact Ed]; rewrite <- (igm_nodes_nth _ _ _ _ HG); exact E].
    rewrite <- (igm_nodes_length _ _ _ HG). apply nth_error_Some. congruence.
  - intros j q d i Hj Hq NI HI. apply (O j q d i); [|exact NI|exact HI]. rewrite (igm_nodes_nth _ _ _ _ HG). exact Hq.
Qed.
Lemma igm_lookup kd g ny nx p : six_nearest kd -> igm_of_size g ny nx -> (6 <= ny * nx)%nat ->
  let nb := kd (igm_nodes g) p in
  igm_lon_lat_to_pixel kd g p =
  Ok (fdiv (rsum (map (fun di => igm_weight (fst di) * INR (snd di mod nx)) nb)) (rsum (map (fun di => igm_weight (fst di)) nb)),
      fdiv (rsum (map (fun di => igm_weight (fst di) * INR (snd di / nx)) nb)) (rsum (map (fun di => igm_weight (fst di)) nb))).
Proof.
  intros HK HG HN. destruct (kd_valid _ _ _ _ p HK HG HN) as (_ & _ & D & _).
  destruct HG as (_ & _ & Hy & Hx & _). unfold igm_lon_lat_to_pixel. fold (igm_nodes g). rewrite Hx, Hy.
  replace (forallb _ _) with true; [reflexivity|]. symmetry. apply forallb_forall. intros [d i] Hi. cbn. apply Nat.ltb_lt. now apply (D d i).
Qed.
Lemma kd_dist kd g ny nx p : six_nearest kd -> igm_of_size g ny nx -> (6 <= ny * nx)%nat ->
  forall x, In x (kd (igm_nodes g) p) -> 0 < igm_weight (fst x).
Proof.
  intros HK HG HN [d i] Hi. destruct (kd_valid _ _ _ _ p HK HG HN) as (_ & _ & D & _).
  destruct (D d i Hi) as (_ & q & _ & ->). apply igm_weight_pos, dist2_nonneg.
Qed.

(** Whatever the query point, the answer lies inside the rectangle of columns and rows
    spanned by the six nearest nodes. *)
Theorem C38_range kd g ny nx p : six_nearest kd -> igm_of_size g ny nx -> (6 <= ny * nx)%nat ->
  forall c0 c1 r0 r1,
  (forall d i, In (d, i) (kd (igm_nodes g) p) -> (c0 <= i mod nx <= c1)%nat /\ (r0 <= i / nx <= r1)%nat) ->
  exists x y, igm_lon_lat_to_pixel kd g p = Ok (Fin x, Fin y) /\ INR c0 <= x <= INR c1 /\ INR r0 <= y <= INR r1.
Proof.
  intros HK HG HN c0 c1 r0 r1 HB. rewrite (igm_lookup _ _ _ _ p HK HG HN).
  destruct (kd_valid _ _ _ _ p HK HG HN) as (L & _). assert (W := kd_dist _ _ _ _ p HK HG HN).
  set (nb := kd (igm_nodes g) p) in *. assert (NE : nb <> []) by (destruct nb; [discriminate|congruence]).
  destruct (wmean_bounds (fun di => igm_weight (fst di)) (fun di => INR (snd di mod nx)) nb (INR c0) (INR c1) NE W) as (x & Ex & Bx).
  { intros [d i] Hi. destruct (HB d i Hi) as [[? ?] _]. cbn. split; now apply le_INR. }
  destruct (wmean_bounds (fun di => igm_weight (fst di)) (fun di => INR (snd di / nx)) nb (INR r0) (INR r1) NE W) as (y & Ey & By).
  { intros [d i] Hi. destruct (HB d i Hi) as [_ [? ?]]. cbn. split; now apply le_INR. }
  exists x, y. rewrite Ex, Ey. auto.
Qed.
(** In particular it lies inside the image. *)
Theorem C38_inside kd g ny nx p : six_nearest kd -> igm_of_size g ny nx -> (6 <= ny * nx)%nat ->
  exists x y, igm_lon_lat_to_pixel kd g p = Ok (Fin x, Fin y) /\ 0 <= x <= INR (nx - 1) /\ 0 <= y <= INR (ny - 1).
Proof.
  intros HK HG HN. destruct (C38_range kd g ny nx p HK HG HN 0 (nx - 1) 0 (ny - 1)) as (x & y & H); [|exists x, y; exact H].
  intros d i Hi. destruct (kd_valid _ _ _ _ p HK HG HN) as (_ & _ & D & _).
  destruct (D d i Hi) as (Hb & _). destruct (flat_bound _ _ _ Hb). lia.
Qed.
Print Assumptions C38_inside.

Lemma abs_cols (a b n : nat) : (a < n)%nat -> (b < n)%nat -> Rabs (INR a - INR b) <= INR (n - 1).
Proof.
  intros Ha Hb. assert (INR a <= INR (n - 1)) by (apply le_INR; lia). assert (INR b <= INR (n - 1)) by (apply le_INR; lia).
  pose proof (pos_INR a). pose proof (pos_INR b). unfold Rabs. destruct (Rcase_abs _); lra.
Qed.
(** At a node the answer is that node, up to a bound: five other nodes at least delta away
    pull it by at most 5e-8 (n-1) / delta pixels. *)
Theorem C38_node kd g ny nx r c p delta : six_nearest kd -> igm_of_size g ny nx -> (6 <= ny * nx)%nat ->
  (r < ny)%nat -> (c < nx)%nat -> node g r c = Some p -> 1 / 100000000 < delta ->
  (forall r' c' q, node g r' c' = Some q -> (r', c') <> (r, c) -> delta <= dist2 p q) ->
  exists x y, igm_lon_lat_to_pixel kd g p = Ok (Fin x, Fin y) /\
    Rabs (x - INR c) <= 5 * INR (nx - 1) / (100000000 * delta) /\
    Rabs (y - INR r) <= 5 * INR (ny - 1) / (100000000 * delta).
Proof.
  intros HK HG HN Hr Hc HP Hd SEP. rewrite (igm_lookup _ _ _ _ p HK HG HN).
  destruct (kd_valid _ _ _ _ p HK HG HN) as (L & ND & D & O). assert (W := kd_dist _ _ _ _ p HK HG HN).
  set (nb := kd (igm_nodes g) p) in *. destruct (flat_div r c nx Hc) as [F1 F2]. set (k := (r * nx + c)%nat) in *.
  assert (Hk : (k < ny * nx)%nat) by (unfold k; nia).
  assert (FAR : forall d i, In (d, i) nb -> i <> k -> delta <= d).
  { intros d i Hi NE. destruct (D d i Hi) as (Hb & q & Eq & ->). apply (SEP _ _ _ Eq). intros E. injection E as E1 E2.
    apply NE. rewrite (Nat.div_mod i nx) by lia. unfold k. lia. }
  assert (IK : In (0, k) nb).
  { destruct (in_dec Nat.eq_dec k (map snd nb)) as [I|NI].
    - apply in_map_iff in I as ([d i] & E & I). cbn in E. subst i. destruct (D d k I) as (_ & q & Eq & ->).
      rewrite F1, F2, HP in Eq. injection Eq as <-. now rewrite dist2_refl in I.
    - exfalso. destruct nb as [|[d i] nb']; [discriminate|].
      assert (I : In (d, i) ((d, i) :: nb')) by now left.
      assert (d <= dist2 p p). { apply (O k p d i Hk); [now rewrite F1, F2|exact NI|exact I]. }
      rewrite dist2_refl in H. assert (delta <= d). { apply (FAR d i I). intros ->. apply NI. now left. } lra. }
  assert (ND' : NoDup nb) by (eapply NoDup_map_inv; exact ND).
  assert (SM : forall x, In x nb -> x <> (0, k) -> igm_weight (fst x) <= 1 / delta).
  { intros [d i] Hi NE. apply igm_weight_far; [exact Hd|]. apply (FAR d i Hi). intros ->. apply NE. f_equal.
    destruct (D d k Hi) as (_ & q & Eq & ->). rewrite F1, F2, HP in Eq. injection Eq as <-. apply dist2_refl. }
  destruct (wmean_near (fun di => igm_weight (fst di)) (fun di => INR (snd di mod nx)) nb (0, k) 100000000 (1 / delta) (INR (nx - 1)) W IK ND' igm_weight_0 ltac:(lra) SM) as (x & Ex & Bx).
  { intros [d i] Hi. cbn [snd]. destruct (D d i Hi) as (Hb & _). destruct (flat_bound _ _ _ Hb). rewrite F2. apply abs_cols; assumption. }
  destruct (wmean_near (fun di => igm_weight (fst di)) (fun di => INR (snd di / nx)) nb (0, k) 100000000 (1 / delta) (INR (ny - 1)) W IK ND' igm_weight_0 ltac:(lra) SM) as (y & Ey & By).
  { intros [d i] Hi. cbn [snd]. destruct (D d i Hi) as (Hb & _). destruct (flat_bound _ _ _ Hb). rewrite F1. apply abs_cols; assumption. }
  exists x, y. rewrite Ex, Ey. split; [reflexivity|]. cbn [snd] in Bx, By. rewrite F2 in Bx. rewrite F1 in By. rewrite L in Bx, By.
  change (INR (6 - 1)) with (INR 5) in *. replace (INR 5) with 5 in * by (cbn; lra).
  replace (5 * INR (nx - 1) / (100000000 * delta)) with (5 * (1 / delta) * INR (nx - 1) / 100000000) by (field; lra).
  replace (5 * INR (ny - 1) / (100000000 * delta)) with (5 * (1 / delta) * INR (ny - 1) / 100000000) by (field; lra).
  split; assumption.
Qed.

Definition unit_igm : igm := mkIgm [[0; 1; 2]; [0; 1; 2]] [[0; 0; 0]; [1; 1; 1]] [[0; 0; 0]; [0; 0; 0]] 3 2 (1, 1).
Lemma unit_igm_size : igm_of_size unit_igm 2 3.
Proof. repeat split; cbn; repeat constructor. Qed.
Lemma unit_igm_nodes r c q : node unit_igm r c = Some q -> (r < 2)%nat /\ (c < 3)%nat /\ q = (INR c, INR r).
Proof.
  unfold node, cell, unit_igm. cbn [igm_lons igm_lats].
  destruct r as [|[|r]]; cbn [nth_error]; [| |destruct r; discriminate];
  (destruct c as [|[|[|c]]]; cbn [nth_error]; [| | |destruct c; discriminate]); intros E; injection E as <-;
  (split; [lia|split; [lia|]]); f_equal; cbn; lra.
Qed.
Example C38_node_met : igm_of_size unit_igm 2 3 /\ node unit_igm 0 0 = Some (0, 0) /\ 1 / 100000000 < 1 /\
  (forall r' c' q, node unit_igm r' c' = Some q -> (r', c') <> (0%nat, 0%nat) -> 1 <= dist2 (0, 0) q) /\ six_nearest sorting_kd.
Proof.
  split; [apply unit_igm_size|]. split; [reflexivity|]. split; [lra|]. split; [|apply six_nearest_exists].
  intros r c q E NE. apply unit_igm_nodes in E as (Hr & Hc & ->). unfold dist2. cbn [fst snd].
  rewrite <- sqrt_1. apply sqrt_le_1_alt.
  destruct r as [|r]; [destruct c as [|c]; [congruence|]|].
  - rewrite S_INR. pose proof (pos_INR c). cbn [INR]. nra.
  - rewrite S_INR. pose proof (pos_INR r). pose proof (pos_INR c). nra.
Qed.

(** But not exactly: at the corner node of a 2 x 3 image of unit cells the column returned is
    positive, whatever the search structure. *)
Theorem C38_node_refuted : ~ (forall kd g ny nx r c p, six_nearest kd -> igm_of_size g ny nx -> (6 <= ny * nx)%nat ->
  (r < ny)%nat -> (c < nx)%nat -> node g r c = Some p -> igm_lon_lat_to_pixel kd g p = Ok (Fin (INR c), Fin (INR r))).
Proof.
  intros H. specialize (H sorting_kd unit_igm 2%nat 3%nat 0%nat 0%nat (0, 0) six_nearest_exists unit_igm_size ltac:(lia) ltac:(lia) ltac:(lia) eq_refl).
  revert H. generalize six_nearest_exists. generalize sorting_kd. intros kd HK H.
  rewrite (igm_lookup kd unit_igm 2 3 (0, 0) HK unit_igm_size ltac:(lia)) in H. injection H as H _.
  destruct (kd_valid kd unit_igm 2 3 (0, 0) HK unit_igm_size ltac:(lia)) as (L & ND & D & _).
  assert (W := kd_dist kd unit_igm 2 3 (0, 0) HK unit_igm_size ltac:(lia)).
  set (nb := kd (igm_nodes unit_igm) (0, 0)) in *.
  assert (I : incl (seq 0 6) (map snd nb)).
  { apply NoDup_length_incl; [exact ND|rewrite map_length, seq_length; lia|]. intros i Hi. apply in_map_iff in Hi as ([d j] & <- & Hj).
    destruct (D d j Hj) as (Hb & _). apply in_seq. cbn. lia. }
  assert (I1 : In 1%nat (map snd nb)) by (apply I; apply in_seq; lia).
  apply in_map_iff in I1 as ([d1 i1] & E1 & I1). cbn in E1. subst i1.
  destruct (wsum_pos (fun di => igm_weight (fst di)) nb W) as [_ WP].
  assert (NE : nb <> []) by (intros E; rewrite E in I1; inversion I1). specialize (WP NE).
  rewrite fdiv_nz in H by lra. injection H as H.
  assert (P : 0 < rsum (map (fun di => igm_weight (fst di) * INR (snd di mod 3)) nb)).
  { destruct (in_split _ _ I1) as (l1 & l2 & E). rewrite E in *. rewrite map_app, rsum_app. cbn [map rsum fold_right fst snd].
    assert (POS : forall l, (forall x, In x l -> 0 < igm_weight (fst x)) -> 0 <= rsum (map (fun di : R * nat => igm_weight (fst di) * INR (snd di mod 3)) l)).
    { intros l WL. induction l as [|x l IH]; cbn [map rsum fold_right]; [lra|].
      pose proof (WL x (or_introl eq_refl)). pose proof (pos_INR (snd x mod 3)).
      assert (I' := IH (fun y Hy => WL y (or_intror Hy))). unfold rsum in *. nra. }
    assert (P1 := POS l1 ltac:(intros x Hx; apply W, in_or_app; now left)).
    assert (P2 := POS l2 ltac:(intros x Hx; apply W, in_or_app; right; now right)).
    assert (P3 : 0 < igm_weight d1) by (apply (W (d1, 1%nat)), in_or_app; right; now left).
    replace (INR (1 mod 3)) with 1 by (cbn; lra). unfold rsum in *. lra. }
  assert (0 < rsum (map (fun di => igm_weight (fst di) * INR (snd di mod 3)) nb) / rsum (map (fun di => igm_weight (fst di)) nb)).
  { apply Rdiv_lt_0_compat; assumption. }
  change (INR 0) with 0 in H. apply (Rlt_irrefl 0). rewrite <- H at 2. exact H0.
Qed.

(** An IGM of fewer than six nodes answers no query. *)
Theorem C38_few_nodes kd g ny nx p : six_nearest kd -> igm_of_size g ny nx -> (ny * nx < 6)%nat ->
  igm_lon_lat_to_pixel kd g p = Err ValueError.
Proof.
  intros HK HG HN. destruct (HK (igm_nodes g) p) as (_ & _ & A). pose proof (igm_nodes_length _ _ _ HG) as EL. rewrite EL in A.
  destruct (A HN) as [d Hd]. destruct HG as (_ & _ & Hy & Hx & _). unfold igm_lon_lat_to_pixel. fold (igm_nodes g). rewrite Hx, Hy.
  replace (forallb _ _) with false; [reflexivity|]. symmetry. apply not_true_iff_false. rewrite forallb_forall. intros F.
  specialize (F _ Hd). cbn in F. apply Nat.ltb_lt in F. lia.
Qed.
Print Assumptions C38_few_nodes.

(** An altitude image is kept as given, next to the two others; the centre is a node. *)
Theorem C38_altitude_image lons lats alts ny nx : grid lons ny nx -> grid lats ny nx -> (0 < ny)%nat -> (0 < nx)%nat ->
  exists g, igm_init lons lats (AltArray alts) = Ok g /\ igm_of_size g ny nx /\
    igm_lons g = lons /\ igm_lats g = lats /\ igm_alts g = alts /\ node g (ny / 2) (nx / 2) = Some (igm_center g).
Proof.
  intros G1 G2 N1 N2. pose proof G1 as [L1 F1].
  assert (EX : match lons with [] => 0%nat | r :: _ => length r end = nx). { destruct lons; [cbn in L1; lia|now inversion F1]. }
  assert (Hy : (ny / 2 < ny)%nat) by (apply Nat.div_lt; lia). assert (Hx : (nx / 2 < nx)%nat) by (apply Nat.div_lt; lia).
  unfold igm_init. rewrite L1, EX.
  assert (EZ : forall n, (Z.of_nat n / 2 = Z.of_nat (n / 2))%Z) by (intros n; symmetry; exact (Nat2Z.inj_div n 2)).
  rewrite !EZ. destruct (cell_some _ _ _ _ _ G1 Hy Hx) as [x X]. destruct (cell_some _ _ _ _ _ G2 Hy Hx) as [y Y].
  rewrite (grid_get_cell _ _ _ _ X), (grid_get_cell _ _ _ _ Y). cbn [bind]. eexists; split; [reflexivity|].
  split; [repeat split; cbn; try assumption; apply G2|]. unfold node. cbn [igm_lons igm_lats igm_alts igm_center]. rewrite X, Y. auto.
Qed.
Print Assumptions C38_altitude_image.
(** A numeric altitude is lost: zeros are stored whatever the number. *)
Theorem C38_altitude_refuted : ~ (forall lons lats a g, igm_init lons lats (AltNumber a) = Ok g ->
  forall r c v, cell (igm_alts g) r c = Some v -> v = a).
Proof.
  intros H. specialize (H [[7]] [[8]] 5 _ eq_refl 0%nat 0%nat 0 eq_refl). lra.
Qed.
Print Assumptions C38_altitude_refuted.
Theorem C38_altitude_zero lons lats a g r c : igm_init lons lats (AltNumber a) = Ok g -> (exists v, cell lons r c = Some v) ->
  cell (igm_alts g) r c = Some 0.
Proof.
  unfold igm_init. intros H [v V]. destruct (grid_get lons _ _); cbn [bind] in H; [|discriminate|discriminate].
  destruct (grid_get lats _ _); cbn [bind] in H; [|discriminate|discriminate].
  injection H as <-. cbn [igm_alts]. unfold cell in *. rewrite nth_error_map. destruct (nth_error lons r) as [row|]; [|discriminate].
  cbn. rewrite nth_error_map, V. reflexivity.
Qed.
Print Assumptions C38_altitude_zero.
Example C38_met : exists g, igm_init [[0; 1; 2]; [0; 1; 2]] [[0; 0; 0]; [1; 1; 1]] (AltArray [[5; 5; 5]; [6; 6; 6]]) = Ok g /\ igm_of_size g 2 3.
Proof. eexists; split; [reflexivity|]. repeat split; cbn; repeat constructor. Qed.

(* -------------------------------- C39 -------------------------------- *)

Lemma stores_snoc_nth heap h o b c : stores (bands h) o b c ->
  nth_error (sm_calcs (sm_run heap (h ++ [o]))) b = Some c.
Proof.
  rewrite sm_run_snoc. pose proof (sm_run_length heap h) as L. destruct o as [c'|i c'|cs|p]; cbn [stores sm_step sm_calcs].
  - intros [-> ->]. rewrite nth_error_app2 by lia. now rewrite L, Nat.sub_diag.
  - intros (HI & HB & ->). rewrite <- L in HI, HB.
    destruct (py_set_spec (sm_calcs (sm_run heap h)) i c') as [(k & Hk & Ik & E)|[_ NE]].
    + rewrite E. cbn. rewrite upd_nat_nth. assert (b = k) as -> by lia. rewrite Nat.eqb_refl.
      destruct (Nat.ltb_spec k (length (sm_calcs (sm_run heap h)))); [reflexivity|lia].
    + exfalso. apply NE. exists b. auto.
  - auto.
  - contradiction.
Qed.
Lemma not_stores_nth heap h o b : (b < bands (h ++ [o]))%nat -> (forall c, ~ stores (bands h) o b c) ->
  (b < bands h)%nat /\ nth_error (sm_calcs (sm_run heap (h ++ [o]))) b = nth_error (sm_calcs (sm_run heap h)) b.
Proof.
  rewrite sm_run_snoc, bands_snoc. pose proof (sm_run_length heap h) as L. intros HB NS.
  destruct o as [c'|i c'|cs|p]; cbn [stores sm_step sm_calcs] in *.
  - assert (b <> bands h) by (intros ->; apply (NS c'); auto). split; [lia|]. apply nth_error_app1. lia.
  - split; [exact HB|].
    destruct (py_set_spec (sm_calcs (sm_run heap h)) i c') as [(k & Hk & Ik & E)|[E _]]; rewrite E; [|reflexivity]. cbn. rewrite upd_nat_nth.
    destruct (Nat.eqb_spec b k) as [->|]; [|reflexivity]. exfalso. apply (NS c'). rewrite <- L. auto.
  - destruct (nth_error cs b) as [c|] eqn:E; [exfalso; now apply (NS c)|]. apply nth_error_None in E. lia.
  - auto.
Qed.

(** After any history the calculator that answers a query for band b is the one last stored
    for it. *)
Theorem C39_last_stored heap h b c : last_stored h b c ->
  sm_dispatch (sm_run heap h) (Some (Z.of_nat b)) = Ok (Some c) /\ sm_get_calc (sm_run heap h) (Z.of_nat b) = Ok c.
Proof.
  intros (HB & h1 & o & h2 & E & ST & LAST).
  assert (N : nth_error (sm_calcs (sm_run heap h)) b = Some c).
  { subst h. revert HB LAST. induction h2 as [|o' h2 IH] using rev_ind; intros HB LAST; [now apply stores_snoc_nth|].
    change (h1 ++ o :: h2 ++ [o']) with (h1 ++ (o :: h2) ++ [o']) in *. rewrite app_assoc in *.
    destruct (not_stores_nth heap (h1 ++ o :: h2) o' b HB) as [HB' ->].
    - intros c'. exact (LAST h2 o' [] c' eq_refl).
    - apply (IH HB'). intros h3 o3 h4 c' E. apply (LAST h3 o3 (h4 ++ [o']) c'). now rewrite E, <- app_assoc. }
  pose proof (sm_run_length heap h) as L. pose proof (py_get_nat _ _ _ N) as G. unfold sm_dispatch, sm_get_calc. rewrite G.
  unfold zlen. rewrite L. destruct (Z.ltb_spec (Z.of_nat b) (Z.of_nat (bands h))); [auto|lia].
Qed.
(** Every band that exists has a calculator stored for it (so the theorem above covers all of
    them). *)
Theorem C39_every_band h b : (b < bands h)%nat -> exists c, last_stored h b c.
Proof.
  induction h as [|o h IH] using rev_ind; [cbn; lia|]. intros HB.
  assert (DEC : (exists c, stores (bands h) o b c) \/ (forall c, ~ stores (bands h) o b c)).
  { destruct o as [c'|i c'|cs|p]; cbn.
    - destruct (Nat.eq_dec b (bands h)) as [->|NE]; [left; eauto|right; intros c []; contradiction].
    - destruct (Z.eq_dec i (Z.of_nat b)); [destruct (Nat.lt_ge_cases b (bands h)); [left; eauto|right; intros c (_ & ? & _); lia]|].
      destruct (Z.eq_dec i (Z.of_nat b - Z.of_nat (bands h))); [destruct (Nat.lt_ge_cases b (bands h)); [left; eauto|right; intros c (_ & ? & _); lia]|].
      right. intros c ([?|?] & _); contradiction.
    - destruct (nth_error cs b) as [c|]; [left; eauto|right; intros c; discriminate].
    - right; auto. }
  destruct DEC as [[c ST]|NS].
  - exists c. split; [exact HB|]. exists h, o, []. split; [reflexivity|]. split; [exact ST|]. intros h3 o' h4 c' E. now destruct h3.
  - destruct (not_stores_nth (fun _ => None) h o b HB NS) as [HB' _]. destruct (IH HB') as (c & _ & h1 & o1 & h2 & -> & ST & LAST).
    exists c. split; [exact HB|]. exists h1, o1, (h2 ++ [o]). rewrite <- app_assoc. split; [reflexivity|]. split; [exact ST|].
    intros h3 o' h4 c' E. destruct (exists_last (l := o' :: h4) ltac:(discriminate)) as (h5 & ol & E5). 
    destruct h5 as [|x h5].
    + injection E5 as -> ->. apply app_inj_tail in E as [-> <-]. apply NS.
    + injection E5 as <- ->. change (h3 ++ o' :: h5 ++ [ol]) with (h3 ++ (o' :: h5) ++ [ol]) in E. rewrite app_assoc in E.
      apply app_inj_tail in E as [-> <-]. now apply (LAST h3 o' h5 c').
Qed.
Print Assumptions C39_every_band.
(** The number of bands reported, the answer for a band that does not exist, and for none. *)
Theorem C39_other_bands heap h : sm_num_calcs (sm_run heap h) = bands h /\
  (forall b, (Z.of_nat (bands h) <= b)%Z -> sm_dispatch (sm_run heap h) (Some b) = Ok None) /\
  (forall b, (b < - Z.of_nat (bands h))%Z -> sm_dispatch (sm_run heap h) (Some b) = Err IndexError) /\
  (forall b, (b < bands h)%nat -> sm_dispatch (sm_run heap h) (Some (Z.of_nat b - Z.of_nat (bands h))%Z) = sm_dispatch (sm_run heap h) (Some (Z.of_nat b))) /\
  sm_dispatch (sm_run heap h) None = Err TypeError.
Proof.
  pose proof (sm_run_length heap h) as L. unfold sm_num_calcs, sm_dispatch, zlen. rewrite L. repeat split.
  - intros b Hb. destruct (Z.ltb_spec b (Z.of_nat (bands h))); [lia|reflexivity].
  - intros b Hb. destruct (Z.ltb_spec b (Z.of_nat (bands h))); [|lia]. rewrite py_get_out; [reflexivity|]. unfold zlen. rewrite L. lia.
  - intros b Hb. destruct (Z.ltb_spec (Z.of_nat b - Z.of_nat (bands h)) (Z.of_nat (bands h))); [|lia].
    destruct (Z.ltb_spec (Z.of_nat b) (Z.of_nat (bands h))); [|lia]. f_equal.
    unfold py_get, py_index, zlen. rewrite L.
    destruct (Z.leb_spec 0 (Z.of_nat b - Z.of_nat (bands h))); [lia|]. cbn [andb].
    destruct (Z.ltb_spec (Z.of_nat b - Z.of_nat (bands h)) 0); [|lia]. destruct (Z.leb_spec (- Z.of_nat (bands h)) (Z.of_nat b - Z.of_nat (bands h))); [|lia]. cbn [andb].
    destruct (Z.leb_spec 0 (Z.of_nat b)); [|lia]. destruct (Z.ltb_spec (Z.of_nat b) (Z.of_nat (bands h))); [|lia]. cbn [andb].
    replace (Z.to_nat (Z.of_nat (bands h) + (Z.of_nat b - Z.of_nat (bands h)))) with (Z.to_nat (Z.of_nat b)) by lia. reflexivity.
Qed.
Print Assumptions C39_other_bands.
(** Adding a calculator leaves the answers for all existing bands as they were, and a rejected
    update changes nothing. *)
Theorem C39_add heap h c b : (b < bands h)%nat ->
  sm_dispatch (sm_run heap (h ++ [AddCalc c])) (Some (Z.of_nat b)) = sm_dispatch (sm_run heap h) (Some (Z.of_nat b)).
Proof.
  intros HB. destruct (C39_every_band h b HB) as (c1 & LS).
  rewrite (proj1 (C39_last_stored heap h b c1 LS)). destruct LS as (_ & h1 & o & h2 & -> & ST & LAST).
  apply C39_last_stored. split; [rewrite bands_snoc; lia|]. exists h1, o, (h2 ++ [AddCalc c]). rewrite <- app_assoc. split; [reflexivity|]. split; [exact ST|].
  intros h3 o' h4 c' E. destruct (exists_last (l := o' :: h4) ltac:(discriminate)) as (h5 & ol & E5). destruct h5 as [|x h5].
  - injection E5 as -> ->. apply app_inj_tail in E as [-> <-]. cbn. lia.
  - injection E5 as <- ->. change (h3 ++ o' :: h5 ++ [ol]) with (h3 ++ (o' :: h5) ++ [ol]) in E. rewrite app_assoc in E.
    apply app_inj_tail in E as [-> <-]. now apply (LAST h3 o' h5 c').
Qed.
Print Assumptions C39_add.
Theorem C39_bad_update heap h i c : (i < - Z.of_nat (bands h) \/ Z.of_nat (bands h) <= i)%Z ->
  sm_step (sm_run heap h) (UpdateCalc i c) = Err IndexError /\ sm_run heap (h ++ [UpdateCalc i c]) = sm_run heap h.
Proof.
  intros HI. rewrite sm_run_snoc. pose proof (sm_run_length heap h) as L. cbn.
  destruct (py_set_spec (sm_calcs (sm_run heap h)) i c) as [(k & Hk & Ik & _)|[E _]]; [lia|]. rewrite E. auto.
Qed.
Print Assumptions C39_bad_update.

Lemma heap_fold (p : projection) cs : forall heap k,
  fold_left (fun h c => fun k => if Nat.eqb k c then Some p else h k) cs heap k = if in_dec Nat.eq_dec k cs then Some p else heap k.
Proof.
  induction cs as [|c cs IH]; intros heap k; [reflexivity|]. cbn [fold_left]. rewrite IH.
  destruct (in_dec Nat.eq_dec k cs) as [I|NI].
  - destruct (in_dec Nat.eq_dec k (c :: cs)) as [|NI]; [reflexivity|]. exfalso. apply NI. now right.
  - destruct (Nat.eqb_spec k c) as [->|NE]; destruct (in_dec Nat.eq_dec _ (c :: cs)) as [I|NI']; try reflexivity.
    + exfalso. apply NI'. now left.
    + destruct I as [E|I]; [congruence|contradiction].
Qed.
(** Setting a projection gives it to the calculator of every band, to the sensor itself, and
    to nothing else; the bands keep their calculators. *)
Theorem C39_projection heap h p :
  let s := sm_run heap (h ++ [SetProjection p]) in
  sm_proj s = Some p /\
  (forall b c, last_stored h b c -> sm_heap s c = Some p /\ sm_dispatch s (Some (Z.of_nat b)) = Ok (Some c)) /\
  (forall c, (forall b, ~ last_stored h b c) -> sm_heap s c = sm_heap (sm_run heap h) c).
Proof.
  cbv zeta. rewrite sm_run_snoc. cbn [sm_step]. split; [reflexivity|]. split.
  - intros b c LS. destruct (C39_last_stored heap h b c LS) as [D G]. split.
    + cbn. rewrite heap_fold. destruct (in_dec Nat.eq_dec c (sm_calcs (sm_run heap h))) as [|NI]; [reflexivity|]. exfalso. apply NI.
      unfold sm_get_calc, py_get in G. destruct (py_index _ _); [|discriminate]. destruct (nth_error _ n) eqn:E; [|discriminate].
      injection G as ->. eapply nth_error_In; exact E.
    + exact D.
  - intros c NL. cbn. rewrite heap_fold. destruct (in_dec Nat.eq_dec c (sm_calcs (sm_run heap h))) as [I|]; [|reflexivity].
    exfalso. apply In_nth_error in I as [b E]. assert (HB : (b < bands h)%nat).
    { rewrite <- (sm_run_length heap h). apply nth_error_Some. congruence. }
    destruct (C39_every_band h b HB) as (c1 & LS). destruct (C39_last_stored heap h b c1 LS) as [_ G].
    unfold sm_get_calc in G. rewrite (py_get_nat _ _ _ E) in G. injection G as ->. now apply (NL b).
Qed.
Example C39_met : last_stored [AddCalc 7; AddCalc 8; UpdateCalc (-1) 9; AddCalc 5] 1 9.
Proof.
  split; [cbn; lia|]. exists [AddCalc 7; AddCalc 8], (UpdateCalc (-1) 9), [AddCalc 5]. split; [reflexivity|]. split; [cbn; lia|].
  intros h3 o h4 c E. destruct h3 as [|x [|? ?]]; [|discriminate|discriminate]. injection E as <- _. cbn. lia.
Qed.

(* -------------------------------- C40 -------------------------------- *)

(** The elevation at every point, in the shape of the query. *)
Theorem C40_everywhere elevation world :
  pointwise (fun _ e => e = elevation) world (constant_elevations elevation world).
Proof.
  assert (F : forall l : list R, Forall2 (fun _ e => e = elevation) l (map (fun _ => 0 + elevation) l)).
  { induction l; cbn; constructor; [lra|assumption]. }
  destruct world as [x|xs|nx rows]; cbn; constructor.
  - lra.
  - apply F.
  - induction rows; cbn; constructor; [apply F|assumption].
Qed.
Print Assumptions C40_everywhere.
(** Highest, lowest and mean altitude bound it, tightly. *)
Theorem C40_bounds elevation world e : In e (elements (constant_elevations elevation world)) ->
  constant_lowest elevation <= e <= constant_highest elevation /\ e = constant_mean elevation.
Proof.
  unfold constant_lowest, constant_highest, constant_mean. intros I.
  assert (e = elevation); [|subst; lra].
  destruct world as [x|xs|nx rows]; cbn in I.
  - destruct I as [<-|[]]. lra.
  - apply in_map_iff in I as (? & <- & _). lra.
  - rewrite concat_map_map in I. apply in_map_iff in I as (? & <- & _). lra.
Qed.
Print Assumptions C40_bounds.
Example C40_met : In 3 (elements (constant_elevations 3 (Mat 2 [[1; 2]; [3; 4]]))).
Proof. cbn. left. lra. Qed.

(* -------------------------------- C41 -------------------------------- *)

(** Inside the DEM: the elevation of the pixel that contains the location. *)
Theorem C41_containing d ny nx x y r c : dem_of_size d ny nx -> gd_interp d = Nearest -> (r < ny)%nat -> (c < nx)%nat ->
  INR c <= x < INR c + 1 -> INR r <= y < INR r + 1 ->
  exists e, cell (gd_data d) r c = Some e /\ gtiff_elevation d (x, y) = Ok e.
Proof. intros HD HI. unfold gtiff_elevation. rewrite HI. now apply nearest_containing. Qed.
Print Assumptions C41_containing.
(** Everywhere, for queries of every shape: no failure, and at each point the elevation of the
    pixel nearest to its location. *)
Theorem C41_nearest_pixel d ny nx to_pixel world : dem_of_size d ny nx -> gd_interp d = Nearest -> Spec_Nav.rectangular world ->
  exists out, get_elevations d to_pixel world = Ok out /\
    pointwise (fun w e => nearest_value (gd_data d) ny nx (to_pixel w) e) (squeezed world) out.
Proof.
  intros HD HI HR. apply (elevations_pointwise d to_pixel (nearest_value (gd_data d) ny nx)); [|exact HR].
  intros loc. unfold gtiff_elevation. rewrite HI. now apply nearest_ok.
Qed.
Lemma bilinear_cell_bounds d ny nx loc e : dem_of_size d ny nx -> bilinear_at d loc = Ok (Fin e) ->
  exists lo hi, get_lowest_alt d = Fin lo /\ get_highest_alt d = Fin hi /\ lo <= e <= hi.
Proof.
  destruct loc as [px py]. intros HD E. destruct (bilinear_value d ny nx px py HD) as (r1 & r2 & c1 & c2 & e11 & e12 & e21 & e22 & _ & _ & V11 & V12 & V21 & V22 & EQ).
  cbv zeta in EQ. rewrite EQ in E. destruct (Reqb_spec (dist2 (px, py) (position r1 c1) + dist2 (px, py) (position r1 c2) + dist2 (px, py) (position r2 c1) + dist2 (px, py) (position r2 c2)) 0); [discriminate|].
  destruct e11 as [v11|]; [|discriminate]. destruct e12 as [v12|]; [|discriminate]. destruct e21 as [v21|]; [|discriminate]. destruct e22 as [v22|]; [|discriminate].
  injection E as <-. destruct (bounds_of_cell _ _ _ _ V11) as (lo & hi & L & H & B1). exists lo, hi. split; [exact L|]. split; [exact H|].
  destruct (bounds_of_cell _ _ _ _ V12) as (lo2 & hi2 & L2 & H2 & B2). rewrite L in L2. rewrite H in H2. injection L2 as <-. injection H2 as <-.
  destruct (bounds_of_cell _ _ _ _ V21) as (lo2 & hi2 & L2 & H2 & B3). rewrite L in L2. rewrite H in H2. injection L2 as <-. injection H2 as <-.
  destruct (bounds_of_cell _ _ _ _ V22) as (lo2 & hi2 & L2 & H2 & B4). rewrite L in L2. rewrite H in H2. injection L2 as <-. injection H2 as <-.
  apply wavg4; try assumption; apply dist2_nonneg.
Qed.
(** Every elevation returned, by either method, lies between the lowest and the highest
    altitude. *)
Theorem C41_bounds d ny nx loc e : dem_of_size d ny nx -> gtiff_elevation d loc = Ok (Fin e) ->
  exists lo hi, get_lowest_alt d = Fin lo /\ get_highest_alt d = Fin hi /\ lo <= e <= hi.
Proof.
  intros HD. unfold gtiff_elevation. destruct (gd_interp d).
  - intros E. destruct (nearest_ok d ny nx loc HD) as (e' & E' & r & c & _ & _ & V & _). rewrite E in E'. injection E' as <-. eapply bounds_of_cell; exact V.
  - now apply bilinear_cell_bounds with ny nx.
Qed.
Print Assumptions C41_bounds.
(** Both altitudes are themselves elevations of the DEM. *)
Theorem C41_bounds_tight d v : get_lowest_alt d = Fin v \/ get_highest_alt d = Fin v -> exists row, In row (gd_data d) /\ In (Fin v) row.
Proof.
  assert (K : In v (finite_values (gd_data d)) -> exists row, In row (gd_data d) /\ In (Fin v) row).
  { unfold finite_values. intros I. apply in_concat in I as (l & I1 & I2). apply in_map_iff in I1 as ([r|] & <- & I1); [|inversion I2].
    destruct I2 as [->|[]]. apply in_concat in I1 as (row & ? & ?). eauto. }
  unfold get_lowest_alt, get_highest_alt. intros [H|H].
  - destruct (rmin _) eqn:E; [|discriminate]. injection H as ->. apply K. now apply rmin_spec.
  - destruct (rmax _) eqn:E; [|discriminate]. injection H as ->. apply K. now apply rmax_spec.
Qed.
Print Assumptions C41_bounds_tight.
(** A pixel of a floating point raster holding the nodata value has no elevation (NaN); all
    others keep theirs.  The value given to the factory wins over the file's. *)
Theorem C41_nodata data nx ny file_nodata nodata v method r c :
  match nodata with Some u => Some u | None => file_nodata end = Some v ->
  exists d, from_gtiff_file false data nx ny file_nodata nodata method = Ok d /\
  (cell data r c = Some (Fin v) -> cell (gd_data d) r c = Some NonFinite) /\
  (forall u, u <> v -> cell data r c = Some (Fin u) -> cell (gd_data d) r c = Some (Fin u)).
Proof.
  intros E. unfold from_gtiff_file. replace (match nodata with Some v0 => Some v0 | None => file_nodata end) with (Some v).
  eexists; split; [reflexivity|]. cbn [gd_data]. rewrite remove_nodata_cell. split.
  - intros ->. cbn. now rewrite Reqb_true.
  - intros u NE ->. cbn. now rewrite Reqb_false.
Qed.
Print Assumptions C41_nodata.
(** Without a nodata value, integer or not, the raster is taken as it is. *)
Theorem C41_no_nodata integral data nx ny method :
  exists d, from_gtiff_file integral data nx ny None None method = Ok d /\ gd_data d = data.
Proof. eexists; split; reflexivity. Qed.
Print Assumptions C41_no_nodata.
(** An integer raster with a nodata value cannot be opened. *)
Theorem C41_integer_nodata data nx ny file_nodata nodata method : file_nodata <> None \/ nodata <> None ->
  from_gtiff_file true data nx ny file_nodata nodata method = Err ValueError.
Proof. intros H. unfold from_gtiff_file. destruct nodata; [reflexivity|]. destruct file_nodata; [reflexivity|]. destruct H; congruence. Qed.
Print Assumptions C41_integer_nodata.
Theorem C41_from_file integral data nx ny file_nodata nodata method d : grid data ny nx -> (2 <= nx)%nat -> (2 <= ny)%nat ->
  from_gtiff_file integral data (Z.of_nat nx) (Z.of_nat ny) file_nodata nodata method = Ok d ->
  dem_of_size d ny nx /\ (method = txt "nearest" -> gd_interp d = Nearest).
Proof.
  intros G N1 N2. unfold from_gtiff_file. intros E.
  assert (d = mkGdem (remove_nodata match nodata with Some v => Some v | None => file_nodata end data) (Z.of_nat nx) (Z.of_nat ny)
    match nodata with Some v => Some v | None => file_nodata end (if text_eqb method (txt "nearest") then Nearest else Bilinear)) as ->.
  { destruct nodata, file_nodata, integral; try discriminate; now injection E. }
  split; [|intros ->; reflexivity]. unfold dem_of_size. cbn. split; [now apply remove_nodata_grid|auto].
Qed.
Print Assumptions C41_from_file.
(** A DEM of a single row or column answers no query. *)
Theorem C41_single_row d loc : gd_nx d = 1%Z \/ gd_ny d = 1%Z -> gtiff_elevation d loc = Err IndexError.
Proof.
  intros H. assert (A : forall y x, dem_at d y x = Err IndexError).
  { intros y x. unfold dem_at. destruct H as [-> | ->]; cbn; [reflexivity|]. now rewrite Bool.orb_true_r. }
  unfold gtiff_elevation, nearest_at, bilinear_at. destruct loc. rewrite !A. now destruct (gd_interp d).
Qed.
Print Assumptions C41_single_row.
Example C41_met : exists d, from_gtiff_file false [[Fin 1; Fin 2]; [Fin 3; Fin (-9999)]; [Fin 5; Fin 6]] 2 3 (Some (-9999)) None (txt "nearest") = Ok d /\
  dem_of_size d 3 2 /\ gd_interp d = Nearest.
Proof.
  destruct (C41_nodata [[Fin 1; Fin 2]; [Fin 3; Fin (-9999)]; [Fin 5; Fin 6]] 2 3 (Some (-9999)) None (-9999) (txt "nearest") 0 0 eq_refl) as (d & E & _).
  exists d. split; [exact E|]. destruct (C41_from_file false [[Fin 1; Fin 2]; [Fin 3; Fin (-9999)]; [Fin 5; Fin 6]] 2 3 (Some (-9999)) None (txt "nearest") d) as [H1 H2]; [|lia|lia|exact E|auto].
  repeat split; repeat constructor.
Qed.

(* -------------------------------- C42 -------------------------------- *)

(** The bilinear lookup at a location that is not a pixel position: the mean of the four
    surrounding elevations (NaN if one of them is), between the smallest and the largest. *)
Theorem C42_between d ny nx px py : dem_of_size d ny nx -> gd_interp d = Bilinear -> ~ on_pixel ny nx (px, py) ->
  exists r1 r2 c1 c2 e11 e12 e21 e22 e,
  around px nx c1 c2 /\ around py ny r1 r2 /\
  cell (gd_data d) r1 c1 = Some e11 /\ cell (gd_data d) r1 c2 = Some e12 /\
  cell (gd_data d) r2 c1 = Some e21 /\ cell (gd_data d) r2 c2 = Some e22 /\
  gtiff_elevation d (px, py) = Ok e /\
  forall v11 v12 v21 v22, e11 = Fin v11 -> e12 = Fin v12 -> e21 = Fin v21 -> e22 = Fin v22 ->
    exists v, e = Fin v /\ Rmin (Rmin v11 v12) (Rmin v21 v22) <= v <= Rmax (Rmax v11 v12) (Rmax v21 v22).
Proof.
  intros HD HI NP. destruct (bilinear_value d ny nx px py HD) as (r1 & r2 & c1 & c2 & e11 & e12 & e21 & e22 & Ac & Ar & V11 & V12 & V21 & V22 & EQ).
  cbv zeta in EQ. unfold gtiff_elevation. rewrite HI, EQ.
  assert (NZ := proj1 (weights_zero _ _ _ _ _ _ _ _ Ac Ar)).
  rewrite Reqb_false by (intros E; apply NP; now apply NZ).
  exists r1, r2, c1, c2, e11, e12, e21, e22. eexists. repeat (split; [eassumption|]). split; [reflexivity|].
  intros v11 v12 v21 v22 -> -> -> ->. eexists; split; [reflexivity|].
  apply wavg4; try apply dist2_nonneg; [intros E; apply NP; now apply NZ| | | |].
  - split; [eapply Rle_trans; [apply Rmin_l|apply Rmin_l]|eapply Rle_trans; [|apply Rmax_l]; apply Rmax_l].
  - split; [eapply Rle_trans; [apply Rmin_l|apply Rmin_r]|eapply Rle_trans; [|apply Rmax_l]; apply Rmax_r].
  - split; [eapply Rle_trans; [apply Rmin_r|apply Rmin_l]|eapply Rle_trans; [|apply Rmax_r]; apply Rmax_l].
  - split; [eapply Rle_trans; [apply Rmin_r|apply Rmin_r]|eapply Rle_trans; [|apply Rmax_r]; apply Rmax_r].
Qed.
(** It fails exactly at the pixel positions. *)
Theorem C42_fails_iff d ny nx loc : dem_of_size d ny nx -> gd_interp d = Bilinear ->
  (gtiff_elevation d loc = Err ZeroDivisionError <-> on_pixel ny nx loc) /\
  ((exists e, gtiff_elevation d loc = Ok e) <-> ~ on_pixel ny nx loc).
Proof.
  destruct loc as [px py]. intros HD HI. destruct (bilinear_value d ny nx px py HD) as (r1 & r2 & c1 & c2 & e11 & e12 & e21 & e22 & Ac & Ar & _ & _ & _ & _ & EQ).
  cbv zeta in EQ. unfold gtiff_elevation. rewrite HI, EQ. pose proof (weights_zero _ _ _ _ _ _ _ _ Ac Ar) as WZ.
  destruct (Reqb_spec (dist2 (px, py) (position r1 c1) + dist2 (px, py) (position r1 c2) + dist2 (px, py) (position r2 c1) + dist2 (px, py) (position r2 c2)) 0) as [E|E].
  - apply WZ in E. split; [tauto|]. split; [intros [e H]; discriminate|tauto].
  - assert (~ on_pixel ny nx (px, py)) by (rewrite <- WZ; exact E). split; [split; [discriminate|tauto]|]. split; [auto|intros _; eauto].
Qed.
Print Assumptions C42_fails_iff.
Theorem C42_at_pixel_refuted : ~ (forall d ny nx r c e, dem_of_size d ny nx -> gd_interp d = Bilinear ->
  cell (gd_data d) r c = Some e -> gtiff_elevation d (position r c) = Ok e).
Proof.
  intros H. set (d := mkGdem [[Fin 1; Fin 2]; [Fin 3; Fin 4]] 2 2 None Bilinear).
  assert (HD : dem_of_size d 2 2) by (repeat split; cbn; repeat constructor).
  specialize (H d 2%nat 2%nat 0%nat 0%nat (Fin 1) HD eq_refl eq_refl).
  destruct (C42_fails_iff d 2 2 (position 0 0) HD eq_refl) as [F _].
  rewrite (proj2 F) in H; [discriminate|]. exists 0%nat, 0%nat. repeat split; lia.
Qed.
Print Assumptions C42_at_pixel_refuted.
(** The weight of each of the four pixels is its distance from the location: the further, the
    heavier. *)
Theorem C42_weights d ny nx px py v11 v12 v21 v22 : dem_of_size d ny nx -> gd_interp d = Bilinear -> ~ on_pixel ny nx (px, py) ->
  forall r1 r2 c1 c2, around px nx c1 c2 -> around py ny r1 r2 ->
  cell (gd_data d) r1 c1 = Some (Fin v11) -> cell (gd_data d) r1 c2 = Some (Fin v12) ->
  cell (gd_data d) r2 c1 = Some (Fin v21) -> cell (gd_data d) r2 c2 = Some (Fin v22) ->
  let d11 := dist2 (px, py) (position r1 c1) in let d12 := dist2 (px, py) (position r1 c2) in
  let d21 := dist2 (px, py) (position r2 c1) in let d22 := dist2 (px, py) (position r2 c2) in
  gtiff_elevation d (px, py) = Ok (Fin ((v11 * d11 + v12 * d12 + v21 * d21 + v22 * d22) / (d11 + d12 + d21 + d22))).
Proof.
  assert (UN : forall x n a b a' b', around x n a b -> around x n a' b' -> a = a' /\ b = b').
  { intros x n a b a' b' H H'.
    assert (I1 : forall i j : nat, INR i < INR j + 1 -> (i <= j)%nat). { intros i j Q. rewrite <- S_INR in Q. apply INR_lt in Q. lia. }
    destruct H as [(A & B & C & D)|[(A & -> & -> & D)|(A & -> & -> & D)]], H' as [(A' & B' & C' & D')|[(A' & -> & -> & D')|(A' & -> & -> & D')]].
    - split; apply Nat.le_antisymm; apply I1; lra.
    - pose proof (pos_INR a). lra.
    - exfalso. assert (INR (n - 1) < INR b) as Q by lra. apply INR_lt in Q. lia.
    - pose proof (pos_INR a'). lra.
    - auto.
    - exfalso. pose proof (pos_INR (n - 1)). lra.
    - exfalso. assert (INR (n - 1) < INR b') as Q by lra. apply INR_lt in Q. lia.
    - exfalso. pose proof (pos_INR (n - 1)). lra.
    - auto. }
  intros HD HI NP r1 r2 c1 c2 Ac Ar V11 V12 V21 V22. cbv zeta.
  destruct (bilinear_value d ny nx px py HD) as (r1' & r2' & c1' & c2' & e11 & e12 & e21 & e22 & Ac' & Ar' & U11 & U12 & U21 & U22 & EQ).
  destruct (UN _ _ _ _ _ _ Ac Ac') as [<- <-]. destruct (UN _ _ _ _ _ _ Ar Ar') as [<- <-].
  rewrite V11 in U11. rewrite V12 in U12. rewrite V21 in U21. rewrite V22 in U22.
  injection U11 as <-. injection U12 as <-. injection U21 as <-. injection U22 as <-. cbv zeta in EQ. unfold gtiff_elevation. rewrite HI, EQ.
  rewrite Reqb_false; [reflexivity|]. intros E. apply NP. now apply (weights_zero _ _ _ _ _ _ _ _ Ac Ar).
Qed.
(** Along a pixel row the interpolation runs backwards: a part u of the way from one pixel to
    the next, the value is that of linear interpolation at 1 - u. *)
Theorem C42_reversed d ny nx r c u e1 e2 : dem_of_size d ny nx -> gd_interp d = Bilinear -> (r < ny)%nat -> (S c < nx)%nat -> 0 < u < 1 ->
  cell (gd_data d) r c = Some (Fin e1) -> cell (gd_data d) r (S c) = Some (Fin e2) ->
  gtiff_elevation d (INR c + u, INR r) = Ok (Fin (e1 + (e2 - e1) * (1 - u))).
Proof.
  intros HD HI Hr Hc HU V1 V2.
  assert (Ac : around (INR c + u) nx c (S c)). { left. rewrite S_INR. repeat split; try lra. exact Hc. }
  assert (Ar : around (INR r) ny r r). { left. repeat split; try lra. exact Hr. }
  assert (NP : ~ on_pixel ny nx (INR c + u, INR r)).
  { intros (r' & c' & _ & _ & E). injection E as E _.
    assert (INR c < INR c') as Q by lra. apply INR_lt in Q. assert (INR c' < INR (S c)) as Q' by (rewrite S_INR; lra). apply INR_lt in Q'. lia. }
  rewrite (C42_weights d ny nx _ _ e1 e2 e1 e2 HD HI NP r r c (S c) Ac Ar V1 V2 V1 V2).
  assert (E1 : dist2 (INR c + u, INR r) (position r c) = u).
  { unfold dist2, position. cbn [fst snd]. replace ((INR c + u - INR c) ^ 2 + (INR r - INR r) ^ 2) with (u ^ 2) by ring.
    rewrite <- Rsqr_pow2. apply sqrt_Rsqr. lra. }
  assert (E2 : dist2 (INR c + u, INR r) (position r (S c)) = 1 - u).
  { unfold dist2, position. cbn [fst snd]. rewrite S_INR. replace ((INR c + u - (INR c + 1)) ^ 2 + (INR r - INR r) ^ 2) with ((1 - u) ^ 2) by ring.
    rewrite <- Rsqr_pow2. apply sqrt_Rsqr. lra. }
  rewrite E1, E2. do 2 f_equal. field. lra.
Qed.
Print Assumptions C42_reversed.
Theorem C42_closer_heavier_refuted : ~ (forall d ny nx r c u e1 e2, dem_of_size d ny nx -> gd_interp d = Bilinear -> (r < ny)%nat -> (S c < nx)%nat ->
  0 < u < 1 / 2 -> cell (gd_data d) r c = Some (Fin e1) -> cell (gd_data d) r (S c) = Some (Fin e2) ->
  exists e, gtiff_elevation d (INR c + u, INR r) = Ok (Fin e) /\ Rabs (e - e1) <= Rabs (e - e2)).
Proof.
  intros H. set (d := mkGdem [[Fin 0; Fin 100]; [Fin 0; Fin 100]] 2 2 None Bilinear).
  assert (HD : dem_of_size d 2 2) by (repeat split; cbn; repeat constructor).
  destruct (H d 2%nat 2%nat 0%nat 0%nat (1 / 10) 0 100 HD eq_refl ltac:(lia) ltac:(lia) ltac:(lra) eq_refl eq_refl) as (e & E & C).
  rewrite (C42_reversed d 2 2 0 0 (1 / 10) 0 100 HD eq_refl) in E; [|lia|lia|lra|reflexivity|reflexivity].
  injection E as <-. rewrite Rabs_right in C by lra. rewrite Rabs_left in C by lra. lra.
Qed.
Print Assumptions C42_closer_heavier_refuted.
(** A method name the factory does not know silently means bilinear. *)
Theorem C42_unknown_method integral data nx ny file_nodata nodata method d : method <> txt "nearest" ->
  from_gtiff_file integral data nx ny file_nodata nodata method = Ok d -> gd_interp d = Bilinear.
Proof.
  intros H. unfold from_gtiff_file. rewrite text_eqb_neq by exact H. intros E.
  destruct nodata, file_nodata, integral; try discriminate; injection E as <-; reflexivity.
Qed.
Print Assumptions C42_unknown_method.
Example C42_met : dem_of_size (mkGdem [[Fin 0; Fin 100]; [Fin 0; Fin 100]] 2 2 None Bilinear) 2 2 /\ ~ on_pixel 2 2 (1 / 2, 0) /\ around (1 / 2) 2 0 1.
Proof.
  split; [repeat split; cbn; repeat constructor|]. split.
  - intros (r & c & _ & _ & E). injection E as E _. destruct c as [|c]; [cbn in E; lra|]. rewrite S_INR in E. pose proof (pos_INR c). lra.
  - left. cbn. repeat split; try lra. lia.
Qed.

Print Assumptions C38_range.
Print Assumptions C38_node.
Print Assumptions C38_node_refuted.
Print Assumptions C39_last_stored.
Print Assumptions C39_projection.
Print Assumptions C41_nearest_pixel.
Print Assumptions C42_between.
Print Assumptions C42_weights.
