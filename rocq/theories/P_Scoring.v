(** Lemmas for C81-C83. *)
From Coq Require Import Sorting.Sorted.
From Verif Require Import RAux Text Arr M_Scoring Spec_Scoring Spec_Chipper P_Chipper P_Photo.
Open Scope R_scope.
Open Scope list_scope.

(* ------------------------------ alpha ------------------------------ *)

Lemma strip_wf img : cube_wf img -> cube_wf (strip_alpha img).
Proof.
  unfold strip_alpha. destruct (Nat.eqb_spec (c_nb img) 4) as [E|N]; [|auto].
  intros [A B]. split; cbn; [rewrite map_length; exact A|].
  apply Forall_map. eapply Forall_impl; [|exact B]. intros row [L F].
  rewrite map_length. split; [exact L|]. apply Forall_map. eapply Forall_impl; [|exact F].
  intros p Hp. unfold py_slice, slice_bound, zlen. rewrite Hp, E. cbn.
  rewrite firstn_length. change (length (skipn 0 p)) with (length p). rewrite Hp, E. reflexivity.
Qed.

Lemma strip_nb img : c_nb (strip_alpha img) = scored_channels (c_nb img).
Proof. unfold strip_alpha, scored_channels. destruct (Nat.eqb (c_nb img) 4); reflexivity. Qed.
Lemma strip_ny img : c_ny (strip_alpha img) = c_ny img.
Proof. unfold strip_alpha. destruct (Nat.eqb (c_nb img) 4); reflexivity. Qed.
Lemma strip_nx img : c_nx (strip_alpha img) = c_nx img.
Proof. unfold strip_alpha. destruct (Nat.eqb (c_nb img) 4); reflexivity. Qed.

Lemma strip_at img l x b : cube_wf img -> (b < scored_channels (c_nb img))%nat ->
  cube_at (strip_alpha img) l x b = cube_at img l x b.
Proof.
  intros [_ W]. unfold strip_alpha, scored_channels. destruct (Nat.eqb_spec (c_nb img) 4) as [E|N]; [|auto].
  intros Hb. unfold cube_at. cbn [c_data]. rewrite nth_error_map.
  destruct (nth_error (c_data img) l) as [row|] eqn:R; cbn; [|reflexivity].
  rewrite nth_error_map. destruct (nth_error row x) as [p|] eqn:X; cbn; [|reflexivity].
  rewrite Forall_forall in W. destruct (W row (nth_error_In _ _ R)) as [_ F]. rewrite Forall_forall in F.
  pose proof (F p (nth_error_In _ _ X)) as Hp.
  unfold py_slice, slice_bound, zlen. rewrite Hp, E. cbn.
  destruct p as [|p0 [|p1 [|p2 [|p3 [|? ?]]]]]; try (cbn in Hp; lia).
  destruct b as [|[|[|b]]]; try reflexivity. lia.
Qed.

(* ------------------------------ chips ------------------------------ *)

Lemma chip_list_length ch : length (chip_list ch) = n_chips ch.
Proof. destruct ch; cbn; [reflexivity|apply map_length]. Qed.

Lemma chip_list_at ch i chip r c b : nth_error (chip_list ch) i = Some chip ->
  at3 chip r c b = chips_at ch i r c b.
Proof.
  unfold chip_list. destruct ch as [l|l]; cbn [chips_at]; intros H.
  - rewrite H. reflexivity.
  - rewrite nth_error_map in H. destruct (nth_error l i) as [ch|]; cbn in H; [|discriminate].
    injection H as <-. unfold at3. rewrite nth_error_map.
    destruct (nth_error ch r) as [row|]; cbn; [|destruct b; reflexivity].
    rewrite nth_error_map. destruct (nth_error row c) as [v|]; cbn; destruct b as [|b]; cbn; auto.
    destruct b; reflexivity.
Qed.

Lemma seq_nth_error n b : nth_error (seq 0 n) b = if Nat.ltb b n then Some b else None.
Proof.
  destruct (Nat.ltb_spec b n) as [H|H].
  - rewrite (nth_error_nth' _ 0%nat) by (rewrite seq_length; exact H). rewrite seq_nth by exact H. reflexivity.
  - apply nth_error_None. rewrite seq_length. exact H.
Qed.

Lemma chips_shape (img : cube Z) ys xs h w b keep ch uls :
  chip_images_by_pixel_upper_lefts 0%Z img false ys xs h w b keep = Ok (ch, uls) ->
  Forall (block_shape (Z.to_nat h) (Z.to_nat w) (length (band_list (c_nb img) b))) (chip_list ch).
Proof.
  unfold chip_images_by_pixel_upper_lefts. destruct ((h <? 0)%Z || (w <? 0)%Z); [discriminate|].
  set (bl := band_list (c_nb img) b).
  destruct (mapM _ (combine _ _)) as [cut| |] eqn:E; cbn [bind]; try discriminate.
  set (blank := repeat _ (Z.to_nat h)).
  assert (F : forall n, Forall (block_shape (Z.to_nat h) (Z.to_nat w) (length bl)) (cut ++ repeat blank n)).
  { intros n. apply Forall_app. split.
    - apply (mapM_Forall_of _ _ _ _ E). intros a c Hc. exact (cut_chip_shape _ _ _ _ _ _ _ Hc).
    - apply Forall_forall. intros c Hc. apply repeat_spec in Hc. subst c. unfold blank. split; [apply repeat_length|].
      apply Forall_forall. intros row Hr. apply repeat_spec in Hr. subst row. split; [apply repeat_length|].
      apply Forall_forall. intros p Hp. apply repeat_spec in Hp. subst p. apply repeat_length. }
  cbn [orb]. destruct (Nat.eqb_spec (length bl) 1) as [E1|N1].
  - intros H. injection H as <- <-. cbn [chip_list]. rewrite map_map. apply Forall_map.
    eapply Forall_impl; [|apply F]. intros c [L1 L2]. split; [rewrite !map_length; exact L1|].
    rewrite map_map. apply Forall_map. eapply Forall_impl; [|exact L2]. intros row [M1 M2].
    split; [rewrite !map_length; exact M1|]. rewrite map_map. apply Forall_map. eapply Forall_impl; [|exact M2].
    intros p Hp. cbn. rewrite E1. reflexivity.
  - intros H. injection H as <- <-. cbn [chip_list]. apply F.
Qed.

Lemma entire_shape (img : cube Z) h w oy ox keep ch uls :
  chip_entire_image_to_memory 0%Z img h w oy ox BandsNone keep = Ok (ch, uls) ->
  Forall (block_shape (Z.to_nat h) (Z.to_nat w) (c_nb img)) (chip_list ch).
Proof.
  unfold chip_entire_image_to_memory. destruct (axis_indices _ h oy); cbn [bind]; try discriminate.
  destruct (axis_indices _ w ox); cbn [bind]; try discriminate. intros H.
  apply chips_shape in H. cbn [band_list] in H. unfold zrange in H. rewrite map_length, seq_length in H.
  replace (Z.to_nat (Z.of_nat (c_nb img) - 0)) with (c_nb img) in H by lia. exact H.
Qed.

Lemma chip_shows img ch uls h w i y x chip : cube_wf img ->
  Forall (block_shape (Z.to_nat h) (Z.to_nat w) (c_nb (strip_alpha img))) (chip_list ch) ->
  exact_chips (strip_alpha img) (selected_bands (c_nb (strip_alpha img)) BandsNone) h w uls ch ->
  nth_error uls i = Some (y, x) -> nth_error (chip_list ch) i = Some chip -> shows img y x h w chip.
Proof.
  intros W Sh Q Hu Hc. split.
  { rewrite <- strip_nb. rewrite Forall_forall in Sh. apply Sh. eapply nth_error_In. exact Hc. }
  intros r c b. rewrite (chip_list_at _ _ _ _ _ _ Hc).
  destruct (Q i y x Hu) as (_ & _ & _ & _ & P). rewrite P.
  cbn [selected_bands]. rewrite strip_nb, seq_nth_error.
  destruct ((Z.of_nat r <? h)%Z && (Z.of_nat c <? w)%Z); cbn [andb]; [|reflexivity].
  destruct (Nat.ltb_spec b (scored_channels (c_nb img))) as [H|H]; [|reflexivity].
  apply strip_at; assumption.
Qed.

(* ------------------------------ the loop --------------------------- *)

Lemma at3_map {A B} (f : A -> B) c r k b : at3 (map_pixels f c) r k b = option_map f (at3 c r k b).
Proof.
  unfold at3, map_pixels. rewrite nth_error_map. destruct (nth_error c r) as [row|]; cbn; [|reflexivity].
  rewrite nth_error_map. destruct (nth_error row k) as [p|]; cbn; [|reflexivity]. apply nth_error_map.
Qed.

Lemma at3_In {A} (c : list (list (list A))) v : In v (concat (concat c)) <-> exists r k b, at3 c r k b = Some v.
Proof.
  split.
  - intros H. apply in_concat in H. destruct H as (p & Hp & Hv). apply in_concat in Hp. destruct Hp as (row & Hr & Hp).
    apply In_nth_error in Hv, Hp, Hr. destruct Hv as [b Hv], Hp as [k Hp], Hr as [r Hr].
    exists r, k, b. unfold at3. rewrite Hr, Hp. exact Hv.
  - intros (r & k & b & H). unfold at3 in H. destruct (nth_error c r) as [row|] eqn:R; [|discriminate].
    destruct (nth_error row k) as [p|] eqn:K; [|discriminate].
    apply in_concat. exists p. split; [|eapply nth_error_In; exact H].
    apply in_concat. exists row. split; eapply nth_error_In; eassumption.
Qed.

Lemma map_pixels_shape {A B} (f : A -> B) c : map (map (@length B)) (map_pixels f c) = map (map (@length A)) c.
Proof.
  unfold map_pixels. rewrite map_map. apply map_ext. intros row. rewrite map_map. apply map_ext. intros p. apply map_length.
Qed.

Lemma normalize_ok method c : concat (concat c) <> [] ->
  exists c', normalize_chip method c = Ok c' /\ normalized method c c'.
Proof.
  intros Hne. unfold normalize_chip.
  destruct (text_eqb method (txt "divide_by_255")) eqn:E1.
  { apply text_eqb_spec in E1. subst method. eexists. split; [reflexivity|]. split; [apply map_pixels_shape|]. intros r k b. rewrite at3_map.
    destruct (at3 c r k b) as [v|]; cbn [option_map]; [|reflexivity]. eexists. split; [reflexivity|].
    split; [reflexivity|]. split; [discriminate|congruence]. }
  assert (N1 : method <> txt "divide_by_255") by (intros ->; rewrite text_eqb_refl in E1; discriminate).
  destruct (text_eqb method (txt "min_max_per_chip")) eqn:E2.
  { apply text_eqb_spec in E2. subst method.
    destruct (rmin (concat (concat c))) as [mn|] eqn:Em.
    2:{ exfalso. destruct (concat (concat c)) as [|a l]; [congruence|]. cbn in Em. destruct (rmin l); discriminate. }
    destruct (rmax (concat (concat c))) as [mx|] eqn:Ex.
    2:{ exfalso. destruct (concat (concat c)) as [|a l]; [congruence|]. cbn in Ex. destruct (rmax l); discriminate. }
    apply rmin_spec in Em. apply rmax_spec in Ex. destruct Em as [M1 M2], Ex as [X1 X2].
    eexists. split; [reflexivity|]. split; [apply map_pixels_shape|]. intros r k b. rewrite at3_map.
    destruct (at3 c r k b) as [v|] eqn:V; cbn [option_map]; [|reflexivity]. eexists. split; [reflexivity|].
    split; [discriminate|]. split; [|congruence]. intros _ lo hi [L1 L2] [G1 G2].
    assert (lo = mn).
    { apply at3_In in M1. destruct M1 as (r1 & k1 & b1 & M1). apply at3_In in L1.
      apply Rle_antisym; [eapply L2; exact M1|apply M2; exact L1]. }
    assert (hi = mx).
    { apply at3_In in X1. destruct X1 as (r1 & k1 & b1 & X1). apply at3_In in G1.
      apply Rle_antisym; [apply X2; exact G1|eapply G2; exact X1]. }
    subst. split; intros H; unfold fdiv; [rewrite Reqb_false by lra|rewrite Reqb_true by lra]; reflexivity. }
  assert (N2 : method <> txt "min_max_per_chip") by (intros ->; rewrite text_eqb_refl in E2; discriminate).
  eexists. split; [reflexivity|]. split; [apply map_pixels_shape|]. intros r k b. rewrite at3_map.
  destruct (at3 c r k b) as [v|]; cbn [option_map]; [|reflexivity]. eexists. split; [reflexivity|].
  split; [congruence|]. split; [congruence|reflexivity].
Qed.

Section loop.
  Variable imresize : Z -> Z -> list (list (list Z)) -> result (list (list (list R))).
  Variable predict : list (list (list (list flt))) -> result (list (list flt)).
  Variables (ty tx : Z) (method : text) (k : nat).
  Hypothesis HR : resizes imresize ty tx.
  Hypothesis HP : classifies predict k.

  Lemma loop_ok n l : forall i, exists rows,
    score_loop imresize predict ty tx method true n i l =
      Ok (map (fun r => [r]) rows, map (fun j => INR j / INR n * 100) (seq i (length l))) /\
    Forall2 (fun chip row => length row = k /\ exists resized input,
       imresize ty tx chip = Ok resized /\ normalized method resized input /\ predict [input] = Ok [row]) l rows.
  Proof.
    induction l as [|chip l IH]; intros i.
    - exists []. split; [reflexivity|constructor].
    - destruct (HR chip) as (c' & E1 & Ne). destruct (normalize_ok method c' Ne) as (c'' & E2 & Q).
      destruct (HP c'') as (row & E3 & Hk). destruct (IH (S i)) as (rows & E4 & F).
      exists (row :: rows). split.
      + cbn [score_loop]. rewrite E1. cbn [bind]. rewrite E2. cbn [bind]. rewrite E3. cbn [bind]. rewrite E4.
        cbn [bind fst snd]. reflexivity.
      + constructor; [|exact F]. split; [exact Hk|]. exists c', c''. auto.
  Qed.

  Lemma loop_no_ledger n i chip l :
    score_loop imresize predict ty tx method false n i (chip :: l) = Err AttributeError.
  Proof.
    destruct (HR chip) as (c' & E1 & Ne). destruct (normalize_ok method c' Ne) as (c'' & E2 & Q).
    destruct (HP c'') as (row & E3 & Hk).
    cbn [score_loop]. rewrite E1. cbn [bind]. rewrite E2. cbn [bind]. rewrite E3. reflexivity.
  Qed.
End loop.

(* ------------------------------ squeeze ---------------------------- *)

Lemma squeeze_nums r : map squeeze (map Num r) = map Num r.
Proof. induction r as [|v r IH]; cbn; [reflexivity|]. rewrite IH. reflexivity. Qed.

Lemma squeeze_row r : length r <> 1%nat -> squeeze (Axis [Axis (map Num r)]) = Axis (map Num r).
Proof.
  intros H. cbn. rewrite squeeze_nums. destruct r as [|a [|b r]]; [reflexivity|cbn in H; congruence|reflexivity].
Qed.

Definition stack (rows : list (list flt)) : nd := Axis (map (fun r => Axis [Axis (map Num r)]) rows).

Lemma stack_eq rows :
  Axis (map (fun p => Axis (map (fun row => Axis (map Num row)) p)) (map (fun r : list flt => [r]) rows)) = stack rows.
Proof. unfold stack. rewrite map_map. reflexivity. Qed.

Lemma squeeze_many rows k : Forall (fun r => length r = k) rows -> k <> 1%nat -> length rows <> 1%nat ->
  squeeze (stack rows) = matrix rows.
Proof.
  intros F Hk Hn. unfold stack, matrix. cbn [squeeze]. rewrite map_map.
  replace (map (fun x => squeeze (Axis [Axis (map Num x)])) rows) with (map (fun r => Axis (map Num r)) rows).
  - destruct rows as [|a [|b rows]]; [reflexivity|cbn in Hn; congruence|reflexivity].
  - apply map_ext_in. intros r Hr. symmetry. apply squeeze_row. rewrite Forall_forall in F. rewrite (F r Hr). exact Hk.
Qed.

Lemma squeeze_one_chip r : length r <> 1%nat -> squeeze (stack [r]) = vector r.
Proof.
  intros H. unfold stack, vector.
  change (squeeze (Axis (map (fun r0 : list flt => Axis [Axis (map Num r0)]) [r])))
    with (squeeze (Axis [Axis (map Num r)])).
  apply squeeze_row; exact H.
Qed.

Lemma squeeze_one_class vs : length vs <> 1%nat -> squeeze (stack (map (fun v => [v]) vs)) = vector vs.
Proof.
  intros H. unfold stack, vector. cbn [squeeze]. rewrite !map_map. cbn.
  destruct vs as [|a [|b vs]]; [reflexivity|cbn in H; congruence|reflexivity].
Qed.

Lemma squeeze_scalar v : squeeze (stack [[v]]) = Num v.
Proof. reflexivity. Qed.

Lemma rows_of_one rows : Forall (fun r : list flt => length r = 1%nat) rows -> exists vs, rows = map (fun v => [v]) vs.
Proof.
  induction rows as [|r rows IH]; intros F; [exists []; reflexivity|].
  inversion F as [|? ? H1 H2]; subst. destruct (IH H2) as [vs ->].
  destruct r as [|v [|? ?]]; try (cbn in H1; lia). exists (v :: vs). reflexivity.
Qed.

Lemma index_spec l t : (exists j, list_index l t = Ok (Z.of_nat j) /\ first_position l t j) \/
                       (list_index l t = Err ValueError /\ ~ In t l).
Proof.
  induction l as [|x l IH]; cbn [list_index]; [right; auto|].
  destruct (text_eqb x t) eqn:E.
  - apply text_eqb_spec in E. subst. left. exists 0%nat. split; [reflexivity|]. split; [reflexivity|]. intros i Hi; lia.
  - assert (N : x <> t) by (intros ->; rewrite text_eqb_refl in E; discriminate).
    destruct IH as [(j & -> & H1 & H2)|[-> H]].
    + left. exists (S j). cbn [bind]. split; [f_equal; lia|]. split; [exact H1|].
      intros [|i] Hi; cbn; [congruence|apply H2; lia].
    + right. split; [reflexivity|]. intros [?|?]; congruence.
Qed.

Lemma py_get_num m j : (j < length m)%nat -> exists v, nth_error m j = Some v /\ py_get (map Num m) (Z.of_nat j) = Ok (Num v).
Proof.
  intros H. destruct (nth_error m j) as [v|] eqn:E; [|apply nth_error_None in E; lia].
  exists v. split; [reflexivity|]. unfold py_get, py_index, zlen. rewrite map_length.
  replace ((0 <=? Z.of_nat j)%Z && (Z.of_nat j <? Z.of_nat (length m))%Z) with true by lia.
  rewrite Nat2Z.id, nth_error_map, E. reflexivity.
Qed.

Lemma column_ok rows k j : Forall (fun r => length r = k) rows -> rows <> [] -> (j < k)%nat ->
  exists col, take_column (matrix rows) (Z.of_nat j) = Ok (vector col) /\
              Forall2 (fun (r : list flt) v => nth_error r j = Some v) rows col.
Proof.
  intros F Hne Hj.
  assert (Q : exists col, mapM (fun r => match r with Axis m => py_get m (Z.of_nat j) | Num _ => Err IndexError end)
                (map (fun r => Axis (map Num r)) rows) = Ok (map Num col) /\
              Forall2 (fun (r : list flt) v => nth_error r j = Some v) rows col).
  { clear Hne. induction F as [|r rows Hr F IH].
    - exists []. split; [reflexivity|constructor].
    - destruct IH as (col & E & Q). destruct (py_get_num r j) as (v & E1 & E2); [lia|].
      exists (v :: col). split; [|constructor; assumption].
      cbn [map mapM]. rewrite E2. cbn [bind]. rewrite E. reflexivity. }
  destruct Q as (col & E & Q). exists col. split; [|exact Q].
  unfold take_column, matrix. destruct rows as [|r rows]; [congruence|].
  cbn [map] in *. rewrite E. reflexivity.
Qed.

Lemma column_big rows k j : Forall (fun r => length r = k) rows -> (k <= j)%nat ->
  take_column (matrix rows) (Z.of_nat j) = Err IndexError.
Proof.
  intros F Hj. unfold matrix, take_column. destruct rows as [|r rows]; [reflexivity|].
  inversion F as [|? ? Hr _]; subst. cbn [map mapM].
  unfold py_get, py_index, zlen. rewrite map_length.
  replace ((0 <=? Z.of_nat j)%Z && (Z.of_nat j <? Z.of_nat (length r))%Z) with false by lia.
  replace ((Z.of_nat j <? 0)%Z && (- Z.of_nat (length r) <=? Z.of_nat j)%Z) with false by lia. reflexivity.
Qed.

Lemma column_vector l j : take_column (vector l) j = Err IndexError.
Proof. destruct l; reflexivity. Qed.

(* ------------------------------ corners ---------------------------- *)

Lemma trunc_IZR z : truncZ (IZR z) = z.
Proof.
  destruct (Rlt_dec (IZR z) 0) as [H|H].
  - destruct (truncZ_neg _ H) as [[A B] _]. apply le_IZR in B. assert (IZR (truncZ (IZR z) - 1) < IZR z)%R by (rewrite minus_IZR; exact A).
    apply lt_IZR in H0. lia.
  - destruct (truncZ_nonneg (IZR z)) as [[A B] _]; [lra|]. apply le_IZR in A.
    assert (IZR z < IZR (truncZ (IZR z) + 1))%R by (rewrite plus_IZR; exact B). apply lt_IZR in H0. lia.
Qed.

Lemma overlap_range c p : (1 <= c)%Z -> 0 <= p < 1 -> (0 <= truncZ (IZR c * p) < c)%Z.
Proof.
  intros Hc Hp. assert (1 <= IZR c) by (apply IZR_le; exact Hc).
  destruct (truncZ_nonneg (IZR c * p)) as [[A B] C]; [apply Rmult_le_pos; lra|].
  split; [exact C|]. apply lt_IZR. eapply Rle_lt_trans; [exact A|].
  rewrite <- (Rmult_1_r (IZR c)) at 2. apply Rmult_lt_compat_l; lra.
Qed.

Lemma many_corners (img : cube Z) bands h w uls (ch : chips Z) :
  exact_chips img bands h w uls ch ->
  (1 <= h <= Z.of_nat (c_ny img))%Z -> (1 <= w <= Z.of_nat (c_nx img))%Z ->
  (forall r c, (r < c_ny img)%nat -> (c < c_nx img)%nat ->
       exists i y x, nth_error uls i = Some (y, x) /\ (y <= Z.of_nat r < y + h)%Z /\ (x <= Z.of_nat c < x + w)%Z) ->
  StronglySorted row_major_lt uls ->
  (Z.of_nat (c_ny img) = h /\ Z.of_nat (c_nx img) = w /\ uls = [(0, 0)%Z]) \/
  ((h < Z.of_nat (c_ny img) \/ w < Z.of_nat (c_nx img))%Z /\ (2 <= length uls)%nat).
Proof.
  intros Q Hh Hw C S.
  assert (Bd : forall p, In p uls -> (0 <= fst p)%Z /\ (fst p + h <= Z.of_nat (c_ny img))%Z /\ (0 <= snd p)%Z /\ (snd p + w <= Z.of_nat (c_nx img))%Z).
  { intros [y x] Hp. apply In_nth_error in Hp. destruct Hp as [i Hi]. destruct (Q i y x Hi) as (?&?&?&?&_). cbn. auto. }
  destruct (C 0%nat 0%nat ltac:(lia) ltac:(lia)) as (i0 & y0 & x0 & E0 & R0 & C0).
  destruct (C (c_ny img - 1)%nat (c_nx img - 1)%nat ltac:(lia) ltac:(lia)) as (i1 & y1 & x1 & E1 & R1 & C1).
  pose proof (nth_error_In _ _ E0) as I0. pose proof (nth_error_In _ _ E1) as I1.
  pose proof (Bd _ I0) as B0. pose proof (Bd _ I1) as B1. cbn in B0, B1.
  destruct (Z.eq_dec (Z.of_nat (c_ny img)) h) as [Ey|Ny]; [destruct (Z.eq_dec (Z.of_nat (c_nx img)) w) as [Ex|Nx]|].
  - left. split; [exact Ey|]. split; [exact Ex|].
    assert (Z0 : forall p, In p uls -> p = (0, 0)%Z).
    { intros [y x] Hp. pose proof (Bd _ Hp) as Bp. cbn in Bp. f_equal; lia. }
    destruct uls as [|a [|b uls]]; [destruct I0| |].
    + rewrite (Z0 a (or_introl eq_refl)). reflexivity.
    + exfalso. inversion S as [|? ? S1 F1]; subst. inversion F1 as [|? ? L1 _]; subst.
      rewrite (Z0 a (or_introl eq_refl)), (Z0 b (or_intror (or_introl eq_refl))) in L1.
      unfold row_major_lt in L1. cbn in L1. lia.
  - right. split; [lia|]. destruct uls as [|a [|b uls]]; [destruct I0| |cbn; lia].
    exfalso. destruct I0 as [->|[]]. destruct I1 as [I1|[]]. injection I1 as -> ->. lia.
  - right. split; [lia|]. destruct uls as [|a [|b uls]]; [destruct I0| |cbn; lia].
    exfalso. destruct I0 as [->|[]]. destruct I1 as [I1|[]]. injection I1 as -> ->. lia.
Qed.

(** The chips, their corners and their scores, before the squeeze *)
Lemma scoring_run imresize predict img chip_x chip_y tx ty ox oy method k :
  cube_wf img -> (1 <= chip_y <= Z.of_nat (c_ny img))%Z -> (1 <= chip_x <= Z.of_nat (c_nx img))%Z ->
  0 <= ox < 1 -> 0 <= oy < 1 -> resizes imresize ty tx -> classifies predict k ->
  exists uls rows,
    (forall labels thing, chip_and_score_image imresize predict img false chip_x chip_y tx ty ox oy method labels thing true =
       scores <- match labels, thing with
                 | Some lb, Some t => j <- list_index lb t ;; take_column (squeeze (stack rows)) j
                 | _, _ => Ok (squeeze (stack rows))
                 end ;;
       Ok (scores, uls, map (fun j => INR j / INR (length uls) * 100) (seq 0 (length uls)))) /\
    (forall labels thing, chip_and_score_image imresize predict img false chip_x chip_y tx ty ox oy method labels thing false =
       Err AttributeError) /\
    length rows = length uls /\ Forall (fun r => length r = k) rows /\ covers img chip_y chip_x uls /\
    StronglySorted row_major_lt uls /\
    (forall i y x row, nth_error uls i = Some (y, x) -> nth_error rows i = Some row ->
       scores_of_part imresize predict img chip_x chip_y tx ty method y x row) /\
    ((Z.of_nat (c_ny img) = chip_y /\ Z.of_nat (c_nx img) = chip_x /\ uls = [(0, 0)%Z]) \/
     ((chip_y < Z.of_nat (c_ny img) \/ chip_x < Z.of_nat (c_nx img))%Z /\ (2 <= length uls)%nat)).
Proof.
  intros W Hy Hx Hox Hoy HR HP.
  pose proof (overlap_range chip_x ox ltac:(lia) Hox) as Px. pose proof (overlap_range chip_y oy ltac:(lia) Hoy) as Py_.
  destruct (chip_entire_covers 0%Z (strip_alpha img) chip_y chip_x (truncZ (IZR chip_y * oy)) (truncZ (IZR chip_x * ox)) BandsNone true
      (strip_wf _ W) I Py_ ltac:(rewrite strip_ny; lia) Px ltac:(rewrite strip_nx; lia))
    as (ch & uls & E & Hn & S & Q & C).
  destruct (loop_ok imresize predict ty tx method k HR HP (length (chip_list ch)) (chip_list ch) 0) as (rows & EL & F).
  assert (Ln : length (chip_list ch) = length uls) by (rewrite chip_list_length; exact Hn).
  assert (C' : forall r c, (r < c_ny (strip_alpha img))%nat -> (c < c_nx (strip_alpha img))%nat ->
       exists i y x, nth_error uls i = Some (y, x) /\ (y <= Z.of_nat r < y + chip_y)%Z /\ (x <= Z.of_nat c < x + chip_x)%Z).
  { intros r c H1 H2. destruct (C r c H1 H2) as (i & y & x & A1 & A2 & A3 & _). exists i, y, x. auto. }
  pose proof (many_corners _ _ _ _ _ _ Q) as MC. rewrite strip_ny, strip_nx in MC. specialize (MC Hy Hx).
  rewrite strip_ny, strip_nx in C'. specialize (MC C' S).
  assert (Ne : chip_list ch <> []).
  { intros E0. rewrite E0 in Ln. cbn in Ln. destruct MC as [(_ & _ & ->)|[_ L]]; [cbn in Ln; lia|lia]. }
  exists uls, rows.
  split; [|split; [|split; [|split; [|split; [|split; [exact S|split; [|exact MC]]]]]]].
  - intros labels thing. unfold chip_and_score_image. cbv zeta. rewrite E. cbn [bind fst snd]. rewrite EL. cbn [bind fst snd].
    rewrite stack_eq, Ln. reflexivity.
  - intros labels thing. unfold chip_and_score_image. cbv zeta. rewrite E. cbn [bind fst snd].
    destruct (chip_list ch) as [|a l]; [congruence|].
    rewrite (loop_no_ledger imresize predict ty tx method k HR HP). reflexivity.
  - rewrite <- Ln. symmetry. exact (Py.Forall2_length _ _ _ F).
  - clear - F. induction F as [|c r cs rs [H _] F IH]; constructor; auto.
  - intros r c H1 H2. destruct (C' r c H1 H2) as (i & y & x & A1 & A2 & A3). exists y, x.
    split; [eapply nth_error_In; exact A1|]. auto.
  - intros i y x row Hu Hr.
    destruct (nth_error (chip_list ch) i) as [chip|] eqn:Hc.
    2:{ apply nth_error_None in Hc. assert (i < length uls)%nat by (apply nth_error_Some; congruence). lia. }
    assert (F1 : length row = k /\ exists resized input,
       imresize ty tx chip = Ok resized /\ normalized method resized input /\ predict [input] = Ok [row]).
    { clear - F Hc Hr. revert i Hc Hr. induction F as [|c r cs rs H F IH]; intros [|i] Hc Hr; cbn in *; try discriminate.
      - injection Hc as <-. injection Hr as <-. exact H.
      - eapply IH; eassumption. }
    destruct F1 as (_ & resized & input & A1 & A2 & A3). exists chip, resized, input.
    split; [eapply chip_shows; try eassumption; exact (entire_shape _ _ _ _ _ _ _ _ E)|]. auto.
Qed.

(* ------------------------------ training --------------------------- *)
From Coq Require Import Permutation.
From Verif Require Import Spec_TextFiles P_TextFiles.

Lemma text_lt_irrefl a : ~ text_lt a a.
Proof. induction a as [|x a IH]; intros H; inversion H; subst; [lia|auto]. Qed.

Lemma text_lt_trans a b c : text_lt a b -> text_lt b c -> text_lt a c.
Proof.
  intros H. revert c. induction H as [x b|x y a b L|x a b H IH]; intros c Hc; inversion Hc; subst.
  - constructor.
  - constructor.
  - apply lt_head. lia.
  - apply lt_head. exact L.
  - apply lt_head. assumption.
  - apply lt_tail. apply IH. assumption.
Qed.

Lemma text_leb_spec a b : text_leb a b = true <-> text_lt a b \/ a = b.
Proof.
  revert b. induction a as [|x a IH]; intros b.
  - split; [|reflexivity]. intros _. destruct b; [right; reflexivity|left; constructor].
  - destruct b as [|y b]; cbn [text_leb].
    { split; [discriminate|]. intros [H|H]; [inversion H|discriminate]. }
    destruct (Nat.ltb_spec (nat_of_ascii x) (nat_of_ascii y)) as [L|L].
    { split; [|reflexivity]. intros _. left. apply lt_head. exact L. }
    destruct (Nat.eqb_spec (nat_of_ascii x) (nat_of_ascii y)) as [E|E].
    + assert (x = y) by (rewrite <- (ascii_nat_embedding x), <- (ascii_nat_embedding y), E; reflexivity). subst y.
      rewrite IH. split.
      * intros [H| ->]; [left; apply lt_tail; exact H|right; reflexivity].
      * intros [H|H]; [inversion H; subst; [lia|left; assumption]|injection H as ->; right; reflexivity].
    + split; [discriminate|]. intros [H|H]; [inversion H; subst; lia|injection H as -> ->; lia].
Qed.

Lemma text_leb_total a b : text_leb a b = false -> text_lt b a.
Proof.
  revert b. induction a as [|x a IH]; intros b; cbn [text_leb]; [discriminate|].
  destruct b as [|y b]; cbn [text_leb]; [intros _; constructor|].
  destruct (Nat.ltb_spec (nat_of_ascii x) (nat_of_ascii y)) as [L|L]; [discriminate|].
  destruct (Nat.eqb_spec (nat_of_ascii x) (nat_of_ascii y)) as [E|E].
  - assert (x = y) by (rewrite <- (ascii_nat_embedding x), <- (ascii_nat_embedding y), E; reflexivity). subst y.
    intros H. apply lt_tail. auto.
  - intros _. apply lt_head. lia.
Qed.

Lemma insert_perm x l : Permutation (insert_text x l) (x :: l).
Proof.
  induction l as [|y l IH]; cbn; [constructor; constructor|].
  destruct (text_leb x y); [reflexivity|].
  eapply perm_trans; [apply perm_skip; exact IH|]. apply perm_swap.
Qed.

Lemma sorted_perm l : Permutation (sorted_texts l) l.
Proof.
  induction l as [|x l IH]; cbn; [constructor|]. eapply perm_trans; [apply insert_perm|]. apply perm_skip. exact IH.
Qed.

Definition tle a b := text_lt a b \/ a = b.
Lemma tle_trans a b c : tle a b -> tle b c -> tle a c.
Proof. intros [H| ->] [K| ->]; unfold tle; eauto using text_lt_trans. Qed.

Lemma insert_sorted x l : StronglySorted tle l -> StronglySorted tle (insert_text x l).
Proof.
  induction 1 as [|y l S1 IH F]; cbn; [repeat constructor|].
  destruct (text_leb x y) eqn:E.
  - apply text_leb_spec in E. constructor; [constructor; assumption|]. constructor; [exact E|].
    eapply Forall_impl; [|exact F]. intros z Hz. eapply tle_trans; eassumption.
  - apply text_leb_total in E. constructor; [exact IH|].
    rewrite (insert_perm x l). constructor; [left; exact E|exact F].
Qed.

Lemma sorted_sorted l : StronglySorted tle (sorted_texts l).
Proof. induction l as [|x l IH]; cbn; [constructor|apply insert_sorted; exact IH]. Qed.

Lemma sorted_strict l : NoDup l -> StronglySorted text_lt (sorted_texts l).
Proof.
  intros N. apply (Permutation_NoDup (Permutation_sym (sorted_perm l))) in N.
  pose proof (sorted_sorted l) as S1. induction S1 as [|y m S1 IH F]; [constructor|].
  inversion N as [|? ? N1 N2]; subst. constructor; [apply IH; exact N2|].
  rewrite Forall_forall in *. intros z Hz. destruct (F z Hz) as [H|H]; [exact H|]. subst. contradiction.
Qed.

Lemma sorted_position l p c : StronglySorted text_lt l -> nth_error l p = Some c ->
  forall d, In d (firstn p l) <-> In d l /\ text_lt d c.
Proof.
  intros S1. revert p c. induction S1 as [|y m S1 IH F]; intros p c Hp d; [destruct p; discriminate|].
  rewrite Forall_forall in F.
  destruct p as [|p]; cbn in Hp |- *.
  - injection Hp as ->. split; [tauto|]. intros [[->|H] L]; [exact (text_lt_irrefl _ L)|].
    exact (text_lt_irrefl _ (text_lt_trans _ _ _ (F d H) L)).
  - rewrite (IH p c Hp d). pose proof (F c (nth_error_In _ _ Hp)) as Lc. split.
    + intros [->|[H L]]; auto.
    + intros [[->|H] L]; auto.
Qed.

Lemma firstn_nodup {A} p (l : list A) : NoDup l -> NoDup (firstn p l).
Proof.
  revert l. induction p as [|p IH]; intros [|x l] H; cbn; try constructor.
  - inversion H; subst. intros K. apply H2. rewrite <- (firstn_skipn p l). apply in_or_app. left. exact K.
  - inversion H; subst. auto.
Qed.

(** With a numbering in order, the sorted names list the classes by number *)
Lemma sorted_by_number ci : numbered_in_order ci ->
  forall c i, nth_error (sorted_texts (map fst ci)) i = Some c <-> In (c, Z.of_nat i) ci.
Proof.
  intros [N Q].
  pose proof (Permutation_NoDup (Permutation_sym (sorted_perm _)) N) as N'.
  pose proof (sorted_strict _ N) as S1. set (L := sorted_texts (map fst ci)) in *.
  assert (K : forall c i p, In (c, i) ci -> nth_error L p = Some c -> i = Z.of_nat p).
  { intros c i p Hi Hp. destruct (Q c i Hi) as (sm & Ns & Hs & <-). f_equal.
    assert (P : Permutation sm (firstn p L)).
    { apply NoDup_Permutation; [exact Ns|apply firstn_nodup; exact N'|]. intros d.
      rewrite Hs, (sorted_position L p c S1 Hp). split; intros [A B]; (split; [|exact B]).
      - apply (Permutation_in _ (Permutation_sym (sorted_perm _))). exact A.
      - apply (Permutation_in _ (sorted_perm _)). exact A. }
    rewrite (Permutation_length P), firstn_length. apply Nat.min_l.
    apply Nat.lt_le_incl. apply nth_error_Some. congruence. }
  intros c i. split; intros H.
  - assert (Hc : In c (map fst ci)) by (apply (Permutation_in _ (sorted_perm _)); eapply nth_error_In; exact H).
    apply in_map_iff in Hc. destruct Hc as ([c' j] & E & Hj). cbn in E. subst c'.
    rewrite <- (K c j i Hj H). exact Hj.
  - assert (Hc : In c L).
    { apply (Permutation_in _ (Permutation_sym (sorted_perm _))). apply in_map_iff. exists (c, Z.of_nat i). auto. }
    apply In_nth_error in Hc. destruct Hc as [p Hp]. pose proof (K c _ p H Hp). replace i with p by lia. exact Hp.
Qed.

Lemma map_fst_combine {A B} (l : list A) (m : list B) : length l = length m -> map fst (combine l m) = l.
Proof. revert m. induction l as [|x l IH]; intros [|y m] H; cbn in *; try lia; [reflexivity|]. f_equal. apply IH. lia. Qed.

Lemma zrange_length n : length (zrange 0 (Z.of_nat n)) = n.
Proof. unfold zrange. rewrite map_length, seq_length. lia. Qed.

Lemma zrange_nth n i : nth_error (zrange 0 (Z.of_nat n)) i = if Nat.ltb i n then Some (Z.of_nat i) else None.
Proof.
  unfold zrange. rewrite nth_error_map. replace (Z.to_nat (Z.of_nat n - 0)) with n by lia.
  rewrite seq_nth_error. destruct (Nat.ltb i n); reflexivity.
Qed.

Lemma keras_numbered subdirs : NoDup subdirs ->
  numbered_in_order (keras_class_indices subdirs) /\
  (forall c, In c (map fst (keras_class_indices subdirs)) <-> In c subdirs).
Proof.
  intros N. unfold keras_class_indices, zlen.
  assert (L : length (sorted_texts subdirs) = length subdirs) by (apply Permutation_length, sorted_perm).
  assert (E : map fst (combine (sorted_texts subdirs) (zrange 0 (Z.of_nat (length subdirs)))) = sorted_texts subdirs)
    by (apply map_fst_combine; rewrite zrange_length; exact L).
  assert (N' : NoDup (sorted_texts subdirs)) by (exact (Permutation_NoDup (Permutation_sym (sorted_perm _)) N)).
  split; [split|].
  - rewrite E. exact N'.
  - intros c i H. apply In_nth_error in H. destruct H as [p Hp]. rewrite nth_error_combine in Hp.
    destruct (nth_error (sorted_texts subdirs) p) as [c'|] eqn:Ec; [|discriminate].
    rewrite zrange_nth in Hp.
    destruct (Nat.ltb_spec p (length subdirs)) as [Hl|Hl]; [|discriminate]. injection Hp as -> <-.
    exists (firstn p (sorted_texts subdirs)). rewrite E.
    split; [apply firstn_nodup; exact N'|]. split; [apply sorted_position; [apply sorted_strict; exact N|exact Ec]|].
    rewrite firstn_length. f_equal. lia.
  - intros c. rewrite E. split; intros H; [apply (Permutation_in _ (sorted_perm _))|apply (Permutation_in _ (Permutation_sym (sorted_perm _)))]; exact H.
Qed.

(** Two numberings in order of the same names are the same numbering *)
Lemma numbering_unique ci cj : numbered_in_order ci -> numbered_in_order cj ->
  (forall c, In c (map fst ci) <-> In c (map fst cj)) -> forall c i, In (c, i) ci <-> In (c, i) cj.
Proof.
  assert (H : forall ci cj, numbered_in_order ci -> numbered_in_order cj ->
    (forall c, In c (map fst ci) <-> In c (map fst cj)) -> forall c i, In (c, i) ci -> In (c, i) cj).
  { clear. intros ci cj [N1 Q1] [N2 Q2] E c i H.
    destruct (Q1 c i H) as (s1 & A1 & B1 & <-).
    assert (Hc : In c (map fst cj)) by (apply E; apply in_map_iff; eexists; split; [|exact H]; reflexivity).
    apply in_map_iff in Hc. destruct Hc as ([c' j] & Ec & Hj). cbn in Ec. subst c'.
    destruct (Q2 c j Hj) as (s2 & A2 & B2 & Ej).
    assert (P : Permutation s1 s2) by (apply NoDup_Permutation; auto; intros d; rewrite B1, B2, E; tauto).
    rewrite (Permutation_length P), Ej. exact Hj. }
  intros H1 H2 E c i. split; apply H; auto. intros d. symmetry. apply E.
Qed.

(** The labels file *)
Lemma labels_file ls : ls <> [] -> Forall (fun t => one_line t /\ t <> []) ls ->
  exists content, write_text_list_to_file None (sorted_texts ls) = (Some content, Ok tt) /\
                  read_text_list_from_file content = sorted_texts ls.
Proof.
  intros Hne F.
  assert (F' : Forall (fun t => one_line t /\ t <> []) (sorted_texts ls)) by (rewrite (sorted_perm ls); exact F).
  assert (Ne : sorted_texts ls <> []).
  { intros E. pose proof (Permutation_length (sorted_perm ls)) as L. rewrite E in L. destruct ls; [congruence|discriminate]. }
  destruct (exists_last Ne) as (m & z & E). rewrite E in *. apply Forall_app in F'. destruct F' as [Fm Fz].
  inversion Fz as [|? ? [Hz1 Hz2] _]; subst.
  exists (lines_text m ++ z). split; [apply write_snoc|].
  rewrite read_snoc; [destruct z; [congruence|reflexivity]| |exact Hz1].
  eapply Forall_impl; [|exact Fm]. intros t [H _]. exact H.
Qed.

(** The batches of an epoch *)
Lemma firstn_add {A} (m n : nat) (l : list A) : firstn m l ++ firstn n (skipn m l) = firstn (m + n) l.
Proof.
  revert l. induction m as [|m IH]; intros l; [reflexivity|]. destruct l as [|x l]; cbn.
  - rewrite firstn_nil. reflexivity.
  - rewrite IH. reflexivity.
Qed.

Lemma batches_concat files b k : concat (batches files b k) = firstn (k * Z.to_nat b) files.
Proof.
  unfold batches. induction k as [|k IH]; [reflexivity|].
  rewrite seq_S, map_app, concat_app, IH. cbn [map concat]. rewrite app_nil_r. cbn [plus].
  rewrite firstn_add. f_equal. lia.
Qed.

Lemma epoch_complete files b k : (1 <= b)%Z -> steps_run (IZR (zlen files) / IZR b) k -> concat (batches files b k) = files.
Proof.
  intros Hb [H1 _]. rewrite batches_concat. apply firstn_all2.
  assert (Pb : 0 < IZR b) by (apply IZR_lt; lia).
  assert (H : IZR (zlen files) <= INR k * IZR b).
  { apply Rge_le in H1. apply (Rmult_le_compat_r (IZR b)) in H1; [|lra].
    replace (IZR (zlen files) / IZR b * IZR b) with (IZR (zlen files)) in H1 by (field; lra). exact H1. }
  rewrite INR_IZR_INZ, <- mult_IZR in H. apply le_IZR in H. unfold zlen in H. nia.
Qed.

Lemma steps_exist s : 0 <= s -> exists k, steps_run s k.
Proof.
  intros Hs. destruct (archimed s) as [A B].
  destruct (Req_dec (IZR (up s) - 1) s) as [E|N].
  - exists (Z.to_nat (up s - 1)).
    assert (P : (0 <= up s - 1)%Z) by (apply le_IZR; rewrite minus_IZR; lra).
    split.
    + rewrite INR_IZR_INZ, Z2Nat.id, minus_IZR by exact P. lra.
    + intros j Hj. rewrite INR_IZR_INZ. rewrite <- E, <- minus_IZR. apply IZR_lt. lia.
  - exists (Z.to_nat (up s)).
    assert (P : (0 <= up s)%Z) by (apply le_IZR; lra).
    split.
    + rewrite INR_IZR_INZ, Z2Nat.id by exact P. lra.
    + intros j Hj. rewrite INR_IZR_INZ.
      assert (IZR (Z.of_nat j) <= IZR (up s - 1)) by (apply IZR_le; lia). rewrite minus_IZR in *. lra.
Qed.

(* ------------------------------ the head --------------------------- *)

Lemma exp_total_pos v : v <> [] -> 0 < total (map exp v).
Proof.
  destruct v as [|a v]; [congruence|]. intros _. cbn. pose proof (exp_pos a).
  assert (0 <= total (map exp v)).
  { clear. induction v as [|b v IH]; cbn; [lra|]. pose proof (exp_pos b). unfold total in IH. lra. }
  unfold total in *. lra.
Qed.

Lemma softmax_total v : v <> [] -> total (softmax v) = 1.
Proof.
  intros Hv. pose proof (exp_total_pos v Hv) as P. unfold softmax. fold (total (map exp v)).
  set (s := total (map exp v)) in *.
  assert (H : forall w, total (map (fun x => exp x / s) w) = total (map exp w) / s).
  { clear Hv. induction w as [|a w IH]; cbn.
    - unfold Rdiv. rewrite Rmult_0_l. reflexivity.
    - unfold total in IH. rewrite IH. field. lra. }
  rewrite H. fold s. field. lra.
Qed.

Lemma softmax_range v x : In x (softmax v) -> 0 < x <= 1.
Proof.
  intros H. assert (Hv : v <> []) by (intros ->; destruct H).
  pose proof (exp_total_pos v Hv) as P. unfold softmax in H. fold (total (map exp v)) in H.
  apply in_map_iff in H. destruct H as (a & <- & Ha).
  pose proof (exp_pos a) as Pa. split; [apply Rdiv_lt_0_compat; assumption|].
  assert (exp a <= total (map exp v)).
  { clear - Ha. induction v as [|b v IH]; [destruct Ha|]. cbn. pose proof (exp_pos b).
    assert (0 <= total (map exp v)).
    { clear. induction v as [|c v IH]; cbn; [lra|]. pose proof (exp_pos c). unfold total in IH. lra. }
    destruct Ha as [->|Ha]; unfold total in *; [lra|]. specialize (IH Ha). lra. }
  apply (Rmult_le_reg_r (total (map exp v))); [exact P|]. unfold Rdiv. rewrite Rmult_assoc, Rinv_l, Rmult_1_r by lra. lra.
Qed.

Lemma total_perm l m : Permutation l m -> total l = total m.
Proof. induction 1; cbn; unfold total in *; lra. Qed.

Lemma head_perm hidden final c c' : Permutation (concat c) (concat c') ->
  final_dense_softmax hidden final (Map c) = final_dense_softmax hidden final (Map c').
Proof.
  intros P. unfold final_dense_softmax, global_average, dense_apply. cbn [bind]. f_equal. f_equal. f_equal.
  apply map_ext. intros k.
  assert (Q : Permutation (concat (map (map (dense_vec hidden)) c)) (concat (map (map (dense_vec hidden)) c'))).
  { rewrite <- !concat_map. apply Permutation_map. exact P. }
  rewrite (Permutation_length Q). f_equal. apply total_perm, Permutation_map, Q.
Qed.

Lemma dot_bigsum a b : length a = length b -> dot a b = bigsum (length a) (fun i => nth i a 0 * nth i b 0).
Proof.
  revert b. unfold dot. induction a as [|x a IH]; intros [|y b] H; try discriminate; [reflexivity|].
  cbn [map2 fold_right length]. rewrite IH by (cbn in H; lia). unfold bigsum. cbn [seq map rsum fold_right nth].
  rewrite <- seq_shift, map_map. reflexivity.
Qed.

Lemma unit_dot wb v : length (fst wb) = length v -> dot (fst wb) v + snd wb = unit_value wb (fun i => nth i v 0).
Proof. intros H. unfold unit_value. rewrite dot_bigsum by exact H. reflexivity. Qed.

Lemma unit_value_ext wb x y : (forall i, (i < length (fst wb))%nat -> x i = y i) -> unit_value wb x = unit_value wb y.
Proof. intros H. unfold unit_value. f_equal. apply bigsum_ext. intros i Hi. rewrite H by exact Hi. reflexivity. Qed.

Lemma total_plus {A} (f g : A -> R) l : total (map (fun x => f x + g x) l) = total (map f l) + total (map g l).
Proof. unfold total. induction l as [|x l IH]; cbn [map fold_right]; [lra|]. rewrite IH. lra. Qed.
Lemma total_const {A} c (l : list A) : total (map (fun _ => c) l) = INR (length l) * c.
Proof. unfold total. induction l as [|x l IH]; [cbn; lra|]. cbn [map fold_right length]. rewrite IH, S_INR. lra. Qed.
Lemma total_bigsum {A} n (f : nat -> A -> R) (l : list A) : total (map (fun x => bigsum n (fun i => f i x)) l) = bigsum n (fun i => total (map (f i) l)).
Proof.
  induction n as [|n IH]; [rewrite bigsum_0; change (total (map (fun _ : A => 0) l) = 0); rewrite total_const; lra|].
  rewrite bigsum_S, <- IH, <- total_plus. f_equal. apply map_ext. intros x. apply bigsum_S.
Qed.
Lemma total_scal {A} c (f : A -> R) l : total (map (fun x => c * f x) l) = c * total (map f l).
Proof. unfold total. induction l as [|x l IH]; cbn [map fold_right]; [lra|]. rewrite IH. lra. Qed.

(** The mean of a linear unit is the unit of the means *)
Lemma unit_mean wb features n : concat features <> [] -> Forall (fun p => length p = n) (concat features) -> length (fst wb) = n ->
  total (map (fun p => dot (fst wb) p + snd wb) (concat features)) / INR (length (concat features)) = unit_value wb (mean_feature features).
Proof.
  intros Hne HF Hl. unfold mean_feature. set (px := concat features) in *.
  assert (N : INR (length px) <> 0) by (apply not_0_INR; destruct px; [congruence|discriminate]).
  rewrite (map_ext_in _ (fun p => bigsum n (fun i => nth i (fst wb) 0 * nth i p 0) + snd wb)).
  2:{ intros p Hp. rewrite Forall_forall in HF. rewrite dot_bigsum by (rewrite (HF p Hp); exact Hl). rewrite Hl. reflexivity. }
  rewrite total_plus, total_const, total_bigsum. unfold unit_value. rewrite Hl.
  rewrite (bigsum_ext n (fun i => total (map (fun p => nth i (fst wb) 0 * nth i p 0) px)) (fun i => nth i (fst wb) 0 * total (map (fun p => nth i p 0) px)))
    by (intros i _; apply total_scal).
  unfold Rdiv. rewrite Rmult_plus_distr_r. f_equal.
  - rewrite <- bigsum_scal_r. apply bigsum_ext. intros i _. ring.
  - field. exact N.
Qed.

Lemma nth_map_in {A B} (f : A -> B) l k d d' : (k < length l)%nat -> nth k (map f l) d = f (nth k l d').
Proof. intros H. rewrite (nth_indep _ d (f d')) by (rewrite map_length; exact H). apply map_nth. Qed.

Lemma head_scores hidden final features n : concat features <> [] -> Forall (fun p => length p = n) (concat features) ->
  Forall (fun wb => length (fst wb) = n) hidden -> Forall (fun wb => length (fst wb) = length hidden) final ->
  final_dense_softmax hidden final (Map features) =
  Ok (map (fun wb => exp (unit_value wb (fun k => unit_value (nth k hidden ([], 0)) (mean_feature features))) /
        total (map (fun wb => exp (unit_value wb (fun k => unit_value (nth k hidden ([], 0)) (mean_feature features)))) final)) final).
Proof.
  intros Hne HF HH HO. unfold final_dense_softmax, dense_apply, global_average. cbn [bind].
  set (x := map _ (seq 0 (length hidden))).
  assert (X : forall k, (k < length hidden)%nat -> nth k x 0 = unit_value (nth k hidden ([], 0)) (mean_feature features)).
  { intros k Hk. unfold x. rewrite (nth_map_in _ _ k 0 0%nat) by (rewrite seq_length; exact Hk).
    rewrite seq_nth by exact Hk. cbn [plus].
    rewrite <- (unit_mean _ features n Hne HF) by (rewrite Forall_forall in HH; apply HH, nth_In; exact Hk).
    rewrite <- concat_map, map_length, map_map. unfold total. f_equal. f_equal. apply map_ext. intros p. unfold dense_vec.
    rewrite (nth_map_in _ _ k 0 ([], 0)) by exact Hk. reflexivity. }
  assert (E : dense_vec final x = map (fun wb => unit_value wb (fun k => unit_value (nth k hidden ([], 0)) (mean_feature features))) final).
  { unfold dense_vec. apply map_ext_in. intros wb Hwb. rewrite Forall_forall in HO. specialize (HO wb Hwb).
    rewrite unit_dot by (unfold x; rewrite map_length, seq_length; exact HO). apply unit_value_ext. intros i Hi. apply X. lia. }
  rewrite E. unfold softmax. fold (total (map exp (map (fun wb => unit_value wb (fun k => unit_value (nth k hidden ([], 0)) (mean_feature features))) final))).
  rewrite !map_map. reflexivity.
Qed.
