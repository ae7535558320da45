(** Properties C81-C83: scoring an image chip by chip, training, the classification head. *)
From Coq Require Import Sorting.Sorted Permutation.
From Verif Require Import RAux Text Arr M_Scoring Spec_Scoring Spec_Chipper Spec_TextFiles P_Scoring.
Open Scope R_scope.
Open Scope list_scope.

(* ============================== C81 =============================== *)

(** With a ledger, more than one chip and more than one class: row i of the returned matrix is
    what the model says of the part of the image at corner i, resized and normalised, without
    its alpha channel; the corners are in row-major order and the parts cover the image. *)
Theorem C81_scores_by_corner : forall imresize predict img chip_x chip_y tx ty ox oy method k,
  cube_wf img -> (1 <= chip_y <= Z.of_nat (c_ny img))%Z -> (1 <= chip_x <= Z.of_nat (c_nx img))%Z ->
  0 <= ox < 1 -> 0 <= oy < 1 -> resizes imresize ty tx -> classifies predict k -> k <> 1%nat ->
  (chip_y < Z.of_nat (c_ny img) \/ chip_x < Z.of_nat (c_nx img))%Z ->
  exists rows uls status,
    chip_and_score_image imresize predict img false chip_x chip_y tx ty ox oy method None None true
      = Ok (matrix rows, uls, status) /\
    length rows = length uls /\ Forall (fun r => length r = k) rows /\
    covers img chip_y chip_x uls /\ StronglySorted row_major_lt uls /\
    forall i y x row, nth_error uls i = Some (y, x) -> nth_error rows i = Some row ->
      scores_of_part imresize predict img chip_x chip_y tx ty method y x row.
Proof.
  intros imresize predict img chip_x chip_y tx ty ox oy method k W Hy Hx Hox Hoy HR HP Hk Hm.
  destruct (scoring_run imresize predict img chip_x chip_y tx ty ox oy method k W Hy Hx Hox Hoy HR HP)
    as (uls & rows & E & _ & L & F & C & S1 & Q & [(E1 & E2 & _)|[_ L2]]); [lia|].
  exists rows, uls, (map (fun j => INR j / INR (length uls) * 100) (seq 0 (length uls))).
  split; [|auto]. rewrite E. cbn [bind]. rewrite (squeeze_many rows k F Hk) by lia. reflexivity.
Qed.
Print Assumptions C81_scores_by_corner.

(** With the labels and a thing to find, element i of the returned vector is the score of the
    class at the first position of that label, for the part of the image at corner i. *)
Theorem C81_class_scores : forall imresize predict img chip_x chip_y tx ty ox oy method k labels thing j,
  cube_wf img -> (1 <= chip_y <= Z.of_nat (c_ny img))%Z -> (1 <= chip_x <= Z.of_nat (c_nx img))%Z ->
  0 <= ox < 1 -> 0 <= oy < 1 -> resizes imresize ty tx -> classifies predict k -> k <> 1%nat ->
  (chip_y < Z.of_nat (c_ny img) \/ chip_x < Z.of_nat (c_nx img))%Z ->
  first_position labels thing j -> (j < k)%nat ->
  exists found uls status,
    chip_and_score_image imresize predict img false chip_x chip_y tx ty ox oy method (Some labels) (Some thing) true
      = Ok (vector found, uls, status) /\
    length found = length uls /\ covers img chip_y chip_x uls /\ StronglySorted row_major_lt uls /\
    forall i y x s, nth_error uls i = Some (y, x) -> nth_error found i = Some s ->
      exists row, scores_of_part imresize predict img chip_x chip_y tx ty method y x row /\ nth_error row j = Some s.
Proof.
  intros imresize predict img chip_x chip_y tx ty ox oy method k labels thing j W Hy Hx Hox Hoy HR HP Hk Hm [J1 J2] Hj.
  destruct (scoring_run imresize predict img chip_x chip_y tx ty ox oy method k W Hy Hx Hox Hoy HR HP)
    as (uls & rows & E & _ & L & F & C & S1 & Q & [(E1 & E2 & _)|[_ L2]]); [lia|].
  assert (Ne : rows <> []) by (intros ->; cbn in L; lia).
  destruct (column_ok rows k j F Ne Hj) as (col & Ec & Fc).
  exists col, uls, (map (fun j => INR j / INR (length uls) * 100) (seq 0 (length uls))).
  split; [|split; [rewrite <- L; symmetry; exact (Py.Forall2_length _ _ _ Fc)|split; [exact C|split; [exact S1|]]]].
  - rewrite E. rewrite (squeeze_many rows k F Hk) by lia.
    destruct (index_spec labels thing) as [(j' & Ej & P1 & P2)|[_ N]].
    + assert (j' = j).
      { destruct (Nat.lt_trichotomy j' j) as [H|[H|H]]; [|exact H|]; exfalso; [apply (J2 j' H)|apply (P2 j H)]; assumption. }
      subst j'. rewrite Ej. cbn [bind]. rewrite Ec. reflexivity.
    + exfalso. apply N. eapply nth_error_In. exact J1.
  - intros i y x s Hu Hs.
    destruct (nth_error rows i) as [row|] eqn:Hr.
    2:{ exfalso. apply nth_error_None in Hr. assert (i < length uls)%nat by (apply nth_error_Some; congruence). lia. }
    exists row. split; [eapply Q; eassumption|].
    clear - Fc Hr Hs. revert i Hr Hs. induction Fc as [|r v rs vs H Fc IH]; intros [|i] Hr Hs; cbn in *; try discriminate.
    + injection Hr as <-. injection Hs as <-. exact H.
    + eapply IH; eassumption.
Qed.
Print Assumptions C81_class_scores.

(** A chip of the size of the image: there is one chip, at (0, 0); its scores come back as a
    flat vector and a class cannot be selected (IndexError). *)
Theorem C81_one_chip : forall imresize predict img tx ty ox oy method k,
  cube_wf img -> (1 <= c_ny img)%nat -> (1 <= c_nx img)%nat ->
  0 <= ox < 1 -> 0 <= oy < 1 -> resizes imresize ty tx -> classifies predict k -> k <> 1%nat ->
  let chip_x := Z.of_nat (c_nx img) in let chip_y := Z.of_nat (c_ny img) in
  (exists row, chip_and_score_image imresize predict img false chip_x chip_y tx ty ox oy method None None true
      = Ok (vector row, [(0, 0)%Z], [0]) /\
      scores_of_part imresize predict img chip_x chip_y tx ty method 0 0 row) /\
  forall labels thing, In thing labels ->
    chip_and_score_image imresize predict img false chip_x chip_y tx ty ox oy method (Some labels) (Some thing) true
      = Err IndexError.
Proof.
  intros imresize predict img tx ty ox oy method k W Hy Hx Hox Hoy HR HP Hk chip_x chip_y.
  destruct (scoring_run imresize predict img chip_x chip_y tx ty ox oy method k W ltac:(lia) ltac:(lia) Hox Hoy HR HP)
    as (uls & rows & E & _ & L & F & C & S1 & Q & [(_ & _ & ->)|[H _]]); [|lia].
  destruct rows as [|row [|? ?]]; try (cbn in L; lia). inversion F as [|? ? Fr _]; subst.
  pose proof (squeeze_one_chip row Hk) as Sq. split.
  - exists row. split; [|apply (Q 0%nat); reflexivity]. rewrite E, Sq. cbn [bind length seq map].
    repeat f_equal. cbn. lra.
  - intros labels thing Hin. rewrite E, Sq.
    destruct (index_spec labels thing) as [(j' & Ej & _)|[_ N]]; [|contradiction].
    rewrite Ej. cbn [bind]. rewrite column_vector. reflexivity.
Qed.
Print Assumptions C81_one_chip.

(** A model with one output: the scores come back as a flat vector, one per chip, and a class
    cannot be selected. *)
Theorem C81_one_class : forall imresize predict img chip_x chip_y tx ty ox oy method,
  cube_wf img -> (1 <= chip_y <= Z.of_nat (c_ny img))%Z -> (1 <= chip_x <= Z.of_nat (c_nx img))%Z ->
  0 <= ox < 1 -> 0 <= oy < 1 -> resizes imresize ty tx -> classifies predict 1 ->
  (chip_y < Z.of_nat (c_ny img) \/ chip_x < Z.of_nat (c_nx img))%Z ->
  (exists found uls status,
     chip_and_score_image imresize predict img false chip_x chip_y tx ty ox oy method None None true
       = Ok (vector found, uls, status) /\ length found = length uls /\
     forall i y x s, nth_error uls i = Some (y, x) -> nth_error found i = Some s ->
       scores_of_part imresize predict img chip_x chip_y tx ty method y x [s]) /\
  forall labels thing, In thing labels ->
    chip_and_score_image imresize predict img false chip_x chip_y tx ty ox oy method (Some labels) (Some thing) true
      = Err IndexError.
Proof.
  intros imresize predict img chip_x chip_y tx ty ox oy method W Hy Hx Hox Hoy HR HP Hm.
  destruct (scoring_run imresize predict img chip_x chip_y tx ty ox oy method 1 W Hy Hx Hox Hoy HR HP)
    as (uls & rows & E & _ & L & F & C & S1 & Q & [(E1 & E2 & _)|[_ L2]]); [lia|].
  destruct (rows_of_one rows F) as [vs ->]. rewrite map_length in L.
  pose proof (squeeze_one_class vs ltac:(lia)) as Sq. split.
  - exists vs, uls, (map (fun j => INR j / INR (length uls) * 100) (seq 0 (length uls))).
    split; [rewrite E, Sq; reflexivity|]. split; [exact L|].
    intros i y x s Hu Hs. eapply Q; [exact Hu|]. rewrite nth_error_map, Hs. reflexivity.
  - intros labels thing Hin. rewrite E, Sq.
    destruct (index_spec labels thing) as [(j' & Ej & _)|[_ N]]; [|contradiction].
    rewrite Ej. cbn [bind]. rewrite column_vector. reflexivity.
Qed.
Print Assumptions C81_one_class.

(** The ledger is told, for chip i of n, the percentage 100 i / n: never 100. *)
Theorem C81_progress : forall imresize predict img chip_x chip_y tx ty ox oy method k labels thing a uls status,
  cube_wf img -> (1 <= chip_y <= Z.of_nat (c_ny img))%Z -> (1 <= chip_x <= Z.of_nat (c_nx img))%Z ->
  0 <= ox < 1 -> 0 <= oy < 1 -> resizes imresize ty tx -> classifies predict k ->
  chip_and_score_image imresize predict img false chip_x chip_y tx ty ox oy method labels thing true = Ok (a, uls, status) ->
  length status = length uls /\
  forall i s, nth_error status i = Some s -> s = 100 * INR i / INR (length uls) /\ 0 <= s < 100.
Proof.
  intros imresize predict img chip_x chip_y tx ty ox oy method k labels thing a uls status W Hy Hx Hox Hoy HR HP H.
  destruct (scoring_run imresize predict img chip_x chip_y tx ty ox oy method k W Hy Hx Hox Hoy HR HP)
    as (uls' & rows & E & _). rewrite E in H.
  destruct (match labels with Some lb => match thing with Some t => _ | None => _ end | None => _ end) as [sc| |] in H;
    cbn [bind] in H; try discriminate.
  injection H as _ <- <-. split; [rewrite map_length, seq_length; reflexivity|].
  intros i s Hs. rewrite nth_error_map, seq_nth_error in Hs.
  destruct (Nat.ltb_spec i (length uls')) as [Hi|Hi]; [|discriminate]. injection Hs as <-.
  assert (Pn : 0 < INR (length uls')) by (apply lt_0_INR; lia).
  pose proof (pos_INR i) as P0. pose proof (lt_INR _ _ Hi) as P1.
  assert (Q0 : 0 <= INR i / INR (length uls')).
  { apply Rmult_le_pos; [exact P0|]. left. apply Rinv_0_lt_compat. exact Pn. }
  assert (Q1 : INR i / INR (length uls') < 1).
  { apply (Rmult_lt_reg_r (INR (length uls'))); [exact Pn|]. unfold Rdiv.
    rewrite Rmult_assoc, Rinv_l, Rmult_1_r by lra. lra. }
  split; [field; lra|lra].
Qed.
Print Assumptions C81_progress.

(** Without a ledger (the default) every call fails once the first chip is scored. *)
Theorem C81_no_ledger_refuted : forall imresize predict img chip_x chip_y tx ty ox oy method k labels thing,
  cube_wf img -> (1 <= chip_y <= Z.of_nat (c_ny img))%Z -> (1 <= chip_x <= Z.of_nat (c_nx img))%Z ->
  0 <= ox < 1 -> 0 <= oy < 1 -> resizes imresize ty tx -> classifies predict k ->
  chip_and_score_image imresize predict img false chip_x chip_y tx ty ox oy method labels thing false = Err AttributeError.
Proof.
  intros imresize predict img chip_x chip_y tx ty ox oy method k labels thing W Hy Hx Hox Hoy HR HP.
  destruct (scoring_run imresize predict img chip_x chip_y tx ty ox oy method k W Hy Hx Hox Hoy HR HP)
    as (uls & rows & _ & E & _). apply E.
Qed.
Print Assumptions C81_no_ledger_refuted.

(** An unknown label raises ValueError; a label past the model's classes IndexError; an image
    without channel axis IndexError. *)
Theorem C81_errors : forall imresize predict img chip_x chip_y tx ty ox oy method k labels thing,
  cube_wf img -> (1 <= chip_y <= Z.of_nat (c_ny img))%Z -> (1 <= chip_x <= Z.of_nat (c_nx img))%Z ->
  0 <= ox < 1 -> 0 <= oy < 1 -> resizes imresize ty tx -> classifies predict k -> k <> 1%nat ->
  (chip_y < Z.of_nat (c_ny img) \/ chip_x < Z.of_nat (c_nx img))%Z ->
  (~ In thing labels ->
   chip_and_score_image imresize predict img false chip_x chip_y tx ty ox oy method (Some labels) (Some thing) true
     = Err ValueError) /\
  (forall j, first_position labels thing j -> (k <= j)%nat ->
   chip_and_score_image imresize predict img false chip_x chip_y tx ty ox oy method (Some labels) (Some thing) true
     = Err IndexError) /\
  (forall ledger lb th,
   chip_and_score_image imresize predict img true chip_x chip_y tx ty ox oy method lb th ledger = Err IndexError).
Proof.
  intros imresize predict img chip_x chip_y tx ty ox oy method k labels thing W Hy Hx Hox Hoy HR HP Hk Hm.
  destruct (scoring_run imresize predict img chip_x chip_y tx ty ox oy method k W Hy Hx Hox Hoy HR HP)
    as (uls & rows & E & _ & L & F & C & S1 & Q & [(E1 & E2 & _)|[_ L2]]); [lia|].
  split; [|split].
  - intros N. rewrite E. destruct (index_spec labels thing) as [(j' & _ & P1 & _)|[-> _]]; [|reflexivity].
    exfalso. apply N. eapply nth_error_In; exact P1.
  - intros j [J1 J2] Hj. rewrite E, (squeeze_many rows k F Hk) by lia.
    destruct (index_spec labels thing) as [(j' & Ej & P1 & P2)|[_ N]].
    + assert (j' = j).
      { destruct (Nat.lt_trichotomy j' j) as [H|[H|H]]; [|exact H|]; exfalso; [apply (J2 j' H)|apply (P2 j H)]; assumption. }
      subst j'. rewrite Ej. cbn [bind]. rewrite (column_big rows k j F Hj). reflexivity.
    + exfalso. apply N. eapply nth_error_In. exact J1.
  - reflexivity.
Qed.
Print Assumptions C81_errors.

(** An overlap of the whole chip is refused; a larger one gives no chip and no score. *)
Theorem C81_overlap_too_large : forall imresize predict img chip_x chip_y tx ty ox method ledger,
  (1 <= chip_x)%Z -> (1 <= chip_y)%Z ->
  chip_and_score_image imresize predict img false chip_x chip_y tx ty ox 1 method None None ledger = Err ZeroDivisionError /\
  (0 <= ox < 1 ->
   chip_and_score_image imresize predict img false chip_x chip_y tx ty ox 2 method None None ledger = Ok (vector [], [], [])).
Proof.
  intros imresize predict img chip_x chip_y tx ty ox method ledger Hx Hy.
  assert (T : forall z, truncZ (IZR z) = z) by exact P_Scoring.trunc_IZR.
  split.
  - unfold chip_and_score_image, chip_entire_image_to_memory, axis_indices, arange0. rewrite Rmult_1_r, T, Z.sub_diag.
    reflexivity.
  - intros Ho. unfold chip_and_score_image, chip_entire_image_to_memory. cbv zeta.
    pose proof (overlap_range chip_x ox Hx Ho) as P.
    rewrite <- mult_IZR, T. unfold axis_indices at 1, arange0.
    replace (chip_y - chip_y * 2 =? 0)%Z with false by lia. replace (chip_y - chip_y * 2 <? 0)%Z with true by lia.
    cbn [bind where_set map sorted_set fold_right]. unfold axis_indices, arange0.
    replace (chip_x - truncZ (IZR chip_x * ox) =? 0)%Z with false by lia.
    replace (chip_x - truncZ (IZR chip_x * ox) <? 0)%Z with false by lia. cbn [bind].
    cbn [list_prod map]. unfold chip_images_by_pixel_upper_lefts.
    replace ((chip_y <? 0)%Z || (chip_x <? 0)%Z) with false by lia. cbn [clamp_axis where_set map combine mapM bind length].
    cbn [orb Nat.sub repeat app]. destruct (Nat.eqb _ 1); reflexivity.
Qed.
Print Assumptions C81_overlap_too_large.

(** The contracts are met by a resizer that keeps one pixel and a model with two classes, and a
    four-channel image is scored without its alpha channel. *)
Definition resize1 (ty tx : Z) (c : list (list (list Z))) : result (list (list (list R))) :=
  Ok [[[match at3 c 0 0 0 with Some v => IZR v | None => 0 end]]].
Definition predict2 (l : list (list (list (list flt)))) : result (list (list flt)) :=
  Ok (map (fun c => [match at3 c 0 0 0 with Some v => v | None => NonFinite end; Fin 1]) l).
Example C81_contracts : resizes resize1 1 1 /\ classifies predict2 2.
Proof.
  split; intros c; [|eexists; split; reflexivity]. eexists. split; [reflexivity|]. discriminate.
Qed.
Definition img24 : cube Z := mkCube 2 1 4 [[[51; 2; 3; 0]]; [[102; 6; 7; 1]]]%Z.
Example C81_ex : exists status,
  chip_and_score_image resize1 predict2 img24 false 1 1 1 1 0 0 (txt "divide_by_255")
    (Some [txt "car"; txt "tree"]) (Some (txt "car")) true
  = Ok (vector [Fin (51 / 255); Fin (102 / 255)], [(0, 0); (1, 0)]%Z, status).
Proof.
  unfold chip_and_score_image. rewrite Rmult_0_r.
  replace (truncZ 0) with 0%Z by (symmetry; exact (P_Scoring.trunc_IZR 0)). eexists. reflexivity.
Qed.

(* ============================== C82 =============================== *)

(** The labels file written by a training lists the classes by their number, so line i of the
    file is the class of model output i, whatever order the classes were found in. *)
Theorem C82_labels_file : forall (M T : Type) (build : M -> T -> M) exists_dir stamp base tg vg out final weights fname epochs loss metrics,
  numbered_in_order (g_indices tg) -> g_indices tg <> [] ->
  Forall (fun t => one_line t /\ t <> []) (map fst (g_indices tg)) ->
  exists content labels,
    In (WriteFile (M_TextFiles.path_join out (txt "labels.txt")) content)
       (fst (train_model build exists_dir stamp base tg vg out final weights fname epochs loss metrics)) /\
    read_text_list_from_file content = labels /\
    (forall c i, nth_error labels i = Some c <-> In (c, Z.of_nat i) (g_indices tg)) /\
    (forall c i, In (c, Z.of_nat i) (g_indices tg) -> first_position labels c i).
Proof.
  intros M T build exists_dir stamp base tg vg out final weights fname epochs loss metrics N Ne F.
  destruct (labels_file (map fst (g_indices tg))) as (content & E & Rd); [destruct (g_indices tg); [congruence|discriminate]|exact F|].
  pose proof (sorted_by_number _ N) as SB.
  exists content, (sorted_texts (map fst (g_indices tg))). split; [|split; [exact Rd|split; [exact SB|]]].
  - unfold train_model. rewrite E. cbv zeta.
    destruct (int_div (zlen (g_files tg)) (g_batch tg)); [destruct (int_div (zlen (g_files vg)) (g_batch vg))| |];
      cbn [fst]; rewrite !in_app_iff; cbn [In]; tauto.
  - intros c i Hi. split; [apply SB; exact Hi|]. intros j Hj E2. apply SB in Hi. 
    pose proof (Permutation_NoDup (Permutation_sym (sorted_perm _)) (proj1 N)) as ND.
    rewrite NoDup_nth_error in ND.
    assert (j = i).
    { apply ND; [|congruence]. apply nth_error_Some. congruence. }
    lia.
Qed.
Print Assumptions C82_labels_file.

(** Generators made from directories number the classes in order, so they satisfy the
    hypotheses; the two generators agree when the two directories have the same classes. *)
Theorem C82_generators : forall dirs training validation b,
  NoDup (fst (dirs training)) -> NoDup (fst (dirs validation)) ->
  let (tg, vg) := setup_train_and_val_image_generators dirs training validation b in
  numbered_in_order (g_indices tg) /\ numbered_in_order (g_indices vg) /\
  (forall c, In c (map fst (g_indices tg)) <-> In c (fst (dirs training))) /\
  (forall c, In c (map fst (g_indices vg)) <-> In c (fst (dirs validation))) /\
  g_files tg = snd (dirs training) /\ g_files vg = snd (dirs validation) /\ g_batch tg = b /\ g_batch vg = b /\
  ((forall c, In c (fst (dirs training)) <-> In c (fst (dirs validation))) ->
   forall c i, In (c, i) (g_indices tg) <-> In (c, i) (g_indices vg)).
Proof.
  intros dirs training validation b N1 N2. unfold setup_train_and_val_image_generators. cbn [g_indices].
  destruct (keras_numbered _ N1) as [A1 B1]. destruct (keras_numbered _ N2) as [A2 B2].
  split; [exact A1|]. split; [exact A2|]. split; [exact B1|]. split; [exact B2|]. do 4 (split; [reflexivity|]).
  intros E. apply numbering_unique; auto. intros c. rewrite B1, B2. apply E.
Qed.
Print Assumptions C82_generators.

(** When a class is missing from the validation directory the later classes are validated
    against the wrong outputs. *)
Theorem C82_missing_class_refuted : exists dirs training validation b c i j,
  NoDup (fst (dirs training)) /\ NoDup (fst (dirs validation)) /\
  let (tg, vg) := setup_train_and_val_image_generators dirs training validation b in
  In (c, i) (g_indices tg) /\ In (c, j) (g_indices vg) /\ i <> j.
Proof.
  exists (fun d => if text_eqb d (txt "t") then ([txt "car"; txt "tree"], []) else ([txt "tree"], [])), (txt "t"), (txt "v"), 1%Z,
         (txt "tree"), 1%Z, 0%Z.
  split; [|split; [repeat constructor; intros []|]].
  - constructor; [|repeat constructor; intros []]. intros [H|[]]. discriminate.
  - cbn. split; [right; left; reflexivity|]. split; [left; reflexivity|discriminate].
Qed.
Print Assumptions C82_missing_class_refuted.

(** The file does not follow a numbering that is not the sorted one. *)
Theorem C82_other_numbering_refuted : exists tg : generator,
  NoDup (map fst (g_indices tg)) /\
  forall (M T : Type) (build : M -> T -> M) exists_dir stamp base vg out final weights fname epochs loss metrics content,
    In (WriteFile (M_TextFiles.path_join out (txt "labels.txt")) content)
       (fst (train_model build exists_dir stamp base tg vg out final weights fname epochs loss metrics)) ->
    exists c i, In (c, Z.of_nat i) (g_indices tg) /\ nth_error (read_text_list_from_file content) i <> Some c.
Proof.
  exists (mkGen [(txt "tree", 0%Z); (txt "car", 1%Z)] [] 1). split.
  - constructor; [|repeat constructor; intros []]. intros [H|[]]. discriminate.
  - intros M T build exists_dir stamp base vg out final weights fname epochs loss metrics content H.
    exists (txt "tree"), 0%nat. split; [left; reflexivity|].
    assert (E : content = txt "car" ++ [ch_nl] ++ txt "tree").
    { unfold train_model in H.
      change (write_text_list_to_file None _) with (Some (txt "car" ++ [ch_nl] ++ txt "tree"), @Ok unit tt) in H.
      cbv zeta in H.
      destruct (int_div (zlen (g_files vg)) (g_batch vg)); destruct weights; destruct (exists_dir _);
        cbn in H; repeat (destruct H as [H|H]; [try discriminate H; injection H as <-; reflexivity|]); destruct H. }
    subst content. discriminate.
Qed.
Print Assumptions C82_other_numbering_refuted.

(** A training that returns: the last step is the fit, of the base model or of the model built
    with the final layers, with the checkpoint file in the output directory; the weights are
    loaded before the model is compiled, and only when a file is given. *)
Theorem C82_training_steps : forall (M T : Type) (build : M -> T -> M) exists_dir stamp base tg vg out final weights fname epochs loss metrics,
  g_indices tg <> [] -> g_batch tg <> 0%Z -> g_batch vg <> 0%Z ->
  exists front a b,
    train_model build exists_dir stamp base tg vg out final weights fname epochs loss metrics
      = (front ++ [Compile loss metrics;
           Fit (match final with None => base | Some f => build base f end) a epochs b (M_TextFiles.path_join out fname)], Ok tt) /\
    (forall w, In (LoadWeights w) front <-> weights = Some w) /\
    (forall m x y z t, ~ In (Fit m x y z t) front) /\ (forall l m, ~ In (Compile l m) front) /\
    (forall d, In (MakeDirs d) front <->
       d = M_TextFiles.path_join (M_TextFiles.path_join out (txt "logs")) stamp /\ exists_dir d = false) /\
    (forall k, (1 <= g_batch tg)%Z -> steps_run a k -> concat (batches (g_files tg) (g_batch tg) k) = g_files tg) /\
    (forall k, (1 <= g_batch vg)%Z -> steps_run b k -> concat (batches (g_files vg) (g_batch vg) k) = g_files vg).
Proof.
  intros M T build exists_dir stamp base tg vg out final weights fname epochs loss metrics Ne B1 B2.
  assert (W : exists content, write_text_list_to_file None (sorted_texts (map fst (g_indices tg))) = (Some content, Ok tt)).
  { assert (Ns : sorted_texts (map fst (g_indices tg)) <> []).
    { intros E. pose proof (Permutation_length (sorted_perm (map fst (g_indices tg)))) as L. rewrite E, map_length in L.
      destruct (g_indices tg); [congruence|discriminate]. }
    destruct (exists_last Ns) as (m & z & E). rewrite E. eexists. apply P_TextFiles.write_snoc. }
  destruct W as [content W].
  unfold train_model. rewrite W. cbv zeta. unfold int_div.
  replace (g_batch tg =? 0)%Z with false by lia. replace (g_batch vg =? 0)%Z with false by lia.
  eexists. exists (IZR (zlen (g_files tg)) / IZR (g_batch tg)), (IZR (zlen (g_files vg)) / IZR (g_batch vg)).
  split.
  { f_equal. rewrite <- app_assoc. reflexivity. }
  split; [|split; [|split; [|split; [|split; [intros k Hb Hk; exact (epoch_complete _ _ _ Hb Hk)|intros k Hb Hk; exact (epoch_complete _ _ _ Hb Hk)]]]]].
  - intros w. rewrite !in_app_iff. destruct (exists_dir _); destruct weights as [w'|]; cbn [In]; split; intros H;
      try discriminate H; try (injection H as ->; tauto); exfalso + idtac;
      intuition (try discriminate); match goal with K : LoadWeights _ = LoadWeights _ |- _ => injection K as -> end; reflexivity.
  - intros m x y z t H. destruct (exists_dir _); destruct weights as [w'|]; cbn in H;
      repeat (destruct H as [H|H]); try discriminate; destruct H.
  - intros l m H. destruct (exists_dir _); destruct weights as [w'|]; cbn in H;
      repeat (destruct H as [H|H]); try discriminate; destruct H.
  - intros d. destruct (exists_dir (M_TextFiles.path_join (M_TextFiles.path_join out (txt "logs")) stamp)) eqn:Ed;
      rewrite !in_app_iff; destruct weights as [w'|]; cbn [In]; split; intros H;
      try (destruct H as [-> H]; try congruence; tauto);
      intuition (try discriminate); match goal with K : MakeDirs _ = MakeDirs _ |- _ => injection K as <- end; auto.
Qed.
Print Assumptions C82_training_steps.

(** Without classes nothing is written, compiled or trained (IndexError); a batch size of zero
    raises ZeroDivisionError before the fit. *)
Theorem C82_training_errors : forall (M T : Type) (build : M -> T -> M) exists_dir stamp base tg vg out final weights fname epochs loss metrics,
  let run := train_model build exists_dir stamp base tg vg out final weights fname epochs loss metrics in
  (g_indices tg = [] -> snd run = Err IndexError /\ forall s, In s (fst run) -> exists d, s = MakeDirs d) /\
  (g_indices tg <> [] -> g_batch tg = 0%Z \/ g_batch vg = 0%Z ->
   snd run = Err ZeroDivisionError /\ forall m x y z t, ~ In (Fit m x y z t) (fst run)).
Proof.
  intros M T build exists_dir stamp base tg vg out final weights fname epochs loss metrics run. subst run. split.
  - intros E. unfold train_model. rewrite E. cbn. split; [reflexivity|]. intros s Hs. destruct (exists_dir _); [destruct Hs|].
    destruct Hs as [<-|[]]. eexists. reflexivity.
  - intros Ne Hb.
    assert (W : exists content, write_text_list_to_file None (sorted_texts (map fst (g_indices tg))) = (Some content, Ok tt)).
    { assert (Ns : sorted_texts (map fst (g_indices tg)) <> []).
      { intros E. pose proof (Permutation_length (sorted_perm (map fst (g_indices tg)))) as L. rewrite E, map_length in L.
        destruct (g_indices tg); [congruence|discriminate]. }
      destruct (exists_last Ns) as (m & z & E). rewrite E. eexists. apply P_TextFiles.write_snoc. }
    destruct W as [content W]. unfold train_model. rewrite W. cbv zeta. unfold int_div.
    assert (NF : forall m x y z t, ~ In (Fit m x y z t)
       ((((if exists_dir (M_TextFiles.path_join (M_TextFiles.path_join out (txt "logs")) stamp) then []
           else [MakeDirs (M_TextFiles.path_join (M_TextFiles.path_join out (txt "logs")) stamp)]) ++
          [WriteFile (M_TextFiles.path_join out (txt "labels.txt")) content]) ++
         match weights with Some w => [LoadWeights w] | None => [] end) ++ [Compile loss metrics] : list (step M))).
    { intros m x y z t H. destruct (exists_dir _); destruct weights as [w'|]; cbn in H;
      repeat (destruct H as [H|H]); try discriminate; destruct H. }
    destruct (Z.eqb_spec (g_batch tg) 0) as [E1|E1]; [split; [reflexivity|exact NF]|].
    destruct (Z.eqb_spec (g_batch vg) 0) as [E2|E2]; [split; [reflexivity|exact NF]|].
    destruct Hb; contradiction.
Qed.
Print Assumptions C82_training_errors.

(** A run of steps exists for every number of steps; three files in batches of two take two. *)
Example C82_steps : (forall s, 0 <= s -> exists k, steps_run s k) /\ steps_run (3 / 2) 2 /\
  batches [txt "a"; txt "b"; txt "c"] 2 2 = [[txt "a"; txt "b"]; [txt "c"]].
Proof.
  split; [exact steps_exist|]. split; [|reflexivity]. split; [cbn; lra|]. intros [|[|j]] Hj; cbn; [lra|lra|lia].
Qed.
Example C82_ex : numbered_in_order (keras_class_indices [txt "tree"; txt "car"; txt "Road"]) /\
  keras_class_indices [txt "tree"; txt "car"; txt "Road"] = [(txt "Road", 0%Z); (txt "car", 1%Z); (txt "tree", 2%Z)].
Proof.
  split; [|reflexivity]. apply keras_numbered.
  constructor; [intros [H|[H|[]]]; discriminate|]. constructor; [intros [H|[]]; discriminate|]. repeat constructor; intros [].
Qed.

(* ============================== C83 =============================== *)

(** The head gives one score per class; the scores are positive, at most one and sum to one. *)
Theorem C83_probabilities : forall hidden final features, final <> [] ->
  exists scores, final_dense_softmax hidden final (Map features) = Ok scores /\
    length scores = length final /\ total scores = 1 /\ Forall (fun s => 0 < s <= 1) scores.
Proof.
  intros hidden final features Ne. unfold final_dense_softmax, dense_apply, global_average. cbn [bind].
  eexists. split; [reflexivity|]. split; [|split].
  - unfold softmax, dense_vec. rewrite !map_length. reflexivity.
  - apply softmax_total. unfold dense_vec. destruct final; [congruence|discriminate].
  - apply Forall_forall. intros x Hx. eapply softmax_range. exact Hx.
Qed.
Print Assumptions C83_probabilities.

(** The scores are the softmax of the final units, which see the hidden units of the mean
    features: averaging after the hidden layer is averaging before it. *)
Theorem C83_scores : forall hidden final features n, concat features <> [] ->
  Forall (fun p => length p = n) (concat features) ->
  Forall (fun wb => length (fst wb) = n) hidden -> Forall (fun wb => length (fst wb) = length hidden) final ->
  let activation wb := unit_value wb (fun k => unit_value (nth k hidden ([], 0)) (mean_feature features)) in
  final_dense_softmax hidden final (Map features) =
  Ok (map (fun wb => exp (activation wb) / total (map (fun wb => exp (activation wb)) final)) final).
Proof. exact head_scores. Qed.
Print Assumptions C83_scores.

(** Where in the feature map a feature lies does not matter. *)
Theorem C83_position_independent : forall hidden final c c', Permutation (concat c) (concat c') ->
  final_dense_softmax hidden final (Map c) = final_dense_softmax hidden final (Map c').
Proof. exact head_perm. Qed.
Print Assumptions C83_position_independent.

(** A class with a larger activation has a larger score. *)
Theorem C83_order_kept : forall v i j a b, nth_error v i = Some a -> nth_error v j = Some b -> a < b ->
  exists p q, nth_error (softmax v) i = Some p /\ nth_error (softmax v) j = Some q /\ p < q.
Proof.
  intros v i j a b Hi Hj L. assert (Hv : v <> []) by (intros ->; destruct i; discriminate).
  pose proof (exp_total_pos v Hv) as P. unfold softmax. fold (total (map exp v)).
  rewrite !nth_error_map, Hi, Hj. cbn. eexists. eexists. split; [reflexivity|]. split; [reflexivity|].
  apply Rmult_lt_compat_r; [apply Rinv_0_lt_compat; exact P|]. apply exp_increasing. exact L.
Qed.
Print Assumptions C83_order_kept.

(** On a base model that already ends in a vector (a model loaded with its top, the default of
    the loading functions) the head cannot be built. *)
Theorem C83_needs_feature_map_refuted : forall hidden final v,
  final_dense_softmax hidden final (Vec v) = Err ValueError.
Proof. reflexivity. Qed.
Print Assumptions C83_needs_feature_map_refuted.

(** Freezing and unfreezing change the trainable flag of every layer and nothing else. *)
Theorem C83_freeze : forall ls,
  Forall (fun l => l_trainable l = false) (freeze_model_layers ls) /\
  Forall (fun l => l_trainable l = true) (unfreeze_model_layers ls) /\
  Forall2 (fun a b => l_name a = l_name b /\ l_weights a = l_weights b) ls (freeze_model_layers ls) /\
  Forall2 (fun a b => l_name a = l_name b /\ l_weights a = l_weights b) ls (unfreeze_model_layers ls).
Proof.
  intros ls. unfold freeze_model_layers, unfreeze_model_layers.
  induction ls as [|l ls (A & B & C & D)]; cbn; [repeat constructor|]. repeat split; constructor; auto.
Qed.
Print Assumptions C83_freeze.

Example C83_scores_ex : let features := [[[0; 5]; [0; 7]]] in let hidden := [([1; 0], 0)] in let final := [([1], 2); ([0], 3)] in
  concat features <> [] /\ Forall (fun p => length p = 2%nat) (concat features) /\
  Forall (fun wb : list R * R => length (fst wb) = 2%nat) hidden /\ Forall (fun wb : list R * R => length (fst wb) = length hidden) final /\
  mean_feature features 1 = 6.
Proof. repeat split; try (repeat constructor; fail); [discriminate|]. unfold mean_feature. cbn. lra. Qed.

Example C83_ex : exists scores,
  final_dense_softmax [([1; 0], 0)] [([1], 0); ([0], 0)] (Map [[[0; 5]; [0; 7]]]) = Ok scores /\
  scores = [1 / 2; 1 / 2].
Proof.
  eexists. split; [reflexivity|]. unfold dense_vec, softmax. cbn.
  repeat rewrite ?Rmult_0_l, ?Rmult_0_r, ?Rmult_1_l, ?Rplus_0_r, ?Rplus_0_l. unfold Rdiv. rewrite ?Rmult_0_l, exp_0.
  repeat f_equal; lra.
Qed.
