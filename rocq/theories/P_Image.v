(** Proofs about detection images, band reshaping, masks and uniform images. *)
From Verif Require Import M_Image Spec_Image.
From Coq Require Import Permutation Sorted ZifyBool QArith.
Open Scope Z_scope.
Open Scope list_scope.

Lemma nth_error_combine {A B} (l : list A) (m : list B) k :
  nth_error (combine l m) k =
  match nth_error l k, nth_error m k with Some a, Some b => Some (a, b) | _, _ => None end.
Proof.
  revert m k; induction l as [|x l IH]; intros [|y m] [|k]; simpl; auto.
  destruct (nth_error l k); reflexivity.
Qed.

Lemma nth_error_seq s n k : nth_error (seq s n) k = if Nat.ltb k n then Some (s + k)%nat else None.
Proof.
  destruct (Nat.ltb k n) eqn:E.
  - apply Nat.ltb_lt in E. rewrite (nth_error_nth' _ O) by (rewrite seq_length; exact E).
    rewrite seq_nth by exact E. reflexivity.
  - apply nth_error_None. rewrite seq_length. apply Nat.ltb_ge in E. exact E.
Qed.

Lemma mapi_length {A B} (f : nat -> A -> B) l : length (mapi f l) = length l.
Proof. unfold mapi. rewrite map_length, combine_length, seq_length. lia. Qed.

Lemma mapi_nth {A B} (f : nat -> A -> B) l k : nth_error (mapi f l) k = option_map (f k) (nth_error l k).
Proof.
  unfold mapi. rewrite nth_error_map, nth_error_combine, nth_error_seq.
  destruct (Nat.ltb k (length l)) eqn:E.
  - destruct (nth_error l k); reflexivity.
  - apply Nat.ltb_ge in E. rewrite (proj2 (nth_error_None l k)) by lia. reflexivity.
Qed.

(* ------------------------- bands ---------------------------------- *)

Lemma band_wf_shape {A} (b : band A) : band_wf b -> band_shape b (b_ny b) (b_nx b).
Proof.
  intros [W1 W2]. split; [reflexivity|]. split; [reflexivity|].
  rewrite Forall_forall in W2. unfold band_at. intros y x. split.
  - intros (v & H). destruct (nth_error (b_rows b) y) as [r|] eqn:R; [|discriminate]. split.
    + rewrite <- W1. apply nth_error_Some. congruence.
    + rewrite <- (W2 r (nth_error_In _ _ R)). apply nth_error_Some. congruence.
  - intros [Hy Hx]. destruct (nth_error (b_rows b) y) as [r|] eqn:R.
    2:{ apply nth_error_None in R. lia. }
    destruct (nth_error r x) as [v|] eqn:X; [eauto|].
    apply nth_error_None in X. rewrite (W2 r (nth_error_In _ _ R)) in X. lia.
Qed.

Lemma band_ext {A} (a b : band A) :
  band_wf a -> band_wf b -> b_ny a = b_ny b -> b_nx a = b_nx b ->
  (forall y x, (y < b_ny a)%nat -> (x < b_nx a)%nat -> band_at a y x = band_at b y x) -> a = b.
Proof.
  intros [W1 W2] [W1' W2'] En Ex H. rewrite Forall_forall in W2, W2'.
  destruct a as [ny nx ra], b as [ny' nx' rb]; simpl in *. rewrite <- En, <- Ex in *. f_equal.
  unfold band_at in H; simpl in H.
  apply nth_error_ext. intros y. destruct (Nat.lt_ge_cases y ny) as [Hy|Hy].
  2:{ rewrite (proj2 (nth_error_None ra y)), (proj2 (nth_error_None rb y)) by lia. reflexivity. }
  destruct (nth_error ra y) as [r|] eqn:R. 2:{ apply nth_error_None in R; lia. }
  destruct (nth_error rb y) as [r'|] eqn:R'. 2:{ apply nth_error_None in R'; lia. }
  f_equal. pose proof (W2 r (nth_error_In _ _ R)) as L. pose proof (W2' r' (nth_error_In _ _ R')) as L'.
  apply nth_error_ext. intros x. destruct (Nat.lt_ge_cases x nx) as [Hx|Hx].
  - specialize (H y x Hy Hx). rewrite R, R' in H. exact H.
  - rewrite (proj2 (nth_error_None r x)), (proj2 (nth_error_None r' x)) by lia. reflexivity.
Qed.

Lemma concat_length_const {A} (rows : list (list A)) n :
  Forall (fun r => length r = n) rows -> length (concat rows) = (length rows * n)%nat.
Proof. induction 1; simpl; auto. rewrite app_length. lia. Qed.

Lemma concat_nth {A} (rows : list (list A)) n y x :
  Forall (fun r => length r = n) rows -> (x < n)%nat ->
  nth_error (concat rows) (y * n + x) = match nth_error rows y with Some r => nth_error r x | None => None end.
Proof.
  intros F Hx. revert y; induction F as [|r rows Hr F IH]; intros y; simpl.
  - rewrite nth_error_nil. destruct y; reflexivity.
  - destruct y as [|y]; simpl.
    + apply nth_error_app1. lia.
    + rewrite nth_error_app2 by lia. rewrite <- IH. f_equal. lia.
Qed.

Lemma split_rows_concat {A} (rows : list (list A)) n :
  Forall (fun r => length r = n) rows -> split_rows (length rows) n (concat rows) = rows.
Proof.
  induction 1 as [|r rows Hr F IH]; simpl; auto.
  rewrite firstn_app, skipn_app, Hr, Nat.sub_diag.
  rewrite (firstn_all2 r) by lia. rewrite (skipn_all2 r) by lia.
  rewrite firstn_O, skipn_O, app_nil_r. simpl. rewrite IH. reflexivity.
Qed.

Lemma split_rows_wf {A} ny nx (l : list A) :
  length l = (ny * nx)%nat ->
  length (split_rows ny nx l) = ny /\ Forall (fun r => length r = nx) (split_rows ny nx l) /\
  concat (split_rows ny nx l) = l.
Proof.
  revert l; induction ny as [|ny IH]; intros l H; simpl in *.
  - destruct l; [|discriminate]. auto.
  - destruct (IH (skipn nx l)) as (L & F & C). { rewrite skipn_length. lia. }
    split; [lia|]. split.
    + constructor; auto. rewrite firstn_length. lia.
    + rewrite C. apply firstn_skipn.
Qed.

Lemma flatten_unflatten {A} (b : band A) :
  band_wf b -> unflatten_image_band (flatten_image_band b) (b_nx b) (b_ny b) = Ok b.
Proof.
  intros [W1 W2]. unfold unflatten_image_band, flatten_image_band.
  rewrite (concat_length_const _ _ W2), W1, Nat.eqb_refl. rewrite <- W1 at 2.
  rewrite split_rows_concat by exact W2. destruct b; reflexivity.
Qed.

Lemma flatten_at {A} (b : band A) y x :
  band_wf b -> (x < b_nx b)%nat -> nth_error (flatten_image_band b) (y * b_nx b + x) = band_at b y x.
Proof. intros [_ W2] Hx. apply concat_nth; assumption. Qed.

Lemma unflatten_flatten {A} (l : list A) nx ny b :
  unflatten_image_band l nx ny = Ok b -> band_wf b /\ b_ny b = ny /\ b_nx b = nx /\ flatten_image_band b = l.
Proof.
  unfold unflatten_image_band. destruct (Nat.eqb (length l) (ny * nx)) eqn:E; [|discriminate].
  intros H. injection H as <-. apply Nat.eqb_eq in E.
  destruct (split_rows_wf ny nx l E) as (L & F & C). repeat split; auto.
Qed.

Lemma pixel_grid_spec nx ny s :
  let '(xx, yy) := create_pixel_grid nx ny s in
  band_wf xx /\ band_wf yy /\
  b_ny xx = (ny * Pos.to_nat s)%nat /\ b_nx xx = (nx * Pos.to_nat s)%nat /\
  b_ny yy = b_ny xx /\ b_nx yy = b_nx xx /\
  forall i j, (i < b_ny xx)%nat -> (j < b_nx xx)%nat ->
    band_at xx i j = Some (Z.of_nat j # s)%Q /\ band_at yy i j = Some (Z.of_nat i # s)%Q.
Proof.
  unfold create_pixel_grid. simpl.
  repeat split; simpl; rewrite ?map_length, ?seq_length; auto.
  - apply Forall_forall. intros r Hr. apply in_map_iff in Hr. destruct Hr as (q & <- & _).
    rewrite map_length, seq_length. reflexivity.
  - apply Forall_forall. intros r Hr. apply in_map_iff in Hr. destruct Hr as (q & <- & _).
    rewrite !map_length, seq_length. reflexivity.
  - unfold band_at; simpl. rewrite nth_error_map, nth_error_map, nth_error_seq.
    replace (Nat.ltb i _) with true by (symmetry; apply Nat.ltb_lt; assumption). simpl.
    rewrite nth_error_map, nth_error_seq.
    replace (Nat.ltb j _) with true by (symmetry; apply Nat.ltb_lt; assumption). reflexivity.
  - unfold band_at; simpl. rewrite nth_error_map, nth_error_map, nth_error_seq.
    replace (Nat.ltb i _) with true by (symmetry; apply Nat.ltb_lt; assumption). simpl.
    rewrite !nth_error_map, nth_error_seq.
    replace (Nat.ltb j _) with true by (symmetry; apply Nat.ltb_lt; assumption). reflexivity.
Qed.

(* ------------------------- detection image ------------------------ *)

Lemma fill_rect_wf {A} (b : band A) y0 y1 x0 x1 v : band_wf b -> band_wf (fill_rect b y0 y1 x0 x1 v).
Proof.
  intros [W1 W2]. split; simpl.
  - rewrite mapi_length. exact W1.
  - rewrite Forall_forall in *. intros r Hr. apply In_nth_error in Hr. destruct Hr as (k & Hk).
    rewrite mapi_nth in Hk. destruct (nth_error (b_rows b) k) as [row|] eqn:E; [|discriminate].
    cbn [option_map] in Hk. injection Hk as <-.
    destruct (in_slice _ _ _ k); rewrite ?mapi_length; apply W2; eapply nth_error_In; exact E.
Qed.

Lemma fill_rect_at {A} (b : band A) y0 y1 x0 x1 v r c :
  band_wf b ->
  band_at (fill_rect b y0 y1 x0 x1 v) r c =
  match band_at b r c with
  | Some p => Some (if in_slice (b_ny b) y0 y1 r && in_slice (b_nx b) x0 x1 c then v else p)
  | None => None
  end.
Proof.
  intros W. unfold band_at, fill_rect; simpl. rewrite mapi_nth.
  destruct (nth_error (b_rows b) r) as [row|]; [|reflexivity]. cbn [option_map].
  destruct (in_slice (b_ny b) y0 y1 r); simpl.
  - rewrite mapi_nth. destruct (nth_error row c); reflexivity.
  - destruct (nth_error row c); reflexivity.
Qed.

Lemma in_slice_inside n a s k :
  0 <= a -> 0 <= s -> a + s <= Z.of_nat n ->
  in_slice n a (a + s) k = (a <=? Z.of_nat k) && (Z.of_nat k <? a + s).
Proof.
  intros H1 H2 H3. unfold in_slice, slice_bound.
  replace (a <? 0) with false by lia. replace (a + s <? 0) with false by lia.
  rewrite !Z.min_l by lia. reflexivity.
Qed.

Lemma fold_max_le l x v : v = x \/ In v l -> v <= fold_left Z.max l x.
Proof.
  revert v x; induction l as [|y l IH]; intros v x H; simpl.
  - destruct H as [->|[]]. lia.
  - assert (Hm : Z.max x y <= fold_left Z.max l (Z.max x y)) by (apply IH; left; reflexivity).
    destruct H as [->|[->|H]]; [lia|lia|apply IH; right; exact H].
Qed.
Lemma fold_max_In l x : fold_left Z.max l x = x \/ In (fold_left Z.max l x) l.
Proof.
  revert x; induction l as [|y l IH]; intros x; simpl; auto.
  destruct (IH (Z.max x y)) as [E|E]; [|auto]. rewrite E.
  destruct (Z.max_spec x y) as [[_ ->]|[_ ->]]; auto.
Qed.
Lemma zmax_list_spec l : l <> [] -> exists m, zmax_list l = Ok m /\ In m l /\ forall v, In v l -> v <= m.
Proof.
  destruct l as [|x l]; [congruence|]. intros _. simpl. eexists; split; [reflexivity|]. split.
  - destruct (fold_max_In l x) as [->|H]; auto.
  - intros v H. apply fold_max_le. simpl in H. destruct H as [->|H]; auto.
Qed.

Definition coversb (cx cy : Z) (ul : Z * Z) (r c : nat) : bool :=
  ((fst ul <=? Z.of_nat r) && (Z.of_nat r <? fst ul + cy)) &&
  ((snd ul <=? Z.of_nat c) && (Z.of_nat c <? snd ul + cx)).
Lemma coversb_spec cx cy ul r c : coversb cx cy ul r c = true <-> covers cx cy ul r c.
Proof. unfold coversb, covers. lia. Qed.

(** The loop over any index order *)
Lemma fill_loop {A} (scores : list A) (uls : list (Z * Z)) cx cy order (img : band A) :
  band_wf img -> 0 <= cx -> 0 <= cy ->
  (forall i, In i order -> (i < length scores)%nat /\ (i < length uls)%nat) ->
  (forall ul, In ul uls -> 0 <= fst ul /\ fst ul + cy <= Z.of_nat (b_ny img) /\
                           0 <= snd ul /\ snd ul + cx <= Z.of_nat (b_nx img)) ->
  exists img',
    foldM (fun img i =>
             ul <- py_get uls (Z.of_nat i) ;;
             s <- py_get scores (Z.of_nat i) ;;
             Ok (fill_rect img (fst ul) (fst ul + cy) (snd ul) (snd ul + cx) s)) order img = Ok img' /\
    band_wf img' /\ b_ny img' = b_ny img /\ b_nx img' = b_nx img /\
    forall r c p, band_at img r c = Some p ->
      band_at img' r c = Some (fold_left (fun acc i =>
         match nth_error uls i, nth_error scores i with
         | Some ul, Some s => if coversb cx cy ul r c then s else acc
         | _, _ => acc
         end) order p).
Proof.
  intros W Hx Hy. revert img W. induction order as [|i order IH]; intros img W Hi Hu.
  - exists img. simpl. auto.
  - destruct (Hi i (or_introl eq_refl)) as [H1 H2].
    destruct (py_get_nonneg uls (Z.of_nat i)) as (ul & Eu & Gu); [unfold zlen; lia|].
    destruct (py_get_nonneg scores (Z.of_nat i)) as (s & Es & Gs); [unfold zlen; lia|].
    rewrite Nat2Z.id in Eu, Es. cbn [foldM]. rewrite Gu, Gs. cbn [bind].
    destruct (Hu ul (nth_error_In _ _ Eu)) as (B1 & B2 & B3 & B4).
    destruct (IH (fill_rect img (fst ul) (fst ul + cy) (snd ul) (snd ul + cx) s)) as (img' & E & W' & N1 & N2 & Hat).
    + apply fill_rect_wf; exact W.
    + intros j Hj. apply Hi. right; exact Hj.
    + simpl. exact Hu.
    + exists img'. split; [exact E|]. split; [exact W'|]. split; [exact N1|]. split; [exact N2|].
      intros r c p Hp. cbn [fold_left]. rewrite Eu, Es. apply Hat.
      rewrite fill_rect_at by exact W. rewrite Hp. rewrite !in_slice_inside by lia.
      reflexivity.
Qed.

(** Along a sorted order the last covering score is the largest one *)
Lemma fold_last_max {A} (leb : A -> A -> bool) (score : nat -> option A) (cov : nat -> bool) order (zero : A) :
  total_order leb ->
  StronglySorted (fun i j => forall a b, score i = Some a -> score j = Some b -> leb a b = true) order ->
  let v := fold_left (fun acc i => match score i with Some s => if cov i then s else acc | None => acc end) order zero in
  ((exists i, In i order /\ cov i = true /\ score i = Some v) /\
   (forall i s, In i order -> cov i = true -> score i = Some s -> leb s v = true))
  \/ ((forall i s, In i order -> score i = Some s -> cov i = false) /\ v = zero).
Proof.
  intros T. revert zero. induction order as [|i order IH]; intros zero S; simpl.
  - right. split; [intros; contradiction|reflexivity].
  - inversion S as [|? ? S' F]; subst. rewrite Forall_forall in F.
    set (acc := match score i with Some s => if cov i then s else zero | None => zero end).
    destruct (IH acc S') as [[(j & Hj & Hc & Hs) Hm]|[Hn Hv]].
    + left. split; [exists j; auto|]. intros k s [->|Hk] Hck Hsk; [|eauto].
      exact (F j Hj s _ Hsk Hs).
    + rewrite Hv. unfold acc. destruct (score i) as [s|] eqn:Es.
      * destruct (cov i) eqn:Ec.
        -- left. split.
           ++ exists i. auto.
           ++ intros k s' [->|Hk] Hck Hsk.
              ** rewrite Es in Hsk. injection Hsk as <-. destruct (to_total leb T s s); assumption.
              ** exfalso. specialize (Hn k s' Hk Hsk). congruence.
        -- right. split; [|reflexivity]. intros k s' [->|Hk] Hsk; [exact Ec|eauto].
      * right. split; [|reflexivity]. intros k s' [->|Hk] Hsk; [congruence|eauto].
Qed.

Lemma fold_left_ext_in_ {A B} (f g : A -> B -> A) l a :
  (forall acc i, In i l -> f acc i = g acc i) -> fold_left f l a = fold_left g l a.
Proof.
  revert a; induction l as [|x l IH]; intros a H; simpl; auto.
  rewrite H by (left; reflexivity). apply IH. intros; apply H; right; assumption.
Qed.

Lemma In_combine_nth {A B} (l : list A) (m : list B) a b :
  In (a, b) (combine l m) <-> exists i, nth_error l i = Some a /\ nth_error m i = Some b.
Proof.
  split.
  - intros H. apply In_nth_error in H. destruct H as (i & H). rewrite nth_error_combine in H.
    exists i. destruct (nth_error l i), (nth_error m i); try discriminate. injection H as <- <-. auto.
  - intros (i & H1 & H2). apply (nth_error_In _ i). rewrite nth_error_combine, H1, H2. reflexivity.
Qed.

Lemma repeat_band_wf {A} (v : A) ny nx : band_wf (mkBand ny nx (repeat (repeat v nx) ny)).
Proof.
  split; simpl; [apply repeat_length|]. apply Forall_forall. intros r Hr. apply repeat_spec in Hr.
  subst r. apply repeat_length.
Qed.
Lemma nth_error_repeat_lt {A} (v : A) n k : (k < n)%nat -> nth_error (repeat v n) k = Some v.
Proof. intros H. rewrite (nth_error_nth' _ v) by (rewrite repeat_length; exact H). rewrite nth_repeat. reflexivity. Qed.
Lemma repeat_band_at {A} (v : A) ny nx r c :
  (r < ny)%nat -> (c < nx)%nat -> band_at (mkBand ny nx (repeat (repeat v nx) ny)) r c = Some v.
Proof. intros H1 H2. unfold band_at; simpl. rewrite !nth_error_repeat_lt by assumption. reflexivity. Qed.

Lemma detection_image_max {A} (leb : A -> A -> bool) (zero : A) argsort scores uls cx cy :
  total_order leb -> is_argsort leb argsort ->
  uls <> [] -> length scores = length uls -> 0 <= cx -> 0 <= cy ->
  Forall (fun ul => 0 <= fst ul /\ 0 <= snd ul) uls ->
  exists img my mx,
    create_detection_image_from_scores zero argsort scores uls cx cy = Ok img /\
    band_wf img /\
    (In my (map fst uls) /\ (forall v, In v (map fst uls) -> v <= my) /\ b_ny img = Z.to_nat (my + cy)) /\
    (In mx (map snd uls) /\ (forall v, In v (map snd uls) -> v <= mx) /\ b_nx img = Z.to_nat (mx + cx)) /\
    forall r c, (r < b_ny img)%nat -> (c < b_nx img)%nat ->
      exists v, band_at img r c = Some v /\ best_score leb zero (combine scores uls) cx cy r c v.
Proof.
  intros T HA Hne Hlen Hx Hy F. unfold create_detection_image_from_scores.
  destruct (zmax_list_spec (map fst uls)) as (my & Ey & Iy & My); [destruct uls; simpl; congruence|].
  destruct (zmax_list_spec (map snd uls)) as (mx & Ex & Ix & Mx); [destruct uls; simpl; congruence|].
  rewrite Ey, Ex. cbn [bind]. rewrite Forall_forall in F.
  assert (P1 : 0 <= my). { apply in_map_iff in Iy. destruct Iy as (u & <- & Hu). apply F; exact Hu. }
  assert (P2 : 0 <= mx). { apply in_map_iff in Ix. destruct Ix as (u & <- & Hu). apply F; exact Hu. }
  replace ((my + cy <? 0) || (mx + cx <? 0)) with false by lia.
  destruct (HA scores) as [Hp Hs].
  set (img0 := mkBand _ _ _).
  destruct (fill_loop scores uls cx cy (argsort scores) img0) as (img & E & W & N1 & N2 & Hat); auto.
  - apply repeat_band_wf.
  - intros i Hi. apply (Permutation_in _ Hp) in Hi. apply in_seq in Hi. lia.
  - intros ul Hul. simpl. destruct (F ul Hul).
    pose proof (My _ (in_map fst _ _ Hul)). pose proof (Mx _ (in_map snd _ _ Hul)). lia.
  - exists img, my, mx. split; [exact E|]. split; [exact W|]. split; [auto|]. split; [auto|].
    intros r c Hr Hc. eexists. split.
    + apply Hat. apply repeat_band_at; [rewrite N1 in Hr|rewrite N2 in Hc]; assumption.
    + pose proof (fold_last_max leb (nth_error scores)
        (fun i => match nth_error uls i with Some ul => coversb cx cy ul r c | None => false end)
        (argsort scores) zero T Hs) as M. cbv zeta in M.
      match type of M with context [fold_left ?f ?o ?z] => set (v := fold_left f o z) in M end.
      match goal with |- best_score _ _ _ _ _ _ _ ?w => replace w with v end.
      2:{ unfold v. apply fold_left_ext_in_. intros acc i Hi.
          apply (Permutation_in _ Hp) in Hi. apply in_seq in Hi.
          destruct (nth_error uls i) eqn:Eu; [|apply nth_error_None in Eu; lia].
          destruct (nth_error scores i) eqn:Es; [reflexivity|apply nth_error_None in Es; lia]. }
      destruct M as [[(i & Hi & Hci & Hsi) Hm]|[Hn Hv]].
      * left. destruct (nth_error uls i) as [ul|] eqn:Eu; [|discriminate]. split.
        -- exists ul. split; [apply In_combine_nth; eauto|]. apply coversb_spec; exact Hci.
        -- intros s ul' Hin Hcov. apply In_combine_nth in Hin. destruct Hin as (j & Hj1 & Hj2).
           apply (Hm j s); auto.
           ++ apply (Permutation_in _ (Permutation_sym Hp)). apply in_seq.
              assert (j < length scores)%nat by (apply nth_error_Some; congruence). lia.
           ++ rewrite Hj2. apply coversb_spec; exact Hcov.
      * right. split; [|exact Hv]. intros s ul Hin Hcov. apply In_combine_nth in Hin.
        destruct Hin as (j & Hj1 & Hj2).
        assert (Hf := Hn j s). rewrite Hj2 in Hf. apply coversb_spec in Hcov. rewrite Hcov in Hf.
        assert (true = false); [|discriminate]. apply Hf; auto.
        apply (Permutation_in _ (Permutation_sym Hp)). apply in_seq.
        assert (j < length scores)%nat by (apply nth_error_Some; congruence). lia.
Qed.

Lemma best_score_unique {A} (leb : A -> A -> bool) (zero : A) ch ch' cx cy r c v w :
  total_order leb -> Permutation ch ch' ->
  best_score leb zero ch cx cy r c v -> best_score leb zero ch' cx cy r c w -> v = w.
Proof.
  intros T P H1 H2.
  assert (I : forall p, In p ch <-> In p ch').
  { intros p; split; apply Permutation_in; auto using Permutation_sym. }
  destruct H1 as [[(u1 & I1 & C1) M1]|[N1 ->]]; destruct H2 as [[(u2 & I2 & C2) M2]|[N2 ->]].
  - apply (to_antisym leb T).
    + apply (M2 v u1); auto. apply I; exact I1.
    + apply (M1 w u2); auto. apply I; exact I2.
  - exfalso. apply (N2 v u1); auto. apply I; exact I1.
  - exfalso. apply (N1 w u2); auto. apply I; exact I2.
  - reflexivity.
Qed.

Lemma combine_In_r {A B} (l : list A) (m : list B) b :
  length l = length m -> In b m -> exists a, In (a, b) (combine l m).
Proof.
  intros L H. apply In_nth_error in H. destruct H as (i & H).
  destruct (nth_error l i) as [a|] eqn:E.
  - exists a. apply In_combine_nth. eauto.
  - apply nth_error_None in E. assert (i < length m)%nat by (apply nth_error_Some; congruence). lia.
Qed.

Lemma perm_uls {A} (s1 s2 : list A) (u1 u2 : list (Z * Z)) :
  length s1 = length u1 -> length s2 = length u2 -> Permutation (combine s1 u1) (combine s2 u2) ->
  forall u, In u u1 <-> In u u2.
Proof.
  intros L1 L2 P u. split; intros H.
  - destruct (combine_In_r s1 u1 u L1 H) as (a & Ha). apply (Permutation_in _ P) in Ha. eapply in_combine_r; exact Ha.
  - destruct (combine_In_r s2 u2 u L2 H) as (a & Ha). apply (Permutation_in _ (Permutation_sym P)) in Ha.
    eapply in_combine_r; exact Ha.
Qed.

Lemma detection_order {A} (leb : A -> A -> bool) (zero : A) as1 as2 s1 s2 u1 u2 cx cy :
  total_order leb -> is_argsort leb as1 -> is_argsort leb as2 ->
  u1 <> [] -> length s1 = length u1 -> length s2 = length u2 -> 0 <= cx -> 0 <= cy ->
  Forall (fun ul => 0 <= fst ul /\ 0 <= snd ul) u1 ->
  Permutation (combine s1 u1) (combine s2 u2) ->
  create_detection_image_from_scores zero as1 s1 u1 cx cy =
  create_detection_image_from_scores zero as2 s2 u2 cx cy.
Proof.
  intros T H1 H2 Hne L1 L2 Hx Hy F P.
  pose proof (perm_uls s1 s2 u1 u2 L1 L2 P) as I.
  assert (Hne2 : u2 <> []).
  { destruct u1 as [|u u1]; [congruence|]. intros ->. apply (proj1 (I u)). left; reflexivity. }
  assert (F2 : Forall (fun ul => 0 <= fst ul /\ 0 <= snd ul) u2).
  { rewrite Forall_forall in *. intros u Hu. apply F, I, Hu. }
  destruct (detection_image_max leb zero as1 s1 u1 cx cy T H1 Hne L1 Hx Hy F)
    as (i1 & my & mx & E1 & W1 & (Iy1 & My1 & N1) & (Ix1 & Mx1 & X1) & B1).
  destruct (detection_image_max leb zero as2 s2 u2 cx cy T H2 Hne2 L2 Hx Hy F2)
    as (i2 & my2 & mx2 & E2 & W2 & (Iy2 & My2 & N2) & (Ix2 & Mx2 & X2) & B2).
  rewrite E1, E2. f_equal.
  assert (J : forall f : Z * Z -> Z, forall v, In v (map f u1) <-> In v (map f u2)).
  { intros f v. rewrite !in_map_iff. split; intros (u & Eu & Hu); exists u; split; auto; apply I; exact Hu. }
  assert (my = my2).
  { apply J in Iy1. pose proof (My2 _ Iy1). apply J in Iy2. pose proof (My1 _ Iy2). lia. }
  assert (mx = mx2).
  { apply J in Ix1. pose proof (Mx2 _ Ix1). apply J in Ix2. pose proof (Mx1 _ Ix2). lia. }
  subst my2 mx2. apply band_ext; auto; try congruence.
  intros r c Hr Hc. destruct (B1 r c Hr Hc) as (v & Ev & Bv).
  rewrite N1, <- N2 in Hr. rewrite X1, <- X2 in Hc.
  destruct (B2 r c Hr Hc) as (w & Ew & Bw). rewrite Ev, Ew. f_equal.
  eapply best_score_unique; [exact T|exact P|exact Bv|exact Bw].
Qed.

Lemma detection_mono {A} (leb : A -> A -> bool) (zero : A) as1 scores uls cx cy s ul img :
  total_order leb -> is_argsort leb as1 ->
  uls <> [] -> length scores = length uls -> 0 <= cx -> 0 <= cy ->
  Forall (fun ul => 0 <= fst ul /\ 0 <= snd ul) (ul :: uls) ->
  leb zero s = true ->
  create_detection_image_from_scores zero as1 scores uls cx cy = Ok img ->
  exists img', create_detection_image_from_scores zero as1 (s :: scores) (ul :: uls) cx cy = Ok img' /\
    forall r c v, band_at img r c = Some v ->
      exists v', band_at img' r c = Some v' /\ leb v v' = true /\ (covers cx cy ul r c -> leb s v' = true).
Proof.
  intros T HA Hne L Hx Hy F Hs E. inversion F as [|? ? Fu Ft]; subst.
  destruct (detection_image_max leb zero as1 scores uls cx cy T HA Hne L Hx Hy Ft)
    as (i1 & my & mx & E1 & W1 & (Iy1 & My1 & N1) & (Ix1 & Mx1 & X1) & B1).
  rewrite E in E1. injection E1 as <-.
  destruct (detection_image_max leb zero as1 (s :: scores) (ul :: uls) cx cy T HA)
    as (i2 & my2 & mx2 & E2 & W2 & (Iy2 & My2 & N2) & (Ix2 & Mx2 & X2) & B2);
    [discriminate|simpl; congruence|auto|auto|auto|].
  exists i2. split; [exact E2|]. intros r c v Hv.
  destruct (band_wf_shape _ W1) as (_ & _ & S1).
  destruct (proj1 (S1 r c) (ex_intro _ v Hv)) as [Hr Hc].
  pose proof (My2 my (or_intror Iy1)). pose proof (Mx2 mx (or_intror Ix1)).
  destruct (B1 r c Hr Hc) as (v1 & Ev1 & Bv1). rewrite Hv in Ev1. injection Ev1 as <-.
  destruct (B2 r c) as (v2 & Ev2 & Bv2); [lia|lia|].
  exists v2. split; [exact Ev2|].
  assert (Hsplit : forall p, In p (combine (s :: scores) (ul :: uls)) <-> p = (s, ul) \/ In p (combine scores uls)).
  { intros p. simpl. intuition. }
  assert (Hz : forall a, leb a a = true) by (intros a; destruct (to_total leb T a a); assumption).
  split.
  - destruct Bv1 as [[(u1 & I1 & C1) M1]|[N0 ->]]; destruct Bv2 as [[(u2 & I2 & C2) M2]|[N3 ->]].
    + apply (M2 v u1); [apply Hsplit; right; exact I1|exact C1].
    + exfalso. apply (N3 v u1); [apply Hsplit; right; exact I1|exact C1].
    + apply Hsplit in I2. destruct I2 as [I2|I2].
      * injection I2 as -> ->. exact Hs.
      * exfalso. apply (N0 v2 u2); assumption.
    + apply Hz.
  - intros C. destruct Bv2 as [[_ M2]|[N3 _]].
    + apply (M2 s ul); [apply Hsplit; left; reflexivity|exact C].
    + exfalso. apply (N3 s ul); [apply Hsplit; left; reflexivity|exact C].
Qed.

(* ------------------------- masks ---------------------------------- *)

Lemma np_where_row {A} (cond : A -> bool) (y : nat) (row : list A) k :
  let l := concat (map (fun p => if cond (snd p) then [(y, fst p)] else []) (combine (seq k (length row)) row)) in
  (forall q, In q l <-> exists x v, q = (y, k + x)%nat /\ nth_error row x = Some v /\ cond v = true) /\
  StronglySorted lex_lt l.
Proof.
  revert k; induction row as [|v row IH]; intros k; simpl.
  - split; [|constructor]. intros q. split; [intros []|]. intros (x & w & _ & H & _). destruct x; discriminate.
  - destruct (IH (S k)) as [I Ss]. split.
    + intros q. rewrite in_app_iff, I. split.
      * intros [H|(x & w & -> & Hx & Hw)].
        -- destruct (cond v) eqn:Ev; [|destruct H]. destruct H as [<-|[]]. exists O, v.
           rewrite Nat.add_0_r. auto.
        -- exists (S x), w. rewrite Nat.add_succ_r. auto.
      * intros ([|x] & w & -> & Hx & Hw); simpl in Hx.
        -- injection Hx as ->. rewrite Hw. left. left. rewrite Nat.add_0_r. reflexivity.
        -- right. exists x, w. rewrite Nat.add_succ_r. auto.
    + destruct (cond v); simpl; [|exact Ss]. constructor; [exact Ss|].
      apply Forall_forall. intros q Hq. apply I in Hq. destruct Hq as (x & w & -> & _).
      right. simpl. lia.
Qed.

Lemma SSorted_app {A} (R : A -> A -> Prop) l m :
  StronglySorted R l -> StronglySorted R m -> (forall a b, In a l -> In b m -> R a b) ->
  StronglySorted R (l ++ m).
Proof.
  induction 1 as [|x l S IH F]; simpl; intros Hm H; auto.
  constructor.
  - apply IH; auto.
  - apply Forall_app. split; auto. apply Forall_forall. intros b Hb. apply H; auto.
Qed.

Lemma np_where_spec {A} (cond : A -> bool) (rows : list (list A)) :
  (forall y x, In (y, x) (np_where cond rows) <->
     exists row v, nth_error rows y = Some row /\ nth_error row x = Some v /\ cond v = true) /\
  StronglySorted lex_lt (np_where cond rows).
Proof.
  unfold np_where, mapi.
  assert (G : forall k,
    let l := concat (map (fun p => concat (map (fun q => if cond (snd q) then [(fst p, fst q)] else [])
               (combine (seq 0 (length (snd p))) (snd p)))) (combine (seq k (length rows)) rows)) in
    (forall q, In q l <-> exists y x row v, q = (k + y, x)%nat /\ nth_error rows y = Some row /\
        nth_error row x = Some v /\ cond v = true) /\ StronglySorted lex_lt l).
  { induction rows as [|row rows IH]; intros k; simpl.
    - split; [|constructor]. intros q. split; [intros []|]. intros (y & x & r & v & _ & H & _). destruct y; discriminate.
    - destruct (IH (S k)) as [I Ss]. destruct (np_where_row cond k row 0) as [IR SR].
      split.
      + intros q. rewrite in_app_iff, I, IR. split.
        * intros [(x & v & -> & Hx & Hv)|(y & x & r & v & -> & H)].
          -- exists O, x, row, v. rewrite Nat.add_0_r. auto.
          -- exists (S y), x, r, v. rewrite Nat.add_succ_r. auto.
        * intros ([|y] & x & r & v & -> & Hy & H); simpl in Hy.
          -- injection Hy as ->. left. exists x, v. rewrite Nat.add_0_r. auto.
          -- right. exists y, x, r, v. rewrite Nat.add_succ_r. auto.
      + apply SSorted_app; auto. intros a b Ha Hb. apply IR in Ha. apply I in Hb.
        destruct Ha as (x & v & -> & _). destruct Hb as (y & x' & r & v' & -> & _). left. simpl. lia. }
  destruct (G O) as [I Ss]. split; [|exact Ss].
  intros y x. rewrite I. split.
  - intros (y' & x' & r & v & E & H1 & H2). injection E as -> ->. eauto.
  - intros (r & v & H1 & H2). exists y, x, r, v. auto.
Qed.

Lemma dict_get_set_same {K V} (eqb : K -> K -> bool) (d : list (K * V)) k v :
  (forall a b, eqb a b = true <-> a = b) -> dict_get eqb (dict_set eqb d k v) k = Some v.
Proof.
  intros E. induction d as [|[k' v'] d IH]; simpl.
  - rewrite (proj2 (E k k) eq_refl). reflexivity.
  - destruct (eqb k k') eqn:Ek; simpl; rewrite Ek; auto.
Qed.
Lemma dict_get_set_other {K V} (eqb : K -> K -> bool) (d : list (K * V)) k k' v :
  (forall a b, eqb a b = true <-> a = b) -> k' <> k -> dict_get eqb (dict_set eqb d k v) k' = dict_get eqb d k'.
Proof.
  intros E Hk. induction d as [|[j w] d IH]; simpl.
  - destruct (eqb k' k) eqn:Ek; [apply E in Ek; congruence|reflexivity].
  - destruct (eqb k j) eqn:Ej; simpl.
    + apply E in Ej. subst j. destruct (eqb k' k) eqn:Ek; [apply E in Ek; congruence|reflexivity].
    + destruct (eqb k' j); auto.
Qed.

Lemma strip_alpha_at c y x row px :
  cube_wf c -> c_nb (strip_alpha c) = 3%nat ->
  nth_error (c_data (strip_alpha c)) y = Some row -> nth_error row x = Some px ->
  exists r g b, px = [r; g; b] /\ cube_at c y x 0 = Some r /\ cube_at c y x 1 = Some g /\ cube_at c y x 2 = Some (b : Z).
Proof.
  intros [W1 W2] H3 Hy Hx. rewrite Forall_forall in W2. unfold strip_alpha in *.
  destruct (Nat.eqb (c_nb c) 4) eqn:E4; simpl in *.
  - apply Nat.eqb_eq in E4. rewrite nth_error_map in Hy.
    destruct (nth_error (c_data c) y) as [row0|] eqn:Ey; [|discriminate]. cbn [option_map] in Hy. injection Hy as <-.
    rewrite nth_error_map in Hx. destruct (nth_error row0 x) as [p0|] eqn:Ex; [|discriminate].
    cbn [option_map] in Hx. injection Hx as <-.
    destruct (W2 row0 (nth_error_In _ _ Ey)) as [_ F]. rewrite Forall_forall in F.
    pose proof (F p0 (nth_error_In _ _ Ex)) as Lp. rewrite E4 in Lp.
    destruct p0 as [|r [|g [|b [|a [|? ?]]]]]; simpl in Lp; try discriminate.
    exists r, g, b. unfold cube_at. rewrite Ey, Ex. auto.
  - destruct (W2 row (nth_error_In _ _ Hy)) as [_ F]. rewrite Forall_forall in F.
    pose proof (F px (nth_error_In _ _ Hx)) as Lp. rewrite H3 in Lp.
    destruct px as [|r [|g [|b [|? ?]]]]; simpl in Lp; try discriminate.
    exists r, g, b. unfold cube_at. rewrite Hy, Hx. auto.
Qed.

Lemma strip_alpha_row c y x r :
  nth_error (c_data c) y = Some r -> (exists p, nth_error r x = Some p) ->
  exists row px, nth_error (c_data (strip_alpha c)) y = Some row /\ nth_error row x = Some (px : list Z).
Proof.
  intros Hy (p & Hx). unfold strip_alpha. destruct (Nat.eqb (c_nb c) 4); simpl; [|eauto].
  exists (map (firstn 3) r), (firstn 3 p). rewrite nth_error_map, Hy. split; [reflexivity|].
  rewrite nth_error_map, Hx. reflexivity.
Qed.

Lemma mask_pixels c rgb y x :
  cube_wf c -> c_nb c = 3%nat \/ c_nb c = 4%nat ->
  (In (y, x) (np_where (px_is rgb) (c_data (strip_alpha c))) <->
   cube_at c y x 0 = Some (fst (fst rgb)) /\ cube_at c y x 1 = Some (snd (fst rgb)) /\ cube_at c y x 2 = Some (snd rgb)).
Proof.
  intros W Hb. assert (H3 : c_nb (strip_alpha c) = 3%nat).
  { unfold strip_alpha. destruct Hb as [E|E]; rewrite E; simpl; auto. }
  destruct (np_where_spec (px_is rgb) (c_data (strip_alpha c))) as [I _]. rewrite I.
  destruct rgb as [[r g] b]. simpl. split.
  - intros (row & px & Hy & Hx & Hp).
    destruct (strip_alpha_at c y x row px W H3 Hy Hx) as (r' & g' & b' & -> & H0 & H1 & H2).
    cbn in Hp. assert (r' = r /\ g' = g /\ b' = b) as (-> & -> & ->) by lia. auto.
  - intros (H0 & H1 & H2).
    assert (exists row px, nth_error (c_data (strip_alpha c)) y = Some row /\ nth_error row x = Some px) as (row & px & Hy & Hx).
    { unfold cube_at in H0. destruct (nth_error (c_data c) y) as [r0|] eqn:Ey; [|discriminate].
      destruct (nth_error r0 x) as [p|] eqn:Ex; [|discriminate].
      apply (strip_alpha_row c y x r0); eauto. }
    exists row, px. split; [exact Hy|]. split; [exact Hx|].
    destruct (strip_alpha_at c y x row px W H3 Hy Hx) as (r' & g' & b' & -> & H0' & H1' & H2').
    cbn. assert (r' = r /\ g' = g /\ b' = b) as (-> & -> & ->) by (repeat split; congruence). lia.
Qed.

Lemma mask_dict_ok {H V} (veqb : V -> V -> bool) (hex : H -> Z * Z * Z) c colors :
  (forall a b, veqb a b = true <-> a = b) ->
  c_nb c = 3%nat \/ c_nb c = 4%nat -> NoDup (map snd colors) ->
  exists d, rgb_mask_dict veqb hex (Color c) colors = Ok d /\
    forall h v, In (h, v) colors -> dict_get veqb d v = Some (np_where (px_is (hex h)) (c_data (strip_alpha c))).
Proof.
  intros E Hb ND. unfold rgb_mask_dict.
  assert (H3 : c_nb (strip_alpha c) = 3%nat).
  { unfold strip_alpha. destruct Hb as [E'|E']; rewrite E'; simpl; auto. }
  rewrite H3. simpl. eexists. split; [reflexivity|].
  match goal with |- context [fold_left ?f colors []] => set (F := f) end.
  assert (G : forall l d h v, NoDup (map snd l) ->
     (In (h, v) l -> dict_get veqb (fold_left F l d) v = Some (np_where (px_is (hex h)) (c_data (strip_alpha c)))) /\
     (~ In v (map snd l) -> dict_get veqb (fold_left F l d) v = dict_get veqb d v)).
  { induction l as [|[h0 v0] l IH]; intros d h v N; simpl in *.
    - split; [intros []|reflexivity].
    - inversion N as [|? ? N1 N2]; subst. split.
      + intros [Eq|Hin].
        * injection Eq as -> ->. rewrite (proj2 (IH _ h v N2)) by exact N1.
          unfold F. simpl. apply dict_get_set_same. exact E.
        * apply (proj1 (IH _ h v N2)). exact Hin.
      + intros Hn. rewrite (proj2 (IH _ h v N2)) by tauto. unfold F. simpl. apply dict_get_set_other; auto. }
  intros h v Hin. apply (proj1 (G colors [] h v ND)). exact Hin.
Qed.

(* ------------------------- uniform image -------------------------- *)

Lemma fill_bands {A} (l : list A) (px : list A) k :
  (k + length l <= length px)%nat ->
  foldM (fun p iv => py_set p (Z.of_nat (fst iv)) (snd iv)) (combine (seq k (length l)) l) px
  = Ok (firstn k px ++ l ++ skipn (k + length l) px).
Proof.
  revert px k; induction l as [|v l IH]; intros px k H.
  - simpl. rewrite Nat.add_0_r, firstn_skipn. reflexivity.
  - cbn [length seq combine foldM]. unfold py_set at 1, py_index. simpl in H. cbn [fst snd].
    replace ((0 <=? Z.of_nat k) && (Z.of_nat k <? zlen px)) with true by (unfold zlen; lia).
    cbn [bind]. rewrite Nat2Z.id. rewrite IH by (rewrite upd_nat_length; lia).
    f_equal. apply nth_error_ext. intros j.
    assert (Hl : forall (p : list A) a (m : list A) b, (a <= length p)%nat ->
       nth_error (firstn a p ++ m ++ skipn b p) j =
       if Nat.ltb j a then nth_error p j else if Nat.ltb j (a + length m) then nth_error m (j - a)
       else nth_error p (b + (j - a - length m))).
    { clear. intros p a m b Ha. assert (Lf : length (firstn a p) = a) by (rewrite firstn_length; lia).
      destruct (Nat.ltb j a) eqn:E1.
      - apply Nat.ltb_lt in E1. rewrite nth_error_app1 by lia. rewrite nth_error_firstn.
        replace (Nat.ltb j a) with true by (symmetry; apply Nat.ltb_lt; lia). reflexivity.
      - apply Nat.ltb_ge in E1. rewrite nth_error_app2 by lia. rewrite Lf.
        destruct (Nat.ltb j (a + length m)) eqn:E2.
        + apply Nat.ltb_lt in E2. apply nth_error_app1. lia.
        + apply Nat.ltb_ge in E2. rewrite nth_error_app2 by lia. apply nth_error_skipn. }
    rewrite !Hl by (rewrite ?upd_nat_length; lia). rewrite !upd_nat_nth. cbn [length].
    replace (k <? length px)%nat with true by (symmetry; apply Nat.ltb_lt; lia). rewrite andb_true_r.
    destruct (Nat.ltb j (S k)) eqn:E1; destruct (Nat.ltb j k) eqn:E2.
    + replace (Nat.eqb j k) with false by lia. reflexivity.
    + assert (j = k) by lia. subst j. rewrite Nat.eqb_refl.
      replace (Nat.ltb k (k + S (length l))) with true by lia. rewrite Nat.sub_diag. reflexivity.
    + lia.
    + replace (Nat.ltb j (S k + length l)) with (Nat.ltb j (k + S (length l))) by lia.
      destruct (Nat.ltb j (k + S (length l))) eqn:E3.
      * replace (j - k)%nat with (S (j - S k)) by lia. reflexivity.
      * apply Nat.ltb_ge in E1, E2, E3. rewrite (proj2 (Nat.eqb_neq _ k)) by lia. cbn [andb]. match goal with |- nth_error _ ?a = nth_error _ ?b => replace a with b by lia end. reflexivity.
Qed.

Lemma uniform_image {A} (zero : A) nx ny nb v :
  match v with
  | OneValue _ => True
  | BandValues l => (length l <= nb)%nat
  end ->
  exists c, create_uniform_image_data zero nx ny nb v = Ok c /\ cube_wf c /\
    c_ny c = ny /\ c_nx c = nx /\ c_nb c = nb /\
    forall y x b, (y < ny)%nat -> (x < nx)%nat -> (b < nb)%nat ->
      cube_at c y x b = Some (match v with OneValue a => a | BandValues l => nth b l zero end).
Proof.
  intros Hv. unfold create_uniform_image_data.
  assert (exists px, match v with OneValue a => Ok (repeat a nb) | BandValues l =>
     foldM (fun px iv => py_set px (Z.of_nat (fst iv)) (snd iv)) (combine (seq 0 (length l)) l) (repeat zero nb) end = Ok px
     /\ length px = nb /\ forall b, (b < nb)%nat ->
        nth_error px b = Some (match v with OneValue a => a | BandValues l => nth b l zero end)) as (px & E & Lp & Hp).
  { destruct v as [a|l].
    - exists (repeat a nb). split; [reflexivity|]. split; [apply repeat_length|]. intros; apply nth_error_repeat_lt; auto.
    - rewrite fill_bands by (rewrite repeat_length; simpl; lia). eexists. split; [reflexivity|].
      split; [simpl; rewrite app_length, skipn_length, repeat_length; lia|].
      intros b Hb. simpl. destruct (Nat.lt_ge_cases b (length l)) as [H|H].
      + rewrite nth_error_app1 by lia. apply nth_error_nth'. exact H.
      + rewrite nth_error_app2 by lia. rewrite nth_error_skipn. rewrite (nth_overflow l) by lia.
        apply nth_error_repeat_lt. lia. }
  rewrite E. cbn [bind]. eexists. split; [reflexivity|]. split.
  - split; simpl; [apply repeat_length|]. apply Forall_forall. intros r Hr. apply repeat_spec in Hr. subst r.
    split; [apply repeat_length|]. apply Forall_forall. intros p Hp'. apply repeat_spec in Hp'. subst p. exact Lp.
  - repeat (split; [reflexivity|]). intros y x b Hy Hx Hb. unfold cube_at; simpl.
    rewrite nth_error_repeat_lt by exact Hy. rewrite nth_error_repeat_lt by exact Hx. apply Hp; exact Hb.
Qed.
