From Verif Require Import M_Objects Spec_Objects P_Photo P_Ortho P_TextFiles.
Open Scope list_scope.

Lemma upd_nat_nth' {A} (l : list A) k v j :
  nth_error (upd_nat l k v) j = if Nat.eqb j k then match nth_error l k with Some _ => Some v | None => None end else nth_error l j.
Proof.
  revert k j. induction l as [|a l IH]; intros k j.
  - destruct k; simpl; destruct (Nat.eqb j _) eqn:E; destruct j; auto; simpl in *; try discriminate; auto.
  - destruct k as [|k]; destruct j as [|j]; simpl; auto.
Qed.

Lemma upd_nat_length' {A} (l : list A) k v : length (upd_nat l k v) = length l.
Proof. revert k. induction l as [|a l IH]; destruct k; simpl; auto. Qed.

Lemma map2_nth' {A B C} (f : A -> B -> C) l m i :
  nth_error (map2 f l m) i = match nth_error l i, nth_error m i with Some a, Some b => Some (f a b) | _, _ => None end.
Proof.
  revert m i. induction l as [|a l IH]; intros [|b m] [|i]; simpl; auto.
  destruct (nth_error l i); auto.
Qed.
Lemma map2_len' {A B C} (f : A -> B -> C) l m : length (map2 f l m) = Nat.min (length l) (length m).
Proof. revert m. induction l as [|a l IH]; intros [|b m]; simpl; auto. Qed.

Section G.
Context {V D G P W : Type}.
Variable to_gdal : D -> option G.
Variable from_gdal : G -> D.
Variable store : D -> G -> V -> V.
Variable zero : V.
Variable wkt_of : P -> W.
Variable proj_of : W -> P.

Lemma rect_nth ny nx (rows : list (list V)) y row : rect ny nx rows -> nth_error rows y = Some row -> length row = nx /\ (y < ny)%nat.
Proof.
  intros [L F] H. split.
  - rewrite Forall_forall in F. apply F. apply nth_error_In in H. exact H.
  - rewrite <- L. apply nth_error_Some. congruence.
Qed.

Lemma nth_some_lt {A} (l : list A) i : (i < length l)%nat -> exists a, nth_error l i = Some a.
Proof. intros H. apply nth_error_Some in H. destruct (nth_error l i); [eauto|contradiction]. Qed.

Lemma px_in ny nx nb (bands : list (list (list V))) y x k :
  length bands = nb -> Forall (rect ny nx) bands ->
  (exists v, px bands y x k = Some v) <-> (y < ny /\ x < nx /\ k < nb)%nat.
Proof.
  intros L F. unfold px. split.
  - intros (v & H). destruct (nth_error bands k) as [rows|] eqn:K; [|discriminate].
    rewrite Forall_forall in F. pose proof (F _ (nth_error_In _ _ K)) as R.
    destruct (nth_error rows y) as [row|] eqn:Y; [|discriminate].
    destruct (rect_nth _ _ _ _ _ R Y) as [E Ly]. split; [exact Ly|]. split.
    + rewrite <- E. apply nth_error_Some. congruence.
    + rewrite <- L. apply nth_error_Some. congruence.
  - intros (Hy & Hx & Hk). subst nb. destruct (nth_some_lt bands k Hk) as [rows K]. rewrite K.
    rewrite Forall_forall in F. pose proof (F _ (nth_error_In _ _ K)) as R.
    destruct R as [R1 R2]. destruct (nth_some_lt rows y) as [row Y]; [lia|]. rewrite Y.
    rewrite Forall_forall in R2. apply nth_some_lt. rewrite (R2 _ (nth_error_In _ _ Y)). exact Hx.
Qed.

(** equality of bands from equality of their values *)
Lemma bands_ext ny nx nb (b c : list (list (list V))) :
  length b = nb -> length c = nb -> Forall (rect ny nx) b -> Forall (rect ny nx) c ->
  (forall y x k, (y < ny)%nat -> (x < nx)%nat -> (k < nb)%nat -> px b y x k = px c y x k) -> b = c.
Proof.
  intros Lb Lc Fb Fc H. apply nth_error_ext. intros k.
  destruct (Nat.lt_ge_cases k nb) as [Hk|Hk].
  2:{ rewrite (proj2 (nth_error_None b k)), (proj2 (nth_error_None c k)) by lia. reflexivity. }
  destruct (nth_some_lt b k) as [rb Kb]; [lia|]. destruct (nth_some_lt c k) as [rc Kc]; [lia|].
  rewrite Kb, Kc. f_equal.
  rewrite Forall_forall in Fb, Fc.
  destruct (Fb _ (nth_error_In _ _ Kb)) as [L1 F1]. destruct (Fc _ (nth_error_In _ _ Kc)) as [L2 F2].
  rewrite Forall_forall in F1, F2.
  apply nth_error_ext. intros y. destruct (Nat.lt_ge_cases y ny) as [Hy|Hy].
  2:{ rewrite (proj2 (nth_error_None rb y)), (proj2 (nth_error_None rc y)) by lia. reflexivity. }
  destruct (nth_some_lt rb y) as [w1 Y1]; [lia|]. destruct (nth_some_lt rc y) as [w2 Y2]; [lia|].
  rewrite Y1, Y2. f_equal. apply nth_error_ext. intros x.
  pose proof (F1 _ (nth_error_In _ _ Y1)). pose proof (F2 _ (nth_error_In _ _ Y2)).
  destruct (Nat.lt_ge_cases x nx) as [Hx|Hx].
  2:{ rewrite (proj2 (nth_error_None w1 x)), (proj2 (nth_error_None w2 x)) by lia. reflexivity. }
  specialize (H y x k Hy Hx Hk). unfold px in H. rewrite Kb, Kc, Y1, Y2 in H. exact H.
Qed.

Lemma paste_rect ny nx my mx (old new : list (list V)) :
  rect ny nx old -> rect my mx new -> (my <= ny)%nat -> (mx <= nx)%nat -> rect ny nx (paste old new).
Proof.
  intros [L F] [L' F'] H1 H2. rewrite Forall_forall in F, F'. unfold paste, rect. split.
  - rewrite app_length, map2_len', skipn_length. lia.
  - apply Forall_forall. intros row I. apply in_app_or in I as [I|I].
    + apply In_nth_error in I as [i I]. rewrite map2_nth' in I.
      destruct (nth_error old i) as [o|] eqn:O; [|discriminate]. destruct (nth_error new i) as [n|] eqn:N; [|discriminate].
      injection I as <-. rewrite app_length, skipn_length.
      rewrite (F _ (nth_error_In _ _ O)), (F' _ (nth_error_In _ _ N)). lia.
    + apply F. rewrite <- (firstn_skipn (length new) old). apply in_or_app. right. exact I.
Qed.

Lemma nth_error_skipn' {A} (l : list A) n i : nth_error (skipn n l) i = nth_error l (n + i).
Proof. revert l i. induction n as [|n IH]; intros [|a l] i; simpl; auto. destruct i; auto. Qed.

Lemma paste_at ny nx my mx (old new : list (list V)) y x :
  rect ny nx old -> rect my mx new -> (my <= ny)%nat -> (mx <= nx)%nat ->
  px [paste old new] y x 0 = if (Nat.ltb y my && Nat.ltb x mx)%bool then px [new] y x 0 else px [old] y x 0.
Proof.
  intros [L F] [L' F'] H1 H2. rewrite Forall_forall in F, F'. unfold px, paste; simpl.
  destruct (Nat.ltb_spec y my) as [Hy|Hy]; simpl.
  - rewrite nth_error_app1 by (rewrite map2_len'; lia). rewrite map2_nth'.
    destruct (nth_some_lt old y) as [o O]; [lia|]. destruct (nth_some_lt new y) as [n N]; [lia|].
    rewrite O, N. pose proof (F _ (nth_error_In _ _ O)). pose proof (F' _ (nth_error_In _ _ N)).
    destruct (Nat.ltb_spec x mx) as [Hx|Hx].
    + rewrite nth_error_app1 by lia. reflexivity.
    + rewrite nth_error_app2 by lia. rewrite nth_error_skipn'. f_equal. lia.
  - rewrite nth_error_app2 by (rewrite map2_len'; lia). rewrite nth_error_skipn', map2_len'.
    replace (length new + (y - Nat.min (length old) (length new)))%nat with y by lia. reflexivity.
Qed.

Lemma stored_rect my mx (f : V -> V) rows : rect my mx rows -> rect my mx (map (map f) rows).
Proof.
  intros [L F]. split; [rewrite map_length; exact L|]. rewrite Forall_map. revert F. apply Forall_impl.
  intros a H. rewrite map_length. exact H.
Qed.

Lemma blank_rect ny nx : rect ny nx (repeat (repeat zero nx) ny).
Proof.
  split; [apply repeat_length|]. apply Forall_forall. intros r H. apply repeat_spec in H. subst. apply repeat_length.
Qed.

Lemma px_blank ny nx nb y x k : (y < ny)%nat -> (x < nx)%nat -> (k < nb)%nat ->
  px (repeat (repeat (repeat zero nx) ny) nb) y x k = Some zero.
Proof. intros. unfold px. rewrite !nth_error_repeat by assumption. reflexivity. Qed.

Notation wb := (write_bands (W := W) store).

Lemma write_bands_app dt r nd ks1 ks2 d :
  wb dt r nd (ks1 ++ ks2) d = match wb dt r nd ks1 d with (d', Ok _) => wb dt r nd ks2 d' | other => other end.
Proof.
  revert d. induction ks1 as [|k ks IH]; intros d; [reflexivity|].
  cbn [app write_bands]. destruct (py_get (r_bands r) (Z.of_nat k)); auto.
  destruct (write_array store d k dt r a) as [d'| |]; auto.
  destruct nd; simpl; auto.
Qed.

Definition final_nodata (nd : nodata) (m : nat) (old : nodata) : nodata :=
  match m with O => old | S _ => match int_nodata nd with Ok v => Nodata v | _ => old end end.

Lemma py_get_nat {A} (l : list A) k : py_get l (Z.of_nat k) = match nth_error l k with Some a => Ok a | None => Err IndexError end.
Proof.
  unfold py_get, py_index, zlen.
  destruct (Z.of_nat k <? 0)%Z eqn:E; [apply Z.ltb_lt in E; lia|].
  destruct (Nat.lt_ge_cases k (length l)) as [H|H].
  - destruct ((0 <=? Z.of_nat k) && (Z.of_nat k <? Z.of_nat (length l)))%Z eqn:B.
    + rewrite Nat2Z.id. destruct (nth_error l k); auto.
    + exfalso. apply Bool.andb_false_iff in B as [B|B]; [apply Z.leb_gt in B|apply Z.ltb_ge in B]; lia.
  - destruct ((0 <=? Z.of_nat k) && (Z.of_nat k <? Z.of_nat (length l)))%Z eqn:B.
    + exfalso. apply andb_true_iff in B as [B1 B2]. apply Z.ltb_lt in B2. lia.
    + rewrite (proj2 (nth_error_None l k)) by lia. reflexivity.
Qed.

Lemma write_bands_run dt r nd m : forall j (d : dataset V G W),
  (r_ny r <= d_ny d)%nat -> (r_nx r <= d_nx d)%nat ->
  (j + m <= length (d_bands d))%nat -> (j + m <= length (r_bands r))%nat ->
  (nd = NoNodata \/ exists v, int_nodata nd = Ok v) ->
  exists bands,
    wb dt r nd (seq j m) d =
      (mkDataset (d_nx d) (d_ny d) (d_type d) bands (d_geot d) (d_wkt d) (final_nodata nd m (d_nodata d)), Ok tt) /\
    length bands = length (d_bands d) /\
    forall k, nth_error bands k =
      if (Nat.leb j k && Nat.ltb k (j + m))%bool
      then match nth_error (d_bands d) k, nth_error (r_bands r) k with
           | Some old, Some b => Some (paste old (map (map (store dt (d_type d))) b))
           | _, _ => None
           end
      else nth_error (d_bands d) k.
Proof.
  induction m as [|m IH]; intros j d Hy Hx Hd Hr Hn.
  - exists (d_bands d). cbn [seq write_bands final_nodata]. split; [destruct d; reflexivity|]. split; [reflexivity|].
    intros k. destruct (Nat.leb_spec j k); destruct (Nat.ltb_spec k (j + 0)); simpl; auto; lia.
  - cbn [seq write_bands]. rewrite py_get_nat.
    destruct (nth_some_lt (r_bands r) j) as [b B]; [lia|]. rewrite B.
    destruct (nth_some_lt (d_bands d) j) as [old O]; [lia|].
    set (new := map (map (store dt (d_type d))) b).
    assert (WA : write_array store d j dt r b =
      Ok (mkDataset (d_nx d) (d_ny d) (d_type d) (upd_nat (d_bands d) j (paste old new)) (d_geot d) (d_wkt d) (d_nodata d))).
    { unfold write_array. rewrite (proj2 (Nat.leb_le _ _) Hy), (proj2 (Nat.leb_le _ _) Hx). simpl. rewrite O. reflexivity. }
    rewrite WA.
    set (d' := mkDataset (d_nx d) (d_ny d) (d_type d) (upd_nat (d_bands d) j (paste old new)) (d_geot d) (d_wkt d) (d_nodata d)).
    assert (Fin : forall n0, exists bands,
      wb dt r nd (seq (S j) m) (set_nodata d' n0) =
      (mkDataset (d_nx d) (d_ny d) (d_type d) bands (d_geot d) (d_wkt d) (final_nodata nd m n0), Ok tt) /\
      length bands = length (d_bands d) /\
      forall k, nth_error bands k =
        if (Nat.leb j k && Nat.ltb k (j + S m))%bool
        then match nth_error (d_bands d) k, nth_error (r_bands r) k with
             | Some old, Some b => Some (paste old (map (map (store dt (d_type d))) b))
             | _, _ => None
             end
        else nth_error (d_bands d) k).
    { intros n0. destruct (IH (S j) (set_nodata d' n0)) as (bands & E & Lb & Nb).
      - exact Hy.
      - exact Hx.
      - cbn [set_nodata d_bands d']. rewrite upd_nat_length'. lia.
      - lia.
      - exact Hn.
      - exists bands. split; [exact E|]. cbn [set_nodata d_bands d' d_type] in Lb, Nb. rewrite upd_nat_length' in Lb.
        split; [exact Lb|]. intros k. rewrite Nb, upd_nat_nth'. rewrite O.
        destruct (Nat.eqb_spec k j) as [->|Hk].
        + rewrite O, B. destruct (Nat.leb_spec (S j) j); [lia|]. cbn [andb].
          destruct (Nat.leb_spec j j); [|lia]. destruct (Nat.ltb_spec j (j + S m)); [|lia]. reflexivity.
        + destruct (Nat.leb_spec (S j) k); destruct (Nat.leb_spec j k); try lia; cbn [andb]; auto.
          replace (S j + m)%nat with (j + S m)%nat by lia. reflexivity. }
    destruct nd as [|v| |].
    + destruct (Fin (d_nodata d)) as (bands & E & Q). exists bands. split; [|exact Q].
      change (set_nodata d' (d_nodata d)) with d' in E. rewrite E. f_equal. f_equal. destruct m; reflexivity.
    + cbn [int_nodata].
      destruct (Fin (Nodata (IZR (truncZ v)))) as (bands & E & Q). exists bands. split; [|exact Q].
      rewrite E. f_equal. f_equal. destruct m; reflexivity.
    + destruct Hn as [Hn|[v Hn]]; discriminate.
    + destruct Hn as [Hn|[v Hn]]; discriminate.
Qed.

Lemma whole_int n : whole n -> n = NoNodata \/ exists v, int_nodata n = Ok v.
Proof. intros [->|[z ->]]; [auto|right]. eexists; reflexivity. Qed.

Lemma trunc_IZR z : truncZ (IZR z) = z.
Proof.
  destruct (Rlt_dec (IZR z) 0) as [H|H].
  - destruct (truncZ_neg _ H) as [[A B] _]. apply le_IZR in B. assert (IZR (truncZ (IZR z) - 1) < IZR z)%R by (rewrite minus_IZR; exact A).
    apply lt_IZR in H0. lia.
  - destruct (truncZ_nonneg (IZR z)) as [[A B] _]; [lra|]. apply le_IZR in A.
    assert (IZR z < IZR (truncZ (IZR z) + 1))%R by (rewrite plus_IZR; exact B). apply lt_IZR in H0. lia.
Qed.

Lemma whole_final n m : whole n -> (0 < m)%nat -> final_nodata n m NoNodata = n.
Proof.
  intros [->|[z ->]] H; destruct m; try lia; simpl; auto. rewrite trunc_IZR. reflexivity.
Qed.

Lemma put_same fs name (d : option (dataset V G W)) : put fs name d name = d.
Proof. unfold put. rewrite text_eqb_refl. reflexivity. Qed.
Lemma put_other fs name (d : option (dataset V G W)) n : n <> name -> put fs name d n = fs n.
Proof. intros H. unfold put. rewrite text_eqb_neq by exact H. reflexivity. Qed.

Definition blank_ds (im : @geotiff V D G P) (g : G) : dataset V G W :=
  mkDataset (gt_nx im) (gt_ny im) g (repeat (repeat (repeat zero (gt_nx im)) (gt_ny im)) (gt_nb im)) (gt_geot im) (wkt_of (gt_proj im)) NoNodata.

Lemma write_to_disk_unfold fs (im : @geotiff V D G P) name g :
  gt_type im = Some g -> (0 < gt_nx im)%nat -> (0 < gt_ny im)%nat -> (0 < gt_nb im)%nat ->
  write_to_disk from_gdal store zero wkt_of fs im name =
  match (match gt_data im with Some r => Ok r | None => geotiff_read_all from_gdal (put fs name (Some (blank_ds im g))) im end) with
  | Err e => (put fs name (Some (blank_ds im g)), im, Err e)
  | Diverges => (put fs name (Some (blank_ds im g)), im, Diverges)
  | Ok (dtype, r) =>
    let '(d, res) := wb dtype r (gt_nodata im) (seq 0 (gt_nb im)) (blank_ds im g) in
    (put fs name (Some d), with_data im (Some (dtype, r)), res)
  end.
Proof.
  intros T H1 H2 H3. unfold write_to_disk. rewrite T.
  destruct (Nat.eqb_spec (gt_nx im) 0); [lia|]. destruct (Nat.eqb_spec (gt_ny im) 0); [lia|]. destruct (Nat.eqb_spec (gt_nb im) 0); [lia|].
  reflexivity.
Qed.

(** What the loop leaves in the file *)
Lemma written_file dt r nd (im : @geotiff V D G P) g my mx mb m :
  raster_shape r my mx mb -> (my <= gt_ny im)%nat -> (mx <= gt_nx im)%nat -> (m <= mb)%nat -> (m <= gt_nb im)%nat ->
  (nd = NoNodata \/ exists v, int_nodata nd = Ok v) ->
  exists bands, wb dt r nd (seq 0 m) (blank_ds im g) =
    (mkDataset (gt_nx im) (gt_ny im) g bands (gt_geot im) (wkt_of (gt_proj im)) (final_nodata nd m NoNodata), Ok tt) /\
    length bands = gt_nb im /\ Forall (rect (gt_ny im) (gt_nx im)) bands /\
    forall y x k, (y < gt_ny im)%nat -> (x < gt_nx im)%nat -> (k < gt_nb im)%nat ->
      px bands y x k = if (Nat.ltb y my && Nat.ltb x mx && Nat.ltb k m)%bool
                       then option_map (store dt g) (px (r_bands r) y x k) else Some zero.
Proof.
  intros (S1 & S2 & S3 & S4) Hy Hx Hm Hb Hn.
  destruct (write_bands_run dt r nd m 0 (blank_ds im g)) as (bands & E & L & N); try exact Hn.
  { rewrite S1. exact Hy. } { rewrite S2. exact Hx. }
  { cbn [blank_ds d_bands]. rewrite repeat_length. lia. }
  { lia. }
  exists bands. split; [exact E|]. cbn [blank_ds d_bands] in L. rewrite repeat_length in L. split; [exact L|].
  cbn [blank_ds d_bands d_type] in N.
  assert (FR : Forall (rect (gt_ny im) (gt_nx im)) bands).
  { apply Forall_forall. intros b I. apply In_nth_error in I as [k K]. rewrite N in K.
    destruct (Nat.lt_ge_cases k (gt_nb im)) as [Hk|Hk].
    - rewrite nth_error_repeat in K by exact Hk.
      destruct (Nat.leb 0 k && Nat.ltb k (0 + m))%bool.
      + destruct (nth_error (r_bands r) k) as [rb|] eqn:RB; [|discriminate]. injection K as <-.
        rewrite Forall_forall in S4. apply paste_rect with my mx; auto.
        * apply blank_rect.
        * apply stored_rect. apply S4. apply nth_error_In in RB. exact RB.
      + injection K as <-. apply blank_rect.
    - exfalso. assert (nth_error bands k <> None) by (rewrite N; congruence). apply nth_error_Some in H. lia. }
  split; [exact FR|].
  intros y x k Ly Lx Lk. unfold px at 1. rewrite N. rewrite nth_error_repeat by exact Lk. cbn [Nat.leb andb].
  rewrite Nat.add_0_l.
  destruct (Nat.ltb_spec k m) as [Km|Km].
  - destruct (nth_some_lt (r_bands r) k) as [rb RB]; [lia|]. rewrite RB.
    rewrite Forall_forall in S4. pose proof (S4 _ (nth_error_In _ _ RB)) as R.
    pose proof (paste_at _ _ _ _ (repeat (repeat zero (gt_nx im)) (gt_ny im)) (map (map (store dt g)) rb) y x
                  (blank_rect _ _) (stored_rect _ _ _ _ R) Hy Hx) as PA.
    unfold px in PA. cbn [nth_error] in PA. rewrite PA. rewrite Bool.andb_true_r.
    destruct (Nat.ltb y my && Nat.ltb x mx)%bool.
    + unfold px. rewrite RB. rewrite nth_error_map. destruct (nth_error rb y) as [row|]; simpl; auto. apply nth_error_map.
    + rewrite nth_error_repeat by exact Ly. apply nth_error_repeat. exact Lx.
  - rewrite Bool.andb_false_r. rewrite nth_error_repeat by exact Ly. apply nth_error_repeat. exact Lx.
Qed.

Lemma dset_band_ok (d : dataset V G W) k b : nth_error (d_bands d) k = Some b -> dset_band d (Z.of_nat k) = Ok b.
Proof.
  intros H. unfold dset_band. destruct (Z.of_nat k <? 0)%Z eqn:E; [apply Z.ltb_lt in E; lia|]. rewrite Nat2Z.id, H. reflexivity.
Qed.
Lemma dset_band_err (d : dataset V G W) k : (k < 0 \/ Z.of_nat (length (d_bands d)) <= k)%Z -> dset_band d k = Err AttributeError.
Proof.
  intros H. unfold dset_band. destruct (k <? 0)%Z eqn:E; [reflexivity|]. apply Z.ltb_ge in E.
  rewrite (proj2 (nth_error_None (d_bands d) (Z.to_nat k))) by lia. reflexivity.
Qed.

Lemma dset_bands_prefix (d : dataset V G W) n : (n <= length (d_bands d))%nat ->
  mapM (fun k => dset_band d (Z.of_nat k)) (seq 0 n) = Ok (firstn n (d_bands d)).
Proof.
  intros H. rewrite (mapM_ok _ (fun k => nth k (d_bands d) [])).
  - f_equal. apply nth_error_ext. intros k. rewrite nth_error_map.
    destruct (Nat.lt_ge_cases k n) as [Hk|Hk].
    + rewrite (nth_error_nth' (seq 0 n) 0%nat) by (rewrite seq_length; exact Hk). rewrite seq_nth by exact Hk.
      simpl option_map. rewrite <- (firstn_skipn n (d_bands d)) at 1. rewrite app_nth1 by (rewrite firstn_length; lia).
      symmetry. apply nth_error_nth'. rewrite firstn_length. lia.
    + rewrite (proj2 (nth_error_None (firstn n (d_bands d)) k)) by (rewrite firstn_length; lia).
      rewrite (proj2 (nth_error_None (seq 0 n) k)) by (rewrite seq_length; lia). reflexivity.
  - intros k I. apply in_seq in I. apply dset_band_ok. apply nth_error_nth'. lia.
Qed.

Lemma mapM_err_at {A B} (f : A -> result B) l a e ks :
  (forall x, In x l -> exists b, f x = Ok b) -> f a = Err e -> mapM f (l ++ a :: ks) = Err e.
Proof.
  intros H E. induction l as [|x l IH]; simpl.
  - rewrite E. reflexivity.
  - destruct (H x) as [b Hb]; [left; reflexivity|]. rewrite Hb. simpl. rewrite IH; [reflexivity|].
    intros y Iy. apply H. right. exact Iy.
Qed.

Lemma dset_bands_more (d : dataset V G W) n : (length (d_bands d) < n)%nat ->
  mapM (fun k => dset_band d (Z.of_nat k)) (seq 0 n) = Err AttributeError.
Proof.
  intros H. replace n with (length (d_bands d) + S (n - length (d_bands d) - 1))%nat by lia.
  rewrite seq_app. cbn [seq]. apply mapM_err_at.
  - intros k I. apply in_seq in I. destruct (nth_some_lt (d_bands d) k) as [b Hb]; [lia|]. exists b. apply dset_band_ok. exact Hb.
  - apply dset_band_err. lia.
Qed.

Lemma read_bands_ok (fs : files V G W) n d nb : fs n = Some d -> (0 < nb <= length (d_bands d))%nat ->
  read_bands from_gdal fs (Some n) nb = Ok (from_gdal (d_type d), mkRaster (d_ny d) (d_nx d) (firstn nb (d_bands d))).
Proof.
  intros H L. unfold read_bands, open_dset. rewrite H. destruct nb as [|nb]; [lia|]. unfold bind at 1.
  rewrite dset_bands_prefix by lia. reflexivity.
Qed.
Lemma read_bands_more (fs : files V G W) n d nb : fs n = Some d -> (length (d_bands d) < nb)%nat ->
  read_bands (D := D) from_gdal fs (Some n) nb = Err AttributeError.
Proof.
  intros H L. unfold read_bands, open_dset. rewrite H. destruct nb as [|nb]; [lia|]. unfold bind at 1.
  rewrite dset_bands_more by lia. reflexivity.
Qed.
End G.

(* --------------------------- Micasense files -------------------------- *)

Lemma split_last_char c (t : text) : ~ In c t \/ exists u v, t = u ++ c :: v /\ ~ In c v.
Proof.
  induction t as [|x t IH]; [left; intros []|].
  destruct IH as [H|(u & v & -> & H)].
  - destruct (ascii_dec x c) as [->|N].
    + right. exists [], t. auto.
    + left. intros [E|E]; [congruence|auto].
  - right. exists (x :: u), v. auto.
Qed.

Lemma split_char_last c a b : ~ In c b -> split_char c (a ++ c :: b) = split_char c a ++ [b].
Proof.
  intros H. induction a as [|x a IH].
  - cbn [app split_char]. rewrite (split_char_notin c b) by exact H. rewrite Ascii.eqb_refl. reflexivity.
  - cbn [app split_char]. rewrite IH. destruct (Ascii.eqb x c); [reflexivity|].
    pose proof (split_char_nonempty c a) as N. destruct (split_char c a) as [|w ws]; [contradiction|]. reflexivity.
Qed.

Lemma basename_suffix p n : exists u v, p = u ++ v /\ ~ In ch_slash v /\ (~ In ch_slash n -> basename (p ++ n) = v ++ n).
Proof.
  destruct (split_last_char ch_slash p) as [H|(u & v & -> & H)].
  - exists [], p. split; [reflexivity|]. split; [exact H|]. intros Hn. unfold basename.
    rewrite rfind_notin; [reflexivity|]. rewrite in_app_iff. tauto.
  - exists (u ++ [ch_slash]), v. split; [rewrite <- app_assoc; reflexivity|]. split; [exact H|]. intros Hn.
    rewrite <- app_assoc. cbn [app]. change (u ++ ch_slash :: v ++ n) with (u ++ [ch_slash] ++ (v ++ n)).
    apply basename_join. rewrite in_app_iff. tauto.
Qed.

Lemma path_root_spec p s e : ~ In ch_slash s -> ~ In ch_slash e -> ~ In ch_dot e ->
  path_root (p ++ "_"%char :: s ++ ch_dot :: e) = p ++ "_"%char :: s.
Proof.
  intros H1 H2 H3.
  destruct (basename_suffix p ("_"%char :: s ++ ch_dot :: e)) as (u & v & E & Hv & B).
  assert (Hn : ~ In ch_slash ("_"%char :: s ++ ch_dot :: e)).
  { intros [Q|Q]; [discriminate|]. apply in_app_iff in Q as [Q|[Q|Q]]; [auto|discriminate|auto]. }
  specialize (B Hn). unfold path_root. rewrite B.
  assert (R : splitext_root (v ++ "_"%char :: s ++ ch_dot :: e) = v ++ "_"%char :: s).
  { unfold splitext_root.
    replace (v ++ "_"%char :: s ++ ch_dot :: e) with ((v ++ "_"%char :: s) ++ "."%char :: e)
      by (rewrite <- app_assoc; reflexivity).
    rewrite rfind_last by exact H3. rewrite Nat2Z.id, firstn_app, firstn_all, Nat.sub_diag. cbn [firstn]. rewrite app_nil_r.
    replace (Z.of_nat _ <? 0)%Z with false by (symmetry; apply Z.ltb_ge; lia). cbn [orb].
    rewrite forallb_app. cbn [forallb]. change (Ascii.eqb "."%char "_"%char) with false. cbn [andb]. rewrite Bool.andb_false_r. reflexivity. }
  rewrite R, E. rewrite <- app_assoc. rewrite app_length.
  replace (length u + length (v ++ "_"%char :: s ++ ch_dot :: e) - length (v ++ "_"%char :: s ++ ch_dot :: e))%nat with (length u) by lia.
  rewrite firstn_app, firstn_all, Nat.sub_diag. cbn [firstn]. rewrite app_nil_r, <- app_assoc. reflexivity.
Qed.

Lemma join_removelast_split a b : ~ In "_"%char b ->
  join (txt "_") (removelast (split_char "_"%char (a ++ "_"%char :: b))) = a.
Proof.
  intros H. rewrite split_char_last by exact H. rewrite removelast_last. apply join_split.
Qed.

Lemma py_get_hit {A} (l : list A) i a : py_get l i = Ok a -> In a l.
Proof.
  unfold py_get. destruct (py_index (zlen l) i) as [k|]; [|discriminate].
  destruct (nth_error l k) eqn:E; [|discriminate]. intros H. injection H as <-. apply nth_error_In in E. exact E.
Qed.

Lemma file_band_number_spec a dg e : ~ In ch_dot e -> is_digit dg = true ->
  file_band_number (a ++ dg :: ch_dot :: e) = Ok (Z.of_nat (nat_of_ascii dg) - 48)%Z.
Proof.
  intros He Hd. unfold file_band_number.
  replace (a ++ dg :: ch_dot :: e) with ((a ++ [dg]) ++ ch_dot :: e) by (rewrite <- app_assoc; reflexivity).
  change "."%char with ch_dot. rewrite rfind_last by exact He. rewrite app_length. cbn [length].
  replace (Z.of_nat (length a + 1) - 1)%Z with (Z.of_nat (length a)) by lia.
  rewrite py_get_nat. rewrite <- app_assoc, nth_error_app2, Nat.sub_diag by lia. cbn [app nth_error bind].
  destruct dg as [[] [] [] [] [] [] [] []]; vm_compute in Hd; try discriminate; reflexivity.
Qed.

Section Mica.
Context {V : Type}.
Variables (home : text) (fresh : nat -> text) (wd : option text).

(** the name of band k's file *)
Definition band_name (names : option (list text)) (k : nat) : text :=
  tmp_name home fresh wd (match names with None => None | Some l => nth_error l k end) k.

Definition write_one (names : option (list text)) (r : raster V) (fs : band_files (V := V)) (k : nat) : band_files :=
  fun n => if text_eqb n (band_name names k)
           then match nth_error (r_bands r) k with Some b => Some (r_ny r, r_nx r, b) | None => fs n end else fs n.

Lemma mica_loop names (r : raster V) ks : forall fs acc,
  (forall k, In k ks -> (k < length (r_bands r))%nat /\ match names with None => True | Some l => (k < length l)%nat end) ->
  mica_from_numpy_loop home fresh wd names r ks fs acc =
    (fold_left (write_one names r) ks fs, Ok (acc ++ map (band_name names) ks)).
Proof.
  induction ks as [|k ks IH]; intros fs acc H.
  - cbn. rewrite app_nil_r. reflexivity.
  - cbn [mica_from_numpy_loop fold_left map].
    destruct (H k) as [Hk Hl]; [left; reflexivity|].
    destruct (nth_some_lt (r_bands r) k Hk) as [b B]. rewrite B.
    assert (E : (match names with None => Ok None | Some l => n <- py_get l (Z.of_nat k) ;; Ok (Some n) end) =
                Ok (match names with None => None | Some l => nth_error l k end)).
    { destruct names as [l|]; [|reflexivity]. rewrite py_get_nat. destruct (nth_some_lt l k Hl) as [n N]. rewrite N. reflexivity. }
    rewrite E. rewrite IH by (intros j I; apply H; right; exact I).
    f_equal; [|rewrite <- app_assoc; reflexivity].
    f_equal. unfold write_one, band_name. apply FunctionalExtensionality.functional_extensionality. intros n.
    rewrite B. reflexivity.
Qed.

Lemma mica_loop_app names (r : raster V) ks1 ks2 fs acc :
  mica_from_numpy_loop home fresh wd names r (ks1 ++ ks2) fs acc =
  match mica_from_numpy_loop home fresh wd names r ks1 fs acc with
  | (fs', Ok acc') => mica_from_numpy_loop home fresh wd names r ks2 fs' acc'
  | other => other
  end.
Proof.
  revert fs acc. induction ks1 as [|k ks IH]; intros fs acc; [reflexivity|].
  cbn [app mica_from_numpy_loop].
  destruct (match names with None => Ok None | Some l => n <- py_get l (Z.of_nat k) ;; Ok (Some n) end); auto.
  - destruct (nth_error (r_bands r) k); auto.
Qed.

(** A file holds the band written to it last *)
Lemma writes_last names (r : raster V) m : forall fs,
  (m <= length (r_bands r))%nat ->
  (forall n, (forall k, (k < m)%nat -> band_name names k <> n) -> fold_left (write_one names r) (seq 0 m) fs n = fs n) /\
  (forall j b, (j < m)%nat -> (forall i, (j < i < m)%nat -> band_name names i <> band_name names j) ->
     nth_error (r_bands r) j = Some b ->
     fold_left (write_one names r) (seq 0 m) fs (band_name names j) = Some (r_ny r, r_nx r, b)).
Proof.
  induction m as [|m IH]; intros fs Hm.
  - split; [reflexivity|]. intros; lia.
  - destruct (IH fs) as [I1 I2]; [lia|].
    rewrite seq_S, fold_left_app. cbn [fold_left Nat.add]. split.
    + intros n H. unfold write_one at 1. rewrite text_eqb_neq by (intros E; apply (H m); [lia|congruence]).
      apply I1. intros k Hk. apply H. lia.
    + intros j b Hj Hd B. unfold write_one at 1. destruct (Nat.eq_dec j m) as [->|N].
      * rewrite text_eqb_refl, B. reflexivity.
      * rewrite text_eqb_neq.
        2:{ intros E. apply (Hd m); [lia|]. congruence. }
        apply I2; [lia| |exact B]. intros i Hi. apply Hd. lia.
Qed.

(** the last file of the same name *)
Lemma last_same names m k : (k < m)%nat ->
  exists j, (k <= j < m)%nat /\ band_name names j = band_name names k /\
            forall i, (j < i < m)%nat -> band_name names i <> band_name names j.
Proof.
  intros H. induction m as [|m IH]; [lia|].
  destruct (list_eq_dec ascii_dec (band_name names m) (band_name names k)) as [E|N].
  - exists m. split; [lia|]. split; [exact E|]. intros i Hi. lia.
  - destruct (Nat.eq_dec k m) as [->|Hk]; [contradiction|].
    destruct IH as (j & Hj & Ej & Dj); [lia|]. exists j. split; [lia|]. split; [exact Ej|].
    intros i Hi. destruct (Nat.eq_dec i m) as [->|]; [congruence|]. apply Dj. lia.
Qed.
End Mica.
