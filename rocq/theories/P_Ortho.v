(** Lemmas for C50 - C54, C60, C69 and C70. *)
From Verif Require Import RAux Text M_Envi M_Image M_Photo M_PointCalc M_Ortho Spec_Photo Spec_Ortho P_TextFiles P_Photo P_PointCalc P_Image.
Open Scope R_scope.
Open Scope list_scope.

(* ------------------------------ rounding ------------------------------ *)

Lemma Int_part_spec x : IZR (Int_part x) <= x < IZR (Int_part x) + 1.
Proof. destruct (base_Int_part x). lra. Qed.
Lemma round_even_rounds x : rounds_to x (round_even x).
Proof.
  pose proof (Int_part_spec x) as [A B]. unfold rounds_to, round_even.
  destruct (Rltb_spec (x - IZR (Int_part x)) (1 / 2)) as [C|C]; [left; rewrite Rabs_right; lra|].
  destruct (Rltb_spec (1 / 2) (x - IZR (Int_part x))) as [D|D].
  - left. rewrite plus_IZR. rewrite Rabs_left1; lra.
  - right. assert (E : x - IZR (Int_part x) = 1 / 2) by lra. destruct (Z.even _) eqn:EV.
    + split; [rewrite E, Rabs_right; lra|]. now apply Z.even_spec.
    + split; [rewrite plus_IZR; rewrite Rabs_left1; lra|]. apply Z.even_spec. rewrite Z.even_add, EV. reflexivity.
Qed.
Lemma rounds_unique x X Y : rounds_to x X -> rounds_to x Y -> X = Y.
Proof.
  unfold rounds_to. intros A B.
  assert (A' : Rabs (x - IZR X) <= 1 / 2) by lra. assert (B' : Rabs (x - IZR Y) <= 1 / 2) by lra.
  assert (forall t, Rabs t <= 1 / 2 -> - (1 / 2) <= t <= 1 / 2) as Q. { intros t Ht. unfold Rabs in Ht. destruct (Rcase_abs t); lra. }
  pose proof (Q _ A') as A1. pose proof (Q _ B') as B1.
  assert (D : (Y - 1 <= X <= Y + 1)%Z).
  { split; apply le_IZR; rewrite ?plus_IZR, ?minus_IZR; lra. }
  destruct (Z.eq_dec X Y) as [|NE]; [assumption|exfalso].
  assert (T : forall u, Rabs u < 1 / 2 -> - (1 / 2) < u < 1 / 2) by (intros u Hu; apply Rabs_def2 in Hu; lra).
  assert (E : (X = Y + 1 \/ X = Y - 1)%Z) by lia.
  assert (ER : IZR X = IZR Y + 1 \/ IZR X = IZR Y - 1). { destruct E as [-> | ->]; [left; now rewrite plus_IZR|right; now rewrite minus_IZR]. }
  destruct A as [A|[A EA]]; [apply T in A; lra|]. destruct B as [B|[B EB]]; [apply T in B; lra|].
  destruct EA as [u ->], EB as [v ->]. lia.
Qed.
Lemma rounds_even x X : rounds_to x X -> round_even x = X.
Proof. intros H. exact (rounds_unique x _ _ (round_even_rounds x) H). Qed.

(* ------------------------------- windows ------------------------------ *)

Lemma filter_span a b n : forall s,
  filter (in_span a b) (seq s n) =
  seq (Nat.max s (Z.to_nat a)) (Nat.min (s + n) (Z.to_nat b) - Nat.max s (Z.to_nat a)).
Proof.
  induction n as [|n IH]; intros s.
  - cbn. replace (Nat.min (s + 0) (Z.to_nat b) - Nat.max s (Z.to_nat a))%nat with 0%nat by lia. reflexivity.
  - cbn [seq filter]. rewrite IH. unfold in_span.
    destruct (Z.leb_spec a (Z.of_nat s)) as [A|A]; destruct (Z.ltb_spec (Z.of_nat s) b) as [B|B]; cbn [andb].
    + replace (Nat.max s (Z.to_nat a)) with s by lia.
      replace (Nat.min (s + S n) (Z.to_nat b) - s)%nat with (S (Nat.min (s + n) (Z.to_nat b - 1) - s)) by lia. cbn [seq]. f_equal.
      f_equal; lia.
    + replace (Nat.min (S s + n) (Z.to_nat b) - Nat.max (S s) (Z.to_nat a))%nat with 0%nat by lia.
      replace (Nat.min (s + S n) (Z.to_nat b) - Nat.max s (Z.to_nat a))%nat with 0%nat by lia. reflexivity.
    + f_equal; lia.
    + replace (Nat.min (S s + n) (Z.to_nat b) - Nat.max (S s) (Z.to_nat a))%nat with 0%nat by lia.
      replace (Nat.min (s + S n) (Z.to_nat b) - Nat.max s (Z.to_nat a))%nat with 0%nat by lia. reflexivity.
Qed.
Definition opt_list {A} (o : option A) : list A := match o with Some v => [v] | None => [] end.
Lemma take_seq {A} (l : list A) : forall k s, flat_map (fun i => opt_list (nth_error l i)) (seq s k) = firstn k (skipn s l).
Proof.
  induction k as [|k IH]; intros s; [reflexivity|]. cbn [seq flat_map]. rewrite IH.
  destruct (nth_error l s) as [v|] eqn:E.
  - cbn [opt_list app]. assert (ES : skipn s l = v :: skipn (S s) l).
    { clear - E. revert l E. induction s as [|s IH]; intros [|x l] E; try discriminate; cbn in *; [now injection E as ->|]. now apply IH. }
    now rewrite ES.
  - cbn [opt_list app]. apply nth_error_None in E. rewrite !skipn_all2 by lia. now rewrite !firstn_nil.
Qed.
Lemma slice_span {A} (l : list A) a b : (0 <= a)%Z -> (0 <= b)%Z ->
  py_slice l a b = flat_map (fun i => opt_list (nth_error l i)) (filter (in_span a b) (seq 0 (length l))).
Proof.
  intros Ha Hb. rewrite filter_span, take_seq. unfold py_slice, slice_bound, zlen.
  destruct (Z.ltb_spec a 0); [lia|]. destruct (Z.ltb_spec b 0); [lia|].
  destruct (Z.le_gt_cases a (Z.of_nat (length l))) as [L|L].
  - rewrite (Z.min_l a) by lia. rewrite Nat.max_0_l. f_equal. lia.
  - rewrite !skipn_all2 by lia. now rewrite !firstn_nil.
Qed.
Lemma slice_empty {A} (l : list A) a b : (a < 0)%Z -> (0 <= b)%Z -> (b - a <= zlen l)%Z -> py_slice l a b = [].
Proof.
  intros Ha Hb H. unfold py_slice, slice_bound. destruct (Z.ltb_spec a 0); [|lia]. destruct (Z.ltb_spec b 0); [lia|].
  replace (Z.to_nat _) with 0%nat by lia. reflexivity.
Qed.
Lemma slice_wraps {A} (l : list A) a b : (a < 0)%Z -> (b < 0)%Z -> (0 <= zlen l + a)%Z -> (0 <= zlen l + b)%Z ->
  py_slice l a b = py_slice l (zlen l + a) (zlen l + b).
Proof.
  intros Ha Hb H H'. unfold py_slice, slice_bound. destruct (Z.ltb_spec a 0); [|lia]. destruct (Z.ltb_spec b 0); [|lia].
  destruct (Z.ltb_spec (zlen l + a) 0); [lia|]. destruct (Z.ltb_spec (zlen l + b) 0); [lia|].
  rewrite !Z.max_r by lia. rewrite !Z.min_l by lia. reflexivity.
Qed.

Lemma flat_map_ext_in {A B} (f g : A -> list B) l : (forall x, In x l -> f x = g x) -> flat_map f l = flat_map g l.
Proof. intros H. induction l as [|a l IH]; cbn; [reflexivity|]. rewrite H, IH; [reflexivity|intros; apply H; now right|now left]. Qed.
Lemma concat_map_flat {A B} (f : A -> list B) l : concat (map f l) = flat_map f l.
Proof. symmetry. apply flat_map_concat_map. Qed.
Lemma flat_map_flat_map {A B C} (f : A -> list B) (g : B -> list C) l : flat_map g (flat_map f l) = flat_map (fun x => flat_map g (f x)) l.
Proof. induction l as [|a l IH]; cbn; [reflexivity|]. now rewrite flat_map_app, IH. Qed.

Lemma window_spec img ny nx X Y wh : raster img ny nx -> (0 <= wh)%Z -> (wh <= X)%Z -> (wh <= Y)%Z ->
  concat (map (fun row => py_slice row (X - wh) (X + wh)) (py_slice img (Y - wh) (Y + wh))) = window_pixels img ny nx X Y wh.
Proof.
  intros [L F] W HX HY. rewrite (slice_span img) by lia. rewrite concat_map_flat, flat_map_flat_map, L. unfold window_pixels.
  apply flat_map_ext_in. intros r Hr. unfold raster_at. destruct (nth_error img r) as [row|] eqn:E.
  - cbn [opt_list flat_map]. rewrite app_nil_r. rewrite slice_span by lia. rewrite Forall_forall in F. rewrite (F _ (nth_error_In _ _ E)). reflexivity.
  - cbn. induction (filter _ (seq 0 nx)); [reflexivity|assumption].
Qed.

Lemma differs_valid nodata : forall l, filter (differs nodata) l = filter (valid nodata) l.
Proof.
  intros l. apply filter_ext. intros v. unfold differs, valid. destruct nodata as [n|]; [|reflexivity]. destruct v as [r|]; [|reflexivity].
  unfold Reqb. now destruct (Req_EM_T r n).
Qed.
Lemma fsum_cases l : (exists rs, l = map Fin rs /\ fsum l = Fin (rsum rs)) \/ (In NonFinite l /\ fsum l = NonFinite).
Proof.
  induction l as [|x l IH]; [left; exists []; auto|]. destruct x as [r|]; [|right; split; [now left|reflexivity]].
  destruct IH as [(rs & -> & E)|[I E]].
  - left. exists (r :: rs). split; [reflexivity|]. cbn. rewrite E. reflexivity.
  - right. split; [now right|]. cbn. now rewrite E.
Qed.
Lemma fmean_spec l : is_mean l (fmean l).
Proof.
  destruct l as [|x l]; [right; auto|]. unfold fmean. destruct (fsum_cases (x :: l)) as [(rs & E & ES)|[I ES]]; rewrite ES.
  - left. exists rs. split; [exact E|]. split; [destruct rs; [discriminate|congruence]|]. cbn [fmap].
    replace (length (x :: l)) with (length rs); [reflexivity|]. rewrite E. now rewrite map_length.
  - right. split; [now right|reflexivity].
Qed.

(* ------------------------------- extent ------------------------------- *)

Lemma zrange_0 n : zrange 0 (Z.of_nat n) = map Z.of_nat (seq 0 n).
Proof. unfold zrange. rewrite Z.sub_0_r, Nat2Z.id. apply map_ext. intros k. lia. Qed.
Lemma py_get_first {A} (f : nat -> A) n : (0 < n)%nat -> py_get (map f (seq 0 n)) 0 = Ok (f 0%nat).
Proof. intros H. exact (py_get_map_seq f n 0 H). Qed.
Lemma py_get_last {A} (f : nat -> A) n : (0 < n)%nat -> py_get (map f (seq 0 n)) (-1) = Ok (f (n - 1)%nat).
Proof.
  intros H. unfold py_get, py_index, zlen. rewrite map_length, seq_length. cbn [Z.leb Z.ltb Z.compare andb].
  destruct (Z.leb_spec (- Z.of_nat n) (-1)); [|lia]. replace (Z.to_nat (Z.of_nat n + -1)) with (n - 1)%nat by lia.
  now rewrite nth_error_map_seq by lia.
Qed.
Lemma border_ok nx ny : (0 < nx)%nat -> (0 < ny)%nat ->
  border_pixels nx ny = Ok
    (map (fun c => (Z.of_nat c, 0%Z)) (seq 0 nx) ++ map (fun r => (Z.of_nat (nx - 1), Z.of_nat r)) (seq 0 ny) ++
     map (fun c => (Z.of_nat c, Z.of_nat (ny - 1))) (seq 0 nx) ++ map (fun r => (0%Z, Z.of_nat r)) (seq 0 ny)).
Proof.
  intros Hx Hy. unfold border_pixels. rewrite !zrange_0. rewrite !map_map.
  rewrite (py_get_first _ _ Hy). cbn [bind].
  rewrite (mapM_ok _ (fun _ => Z.of_nat (nx - 1))).
  2:{ intros r Hr. apply in_map_iff in Hr as (k & <- & _). now apply py_get_last. }
  cbn [bind]. rewrite (py_get_last _ _ Hy). cbn [bind].
  rewrite (mapM_ok _ (fun _ => 0%Z)).
  2:{ intros r Hr. apply in_map_iff in Hr as (k & <- & _). now apply py_get_first. }
  cbn [bind]. rewrite (py_get_first (fun y => map (fun _ => Z.of_nat y) (map Z.of_nat (seq 0 nx))) _ Hy). cbn [bind].
  assert (G2 : mapM (fun r : list Z => py_get r (-1)) (map (fun x => map (fun _ => Z.of_nat x) (map Z.of_nat (seq 0 nx))) (seq 0 ny)) = Ok (map Z.of_nat (seq 0 ny))).
  { clear - Hx. induction (seq 0 ny) as [|k l IH]; [reflexivity|]. cbn [map mapM]. rewrite map_map at 1. rewrite (py_get_last _ _ Hx). cbn [bind]. rewrite IH. reflexivity. }
  assert (G4 : mapM (fun r : list Z => py_get r 0) (map (fun x => map (fun _ => Z.of_nat x) (map Z.of_nat (seq 0 nx))) (seq 0 ny)) = Ok (map Z.of_nat (seq 0 ny))).
  { clear - Hx. induction (seq 0 ny) as [|k l IH]; [reflexivity|]. cbn [map mapM]. rewrite map_map at 1. rewrite (py_get_first _ _ Hx). cbn [bind]. rewrite IH. reflexivity. }
  rewrite G2. cbn [bind]. rewrite (py_get_last (fun y => map (fun _ => Z.of_nat y) (map Z.of_nat (seq 0 nx))) _ Hy). cbn [bind]. rewrite G4. cbn [bind].
  apply (f_equal Ok). rewrite !map_map.
  assert (C : forall (A B : Type) (l l' : list A) (m m' : list B), length l = length m -> combine (l ++ l') (m ++ m') = combine l m ++ combine l' m').
  { intros A B l. induction l as [|a l IH]; intros l' [|b m] m' E; try discriminate; [reflexivity|]. cbn. now rewrite IH by (cbn in E; lia). }
  assert (CM : forall (A B C : Type) (f : A -> B) (g : A -> C) l, combine (map f l) (map g l) = map (fun x => (f x, g x)) l).
  { intros A B D f g l. induction l as [|a l IH]; [reflexivity|]. cbn. now rewrite IH. }
  rewrite !C by (rewrite !map_length; reflexivity). rewrite !CM. reflexivity.
Qed.
Lemma border_spec nx ny l : border_pixels nx ny = Ok l -> (0 < nx)%nat -> (0 < ny)%nat ->
  forall x y, In (x, y) l <-> exists c r, x = Z.of_nat c /\ y = Z.of_nat r /\ on_border nx ny c r.
Proof.
  intros E Hx Hy x y. rewrite (border_ok nx ny Hx Hy) in E. injection E as <-.
  rewrite !in_app_iff, !in_map_iff. unfold on_border. split.
  - intros [(c & E & I)|[(r & E & I)|[(c & E & I)|(r & E & I)]]]; injection E as <- <-; apply in_seq in I.
    + exists c, 0%nat. lia.
    + exists (nx - 1)%nat, r. lia.
    + exists c, (ny - 1)%nat. lia.
    + exists 0%nat, r. lia.
  - intros (c & r & -> & -> & Hc & Hr & [ -> |[ -> |[ -> | -> ]]]).
    + right. right. right. exists r. split; [reflexivity|]. apply in_seq. lia.
    + right. left. exists r. split; [reflexivity|]. apply in_seq. lia.
    + left. exists c. split; [reflexivity|]. apply in_seq. lia.
    + right. right. left. exists c. split; [reflexivity|]. apply in_seq. lia.
Qed.
Lemma border_empty nx ny : nx = 0%nat \/ ny = 0%nat -> border_pixels nx ny = Err IndexError.
Proof.
  intros H. unfold border_pixels. rewrite !zrange_0. destruct ny as [|ny]; [reflexivity|].
  destruct nx as [|nx]; [|lia]. cbn [seq map]. rewrite !map_map. cbn. reflexivity.
Qed.

Lemma rmin_max_range l lo hi : l <> [] -> rmin l = Some lo -> rmax l = Some hi -> forall x, In x l -> lo <= x <= hi.
Proof. intros _ A B x I. apply rmin_spec in A. apply rmax_spec in B. split; [now apply A|now apply B]. Qed.
Lemma weighted_range ws xs lo hi : length ws = length xs -> Forall (fun w => 0 <= w) ws -> (forall x, In x xs -> lo <= x <= hi) ->
  lo * rsum ws <= rsum (map2 Rmult ws xs) <= hi * rsum ws.
Proof.
  revert xs. induction ws as [|w ws IH]; intros [|x xs] L F B; try discriminate; cbn; [lra|].
  inversion F; subst. destruct (B x (or_introl eq_refl)). assert (I := IH xs ltac:(cbn in L; lia) H2 (fun y Hy => B y (or_intror Hy))).
  assert (lo * w <= x * w) by (apply Rmult_le_compat_r; assumption). assert (x * w <= hi * w) by (apply Rmult_le_compat_r; assumption).
  unfold rsum in *. lra.
Qed.
Lemma hull_bounds vs q x0 y0 x1 y1 : in_hull vs q -> bounds vs = Some (x0, y0, x1, y1) -> x0 <= fst q <= x1 /\ y0 <= snd q <= y1.
Proof.
  intros (ws & L & F & S1 & EX & EY) B. unfold bounds in B.
  destruct (rmin (map fst vs)) as [a|] eqn:E1; [|discriminate]. destruct (rmin (map snd vs)) as [b|] eqn:E2; [|discriminate].
  destruct (rmax (map fst vs)) as [c|] eqn:E3; [|discriminate]. destruct (rmax (map snd vs)) as [d|] eqn:E4; [|discriminate].
  injection B as <- <- <- <-. rewrite EX, EY. split.
  - pose proof (weighted_range ws (map fst vs) a c ltac:(now rewrite map_length) F) as W. rewrite S1 in W.
    rewrite !Rmult_1_r in W. apply W. intros x I. apply rmin_spec in E1. apply rmax_spec in E3. split; [now apply E1|now apply E3].
  - pose proof (weighted_range ws (map snd vs) b d ltac:(now rewrite map_length) F) as W. rewrite S1 in W.
    rewrite !Rmult_1_r in W. apply W. intros x I. apply rmin_spec in E2. apply rmax_spec in E4. split; [now apply E2|now apply E4].
Qed.

(* ------------------------------ obstruction --------------------------- *)

Lemma fold_or {A} (P : A -> sight -> bool) sights steps :
  fold_left (fun mask step => map2 (fun s v => if P step s then 1 else v) sights mask) steps (map (fun _ => 0) sights) =
  map (fun s => if existsb (fun step => P step s) steps then 1 else 0) sights.
Proof.
  assert (G : forall (f : sight -> R), fold_left (fun mask step => map2 (fun s v => if P step s then 1 else v) sights mask) steps (map f sights) =
    map (fun s => if existsb (fun step => P step s) steps then 1 else f s) sights); [|apply G].
  induction steps as [|st steps IH]; intros f; [reflexivity|]. cbn [fold_left existsb].
  assert (E : map2 (fun s v => if P st s then 1 else v) sights (map f sights) = map (fun s => if P st s then 1 else f s) sights).
  { clear. induction sights as [|s l IH]; [reflexivity|]. cbn. now rewrite IH. }
  rewrite E, IH. apply map_ext. intros s. destruct (P st s); cbn; [now destruct (existsb _ _)|reflexivity].
Qed.
Lemma fgt_above v h : fgt v h = true <-> above v h.
Proof.
  unfold fgt, above. destruct v as [z|].
  - destruct (Rltb_spec h z) as [H|H].
    + split; [intros _; exists z; auto|auto].
    + split; [discriminate|]. intros (z' & E & Hz). injection E as <-. contradiction.
  - split; [discriminate|]. intros (z' & E & _). discriminate.
Qed.
Lemma ceilZ_ge x : x <= IZR (ceilZ x) /\ IZR (ceilZ x) < x + 1.
Proof. unfold ceilZ. rewrite opp_IZR. destruct (base_Int_part (- x)). lra. Qed.
(** The steps are the integers from 1 below n *)
Lemma steps_spec n x : In x (map (fun k => 1 + INR k) (seq 0 (Z.to_nat (ceilZ (n - 1))))) <-> exists k : nat, (1 <= k)%nat /\ INR k < n /\ x = INR k.
Proof.
  destruct (ceilZ_ge (n - 1)) as [A B]. rewrite in_map_iff. split.
  - intros (k & <- & I). apply in_seq in I. exists (S k). rewrite S_INR. split; [lia|]. split; [|ring].
    assert (IZR (Z.of_nat k) <= IZR (ceilZ (n - 1) - 1)) as Q by (apply IZR_le; lia). rewrite minus_IZR, <- INR_IZR_INZ in Q. lra.
  - intros (k & H1 & H2 & ->). exists (k - 1)%nat. assert (EK : INR k = INR (k - 1) + 1). { rewrite <- S_INR. f_equal. lia. }
    split; [lra|]. apply in_seq. assert (IZR (Z.of_nat (k - 1)) < IZR (ceilZ (n - 1))) as Q. { rewrite <- INR_IZR_INZ. lra. }
    apply lt_IZR in Q. lia.
Qed.

(* -------------------------------- states ------------------------------ *)

Lemma field_key_inj f g : field_key f = field_key g -> f = g.
Proof. destruct f, g; intros H; try reflexivity; vm_compute in H; discriminate. Qed.
Lemma field_eqb_spec f g : field_eqb f g = true <-> f = g.
Proof. destruct f, g; cbn; split; intros; congruence. Qed.
Lemma metadata_snoc {V} (none : V) ops f v : metadata_run none (ops ++ [(f, v)]) = dict_set (metadata_run none ops) (field_key f) v.
Proof. unfold metadata_run. now rewrite fold_left_app. Qed.

Lemma image_run_snoc {V} (heap : nat -> array3 V) h op : image_run heap (h ++ [op]) = match image_step (image_run heap h) op with Ok w => w | _ => image_run heap h end.
Proof. unfold image_run. now rewrite fold_left_app. Qed.
Lemma holds_snoc {V} (h : list (image_op V)) op o : holds (h ++ [op]) o = match gives_data o op with Some a => Some a | None => holds h o end.
Proof. unfold holds. apply last_some_app. Qed.
Lemma image_run_img {V} (heap : nat -> array3 V) h o : w_img (image_run heap h) o = holds h o.
Proof.
  induction h as [|op h IH] using rev_ind; [reflexivity|]. rewrite image_run_snoc, holds_snoc. destruct op as [o' a|o' data b]; cbn.
  - unfold upd. rewrite (Nat.eqb_sym o o'). destruct (Nat.eqb o' o); [reflexivity|exact IH].
  - destruct (w_img (image_run heap h) o') as [a|]; [|exact IH]. destruct (py_index _ _); [|exact IH]. destruct (is_band _ _ _); exact IH.
Qed.
Lemma is_band_spec {V} ny nx (data : list (list V)) : is_band ny nx data = true <-> raster data ny nx.
Proof.
  unfold is_band, raster. rewrite Bool.andb_true_iff, Nat.eqb_eq, forallb_forall, Forall_forall. split; intros [A B]; split; auto; intros r Hr; [apply Nat.eqb_eq|apply Nat.eqb_eq]; auto.
Qed.
Lemma py_index_spec (n : nat) i k : py_index (Z.of_nat n) i = Some k <-> (k < n)%nat /\ (i = Z.of_nat k \/ i = Z.of_nat k - Z.of_nat n)%Z.
Proof.
  unfold py_index. destruct (Z.leb_spec 0 i), (Z.ltb_spec i (Z.of_nat n)); cbn [andb].
  - split; [intros E; injection E as <-; lia|]. intros [A [B|B]]; [|lia]. f_equal. lia.
  - destruct (Z.ltb_spec i 0); [lia|]. cbn [andb]. split; [discriminate|lia].
  - destruct (Z.ltb_spec i 0); [|lia]. destruct (Z.leb_spec (- Z.of_nat n) i); cbn [andb].
    + split; [intros E; injection E as <-; lia|]. intros [A [B|B]]; [lia|]. f_equal. lia.
    + split; [discriminate|lia].
  - lia.
Qed.
(** Shapes never change *)
Lemma image_run_shape {V} (heap : nat -> array3 V) h a :
  let w := w_heap (image_run heap h) a in
  a_ny w = a_ny (heap a) /\ a_nx w = a_nx (heap a) /\ length (a_bands w) = length (a_bands (heap a)) /\ a_store w = a_store (heap a).
Proof.
  cbv zeta. induction h as [|op h IH] using rev_ind; [auto|]. rewrite image_run_snoc. destruct op as [o' a'|o' data b]; cbn; [exact IH|].
  destruct (w_img (image_run heap h) o') as [a'|]; [|exact IH]. destruct (py_index _ _); [|exact IH]. destruct (is_band _ _ _); [|exact IH].
  cbn. unfold upd. destruct (Nat.eqb_spec a a') as [->|]; [|exact IH]. cbn. rewrite upd_nat_length. exact IH.
Qed.
Lemma writes_step {V} (heap : nat -> array3 V) h op a b data : writes heap h op a b data ->
  nth_error (a_bands (w_heap (image_run heap (h ++ [op])) a)) b = Some (map (map (a_store (heap a))) data).
Proof.
  intros (o & i & -> & H & Hb & Hi & R). rewrite image_run_snoc. cbn. rewrite image_run_img, H.
  destruct (image_run_shape heap h a) as (S1 & S2 & S3 & S4).
  unfold zlen. rewrite (proj2 (py_index_spec _ i b)) by (rewrite S3; auto). rewrite S1, S2, (proj2 (is_band_spec _ _ _) R). cbn. unfold upd. rewrite Nat.eqb_refl. cbn.
  rewrite upd_nat_nth, Nat.eqb_refl, S4. destruct (Nat.ltb_spec b (length (a_bands (w_heap (image_run heap h) a)))); [reflexivity|lia].
Qed.
Lemma not_writes_step {V} (heap : nat -> array3 V) h op a b : (forall data, ~ writes heap h op a b data) ->
  nth_error (a_bands (w_heap (image_run heap (h ++ [op])) a)) b = nth_error (a_bands (w_heap (image_run heap h) a)) b.
Proof.
  intros NW. rewrite image_run_snoc. destruct op as [o' a'|o' data i]; cbn; [reflexivity|].
  rewrite image_run_img. destruct (holds h o') as [a'|] eqn:H; [|reflexivity].
  destruct (image_run_shape heap h a') as (S1 & S2 & S3 & S4).
  destruct (py_index (zlen (a_bands (w_heap (image_run heap h) a'))) i) as [k|] eqn:K; [|reflexivity].
  destruct (is_band _ _ data) eqn:B; [|reflexivity]. cbn. unfold upd. destruct (Nat.eqb_spec a a') as [->|]; [|reflexivity]. cbn.
  rewrite upd_nat_nth. destruct (Nat.eqb_spec b k) as [->|]; [|reflexivity]. exfalso. apply (NW data).
  unfold zlen in K. apply py_index_spec in K as [K1 K2]. rewrite S3 in K1, K2. exists o', i. split; [reflexivity|]. split; [exact H|]. split; [exact K1|]. split; [exact K2|].
  apply is_band_spec. now rewrite <- S1, <- S2.
Qed.

(* -------------------------------- ortho ------------------------------- *)

Lemma map_rows_at {A B} (f : A -> B) rows r c : raster_at (map (map f) rows) r c = option_map f (raster_at rows r c).
Proof. unfold raster_at. rewrite nth_error_map. destruct (nth_error rows r); [cbn; now rewrite nth_error_map|reflexivity]. Qed.
Lemma map2_rows_at {A B C} (f : A -> B -> C) l m r c x y : raster_at l r c = Some x -> raster_at m r c = Some y ->
  raster_at (map2 (map2 f) l m) r c = Some (f x y).
Proof.
  unfold raster_at. destruct (nth_error l r) as [l1|] eqn:E1; [|discriminate]. destruct (nth_error m r) as [m1|] eqn:E2; [|discriminate].
  intros E3 E4. rewrite (map2_nth _ _ _ _ _ _ E1 E2). now apply map2_nth.
Qed.
Lemma raster_map {A B} (f : A -> B) rows ny nx : raster rows ny nx -> raster (map (map f) rows) ny nx.
Proof. intros [L F]. split; [now rewrite map_length|]. apply Forall_map. eapply Forall_impl; [|exact F]. intros r. now rewrite map_length. Qed.
Lemma unflatten_map {A B} (f : A -> B) rows ny nx : raster rows ny nx ->
  unflatten_image_band (map f (concat rows)) nx ny = Ok (mkBand ny nx (map (map f) rows)).
Proof.
  intros R. pose proof (flatten_unflatten (mkBand ny nx (map (map f) rows))) as H.
  assert (W : band_wf (mkBand ny nx (map (map f) rows))) by exact (raster_map f _ _ _ R).
  specialize (H W). unfold flatten_image_band in H. cbn [b_rows b_nx b_ny] in H. now rewrite concat_map_map in H.
Qed.
Lemma combine_raster {A B} (gx : list (list A)) (gy : list (list B)) ny nx : raster gx ny nx -> raster gy ny nx ->
  raster (map2 (fun xs ys => combine xs ys) gx gy) ny nx /\
  forall r c x y, raster_at gx r c = Some x -> raster_at gy r c = Some y -> raster_at (map2 (fun xs ys => combine xs ys) gx gy) r c = Some (x, y).
Proof.
  intros [L1 F1] [L2 F2]. split.
  - split; [rewrite map2_length; lia|].
    clear L1 L2. revert gy F2. induction F1 as [|a l H F IH]; intros gy F2; [constructor|]. destruct F2 as [|b m H2 F2]; [constructor|].
    cbn. constructor; [rewrite combine_length; lia|auto].
  - intros r c x y. unfold raster_at. destruct (nth_error gx r) as [l1|] eqn:E1; [|discriminate]. destruct (nth_error gy r) as [m1|] eqn:E2; [|discriminate].
    intros E3 E4. rewrite (map2_nth _ _ _ _ _ _ E1 E2). clear - E3 E4. revert m1 c E3 E4.
    induction l1 as [|a l IH]; intros [|b m] [|c] E3 E4; try discriminate; cbn in *; [congruence|auto].
Qed.
