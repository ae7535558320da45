(** C50 - C54, C60, C69, C70: image objects, sampling, obstruction, extent, masking, ortho. *)
From Verif Require Import RAux Text M_Envi M_Image M_Photo M_PointCalc M_Ortho Spec_Photo Spec_Ortho P_TextFiles P_Photo P_PointCalc P_Image P_Ortho Prop_Photo.
Open Scope R_scope.
Open Scope list_scope.

(* -------------------------------- C50 -------------------------------- *)

(** Every metadata field holds the value last set for it; the no-data value is None until it
    is set, and asking for any other field that was never set raises KeyError. *)
Theorem C50_metadata {V} (none : V) ops f :
  metadata_get (metadata_run none ops) f =
  match last_some (gives_field f) ops with
  | Some v => Ok v
  | None => if field_eqb f NodataVal then Ok none else Err KeyError
  end.
Proof.
  induction ops as [|[g v] ops IH] using rev_ind; [destruct f; reflexivity|].
  rewrite metadata_snoc, last_some_app. unfold metadata_get, gives_field at 1. cbn [fst snd].
  destruct (field_eqb g f) eqn:E.
  - apply field_eqb_spec in E as ->. now rewrite dict_get_set_eq.
  - rewrite dict_get_set_neq; [exact IH|]. intros K. apply field_key_inj in K. subst. rewrite (proj2 (field_eqb_spec _ _) eq_refl) in E. discriminate.
Qed.
Print Assumptions C50_metadata.

(** The dictionary holds the values under the documented names. *)
Theorem C50_field_names {V} (none : V) ops v :
  dict_get (metadata_run none (ops ++ [(ImageName, v)])) (txt "img_name") = Ok v /\
  dict_get (metadata_run none (ops ++ [(NpixX, v)])) (txt "npix_x") = Ok v /\
  dict_get (metadata_run none (ops ++ [(NpixY, v)])) (txt "npix_y") = Ok v /\
  dict_get (metadata_run none (ops ++ [(NBands, v)])) (txt "n_bands") = Ok v /\
  dict_get (metadata_run none (ops ++ [(NodataVal, v)])) (txt "nodata_val") = Ok v.
Proof. rewrite !metadata_snoc. repeat apply conj; apply dict_get_set_eq. Qed.
Print Assumptions C50_field_names.

(** Each band of the array an image object holds is the data last written to it, converted to
    the array's type: by this object or by another one holding the same array. *)
Theorem C50_band_last {V} (heap : nat -> array3 V) h o a b data i :
  holds h o = Some a -> last_write heap h a b data -> (b < length (a_bands (heap a)))%nat ->
  (i = Z.of_nat b \/ i = Z.of_nat b - Z.of_nat (length (a_bands (heap a))))%Z ->
  get_image_band (image_run heap h) o i = Ok (map (map (a_store (heap a))) data).
Proof.
  intros H (h1 & op & h2 & -> & W & NW) Hb Hi. unfold get_image_band. rewrite image_run_img, H.
  set (h := h1 ++ op :: h2) in *. destruct (image_run_shape heap h a) as (_ & _ & S3 & _).
  unfold py_get, zlen. rewrite (proj2 (py_index_spec _ i b)) by (rewrite S3; auto).
  enough (E : nth_error (a_bands (w_heap (image_run heap h) a)) b = Some (map (map (a_store (heap a))) data)) by now rewrite E.
  unfold h. clear - W NW. induction h2 as [|op' h2 IH] using rev_ind; [now apply writes_step|].
  replace (h1 ++ op :: h2 ++ [op']) with ((h1 ++ op :: h2) ++ [op']) by (now rewrite <- app_assoc).
  rewrite not_writes_step.
  - apply IH. intros h3 op2 h4 data' ->. apply (NW h3 op2 (h4 ++ [op']) data'). now rewrite <- app_assoc.
  - intros data'. exact (NW h2 op' [] data' eq_refl).
Qed.
Print Assumptions C50_band_last.

(** A band that was never written keeps its initial contents: writing other bands, other
    arrays or other objects, and failed calls, do not change it. *)
Theorem C50_band_initial {V} (heap : nat -> array3 V) h o a b data i :
  holds h o = Some a -> never_written heap h a b -> nth_error (a_bands (heap a)) b = Some data ->
  (i = Z.of_nat b \/ i = Z.of_nat b - Z.of_nat (length (a_bands (heap a))))%Z ->
  get_image_band (image_run heap h) o i = Ok data.
Proof.
  intros H NW Hd Hi. assert (Hb : (b < length (a_bands (heap a)))%nat) by (apply nth_error_Some; congruence).
  unfold get_image_band. rewrite image_run_img, H. destruct (image_run_shape heap h a) as (_ & _ & S3 & _).
  unfold py_get, zlen. rewrite (proj2 (py_index_spec _ i b)) by (rewrite S3; auto).
  enough (E : nth_error (a_bands (w_heap (image_run heap h) a)) b = Some data) by now rewrite E.
  clear - NW Hd. induction h as [|op h IH] using rev_ind; [exact Hd|].
  rewrite not_writes_step.
  - apply IH. intros h1 op' h2 data' ->. apply (NW h1 op' (h2 ++ [op]) data'). now rewrite <- app_assoc.
  - intros data'. exact (NW h op [] data' eq_refl).
Qed.
Print Assumptions C50_band_initial.

(** For every history, object and band one of the two cases applies. *)
Theorem C50_cases {V} (heap : nat -> array3 V) h a b :
  never_written heap h a b \/ exists data, last_write heap h a b data.
Proof.
  induction h as [|op h IH] using rev_ind.
  - left. intros h1 op h2 data E. destruct h1; discriminate.
  - assert (D : (exists data, writes heap h op a b data) \/ forall data, ~ writes heap h op a b data).
    { destruct op as [o' a'|o' data i]; [right; intros data (o & i & E & _); discriminate|].
      destruct (holds h o') as [a'|] eqn:H; [|right; intros data' (o & i' & E & H' & _); injection E as <- <- <-; congruence].
      destruct (Nat.eq_dec a' a) as [->|]; [|right; intros data' (o & i' & E & H' & _); injection E as <- <- <-; congruence].
      destruct (py_index (Z.of_nat (length (a_bands (heap a)))) i) as [k|] eqn:K.
      - destruct (Nat.eq_dec k b) as [->|NE].
        + destruct (is_band (a_ny (heap a)) (a_nx (heap a)) data) eqn:B.
          * left. exists data, o', i. apply py_index_spec in K. apply is_band_spec in B. tauto.
          * right. intros data' (o & i' & E & H' & _ & _ & RR). injection E as <- <- <-. apply is_band_spec in RR. congruence.
        + right. intros data' (o & i' & E & H' & P1 & P2 & _). injection E as <- <- <-.
          rewrite (proj2 (py_index_spec _ _ b)) in K by auto. congruence.
      - right. intros data' (o & i' & E & H' & P1 & P2 & _). injection E as <- <- <-.
        rewrite (proj2 (py_index_spec _ _ b)) in K by auto. congruence. }
    destruct D as [[data W]|NW].
    + right. exists data, h, op, []. split; [reflexivity|]. split; [exact W|]. intros h3 op' h4 d E. destruct h3; discriminate.
    + destruct IH as [N|(data & h1 & op1 & h2 & -> & W & NL)].
      * left. intros h1 op' h2 data E. destruct h2 as [|x h2 _] using rev_ind.
        -- apply app_inj_tail in E as [-> ->]. apply NW.
        -- rewrite app_comm_cons, app_assoc in E. apply app_inj_tail in E as [-> _]. now apply (N h1 op' h2).
      * right. exists data, h1, op1, (h2 ++ [op]). split; [now rewrite <- app_assoc|]. split; [exact W|].
        intros h3 op' h4 data' E. destruct h4 as [|x h4 _] using rev_ind.
        -- apply app_inj_tail in E as [<- <-]. apply NW.
        -- rewrite app_comm_cons, app_assoc in E. apply app_inj_tail in E as [-> _]. now apply (NL h3 op' h4).
Qed.
Print Assumptions C50_cases.

(** Without data, reading and writing a band raise TypeError; the index of a band that does not
    exist raises IndexError. *)
Theorem C50_errors {V} (heap : nat -> array3 V) h o i data :
  (holds h o = None ->
     get_image_band (image_run heap h) o i = Err TypeError /\ image_step (image_run heap h) (SetImageBand o data i) = Err TypeError) /\
  (forall a, holds h o = Some a -> (i < - Z.of_nat (length (a_bands (heap a))) \/ Z.of_nat (length (a_bands (heap a))) <= i)%Z ->
     get_image_band (image_run heap h) o i = Err IndexError /\ image_step (image_run heap h) (SetImageBand o data i) = Err IndexError).
Proof.
  split.
  - intros H. unfold get_image_band. cbn. rewrite image_run_img, H. auto.
  - intros a H Hi. unfold get_image_band. cbn. rewrite image_run_img, H. destruct (image_run_shape heap h a) as (_ & _ & S3 & _).
    unfold py_get, zlen. rewrite S3. destruct (py_index _ i) as [k|] eqn:K; [|auto]. apply py_index_spec in K. lia.
Qed.
Print Assumptions C50_errors.

(** The setter keeps the caller's array: two image objects given the same array share it. *)
Theorem C50_shared_refuted : exists (heap : nat -> array3 Z) h1 h2,
  h2 = [SetImageBand 1 [[7%Z]] 0] /\ get_image_band (image_run heap h1) 0 0 = Ok [[5%Z]] /\ get_image_band (image_run heap (h1 ++ h2)) 0 0 = Ok [[7%Z]].
Proof.
  exists (fun _ => mkArray 1 1 [[[5%Z]]] (fun v => v)), [SetImageData 0 0; SetImageData 1 0], [SetImageBand 1 [[7%Z]] 0].
  repeat split; reflexivity.
Qed.
Print Assumptions C50_shared_refuted.

Definition heap_example : nat -> array3 Z := fun _ => mkArray 1 2 [[[5; 6]]; [[8; 9]]]%Z (fun v => Z.modulo v 256).
Definition history_example : list (image_op Z) :=
  [SetImageData 0 3; SetImageBand 0 [[1; 300]]%Z (-1)%Z; SetImageBand 0 [[1; 2; 3]]%Z 1; SetImageBand 4 [[1; 2]]%Z 1].
Example C50_hypotheses_met :
  holds history_example 0 = Some 3%nat /\ last_write heap_example history_example 3 1 [[1; 300]]%Z /\
  get_image_band (image_run heap_example history_example) 0 1 = Ok [[1; 44]]%Z /\
  get_image_band (image_run heap_example history_example) 0 0 = Ok [[5; 6]]%Z.
Proof.
  split; [reflexivity|]. split; [|split; reflexivity].
  exists [SetImageData 0 3], (SetImageBand 0 [[1; 300]]%Z (-1)%Z), [SetImageBand 0 [[1; 2; 3]]%Z 1; SetImageBand 4 [[1; 2]]%Z 1].
  split; [reflexivity|]. split.
  - exists 0%nat, (-1)%Z. split; [reflexivity|]. split; [reflexivity|]. split; [cbn; lia|]. split; [right; reflexivity|]. split; [reflexivity|repeat constructor].
  - intros [|x [|y [|]]] op' h4 data' E; try discriminate; injection E; intros; subst.
    + intros (o & i & E' & _ & _ & _ & [_ F]). injection E' as <- <- <-. inversion F; subst. discriminate.
    + intros (o & i & E' & H' & _). injection E' as <- <- <-. discriminate.
Qed.

(* -------------------------------- C51 -------------------------------- *)

(** get_pixel_values evaluates every band and every point on its own. *)
Theorem C51_all images nodata locate window points b img k p :
  nth_error images b = Some img -> nth_error points k = Some p ->
  exists row, nth_error (get_pixel_values images nodata locate window points) b = Some row /\ length row = length points /\
    nth_error row k = Some (pixel_value img nodata window (locate b p)).
Proof.
  intros Hb Hk. unfold get_pixel_values. exists (map (fun p => pixel_value img nodata window (locate b p)) points).
  split; [|split; [apply map_length|now rewrite nth_error_map, Hk]].
  unfold mapi. rewrite nth_error_map.
  assert (G : forall s c, nth_error images c = Some img -> nth_error (combine (seq s (length images)) images) c = Some ((s + c)%nat, img)).
  { clear Hb. induction images as [|x l IH]; intros s [|c] E; try discriminate; cbn in *.
    - injection E as ->. now rewrite Nat.add_0_r.
    - rewrite (IH (S s) c E). now rewrite Nat.add_succ_r. }
  rewrite (G 0%nat b Hb). reflexivity.
Qed.
Print Assumptions C51_all.

(** A window that does not start left of or above the image: the value is the mean of its valid
    pixels, NaN if there are none. *)
Theorem C51_mean img ny nx nodata window wh x y X Y : raster img ny nx ->
  rounds_to (IZR window / 2) wh -> rounds_to x X -> rounds_to y Y -> (0 <= wh)%Z -> (wh <= X)%Z -> (wh <= Y)%Z ->
  is_mean (filter (valid nodata) (window_pixels img ny nx X Y wh)) (pixel_value img nodata window (x, y)).
Proof.
  intros RR HW HX HY W0 WX WY. unfold pixel_value. cbn [fst snd]. unfold half_window.
  rewrite (rounds_even _ _ HW), (rounds_even _ _ HX), (rounds_even _ _ HY). rewrite (window_spec _ _ _ _ _ _ RR W0 WX WY), differs_valid. apply fmean_spec.
Qed.
Print Assumptions C51_mean.

Lemma map_nil_concat {A B} (f : A -> list B) l : (forall x, In x l -> f x = []) -> concat (map f l) = [].
Proof. induction l as [|a l IH]; intros H; [reflexivity|]. cbn. rewrite (H a (or_introl eq_refl)). apply IH. intros; apply H; now right. Qed.
Lemma in_skipn {A} (x : A) : forall n l, In x (skipn n l) -> In x l.
Proof. induction n as [|n IH]; intros [|a l] H; try assumption. right. now apply IH. Qed.
Lemma in_firstn {A} (x : A) : forall n l, In x (firstn n l) -> In x l.
Proof. induction n as [|n IH]; intros [|a l] H; try contradiction. destruct H as [->|H]; [now left|right; now apply IH]. Qed.
Lemma in_slice_list {A} (x : A) l a b : In x (py_slice l a b) -> In x l.
Proof. unfold py_slice. intros H. apply in_firstn in H. now apply in_skipn in H. Qed.

(** A window that crosses the left or the top border yields NaN, whatever the pixels in it. *)
Theorem C51_border img ny nx nodata window wh x y X Y : raster img ny nx ->
  rounds_to (IZR window / 2) wh -> rounds_to x X -> rounds_to y Y ->
  (X < wh /\ 0 <= X + wh /\ 2 * wh <= Z.of_nat nx \/ Y < wh /\ 0 <= Y + wh /\ 2 * wh <= Z.of_nat ny)%Z ->
  pixel_value img nodata window (x, y) = NonFinite.
Proof.
  intros [L F] HW HX HY H. unfold pixel_value. cbn [fst snd]. unfold half_window.
  rewrite (rounds_even _ _ HW), (rounds_even _ _ HX), (rounds_even _ _ HY).
  destruct H as [H|H].
  - rewrite map_nil_concat; [reflexivity|]. intros row HR. apply slice_empty; try lia.
    apply in_slice_list in HR. rewrite Forall_forall in F. unfold zlen. rewrite (F row HR). lia.
  - rewrite (slice_empty img) by (unfold zlen; lia). reflexivity.
Qed.
Print Assumptions C51_border.

(** A window entirely left of the image is read from its right side: the value is that of the
    location one image width further right. *)
Theorem C51_wraps img ny nx nodata window wh x y X Y : raster img ny nx ->
  rounds_to (IZR window / 2) wh -> rounds_to x X -> rounds_to y Y -> (0 <= wh)%Z ->
  (X + wh < 0)%Z -> (wh <= X + Z.of_nat nx)%Z -> (wh <= Y)%Z ->
  is_mean (filter (valid nodata) (window_pixels img ny nx (X + Z.of_nat nx) Y wh)) (pixel_value img nodata window (x, y)).
Proof.
  intros RR HW HX HY W0 A B WY. unfold pixel_value. cbn [fst snd]. unfold half_window.
  rewrite (rounds_even _ _ HW), (rounds_even _ _ HX), (rounds_even _ _ HY).
  rewrite <- (window_spec _ _ _ _ _ _ RR W0 B WY), differs_valid.
  replace (map (fun row => py_slice row (X - wh) (X + wh)) (py_slice img (Y - wh) (Y + wh)))
    with (map (fun row => py_slice row (X + Z.of_nat nx - wh) (X + Z.of_nat nx + wh)) (py_slice img (Y - wh) (Y + wh))); [apply fmean_spec|].
  apply map_ext_in. intros row HR. apply in_slice_list in HR. destruct RR as [_ F]. rewrite Forall_forall in F. specialize (F row HR).
  rewrite (slice_wraps row (X - wh)) by (unfold zlen; rewrite ?F; lia). unfold zlen. rewrite F. f_equal; lia.
Qed.
Print Assumptions C51_wraps.

(** The mean of the valid pixels around every location of the image: refuted. *)
Definition grey : list (list flt) := repeat (repeat (Fin 5) 8) 8.
Lemma rounds_int z : rounds_to (IZR z) z.
Proof. left. replace (IZR z - IZR z) with 0 by ring. rewrite Rabs_R0. lra. Qed.
Lemma rounds_half w z : (w = 2 * z)%Z -> rounds_to (IZR w / 2) z.
Proof. intros ->. rewrite mult_IZR. replace (2 * IZR z / 2) with (IZR z) by field. apply rounds_int. Qed.
Theorem C51_refuted : exists img ny nx nodata window wh x y X Y,
  raster img ny nx /\ rounds_to (IZR window / 2) wh /\ rounds_to x X /\ rounds_to y Y /\ (0 < wh)%Z /\
  (0 <= X < Z.of_nat nx)%Z /\ (0 <= Y < Z.of_nat ny)%Z /\
  ~ is_mean (filter (valid nodata) (window_pixels img ny nx X Y wh)) (pixel_value img nodata window (x, y)).
Proof.
  exists grey, 8%nat, 8%nat, None, 4%Z, 2%Z, 1, 4, 1%Z, 4%Z.
  assert (RR : raster grey 8 8) by (split; [reflexivity|repeat constructor]).
  assert (H1 : rounds_to (IZR 4 / 2) 2) by (apply rounds_half; reflexivity).
  assert (H2 : rounds_to 1 1) by apply (rounds_int 1). assert (H3 : rounds_to 4 4) by apply (rounds_int 4).
  split; [exact RR|]. split; [exact H1|]. split; [exact H2|]. split; [exact H3|]. split; [lia|]. split; [lia|]. split; [lia|].
  rewrite (C51_border grey 8 8 None 4 2 1 4 1 4 RR H1 H2 H3) by lia.
  intros [(rs & _ & _ & E)|[[E|I] _]]; [discriminate|vm_compute in E; discriminate|].
  apply filter_In in I as [I _]. vm_compute in I. intuition discriminate.
Qed.
Print Assumptions C51_refuted.

Example C51_hypotheses_met : rounds_to (IZR 4 / 2) 2 /\ rounds_to (24 / 10) 2 /\ rounds_to (35 / 10) 4 /\ raster grey 8 8 /\
  pixel_value grey None 4 (24 / 10, 35 / 10) = Fin 5.
Proof.
  assert (H1 : rounds_to (IZR 4 / 2) 2) by (apply rounds_half; reflexivity).
  assert (H2 : rounds_to (24 / 10) 2) by (left; rewrite Rabs_right; lra).
  assert (H3 : rounds_to (35 / 10) 4) by (right; split; [rewrite Rabs_left1; lra|now exists 2%Z]).
  assert (RR : raster grey 8 8) by (split; [reflexivity|repeat constructor]).
  repeat (split; [assumption|]).
  destruct (C51_mean grey 8 8 None 4 2 _ _ 2 4 RR H1 H2 H3) as [(rs & E & _ & ->)|[[E|I] _]]; try lia.
  - replace (filter _ _) with (map Fin (repeat 5 16)) in E by reflexivity.
    assert (EQ : rs = repeat 5 16). { revert E. generalize (repeat 5 16). clear. induction rs as [|r rs IH]; intros [|q l] E; try discriminate; [reflexivity|]. cbn in E. injection E as -> E. f_equal. now apply IH. }
    subst rs. f_equal. cbn. field.
  - vm_compute in E. discriminate.
  - apply filter_In in I as [I _]. vm_compute in I. intuition discriminate.
Qed.

(* -------------------------------- C52 -------------------------------- *)

Lemma horizontal_abs s : horizontal s = Rabs (lon_diff s + lat_diff s).
Proof. unfold horizontal. replace ((lon_diff s + lat_diff s) ^ 2) with (Rsqr (lon_diff s + lat_diff s)) by (unfold Rsqr; ring). apply sqrt_Rsqr_abs. Qed.

(** What the mask says.  With m the greatest |d_lon + d_lat| of all the pixels asked for, a pixel
    is marked exactly if for a whole number k with 1 <= k < m / resolution the terrain at the
    point k resolution / m of the way AWAY from the sensor is above the line of sight the same
    way TOWARDS it. *)
Theorem C52_exact dem res sights : sights <> [] -> 0 < res ->
  exists m mask, march dem res sights = Ok mask /\ length mask = length sights /\
    (forall s, In s sights -> Rabs (lon_diff s + lat_diff s) <= m) /\
    (exists s, In s sights /\ Rabs (lon_diff s + lat_diff s) = m) /\
    forall i s, nth_error sights i = Some s -> exists v, nth_error mask i = Some v /\ (v = 0 \/ v = 1) /\
      (v = 1 <-> exists k : nat, (1 <= k)%nat /\ INR k < m / res /\
                 above (dem (toward s (- (INR k / (m / res))))) (sight_height s (INR k / (m / res)))).
Proof.
  intros NE Hres. unfold march. destruct (rmax (map horizontal sights)) as [m|] eqn:E.
  2:{ destruct sights; [congruence|]. cbn in E. destruct (rmax (map horizontal sights)); discriminate. }
  unfold Reqb. destruct (Req_EM_T res 0); [lra|].
  exists m. eexists. split; [reflexivity|]. rewrite (fold_or (fun step s => fgt (dem (s_lon s + lon_diff s * step / (m / res), s_lat s + lat_diff s * step / (m / res))) (s_alt s + (s_alt_h s - s_alt s) * step / (m / res)))).
  split; [apply map_length|]. apply rmax_spec in E as [E1 E2]. split.
  { intros s Hs. rewrite <- horizontal_abs. apply E2. now apply in_map. }
  split. { apply in_map_iff in E1 as (s & Es & Is). exists s. split; [exact Is|]. now rewrite <- horizontal_abs. }
  intros i s Hs. rewrite nth_error_map, Hs. eexists. split; [reflexivity|]. split; [destruct (existsb _ _); auto|].
  assert (EQ : existsb (fun step => fgt (dem (s_lon s + lon_diff s * step / (m / res), s_lat s + lat_diff s * step / (m / res))) (s_alt s + (s_alt_h s - s_alt s) * step / (m / res))) (map (fun k => 1 + INR k) (seq 0 (Z.to_nat (ceilZ (m / res - 1))))) = true <->
    exists k : nat, (1 <= k)%nat /\ INR k < m / res /\ above (dem (toward s (- (INR k / (m / res))))) (sight_height s (INR k / (m / res)))).
  { rewrite existsb_exists. split.
    - intros (x & Hx & Fx). apply steps_spec in Hx as (k & K1 & K2 & ->). exists k. split; [exact K1|]. split; [exact K2|]. apply fgt_above in Fx.
      unfold toward, sight_height, lon_diff, lat_diff in *. replace (s_lon s + - (INR k / (m / res)) * (s_lon_h s - s_lon s)) with (s_lon s + (s_lon s - s_lon_h s) * INR k / (m / res)) by (unfold Rdiv; ring).
      replace (s_lat s + - (INR k / (m / res)) * (s_lat_h s - s_lat s)) with (s_lat s + (s_lat s - s_lat_h s) * INR k / (m / res)) by (unfold Rdiv; ring).
      replace (s_alt s + INR k / (m / res) * (s_alt_h s - s_alt s)) with (s_alt s + (s_alt_h s - s_alt s) * INR k / (m / res)) by (unfold Rdiv; ring). exact Fx.
    - intros (k & K1 & K2 & Fx). exists (INR k). split; [apply steps_spec; exists k; auto|]. apply fgt_above.
      unfold toward, sight_height, lon_diff, lat_diff in *. replace (s_lon s + - (INR k / (m / res)) * (s_lon_h s - s_lon s)) with (s_lon s + (s_lon s - s_lon_h s) * INR k / (m / res)) in Fx by (unfold Rdiv; ring).
      replace (s_lat s + - (INR k / (m / res)) * (s_lat_h s - s_lat s)) with (s_lat s + (s_lat s - s_lat_h s) * INR k / (m / res)) in Fx by (unfold Rdiv; ring).
      replace (s_alt s + INR k / (m / res) * (s_alt_h s - s_alt s)) with (s_alt s + (s_alt_h s - s_alt s) * INR k / (m / res)) in Fx by (unfold Rdiv; ring). exact Fx. }
  rewrite <- EQ. destruct (existsb _ _); split; intros; auto; try discriminate. lra.
Qed.
Print Assumptions C52_exact.

(** The lines of sight: from the given ground point and altitude to where the pixel's ray
    reaches one millimetre above the highest terrain -- that altitude cut to a whole number if
    the pixel coordinates have an integer type. *)
Theorem C52_sights ground integer_pixels dem highest resolution pixels points alts :
  length points = length pixels -> length alts = length pixels ->
  exists sights, are_pixels_obstructed ground integer_pixels dem highest resolution pixels points alts =
                   march dem (match resolution with Some r => r | None => 5 end) sights /\
    length sights = length pixels /\
    forall i s, nth_error sights i = Some s ->
      nth_error points i = Some (s_lon s, s_lat s) /\ nth_error alts i = Some (s_alt s) /\
      s_alt_h s = (if integer_pixels then IZR (truncZ (highest + 1 / 1000)) else highest + 1 / 1000) /\
      exists p, nth_error pixels i = Some p /\ ground p (s_alt_h s) = (s_lon_h s, s_lat_h s).
Proof.
  intros L1 L2. unfold are_pixels_obstructed. set (top := if integer_pixels then _ else _). eexists. split; [destruct resolution; reflexivity|].
  split; [rewrite map2_length, combine_length; lia|].
  revert points alts L1 L2. induction pixels as [|p pixels IH]; intros [|q points] [|z alts] L1 L2 i s; try discriminate; [destruct i; discriminate|].
  destruct i as [|i]; cbn.
  - intros E. injection E as <-. cbn. rewrite <- !surjective_pairing. repeat split. exists p. split; reflexivity.
  - apply IH; cbn in *; lia.
Qed.
Print Assumptions C52_sights.

(** No pixel at all: the maximum of nothing, ValueError. *)
Theorem C52_empty_error dem res : march dem res [] = Err ValueError.
Proof. reflexivity. Qed.
Print Assumptions C52_empty_error.

(** A resolution of zero: ValueError, whatever the pixels. *)
Theorem C52_zero_resolution ground integer_pixels dem highest pixels points alts :
  are_pixels_obstructed ground integer_pixels dem highest (Some 0) pixels points alts = Err ValueError.
Proof.
  unfold are_pixels_obstructed, march. set (l := map2 _ _ _). destruct (rmax (map horizontal l)); [|reflexivity].
  rewrite Reqb_true by reflexivity. reflexivity.
Qed.
Print Assumptions C52_zero_resolution.

Definition hill_towards (q : R * R) : flt := if Rltb (fst q) 4 then Fin 0 else if Rltb 6 (fst q) then Fin 0 else Fin 9.
Definition hill_behind (q : R * R) : flt := if Rltb (fst q) 0 then Fin 100 else Fin 0.
Definition sight_x : sight := mkSight 0 0 0 10 0 10.
Lemma sight_x_max s m : In s [sight_x] -> (forall s, In s [sight_x] -> Rabs (lon_diff s + lat_diff s) <= m) ->
  (exists s, In s [sight_x] /\ Rabs (lon_diff s + lat_diff s) = m) -> m = 10.
Proof. intros _ _ (s0 & [<-|[]] & <-). unfold lon_diff, lat_diff, sight_x; cbn [s_lon s_lat s_lon_h s_lat_h]. rewrite Rabs_left; lra. Qed.

(** A pixel hidden by a hill between it and the sensor is not marked. *)
Theorem C52_missed_refuted : exists dem res s, 0 < res /\ obstructed dem s /\ march dem res [s] = Ok [0].
Proof.
  exists hill_towards, 1, sight_x. split; [lra|]. split.
  - exists (1 / 2). split; [lra|]. exists 9. unfold hill_towards, toward, sight_height. cbn.
    destruct (Rltb_spec (0 + 1 / 2 * (10 - 0)) 4); [lra|]. destruct (Rltb_spec 6 (0 + 1 / 2 * (10 - 0))); [lra|]. split; [reflexivity|lra].
  - destruct (C52_exact hill_towards 1 [sight_x]) as (m & mask & E & L & M1 & M2 & X); [congruence|lra|].
    assert (m = 10) as -> by (apply (sight_x_max sight_x m); auto; now left). rewrite E. f_equal.
    destruct (X 0%nat sight_x eq_refl) as (v & Hv & [ -> | -> ] & D).
    + destruct mask as [|a [|]]; try discriminate. cbn in Hv. congruence.
    + destruct (proj1 D eq_refl) as (k & K1 & K2 & z & Ez & Hz). exfalso.
      assert (1 <= INR k) by (change 1 with (INR 1); now apply le_INR).
      unfold hill_towards, toward, sight_height in *. cbn [fst snd s_lon s_lat s_alt s_lon_h s_lat_h s_alt_h sight_x] in *.
      destruct (Rltb_spec (0 + - (INR k / (10 / 1)) * (10 - 0)) 4) as [_|Q]; [|lra]. injection Ez as <-. lra.
Qed.
Print Assumptions C52_missed_refuted.

(** A pixel with a clear line of sight is marked because of a hill behind it. *)
Theorem C52_false_alarm_refuted : exists dem res s, 0 < res /\ ~ obstructed dem s /\ march dem res [s] = Ok [1].
Proof.
  exists hill_behind, 1, sight_x. split; [lra|]. split.
  - intros (t & Ht & z & Ez & Hz). unfold hill_behind, toward, sight_height in *. cbn in *.
    destruct (Rltb_spec (0 + t * (10 - 0)) 0); [lra|]. injection Ez as <-. lra.
  - destruct (C52_exact hill_behind 1 [sight_x]) as (m & mask & E & L & M1 & M2 & X); [congruence|lra|].
    assert (m = 10) as -> by (apply (sight_x_max sight_x m); auto; now left). rewrite E. f_equal.
    destruct (X 0%nat sight_x eq_refl) as (v & Hv & _ & D).
    assert (V : v = 1).
    { apply D. exists 1%nat. split; [lia|]. split; [cbn; lra|]. exists 100. unfold hill_behind, toward, sight_height. cbn.
      destruct (Rltb_spec (0 + - (1 / (10 / 1)) * (10 - 0)) 0) as [_|Q]; [split; [reflexivity|lra]|lra]. }
    subst v. destruct mask as [|a [|]]; try discriminate. cbn in Hv. congruence.
Qed.
Print Assumptions C52_false_alarm_refuted.

(** The horizontal distance is |d_lon + d_lat|: if all lines of sight run along the
    anti-diagonal nothing is ever marked, whatever the terrain. *)
Theorem C52_antidiagonal dem res sights : sights <> [] -> 0 < res -> (forall s, In s sights -> lon_diff s + lat_diff s = 0) ->
  march dem res sights = Ok (map (fun _ => 0) sights).
Proof.
  intros NE Hres H. destruct (C52_exact dem res sights NE Hres) as (m & mask & E & L & _ & (s0 & I0 & E0) & X). rewrite E. f_equal.
  rewrite (H _ I0), Rabs_R0 in E0. subst m. apply nth_error_ext. intros i. rewrite nth_error_map.
  destruct (nth_error sights i) as [s|] eqn:Es; cbn.
  - destruct (X i s Es) as (v & -> & [ -> | -> ] & D); [reflexivity|]. destruct (proj1 D eq_refl) as (k & K1 & K2 & _).
    unfold Rdiv in K2. rewrite Rmult_0_l in K2. pose proof (pos_INR k). lra.
  - apply nth_error_None. rewrite L. now apply nth_error_None.
Qed.
Print Assumptions C52_antidiagonal.

(** What is true of the claim: if the terrain along the pixel's line is symmetric about the
    ground point, a marked pixel is obstructed. *)
Theorem C52_symmetric_partial dem res sights i s mask : 0 < res -> march dem res sights = Ok mask -> nth_error sights i = Some s ->
  (forall t, 0 < t < 1 -> dem (toward s (- t)) = dem (toward s t)) -> nth_error mask i = Some 1 -> obstructed dem s.
Proof.
  intros Hres HM Hs HS H1. assert (NE : sights <> []) by (destruct sights; [destruct i; discriminate|congruence]).
  destruct (C52_exact dem res sights NE Hres) as (m & mask' & E & _ & _ & _ & X). rewrite HM in E. injection E as <-.
  destruct (X i s Hs) as (v & Hv & _ & D). rewrite H1 in Hv. injection Hv as <-. destruct (proj1 D eq_refl) as (k & K1 & K2 & A).
  assert (1 <= INR k) by (change 1 with (INR 1); now apply le_INR).
  assert (T : 0 < INR k / (m / res) < 1).
  { assert (0 < m / res) by lra. split; [apply Rdiv_lt_0_compat; lra|]. apply Rmult_lt_reg_r with (m / res); [assumption|]. unfold Rdiv at 1. rewrite Rmult_assoc, Rinv_l by lra. lra. }
  exists (INR k / (m / res)). split; [exact T|]. rewrite <- HS by exact T. exact A.
Qed.
Print Assumptions C52_symmetric_partial.

Example C52_hypotheses_met : exists ground, are_pixels_obstructed ground false hill_behind 10 (Some 1) [(3, 3)] [(0, 0)] [0] = Ok [1].
Proof.
  exists (fun _ _ => (10, 0)). destruct (C52_sights (fun _ _ => (10, 0)) false hill_behind 10 (Some 1) [(3, 3)] [(0, 0)] [0] eq_refl eq_refl) as (l & -> & L & X).
  destruct l as [|s [|]]; try discriminate. destruct (X 0%nat s eq_refl) as (A & B & C & p & _ & D).
  injection A as A1 A2. injection B as B. injection D as D1 D2.
  destruct (C52_exact hill_behind 1 [s]) as (m & mask & E & L' & M1 & (s' & [<-|[]] & M2) & Y); [congruence|lra|].
  rewrite E. destruct (Y 0%nat s eq_refl) as (v & Hv & _ & V).
  assert (m = 10) as ->. { rewrite <- M2. unfold lon_diff, lat_diff. rewrite <- A1, <- A2, <- D1, <- D2. rewrite Rabs_left; lra. }
  assert (v = 1) as ->.
  { apply V. exists 1%nat. split; [lia|]. split; [cbn; lra|]. exists 100. unfold hill_behind, toward, sight_height. rewrite <- A1, <- D1, <- B, C. cbn.
    destruct (Rltb_spec (0 + - (1 / (10 / 1)) * (10 - 0)) 0) as [_|Q]; [split; [reflexivity|lra]|lra]. }
  destruct mask as [|a [|]]; try discriminate. cbn in Hv. congruence.
Qed.

(* -------------------------------- C53 -------------------------------- *)

(** The pixels looked at are exactly the border pixels; an image without pixels raises
    IndexError. *)
Theorem C53_border nx ny :
  ((0 < nx)%nat -> (0 < ny)%nat -> exists l, border_pixels nx ny = Ok l /\
     forall x y, In (x, y) l <-> exists c r, x = Z.of_nat c /\ y = Z.of_nat r /\ on_border nx ny c r) /\
  (nx = 0%nat \/ ny = 0%nat -> border_pixels nx ny = Err IndexError).
Proof.
  split; [|apply border_empty]. intros Hx Hy. eexists. split; [apply (border_ok nx ny Hx Hy)|].
  apply (border_spec nx ny _ (border_ok nx ny Hx Hy) Hx Hy).
Qed.
Print Assumptions C53_border.

Lemma get_extent_pts outline coreg nx ny n_bands ground dem bands : (0 < nx)%nat -> (0 < ny)%nat ->
  exists pts, get_extent outline coreg nx ny n_bands ground dem bands = Ok (outline pts) /\
    forall q, In q pts <-> exists b c r, In b (extent_bands coreg n_bands bands) /\ on_border nx ny c r /\
                             q = pixel_lon_lat ground dem b (INR c, INR r).
Proof.
  intros Hx Hy. destruct (proj1 (C53_border nx ny) Hx Hy) as (l & E & B). unfold get_extent. rewrite E. cbn [bind].
  eexists. split; [reflexivity|]. intros q.
  assert (G : forall b, In q (map (pixel_lon_lat ground dem b) (map (fun p => (IZR (fst p), IZR (snd p))) l)) <-> exists c r, on_border nx ny c r /\ q = pixel_lon_lat ground dem b (INR c, INR r)).
  { intros b. rewrite map_map, in_map_iff. split.
    - intros ([x y] & <- & I). apply B in I as (c & r & -> & -> & O). exists c, r. split; [exact O|]. cbn. now rewrite !INR_IZR_INZ.
    - intros (c & r & O & ->). exists (Z.of_nat c, Z.of_nat r). split; [cbn; now rewrite !INR_IZR_INZ|]. apply B. exists c, r. auto. }
  unfold extent_bands. destruct coreg.
  - rewrite G. split; [intros (c & r & H); exists 0%nat, c, r; split; [now left|exact H]|]. intros (b & c & r & [<-|[]] & H). exists c, r. exact H.
  - set (bs := match bands with AllBands => _ | OneBand b => _ | BandList l => _ end).
    rewrite in_concat. split.
    + intros (m & Hm & Hq). apply in_map_iff in Hm as (b & <- & Hb). apply G in Hq as (c & r & H). exists b, c, r. auto.
    + intros (b & c & r & Hb & H). exists (map (pixel_lon_lat ground dem b) (map (fun p => (IZR (fst p), IZR (snd p))) l)). split; [apply in_map_iff; exists b; auto|]. apply G. exists c, r. exact H.
Qed.

(** Every vertex of the extent is the ground position of a border pixel. *)
Theorem C53_vertices tol outline coreg nx ny n_bands ground dem bands : outlines tol outline -> (0 < nx)%nat -> (0 < ny)%nat ->
  exists poly, get_extent outline coreg nx ny n_bands ground dem bands = Ok poly /\
    forall v, In v poly -> exists b c r, In b (extent_bands coreg n_bands bands) /\ on_border nx ny c r /\
                             v = pixel_lon_lat ground dem b (INR c, INR r).
Proof.
  intros HO Hx Hy. destruct (get_extent_pts outline coreg nx ny n_bands ground dem bands Hx Hy) as (pts & E & P).
  exists (outline pts). split; [exact E|]. intros v Hv. apply P. now apply HO.
Qed.
Print Assumptions C53_vertices.

(** Without a DEM or with a constant one, the ground position of a pixel is that at the
    constant altitude. *)
Theorem C71_constant_dem ground b p e :
  pixel_lon_lat ground (Some (constant_dem e)) b p = ground b p e /\ pixel_lon_lat ground None b p = ground b p 0.
Proof. unfold pixel_lon_lat, constant_dem. cbn. split; f_equal; ring. Qed.
Print Assumptions C71_constant_dem.

Lemma bounds_some vs : vs <> [] -> exists a b c d, bounds vs = Some (a, b, c, d).
Proof.
  intros H. unfold bounds. assert (R1 : forall l, l <> [] -> exists m, rmin l = Some m) by (intros [|x [|y l]] HH; [congruence|cbn; eauto|cbn; destruct (match rmin l with Some _ => _ | None => _ end); eauto]).
  assert (R2 : forall l, l <> [] -> exists m, rmax l = Some m) by (intros [|x [|y l]] HH; [congruence|cbn; eauto|cbn; destruct (match rmax l with Some _ => _ | None => _ end); eauto]).
  assert (N1 : map fst vs <> []) by (destruct vs; [congruence|discriminate]). assert (N2 : map snd vs <> []) by (destruct vs; [congruence|discriminate]).
  destruct (R1 _ N1) as [a ->], (R1 _ N2) as [b ->], (R2 _ N1) as [c ->], (R2 _ N2) as [d ->]. eauto.
Qed.
(** An affine function on the pixels lies between its values at the corners *)
Lemma corner_range a0 a1 a2 nx ny c r : (c < nx)%nat -> (r < ny)%nat ->
  let f := fun c r : nat => a0 + a1 * INR c + a2 * INR r in
  exists c1 r1 c2 r2, on_border nx ny c1 r1 /\ on_border nx ny c2 r2 /\ f c1 r1 <= f c r <= f c2 r2.
Proof.
  intros Hc Hr f.
  assert (C0 : 0 <= INR c <= INR (nx - 1)) by (split; [apply pos_INR|apply le_INR; lia]).
  assert (R0 : 0 <= INR r <= INR (ny - 1)) by (split; [apply pos_INR|apply le_INR; lia]).
  assert (G : forall a n x, 0 <= x <= INR n -> exists k1 k2, (k1 = 0 \/ k1 = n)%nat /\ (k2 = 0 \/ k2 = n)%nat /\ a * INR k1 <= a * x <= a * INR k2).
  { intros a n x Hx. destruct (Rle_lt_dec 0 a).
    - exists 0%nat, n. repeat split; auto; [cbn; nra|nra].
    - exists n, 0%nat. repeat split; auto; [nra|cbn; nra]. }
  destruct (G a1 (nx - 1)%nat (INR c) C0) as (c1 & c2 & P1 & P2 & P3). destruct (G a2 (ny - 1)%nat (INR r) R0) as (r1 & r2 & Q1 & Q2 & Q3).
  exists c1, r1, c2, r2. unfold on_border, f. split; [lia|]. split; [lia|]. lra.
Qed.

(** For a sensor that is affine at the altitude used, the bounds of the extent, widened by the
    tolerance of the simplification, contain the ground position of every pixel of every band
    used. *)
Theorem C53_contains tol outline coreg nx ny n_bands ground e dem bands :
  outlines tol outline -> (0 < nx)%nat -> (0 < ny)%nat -> extent_bands coreg n_bands bands <> [] ->
  (dem = Some (constant_dem e) \/ (dem = None /\ e = 0)) ->
  (forall b, In b (extent_bands coreg n_bands bands) -> affine_at (ground b) e) ->
  exists poly x0 y0 x1 y1, get_extent outline coreg nx ny n_bands ground dem bands = Ok poly /\ bounds poly = Some (x0, y0, x1, y1) /\
    forall b c r, In b (extent_bands coreg n_bands bands) -> (c < nx)%nat -> (r < ny)%nat ->
      let q := ground b (INR c, INR r) e in x0 - tol <= fst q <= x1 + tol /\ y0 - tol <= snd q <= y1 + tol.
Proof.
  intros HO Hx Hy NB HD HA. destruct (get_extent_pts outline coreg nx ny n_bands ground dem bands Hx Hy) as (pts & E & P).
  assert (PL : forall b p, pixel_lon_lat ground dem b p = ground b p e).
  { intros b p. destruct HD as [->|[-> ->]]; [exact (proj1 (C71_constant_dem ground b p e))|exact (proj2 (C71_constant_dem ground b p 0))]. }
  destruct (HO pts) as [_ H2].
  assert (BP : forall b c r, In b (extent_bands coreg n_bands bands) -> on_border nx ny c r -> In (ground b (INR c, INR r) e) pts).
  { intros b c r Hb O. apply P. exists b, c, r. split; [exact Hb|]. split; [exact O|]. now rewrite PL. }
  assert (NE : outline pts <> []).
  { destruct (extent_bands coreg n_bands bands) as [|b0 bs] eqn:EB; [congruence|].
    destruct (H2 (ground b0 (INR 0, INR 0) e)) as (q & (ws & L & _ & S1 & _) & _); [apply BP; [now left|unfold on_border; lia]|].
    intros Z. rewrite Z in L. destruct ws; [|discriminate]. cbn in S1. lra. }
  destruct (bounds_some _ NE) as (x0 & y0 & x1 & y1 & B). exists (outline pts), x0, y0, x1, y1. split; [exact E|]. split; [exact B|].
  assert (NEAR : forall b c r, In b (extent_bands coreg n_bands bands) -> on_border nx ny c r ->
    let q := ground b (INR c, INR r) e in x0 - tol <= fst q <= x1 + tol /\ y0 - tol <= snd q <= y1 + tol).
  { intros b c r Hb O q. destruct (H2 q (BP b c r Hb O)) as (q' & IH' & D1 & D2).
    destruct (hull_bounds _ _ _ _ _ _ IH' B) as [K1 K2].
    assert (T : forall u t, Rabs u <= t -> - t <= u <= t) by (intros u t Hu; unfold Rabs in Hu; destruct (Rcase_abs u); lra).
    apply T in D1. apply T in D2. lra. }
  intros b c r Hb Hc Hr q. destruct (HA b Hb) as (a0 & a1 & a2 & b0 & b1 & b2 & AF).
  destruct (corner_range a0 a1 a2 nx ny c r Hc Hr) as (c1 & r1 & c2 & r2 & O1 & O2 & RX).
  destruct (corner_range b0 b1 b2 nx ny c r Hc Hr) as (c3 & r3 & c4 & r4 & O3 & O4 & RY).
  pose proof (NEAR b c1 r1 Hb O1) as [N1 _]. pose proof (NEAR b c2 r2 Hb O2) as [N2 _].
  pose proof (NEAR b c3 r3 Hb O3) as [_ N3]. pose proof (NEAR b c4 r4 Hb O4) as [_ N4].
  unfold q. rewrite !AF in *. cbn [fst snd] in *. lra.
Qed.
Print Assumptions C53_contains.

(** The ground position of a pixel lies on the terrain if the terrain is as high there as where
    the pixel's ray passes the highest altitude (get_pixel_lon_lats takes one step only). *)
Theorem C71_on_terrain_partial ground d b p :
  let q := pixel_lon_lat ground (Some d) b p in
  df_elev d q = df_elev d (ground b p (df_highest d)) -> q = ground b p (df_elev d q).
Proof. cbv zeta. intros ->. unfold pixel_lon_lat. f_equal. ring. Qed.
Print Assumptions C71_on_terrain_partial.

(** How far off it is: on terrain whose elevation changes by at most S per unit of ground
    distance, seen by a sensor whose ground position moves by at most T per unit of altitude,
    the altitude used differs from the terrain below the position by at most S T times the
    height of the highest altitude above it; and a point where the ray does meet the terrain
    is missed by at most S T times (in altitude), S T T times (on the ground) the height of the
    highest altitude above that point. *)
Theorem C71_error_bound ground d b p S T :
  let dist := fun q q' : R * R => Rabs (fst q - fst q') + Rabs (snd q - snd q') in
  0 <= S -> 0 <= T ->
  (forall q q', Rabs (df_elev d q - df_elev d q') <= S * dist q q') ->
  (forall z z', dist (ground b p z) (ground b p z') <= T * Rabs (z - z')) ->
  let q := pixel_lon_lat ground (Some d) b p in
  exists z, q = ground b p z /\ Rabs (df_elev d q - z) <= S * T * Rabs (df_highest d - z) /\
    forall zt, df_elev d (ground b p zt) = zt ->
      Rabs (z - zt) <= S * T * Rabs (df_highest d - zt) /\ dist q (ground b p zt) <= S * T * T * Rabs (df_highest d - zt).
Proof.
  intros dist HS HT HE HG q. exists (df_elev d (ground b p (df_highest d))).
  assert (EQ : q = ground b p (df_elev d (ground b p (df_highest d)))).
  { unfold q, pixel_lon_lat. f_equal. ring. }
  set (z := df_elev d (ground b p (df_highest d))) in *.
  assert (K : forall u v, Rabs (df_elev d (ground b p u) - df_elev d (ground b p v)) <= S * T * Rabs (u - v)).
  { intros u v. eapply Rle_trans; [apply HE|]. rewrite Rmult_assoc. apply Rmult_le_compat_l; [exact HS|apply HG]. }
  split; [exact EQ|]. split.
  - rewrite EQ. unfold z at 2. rewrite <- (Rabs_Ropp (df_highest d - z)), Ropp_minus_distr. apply K.
  - intros zt Ht.
    assert (H1 : Rabs (z - zt) <= S * T * Rabs (df_highest d - zt)) by (rewrite <- Ht at 1; apply K).
    split; [exact H1|]. rewrite EQ. eapply Rle_trans; [apply HG|].
    replace (S * T * T * Rabs (df_highest d - zt)) with (T * (S * T * Rabs (df_highest d - zt))) by ring.
    apply Rmult_le_compat_l; assumption.
Qed.
Print Assumptions C71_error_bound.
(** The hypotheses are met by a plane of slope 1/2 seen at an obliquity of 1; and there the bound is reached. *)
Example C71_error_bound_met : let d := mkDemFn (fun q : R * R => fst q / 2) 10 in
  let dist := fun q q' : R * R => Rabs (fst q - fst q') + Rabs (snd q - snd q') in
  let ground : sensor_fn := fun _ _ z => (z, 0) in
  (forall q q', Rabs (df_elev d q - df_elev d q') <= 1 / 2 * dist q q') /\
  (forall z z', dist (ground 0%nat (0, 0) z) (ground 0%nat (0, 0) z') <= 1 * Rabs (z - z')) /\
  df_elev d (ground 0%nat (0, 0) 0) = 0 /\ pixel_lon_lat ground (Some d) 0%nat (0, 0) = ground 0%nat (0, 0) 5.
Proof.
  cbn [df_elev fst snd]. split; [|split; [|split]].
  - intros [x y] [x' y']. cbn [fst snd]. replace (x / 2 - x' / 2) with (/ 2 * (x - x')) by field.
    rewrite Rabs_mult, (Rabs_pos_eq (/ 2)) by lra. pose proof (Rabs_pos (y - y')). lra.
  - intros z z'. rewrite Rminus_0_r, Rabs_R0. lra.
  - lra.
  - unfold pixel_lon_lat. cbn [df_elev df_highest fst]. f_equal. lra.
Qed.

(** On sloping terrain the position is not on the terrain. *)
Theorem C71_terrain_refuted : exists ground d b p z,
  pixel_lon_lat ground (Some d) b p = ground b p z /\ (forall z', ground b p z' = (z', 0)) /\
  df_elev d (pixel_lon_lat ground (Some d) b p) <> z /\ (forall q, df_elev d q <= df_highest d).
Proof.
  set (d := mkDemFn (fun q => Rmin 10 (fst q / 2)) 10).
  exists (fun _ _ z => (z, 0)), d, 0%nat, (0, 0), 5. unfold pixel_lon_lat, d. cbn.
  assert (M : Rmin 10 (10 / 2) = 5) by (rewrite Rmin_right; lra). rewrite M. replace (10 - (10 - 5)) with 5 by ring.
  split; [reflexivity|]. split; [reflexivity|]. split.
  - rewrite Rmin_right; lra.
  - intros q. apply Rmin_l.
Qed.
Print Assumptions C71_terrain_refuted.

Lemma in_hull_self vs q : In q vs -> in_hull vs q.
Proof.
  induction vs as [|v vs IH]; intros I; [contradiction|].
  assert (Z : forall l : list R, rsum (map2 Rmult (repeat 0 (length vs)) l) = 0 /\ rsum (repeat 0 (length vs)) = 0).
  { intros l. split; [|clear; induction vs; cbn; [reflexivity|unfold rsum in *; lra]].
    clear. revert l. induction vs as [|v vs IH]; intros [|x l]; cbn; try reflexivity. specialize (IH l). unfold rsum in *. lra. }
  destruct I as [->|I].
  - exists (1 :: repeat 0 (length vs)). cbn. rewrite repeat_length. destruct (Z (map fst vs)) as [Z1 Z0]. destruct (Z (map snd vs)) as [Z2 _].
    unfold rsum in *. split; [reflexivity|]. split; [constructor; [lra|]; apply Forall_forall; intros w Hw; apply repeat_spec in Hw; lra|]. repeat split; lra.
  - destruct (IH I) as (ws & L & F & S1 & X & Y). exists (0 :: ws). cbn. unfold rsum in *. split; [now rewrite L|]. split; [constructor; [lra|exact F]|]. repeat split; lra.
Qed.
(** A hull that keeps every point meets the contract *)
Example C53_hypotheses_met : outlines (1 / 1000) (fun pts => pts) /\ affine_at (fun p z => (3 + 2 * fst p - snd p, fst p + snd p + z)) 7 /\
  exists poly, get_extent (fun pts => pts) true 3 2 1 (fun _ p z => (3 + 2 * fst p - snd p, fst p + snd p + z)) (Some (constant_dem 7)) AllBands = Ok poly /\ length poly = 10%nat.
Proof.
  split; [|split].
  - intros pts. split; [auto|]. intros p Hp. exists p. split; [now apply in_hull_self|]. rewrite !Rminus_eq_0, Rabs_R0. lra.
  - exists 3, 2, (-1), 7, 1, 1. intros x y. cbn. f_equal; ring.
  - eexists. split; [reflexivity|reflexivity].
Qed.

(* -------------------------------- C54 -------------------------------- *)

(** One band is added; it is 0 where band 0 equals the no-data value and 255 elsewhere; the
    other bands and the size are unchanged.  (The data type can hold 0 and 255.) *)
Theorem C54_mask store image nodata : store 0 = Fin 0 -> store 255 = Fin 255 ->
  Forall (Forall (fun px => px <> [])) image ->
  exists out, mask_image store image nodata = Ok out /\ Forall2 (fun a b => length a = length b) image out /\
    forall r c px, raster_at image r c = Some px ->
      exists b0 alpha, nth_error px 0 = Some b0 /\ raster_at out r c = Some (px ++ [alpha]) /\
        ((exists v, b0 = Fin v /\ nodata = Fin v) -> alpha = Fin 0) /\
        (~ (exists v, b0 = Fin v /\ nodata = Fin v) -> alpha = Fin 255).
Proof.
  intros S0 S1 F. unfold mask_image.
  set (one := fun px : list flt => px ++ [if same_value (hd NonFinite px) nodata then Fin 0 else Fin 255]).
  assert (E : mapM (mapM (fun px => layer <- py_get px 0 ;; Ok (px ++ [if same_value layer nodata then (if same_value layer nodata then store 0 else layer) else store 255]))) image = Ok (map (map one) image)).
  { apply mapM_ok. intros row Hrow. apply mapM_ok. intros px Hpx. rewrite Forall_forall in F. pose proof (F row Hrow) as F1. rewrite Forall_forall in F1.
    pose proof (F1 px Hpx) as F2. destruct px as [|b0 px]; [congruence|]. unfold one. cbn [hd].
    change (py_get (b0 :: px) 0) with (@Ok flt b0). cbn [bind]. rewrite S0, S1. now destruct (same_value b0 nodata). }
  exists (map (map one) image). split; [exact E|]. split.
  - clear. induction image as [|row image IH]; constructor; [now rewrite map_length|exact IH].
  - intros r c px H. rewrite map_rows_at, H. cbn [option_map].
    assert (NE : px <> []).
    { unfold raster_at in H. destruct (nth_error image r) as [row|] eqn:Er; [|discriminate]. rewrite Forall_forall in F.
      pose proof (F row (nth_error_In _ _ Er)) as F1. rewrite Forall_forall in F1. exact (F1 px (nth_error_In _ _ H)). }
    destruct px as [|b0 px]; [congruence|]. exists b0. unfold one. cbn [hd]. eexists. split; [reflexivity|]. split; [reflexivity|].
    unfold same_value. split.
    + intros (v & -> & ->). now rewrite Reqb_true.
    + intros N. destruct b0 as [x|]; [|reflexivity]. destruct nodata as [y|]; [|reflexivity]. destruct (Reqb_spec x y) as [->|]; [exfalso; apply N; eauto|reflexivity].
Qed.
Print Assumptions C54_mask.

(** A pixel without bands: IndexError. *)
Theorem C54_no_bands_error store image nodata row px : In row image -> In px row -> px = [] -> mask_image store image nodata = Err IndexError.
Proof.
  intros H1 H2 ->. unfold mask_image.
  assert (G : forall l : list (list flt), (exists out, mapM (fun px => layer <- py_get px 0 ;; Ok (px ++ [if same_value layer nodata then (if same_value layer nodata then store 0 else layer) else store 255])) l = Ok out)
     \/ mapM (fun px => layer <- py_get px 0 ;; Ok (px ++ [if same_value layer nodata then (if same_value layer nodata then store 0 else layer) else store 255])) l = Err IndexError).
  { induction l as [|[|b0 px] l [[out IH]|IH]]; [left; eexists; reflexivity|right; reflexivity|right; reflexivity| |];
    cbn [mapM]; change (py_get (b0 :: px) 0) with (@Ok flt b0); cbn [bind]; rewrite IH; cbn [bind]; eauto. }
  assert (G2 : In [] row -> mapM (fun px => layer <- py_get px 0 ;; Ok (px ++ [if same_value layer nodata then (if same_value layer nodata then store 0 else layer) else store 255])) row = Err IndexError).
  { clear H1 H2. induction row as [|[|b0 px] row IH]; intros I; [contradiction|reflexivity|]. destruct I as [I|I]; [discriminate|].
    cbn [mapM]. change (py_get (b0 :: px) 0) with (@Ok flt b0). cbn [bind]. now rewrite (IH I). }
  specialize (G2 H2). cbv zeta. induction image as [|r0 image IH]; [contradiction|]. cbn [mapM]. destruct H1 as [->|H1].
  - now rewrite G2.
  - destruct (G r0) as [[out ->]| ->]; cbn [bind]; [now rewrite (IH H1)|reflexivity].
Qed.
Print Assumptions C54_no_bands_error.

(** NaN as the no-data value masks nothing. *)
Theorem C54_nan_nodata store image out r c px alpha : store 0 = Fin 0 -> store 255 = Fin 255 -> Forall (Forall (fun px => px <> [])) image ->
  mask_image store image NonFinite = Ok out -> raster_at image r c = Some px -> raster_at out r c = Some (px ++ [alpha]) -> alpha = Fin 255.
Proof.
  intros S0 S1 F E H1 H2. destruct (C54_mask store image NonFinite S0 S1 F) as (out' & E' & _ & P). rewrite E in E'. injection E' as <-.
  destruct (P r c px H1) as (b0 & a & _ & H3 & _ & A). rewrite H2 in H3. injection H3 as H3. apply app_inj_tail in H3 as [_ ->].
  apply A. intros (v & _ & Q). discriminate.
Qed.
Print Assumptions C54_nan_nodata.

(** In a signed 8 bit image 255 becomes -1. *)
Definition int8 (x : R) : flt := if Reqb x 255 then Fin (-1) else Fin x.
Theorem C54_int8_refuted : mask_image int8 [[[Fin 3]; [Fin 0]]] (Fin 0) = Ok [[[Fin 3; Fin (-1)]; [Fin 0; Fin 0]]].
Proof.
  unfold mask_image. cbn [mapM]. change (py_get [Fin 3] 0) with (@Ok flt (Fin 3)). change (py_get [Fin 0] 0) with (@Ok flt (Fin 0)). cbn [bind same_value].
  rewrite (Reqb_false 3 0) by lra. rewrite (Reqb_true 0 0) by reflexivity. unfold int8. rewrite (Reqb_true 255 255) by reflexivity. rewrite (Reqb_false 0 255) by lra. reflexivity.
Qed.
Print Assumptions C54_int8_refuted.

Example C54_hypotheses_met : exists out, mask_image Fin [[[Fin 3; Fin 7]; [Fin 0; Fin 9]]] (Fin 0) = Ok out /\
  raster_at out 0 0 = Some [Fin 3; Fin 7; Fin 255] /\ raster_at out 0 1 = Some [Fin 0; Fin 9; Fin 0].
Proof.
  destruct (C54_mask Fin [[[Fin 3; Fin 7]; [Fin 0; Fin 9]]] (Fin 0) eq_refl eq_refl) as (out & E & _ & P); [repeat constructor; congruence|].
  exists out. split; [exact E|]. split.
  - destruct (P 0%nat 0%nat _ eq_refl) as (b & a & Hb & -> & _ & A). injection Hb as <-. rewrite A; [reflexivity|]. intros (v & V1 & V2). injection V1 as <-. injection V2 as V2. lra.
  - destruct (P 0%nat 1%nat _ eq_refl) as (b & a & Hb & -> & A & _). injection Hb as <-. rewrite A; [reflexivity|]. eauto.
Qed.

(* -------------------------------- C60 -------------------------------- *)

(** For every envelope function that returns the smallest rectangle, bounds_2_shapely_polygon
    returns the rectangle between the two corners, however the bounds are ordered. *)
Theorem C60_envelope envelope min_x max_x max_y min_y :
  (forall pts, pts <> [] -> smallest_rectangle pts (envelope pts)) ->
  let b := bounds_2_shapely_polygon envelope min_x max_x max_y min_y in
  smallest_rectangle [(min_x, min_y); (max_x, max_y)] b /\
  b = (Rmin min_x max_x, Rmin min_y max_y, Rmax min_x max_x, Rmax min_y max_y).
Proof.
  intros H b. unfold b, bounds_2_shapely_polygon. clear b.
  destruct (H [(min_x, max_y); (max_x, min_y)]) as [A B]; [congruence|]. destruct (envelope _) as [[[x0 y0] x1] y1].
  pose proof (A _ (or_introl eq_refl)) as A1. pose proof (A _ (or_intror (or_introl eq_refl))) as A2. cbn in A1, A2.
  assert (E : (x0, y0, x1, y1) = (Rmin min_x max_x, Rmin min_y max_y, Rmax min_x max_x, Rmax min_y max_y)).
  { specialize (B (Rmin min_x max_x, Rmin min_y max_y, Rmax min_x max_x, Rmax min_y max_y)). cbn in B.
    assert (Q : x0 >= Rmin min_x max_x /\ y0 >= Rmin min_y max_y /\ x1 <= Rmax min_x max_x /\ y1 <= Rmax min_y max_y).
    { destruct B as (B1 & B2 & B3 & B4); [|lra]. pose proof (Rmin_l min_x max_x). pose proof (Rmin_r min_x max_x). pose proof (Rmin_l min_y max_y). pose proof (Rmin_r min_y max_y).
      pose proof (Rmax_l min_x max_x). pose proof (Rmax_r min_x max_x). pose proof (Rmax_l min_y max_y). pose proof (Rmax_r min_y max_y).
      intros p [<-|[<-|[]]]; cbn; lra. }
    assert (x0 <= Rmin min_x max_x) by (apply Rmin_glb; lra). assert (y0 <= Rmin min_y max_y) by (apply Rmin_glb; lra).
    assert (Rmax min_x max_x <= x1) by (apply Rmax_lub; lra). assert (Rmax min_y max_y <= y1) by (apply Rmax_lub; lra).
    repeat apply f_equal2; lra. }
  split; [|exact E]. split.
  - intros p [<-|[<-|[]]]; cbn; lra.
  - intros b' Hb'. apply B. pose proof (Hb' _ (or_introl eq_refl)) as C1. pose proof (Hb' _ (or_intror (or_introl eq_refl))) as C2.
    destruct b' as [[[u0 v0] u1] v1]. cbn in C1, C2. intros p [<-|[<-|[]]]; cbn; lra.
Qed.
Print Assumptions C60_envelope.

(** Bounds in order are returned as they are. *)
Theorem C60_ordered envelope min_x max_x max_y min_y :
  (forall pts, pts <> [] -> smallest_rectangle pts (envelope pts)) -> min_x <= max_x -> min_y <= max_y ->
  bounds_2_shapely_polygon envelope min_x max_x max_y min_y = (min_x, min_y, max_x, max_y).
Proof.
  intros H Hx Hy. destruct (C60_envelope envelope min_x max_x max_y min_y H) as [_ ->].
  rewrite !Rmin_left, !Rmax_right by assumption. reflexivity.
Qed.
Print Assumptions C60_ordered.

Definition min_list (l : list R) : R := match rmin l with Some m => m | None => 0 end.
Definition max_list (l : list R) : R := match rmax l with Some m => m | None => 0 end.
Example C60_hypotheses_met : exists envelope, forall pts : list (R * R), pts <> [] -> smallest_rectangle pts (envelope pts).
Proof.
  exists (fun pts => (min_list (map fst pts), min_list (map snd pts), max_list (map fst pts), max_list (map snd pts))).
  intros pts NE. destruct (bounds_some pts NE) as (a & b & c & d & E). unfold bounds in E. unfold min_list, max_list.
  destruct (rmin (map fst pts)) as [x0|] eqn:E1; [|discriminate]. destruct (rmin (map snd pts)) as [y0|] eqn:E2; [|discriminate].
  destruct (rmax (map fst pts)) as [x1|] eqn:E3; [|discriminate]. destruct (rmax (map snd pts)) as [y1|] eqn:E4; [|discriminate].
  apply rmin_spec in E1 as [I1 M1]. apply rmin_spec in E2 as [I2 M2]. apply rmax_spec in E3 as [I3 M3]. apply rmax_spec in E4 as [I4 M4]. split.
  - intros p Hp. cbn. pose proof (in_map fst _ _ Hp) as P1. pose proof (in_map snd _ _ Hp) as P2. split; split; auto.
  - intros [[[u0 v0] u1] v1] H. apply in_map_iff in I1 as (p1 & <- & I1). apply in_map_iff in I2 as (p2 & <- & I2). apply in_map_iff in I3 as (p3 & <- & I3). apply in_map_iff in I4 as (p4 & <- & I4).
    pose proof (H _ I1) as A1. pose proof (H _ I2) as A2. pose proof (H _ I3) as A3. pose proof (H _ I4) as A4. cbn in *. lra.
Qed.

(* -------------------------------- C69 -------------------------------- *)

(** The pixel location at which cell (r, c) of the ortho is sampled: that of the cell's centre
    at the terrain's elevation there (elevation 0 without a DEM) *)
Lemma ortho_points minx miny maxx maxy nx ny (elev : R * R -> R) : (2 <= nx)%nat -> (2 <= ny)%nat -> minx <= maxx -> miny <= maxy ->
  exists g, create_ground_grid minx maxx miny maxy (Z.of_nat nx) (Z.of_nat ny) = Ok g /\
    let points := map (fun q => map (fun p => (p, elev p)) q) (map2 (fun xs ys => combine xs ys) (fst g) (snd g)) in
    raster points ny nx /\
    forall r c, (r < ny)%nat -> (c < nx)%nat -> let p := cell_centre minx miny maxx maxy nx ny r c in raster_at points r c = Some (p, elev p).
Proof.
  intros Hx Hy Lx Ly. destruct (C28_grid minx maxx miny maxy (Z.of_nat nx) (Z.of_nat ny)) as (gx & gy & E & S1 & S2 & F); try lia; try assumption.
  rewrite !Nat2Z.id in *. rewrite <- !INR_IZR_INZ in F. exists (gx, gy). split; [exact E|]. cbn [fst snd].
  destruct (combine_raster gx gy ny nx S1 S2) as [RR RA]. split; [apply (raster_map (fun p => (p, elev p))); exact RR|].
  intros r c Hr Hc. cbv zeta. destruct (F r c Hr Hc) as [FX FY].
  rewrite map_rows_at. rewrite (RA r c _ _ FX FY). reflexivity.
Qed.

(** Coregistered image with its data loaded: every cell holds the image sampled at the cell's
    location in band 0, if that lies inside the inner part of the image, else the no-data value. *)
Theorem C69_coregistered sample img nx ny minx miny maxx maxy dem bands nodata :
  ov_coregistered img = true -> ov_loaded img = true -> (2 <= nx)%nat -> (2 <= ny)%nat -> minx <= maxx -> miny <= maxy -> bands <> [] ->
  let elev := match dem with Some d => d | None => fun _ => 0 end in
  exists out geo_t, create_ortho sample img nx ny minx miny maxx maxy dem (Some bands) nodata = Ok (out, geo_t) /\
    length out = length bands /\
    forall k b, nth_error bands k = Some b -> exists o, nth_error out k = Some o /\ raster (b_rows o) ny nx /\
      forall r c, (r < ny)%nat -> (c < nx)%nat ->
        let p := cell_centre minx miny maxx maxy nx ny r c in
        let loc := ov_locate img 0 (p, elev p) in
        exists v, raster_at (b_rows o) r c = Some v /\
          (in_inner img loc -> v = ov_store img (sample (ov_band img b) loc)) /\
          (~ in_inner img loc -> v = ov_store img nodata).
Proof.
  intros HC HL Hx Hy Lx Ly NB elev. unfold create_ortho.
  destruct (ortho_points minx miny maxx maxy nx ny elev Hx Hy Lx Ly) as (g & -> & RR & RA). cbn [bind].
  fold elev. set (points := map (fun q => map (fun p => (p, elev p)) q) _) in *.
  set (locs := map (map (ov_locate img 0)) points).
  assert (RL : raster locs ny nx) by (apply raster_map; exact RR).
  set (one := fun b => mkBand ny nx (map2 (map2 (masked_out img nodata)) locs (map (map (ov_store img)) (map (map (sample (ov_band img b))) locs)))).
  rewrite (mapM_ok _ one).
  2:{ intros b _. rewrite HC, HL. rewrite (unflatten_map _ _ _ _ RL). cbn [bind b_rows]. reflexivity. }
  cbn [bind]. destruct (map one bands) as [|o0 os] eqn:EM; [destruct bands; [congruence|discriminate]|]. rewrite <- EM.
  eexists _, _. split; [reflexivity|]. split; [apply map_length|].
  intros k b Hk. exists (one b). split; [now rewrite nth_error_map, Hk|]. split.
  - cbn. split.
    + rewrite map2_length, !map_length. destruct RL as [-> _]. lia.
    + destruct RL as [_ F]. clear - F. induction F as [|row l H F IH]; [constructor|]. cbn. constructor; [|exact IH].
      rewrite map2_length, !map_length. lia.
  - intros r c Hr Hc. set (p := cell_centre minx miny maxx maxy nx ny r c). set (loc := ov_locate img 0 (p, elev p)). assert (AL : raster_at locs r c = Some loc).
    { unfold locs. rewrite map_rows_at. rewrite (RA r c Hr Hc). reflexivity. }
    exists (masked_out img nodata loc (ov_store img (sample (ov_band img b) loc))). split.
    { cbn. apply map2_rows_at; [exact AL|]. rewrite !map_rows_at, AL. reflexivity. }
    unfold masked_out, in_inner. destruct (Rleb_spec (fst loc) 0); [cbn; split; [lra|reflexivity]|].
    destruct (Rleb_spec (IZR (ov_nx img - 2)) (fst loc)); [cbn; split; [lra|reflexivity]|].
    destruct (Rleb_spec (snd loc) 0); [cbn; split; [lra|reflexivity]|].
    destruct (Rleb_spec (IZR (ov_ny img - 2)) (snd loc)); [cbn; split; [lra|reflexivity]|]. cbn. split; [reflexivity|]. intros N. exfalso. apply N. lra.
Qed.
Print Assumptions C69_coregistered.

(** The geotransform that comes with the ortho: its origin is the upper left corner of the extent, it has no
    rotation, and the right and lower edges of the extent lie at nx + 1 and ny + 1 pixels (not at nx and ny). *)
Theorem C69_geo_transform sample img nx ny minx miny maxx maxy dem bands nodata out geo_t :
  create_ortho sample img nx ny minx miny maxx maxy dem bands nodata = Ok (out, geo_t) ->
  length geo_t = 6%nat /\ nth 2 geo_t 0 = 0 /\ nth 4 geo_t 0 = 0 /\
  gdal_point geo_t 0 0 = (minx, maxy) /\ gdal_point geo_t (INR nx + 1) (INR ny + 1) = (maxx, miny).
Proof.
  unfold create_ortho. intros H. destruct (create_ground_grid minx maxx miny maxy (Z.of_nat nx) (Z.of_nat ny)) as [g| |]; cbn [bind] in H; try discriminate.
  match type of H with bind ?m _ = _ => destruct m as [images| |]; cbn [bind] in H; try discriminate end.
  destruct images; [discriminate|]. injection H as _ <-. unfold world_poly_to_geo_t, gdal_point. cbn [nth length].
  rewrite <- !INR_IZR_INZ. pose proof (pos_INR nx). pose proof (pos_INR ny). repeat (split; [reflexivity|]). split; f_equal; field; lra.
Qed.
Print Assumptions C69_geo_transform.

(** Bands that are not coregistered: every cell holds its band sampled at the cell's location in
    that band, wherever that location is. *)
Theorem C69_separate sample img nx ny minx miny maxx maxy dem bands nodata :
  ov_coregistered img = false -> (2 <= nx)%nat -> (2 <= ny)%nat -> minx <= maxx -> miny <= maxy -> bands <> [] ->
  let elev := match dem with Some d => d | None => fun _ => 0 end in
  exists out geo_t, create_ortho sample img nx ny minx miny maxx maxy dem (Some bands) nodata = Ok (out, geo_t) /\
    length out = length bands /\
    forall k b, nth_error bands k = Some b -> exists o, nth_error out k = Some o /\ raster (b_rows o) ny nx /\
      forall r c, (r < ny)%nat -> (c < nx)%nat ->
        let p := cell_centre minx miny maxx maxy nx ny r c in
        raster_at (b_rows o) r c = Some (ov_store img (sample (ov_band img b) (ov_locate img b (p, elev p)))).
Proof.
  intros HC Hx Hy Lx Ly NB elev. unfold create_ortho.
  destruct (ortho_points minx miny maxx maxy nx ny elev Hx Hy Lx Ly) as (g & -> & RR & RA). cbn [bind].
  fold elev. set (points := map (fun q => map (fun p => (p, elev p)) q) _) in *.
  set (one := fun b => mkBand ny nx (map (map (ov_store img)) (map (map (sample (ov_band img b))) (map (map (ov_locate img b)) points)))).
  rewrite (mapM_ok _ one).
  2:{ intros b _. rewrite HC. rewrite (unflatten_map _ _ _ _ (raster_map (ov_locate img b) _ _ _ RR)). cbn [bind b_rows]. reflexivity. }
  cbn [bind]. destruct (map one bands) as [|o0 os] eqn:EM; [destruct bands; [congruence|discriminate]|]. rewrite <- EM.
  eexists _, _. split; [reflexivity|]. split; [apply map_length|].
  intros k b Hk. exists (one b). split; [now rewrite nth_error_map, Hk|]. split.
  - cbn. apply raster_map, raster_map, raster_map. exact RR.
  - intros r c Hr Hc. cbn. rewrite !map_rows_at. rewrite (RA r c Hr Hc). reflexivity.
Qed.
Print Assumptions C69_separate.

(** No band list means all bands in order. *)
Theorem C69_all_bands sample img nx ny minx miny maxx maxy dem nodata :
  create_ortho sample img nx ny minx miny maxx maxy dem None nodata =
  create_ortho sample img nx ny minx miny maxx maxy dem (Some (seq 0 (ov_n_bands img))) nodata.
Proof. reflexivity. Qed.
Print Assumptions C69_all_bands.

(** The errors: a grid of fewer than two rows or columns; coregistered image data not loaded
    (the branch that would read it from disk is never reached); no bands. *)
Theorem C69_errors sample img nx ny minx miny maxx maxy dem bands nodata :
  ((nx < 2 \/ ny < 2)%nat -> create_ortho sample img nx ny minx miny maxx maxy dem bands nodata = Err IndexError) /\
  ((2 <= nx)%nat -> (2 <= ny)%nat -> minx <= maxx -> miny <= maxy ->
     (ov_coregistered img = true -> ov_loaded img = false -> forall b l, bands = Some (b :: l) ->
        create_ortho sample img nx ny minx miny maxx maxy dem bands nodata = Err TypeError) /\
     (bands = Some [] -> create_ortho sample img nx ny minx miny maxx maxy dem bands nodata = Err ValueError)).
Proof.
  split.
  - intros H. unfold create_ortho. rewrite C28_small_grid_error by lia. reflexivity.
  - intros Hx Hy Lx Ly. unfold create_ortho. destruct (C28_grid minx maxx miny maxy (Z.of_nat nx) (Z.of_nat ny)) as (gx & gy & -> & _); try lia; try assumption. cbn [bind]. split.
    + intros HC HL b l ->. cbn [mapM]. rewrite HC, HL. reflexivity.
    + intros ->. reflexivity.
Qed.
Print Assumptions C69_errors.

Definition loc_image (coreg : bool) (loc : R * R) : overhead :=
  mkOverhead coreg true 5 5 (fun _ => repeat (repeat (Fin 7) 5) 5) 1 (fun v => v) (fun _ _ => loc).
Definition flat_sample (data : list (list flt)) (loc : R * R) : flt :=
  if Rltb (fst loc) 0 then Fin 0 else if Rltb (snd loc) 0 then Fin 0
  else if Rltb (INR (match data with [] => 0%nat | row :: _ => length row end) - 1) (fst loc) then Fin 0
  else if Rltb (INR (length data) - 1) (snd loc) then Fin 0 else Fin 7.
Lemma flat_sample_zero : zero_outside flat_sample.
Proof.
  intros data ny nx loc [L F] H. unfold flat_sample. destruct (Rltb_spec (fst loc) 0); [reflexivity|]. destruct (Rltb_spec (snd loc) 0); [reflexivity|].
  destruct data as [|row data].
  - destruct (Rltb_spec (INR 0 - 1) (fst loc)); [reflexivity|]. cbn in *. lra.
  - inversion F; subst. destruct (Rltb_spec (INR (length row) - 1) (fst loc)); [reflexivity|]. destruct (Rltb_spec (INR (length (row :: data)) - 1) (snd loc)); [reflexivity|]. lra.
Qed.

(** A cell whose location is in the image has the image's value, one outside has the no-data
    value: refuted in both directions.  First, a coregistered image loses its border: the cell
    is located exactly on pixel (3, 2) of a 5 x 5 image and holds no data. *)
Theorem C69_border_refuted : exists sample img nodata out geo_t o,
  zero_outside sample /\ in_image img (ov_locate img 0 (cell_centre 0 0 2 2 2 2 0 0, 0)) /\
  sample (ov_band img 0) (ov_locate img 0 (cell_centre 0 0 2 2 2 2 0 0, 0)) <> nodata /\
  create_ortho sample img 2 2 0 0 2 2 None (Some [0%nat]) nodata = Ok (out, geo_t) /\ nth_error out 0 = Some o /\
  raster_at (b_rows o) 0 0 = Some nodata.
Proof.
  exists flat_sample, (loc_image true (3, 2)), (Fin (-1)).
  destruct (C69_coregistered flat_sample (loc_image true (3, 2)) 2 2 0 0 2 2 None [0%nat] (Fin (-1))) as (out & geo_t & E & _ & P); try reflexivity; try lia; try lra; try congruence.
  destruct (P 0%nat 0%nat eq_refl) as (o & Ho & _ & V). exists out, geo_t, o. split; [exact flat_sample_zero|].
  split; [unfold in_image; cbn; lra|]. split.
  - unfold flat_sample. cbn [ov_locate loc_image fst snd ov_band repeat length]. rewrite !Rltb_false by (cbn; lra). intros Q. injection Q as Q. lra.
  - split; [exact E|]. split; [exact Ho|]. destruct (V 0%nat 0%nat) as (v & Hv & _ & N); try lia. rewrite Hv. f_equal.
    rewrite N; [reflexivity|]. unfold in_inner. cbn. lra.
Qed.
Print Assumptions C69_border_refuted.

(** Second, without coregistration a cell outside the image holds 0, not the no-data value. *)
Theorem C69_outside_refuted : exists sample img nodata out geo_t o,
  zero_outside sample /\ ~ in_image img (ov_locate img 0 (cell_centre 0 0 2 2 2 2 0 0, 0)) /\
  create_ortho sample img 2 2 0 0 2 2 None (Some [0%nat]) nodata = Ok (out, geo_t) /\ nth_error out 0 = Some o /\
  raster_at (b_rows o) 0 0 = Some (Fin 0) /\ nodata = Fin (-9999).
Proof.
  exists flat_sample, (loc_image false (30, 2)), (Fin (-9999)).
  destruct (C69_separate flat_sample (loc_image false (30, 2)) 2 2 0 0 2 2 None [0%nat] (Fin (-9999))) as (out & geo_t & E & _ & P); try reflexivity; try lia; try lra; try congruence.
  destruct (P 0%nat 0%nat eq_refl) as (o & Ho & _ & V). exists out, geo_t, o. split; [exact flat_sample_zero|].
  split; [unfold in_image; cbn; lra|]. split; [exact E|]. split; [exact Ho|]. split; [|reflexivity].
  cbv zeta in V. rewrite V by lia. f_equal. cbn [ov_store loc_image]. apply (flat_sample_zero _ 5%nat 5%nat); [split; [reflexivity|repeat constructor]|]. cbn. lra.
Qed.
Print Assumptions C69_outside_refuted.

(** In general: outside the image, a band that is not coregistered holds the stored 0. *)
Theorem C69_outside sample img nx ny minx miny maxx maxy dem bands nodata out geo_t k b o r c bny bnx :
  ov_coregistered img = false -> (2 <= nx)%nat -> (2 <= ny)%nat -> minx <= maxx -> miny <= maxy -> zero_outside sample ->
  create_ortho sample img nx ny minx miny maxx maxy dem (Some bands) nodata = Ok (out, geo_t) ->
  nth_error bands k = Some b -> nth_error out k = Some o -> (r < ny)%nat -> (c < nx)%nat -> raster (ov_band img b) bny bnx ->
  let p := cell_centre minx miny maxx maxy nx ny r c in
  let loc := ov_locate img b (p, match dem with Some d => d p | None => 0 end) in
  fst loc < 0 \/ INR bnx - 1 < fst loc \/ snd loc < 0 \/ INR bny - 1 < snd loc ->
  raster_at (b_rows o) r c = Some (ov_store img (Fin 0)).
Proof.
  intros HC Hx Hy Lx Ly HZ E Hk Ho Hr Hc RB p loc H.
  assert (NB : bands <> []) by (destruct bands; [destruct k; discriminate|congruence]).
  destruct (C69_separate sample img nx ny minx miny maxx maxy dem bands nodata HC Hx Hy Lx Ly NB) as (out' & geo' & E' & _ & P).
  rewrite E in E'. injection E' as <- <-. destruct (P k b Hk) as (o' & Ho' & _ & V). rewrite Ho in Ho'. injection Ho' as <-.
  rewrite (V r c Hr Hc). f_equal. f_equal. apply (HZ _ bny bnx); [exact RB|].
  destruct dem; exact H.
Qed.
Print Assumptions C69_outside.

(* -------------------------------- C70 -------------------------------- *)

(** The size of the full ortho: as many whole ground samples as fit in the extent. *)
Theorem C70_size minx miny maxx maxy gsd : 0 < gsd -> exists nx ny, full_ortho_size (minx, miny, maxx, maxy) gsd = Ok (nx, ny) /\
  (0 <= nx)%Z /\ (0 <= ny)%Z /\ IZR nx * gsd <= Rabs (maxx - minx) < (IZR nx + 1) * gsd /\ IZR ny * gsd <= Rabs (maxy - miny) < (IZR ny + 1) * gsd.
Proof.
  intros H. unfold full_ortho_size. rewrite Reqb_false by lra. eexists _, _. split; [reflexivity|].
  assert (G : forall a, 0 <= a -> (0 <= truncZ (a / gsd))%Z /\ IZR (truncZ (a / gsd)) * gsd <= a < (IZR (truncZ (a / gsd)) + 1) * gsd).
  { intros a Ha. assert (P : 0 <= a / gsd) by (apply Rmult_le_pos; [exact Ha|left; now apply Rinv_0_lt_compat]).
    destruct (truncZ_nonneg _ P) as [[I1 I2] I3].
    assert (E : a / gsd * gsd = a) by (field; lra). apply (Rmult_le_compat_r gsd) in I1; [|lra]. apply (Rmult_lt_compat_r gsd) in I2; [|lra]. split; [|lra].
    exact I3. }
  destruct (G _ (Rabs_pos (maxx - minx))) as [A B]. destruct (G _ (Rabs_pos (maxy - miny))) as [C D]. auto.
Qed.
Print Assumptions C70_size.

(** An extent narrower than two ground samples -- for instance an extent in degrees and a ground
    sample distance in metres -- has no ortho: IndexError. *)
Theorem C70_small_extent outline to_local sample img ground dem bands gsd nodata poly minx miny maxx maxy : 0 < gsd ->
  get_extent outline (ov_coregistered img) (Z.to_nat (ov_nx img)) (Z.to_nat (ov_ny img)) (ov_n_bands img) ground dem
     (match bands with None => AllBands | Some l => BandList l end) = Ok poly ->
  bounds poly = Some (minx, miny, maxx, maxy) -> Rabs (maxx - minx) < 2 * gsd \/ Rabs (maxy - miny) < 2 * gsd ->
  create_full_ortho outline to_local sample img ground dem bands (Some gsd) nodata = Err IndexError.
Proof.
  intros H E B S2. unfold create_full_ortho. rewrite E. cbn [bind]. rewrite B. cbn [full_ortho_gsd].
  destruct (C70_size minx miny maxx maxy gsd H) as (nx & ny & -> & P1 & P2 & P3 & P4). cbn [bind fst snd].
  apply C69_errors. assert (nx < 2 \/ ny < 2)%Z; [|lia].
  destruct S2 as [Q|Q]; [left|right]; apply lt_IZR; apply Rmult_lt_reg_r with gsd; lra.
Qed.
Print Assumptions C70_small_extent.

(** Otherwise the full ortho is the ortho of the extent's bounds of that size. *)
Theorem C70_full outline to_local sample img ground dem bands gsd nodata poly minx miny maxx maxy : 0 < gsd ->
  get_extent outline (ov_coregistered img) (Z.to_nat (ov_nx img)) (Z.to_nat (ov_ny img)) (ov_n_bands img) ground dem
     (match bands with None => AllBands | Some l => BandList l end) = Ok poly ->
  bounds poly = Some (minx, miny, maxx, maxy) ->
  exists nx ny : nat, INR nx * gsd <= Rabs (maxx - minx) < (INR nx + 1) * gsd /\ INR ny * gsd <= Rabs (maxy - miny) < (INR ny + 1) * gsd /\
    create_full_ortho outline to_local sample img ground dem bands (Some gsd) nodata =
    create_ortho sample img nx ny minx miny maxx maxy (option_map df_elev dem) bands nodata.
Proof.
  intros H E B. unfold create_full_ortho. rewrite E. cbn [bind]. rewrite B. cbn [full_ortho_gsd].
  destruct (C70_size minx miny maxx maxy gsd H) as (nx & ny & -> & P1 & P2 & P3 & P4). cbn [bind fst snd].
  exists (Z.to_nat nx), (Z.to_nat ny). rewrite !INR_IZR_INZ, !Z2Nat.id by assumption. auto.
Qed.
Print Assumptions C70_full.

(** Without a ground sample distance it is that of the first requested band, band 0 when no
    bands are named. *)
Theorem C70_full_default outline to_local sample img ground dem bands nodata :
  create_full_ortho outline to_local sample img ground dem bands None nodata =
  create_full_ortho outline to_local sample img ground dem bands
    (Some (full_ortho_gsd to_local (Z.to_nat (ov_nx img)) (Z.to_nat (ov_ny img)) ground dem
             (match bands with Some (b :: _) => b | _ => 0%nat end) None)) nodata.
Proof. reflexivity. Qed.
Print Assumptions C70_full_default.

(** A ground sample distance of zero raises OverflowError, or ValueError if the extent has no
    width; an empty extent raises IndexError, and a failure to find the extent is passed on. *)
Theorem C70_full_refused outline to_local sample img ground dem bands nodata :
  let extent := get_extent outline (ov_coregistered img) (Z.to_nat (ov_nx img)) (Z.to_nat (ov_ny img)) (ov_n_bands img) ground dem
     (match bands with None => AllBands | Some l => BandList l end) in
  (forall poly minx miny maxx maxy, extent = Ok poly -> bounds poly = Some (minx, miny, maxx, maxy) ->
     create_full_ortho outline to_local sample img ground dem bands (Some 0) nodata =
     Err (if Req_EM_T maxx minx then ValueError else OtherError)) /\
  (forall gsd, extent = Ok [] -> create_full_ortho outline to_local sample img ground dem bands gsd nodata = Err IndexError) /\
  (forall gsd e, extent = Err e -> create_full_ortho outline to_local sample img ground dem bands gsd nodata = Err e).
Proof.
  intros extent. split; [|split].
  - intros poly minx miny maxx maxy E B. unfold create_full_ortho. fold extent. rewrite E. cbn [bind]. rewrite B. cbn [full_ortho_gsd full_ortho_size].
    rewrite Reqb_true by reflexivity. destruct (Req_EM_T maxx minx) as [->|N]; [rewrite Reqb_true by reflexivity|rewrite Reqb_false by exact N]; reflexivity.
  - intros gsd E. unfold create_full_ortho. fold extent. rewrite E. reflexivity.
  - intros gsd e E. unfold create_full_ortho. fold extent. rewrite E. reflexivity.
Qed.
Print Assumptions C70_full_refused.

(** The default ground sample distance of a sensor whose pixels are squares of side pitch on the
    ground: too small, by the factors (n - 1) / n. *)
Theorem C70_default_gsd to_local nx ny ground dem band pitch x0 y0 ux uy : (0 < nx)%nat -> (0 < ny)%nat -> 0 <= pitch -> ux ^ 2 + uy ^ 2 = 1 ->
  (forall x y, to_local (pixel_lon_lat ground dem band (x, y)) = (x0 + pitch * (ux * x - uy * y), y0 + pitch * (uy * x + ux * y))) ->
  full_ortho_gsd to_local nx ny ground dem band None = pitch * ((INR nx - 1) / INR nx + (INR ny - 1) / INR ny) / 2.
Proof.
  intros Hx Hy HP HU HF. unfold full_ortho_gsd. rewrite !HF.
  assert (X1 : 1 <= INR nx) by (change 1 with (INR 1); apply le_INR; lia). assert (Y1 : 1 <= INR ny) by (change 1 with (INR 1); apply le_INR; lia).
  replace ((x0 + pitch * (ux * (INR nx - 1) - uy * 0) - (x0 + pitch * (ux * 0 - uy * 0))) ^ 2 + (y0 + pitch * (uy * (INR nx - 1) + ux * 0) - (y0 + pitch * (uy * 0 + ux * 0))) ^ 2)
    with (Rsqr (pitch * (INR nx - 1))).
  2:{ unfold Rsqr. transitivity ((pitch * (INR nx - 1)) * (pitch * (INR nx - 1)) * (ux ^ 2 + uy ^ 2)); [rewrite HU|]; ring. }
  replace ((x0 + pitch * (ux * 0 - uy * (INR ny - 1)) - (x0 + pitch * (ux * 0 - uy * 0))) ^ 2 + (y0 + pitch * (uy * 0 + ux * (INR ny - 1)) - (y0 + pitch * (uy * 0 + ux * 0))) ^ 2)
    with (Rsqr (pitch * (INR ny - 1))).
  2:{ unfold Rsqr. transitivity ((pitch * (INR ny - 1)) * (pitch * (INR ny - 1)) * (ux ^ 2 + uy ^ 2)); [rewrite HU|]; ring. }
  rewrite !sqrt_Rsqr by (apply Rmult_le_pos; lra). field. lra.
Qed.
Print Assumptions C70_default_gsd.

(** That it is the pixel pitch: refuted. *)
Theorem C70_gsd_refuted : exists to_local nx ny ground dem band pitch,
  (forall x y, to_local (pixel_lon_lat ground dem band (x, y)) = (pitch * x, pitch * y)) /\ 0 < pitch /\
  full_ortho_gsd to_local nx ny ground dem band None <> pitch.
Proof.
  exists (fun q => q), 2%nat, 2%nat, (fun _ p _ => p), None, 0%nat, 1.
  assert (HF : forall x y : R, (fun q => q) (pixel_lon_lat (fun _ p _ => p) None 0 (x, y)) = (0 + 1 * (1 * x - 0 * y), 0 + 1 * (0 * x + 1 * y))) by (intros x y; unfold pixel_lon_lat; f_equal; ring).
  split; [intros x y; unfold pixel_lon_lat; f_equal; ring|]. split; [lra|].
  rewrite (C70_default_gsd (fun q => q) 2 2 (fun _ p _ => p) None 0 1 0 0 1 0) by (try lia; try lra; try exact HF). cbn. lra.
Qed.
Print Assumptions C70_gsd_refuted.

Example C70_hypotheses_met : exists poly, get_extent (fun pts => pts) true 3 3 1 (fun _ p _ => p) None AllBands = Ok poly /\ bounds poly = Some (0, 0, 2, 2) /\ full_ortho_size (0, 0, 2, 2) (1 / 2) = Ok (4%Z, 4%Z).
Proof.
  destruct (get_extent_pts (fun pts => pts) true 3 3 1 (fun _ p _ => p) None AllBands) as (pts & E & P); try lia.
  exists pts. split; [exact E|]. split.
  - assert (NE : pts <> []). { intros ->. destruct (P (pixel_lon_lat (fun _ p _ => p) None 0 (INR 0, INR 0))) as [_ Q]. destruct Q. exists 0%nat, 0%nat, 0%nat. split; [now left|]. split; [unfold on_border; lia|reflexivity]. }
    assert (IN : forall c r, on_border 3 3 c r -> In (INR c, INR r) pts) by (intros c r O; apply P; exists 0%nat, c, r; split; [now left|auto]).
    assert (RG : forall q, In q pts -> 0 <= fst q <= 2 /\ 0 <= snd q <= 2).
    { intros q Hq. apply P in Hq as (b & c & r & _ & (O1 & O2 & _) & ->). unfold pixel_lon_lat. cbn [fst snd].
      assert (INR c <= INR 2) by (apply le_INR; lia). assert (INR r <= INR 2) by (apply le_INR; lia). pose proof (pos_INR c). pose proof (pos_INR r). cbn in *. lra. }
    destruct (bounds_some _ NE) as (a & b & c & d & B). rewrite B. unfold bounds in B.
    destruct (rmin (map fst pts)) as [m1|] eqn:E1; [|discriminate]. destruct (rmin (map snd pts)) as [m2|] eqn:E2; [|discriminate].
    destruct (rmax (map fst pts)) as [m3|] eqn:E3; [|discriminate]. destruct (rmax (map snd pts)) as [m4|] eqn:E4; [|discriminate].
    injection B as <- <- <- <-. apply rmin_spec in E1 as [I1 M1]. apply rmin_spec in E2 as [I2 M2]. apply rmax_spec in E3 as [I3 M3]. apply rmax_spec in E4 as [I4 M4].
    assert (Z0 := IN 0%nat 0%nat ltac:(unfold on_border; lia)). assert (Z2 := IN 2%nat 2%nat ltac:(unfold on_border; lia)).
    pose proof (M1 _ (in_map fst _ _ Z0)). pose proof (M2 _ (in_map snd _ _ Z0)). pose proof (M3 _ (in_map fst _ _ Z2)). pose proof (M4 _ (in_map snd _ _ Z2)).
    apply in_map_iff in I1 as (p1 & F1 & I1). apply in_map_iff in I2 as (p2 & F2 & I2). apply in_map_iff in I3 as (p3 & F3 & I3). apply in_map_iff in I4 as (p4 & F4 & I4).
    apply RG in I1. apply RG in I2. apply RG in I3. apply RG in I4. cbn in *. f_equal. repeat apply f_equal2; lra.
  - destruct (C70_size 0 0 2 2 (1 / 2)) as (nx & ny & E' & A & B & C & D); [lra|]. rewrite E'. rewrite Rabs_right in C by lra.
    assert (3 < nx < 5)%Z by (split; apply lt_IZR; lra). assert (3 < ny < 5)%Z by (rewrite Rabs_right in D by lra; split; apply lt_IZR; lra). repeat f_equal; lia.
Qed.
