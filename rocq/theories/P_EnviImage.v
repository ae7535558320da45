(** Proofs about ENVI dtype codes, interleaving and image files. *)
From Verif Require Import M_Envi Spec_Envi P_EnviHeader.
From Coq Require Import ZifyBool.
Open Scope Z_scope.
Open Scope list_scope.

(* ------------------------------ dtypes ---------------------------- *)

Lemma str_code_cases (code : Z) (v : option np_dtype) :
  envi_dtype_to_numpy_dtype code = Ok v ->
  In (code, v) [(1, Some UInt8); (2, Some Int16); (3, Some Int32); (4, Some Float32);
                (5, Some Float64); (6, None); (7, None); (8, None); (9, Some Complex64);
                (10, None); (11, None); (12, Some UInt16); (13, Some UInt32);
                (14, Some Int64); (15, Some UInt64)].
Proof.
  unfold envi_dtype_to_numpy_dtype, envi_dtypes_to_numpy.
  cbn [dict_get].
  repeat match goal with
  | |- context [text_eqb (txt ?s) (str_of_Z code)] =>
    destruct (text_eqb (txt s) (str_of_Z code)) eqn:?;
    [ intros H; injection H as <-;
      match goal with
      | H : text_eqb (txt s) (str_of_Z code) = true |- _ =>
        apply text_eqb_spec in H;
        let z := eval vm_compute in (match py_int (txt s) with Ok z => z | _ => 0 end) in
        let E := fresh in
        assert (E : code = z) by (apply str_of_Z_inj; rewrite <- H; vm_compute; reflexivity);
        subst code; simpl; tauto
      end | ]
  end. discriminate.
Qed.

Lemma numpy_to_envi_to_numpy nf d code :
  numpy_dtype_to_envi_dtype nf d = Ok (Some code) -> envi_dtype_to_numpy_dtype code = Ok (Some d).
Proof.
  intros H. destruct nf; destruct d; vm_compute in H; try discriminate H; injection H as <-; vm_compute; reflexivity.
Qed.

Lemma numpy_to_envi_total nf d :
  exists o, numpy_dtype_to_envi_dtype nf d = Ok o /\
  (o = None <-> In d [Bool_; Int8; Float16; Complex128] \/ exists n, d = OtherDtype n).
Proof.
  destruct d; (eexists; split; [destruct nf; vm_compute; reflexivity|]);
    split; intros H; try discriminate H; auto;
    try (left; simpl; tauto); try (right; eexists; reflexivity);
    (destruct H as [H|[n H]]; [simpl in H; repeat (destruct H as [H|H]; [discriminate H|]); destruct H
                              |discriminate H]).
Qed.

Lemma envi_to_numpy_to_envi nf code d :
  envi_dtype_to_numpy_dtype code = Ok (Some d) -> numpy_dtype_to_envi_dtype nf d = Ok (Some code).
Proof.
  intros H. apply str_code_cases in H. simpl in H.
  repeat (destruct H as [H|H]; [try discriminate H; injection H as <- <-; destruct nf; vm_compute; reflexivity|]).
  destruct H.
Qed.

Lemma envi_code_injective nf d1 d2 code :
  numpy_dtype_to_envi_dtype nf d1 = Ok (Some code) ->
  numpy_dtype_to_envi_dtype nf d2 = Ok (Some code) -> d1 = d2.
Proof.
  intros H1 H2. apply numpy_to_envi_to_numpy in H1. apply numpy_to_envi_to_numpy in H2. congruence.
Qed.

(* ------------------------------ interleave ------------------------ *)

Lemma get_line_band_length {A} (z : A) c l b :
  cube_wf c -> (l < c_ny c)%nat -> length (get_line_band z c l b) = c_nx c.
Proof.
  intros [W1 W2] Hl. unfold get_line_band. rewrite map_length.
  rewrite Forall_forall in W2. apply W2. apply nth_In. lia.
Qed.

Lemma get_line_band_nth {A} (z : A) c l x b :
  cube_wf c -> (l < c_ny c)%nat -> (x < c_nx c)%nat -> (b < c_nb c)%nat ->
  nth_error (get_line_band z c l b) x = cube_at c l x b.
Proof.
  intros [W1 W2] Hl Hx Hb. unfold get_line_band, cube_at.
  rewrite Forall_forall in W2.
  assert (R : nth_error (c_data c) l = Some (nth l (c_data c) [])) by (apply nth_error_nth'; lia).
  rewrite R. set (row := nth l (c_data c) []) in *.
  destruct (W2 row (nth_error_In _ _ R)) as [L F]. rewrite Forall_forall in F.
  rewrite nth_error_map.
  destruct (nth_error row x) as [px|] eqn:X; simpl; [|apply nth_error_None in X; lia].
  symmetry. apply nth_error_nth'. rewrite (F px (nth_error_In _ _ X)). exact Hb.
Qed.

Lemma set_slice_zeros {A} (pre v post : list A) zs :
  length zs = length v -> set_slice (pre ++ zs ++ post) (length pre) v = pre ++ v ++ post.
Proof.
  intros H. unfold set_slice.
  rewrite firstn_app, firstn_all, Nat.sub_diag. simpl. rewrite app_nil_r.
  f_equal. f_equal. rewrite <- H.
  rewrite skipn_app, skipn_all2 by lia. simpl.
  replace (length pre + length zs - length pre)%nat with (length zs) by lia.
  rewrite skipn_app, skipn_all, Nat.sub_diag. reflexivity.
Qed.

Lemma interleave_fold {A} (z : A) (f : nat * nat -> list A) nx ps pre :
  (forall p, In p ps -> length (f p) = nx) ->
  fst (fold_left (fun st lb => let '(raw, counter) := st in
         (set_slice raw counter (f lb), (counter + nx)%nat)) ps
        (pre ++ repeat z (length ps * nx), length pre))
  = pre ++ concat (map f ps).
Proof.
  revert pre; induction ps as [|p ps IH]; intros pre H; simpl.
  - reflexivity.
  - rewrite repeat_app. rewrite set_slice_zeros.
    2:{ rewrite repeat_length. symmetry; apply H; left; reflexivity. }
    rewrite app_assoc. replace (length pre + nx)%nat with (length (pre ++ f p)).
    2:{ rewrite app_length, (H p) by (left; reflexivity). reflexivity. }
    rewrite IH by (intros q Hq; apply H; right; exact Hq).
    rewrite <- app_assoc. reflexivity.
Qed.

Lemma pairs_In ny nb l b : In (l, b) (line_band_pairs ny nb) <-> (l < ny /\ b < nb)%nat.
Proof. unfold line_band_pairs. rewrite in_prod_iff, !in_seq. lia. Qed.

Lemma pairs_length ny nb : length (line_band_pairs ny nb) = (ny * nb)%nat.
Proof. unfold line_band_pairs. rewrite prod_length, !seq_length. reflexivity. Qed.

Definition line_of {A} (z : A) (c : cube A) (lb : nat * nat) : list A :=
  get_line_band z c (fst lb) (snd lb).

Lemma interleave_bil {A} (z : A) (c : cube A) :
  cube_wf c ->
  interleave_image z c (txt "bil") = concat (map (line_of z c) (line_band_pairs (c_ny c) (c_nb c))).
Proof.
  intros W. unfold interleave_image. rewrite text_eqb_refl.
  replace (c_ny c * c_nx c * c_nb c)%nat
    with (length (line_band_pairs (c_ny c) (c_nb c)) * c_nx c)%nat by (rewrite pairs_length; nia).
  pose proof (interleave_fold z (line_of z c) (c_nx c) (line_band_pairs (c_ny c) (c_nb c)) []) as E.
  simpl in E. apply E.
  intros [l b] Hp. apply pairs_In in Hp. apply get_line_band_length; tauto.
Qed.

Lemma concat_length_const {A} (ls : list (list A)) n :
  (forall l, In l ls -> length l = n) -> length (concat ls) = (length ls * n)%nat.
Proof.
  induction ls as [|l ls IH]; intros H; simpl; auto.
  rewrite app_length, IH by (intros m Hm; apply H; right; exact Hm).
  rewrite (H l) by (left; reflexivity). reflexivity.
Qed.

Lemma interleave_length {A} (z : A) (c : cube A) il :
  cube_wf c -> length (interleave_image z c il) = (c_ny c * c_nx c * c_nb c)%nat.
Proof.
  intros W. destruct (text_eqb il (txt "bil")) eqn:E.
  - apply text_eqb_spec in E. subst il. rewrite interleave_bil by exact W.
    rewrite (concat_length_const _ (c_nx c)).
    + rewrite map_length, pairs_length. nia.
    + intros l Hl. apply in_map_iff in Hl. destruct Hl as ([l' b] & <- & Hp).
      apply pairs_In in Hp. apply get_line_band_length; tauto.
  - unfold interleave_image. rewrite E. apply repeat_length.
Qed.

(** set_line_band *)
Lemma map2_upd_nth {A} (row : list (list A)) vals b x :
  nth_error (map2 (fun px v => upd_nat px b v) row vals) x =
  match nth_error row x, nth_error vals x with
  | Some px, Some v => Some (upd_nat px b v)
  | _, _ => None
  end.
Proof.
  revert vals x; induction row as [|p row IH]; intros [|v vals] [|x]; simpl; auto.
  - destruct (nth_error row x); reflexivity.
Qed.

Lemma set_line_band_ok {A} (z : A) c l b chunk :
  cube_wf c -> (l < c_ny c)%nat -> (b < c_nb c)%nat -> length chunk = c_nx c ->
  exists c', set_line_band z c l b chunk = Ok c' /\ cube_wf c' /\
    c_ny c' = c_ny c /\ c_nx c' = c_nx c /\ c_nb c' = c_nb c /\
    forall l' x b', (x < c_nx c)%nat -> cube_at c' l' x b' =
       if (Nat.eqb l' l && Nat.eqb b' b)%bool then nth_error chunk x else cube_at c l' x b'.
Proof.
  intros [W1 W2] Hl Hb Hc. unfold set_line_band. rewrite Hc, Nat.eqb_refl.
  eexists; split; [reflexivity|].
  assert (R : nth_error (c_data c) l = Some (nth l (c_data c) [])) by (apply nth_error_nth'; lia).
  set (row := nth l (c_data c) []) in *.
  rewrite Forall_forall in W2. destruct (W2 row (nth_error_In _ _ R)) as [L F].
  pose proof F as F0. rewrite Forall_forall in F.
  split; [split; simpl|split; [reflexivity|split; [reflexivity|split; [reflexivity|]]]].
  - rewrite upd_nat_length. exact W1.
  - apply Forall_forall. intros r Hr. apply In_nth_error in Hr. destruct Hr as (n & Hn).
    rewrite upd_nat_nth in Hn.
    destruct (Nat.eqb n l && Nat.ltb l (length (c_data c)))%bool.
    + injection Hn as <-. split.
      * rewrite map2_length. lia.
      * apply Forall_forall. intros px Hp. apply In_nth_error in Hp. destruct Hp as (m & Hm).
        rewrite map2_upd_nth in Hm. destruct (nth_error row m) as [p|] eqn:E; [|discriminate].
        destruct (nth_error chunk m); [|discriminate]. injection Hm as <-.
        rewrite upd_nat_length. apply F. eapply nth_error_In; exact E.
    + apply W2. eapply nth_error_In; exact Hn.
  - intros l' x b' Hx. unfold cube_at. simpl. rewrite upd_nat_nth.
    destruct (Nat.eqb_spec l' l) as [->|Hne]; simpl; [|reflexivity].
    assert (El : Nat.ltb l (length (c_data c)) = true) by (apply Nat.ltb_lt; lia). rewrite El, R.
    rewrite map2_upd_nth.
    destruct (nth_error row x) as [px|] eqn:X; [|apply nth_error_None in X; lia].
    destruct (nth_error chunk x) as [v|] eqn:V; [|apply nth_error_None in V; lia].
    rewrite upd_nat_nth.
    assert (Ep : length px = c_nb c) by (apply F; eapply nth_error_In; exact X).
    destruct (Nat.eqb_spec b' b) as [->|Hnb]; simpl; [|reflexivity].
    assert (Eb : Nat.ltb b (length px) = true) by (apply Nat.ltb_lt; lia). rewrite Eb. reflexivity.
Qed.

Definition pair_dec (p q : nat * nat) : {p = q} + {p <> q}.
Proof. decide equality; apply Nat.eq_dec. Defined.

Lemma construct_fold {A} (z : A) (f : nat * nat -> list A) raw ny nx nb ps :
  forall cnt c,
  cube_wf c -> c_ny c = ny -> c_nx c = nx -> c_nb c = nb ->
  (forall p, In p ps -> (fst p < ny /\ snd p < nb)%nat /\ length (f p) = nx) ->
  skipn cnt raw = concat (map f ps) ->
  exists c', rmap fst (foldM (fun st lb => let '(cub, counter) := st in
       let data_chunk := firstn nx (skipn counter raw) in
       cub' <- set_line_band z cub (fst lb) (snd lb) data_chunk ;;
       Ok (cub', (counter + nx)%nat)) ps (c, cnt)) = Ok c' /\ cube_wf c' /\
    c_ny c' = ny /\ c_nx c' = nx /\ c_nb c' = nb /\
    forall l x b, (x < nx)%nat -> cube_at c' l x b =
      if in_dec pair_dec (l, b) ps then nth_error (f (l, b)) x
      else cube_at c l x b.
Proof.
  induction ps as [|p ps IH]; intros cnt c W E1 E2 E3 Hf Hraw.
  - exists c. split; [reflexivity|]. split; [exact W|]. repeat (split; [assumption|]).
    intros; simpl. reflexivity.
  - cbn [foldM]. destruct (Hf p (or_introl eq_refl)) as [[Hl Hb] Hlen].
    assert (Ec : firstn nx (skipn cnt raw) = f p).
    { rewrite Hraw. cbn [map concat]. rewrite firstn_app, Hlen, Nat.sub_diag. simpl.
      rewrite app_nil_r. rewrite <- Hlen. apply firstn_all. }
    rewrite Ec.
    destruct (set_line_band_ok z c (fst p) (snd p) (f p) W) as (c1 & Es & W' & D1 & D2 & D3 & Hat); try lia.
    rewrite Es. cbn [bind].
    destruct (IH (cnt + nx)%nat c1) as (c' & Ef & W2 & G1 & G2 & G3 & Hat2); try congruence.
    + intros q Hq. apply Hf. right; exact Hq.
    + rewrite Nat.add_comm, <- skipn_skipn, Hraw. cbn [map concat].
      rewrite skipn_app, skipn_all2 by lia. simpl. replace (nx - length (f p))%nat with O by lia. reflexivity.
    + exists c'. split; [exact Ef|]. split; [exact W2|]. repeat (split; [assumption|]).
      intros l x b Hx. rewrite Hat2 by exact Hx.
      destruct (in_dec pair_dec (l, b) (p :: ps)) as [Hi|Hi];
        destruct (in_dec pair_dec (l, b) ps) as [Hj|Hj]; auto.
      * destruct Hi as [->|Hi]; [|contradiction]. rewrite Hat by lia.
        simpl. rewrite !Nat.eqb_refl. reflexivity.
      * exfalso. apply Hi. right; exact Hj.
      * rewrite Hat by lia. destruct (Nat.eqb_spec l (fst p)) as [->|]; simpl; auto.
        destruct (Nat.eqb_spec b (snd p)) as [->|]; simpl; auto.
        exfalso. apply Hi. left. destruct p; reflexivity.
Qed.

Lemma zero_cube_wf {A} (z : A) ny nx nb : cube_wf (zero_cube z ny nx nb).
Proof.
  split; simpl; [apply repeat_length|].
  apply Forall_forall. intros r Hr. apply repeat_spec in Hr. subst r.
  split; [apply repeat_length|]. apply Forall_forall. intros p Hp. apply repeat_spec in Hp. subst p.
  apply repeat_length.
Qed.

Lemma bil_round_trip {A} (z : A) (c : cube A) :
  cube_wf c ->
  construct_image_cube_from_raw_data z (interleave_image z c (txt "bil"))
    (c_nx c) (c_ny c) (c_nb c) (txt "bil") = Ok c.
Proof.
  intros W. unfold construct_image_cube_from_raw_data. rewrite text_eqb_refl.
  destruct (construct_fold z (line_of z c) (interleave_image z c (txt "bil")) (c_ny c) (c_nx c) (c_nb c)
             (line_band_pairs (c_ny c) (c_nb c)) O (zero_cube z (c_ny c) (c_nx c) (c_nb c)))
    as (c' & E & W' & D1 & D2 & D3 & Hat); auto.
  - apply zero_cube_wf.
  - intros [l b] Hp. apply pairs_In in Hp. split; [exact Hp|]. apply get_line_band_length; tauto.
  - simpl skipn. apply interleave_bil. exact W.
  - match type of E with ?x = _ => change (x = Ok c) end.
    rewrite E. f_equal.
    apply (cube_ext c' c (c_ny c) (c_nx c) (c_nb c)); auto.
    intros l x b Hl Hx Hb. rewrite Hat by exact Hx.
    destruct (in_dec pair_dec (l, b) (line_band_pairs (c_ny c) (c_nb c))) as [Hi|Hi].
    + unfold line_of. simpl. apply get_line_band_nth; auto.
    + exfalso. apply Hi. apply pairs_In. split; assumption.
Qed.

(** every other interleave: zeros out, zeros in *)
Lemma other_interleave_write {A} (z : A) (c : cube A) il :
  il <> txt "bil" -> interleave_image z c il = repeat z (c_ny c * c_nx c * c_nb c).
Proof. intros H. unfold interleave_image. rewrite text_eqb_neq by exact H. reflexivity. Qed.

Lemma zero_cube_at {A} (z : A) ny nx nb l x b v :
  cube_at (zero_cube z ny nx nb) l x b = Some v -> v = z.
Proof.
  unfold cube_at. simpl. destruct (nth_error (repeat (repeat (repeat z nb) nx) ny) l) as [r|] eqn:R; [|discriminate].
  apply nth_error_In, repeat_spec in R. subst r.
  destruct (nth_error (repeat (repeat z nb) nx) x) as [p|] eqn:X; [|discriminate].
  apply nth_error_In, repeat_spec in X. subst p.
  intros H. apply nth_error_In, repeat_spec in H. exact H.
Qed.

Lemma other_interleave_read {A} (z : A) raw nx ny nb il :
  il <> txt "bil" ->
  exists c, construct_image_cube_from_raw_data z raw nx ny nb il = Ok c /\
            has_shape c ny nx nb /\ forall l x b v, cube_at c l x b = Some v -> v = z.
Proof.
  intros H. unfold construct_image_cube_from_raw_data. rewrite text_eqb_neq by exact H.
  eexists; split; [reflexivity|]. split.
  - apply (wf_has_shape (zero_cube z ny nx nb)). apply zero_cube_wf.
  - intros l x b v. apply zero_cube_at.
Qed.

(** truncated raw data *)
(** reading by position *)
Lemma list_prod_nth ny nb l b : (l < ny)%nat -> (b < nb)%nat ->
  nth_error (line_band_pairs ny nb) (l * nb + b) = Some (l, b).
Proof.
  intros Hl Hb. unfold line_band_pairs.
  assert (G : forall n s, (l < n)%nat -> nth_error (list_prod (seq s n) (seq 0 nb)) (l * nb + b) = Some ((s + l)%nat, b)); [|now rewrite (G ny 0%nat Hl)].
  clear Hl. induction l as [|l IH]; intros [|n] s Hn; try lia; cbn [seq list_prod].
  - rewrite nth_error_app1 by (rewrite map_length, seq_length; lia). cbn [Nat.mul Nat.add]. rewrite (map_nth_error _ b (seq 0 nb) (d := b)).
    + f_equal. f_equal; lia.
    + rewrite (nth_error_nth' _ 0%nat) by (rewrite seq_length; lia). now rewrite seq_nth.
  - rewrite nth_error_app2 by (rewrite map_length, seq_length; nia). rewrite map_length, seq_length.
    replace (S l * nb + b - nb)%nat with (l * nb + b)%nat by nia. rewrite IH by lia. f_equal. f_equal. lia.
Qed.
Lemma pairs_nth_inv ny nb k l b : nth_error (line_band_pairs ny nb) k = Some (l, b) -> (k = l * nb + b)%nat.
Proof.
  intros H. assert (Hk : (k < ny * nb)%nat) by (rewrite <- (pairs_length ny nb); apply nth_error_Some; congruence).
  assert (Hnb : nb <> 0%nat) by nia. pose proof (Nat.div_mod k nb Hnb) as E. pose proof (Nat.mod_upper_bound k nb Hnb) as Hm.
  assert (Hd : (k / nb < ny)%nat) by (apply Nat.div_lt_upper_bound; lia).
  pose proof (list_prod_nth ny nb (k / nb) (k mod nb) Hd Hm) as Q. replace (k / nb * nb + k mod nb)%nat with k in Q by lia. rewrite Q in H. injection H as <- <-. lia.
Qed.
(** what set_line_band stores for a chunk *)
Definition stored {A} (z : A) nx (chunk : list A) : list A :=
  if Nat.eqb (length chunk) nx then chunk else repeat (nth 0 chunk z) nx.
Definition fits {A} nx (chunk : list A) : Prop := length chunk = nx \/ length chunk = 1%nat.
Lemma set_line_band_stored {A} (z : A) c l b chunk : fits (c_nx c) chunk ->
  set_line_band z c l b chunk = set_line_band z c l b (stored z (c_nx c) chunk).
Proof.
  intros H. unfold stored. destruct (Nat.eqb_spec (length chunk) (c_nx c)) as [E|E]; [reflexivity|].
  destruct H as [H|H]; [contradiction|]. unfold set_line_band. rewrite repeat_length, Nat.eqb_refl. apply Nat.eqb_neq in E. rewrite E, H. reflexivity.
Qed.
Lemma construct_gen {A} (z : A) (f : nat * nat -> list A) raw ny nx nb ps :
  forall cnt c,
  cube_wf c -> c_ny c = ny -> c_nx c = nx -> c_nb c = nb ->
  (forall p, In p ps -> (fst p < ny /\ snd p < nb)%nat) ->
  (forall k p, nth_error ps k = Some p -> fits nx (firstn nx (skipn (cnt + k * nx) raw)) /\ f p = stored z nx (firstn nx (skipn (cnt + k * nx) raw))) ->
  exists c', rmap fst (foldM (fun st lb => let '(cub, counter) := st in
       let data_chunk := firstn nx (skipn counter raw) in
       cub' <- set_line_band z cub (fst lb) (snd lb) data_chunk ;;
       Ok (cub', (counter + nx)%nat)) ps (c, cnt)) = Ok c' /\ cube_wf c' /\
    c_ny c' = ny /\ c_nx c' = nx /\ c_nb c' = nb /\
    forall l x b, (x < nx)%nat -> cube_at c' l x b =
      if in_dec pair_dec (l, b) ps then nth_error (f (l, b)) x
      else cube_at c l x b.
Proof.
  induction ps as [|p ps IH]; intros cnt c W E1 E2 E3 Hp Hf.
  - exists c. split; [reflexivity|]. split; [exact W|]. repeat (split; [assumption|]). intros; simpl. reflexivity.
  - cbn [foldM]. destruct (Hp p (or_introl eq_refl)) as [Hl Hb]. destruct (Hf 0%nat p eq_refl) as [F0 S0]. replace (cnt + 0 * nx)%nat with cnt in F0, S0 by lia.
    rewrite set_line_band_stored by (rewrite E2; exact F0). rewrite E2, <- S0.
    assert (LF : length (f p) = nx). { rewrite S0. unfold stored. destruct (Nat.eqb_spec (length (firstn nx (skipn cnt raw))) nx); [assumption|apply repeat_length]. }
    destruct (set_line_band_ok z c (fst p) (snd p) (f p) W) as (c1 & Es & W' & D1 & D2 & D3 & Hat); try lia.
    rewrite Es. cbn [bind].
    destruct (IH (cnt + nx)%nat c1) as (c' & Ef & W2 & G1 & G2 & G3 & Hat2); try congruence.
    + intros q Hq. apply Hp. right; exact Hq.
    + intros k q Hk. specialize (Hf (S k) q Hk). replace (cnt + nx + k * nx)%nat with (cnt + S k * nx)%nat by lia. exact Hf.
    + exists c'. split; [exact Ef|]. split; [exact W2|]. repeat (split; [assumption|]).
      intros l x b Hx. rewrite Hat2 by exact Hx.
      destruct (in_dec pair_dec (l, b) (p :: ps)) as [Hi|Hi];
        destruct (in_dec pair_dec (l, b) ps) as [Hj|Hj]; auto.
      * destruct Hi as [->|Hi]; [|contradiction]. rewrite Hat by lia.
        simpl. rewrite !Nat.eqb_refl. reflexivity.
      * exfalso. apply Hi. right; exact Hj.
      * rewrite Hat by lia. destruct (Nat.eqb_spec l (fst p)) as [->|]; simpl; auto.
        destruct (Nat.eqb_spec b (snd p)) as [->|]; simpl; auto.
        exfalso. apply Hi. left. destruct p; reflexivity.
Qed.
Lemma chunk_at {A} (raw : list A) nx j x : (x < nx)%nat -> nth_error (firstn nx (skipn j raw)) x = nth_error raw (j + x).
Proof.
  intros Hx. assert (G : forall n (l : list A) i, (i < n)%nat -> nth_error (firstn n l) i = nth_error l i).
  { induction n as [|n IH]; intros [|a l] [|i] H; try lia; cbn; auto. apply IH. lia. }
  rewrite G by exact Hx. revert raw. induction j as [|j IH]; intros raw; [reflexivity|]. destruct raw as [|a raw]; [now destruct x|]. apply IH.
Qed.
(** Enough values: value x of line l, band b is number (l * nb + b) * nx + x *)
Lemma construct_complete {A} (z : A) raw nx ny nb : (ny * nx * nb <= length raw)%nat ->
  exists c, construct_image_cube_from_raw_data z raw nx ny nb (txt "bil") = Ok c /\ has_shape c ny nx nb /\
    forall l x b, (l < ny)%nat -> (x < nx)%nat -> (b < nb)%nat -> cube_at c l x b = nth_error raw ((l * nb + b) * nx + x).
Proof.
  intros H. unfold construct_image_cube_from_raw_data. rewrite text_eqb_refl.
  destruct (construct_gen z (fun p => firstn nx (skipn ((fst p * nb + snd p) * nx) raw)) raw ny nx nb (line_band_pairs ny nb) 0%nat (zero_cube z ny nx nb)) as (c & E & W & D1 & D2 & D3 & Hat); auto.
  - apply zero_cube_wf.
  - intros [l b] Hp. apply pairs_In in Hp. exact Hp.
  - intros k [l b] Hk. pose proof (nth_error_In _ _ Hk) as Hi. apply pairs_In in Hi. apply pairs_nth_inv in Hk. subst k. cbn [fst snd Nat.add].
    assert (L : length (firstn nx (skipn ((l * nb + b) * nx) raw)) = nx).
    { rewrite firstn_length, skipn_length. assert (Q : (l * nb + b + 1 <= ny * nb)%nat) by nia. apply (Nat.mul_le_mono_r _ _ nx) in Q. nia. }
    split; [now left|]. unfold stored. rewrite L, Nat.eqb_refl. reflexivity.
  - exists c. split; [exact E|]. split; [rewrite <- D1, <- D2, <- D3; now apply wf_has_shape|]. intros l x b Hl Hx Hb. rewrite Hat by exact Hx.
    destruct (in_dec pair_dec (l, b) (line_band_pairs ny nb)) as [Hi|Hi]; [|exfalso; apply Hi, pairs_In; split; assumption]. cbn [fst snd]. now rewrite chunk_at.
Qed.
(** One value of the last line of the last band *)
Lemma construct_one {A} (z : A) raw nx ny nb : (length raw < ny * nx * nb)%nat -> (length raw + nx = ny * nx * nb + 1)%nat ->
  exists c, construct_image_cube_from_raw_data z raw nx ny nb (txt "bil") = Ok c /\ has_shape c ny nx nb /\
    forall l x b, (l < ny)%nat -> (x < nx)%nat -> (b < nb)%nat ->
      cube_at c l x b = nth_error raw (if (Nat.eqb l (ny - 1) && Nat.eqb b (nb - 1))%bool then (l * nb + b) * nx else (l * nb + b) * nx + x).
Proof.
  intros H0 H. unfold construct_image_cube_from_raw_data. rewrite text_eqb_refl.
  destruct (construct_gen z (fun p => stored z nx (firstn nx (skipn ((fst p * nb + snd p) * nx) raw))) raw ny nx nb (line_band_pairs ny nb) 0%nat (zero_cube z ny nx nb)) as (c & E & W & D1 & D2 & D3 & Hat); auto.
  - apply zero_cube_wf.
  - intros [l b] Hp. apply pairs_In in Hp. exact Hp.
  - intros k [l b] Hk. pose proof (nth_error_In _ _ Hk) as Hi. apply pairs_In in Hi. apply pairs_nth_inv in Hk. subst k. cbn [fst snd Nat.add]. split; [|reflexivity].
    unfold fits. rewrite firstn_length, skipn_length. destruct (Nat.eq_dec (l * nb + b) (ny * nb - 1)) as [Q|Q]; [right|left].
    + rewrite Q, Nat.mul_sub_distr_r. assert (P1 : (1 <= ny * nb)%nat) by nia. apply (Nat.mul_le_mono_r _ _ nx) in P1. replace (ny * nx * nb)%nat with (ny * nb * nx)%nat in * by lia. lia.
    + assert (l * nb + b < ny * nb - 1)%nat by nia. assert ((l * nb + b + 2) * nx <= ny * nb * nx)%nat by (apply Nat.mul_le_mono_r; lia). nia.
  - exists c. split; [exact E|]. split; [rewrite <- D1, <- D2, <- D3; now apply wf_has_shape|]. intros l x b Hl Hx Hb. rewrite Hat by exact Hx.
    destruct (in_dec pair_dec (l, b) (line_band_pairs ny nb)) as [Hi|Hi]; [|exfalso; apply Hi, pairs_In; split; assumption]. cbn [fst snd]. clear Hi.
    destruct (Nat.eqb_spec l (ny - 1)) as [El|El]; [destruct (Nat.eqb_spec b (nb - 1)) as [Eb|Eb]|]; cbn [andb]; unfold stored; rewrite firstn_length, skipn_length.
    + assert (Q : (l * nb + b = ny * nb - 1)%nat) by nia. assert (L : Nat.min nx (length raw - (l * nb + b) * nx) = 1%nat).
      { rewrite Q, Nat.mul_sub_distr_r. assert (P1 : (1 <= ny * nb)%nat) by nia. apply (Nat.mul_le_mono_r _ _ nx) in P1. replace (ny * nx * nb)%nat with (ny * nb * nx)%nat in * by lia. lia. }
      rewrite L.
      destruct (Nat.eqb_spec 1 nx) as [En|En]; [exfalso; nia|]. rewrite nth_error_repeat by exact Hx.
      destruct (nth_error raw ((l * nb + b) * nx)) as [v|] eqn:EV; [|apply nth_error_None in EV; nia]. f_equal. apply nth_error_nth. rewrite chunk_at by lia. now rewrite Nat.add_0_r.
    + assert (Q : (l * nb + b + 2 <= ny * nb)%nat) by nia. apply (Nat.mul_le_mono_r _ _ nx) in Q. replace (Nat.min nx (length raw - (l * nb + b) * nx)) with nx by nia. rewrite Nat.eqb_refl. now apply chunk_at.
    + assert (Q : (l * nb + b + 2 <= ny * nb)%nat). { assert (l + 1 < ny)%nat by lia. nia. } apply (Nat.mul_le_mono_r _ _ nx) in Q. replace (Nat.min nx (length raw - (l * nb + b) * nx)) with nx by nia. rewrite Nat.eqb_refl. now apply chunk_at.
Qed.
(** anything else is rejected *)
Lemma construct_reject {A} (z : A) raw nx ny nb ps : forall cnt c,
  cube_wf c -> c_ny c = ny -> c_nx c = nx -> c_nb c = nb ->
  (forall p, In p ps -> (fst p < ny /\ snd p < nb)%nat) -> (nx <> 0)%nat ->
  (length (skipn cnt raw) < length ps * nx)%nat -> (length (skipn cnt raw) + nx <> length ps * nx + 1)%nat ->
  rmap fst (foldM (fun st lb => let '(cub, counter) := st in
       let data_chunk := firstn nx (skipn counter raw) in
       cub' <- set_line_band z cub (fst lb) (snd lb) data_chunk ;;
       Ok (cub', (counter + nx)%nat)) ps (c, cnt)) = Err ValueError.
Proof.
  induction ps as [|p ps IH]; intros cnt c W E1 E2 E3 Hp Hnx Hlen Hone; [simpl in Hlen; lia|].
  cbn [foldM]. destruct (Hp p (or_introl eq_refl)) as [Hl Hb]. set (chunk := firstn nx (skipn cnt raw)).
  assert (Lc : length chunk = Nat.min nx (length (skipn cnt raw))) by (unfold chunk; apply firstn_length).
  assert (SK : length (skipn (cnt + nx) raw) = (length (skipn cnt raw) - nx)%nat) by (rewrite !skipn_length; lia). cbn [length] in Hlen, Hone.
  destruct (Nat.eq_dec (length chunk) nx) as [En|En]; [|destruct (Nat.eq_dec (length chunk) 1) as [E1'|E1']].
  - destruct (set_line_band_ok z c (fst p) (snd p) chunk W) as (c1 & Es & W' & D1 & D2 & D3 & _); try lia.
    rewrite Es. cbn [bind]. apply IH; try congruence; [intros q Hq; apply Hp; now right|rewrite SK; lia|rewrite SK; lia].
  - rewrite set_line_band_stored by (right; exact E1'). assert (LS : length (stored z (c_nx c) chunk) = c_nx c).
    { unfold stored. destruct (Nat.eqb_spec (length chunk) (c_nx c)); [assumption|apply repeat_length]. }
    destruct (set_line_band_ok z c (fst p) (snd p) (stored z (c_nx c) chunk) W) as (c1 & Es & W' & D1 & D2 & D3 & _); try lia.
    rewrite Es. cbn [bind]. assert (Q : length ps <> 0%nat) by (intros Q; rewrite Q in Hone; lia). destruct ps as [|q ps]; [cbn in Q; lia|].
    apply IH; try congruence; [intros r Hr; apply Hp; now right|rewrite SK; cbn [length]; nia|rewrite SK; cbn [length] in *; nia].
  - assert (Es : set_line_band z c (fst p) (snd p) chunk = Err ValueError).
    { unfold set_line_band. rewrite E2. apply Nat.eqb_neq in En, E1'. now rewrite En, E1'. }
    rewrite Es. reflexivity.
Qed.
Lemma truncated_exact {A} (z : A) raw nx ny nb :
  (length raw < ny * nx * nb)%nat -> (length raw + nx <> ny * nx * nb + 1)%nat ->
  construct_image_cube_from_raw_data z raw nx ny nb (txt "bil") = Err ValueError.
Proof.
  intros H1 H2. unfold construct_image_cube_from_raw_data. rewrite text_eqb_refl.
  apply (construct_reject z raw nx ny nb); auto.
  - apply zero_cube_wf.
  - intros [l b] Hp. apply pairs_In in Hp. exact Hp.
  - destruct nx; [nia|discriminate].
  - rewrite pairs_length. simpl skipn. nia.
  - rewrite pairs_length. simpl skipn. nia.
Qed.

(* ------------------------------ files ----------------------------- *)

Definition bil_entries {A} (c : cube A) (code : Z) : list entry :=
  [ EInt (txt "samples") (Z.of_nat (c_nx c)); EInt (txt "lines") (Z.of_nat (c_ny c));
    EInt (txt "bands") (Z.of_nat (c_nb c)); EInt (txt "data type") code;
    EText (txt "interleave") (txt "bil") ].

Ltac notin := let H := fresh in intros H; simpl in H;
  repeat (destruct H as [H|H]; [discriminate H|]); exact H.
Ltac ckey := constructor; [discriminate | vm_compute; reflexivity | notin | notin | notin | notin | notin].

Lemma bil_entries_clean {A} (c : cube A) code : Forall clean_entry (bil_entries c code).
Proof.
  unfold bil_entries.
  repeat constructor; cbn [entry_key]; try ckey; unfold float_key, int_key; try notin; try discriminate;
    try (vm_compute; reflexivity).
Qed.

Lemma bil_entries_nodup {A} (c : cube A) code : NoDup (map entry_key (bil_entries c code)).
Proof.
  unfold bil_entries. cbn [map entry_key].
  repeat (constructor; [notin|]). constructor.
Qed.

Lemma bil_entries_read {A F} (pf : text -> option F) (c : cube A) code :
  Forall2 (reads_as pf) (bil_entries c code)
    [HInt (Z.of_nat (c_nx c)); HInt (Z.of_nat (c_ny c)); HInt (Z.of_nat (c_nb c)); HInt code; HStr (txt "bil")].
Proof.
  unfold bil_entries. repeat constructor; unfold int_key; vm_compute; tauto.
Qed.

Lemma fs_write_same {A} (w : fs A) n f : fs_write w n f n = Some f.
Proof. unfold fs_write. rewrite text_eqb_refl. reflexivity. Qed.
Lemma fs_write_other {A} (w : fs A) n f m : m <> n -> fs_write w n f m = w m.
Proof. intros H. unfold fs_write. rewrite text_eqb_neq by exact H. reflexivity. Qed.

Lemma write_ok {A} (z : A) nf w c d img hdr il code :
  numpy_dtype_to_envi_dtype nf d = Ok (Some code) ->
  write_envi_image z nf w c d img hdr il =
  (fs_write (fs_write w img (RawFile d (interleave_image z c il)))
     (match hdr with Some h => h | None => img ++ txt ".hdr" end)
     (TextFile (write_envi_header
        [ (txt "samples", WInt (Z.of_nat (c_nx c))); (txt "lines", WInt (Z.of_nat (c_ny c)));
          (txt "bands", WInt (Z.of_nat (c_nb c))); (txt "data type", WInt code);
          (txt "interleave", WStr il) ])), Ok tt).
Proof. intros H. unfold write_envi_image. rewrite H. reflexivity. Qed.

Lemma write_unsupported {A} (z : A) nf w c d img hdr il :
  numpy_dtype_to_envi_dtype nf d = Ok None ->
  write_envi_image z nf w c d img hdr il =
  (fs_write w img (RawFile d (interleave_image z c il)), Err TypeError).
Proof. intros H. unfold write_envi_image. rewrite H. reflexivity. Qed.

Lemma image_file_round_trip {A F} (pf : text -> option F) (z : A) nf w c d img hdr code :
  cube_wf c -> numpy_dtype_to_envi_dtype nf d = Ok (Some code) ->
  (match hdr with Some h => h <> img | None => True end) ->
  exists w' n,
    write_envi_image z nf w c d img hdr (txt "bil") = (w', Ok tt) /\
    forall fuel, (n <= fuel)%nat -> read_envi_image A F pf z fuel w' img hdr = Ok c.
Proof.
  intros W Hd Hh. rewrite (write_ok _ _ _ _ _ _ _ _ _ Hd).
  set (h := match hdr with Some h => h | None => img ++ txt ".hdr" end).
  set (ht := write_envi_header _).
  set (w' := fs_write (fs_write w img _) h (TextFile ht)).
  exists w', (length ht). split; [reflexivity|]. intros fuel Hf.
  assert (Hne : h <> img).
  { unfold h. destruct hdr; auto. intros E. apply (f_equal (@length _)) in E.
    rewrite app_length in E. simpl in E. lia. }
  assert (Hw : w' h = Some (TextFile ht)) by apply fs_write_same.
  assert (Hi : w' img = Some (RawFile d (interleave_image z c (txt "bil")))).
  { unfold w'. rewrite fs_write_other by (intros E; apply Hne; symmetry; exact E).
    apply fs_write_same. }
  assert (Hsel : match hdr with Some h0 => Some h0 | None => find_header A w' img (read_envi_image_guesses img) end = Some h).
  { unfold h. destruct hdr as [h0|]; auto. unfold find_header, read_envi_image_guesses.
    cbn [fold_left]. unfold h in Hw. rewrite Hw. reflexivity. }
  unfold read_envi_image. rewrite Hsel, Hw.
  assert (Hr : read_envi_header F pf fuel ht =
     Ok (combine (map entry_key (bil_entries c code))
        [HInt (Z.of_nat (c_nx c)); HInt (Z.of_nat (c_ny c)); HInt (Z.of_nat (c_nb c)); HInt code; HStr (txt "bil")])).
  { apply (header_round_trip pf (bil_entries c code)); auto.
    - apply bil_entries_clean.
    - apply bil_entries_nodup.
    - apply bil_entries_read. }
  rewrite Hr. unfold bil_entries. cbn [map entry_key combine bind].
  repeat (rewrite ?text_eqb_refl; cbn [dict_get bind];
    match goal with |- context [text_eqb (txt ?a) (txt ?b)] =>
      first [ change (text_eqb (txt a) (txt b)) with true | change (text_eqb (txt a) (txt b)) with false ]
    | _ => idtac end; cbn [dict_get bind hval_int]).
  unfold read_all_image_data_to_numpy_array.
  rewrite (numpy_to_envi_to_numpy nf d code Hd). cbn [bind]. rewrite Hi.
  destruct (np_dtype_eq_dec d d) as [_|]; [|congruence]. cbn [bind].
  replace ((Z.of_nat (c_nx c) <? 0) || (Z.of_nat (c_ny c) <? 0) || (Z.of_nat (c_nb c) <? 0)) with false by lia.
  rewrite !Nat2Z.id. apply bil_round_trip. exact W.
Qed.

(* ------------------------------ discovery ------------------------- *)

Lemma find_header_last {A} (w : fs A) img g1 g2 :
  find_header A w img [g1; g2] =
  match w g2 with Some _ => Some g2 | None => match w g1 with Some _ => Some g1 | None => None end end.
Proof. unfold find_header. simpl. destruct (w g2); auto. Qed.
