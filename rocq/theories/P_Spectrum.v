(** Proofs for C23, C24. *)
From Verif Require Import M_Spectrum Spec_Spectrum.
From Coq Require Import Sorted.
Open Scope R_scope.
Open Scope list_scope.

(* ---------------- C23 ---------------------------------------------- *)
Lemma sp_run_cons st o ops : sp_run st (o :: ops) = sp_run (fst (sp_step st o)) ops.
Proof. reflexivity. Qed.

Lemma step_field st o :
  let st' := fst (sp_step st o) in
  sp_wavelengths (snd st') = match pick_wave o with Some v => v | None => sp_wavelengths (snd st) end /\
  sp_spectral_data (snd st') = match pick_data o with Some v => v | None => sp_spectral_data (snd st) end /\
  sp_fwhm (snd st') = match pick_fwhm o with Some v => v | None => sp_fwhm (snd st) end /\
  sp_spectrum_units (snd st') = match pick_units o with Some v => v | None => sp_spectrum_units (snd st) end /\
  sp_wavelength_units (snd st') = match pick_wave_units o with Some v => v | None => sp_wavelength_units (snd st) end /\
  sp_nodata_val (snd st') = match pick_nodata o with Some v => v | None => sp_nodata_val (snd st) end /\
  sp_fname (snd st') = match pick_fname o with Some v => v | None => sp_fname (snd st) end.
Proof.
  destruct st as [h [w d f su wu nd fn]]. destruct o; cbn -[get_spectral_data]; repeat split;
  destruct (get_spectral_data h _ _); reflexivity.
Qed.

Lemma run_fields ops : forall st,
  let s' := snd (sp_run st ops) in
  sp_wavelengths s' = last_set pick_wave (sp_wavelengths (snd st)) ops /\
  sp_spectral_data s' = last_set pick_data (sp_spectral_data (snd st)) ops /\
  sp_fwhm s' = last_set pick_fwhm (sp_fwhm (snd st)) ops /\
  sp_spectrum_units s' = last_set pick_units (sp_spectrum_units (snd st)) ops /\
  sp_wavelength_units s' = last_set pick_wave_units (sp_wavelength_units (snd st)) ops /\
  sp_nodata_val s' = last_set pick_nodata (sp_nodata_val (snd st)) ops /\
  sp_fname s' = last_set pick_fname (sp_fname (snd st)) ops.
Proof.
  induction ops as [|o ops IH]; intros st; [repeat split|].
  rewrite sp_run_cons. specialize (IH (fst (sp_step st o))).
  destruct (step_field st o) as (E1 & E2 & E3 & E4 & E5 & E6 & E7).
  rewrite E1, E2, E3, E4, E5, E6, E7 in IH. exact IH.
Qed.

Lemma list_upd_length {A} (l : list A) i v : length (list_upd l i v) = length l.
Proof.
  unfold list_upd. destruct (Nat.ltb_spec i (length l)); [|reflexivity].
  rewrite app_length, firstn_length. cbn [length]. rewrite skipn_length. lia.
Qed.
Lemma list_upd_other {A} (l : list A) i j v : i <> j -> nth_error (list_upd l i v) j = nth_error l j.
Proof.
  intros N. unfold list_upd. destruct (Nat.ltb_spec i (length l)) as [L|L]; [|reflexivity].
  destruct (Nat.lt_ge_cases j i) as [H|H].
  - rewrite nth_error_app1 by (rewrite firstn_length; lia).
    revert i L N H. revert j. induction l as [|a l IH]; intros j i L N H; [simpl in L; lia|].
    destruct i; [lia|]. destruct j; [reflexivity|]. simpl. apply IH; simpl in L; lia.
  - rewrite nth_error_app2 by (rewrite firstn_length; lia). rewrite firstn_length, Nat.min_l by lia.
    destruct (j - i)%nat as [|k] eqn:E; [lia|]. cbn [nth_error].
    replace j with (S i + k)%nat by lia. clear. generalize (S i) as m. intros m.
    revert l. induction m as [|m IH]; intros l; [reflexivity|]. destruct l; simpl; [destruct k; reflexivity|apply IH].
Qed.
Lemma list_upd_same {A} (l : list A) i v : (i < length l)%nat -> nth_error (list_upd l i v) i = Some v.
Proof.
  intros L. unfold list_upd. rewrite (proj2 (Nat.ltb_lt _ _) L).
  rewrite nth_error_app2 by (rewrite firstn_length; lia). rewrite firstn_length, Nat.min_l, Nat.sub_diag by lia. reflexivity.
Qed.

Lemma heap_write_length h l i v : length (heap_write h l i v) = length h.
Proof. unfold heap_write. destruct (nth_error h l); [apply list_upd_length|reflexivity]. Qed.

(** Every array that existed keeps its contents unless the caller writes to it *)
Lemma step_heap st o l d :
  nth_error (fst st) l = Some d -> no_write_to l o -> nth_error (fst (fst (sp_step st o))) l = Some d.
Proof.
  destruct st as [h [w dd f su wu nd fn]]. intros H N. cbn [fst] in H.
  assert (Hl : (l < length h)%nat) by (apply nth_error_Some; congruence).
  destruct o; try exact H.
  - simpl. unfold get_spectral_data; simpl. destruct dd as [l'|]; [|destruct nodata_to_nan; exact H].
    destruct (nth_error h l'); [|exact H]. simpl. rewrite nth_error_app1; assumption.
  - simpl. unfold heap_write. destruct (nth_error h l0); [|exact H]. rewrite list_upd_other; auto.
Qed.
Lemma run_heap ops : forall st l d,
  nth_error (fst st) l = Some d -> Forall (no_write_to l) ops -> nth_error (fst (sp_run st ops)) l = Some d.
Proof.
  induction ops as [|o ops IH]; intros st l d H F; [exact H|]. inversion F; subst.
  rewrite sp_run_cons. apply IH; auto. apply step_heap; auto.
Qed.

Lemma nodata_map nodata d : nodata_replaced nodata d (map (nodata_to_nan_elt nodata) d).
Proof.
  split; [apply map_length|]. intros i x Hx. rewrite nth_error_map, Hx. simpl. split.
  - intros v -> ->. simpl. rewrite Reqb_true; reflexivity.
  - intros N. destruct x as [r|]; simpl; [|destruct nodata; reflexivity]. destruct nodata as [v|]; [|reflexivity].
    rewrite Reqb_false; [reflexivity|]. intros ->. apply (N v eq_refl). reflexivity.
Qed.

Lemma read_result h s l d b :
  sp_spectral_data s = Some l -> nth_error h l = Some d ->
  exists d', get_spectral_data h s b = (h ++ [d'], Ok (Some (length h))) /\
    (if b then nodata_replaced (sp_nodata_val s) d d' else d' = d).
Proof.
  intros E H. unfold get_spectral_data. rewrite E, H. eexists. split; [reflexivity|].
  destruct b; [apply nodata_map|reflexivity].
Qed.

Lemma getters h s ops :
  let st := sp_run (h, s) ops in
  snd (sp_step st GetWavelengths) = last_set pick_wave (sp_wavelengths s) ops /\
  snd (sp_step st GetFwhm) = last_set pick_fwhm (sp_fwhm s) ops /\
  forall l d b, last_set pick_data (sp_spectral_data s) ops = Some l -> nth_error (fst st) l = Some d ->
    exists d', sp_step st (GetSpectralData b) = ((fst st ++ [d'], snd st), Some (length (fst st))) /\
      if b then nodata_replaced (last_set pick_nodata (sp_nodata_val s) ops) d d' else d' = d.
Proof.
  pose proof (run_fields ops (h, s)) as F. cbv zeta in *. cbn [fst snd] in F.
  destruct (sp_run (h, s) ops) as [h' s']. cbn [fst snd] in *. destruct F as (F1 & F2 & F3 & _ & _ & F6 & _).
  split; [destruct s'; exact F1|]. split; [destruct s'; exact F3|]. intros l d b Hl Hd. rewrite <- F6.
  rewrite <- F2 in Hl. destruct (read_result h' s' l d b Hl Hd) as (d' & E & R). exists d'. split; [|exact R].
  destruct s'. cbn [sp_step]. rewrite E. reflexivity.
Qed.

(** The same read later, after any calls that set neither data nor no-data value and
    any caller writes to other arrays, returns the same contents *)
Lemma read_again h s l d b ops :
  sp_spectral_data s = Some l -> nth_error h l = Some d ->
  Forall no_data_set ops -> Forall (no_write_to l) ops ->
  exists d',
    get_spectral_data h s b = (h ++ [d'], Ok (Some (length h))) /\
    let st' := sp_run (h, s) ops in
    get_spectral_data (fst st') (snd st') b = (fst st' ++ [d'], Ok (Some (length (fst st')))).
Proof.
  intros E H F1 F2. unfold get_spectral_data at 1. rewrite E, H. eexists. split; [reflexivity|]. cbv zeta.
  pose proof (run_heap ops (h, s) l d H F2) as Hd.
  destruct (run_fields ops (h, s)) as (_ & D & _ & _ & _ & N & _). cbn [snd] in D, N.
  assert (LD : forall i, last_set pick_data i ops = i).
  { clear - F1. induction F1 as [|o ops Ho F IH]; intros i; [reflexivity|]. simpl. rewrite IH. destruct o; try reflexivity; contradiction. }
  assert (LN : forall i, last_set pick_nodata i ops = i).
  { clear - F1. induction F1 as [|o ops Ho F IH]; intros i; [reflexivity|]. simpl. rewrite IH. destruct o; try reflexivity; contradiction. }
  rewrite LD in D. rewrite LN in N. unfold get_spectral_data. rewrite D, E, Hd, N. reflexivity.
Qed.

(* ---------------- C24 ---------------------------------------------- *)
Lemma mapM_Forall {A B} (f : A -> result B) (P : B -> Prop) l r :
  mapM f l = Ok r -> (forall x y, f x = Ok y -> P y) -> Forall P r.
Proof.
  revert r. induction l as [|x l IH]; simpl; intros r H Hf; [injection H as <-; constructor|].
  destruct (f x) as [y| |] eqn:E; try discriminate. simpl in H.
  destruct (mapM f l) as [ys| |]; try discriminate. injection H as <-. constructor; eauto.
Qed.

Lemma fadd_inv x y v : fadd x y = Fin v -> exists a b, x = Fin a /\ y = Fin b /\ v = a + b.
Proof. destruct x, y; try discriminate. intros [= <-]. eauto. Qed.

Lemma trapz_step y0 y1 ys x0 x1 xs : trapz (y0 :: y1 :: ys) (x0 :: x1 :: xs) =
  fadd (fscale ((x1 - x0) / 2) (fadd y0 y1)) (trapz (y1 :: ys) (x1 :: xs)).
Proof. reflexivity. Qed.
Lemma trapz_scale c : forall xs ys ds, Forall (fun x => x = Fin c) ds -> length ds = length ys ->
  trapz (map2 fmul ds ys) xs = fscale c (trapz ys xs).
Proof.
  induction xs as [|x0 [|x1 xs] IH]; intros ys ds F L.
  - unfold fscale; simpl. rewrite Rmult_0_r. reflexivity.
  - unfold fscale; simpl. rewrite Rmult_0_r. reflexivity.
  - destruct ds as [|d0 [|d1 ds]]; destruct ys as [|y0 [|y1 ys]]; simpl in L; try lia;
      try (unfold fscale; simpl; rewrite Rmult_0_r; reflexivity).
    inversion F as [|? ? E0 F0]; subst. inversion F0 as [|? ? E1 F1]; subst.
    specialize (IH (y1 :: ys) (Fin c :: ds) F0 ltac:(simpl; lia)).
    cbn [map2]. cbn [map2] in IH. rewrite !trapz_step, IH. clear IH.
    destruct y0 as [y0|], y1 as [y1|]; try reflexivity.
    destruct (trapz (Fin y1 :: ys) (x1 :: xs)); [|reflexivity]. unfold fscale, fadd, fmul; simpl. f_equal. ring.
Qed.

Lemma resample_inv s rsr v : resample_band s rsr = Ok v ->
  length (sv_wave rsr) = length (sv_data rsr) /\ length (sv_data s) = length (sv_wave s) /\
  exists r, mapM (fun x => np_interp x (combine (sv_wave rsr) (read_data rsr))) (sv_wave s) = Ok r /\
    length r = length (sv_wave s) /\
    v = fdivf (trapz (map2 fmul (read_data s) r) (sv_wave s)) (trapz r (sv_wave s)).
Proof.
  unfold resample_band. destruct (Nat.eqb_spec (length (sv_wave rsr)) (length (sv_data rsr))); [|discriminate]. simpl.
  destruct (mapM _ (sv_wave s)) as [r| |] eqn:E; try discriminate. simpl.
  destruct (Nat.eqb_spec (length (sv_data s)) (length (sv_wave s))); [|discriminate]. simpl.
  intros [= <-]. repeat split; auto. exists r. split; [reflexivity|]. split; [|reflexivity]. apply (mapM_length _ _ _ E).
Qed.

Lemma fdivf_inv x y v : fdivf x y = Fin v -> exists a b, x = Fin a /\ y = Fin b /\ b <> 0 /\ v = a / b.
Proof.
  destruct x as [a|], y as [b|]; try discriminate. simpl. unfold fdiv. destruct (Reqb_spec b 0); [discriminate|].
  intros [= <-]. eauto 6.
Qed.

Lemma resample_constant s rsr c v :
  Forall (fun x => x = Fin c) (read_data s) -> resample_band s rsr = Ok (Fin v) -> v = c.
Proof.
  intros F H. destruct (resample_inv _ _ _ H) as (_ & L & r & _ & Lr & E). symmetry in E.
  rewrite (trapz_scale c (sv_wave s) r (read_data s) F) in E by (unfold read_data; rewrite map_length; congruence).
  destruct (fdivf_inv _ _ _ E) as (a & b & Ea & Eb & Nb & ->). rewrite Eb in Ea. simpl in Ea. injection Ea as <-.
  field. exact Nb.
Qed.

Lemma lin_nonneg x0 a x1 b x : 0 <= a -> 0 <= b -> x0 <= x -> x < x1 -> 0 <= (b - a) / (x1 - x0) * (x - x0) + a.
Proof.
  intros Ha Hb H0 H1. set (t := (x - x0) / (x1 - x0)).
  assert (T : 0 <= t <= 1).
  { unfold t. split.
    - apply Rmult_le_pos; [lra|]. apply Rlt_le, Rinv_0_lt_compat. lra.
    - apply (Rmult_le_reg_r (x1 - x0)); [lra|]. unfold Rdiv. rewrite Rmult_assoc, Rinv_l by lra. lra. }
  replace ((b - a) / (x1 - x0) * (x - x0) + a) with (a * (1 - t) + b * t) by (unfold t; field; lra). nra.
Qed.
Lemma interp_go_nonneg x : forall rest x0 f0, x0 <= x -> non_negative f0 -> Forall (fun p => non_negative (snd p)) rest ->
  non_negative (interp_go x x0 f0 rest).
Proof.
  induction rest as [|[x1 f1] rest IH]; intros x0 f0 H N F; simpl.
  - destruct (Reqb x x0); [exact N|]. exists 0. split; [reflexivity|lra].
  - inversion F as [|? ? N1 F1]; subst. simpl in N1. destruct (Rltb_spec x x1) as [L|L]; [|apply IH; auto; lra].
    destruct N as (a & -> & Ha). destruct N1 as (b & -> & Hb). simpl. eexists. split; [reflexivity|].
    apply lin_nonneg; assumption.
Qed.
Lemma interp_nonneg x pts y : Forall (fun p => non_negative (snd p)) pts -> np_interp x pts = Ok y -> non_negative y.
Proof.
  intros F. destruct pts as [|[x0 f0] r]; simpl; [discriminate|]. inversion F as [|? ? N F']; subst.
  destruct (Rltb_spec x x0) as [L|L]; intros [= <-]; [exists 0; split; [reflexivity|lra]|].
  apply interp_go_nonneg; auto; lra.
Qed.

Lemma trapz_bounds lo hi : forall xs ds ys,
  StronglySorted Rle xs -> Forall (within lo hi) ds -> Forall non_negative ys -> length ds = length ys ->
  exists w b, trapz ys xs = Fin w /\ trapz (map2 fmul ds ys) xs = Fin b /\ 0 <= w /\ lo * w <= b <= hi * w.
Proof.
  induction xs as [|x0 [|x1 xs] IH]; intros ds ys Hs Hd Hy L;
    try (exists 0, 0; simpl; repeat split; try reflexivity; lra).
  destruct ds as [|d0 [|d1 ds]]; destruct ys as [|y0 [|y1 ys]]; simpl in L; try lia;
    try (exists 0, 0; simpl; repeat split; try reflexivity; lra).
  inversion Hs as [|? ? Hs' Hx]; subst. inversion Hx as [|? ? Hx01 _]; subst.
  inversion Hd as [|? ? D0 Hd']; subst. inversion Hy as [|? ? Y0 Hy']; subst.
  destruct (IH (d1 :: ds) (y1 :: ys) Hs' Hd' Hy' ltac:(simpl; lia)) as (w & b & Ew & Eb & Hw & Hb).
  inversion Hd' as [|? ? D1 _]; subst. inversion Hy' as [|? ? Y1 _]; subst.
  destruct D0 as (p0 & -> & P0). destruct D1 as (p1 & -> & P1). destruct Y0 as (q0 & -> & Q0). destruct Y1 as (q1 & -> & Q1).
  cbn [map2] in *. rewrite !trapz_step.
  rewrite Ew, Eb. cbn. do 2 eexists. split; [reflexivity|]. split; [reflexivity|].
  assert (K : 0 <= (x1 - x0) / 2) by lra. set (k := (x1 - x0) / 2) in *.
  assert (A0 : lo * q0 <= p0 * q0 <= hi * q0) by nra. assert (A1 : lo * q1 <= p1 * q1 <= hi * q1) by nra.
  split; [nra|]. split.
  - assert (k * (lo * (q0 + q1)) <= k * (p0 * q0 + p1 * q1)) by (apply Rmult_le_compat_l; lra). nra.
  - assert (k * (p0 * q0 + p1 * q1) <= k * (hi * (q0 + q1))) by (apply Rmult_le_compat_l; lra). nra.
Qed.

Lemma combine_snd_Forall {A B} (P : B -> Prop) (l : list A) (m : list B) : Forall P m -> Forall (fun p => P (snd p)) (combine l m).
Proof.
  revert m. induction l as [|a l IH]; intros m F; [constructor|]. destruct m; [constructor|].
  inversion F; subst. simpl. constructor; auto.
Qed.

Lemma resample_bounds s rsr lo hi v :
  StronglySorted Rle (sv_wave s) -> Forall (within lo hi) (read_data s) -> Forall non_negative (read_data rsr) ->
  resample_band s rsr = Ok (Fin v) -> lo <= v <= hi.
Proof.
  intros Hs Hd Hr H. destruct (resample_inv _ _ _ H) as (_ & L & r & Er & Lr & E). symmetry in E.
  assert (Nr : Forall non_negative r).
  { apply (mapM_Forall _ _ _ _ Er). intros x y. apply interp_nonneg. apply combine_snd_Forall. exact Hr. }
  destruct (trapz_bounds lo hi (sv_wave s) (read_data s) r Hs Hd Nr) as (w & b & Ew & Eb & Hw & Hb).
  { unfold read_data. rewrite map_length. congruence. }
  rewrite Ew, Eb in E. destruct (fdivf_inv _ _ _ E) as (? & ? & [= <-] & [= <-] & Nw & ->).
  assert (0 < w) by lra. split; apply (Rmult_le_reg_r w); auto; unfold Rdiv; rewrite Rmult_assoc, Rinv_l by lra; lra.
Qed.

(** when the result is a number *)
Lemma interp_total x pts : pts <> [] -> exists y, np_interp x pts = Ok y.
Proof. destruct pts as [|[x0 f0] r]; [congruence|]. simpl. destruct (Rltb x x0); eauto. Qed.
Lemma mapM_total {A B} (f : A -> result B) l : (forall x, exists y, f x = Ok y) -> exists r, mapM f l = Ok r.
Proof.
  intros H. induction l as [|x l [r IH]]; [eexists; reflexivity|]. simpl. destruct (H x) as [y ->]. simpl. rewrite IH. eexists. reflexivity.
Qed.
Lemma resample_defined s rsr lo hi :
  StronglySorted Rle (sv_wave s) -> Forall (within lo hi) (read_data s) -> Forall non_negative (read_data rsr) ->
  length (sv_data s) = length (sv_wave s) -> length (sv_wave rsr) = length (sv_data rsr) -> sv_wave rsr <> [] ->
  exists r w, mapM (fun x => np_interp x (combine (sv_wave rsr) (read_data rsr))) (sv_wave s) = Ok r /\
    trapz r (sv_wave s) = Fin w /\ (w <> 0 <-> exists v, resample_band s rsr = Ok (Fin v)).
Proof.
  intros Hs Hd Hr L Lr Ne.
  destruct (mapM_total (fun x => np_interp x (combine (sv_wave rsr) (read_data rsr))) (sv_wave s)) as [r Er].
  { intros x. apply interp_total. unfold read_data. destruct (sv_wave rsr); [congruence|]. destruct (sv_data rsr); simpl in *; congruence. }
  assert (Nr : Forall non_negative r).
  { apply (mapM_Forall _ _ _ _ Er). intros x y. apply interp_nonneg. apply combine_snd_Forall. exact Hr. }
  pose proof (mapM_length _ _ _ Er) as Ln.
  destruct (trapz_bounds lo hi (sv_wave s) (read_data s) r Hs Hd Nr) as (w & b & Ew & Eb & Hw & Hb).
  { unfold read_data. rewrite map_length. congruence. }
  exists r, w. split; [exact Er|]. split; [exact Ew|].
  unfold resample_band. rewrite Lr, Nat.eqb_refl. simpl negb. cbv iota. rewrite Er. simpl bind.
  rewrite L, Nat.eqb_refl. simpl negb. cbv iota. rewrite Ew, Eb. simpl. unfold fdiv. destruct (Reqb_spec w 0) as [Z|Z].
  - split; [tauto|]. intros [v H]. discriminate.
  - split; [eauto|auto].
Qed.

(** linear in the spectrum *)
Lemma trapz_linear a b : forall xs ys p q, length p = length ys -> length q = length ys ->
  Forall (fun y => exists r, y = Fin r) ys ->
  exists u v, trapz (map2 fmul (map Fin p) ys) xs = Fin u /\ trapz (map2 fmul (map Fin q) ys) xs = Fin v /\
    trapz (map2 fmul (map Fin (map2 (fun s t => a * s + b * t) p q)) ys) xs = Fin (a * u + b * v).
Proof.
  induction xs as [|x0 [|x1 xs] IH]; intros ys p q Lp Lq F;
    try (exists 0, 0; simpl; repeat split; try reflexivity; f_equal; ring).
  destruct ys as [|y0 [|y1 ys]]; destruct p as [|p0 [|p1 p]]; destruct q as [|q0 [|q1 q]]; simpl in Lp, Lq; try lia;
    try (exists 0, 0; simpl; repeat split; try reflexivity; f_equal; ring).
  inversion F as [|? ? [r0 ->] F']; subst. destruct (IH (y1 :: ys) (p1 :: p) (q1 :: q)) as (u & v & Eu & Ev & Ew);
    [simpl; lia|simpl; lia|exact F'|].
  inversion F' as [|? ? [r1 ->] _]; subst.
  cbn [map map2] in *. rewrite !trapz_step, Eu, Ev, Ew. do 2 eexists. split; [reflexivity|]. split; [reflexivity|].
  unfold fscale, fadd, fmul; simpl. f_equal. ring.
Qed.

(** a NaN sample makes the integral NaN *)
Lemma trapz_nan : forall xs ys, length ys = length xs -> (2 <= length xs)%nat -> In NonFinite ys -> trapz ys xs = NonFinite.
Proof.
  induction xs as [|x0 [|x1 xs] IH]; intros ys L H I; [simpl in H; lia|simpl in H; lia|].
  destruct ys as [|y0 [|y1 ys]]; simpl in L; try lia.
  rewrite trapz_step.
  destruct I as [->|[->|I]]; [reflexivity|destruct y0; reflexivity|].
  destruct xs as [|x2 xs]; [destruct ys; [destruct I|simpl in L; lia]|].
  simpl in L; rewrite IH; [|simpl; lia|simpl; lia|right; exact I]. unfold fadd, fmap2. destruct (fscale _ _); reflexivity.
Qed.
Lemma map2_In_nan (ds ys : list flt) : length ds = length ys -> In NonFinite ds -> In NonFinite (map2 fmul ds ys).
Proof.
  revert ys. induction ds as [|d ds IH]; intros [|y ys] L I; simpl in *; try lia; try contradiction.
  destruct I as [->|I]; [left; reflexivity|right; apply IH; auto].
Qed.
Lemma resample_nan s rsr v : (2 <= length (sv_wave s))%nat -> In NonFinite (read_data s) -> resample_band s rsr = Ok v -> v = NonFinite.
Proof.
  intros L2 I H. destruct (resample_inv _ _ _ H) as (_ & L & r & Er & Lr & ->).
  assert (LR : length (read_data s) = length r) by (unfold read_data; rewrite map_length; congruence).
  rewrite trapz_nan; [reflexivity| |exact L2|apply map2_In_nan; assumption].
  rewrite map2_length, LR, Nat.min_id. exact Lr.
Qed.
Lemma read_plain w p u wu : read_data (mkSpecVal w (map Fin p) None u wu) = map Fin p.
Proof. unfold read_data; simpl. rewrite map_map. apply map_ext. reflexivity. Qed.
Lemma resample_linear wave p q rsr a b u v :
  Forall non_negative (read_data rsr) ->
  resample_band (mkSpecVal wave (map Fin p) None None None) rsr = Ok (Fin u) ->
  resample_band (mkSpecVal wave (map Fin q) None None None) rsr = Ok (Fin v) ->
  resample_band (mkSpecVal wave (map Fin (map2 (fun s t => a * s + b * t) p q)) None None None) rsr = Ok (Fin (a * u + b * v)).
Proof.
  intros Hr H1 H2. destruct (resample_inv _ _ _ H1) as (Lr & L1 & r & Er & Ln & E1).
  destruct (resample_inv _ _ _ H2) as (_ & L2 & r' & Er' & _ & E2). simpl sv_wave in *. simpl sv_data in *.
  rewrite Er in Er'. injection Er' as <-. rewrite read_plain in E1, E2. symmetry in E1, E2.
  assert (Nr : Forall (fun y => exists r, y = Fin r) r).
  { apply (mapM_Forall _ _ _ _ Er). intros x y Hy. destruct (interp_nonneg x _ y (combine_snd_Forall _ _ _ Hr) Hy) as (z & -> & _). eauto. }
  rewrite map_length in L1, L2.
  destruct (trapz_linear a b wave r p q) as (x & y & Ex & Ey & Exy); [congruence|congruence|exact Nr|].
  rewrite Ex in E1. rewrite Ey in E2. destruct (fdivf_inv _ _ _ E1) as (? & w & [= <-] & Ew & Nw & ->).
  destruct (fdivf_inv _ _ _ E2) as (? & w' & [= <-] & Ew' & _ & ->). rewrite Ew in Ew'. injection Ew' as <-.
  unfold resample_band. simpl sv_wave. simpl sv_data. rewrite Lr, Nat.eqb_refl. simpl negb. cbv iota. rewrite Er. simpl bind.
  rewrite map_length, map2_length, L1, L2, Nat.min_id, Nat.eqb_refl. simpl negb. cbv iota.
  rewrite read_plain, Exy, Ew. simpl. rewrite fdiv_nz by exact Nw. do 2 f_equal. field. exact Nw.
Qed.

(** The exact value. *)
Lemma trapz_fin : forall xs ys, length ys = length xs -> trapz (map Fin ys) xs = Fin (trapezoids xs ys).
Proof.
  induction xs as [|x0 xs IH]; intros ys L.
  - destruct ys; [|discriminate]. reflexivity.
  - destruct ys as [|y0 ys]; [discriminate|]. injection L as L. destruct xs as [|x1 xs].
    + destruct ys; [|discriminate]. reflexivity.
    + destruct ys as [|y1 ys]; [discriminate|]. cbn [map]. rewrite trapz_step. change (Fin y1 :: map Fin ys) with (map Fin (y1 :: ys)).
      rewrite IH by exact L. unfold fscale, fadd. cbn [fmap fmap2]. f_equal. unfold trapezoids. cbn [length Nat.sub].
      rewrite Nat.sub_0_r. unfold bigsum, rsum. cbn [seq map fold_right]. rewrite <- seq_shift, map_map. cbn [nth]. apply f_equal2; [field|]. rewrite ?Nat.sub_0_r. reflexivity.
Qed.

Lemma interp_response x : forall ws qs, length qs = length ws -> StronglySorted Rlt ws -> ws <> [] ->
  exists y, np_interp x (combine ws (map Fin qs)) = Ok (Fin y) /\ response ws qs x y.
Proof.
  assert (GO : forall rest vs x0 y0, length vs = length rest -> StronglySorted Rlt (x0 :: rest) -> x0 <= x ->
     exists y, interp_go x x0 (Fin y0) (combine rest (map Fin vs)) = Fin y /\ response (x0 :: rest) (y0 :: vs) x y).
  { induction rest as [|x1 rest IH]; intros vs x0 y0 L St Hx.
    - destruct vs; [|discriminate]. cbn [map combine interp_go]. destruct (Reqb_spec x x0) as [->|N].
      + exists y0. split; [reflexivity|]. now apply (at_sample _ _ _ _ 0).
      + exists 0. split; [reflexivity|]. apply outside; [|reflexivity]. right. intros w [<-|[]]. lra.
    - destruct vs as [|y1 vs]; [discriminate|]. injection L as L. cbn [map combine interp_go].
      inversion St as [|? ? St' Fa]; subst. inversion Fa as [|? ? H01 _]; subst.
      destruct (Rltb_spec x x1) as [H|H].
      + cbn [lin]. eexists. split; [reflexivity|]. destruct (Req_dec x x0) as [->|N].
        * apply (at_sample _ _ _ _ 0); [reflexivity|]. cbn. f_equal. field. lra.
        * apply (between_samples _ _ _ _ 0 x0 x1 y0 y1); try reflexivity; [lra|]. field. lra.
      + destruct (IH vs x1 y1 L St') as (y & E & Rs); [lra|]. exists y. split; [exact E|].
        destruct Rs as [i E1 E2|i a b c d E1 E2 E3 E4 B E5|[O|O] E1].
        * now apply (at_sample _ _ _ _ (S i)).
        * now apply (between_samples _ _ _ _ (S i) a b c d).
        * specialize (O x1 (or_introl eq_refl)). lra.
        * apply outside; [|exact E1]. right. intros w [<-|I]; [lra|]. now apply O. }
  intros ws qs L St NE. destruct ws as [|x0 ws]; [congruence|]. destruct qs as [|y0 qs]; [discriminate|]. injection L as L.
  cbn [map combine np_interp]. destruct (Rltb_spec x x0) as [H|H].
  - exists 0. split; [reflexivity|]. apply outside; [|reflexivity]. left. inversion St as [|? ? _ Fa]; subst.
    intros w [<-|I]; [exact H|]. rewrite Forall_forall in Fa. specialize (Fa w I). lra.
  - destruct (GO ws qs x0 y0 L St) as (y & E & Rs); [lra|]. exists y. rewrite E. auto.
Qed.

Lemma resample_exact waves p rw rq u wu u' wu' : length p = length waves -> length rq = length rw -> rw <> [] -> StronglySorted Rlt rw ->
  exists r, Forall2 (response rw rq) waves r /\
    resample_band (mkSpecVal waves (map Fin p) None u wu) (mkSpecVal rw (map Fin rq) None u' wu') =
    Ok (if Req_EM_T (trapezoids waves r) 0 then NonFinite
        else Fin (trapezoids waves (map2 Rmult p r) / trapezoids waves r)).
Proof.
  intros L1 L2 NE St.
  assert (M : exists r, mapM (fun x => np_interp x (combine rw (map Fin rq))) waves = Ok (map Fin r) /\ Forall2 (response rw rq) waves r).
  { clear L1. induction waves as [|x waves IH]; [exists []; split; [reflexivity|constructor]|].
    destruct IH as (r & E & F). destruct (interp_response x rw rq L2 St NE) as (y & Ey & Ry).
    exists (y :: r). cbn [mapM]. rewrite Ey. cbn [bind]. rewrite E. split; [reflexivity|]. constructor; assumption. }
  destruct M as (r & E & F). exists r. split; [exact F|]. assert (Lr := Py.Forall2_length _ _ _ F).
  unfold resample_band. rewrite !read_plain. cbn [sv_wave sv_data]. rewrite !map_length, L1, L2, !Nat.eqb_refl. cbn [negb]. rewrite E. cbn [bind].
  assert (E2 : map2 fmul (map Fin p) (map Fin r) = map Fin (map2 Rmult p r)).
  { assert (L : length p = length r) by congruence. clear - L. revert r L. induction p as [|a p IH]; intros [|b r] L; try discriminate; [reflexivity|].
    cbn [map map2]. rewrite IH by (cbn in L; congruence). reflexivity. }
  rewrite E2, !trapz_fin by (rewrite ?map2_length; lia). unfold fdivf. apply (f_equal Ok). destruct (Req_EM_T (trapezoids waves r) 0) as [Z|Z].
  - rewrite Z. apply fdiv_0.
  - apply fdiv_nz. exact Z.
Qed.
