(** Properties C23, C24: Spectrum objects and resampling. *)
From Verif Require Import M_Spectrum Spec_Spectrum P_Spectrum.
From Coq Require Import Sorted.
Open Scope R_scope.
Open Scope list_scope.

(* ---------------- C23 ---------------------------------------------- *)

(** After any history of calls (and caller writes), every field holds the value last set *)
Theorem C23_last_write_wins : forall h s ops,
  let s' := snd (sp_run (h, s) ops) in
  sp_wavelengths s' = last_set pick_wave (sp_wavelengths s) ops /\
  sp_spectral_data s' = last_set pick_data (sp_spectral_data s) ops /\
  sp_fwhm s' = last_set pick_fwhm (sp_fwhm s) ops /\
  sp_spectrum_units s' = last_set pick_units (sp_spectrum_units s) ops /\
  sp_wavelength_units s' = last_set pick_wave_units (sp_wavelength_units s) ops /\
  sp_nodata_val s' = last_set pick_nodata (sp_nodata_val s) ops /\
  sp_fname s' = last_set pick_fname (sp_fname s) ops.
Proof. intros h s ops. exact (run_fields ops (h, s)). Qed.
Print Assumptions C23_last_write_wins.

(** A new spectrum has nothing set, and no no-data value *)
Theorem C23_new : sp_wavelengths new_spectrum = None /\ sp_spectral_data new_spectrum = None /\
  sp_fwhm new_spectrum = None /\ sp_spectrum_units new_spectrum = None /\ sp_wavelength_units new_spectrum = None /\
  sp_nodata_val new_spectrum = None /\ sp_fname new_spectrum = None.
Proof. repeat split. Qed.
Print Assumptions C23_new.

(** After any history, the getters of the wavelengths and the fwhm return the array last set;
    the getter of the data returns a new array holding the contents of the array last set *)
Theorem C23_getters : forall h s ops,
  let st := sp_run (h, s) ops in
  snd (sp_step st GetWavelengths) = last_set pick_wave (sp_wavelengths s) ops /\ snd (sp_step st GetFwhm) = last_set pick_fwhm (sp_fwhm s) ops /\ forall l d b, last_set pick_data (sp_spectral_data s) ops = Some l -> nth_error (fst st) l = Some d ->
    exists d', sp_step st (GetSpectralData b) = ((fst st ++ [d'], snd st), Some (length (fst st))) /\ if b then nodata_replaced (last_set pick_nodata (sp_nodata_val s) ops) d d' else d' = d.
Proof. exact getters. Qed.
Print Assumptions C23_getters.

(** No call changes the contents of an existing array: only the caller can *)
Theorem C23_arrays_untouched : forall ops h s l d,
  nth_error h l = Some d -> Forall (no_write_to l) ops -> nth_error (fst (sp_run (h, s) ops)) l = Some d.
Proof. intros ops h s l d. exact (run_heap ops (h, s) l d). Qed.
Print Assumptions C23_arrays_untouched.

(** A read returns a new array: the stored samples, with no-data replaced by NaN on request *)
Theorem C23_read_is_a_copy : forall h s l d b,
  sp_spectral_data s = Some l -> nth_error h l = Some d ->
  exists d', get_spectral_data h s b = (h ++ [d'], Ok (Some (length h))) /\
    (if b then nodata_replaced (sp_nodata_val s) d d' else d' = d).
Proof. exact read_result. Qed.
Print Assumptions C23_read_is_a_copy.

(** and a later read returns the same, whatever the caller did to the arrays it got *)
Theorem C23_later_reads_agree : forall h s l d b ops,
  sp_spectral_data s = Some l -> nth_error h l = Some d ->
  Forall no_data_set ops -> Forall (no_write_to l) ops ->
  exists d',
    get_spectral_data h s b = (h ++ [d'], Ok (Some (length h))) /\
    let st' := sp_run (h, s) ops in
    get_spectral_data (fst st') (snd st') b = (fst st' ++ [d'], Ok (Some (length (fst st')))).
Proof. exact read_again. Qed.
Print Assumptions C23_later_reads_agree.

(** Reading before data was set raises, unless no-data replacement is switched off *)
Theorem C23_no_data : forall h s, sp_spectral_data s = None ->
  get_spectral_data h s true = (h, Err TypeError) /\ get_spectral_data h s false = (h, Ok None).
Proof. intros h s H. unfold get_spectral_data. rewrite H. split; reflexivity. Qed.
Print Assumptions C23_no_data.

(** The wavelengths, in contrast, are handed out by reference: a caller that writes into the
    array it got changes the spectrum's wavelengths *)
Theorem C23_wavelengths_are_shared : forall h s l d i v,
  sp_wavelengths s = Some l -> nth_error h l = Some d -> (i < length d)%nat ->
  snd (sp_step (h, s) GetWavelengths) = Some l /\
  let st' := sp_run (h, s) [GetWavelengths; CallerWrites l i v] in
  exists d', sp_wavelengths (snd st') = Some l /\ nth_error (fst st') l = Some d' /\ nth_error d' i = Some v.
Proof.
  intros h [w dd f su wu nd fn] l d i v E H Hi. simpl in E. subst w. split; [reflexivity|].
  exists (list_upd d i v). split; [reflexivity|]. simpl. unfold heap_write. rewrite H. split.
  - apply list_upd_same. apply nth_error_Some. congruence.
  - apply list_upd_same. exact Hi.
Qed.
Print Assumptions C23_wavelengths_are_shared.

Example C23_ex : let ops := [SetNodata (Some (-999)); SetSpectralData (Some 1%nat); GetSpectralData true; CallerWrites 2 0 NonFinite; SetFname None] in
  nth_error [[Fin 1]; [Fin 5; Fin (-999)]] 1 = Some [Fin 5; Fin (-999)] /\ Forall (no_write_to 1) ops /\
  sp_spectral_data (snd (sp_run ([[Fin 1]; [Fin 5; Fin (-999)]], new_spectrum) ops)) = Some 1%nat /\
  nodata_to_nan_elt (Some (-999)) (Fin (-999)) = NonFinite.
Proof.
  cbv zeta. split; [reflexivity|]. split; [repeat constructor; simpl; lia|]. split; [reflexivity|].
  simpl. rewrite Reqb_true; reflexivity.
Qed.

(* ---------------- C24 ---------------------------------------------- *)

(** A constant spectrum resamples to its constant, for every response for which the band
    value is a number *)
Theorem C24_constant : forall s rsr c v,
  Forall (fun x => x = Fin c) (read_data s) -> resample_band s rsr = Ok (Fin v) -> v = c.
Proof. exact resample_constant. Qed.
Print Assumptions C24_constant.

(** Every band value lies within the range of the samples *)
Theorem C24_within_range : forall s rsr lo hi v,
  StronglySorted Rle (sv_wave s) -> Forall (within lo hi) (read_data s) -> Forall non_negative (read_data rsr) ->
  resample_band s rsr = Ok (Fin v) -> lo <= v <= hi.
Proof. exact resample_bounds. Qed.
Print Assumptions C24_within_range.

(** and is a number exactly when the integral of the resampled response is not zero *)
Theorem C24_defined : forall s rsr lo hi,
  StronglySorted Rle (sv_wave s) -> Forall (within lo hi) (read_data s) -> Forall non_negative (read_data rsr) ->
  length (sv_data s) = length (sv_wave s) -> length (sv_wave rsr) = length (sv_data rsr) -> sv_wave rsr <> [] ->
  exists r w, mapM (fun x => np_interp x (combine (sv_wave rsr) (read_data rsr))) (sv_wave s) = Ok r /\
    trapz r (sv_wave s) = Fin w /\ (w <> 0 <-> exists v, resample_band s rsr = Ok (Fin v)).
Proof. exact resample_defined. Qed.
Print Assumptions C24_defined.

(** Resampling is linear in the spectrum *)
Theorem C24_linear : forall wave p q rsr a b u v,
  Forall non_negative (read_data rsr) ->
  resample_band (mkSpecVal wave (map Fin p) None None None) rsr = Ok (Fin u) ->
  resample_band (mkSpecVal wave (map Fin q) None None None) rsr = Ok (Fin v) ->
  resample_band (mkSpecVal wave (map Fin (map2 (fun s t => a * s + b * t) p q)) None None None) rsr = Ok (Fin (a * u + b * v)).
Proof. exact resample_linear. Qed.
Print Assumptions C24_linear.

(** One value per response, in order; band centres as given *)
Theorem C24_bands : forall s rsrs centers out,
  resample_spectrum_direct s rsrs centers = Ok out ->
  sv_wave out = centers /\ length (sv_data out) = length rsrs /\
  forall i rsr v, nth_error rsrs i = Some rsr -> nth_error (sv_data out) i = Some v -> resample_band s rsr = Ok v.
Proof.
  intros s rsrs centers out. unfold resample_spectrum_direct.
  destruct (mapM (resample_band s) rsrs) as [b| |] eqn:E; try discriminate. intros [= <-]. simpl.
  split; [reflexivity|]. split; [apply (mapM_length _ _ _ E)|]. intros i rsr v Hr Hv.
  revert b E i Hr Hv. induction rsrs as [|r0 rsrs IH]; intros b E i Hr Hv; [destruct i; discriminate|].
  simpl in E. destruct (resample_band s r0) as [b0| |] eqn:E0; try discriminate. simpl in E.
  destruct (mapM (resample_band s) rsrs) as [bs| |] eqn:E1; try discriminate. injection E as <-.
  destruct i as [|i]; simpl in Hr, Hv; [congruence|]. exact (IH bs eq_refl i Hr Hv).
Qed.
Print Assumptions C24_bands.

(** One no-data (or NaN) sample anywhere makes every band NaN, even where the response is zero *)
Theorem C24_nodata_poisons_every_band : forall s rsr v,
  (2 <= length (sv_wave s))%nat -> In NonFinite (read_data s) -> resample_band s rsr = Ok v -> v = NonFinite.
Proof. exact resample_nan. Qed.
Print Assumptions C24_nodata_poisons_every_band.

(** The spectrum units are carried over, the wavelength units are lost *)
Theorem C24_units : forall s rsrs centers out,
  resample_spectrum_direct s rsrs centers = Ok out ->
  sv_units out = sv_units s /\ sv_wave_units out = None /\ sv_nodata out = None.
Proof.
  intros s rsrs centers out. unfold resample_spectrum_direct.
  destruct (mapM (resample_band s) rsrs); try discriminate. intros [= <-]. repeat split.
Qed.
Print Assumptions C24_units.

(** The exact value of a band: the response is resampled to the wavelengths of the spectrum
    (straight lines between its samples, zero outside them), and the value is the integral of
    the product over the integral of the resampled response, both by the trapezoidal rule; it is
    not a number when the latter is zero. *)
Theorem C24_exact : forall waves p rw rq u wu u' wu',
  length p = length waves -> length rq = length rw -> rw <> [] -> StronglySorted Rlt rw ->
  exists r, Forall2 (response rw rq) waves r /\
    resample_band (mkSpecVal waves (map Fin p) None u wu) (mkSpecVal rw (map Fin rq) None u' wu') =
    Ok (if Req_EM_T (trapezoids waves r) 0 then NonFinite
        else Fin (trapezoids waves (map2 Rmult p r) / trapezoids waves r)).
Proof. exact resample_exact. Qed.
Print Assumptions C24_exact.

(** Refused with ValueError: a response whose wavelengths and samples differ in number, an
    empty response (when the spectrum has wavelengths), a spectrum whose wavelengths and samples
    differ in number.  One refused response refuses them all. *)
Theorem C24_refused : forall s rsrs centers rsr, In rsr rsrs ->
  (forall r, In r rsrs -> r <> rsr -> exists v, resample_band s r = Ok v) ->
  length (sv_wave rsr) <> length (sv_data rsr) \/ (sv_wave rsr = [] /\ sv_wave s <> []) \/ length (sv_wave s) <> length (sv_data s) ->
  resample_spectrum_direct s rsrs centers = Err ValueError.
Proof.
  intros s rsrs centers rsr Hin Oth H.
  assert (E : resample_band s rsr = Err ValueError).
  { unfold resample_band. destruct (Nat.eqb_spec (length (sv_wave rsr)) (length (sv_data rsr))) as [L|L]; cbn [negb]; [|reflexivity].
    destruct H as [H|[[H H']|H]]; [contradiction| |].
    - rewrite H. cbn [combine]. destruct (sv_wave s); [congruence|]. reflexivity.
    - destruct (sv_wave rsr) as [|w ws] eqn:EW.
      + destruct (sv_wave s) as [|x xs]; [|reflexivity]. cbn [mapM bind]. destruct (Nat.eqb_spec (length (sv_data s)) (length (@nil R))) as [K|K]; [congruence|]. reflexivity.
      + destruct (mapM_total (fun x => np_interp x (combine (w :: ws) (read_data rsr))) (sv_wave s)) as (r & ->).
        { intros x. apply interp_total. destruct (read_data rsr) eqn:ED; [|discriminate]. unfold read_data in ED. apply map_eq_nil in ED.
          rewrite ED in L. discriminate. }
        cbn [bind]. destruct (Nat.eqb_spec (length (sv_data s)) (length (sv_wave s))) as [K|K]; [congruence|]. reflexivity. }
  unfold resample_spectrum_direct. assert (M : mapM (resample_band s) rsrs = Err ValueError); [|now rewrite M].
  assert (Oth' : forall r, In r rsrs -> resample_band s r = Err ValueError \/ exists v, resample_band s r = Ok v).
  { intros r I. destruct (resample_band s r) as [v|e|] eqn:Er; [right; now exists v| |].
    - destruct e; (left; reflexivity) || (exfalso; destruct (Oth r I) as (v & Ev); [intros ->|]; congruence).
    - exfalso. destruct (Oth r I) as (v & Ev); [intros ->|]; congruence. }
  clear Oth H. induction rsrs as [|r rsrs IH]; [destruct Hin|]. cbn [mapM].
  destruct (Oth' r (or_introl eq_refl)) as [->|(v & Ev)]; [reflexivity|]. rewrite Ev. cbn [bind].
  destruct Hin as [->|Hin]; [congruence|]. rewrite IH; auto. intros r' I. apply Oth'. now right.
Qed.
Print Assumptions C24_refused.

(** A triangle response on three samples *)
Example C24_ex : exists v,
  resample_band (mkSpecVal [1; 2; 3] [Fin 4; Fin 6; Fin 10] None None None)
                (mkSpecVal [0; 2; 3] [Fin 0; Fin 1; Fin 0] None None None) = Ok (Fin v) /\ v = (4 / 4 + 6 / 2 + 6 / 2) / (1 / 4 + 1 / 2 + 1 / 2).
Proof.
  eexists. split.
  - unfold resample_band, read_data; simpl.
    rewrite (Rltb_false 1 0), (Rltb_true 1 2), (Rltb_false 2 0), (Rltb_false 2 2), (Rltb_true 2 3), (Rltb_false 3 0), (Rltb_false 3 2), (Rltb_false 3 3) by lra.
    rewrite Reqb_true by reflexivity. simpl. rewrite fdiv_nz; [reflexivity|]. lra.
  - field.
Qed.
Example C24_ex_hyps :
  StronglySorted Rle [1; 2; 3] /\ Forall (within 4 10) [Fin 4; Fin 6; Fin 10] /\ Forall non_negative [Fin 0; Fin 1; Fin 0].
Proof.
  split; [repeat constructor; lra|].
  split; repeat (constructor; [eexists; split; [reflexivity|lra]|]); constructor.
Qed.
