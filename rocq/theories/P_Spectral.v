(** Proofs for C16-C22. *)
From Verif Require Import M_Spectral Spec_Spectral.
From Coq Require Import FunctionalExtensionality.
Open Scope R_scope.

Lemma kept_keep mask m : kept mask m = filter (keep mask) (seq 0 m).
Proof. reflexivity. Qed.
Lemma kept_S mask m : kept mask (S m) = kept mask m ++ (if keep mask m then [m] else []).
Proof.
  rewrite !kept_keep, seq_S, filter_app. simpl. reflexivity.
Qed.
Lemma count_kept_length mask m : count_kept mask m = length (kept mask m).
Proof.
  induction m as [|m IH]; [reflexivity|]. rewrite kept_S, app_length. cbn [count_kept]. rewrite IH.
  destruct (keep mask m); reflexivity.
Qed.
Lemma wsum_kept mask m f : bigsum m (fun s => weight mask s * f s) = rsum (map f (kept mask m)).
Proof.
  induction m as [|m IH]; [reflexivity|]. rewrite bigsum_S, kept_S, map_app, rsum_app, IH.
  unfold weight. destruct (keep mask m); simpl; lra.
Qed.
Lemma wsum_one mask m : bigsum m (fun s => weight mask s) = INR (count_kept mask m).
Proof.
  induction m as [|m IH]; [reflexivity|]. rewrite bigsum_S, IH. cbn [count_kept]. rewrite plus_INR. unfold weight.
  destruct (keep mask m); reflexivity.
Qed.
Lemma weight_nonneg mask s : 0 <= weight mask s.
Proof. unfold weight. destruct (keep mask s); lra. Qed.

Lemma kept_In mask m s : In s (kept mask m) <-> (s < m)%nat /\ keep mask s = true.
Proof. rewrite kept_keep, filter_In, in_seq. split; intros []; split; auto; lia. Qed.

Lemma mean_defined img mask :
  (exists mu, spectral_mean img mask = Some mu) <-> exists s, (s < si_m img)%nat /\ keep mask s = true.
Proof.
  unfold spectral_mean. rewrite count_kept_length.
  destruct (kept mask (si_m img)) as [|k l] eqn:E; simpl.
  - split; [intros [mu H]; discriminate|]. intros (s & H). apply kept_In in H. rewrite E in H. destruct H.
  - split; [|eauto]. intros _. exists k. apply kept_In. rewrite E. left; reflexivity.
Qed.

Lemma mean_average img mask mu : spectral_mean img mask = Some mu -> is_average img mask mu.
Proof.
  unfold spectral_mean. destruct (Nat.eqb _ 0); [discriminate|]. intros [= <-] b _.
  rewrite wsum_kept, count_kept_length. reflexivity.
Qed.
Lemma mean_total img mask mu : spectral_mean img mask = Some mu ->
  (0 < count_kept mask (si_m img))%nat /\
  forall b, bigsum (si_m img) (fun s => weight mask s * si_px img s b) = INR (count_kept mask (si_m img)) * mu b.
Proof.
  unfold spectral_mean. destruct (Nat.eqb_spec (count_kept mask (si_m img)) 0) as [E|E]; [discriminate|].
  intros [= <-]. split; [lia|]. intros b. field. apply not_0_INR. exact E.
Qed.
Lemma mean_intro img mask mu : (0 < count_kept mask (si_m img))%nat ->
  (forall b, bigsum (si_m img) (fun s => weight mask s * si_px img s b) = INR (count_kept mask (si_m img)) * mu b) ->
  spectral_mean img mask = Some mu.
Proof.
  intros Hc H. unfold spectral_mean. destruct (Nat.eqb_spec (count_kept mask (si_m img)) 0) as [E|E]; [lia|].
  f_equal. apply functional_extensionality. intros b. rewrite H. field. apply not_0_INR. exact E.
Qed.

(** mean of an affinely transformed image *)
Lemma mean_affine img mask mu (A : mat) (t : vec) :
  spectral_mean img mask = Some mu ->
  spectral_mean (map_pixels (fun x => vadd (mv (si_nb img) A x) t) img) mask =
    Some (vadd (mv (si_nb img) A mu) t).
Proof.
  intros H. destruct (mean_total _ _ _ H) as [Hc Ht]. apply mean_intro; [exact Hc|]. intros b. simpl.
  unfold vadd. rewrite (bigsum_ext _ _ (fun s => weight mask s * mv (si_nb img) A (si_px img s) b + t b * weight mask s)).
  2:{ intros; ring. }
  rewrite bigsum_plus, bigsum_scal, wsum_one.
  assert (E : bigsum (si_m img) (fun s => weight mask s * mv (si_nb img) A (si_px img s) b) =
              INR (count_kept mask (si_m img)) * mv (si_nb img) A mu b).
  { unfold mv. rewrite (bigsum_ext _ _ (fun s => bigsum (si_nb img) (fun j => A b j * (weight mask s * si_px img s j)))).
    2:{ intros s _. rewrite <- bigsum_scal. apply bigsum_ext; intros; ring. }
    rewrite bigsum_swap, <- bigsum_scal. apply bigsum_ext. intros j _. rewrite bigsum_scal, Ht. ring. }
  rewrite E. ring.
Qed.
Lemma mean_shift img mask mu (t : vec) :
  spectral_mean img mask = Some mu ->
  spectral_mean (map_pixels (fun x => vadd x t) img) mask = Some (vadd mu t).
Proof.
  intros H. destruct (mean_total _ _ _ H) as [Hc Ht]. apply mean_intro; [exact Hc|]. intros b. simpl.
  unfold vadd. rewrite (bigsum_ext _ _ (fun s => weight mask s * si_px img s b + t b * weight mask s)).
  2:{ intros; ring. }
  rewrite bigsum_plus, bigsum_scal, wsum_one, Ht. ring.
Qed.

(* ---------------------- C16 ------------------------------------- *)
Lemma demean_shape img mask d : demean_image_data img mask = Some d ->
  exists mu, spectral_mean img mask = Some mu /\ d = map_pixels (fun x => vadd x (fun b => - mu b)) img.
Proof.
  unfold demean_image_data. destruct (spectral_mean img mask) as [mu|]; [|discriminate].
  intros [= <-]. exists mu. split; reflexivity.
Qed.
Lemma demean_zero_mean img mask d : demean_image_data img mask = Some d ->
  exists mu, spectral_mean d mask = Some mu /\ forall b, mu b = 0.
Proof.
  intros H. destruct (demean_shape _ _ _ H) as (mu & Hm & ->). eexists. split.
  - apply mean_shift. exact Hm.
  - intros b. unfold vadd. ring.
Qed.
Lemma demean_idempotent img mask d : demean_image_data img mask = Some d -> demean_image_data d mask = Some d.
Proof.
  intros H. destruct (demean_zero_mean _ _ _ H) as (mu & Hm & Z). unfold demean_image_data. rewrite Hm. f_equal.
  destruct d as [m nb px]. simpl. f_equal. apply functional_extensionality. intros s.
  apply functional_extensionality. intros b. rewrite Z. ring.
Qed.
Lemma mean_masked_irrelevant mask a b : agree_on_kept mask a b -> spectral_mean a mask = spectral_mean b mask.
Proof.
  intros (Hm & Hn & H). unfold spectral_mean. rewrite <- Hm. destruct (Nat.eqb _ 0); [reflexivity|]. f_equal.
  apply functional_extensionality. intros i. f_equal. apply bigsum_ext. intros s Hs. unfold weight.
  destruct (keep mask s) eqn:E; [rewrite (H s i Hs E); reflexivity|ring].
Qed.
Lemma cov_masked_irrelevant mask a b : agree_on_kept mask a b -> spectral_covariance a mask = spectral_covariance b mask.
Proof.
  intros G. pose proof (mean_masked_irrelevant mask a b G) as M. destruct G as (Hm & Hn & H).
  unfold spectral_covariance. rewrite M, <- Hm. destruct (spectral_mean b mask) as [mu|]; [|reflexivity].
  destruct (Nat.leb _ 1); [reflexivity|]. f_equal.
  apply functional_extensionality. intros i. apply functional_extensionality. intros j. f_equal. apply bigsum_ext. intros s Hs.
  unfold weight. destruct (keep mask s) eqn:E; [rewrite !(H s _ Hs E); reflexivity|ring].
Qed.

(* ---------------------- C17 ------------------------------------- *)
Lemma cov_inv img mask C : spectral_covariance img mask = Some C ->
  exists mu, spectral_mean img mask = Some mu /\ (1 < count_kept mask (si_m img))%nat /\
  forall i j, C i j = bigsum (si_m img) (fun s => weight mask s * ((si_px img s i - mu i) * (si_px img s j - mu j)))
                      / (INR (count_kept mask (si_m img)) - 1).
Proof.
  unfold spectral_covariance. destruct (spectral_mean img mask) as [mu|]; [|discriminate].
  destruct (Nat.leb_spec (count_kept mask (si_m img)) 1) as [L|L]; [discriminate|].
  intros [= <-]. exists mu. repeat split; auto.
Qed.
Lemma cov_intro img mask mu C : spectral_mean img mask = Some mu -> (1 < count_kept mask (si_m img))%nat ->
  (forall i j, C i j = bigsum (si_m img) (fun s => weight mask s * ((si_px img s i - mu i) * (si_px img s j - mu j)))
                      / (INR (count_kept mask (si_m img)) - 1)) ->
  spectral_covariance img mask = Some C.
Proof.
  intros Hm Hc H. unfold spectral_covariance. rewrite Hm.
  destruct (Nat.leb_spec (count_kept mask (si_m img)) 1) as [L|L]; [lia|]. f_equal.
  apply functional_extensionality. intros i. apply functional_extensionality. intros j. symmetry. apply H.
Qed.
Lemma cov_defined img mask :
  (exists C, spectral_covariance img mask = Some C) <-> (1 < length (kept mask (si_m img)))%nat.
Proof.
  rewrite <- count_kept_length. split.
  - intros [C H]. destruct (cov_inv _ _ _ H) as (mu & _ & Hc & _). exact Hc.
  - intros H. assert (M : exists mu, spectral_mean img mask = Some mu).
    { unfold spectral_mean. destruct (Nat.eqb_spec (count_kept mask (si_m img)) 0); [lia|eauto]. }
    destruct M as [mu M]. eexists. apply (cov_intro img mask mu _ M H). intros i j.
    match goal with |- ?l = ?r => instantiate (1 := fun i j => bigsum (si_m img) (fun s => weight mask s * ((si_px img s i - mu i) * (si_px img s j - mu j))) / (INR (count_kept mask (si_m img)) - 1)) end. reflexivity.
Qed.
Lemma cov_is_sample img mask C : spectral_covariance img mask = Some C -> is_sample_covariance img mask C.
Proof.
  intros H. destruct (cov_inv _ _ _ H) as (mu & Hm & Hc & E). exists mu. split; [apply mean_average; exact Hm|].
  intros i j _ _. rewrite E, wsum_kept, count_kept_length. reflexivity.
Qed.
Lemma cov_symmetric img mask C : spectral_covariance img mask = Some C -> forall i j, C i j = C j i.
Proof.
  intros H i j. destruct (cov_inv _ _ _ H) as (mu & _ & _ & E). rewrite !E. f_equal. apply bigsum_ext. intros; ring.
Qed.
(** the quadratic form of the covariance is the sample variance of the projections *)
Lemma cov_quadratic img mask C mu v :
  spectral_covariance img mask = Some C -> spectral_mean img mask = Some mu ->
  dot (si_nb img) v (mv (si_nb img) C v) =
  bigsum (si_m img) (fun s => weight mask s * (dot (si_nb img) v (vsub (si_px img s) mu) * dot (si_nb img) v (vsub (si_px img s) mu)))
  / (INR (count_kept mask (si_m img)) - 1).
Proof.
  intros H Hm. destruct (cov_inv _ _ _ H) as (mu' & Hm' & _ & E). rewrite Hm in Hm'. injection Hm' as <-.
  set (n := si_nb img). set (K := INR (count_kept mask (si_m img)) - 1).
  unfold dot at 1, mv.
  rewrite (bigsum_ext n _ (fun i => bigsum n (fun j =>
     bigsum (si_m img) (fun s => weight mask s * (v i * vsub (si_px img s) mu i) * (v j * vsub (si_px img s) mu j) / K)))).
  2:{ intros i _. rewrite <- bigsum_scal. apply bigsum_ext. intros j _. rewrite E. fold K. unfold Rdiv.
      rewrite <- bigsum_scal_r. rewrite <- bigsum_scal_r, <- bigsum_scal. apply bigsum_ext. intros s _. unfold vsub. ring. }
  rewrite (bigsum_ext n _ (fun i => bigsum (si_m img) (fun s => bigsum n (fun j =>
     weight mask s * (v i * vsub (si_px img s) mu i) * (v j * vsub (si_px img s) mu j) / K)))).
  2:{ intros i _. apply bigsum_swap. }
  rewrite bigsum_swap. unfold Rdiv. rewrite <- bigsum_scal_r. apply bigsum_ext. intros s _.
  unfold dot. rewrite (bigsum_ext n _ (fun i => (weight mask s * / K * bigsum n (fun j => v j * vsub (si_px img s) mu j)) * (v i * vsub (si_px img s) mu i))).
  - rewrite bigsum_scal. ring.
  - intros i _. rewrite <- !bigsum_scal, <- bigsum_scal_r. apply bigsum_ext. intros; ring.
Qed.
Lemma cov_psd img mask C : spectral_covariance img mask = Some C -> psd (si_nb img) C.
Proof.
  intros H v. destruct (cov_inv _ _ _ H) as (mu & Hm & Hc & _). rewrite (cov_quadratic img mask C mu v H Hm).
  apply Rmult_le_pos.
  - apply bigsum_nonneg. intros s _. apply Rmult_le_pos; [apply weight_nonneg|nra].
  - apply Rlt_le, Rinv_0_lt_compat. apply lt_INR in Hc. simpl in Hc. lra.
Qed.
Lemma cov_shift img mask t :
  spectral_covariance (map_pixels (fun x => vadd x t) img) mask = spectral_covariance img mask.
Proof.
  destruct (spectral_covariance img mask) as [C|] eqn:H.
  - destruct (cov_inv _ _ _ H) as (mu & Hm & Hc & E).
    apply (cov_intro _ _ (vadd mu t)); [apply mean_shift; exact Hm|exact Hc|].
    intros i j. rewrite E. simpl. f_equal. apply bigsum_ext. intros s _. unfold vadd. ring.
  - destruct (spectral_covariance (map_pixels _ img) mask) as [C|] eqn:H2; [|reflexivity].
    exfalso. assert (X : exists C, spectral_covariance img mask = Some C); [|destruct X; congruence].
    apply cov_defined. exact (proj1 (cov_defined (map_pixels (fun x => vadd x t) img) mask) (ex_intro _ C H2)).
Qed.

(** covariance of a linearly transformed image *)
Lemma cov_linear img mask C (A : mat) (t : vec) :
  spectral_covariance img mask = Some C ->
  exists C', spectral_covariance (map_pixels (fun x => vadd (mv (si_nb img) A x) t) img) mask = Some C' /\
             forall i j, C' i j = mm (si_nb img) (mm (si_nb img) A C) (trans A) i j.
Proof.
  intros H. destruct (cov_inv _ _ _ H) as (mu & Hm & Hc & E). set (n := si_nb img).
  exists (mm n (mm n A C) (trans A)). split; [|reflexivity].
  apply (cov_intro _ _ _ _ (mean_affine img mask mu A t Hm) Hc). intros i j. simpl.
  set (K := INR (count_kept mask (si_m img)) - 1). unfold mm, trans.
  rewrite (bigsum_ext n _ (fun k => bigsum n (fun l => bigsum (si_m img) (fun s =>
     weight mask s * (A i l * (si_px img s l - mu l)) * (A j k * (si_px img s k - mu k)) / K)))).
  2:{ intros k _. rewrite <- bigsum_scal_r. apply bigsum_ext. intros l _. rewrite E. fold K. unfold Rdiv.
      rewrite <- bigsum_scal_r, <- bigsum_scal, <- bigsum_scal_r. apply bigsum_ext. intros s _. ring. }
  rewrite (bigsum_ext n _ (fun k => bigsum (si_m img) (fun s => bigsum n (fun l =>
     weight mask s * (A i l * (si_px img s l - mu l)) * (A j k * (si_px img s k - mu k)) / K)))).
  2:{ intros k _. apply bigsum_swap. }
  rewrite bigsum_swap. unfold Rdiv. rewrite <- bigsum_scal_r. apply bigsum_ext. intros s _.
  assert (D : forall r, vadd (mv n A (si_px img s)) t r - vadd (mv n A mu) t r = bigsum n (fun l => A r l * (si_px img s l - mu l))).
  { intros r. unfold vadd, mv.
    rewrite (bigsum_ext n (fun l => A r l * (si_px img s l - mu l)) (fun l => A r l * si_px img s l - A r l * mu l)) by (intros; ring).
    rewrite bigsum_minus. ring. }
  fold n. rewrite !D. set (X := bigsum n (fun l => A i l * (si_px img s l - mu l))).
  rewrite (bigsum_ext n _ (fun k => (weight mask s * / K * X) * (A j k * (si_px img s k - mu k)))).
  - rewrite bigsum_scal. ring.
  - intros k _. unfold X. rewrite <- !bigsum_scal, <- bigsum_scal_r. apply bigsum_ext. intros; ring.
Qed.

(* ---------------------- C18 ------------------------------------- *)
Lemma rx_explicit inv img mu W :
  rx_anomaly_detector inv img (Some mu) (Some W) =
  Ok (fun s => Fin (dot (si_nb img) (vsub (si_px img s) mu) (mv (si_nb img) W (vsub (si_px img s) mu)))).
Proof. reflexivity. Qed.

Lemma rx_default inv img sc : rx_anomaly_detector inv img None None = Ok sc ->
  si_nb img <> 1%nat /\
  ((exists mu C W, spectral_mean img None = Some mu /\ spectral_covariance img None = Some C /\ inv C = Some W /\
     rx_anomaly_detector inv img (Some mu) (Some W) = Ok sc) \/
   ((si_m img <= 1)%nat /\ forall s, sc s = NonFinite)).
Proof.
  unfold rx_anomaly_detector at 1, inv_covariance. destruct (Nat.eqb_spec (si_nb img) 1) as [|N]; [discriminate|].
  intros H. split; [exact N|].
  destruct (spectral_covariance img None) as [C|] eqn:EC.
  - destruct (inv C) as [W|] eqn:EW; [|discriminate]. simpl in H.
    destruct (cov_inv _ _ _ EC) as (mu & Hm & _). rewrite Hm in H. injection H as <-. left.
    exists mu, C, W. repeat split; auto.
  - simpl in H. right. split.
    + destruct (Nat.le_gt_cases (si_m img) 1) as [L|L]; [exact L|exfalso].
      assert (X : exists C, spectral_covariance img None = Some C); [|destruct X; congruence].
      apply cov_defined. unfold kept. replace (filter (fun _ => true) (seq 0 (si_m img))) with (seq 0 (si_m img)).
      * rewrite seq_length. exact L.
      * clear. induction (seq 0 (si_m img)) as [|a l IH]; simpl; congruence.
    + destruct (spectral_mean img None); injection H as <-; reflexivity.
Qed.

Lemma rx_nonneg inv img mu W sc : psd (si_nb img) W ->
  rx_anomaly_detector inv img (Some mu) (Some W) = Ok sc -> forall s, exists r, sc s = Fin r /\ 0 <= r.
Proof. intros P H s. rewrite rx_explicit in H. injection H as <-. eexists. split; [reflexivity|apply P]. Qed.

Lemma cov_symm n img mask C : spectral_covariance img mask = Some C -> symmetric n C.
Proof. intros H i j _ _. apply (cov_symmetric _ _ _ H). Qed.

Lemma rx_default_nonneg inv img sc : inv_contract (si_nb img) inv -> (2 <= si_m img)%nat ->
  rx_anomaly_detector inv img None None = Ok sc -> forall s, exists r, sc s = Fin r /\ 0 <= r.
Proof.
  intros Hi Hm H. destruct (rx_default _ _ _ H) as [_ [(mu & C & W & M & HC & HW & E)|[L _]]]; [|lia].
  apply (rx_nonneg inv img mu W sc); auto. apply (inverse_psd _ C); [eapply cov_symm; eauto|eapply cov_psd; eauto|apply Hi; exact HW].
Qed.
Lemma rx_zero_at_mean inv img mu W sc s :
  rx_anomaly_detector inv img (Some mu) (Some W) = Ok sc -> veq (si_nb img) (si_px img s) mu -> sc s = Fin 0.
Proof.
  rewrite rx_explicit. intros [= <-] E. f_equal. unfold dot. rewrite (bigsum_ext _ _ (fun _ => 0)); [apply bigsum_zero|].
  intros b Hb. unfold vsub at 1. rewrite E by exact Hb. ring.
Qed.
Lemma rx_pd_zero_only_at_mean inv img mu W sc s : pd (si_nb img) W ->
  rx_anomaly_detector inv img (Some mu) (Some W) = Ok sc -> sc s = Fin 0 -> veq (si_nb img) (si_px img s) mu.
Proof.
  intros P. rewrite rx_explicit. intros [= <-] [= E] i Hi.
  destruct (Req_dec (vsub (si_px img s) mu i) 0) as [Z|Z]; [unfold vsub in Z; lra|].
  specialize (P (vsub (si_px img s) mu) (ex_intro _ i (conj Hi Z))). lra.
Qed.
Lemma rx_translation inv img mu W t :
  rx_anomaly_detector inv (map_pixels (fun x => vadd x t) img) (Some (vadd mu t)) (Some W) =
  rx_anomaly_detector inv img (Some mu) (Some W).
Proof.
  rewrite !rx_explicit. f_equal. apply functional_extensionality. intros s. f_equal. simpl.
  replace (vsub (vadd (si_px img s) t) (vadd mu t)) with (vsub (si_px img s) mu); [reflexivity|].
  apply functional_extensionality. intros b. unfold vsub, vadd. ring.
Qed.
Lemma rx_translation_default inv img t :
  rx_anomaly_detector inv (map_pixels (fun x => vadd x t) img) None None = rx_anomaly_detector inv img None None.
Proof.
  unfold rx_anomaly_detector. rewrite cov_shift. simpl si_nb.
  destruct (inv_covariance inv (si_nb img) false (spectral_covariance img None)) as [W| |] eqn:EW; [|reflexivity|reflexivity].
  simpl bind. destruct (spectral_mean img None) as [mu|] eqn:EM.
  - rewrite (mean_shift img None mu t EM). destruct W as [W|]; [|reflexivity].
    pose proof (rx_translation inv img mu W t) as T. unfold rx_anomaly_detector in T. simpl in T. exact T.
  - destruct (spectral_mean (map_pixels _ img) None) as [mu|] eqn:E2; [|reflexivity].
    exfalso. assert (X : exists mu, spectral_mean img None = Some mu).
    { apply mean_defined. apply (proj1 (mean_defined (map_pixels (fun x => vadd x t) img) None)). eauto. }
    destruct X; congruence.
Qed.

Lemma count_none m : count_kept None m = m.
Proof. induction m as [|m IH]; simpl; lia. Qed.

(** trace identity: with the default statistics the scores add up to (m-1) nb *)
Lemma rx_sum inv img sc : inv_contract (si_nb img) inv -> (2 <= si_m img)%nat ->
  rx_anomaly_detector inv img None None = Ok sc ->
  exists r, (forall s, sc s = Fin (r s)) /\ bigsum (si_m img) r = (INR (si_m img) - 1) * INR (si_nb img).
Proof.
  intros Hi Hm H. destruct (rx_default _ _ _ H) as [_ [(mu & C & W & M & HC & HW & E)|[L _]]]; [|lia].
  rewrite rx_explicit in E. injection E as <-. eexists. split; [reflexivity|].
  destruct (cov_inv _ _ _ HC) as (mu' & M' & Hc & EC). rewrite M in M'. injection M' as <-.
  rewrite count_none in *. set (n := si_nb img) in *. set (m := si_m img) in *.
  assert (K : INR m - 1 <> 0). { apply lt_INR in Hc. simpl in Hc. lra. }
  unfold dot, mv.
  rewrite (bigsum_ext m _ (fun s => bigsum n (fun b => bigsum n (fun j => W b j * (vsub (si_px img s) mu b * vsub (si_px img s) mu j))))).
  2:{ intros s _. apply bigsum_ext. intros b _. rewrite <- bigsum_scal. apply bigsum_ext. intros; ring. }
  rewrite bigsum_swap.
  rewrite (bigsum_ext n _ (fun b => bigsum n (fun j => bigsum m (fun s => W b j * (vsub (si_px img s) mu b * vsub (si_px img s) mu j))))).
  2:{ intros b _. apply bigsum_swap. }
  rewrite (bigsum_ext n _ (fun b => (INR m - 1) * mm n W C b b)).
  - rewrite bigsum_scal. rewrite (bigsum_ext n _ (fun _ => 1)).
    + rewrite bigsum_const. ring.
    + intros b Hb. destruct (Hi C W HW) as [_ H2]. rewrite H2 by exact Hb. unfold eye. rewrite Nat.eqb_refl. reflexivity.
  - intros b _. unfold mm. rewrite <- bigsum_scal. apply bigsum_ext. intros j _. rewrite bigsum_scal.
    rewrite (cov_symmetric _ _ _ HC j b) || idtac.
    rewrite EC. unfold weight, keep.
    rewrite (bigsum_ext m (fun s => 1 * ((si_px img s b - mu b) * (si_px img s j - mu j))) (fun s => vsub (si_px img s) mu b * vsub (si_px img s) mu j))
      by (intros; unfold vsub; ring).
    field. exact K.
Qed.

Lemma veq_refl n u : veq n u u.
Proof. intros i _; reflexivity. Qed.
Lemma veq_trans n u v w : veq n u v -> veq n v w -> veq n u w.
Proof. intros H1 H2 i Hi. rewrite H1, H2; auto. Qed.
Lemma veq_sym n u v : veq n u v -> veq n v u.
Proof. intros H i Hi. symmetry. auto. Qed.

(** RX with the default statistics does not depend on the (affine) units of the bands *)
Lemma rx_affine inv img A Ai t sc sc' :
  inv_contract (si_nb img) inv -> (2 <= si_m img)%nat -> is_inverse (si_nb img) A Ai ->
  rx_anomaly_detector inv img None None = Ok sc ->
  rx_anomaly_detector inv (map_pixels (fun x => vadd (mv (si_nb img) A x) t) img) None None = Ok sc' ->
  forall s, sc s = sc' s.
Proof.
  intros Hi Hm HA H H' s.
  destruct (rx_default _ _ _ H) as [_ [(mu & C & W & M & HC & HW & E)|[L _]]]; [|lia].
  destruct (rx_default _ _ _ H') as [_ [(mu' & C' & W' & M' & HC' & HW' & E')|[L _]]]; [|simpl in L; lia].
  rewrite rx_explicit in E, E'. injection E as <-. injection E' as <-. f_equal. simpl si_nb. simpl si_px.
  set (n := si_nb img) in *.
  pose proof (mean_affine img None mu A t M) as MA. fold n in MA. rewrite MA in M'. injection M' as <-.
  destruct (cov_linear img None C A t HC) as (C'' & HC'' & EC). fold n in HC'', EC. rewrite HC' in HC''. injection HC'' as <-.
  specialize (Hi C W HW) as IW. pose proof (Hi C' W' HW') as IW'.
  set (d := vsub (si_px img s) mu).
  assert (Hd : veq n (vsub (vadd (mv n A (si_px img s)) t) (vadd (mv n A mu) t)) (mv n A d)).
  { intros i _. unfold vsub, vadd, d, mv. unfold vsub.
    rewrite (bigsum_ext n (fun j => A i j * (si_px img s j - mu j)) (fun j => A i j * si_px img s j - A i j * mu j)) by (intros; ring).
    rewrite bigsum_minus. ring. }
  rewrite (dot_ext n _ (mv n A d) _ (mv n W' (mv n A d)) Hd); [|apply mv_ext; [apply meq_refl|exact Hd]].
  set (z := mv n W' (mv n A d)).
  assert (Z1 : veq n (mv n C' z) (mv n A d)) by (apply inverse_apply; exact IW').
  assert (Z2 : veq n (mv n A (mv n C (mv n (trans A) z))) (mv n A d)).
  { eapply veq_trans; [|exact Z1]. apply veq_sym.
    eapply veq_trans; [apply mv_ext; [|apply veq_refl]; intros i j _ _; apply EC|].
    eapply veq_trans; [apply mv_mm|]. apply mv_mm. }
  assert (Z3 : veq n (mv n C (mv n (trans A) z)) d).
  { destruct HA as [HA1 HA2].
    assert (X : forall v, veq n (mv n Ai (mv n A v)) v).
    { intros v. eapply veq_trans; [apply veq_sym, mv_mm|]. eapply veq_trans; [apply mv_ext; [exact HA2|apply veq_refl]|apply mv_eye]. }
    eapply veq_trans; [apply veq_sym, X|]. eapply veq_trans; [apply mv_ext; [apply meq_refl|exact Z2]|apply X]. }
  assert (Z4 : veq n (mv n (trans A) z) (mv n W d)) by (apply (inverse_solve n C W); assumption).
  rewrite (dot_comm n (mv n A d) z), (dot_mv_trans n A z d), (dot_comm n (mv n (trans A) z) d). apply dot_ext; [apply veq_refl|]. apply veq_sym; exact Z4.
Qed.

(* ---------------------- C19 ------------------------------------- *)
Definition ace_value (n : nat) (W : mat) (t x : vec) : flt :=
  fdiv (dot n t (mv n W x) * dot n t (mv n W x)) (dot n t (mv n W t) * dot n x (mv n W x)).

Lemma ace_demeaned_eq img t W s : ace_demeaned img t W s = ace_value (si_nb img) W t (si_px img s).
Proof. reflexivity. Qed.
Lemma ace_explicit inv img t mu W mask :
  ace inv img t (Some mu) (Some W) mask = Ok (fun s => ace_value (si_nb img) W (vsub t mu) (vsub (si_px img s) mu)).
Proof. reflexivity. Qed.
Lemma ace_is_ace_demeaned inv img t mu W mask sc :
  ace inv img t (Some mu) (Some W) mask = Ok sc ->
  forall s, sc s = ace_demeaned (map_pixels (fun x => vsub x mu) img) (vsub t mu) W s.
Proof. rewrite ace_explicit. intros [= <-] s. reflexivity. Qed.
Lemma ace_default inv img t mask sc : ace inv img t None None mask = Ok sc ->
  si_nb img <> 1%nat /\
  ((exists mu C W, spectral_mean img mask = Some mu /\ spectral_covariance img mask = Some C /\ inv C = Some W /\
     ace inv img t (Some mu) (Some W) mask = Ok sc) \/
   (mask = None /\ (length (kept mask (si_m img)) <= 1)%nat /\ forall s, sc s = NonFinite)).
Proof.
  unfold ace at 1, inv_covariance. destruct (Nat.eqb_spec (si_nb img) 1) as [|N]; [discriminate|].
  intros H. split; [exact N|].
  destruct (spectral_covariance img mask) as [C|] eqn:EC.
  - destruct (inv C) as [W|] eqn:EW; [|discriminate]. simpl in H.
    destruct (cov_inv _ _ _ EC) as (mu & Hm & _). rewrite Hm in H. injection H as <-. left.
    exists mu, C, W. repeat split; auto.
  - destruct mask as [k|]; cbn [is_masked] in H; [discriminate|]. simpl in H. right. split; [reflexivity|]. split.
    + set (mask := @None (nat -> bool)) in *. destruct (Nat.le_gt_cases (length (kept mask (si_m img))) 1) as [L|L]; [exact L|exfalso].
      assert (X : exists C, spectral_covariance img mask = Some C); [|destruct X; congruence].
      apply cov_defined. exact L.
    + destruct (spectral_mean img None); injection H as <-; reflexivity.
Qed.

Lemma ace_value_range n W t x r : symmetric n W -> psd n W -> ace_value n W t x = Fin r -> 0 <= r <= 1.
Proof.
  intros HS P. unfold ace_value, fdiv. set (D := dot n t (mv n W t) * dot n x (mv n W x)).
  destruct (Reqb_spec D 0) as [E|E]; [discriminate|]. intros [= <-].
  assert (D0 : 0 <= D) by (apply Rmult_le_pos; apply P).
  pose proof (psd_cauchy n W t x HS P) as CS. fold D in CS.
  split.
  - apply Rmult_le_pos; [nra|]. apply Rlt_le, Rinv_0_lt_compat. lra.
  - apply (Rmult_le_reg_r D); [lra|]. unfold Rdiv. rewrite Rmult_assoc, Rinv_l by exact E. lra.
Qed.
(** defined exactly when neither target nor pixel contrast has zero norm *)
Lemma ace_value_defined n W t x :
  (exists r, ace_value n W t x = Fin r) <-> dot n t (mv n W t) <> 0 /\ dot n x (mv n W x) <> 0.
Proof.
  unfold ace_value, fdiv. set (a := dot n t (mv n W t)). set (b := dot n x (mv n W x)).
  destruct (Reqb_spec (a * b) 0) as [E|E].
  - split; [intros [r H]; discriminate|]. intros [Ha Hb]. exfalso. apply Rmult_integral in E. tauto.
  - split; [intros _|eauto]. split; intros Z; apply E; rewrite Z; ring.
Qed.
Lemma ace_value_ext n W t t' x x' : veq n t t' -> veq n x x' -> ace_value n W t x = ace_value n W t' x'.
Proof.
  intros Ht Hx. unfold ace_value.
  rewrite (dot_ext n t t' (mv n W x) (mv n W x') Ht), (dot_ext n t t' (mv n W t) (mv n W t') Ht), (dot_ext n x x' (mv n W x) (mv n W x') Hx); auto;
  apply mv_ext; auto; apply meq_refl.
Qed.
Lemma ace_value_scale n W t x c k : c <> 0 -> k <> 0 -> ace_value n W (vscale c t) (vscale k x) = ace_value n W t x.
Proof.
  intros Hc Hk. unfold ace_value. rewrite !mv_scale, !dot_scale_l, !dot_scale_r.
  set (a := dot n t (mv n W t)). set (b := dot n x (mv n W x)). set (u := dot n t (mv n W x)).
  unfold fdiv. destruct (Reqb_spec (a * b) 0) as [E|E].
  - rewrite Reqb_true; [reflexivity|]. replace (c * (c * a) * (k * (k * b))) with (c * c * k * k * (a * b)) by ring. rewrite E. ring.
  - assert (a <> 0) by (intros Z; apply E; rewrite Z; ring). assert (b <> 0) by (intros Z; apply E; rewrite Z; ring).
    rewrite Reqb_false; [f_equal; field; auto|].
    repeat (apply Rmult_integral_contrapositive_currified; auto).
Qed.
Lemma ace_value_self n W t : dot n t (mv n W t) <> 0 -> ace_value n W t t = Fin 1.
Proof.
  intros H. unfold ace_value. rewrite fdiv_nz; [f_equal; field; auto|].
  apply Rmult_integral_contrapositive_currified; auto.
Qed.
Lemma ace_value_multiple n W t x : pd n W -> nonzero n t -> nonzero_multiple n x t -> ace_value n W t x = Fin 1.
Proof.
  intros P Ht (c & Hc & Hx). rewrite (ace_value_ext n W t t x (vscale c t) (veq_refl n t) Hx).
  rewrite <- (ace_value_self n W t).
  - rewrite <- (ace_value_scale n W t t 1 c); [|lra|exact Hc]. apply ace_value_ext; [|apply veq_refl].
    intros i _. unfold vscale. ring.
  - specialize (P t Ht). lra.
Qed.
(** equality case *)
Lemma ace_value_one n W t x : symmetric n W -> pd n W -> ace_value n W t x = Fin 1 -> nonzero_multiple n x t.
Proof.
  intros HS P H.
  destruct (proj1 (ace_value_defined n W t x) (ex_intro _ 1 H)) as [Ha Hb].
  unfold ace_value in H. rewrite fdiv_nz in H by (apply Rmult_integral_contrapositive_currified; auto).
  injection H as H. set (a := dot n t (mv n W t)) in *. set (b := dot n x (mv n W x)) in *. set (u := dot n t (mv n W x)) in *.
  assert (E : u * u = a * b). { apply (f_equal (fun z => z * (a * b))) in H. unfold Rdiv in H. rewrite Rmult_assoc, Rinv_l in H by (apply Rmult_integral_contrapositive_currified; auto). lra. }
  exists (u / a). split.
  - intros Z. assert (U : u = 0). { apply (f_equal (fun z => z * a)) in Z. unfold Rdiv in Z. rewrite Rmult_assoc, Rinv_l in Z by auto. lra. }
    rewrite U in E. apply (Rmult_integral_contrapositive_currified a b Ha Hb). lra.
  - set (y := vadd x (vscale (- (u / a)) t)).
    assert (Q : dot n y (mv n W y) = 0).
    { unfold y. rewrite mv_add, mv_scale, dot_add_l, !dot_add_r, !dot_scale_l, !dot_scale_r.
      rewrite (dot_mv_sym n W x t HS). fold a b u. transitivity ((a * b - u * u) / a); [field; auto|].
      rewrite E. unfold Rdiv. ring. }
    intros i Hi. destruct (Req_dec (y i) 0) as [Z|Z].
    + unfold y, vadd, vscale in Z. unfold vscale. lra.
    + specialize (P y (ex_intro _ i (conj Hi Z))). lra.
Qed.

(* ---------------------- C20 ------------------------------------- *)
Definition sam_value (n : nat) (t x : vec) : flt := fdiv (dot n t x) (sqrt (dot n t t) * sqrt (dot n x x)).
Lemma sam_eq img t s : sam img t s = sam_value (si_nb img) t (si_px img s).
Proof. reflexivity. Qed.
Lemma dot_pos n u : nonzero n u <-> 0 < dot n u u.
Proof.
  split.
  - intros (i & Hi & Hu). destruct (Rle_lt_or_eq_dec _ _ (dot_self_nonneg n u)) as [H|H]; [exact H|].
    exfalso. apply Hu. apply (dot_self_zero n u); auto.
  - intros H. unfold dot in H. assert (D : forall k, (forall i, (i < k)%nat -> u i = 0) \/ exists i, (i < k)%nat /\ u i <> 0).
    { induction k as [|k [IH|IH]]; [left; intros; lia| |].
      - destruct (Req_dec (u k) 0) as [Z|Z].
        + left. intros i Hi. destruct (Nat.eq_dec i k) as [->|]; [exact Z|apply IH; lia].
        + right. exists k. split; [lia|exact Z].
      - right. destruct IH as (i & Hi & Hz). exists i. split; [lia|exact Hz]. }
    destruct (D n) as [Z|Z]; [|exact Z]. exfalso. rewrite (bigsum_ext n _ (fun _ => 0)) in H; [rewrite bigsum_zero in H; lra|].
    intros i Hi. rewrite Z by exact Hi. ring.
Qed.
Lemma sam_value_defined n t x : (exists r, sam_value n t x = Fin r) <-> nonzero n t /\ nonzero n x.
Proof.
  rewrite !dot_pos. unfold sam_value, fdiv.
  pose proof (dot_self_nonneg n t) as A. pose proof (dot_self_nonneg n x) as B.
  destruct (Reqb_spec (sqrt (dot n t t) * sqrt (dot n x x)) 0) as [E|E].
  - split; [intros [r H]; discriminate|]. intros [Ht Hx]. exfalso.
    apply sqrt_lt_R0 in Ht. apply sqrt_lt_R0 in Hx. nra.
  - split; [intros _|eauto].
    split; [destruct A as [A|A]|destruct B as [B|B]]; auto; exfalso; apply E.
    + rewrite <- A, sqrt_0. ring.
    + rewrite <- B, sqrt_0. ring.
Qed.
Lemma sam_value_range n t x r : sam_value n t x = Fin r -> -1 <= r <= 1.
Proof.
  intros H. destruct (proj1 (sam_value_defined n t x) (ex_intro _ r H)) as [Ht Hx]. apply dot_pos in Ht, Hx.
  unfold sam_value in H. pose proof (sqrt_lt_R0 _ Ht) as S1. pose proof (sqrt_lt_R0 _ Hx) as S2.
  set (p := sqrt (dot n t t)) in *. set (q := sqrt (dot n x x)) in *.
  assert (P0 : 0 < p * q) by nra.
  rewrite fdiv_nz in H by lra. injection H as <-.
  assert (CS : dot n t x * dot n t x <= (p * q) * (p * q)).
  { replace ((p * q) * (p * q)) with ((p * p) * (q * q)) by ring. unfold p, q. rewrite !sqrt_sqrt by lra. apply dot_cauchy. }
  assert (B : - (p * q) <= dot n t x <= p * q) by (split; nra).
  split; apply (Rmult_le_reg_r (p * q)); try exact P0; unfold Rdiv; rewrite Rmult_assoc, Rinv_l by lra; lra.
Qed.
Lemma sam_value_ext n t t' x x' : veq n t t' -> veq n x x' -> sam_value n t x = sam_value n t' x'.
Proof. intros Ht Hx. unfold sam_value. rewrite (dot_ext n t t' x x'), (dot_ext n t t' t t'), (dot_ext n x x' x x'); auto. Qed.
Lemma sam_value_scale n t x c k : 0 < c -> 0 < k -> sam_value n (vscale c t) (vscale k x) = sam_value n t x.
Proof.
  intros Hc Hk. unfold sam_value. rewrite !dot_scale_l, !dot_scale_r.
  pose proof (dot_self_nonneg n t) as A. pose proof (dot_self_nonneg n x) as B.
  replace (c * (c * dot n t t)) with ((c * c) * dot n t t) by ring.
  replace (k * (k * dot n x x)) with ((k * k) * dot n x x) by ring.
  rewrite (sqrt_mult (c * c)), (sqrt_mult (k * k)) by nra. rewrite !sqrt_square by lra.
  set (p := sqrt (dot n t t)). set (q := sqrt (dot n x x)). unfold fdiv.
  destruct (Reqb_spec (p * q) 0) as [E|E].
  - rewrite Reqb_true; [reflexivity|]. replace (c * p * (k * q)) with (c * k * (p * q)) by ring. rewrite E. ring.
  - assert (p <> 0) by (intros Z; apply E; rewrite Z; ring). assert (q <> 0) by (intros Z; apply E; rewrite Z; ring).
    rewrite Reqb_false; [f_equal; field; repeat split; auto; lra|].
    repeat (apply Rmult_integral_contrapositive_currified; auto); lra.
Qed.
Lemma sam_value_one n t x : nonzero n t -> (sam_value n t x = Fin 1 <-> positive_multiple n x t).
Proof.
  intros Ht. split.
  - intros H. destruct (proj1 (sam_value_defined n t x) (ex_intro _ 1 H)) as [_ Hx]. apply dot_pos in Ht, Hx.
    unfold sam_value in H. pose proof (sqrt_lt_R0 _ Ht) as S1. pose proof (sqrt_lt_R0 _ Hx) as S2.
    pose proof (sqrt_sqrt _ (Rlt_le _ _ Ht)) as Q1. pose proof (sqrt_sqrt _ (Rlt_le _ _ Hx)) as Q2.
    set (p := sqrt (dot n t t)) in *. set (q := sqrt (dot n x x)) in *.
    rewrite fdiv_nz in H by nra. injection H as H.
    assert (E : dot n t x = p * q). { apply (f_equal (fun z => z * (p * q))) in H. unfold Rdiv in H. rewrite Rmult_assoc, Rinv_l in H by nra. lra. }
    exists (q / p). split; [apply Rdiv_lt_0_compat; assumption|].
    assert (Z : dot n (vadd x (vscale (- (q / p)) t)) (vadd x (vscale (- (q / p)) t)) = 0).
    { rewrite dot_add_l, !dot_add_r, !dot_scale_l, !dot_scale_r, (dot_comm n x t), E, <- Q1, <- Q2. field. lra. }
    intros i Hi. pose proof (dot_self_zero n _ Z i Hi) as Y. unfold vadd, vscale in Y. unfold vscale. lra.
  - intros (c & Hc & Hx). rewrite (sam_value_ext n t (vscale 1 t) x (vscale c t)); [|intros i _; unfold vscale; ring|exact Hx].
    rewrite sam_value_scale by lra. unfold sam_value. apply dot_pos in Ht. rewrite sqrt_sqrt by lra.
    rewrite fdiv_nz by lra. f_equal. field. lra.
Qed.
Lemma sam_value_sym n t x : sam_value n t x = sam_value n x t.
Proof. unfold sam_value. rewrite dot_comm, Rmult_comm. reflexivity. Qed.
(** opposite direction *)
Lemma sam_value_neg n t x : sam_value n t (vscale (-1) x) = fmap Ropp (sam_value n t x).
Proof.
  unfold sam_value. rewrite !dot_scale_l, !dot_scale_r. replace (-1 * (-1 * dot n x x)) with (dot n x x) by ring.
  unfold fdiv. destruct (Reqb _ 0); simpl; [reflexivity|]. f_equal. unfold Rdiv. ring.
Qed.

(* ---------------------- C21 ------------------------------------- *)

Lemma flat_div ny nx y x : (y < ny)%nat -> (x < nx)%nat -> ((y * nx + x) / nx = y /\ (y * nx + x) mod nx = x)%nat.
Proof.
  intros Hy Hx. rewrite (Nat.add_comm (y * nx)). split.
  - rewrite Nat.div_add by lia. rewrite Nat.div_small by exact Hx. reflexivity.
  - rewrite Nat.mod_add by lia. apply Nat.mod_small. exact Hx.
Qed.
Lemma flatten_px c y x i : (y < sc_ny c)%nat -> (x < sc_nx c)%nat ->
  si_px (flatten_image_cube c) (y * sc_nx c + x) i = sc_px c y x i.
Proof. intros Hy Hx. simpl. destruct (flat_div (sc_ny c) (sc_nx c) y x Hy Hx) as [-> ->]. reflexivity. Qed.
Lemma unflatten_flatten_cube c : exists c', unflatten_image_cube (flatten_image_cube c) (sc_nx c) (sc_ny c) = Ok c' /\ scube_eq c' c.
Proof.
  unfold unflatten_image_cube. cbn [flatten_image_cube si_m si_nb]. rewrite Nat.eqb_refl. eexists. split; [reflexivity|].
  repeat split. cbn [sc_ny sc_nx sc_px]. intros y x i Hy Hx. apply flatten_px; assumption.
Qed.
Lemma flatten_unflatten_cube img nx ny c : unflatten_image_cube img nx ny = Ok c -> (0 < si_nb img)%nat ->
  si_m (flatten_image_cube c) = si_m img /\ si_nb (flatten_image_cube c) = si_nb img /\
  forall s i, (s < si_m img)%nat -> si_px (flatten_image_cube c) s i = si_px img s i.
Proof.
  unfold unflatten_image_cube. destruct (Nat.eqb_spec (si_m img * si_nb img) (ny * nx * si_nb img)) as [E|E]; [|discriminate].
  intros [= <-] Hb. apply Nat.mul_cancel_r in E; [|lia]. simpl. repeat split; auto. intros s i Hs.
  assert (Hx : nx <> 0%nat) by (intros ->; rewrite Nat.mul_0_r in E; lia).
  f_equal. rewrite (Nat.div_mod s nx) at 3 by exact Hx. lia.
Qed.

Lemma mean_2d c mu : spectral_mean_2d c None = Some mu -> forall b,
  mu b = bigsum (sc_ny c) (fun y => bigsum (sc_nx c) (fun x => sc_px c y x b)) / (INR (sc_ny c) * INR (sc_nx c)).
Proof.
  unfold spectral_mean_2d, flatten_mask, spectral_mean. cbn [flatten_image_cube si_m si_px]. rewrite count_none.
  destruct (Nat.eqb _ 0); [discriminate|]. intros [= <-] b. rewrite <- mult_INR. f_equal.
  rewrite (bigsum_ext _ _ (fun s => sc_px c (s / sc_nx c)%nat (s mod sc_nx c)%nat b)) by (intros; unfold weight; simpl; ring).
  exact (bigsum_flat (sc_ny c) (sc_nx c) (fun y x => sc_px c y x b)).
Qed.
Lemma mean_2d_masked c k mu : spectral_mean_2d c (Some k) = Some mu -> forall b,
  mu b = bigsum (sc_ny c) (fun y => bigsum (sc_nx c) (fun x => if k y x then 0 else sc_px c y x b))
       / bigsum (sc_ny c) (fun y => bigsum (sc_nx c) (fun x => if k y x then 0 else 1)).
Proof.
  unfold spectral_mean_2d, flatten_mask, spectral_mean. cbn [flatten_image_cube si_m si_px].
  destruct (Nat.eqb _ 0); [discriminate|]. intros [= <-] b. rewrite <- wsum_one.
  rewrite <- (bigsum_flat (sc_ny c) (sc_nx c) (fun y x => if k y x then 0 else sc_px c y x b)).
  rewrite <- (bigsum_flat (sc_ny c) (sc_nx c) (fun y x => if k y x then 0 else 1)).
  unfold Rdiv. f_equal; [|apply f_equal]; apply bigsum_ext; intros s _; unfold weight, keep; destruct (k _ _); simpl; ring.
Qed.
Lemma cov_2d c C : spectral_covariance_2d c None = Some C -> exists mu, spectral_mean_2d c None = Some mu /\ forall i j,
  C i j = bigsum (sc_ny c) (fun y => bigsum (sc_nx c) (fun x => (sc_px c y x i - mu i) * (sc_px c y x j - mu j)))
          / (INR (sc_ny c) * INR (sc_nx c) - 1).
Proof.
  intros H. destruct (cov_inv _ _ _ H) as (mu & Hm & _ & E). exists mu. split; [exact Hm|]. intros i j. rewrite E.
  unfold flatten_mask. rewrite count_none. cbn [flatten_image_cube si_m si_px]. rewrite <- mult_INR. f_equal.
  rewrite <- (bigsum_flat (sc_ny c) (sc_nx c) (fun y x => (sc_px c y x i - mu i) * (sc_px c y x j - mu j))).
  apply bigsum_ext. intros; unfold weight; simpl; ring.
Qed.


Lemma flat_px_fun c y x : (y < sc_ny c)%nat -> (x < sc_nx c)%nat ->
  sc_px c ((y * sc_nx c + x) / sc_nx c)%nat ((y * sc_nx c + x) mod sc_nx c)%nat = sc_px c y x.
Proof. intros Hy Hx. destruct (flat_div (sc_ny c) (sc_nx c) y x Hy Hx) as [-> ->]. reflexivity. Qed.

Lemma sam_2d_pixel c t y x : (y < sc_ny c)%nat -> (x < sc_nx c)%nat -> sam_2d c t y x = sam (pixel_image c y x) t 0.
Proof.
  intros Hy Hx. unfold sam_2d, unflatten_scores. rewrite !sam_eq. cbn [flatten_image_cube pixel_image si_px si_nb].
  f_equal. apply functional_extensionality. intros i. rewrite flat_px_fun by assumption. reflexivity.
Qed.
Lemma ace_demeaned_2d_pixel c t W y x : (y < sc_ny c)%nat -> (x < sc_nx c)%nat ->
  ace_demeaned_2d c t W y x = ace_demeaned (pixel_image c y x) t W 0.
Proof.
  intros Hy Hx. unfold ace_demeaned_2d, unflatten_scores. rewrite !ace_demeaned_eq. cbn [flatten_image_cube pixel_image si_px si_nb].
  f_equal. apply functional_extensionality. intros i. rewrite flat_px_fun by assumption. reflexivity.
Qed.
Lemma rx_2d_pixel inv c mu W : exists sc, rx_anomaly_detector_2d inv c (Some mu) (Some W) = Ok sc /\
  forall y x, (y < sc_ny c)%nat -> (x < sc_nx c)%nat ->
    exists sc1, rx_anomaly_detector inv (pixel_image c y x) (Some mu) (Some W) = Ok sc1 /\ sc y x = sc1 0%nat.
Proof.
  unfold rx_anomaly_detector_2d. rewrite rx_explicit. simpl rmap. eexists. split; [reflexivity|].
  intros y x Hy Hx. rewrite rx_explicit. eexists. split; [reflexivity|]. unfold unflatten_scores.
  cbn [flatten_image_cube pixel_image si_px si_nb].
  replace (fun b => sc_px c ((y * sc_nx c + x) / sc_nx c)%nat ((y * sc_nx c + x) mod sc_nx c)%nat b) with (sc_px c y x); [reflexivity|].
  apply functional_extensionality. intros i. rewrite flat_px_fun by assumption. reflexivity.
Qed.
Lemma ace_2d_pixel inv c t mu W mask : exists sc, ace_2d inv c t (Some mu) (Some W) mask = Ok sc /\
  forall y x, (y < sc_ny c)%nat -> (x < sc_nx c)%nat ->
    exists sc1, ace inv (pixel_image c y x) t (Some mu) (Some W) None = Ok sc1 /\ sc y x = sc1 0%nat.
Proof.
  unfold ace_2d. rewrite ace_explicit. simpl rmap. eexists. split; [reflexivity|].
  intros y x Hy Hx. rewrite ace_explicit. eexists. split; [reflexivity|]. unfold unflatten_scores.
  cbn [flatten_image_cube pixel_image si_px si_nb].
  replace (fun b => sc_px c ((y * sc_nx c + x) / sc_nx c)%nat ((y * sc_nx c + x) mod sc_nx c)%nat b) with (sc_px c y x); [reflexivity|].
  apply functional_extensionality. intros i. rewrite flat_px_fun by assumption. reflexivity.
Qed.
(** default statistics: those of the 2-D image *)
Lemma rx_2d_default inv c sc : rx_anomaly_detector_2d inv c None None = Ok sc -> (2 <= sc_ny c * sc_nx c)%nat ->
  exists mu C W, spectral_mean_2d c None = Some mu /\ spectral_covariance_2d c None = Some C /\ inv C = Some W /\
    rx_anomaly_detector_2d inv c (Some mu) (Some W) = Ok sc.
Proof.
  unfold rx_anomaly_detector_2d. destruct (rx_anomaly_detector inv (flatten_image_cube c) None None) as [s1| |] eqn:E; try discriminate.
  intros H L. destruct (rx_default _ _ _ E) as [_ [(mu & C & W & M & HC & HW & E')|[L' _]]]; [|simpl in L'; lia].
  exists mu, C, W. repeat split; auto. rewrite E'. exact H.
Qed.
Lemma demean_2d c mask d : demean_image_data_2d c mask = Ok (Some d) ->
  exists mu, spectral_mean_2d c mask = Some mu /\ sc_ny d = sc_ny c /\ sc_nx d = sc_nx c /\ sc_nb d = sc_nb c /\
  forall y x b, (y < sc_ny c)%nat -> (x < sc_nx c)%nat -> sc_px d y x b = sc_px c y x b - mu b.
Proof.
  unfold demean_image_data_2d, demean_image_data. fold (spectral_mean_2d c mask). destruct (spectral_mean_2d c mask) as [mu|]; [|discriminate].
  unfold unflatten_image_cube. cbn [flatten_image_cube si_m si_nb]. rewrite Nat.eqb_refl. intros [= <-].
  exists mu. repeat split. cbn [sc_px si_px]. intros y x b Hy Hx. rewrite flat_px_fun by assumption. reflexivity.
Qed.
Lemma demean_2d_total c mask mu : spectral_mean_2d c mask = Some mu -> exists d, demean_image_data_2d c mask = Ok (Some d).
Proof.
  unfold demean_image_data_2d, demean_image_data. fold (spectral_mean_2d c mask). intros ->.
  unfold unflatten_image_cube. cbn [flatten_image_cube si_m si_nb]. rewrite Nat.eqb_refl. eexists. reflexivity.
Qed.

Lemma cov_2d_masked c k C : spectral_covariance_2d c (Some k) = Some C -> exists mu, spectral_mean_2d c (Some k) = Some mu /\ forall i j,
  C i j = bigsum (sc_ny c) (fun y => bigsum (sc_nx c) (fun x => if k y x then 0 else (sc_px c y x i - mu i) * (sc_px c y x j - mu j)))
          / (bigsum (sc_ny c) (fun y => bigsum (sc_nx c) (fun x => if k y x then 0 else 1)) - 1).
Proof.
  intros H. destruct (cov_inv _ _ _ H) as (mu & Hm & _ & E). exists mu. split; [exact Hm|]. intros i j. rewrite E.
  rewrite <- wsum_one. cbn [flatten_image_cube si_m si_px].
  rewrite <- (bigsum_flat (sc_ny c) (sc_nx c) (fun y x => if k y x then 0 else (sc_px c y x i - mu i) * (sc_px c y x j - mu j))).
  rewrite <- (bigsum_flat (sc_ny c) (sc_nx c) (fun y x => if k y x then 0 else 1)).
  unfold flatten_mask, Rdiv. f_equal; [|apply f_equal; apply (f_equal (fun z => z - 1))]; apply bigsum_ext; intros s _; unfold weight, keep; destruct (k _ _); simpl; ring.
Qed.
Lemma ace_2d_default inv c t mask sc : ace_2d inv c t None None mask = Ok sc -> spectral_covariance_2d c mask <> None ->
  exists mu C W, spectral_mean_2d c mask = Some mu /\ spectral_covariance_2d c mask = Some C /\ inv C = Some W /\ ace_2d inv c t (Some mu) (Some W) mask = Ok sc.
Proof.
  unfold ace_2d. destruct (ace inv (flatten_image_cube c) t None None (flatten_mask (sc_nx c) mask)) as [s1| |] eqn:E; try discriminate.
  intros H L. destruct (ace_default _ _ _ _ _ E) as [_ [(mu & C & W & M & HC & HW & E')|(_ & L' & _)]].
  - exists mu, C, W. repeat split; auto. rewrite E'. exact H.
  - exfalso. apply L. unfold spectral_covariance_2d, spectral_covariance. destruct (spectral_mean _ _); [|reflexivity].
    rewrite (proj2 (Nat.leb_le _ _)); [reflexivity|]. rewrite count_kept_length. exact L'.
Qed.

(* ---------------------- C22 ------------------------------------- *)
Lemma pd_psd n A : pd n A -> psd n A.
Proof.
  intros P v. destruct (Rle_lt_dec 0 (dot n v v)) as [_|H]; [|pose proof (dot_self_nonneg n v); lra].
  destruct (Req_dec (dot n v v) 0) as [Z|Z].
  - pose proof (dot_self_zero n v Z) as Y. unfold dot. rewrite (bigsum_ext n _ (fun _ => 0)); [rewrite bigsum_zero; lra|].
    intros i Hi. rewrite (Y i Hi). ring.
  - apply Rlt_le, P, dot_pos. pose proof (dot_self_nonneg n v). lra.
Qed.

Lemma cov_eq_result fpow img1 img2 m1 m2 C1 C2 :
  spectral_covariance img1 m1 = Some C1 -> spectral_covariance img2 m2 = Some C2 ->
  si_nb img2 = si_nb img1 -> si_nb img1 <> 1%nat ->
  is_sqrt (si_nb img1) C2 (fpow C2 (1 / 2)) -> is_inv_sqrt (si_nb img1) C1 (fpow C1 (- (1 / 2))) ->
  exists e C', covariance_equalization_mean_centered fpow img1 img2 m1 m2 = Ok (Some e) /\
    si_m e = si_m img1 /\ si_nb e = si_nb img1 /\
    spectral_covariance e m1 = Some C' /\ meq (si_nb img1) C' C2.
Proof.
  intros H1 H2 Hn N1 [SB BB] [SA AA]. set (n := si_nb img1) in *.
  unfold covariance_equalization_mean_centered, compute_cov_eq_linear_transform_matrix. fold n. rewrite Hn. fold n.
  destruct (Nat.eqb_spec n 1) as [X|_]; [contradiction|]. simpl orb. rewrite H1, H2, Nat.eqb_refl. cbn [orb negb bind].
  set (L := mm n (mm n (fpow C2 (1 / 2)) eye) (fpow C1 (- (1 / 2)))).
  destruct (cov_linear img1 m1 C1 L (fun _ => 0) H1) as (C' & HC' & EC). fold n in HC', EC.
  eexists. exists C'. split; [reflexivity|]. split; [reflexivity|]. split; [reflexivity|]. split.
  - rewrite <- HC'. f_equal. unfold map_pixels. fold n. f_equal. apply functional_extensionality. intros s.
    apply functional_extensionality. intros b. unfold vadd, mv. lra.
  - set (B := fpow C2 (1 / 2)) in *. set (A := fpow C1 (- (1 / 2))) in *.
    apply meq_trans with (mm n (mm n L C1) (trans L)); [intros i j _ _; apply EC|].
    assert (EL : meq n L (mm n B A)) by (apply mm_ext; [apply mm_eye_r|apply meq_refl]).
    assert (ELT : meq n (trans L) (mm n A B)).
    { apply meq_trans with (trans (mm n B A)); [intros i j Hi Hj; apply EL; assumption|]. rewrite trans_mm.
      apply mm_ext; apply meq_sym; assumption. }
    apply meq_trans with (mm n (mm n (mm n B A) C1) (mm n A B)); [apply mm_ext; [apply mm_ext; [exact EL|apply meq_refl]|exact ELT]|].
    (* B A C1 A B = B B = C2 *)
    apply meq_trans with (mm n (mm n B (mm n A C1)) (mm n A B)); [apply mm_ext; [apply mm_assoc|apply meq_refl]|].
    apply meq_trans with (mm n B (mm n (mm n A C1) (mm n A B))); [apply mm_assoc|].
    apply meq_trans with (mm n B (mm n (mm n (mm n A C1) A) B)); [apply mm_ext; [apply meq_refl|apply meq_sym, mm_assoc]|].
    apply meq_trans with (mm n B (mm n eye B)); [apply mm_ext; [apply meq_refl|apply mm_ext; [exact AA|apply meq_refl]]|].
    apply meq_trans with (mm n B B); [apply mm_ext; [apply meq_refl|apply mm_eye_l]|exact BB].
Qed.

Lemma flatten_of_unflatten img nx ny d : si_m img = (ny * nx)%nat -> unflatten_image_cube img nx ny = Ok d -> flatten_image_cube d = img.
Proof.
  intros Hm. unfold unflatten_image_cube. destruct (Nat.eqb _ _); [|discriminate]. intros [= <-]. unfold flatten_image_cube.
  cbn [sc_ny sc_nx sc_nb sc_px]. destruct img as [m nb px]. cbn [si_m si_nb si_px] in *. subst m. f_equal.
  apply functional_extensionality. intros s. apply functional_extensionality. intros b. f_equal.
  rewrite Nat.mul_comm. destruct nx as [|nx]; [reflexivity|]. symmetry. apply Nat.div_mod. discriminate.
Qed.
Lemma cov_eq_2d_result fpow c1 c2 m1 m2 C1 C2 :
  spectral_covariance_2d c1 m1 = Some C1 -> spectral_covariance_2d c2 m2 = Some C2 ->
  sc_nb c2 = sc_nb c1 -> sc_nb c1 <> 1%nat ->
  is_sqrt (sc_nb c1) C2 (fpow C2 (1 / 2)) -> is_inv_sqrt (sc_nb c1) C1 (fpow C1 (- (1 / 2))) ->
  exists e C', covariance_equalization_mean_centered_2d fpow c1 c2 m1 m2 = Ok (Some e) /\
    sc_ny e = sc_ny c1 /\ sc_nx e = sc_nx c1 /\ sc_nb e = sc_nb c1 /\
    spectral_covariance_2d e m1 = Some C' /\ meq (sc_nb c1) C' C2.
Proof.
  intros H1 H2 Hn N S1 S2. destruct (cov_eq_result fpow _ _ _ _ _ _ H1 H2 Hn N S1 S2) as (e & C' & E & Em & En & EC & EQ).
  unfold covariance_equalization_mean_centered_2d. rewrite E. cbn [bind]. cbn [flatten_image_cube si_m si_nb] in Em, En.
  assert (U : exists d, unflatten_image_cube e (sc_nx c1) (sc_ny c1) = Ok d /\ sc_ny d = sc_ny c1 /\ sc_nx d = sc_nx c1 /\ sc_nb d = si_nb e).
  { unfold unflatten_image_cube. rewrite Em, Nat.eqb_refl. eexists. repeat split. }
  destruct U as (d & U & D1 & D2 & D3). exists d, C'. rewrite U. cbn [rmap]. repeat split; auto; [congruence|].
  unfold spectral_covariance_2d. rewrite D2, (flatten_of_unflatten e _ _ d Em U). exact EC.
Qed.
(** The 2-D equalisation of each pixel is the transform matrix applied to it *)
Lemma cov_eq_2d_pixels fpow c1 c2 m1 m2 e : covariance_equalization_mean_centered_2d fpow c1 c2 m1 m2 = Ok (Some e) ->
  exists L, compute_cov_eq_linear_transform_matrix fpow (flatten_image_cube c1) (flatten_image_cube c2)
     (flatten_mask (sc_nx c1) m1) (flatten_mask (sc_nx c2) m2) = Ok (Some L) /\
  forall y x b, (y < sc_ny c1)%nat -> (x < sc_nx c1)%nat -> sc_px e y x b = bigsum (sc_nb c1) (fun j => L b j * sc_px c1 y x j).
Proof.
  unfold covariance_equalization_mean_centered_2d, covariance_equalization_mean_centered.
  destruct (compute_cov_eq_linear_transform_matrix _ _ _ _ _) as [[L|]| |]; cbn [bind]; try discriminate.
  unfold unflatten_image_cube. cbn [si_m si_nb si_px flatten_image_cube]. rewrite Nat.eqb_refl. intros [= <-]. exists L. split; [reflexivity|].
  intros y x b Hy Hx. cbn [sc_px si_px]. apply bigsum_ext. intros j _. rewrite flat_px_fun by assumption. reflexivity.
Qed.

Lemma cov_eq_mean_zero fpow img1 img2 m1 m2 e mu :
  covariance_equalization_mean_centered fpow img1 img2 m1 m2 = Ok (Some e) ->
  spectral_mean img1 m1 = Some mu -> veq (si_nb img1) mu (fun _ => 0) ->
  exists mu', spectral_mean e m1 = Some mu' /\ veq (si_nb img1) mu' (fun _ => 0).
Proof.
  unfold covariance_equalization_mean_centered.
  destruct (compute_cov_eq_linear_transform_matrix _ _ _ _ _) as [[L|]| |]; simpl; try discriminate.
  intros [= <-] M Z. eexists. split.
  - rewrite <- (mean_affine img1 m1 mu L (fun _ => 0) M). f_equal. unfold map_pixels. f_equal.
    apply functional_extensionality. intros s. apply functional_extensionality. intros b. unfold vadd, mv. lra.
  - intros i Hi. unfold vadd, mv. rewrite (bigsum_ext _ _ (fun _ => 0)); [rewrite bigsum_zero; lra|].
    intros j Hj. rewrite Z by exact Hj. ring.
Qed.
