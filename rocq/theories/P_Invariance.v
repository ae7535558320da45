(** Proofs for C105. *)
From Coq Require Import Permutation FunctionalExtensionality.
From Verif Require Import M_Spectral Spec_Spectral P_Spectral Spec_Invariance.
Open Scope R_scope.

Lemma rsum_perm l l' : Permutation l l' -> rsum l = rsum l'.
Proof. induction 1; simpl; lra. Qed.
Lemma reordering_perm m p : reordering m p -> Permutation (map p (seq 0 m)) (seq 0 m).
Proof.
  intros [H1 H2]. apply NoDup_Permutation_bis.
  - assert (X : forall l, NoDup l -> (forall s, In s l -> (s < m)%nat) -> NoDup (map p l)).
    { induction 1 as [|a l Ha Hl IH]; intros B; [constructor|]. cbn [map]. constructor.
      - intros I. apply in_map_iff in I. destruct I as (b & E & I). apply Ha. rewrite (H2 a b); auto; [apply B; left; reflexivity|apply B; right; exact I].
      - apply IH. intros s I. apply B. right; exact I. }
    apply X; [apply seq_NoDup|]. intros s I. apply in_seq in I. lia.
  - rewrite map_length. lia.
  - intros s I. apply in_map_iff in I. destruct I as (b & <- & I). apply in_seq in I. apply in_seq. specialize (H1 b). lia.
Qed.
Lemma bigsum_reorder m p f : reordering m p -> bigsum m (fun s => f (p s)) = bigsum m f.
Proof.
  intros H. unfold bigsum. rewrite <- (map_map p f). apply rsum_perm. apply Permutation_map. apply reordering_perm; exact H.
Qed.
Lemma weight_reorder p mask s : weight (reordered_mask p mask) s = weight mask (p s).
Proof. destruct mask; reflexivity. Qed.
Lemma count_reorder m p mask : reordering m p -> count_kept (reordered_mask p mask) m = count_kept mask m.
Proof.
  intros H. apply INR_eq. rewrite <- !wsum_one. rewrite <- (bigsum_reorder m p (fun s => weight mask s) H).
  apply bigsum_ext. intros; apply weight_reorder.
Qed.
Lemma mean_reorder p img mask : reordering (si_m img) p ->
  spectral_mean (reordered p img) (reordered_mask p mask) = spectral_mean img mask.
Proof.
  intros H. unfold spectral_mean. cbn [reordered si_m si_px]. rewrite count_reorder by exact H.
  destruct (Nat.eqb _ 0); [reflexivity|]. f_equal. apply functional_extensionality. intros b. f_equal.
  rewrite <- (bigsum_reorder _ p (fun s => weight mask s * si_px img s b) H). apply bigsum_ext. intros. rewrite weight_reorder. reflexivity.
Qed.
Lemma cov_reorder p img mask : reordering (si_m img) p ->
  spectral_covariance (reordered p img) (reordered_mask p mask) = spectral_covariance img mask.
Proof.
  intros H. unfold spectral_covariance. rewrite mean_reorder by exact H. cbn [reordered si_m si_px]. rewrite count_reorder by exact H.
  destruct (spectral_mean img mask) as [mu|]; [|reflexivity]. destruct (Nat.leb _ 1); [reflexivity|]. f_equal.
  apply functional_extensionality. intros i. apply functional_extensionality. intros j. f_equal.
  rewrite <- (bigsum_reorder _ p (fun s => weight mask s * ((si_px img s i - mu i) * (si_px img s j - mu j))) H).
  apply bigsum_ext. intros. rewrite weight_reorder. reflexivity.
Qed.
Lemma masked_reorder p mask : is_masked (reordered_mask p mask) = is_masked mask.
Proof. destruct mask; reflexivity. Qed.
Lemma rx_reorder inv p img mean W : reordering (si_m img) p ->
  rx_anomaly_detector inv (reordered p img) mean W = rmap (fun sc s => sc (p s)) (rx_anomaly_detector inv img mean W).
Proof.
  intros H. unfold rx_anomaly_detector.
  rewrite (mean_reorder p img None H : spectral_mean (reordered p img) None = _).
  rewrite (cov_reorder p img None H : spectral_covariance (reordered p img) None = _).
  cbn [reordered si_nb]. destruct W as [W|]; cbn [bind].
  - destruct mean; [|destruct (spectral_mean img None)]; reflexivity.
  - destruct (inv_covariance _ _ _ _) as [[W|]| |]; cbn [bind]; try reflexivity;
      (destruct mean; [|destruct (spectral_mean img None)]; reflexivity).
Qed.
Lemma ace_reorder inv p img t mean W mask : reordering (si_m img) p ->
  ace inv (reordered p img) t mean W (reordered_mask p mask) = rmap (fun sc s => sc (p s)) (ace inv img t mean W mask).
Proof.
  intros H. unfold ace. rewrite mean_reorder, cov_reorder, masked_reorder by exact H.
  cbn [reordered si_nb]. destruct W as [W|]; cbn [bind].
  - destruct mean; [|destruct (spectral_mean img mask)]; reflexivity.
  - destruct (inv_covariance _ _ _ _) as [[W|]| |]; cbn [bind]; try reflexivity;
      (destruct mean; [|destruct (spectral_mean img mask)]; reflexivity).
Qed.

(** ------------ change of the bands, change of the scale of the covariance ------------ *)
Definition mscale (k : R) (A : mat) : mat := fun i j => k * A i j.
Lemma mm_scale_l n k A B : mm n (mscale k A) B = mscale k (mm n A B).
Proof.
  apply functional_extensionality. intros i. apply functional_extensionality. intros j. unfold mm, mscale.
  rewrite <- bigsum_scal. apply bigsum_ext. intros; ring.
Qed.
Lemma mm_scale_r n k A B : mm n A (mscale k B) = mscale k (mm n A B).
Proof.
  apply functional_extensionality. intros i. apply functional_extensionality. intros j. unfold mm, mscale.
  rewrite <- bigsum_scal. apply bigsum_ext. intros; ring.
Qed.
Lemma eye_trans : trans eye = eye.
Proof.
  apply functional_extensionality. intros i. apply functional_extensionality. intros j. unfold trans, eye.
  rewrite Nat.eqb_sym. reflexivity.
Qed.
Lemma meq_tr n A B : meq n A B -> meq n (trans A) (trans B).
Proof. intros H i j Hi Hj. unfold trans. auto. Qed.
(** cancelling an adjacent pair *)
Lemma cancel n A X Y B : meq n (mm n X Y) eye -> meq n (mm n (mm n A X) (mm n Y B)) (mm n A B).
Proof.
  intros H. eapply meq_trans; [apply mm_assoc|]. apply mm_ext; [apply meq_refl|].
  eapply meq_trans; [apply meq_sym, mm_assoc|]. eapply meq_trans; [apply mm_ext; [exact H|apply meq_refl]|apply mm_eye_l].
Qed.
Lemma inverse_mm n A Ai B Bi : is_inverse n A Ai -> is_inverse n B Bi -> is_inverse n (mm n A B) (mm n Bi Ai).
Proof.
  intros [A1 A2] [B1 B2]. split.
  - eapply meq_trans; [apply cancel; exact B1|exact A1].
  - eapply meq_trans; [apply cancel; exact A2|exact B2].
Qed.
Lemma inverse_trans n A Ai : is_inverse n A Ai -> is_inverse n (trans A) (trans Ai).
Proof.
  intros [A1 A2]. split; rewrite <- trans_mm; rewrite <- eye_trans; apply meq_tr; assumption.
Qed.
Lemma inverse_scale n A Ai k : k <> 0 -> is_inverse n A Ai -> is_inverse n (mscale k A) (mscale (/ k) Ai).
Proof.
  intros K [A1 A2]. split; rewrite mm_scale_l, mm_scale_r; intros i j Hi Hj; unfold mscale.
  - rewrite (A1 i j Hi Hj). rewrite <- Rmult_assoc, Rinv_r by exact K. ring.
  - rewrite (A2 i j Hi Hj). rewrite <- Rmult_assoc, Rinv_l by exact K. ring.
Qed.
Lemma inverse_ext n A B W : meq n A B -> is_inverse n A W -> is_inverse n B W.
Proof.
  intros H [H1 H2]. split.
  - eapply meq_trans; [apply mm_ext; [apply meq_sym; exact H|apply meq_refl]|exact H1].
  - eapply meq_trans; [apply mm_ext; [apply meq_refl|apply meq_sym; exact H]|exact H2].
Qed.
Lemma inverse_of n C W C' A Ai k : k <> 0 -> is_inverse n C W -> is_inverse n A Ai ->
  meq n C' (mscale k (mm n (mm n A C) (trans A))) -> exists W', is_inverse n C' W'.
Proof.
  intros K HC HA E. exists (mscale (/ k) (mm n (trans Ai) (mm n W Ai))).
  eapply inverse_ext; [apply meq_sym; exact E|]. apply inverse_scale; [exact K|].
  apply inverse_mm; [apply inverse_mm; assumption|apply inverse_trans; exact HA].
Qed.
Lemma form_of n C W C' W' A Ai k u v : k <> 0 -> is_inverse n C W -> is_inverse n C' W' -> is_inverse n A Ai ->
  meq n C' (mscale k (mm n (mm n A C) (trans A))) ->
  dot n (mv n A u) (mv n W' (mv n A v)) = / k * dot n u (mv n W v).
Proof.
  intros K IC IC' [HA1 HA2] E. set (z := mv n W' (mv n A v)).
  assert (Z1 : veq n (mv n C' z) (mv n A v)) by (apply inverse_apply; exact IC').
  assert (Z2 : veq n (mv n A (mv n C (mv n (trans A) (vscale k z)))) (mv n A v)).
  { eapply veq_trans; [|exact Z1]. apply veq_sym.
    eapply veq_trans; [apply mv_ext; [exact E|apply veq_refl]|].
    rewrite !mv_scale. intros i Hi. unfold vscale.
    transitivity (k * mv n (mm n (mm n A C) (trans A)) z i).
    { unfold mv, mscale. rewrite <- bigsum_scal. apply bigsum_ext. intros; ring. }
    f_equal. rewrite (mv_mm n (mm n A C) (trans A) z i Hi). apply mv_mm. exact Hi. }
  assert (Z3 : veq n (mv n C (mv n (trans A) (vscale k z))) v).
  { assert (X : forall v, veq n (mv n Ai (mv n A v)) v).
    { intros w. eapply veq_trans; [apply veq_sym, mv_mm|]. eapply veq_trans; [apply mv_ext; [exact HA2|apply veq_refl]|apply mv_eye]. }
    eapply veq_trans; [apply veq_sym, X|]. eapply veq_trans; [apply mv_ext; [apply meq_refl|exact Z2]|apply X]. }
  assert (Z4 : veq n (mv n (trans A) (vscale k z)) (mv n W v)) by (apply (inverse_solve n C W); assumption).
  rewrite (dot_comm n (mv n A u) z), (dot_mv_trans n A z u), (dot_comm n (mv n (trans A) z) u).
  rewrite <- (dot_ext n u u _ _ (veq_refl n u) Z4). rewrite mv_scale, dot_scale_r. field. exact K.
Qed.
Lemma ace_value_of n C W C' W' A Ai k t x : k <> 0 -> is_inverse n C W -> is_inverse n C' W' -> is_inverse n A Ai ->
  meq n C' (mscale k (mm n (mm n A C) (trans A))) ->
  ace_value n W' (mv n A t) (mv n A x) = ace_value n W t x.
Proof.
  intros K IC IC' IA E. unfold ace_value. rewrite !(form_of n C W C' W' A Ai k _ _ K IC IC' IA E).
  set (a := dot n t (mv n W t)). set (b := dot n x (mv n W x)). set (u := dot n t (mv n W x)).
  assert (KI : / k <> 0) by (apply Rinv_neq_0_compat; exact K).
  unfold fdiv. destruct (Reqb_spec (a * b) 0) as [Z|Z].
  - rewrite Reqb_true; [reflexivity|]. replace (/ k * a * (/ k * b)) with (/ k * / k * (a * b)) by ring. rewrite Z. ring.
  - assert (a <> 0) by (intros Y; apply Z; rewrite Y; ring). assert (b <> 0) by (intros Y; apply Z; rewrite Y; ring).
    rewrite Reqb_false; [f_equal; field; auto|]. repeat (apply Rmult_integral_contrapositive_currified; auto).
Qed.
Lemma vsub_affine n A x mu t : veq n (vsub (vadd (mv n A x) t) (vadd (mv n A mu) t)) (mv n A (vsub x mu)).
Proof.
  intros i _. unfold vsub, vadd, mv.
  rewrite (bigsum_ext n (fun j => A i j * (x j - mu j)) (fun j => A i j * x j - A i j * mu j)) by (intros; ring).
  rewrite bigsum_minus. ring.
Qed.
Lemma inv_sound n inv : inv_exact n inv -> inv_contract n inv.
Proof. intros H A W E. specialize (H A). rewrite E in H. exact H. Qed.
Lemma inv_full n inv C : inv_exact n inv -> (exists W, is_inverse n C W) -> exists W, inv C = Some W /\ is_inverse n C W.
Proof. intros H X. specialize (H C). destruct (inv C) as [W|]; [exists W; auto|contradiction]. Qed.

Lemma ace_default_intro inv img t mask mu C W : si_nb img <> 1%nat -> spectral_mean img mask = Some mu ->
  spectral_covariance img mask = Some C -> inv C = Some W ->
  ace inv img t None None mask = ace inv img t (Some mu) (Some W) mask.
Proof.
  intros N M HC HW. unfold ace, inv_covariance. destruct (Nat.eqb_spec (si_nb img) 1) as [|_]; [contradiction|].
  rewrite M, HC, HW. reflexivity.
Qed.
Lemma rx_default_intro inv img mu C W : si_nb img <> 1%nat -> spectral_mean img None = Some mu ->
  spectral_covariance img None = Some C -> inv C = Some W ->
  rx_anomaly_detector inv img None None = rx_anomaly_detector inv img (Some mu) (Some W).
Proof.
  intros N M HC HW. unfold rx_anomaly_detector, inv_covariance. destruct (Nat.eqb_spec (si_nb img) 1) as [|_]; [contradiction|].
  rewrite M, HC, HW. reflexivity.
Qed.
Lemma mscale_1 A : mscale 1 A = A.
Proof. apply functional_extensionality. intros i. apply functional_extensionality. intros j. unfold mscale. ring. Qed.

Lemma ace_affine inv img A Ai b t mask sc :
  inv_exact (si_nb img) inv -> is_inverse (si_nb img) A Ai ->
  (2 <= length (kept mask (si_m img)))%nat ->
  ace inv img t None None mask = Ok sc ->
  exists sc', ace inv (map_pixels (fun x => vadd (mv (si_nb img) A x) b) img) (vadd (mv (si_nb img) A t) b) None None mask = Ok sc' /\
  forall s, sc' s = sc s.
Proof.
  intros Hi HA L H. set (n := si_nb img) in *.
  destruct (ace_default _ _ _ _ _ H) as [N [(mu & C & W & M & HC & HW & E)|(_ & L' & _)]]; [|lia].
  rewrite ace_explicit in E. injection E as <-.
  pose proof (mean_affine img mask mu A b M) as M'. fold n in M'.
  destruct (cov_linear img mask C A b HC) as (C' & HC' & EC). fold n in HC', EC.
  assert (IC : is_inverse n C W) by (apply (inv_sound n inv Hi); exact HW).
  assert (EC' : meq n C' (mscale 1 (mm n (mm n A C) (trans A)))) by (rewrite mscale_1; intros i j _ _; apply EC).
  destruct (inv_full n inv C' Hi (inverse_of n C W C' A Ai 1 R1_neq_R0 IC HA EC')) as (W' & HW' & IC').
  eexists. split.
  - erewrite ace_default_intro; [apply ace_explicit|exact N|exact M'|exact HC'|exact HW'].
  - intros s. cbn [map_pixels si_nb si_px]. fold n.
    rewrite (ace_value_ext n W' _ _ _ _ (vsub_affine n A t mu b) (vsub_affine n A (si_px img s) mu b)).
    exact (ace_value_of n C W C' W' A Ai 1 _ _ R1_neq_R0 IC IC' HA EC').
Qed.

(** ------------ repeated pixels ------------ *)
Lemma bigsum_repeat r m f : bigsum (r * m) (fun s => f (s mod m)%nat) = INR r * bigsum m f.
Proof.
  induction r as [|r IH]; [simpl; rewrite bigsum_0; lra|].
  replace (S r * m)%nat with (r * m + m)%nat by lia. rewrite bigsum_shift, IH, S_INR.
  rewrite (bigsum_ext m (fun i => f ((r * m + i) mod m)%nat) f); [lra|].
  intros i Hi. f_equal. rewrite Nat.add_comm, Nat.mod_add by lia. apply Nat.mod_small; exact Hi.
Qed.
Lemma weight_repeat m mask s : weight (repeated_mask m mask) s = weight mask (s mod m)%nat.
Proof. destruct mask; reflexivity. Qed.
Lemma count_repeat r m mask : count_kept (repeated_mask m mask) (r * m) = (r * count_kept mask m)%nat.
Proof.
  apply INR_eq. rewrite mult_INR, <- !wsum_one, <- bigsum_repeat. apply bigsum_ext. intros; apply weight_repeat.
Qed.
Lemma mean_repeat r img mask : (1 <= r)%nat ->
  spectral_mean (repeated r img) (repeated_mask (si_m img) mask) = spectral_mean img mask.
Proof.
  intros Hr. unfold spectral_mean. cbn [repeated si_m si_px]. rewrite count_repeat.
  destruct (Nat.eqb_spec (count_kept mask (si_m img)) 0) as [Z|Z].
  - rewrite Z, Nat.mul_0_r. reflexivity.
  - destruct (Nat.eqb_spec (r * count_kept mask (si_m img)) 0) as [Z'|_]; [apply Nat.eq_mul_0 in Z'; lia|].
    f_equal. apply functional_extensionality. intros b.
    rewrite (bigsum_ext _ _ (fun s => (fun q => weight mask q * si_px img q b) (s mod si_m img)%nat)).
    2:{ intros. rewrite weight_repeat. reflexivity. }
    rewrite (bigsum_repeat r (si_m img) (fun q => weight mask q * si_px img q b)), mult_INR. field. split; [apply not_0_INR; exact Z|apply not_0_INR; lia].
Qed.
Definition repeat_factor (r c : nat) : R := INR r * (INR c - 1) / (INR r * INR c - 1).
Lemma cov_repeat r img mask C : (1 <= r)%nat ->
  spectral_covariance img mask = Some C ->
  exists C', spectral_covariance (repeated r img) (repeated_mask (si_m img) mask) = Some C' /\
  C' = mscale (repeat_factor r (length (kept mask (si_m img)))) C.
Proof.
  intros Hr H. destruct (cov_inv _ _ _ H) as (mu & Hm & Hc & E). rewrite <- count_kept_length. eexists. split; [|reflexivity].
  set (c := count_kept mask (si_m img)) in *.
  assert (R1' : 1 <= INR r) by (apply (le_INR 1); exact Hr).
  assert (C1 : 1 < INR c) by (apply (lt_INR 1); exact Hc).
  assert (P : 0 < INR r * INR c - 1) by nra.
  apply (cov_intro (repeated r img) (repeated_mask (si_m img) mask) mu).
  - rewrite mean_repeat by exact Hr. exact Hm.
  - cbn [repeated si_m]. rewrite count_repeat. fold c. nia.
  - intros i j. cbn [repeated si_m si_px]. rewrite count_repeat. fold c.
    rewrite (bigsum_ext _ _ (fun s => (fun q => weight mask q * ((si_px img q i - mu i) * (si_px img q j - mu j))) (s mod si_m img)%nat)).
    2:{ intros. rewrite weight_repeat. reflexivity. }
    rewrite (bigsum_repeat r (si_m img) (fun q => weight mask q * ((si_px img q i - mu i) * (si_px img q j - mu j)))), mult_INR. unfold mscale, repeat_factor. rewrite E.
    fold c. set (B := bigsum _ _). field. split; lra.
Qed.
Lemma repeat_factor_pos r c : (1 <= r)%nat -> (2 <= c)%nat -> 0 < repeat_factor r c.
Proof.
  intros Hr Hc. assert (R1' : 1 <= INR r) by (apply (le_INR 1); exact Hr).
  assert (C1 : 2 <= INR c) by (replace 2 with (INR 2) by (simpl; lra); apply le_INR; exact Hc).
  unfold repeat_factor. apply Rdiv_lt_0_compat; nra.
Qed.
Lemma eye_inverse n : is_inverse n eye eye.
Proof. split; apply mm_eye_l. Qed.
Lemma repeat_meq n k C : meq n (mscale k C) (mscale k (mm n (mm n eye C) (trans eye))).
Proof.
  intros i j Hi Hj. unfold mscale. f_equal. rewrite eye_trans. rewrite (mm_eye_r n (mm n eye C) i j Hi Hj), (mm_eye_l n C i j Hi Hj). reflexivity.
Qed.
Lemma ace_repeat inv r img t mask sc : (1 <= r)%nat ->
  inv_exact (si_nb img) inv -> (2 <= length (kept mask (si_m img)))%nat ->
  ace inv img t None None mask = Ok sc ->
  exists sc', ace inv (repeated r img) t None None (repeated_mask (si_m img) mask) = Ok sc' /\
  forall s, sc' s = sc (s mod si_m img)%nat.
Proof.
  intros Hr Hi L H. set (n := si_nb img) in *.
  destruct (ace_default _ _ _ _ _ H) as [N [(mu & C & W & M & HC & HW & E)|(_ & L' & _)]]; [|lia].
  rewrite ace_explicit in E. injection E as <-.
  pose proof (mean_repeat r img mask Hr) as M'. rewrite M in M'.
  destruct (cov_repeat r img mask C Hr HC) as (C' & HC' & EC).
  set (k := repeat_factor r (length (kept mask (si_m img)))) in *.
  assert (K : k <> 0) by (apply Rgt_not_eq, repeat_factor_pos; assumption).
  assert (IC : is_inverse n C W) by (apply (inv_sound n inv Hi); exact HW).
  assert (EC' : meq n C' (mscale k (mm n (mm n eye C) (trans eye)))) by (rewrite EC; apply repeat_meq).
  destruct (inv_full n inv C' Hi (inverse_of n C W C' eye eye k K IC (eye_inverse n) EC')) as (W' & HW' & IC').
  eexists. split.
  - erewrite ace_default_intro; [apply ace_explicit|exact N|exact M'|exact HC'|exact HW'].
  - intros s. cbn [repeated si_nb si_px]. fold n.
    rewrite <- (ace_value_of n C W C' W' eye eye k _ _ K IC IC' (eye_inverse n) EC').
    apply ace_value_ext; apply veq_sym, mv_eye.
Qed.
Lemma rx_repeat inv r img sc : (1 <= r)%nat ->
  inv_exact (si_nb img) inv -> (2 <= si_m img)%nat ->
  rx_anomaly_detector inv img None None = Ok sc ->
  exists sc', rx_anomaly_detector inv (repeated r img) None None = Ok sc' /\
  forall s, sc' s = fmap (fun x => x * (INR r * INR (si_m img) - 1) / (INR r * (INR (si_m img) - 1))) (sc (s mod si_m img)%nat).
Proof.
  intros Hr Hi L H. set (n := si_nb img) in *.
  destruct (rx_default _ _ _ H) as [N [(mu & C & W & M & HC & HW & E)|[L' _]]]; [|lia].
  rewrite rx_explicit in E. injection E as <-.
  pose proof (mean_repeat r img None Hr) as M'. rewrite M in M'. cbn [repeated_mask] in M'.
  destruct (cov_repeat r img None C Hr HC) as (C' & HC' & EC). cbn [repeated_mask] in HC'.
  rewrite <- count_kept_length, count_none in EC.
  set (k := repeat_factor r (si_m img)) in *.
  assert (K : k <> 0) by (apply Rgt_not_eq, repeat_factor_pos; assumption).
  assert (IC : is_inverse n C W) by (apply (inv_sound n inv Hi); exact HW).
  assert (EC' : meq n C' (mscale k (mm n (mm n eye C) (trans eye)))) by (rewrite EC; apply repeat_meq).
  destruct (inv_full n inv C' Hi (inverse_of n C W C' eye eye k K IC (eye_inverse n) EC')) as (W' & HW' & IC').
  eexists. split.
  - erewrite rx_default_intro; [apply rx_explicit|exact N|exact M'|exact HC'|exact HW'].
  - intros s. cbn [repeated si_nb si_px fmap]. fold n. f_equal. set (d := vsub (si_px img (s mod si_m img)%nat) mu).
    transitivity (/ k * dot n d (mv n W d)).
    + rewrite <- (form_of n C W C' W' eye eye k d d K IC IC' (eye_inverse n) EC').
      apply dot_ext; [apply veq_sym, mv_eye|]. apply mv_ext; [apply meq_refl|apply veq_sym, mv_eye].
    + unfold k, repeat_factor.
      assert (R1' : 1 <= INR r) by (apply (le_INR 1); exact Hr).
      assert (C1 : 2 <= INR (si_m img)) by (replace 2 with (INR 2) by (simpl; lra); apply le_INR; exact L).
      field. repeat split; nra.
Qed.

(** ------------ SAM ------------ *)
Lemma dot_orthogonal n A u v : orthogonal n A -> dot n (mv n A u) (mv n A v) = dot n u v.
Proof.
  intros H. rewrite dot_mv_trans. rewrite (dot_comm n _ v). rewrite (dot_comm n u v). apply dot_ext; [apply veq_refl|].
  eapply veq_trans; [apply veq_sym, mv_mm|]. eapply veq_trans; [apply mv_ext; [exact H|apply veq_refl]|apply mv_eye].
Qed.

(** ------------ cubes ------------ *)
Lemma rearranged_reordering f c c' : rearranged f c c' ->
  let p := fun s => let q := f (s / sc_nx c')%nat (s mod sc_nx c')%nat in (fst q * sc_nx c + snd q)%nat in
  reordering (si_m (flatten_image_cube c')) p.
Proof.
  intros (Hb & Hs & Hp & Hi) p. cbn [flatten_image_cube si_m].
  assert (P : forall s, (s < sc_ny c' * sc_nx c')%nat -> (s / sc_nx c' < sc_ny c')%nat /\ (s mod sc_nx c' < sc_nx c')%nat).
  { intros s L. split; [apply Nat.div_lt_upper_bound; nia|apply Nat.mod_upper_bound; nia]. }
  split.
  - intros s L. destruct (P s L) as [A1 A2]. destruct (Hp _ _ A1 A2) as (B1 & B2 & _). unfold p. rewrite Hs. nia.
  - intros s s' L L' E. destruct (P s L) as [A1 A2]. destruct (P s' L') as [A1' A2'].
    destruct (Hp _ _ A1 A2) as (B1 & B2 & _). destruct (Hp _ _ A1' A2') as (B1' & B2' & _). unfold p in E.
    pose proof (flat_div (sc_ny c) (sc_nx c) _ _ B1 B2) as [D1 D2]. pose proof (flat_div (sc_ny c) (sc_nx c) _ _ B1' B2') as [D1' D2'].
    rewrite E in D1, D2. rewrite D1 in D1'. rewrite D2 in D2'.
    destruct (Hi _ _ _ _ A1 A2 A1' A2') as [Q1 Q2].
    { rewrite (surjective_pairing (f (s / sc_nx c')%nat _)), D1', D2'. symmetry. apply surjective_pairing. }
    rewrite (Nat.div_mod s (sc_nx c')), (Nat.div_mod s' (sc_nx c')) by lia. rewrite Q1, Q2. reflexivity.
Qed.
Definition alike (a b : simg) (ma mb : option (nat -> bool)) : Prop :=
  si_m a = si_m b /\ si_nb a = si_nb b /\ is_masked ma = is_masked mb /\
  forall s, (s < si_m a)%nat -> keep ma s = keep mb s /\ si_px a s = si_px b s.
Lemma count_alike m ma mb : (forall s, (s < m)%nat -> keep ma s = keep mb s) -> count_kept ma m = count_kept mb m.
Proof. induction m as [|m IH]; intros H; [reflexivity|]. cbn [count_kept]. rewrite IH, (H m) by auto. reflexivity. Qed.
Lemma mean_alike a b ma mb : alike a b ma mb -> spectral_mean a ma = spectral_mean b mb.
Proof.
  intros (Hm & _ & _ & H). unfold spectral_mean. rewrite <- Hm.
  rewrite (count_alike (si_m a) ma mb) by (intros; apply H; assumption).
  destruct (Nat.eqb _ 0); [reflexivity|]. f_equal. apply functional_extensionality. intros i. f_equal. apply bigsum_ext.
  intros s Hs. destruct (H s Hs) as [K P]. unfold weight. rewrite K, P. reflexivity.
Qed.
Lemma cov_alike a b ma mb : alike a b ma mb -> spectral_covariance a ma = spectral_covariance b mb.
Proof.
  intros A. unfold spectral_covariance. rewrite (mean_alike a b ma mb A). destruct A as (Hm & _ & _ & H). rewrite <- Hm.
  rewrite (count_alike (si_m a) ma mb) by (intros; apply H; assumption).
  destruct (spectral_mean b mb) as [mu|]; [|reflexivity]. destruct (Nat.leb _ 1); [reflexivity|]. f_equal.
  apply functional_extensionality. intros i. apply functional_extensionality. intros j. f_equal. apply bigsum_ext.
  intros s Hs. destruct (H s Hs) as [K P]. unfold weight. rewrite K, P. reflexivity.
Qed.
Definition alike_scores (m : nat) (r r' : result (nat -> flt)) : Prop :=
  match r, r' with
  | Ok sc, Ok sc' => forall s, (s < m)%nat -> sc' s = sc s
  | Err e, Err e' => e = e'
  | _, _ => False
  end.
Lemma inv_covariance_cases inv nb mk C :
  (exists W, inv_covariance inv nb mk C = Ok W) \/ inv_covariance inv nb mk C = Err OtherError.
Proof.
  unfold inv_covariance. destruct (Nat.eqb nb 1); [right; reflexivity|]. destruct C as [C|]; [destruct (inv C)|destruct mk]; eauto.
Qed.
Lemma ace_alike inv a b t mean W ma mb : alike a b ma mb -> alike_scores (si_m a) (ace inv a t mean W ma) (ace inv b t mean W mb).
Proof.
  intros A. unfold ace. rewrite (mean_alike a b ma mb A), (cov_alike a b ma mb A). destruct A as (Hm & Hn & Hk & H). rewrite Hn, Hk.
  assert (X : forall mu W, alike_scores (si_m a)
    (match mu, W with Some mu, Some W => Ok (fun s => ace_value (si_nb b) W (vsub t mu) (vsub (si_px a s) mu)) | _, _ => Ok (fun _ => NonFinite) end)
    (match mu, W with Some mu, Some W => Ok (fun s => ace_value (si_nb b) W (vsub t mu) (vsub (si_px b s) mu)) | _, _ => Ok (fun _ => NonFinite) end)).
  { intros [mu|] [V|]; cbn [alike_scores]; intros s Hs; try reflexivity. destruct (H s Hs) as [_ ->]. reflexivity. }
  destruct W as [W|]; cbn [bind]; [exact (X (match mean with Some v => Some v | None => spectral_mean b mb end) (Some W))|].
  destruct (inv_covariance_cases inv (si_nb b) (is_masked mb) (spectral_covariance b mb)) as [[V ->]| ->]; cbn [bind];
    [exact (X (match mean with Some v => Some v | None => spectral_mean b mb end) V)|reflexivity].
Qed.
Lemma rx_alike inv a b mean W : alike a b None None -> alike_scores (si_m a) (rx_anomaly_detector inv a mean W) (rx_anomaly_detector inv b mean W).
Proof.
  intros A. unfold rx_anomaly_detector. rewrite (mean_alike a b None None A), (cov_alike a b None None A). destruct A as (Hm & Hn & Hk & H). rewrite Hn.
  assert (X : forall mu W, alike_scores (si_m a)
    (match mu, W with Some mu, Some W => Ok (fun s => Fin (dot (si_nb b) (vsub (si_px a s) mu) (mv (si_nb b) W (vsub (si_px a s) mu)))) | _, _ => Ok (fun _ => NonFinite) end)
    (match mu, W with Some mu, Some W => Ok (fun s => Fin (dot (si_nb b) (vsub (si_px b s) mu) (mv (si_nb b) W (vsub (si_px b s) mu)))) | _, _ => Ok (fun _ => NonFinite) end)).
  { intros [mu|] [V|]; cbn [alike_scores]; intros s Hs; try reflexivity. destruct (H s Hs) as [_ ->]. reflexivity. }
  destruct W as [W|]; cbn [bind]; [exact (X (match mean with Some v => Some v | None => spectral_mean b None end) (Some W))|].
  destruct (inv_covariance_cases inv (si_nb b) false (spectral_covariance b None)) as [[V ->]| ->]; cbn [bind];
    [exact (X (match mean with Some v => Some v | None => spectral_mean b None end) V)|reflexivity].
Qed.

Section cubes.
  Context (f : nat -> nat -> nat * nat) (c c' : scube) (HR : rearranged f c c').
  Let p := fun s => let q := f (s / sc_nx c')%nat (s mod sc_nx c')%nat in (fst q * sc_nx c + snd q)%nat.
  Lemma rearranged_alike k k' : rearranged_mask f c' k k' ->
    alike (reordered p (flatten_image_cube c)) (flatten_image_cube c')
          (reordered_mask p (flatten_mask (sc_nx c) k)) (flatten_mask (sc_nx c') k').
  Proof.
    intros HM. destruct HR as (Hb & Hs & Hp & Hi). split; [|split; [|split]].
    - cbn. symmetry. exact Hs.
    - cbn. symmetry. exact Hb.
    - destruct k, k'; try contradiction; reflexivity.
    - cbn [reordered flatten_image_cube si_m si_px]. rewrite <- Hs. intros s L.
      assert (P : (s / sc_nx c' < sc_ny c')%nat /\ (s mod sc_nx c' < sc_nx c')%nat).
      { split; [apply Nat.div_lt_upper_bound; nia|apply Nat.mod_upper_bound; nia]. }
      destruct P as [A1 A2]. destruct (Hp _ _ A1 A2) as (B1 & B2 & E).
      pose proof (flat_div (sc_ny c) (sc_nx c) _ _ B1 B2) as [D1 D2].
      assert (P1 : (p s / sc_nx c)%nat = fst (f (s / sc_nx c') (s mod sc_nx c'))%nat) by exact D1.
      assert (P2 : (p s mod sc_nx c)%nat = snd (f (s / sc_nx c') (s mod sc_nx c'))%nat) by exact D2.
      split.
      + destruct k as [k|], k' as [k'|]; try contradiction; [|reflexivity].
        cbn [flatten_mask reordered_mask keep]. rewrite P1, P2, (HM _ _ A1 A2). reflexivity.
      + rewrite P1, P2. symmetry. exact E.
  Qed.
  Lemma pos y x : (y < sc_ny c')%nat -> (x < sc_nx c')%nat ->
    (y * sc_nx c' + x < sc_ny c * sc_nx c)%nat /\ p (y * sc_nx c' + x) = (fst (f y x) * sc_nx c + snd (f y x))%nat.
  Proof.
    intros Hy Hx. destruct HR as (_ & Hs & _). split; [rewrite <- Hs; nia|].
    destruct (flat_div (sc_ny c') (sc_nx c') y x Hy Hx) as [D1 D2]. unfold p. rewrite D1, D2. reflexivity.
  Qed.
  Lemma p_reordering : reordering (si_m (flatten_image_cube c)) p.
  Proof. pose proof (rearranged_reordering f c c' HR) as P. destruct HR as (_ & Hs & _). cbn [flatten_image_cube si_m] in *. rewrite <- Hs. exact P. Qed.
  Lemma mean_rearranged k k' : rearranged_mask f c' k k' -> spectral_mean_2d c' k' = spectral_mean_2d c k.
  Proof.
    intros HM. unfold spectral_mean_2d. rewrite <- (mean_alike _ _ _ _ (rearranged_alike k k' HM)). apply mean_reorder. apply p_reordering.
  Qed.
  Lemma cov_rearranged k k' : rearranged_mask f c' k k' -> spectral_covariance_2d c' k' = spectral_covariance_2d c k.
  Proof.
    intros HM. unfold spectral_covariance_2d. rewrite <- (cov_alike _ _ _ _ (rearranged_alike k k' HM)). apply cov_reorder. apply p_reordering.
  Qed.
  Lemma ace_rearranged inv t mean W k k' : rearranged_mask f c' k k' ->
    same_scores f c' (ace_2d inv c t mean W k) (ace_2d inv c' t mean W k').
  Proof.
    intros HM. unfold ace_2d. pose proof (ace_alike inv _ _ t mean W _ _ (rearranged_alike k k' HM)) as X.
    rewrite ace_reorder in X by apply p_reordering.
    destruct (ace inv (flatten_image_cube c) t mean W (flatten_mask (sc_nx c) k)) as [sc|e|]; cbn [rmap alike_scores] in X;
      destruct (ace inv (flatten_image_cube c') t mean W (flatten_mask (sc_nx c') k')) as [sc'|e'|]; try contradiction; cbn [rmap same_scores].
    - intros y x Hy Hx. destruct (pos y x Hy Hx) as [L E]. unfold unflatten_scores. rewrite X by exact L. rewrite E. reflexivity.
    - exact X.
  Qed.
  Lemma rx_rearranged inv mean W : same_scores f c' (rx_anomaly_detector_2d inv c mean W) (rx_anomaly_detector_2d inv c' mean W).
  Proof.
    unfold rx_anomaly_detector_2d. pose proof (rx_alike inv _ _ mean W (rearranged_alike None None I)) as X.
    rewrite rx_reorder in X by apply p_reordering.
    destruct (rx_anomaly_detector inv (flatten_image_cube c) mean W) as [sc|e|]; cbn [rmap alike_scores] in X;
      destruct (rx_anomaly_detector inv (flatten_image_cube c') mean W) as [sc'|e'|]; try contradiction; cbn [rmap same_scores].
    - intros y x Hy Hx. destruct (pos y x Hy Hx) as [L E]. unfold unflatten_scores. rewrite X by exact L. rewrite E. reflexivity.
    - exact X.
  Qed.
End cubes.
