(** Lemmas on the colour map in doubles. *)
From Coq Require Import Reals Lra Lia ZArith List.
From Flocq Require Import Core Relative.
From Verif Require Import Py RAux M_ImageR P_ImageR Spec_Image M_Float M_FloatColor Spec_Float P_Float P_FloatSum Prop_Float2.
Open Scope R_scope.
Open Scope list_scope.

Lemma Rabs_bnd x a : Rabs x <= a -> - a <= x <= a.
Proof. intros H. pose proof (Rle_abs x). pose proof (Rle_abs (- x)) as Q. rewrite Rabs_Ropp in Q. lra. Qed.
Lemma bnd_Rabs x a : - a <= x <= a -> Rabs x <= a.
Proof. intros H. apply Rabs_le. lra. Qed.

(** What is assumed of the range *)
Definition rng (mn mx : R) (n : nat) : Prop :=
  dfmt mn /\ dfmt mx /\ (2 <= n <= 129)%nat /\ bpow radix2 (-402) <= mx - mn /\ bpow radix2 (-40) * Rmax (Rabs mn) (Rabs mx) <= mx - mn.

Notation node mn mx n := (linspace_float double mn mx n).

Lemma INR_pred_bounds n : (2 <= n <= 129)%nat -> 1 <= INR (n - 1) <= 128.
Proof.
  intros H. rewrite INR_IZR_INZ. split; [apply (IZR_le 1); lia|apply (IZR_le _ 128); lia].
Qed.

Lemma node_last mn mx n : (1 <= n)%nat -> node mn mx n (n - 1) = mx.
Proof. intros H. unfold linspace_float. replace (S (n - 1)) with n by lia. now rewrite Nat.eqb_refl. Qed.

Lemma node_form mn mx n i : rng mn mx n -> (S i < n)%nat ->
  exists k, Rabs (k - 1) <= 31 / 10 * bpow radix2 (-53) /\ node mn mx n i = double (INR i * ((mx - mn) / INR (n - 1)) * k + mn).
Proof.
  intros (Fa & Fb & Hn & HD & HM) Hi. pose proof (INR_pred_bounds n Hn) as NB. set (N := INR (n - 1)) in *.
  set (D := mx - mn) in *. pose proof u53_num as U. set (u := bpow radix2 (-53)) in *.
  assert (D0 : 0 < D) by (pose proof (bpow_gt_0 radix2 (-402)); lra).
  destruct (double_plus_err mx (- mn) Fb (fmt_opp _ _ _ Fa)) as (d1 & D1 & E1). fold (mx - mn) in E1. fold D in E1. fold u in D1.
  apply Rabs_bnd in D1. rewrite U in D1.
  assert (SB : bpow radix2 (-412) <= D * (1 + d1) / N).
  { apply Rle_trans with (bpow radix2 (-402) * bpow radix2 (-10)); [rewrite <- bpow_plus; apply bpow_le; lia|].
    unfold Rdiv. rewrite Rmult_assoc. apply Rmult_le_compat; try apply bpow_ge_0; [exact HD|].
    apply Rmult_le_reg_r with N; [lra|]. rewrite Rmult_assoc, Rinv_l, Rmult_1_r by lra. cbn. lra. }
  assert (SP : 0 < D * (1 + d1) / N) by (pose proof (bpow_gt_0 radix2 (-412)); lra).
  destruct (double_rel (D * (1 + d1) / N)) as (d2 & D2 & E2).
  { rewrite Rabs_pos_eq by lra. apply Rle_trans with (2 := SB). apply bpow_le. lia. }
  fold u in D2. pose proof (near_1 _ _ D2) as K2. apply Rabs_bnd in D2. rewrite U in D2.
  unfold linspace_float. fold D. fold N. rewrite E1, E2. replace (Nat.eqb (S i) n) with false by (symmetry; apply Nat.eqb_neq; lia).
  set (st := D * (1 + d1) / N) in *. assert (STN : st * (1 + d2) <> 0) by (apply Rmult_integral_contrapositive; lra).
  destruct (Reqb_spec (st * (1 + d2)) 0) as [Q|_]; [contradiction|].
  destruct i as [|i].
  - exists 1. split; [rewrite Rminus_eq_0, Rabs_R0; rewrite U; lra|]. cbn [INR]. rewrite !Rmult_0_l. change (double 0) with (rne (-1074) 53 0). rewrite rne_0. reflexivity.
  - assert (I1 : 1 <= INR (S i)) by (apply (le_INR 1); lia). set (k := INR (S i)) in *. clearbody k.
    destruct (double_rel (k * (st * (1 + d2)))) as (d3 & D3 & E3).
    { rewrite Rabs_pos_eq by (apply Rmult_le_pos; [lra|apply Rmult_le_pos; lra]).
      apply Rle_trans with (bpow radix2 (-412) * bpow radix2 (-1)); [rewrite <- bpow_plus; apply bpow_le; lia|].
      apply Rle_trans with (st * (1 + d2)); [apply Rmult_le_compat; try apply bpow_ge_0; [exact SB|cbn; lra]|].
      assert (0 < st * (1 + d2)) by (apply Rmult_lt_0_compat; lra). nra. }
    fold u in D3. exists ((1 + d1) * (1 + d2) * (1 + d3)). split.
    + assert (K1 : Rabs (1 + d1 - 1) <= u) by (apply bnd_Rabs; rewrite U; lra).
      eapply Rle_trans; [apply near_mult; [apply near_mult; [exact K1|exact K2]|apply near_1; exact D3]|]. rewrite U. lra.
    + rewrite E3. f_equal. unfold st. field. lra.
Qed.

Lemma Rmax_abs_bounds a b x : a <= x <= b -> Rabs x <= Rmax (Rabs a) (Rabs b).
Proof.
  intros H. apply bnd_Rabs. pose proof (Rmax_l (Rabs a) (Rabs b)). pose proof (Rmax_r (Rabs a) (Rabs b)).
  pose proof (Rabs_bnd a _ (Rle_refl _)). pose proof (Rabs_bnd b _ (Rle_refl _)). lra.
Qed.

Lemma range_le mn mx : mx - mn <= 2 * Rmax (Rabs mn) (Rabs mx).
Proof.
  pose proof (Rmax_l (Rabs mn) (Rabs mx)). pose proof (Rmax_r (Rabs mn) (Rabs mx)).
  pose proof (Rabs_bnd mn _ (Rle_refl _)). pose proof (Rabs_bnd mx _ (Rle_refl _)). lra.
Qed.

Lemma sum_err mn mx t k : bpow radix2 (-402) <= mx - mn -> 0 <= t <= mx - mn -> Rabs (k - 1) <= 31 / 10 * bpow radix2 (-53) ->
  Rabs (double (t * k + mn) - (mn + t)) <= 8 * bpow radix2 (-53) * Rmax (Rabs mn) (Rabs mx).
Proof.
  intros HD T K. pose proof (range_le mn mx) as RL. pose proof u53_num as U.
  assert (D0 : 0 < mx - mn) by (pose proof (bpow_gt_0 radix2 (-402)); lra).
  assert (A : Rabs (mn + t) <= Rmax (Rabs mn) (Rabs mx)) by (apply Rmax_abs_bounds; lra).
  pose proof (double_err (t * k + mn)) as (f & h & F & H & EF). rewrite EF.
  assert (HT : bpow radix2 (-1075) <= / 1000 * bpow radix2 (-53) * (mx - mn)).
  { apply Rle_trans with (bpow radix2 (-10) * bpow radix2 (-53) * bpow radix2 (-402)); [rewrite <- !bpow_plus; apply bpow_le; lia|].
    apply Rmult_le_compat; [apply Rmult_le_pos; apply bpow_ge_0|apply bpow_ge_0| |exact HD]. apply Rmult_le_compat_r; [apply bpow_ge_0|]. cbn. lra. }
  clear EF. set (u := bpow radix2 (-53)) in *. set (M := Rmax (Rabs mn) (Rabs mx)) in *. set (eta := bpow radix2 (-1075)) in *.
  assert (MP : 0 < M) by lra.
  replace ((t * k + mn) * (1 + f) + h - (mn + t)) with (t * (k - 1) + (mn + t) * f + t * (k - 1) * f + h) by ring.
  assert (X1 : Rabs (t * (k - 1)) <= 2 * M * (31 / 10 * u)).
  { rewrite Rabs_mult. apply Rmult_le_compat; try apply Rabs_pos; [rewrite Rabs_pos_eq; lra|exact K]. }
  assert (X2 : Rabs ((mn + t) * f) <= M * u) by (rewrite Rabs_mult; apply Rmult_le_compat; try apply Rabs_pos; assumption).
  assert (X3 : Rabs (t * (k - 1) * f) <= 2 * M * (31 / 10 * u) * u) by (rewrite Rabs_mult; apply Rmult_le_compat; try apply Rabs_pos; assumption).
  pose proof (Rabs_triang (t * (k - 1) + (mn + t) * f + t * (k - 1) * f) h).
  pose proof (Rabs_triang (t * (k - 1) + (mn + t) * f) (t * (k - 1) * f)).
  pose proof (Rabs_triang (t * (k - 1)) ((mn + t) * f)).
  assert (HH : / 1000 * u * (mx - mn) <= / 500 * (u * M)) by (assert (u * (mx - mn) <= u * (2 * M)) by (apply Rmult_le_compat_l; [rewrite U|]; lra); lra).
  replace (2 * M * (31 / 10 * u)) with (62 / 10 * (u * M)) in * by field. replace (62 / 10 * (u * M) * u) with (u * (62 / 10 * (u * M))) in * by ring.
  assert (UM : 0 < u * M) by (apply Rmult_lt_0_compat; [rewrite U|]; lra).
  assert (u * (62 / 10 * (u * M)) <= / 1000 * (62 / 10 * (u * M))) by (apply Rmult_le_compat_r; [lra|rewrite U; lra]).
  replace (M * u) with (u * M) in * by ring. replace (8 * u * M) with (8 * (u * M)) by ring. set (z := u * M) in *. clearbody z. lra.
Qed.

Lemma frac_range n i D : (2 <= n)%nat -> (i < n)%nat -> 0 < D -> 0 <= INR i * (D / INR (n - 1)) <= D.
Proof.
  intros Hn Hi D0. assert (NB : 1 <= INR (n - 1)) by (apply (le_INR 1); lia).
  assert (IB : 0 <= INR i <= INR (n - 1)) by (split; [apply pos_INR|apply le_INR; lia]).
  assert (0 < D / INR (n - 1)) by (apply Rdiv_lt_0_compat; lra). split; [apply Rmult_le_pos; lra|].
  apply Rle_trans with (INR (n - 1) * (D / INR (n - 1))); [apply Rmult_le_compat_r; lra|]. right. field. lra.
Qed.

Lemma node_err mn mx n i : rng mn mx n -> (i < n)%nat ->
  Rabs (node mn mx n i - (mn + INR i * ((mx - mn) / INR (n - 1)))) <= 8 * bpow radix2 (-53) * Rmax (Rabs mn) (Rabs mx).
Proof.
  intros R Hi. pose proof R as (Fa & Fb & Hn & HD & HM). pose proof (INR_pred_bounds n Hn) as NB. pose proof u53_num as U.
  assert (D0 : 0 < mx - mn) by (pose proof (bpow_gt_0 radix2 (-402)); lra).
  destruct (Nat.eq_dec (S i) n) as [Q|Q].
  - replace i with (n - 1)%nat by lia. rewrite node_last by lia.
    replace (mx - (mn + INR (n - 1) * ((mx - mn) / INR (n - 1)))) with 0 by (field; lra). rewrite Rabs_R0.
    pose proof (Rmax_l (Rabs mn) (Rabs mx)). pose proof (Rabs_pos mn). rewrite U. lra.
  - destruct (node_form mn mx n i R) as (k & K & E); [lia|]. rewrite E.
    apply sum_err; [exact HD|apply frac_range; [lia|lia|exact D0]|exact K].
Qed.

Lemma node_first mn mx n : rng mn mx n -> node mn mx n 0 = mn.
Proof.
  intros R. pose proof R as (Fa & _ & Hn & _). destruct (node_form mn mx n 0 R) as (k & _ & E); [lia|]. rewrite E. cbn [INR].
  rewrite !Rmult_0_l, Rplus_0_l. now apply double_fix.
Qed.

(** The spacing of the nodes against their errors *)
Lemma spacing mn mx n : rng mn mx n -> 32 * (2 * (bpow radix2 (-53) * Rmax (Rabs mn) (Rabs mx))) <= (mx - mn) / INR (n - 1).
Proof.
  intros (Fa & Fb & Hn & HD & HM). pose proof (INR_pred_bounds n Hn) as NB. set (M := Rmax (Rabs mn) (Rabs mx)) in *.
  apply Rle_trans with (bpow radix2 (-47) * M).
  - right. change (-47)%Z with (6 + -53)%Z. rewrite bpow_plus. replace (bpow radix2 6) with 64 by reflexivity. ring.
  - apply Rmult_le_reg_r with (INR (n - 1)); [lra|]. replace ((mx - mn) / INR (n - 1) * INR (n - 1)) with (mx - mn) by (field; lra).
    apply Rle_trans with (2 := HM). assert (M0 : 0 <= M) by (unfold M; pose proof (Rmax_l (Rabs mn) (Rabs mx)); pose proof (Rabs_pos mn); lra).
    change (-40)%Z with (7 + -47)%Z. rewrite bpow_plus. replace (bpow radix2 7) with 128 by reflexivity.
    replace (128 * bpow radix2 (-47) * M) with (bpow radix2 (-47) * M * 128) by ring. apply Rmult_le_compat_l; [|lra].
    apply Rmult_le_pos; [apply bpow_ge_0|exact M0].
Qed.

Lemma node_step mn mx n i : rng mn mx n -> (S i < n)%nat ->
  Rabs (node mn mx n (S i) - node mn mx n i - (mx - mn) / INR (n - 1)) <= 16 * (bpow radix2 (-53) * Rmax (Rabs mn) (Rabs mx)).
Proof.
  intros R Hi. pose proof (node_err mn mx n (S i) R Hi) as A. pose proof (node_err mn mx n i R ltac:(lia)) as B.
  rewrite S_INR in A. set (s := (mx - mn) / INR (n - 1)) in *. apply Rabs_bnd in A, B. apply bnd_Rabs. set (z := bpow radix2 (-53) * Rmax (Rabs mn) (Rabs mx)).
  replace (8 * bpow radix2 (-53) * Rmax (Rabs mn) (Rabs mx)) with (8 * z) in * by (unfold z; ring). clearbody z. lra.
Qed.

Lemma rng_pos mn mx n : rng mn mx n -> 0 < mx - mn /\ 0 < bpow radix2 (-53) * Rmax (Rabs mn) (Rabs mx).
Proof.
  intros (Fa & Fb & Hn & HD & HM). assert (D0 : 0 < mx - mn) by (pose proof (bpow_gt_0 radix2 (-402)); lra). split; [exact D0|].
  apply Rmult_lt_0_compat; [apply bpow_gt_0|]. pose proof (range_le mn mx). lra.
Qed.

Lemma node_incr mn mx n i : rng mn mx n -> (S i < n)%nat -> node mn mx n i < node mn mx n (S i).
Proof.
  intros R Hi. pose proof (node_step mn mx n i R Hi) as A. pose proof (spacing mn mx n R) as S1. pose proof (rng_pos mn mx n R) as [_ Z].
  apply Rabs_bnd in A. set (z := bpow radix2 (-53) * Rmax (Rabs mn) (Rabs mx)) in *. clearbody z. lra.
Qed.
Lemma node_mono mn mx n i j : rng mn mx n -> (i < j)%nat -> (j < n)%nat -> node mn mx n i < node mn mx n j.
Proof.
  intros R Hij Hj. induction j as [|j IH]; [lia|]. pose proof (node_incr mn mx n j R Hj) as A.
  destruct (Nat.eq_dec i j) as [->|]; [exact A|]. specialize (IH ltac:(lia) ltac:(lia)). lra.
Qed.

Lemma node_dfmt mn mx n i : rng mn mx n -> dfmt (node mn mx n i).
Proof.
  intros (Fa & Fb & _). unfold linspace_float. destruct (Nat.eqb _ _); [exact Fb|]. destruct (Reqb _ _); apply (rne_fmt (-1074) 53).
Qed.

(** A pixel in the range falls in a bin *)
Lemma bin_there (f : nat -> R) g m : (1 <= m)%nat -> f 0%nat <= g <= f m -> exists i, (i < m)%nat /\ f i <= g <= f (S i).
Proof.
  intros Hm H. induction m as [|m IH]; [lia|]. destruct (Rle_dec (f m) g) as [L|G].
  - exists m. split; [lia|]. lra.
  - destruct m as [|m]; [lra|]. destruct IH as (i & Hi & B); [lia|lra|]. exists i. split; [lia|exact B].
Qed.

Lemma bin_float mn mx n g : rng mn mx n -> mn <= g <= mx ->
  exists i, (S i < n)%nat /\ node mn mx n i <= g <= node mn mx n (S i) /\
    find_bin_float double mn mx n g = mkBin (Z.of_nat i) (node mn mx n i) (node mn mx n (S i)) /\
    (forall j, (i < j)%nat -> (S j < n)%nat -> ~ (node mn mx n j <= g <= node mn mx n (S j))).
Proof.
  intros R Hg. pose proof R as (_ & _ & Hn & _). unfold find_bin_float.
  pose proof (fold_last_cond (fun i => Rleb (node mn mx n i) g && Rleb g (node mn mx n (S i)))
    (fun i => mkBin (wrap8 i) (node mn mx n i) (node mn mx n (S i))) (mkBin 0 0 0) (n - 1)) as F. cbv zeta in F.
  destruct F as [(i & Hi & C & E & L)|[N _]].
  - exists i. split; [lia|]. apply andb_prop in C as [C1 C2]. destruct (Rleb_spec (node mn mx n i) g); [|discriminate]. destruct (Rleb_spec g (node mn mx n (S i))); [|discriminate].
    split; [lra|]. split; [rewrite E; rewrite wrap8_small by lia; reflexivity|].
    intros j Hj1 Hj2 [B1 B2]. specialize (L j ltac:(lia)). destruct (Rleb_spec (node mn mx n j) g); [|lra]. destruct (Rleb_spec g (node mn mx n (S j))); [discriminate|lra].
  - exfalso. destruct (bin_there (node mn mx n) g (n - 1)) as (i & Hi & B); [lia|rewrite node_first, node_last by (assumption || lia); exact Hg|].
    specialize (N i Hi). destruct (Rleb_spec (node mn mx n i) g); [|lra]. destruct (Rleb_spec g (node mn mx n (S i))); [discriminate|lra].
Qed.

(** The weight *)
Lemma weight lo hi g : dfmt lo -> dfmt hi -> dfmt g -> lo < hi -> lo <= g <= hi ->
  exists q, fdiv (double (g - lo)) (double (hi - lo)) = Fin q /\ 0 <= double q <= 1 /\
    Rabs (double q - (g - lo) / (hi - lo)) <= 32 / 10 * bpow radix2 (-53) /\ (g = lo -> double q = 0) /\ (g = hi -> double q = 1).
Proof.
  intros Fl Fh Fg L B. destruct (double_plus_err g (- lo) Fg (fmt_opp _ _ _ Fl)) as (a & A & EA). fold (g - lo) in EA.
  destruct (double_plus_err hi (- lo) Fh (fmt_opp _ _ _ Fl)) as (b & HB & EB). fold (hi - lo) in EB.
  pose proof u53_num as U. set (u := bpow radix2 (-53)) in *.
  assert (b0 : 99 / 100 <= 1 + b) by (apply Rabs_bnd in HB; rewrite U in HB; lra).
  assert (a0 : 99 / 100 <= 1 + a) by (apply Rabs_bnd in A; rewrite U in A; lra).
  assert (NZ : double (hi - lo) > 0) by (rewrite EB; apply Rmult_lt_0_compat; lra).
  exists (double (g - lo) / double (hi - lo)). split; [apply fdiv_nz; lra|].
  assert (G0 : 0 <= double (g - lo)) by (rewrite EA; apply Rmult_le_pos; lra).
  assert (G1 : double (g - lo) <= double (hi - lo)) by (apply (rne_le (-1074) 53); lra).
  set (q := double (g - lo) / double (hi - lo)) in *.
  assert (Q : 0 <= q <= 1).
  { unfold q. split; [apply Rmult_le_pos; [exact G0|left; apply Rinv_0_lt_compat; lra]|]. apply Rmult_le_reg_r with (double (hi - lo)); [lra|]. unfold Rdiv. rewrite Rmult_assoc, Rinv_l, Rmult_1_r, Rmult_1_l by lra. exact G1. }
  split; [|split; [|split]].
  - split; [apply (rne_ge (-1074) 53); [apply fmt_0|lra]|apply (rne_le_fmt (-1074) 53); [apply (dfmt_int 1); lia|lra]].
  - destruct (double_err q) as (e & h & E & H & EQ). rewrite EQ. fold u in E.
    set (w := (g - lo) / (hi - lo)). assert (W : 0 <= w <= 1).
    { unfold w. split; [apply Rmult_le_pos; [lra|left; apply Rinv_0_lt_compat; lra]|]. apply Rmult_le_reg_r with (hi - lo); [lra|]. unfold Rdiv. rewrite Rmult_assoc, Rinv_l, Rmult_1_r, Rmult_1_l by lra. lra. }
    set (k := (1 + a) * / (1 + b) * (1 + e)).
    assert (K : Rabs (k - 1) <= 31 / 10 * u).
    { unfold k. eapply Rle_trans; [apply near_mult; [apply near_mult; [apply near_1; exact A|apply near_inv; [exact HB|rewrite U; lra]]|apply near_1; exact E]|]. clear - U. rewrite U. lra. }
    replace (q * (1 + e) + h - w) with (w * (k - 1) + h).
    2:{ unfold q, k, w. rewrite EA, EB. field. split; lra. }
    assert (HE : Rabs h <= u / 10).
    { apply Rle_trans with (1 := H). apply Rle_trans with (bpow radix2 (-53) * bpow radix2 (-4)); [rewrite <- bpow_plus; apply bpow_le; lia|].
      fold u. replace (bpow radix2 (-4)) with (/ 16) by reflexivity. rewrite U. lra. }
    apply Rle_trans with (1 := Rabs_triang _ _). rewrite Rabs_mult, (Rabs_pos_eq w) by lra. pose proof (Rabs_pos (k - 1)).
    assert (w * Rabs (k - 1) <= 1 * (31 / 10 * u)) by (apply Rmult_le_compat; lra). rewrite U in *. lra.
  - intros ->. unfold q. rewrite Rminus_eq_0. change (double 0) with (rne (-1074) 53 0). rewrite rne_0. unfold Rdiv. rewrite Rmult_0_l. apply (rne_0 (-1074) 53).
  - intros ->. unfold q. unfold Rdiv. rewrite Rinv_r by lra. apply double_fix, (dfmt_int 1). lia.
Qed.

(** The mix of two colours *)
Lemma one_below w : dfmt w -> 0 <= w <= 1 -> blend_float double 1 1 w <= 1.
Proof.
  intros F W. unfold blend_float. rewrite !Rmult_1_l. rewrite (double_fix w F).
  replace (double (double (1 - w))) with (double (1 - w)) by (symmetry; apply double_fix, (rne_fmt (-1074) 53)).
  assert (L : w + double (1 - w) < 1 + bpow radix2 (-53)).
  { destruct (Req_dec w 0) as [->|N].
    - rewrite Rminus_0_r, (double_fix 1) by (apply (dfmt_int 1); lia). pose proof (bpow_gt_0 radix2 (-53)). lra.
    - destruct (double_plus_err 1 (- w) (dfmt_int 1 ltac:(lia)) (fmt_opp _ _ _ F)) as (e & E & Q). fold (1 - w) in Q. rewrite Q.
      apply Rabs_bnd in E. pose proof (bpow_gt_0 radix2 (-53)). set (u := bpow radix2 (-53)) in *. clearbody u. nra. }
  destruct (Rle_dec (w + double (1 - w)) 1) as [Q|Q]; [apply (rne_le_fmt (-1074) 53); [apply (dfmt_int 1); lia|exact Q]|].
  set (x := w + double (1 - w)) in *. right. rewrite (double_concrete x (2 ^ 52) (-52)).
  - change (IZR (2 ^ 52)) with (IZR (Zpower radix2 52)). rewrite IZR_Zpower by lia. rewrite <- bpow_plus. reflexivity.
  - lia.
  - rewrite u53_num in L. rewrite Rabs_pos_eq by lra. cbn. lra.
  - rewrite u53_num in L. apply Rabs_def1; replace (bpow radix2 (- -52)) with 4503599627370496 by reflexivity; change (2 ^ 52)%Z with 4503599627370496%Z; lra.
Qed.

Lemma mix a b w : dfmt a -> dfmt b -> dfmt w -> 0 <= a <= 1 -> 0 <= b <= 1 -> 0 <= w <= 1 ->
  let c := double (double (a * double (1 - w)) + double (b * w)) in
  0 <= c <= 1 /\ Rabs (c - (a * (1 - w) + b * w)) <= 4 * bpow radix2 (-53) /\ (w = 0 -> c = a) /\ (w = 1 -> c = b).
Proof.
  intros Fa Fb Fw A B W. cbv zeta. rewrite Rplus_comm. change (double (double (b * w) + double (a * double (1 - w)))) with (blend_float double b a w).
  assert (ia : is_double a) by (apply is_float_iff; [exact prec53|exact Fa]). assert (ib : is_double b) by (apply is_float_iff; [exact prec53|exact Fb]).
  assert (iw : is_double w) by (apply is_float_iff; [exact prec53|exact Fw]).
  split; [split|split; [|split]].
  - apply (rne_ge (-1074) 53); [apply fmt_0|].
    assert (0 <= double (b * w)) by (apply (rne_ge (-1074) 53); [apply fmt_0|apply Rmult_le_pos; lra]).
    assert (0 <= double (1 - w)) by (apply (rne_ge (-1074) 53); [apply fmt_0|lra]).
    assert (0 <= double (a * double (1 - w))) by (apply (rne_ge (-1074) 53); [apply fmt_0|apply Rmult_le_pos; lra]). unfold double in *. lra.
  - apply Rle_trans with (blend_float double 1 1 w); [apply (C95_monotone (-1074) 53); [lia|lra|lra|lra]|now apply one_below].
  - pose proof (C95_error b a w 1 iw W) as Q. rewrite !Rabs_pos_eq in Q by lra. unfold moderate, u53, blend_pixel in Q. rewrite <- !bpow_pow in Q.
    rewrite Rmult_1_r in Q. replace (a * (1 - w) + b * w) with (b * w + a * (1 - w)) by ring.
    apply Q; [lra|lra|]. rewrite Rabs_R1. apply (bpow_le radix2 (-400) 0). lia.
  - intros ->. apply (C95_ends (-1074) 53 b a); [lia|lia|exact ib|exact ia].
  - intros ->. apply (C95_ends (-1074) 53 b a); [lia|lia|exact ib|exact ia].
Qed.

(** Piecewise linear functions with nodes in [0, 1] *)
Lemma lip (P : nat -> R) i j w t : (forall k, 0 <= P k <= 1) -> 0 <= w <= 1 -> 0 <= t <= 1 -> Rabs (INR j + t - (INR i + w)) < 1 ->
  Rabs (P j * (1 - t) + P (S j) * t - (P i * (1 - w) + P (S i) * w)) <= Rabs (INR j + t - (INR i + w)).
Proof.
  intros HP W T H. assert (DB : forall k, -1 <= P (S k) - P k <= 1) by (intros k; pose proof (HP k); pose proof (HP (S k)); lra).
  destruct (Nat.lt_trichotomy i j) as [L|[L|L]].
  - assert (j = S i).
    { destruct (Nat.eq_dec j (S i)); [assumption|]. exfalso. assert (Q : INR (S (S i)) <= INR j) by (apply le_INR; lia). rewrite !S_INR in Q. apply Rabs_def2 in H. lra. }
    subst j. pose proof (DB i). pose proof (DB (S i)). rewrite S_INR in *. rewrite (Rabs_pos_eq (INR i + 1 + t - (INR i + w))) by lra.
    replace (P (S i) * (1 - t) + P (S (S i)) * t - (P i * (1 - w) + P (S i) * w)) with ((P (S (S i)) - P (S i)) * t + (P (S i) - P i) * (1 - w)) by ring.
    apply bnd_Rabs. generalize dependent (P (S (S i)) - P (S i)). generalize dependent (P (S i) - P i). intros. nra.
  - subst j. pose proof (DB i). replace (P i * (1 - t) + P (S i) * t - (P i * (1 - w) + P (S i) * w)) with ((P (S i) - P i) * (t - w)) by ring.
    replace (INR i + t - (INR i + w)) with (t - w) by ring. rewrite Rabs_mult. assert (Rabs (P (S i) - P i) <= 1) by (apply bnd_Rabs; lra).
    pose proof (Rabs_pos (t - w)). nra.
  - assert (i = S j).
    { destruct (Nat.eq_dec i (S j)); [assumption|]. exfalso. assert (Q : INR (S (S j)) <= INR i) by (apply le_INR; lia). rewrite !S_INR in Q. apply Rabs_def2 in H. lra. }
    subst i. pose proof (DB j). pose proof (DB (S j)). rewrite S_INR in *. rewrite Rabs_minus_sym, (Rabs_minus_sym (INR j + t)).
    rewrite (Rabs_pos_eq (INR j + 1 + w - (INR j + t))) by lra.
    replace (P (S j) * (1 - w) + P (S (S j)) * w - (P j * (1 - t) + P (S j) * t)) with ((P (S (S j)) - P (S j)) * w + (P (S j) - P j) * (1 - t)) by ring.
    apply bnd_Rabs. generalize dependent (P (S (S j)) - P (S j)). generalize dependent (P (S j) - P j). intros. nra.
Qed.

Lemma nth_Forall (Q : R -> Prop) (l : list R) k : Forall Q l -> Q 0 -> Q (nth k l 0).
Proof. intros F H. revert k. induction F as [|x l Hx F IH]; intros [|k]; cbn; auto. Qed.

(** One channel, continuous, in range *)
Lemma channel_cont pal mn mx n g : rng mn mx n -> Forall (fun c => 0 <= c <= 1) pal -> Forall dfmt pal -> dfmt g -> mn <= g <= mx ->
  exists i w c, (S i < n)%nat /\ node mn mx n i <= g <= node mn mx n (S i) /\ 0 <= w <= 1 /\
    Rabs (w - (g - node mn mx n i) / (node mn mx n (S i) - node mn mx n i)) <= 32 / 10 * bpow radix2 (-53) /\
    channel_float double pal true mn mx n g = Fin (double (c * 255)) /\ 0 <= c <= 1 /\
    Rabs (c - (nth i pal 0 * (1 - w) + nth (S i) pal 0 * w)) <= 4 * bpow radix2 (-53) /\
    (forall k, (k < n)%nat -> g = node mn mx n k -> c = nth k pal 0).
Proof.
  intros R HP FP Fg Hg. destruct (bin_float mn mx n g R Hg) as (i & Hi & B & E & L).
  pose proof (node_incr mn mx n i R Hi) as NI.
  destruct (weight (node mn mx n i) (node mn mx n (S i)) g) as (q & EQ & W & WE & W0 & W1); try assumption; try (now apply node_dfmt).
  assert (P1 : forall k, 0 <= nth k pal 0 <= 1) by (intros k; apply (nth_Forall (fun c => 0 <= c <= 1)); [exact HP|lra]).
  assert (P2 : forall k, dfmt (nth k pal 0)) by (intros k; apply nth_Forall; [exact FP|apply fmt_0]).
  destruct (mix (nth i pal 0) (nth (S i) pal 0) (double q)) as (C & CE & C0 & C1); auto; [apply (rne_fmt (-1074) 53)|].
  exists i, (double q), (double (double (nth i pal 0 * double (1 - double q)) + double (nth (S i) pal 0 * double q))).
  split; [exact Hi|]. split; [exact B|]. split; [exact W|]. split; [exact WE|]. split.
  - unfold channel_float. rewrite E. cbn [bin_idx bin_lo bin_hi]. rewrite find_colors_hit by lia. rewrite EQ.
    destruct (Rltb_spec g mn); [lra|]. destruct (Rltb_spec mx g); [lra|]. reflexivity.
  - split; [exact C|]. split; [exact CE|]. intros k Hk Q. destruct (Nat.lt_trichotomy k i) as [K|[K|K]].
    + exfalso. pose proof (node_mono mn mx n k i R K ltac:(lia)). lra.
    + subst k. apply C0, W0, Q.
    + destruct (Nat.eq_dec k (S i)) as [->|N]; [apply C1, W1, Q|]. exfalso. pose proof (node_mono mn mx n (S i) k R ltac:(lia) Hk). lra.
Qed.

(** ... and the colour that the exact map gives *)
Lemma channel_close pal mn mx n g : rng mn mx n -> length pal = n -> Forall (fun c => 0 <= c <= 1) pal -> Forall dfmt pal -> dfmt g -> mn <= g <= mx ->
  exists y, channel_float double pal true mn mx n g = Fin y /\ 0 <= y <= 255 /\
    (forall v, shade_continuous pal mn mx g v ->
       Rabs (y - v) <= 255 * (64 * bpow radix2 (-53) * (Rmax (Rabs mn) (Rabs mx) * INR (n - 1) / (mx - mn)))) /\
    (forall k, (k < n)%nat -> g = node mn mx n k -> y = double (nth k pal 0 * 255)).
Proof.
  intros R LP HP FP Fg Hg. pose proof R as (Fa & Fb & Hn & HD & HM).
  destruct (channel_cont pal mn mx n g R HP FP Fg Hg) as (i & w & c & Hi & B & W & WE & E & C & CE & NODES).
  exists (double (c * 255)). split; [exact E|]. split; [|split].
  - split; [apply (rne_ge (-1074) 53); [apply fmt_0|lra]|apply (rne_le_fmt (-1074) 53); [apply (dfmt_int 255); lia|lra]].
  - intros v (_ & _ & SH). rewrite LP in SH. cbv beta zeta in SH. pose proof (INR_pred_bounds n Hn) as NB.
    pose proof (rng_pos mn mx n R) as [D0 Z0]. pose proof (spacing mn mx n R) as SP. pose proof (node_step mn mx n i R Hi) as NS.
    pose proof (node_err mn mx n i R ltac:(lia)) as NE. pose proof (node_incr mn mx n i R Hi) as NI. pose proof (range_le mn mx) as RL.
    pose proof u53_num as U. set (u := bpow radix2 (-53)) in *. set (M := Rmax (Rabs mn) (Rabs mx)) in *.
    set (D := mx - mn) in *. set (s := D / INR (n - 1)) in *. assert (S0 : 0 < s) by (apply Rdiv_lt_0_compat; lra).
    destruct (bin_there (fun j => mn + INR j * s) g (n - 1)) as (j & Hj & BJ).
    { lia. } { cbn [INR]. unfold s. replace (mn + INR (n - 1) * (D / INR (n - 1))) with mx by (unfold D; field; lra). lra. }
    cbv beta in BJ. specialize (SH j ltac:(lia) BJ). rewrite S_INR in SH, BJ.
    set (t := (g - (mn + INR j * s)) / s).
    assert (ET : t * s = g - (mn + INR j * s)) by (unfold t; field; lra).
    assert (T : 0 <= t <= 1) by (split; apply Rmult_le_reg_r with s; lra).
    assert (EV : v = 255 * (nth j pal 0 * (1 - t) + nth (S j) pal 0 * t)).
    { apply Rmult_eq_reg_r with s; [|lra]. replace (mn + (INR j + 1) * s - (mn + INR j * s)) with s in SH by ring. rewrite SH.
      replace (mn + (INR j + 1) * s - g) with (s * (1 - t)) by (replace (s * (1 - t)) with (s - t * s) by ring; rewrite ET; ring). rewrite <- ET. ring. }
    set (a := node mn mx n i) in *. set (b := node mn mx n (S i)) in *. clearbody a b.
    set (w0 := (g - a) / (b - a)) in *. assert (EW : w0 * (b - a) = g - a) by (unfold w0; field; lra).
    assert (W0 : 0 <= w0 <= 1) by (split; apply Rmult_le_reg_r with (b - a); lra).
    set (K := M * INR (n - 1) / D). assert (EK : u * K * s = u * M) by (unfold K, s; field; lra).
    assert (K2 : / 2 <= K).
    { unfold K. apply Rmult_le_reg_r with D; [lra|]. replace (M * INR (n - 1) / D * D) with (M * INR (n - 1)) by (field; lra). assert (0 <= M) by lra. nra. }
    assert (UK : 0 < u * K) by (apply Rmult_lt_0_compat; [rewrite U|]; lra).
    assert (UK1 : 64 * (u * K) <= 1). { apply Rmult_le_reg_r with s; [exact S0|]. replace (64 * (u * K) * s) with (64 * (u * K * s)) by ring. rewrite EK. lra. }
    assert (UU : u <= 2 * (u * K)) by (assert (u * / 2 <= u * K) by (apply Rmult_le_compat_l; [rewrite U; lra|exact K2]); lra).
    assert (P0 : Rabs (INR j + t - (INR i + w0)) <= 24 * (u * K)).
    { apply bnd_Rabs. apply Rabs_bnd in NS, NE. replace (8 * u * M) with (8 * (u * M)) in NE by ring. rewrite <- EK in *.
      assert (Q : (INR j + t - (INR i + w0)) * s = (a - (mn + INR i * s)) + w0 * (b - a - s)).
      { replace (w0 * (b - a - s)) with (w0 * (b - a) - w0 * s) by ring. rewrite EW. replace ((INR j + t - (INR i + w0)) * s) with (INR j * s + t * s - INR i * s - w0 * s) by ring. rewrite ET. ring. }
      assert (X : - (16 * (u * K * s)) <= w0 * (b - a - s) <= 16 * (u * K * s)) by (assert (0 < u * K * s) by (apply Rmult_lt_0_compat; assumption); nra).
      split; apply Rmult_le_reg_r with s; try exact S0; rewrite Q.
      - replace (- (24 * (u * K)) * s) with (- (24 * (u * K * s))) by ring. set (zz := u * K * s) in *. clearbody zz. lra.
      - replace (24 * (u * K) * s) with (24 * (u * K * s)) by ring. set (zz := u * K * s) in *. clearbody zz. lra. }
    assert (P1 : Rabs (INR j + t - (INR i + w)) <= 304 / 10 * (u * K)).
    { replace (INR j + t - (INR i + w)) with ((INR j + t - (INR i + w0)) - (w - w0)) by ring. unfold Rminus at 1. eapply Rle_trans; [apply Rabs_triang|]. rewrite Rabs_Ropp. lra. }
    assert (PP : forall k, 0 <= nth k pal 0 <= 1) by (intros k; apply (nth_Forall (fun c => 0 <= c <= 1)); [exact HP|lra]).
    pose proof (lip (fun k => nth k pal 0) i j w t PP W T ltac:(lra)) as LI. cbv beta in LI.
    set (ex := nth j pal 0 * (1 - t) + nth (S j) pal 0 * t) in *. set (me := nth i pal 0 * (1 - w) + nth (S i) pal 0 * w) in *.
    destruct (double_err (c * 255)) as (e & h & HE & HH & EE). rewrite EE, EV. fold u in HE.
    assert (H2 : Rabs h <= u / 10).
    { apply Rle_trans with (1 := HH). apply Rle_trans with (bpow radix2 (-53) * bpow radix2 (-4)); [rewrite <- bpow_plus; apply bpow_le; lia|].
      fold u. replace (bpow radix2 (-4)) with (/ 16) by reflexivity. rewrite U. lra. }
    assert (H3 : Rabs (c * 255 * e) <= 255 * u).
    { rewrite Rabs_mult, (Rabs_pos_eq (c * 255)) by lra. pose proof (Rabs_pos e). apply Rmult_le_compat; lra. }
    replace (c * 255 * (1 + e) + h - 255 * ex) with (255 * ((c - me) - (ex - me)) + (c * 255 * e + h)) by ring.
    eapply Rle_trans; [apply Rabs_triang|]. rewrite Rabs_mult, (Rabs_pos_eq 255) by lra.
    assert (H4 : Rabs (c - me - (ex - me)) <= 4 * u + 304 / 10 * (u * K)).
    { unfold Rminus at 1. eapply Rle_trans; [apply Rabs_triang|]. rewrite Rabs_Ropp. lra. }
    pose proof (Rabs_triang (c * 255 * e) h). fold K. replace (64 * u * K) with (64 * (u * K)) by ring.
    set (q := u * K) in *. clearbody q u. lra.
  - intros k Hk Q. now rewrite (NODES k Hk Q).
Qed.

(** The adjusted clip of discrete mode *)
Definition rng0 (mn mx : R) (n : nat) : Prop :=
  dfmt mn /\ dfmt mx /\ (2 <= n <= 129)%nat /\ bpow radix2 (-400) <= mx - mn /\ bpow radix2 (-38) * Rmax (Rabs mn) (Rabs mx) <= mx - mn.
Lemma rng0_rng mn mx n : rng0 mn mx n -> rng mn mx n.
Proof.
  intros (A & B & C & D & E). repeat (split; [assumption|]). split; [apply Rle_trans with (2 := D), bpow_le; lia|].
  apply Rle_trans with (2 := E). apply Rmult_le_compat_r; [|apply bpow_le; lia]. pose proof (Rmax_l (Rabs mn) (Rabs mx)). pose proof (Rabs_pos mn). lra.
Qed.

Lemma adjusted_close mn mx n : rng0 mn mx n ->
  let mx' := adjusted_max_float double false mn mx n in
  Rabs (mx' - (mn + (mx - mn) * INR (n - 1) / INR n)) <= 8 * bpow radix2 (-53) * Rmax (Rabs mn) (Rabs mx) /\ mn < mx' < mx /\ rng mn mx' n.
Proof.
  intros R. pose proof (rng0_rng _ _ _ R) as R1. pose proof R as (Fa & Fb & Hn & HD & HM). cbv zeta. unfold adjusted_max_float.
  pose proof (INR_pred_bounds n Hn) as NB. assert (EN : INR n = INR (n - 1) + 1) by (rewrite <- S_INR; f_equal; lia). rewrite EN.
  set (N := INR (n - 1)) in *. set (D := mx - mn) in *. pose proof u53_num as U. set (u := bpow radix2 (-53)) in *.
  pose proof (rng_pos _ _ _ R1) as [D0 Z0]. fold D in D0. fold u in Z0.
  destruct (double_plus_err mx (- mn) Fb (fmt_opp _ _ _ Fa)) as (d1 & D1 & E1). fold (mx - mn) in E1. fold D in E1. fold u in D1. rewrite E1.
  pose proof (near_1 _ _ D1) as K1. apply Rabs_bnd in D1. rewrite U in D1.
  assert (B1 : bpow radix2 (-401) <= D * (1 + d1)).
  { apply Rle_trans with (bpow radix2 (-400) * bpow radix2 (-1)); [rewrite <- bpow_plus; apply bpow_le; lia|]. apply Rmult_le_compat; try apply bpow_ge_0; [exact HD|cbn; lra]. }
  assert (B2 : bpow radix2 (-401) <= D * (1 + d1) * N) by (pose proof (bpow_gt_0 radix2 (-401)); nra).
  destruct (double_rel (D * (1 + d1) * N)) as (d2 & D2 & E2).
  { rewrite Rabs_pos_eq by (pose proof (bpow_gt_0 radix2 (-401)); lra). apply Rle_trans with (2 := B2). apply bpow_le. lia. }
  rewrite E2. fold u in D2. pose proof (near_1 _ _ D2) as K2. apply Rabs_bnd in D2. rewrite U in D2.
  assert (B3 : bpow radix2 (-420) <= D * (1 + d1) * N * (1 + d2) / (N + 1)).
  { apply Rle_trans with (bpow radix2 (-401) * bpow radix2 (-10)); [rewrite <- bpow_plus; apply bpow_le; lia|].
    unfold Rdiv. rewrite Rmult_assoc. apply Rmult_le_compat; try apply bpow_ge_0; [exact B2|].
    apply Rmult_le_reg_r with (N + 1); [lra|]. rewrite Rmult_assoc, Rinv_l, Rmult_1_r by lra. cbn. lra. }
  destruct (double_rel (D * (1 + d1) * N * (1 + d2) / (N + 1))) as (d3 & D3 & E3).
  { rewrite Rabs_pos_eq by (pose proof (bpow_gt_0 radix2 (-420)); lra). apply Rle_trans with (2 := B3). apply bpow_le. lia. }
  rewrite E3. fold u in D3. set (t := D * N / (N + 1)).
  replace (mn + D * (1 + d1) * N * (1 + d2) / (N + 1) * (1 + d3)) with (t * ((1 + d1) * (1 + d2) * (1 + d3)) + mn) by (unfold t; field; lra).
  assert (TN : t = D - D / (N + 1)) by (unfold t; field; lra).
  assert (T1 : D / 129 <= D / (N + 1)) by (apply Rmult_le_compat_l; [lra|apply Rinv_le_contravar; lra]).
  assert (T2 : D / (N + 1) <= D / 2) by (apply Rmult_le_compat_l; [lra|apply Rinv_le_contravar; lra]).
  assert (HE : Rabs (double (t * ((1 + d1) * (1 + d2) * (1 + d3)) + mn) - (mn + t)) <= 8 * u * Rmax (Rabs mn) (Rabs mx)).
  { apply sum_err; [destruct R1 as (_ & _ & _ & Q & _); exact Q|fold D; lra|]. fold u.
    eapply Rle_trans; [apply near_mult; [apply near_mult; [exact K1|exact K2]|apply near_1; exact D3]|]. clear - U. rewrite U. lra. }
  set (x := double (t * ((1 + d1) * (1 + d2) * (1 + d3)) + mn)) in *. split; [exact HE|]. apply Rabs_bnd in HE. set (M := Rmax (Rabs mn) (Rabs mx)) in *.
  assert (UM : 8 * u * M <= / 1000 * D).
  { apply Rle_trans with (/ 1000 * (bpow radix2 (-38) * M)); [|lra]. rewrite <- Rmult_assoc. apply Rmult_le_compat_r.
    - unfold M. pose proof (Rmax_l (Rabs mn) (Rabs mx)). pose proof (Rabs_pos mn). lra.
    - rewrite U. cbn. lra. }
  assert (DD : mx = mn + D) by (unfold D; ring). assert (XB : mn < x < mx) by (rewrite DD; clear - HE UM TN T1 T2 D0; set (q := D / (N + 1)) in *; clearbody q x t; lra). split; [exact XB|].
  split; [exact Fa|]. split; [apply (rne_fmt (-1074) 53)|]. split; [exact Hn|].
  assert (XD : D / 4 <= x - mn) by (clear - HE UM TN T1 T2 D0; set (q := D / (N + 1)) in *; clearbody q x t; lra). split.
  - apply Rle_trans with (2 := XD). apply Rle_trans with (bpow radix2 (-400) / 4); [|lra]. right. change (-402)%Z with (-400 + -2)%Z. rewrite bpow_plus. cbn. field.
  - apply Rle_trans with (2 := XD). apply Rle_trans with (bpow radix2 (-38) * M / 4); [|lra].
    replace (bpow radix2 (-38) * M / 4) with (bpow radix2 (-40) * M) by (change (-40)%Z with (-38 + -2)%Z; rewrite bpow_plus; cbn; field).
    apply Rmult_le_compat_l; [apply bpow_ge_0|]. apply Rmax_lub; [apply Rmax_l|]. apply Rmax_abs_bounds. lra.
Qed.

Lemma last_at (l : list R) : (1 <= length l)%nat -> last l 0 = nth (length l - 1) l 0.
Proof.
  induction l as [|x l IH]; [cbn; lia|]. intros _. destruct l as [|y l]; [reflexivity|]. change (last (x :: y :: l) 0) with (last (y :: l) 0).
  rewrite IH by (cbn; lia). cbn [length]. replace (S (S (length l)) - 1)%nat with (S (S (length l) - 1)) by lia. reflexivity.
Qed.

(** One channel, discrete, in range *)
Lemma channel_disc mn mx n g : rng0 mn mx n -> mn <= g <= mx ->
  exists k, (k < n)%nat /\
    (forall pal, length pal = n -> channel_float double pal false mn (adjusted_max_float double false mn mx n) n g = Fin (double (nth k pal 0 * 255))) /\
    mn + INR k * ((mx - mn) / INR n) - 16 * bpow radix2 (-53) * Rmax (Rabs mn) (Rabs mx) <= g /\
    g <= mn + INR (S k) * ((mx - mn) / INR n) + 16 * bpow radix2 (-53) * Rmax (Rabs mn) (Rabs mx).
Proof.
  intros R Hg. destruct (adjusted_close mn mx n R) as (AC & AB & R'). pose proof R as (Fa & Fb & Hn & HD & HM).
  set (mx' := adjusted_max_float double false mn mx n) in *. pose proof (INR_pred_bounds n Hn) as NB.
  assert (EN : INR n = INR (n - 1) + 1) by (rewrite <- S_INR; f_equal; lia).
  set (z := bpow radix2 (-53) * Rmax (Rabs mn) (Rabs mx)). replace (8 * bpow radix2 (-53) * Rmax (Rabs mn) (Rabs mx)) with (8 * z) in AC by (unfold z; ring).
  replace (16 * bpow radix2 (-53) * Rmax (Rabs mn) (Rabs mx)) with (16 * z) by (unfold z; ring).
  pose proof (rng_pos _ _ _ (rng0_rng _ _ _ R)) as [D0 Z0]. fold z in Z0. apply Rabs_bnd in AC.
  unfold channel_float. destruct (Rle_dec g mx') as [L|G].
  - destruct (bin_float mn mx' n g R' ltac:(lra)) as (i & Hi & B & E & _).
    exists i. split; [lia|]. split; [intros pal LP; rewrite E; cbn [bin_idx]; rewrite find_colors_hit by lia; destruct (Rltb_spec g mn); [lra|]; destruct (Rltb_spec mx' g); [lra|]; reflexivity|].
    assert (NE : forall j, (j < n)%nat -> Rabs (node mn mx' n j - (mn + INR j * ((mx - mn) / INR n))) <= 16 * z).
    { intros j Hj. pose proof (node_err mn mx' n j R' Hj) as Q. apply Rabs_bnd in Q. apply bnd_Rabs.
      assert (M1 : 8 * bpow radix2 (-53) * Rmax (Rabs mn) (Rabs mx') <= 8 * z).
      { unfold z. rewrite Rmult_assoc. apply Rmult_le_compat_l; [lra|]. apply Rmult_le_compat_l; [apply bpow_ge_0|]. apply Rmax_lub; [apply Rmax_l|]. apply Rmax_abs_bounds. lra. }
      set (r := INR j / INR (n - 1)). assert (RB : 0 <= r <= 1).
      { unfold r. split; [apply Rmult_le_pos; [apply pos_INR|left; apply Rinv_0_lt_compat; lra]|].
        apply Rmult_le_reg_r with (INR (n - 1)); [lra|]. unfold Rdiv. rewrite Rmult_assoc, Rinv_l, Rmult_1_r, Rmult_1_l by lra. apply le_INR. lia. }
      set (d := mx' - (mn + (mx - mn) * INR (n - 1) / INR n)) in *.
      assert (EX : INR j * ((mx' - mn) / INR (n - 1)) = INR j * ((mx - mn) / INR n) + r * d) by (unfold r, d; field; lra). rewrite EX in Q.
      assert (- (8 * z) <= r * d <= 8 * z) by nra. lra. }
    pose proof (NE i ltac:(lia)) as N1. pose proof (NE (S i) Hi) as N2. apply Rabs_bnd in N1, N2. lra.
  - exists (n - 1)%nat. split; [lia|]. split.
    + intros pal LP. destruct (find_colors pal n _) as [lo hi]. destruct (Rltb_spec g mn); [lra|]. destruct (Rltb_spec mx' g); [|lra]. cbn [fmap].
      rewrite <- LP. rewrite (last_at pal) by lia. reflexivity.
    + split.
      * replace (INR (n - 1) * ((mx - mn) / INR n)) with ((mx - mn) * INR (n - 1) / INR n) by (field; lra). lra.
      * replace (S (n - 1)) with n by lia. replace (INR n * ((mx - mn) / INR n)) with (mx - mn) by (field; lra). lra.
Qed.

(** Outside of the clips *)
Lemma channel_low pal cont mn mx n g : mn <= mx -> g < mn -> channel_float double pal cont mn mx n g = Fin (double (nth 0 pal 0 * 255)).
Proof.
  intros H L. unfold channel_float. destruct (find_colors _ _ _) as [lo hi]. cbv zeta. destruct (Rltb_spec g mn); [|lra]. destruct (Rltb_spec mx g); [lra|]. reflexivity.
Qed.
Lemma channel_high pal cont mn mx n g : (1 <= length pal)%nat -> mx < g ->
  channel_float double pal cont mn mx n g = Fin (double (nth (length pal - 1) pal 0 * 255)).
Proof.
  intros H L. unfold channel_float. destruct (find_colors _ _ _) as [lo hi]. cbv zeta. destruct (Rltb_spec mx g); [|lra]. cbn [fmap]. now rewrite last_at.
Qed.
