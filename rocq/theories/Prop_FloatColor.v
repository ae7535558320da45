(** C102: colour maps in floating-point arithmetic. *)
From Coq Require Import Reals Lra Lia ZArith List.
From Flocq Require Import Core Relative.
From Verif Require Import Py RAux M_ImageR P_ImageR Spec_Image M_Float M_FloatColor Spec_Float Spec_FloatColor P_Float P_FloatSum P_FloatColor.
Open Scope R_scope.
Open Scope list_scope.

Lemma resolved_rng mn mx n : resolved_range mn mx n -> rng0 mn mx n.
Proof.
  intros (A & B & C & D & E & F). apply is_float_iff in A, B; try exact prec53. unfold moderate, magnitude in *. rewrite <- bpow_pow in E, F.
  rewrite Rabs_pos_eq in E by lra. repeat (split; [assumption|]). exact F.
Qed.

(** The nodes of the colour map: the clips themselves at the ends, in strictly increasing order, each off the
    exact node by at most eight half units in the last place of the larger clip. *)
Theorem C102_nodes : forall mn mx n, resolved_range mn mx n ->
  linspace_float double mn mx n 0 = mn /\ linspace_float double mn mx n (n - 1) = mx /\
  (forall i j, (i < j < n)%nat -> linspace_float double mn mx n i < linspace_float double mn mx n j) /\
  (forall i, (i < n)%nat -> Rabs (linspace_float double mn mx n i - (mn + INR i * ((mx - mn) / INR (n - 1)))) <= 8 * u53 * magnitude mn mx).
Proof.
  intros mn mx n H. pose proof (rng0_rng _ _ _ (resolved_rng _ _ _ H)) as R. pose proof R as (_ & _ & Hn & _).
  split; [now apply node_first|]. split; [apply node_last; lia|]. split; [intros i j Hij; apply node_mono; auto; lia|].
  intros i Hi. unfold u53. rewrite <- bpow_pow. now apply node_err.
Qed.
Print Assumptions C102_nodes.

Lemma image_ok (Q : R -> flt * flt * flt -> Prop) (f : R -> flt * flt * flt) (img : list R) : (forall g, In g img -> Q g (f g)) ->
  length (map f img) = length img /\ forall k g, nth_error img k = Some g -> exists px, nth_error (map f img) k = Some px /\ Q g px.
Proof.
  intros H. split; [apply map_length|]. intros k g E. exists (f g). split; [rewrite nth_error_map, E; reflexivity|]. apply H. eapply nth_error_In; eassumption.
Qed.

(** Continuous maps: every pixel gets three finite numbers from 0 to 255; outside of the clips and on a node the
    colour of the palette times 255; and within them the exact colour up to 64 half units in the last place
    of one, times the ratio of the magnitude of the clips to the distance of two nodes. *)
Theorem C102_continuous : forall p mn0 mx0 nodata img mn mx,
  default_clips img nodata mn0 mx0 = Ok (mn, mx) -> resolved_range mn mx (pal_len p) -> unit_palette p -> Forall is_double img ->
  exists out, colormap_float double p true mn0 mx0 nodata img = Ok out /\ length out = length img /\
  forall k g, nth_error img k = Some g -> exists r gr b, nth_error out k = Some (Fin r, Fin gr, Fin b) /\
  forall pal y, In (pal, y) (channels p r gr b) ->
    0 <= y <= 255 /\
    (g < mn -> y = double (nth 0 pal 0 * 255)) /\ (mx < g -> y = double (nth (pal_len p - 1) pal 0 * 255)) /\
    (forall i, (i < pal_len p)%nat -> g = linspace_float double mn mx (pal_len p) i -> y = double (nth i pal 0 * 255)) /\
    (forall v, mn <= g <= mx -> shade_continuous pal mn mx g v ->
       Rabs (y - v) <= 255 * (64 * u53 * (magnitude mn mx * INR (pal_len p - 1) / (mx - mn)))).
Proof.
  intros p mn0 mx0 nodata img mn mx DC RR (LG & LB & UP) FI. pose proof (rng0_rng _ _ _ (resolved_rng _ _ _ RR)) as R. pose proof R as (_ & _ & Hn & _).
  unfold colormap_float. rewrite DC. cbn [bind]. destruct (Nat.eqb_spec (pal_len p) 0) as [|_]; [lia|]. unfold adjusted_max_float.
  eexists. split; [reflexivity|]. set (n := pal_len p) in *.
  assert (CH : forall g pal, is_double g -> In pal [pal_r p; pal_g p; pal_b p] -> exists y, channel_float double pal true mn mx n g = Fin y /\
    0 <= y <= 255 /\ (g < mn -> y = double (nth 0 pal 0 * 255)) /\ (mx < g -> y = double (nth (n - 1) pal 0 * 255)) /\
    (forall i, (i < n)%nat -> g = linspace_float double mn mx n i -> y = double (nth i pal 0 * 255)) /\
    (forall v, mn <= g <= mx -> shade_continuous pal mn mx g v -> Rabs (y - v) <= 255 * (64 * u53 * (magnitude mn mx * INR (n - 1) / (mx - mn))))).
  { intros g pal Fg Hp. apply is_float_iff in Fg; [|exact prec53].
    assert (LP : length pal = n) by (destruct Hp as [<-|[<-|[<-|[]]]]; [reflexivity|exact LG|exact LB]).
    assert (P1 : Forall (fun c => 0 <= c <= 1) pal) by (apply Forall_forall; intros c Hc; eapply UP; eassumption).
    assert (P2 : Forall dfmt pal) by (apply Forall_forall; intros c Hc; apply is_float_iff; [exact prec53|]; eapply UP; eassumption).
    pose proof (rng_pos _ _ _ R) as [D0 _].
    assert (YB : forall k, 0 <= double (nth k pal 0 * 255) <= 255).
    { intros k. pose proof (nth_Forall (fun c => 0 <= c <= 1) pal k P1 ltac:(lra)).
      split; [apply (rne_ge (-1074) 53); [apply fmt_0|lra]|apply (rne_le_fmt (-1074) 53); [apply (dfmt_int 255); lia|lra]]. }
    assert (NB : forall i, (i < n)%nat -> mn <= linspace_float double mn mx n i <= mx).
    { intros i Hi. split.
      - destruct i as [|i]; [rewrite node_first by exact R; lra|]. pose proof (node_mono mn mx n 0 (S i) R ltac:(lia) Hi) as Q. rewrite node_first in Q by exact R. lra.
      - destruct (Nat.eq_dec i (n - 1)) as [->|N]; [rewrite node_last by lia; lra|]. pose proof (node_mono mn mx n i (n - 1) R ltac:(lia) ltac:(lia)) as Q. rewrite node_last in Q by lia. lra. }
    destruct (Rlt_dec g mn) as [L|L].
    - exists (double (nth 0 pal 0 * 255)). split; [apply channel_low; lra|]. split; [apply YB|]. split; [reflexivity|]. split; [intros; lra|].
      split; [intros i Hi ->; pose proof (NB i Hi); lra|intros; lra].
    - destruct (Rlt_dec mx g) as [G|G].
      + exists (double (nth (n - 1) pal 0 * 255)). split; [rewrite channel_high by (lia || lra); now rewrite LP|]. split; [apply YB|]. split; [intros; lra|]. split; [reflexivity|].
        split; [intros i Hi ->; pose proof (NB i Hi); lra|intros; lra].
      + destruct (channel_close pal mn mx n g R LP P1 P2 Fg ltac:(lra)) as (y & E & Y & V & N). exists y. split; [exact E|]. split; [exact Y|].
        split; [intros; lra|]. split; [intros; lra|]. split; [exact N|]. intros v _ SH. unfold u53, magnitude. rewrite <- bpow_pow. now apply V. }
  split; [apply map_length|]. intros k g E. assert (Fg : is_double g) by (rewrite Forall_forall in FI; apply FI; eapply nth_error_In; eassumption).
  destruct (CH g (pal_r p) Fg) as (r & E1 & P1); [cbn; auto|]. destruct (CH g (pal_g p) Fg) as (gr & E2 & P2); [cbn; auto|]. destruct (CH g (pal_b p) Fg) as (b & E3 & P3); [cbn; auto|].
  exists r, gr, b. split; [rewrite nth_error_map, E; cbn [option_map]; now rewrite E1, E2, E3|].
  intros pal y [Q|[Q|[Q|[]]]]; injection Q as <- <-; assumption.
Qed.
Print Assumptions C102_continuous.

(** Stepped maps: every pixel gets exactly one colour of the palette (times 255, rounded), the same one in
    all three channels, and it is the colour of a step that contains the pixel up to sixteen half units
    in the last place of the larger clip. *)
Theorem C102_discrete : forall p mn0 mx0 nodata img mn mx,
  default_clips img nodata mn0 mx0 = Ok (mn, mx) -> resolved_range mn mx (pal_len p) -> unit_palette p -> Forall is_double img ->
  exists out, colormap_float double p false mn0 mx0 nodata img = Ok out /\ length out = length img /\
  forall k g, nth_error img k = Some g -> exists c, (c < pal_len p)%nat /\
    nth_error out k = Some (Fin (double (nth c (pal_r p) 0 * 255)), Fin (double (nth c (pal_g p) 0 * 255)), Fin (double (nth c (pal_b p) 0 * 255))) /\
    (g < mn -> c = 0%nat) /\ (mx < g -> c = (pal_len p - 1)%nat) /\
    (mn <= g <= mx -> mn + INR c * ((mx - mn) / INR (pal_len p)) - 16 * u53 * magnitude mn mx <= g
                   /\ g <= mn + INR (S c) * ((mx - mn) / INR (pal_len p)) + 16 * u53 * magnitude mn mx).
Proof.
  intros p mn0 mx0 nodata img mn mx DC RR (LG & LB & UP) FI. pose proof (resolved_rng _ _ _ RR) as R. pose proof R as (_ & _ & Hn & _).
  unfold colormap_float. rewrite DC. cbn [bind]. destruct (Nat.eqb_spec (pal_len p) 0) as [|_]; [lia|].
  destruct (adjusted_close _ _ _ R) as (_ & AB & _). cbv zeta in AB. set (mx' := adjusted_max_float double false mn mx (pal_len p)) in *.
  eexists. split; [reflexivity|]. split; [apply map_length|]. set (n := pal_len p) in *.
  assert (LR : length (pal_r p) = n) by reflexivity. intros k g E. rewrite nth_error_map, E. cbn [option_map].
  destruct (Rlt_dec g mn) as [L|L].
  - exists 0%nat. split; [lia|]. rewrite !channel_low by lra. split; [reflexivity|]. split; [reflexivity|]. split; intros; lra.
  - destruct (Rlt_dec mx g) as [G|G].
    + exists (n - 1)%nat. split; [lia|]. rewrite !channel_high by (lia || lra). rewrite LR, LG, LB. split; [reflexivity|]. split; [intros; lra|]. split; [reflexivity|intros; lra].
    + destruct (channel_disc mn mx n g R ltac:(lra)) as (c & Hc & EC & B). exists c. split; [exact Hc|]. fold mx' in EC. rewrite !EC by assumption. split; [reflexivity|].
      split; [intros; lra|]. split; [intros; lra|]. intros _. unfold u53, magnitude. rewrite <- bpow_pow. exact B.
Qed.
Print Assumptions C102_discrete.

(** With the default output type no channel wraps around: the byte is the number rounded down. *)
Theorem C102_bytes : forall y, 0 <= y <= 255 -> exists b, cast_uint8 (Fin y) = Some b /\ (0 <= b <= 255)%Z /\ IZR b <= y < IZR b + 1.
Proof. intros y H. apply cast_uint8_range. lra. Qed.
Print Assumptions C102_bytes.

Lemma tiny_range : forall pal, length pal = 6%nat ->
  let mx := 1 + powerRZ 2 (-52) in is_double mx /\ channel_float double pal true 1 mx 6 mx = NonFinite.
Proof.
  intros pal LP mx. unfold mx. rewrite <- bpow_pow. clear mx. set (e := bpow radix2 (-52)). assert (EE : e = / 4503599627370496) by reflexivity.
  assert (EM : 1 + e = IZR 4503599627370497 * bpow radix2 (-52)) by (fold e; rewrite EE; field).
  assert (FM : dfmt (1 + e)) by (rewrite EM; apply dfmt_pow; lia).
  split; [apply is_float_iff; [exact prec53|exact FM]|].
  assert (N5 : linspace_float double 1 (1 + e) 6 5 = 1 + e) by reflexivity.
  assert (N4 : linspace_float double 1 (1 + e) 6 4 = 1 + e).
  { unfold linspace_float. cbn [Nat.eqb]. replace (1 + e - 1) with e by ring. rewrite (double_fix e) by (unfold e; replace (bpow radix2 (-52)) with (1 * bpow radix2 (-52)) by ring; apply (dfmt_pow 1); lia).
    replace (INR (6 - 1)) with 5 by (cbn; ring). replace (INR 4) with 4 by (cbn; ring).
    assert (S1 : double (e / 5) = 7205759403792794 * bpow radix2 (-107)).
    { rewrite EE. apply (double_concrete (/ 4503599627370496 / 5) 7205759403792794 (-107)); [lia| |].
      - rewrite Rabs_pos_eq by lra. cbn. lra.
      - apply Rabs_def1; cbn; lra. }
    rewrite S1. destruct (Reqb_spec (7205759403792794 * bpow radix2 (-107)) 0) as [Q|_]; [pose proof (bpow_gt_0 radix2 (-107)); lra|].
    replace (4 * (7205759403792794 * bpow radix2 (-107))) with (7205759403792794 * bpow radix2 (-105)) by (change (-105)%Z with (2 + -107)%Z; rewrite bpow_plus; replace (bpow radix2 2) with 4 by reflexivity; ring).
    rewrite (double_fix (7205759403792794 * bpow radix2 (-105))) by (apply (dfmt_pow 7205759403792794); lia).
    rewrite EM. apply double_concrete; [lia| |].
    - rewrite Rabs_pos_eq by (pose proof (bpow_gt_0 radix2 (-105)); lra). cbn. lra.
    - apply Rabs_def1; cbn; lra. }
  unfold channel_float. assert (FB : find_bin_float double 1 (1 + e) 6 (1 + e) = mkBin 4 (1 + e) (1 + e)).
  { unfold find_bin_float. pose proof (fold_last_cond (fun i => Rleb (linspace_float double 1 (1 + e) 6 i) (1 + e) && Rleb (1 + e) (linspace_float double 1 (1 + e) 6 (S i)))
      (fun i => mkBin (wrap8 i) (linspace_float double 1 (1 + e) 6 i) (linspace_float double 1 (1 + e) 6 (S i))) (mkBin 0 0 0) (6 - 1)) as F. cbv zeta in F.
    assert (C4 : Rleb (linspace_float double 1 (1 + e) 6 4) (1 + e) && Rleb (1 + e) (linspace_float double 1 (1 + e) 6 5) = true).
    { rewrite N4, N5. destruct (Rleb_spec (1 + e) (1 + e)); [reflexivity|lra]. }
    destruct F as [(i & Hi & C & ER & L)|[N _]].
    - assert (i = 4)%nat. { destruct (Nat.eq_dec i 4); [assumption|]. assert (i < 4)%nat by lia. specialize (L 4%nat ltac:(lia)). rewrite C4 in L. discriminate. }
      subst i. rewrite N4, N5 in ER. exact ER.
    - specialize (N 4%nat ltac:(lia)). rewrite C4 in N. discriminate. }
  rewrite FB. cbn [bin_idx bin_lo bin_hi]. destruct (find_colors pal 6 4) as [lo hi].
  rewrite !Rminus_eq_0. replace (double 0) with 0 by (symmetry; apply (rne_0 (-1074) 53)). rewrite fdiv_0.
  assert (0 < e) by (rewrite EE; lra). destruct (Rltb_spec (1 + e) 1); [lra|]. destruct (Rltb_spec (1 + e) (1 + e)); [lra|]. reflexivity.
Qed.
(** That any range will do: refuted.  With six colours between 1 and the next double, two nodes coincide with
    the upper clip, and the brightest pixel of a continuous map is 0/0. *)
Theorem C102_tiny_range_refuted : forall p, pal_len p = 6%nat -> length (pal_g p) = 6%nat -> length (pal_b p) = 6%nat ->
  let mx := 1 + powerRZ 2 (-52) in is_double mx /\
  exists dark, colormap_float double p true None None None [1; mx] = Ok [dark; (NonFinite, NonFinite, NonFinite)].
Proof.
  intros p LR LG LB mx. destruct (tiny_range (pal_r p) LR) as [F E1]. destruct (tiny_range (pal_g p) LG) as [_ E2]. destruct (tiny_range (pal_b p) LB) as [_ E3].
  fold mx in F, E1, E2, E3. split; [exact F|]. unfold colormap_float.
  assert (P : 1 < mx) by (unfold mx; rewrite <- bpow_pow; pose proof (bpow_gt_0 radix2 (-52)); lra).
  assert (DC : default_clips [1; mx] None None None = Ok (1, mx)).
  { unfold default_clips. assert (L : [1; mx] <> []) by discriminate. destruct (rmin_some _ L) as (a & EA). destruct (rmax_some _ L) as (b & EB). rewrite EA, EB. cbn [bind].
    apply rmin_spec in EA as [IA LA]. apply rmax_spec in EB as [IB LB']. do 2 f_equal.
    - pose proof (LA 1 ltac:(cbn; auto)). cbn in IA. lra.
    - pose proof (LB' mx ltac:(cbn; auto)). cbn in IB. lra. }
  rewrite DC. cbn [bind]. rewrite LR. cbn [Nat.eqb]. unfold adjusted_max_float. cbn [map]. rewrite E1, E2, E3. eexists. reflexivity.
Qed.
Print Assumptions C102_tiny_range_refuted.

(** The hypotheses can be met: an 8-bit range with a palette of three colours *)
Example C102_met : exists p img, resolved_range 0 255 (pal_len p) /\ unit_palette p /\ Forall is_double img /\ default_clips img None None None = Ok (0, 255).
Proof.
  assert (DI : forall z, (Z.abs z <= 2 ^ 53)%Z -> is_double (IZR z)) by (intros z Hz; apply is_float_iff; [exact prec53|now apply dfmt_int]).
  exists (mkPal [0; 1; 0] [0; 1; 1] [1; 0; 0]), [12; 0; 255; 77]. split; [|split; [|split]].
  - split; [apply (DI 0%Z); lia|]. split; [apply (DI 255%Z); lia|]. split; [cbn; lia|]. split; [lra|]. split.
    + unfold moderate. rewrite <- bpow_pow, Rabs_pos_eq by lra. apply Rle_trans with (bpow radix2 0); [apply bpow_le; lia|cbn; lra].
    + unfold magnitude. rewrite Rabs_R0, Rabs_pos_eq, Rmax_right by lra. rewrite <- bpow_pow. assert (bpow radix2 (-38) <= 1) by (apply (bpow_le radix2 (-38) 0); lia). lra.
  - split; [reflexivity|]. split; [reflexivity|]. intros pal [<-|[<-|[<-|[]]]] c; cbn; intros [<-|[<-|[<-|[]]]]; (split; [first [apply (DI 0%Z); lia|apply (DI 1%Z); lia]|lra]).
  - repeat constructor; [apply (DI 12%Z)|apply (DI 0%Z)|apply (DI 255%Z)|apply (DI 77%Z)]; lia.
  - unfold default_clips. assert (L : [12; 0; 255; 77] <> []) by discriminate. destruct (rmin_some _ L) as (a & EA). destruct (rmax_some _ L) as (b & EB). rewrite EA, EB. cbn [bind].
    apply rmin_spec in EA as [IA LA]. apply rmax_spec in EB as [IB LB]. do 2 f_equal.
    + pose proof (LA 0 ltac:(cbn; auto)). cbn in IA. lra.
    + pose proof (LB 255 ltac:(cbn; auto)). cbn in IB. lra.
Qed.

(** An empty palette is refused, once the clips are known. *)
Theorem C102_refused : forall p continuous mn0 mx0 nodata img mn mx, default_clips img nodata mn0 mx0 = Ok (mn, mx) -> pal_len p = 0%nat ->
  colormap_float double p continuous mn0 mx0 nodata img = Err IndexError.
Proof. intros p continuous mn0 mx0 nodata img mn mx DC HP. unfold colormap_float. rewrite DC. cbn [bind]. rewrite HP. reflexivity. Qed.
Print Assumptions C102_refused.

Lemma Rabs_bounds x a : Rabs x <= a -> - a <= x <= a.
Proof. intros H. pose proof (Rle_abs x). pose proof (Rle_abs (- x)) as Q. rewrite Rabs_Ropp in Q. lra. Qed.
Lemma tiny_round x : Rabs x < bpow radix2 (-1021) -> Rabs (double x - x) <= bpow radix2 (-1075).
Proof.
  intros H. pose proof (error_le_half_ulp radix2 (FLT_exp (-1074) 53) (fun t => negb (Z.even t)) x) as Q.
  rewrite (ulp_FLT_small radix2 (-1074) 53) in Q by exact H. replace (/ 2 * bpow radix2 (-1074)) with (bpow radix2 (-1075)) in Q; [exact Q|].
  change (-1075)%Z with (-1 + -1074)%Z. rewrite bpow_plus. reflexivity.
Qed.
Lemma double_multiple x : is_double x -> exists k, x = IZR k * bpow radix2 (-1074).
Proof.
  intros (m & e & -> & _ & He). rewrite <- bpow_pow. exists (m * 2 ^ (e + 1074))%Z. rewrite mult_IZR.
  replace e with ((e + 1074) + -1074)%Z at 1 by lia. rewrite bpow_plus, (IZR_Zpower radix2) by lia. ring.
Qed.
Lemma multiple_fix k : Rabs (IZR k * bpow radix2 (-1074)) <= bpow radix2 (-1021) -> double (IZR k * bpow radix2 (-1074)) = IZR k * bpow radix2 (-1074).
Proof.
  intros H. apply double_fix, dfmt_pow; [|lia]. pose proof (bpow_gt_0 radix2 (-1074)) as P.
  rewrite Rabs_mult, (Rabs_pos_eq (bpow _ _)) in H by lra. change (-1021)%Z with (53 + -1074)%Z in H. rewrite bpow_plus in H.
  apply Rmult_le_reg_r in H; [|exact P]. rewrite <- abs_IZR in H. apply le_IZR. exact H.
Qed.

(** A range of subnormal numbers so short that the step of the nodes rounds to zero: every node is still within
    one unit in the last place of the exact one. *)
Theorem C102_subnormal_nodes : forall mn mx n i, is_double mn -> is_double mx -> mn <= mx ->
  Rabs mn < powerRZ 2 (-1026) -> Rabs mx < powerRZ 2 (-1026) -> (2 <= n)%nat -> (i < n)%nat ->
  (mx - mn) / INR (n - 1) < powerRZ 2 (-1075) ->
  Rabs (linspace_float double mn mx n i - (mn + INR i * ((mx - mn) / INR (n - 1)))) <= powerRZ 2 (-1074).
Proof.
  intros mn mx n i Fn Fx Hle Bn Bx Hn Hi HS. rewrite <- bpow_pow in *.
  destruct (double_multiple mn Fn) as (a & Ea). destruct (double_multiple mx Fx) as (b & Eb).
  set (t := bpow radix2 (-1074)) in *. assert (T : 0 < t) by apply bpow_gt_0.
  assert (T5 : bpow radix2 (-1075) = t / 2) by (change (-1075)%Z with (-1 + -1074)%Z; rewrite bpow_plus; unfold t; cbn; lra).
  assert (T3 : bpow radix2 (-1021) = 32 * bpow radix2 (-1026)) by (change (-1021)%Z with (5 + -1026)%Z; rewrite bpow_plus; reflexivity).
  assert (T2 : t <= bpow radix2 (-1026)) by (apply bpow_le; lia). assert (T4 : 4 * bpow radix2 (-53) * bpow radix2 (-1026) <= t / 4) by (replace (4 * bpow radix2 (-53) * bpow radix2 (-1026)) with (bpow radix2 2 * bpow radix2 (-53) * bpow radix2 (-1026)) by (cbn; lra); rewrite <- !bpow_plus; replace (t / 4) with (bpow radix2 (-1076)) by (change (-1076)%Z with (-2 + -1074)%Z; rewrite bpow_plus; unfold t; cbn; lra); apply bpow_le; lia).
  set (w := bpow radix2 (-1026)) in *. clearbody w.
  assert (N : 0 < INR (n - 1)) by (apply lt_0_INR; lia).
  apply Rabs_def2 in Bn, Bx.
  assert (ED : double (mx - mn) = mx - mn).
  { replace (mx - mn) with (IZR (b - a) * bpow radix2 (-1074)); [|rewrite minus_IZR, Ea, Eb; fold t; ring].
    apply multiple_fix. rewrite minus_IZR. fold t. replace ((IZR b - IZR a) * t) with (mx - mn) by (rewrite Ea, Eb; ring). rewrite T3, Rabs_pos_eq by lra. lra. }
  unfold linspace_float. rewrite ED. destruct (Nat.eqb_spec (S i) n) as [E|E].
  - replace (mx - (mn + INR i * ((mx - mn) / INR (n - 1)))) with 0; [rewrite Rabs_R0; lra|].
    replace (n - 1)%nat with i in * by lia. field. lra.
  - set (q := (mx - mn) / INR (n - 1)) in *. assert (Q0 : 0 <= q) by (apply Rmult_le_pos; [lra|left; apply Rinv_0_lt_compat; exact N]).
    assert (Z0 : double q = 0).
    { pose proof (tiny_round q ltac:(rewrite T3, Rabs_pos_eq; lra)) as R. rewrite T5 in R.
      assert (FM : is_double (double q)) by (apply is_float_iff; [exact prec53|apply (rne_fmt (-1074) 53)]).
      destruct (double_multiple _ FM) as (k & Ek). fold t in Ek. rewrite Ek in R |- *. apply Rabs_bounds in R.
      assert (k = 0%Z); [|subst k; ring]. assert (IZR k < 1) by (apply (Rmult_lt_reg_r t); lra). assert (-1 < IZR k) by (apply (Rmult_lt_reg_r t); lra).
      apply lt_IZR in H. apply lt_IZR in H0. lia. }
    rewrite Z0. destruct (Reqb_spec 0 0) as [_|]; [|congruence].
    set (f := INR i / INR (n - 1)). assert (F01 : 0 <= f <= 1).
    { split; [apply Rmult_le_pos; [apply pos_INR|left; apply Rinv_0_lt_compat; exact N]|].
      apply (Rmult_le_reg_r (INR (n - 1))); [exact N|]. unfold f. replace (INR i / INR (n - 1) * INR (n - 1)) with (INR i) by (field; lra). rewrite Rmult_1_l. apply le_INR. lia. }
    assert (D0 : 0 <= double f <= 1).
    { split; [rewrite <- (rne_0 (-1074) 53); apply rne_le; [exact prec53|lra]|]. apply rne_le_fmt; [exact prec53|apply (dfmt_int 1); lia|lra]. }
    assert (DF : Rabs (double f - f) <= 2 * bpow radix2 (-53)).
    { destruct (double_err f) as (e & h & E1 & E2 & E3). rewrite E3. replace (f * (1 + e) + h - f) with (f * e + h) by ring.
      assert (bpow radix2 (-1075) <= bpow radix2 (-53)) by (apply bpow_le; lia). eapply Rle_trans; [apply Rabs_triang|]. rewrite Rabs_mult, (Rabs_pos_eq f) by lra.
      pose proof (Rabs_pos e). nra. }
    assert (DS : Rabs ((double f - f) * (mx - mn)) <= t / 4).
    { rewrite Rabs_mult, (Rabs_pos_eq (mx - mn)) by lra. assert (mx - mn <= 2 * w) by lra.
      pose proof (Rabs_pos (double f - f)). assert (0 < bpow radix2 (-53)) by apply bpow_gt_0. nra. }
    assert (DP : Rabs (double (double f * (mx - mn)) - double f * (mx - mn)) <= t / 2).
    { rewrite <- T5. apply tiny_round. rewrite T3, Rabs_pos_eq; nra. }
    assert (ES : double (double (double f * (mx - mn)) + mn) = double (double f * (mx - mn)) + mn).
    { assert (FM : is_double (double (double f * (mx - mn)))) by (apply is_float_iff; [exact prec53|apply (rne_fmt (-1074) 53)]).
      destruct (double_multiple _ FM) as (k & Ek). fold t in Ek. rewrite Ek in DP |- *.
      replace (IZR k * t + mn) with (IZR (k + a) * bpow radix2 (-1074)); [|rewrite plus_IZR, Ea; fold t; ring].
      apply multiple_fix. rewrite plus_IZR. fold t. replace ((IZR k + IZR a) * t) with (IZR k * t + mn) by (rewrite Ea; ring).
      apply Rabs_bounds in DP. rewrite T3. apply Rabs_le. split; nra. }
    rewrite ES. replace (double (double f * (mx - mn)) + mn - (mn + INR i * q)) with (double (double f * (mx - mn)) - double f * (mx - mn) + (double f - f) * (mx - mn)).
    2: { unfold f, q. field. lra. }
    eapply Rle_trans; [apply Rabs_triang|]. lra.
Qed.
Print Assumptions C102_subnormal_nodes.
(** Such a range: 0 to 2 least subnormal numbers with 6 colours. *)
Example C102_subnormal_nodes_met : is_double 0 /\ is_double (2 * powerRZ 2 (-1074)) /\ (2 * powerRZ 2 (-1074) - 0) / INR (6 - 1) < powerRZ 2 (-1075).
Proof.
  split; [|split].
  - exists 0%Z, 0%Z. split; [ring|lia].
  - exists 2%Z, (-1074)%Z. split; [reflexivity|lia].
  - rewrite <- !bpow_pow. change (-1074)%Z with (1 + -1075)%Z. rewrite bpow_plus. pose proof (bpow_gt_0 radix2 (-1075)) as P. cbn [INR Nat.sub]. change (bpow radix2 1) with 2.
    set (t := bpow radix2 (-1075)) in *. clearbody t. lra.
Qed.
