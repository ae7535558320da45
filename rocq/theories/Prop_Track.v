(** C108: interpolated navigation as a track over time. *)
From Verif Require Import RAux Text M_Envi M_Nav Spec_Nav P_Nav Prop_Nav Spec_Track.
Open Scope R_scope.
Open Scope list_scope.

Lemma answer_curve nav c ch times col t : recorded nav c ch times col ->
  (forall v, answer nav c ch t v -> on_curve times col t v) /\
  (in_span times (Fin t) -> exists v, answer nav c ch t v /\ on_curve times col t v).
Proof.
  intros (Ht & Hc & Hi & H2 & Hl). destruct (C43_channels c ch nav times col (Num (Fin t)) Ht Hc Hi H2 Hl I) as [IN OUT].
  assert (B : in_span times (Fin t) -> exists v, answer nav c ch t v /\ on_curve times col t v).
  { intros S. destruct IN as (r & E & PW); [repeat constructor; exact S|]. inversion PW as [x y (x' & y' & EX & EY & OC)| |]; subst.
    injection EX as ->. exists y'. split; [exact E|exact OC]. }
  split; [|exact B]. intros v A. unfold answer in A.
  destruct (Classical_Prop.classic (in_span times (Fin t))) as [S|S].
  - destruct (B S) as (w & Aw & OC). unfold answer in Aw. rewrite A in Aw. injection Aw as <-. exact OC.
  - exfalso. rewrite OUT in A; [discriminate|]. intros F. inversion F; subst. contradiction.
Qed.

Lemma on_curve_span times col t v : increasing times -> on_curve times col t v -> in_span times (Fin t).
Proof.
  intros Hi [i A B|i t0 t1 v0 v1 A0 A1 _ _ L _].
  - assert (Li : (i < length times)%nat) by (apply nth_error_Some; congruence).
    destruct (nth_error times 0) as [a|] eqn:E0; [|apply nth_error_None in E0; lia].
    destruct (nth_error times (length times - 1)) as [b|] eqn:E1; [|apply nth_error_None in E1; lia].
    exists t, a, b. repeat split; auto; [apply (increasing_le times 0 i)|apply (increasing_le times i (length times - 1))]; auto; lia.
  - assert (Li : (S i < length times)%nat) by (apply nth_error_Some; congruence).
    destruct (nth_error times 0) as [a|] eqn:E0; [|apply nth_error_None in E0; lia].
    destruct (nth_error times (length times - 1)) as [b|] eqn:E1; [|apply nth_error_None in E1; lia].
    pose proof (increasing_le times 0 i _ _ Hi ltac:(lia) E0 A0). pose proof (increasing_le times (S i) (length times - 1) _ _ Hi ltac:(lia) A1 E1).
    exists t, a, b. repeat split; auto; lra.
Qed.
Lemma curve_answer nav c ch times col t v : recorded nav c ch times col -> on_curve times col t v -> answer nav c ch t v.
Proof.
  intros R OC. destruct (answer_curve nav c ch times col t R) as [_ B]. assert (R' := R). destruct R as (_ & _ & Hi & _).
  destruct (B (on_curve_span times col t v Hi OC)) as (w & A & OW). now rewrite (on_curve_unique times col t v w Hi OC OW).
Qed.

(** Every point of the curve lies on a closed segment between two records *)
Lemma on_segment times col t v : (2 <= length times)%nat -> length col = length times -> increasing times -> on_curve times col t v ->
  exists i t0 t1 v0 v1, nth_error times i = Some t0 /\ nth_error times (S i) = Some t1 /\ nth_error col i = Some v0 /\ nth_error col (S i) = Some v1 /\
    t0 < t1 /\ t0 <= t <= t1 /\ v = v0 + (v1 - v0) * ((t - t0) / (t1 - t0)).
Proof.
  intros H2 Hl Hi [i A B|i t0 t1 v0 v1 A0 A1 B0 B1 L E].
  - assert (Li : (i < length times)%nat) by (apply nth_error_Some; congruence).
    destruct (Nat.eq_dec i 0) as [->|Hne].
    + destruct (nth_error times 1) as [t1|] eqn:E1; [|apply nth_error_None in E1; lia]. destruct (nth_error col 1) as [v1|] eqn:F1; [|apply nth_error_None in F1; lia].
      pose proof (Hi 0%nat 1%nat t t1 ltac:(lia) A E1). exists 0%nat, t, t1, v, v1. repeat split; auto; try lra; field; lra.
    + destruct i as [|i]; [lia|]. destruct (nth_error times i) as [t0|] eqn:E1; [|apply nth_error_None in E1; lia]. destruct (nth_error col i) as [v0|] eqn:F1; [|apply nth_error_None in F1; lia].
      pose proof (Hi i (S i) t0 t ltac:(lia) E1 A). exists i, t0, t, v0, v. repeat split; auto; try lra; field; lra.
  - exists i, t0, t1, v0, v1. repeat split; auto; lra.
Qed.
(** and conversely *)
Lemma segment_curve times col i t0 t1 v0 v1 t : nth_error times i = Some t0 -> nth_error times (S i) = Some t1 -> nth_error col i = Some v0 -> nth_error col (S i) = Some v1 ->
  t0 < t1 -> t0 <= t <= t1 -> on_curve times col t (v0 + (v1 - v0) * ((t - t0) / (t1 - t0))).
Proof.
  intros A0 A1 B0 B1 L H. destruct (Req_dec t t0) as [->|N0].
  - apply (at_record _ _ _ _ i); [exact A0|]. rewrite B0. f_equal. field. lra.
  - destruct (Req_dec t t1) as [->|N1].
    + apply (at_record _ _ _ _ (S i)); [exact A1|]. rewrite B1. f_equal. field. lra.
    + apply (between _ _ _ _ i t0 t1 v0 v1); auto; lra.
Qed.

Lemma never_falls_le col i j a b : never_falls col -> (i <= j)%nat -> nth_error col i = Some a -> nth_error col j = Some b -> a <= b.
Proof.
  intros H L. revert b. induction L as [|j L IH]; intros b Ha Hb; [replace a with b by congruence; lra|].
  assert (Lj : (S j < length col)%nat) by (apply nth_error_Some; congruence).
  destruct (nth_error col j) as [x|] eqn:E; [|apply nth_error_None in E; lia].
  pose proof (IH x Ha eq_refl). pose proof (H j x b E Hb). lra.
Qed.

Lemma curve_monotone times col t s v w : (2 <= length times)%nat -> length col = length times -> increasing times -> never_falls col ->
  on_curve times col t v -> on_curve times col s w -> t <= s -> v <= w.
Proof.
  intros H2 Hl Hi NF OV OW Hts.
  destruct (on_segment _ _ _ _ H2 Hl Hi OV) as (i & t0 & t1 & v0 & v1 & A0 & A1 & B0 & B1 & L & HT & EV).
  destruct (on_segment _ _ _ _ H2 Hl Hi OW) as (j & s0 & s1 & w0 & w1 & C0 & C1 & D0 & D1 & M & HS & EW).
  assert (FR : forall x x0 x1, x0 < x1 -> x0 <= x <= x1 -> 0 <= (x - x0) / (x1 - x0) <= 1).
  { intros x x0 x1 P Q. split; [apply Rmult_le_pos; [lra|left; apply Rinv_0_lt_compat; lra]|].
    apply (Rmult_le_reg_r (x1 - x0)); [lra|]. unfold Rdiv. rewrite Rmult_assoc, Rinv_l by lra. lra. }
  pose proof (FR t t0 t1 L HT) as Fv. pose proof (FR s s0 s1 M HS) as Fw. pose proof (NF _ _ _ B0 B1) as Nv. pose proof (NF _ _ _ D0 D1) as Nw.
  destruct (Nat.lt_trichotomy i j) as [Lij|[<-|Lij]].
  - pose proof (never_falls_le col (S i) j _ _ NF Lij B1 D0). assert (v <= v1) by (rewrite EV; nra). assert (w0 <= w) by (rewrite EW; nra). lra.
  - assert (s0 = t0 /\ s1 = t1 /\ w0 = v0 /\ w1 = v1) as (-> & -> & -> & ->) by (repeat split; congruence).
    rewrite EV, EW. apply Rplus_le_compat_l. apply Rmult_le_compat_l; [lra|]. apply Rmult_le_compat_r; [left; apply Rinv_0_lt_compat; lra|lra].
  - pose proof (increasing_le times (S j) i _ _ Hi Lij C1 A0). assert (s = t) by lra. subst s. rewrite (on_curve_unique times col t v w Hi OV OW). lra.
Qed.

(** Combining the column with the time *)
Definition combined (a b k : R) (times col : list R) : list R := map (fun tv => a * fst tv + b * snd tv + k) (combine times col).
Lemma combined_nth a b k times col i t v : nth_error times i = Some t -> nth_error col i = Some v -> nth_error (combined a b k times col) i = Some (a * t + b * v + k).
Proof.
  revert col i. induction times as [|x times IH]; intros col i Ht Hv; [destruct i; discriminate|].
  destruct col as [|y col]; [destruct i; discriminate|]. destruct i as [|i]; cbn in *; [injection Ht as ->; injection Hv as ->; reflexivity|].
  now apply IH.
Qed.
Lemma combined_inv a b k times col i w : nth_error (combined a b k times col) i = Some w ->
  exists t v, nth_error times i = Some t /\ nth_error col i = Some v /\ w = a * t + b * v + k.
Proof.
  unfold combined. rewrite nth_error_map. destruct (nth_error (combine times col) i) as [[t v]|] eqn:E; [|discriminate]. intros H. injection H as <-.
  exists t, v. revert col i E. induction times as [|x times IH]; intros col i E; [destruct i; discriminate|]. destruct col as [|y col]; [destruct i; discriminate|].
  destruct i as [|i]; cbn in *; [injection E as -> ->; auto|]. now apply IH.
Qed.
Lemma combined_curve a b k times col t v : on_curve times col t v -> on_curve times (combined a b k times col) t (a * t + b * v + k).
Proof.
  intros [i A B|i t0 t1 v0 v1 A0 A1 B0 B1 L E].
  - apply (at_record _ _ _ _ i); [exact A|]. now apply combined_nth.
  - apply (between _ _ _ _ i t0 t1 (a * t0 + b * v0 + k) (a * t1 + b * v1 + k)); auto; try (apply combined_nth; assumption).
    rewrite E. field. lra.
Qed.
Lemma combined_length a b k times col : length col = length times -> length (combined a b k times col) = length times.
Proof. intros H. unfold combined. rewrite map_length, combine_length. lia. Qed.

(** Between any two times the value changes at no more than the largest rate between records: no
    jumps, at the records or elsewhere, and a clock error of e seconds moves the answer by at
    most L e. *)
Theorem C108_rate nav c ch times col L t s v w : recorded nav c ch times col -> rate_at_most L times col ->
  answer nav c ch t v -> answer nav c ch s w -> Rabs (w - v) <= L * Rabs (s - t).
Proof.
  intros R RL AV AW. destruct (answer_curve _ _ _ _ _ t R) as [OV _]. destruct (answer_curve _ _ _ _ _ s R) as [OW _].
  specialize (OV v AV). specialize (OW w AW). destruct R as (_ & _ & Hi & H2 & Hl).
  assert (M : forall b t s v w, Rabs b = 1 -> on_curve times col t v -> on_curve times col s w -> t <= s -> L * t + b * v <= L * s + b * w).
  { clear t s v w AV AW OV OW. intros b t s v w Hb OV OW Hts.
    assert (NF : never_falls (combined L b 0 times col)).
    { intros i u0 u1 E0 E1. destruct (combined_inv _ _ _ _ _ _ _ E0) as (a0 & b0 & P0 & Q0 & ->). destruct (combined_inv _ _ _ _ _ _ _ E1) as (a1 & b1 & P1 & Q1 & ->).
      pose proof (RL i a0 a1 b0 b1 P0 P1 Q0 Q1) as RA. assert (Rabs (b * (b1 - b0)) <= L * (a1 - a0)) by (rewrite Rabs_mult, Hb; lra).
      pose proof (Rle_abs (- (b * (b1 - b0)))) as Q. rewrite Rabs_Ropp in Q. lra. }
    pose proof (curve_monotone times (combined L b 0 times col) t s _ _ H2 (combined_length _ _ _ _ _ Hl) Hi NF (combined_curve L b 0 _ _ _ _ OV) (combined_curve L b 0 _ _ _ _ OW) Hts). lra. }
  assert (P1 : Rabs 1 = 1) by apply Rabs_R1. assert (P2 : Rabs (-1) = 1) by (rewrite Rabs_left; lra).
  destruct (Rle_dec t s) as [Hts|Hts].
  - pose proof (M 1 t s v w P1 OV OW Hts). pose proof (M (-1) t s v w P2 OV OW Hts). rewrite (Rabs_right (s - t)) by lra. apply Rabs_le. lra.
  - pose proof (M 1 s t w v P1 OW OV ltac:(lra)). pose proof (M (-1) s t w v P2 OW OV ltac:(lra)). rewrite (Rabs_left1 (s - t)) by lra. apply Rabs_le. lra.
Qed.
Print Assumptions C108_rate.

(** A channel that never falls between records never falls in the answers. *)
Theorem C108_monotone nav c ch times col t s v w : recorded nav c ch times col -> never_falls col ->
  answer nav c ch t v -> answer nav c ch s w -> t <= s -> v <= w.
Proof.
  intros R NF AV AW Hts. destruct (answer_curve _ _ _ _ _ t R) as [OV _]. destruct (answer_curve _ _ _ _ _ s R) as [OW _].
  assert (R' := R). destruct R' as (_ & _ & Hi & H2 & Hl). exact (curve_monotone times col t s v w H2 Hl Hi NF (OV v AV) (OW w AW) Hts).
Qed.
Print Assumptions C108_monotone.

(** The answers stay between the smallest and the largest recorded value. *)
Theorem C108_bounds nav c ch times col lo hi t v : recorded nav c ch times col -> (forall x, In x col -> lo <= x <= hi) ->
  answer nav c ch t v -> lo <= v <= hi.
Proof.
  intros R B AV. destruct (answer_curve _ _ _ _ _ t R) as [OV _]. destruct (OV v AV) as [i A C|i t0 t1 v0 v1 A0 A1 B0 B1 L E].
  - exact (B v (nth_error_In _ _ C)).
  - pose proof (B _ (nth_error_In _ _ B0)). pose proof (B _ (nth_error_In _ _ B1)). pose proof (frac_01 t t0 t1 L). rewrite E. split; nra.
Qed.
Print Assumptions C108_bounds.

(** A change of units, of origin or of the frame's uniform motion in the file changes the answers in
    the same way: if every recorded value v at time t is replaced by a t + b v + k, so is every answer. *)
Theorem C108_units nav c ch times col nav' c' ch' col' a b k t v : recorded nav c ch times col -> recorded nav' c' ch' times col' ->
  (forall i x y, nth_error times i = Some x -> nth_error col i = Some y -> nth_error col' i = Some (a * x + b * y + k)) ->
  answer nav c ch t v -> answer nav' c' ch' t (a * t + b * v + k).
Proof.
  intros R R' H AV. destruct (answer_curve _ _ _ _ _ t R) as [OV _]. apply (curve_answer _ _ _ times col' _ _ R').
  assert (E : col' = combined a b k times col).
  { apply nth_error_ext. intros i. destruct R as (_ & _ & _ & _ & Hl). destruct R' as (_ & _ & _ & _ & Hl').
    destruct (nth_error times i) as [x|] eqn:EX.
    - assert ((i < length times)%nat) by (apply nth_error_Some; congruence). destruct (nth_error col i) as [y|] eqn:EY; [|apply nth_error_None in EY; lia].
      rewrite (H i x y EX EY). symmetry. now apply combined_nth.
    - apply nth_error_None in EX. rewrite (proj2 (nth_error_None col' i)) by lia. symmetry. apply nth_error_None. rewrite combined_length by exact Hl. exact EX. }
  rewrite E. apply combined_curve. exact (OV v AV).
Qed.
Print Assumptions C108_units.

(** Uniform motion is reproduced exactly, at every time of the span. *)
Theorem C108_uniform nav c ch times col p q t : recorded nav c ch times col ->
  (forall i x, nth_error times i = Some x -> nth_error col i = Some (p + q * x)) -> in_span times (Fin t) -> answer nav c ch t (p + q * t).
Proof.
  intros R H S. destruct (answer_curve _ _ _ _ _ t R) as [_ B]. destruct (B S) as (v & AV & OV). replace (p + q * t) with v; [exact AV|].
  destruct OV as [i A C|i t0 t1 v0 v1 A0 A1 B0 B1 L E].
  - rewrite (H i t A) in C. congruence.
  - rewrite (H _ _ A0) in B0. rewrite (H _ _ A1) in B1. injection B0 as <-. injection B1 as <-. rewrite E. field. lra.
Qed.
Print Assumptions C108_uniform.

(** Only the two records around a time matter. *)
Theorem C108_local nav c ch times col nav' c' ch' times' col' i j t0 t1 v0 v1 t v :
  recorded nav c ch times col -> recorded nav' c' ch' times' col' ->
  nth_error times i = Some t0 -> nth_error times (S i) = Some t1 -> nth_error col i = Some v0 -> nth_error col (S i) = Some v1 ->
  nth_error times' j = Some t0 -> nth_error times' (S j) = Some t1 -> nth_error col' j = Some v0 -> nth_error col' (S j) = Some v1 ->
  t0 <= t <= t1 -> answer nav c ch t v <-> answer nav' c' ch' t v.
Proof.
  intros R R' A0 A1 B0 B1 C0 C1 D0 D1 H.
  assert (L : t0 < t1) by (destruct R as (_ & _ & Hi & _); exact (Hi i (S i) t0 t1 ltac:(lia) A0 A1)).
  pose proof (curve_answer _ _ _ _ _ _ _ R (segment_curve times col i t0 t1 v0 v1 t A0 A1 B0 B1 L H)) as Q.
  pose proof (curve_answer _ _ _ _ _ _ _ R' (segment_curve times' col' j t0 t1 v0 v1 t C0 C1 D0 D1 L H)) as Q'.
  unfold answer in *. rewrite Q, Q'. reflexivity.
Qed.
Print Assumptions C108_local.

(** Records that lie on the track of the others add nothing: if every record of the first table is one of
    the second, and every record of the second is what the first answers at its time, the answers of the
    two agree at every time of the first's span. *)
Theorem C108_refined nav c ch times col nav' c' ch' times' col' t v : recorded nav c ch times col -> recorded nav' c' ch' times' col' ->
  (forall s u, is_record times col s u -> is_record times' col' s u) ->
  (forall s u, is_record times' col' s u -> answer nav c ch s u) ->
  answer nav c ch t v <-> answer nav' c' ch' t v.
Proof.
  intros R R' Sub On.
  assert (HR := R). destruct HR as (_ & _ & Hi & H2 & Hl). assert (HR' := R'). destruct HR' as (_ & _ & Hi' & H2' & Hl').
  assert (K : forall t v, on_curve times' col' t v -> on_curve times col t v).
  { clear t v. intros t v OV. destruct (on_segment _ _ _ _ H2' Hl' Hi' OV) as (j & s0 & s1 & w0 & w1 & C0 & C1 & D0 & D1 & M & HS & EW).
    destruct (answer_curve _ _ _ _ _ s0 R) as [O0 _]. destruct (answer_curve _ _ _ _ _ s1 R) as [O1 _].
    specialize (O0 w0 (On s0 w0 (ex_intro _ j (conj C0 D0)))). specialize (O1 w1 (On s1 w1 (ex_intro _ (S j) (conj C1 D1)))).
    (* a segment of the first table that contains both s0 and s1 *)
    assert (SEG : exists i t0 t1 v0 v1, nth_error times i = Some t0 /\ nth_error times (S i) = Some t1 /\ nth_error col i = Some v0 /\ nth_error col (S i) = Some v1 /\
              t0 <= s0 /\ s1 <= t1).
    { assert (NOREC : forall i x, nth_error times i = Some x -> x <= s0 \/ s1 <= x).
      { intros i x EX. assert ((i < length times)%nat) by (apply nth_error_Some; congruence).
        destruct (nth_error col i) as [y|] eqn:EY; [|apply nth_error_None in EY; lia].
        destruct (Sub x y (ex_intro _ i (conj EX EY))) as (k & EK & _).
        destruct (Nat.le_gt_cases k j) as [Lk|Lk]; [left; exact (increasing_le times' k j _ _ Hi' Lk EK C0)|right; exact (increasing_le times' (S j) k _ _ Hi' Lk C1 EK)]. }
      destruct O0 as [i A B|i t0 t1 v0 v1 A0 A1 B0 B1 L E].
      - assert (Li : (i < length times)%nat) by (apply nth_error_Some; congruence).
        destruct (nth_error times (S i)) as [t1|] eqn:E1.
        + assert ((S i < length times)%nat) by (apply nth_error_Some; congruence). destruct (nth_error col (S i)) as [v1|] eqn:F1; [|apply nth_error_None in F1; lia].
          exists i, s0, t1, w0, v1. repeat split; auto; [lra|]. pose proof (Hi i (S i) s0 t1 ltac:(lia) A E1). destruct (NOREC _ _ E1); lra.
        + exfalso. apply nth_error_None in E1. destruct (on_curve_span times col s1 w1 Hi O1) as (x & a & b & EX & _ & Eb & Hx). injection EX as <-.
          replace (length times - 1)%nat with i in Eb by lia. assert (b = s0) by congruence. lra.
      - exists i, t0, t1, v0, v1. repeat split; auto; [lra|]. destruct (NOREC _ _ A1); lra. }
    destruct SEG as (i & t0 & t1 & v0 & v1 & A0 & A1 & B0 & B1 & L0 & L1).
    assert (LT : t0 < t1) by (exact (Hi i (S i) t0 t1 ltac:(lia) A0 A1)).
    rewrite (on_curve_unique times col s0 w0 _ Hi O0 (segment_curve times col i t0 t1 v0 v1 s0 A0 A1 B0 B1 LT ltac:(lra))) in EW.
    rewrite (on_curve_unique times col s1 w1 _ Hi O1 (segment_curve times col i t0 t1 v0 v1 s1 A0 A1 B0 B1 LT ltac:(lra))) in EW.
    replace v with (v0 + (v1 - v0) * ((t - t0) / (t1 - t0))); [apply (segment_curve times col i); auto; lra|].
    rewrite EW. field. lra. }
  split; intros A.
  - destruct (answer_curve _ _ _ _ _ t R) as [OV _]. specialize (OV v A).
    destruct (answer_curve _ _ _ _ _ t R') as [_ B]. destruct B as (w & AW & OW).
    + destruct (on_curve_span times col t v Hi OV) as (x & a & b & EX & Ea & Eb & Hx). injection EX as <-.
      assert (RA : exists y, nth_error col 0 = Some y). { destruct (nth_error col 0) eqn:E; [eauto|apply nth_error_None in E; lia]. }
      assert (RB : exists y, nth_error col (length times - 1) = Some y). { destruct (nth_error col (length times - 1)) eqn:E; [eauto|apply nth_error_None in E; lia]. }
      destruct RA as (ya & RA). destruct RB as (yb & RB).
      destruct (Sub a ya (ex_intro _ 0%nat (conj Ea RA))) as (ka & Ka & _). destruct (Sub b yb (ex_intro _ (length times - 1)%nat (conj Eb RB))) as (kb & Kb & _).
      destruct (nth_error times' 0) as [a'|] eqn:E0; [|apply nth_error_None in E0; lia].
      destruct (nth_error times' (length times' - 1)) as [b'|] eqn:E1; [|apply nth_error_None in E1; lia].
      assert ((kb < length times')%nat) by (apply nth_error_Some; congruence).
      pose proof (increasing_le times' 0 ka _ _ Hi' ltac:(lia) E0 Ka). pose proof (increasing_le times' kb (length times' - 1) _ _ Hi' ltac:(lia) Kb E1).
      exists t, a', b'. repeat split; auto; lra.
    + rewrite (on_curve_unique times col t v w Hi OV (K t w OW)). exact AW.
  - destruct (answer_curve _ _ _ _ _ t R') as [OV _]. exact (curve_answer _ _ _ _ _ _ _ R (K t v (OV v A))).
Qed.
Print Assumptions C108_refined.

(** The hypotheses are met: a climb that gets steeper, and the same with a record in between. *)
Definition demo_track : nav_data := [(txt "gps_time", [0; 10; 20]); (txt "height", [0; 5; 25])].
Definition demo_dense : nav_data := [(txt "gps_time", [0; 4; 10; 20]); (txt "height", [0; 2; 5; 25])].
Lemma increasing_cons a b l : a < b -> increasing (b :: l) -> increasing (a :: b :: l).
Proof.
  intros H I i j x y L Hx Hy. destruct j as [|j]; [lia|]. cbn in Hy. destruct i as [|i]; cbn in Hx.
  - injection Hx as <-. destruct j as [|j]; [cbn in Hy; injection Hy as <-; exact H|]. pose proof (I 0%nat (S j) b y ltac:(lia) eq_refl Hy). lra.
  - exact (I i j x y ltac:(lia) Hx Hy).
Qed.
Lemma increasing_one a : increasing [a].
Proof. intros i j x y L Hx Hy. destruct j as [|[|j]]; [lia|discriminate|discriminate]. Qed.
Example C108_recorded : recorded demo_track ApplanixEO Alts [0; 10; 20] [0; 5; 25] /\ recorded demo_dense ApplanixEO Alts [0; 4; 10; 20] [0; 2; 5; 25].
Proof.
  split; (split; [reflexivity|]; split; [reflexivity|]; split; [repeat (apply increasing_cons; [lra|]); apply increasing_one|]; cbn; lia).
Qed.
Example C108_hypotheses_met : rate_at_most 2 [0; 10; 20] [0; 5; 25] /\ never_falls [0; 5; 25] /\
  (exists v, answer demo_track ApplanixEO Alts 4 v /\ v = 2) /\
  (forall s u, is_record [0; 10; 20] [0; 5; 25] s u -> is_record [0; 4; 10; 20] [0; 2; 5; 25] s u) /\
  (forall s u, is_record [0; 4; 10; 20] [0; 2; 5; 25] s u -> answer demo_track ApplanixEO Alts s u).
Proof.
  destruct C108_recorded as [R _].
  assert (A4 : answer demo_track ApplanixEO Alts 4 2).
  { apply (curve_answer _ _ _ _ _ _ _ R). apply (between _ _ _ _ 0 0 10 0 5); try reflexivity; lra. }
  assert (AR : forall i s u, nth_error [0; 10; 20] i = Some s -> nth_error [0; 5; 25] i = Some u -> answer demo_track ApplanixEO Alts s u).
  { intros i s u H1 H2. apply (curve_answer _ _ _ _ _ _ _ R). now apply (at_record _ _ _ _ i). }
  split; [|split; [|split; [|split]]].
  - intros i t0 t1 v0 v1 A0 A1 B0 B1. destruct i as [|[|[|i]]]; cbn in *; try discriminate;
      injection A0 as <-; injection A1 as <-; injection B0 as <-; injection B1 as <-; apply Rabs_le; lra.
  - intros i v0 v1 B0 B1. destruct i as [|[|[|i]]]; cbn in *; try discriminate; injection B0 as <-; injection B1 as <-; lra.
  - exists 2. auto.
  - intros s u (i & H1 & H2). destruct i as [|i]; [exists 0%nat; auto|]. exists (S (S i)). auto.
  - intros s u (i & H1 & H2). destruct i as [|[|i]]; cbn in H1, H2.
    + apply (AR 0%nat); assumption.
    + injection H1 as <-. injection H2 as <-. exact A4.
    + apply (AR (S i)); assumption.
Qed.
