(** Lemmas for C43 and C44. *)
From Verif Require Import RAux M_Nav Spec_Nav.
Open Scope R_scope.
Open Scope list_scope.

Lemma nth_error_some_nth (a : list R) k x : nth_error a k = Some x -> nth k a 0 = x.
Proof. apply nth_error_nth. Qed.

Lemma increasing_nth a i j : increasing a -> (i < j < length a)%nat -> nth i a 0 < nth j a 0.
Proof.
  intros H L. apply (H i j); [lia| |]; apply nth_error_nth'; lia.
Qed.

Lemma bisect_spec a v : increasing a -> forall fuel lo hi,
  (hi - lo <= fuel)%nat -> (lo <= hi <= length a)%nat ->
  (forall j, (j < lo)%nat -> nth j a 0 < v) ->
  (forall j, (hi <= j < length a)%nat -> v <= nth j a 0) ->
  let r := bisect fuel a v lo hi in
  (r <= length a)%nat /\ (forall j, (j < r)%nat -> nth j a 0 < v) /\
  (forall j, (r <= j < length a)%nat -> v <= nth j a 0).
Proof.
  intros Ha fuel. induction fuel as [|f IH]; intros lo hi Hf Hb Hl Hh; cbn [bisect].
  - assert (lo = hi) by lia. subst. repeat split; auto; lia.
  - destruct (Nat.ltb_spec lo hi) as [Hlt|Hge].
    + set (mid := (lo + (hi - lo) / 2)%nat).
      assert (Hm : (lo <= mid < hi)%nat).
      { subst mid. split; [lia|]. pose proof (Nat.div_lt (hi - lo) 2 ltac:(lia) ltac:(lia)). lia. }
      destruct (Rltb_spec (nth mid a 0) v) as [Hc|Hc].
      * apply IH; try lia; auto.
        intros j Hj. destruct (Nat.eq_dec j mid) as [->|]; auto.
        apply Rlt_trans with (nth mid a 0); auto. apply increasing_nth; auto; lia.
      * apply IH; try lia; auto.
        intros j Hj. apply Rnot_lt_le in Hc. destruct (Nat.eq_dec j mid) as [->|]; auto.
        apply Rle_trans with (nth mid a 0); auto. left. apply increasing_nth; auto; lia.
    + assert (lo = hi) by lia. subst. repeat split; auto; lia.
Qed.

Lemma searchsorted_spec a v : increasing a ->
  let r := searchsorted a v in
  (r <= length a)%nat /\ (forall j, (j < r)%nat -> nth j a 0 < v) /\
  (forall j, (r <= j < length a)%nat -> v <= nth j a 0).
Proof. intros H. unfold searchsorted. apply bisect_spec; auto; intros; lia. Qed.

Lemma py_get_minus1 {A} (l : list A) d : l <> [] -> py_get l (-1)%Z = Ok (nth (length l - 1) l d).
Proof.
  intros H. destruct (py_get_neg l (-1)%Z) as (x & E & G).
  - unfold zlen. destruct l; [congruence|]. simpl length. lia.
  - rewrite G. f_equal. symmetry. apply nth_error_nth. rewrite <- E. f_equal. unfold zlen. lia.
Qed.

Lemma linear_interp_right x0 x1 y0 y1 : x0 <> x1 -> linear_interp x1 x0 x1 y0 y1 = Fin y1.
Proof. intros H. unfold linear_interp. rewrite fdiv_nz by lra. f_equal. field. lra. Qed.

Lemma linear_interp_between x x0 x1 y0 y1 : x0 <> x1 ->
  linear_interp x x0 x1 y0 y1 = Fin (y0 + (y1 - y0) * ((x - x0) / (x1 - x0))).
Proof. intros H. unfold linear_interp. rewrite fdiv_nz by lra. f_equal. field. lra. Qed.

Lemma interp_at_correct times col x a b :
  increasing times -> (2 <= length times)%nat -> length col = length times ->
  nth_error times 0 = Some a -> nth_error times (length times - 1) = Some b -> a <= x <= b ->
  exists v, interp_at times col (Fin x) = Ok (Fin v) /\ on_curve times col x v.
Proof.
  intros Hinc H2 Hc Ha Hb Hx. unfold interp_at.
  destruct (searchsorted_spec times x Hinc) as (R1 & R2 & R3).
  set (r := searchsorted times x) in *.
  assert (Hr : (r < length times)%nat).
  { destruct (Nat.lt_ge_cases r (length times)) as [|Hge]; [assumption|exfalso].
    specialize (R2 (length times - 1)%nat ltac:(lia)). rewrite (nth_error_some_nth _ _ _ Hb) in R2. lra. }
  destruct r as [|r'] eqn:Er.
  - assert (Hx0 : x = a).
    { specialize (R3 O ltac:(lia)). rewrite (nth_error_some_nth _ _ _ Ha) in R3. lra. }
    change (Z.of_nat 0 - 1)%Z with (-1)%Z.
    rewrite (py_get_minus1 times 0) by (destruct times; [cbn in H2; lia|discriminate]).
    rewrite (py_get_nth times 0 0) by lia.
    rewrite (py_get_minus1 col 0) by (destruct col; [cbn in Hc; lia|discriminate]).
    rewrite (py_get_nth col 0 0) by lia. cbn [bind].
    exists (nth 0 col 0). split.
    + f_equal. rewrite (nth_error_some_nth _ _ _ Ha). subst x. apply linear_interp_right.
      rewrite (nth_error_some_nth _ _ _ Hb).
      assert (a < b); [|lra]. apply (Hinc O (length times - 1)%nat); auto; lia.
    + apply (at_record _ _ _ _ O); [congruence|]. apply nth_error_nth'. lia.
  - replace (Z.of_nat (S r') - 1)%Z with (Z.of_nat r') by lia.
    rewrite (py_get_nth times r' 0), (py_get_nth times (S r') 0), (py_get_nth col r' 0), (py_get_nth col (S r') 0) by lia.
    cbn [bind].
    pose proof (R2 r' ltac:(lia)) as L1. pose proof (R3 (S r') ltac:(lia)) as L2.
    destruct (Req_EM_T x (nth (S r') times 0)) as [E|NE].
    + exists (nth (S r') col 0). split.
      * f_equal. rewrite E at 1. apply linear_interp_right. lra.
      * apply (at_record _ _ _ _ (S r')).
        -- rewrite E. apply nth_error_nth'. lia.
        -- apply nth_error_nth'. lia.
    + eexists. split.
      * f_equal. apply linear_interp_between. lra.
      * apply (between _ _ _ _ r' (nth r' times 0) (nth (S r') times 0) (nth r' col 0) (nth (S r') col 0));
          try (apply nth_error_nth'; lia); auto; lra.
Qed.

(** A point of the curve is one value, between the two neighbouring records *)
Lemma increasing_unique times i j t : increasing times -> nth_error times i = Some t -> nth_error times j = Some t -> i = j.
Proof.
  intros H Hi Hj. destruct (Nat.lt_trichotomy i j) as [L|[E|L]]; auto; exfalso.
  - specialize (H i j t t L Hi Hj). lra.
  - specialize (H j i t t L Hj Hi). lra.
Qed.

Lemma increasing_le times i j a b : increasing times -> (i <= j)%nat -> nth_error times i = Some a -> nth_error times j = Some b -> a <= b.
Proof.
  intros H L Hi Hj. destruct (Nat.eq_dec i j) as [->|]; [replace a with b by congruence; lra|].
  left. apply (H i j); auto; lia.
Qed.

Lemma on_curve_unique times col t v w : increasing times -> on_curve times col t v -> on_curve times col t w -> v = w.
Proof.
  intros H [i Hi Vi|i t0 t1 v0 v1 A0 A1 B0 B1 L E] [j Hj Vj|j s0 s1 w0 w1 C0 C1 D0 D1 M G].
  - assert (i = j) by (eapply increasing_unique; eauto). subst j. congruence.
  - exfalso. destruct (Nat.le_gt_cases i j) as [Lij|Lij].
    + pose proof (increasing_le times i j t s0 H Lij Hi C0). lra.
    + pose proof (increasing_le times (S j) i s1 t H Lij C1 Hi). lra.
  - exfalso. destruct (Nat.le_gt_cases j i) as [Lij|Lij].
    + pose proof (increasing_le times j i t t0 H Lij Hj A0). lra.
    + pose proof (increasing_le times (S i) j t1 t H Lij A1 Hj). lra.
  - assert (i = j).
    { destruct (Nat.lt_trichotomy i j) as [Lij|[Eij|Lij]]; auto; exfalso.
      - pose proof (increasing_le times (S i) j t1 s0 H Lij A1 C0). lra.
      - pose proof (increasing_le times (S j) i s1 t0 H Lij C1 A0). lra. }
    subst j. congruence.
Qed.

Lemma convex_between v0 v1 s : 0 <= s <= 1 -> Rmin v0 v1 <= v0 + (v1 - v0) * s <= Rmax v0 v1.
Proof.
  intros Hs. unfold Rmin, Rmax. destruct (Rle_dec v0 v1); split; nra.
Qed.

Lemma frac_01 t t0 t1 : t0 < t < t1 -> 0 < (t - t0) / (t1 - t0) < 1.
Proof.
  intros H. split.
  - apply Rdiv_lt_0_compat; lra.
  - apply Rmult_lt_reg_r with (t1 - t0); [lra|]. unfold Rdiv. rewrite Rmult_assoc, Rinv_l by lra. lra.
Qed.

(** Range test *)
Lemma in_range_ok nav times q : dict_get nav (txt "gps_time") = Ok times -> times <> [] ->
  (Forall (in_span times) q -> gps_times_in_range nav q = Ok true) /\
  (~ Forall (in_span times) q -> gps_times_in_range nav q = Ok false).
Proof.
  intros Hd Hne. unfold gps_times_in_range. rewrite Hd. cbn [bind].
  set (a := nth 0 times 0). set (b := nth (length times - 1) times 0).
  assert (Ga : py_get times 0 = Ok a).
  { apply (py_get_nth times 0 0). destruct times; [congruence|cbn; lia]. }
  rewrite Ga, (py_get_minus1 times 0 Hne). cbn [bind]. fold b.
  assert (Na : nth_error times 0 = Some a) by (apply nth_error_nth'; destruct times; [congruence|cbn; lia]).
  assert (Nb : nth_error times (length times - 1) = Some b) by (apply nth_error_nth'; destruct times; [congruence|cbn; lia]).
  assert (Hspan : forall t, in_span times t <-> time_ge a t = true /\ time_le b t = true).
  { intros t. split.
    - intros (x & a' & b' & -> & Ha & Hb & Hx). rewrite Na in Ha. rewrite Nb in Hb. injection Ha as <-. injection Hb as <-.
      cbn. rewrite !Rleb_true by lra. auto.
    - destruct t as [x|]; cbn; [|intros [X _]; discriminate].
      destruct (Rleb_spec a x), (Rleb_spec x b); intros [X Y]; try discriminate.
      exists x, a, b. auto. }
  split; intros H.
  - replace (forallb (time_ge a) q) with true
      by (symmetry; apply forallb_forall; intros t Ht; rewrite Forall_forall in H; apply (Hspan t), H, Ht).
    f_equal. apply forallb_forall. intros t Ht. rewrite Forall_forall in H. apply (Hspan t), H, Ht.
  - destruct (forallb (time_ge a) q) eqn:E1; [|reflexivity].
    destruct (forallb (time_le b) q) eqn:E2; [|reflexivity].
    exfalso. apply H. apply Forall_forall. intros t Ht. apply Hspan.
    rewrite forallb_forall in E1, E2. auto.
Qed.

Lemma in_range_empty nav q : dict_get nav (txt "gps_time") = Ok [] -> gps_times_in_range nav q = Err IndexError.
Proof. intros H. unfold gps_times_in_range. rewrite H. reflexivity. Qed.

Lemma mapM_total_rel {A B} (f : A -> result B) (P : A -> B -> Prop) l :
  (forall x, In x l -> exists y, f x = Ok y /\ P x y) -> exists ys, mapM f l = Ok ys /\ Forall2 P l ys.
Proof.
  induction l as [|x l IH]; intros H.
  - exists []. split; [reflexivity|constructor].
  - destruct (H x (or_introl eq_refl)) as (y & Ey & Py). destruct IH as (ys & Eys & Pys).
    { intros z Hz. apply H. right. exact Hz. }
    exists (y :: ys). cbn [mapM]. rewrite Ey. cbn [bind]. rewrite Eys. split; [reflexivity|constructor; auto].
Qed.

Lemma interp_all times col q :
  increasing times -> (2 <= length times)%nat -> length col = length times -> Forall (in_span times) q ->
  exists ys, mapM (interp_at times col) q = Ok ys /\ Forall2 (value_at times col) q ys.
Proof.
  intros Hi H2 Hc Hq. apply mapM_total_rel. intros t Ht. rewrite Forall_forall in Hq.
  destruct (Hq t Ht) as (x & a & b & -> & Ha & Hb & Hx).
  destruct (interp_at_correct times col x a b Hi H2 Hc Ha Hb Hx) as (v & E & P).
  exists (Fin v). split; [exact E|]. exists x, v. auto.
Qed.

Lemma Forall2_impl {A B} (P Q : A -> B -> Prop) l m : (forall x y, P x y -> Q x y) -> Forall2 P l m -> Forall2 Q l m.
Proof. intros H. induction 1; constructor; auto. Qed.

(** Shapes *)
Lemma Forall2_firstn {A B} (P : A -> B -> Prop) n l m : Forall2 P l m -> Forall2 P (firstn n l) (firstn n m).
Proof. intros H. revert n. induction H; intros [|n]; cbn [firstn]; constructor; auto. Qed.
Lemma Forall2_skipn {A B} (P : A -> B -> Prop) n l m : Forall2 P l m -> Forall2 P (skipn n l) (skipn n m).
Proof. intros H. revert n. induction H as [|x y l m Hxy H IH]; intros [|n]; cbn [skipn]; try constructor; auto. Qed.

Lemma split_rows_rel {A B} (P : A -> B -> Prop) nx rows : Forall (fun r => length r = nx) rows ->
  forall l, Forall2 P (concat rows) l -> Forall2 (Forall2 P) rows (split_rows (length rows) nx l).
Proof.
  induction 1 as [|r rows Hr _ IH]; intros l Hl; cbn [length split_rows]; constructor.
  - cbn [concat] in Hl. pose proof (Forall2_firstn P nx _ _ Hl) as H.
    rewrite firstn_app, <- Hr, firstn_all, Nat.sub_diag in H. cbn [firstn] in H. rewrite app_nil_r in H.
    rewrite Hr in H. exact H.
  - apply IH. cbn [concat] in Hl. pose proof (Forall2_skipn P nx _ _ Hl) as H.
    rewrite skipn_app, <- Hr, skipn_all, Nat.sub_diag in H. cbn [skipn app] in H. rewrite Hr in H. exact H.
Qed.

Lemma concat_length_rect {A} nx (rows : list (list A)) : Forall (fun r => length r = nx) rows ->
  length (concat rows) = (length rows * nx)%nat.
Proof. induction 1; cbn [concat length]; [reflexivity|]. rewrite app_length. lia. Qed.

Lemma format_round {A B} (P : A -> B -> Prop) q flat d out :
  rectangular q -> format_input_array q = (flat, d) -> Forall2 P flat out ->
  exists r, format_output_array (Some out) d = Ok (Some r) /\ pointwise P q r.
Proof.
  intros Hq E H. destruct q as [x|xs|nx rows]; cbn in E; injection E as <- <-.
  - inversion H as [|? y ? ? Hxy H0]; subst. inversion H0; subst.
    exists (Num y). split; [reflexivity|constructor; auto].
  - exists (Vec out). split; [reflexivity|constructor; auto].
  - exists (Mat nx (split_rows (length rows) nx out)). split.
    + unfold format_output_array, reshape2.
      rewrite <- (Forall2_length _ _ _ H), (concat_length_rect nx rows Hq), Nat.eqb_refl. reflexivity.
    + constructor. apply split_rows_rel; auto.
Qed.

Lemma format_flat {A} (q : narr A) : fst (format_input_array q) = elements q.
Proof. destruct q; reflexivity. Qed.

Lemma pointwise_impl {A B} (P Q : A -> B -> Prop) q r : (forall x y, P x y -> Q x y) -> pointwise P q r -> pointwise Q q r.
Proof.
  intros H [x y X|xs ys X|nx rows rows' X]; constructor; auto.
  - eapply Forall2_impl; eauto.
  - eapply Forall2_impl; [|exact X]. intros a b Y. eapply Forall2_impl; eauto.
Qed.

(** Records *)
Lemma records_ok nav times q :
  dict_get nav (txt "gps_time") = Ok times -> increasing times -> (2 <= length times)%nat ->
  Forall (fun kv => length (snd kv) = length times) nav -> Forall (in_span times) q ->
  exists recs, records_native nav q = Ok (Some recs) /\
    Forall2 (fun t rec => Forall2 (fun kv kv' => fst kv' = fst kv /\ value_at times (snd kv) t (snd kv')) nav rec) q recs.
Proof.
  intros Hd Hi H2 Hc Hq. unfold records_native.
  rewrite (proj1 (in_range_ok nav times q Hd ltac:(destruct times; [cbn in H2; lia|discriminate])) Hq), Hd. cbn [bind].
  destruct (mapM_total_rel (fun kv => ys <- mapM (interp_at times (snd kv)) q ;; Ok (fst kv, ys))
     (fun kv kv' => fst kv' = fst kv /\ Forall2 (value_at times (snd kv)) q (snd kv')) nav) as (cols & E & P).
  { intros kv Hkv. rewrite Forall_forall in Hc.
    destruct (interp_all times (snd kv) q Hi H2 (Hc kv Hkv) Hq) as (ys & -> & F).
    exists (fst kv, ys). cbn. auto. }
  rewrite E. cbn [bind].
  destruct (mapM_total_rel (fun i => mapM (fun kv => v <- py_get (snd kv) (Z.of_nat i) ;; Ok (fst kv, v)) cols)
     (fun i rec => forall t, nth_error q i = Some t ->
        Forall2 (fun kv kv' => fst kv' = fst kv /\ value_at times (snd kv) t (snd kv')) nav rec)
     (seq 0 (length q))) as (recs & E2 & P2).
  { intros i Hin. apply in_seq in Hin. clear E.
    assert (G : exists rec, mapM (fun kv : text * list flt => v <- py_get (snd kv) (Z.of_nat i) ;; Ok (fst kv, v)) cols = Ok rec /\
      Forall2 (fun kv kv' => fst kv' = fst kv /\ forall t, nth_error q i = Some t -> value_at times (snd kv) t (snd kv')) nav rec).
    { clear Hd Hc. induction P as [|kv kv' nv cs [K1 K2] _ IH]; cbn [mapM].
      - exists []. split; [reflexivity|constructor].
      - destruct IH as (rec & -> & F).
        rewrite (py_get_nth (snd kv') i NonFinite) by (rewrite <- (Forall2_length _ _ _ K2); lia). cbn [bind].
        exists ((fst kv', nth i (snd kv') NonFinite) :: rec). split; [reflexivity|]. constructor; [|exact F].
        cbn. split; [exact K1|]. intros t Ht.
        assert (Hlen : (i < length (snd kv'))%nat) by (rewrite <- (Forall2_length _ _ _ K2); lia).
        clear -K2 Ht Hlen. revert i Ht Hlen. induction K2; intros [|i] Ht Hlen; cbn in *; try discriminate; try lia.
        + injection Ht as <-. assumption.
        + apply IHK2; auto; lia. }
    destruct G as (rec & Er & F). exists rec. split; [exact Er|]. intros t Ht.
    eapply Forall2_impl; [|exact F]. cbn. intros kv kv' [A B]. auto. }
  rewrite E2. cbn [bind]. exists recs. split; [reflexivity|].
  assert (L : length recs = length q) by (rewrite <- (Forall2_length _ _ _ P2); apply seq_length).
  assert (G : forall k rec t, nth_error recs k = Some rec -> nth_error q k = Some t ->
     Forall2 (fun kv kv' => fst kv' = fst kv /\ value_at times (snd kv) t (snd kv')) nav rec).
  { intros k rec t Hk Ht. destruct (mapM_nth _ _ _ _ _ E2 Hk) as (i & Hs & _).
    assert (i = k).
    { assert (k < length q)%nat by (apply nth_error_Some; congruence).
      rewrite (nth_error_nth' _ O) in Hs by (rewrite seq_length; lia). rewrite seq_nth in Hs by lia. injection Hs as <-. reflexivity. }
    subst i.
    assert (Q : forall l m, Forall2 (fun i rec => forall t, nth_error q i = Some t ->
        Forall2 (fun kv kv' => fst kv' = fst kv /\ value_at times (snd kv) t (snd kv')) nav rec) l m ->
        forall k i rec, nth_error l k = Some i -> nth_error m k = Some rec -> forall t, nth_error q i = Some t ->
        Forall2 (fun kv kv' => fst kv' = fst kv /\ value_at times (snd kv) t (snd kv')) nav rec).
    { clear. intros l m H. induction H; intros [|k] i rec Hi Hr t Ht; cbn in *; try discriminate.
      - injection Hi as <-. injection Hr as <-. auto.
      - eapply IHForall2; eauto. }
    eapply Q; eauto. }
  clear -L G. revert recs L G. induction q as [|t q IH]; intros [|rec recs] L G; try discriminate; constructor.
  - apply (G O rec t); reflexivity.
  - apply IH; [cbn in L; lia|]. intros k r s Hk Hs. apply (G (S k) r s); assumption.
Qed.

(** Shorter arc *)
Lemma arc_direct T h0 h1 s : 0 < T -> Rabs (h1 - h0) <= T / 2 -> 0 <= s <= 1 ->
  on_shorter_arc T h0 h1 (h0 + (h1 - h0) * s).
Proof.
  intros HT H Hs. exists (h1 - h0), 0%Z, 0%Z, s. cbn. repeat split; try lra.
Qed.

Lemma no_int_between T z : 0 < T -> 0 < IZR z * T < T -> False.
Proof.
  intros HT [H1 H2]. assert (Z1 : 0 < IZR z) by nra. assert (Z2 : IZR z < 1) by nra.
  apply lt_IZR in Z1. apply lt_IZR in Z2. lia.
Qed.

Lemma arc_long_pos T h0 h1 s : 0 < T -> T / 2 < h1 - h0 < T -> 0 < s < 1 ->
  ~ on_shorter_arc T h0 h1 (h0 + (h1 - h0) * s).
Proof.
  intros HT H Hs (d & k & m & s' & E1 & Hd & Hs' & E2).
  assert (Hd' : - (T / 2) <= d <= T / 2) by (unfold Rabs in Hd; destruct (Rcase_abs d); lra).
  assert (k = 1)%Z.
  { assert (K1 : 0 < IZR k) by nra. assert (K2 : IZR k < 2) by nra.
    apply lt_IZR in K1. apply lt_IZR in K2. lia. }
  subst k. apply (no_int_between T m HT).
  set (D := h1 - h0) in *. assert (Ed : d = D - T) by lra.
  assert (Em : IZR m * T = D * s - s' * d) by lra. rewrite Em, Ed. split; nra.
Qed.

Lemma arc_sym T h0 h1 h : on_shorter_arc T h0 h1 h -> on_shorter_arc T (- h0) (- h1) (- h).
Proof.
  intros (d & k & m & s & E1 & Hd & Hs & E2).
  exists (- d), (- k)%Z, (- m)%Z, s. rewrite Rabs_Ropp, !opp_IZR. repeat split; try lra.
Qed.

Lemma arc_long T h0 h1 s : 0 < T -> T / 2 < Rabs (h1 - h0) < T -> 0 < s < 1 ->
  ~ on_shorter_arc T h0 h1 (h0 + (h1 - h0) * s).
Proof.
  intros HT H Hs. unfold Rabs in H. destruct (Rcase_abs (h1 - h0)) as [L|L].
  - intros A. apply arc_sym in A.
    replace (- (h0 + (h1 - h0) * s)) with (- h0 + (- h1 - - h0) * s) in A by ring.
    revert A. apply arc_long_pos; auto. lra.
  - apply arc_long_pos; auto.
Qed.
