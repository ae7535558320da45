(** Lemmas for C46 to C49. *)
From Coq Require Import Decimal DecimalString.
From Coq Require DecimalZ DecimalFacts.
From Verif Require Import RAux Text M_Time Spec_Time.
Open Scope R_scope.
Open Scope list_scope.

(* ------------------------------ bisect ------------------------------- *)

Lemma bisect_right_go_spec a x :
  (forall i j, (i <= j < length a)%nat -> (nth i a 0 <= nth j a 0)%Z) ->
  forall fuel lo hi, (hi - lo < fuel)%nat -> (lo <= hi <= length a)%nat ->
  (forall j, (j < lo)%nat -> IZR (nth j a 0%Z) <= x) ->
  (forall j, (hi <= j < length a)%nat -> x < IZR (nth j a 0%Z)) ->
  let r := bisect_right_go fuel a x lo hi in
  (r <= length a)%nat /\ (forall j, (j < r)%nat -> IZR (nth j a 0%Z) <= x) /\
  (forall j, (r <= j < length a)%nat -> x < IZR (nth j a 0%Z)).
Proof.
  intros Ha fuel. induction fuel as [|f IH]; intros lo hi Hf Hb Hl Hh; cbn [bisect_right_go]; [lia|].
  destruct (Nat.ltb_spec lo hi) as [Hlt|Hge].
  - set (mid := ((lo + hi) / 2)%nat).
    assert (Hm : (lo <= mid < hi)%nat).
    { subst mid. split; [apply Nat.div_le_lower_bound; lia|apply Nat.div_lt_upper_bound; lia]. }
    destruct (Rltb_spec x (IZR (nth mid a 0%Z))) as [Hc|Hc].
    + apply IH; try lia; auto.
      intros j Hj. apply Rlt_le_trans with (IZR (nth mid a 0%Z)); auto. apply IZR_le. apply Ha. lia.
    + apply IH; try lia; auto.
      intros j Hj. apply Rnot_lt_le in Hc. apply Rle_trans with (IZR (nth mid a 0%Z)); auto.
      apply IZR_le. apply Ha. lia.
  - assert (lo = hi) by lia. subst. repeat split; auto; lia.
Qed.

Lemma count_filter x : forall (a : list Z) r, (r <= length a)%nat ->
  (forall j, (j < r)%nat -> IZR (nth j a 0%Z) <= x) ->
  (forall j, (r <= j < length a)%nat -> x < IZR (nth j a 0%Z)) ->
  length (filter (fun l => Rleb (IZR l) x) a) = r.
Proof.
  induction a as [|y a IH]; intros r Hr H1 H2; cbn [length] in *.
  - cbn. lia.
  - cbn [filter]. destruct r as [|r].
    + pose proof (H2 O ltac:(lia)) as H0. cbn [nth] in H0. rewrite Rleb_false by lra.
      apply IH; [lia|intros; lia|]. intros j Hj. apply (H2 (S j)). lia.
    + pose proof (H1 O ltac:(lia)) as H0. cbn [nth] in H0. rewrite Rleb_true by lra. cbn [length]. f_equal.
      apply IH; [lia| |].
      * intros j Hj. apply (H1 (S j)). lia.
      * intros j Hj. apply (H2 (S j)). lia.
Qed.

Lemma bisect_right_count a x :
  (forall i j, (i <= j < length a)%nat -> (nth i a 0 <= nth j a 0)%Z) ->
  bisect_right a x = length (filter (fun l => Rleb (IZR l) x) a).
Proof.
  intros Ha. unfold bisect_right.
  destruct (bisect_right_go_spec a x Ha (S (length a)) 0 (length a)) as (H1 & H2 & H3); try lia; try (intros; lia).
  symmetry. apply count_filter; auto.
Qed.

(* ---------------------------- leap table ------------------------------ *)

Definition all_instants : list Z := year_1980_unix :: leap_instants.

Lemma dates_const c : map fst (leapseconds (fun _ => c)) = map (fun u => (u - c)%Z) all_instants.
Proof. reflexivity. Qed.

Lemma all_instants_sorted i j : (i <= j < 19)%nat -> (nth i all_instants 0 <= nth j all_instants 0)%Z.
Proof.
  intros H.
  assert (B : forallb (fun i => forallb (fun j => implb (Nat.leb i j) (nth i all_instants 0 <=? nth j all_instants 0)%Z)
              (seq 0 19)) (seq 0 19) = true) by (vm_compute; reflexivity).
  rewrite forallb_forall in B. specialize (B i ltac:(apply in_seq; lia)).
  rewrite forallb_forall in B. specialize (B j ltac:(apply in_seq; lia)).
  replace (Nat.leb i j) with true in B by (symmetry; apply Nat.leb_le; lia). cbn [implb] in B.
  apply Z.leb_le. exact B.
Qed.

Lemma filter_shift c x l :
  length (filter (fun u => Rleb (IZR u) x) (map (fun u => (u - c)%Z) l))
  = length (filter (fun u => Rleb (IZR u) (x + IZR c)) l).
Proof.
  induction l as [|u l IH]; [reflexivity|]. cbn [map filter].
  replace (Rleb (IZR (u - c)) x) with (Rleb (IZR u) (x + IZR c)).
  - destruct (Rleb (IZR u) (x + IZR c)); cbn [length]; rewrite IH; reflexivity.
  - rewrite minus_IZR. destruct (Rleb_spec (IZR u) (x + IZR c)), (Rleb_spec (IZR u - IZR c) x); auto; lra.
Qed.

Lemma filter_le {A} (f : A -> bool) l : (length (filter f l) <= length l)%nat.
Proof. induction l as [|x l IH]; [apply le_n|]. cbn [filter]. destruct (f x); cbn [length]; lia. Qed.

Lemma leaps_until_bounds t : (0 <= leaps_until t <= 18)%Z.
Proof.
  unfold leaps_until, zlen. split; [lia|].
  pose proof (filter_le (fun l => Rleb (IZR l) t) leap_instants) as H.
  change (length leap_instants) with 18%nat in H. lia.
Qed.

Definition leap_offset (t : R) : Z := if Rleb (IZR year_1980_unix) t then leaps_until t else 18%Z.

Lemma first_leap l : In l leap_instants -> (362793600 <= l)%Z.
Proof. cbn. intros H. repeat (destruct H as [<-|H]; [lia|]). destruct H. Qed.

Lemma leaps_until_0 t : t < 362793600 -> leaps_until t = 0%Z.
Proof.
  intros H. unfold leaps_until. replace (filter (fun l => Rleb (IZR l) t) leap_instants) with (@nil Z); [reflexivity|].
  symmetry. assert (K : forall l, (forall x, In x l -> (362793600 <= x)%Z) -> filter (fun l => Rleb (IZR l) t) l = []).
  { induction l as [|x l IH]; intros Hl; [reflexivity|]. cbn [filter]. rewrite Rleb_false.
    - apply IH. intros y Hy. apply Hl. right. exact Hy.
    - pose proof (IZR_le _ _ (Hl x (or_introl eq_refl))). lra. }
  apply K. apply first_leap.
Qed.

Lemma py_get_map_snd {A B} (l : list (A * B)) i : (p <- py_get l i ;; Ok (snd p)) = py_get (map snd l) i.
Proof.
  unfold py_get. rewrite zlen_map. destruct (py_index (zlen l) i) as [k|]; [|reflexivity].
  rewrite nth_error_map. destruct (nth_error l k); reflexivity.
Qed.
Lemma leapseconds_snd zone : map snd (leapseconds zone) = [19;20;21;22;23;24;25;26;27;28;29;30;31;32;33;34;35;36;37]%Z.
Proof. reflexivity. Qed.
Lemma snd_table k : (k <= 18)%nat -> py_get [19;20;21;22;23;24;25;26;27;28;29;30;31;32;33;34;35;36;37]%Z (Z.of_nat k) = Ok (19 + Z.of_nat k)%Z.
Proof. intros H. do 19 (destruct k as [|k]; [reflexivity|]). lia. Qed.
Lemma snd_table_last : py_get [19;20;21;22;23;24;25;26;27;28;29;30;31;32;33;34;35;36;37]%Z (-1) = Ok 37%Z.
Proof. reflexivity. Qed.

Lemma filter_cons_eq {A} (f : A -> bool) x l : filter f (x :: l) = if f x then x :: filter f l else filter f l.
Proof. reflexivity. Qed.

Lemma count_all x : length (filter (fun u => Rleb (IZR u) x) all_instants)
  = (if Rleb (IZR year_1980_unix) x then S (Z.to_nat (leaps_until x)) else Z.to_nat (leaps_until x)).
Proof.
  unfold leaps_until, zlen. rewrite Nat2Z.id. unfold all_instants. generalize leap_instants as ls. intros ls.
  rewrite filter_cons_eq. destruct (Rleb (IZR year_1980_unix) x); reflexivity.
Qed.

Lemma bisect_dates c t : bisect_right (map (fun u => (u - c)%Z) all_instants) t
  = length (filter (fun u => Rleb (IZR u) (t + IZR c)) all_instants).
Proof.
  rewrite bisect_right_count.
  - apply filter_shift.
  - intros i j H. rewrite map_length in H. change (length all_instants) with 19%nat in H.
    rewrite !(nth_indep _ 0%Z (0 - c)%Z) by (rewrite map_length; change (length all_instants) with 19%nat; lia).
    rewrite !(map_nth (fun u => (u - c)%Z)). pose proof (all_instants_sorted i j H). lia.
Qed.

Lemma get_leapseconds_const c t :
  get_leapseconds (fun _ => c) t = Ok (19 + leap_offset (t + IZR c))%Z.
Proof.
  unfold get_leapseconds. rewrite py_get_map_snd, leapseconds_snd, dates_const, bisect_dates, count_all.
  unfold leap_offset. pose proof (leaps_until_bounds (t + IZR c)) as B.
  destruct (Rleb_spec (IZR year_1980_unix) (t + IZR c)) as [H|H].
  - set (k := leaps_until (t + IZR c)) in *. clearbody k.
    replace (Z.of_nat (S (Z.to_nat k)) - 1)%Z with (Z.of_nat (Z.to_nat k)) by lia.
    rewrite snd_table by lia. rewrite Z2Nat.id by lia. reflexivity.
  - rewrite leaps_until_0; [apply snd_table_last|]. apply Rnot_le_lt in H. unfold year_1980_unix in H. lra.
Qed.

Lemma gps_epoch_const c : gps_epoch (fun _ => c) = (gps_epoch_unix - c)%Z.
Proof. reflexivity. Qed.
Lemma unix_epoch_const c : unix_epoch (fun _ => c) = (0 - c)%Z.
Proof. reflexivity. Qed.

Lemma gps_offset_const c t : get_gps_leapsecond_offset (fun _ => c) t = Ok (leap_offset (t + IZR c)).
Proof.
  unfold get_gps_leapsecond_offset. rewrite !get_leapseconds_const. cbn [bind]. f_equal.
  rewrite gps_epoch_const, minus_IZR.
  replace (leap_offset (IZR gps_epoch_unix - IZR c + IZR c)) with 0%Z; [lia|].
  unfold leap_offset. rewrite Rleb_true by (unfold year_1980_unix, gps_epoch_unix; lra).
  symmetry. apply leaps_until_0. unfold gps_epoch_unix. lra.
Qed.

Lemma utc_to_gps_const c t :
  utc_timestamp_to_gps_timestamp (fun _ => c) t = Ok (t - IZR gps_epoch_unix + IZR (leap_offset (t + IZR c))).
Proof.
  unfold utc_timestamp_to_gps_timestamp. rewrite gps_offset_const. cbn [bind]. f_equal.
  rewrite gps_epoch_const, unix_epoch_const, !minus_IZR. lra.
Qed.

Lemma gps_to_utc_const c g :
  gps_timestamp_to_utc_timestamp (fun _ => c) g
  = Ok (g + IZR gps_epoch_unix - IZR (leap_offset (g + IZR gps_epoch_unix + IZR c))).
Proof.
  unfold gps_timestamp_to_utc_timestamp. rewrite gps_offset_const. cbn [bind].
  rewrite gps_epoch_const, unix_epoch_const, !minus_IZR.
  replace (g + (IZR gps_epoch_unix - IZR c - (0 - IZR c))) with (g + IZR gps_epoch_unix) by lra. reflexivity.
Qed.

Lemma leaps_until_mono s t : s <= t -> (leaps_until s <= leaps_until t)%Z.
Proof.
  intros H. unfold leaps_until, zlen. apply inj_le. induction leap_instants as [|l ls IH]; [apply le_n|].
  cbn [filter]. destruct (Rleb_spec (IZR l) s), (Rleb_spec (IZR l) t); cbn [length]; try lia. lra.
Qed.

Lemma leaps_until_eq s t : s <= t ->
  (leaps_until s = leaps_until t <-> ~ exists l, In l leap_instants /\ s < IZR l <= t).
Proof.
  intros H. unfold leaps_until, zlen.
  assert (M : forall ls, (length (filter (fun l => Rleb (IZR l) s) ls) <= length (filter (fun l => Rleb (IZR l) t) ls))%nat).
  { induction ls as [|l ls IH]; [apply le_n|]. cbn [filter].
    destruct (Rleb_spec (IZR l) s), (Rleb_spec (IZR l) t); cbn [length]; try lia. lra. }
  assert (K : forall ls, length (filter (fun l => Rleb (IZR l) s) ls) = length (filter (fun l => Rleb (IZR l) t) ls)
              <-> ~ exists l, In l ls /\ s < IZR l <= t).
  { induction ls as [|l ls IH].
    - split; [intros _ (l & [] & _)|reflexivity].
    - cbn [filter]. specialize (M ls).
      destruct (Rleb_spec (IZR l) s) as [A|A], (Rleb_spec (IZR l) t) as [B|B]; cbn [length]; try lra.
      + split.
        * intros E (x & [<-|Hx] & Hl); [lra|]. apply IH; [lia|]. eauto.
        * intros E. f_equal. apply IH. intros (x & Hx & Hl). apply E. exists x. split; [right|]; assumption.
      + split; [lia|]. intros E. exfalso. apply E. exists l. split; [left; reflexivity|lra].
      + split.
        * intros E (x & [<-|Hx] & Hl); [lra|]. apply IH; [assumption|]. eauto.
        * intros E. apply IH. intros (x & Hx & Hl). apply E. exists x. split; [right|]; assumption. }
  rewrite <- K. lia.
Qed.

Lemma leaps_until_1 t l : In l leap_instants -> IZR l <= t -> (1 <= leaps_until t)%Z.
Proof.
  intros Hl Ht. unfold leaps_until, zlen.
  assert (I : In l (filter (fun l => Rleb (IZR l) t) leap_instants)) by (apply filter_In; split; [exact Hl|apply Rleb_true; exact Ht]).
  destruct (filter (fun l => Rleb (IZR l) t) leap_instants); [destruct I|]. cbn [length]. lia.
Qed.

Lemma last_leap l : In l leap_instants -> (l <= 1483228800)%Z.
Proof. cbn. intros H. repeat (destruct H as [<-|H]; [lia|]). destruct H. Qed.

Lemma leaps_until_18 t : 1483228800 <= t -> leaps_until t = 18%Z.
Proof.
  intros Ht. unfold leaps_until. replace (filter (fun l => Rleb (IZR l) t) leap_instants) with leap_instants; [reflexivity|].
  assert (K : forall l, (forall x, In x l -> (x <= 1483228800)%Z) -> l = filter (fun l => Rleb (IZR l) t) l).
  { induction l as [|x l IH]; intros Hl; [reflexivity|]. cbn [filter]. rewrite Rleb_true.
    - f_equal. apply IH. intros y Hy. apply Hl. right. exact Hy.
    - pose proof (IZR_le _ _ (Hl x (or_introl eq_refl))). lra. }
  apply K. apply last_leap.
Qed.

Lemma leap_offset_after t : IZR year_1980_unix <= t -> leap_offset t = leaps_until t.
Proof. intros H. unfold leap_offset. rewrite Rleb_true by exact H. reflexivity. Qed.
Lemma leap_offset_before t : t < IZR year_1980_unix -> leap_offset t = 18%Z.
Proof. intros H. unfold leap_offset. rewrite Rleb_false by exact H. reflexivity. Qed.

(* ------------------------------ weeks --------------------------------- *)

Lemma floorZ_spec x : IZR (floorZ x) <= x < IZR (floorZ x) + 1.
Proof. unfold floorZ. rewrite minus_IZR. destruct (archimed x). lra. Qed.

Lemma floorZ_unique x z : IZR z <= x < IZR z + 1 -> floorZ x = z.
Proof.
  intros H. pose proof (floorZ_spec x) as F.
  assert (A : IZR (floorZ x) < IZR (z + 1)) by (rewrite plus_IZR; lra).
  assert (B : IZR z < IZR (floorZ x + 1)) by (rewrite plus_IZR; lra).
  apply lt_IZR in A. apply lt_IZR in B. lia.
Qed.

Lemma week_seconds zone t g : utc_timestamp_to_gps_timestamp zone t = Ok g ->
  exists w s, utc_timestamp_to_gps_week_and_seconds zone t = Ok (w, s) /\
    0 <= s < 604800 /\ g = IZR w * 604800 + s.
Proof.
  intros E. unfold utc_timestamp_to_gps_week_and_seconds. rewrite E. cbn [bind].
  change (7 * (60 * 60 * 24))%Z with 604800%Z. change (60 * 60 * 24)%Z with 86400%Z.
  eexists _, _. split; [reflexivity|]. unfold mod1.
  pose proof (floorZ_spec (g / 604800)) as F. set (w := floorZ (g / 604800)) in *.
  assert (G : g = g / 604800 * 604800) by field.
  split; [split; lra|]. rewrite G at 1. ring.
Qed.

Lemma decomposition_unique (w w' : Z) (s s' : R) :
  0 <= s < 604800 -> 0 <= s' < 604800 -> IZR w * 604800 + s = IZR w' * 604800 + s' -> w = w' /\ s = s'.
Proof.
  intros H H' E.
  assert (w = w').
  { assert (A : IZR w < IZR (w' + 1)) by (rewrite plus_IZR; nra).
    assert (B : IZR w' < IZR (w + 1)) by (rewrite plus_IZR; nra).
    apply lt_IZR in A. apply lt_IZR in B. lia. }
  subst. split; [reflexivity|lra].
Qed.

(* ------------------------------ digits -------------------------------- *)

Lemma uint_of_digits t : Forall (fun c => is_digit c = true) t ->
  exists d, NilEmpty.uint_of_string (string_of_list_ascii t) = Some d /\
    list_ascii_of_string (NilEmpty.string_of_uint d) = t /\
    (forall acc, Z.pos (Pos.of_uint_acc d acc) = fold_left (fun a c => 10 * a + digit_val c)%Z t (Z.pos acc)) /\
    Z.of_uint d = digits_value t.
Proof.
  unfold digits_value. induction 1 as [|c t Hc _ (d & E & S & A & V)].
  - exists Nil. repeat split; reflexivity.
  - destruct c as [[] [] [] [] [] [] [] []]; vm_compute in Hc; try discriminate; clear Hc;
      cbn [string_of_list_ascii NilEmpty.uint_of_string]; rewrite E; (eexists; split; [reflexivity|]);
      (split; [cbn [NilEmpty.string_of_uint list_ascii_of_string]; rewrite S; reflexivity|]);
      (split; [intros acc; cbn [Pos.of_uint_acc]; rewrite A; cbn [fold_left]; f_equal; vm_compute digit_val; lia|]);
      cbn [fold_left];
      first [ exact V
            | match goal with |- Z.of_uint ?x = fold_left ?f t ?a =>
                let b := eval vm_compute in a in change (Z.of_uint x = fold_left f t b) end;
              unfold Z.of_uint; cbn [Pos.of_uint Z.of_N]; apply A ].
Qed.

Lemma digits_nospace t : Forall (fun c => is_digit c = true) t -> strip t = t.
Proof. intros H. apply nospace_stripped. eapply Forall_impl; [|exact H]. apply digit_not_space. Qed.

Lemma py_int_digits t : Forall (fun c => is_digit c = true) t -> t <> [] ->
  py_int t = Ok (digits_value t) /\
  exists d, list_ascii_of_string (NilEmpty.string_of_uint d) = t /\ str_of_Z (digits_value t) = txt (NilZero.string_of_uint (unorm d)).
Proof.
  intros H Hne. destruct (uint_of_digits t H) as (d & E & S & _ & V).
  split.
  - unfold py_int. rewrite (digits_nospace t H).
    destruct t as [|c t]; [congruence|]. inversion H as [|? ? Hc Ht]; subst.
    assert (Np : Ascii.eqb c "+"%char = false) by (destruct (Ascii.eqb_spec c "+"%char) as [->|]; [discriminate Hc|reflexivity]).
    rewrite Np. cbn [string_of_list_ascii] in *. unfold NilZero.int_of_string.
    assert (Nm : Ascii.eqb c "-"%char = false) by (destruct (Ascii.eqb_spec c "-"%char) as [->|]; [discriminate Hc|reflexivity]).
    rewrite Nm. unfold NilZero.uint_of_string. rewrite E. cbn [option_map]. f_equal. exact V.
  - exists d. split; [exact S|]. unfold str_of_Z. rewrite <- V.
    change (Z.of_uint d) with (Z.of_int (Pos d)). rewrite DecimalZ.to_of. reflexivity.
Qed.

Lemma digits_value_app t c : digits_value (t ++ [c]) = (10 * digits_value t + digit_val c)%Z.
Proof. unfold digits_value. rewrite fold_left_app. reflexivity. Qed.

(** digits as numbers *)
Lemma digit_cases d : is_digit_val d -> (d = 0 \/ d = 1 \/ d = 2 \/ d = 3 \/ d = 4 \/ d = 5 \/ d = 6 \/ d = 7 \/ d = 8 \/ d = 9)%Z.
Proof. unfold is_digit_val. lia. Qed.
Lemma digit_char_digit d : is_digit_val d -> is_digit (digit_char d) = true.
Proof. intros H. destruct (digit_cases d H) as [->|[->|[->|[->|[->|[->|[->|[->|[->| ->]]]]]]]]]; reflexivity. Qed.
Lemma digit_char_val d : is_digit_val d -> digit_val (digit_char d) = d.
Proof. intros H. destruct (digit_cases d H) as [->|[->|[->|[->|[->|[->|[->|[->|[->| ->]]]]]]]]]; reflexivity. Qed.

Lemma fold_digits t : forall acc, fold_left (fun a c => 10 * a + digit_val c)%Z t acc = (acc * 10 ^ Z.of_nat (length t) + digits_value t)%Z.
Proof.
  induction t as [|c t IH] using rev_ind; intros acc; [cbn; unfold digits_value; cbn; lia|].
  rewrite fold_left_app. cbn [fold_left]. rewrite IH, digits_value_app, app_length. cbn [length].
  rewrite Nat2Z.inj_add, Z.pow_add_r by lia. change (10 ^ Z.of_nat 1)%Z with 10%Z. lia.
Qed.

Lemma fraction_of_digits ds : Forall is_digit_val ds ->
  IZR (digits_value (map digit_char ds)) / 10 ^ length ds = decimal_fraction ds.
Proof.
  induction 1 as [|d ds Hd _ IH]; [unfold digits_value; cbn; field|].
  cbn [map length decimal_fraction]. rewrite <- IH.
  unfold digits_value at 1. cbn [fold_left]. rewrite fold_digits, map_length, digit_char_val by exact Hd.
  replace (10 * 0 + d)%Z with d by lia. rewrite plus_IZR, mult_IZR, <- pow_IZR. cbn [pow].
  assert (10 ^ length ds <> 0) by (apply pow_nonzero; lra). field. assumption.
Qed.

Lemma decimal_fraction_bounds ds : Forall is_digit_val ds -> 0 <= decimal_fraction ds < 1.
Proof.
  induction 1 as [|d ds Hd _ IH]; cbn [decimal_fraction]; [lra|].
  destruct Hd as [H1 H2]. apply IZR_le in H1, H2. lra.
Qed.

Lemma decimal_fraction_zeros k ds : decimal_fraction (repeat 0%Z k ++ ds) = decimal_fraction ds / 10 ^ k.
Proof.
  induction k as [|k IH]; cbn [repeat app decimal_fraction pow]; [field|].
  rewrite IH. assert (10 ^ k <> 0) by (apply pow_nonzero; lra). field. assumption.
Qed.

Lemma decimal_fraction_pos d ds : Forall is_digit_val (d :: ds) -> (d <> 0)%Z -> 0 < decimal_fraction (d :: ds).
Proof.
  intros H Hd. inversion H as [|? ? H1 H2]; subst. cbn [decimal_fraction].
  pose proof (decimal_fraction_bounds ds H2). destruct H1. assert (1 <= IZR d) by (apply IZR_le; lia). lra.
Qed.

(** leading zeros *)
Lemma split_zeros (ds : list Z) : exists k r, ds = repeat 0%Z k ++ r /\ (r = [] \/ exists d r', r = d :: r' /\ d <> 0%Z).
Proof.
  induction ds as [|d ds (k & r & -> & H)]; [exists 0%nat, []; auto|].
  destruct (Z.eq_dec d 0) as [->|N].
  - exists (S k), r. auto.
  - exists 0%nat, (d :: repeat 0%Z k ++ r). split; [reflexivity|]. right. eauto.
Qed.

Lemma string_of_uint_inj d d' : NilEmpty.string_of_uint d = NilEmpty.string_of_uint d' -> d = d'.
Proof.
  intros H. pose proof (NilEmpty.usu d) as A. rewrite H, NilEmpty.usu in A. congruence.
Qed.

Lemma uint_digits_text r : Forall (fun c => is_digit c = true) r ->
  exists d, list_ascii_of_string (NilEmpty.string_of_uint d) = r.
Proof. intros H. destruct (uint_of_digits r H) as (d & _ & S & _). eauto. Qed.

Lemma nzhead_text : forall k r d, (r = [] \/ exists d r', r = d :: r' /\ is_digit_val d /\ d <> 0%Z) ->
  list_ascii_of_string (NilEmpty.string_of_uint d) = map digit_char (repeat 0%Z k ++ r) ->
  list_ascii_of_string (NilEmpty.string_of_uint (nzhead d)) = map digit_char r.
Proof.
  induction k as [|k IH]; intros r d Hr H.
  - cbn [repeat app] in H. destruct Hr as [->|(e & r' & -> & He & Hne)].
    + destruct d; try discriminate. reflexivity.
    + destruct d; cbn [NilEmpty.string_of_uint list_ascii_of_string map] in H; try discriminate; try exact H.
      injection H as H _. exfalso. apply Hne. rewrite <- (digit_char_val e He), <- H. reflexivity.
  - cbn [repeat app map] in H. destruct d; cbn [NilEmpty.string_of_uint list_ascii_of_string] in H; try discriminate.
    injection H as H. cbn [nzhead]. apply (IH r d Hr H).
Qed.

Lemma str_of_digits k r : Forall is_digit_val r -> (r = [] \/ exists d r', r = d :: r' /\ d <> 0%Z) ->
  (0 < k + length r)%nat ->
  py_int (map digit_char (repeat 0%Z k ++ r)) = Ok (digits_value (map digit_char (repeat 0%Z k ++ r))) /\
  str_of_Z (digits_value (map digit_char (repeat 0%Z k ++ r))) = match r with [] => ["0"%char] | _ => map digit_char r end.
Proof.
  intros Hr Hs Hk. set (t := map digit_char (repeat 0%Z k ++ r)).
  assert (Ht : Forall (fun c => is_digit c = true) t).
  { unfold t. apply Forall_map. apply Forall_app. split.
    - apply Forall_forall. intros x Hx. apply repeat_spec in Hx. subst. reflexivity.
    - eapply Forall_impl; [|exact Hr]. apply digit_char_digit. }
  assert (Hn : t <> []).
  { intros E. apply (f_equal (@length _)) in E. unfold t in E. rewrite map_length, app_length, repeat_length in E. cbn in E. lia. }
  destruct (py_int_digits t Ht Hn) as (E & d & Sd & Ez). split; [exact E|]. rewrite Ez.
  assert (N : list_ascii_of_string (NilEmpty.string_of_uint (nzhead d)) = map digit_char r).
  { apply (nzhead_text k r d); [|exact Sd]. destruct Hs as [->|(e & r' & -> & He)]; [left; reflexivity|right].
    inversion Hr; subst. eauto. }
  unfold unorm. destruct r as [|e r'].
  - destruct (nzhead d); try discriminate. reflexivity.
  - destruct (nzhead d); try discriminate; exact N.
Qed.

Lemma subsec_split k r : Forall is_digit_val r -> (r = [] \/ exists d r', r = d :: r' /\ d <> 0%Z) ->
  (0 < k + length r)%nat ->
  subsec_fraction (map digit_char (repeat 0%Z k ++ r)) = Ok (decimal_fraction r).
Proof.
  intros Hr Hs Hk. unfold subsec_fraction. destruct (str_of_digits k r Hr Hs Hk) as (-> & E). cbn [bind]. rewrite E.
  destruct r as [|e r'].
  - change (Ok (0 / 10 ^ 1) = Ok 0). f_equal. cbn. lra.
  - unfold float_0_dot. rewrite (proj2 (forallb_forall _ _)).
    + rewrite map_length, fraction_of_digits by exact Hr. reflexivity.
    + intros c Hc. apply in_map_iff in Hc as (x & <- & Hx). apply digit_char_digit. rewrite Forall_forall in Hr. auto.
Qed.

(** Padded fields *)
Lemma padded_digits w n : (0 <= n)%Z -> Forall (fun c => is_digit c = true) (padded w n).
Proof.
  revert n; induction w as [|w IH]; intros n Hn; cbn [padded]; [constructor|].
  apply Forall_app. split; [apply IH; apply Z.div_pos; lia|].
  repeat constructor. apply digit_char_digit. unfold is_digit_val. pose proof (Z.mod_pos_bound n 10). lia.
Qed.

Lemma padded_value w n : (0 <= n < 10 ^ Z.of_nat w)%Z -> digits_value (padded w n) = n.
Proof.
  revert n; induction w as [|w IH]; intros n Hn.
  - cbn in *. unfold digits_value. cbn. lia.
  - cbn [padded]. rewrite digits_value_app, IH.
    + rewrite digit_char_val by (unfold is_digit_val; pose proof (Z.mod_pos_bound n 10); lia).
      pose proof (Z.div_mod n 10). lia.
    + rewrite Nat2Z.inj_succ, Z.pow_succ_r in Hn by lia. split; [apply Z.div_pos; lia|].
      apply Z.div_lt_upper_bound; lia.
Qed.

Lemma py_int_padded w n : (0 < w)%nat -> (0 <= n < 10 ^ Z.of_nat w)%Z -> py_int (padded w n) = Ok n.
Proof.
  intros Hw Hn. destruct (py_int_digits (padded w n)) as [E _].
  - apply padded_digits. lia.
  - destruct w; [lia|]. cbn [padded]. destruct (padded w (n / 10)); discriminate.
  - rewrite E, padded_value by exact Hn. reflexivity.
Qed.

Lemma exif_slices y m d hh mm ss :
  let t := exif_datetime y m d hh mm ss in
  py_slice t 0 4 = padded 4 y /\ py_slice t 5 7 = padded 2 m /\ py_slice t 8 10 = padded 2 d /\
  py_slice t 11 13 = padded 2 hh /\ py_slice t 14 16 = padded 2 mm /\ py_slice t 17 19 = padded 2 ss.
Proof. repeat split; reflexivity. Qed.

Lemma days_in_month_bound y m : (1 <= m <= 12)%Z -> (28 <= days_in_month y m <= 31)%Z.
Proof.
  intros H. unfold days_in_month, month_lengths. set (b := is_leap y). clearbody b.
  assert (m = 1 \/ m = 2 \/ m = 3 \/ m = 4 \/ m = 5 \/ m = 6 \/ m = 7 \/ m = 8 \/ m = 9 \/ m = 10 \/ m = 11 \/ m = 12)%Z as C by lia.
  destruct C as [->|[->|[->|[->|[->|[->|[->|[->|[->|[->|[->| ->]]]]]]]]]]]; destruct b; vm_compute; split; discriminate.
Qed.

(* ----------------------------- calendar ------------------------------- *)

Lemma is_leap_spec y : is_leap y = true <-> leap_year y.
Proof.
  unfold is_leap, leap_year. rewrite !andb_true_iff, orb_true_iff, negb_true_iff, !Z.eqb_eq, Z.eqb_neq.
  rewrite <- !Z.mod_divide by lia. tauto.
Qed.

Lemma month_length_spec y m l : month_length y m l <-> (1 <= m <= 12)%Z /\ days_in_month y m = l.
Proof.
  split.
  - intros [m' H|m' H|H|H].
    + cbn in H. destruct H as [<-|[<-|[<-|[<-|[<-|[<-|[<-|[]]]]]]]]; split; try lia; reflexivity.
    + cbn in H. destruct H as [<-|[<-|[<-|[<-|[]]]]]; split; try lia; reflexivity.
    + split; [lia|]. unfold days_in_month, month_lengths. destruct (is_leap y) eqn:E; [|reflexivity].
      apply is_leap_spec in E. contradiction.
    + split; [lia|]. unfold days_in_month, month_lengths. apply is_leap_spec in H. rewrite H. reflexivity.
  - intros [H E].
    assert (m = 1 \/ m = 2 \/ m = 3 \/ m = 4 \/ m = 5 \/ m = 6 \/ m = 7 \/ m = 8 \/ m = 9 \/ m = 10 \/ m = 11 \/ m = 12)%Z as C by lia.
    destruct C as [->|[->|[->|[->|[->|[->|[->|[->|[->|[->|[->| ->]]]]]]]]]]]; 
      try (subst l; unfold days_in_month, month_lengths;
           match goal with |- month_length _ _ ?x => let b := eval vm_compute in x in change (month_length y 0 b) || change x with b end;
           first [apply thirty_one; cbn; tauto|apply thirty; cbn; tauto]).
    subst l. unfold days_in_month, month_lengths. destruct (is_leap y) eqn:L.
    + apply february_leap. apply is_leap_spec. exact L.
    + apply february_common. intros K. apply is_leap_spec in K. congruence.
Qed.

Lemma days_before_month_step y m : (1 <= m < 12)%Z ->
  days_before_month y (m + 1) = (days_before_month y m + days_in_month y m)%Z.
Proof.
  intros H. unfold days_before_month, days_in_month, month_lengths. set (b := is_leap y). clearbody b.
  assert (m = 1 \/ m = 2 \/ m = 3 \/ m = 4 \/ m = 5 \/ m = 6 \/ m = 7 \/ m = 8 \/ m = 9 \/ m = 10 \/ m = 11)%Z as C by lia.
  destruct C as [->|[->|[->|[->|[->|[->|[->|[->|[->|[->| ->]]]]]]]]]]; destruct b; vm_compute; reflexivity.
Qed.

Lemma days_before_year_step y : days_before_year (y + 1) = (days_before_year y + 365 + (if is_leap y then 1 else 0))%Z.
Proof.
  unfold days_before_year, is_leap. replace (y + 1 - 1)%Z with y by lia.
  pose proof (Z.div_mod y 4 ltac:(lia)). pose proof (Z.mod_pos_bound y 4 ltac:(lia)).
  pose proof (Z.div_mod y 100 ltac:(lia)). pose proof (Z.mod_pos_bound y 100 ltac:(lia)).
  pose proof (Z.div_mod y 400 ltac:(lia)). pose proof (Z.mod_pos_bound y 400 ltac:(lia)).
  pose proof (Z.div_mod (y - 1) 4 ltac:(lia)). pose proof (Z.mod_pos_bound (y - 1) 4 ltac:(lia)).
  pose proof (Z.div_mod (y - 1) 100 ltac:(lia)). pose proof (Z.mod_pos_bound (y - 1) 100 ltac:(lia)).
  pose proof (Z.div_mod (y - 1) 400 ltac:(lia)). pose proof (Z.mod_pos_bound (y - 1) 400 ltac:(lia)).
  destruct (Z.eqb_spec (y mod 4) 0), (Z.eqb_spec (y mod 100) 0), (Z.eqb_spec (y mod 400) 0); cbn [andb orb negb]; lia.
Qed.

Lemma days_before_month_13 y : (days_before_month y 12 + 31)%Z = (365 + (if is_leap y then 1 else 0))%Z.
Proof. unfold days_before_month, month_lengths. destruct (is_leap y); reflexivity. Qed.

Lemma day_number_spec y m d n : day_number y m d n ->
  valid_date y m d /\ (1970 <= y)%Z /\ n = (ordinal y m d - ordinal 1970 1 1)%Z.
Proof.
  induction 1 as [|y m d n _ (V & Y & ->) V'|y m d n _ (V & Y & ->) L M|y n _ (V & Y & ->)].
  - repeat split; try lia. exists 31%Z. split; [apply thirty_one; cbn; tauto|lia].
  - repeat split; auto. unfold ordinal. lia.
  - apply month_length_spec in L as [Hm E]. repeat split; auto.
    + pose proof (days_in_month_bound y (m + 1) ltac:(lia)). exists (days_in_month y (m + 1)).
      split; [apply month_length_spec; split; [lia|reflexivity]|lia].
    + unfold ordinal. rewrite days_before_month_step by lia. lia.
  - repeat split; try lia.
    + exists 31%Z. split; [apply thirty_one; cbn; tauto|lia].
    + unfold ordinal. rewrite days_before_year_step. pose proof (days_before_month_13 y).
      change (days_before_month (y + 1) 1) with 0%Z. lia.
Qed.

Lemma day_number_month_start y m n : (1 <= m <= 12)%Z -> day_number y m 1 n ->
  forall d, (1 <= d <= days_in_month y m)%Z -> day_number y m d (n + (d - 1)).
Proof.
  intros Hm H d Hd. replace d with (1 + Z.of_nat (Z.to_nat (d - 1)))%Z in * by lia.
  generalize dependent (Z.to_nat (d - 1)). intros k. induction k as [|k IH]; intros Hk.
  - replace (n + (1 + Z.of_nat 0 - 1))%Z with n by lia. exact H.
  - replace (1 + Z.of_nat (S k))%Z with (1 + Z.of_nat k + 1)%Z by lia.
    replace (n + (1 + Z.of_nat k + 1 - 1))%Z with (n + (1 + Z.of_nat k - 1) + 1)%Z by lia.
    apply same_month; [apply IH; lia|]. exists (days_in_month y m).
    split; [apply month_length_spec; auto|lia].
Qed.

Lemma day_number_year_start y n : day_number y 1 1 n -> forall m, (1 <= m <= 12)%Z -> exists k, day_number y m 1 k.
Proof.
  intros H m Hm. replace m with (1 + Z.of_nat (Z.to_nat (m - 1)))%Z in * by lia.
  generalize dependent (Z.to_nat (m - 1)). intros j. induction j as [|j IH]; intros Hj; [eauto|].
  destruct IH as (k & K); [lia|].
  replace (1 + Z.of_nat (S j))%Z with (1 + Z.of_nat j + 1)%Z by lia.
  pose proof (days_in_month_bound y (1 + Z.of_nat j) ltac:(lia)) as B.
  eexists. eapply next_month; [apply (day_number_month_start _ (1 + Z.of_nat j) _ ltac:(lia) K (days_in_month y (1 + Z.of_nat j))); lia| |lia].
  apply month_length_spec. split; [lia|reflexivity].
Qed.

Lemma day_number_exists y m d : (1970 <= y)%Z -> valid_date y m d -> exists n, day_number y m d n.
Proof.
  intros Hy (l & L & Hd). apply month_length_spec in L as [Hm <-].
  assert (Y : exists n, day_number y 1 1 n).
  { replace y with (1970 + Z.of_nat (Z.to_nat (y - 1970)))%Z by lia.
    induction (Z.to_nat (y - 1970)) as [|k (n & IH)]; [exists 0%Z; constructor|].
    destruct (day_number_year_start _ _ IH 12 ltac:(lia)) as (j & J).
    replace (1970 + Z.of_nat (S k))%Z with (1970 + Z.of_nat k + 1)%Z by lia.
    eexists. apply next_year. apply (day_number_month_start _ 12 _ ltac:(lia) J 31).
    assert (E : month_length (1970 + Z.of_nat k) 12 31) by (apply thirty_one; cbn; tauto).
    apply month_length_spec in E as [_ ->]. lia. }
  destruct Y as (n & Yn). destruct (day_number_year_start _ _ Yn m Hm) as (j & J).
  eexists. apply (day_number_month_start _ _ _ Hm J d Hd).
Qed.

Lemma day_number_seconds y m d n hh mm ss : day_number y m d n ->
  naive_seconds y m d hh mm ss = (n * 86400 + hh * 3600 + mm * 60 + ss)%Z.
Proof. intros H. apply day_number_spec in H as (_ & _ & ->). unfold naive_seconds. reflexivity. Qed.

Lemma days_before_month_nonneg y m : (0 <= days_before_month y m)%Z.
Proof.
  unfold days_before_month, month_lengths. generalize (Z.to_nat (m - 1)). intros k.
  destruct (is_leap y); do 13 (destruct k as [|k]; [vm_compute; discriminate|]); vm_compute; discriminate.
Qed.

Lemma day_number_1980 y m d n : day_number y m d n -> (1980 <= y)%Z -> (3652 <= n)%Z.
Proof.
  intros H Hy. apply day_number_spec in H as ((l & L & Hd) & _ & ->).
  unfold ordinal. pose proof (days_before_month_nonneg y m).
  assert (days_before_year 1980 <= days_before_year y)%Z.
  { replace y with (1980 + Z.of_nat (Z.to_nat (y - 1980)))%Z by lia. induction (Z.to_nat (y - 1980)) as [|k IH].
    - apply Z.le_refl.
    - replace (1980 + Z.of_nat (S k))%Z with (1980 + Z.of_nat k + 1)%Z by lia. rewrite days_before_year_step.
      destruct (is_leap (1980 + Z.of_nat k)); lia. }
  change (days_before_year 1980) with 722814%Z in *. change (days_before_year 1970) with 719162%Z.
  change (days_before_month 1970 1) with 0%Z. lia.
Qed.

Lemma valid_datetime_spec y m d hh mm ss : valid_datetime y m d hh mm ss = true <->
  (1 <= y <= 9999)%Z /\ valid_date y m d /\ (0 <= hh <= 23)%Z /\ (0 <= mm <= 59)%Z /\ (0 <= ss <= 59)%Z.
Proof.
  unfold valid_datetime. repeat rewrite andb_true_iff. rewrite !Z.leb_le. split.
  - intros H. repeat split; try lia. exists (days_in_month y m).
    split; [apply month_length_spec; split; [lia|reflexivity]|lia].
  - intros (Hy & (l & L & Hd) & Hh & Hm & Hs). apply month_length_spec in L as [Hmo <-]. repeat split; lia.
Qed.
