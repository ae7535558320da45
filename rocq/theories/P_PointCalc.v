(** Proofs about M_PointCalc *)
From Verif Require Import RAux Text M_Nav Spec_Nav P_Nav M_PointCalc Spec_PointCalc.
Open Scope R_scope.
Open Scope list_scope.

(* ---------------------------- front end ---------------------------- *)

Definition own_point (g : projection -> projection -> point -> point) (own : projection) (world : option projection) (p : point) : point :=
  let w := match world with None => own | Some w => w end in
  if text_eqb (srs w) (srs own) then p else g w own p.
Lemma own_point_spec g own world p : in_own_projection g own world p (own_point g own world p).
Proof.
  unfold own_point, in_own_projection. destruct world as [w|].
  - split; intros H.
    + rewrite H, text_eqb_refl. reflexivity.
    + rewrite text_eqb_neq by exact H. reflexivity.
  - rewrite text_eqb_refl. reflexivity.
Qed.

Lemma project_1d_ok transform native f g own world band pts :
  projects_each native f -> transforms_each transform g ->
  project_1d transform native own world band (map p_lon pts) (map p_lat pts) (map p_alt pts) =
    Ok (map (fun p => fst (f (own_point g own world p) band)) pts, map (fun p => snd (f (own_point g own world p) band)) pts).
Proof.
  intros HN HT. unfold project_1d, own_point. destruct (text_eqb _ _) eqn:E.
  - apply HN.
  - rewrite HT. rewrite <- (map_map (g _ own) p_lon), <- (map_map (g _ own) p_lat), <- (map_map (g _ own) p_alt), HN.
    rewrite !map_map. reflexivity.
Qed.

Lemma concat_map_map {A B} (f : A -> B) rows : concat (map (map f) rows) = map f (concat rows).
Proof. induction rows; cbn; [reflexivity|]. rewrite map_app, IHrows. reflexivity. Qed.

Lemma reshape2_map {A B} (f : A -> B) nx rows : Forall (fun r => length r = nx) rows ->
  reshape2 (length rows) nx (map f (concat rows)) = Ok (Mat nx (map (map f) rows)).
Proof.
  intros H. unfold reshape2. rewrite map_length, (concat_length_rect nx rows H), Nat.eqb_refl. do 2 f_equal.
  induction H as [|r rows Hr _ IH]; [reflexivity|].
  cbn [length split_rows concat map]. rewrite map_app. f_equal.
  - rewrite firstn_app, map_length, Hr, Nat.sub_diag. cbn. rewrite firstn_all2 by (rewrite map_length; lia). apply app_nil_r.
  - rewrite skipn_app, map_length, Hr, Nat.sub_diag. rewrite skipn_all2 by (rewrite map_length; lia). exact IH.
Qed.

Lemma front_end transform native f g own world band q :
  projects_each native f -> transforms_each transform g -> Spec_Nav.rectangular q ->
  lon_lat_alt_to_pixel_x_y transform native own (nmap p_lon q) (nmap p_lat q) (Some (nmap p_alt q)) world band =
    Ok (nmap (fun p => fst (f (own_point g own world p) band)) q, nmap (fun p => snd (f (own_point g own world p) band)) q).
Proof.
  intros HN HT HR. destruct q as [p|ps|nx rows]; cbn [nmap lon_lat_alt_to_pixel_x_y bind].
  - pose proof (project_1d_ok transform native f g own world band [p] HN HT) as E. cbn [map] in E. rewrite E. reflexivity.
  - rewrite (project_1d_ok transform native f g own world band ps HN HT). reflexivity.
  - cbn [flat]. rewrite !concat_map_map, !map_length. unfold reshape1. rewrite !map_length.
    rewrite (concat_length_rect nx rows HR), Nat.mul_comm, Nat.eqb_refl. cbn [bind].
    rewrite (project_1d_ok transform native f g own world band _ HN HT). cbn [bind fst snd].
    rewrite !reshape2_map by exact HR. reflexivity.
Qed.

Lemma nmap_pointwise {A B} (f : A -> B) (P : A -> B -> Prop) q : (forall x, P x (f x)) -> pointwise P q (nmap f q).
Proof.
  intros H. assert (L : forall l, Forall2 P l (map f l)) by (induction l; constructor; auto).
  destruct q as [x|xs|nx rows]; constructor; auto. induction rows; constructor; auto.
Qed.

(* ------------------------------ solver ----------------------------- *)

Lemma float_nums_pos n : In n float_nums -> 0 < n.
Proof.
  unfold float_nums. rewrite in_map_iff. intros (k & <- & _). apply Rdiv_lt_0_compat; apply pow_lt; lra.
Qed.
Lemma first_shift_in s n : first_shift s = Ok n -> In n float_nums.
Proof.
  unfold first_shift. destruct (find _ float_nums) eqn:E; intros H; [|discriminate].
  injection H as <-. apply find_some in E. apply E.
Qed.
Lemma top_num : In (2 ^ 1073 / 2 ^ 52) float_nums.
Proof.
  unfold float_nums. apply (in_map (fun k => 2 ^ k / 2 ^ 52) (seq 0 1074) 1073%nat). apply in_seq. split; [apply Nat.le_0_l|].
  rewrite Nat.add_0_l. apply Nat.ltb_lt. vm_compute. reflexivity.
Qed.
Lemma first_shift_at s i : (i < 1074)%nat ->
  (exists dx dy, s (2 ^ i / 2 ^ 52) = (Fin dx, Fin dy) /\ 1 < dx * dx + dy * dy) ->
  (forall j, (j < i)%nat -> forall dx dy, s (2 ^ j / 2 ^ 52) = (Fin dx, Fin dy) -> dx * dx + dy * dy <= 1) ->
  first_shift s = Ok (2 ^ i / 2 ^ 52).
Proof.
  intros Hi (dx & dy & E & H) HB. unfold first_shift, float_nums.
  generalize dependent 1074%nat. intros top Hi.
  replace (seq 0 top) with (seq 0 i ++ i :: seq (S i) (top - S i)).
  2: { change (i :: seq (S i) (top - S i)) with (seq i (S (top - S i))).
       pose proof (seq_app i (S (top - S i)) 0) as Q. rewrite Nat.add_0_l in Q. rewrite <- Q. f_equal. lia. }
  rewrite map_app. cbn [map].
  assert (HN : forall l, (forall j, In j l -> (j < i)%nat) -> forall r,
    find (fun n => match s n with (Fin dx, Fin dy) => Rltb 1 (dx * dx + dy * dy) | _ => false end) (map (fun k => 2 ^ k / 2 ^ 52) l ++ r)
    = find (fun n => match s n with (Fin dx, Fin dy) => Rltb 1 (dx * dx + dy * dy) | _ => false end) r).
  { induction l as [|j l IH]; intros Hj r; [reflexivity|]. cbn [map app find].
    destruct (s (2 ^ j / 2 ^ 52)) as [[u|] [v|]] eqn:Es; try (apply IH; intros; apply Hj; right; assumption).
    destruct (Rltb_spec 1 (u * u + v * v)) as [G|G]; [|apply IH; intros; apply Hj; right; assumption].
    pose proof (HB j (Hj j (or_introl eq_refl)) u v Es). lra. }
  rewrite HN by (intros j Hj; apply in_seq in Hj; lia).
  cbn [find]. rewrite E. destruct (Rltb_spec 1 (dx * dx + dy * dy)); [reflexivity|contradiction].
Qed.
Lemma first_shift_ok s a b : (forall n, s n = (Fin (a * n), Fin (b * n))) ->
  1 < (a * a + b * b) * (2 ^ 1073 / 2 ^ 52) ^ 2 -> exists n, first_shift s = Ok n /\ 0 < n.
Proof.
  intros Hs H. unfold first_shift. destruct (find _ float_nums) as [n|] eqn:E.
  - exists n. split; [reflexivity|]. apply find_some in E. apply float_nums_pos, E.
  - exfalso. pose proof (find_none _ _ E _ top_num) as F. cbv beta in F. rewrite Hs in F. revert F H. generalize (2 ^ 1073 / 2 ^ 52).
    intros t F H. destruct (Rltb_spec 1 (a * t * (a * t) + b * t * (b * t))) as [|G]; [discriminate|]. nra.
Qed.
Lemma first_shift_zero s : (forall n, s n = (Fin 0, Fin 0)) -> first_shift s = Err IndexError.
Proof.
  intros Hs. unfold first_shift. destruct (find _ float_nums) as [n|] eqn:E; [|reflexivity].
  apply find_some in E. destruct E as [_ E]. rewrite Hs in E. destruct (Rltb_spec 1 (0 * 0 + 0 * 0)); [lra|discriminate].
Qed.

Local Opaque float_nums.
Lemma existsb_false_in {A} (f : A -> bool) l : (forall x, f x = false) -> existsb f l = false.
Proof. intros H. induction l as [|a l IH]; cbn; [reflexivity|]. rewrite H, IH. reflexivity. Qed.

Lemma first_shift_ext s s' : (forall n, s n = s' n) -> first_shift s = first_shift s'.
Proof.
  intros H. unfold first_shift.
  assert (G : forall l, find (fun n : R => match s n with | (Fin dx, Fin dy) => Rltb 1 (dx * dx + dy * dy) | _ => false end) l =
       find (fun n : R => match s' n with | (Fin dx, Fin dy) => Rltb 1 (dx * dx + dy * dy) | _ => false end) l).
  { induction l as [|x l IH]; [reflexivity|]. cbn [find]. rewrite H, IH. reflexivity. }
  rewrite G. reflexivity.
Qed.
Local Opaque first_shift.
Lemma affine_shifts a pix clon clat alt : affine_sensor a pix ->
  choose_deltas pix clon clat (Fin alt) =
   (d_lon <- first_shift (fun n => (Fin (f_xlon a alt * n), Fin (f_ylon a alt * n))) ;;
    d_lat <- first_shift (fun n => (Fin (f_xlat a alt * n), Fin (f_ylat a alt * n))) ;; Ok (d_lon, d_lat)).
Proof.
  intros [HA _]. unfold choose_deltas. rewrite HA.
  rewrite existsb_false_in by (intros n; rewrite HA; reflexivity).
  match goal with |- bind (first_shift ?s1) _ = _ => rewrite (first_shift_ext s1 (fun n => (Fin (f_xlon a alt * n), Fin (f_ylon a alt * n)))) end.
  2:{ intros n. rewrite HA. cbn [fsub fmap2]. f_equal; f_equal; ring. }
  match goal with |- bind (first_shift ?s) _ = _ => generalize (first_shift s) end. intros r. destruct r as [d1|e|].
  2:{ reflexivity. } 2:{ reflexivity. }
  unfold bind at 1 3.
  match goal with |- bind (first_shift ?s1) _ = _ => rewrite (first_shift_ext s1 (fun n => (Fin (f_xlat a alt * n), Fin (f_ylat a alt * n)))) end.
  2:{ intros n. rewrite HA. cbn [fsub fmap2]. f_equal; f_equal; ring. }
  reflexivity.
Qed.

Lemma newton_affine a pix dlon dlat q lon lat : affine_sensor a pix -> dlon <> 0 -> dlat <> 0 ->
  invertible_at a (rq_alt q) -> f_xlon a (rq_alt q) <> 0 ->
  exists lon' lat', newton pix dlon dlat q (Fin lon, Fin lat) = (Fin lon', Fin lat') /\
    pix (Fin lon') (Fin lat') (Fin (rq_alt q)) = (Fin (rq_x q), Fin (rq_y q)).
Proof.
  intros [HA _] H1 H2 HI HX. unfold newton, invertible_at in *. rewrite HA. cbn [fadd fmap2]. rewrite !HA.
  set (X0 := f_x0 a (rq_alt q)) in *. set (B := f_xlon a (rq_alt q)) in *. set (C := f_xlat a (rq_alt q)) in *.
  set (Y0 := f_y0 a (rq_alt q)) in *. set (D := f_ylon a (rq_alt q)) in *. set (E := f_ylat a (rq_alt q)) in *.
  cbn [fsub fmap2 fquot]. rewrite !fdiv_nz by assumption.
  replace ((X0 + B * (lon + dlon) + C * lat - (X0 + B * lon + C * lat)) / dlon) with B by (field; assumption).
  replace ((X0 + B * lon + C * (lat + dlat) - (X0 + B * lon + C * lat)) / dlat) with C by (field; assumption).
  replace ((Y0 + D * (lon + dlon) + E * lat - (Y0 + D * lon + E * lat)) / dlon) with D by (field; assumption).
  replace ((Y0 + D * lon + E * (lat + dlat) - (Y0 + D * lon + E * lat)) / dlat) with E by (field; assumption).
  cbn [fmul fsub fmap2 fquot]. rewrite fdiv_nz by lra. cbn [fmul fsub fmap2 fquot]. rewrite fdiv_nz by assumption. cbn [fadd fmap2].
  eexists. eexists. split; [reflexivity|]. rewrite HA. fold X0 B C Y0 D E. f_equal; f_equal; field; split; (assumption || lra).
Qed.

Lemma newton_zero_slope a pix dlon dlat q lon lat : affine_sensor a pix -> dlon <> 0 -> f_xlon a (rq_alt q) = 0 ->
  fst (newton pix dlon dlat q (lon, lat)) = NonFinite.
Proof.
  intros [HA HN] H1 HX. unfold newton.
  destruct lon as [lon|].
  2:{ destruct (pix NonFinite lat _), (pix (fadd NonFinite _) lat _), (pix NonFinite (fadd lat _) _). reflexivity. }
  destruct lat as [lat|].
  2:{ rewrite !HN by auto. reflexivity. }
  rewrite HA. cbn [fadd fmap2]. rewrite !HA, HX. cbn [fsub fmap2 fquot]. rewrite (fdiv_nz _ dlon H1).
  replace ((_ + 0 * (lon + dlon) + _ - _) / dlon) with 0 by (field; assumption).
  cbn [fst].
  match goal with |- context [fquot ?n (Fin 0)] => replace (fquot n (Fin 0)) with NonFinite; [reflexivity|generalize n] end.
  intros [m|]; cbn [fquot]; [rewrite fdiv_0|]; reflexivity.
Qed.

Lemma fmaxabs_none l : fmaxabs l = None -> l = [].
Proof. destruct l; [reflexivity|]. cbn. destruct (fmaxabs l); discriminate. Qed.
Lemma fmaxabs_le l b m : fmaxabs l = Some m ->
  (fle m b = true <-> Forall (fun x => exists r, x = Fin r /\ Rabs r <= b) l).
Proof.
  revert m. induction l as [|x l IH]; cbn [fmaxabs]; intros m H; [discriminate|].
  destruct (fmaxabs l) as [m'|] eqn:E; injection H as <-.
  - specialize (IH m' eq_refl). split.
    + intros H. destruct x as [r|], m' as [r'|]; cbn in H; try discriminate.
      destruct (Rleb_spec (Rmax (Rabs r) r') b) as [L|]; [|discriminate]. constructor.
      * exists r. split; [reflexivity|]. eapply Rle_trans; [apply Rmax_l|exact L].
      * apply IH. cbn. apply Rleb_true. eapply Rle_trans; [apply Rmax_r|exact L].
    + intros H. inversion H as [|? ? (r & -> & Hr) HF]; subst. apply IH in HF. destruct m' as [r'|]; [|discriminate].
      cbn in *. destruct (Rleb_spec r' b); [|discriminate]. apply Rleb_true. apply Rmax_lub; assumption.
  - apply fmaxabs_none in E. subst l. split.
    + destruct x as [r|]; cbn; [|discriminate]. destruct (Rleb_spec (Rabs r) b); [|discriminate]. intros _. constructor; eauto.
    + intros H. inversion H as [|? ? (r & -> & Hr) HF]; subst. cbn. apply Rleb_true. exact Hr.
Qed.

Lemma converged_ok pix threshold qs ps : length qs = length ps -> qs <> [] ->
  exists b, converged pix threshold qs ps = Ok b /\ (b = true <-> Forall2 (hits pix threshold) qs ps).
Proof.
  intros HL Hne. unfold converged. set (errs := map2 _ qs ps).
  assert (Hn : errs <> []).
  { unfold errs. destruct qs, ps; try discriminate; congruence. }
  destruct (fmaxabs (map fst errs)) as [ex|] eqn:EX.
  2:{ apply fmaxabs_none in EX. apply map_eq_nil in EX. contradiction. }
  destruct (fmaxabs (map snd errs)) as [ey|] eqn:EY.
  2:{ apply fmaxabs_none in EY. apply map_eq_nil in EY. contradiction. }
  eexists. split; [reflexivity|]. rewrite Bool.andb_true_iff, (fmaxabs_le _ _ _ EX), (fmaxabs_le _ _ _ EY).
  clear EX EY Hn Hne ex ey. unfold errs; clear errs. revert ps HL. induction qs as [|q qs IH]; intros [|p ps] HL; try discriminate.
  - cbn. split; intros; [constructor|split; constructor].
  - cbn [map2 map]. destruct (pix (fst p) (snd p) (Fin (rq_alt q))) as [x y] eqn:E. cbn [fst snd].
    specialize (IH ps ltac:(cbn in HL; lia)). split.
    + intros [H1 H2]. inversion H1 as [|? ? (r1 & E1 & L1) T1]; subst. inversion H2 as [|? ? (r2 & E2 & L2) T2]; subst.
      constructor; [|apply IH; split; assumption].
      destruct x as [x|]; [|discriminate]. destruct y as [y|]; [|discriminate]. cbn in E1, E2.
      injection E1 as <-. injection E2 as <-. exists x, y. auto.
    + intros H. inversion H as [|? ? ? ? (x' & y' & E' & L1 & L2) T]; subst. apply IH in T. destruct T as [T1 T2].
      rewrite E in E'. injection E' as -> ->. split; constructor; auto; eexists; split; try reflexivity; assumption.
Qed.

Definition sweep pix dlon dlat qs ps : list (flt * flt) := map2 (newton pix dlon dlat) qs ps.
Lemma sweep_length pix dlon dlat qs ps : length qs = length ps -> length (sweep pix dlon dlat qs ps) = length qs.
Proof. intros H. unfold sweep. rewrite map2_length. lia. Qed.

Lemma iter_length pix dlon dlat qs ps n : length qs = length ps -> length (Nat.iter n (sweep pix dlon dlat qs) ps) = length qs.
Proof. intros H. induction n; cbn; [auto|]. apply sweep_length. auto. Qed.
Lemma iter_comm {A} (f : A -> A) n x : Nat.iter n f (f x) = f (Nat.iter n f x).
Proof. induction n; [reflexivity|]. change (f (Nat.iter n f (f x)) = f (f (Nat.iter n f x))). rewrite IHn. reflexivity. Qed.

Lemma solve_loop_spec pix dlon dlat threshold qs : qs <> [] -> forall max_iter ps, length qs = length ps ->
  exists n, (n <= max_iter)%nat /\
    solve_loop pix dlon dlat threshold qs max_iter ps = Ok (Nat.iter n (sweep pix dlon dlat qs) ps) /\
    (n = max_iter \/ Forall2 (hits pix threshold) qs (Nat.iter n (sweep pix dlon dlat qs) ps)) /\
    (forall m, (1 <= m < n)%nat -> ~ Forall2 (hits pix threshold) qs (Nat.iter m (sweep pix dlon dlat qs) ps)).
Proof.
  intros Hne. induction max_iter as [|k IH]; intros ps HL.
  - exists 0%nat. repeat split; auto; intros; lia.
  - cbn [solve_loop]. change (map2 (newton pix dlon dlat) qs ps) with (sweep pix dlon dlat qs ps).
    assert (HL' : length qs = length (sweep pix dlon dlat qs ps)) by (symmetry; apply sweep_length; exact HL).
    destruct (converged_ok pix threshold qs (sweep pix dlon dlat qs ps) HL' Hne) as (b & -> & Hb). cbn [bind].
    destruct b.
    + exists 1%nat. split; [lia|]. split; [reflexivity|]. split; [right; apply Hb; reflexivity|]. intros; lia.
    + destruct (IH _ HL') as (n & Hn & E & HD & HM).
      exists (S n). split; [lia|]. cbn [Nat.iter] in *.
      assert (EC : forall m, Nat.iter m (sweep pix dlon dlat qs) (sweep pix dlon dlat qs ps) = sweep pix dlon dlat qs (Nat.iter m (sweep pix dlon dlat qs) ps))
        by (intros; apply iter_comm).
      split; [rewrite E, EC; reflexivity|]. split.
      * destruct HD as [->|HD]; [auto|]. right. rewrite EC in HD. exact HD.
      * intros m Hm. destruct m as [|m]; [lia|]. destruct m as [|m].
        -- intros F. apply Hb in F. discriminate.
        -- change (Nat.iter (S (S m)) (sweep pix dlon dlat qs) ps) with (sweep pix dlon dlat qs (Nat.iter (S m) (sweep pix dlon dlat qs) ps)).
           rewrite <- EC. apply HM. lia.
Qed.

(* ---------------------------- ray caster --------------------------- *)

Lemma nth_error_map_seq {A} (f : nat -> A) n k : (k < n)%nat -> nth_error (map f (seq 0 n)) k = Some (f k).
Proof.
  intros H. rewrite (nth_error_nth' _ (f 0%nat)) by (rewrite map_length, seq_length; lia).
  rewrite map_nth, seq_nth by lia. reflexivity.
Qed.
Lemma nth_error_map_seq_inv {A} (f : nat -> A) n k v : nth_error (map f (seq 0 n)) k = Some v -> (k < n)%nat /\ v = f k.
Proof.
  intros H. assert (L : (k < n)%nat) by (assert (H0 : nth_error (map f (seq 0 n)) k <> None) by congruence; apply nth_error_Some in H0; rewrite map_length, seq_length in H0; exact H0).
  split; [exact L|]. rewrite nth_error_map_seq in H by exact L. injection H as <-. reflexivity.
Qed.
Lemma nth_map_seq {A} (f : nat -> A) n k d : (k < n)%nat -> nth k (map f (seq 0 n)) d = f k.
Proof.
  intros H. rewrite (nth_indep _ d (f 0%nat)) by (rewrite map_length, seq_length; lia).
  rewrite map_nth, seq_nth by lia. reflexivity.
Qed.
Lemma py_get_map_seq {A} (f : nat -> A) n k : (k < n)%nat -> py_get (map f (seq 0 n)) (Z.of_nat k) = Ok (f k).
Proof.
  intros H. rewrite (py_get_nth _ k (f 0%nat)) by (rewrite map_length, seq_length; lia).
  rewrite nth_map_seq by lia. reflexivity.
Qed.
Lemma map2_map {A B C D} (h : B -> C -> D) (f : A -> B) (g : A -> C) l : map2 h (map f l) (map g l) = map (fun x => h (f x) (g x)) l.
Proof. induction l; cbn; [reflexivity|]. rewrite IHl. reflexivity. Qed.

Lemma fold_first (P : nat -> bool) l :
  fold_left (fun acc i => if P i then i else acc) (rev l) 0%nat = match find P l with Some i => i | None => 0%nat end.
Proof.
  rewrite <- (fold_left_rev_right (fun i acc => if P i then i else acc) (rev l) 0%nat), rev_involutive.
  induction l as [|a l IH]; [reflexivity|]. cbn [fold_right find]. destruct (P a); [reflexivity|exact IH].
Qed.

Lemma find_seq (P : nat -> bool) n : forall a k, find P (seq a n) = Some k ->
  (a <= k < a + n)%nat /\ P k = true /\ forall j, (a <= j < k)%nat -> P j = false.
Proof.
  induction n as [|n IH]; intros a k H; [discriminate|]. cbn [seq find] in H. destruct (P a) eqn:E.
  - injection H as <-. split; [lia|]. split; [exact E|]. intros; lia.
  - destruct (IH _ _ H) as (I1 & I2 & I3). split; [lia|]. split; [exact I2|]. intros j Hj.
    destruct (Nat.eq_dec j a) as [->|]; [exact E|]. apply I3. lia.
Qed.

Lemma linspace_seq a b n : (2 <= n)%nat -> linspace a b n = map (fun k => a + INR k * ((b - a) / INR (n - 1))) (seq 0 n).
Proof. intros H. destruct n as [|[|n]]; try lia. reflexivity. Qed.

(** One ray, in terms of the elevation e k at the sample number k *)
Lemma cast_one_spec dem mx mn n top bottom (e : R -> R) :
  (2 <= n)%nat -> mn < mx ->
  (forall s, dem (fst top + s * (fst bottom - fst top)) (snd top + s * (snd bottom - snd top)) = Fin (e s)) ->
  e 0 <= mx -> mn < e 1 ->
  exists s k, cast_one dem mx mn n top bottom =
      Ok (Fin (fst (fst (on_ray top bottom mx mn s))), Fin (snd (fst (on_ray top bottom mx mn s))), Fin (snd (on_ray top bottom mx mn s))) /\
    (k < n)%nat /\ 0 <= s < INR k / INR (n - 1) /\ INR k / INR (n - 1) <= s + 1 / INR (n - 1) /\
    snd (on_ray top bottom mx mn (INR k / INR (n - 1))) < e (INR k / INR (n - 1)) /\
    profile e n s (snd (on_ray top bottom mx mn s)) /\
    (forall s' v, s' <= s -> profile e n s' v -> v <= snd (on_ray top bottom mx mn s')).
Proof.
  intros Hn Hm Hd He0 He1.
  assert (HD : 0 < INR (n - 1)) by (apply lt_0_INR; lia).
  set (D := INR (n - 1)) in *.
  set (t := fun k => INR k / D). set (r := fun s => mx + s * (mn - mx)).
  assert (HR : linspace mx mn n = map (fun k => r (t k)) (seq 0 n)).
  { rewrite linspace_seq by exact Hn. apply map_ext. intros k. unfold r, t. fold D. field. lra. }
  assert (HLon : map (fun u => (fst bottom - fst top) * u + fst top) (linspace 0 1 n) = map (fun k => fst top + t k * (fst bottom - fst top)) (seq 0 n)).
  { rewrite linspace_seq by exact Hn. rewrite map_map. apply map_ext. intros k. unfold t. fold D. field. lra. }
  assert (HLat : map (fun u => (snd bottom - snd top) * u + snd top) (linspace 0 1 n) = map (fun k => snd top + t k * (snd bottom - snd top)) (seq 0 n)).
  { rewrite linspace_seq by exact Hn. rewrite map_map. apply map_ext. intros k. unfold t. fold D. field. lra. }
  assert (HE : map2 dem (map (fun k => fst top + t k * (fst bottom - fst top)) (seq 0 n)) (map (fun k => snd top + t k * (snd bottom - snd top)) (seq 0 n))
             = map (fun k => Fin (e (t k))) (seq 0 n)).
  { rewrite map2_map. apply map_ext. intros k. apply Hd. }
  unfold cast_one. rewrite HLon, HLat, HE, HR.
  set (P := fun i => fgt (nth i (map (fun k => Fin (e (t k))) (seq 0 n)) NonFinite) (nth i (map (fun k => r (t k)) (seq 0 n)) 0)).
  assert (HP : forall i, (i < n)%nat -> P i = Rltb (r (t i)) (e (t i))).
  { intros i Hi. unfold P. rewrite !nth_map_seq by exact Hi. reflexivity. }
  assert (FI : first_intersect (map (fun k => Fin (e (t k))) (seq 0 n)) (map (fun k => r (t k)) (seq 0 n)) n =
    match find P (seq 0 n) with Some i => i | None => 0%nat end) by exact (fold_first P (seq 0 n)).
  rewrite FI; clear FI.
  assert (T0 : t 0%nat = 0) by (unfold t; cbn; field; lra).
  assert (T1 : t (n - 1)%nat = 1) by (unfold t; fold D; field; lra).
  destruct (find P (seq 0 n)) as [k|] eqn:F.
  2:{ exfalso. assert (I : In (n - 1)%nat (seq 0 n)) by (apply in_seq; lia).
      pose proof (find_none _ _ F _ I) as Q. rewrite HP in Q by lia. rewrite T1 in Q.
      destruct (Rltb_spec (r 1) (e 1)) as [|G]; [discriminate|]. apply G. unfold r. lra. }
  destruct (find_seq P n 0 k F) as (Hk & Pk & Pj). rewrite HP in Pk by lia.
  destruct (Rltb_spec (r (t k)) (e (t k))) as [Ck|]; [|discriminate].
  assert (Cj : forall j, (j < k)%nat -> e (t j) <= r (t j)).
  { intros j Hj. specialize (Pj j ltac:(lia)). rewrite HP in Pj by lia. destruct (Rltb_spec (r (t j)) (e (t j))); [discriminate|]. lra. }
  assert (K0 : k <> 0%nat).
  { intros ->. rewrite T0 in Ck. unfold r in Ck. lra. }
  destruct k as [|k]; [congruence|]. clear K0.
  replace (Z.of_nat (S k) - 1)%Z with (Z.of_nat k) by lia.
  replace (Z.of_nat k + 1)%Z with (Z.of_nat (S k)) by lia.
  rewrite (py_get_map_seq (fun k => r (t k)) n 1 ltac:(lia) : py_get (map (fun k => r (t k)) (seq 0 n)) 1 = _).
  rewrite (py_get_map_seq (fun k => r (t k)) n 0 ltac:(lia) : py_get (map (fun k => r (t k)) (seq 0 n)) 0 = _).
  rewrite !py_get_map_seq by lia. cbn [bind].
  cbn [fsub fadd fmul fmap2 fquot].
  set (a := e (t k) - r (t k)). set (b := e (t (S k)) - r (t (S k))).
  assert (Ha : a <= 0) by (unfold a; specialize (Cj k ltac:(lia)); lra).
  assert (Hb : 0 < b) by (unfold b; lra).
  assert (TS : t (S k) = t k + / D) by (unfold t; rewrite S_INR; field; lra).
  assert (T01 : t 1%nat = / D) by (unfold t; cbn; field; lra).
  assert (HiD : 0 < / D) by (apply Rinv_0_lt_compat; exact HD).
  replace (r (t 1%nat) - r (t 0%nat) - (e (t (S k)) - e (t k))) with (a - b).
  2:{ unfold a, b, r. rewrite TS, T0, T01. ring. }
  rewrite fdiv_nz by lra. cbn [fmap2].
  set (x := a / (a - b)).
  assert (Hx : a + x * (b - a) = 0) by (unfold x; field; lra).
  assert (Hx0 : 0 <= x).
  { unfold x. replace (a / (a - b)) with ((- a) / (b - a)) by (field; lra). apply Rmult_le_pos; [lra|]. left. apply Rinv_0_lt_compat. lra. }
  assert (Hx1 : x < 1).
  { apply Rmult_lt_reg_r with (b - a); [lra|]. lra. }
  assert (Hek : e (t k) = r (t k) + a) by (unfold a; ring).
  assert (HeS : e (t (S k)) = r (t (S k)) + b) by (unfold b; ring).
  exists (t k + x * / D), (S k).
  assert (Ht0 : 0 <= t k) by (unfold t; apply Rmult_le_pos; [apply pos_INR|lra]).
  assert (Frac : forall i, (i < n)%nat -> nth_error (fractions n) i = Some (t i)).
  { intros i Hi. unfold fractions. apply (nth_error_map_seq (fun k => INR k / INR (n - 1))). exact Hi. }
  assert (Frac' : forall i v, nth_error (fractions n) i = Some v -> (i < n)%nat /\ v = t i).
  { intros i v. apply (nth_error_map_seq_inv (fun k => INR k / INR (n - 1))). }
  assert (EFrac : forall i, (i < n)%nat -> nth_error (map e (fractions n)) i = Some (e (t i))).
  { intros i Hi. apply map_nth_error. apply Frac. exact Hi. }
  assert (EFrac' : forall i v, nth_error (map e (fractions n)) i = Some v -> v = e (t i)).
  { intros i v H. assert (Hi : (i < n)%nat).
    { assert (H0 : nth_error (map e (fractions n)) i <> None) by congruence. apply nth_error_Some in H0. unfold fractions in H0.
      rewrite !map_length, seq_length in H0. exact H0. }
    rewrite EFrac in H by exact Hi. congruence. }
  fold (t (S k)). unfold on_ray. cbn [fst snd].
  change (mx + ?s * (mn - mx)) with (r s).
  split; [|split; [lia|split; [split|split; [|split; [|split]]]]].
  - apply (f_equal Ok). apply pair_equal_spec; split; [apply pair_equal_spec; split|]; apply (f_equal Fin).
    + rewrite TS. ring.
    + rewrite TS. ring.
    + unfold r. unfold x.
      assert (R1 : r (t (S k)) = r (t k) + / D * (mn - mx)) by (rewrite TS; unfold r; ring).
      rewrite Hek, HeS, R1. unfold r. unfold x in Hx. lra.
  - nra.
  - rewrite TS. nra.
  - rewrite TS. unfold Rdiv. nra.
  - exact Ck.
  - destruct (Req_dec x 0) as [X0|X0].
    + apply (at_record _ _ _ _ k).
      * rewrite Frac by lia. f_equal. rewrite X0. ring.
      * rewrite EFrac by lia. f_equal. rewrite X0, Hek. rewrite X0 in Hx. replace a with 0 by lra. unfold r. ring.
    + apply (Spec_Nav.between _ _ _ _ k (t k) (t (S k)) (e (t k)) (e (t (S k)))); auto.
      * apply Frac. lia.
      * apply Frac. lia.
      * apply EFrac. lia.
      * apply EFrac. lia.
      * rewrite TS. nra.
      * rewrite Hek, HeS. replace ((t k + x * / D - t k) / (t (S k) - t k)) with x by (rewrite TS; field; lra).
        assert (R1 : r (t (S k)) = r (t k) + / D * (mn - mx)) by (rewrite TS; unfold r; ring).
        rewrite R1. unfold r. lra.
  - intros s' v Hs' [i E1 E2|i t0 t1 v0 v1 E1 E2 E3 E4 Hi E5].
    + destruct (Frac' _ _ E1) as [Hi ->]. apply EFrac' in E2. subst v. apply Cj.
      destruct (le_lt_dec (S k) i) as [L|L]; [|exact L]. exfalso.
      assert (t (S k) <= t i) by (unfold t; apply Rmult_le_compat_r; [lra|apply le_INR; exact L]). rewrite TS in H. nra.
    + destruct (Frac' _ _ E1) as [Hin ->]. destruct (Frac' _ _ E2) as [Hin1 ->]. apply EFrac' in E3, E4. subst v0 v1.
      assert (Hik : (i <= k)%nat).
      { destruct (le_lt_dec (S k) i) as [L|L]; [|lia]. exfalso.
        assert (t (S k) <= t i) by (unfold t; apply Rmult_le_compat_r; [lra|apply le_INR; exact L]). rewrite TS in H. nra. }
      assert (TSi : t (S i) = t i + / D) by (unfold t; rewrite S_INR; field; lra).
      set (u := (s' - t i) / (t (S i) - t i)) in *.
      assert (Eu : s' = t i + u * / D) by (unfold u; rewrite TSi; field; lra).
      assert (Hu : 0 < u < 1).
      { split.
        - apply Rmult_lt_reg_r with (/ D); [exact HiD|]. lra.
        - apply Rmult_lt_reg_r with (/ D); [exact HiD|]. lra. }
      assert (R1 : r (t (S i)) = r (t i) + / D * (mn - mx)) by (rewrite TSi; unfold r; ring).
      assert (Rs : r s' = r (t i) + u * (r (t (S i)) - r (t i))) by (rewrite R1, Eu; unfold r; ring).
      rewrite E5, Rs. destruct (Nat.eq_dec i k) as [->|Hne].
      * rewrite Hek, HeS.
        assert (Hux : u <= x).
        { apply Rmult_le_reg_r with (/ D); [exact HiD|]. lra. }
        assert (u * (b - a) <= x * (b - a)) by (apply Rmult_le_compat_r; lra). lra.
      * pose proof (Cj i ltac:(lia)) as C1. pose proof (Cj (S i) ltac:(lia)) as C2.
        assert (G : (1 - u) * e (t i) + u * e (t (S i)) <= (1 - u) * r (t i) + u * r (t (S i))).
        { apply Rplus_le_compat; apply Rmult_le_compat_l; lra. }
        lra.
Qed.

(** The ray over a terrain with gaps. *)
Lemma cast_one_gaps dem mx mn n top bottom :
  (2 <= n)%nat -> mn < mx ->
  let at_ k := on_ray top bottom mx mn (INR k / INR (n - 1)) in
  let el k := dem (fst (fst (at_ k))) (snd (fst (at_ k))) in
  let above k := exists v, el k = Fin v /\ snd (at_ k) < v in
  ~ above 0%nat -> (forall v, el (n - 1)%nat = Fin v -> mn < v) ->
  exists r, cast_one dem mx mn n top bottom = Ok r /\
    (((forall k, (k < n)%nat -> ~ above k) /\ r = (NonFinite, NonFinite, NonFinite)) \/
     exists k w, (S k < n)%nat /\ (forall j, (j <= k)%nat -> ~ above j) /\ el (S k) = Fin w /\ snd (at_ (S k)) < w /\
       match el k with
       | NonFinite => r = (NonFinite, NonFinite, NonFinite)
       | Fin v => exists x, 0 <= x < 1 /\ let q := on_ray top bottom mx mn ((INR k + x) / INR (n - 1)) in
           r = (Fin (fst (fst q)), Fin (snd (fst q)), Fin (snd q)) /\ snd q = v + x * (w - v)
       end).
Proof.
  intros Hn Hm at_ el above H0 H1.
  assert (HD : 0 < INR (n - 1)) by (apply lt_0_INR; lia).
  set (D := INR (n - 1)) in *.
  set (t := fun k => INR k / D). set (r := fun s => mx + s * (mn - mx)).
  assert (HR : linspace mx mn n = map (fun k => r (t k)) (seq 0 n)).
  { rewrite linspace_seq by exact Hn. apply map_ext. intros k. unfold r, t. fold D. field. lra. }
  assert (HLon : map (fun u => (fst bottom - fst top) * u + fst top) (linspace 0 1 n) = map (fun k => fst top + t k * (fst bottom - fst top)) (seq 0 n)).
  { rewrite linspace_seq by exact Hn. rewrite map_map. apply map_ext. intros k. unfold t. fold D. field. lra. }
  assert (HLat : map (fun u => (snd bottom - snd top) * u + snd top) (linspace 0 1 n) = map (fun k => snd top + t k * (snd bottom - snd top)) (seq 0 n)).
  { rewrite linspace_seq by exact Hn. rewrite map_map. apply map_ext. intros k. unfold t. fold D. field. lra. }
  assert (HE : map2 dem (map (fun k => fst top + t k * (fst bottom - fst top)) (seq 0 n)) (map (fun k => snd top + t k * (snd bottom - snd top)) (seq 0 n))
             = map el (seq 0 n)).
  { rewrite map2_map. apply map_ext. intros k. reflexivity. }
  assert (HA : forall k, snd (at_ k) = r (t k)) by reflexivity.
  unfold cast_one. rewrite HLon, HLat, HE, HR.
  set (P := fun i => fgt (nth i (map el (seq 0 n)) NonFinite) (nth i (map (fun k => r (t k)) (seq 0 n)) 0)).
  assert (HP : forall i, (i < n)%nat -> P i = fgt (el i) (r (t i))).
  { intros i Hi. unfold P. rewrite !nth_map_seq by exact Hi. reflexivity. }
  assert (HPa : forall i, (i < n)%nat -> P i = true <-> above i).
  { intros i Hi. rewrite HP by exact Hi. unfold above. rewrite HA. destruct (el i) as [v|]; cbn [fgt].
    - destruct (Rltb_spec (r (t i)) v) as [L|L]; split; auto; try discriminate.
      + intros _. exists v. auto.
      + intros (v' & E & Q). injection E as <-. contradiction.
    - split; [discriminate|]. intros (v' & E & Q). discriminate. }
  assert (FI : first_intersect (map el (seq 0 n)) (map (fun k => r (t k)) (seq 0 n)) n =
    match find P (seq 0 n) with Some i => i | None => 0%nat end) by exact (fold_first P (seq 0 n)).
  rewrite FI; clear FI.
  assert (T0 : t 0%nat = 0) by (unfold t; cbn; field; lra).
  assert (T1 : t (n - 1)%nat = 1) by (unfold t; fold D; field; lra).
  destruct (find P (seq 0 n)) as [k|] eqn:F.
  - destruct (find_seq P n 0 k F) as (Hk & Pk & Pj).
    assert (Ak : above k) by (apply HPa; [lia|exact Pk]).
    destruct k as [|k]; [contradiction|].
    replace (Z.of_nat (S k) - 1)%Z with (Z.of_nat k) by lia.
    replace (Z.of_nat k + 1)%Z with (Z.of_nat (S k)) by lia.
    rewrite (py_get_map_seq (fun k => r (t k)) n 1 ltac:(lia) : py_get (map (fun k => r (t k)) (seq 0 n)) 1 = _).
    rewrite (py_get_map_seq (fun k => r (t k)) n 0 ltac:(lia) : py_get (map (fun k => r (t k)) (seq 0 n)) 0 = _).
    rewrite !py_get_map_seq by lia. cbn [bind].
    destruct Ak as (w & Ew & Hw). rewrite Ew.
    eexists. split; [reflexivity|]. right. exists k, w. split; [lia|].
    assert (NA : forall j, (j <= k)%nat -> ~ above j).
    { intros j Hj A. apply HPa in A; [|lia]. rewrite (Pj j) in A by lia. discriminate. }
    split; [exact NA|]. split; [exact Ew|]. split; [exact Hw|].
    destruct (el k) as [v|] eqn:Ev; [|reflexivity].
    assert (Hv : v <= r (t k)).
    { destruct (Rle_lt_dec v (r (t k))) as [|L]; [assumption|]. exfalso. apply (NA k (Nat.le_refl k)). exists v. rewrite HA. auto. }
    rewrite HA in Hw. cbn [fsub fadd fmul fmap2 fquot].
    set (a := v - r (t k)). set (b := w - r (t (S k))).
    assert (Ha : a <= 0) by (unfold a; lra). assert (Hb : 0 < b) by (unfold b; lra).
    assert (TS : t (S k) = t k + / D) by (unfold t; rewrite S_INR; field; lra).
    assert (T01 : t 1%nat = / D) by (unfold t; cbn; field; lra).
    replace (r (t 1%nat) - r (t 0%nat) - (w - v)) with (a - b) by (unfold a, b, r; rewrite TS, T0, T01; ring).
    rewrite fdiv_nz by lra. cbn [fmap2].
    set (x := a / (a - b)).
    assert (Hx : a + x * (b - a) = 0) by (unfold x; field; lra).
    exists x. split.
    { split.
      - unfold x. replace (a / (a - b)) with ((- a) / (b - a)) by (field; lra). apply Rmult_le_pos; [lra|]. left. apply Rinv_0_lt_compat. lra.
      - apply Rmult_lt_reg_r with (b - a); [lra|]. lra. }
    cbv zeta. assert (QS : (INR k + x) / D = t k + x * / D) by (unfold t; field; lra). fold D. rewrite QS. unfold on_ray. cbn [fst snd].
    assert (R1 : r (t (S k)) = r (t k) + / D * (mn - mx)) by (rewrite TS; unfold r; ring).
    assert (EA : mx + (t k + x * / D) * (mn - mx) = v + x * (w - v)).
    { assert (Q : v = r (t k) + a) by (unfold a; ring). assert (Q2 : w = r (t (S k)) + b) by (unfold b; ring). rewrite R1 in Q2.
      clearbody a b. subst v w. unfold r. lra. }
    split; [|exact EA].
    apply pair_equal_spec; split; [apply pair_equal_spec; split|]; apply (f_equal Fin).
    + rewrite TS. ring.
    + rewrite TS. ring.
    + rewrite EA. ring.
  - assert (NA : forall k, (k < n)%nat -> ~ above k).
    { intros k Hk A. apply HPa in A; [|exact Hk]. rewrite (find_none _ _ F k) in A; [discriminate|]. apply in_seq. lia. }
    assert (EN : el (n - 1)%nat = NonFinite).
    { destruct (el (n - 1)%nat) as [v|] eqn:E; [|reflexivity]. exfalso. apply (NA (n - 1)%nat); [lia|]. exists v. split; [exact E|].
      rewrite HA, T1. unfold r. specialize (H1 v eq_refl). lra. }
    change (Z.of_nat 0 - 1)%Z with (-1)%Z. change (-1 + 1)%Z with (Z.of_nat 0).
    assert (GL : forall A (f : nat -> A), py_get (map f (seq 0 n)) (-1) = Ok (f (n - 1)%nat)).
    { intros A f. unfold py_get, zlen. rewrite map_length, seq_length.
      replace (py_index (Z.of_nat n) (-1)) with (Some (n - 1)%nat).
      - rewrite (nth_error_map_seq f n (n - 1)) by lia. reflexivity.
      - unfold py_index. cbn [Z.leb Z.compare andb Z.ltb]. destruct (Z.leb_spec (- Z.of_nat n) (-1)); [|lia]. f_equal. lia. }
    rewrite !GL, EN.
    rewrite (py_get_map_seq (fun k => r (t k)) n 1 ltac:(lia) : py_get (map (fun k => r (t k)) (seq 0 n)) 1 = _).
    rewrite (py_get_map_seq (fun k => r (t k)) n 0 ltac:(lia) : py_get (map (fun k => r (t k)) (seq 0 n)) 0 = _).
    rewrite !py_get_map_seq by lia. cbn [bind].
    eexists. split; [reflexivity|]. left. split; [exact NA|]. destruct (el 0%nat); reflexivity.
Qed.

(* ------------------- convergence for nearly affine sensors ------------------- *)
Lemma Rabs_sum a b : Rabs (a + b) <= Rabs a + Rabs b. Proof. apply Rabs_triang. Qed.
Lemma Rabs_lin a b u v L : Rabs a <= L -> Rabs b <= L -> Rabs (a * u + b * v) <= L * (Rabs u + Rabs v).
Proof.
  intros Ha Hb. eapply Rle_trans; [apply Rabs_triang|]. rewrite !Rabs_mult, Rmult_plus_distr_l.
  apply Rplus_le_compat; apply Rmult_le_compat_r; auto using Rabs_pos.
Qed.

(** A slope matrix within L of a steep one is steep as well *)
Lemma steep_perturbed sx sy m L p11 p12 p21 p22 u v : steep sx sy m ->
  Rabs (p11 - fst sx) <= L -> Rabs (p12 - snd sx) <= L -> Rabs (p21 - fst sy) <= L -> Rabs (p22 - snd sy) <= L ->
  (m - L) * (Rabs u + Rabs v) <= Rmax (Rabs (p11 * u + p12 * v)) (Rabs (p21 * u + p22 * v)).
Proof.
  intros HS H11 H12 H21 H22. specialize (HS u v).
  pose proof (Rabs_lin _ _ u v L H11 H12) as E1. pose proof (Rabs_lin _ _ u v L H21 H22) as E2.
  assert (A1 : Rabs (fst sx * u + snd sx * v) <= Rabs (p11 * u + p12 * v) + L * (Rabs u + Rabs v)).
  { replace (fst sx * u + snd sx * v) with ((p11 * u + p12 * v) + - ((p11 - fst sx) * u + (p12 - snd sx) * v)) by ring.
    eapply Rle_trans; [apply Rabs_triang|]. rewrite Rabs_Ropp. lra. }
  assert (A2 : Rabs (fst sy * u + snd sy * v) <= Rabs (p21 * u + p22 * v) + L * (Rabs u + Rabs v)).
  { replace (fst sy * u + snd sy * v) with ((p21 * u + p22 * v) + - ((p21 - fst sy) * u + (p22 - snd sy) * v)) by ring.
    eapply Rle_trans; [apply Rabs_triang|]. rewrite Rabs_Ropp. lra. }
  pose proof (Rmax_l (Rabs (p11 * u + p12 * v)) (Rabs (p21 * u + p22 * v))) as M1.
  pose proof (Rmax_r (Rabs (p11 * u + p12 * v)) (Rabs (p21 * u + p22 * v))) as M2.
  set (M := Rmax (Rabs (p11 * u + p12 * v)) (Rabs (p21 * u + p22 * v))) in *.
  assert (B : Rmax (Rabs (fst sx * u + snd sx * v)) (Rabs (fst sy * u + snd sy * v)) <= M + L * (Rabs u + Rabs v)).
  { apply Rmax_lub; lra. }
  lra.
Qed.

Lemma steep_det p11 p12 p21 p22 k : 0 < k ->
  (forall u v, k * (Rabs u + Rabs v) <= Rmax (Rabs (p11 * u + p12 * v)) (Rabs (p21 * u + p22 * v))) ->
  p22 * p11 - p12 * p21 <> 0.
Proof.
  intros Hk HS E.
  assert (Z : forall u v, p11 * u + p12 * v = 0 -> p21 * u + p22 * v = 0 -> u = 0 /\ v = 0).
  { intros u v E1 E2. specialize (HS u v). rewrite E1, E2, !Rabs_R0, Rmax_left in HS by lra.
    pose proof (Rabs_pos u) as U. pose proof (Rabs_pos v) as V.
    assert (Rabs u + Rabs v <= 0) by nra.
    split; [destruct (Req_dec u 0) as [|N]; [assumption|apply Rabs_pos_lt in N; lra]
           |destruct (Req_dec v 0) as [|N]; [assumption|apply Rabs_pos_lt in N; lra]]. }
  destruct (Z p22 (- p21)) as [Z1 Z2]; [lra|ring|].
  destruct (Z p12 (- p11)) as [Z3 Z4]; [ring|lra|].
  destruct (Z 1 0) as [Z5 _]; [nra|nra|]. lra.
Qed.

Lemma slope_close f0 f1 s L d : d <> 0 -> Rabs (f1 - f0 - s * d) <= L * Rabs d -> Rabs ((f1 - f0) / d - s) <= L.
Proof.
  intros Hd H. replace ((f1 - f0) / d - s) with ((f1 - f0 - s * d) / d) by (field; exact Hd).
  unfold Rdiv. rewrite Rabs_mult, Rabs_inv. apply Rabs_pos_lt in Hd.
  apply (Rmult_le_reg_r (Rabs d)); [exact Hd|]. rewrite Rmult_assoc, Rinv_l by lra. lra.
Qed.

Lemma newton_near pix c rad sx sy L m dlon dlat q t r lon lat :
  nearly_affine pix (rq_alt q) c rad sx sy L -> steep sx sy m -> L < Rabs (fst sx) -> 0 <= L -> L < m ->
  dlon <> 0 -> dlat <> 0 -> 0 <= r -> 0 <= t ->
  t + Rabs dlon <= rad -> t + Rabs dlat <= rad -> t + r / (m - L) <= rad ->
  within c t lon lat -> hits pix r q (Fin lon, Fin lat) ->
  exists lon' lat', newton pix dlon dlat q (Fin lon, Fin lat) = (Fin lon', Fin lat') /\
    within c (t + r / (m - L)) lon' lat' /\ hits pix (2 * L / (m - L) * r) q (Fin lon', Fin lat').
Proof.
  intros (fx & fy & HF & HL) HS HX HL0 HLm H1 H2 Hr Ht T1 T2 T3 HW (x & y & EP & RX & RY).
  cbn [fst snd] in EP. unfold within in HW.
  assert (G1 : 0 < Rabs dlon) by (apply Rabs_pos_lt; exact H1). assert (G2 : 0 < Rabs dlat) by (apply Rabs_pos_lt; exact H2).
  assert (W0 : within c rad lon lat) by (unfold within; lra).
  assert (W1 : within c rad (lon + dlon) lat).
  { unfold within. replace (lon + dlon - fst c) with ((lon - fst c) + dlon) by ring. pose proof (Rabs_triang (lon - fst c) dlon). lra. }
  assert (W2 : within c rad lon (lat + dlat)).
  { unfold within. replace (lat + dlat - snd c) with ((lat - snd c) + dlat) by ring. pose proof (Rabs_triang (lat - snd c) dlat). lra. }
  pose proof (HF _ _ W0) as F0. rewrite F0 in EP. injection EP as <- <-.
  pose proof (HF _ _ W1) as F1. pose proof (HF _ _ W2) as F2.
  destruct (HL _ _ _ _ W0 W1) as [D11 D21]. destruct (HL _ _ _ _ W0 W2) as [D12 D22].
  replace (lon + dlon - lon) with dlon in D11, D21 by ring. replace (lat - lat) with 0 in D11, D21 by ring.
  replace (lat + dlat - lat) with dlat in D12, D22 by ring. replace (lon - lon) with 0 in D12, D22 by ring.
  rewrite Rabs_R0 in D11, D21, D12, D22. rewrite Rmult_0_r, Rplus_0_r in D11, D21. rewrite Rmult_0_r, Rplus_0_l in D12, D22.
  rewrite Rplus_0_r in D11, D21. rewrite Rplus_0_l in D12, D22.
  apply slope_close in D11; [|exact H1]. apply slope_close in D21; [|exact H1].
  apply slope_close in D12; [|exact H2]. apply slope_close in D22; [|exact H2].
  unfold newton. rewrite F0. cbn [fadd fmap2]. rewrite F1, F2. cbn [fsub fmap2 fquot]. rewrite !fdiv_nz by assumption.
  set (p11 := (fx (lon + dlon) lat - fx lon lat) / dlon) in *. set (p21 := (fy (lon + dlon) lat - fy lon lat) / dlon) in *.
  set (p12 := (fx lon (lat + dlat) - fx lon lat) / dlat) in *. set (p22 := (fy lon (lat + dlat) - fy lon lat) / dlat) in *.
  clearbody p11 p12 p21 p22.
  pose proof (fun u v => steep_perturbed sx sy m L p11 p12 p21 p22 u v HS D11 D12 D21 D22) as HP.
  assert (Hk : 0 < m - L) by lra.
  pose proof (steep_det p11 p12 p21 p22 (m - L) Hk HP) as HD.
  assert (HA : p11 <> 0). { intros ->. replace (0 - fst sx) with (- fst sx) in D11 by ring. rewrite Rabs_Ropp in D11. lra. }
  cbn [fmul fsub fmap2 fquot]. rewrite (fdiv_nz _ _ HD). cbn [fmul fsub fmap2 fquot]. rewrite (fdiv_nz _ _ HA). cbn [fadd fmap2].
  set (rx := rq_x q - fx lon lat) in *. set (ry := rq_y q - fy lon lat) in *.
  set (v := (ry * p11 - p21 * rx) / (p22 * p11 - p12 * p21)). set (u := (rx - v * p12) / p11).
  assert (E1 : p11 * u + p12 * v = rx) by (unfold u; field; exact HA).
  assert (E2 : p21 * u + p22 * v = ry).
  { unfold u. replace (p21 * ((rx - v * p12) / p11) + p22 * v) with ((p21 * rx + v * (p22 * p11 - p12 * p21)) / p11) by (field; exact HA).
    unfold v. field. split; assumption. }
  exists (lon + u), (lat + v). split; [reflexivity|]. clearbody u v.
  assert (HU : (m - L) * (Rabs u + Rabs v) <= r).
  { specialize (HP u v). rewrite E1, E2 in HP. eapply Rle_trans; [exact HP|]. apply Rmax_lub; assumption. }
  assert (HU2 : Rabs u + Rabs v <= r / (m - L)).
  { apply (Rmult_le_reg_l (m - L)); [exact Hk|]. replace ((m - L) * (r / (m - L))) with r by (field; lra). exact HU. }
  assert (W3 : within c (t + r / (m - L)) (lon + u) (lat + v)).
  { unfold within. replace (lon + u - fst c) with ((lon - fst c) + u) by ring. replace (lat + v - snd c) with ((lat - snd c) + v) by ring.
    pose proof (Rabs_triang (lon - fst c) u). pose proof (Rabs_triang (lat - snd c) v). lra. }
  split; [exact W3|].
  assert (W4 : within c rad (lon + u) (lat + v)) by (unfold within in *; lra).
  exists (fx (lon + u) (lat + v)), (fy (lon + u) (lat + v)). cbn [fst snd]. split; [apply HF; exact W4|].
  destruct (HL _ _ _ _ W0 W4) as [Q1 Q2].
  replace (lon + u - lon) with u in Q1, Q2 by ring. replace (lat + v - lat) with v in Q1, Q2 by ring.
  assert (B : 2 * (L * (Rabs u + Rabs v)) <= 2 * L / (m - L) * r).
  { replace (2 * L / (m - L) * r) with (2 * (L * (r / (m - L)))) by (field; lra).
    apply Rmult_le_compat_l; [lra|]. apply Rmult_le_compat_l; assumption. }
  pose proof (Rabs_lin _ _ u v L D11 D12) as S1. pose proof (Rabs_lin _ _ u v L D21 D22) as S2.
  split.
  - replace (rq_x q - fx (lon + u) (lat + v)) with
      (((p11 - fst sx) * u + (p12 - snd sx) * v) + - (fx (lon + u) (lat + v) - fx lon lat - (fst sx * u + snd sx * v)))
      by (unfold rx in E1; lra).
    eapply Rle_trans; [apply Rabs_triang|]. rewrite Rabs_Ropp. lra.
  - replace (rq_y q - fy (lon + u) (lat + v)) with
      (((p21 - fst sy) * u + (p22 - snd sy) * v) + - (fy (lon + u) (lat + v) - fy lon lat - (fst sy * u + snd sy * v)))
      by (unfold ry in E2; lra).
    eapply Rle_trans; [apply Rabs_triang|]. rewrite Rabs_Ropp. lra.
Qed.

Lemma sweep_iter_nth pix dlon dlat qs ps k q p : length qs = length ps ->
  nth_error qs k = Some q -> nth_error ps k = Some p -> forall n,
  nth_error (Nat.iter n (sweep pix dlon dlat qs) ps) k = Some (Nat.iter n (newton pix dlon dlat q) p).
Proof.
  intros HL Hq Hp. induction n as [|n IH]; [exact Hp|]. cbn [Nat.iter nat_rect]. 
  change (nth_error (map2 (newton pix dlon dlat) qs (Nat.iter n (sweep pix dlon dlat qs) ps)) k = Some (newton pix dlon dlat q (Nat.iter n (newton pix dlon dlat q) p))).
  apply map2_nth; [exact Hq|exact IH].
Qed.

Lemma newton_iter_near pix c rad sx sy L m dlon dlat q r0 : let rho := 2 * L / (m - L) in
  nearly_affine pix (rq_alt q) c rad sx sy L -> steep sx sy m -> L < Rabs (fst sx) -> 0 <= L -> 3 * L < m ->
  dlon <> 0 -> dlat <> 0 -> 0 <= r0 ->
  r0 / (m - 3 * L) + Rabs dlon <= rad -> r0 / (m - 3 * L) + Rabs dlat <= rad ->
  hits pix r0 q (Fin (fst c), Fin (snd c)) -> forall n, exists lon lat,
    Nat.iter n (newton pix dlon dlat q) (Fin (fst c), Fin (snd c)) = (Fin lon, Fin lat) /\
    within c (r0 * (1 - rho ^ n) / (m - 3 * L)) lon lat /\ hits pix (rho ^ n * r0) q (Fin lon, Fin lat).
Proof.
  intros rho HN HS HX HL0 HLm H1 H2 Hr T1 T2 HH.
  assert (Hk : 0 < m - 3 * L) by lra. assert (Hk2 : 0 < m - L) by lra.
  assert (R0 : 0 <= rho).
  { unfold rho. apply Rmult_le_pos; [lra|]. left. apply Rinv_0_lt_compat. exact Hk2. }
  assert (E1 : (1 - rho) / (m - 3 * L) = / (m - L)) by (unfold rho; field; lra).
  induction n as [|n (lon & lat & E & W & H)].
  - exists (fst c), (snd c). split; [reflexivity|]. split.
    + unfold within. rewrite !Rminus_diag_eq, !Rabs_R0 by reflexivity. cbn [pow]. right. field. lra.
    + cbn [pow]. rewrite Rmult_1_l. exact HH.
  - pose proof (pow_le rho n R0) as P0.
    assert (Ht : 0 <= r0 * (1 - rho ^ n) / (m - 3 * L)).
    { unfold within in W. pose proof (Rabs_pos (lon - fst c)). pose proof (Rabs_pos (lat - snd c)). lra. }
    assert (EQ : r0 * (1 - rho ^ n) / (m - 3 * L) + rho ^ n * r0 / (m - L) = r0 * (1 - rho ^ S n) / (m - 3 * L)).
    { replace (rho ^ n * r0 / (m - L)) with (rho ^ n * r0 * / (m - L)) by reflexivity. rewrite <- E1. cbn [pow]. field. lra. }
    assert (UB : forall j, r0 * (1 - rho ^ j) / (m - 3 * L) <= r0 / (m - 3 * L)).
    { intros j. pose proof (pow_le rho j R0). unfold Rdiv. apply Rmult_le_compat_r; [left; apply Rinv_0_lt_compat; exact Hk|]. nra. }
    destruct (newton_near pix c rad sx sy L m dlon dlat q (r0 * (1 - rho ^ n) / (m - 3 * L)) (rho ^ n * r0) lon lat) as (lon' & lat' & EN & W' & H');
      try assumption; try lra.
    + nra.
    + pose proof (UB n). lra.
    + pose proof (UB n). lra.
    + rewrite EQ. pose proof (UB (S n)). pose proof (Rabs_pos dlon). lra.
    + exists lon', lat'. split.
      * change (newton pix dlon dlat q (Nat.iter n (newton pix dlon dlat q) (Fin (fst c), Fin (snd c))) = (Fin lon', Fin lat')). rewrite E. exact EN.
      * rewrite EQ in W'. split; [exact W'|]. fold rho in H'. cbn [pow]. rewrite Rmult_assoc. exact H'.
Qed.

Lemma Forall2_nth_iff {A B} (P : A -> B -> Prop) l m : Forall2 P l m <->
  length l = length m /\ forall k a b, nth_error l k = Some a -> nth_error m k = Some b -> P a b.
Proof.
  split.
  - induction 1 as [|a b l m H _ [IH1 IH2]]; [split; [reflexivity|intros [|k]; discriminate]|].
    split; [cbn; congruence|]. intros [|k] a' b' E1 E2; [injection E1 as <-; injection E2 as <-; exact H|exact (IH2 k a' b' E1 E2)].
  - revert m. induction l as [|a l IH]; intros [|b m] [HL H]; try discriminate; constructor.
    + exact (H 0%nat a b eq_refl eq_refl).
    + apply IH. split; [cbn in HL; lia|]. intros k. exact (H (S k)).
Qed.
Lemma pow_le_1 x n : 0 <= x -> x <= 1 -> x ^ n <= 1.
Proof. intros H0 H1. rewrite <- (pow1 n). apply pow_incr. lra. Qed.
