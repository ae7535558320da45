(** Proofs for C76 - C80. *)
From Coq Require Import String QArith Qreals.
From Verif Require Import RAux Text Py Geo3 M_Photo M_PointCalc M_Image M_Cameras M_Sim.
From Verif Require Import Spec_Photo P_Photo Prop_Photo P_Image.
From Verif Require Spec_PointCalc P_PointCalc Prop_PointCalc Spec_Cameras Prop_Cameras Spec_Dem Prop_Dem.
From Verif Require Import Spec_Sim.
Open Scope R_scope.
Open Scope list_scope.

(* ----------------------------- the requests -------------------------- *)

Lemma q2r_nat n : Q2R (Z.of_nat n # 1) = INR n.
Proof. unfold Q2R. cbn [Qnum Qden]. rewrite <- INR_IZR_INZ. field. Qed.

Lemma map2_app {A B C} (f : A -> B -> C) l l' m m' : length l = length m -> map2 f (l ++ l') (m ++ m') = map2 f l m ++ map2 f l' m'.
Proof. revert m; induction l as [|x l IH]; intros [|y m] H; try discriminate; [reflexivity|]. cbn. rewrite IH by (cbn in H; lia). reflexivity. Qed.
Lemma map2_const {A B C D} (f : B -> C -> D) (g : A -> B) (c : C) l : map2 f (map g l) (map (fun _ => c) l) = map (fun x => f (g x) c) l.
Proof. induction l; cbn; congruence. Qed.

Lemma grid_requests_list nx ny : grid_requests nx ny = all_pixels nx ny.
Proof.
  unfold grid_requests, create_pixel_grid, flatten_image_band, all_pixels. cbn [b_rows].
  rewrite (Pos2Nat.inj_1), !Nat.mul_1_r. rewrite !map_map.
  induction (seq 0 ny) as [|r l IH]; [reflexivity|]. cbn [map concat].
  rewrite map2_app by (rewrite !map_length; reflexivity). rewrite IH. f_equal.
  rewrite map_map, (map2_const _ (fun i => (Z.of_nat i # 1)%Q)). apply map_ext. intros c.
  rewrite !q2r_nat, Rmult_0_r. reflexivity.
Qed.

Lemma grid_rows nx ny : Forall (fun r => length r = nx) (map (fun r => map (fun c => mkRequest (INR c) (INR r) 0) (seq 0 nx)) (seq 0 ny)).
Proof. apply Forall_forall. intros l H. apply in_map_iff in H. destruct H as (r & <- & _). rewrite map_length, seq_length. reflexivity. Qed.
Lemma grid_length nx ny : length (grid_requests nx ny) = (ny * nx)%nat.
Proof. rewrite grid_requests_list. unfold all_pixels. rewrite (concat_length_const _ nx (grid_rows nx ny)), map_length, seq_length. reflexivity. Qed.

Lemma nth_map_seq0 {A} (f : nat -> A) n k : (k < n)%nat -> nth_error (map f (seq 0 n)) k = Some (f k).
Proof. apply P_PointCalc.nth_error_map_seq. Qed.

Lemma grid_nth nx ny r c : (r < ny)%nat -> (c < nx)%nat ->
  nth_error (grid_requests nx ny) (r * nx + c) = Some (mkRequest (INR c) (INR r) 0).
Proof.
  intros Hr Hc. rewrite grid_requests_list. unfold all_pixels. rewrite (concat_nth _ nx r c (grid_rows nx ny) Hc).
  rewrite nth_map_seq0 by exact Hr. apply (nth_map_seq0 (fun c => mkRequest (INR c) (INR r) 0)). exact Hc.
Qed.

Lemma grid_alt nx ny q : In q (grid_requests nx ny) -> rq_alt q = 0.
Proof.
  rewrite grid_requests_list. unfold all_pixels. rewrite in_concat. intros (l & Hl & Hq). apply in_map_iff in Hl.
  destruct Hl as (r & <- & _). apply in_map_iff in Hq. destruct Hq as (c & <- & _). reflexivity.
Qed.
Lemma grid_avg nx ny : rsum (map rq_alt (grid_requests nx ny)) = 0.
Proof.
  assert (H : forall l, (forall q, In q l -> rq_alt q = 0) -> rsum (map rq_alt l) = 0).
  { induction l as [|q l IH]; intros H; [reflexivity|]. change (rq_alt q + rsum (map rq_alt l) = 0). rewrite (H q) by (left; reflexivity). rewrite IH by (intros; apply H; right; assumption). lra. }
  apply H. apply grid_alt.
Qed.

(* ------------------------- solver extensionality --------------------- *)

Lemma map2_ext_in {A B C} (f g : A -> B -> C) l m : (forall a b, In a l -> f a b = g a b) -> map2 f l m = map2 g l m.
Proof. revert m; induction l as [|a l IH]; intros [|b m] H; try reflexivity. cbn. rewrite (H a b) by (left; reflexivity). rewrite IH; [reflexivity|]. intros; apply H; right; assumption. Qed.

Lemma solver_ext pix pix' c threshold n qs :
  (forall q, In q qs -> forall lon lat, pix lon lat (Fin (rq_alt q)) = pix' lon lat (Fin (rq_alt q))) ->
  (forall lon lat, pix lon lat (fdiv (rsum (map rq_alt qs)) (INR (length qs))) = pix' lon lat (fdiv (rsum (map rq_alt qs)) (INR (length qs)))) ->
  solver pix c None threshold n qs = solver pix' c None threshold n qs.
Proof.
  intros H HA. destruct c as [[clon clat]|]; [|reflexivity]. unfold solver.
  replace (choose_deltas pix clon clat (fdiv (rsum (map rq_alt qs)) (INR (length qs))))
    with (choose_deltas pix' clon clat (fdiv (rsum (map rq_alt qs)) (INR (length qs)))).
  2: { unfold choose_deltas. rewrite <- HA. destruct (pix (Fin clon) (Fin clat) _) as [x0 y0].
    assert (E : forall s s', (forall k, s k = s' k) -> existsb (fun k : R => is_nan (fst (s k : flt * flt))) float_nums = existsb (fun k => is_nan (fst (s' k))) float_nums).
    { intros s s' Hs. induction float_nums as [|a l IH]; [reflexivity|]. cbn. rewrite Hs, IH. reflexivity. }
    rewrite (E _ (fun n => let '(x, y) := pix (Fin (clon + n)) (Fin clat) (fdiv (rsum (map rq_alt qs)) (INR (length qs))) in (fsub x x0, fsub y y0)))
      by (intros; rewrite HA; reflexivity).
    match goal with |- context [existsb ?f ?l] => destruct (existsb f l) end; [reflexivity|].
    rewrite (P_PointCalc.first_shift_ext _ (fun n => let '(x, y) := pix (Fin (clon + n)) (Fin clat) (fdiv (rsum (map rq_alt qs)) (INR (length qs))) in (fsub x x0, fsub y y0)))
      by (intros; rewrite HA; reflexivity).
    destruct (first_shift _) as [d| |]; cbn [bind]; try reflexivity.
    rewrite (P_PointCalc.first_shift_ext _ (fun n => let '(x, y) := pix (Fin clon) (Fin (clat + n)) (fdiv (rsum (map rq_alt qs)) (INR (length qs))) in (fsub x x0, fsub y y0)))
      by (intros; rewrite HA; reflexivity).
    reflexivity. }
  destruct (choose_deltas pix' clon clat _) as [[d1 d2]| |]; cbn [bind]; try reflexivity.
  cbn [fst snd]. generalize (map (fun _ : request => (Fin clon, Fin clat)) qs) as ps.
  induction n as [|n IH]; intros ps; [reflexivity|]. cbn [solve_loop].
  assert (E : map2 (newton pix d1 d2) qs ps = map2 (newton pix' d1 d2) qs ps).
  { apply map2_ext_in. intros q [lon lat] Hq. unfold newton. rewrite !(H q Hq). reflexivity. }
  rewrite E. replace (converged pix threshold qs (map2 (newton pix' d1 d2) qs ps)) with (converged pix' threshold qs (map2 (newton pix' d1 d2) qs ps)).
  - destruct (converged pix' threshold qs _) as [[|]| |]; cbn [bind]; auto.
  - unfold converged.
    rewrite (map2_ext_in (fun q p => let '(x, y) := pix' (fst p) (snd p) (Fin (rq_alt q)) in (fsub (Fin (rq_x q)) x, fsub (Fin (rq_y q)) y))
              (fun q p => let '(x, y) := pix (fst p) (snd p) (Fin (rq_alt q)) in (fsub (Fin (rq_x q)) x, fsub (Fin (rq_y q)) y))); [reflexivity|].
    intros q p Hq. rewrite (H q Hq). reflexivity.
Qed.

(* --------------------------- the NaN camera -------------------------- *)

Lemma newton_nan pix d1 d2 q p : (forall a b c, pix a b c = (NonFinite, NonFinite)) -> newton pix d1 d2 q p = (NonFinite, NonFinite).
Proof. intros H. destruct p as [lon lat]. unfold newton. rewrite !H. cbn. destruct lon, lat; reflexivity. Qed.

Lemma solver_nan pix c threshold n qs : (forall a b c, pix a b c = (NonFinite, NonFinite)) -> qs <> [] ->
  solver pix (Some c) None threshold (S n) qs = Ok (map (fun _ => (NonFinite, NonFinite)) qs).
Proof.
  intros H Hne. destruct c as [clon clat].
  assert (HC : choose_deltas pix clon clat (fdiv (rsum (map rq_alt qs)) (INR (length qs))) = Ok (2, 2)).
  { unfold choose_deltas. rewrite H.
    assert (E : existsb (fun n0 : R => is_nan (fst (let '(x, y) := pix (Fin (clon + n0)) (Fin clat) (fdiv (rsum (map rq_alt qs)) (INR (length qs))) in (fsub x NonFinite, fsub y NonFinite)))) float_nums = true).
    { apply existsb_exists. exists (2 ^ 1073 / 2 ^ 52). split; [apply P_PointCalc.top_num|]. rewrite H. reflexivity. }
    rewrite E. reflexivity. }
  unfold solver. rewrite HC. cbn [bind fst snd]. clear HC.
  set (ps := map (fun _ : request => (Fin clon, Fin clat)) qs).
  assert (HL : length qs = length ps) by (unfold ps; rewrite map_length; reflexivity).
  destruct (P_PointCalc.solve_loop_spec pix 2 2 threshold qs Hne (S n) ps HL) as (m & Hm & E & HD & _).
  rewrite E. f_equal.
  assert (HF : forall ps', ~ Forall2 (Spec_PointCalc.hits pix threshold) qs ps').
  { intros ps' F. destruct F as [|q p qs' ps' HH _]; [congruence|]. destruct HH as (x & y & HE & _). rewrite H in HE. discriminate. }
  assert (m = S n) by (destruct HD as [HD|HD]; [exact HD|destruct (HF _ HD)]). subst m. cbn [Nat.iter].
  change (Nat.iter (S n) (P_PointCalc.sweep pix 2 2 qs) ps) with (map2 (newton pix 2 2) qs (Nat.iter n (P_PointCalc.sweep pix 2 2 qs) ps)).
  assert (HL2 : length qs = length (Nat.iter n (P_PointCalc.sweep pix 2 2 qs) ps)) by (symmetry; apply P_PointCalc.iter_length; exact HL).
  revert HL2. generalize (Nat.iter n (P_PointCalc.sweep pix 2 2 qs) ps) as ls. clear - H.
  induction qs as [|q qs IH]; intros [|p ls] HL; try discriminate; [reflexivity|]. cbn [map2 map].
  rewrite (newton_nan pix 2 2 q p H). rewrite IH by (cbn in HL; lia). reflexivity.
Qed.

(* ------------------------------- camera ------------------------------ *)

Lemma nudge_spec x : nudged x (nudge x).
Proof.
  unfold nudged, nudge, isclose0. destruct (Rleb_spec (Rabs x) (1 / 100000000)) as [E|E].
  - left. auto.
  - right. split; [lra|reflexivity].
Qed.
Lemma nudged_fun x a b : nudged x a -> nudged x b -> a = b.
Proof. intros [[H1 ->]|[H1 ->]] [[H2 ->]|[H2 ->]]; try reflexivity; lra. Qed.

Lemma sim_orientation_M u br bp by_ t1 t2 t3' roll pitch yaw order : is_order t1 t2 t3' -> order = order_name t1 t2 t3' ->
  get_camera_absolute_M_matrix (fx_run [SetBoresightRpy br bp by_ u u u order; SetFixtureRpy roll pitch yaw u u u (txt "rpy")])
  = Ok (sim_orientation u br bp by_ t1 t2 t3' roll pitch yaw) /\ rotation (sim_orientation u br bp by_ t1 t2 t3' roll pitch yaw).
Proof.
  intros H ->. unfold get_camera_absolute_M_matrix. cbn [fx_run fold_left fx_step fx_boresight fx_M new_fixtured].
  unfold sim_orientation, turned. rewrite (create_order _ _ _ t1 t2 t3' H).
  assert (HR : is_order Roll Pitch Yaw) by (repeat split; discriminate).
  change (txt "rpy") with (order_name Roll Pitch Yaw). rewrite (create_order _ _ _ _ _ _ HR). split; [reflexivity|].
  repeat apply rotation_mul; apply turn_rot.
Qed.

(** the camera made when the orientation can be solved *)
Lemma generate_good {V} (s : simulator V) lon lat alt roll pitch yaw t1 t2 t3' br bp by_ :
  let a := sm_args s in
  is_order t1 t2 t3' -> sa_order a = order_name t1 t2 t3' -> sm_bore s = (br, bp, by_) ->
  let M := sim_orientation (su_boresight a) br bp by_ t1 t2 t3' roll pitch yaw in
  -1 < e31 M < 1 ->
  generate_camera s lon lat alt roll pitch yaw =
    Ok (GoodCamera (mkPlaced (mkIdeal (mkPinhole (V3 (lon * 1) (lat * 1) (alt * su_alt a)) (sa_focal a * su_focal a) M)
       (sa_pitch_x a * su_pitch a) (sa_pitch_y a * su_pitch a) (INR (sa_npix_x a)) (INR (sa_npix_y a)) false true)
       (sm_world s) (lon, lat))).
Proof.
  intros a HO HN HB M HM. unfold generate_camera. rewrite HB. fold a.
  destruct (sim_orientation_M (su_boresight a) br bp by_ t1 t2 t3' roll pitch yaw (sa_order a) HO HN) as [-> HR]. cbn [bind].
  fold M in HR |- *. destruct (solve_rebuild M HR HM) as (o & p & k & -> & _ & _ & _ & EM). unfold angles.
  unfold init_from_local_params, init_pinhole_from_coeffs. rewrite !Rmult_1_r, EM. reflexivity.
Qed.

Lemma generate_gimbal {V} (s : simulator V) lon lat alt roll pitch yaw t1 t2 t3' br bp by_ :
  let a := sm_args s in
  is_order t1 t2 t3' -> sa_order a = order_name t1 t2 t3' -> sm_bore s = (br, bp, by_) ->
  let M := sim_orientation (su_boresight a) br bp by_ t1 t2 t3' roll pitch yaw in
  e31 M = 1 \/ e31 M = -1 ->
  generate_camera s lon lat alt roll pitch yaw = Ok (NanCamera (lon, lat) (sm_world s)).
Proof.
  intros a HO HN HB M HM. unfold generate_camera. rewrite HB. fold a.
  destruct (sim_orientation_M (su_boresight a) br bp by_ t1 t2 t3' roll pitch yaw (sa_order a) HO HN) as [-> HR]. cbn [bind].
  fold M in HR |- *. destruct (solve_gimbal M HR HM) as (p & ->). reflexivity.
Qed.

Lemma orientation_range u br bp by_ t1 t2 t3' roll pitch yaw : is_order t1 t2 t3' ->
  let M := sim_orientation u br bp by_ t1 t2 t3' roll pitch yaw in
  -1 < e31 M < 1 \/ e31 M = 1 \/ e31 M = -1.
Proof.
  intros H M. destruct (sim_orientation_M u br bp by_ t1 t2 t3' roll pitch yaw _ H eq_refl) as [_ HR].
  fold M in HR. destruct (rot_entries M HR) as [C _].
  assert (-1 <= e31 M <= 1) by nra. lra.
Qed.

(* ------------------------------ histories ---------------------------- *)

Lemma solver_length pix c threshold n qs ps : solver pix (Some c) None threshold n qs = Ok ps -> length ps = length qs.
Proof.
  assert (LS : forall d1 d2 n qs ps ps', length qs = length ps -> solve_loop pix d1 d2 threshold qs n ps = Ok ps' -> length ps' = length qs).
  { clear. intros d1 d2 n qs. induction n as [|n IH]; intros ps ps' HL E; [cbn in E; injection E as <-; auto|]. cbn [solve_loop] in E.
    destruct (converged _ _ _ _) as [[|]| |]; cbn [bind] in E; try discriminate.
    - injection E as <-. rewrite map2_length. lia.
    - apply IH in E; [exact E|]. rewrite map2_length. lia. }
  destruct c as [x y]. unfold solver. destruct (choose_deltas _ _ _ _) as [dd| |]; cbn [bind]; try discriminate.
  intros EG. apply LS in EG; [exact EG|rewrite map_length; reflexivity].
Qed.
Lemma camera_ground_length c qs ps : camera_ground c qs = Ok ps -> length ps = length qs.
Proof. apply solver_length. Qed.

Section History.
Context {V : Type}.
Variable sample : sampler V.

Lemma create_state read (s : simulator V) lon lat alt roll pitch yaw :
  let '(s', r) := create_overhead_image_object sample read s lon lat alt roll pitch yaw in
  sm_args s' = sm_args s /\ sm_bore s' = sm_bore s /\ sm_world s' = sm_world s /\
  (sm_data s = None \/ sm_data s' = sm_data s) /\
  match r with
  | Ok im => exists d c ground pixels b,
      sm_data s' = Some d /\ (sm_data s = Some d \/ (sm_data s = None /\ read = Ok d)) /\
      generate_camera s lon lat alt roll pitch yaw = Ok c /\
      camera_ground c (grid_requests (sa_npix_x (sm_args s)) (sa_npix_y (sm_args s))) = Ok ground /\
      mapM (gtiff_pixel (sa_gtiff (sm_args s))) ground = Ok pixels /\
      unflatten_image_band (map (fun p => sample d (snd p) (fst p)) pixels) (sa_npix_x (sm_args s)) (sa_npix_y (sm_args s)) = Ok b /\
      im = mkSimImage b (sa_npix_x (sm_args s)) (sa_npix_y (sm_args s)) 1 c
  | _ => sm_data s' = sm_data s
  end.
Proof.
  unfold create_overhead_image_object.
  destruct (generate_camera s lon lat alt roll pitch yaw) as [c| |] eqn:EC; cbn [bind]; try (repeat split; auto; fail).
  destruct (camera_ground c _) as [ground| |] eqn:EG; cbn [bind]; try (repeat split; auto; fail).
  destruct (mapM _ ground) as [pixels| |] eqn:EP; cbn [bind]; try (repeat split; auto; fail).
  destruct (match sm_data s with Some d => Ok d | None => read end) as [d| |] eqn:ED; try (repeat split; auto; fail).
  assert (HL : length pixels = (sa_npix_y (sm_args s) * sa_npix_x (sm_args s))%nat).
  { rewrite (mapM_length _ _ _ EP). rewrite (camera_ground_length _ _ _ EG). apply grid_length. }
  cbn [sm_args sm_bore sm_world sm_data]. split; [reflexivity|]. split; [reflexivity|]. split; [reflexivity|].
  split. { destruct (sm_data s) as [d'|]; [right; congruence|left; reflexivity]. }
  unfold unflatten_image_band. rewrite map_length, HL, Nat.eqb_refl. cbn [bind].
  exists d, c, ground, pixels. eexists. split; [reflexivity|]. split.
  { destruct (sm_data s) as [d'|]; [left; congruence|right; auto]. }
  split; [reflexivity|]. split; [exact EG|]. split; [exact EP|]. split; [|reflexivity].
  unfold unflatten_image_band. rewrite ?map_length, ?HL, ?Nat.eqb_refl. reflexivity.
Qed.

Definition image_of (s : simulator V) (d : band V) (im : sim_image V) lon lat alt roll pitch yaw : Prop :=
  exists c ground pixels b,
      generate_camera s lon lat alt roll pitch yaw = Ok c /\
      camera_ground c (grid_requests (sa_npix_x (sm_args s)) (sa_npix_y (sm_args s))) = Ok ground /\
      mapM (gtiff_pixel (sa_gtiff (sm_args s))) ground = Ok pixels /\
      unflatten_image_band (map (fun p => sample d (snd p) (fst p)) pixels) (sa_npix_x (sm_args s)) (sa_npix_y (sm_args s)) = Ok b /\
      im = mkSimImage b (sa_npix_x (sm_args s)) (sa_npix_y (sm_args s)) 1 c.

Lemma run_nth ops : forall s k im read lon lat alt roll pitch yaw,
  nth_error ops k = Some (Simulate read lon lat alt roll pitch yaw) ->
  nth_error (snd (sim_run sample s ops)) k = Some (Some (Ok im)) ->
  exists sk d, sm_args sk = sm_args s /\ sm_bore sk = sm_bore s /\ sm_world sk = last_world (firstn k ops) (sm_world s) /\
    image_of sk d im lon lat alt roll pitch yaw /\
    (sm_data s = Some d \/
     (sm_data s = None /\ exists j lon' lat' alt' roll' pitch' yaw', (j <= k)%nat /\
        nth_error ops j = Some (Simulate (Ok d) lon' lat' alt' roll' pitch' yaw') /\
        (exists r, nth_error (snd (sim_run sample s ops)) j = Some r /\ made r = true) /\
        (forall i r, (i < j)%nat -> nth_error (snd (sim_run sample s ops)) i = Some r -> made r = false))).
Proof.
  induction ops as [|o ops IH]; intros s k im read lon lat alt roll pitch yaw HO HR; [destruct k; discriminate|].
  cbn [sim_run] in HR |- *. destruct (sim_step sample s o) as [s1 r1] eqn:E1.
  destruct (sim_run sample s1 ops) as [s2 rs] eqn:E2. cbn [snd] in HR |- *.
  destruct k as [|k].
  - cbn [nth_error] in HO, HR. injection HO as ->. injection HR as ->. cbn [sim_step] in E1.
    pose proof (create_state read s lon lat alt roll pitch yaw) as Q.
    destruct (create_overhead_image_object sample read s lon lat alt roll pitch yaw) as [s' r'].
    injection E1 as -> ->. destruct Q as (Q1 & Q2 & Q3 & Q4 & d & c & ground & pixels & b & QD & QR & Q5 & Q6 & Q7 & Q8 & Q9).
    exists s, d. split; [reflexivity|]. split; [reflexivity|]. split; [reflexivity|].
    split; [exists c, ground, pixels, b; auto|].
    destruct QR as [QR|[QR1 QR2]]; [left; exact QR|]. right. split; [exact QR1|].
    exists 0%nat, lon, lat, alt, roll, pitch, yaw. cbn [nth_error]. rewrite QR2. split; [lia|]. split; [reflexivity|].
    split; [eexists; split; reflexivity|]. intros; lia.
  - cbn [nth_error] in HO, HR.
    assert (S1 : sm_args s1 = sm_args s /\ sm_bore s1 = sm_bore s /\ last_world [o] (sm_world s) = sm_world s1 /\
       (sm_data s1 = sm_data s /\ made r1 = false \/ (exists d, sm_data s1 = Some d /\ (sm_data s = Some d \/ (sm_data s = None /\ made r1 = true /\
           exists lon' lat' alt' roll' pitch' yaw', o = Simulate (Ok d) lon' lat' alt' roll' pitch' yaw'))))).
    { destruct o as [w|read' lon' lat' alt' roll' pitch' yaw']; cbn [sim_step] in E1.
      - injection E1 as <- <-. cbn. repeat split. left. auto.
      - pose proof (create_state read' s lon' lat' alt' roll' pitch' yaw') as Q.
        destruct (create_overhead_image_object sample read' s lon' lat' alt' roll' pitch' yaw') as [s' r'].
        injection E1 as -> <-. destruct Q as (Q1 & Q2 & Q3 & Q4 & Q5). cbn [last_world]. split; [exact Q1|]. split; [exact Q2|].
        split; [symmetry; exact Q3|].
        destruct r' as [im'|e|]; [|left; auto|left; auto]. right.
        destruct Q5 as (d & c & ground & pixels & b & QD & QR & _). exists d. split; [exact QD|].
        destruct QR as [QR|[QR1 QR2]]; [left; exact QR|]. right. split; [exact QR1|]. split; [reflexivity|].
        rewrite QR2. repeat eexists. }
    destruct S1 as (A1 & A2 & A3 & A4).
    assert (HR' : nth_error (snd (sim_run sample s1 ops)) k = Some (Some (Ok im))) by (rewrite E2; exact HR).
    destruct (IH s1 k im read lon lat alt roll pitch yaw HO HR') as (sk & d & B1 & B2 & B3 & B4 & B5). rewrite E2 in B5. cbn [snd] in B5.
    exists sk, d. split; [congruence|]. split; [congruence|]. split.
    { rewrite B3, <- A3. destruct o; reflexivity. }
    split; [exact B4|].
    destruct A4 as [[A4 A5]|(d1 & A4 & A5)].
    + rewrite A4 in B5. destruct B5 as [B5|(B5 & j & lon' & lat' & alt' & roll' & pitch' & yaw' & J1 & J2 & J3 & J4)]; [left; exact B5|].
      right. split; [exact B5|]. exists (S j), lon', lat', alt', roll', pitch', yaw'. split; [lia|]. split; [exact J2|]. split; [exact J3|].
      intros [|i] r Hi Hr; [cbn in Hr; injection Hr as <-; exact A5|]. apply (J4 i r); [lia|exact Hr].
    + rewrite A4 in B5. destruct B5 as [B5|[B5 _]]; [|discriminate]. injection B5 as <-.
      destruct A5 as [A5|(A5 & A6 & lon' & lat' & alt' & roll' & pitch' & yaw' & ->)]; [left; exact A5|].
      right. split; [exact A5|]. exists 0%nat, lon', lat', alt', roll', pitch', yaw'. split; [lia|]. split; [reflexivity|].
      split; [exists r1; auto|]. intros; lia.
Qed.

(** the pixels of an image *)
Lemma image_pixels s d im lon lat alt roll pitch yaw : image_of s d im lon lat alt roll pitch yaw ->
  let nx := sa_npix_x (sm_args s) in let ny := sa_npix_y (sm_args s) in
  generate_camera s lon lat alt roll pitch yaw = Ok (si_camera im) /\
  si_npix_x im = nx /\ si_npix_y im = ny /\ si_n_bands im = 1%nat /\ band_wf (si_band im) /\ b_ny (si_band im) = ny /\ b_nx (si_band im) = nx /\
  exists ground, camera_ground (si_camera im) (grid_requests nx ny) = Ok ground /\ length ground = (ny * nx)%nat /\
    forall r c, (r < ny)%nat -> (c < nx)%nat -> exists g X Y, nth_error ground (r * nx + c) = Some g /\
      gtiff_pixel (sa_gtiff (sm_args s)) g = Ok (X, Y) /\ band_at (si_band im) r c = Some (sample d Y X).
Proof.
  intros (c & ground & pixels & b & H1 & H2 & H3 & H4 & ->) nx ny. cbn [si_camera si_npix_x si_npix_y si_n_bands si_band].
  fold nx ny in H2, H4 |- *. apply unflatten_flatten in H4. destruct H4 as (W & B1 & B2 & B3).
  split; [exact H1|]. repeat (split; [first [reflexivity | assumption]|]).
  assert (L2 : length pixels = length ground) by (apply (mapM_length _ _ _ H3)).
  assert (L1 : length ground = (ny * nx)%nat).
  { rewrite <- L2. rewrite <- (map_length (fun p => sample d (snd p) (fst p))), <- B3.
    unfold flatten_image_band. destruct W as [W1 W2]. rewrite (concat_length_const _ _ W2), W1. congruence. }
  exists ground. split; [exact H2|]. split; [exact L1|]. intros r cc Hr Hc.
  assert (K : (r * nx + cc < length ground)%nat) by (rewrite L1; nia).
  destruct (nth_error ground (r * nx + cc)) as [g|] eqn:EG; [|apply nth_error_None in EG; lia].
  destruct (nth_error pixels (r * nx + cc)) as [[X Y]|] eqn:EP; [|apply nth_error_None in EP; lia].
  exists g, X, Y. split; [reflexivity|].
  split.
  - destruct (mapM_nth _ _ _ _ _ H3 EP) as (y & En & Ey). rewrite EG in En. injection En as <-. exact Ey.
  - rewrite <- (flatten_at b r cc W) by (rewrite B2; exact Hc). rewrite B3, B2.
    rewrite (map_nth_error _ _ _ EP). reflexivity.
Qed.
End History.

(* ---------------------------- level camera --------------------------- *)

Lemma level_entries M : rotation M -> e31 M = 0 -> e32 M = 0 ->
  e13 M = 0 /\ e23 M = 0 /\ e33 M * e33 M = 1 /\ e11 M * e11 M + e21 M * e21 M = 1 /\ e12 M * e12 M + e22 M * e22 M = 1 /\
  e11 M * e22 M - e12 M * e21 M = e33 M.
Proof.
  intros (H1 & H2 & HD) A B.
  assert (Q1 := f_equal e33 H1). assert (Q2 := f_equal e13 H1). assert (Q3 := f_equal e23 H1).
  assert (Q4 := f_equal e11 H2). assert (Q5 := f_equal e22 H2). unfold det3 in HD. cbn in Q1, Q2, Q3, Q4, Q5.
  rewrite A, B in *.
  assert (E : e33 M * e33 M = 1) by lra. assert (N : e33 M <> 0) by nra.
  assert (E13 : e13 M = 0) by (apply (Rmult_eq_reg_r (e33 M)); [lra|exact N]).
  assert (E23 : e23 M = 0) by (apply (Rmult_eq_reg_r (e33 M)); [lra|exact N]).
  rewrite E13, E23 in *. repeat split; try lra; try (exact E).
  apply (Rmult_eq_reg_r (e33 M)); [lra|exact N].
Qed.

Definition level_affine (X Y Z f : R) (M : mat3) (px py nx ny : R) : Spec_PointCalc.affine :=
  let k := f * e33 M / Z in
  Spec_PointCalc.mkAffine
    (fun _ => k * (- e11 M * X - e12 M * Y) / px + nx / 2) (fun _ => k * e11 M / px) (fun _ => k * e12 M / px)
    (fun _ => - (k * (- e21 M * X - e22 M * Y) / py) + ny / 2) (fun _ => - (k * e21 M / py)) (fun _ => - (k * e22 M / py)).

Lemma level_pixel X Y Z f M px py nx ny x y : rotation M -> e31 M = 0 -> e32 M = 0 -> Z <> 0 -> px <> 0 -> py <> 0 ->
  let a := level_affine X Y Z f M px py nx ny in
  ideal_lon_lat_alt_to_pixel (mkIdeal (mkPinhole (V3 X Y Z) f M) px py nx ny false true) (V3 x y 0) =
  (Fin (Spec_PointCalc.f_x0 a 0 + Spec_PointCalc.f_xlon a 0 * x + Spec_PointCalc.f_xlat a 0 * y),
   Fin (Spec_PointCalc.f_y0 a 0 + Spec_PointCalc.f_ylon a 0 * x + Spec_PointCalc.f_ylat a 0 * y)).
Proof.
  intros HR A B HZ Hx Hy a. destruct (level_entries M HR A B) as (E13 & E23 & E33 & _).
  assert (N : e33 M <> 0) by nra.
  unfold ideal_lon_lat_alt_to_pixel, world_to_image_plane. cbn [ip_camera ip_pitch_x ip_pitch_y ip_npix_x ip_npix_y ip_flip_x ip_flip_y ph_pos ph_M ph_f vx vy vz].
  rewrite A, B, E13, E23.
  assert (D : 0 * (x - X) + 0 * (y - Y) + e33 M * (0 - Z) <> 0).
  { replace (0 * (x - X) + 0 * (y - Y) + e33 M * (0 - Z)) with (- (e33 M * Z)) by ring. apply Ropp_neq_0_compat. apply Rmult_integral_contrapositive_currified; assumption. }
  rewrite !fdiv_nz by exact D. cbn [fmap]. rewrite !fdiv_nz by assumption.
  assert (I : forall n, n / (0 * (x - X) + 0 * (y - Y) + e33 M * (0 - Z)) = - (n * e33 M / Z)).
  { intros n. replace (0 * (x - X) + 0 * (y - Y) + e33 M * (0 - Z)) with (- (e33 M * Z)) by ring.
    apply (Rmult_eq_reg_r (- (e33 M * Z))); [|apply Ropp_neq_0_compat, Rmult_integral_contrapositive_currified; assumption].
    transitivity n. { field. auto. }
    transitivity (n * (e33 M * e33 M)); [rewrite E33; ring|]. field. exact HZ. }
  rewrite !I. unfold a, level_affine. cbn [Spec_PointCalc.f_x0 Spec_PointCalc.f_xlon Spec_PointCalc.f_xlat Spec_PointCalc.f_y0 Spec_PointCalc.f_ylon Spec_PointCalc.f_ylat].
  apply pair_equal_spec. split; f_equal; field; auto.
Qed.

(** square of the shift in pixels of a ground step of 2^1021 *)
Lemma range_sum f Z px py u v T : Z <> 0 -> px <> 0 -> py <> 0 -> u * u + v * v = 1 ->
  Rabs (Z * px) < T * Rabs f -> Rabs (Z * py) < T * Rabs f ->
  1 < ((f / Z * u / px) * (f / Z * u / px) + (f / Z * v / py) * (f / Z * v / py)) * T ^ 2.
Proof.
  intros HZ Hx Hy HU H1 H2.
  assert (G : forall p, p <> 0 -> Rabs (Z * p) < T * Rabs f -> 1 < (f / Z / p) * (f / Z / p) * T ^ 2).
  { intros p Hp H. assert (P : 0 < Rabs (Z * p)) by (apply Rabs_pos_lt, Rmult_integral_contrapositive_currified; assumption).
    assert (Q : Rabs (Z * p) * Rabs (Z * p) < (T * Rabs f) * (T * Rabs f)) by nra.
    rewrite <- Rabs_mult in Q. rewrite (Rabs_pos_eq (Z * p * (Z * p))) in Q by nra.
    replace (T * Rabs f * (T * Rabs f)) with (T * T * (Rabs f * Rabs f)) in Q by ring.
    rewrite <- Rabs_mult, (Rabs_pos_eq (f * f)) in Q by nra.
    assert (W : 0 < Z * p * (Z * p)) by (rewrite <- Rabs_pos_eq with (x := Z * p * (Z * p)) by nra; rewrite Rabs_mult; nra).
    apply (Rmult_lt_reg_r (Z * p * (Z * p))); [exact W|].
    replace (f / Z / p * (f / Z / p) * T ^ 2 * (Z * p * (Z * p))) with (T * T * (f * f)) by (field; auto). lra. }
  specialize (G px Hx H1) as G1. specialize (G py Hy H2) as G2. clear G.
  replace ((f / Z * u / px * (f / Z * u / px) + f / Z * v / py * (f / Z * v / py)) * T ^ 2)
    with (u * u * (f / Z / px * (f / Z / px) * T ^ 2) + v * v * (f / Z / py * (f / Z / py) * T ^ 2)) by (field; auto).
  set (A := f / Z / px * (f / Z / px) * T ^ 2) in *. set (B := f / Z / py * (f / Z / py) * T ^ 2) in *.
  assert (0 <= u * u) by nra. assert (0 <= v * v) by nra.
  destruct (Rle_lt_dec (u * u) 0) as [U|U].
  - assert (u * u = 0) by lra. nra.
  - nra.
Qed.

Lemma pow_top : 2 ^ 1073 / 2 ^ 52 = 2 ^ 1021.
Proof.
  assert (G : forall n m k, n = (m + k)%nat -> 2 ^ n / 2 ^ k = 2 ^ m).
  { intros n m k ->. rewrite pow_add. unfold Rdiv. rewrite Rmult_assoc, Rinv_r, Rmult_1_r; [reflexivity|apply pow_nonzero; lra]. }
  apply G. apply Nat.eqb_eq. vm_compute. reflexivity.
Qed.

Lemma level_ground X Y Z f M px py nx ny w c threshold n qs :
  rotation M -> e31 M = 0 -> e32 M = 0 -> e11 M <> 0 -> Z <> 0 -> f <> 0 -> px <> 0 -> py <> 0 ->
  Rabs (Z * px) < 2 ^ 1021 * Rabs f -> Rabs (Z * py) < 2 ^ 1021 * Rabs f ->
  qs <> [] -> (forall q, In q qs -> rq_alt q = 0) -> rsum (map rq_alt qs) = 0 -> 0 <= threshold -> (1 <= n)%nat ->
  let cam := GoodCamera (mkPlaced (mkIdeal (mkPinhole (V3 X Y Z) f M) px py nx ny false true) w c) in
  exists ps, solver (camera_pixel cam) (Some (X, Y)) None threshold n qs = Ok ps /\
    Forall2 (fun q p => exists lon lat, p = (Fin lon, Fin lat) /\
      ideal_lon_lat_alt_to_pixel (mkIdeal (mkPinhole (V3 X Y Z) f M) px py nx ny false true) (V3 lon lat 0) = (Fin (rq_x q), Fin (rq_y q))) qs ps.
Proof.
  intros HR A B H11 HZ Hf Hx Hy HT1 HT2 Hne Hz Hs Hth Hn cam.
  destruct (level_entries M HR A B) as (E13 & E23 & E33 & EC1 & EC2 & ED). assert (N : e33 M <> 0) by nra.
  set (a := level_affine X Y Z f M px py nx ny).
  set (pix := (fun lon lat alt => match lon, lat, alt with Fin x, Fin y, Fin _ => camera_pixel cam (Fin x) (Fin y) (Fin 0) | _, _, _ => (NonFinite, NonFinite) end) : pixel_fn).
  assert (HA : Spec_PointCalc.affine_sensor a pix).
  { split.
    - intros lon lat alt. unfold pix. cbn [camera_pixel cam pc_ideal]. rewrite level_pixel by assumption. reflexivity.
    - intros [lon|] [lat|] [alt|] [K|[K|K]]; try discriminate; reflexivity. }
  assert (HL : INR (length qs) <> 0) by (apply not_0_INR; destruct qs; [congruence|discriminate]).
  rewrite (solver_ext (camera_pixel cam) pix).
  2: { intros q Hq lon lat. rewrite (Hz q Hq). unfold pix. destruct lon, lat; reflexivity. }
  2: { rewrite Hs, fdiv_nz by exact HL. intros lon lat. replace (0 / INR (length qs)) with 0 by (field; exact HL).
       unfold pix. destruct lon, lat; reflexivity. }
  assert (HK : f * e33 M / Z <> 0).
  { unfold Rdiv. apply Rmult_integral_contrapositive_currified; [apply Rmult_integral_contrapositive_currified; assumption|apply Rinv_neq_0_compat; exact HZ]. }
  destruct (Prop_PointCalc.C36_affine a pix (X, Y) None threshold n qs HA Hne Hth Hn) as (ps & E & F).
  - intros q Hq. unfold Spec_PointCalc.invertible_at, a, level_affine. cbn.
    generalize dependent (f * e33 M / Z). intros k HK.
    split.
    + replace (k * e11 M / px * - (k * e22 M / py) - k * e12 M / px * - (k * e21 M / py))
        with (- (k * k * (e11 M * e22 M - e12 M * e21 M) / (px * py))) by (field; auto).
      rewrite ED. apply Ropp_neq_0_compat. unfold Rdiv at 1. apply Rmult_integral_contrapositive_currified.
      * repeat apply Rmult_integral_contrapositive_currified; assumption.
      * apply Rinv_neq_0_compat, Rmult_integral_contrapositive_currified; assumption.
    + unfold Rdiv at 1. repeat apply Rmult_integral_contrapositive_currified; try assumption. apply Rinv_neq_0_compat. assumption.
  - cbv zeta. rewrite pow_top. unfold a, level_affine. cbn [Spec_PointCalc.f_xlon Spec_PointCalc.f_ylon Spec_PointCalc.f_xlat Spec_PointCalc.f_ylat].
    assert (EQ : forall u v T2, (f * e33 M / Z * u / px * (f * e33 M / Z * u / px) + - (f * e33 M / Z * v / py) * - (f * e33 M / Z * v / py)) * T2
        = (f / Z * u / px * (f / Z * u / px) + f / Z * v / py * (f / Z * v / py)) * T2).
    { intros u v T2. f_equal. transitivity (e33 M * e33 M * (f / Z * u / px * (f / Z * u / px) + f / Z * v / py * (f / Z * v / py))); [field; auto|]. rewrite E33. ring. }
    rewrite !EQ. split; apply range_sum; assumption.
  - exists ps. split; [exact E|]. clear - F Hz. induction F as [|q p qs ps HH F IH]; constructor.
    + destruct HH as (lon & lat & -> & EE). exists lon, lat. split; [reflexivity|]. exact EE.
    + apply IH. intros q' Hq'. apply Hz. right. exact Hq'.
Qed.

Lemma ground_of_ground c nx ny ps : camera_ground c (grid_requests nx ny) = Ok ps <-> ground_of c nx ny ps.
Proof.
  unfold ground_of, camera_ground, pixel_x_y_alt_to_lon_lat. rewrite grid_requests_list.
  generalize 1000%nat as n. intros n.
  destruct (solver _ _ _ _ n _) as [g|e|]; cbn [bind]; rewrite ?text_eqb_refl; split; intros H; first [exact (H (fun _ _ x => x)) | intros _; exact H].
Qed.

Lemma sees_ideal pos M f px py nx ny w c p u v : rotation M -> f <> 0 -> px <> 0 -> py <> 0 ->
  camera_pixel (GoodCamera (mkPlaced (mkIdeal (mkPinhole pos f M) px py nx ny false true) w c)) (Fin (vx p)) (Fin (vy p)) (Fin (vz p)) = (Fin u, Fin v)
  <-> sees pos M f px py nx ny p u v.
Proof.
  intros HR Hf Hx Hy. cbn [camera_pixel pc_ideal]. destruct p as [x y z]. cbn [vx vy vz].
  rewrite C29_pixel_ray by assumption. unfold sees. cbn [ph_pos ph_M ph_f side].
  replace (1 * ((u - nx / 2) * px)) with ((u - nx / 2) * px) by ring.
  replace (-1 * ((v - ny / 2) * py)) with (- ((v - ny / 2) * py)) by ring. reflexivity.
Qed.

Lemma gtiff_pixel_spec gdal_inv g w h p X Y : Spec_Cameras.gdal_inverse gdal_inv -> Spec_Cameras.invertible g ->
  gtiff_pixel (set_geot gdal_inv g w h) p = Ok (X, Y) ->
  match p with
  | (Fin lon, Fin lat) => exists x y, X = Fin x /\ Y = Fin y /\ gt_pixel_to_lon_lat (set_geot gdal_inv g w h) x y = (lon, lat)
  | _ => X = NonFinite /\ Y = NonFinite
  end.
Proof.
  intros HI Hg. destruct (Prop_Cameras.C34_round_trip gdal_inv g w h HI Hg) as [_ H]. unfold gtiff_pixel.
  destruct p as [[lon|] [lat|]].
  - destruct (H lon lat) as (x & y & -> & E). cbn [bind fst snd]. intros Q. injection Q as <- <-. exists x, y. auto.
  - destruct (gc_inv _); intros Q; [injection Q as <- <-; auto|discriminate].
  - destruct (gc_inv _); intros Q; [injection Q as <- <-; auto|discriminate].
  - destruct (gc_inv _); intros Q; [injection Q as <- <-; auto|discriminate].
Qed.

Lemma run_app {V} sample (ops1 : list (sim_op V)) : forall s ops2,
  sim_run sample s (ops1 ++ ops2) =
  (fst (sim_run sample (fst (sim_run sample s ops1)) ops2),
   snd (sim_run sample s ops1) ++ snd (sim_run sample (fst (sim_run sample s ops1)) ops2)).
Proof.
  induction ops1 as [|o r IH]; intros s ops2; cbn [app sim_run].
  - cbn [fst snd app]. destruct (sim_run sample s ops2); reflexivity.
  - destruct (sim_step sample s o) as [s1 x]. rewrite IH. destruct (sim_run sample s1 r) as [s2 rs]. reflexivity.
Qed.
Lemma run_length {V} sample (ops : list (sim_op V)) : forall s, length (snd (sim_run sample s ops)) = length ops.
Proof.
  induction ops as [|o r IH]; intros s; [reflexivity|]. cbn [sim_run]. destruct (sim_step sample s o) as [s1 x]. pose proof (IH s1) as Q.
  destruct (sim_run sample s1 r) as [s2 rs]. cbn in *. lia.
Qed.
Lemma run_args {V} sample (ops : list (sim_op V)) : forall s,
  sm_args (fst (sim_run sample s ops)) = sm_args s /\ sm_bore (fst (sim_run sample s ops)) = sm_bore s /\
  sm_world (fst (sim_run sample s ops)) = last_world ops (sm_world s).
Proof.
  induction ops as [|o r IH]; intros s; [auto|]. cbn [sim_run].
  assert (E : forall s1 x, sim_step sample s o = (s1, x) -> sm_args s1 = sm_args s /\ sm_bore s1 = sm_bore s /\ last_world [o] (sm_world s) = sm_world s1).
  { intros s1 x H. destruct o as [w|read lon lat alt roll pitch yaw]; cbn [sim_step] in H; [injection H as <- <-; auto|].
    pose proof (create_state sample read s lon lat alt roll pitch yaw) as Q.
    destruct (create_overhead_image_object _ _ _ _ _ _ _ _ _) as [s' r']. injection H as <- <-. cbn [last_world]. destruct Q as (? & ? & ? & _). auto. }
  destruct (sim_step sample s o) as [s1 x]. destruct (E _ _ eq_refl) as (A & B & C). destruct (IH s1) as (A1 & B1 & C1).
  destruct (sim_run sample s1 r) as [s2 rs]. cbn [fst] in *. split; [congruence|]. split; [congruence|]. rewrite C1, <- C. destruct o; reflexivity.
Qed.

Definition sideways : mat3 := M3 0 0 1 (-1) 0 0 0 (-1) 0.
Lemma generate_unknown {V} (s : simulator V) lon lat alt roll pitch yaw :
  let a := sm_args s in
  (forall t1 t2 t3', is_order t1 t2 t3' -> sa_order a <> order_name t1 t2 t3') ->
  generate_camera s lon lat alt roll pitch yaw =
    Ok (GoodCamera (mkPlaced (mkIdeal (mkPinhole (V3 (lon * 1) (lat * 1) (alt * su_alt a)) (sa_focal a * su_focal a) sideways)
       (sa_pitch_x a * su_pitch a) (sa_pitch_y a * su_pitch a) (INR (sa_npix_x a)) (INR (sa_npix_y a)) false true)
       (sm_world s) (lon, lat))).
Proof.
  intros a HO. unfold generate_camera. fold a. destruct (sm_bore s) as [[br bp] by_].
  unfold get_camera_absolute_M_matrix. cbn [fx_run fold_left fx_step fx_boresight fx_M new_fixtured]. rewrite (create_other _ _ _ _ HO). cbn [bind].
  assert (Z : forall A, mul3 zero3 A = zero3) by (intros A; m3). rewrite Z.
  assert (S : solve_for_omega_phi_kappa zero3 = (Fin (PI / 2), Fin 0, Fin (PI / 2))).
  { unfold solve_for_omega_phi_kappa. cbn [e31 e11 e33 e32 e21 zero3].
    unfold np_arcsin. rewrite !Rleb_true by lra. cbn [andb fmap fdivf]. rewrite asin_0, cos_0, fdiv_nz by lra. unfold np_arccos.
    rewrite !Rleb_true by lra. cbn [andb]. rewrite !Rltb_false by lra. replace (0 / 1) with 0 by field. rewrite acos_0. reflexivity. }
  rewrite S. unfold init_from_local_params, init_pinhole_from_coeffs. rewrite !Rmult_1_r.
  replace (create_M_matrix (PI / 2) 0 (PI / 2) (txt "rpy")) with sideways; [reflexivity|].
  unfold create_M_matrix. rewrite text_eqb_refl, cos_PI2, sin_PI2, cos_0, sin_0. apply mat3_eq; cbn; ring.
Qed.

(** the results do not depend on the units given for the external angles *)
Lemma run_units {V} sample u (ops : list (sim_op V)) : forall a b w d,
  snd (sim_run sample (mkSim (with_rpy_units a u) b w d) ops) = snd (sim_run sample (mkSim a b w d) ops).
Proof.
  induction ops as [|o r IH]; intros a b w d; [reflexivity|]. cbn [sim_run].
  destruct o as [w'|read lon lat alt roll pitch yaw]; cbn [sim_step].
  - unfold set_world. cbn [sm_args sm_bore sm_data]. specialize (IH a b w' d).
    destruct (sim_run sample (mkSim (with_rpy_units a u) b w' d) r), (sim_run sample (mkSim a b w' d) r). cbn [snd] in *. congruence.
  - assert (E : exists d', create_overhead_image_object sample read (mkSim (with_rpy_units a u) b w d) lon lat alt roll pitch yaw =
        (mkSim (with_rpy_units a u) b w d', snd (create_overhead_image_object sample read (mkSim a b w d) lon lat alt roll pitch yaw)) /\
        fst (create_overhead_image_object sample read (mkSim a b w d) lon lat alt roll pitch yaw) = mkSim a b w d').
    { unfold create_overhead_image_object. cbn [sm_args sm_bore sm_world sm_data].
      change (generate_camera (mkSim (with_rpy_units a u) b w d) lon lat alt roll pitch yaw) with (generate_camera (mkSim a b w d) lon lat alt roll pitch yaw).
      change (sa_npix_x (with_rpy_units a u)) with (sa_npix_x a). change (sa_npix_y (with_rpy_units a u)) with (sa_npix_y a).
      change (sa_gtiff (with_rpy_units a u)) with (sa_gtiff a).
      match goal with |- context [match ?x with Ok _ => _ | Err _ => _ | Diverges => _ end] => destruct x as [[c pixels]|e|] end.
      2: { exists d. split; reflexivity. } 2: { exists d. split; reflexivity. }
      destruct (match d with Some d0 => Ok d0 | None => read end) as [d'|e|].
      - exists (Some d'). split; reflexivity.
      - exists d. split; reflexivity.
      - exists d. split; reflexivity. }
    destruct E as (d' & E & E'). rewrite E.
    destruct (create_overhead_image_object sample read (mkSim a b w d) lon lat alt roll pitch yaw) as [s1 r1]. cbn [fst snd] in *. subst s1.
    specialize (IH a b w d').
    destruct (sim_run sample (mkSim (with_rpy_units a u) b w d') r), (sim_run sample (mkSim a b w d') r). cbn [snd] in *. congruence.
Qed.

Lemma nan_ground p w nx ny : (0 < nx)%nat -> (0 < ny)%nat ->
  camera_ground (NanCamera p w) (grid_requests nx ny) = Ok (map (fun _ => (NonFinite, NonFinite)) (grid_requests nx ny)).
Proof.
  intros Hx Hy. unfold camera_ground. apply (solver_nan _ _ _ 999).
  - reflexivity.
  - intros E. apply (f_equal (@length _)) in E. rewrite grid_length in E. cbn in E. nia.
Qed.

Lemma Forall2_nth_l {A B} (P : A -> B -> Prop) l m : Forall2 P l m -> forall k a, nth_error l k = Some a -> exists b, nth_error m k = Some b /\ P a b.
Proof.
  induction 1 as [|x y l m H F IH]; intros [|k] a E; try discriminate; cbn in *.
  - injection E as <-. exists y. auto.
  - apply IH. exact E.
Qed.
Lemma Forall2_imp {A B} (P Q : A -> B -> Prop) l m : (forall a b, P a b -> Q a b) -> Forall2 P l m -> Forall2 Q l m.
Proof. intros H. induction 1; constructor; auto. Qed.
Lemma hits_nth pix t qs ps : Forall2 (Spec_PointCalc.hits pix t) qs ps -> forall k q, nth_error qs k = Some q ->
  exists p, nth_error ps k = Some p /\ exists x y, pix (fst p) (snd p) (Fin (rq_alt q)) = (Fin x, Fin y) /\ Rabs (rq_x q - x) <= t /\ Rabs (rq_y q - y) <= t.
Proof. intros F j q E. exact (Forall2_nth_l _ _ _ F j q E). Qed.

(* ----------------------------- Web Mercator -------------------------- *)

Definition merc_y (lat : R) : R := ln (tan (PI / 4 + lat * PI / 360)).
Definition merc_lat (y : R) : R := (2 * atan (exp y) - PI / 2) * 180 / PI.

Lemma merc_lat_y lat : -90 < lat < 90 -> merc_lat (merc_y lat) = lat.
Proof.
  intros H. unfold merc_lat, merc_y. pose proof PI_RGT_0 as HP.
  assert (B : 0 < PI / 4 + lat * PI / 360 < PI / 2) by nra.
  rewrite exp_ln by (apply tan_gt_0; lra). rewrite atan_tan by lra. field. lra.
Qed.
Lemma merc_y_lat y : merc_y (merc_lat y) = y.
Proof.
  unfold merc_lat, merc_y. pose proof PI_RGT_0 as HP.
  replace (PI / 4 + (2 * atan (exp y) - PI / 2) * 180 / PI * PI / 360) with (atan (exp y)) by (field; lra).
  rewrite tan_atan. apply ln_exp.
Qed.
Lemma merc_lat_range y : -90 < merc_lat y < 90.
Proof.
  unfold merc_lat. pose proof PI_RGT_0 as HP. assert (A : 0 < atan (exp y)) by (rewrite <- atan_0; apply atan_increasing, exp_pos).
  destruct (atan_bound (exp y)) as [_ B]. set (t := atan (exp y)) in *.
  assert (E : (2 * t - PI / 2) * 180 / PI = 360 * (t / PI) - 90) by (field; lra). rewrite E.
  assert (0 < t / PI) by (apply Rdiv_lt_0_compat; lra).
  assert (t / PI < / 2) by (apply Rmult_lt_reg_r with PI; [lra|]; unfold Rdiv; rewrite Rmult_assoc, Rinv_l by lra; lra). lra.
Qed.
Lemma merc_lat_incr u v : u < v -> merc_lat u < merc_lat v.
Proof.
  intros H. unfold merc_lat. pose proof PI_RGT_0 as HP. unfold Rdiv at 1 4. apply Rmult_lt_compat_r; [apply Rinv_0_lt_compat; lra|].
  pose proof (atan_increasing _ _ (exp_increasing _ _ H)). lra.
Qed.

Lemma mercator_inv_l a lon lat : 0 < a -> -90 < lat < 90 -> web_mercator_inv a (web_mercator a (lon, lat)) = (lon, lat).
Proof.
  intros Ha H. unfold web_mercator_inv, web_mercator. cbn [fst snd]. pose proof PI_RGT_0 as HP. apply pair_equal_spec. split; [field; lra|].
  replace (a * ln (tan (PI / 4 + lat * PI / 360)) / a) with (merc_y lat) by (unfold merc_y; field; lra). exact (merc_lat_y lat H).
Qed.
Lemma mercator_inv_r a q : 0 < a -> web_mercator a (web_mercator_inv a q) = q.
Proof.
  intros Ha. unfold web_mercator_inv, web_mercator. destruct q as [x y]. cbn [fst snd]. pose proof PI_RGT_0 as HP. apply pair_equal_spec. split; [field; lra|].
  change (a * merc_y (merc_lat (y / a)) = y). rewrite merc_y_lat. field. lra.
Qed.
Lemma mercator_shift_eq a e n lon lat : 0 < a ->
  shift_points_by_meters (web_mercator a) (web_mercator_inv a) e n (lon, lat) = (lon + e / a * 180 / PI, merc_lat (merc_y lat + n / a)).
Proof.
  intros Ha. unfold shift_points_by_meters, web_mercator, web_mercator_inv. cbn [fst snd]. pose proof PI_RGT_0 as HP.
  apply pair_equal_spec. split; [field; lra|]. 
  assert (E : (a * ln (tan (PI / 4 + lat * PI / 360)) + n) / a = merc_y lat + n / a) by (unfold merc_y; field; lra). rewrite E. reflexivity.
Qed.
Lemma mercator_shift a e n lon lat : 0 < a -> -90 < lat < 90 -> exists lat',
  shift_points_by_meters (web_mercator a) (web_mercator_inv a) e n (lon, lat) = (lon + e / a * 180 / PI, lat') /\
  -90 < lat' < 90 /\ (n < 0 -> lat' < lat) /\ (n = 0 -> lat' = lat) /\ (0 < n -> lat < lat').
Proof.
  intros Ha H. exists (merc_lat (merc_y lat + n / a)). split; [apply mercator_shift_eq, Ha|]. split; [apply merc_lat_range|].
  pose proof (merc_lat_y lat H) as E. split; [|split].
  - intros Hn. rewrite <- E at 2. apply merc_lat_incr. assert (0 < (- n) / a) by (apply Rdiv_lt_0_compat; lra). unfold Rdiv in *. lra.
  - intros ->. unfold Rdiv. rewrite Rmult_0_l, Rplus_0_r. exact E.
  - intros Hn. rewrite <- E at 1. apply merc_lat_incr. assert (0 < n / a) by (apply Rdiv_lt_0_compat; lra). lra.
Qed.

Lemma gd_lipschitz u v : u < v -> 0 <= 2 * atan (exp v) - 2 * atan (exp u) <= v - u.
Proof.
  intros H.
  destruct (MVT_cor2 (fun x => atan (exp x)) (fun x => / (1 + exp x ^ 2) * exp x) u v H) as (c & E & _).
  { intros c _. apply (derivable_pt_lim_comp exp atan c (exp c)); [apply derivable_pt_lim_exp|apply derivable_pt_lim_atan]. }
  pose proof (exp_pos c) as P. set (t := exp c) in *.
  assert (D : 0 < 1 + t ^ 2) by nra.
  assert (B : 0 <= / (1 + t ^ 2) * t <= / 2).
  { split; [apply Rmult_le_pos; [left; apply Rinv_0_lt_compat; exact D|lra]|].
    apply Rmult_le_reg_l with (1 + t ^ 2); [exact D|]. rewrite <- Rmult_assoc, Rinv_r by (apply Rgt_not_eq; exact D). pose proof (Rle_0_sqr (t - 1)) as Q. unfold Rsqr in Q. lra. }
  cbv beta in E. set (k := / (1 + t ^ 2) * t) in *. assert (2 * atan (exp v) - 2 * atan (exp u) = 2 * (k * (v - u))) by lra. nra.
Qed.
Lemma mercator_short a e n lon lat lon' lat' : 0 < a -> -90 < lat < 90 ->
  shift_points_by_meters (web_mercator a) (web_mercator_inv a) e n (lon, lat) = (lon', lat') ->
  Rabs (a * ((lat' - lat) * PI / 180)) <= Rabs n.
Proof.
  intros Ha H E. rewrite mercator_shift_eq in E by exact Ha. injection E as _ <-. pose proof PI_RGT_0 as HP.
  pose proof (merc_lat_y lat H) as EL. set (y := merc_y lat) in *.
  assert (D : a * ((merc_lat (y + n / a) - lat) * PI / 180) = a * (2 * atan (exp (y + n / a)) - 2 * atan (exp y))).
  { rewrite <- EL. unfold merc_lat. field. lra. }
  rewrite D. assert (EN : n = a * (n / a)) by (field; lra). set (m := n / a) in *. rewrite EN.
  rewrite !Rabs_mult, (Rabs_pos_eq a) by lra. apply Rmult_le_compat_l; [lra|].
  destruct (Rtotal_order m 0) as [M|[M|M]].
  - pose proof (gd_lipschitz (y + m) y ltac:(lra)). rewrite (Rabs_left1 m), Rabs_left1 by lra. lra.
  - rewrite M, Rplus_0_r, Rminus_diag_eq by reflexivity. lra.
  - pose proof (gd_lipschitz y (y + m) ltac:(lra)). rewrite (Rabs_pos_eq m), Rabs_pos_eq by lra. lra.
Qed.

(* ------------------------------- IGM image --------------------------- *)

Lemma igm_pixels nx ny : let '(gx, gy) := create_pixel_grid nx ny 1 in
  map2 (map2 (fun x y => (Q2R x, Q2R y))) (b_rows gx) (b_rows gy) = map (fun r => map (fun c => (INR c, INR r) : pixel) (seq 0 nx)) (seq 0 ny).
Proof.
  unfold create_pixel_grid. cbn [b_rows]. rewrite (Pos2Nat.inj_1), !Nat.mul_1_r, !map_map.
  induction (seq 0 ny) as [|r l IH]; [reflexivity|]. cbn [map map2]. rewrite IH. f_equal.
  rewrite map_map, (map2_const _ (fun i => (Z.of_nat i # 1)%Q)). apply map_ext. intros c. rewrite !q2r_nat. reflexivity.
Qed.
Lemma pixel_rows nx ny : Forall (fun r => length r = nx) (map (fun r => map (fun c => (INR c, INR r) : pixel) (seq 0 nx)) (seq 0 ny)).
Proof. apply Forall_forall. intros l H. apply in_map_iff in H. destruct H as (r & <- & _). rewrite map_length, seq_length. reflexivity. Qed.
Lemma pixel_list_length nx ny : length (pixel_list nx ny) = (ny * nx)%nat.
Proof. unfold pixel_list. etransitivity; [exact (concat_length_const _ nx (pixel_rows nx ny))|]. rewrite map_length, seq_length. reflexivity. Qed.
Lemma pixel_list_nth nx ny r c : (r < ny)%nat -> (c < nx)%nat -> nth_error (pixel_list nx ny) (r * nx + c) = Some (INR c, INR r).
Proof.
  intros Hr Hc. unfold pixel_list. etransitivity; [exact (concat_nth _ nx r c (pixel_rows nx ny) Hc)|].
  rewrite nth_map_seq0 by exact Hr. apply (nth_map_seq0 (fun c => (INR c, INR r) : pixel)). exact Hc.
Qed.

Lemma fin_row_ok {A} (f : A -> flt) row vs : mapM fin_value (map f row) = Ok vs ->
  length vs = length row /\ forall k x, nth_error row k = Some x -> exists v, f x = Fin v /\ nth_error vs k = Some v.
Proof.
  revert vs. induction row as [|a row IH]; intros vs H.
  - injection H as <-. split; [reflexivity|]. intros [|k] x E; discriminate.
  - cbn [map mapM] in H. destruct (f a) as [v|] eqn:EF; cbn [fin_value bind] in H; [|discriminate].
    destruct (mapM fin_value (map f row)) as [ws| |]; cbn [bind] in H; try discriminate. injection H as <-.
    destruct (IH ws eq_refl) as [L N]. split; [cbn; lia|]. intros [|k] x E; [injection E as <-; exists v; auto|exact (N k x E)].
Qed.
Lemma fin_rows_ok {A} (f : A -> flt) rows vs ny nx : fin_rows (map (map f) rows) = Ok vs -> Spec_Dem.grid rows ny nx ->
  Spec_Dem.grid vs ny nx /\ forall r c x, Spec_Dem.cell rows r c = Some x -> exists v, f x = Fin v /\ Spec_Dem.cell vs r c = Some v.
Proof.
  unfold fin_rows, Spec_Dem.grid, Spec_Dem.cell. intros H [HL HF]. subst ny. revert vs H. induction rows as [|row rows IH]; intros vs H.
  - injection H as <-. split; [split; [reflexivity|constructor]|]. intros [|r] c x E; discriminate.
  - cbn [map mapM] in H. destruct (mapM fin_value (map f row)) as [v| |] eqn:E1; cbn [bind] in H; try discriminate.
    destruct (mapM (mapM fin_value) (map (map f) rows)) as [ws| |]; cbn [bind] in H; try discriminate. injection H as <-.
    destruct (fin_row_ok f row v E1) as [L1 N1]. inversion HF as [|? ? Hrow HF']; subst. destruct (IH HF' ws eq_refl) as [[L F] N].
    split; [split; [cbn; lia|constructor; [exact L1|exact F]]|]. intros [|r] c x E; [exact (N1 c x E)|exact (N r c x E)].
Qed.
Lemma fin_rows_all {A} (f : A -> flt) (g : A -> R) rows : Forall (Forall (fun x => f x = Fin (g x))) rows -> fin_rows (map (map f) rows) = Ok (map (map g) rows).
Proof.
  unfold fin_rows. intros H. induction H as [|row rows H1 H2 IH]; [reflexivity|]. cbn [map mapM]. rewrite IH.
  assert (E : mapM fin_value (map f row) = Ok (map g row)).
  { clear -H1. induction H1 as [|x l E _ IH]; [reflexivity|]. cbn [map mapM]. rewrite E. cbn [fin_value bind]. rewrite IH. reflexivity. }
  rewrite E. reflexivity.
Qed.

Lemma caster_length ground elev high low distance pixels rs : ray_caster ground elev high low distance pixels = Ok rs -> length rs = length pixels.
Proof.
  unfold ray_caster. destruct (n_steps _ _) as [n| |]; try discriminate. cbn [bind]. destruct (n <? 0)%Z; [discriminate|]. intros H.
  apply mapM_length in H. rewrite H, combine_length, !map_length, Nat.min_id. reflexivity.
Qed.
Lemma pixel_list_0 ny : pixel_list 0 ny = [].
Proof. unfold pixel_list. induction (seq 0 ny) as [|r l IH]; [reflexivity|exact IH]. Qed.
Lemma caster_empty ground elev high low distance rs : ray_caster ground elev high low distance [] <> Ok rs.
Proof. unfold ray_caster, n_steps. cbn. discriminate. Qed.
(** the distance used *)
Definition dist_of (distance : option R) : R := match distance with None => 5 | Some d => d end.

Lemma igm_image_ok {V} nx ny (data : option (image_array V)) ground proj d distance im :
  create_igm_image nx ny data ground proj (Some d) distance = Ok im ->
  exists a rs, data = Some a /\ ray_caster ground (de_elev d) (de_high d) (de_low d) (dist_of distance) (pixel_list nx ny) = Ok rs /\
    ii_data im = a /\ ii_npix_x im = nx /\ ii_npix_y im = ny /\ py_get (ia_shape a) 2 = Ok (ii_n_bands im) /\ ii_proj im = proj /\
    Spec_Dem.igm_of_size (ii_calc im) ny nx /\
    forall r c, (r < ny)%nat -> (c < nx)%nat -> exists lon lat alt, nth_error rs (r * nx + c) = Some (Fin lon, Fin lat, Fin alt) /\
      Spec_Dem.node (ii_calc im) r c = Some (lon, lat) /\ Spec_Dem.cell (igm_alts (ii_calc im)) r c = Some alt.
Proof.
  unfold create_igm_image. pose proof (igm_pixels nx ny) as EP. destruct (create_pixel_grid nx ny 1) as [gx gy]. rewrite EP.
  intros H. unfold ray_caster_nd in H. fold (dist_of distance) in H. rewrite map_length, seq_length in H.
  match type of H with context [ray_caster ?a0 ?b0 ?c0 ?d0 ?e0 ?f0] => change (ray_caster a0 b0 c0 d0 e0 f0) with (ray_caster ground (de_elev d) (de_high d) (de_low d) (dist_of distance) (pixel_list nx ny)) in H end.
  destruct (ray_caster _ _ _ _ _ (pixel_list nx ny)) as [rs| |] eqn:ER; cbn [bind] in H; try discriminate H.
  destruct (Prop_PointCalc.C37_2d _ _ _ _ _ nx _ rs (pixel_rows nx ny) ER) as (rows & E2 & EC & EL & EF).
  unfold ray_caster_nd in E2.
  match type of E2 with (bind (ray_caster ?a ?b ?c ?d ?e ?f) ?k = _) => change (bind (ray_caster a b c d e (pixel_list nx ny)) k = Ok (Mat nx rows)) in E2 end.
  rewrite ER in E2. cbn [bind] in E2. rewrite map_length, seq_length in E2. rewrite E2 in H. cbn [bind] in H.
  rewrite map_length, seq_length in EL. assert (HG : Spec_Dem.grid rows ny nx) by (split; assumption).
  destruct (fin_rows (map (map (fun p => fst (fst p))) rows)) as [lons| |] eqn:F1; cbn [bind] in H; try discriminate.
  destruct (fin_rows (map (map (fun p => snd (fst p))) rows)) as [lats| |] eqn:F2; cbn [bind] in H; try discriminate.
  destruct (fin_rows (map (map snd) rows)) as [alts| |] eqn:F3; cbn [bind] in H; try discriminate.
  destruct data as [a|]; [|discriminate]. destruct (py_get (ia_shape a) 2) as [nb| |] eqn:EN; cbn [bind] in H; try discriminate.
  unfold igm_from_params in H.
  destruct (fin_rows_ok _ _ _ _ _ F1 HG) as [G1 C1]. destruct (fin_rows_ok _ _ _ _ _ F2 HG) as [G2 C2]. destruct (fin_rows_ok _ _ _ _ _ F3 HG) as [G3 C3].
  assert (Hny : (0 < ny)%nat). { destruct ny; [|lia]. exfalso. exact (caster_empty _ _ _ _ _ _ ER). }
  assert (Hnx : (0 < nx)%nat). { destruct nx; [|lia]. exfalso. rewrite pixel_list_0 in ER. exact (caster_empty _ _ _ _ _ _ ER). }
  destruct (Prop_Dem.C38_altitude_image lons lats alts ny nx G1 G2 Hny Hnx) as (g & EG & SZ & L1 & L2 & L3 & _).
  rewrite EG in H. cbn [bind] in H. injection H as <-. cbn [ii_data ii_npix_x ii_npix_y ii_n_bands ii_proj ii_calc].
  exists a, rs. split; [reflexivity|]. split; [reflexivity|]. split; [reflexivity|].
  destruct G1 as [G1 G1']. split. { destruct lons as [|row lons]; [cbn in G1; lia|]. inversion G1'; assumption. }
  split; [exact G1|]. split; [exact EN|]. split; [reflexivity|]. split; [exact SZ|].
  intros r c Hr Hc.
  assert (EX : exists x, Spec_Dem.cell rows r c = Some x).
  { unfold Spec_Dem.cell. destruct (nth_error rows r) as [row|] eqn:Er; [|apply nth_error_None in Er; lia].
    rewrite Forall_forall in EF. pose proof (EF row (nth_error_In _ _ Er)) as LR. destruct (nth_error row c) as [x|] eqn:Ec; [eauto|apply nth_error_None in Ec; lia]. }
  destruct EX as [x EX]. destruct (C1 r c x EX) as (lon & X1 & Y1). destruct (C2 r c x EX) as (lat & X2 & Y2). destruct (C3 r c x EX) as (alt & X3 & Y3).
  exists lon, lat, alt. unfold Spec_Dem.node. rewrite L1, L2, L3, Y1, Y2, Y3. split; [|split; reflexivity].
  rewrite <- EC, (concat_nth rows nx r c EF Hc). fold (Spec_Dem.cell rows r c). rewrite EX. destruct x as [[x1 x2] x3]. cbn in X1, X2, X3. congruence.
Qed.
Lemma igm_image_made {V} nx ny (data : option (image_array V)) ground proj d distance rs :
  (0 < nx)%nat -> (0 < ny)%nat ->
  ray_caster ground (de_elev d) (de_high d) (de_low d) (dist_of distance) (pixel_list nx ny) = Ok rs ->
  Forall (fun p => exists a b c, p = (Fin a, Fin b, Fin c)) rs ->
  match data with
  | None => create_igm_image nx ny data ground proj (Some d) distance = Err AttributeError
  | Some a => match py_get (ia_shape a) 2 with
              | Ok _ => exists im, create_igm_image nx ny data ground proj (Some d) distance = Ok im
              | Err e => create_igm_image nx ny data ground proj (Some d) distance = Err e
              | Diverges => create_igm_image nx ny data ground proj (Some d) distance = Diverges
              end
  end.
Proof.
  intros Hnx Hny ER FR. unfold create_igm_image. pose proof (igm_pixels nx ny) as EP. destruct (create_pixel_grid nx ny 1) as [gx gy]. rewrite EP.
  destruct (Prop_PointCalc.C37_2d _ _ _ _ _ nx _ rs (pixel_rows nx ny) ER) as (rows & E2 & EC & EL & EF).
  rewrite map_length, seq_length in EL.
  match goal with |- context [ray_caster_nd ?a0 ?b0 ?c0 ?d0 ?e0 ?f0] => match type of E2 with ?L = _ => change (ray_caster_nd a0 b0 c0 d0 e0 f0) with L end end.
  rewrite E2. cbn [bind].
  assert (FF : Forall (Forall (fun p => exists a b c, p = (Fin a, Fin b, Fin c))) rows).
  { rewrite <- EC in FR. clear -FR. induction rows as [|row rows IH]; [constructor|]. cbn [concat] in FR. apply Forall_app in FR. destruct FR. constructor; auto. }
  set (unfin := fun x : flt => match x with Fin v => v | NonFinite => 0 end).
  assert (U : forall f : flt * flt * flt -> flt, (forall a b c, exists v, f (Fin a, Fin b, Fin c) = Fin v) -> fin_rows (map (map f) rows) = Ok (map (map (fun x => unfin (f x))) rows)).
  { intros f Hf. apply fin_rows_all. revert FF. apply Forall_impl. intros row. apply Forall_impl. intros p (a & b & c & ->). destruct (Hf a b c) as [v E]. rewrite E. reflexivity. }
  rewrite (U (fun p => fst (fst p))), (U (fun p => snd (fst p))), (U snd) by (intros; eexists; reflexivity). cbn [bind].
  destruct data as [a|]; [|reflexivity]. destruct (py_get (ia_shape a) 2) as [nb|e|]; cbn [bind]; try reflexivity.
  unfold igm_from_params.
  assert (HG : forall f : flt * flt * flt -> R, Spec_Dem.grid (map (map f) rows) ny nx).
  { intros f. split; [rewrite map_length; exact EL|]. apply Forall_forall. intros l Hl. apply in_map_iff in Hl. destruct Hl as (l0 & <- & Hl).
    rewrite map_length. rewrite Forall_forall in EF. apply EF. exact Hl. }
  destruct (Prop_Dem.C38_altitude_image _ _ (map (map (fun x => unfin (snd x))) rows) ny nx (HG (fun x => unfin (fst (fst x)))) (HG (fun x => unfin (snd (fst x)))) Hny Hnx) as (g & EG & _).
  rewrite EG. cbn [bind]. eexists; reflexivity.
Qed.
