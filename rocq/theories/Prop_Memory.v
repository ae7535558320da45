(** C100: which images share memory, and what that does. *)
From Coq Require Import ZArith List Bool Lia Arith.
From Verif Require Import Py M_Memory Spec_Memory.
Import ListNotations.
Open Scope Z_scope.

Lemma row_index y x nx : (x < nx)%nat -> ((y * nx + x) / nx = y)%nat /\ ((y * nx + x) mod nx = x)%nat.
Proof.
  intros H. split; [rewrite Nat.div_add_l by lia; rewrite Nat.div_small by lia; lia|].
  rewrite Nat.add_comm, Nat.mod_add by lia. now apply Nat.mod_small.
Qed.
Lemma index_split i ny nx : (i < ny * nx)%nat -> (i / nx < ny)%nat /\ (i mod nx < nx)%nat /\ (i = (i / nx) * nx + i mod nx)%nat.
Proof.
  intros H. assert (nx <> 0)%nat by nia. split; [apply Nat.div_lt_upper_bound; lia|]. split; [now apply Nat.mod_upper_bound|].
  pose proof (Nat.div_mod i nx). lia.
Qed.
Lemma digits n q r q' r' : (r < n)%nat -> (r' < n)%nat -> Z.of_nat q * Z.of_nat n + Z.of_nat r = Z.of_nat q' * Z.of_nat n + Z.of_nat r' -> q = q' /\ r = r'.
Proof. intros H1 H2 E. assert (q = q') as -> by nia. lia. Qed.
Lemma one_stride_spec a s : one_stride a = Some s -> forall y x, (y < n_y a)%nat -> (x < n_x a)%nat ->
  Z.of_nat (y * n_x a + x) * s = Z.of_nat y * s_y a + Z.of_nat x * s_x a.
Proof.
  unfold one_stride. intros H y x Hy Hx. destruct (Nat.leb_spec (n_y a) 1) as [L1|L1].
  - injection H as <-. assert (y = 0%nat) as -> by lia. nia.
  - destruct (Nat.leb_spec (n_x a) 1) as [L2|L2].
    + injection H as <-. assert (x = 0%nat) as -> by lia. assert (n_x a = 1%nat) as -> by lia. nia.
    + destruct (Z.eqb_spec (s_y a) (Z.of_nat (n_x a) * s_x a)) as [E|E]; [|discriminate]. injection H as <-. rewrite E. nia.
Qed.
Lemma one_stride_iff a : rows_follow a <-> exists s, one_stride a = Some s.
Proof.
  unfold rows_follow, one_stride. destruct (Nat.leb_spec (n_y a) 1) as [L1|L1]; [split; eauto; intros _; now left|].
  destruct (Nat.leb_spec (n_x a) 1) as [L2|L2]; [split; eauto; intros _; right; now left|].
  destruct (Z.eqb_spec (s_y a) (Z.of_nat (n_x a) * s_x a)) as [E|E]; [split; eauto; intros _; right; now right|].
  split; [intros [H|[H|H]]; [lia|lia|contradiction]|intros [s H]; discriminate].
Qed.
Lemma rows_follow_dec a : {rows_follow a} + {~ rows_follow a}.
Proof.
  destruct (one_stride a) as [s|] eqn:E; [left; apply one_stride_iff; now exists s|right]. intros H. apply one_stride_iff in H as [s H]. congruence.
Qed.

Section Proofs.
Context {V : Type}.
Implicit Types m : memory V.
Lemma new2_get m n k f r c : (r < n)%nat -> (c < k)%nat -> get2 (snd (new2 m n k f)) (fst (new2 m n k f)) r c = f r c.
Proof.
  intros Hr Hc. unfold get2, addr2, new2. cbn. rewrite Nat.eqb_refl. f_equal.
  - rewrite Z.mul_1_r. rewrite Z.div_add_l by lia. rewrite Z.div_small by lia. lia.
  - rewrite Z.mul_1_r. rewrite Z.add_comm, Z.mod_add by lia. rewrite Z.mod_small by lia. lia.
Qed.
Lemma new2_before m n k f : same_before m (snd (new2 m n k f)).
Proof. intros j z H. cbn. destruct (Nat.eqb_spec j (next m)); [lia|reflexivity]. Qed.
Lemma flatten_view a m s : one_stride a = Some s ->
  flatten_image_cube a m = ({| buf2 := buf3 a; off2 := off3 a; n_r := n_y a * n_x a; n_c := n_b a; s_r := s; s_c := s_b a |}, m).
Proof. intros E. unfold flatten_image_cube. now rewrite E. Qed.
Lemma flatten_new a m : one_stride a = None ->
  flatten_image_cube a m = new2 m (n_y a * n_x a) (n_b a) (fun i b => get3 m a (i / n_x a) (i mod n_x a) b).
Proof. intros E. unfold flatten_image_cube. now rewrite E. Qed.
Lemma view_addr a s y x b : one_stride a = Some s -> (y < n_y a)%nat -> (x < n_x a)%nat ->
  addr2 {| buf2 := buf3 a; off2 := off3 a; n_r := n_y a * n_x a; n_c := n_b a; s_r := s; s_c := s_b a |} (y * n_x a + x) b = addr3 a y x b.
Proof. intros E Hy Hx. unfold addr2, addr3. cbn [off2 s_r s_c]. rewrite (one_stride_spec a s E y x Hy Hx). lia. Qed.

Lemma flatten_facts a m w m1 : flatten_image_cube a m = (w, m1) ->
  n_r w = (n_y a * n_x a)%nat /\ n_c w = n_b a /\ same_before m m1 /\ (next m <= next m1)%nat /\
  (forall y x b, in3 a y x b -> get2 m1 w (y * n_x a + x) b = get3 m a y x b).
Proof.
  intros H. destruct (one_stride a) as [s|] eqn:E.
  - rewrite (flatten_view a m s E) in H. injection H as <- <-. split; [reflexivity|]. split; [reflexivity|]. split; [intros k z _; reflexivity|]. split; [lia|].
    intros y x b (Hy & Hx & Hb). unfold get2, get3. rewrite (view_addr a s y x b E Hy Hx). reflexivity.
  - rewrite (flatten_new a m E) in H. pose proof (f_equal fst H) as H1. pose proof (f_equal snd H) as H2. cbn [fst snd] in H1, H2. subst w m1.
    split; [reflexivity|]. split; [reflexivity|]. split; [apply new2_before|]. split; [cbn; lia|].
    intros y x b (Hy & Hx & Hb). rewrite new2_get; [|nia|exact Hb]. destruct (row_index y x (n_x a) Hx) as [-> ->]. reflexivity.
Qed.
End Proofs.

(** Flattening: shape (ny * nx, nbands), row y * nx + x holds pixel (y, x); no array changes. *)
Theorem C100_flatten : forall V (a : arr3) (m : memory V) w m1, flatten_image_cube a m = (w, m1) ->
  shape2 w = (n_y a * n_x a, n_b a)%nat /\ same_before m m1 /\
  forall y x b, in3 a y x b -> get2 m1 w (y * n_x a + x) b = get3 m a y x b.
Proof.
  intros V a m w m1 H. destruct (flatten_facts a m w m1 H) as (A & B & C & _ & D). split; [unfold shape2; now rewrite A, B|]. now split.
Qed.
Print Assumptions C100_flatten.

(** Writing v to element (r, b) of the flattened image: the same pixel of the image becomes v and no
    other changes if the rows follow each other in memory; else the image does not change. *)
Theorem C100_shares : forall V (a : arr3) (m : memory V) w m1 r b v, proper m a -> flatten_image_cube a m = (w, m1) -> in2 w r b ->
  forall y x c, in3 a y x c ->
    (rows_follow a -> (y * n_x a + x = r /\ c = b)%nat -> get3 (put2 m1 w r b v) a y x c = v) /\
    (rows_follow a -> ~ (y * n_x a + x = r /\ c = b)%nat -> get3 (put2 m1 w r b v) a y x c = get3 m a y x c) /\
    (~ rows_follow a -> get3 (put2 m1 w r b v) a y x c = get3 m a y x c).
Proof.
  intros V a m w m1 r b v [PB PI] H [Hr Hb] y x c HI. destruct (flatten_facts a m w m1 H) as (A & B & _). rewrite A in Hr. rewrite B in Hb.
  destruct (index_split r _ _ Hr) as (R1 & R2 & R3). destruct (one_stride a) as [s|] eqn:E.
  - rewrite (flatten_view a m s E) in H. injection H as <- <-. pose proof (view_addr a s (r / n_x a) (r mod n_x a) b E R1 R2) as AD. rewrite <- R3 in AD.
    assert (RF : rows_follow a) by (apply one_stride_iff; now exists s). unfold get3, put2, poke. cbn [mem buf2]. rewrite Nat.eqb_refl, AD. cbn [andb].
    split; [|split].
    + intros _ [E1 E2]. destruct HI as (Hy & Hx & Hc). destruct (row_index y x (n_x a) Hx) as [Q1 Q2]. rewrite E1 in Q1, Q2. rewrite Q1, Q2, E2, Z.eqb_refl. reflexivity.
    + intros _ N. destruct (Z.eqb_spec (addr3 a y x c) (addr3 a (r / n_x a) (r mod n_x a) b)) as [Q|Q]; [|reflexivity].
      exfalso. apply N. apply PI in Q as (-> & -> & ->); [split; [now symmetry|reflexivity]|exact HI|split; [exact R1|split; assumption]].
    + contradiction.
  - rewrite (flatten_new a m E) in H. pose proof (f_equal fst H) as H1. pose proof (f_equal snd H) as H2. cbn [fst snd] in H1, H2. subst w m1.
    assert (NR : ~ rows_follow a) by (intros Z; apply one_stride_iff in Z as [s Z]; congruence).
    assert (G : get3 (put2 (snd (new2 m (n_y a * n_x a) (n_b a) (fun i b => get3 m a (i / n_x a) (i mod n_x a) b))) (fst (new2 m (n_y a * n_x a) (n_b a) (fun i b => get3 m a (i / n_x a) (i mod n_x a) b))) r b v) a y x c = get3 m a y x c).
    { unfold get3 at 1, put2, poke. cbn. destruct (Nat.eqb_spec (buf3 a) (next m)); [lia|reflexivity]. }
    split; [intros F; contradiction|]. split; [intros F; contradiction|]. intros _. exact G.
Qed.
Print Assumptions C100_shares.

(** The orders of image files: an image stored by pixel or by band is shared, one stored by line is
    copied, unless it has one row, one column or one band. *)
Theorem C100_orders : forall k o ny nx nb,
  rows_follow (bip k o ny nx nb) /\ rows_follow (bsq k o ny nx nb) /\
  (rows_follow (bil k o ny nx nb) <-> (ny <= 1 \/ nx <= 1 \/ nb = 1)%nat).
Proof.
  intros k o ny nx nb. unfold rows_follow. cbn [bip bil bsq n_y n_x n_b s_y s_x s_b]. split; [right; right; nia|]. split; [right; right; nia|].
  split; [intros [H|[H|H]]; [lia|lia|]|intros [H|[H|H]]; [lia|lia|right; right; nia]].
  destruct (Nat.le_gt_cases nx 1) as [L|L]; [lia|]. right. right. nia.
Qed.
Print Assumptions C100_orders.

(** Unflattening: an error exactly if the sizes do not fit; else pixel (y, x) is row y * nx + x, and
    always of the same memory: writing to it writes the row. *)
Theorem C100_unflatten : forall V (w : arr2) nx ny, (0 < n_c w)%nat ->
  (n_r w <> ny * nx -> unflatten_image_cube w nx ny = Err ValueError)%nat /\
  (n_r w = ny * nx -> exists a, unflatten_image_cube w nx ny = Ok a /\ shape3 a = (ny, nx, n_c w) /\
     forall (m : memory V) y x b v, in3 a y x b ->
       get3 m a y x b = get2 m w (y * nx + x) b /\ put3 m a y x b v = put2 m w (y * nx + x) b v)%nat.
Proof.
  intros V w nx ny H. unfold unflatten_image_cube. split.
  - intros N. destruct (Nat.eqb_spec (ny * nx * n_c w) (n_r w * n_c w)) as [E|E]; [|reflexivity]. exfalso. apply N. symmetry. apply Nat.mul_cancel_r in E; lia.
  - intros ->. rewrite Nat.eqb_refl. eexists. split; [reflexivity|]. split; [reflexivity|]. intros m y x b v _.
    assert (AD : addr3 {| buf3 := buf2 w; off3 := off2 w; n_y := ny; n_x := nx; n_b := n_c w; s_y := Z.of_nat nx * s_r w; s_x := s_r w; s_b := s_c w |} y x b = addr2 w (y * nx + x) b).
    { unfold addr3, addr2. cbn. nia. }
    unfold get3, get2, put3, put2. rewrite AD. now split.
Qed.
Print Assumptions C100_unflatten.

(** A function that computes a new array from the flattened image: its result holds the function's
    values, no existing array changes, and writing to the result changes no array that existed
    before. *)
Theorem C100_pure : forall V f (a : arr3) (m : memory V), proper m a ->
  exists o m', on_flattened f a m = Ok (o, m') /\ shape3 o = shape3 a /\ same_before m m' /\
    (exists X, (forall y x b, in3 a y x b -> X (y * n_x a + x)%nat b = get3 m a y x b) /\
       forall y x b, in3 a y x b -> get3 m' o y x b = f X (y * n_x a + x)%nat b) /\
    forall y x b v, same_before m (put3 m' o y x b v).
Proof.
  intros V f a m [PB PI]. unfold on_flattened. destruct (flatten_image_cube a m) as [w m1] eqn:F. destruct (flatten_facts a m w m1 F) as (A & B & C & L & D).
  assert (EN := new2_get m1 (n_r w) (n_c w) (f (get2 m1 w))). assert (BN := new2_before m1 (n_r w) (n_c w) (f (get2 m1 w))).
  assert (BU : buf2 (fst (new2 m1 (n_r w) (n_c w) (f (get2 m1 w)))) = next m1) by reflexivity.
  assert (SH : n_r (fst (new2 m1 (n_r w) (n_c w) (f (get2 m1 w)))) = n_r w /\ n_c (fst (new2 m1 (n_r w) (n_c w) (f (get2 m1 w)))) = n_c w) by (split; reflexivity).
  destruct (new2 m1 (n_r w) (n_c w) (f (get2 m1 w))) as [r m2]. cbn [fst snd] in *. destruct SH as [SR SC].
  unfold unflatten_image_cube. rewrite SR, SC, A, Nat.eqb_refl. eexists. eexists. split; [reflexivity|].
  assert (SB : same_before m m2) by (intros k z Hk; rewrite BN by lia; now apply C).
  split; [unfold shape3; cbn; now rewrite B|]. split; [exact SB|]. split.
  - exists (get2 m1 w). split; [exact D|]. intros y x b (Hy & Hx & Hb). rewrite <- EN; [|rewrite A; nia|rewrite B; exact Hb].
    unfold get3, get2, addr3, addr2. cbn. f_equal. nia.
  - intros y x b v k z Hk. unfold put3, poke. cbn [mem buf3]. rewrite BU. destruct (Nat.eqb_spec k (next m1)); [lia|]. now apply SB.
Qed.
Print Assumptions C100_pure.

(** Overwriting a whole array with distinct addresses *)
Lemma grid2_In n k r c : In (r, c) (grid2 n k) <-> (r < n /\ c < k)%nat.
Proof.
  unfold grid2. rewrite in_flat_map. split.
  - intros (x & Hx & H). apply in_map_iff in H as (y & E & Hy). injection E as <- <-. apply in_seq in Hx, Hy. lia.
  - intros [H1 H2]. exists r. split; [apply in_seq; lia|]. apply in_map_iff. exists c. split; [reflexivity|apply in_seq; lia].
Qed.
Lemma pair_dec (a b : nat * nat) : {a = b} + {a <> b}.
Proof. decide equality; apply Nat.eq_dec. Qed.
Lemma fill_spec V (m : memory V) w f :
  (forall r c r' c', in2 w r c -> in2 w r' c' -> addr2 w r c = addr2 w r' c' -> r = r' /\ c = c') ->
  next (fill m w f) = next m /\ (forall r c, in2 w r c -> mem (fill m w f) (buf2 w) (addr2 w r c) = f r c) /\
  (forall k z, k <> buf2 w \/ (forall r c, in2 w r c -> z <> addr2 w r c) -> mem (fill m w f) k z = mem m k z).
Proof.
  intros INJ. unfold fill. set (g := fun (m : memory V) rc => put2 m w (fst rc) (snd rc) (f (fst rc) (snd rc))).
  assert (G : forall l m0, (forall rc, In rc l -> in2 w (fst rc) (snd rc)) ->
     next (fold_left g l m0) = next m0 /\
     (forall r c, In (r, c) l -> mem (fold_left g l m0) (buf2 w) (addr2 w r c) = f r c) /\
     (forall k z, k <> buf2 w \/ (forall r c, In (r, c) l -> z <> addr2 w r c) -> mem (fold_left g l m0) k z = mem m0 k z)).
  { induction l as [|[r0 c0] l IH]; intros m0 HL; [split; [reflexivity|split; [intros ? ? []|reflexivity]]|]. cbn [fold_left].
    destruct (IH (g m0 (r0, c0))) as (I1 & I2 & I3); [intros rc H; apply HL; now right|]. split; [exact I1|]. split.
    - intros r c H. destruct (in_dec pair_dec (r, c) l) as [Y|N]; [now apply I2|]. destruct H as [H|H]; [|contradiction]. injection H as -> ->.
      rewrite I3; [unfold g, put2, poke; cbn; now rewrite Nat.eqb_refl, Z.eqb_refl|]. right. intros r' c' H' Q.
      apply INJ in Q as [-> ->]; [contradiction|apply (HL (r, c)); now left|apply (HL (r', c')); now right].
    - intros k z H. rewrite I3; [|destruct H as [H|H]; [now left|right; intros r c HI; apply H; now right]].
      unfold g, put2, poke. cbn. destruct (Nat.eqb_spec k (buf2 w)) as [E|E]; [|reflexivity]. destruct (Z.eqb_spec z (addr2 w r0 c0)) as [E'|E']; [|reflexivity].
      exfalso. destruct H as [H|H]; [contradiction|]. apply (H r0 c0); [now left|exact E']. }
  destruct (G (grid2 (n_r w) (n_c w)) m) as (G1 & G2 & G3); [intros [r c] H; apply grid2_In in H; exact H|]. split; [exact G1|]. split.
  - intros r c H. apply G2, grid2_In, H.
  - intros k z H. apply G3. destruct H as [H|H]; [now left|right]. intros r c HI. apply H. now apply grid2_In.
Qed.
Lemma view_inj V (m : memory V) a s : proper m a -> one_stride a = Some s ->
  let w := {| buf2 := buf3 a; off2 := off3 a; n_r := n_y a * n_x a; n_c := n_b a; s_r := s; s_c := s_b a |} in
  forall r c r' c', in2 w r c -> in2 w r' c' -> addr2 w r c = addr2 w r' c' -> r = r' /\ c = c'.
Proof.
  intros [_ PI] E w r c r' c' [H1 H2] [H3 H4] Q. subst w. cbn [n_r n_c] in *. destruct (index_split r _ _ H1) as (A1 & A2 & A3). destruct (index_split r' _ _ H3) as (B1 & B2 & B3).
  rewrite A3, B3 in Q. rewrite !(view_addr a s) in Q by assumption. apply PI in Q as (Q1 & Q2 & Q3); [|split; [exact A1|split; assumption]|split; [exact B1|split; assumption]].
  split; [|exact Q3]. rewrite A3, B3, Q1, Q2. reflexivity.
Qed.

(** compute_image_cube_pca, for any principal component analysis: the result has the image's rows and
    columns, and pixel (y, x) of it holds the scores of sample y * nx + x, the pixel (y, x) of the image.
    The image is overwritten with what the analysis leaves in its input if it is of a float type and its
    rows follow each other in memory; otherwise no array changes. *)
Theorem C100_pca : forall V (p : pca V) is_float (a : arr3) (m : memory V), proper m a ->
  exists o m' X, compute_image_cube_pca p is_float a m = Ok (o, m') /\
    (forall y x b, in3 a y x b -> X (y * n_x a + x)%nat b = get3 m a y x b) /\
    shape3 o = (n_y a, n_x a, ncomp p (n_y a * n_x a) (n_b a))%nat /\
    (forall y x c, in3 o y x c -> get3 m' o y x c = scores p (n_y a * n_x a) (n_b a) X (y * n_x a + x) c) /\
    (is_float = true -> rows_follow a -> forall y x b, in3 a y x b ->
       get3 m' a y x b = left_over p (n_y a * n_x a) (n_b a) X (y * n_x a + x) b) /\
    (is_float = false \/ ~ rows_follow a -> same_before m m') /\
    forall k z, (k < next m)%nat -> k <> buf3 a -> mem m' k z = mem m k z.
Proof.
  intros V p fl a m P. pose proof P as [PB PI]. unfold compute_image_cube_pca, fit_transform. destruct (flatten_image_cube a m) as [w m1] eqn:F.
  destruct (flatten_facts a m w m1 F) as (A & B & C & L & D).
  set (X := get2 m1 w) in *. set (m2 := if fl then fill m1 w (left_over p (n_r w) (n_c w) X) else m1).
  assert (M2 : next m2 = next m1 /\
     (fl = true -> rows_follow a -> forall y x b, in3 a y x b -> get3 m2 a y x b = left_over p (n_y a * n_x a) (n_b a) X (y * n_x a + x) b) /\
     (fl = false \/ ~ rows_follow a -> same_before m m2) /\
     forall k z, (k < next m)%nat -> k <> buf3 a -> mem m2 k z = mem m k z).
  { subst m2. destruct fl; [|split; [reflexivity|split; [discriminate|split; [intros _; exact C|intros k z Hk _; now apply C]]]].
    destruct (one_stride a) as [s|] eqn:E.
    - rewrite (flatten_view a m s E) in F. pose proof (f_equal fst F) as F1. pose proof (f_equal snd F) as F2. cbn [fst snd] in F1, F2. subst w m1.
      destruct (fill_spec V m _ (left_over p (n_y a * n_x a)%nat (n_b a) X) (view_inj V m a s P E)) as (G1 & G2 & G3). split; [exact G1|]. split; [|split].
      + intros _ _ y x b (Hy & Hx & Hb). cbn [n_r n_c]. rewrite <- G2; [|split; cbn; [nia|exact Hb]]. rewrite (view_addr a s) by assumption. reflexivity.
      + intros [H|H]; [discriminate|]. exfalso. apply H, one_stride_iff. now exists s.
      + intros k z _ Hk. apply G3. left. exact Hk.
    - rewrite (flatten_new a m E) in F. pose proof (f_equal fst F) as F1. pose proof (f_equal snd F) as F2. cbn [fst snd] in F1, F2.
      assert (BW : buf2 w = next m) by (rewrite <- F1; reflexivity).
      assert (INJ : forall r c r' c', in2 w r c -> in2 w r' c' -> addr2 w r c = addr2 w r' c' -> r = r' /\ c = c').
      { intros r c r' c' [_ H2] [_ H4] Q. rewrite <- F1 in H2, H4, Q. unfold addr2 in Q. cbn in *. apply (digits (n_b a)); [exact H2|exact H4|lia]. }
      destruct (fill_spec V m1 w (left_over p (n_r w) (n_c w) X) INJ) as (G1 & G2 & G3). split; [exact G1|].
      assert (SB : same_before m (fill m1 w (left_over p (n_r w) (n_c w) X))).
      { intros k z Hk. rewrite G3; [now apply C|]. left. lia. }
      split; [|split].
      + intros _ H. exfalso. apply one_stride_iff in H as [s H]. congruence.
      + intros _. exact SB.
      + intros k z Hk _. now apply SB. }
  clearbody m2. destruct M2 as (N2 & K1 & K2 & K3).
  assert (EN := new2_get m2 (n_r w) (ncomp p (n_r w) (n_c w)) (scores p (n_r w) (n_c w) X)). assert (BN := new2_before m2 (n_r w) (ncomp p (n_r w) (n_c w)) (scores p (n_r w) (n_c w) X)).
  assert (SH : n_r (fst (new2 m2 (n_r w) (ncomp p (n_r w) (n_c w)) (scores p (n_r w) (n_c w) X))) = n_r w /\ n_c (fst (new2 m2 (n_r w) (ncomp p (n_r w) (n_c w)) (scores p (n_r w) (n_c w) X))) = ncomp p (n_r w) (n_c w)) by (split; reflexivity).
  destruct (new2 m2 (n_r w) (ncomp p (n_r w) (n_c w)) (scores p (n_r w) (n_c w) X)) as [t m3]. cbn [fst snd] in *. destruct SH as [SR SC].
  unfold unflatten_image_cube. rewrite SR, SC, A, Nat.eqb_refl. eexists. exists m3, X. split; [reflexivity|]. split; [exact D|].
  split; [unfold shape3; cbn; now rewrite B|]. split; [|split; [|split]].
  - intros y x c (Hy & Hx & Hc). cbn in Hy, Hx, Hc. rewrite <- A, <- B. rewrite <- EN; [|rewrite A; nia|now rewrite A].
    unfold get3, get2, addr3, addr2. cbn. f_equal. nia.
  - intros H1 H2 y x b H3. rewrite <- (K1 H1 H2 y x b H3). unfold get3. apply BN. lia.
  - intros H k z Hk. rewrite BN by lia. now apply K2.
  - intros k z Hk N. rewrite BN by lia. now apply K3.
Qed.
Print Assumptions C100_pca.

(** That an analysis leaves the image alone: refuted, for every analysis that changes its input (as
    sklearn's does, subtracting the means), by every float image with rows that follow each other. *)
Theorem C100_pca_refuted : forall V (p : pca V) (a : arr3) (m : memory V), proper m a -> rows_follow a ->
  (forall X, (forall y x b, in3 a y x b -> X (y * n_x a + x)%nat b = get3 m a y x b) ->
     exists y x b, in3 a y x b /\ left_over p (n_y a * n_x a) (n_b a) X (y * n_x a + x) b <> X (y * n_x a + x)%nat b) ->
  exists o m' y x b, compute_image_cube_pca p true a m = Ok (o, m') /\ in3 a y x b /\ get3 m' a y x b <> get3 m a y x b.
Proof.
  intros V p a m P RF CH. destruct (C100_pca V p true a m P) as (o & m' & X & E & HX & _ & _ & H1 & _). destruct (CH X HX) as (y & x & b & HI & N).
  exists o, m', y, x, b. split; [exact E|]. split; [exact HI|]. rewrite (H1 eq_refl RF y x b HI), <- (HX y x b HI). exact N.
Qed.
Print Assumptions C100_pca_refuted.

(** A band of an image is a view: an error exactly outside -nbands .. nbands - 1; else it reads the
    band (counted from the end if negative), and writing to it writes the image's band there and
    nowhere else. *)
Theorem C100_band : forall V (a : arr3) (m : memory V) i, proper m a ->
  (~ - Z.of_nat (n_b a) <= i < Z.of_nat (n_b a) -> get_image_band a i = Err IndexError) /\
  (- Z.of_nat (n_b a) <= i < Z.of_nat (n_b a) -> exists w b, get_image_band a i = Ok w /\ shape2 w = (n_y a, n_x a) /\
     (b < n_b a)%nat /\ (Z.of_nat b = i \/ Z.of_nat b = i + Z.of_nat (n_b a) /\ i < 0) /\
     forall y x, in2 w y x -> get2 m w y x = get3 m a y x b /\
       forall v y' x' c, in3 a y' x' c ->
         (y' = y /\ x' = x /\ c = b -> get3 (put2 m w y x v) a y' x' c = v) /\
         (~ (y' = y /\ x' = x /\ c = b) -> get3 (put2 m w y x v) a y' x' c = get3 m a y' x' c)).
Proof.
  intros V a m i [PB PI]. unfold get_image_band. set (k := if i <? 0 then i + Z.of_nat (n_b a) else i).
  assert (K : k = i /\ 0 <= i \/ k = i + Z.of_nat (n_b a) /\ i < 0) by (subst k; destruct (Z.ltb_spec i 0); [right|left]; lia). clearbody k. split.
  - intros N. destruct (Z.leb_spec 0 k); destruct (Z.ltb_spec k (Z.of_nat (n_b a))); cbn; try reflexivity. lia.
  - intros H. assert (HK : 0 <= k < Z.of_nat (n_b a)) by lia. destruct (Z.leb_spec 0 k) as [_|?]; [|lia]. destruct (Z.ltb_spec k (Z.of_nat (n_b a))) as [_|?]; [|lia]. cbn [andb].
    eexists. exists (Z.to_nat k). split; [reflexivity|]. split; [reflexivity|]. split; [lia|]. split; [lia|].
    assert (AD : forall y x, addr2 {| buf2 := buf3 a; off2 := off3 a + k * s_b a; n_r := n_y a; n_c := n_x a; s_r := s_y a; s_c := s_x a |} y x = addr3 a y x (Z.to_nat k)).
    { intros y x. unfold addr2, addr3. cbn. rewrite Z2Nat.id by lia. lia. }
    intros y x [Hy Hx]. cbn in Hy, Hx. split; [unfold get2, get3; now rewrite AD|]. intros v y' x' c HI. unfold get3, put2, poke. cbn [mem buf2]. rewrite Nat.eqb_refl, AD. cbn [andb]. split.
    + intros (-> & -> & ->). now rewrite Z.eqb_refl.
    + intros N. destruct (Z.eqb_spec (addr3 a y' x' c) (addr3 a y x (Z.to_nat k))) as [Q|Q]; [|reflexivity]. exfalso. apply N. apply PI; [exact HI| |exact Q].
      split; [exact Hy|split; [exact Hx|lia]].
Qed.
Print Assumptions C100_band.

(** Telling 2-D from 1-D cubes by the rank: never both, a warning exactly if neither; the sizes in the
    order x, y, bands, an error below rank 3. *)
Theorem C100_rank : forall shape,
  (fst (is_2d_cube shape) = true <-> length shape = 3%nat) /\ (fst (is_1d_cube shape) = true <-> length shape = 2%nat) /\
  (snd (is_2d_cube shape) = true <-> fst (is_2d_cube shape) = false /\ fst (is_1d_cube shape) = false) /\
  snd (is_1d_cube shape) = snd (is_2d_cube shape) /\
  (forall ny nx nb, shape = [ny; nx; nb] -> get_2d_cube_nx_ny_nbands shape = Ok (nx, ny, nb)) /\
  ((length shape < 3)%nat <-> get_2d_cube_nx_ny_nbands shape = Err IndexError).
Proof.
  intros shape. unfold is_2d_cube, is_1d_cube, get_2d_cube_nx_ny_nbands.
  destruct shape as [|a [|b [|c [|d l]]]]; cbn; (repeat split); try discriminate; try lia; try tauto; try congruence; try (intros [? ?]; discriminate).
Qed.
Print Assumptions C100_rank.

(** The hypotheses are met: images of the three orders are proper. *)
Example C100_proper : forall V (m : memory V) o ny nx nb, (0 < next m)%nat ->
  proper m (bip 0 o ny nx nb) /\ proper m (bil 0 o ny nx nb) /\ proper m (bsq 0 o ny nx nb).
Proof.
  pose proof digits as U.
  intros V m o ny nx nb H. unfold proper, in3, addr3. cbn [bip bil bsq buf3 off3 n_y n_x n_b s_y s_x s_b].
  split; [|split]; (split; [exact H|]); intros y x b y' x' b' (Y & X & B) (Y' & X' & B') E.
  - destruct (U nb (y * nx + x)%nat b (y' * nx + x')%nat b' B B' ltac:(nia)) as [E1 E2]. destruct (U nx y x y' x' X X' ltac:(nia)) as [E3 E4]. auto.
  - destruct (U nx (y * nb + b)%nat x (y' * nb + b')%nat x' X X' ltac:(nia)) as [E1 E2]. destruct (U nb y b y' b' B B' ltac:(nia)) as [E3 E4]. auto.
  - destruct (U nx (b * ny + y)%nat x (b' * ny + y')%nat x' X X' ltac:(nia)) as [E1 E2]. destruct (U ny b y b' y' Y Y' ltac:(nia)) as [E3 E4]. auto.
Qed.
(** ... and the analysis that subtracts the first sample from all, on a 1 x 2 x 1 image. *)
Example C100_overwritten :
  let p := {| ncomp := fun _ _ => 1%nat; scores := fun _ _ X i _ => X i 0%nat - X 0%nat 0%nat; left_over := fun _ _ X i b => X i b - X 0%nat b |} in
  let m := {| next := 1; mem := fun _ z => 7 + z |} in let a := bip 0 0 1 2 1 in
  exists o m', compute_image_cube_pca p true a m = Ok (o, m') /\ get3 m a 0 1 0 = 8 /\ get3 m' a 0 1 0 = 1 /\ get3 m' o 0 1 0 = 1.
Proof. eexists. eexists. split; [reflexivity|]. repeat split. Qed.
