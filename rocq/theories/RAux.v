(** Prelude: decidable real comparisons, finite sums, minimum and maximum of
    lists of reals.  Float arithmetic is modelled by exact real arithmetic; the
    result of a division by zero (NaN or infinity in numpy) is NonFinite. *)
From Coq Require Export Reals Lra Psatz.
From Verif Require Export Py.
Open Scope R_scope.
Open Scope list_scope.

Definition Rleb (x y : R) : bool := if Rle_dec x y then true else false.
Definition Rltb (x y : R) : bool := if Rlt_dec x y then true else false.
Definition Reqb (x y : R) : bool := if Req_EM_T x y then true else false.

Lemma Rleb_spec x y : reflect (x <= y) (Rleb x y).
Proof. unfold Rleb. destruct (Rle_dec x y); constructor; assumption. Qed.
Lemma Rltb_spec x y : reflect (x < y) (Rltb x y).
Proof. unfold Rltb. destruct (Rlt_dec x y); constructor; assumption. Qed.
Lemma Reqb_spec x y : reflect (x = y) (Reqb x y).
Proof. unfold Reqb. destruct (Req_EM_T x y); constructor; assumption. Qed.

Lemma Rleb_true x y : x <= y -> Rleb x y = true.
Proof. intros H. destruct (Rleb_spec x y); auto; lra. Qed.
Lemma Rleb_false x y : y < x -> Rleb x y = false.
Proof. intros H. destruct (Rleb_spec x y); auto; lra. Qed.
Lemma Rltb_true x y : x < y -> Rltb x y = true.
Proof. intros H. destruct (Rltb_spec x y); auto; lra. Qed.
Lemma Rltb_false x y : y <= x -> Rltb x y = false.
Proof. intros H. destruct (Rltb_spec x y); auto; lra. Qed.
Lemma Reqb_true x y : x = y -> Reqb x y = true.
Proof. intros H. destruct (Reqb_spec x y); auto; lra. Qed.
Lemma Reqb_false x y : x <> y -> Reqb x y = false.
Proof. intros H. destruct (Reqb_spec x y); auto; lra. Qed.

(** A float: a real number, or NaN / infinity *)
Inductive flt : Type := Fin (r : R) | NonFinite.
Definition fmap (f : R -> R) (x : flt) : flt := match x with Fin r => Fin (f r) | NonFinite => NonFinite end.
Definition fmap2 (f : R -> R -> R) (x y : flt) : flt :=
  match x, y with Fin a, Fin b => Fin (f a b) | _, _ => NonFinite end.
Definition fdiv (a b : R) : flt := if Reqb b 0 then NonFinite else Fin (a / b).

Lemma fdiv_nz a b : b <> 0 -> fdiv a b = Fin (a / b).
Proof. intros H. unfold fdiv. rewrite Reqb_false by assumption. reflexivity. Qed.
Lemma fdiv_0 a : fdiv a 0 = NonFinite.
Proof. unfold fdiv. rewrite Reqb_true by reflexivity. reflexivity. Qed.

(** numpy min / max of a sequence (None for an empty one, which raises) *)
Fixpoint rmin (l : list R) : option R :=
  match l with
  | [] => None
  | x :: r => match rmin r with None => Some x | Some m => Some (Rmin x m) end
  end.
Fixpoint rmax (l : list R) : option R :=
  match l with
  | [] => None
  | x :: r => match rmax r with None => Some x | Some m => Some (Rmax x m) end
  end.

Lemma rmin_spec l m : rmin l = Some m -> In m l /\ forall x, In x l -> m <= x.
Proof.
  revert m; induction l as [|x l IH]; simpl; intros m H; [discriminate|].
  destruct (rmin l) as [m'|] eqn:E; injection H as <-.
  - destruct (IH m' eq_refl) as [I1 I2]. split.
    + unfold Rmin. destruct (Rle_dec x m'); auto.
    + intros y [->|Hy]; [apply Rmin_l|]. eapply Rle_trans; [apply Rmin_r|auto].
  - destruct l; [|simpl in E; destruct (rmin l); discriminate].
    split; [auto|]. intros y [->|[]]. apply Rle_refl.
Qed.
Lemma rmax_spec l m : rmax l = Some m -> In m l /\ forall x, In x l -> x <= m.
Proof.
  revert m; induction l as [|x l IH]; simpl; intros m H; [discriminate|].
  destruct (rmax l) as [m'|] eqn:E; injection H as <-.
  - destruct (IH m' eq_refl) as [I1 I2]. split.
    + unfold Rmax. destruct (Rle_dec x m'); auto.
    + intros y [->|Hy]; [apply Rmax_l|]. eapply Rle_trans; [apply I2; exact Hy|apply Rmax_r].
  - destruct l; [|simpl in E; destruct (rmax l); discriminate].
    split; [auto|]. intros y [->|[]]. apply Rle_refl.
Qed.
Lemma rmin_some l : l <> [] -> exists m, rmin l = Some m.
Proof. destruct l; [congruence|]. simpl. destruct (rmin l); eauto. Qed.
Lemma rmax_some l : l <> [] -> exists m, rmax l = Some m.
Proof. destruct l; [congruence|]. simpl. destruct (rmax l); eauto. Qed.
Lemma rmin_nil_inv l : rmin l = None -> l = [].
Proof. destruct l; auto. simpl. destruct (rmin l); discriminate. Qed.
Lemma rmax_nil_inv l : rmax l = None -> l = [].
Proof. destruct l; auto. simpl. destruct (rmax l); discriminate. Qed.

(** Finite sums *)
Definition rsum (l : list R) : R := fold_right Rplus 0 l.
(** sum of f 0 .. f (n-1) *)
Definition bigsum (n : nat) (f : nat -> R) : R := rsum (map f (seq 0 n)).

Lemma rsum_app l m : rsum (l ++ m) = rsum l + rsum m.
Proof. induction l; simpl; [lra|]. rewrite IHl. lra. Qed.
Lemma bigsum_0 f : bigsum 0 f = 0.
Proof. reflexivity. Qed.
Lemma bigsum_S n f : bigsum (S n) f = bigsum n f + f n.
Proof.
  unfold bigsum. rewrite seq_S, map_app, rsum_app. simpl. lra.
Qed.
Lemma bigsum_ext n f g : (forall i, (i < n)%nat -> f i = g i) -> bigsum n f = bigsum n g.
Proof. induction n; intros H; rewrite ?bigsum_0, ?bigsum_S; auto. rewrite IHn, H; auto. Qed.
Lemma bigsum_plus n f g : bigsum n (fun i => f i + g i) = bigsum n f + bigsum n g.
Proof. induction n; rewrite ?bigsum_0, ?bigsum_S; [lra|]. rewrite IHn. lra. Qed.
Lemma bigsum_minus n f g : bigsum n (fun i => f i - g i) = bigsum n f - bigsum n g.
Proof. induction n; rewrite ?bigsum_0, ?bigsum_S; [lra|]. rewrite IHn. lra. Qed.
Lemma bigsum_scal n c f : bigsum n (fun i => c * f i) = c * bigsum n f.
Proof. induction n; rewrite ?bigsum_0, ?bigsum_S; [lra|]. rewrite IHn. lra. Qed.
Lemma bigsum_scal_r n c f : bigsum n (fun i => f i * c) = bigsum n f * c.
Proof. induction n; rewrite ?bigsum_0, ?bigsum_S; [lra|]. rewrite IHn. lra. Qed.
Lemma bigsum_const n c : bigsum n (fun _ => c) = INR n * c.
Proof. induction n; rewrite ?bigsum_0, ?bigsum_S, ?S_INR; [simpl; lra|]. rewrite IHn. lra. Qed.
Lemma bigsum_zero n : bigsum n (fun _ => 0) = 0.
Proof. rewrite bigsum_const. lra. Qed.
Lemma bigsum_nonneg n f : (forall i, (i < n)%nat -> 0 <= f i) -> 0 <= bigsum n f.
Proof.
  induction n; intros H; rewrite ?bigsum_0, ?bigsum_S; [lra|].
  assert (0 <= bigsum n f) by (apply IHn; auto). specialize (H n ltac:(auto)). lra.
Qed.
Lemma bigsum_le n f g : (forall i, (i < n)%nat -> f i <= g i) -> bigsum n f <= bigsum n g.
Proof.
  induction n; intros H; rewrite ?bigsum_0, ?bigsum_S; [lra|].
  assert (bigsum n f <= bigsum n g) by (apply IHn; auto). specialize (H n ltac:(auto)). lra.
Qed.
Lemma bigsum_swap n m f :
  bigsum n (fun i => bigsum m (fun j => f i j)) = bigsum m (fun j => bigsum n (fun i => f i j)).
Proof.
  induction n.
  - rewrite bigsum_0. rewrite (bigsum_ext m _ (fun _ => 0)); [rewrite bigsum_zero; reflexivity|].
    intros; apply bigsum_0.
  - rewrite bigsum_S, IHn, <- bigsum_plus. apply bigsum_ext. intros j _. rewrite bigsum_S. reflexivity.
Qed.
Lemma bigsum_sq_zero n f :
  bigsum n (fun i => f i * f i) = 0 -> forall i, (i < n)%nat -> f i = 0.
Proof.
  induction n; intros H i Hi; [lia|]. rewrite bigsum_S in H.
  assert (0 <= bigsum n (fun i => f i * f i)) by (apply bigsum_nonneg; intros; nra).
  assert (H1 : f n * f n = 0) by nra. assert (H2 : bigsum n (fun i => f i * f i) = 0) by nra.
  destruct (Nat.eq_dec i n) as [->|Hn]; [nra|]. apply IHn; auto; lia.
Qed.
Lemma bigsum_delta n k f : (k < n)%nat -> bigsum n (fun i => if Nat.eqb i k then f i else 0) = f k.
Proof.
  induction n; intros H; [lia|]. rewrite bigsum_S. destruct (Nat.eq_dec k n) as [->|Hn].
  - rewrite Nat.eqb_refl. rewrite (bigsum_ext n _ (fun _ => 0)); [rewrite bigsum_zero; lra|].
    intros i Hi. replace (Nat.eqb i n) with false by (symmetry; apply Nat.eqb_neq; lia). reflexivity.
  - rewrite IHn by lia. replace (Nat.eqb n k) with false by (symmetry; apply Nat.eqb_neq; lia). lra.
Qed.
Lemma rsum_nth l : rsum l = bigsum (length l) (fun i => nth i l 0).
Proof.
  unfold bigsum. f_equal. apply nth_error_ext. intros k.
  rewrite nth_error_map. destruct (Nat.lt_ge_cases k (length l)) as [H|H].
  - rewrite (nth_error_nth' (seq 0 (length l)) O) by (rewrite seq_length; exact H).
    rewrite seq_nth by exact H. simpl. apply nth_error_nth'. exact H.
  - rewrite (proj2 (nth_error_None l k)) by exact H.
    rewrite (proj2 (nth_error_None (seq 0 (length l)) k)) by (rewrite seq_length; exact H). reflexivity.
Qed.

(** numpy.linspace(a, b, n), entry i *)
Definition linspace_at (a b : R) (n i : nat) : R :=
  if Nat.leb n 1 then a else a + INR i * ((b - a) / INR (n - 1)).
Definition linspace (a b : R) (n : nat) : list R := map (linspace_at a b n) (seq 0 n).
