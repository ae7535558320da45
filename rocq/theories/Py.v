(** Prelude: the fragment of Python / numpy semantics that the models share.
    Nothing in this file models a line of /repo by itself: it fixes the meaning
    of Python exceptions, subscripts and slices used by the files M_*.v. *)
From Coq Require Export ZArith List Bool Lia.
Export ListNotations.
Open Scope Z_scope.

(** A Python computation either returns or raises.  Diverges is what a fuelled
    loop returns when the fuel is used up: it is never a normal result. *)
Inductive exn : Type :=
| ValueError | IndexError | TypeError | AttributeError | KeyError
| ZeroDivisionError | NotImplementedError | UnboundLocalError | OtherError.

Inductive result (A : Type) : Type :=
| Ok (a : A)
| Err (e : exn)
| Diverges.
Arguments Ok {A} a.
Arguments Err {A} e.
Arguments Diverges {A}.

Definition bind {A B} (r : result A) (k : A -> result B) : result B :=
  match r with Ok a => k a | Err e => Err e | Diverges => Diverges end.
Notation "x <- r ;; k" := (bind r (fun x => k))
  (at level 61, r at next level, right associativity).

Definition rmap {A B} (f : A -> B) (r : result A) : result B :=
  match r with Ok a => Ok (f a) | Err e => Err e | Diverges => Diverges end.

Fixpoint mapM {A B} (f : A -> result B) (l : list A) : result (list B) :=
  match l with
  | [] => Ok []
  | x :: r => y <- f x ;; ys <- mapM f r ;; Ok (y :: ys)
  end.

(** A for loop with early exit by exception *)
Fixpoint foldM {A S} (f : S -> A -> result S) (l : list A) (s : S) : result S :=
  match l with
  | [] => Ok s
  | x :: r => s' <- f s x ;; foldM f r s'
  end.

Definition is_ok {A} (r : result A) : bool :=
  match r with Ok _ => true | _ => false end.

Definition zlen {A} (l : list A) : Z := Z.of_nat (length l).

(** Python subscript l[i]: a negative index counts from the end; outside
    -len..len-1 it raises IndexError. *)
Definition py_index (n i : Z) : option nat :=
  if (0 <=? i) && (i <? n) then Some (Z.to_nat i)
  else if (i <? 0) && (- n <=? i) then Some (Z.to_nat (n + i))
  else None.

Definition py_get {A} (l : list A) (i : Z) : result A :=
  match py_index (zlen l) i with
  | Some k => match nth_error l k with Some a => Ok a | None => Err IndexError end
  | None => Err IndexError
  end.

(** Store l[i] = v. *)
Fixpoint upd_nat {A} (l : list A) (k : nat) (v : A) : list A :=
  match l, k with
  | [], _ => []
  | _ :: r, O => v :: r
  | x :: r, S k' => x :: upd_nat r k' v
  end.

Definition py_set {A} (l : list A) (i : Z) (v : A) : result (list A) :=
  match py_index (zlen l) i with
  | Some k => Ok (upd_nat l k v)
  | None => Err IndexError
  end.

(** Python slice bounds for step 1: negative bounds count from the end, then
    both are clamped to 0..len. *)
Definition slice_bound (n i : Z) : Z :=
  if i <? 0 then Z.max 0 (n + i) else Z.min i n.

Definition py_slice {A} (l : list A) (a b : Z) : list A :=
  let a' := slice_bound (zlen l) a in
  let b' := slice_bound (zlen l) b in
  firstn (Z.to_nat (b' - a')) (skipn (Z.to_nat a') l).

(** l[a:] *)
Definition py_slice_from {A} (l : list A) (a : Z) : list A :=
  py_slice l a (zlen l).

(** range(a, b) / numpy.arange(a, b) with step 1. *)
Definition zrange (a b : Z) : list Z :=
  map (fun k => a + Z.of_nat k) (seq 0 (Z.to_nat (b - a))).

(** Slice store a[k:k+len(v)] = v for an in-range slice *)
Definition set_slice {A} (l : list A) (k : nat) (v : list A) : list A :=
  firstn k l ++ v ++ skipn (k + length v) l.

(** Elementwise combination of two lists of equal length (numpy arithmetic on
    1-d arrays); used only where the lengths agree. *)
Fixpoint map2 {A B C} (f : A -> B -> C) (l : list A) (m : list B) : list C :=
  match l, m with
  | x :: l', y :: m' => f x y :: map2 f l' m'
  | _, _ => []
  end.

(* ------------------------------------------------------------------ *)
(** Lemmas *)

Lemma zlen_nonneg {A} (l : list A) : 0 <= zlen l.
Proof. unfold zlen; lia. Qed.

Lemma zlen_app {A} (l m : list A) : zlen (l ++ m) = zlen l + zlen m.
Proof. unfold zlen; rewrite app_length; lia. Qed.

Lemma zlen_cons {A} (a : A) l : zlen (a :: l) = 1 + zlen l.
Proof. unfold zlen; simpl length; lia. Qed.

Lemma zlen_map {A B} (f : A -> B) l : zlen (map f l) = zlen l.
Proof. unfold zlen; rewrite map_length; reflexivity. Qed.

Lemma py_get_nonneg {A} (l : list A) i :
  0 <= i < zlen l -> exists a, nth_error l (Z.to_nat i) = Some a /\ py_get l i = Ok a.
Proof.
  intros H. unfold py_get, py_index.
  replace ((0 <=? i) && (i <? zlen l)) with true
    by (symmetry; apply andb_true_intro; split; [apply Z.leb_le | apply Z.ltb_lt]; lia).
  destruct (nth_error l (Z.to_nat i)) eqn:E.
  - exists a; split; reflexivity.
  - apply nth_error_None in E. unfold zlen in H. lia.
Qed.

Lemma py_get_neg {A} (l : list A) i :
  - zlen l <= i < 0 ->
  exists a, nth_error l (Z.to_nat (zlen l + i)) = Some a /\ py_get l i = Ok a.
Proof.
  intros H. unfold py_get, py_index.
  replace ((0 <=? i) && (i <? zlen l)) with false
    by (symmetry; apply andb_false_intro1; apply Z.leb_gt; lia).
  replace ((i <? 0) && (- zlen l <=? i)) with true
    by (symmetry; apply andb_true_intro; split; [apply Z.ltb_lt | apply Z.leb_le]; lia).
  destruct (nth_error l (Z.to_nat (zlen l + i))) eqn:E.
  - exists a; split; reflexivity.
  - apply nth_error_None in E. unfold zlen in *. lia.
Qed.

Lemma py_get_out {A} (l : list A) i :
  i < - zlen l \/ zlen l <= i -> py_get l i = Err IndexError.
Proof.
  intros H. unfold py_get, py_index. pose proof (zlen_nonneg l).
  destruct (0 <=? i) eqn:E1; destruct (i <? zlen l) eqn:E2; simpl;
    destruct (i <? 0) eqn:E3; destruct (- zlen l <=? i) eqn:E4; simpl; try reflexivity; lia.
Qed.

Lemma py_get_nth {A} (l : list A) (k : nat) (d : A) :
  (k < length l)%nat -> py_get l (Z.of_nat k) = Ok (nth k l d).
Proof.
  intros H. destruct (py_get_nonneg l (Z.of_nat k)) as (a & E & G).
  - unfold zlen; lia.
  - rewrite Nat2Z.id in E. rewrite G. f_equal. symmetry. apply nth_error_nth. exact E.
Qed.

Lemma upd_nat_length {A} (l : list A) k v : length (upd_nat l k v) = length l.
Proof. revert k; induction l as [|x l IH]; intros [|k]; simpl; auto. Qed.

Lemma upd_nat_nth {A} (l : list A) k v j :
  nth_error (upd_nat l k v) j =
  if (Nat.eqb j k && Nat.ltb k (length l))%bool then Some v else nth_error l j.
Proof.
  revert k j; induction l as [|x l IH]; intros [|k] [|j]; simpl; auto.
  - destruct (Nat.eqb j k); reflexivity.
  - rewrite IH. reflexivity.
Qed.

Lemma mapM_ok {A B} (f : A -> result B) g (l : list A) :
  (forall x, In x l -> f x = Ok (g x)) -> mapM f l = Ok (map g l).
Proof.
  induction l as [|x l IH]; intros H; simpl; auto.
  rewrite (H x (or_introl eq_refl)). simpl. rewrite IH; auto.
  intros y Hy; apply H; right; exact Hy.
Qed.

Lemma mapM_ok_inv {A B} (f : A -> result B) l ys :
  mapM f l = Ok ys -> Forall2 (fun x y => f x = Ok y) l ys.
Proof.
  revert ys; induction l as [|x l IH]; simpl; intros ys H.
  - injection H as <-. constructor.
  - destruct (f x) eqn:E; simpl in H; try discriminate.
    destruct (mapM f l) eqn:E2; simpl in H; try discriminate.
    injection H as <-. constructor; auto.
Qed.

Lemma mapM_Err {A B} (f : A -> result B) l e :
  (exists x, In x l /\ f x = Err e) ->
  (forall x, In x l -> exists r, f x = r /\ (is_ok r = true \/ r = Err e)) ->
  mapM f l = Err e.
Proof.
  induction l as [|x l IH]; intros (y & Hy & Ey) Hall; [destruct Hy|].
  simpl. destruct (Hall x (or_introl eq_refl)) as (r & Er & [Hr|Hr]).
  - destruct r; try discriminate. rewrite Er. simpl.
    destruct Hy as [->|Hy]; [congruence|].
    rewrite IH; auto.
    + exists y; auto.
    + intros z Hz; apply Hall; right; exact Hz.
  - rewrite Er, Hr. reflexivity.
Qed.

Lemma zrange_length a b : length (zrange a b) = Z.to_nat (b - a).
Proof. unfold zrange. rewrite map_length, seq_length. reflexivity. Qed.

Lemma zrange_In a b x : In x (zrange a b) <-> a <= x < b.
Proof.
  unfold zrange. rewrite in_map_iff. split.
  - intros (k & <- & H). apply in_seq in H. lia.
  - intros H. exists (Z.to_nat (x - a)). split; [lia|]. apply in_seq. lia.
Qed.

Lemma zrange_nth a b k : (k < Z.to_nat (b - a))%nat ->
  nth_error (zrange a b) k = Some (a + Z.of_nat k).
Proof.
  intros H. unfold zrange. erewrite map_nth_error; [reflexivity|].
  rewrite (nth_error_nth' _ O) by (rewrite seq_length; exact H).
  rewrite seq_nth by exact H. reflexivity.
Qed.

Lemma nth_error_firstn {A} (l : list A) n k :
  nth_error (firstn n l) k = if Nat.ltb k n then nth_error l k else None.
Proof.
  revert n k; induction l as [|x l IH]; intros [|n] [|k]; cbn [firstn nth_error]; auto.
  - destruct (Nat.ltb (S k) (S n)); reflexivity.
  - rewrite IH. reflexivity.
Qed.

Lemma nth_error_skipn {A} (l : list A) n k :
  nth_error (skipn n l) k = nth_error l (n + k).
Proof.
  revert n k; induction l as [|x l IH]; intros [|n] k; simpl; auto.
  destruct k; reflexivity.
Qed.

Lemma py_slice_in {A} (l : list A) a b :
  0 <= a -> a <= b -> b <= zlen l ->
  py_slice l a b = firstn (Z.to_nat (b - a)) (skipn (Z.to_nat a) l).
Proof.
  intros H1 H2 H3. unfold py_slice, slice_bound.
  replace (a <? 0) with false by (symmetry; apply Z.ltb_ge; lia).
  replace (b <? 0) with false by (symmetry; apply Z.ltb_ge; lia).
  rewrite !Z.min_l by lia. reflexivity.
Qed.

Lemma py_slice_nth {A} (l : list A) a b k :
  0 <= a -> a <= b -> b <= zlen l -> (k < Z.to_nat (b - a))%nat ->
  nth_error (py_slice l a b) k = nth_error l (Z.to_nat a + k)%nat.
Proof.
  intros H1 H2 H3 Hk. rewrite py_slice_in by assumption.
  rewrite nth_error_firstn, nth_error_skipn.
  apply Nat.ltb_lt in Hk. rewrite Hk. reflexivity.
Qed.

Lemma py_slice_length {A} (l : list A) a b :
  0 <= a -> a <= b -> b <= zlen l -> length (py_slice l a b) = Z.to_nat (b - a).
Proof.
  intros H1 H2 H3. rewrite py_slice_in by assumption.
  rewrite firstn_length, skipn_length. unfold zlen in H3. lia.
Qed.

Lemma map2_length {A B C} (f : A -> B -> C) l m :
  length (map2 f l m) = Nat.min (length l) (length m).
Proof. revert m; induction l as [|x l IH]; intros [|y m]; simpl; auto. Qed.

Lemma map2_nth {A B C} (f : A -> B -> C) l m k a b :
  nth_error l k = Some a -> nth_error m k = Some b ->
  nth_error (map2 f l m) k = Some (f a b).
Proof.
  revert m k; induction l as [|x l IH]; intros [|y m] [|k]; simpl; try discriminate.
  - intros E1 E2. injection E1 as ->. injection E2 as ->. reflexivity.
  - apply IH.
Qed.

Lemma nth_error_ext {A} (l m : list A) :
  (forall k, nth_error l k = nth_error m k) -> l = m.
Proof.
  revert m; induction l as [|x l IH]; intros [|y m] H; auto.
  - specialize (H O); discriminate.
  - specialize (H O); discriminate.
  - pose proof (H O) as H0. simpl in H0. injection H0 as ->. f_equal.
    apply IH. intros k. exact (H (S k)).
Qed.

Lemma skipn_skipn {A} (n m : nat) (l : list A) : skipn n (skipn m l) = skipn (n + m) l.
Proof.
  revert l; induction m as [|m IH]; intros l.
  - rewrite Nat.add_0_r. reflexivity.
  - rewrite Nat.add_succ_r. destruct l as [|x l]; [rewrite !skipn_nil; reflexivity|].
    cbn [skipn]. apply IH.
Qed.

Lemma Forall2_length {A B} (R : A -> B -> Prop) l m : Forall2 R l m -> length l = length m.
Proof. induction 1; simpl; auto. Qed.

Lemma mapM_length {A B} (f : A -> result B) l ys : mapM f l = Ok ys -> length ys = length l.
Proof. intros H. apply mapM_ok_inv in H. symmetry. eapply Forall2_length; exact H. Qed.

Lemma mapM_nth {A B} (f : A -> result B) l ys k y :
  mapM f l = Ok ys -> nth_error ys k = Some y -> exists x, nth_error l k = Some x /\ f x = Ok y.
Proof.
  intros H. apply mapM_ok_inv in H. revert k. induction H as [|a b l m Hab Hf IH]; intros [|k] Hk;
    simpl in *; try discriminate.
  - injection Hk as <-. eauto.
  - auto.
Qed.

Lemma nth_error_nil {A} k : nth_error (@nil A) k = None.
Proof. destruct k; reflexivity. Qed.
