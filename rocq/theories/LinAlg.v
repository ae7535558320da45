(** Prelude: vectors and matrices of reals as functions of their indices; the
    dimensions are passed where a sum runs over them. *)
From Verif Require Export RAux.
From Coq Require Import FunctionalExtensionality.
Open Scope R_scope.

Definition vec := nat -> R.
Definition mat := nat -> nat -> R.

Definition dot (n : nat) (u v : vec) : R := bigsum n (fun i => u i * v i).
Definition mv (n : nat) (A : mat) (v : vec) : vec := fun i => bigsum n (fun j => A i j * v j).
Definition mm (n : nat) (A B : mat) : mat := fun i k => bigsum n (fun j => A i j * B j k).
Definition trans (A : mat) : mat := fun i j => A j i.
Definition eye : mat := fun i j => if Nat.eqb i j then 1 else 0.
Definition vsub (u v : vec) : vec := fun i => u i - v i.
Definition vadd (u v : vec) : vec := fun i => u i + v i.
Definition vscale (c : R) (u : vec) : vec := fun i => c * u i.

(** Equality on the first n entries *)
Definition veq (n : nat) (u v : vec) : Prop := forall i, (i < n)%nat -> u i = v i.
Definition meq (n : nat) (A B : mat) : Prop := forall i j, (i < n)%nat -> (j < n)%nat -> A i j = B i j.
Definition symmetric (n : nat) (A : mat) : Prop := meq n A (trans A).
(** positive semidefinite / definite *)
Definition psd (n : nat) (A : mat) : Prop := forall v, 0 <= dot n v (mv n A v).
Definition pd (n : nat) (A : mat) : Prop := forall v, (exists i, (i < n)%nat /\ v i <> 0) -> 0 < dot n v (mv n A v).
Definition is_inverse (n : nat) (A W : mat) : Prop := meq n (mm n A W) eye /\ meq n (mm n W A) eye.

Lemma dot_comm n u v : dot n u v = dot n v u.
Proof. apply bigsum_ext; intros; ring. Qed.
Lemma dot_ext n u u' v v' : veq n u u' -> veq n v v' -> dot n u v = dot n u' v'.
Proof. intros H1 H2. apply bigsum_ext. intros i Hi. rewrite (H1 i Hi), (H2 i Hi). reflexivity. Qed.
Lemma dot_add_l n u v w : dot n (vadd u v) w = dot n u w + dot n v w.
Proof. unfold dot, vadd. rewrite <- bigsum_plus. apply bigsum_ext; intros; ring. Qed.
Lemma dot_scale_l n c u w : dot n (vscale c u) w = c * dot n u w.
Proof. unfold dot, vscale. rewrite <- bigsum_scal. apply bigsum_ext; intros; ring. Qed.
Lemma dot_add_r n u v w : dot n w (vadd u v) = dot n w u + dot n w v.
Proof. rewrite dot_comm, dot_add_l, !(dot_comm n w). reflexivity. Qed.
Lemma dot_scale_r n c u w : dot n w (vscale c u) = c * dot n w u.
Proof. rewrite dot_comm, dot_scale_l, (dot_comm n w). reflexivity. Qed.
Lemma dot_self_nonneg n u : 0 <= dot n u u.
Proof. apply bigsum_nonneg. intros; nra. Qed.
Lemma dot_self_zero n u : dot n u u = 0 -> veq n u (fun _ => 0).
Proof. intros H i Hi. exact (bigsum_sq_zero n u H i Hi). Qed.

Lemma mv_ext n A B u v : meq n A B -> veq n u v -> veq n (mv n A u) (mv n B v).
Proof. intros HA Hv i Hi. apply bigsum_ext. intros j Hj. rewrite (HA i j), (Hv j); auto. Qed.
Lemma mv_add n A u v : mv n A (vadd u v) = vadd (mv n A u) (mv n A v).
Proof.
  apply functional_extensionality; intros i. unfold mv, vadd. rewrite <- bigsum_plus.
  apply bigsum_ext; intros; ring.
Qed.
Lemma mv_scale n A c u : mv n A (vscale c u) = vscale c (mv n A u).
Proof.
  apply functional_extensionality; intros i. unfold mv, vscale. rewrite <- bigsum_scal.
  apply bigsum_ext; intros; ring.
Qed.
Lemma mv_eye n v : veq n (mv n eye v) v.
Proof.
  intros i Hi. unfold mv, eye. rewrite (bigsum_ext n _ (fun j => if Nat.eqb j i then v j else 0)).
  - apply bigsum_delta. exact Hi.
  - intros j _. rewrite Nat.eqb_sym. destruct (Nat.eqb j i); ring.
Qed.
Lemma mv_mm n A B v : veq n (mv n (mm n A B) v) (mv n A (mv n B v)).
Proof.
  intros i Hi. unfold mv, mm.
  rewrite (bigsum_ext n _ (fun j => bigsum n (fun k => A i k * B k j * v j))).
  2:{ intros j _. rewrite <- bigsum_scal_r. reflexivity. }
  rewrite bigsum_swap. apply bigsum_ext. intros k _. rewrite <- bigsum_scal. apply bigsum_ext. intros; ring.
Qed.
(** u . (A v) = (A^T u) . v *)
Lemma dot_mv_trans n A u v : dot n u (mv n A v) = dot n (mv n (trans A) u) v.
Proof.
  unfold dot, mv, trans.
  rewrite (bigsum_ext n _ (fun i => bigsum n (fun j => u i * A i j * v j))).
  2:{ intros i _. rewrite <- bigsum_scal. apply bigsum_ext; intros; ring. }
  rewrite bigsum_swap. apply bigsum_ext. intros j _. rewrite <- bigsum_scal_r. apply bigsum_ext. intros; ring.
Qed.
Lemma dot_mv_sym n A u v : symmetric n A -> dot n u (mv n A v) = dot n v (mv n A u).
Proof.
  intros S. rewrite dot_mv_trans, dot_comm. apply dot_ext; [intros i Hi; reflexivity|].
  apply mv_ext; [intros i j Hi Hj; symmetry; apply S; auto|intros i Hi; reflexivity].
Qed.
Lemma mm_ext n A A' B B' : meq n A A' -> meq n B B' -> meq n (mm n A B) (mm n A' B').
Proof. intros HA HB i j Hi Hj. apply bigsum_ext. intros k Hk. rewrite HA, HB; auto. Qed.
Lemma mm_assoc n A B C : meq n (mm n (mm n A B) C) (mm n A (mm n B C)).
Proof.
  intros i j Hi Hj. unfold mm.
  rewrite (bigsum_ext n _ (fun k => bigsum n (fun l => A i l * B l k * C k j))).
  2:{ intros k _. rewrite <- bigsum_scal_r. reflexivity. }
  rewrite bigsum_swap. apply bigsum_ext. intros l _. rewrite <- bigsum_scal. apply bigsum_ext. intros; ring.
Qed.
Lemma mm_eye_r n A : meq n (mm n A eye) A.
Proof.
  intros i j Hi Hj. unfold mm, eye. rewrite (bigsum_ext n _ (fun k => if Nat.eqb k j then A i k else 0)).
  - apply bigsum_delta. exact Hj.
  - intros k _. destruct (Nat.eqb k j); ring.
Qed.
Lemma mm_eye_l n A : meq n (mm n eye A) A.
Proof.
  intros i j Hi Hj. unfold mm, eye. rewrite (bigsum_ext n _ (fun k => if Nat.eqb k i then A k j else 0)).
  - apply (bigsum_delta n i (fun k => A k j)). exact Hi.
  - intros k _. rewrite Nat.eqb_sym. destruct (Nat.eqb k i); ring.
Qed.
Lemma trans_mm n A B : trans (mm n A B) = mm n (trans B) (trans A).
Proof.
  apply functional_extensionality; intros i. apply functional_extensionality; intros j.
  unfold trans, mm. apply bigsum_ext. intros; ring.
Qed.
Lemma meq_sym n A B : meq n A B -> meq n B A.
Proof. intros H i j Hi Hj. symmetry. auto. Qed.
Lemma meq_trans n A B C : meq n A B -> meq n B C -> meq n A C.
Proof. intros H1 H2 i j Hi Hj. rewrite H1, H2; auto. Qed.
Lemma meq_refl n A : meq n A A.
Proof. intros i j _ _; reflexivity. Qed.

(** Cauchy-Schwarz for a symmetric positive semidefinite form *)
Lemma psd_cauchy n A u v :
  symmetric n A -> psd n A ->
  dot n u (mv n A v) * dot n u (mv n A v) <= dot n u (mv n A u) * dot n v (mv n A v).
Proof.
  intros S P.
  assert (Q : forall t, 0 <= dot n u (mv n A u) + 2 * t * dot n u (mv n A v) + t * t * dot n v (mv n A v)).
  { intros t. pose proof (P (vadd u (vscale t v))) as H.
    rewrite mv_add, mv_scale, dot_add_l, !dot_add_r, !dot_scale_l, !dot_scale_r in H.
    rewrite (dot_mv_sym n A v u S) in H. lra. }
  set (a := dot n v (mv n A v)) in *. set (b := dot n u (mv n A v)) in *. set (c := dot n u (mv n A u)) in *.
  assert (Ha : 0 <= a) by apply P.
  destruct (Req_dec a 0) as [Ea|Na].
  - destruct (Req_dec b 0) as [->|Nb]; [rewrite Ea; lra|]. exfalso.
    specialize (Q (- (c + 1) / (2 * b))).
    replace (2 * (- (c + 1) / (2 * b)) * b) with (- (c + 1)) in Q by (field; exact Nb). rewrite Ea in Q. lra.
  - specialize (Q (- b / a)).
    replace (c + 2 * (- b / a) * b + - b / a * (- b / a) * a) with ((c * a - b * b) / a) in Q by (field; exact Na).
    assert (0 <= c * a - b * b); [|lra].
    apply (Rmult_le_compat_r a) in Q; [|lra]. unfold Rdiv in Q. rewrite Rmult_assoc, Rinv_l in Q by exact Na. lra.
Qed.

Lemma dot_cauchy n u v : dot n u v * dot n u v <= dot n u u * dot n v v.
Proof.
  assert (S : symmetric n eye).
  { intros i j _ _. unfold trans, eye. rewrite Nat.eqb_sym. reflexivity. }
  assert (E : forall w x, dot n w (mv n eye x) = dot n w x).
  { intros w x. apply dot_ext; [intros i _; reflexivity|apply mv_eye]. }
  assert (P : psd n eye).
  { intros w. rewrite E. apply dot_self_nonneg. }
  pose proof (psd_cauchy n eye u v S P) as H. rewrite !E in H. exact H.
Qed.

(** The inverse of a symmetric positive semidefinite matrix is one too *)
Lemma inverse_sym n C W : symmetric n C -> is_inverse n C W -> symmetric n W.
Proof.
  intros S [H1 H2].
  (* W^T = W^T (C W) = (C W)^T ... *)
  assert (HT : meq n (mm n (trans W) C) eye).
  { apply meq_trans with (trans (mm n C W)).
    - rewrite trans_mm. apply mm_ext; [apply meq_refl|exact S].
    - intros i j Hi Hj. unfold trans. rewrite H1 by assumption. unfold eye. rewrite Nat.eqb_sym. reflexivity. }
  assert (E : meq n (trans W) W).
  { apply meq_trans with (mm n (trans W) (mm n C W)).
    - apply meq_sym. apply meq_trans with (mm n (trans W) eye); [apply mm_ext; [apply meq_refl|exact H1]|apply mm_eye_r].
    - apply meq_trans with (mm n (mm n (trans W) C) W); [apply meq_sym, mm_assoc|].
      apply meq_trans with (mm n eye W); [apply mm_ext; [exact HT|apply meq_refl]|apply mm_eye_l]. }
  apply meq_sym. exact E.
Qed.

Lemma inverse_apply n C W v : is_inverse n C W -> veq n (mv n C (mv n W v)) v.
Proof.
  intros [H1 _] i Hi. rewrite <- (mv_mm n C W v i Hi). rewrite <- (mv_eye n v i Hi).
  apply mv_ext; auto. intros j _; reflexivity.
Qed.

Lemma inverse_psd n C W : symmetric n C -> psd n C -> is_inverse n C W -> psd n W.
Proof.
  intros S P I v.
  assert (E : dot n v (mv n W v) = dot n (mv n W v) (mv n C (mv n W v))).
  { rewrite dot_comm. apply dot_ext; [intros i _; reflexivity|].
    intros i Hi. symmetry. apply (inverse_apply n C W v I i Hi). }
  rewrite E. apply P.
Qed.

Lemma inverse_pd n C W : symmetric n C -> psd n C -> is_inverse n C W -> pd n W.
Proof.
  intros S P I v (i & Hi & Hv).
  pose proof (inverse_psd n C W S P I) as PW. pose proof (inverse_sym n C W S I) as SW.
  destruct (Rle_lt_or_eq_dec _ _ (PW v)) as [H|H]; [exact H|exfalso].
  (* if v.Wv = 0 then u.Wv = 0 for all u, so Wv = 0 and v = C W v = 0 *)
  assert (Z : forall u, dot n u (mv n W v) = 0).
  { intros u. pose proof (psd_cauchy n W u v SW PW) as CS. rewrite <- H in CS. nra. }
  assert (ZW : veq n (mv n W v) (fun _ => 0)) by (apply dot_self_zero; apply Z).
  apply Hv. rewrite <- (inverse_apply n C W v I i Hi). unfold mv at 1.
  rewrite (bigsum_ext n _ (fun _ => 0)); [apply bigsum_zero|].
  intros j Hj. rewrite (ZW j Hj). ring.
Qed.

(** Uniqueness of the solution *)
Lemma inverse_solve n C W u v : is_inverse n C W -> veq n (mv n C u) v -> veq n u (mv n W v).
Proof.
  intros [_ H2] E i Hi. rewrite <- (mv_eye n u i Hi).
  transitivity (mv n (mm n W C) u i).
  - apply mv_ext; auto. apply meq_sym; exact H2. intros j _; reflexivity.
  - rewrite (mv_mm n W C u i Hi). apply mv_ext; auto. apply meq_refl.
Qed.

(** Double sums over a flattened index *)
Lemma bigsum_shift n m f : bigsum (n + m) f = bigsum n f + bigsum m (fun i => f (n + i)%nat).
Proof.
  induction m as [|m IH]; [rewrite Nat.add_0_r, bigsum_0; lra|].
  rewrite Nat.add_succ_r, !bigsum_S, IH. lra.
Qed.
Lemma bigsum_flat ny nx (f : nat -> nat -> R) :
  bigsum (ny * nx) (fun s => f (s / nx)%nat (s mod nx)%nat) = bigsum ny (fun y => bigsum nx (fun x => f y x)).
Proof.
  destruct (Nat.eq_dec nx 0) as [->|Hx].
  { rewrite Nat.mul_0_r, bigsum_0. rewrite (bigsum_ext ny _ (fun _ => 0)); [rewrite bigsum_zero; reflexivity|].
    intros; apply bigsum_0. }
  induction ny as [|ny IH]; [rewrite !bigsum_0; reflexivity|].
  rewrite bigsum_S. replace (S ny * nx)%nat with (ny * nx + nx)%nat by lia.
  rewrite bigsum_shift, IH. f_equal. apply bigsum_ext. intros x Hxx. f_equal.
  - rewrite (Nat.add_comm (ny * nx)), Nat.div_add by exact Hx. rewrite Nat.div_small by exact Hxx. reflexivity.
  - rewrite (Nat.add_comm (ny * nx)), Nat.mod_add by exact Hx. apply Nat.mod_small; exact Hxx.
Qed.
