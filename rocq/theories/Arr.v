(** Prelude: 3-d numpy arrays (rows, columns, bands) as nested lists. *)
From Verif Require Export Py.
From Coq Require Import Arith.
Open Scope list_scope.

(** A 3-d numpy array: its shape and its rows of pixels of band values. *)
Record cube (A : Type) := mkCube {
  c_ny : nat; c_nx : nat; c_nb : nat; c_data : list (list (list A)) }.
Arguments mkCube {A}.
Arguments c_ny {A}. Arguments c_nx {A}. Arguments c_nb {A}. Arguments c_data {A}.

Definition cube_wf {A} (c : cube A) : Prop :=
  length (c_data c) = c_ny c /\
  Forall (fun row => length row = c_nx c /\ Forall (fun px => length px = c_nb c) row) (c_data c).

(** array[l, x, b] *)
Definition cube_at {A} (c : cube A) (l x b : nat) : option A :=
  match nth_error (c_data c) l with
  | Some row => match nth_error row x with
                | Some px => nth_error px b
                | None => None
                end
  | None => None
  end.

(** Shape of an image *)
Definition has_shape {A} (c : cube A) (ny nx nb : nat) : Prop :=
  c_ny c = ny /\ c_nx c = nx /\ c_nb c = nb /\
  (forall l x b, (exists v, cube_at c l x b = Some v) <-> (l < ny /\ x < nx /\ b < nb)%nat).

(** Lemmas *)

Lemma cube_ext {A} (c c' : cube A) ny nx nb :
  cube_wf c -> cube_wf c' ->
  c_ny c = ny -> c_nx c = nx -> c_nb c = nb -> c_ny c' = ny -> c_nx c' = nx -> c_nb c' = nb ->
  (forall l x b, (l < ny)%nat -> (x < nx)%nat -> (b < nb)%nat -> cube_at c l x b = cube_at c' l x b) ->
  c = c'.
Proof.
  intros [W1 W2] [W1' W2'] E1 E2 E3 E1' E2' E3' H.
  rewrite E1 in W1. rewrite E1' in W1'. rewrite E2, E3 in W2. rewrite E2', E3' in W2'.
  assert (Ed : c_data c = c_data c');
    [|destruct c, c'; simpl in *; congruence].
  unfold cube_at in H. set (dat := c_data c) in *. set (dat' := c_data c') in *.
  apply nth_error_ext. intros l.
  rewrite Forall_forall in W2, W2'.
  destruct (nth_error dat l) as [row|] eqn:R; destruct (nth_error dat' l) as [row'|] eqn:R'; auto.
  2:{ exfalso. apply nth_error_None in R'. assert (l < length dat)%nat by (apply nth_error_Some; congruence). lia. }
  2:{ exfalso. apply nth_error_None in R. assert (l < length dat')%nat by (apply nth_error_Some; congruence). lia. }
  f_equal. assert (Hl : (l < ny)%nat) by (rewrite <- W1; apply nth_error_Some; congruence).
  destruct (W2 row (nth_error_In _ _ R)) as [L1 F1].
  destruct (W2' row' (nth_error_In _ _ R')) as [L1' F1'].
  rewrite Forall_forall in F1, F1'.
  apply nth_error_ext. intros x.
  destruct (nth_error row x) as [px|] eqn:X; destruct (nth_error row' x) as [px'|] eqn:X'; auto.
  2:{ exfalso. apply nth_error_None in X'. assert (x < length row)%nat by (apply nth_error_Some; congruence). lia. }
  2:{ exfalso. apply nth_error_None in X. assert (x < length row')%nat by (apply nth_error_Some; congruence). lia. }
  f_equal. assert (Hx : (x < nx)%nat) by (rewrite <- L1; apply nth_error_Some; congruence).
  pose proof (F1 px (nth_error_In _ _ X)) as B1. pose proof (F1' px' (nth_error_In _ _ X')) as B1'.
  apply nth_error_ext. intros b.
  destruct (Nat.lt_ge_cases b nb) as [Hb|Hb].
  - specialize (H l x b Hl Hx Hb). rewrite R, R', X, X' in H. exact H.
  - rewrite (proj2 (nth_error_None px b)) by lia. rewrite (proj2 (nth_error_None px' b)) by lia. reflexivity.
Qed.

Lemma wf_has_shape {A} (c : cube A) : cube_wf c -> has_shape c (c_ny c) (c_nx c) (c_nb c).
Proof.
  intros [W1 W2]. repeat split; auto; unfold cube_at in *; rewrite Forall_forall in W2.
  - destruct H as (v & H). destruct (nth_error (c_data c) l) eqn:R; [|discriminate].
    rewrite <- W1. apply nth_error_Some. congruence.
  - destruct H as (v & H). destruct (nth_error (c_data c) l) as [row|] eqn:R; [|discriminate].
    destruct (nth_error row x) eqn:X; [|discriminate].
    destruct (W2 row (nth_error_In _ _ R)) as [L _]. rewrite <- L. apply nth_error_Some. congruence.
  - destruct H as (v & H). destruct (nth_error (c_data c) l) as [row|] eqn:R; [|discriminate].
    destruct (nth_error row x) as [px|] eqn:X; [|discriminate].
    destruct (W2 row (nth_error_In _ _ R)) as [_ F]. rewrite Forall_forall in F.
    rewrite <- (F px (nth_error_In _ _ X)). apply nth_error_Some. congruence.
  - intros (Hl & Hx & Hb).
    destruct (nth_error (c_data c) l) as [row|] eqn:R.
    2:{ apply nth_error_None in R. lia. }
    destruct (W2 row (nth_error_In _ _ R)) as [L F]. rewrite Forall_forall in F.
    destruct (nth_error row x) as [px|] eqn:X.
    2:{ apply nth_error_None in X. lia. }
    pose proof (F px (nth_error_In _ _ X)) as E.
    destruct (nth_error px b) as [v|] eqn:B; [eauto|]. apply nth_error_None in B. lia.
Qed.

