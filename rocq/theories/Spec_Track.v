(** Specification vocabulary for C108. *)
From Verif Require Import RAux Text M_Envi M_Nav Spec_Nav.
Open Scope R_scope.
Open Scope list_scope.

(** The nav data hold, for a channel, the records (times, col): at least two, times increasing *)
Definition recorded (nav : nav_data) (c : nav_class) (ch : channel) (times col : list R) : Prop :=
  dict_get nav (txt "gps_time") = Ok times /\ dict_get nav (column_name c ch) = Ok col /\
  increasing times /\ (2 <= length times)%nat /\ length col = length times.
(** The answer to a single time is v *)
Definition answer (nav : nav_data) (c : nav_class) (ch : channel) (t v : R) : Prop :=
  get_channel c ch nav (Num (Fin t)) = Ok (Some (Num (Fin v))).

(** From record to record the value changes at a rate of at most L *)
Definition rate_at_most (L : R) (times col : list R) : Prop :=
  forall i t0 t1 v0 v1, nth_error times i = Some t0 -> nth_error times (S i) = Some t1 ->
    nth_error col i = Some v0 -> nth_error col (S i) = Some v1 -> Rabs (v1 - v0) <= L * (t1 - t0).
(** From record to record the value does not fall *)
Definition never_falls (col : list R) : Prop :=
  forall i v0 v1, nth_error col i = Some v0 -> nth_error col (S i) = Some v1 -> v0 <= v1.
(** The record (t, v) is one of (times, col) *)
Definition is_record (times col : list R) (t v : R) : Prop :=
  exists i, nth_error times i = Some t /\ nth_error col i = Some v.
