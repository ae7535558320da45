(** Specification vocabulary for C16-C22. *)
From Verif Require Import M_Spectral.
Open Scope R_scope.

(** The samples that a mask (true = masked out) leaves *)
Definition kept (mask : option (nat -> bool)) (m : nat) : list nat :=
  filter (fun s => match mask with None => true | Some k => negb (k s) end) (seq 0 m).

(** Average over the kept samples, written with lists *)
Definition is_average (img : simg) (mask : option (nat -> bool)) (mu : vec) : Prop :=
  forall b, (b < si_nb img)%nat ->
    mu b = rsum (map (fun s => si_px img s b) (kept mask (si_m img))) / INR (length (kept mask (si_m img))).

(** Sample covariance of bands i and j over the kept samples *)
Definition is_sample_covariance (img : simg) (mask : option (nat -> bool)) (C : mat) : Prop :=
  exists mu, is_average img mask mu /\
  forall i j, (i < si_nb img)%nat -> (j < si_nb img)%nat ->
    C i j = rsum (map (fun s => (si_px img s i - mu i) * (si_px img s j - mu j)) (kept mask (si_m img)))
            / (INR (length (kept mask (si_m img))) - 1).

(** The same shape, and the pixels transformed one by one *)
Definition map_pixels (f : vec -> vec) (img : simg) : simg :=
  mkSimg (si_m img) (si_nb img) (fun s => f (si_px img s)).

(** u is a multiple of v with a positive factor, on the first n entries *)
Definition positive_multiple (n : nat) (u v : vec) : Prop := exists c, 0 < c /\ veq n u (vscale c v).
Definition nonzero_multiple (n : nat) (u v : vec) : Prop := exists c, c <> 0 /\ veq n u (vscale c v).
Definition nonzero (n : nat) (u : vec) : Prop := exists i, (i < n)%nat /\ u i <> 0.

(** Contract of numpy.linalg.inv on n x n matrices: what it returns is the inverse *)
Definition inv_contract (n : nat) (inv : mat -> option mat) : Prop :=
  forall A W, inv A = Some W -> is_inverse n A W.

(** What scipy.linalg.fractional_matrix_power C (1/2) and C (-1/2) stand for: a
    symmetric square root, and a symmetric A with A C A = I *)
Definition is_sqrt (n : nat) (C B : mat) : Prop := symmetric n B /\ meq n (mm n B B) C.
Definition is_inv_sqrt (n : nat) (C A : mat) : Prop := symmetric n A /\ meq n (mm n (mm n A C) A) eye.

(** Same shape, same values in every sample that is not masked out *)
Definition agree_on_kept (mask : option (nat -> bool)) (a b : simg) : Prop :=
  si_m a = si_m b /\ si_nb a = si_nb b /\
  forall s i, (s < si_m a)%nat -> match mask with None => true | Some k => negb (k s) end = true ->
              si_px a s i = si_px b s i.

(** Same shape, same values *)
Definition scube_eq (a b : scube) : Prop :=
  sc_ny a = sc_ny b /\ sc_nx a = sc_nx b /\ sc_nb a = sc_nb b /\
  forall y x i, (y < sc_ny a)%nat -> (x < sc_nx a)%nat -> sc_px a y x i = sc_px b y x i.

(** the one-sample image made of pixel (y, x) *)
Definition pixel_image (c : scube) (y x : nat) : simg := mkSimg 1 (sc_nb c) (fun _ => sc_px c y x).
