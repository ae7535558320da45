(** Specification vocabulary for C105: reordered and repeated pixels. *)
From Verif Require Import M_Spectral Spec_Spectral.
Open Scope R_scope.

(** p names each of the samples 0 .. m-1 once *)
Definition reordering (m : nat) (p : nat -> nat) : Prop :=
  (forall s, (s < m)%nat -> (p s < m)%nat) /\
  (forall s s', (s < m)%nat -> (s' < m)%nat -> p s = p s' -> s = s').

(** the image and the mask whose sample s is sample p s of the given one *)
Definition reordered (p : nat -> nat) (img : simg) : simg :=
  mkSimg (si_m img) (si_nb img) (fun s => si_px img (p s)).
Definition reordered_mask (p : nat -> nat) (mask : option (nat -> bool)) : option (nat -> bool) :=
  match mask with None => None | Some k => Some (fun s => k (p s)) end.

(** the image (and the mask) r times over, one copy after the other *)
Definition repeated (r : nat) (img : simg) : simg :=
  mkSimg (r * si_m img) (si_nb img) (fun s => si_px img (s mod si_m img)%nat).
Definition repeated_mask (m : nat) (mask : option (nat -> bool)) : option (nat -> bool) :=
  match mask with None => None | Some k => Some (fun s => k (s mod m)%nat) end.

(** numpy.linalg.inv on n x n matrices: the inverse when there is one, else LinAlgError *)
Definition inv_exact (n : nat) (inv : mat -> option mat) : Prop :=
  forall A, match inv A with Some W => is_inverse n A W | None => ~ exists W, is_inverse n A W end.

(** orthogonal matrix *)
Definition orthogonal (n : nat) (A : mat) : Prop := meq n (mm n (trans A) A) eye.

(** Pixel (y, x) of c' is pixel f y x of c; every pixel of c is used once: turned, mirrored,
    transposed or otherwise rearranged images *)
Definition rearranged (f : nat -> nat -> nat * nat) (c c' : scube) : Prop :=
  sc_nb c' = sc_nb c /\ (sc_ny c' * sc_nx c' = sc_ny c * sc_nx c)%nat /\
  (forall y x, (y < sc_ny c')%nat -> (x < sc_nx c')%nat ->
     (fst (f y x) < sc_ny c)%nat /\ (snd (f y x) < sc_nx c)%nat /\
     sc_px c' y x = sc_px c (fst (f y x)) (snd (f y x))) /\
  (forall y x y' x', (y < sc_ny c')%nat -> (x < sc_nx c')%nat -> (y' < sc_ny c')%nat -> (x' < sc_nx c')%nat ->
     f y x = f y' x' -> y = y' /\ x = x').
Definition rearranged_mask (f : nat -> nat -> nat * nat) (c' : scube) (k k' : option (nat -> nat -> bool)) : Prop :=
  match k, k' with
  | None, None => True
  | Some k, Some k' => forall y x, (y < sc_ny c')%nat -> (x < sc_nx c')%nat -> k' y x = k (fst (f y x)) (snd (f y x))
  | _, _ => False
  end.

(** Two detector runs end alike: with the same error, or with scores that are equal for pixel
    (y, x) of the second image and pixel f y x of the first *)
Definition same_scores (f : nat -> nat -> nat * nat) (c' : scube) (r r' : result (nat -> nat -> flt)) : Prop :=
  match r, r' with
  | Ok sc, Ok sc' => forall y x, (y < sc_ny c')%nat -> (x < sc_nx c')%nat -> sc' y x = sc (fst (f y x)) (snd (f y x))
  | Err e, Err e' => e = e'
  | _, _ => False
  end.
