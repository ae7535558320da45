(** Specification vocabulary for C25 - C30 and C67. *)
From Coq Require Import String.
From Verif Require Import RAux Text Geo3 M_Photo.   (* the setters fx_op of the fixtured camera *)
Open Scope R_scope.
Open Scope list_scope.

(** The frame rotation by angle a about one axis: roll about x, pitch about y, yaw about z.
    (Rx, Ry, Rz carry the axes of the rotated frame in their rows.) *)
Definition about_x (a : R) : mat3 := M3 1 0 0   0 (cos a) (sin a)   0 (- sin a) (cos a).
Definition about_y (a : R) : mat3 := M3 (cos a) 0 (- sin a)   0 1 0   (sin a) 0 (cos a).
Definition about_z (a : R) : mat3 := M3 (cos a) (sin a) 0   (- sin a) (cos a) 0   0 0 1.

(** The six documented orders, and what each means: the first letter acts first *)
Inductive turn := Roll | Pitch | Yaw.
Definition letter (t : turn) : ascii := match t with Roll => "r"%char | Pitch => "p"%char | Yaw => "y"%char end.
Definition turn_matrix (omega phi kappa : R) (t : turn) : mat3 :=
  match t with Roll => about_x omega | Pitch => about_y phi | Yaw => about_z kappa end.
(** a documented order: its three letters are different *)
Definition is_order (t1 t2 t3 : turn) : Prop := t1 <> t2 /\ t2 <> t3 /\ t1 <> t3.
Definition order_name (t1 t2 t3 : turn) : text := [letter t1; letter t2; letter t3].

(** Fin of every component *)
Definition angles (o p k : R) : flt * flt * flt := (Fin o, Fin p, Fin k).

(** numpy.linalg.inv on an invertible matrix *)
Definition inverts (inv : mat3 -> result mat3) : Prop :=
  forall A, det3 A <> 0 -> exists B, inv A = Ok B /\ mul3 A B = id3 /\ mul3 B A = id3.

(** element (r, c) of a 2-d array *)
Definition at2 (a : list (list R)) (r c : nat) : option R :=
  match nth_error a r with Some row => nth_error row c | None => None end.
Definition has_shape (a : list (list R)) (ny nx : nat) : Prop :=
  length a = ny /\ Forall (fun row => length row = nx) a.

(** GDAL: the world point of pixel coordinates (px, py) *)
Definition gdal_point (g : list R) (px py : R) : R * R :=
  (nth 0 g 0 + px * nth 1 g 0 + py * nth 2 g 0, nth 3 g 0 + px * nth 4 g 0 + py * nth 5 g 0).

(** The point at signed distance s along the image ray of (x, y): camera frame direction
    (x, y, -f), carried to the world by the transpose of the orientation matrix *)
Definition on_ray (pos : vec3) (M : mat3) (f x y s : R) : vec3 :=
  vadd3 pos (vscale3 s (mv3 (t3 M) (V3 x y (- f)))).

(** The last value given to each attribute by a history of setter calls *)
Fixpoint last_some {A B} (f : A -> option B) (l : list A) : option B :=
  match l with
  | [] => None
  | a :: r => match last_some f r with Some b => Some b | None => f a end
  end.
Definition gives_position (o : fx_op) : option vec3 :=
  match o with SetFixtureXyz x y z => Some (V3 x y z) | _ => None end.
Definition gives_orientation (o : fx_op) : option mat3 :=
  match o with
  | SetFixtureOrientation M => Some M
  | SetFixtureRpy r p y ur up_ uy order => Some (create_M_matrix (r * ur) (p * up_) (y * uy) order)
  | _ => None
  end.
Definition gives_lever_arm (o : fx_op) : option vec3 :=
  match o with SetRelativeXyz x y z ux uy uz => Some (V3 (x * ux) (y * uy) (z * uz)) | _ => None end.
Definition gives_boresight (o : fx_op) : option mat3 :=
  match o with
  | SetBoresight B => Some B
  | SetBoresightRpy r p y ur up_ uy order => Some (create_M_matrix (r * ur) (p * up_) (y * uy) order)
  | _ => None
  end.
