(** Specification of image objects and their files. *)
From Verif Require Import M_Objects.
Open Scope list_scope.

(** The value of band k at row y, column x *)
Definition px {V} (bands : list (list (list V))) (y x k : nat) : option V :=
  match nth_error bands k with
  | None => None
  | Some rows => match nth_error rows y with None => None | Some row => nth_error row x end
  end.

(** ny rows of nx values *)
Definition rect {V} (ny nx : nat) (rows : list (list V)) : Prop :=
  length rows = ny /\ Forall (fun row => length row = nx) rows.
Definition raster_shape {V} (r : raster V) (ny nx nb : nat) : Prop :=
  r_ny r = ny /\ r_nx r = nx /\ length (r_bands r) = nb /\ Forall (rect ny nx) (r_bands r).

(** A 2-d array is an image of one band *)
Definition array_shape {V} (a : ndarr V) (ny nx nb : nat) : Prop :=
  match a with
  | Array2 my mx rows => my = ny /\ mx = nx /\ nb = 1%nat /\ rect ny nx rows
  | Array3 r => raster_shape r ny nx nb
  end.
Definition array_px {V} (a : ndarr V) (y x k : nat) : option V :=
  match a with
  | Array2 _ _ rows => match k with O => px [rows] y x 0 | S _ => None end
  | Array3 r => px (r_bands r) y x k
  end.

(** A raster file is well formed *)
Definition file_shape {V G W} (d : dataset V G W) (ny nx nb : nat) : Prop :=
  d_ny d = ny /\ d_nx d = nx /\ length (d_bands d) = nb /\ Forall (rect ny nx) (d_bands d).

(** No-data values that survive int() *)
Definition whole (n : nodata) : Prop := n = NoNodata \/ exists z, n = Nodata (IZR z).
