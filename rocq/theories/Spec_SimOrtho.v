(** Specification vocabulary for C112: orthorectifying an image made by the camera simulator. *)
From Verif Require Import RAux M_Image M_PointCalc M_Sim M_Ortho.
Open Scope R_scope.

(** The image object the simulator returns, as the orthorectification sees it: one band with its pixels in memory,
    and the simulated camera as the model that places ground points in it *)
Definition simulated_object (img : overhead) (im : sim_image flt) : Prop :=
  ov_coregistered img = true /\ ov_loaded img = true /\ ov_n_bands img = 1%nat /\
  ov_nx img = Z.of_nat (si_npix_x im) /\ ov_ny img = Z.of_nat (si_npix_y im) /\
  ov_band img 0 = b_rows (si_band im) /\
  forall x y u v, camera_pixel (si_camera im) (Fin x) (Fin y) (Fin 0) = (Fin u, Fin v) -> ov_locate img 0 ((x, y), 0) = (u, v).

(** The squared distance of two points of the ground *)
Definition distance2 (p q : R * R) : R := (fst p - fst q) ^ 2 + (snd p - snd q) ^ 2.
