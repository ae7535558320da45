(** Specification vocabulary for C91. *)
From Verif Require Import RAux Text M_Dem M_Objects M_DemState Spec_Photo Spec_Objects.
Open Scope R_scope.
Open Scope list_scope.

Section SpecDemState.
Context {D G P W : Type}.
Variable from_gdal : G -> D.

(** The calls that convert heights; all others leave files and image objects alone *)
Definition is_conversion (o : dem_op P) : Prop := match o with ToGeoid _ _ | ToEllipsoid _ _ => True | _ => False end.

(** What a call sets *)
Definition gives_interpolation (o : dem_op P) : option interpolation :=
  match o with SetNearest => Some Nearest | SetBilinear => Some Bilinear | _ => None end.
Definition gives_reference (o : dem_op P) : option Z := match o with SetReference c => Some c | _ => None end.
Definition gives_nodata (o : dem_op P) : option nodata := match o with RemoveNodata nd => Some nd | _ => None end.
Definition gives_image (w : dem_world D G P W) (o : dem_op P) : option nat :=
  match o with SetGeotiff i => if Nat.ltb i (length (wd_images w)) then Some i else None | _ => None end.
(** The image and the data that a call loads: of an image object whose data can be read *)
Definition loads (w : dem_world D G P W) (o : dem_op P) : option (geotiff flt D G P * (D * raster flt)) :=
  match o with
  | SetGeotiff i =>
    match nth_error (wd_images w) i with
    | Some im => match geotiff_read_all from_gdal (wd_files w) im with Ok data => Some (im, data) | _ => None end
    | None => None
    end
  | _ => None
  end.
Definition gives_projection (w : dem_world D G P W) (o : dem_op P) : option P :=
  match o with SetDemProjection p => Some p | _ => option_map (fun l => gt_proj (fst l)) (loads w o) end.

(** The no-data values that the data loaded after h1 has lost by the end of h2: the one in
    force at the load, and all that are removed later *)
Fixpoint all_nodata (h : list (dem_op P)) : list nodata :=
  match h with [] => [] | o :: r => match gives_nodata o with Some nd => nd :: all_nodata r | None => all_nodata r end end.
Definition removed (h1 h2 : list (dem_op P)) : list nodata :=
  match last_some gives_nodata h1 with Some nd => nd | None => NoNodata end :: all_nodata h2.
Definition is_removed (l : list nodata) (v : flt) : Prop := exists a, v = Fin a /\ In (Nodata a) l.
End SpecDemState.

(** What a call on a constant DEM sets *)
Definition gives_const_projection {P} (o : const_op P) : option P := match o with CSetProjection p => Some p | _ => None end.
Definition gives_const_reference {P} (o : const_op P) : option Z := match o with CSetReference c => Some c | _ => None end.

(** The sum of f over the finite values of a raster *)
Definition over_raster (r : raster flt) (ny nx nb : nat) (f : R -> R) : R :=
  bigsum nb (fun k => bigsum ny (fun y => bigsum nx (fun x => match px (r_bands r) y x k with Some (Fin v) => f v | _ => 0 end))).

(** The no-data value as an optional number *)
Definition nodata_num (o : option R) : nodata := match o with Some v => Nodata v | None => NoNodata end.
