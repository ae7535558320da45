(** Specification vocabulary for C85-C88. *)
From Coq Require Import String.
From Verif Require Import RAux Text2 Spec_TextFiles M_Envi M_Cameras M_Nav Arr.  (* dict_get, the record rpc, the enumeration channel *)
Open Scope R_scope.
Open Scope list_scope.

(** The tags of the RPC metadata and the coefficients they hold *)
Open Scope string_scope.
Definition list_tags : list (string * (rpc -> list R)) :=
  [("SAMP_NUM_COEFF", samp_num); ("SAMP_DEN_COEFF", samp_den); ("LINE_NUM_COEFF", line_num); ("LINE_DEN_COEFF", line_den)].
Definition number_tags : list (string * (rpc -> R)) :=
  [("SAMP_SCALE", samp_scale); ("SAMP_OFF", samp_off); ("LINE_SCALE", line_scale); ("LINE_OFF", line_off);
   ("LAT_SCALE", lat_scale); ("LAT_OFF", lat_off); ("LONG_SCALE", lon_scale); ("LONG_OFF", lon_off);
   ("HEIGHT_SCALE", height_scale); ("HEIGHT_OFF", height_off)].

(** A text of numbers separated by any white space *)
Definition reads_list (to_float : text -> option R) (t : text) (vs : list R) : Prop :=
  exists ws, fields_line ws t /\ Forall2 (fun w v => to_float w = Some v) ws vs.

(** The bands of a cube as lists of rows *)
Definition bands_of_cube {A} (c : cube A) (bands : list (list (list A))) : Prop :=
  List.length bands = c_nb c /\
  forall k rows, nth_error bands k = Some rows -> List.length rows = c_ny c /\
    forall y row, nth_error rows y = Some row -> List.length row = c_nx c /\
      forall x v, nth_error row x = Some v -> cube_at c y x k = Some v.

(** The only name in a directory with a given ending *)
Definition only_with_ending (listing : list text) (suffix name : text) : Prop :=
  In name listing /\ (exists a, name = (a ++ suffix)%list) /\
  forall a, In (a ++ suffix)%list listing -> (a ++ suffix)%list = name.

(** The dimensions of an SBET file under their PDAL names, and the one of each quantity *)
Definition sbet_dimensions : list string :=
  ["X"; "Y"; "Z"; "GpsTime"; "XVelocity"; "YVelocity"; "ZVelocity"; "Roll"; "Pitch"; "Azimuth"; "WanderAngle";
   "XBodyAccel"; "YBodyAccel"; "ZBodyAccel"; "XBodyAngRate"; "YBodyAngRate"; "ZBodyAngRate"].
Definition sbet_dimension (ch : channel) : string :=
  match ch with
  | WorldXs => "X" | WorldYs => "Y" | Alts => "Z" | Rolls => "Roll" | Pitches => "Pitch" | Headings => "Azimuth"
  end.
