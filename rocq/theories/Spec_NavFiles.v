(** Specification vocabulary for C45 and C59. *)
From Verif Require Import Text2 Spec_TextFiles M_Envi M_NavFiles.  (* dict_get and the record calib *)
Open Scope list_scope.

(** A field of a file with single blanks between the fields *)
Definition no_blank (t : text) : Prop := one_line t /\ ~ In " "%char t.

(** The value stored last under a key, in a sequence of stores *)
Definition last_store {V} (kvs : list (text * V)) (k : text) : option V :=
  match find (fun kv => text_eqb (fst kv) k) (rev kvs) with Some kv => Some (snd kv) | None => None end.

(** Values read from the fields of one EO line: fields number 1 to 9, up to the
    first one that is missing or not a number. *)
Fixpoint good_prefix {F} (to_float : text -> option F) (fields : list text) : list F :=
  match fields with
  | t :: r => match to_float t with Some v => v :: good_prefix to_float r | None => [] end
  | [] => []
  end.
Definition eo_values {F} (to_float : text -> option F) (line : text) : list F :=
  good_prefix to_float (firstn 9 (skipn 1 (split_ws line))).

(** A line of a Pix4D internal parameter file *)
Inductive pline :=
| KeyVal (key val : text)              (* key value *)
| Comment (t : text)                   (* #... *)
| SensorSize (t w h : text)            (* #... Focal Length mm ... WxHmm *)
| BlankLine.
Definition pline_text (p : pline) : text :=
  match p with
  | KeyVal k v => k ++ " "%char :: v
  | Comment t => "#"%char :: t
  | SensorSize t w h => "#"%char :: t ++ " "%char :: w ++ "x"%char :: h ++ txt "mm"
  | BlankLine => []
  end.
Definition no_xm (t : text) : Prop := ~ In "x"%char t /\ ~ In "m"%char t.
Definition good_pline {F} (to_float : text -> option F) (p : pline) : Prop :=
  match p with
  | KeyVal k v => no_blank k /\ no_blank v /\ (forall r, k <> "#"%char :: r) /\
                  exists f, to_float v = Some f
  | Comment t => one_line t /\ contains (txt "Focal Length mm") ("#"%char :: t) = false
  | SensorSize t w h => one_line t /\ no_blank w /\ no_blank h /\ no_xm w /\ no_xm h /\
                  contains (txt "Focal Length mm") t = true /\
                  (exists f, to_float w = Some f) /\ exists f, to_float h = Some f
  | BlankLine => True
  end.
(** What a line stores *)
Definition stores {F} (to_float : text -> option F) (p : pline) : list (text * F) :=
  match p with
  | KeyVal k v => match to_float v with Some f => [(k, f)] | None => [] end
  | SensorSize _ w h =>
    match to_float w, to_float h with
    | Some a, Some b => [(txt "fpa_width_mm", a); (txt "fpa_height_mm", b)]
    | _, _ => []
    end
  | _ => []
  end.

(** The dictionary holds, for every key, what was stored last under it. *)
Definition dict_agrees {V} (d : dict V) (kvs : list (text * V)) : Prop :=
  forall k, dict_get d k = match last_store kvs k with Some v => Ok v | None => Err KeyError end.

Section Calib.
  Context {F : Type} (to_float : text -> option F).

  (** A line holds the given numbers, separated by blanks. *)
  Definition row_values (line : text) (vals : list F) : Prop :=
    exists toks, fields_line toks line /\ map to_float toks = map Some vals.

  (** ten lines that describe one image *)
  Definition calib_lines (b : list text) (nc : text * calib) : Prop :=
    exists w h k1 k2 k3 rad tan t r1 r2 r3 vk1 vk2 vk3 vt vr1 vr2 vr3,
      b = [join (txt " ") [fst nc; w; h]; k1; k2; k3; rad; tan; t; r1; r2; r3] /\
      no_blank (fst nc) /\ no_blank w /\ no_blank h /\ Forall one_line b /\
      py_int w = Ok (cb_nx (snd nc)) /\ py_int h = Ok (cb_ny (snd nc)) /\
      row_values k1 vk1 /\ row_values k2 vk2 /\ row_values k3 vk3 /\ cb_k (snd nc) = [vk1; vk2; vk3] /\
      row_values rad (cb_radial (snd nc)) /\ row_values tan (cb_tangential (snd nc)) /\
      row_values t vt /\ cb_t (snd nc) = [vt] /\
      row_values r1 vr1 /\ row_values r2 vr2 /\ row_values r3 vr3 /\ cb_r (snd nc) = [vr1; vr2; vr3].

End Calib.
