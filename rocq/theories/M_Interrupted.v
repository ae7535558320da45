(** The files that the chip writer and the list writer create, in the order in which they do;
    do_writes and killed_write (M_EnviBytes.v) run such a sequence, wholly or in part. *)
From Verif Require Import M_EnviBytes M_Chipper M_TextFiles.
Open Scope list_scope.

(* resippy/utils/image_utils/image_chipper.py:147-159 : imageio.imsave at line 159 turns a chip into
   the bytes of a file; which bytes is up to imageio (the argument encode) *)
Definition chip_writes {A} (encode : text -> list (list (list A)) -> list ascii)
    (output_dir base fmt : text) (fnames : option (list text)) (remove_alpha : bool) (nb : nat) (c : chips A)
  : list (text * list ascii) * result unit :=
  let '(l, r) := write_chips_to_disk output_dir base fmt fnames remove_alpha nb c in
  (map (fun pc => (fst pc, encode (fst pc) (snd pc))) l, r).

(* resippy/utils/file_utils.py:77-83 *)
Definition list_writes (text_list : list text) (output_fname : text) : list (text * list ascii) * result unit :=
  match write_text_list_to_file None text_list with
  | (Some content, r) => ([(output_fname, content)], r)
  | (None, r) => ([], r)
  end.
