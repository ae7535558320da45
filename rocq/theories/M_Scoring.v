(** Model of the keras helpers resippy/image_recognition/neural_net_model_scoring/
    keras_image_scoring.py and resippy/image_recognition/
    neural_net_model_training/keras_model_training.py.
    Keras, scipy's imresize and the clock are arguments; float arithmetic is exact real
    arithmetic with NonFinite for the result of a division by zero. *)
From Verif Require Export RAux Text M_Chipper M_TextFiles M_Photo M_Envi.
Open Scope R_scope.
Open Scope list_scope.

(** A numpy array of floats of any number of axes *)
Inductive nd : Type := Num (v : flt) | Axis (l : list nd).

(** np.squeeze: every axis of length one is dropped (the arrays are rectangular, so the
    siblings all lose the same axes) *)
Fixpoint squeeze (a : nd) : nd :=
  match a with
  | Num v => Num v
  | Axis l => match map squeeze l with [x] => x | l' => Axis l' end
  end.

(** a[:, j]: the array needs two axes; np.array([]) has one *)
Definition take_column (a : nd) (j : Z) : result nd :=
  match a with
  | Axis ((_ :: _) as l) =>
    col <- mapM (fun r => match r with Axis m => py_get m j | Num _ => Err IndexError end) l ;;
    Ok (Axis col)
  | _ => Err IndexError
  end.

(** list.index *)
Fixpoint list_index (l : list text) (t : text) : result Z :=
  match l with
  | [] => Err ValueError
  | x :: r => if text_eqb x t then Ok 0%Z else k <- list_index r t ;; Ok (k + 1)%Z
  end.

Notation pixels A := (list (list (list A))).
Definition map_pixels {A B} (f : A -> B) (c : pixels A) : pixels B := map (map (map f)) c.

(* resippy/image_recognition/neural_net_model_scoring/keras_image_scoring.py:22-24: a three-axis image with four channels loses the last one *)
Definition strip_alpha (img : cube Z) : cube Z :=
  if Nat.eqb (c_nb img) 4
  then mkCube (c_ny img) (c_nx img) 3 (map (map (fun p => py_slice p 0 3)) (c_data img))
  else img.

(** The chips along the first axis of the chip array; a two-axis chip is given its channel
    axis at once (img_to_array adds it after the resize) *)
Definition chip_list (ch : chips Z) : list (pixels Z) :=
  match ch with
  | Chips4 l => l
  | Chips3 l => map (map (map (fun v => [v]))) l
  end.

(* resippy/image_recognition/neural_net_model_scoring/keras_image_scoring.py:39-42.  np.min of an empty array raises ValueError *)
Definition normalize_chip (method : text) (c : pixels R) : result (pixels flt) :=
  if text_eqb method (txt "divide_by_255") then Ok (map_pixels (fun v => Fin (v / 255)) c)
  else if text_eqb method (txt "min_max_per_chip") then
    match rmin (concat (concat c)), rmax (concat (concat c)) with
    | Some mn, Some mx => Ok (map_pixels (fun v => fdiv (v - mn) (mx - mn)) c)
    | _, _ => Err ValueError
    end
  else Ok (map_pixels Fin c).

Section scoring.
  (** scipy.misc.imresize(chip, (ny, nx)) *)
  Variable imresize : Z -> Z -> pixels Z -> result (pixels R).
  (** the trained model's predict on a batch of images: one row of scores per image *)
  Variable predict : list (pixels flt) -> result (list (list flt)).

  (* resippy/image_recognition/neural_net_model_scoring/keras_image_scoring.py:35-46: the loop over the chips from number i on.  ledger says that a ledger was
     given (None has no set_status).  Returns the predictions and the reported percentages. *)
  Fixpoint score_loop (ty tx : Z) (method : text) (ledger : bool) (n : nat) (i : nat)
      (l : list (pixels Z)) : result (list (list (list flt)) * list R) :=
    match l with
    | [] => Ok ([], [])
    | chip :: rest =>
      chip <- imresize ty tx chip ;;
      chip <- normalize_chip method chip ;;
      preds <- predict [chip] ;;
      if ledger
      then sr <- score_loop ty tx method ledger n (S i) rest ;;
           Ok (preds :: fst sr, INR i / INR n * 100 :: snd sr)
      else Err AttributeError
    end.

  (* resippy/image_recognition/neural_net_model_scoring/keras_image_scoring.py:8-52.  two_axes says that the input array has no channel axis; the image is
     then its one-band cube.  Returns the scores, the corners and the ledger's percentages. *)
  Definition chip_and_score_image (img : cube Z) (two_axes : bool) (chip_x chip_y : Z) (target_x target_y : Z)
      (overlap_x overlap_y : R) (method : text) (labels : option (list text)) (thing : option text)
      (ledger : bool) : result (nd * list (Z * Z) * list R) :=
    if two_axes then Err IndexError
    else
      let img := strip_alpha img in
      let npix_x := truncZ (IZR chip_x * overlap_x) in
      let npix_y := truncZ (IZR chip_y * overlap_y) in
      cl <- chip_entire_image_to_memory 0%Z img chip_y chip_x npix_y npix_x BandsNone true ;;
      let l := chip_list (fst cl) in
      sr <- score_loop target_y target_x method ledger (length l) 0 l ;;
      let scores := squeeze (Axis (map (fun p => Axis (map (fun row => Axis (map Num row)) p)) (fst sr))) in
      scores <- match labels, thing with
                | Some lb, Some t => j <- list_index lb t ;; take_column scores j
                | _, _ => Ok scores
                end ;;
      Ok (scores, snd cl, snd sr).
End scoring.

(* ------------------------------- training ------------------------------- *)

(** Python's order on str: lexicographic on the code points *)
Fixpoint text_leb (a b : text) : bool :=
  match a, b with
  | [], _ => true
  | _ :: _, [] => false
  | x :: a', y :: b' =>
    if Nat.ltb (nat_of_ascii x) (nat_of_ascii y) then true
    else if Nat.eqb (nat_of_ascii x) (nat_of_ascii y) then text_leb a' b' else false
  end.

(** sorted(list of str): stable insertion *)
Fixpoint insert_text (x : text) (l : list text) : list text :=
  match l with
  | [] => [x]
  | y :: r => if text_leb x y then x :: l else y :: insert_text x r
  end.
Definition sorted_texts (l : list text) : list text := fold_right insert_text [] l.

(** A keras layer *)
Record layer := mkLayer { l_name : text; l_trainable : bool; l_weights : list R }.

(* resippy/image_recognition/neural_net_model_training/keras_model_training.py:87-90 *)
Definition freeze_model_layers (ls : list layer) : list layer :=
  map (fun l => mkLayer (l_name l) false (l_weights l)) ls.
(* resippy/image_recognition/neural_net_model_training/keras_model_training.py:93-96 *)
Definition unfreeze_model_layers (ls : list layer) : list layer :=
  map (fun l => mkLayer (l_name l) true (l_weights l)) ls.

(** What train_model uses of a DirectoryIterator *)
Record generator := mkGen { g_indices : list (text * Z); g_files : list text; g_batch : Z }.

(** keras' flow_from_directory numbers the sub-directories in the sorted order of their names
    (when no class list is given) *)
Definition keras_class_indices (subdirs : list text) : list (text * Z) :=
  combine (sorted_texts subdirs) (zrange 0 (zlen subdirs)).

(* resippy/image_recognition/neural_net_model_training/keras_model_training.py:34-61: the two iterators; dirs gives the sub-directories and the files of a
   directory.  The rescaling and the flips are keras' own and not modelled. *)
Definition setup_train_and_val_image_generators (dirs : text -> list text * list text)
    (training_dir validation_dir : text) (batchsize : Z) : generator * generator :=
  let gen d := mkGen (keras_class_indices (fst (dirs d))) (snd (dirs d)) batchsize in
  (gen training_dir, gen validation_dir).

(** The observable steps of a training *)
Inductive step (M : Type) : Type :=
| MakeDirs (dir : text)
| WriteFile (path content : text)
| LoadWeights (path : text)
| Compile (loss : text) (metrics : list text)
| Fit (model : M) (steps_per_epoch : R) (epochs : Z) (validation_steps : R) (checkpoint : text).
Arguments MakeDirs {M}. Arguments WriteFile {M}. Arguments LoadWeights {M}. Arguments Compile {M}.
Arguments Fit {M}.

(** Python's int / int (ZeroDivisionError) *)
Definition int_div (a b : Z) : result R :=
  if Z.eqb b 0 then Err ZeroDivisionError else Ok (IZR a / IZR b).

(* resippy/image_recognition/neural_net_model_training/keras_model_training.py:113-166.  exists_dir is os.path.exists, stamp the text of time(), build makes
   the model from the base model and the final layers.  The steps done before an exception
   are returned with it; loading the weights, compiling and fitting are keras' and are taken
   to succeed.  The file named labels.txt does not exist or is replaced. *)
Definition train_model {M T : Type} (build : M -> T -> M) (exists_dir : text -> bool) (stamp : text)
    (base : M) (tg vg : generator) (output_dir : text) (final : option T) (weights : option text)
    (model_fname : text) (n_epochs : Z) (loss : text) (metrics : list text) : list (step M) * result unit :=
  let log_dir := M_TextFiles.path_join (M_TextFiles.path_join output_dir (txt "logs")) stamp in
  let s0 := if exists_dir log_dir then [] else [MakeDirs log_dir] in
  let filepath := M_TextFiles.path_join output_dir model_fname in
  let labels := sorted_texts (map fst (g_indices tg)) in
  match write_text_list_to_file None labels with
  | (Some content, Ok tt) =>
    let s1 := s0 ++ [WriteFile (M_TextFiles.path_join output_dir (txt "labels.txt")) content] in
    let model := match final with None => base | Some f => build base f end in
    let s2 := s1 ++ match weights with None => [] | Some w => [LoadWeights w] end in
    let s3 := s2 ++ [Compile loss metrics] in
    match int_div (zlen (g_files tg)) (g_batch tg) with
    | Ok a => match int_div (zlen (g_files vg)) (g_batch vg) with
              | Ok b => (s3 ++ [Fit model a n_epochs b filepath], Ok tt)
              | Err e => (s3, Err e)
              | Diverges => (s3, Diverges)
              end
    | Err e => (s3, Err e)
    | Diverges => (s3, Diverges)
    end
  | (_, Err e) => (s0, Err e)
  | (_, _) => (s0, Diverges)
  end.

(* ------------------------- the classification head ------------------------ *)

(** A tensor without its batch axis: a feature map (rows, columns, channels) or a vector *)
Inductive tensor := Map (c : pixels R) | Vec (v : list R).

(** The weights of a dense layer: one row of input weights and a bias for each unit *)
Definition dense := list (list R * R).
Definition dot (a b : list R) : R := fold_right Rplus 0 (map2 Rmult a b).
(** Dense without activation acts on the last axis *)
Definition dense_vec (d : dense) (v : list R) : list R := map (fun wb => dot (fst wb) v + snd wb) d.
Definition dense_apply (d : dense) (t : tensor) : tensor :=
  match t with
  | Map c => Map (map (map (dense_vec d)) c)
  | Vec v => Vec (dense_vec d v)
  end.
Definition softmax (v : list R) : list R :=
  let s := fold_right Rplus 0 (map exp v) in map (fun x => exp x / s) v.

(** GlobalAveragePooling2D: the mean of each channel over the rows and columns; it refuses an
    input without rows and columns (ValueError when the layer is connected) *)
Definition global_average (nch : nat) (t : tensor) : result (list R) :=
  match t with
  | Vec _ => Err ValueError
  | Map c => let px := concat c in
             Ok (map (fun k => fold_right Rplus 0 (map (fun p => nth k p 0) px) / INR (length px)) (seq 0 nch))
  end.

(* resippy/image_recognition/neural_net_model_training/keras_model_training.py:100-110, as a function of the base model's output: Dense, GlobalAveragePooling2D,
   Dropout (which is the identity when the model predicts), Dense with softmax.  hidden and
   final are the weights of the two dense layers *)
Definition final_dense_softmax (hidden final : dense) (t : tensor) : result (list R) :=
  x <- global_average (length hidden) (dense_apply hidden t) ;;
  Ok (softmax (dense_vec final x)).
