(** C45 (EO files) and C59 (Pix4D parameter files) *)
From Coq Require Import Lia.
From Verif Require Import Text2 M_Envi M_TextFiles M_NavFiles Spec_TextFiles Spec_NavFiles P_TextFiles P_NavFiles.
Open Scope list_scope.

(* ============================== C45 =============================== *)

(** Exactly what is loaded: nine columns; column j holds, in file order, the value
    number j of every line that has one before its first bad field. *)
Theorem C45_columns_exact : forall (F : Type) (to_float : text -> option F) content,
  length (eo_load to_float content) = 9%nat /\
  forall j, nth j (eo_load to_float content) [] =
    flat_map (fun line => match nth_error (eo_values to_float line) j with Some v => [v] | None => [] end)
             (file_lines content).
Proof. intros F to_float content. apply eo_load_columns. Qed.
Print Assumptions C45_columns_exact.

(** If every line is either complete (nine numbers) or already fails at its first
    field, the columns have equal length and entry i of every column comes from the
    i-th complete line. *)
Theorem C45_aligned : forall (F : Type) (to_float : text -> option F) content,
  (forall line, In line (file_lines content) ->
     length (eo_values to_float line) = 9%nat \/ eo_values to_float line = []) ->
  let recs := filter (fun r => negb (Nat.eqb (length r) 0)) (map (eo_values to_float) (file_lines content)) in
  eo_num_records to_float content = length recs /\
  forall j, (j < 9)%nat ->
    length (nth j (eo_load to_float content) []) = length recs /\
    forall i r, nth_error recs i = Some r -> nth_error (nth j (eo_load to_float content) []) i = nth_error r j.
Proof.
  intros F to_float content H recs.
  destruct (eo_load_columns to_float content) as [L E].
  assert (K : forall j, (j < 9)%nat -> forall ls,
    (forall line, In line ls -> length (eo_values to_float line) = 9%nat \/ eo_values to_float line = []) ->
    let rs := filter (fun r => negb (Nat.eqb (length r) 0)) (map (eo_values to_float) ls) in
    let col := flat_map (fun line => match nth_error (eo_values to_float line) j with Some v => [v] | None => [] end) ls in
    length col = length rs /\ forall i r, nth_error rs i = Some r -> nth_error col i = nth_error r j).
  { intros j Hj ls. induction ls as [|l ls IH]; intros Hls.
    - cbn. split; auto. intros [|i] r Hr; discriminate.
    - assert (Hls' : forall line, In line ls -> length (eo_values to_float line) = 9%nat \/ eo_values to_float line = [])
        by (intros line Hi; apply Hls; right; exact Hi).
      destruct (IH Hls') as [H1 H2]. cbn [map filter flat_map].
      destruct (Hls l (or_introl eq_refl)) as [H9|H0].
      + destruct (nth_error (eo_values to_float l) j) as [v|] eqn:Ev.
        * rewrite H9. cbn [Nat.eqb negb app length]. split; [lia|].
          intros [|i] r Hr; cbn [nth_error] in *; [injection Hr as <-; congruence|apply H2; exact Hr].
        * apply nth_error_None in Ev. lia.
      + rewrite H0. destruct j; cbn [nth_error length Nat.eqb negb app]; auto. }
  split.
  - unfold eo_num_records. pose proof (E O) as E0.
    destruct (eo_load to_float content) as [|c cs] eqn:El; [discriminate|]. cbn [nth] in E0. rewrite E0.
    apply (K O ltac:(lia) _ H).
  - intros j Hj. rewrite E. apply (K j Hj _ H).
Qed.
Print Assumptions C45_aligned.

(** A line that fails part-way misaligns everything after it: *)
Definition demo_float (t : text) : option Z :=
  match py_int t with Ok z => Some z | _ => None end.
Definition demo_eo : text :=
  lines_text [txt "1 10 11 12 13 14 15 16 17 18"; txt "2 20 21 oops"; txt "3 30 31 32 33 34 35 36 37 38"].

Theorem C45_aligned_refuted :
  ~ (forall content, forall j k, (j < 9)%nat -> (k < 9)%nat ->
       length (nth j (eo_load demo_float content) []) = length (nth k (eo_load demo_float content) [])) /\
  (* the second easting is the third record's, its time is the broken record's *)
  nth 2 (eo_load demo_float demo_eo) [] = [12; 32] /\ nth 0 (eo_load demo_float demo_eo) [] = [10; 20; 30].
Proof.
  split; [|split; reflexivity].
  intros H. specialize (H demo_eo 0%nat 2%nat ltac:(lia) ltac:(lia)). vm_compute in H. discriminate.
Qed.
Print Assumptions C45_aligned_refuted.

Example C45_ex :
  let content := lines_text [txt "Record header line"; []; txt "  1 10 11 12 13 14 15 16 17 18"; txt "3 30 31 32 33 34 35 36 37 38 extra"] in
  (forall line, In line (file_lines content) ->
     length (eo_values demo_float line) = 9%nat \/ eo_values demo_float line = []) /\
  eo_num_records demo_float content = 2%nat /\ nth 8 (eo_load demo_float content) [] = [18; 38].
Proof.
  split; [|split; reflexivity].
  intros line Hi. vm_compute in Hi.
  repeat (destruct Hi as [<-|Hi]; [first [right; reflexivity | left; reflexivity]|]). destruct Hi.
Qed.

(* ============================== C59 =============================== *)

(** External parameters: one entry per image, with its six numbers in order; a
    name given twice keeps the later line. *)
Theorem C59_external : forall (F : Type) (to_float : text -> option F) hdr rows vals,
  one_line hdr ->
  Forall2 (fun (row : text * list text) (nv : text * list F) =>
             Forall no_blank (fst row :: snd row) /\ length (snd row) = 6%nat /\
             fst nv = fst row /\ map to_float (snd row) = map Some (snd nv)) rows vals ->
  exists d, read_calibrated_external_camera_parameters to_float
              (lines_text (hdr :: map (fun row => join (txt " ") (fst row :: snd row)) rows)) = Ok d /\
    dict_agrees d vals /\ (NoDup (map fst vals) -> d = vals).
Proof.
  intros F to_float hdr rows vals Hh H. exists (store_all vals []).
  split; [|split; [apply store_all_agrees|apply store_all_nodup]].
  unfold read_calibrated_external_camera_parameters. rewrite clean_lines_of_lines.
  - cbn [skipn]. generalize (@nil (text * list F)) as d. revert H. clear Hh. intros H.
    induction H as [|[n nums] [n' vs] rows vals (H1 & H2 & H3 & H4) _ IH]; intros d; [reflexivity|].
    cbn [fst snd] in *. subst n'. cbn [map foldM fst snd]. rewrite (external_line_ok to_float d n nums vs H1 H2 H4).
    cbn [bind]. rewrite IH. reflexivity.
  - constructor; [exact Hh|]. apply Forall_map. clear Hh.
    induction H as [|row nv rows vals (H1 & _) _ IH]; constructor; auto. apply fields_one_line. exact H1.
Qed.
Print Assumptions C59_external.

(** Any line with another number of fields, a blank one included, makes the read
    fail. *)
Theorem C59_external_bad_line : forall (F : Type) (to_float : text -> option F) hdr fields rest,
  one_line hdr -> Forall one_line rest -> Forall no_blank fields -> fields <> [] -> length fields <> 7%nat ->
  read_calibrated_external_camera_parameters to_float
    (lines_text (hdr :: join (txt " ") fields :: rest)) = Err ValueError.
Proof.
  intros F to_float hdr fields rest Hh Hr HF Hne Hl. unfold read_calibrated_external_camera_parameters.
  rewrite clean_lines_of_lines.
  - cbn [skipn foldM]. rewrite external_line_bad by assumption. reflexivity.
  - constructor; [exact Hh|]. constructor; [apply fields_one_line; exact HF|exact Hr].
Qed.
Print Assumptions C59_external_bad_line.

(** Calibrated parameters: eight header lines, then ten lines per image; every
    number of every image is read. *)
Theorem C59_calibrated : forall (F : Type) (to_float : text -> option F) hdr blocks cals,
  Forall one_line hdr -> length hdr = 8%nat -> Forall2 (calib_lines to_float) blocks cals ->
  exists d, read_calibrated_camera_parameters to_float (lines_text (hdr ++ concat blocks)) = Ok d /\
    dict_agrees d cals /\ (NoDup (map fst cals) -> d = cals).
Proof.
  intros F to_float hdr blocks cals Hh L H. exists (store_all cals []).
  split; [|split; [apply store_all_agrees|apply store_all_nodup]].
  assert (HL : Forall (fun b : list text => length b = 10%nat /\ Forall one_line b) blocks).
  { clear -H. induction H as [|b nc bs cs Hb _ IH]; constructor; auto. apply (calib_lines_len to_float b nc Hb). }
  unfold read_calibrated_camera_parameters. rewrite clean_lines_of_lines.
  - rewrite skipn_app, L, Nat.sub_diag, skipn_all2 by lia. cbn [skipn app].
    pose proof (blocks10_concat blocks [] ltac:(eapply Forall_impl; [|exact HL]; intros b [Hb _]; exact Hb) ltac:(cbn; lia)) as B.
    rewrite !app_nil_r in B. rewrite B. apply calib_foldM; exact H.
  - apply Forall_app. split; [exact Hh|]. apply Forall_concat. eapply Forall_impl; [|exact HL]. intros b [_ Hb]; exact Hb.
Qed.
Print Assumptions C59_calibrated.

(** One blank line at the end of that file makes the read fail. *)
Theorem C59_calibrated_trailing_blank_raises : forall (F : Type) (to_float : text -> option F) hdr blocks cals,
  Forall one_line hdr -> length hdr = 8%nat -> Forall2 (calib_lines to_float) blocks cals ->
  read_calibrated_camera_parameters to_float (lines_text (hdr ++ concat blocks ++ [[]])) = Err ValueError.
Proof.
  intros F to_float hdr blocks cals Hh L H.
  assert (HL : Forall (fun b : list text => length b = 10%nat /\ Forall one_line b) blocks).
  { clear -H. induction H as [|b nc bs cs Hb _ IH]; constructor; auto. apply (calib_lines_len to_float b nc Hb). }
  unfold read_calibrated_camera_parameters. rewrite clean_lines_of_lines.
  - rewrite skipn_app, L, Nat.sub_diag, skipn_all2 by lia. cbn [skipn app].
    rewrite (blocks10_concat blocks [[]] ltac:(eapply Forall_impl; [|exact HL]; intros b [Hb _]; exact Hb) ltac:(cbn; lia)).
    rewrite foldM_app, (calib_foldM to_float blocks cals H). cbn [bind foldM]. reflexivity.
  - apply Forall_app. split; [exact Hh|]. apply Forall_app. split.
    + apply Forall_concat. eapply Forall_impl; [|exact HL]. intros b [_ Hb]; exact Hb.
    + repeat constructor.
Qed.
Print Assumptions C59_calibrated_trailing_blank_raises.

(** Internal parameters: blocks that start at a line containing the search text.
    Every camera gets what the lines of its block store, except that the last line
    of the file is never read. *)
Definition internal_file (pre : list text) (blocks : list (text * list pline)) : text :=
  lines_text (pre ++ concat (map (fun b => fst b :: map pline_text (snd b)) blocks)).

Theorem C59_internal_exact : forall (F : Type) (to_float : text -> option F) search pre blocks,
  blocks <> [] -> Forall one_line pre -> Forall (fun l => contains search l = false) pre ->
  (forall hdr body, In (hdr, body) blocks ->
     one_line hdr /\ contains search hdr = true /\ Forall (good_pline to_float) body /\
     Forall (fun p => contains search (pline_text p) = false) body) ->
  exists ds, read_pix4d_calibrated_internal_camera_parameters to_float search (internal_file pre blocks) = Ok ds /\
    length ds = length blocks /\
    forall i hdr body, nth_error blocks i = Some (hdr, body) ->
      exists d, nth_error ds i = Some d /\
        dict_agrees d (flat_map (stores to_float) (if Nat.eqb (S i) (length blocks) then removelast body else body)).
Proof.
  intros F to_float search pre blocks Hne Hp Hps Hb.
  exists (map (fun ps => store_all (flat_map (stores to_float) ps) []) (read_plines blocks)).
  assert (HB : forall b, In b blocks -> one_line (fst b) /\ contains search (fst b) = true /\ Forall (good_pline to_float) (snd b) /\
     Forall (fun p => contains search (pline_text p) = false) (snd b)).
  { intros [h body] Hi. apply Hb; exact Hi. }
  split; [|split].
  - unfold internal_file.
    replace (concat (map (fun b : text * list pline => fst b :: map pline_text (snd b)) blocks))
      with (flat (map (fun b => (fst b, map pline_text (snd b))) blocks)) by (unfold flat; rewrite map_map; reflexivity).
    rewrite internal_exact.
    + rewrite read_bodies_plines.
      assert (G : Forall (Forall (good_pline to_float)) (read_plines blocks)).
      { apply read_plines_good. apply Forall_forall. intros b Hi. apply (HB b Hi). }
      clear -G. induction G as [|ps pss Hps _ IH]; [reflexivity|].
      cbn [map mapM]. rewrite block_of_plines by exact Hps. cbn [bind]. rewrite IH. reflexivity.
    + apply Forall_app. split; [exact Hp|]. unfold flat. apply Forall_concat. rewrite map_map. apply Forall_map.
      apply Forall_forall. intros b Hi. cbn [fst snd]. destruct (HB b Hi) as (H1 & _ & H3 & _).
      constructor; [exact H1|]. apply Forall_map. eapply Forall_impl; [|exact H3]. apply good_pline_one_line.
    + destruct blocks; [congruence|discriminate].
    + exact Hps.
    + apply Forall_map. apply Forall_forall. intros b Hi. cbn [fst snd]. destruct (HB b Hi) as (_ & H2 & _ & H4).
      split; [exact H2|]. apply Forall_map. exact H4.
  - rewrite map_length. apply read_plines_length.
  - intros i hdr body Hi. eexists. split.
    + apply map_nth_error. apply (read_plines_nth blocks i hdr body Hi).
    + apply store_all_agrees.
Qed.
Print Assumptions C59_internal_exact.

(** Hence every block is complete when the file ends in a blank or comment line. *)
Theorem C59_internal_complete : forall (F : Type) (to_float : text -> option F) search pre blocks hdr body final,
  final = BlankLine \/ (exists t, final = Comment t) ->
  Forall one_line pre -> Forall (fun l => contains search l = false) pre ->
  (forall hdr' body', In (hdr', body') (blocks ++ [(hdr, body ++ [final])]) ->
     one_line hdr' /\ contains search hdr' = true /\ Forall (good_pline to_float) body' /\
     Forall (fun p => contains search (pline_text p) = false) body') ->
  exists ds, read_pix4d_calibrated_internal_camera_parameters to_float search
               (internal_file pre (blocks ++ [(hdr, body ++ [final])])) = Ok ds /\
    forall i hdr' body', nth_error (blocks ++ [(hdr, body ++ [final])]) i = Some (hdr', body') ->
      exists d, nth_error ds i = Some d /\ dict_agrees d (flat_map (stores to_float) body').
Proof.
  intros F to_float search pre blocks hdr body final Hf Hp Hps Hb.
  destruct (C59_internal_exact F to_float search pre (blocks ++ [(hdr, body ++ [final])])) as (ds & E & L & H); auto.
  { destruct blocks; discriminate. }
  exists ds. split; [exact E|]. intros i hdr' body' Hi. destruct (H i hdr' body' Hi) as (d & Hd & A).
  exists d. split; [exact Hd|].
  destruct (Nat.eqb_spec (S i) (length (blocks ++ [(hdr, body ++ [final])]))) as [Ei|Ei]; [|exact A].
  assert (Hlast : body' = body ++ [final]).
  { rewrite app_length in Ei. cbn [length] in Ei. assert (i = length blocks) by lia. subst i.
    rewrite nth_error_app2, Nat.sub_diag in Hi by lia. cbn in Hi. congruence. }
  subst body'. rewrite removelast_last in A. rewrite flat_map_app. cbn [flat_map].
  replace (stores to_float final) with (@nil (text * F)) by (destruct Hf as [->|(t & ->)]; reflexivity).
  cbn [app]. rewrite app_nil_r. exact A.
Qed.
Print Assumptions C59_internal_complete.

(** Whatever the file contains: each of the three readers gives a result or raises a ValueError; only the
    reader of internal parameters raises another exception, on a file without a line. *)
Lemma ve_bind {A B} (r : result A) (f : A -> result B) :
  (r = Err ValueError \/ exists a, r = Ok a) -> (forall a, f a = Err ValueError \/ exists b, f a = Ok b) ->
  bind r f = Err ValueError \/ exists b, bind r f = Ok b.
Proof. intros [-> | (a & ->)] H; [left; reflexivity|apply H]. Qed.
Lemma ve_mapM {A B} (f : A -> result B) l : (forall a, f a = Err ValueError \/ exists b, f a = Ok b) ->
  mapM f l = Err ValueError \/ exists b, mapM f l = Ok b.
Proof.
  intros H. induction l as [|x l IH]; [right; eexists; reflexivity|]. cbn [mapM].
  apply ve_bind; [apply H|]. intros b. apply ve_bind; [exact IH|]. intros bs. right. eexists. reflexivity.
Qed.
Lemma ve_foldM {A S'} (f : S' -> A -> result S') l : (forall s a, In a l -> f s a = Err ValueError \/ exists b, f s a = Ok b) ->
  forall s, foldM f l s = Err ValueError \/ exists b, foldM f l s = Ok b.
Proof.
  intros H. induction l as [|x l IH]; intros s; [right; eexists; reflexivity|]. cbn [foldM].
  apply ve_bind; [apply H; left; reflexivity|]. intros b. apply IH. intros s' a Ha. apply H. right. exact Ha.
Qed.
Lemma ve_float F (to_float : text -> option F) t : float_ to_float t = Err ValueError \/ exists v, float_ to_float t = Ok v.
Proof. unfold float_. destruct (to_float t); eauto. Qed.

Theorem C59_only_value_errors : forall (F : Type) (to_float : text -> option F) content,
  (read_calibrated_external_camera_parameters to_float content = Err ValueError \/
   exists d, read_calibrated_external_camera_parameters to_float content = Ok d) /\
  (read_calibrated_camera_parameters to_float content = Err ValueError \/
   exists d, read_calibrated_camera_parameters to_float content = Ok d) /\
  (forall search, read_pix4d_calibrated_internal_camera_parameters to_float search [] = Err UnboundLocalError /\
   (content <> [] ->
    read_pix4d_calibrated_internal_camera_parameters to_float search content = Err ValueError \/
    exists d, read_pix4d_calibrated_internal_camera_parameters to_float search content = Ok d)).
Proof.
  intros F tf content.
  assert (OK : forall X (x : X), Ok x = Err ValueError \/ exists y, Ok x = Ok y) by (intros X x; right; eexists; reflexivity).
  assert (FR : forall rows, float_rows tf rows = Err ValueError \/ exists v, float_rows tf rows = Ok v).
  { intros rows. apply ve_mapM. intros row. apply ve_mapM. intros t. apply ve_float. }
  split; [|split; [|intros search; split; [reflexivity|intros Hne]]].
  - apply ve_foldM. intros s line _. unfold external_line.
    destruct (split_char " "%char line) as [|a [|b [|c [|d' [|e [|f [|g [|? ?]]]]]]]]; try (left; reflexivity).
    apply ve_bind; [apply ve_mapM; intros t; apply ve_float|]. intros v. apply OK.
  - apply ve_foldM. intros s blk Hblk. unfold calib_block.
    assert (NE : blk <> []).
    { unfold blocks10 in Hblk. apply in_map_iff in Hblk as (k & <- & Hk). apply in_seq in Hk.
      intros E. apply (f_equal (@length _)) in E. rewrite firstn_length, skipn_length in E. cbn [length] in E.
      set (n := length (skipn 8 (clean_lines content))) in *.
      assert (10 * k < n)%nat; [|lia].
      pose proof (Nat.div_mod (n + 9) 10 ltac:(lia)) as DM. pose proof (Nat.mod_upper_bound (n + 9) 10 ltac:(lia)). lia. }
    destruct blk as [|b0 blk]; [congruence|].
    change (py_get (b0 :: blk) 0) with (@Ok text b0). cbn [bind].
    destruct (split_char " "%char b0) as [|a [|b [|c [|? ?]]]]; try (left; reflexivity).
    do 5 (apply ve_bind; [apply FR|]; intros ?).
    assert (PI : forall t, py_int t = Err ValueError \/ exists z, py_int t = Ok z).
    { intros t. unfold py_int. cbv zeta. match goal with |- context [match ?x with _ => _ end] => idtac end.
      repeat match goal with |- context [match ?x with _ => _ end] => destruct x end; eauto. }
    do 2 (apply ve_bind; [apply PI|]; intros ?). apply OK.
  - unfold read_pix4d_calibrated_internal_camera_parameters.
    destruct (clean_lines content) as [|l0 ls] eqn:E.
    { exfalso. apply map_eq_nil in E. unfold file_lines in E.
      assert (R : forall u, readlines u = [] -> u = []).
      { intros [|c u]; [reflexivity|]. cbn [readlines]. destruct (Ascii.eqb c ch_nl); [discriminate|].
        destruct (readlines u); discriminate. }
      apply R in E. destruct content as [|c r]; [congruence|]. cbn [universal_newlines] in E.
      destruct (Ascii.eqb c ch_cr); [|discriminate]. destruct r as [|d r]; [discriminate|].
      destruct (Ascii.eqb d ch_nl); discriminate. }
    apply ve_mapM. intros [st en]. apply ve_foldM. intros s line _. unfold internal_line.
    destruct (starts_with (txt "#") line).
    + destruct (contains (txt "Focal Length mm") line); [|apply OK].
      destruct (split_char _ _) as [|a [|b [|? ?]]]; try (left; reflexivity).
      apply ve_bind; [apply ve_float|]. intros v. apply ve_bind; [apply ve_float|]. intros v'. apply OK.
    + destruct (split_char _ _) as [|a [|b [|? ?]]]; try (left; reflexivity).
      apply ve_bind; [apply ve_float|]. intros v. apply OK.
Qed.
Print Assumptions C59_only_value_errors.

Definition demo_cam : list (text * list pline) :=
  [(txt "Pix4D camera 0", [SensorSize (txt " Focal Length mm assuming a sensor width of") (txt "4") (txt "3"); KeyVal (txt "F") (txt "5")]);
   (txt "Pix4D camera 1", [KeyVal (txt "F") (txt "6"); BlankLine; KeyVal (txt "T2") (txt "7")])].

Theorem C59_internal_complete_refuted :
  read_pix4d_calibrated_internal_camera_parameters demo_float (txt "Pix4D") (internal_file [] demo_cam)
  = Ok [[(txt "fpa_width_mm", 4); (txt "fpa_height_mm", 3); (txt "F", 5)]; [(txt "F", 6)]].
Proof. reflexivity. Qed.
Print Assumptions C59_internal_complete_refuted.

Example C59_demo_hypotheses : forall hdr body, In (hdr, body) demo_cam ->
  one_line hdr /\ contains (txt "Pix4D") hdr = true /\ Forall (good_pline demo_float) body /\
  Forall (fun p => contains (txt "Pix4D") (pline_text p) = false) body.
Proof.
  assert (K : forall l : text, forallb (fun c => negb (is_newline c)) l = true -> one_line l).
  { intros l H. apply Forall_forall. intros c Hc. rewrite forallb_forall in H. specialize (H c Hc). destruct (is_newline c); [discriminate|reflexivity]. }
  assert (N : forall (c : ascii) (l : text), forallb (fun x => negb (Ascii.eqb x c)) l = true -> ~ In c l).
  { intros c l H Hi. rewrite forallb_forall in H. specialize (H c Hi). rewrite Ascii.eqb_refl in H. discriminate. }
  assert (B : forall l : text, forallb (fun c => negb (is_newline c)) l = true -> forallb (fun x => negb (Ascii.eqb x " "%char)) l = true -> no_blank l).
  { intros l H1 H2. split; [apply K; exact H1|apply N; exact H2]. }
  intros hdr body [H|[H|[]]]; injection H as <- <-; (split; [apply K; reflexivity|split; [reflexivity|split]]);
    repeat constructor; try (apply B; reflexivity); try (apply K; reflexivity); try (apply N; reflexivity);
    try discriminate; try (eexists; reflexivity).
Qed.

(** Master dictionary: each image gets its calibrated and external parameters and
    the internal parameters of the camera named by the digit before the extension. *)
Theorem C59_master_entries : forall (F : Type) (external : dict (list F)) internal calibrated m,
  make_master_dict external internal calibrated = Ok m -> NoDup (map fst calibrated) ->
  forall stem dg ext c, In (stem ++ "_"%char :: dg :: "."%char :: ext, c) calibrated ->
    is_digit dg = true -> dg <> "0"%char -> ~ In "."%char ext ->
    exists e ip,
      dict_get external (stem ++ "_"%char :: dg :: "."%char :: ext) = Ok e /\
      nth_error internal (nat_of_ascii dg - 49) = Some ip /\
      dict_get m (stem ++ "_"%char :: dg :: "."%char :: ext) = Ok (MEntry c e ip).
Proof.
  intros F external internal calibrated m H Hnd stem dg ext c Hi Hd H0 He.
  destruct (master_get external internal calibrated _ m H) as (H1 & _ & _).
  assert (Hdot : In "."%char (stem ++ "_"%char :: dg :: "."%char :: ext)).
  { apply in_or_app. right. right; right; left; reflexivity. }
  assert (Hk : stem ++ "_"%char :: dg :: "."%char :: ext <> rkey).
  { intros E. rewrite E in Hdot. vm_compute in Hdot. intuition discriminate. }
  destruct (H1 _ c Hi Hnd Hk) as (e & cam & ip & He1 & Hc & Hip & Hm).
  rewrite camera_index_key in Hc by assumption. injection Hc as <-.
  exists e, ip. split; [exact He1|]. split; [|exact Hm].
  assert (Hge : (49 <= nat_of_ascii dg)%nat).
  { clear -Hd H0. destruct dg as [[] [] [] [] [] [] [] []]; vm_compute in Hd; try discriminate; try (vm_compute; lia).
    exfalso. apply H0. reflexivity. }
  replace (Z.of_nat (nat_of_ascii dg) - 48 - 1)%Z with (Z.of_nat (nat_of_ascii dg - 49)) in Hip by lia.
  destruct (Nat.lt_ge_cases (nat_of_ascii dg - 49) (length internal)) as [Hl|Hl].
  - destruct (nth_error internal (nat_of_ascii dg - 49)) as [x|] eqn:Ex; [|apply nth_error_None in Ex; lia].
    rewrite (py_get_nth internal _ ip Hl) in Hip. rewrite (nth_error_nth _ _ _ Ex) in Hip. congruence.
  - rewrite py_get_out in Hip by (right; unfold zlen; lia). discriminate.
Qed.
Print Assumptions C59_master_entries.

(** An image whose name ends in anything but one character after the last underscore
    (a camera number of two digits, say) raises ValueError: no dictionary is made. *)
Theorem C59_long_camera_suffix_raises : forall (F : Type) (external : dict (list F)) internal stem s ext c e,
  ~ In "."%char ext -> ~ In "_"%char s -> length s <> 1%nat ->
  dict_get external (stem ++ "_"%char :: s ++ "."%char :: ext) = Ok e ->
  (forall rest, make_master_dict external internal ((stem ++ "_"%char :: s ++ "."%char :: ext, c) :: rest) = Err ValueError) /\
  (forall calibrated m, In (stem ++ "_"%char :: s ++ "."%char :: ext, c) calibrated ->
     make_master_dict external internal calibrated <> Ok m).
Proof.
  intros F external internal stem s ext c e He Hs Hl Hx.
  assert (St : forall m, master_step external internal m (stem ++ "_"%char :: s ++ "."%char :: ext, c) = Err ValueError).
  { intros m. unfold master_step. cbn [fst snd]. rewrite Hx. cbn [bind]. rewrite camera_index_long by assumption. reflexivity. }
  split.
  - intros rest. unfold make_master_dict. cbn [foldM]. rewrite St. reflexivity.
  - intros calibrated m Hi. unfold make_master_dict. apply in_split in Hi as (l1 & l2 & ->).
    intros E. rewrite foldM_app in E. destruct (foldM (master_step external internal) l1 [(txt "projection", MProjection)]) as [m1| |]; cbn [bind] in E; try discriminate.
    cbn [foldM] in E. rewrite St in E. discriminate.
Qed.
Print Assumptions C59_long_camera_suffix_raises.

Example C59_long_camera_suffix_ex :
  make_master_dict [(txt "IMG_0007_10.tif", [1%Z])] [[]] [(txt "IMG_0007_10.tif", mkCalib 0%Z 0%Z [] [] [] [] [])]
  = Err ValueError.
Proof.
  apply (C59_long_camera_suffix_raises Z _ [[]] (txt "IMG_0007") (txt "10") (txt "tif") _ [1%Z]);
    try reflexivity; try (vm_compute; intuition discriminate).
Qed.

(** An image named with camera 0 gets the last camera's parameters, *)
Theorem C59_camera_zero_is_last : forall (F : Type) (external : dict (list F)) internal last_cam stem ext c e,
  ~ In "."%char ext -> dict_get external (stem ++ txt "_0." ++ ext) = Ok e ->
  exists m, make_master_dict external (internal ++ [last_cam]) [(stem ++ txt "_0." ++ ext, c)] = Ok m /\
    dict_get m (stem ++ txt "_0." ++ ext) = Ok (MEntry c e last_cam).
Proof.
  intros F external internal last_cam stem ext c e He Hx. eexists. split.
  - unfold make_master_dict. cbn [foldM]. unfold master_step. cbn [fst snd]. rewrite Hx. cbn [bind].
    change (stem ++ txt "_0." ++ ext) with (stem ++ "_"%char :: "0"%char :: "."%char :: ext).
    rewrite camera_index_key by (auto; reflexivity). cbn [bind].
    change (Z.of_nat (nat_of_ascii "0") - 48 - 1)%Z with (-1)%Z. rewrite py_get_last. cbn [bind]. reflexivity.
  - rewrite dict_get_set_neq; [apply dict_get_set_eq|].
    intros E. assert (Hdot : In "."%char (txt "r_matrix_computed")).
    { rewrite E. apply in_or_app. right. right; right; left; reflexivity. }
    vm_compute in Hdot. intuition discriminate.
Qed.
Print Assumptions C59_camera_zero_is_last.

(** and the computed rotation matrix is not stored per image: the one entry
    r_matrix_computed holds the matrix of the last image. *)
Theorem C59_r_matrix_of_last_image_only : forall (F : Type) (external : dict (list F)) internal pre key c m,
  make_master_dict external internal (pre ++ [(key, c)]) = Ok m ->
  exists e, dict_get external key = Ok e /\ dict_get m (txt "r_matrix_computed") = Ok (MRMatrix e).
Proof.
  intros F external internal pre key c m H.
  destruct (master_get external internal _ _ m H) as (_ & _ & H3). apply (H3 pre key c eq_refl).
Qed.
Print Assumptions C59_r_matrix_of_last_image_only.

Example C59_master_ex : exists m,
  make_master_dict [(txt "IMG_0001_2.tif", [1; 2; 3; 4; 5; 6])] [[(txt "F", 5)]; [(txt "F", 6)]]
    [(txt "IMG_0001_2.tif", mkCalib 4 3 [] [] [] [] [])] = Ok m /\
  dict_get m (txt "IMG_0001_2.tif") = Ok (MEntry (mkCalib 4 3 [] [] [] [] []) [1; 2; 3; 4; 5; 6] [(txt "F", 6)]).
Proof. eexists. split; reflexivity. Qed.
