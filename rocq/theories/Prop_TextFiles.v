(** C55-C58, C65, C66: text helpers, list files, array helpers, CSV, ASCII spectra,
    directory listings. *)
From Coq Require Import Lia.
From Verif Require Import Text2 M_Envi M_TextFiles Spec_TextFiles P_TextFiles.
Open Scope list_scope.

(* ============================== C55 =============================== *)

(** On a system whose line separator is LF: the cleaned text has no carriage
    return, is what a text-mode read would give, and cleaning again changes
    nothing. *)
Theorem C55_cleanup_posix : forall t,
  ~ In ch_cr (cleanup_newlines_on posix_linesep t) /\
  cleanup_newlines_on posix_linesep t = universal_newlines t /\
  cleanup_newlines_on posix_linesep (cleanup_newlines_on posix_linesep t) = cleanup_newlines_on posix_linesep t.
Proof.
  intros t. rewrite !cleanup_posix. split; [apply universal_no_cr|]. split; [reflexivity|].
  apply universal_id, universal_no_cr.
Qed.
Print Assumptions C55_cleanup_posix.

(** Removing newlines removes exactly the CR and LF characters. *)
Theorem C55_remove_newlines_posix : forall t,
  remove_newlines_on posix_linesep t = filter (fun c => negb (is_newline c)) t.
Proof. exact remove_newlines_filter. Qed.
Print Assumptions C55_remove_newlines_posix.

(** Where the line separator is CR LF (Windows) cleaning is right for text with
    LF line ends only; *)
Theorem C55_cleanup_windows_lf : forall t, ~ In ch_cr t ->
  cleanup_newlines_on windows_linesep t
  = flat_map (fun c => if Ascii.eqb c ch_nl then [ch_cr; ch_nl] else [c]) t.
Proof. exact cleanup_windows_lf. Qed.
Print Assumptions C55_cleanup_windows_lf.

(** on text that already has Windows line ends it is not idempotent, and removing
    newlines leaves a carriage return behind. *)
Theorem C55_windows_refuted :
  ~ (forall t, cleanup_newlines_on windows_linesep (cleanup_newlines_on windows_linesep t)
               = cleanup_newlines_on windows_linesep t) /\
  ~ (forall t, Forall (fun c => is_newline c = false) (remove_newlines_on windows_linesep t)).
Proof.
  split; intros H.
  - specialize (H [ch_cr; ch_nl]). vm_compute in H. discriminate.
  - specialize (H [ch_cr; ch_nl]). vm_compute in H. inversion H; discriminate.
Qed.
Print Assumptions C55_windows_refuted.

(** Snake case: no capital letter is left, only underscores are inserted, the
    conversion is idempotent, and a CamelCase name of any number of words becomes
    the words in small letters joined by underscores. *)
Theorem C55_snake_no_capital : forall t,
  Forall (fun c => is_upper c = false) (convert_to_snake_case t).
Proof. intros t. apply lower_no_upper. Qed.
Print Assumptions C55_snake_no_capital.

Theorem C55_snake_only_inserts_underscores : forall t,
  filter (fun c => negb (Ascii.eqb c "_"%char)) (convert_to_snake_case t)
  = filter (fun c => negb (Ascii.eqb c "_"%char)) (lower t).
Proof. exact snake_filter. Qed.
Print Assumptions C55_snake_only_inserts_underscores.

Theorem C55_snake_idempotent : forall t,
  convert_to_snake_case (convert_to_snake_case t) = convert_to_snake_case t.
Proof. intros t. apply snake_id, lower_no_upper. Qed.
Print Assumptions C55_snake_idempotent.

Theorem C55_snake_camel_case : forall ws, Forall cap_word ws ->
  convert_to_snake_case (concat ws) = join (txt "_") (map lower ws).
Proof. exact snake_camel. Qed.
Print Assumptions C55_snake_camel_case.

Example C55_ex : Forall cap_word [txt "Gps"; txt "Time"; txt "Of"; txt "Week"] /\
  convert_to_snake_case (txt "GpsTimeOfWeek") = txt "gps_time_of_week" /\
  convert_to_snake_case (txt "HTTPResponse2Xy") = txt "http_response2_xy" /\
  remove_newlines (txt "ab" ++ [ch_cr; ch_nl] ++ txt "c" ++ [ch_cr]) = txt "abc".
Proof.
  split; [|repeat split].
  assert (H : forall u ls, is_upper u = true -> ls <> [] -> forallb is_lower ls = true -> cap_word (u :: ls)).
  { intros u ls H1 H2 H3. exists u, ls. repeat split; auto. apply Forall_forall. apply forallb_forall. exact H3. }
  repeat constructor; apply H; try reflexivity; discriminate.
Qed.

(* ============================== C56 =============================== *)

(** Writing a non-empty list of one-line strings whose last one is not empty and
    reading the file back gives the list, whatever the file held before. *)
Theorem C56_round_trip : forall old l,
  l <> [] -> Forall one_line l -> last l [] <> [] ->
  exists content, write_text_list_to_file old l = (Some content, Ok tt) /\
                  read_text_list_from_file content = l.
Proof.
  intros old l Hne HF Hlast. destruct (exists_last Hne) as (m & z & ->).
  rewrite last_last in Hlast. apply Forall_app in HF. destruct HF as [Hm Hz]. inversion Hz; subst.
  exists (lines_text m ++ z). split; [apply write_snoc|]. rewrite read_snoc by assumption.
  destruct z; [congruence|reflexivity].
Qed.
Print Assumptions C56_round_trip.

(** A final empty string is lost: *)
Theorem C56_last_empty_lost : forall old m, Forall one_line m ->
  exists content, write_text_list_to_file old (m ++ [[]]) = (Some content, Ok tt) /\
                  read_text_list_from_file content = m.
Proof.
  intros old m Hm. exists (lines_text m ++ []). split; [apply write_snoc|].
  rewrite read_snoc by (assumption || constructor). apply app_nil_r.
Qed.
Print Assumptions C56_last_empty_lost.

(** The empty list raises IndexError and leaves the file as it was. *)
Theorem C56_empty_list_raises : forall old,
  write_text_list_to_file old [] = (old, Err IndexError).
Proof. reflexivity. Qed.
Print Assumptions C56_empty_list_raises.

(** A list with a string that contains a newline never comes back. *)
Theorem C56_newline_never_read_back : forall content l,
  read_text_list_from_file content = l -> Forall one_line l.
Proof. intros content l <-. apply read_all_one_line. Qed.
Print Assumptions C56_newline_never_read_back.

Theorem C56_round_trip_refuted :
  ~ (forall l, Forall one_line l -> exists content,
       write_text_list_to_file None l = (Some content, Ok tt) /\ read_text_list_from_file content = l).
Proof.
  intros H. destruct (H [] (Forall_nil _)) as (c & E & _). vm_compute in E. discriminate.
Qed.
Print Assumptions C56_round_trip_refuted.

Example C56_ex : exists content,
  write_text_list_to_file (Some (txt "old")) [txt "a"; []; txt "b c"] = (Some content, Ok tt) /\
  read_text_list_from_file content = [txt "a"; []; txt "b c"] /\ length content = 6%nat.
Proof. eexists. split; [reflexivity|]. split; reflexivity. Qed.

(* ============================== C57 =============================== *)

(** Turning rows of equal length into columns: entry i of column j is entry j of
    row i. *)
Theorem C57_transpose_entries : forall (A : Type) (rows : list (list A)) w,
  rows <> [] -> Forall (fun r => length r = w) rows ->
  exists cols, list_of_tuples_to_separate_lists rows = Ok cols /\ length cols = w /\
    forall i j r c, nth_error rows i = Some r -> nth_error cols j = Some c -> nth_error c i = nth_error r j.
Proof.
  intros A rows w Hne H. unfold list_of_tuples_to_separate_lists, np_transpose.
  rewrite (rectangular_width rows w Hne H), (proj2 (rectangular_spec rows w) H).
  exists (transpose_n w rows). split; [reflexivity|]. split; [apply transpose_n_length|].
  intros i j r c Hr Hc.
  assert (Hj : (j < w)%nat) by (rewrite <- (transpose_n_length w rows); apply nth_error_Some; congruence).
  destruct (transpose_n_nth w rows H j Hj) as (c' & E & _ & G). rewrite E in Hc. injection Hc as <-.
  rewrite G, Hr. reflexivity.
Qed.
Print Assumptions C57_transpose_entries.

(** The two conversions undo each other for every non-empty table with at least
    one column. *)
Theorem C57_transposes_inverse : forall (A : Type) (rows : list (list A)) w,
  rows <> [] -> (0 < w)%nat -> Forall (fun r => length r = w) rows ->
  exists cols, list_of_tuples_to_separate_lists rows = Ok cols /\
               separate_lists_to_list_of_tuples cols = Ok rows /\
               list_of_tuples_to_separate_lists cols = Ok rows.
Proof.
  intros A rows w Hne Hw H. unfold list_of_tuples_to_separate_lists, separate_lists_to_list_of_tuples, np_transpose at 1.
  rewrite (rectangular_width rows w Hne H), (proj2 (rectangular_spec rows w) H).
  exists (transpose_n w rows). split; [reflexivity|].
  assert (E : np_transpose (transpose_n w rows) = Ok rows).
  { unfold np_transpose. pose proof (transpose_rect rows w H) as HT.
    assert (Hne2 : transpose_n w rows <> []) by (destruct w; [lia|discriminate]).
    rewrite (rectangular_width _ _ Hne2 HT), (proj2 (rectangular_spec _ _) HT).
    rewrite transpose_n_invol by exact H. reflexivity. }
  split; exact E.
Qed.
Print Assumptions C57_transposes_inverse.

(** Ragged rows raise. *)
Theorem C57_ragged_raises : forall (A : Type) (rows : list (list A)) r r',
  In r rows -> In r' rows -> length r <> length r' ->
  list_of_tuples_to_separate_lists rows = Err ValueError.
Proof.
  intros A rows r r' Hr Hr' Hn. unfold list_of_tuples_to_separate_lists, np_transpose.
  destruct (rectangular rows (width rows)) eqn:E; [|reflexivity].
  apply rectangular_spec in E. rewrite Forall_forall in E. pose proof (E r Hr). pose proof (E r' Hr'). congruence.
Qed.
Print Assumptions C57_ragged_raises.

(** Removing a value removes all and only the equal entries and keeps the order
    and multiplicity of the others. *)
Theorem C57_remove_all : forall (A : Type) (eqb : A -> A -> bool) l v,
  (forall x y, eqb x y = true <-> x = y) ->
  let out := remove_all_entries_from_list eqb l v in
  ~ In v out /\
  (forall x, x <> v -> In x out <-> In x l) /\
  (forall a b, l = a ++ b -> out = remove_all_entries_from_list eqb a v ++ remove_all_entries_from_list eqb b v) /\
  (~ In v l -> out = l).
Proof.
  intros A eqb l v Heq out. unfold out, remove_all_entries_from_list. split; [|split; [|split]].
  - intros H. apply filter_In in H. destruct H as [_ H]. rewrite (proj2 (Heq v v) eq_refl) in H. discriminate.
  - intros x Hx. rewrite filter_In. split; [tauto|]. intros H. split; auto.
    destruct (eqb x v) eqn:E; auto. apply Heq in E. contradiction.
  - intros a b ->. apply filter_app.
  - intros H. clear out. induction l as [|x l IH]; simpl; auto. destruct (eqb x v) eqn:E.
    + apply Heq in E. subst. exfalso; apply H; left; reflexivity.
    + simpl. f_equal. apply IH. intros Hi; apply H; right; exact Hi.
Qed.
Print Assumptions C57_remove_all.

(** A value that does not even equal itself (a float NaN) removes nothing. *)
Theorem C57_remove_nan : forall (A : Type) (eqb : A -> A -> bool) l nan,
  (forall x, eqb x nan = false) -> remove_all_entries_from_list eqb l nan = l.
Proof.
  intros A eqb l nan H. unfold remove_all_entries_from_list. induction l as [|x l IH]; simpl; auto.
  rewrite H. simpl. f_equal. exact IH.
Qed.
Print Assumptions C57_remove_nan.

Example C57_ex : list_of_tuples_to_separate_lists [[1; 2; 3]; [4; 5; 6]] = Ok [[1; 4]; [2; 5]; [3; 6]] /\
  remove_all_entries_from_list Z.eqb [3; 1; 3; 2] 3 = [1; 2].
Proof. split; reflexivity. Qed.

(* ============================== C58 =============================== *)

(** Every record of a well-formed CSV text is read back cell by cell, whatever
    the cells contain (quoted cells may hold delimiters, quotes and line breaks). *)
Theorem C58_reader_round_trip : forall delim rs,
  good_delim delim -> Forall (good_record delim) rs ->
  csv_reader delim (write_table delim rs) = Ok (map (map cell_text) rs).
Proof. exact csv_reader_table. Qed.
Print Assumptions C58_reader_round_trip.

(** The dictionary maps a header name to the entries of its column in file order;
    of several columns of one name it keeps the last. *)
Theorem C58_columns : forall delim rs header rows,
  good_delim delim -> Forall (good_record delim) rs ->
  map (map cell_text) rs = header :: rows -> rows <> [] ->
  (forall r r', In r rows -> In r' rows -> length r = length r') ->
  (forall r, In r rows -> (length header <= length r)%nat) ->
  exists d, single_line_header_csv_to_dict delim (write_table delim rs) = Ok d /\
    (forall name, match dict_get d name with
       | Ok col => exists j, nth_error header j = Some name /\
                             col = map (fun r => nth j r []) rows /\
                             (forall j', (j < j')%nat -> nth_error header j' <> Some name)
       | Err e => e = KeyError /\ ~ In name header
       | Diverges => False
       end) /\
    (NoDup header -> map fst d = header).
Proof.
  intros delim rs header rows Hd Hrs E Hne Hrect Hlen.
  assert (HF : Forall (fun r => length r = width rows) rows).
  { apply Forall_forall. intros r Hr. destruct rows as [|r0 rows]; [destruct Hr|].
    apply Hrect; [exact Hr|left; reflexivity]. }
  assert (Hw : (length header <= width rows)%nat).
  { destruct rows as [|r0 rows]; [congruence|]. apply Hlen. left; reflexivity. }
  exists (store_columns rows header). split; [apply csv_to_dict_ok; assumption|]. split.
  - intros name. apply store_columns_get.
  - intros Hnd. rewrite store_columns_keys by exact Hnd.
    generalize 0%nat. clear. induction header as [|h header IH]; intros off; [reflexivity|].
    cbn [length seq map combine fst]. f_equal. apply IH.
Qed.
Print Assumptions C58_columns.

(** A file that has a header but no data rows raises. *)
Theorem C58_no_rows_raises : forall delim hdr, good_delim delim -> good_record delim hdr ->
  single_line_header_csv_to_dict delim (write_table delim [hdr]) = Err IndexError.
Proof.
  intros delim hdr Hd Hh. unfold single_line_header_csv_to_dict.
  rewrite csv_reader_table by auto. cbn [bind map rectangular width forallb].
  destruct Hh as (Hne & _). destruct hdr as [|c hdr]; [congruence|]. reflexivity.
Qed.
Print Assumptions C58_no_rows_raises.

(** An empty file raises (StopIteration of the header). *)
Theorem C58_empty_file_raises : forall delim, single_line_header_csv_to_dict delim [] = Err OtherError.
Proof. reflexivity. Qed.
Print Assumptions C58_empty_file_raises.

(** Rows of different lengths raise, and so do rows shorter than the header. *)
Theorem C58_ragged_raises : forall delim rs header rows r r',
  good_delim delim -> Forall (good_record delim) rs -> map (map cell_text) rs = header :: rows ->
  In r rows -> In r' rows -> length r <> length r' ->
  single_line_header_csv_to_dict delim (write_table delim rs) = Err ValueError.
Proof.
  intros delim rs header rows r r' Hd Hrs E Hr Hr' Hn. unfold single_line_header_csv_to_dict.
  rewrite csv_reader_table by assumption. cbn [bind]. rewrite E.
  destruct (rectangular rows (width rows)) eqn:Er; [|reflexivity].
  apply rectangular_spec in Er. rewrite Forall_forall in Er. pose proof (Er r Hr). pose proof (Er r' Hr'). congruence.
Qed.
Print Assumptions C58_ragged_raises.

Example C58_ex :
  let rs := [[Plain (txt "name"); Quoted (txt "a,b")]; [Plain (txt "x"); Quoted (dquote :: txt "y" ++ [ch_nl])];
             [Quoted []; Plain []]] in
  Forall (good_record ","%char) rs /\
  single_line_header_csv_to_dict ","%char (write_table ","%char rs)
  = Ok [(txt "name", [txt "x"; []]); (txt "a,b", [dquote :: txt "y" ++ [ch_nl]; []])].
Proof.
  split; [|reflexivity].
  assert (K : forall l : text, forallb (fun c => negb (is_newline c)) l = true -> one_line l).
  { intros l H. apply Forall_forall. intros c Hc. rewrite forallb_forall in H. specialize (H c Hc). destruct (is_newline c); [discriminate|reflexivity]. }
  repeat constructor; try discriminate; try (apply K; reflexivity);
    try (intros H; vm_compute in H; intuition discriminate);
    try (intros r H; vm_compute in H; discriminate).
Qed.

(* ============================== C65 =============================== *)
(** ASCII spectrum files.  to_float is any conversion from text. *)

(** ENVI plot files: after three header lines, every line of two blank-separated
    words gives one wavelength and one reflectance, in file order. *)
Theorem C65_envi_plot : forall (F : Type) (to_float : text -> result F) h1 h2 h3 body wr,
  one_line h1 -> one_line h2 -> one_line h3 -> Forall one_line body ->
  Forall2 (fun line p => exists w r, fields_line [w; r] line /\ to_float w = Ok (fst p) /\ to_float r = Ok (snd p)) body wr ->
  exists s, envi_plot_from_ascii_file to_float (lines_text (h1 :: h2 :: h3 :: body)) = Ok s /\
    as_wave s = map fst wr /\ as_data s = map snd wr /\ as_wave_units s = txt "nanometers" /\
    as_units s = txt "reflectance_0-1".
Proof.
  intros F to_float h1 h2 h3 body wr H1 H2 H3 Hb H. exists (nm_spectrum wr). split; [|repeat split].
  unfold envi_plot_from_ascii_file. rewrite file_lines_of_lines by auto. cbn [map skipn].
  rewrite (mapM_Forall2 _ _ wr); [reflexivity|].
  clear H1 H2 H3. induction H as [|line [fw fr] body wr (w & r & HF & Hw & Hr) _ IH]; [constructor|].
  inversion Hb; subst. cbn [map]. constructor; [|apply IH; assumption]. apply (envi_plot_line_ok to_float line w r); assumption.
Qed.
Print Assumptions C65_envi_plot.

(** A line with any other number of words, a blank line for example, makes the
    whole read fail. *)
Theorem C65_envi_plot_bad_line_raises : forall (F : Type) (to_float : text -> result F) h1 h2 h3 line toks rest,
  Forall one_line (h1 :: h2 :: h3 :: line :: rest) ->
  fields_line toks line -> length toks <> 2%nat ->
  envi_plot_from_ascii_file to_float (lines_text (h1 :: h2 :: h3 :: line :: rest)) = Err ValueError.
Proof.
  intros F to_float h1 h2 h3 line toks rest Hl HF Hn. unfold envi_plot_from_ascii_file.
  rewrite file_lines_of_lines by exact Hl. cbn [map skipn mapM].
  inversion Hl as [|? ? _ Hl1]; inversion Hl1 as [|? ? _ Hl2]; inversion Hl2 as [|? ? _ Hl3]; inversion Hl3; subst.
  rewrite (envi_plot_line_bad to_float line toks) by assumption. reflexivity.
Qed.
Print Assumptions C65_envi_plot_bad_line_raises.

(** SVC files: the lines after the first line that starts with "data" hold four
    words; the first is the wavelength and the last the reflectance in percent. *)
Theorem C65_svc : forall (F : Type) (to_float : text -> result F) (div100 : F -> F) pre d body wr,
  Forall one_line (pre ++ d :: body) ->
  Forall (fun l => is_prefix (txt "data") l = false) pre -> is_prefix (txt "data") d = true ->
  Forall2 (fun line p => exists w a b r, fields_line [w; a; b; r] line /\ to_float w = Ok (fst p) /\
                         exists pct, to_float r = Ok pct /\ snd p = div100 pct) body wr ->
  exists s, svc_from_sig_file to_float div100 (lines_text (pre ++ d :: body)) = Ok s /\
    as_wave s = map fst wr /\ as_data s = map snd wr /\ as_wave_units s = txt "nanometers" /\
    as_units s = txt "reflectance_0-1".
Proof.
  intros F to_float div100 pre d body wr Hl Hpre Hd H. exists (nm_spectrum wr). split; [|repeat split].
  unfold svc_from_sig_file. rewrite file_lines_of_lines by exact Hl.
  rewrite map_app. cbn [map]. rewrite svc_data_ind_found.
  - rewrite map_length.
    replace (skipn (S (length pre)) _) with (map (fun l => l ++ [ch_nl]) body).
    + rewrite (mapM_Forall2 _ _ wr); [reflexivity|].
      apply Forall_app in Hl. destruct Hl as [_ Hl]. inversion Hl as [|? ? _ Hb]; subst. clear Hl Hpre Hd.
      induction H as [|line [fw fr] body wr (w & a & b & r & HF & Hw & pct & Hr & Hp) _ IH]; [constructor|].
      inversion Hb; subst. cbn [map]. constructor; [|apply IH; assumption].
      cbn [fst snd] in *. subst fr. apply (svc_line_ok to_float div100 line w a b r); assumption.
    + symmetry. rewrite <- (map_length (fun l : text => l ++ [ch_nl]) pre). apply skipn_mid.
  - apply Forall_map. eapply Forall_impl; [|exact Hpre]. intros l Hx. cbn beta. rewrite starts_data_line. exact Hx.
  - rewrite starts_data_line. exact Hd.
Qed.
Print Assumptions C65_svc.

(** A line after it with another number of words, an empty line for example, makes the
    whole read fail. *)
Theorem C65_svc_bad_line_raises : forall (F : Type) (to_float : text -> result F) (div100 : F -> F) pre d line toks rest,
  Forall one_line (pre ++ d :: line :: rest) ->
  Forall (fun l => is_prefix (txt "data") l = false) pre -> is_prefix (txt "data") d = true ->
  fields_line toks line -> length toks <> 4%nat ->
  svc_from_sig_file to_float div100 (lines_text (pre ++ d :: line :: rest)) = Err ValueError.
Proof.
  intros F to_float div100 pre d line toks rest Hl Hpre Hd HF Hn.
  unfold svc_from_sig_file. rewrite file_lines_of_lines by exact Hl.
  rewrite map_app. cbn [map]. rewrite svc_data_ind_found.
  - rewrite map_length.
    replace (skipn (S (length pre)) _) with (map (fun l => l ++ [ch_nl]) (line :: rest)).
    + cbn [map mapM]. apply Forall_app in Hl. destruct Hl as [_ Hl]. inversion Hl as [|? ? _ Hb]; subst. inversion Hb; subst.
      rewrite (svc_line_bad to_float div100 line toks) by assumption. reflexivity.
    + symmetry. rewrite <- (map_length (fun l : text => l ++ [ch_nl]) pre). apply skipn_mid.
  - apply Forall_map. eapply Forall_impl; [|exact Hpre]. intros l Hx. cbn beta. rewrite starts_data_line. exact Hx.
  - rewrite starts_data_line. exact Hd.
Qed.
Print Assumptions C65_svc_bad_line_raises.

(** Without a "data" line the spectrum is silently empty. *)
Theorem C65_svc_no_data_line_is_empty : forall (F : Type) (to_float : text -> result F) (div100 : F -> F) ls,
  Forall one_line ls -> Forall (fun l => is_prefix (txt "data") l = false) ls ->
  exists s, svc_from_sig_file to_float div100 (lines_text ls) = Ok s /\ as_wave s = [] /\ as_data s = [].
Proof.
  intros F to_float div100 ls Hl H. exists (nm_spectrum []). split; [|split; reflexivity].
  unfold svc_from_sig_file. rewrite file_lines_of_lines by exact Hl. rewrite svc_data_ind_none.
  - rewrite skipn_all. reflexivity.
  - apply Forall_map. eapply Forall_impl; [|exact H]. intros l Hx. cbn beta. rewrite starts_data_line. exact Hx.
Qed.
Print Assumptions C65_svc_no_data_line_is_empty.

(** CSV spectra: after nheader records, the two named columns, in file order. *)
Theorem C65_csv : forall (F : Type) (to_float : text -> result F) delim nheader wi ri hdrs rows wr,
  good_delim delim -> Forall (good_record delim) (hdrs ++ rows) -> length hdrs = nheader ->
  Forall2 (fun row p => exists w r, nth_error (map cell_text row) wi = Some w /\ nth_error (map cell_text row) ri = Some r /\
                                    to_float w = Ok (fst p) /\ to_float r = Ok (snd p)) rows wr ->
  exists s, csv_from_csv_file to_float delim (Z.of_nat nheader) (Z.of_nat wi) (Z.of_nat ri)
              (write_table delim (hdrs ++ rows)) = Ok s /\
    as_wave s = map fst wr /\ as_data s = map snd wr /\ as_wave_units s = txt "nanometers" /\
    as_units s = txt "reflectance_0-1".
Proof.
  intros F to_float delim nheader wi ri hdrs rows wr Hd Hg Hn H. exists (nm_spectrum wr). split; [|repeat split].
  unfold csv_from_csv_file. rewrite csv_reader_table by assumption. cbn [bind].
  replace (zlen (map (map cell_text) (hdrs ++ rows)) <? Z.of_nat nheader)%Z with false.
  - rewrite Nat2Z.id, map_app. subst nheader.
    rewrite skipn_app, map_length, Nat.sub_diag.
    rewrite (skipn_all2 (map (map cell_text) hdrs)) by (rewrite map_length; lia). cbn [app skipn].
    rewrite (mapM_Forall2 _ _ wr); [reflexivity|]. clear Hg.
    induction H as [|row [fw fr] rows wr (w & r & H1 & H2 & H3 & H4) _ IH]; [constructor|].
    cbn [map]. constructor; [|exact IH]. unfold csv_spec_row.
    assert (G : forall i x, nth_error (map cell_text row) i = Some x -> py_get (map cell_text row) (Z.of_nat i) = Ok x).
    { intros i x Hx. rewrite (py_get_nth _ i ([] : text)) by (apply nth_error_Some; congruence).
      f_equal. apply nth_error_nth; exact Hx. }
    rewrite (G wi w H1), (G ri r H2). cbn [bind fst snd] in *. rewrite H3, H4. reflexivity.
  - symmetry. apply Z.ltb_ge. rewrite zlen_map. unfold zlen. rewrite app_length. lia.
Qed.
Print Assumptions C65_csv.

(** A file with fewer records than header records raises *)
Theorem C65_csv_too_few_headers_raises : forall (F : Type) (to_float : text -> result F) delim nheader wi ri recs content,
  csv_reader delim content = Ok recs -> (length recs < nheader)%nat ->
  csv_from_csv_file to_float delim (Z.of_nat nheader) wi ri content = Err OtherError.
Proof.
  intros F tf delim nh wi ri recs content H L. unfold csv_from_csv_file. rewrite H. cbn [bind].
  rewrite (proj2 (Z.ltb_lt _ _)); [reflexivity|]. unfold zlen. lia.
Qed.
Print Assumptions C65_csv_too_few_headers_raises.

(** USGS files: one value per line after the title line, blanks around it ignored. *)
Theorem C65_usgs_column : forall (F : Type) (to_float : text -> result F) title body vals,
  Forall one_line (title :: body) ->
  Forall2 (fun line v => to_float (strip line) = Ok v) body vals ->
  usgs_column to_float (lines_text (title :: body)) = Ok vals.
Proof.
  intros F to_float title body vals Hl H. unfold usgs_column. rewrite file_lines_of_lines by exact Hl.
  cbn [map skipn]. apply mapM_Forall2. clear Hl.
  induction H as [|line v body vals Hv _ IH]; [constructor|]. cbn [map]. constructor; [|exact IH].
  rewrite strip_line. exact Hv.
Qed.
Print Assumptions C65_usgs_column.

(** A USGS spectrum takes its wavelengths from the first .txt file, in the directory two
    levels up, that is named after wavelengths, and its band widths from the first one
    named after resolution or band pass; units, no-data value and file name are set.  For
    a file given as sub/name the directory is the root of the file system, not the
    current directory. *)
Theorem C65_usgs : forall (F : Type) (to_float : text -> result F) read entries base filename wname rname tw bw vw tr br vr td bd vd,
  two_below base filename -> Forall file_name (entries (base ++ txt "/")) ->
  first_such (txt_file_with [txt "wavelength"; txt "waves"]) wname (entries (base ++ txt "/")) ->
  first_such (txt_file_with [txt "resolution"; txt "bandpass"]) rname (entries (base ++ txt "/")) ->
  read (base ++ txt "/" ++ wname) = Ok (lines_text (tw :: bw)) -> Forall one_line (tw :: bw) ->
  Forall2 (fun line v => to_float (strip line) = Ok v) bw vw ->
  read (base ++ txt "/" ++ rname) = Ok (lines_text (tr :: br)) -> Forall one_line (tr :: br) ->
  Forall2 (fun line v => to_float (strip line) = Ok v) br vr ->
  read filename = Ok (lines_text (td :: bd)) -> Forall one_line (td :: bd) ->
  Forall2 (fun line v => to_float (strip line) = Ok v) bd vd ->
  exists s, usgs_from_ascii_file to_float read entries filename = Ok s /\
    us_wave s = vw /\ us_fwhm s = vr /\ us_data s = vd /\
    us_wave_units s = txt "microns" /\ us_units s = txt "reflectance_0-1" /\
    us_nodata s = (-123 * 10 ^ 32)%Z /\ us_fname s = filename.
Proof.
  intros F tf read entries base filename wname rname tw bw vw tr br vr td bd vd HB HE HW HR R1 L1 V1 R2 L2 V2 R3 L3 V3.
  exists (mkUsgs vw vr vd (txt "microns") (txt "reflectance_0-1") (-123 * 10 ^ 32) filename).
  split; [|repeat split]. unfold usgs_from_ascii_file.
  rewrite (usgs_dir base filename HB).
  unfold get_wavelengths_fname, get_fwhm_fname.
  rewrite (find_named_first _ _ base wname HE HW), (find_named_first _ _ base rname HE HR).
  change [ch_slash] with (txt "/"). rewrite R1. cbn [bind]. rewrite (C65_usgs_column F tf tw bw vw L1 V1). cbn [bind].
  rewrite R2. cbn [bind]. rewrite (C65_usgs_column F tf tr br vr L2 V2). cbn [bind].
  rewrite R3. cbn [bind]. rewrite (C65_usgs_column F tf td bd vd L3 V3). reflexivity.
Qed.
Print Assumptions C65_usgs.

(** Without a wavelength file, or with one but without a resolution file, the call is a
    TypeError, whatever the spectrum file holds. *)
Theorem C65_usgs_missing : forall (F : Type) (to_float : text -> result F) read entries base filename,
  two_below base filename -> Forall file_name (entries (base ++ txt "/")) ->
  (Forall (fun m => ~ txt_file_with [txt "wavelength"; txt "waves"] m) (entries (base ++ txt "/")) ->
   usgs_from_ascii_file to_float read entries filename = Err TypeError) /\
  (forall wname tw bw vw,
   first_such (txt_file_with [txt "wavelength"; txt "waves"]) wname (entries (base ++ txt "/")) ->
   read (base ++ txt "/" ++ wname) = Ok (lines_text (tw :: bw)) -> Forall one_line (tw :: bw) ->
   Forall2 (fun line v => to_float (strip line) = Ok v) bw vw ->
   Forall (fun m => ~ txt_file_with [txt "resolution"; txt "bandpass"] m) (entries (base ++ txt "/")) ->
   usgs_from_ascii_file to_float read entries filename = Err TypeError).
Proof.
  intros F tf read entries base filename HB HE. split.
  - intros HN. unfold usgs_from_ascii_file. rewrite (usgs_dir base filename HB). unfold get_wavelengths_fname.
    rewrite (find_named_none _ _ base HE HN). reflexivity.
  - intros wname tw bw vw HW R1 L1 V1 HN. unfold usgs_from_ascii_file. rewrite (usgs_dir base filename HB).
    unfold get_wavelengths_fname, get_fwhm_fname.
    rewrite (find_named_first _ _ base wname HE HW), (find_named_none _ _ base HE HN).
    change [ch_slash] with (txt "/"). rewrite R1. cbn [bind]. rewrite (C65_usgs_column F tf tw bw vw L1 V1). reflexivity.
Qed.
Print Assumptions C65_usgs_missing.

(** When the lists differ in length nothing is reported. *)
Theorem C65_usgs_lengths_not_checked :
  exists read entries fname s,
    usgs_from_ascii_file (F := text) (fun t => Ok t) read entries fname = Ok s /\
    length (us_wave s) <> length (us_data s).
Proof.
  exists (fun n => if text_eqb n (txt "b/Wavelengths.txt") then Ok (lines_text [txt "w"; txt "1"; txt "2"])
                   else Ok (lines_text [txt "r"; txt "5"])).
  exists (fun d => if text_eqb d (txt "b/") then [txt "Bandpass.txt"; txt "Wavelengths.txt"] else []), (txt "b/s/x.txt").
  eexists. split; [reflexivity|]. vm_compute. discriminate.
Qed.
Print Assumptions C65_usgs_lengths_not_checked.

Example C65_usgs_ex :
  let l := [txt ".waves.txt"; txt "S_BandPass.txt"; txt "waves.csv"; txt "All_Waves.txt"; txt "wavelengths.txt"] in
  two_below (txt "/d") (txt "/d/s/x.txt") /\ two_below [] (txt "s/x.txt") /\ Forall file_name l /\
  first_such (txt_file_with [txt "wavelength"; txt "waves"]) (txt "All_Waves.txt") l /\
  first_such (txt_file_with [txt "resolution"; txt "bandpass"]) (txt "S_BandPass.txt") l.
Proof.
  assert (FN : forall n : text, n <> [] -> forallb (fun c => negb (Ascii.eqb c "/"%char)) n = true -> file_name n).
  { intros n H1 H2. split; [exact H1|]. intros HI. rewrite forallb_forall in H2. specialize (H2 _ HI). discriminate. }
  cbv zeta. split; [|split; [|split; [|split]]].
  - exists (txt "s"), (txt "x.txt"). split; [apply FN; [discriminate|reflexivity]|]. split; [apply FN; [discriminate|reflexivity]|].
    right. split; [discriminate|]. split; [|reflexivity]. intros r E.
    assert (E2 := f_equal (@rev ascii) E). rewrite rev_app_distr in E2. cbv in E2. discriminate.
  - exists (txt "s"), (txt "x.txt"). split; [apply FN; [discriminate|reflexivity]|]. split; [apply FN; [discriminate|reflexivity]|].
    left. split; reflexivity.
  - repeat (constructor; [apply FN; [discriminate|reflexivity]|]). constructor.
  - exists [txt ".waves.txt"; txt "S_BandPass.txt"; txt "waves.csv"], [txt "wavelengths.txt"]. split; [reflexivity|]. split.
    + apply txt_file_with_b. reflexivity.
    + repeat (constructor; [rewrite <- txt_file_with_b; discriminate|]). constructor.
  - exists [txt ".waves.txt"], [txt "waves.csv"; txt "All_Waves.txt"; txt "wavelengths.txt"]. split; [reflexivity|]. split.
    + apply txt_file_with_b. reflexivity.
    + repeat (constructor; [rewrite <- txt_file_with_b; discriminate|]). constructor.
Qed.

Example C65_ex : envi_plot_from_ascii_file (F := text) (fun t => Ok t)
    (lines_text [txt "ENVI"; txt "Column 1"; txt "Column 2"; txt "  400.0    0.25"; txt "410 0.5 "]) =
    Ok (mkAscii [txt "400.0"; txt "410"] [txt "0.25"; txt "0.5"] (txt "nanometers") (txt "reflectance_0-1")) /\
  fields_line [txt "400.0"; txt "0.25"] (txt "  400.0    0.25").
Proof.
  split; [reflexivity|].
  change (txt "  400.0    0.25") with (txt "  " ++ txt "400.0" ++ txt "    0.25").
  assert (B : forall t, forallb is_space t = true -> blanks t) by (intros t H; apply Forall_forall; apply forallb_forall; exact H).
  assert (W : forall t, t <> [] -> forallb (fun c => negb (is_space c)) t = true -> word t).
  { intros t H1 H2. split; auto. apply Forall_forall. intros c Hc. rewrite forallb_forall in H2. specialize (H2 c Hc). destruct (is_space c); [discriminate|reflexivity]. }
  apply FL_cons; [apply B; reflexivity|apply W; [discriminate|reflexivity]| |right; do 2 eexists; split; [reflexivity|reflexivity]].
  change (txt "    0.25") with (txt "    " ++ txt "0.25" ++ []).
  apply FL_cons; [apply B; reflexivity|apply W; [discriminate|reflexivity]| |left; reflexivity].
  apply FL_nil. constructor.
Qed.

(* ============================== C66 =============================== *)

(** Listing a directory for one extension (given bare, with a dot or as a
    pattern) returns exactly the visible entries that end in it, each once and in
    the listed order, as base names or prefixed by the directory. *)
Theorem C66_list_one_extension : forall dir entries ext,
  Forall (fun n => ~ In ch_slash n) entries -> ~ In ch_dot ext -> ~ In "*"%char ext ->
  forall arg, arg = ext \/ arg = ch_dot :: ext \/ arg = txt "*." ++ ext ->
  exists out, get_all_files_in_dir dir entries (ExtStr arg) false = Ok out /\
    get_all_files_in_dir dir entries (ExtStr arg) true = Ok (map (fun n => dir ++ txt "/" ++ n) out) /\
    (forall n, In n out <-> In n entries /\ (exists stem, n = stem ++ ch_dot :: ext) /\ (forall r, n <> ch_dot :: r)) /\
    (NoDup entries -> NoDup out).
Proof.
  intros dir entries ext Hs Hdot Hstar arg Harg.
  assert (Hsan : sanitized_extensions (ExtStr arg) = Ok [ext]).
  { destruct (sanitize_dotted ext Hdot Hstar) as [E1 E2]. simpl.
    destruct Harg as [-> | [-> | ->]]; [rewrite sanitize_plain by assumption| rewrite E1 | change (sanitize_ext (txt "*." ++ ext)) with (sanitize_ext (txt "*." ++ ext)); rewrite E2]; reflexivity. }
  exists (filter (glob_match ext) entries).
  rewrite (all_files_names dir entries _ _ false Hs Hsan), (all_files_names dir entries _ _ true Hs Hsan).
  cbn [map concat]. rewrite app_nil_r. split; [reflexivity|]. split; [reflexivity|]. split.
  - intros n. rewrite filter_In. unfold glob_match.
    assert (Hx : text_eqb ext (txt "*") = false).
    { apply text_eqb_neq. intros ->. apply Hstar. left; reflexivity. }
    rewrite Hx, andb_true_iff, negb_true_iff, ends_with_spec. split.
    + intros (H1 & H2 & H3). split; auto. split; auto. intros r ->. simpl in H2. discriminate.
    + intros (H1 & H2 & H3). split; auto. split; auto.
      apply not_true_is_false. intros H. apply is_prefix_spec in H. destruct H as (r & H). apply (H3 r H).
  - apply NoDup_filter.
Qed.
Print Assumptions C66_list_one_extension.

(** Without an extension every visible entry with a dot in its name is listed; an argument
    that is neither None nor a string nor a list raises *)
Theorem C66_list_default : forall dir entries full,
  (Forall (fun n => ~ In ch_slash n) entries ->
   exists out, get_all_files_in_dir dir entries ExtNone false = Ok out /\
    get_all_files_in_dir dir entries ExtNone true = Ok (map (fun n => dir ++ txt "/" ++ n) out) /\
    (forall n, In n out <-> In n entries /\ In ch_dot n /\ (forall r, n <> ch_dot :: r)) /\
    (NoDup entries -> NoDup out)) /\
  get_all_files_in_dir dir entries ExtOther full = Err TypeError.
Proof.
  intros dir entries full. split; [|reflexivity]. intros Hs. exists (filter (glob_match (txt "*")) entries).
  assert (Hsan : sanitized_extensions ExtNone = Ok [txt "*"]) by reflexivity.
  rewrite (all_files_names dir entries _ _ false Hs Hsan), (all_files_names dir entries _ _ true Hs Hsan).
  cbn [map concat]. rewrite app_nil_r. split; [reflexivity|]. split; [reflexivity|]. split; [|apply NoDup_filter].
  intros n. rewrite filter_In. unfold glob_match. rewrite text_eqb_refl, andb_true_iff, negb_true_iff.
  rewrite contains_spec. assert (CS : (exists a b, n = a ++ [ch_dot] ++ b) <-> In ch_dot n).
  { split; [intros (a & b & ->); apply in_or_app; right; now left|]. intros H. destruct (in_split _ _ H) as (a & b & E). exists a, b. exact E. }
  rewrite CS. split.
  - intros (H1 & H2 & H3). split; auto. split; auto. intros r ->. simpl in H2. discriminate.
  - intros (H1 & H2 & H3). split; auto. split; auto.
    apply not_true_is_false. intros H. apply is_prefix_spec in H. destruct H as (r & H). apply (H3 r H).
Qed.
Print Assumptions C66_list_default.

(** Several extensions concatenate the listings: a name comes back once per
    requested extension, so asking for tif and .tif returns every file twice. *)
Theorem C66_overlapping_extensions_refuted :
  ~ (forall dir entries exts out, NoDup entries -> Forall (fun n => ~ In ch_slash n) entries ->
     get_all_files_in_dir dir entries (ExtList exts) false = Ok out -> NoDup out).
Proof.
  intros H. specialize (H (txt "d") [txt "a.tif"] [txt "tif"; txt ".tif"] [txt "a.tif"; txt "a.tif"]).
  assert (N : NoDup [txt "a.tif"; txt "a.tif"]).
  { apply H; [repeat constructor; intros []| |reflexivity].
    repeat constructor. intros Hi. vm_compute in Hi. intuition discriminate. }
  inversion N as [|? ? Hi _]; subst. apply Hi. left; reflexivity.
Qed.
Print Assumptions C66_overlapping_extensions_refuted.

(** An extension with an inner dot loses it: tar.gz lists the files ending in
    .targz. *)
Theorem C66_inner_dot_refuted :
  get_all_files_in_dir (txt "d") [txt "a.tar.gz"; txt "b.targz"] (ExtStr (txt "tar.gz")) false
  = Ok [txt "b.targz"].
Proof. reflexivity. Qed.
Print Assumptions C66_inner_dot_refuted.

(** The prefix filter returns exactly the listed names with one of the prefixes;
    each once per matching prefix. *)
Theorem C66_start_with : forall dir entries prefixes ext,
  Forall (fun n => ~ In ch_slash n) entries -> ~ In ch_dot ext -> ~ In "*"%char ext ->
  exists out, get_files_in_dir_that_start_with dir entries prefixes (ExtStr ext) false = Ok out /\
    (forall n, In n out <-> In n entries /\ (exists stem, n = stem ++ ch_dot :: ext) /\ (forall r, n <> ch_dot :: r) /\
                            exists p rest, In p prefixes /\ n = p ++ rest) /\
    (forall n, count_occ text_dec out n
               = (count_occ text_dec (filter (glob_match ext) entries) n
                  * length (filter (fun p => is_prefix p n) prefixes))%nat).
Proof.
  intros dir entries prefixes ext Hs Hdot Hstar.
  assert (Hsan : sanitized_extensions (ExtStr ext) = Ok [ext]).
  { simpl. rewrite sanitize_plain by assumption. reflexivity. }
  destruct (C66_list_one_extension dir entries ext Hs Hdot Hstar ext (or_introl eq_refl)) as (o & E & _ & HI & _).
  rewrite (all_files_names dir entries _ _ false Hs Hsan) in E. cbn [map concat] in E. rewrite app_nil_r in E.
  assert (E' : filter (glob_match ext) entries = o) by congruence. clear E.
  exists (concat (map (fun p => filter (starts_with p) (filter (glob_match ext) entries)) prefixes)).
  rewrite (start_with_names dir entries prefixes _ _ false Hs Hsan). cbn [map concat]. rewrite app_nil_r.
  split; [reflexivity|]. rewrite E'. split.
  - intros n. rewrite in_concat. split.
    + intros (l & Hl & Hn). apply in_map_iff in Hl. destruct Hl as (p & <- & Hp).
      apply filter_In in Hn. destruct Hn as [Hn Hpre]. apply HI in Hn.
      apply is_prefix_spec in Hpre. destruct Hpre as (r & ->). intuition. exists p, r. auto.
    + intros (H1 & H2 & H3 & p & r & Hp & ->).
      exists (filter (starts_with p) o). split; [apply in_map_iff; exists p; auto|].
      apply filter_In. split; [apply HI; auto|]. apply is_prefix_spec. exists r; reflexivity.
  - intros n. induction prefixes as [|p ps IH]; [simpl; lia|].
    cbn [map concat filter]. rewrite count_occ_app, IH.
    assert (C : count_occ text_dec (filter (starts_with p) o) n
                = if is_prefix p n then count_occ text_dec o n else O).
    { clear. induction o as [|x o IHo]; [simpl; destruct (is_prefix p n); reflexivity|].
      cbn [filter count_occ]. unfold starts_with at 1.
      destruct (text_dec x n) as [->|Hx].
      - destruct (is_prefix p n) eqn:Ep.
        + cbn [count_occ]. destruct (text_dec n n); [rewrite IHo; reflexivity|congruence].
        + rewrite IHo. reflexivity.
      - destruct (is_prefix p x).
        + cbn [count_occ]. destruct (text_dec x n); [congruence|exact IHo].
        + exact IHo. }
    rewrite C. destruct (is_prefix p n); cbn [length]; lia.
Qed.
Print Assumptions C66_start_with.

(** Joining sub-directories puts them one below the other. *)
Theorem C66_path_from_subdirs : forall base subdirs,
  base <> [] -> (forall r, base <> r ++ [ch_slash]) ->
  Forall (fun s => s <> [] /\ ~ In ch_slash s) subdirs ->
  get_path_from_subdirs base subdirs = join (txt "/") (base :: subdirs).
Proof.
  intros base subdirs Hb1 Hb2 HF. revert base Hb1 Hb2.
  induction HF as [|s subdirs (Hs1 & Hs2) HF IH]; intros base Hb1 Hb2; [reflexivity|].
  unfold get_path_from_subdirs in *. cbn [fold_left].
  rewrite path_join_rel; auto; [|intros r ->; apply Hs2; left; reflexivity].
  rewrite IH.
  - destruct subdirs as [|s2 subdirs]; [reflexivity|].
    change (join (txt "/") ((base ++ [ch_slash] ++ s) :: s2 :: subdirs)) with ((base ++ [ch_slash] ++ s) ++ txt "/" ++ join (txt "/") (s2 :: subdirs)).
    change (join (txt "/") (base :: s :: s2 :: subdirs)) with (base ++ txt "/" ++ s ++ txt "/" ++ join (txt "/") (s2 :: subdirs)).
    rewrite <- !app_assoc. reflexivity.
  - destruct base; discriminate.
  - intros r E. destruct (exists_last Hs1) as (s' & c & ->).
    rewrite !app_assoc in E. apply app_inj_tail in E. destruct E as [_ ->].
    apply Hs2. apply in_or_app. right; left; reflexivity.
Qed.
Print Assumptions C66_path_from_subdirs.

(** An empty base directory, or one that ends in a slash, gets no further slash. *)
Theorem C66_base_with_slash : forall base s rest,
  base = [] \/ (exists r, base = r ++ txt "/") -> (forall r, s <> "/"%char :: r) ->
  get_path_from_subdirs base (s :: rest) = get_path_from_subdirs (base ++ s) rest.
Proof.
  intros base s rest HB HS. unfold get_path_from_subdirs. cbn [fold_left]. f_equal. unfold path_join.
  destruct (is_prefix [ch_slash] s) eqn:E.
  { apply is_prefix_spec in E. destruct E as (r & ->). exfalso. apply (HS r). reflexivity. }
  assert (HO : text_eqb base [] || ends_with [ch_slash] base = true).
  { apply orb_true_iff. destruct HB as [ -> | HB ]; [left; reflexivity|right]. apply ends_with_spec. exact HB. }
  rewrite HO. reflexivity.
Qed.
Print Assumptions C66_base_with_slash.
Example C66_base_with_slash_met : get_path_from_subdirs (txt "/d/") [txt "x"; txt "y"] = txt "/d/x/y" /\
  get_path_from_subdirs [] [txt "x"; txt "y"] = txt "x/y".
Proof. split; reflexivity. Qed.

(** An absolute sub-directory discards everything before it. *)
Theorem C66_absolute_subdir_resets : forall base before rest after,
  get_path_from_subdirs base (before ++ (ch_slash :: rest) :: after)
  = get_path_from_subdirs (ch_slash :: rest) after.
Proof.
  intros base before rest after. unfold get_path_from_subdirs. rewrite fold_left_app. reflexivity.
Qed.
Print Assumptions C66_absolute_subdir_resets.

Example C66_ex :
  get_all_files_in_dir (txt "d") [txt "a.tif"; txt ".tif"; txt "b.TIF"; txt "c.x.tif"] (ExtStr (txt "*.tif")) true
  = Ok [txt "d/a.tif"; txt "d/c.x.tif"] /\
  get_files_in_dir_that_start_with (txt "d") [txt "abc.tif"] [txt "a"; txt "ab"] ExtNone false
  = Ok [txt "abc.tif"; txt "abc.tif"] /\
  get_path_from_subdirs (txt "/base") [txt "x"; txt "y"] = txt "/base/x/y".
Proof. repeat split. Qed.
