(** Proofs about the loaders (C85-C88). *)
From Verif Require Import M_Loaders Spec_TextFiles Spec_NavFiles Spec_Envi Spec_Loaders P_TextFiles P_NavFiles P_EnviHeader P_EnviImage P_Objects P_Cameras.
Open Scope R_scope.
Open Scope list_scope.

(* --------------------------------- RPC --------------------------------- *)

Lemma fields_line_blank b ws t : blanks b -> fields_line ws t -> fields_line ws (b ++ t).
Proof.
  intros Hb H. destruct H as [ws' H|ws' tok toks rest H1 H2 H3 H4].
  - constructor. apply Forall_app; auto.
  - rewrite app_assoc. constructor; auto. apply Forall_app; auto.
Qed.

Lemma split_ws_fields t : fields_line (split_ws t) t.
Proof.
  induction t as [|c r IH]; [constructor; constructor|]. cbn [split_ws].
  destruct (is_space c) eqn:E.
  - apply (fields_line_blank [c]); [repeat constructor; exact E|exact IH].
  - destruct r as [|d r'].
    + apply (FL_cons [] [c] [] []); try constructor; auto; try discriminate. constructor.
    + destruct (is_space d) eqn:Ed.
      * apply (FL_cons [] [c] _ (d :: r')); auto; [constructor|split; [discriminate|repeat constructor; exact E]|].
        right. exists d, r'. auto.
      * remember (d :: r') as r. destruct (split_ws r) as [|s ss] eqn:Es.
        { exfalso. inversion IH as [ws Hb|]; subst. inversion Hb; subst. congruence. }
        inversion IH as [|ws tok toks rest Hb [Hw1 Hw2] Hf Hr Eq]; subst.
        destruct ws as [|x ws].
        -- cbn [app] in *. change (c :: s ++ rest) with ([] ++ (c :: s) ++ rest).
           apply FL_cons; auto. split; [discriminate|constructor; auto].
        -- exfalso. match goal with K : _ = d :: r' |- _ => cbn in K; injection K as K1 K2 | K : d :: r' = _ |- _ => cbn in K; injection K as K1 K2 end. inversion Hb; subst. congruence.
Qed.

Lemma fields_iff ws t : fields_line ws t <-> split_ws t = ws.
Proof. split; [apply fields_line_split|intros <-; apply split_ws_fields]. Qed.

Lemma float_ok {F} (tf : text -> option F) t v : float_ tf t = Ok v <-> tf t = Some v.
Proof. unfold float_. destruct (tf t); split; intros H; try congruence; discriminate. Qed.

Lemma float_list_ok {F} (tf : text -> option F) ws vs : mapM (float_ tf) ws = Ok vs <-> Forall2 (fun w v => tf w = Some v) ws vs.
Proof.
  revert vs. induction ws as [|w ws IH]; intros vs; cbn [mapM].
  - split; [intros H; injection H as <-; constructor|inversion 1; reflexivity].
  - unfold bind. destruct (float_ tf w) as [v|e|] eqn:E.
    + apply float_ok in E. destruct (mapM (float_ tf) ws) as [vs'|e|].
      * split.
        -- intros H; injection H as <-. constructor; [exact E|]. apply IH; reflexivity.
        -- intros H. inversion H as [|? v' ? vs'' H1 H2]; subst. apply IH in H2. congruence.
      * split; [discriminate|]. intros H. inversion H as [|? v' ? vs'' H1 H2]; subst. apply IH in H2. discriminate.
      * split; [discriminate|]. intros H. inversion H as [|? v' ? vs'' H1 H2]; subst. apply IH in H2. discriminate.
    + split; [discriminate|]. intros H. inversion H as [|? v' ? vs'' H1 H2]; subst. apply float_ok in H1. congruence.
    + split; [discriminate|]. intros H. inversion H as [|? v' ? vs'' H1 H2]; subst. apply float_ok in H1. congruence.
Qed.

Lemma float_list_err {F} (tf : text -> option F) ws :
  (exists vs, mapM (float_ tf) ws = Ok vs) \/ (mapM (float_ tf) ws = Err ValueError /\ exists w, In w ws /\ tf w = None).
Proof.
  induction ws as [|w ws IH]; cbn [mapM]; [left; eexists; reflexivity|]. unfold bind. assert (Q : float_ tf w = match tf w with Some v => Ok v | None => Err ValueError end) by reflexivity.
  rewrite Q. destruct (tf w) as [v|] eqn:E.
  - destruct IH as [[vs ->]|[-> (u & Hu & Eu)]]; [left; eexists; reflexivity|right]. split; [reflexivity|].
    exists u. split; [right; exact Hu|exact Eu].
  - right. split; [reflexivity|]. exists w. split; [left; reflexivity|exact E].
Qed.

Section Rpc.
Context (tf : text -> option R).

Lemma rpc_list_ok tags n vs : rpc_list tf tags n = Ok vs <-> exists t, dict_get tags n = Ok t /\ reads_list tf t vs.
Proof.
  unfold rpc_list, str_to_numpy_arr, reads_list. unfold bind. destruct (dict_get tags n) as [t|e|] eqn:E.
  - rewrite float_list_ok. split.
    + intros H. exists t. split; [reflexivity|]. exists (split_ws t). split; [apply split_ws_fields|exact H].
    + intros (t' & H & ws & H1 & H2). injection H as <-. apply fields_iff in H1. subst ws. exact H2.
  - split; [discriminate|]. intros (t & H & _); discriminate.
  - split; [discriminate|]. intros (t & H & _); discriminate.
Qed.

Lemma rpc_number_ok tags n v : rpc_number tf tags n = Ok v <-> exists t, dict_get tags n = Ok t /\ tf t = Some v.
Proof.
  unfold rpc_number. unfold bind. destruct (dict_get tags n) as [t|e|] eqn:E.
  - rewrite float_ok. split; [intros H; exists t; auto|intros (t' & H & H2)]. injection H as <-. exact H2.
  - split; [discriminate|]. intros (t & H & _); discriminate.
  - split; [discriminate|]. intros (t & H & _); discriminate.
Qed.

Lemma dict_get_cases {V} (d : dict V) k : (exists v, dict_get d k = Ok v) \/ dict_get d k = Err KeyError.
Proof. induction d as [|[k' v] d IH]; cbn; [right; reflexivity|]. destruct (text_eqb k' k); [left; eexists; reflexivity|exact IH]. Qed.

Lemma rpc_list_cases tags n : (exists vs, rpc_list tf tags n = Ok vs) \/
  (rpc_list tf tags n = Err KeyError /\ dict_get tags n = Err KeyError) \/
  (rpc_list tf tags n = Err ValueError /\ exists t, dict_get tags n = Ok t /\ forall vs, ~ reads_list tf t vs).
Proof.
  unfold rpc_list, str_to_numpy_arr. unfold bind. destruct (dict_get_cases tags n) as [[t E]| ->]; [rewrite E|right; left; auto].
  destruct (float_list_err tf (split_ws t)) as [[vs H]|[H (w & Hw & Ew)]]; [left; exists vs; exact H|right; right].
  split; [exact H|]. exists t. split; [reflexivity|]. intros vs (ws & H1 & H2). apply fields_iff in H1. subst ws.
  apply float_list_ok in H2. congruence.
Qed.
Lemma rpc_number_cases tags n : (exists v, rpc_number tf tags n = Ok v) \/
  (rpc_number tf tags n = Err KeyError /\ dict_get tags n = Err KeyError) \/
  (rpc_number tf tags n = Err ValueError /\ exists t, dict_get tags n = Ok t /\ tf t = None).
Proof.
  unfold rpc_number, float_. unfold bind. destruct (dict_get_cases tags n) as [[t E]| ->]; [rewrite E|right; left; auto].
  destruct (tf t) as [v|] eqn:Et; [left; exists v; reflexivity|right; right]. split; [reflexivity|]. exists t. auto.
Qed.
End Rpc.

Lemma compute_p_extra a x y z : (20 <= length a)%nat -> compute_p a x y z = compute_p (firstn 20 a) x y z.
Proof.
  intros H. unfold compute_p.
  assert (E : forall k, (0 <= k < 20)%Z -> py_get (firstn 20 a) k = py_get a k).
  { intros k Hk. replace k with (Z.of_nat (Z.to_nat k)) by lia. rewrite !py_get_nat.
    assert (G : forall (l : list R) m j, (j < m)%nat -> nth_error (firstn m l) j = nth_error l j).
    { clear. intros l m. revert l. induction m as [|m IH]; intros l j Hj; [lia|]. destruct l as [|x l]; [destruct j; reflexivity|].
      destruct j; [reflexivity|]. cbn. apply IH. lia. }
    rewrite G by lia. reflexivity. }
  rewrite !E by lia. reflexivity.
Qed.

(* -------------------------------- ENVI --------------------------------- *)

Lemma bil_metadata {A F} (pf : text -> option F) (z : A) nf w c d img hdr code :
  numpy_dtype_to_envi_dtype nf d = Ok (Some code) ->
  exists n h, forall fuel, (n <= fuel)%nat ->
    envi_metadata_from_header pf fuel (fst (write_envi_image z nf w c d img hdr (txt "bil")))
      (Some (match hdr with Some h => h | None => img ++ txt ".hdr" end)) =
    Ok (HInt (Z.of_nat (c_nx c)), HInt (Z.of_nat (c_ny c)), HInt (Z.of_nat (c_nb c)), h).
Proof.
  intros Hd. rewrite (write_ok _ _ _ _ _ _ _ _ _ Hd). cbn [fst].
  set (h := match hdr with Some h => h | None => img ++ txt ".hdr" end).
  set (ht := write_envi_header _).
  exists (length ht). eexists. intros fuel Hf. unfold envi_metadata_from_header. rewrite fs_write_same.
  assert (Hr : read_envi_header F pf fuel ht =
     Ok (combine (map entry_key (bil_entries c code))
        [HInt (Z.of_nat (c_nx c)); HInt (Z.of_nat (c_ny c)); HInt (Z.of_nat (c_nb c)); HInt code; HStr (txt "bil")])).
  { apply (header_round_trip pf (bil_entries c code)); auto.
    - apply bil_entries_clean.
    - apply bil_entries_nodup.
    - apply bil_entries_read. }
  rewrite Hr. unfold bil_entries. cbn [map entry_key combine]. unfold bind at 1 2 3 4.
  repeat (rewrite ?text_eqb_refl; cbn [dict_get];
    match goal with |- context [text_eqb (txt ?a) (txt ?b)] =>
      first [ change (text_eqb (txt a) (txt b)) with true | change (text_eqb (txt a) (txt b)) with false ]
    | _ => idtac end; cbn [dict_get]).
  reflexivity.
Qed.

(* -------------------------------- Pix4D -------------------------------- *)

Lemma ends_with_spec suf s : ends_with suf s = true <-> exists a, s = a ++ suf.
Proof.
  unfold ends_with, starts_with. rewrite is_prefix_spec. split; intros (r & H).
  - exists (rev r). apply (f_equal (@rev _)) in H. rewrite rev_involutive, rev_app_distr, rev_involutive in H. exact H.
  - exists (rev r). rewrite H, rev_app_distr. reflexivity.
Qed.

Lemma only_found listing suf name : only_with_ending listing suf name -> default_name listing suf None = Ok name.
Proof.
  intros (Hi & (a & ->) & Hu). unfold default_name.
  assert (F : forall x, In x (filter (ends_with suf) listing) -> x = a ++ suf).
  { intros x Hx. apply filter_In in Hx as [Hx He]. apply ends_with_spec in He as (b & ->). apply Hu; exact Hx. }
  destruct (filter (ends_with suf) listing) as [|x l] eqn:E.
  - exfalso. assert (K : In (a ++ suf) (filter (ends_with suf) listing)) by (apply filter_In; split; [exact Hi|apply ends_with_spec; eauto]).
    rewrite E in K. destruct K.
  - cbn. rewrite (F x) by (left; reflexivity). reflexivity.
Qed.

Lemma none_found listing suf : (forall a, ~ In (a ++ suf) listing) -> default_name listing suf None = Err IndexError.
Proof.
  intros H. unfold default_name.
  destruct (filter (ends_with suf) listing) as [|x l] eqn:E; [reflexivity|].
  exfalso. assert (K : In x (filter (ends_with suf) listing)) by (rewrite E; left; reflexivity).
  apply filter_In in K as [K1 K2]. apply ends_with_spec in K2 as (b & ->). apply (H b K1).
Qed.

Lemma no_space_no_newline w : Forall (fun c => is_space c = false) w -> one_line w.
Proof.
  apply Forall_impl. intros c H. unfold is_newline. destruct (Ascii.eqb_spec c ch_nl) as [->|]; [discriminate H|].
  destruct (Ascii.eqb_spec c ch_cr) as [->|]; [discriminate H|reflexivity].
Qed.

Lemma words_stripped ws : ws <> [] -> Forall word ws -> strip (join (txt " ") ws ++ [ch_nl]) = join (txt " ") ws.
Proof.
  intros Hne HF. apply (strip_pad [] (join (txt " ") ws) [ch_nl]); [constructor|repeat constructor|].
  assert (H1 : match join (txt " ") ws with c :: _ => is_space c = false | [] => True end).
  { destruct ws as [|w ws]; [congruence|]. inversion HF as [|? ? [Hw Hs] _]; subst. destruct w as [|c w]; [congruence|].
    inversion Hs; subst. destruct ws; cbn; assumption. }
  assert (H2 : match rev (join (txt " ") ws) with c :: _ => is_space c = false | [] => True end).
  { clear Hne H1. induction HF as [|w ws [Hw Hs] HF IH]; [exact I|]. destruct ws as [|w2 ws].
    - cbn [join]. destruct (rev w) as [|c r] eqn:E; [exact I|]. rewrite Forall_forall in Hs. apply Hs. apply in_rev. rewrite E. left; reflexivity.
    - change (join (txt " ") (w :: w2 :: ws)) with (w ++ txt " " ++ join (txt " ") (w2 :: ws)). rewrite !rev_app_distr.
      assert (N : rev (join (txt " ") (w2 :: ws)) <> []).
      { intros E. apply (f_equal (@length _)) in E. rewrite rev_length in E. inversion HF as [|? ? [Hw2 _] _]; subst.
        destruct w2; [congruence|]. destruct ws; cbn in E; rewrite ?app_length in E; cbn in E; lia. }
      destruct (rev (join (txt " ") (w2 :: ws))) as [|c r]; [congruence|]. exact IH. }
  unfold stripped, strip. rewrite lstrip_id by exact H1. unfold rstrip. rewrite lstrip_id by exact H2. apply rev_involutive.
Qed.

Lemma p_line_ok {F} (tf : text -> option F) d name fields vals : Forall word (name :: fields) ->
  Forall2 (fun w v => tf w = Some v) fields vals ->
  p_matrix_line tf d (join (txt " ") (name :: fields) ++ [ch_nl]) = Ok (dict_set d name vals).
Proof.
  intros HF H. unfold p_matrix_line. rewrite words_stripped by (auto; discriminate).
  assert (O : one_line (join (txt " ") (name :: fields))).
  { apply join_one_line; [apply blank_one_line|]. eapply Forall_impl; [|exact HF]. intros w [_ Hw]. apply no_space_no_newline; exact Hw. }
  rewrite remove_newlines_id by exact O.
  change (txt " ") with [" "%char]. rewrite split_join.
  - apply float_list_ok in H. rewrite H. reflexivity.
  - discriminate.
  - eapply Forall_impl; [|exact HF]. intros w [_ Hw] Hi. rewrite Forall_forall in Hw. specialize (Hw _ Hi). discriminate Hw.
Qed.

(* ----------------------------- navigation ------------------------------ *)

Lemma snake_store (data : list (text * list R)) d :
  fold_left (fun d nc => dict_set d (convert_to_snake_case (fst nc)) (snd nc)) data d =
  store_all (map (fun nc => (convert_to_snake_case (fst nc), snd nc)) data) d.
Proof. revert d. induction data as [|nc data IH]; intros d; [reflexivity|]. cbn. apply IH. Qed.
