(** Proofs for the parameter file readers (C45, C59) *)
From Coq Require Import Lia.
From Verif Require Import Text2 M_Envi M_TextFiles M_NavFiles Spec_TextFiles Spec_NavFiles P_TextFiles.
Open Scope list_scope.

Lemma clean_lines_of_lines ls : Forall one_line ls -> clean_lines (lines_text ls) = ls.
Proof. intros H. unfold clean_lines. rewrite file_lines_of_lines by exact H. apply map_remove_lines; exact H. Qed.

Definition store_all {V} (kvs : list (text * V)) (d : dict V) : dict V :=
  fold_left (fun d kv => dict_set d (fst kv) (snd kv)) kvs d.

Lemma store_all_agrees {V} (kvs : list (text * V)) : dict_agrees (store_all kvs []) kvs.
Proof.
  intros k. unfold store_all. rewrite store_all_get. unfold last_store.
  destruct (find _ _); reflexivity.
Qed.

Lemma store_all_app {V} (a b : list (text * V)) d : store_all (a ++ b) d = store_all b (store_all a d).
Proof. apply fold_left_app. Qed.

Lemma store_all_nodup {V} (kvs : list (text * V)) : NoDup (map fst kvs) -> store_all kvs [] = kvs.
Proof. intros H. apply (store_all_distinct kvs []). exact H. Qed.

Lemma join_one_line sep ls : one_line sep -> Forall one_line ls -> one_line (join sep ls).
Proof.
  intros Hs H. apply Forall_forall. intros c Hc. apply in_join in Hc. destruct Hc as [Hc|(x & Hx & Hc)].
  - unfold one_line in Hs. rewrite Forall_forall in Hs. auto.
  - rewrite Forall_forall in H. specialize (H x Hx). unfold one_line in H. rewrite Forall_forall in H. auto.
Qed.

Lemma blank_one_line : one_line (txt " ").
Proof. repeat constructor. Qed.

Section Files.
  Context {F : Type} (to_float : text -> option F).

  Lemma mapM_float ts vs : map to_float ts = map Some vs -> mapM (float_ to_float) ts = Ok vs.
  Proof.
    revert vs; induction ts as [|t ts IH]; intros [|v vs] H; simpl in H; try discriminate; [reflexivity|].
    injection H as H1 H2. cbn [mapM]. unfold float_ at 1. rewrite H1. cbn [bind]. rewrite (IH vs H2). reflexivity.
  Qed.

  Lemma foldM_stores {A V} (f : dict V -> A -> result (dict V)) (g : A -> list (text * V)) l :
    (forall d x, In x l -> f d x = Ok (store_all (g x) d)) ->
    forall d, foldM f l d = Ok (store_all (flat_map g l) d).
  Proof.
    induction l as [|x l IH]; intros H d; [reflexivity|].
    cbn [foldM flat_map]. rewrite (H d x (or_introl eq_refl)). cbn [bind].
    rewrite IH by (intros d' y Hy; apply H; right; exact Hy). rewrite store_all_app. reflexivity.
  Qed.

  (* ------------------------- external ---------------------------- *)
  Lemma external_line_ok d name nums vals : Forall no_blank (name :: nums) -> length nums = 6%nat ->
    map to_float nums = map Some vals ->
    external_line to_float d (join (txt " ") (name :: nums)) = Ok (dict_set d name vals).
  Proof.
    intros HF Hl Hv. unfold external_line.
    change (txt " ") with [" "%char]. rewrite split_join;
      [|discriminate|eapply Forall_impl; [|exact HF]; intros t [_ Ht]; exact Ht].
    destruct nums as [|x [|y [|z [|o [|p [|k [|? ?]]]]]]]; simpl in Hl; try lia.
    rewrite (mapM_float _ vals Hv). reflexivity.
  Qed.

  Lemma external_line_bad d fields : Forall no_blank fields -> fields <> [] -> length fields <> 7%nat ->
    external_line to_float d (join (txt " ") fields) = Err ValueError.
  Proof.
    intros HF Hne Hl. unfold external_line.
    change (txt " ") with [" "%char]. rewrite split_join;
      [|exact Hne|eapply Forall_impl; [|exact HF]; intros t [_ Ht]; exact Ht].
    destruct fields as [|a [|b [|c [|d' [|e [|f [|g [|? ?]]]]]]]]; simpl in Hl; try reflexivity; lia.
  Qed.

  Lemma fields_one_line fields : Forall no_blank fields -> one_line (join (txt " ") fields).
  Proof.
    intros H. apply join_one_line; [apply blank_one_line|]. eapply Forall_impl; [|exact H]. intros t [Ht _]; exact Ht.
  Qed.

  (* -------------------------- blocks of 10 ------------------------ *)
  Lemma blocks10_concat blocks tail : Forall (fun b : list text => length b = 10%nat) blocks -> (length tail < 10)%nat ->
    blocks10 (concat blocks ++ tail) = blocks ++ (match tail with [] => [] | _ => [tail] end).
  Proof.
    intros H Ht.
    assert (L : length (concat blocks) = (10 * length blocks)%nat).
    { clear Ht. induction H as [|b bs Hb _ IH]; [reflexivity|]. cbn [concat]. rewrite app_length, Hb, IH. cbn [length]. lia. }
    unfold blocks10. rewrite app_length, L.
    assert (N : ((10 * length blocks + length tail + 9) / 10)%nat
                = (length blocks + match tail with [] => 0 | _ => 1 end)%nat).
    { destruct tail as [|x tail].
      - cbn [length]. symmetry. apply (Nat.div_unique _ 10 _ 9); lia.
      - cbn [length] in *. symmetry. apply (Nat.div_unique _ 10 _ (length tail)); lia. }
    rewrite N, seq_app, map_app. cbn [Nat.add]. f_equal.
    - clear L N. revert tail Ht. induction H as [|b bs Hb HF IH]; intros tail Ht; [reflexivity|].
      cbn [length seq map concat]. rewrite <- app_assoc. f_equal.
      + rewrite Nat.mul_0_r. cbn [skipn]. rewrite firstn_app, Hb, Nat.sub_diag, firstn_all2 by lia. cbn [firstn]. apply app_nil_r.
      + rewrite <- seq_shift, map_map. rewrite <- (IH tail Ht) at 2. apply map_ext. intros k.
        f_equal. replace (10 * S k)%nat with (10 * k + 10)%nat by lia.
        rewrite <- (skipn_skipn (10 * k) 10). f_equal. rewrite skipn_app, Hb, Nat.sub_diag, skipn_all2 by lia. reflexivity.
    - destruct tail as [|x tail]; [reflexivity|]. cbn [seq map]. f_equal.
      rewrite <- L, skipn_app, skipn_all, Nat.sub_diag. cbn [skipn app]. apply firstn_all2. cbn [length] in *. lia.
  Qed.

  Lemma float_row_ok line vals : row_values to_float line vals -> float_row to_float line = Ok vals.
  Proof.
    intros (toks & HF & Hv). unfold float_row. rewrite (fields_line_split _ _ HF). apply mapM_float; exact Hv.
  Qed.

  Lemma calib_block_ok d b nc : calib_lines to_float b nc -> calib_block to_float d b = Ok (dict_set d (fst nc) (snd nc)).
  Proof.
    destruct nc as [name c]. cbn [fst snd].
    intros (w & h & k1 & k2 & k3 & rad & tan & t & r1 & r2 & r3 & vk1 & vk2 & vk3 & vt & vr1 & vr2 & vr3 & -> &
      Hn & Hw & Hh & _ & Iw & Ih & Hk1 & Hk2 & Hk3 & Ek & Hrad & Htan & Ht & Et & Hr1 & Hr2 & Hr3 & Er).
    cbn [fst snd] in *.
    set (first := join (txt " ") [name; w; h]).
    assert (Hs : split_char " "%char first = [name; w; h]).
    { unfold first. change (txt " ") with [" "%char]. apply split_join; [discriminate|].
      repeat constructor; [apply Hn|apply Hw|apply Hh]. }
    unfold calib_block. change (py_get [first; k1; k2; k3; rad; tan; t; r1; r2; r3] 0) with (Ok first).
    cbn [bind]. rewrite Hs.
    change (py_slice [first; k1; k2; k3; rad; tan; t; r1; r2; r3] 1 4) with [k1; k2; k3].
    change (py_slice [first; k1; k2; k3; rad; tan; t; r1; r2; r3] 4 5) with [rad].
    change (py_slice [first; k1; k2; k3; rad; tan; t; r1; r2; r3] 5 6) with [tan].
    change (py_slice [first; k1; k2; k3; rad; tan; t; r1; r2; r3] 6 7) with [t].
    change (py_slice [first; k1; k2; k3; rad; tan; t; r1; r2; r3] 7 10) with [r1; r2; r3].
    unfold float_rows. cbn [mapM].
    rewrite (float_row_ok _ _ Hk1), (float_row_ok _ _ Hk2), (float_row_ok _ _ Hk3), (float_row_ok _ _ Hrad),
      (float_row_ok _ _ Htan), (float_row_ok _ _ Ht), (float_row_ok _ _ Hr1), (float_row_ok _ _ Hr2), (float_row_ok _ _ Hr3).
    cbn [bind]. rewrite Iw, Ih. cbn [bind concat]. rewrite !app_nil_r. destruct c as [x1 x2 x3 x4 x5 x6 x7]; cbn [cb_nx cb_ny cb_k cb_radial cb_tangential cb_t cb_r] in *.
    subst. reflexivity.
  Qed.

  Lemma calib_foldM blocks cals : Forall2 (calib_lines to_float) blocks cals -> forall d,
    foldM (calib_block to_float) blocks d = Ok (store_all cals d).
  Proof.
    induction 1 as [|b nc bs cals Hb _ IH]; intros d; [reflexivity|].
    cbn [foldM]. rewrite (calib_block_ok d b nc Hb). cbn [bind]. rewrite IH. reflexivity.
  Qed.

  Lemma calib_lines_len b nc : calib_lines to_float b nc -> length b = 10%nat /\ Forall one_line b.
  Proof.
    intros (w & h & k1 & k2 & k3 & rad & tan & t & r1 & r2 & r3 & vk1 & vk2 & vk3 & vt & vr1 & vr2 & vr3 & E & H).
    split; [subst b; reflexivity|]. apply H.
  Qed.

  (* ------------------------- internal ----------------------------- *)
  Fixpoint starts_from (search : text) (off : nat) (lines : list text) : list nat :=
    match lines with
    | [] => []
    | l :: r => if contains search l then off :: starts_from search (S off) r else starts_from search (S off) r
    end.
  Lemma start_locations_from search lines : start_locations search lines = starts_from search 0 lines.
  Proof.
    unfold start_locations. generalize 0%nat as off. induction lines as [|l r IH]; intros off; [reflexivity|].
    cbn [length seq combine filter snd starts_from]. destruct (contains search l); cbn [map fst]; rewrite IH; reflexivity.
  Qed.
  Lemma starts_from_app search a : forall off b,
    starts_from search off (a ++ b) = starts_from search off a ++ starts_from search (off + length a) b.
  Proof.
    induction a as [|l a IH]; intros off b; cbn [app starts_from length].
    - rewrite Nat.add_0_r. reflexivity.
    - rewrite IH. replace (S off + length a)%nat with (off + S (length a))%nat by lia.
      destruct (contains search l); reflexivity.
  Qed.
  Lemma starts_from_none search a : forall off, Forall (fun l => contains search l = false) a -> starts_from search off a = [].
  Proof.
    induction a as [|l a IH]; intros off H; [reflexivity|]. inversion H as [|? ? Hl Ha]; subst.
    cbn [starts_from]. rewrite Hl. apply IH; exact Ha.
  Qed.

  Definition flat (blocks : list (text * list text)) : list text := concat (map (fun b => fst b :: snd b) blocks).

  Lemma flat_cons h body bs : flat ((h, body) :: bs) = (h :: body) ++ flat bs.
  Proof. reflexivity. Qed.

  Lemma starts_flat search h body bs off :
    contains search h = true -> Forall (fun l => contains search l = false) body ->
    starts_from search off (flat ((h, body) :: bs)) = off :: starts_from search (off + S (length body)) (flat bs).
  Proof.
    intros Hh Hb. rewrite flat_cons, starts_from_app. cbn [starts_from length].
    rewrite Hh, starts_from_none by exact Hb. reflexivity.
  Qed.

  Lemma py_slice_nat_range {A} (l : list A) a b : (a <= length l)%nat -> (b <= length l)%nat ->
    py_slice l (Z.of_nat a) (Z.of_nat b) = firstn (b - a) (skipn a l).
  Proof.
    intros Ha Hb. unfold py_slice, slice_bound, zlen.
    replace (Z.of_nat a <? 0)%Z with false by (symmetry; apply Z.ltb_ge; lia).
    replace (Z.of_nat b <? 0)%Z with false by (symmetry; apply Z.ltb_ge; lia).
    rewrite !Z.min_l by lia. f_equal; [lia|]. f_equal. lia.
  Qed.

  Lemma slice_body P h body rest :
    py_slice (P ++ (h :: body) ++ rest) (Z.of_nat (length P) + 1) (Z.of_nat (length P + S (length body))) = body :> list text.
  Proof.
    replace (Z.of_nat (length P) + 1)%Z with (Z.of_nat (length P + 1)) by lia.
    rewrite py_slice_nat_range by (rewrite !app_length; cbn [length]; lia).
    change ((h :: body) ++ rest) with ([h] ++ (body ++ rest)). rewrite app_assoc.
    replace (length P + 1)%nat with (length (P ++ [h])) by (rewrite app_length; reflexivity).
    rewrite skipn_app, skipn_all, Nat.sub_diag. cbn [skipn app].
    replace (length P + S (length body) - length (P ++ [h]))%nat with (length body) by (rewrite app_length; cbn [length]; lia).
    rewrite firstn_app, firstn_all, Nat.sub_diag. cbn [firstn]. apply app_nil_r.
  Qed.

  Lemma slice_last P h body :
    py_slice (P ++ (h :: body)) (Z.of_nat (length P) + 1) (Z.of_nat (length (P ++ (h :: body)) - 1)) = removelast body :> list text.
  Proof.
    replace (Z.of_nat (length P) + 1)%Z with (Z.of_nat (length P + 1)) by lia.
    rewrite py_slice_nat_range by (rewrite !app_length; cbn [length]; lia).
    change (h :: body) with ([h] ++ body). rewrite app_assoc.
    replace (length P + 1)%nat with (length (P ++ [h])) by (rewrite app_length; reflexivity).
    rewrite skipn_app, skipn_all, Nat.sub_diag. cbn [skipn app].
    rewrite removelast_firstn_len. f_equal. rewrite !app_length. cbn [length]. lia.
  Qed.

  (** the body that is actually read: the last block loses its last line *)
  Fixpoint read_bodies (blocks : list (text * list text)) : list (list text) :=
    match blocks with
    | [] => []
    | [(_, body)] => [removelast body]
    | (_, body) :: r => body :: read_bodies r
    end.

  Definition block_of (body : list text) : result (dict F) :=
    foldM (internal_line to_float) (filter (fun a => negb (text_eqb a [])) body) [].

  Lemma internal_pairs search blocks : forall P lines, lines = P ++ flat blocks -> blocks <> [] ->
    Forall (fun b => contains search (fst b) = true /\ Forall (fun l => contains search l = false) (snd b)) blocks ->
    mapM (fun se => internal_block to_float lines (fst se) (snd se))
      (combine (starts_from search (length P) (flat blocks)) (tl (starts_from search (length P) (flat blocks)) ++ [(length lines - 1)%nat]))
    = mapM block_of (read_bodies blocks).
  Proof.
    induction blocks as [|[h body] bs IH]; intros P lines E Hne HF; [congruence|].
    inversion HF as [|? ? [Hh Hb] HF']; subst. cbn [fst snd] in Hh, Hb.
    rewrite starts_flat by assumption. cbn [tl].
    destruct bs as [|[h2 body2] bs].
    - cbn [flat map concat starts_from app combine mapM fst snd read_bodies].
      unfold internal_block at 1. rewrite !app_nil_r. rewrite slice_last. fold (block_of (removelast body)). reflexivity.
    - inversion HF' as [|? ? [Hh2 Hb2] _]; subst. cbn [fst snd] in Hh2, Hb2.
      change (read_bodies ((h, body) :: (h2, body2) :: bs)) with (body :: read_bodies ((h2, body2) :: bs)).
      specialize (IH (P ++ h :: body) (P ++ flat ((h, body) :: (h2, body2) :: bs))).
      rewrite flat_cons in IH at 1. rewrite <- app_assoc in IH. specialize (IH eq_refl ltac:(discriminate) HF').
      replace (length (P ++ h :: body)) with (length P + S (length body))%nat in IH by (rewrite app_length; reflexivity).
      rewrite starts_flat in IH |- * by assumption. cbn [tl] in IH.
      cbn [app combine mapM fst snd].
      unfold internal_block at 1. rewrite (flat_cons h body). rewrite slice_body. fold (block_of body).
      cbn [mapM]. rewrite <- (flat_cons h body). rewrite <- IH. reflexivity.
  Qed.

  Lemma internal_exact search pre blocks : Forall one_line (pre ++ flat blocks) -> blocks <> [] ->
    Forall (fun l => contains search l = false) pre ->
    Forall (fun b => contains search (fst b) = true /\ Forall (fun l => contains search l = false) (snd b)) blocks ->
    read_pix4d_calibrated_internal_camera_parameters to_float search (lines_text (pre ++ flat blocks))
    = mapM block_of (read_bodies blocks).
  Proof.
    intros Hl Hne Hpre HF. unfold read_pix4d_calibrated_internal_camera_parameters.
    rewrite clean_lines_of_lines by exact Hl. rewrite start_locations_from, starts_from_app, starts_from_none by exact Hpre.
    cbn [app]. rewrite Nat.add_0_l.
    destruct (pre ++ flat blocks) as [|x xs] eqn:E.
    - destruct blocks as [|[h b] bs]; [congruence|]. destruct pre; discriminate.
    - rewrite <- E. apply internal_pairs; auto.
  Qed.

  (* the lines of a block *)
  Lemma replace_mm a : ~ In "m"%char a -> str_replace (txt "mm") [] (a ++ txt "mm") = a.
  Proof.
    unfold str_replace. induction a as [|c a IH]; intros H; [reflexivity|].
    cbn [app replace_from]. change (txt "mm") with ["m"%char; "m"%char] at 1. cbn [is_prefix].
    destruct (Ascii.eqb_spec "m"%char c) as [<-|Hc]; [exfalso; apply H; left; reflexivity|].
    cbn [andb]. f_equal. apply IH. intros Hi; apply H; right; exact Hi.
  Qed.

  Lemma contains_app_l p a b : contains p a = true -> contains p (a ++ b) = true.
  Proof.
    rewrite !contains_spec. intros (x & y & ->). exists x, (y ++ b). rewrite <- !app_assoc. reflexivity.
  Qed.
  Lemma contains_cons p c a : contains p a = true -> contains p (c :: a) = true.
  Proof. rewrite !contains_spec. intros (x & y & ->). exists (c :: x), y. reflexivity. Qed.

  Lemma internal_line_ok d p : good_pline to_float p -> pline_text p <> [] ->
    internal_line to_float d (pline_text p) = Ok (store_all (stores to_float p) d).
  Proof.
    destruct p as [k v|t|t w h|]; cbn [good_pline pline_text stores]; intros H Hne.
    - destruct H as ((Hk1 & Hk2) & (Hv1 & Hv2) & Hk & f & Hf). unfold internal_line.
      assert (E : starts_with (txt "#") (k ++ " "%char :: v) = false).
      { unfold starts_with. destruct k as [|c k]; [reflexivity|]. change (txt "#") with ["#"%char]. cbn [app is_prefix].
        destruct (Ascii.eqb_spec "#"%char c) as [<-|]; [exfalso; apply (Hk k); reflexivity|reflexivity]. }
      rewrite E. rewrite split_char_app, split_char_notin by assumption. unfold float_. rewrite Hf. reflexivity.
    - destruct H as (_ & Hc). unfold internal_line.
      change (starts_with (txt "#") ("#"%char :: t)) with true. cbv iota. rewrite Hc. reflexivity.
    - destruct H as (_ & (Hw1 & Hw2) & (Hh1 & Hh2) & (Xw & Mw) & (Xh & Mh) & Hc & (fw & Hfw) & fh & Hfh).
      unfold internal_line.
      set (line := "#"%char :: t ++ " "%char :: w ++ "x"%char :: h ++ txt "mm").
      change (starts_with (txt "#") line) with true. cbv iota.
      assert (E : contains (txt "Focal Length mm") line = true).
      { unfold line. apply contains_cons, contains_app_l. exact Hc. }
      rewrite E.
      assert (R : rfind " "%char line = Z.of_nat (length ("#"%char :: t))).
      { unfold line. change ("#"%char :: t ++ " "%char :: w ++ "x"%char :: h ++ txt "mm")
          with (("#"%char :: t) ++ " "%char :: w ++ "x"%char :: h ++ txt "mm").
        apply rfind_last. intros Hi. apply in_app_or in Hi. destruct Hi as [Hi|[Hi|Hi]]; [contradiction|discriminate|].
        apply in_app_or in Hi. destruct Hi as [Hi|Hi]; [contradiction|]. vm_compute in Hi. intuition discriminate. }
      assert (S : py_slice_from line (rfind " "%char line + 1) = w ++ "x"%char :: h ++ txt "mm").
      { rewrite R. unfold py_slice_from.
        replace (Z.of_nat (length ("#"%char :: t)) + 1)%Z with (Z.of_nat (length ("#"%char :: t ++ [" "%char])))
          by (cbn [length]; rewrite app_length; cbn [length]; lia).
        unfold zlen. unfold line. change (t ++ " "%char :: w ++ "x"%char :: h ++ txt "mm") with (t ++ [" "%char] ++ w ++ "x"%char :: h ++ txt "mm").
        rewrite app_assoc. rewrite app_comm_cons.
        rewrite py_slice_nat_range by (rewrite ?app_length; lia).
        rewrite skipn_app, skipn_all, Nat.sub_diag. cbn [skipn app]. apply firstn_all2.
        repeat (rewrite ?app_length; cbn [length]). lia. }
      rewrite S.
      replace (w ++ "x"%char :: h ++ txt "mm") with ((w ++ "x"%char :: h) ++ txt "mm") by (rewrite <- app_assoc; reflexivity).
      rewrite replace_mm.
      + rewrite split_char_app, split_char_notin by assumption. unfold float_. rewrite Hfw, Hfh. reflexivity.
      + intros Hi. apply in_app_or in Hi. destruct Hi as [Hi|[Hi|Hi]]; [contradiction|discriminate|contradiction].
    - congruence.
  Qed.

  Lemma block_of_plines ps : Forall (good_pline to_float) ps ->
    block_of (map pline_text ps) = Ok (store_all (flat_map (stores to_float) ps) []).
  Proof.
    unfold block_of. generalize (@nil (text * F)) as d.
    intros d H. revert d. induction H as [|p ps Hp _ IH]; intros d; [reflexivity|].
    cbn [map filter flat_map]. destruct (text_eqb (pline_text p) []) eqn:E.
    - apply text_eqb_spec in E. destruct p as [k v|t|t w h|]; cbn [pline_text] in E; try discriminate.
      + destruct k; discriminate.
      + cbn [negb stores app]. apply IH.
    - cbn [negb foldM]. rewrite (internal_line_ok d p Hp).
      + cbn [bind]. rewrite IH, store_all_app. reflexivity.
      + intros E2. rewrite E2 in E. discriminate.
  Qed.

  Lemma removelast_map {A B} (f : A -> B) l : removelast (map f l) = map f (removelast l).
  Proof.
    induction l as [|a l IH]; [reflexivity|]. destruct l as [|b l]; [reflexivity|].
    cbn [map]. cbn [map] in IH. change (removelast (f a :: f b :: map f l)) with (f a :: removelast (f b :: map f l)).
    rewrite IH. reflexivity.
  Qed.

  Fixpoint read_plines (blocks : list (text * list pline)) : list (list pline) :=
    match blocks with
    | [] => []
    | [(_, body)] => [removelast body]
    | (_, body) :: r => body :: read_plines r
    end.
  Lemma read_bodies_plines blocks :
    read_bodies (map (fun b => (fst b, map pline_text (snd b))) blocks) = map (map pline_text) (read_plines blocks).
  Proof.
    induction blocks as [|[h b] bs IH]; [reflexivity|]. destruct bs as [|[h2 b2] bs].
    - cbn [map fst snd read_bodies read_plines]. rewrite removelast_map. reflexivity.
    - cbn [map fst snd] in *. 
      change (read_plines ((h, b) :: (h2, b2) :: bs)) with (b :: read_plines ((h2, b2) :: bs)).
      cbn [map]. rewrite <- IH. reflexivity.
  Qed.
  Lemma read_plines_good blocks : Forall (fun b => Forall (good_pline to_float) (snd b)) blocks ->
    Forall (Forall (good_pline to_float)) (read_plines blocks).
  Proof.
    induction blocks as [|[h b] bs IH]; intros H; [constructor|]. inversion H as [|? ? Hb Hbs]; subst. cbn [snd] in Hb.
    destruct bs as [|[h2 b2] bs].
    - cbn [read_plines]. constructor; [|constructor].
      destruct b as [|p b]; [constructor|]. assert (N : p :: b <> []) by discriminate.
      apply (app_removelast_last p) in N. rewrite N in Hb. apply Forall_app in Hb. tauto.
    - change (read_plines ((h, b) :: (h2, b2) :: bs)) with (b :: read_plines ((h2, b2) :: bs)). constructor; auto.
  Qed.
  Lemma read_plines_nth blocks i h body : nth_error blocks i = Some (h, body) ->
    nth_error (read_plines blocks) i = Some (if Nat.eqb (S i) (length blocks) then removelast body else body).
  Proof.
    revert i; induction blocks as [|[h' b] bs IH]; intros i H; [destruct i; discriminate|].
    destruct bs as [|[h2 b2] bs].
    - destruct i as [|[|i]]; cbn in H; try discriminate. injection H as -> ->. reflexivity.
    - change (read_plines ((h', b) :: (h2, b2) :: bs)) with (b :: read_plines ((h2, b2) :: bs)).
      destruct i as [|i].
      + cbn in H. injection H as -> ->. reflexivity.
      + cbn [nth_error] in *. rewrite (IH i H). reflexivity.
  Qed.
  Lemma read_plines_length blocks : length (read_plines blocks) = length blocks.
  Proof.
    induction blocks as [|[h b] bs IH]; [reflexivity|]. destruct bs as [|[h2 b2] bs]; [reflexivity|].
    change (read_plines ((h, b) :: (h2, b2) :: bs)) with (b :: read_plines ((h2, b2) :: bs)). cbn [length] in *. lia.
  Qed.

  Lemma good_pline_one_line p : good_pline to_float p -> one_line (pline_text p).
  Proof.
    destruct p as [k v|t|t w h|]; cbn [good_pline pline_text].
    - intros ((H1 & _) & (H2 & _) & _). apply Forall_app. split; [exact H1|]. constructor; [reflexivity|exact H2].
    - intros (H & _). constructor; [reflexivity|exact H].
    - intros (H1 & (H2 & _) & (H3 & _) & _). constructor; [reflexivity|].
      apply Forall_app. split; [exact H1|]. constructor; [reflexivity|].
      apply Forall_app. split; [exact H2|]. constructor; [reflexivity|].
      apply Forall_app. split; [exact H3|]. repeat constructor.
    - intros _. constructor.
  Qed.

  (* --------------------------- master ----------------------------- *)
  Lemma last_split c a b : ~ In c b -> exists pre, split_char c (a ++ c :: b) = pre ++ [b].
  Proof.
    intros H. induction a as [|x a IH].
    - exists [[]]. cbn [app split_char]. rewrite Ascii.eqb_refl, split_char_notin by exact H. reflexivity.
    - destruct IH as (pre & IH). cbn [app split_char]. rewrite IH. destruct (Ascii.eqb x c).
      + exists ([] :: pre). reflexivity.
      + destruct pre as [|p pre].
        * exfalso. pose proof (split_char_length c (a ++ c :: b)) as L. rewrite IH in L. cbn in L.
          rewrite count_occ_app in L. cbn [count_occ] in L. destruct (ascii_dec c c); [lia|congruence].
        * exists ((x :: p) :: pre). reflexivity.
  Qed.

  Lemma camera_index_key stem dg ext : ~ In "."%char ext -> is_digit dg = true ->
    camera_index (stem ++ "_"%char :: dg :: "."%char :: ext) = Ok (Z.of_nat (nat_of_ascii dg) - 48 - 1)%Z.
  Proof.
    intros He Hd. unfold camera_index.
    assert (R : splitext_root (stem ++ "_"%char :: dg :: "."%char :: ext) = stem ++ "_"%char :: [dg]).
    { unfold splitext_root.
      replace (stem ++ "_"%char :: dg :: "."%char :: ext) with ((stem ++ "_"%char :: [dg]) ++ "."%char :: ext)
        by (rewrite <- app_assoc; reflexivity).
      rewrite rfind_last by exact He. rewrite Nat2Z.id, firstn_app, firstn_all, Nat.sub_diag. cbn [firstn]. rewrite app_nil_r.
      replace (Z.of_nat _ <? 0)%Z with false by (symmetry; apply Z.ltb_ge; lia). cbn [orb].
      rewrite forallb_app. cbn [forallb]. change (Ascii.eqb "."%char "_"%char) with false. cbn [andb]. rewrite andb_false_r. reflexivity. }
    rewrite R. destruct (last_split "_"%char stem [dg]) as (pre & E).
    { intros [H|[]]. subst dg. discriminate. }
    rewrite E, py_get_last. cbn [bind length Nat.eqb negb].
    assert (P : py_int [dg] = Ok (Z.of_nat (nat_of_ascii dg) - 48)%Z).
    { destruct dg as [[] [] [] [] [] [] [] []]; vm_compute in Hd; try discriminate; reflexivity. }
    rewrite P. reflexivity.
  Qed.

  Lemma camera_index_long stem s ext : ~ In "."%char ext -> ~ In "_"%char s -> length s <> 1%nat ->
    camera_index (stem ++ "_"%char :: s ++ "."%char :: ext) = Err ValueError.
  Proof.
    intros He Hs Hl. unfold camera_index.
    assert (R : splitext_root (stem ++ "_"%char :: s ++ "."%char :: ext) = stem ++ "_"%char :: s).
    { unfold splitext_root.
      replace (stem ++ "_"%char :: s ++ "."%char :: ext) with ((stem ++ "_"%char :: s) ++ "."%char :: ext)
        by (rewrite <- app_assoc; reflexivity).
      rewrite rfind_last by exact He. rewrite Nat2Z.id, firstn_app, firstn_all, Nat.sub_diag. cbn [firstn]. rewrite app_nil_r.
      replace (Z.of_nat _ <? 0)%Z with false by (symmetry; apply Z.ltb_ge; lia). cbn [orb].
      rewrite forallb_app. cbn [forallb]. change (Ascii.eqb "."%char "_"%char) with false. cbn [andb]. rewrite andb_false_r. reflexivity. }
    rewrite R. destruct (last_split "_"%char stem s Hs) as (pre & E).
    rewrite E, py_get_last. cbn [bind]. rewrite (proj2 (Nat.eqb_neq _ _) Hl). reflexivity.
  Qed.

  Definition rkey : text := txt "r_matrix_computed".

  Lemma master_get (external : dict (list F)) internal cals : forall m0 m,
    foldM (master_step external internal) cals m0 = Ok m ->
    (forall key c, In (key, c) cals -> NoDup (map fst cals) -> key <> rkey ->
       exists ext cam ip, dict_get external key = Ok ext /\ camera_index key = Ok cam /\ py_get internal cam = Ok ip /\
         dict_get m key = Ok (MEntry c ext ip)) /\
    (forall key, ~ In key (map fst cals) -> key <> rkey -> dict_get m key = dict_get m0 key) /\
    (forall pre key c, cals = pre ++ [(key, c)] -> exists ext, dict_get external key = Ok ext /\ dict_get m rkey = Ok (MRMatrix ext)).
  Proof.
    induction cals as [|[k0 c0] cals IH]; intros m0 m H.
    - cbn in H. injection H as <-. split; [|split].
      + intros key c [].
      + auto.
      + intros pre key c E. destruct pre; discriminate.
    - cbn [foldM] in H. unfold master_step at 1 in H. cbn [fst snd] in H.
      destruct (dict_get external k0) as [ext| |] eqn:Ee; cbn [bind] in H; try discriminate.
      destruct (camera_index k0) as [cam| |] eqn:Ec; cbn [bind] in H; try discriminate.
      destruct (py_get internal cam) as [ip| |] eqn:Ei; cbn [bind] in H; try discriminate.
      destruct (IH _ _ H) as (H1 & H2 & H3). fold rkey in H2. split; [|split].
      + intros key c [E|Hi] Hnd Hk.
        * injection E as -> ->. cbn [map fst] in Hnd. inversion Hnd as [|? ? Hni _]; subst.
          exists ext, cam, ip. repeat split; auto. rewrite H2 by assumption.
          rewrite dict_get_set_neq by congruence. apply dict_get_set_eq.
        * cbn [map fst] in Hnd. inversion Hnd; subst. apply H1; auto.
      + intros key Hn Hk. cbn [map fst] in Hn. rewrite H2 by (auto; intros Hx; apply Hn; right; exact Hx).
        rewrite dict_get_set_neq by congruence. apply dict_get_set_neq. intros ->. apply Hn. left; reflexivity.
      + intros pre key c E. destruct cals as [|kc cals].
        * destruct pre as [|x pre]; [|destruct pre; discriminate]. injection E as -> ->.
          cbn in H. injection H as <-. exists ext. split; [exact Ee|]. apply dict_get_set_eq.
        * destruct pre as [|x pre]; [discriminate|]. injection E as _ E. apply (H3 pre key c E).
  Qed.

  (* ----------------------------- EO ------------------------------- *)
  Lemma append_fields_spec cols : forall parts (k : nat),
    append_fields to_float cols parts (Z.of_nat k) =
    let vs := good_prefix to_float (firstn (length cols) (skipn k parts)) in
    map2 (fun c v => c ++ [v]) (firstn (length vs) cols) vs ++ skipn (length vs) cols.
  Proof.
    induction cols as [|c cols IH]; intros parts k.
    - cbn [length firstn good_prefix append_fields]. reflexivity.
    - cbn [append_fields length].
      destruct (nth_error parts k) as [t|] eqn:E.
      + assert (G : py_get parts (Z.of_nat k) = Ok t).
        { rewrite (py_get_nth parts k ([] : text)) by (apply nth_error_Some; congruence). f_equal. apply nth_error_nth; exact E. }
        assert (S1 : skipn k parts = t :: skipn (S k) parts).
        { clear -E. revert k E. induction parts as [|p parts IHp]; intros [|k] E; cbn in *; try discriminate; [congruence|apply IHp; exact E]. }
        rewrite G, S1. cbn [bind firstn good_prefix]. unfold float_. destruct (to_float t) as [v|].
        * cbn [length firstn map2 app skipn]. replace (Z.of_nat k + 1)%Z with (Z.of_nat (S k)) by lia.
          rewrite IH. reflexivity.
        * reflexivity.
      + assert (G : py_get parts (Z.of_nat k) = Err IndexError).
        { apply py_get_out. right. unfold zlen. apply nth_error_None in E. lia. }
        rewrite G. cbn [bind]. apply nth_error_None in E. rewrite skipn_all2 by exact E. reflexivity.
  Qed.

  Lemma good_prefix_length ts : (length (good_prefix to_float ts) <= length ts)%nat.
  Proof. induction ts as [|t ts IH]; cbn [good_prefix length]; [lia|]. destruct (to_float t); cbn [length]; lia. Qed.

  Lemma eo_line_nth cols line j : length cols = 9%nat ->
    nth j (eo_line to_float cols line) [] =
    nth j cols [] ++ match nth_error (eo_values to_float line) j with Some v => [v] | None => [] end.
  Proof.
    intros L. unfold eo_line. change 1%Z with (Z.of_nat 1). rewrite append_fields_spec. cbv zeta. rewrite L.
    fold (eo_values to_float line). set (vs := eo_values to_float line).
    assert (Hv : (length vs <= length cols)%nat).
    { unfold vs, eo_values. pose proof (good_prefix_length (firstn 9 (skipn 1 (split_ws line)))). rewrite firstn_length in H. lia. }
    clearbody vs. clear L. revert cols j Hv. induction vs as [|v vs IH]; intros cols j Hv.
    - cbn [length firstn map2 app skipn]. destruct j; cbn [nth_error]; rewrite app_nil_r; reflexivity.
    - destruct cols as [|c cols]; [cbn in Hv; lia|]. cbn [length firstn map2 app skipn].
      destruct j as [|j]; [reflexivity|]. cbn [nth nth_error]. apply IH. cbn in Hv. lia.
  Qed.

  Lemma map2_length {A B C} (f : A -> B -> C) l m : length l = length m -> length (map2 f l m) = length l.
  Proof. revert m; induction l as [|a l IH]; intros [|b m] H; cbn in *; try lia. rewrite IH; lia. Qed.

  Lemma eo_line_length cols line : length cols = 9%nat -> length (eo_line to_float cols line) = 9%nat.
  Proof.
    intros L. unfold eo_line. change 1%Z with (Z.of_nat 1). rewrite append_fields_spec. cbv zeta. rewrite L.
    set (vs := good_prefix _ _).
    assert (Hv : (length vs <= 9)%nat).
    { unfold vs. pose proof (good_prefix_length (firstn 9 (skipn 1 (split_ws line)))). rewrite firstn_length in H. lia. }
    rewrite app_length, map2_length, firstn_length, skipn_length by (rewrite firstn_length; lia). lia.
  Qed.

  Lemma eo_fold lines : forall cols, length cols = 9%nat ->
    length (fold_left (eo_line to_float) lines cols) = 9%nat /\
    forall j, nth j (fold_left (eo_line to_float) lines cols) [] =
      nth j cols [] ++ flat_map (fun line => match nth_error (eo_values to_float line) j with Some v => [v] | None => [] end) lines.
  Proof.
    induction lines as [|l lines IH]; intros cols L.
    - cbn [fold_left flat_map]. split; [exact L|]. intros j. rewrite app_nil_r. reflexivity.
    - cbn [fold_left flat_map]. destruct (IH _ (eo_line_length cols l L)) as [H1 H2]. split; [exact H1|].
      intros j. rewrite H2, eo_line_nth by exact L. rewrite <- app_assoc. reflexivity.
  Qed.

  Lemma nth_repeat_nil {A} n j : nth j (repeat (@nil A) n) [] = [].
  Proof. revert j; induction n as [|n IH]; intros [|j]; cbn; auto. Qed.

  Lemma eo_load_columns content : length (eo_load to_float content) = 9%nat /\
    forall j, nth j (eo_load to_float content) [] =
      flat_map (fun line => match nth_error (eo_values to_float line) j with Some v => [v] | None => [] end) (file_lines content).
  Proof.
    unfold eo_load. destruct (eo_fold (file_lines content) (repeat [] 9) (repeat_length _ _)) as [H1 H2].
    split; [exact H1|]. intros j. rewrite H2, nth_repeat_nil. reflexivity.
  Qed.

  Lemma eo_values_length line : (length (eo_values to_float line) <= 9)%nat.
  Proof.
    unfold eo_values. pose proof (good_prefix_length (firstn 9 (skipn 1 (split_ws line)))). rewrite firstn_length in H. lia.
  Qed.
End Files.
